(** Histories: all sequences of calls by all processes from the creation of the grid on, and the
    invariant that holds after each of them. *)
From Verif Require Import U64 MapModel MapSpec MapProofs MapFamily MapProps HoodModel MeshModel
  MeshSpec MeshBase HoodProps MeshWalk MeshFind MeshKids MeshItem MeshCheck MeshTo MeshNear
  Sets RefineModel RefineGeo RefineInv RefineSpread RefineMerge RefineFold RefineExec RefineStop
  BalanceModel RefineReqs Create SfcModel SfcCreate Balance.
Open Scope Z_scope.

Section History.
Context {D : Type} (d0 : D) (g : grid).
Notation m := (g_map g).
Notation t := (g_topo g).
Notation n := (g_len g).
Notation np := (g_np g).

(** ** Calls *)
Definition set_rank (st : Z -> proc D) (r : Z) (p : proc D) : Z -> proc D := fun x => if x =? r then p else st x.
Definition with_store (p : proc D) (s : store D) : proc D := Proc (p_req p) (p_cache p) s.

(** calls of one process (first argument) and calls of all processes together *)
Inductive call :=
| Refine (r c : Z) | Unrefine (r c : Z) | DontRefine (r c : Z) | DontUnrefine (r c : Z)
| Pin (r c q : Z) | Unpin (r c : Z) | UnpinLocal (r : Z) | Weight (r c w : Z)
| Write (r c : Z) (v : D) | Clear (r : Z)
| UnpinAll | Stop | Load (given : Z -> list Z) | LoadBalance (k : nat) (z : Z -> answer).

(** the state after a call; see RefineModel and BalanceModel for the functions *)
Definition run (st : Z -> proc D) (a : call) : outcome (Z -> proc D) :=
  match a with
  | Refine r c => do x <- refine_completely g (st r) c; Done (set_rank st r (with_reqs (st r) (snd x)))
  | Unrefine r c => do x <- unrefine_completely g (st r) c; Done (set_rank st r (with_reqs (st r) (snd x)))
  | DontRefine r c => Done (set_rank st r (with_reqs (st r) (snd (dont_refine g (st r) c))))
  | DontUnrefine r c => do x <- dont_unrefine g (st r) c; Done (set_rank st r (with_reqs (st r) (snd x)))
  | Pin r c q => Done (set_rank st r (with_store (st r) (snd (pin g r (p_store (st r)) c q))))
  | Unpin r c => Done (set_rank st r (with_store (st r) (snd (unpin g r (p_store (st r)) c))))
  | UnpinLocal r => Done (set_rank st r (with_store (st r) (snd (unpin_local_cells g r (p_store (st r))))))
  | Weight r c w => Done (set_rank st r (with_store (st r) (snd (set_cell_weight g r (p_store (st r)) c w))))
  | Write r c v => Done (set_rank st r (with_store (st r) (write (p_store (st r)) c v)))
  | Clear r => Done (set_rank st r (clear_refined_unrefined_data (st r)))
  | UnpinAll => Done (fun r => with_store (st r) (unpin_all_cells (p_store (st r))))
  | Stop => do res <- stop_refining d0 g st; Done (fun r => fst (res r))
  | Load given => load_cells d0 g st given
  | LoadBalance k z => balance_load d0 g k st z
  end.

(** the owner of a cell as rank r knows it *)
Definition owner (st : Z -> proc D) (r c : Z) : option Z := find c (s_proc (p_store (st r))).

(** calls are made by existing ranks, and the partitioner's answers fit together *)
Definition allowed (st : Z -> proc D) (a : call) : Prop :=
  match a with
  | Refine r _ | Unrefine r _ | DontRefine r _ | DontUnrefine r _ | Pin r _ _ | Unpin r _ | UnpinLocal r
  | Weight r _ _ | Write r _ _ | Clear r => In r (ranks g)
  | UnpinAll | Stop | Load _ => True
  | LoadBalance _ z => exists dest, answers_ok g (owner st 0) z dest
  end.

End History.

(** states after any calls, also after copying a grid with any other type of cell data; the grid is
    created with either distribution of level 0 cells (with or without USE_SFC, along any curve) *)
Inductive reach (g : grid) : forall D : Type, D -> (Z -> proc D) -> Prop :=
| reached_init D d0 st : initialize d0 g = Done st -> reach g D d0 st
| reached_curve D d0 curve batches st : space_filling (g_map g) curve -> initialize_sfc d0 g curve batches = Done st -> reach g D d0 st
| reached_step D d0 st a st' : reach g D d0 st -> allowed g st a -> run d0 g st a = Done st' -> reach g D d0 st'
| reached_copy D d0 D' (d0' : D') st : reach g D d0 st -> reach g D' d0' (copied d0' st).
Definition reachable {D} (d0 : D) (g : grid) (st : Z -> proc D) : Prop := reach g D d0 st.
Lemma reach_init {D} (d0 : D) g st : initialize d0 g = Done st -> reachable d0 g st.
Proof. apply reached_init. Qed.
Lemma reach_curve {D} (d0 : D) g curve batches st : space_filling (g_map g) curve -> initialize_sfc d0 g curve batches = Done st -> reachable d0 g st.
Proof. apply reached_curve. Qed.
Lemma reach_step {D} (d0 : D) g st a st' : reachable d0 g st -> allowed g st a -> run d0 g st a = Done st' -> reachable d0 g st'.
Proof. apply reached_step. Qed.
Lemma reach_copy {D D'} (d0 : D) (d0' : D') g st : reachable d0 g st -> reachable d0' g (copied d0' st).
Proof. apply reached_copy. Qed.

Section Invariant.
Context {D : Type} (d0 : D) (g : grid).
Notation m := (g_map g).
Notation t := (g_topo g).
Notation n := (g_len g).
Notation np := (g_np g).
Notation call := (call (D := D)).
Notation run := (run d0 g).
Notation owner := (owner (D := D)).
Notation allowed := (allowed g).

(** ** The invariant *)
Context (Hg : grid_ok g).

Lemma rebuild_ext r (s s' : store D) : s_proc s = s_proc s' -> keys (s_data s) = keys (s_data s') -> rebuild g r s = rebuild g r s'.
Proof.
  intros E1 E2. unfold rebuild, build_bnd. assert (exb s = exb s') as -> by (unfold exb; rewrite E1; reflexivity). rewrite E1, E2.
  assert (forall a b c, remote_of r s a b c = remote_of r s' a b c) as R by (intros; unfold remote_of; rewrite E1; reflexivity).
  assert (forall a b l, mapM (fun c => do l <- remote_of r s a b c; Done (c, l)) l = mapM (fun c => do l <- remote_of r s' a b c; Done (c, l)) l) as Rm.
  { intros a b l. induction l as [|x l IH]; cbn [mapM]; [reflexivity|]. rewrite R, IH. reflexivity. }
  destruct (build_of g (exb s') (keys (s_proc s'))) as [x| |]; cbn [bind]; try reflexivity. destruct (build_to g (exb s') (keys (s_proc s'))) as [y| |]; cbn [bind]; try reflexivity. rewrite Rm. reflexivity.
Qed.

Definition inv (own : Z -> option Z) (st : Z -> proc D) : Prop := good g own st /\ pins_ok g own st.

Lemma inv_reqs own st r q : inv own st -> In r (ranks g) -> reqs_ok g own r q -> inv own (set_rank st r (with_reqs (st r) q)).
Proof.
  intros [(Hw & Hg0) [P1 P2]] Ir Hq. split.
  - split; [assumption|]. intros x Ix. unfold set_rank. destruct (Z.eqb_spec x r) as [->|]; [|auto]. cbn [with_reqs p_store p_cache p_req]. destruct (Hg0 r Ir) as (A & B & _). auto.
  - split.
    + intros x y c Ix Iy. unfold set_rank. destruct (Z.eqb_spec x r) as [->|]; destruct (Z.eqb_spec y r) as [->|]; cbn [with_reqs p_store]; auto.
    + intros x Ix. unfold set_rank. destruct (Z.eqb_spec x r) as [->|]; [|auto]. cbn [with_reqs p_store]. apply (P2 r Ir).
Qed.

(** a change of one rank's store that keeps cells and their data where they are and committed pins *)
Lemma inv_store own st r s' : inv own st -> In r (ranks g) -> s_proc s' = s_proc (p_store (st r)) ->
  keys (s_data s') = keys (s_data (p_store (st r))) -> s_pin s' = s_pin (p_store (st r)) ->
  (forall c q, find c (s_newpin s') = Some q -> own c = Some r /\ 0 <= q <= np) ->
  (forall c w, find c (s_wt s') = Some w -> own c = Some r) -> NoDup (keys (s_newpin s')) -> NoDup (keys (s_wt s')) ->
  inv own (set_rank st r (with_store (st r) s')).
Proof.
  intros [(Hw & Hg0) [P1 P2]] Ir Ep Ed Epi Hn Hwt Nn Nw. split.
  - split; [assumption|]. intros x Ix. unfold set_rank. destruct (Z.eqb_spec x r) as [->|]; [|auto]. cbn [with_store p_store p_cache p_req]. destruct (Hg0 r Ir) as ((A1 & A2 & A3 & A4) & B & C).
    split; [|split; [|assumption]].
    + split; [rewrite Ep; assumption|]. split; [rewrite Ep; assumption|]. split; [rewrite Ed; assumption|]. intros c. rewrite <- A4, !has_find, <- !keys_find, Ed. reflexivity.
    + rewrite <- B. apply rebuild_ext; assumption.
  - split.
    + intros x y c Ix Iy. unfold set_rank. destruct (Z.eqb_spec x r) as [->|]; destruct (Z.eqb_spec y r) as [->|]; cbn [with_store p_store]; rewrite ?Epi; auto.
    + intros x Ix. unfold set_rank. destruct (Z.eqb_spec x r) as [->|]; [|auto]. cbn [with_store p_store]. cbn zeta. rewrite Epi. destruct (P2 r Ir) as (Q1 & _ & _ & Q2 & _). cbn zeta in *. auto 10.
Qed.

Lemma inv_leaf own st r c : inv own st -> In r (ranks g) -> local_leaf g r (p_store (st r)) c = true <-> own c = Some r.
Proof.
  intros [(Hw & Hg0) _] Ir. destruct (Hg0 r Ir) as (So & _). pose proof So as (F & _). unfold local_leaf. rewrite F. destruct (own c) as [q|] eqn:O; [|split; discriminate].
  assert (c =? get_child_ex (exb (p_store (st r))) m c = true) as ->.
  { apply Z.eqb_eq. symmetry. pose proof (store_mesh g own r _ Hw So) as (_ & _ & T & _). apply (get_child_ex_leaf m (proj1 Hg) _ T). rewrite (exb_exo own r _ c So). unfold exo. rewrite O. reflexivity. }
  rewrite andb_true_r, Z.eqb_eq. split; [intros ->; reflexivity|congruence].
Qed.

Lemma inv_pin own st r c q : inv own st -> In r (ranks g) -> inv own (set_rank st r (with_store (st r) (snd (pin g r (p_store (st r)) c q)))).
Proof.
  intros Hi Ir. destruct (proj2 (proj2 Hi) r Ir) as (P1 & P2 & P3 & P4 & P5 & P6). cbn zeta in *. pose proof (inv_leaf own st r c Hi Ir) as L.
  unfold pin. destruct (local_leaf g r (p_store (st r)) c) eqn:El; cbn [negb].
  2:{ apply inv_store; auto. }
  destruct (Z.ltb_spec q 0); cbn [orb]; [apply inv_store; auto|]. destruct (Z.leb_spec np q); [apply inv_store; auto|].
  assert (inv own (set_rank st r (with_store (st r) (with_newpin (p_store (st r)) (put c q (s_newpin (p_store (st r)))))))) as A.
  { apply inv_store; cbn [with_newpin s_proc s_data s_pin s_newpin s_wt]; auto.
    - intros x p. rewrite find_put. destruct (Z.eqb_spec x c) as [->|]; [|apply P2]. intros [= <-]. split; [tauto|lia].
    - apply put_NoDup. assumption. }
  destruct (find c (s_pin (p_store (st r)))) as [p|]; [|exact A]. destruct (p =? q); [apply inv_store; auto|exact A].
Qed.

Lemma unpin_keeps r (s : store D) c : s_proc (snd (unpin g r s c)) = s_proc s /\ s_data (snd (unpin g r s c)) = s_data s /\ s_pin (snd (unpin g r s c)) = s_pin s /\ s_wt (snd (unpin g r s c)) = s_wt s.
Proof. unfold unpin. destruct (negb _); [auto|]. destruct (has c (s_pin s)); cbn; auto. Qed.
Lemma inv_unpin (own : Z -> option Z) r (s : store D) c : In r (ranks g) -> grid_ok g -> (local_leaf g r s c = true -> own c = Some r) ->
  ((forall c q, find c (s_newpin s) = Some q -> own c = Some r /\ 0 <= q <= np) /\ NoDup (keys (s_newpin s))) ->
  ((forall x q, find x (s_newpin (snd (unpin g r s c))) = Some q -> own x = Some r /\ 0 <= q <= np) /\ NoDup (keys (s_newpin (snd (unpin g r s c))))).
Proof.
  intros Ir (_ & _ & _ & Hnp) Hl [P2 P5]. unfold unpin. destruct (local_leaf g r s c) eqn:El; cbn [negb]; [|auto]. specialize (Hl eq_refl).
  destruct (has c (s_pin s)); cbn [snd with_newpin s_newpin]; split.
  - intros x p. rewrite find_put. destruct (Z.eqb_spec x c) as [->|]; [|apply P2]. intros [= <-]. split; [assumption|lia].
  - apply put_NoDup. assumption.
  - intros x p. rewrite find_del. destruct (Z.eqb_spec x c) as [->|]; [discriminate|apply P2].
  - apply del_NoDup. assumption.
Qed.
Lemma local_leaf_ext r (s s' : store D) c : s_proc s' = s_proc s -> local_leaf g r s' c = local_leaf g r s c.
Proof. intros E. unfold local_leaf. assert (exb s' = exb s) as -> by (unfold exb; rewrite E; reflexivity). rewrite E. reflexivity. Qed.

Lemma inv_unpins own st r l : inv own st -> In r (ranks g) -> forall b0,
  let s := snd (fold_left (fun x c => let u := unpin g r (snd x) c in (fst x && fst u, snd u)) l (b0, p_store (st r))) in
  inv own (set_rank st r (with_store (st r) s)).
Proof.
  intros Hi Ir b0. cbn zeta. destruct (proj2 (proj2 Hi) r Ir) as (P1 & P2 & P3 & P4 & P5 & P6). cbn zeta in *.
  assert (forall x, (s_proc (snd x) = s_proc (p_store (st r)) /\ s_data (snd x) = s_data (p_store (st r)) /\ s_pin (snd x) = s_pin (p_store (st r)) /\ s_wt (snd x) = s_wt (p_store (st r)) /\
      (forall c q, find c (s_newpin (snd x)) = Some q -> own c = Some r /\ 0 <= q <= np) /\ NoDup (keys (s_newpin (snd x)))) ->
    let s := snd (fold_left (fun x c => let u := unpin g r (snd x) c in (fst x && fst u, snd u)) l (x : bool * store D)) in
      s_proc s = s_proc (p_store (st r)) /\ s_data s = s_data (p_store (st r)) /\ s_pin s = s_pin (p_store (st r)) /\ s_wt s = s_wt (p_store (st r)) /\
      (forall c q, find c (s_newpin s) = Some q -> own c = Some r /\ 0 <= q <= np) /\ NoDup (keys (s_newpin s))) as H.
  { induction l as [|c l IH]; intros x Hx; [exact Hx|]. cbn [fold_left]. apply IH. cbn [snd]. destruct (unpin_keeps r (snd x) c) as (E1 & E2 & E3 & E4). rewrite E1, E2, E3, E4. destruct Hx as (F1 & F2 & F3 & F4 & F5). do 4 (split; [assumption|]).
    apply (inv_unpin own r (snd x) c Ir Hg); [|assumption]. rewrite (local_leaf_ext r _ _ c F1). apply (inv_leaf own st r c Hi Ir). }
  specialize (H (b0, p_store (st r))). cbn [snd] in H. destruct H as (F1 & F2 & F3 & F4 & F5 & F6); [auto 10|]. apply inv_store; auto; [rewrite F2; reflexivity|rewrite F4; assumption|rewrite F4; assumption].
Qed.

Lemma inv_weight own st r c w : inv own st -> In r (ranks g) -> inv own (set_rank st r (with_store (st r) (snd (set_cell_weight g r (p_store (st r)) c w)))).
Proof.
  intros Hi Ir. destruct (proj2 (proj2 Hi) r Ir) as (P1 & P2 & P3 & P4 & P5 & P6). cbn zeta in *. pose proof (inv_leaf own st r c Hi Ir) as L.
  unfold set_cell_weight. destruct (local_leaf g r (p_store (st r)) c) eqn:El; cbn [negb]; [|apply inv_store; auto].
  apply inv_store; cbn [snd s_proc s_data s_pin s_newpin s_wt]; auto.
  - intros x p. rewrite find_put. destruct (Z.eqb_spec x c) as [->|]; [|apply P3]. intros _. tauto.
  - apply put_NoDup. assumption.
Qed.
Lemma inv_write own st r c v : inv own st -> In r (ranks g) -> inv own (set_rank st r (with_store (st r) (write (p_store (st r)) c v))).
Proof.
  intros Hi Ir. destruct (proj2 (proj2 Hi) r Ir) as (P1 & P2 & P3 & P4 & P5 & P6). cbn zeta in *. apply inv_store; cbn [write s_proc s_data s_pin s_newpin s_wt]; auto.
  unfold keys. rewrite map_map. reflexivity.
Qed.
Lemma inv_clear own st r : inv own st -> In r (ranks g) -> inv own (set_rank st r (clear_refined_unrefined_data (st r))).
Proof.
  intros Hi Ir. destruct (proj2 (proj2 Hi) r Ir) as (P1 & P2 & P3 & P4 & P5 & P6). cbn zeta in *.
  change (clear_refined_unrefined_data (st r)) with (with_store (st r) (Store (s_proc (p_store (st r))) (s_data (p_store (st r))) [] [] (s_pin (p_store (st r))) (s_newpin (p_store (st r))) (s_wt (p_store (st r))))). apply inv_store; auto.
Qed.
Lemma inv_unpin_all own st : inv own st -> inv own (fun r => with_store (st r) (unpin_all_cells (p_store (st r)))).
Proof.
  intros [(Hw & Hg0) [P1 P2]]. split; [split; [assumption|]|split].
  - intros r Ir. cbn [with_store p_store p_cache p_req]. destruct (Hg0 r Ir) as (A & B & C). split; [exact A|]. split; [|assumption]. rewrite <- B. apply rebuild_ext; reflexivity.
  - reflexivity.
  - intros r Ir. cbn [with_store p_store unpin_all_cells s_pin s_newpin s_wt]. cbn zeta. destruct (P2 r Ir) as (_ & _ & Q & _ & _ & N). cbn zeta in *.
    split; [intros c q; discriminate|]. split; [intros c q; discriminate|]. split; [assumption|]. split; [constructor|]. split; [constructor|assumption].
Qed.

(** a commit keeps pins and weights in order *)
Lemma refined_gone own st own' res c : good g own st -> committed d0 g own st own' res -> all_refined g own st c -> exo own' c = false.
Proof.
  intros Hgood C R. destruct (RefineExec.R_ok g own st Hgood c R) as [E _]. destruct (exo own' c) eqn:E'; [|reflexivity]. exfalso. apply (cm_ex _ _ _ _ _ _ C) in E'. destruct E' as [(_ & Q & _)|[Q|Q]].
  - contradiction.
  - pose proof (created_not_ex g Hg own st Hgood c Q). congruence.
  - pose proof (merged_not_ex g Hg own st Hgood c Q). congruence.
Qed.
Lemma removed_gone own st own' res c : good g own st -> committed d0 g own st own' res -> removed g own st c -> exo own' c = false.
Proof.
  intros Hgood C R. destruct (removed_ex g Hg own st Hgood c R) as [E _]. destruct (exo own' c) eqn:E'; [|reflexivity]. exfalso. apply (cm_ex _ _ _ _ _ _ C) in E'. destruct R as (_ & L & M). destruct E' as [(_ & _ & Q)|[Q|Q]].
  - tauto.
  - pose proof (created_not_ex g Hg own st Hgood c Q). congruence.
  - pose proof (merged_not_ex g Hg own st Hgood c Q). congruence.
Qed.
Lemma created_here own st own' res c : committed d0 g own st own' res -> created g own st c -> exo own' c = true.
Proof. intros C Q. apply (cm_ex _ _ _ _ _ _ C). right. left. exact Q. Qed.
(** cells that exist after a commit and did not exist before it *)
Lemma new_cell own st own' res c : good g own st -> committed d0 g own st own' res -> exo own c = false -> exo own' c = true ->
  created g own st c \/ ~ created g own st c /\ merged g own st c.
Proof.
  intros Hgood C E E'. apply (cm_ex _ _ _ _ _ _ C) in E'. destruct E' as [(Q & _)|[Q|Q]]; [congruence|left; exact Q|right]. split; [|assumption].
  intros Q'. apply (created_not_merged g Hg own st Hgood c Q' Q).
Qed.

(** the four ways of a value attached to a cell through a commit *)
Lemma handed_cases own st own' res loc f f' c : good g own st -> committed d0 g own st own' res -> handed g own own' st loc f f' ->
  (exo own c = true /\ exo own' c = true /\ find c f' = find c f) \/
  (exo own c = true /\ exo own' c = false /\ (loc c \/ find c f = None -> find c f' = None)) \/
  (exo own c = false /\ exo own' c = true /\ created g own st c /\ (loc (get_parent m c) -> find c f' = match find (get_parent m c) f with Some v => Some v | None => find c f end) /\
    (~ loc (get_parent m c) -> find c f = None -> find c f' = None)) \/
  (exo own c = false /\ ~ created g own st c /\ (find c f = None -> find c f' = None)).
Proof.
  intros Hgood C (H1 & H2 & H3 & H4 & _). destruct (exo own c) eqn:E, (exo own' c) eqn:E'.
  - left. split; [reflexivity|]. split; [reflexivity|]. apply H3; [|auto]. intros [Q _]. pose proof (created_not_ex g Hg own st Hgood c Q). congruence.
  - right. left. split; [reflexivity|]. split; [reflexivity|]. intros [L|F]; [apply H2; assumption|]. apply H4; [|assumption]. intros [Q _]. pose proof (created_not_ex g Hg own st Hgood c Q). congruence.
  - right. right. destruct (new_cell own st own' res c Hgood C E E') as [Q|[Q Mg]].
    + left. do 3 (split; [auto|]). split; [intros L; apply H1; assumption|]. intros L. apply H4. tauto.
    + right. split; [reflexivity|]. split; [assumption|]. apply H4. tauto.
  - right. right. right. split; [reflexivity|]. assert (~ created g own st c) as N by (intros Q; pose proof (created_here own st own' res c C Q); congruence). split; [assumption|]. apply H4. tauto.
Qed.

Lemma inv_commit own st own' res : inv own st -> committed d0 g own st own' res -> inv own' (fun r => fst (res r)).
Proof.
  intros [Hgood [P1 P2]] C. split; [apply (cm_good _ _ _ _ _ _ C)|]. split.
  - intros r q c Ir Iq. pose proof (handed_cases own st own' res _ _ _ c Hgood C (cm_pin _ _ _ _ _ _ C r Ir)) as Hr. pose proof (handed_cases own st own' res _ _ _ c Hgood C (cm_pin _ _ _ _ _ _ C q Iq)) as Hq.
    assert (exo own c = false -> find c (s_pin (p_store (st r))) = None /\ find c (s_pin (p_store (st q))) = None) as Nn.
    { intros E. split; [destruct (find c (s_pin (p_store (st r)))) eqn:F|destruct (find c (s_pin (p_store (st q)))) eqn:F]; try reflexivity; [apply (P2 r Ir) in F|apply (P2 q Iq) in F]; destruct F; congruence. }
    destruct Hr as [(A & B & F)|[(A & B & F)|[(A & B & K & F & _)|(A & K & F)]]]; destruct Hq as [(A' & B' & F')|[(A' & B' & F')|[(A' & B' & K' & F' & _)|(A' & K' & F')]]]; try congruence; try contradiction.
    + rewrite F, F'. apply P1; assumption.
    + rewrite F, F' by auto. reflexivity.
    + rewrite F, F' by exact I. rewrite (P1 r q (get_parent m c) Ir Iq), (P1 r q c Ir Iq). reflexivity.
    + destruct (Nn A) as [N1 N2]. rewrite F, F' by assumption. reflexivity.
  - intros r Ir. cbn zeta. destruct (P2 r Ir) as (Q1 & Q2 & Q3 & N1 & N2 & N3). cbn zeta in *. split; [|split; [|split; [|split; [|split]]]].
    + intros c q F'. pose proof (handed_cases own st own' res _ _ _ c Hgood C (cm_pin _ _ _ _ _ _ C r Ir)) as [(A & B & F)|[(A & B & F)|[(A & B & K & F & _)|(A & K & F)]]].
      * rewrite F in F'. apply Q1 in F'. tauto.
      * rewrite F in F' by auto. discriminate.
      * split; [assumption|]. rewrite F in F' by exact I. destruct (find (get_parent m c) (s_pin (p_store (st r)))) eqn:Fp; [injection F' as <-; apply (Q1 _ _ Fp)|apply (Q1 _ _ F')].
      * destruct (find c (s_pin (p_store (st r)))) eqn:Fc; [apply Q1 in Fc; destruct Fc; congruence|]. rewrite F in F' by reflexivity. discriminate.
    + intros c q F'. pose proof (handed_cases own st own' res _ _ _ c Hgood C (cm_newpin _ _ _ _ _ _ C r Ir)) as [(A & B & F)|[(A & B & F)|[(A & B & K & F & _)|(A & K & F)]]].
      * rewrite F in F'. apply Q2 in F'. rewrite (cm_keep _ _ _ _ _ _ C c A B). assumption.
      * rewrite F in F' by auto. discriminate.
      * rewrite (cm_kid _ _ _ _ _ _ C c K). rewrite F in F' by exact I. destruct (find (get_parent m c) (s_newpin (p_store (st r)))) eqn:Fp; [injection F' as <-; apply (Q2 _ _ Fp)|].
        apply Q2 in F'. unfold exo in A. destruct F' as [O _]. rewrite O in A. discriminate.
      * destruct (find c (s_newpin (p_store (st r)))) eqn:Fc; [apply Q2 in Fc; destruct Fc as [O _]; unfold exo in A; rewrite O in A; discriminate|]. rewrite F in F' by reflexivity. discriminate.
    + intros c w F'. pose proof (handed_cases own st own' res _ _ _ c Hgood C (cm_wt _ _ _ _ _ _ C r Ir)) as [(A & B & F)|[(A & B & F)|[(A & B & K & F & Fn)|(A & K & F)]]].
      * rewrite F in F'. apply Q3 in F'. rewrite (cm_keep _ _ _ _ _ _ C c A B). assumption.
      * rewrite F in F'; [discriminate|]. destruct (find c (s_wt (p_store (st r)))) eqn:Fc; [left; apply (Q3 _ _ Fc)|right; reflexivity].
      * rewrite (cm_kid _ _ _ _ _ _ C c K). destruct (find c (s_wt (p_store (st r)))) eqn:Fc; [apply Q3 in Fc; unfold exo in A; rewrite Fc in A; discriminate|].
        destruct (own (get_parent m c)) as [o|] eqn:O; [|rewrite Fn in F'; [discriminate|congruence|reflexivity]]. destruct (Z.eq_dec o r) as [->|No]; [reflexivity|]. rewrite Fn in F'; [discriminate|congruence|reflexivity].
      * destruct (find c (s_wt (p_store (st r)))) eqn:Fc; [apply Q3 in Fc; unfold exo in A; rewrite Fc in A; discriminate|]. rewrite F in F' by reflexivity. discriminate.
    + apply (cm_pin _ _ _ _ _ _ C r Ir). assumption.
    + apply (cm_newpin _ _ _ _ _ _ C r Ir). assumption.
    + apply (cm_wt _ _ _ _ _ _ C r Ir). assumption.
Qed.

(** ** Loading *)
Lemma with_reqs_twice (p : proc D) q q' : with_reqs (with_reqs p q) q' = with_reqs p q'. Proof. reflexivity. Qed.
Lemma refine_all_ok own (st : Z -> proc D) r cells : good g own st -> In r (ranks g) -> exists q, refine_all g (st r) cells = Done (with_reqs (st r) q) /\ reqs_ok g own r q /\
  (forall x, In x (r_noref q) <-> In x (r_noref (p_req (st r)))) /\ (forall x, In x (r_unref q) -> In x (r_unref (p_req (st r)))) /\
  (forall x, In x (r_ref q) -> In x (r_ref (p_req (st r))) \/ In x cells) /\
  (forall x, In x (r_ref (p_req (st r))) \/ In x cells /\ own x = Some r /\ lvl_of m x < m_max m /\ (forall y, ~ In y (r_noref (p_req (st r)))) -> In x (r_ref q)).
Proof.
  revert st. induction cells as [|c cells IH]; intros st Hgood Ir; unfold refine_all; cbn [foldM].
  - exists (p_req (st r)). split; [destruct (st r); reflexivity|]. split; [apply Hgood; assumption|]. split; [tauto|]. split; [tauto|]. split; [tauto|]. intros x [Q|[[] _]]. assumption.
  - destruct (refine_completely_ok g Hg own st Hgood r Ir c) as (b & q1 & E1 & Q1 & B1 & _ & A1 & A2 & _ & A3). rewrite E1. cbn [bind snd].
    pose (st1 := set_rank st r (with_reqs (st r) q1)).
    assert (good g own st1) as G1.
    { destruct Hgood as [Hw Hg0]. split; [assumption|]. intros x Ix. unfold st1, set_rank. destruct (Z.eqb_spec x r) as [->|]; [|auto]. cbn [with_reqs p_store p_cache p_req]. destruct (Hg0 r Ir) as (? & ? & _). auto. }
    destruct (IH st1 G1 Ir) as (q2 & E2 & Q2 & A4 & A5 & A6 & A7). unfold st1, set_rank in *. rewrite Z.eqb_refl in *. unfold refine_all in E2. rewrite E2. rewrite with_reqs_twice. exists q2. cbn [with_reqs p_req] in *.
    split; [reflexivity|]. split; [assumption|]. split; [intros x; rewrite A4, A2; tauto|]. split; [intros x Hx; apply A3, A5, Hx|]. split.
    + intros x Hx. apply A6 in Hx. destruct Hx as [Hx|Hx]; [|right; right; assumption]. apply A1 in Hx. destruct Hx as [Hx|(_ & -> & _)]; [left; assumption|right; left; reflexivity].
    + intros x Hx. apply A7. destruct Hx as [Hx|([<-|Hx] & O & L & Nr)].
      * left. apply A1. auto.
      * left. apply A1. right. split; [|auto]. apply B1. split; [assumption|]. right. split; [apply Nr|]. intros y _ _ _. apply Nr.
      * right. split; [assumption|]. split; [assumption|]. split; [assumption|]. intros y. rewrite A2. apply Nr.
Qed.

Lemma inv_many own (st : Z -> proc D) (q : Z -> reqs) st' : inv own st -> (forall r, In r (ranks g) -> st' r = with_reqs (st r) (q r) /\ reqs_ok g own r (q r)) -> inv own st'.
Proof.
  intros [(Hw & Hg0) [P1 P2]] E. split; [split; [assumption|]|split].
  - intros r Ir. destruct (E r Ir) as [-> Q]. cbn [with_reqs p_store p_cache p_req]. destruct (Hg0 r Ir) as (? & ? & _). auto.
  - intros r x c Ir Ix. destruct (E r Ir) as [-> _], (E x Ix) as [-> _]. cbn [with_reqs p_store]. auto.
  - intros r Ir. destruct (E r Ir) as [-> _]. cbn [with_reqs p_store]. apply (P2 r Ir).
Qed.
Lemma inv_clear_all own st : inv own st -> inv own (fun r => clear_refined_unrefined_data (st r)).
Proof.
  intros [(Hw & Hg0) [P1 P2]]. split; [split; [assumption|]|split].
  - intros r Ir. destruct (Hg0 r Ir) as (A & B & C). split; [exact A|]. split; [|exact C]. cbn [clear_refined_unrefined_data p_store p_cache]. rewrite <- B. apply rebuild_ext; reflexivity.
  - intros r q c Ir Iq. apply P1; assumption.
  - intros r Ir. apply (P2 r Ir).
Qed.
Lemma load_levels_inv k : forall own st over l, inv own st -> exists own' st', load_levels d0 g k st over l = Done st' /\ inv own' st'.
Proof.
  induction k as [|k IH]; intros own st over l Hi; cbn [load_levels]; [eauto|]. unfold each.
  destruct (collect_ok (ranks g) (fun r => refine_all g (st r) (to_refine_at g (over r) l)) st (fun r p => exists q, p = with_reqs (st r) q /\ reqs_ok g own r q)) as (st1 & E1 & H1).
  { intros r Ir. destruct (refine_all_ok own st r (to_refine_at g (over r) l) (proj1 Hi) Ir) as (q & E & Q & _). eexists. split; [exact E|]. eauto. }
  rewrite E1. cbn [bind]. assert (inv own st1) as Hi1.
  { apply (inv_many own st (fun r => p_req (st1 r)) st1 Hi). intros r Ir. destruct (H1 r Ir) as (_ & q & E & Q). rewrite E. cbn [with_reqs p_req]. auto. }
  destruct (stop_refining_ok d0 g Hg own st1 (proj1 Hi1)) as (own2 & res & E2 & C). rewrite E2. cbn [bind]. apply (IH own2). apply (inv_clear_all own2 (fun r => fst (res r))). apply (inv_commit own st1 own2 res Hi1 C).
Qed.

(** ** Every history *)
Lemma initialize_inv : exists st, initialize d0 g = Done st /\ inv (own0 g) st.
Proof.
  destruct (initialize_ok d0 g Hg) as (st & E & G & S). exists st. split; [assumption|]. split; [assumption|]. split.
  - intros r q c Ir Iq. destruct (S r Ir) as [-> _], (S q Iq) as [-> _]. reflexivity.
  - intros r Ir. destruct (S r Ir) as [-> _]. cbn [created_store s_pin s_newpin s_wt]. cbn zeta. split; [intros c q; discriminate|]. split; [intros c q; discriminate|]. split; [intros c q; discriminate|]. split; [constructor|]. split; constructor.
Qed.
Lemma initialize_sfc_inv curve batches st : space_filling m curve -> initialize_sfc d0 g curve batches = Done st -> exists own, inv own st.
Proof.
  intros Hc E. destruct (initialize_sfc_ok d0 g Hg curve Hc batches st E) as (cells & _ & G & S). exists (sfc_own cells). split; [assumption|]. split.
  - intros r q c Ir Iq. destruct (S r Ir) as [-> _], (S q Iq) as [-> _]. reflexivity.
  - intros r Ir. destruct (S r Ir) as [-> _]. cbn [sfc_store s_pin s_newpin s_wt]. cbn zeta. split; [intros c q; discriminate|]. split; [intros c q; discriminate|]. split; [intros c q; discriminate|]. split; [constructor|]. split; constructor.
Qed.
Lemma answers_ext own own' z dest : (forall c, own c = own' c) -> answers_ok g own z dest -> answers_ok g own' z dest.
Proof.
  intros E [A B]. split.
  - intros c q Q. destruct (A c q Q) as [X Y]. split; [|assumption]. unfold exo in *. rewrite <- E. assumption.
  - destruct B as [B|B]; [left; assumption|right]. intros r Ir. destruct (B r Ir) as (i & e & H1 & H2 & H3 & H4 & H5). exists i, e. do 3 (split; [assumption|]). split; intros c q N; rewrite <- E; auto.
Qed.
Lemma owner_eq own st r c : inv own st -> In r (ranks g) -> owner st r c = own c.
Proof. intros [(_ & Hg0) _] Ir. destruct (Hg0 r Ir) as ((F & _) & _). apply F. Qed.

(** calls that neither change the cells nor move them *)
Definition quiet (a : call) : Prop := match a with Stop | Load _ | LoadBalance _ _ => False | _ => True end.

Lemma quiet_ok own st a : inv own st -> allowed st a -> quiet a -> exists st', run st a = Done st' /\ inv own st'.
Proof.
  intros Hi Ha Hq. pose proof Hi as [Hgood Hp]. destruct a as [r c|r c|r c|r c|r c q|r c|r|r c w|r c v|r| | |given|k z]; cbn [run allowed quiet] in *; try contradiction.
  - destruct (refine_completely_ok g Hg own st Hgood r Ha c) as (b & q & E & Q & _). rewrite E. cbn [bind snd]. eexists. split; [reflexivity|]. apply inv_reqs; assumption.
  - destruct (unrefine_completely_ok g Hg own st Hgood r Ha c) as (b & q & E & Q & _). rewrite E. cbn [bind snd]. eexists. split; [reflexivity|]. apply inv_reqs; assumption.
  - destruct (dont_refine_ok g Hg own st Hgood r Ha c) as (Q & _). eexists. split; [reflexivity|]. apply inv_reqs; assumption.
  - destruct (dont_unrefine_ok g Hg own st Hgood r Ha c) as (b & q & E & Q & _). rewrite E. cbn [bind snd]. eexists. split; [reflexivity|]. apply inv_reqs; assumption.
  - eexists. split; [reflexivity|]. apply inv_pin; assumption.
  - eexists. split; [reflexivity|]. pose proof (inv_unpins own st r [c] Hi Ha true) as H. cbn [fold_left snd] in H. exact H.
  - eexists. split; [reflexivity|]. apply (inv_unpins own st r (keys (s_data (p_store (st r)))) Hi Ha true).
  - eexists. split; [reflexivity|]. apply inv_weight; assumption.
  - eexists. split; [reflexivity|]. apply inv_write; assumption.
  - eexists. split; [reflexivity|]. apply inv_clear; assumption.
  - eexists. split; [reflexivity|]. apply inv_unpin_all; assumption.
Qed.

Lemma run_ok own st a : inv own st -> allowed st a -> exists own' st', run st a = Done st' /\ inv own' st'.
Proof.
  intros Hi Ha. pose proof Hi as [Hgood Hp].
  assert (quiet a \/ ~ quiet a) as [Hq|Nq] by (destruct a; cbn; tauto); [destruct (quiet_ok own st a Hi Ha Hq) as (st' & E); eauto|].
  destruct a as [r c|r c|r c|r c|r c q|r c|r|r c w|r c v|r| | |given|k z]; cbn [run allowed quiet] in *; try (exfalso; apply Nq; exact I).
  - destruct (stop_refining_ok d0 g Hg own st Hgood) as (own' & res & E & C). rewrite E. cbn [bind]. eexists own', _. split; [reflexivity|]. apply (inv_commit own st own' res Hi C).
  - unfold load_cells. apply (load_levels_inv _ own). assumption.
  - destruct Ha as (dest & Hz). assert (answers_ok g own z dest) as Hz'. { apply (answers_ext (owner st 0)); [|assumption]. intros c. apply owner_eq; [assumption|]. apply (Balance.rank0 g Hg). }
    destruct (balance_load_ok d0 g Hg own st Hgood Hp z dest Hz' k) as (res & E & B). eexists _, res. split; [exact E|]. split; [apply (bl_good _ _ _ _ _ _ _ B)|apply (bl_pins_ok _ _ _ _ _ _ _ B)].
Qed.

End Invariant.

Lemma copied_inv {D D'} (d0' : D') g own (st : Z -> proc D) : inv g own st -> inv g own (copied d0' st).
Proof.
  intros [(Hw & Hr) (P1 & P2)].
  assert (forall s : list (Z * D), keys (map (fun e => (fst e, d0')) s) = keys s) as Ek by (intros s; unfold keys; rewrite map_map; reflexivity).
  split; [split; [assumption|]|split].
  - intros r Ir. destruct (Hr r Ir) as ((A1 & A2 & A3 & A4) & B & _). cbn [copied p_store p_cache p_req]. split; [|split].
    + split; [exact A1|]. split; [exact A2|]. cbn [s_data]. split; [rewrite Ek; exact A3|]. intros c. rewrite <- A4, !has_find, <- !keys_find, Ek. reflexivity.
    + rewrite <- B. unfold rebuild, build_bnd. cbn [s_proc s_data]. rewrite Ek. reflexivity.
    + split; intros c [].
  - intros r q c. apply P1.
  - intros r Ir. apply (P2 r Ir).
Qed.
Lemma reachable_inv {D} (d0 : D) g (Hg : grid_ok g) st : reachable d0 g st -> exists own, inv g own st.
Proof.
  intros R. induction R as [D d0 st E|D d0 curve batches st Hc E|D d0 st a st' _ (own & Hi) Ha E|D d0 D' d0' st _ (own & Hi)].
  - destruct (initialize_inv d0 g Hg) as (st0 & E0 & Hi). assert (st0 = st) as <- by congruence. eauto.
  - apply (initialize_sfc_inv d0 g Hg curve batches); assumption.
  - destruct (run_ok d0 g Hg own st a Hi Ha) as (own' & st1 & E1 & Hi1). assert (st1 = st') as <- by congruence. eauto.
  - exists own. apply copied_inv. assumption.
Qed.

Section Sequences.
Context {D : Type} (d0 : D) (g : grid).
Notation m := (g_map g).
Notation t := (g_topo g).
Notation n := (g_len g).
Notation np := (g_np g).
Notation call := (call (D := D)).
Notation run := (run d0 g).
Notation owner := (owner (D := D)).
Notation allowed := (allowed g).
Notation reachable := (reachable d0 g).
Notation inv := (inv g).
Notation quiet := (quiet (D := D)).
Context (Hg : grid_ok g).
Notation quiet_ok := (quiet_ok d0 g Hg).

(** ** Sequences of calls *)
Inductive runs : (Z -> proc D) -> list call -> (Z -> proc D) -> Prop :=
| runs_nil st : runs st [] st
| runs_cons st a st1 l st2 : allowed st a -> run st a = Done st1 -> runs st1 l st2 -> runs st (a :: l) st2.
Definition all_quiet (l : list call) : Prop := forall a, In a l -> quiet a.

Lemma runs_reachable st l st' : reachable st -> runs st l st' -> reachable st'.
Proof. intros R H. induction H as [st|st a st1 l st2 Ha E H IH]; [assumption|]. apply IH. apply reach_step with st a; assumption. Qed.

Lemma quiet_inv own st a st' : inv own st -> allowed st a -> quiet a -> run st a = Done st' -> inv own st'.
Proof. intros Hi Ha Hq E. destruct (quiet_ok own st a Hi Ha Hq) as (st1 & E1 & H). assert (st1 = st') as <- by congruence. assumption. Qed.
Lemma quiets_inv own st l st' : inv own st -> runs st l st' -> all_quiet l -> inv own st'.
Proof.
  intros Hi H. induction H as [st|st a st1 l st2 Ha E H IH]; intros Hq; [assumption|]. apply IH; [|intros x Hx; apply Hq; right; assumption]. apply (quiet_inv own st a); auto. apply Hq. left. reflexivity.
Qed.

(** what a quiet call does to the requests of rank q *)
Record req_step (st : Z -> proc D) (a : call) (st' : Z -> proc D) (q : Z) : Prop := ReqStep {
  rs_ref : forall x, In x (r_ref (p_req (st q))) -> a <> DontRefine q x -> In x (r_ref (p_req (st' q)));
  rs_ref_new : forall x, In x (r_ref (p_req (st' q))) -> In x (r_ref (p_req (st q))) \/ a = Refine q x;
  rs_noref : forall x, In x (r_noref (p_req (st q))) -> In x (r_noref (p_req (st' q)));
  rs_noref_new : forall x, In x (r_noref (p_req (st' q))) -> In x (r_noref (p_req (st q))) \/ a = DontRefine q x;
  rs_unref_new : forall x, In x (r_unref (p_req (st' q))) -> In x (r_unref (p_req (st q))) \/ a = Unrefine q x;
  rs_nounref : forall x, In x (r_nounref (p_req (st q))) -> In x (r_nounref (p_req (st' q))) }.

Lemma req_same st a st' q : p_req (st' q) = p_req (st q) -> req_step st a st' q.
Proof. intros E. constructor; rewrite E; auto. Qed.
Lemma req_step_ok own st a st' q : inv own st -> allowed st a -> quiet a -> run st a = Done st' -> In q (ranks g) -> req_step st a st' q.
Proof.
  intros [Hgood Hp] Ha Hq E Iq. destruct a as [r c|r c|r c|r c|r c x|r c|r|r c w|r c v|r| | |given|k z]; cbn [run allowed quiet] in *; try contradiction.
  - destruct (refine_completely_ok g Hg own st Hgood r Ha c) as (b & q' & E1 & _ & _ & _ & A & B & C & F). rewrite E1 in E. cbn [bind snd] in E. injection E as <-. unfold set_rank.
    destruct (Z.eqb_spec q r) as [->|N]; [|apply req_same; destruct (Z.eqb_spec q r); [contradiction|reflexivity]]. constructor; rewrite ?Z.eqb_refl; cbn [with_reqs p_req].
    + intros x Hx _. apply A. auto.
    + intros x Hx. apply A in Hx. destruct Hx as [Hx|(_ & -> & _)]; auto.
    + intros x Hx. apply B. assumption.
    + intros x Hx. left. apply B. assumption.
    + intros x Hx. left. apply F. assumption.
    + apply C.
  - destruct (unrefine_completely_ok g Hg own st Hgood r Ha c) as (b & q' & E1 & _ & _ & A & B & C & F & _). rewrite E1 in E. cbn [bind snd] in E. injection E as <-. unfold set_rank.
    destruct (Z.eqb_spec q r) as [->|N]; [|apply req_same; destruct (Z.eqb_spec q r); [contradiction|reflexivity]]. constructor; rewrite ?Z.eqb_refl; cbn [with_reqs p_req].
    + intros x Hx _. apply A. auto.
    + intros x Hx. left. apply A. assumption.
    + intros x Hx. apply B. assumption.
    + intros x Hx. left. apply B. assumption.
    + intros x Hx. apply F in Hx. destruct Hx as [Hx|[-> _]]; auto.
    + intros x Hx. apply C. assumption.
  - destruct (dont_refine_ok g Hg own st Hgood r Ha c) as (_ & _ & A & B & C & F). injection E as <-. unfold set_rank.
    destruct (Z.eqb_spec q r) as [->|N]; [|apply req_same; destruct (Z.eqb_spec q r); [contradiction|reflexivity]]. constructor; rewrite ?Z.eqb_refl; cbn [with_reqs p_req].
    + intros x Hx Nx. apply B. split; [assumption|]. intros ->. exfalso. apply Nx. reflexivity.
    + intros x Hx. left. apply B in Hx. apply Hx.
    + intros x Hx. apply A. auto.
    + intros x Hx. apply A in Hx. destruct Hx as [Hx|(-> & _)]; auto.
    + intros x Hx. rewrite C in Hx. auto.
    + intros x Hx. rewrite F. assumption.
  - destruct (dont_unrefine_ok g Hg own st Hgood r Ha c) as (b & q' & E1 & _ & _ & _ & A & B & C & F & _). rewrite E1 in E. cbn [bind snd] in E. injection E as <-. unfold set_rank.
    destruct (Z.eqb_spec q r) as [->|N]; [|apply req_same; destruct (Z.eqb_spec q r); [contradiction|reflexivity]]. constructor; rewrite ?Z.eqb_refl; cbn [with_reqs p_req].
    + intros x Hx _. apply A. auto.
    + intros x Hx. left. apply A. assumption.
    + intros x Hx. apply B. assumption.
    + intros x Hx. left. apply B. assumption.
    + intros x Hx. left. apply F. assumption.
    + apply C.
  - injection E as <-. apply req_same. unfold set_rank. destruct (Z.eqb_spec q r) as [->|]; reflexivity.
  - injection E as <-. apply req_same. unfold set_rank. destruct (Z.eqb_spec q r) as [->|]; reflexivity.
  - injection E as <-. apply req_same. unfold set_rank. destruct (Z.eqb_spec q r) as [->|]; reflexivity.
  - injection E as <-. apply req_same. unfold set_rank. destruct (Z.eqb_spec q r) as [->|]; reflexivity.
  - injection E as <-. apply req_same. unfold set_rank. destruct (Z.eqb_spec q r) as [->|]; reflexivity.
  - injection E as <-. apply req_same. unfold set_rank. destruct (Z.eqb_spec q r) as [->|]; reflexivity.
  - injection E as <-. apply req_same. reflexivity.
Qed.

(** requests along quiet calls *)
Record req_steps (st : Z -> proc D) (l : list call) (st' : Z -> proc D) (q : Z) : Prop := ReqSteps {
  rss_ref : forall x, In x (r_ref (p_req (st q))) -> ~ In (DontRefine q x) l -> In x (r_ref (p_req (st' q)));
  rss_ref_new : forall x, In x (r_ref (p_req (st' q))) -> In x (r_ref (p_req (st q))) \/ In (Refine q x) l;
  rss_noref : forall x, In x (r_noref (p_req (st q))) -> In x (r_noref (p_req (st' q)));
  rss_noref_new : forall x, In x (r_noref (p_req (st' q))) -> In x (r_noref (p_req (st q))) \/ In (DontRefine q x) l;
  rss_unref_new : forall x, In x (r_unref (p_req (st' q))) -> In x (r_unref (p_req (st q))) \/ In (Unrefine q x) l;
  rss_nounref : forall x, In x (r_nounref (p_req (st q))) -> In x (r_nounref (p_req (st' q))) }.
Lemma req_steps_ok own st l st' q : inv own st -> runs st l st' -> all_quiet l -> In q (ranks g) -> req_steps st l st' q.
Proof.
  intros Hi H Hq Iq. induction H as [st|st a st1 l st2 Ha E H IH]; [constructor; auto|].
  assert (quiet a) as Qa by (apply Hq; left; reflexivity). specialize (IH (quiet_inv own st a st1 Hi Ha Qa E) ltac:(intros x Hx; apply Hq; right; assumption)).
  destruct (req_step_ok own st a st1 q Hi Ha Qa E Iq) as [A1 A2 A3 A4 A5 A6]. destruct IH as [B1 B2 B3 B4 B5 B6]. constructor; cbn [In].
  - intros x Hx N. apply B1; [apply A1; [assumption|intros ->; apply N; auto]|auto].
  - intros x Hx. destruct (B2 x Hx) as [Q|Q]; [destruct (A2 x Q); auto|auto].
  - auto.
  - intros x Hx. destruct (B4 x Hx) as [Q|Q]; [destruct (A4 x Q); auto|auto].
  - intros x Hx. destruct (B5 x Hx) as [Q|Q]; [destruct (A5 x Q); auto|auto].
  - auto.
Qed.
End Sequences.
