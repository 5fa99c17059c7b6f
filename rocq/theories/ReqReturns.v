(** C79: what refine_completely, unrefine_completely, dont_refine and dont_unrefine return. *)
From Verif Require Import U64 MapModel MapSpec MapProofs MapFamily MapProps HoodModel MeshModel
  MeshSpec MeshBase HoodProps MeshWalk MeshFind MeshKids MeshItem MeshCheck MeshTo MeshNear
  Sets RefineModel RefineGeo RefineInv RefineSpread RefineMerge RefineFold RefineExec RefineStop
  BalanceModel RefineReqs Create Balance History HistProps Adapt HistExamples.
Open Scope Z_scope.

(** ** Calls that return false do nothing *)
Section Nothing.
Context {D : Type} (g : grid) (p : proc D).
Theorem c79_refused_refine_does_nothing c q' : refine_completely g p c = Done (false, q') -> q' = p_req p.
Proof.
  unfold refine_completely. cbv zeta. destruct (c =? error_cell); [intros E; injection E; auto|]. destruct (negb (exb _ c)); [intros E; injection E; auto|]. destruct (negb (has _ _)); [intros E; injection E; auto|].
  destruct (_ =? _); [intros E; apply bind_done in E; destruct E as (? & _ & E); discriminate|]. destruct (mem _ _); [intros E; injection E; auto|]. intros E. apply bind_done in E. destruct E as (a & _ & E).
  destruct (existsb _ a); [injection E; auto|]. apply bind_done in E. destruct E as (b & _ & E). discriminate.
Qed.
Theorem c79_refused_unrefine_does_nothing c q' : unrefine_completely g p c = Done (false, q') -> q' = p_req p.
Proof.
  unfold unrefine_completely. cbv zeta. destruct (c =? error_cell); [intros E; injection E; auto|]. destruct (negb (exb _ c)); [intros E; injection E; auto|]. destruct (negb (has _ _)); [intros E; injection E; auto|].
  destruct (_ =? _); [discriminate|]. destruct (_ || _)%bool; [discriminate|]. destruct (sib_check _ _ _ _); [intros E; injection E; auto|]. intros E. apply bind_done in E. destruct E as (a & _ & E).
  destruct (existsb _ a); [discriminate|]. destruct (existsb _ _); discriminate.
Qed.
Theorem c79_refused_dont_refine_does_nothing c : fst (dont_refine g p c) = false -> snd (dont_refine g p c) = p_req p.
Proof. unfold dont_refine. cbv zeta. destruct (c =? error_cell); [reflexivity|]. destruct (negb _); [reflexivity|]. destruct (_ =? _); discriminate. Qed.
Theorem c79_refused_dont_unrefine_does_nothing c q' : dont_unrefine g p c = Done (false, q') -> q' = p_req p.
Proof.
  unfold dont_unrefine. cbv zeta. destruct (c =? error_cell); [intros E; injection E; auto|]. destruct (negb _); [intros E; injection E; auto|]. destruct (_ =? _); [discriminate|]. destruct (_ || _)%bool; [discriminate|]. destruct (existsb _ _); discriminate.
Qed.
End Nothing.

Section Props.
Context {D : Type} (d0 : D) (g : grid) (Hg : grid_ok g) (st : Z -> proc D) (Hst : reachable d0 g st) (r : Z) (Ir : In r (ranks g)).
Notation m := (g_map g).
Notation t := (g_topo g).
Notation H := (g_hood g).
Notation p := (st r).
Notation q := (p_req p).

(** r owns c; c exists on some process *)
Notation local c := (owner st r c = Some r).
Notation exists_ c := (exists_on st r c = true).

Lemma own_view own c : inv g own st -> owner st r c = own c.
Proof. intros Hi. apply (owner_eq g own st r c Hi Ir). Qed.
Lemma ex_view own c : inv g own st -> exists_on st r c = exo own c.
Proof. intros Hi. unfold exists_on, exo. rewrite (own_view own c Hi). reflexivity. Qed.

(** ** refine_completely *)
(** true exactly for local cells unless the cell itself or a larger neighbor is protected on this
    process; protection does not matter at maximum level *)
Theorem c79_refine_completely c : exists b q', refine_completely g p c = Done (b, q') /\
  (b = true <-> local c /\ (lvl_of m c = m_max m \/
    ~ In c (r_noref q) /\ forall x, exists_ x -> sees m t H c x -> lvl_of m x < lvl_of m c -> ~ In x (r_noref q))) /\
  (b = true -> lvl_of m c < m_max m -> In c (r_ref q')) /\
  (b = true -> lvl_of m c = m_max m -> exists b', dont_unrefine g p c = Done (b', q')).
Proof.
  destruct (reachable_inv d0 g Hg st Hst) as (own & Hi). pose proof Hi as (Hgood & _).
  destruct (refine_completely_ok g Hg own st Hgood r Ir c) as (b & q' & E & _ & B & Y & _).
  destruct (refine_exact g Hg own st Hgood r Ir c) as (b2 & q2 & E2 & N1 & N2 & N3). rewrite E in E2. injection E2 as <- <-.
  exists b, q'. split; [assumption|]. split; [|split].
  - rewrite B, (own_view own c Hi). split; intros (O & [Q|(Q1 & Q2)]); (split; [assumption|]); auto; right; (split; [assumption|]); intros x; [rewrite (ex_view own x Hi)|rewrite <- (ex_view own x Hi)]; apply Q2.
  - intros Eb L. apply (Y Eb L).
  - intros Eb L. apply N2; [|assumption]. apply (proj1 (proj1 B Eb)).
Qed.

(** ** dont_refine *)
(** true exactly for cells that exist, on this process or another one *)
Theorem c79_dont_refine c :
  (fst (dont_refine g p c) = true <-> exists_ c) /\
  (fst (dont_refine g p c) = true -> lvl_of m c < m_max m -> In c (r_noref (snd (dont_refine g p c))) /\ ~ In c (r_ref (snd (dont_refine g p c)))) /\
  (lvl_of m c = m_max m -> snd (dont_refine g p c) = q).
Proof.
  destruct (reachable_inv d0 g Hg st Hst) as (own & Hi). pose proof Hi as (Hgood & _). destruct (dont_refine_ok g Hg own st Hgood r Ir c) as (_ & B & N & R & _).
  rewrite (ex_view own c Hi). split; [assumption|]. split.
  - intros E L. apply B in E. split; [apply N; auto|]. rewrite R. intros (_ & Q). apply Q; auto.
  - intros L. unfold dont_refine. cbv zeta. change (get_refinement_level m c) with (lvl_of m c). rewrite L, Z.eqb_refl. destruct (c =? error_cell); [reflexivity|]. destruct (negb _); reflexivity.
Qed.
(** so refine_completely refuses the cell and its smaller neighbors afterwards *)
Theorem c79_refine_after_dont_refine c : fst (dont_refine g p c) = true -> lvl_of m c < m_max m ->
  let p' := with_reqs p (snd (dont_refine g p c)) in
  forall x, x = c \/ sees m t H x c /\ lvl_of m c < lvl_of m x < m_max m -> refine_completely g p' x = Done (false, p_req p').
Proof.
  intros E L p' x Hx. destruct (c79_dont_refine c) as (X & Y & _). destruct (Y E L) as [Nc _]. clear Y.
  pose (st' := set_rank st r p'). assert (reachable d0 g st') as R'.
  { apply reach_step with st (DontRefine r c); [assumption|exact Ir|reflexivity]. }
  destruct (reachable_inv d0 g Hg st' R') as (own & Hi). pose proof Hi as (Hgood & _).
  destruct (refine_completely_ok g Hg own st' Hgood r Ir x) as (b & q' & Eq & _ & B & _). assert (st' r = p') as Es by (unfold st', set_rank; rewrite Z.eqb_refl; reflexivity). rewrite Es in *.
  assert (exo own c = true) as Ec.
  { apply X in E. unfold exists_on, owner in E. unfold exo. rewrite <- (owner_eq g own st' r c Hi Ir). unfold owner. rewrite Es. exact E. }
  destruct b; [exfalso|pose proof (c79_refused_refine_does_nothing g p' x q' Eq) as ->; exact Eq].
  destruct (proj1 B eq_refl) as (_ & [Q|(Q1 & Q2)]); [destruct Hx as [->|(_ & Lx)]; lia|].
  destruct Hx as [->|(Sx & Lx)]; [apply Q1; exact Nc|]. apply (Q2 c Ec Sx ltac:(lia)). exact Nc.
Qed.

(** ** dont_unrefine *)
(** true exactly for cells that exist, on this process or another one *)
Theorem c79_dont_unrefine c : exists b q', dont_unrefine g p c = Done (b, q') /\ (b = true <-> exists_ c) /\
  (lvl_of m c = 0 -> q' = q) /\
  (b = true -> 0 < lvl_of m c -> exists s, siblings g c s /\ In s (r_nounref q')) /\
  ((exists s, siblings g c s /\ In s (r_nounref q)) -> q' = q).
Proof.
  destruct (reachable_inv d0 g Hg st Hst) as (own & Hi). pose proof Hi as (Hgood & _). destruct (dont_unrefine_ok g Hg own st Hgood r Ir c) as (b & q' & E & _ & B & Y & _).
  exists b, q'. rewrite (ex_view own c Hi). split; [assumption|]. split; [assumption|]. unfold dont_unrefine in E. cbv zeta in E. change (get_refinement_level m c) with (lvl_of m c) in E. split; [|split; [assumption|]].
  - intros L. rewrite L in E. change (0 =? 0) with true in E. destruct (c =? error_cell); [injection E; auto|]. destruct (negb _); injection E; auto.
  - intros (s & S & Hs). rewrite (ex_eq g own st Hgood r Ir c) in E. destruct (c =? error_cell); [injection E; auto|]. destruct (exo own c) eqn:Ec; cbn [negb] in E; [|injection E; auto]. destruct (_ =? 0); [injection E; auto|]. destruct (_ || _)%bool; [discriminate|].
    assert (existsb (fun s => mem s (r_nounref q)) (get_siblings m c) = true) as Q; [|rewrite Q in E; injection E; auto].
    apply existsb_exists. exists s. split; [|apply mem_In; assumption]. apply (proj1 (sibs g Hg own st Hgood c Ec (proj1 (proj2 (proj2 S))))). exact S.
Qed.

(** ** unrefine_completely *)
(** The siblings are examined in order: false if the first one that decides has children, true if
    the first one that decides is to be refined or may not be unrefined, or if there is none. *)
Lemma sib_check_first own (Hi : inv g own st) l : (forall s, In s l -> valid m s) ->
  sib_check g (exb (p_store p)) q l = Some false <->
  exists k, (k < length l)%nat /\ exo own (nth k l 0) = false /\
    forall j, (j < k)%nat -> exo own (nth j l 0) = true /\ ~ In (nth j l 0) (r_ref q) /\ ~ In (nth j l 0) (r_nounref q).
Proof.
  pose proof Hi as (Hgood & _). pose proof (msh g own st Hgood r Ir) as (_ & _ & T & _). induction l as [|s l IH]; intros V; cbn [sib_check]; [split; [discriminate|intros (k & Hk & _); cbn in Hk; lia]|].
  pose proof (ex_eq g own st Hgood r Ir s) as Es.
  destruct (Z.eqb_spec s (get_child_ex (exb (p_store p)) m s)) as [E|E]; cbn [negb].
  - symmetry in E. pose proof (get_child_ex_eq m (proj1 Hg) (exb (p_store p)) s (V s (or_introl eq_refl)) E) as Ex. rewrite Es in Ex.
    destruct (mem s (r_ref q) || mem s (r_nounref q)) eqn:Em.
    + split; [discriminate|]. intros (k & Hk & Nk & J). destruct k as [|k]; [cbn [nth] in Nk; congruence|]. destruct (J 0%nat ltac:(lia)) as (_ & N1 & N2). cbn [nth] in N1, N2. apply orb_true_iff in Em. rewrite !mem_In in Em. tauto.
    + apply orb_false_iff in Em. rewrite !mem_not in Em. rewrite (IH (fun x Hx => V x (or_intror Hx))). split.
      * intros (k & Hk & Nk & J). exists (S k). split; [cbn [length]; lia|]. split; [exact Nk|]. intros [|j] Hj; cbn [nth]; [tauto|apply J; lia].
      * intros (k & Hk & Nk & J). destruct k as [|k]; [cbn [nth] in Nk; congruence|]. exists k. cbn [length] in Hk. split; [lia|]. split; [exact Nk|]. intros j Hj. apply (J (S j)). lia.
  - split; [|reflexivity]. intros _. exists 0%nat. split; [cbn [length]; lia|]. split; [|intros j Hj; lia]. cbn [nth]. rewrite <- Es. destruct (exb (p_store p) s) eqn:Ex; [|reflexivity]. pose proof (get_child_ex_leaf m (proj1 Hg) _ T s Ex). congruence.
Qed.
Theorem c79_unrefine_completely c : exists b q', unrefine_completely g p c = Done (b, q') /\
  (b = false <-> ~ local c \/ 0 < lvl_of m c /\ exists k, (k < 8)%nat /\ exists_on st r (nth k (get_siblings m c) 0) = false /\
    forall j, (j < k)%nat -> exists_ (nth j (get_siblings m c) 0) /\ ~ In (nth j (get_siblings m c) 0) (r_ref q) /\ ~ In (nth j (get_siblings m c) 0) (r_nounref q)).
Proof.
  destruct (reachable_inv d0 g Hg st Hst) as (own & Hi). pose proof Hi as (Hgood & _). destruct (unrefine_completely_ok g Hg own st Hgood r Ir c) as (b & q' & E & _ & Bt & _). exists b, q'. split; [assumption|].
  rewrite (own_view own c Hi). destruct b.
  - split; [discriminate|]. intros [N|(L & k & Hk & Nk & J)]; [exfalso; apply N, Bt; reflexivity|]. exfalso. specialize (Bt eq_refl).
    assert (exo own c = true) as Ec by (unfold exo; rewrite Bt; reflexivity). destruct (sibs g Hg own st Hgood c Ec L) as (Si & Len & _).
    assert (sib_check g (exb (p_store p)) q (get_siblings m c) = Some false) as Sc.
    { apply (sib_check_first own Hi); [intros s Hs; apply Si in Hs; apply Hs|]. exists k. rewrite Len. split; [assumption|]. rewrite <- (ex_view own _ Hi). split; [assumption|]. intros j Hj. rewrite <- (ex_view own _ Hi). apply J. assumption. }
    unfold unrefine_completely in E. cbv zeta in E. rewrite Sc in E. destruct (c =? error_cell); [discriminate|]. destruct (negb _); [discriminate|]. destruct (negb _); [discriminate|]. change (get_refinement_level m c) with (lvl_of m c) in E. destruct (Z.eqb_spec (lvl_of m c) 0); [lia|]. destruct (_ || _)%bool; discriminate.
  - split; [|reflexivity]. intros _. clear Bt.
    assert (own c = Some r \/ own c <> Some r) as [O|O] by (destruct (own c) as [o|]; [destruct (Z.eq_dec o r) as [->|]; [left; reflexivity|right; congruence]|right; discriminate]); [|left; assumption]. right.
    assert (exo own c = true) as Ec by (unfold exo; rewrite O; reflexivity). pose proof (own_level g Hg own st Hgood c Ec) as Lv.
    unfold unrefine_completely in E. cbv zeta in E. rewrite (ex_eq g own st Hgood r Ir c), Ec, (proj2 (has_eq g own st Hgood r Ir c) O) in E. cbn [negb] in E. change (get_refinement_level m c) with (lvl_of m c) in E.
    destruct (Z.eqb_spec c error_cell) as [->|]; [pose proof (own_valid g own st Hgood _ Ec) as V; unfold valid, error_cell in V; lia|]. destruct (Z.eqb_spec (lvl_of m c) 0); [discriminate|]. destruct (_ || _)%bool; [discriminate|].
    destruct (sibs g Hg own st Hgood c Ec ltac:(lia)) as (Si & Len & _). split; [lia|].
    destruct (sib_check g (exb (p_store p)) q (get_siblings m c)) as [[|]|] eqn:Sc; [discriminate| |].
    + apply (sib_check_first own Hi) in Sc; [|intros s Hs; apply Si in Hs; apply Hs]. destruct Sc as (k & Hk & Nk & J). exists k. rewrite Len in Hk. split; [assumption|]. rewrite (ex_view own _ Hi). split; [assumption|]. intros j Hj. rewrite (ex_view own _ Hi). apply J. assumption.
    + apply bind_done in E. destruct E as (a & _ & E). destruct (existsb _ a); [discriminate|]. destruct (existsb _ _); discriminate.
Qed.
(** in particular: false for a local family of which some have children, if nothing is asked of the others *)
Theorem c79_unrefine_beside_children c s q' b : local c -> siblings g c s -> exists_on st r s = false ->
  (forall x, siblings g c x -> ~ In x (r_ref q) /\ ~ In x (r_nounref q)) -> unrefine_completely g p c = Done (b, q') -> b = false /\ q' = q.
Proof.
  intros O Sc N F E. destruct (reachable_inv d0 g Hg st Hst) as (own & Hi). pose proof Hi as (Hgood & _). rewrite (own_view own c Hi) in O. assert (exo own c = true) as Ec by (unfold exo; rewrite O; reflexivity).
  destruct (sibs g Hg own st Hgood c Ec (proj1 (proj2 (proj2 Sc)))) as (Si & Len & _).
  assert (b = false) as ->; [|split; [reflexivity|apply (c79_refused_unrefine_does_nothing g p c); assumption]].
  destruct (c79_unrefine_completely c) as (b' & q2 & E' & B). rewrite E in E'. injection E' as <- <-. apply B. right. split; [apply Sc|].
  assert (forall l, (forall x, In x l -> siblings g c x) -> In s l -> exists k, (k < length l)%nat /\ exists_on st r (nth k l 0) = false /\
    forall j, (j < k)%nat -> exists_ (nth j l 0) /\ ~ In (nth j l 0) (r_ref q) /\ ~ In (nth j l 0) (r_nounref q)) as K.
  { induction l as [|x l IH]; intros Hl Is; [destruct Is|]. destruct (exists_on st r x) eqn:Ex.
    - destruct Is as [->|Is]; [congruence|]. destruct (IH (fun y Hy => Hl y (or_intror Hy)) Is) as (k & Hk & Nk & J). exists (S k). split; [cbn [length]; lia|]. split; [exact Nk|]. intros [|j] Hj; cbn [nth]; [split; [exact Ex|apply F, Hl; left; reflexivity]|apply J; lia].
    - exists 0%nat. split; [cbn [length]; lia|]. split; [exact Ex|intros j Hj; lia]. }
  destruct (K (get_siblings m c) (fun x Hx => proj1 (Si x) Hx) (proj2 (Si s) Sc)) as (k & Hk & J). rewrite Len in Hk. eauto.
Qed.
End Props.

(** ** What the documentation says and does not hold *)
Definition fams : list (@step Z) := map Do [Refine 0 1; Stop; Refine 0 (nth 5 kids1 0); Stop].
Definition kid0 : Z := nth 0 kids1 0.
Definition kid5 : Z := nth 5 kids1 0.
(** "returns false if given cell has already been refined and stop_refining() has not been called
    afterwards" (dccrg.hpp:2494-2495) *)
Theorem c79_refine_again_refuted : exists (g : grid) (st : Z -> proc Z) (r c : Z) q q', grid_ok g /\ reachable 0 g st /\ In r (ranks g) /\
  lvl_of (g_map g) c < m_max (g_map g) /\ refine_completely g (st r) c = Done (true, q) /\ refine_completely g (with_reqs (st r) q) c = Done (true, q').
Proof.
  assert (holds (go 0 g2 []) (fun st => holds (refine_completely g2 (st 0) 1) (fun x => fst x && holds (refine_completely g2 (with_reqs (st 0) (snd x)) 1) (fun y => fst y))) = true) as Q by (vm_compute; reflexivity).
  apply holds_ex in Q. destruct Q as (st & E & Q). apply holds_ex in Q. destruct Q as ([b q] & E1 & Q). cbn [fst snd] in Q. apply andb_true_iff in Q. destruct Q as [-> Q]. apply holds_ex in Q. destruct Q as ([b q'] & E2 & Q). cbn [fst] in Q. subst b.
  exists g2, st, 0, 1, q, q'. split; [exact g2_ok|]. split; [apply (go_reachable 0 g2 _ _ E)|]. split; [vm_compute; tauto|]. split; [vm_compute; reflexivity|]. auto.
Qed.
(** "does nothing and returns true if given cell is at maximum refinement level" (2490-2491): the
    family is protected from being unrefined (as the documentation also says, 2500) *)
Theorem c79_refine_at_maximum_does_nothing_refuted : exists (g : grid) (st : Z -> proc Z) (r c : Z) q, grid_ok g /\ reachable 0 g st /\ In r (ranks g) /\
  lvl_of (g_map g) c = m_max (g_map g) /\ refine_completely g (st r) c = Done (true, q) /\ In c (r_unref (p_req (st r))) /\ ~ In c (r_unref q).
Proof.
  pose (k := nth 0 (get_all_children (g_map g2) kid5) 0).
  assert (holds (go 0 g2 (fams ++ [Do (Unrefine 0 k)])) (fun st => holds (refine_completely g2 (st 0) k) (fun x => fst x && mem k (r_unref (p_req (st 0))) && negb (mem k (r_unref (snd x))))) = true) as Q by (vm_compute; reflexivity).
  apply holds_ex in Q. destruct Q as (st & E & Q). apply holds_ex in Q. destruct Q as ([b q] & E1 & Q). cbn [fst snd] in Q. rewrite !andb_true_iff in Q. destruct Q as [[-> Q1] Q2].
  exists g2, st, 0, k, q. split; [exact g2_ok|]. split; [apply (go_reachable 0 g2 _ _ E)|]. split; [vm_compute; tauto|]. split; [vm_compute; reflexivity|]. split; [assumption|]. split; [apply mem_In; assumption|]. apply mem_not, negb_true_iff. assumption.
Qed.
(** "does nothing and returns false if given cell or its siblings have children" (2626): not if
    another sibling that comes first is to be refined *)
Theorem c79_unrefine_with_children_refuted : exists (g : grid) (st : Z -> proc Z) (r c s x : Z), grid_ok g /\ reachable 0 g st /\ In r (ranks g) /\
  owner st r c = Some r /\ siblings g c s /\ exists_on st r s = false /\ child_of (g_map g) s x /\ exists_on st r x = true /\
  exists q', unrefine_completely g (st r) c = Done (true, q').
Proof.
  pose (x := nth 0 (get_all_children (g_map g2) kid5) 0).
  assert (holds (go 0 g2 (fams ++ [Do (Refine 0 kid0)])) (fun st => eqo (owner st 0 kid0) (Some 0) && negb (exists_on st 0 kid5) && exists_on st 0 x && match unrefine_completely g2 (st 0) kid0 with Done (true, _) => true | _ => false end && mem kid0 (r_ref (p_req (st 0)))) = true) as Q by (vm_compute; reflexivity).
  apply holds_ex in Q. destruct Q as (st & E & Q). rewrite !andb_true_iff in Q. destruct Q as [[[[Q1 Q2] Q3] Q4] Q5]. apply negb_true_iff in Q2.
  assert (owner st 0 kid0 = Some 0) as O by (destruct (owner st 0 kid0) as [o|]; cbn [eqo] in Q1; [apply Z.eqb_eq in Q1; congruence|discriminate]).
  pose proof (go_reachable 0 g2 _ _ E) as R. assert (In 0 (ranks g2)) as I0 by (vm_compute; tauto).
  assert (siblings g2 kid0 kid5) as Sb by (unfold siblings, valid; vm_compute; intuition (discriminate || reflexivity)).
  exists g2, st, 0, kid0, kid5, x. split; [exact g2_ok|]. split; [assumption|]. split; [assumption|]. split; [assumption|]. split; [assumption|]. split; [assumption|].
  split; [unfold child_of, valid; vm_compute; intuition (discriminate || reflexivity)|]. split; [assumption|].
  destruct (unrefine_completely g2 (st 0) kid0) as [[b q']| |] eqn:Eu; [|discriminate..]. destruct b; [|discriminate]. exists q'. reflexivity.
Qed.
(** "does nothing and returns false if given cell doesn't exist on this process" (2748-2750, and
    2812-2818 by reference): cells of other processes are protected *)
Theorem c79_dont_unrefine_remote_refuted : exists (g : grid) (st : Z -> proc Z) (r c : Z) q, grid_ok g /\ reachable 0 g st /\ In r (ranks g) /\
  owner st r c <> Some r /\ dont_unrefine g (st r) c = Done (true, q) /\ In c (r_nounref q).
Proof.
  assert (holds (go 0 g2 fams) (fun st => eqo (owner st 1 kid0) (Some 0) && holds (dont_unrefine g2 (st 1) kid0) (fun x => fst x && mem kid0 (r_nounref (snd x)))) = true) as Q by (vm_compute; reflexivity).
  apply holds_ex in Q. destruct Q as (st & E & Q). apply andb_true_iff in Q. destruct Q as [Q1 Q]. apply holds_ex in Q. destruct Q as ([b q] & E1 & Q). cbn [fst snd] in Q. apply andb_true_iff in Q. destruct Q as [-> Q].
  exists g2, st, 1, kid0, q. split; [exact g2_ok|]. split; [apply (go_reachable 0 g2 _ _ E)|]. split; [vm_compute; tauto|]. split; [destruct (owner st 1 kid0) as [o|]; cbn [eqo] in Q1; [apply Z.eqb_eq in Q1; congruence|discriminate]|]. split; [assumption|apply mem_In; assumption].
Qed.
Theorem c79_dont_refine_remote_refuted : exists (g : grid) (st : Z -> proc Z) (r c : Z), grid_ok g /\ reachable 0 g st /\ In r (ranks g) /\
  owner st r c <> Some r /\ fst (dont_refine g (st r) c) = true /\ In c (r_noref (snd (dont_refine g (st r) c))).
Proof.
  assert (holds (go 0 g2 []) (fun st => eqo (owner st 1 1) (Some 0) && fst (dont_refine g2 (st 1) 1) && mem 1 (r_noref (snd (dont_refine g2 (st 1) 1)))) = true) as Q by (vm_compute; reflexivity).
  apply holds_ex in Q. destruct Q as (st & E & Q). rewrite !andb_true_iff in Q. destruct Q as [[Q1 Q2] Q3].
  exists g2, st, 1, 1. split; [exact g2_ok|]. split; [apply (go_reachable 0 g2 _ _ E)|]. split; [vm_compute; tauto|]. split; [destruct (owner st 1 1) as [o|]; cbn [eqo] in Q1; [apply Z.eqb_eq in Q1; congruence|discriminate]|]. split; [assumption|apply mem_In; assumption].
Qed.

(** ** Examples *)
(** a family of which one has children; all four calls with both answers *)
Example c79_example : holds (go 0 g2 fams) (fun st =>
  holds (refine_completely g2 (st 0) kid0) (fun x => fst x && mem kid0 (r_ref (snd x))) &&
  holds (refine_completely g2 (st 1) kid0) (fun x => negb (fst x)) && holds (refine_completely g2 (st 0) kid5) (fun x => negb (fst x)) &&
  fst (dont_refine g2 (st 0) kid0) && negb (fst (dont_refine g2 (st 0) kid5)) &&
  holds (refine_completely g2 (with_reqs (st 0) (snd (dont_refine g2 (st 0) kid0))) kid0) (fun x => negb (fst x)) &&
  holds (dont_unrefine g2 (st 0) kid0) (fun x => fst x && mem kid0 (r_nounref (snd x))) && holds (dont_unrefine g2 (st 0) kid5) (fun x => negb (fst x)) &&
  holds (unrefine_completely g2 (st 0) kid0) (fun x => negb (fst x)) && holds (unrefine_completely g2 (st 1) kid0) (fun x => negb (fst x)) &&
  holds (unrefine_completely g2 (st 0) (nth 0 (get_all_children (g_map g2) kid5) 0)) (fun x => fst x && mem (nth 0 (get_all_children (g_map g2) kid5) 0) (r_unref (snd x)))) = true.
Proof. vm_compute. reflexivity. Qed.
