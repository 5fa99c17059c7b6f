(** Properties of creation, load balancing and pins. *)
From Verif Require Import U64 MapModel MapSpec MapProofs MapFamily MapProps HoodModel MeshModel
  MeshSpec MeshBase HoodProps MeshWalk MeshFind MeshKids MeshItem MeshCheck MeshTo MeshNear
  Sets RefineModel RefineGeo RefineInv RefineSpread RefineMerge RefineFold RefineExec RefineStop
  BalanceModel RefineReqs Create Balance History HistProps CommitProps.
Open Scope Z_scope.

Section Props.
Context {D : Type} (d0 : D) (g : grid) (Hg : grid_ok g).
Notation m := (g_map g).
Notation np := (g_np g).
Notation reachable := (reachable d0 g).
Notation runs := (runs d0 g).
Notation rank r := (In r (ranks g)).
Notation rank0 := (rank0 g Hg).
Notation view := (view g).
Notation viewx := (viewx g).
Notation T := (vol (dims_of m)).
Notation effective_pin := (effective_pin g).

(** ** Creation *)
(** process q gets the cells after [first q] up to [first (q + 1)]; T is the number of level 0 cells *)
Theorem c29_initial_distribution st : initialize d0 g = Done st ->
  exists first : Z -> Z, first 0 = 0 /\ first np = T /\
  (forall p, 0 <= p < np -> T / np <= first (p + 1) - first p <= T / np + 1) /\
  forall r c q, rank r -> owner st r c = Some q <-> 0 <= q < np /\ first q < c <= first (q + 1).
Proof.
  intros E. destruct (initialize_inv d0 g Hg) as (st' & E' & Hi). assert (st' = st) as -> by congruence.
  exists (start T np). pose proof Hg as (_ & _ & _ & Hnp). pose proof (vol_bound g Hg) as Vb.
  split; [apply start_0; assumption|]. split; [apply start_np; assumption|]. split.
  - intros p Hp. rewrite (start_succ T np Vb Hnp), (create_eq T np Vb Hnp). pose proof (cpp_range T np Vb Hnp) as [_ C].
    assert (cells_per_process T np = T / np \/ cells_per_process T np = T / np + 1) as Q.
    { unfold cells_per_process. destruct (Z.ltb_spec T np); [right; rewrite Z.div_small by lia; reflexivity|]. destruct (0 <? T mod np); auto. }
    pose proof (Z.mul_div_le T np ltac:(lia)). destruct Q as [Q|Q]; rewrite Q in *; destruct (Z.ltb_spec p ((T / np) * np - T)); destruct (Z.ltb_spec p ((T / np + 1) * np - T)); lia.
  - intros r c q Ir. rewrite (view _ st r c Hi Ir). apply (own0_spec g Hg).
Qed.
Theorem c29_every_level_0_cell_once st r c : initialize d0 g = Done st -> rank r -> exists_on st r c = true <-> 1 <= c <= T.
Proof.
  intros E Ir. destruct (initialize_inv d0 g Hg) as (st' & E' & Hi). assert (st' = st) as -> by congruence. rewrite (viewx _ st r c Hi Ir). apply (own0_ex g Hg).
Qed.

(** ** Load balancing *)
Lemma balance_view st k z dest st' : reachable st -> answers_ok g (owner st 0) z dest -> balance_load d0 g k st z = Done st' ->
  exists own, inv g own st /\ inv g (target g own st dest) st' /\ balanced_to d0 g own st dest (0 <? Z.of_nat k) st'.
Proof.
  intros R Hz E. destruct (reachable_inv d0 g Hg st R) as (ow & Hi).
  assert (answers_ok g ow z dest) as Hz' by (apply (answers_ext g (owner st 0)); [intros x; apply (view ow st 0 x Hi rank0)|assumption]).
  destruct (balance_load_ok d0 g Hg ow st (proj1 Hi) (proj2 Hi) z dest Hz' k) as (res & E' & B). assert (res = st') as -> by congruence.
  exists ow. split; [assumption|]. split; [split; apply B|assumption].
Qed.

(** [dest c] is the process to which the partitioner wants to move cell c, None if it leaves it *)
Theorem c30_balancing_moves_cells st k z dest st' r c : reachable st -> answers_ok g (owner st 0) z dest -> balance_load d0 g k st z = Done st' -> rank r ->
  owner st' r c = match owner st 0 c with
                  | None => None
                  | Some o => Some (match effective_pin st c with Some q => q | None => match dest c with Some q => q | None => o end end)
                  end.
Proof.
  intros R Hz E Ir. destruct (balance_view st k z dest st' R Hz E) as (own & Hi & Hi' & B). rewrite (view _ st' r c Hi' Ir), (view own st 0 c Hi rank0), (effective_pin_eq g Hg own st c Hi). unfold target.
  destruct (own c); [|reflexivity]. destruct (pin_after g own st c); [reflexivity|]. destruct (dest c); reflexivity.
Qed.
(** k is the number of times continue_balance_load is called, one in balance_load *)
Theorem c30_balancing_keeps_data st k z dest st' o q c : reachable st -> answers_ok g (owner st 0) z dest -> (1 <= k)%nat -> balance_load d0 g k st z = Done st' ->
  owner st 0 c = Some o -> owner st' 0 c = Some q ->
  (exists v, data_of (st o) c = Some v /\ data_of (st' q) c = Some v) /\ forall p, rank p -> p <> q -> data_of (st' p) c = None.
Proof.
  intros R Hz Hk E O O'. destruct (balance_view st k z dest st' R Hz E) as (own & Hi & Hi' & B). rewrite (view own st 0 c Hi rank0) in O. rewrite (view _ st' 0 c Hi' rank0) in O'.
  assert (rank o) as Io by (apply (proj2 (proj1 (proj1 Hi)) c o O)). assert (rank q) as Iq by (apply (proj2 (proj1 (proj1 Hi')) c q O')).
  destruct (data_local g own st o c Hi Io O) as (v & Fv). split.
  - exists v. unfold data_of. rewrite Fv. split; [reflexivity|]. destruct (bl_data _ _ _ _ _ _ _ B q c O') as (o' & Oo & F). assert (o' = o) as -> by congruence.
    destruct (Z.ltb_spec 0 (Z.of_nat k)); [|lia]. rewrite orb_true_r in F. rewrite F, Fv. reflexivity.
  - intros p Ip N. unfold data_of. rewrite (data_not_local g _ st' p c Hi' Ip) by congruence. destruct (bl_rest _ _ _ _ _ _ _ B p Ip) as (_ & _ & -> & -> & _). reflexivity.
Qed.
Theorem c30_nothing_else_appears st k z dest st' p c : reachable st -> answers_ok g (owner st 0) z dest -> balance_load d0 g k st z = Done st' -> rank p ->
  exists_on st 0 c = false -> exists_on st' p c = false /\ data_of (st' p) c = None.
Proof.
  intros R Hz E Ip Ex. destruct (balance_view st k z dest st' R Hz E) as (own & Hi & Hi' & B). unfold exists_on in *. rewrite (c30_balancing_moves_cells st k z dest st' p c R Hz E Ip).
  destruct (owner st 0 c) eqn:O; [discriminate|]. split; [reflexivity|]. rewrite (view own st 0 c Hi rank0) in O. unfold data_of.
  rewrite (data_not_local g _ st' p c Hi' Ip) by (unfold target; rewrite O; discriminate). destruct (bl_rest _ _ _ _ _ _ _ B p Ip) as (_ & _ & -> & -> & _). reflexivity.
Qed.
(** the transfer happens in continue_balance_load: without it migrated cells have default data *)
Theorem c30_no_data_without_continue st z dest st' o q c : reachable st -> answers_ok g (owner st 0) z dest -> balance_load d0 g 0 st z = Done st' ->
  owner st 0 c = Some o -> owner st' 0 c = Some q -> o <> q -> data_of (st' q) c = Some d0.
Proof.
  intros R Hz E O O' N. destruct (balance_view st 0 z dest st' R Hz E) as (own & Hi & Hi' & B). rewrite (view own st 0 c Hi rank0) in O. rewrite (view _ st' 0 c Hi' rank0) in O'.
  destruct (bl_data _ _ _ _ _ _ _ B q c O') as (o' & Oo & F). assert (o' = o) as -> by congruence. unfold data_of. cbn in F. destruct (Z.eqb_spec o q); [contradiction|]. cbn [orb] in F. rewrite F. reflexivity.
Qed.

(** ** Pins *)
(** a pin lasts until the next pin or unpin call of the owner *)
Theorem c31_pins_last st l st' c : reachable st -> runs st l st' -> all_quiet l ->
  (forall r a, owner st 0 c = Some r -> In a l -> ~ pins_cell r c a) -> ~ In UnpinAll l -> effective_pin st' c = effective_pin st c.
Proof.
  intros R H Hq N Nu. destruct (reachable_inv d0 g Hg st R) as (own & Hi). pose proof (quiets_inv d0 g Hg own _ _ _ Hi H Hq) as Hi'.
  rewrite (effective_pin_eq g Hg own st c Hi), (effective_pin_eq g Hg own st' c Hi'). rewrite (view own st 0 c Hi rank0) in N. unfold pin_after, newpin, pinned.
  rewrite (sss_pin _ _ _ _ (sto_steps_ok d0 g _ _ _ 0 H Hq) Nu). destruct (own c) as [r|]; [|reflexivity]. rewrite (sss_newpin _ _ _ _ (sto_steps_ok d0 g _ _ _ r H Hq) c); [reflexivity|]. intros a. apply N. reflexivity.
Qed.
Theorem c31_pins_survive_balancing st k z dest st' c : reachable st -> answers_ok g (owner st 0) z dest -> balance_load d0 g k st z = Done st' ->
  effective_pin st' c = effective_pin st c.
Proof.
  intros R Hz E. destruct (balance_view st k z dest st' R Hz E) as (own & Hi & Hi' & B). rewrite (effective_pin_eq g Hg own st c Hi), (effective_pin_eq g Hg _ st' c Hi').
  unfold pin_after at 1, newpin, pinned. rewrite (bl_pin _ _ _ _ _ _ _ B 0 c rank0). destruct (target g own st dest c) as [q|] eqn:O; [|reflexivity].
  destruct (bl_rest _ _ _ _ _ _ _ B q) as (-> & _); [|reflexivity]. apply (proj2 (proj1 (proj1 Hi')) c q O).
Qed.

(** what is missing for the full claim: a pin to the process to which the last load balance
    already pinned the cell, after another pin or unpin call, see c31_latest_pin_wins_refuted *)
Theorem c31_latest_pin_wins_partial st r c q l st1 k z dest st2 p :
  reachable st -> rank r -> fst (pin g r (p_store (st r)) c q) = true ->
  find c (s_pin (p_store (st r))) <> Some q \/ find c (s_newpin (p_store (st r))) = None ->
  runs (set_rank st r (with_store (st r) (snd (pin g r (p_store (st r)) c q)))) l st1 -> all_quiet l -> (forall a, In a l -> ~ pins_cell r c a) ->
  answers_ok g (owner st1 0) z dest -> balance_load d0 g k st1 z = Done st2 -> rank p -> owner st2 p c = Some q.
Proof.
  intros R Ir E Hc H Hq N Hz Eb Ip. destruct (reachable_inv d0 g Hg st R) as (own & Hi).
  pose proof (quiet_inv d0 g Hg own st (Pin r c q) _ Hi Ir I eq_refl) as Hi0. pose proof (quiets_inv d0 g Hg own _ _ _ Hi0 H Hq) as Hi1.
  assert (run d0 g st (Pin r c q) = Done (set_rank st r (with_store (st r) (snd (pin g r (p_store (st r)) c q))))) as Er by reflexivity.
  set (st0 := set_rank st r _) in *. assert (reachable st0) as R0 by (apply reach_step with st (Pin r c q); assumption). pose proof (runs_reachable d0 g _ _ _ R0 H) as R1.
  rewrite (c30_balancing_moves_cells st1 k z dest st2 p c R1 Hz Eb Ip).
  assert (local_leaf g r (p_store (st r)) c = true) as Lf by (unfold pin in E; destruct (local_leaf g r (p_store (st r)) c); [reflexivity|discriminate]).
  assert (own c = Some r) as O by (apply (inv_leaf g Hg own st r c Hi Ir); assumption). rewrite (view own st1 0 c Hi1 rank0), O.
  rewrite (c31_pins_last st0 l st1 c R0 H Hq); [| |intros Q; apply (N _ Q); exact I].
  2:{ rewrite (view own st0 0 c Hi0 rank0), O. intros r' a [= <-]. apply N. }
  rewrite (effective_pin_eq g Hg own st0 c Hi0). unfold pin_after, newpin, pinned. rewrite O.
  assert (find c (s_pin (p_store (st0 0))) = find c (s_pin (p_store (st r)))) as ->.
  { rewrite (proj1 (proj2 Hi0) 0 r c rank0 Ir). f_equal. apply (ss_pin _ _ _ _ (sto_step_ok d0 g st (Pin r c q) st0 r I Er)). discriminate. }
  unfold st0, set_rank. rewrite Z.eqb_refl. cbn [with_store p_store]. unfold pin in *. rewrite Lf in *. cbn [negb] in *.
  destruct (Z.ltb_spec q 0); cbn [orb] in *; [discriminate|]. destruct (Z.leb_spec np q) as [|Q]; [discriminate|].
  destruct (find c (s_pin (p_store (st r)))) as [q'|] eqn:Fp.
  - destruct (Z.eqb_spec q' q) as [->|Nq]; cbn [snd].
    + destruct Hc as [Hc|Hc]; [congruence|]. rewrite Hc. reflexivity.
    + cbn [with_newpin s_newpin]. rewrite find_put, Z.eqb_refl. destruct (Z.leb_spec np q); [lia|reflexivity].
  - cbn [snd with_newpin s_newpin]. rewrite find_put, Z.eqb_refl. destruct (Z.leb_spec np q); [lia|reflexivity].
Qed.

Definition cleared (s : store D) (c : Z) : Prop := match find c (s_newpin s) with Some v => np <= v | None => find c (s_pin s) = None end.
Lemma unpin_cleared r (s : store D) c : local_leaf g r s c = true -> cleared (snd (unpin g r s c)) c.
Proof.
  intros Lf. unfold unpin. rewrite Lf. cbn [negb]. unfold cleared, has. destruct (find c (s_pin s)) eqn:F; cbn [snd with_newpin s_newpin s_pin]; [rewrite find_put|rewrite find_del]; rewrite Z.eqb_refl; [lia|assumption].
Qed.
Lemma unpin_keeps_cleared r (s : store D) c x : cleared s x -> cleared (snd (unpin g r s c)) x.
Proof.
  intros Q. destruct (Z.eq_dec x c) as [->|N].
  - destruct (local_leaf g r s c) eqn:Lf; [apply unpin_cleared; assumption|]. unfold unpin. rewrite Lf. exact Q.
  - unfold cleared in *. rewrite (unpin_other g r s c x N). destruct (unpin_keeps g r s c) as (_ & _ & -> & _). exact Q.
Qed.
Lemma unpin_proc r (s : store D) c x : local_leaf g r (snd (unpin g r s c)) x = local_leaf g r s x.
Proof. unfold unpin. destruct (negb _); [reflexivity|]. destruct (has c (s_pin s)); reflexivity. Qed.
Lemma unpins_cleared r c : forall l (x : bool * store D), local_leaf g r (snd x) c = true -> In c l \/ cleared (snd x) c ->
  cleared (snd (fold_left (fun x c => let u := unpin g r (snd x) c in (fst x && fst u, snd u)) l x)) c.
Proof.
  induction l as [|a l IH]; intros x Lf H; cbn [fold_left]; [destruct H as [[]|H]; assumption|]. apply IH; cbn [snd]; [rewrite unpin_proc; assumption|].
  destruct H as [[->|H]|H]; [right; apply unpin_cleared; assumption|left; assumption|right; apply unpin_keeps_cleared; assumption].
Qed.
Lemma cleared_effective own (st : Z -> proc D) r c : inv g own st -> own c = Some r -> cleared (p_store (st r)) c -> effective_pin st c = None.
Proof.
  intros Hi O Q. rewrite (effective_pin_eq g Hg own st c Hi). unfold pin_after, newpin, pinned. rewrite O. unfold cleared in Q. assert (rank r) as Ir by (apply (proj2 (proj1 (proj1 Hi)) c r O)).
  destruct (find c (s_newpin (p_store (st r)))) as [v|]; [destruct (Z.leb_spec np v); [reflexivity|lia]|]. rewrite (proj1 (proj2 Hi) 0 r c rank0 Ir). assumption.
Qed.

Theorem c31_unpinned_cells_are_left_to_the_partitioner st r c l st1 k z dest st2 p :
  reachable st -> rank r -> fst (unpin g r (p_store (st r)) c) = true ->
  runs (set_rank st r (with_store (st r) (snd (unpin g r (p_store (st r)) c)))) l st1 -> all_quiet l -> (forall a, In a l -> ~ pins_cell r c a) ->
  answers_ok g (owner st1 0) z dest -> balance_load d0 g k st1 z = Done st2 -> rank p ->
  owner st2 p c = Some (match dest c with Some q => q | None => r end).
Proof.
  intros R Ir E H Hq N Hz Eb Ip. destruct (reachable_inv d0 g Hg st R) as (own & Hi).
  pose proof (quiet_inv d0 g Hg own st (Unpin r c) _ Hi Ir I eq_refl) as Hi0. pose proof (quiets_inv d0 g Hg own _ _ _ Hi0 H Hq) as Hi1.
  set (st0 := set_rank st r _) in *. assert (reachable st0) as R0 by (apply reach_step with st (Unpin r c); auto). pose proof (runs_reachable d0 g _ _ _ R0 H) as R1.
  rewrite (c30_balancing_moves_cells st1 k z dest st2 p c R1 Hz Eb Ip).
  assert (local_leaf g r (p_store (st r)) c = true) as Lf by (unfold unpin in E; destruct (local_leaf g r (p_store (st r)) c); [reflexivity|discriminate]).
  assert (own c = Some r) as O by (apply (inv_leaf g Hg own st r c Hi Ir); assumption). rewrite (view own st1 0 c Hi1 rank0), O.
  rewrite (c31_pins_last st0 l st1 c R0 H Hq); [| |intros Q; apply (N _ Q); exact I].
  2:{ rewrite (view own st0 0 c Hi0 rank0), O. intros r' a [= <-]. apply N. }
  rewrite (cleared_effective own st0 r c Hi0 O); [reflexivity|]. unfold st0, set_rank. rewrite Z.eqb_refl. cbn [with_store p_store]. apply unpin_cleared. assumption.
Qed.
Theorem c31_unpin_local_cells st r c : reachable st -> rank r -> owner st r c = Some r ->
  effective_pin (set_rank st r (with_store (st r) (snd (unpin_local_cells g r (p_store (st r)))))) c = None.
Proof.
  intros R Ir O. destruct (reachable_inv d0 g Hg st R) as (own & Hi). rewrite (view own st r c Hi Ir) in O. pose proof (quiet_inv d0 g Hg own st (UnpinLocal r) _ Hi Ir I eq_refl) as Hi0.
  apply (cleared_effective own _ r c Hi0 O). unfold set_rank. rewrite Z.eqb_refl. cbn [with_store p_store]. unfold unpin_local_cells. apply unpins_cleared; cbn [snd].
  - apply (inv_leaf g Hg own st r c Hi Ir). assumption.
  - left. destruct (data_local g own st r c Hi Ir O) as (v & F). apply keys_find. eauto.
Qed.
Theorem c31_unpin_all_cells st c : reachable st -> effective_pin (fun r => with_store (st r) (unpin_all_cells (p_store (st r)))) c = None.
Proof. intros R. unfold CommitProps.effective_pin, pin_after, newpin, pinned. cbn [with_store p_store unpin_all_cells s_pin s_newpin find]. destruct (owner _ 0 c); reflexivity. Qed.

(** pins and weights refer to existing cells only, pin requests and weights to local ones *)
Theorem c32_pins_and_weights_only_of_existing_cells st r c : reachable st -> rank r ->
  (find c (s_pin (p_store (st r))) <> None -> exists_on st r c = true) /\
  (find c (s_newpin (p_store (st r))) <> None -> owner st r c = Some r) /\
  (find c (s_wt (p_store (st r))) <> None -> owner st r c = Some r) /\
  (effective_pin st c <> None -> exists_on st r c = true).
Proof.
  intros R Ir. destruct (reachable_inv d0 g Hg st R) as (own & Hi). rewrite (view own st r c Hi Ir), (viewx own st r c Hi Ir). destruct (proj2 (proj2 Hi) r Ir) as (P1 & P2 & P3 & _). cbn zeta in *. split; [|split; [|split]].
  - intros Q. destruct (find c _) as [v|] eqn:F; [|contradiction]. apply (P1 c v F).
  - intros Q. destruct (find c _) as [v|] eqn:F; [|contradiction]. apply (P2 c v F).
  - intros Q. destruct (find c _) as [v|] eqn:F; [|contradiction]. apply (P3 c v F).
  - rewrite (effective_pin_eq g Hg own st c Hi). unfold pin_after, newpin, pinned. intros Q. destruct (own c) eqn:O; [unfold exo; rewrite O; reflexivity|]. destruct (proj2 (proj2 Hi) 0 rank0) as (P0 & _). destruct (find c _) as [v|] eqn:F; [|contradiction]. apply (P0 c v F).
Qed.
End Props.
