(** C62: the checks of programs compiled with DEBUG hold after all histories of calls. *)
From Verif Require Import U64 MapModel MapSpec MapProofs MapFamily MapProps HoodModel MeshModel
  MeshSpec MeshBase HoodProps MeshWalk MeshFind MeshKids MeshItem MeshCheck MeshTo MeshNear
  Sets RefineModel RefineGeo RefineInv RefineSpread RefineMerge RefineFold RefineExec RefineStop RefineNear
  BalanceModel RefineReqs Create Balance History HistProps BalProps CommModel CommInv CommProps CommViews LoadCells HistExamples CommMore CommExamples DebugModel.
Open Scope Z_scope.

Lemma std_equal_refl l : std_equal l l = Some true.
Proof. induction l as [|x l IH]; [reflexivity|]. cbn [std_equal]. rewrite Z.eqb_refl. assumption. Qed.
Lemma all_hold_ok {A} (f : A -> outcome bool) l : (forall a, In a l -> f a = Done true) -> all_hold f l = Done true.
Proof. induction l as [|a l IH]; intros H; [reflexivity|]. cbn [all_hold]. rewrite (H a) by (left; reflexivity). cbn [bind]. apply IH. intros b Q. apply H. right. assumption. Qed.
Lemma mapM_keyed {A} (F : Z -> outcome A) cs : forall f, mapM (fun c => do l <- F c; Done (c, l)) cs = Done f ->
  forall c l, find c f = Some l -> F c = Done l.
Proof.
  induction cs as [|k cs IH]; cbn [mapM]; intros f E c l Q.
  - injection E as <-. discriminate.
  - apply bind_done in E. destruct E as (kl & E1 & E). apply bind_done in E1. destruct E1 as (l1 & E1 & E2). injection E2 as <-.
    apply bind_done in E. destruct E as (f' & E2 & E). injection E as <-. cbn [find] in Q. destruct (Z.eqb_spec c k) as [->|]; [congruence|]. apply (IH f' E2 c l Q).
Qed.

Lemma default_hood_nonzero n h : 0 <= n -> In h (default_hood_of n) -> h <> vzero.
Proof.
  intros Hn Hh. apply default_hood_in in Hh; [|assumption]. unfold in_default in Hh. destruct (n =? 0); [|tauto]. destruct Hh as (k & s & Hs & ->). intros E.
  assert (get (upd vzero k s) k = get vzero k) as Q by (rewrite E; reflexivity). rewrite get_upd_same, get_vzero in Q. lia.
Qed.

Section Props.
Context {D : Type} (d0 : D) (g : grid) (Hg : grid_ok g).
Notation m := (g_map g).
Notation t := (g_topo g).
Notation H := (g_hood g).
Notation xreachable := (xreachable d0 g).
Notation rank r := (In r (ranks g)).
Notation state := (xstate (D := D)).

Theorem c62_processes_are_consistent x : xreachable x -> is_consistent g (x_st x) = Some true.
Proof.
  intros R. destruct (xreachable_inv d0 g Hg x R) as (own & ((_ & Hr) & _) & _).
  assert (forall r, rank r -> sorted_cells (p_store (x_st x r)) = sorted_cells (p_store (x_st x 0)) /\ sorted_processes (p_store (x_st x r)) = sorted_processes (p_store (x_st x 0))) as P.
  { intros r Ir. destruct (Hr r Ir) as (Hs & _). assert (rank 0) as I0 by (apply in_ranks; pose proof Hg as (_ & _ & _ & ?); lia). destruct (Hr 0 I0) as (H0 & _).
    assert (sorted_cells (p_store (x_st x r)) = sorted_cells (p_store (x_st x 0))) as E.
    { apply sorted_eq; try apply sort_sorted; try (apply sort_NoDup; first [apply Hs|apply H0]). intros c. unfold sorted_cells. rewrite !sort_In, (store_keys own r _ c Hs), (store_keys own 0 _ c H0). reflexivity. }
    split; [assumption|]. unfold sorted_processes. rewrite E. apply map_ext. intros c. rewrite (proj1 Hs c), (proj1 H0 c). reflexivity. }
  unfold is_consistent. clear Hr. induction (ranks g) as [|r l IH]; [reflexivity|]. cbn [fold_right]. destruct (P r (or_introl eq_refl)) as [-> ->]. rewrite !std_equal_refl. cbn [both]. apply IH. intros q Q. apply P. right. assumption.
Qed.

Section At.
Context (own : Z -> option Z) (r : Z) (s : store D) (Hw : world_ok g own) (Hs : store_ok own r s).

Lemma proc_entry c q : In (c, q) (s_proc s) -> own c = Some q.
Proof. intros I. rewrite <- (proj1 Hs c). apply In_find; [apply Hs|assumption]. Qed.
Lemma leaf_here c : exo own c = true -> (c =? get_child_ex (exb s) m c) = true.
Proof. intros E. pose proof (store_mesh g own r s Hw Hs) as (_ & _ & T & _). rewrite (get_child_ex_leaf m (proj1 Hg) _ T); [apply Z.eqb_refl|]. rewrite (exb_exo own r s c Hs). assumption. Qed.
Lemma valid_here c : exo own c = true -> valid m c.
Proof. intros E. destruct Hw as ((_ & _ & (V & _) & _) & _). apply V, E. Qed.

Lemma verify_cell_ok U nof nto c : exo own c = true ->
  (exists a, find c nof = Some a /\ find_neighbors_of (exb s) m t c U = Done a) ->
  (exists b, find c nto = Some b /\ find_neighbors_to (exb s) m t c (hood_to U) = Done b) ->
  verify_cell g s U nof nto c = Done true.
Proof.
  intros E (a & Fa & Ea) (b & Fb & Eb). pose proof (valid_here c E) as V. unfold verify_cell. unfold valid in V. unfold error_cell. replace (c =? 0) with false by lia. replace (m_last m <? c) with false by lia.
  assert (has c (s_proc s) = true) as -> by (apply has_find; apply exo_some in E; destruct E as (q & E); exists q; rewrite (proj1 Hs); assumption). rewrite (leaf_here c E).
  assert (has c nof = true) as -> by (apply has_find; eauto). assert (has c nto = true) as -> by (apply has_find; eauto). cbn [negb orb].
  rewrite Ea. cbn [bind]. unfold at_. rewrite Fa, Fb, Eb. cbn [bind]. unfold same_neighbors, same_ids. destruct (list_eq_dec nbr_eq_dec a a) as [_|]; [|contradiction]. cbn [negb]. destruct (list_eq_dec Z.eq_dec _ _); [reflexivity|contradiction].
Qed.
Lemma user_cell_ok U L c : (forall h, In h U -> In h H) -> user_lists g r s U = Done L -> exo own c = true -> verify_cell g s U (l_of L) (l_to L) c = Done true.
Proof.
  intros HU EL E. destruct (user_lists_ok g Hg own r s Hw Hs U HU) as (L' & EL' & ((N1 & _) & (N2 & _) & _)). assert (L' = L) as -> by congruence.
  destruct (N1 c E) as (a & Fa & _). destruct (N2 c E) as (b & Fb & _). unfold user_lists in EL. apply bind_done in EL. destruct EL as (nof & E1 & EL). apply bind_done in EL. destruct EL as (nto & E2 & EL). apply bind_done in EL. destruct EL as (_ & _ & EL). apply bind_done in EL. destruct EL as (bd & _ & EL). injection EL as <-. cbn [l_of l_to] in *.
  apply verify_cell_ok; [assumption| |]; eexists; (split; [eassumption|]); [apply (mapM_keyed _ _ nof E1 c a Fa)|apply (mapM_keyed _ _ nto E2 c b Fb)].
Qed.
Lemma default_cell_ok k c : rebuild g r s = Done k -> exo own c = true -> verify_cell g s H (k_of k) (k_to k) c = Done true.
Proof.
  intros EL E. destruct (default_lists_ok g Hg own r s k Hw Hs EL) as ((N1 & _) & (N2 & _) & _).
  destruct (N1 c E) as (a & Fa & _). destruct (N2 c E) as (b & Fb & _). unfold rebuild, build_of, build_to in EL. apply bind_done in EL. destruct EL as (nof & E1 & EL). apply bind_done in EL. destruct EL as (nto & E2 & EL). apply bind_done in EL. destruct EL as (bd & _ & EL). injection EL as <-. cbn [default_lists k_of k_to l_of l_to] in *.
  apply verify_cell_ok; [assumption| |]; eexists; (split; [eassumption|]); [apply (mapM_keyed _ _ nof E1 c a Fa)|apply (mapM_keyed _ _ nto E2 c b Fb)].
Qed.

(** is_neighbor of existing cells is the neighborhood of the grid, except that a cell is near itself *)
Lemma is_neighbor_here a b : exo own a = true -> exo own b = true -> (is_neighbor (g_len g) m t a b = true <-> a = b \/ sees m t H a b).
Proof.
  intros Ea Eb. pose proof Hw as ((Hwf & Hn & T & _) & _). destruct (Z.eq_dec a b) as [<-|N].
  - split; [auto|]. intros _. apply (is_neighbor_inside m Hwf t (g_len g) (proj1 (proj2 Hg))). split; [apply valid_here, Ea|]. split; [apply valid_here, Ea|]. intros k. lia.
  - rewrite (c49_is_neighbor m t (g_len g) a b Hwf (valid_here a Ea) (valid_here b Eb) (leaf_disjoint m Hwf (exo own) T a b Ea Eb N)) by apply Hg. fold H. split; [auto|]. intros [Q|Q]; [contradiction|exact Q].
Qed.
End At.

(** the iterators [v] checked for levels are those of the same history at any earlier time: they
    are updated after some of the checks *)
Theorem c62_neighbor_lists_verify x x0 r v : xreachable x -> xreachable x0 -> rank r -> iterators g x0 default_neighborhood_id r = Done v ->
  verify_neighbors g (x_hoods x) r (x_st x r) v = Done true.
Proof.
  intros R R0 Ir Ev. destruct (xreachable_inv d0 g Hg x R) as (own & ((Hw & Hr) & _) & _ & Ho). destruct (Hr r Ir) as (Hs & Hk & _).
  unfold verify_neighbors. rewrite all_hold_ok.
  - cbn [bind]. f_equal.
    destruct (c38_cells d0 g Hg x0 default_neighborhood_id H r R0 eq_refl Ir) as (v' & Ev' & _ & _ & _ & Lo & Re & Vc & _ & P). assert (v' = v) as -> by congruence.
    assert (forall i, In i (view_cells v) -> exists_on (x_st x0) r (i_id i) = true) as Ce.
    { intros i Hi. rewrite Vc in Hi. apply in_app_iff in Hi. destruct Hi as [Hi|Hi].
      - assert (owns x0 r r (i_id i)) as Q by (apply Lo, in_map, Hi). unfold owns in Q. unfold exists_on. rewrite Q. reflexivity.
      - assert (elsewhere x0 r (i_id i)) as Q by (apply Re; apply in_map; assumption). destruct Q as (q & Q & _). unfold exists_on. unfold owns in Q. rewrite Q. reflexivity. }
    unfold verify_levels. apply forallb_forall. intros i Hi. destruct (P i Hi) as (_ & P1 & P2 & _). pose proof (Ce i Hi) as Ei. apply andb_true_iff. split; apply forallb_forall; intros [n o] Hn; cbn [fst]; apply Z.leb_le.
    + apply P1 in Hn. destruct Hn as (En & h & Hh & N). apply (c19_neighbors_differ_by_at_most_one_level d0 g Hg (x_st x0) r); auto; [apply xreachable_reachable; assumption|]. exists h, o. auto.
    + assert (In n (map fst (view_to v i))) as Q by (apply in_map_iff; exists (n, o); auto). apply P2 in Q. destruct Q as (En & N). rewrite <- Z.abs_opp, Z.opp_sub_distr, Z.add_comm.
      change (Z.abs (lvl_of m n + - lvl_of m (i_id i)) <= 1). apply (c19_neighbors_differ_by_at_most_one_level d0 g Hg (x_st x0) r); auto. apply xreachable_reachable. assumption.
  - intros [c q] I. cbn [fst snd]. apply (proc_entry own r _ Hs) in I. destruct (q =? r); [|reflexivity]. cbn [negb]. assert (exo own c = true) as E by (apply exo_some; eauto).
    rewrite (default_cell_ok own r _ Hw Hs _ c Hk E). cbn [bind negb]. apply all_hold_ok. intros id Hid. destruct (hood_lookup (x_hoods x) id) as [U|] eqn:EU.
    + destruct (user_lists_ok g Hg own r _ Hw Hs U (Ho id U EU)) as (L & EL & _). rewrite EL. cbn [bind]. apply (user_cell_ok own r _ Hw Hs U L c (Ho id U EU) EL E).
    + exfalso. unfold hood_lookup in EU. apply in_map_iff in Hid. destruct Hid as (e & <- & Hi). destruct (List.find (fun p => fst p =? fst e) (x_hoods x)) eqn:F; [discriminate|]. apply (find_none _ _ F) in Hi. rewrite Z.eqb_refl in Hi. discriminate.
Qed.

Theorem c62_boundary_of_cell_verifies x r c : xreachable x -> rank r -> owner (x_st x) r c = Some r -> verify_remote_of g r (x_st x r) c = Done true.
Proof.
  intros R Ir O. destruct (xreachable_inv d0 g Hg x R) as (own & Hx). rewrite (xview g own x r c Hx Ir) in O. destruct Hx as (((Hw & Hr) & _) & _). destruct (Hr r Ir) as (Hs & Hk & _).
  assert (exo own c = true) as E by (apply exo_some; eauto). destruct (rebuild_ok g Hg own r _ Hw Hs) as (k & Ek & Sof & Sto & _ & (B1 & B2) & _). assert (k = p_cache (x_st x r)) as -> by congruence.
  unfold verify_remote_of. rewrite (default_cell_ok own r _ Hw Hs _ c Hk E). cbn [bind negb]. rewrite (leaf_here own r _ Hw Hs c E). cbn [negb].
  destruct (Sof c E) as (a & Fa & Pa). destruct (Sto c E) as (b & Fb & Pb). unfold at_ at 1 2. rewrite Fa, Fb. cbn [bind]. apply all_hold_ok. intros n Hn.
  assert (exo own n = true /\ linked g c n) as (En & Ln). { apply in_app_iff in Hn. destruct Hn as [Hn|Hn]; [apply Pa in Hn|apply Pb in Hn]; destruct Hn as (En & S); (split; [assumption|]); [left|right]; assumption. }
  destruct (n =? error_cell); [reflexivity|]. unfold at_. apply exo_some in En as (q & On). rewrite (proj1 Hs n), On. cbn [bind]. f_equal. destruct (Z.eqb_spec q r) as [->|Nq]; [reflexivity|]. cbn [orb].
  assert (across g own r c n) as A by (split; [assumption|]; split; [apply exo_some; eauto|]; split; [congruence|assumption]). apply andb_true_iff. rewrite !mem_In, B1, B2. eauto.
Qed.

Theorem c62_boundary_verifies x r : xreachable x -> rank r -> verify_remote g r (x_st x r) = Done true.
Proof.
  intros R Ir. destruct (xreachable_inv d0 g Hg x R) as (own & (((Hw & Hr) & _) & _)). destruct (Hr r Ir) as (Hs & Hk & _). pose proof (store_mesh g own r _ Hw Hs) as M. pose proof (fun c => exb_exo own r _ c Hs) as Eb.
  destruct (rebuild_ok g Hg own r _ Hw Hs) as (k & Ek & Sof & Sto & _ & (B1 & B2) & _). assert (k = p_cache (x_st x r)) as -> by congruence.
  unfold verify_remote. apply all_hold_ok. intros [c q] I. cbn [fst snd]. pose proof (proc_entry own r _ Hs c q I) as O. assert (exo own c = true) as E by (apply exo_some; eauto). rewrite (leaf_here own r _ Hw Hs c E). cbn [negb].
  destruct (Z.eqb_spec q r) as [->|Nq]; cbn [negb].
  - destruct (of_list g (exb (p_store (x_st x r))) c M ltac:(rewrite Eb; assumption)) as (a & Ea & Pa). rewrite Ea. cbn [bind].
    destruct (c15_neighbors_to m t (g_len g) (exb (p_store (x_st x r))) c H M ltac:(rewrite Eb; assumption) (fun h Q => Q) (sub_fits g Hg H (fun h Q => Q))) as (b & Ebb & _ & Pb).
    assert (forall n, exo own n = true -> exists w, find n (s_proc (p_store (x_st x r))) = Some w /\ own n = Some w) as At. { intros n En. apply exo_some in En as (w & On). exists w. rewrite (proj1 Hs). auto. }
    pose (far := fun n => negb (match own n with Some w => w =? r | None => true end)).
    rewrite (Balance.mapM_ok _ far (map fst a)).
    2: { intros n Hn. apply Pa in Hn. destruct Hn as (En & Sn). rewrite Eb in En. pose proof (valid_here own Hw n En) as V. unfold valid in V. replace (n =? 0) with false by lia. destruct (At n En) as (w & Fw & On). unfold at_. rewrite Fw. cbn [bind].
      assert (is_neighbor (g_len g) m t c n = true) as -> by (apply (is_neighbor_here own Hw c n E En); auto). unfold far. rewrite On. reflexivity. }
    cbn [bind]. rewrite Ebb. cbn [bind]. rewrite (Balance.mapM_ok _ far b).
    2: { intros n Hn. apply Pb in Hn. destruct Hn as (En & Sn). rewrite Eb in En. pose proof (valid_here own Hw n En) as V. unfold valid in V. replace (n =? 0) with false by lia. destruct (At n En) as (w & Fw & On). unfold at_. rewrite Fw. cbn [bind].
      assert (is_neighbor (g_len g) m t n c = true) as -> by (apply (is_neighbor_here own Hw n c En E); auto). unfold far. rewrite On. reflexivity. }
    cbn [bind]. f_equal. apply eqb_true_iff, eq_iff_eq_true. rewrite <- map_app, existsb_exists, mem_In, B1. split.
    + intros (y & Q & ->). apply in_map_iff in Q. destruct Q as (n & Fn & Hn). unfold far in Fn. exists n.
      assert (exo own n = true /\ linked g c n) as (En & Ln). { apply in_app_iff in Hn. destruct Hn as [Hn|Hn]; [apply Pa in Hn|apply Pb in Hn]; destruct Hn as (En & S); rewrite Eb in En; (split; [assumption|]); [left|right]; assumption. }
      split; [assumption|]. split; [assumption|]. split; [|assumption]. intros Q. rewrite Q, Z.eqb_refl in Fn. discriminate.
    + intros (n & _ & En & Nn & Ln). exists true. split; [|reflexivity]. apply in_map_iff. exists n. split.
      * unfold far. apply exo_some in En as (w & On). rewrite On. destruct (Z.eqb_spec w r) as [->|]; [congruence|reflexivity].
      * apply in_app_iff. rewrite Pa, Pb, Eb. destruct Ln; auto.
  - f_equal. apply eqb_true_iff, eq_iff_eq_true. rewrite existsb_exists, mem_In, B2. split.
    + intros ([l w] & Hl & Q). cbn [fst snd] in Q. rewrite !andb_true_iff, orb_true_iff in Q. destruct Q as ((Qw & _) & Qn). apply Z.eqb_eq in Qw. subst w. apply (proc_entry own r _ Hs) in Hl.
      assert (exo own l = true) as El by (apply exo_some; eauto). exists l. split; [assumption|]. split; [assumption|]. split; [congruence|].
      rewrite (is_neighbor_here own Hw c l E El), (is_neighbor_here own Hw l c El E) in Qn. destruct Qn as [[->|Q]|[<-|Q]]; [congruence|right; assumption|congruence|left; assumption].
    + intros (l & Ol & _ & _ & Ln). assert (exo own l = true) as El by (apply exo_some; eauto). exists (l, r). split; [apply find_In; rewrite (proj1 Hs); assumption|]. cbn [fst snd]. rewrite Z.eqb_refl, (leaf_here own r _ Hw Hs l El). cbn [andb].
      apply orb_true_iff. rewrite (is_neighbor_here own Hw c l E El), (is_neighbor_here own Hw l c El E). destruct Ln; auto.
Qed.

Theorem c62_data_verifies x r : xreachable x -> rank r -> verify_user_data g r (p_store (x_st x r)) = true.
Proof.
  intros R Ir. destruct (xreachable_inv d0 g Hg x R) as (own & (((Hw & Hr) & _) & _)). destruct (Hr r Ir) as (Hs & _ & _). pose proof Hs as (_ & _ & _ & K).
  unfold verify_user_data. apply forallb_forall. intros [c q] I. cbn [fst snd]. apply (proc_entry own r _ Hs) in I. specialize (K c). destruct (Z.eqb_spec q r) as [->|N].
  - rewrite (proj2 K I). rewrite !andb_false_r. reflexivity.
  - cbn [andb negb]. destruct (has c (s_data (p_store (x_st x r)))); [|reflexivity]. destruct K as [K _]. specialize (K eq_refl). congruence.
Qed.

Theorem c62_pins_verify_after_balancing st k z dest st' r : reachable d0 g st -> answers_ok g (owner st 0) z dest -> balance_load d0 g k st z = Done st' -> rank r ->
  pin_requests_succeeded (p_store (st' r)) = Done true.
Proof.
  intros R Hz E Ir. destruct (balance_view d0 g Hg st k z dest st' R Hz E) as (own & Hi & ((_ & Hr) & (_ & Pk)) & B). destruct (Hr r Ir) as (Hs & _). destruct (Pk r Ir) as (P1 & _ & _ & ND & _).
  unfold pin_requests_succeeded. apply all_hold_ok. intros [c q] I. cbn [fst snd]. apply In_find in I; [|assumption]. destruct (P1 c q I) as (Ex & _). rewrite (bl_pin _ _ _ _ _ _ _ B r c Ir) in I.
  unfold at_. rewrite (proj1 Hs c). unfold exo, target in *. destruct (own c); [|discriminate]. rewrite I. cbn [bind]. rewrite Z.eqb_refl. reflexivity.
Qed.

(** no neighbor of any neighborhood is at the offset of the cell itself *)
Theorem c62_offsets_verify x r id L c : xreachable x -> rank r -> lists_of g (x_hoods x) id r (x_st x r) = Done (Some L) -> exists_on (x_st x) r c = true ->
  offsets_ok (l_of L) c = Done true.
Proof.
  intros R Ir EL Ec. destruct (xreachable_inv d0 g Hg x R) as (own & Hx). pose proof Hx as (((Hw & Hr) & _) & _ & Ho).
  unfold exists_on in Ec. rewrite (xview g own x r c Hx Ir) in Ec. fold (exo own c) in Ec.
  destruct (hood_at g (x_hoods x) id) as [U|] eqn:EU; [|rewrite (lists_of_none g _ _ _ _ EU) in EL; discriminate].
  destruct (lists_of_ok g Hg own _ _ id r U (conj Hw Hr) Ho Ir EU) as (L' & EL' & ((N1 & N2) & _)). assert (L' = L) as -> by congruence. clear EL'.
  assert (forall h, In h U -> In h H) as HU. { unfold hood_at in EU. destruct (id =? default_neighborhood_id); [injection EU as <-; auto|apply (Ho id U EU)]. }
  destruct (N1 c Ec) as (l & Fl & Pl). unfold offsets_ok, at_. rewrite Fl. cbn [bind]. f_equal. apply forallb_forall. intros [n o] Hn. apply orb_true_iff. right. cbn [snd]. apply negb_true_iff, not_true_iff_false. intros Z0.
  rewrite !andb_true_iff, !Z.eqb_eq in Z0. assert (o = vzero) as -> by (destruct o; cbn in Z0; destruct Z0 as ((-> & ->) & ->); reflexivity).
  apply Pl in Hn. destruct Hn as (En & h & Hh & (G & Po) & Me). pose proof Hw as ((Hwf & _ & T & _) & _). pose proof (valid_here own Hw c Ec) as Vc.
  assert (idx_of m c = idx_of m n) as I.
  { apply idx_ext. intros k. specialize (Po k). rewrite get_vadd, get_vzero, Z.add_0_r in Po. destruct (per t k); [|assumption]. destruct Po as (w & Q).
    pose proof (proj1 (in_grid_k m _) (cell_in_grid m Hwf c Vc) k). pose proof (proj1 (in_grid_k m _) G k). assert (w = 0) as -> by (destruct (Z.lt_trichotomy w 0) as [?|[?|?]]; [nia|assumption|nia]). lia. }
  assert (c = n) as <-. { apply (leaf_unique m Hwf (exo own) T c n (idx_of m c) Ec En); [apply covers_own; assumption|]. rewrite I. apply covers_own; [assumption|]. apply (valid_here own Hw n En). }
  apply HU in Hh. apply default_hood_nonzero in Hh; [|apply Hg]. apply Hh. apply idx_ext. intros k. rewrite get_vzero. specialize (Me k). rewrite get_vzero in Me. pose proof (cell_len_pos m Hwf c Vc). nia.
Qed.

(** ** What the checks of a cell's lists and of the data guarantee in any state *)
Theorem c62_lists_checked s U nof nto c : verify_cell g (D := D) s U nof nto c = Done true -> get_child_ex (exb s) m c = c ->
  exists a b b', find c nof = Some a /\ find_neighbors_of (exb s) m t c U = Done a /\
    find c nto = Some b /\ find_neighbors_to (exb s) m t c (hood_to U) = Done b' /\ sort b = sort b'.
Proof.
  intros E L. unfold verify_cell in E. rewrite L, Z.eqb_refl in E. cbn [negb] in E. destruct (c =? error_cell); [discriminate|]. destruct (m_last m <? c); [discriminate|]. destruct (has c (s_proc s)); [|discriminate]. cbn [negb] in E.
  unfold at_ in E. destruct (has c nof); [|discriminate]. destruct (has c nto); [|discriminate]. cbn [negb orb] in E. apply bind_done in E. destruct E as (l & El & E). apply bind_done in E. destruct E as (a & Ea & E).
  destruct (find c nof) as [a'|]; [|discriminate]. injection Ea as ->. unfold same_neighbors in E. destruct (list_eq_dec nbr_eq_dec a l) as [->|]; [|discriminate]. cbn [negb] in E. apply bind_done in E. destruct E as (b & Eb & E).
  destruct (find c nto) as [b'|]; [|discriminate]. injection Eb as ->. apply bind_done in E. destruct E as (b' & Eb' & E). exists l, b, b'. unfold same_ids in E. destruct (list_eq_dec Z.eq_dec (sort b) (sort b')) as [Q|]; [|discriminate]. auto 6.
Qed.
Theorem c62_data_checked r (s : store D) : NoDup (keys (s_proc s)) ->
  (verify_user_data g r s = true <-> forall c q, find c (s_proc s) = Some q ->
    if q =? r then get_child_ex (exb s) m c = c -> has c (s_data s) = true else has c (s_data s) = false).
Proof.
  intros ND. unfold verify_user_data. rewrite forallb_forall. split.
  - intros Q c q F. apply find_In in F. specialize (Q _ F). cbn [fst snd] in Q. apply andb_true_iff in Q. destruct Q as (Q1 & Q2). destruct (q =? r); cbn [andb negb] in *.
    + intros E. rewrite E, Z.eqb_refl in Q1. cbn [andb] in Q1. destruct (has c (s_data s)); [reflexivity|discriminate].
    + destruct (has c (s_data s)); [discriminate|reflexivity].
  - intros Q [c q] F. cbn [fst snd]. apply In_find in F; [|assumption]. specialize (Q c q F). destruct (q =? r); cbn [andb negb] in *.
    + rewrite andb_true_r. destruct (Z.eqb_spec c (get_child_ex (exb s) m c)) as [E|E]; [|reflexivity]. rewrite Q by congruence. reflexivity.
    + rewrite Q. reflexivity.
Qed.
(** what is_consistent establishes in any state: the sorted cells of a process and their owners begin those of process 0 *)
Lemma std_equal_iff a b : std_equal a b = Some true <-> exists r, b = a ++ r.
Proof.
  revert b. induction a as [|x a IH]; intros b; [split; [intros _; exists b; reflexivity|reflexivity]|]. destruct b as [|y b]; cbn [std_equal]; [split; [discriminate|intros (r & E); discriminate E]|].
  destruct (Z.eqb_spec x y) as [->|N]; [rewrite IH; split; intros (r & E); exists r; [rewrite E; reflexivity|injection E as ->; reflexivity]|]. split; [discriminate|]. intros (r & E). injection E as E _. congruence.
Qed.
Lemma std_equal_undefined a b : std_equal a b = None <-> exists x r, a = b ++ x :: r.
Proof.
  revert b. induction a as [|x a IH]; intros b; [split; [discriminate|intros (x & r & E); destruct b; discriminate E]|]. destruct b as [|y b]; cbn [std_equal]; [split; [intros _; exists x, a; reflexivity|reflexivity]|].
  destruct (Z.eqb_spec x y) as [->|N]; [rewrite IH; split; intros (z & r & E); exists z, r; [rewrite E; reflexivity|injection E as ->; reflexivity]|]. split; [discriminate|]. intros (z & r & E). injection E as E _. congruence.
Qed.
Theorem c62_consistency_checked (st : Z -> proc D) : is_consistent g st = Some true <->
  forall r, rank r -> exists cs qs, sorted_cells (p_store (st 0)) = sorted_cells (p_store (st r)) ++ cs /\ sorted_processes (p_store (st 0)) = sorted_processes (p_store (st r)) ++ qs.
Proof.
  unfold is_consistent. induction (ranks g) as [|r l IH]; [split; [intros _ r []|reflexivity]|]. cbn [fold_right]. unfold both at 1.
  destruct (std_equal (sorted_cells (p_store (st r))) _) as [[]|] eqn:E1; [|split; [discriminate|]; intros Q; destruct (Q r (or_introl eq_refl)) as (cs & qs & A & _); assert (std_equal (sorted_cells (p_store (st r))) (sorted_cells (p_store (st 0))) = Some true) as B by (apply std_equal_iff; eauto); congruence..].
  unfold both. destruct (std_equal (sorted_processes (p_store (st r))) _) as [[]|] eqn:E2; [|split; [discriminate|]; intros Q; destruct (Q r (or_introl eq_refl)) as (cs & qs & _ & A); assert (std_equal (sorted_processes (p_store (st r))) (sorted_processes (p_store (st 0))) = Some true) as B by (apply std_equal_iff; eauto); congruence..].
  rewrite IH. apply std_equal_iff in E1, E2. destruct E1 as (cs & E1), E2 as (qs & E2). split.
  - intros Q q [->|I]; [exists cs, qs; auto|apply Q, I].
  - intros Q q I. apply Q. right. assumption.
Qed.
(** with a process that has all cells of process 0 and further ones after them the end of a vector is passed *)
Theorem c62_extra_cells_undefined (st : Z -> proc D) r x cs : rank r -> (forall q, rank q -> q <> r -> p_store (st q) = p_store (st 0)) ->
  sorted_cells (p_store (st r)) = sorted_cells (p_store (st 0)) ++ x :: cs -> is_consistent g st = None.
Proof.
  intros Ir Q E. assert (r <> 0) as N. { intros ->. rewrite <- (app_nil_r (sorted_cells (p_store (st 0)))) in E at 1. apply app_inv_head in E. discriminate. }
  unfold is_consistent. induction (ranks g) as [|p l IH]; [destruct Ir|]. cbn [fold_right]. destruct (Z.eq_dec p r) as [->|Np].
  - assert (std_equal (sorted_cells (p_store (st r))) (sorted_cells (p_store (st 0))) = None) as -> by (apply std_equal_undefined; eauto). reflexivity.
  - rewrite (Q p (or_introl eq_refl) Np), !std_equal_refl. cbn [both]. apply IH; [destruct Ir as [->|]; [destruct Np; reflexivity|assumption]|]. intros q I. apply Q. right. assumption.
Qed.
End Props.
Print Assumptions c62_neighbor_lists_verify.
Print Assumptions c62_boundary_verifies.

(** ** Two processes, cells of two levels and a neighborhood of the user *)
Definition all_checks (x : xstate (D := Z)) (r : Z) : bool :=
  (match is_consistent g2 (x_st x) with Some b => b | None => false end) &&
  holds (iterators g2 x default_neighborhood_id r) (fun v => holds (verify_neighbors g2 (x_hoods x) r (x_st x r) v) (fun b => b)) &&
  holds (verify_remote g2 r (x_st x r)) (fun b => b) && verify_user_data g2 r (p_store (x_st x r)) &&
  holds (pin_requests_succeeded (p_store (x_st x r))) (fun b => b).
Definition with_cache (st : Z -> proc Z) (r : Z) (f : caches -> caches) : Z -> proc Z :=
  fun q => if q =? r then Proc (p_req (st q)) (f (p_cache (st q))) (p_store (st q)) else st q.
Definition says_no (o : outcome bool) : bool := match o with Done b => negb b | _ => true end.
Example c62_example : holds (xgo 0 g2 mixed) (fun x => all_checks x 0 && all_checks x 1 && has (nth 0 kids2 0) (s_data (p_store (x_st x 0)))) = true.
Proof. vm_compute. reflexivity. Qed.
(** the checks notice a list of neighbors in the wrong order, a missing boundary cell and a lost value *)
Example c62_checks_notice : holds (xgo 0 g2 mixed) (fun x =>
  let bad f := with_cache (x_st x) 0 f in
  holds (iterators g2 x default_neighborhood_id 0) (fun v =>
    says_no (verify_neighbors g2 (x_hoods x) 0 (bad (fun k => Caches (map (fun e => (fst e, rev (snd e))) (k_of k)) (k_to k) (k_face k) (k_local k) (k_remote k)) 0) v) &&
    says_no (verify_neighbors g2 (x_hoods x) 0 (bad (fun k => Caches (k_of k) (tl (k_to k)) (k_face k) (k_local k) (k_remote k)) 0) v)) &&
  says_no (verify_remote g2 0 (bad (fun k => Caches (k_of k) (k_to k) (k_face k) (tl (k_local k)) (k_remote k)) 0)) &&
  says_no (verify_remote g2 0 (bad (fun k => Caches (k_of k) (k_to k) (k_face k) (k_local k) (tl (k_remote k))) 0)) &&
  negb (verify_user_data g2 1 (p_store (x_st x 0)))) = true.
Proof. vm_compute. reflexivity. Qed.
(** is_consistent compares with std::equal of three iterators: a process that knows of fewer
    cells than process 0 is not noticed if they are the first ones *)
Example c62_missing_cells_unnoticed : holds (xgo 0 g2 mixed) (fun x =>
  let s := p_store (x_st x 1) in
  let st q := if q =? 1 then with_store (x_st x 1) (Store (filter (fun e => fst e =? 1) (s_proc s)) (s_data s) (s_refd s) (s_unrefd s) (s_pin s) (s_newpin s) (s_wt s)) else x_st x q in
  match is_consistent g2 st with Some b => b | None => false end) = true.
Proof. vm_compute. reflexivity. Qed.
(** and one that knows of more cells makes it read past the end *)
Example c62_extra_cells_example : holds (xgo 0 g2 mixed) (fun x =>
  let s := p_store (x_st x 1) in
  let st q := if q =? 1 then with_store (x_st x 1) (Store ((m_last (g_map g2), 0) :: s_proc s) (s_data s) (s_refd s) (s_unrefd s) (s_pin s) (s_newpin s) (s_wt s)) else x_st x q in
  negb (has (m_last (g_map g2)) (s_proc s)) && match is_consistent g2 st with Some b => false | None => true end) = true.
Proof. vm_compute. reflexivity. Qed.
Print Assumptions c62_consistency_checked.
