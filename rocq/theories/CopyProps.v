(** Copies of a grid, possibly with another type of cell data (dccrg.hpp:344-442): what a copy
    shares with the original, what it does not, and where it differs from its documentation
    (dccrg.hpp:321-343). *)
From Verif Require Import U64 MapModel MapSpec MapProofs MapFamily MapProps DblModel HoodModel MeshModel
  MeshSpec MeshBase HoodProps MeshWalk MeshFind MeshKids MeshItem MeshCheck MeshTo MeshNear
  Sets RefineModel RefineGeo RefineInv RefineSpread RefineMerge RefineFold RefineExec RefineStop
  BalanceModel RefineReqs Create Balance History HistProps CommitProps BalProps LoadCells HistExamples
  CommModel CommInv CommProps CommMore ConfigModel.
Open Scope Z_scope.

Section Copies.
Context {D D' : Type} (d0 : D) (d0' : D') (g : grid) (Hg : grid_ok g).
Notation m := (g_map g).
Notation t := (g_topo g).
Notation rank r := (In r (ranks g)).

Lemma find_defaults c (l : list (Z * D)) : find c (map (fun e => (fst e, d0')) l) = match find c l with Some _ => Some d0' | None => None end.
Proof. induction l as [|[a v] l IH]; cbn [map find fst]; [reflexivity|]. destruct (c =? a); [reflexivity|exact IH]. Qed.

(** the copy has the same cells on the same processes with the same neighbors, process
    boundaries, pins and weights; every cell has a new value, and refined, unrefined and requested
    cells are forgotten.  The copy is a grid like any other: every theorem on histories holds for
    it and for what is done with it later *)
Theorem c61_copy_is_the_same_grid st : reachable d0 g st -> let st' := copied d0' st in
  reachable d0' g st' /\
  forall r, rank r ->
    (forall c, owner st' r c = owner st r c) /\
    (forall c, get_neighbors_of g [] default_neighborhood_id r (st' r) c = get_neighbors_of g [] default_neighborhood_id r (st r) c /\
               get_neighbors_to g [] default_neighborhood_id r (st' r) c = get_neighbors_to g [] default_neighborhood_id r (st r) c) /\
    k_local (p_cache (st' r)) = k_local (p_cache (st r)) /\ k_remote (p_cache (st' r)) = k_remote (p_cache (st r)) /\
    (forall one c, get_cell_weight g one r (p_store (st' r)) c = get_cell_weight g one r (p_store (st r)) c) /\
    (forall c, effective_pin g st' c = effective_pin g st c) /\
    (forall c, data_of (st' r) c = if eqo (owner st r c) (Some r) then Some d0' else None) /\
    (forall c, ~ In c (r_ref (p_req (st' r))) /\ ~ In c (r_unref (p_req (st' r))) /\ ~ In c (r_noref (p_req (st' r))) /\ ~ In c (r_nounref (p_req (st' r)))).
Proof.
  intros R st'. split; [apply (reach_copy d0); exact R|]. intros r Ir. destruct (reachable_inv d0 g Hg st R) as (own & Hi).
  split; [reflexivity|]. split; [split; reflexivity|]. split; [reflexivity|]. split; [reflexivity|]. split; [reflexivity|]. split; [reflexivity|]. split.
  - intros c. pose proof Hi as ((_ & Hr) & _). destruct (Hr r Ir) as ((_ & _ & _ & A4) & _). rewrite (view g own st r c Hi Ir).
    unfold data_of. subst st'. cbn [copied p_store s_data s_refd s_unrefd]. rewrite find_defaults. specialize (A4 c). rewrite has_find in A4. cbn [Sets.find].
    destruct (find c (s_data (p_store (st r)))) as [v|].
    + rewrite (proj1 A4) by eauto. cbn [eqo]. rewrite Z.eqb_refl. reflexivity.
    + destruct (own c) as [q|]; [|reflexivity]. cbn [eqo]. destruct (Z.eqb_spec q r) as [->|]; [|reflexivity]. exfalso. destruct (proj2 A4 eq_refl) as (w & Q). discriminate.
  - intros c. subst st'. cbn. tauto.
Qed.
Print Assumptions c61_copy_is_the_same_grid.

(** every value that a process can read in the copy is new, also those of remote neighbors; the
    cells that can be read are those of the original except for refined and unrefined ones *)
Theorem c61_values_are_new x : xreachable d0 g x -> x_hoods x = [] -> let x' := xcopied d0' x in
  xreachable d0' g x' /\
  forall r c, rank r ->
    (forall v, read x' r c = Some v -> v = d0' /\ read x r c <> None) /\
    (forall v, read x r c = Some v -> read x' r c = Some d0' \/
      has c (s_refd (p_store (x_st x r))) = true \/ has c (s_unrefd (p_store (x_st x r))) = true).
Proof.
  intros R Eh x'. assert (xreachable d0' g x') as R' by (apply (xreach_copy d0); assumption). split; [assumption|]. intros r c Ir.
  destruct (xreachable_inv d0 g Hg x R) as (own & Hi & Hc & _); destruct (Hc r Ir) as (_ & C2). specialize (C2 c).
  unfold read. subst x'. unfold xcopied. cbn [x_st x_copies copied p_store s_data s_refd s_unrefd]. rewrite find_defaults.
  assert (find c (fresh_copies d0' (copied d0' (x_st x)) r) = if mem c (k_remote (p_cache (x_st x r))) then Some d0' else None) as ->.
  { unfold fresh_copies. cbn [copied p_cache]. rewrite find_allocate. cbn. rewrite andb_true_r. reflexivity. }
  rewrite has_find, <- mem_In in C2. cbn [Sets.find].
  destruct (find c (s_data (p_store (x_st x r)))) as [v0|]; [split; [intros v [= <-]; split; [reflexivity|discriminate]|auto]|].
  destruct (mem c (k_remote (p_cache (x_st x r)))) eqn:M.
  - destruct (find c (x_copies x r)) as [v0|]; [|exfalso; destruct (proj2 C2 eq_refl) as (w & Q); discriminate]. split; [intros v [= <-]; split; [reflexivity|discriminate]|auto].
  - split; [discriminate|]. intros v. destruct (find c (x_copies x r)) as [v0|]; [assert (false = true) by (apply C2; eauto); discriminate|].
    rewrite !has_find. destruct (find c (s_refd (p_store (x_st x r)))) as [v0|]; [right; left; eauto|]. intros ->. right. right. eauto.
Qed.
Print Assumptions c61_values_are_new.
End Copies.

(** ** What the documentation promises and the code does not do *)

(** "everything related to load balancing" is not excluded: a pin of the original moves the cell
    when load is balanced in the copy *)
Lemma eqo_eq a b : eqo a b = true -> a = b.
Proof. destruct a, b; cbn; intros E; try discriminate; [apply Z.eqb_eq in E; congruence|reflexivity]. Qed.
Theorem c61_pins_are_not_copied_refuted : exists st st2 c, reachable 0 g2 st /\ owner st 0 c = Some 0 /\
  reachable 5 g2 (copied 5 st) /\ balance_load 5 g2 1 (copied 5 st) (plan (copied 5 st) []) = Done st2 /\ owner st2 0 c = Some 1.
Proof.
  assert (holds (go 0 g2 (map Do [Pin 0 1 1])) (fun st => eqo (owner st 0 1) (Some 0) && holds (balance_load 5 g2 1 (copied 5 st) (plan (copied 5 st) [])) (fun st2 => eqo (owner st2 0 1) (Some 1))) = true) as Q by (vm_compute; reflexivity).
  apply holds_ex in Q. destruct Q as (st & E & Q). apply andb_true_iff in Q. destruct Q as (Q1 & Q2). apply holds_ex in Q2. destruct Q2 as (st2 & E2 & Q2).
  exists st, st2, 1. assert (reachable 0 g2 st) as R by (apply (go_reachable _ _ _ _ E)). split; [exact R|]. split; [apply eqo_eq, Q1|]. split; [apply (reach_copy 0), R|]. split; [exact E2|apply eqo_eq, Q2].
Qed.
Print Assumptions c61_pins_are_not_copied_refuted.

(** neighborhoods of the user are copied (dccrg.hpp:371-375) but not the iterators of their cells
    (440-457 are for the default neighborhood): the neighborhood exists in the copy, the copy
    refuses to add it again, and access to its cells throws *)
Definition copied_entries (e : entries) : entries := Entries (e_hoods e) [] [] [] [] [] [].
Theorem c61_neighborhoods_half_copied_refuted n ops id : 0 <= n -> hood_lookup (e_hoods (entry_run n ops)) id <> None ->
  let e := copied_entries (entry_run n ops) in
  inner_cells (entry_run n ops) id = Usable /\ outer_cells (entry_run n ops) id = Usable /\ local_cells (entry_run n ops) id = Usable /\
  (forall items, fst (add_neighborhood n (e_hoods e) id items) = false) /\
  inner_cells e id = Refused /\ outer_cells e id = Refused /\ local_cells e id = Refused /\ remote_cells e id = Refused /\ all_cells e id = Refused.
Proof.
  intros Hn Hid e. pose proof (entry_inv n ops Hn) as (N & A & B & C & E & _).
  assert ((id =? default_neighborhood_id) = false) as Ed by (apply Z.eqb_neq; intros ->; congruence).
  unfold inner_cells, outer_cells, local_cells, remote_cells, all_cells, access_with. rewrite Ed. subst e. cbn [copied_entries e_cells e_inner e_outer e_local e_remote e_all e_hoods mem existsb].
  rewrite !(proj2 (mem_In _ _)) by (first [apply A|apply B|apply C|apply E]; exact Hid).
  split; [reflexivity|]. split; [reflexivity|]. split; [reflexivity|]. split; [|auto 10].
  intros items. pose proof (c12_add_neighborhood n (e_hoods (entry_run n ops)) id items Hn) as B1.
  destruct (add_neighborhood n (e_hoods (entry_run n ops)) id items) as [[|] hs]; [|reflexivity]. exfalso. apply Hid. apply (proj1 (proj1 B1)). reflexivity.
Qed.
Print Assumptions c61_neighborhoods_half_copied_refuted.

(** ** Grids that can be copied *)
Section Config.
Context {D : Type} (d0 : D) (np : Z).
(** dccrg.hpp:397-402 after copying the mapping (356): abort unless the level is accepted again;
    geometry_rw.set (390) is C10's *)
Definition copy_config {D'} (c : config (D := D)) (cells : option (outcome (Z -> proc D'))) : option (config (D := D')) :=
  let '(ok, mm) := set_maximum_refinement_level (cf_map c) (m_max (cf_map c)) in
  if ok then Some (Config mm (cf_topo c) (cf_len c) (cf_mapped c) (cf_ready c) (cf_of c) cells) else None.

Lemma last_again m l : update_last_cell (Mapping (m_l0 m) (m_l1 m) (m_l2 m) l (last_cell_of (Mapping (m_l0 m) (m_l1 m) (m_l2 m) l (m_last m)))) =
  update_last_cell (Mapping (m_l0 m) (m_l1 m) (m_l2 m) l (m_last m)).
Proof.
  assert (forall v n c, add_levels (Mapping (m_l0 m) (m_l1 m) (m_l2 m) l v) n c = add_levels (Mapping (m_l0 m) (m_l1 m) (m_l2 m) l (m_last m)) n c) as A.
  { intros v n c. induction n as [|k IH]; cbn [add_levels]; [reflexivity|]. rewrite IH. reflexivity. }
  unfold update_last_cell. cbn [m_l0 m_l1 m_l2 m_max]. unfold last_cell_of at 1 3. cbn [m_max]. rewrite A. reflexivity.
Qed.
Lemma level_again m l m2 : set_maximum_refinement_level m l = (true, m2) -> set_maximum_refinement_level m2 (m_max m2) = (true, m2).
Proof.
  unfold set_maximum_refinement_level. destruct (l <=? get_maximum_possible_refinement_level m) eqn:L; [|discriminate]. intros E.
  assert (m2 = update_last_cell (Mapping (m_l0 m) (m_l1 m) (m_l2 m) l (m_last m))) as -> by congruence. clear E.
  assert (forall a, m_l0 a = m_l0 m -> m_l1 a = m_l1 m -> m_l2 a = m_l2 m -> get_maximum_possible_refinement_level a = get_maximum_possible_refinement_level m) as P.
  { intros a E0 E1 E2. unfold get_maximum_possible_refinement_level, grid64. rewrite E0, E1, E2. reflexivity. }
  rewrite P by reflexivity. change (m_max (update_last_cell (Mapping (m_l0 m) (m_l1 m) (m_l2 m) l (m_last m)))) with l. rewrite L. f_equal. exact (last_again m l).
Qed.
Notation configure := (configure d0 np). Notation configure_all := (configure_all d0 np).

(** a grid whose maximum refinement level was accepted after its length can be copied whatever
    else was configured, before and after initialize; the copy has the same settings *)
Theorem c61_can_be_copied (c : config (D := D)) given lvl post : fst (configure c (Set_length given)) = true ->
  let c1 := snd (configure c (Set_length given)) in fst (configure c1 (Set_level lvl)) = true ->
  let c2 := configure_all (snd (configure c1 (Set_level lvl))) post in
  forall D' (cells : option (outcome (Z -> proc D'))), exists c3, copy_config c2 cells = Some c3 /\
    cf_map c3 = cf_map c2 /\ cf_topo c3 = cf_topo c2 /\ cf_len c3 = cf_len c2 /\ cf_ready c3 = cf_ready c2 /\ cf_of c3 = cf_of c2 /\ cf_cells c3 = cells.
Proof.
  intros H1 c1 H2 c2 D' cells.
  set (I := fun c : config (D := D) => cf_mapped c = true /\ set_maximum_refinement_level (cf_map c) (m_max (cf_map c)) = (true, cf_map c)).
  assert (cf_mapped c1 = true) as M1.
  { subst c1. cbn [ConfigModel.configure] in *. unfold set_initial_length in *. destruct (cf_mapped c); [discriminate|]. destruct (set_length (cf_map c) given) as [[|] m1]; [reflexivity|discriminate]. }
  assert (forall c l, cf_mapped c = true -> fst (configure c (Set_level l)) = true -> I (snd (configure c (Set_level l)))) as Lev.
  { clear. intros c l M H. cbn [ConfigModel.configure] in *. unfold set_level in *. destruct (l <? 0).
    - cbn [snd]. split; [exact M|]. cbn [cf_map].
      destruct (set_maximum_refinement_level (cf_map c) (get_maximum_possible_refinement_level (cf_map c))) as [ok mm] eqn:E.
      assert (ok = true) as -> by (unfold set_maximum_refinement_level in E; rewrite Z.leb_refl in E; congruence). apply (level_again _ _ _ E).
    - destruct (set_maximum_refinement_level (cf_map c) l) as [ok mm] eqn:E. cbn [fst snd] in *. subst ok. split; [exact M|]. apply (level_again _ _ _ E). }
  assert (I c2) as (_ & E2).
  { subst c2. pose proof (Lev c1 lvl M1 H2) as I0. revert I0. generalize (snd (configure c1 (Set_level lvl))). clear -Lev.
    induction post as [|s post IH]; intros c I0; cbn [ConfigModel.configure_all]; [exact I0|]. apply IH. destruct s as [given|l|x y z|n|].
    - cbn [ConfigModel.configure]. unfold set_initial_length. rewrite (proj1 I0). exact I0.
    - destruct (fst (configure c (Set_level l))) eqn:F; [apply Lev; [apply I0|exact F]|].
      cbn [ConfigModel.configure] in *. unfold set_level in *. destruct (l <? 0); [discriminate|]. unfold set_maximum_refinement_level in F |- *. destruct (l <=? _); [discriminate|]. cbn [snd]. split; apply I0.
    - split; apply I0.
    - split; apply I0.
    - cbn [ConfigModel.configure]. unfold initialize_grid. destruct (cf_ready c); [exact I0|]. destruct (negb (cf_mapped c)); split; apply I0. }
  unfold copy_config. rewrite E2. eexists. split; [reflexivity|]. cbn. auto 10.
Qed.
Print Assumptions c61_can_be_copied.

(** the same settings in the other order are accepted too, but the program aborts when the grid is
    copied *)
Theorem c61_can_be_copied_in_any_order_refuted : exists lvl given,
  let c1 := snd (configure new_grid (Set_level lvl)) in let c2 := snd (configure c1 (Set_length given)) in
  fst (configure new_grid (Set_level lvl)) = true /\ fst (configure c1 (Set_length given)) = true /\
  forall D' (cells : option (outcome (Z -> proc D'))), copy_config c2 cells = None.
Proof.
  exists 21, (2, 1, 1). cbv zeta. split; [vm_compute; reflexivity|]. split; [vm_compute; reflexivity|]. intros D' cells.
  unfold copy_config.
  replace (set_maximum_refinement_level _ _) with (false, cf_map (snd (configure (snd (configure new_grid (Set_level 21))) (Set_length (2, 1, 1))))); [reflexivity|].
  vm_compute. reflexivity.
Qed.
Print Assumptions c61_can_be_copied_in_any_order_refuted.
End Config.

(** ** Examples *)
(** a grid with refined cells, values, pins, weights and requests, copied; then cell 2 of the
    copy is refined *)
Example c61_example : holds (go 0 g2 (map Do [Refine 0 1; Stop; Write 1 2 7; Weight 1 2 5; Pin 1 2 0; Refine 1 2])) (fun st =>
  let st' := copied 5 st in
  eqo (data_of (st 1) 2) (Some 7) && eqo (data_of (st' 1) 2) (Some 5) && eqo (data_of (st 0) 1) (Some 0) && eqo (data_of (st' 0) 1) None &&
  eqo (effective_pin g2 st' 2) (Some 0) && eqo (get_cell_weight g2 1 1 (p_store (st' 1)) 2) (Some 5) &&
  holds (stop_refining 5 g2 st') (fun res => exists_on (state_of res) 0 2 && holds (stop_refining 0 g2 st) (fun res => negb (exists_on (state_of res) 0 2)))) = true.
Proof. vm_compute. reflexivity. Qed.
Example c61_values_example : holds (xinitialize 0 g2) (fun x => holds (xrun 0 g2 x (WriteCopy 0 2 9)) (fun x =>
  let x' := xcopied 5 x in eqo (read x 0 2) (Some 9) && eqo (read x' 0 2) (Some 5) && eqo (read x' 0 1) (Some 5) && eqo (read x' 0 3) None)) = true.
Proof. vm_compute. reflexivity. Qed.
Example c61_half_copied_example : hood_lookup (e_hoods (entry_run 1 [AddEntry 3 [Idx 1 0 0]])) 3 <> None.
Proof. vm_compute. discriminate. Qed.
Example c61_can_be_copied_example : let c1 := snd (configure 0 2 new_grid (Set_length (3, 2, 1))) in
  fst (configure 0 2 new_grid (Set_length (3, 2, 1))) = true /\ fst (configure 0 2 c1 (Set_level 3)) = true.
Proof. split; vm_compute; reflexivity. Qed.
