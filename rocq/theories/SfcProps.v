(** C78: the distribution of new cells along a space filling curve (USE_SFC). *)
From Verif Require Import U64 MapModel MapSpec MapProofs MapFamily MapProps HoodModel MeshModel
  MeshSpec MeshBase HoodProps MeshWalk MeshFind MeshKids MeshItem MeshCheck MeshTo MeshNear
  Sets RefineModel RefineGeo RefineInv RefineSpread RefineMerge RefineFold RefineExec RefineStop
  BalanceModel RefineReqs Create SfcModel SfcCreate Balance History HistProps CommitProps BalProps HistExamples
  CommModel CommInv CommProps Adapt ProgramModel ProgramProps.
Open Scope Z_scope.

Section Props.
Context {D : Type} (d0 : D) (g : grid) (Hg : grid_ok g).
Notation m := (g_map g).
Notation T := (m_l0 m * m_l1 m * m_l2 m).
Notation np := (g_np g).
Notation rank r := (In r (ranks g)).
Implicit Types (curve : Z -> idx) (st : Z -> proc D).

(** Every process gets T / np consecutive positions of the curve, the last T mod np processes one
    more; this is the first position of process p. *)
Definition first_of (p : Z) : Z := p * (T / np) + Z.max 0 (p - (np - T mod np)).
(** c is the cell of refinement level 0 at position j of the curve *)
Definition at_position curve (j c : Z) : Prop :=
  valid m c /\ lvl_of m c = 0 /\
  get_indices m c = Idx (ix (curve j) * 2 ^ m_max m) (iy (curve j) * 2 ^ m_max m) (iz (curve j) * 2 ^ m_max m).

Lemma first_start p : 0 <= p <= np -> start T np p = first_of p.
Proof.
  intros Hp. pose proof (vol_bound g Hg) as B. change (vol (dims_of m)) with T in B. pose proof Hg as (_ & _ & _ & Hnp).
  unfold start, first_of, cells_per_process. pose proof (Z.div_mod T np ltac:(lia)) as E. pose proof (Z.mod_pos_bound T np ltac:(lia)).
  destruct (Z.ltb_spec T np) as [L|L]; [rewrite Z.div_small, Z.mod_small by lia; lia|]. destruct (Z.ltb_spec 0 (T mod np)) as [M|M].
  - replace ((T / np + 1) * np - T) with (np - T mod np) by lia. lia.
  - replace (T / np * np - T) with 0 by lia. lia.
Qed.
Lemma at_position_cell curve j c : space_filling m curve -> 0 <= j < T -> at_position curve j c <-> c = curve_cell m (curve j).
Proof.
  intros Hc Hj. pose proof (proj1 Hg) as Hwf. pose proof (curve_cell_spec m Hwf (curve j) (proj1 Hc j Hj)) as S. split; [|intros ->; exact S]. intros (V & L & I). destruct S as (V' & L' & I').
  destruct (c01_id_to_indices_and_back m c Hwf V) as (_ & _ & _ & _ & _ & _ & E). destruct (c01_id_to_indices_and_back m _ Hwf V') as (_ & _ & _ & _ & _ & _ & E').
  unfold lvl_of in *. rewrite L, I in E. rewrite L', I' in E'. congruence.
Qed.

(** ** Creation succeeds *)
(** whatever the number of batches in which the curve is cached: every index that is looked up is
    in the cached range, and every cached range lies on the curve.  Only a grid with more than 2^63
    cells could make the end of a range overflow. *)
Theorem c78_creation_succeeds curve batches : space_filling m curve -> 0 < batches -> 2 * T <= W ->
  exists st, initialize_sfc d0 g curve batches = Done st.
Proof. intros Hc Hb HW. apply (initialize_sfc_done d0 g Hg curve Hc); assumption. Qed.
(** as soon as cells can be refined there are fewer *)
Theorem c78_refinable_grids_are_small : 0 < m_max m -> 2 * T <= W.
Proof.
  intros Hm. pose proof (wf_level_total m (proj1 Hg) 1 ltac:(lia)) as L. pose proof (vol_bound g Hg). change (vol (dims_of m)) with T in *. change (8 ^ 1) with 8 in L. lia.
Qed.
Theorem c78_no_batches curve : initialize_sfc d0 g curve 0 = Threw.
Proof. reflexivity. Qed.

(** ** Which process gets which cell *)
Theorem c78_owners curve batches st r c p : space_filling m curve -> initialize_sfc d0 g curve batches = Done st -> rank r ->
  owner st r c = Some p <-> rank p /\ exists j, first_of p <= j < first_of (p + 1) /\ at_position curve j c.
Proof.
  intros Hc E Ir. destruct (initialize_sfc_ok d0 g Hg curve Hc batches st E) as (cells & Ec & G & S). destruct (sfc_cells_spec g Hg curve Hc batches cells Ec) as (N & K & F).
  unfold owner. rewrite (proj1 (proj1 (proj2 G r Ir))). unfold sfc_own. rewrite F. pose proof (vol_bound g Hg) as B. pose proof Hg as (_ & _ & _ & Hnp).
  change (vol (dims_of m)) with T in *. rewrite in_ranks. split.
  - intros (Hp & j & -> & Hj). split; [assumption|]. exists j. rewrite <- !first_start by lia. split; [assumption|]. apply at_position_cell; [assumption| |reflexivity].
    pose proof (start_mono T np B Hnp 0 p ltac:(lia)). pose proof (start_mono T np B Hnp (p + 1) np ltac:(lia)). rewrite start_0, start_np in * by assumption. lia.
  - intros (Hp & j & Hj & A). rewrite <- !first_start in Hj by lia. split; [assumption|]. exists j. split; [|assumption]. apply at_position_cell; [assumption| |assumption].
    pose proof (start_mono T np B Hnp 0 p ltac:(lia)). pose proof (start_mono T np B Hnp (p + 1) np ltac:(lia)). rewrite start_0, start_np in * by assumption. lia.
Qed.
(** the parts make up the curve *)
Theorem c78_parts : first_of 0 = 0 /\ first_of np = T /\
  (forall p, 0 <= p < np -> first_of (p + 1) - first_of p = T / np \/ first_of (p + 1) - first_of p = T / np + 1) /\
  forall j, 0 <= j < T -> exists p, rank p /\ first_of p <= j < first_of (p + 1).
Proof.
  pose proof (vol_bound g Hg) as B. change (vol (dims_of m)) with T in B. pose proof Hg as (_ & _ & _ & Hnp). pose proof (Z.div_mod T np ltac:(lia)) as E. pose proof (Z.mod_pos_bound T np ltac:(lia)) as M.
  unfold first_of. split; [lia|]. split; [lia|]. split; [intros p Hp; lia|]. intros j Hj.
  assert (forall k, (0 <= k <= np) -> first_of k <= j -> exists p, k <= p < np /\ first_of p <= j < first_of (p + 1)) as Q.
  { intros k Hk. remember (Z.to_nat (np - k)) as n eqn:En. revert k Hk En. induction n as [|n IH]; intros k Hk En Hf.
    - assert (k = np) as -> by lia. unfold first_of in Hf. lia.
    - destruct (Z_lt_le_dec j (first_of (k + 1))); [exists k; lia|]. destruct (IH (k + 1) ltac:(lia) ltac:(lia) ltac:(lia)) as (p & Hp & Q). exists p. split; [lia|assumption]. }
  destruct (Q 0 ltac:(lia)) as (p & Hp & F); [unfold first_of; lia|]. exists p. split; [apply in_ranks; lia|exact F].
Qed.
(** every cell of refinement level 0 and no other one exists, on one process and known to all *)
Theorem c78_cells curve batches st r c : space_filling m curve -> initialize_sfc d0 g curve batches = Done st -> rank r ->
  exists_on st r c = true <-> valid m c /\ lvl_of m c = 0.
Proof.
  intros Hc E Ir. destruct (initialize_sfc_ok d0 g Hg curve Hc batches st E) as (cells & Ec & G & S). destruct (sfc_cells_spec g Hg curve Hc batches cells Ec) as (N & K & F).
  rewrite <- (level0 g Hg c), <- (K c), keys_find. unfold exists_on, owner. rewrite (proj1 (proj1 (proj2 G r Ir))). unfold sfc_own. destruct (find c cells); split; eauto; [discriminate|intros (? & ?); discriminate].
Qed.
(** a cell has new data on its process and none on others *)
Theorem c78_data curve batches st r c : space_filling m curve -> initialize_sfc d0 g curve batches = Done st -> rank r ->
  data_of (st r) c = if match owner st r c with Some p => p =? r | None => false end then Some d0 else None.
Proof.
  intros Hc E Ir. destruct (initialize_sfc_ok d0 g Hg curve Hc batches st E) as (cells & Ec & G & S). destruct (sfc_cells_spec g Hg curve Hc batches cells Ec) as (N & K & F).
  unfold owner. rewrite (proj1 (proj1 (proj2 G r Ir))). unfold data_of. destruct (S r Ir) as [-> _]. rewrite (sfc_find d0 cells N). destruct (match sfc_own cells c with Some q => q =? r | None => false end); reflexivity.
Qed.
(** the number of batches only matters for the memory that is used *)
Lemma same_list (l l' : list (Z * Z)) : NoDup (keys l) -> keys l = keys l' -> (forall c, find c l = find c l') -> l = l'.
Proof.
  revert l'. induction l as [|[k a] l IH]; intros [|[k' a'] l'] N K F; cbn [keys map fst] in *; [reflexivity|discriminate..|]. injection K as <- K. apply NoDup_cons_iff in N. destruct N as [N1 N].
  pose proof (F k) as Fk. cbn [find] in Fk. rewrite Z.eqb_refl in Fk. injection Fk as <-. f_equal. apply IH; [assumption|assumption|]. intros c. specialize (F c). cbn [find] in F. destruct (Z.eqb_spec c k) as [Ek|]; [|exact F]. rewrite Ek.
  assert (forall x : list (Z * Z), ~ In k (keys x) -> find k x = None) as Q by (intros x Nx; destruct (find k x) eqn:Fx; [exfalso; apply Nx, keys_find; eauto|reflexivity]).
  rewrite (Q l N1), (Q l'); [reflexivity|]. unfold keys in *. rewrite <- K. assumption.
Qed.
Lemma sfc_keys curve batches cells : space_filling m curve -> sfc_cells g curve batches = Done cells -> keys cells = map (fun j => curve_cell m (curve j)) (zseq 0 (Z.to_nat T)).
Proof.
  intros Hc. pose proof (vol_bound g Hg) as B. change (vol (dims_of m)) with T in B. pose proof Hg as (_ & _ & _ & Hnp). destruct (ranks_seq g Hg) as [Er L].
  unfold sfc_cells. cbn zeta. pose proof (total_eq g Hg) as Et. change (vol (dims_of m)) with T in Et. rewrite Et. destruct (batches =? 0); [discriminate|]. intros E. apply bind_done in E. destruct E as (cache & _ & E). apply bind_done in E. destruct E as ([l i] & E1 & E). cbn [fst snd] in E. destruct (i =? T); [|discriminate]. injection E as <-.
  rewrite <- (start_0 T np B Hnp) in E1. destruct (sfc_from_eq T np B Hnp m curve _ (ranks g) 0 _ _ _ ltac:(lia) Er ltac:(lia) E1) as (_ & K & _). rewrite start_0, Z.sub_0_r in K by assumption. exact K.
Qed.
Theorem c78_batches_do_not_matter curve batches batches' st st' : space_filling m curve ->
  initialize_sfc d0 g curve batches = Done st -> initialize_sfc d0 g curve batches' = Done st' -> forall r, rank r -> st r = st' r.
Proof.
  intros Hc E E' r Ir. unfold initialize_sfc in E, E'. apply bind_done in E, E'. destruct E as (l & El & E), E' as (l' & El' & E').
  destruct (sfc_cells_spec g Hg curve Hc _ l El) as (N & _ & F). destruct (sfc_cells_spec g Hg curve Hc _ l' El') as (_ & _ & F').
  assert (l = l') as <-.
  { apply same_list; [assumption|rewrite (sfc_keys curve batches l Hc El), (sfc_keys curve batches' l' Hc El'); reflexivity|]. intros c.
    assert (forall q, find c l = Some q <-> find c l' = Some q) as Q by (intros q; rewrite F, F'; reflexivity).
    destruct (find c l) as [q|]; [symmetry; apply Q; reflexivity|]. destruct (find c l') as [q|]; [apply Q; reflexivity|reflexivity]. }
  rewrite E in E'. injection E' as <-. reflexivity.
Qed.

End Props.

(** ** All that holds for the default distribution holds for this one *)
(** The states made here start histories as those of initialize do ([reached_curve], [xreached_curve]), so the
    theorems on reachable states are about both. *)
Section Two.
Context {D : Type} (d0 : D) (g : grid) (Hg : grid_ok g) (np : Z) (Hg' : grid_ok (on_procs g np)).
Notation g' := (on_procs g np).
Lemma curve_start (h : grid) (Hh : grid_ok h) curve batches x : space_filling (g_map h) curve -> xinitialize_sfc d0 h curve batches = Done x ->
  x_hoods x = [] /\ idle h (x_st x) /\ (forall c, exists_on (x_st x) 0 c = true <-> valid (g_map h) c /\ lvl_of (g_map h) c = 0) /\
  forall c v, shows h x c v <-> v = d0 /\ exists_on (x_st x) 0 c = true.
Proof.
  intros Hc E. pose proof (xreach_curve d0 h curve batches x Hc E) as R. unfold xinitialize_sfc in E. apply bind_done in E. destruct E as (st & E & Ex). injection Ex as <-. cbn [x_st x_hoods].
  assert (In 0 (ranks h)) as I0 by apply (rank0 h Hh). split; [reflexivity|]. split.
  - intros r Ir. destruct (initialize_sfc_ok d0 h Hh curve Hc batches st E) as (cells & _ & _ & S). apply (S r Ir).
  - split; [intros c; apply (c78_cells d0 h Hh curve batches); assumption|]. intros c v.
    pose proof (shows_iff d0 h Hh (XState st (fresh_copies d0 st) []) c v R) as Si. unfold data_at in Si. cbn [x_st] in Si. rewrite Si. clear Si. unfold exists_on.
    destruct (owner st 0 c) as [r|] eqn:O; [|split; [discriminate|intros [_ Q]; discriminate]].
    pose proof (proj1 (c78_owners d0 h Hh curve batches st 0 c r Hc E I0) O) as Q. pose proof (proj1 Q) as Ir. pose proof (proj2 (c78_owners d0 h Hh curve batches st r c r Hc E Ir) Q) as Or.
    destruct (initialize_sfc_ok d0 h Hh curve Hc batches st E) as (cells & Ec & G & S). destruct (S r Ir) as [-> _].
    rewrite (sfc_find d0 cells (proj1 (sfc_cells_spec h Hh curve Hc batches cells Ec))). unfold owner in Or. rewrite (proj1 (proj1 (proj2 G r Ir))) in Or. rewrite Or, Z.eqb_refl. split; [intros E1; injection E1 as <-; auto|intros [-> _]; reflexivity].
Qed.
(** a program gives the same cells with the same data whichever distribution it starts from *)
Theorem c78_same_result curve batches x0 y0 prog x y : space_filling (g_map g) curve -> xinitialize_sfc d0 g curve batches = Done x0 -> xinitialize d0 g' = Done y0 ->
  execs d0 g x0 prog x -> execs d0 g' y0 prog y ->
  (forall c r q, In r (ranks g) -> In q (ranks g') -> exists_on (x_st x) r c = exists_on (x_st y) q c) /\
  forall c v, shows g x c v <-> shows g' y c v.
Proof.
  intros Hc Ex Ey Hx Hy. destruct (curve_start g Hg curve batches x0 Hc Ex) as (A1 & A2 & A3 & A4). destruct (start_ok d0 g' Hg' y0 Ey) as (B1 & B2 & B3 & B4 & B5).
  assert (forall c, exists_on (x_st y0) 0 c = ex_at y0 c) as Ea by (intros c; reflexivity).
  assert (forall c, exists_on (x_st x0) 0 c = exists_on (x_st y0) 0 c) as Ee by (intros c; apply Bool.eq_iff_eq_true; rewrite A3, Ea, B4; symmetry; apply (level0 g Hg)).
  apply (c69_same_result_from_any_state d0 g Hg np Hg' x0 y0 prog x y); auto; [apply (xreach_curve d0 g curve batches); assumption|congruence|].
  intros c v. rewrite A4, Ee, (shows_iff d0 g' Hg' y0 c v B1), B5, Ea. destruct (ex_at y0 c); split; [intros [-> _]; reflexivity|intros E; injection E as <-; auto|intros [_ Q]; discriminate|discriminate].
Qed.
Theorem c78_same_result_on_any_curve curve batches curve' batches' x0 y0 prog x y : space_filling (g_map g) curve -> space_filling (g_map g) curve' ->
  xinitialize_sfc d0 g curve batches = Done x0 -> xinitialize_sfc d0 g' curve' batches' = Done y0 ->
  execs d0 g x0 prog x -> execs d0 g' y0 prog y ->
  (forall c r q, In r (ranks g) -> In q (ranks g') -> exists_on (x_st x) r c = exists_on (x_st y) q c) /\
  forall c v, shows g x c v <-> shows g' y c v.
Proof.
  intros Hc Hc' Ex Ey Hx Hy. destruct (curve_start g Hg curve batches x0 Hc Ex) as (A1 & A2 & A3 & A4). destruct (curve_start g' Hg' curve' batches' y0 Hc' Ey) as (B1 & B2 & B3 & B4).
  assert (forall c, exists_on (x_st x0) 0 c = exists_on (x_st y0) 0 c) as Ee by (intros c; apply Bool.eq_iff_eq_true; rewrite A3, B3; reflexivity).
  apply (c69_same_result_from_any_state d0 g Hg np Hg' x0 y0 prog x y); auto; [apply (xreach_curve d0 g curve batches); assumption|apply (xreach_curve d0 g' curve' batches'); assumption|congruence|].
  intros c v. rewrite A4, B4, Ee. reflexivity.
Qed.
End Two.

(** ** A curve *)
(** 3 x 2 x 1 cells on 4 processes; the curve goes along the first row and back along the second,
    and is cached in 4 batches of 2, each after the first overlapping the one before *)
Definition rows : grid := Grid (update_last_cell (Mapping 3 2 1 1 0)) (Topo false false false) 1 4.
Lemma rows_ok : grid_ok rows. Proof. apply grid_okb; vm_compute; reflexivity. Qed.
Definition snake (j : Z) : idx := if j <? 3 then Idx j 0 0 else Idx (5 - j) 1 0.
Lemma snake_fills : space_filling (g_map rows) snake.
Proof.
  unfold space_filling, in_box, snake, rows. cbn [g_map m_l0 m_l1 m_l2 update_last_cell]. change (3 * 2 * 1) with 6. cbn zeta. split; [|split].
  - intros j Hj. destruct (Z.ltb_spec j 3); cbn [ix iy iz]; lia.
  - intros j k Hj Hk. destruct (Z.ltb_spec j 3), (Z.ltb_spec k 3); intros E; pose proof (f_equal ix E) as E1; pose proof (f_equal iy E) as E2; cbn [ix iy] in *; lia.
  - intros [a b c] (A & B & C). cbn [ix iy iz] in *. destruct (Z.eq_dec b 0) as [->|]; [exists a|exists (5 - a)]; (split; [lia|]); match goal with |- context [?x <? 3] => destruct (Z.ltb_spec x 3) end; try lia; f_equal; lia.
Qed.
Definition owners_of (st : Z -> proc Z) (r : Z) : list Z := map (fun c => match owner st r c with Some p => p | None => -1 end) [1; 2; 3; 4; 5; 6; 7].
Example c78_example : holds (initialize_sfc 0 rows snake 4) (fun st =>
  forallb (fun r => forallb (fun x => fst x =? snd x) (combine (owners_of st r) [0; 1; 2; 3; 3; 2; -1])) [0; 1; 2; 3] &&
  match data_of (st 3) 5, data_of (st 2) 5 with Some 0, None => true | _, _ => false end) = true.
Proof. vm_compute. reflexivity. Qed.
Example c78_default_example : holds (initialize 0 rows) (fun st =>
  forallb (fun r => forallb (fun x => fst x =? snd x) (combine (owners_of st r) [0; 1; 2; 2; 3; 3; -1])) [0; 1; 2; 3]) = true.
Proof. vm_compute. reflexivity. Qed.
Example c78_parts_example : map (first_of rows) [0; 1; 2; 3; 4] = [0; 1; 2; 4; 6].
Proof. reflexivity. Qed.
(** a curve that visits a cell twice is noticed by nothing: a cell is missing, the others are created.
    (So the curve's property is needed.) *)
Example c78_needs_a_curve : holds (initialize_sfc 0 rows (fun j => if j =? 5 then Idx 0 0 0 else snake j) 1) (fun st =>
  negb (exists_on st 0 4) && match owner st 0 1, data_of (st 0) 1, data_of (st 3) 1 with Some 3, Some 0, Some 0 => true | _, _, _ => false end) = true.
Proof. vm_compute. reflexivity. Qed.

Print Assumptions c78_owners.
Print Assumptions c78_same_result.
