(** Properties C01-C06: cell ids, levels, indices, families. *)
From Verif Require Import U64 MapModel MapSpec MapProofs MapFamily.
Open Scope Z_scope.

(** What a user sees of a cell's volume: indices and length in indices. *)
Definition covers (m : mapping) (c : Z) (i : idx) : Prop :=
  let a := get_indices m c in let s := get_cell_length_in_indices m c in
  ix a <= ix i < ix a + s /\ iy a <= iy i < iy a + s /\ iz a <= iz i < iz a + s.

Definition valid (m : mapping) (c : Z) : Prop := 1 <= c <= m_last m.

(** index rounded down to a multiple of s *)
Definition rdown (s a : Z) : Z := a - a mod s.

Lemma covers_cube m (Hwf : wf m) c i : valid m c ->
  (covers m c i <-> inside (dims_of m) (cube_of m c) i).
Proof.
  intros H. destruct (cube_of_spec m Hwf c H) as [H1 H2]. unfold covers.
  rewrite get_indices_cube by assumption.
  assert (get_cell_length_in_indices m c = side (dims_of m) (cube_of m c)) as E.
  { rewrite <- H2 at 1. apply length_id; assumption. }
  rewrite E.
  unfold inside, corner; cbn zeta; cbn [ix iy iz]. lia.
Qed.

(** ** C01 *)
Theorem c01_id_to_indices_and_back m c :
  wf m -> valid m c ->
  let l := get_refinement_level m c in
  let i := get_indices m c in
  let s := get_cell_length_in_indices m c in
  0 <= l <= m_max m /\ in_grid (dims_of m) i /\ s = 2 ^ (m_max m - l) /\
  (s | ix i) /\ (s | iy i) /\ (s | iz i) /\
  get_cell_from_indices m i l = c.
Proof.
  intros Hwf H. cbn zeta. destruct (cube_of_spec m Hwf c H) as [H1 H2].
  rewrite <- cube_of_level. rewrite get_indices_cube by assumption.
  assert (get_cell_length_in_indices m c = side (dims_of m) (cube_of m c)) as E.
  { rewrite <- H2 at 1. apply length_id; assumption. }
  rewrite E. split; [apply H1|]. split; [apply corner_in_grid; assumption|]. split; [reflexivity|].
  unfold corner; cbn [ix iy iz].
  repeat (split; [eexists; reflexivity|]).
  change (Idx _ _ _) with (corner (dims_of m) (cube_of m c)). rewrite gcfi_corner by assumption. exact H2.
Qed.
Print Assumptions c01_id_to_indices_and_back.

Theorem c01_indices_to_id_and_back m i l :
  wf m -> in_grid (dims_of m) i -> 0 <= l <= m_max m ->
  let c := get_cell_from_indices m i l in
  let s := 2 ^ (m_max m - l) in
  valid m c /\ get_refinement_level m c = l /\
  get_indices m c = Idx (rdown s (ix i)) (rdown s (iy i)) (rdown s (iz i)).
Proof.
  intros Hwf Hi Hl. cbn zeta. rewrite gcfi_valid by assumption.
  pose proof (cube_at_in_dims m Hwf l i Hl Hi) as Hq.
  split; [apply id_of_valid; assumption|]. split; [apply level_of_id; assumption|].
  rewrite get_indices_id by assumption. unfold corner, cube_at, side, rdown; cbn [q_l q_x q_y q_z dims_of dmax].
  pose proof (pow2_pos (m_max m - l) ltac:(lia)).
  f_equal; rewrite Z.mod_eq by lia; lia.
Qed.
Print Assumptions c01_indices_to_id_and_back.

(** the numbering is the documented one: 1 + cells of coarser levels + x fastest position *)
Theorem c01_documented_numbering m :
  wf m ->
  (forall q, in_dims (dims_of m) q ->
     valid m (id_of (dims_of m) q) /\
     get_refinement_level m (id_of (dims_of m) q) = q_l q /\
     get_indices m (id_of (dims_of m) q) = corner (dims_of m) q /\
     get_cell_from_indices m (corner (dims_of m) q) (q_l q) = id_of (dims_of m) q) /\
  (forall c, valid m c -> exists! q, in_dims (dims_of m) q /\ id_of (dims_of m) q = c).
Proof.
  intros Hwf. split.
  - intros q H. split; [apply id_of_valid; assumption|]. split; [apply level_of_id; assumption|].
    split; [apply get_indices_id; assumption|apply gcfi_corner; assumption].
  - intros c H. exists (cube_of m c). split; [apply cube_of_spec; assumption|].
    intros q [Hq <-]. symmetry. symmetry. apply cube_of_id; assumption.
Qed.
Print Assumptions c01_documented_numbering.

(** none of the shifts [uint64_t(1) << n] in the mapping is undefined behaviour *)
Theorem c01_shifts_defined m l : wf m -> 0 <= l <= m_max m ->
  shift_defined (3 * l) /\ shift_defined (m_max m - l) /\ shift_defined l /\ shift_defined (2 * l).
Proof. intros Hwf. apply wf_shift_defined, Hwf. Qed.
Print Assumptions c01_shifts_defined.

(** ** C02 *)
Theorem c02_cells_of_a_level_tile_the_grid m l i :
  wf m -> 0 <= l <= m_max m -> 0 <= ix i -> 0 <= iy i -> 0 <= iz i ->
  (in_grid (dims_of m) i ->
    exists! c, valid m c /\ get_refinement_level m c = l /\ covers m c i) /\
  (~ in_grid (dims_of m) i ->
    ~ exists c, valid m c /\ get_refinement_level m c = l /\ covers m c i).
Proof.
  intros Hwf Hl _ _ _. split.
  - intros Hi. pose proof (cube_at_in_dims m Hwf l i Hl Hi) as Hq.
    exists (id_of (dims_of m) (cube_at m l i)). split.
    + pose proof (id_of_valid m Hwf _ Hq). split; [assumption|].
      split; [apply level_of_id; assumption|].
      apply covers_cube; [assumption|assumption|]. rewrite cube_of_id by assumption.
      apply inside_cube_at; [assumption|reflexivity].
    + intros c (Hc & Hlc & Hcov). apply covers_cube in Hcov; [|assumption..].
      destruct (cube_of_spec m Hwf c Hc) as [H1 H2].
      apply inside_cube_at in Hcov; [|assumption]. rewrite cube_of_level, Hlc in Hcov.
      rewrite Hcov. exact H2.
  - intros Hn (c & Hc & _ & Hcov). apply Hn. apply covers_cube in Hcov; [|assumption..].
    destruct (cube_of_spec m Hwf c Hc) as [H1 H2].
    eapply inside_in_grid; eassumption.
Qed.
Print Assumptions c02_cells_of_a_level_tile_the_grid.

(** ** C03 *)
Theorem c03_children m c :
  wf m -> valid m c -> get_refinement_level m c < m_max m ->
  let ch := get_all_children m c in
  length ch = 8%nat /\ NoDup ch /\
  (forall k, In k ch <-> valid m k /\ get_refinement_level m k = get_refinement_level m c + 1
                         /\ get_parent m k = c) /\
  (forall k, In k ch -> get_siblings m k = ch) /\
  hd_error ch = Some (get_child m c) /\
  (forall i, covers m c i -> exists! k, In k ch /\ covers m k i) /\
  (forall k i, In k ch -> covers m k i -> covers m c i).
Proof.
  intros Hwf Hc Hlt. cbn zeta. destruct (cube_of_spec m Hwf c Hc) as [H1 H2].
  set (q := cube_of m c) in *.
  assert (get_refinement_level m c = q_l q) as El by reflexivity. rewrite El in *.
  assert (get_all_children m c = map (id_of (dims_of m)) (q_kids q)) as Ech.
  { rewrite <- H2. rewrite get_all_children_id by assumption.
    replace (q_l q =? m_max m) with false by lia. reflexivity. }
  rewrite Ech.
  assert (forall k, In k (q_kids q) -> in_dims (dims_of m) k) as Dk.
  { intros k. apply kid_in_dims; assumption. }
  assert (forall k, In k (map (id_of (dims_of m)) (q_kids q)) -> valid m k /\ In (cube_of m k) (q_kids q)
     /\ id_of (dims_of m) (cube_of m k) = k) as KV.
  { intros k Hk. apply in_map_iff in Hk. destruct Hk as (k' & <- & Hk').
    split; [apply id_of_valid; auto|]. rewrite cube_of_id by auto. auto. }
  split; [rewrite map_length; reflexivity|].
  split. { apply NoDup_nth_error. rewrite map_length.
    pose proof (kids_nodup q) as ND. rewrite NoDup_nth_error in ND.
    intros a b Ha Hab. apply ND; [exact Ha|].
    rewrite !nth_error_map in Hab. destruct (nth_error (q_kids q) a) as [ka|] eqn:Ea.
    - destruct (nth_error (q_kids q) b) as [kb|] eqn:Eb; cbn in Hab; [|discriminate].
      injection Hab as Hab. f_equal. apply (id_of_inj m Hwf); [| |exact Hab];
      apply Dk; eapply nth_error_In; eassumption.
    - apply nth_error_None in Ea. lia. }
  split. { intros k. split.
    - intros Hk. apply KV in Hk. destruct Hk as (Vk & Hk & Ek). split; [assumption|].
      pose proof (Dk _ Hk) as Dk'. apply kids_iff in Hk. destruct Hk as [Lk Pk].
      split; [exact Lk|]. rewrite <- Ek. rewrite get_parent_id by assumption.
      destruct H1 as ((?&_)&_). replace (q_l (cube_of m k) =? 0) with false by lia.
      rewrite Pk. exact H2.
    - intros (Vk & Lk & Pk). destruct (cube_of_spec m Hwf k Vk) as [K1 K2].
      rewrite <- K2. apply in_map. apply kids_iff. split; [exact Lk|].
      rewrite <- K2 in Pk. rewrite get_parent_id in Pk by assumption.
      pose proof H1 as ((?&_)&_). rewrite cube_of_level in Pk.
      replace (get_refinement_level m k =? 0) with false in Pk by lia.
      rewrite <- H2 in Pk. apply (id_of_inj m Hwf) in Pk; [exact Pk| |exact H1].
      apply parent_in_dims; [assumption|]. rewrite cube_of_level. lia. }
  split. { intros k Hk. apply KV in Hk. destruct Hk as (Vk & Hk & Ek). rewrite <- Ek.
    pose proof (Dk _ Hk) as Dk'. apply kids_iff in Hk. destruct Hk as [Lk Pk].
    rewrite get_siblings_id; [|assumption|assumption|destruct H1 as ((?&_)&_); lia].
    rewrite Pk. reflexivity. }
  split. { rewrite <- H2 at 1. rewrite get_child_id by assumption.
    replace (q_l q =? m_max m) with false by lia. reflexivity. }
  split.
  - intros i Hi. apply covers_cube in Hi; [|assumption..]. fold q in Hi.
    pose proof Hi as Hi'. apply (inside_kids m Hwf) in Hi'; [|assumption|assumption].
    destruct Hi' as (k & Hk & Hki). exists (id_of (dims_of m) k).
    pose proof (Dk _ Hk) as Dk'. split.
    + split; [apply in_map; assumption|]. apply covers_cube; [assumption|apply id_of_valid; assumption|].
      rewrite cube_of_id by assumption. assumption.
    + intros k' (Hk' & Hc'). apply KV in Hk'. destruct Hk' as (Vk' & Hk' & Ek'). rewrite <- Ek'.
      f_equal. apply covers_cube in Hc'; [|assumption..].
      apply (inside_unique m) with i; auto.
      rewrite (kids_level _ _ Hk), (kids_level _ _ Hk'). reflexivity.
  - intros k i Hk Hi. apply KV in Hk. destruct Hk as (Vk & Hk & Ek).
    apply covers_cube in Hi; [|assumption..]. apply covers_cube; [assumption..|]. fold q.
    apply (inside_kids m Hwf); [assumption|assumption|]. exists (cube_of m k). auto.
Qed.
Print Assumptions c03_children.

Theorem c03_children_of_finest_cell m c :
  wf m -> valid m c -> get_refinement_level m c = m_max m ->
  get_all_children m c = eight_errors /\ get_child m c = c.
Proof.
  intros Hwf Hc Hl. destruct (cube_of_spec m Hwf c Hc) as [H1 H2].
  rewrite <- H2. rewrite get_all_children_id, get_child_id by assumption.
  rewrite cube_of_level, Hl, Z.eqb_refl. auto.
Qed.
Print Assumptions c03_children_of_finest_cell.

(** what the family functions give where there is no coarser or no finer level *)
Theorem c03_coarsest_and_finest_cells m c :
  wf m -> valid m c ->
  (get_refinement_level m c = 0 ->
     get_parent m c = c /\ get_siblings m c = c :: repeat error_cell 7) /\
  (get_refinement_level m c = m_max m ->
     get_child m c = c /\ get_all_children m c = repeat error_cell 8).
Proof.
  intros Hwf Hc. destruct (cube_of_spec m Hwf c Hc) as [H1 H2].
  pose proof H1 as ((L0 & L1) & _). cbn [dims_of dmax] in L1. rewrite cube_of_level in L0, L1.
  split; intros E.
  - unfold get_parent, get_siblings. rewrite E. destruct (Z.ltb_spec (m_max m) 0); [lia|].
    split; reflexivity.
  - unfold get_child, get_all_children. unfold valid in Hc.
    replace (c =? error_cell) with false by (unfold error_cell; lia).
    replace (m_last m <? c) with false by lia.
    rewrite E, Z.leb_refl. split; reflexivity.
Qed.
Print Assumptions c03_coarsest_and_finest_cells.

(** ** C04 *)
Lemma parent_iter m (Hwf : wf m) n : forall q, in_dims (dims_of m) q -> Z.of_nat n <= q_l q ->
  Nat.iter n (get_parent m) (id_of (dims_of m) q) = id_of (dims_of m) (q_anc (q_l q - Z.of_nat n) q).
Proof.
  induction n as [|n IH]; intros q H Hn.
  - cbn. rewrite Z.sub_0_r, anc_self. reflexivity.
  - cbn [Nat.iter nat_rect]. change (nat_rect _ _ _ n) with (Nat.iter n (get_parent m) (id_of (dims_of m) q)).
    rewrite IH by (assumption || lia).
    set (a := q_anc (q_l q - Z.of_nat n) q).
    assert (in_dims (dims_of m) a) as Ha.
    { apply anc_in_dims; [assumption|]. lia. }
    rewrite get_parent_id by assumption. unfold a at 1; cbn [q_anc q_l].
    replace (q_l q - Z.of_nat n =? 0) with false by lia.
    f_equal. unfold a, q_parent, q_anc; cbn [q_l q_x q_y q_z].
    assert (forall x, x / 2 ^ (q_l q - (q_l q - Z.of_nat n)) / 2 = x / 2 ^ (q_l q - (q_l q - Z.of_nat (S n)))) as K.
    { intros x. replace (q_l q - (q_l q - Z.of_nat (S n))) with (Z.of_nat n + 1) by lia.
      replace (q_l q - (q_l q - Z.of_nat n)) with (Z.of_nat n) by lia.
      rewrite Z.pow_add_r by lia. pose proof (pow2_pos (Z.of_nat n)).
      rewrite Z.div_div by lia. reflexivity. }
    rewrite !K. f_equal. lia.
Qed.

Theorem c04_level_0_parent m c :
  wf m -> valid m c ->
  let l := get_refinement_level m c in
  (* the iterated parent *)
  get_level_0_parent m c = Nat.iter (Z.to_nat l) (get_parent m) c /\
  (forall n, Z.of_nat n <= l ->
     get_refinement_level m (Nat.iter n (get_parent m) c) = l - Z.of_nat n) /\
  (* the only level 0 cell containing c *)
  (forall p, (valid m p /\ get_refinement_level m p = 0 /\ (forall i, covers m c i -> covers m p i))
     <-> p = get_level_0_parent m c).
Proof.
  intros Hwf Hc. cbn zeta. destruct (cube_of_spec m Hwf c Hc) as [H1 H2].
  rewrite <- cube_of_level. set (q := cube_of m c) in *.
  pose proof H1 as ((Hl0 & Hlm) & _). cbn [dims_of dmax] in Hlm.
  assert (get_level_0_parent m c = id_of (dims_of m) (q_anc 0 q)) as E0.
  { rewrite <- H2. apply get_level_0_parent_id; assumption. }
  split; [|split].
  - rewrite E0. rewrite <- H2. rewrite parent_iter by (assumption || lia).
    rewrite Z2Nat.id, Z.sub_diag by lia. reflexivity.
  - intros n Hn. rewrite <- H2. rewrite parent_iter by (assumption || lia).
    rewrite level_of_id; [reflexivity|assumption|]. apply anc_in_dims; [assumption|lia].
  - pose proof (anc_in_dims m q 0 H1 ltac:(lia)) as Da.
    intros p. split.
    + intros (Vp & Lp & Cp). rewrite E0. destruct (cube_of_spec m Hwf p Vp) as [P1 P2].
      rewrite <- P2. f_equal.
      assert (covers m c (corner (dims_of m) q)) as Cc.
      { apply covers_cube; [assumption..|]. apply corner_inside; assumption. }
      apply Cp in Cc. apply covers_cube in Cc; [|assumption..].
      apply inside_cube_at in Cc; [|assumption]. rewrite <- Cc, cube_of_level, Lp.
      apply cube_at_anc; [assumption|lia].
    + intros ->. rewrite E0. pose proof (id_of_valid m Hwf _ Da) as Va.
      split; [exact Va|]. split; [rewrite level_of_id by assumption; reflexivity|].
      intros i Hi. apply covers_cube; [assumption..|]. rewrite cube_of_id by assumption.
      apply covers_cube in Hi; [|assumption..]. fold q in Hi.
      apply inside_cube_at in Hi; [|assumption]. apply inside_cube_at; [assumption|].
      cbn [q_anc q_l]. rewrite <- (cube_at_anc_gen m (q_l q) 0 i) by lia.
      rewrite Hi. reflexivity.
Qed.
Print Assumptions c04_level_0_parent.

(** ** C05 *)
Definition error_idx : idx := Idx error_index error_index error_index.

Theorem c05_invalid_ids_are_errors m c :
  wf m -> is_u64 c -> ~ valid m c ->
  get_refinement_level m c = -1 /\ get_indices m c = error_idx /\
  get_cell_length_in_indices m c = error_index /\
  get_child m c = error_cell /\ get_parent m c = error_cell /\
  get_level_0_parent m c = error_cell /\ get_siblings m c = eight_errors.
Proof.
  intros Hwf Hu Hn. unfold valid, is_u64 in *.
  assert (c = 0 \/ m_last m < c) as Hc by lia.
  pose proof (level_invalid m c Hc) as L.
  assert ((c =? error_cell) || (m_last m <? c) = true) as T by (unfold error_cell; lia).
  unfold get_indices, get_cell_length_in_indices, get_child, get_parent, get_level_0_parent, get_siblings.
  rewrite L, T. cbn. repeat split; try reflexivity.
  destruct (c =? error_cell); reflexivity.
Qed.
Print Assumptions c05_invalid_ids_are_errors.

Theorem c05_cell_from_indices_error_iff m i l :
  wf m -> 0 <= ix i -> 0 <= iy i -> 0 <= iz i ->
  (get_cell_from_indices m i l = error_cell <-> ~ (in_grid (dims_of m) i /\ 0 <= l <= m_max m)).
Proof.
  intros Hwf X Y Z0. split.
  - intros E (Hi & Hl). pose proof (gcfi_valid m Hwf i l Hi Hl) as V. rewrite E in V.
    pose proof (id_of_valid m Hwf _ (cube_at_in_dims m Hwf l i Hl Hi)). unfold error_cell in V. lia.
  - apply gcfi_invalid; assumption.
Qed.
Print Assumptions c05_cell_from_indices_error_iff.

Theorem c05_errors_only_for_invalid m c :
  wf m -> valid m c ->
  get_refinement_level m c <> -1 /\ get_indices m c <> error_idx /\
  get_child m c <> error_cell /\ get_parent m c <> error_cell /\ get_level_0_parent m c <> error_cell.
Proof.
  intros Hwf Hc. destruct (cube_of_spec m Hwf c Hc) as [H1 H2].
  pose proof H1 as ((Hl0 & Hlm) & _). cbn [dims_of dmax] in Hlm.
  pose proof (level_sizes m Hwf (m_max m) ltac:(lia)) as S. cbn zeta in S.
  assert (forall q, in_dims (dims_of m) q -> id_of (dims_of m) q <> error_cell) as NE.
  { intros q Hq. pose proof (id_of_valid m Hwf q Hq). unfold error_cell. lia. }
  split; [rewrite <- cube_of_level; lia|]. split.
  { rewrite get_indices_cube by assumption. pose proof (corner_in_grid m _ H1) as (Cx&_&_).
    intros E. rewrite E in Cx. unfold error_idx, error_index in Cx.
    cbn [ix dims_of d0 dmax] in Cx. lia. }
  rewrite <- H2. rewrite get_child_id, get_parent_id, get_level_0_parent_id by assumption.
  split; [|split].
  - destruct (Z.eqb_spec (q_l (cube_of m c)) (m_max m)); [apply NE; assumption|].
    apply NE. eapply (kid_in_dims m); [exact H1|lia|]. left. reflexivity.
  - destruct (Z.eqb_spec (q_l (cube_of m c)) 0); apply NE; [assumption|].
    apply parent_in_dims; [assumption|lia].
  - apply NE. apply anc_in_dims; [assumption|lia].
Qed.
Print Assumptions c05_errors_only_for_invalid.

(** the documented behaviour of get_all_children holds for id 0 ... *)
Theorem c05_children_of_error_cell m : get_all_children m error_cell = eight_errors.
Proof. reflexivity. Qed.
Print Assumptions c05_children_of_error_cell.

Definition small_map : mapping := Mapping 1 1 1 1 9.

(** ... but not for an id above the last cell: one of the results is the existing cell 1 *)
Theorem c05_children_of_invalid_id_refuted :
  exists m c, wf m /\ is_u64 c /\ m_last m < c /\ In 1 (get_all_children m c) /\ valid m 1.
Proof.
  exists small_map, 10. split; [apply wfb_wf; vm_compute; reflexivity|].
  split; [unfold is_u64; rewrite W_val; lia|]. split; [cbn; lia|]. split; [|unfold valid; cbn; lia].
  vm_compute. auto 10.
Qed.
Print Assumptions c05_children_of_invalid_id_refuted.

(** ** C06 *)
Theorem c06_coarser_ids_are_smaller m c c' :
  wf m -> valid m c -> valid m c' ->
  get_refinement_level m c < get_refinement_level m c' -> c < c'.
Proof.
  intros Hwf H H' Hl. pose proof (level_spec m Hwf c H) as L. pose proof (level_spec m Hwf c' H') as L'.
  cbn zeta in *. pose proof (wf_vol m Hwf).
  pose proof (before_mono (vol (dims_of m)) (get_refinement_level m c + 1) (get_refinement_level m c')).
  lia.
Qed.
Print Assumptions c06_coarser_ids_are_smaller.

Theorem c06_level_is_contiguous_range m l :
  wf m -> 0 <= l <= m_max m ->
  exists first, forall c,
    (valid m c /\ get_refinement_level m c = l) <->
    first <= c < first + m_l0 m * m_l1 m * m_l2 m * 8 ^ l.
Proof.
  intros Hwf Hl. exists (before (vol (dims_of m)) l + 1). intros c.
  pose proof (before_succ (vol (dims_of m)) l ltac:(lia)) as BS. unfold vol in BS at 3.
  cbn [dims_of d0 d1 d2] in BS. split.
  - intros (Vc & <-). pose proof (level_spec m Hwf c Vc) as L. cbn zeta in L. lia.
  - intros R. pose proof (before_max_W m Hwf l ltac:(lia)). pose proof (before_max_W m Hwf (l + 1) ltac:(lia)).
    assert (valid m c) as Vc by (unfold valid; lia). split; [exact Vc|].
    pose proof (level_spec m Hwf c Vc) as L. cbn zeta in L.
    apply (level_unique m Hwf _ _ c); lia.
Qed.
Print Assumptions c06_level_is_contiguous_range.

Definition lex_zyx (a b : idx) : Prop :=
  iz a < iz b \/ (iz a = iz b /\ (iy a < iy b \/ (iy a = iy b /\ ix a < ix b))).

Theorem c06_ids_ordered_by_z_y_x m c c' :
  wf m -> valid m c -> valid m c' -> get_refinement_level m c = get_refinement_level m c' ->
  (c < c' <-> lex_zyx (get_indices m c) (get_indices m c')).
Proof.
  intros Hwf H H' El.
  destruct (cube_of_spec m Hwf c H) as [H1 H2]. destruct (cube_of_spec m Hwf c' H') as [H1' H2'].
  rewrite !get_indices_cube by assumption.
  rewrite <- H2 at 1. rewrite <- H2' at 1.
  rewrite <- !cube_of_level in El.
  remember (cube_of m c) as q eqn:E. remember (cube_of m c') as q' eqn:E'. clear E E'.
  destruct q as [l x y z], q' as [l' x' y' z']. cbn in El. subst l'.
  destruct H1 as (Hl & Hx & Hy & Hz). destruct H1' as (_ & Hx' & Hy' & Hz').
  unfold lex_zyx, corner, id_of, side. cbn [ix iy iz q_l q_x q_y q_z dims_of d0 d1 d2 dmax] in *.
  pose proof (pow2_pos (m_max m - l) ltac:(lia)) as Hs. set (s := 2 ^ (m_max m - l)) in *.
  set (A := m_l0 m * 2 ^ l) in *. set (B := m_l1 m * 2 ^ l) in *.
  assert (forall a b, a * s < b * s <-> a < b) as K1 by (intros; nia).
  assert (forall a b, a * s = b * s <-> a = b) as K2 by (intros; nia).
  rewrite !K1, !K2. clear K1 K2.
  assert (0 <= x + y * A < A * B) by nia. assert (0 <= x' + y' * A < A * B) by nia.
  split.
  - intros L. destruct (Z.lt_total z z') as [|[Ez|]]; [left; assumption| |exfalso; nia].
    subst z'. right. split; [reflexivity|].
    destruct (Z.lt_total y y') as [|[Ey|]]; [left; assumption| |exfalso; nia].
    subst y'. right. split; [reflexivity|]. lia.
  - intros [Hlt|[<- [Hlt|[<- Hlt]]]]; nia.
Qed.
Print Assumptions c06_ids_ordered_by_z_y_x.

(** ** Non-vacuity: a 3 x 2 x 5 grid with maximum level 2 *)
Definition ex_map : mapping := update_last_cell (Mapping 3 2 5 2 0).
Example ex_map_wf : wf ex_map. Proof. apply wfb_wf. vm_compute. reflexivity. Qed.
Example ex_map_values :
  m_last ex_map = 30 + 240 + 1920 /\ get_refinement_level ex_map 100 = 1 /\
  get_indices ex_map 100 = Idx 6 6 4 /\ get_cell_from_indices ex_map (Idx 7 6 5) 1 = 100 /\
  get_parent ex_map 100 = 11 /\ In 100 (get_all_children ex_map 11).
Proof. vm_compute. auto 20. Qed.
Example ex_valid : valid ex_map 100 /\ get_refinement_level ex_map 100 < m_max ex_map
  /\ in_grid (dims_of ex_map) (Idx 7 6 5) /\ ~ valid ex_map 5000 /\ is_u64 5000.
Proof. unfold valid, is_u64, in_grid. rewrite W_val. vm_compute. intuition (try discriminate). Qed.
(** a grid using nearly all of the 64-bit id range *)
Definition big_map : mapping := update_last_cell (Mapping 1 1 1 21 0).
Example big_map_wf : wf big_map. Proof. apply wfb_wf. vm_compute. reflexivity. Qed.
