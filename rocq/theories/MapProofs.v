(** Lemmas about the mapping model: no wrap-around for well formed mappings, model = spec. *)
From Verif Require Import U64 MapModel MapSpec.
Open Scope Z_scope.

Ltac Zify.zify_post_hook ::= idtac.

Lemma pow2_pos n : 0 <= n -> 1 <= 2 ^ n.
Proof. intros. assert (0 < 2 ^ n) by (apply Z.pow_pos_nonneg; lia). lia. Qed.

Lemma pow8_eq l : 0 <= l -> 8 ^ l = 2 ^ l * 2 ^ l * 2 ^ l.
Proof.
  intros. change 8 with (2 * 2 * 2). rewrite !Z.pow_mul_l. reflexivity.
Qed.

Lemma pow8_mod7 l : 0 <= l -> exists k, 0 <= k /\ 8 ^ l = 7 * k + 1.
Proof.
  intros H. revert l H. apply natlike_ind.
  - exists 0. split; [lia|reflexivity].
  - intros x Hx [k [Hk E]]. exists (8 * k + 1). split; [lia|].
    rewrite Z.pow_succ_r by lia. lia.
Qed.

Lemma before_0 G : before G 0 = 0.
Proof. unfold before. change (8 ^ 0) with 1. change ((1 - 1) / 7) with 0. lia. Qed.

Lemma before_succ G l : 0 <= l -> before G (l + 1) = before G l + G * 8 ^ l.
Proof.
  intros H. unfold before. destruct (pow8_mod7 l H) as [k [Hk E]].
  rewrite Z.pow_add_r by lia. rewrite E. change (8 ^ 1) with 8.
  replace ((7 * k + 1) * 8 - 1) with ((8 * k + 1) * 7) by lia.
  replace (7 * k + 1 - 1) with (k * 7) by lia.
  rewrite !Z.div_mul by lia. lia.
Qed.

Lemma before_mono G a b : 0 <= G -> 0 <= a <= b -> before G a <= before G b.
Proof.
  intros HG [Ha Hab]. replace b with (a + (b - a)) by lia.
  assert (0 <= b - a) as Hd by lia. revert Hd. generalize (b - a). apply natlike_ind.
  - rewrite Z.add_0_r. lia.
  - intros x Hx IH. replace (a + Z.succ x) with (a + x + 1) by lia.
    rewrite before_succ by lia.
    assert (0 <= 8 ^ (a + x)) by (apply Z.pow_nonneg; lia). nia.
Qed.

Lemma before_nonneg G l : 0 <= G -> 0 <= l -> 0 <= before G l.
Proof. intros. pose proof (before_mono G 0 l). rewrite before_0 in *. lia. Qed.

Lemma before_lt G a b : 0 < G -> 0 <= a < b -> before G a < before G b.
Proof.
  intros HG H. pose proof (before_mono G (a + 1) b). rewrite before_succ in * by lia.
  assert (0 < 8 ^ a) by (apply Z.pow_pos_nonneg; lia). nia.
Qed.

(** powers: splitting the number of indices into cells of a level *)
Lemma pow2_split max l : 0 <= l <= max -> 2 ^ max = 2 ^ l * 2 ^ (max - l).
Proof. intros. rewrite <- Z.pow_add_r by lia. f_equal. lia. Qed.

Section WithWf.
Context (m : mapping) (Hwf : wf m).
Notation d := (dims_of m).
Notation G := (vol d).

Lemma wf_vol : 0 < G /\ m_l0 m <= G /\ m_l1 m <= G /\ m_l2 m <= G /\ m_l0 m * m_l1 m <= G
  /\ 0 < m_l0 m * m_l1 m.
Proof.
  destruct Hwf as (H0&H1&H2&?&?). unfold vol; simpl. clear Hwf.
  generalize dependent (m_l0 m). intros a Ha. generalize dependent (m_l1 m). intros b Hb.
  generalize dependent (m_l2 m). intros c Hc.
  assert (0 < a * b) by nia. assert (a <= a * b) by nia. assert (b <= a * b) by nia.
  assert (a * b <= a * b * c) by nia. assert (c <= a * b * c) by nia. lia.
Qed.

Lemma wf_level_total l : 0 <= l <= m_max m -> G * 8 ^ l < W.
Proof.
  intros H. destruct Hwf as (?&?&?&?&?&?).
  pose proof wf_vol.
  pose proof (before_mono G (l + 1) (m_max m + 1) ltac:(lia) ltac:(lia)) as Hm.
  pose proof (before_nonneg G l ltac:(lia) ltac:(lia)). rewrite (before_succ G l) in Hm by lia. lia.
Qed.

Lemma wf_max_le_21 : 0 <= m_max m <= 21.
Proof.
  destruct Hwf as (?&?&?&Hm&?&?). split; [exact Hm|].
  destruct (Z_le_gt_dec (m_max m) 21) as [|Hgt]; [assumption|exfalso].
  pose proof (wf_level_total (m_max m) ltac:(lia)) as Hl.
  pose proof wf_vol.
  assert (8 ^ 22 <= 8 ^ m_max m) by (apply Z.pow_le_mono_r; lia).
  rewrite W_val in Hl. change (8 ^ 22) with 73786976294838206464 in *. nia.
Qed.

Lemma wf_shift_defined l : 0 <= l <= m_max m ->
  shift_defined (3 * l) /\ shift_defined (m_max m - l) /\ shift_defined l /\ shift_defined (2 * l).
Proof. pose proof wf_max_le_21. unfold shift_defined. lia. Qed.

Lemma shl1_eq n : 0 <= n <= 63 -> shl1 n = 2 ^ n.
Proof. intros. apply shl1_small. lia. Qed.

Lemma grid64_eq : grid64 m = G.
Proof.
  unfold grid64, mul64, vol. pose proof wf_vol as V. pose proof (wf_level_total 0) as T.
  destruct Hwf as (?&?&?&?&?). simpl in *.
  unfold vol in *; simpl in *.
  rewrite (u64_small (m_l0 m * m_l1 m)) by lia.
  rewrite u64_small by lia. reflexivity.
Qed.

Lemma level64_eq l : 0 <= l <= m_max m -> level64 m l = G * 8 ^ l.
Proof.
  intros H. unfold level64, mul64. rewrite grid64_eq.
  pose proof wf_max_le_21. pose proof wf_vol. pose proof (wf_level_total l H).
  rewrite shl1_eq by lia.
  replace (2 ^ (3 * l)) with (8 ^ l) by (rewrite Z.pow_mul_r by lia; reflexivity).
  assert (0 < 8 ^ l) by (apply Z.pow_pos_nonneg; lia).
  apply u64_small. nia.
Qed.

Lemma before_max_W l : 0 <= l <= m_max m + 1 -> 0 <= before G l <= m_last m.
Proof.
  intros H. pose proof wf_vol. destruct Hwf as (?&?&?&?&?&E).
  split; [apply before_nonneg; lia|]. rewrite E. apply before_mono; lia.
Qed.

Lemma m_last_lt_W : 0 < m_last m < W.
Proof.
  destruct Hwf as (?&?&?&?&?&E). rewrite E. split; [|lia].
  pose proof wf_vol. pose proof (before_lt G 0 (m_max m + 1)). rewrite before_0 in *. lia.
Qed.

Lemma add_levels_eq n c : Z.of_nat n <= m_max m + 1 -> 0 <= c ->
  c + before G (Z.of_nat n) < W ->
  add_levels m n c = c + before G (Z.of_nat n).
Proof.
  induction n as [|k IH]; intros Hn Hc Hb.
  - cbn [add_levels]. change (Z.of_nat 0) with 0. rewrite before_0. lia.
  - cbn [add_levels]. pose proof wf_vol.
    replace (Z.of_nat (S k)) with (Z.of_nat k + 1) in * by lia.
    rewrite before_succ in * by lia.
    assert (0 < 8 ^ Z.of_nat k) by (apply Z.pow_pos_nonneg; lia).
    pose proof (before_nonneg G (Z.of_nat k)).
    rewrite IH by nia. rewrite level64_eq by lia. unfold add64.
    rewrite u64_small; nia.
Qed.

Lemma last_cell_of_eq : last_cell_of m = m_last m.
Proof.
  unfold last_cell_of. pose proof wf_max_le_21. destruct Hwf as (?&?&?&?&?&E).
  rewrite add_levels_eq; rewrite ?Z2Nat.id by lia; lia.
Qed.

Lemma sub_levels_eq n c : Z.of_nat n <= m_max m + 1 ->
  before G (Z.of_nat n) <= c < W -> sub_levels m n c = c - before G (Z.of_nat n).
Proof.
  induction n as [|k IH]; intros Hn Hb.
  - cbn [sub_levels]. change (Z.of_nat 0) with 0. rewrite before_0. lia.
  - cbn [sub_levels]. pose proof wf_vol.
    replace (Z.of_nat (S k)) with (Z.of_nat k + 1) in * by lia.
    rewrite before_succ in * by lia.
    assert (0 < 8 ^ Z.of_nat k) by (apply Z.pow_pos_nonneg; lia).
    pose proof (before_nonneg G (Z.of_nat k)).
    rewrite IH by nia. rewrite level64_eq by lia. unfold sub64.
    rewrite u64_small; nia.
Qed.

Lemma level_loop_spec fuel : forall lvl cur c,
  0 <= lvl -> lvl + Z.of_nat fuel = m_max m + 1 -> cur = before G lvl -> cur < c <= m_last m ->
  let r := level_loop fuel m c lvl cur in
  lvl <= r <= m_max m /\ before G r < c <= before G (r + 1).
Proof.
  induction fuel as [|f IH]; intros lvl cur c Hl Hf Hcur Hc.
  - exfalso. destruct Hwf as (?&?&?&?&?&E). rewrite E, Hcur in Hc.
    replace lvl with (m_max m + 1) in Hc by lia. lia.
  - cbn [level_loop]. rewrite level64_eq by lia. unfold add64.
    pose proof (before_max_W (lvl + 1) ltac:(lia)). pose proof m_last_lt_W.
    rewrite Hcur. rewrite <- before_succ by lia. rewrite u64_small by lia.
    destruct (Z.leb_spec c (before G (lvl + 1))).
    + cbn zeta. split; lia.
    + specialize (IH (lvl + 1) (before G (lvl + 1)) c ltac:(lia) ltac:(lia) eq_refl ltac:(lia)).
      cbn zeta in *. destruct IH as [[? ?] [? ?]]. repeat split; lia.
Qed.

(** level of a valid id *)
Lemma level_spec c : 1 <= c <= m_last m ->
  let l := get_refinement_level m c in
  0 <= l <= m_max m /\ before G l < c <= before G (l + 1).
Proof.
  intros Hc. unfold get_refinement_level, error_cell.
  replace (c =? 0) with false by lia. replace (m_last m <? c) with false by lia. cbn [orb].
  pose proof wf_max_le_21.
  pose proof (level_loop_spec (Z.to_nat (m_max m + 1)) 0 0 c) as L.
  rewrite before_0 in L. specialize (L ltac:(lia) ltac:(lia) eq_refl ltac:(lia)).
  cbn zeta in *. destruct L as [[? ?] ?].
  replace (m_max m <? level_loop (Z.to_nat (m_max m + 1)) m c 0 0) with false by lia.
  split; [lia|assumption].
Qed.

Lemma level_unique l l' c : 0 <= l -> 0 <= l' ->
  before G l < c <= before G (l + 1) -> before G l' < c <= before G (l' + 1) -> l = l'.
Proof.
  intros. pose proof wf_vol. destruct (Z.lt_total l l') as [|[|]]; [|assumption|]; exfalso.
  - pose proof (before_mono G (l + 1) l'). lia.
  - pose proof (before_mono G (l' + 1) l). lia.
Qed.

Lemma level_invalid c : c = 0 \/ m_last m < c -> get_refinement_level m c = -1.
Proof.
  intros H. unfold get_refinement_level, error_cell.
  destruct (Z.eqb_spec c 0); cbn [orb]; [reflexivity|].
  replace (m_last m <? c) with true by lia. reflexivity.
Qed.

(** sizes at one level fit into 64 bits *)
Lemma level_sizes l : 0 <= l <= m_max m ->
  let P := 2 ^ l in
  1 <= P /\ 0 < m_l0 m * P /\ 0 < m_l1 m * P /\ 0 < m_l2 m * P /\
  m_l0 m * P < W /\ m_l1 m * P < W /\ m_l2 m * P < W /\
  (m_l0 m * P) * (m_l1 m * P) < W /\
  (m_l0 m * P) * (m_l1 m * P) * (m_l2 m * P) = G * 8 ^ l /\
  G * 8 ^ l < W.
Proof.
  intros H. pose proof (wf_level_total l H) as T. rewrite pow8_eq in * by lia.
  pose proof (pow2_pos l ltac:(lia)) as HP. cbn zeta.
  destruct Hwf as (H0&H1&H2&_). unfold vol in *; cbn [dims_of d0 d1 d2] in *.
  remember (2 ^ l) as P eqn:EP. clear EP.
  set (a := m_l0 m * P). set (b := m_l1 m * P). set (c := m_l2 m * P).
  assert (0 < a) by (unfold a; nia). assert (0 < b) by (unfold b; nia).
  assert (0 < c) by (unfold c; nia).
  assert (a * b * c = m_l0 m * m_l1 m * m_l2 m * (P * P * P)) as E by (unfold a, b, c; ring).
  rewrite <- E in *. 
  assert (a * b <= a * b * c) by nia. assert (a <= a * b) by nia. assert (b <= a * b) by nia.
  assert (c <= a * b * c) by nia.
  repeat split; try lia.
Qed.

(** mixed radix decomposition *)
Lemma radix A B x y z : 0 < A -> 0 < B -> 0 <= x < A -> 0 <= y < B -> 0 <= z ->
  let n := x + y * A + z * (A * B) in
  n mod A = x /\ (n / A) mod B = y /\ n / (A * B) = z /\ 0 <= n.
Proof.
  intros HA HB Hx Hy Hz n.
  assert (n / A = y + z * B) as Hq.
  { symmetry. apply Z.div_unique with x; [lia|]. unfold n. ring. }
  repeat split.
  - symmetry. apply Z.mod_unique with (y + z * B); [lia|]. unfold n. ring.
  - rewrite Hq. rewrite Z.mod_add by lia. apply Z.mod_small. lia.
  - rewrite <- Z.div_div by lia. rewrite Hq. rewrite Z.div_add by lia.
    rewrite Z.div_small by lia. lia.
  - unfold n. nia.
Qed.

Lemma radix_bound A B C x y z : 0 <= x < A -> 0 <= y < B -> 0 <= z < C ->
  0 <= x + y * A + z * (A * B) < A * B * C.
Proof.
  intros. assert (0 <= x + y * A < A * B) by nia.
  assert (z * (A * B) + A * B <= A * B * C) by nia. nia.
Qed.

(** the id of a cube lies in the id range of its level *)
Lemma id_of_range q : in_dims d q ->
  before G (q_l q) < id_of d q <= before G (q_l q + 1).
Proof.
  intros (Hl & Hx & Hy & Hz). cbn [dims_of dmax d0 d1 d2] in *.
  pose proof (level_sizes (q_l q) ltac:(lia)) as S. cbn zeta in S.
  unfold id_of. cbn [dims_of d0 d1 d2]. rewrite before_succ by lia.
  pose proof (radix_bound _ _ _ _ _ _ Hx Hy Hz).
  destruct S as (_&_&_&_&_&_&_&_&E&_). rewrite E in *. lia.
Qed.

Lemma id_of_valid q : in_dims d q -> 1 <= id_of d q <= m_last m.
Proof.
  intros H. pose proof (id_of_range q H). destruct H as (Hl&_). cbn in Hl.
  pose proof (before_max_W (q_l q) ltac:(lia)). pose proof (before_max_W (q_l q + 1) ltac:(lia)).
  lia.
Qed.

Lemma level_of_id q : in_dims d q -> get_refinement_level m (id_of d q) = q_l q.
Proof.
  intros H. pose proof (id_of_valid q H) as V. pose proof (level_spec _ V) as L. cbn zeta in L.
  pose proof (id_of_range q H). destruct H as (Hl&_). cbn in Hl.
  apply (level_unique _ _ (id_of d q)); lia.
Qed.

(** a general fact about dividing indices into cells of a level *)
Lemma div_range i len l : 0 <= l <= m_max m -> 0 < len ->
  0 <= i < len * 2 ^ m_max m -> 0 <= i / 2 ^ (m_max m - l) < len * 2 ^ l.
Proof.
  intros Hl Hlen Hi. pose proof (pow2_pos (m_max m - l) ltac:(lia)).
  split; [apply Z.div_pos; lia|]. apply Z.div_lt_upper_bound; [lia|].
  rewrite (pow2_split (m_max m) l) in Hi by lia. nia.
Qed.

(** the cube of level l containing an index triple *)
Definition cube_at (l : Z) (i : idx) : cube :=
  let s := 2 ^ (m_max m - l) in Cube l (ix i / s) (iy i / s) (iz i / s).

Lemma cube_at_in_dims l i : 0 <= l <= m_max m -> in_grid d i -> in_dims d (cube_at l i).
Proof.
  intros Hl (Hx & Hy & Hz). destruct Hwf as (?&?&?&?). unfold in_dims, cube_at; cbn in *.
  pose proof (div_range (ix i) (m_l0 m) l). pose proof (div_range (iy i) (m_l1 m) l).
  pose proof (div_range (iz i) (m_l2 m) l). lia.
Qed.

Lemma index_limit len : 0 < len -> len * 2 ^ m_max m < W ->
  mul64 len (shl1 (m_max m)) = len * 2 ^ m_max m.
Proof.
  intros. pose proof wf_max_le_21. rewrite shl1_eq by lia. unfold mul64.
  pose proof (pow2_pos (m_max m)). apply u64_small. nia.
Qed.

(** get_cell_from_indices on valid input *)
Lemma gcfi_valid i l : in_grid d i -> 0 <= l <= m_max m ->
  get_cell_from_indices m i l = id_of d (cube_at l i).
Proof.
  intros Hi Hl. pose proof (cube_at_in_dims l i Hl Hi) as Hq.
  pose proof (id_of_valid _ Hq) as Hv. pose proof m_last_lt_W as HW.
  pose proof wf_max_le_21 as H21.
  pose proof (level_sizes (m_max m) ltac:(lia)) as SM. cbn zeta in SM.
  pose proof (level_sizes l Hl) as S. cbn zeta in S.
  destruct Hi as (Hx & Hy & Hz). destruct Hq as (_ & Qx & Qy & Qz).
  unfold get_cell_from_indices. unfold cube_at, id_of in *. cbn [dims_of d0 d1 d2 dmax q_l q_x q_y q_z ix iy iz] in *.
  destruct SM as (_&P0&P1&P2&A0&A1&A2&_). destruct Hwf as (L0&L1&L2&_).
  rewrite !index_limit by (assumption || lia).
  replace (m_l0 m * 2 ^ m_max m <=? ix i) with false by lia.
  replace (m_l1 m * 2 ^ m_max m <=? iy i) with false by lia.
  replace (m_l2 m * 2 ^ m_max m <=? iz i) with false by lia.
  replace (l <? 0) with false by lia. replace (m_max m <? l) with false by lia. cbn zeta.
  rewrite !shl1_eq by lia.
  destruct S as (SP&S0&S1&S2&T0&T1&T2&T01&_&_).
  pose proof (before_max_W l ltac:(lia)) as Bl.
  set (x := ix i / 2 ^ (m_max m - l)) in *. set (y := iy i / 2 ^ (m_max m - l)) in *.
  set (z := iz i / 2 ^ (m_max m - l)) in *.
  assert (mul64 (m_l0 m) (2 ^ l) = m_l0 m * 2 ^ l) as M0 by (apply u64_small; lia).
  assert (mul64 (m_l1 m) (2 ^ l) = m_l1 m * 2 ^ l) as M1 by (apply u64_small; lia).
  rewrite M0, M1. clear M0 M1.
  remember (m_l0 m * 2 ^ l) as A. remember (m_l1 m * 2 ^ l) as B.
  assert (0 <= x) by lia. assert (0 <= y * A) by nia. assert (0 <= z * A) by nia.
  assert (z * A <= z * (A * B)) by nia.
  assert (z * A * B = z * (A * B)) as Ez by ring.
  rewrite add_levels_eq by (rewrite ?Z2Nat.id by lia; lia).
  rewrite Z2Nat.id by lia. unfold add64, mul64.
  rewrite (u64_small (y * A)) by lia.
  rewrite (u64_small (z * A)) by lia.
  rewrite Ez. rewrite (u64_small (z * (A * B))) by lia.
  rewrite (u64_small (x + y * A)) by lia.
  rewrite (u64_small (x + y * A + z * (A * B))) by lia.
  rewrite u64_small by lia. lia.
Qed.

(** get_cell_from_indices on invalid input: indices are uint64_t, hence non-negative *)
Lemma gcfi_invalid i l : 0 <= ix i -> 0 <= iy i -> 0 <= iz i ->
  ~ (in_grid d i /\ 0 <= l <= m_max m) -> get_cell_from_indices m i l = error_cell.
Proof.
  intros X Y Z0 Hn. pose proof wf_max_le_21 as H21.
  pose proof (level_sizes (m_max m) ltac:(lia)) as SM. cbn zeta in SM.
  destruct SM as (_&P0&P1&P2&A0&A1&A2&_). destruct Hwf as (L0&L1&L2&_).
  unfold get_cell_from_indices. rewrite !index_limit by (assumption || lia).
  unfold in_grid in Hn; cbn in Hn.
  destruct (Z.leb_spec (m_l0 m * 2 ^ m_max m) (ix i)); [reflexivity|].
  destruct (Z.leb_spec (m_l1 m * 2 ^ m_max m) (iy i)); [reflexivity|].
  destruct (Z.leb_spec (m_l2 m * 2 ^ m_max m) (iz i)); [reflexivity|].
  destruct (Z.ltb_spec l 0); [reflexivity|].
  destruct (Z.ltb_spec (m_max m) l); [reflexivity|].
  exfalso. apply Hn. lia.
Qed.

Lemma side_eq q : side d q = 2 ^ (m_max m - q_l q). Proof. reflexivity. Qed.

Lemma corner_in_grid q : in_dims d q -> in_grid d (corner d q).
Proof.
  intros (Hl & Hx & Hy & Hz). cbn [dims_of dmax d0 d1 d2] in *.
  unfold in_grid, corner, side; cbn [dims_of dmax d0 d1 d2 ix iy iz].
  rewrite (pow2_split (m_max m) (q_l q)) by lia.
  pose proof (pow2_pos (m_max m - q_l q) ltac:(lia)). nia.
Qed.

Lemma cube_at_corner q : in_dims d q -> cube_at (q_l q) (corner d q) = q.
Proof.
  intros (Hl & _). cbn in Hl. unfold cube_at, corner, side; cbn [dims_of dmax ix iy iz].
  pose proof (pow2_pos (m_max m - q_l q) ltac:(lia)).
  rewrite !Z.div_mul by lia. destruct q; reflexivity.
Qed.

Lemma gcfi_corner q : in_dims d q -> get_cell_from_indices m (corner d q) (q_l q) = id_of d q.
Proof.
  intros H. rewrite gcfi_valid; [|apply corner_in_grid; assumption|destruct H as (Hl&_); exact Hl].
  rewrite cube_at_corner by assumption. reflexivity.
Qed.

(** indices of the cell with the id of a cube *)
Lemma get_indices_id q : in_dims d q -> get_indices m (id_of d q) = corner d q.
Proof.
  intros H. pose proof (id_of_valid q H) as V. pose proof (level_of_id q H) as L.
  pose proof (id_of_range q H) as R. pose proof m_last_lt_W as HW.
  pose proof wf_max_le_21 as H21. pose proof (corner_in_grid q H) as CG.
  destruct H as (Hl & Hx & Hy & Hz). cbn [dims_of dmax d0 d1 d2] in *.
  pose proof (level_sizes (q_l q) ltac:(lia)) as S. cbn zeta in S.
  pose proof (level_sizes (m_max m) ltac:(lia)) as SM. cbn zeta in SM.
  unfold get_indices, error_cell. rewrite L.
  replace (id_of d q =? 0) with false by lia. replace (m_last m <? id_of d q) with false by lia.
  cbn [orb]. cbn zeta.
  rewrite sub_levels_eq by (rewrite ?Z2Nat.id by lia; lia). rewrite Z2Nat.id by lia.
  pose proof (before_max_W (q_l q) ltac:(lia)) as Bl.
  unfold sub64. rewrite (u64_small (_ - 1)) by lia.
  rewrite !shl1_eq by lia.
  assert (id_of d q - before G (q_l q) - 1
    = q_x q + q_y q * (m_l0 m * 2 ^ q_l q) + q_z q * ((m_l0 m * 2 ^ q_l q) * (m_l1 m * 2 ^ q_l q))) as En.
  { unfold id_of; cbn [dims_of d0 d1 d2]. ring. }
  rewrite En.
  destruct S as (SP&S0&S1&S2&T0&T1&T2&T01&_&_).
  destruct SM as (_&P0&P1&P2&A0&A1&A2&_).
  pose proof (radix _ _ (q_x q) (q_y q) (q_z q) S0 S1 Hx Hy ltac:(lia)) as (R1&R2&R3&R4).
  unfold mul64. rewrite (u64_small (m_l0 m * 2 ^ q_l q)) by lia.
  rewrite (u64_small (m_l1 m * 2 ^ q_l q)) by lia.
  pose proof wf_vol as V'. pose proof (wf_level_total 0 ltac:(lia)) as T'.
  change (8 ^ 0) with 1 in T'.
  rewrite (u64_small (m_l0 m * m_l1 m)) by lia.
  assert (m_l0 m * m_l1 m * 2 ^ (2 * q_l q) = (m_l0 m * 2 ^ q_l q) * (m_l1 m * 2 ^ q_l q)) as E2.
  { replace (2 * q_l q) with (q_l q + q_l q) by lia. rewrite Z.pow_add_r by lia. ring. }
  rewrite E2. rewrite (u64_small ((m_l0 m * 2 ^ q_l q) * _)) by lia.
  rewrite R1, R2, R3. unfold in_grid, corner, side in *. cbn [dims_of dmax d0 d1 d2 ix iy iz] in *.
  rewrite !u64_small by lia. reflexivity.
Qed.

(** every valid id is the id of a cube *)
Definition cube_of (c : Z) : cube :=
  let l := get_refinement_level m c in
  let n := c - before G l - 1 in
  let A := m_l0 m * 2 ^ l in let B := m_l1 m * 2 ^ l in
  Cube l (n mod A) ((n / A) mod B) (n / (A * B)).

Lemma cube_of_spec c : 1 <= c <= m_last m ->
  in_dims d (cube_of c) /\ id_of d (cube_of c) = c.
Proof.
  intros Hc. pose proof (level_spec c Hc) as L. cbn zeta in L. unfold cube_of.
  set (l := get_refinement_level m c) in *. destruct L as [Hl Hr].
  pose proof (level_sizes l Hl) as S. cbn zeta in S.
  destruct S as (SP&S0&S1&S2&T0&T1&T2&T01&E&_).
  rewrite before_succ in Hr by lia. rewrite <- E in Hr.
  cbn zeta. set (n := c - before G l - 1).
  remember (m_l0 m * 2 ^ l) as A. remember (m_l1 m * 2 ^ l) as B. remember (m_l2 m * 2 ^ l) as C.
  assert (0 <= n < A * B * C) as Hn by (unfold n; lia).
  pose proof (Z.mod_pos_bound n A S0). pose proof (Z.mod_pos_bound (n / A) B S1).
  assert (0 <= n / (A * B) < C) as Hz.
  { split; [apply Z.div_pos; nia|]. apply Z.div_lt_upper_bound; nia. }
  split.
  - unfold in_dims; cbn [dims_of dmax d0 d1 d2 q_l q_x q_y q_z]. rewrite <- HeqA, <- HeqB, <- HeqC. lia.
  - unfold id_of; cbn [dims_of dmax d0 d1 d2 q_l q_x q_y q_z]. rewrite <- HeqA, <- HeqB.
    rewrite <- Z.div_div by lia.
    pose proof (Z.div_mod n A ltac:(lia)) as D1. pose proof (Z.div_mod (n / A) B ltac:(lia)) as D2.
    fold G. assert (n = n mod A + ((n / A) mod B) * A + n / A / B * (A * B)) as Fin.
    { rewrite D1 at 1. rewrite D2 at 1. ring. }
    unfold n in Fin at 1. lia.
Qed.

Lemma id_of_inj q q' : in_dims d q -> in_dims d q' -> id_of d q = id_of d q' -> q = q'.
Proof.
  intros H H' E. pose proof (level_of_id q H) as L. pose proof (level_of_id q' H') as L'.
  pose proof (get_indices_id q H) as I. pose proof (get_indices_id q' H') as I'.
  rewrite E in L, I. rewrite L' in L. rewrite I' in I.
  destruct H as (Hl&_). cbn in Hl. unfold corner, side in I. cbn [dims_of dmax] in I. rewrite L in I.
  injection I as Ix Iy Iz. pose proof (pow2_pos (m_max m - q_l q) ltac:(lia)).
  destruct q as [l x y z], q' as [l' x' y' z']; cbn in *. subst l'.
  f_equal; nia.
Qed.

Lemma cube_of_id q : in_dims d q -> cube_of (id_of d q) = q.
Proof.
  intros H. pose proof (cube_of_spec _ (id_of_valid q H)) as [H1 H2].
  apply id_of_inj; assumption.
Qed.

Lemma cube_of_level c : q_l (cube_of c) = get_refinement_level m c.
Proof. reflexivity. Qed.

Lemma get_indices_cube c : 1 <= c <= m_last m -> get_indices m c = corner d (cube_of c).
Proof.
  intros H. destruct (cube_of_spec c H) as [H1 H2]. rewrite <- H2 at 1. apply get_indices_id, H1.
Qed.

Lemma length_id q : in_dims d q -> get_cell_length_in_indices m (id_of d q) = side d q.
Proof.
  intros H. pose proof (id_of_valid q H). unfold get_cell_length_in_indices, error_cell.
  rewrite level_of_id by assumption. destruct H as (Hl&_). cbn in Hl. pose proof wf_max_le_21.
  replace (id_of d q =? 0) with false by lia. cbn zeta. replace (q_l q <? 0) with false by lia.
  rewrite shl1_eq by lia. reflexivity.
Qed.

End WithWf.
