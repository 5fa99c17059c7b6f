(** Parent / children / ancestor lemmas on top of MapProofs. *)
From Verif Require Import U64 MapModel MapSpec MapProofs.
Open Scope Z_scope.

(** geometric parent, children (z slowest, x fastest), ancestor k levels up *)
Definition q_parent (q : cube) : cube :=
  Cube (q_l q - 1) (q_x q / 2) (q_y q / 2) (q_z q / 2).
Definition q_kids (q : cube) : list cube :=
  let l := q_l q + 1 in
  let x := 2 * q_x q in let y := 2 * q_y q in let z := 2 * q_z q in
  [Cube l x y z; Cube l (x+1) y z; Cube l x (y+1) z; Cube l (x+1) (y+1) z;
   Cube l x y (z+1); Cube l (x+1) y (z+1); Cube l x (y+1) (z+1); Cube l (x+1) (y+1) (z+1)].
Definition q_anc (l : Z) (q : cube) : cube :=
  let s := 2 ^ (q_l q - l) in Cube l (q_x q / s) (q_y q / s) (q_z q / s).

Lemma kids_level q k : In k (q_kids q) -> q_l k = q_l q + 1.
Proof. unfold q_kids. cbn [In]. intros H. repeat destruct H as [<-|H]; try reflexivity. destruct H. Qed.

Lemma kids_iff q k : In k (q_kids q) <-> q_l k = q_l q + 1 /\ q_parent k = q.
Proof.
  split.
  - intros H. split; [apply kids_level, H|]. destruct q as [l x y z].
    unfold q_kids in H; cbn [In q_l q_x q_y q_z] in H.
    repeat destruct H as [<-|H]; try destruct H; unfold q_parent; cbn [q_l q_x q_y q_z];
    f_equal; try lia; Z.div_mod_to_equations; lia.
  - intros [Hl <-]. destruct k as [l x y z]. unfold q_parent, q_kids. cbn [q_l q_x q_y q_z] in *.
    replace (l - 1 + 1) with l by lia.
    assert (2 * (x / 2) = x \/ 2 * (x / 2) + 1 = x) as Hx by (Z.div_mod_to_equations; lia).
    assert (2 * (y / 2) = y \/ 2 * (y / 2) + 1 = y) as Hy by (Z.div_mod_to_equations; lia).
    assert (2 * (z / 2) = z \/ 2 * (z / 2) + 1 = z) as Hz by (Z.div_mod_to_equations; lia).
    cbn [In].
    destruct Hx as [Hx|Hx], Hy as [Hy|Hy], Hz as [Hz|Hz]; rewrite Hx, Hy, Hz; auto 10.
Qed.

Lemma kids_nodup q : NoDup (q_kids q).
Proof.
  unfold q_kids. repeat (constructor; [cbn [In]; intros H;
    repeat destruct H as [H|H]; try (injection H; lia); try destruct H |]). constructor.
Qed.

Section WithWf.
Context (m : mapping) (Hwf : wf m).
Notation d := (dims_of m).

Lemma parent_in_dims q : in_dims d q -> 0 < q_l q -> in_dims d (q_parent q).
Proof.
  intros (Hl & Hx & Hy & Hz) H. unfold in_dims, q_parent; cbn [q_l q_x q_y q_z].
  assert (2 ^ q_l q = 2 * 2 ^ (q_l q - 1)) as E.
  { replace (q_l q) with (1 + (q_l q - 1)) at 1 by lia. rewrite Z.pow_add_r by lia. lia. }
  rewrite E in *.
  assert (forall a b P, 0 <= a < b * (2 * P) -> 0 <= a / 2 < b * P) as K.
  { intros a b P Ha. split; [apply Z.div_pos; lia|]. apply Z.div_lt_upper_bound; lia. }
  pose proof (K _ _ _ Hx). pose proof (K _ _ _ Hy). pose proof (K _ _ _ Hz). lia.
Qed.

Lemma kid_in_dims q k : in_dims d q -> q_l q < m_max m -> In k (q_kids q) -> in_dims d k.
Proof.
  intros (Hl & Hx & Hy & Hz) H Hk. apply kids_iff in Hk. destruct Hk as [Ek Ep].
  subst q. unfold q_parent in *; cbn [q_l q_x q_y q_z] in *. cbn [dims_of dmax d0 d1 d2] in *.
  unfold in_dims. cbn [dims_of dmax d0 d1 d2].
  assert (2 ^ q_l k = 2 * 2 ^ (q_l k - 1)) as E.
  { replace (q_l k) with (1 + (q_l k - 1)) at 1 by lia. rewrite Z.pow_add_r by lia. lia. }
  rewrite E.
  assert (forall a b P, 0 <= a / 2 < b * P -> 0 <= a < b * (2 * P)) as K.
  { intros a b P Ha. Z.div_mod_to_equations. nia. }
  pose proof (K _ _ _ Hx). pose proof (K _ _ _ Hy). pose proof (K _ _ _ Hz). lia.
Qed.

Lemma anc_in_dims q l : in_dims d q -> 0 <= l <= q_l q -> in_dims d (q_anc l q).
Proof.
  intros (Hl & Hx & Hy & Hz) H. unfold in_dims, q_anc; cbn [q_l q_x q_y q_z].
  assert (forall a b, 0 <= a < b * 2 ^ q_l q -> 0 <= a / 2 ^ (q_l q - l) < b * 2 ^ l) as K.
  { intros a b Ha. pose proof (pow2_pos (q_l q - l) ltac:(lia)).
    split; [apply Z.div_pos; lia|]. apply Z.div_lt_upper_bound; [lia|].
    rewrite (pow2_split (q_l q) l) in Ha by lia. nia. }
  pose proof (K _ _ Hx). pose proof (K _ _ Hy). pose proof (K _ _ Hz). lia.
Qed.

(** cell of a coarser level at the corner of a cell is the ancestor *)
Lemma cube_at_anc q l : in_dims d q -> 0 <= l <= q_l q ->
  cube_at m l (corner d q) = q_anc l q.
Proof.
  intros (Hl & _) H. cbn in Hl. unfold cube_at, q_anc, corner, side; cbn [dims_of dmax ix iy iz].
  assert (forall a, a * 2 ^ (m_max m - q_l q) / 2 ^ (m_max m - l) = a / 2 ^ (q_l q - l)) as K.
  { intros a. replace (m_max m - l) with ((q_l q - l) + (m_max m - q_l q)) by lia.
    rewrite Z.pow_add_r by lia. pose proof (pow2_pos (m_max m - q_l q)).
    apply Z.div_mul_cancel_r; [pose proof (pow2_pos (q_l q - l))|]; lia. }
  rewrite !K. reflexivity.
Qed.

Lemma anc_parent q : q_anc (q_l q - 1) q = q_parent q.
Proof.
  unfold q_anc, q_parent. replace (q_l q - (q_l q - 1)) with 1 by lia. reflexivity.
Qed.

Lemma anc_self q : q_anc (q_l q) q = q.
Proof.
  unfold q_anc. rewrite Z.sub_diag. change (2 ^ 0) with 1. rewrite !Z.div_1_r. destruct q; reflexivity.
Qed.

Lemma anc_of_parent q l : 0 <= l < q_l q -> q_anc l (q_parent q) = q_anc l q.
Proof.
  intros H. unfold q_anc, q_parent; cbn [q_l q_x q_y q_z].
  assert (forall a, a / 2 / 2 ^ (q_l q - 1 - l) = a / 2 ^ (q_l q - l)) as K.
  { intros a. pose proof (pow2_pos (q_l q - 1 - l)).
    rewrite Z.div_div by lia. f_equal.
    replace (q_l q - l) with (1 + (q_l q - 1 - l)) by lia. rewrite Z.pow_add_r by lia. reflexivity. }
  rewrite !K. reflexivity.
Qed.

Lemma gcfi_anc q l : in_dims d q -> 0 <= l <= q_l q ->
  get_cell_from_indices m (get_indices m (id_of d q)) l = id_of d (q_anc l q).
Proof.
  intros H Hl. rewrite get_indices_id by assumption.
  rewrite gcfi_valid; [|assumption|apply corner_in_grid; assumption|destruct H as (?&_); cbn in *; lia].
  rewrite cube_at_anc by assumption. reflexivity.
Qed.

Lemma get_parent_id q : in_dims d q ->
  get_parent m (id_of d q) = if q_l q =? 0 then id_of d q else id_of d (q_parent q).
Proof.
  intros H. unfold get_parent. rewrite level_of_id by assumption.
  pose proof H as (Hl & _). cbn in Hl. cbn zeta.
  replace (q_l q <? 0) with false by lia. replace (m_max m <? q_l q) with false by lia. cbn [orb].
  destruct (Z.eqb_spec (q_l q) 0); [reflexivity|].
  rewrite gcfi_anc by (assumption || lia). rewrite anc_parent. reflexivity.
Qed.

Lemma get_level_0_parent_id q : in_dims d q ->
  get_level_0_parent m (id_of d q) = id_of d (q_anc 0 q).
Proof.
  intros H. unfold get_level_0_parent. rewrite level_of_id by assumption.
  pose proof H as (Hl & _). cbn in Hl. cbn zeta.
  replace (q_l q <? 0) with false by lia. replace (m_max m <? q_l q) with false by lia. cbn [orb].
  destruct (Z.eqb_spec (q_l q) 0) as [E|].
  - rewrite <- E, anc_self. reflexivity.
  - rewrite gcfi_anc by (assumption || lia). reflexivity.
Qed.

Lemma kid_at q dx dy dz : in_dims d q -> q_l q < m_max m ->
  0 <= dx <= 1 -> 0 <= dy <= 1 -> 0 <= dz <= 1 ->
  get_cell_from_indices m
    (Idx (add64 (ix (corner d q)) (dx * 2 ^ (m_max m - (q_l q + 1))))
         (add64 (iy (corner d q)) (dy * 2 ^ (m_max m - (q_l q + 1))))
         (add64 (iz (corner d q)) (dz * 2 ^ (m_max m - (q_l q + 1))))) (q_l q + 1)
  = id_of d (Cube (q_l q + 1) (2 * q_x q + dx) (2 * q_y q + dy) (2 * q_z q + dz)).
Proof.
  intros H Hlt X Y Z0. set (k := Cube _ _ _ _).
  assert (In k (q_kids q)) as Hk.
  { unfold k, q_kids. cbn [In].
    assert (dx = 0 \/ dx = 1) as [->| ->] by lia; assert (dy = 0 \/ dy = 1) as [->| ->] by lia;
    assert (dz = 0 \/ dz = 1) as [->| ->] by lia; rewrite ?Z.add_0_r; auto 10. }
  pose proof (kid_in_dims q k H Hlt Hk) as Dk.
  assert (side d q = 2 * side d k) as Es.
  { unfold side, k; cbn [dims_of dmax q_l]. pose proof H as (Hl & _). cbn in Hl.
    replace (m_max m - q_l q) with (1 + (m_max m - (q_l q + 1))) by lia.
    rewrite Z.pow_add_r by lia. lia. }
  pose proof (corner_in_grid m k Dk) as CG.
  rewrite <- (gcfi_corner m Hwf k Dk).
  change (q_l k) with (q_l q + 1).
  f_equal.
  pose proof (level_sizes m Hwf (m_max m)) as S.
  pose proof H as (Hl & _). cbn in Hl. specialize (S ltac:(lia)). cbn zeta in S.
  change (2 ^ (m_max m - (q_l q + 1))) with (side d k).
  unfold corner in *. cbn [ix iy iz] in *. rewrite Es.
  unfold in_grid in CG. cbn [ix iy iz dims_of d0 d1 d2 dmax] in CG.
  unfold k in CG |- *. cbn [q_x q_y q_z] in *. fold k in CG |- *.
  unfold add64.
  f_equal; rewrite u64_small; lia.
Qed.

Lemma get_all_children_id q : in_dims d q ->
  get_all_children m (id_of d q) =
  if q_l q =? m_max m then eight_errors else map (id_of d) (q_kids q).
Proof.
  intros H. unfold get_all_children. pose proof (id_of_valid m Hwf q H). unfold error_cell at 1.
  replace (id_of d q =? 0) with false by lia. rewrite level_of_id by assumption. cbn zeta.
  pose proof H as (Hl & _). cbn in Hl. pose proof (wf_max_le_21 m Hwf).
  destruct (Z.eqb_spec (q_l q) (m_max m)).
  - replace (m_max m <=? q_l q) with true by lia. reflexivity.
  - replace (m_max m <=? q_l q) with false by lia.
    rewrite get_indices_id by assumption. rewrite shl1_eq by lia.
    pose proof (fun dx dy dz X Y Z0 => kid_at q dx dy dz H ltac:(lia) X Y Z0) as K.
    set (s := 2 ^ (m_max m - (q_l q + 1))) in *.
    cbn [flat_map map app].
    pose proof (K 0 0 0 ltac:(lia) ltac:(lia) ltac:(lia)) as K0.
    pose proof (K 1 0 0 ltac:(lia) ltac:(lia) ltac:(lia)) as K1.
    pose proof (K 0 1 0 ltac:(lia) ltac:(lia) ltac:(lia)) as K2.
    pose proof (K 1 1 0 ltac:(lia) ltac:(lia) ltac:(lia)) as K3.
    pose proof (K 0 0 1 ltac:(lia) ltac:(lia) ltac:(lia)) as K4.
    pose proof (K 1 0 1 ltac:(lia) ltac:(lia) ltac:(lia)) as K5.
    pose proof (K 0 1 1 ltac:(lia) ltac:(lia) ltac:(lia)) as K6.
    pose proof (K 1 1 1 ltac:(lia) ltac:(lia) ltac:(lia)) as K7.
    rewrite ?Z.mul_0_l, ?Z.mul_1_l, ?Z.add_0_r in *.
    unfold q_kids. cbn [map].
    rewrite K0, K1, K2, K3, K4, K5, K6, K7. reflexivity.
Qed.

Lemma get_siblings_id q : in_dims d q -> 0 < q_l q ->
  get_siblings m (id_of d q) = map (id_of d) (q_kids (q_parent q)).
Proof.
  intros H Hp. unfold get_siblings. rewrite level_of_id by assumption. cbn zeta.
  pose proof H as (Hl & _). cbn in Hl.
  replace (q_l q <? 0) with false by lia. replace (m_max m <? q_l q) with false by lia. cbn [orb].
  replace (q_l q =? 0) with false by lia.
  rewrite get_parent_id by assumption. replace (q_l q =? 0) with false by lia.
  pose proof (parent_in_dims q H Hp) as Dp.
  rewrite get_all_children_id by assumption.
  unfold q_parent at 1; cbn [q_l]. replace (q_l q - 1 =? m_max m) with false by lia. reflexivity.
Qed.

Lemma get_child_id q : in_dims d q ->
  get_child m (id_of d q) =
  if q_l q =? m_max m then id_of d q else id_of d (Cube (q_l q + 1) (2 * q_x q) (2 * q_y q) (2 * q_z q)).
Proof.
  intros H. unfold get_child. pose proof (id_of_valid m Hwf q H). unfold error_cell at 1.
  replace (id_of d q =? 0) with false by lia. replace (m_last m <? id_of d q) with false by lia.
  cbn [orb]. rewrite level_of_id by assumption. cbn zeta.
  pose proof H as (Hl & _). cbn in Hl.
  destruct (Z.eqb_spec (q_l q) (m_max m)).
  - replace (m_max m <=? q_l q) with true by lia. reflexivity.
  - replace (m_max m <=? q_l q) with false by lia.
    rewrite get_indices_id by assumption.
    pose proof (kid_at q 0 0 0 H ltac:(lia) ltac:(lia) ltac:(lia) ltac:(lia)) as K.
    rewrite !Z.mul_0_l, !Z.add_0_r in K. rewrite <- K. f_equal.
    pose proof (corner_in_grid m q H) as (Cx & Cy & Cz).
    pose proof (level_sizes m Hwf (m_max m) ltac:(lia)) as S. cbn zeta in S. cbn in Cx, Cy, Cz.
    unfold add64. rewrite !Z.add_0_r, !u64_small by (cbn; lia). destruct (corner d q); reflexivity.
Qed.

(** inside of a cube <-> the cube at that level and position *)
Lemma inside_cube_at q i : in_dims d q -> (inside d q i <-> cube_at m (q_l q) i = q).
Proof.
  intros (Hl & _). cbn in Hl. unfold inside, cube_at, side; cbn [dims_of dmax].
  pose proof (pow2_pos (m_max m - q_l q) ltac:(lia)) as Hs.
  set (s := 2 ^ (m_max m - q_l q)) in *.
  assert (forall a n, a * s <= n < (a + 1) * s <-> n / s = a) as K.
  { intros a n. split; intros Hn.
    - symmetry. apply Z.div_unique with (n - a * s); lia.
    - subst a. pose proof (Z.mul_div_le n s ltac:(lia)). pose proof (Z.mul_succ_div_gt n s ltac:(lia)). lia. }
  rewrite !K. destruct q as [l x y z]; cbn [q_l q_x q_y q_z]. split.
  - intros (-> & -> & ->). reflexivity.
  - intros E. injection E. auto.
Qed.

Lemma inside_in_grid q i : in_dims d q -> inside d q i -> in_grid d i.
Proof.
  intros (Hl & Hx & Hy & Hz) Hi. cbn [dims_of d0 d1 d2 dmax] in *.
  unfold inside, side in Hi. unfold in_grid. cbn [dims_of d0 d1 d2 dmax] in *.
  rewrite (pow2_split (m_max m) (q_l q)) by lia. pose proof (pow2_pos (m_max m - q_l q)).
  nia.
Qed.

Lemma corner_inside q : in_dims d q -> inside d q (corner d q).
Proof. intros H. apply inside_cube_at; [assumption|]. apply cube_at_corner; assumption. Qed.

Lemma cube_at_parent l i : 0 < l <= m_max m ->
  q_parent (cube_at m l i) = cube_at m (l - 1) i.
Proof.
  intros H. unfold q_parent, cube_at; cbn [q_l q_x q_y q_z].
  pose proof (pow2_pos (m_max m - l)). rewrite !Z.div_div by lia.
  replace (m_max m - (l - 1)) with ((m_max m - l) + 1) by lia. rewrite Z.pow_add_r by lia.
  reflexivity.
Qed.

Lemma cube_at_anc_gen l k i : 0 <= k <= l -> l <= m_max m -> q_anc k (cube_at m l i) = cube_at m k i.
Proof.
  intros H Hm. unfold q_anc, cube_at; cbn [q_l q_x q_y q_z].
  pose proof (pow2_pos (m_max m - l)). pose proof (pow2_pos (l - k)).
  rewrite !Z.div_div by lia. rewrite <- Z.pow_add_r by lia.
  replace (m_max m - l + (l - k)) with (m_max m - k) by lia. reflexivity.
Qed.

(** the children partition the parent *)
Lemma inside_kids q i : in_dims d q -> q_l q < m_max m ->
  (inside d q i <-> exists k, In k (q_kids q) /\ inside d k i).
Proof.
  intros H Hlt. pose proof H as (Hl & _). cbn in Hl. split.
  - intros Hi. pose proof (inside_in_grid q i H Hi) as Hg.
    exists (cube_at m (q_l q + 1) i).
    assert (In (cube_at m (q_l q + 1) i) (q_kids q)) as Hk.
    { apply kids_iff. split; [reflexivity|]. rewrite cube_at_parent by lia.
      replace (q_l q + 1 - 1) with (q_l q) by lia. apply inside_cube_at; assumption. }
    split; [exact Hk|]. apply inside_cube_at; [|reflexivity].
    apply cube_at_in_dims; [exact Hwf|lia|exact Hg].
  - intros (k & Hk & Hi). pose proof (kid_in_dims q k H Hlt Hk) as Dk.
    apply inside_cube_at in Hi; [|assumption]. apply inside_cube_at; [assumption|].
    apply kids_iff in Hk. destruct Hk as [El Ep]. rewrite <- Ep at 2. rewrite <- Hi.
    rewrite El. rewrite cube_at_parent by lia. f_equal. lia.
Qed.

Lemma inside_unique q q' i : in_dims d q -> in_dims d q' -> q_l q = q_l q' ->
  inside d q i -> inside d q' i -> q = q'.
Proof.
  intros H H' E I I'. apply inside_cube_at in I; [|assumption]. apply inside_cube_at in I'; [|assumption].
  congruence.
Qed.

End WithWf.
