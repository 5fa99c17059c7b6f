(** The walk of find_neighbors_of terminates and finds exactly the cells in the region of a
    neighborhood item. *)
From Verif Require Import U64 MapModel MapSpec MapProofs MapFamily MapProps HoodModel MeshModel
  MeshSpec MeshBase HoodProps MeshWalk.
Open Scope Z_scope.

(** direction towards the region [R, R + L) from a box at p of size s, in terms of step_dir *)
Lemma step_dir_some lo hi off s k pos : step_dir lo hi off s = Some (k, pos) ->
  if pos then get off k + s - 1 < get lo k else get hi k < get off k.
Proof.
  unfold step_dir. repeat match goal with |- context [if ?b then _ else _] => destruct b eqn:? end;
  intros E; try discriminate E; injection E; intros; subst; cbn [get] in *; lia.
Qed.
Lemma step_dir_none lo hi off s : step_dir lo hi off s = None ->
  forall k, get off k <= get hi k /\ get lo k <= get off k + s - 1.
Proof.
  unfold step_dir. repeat match goal with |- context [if ?b then _ else _] => destruct b eqn:? end;
  try discriminate. intros _ k. destruct k; cbn [get]; lia.
Qed.
(** step_dir depends only on the comparisons *)
Lemma step_dir_ext lo hi off s lo' hi' off' s' :
  (forall k, (get hi k <? get off k) = (get hi' k <? get off' k)) ->
  (forall k, (get off k + s - 1 <? get lo k) = (get off' k + s' - 1 <? get lo' k)) ->
  step_dir lo hi off s = step_dir lo' hi' off' s'.
Proof.
  intros A B. pose proof (A DX) as A0. pose proof (A DY) as A1. pose proof (A DZ) as A2.
  pose proof (B DX) as B0. pose proof (B DY) as B1. pose proof (B DZ) as B2. cbn [get] in *.
  unfold step_dir. rewrite A0, A1, A2, B0, B1, B2. reflexivity.
Qed.

Lemma div_between a b q : (Z.min a b) / 2 <= q <= (Z.max a b) / 2 ->
  exists c, Z.min a b <= c <= Z.max a b /\ c / 2 = q.
Proof.
  intros Hq. destruct (Z_le_gt_dec (Z.min a b) (2 * q)).
  - exists (2 * q). split; [|Z.div_mod_to_equations; lia]. Z.div_mod_to_equations. lia.
  - exists (Z.min a b). split; [lia|]. Z.div_mod_to_equations. lia.
Qed.

Section Find.
Context (m : mapping) (Hwf : wf m) (t : topo) (ex : Z -> bool) (Htile : tiling m ex).
Context (H : hood) (Hbal : balanced m t H ex) (Hfaces : has_faces H).
Context (c0 : Z) (Ec0 : ex c0 = true) (h : idx) (Hh : In h H) (Hbox : box_closed H h).
Notation V := (leaf_valid m ex Htile).
Notation L := (len_of m c0).
Notation b := (idx_of m c0).
Notation box := (box_at m).

Definition target (k : dim) : Z := get b k + get h k * L.
Notation R := target.

Lemma L_pos : 0 < L. Proof. apply cell_len_pos; auto using V. Qed.
Lemma b_aligned k : (L | get b k). Proof. apply cell_aligned; auto using V. Qed.
Lemma R_aligned k : (L | R k).
Proof. unfold target. apply Z.divide_add_r; [apply b_aligned|]. exists (get h k). reflexivity. Qed.

(** macro block of a coordinate *)
Definition mac (a : Z) : Z := a / (2 * L).
Definition in_box (p : idx) : Prop :=
  forall k, Z.min (mac (get b k)) (mac (R k)) <= mac (get p k) <= Z.max (mac (get b k)) (mac (R k)).

Lemma mac_mono a a' : a <= a' -> mac a <= mac a'.
Proof. intros Ha. apply Z.div_le_mono; [pose proof L_pos; lia|assumption]. Qed.

(** leaves met in the box of macro blocks are at most twice as large as the cell *)
Lemma small_in_box x i n : in_box x -> lands m t x i -> ex n = true -> covers m n i ->
  len_of m n <= 2 * L.
Proof.
  intros Bx Lx En Cn. pose proof L_pos as Lp. pose proof (V n En) as Vn. pose proof (V c0 Ec0) as Vc.
  destruct (Z_le_gt_dec (len_of m n) (2 * L)) as [|Big]; [assumption|exfalso].
  assert (2 * L | len_of m n) as D.
  { assert (2 * L = 2 ^ (m_max m - lvl_of m c0 + 1)) as E2.
    { rewrite pow2_dbl; [rewrite (cell_len m Hwf) by assumption; reflexivity|].
      pose proof (cell_level m Hwf c0 Vc). lia. }
    pose proof (cell_level m Hwf c0 Vc). pose proof (cell_level m Hwf n Vn).
    rewrite E2. rewrite (cell_len m Hwf n) in * by assumption. apply pow2_divide. split; [lia|].
    apply pow2_le; lia. }
  (* an L-block of the box in the macro block of x *)
  assert (forall k, exists g, Z.min 0 (get h k) <= g <= Z.max 0 (get h k) /\ mac (get b k + g * L) = mac (get x k)) as Blk.
  { intros k. specialize (Bx k). destruct (b_aligned k) as [bk Hb].
    assert (forall g, mac (get b k + g * L) = (bk + g) / 2) as MB.
    { intros g. unfold mac. rewrite Hb. replace (bk * L + g * L) with ((bk + g) * L) by ring.
      rewrite Z.div_mul_cancel_r by lia. reflexivity. }
    assert (mac (get b k) = bk / 2) as E0.
    { rewrite <- (Z.add_0_r (get b k)). rewrite <- (Z.mul_0_l L). rewrite MB. f_equal. lia. }
    assert (mac (R k) = (bk + get h k) / 2) as E1 by (unfold target; apply MB).
    rewrite E0, E1 in Bx.
    destruct (div_between bk (bk + get h k) (mac (get x k))) as (c & Hc1 & Hc2).
    { destruct (Z_le_gt_dec (get h k) 0).
      - pose proof (Z.div_le_mono (bk + get h k) bk 2 ltac:(lia) ltac:(lia)).
        rewrite Z.min_r, Z.max_l in * by lia. lia.
      - pose proof (Z.div_le_mono bk (bk + get h k) 2 ltac:(lia) ltac:(lia)).
        rewrite Z.min_l, Z.max_r in * by lia. lia. }
    exists (c - bk). split; [lia|]. rewrite MB. rewrite <- Hc2. f_equal. lia. }
  destruct (Blk DX) as (g0 & G0 & M0). destruct (Blk DY) as (g1 & G1 & M1). destruct (Blk DZ) as (g2 & G2 & M2).
  set (g := Idx g0 g1 g2).
  assert (forall k, Z.min 0 (get h k) <= get g k <= Z.max 0 (get h k)) as Gb by (intros k; destruct k; assumption).
  assert (forall k, mac (get b k + get g k * L) = mac (get x k)) as Gm by (intros k; destruct k; assumption).
  set (y := vmap (fun k => get b k + get g k * L)).
  (* y is in the same unrolled box of n as x *)
  assert (forall k, get (box n x) k <= get y k < get (box n x) k + len_of m n) as By.
  { intros k. unfold box_at. rewrite get_vmap. unfold y. rewrite get_vmap.
    pose proof (cell_len_pos m Hwf n Vn).
    assert (rdown (len_of m n) (get b k + get g k * L) = rdown (len_of m n) (get x k)) as E.
    { rewrite <- (rdown_rdown (2 * L) (len_of m n) (get x k)) by (assumption || lia).
      rewrite <- (rdown_rdown (2 * L) (len_of m n) (get b k + _)) by (assumption || lia). f_equal.
      rewrite !rdown_div by lia. f_equal. apply Gm. }
    rewrite <- E. apply rdown_le. assumption. }
  pose proof (lands_rdown m Hwf t x i n Vn Lx Cn) as Ln. fold (box n x) in Ln.
  destruct (lands_in_box m Hwf t n (box n x) y Vn Ln By) as (j & Lj & Cj).
  pose proof (lands_self m t b (cell_in_grid m Hwf c0 Vc)) as Lb.
  destruct (Hbox g Gb) as [Eg|Ing].
  - assert (y = b) as Ey.
    { apply idx_ext. intros k. unfold y. rewrite get_vmap, Eg, get_vzero. lia. }
    rewrite Ey in Lj. pose proof (lands_unique m t _ _ _ Lj Lb) as ->.
    pose proof (leaf_unique m Hwf ex Htile n c0 b En Ec0 Cj (covers_own m Hwf c0 Vc)) as ->. lia.
  - assert (Z.abs (lvl_of m c0 - lvl_of m n) <= 1) as Hl.
    { apply (near_level m Hwf t ex Htile H Hbal c0 b g y j n Ec0 Lb Ing); try assumption.
      intros k. unfold y. rewrite get_vmap. lia. }
    destruct (len_ratio m Hwf c0 n Vc Vn) as (A & B & C).
    assert (lvl_of m n = lvl_of m c0 \/ lvl_of m n = lvl_of m c0 - 1 \/ lvl_of m n = lvl_of m c0 + 1) as [Q|[Q|Q]] by lia.
    + specialize (A Q). lia. + specialize (B Q). lia. + specialize (C Q). pose proof (cell_len_pos m Hwf n Vn). lia.
Qed.

(** *** state of the walk *)
Definition at_ (cur : Z) (off : idx) : Prop :=
  ex cur = true /\ lands m t (vadd b off) (idx_of m cur) /\ in_box (vadd b off).

Lemma at_small cur off : at_ cur off -> len_of m cur <= 2 * L.
Proof.
  intros (E & Lp & B). apply (small_in_box _ _ cur B Lp E). apply covers_own; auto using V.
Qed.

(** a cell size is a divisor of 2 L, and of L unless it is 2 L *)
Lemma at_divides cur off : at_ cur off -> (len_of m cur | 2 * L) /\ (len_of m cur = 2 * L \/ (len_of m cur | L)).
Proof.
  intros A. pose proof (at_small cur off A) as S. destruct A as (E & _ & _). pose proof (V cur E) as Vn.
  pose proof (V c0 Ec0) as Vc. pose proof (cell_level m Hwf c0 Vc). pose proof (cell_level m Hwf cur Vn).
  assert (2 * L = 2 ^ (m_max m - lvl_of m c0 + 1)) as E2.
  { rewrite pow2_dbl by lia. rewrite (cell_len m Hwf) by assumption. reflexivity. }
  rewrite E2 in *. rewrite (cell_len m Hwf cur) in * by assumption. rewrite (cell_len m Hwf c0) by assumption.
  apply pow2_le in S; [|lia|lia]. split; [apply pow2_divide; lia|].
  destruct (Z.eq_dec (m_max m - lvl_of m cur) (m_max m - lvl_of m c0 + 1)) as [->|]; [left; reflexivity|right].
  apply pow2_divide; lia.
Qed.

Definition lo : idx := Idx (ix h * L) (iy h * L) (iz h * L).
Definition hi : idx := Idx ((ix h + 1) * L - 1) ((iy h + 1) * L - 1) ((iz h + 1) * L - 1).
Lemma get_lo k : get lo k = get h k * L. Proof. destruct k; reflexivity. Qed.
Lemma get_hi k : get hi k = (get h k + 1) * L - 1. Proof. destruct k; reflexivity. Qed.

(** *** termination measure *)
Definition blk (a : Z) : Z := a / L.
(** L-block to reach within the macro block of a *)
Definition goal_blk (k : dim) (a : Z) : Z :=
  Z.max (2 * mac a) (Z.min (2 * mac a + 1) (blk (R k))).
Definition far (p : idx) (k : dim) : Z := Z.abs (mac (get p k) - mac (R k)).
Definition near (p : idx) (k : dim) : Z := Z.abs (blk (get p k) - goal_blk k (get p k)).
Definition rest (off : idx) (s : Z) : Z :=
  match step_dir lo hi off s with
  | None => 0
  | Some (k, pos) =>
    let a := get b k + get off k in
    if pos then L * blk a + L - (a + s) else a - L * blk a
  end.
Definition measure (cur : Z) (off : idx) : Z :=
  let p := vadd b off in
  (4 * L + 1) * sum3 (far p) +
  if len_of m cur <=? L then L * sum3 (near p) + rest off (len_of m cur) else 0.

Lemma mac_blk a : mac a = blk a / 2.
Proof. unfold mac, blk. pose proof L_pos. rewrite Z.mul_comm, Z.div_div by lia. reflexivity. Qed.

Lemma near_range p k : 0 <= near p k <= 1.
Proof. unfold near, goal_blk. rewrite mac_blk. Z.div_mod_to_equations. lia. Qed.
Lemma far_range p k : 0 <= far p k. Proof. unfold far. lia. Qed.

Lemma blk_bounds a : L * blk a <= a < L * blk a + L.
Proof. pose proof L_pos. unfold blk. pose proof (Z.mul_div_le a L). pose proof (Z.mul_succ_div_gt a L). lia. Qed.

(** a box within an L-block *)
Lemma fits a s : 0 < s -> (s | L) -> (s | a) -> a + s <= L * blk a + L.
Proof.
  intros Hs D A. pose proof (blk_bounds a). apply aligned_lt; [assumption|assumption| |lia].
  apply Z.divide_add_r; [|assumption]. apply Z.divide_mul_l. assumption.
Qed.

Lemma rest_range cur off : at_ cur off -> (len_of m cur | L) -> 0 <= rest off (len_of m cur) <= L - 1.
Proof.
  intros A D. destruct A as (E & Lp & _). pose proof (V cur E) as Vn. pose proof (cell_len_pos m Hwf cur Vn) as Ps.
  pose proof L_pos. unfold rest. destruct (step_dir _ _ _ _) as [[k pos]|]; [|lia].
  pose proof (lands_aligned m Hwf t _ _ k Vn Lp) as Al. rewrite get_vadd in Al.
  pose proof (blk_bounds (get b k + get off k)). pose proof (fits _ _ Ps D Al).
  destruct pos; lia.
Qed.

Lemma measure_nonneg cur off : at_ cur off -> 0 <= measure cur off.
Proof.
  intros A. unfold measure. pose proof L_pos. pose proof (sum3_nonneg (far (vadd b off)) (far_range _)).
  pose proof (sum3_nonneg (near (vadd b off)) (fun k => proj1 (near_range _ k))).
  destruct (Z.leb_spec (len_of m cur) L); [|nia].
  destruct (at_divides cur off A) as [_ [|D]]; [lia|]. pose proof (rest_range cur off A D). nia.
Qed.
Lemma measure_upper cur off : at_ cur off -> measure cur off <= (4 * L + 1) * sum3 (far (vadd b off)) + 4 * L.
Proof.
  intros A. unfold measure. pose proof L_pos.
  pose proof (sum3_le (near (vadd b off)) 1 (fun k => proj2 (near_range _ k))).
  destruct (Z.leb_spec (len_of m cur) L); [|lia].
  destruct (at_divides cur off A) as [_ [|D]]; [lia|]. pose proof (rest_range cur off A D). nia.
Qed.

(** relation between step_dir and L-blocks for boxes within an L-block *)
Lemma dir_blk off s k : 0 < s -> (s | L) -> (s | get b k + get off k) ->
  (get hi k <? get off k) = (blk (R k) <? blk (get b k + get off k)) /\
  (get off k + s - 1 <? get lo k) = (blk (get b k + get off k) <? blk (R k)).
Proof.
  intros Hs D A. pose proof L_pos as Lp. rewrite get_hi, get_lo.
  pose proof (fits _ _ Hs D A) as F. set (a := get b k + get off k) in *. pose proof (blk_bounds a) as Ba.
  assert (L * blk (R k) = R k) as ER.
  { unfold blk. rewrite <- rdown_div by lia. apply rdown_self; [lia|apply R_aligned]. }
  unfold target in ER at 2.
  assert ((blk (R k) < blk a <-> L * blk (R k) + L <= L * blk a)) as C1 by nia.
  assert ((blk a < blk (R k) <-> L * blk a + L <= L * blk (R k))) as C2 by nia.
  split.
  - destruct (Z.ltb_spec ((get h k + 1) * L - 1) (get off k)), (Z.ltb_spec (blk (R k)) (blk a)); try reflexivity; exfalso.
    + assert (L * blk a <= L * blk (R k)) by nia. lia.
    + lia.
  - destruct (Z.ltb_spec (get off k + s - 1) (get h k * L)), (Z.ltb_spec (blk a) (blk (R k))); try reflexivity; exfalso.
    + assert (L * blk (R k) <= L * blk a) by nia. lia.
    + lia.
Qed.

(** one step of the walk stays in the box of macro blocks *)
Lemma front_in_box cur off k pos : at_ cur off -> step_dir lo hi off (len_of m cur) = Some (k, pos) ->
  let x := front (vadd b off) (len_of m cur) k pos in
  in_box x /\ (if pos then get x k <= R k else R k <= get x k).
Proof.
  intros A Sd x. destruct A as (E & Lp & B). apply step_dir_some in Sd. rewrite get_lo, get_hi in Sd.
  pose proof L_pos. pose proof (cell_len_pos m Hwf cur (V cur E)).
  assert (get x k = get b k + get off k + (if pos then len_of m cur else -1)) as Ex.
  { unfold x, front. rewrite get_upd_same, get_vadd. reflexivity. }
  assert (if pos then get x k <= R k else R k <= get x k) as HR.
  { rewrite Ex. unfold target. clear x Ex. destruct pos; nia. }
  split; [|exact HR]. intros j. destruct (dim_eq_dec j k) as [->|N].
  - specialize (B k). rewrite get_vadd in B. destruct pos.
    + pose proof (mac_mono (get x k) (R k) HR). pose proof (mac_mono (get b k + get off k) (get x k) ltac:(lia)). lia.
    + pose proof (mac_mono (R k) (get x k) HR). pose proof (mac_mono (get x k) (get b k + get off k) ltac:(lia)). lia.
  - unfold x, front. rewrite get_upd_other by assumption. apply B.
Qed.

(** region at item h, unrolled *)
Definition region : idx := vmap R.

Lemma walk_leaves cur off k pos : at_ cur off -> step_dir lo hi off (len_of m cur) = Some (k, pos) ->
  ~ reachable m t (front (vadd b off) (len_of m cur) k pos) -> per t k = false /\ ~ 0 <= R k < glen m k.
Proof.
  intros A Sd NR. destruct (front_in_box cur off k pos A Sd) as [_ HR]. cbn zeta in HR.
  destruct A as (E & Lp & B). pose proof (lands_reachable m t _ _ Lp) as Rp.
  pose proof L_pos as PL.
  apply step_dir_some in Sd. rewrite get_lo, get_hi in Sd.
  set (x := front (vadd b off) (len_of m cur) k pos) in *.
  assert (get x k = get b k + get off k + (if pos then len_of m cur else -1)) as Ex.
  { unfold x, front. rewrite get_upd_same, get_vadd. reflexivity. }
  destruct (per t k) eqn:Pk.
  - exfalso. apply NR. intros j. destruct (dim_eq_dec j k) as [->|N]; [auto|].
    unfold x, front. rewrite get_upd_other by assumption. apply Rp.
  - split; [reflexivity|]. intros HRk.
    assert (~ 0 <= get x k < glen m k) as NX.
    { intros Hx. apply NR. intros j. destruct (dim_eq_dec j k) as [->|N]; [auto|].
      unfold x, front. rewrite get_upd_other by assumption. apply Rp. }
    pose proof (Rp k) as [Rk|Rk]; [congruence|]. rewrite get_vadd in Rk.
    pose proof (cell_len_pos m Hwf cur (V cur E)). unfold target in *. destruct pos; lia.
Qed.

Lemma walk_step cur off k pos i n : at_ cur off -> step_dir lo hi off (len_of m cur) = Some (k, pos) ->
  lands m t (front (vadd b off) (len_of m cur) k pos) i -> ex n = true -> covers m n i ->
  let off' := adjust_offset m off cur n k pos in
  face_neighbor ex m t cur k pos = n /\ at_ n off' /\ measure n off' < measure cur off.
Proof.
  intros A Sd Lx En Cn off'. pose proof (front_in_box cur off k pos A Sd) as [Bx HR]. cbn zeta in *.
  pose proof A as (Ecur & Lp & B). pose proof (V cur Ecur) as Vc. pose proof (V n En) as Vn.
  destruct (face_neighbor_in m Hwf t ex Htile H Hbal Hfaces cur k pos (vadd b off) i n Ecur Lp Lx En Cn) as [Fn Hl].
  split; [exact Fn|].
  pose proof (adjust_offset_spec m Hwf t ex Htile cur (vadd b off) n i k pos off Ecur En Lp Lx Cn Hl) as Ea.
  fold off' in Ea. set (x := front (vadd b off) (len_of m cur) k pos) in *.
  assert (vadd b off' = box n x) as Ep.
  { apply idx_ext. intros j. rewrite Ea, !get_vadd, get_vsub, get_vadd. lia. }
  pose proof (small_in_box x i n Bx Lx En Cn) as Small.
  pose proof (lands_rdown m Hwf t x i n Vn Lx Cn) as Ln. fold (box n x) in Ln.
  pose proof (cell_len_pos m Hwf n Vn) as Pn. pose proof (cell_len_pos m Hwf cur Vc) as Pc. pose proof L_pos as PL.
  assert (len_of m n | 2 * L) as Dn.
  { assert (2 * L = 2 ^ (m_max m - lvl_of m c0 + 1)) as E2.
    { pose proof (cell_level m Hwf c0 (V c0 Ec0)). rewrite pow2_dbl by lia. rewrite (cell_len m Hwf) by auto using V. reflexivity. }
    pose proof (cell_level m Hwf c0 (V c0 Ec0)). pose proof (cell_level m Hwf n Vn).
    rewrite E2 in *. rewrite (cell_len m Hwf n) in * by assumption. apply pow2_divide. split; [lia|]. apply pow2_le; lia. }
  assert (forall j, mac (get (box n x) j) = mac (get x j)) as Emac.
  { intros j. unfold box_at. rewrite get_vmap. unfold mac.
    pose proof (rdown_rdown (len_of m n) (2 * L) (get x j) Pn ltac:(lia) Dn) as E.
    rewrite !(rdown_div (2 * L)) in E by lia. apply Z.mul_reg_l in E; [assumption|lia]. }
  assert (at_ n off') as A'.
  { split; [assumption|]. rewrite Ep. split; [exact Ln|]. intros j. rewrite Emac. apply Bx. }
  split; [exact A'|].
  assert (get x k = get (vadd b off) k + (if pos then len_of m cur else -1)) as Exk by apply get_upd_same.
  assert (forall j, j <> k -> get x j = get (vadd b off) j) as Exj by (intros; apply get_upd_other; assumption).
  pose proof (step_dir_some _ _ _ _ _ _ Sd) as Sd'. rewrite get_lo, get_hi in Sd'.
  assert (forall j, j <> k -> far (vadd b off') j = far (vadd b off) j) as Efar.
  { intros j N. unfold far. rewrite Ep, Emac, Exj by assumption. reflexivity. }
  pose proof (sum3_upd (far (vadd b off)) (far (vadd b off')) k Efar) as SF.
  assert (far (vadd b off') k <= far (vadd b off) k /\
     (mac (get x k) <> mac (get (vadd b off) k) -> far (vadd b off') k < far (vadd b off) k)) as [F1 F2].
  { unfold far. rewrite Ep, Emac. destruct pos.
    - pose proof (mac_mono _ _ HR). pose proof (mac_mono (get (vadd b off) k) (get x k) ltac:(lia)). lia.
    - pose proof (mac_mono _ _ HR). pose proof (mac_mono (get x k) (get (vadd b off) k) ltac:(lia)). lia. }
  pose proof (sum3_nonneg (far (vadd b off)) (far_range _)) as SN.
  destruct (Z.eq_dec (mac (get x k)) (mac (get (vadd b off) k))) as [Same|Diff].
  2:{ (* the macro block changes *)
    specialize (F2 Diff). pose proof (measure_upper n off' A').
    assert (measure cur off >= (4 * L + 1) * sum3 (far (vadd b off))).
    { unfold measure. pose proof (sum3_nonneg (near (vadd b off)) (fun k => proj1 (near_range _ k))).
      destruct (Z.leb_spec (len_of m cur) L); [|lia].
      destruct (at_divides cur off A) as [_ [|D]]; [lia|]. pose proof (rest_range cur off A D). nia. }
    assert ((4 * L + 1) * sum3 (far (vadd b off')) <= (4 * L + 1) * (sum3 (far (vadd b off)) - 1))
      by (apply Z.mul_le_mono_nonneg_l; lia).
    lia. }
  (* same macro block: both cells fit into L-blocks *)
  assert (far (vadd b off') k = far (vadd b off) k) as F3 by (unfold far; rewrite Ep, Emac, Same; reflexivity).
  assert (forall j, mac (get x j) = mac (get (vadd b off) j)) as SameAll.
  { intros j. destruct (dim_eq_dec j k) as [->|N]; [assumption|]. rewrite Exj by assumption. reflexivity. }
  assert (~ len_of m cur = 2 * L) as Nc.
  { intros E2. pose proof (lands_aligned m Hwf t _ _ k Vc Lp) as [q Hq]. rewrite E2 in Hq.
    unfold mac in Same. rewrite Exk, Hq in Same. destruct pos.
    - rewrite E2 in Same. replace (q * (2 * L) + 2 * L) with ((q + 1) * (2 * L)) in Same by ring.
      rewrite !Z.div_mul in Same by lia. lia.
    - rewrite Z.div_mul in Same by lia.
      assert ((q * (2 * L) + -1) / (2 * L) = q - 1); [|lia].
      symmetry. apply Z.div_unique with (2 * L - 1); [lia|ring]. }
  assert (~ len_of m n = 2 * L) as Nn.
  { intros E2.
    assert (cur = n /\ vadd b off = box n x) as [E _].
    { apply (same_box m Hwf t ex Htile cur (vadd b off) n (box n x) (vadd b off) Ecur En Lp Ln).
      - intros j. lia.
      - intros j. pose proof (box_at_contains m Hwf n x j Vn) as Bc. rewrite E2 in *.
        assert (get (box n x) j = 2 * L * mac (get x j)) as Eb.
        { unfold box_at. rewrite get_vmap, E2. rewrite rdown_div by lia. reflexivity. }
        rewrite SameAll in Eb. rewrite Eb. unfold mac.
        pose proof (Z.mul_div_le (get (vadd b off) j) (2 * L) ltac:(lia)).
        pose proof (Z.mul_succ_div_gt (get (vadd b off) j) (2 * L) ltac:(lia)). lia. }
    rewrite E in Nc. contradiction. }
  destruct (at_divides cur off A) as [_ [|Dc]]; [contradiction|].
  destruct (at_divides n off' A') as [_ [|Dn']]; [contradiction|].
  assert (len_of m cur <= L) as Sc by (apply Z.divide_pos_le; assumption).
  assert (len_of m n <= L) as Sn by (apply Z.divide_pos_le; assumption).
  assert (forall j, blk (get (box n x) j) = blk (get x j)) as Eblk.
  { intros j. unfold box_at. rewrite get_vmap. unfold blk.
    pose proof (rdown_rdown (len_of m n) L (get x j) Pn PL Dn') as E.
    rewrite !(rdown_div L) in E by lia. apply Z.mul_reg_l in E; [assumption|lia]. }
  assert (forall j, j <> k -> near (vadd b off') j = near (vadd b off) j) as Enear.
  { intros j N. unfold near, goal_blk. rewrite Ep, Eblk, Emac, Exj by assumption. reflexivity. }
  pose proof (sum3_upd (near (vadd b off)) (near (vadd b off')) k Enear) as SNr.
  unfold measure. replace (len_of m cur <=? L) with true by lia. replace (len_of m n <=? L) with true by lia.
  rewrite SF, F3, SNr.
  pose proof (rest_range cur off A Dc) as RR. pose proof (rest_range n off' A' Dn') as RR'.
  pose proof (near_range (vadd b off) k) as NR1. pose proof (near_range (vadd b off') k) as NR2.
  destruct (Z.eq_dec (blk (get x k)) (blk (get (vadd b off) k))) as [SB|DB].
  - (* same L-block: the rest shrinks *)
    assert (near (vadd b off') k = near (vadd b off) k) as EN.
    { unfold near, goal_blk. rewrite Ep, Eblk, Emac, Same, SB. reflexivity. }
    rewrite EN. cut (rest off' (len_of m n) < rest off (len_of m cur)); [lia|].
    assert (forall j, blk (get (vadd b off') j) = blk (get (vadd b off) j)) as BA.
    { intros j. rewrite Ep, Eblk. destruct (dim_eq_dec j k) as [->|N]; [exact SB|]. rewrite Exj by assumption. reflexivity. }
    assert (step_dir lo hi off' (len_of m n) = Some (k, pos)) as Sd2.
    { rewrite <- Sd. apply step_dir_ext; intros j.
      - destruct (dir_blk off' (len_of m n) j) as [-> _]; try assumption.
        { rewrite <- get_vadd, Ep. apply (lands_aligned m Hwf t); assumption. }
        destruct (dir_blk off (len_of m cur) j) as [-> _]; try assumption.
        { rewrite <- get_vadd. apply (lands_aligned m Hwf t); assumption. }
        rewrite <- !get_vadd, BA. reflexivity.
      - destruct (dir_blk off' (len_of m n) j) as [_ ->]; try assumption.
        { rewrite <- get_vadd, Ep. apply (lands_aligned m Hwf t); assumption. }
        destruct (dir_blk off (len_of m cur) j) as [_ ->]; try assumption.
        { rewrite <- get_vadd. apply (lands_aligned m Hwf t); assumption. }
        rewrite <- !get_vadd, BA. reflexivity. }
    unfold rest. rewrite Sd, Sd2. rewrite <- !get_vadd. rewrite BA.
    pose proof (box_at_contains m Hwf n x k Vn) as Bc. rewrite <- Ep in Bc.
    destruct pos; lia.
  - (* next L-block of the same macro block *)
    assert (near (vadd b off') k = near (vadd b off) k - 1) as EN.
    { unfold near, goal_blk. rewrite Ep, Eblk, Emac, Same.
      set (a := get (vadd b off) k) in *.
      assert (mac (get x k) = blk (get x k) / 2) as M1 by apply mac_blk.
      assert (mac a = blk a / 2) as M2 by apply mac_blk.
      rewrite Same in M1.
      destruct pos.
      - assert (blk a <= blk (get x k)) by (apply Z.div_le_mono; lia).
        assert (blk (get x k) <= blk (R k)) by (apply Z.div_le_mono; lia).
        clear - M1 M2 H0 H1 DB. Z.div_mod_to_equations. lia.
      - assert (blk (get x k) <= blk a) by (apply Z.div_le_mono; lia).
        assert (blk (R k) <= blk (get x k)) by (apply Z.div_le_mono; lia).
        clear - M1 M2 H0 H1 DB. Z.div_mod_to_equations. lia. }
    rewrite EN. lia.
Qed.

(** *** result of the walk *)
Lemma walk_ends fuel : forall cur off, at_ cur off -> measure cur off < Z.of_nat fuel ->
  (walk fuel ex m t lo hi cur off = Done None /\ ~ reachable m t region) \/
  (exists cur' off', walk fuel ex m t lo hi cur off = Done (Some (cur', off')) /\ at_ cur' off' /\
     forall k, get off' k <= get hi k /\ get lo k <= get off' k + len_of m cur' - 1).
Proof.
  induction fuel as [|f IH]; intros cur off A Hm; [pose proof (measure_nonneg cur off A); lia|].
  cbn [walk]. fold (len_of m cur). destruct (step_dir lo hi off (len_of m cur)) as [[k pos]|] eqn:Sd.
  - destruct A as (E & Lp & B). rewrite (has_neighbors_leaf m Hwf ex Htile cur E). cbn [negb].
    assert (at_ cur off) as A by (split; auto).
    assert (reachable m t (front (vadd b off) (len_of m cur) k pos) \/ ~ reachable m t (front (vadd b off) (len_of m cur) k pos)) as [Rx|NRx].
    { set (x := front (vadd b off) (len_of m cur) k pos).
      assert (forall j, (per t j = true \/ 0 <= get x j < glen m j) \/ ~ (per t j = true \/ 0 <= get x j < glen m j)) as D.
      { intros j. destruct (per t j); [left; left; reflexivity|]. lia. }
      destruct (D DX) as [D0|D0]; [|right; intros Q; apply D0, Q].
      destruct (D DY) as [D1|D1]; [|right; intros Q; apply D1, Q].
      destruct (D DZ) as [D2|D2]; [|right; intros Q; apply D2, Q].
      left. intros j; destruct j; assumption. }
    + destruct (lands_exists m Hwf t _ Rx) as (i & Li).
      destruct (leaf_at m ex Htile i (proj1 Li)) as (n & En & Cn).
      destruct (walk_step cur off k pos i n A Sd Li En Cn) as (Fn & A' & M'). rewrite Fn.
      pose proof (V n En) as Vn. unfold valid in Vn. unfold error_cell.
      replace (n =? 0) with false by lia. apply IH; [exact A'|lia].
    + left. rewrite (face_neighbor_out m Hwf t ex Htile cur k pos (vadd b off) E Lp NRx).
      rewrite Z.eqb_refl. split; [reflexivity|].
      destruct (walk_leaves cur off k pos A Sd NRx) as [P N]. intros Rr. destruct (Rr k) as [|Q]; [congruence|].
      unfold region in Q. rewrite get_vmap in Q. tauto.
  - right. exists cur, off. split; [reflexivity|]. split; [assumption|]. apply step_dir_none, Sd.
Qed.

Lemma at_start : at_ c0 vzero.
Proof.
  assert (vadd b vzero = b) as E by (apply idx_ext; intros k; rewrite get_vadd, get_vzero; lia).
  split; [assumption|]. rewrite E. split.
  - apply lands_self. apply cell_in_grid; auto using V.
  - intros k. lia.
Qed.

Lemma start_measure : measure c0 vzero < Z.of_nat (walk_fuel L h).
Proof.
  pose proof (measure_upper c0 vzero at_start) as U. pose proof L_pos as PL.
  assert (vadd b vzero = b) as E by (apply idx_ext; intros k; rewrite get_vadd, get_vzero; lia).
  rewrite E in U.
  assert (forall k, far b k <= Z.abs (get h k)) as F.
  { intros k. unfold far. destruct (b_aligned k) as [q Hq].
    assert (mac (get b k) = q / 2) as M0 by (unfold mac; rewrite Hq; apply Z.div_mul_cancel_r; lia).
    assert (mac (R k) = (q + get h k) / 2) as M1.
    { unfold mac, target. rewrite Hq. replace (q * L + get h k * L) with ((q + get h k) * L) by ring.
      apply Z.div_mul_cancel_r; lia. }
    rewrite M0, M1. clear. Z.div_mod_to_equations. lia. }
  unfold walk_fuel. pose proof (F DX). pose proof (F DY). pose proof (F DZ). cbn [get] in *.
  assert (sum3 (far b) <= Z.abs (ix h) + Z.abs (iy h) + Z.abs (iz h)) by (unfold sum3; lia).
  rewrite Z2Nat.id by nia. nia.
Qed.

Lemma walk_result :
  (walk (walk_fuel L h) ex m t lo hi c0 vzero = Done None /\ ~ reachable m t region) \/
  (exists cur off, walk (walk_fuel L h) ex m t lo hi c0 vzero = Done (Some (cur, off)) /\
     ex cur = true /\ lands m t (vadd b off) (idx_of m cur) /\
     forall k, get off k <= get hi k /\ get lo k <= get off k + len_of m cur - 1).
Proof.
  destruct (walk_ends _ c0 vzero at_start start_measure) as [|(cur & off & W1 & (A1 & A2 & _) & W2)]; [left; assumption|].
  right. exists cur, off. auto.
Qed.
End Find.
