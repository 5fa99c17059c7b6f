(** C70: coordinates and cells in 64 bit floating point numbers. *)
From Coq Require Import QArith Qround Floats.SpecFloat Lqa.
From Verif Require Import U64 MapModel MapSpec MapProofs MapProps HoodModel MeshSpec MeshBase GeoModel GeoBase GeoProps FloatBase FloatDiv FloatGeo.
Open Scope Z_scope.

(** ** Grid without geometry *)
Definition countable (m : mapping) : Prop := forall k, mlen m k * 2 ^ (m_max m + 1) < 2 ^ 52.
Section NoBoxes.
Context (m : mapping) (Hwf : wf m) (Hm : countable m) (k : dim).
Let M := 2 ^ m_max m.
Lemma no_sizes : 1 <= M /\ 0 <= m_max m <= 21 /\ 0 < mlen m k /\ mlen m k * (2 * M) < 2 ^ 52.
Proof.
  pose proof (wf_max_le_21 m Hwf) as H. pose proof (mlen_pos m Hwf k). assert (0 < M) by (apply Z.pow_pos_nonneg; lia). pose proof (Hm k) as B. rewrite Z.pow_add_r in B by lia. change (2 ^ 1) with 2 in B. fold M in B.
  split; [lia|]. split; [assumption|]. split; [assumption|]. nia.
Qed.
Lemma no_start_is : is (no_start binary64 k) 0.
Proof. reflexivity. Qed.
Lemma no_end_is : is (no_end binary64 m k) (inject_Z (mlen m k)).
Proof. destruct no_sizes as (M1 & H21 & Pm & B). apply of_Z_small. nia. Qed.
Section Cell.
Context (c : Z) (Hc : valid m c).
Let i := get (get_indices m c) k.
Let l := get_refinement_level m c.
Lemma no_length_is : exists q, no_length exact m c k = Some q /\ is (no_length binary64 m c k) q /\ lat (0 - l) 1 q.
Proof.
  destruct (cell_numbers m Hwf c Hc k) as (Hl & _ & _ & E1 & E2 & H21 & Ex & _). fold l in Hl, E1.
  unfold no_length. rewrite Ex. fold l. rewrite E1. cbn [exact binary64 div of_u64]. rewrite (div_some _ _ (pow_q l ltac:(lia))).
  eexists. split; [reflexivity|]. split; [apply unit_div; lia|]. apply lat_half; [lia|apply (lat_int 1)].
Qed.
Lemma no_half_length q : lat (0 - l) 1 q -> lat (- m_max m - 1) (2 ^ (m_max m - l)) (q / inject_Z 2).
Proof.
  destruct (cell_numbers m Hwf c Hc k) as (Hl & _). fold l in Hl. intros H. apply (lat_half _ _ 1) in H; [|lia]. change (2 ^ 1) with 2 in H.
  apply (lat_fine _ (- m_max m - 1)) in H; [|lia]. replace (0 - l - 1 - (- m_max m - 1)) with (m_max m - l) in H by lia. rewrite Z.mul_1_l in H. exact H.
Qed.
Lemma no_center_is : exists q, no_center exact m c k = Some q /\ is (no_center binary64 m c k) q /\ lat (- m_max m - 1) (2 * i + 2 ^ (m_max m - l)) q.
Proof.
  destruct no_length_is as (q & Eq & Iq & Lq). destruct (cell_numbers m Hwf c Hc k) as (Hl & Hi & Hil & E1 & E2 & H21 & Ex & _). fold l in Hl, Hil, E1. fold i in Hi, Hil.
  destruct no_sizes as (M1 & _ & Pm & B). fold M in Hil. pose proof (Z.pow_pos_nonneg 2 (m_max m - l) ltac:(lia) ltac:(lia)) as P.
  unfold no_center. rewrite Ex, Eq. fold i. rewrite E2. cbn [exact binary64 add div of_u64]. rewrite (div_some _ _ (pow_q (m_max m) ltac:(lia))). rewrite (div_some q (inject_Z 2)) by reflexivity. cbn [lift2].
  assert (lat (0 - m_max m) i (inject_Z i / inject_Z (2 ^ m_max m))) as Lb by (apply lat_half; [lia|]; rewrite <- (Z.abs_eq i) at 1 by lia; apply lat_int).
  assert (lat (- m_max m - 1) (2 * i) (inject_Z i / inject_Z (2 ^ m_max m))) as Lb'.
  { apply (lat_fine _ (- m_max m - 1)) in Lb; [|lia]. replace (0 - m_max m - (- m_max m - 1)) with 1 in Lb by lia. replace (2 * i) with (i * 2 ^ 1) by (change (2 ^ 1) with 2; lia). exact Lb. }
  pose proof (no_half_length q Lq) as Ld. pose proof (lat_add _ _ _ _ _ Lb' Ld) as Le. eexists. split; [reflexivity|]. split; [|exact Le].
  apply add_exact.
  - apply div_pow; [apply of_Z_small; nia|lia|apply (lat_fits _ _ _ Lb); nia].
  - apply div_2; [assumption|]. apply (lat_fits _ _ _ Ld); nia.
  - apply (lat_fits _ _ _ Le); nia.
Qed.
Lemma no_min_max_is : agree (no_min exact m c k) (no_min binary64 m c k) /\ agree (no_max exact m c k) (no_max binary64 m c k).
Proof.
  destruct no_length_is as (q & Eq & Iq & Lq). destruct no_center_is as (z & Ez & Iz & Lz). destruct (cell_numbers m Hwf c Hc k) as (Hl & Hi & Hil & E1 & E2 & H21 & Ex & _). fold l in Hl, Hil, E1. fold i in Hi, Hil.
  destruct no_sizes as (M1 & _ & Pm & B). fold M in Hil. pose proof (Z.pow_pos_nonneg 2 (m_max m - l) ltac:(lia) ltac:(lia)) as P.
  pose proof (no_half_length q Lq) as Lh2. unfold no_min, no_max. rewrite Eq, Ez. cbn [exact binary64 sub add div of_u64]. rewrite (div_some q (inject_Z 2)) by reflexivity. cbn [lift2 agree].
  assert (fits (q / inject_Z 2)) as F2 by (apply (lat_fits _ _ _ Lh2); nia).
  split; [apply sub_exact|apply add_exact]; try assumption; try (apply div_2; assumption).
  - apply (lat_fits _ _ _ (lat_sub _ _ _ _ _ Lz Lh2)); nia.
  - apply (lat_fits _ _ _ (lat_add _ _ _ _ _ Lz Lh2)); nia.
Qed.
End Cell.
Lemma no_center_at_is l j : (forall k', 0 <= get j k') -> agree (no_center_at exact m l j k) (no_center_at binary64 m l j k).
Proof.
  intros Hj. unfold no_center_at. destruct (level_outside m l) eqn:El; [reflexivity|]. destruct (index_outside m j) eqn:Ei; [reflexivity|].
  assert (0 <= l <= m_max m) as Hl by (unfold level_outside in El; lia).
  assert (0 <= get j k <= mlen m k * 2 ^ m_max m) as Hi. { split; [apply Hj|]. unfold index_outside in Ei. rewrite !glen64_eq in Ei by assumption. unfold glen in Ei. destruct k; lia. }
  set (i := get j k) in *. destruct no_sizes as (M1 & H21 & Pm & B). fold M in Hi.
  assert (shl1 l = 2 ^ l) as E1 by (apply shl1_small; lia). rewrite (proj1 (max_shift m Hwf)), E1.
  cbn [exact binary64 add mul div of_u64]. rewrite (div_some _ _ (pow_q (m_max m) ltac:(lia))), (div_some _ _ (pow_q l ltac:(lia))). rewrite (div_some _ (inject_Z 2)) by reflexivity. cbn [lift2 agree].
  pose proof (Z.pow_pos_nonneg 2 (m_max m - l) ltac:(lia) ltac:(lia)) as P. assert (2 ^ (m_max m - l) <= M) as P' by (apply Z.pow_le_mono_r; lia).
  assert (lat (0 - m_max m) i (inject_Z i * (inject_Z 1 / inject_Z (2 ^ m_max m)))) as Lb.
  { apply (lat_eq _ _ (inject_Z i / inject_Z (2 ^ m_max m))); [pose proof (pow_q (m_max m) ltac:(lia)); change (inject_Z 1) with 1%Q; field; lra|]. apply lat_half; [lia|]. rewrite <- (Z.abs_eq i) at 1 by lia. apply lat_int. }
  assert (lat (- m_max m - 1) (2 * i) (inject_Z i * (inject_Z 1 / inject_Z (2 ^ m_max m)))) as Lb'.
  { apply (lat_fine _ (- m_max m - 1)) in Lb; [|lia]. replace (0 - m_max m - (- m_max m - 1)) with 1 in Lb by lia. replace (2 * i) with (i * 2 ^ 1) by (change (2 ^ 1) with 2; lia). exact Lb. }
  assert (lat (0 - l - 1) 1 (inject_Z 1 / inject_Z (2 ^ l) / inject_Z 2)) as Ld by (apply (lat_half _ _ 1); [lia|]; apply lat_half; [lia|apply (lat_int 1)]).
  assert (lat (- m_max m - 1) (2 ^ (m_max m - l)) (inject_Z 1 / inject_Z (2 ^ l) / inject_Z 2)) as Ld'.
  { apply (lat_fine _ (- m_max m - 1)) in Ld; [|lia]. replace (0 - l - 1 - (- m_max m - 1)) with (m_max m - l) in Ld by lia. rewrite Z.mul_1_l in Ld. exact Ld. }
  pose proof (lat_add _ _ _ _ _ Lb' Ld') as Le. apply add_exact.
  - apply mul_exact; [apply of_Z_small; nia|apply unit_div; lia|apply (lat_fits _ _ _ Lb); nia].
  - apply div_2; [apply unit_div; lia|apply (lat_fits _ _ _ Ld); lia].
  - apply (lat_fits _ _ _ Le); nia.
Qed.
End NoBoxes.

(** ** Periodic grids *)
(** a coordinate and the ends of the grid are multiples of a power of two *)
Definition aligned3 (x a b : Q) : Prop :=
  exists w X S E, (x == dy X w)%Q /\ (a == dy S w)%Q /\ (b == dy E w)%Q /\ Z.abs X + Z.abs S + Z.abs E < 2 ^ 51 /\ -900 <= w <= 900.

Lemma dy_sub a b e : (dy (a - b) e == dy a e - dy b e)%Q.
Proof. unfold Z.sub. rewrite dy_plus, dy_opp. ring. Qed.
Lemma div_ceil x y p q P G w : is x p -> is y q -> (p == dy P w)%Q -> (q == dy G w)%Q -> 0 < P < 2 ^ 53 -> 0 < G < 2 ^ 53 ->
  is (b64_ceil (SFdiv 53 1024 x y)) (inject_Z (Qceiling (p / q))) /\ P <= Qceiling (p / q) * G < P + G.
Proof.
  intros Hx Hy Ep Eq HP HG. assert (0 < p)%Q as Pp by (rewrite Ep; destruct P; try lia; apply dy_pos). assert (0 < q)%Q as Pq by (rewrite Eq; destruct G; try lia; apply dy_pos).
  destruct (div_floor x y p q P G Hx Hy ltac:(lra) Pq ltac:(lia) ltac:(lia)) as (v & Iv & V1 & V2 & V3 & V4); [rewrite Ep, Eq; unfold dy; ring|].
  assert (two (-1000) * q <= p)%Q as Lo.
  { rewrite Ep, Eq. unfold dy. assert (0 < two w)%Q as Pw by apply two_pos. assert (two (-1000) * inject_Z G <= inject_Z P)%Q as K; [|apply (mul_le _ _ _ Pw) in K; lra].
    apply Qle_trans with (two (-1000) * inject_Z (2 ^ 53))%Q; [rewrite (Qmult_comm (two (-1000)) (inject_Z G)), (Qmult_comm (two (-1000))); apply mul_le; [apply two_pos|]; rewrite <- Zle_Qle; lia|].
    apply Qle_trans with 1%Q; [vm_compute; discriminate|]. change 1%Q with (inject_Z 1). rewrite <- Zle_Qle. lia. }
  pose proof (b64_ceil_is _ _ Iv) as C. pose proof (Z.div_mod P G ltac:(lia)) as Dm. pose proof (Z.mod_pos_bound P G ltac:(lia)) as Mb. set (K := P / G) in *.
  assert (p / q * inject_Z G == inject_Z P)%Q as Er by (rewrite Ep, Eq; unfold dy; pose proof (two_pos w); assert (0 < inject_Z G)%Q by (change 0%Q with (inject_Z 0); rewrite <- Zlt_Qlt; lia); field; split; lra).
  assert (0 < inject_Z G)%Q as PG by (change 0%Q with (inject_Z 0); rewrite <- Zlt_Qlt; lia).
  destruct (Z.eq_dec (P mod G) 0) as [R0|R0].
  - assert (Qceiling v = K) as Ev by (rewrite (V3 R0); apply qceil_unique; [rewrite <- Zlt_Qlt; lia|apply Qle_refl]).
    assert (Qceiling (p / q) = K) as Ek. { apply qceil_unique; [apply (cancel_lt _ _ _ PG)|apply (cancel_le _ _ _ PG)]; rewrite Er, <- inject_Z_mult; [rewrite <- Zlt_Qlt|rewrite <- Zle_Qle]; nia. }
    rewrite Ek, <- Ev at 1. split; [assumption|]. rewrite Ek. nia.
  - assert (Qceiling v = K + 1) as Ev by (apply qceil_unique; [replace (K + 1 - 1) with K by lia; apply V4; assumption|apply Qlt_le_weak, V2]).
    assert (Qceiling (p / q) = K + 1) as Ek. { apply qceil_unique; [apply (cancel_lt _ _ _ PG)|apply (cancel_le _ _ _ PG)]; rewrite Er, <- inject_Z_mult; [rewrite <- Zlt_Qlt|rewrite <- Zle_Qle]; nia. }
    rewrite Ek, <- Ev at 1. split; [assumption|]. rewrite Ek. nia.
Qed.

(** the computation of get_real_coordinate with grid length l: GeoBase.wrap_with in doubles *)
Definition wrap64 (a b l x : spec_float) (p : bool) : spec_float :=
  if b64_le a x && b64_le x b then x else
  if p then
    if b64_lt x a then SFadd 53 1024 x (SFmul 53 1024 l (b64_ceil (SFdiv 53 1024 (SFsub 53 1024 a x) l)))
    else SFsub 53 1024 x (SFmul 53 1024 l (b64_ceil (SFdiv 53 1024 (SFsub 53 1024 x b) l)))
  else S754_nan.
(** coordinates for which nothing is rounded: the distance from the start is a double, or wrapping is exact *)
Definition unrounded (a b : spec_float) (p : bool) (x : spec_float) : Prop :=
  real_of x = None \/ exists qx qa qb, is x qx /\ is a qa /\ is b qb /\
    ((qa <= qx)%Q /\ (qx <= qb)%Q /\ fits (qx - qa) \/ p = false /\ ~ ((qa <= qx)%Q /\ (qx <= qb)%Q) \/ aligned3 qx qa qb).

Lemma qle_iff a b : Qle_bool a b = true <-> (a <= b)%Q.
Proof. apply Qle_bool_iff. Qed.
Lemma inf_le a b qa qb s : is a qa -> is b qb -> b64_le a (S754_infinity s) && b64_le (S754_infinity s) b = false.
Proof. destruct a as [s1| | |s1 p1 e1]; try contradiction; destruct b as [s2| | |s2 p2 e2]; try contradiction; intros _ _; destruct s; reflexivity. Qed.
Lemma inf_wrap a b l qa qb ql p s : is a qa -> is b qb -> is l ql -> (0 < ql)%Q -> wrap64 a b l (S754_infinity s) p = S754_nan.
Proof.
  intros Ha Hb Hl Pl. unfold wrap64. rewrite (inf_le a b qa qb s Ha Hb). destruct p; [|reflexivity].
  destruct l as [s0| | |s0 p0 e0]; try contradiction; [cbn [is] in Hl; rewrite Hl in Pl; destruct (Qlt_irrefl 0 Pl)|].
  assert (s0 = false) as ->. { destruct s0; [|reflexivity]. exfalso. destruct Hl as [_ Hl]. rewrite Hl in Pl. cbn [cond_Zopp] in Pl. rewrite dy_opp in Pl. pose proof (dy_pos p0 e0). lra. }
  destruct a as [s1| | |s1 p1 e1]; try contradiction; destruct b as [s2| | |s2 p2 e2]; try contradiction; destruct s; reflexivity.
Qed.
Lemma nan_wrap a b l p : wrap64 a b l S754_nan p = S754_nan.
Proof.
  unfold wrap64. assert (forall x, b64_le x S754_nan = false) as N by (intros [| | |]; reflexivity). rewrite N. cbn [andb]. destruct p; [|reflexivity].
  assert (forall x, b64_lt S754_nan x = false) as N' by (intros [| | |]; reflexivity). rewrite N'. reflexivity.
Qed.

Lemma wrap_finite a b l x p qa qb ql qx : is a qa -> is b qb -> is l ql -> is x qx -> (qa < qb)%Q -> (ql == qb - qa)%Q ->
  p = false \/ (qa <= qx)%Q /\ (qx <= qb)%Q \/ aligned3 qx qa qb ->
  agree (wrap_with qa qb ql (Some qx) p) (wrap64 a b l x p) /\
  (aligned3 qx qa qb -> forall q, wrap_with qa qb ql (Some qx) p = Some q -> fits (q - qa)).
Proof.
  intros Ha Hb Hl Hx Hab El Hc. unfold wrap_with, wrap64. cbn [exact_le exact_lt]. rewrite (b64_le_is a x qa qx Ha Hx), (b64_le_is x b qx qb Hx Hb), (b64_lt_is x a qx qa Hx Ha).
  destruct (Qle_bool qa qx && Qle_bool qx qb) eqn:In.
  { split; [exact Hx|]. intros (w & X & S & E & Ex & Ea & Eb & B & Hw) q [= <-]. exists (X - S), w. split; [split; [lia|lia]|]. rewrite Ex, Ea, dy_sub. reflexivity. }
  destruct p; [|split; [reflexivity|discriminate]].
  assert (aligned3 qx qa qb) as (w & X & S & E & Ex & Ea & Eb & B & Hw).
  { destruct Hc as [H|[[H1 H2]|H]]; [discriminate| |assumption]. rewrite (proj2 (qle_iff _ _) H1), (proj2 (qle_iff _ _) H2) in In. discriminate. }
  assert (S < E) as HSE by (apply (dy_lt S E w); rewrite <- Ea, <- Eb; assumption).
  assert (ql == dy (E - S) w)%Q as El' by (rewrite El, Ea, Eb, dy_sub; reflexivity). assert (0 < ql)%Q as Pl by lra.
  destruct (Qle_bool qa qx) eqn:Lo; cbn [negb lift2 andb] in *.
  - (* above *)
    assert (qb < qx)%Q as Hgt by (apply Qnot_le_lt; intros H; apply qle_iff in H; congruence).
    assert (E < X) as HEX by (apply (dy_lt E X w); rewrite <- Ex, <- Eb; assumption).
    rewrite (div_some _ _ Pl). cbn [exact ceil lift2 agree].
    assert (is (SFsub 53 1024 x b) (qx - qb)) as I1. { apply sub_exact; [assumption|assumption|]. exists (X - E), w. split; [split; [lia|lia]|]. rewrite Ex, Eb, dy_sub. reflexivity. }
    destruct (div_ceil _ _ _ _ (X - E) (E - S) w I1 Hl) as [I2 Bc]; [rewrite Ex, Eb, dy_sub; reflexivity|assumption|lia|lia|]. set (n := Qceiling ((qx - qb) / ql)) in *.
    assert (is (SFmul 53 1024 l (b64_ceil (SFdiv 53 1024 (SFsub 53 1024 x b) l))) (ql * inject_Z n)) as I3.
    { apply mul_exact; [assumption|assumption|]. exists (n * (E - S)), w. split; [split; [lia|lia]|]. rewrite El'. unfold dy. rewrite inject_Z_mult. ring. }
    assert (ql * inject_Z n == dy (n * (E - S)) w)%Q as En by (rewrite El'; unfold dy; rewrite inject_Z_mult; ring).
    split.
    + apply sub_exact; [assumption|assumption|]. exists (X - n * (E - S)), w. split; [split; [lia|lia]|]. rewrite En, Ex, dy_sub. reflexivity.
    + intros _ q [= <-]. exists (X - n * (E - S) - S), w. split; [split; [lia|lia]|]. rewrite En, Ex, Ea, !dy_sub. reflexivity.
  - (* below *)
    assert (qx < qa)%Q as Hlt by (apply Qnot_le_lt; intros H; apply qle_iff in H; congruence).
    assert (X < S) as HXS by (apply (dy_lt X S w); rewrite <- Ex, <- Ea; assumption).
    rewrite (div_some _ _ Pl). cbn [exact ceil lift2 agree].
    assert (is (SFsub 53 1024 a x) (qa - qx)) as I1. { apply sub_exact; [assumption|assumption|]. exists (S - X), w. split; [split; [lia|lia]|]. rewrite Ex, Ea, dy_sub. reflexivity. }
    destruct (div_ceil _ _ _ _ (S - X) (E - S) w I1 Hl) as [I2 Bc]; [rewrite Ex, Ea, dy_sub; reflexivity|assumption|lia|lia|]. set (n := Qceiling ((qa - qx) / ql)) in *.
    assert (ql * inject_Z n == dy (n * (E - S)) w)%Q as En by (rewrite El'; unfold dy; rewrite inject_Z_mult; ring).
    assert (is (SFmul 53 1024 l (b64_ceil (SFdiv 53 1024 (SFsub 53 1024 a x) l))) (ql * inject_Z n)) as I3.
    { apply mul_exact; [assumption|assumption|]. exists (n * (E - S)), w. split; [split; [lia|lia]|assumption]. }
    split.
    + apply add_exact; [assumption|assumption|]. exists (X + n * (E - S)), w. split; [split; [lia|lia]|]. rewrite En, Ex, dy_plus. reflexivity.
    + intros _ q [= <-]. exists (X + n * (E - S) - S), w. split; [split; [lia|lia]|]. rewrite En, Ex, Ea, dy_sub, dy_plus. reflexivity.
Qed.

Lemma aligned3_eq x a b x' a' b' : (x == x')%Q -> (a == a')%Q -> (b == b')%Q -> aligned3 x a b -> aligned3 x' a' b'.
Proof. intros E1 E2 E3 (w & X & S & E & Ex & Ea & Eb & B). exists w, X, S, E. rewrite <- E1, <- E2, <- E3. auto. Qed.

(** get_real_coordinate: doubles that are not rounded give the result of exact arithmetic *)
Lemma wrap_same a b l x p qa qb ql : is a qa -> is b qb -> is l ql -> (qa < qb)%Q -> (ql == qb - qa)%Q -> unrounded a b p x ->
  agree (wrap_with qa qb ql (real_of x) p) (wrap64 a b l x p) /\
  (forall q, wrap_with qa qb ql (real_of x) p = Some q -> fits (q - qa) /\ (qa <= q)%Q /\ (q <= qb)%Q).
Proof.
  intros Ha Hb Hl Hab El Hu. assert (forall q, wrap_with qa qb ql (real_of x) p = Some q -> (qa <= q)%Q /\ (q <= qb)%Q) as In.
  { intros q E. pose proof (wrap_with_wraps qa qb ql (real_of x) p Hab El) as Wr. rewrite E in Wr. apply (wraps_inside qa qb q p (real_of x) Hab Wr). }
  assert (agree (wrap_with qa qb ql (real_of x) p) (wrap64 a b l x p) /\ (forall q, wrap_with qa qb ql (real_of x) p = Some q -> fits (q - qa))) as [A B]; [|split; [assumption|]; intros q E; split; auto].
  clear In. destruct Hu as [N|(qx & qa' & qb' & Hx & Ha' & Hb' & Hc)].
  - rewrite N. assert (wrap_with qa qb ql None p = None) as E by (unfold wrap_with; cbn [exact_le exact_lt andb lift2]; destruct p; reflexivity). rewrite E. split; [|discriminate]. cbn [agree].
    destruct x as [s|s| |s q e]; try discriminate; [apply (inf_wrap a b l qa qb ql p s); [assumption|assumption|assumption|lra]|apply nan_wrap].
  - destruct (is_real x qx Hx) as (qx' & Er & Ex & Hx'). rewrite Er. pose proof (is_unique _ _ _ Ha' Ha) as Ea. pose proof (is_unique _ _ _ Hb' Hb) as Eb.
    assert (p = false \/ ((qa <= qx')%Q /\ (qx' <= qb)%Q) \/ aligned3 qx' qa qb) as Hc'.
    { destruct Hc as [(H1 & H2 & _)|[[H _]|H]]; [right; left; split; lra|left; assumption|right; right; apply (aligned3_eq qx qa' qb'); try assumption; symmetry; assumption]. }
    destruct (wrap_finite a b l x p qa qb ql qx' Ha Hb Hl Hx' Hab El Hc') as [A F]. split; [assumption|]. intros q E.
    destruct Hc as [(H1 & H2 & H3)|[[H1 H2]|H]].
    + unfold wrap_with in E. cbn [exact_le] in E. rewrite (proj2 (qle_iff qa qx')), (proj2 (qle_iff qx' qb)) in E by lra. cbn [andb] in E. injection E as <-. apply (fits_eq (qx - qa')); [rewrite Ea, Ex; reflexivity|assumption].
    + exfalso. unfold wrap_with in E. cbn [exact_le] in E. destruct (Qle_bool qa qx' && Qle_bool qx' qb) eqn:B; [|rewrite H1 in E; discriminate]. apply H2. apply andb_prop in B. rewrite !qle_iff in B. split; lra.
    + apply F; [|assumption]. apply (aligned3_eq qx qa' qb'); try assumption; symmetry; assumption.
Qed.

(** the index of a coordinate: floor of the number of smallest cells from the start of the grid *)
Lemma index_floor y a h q s q' L w T : is y q -> is a s -> is h q' -> (q' == dy L w)%Q -> 0 < L -> fits (q - s) -> (s <= q)%Q -> (q - s <= dy T w)%Q -> T < 2 ^ 53 ->
  b64_floor (SFdiv 53 1024 (SFsub 53 1024 y a) h) = Qfloor ((q - s) / q').
Proof.
  intros Hy Ha Hh Eq' PL Fp Lo Hi HT. pose proof (sub_exact y a q s Hy Ha Fp) as Ip. set (p := (q - s)%Q) in *. assert (0 <= p)%Q as P0 by (unfold p; lra).
  assert (0 < q')%Q as Pq' by (rewrite Eq'; destruct L; try lia; apply dy_pos). destruct Fp as (n & e & [Bn Be] & En).
  assert (0 <= n) as Pn. { destruct (Z_le_gt_dec 0 n); [assumption|]. exfalso. assert (dy n e < dy 0 e)%Q as C by (apply dy_lt; lia). unfold dy at 2 in C. rewrite Qmult_0_l in C. lra. }
  assert (exists N D, 0 <= N < 2 ^ 53 /\ 0 < D /\ (p * inject_Z D == inject_Z N * q')%Q) as (N & D & HN & HD & E).
  { destruct (Z_le_gt_dec w e) as [H|H].
    - exists (n * 2 ^ (e - w)), L. split; [|split; [assumption|]].
      + pose proof (Z.pow_pos_nonneg 2 (e - w) ltac:(lia) ltac:(lia)). split; [nia|]. assert (n * 2 ^ (e - w) <= T); [|lia]. apply (dy_le _ _ w). rewrite <- dy_shift by assumption. rewrite <- En. assumption.
      + rewrite En, Eq', (dy_shift n w e) by assumption. unfold dy. ring.
    - exists n, (L * 2 ^ (w - e)). pose proof (Z.pow_pos_nonneg 2 (w - e) ltac:(lia) ltac:(lia)). split; [lia|]. split; [nia|].
      rewrite En, Eq', (dy_shift L e w) by lia. unfold dy. ring. }
  destruct (div_floor _ _ p q' N D Ip Hh P0 Pq' HN HD E) as (v & Iv & V1 & V2 & _). rewrite (b64_floor_is _ _ Iv). rewrite (qfloor_unique v (N / D) V1 V2). symmetry.
  assert (0 < inject_Z D)%Q as PD by (change 0%Q with (inject_Z 0); rewrite <- Zlt_Qlt; assumption). assert (p / q' * inject_Z D == inject_Z N)%Q as Er.
  { apply (qmul_reg _ _ q' Pq'). rewrite <- E. field. lra. }
  pose proof (Z.div_mod N D ltac:(lia)). pose proof (Z.mod_pos_bound N D HD).
  apply qfloor_unique; [apply (cancel_le _ _ _ PD)|apply (cancel_lt _ _ _ PD)]; rewrite Er, <- inject_Z_mult; [rewrite <- Zle_Qle|rewrite <- Zlt_Qlt]; nia.
Qed.
Lemma Qfloor_eq a b : (a == b)%Q -> Qfloor a = Qfloor b.
Proof. intros E. rewrite E. reflexivity. Qed.

Section CartesianCell.
Context (m : mapping) (t : topo) (g : cartesian binary64) (Hwf : wf m) (Hg : dyadic m g).
Notation e := (exact_of g).
Lemma ends k : exists s h b S L u, is (ca_start g k) s /\ is (ca_length0 g k) h /\ is (ca_end binary64 m g k) b /\ real_of (ca_start g k) = Some s /\ real_of (ca_length0 g k) = Some h /\
  ca_end exact m e k = Some b /\ (s == dy S u)%Q /\ (h == dy L u)%Q /\ (b == dy (S + mlen m k * L) u)%Q /\ 0 < L /\ (Z.abs S + mlen m k * L) * 2 ^ (m_max m + 1) < 2 ^ 52 /\ m_max m - 1000 <= u <= 900.
Proof.
  destruct (params m g Hg k) as (s & h & S & L & u & Hs & Hh & Es & Eh & Qs & Qh & PL & HB & Hu).
  assert (lat u (Z.abs S) s) as Ls by exact (lat_eq _ _ _ _ (Qeq_sym _ _ Qs) (lat_dy S u)).
  assert (lat u L h) as Lh by (rewrite <- (Z.abs_eq L) at 1 by lia; exact (lat_eq _ _ _ _ (Qeq_sym _ _ Qh) (lat_dy L u))).
  pose proof (end_is m g Hwf k s h S L u Hs Hh Es Eh Ls Lh PL HB Hu) as Ie.
  exists s, h, (val (ca_end exact m e k)), S, L, u. destruct (ca_end_eq m e Hwf (finite_of m g Hg) k) as [Ee _]. rewrite Ee in Ie. cbn [agree] in Ie.
  assert (val (ca_end exact m e k) == dy (S + mlen m k * L) u)%Q as Qe.
  { unfold ca_end. cbn [exact exact_of add mul of_u64 ca_start ca_length0]. rewrite Es, Eh. cbn [lift2 val]. rewrite Qs, Qh, dy_plus. unfold dy. rewrite inject_Z_mult. ring. }
  split; [assumption|]. split; [assumption|]. split; [assumption|]. split; [assumption|]. split; [assumption|]. split; [assumption|]. tauto.
Qed.
(** grid length: end - start *)
Lemma length_of_grid k s b S L u : is (ca_start g k) s -> is (ca_end binary64 m g k) b -> (s == dy S u)%Q -> (b == dy (S + mlen m k * L) u)%Q -> 0 < L ->
  (Z.abs S + mlen m k * L) * 2 ^ (m_max m + 1) < 2 ^ 52 -> m_max m - 1000 <= u <= 900 -> is (SFsub 53 1024 (ca_end binary64 m g k) (ca_start g k)) (b - s) /\ (s < b)%Q.
Proof.
  intros Hs Hb Es Eb PL HB Hu. pose proof (mlen_pos m Hwf k) as Pm. pose proof (wf_max_le_21 m Hwf) as H21. pose proof (Z.pow_pos_nonneg 2 (m_max m + 1) ltac:(lia) ltac:(lia)) as PM.
  assert (0 < mlen m k * L) by (apply Z.mul_pos_pos; assumption). split.
  - apply sub_exact; [assumption|assumption|]. exists (mlen m k * L), u. split; [split; [nia|lia]|]. rewrite Es, Eb, dy_plus. ring.
  - rewrite Es, Eb. apply dy_lt. lia.
Qed.
Lemma real_coordinate_same x k : unrounded (ca_start g k) (ca_end binary64 m g k) (per t k) (x k) ->
  agree (ca_real_coordinate exact m t e (fun k => real_of (x k)) k) (ca_real_coordinate binary64 m t g x k) /\
  forall q, ca_real_coordinate exact m t e (fun k => real_of (x k)) k = Some q -> exists s b, is (ca_start g k) s /\ is (ca_end binary64 m g k) b /\ fits (q - s) /\ (s <= q)%Q /\ (q <= b)%Q.
Proof.
  intros Hu. destruct (ends k) as (s & h & b & S & L & u & Hs & Hh & Hb & Es & Eh & Ee & Qs & Qh & Qb & PL & HB & Hr). destruct (length_of_grid k s b S L u Hs Hb Qs Qb PL HB Hr) as [Il Lt].
  unfold ca_real_coordinate. cbn [exact_of ca_start ca_length0]. rewrite Es. fold e. rewrite Ee.
  change (real_coordinate exact (Some s) (Some b) (real_of (x k)) (per t k)) with (wrap_with s b (b - s) (real_of (x k)) (per t k)).
  change (real_coordinate binary64 (ca_start g k) (ca_end binary64 m g k) (x k) (per t k)) with (wrap64 (ca_start g k) (ca_end binary64 m g k) (SFsub 53 1024 (ca_end binary64 m g k) (ca_start g k)) (x k) (per t k)).
  destruct (wrap_same _ _ _ _ (per t k) s b (b - s) Hs Hb Il Lt (Qeq_refl _) Hu) as [A B]. split; [exact A|]. intros q E. destruct (B q E) as (B1 & B2 & B3). exists s, b. auto.
Qed.
Lemma get_vmap f k : get (vmap f) k = f k.
Proof. destruct k; reflexivity. Qed.
Lemma index_same x k : unrounded (ca_start g k) (ca_end binary64 m g k) (per t k) (x k) ->
  get (ca_indices exact m t e (fun k => real_of (x k))) k = get (ca_indices binary64 m t g x) k.
Proof.
  intros Hu. destruct (real_coordinate_same x k Hu) as [A B]. destruct (ends k) as (s & h & b & S & L & u & Hs & Hh & Hb & Es & Eh & Ee & Qs & Qh & Qb & PL & HB & Hr).
  unfold ca_indices. rewrite !get_vmap. cbv zeta. set (y := ca_real_coordinate exact m t e (fun k => real_of (x k)) k) in *. set (y' := ca_real_coordinate binary64 m t g x k) in *. clearbody y y'.
  cbn [exact_of ca_start ca_length0]. rewrite Es, Eh. fold e. rewrite Ee. destruct y as [q|]; cbn [agree] in A.
  2:{ rewrite A. cbn [exact le exact_le andb binary64]. assert (forall z, b64_le z S754_nan = false) as N by (intros [| | |]; reflexivity). rewrite N. reflexivity. }
  destruct (B q eq_refl) as (s' & b' & Hs' & Hb' & F & L1 & L2). pose proof (is_unique _ _ _ Hs' Hs) as Q1. pose proof (is_unique _ _ _ Hb' Hb) as Q2.
  cbn [exact binary64 le exact_le floor_u64 sub div of_u64 lift2]. rewrite (b64_le_is _ _ _ _ Hs A), (b64_le_is _ _ _ _ A Hb). rewrite (proj2 (qle_iff s q)), (proj2 (qle_iff q b)) by lra. cbn [andb].
  pose proof (wf_max_le_21 m Hwf) as H21. rewrite (proj1 (max_shift m Hwf)). rewrite (div_some _ _ (pow_q (m_max m) ltac:(lia))).
  pose proof (Z.pow_pos_nonneg 2 (m_max m) ltac:(lia) ltac:(lia)) as PM. rewrite Z.pow_add_r in HB by lia. change (2 ^ 1) with 2 in HB. pose proof (mlen_pos m Hwf k) as Pm. assert (L <= mlen m k * L) as LL by nia.
  assert (h / inject_Z (2 ^ m_max m) == dy L (u - m_max m))%Q as Qw.
  { rewrite Qh. unfold dy. replace u with ((u - m_max m) + m_max m) at 1 by lia. rewrite two_plus, (two_Z (m_max m)) by lia. pose proof (pow_q (m_max m) ltac:(lia)). field. lra. }
  assert (0 < h / inject_Z (2 ^ m_max m))%Q as Pw by (rewrite Qw; destruct L; try lia; apply dy_pos). rewrite (div_some _ _ Pw). cbn [lift2]. f_equal. symmetry.
  apply (index_floor y' (ca_start g k) _ q s _ L (u - m_max m) (mlen m k * L * 2 ^ m_max m)); try assumption.
  - apply div_pow; [assumption|lia|]. exists L, (u - m_max m). split; [split; [nia|lia]|assumption].
  - apply (fits_eq (q - s')); [rewrite Q1; reflexivity|assumption].
  - lra.
  - assert (dy (mlen m k * L * 2 ^ m_max m) (u - m_max m) == dy (mlen m k * L) u)%Q as -> by (rewrite (dy_shift _ (u - m_max m) u) by lia; replace (u - (u - m_max m)) with (m_max m) by lia; reflexivity). apply Qle_trans with (b - s)%Q; [lra|]. rewrite Qb, Qs, dy_plus. lra.
  - nia.
Qed.
Lemma cell_same l x : (forall k, unrounded (ca_start g k) (ca_end binary64 m g k) (per t k) (x k)) ->
  ca_cell binary64 m t g l x = ca_cell exact m t e l (fun k => real_of (x k)).
Proof.
  intros Hu. unfold ca_cell. destruct (level_outside m l); [reflexivity|]. f_equal.
  assert (forall i j : idx, (forall k, get i k = get j k) -> i = j) as Ext by (intros [a b c] [a' b' c'] H; pose proof (H DX) as H1; pose proof (H DY) as H2; pose proof (H DZ) as H3; unfold get in H1, H2, H3; cbn in H1, H2, H3; congruence).
  apply Ext. intros k. symmetry. apply index_same, Hu.
Qed.
End CartesianCell.

Section NoCell.
Context (m : mapping) (t : topo) (Hwf : wf m) (Hm : countable m).
Lemma no_unrounded k x q : is x q -> (0 <= q)%Q -> (q <= inject_Z (mlen m k))%Q -> unrounded (no_start binary64 k) (no_end binary64 m k) (per t k) x.
Proof.
  intros Hx L1 L2. right. exists q, 0%Q, (inject_Z (mlen m k)). split; [assumption|]. split; [apply no_start_is|]. split; [apply no_end_is; assumption|]. left. split; [assumption|]. split; [assumption|].
  apply (fits_eq q); [ring|apply (is_fits x q Hx)].
Qed.
Lemma no_real_coordinate_same x k : unrounded (no_start binary64 k) (no_end binary64 m k) (per t k) (x k) ->
  agree (no_real_coordinate exact m t (fun k => real_of (x k)) k) (no_real_coordinate binary64 m t x k) /\
  forall q, no_real_coordinate exact m t (fun k => real_of (x k)) k = Some q -> (0 <= q)%Q /\ (q <= inject_Z (mlen m k))%Q.
Proof.
  intros Hu. pose proof (mlen_pos m Hwf k) as Pm. assert (0 < inject_Z (mlen m k))%Q as Pq by (change 0%Q with (inject_Z 0); rewrite <- Zlt_Qlt; assumption).
  destruct (wrap_same (no_start binary64 k) (no_end binary64 m k) (no_end binary64 m k) (x k) (per t k) 0 (inject_Z (mlen m k)) (inject_Z (mlen m k)) (no_start_is k) (no_end_is m Hwf Hm k) (no_end_is m Hwf Hm k) Pq ltac:(ring) Hu) as [A B].
  split; [exact A|]. intros q E. apply (B q E).
Qed.
Lemma mul_pow_fits q n k : fits q -> (0 <= q)%Q -> (q <= inject_Z n)%Q -> n < 2 ^ 52 -> 0 <= k <= 100 -> fits (q * inject_Z (2 ^ k)).
Proof.
  intros (c & e & [Bc Be] & Eq) L1 L2 Hn Hk. destruct (Z.eq_dec c 0) as [->|Nc].
  - exists 0, 0. split; [split; [reflexivity|lia]|]. rewrite Eq. unfold dy. ring.
  - assert (0 < c) as Pc. { destruct (Z_le_gt_dec 0 c); [lia|]. exfalso. assert (dy c e < dy 0 e)%Q as C by (apply dy_lt; lia). unfold dy at 2 in C. rewrite Qmult_0_l in C. lra. }
    assert (e <= 52) as He. { destruct (Z_le_gt_dec e 52); [assumption|]. exfalso. assert (dy (2 ^ 52) 0 <= dy c e)%Q as C. { rewrite (dy_shift c 0 e) by lia. apply dy_le. assert (2 ^ 52 <= 2 ^ (e - 0)) by (apply Z.pow_le_mono_r; lia). nia. }
      rewrite <- Eq, dy_Z in C. assert (inject_Z n < inject_Z (2 ^ 52))%Q by (rewrite <- Zlt_Qlt; assumption). lra. }
    exists c, (e + k). split; [split; [assumption|lia]|]. rewrite Eq. unfold dy. rewrite two_plus, (two_Z k) by lia. ring.
Qed.
Lemma no_index_same x k : unrounded (no_start binary64 k) (no_end binary64 m k) (per t k) (x k) ->
  get (no_indices exact m t (fun k => real_of (x k))) k = get (no_indices binary64 m t x) k.
Proof.
  intros Hu. destruct (no_real_coordinate_same x k Hu) as [A B]. unfold no_indices. rewrite !get_vmap. cbv zeta.
  set (y := no_real_coordinate exact m t (fun k => real_of (x k)) k) in *. set (y' := no_real_coordinate binary64 m t x k) in *. clearbody y y'. pose proof (no_end_is m Hwf Hm k) as Ie. destruct (no_sizes m Hwf Hm k) as (M1 & H21 & Pm & Bm).
  unfold no_end in *. cbn [exact binary64 le of_u64 floor_u64 mul] in *. destruct y as [q|]; cbn [agree] in A.
  2:{ rewrite A. cbn [exact_le andb]. assert (forall z, b64_le z S754_nan = false) as N by (intros [| | |]; reflexivity). rewrite N. reflexivity. }
  destruct (B q eq_refl) as [L1 L2]. cbn [exact_le lift2]. assert (is (b64_of_Z 0) (inject_Z 0)) as I0 by reflexivity. rewrite (b64_le_is _ _ _ _ I0 A), (b64_le_is _ _ _ _ A Ie). rewrite (proj2 (qle_iff (inject_Z 0) q)), (proj2 (qle_iff q _)) by assumption. cbn [andb].
  rewrite (proj1 (max_shift m Hwf)). rewrite (b64_floor_is _ (q * inject_Z (2 ^ m_max m))); [reflexivity|]. apply mul_exact; [assumption|apply of_Z_pow; lia|]. apply (mul_pow_fits q (mlen m k)); [apply (is_fits y' q A)|assumption|assumption|nia|lia].
Qed.
Lemma no_cell_same l x : (forall k, unrounded (no_start binary64 k) (no_end binary64 m k) (per t k) (x k)) ->
  no_cell binary64 m t l x = no_cell exact m t l (fun k => real_of (x k)).
Proof.
  intros Hu. unfold no_cell. destruct (level_outside m l); [reflexivity|]. f_equal.
  assert (forall i j : idx, (forall k, get i k = get j k) -> i = j) as Ext by (intros [a b c] [a' b' c'] H; pose proof (H DX) as H1; pose proof (H DY) as H2; pose proof (H DZ) as H3; unfold get in H1, H2, H3; cbn in H1, H2, H3; congruence).
  apply Ext. intros k. symmetry. apply no_index_same, Hu.
Qed.
End NoCell.
