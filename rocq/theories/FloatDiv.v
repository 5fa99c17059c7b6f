(** Floor, ceiling and comparison of 64 bit floating point numbers, and the floor of a quotient.  *)
From Coq Require Import QArith Qround Floats.SpecFloat Lqa.
From Verif Require Import U64 GeoModel FloatBase.
Open Scope Z_scope.

Lemma qfloor_unique q n : (inject_Z n <= q)%Q -> (q < inject_Z (n + 1))%Q -> Qfloor q = n.
Proof.
  intros A B. pose proof (Qfloor_le q) as C. pose proof (Qlt_floor q) as D.
  assert (inject_Z (Qfloor q) < inject_Z (n + 1))%Q as E by lra. assert (inject_Z n < inject_Z (Qfloor q + 1))%Q as F by lra. rewrite <- Zlt_Qlt in E, F. lia.
Qed.
Lemma qceil_unique q n : (inject_Z (n - 1) < q)%Q -> (q <= inject_Z n)%Q -> Qceiling q = n.
Proof.
  intros A B. pose proof (Qle_ceiling q) as C. pose proof (Qceiling_lt q) as D.
  assert (inject_Z (n - 1) < inject_Z (Qceiling q))%Q as E by lra. assert (inject_Z (Qceiling q - 1) < inject_Z n)%Q as F by lra. rewrite <- Zlt_Qlt in E, F. lia.
Qed.
Lemma floor_div n k : 0 <= k -> Qfloor (dy n (- k)) = n / 2 ^ k.
Proof.
  intros Hk. pose proof (Z.pow_pos_nonneg 2 k ltac:(lia) Hk) as P. pose proof (Z.div_mod n (2 ^ k) ltac:(lia)) as D. pose proof (Z.mod_pos_bound n (2 ^ k) P) as M.
  assert (forall z, (inject_Z z == dy (z * 2 ^ k) (- k))%Q) as Ez. { intros z. rewrite <- dy_Z, (dy_shift z (- k) 0) by lia. replace (0 - - k) with k by lia. reflexivity. }
  apply qfloor_unique; rewrite Ez; [apply dy_le|apply dy_lt]; nia.
Qed.
Lemma floor_int n e : 0 <= e -> Qfloor (dy n e) = n * 2 ^ e.
Proof.
  intros He. assert (dy n e == inject_Z (n * 2 ^ e))%Q as E by (unfold dy; rewrite (two_Z e He), inject_Z_mult; reflexivity). rewrite E. apply Qfloor_Z.
Qed.
Lemma sign_Z (s : bool) p : (if s then Zneg p else Zpos p) = cond_Zopp s (Zpos p).
Proof. destruct s; reflexivity. Qed.
Lemma b64_floor_is x q : is x q -> b64_floor x = Qfloor q.
Proof.
  destruct x as [s| | |s p e]; try contradiction; cbn [is b64_floor].
  - intros ->. reflexivity.
  - intros [_ ->]. rewrite sign_Z. destruct (Z.leb_spec 0 e) as [H|H]; [rewrite floor_int by lia; reflexivity|]. rewrite <- floor_div by lia. rewrite Z.opp_involutive. reflexivity.
Qed.
Lemma fits_int n : Z.abs n < 2 ^ 53 -> fits (inject_Z n).
Proof. intros H. exists n, 0. split; [split; [assumption|lia]|]. symmetry. apply dy_Z. Qed.
Lemma of_Z_is n : fits (inject_Z n) -> is (b64_of_Z n) (inject_Z n).
Proof. intros H. apply normalize_exact; [assumption|]. symmetry. apply dy_Z. Qed.
Lemma fits_pow k : 0 <= k <= 971 -> fits (inject_Z (2 ^ k)).
Proof. intros H. exists 1, k. split; [split; [cbn; lia|lia]|]. unfold dy. rewrite (two_Z k) by lia. change (inject_Z 1) with 1%Q. ring. Qed.
Lemma bnd_digits p e : bnd p e = true -> Zpos p < 2 ^ 53.
Proof.
  intros B. apply bnd_iff in B. pose proof (dig_spec p) as [_ D]. apply Z.lt_le_trans with (1 := D). apply Z.pow_le_mono_r; lia.
Qed.
Lemma b64_ceil_is x q : is x q -> is (b64_ceil x) (inject_Z (Qceiling q)).
Proof.
  destruct x as [s| | |s p e]; try contradiction; cbn [is b64_ceil].
  - intros E. rewrite E. reflexivity.
  - intros [B E]. unfold Qceiling. assert (Qfloor (- q) = - Qceiling q) as _ by (unfold Qceiling; lia).
    destruct (Z.leb_spec 0 e) as [H|H].
    + cbn [is]. split; [assumption|]. rewrite E, <- dy_opp, (floor_int _ e H). unfold dy. rewrite (two_Z e H), <- inject_Z_mult. apply inject_Z_injective. lia.
    + assert (Qfloor (- q) = (if s then Zpos p else Zneg p) / 2 ^ (- e)) as ->.
      { rewrite E, <- dy_opp, <- floor_div by lia. rewrite Z.opp_involutive. destruct s; reflexivity. }
      apply of_Z_is, fits_int. pose proof (bnd_digits p e B) as D. pose proof (Z.pow_pos_nonneg 2 (- e) ltac:(lia) ltac:(lia)) as P.
      assert (2 <= 2 ^ (- e)) as P2 by (change 2 with (2 ^ 1) at 1; apply Z.pow_le_mono_r; lia). set (n := if s then Zpos p else Zneg p).
      assert (Z.abs n < 2 ^ 53) as Ln by (unfold n; destruct s; lia). pose proof (Z.div_mod n (2 ^ (- e)) ltac:(lia)) as Dm. pose proof (Z.mod_pos_bound n (2 ^ (- e)) P) as Mb. set (z := n / 2 ^ (- e)) in *. nia.
Qed.
Lemma b64_le_is x y p q : is x p -> is y q -> b64_le x y = Qle_bool p q.
Proof.
  intros Hx Hy. unfold b64_le. rewrite (compare_exact x y p q Hx Hy). destruct (Qle_bool p q) eqn:E.
  - apply Qle_bool_iff in E. destruct (p ?= q)%Q eqn:C; [reflexivity|reflexivity|apply Qgt_alt in C; lra].
  - destruct (p ?= q)%Q eqn:C; [| |reflexivity]; exfalso; apply Bool.not_true_iff_false in E; apply E, Qle_bool_iff, Qle_alt; rewrite C; discriminate.
Qed.
Lemma b64_lt_is x y p q : is x p -> is y q -> b64_lt x y = negb (Qle_bool q p).
Proof.
  intros Hx Hy. unfold b64_lt. rewrite (compare_exact x y p q Hx Hy). destruct (Qle_bool q p) eqn:E; cbn [negb].
  - apply Qle_bool_iff in E. destruct (p ?= q)%Q eqn:C; [reflexivity| |reflexivity]. apply Qlt_alt in C. lra.
  - destruct (p ?= q)%Q eqn:C; [|reflexivity|]; exfalso; apply Bool.not_true_iff_false in E; apply E, Qle_bool_iff; [apply Qeq_alt in C; lra|apply Qgt_alt in C; lra].
Qed.

Lemma cancel_lt a b c : (0 < c)%Q -> (a * c < b * c)%Q -> (a < b)%Q.
Proof. intros H. apply Qmult_lt_r. assumption. Qed.
Lemma cancel_le a b c : (0 < c)%Q -> (a * c <= b * c)%Q -> (a <= b)%Q.
Proof. intros H. apply Qmult_le_r. assumption. Qed.
Lemma mul_lt a b c : (0 < c)%Q -> (a < b)%Q -> (a * c < b * c)%Q.
Proof. intros H. apply Qmult_lt_r. assumption. Qed.
Lemma mul_le a b c : (0 < c)%Q -> (a <= b)%Q -> (a * c <= b * c)%Q.
Proof. intros H. apply Qmult_le_r. assumption. Qed.
Lemma mul_grow n q c d : (0 < q -> 0 < n -> n < c -> 1 <= d -> n * q < c * q * d)%Q.
Proof.
  intros. assert (0 < c)%Q by lra. assert (0 < c * q)%Q by (apply Qmult_lt_0_compat; assumption). assert (n * q < c * q)%Q by (apply mul_lt; assumption).
  assert (0 <= c * q * (d - 1))%Q by (apply Qmult_le_0_compat; lra). lra.
Qed.

(** the quotient N / D of two numbers, where N < 2^53: rounding does not cross an integer *)
Theorem div_floor x y p q N D : is x p -> is y q -> (0 <= p)%Q -> (0 < q)%Q -> 0 <= N < 2 ^ 53 -> 0 < D -> (p * inject_Z D == inject_Z N * q)%Q ->
  exists v, is (SFdiv 53 1024 x y) v /\ (inject_Z (N / D) <= v)%Q /\ (v < inject_Z (N / D + 1))%Q /\
    (N mod D = 0 -> (v == inject_Z (N / D))%Q) /\ (N mod D <> 0 -> (two (- 1000) * q <= p)%Q -> (inject_Z (N / D) < v)%Q).
Proof.
  intros Hx Hy Pp Pq HN HD Er. pose proof (Z.div_mod N D ltac:(lia)) as Dm. pose proof (Z.mod_pos_bound N D HD) as Mb. set (K := N / D) in *. set (r := N mod D) in *.
  assert (0 <= K) as HK by (apply Z.div_pos; lia). assert (K <= N) as HKN by nia.
  assert (0 < inject_Z D)%Q as PD by (change 0%Q with (inject_Z 0); rewrite <- Zlt_Qlt; assumption).
  destruct (Z.eq_dec r 0) as [R0|R0].
  - assert (p == inject_Z K * q)%Q as Ep. { apply (qmul_reg _ _ (inject_Z D) PD). rewrite Er, Dm, R0, Z.add_0_r, inject_Z_mult. ring. }
    assert (is (SFdiv 53 1024 x y) (inject_Z K)) as I by (apply (div_exact x y p q); [assumption|assumption|lra|assumption|apply fits_int; lia]).
    exists (inject_Z K). split; [assumption|]. split; [apply Qle_refl|]. split; [rewrite <- Zlt_Qlt; lia|]. split; [reflexivity|contradiction].
  - assert (0 < N) as PN by lia. assert (0 < inject_Z N)%Q as PNq by (change 0%Q with (inject_Z 0); rewrite <- Zlt_Qlt; assumption).
    assert (0 < p)%Q as Pp'. { apply (cancel_lt _ _ _ PD). rewrite Qmult_0_l, Er. apply Qmult_lt_0_compat; assumption. }
    assert (p < inject_Z (2 ^ 53) * q)%Q as Up. { apply (cancel_lt _ _ _ PD). rewrite Er. assert (inject_Z N < inject_Z (2 ^ 53))%Q by (rewrite <- Zlt_Qlt; lia). assert (1 <= inject_Z D)%Q by (change 1%Q with (inject_Z 1); rewrite <- Zle_Qle; lia). apply mul_grow; assumption. }
    assert (p <= two 1000 * q)%Q as Up'. { assert (inject_Z (2 ^ 53) <= two 1000)%Q as U by (rewrite two_Z by lia; rewrite <- Zle_Qle; apply Z.pow_le_mono_r; lia). apply (mul_le _ _ q Pq) in U. lra. }
    destruct (div_near x y p q Hx Hy Pp' Pq Up') as (M & E & v & Iv & HM & HM' & Lo & Hi & Hv).
    (* E <= 0 *)
    assert (E <= 0) as HE.
    { destruct HM' as [HM'|HM']; [|lia]. destruct (Z_le_gt_dec E 0) as [|G]; [assumption|]. exfalso. assert (dy M E * q < inject_Z (2 ^ 53) * q)%Q as C by lra. assert (inject_Z (2 ^ 53) <= dy M E)%Q as U; [|apply (mul_le _ _ q Pq) in U; lra].
      rewrite <- dy_Z, (dy_shift M 0 E) by lia. apply dy_le. replace (E - 0) with (1 + (E - 1)) by lia. rewrite Z.pow_add_r by lia. pose proof (Z.pow_pos_nonneg 2 (E - 1) ltac:(lia) ltac:(lia)). nia. }
    assert (forall z, (inject_Z z == dy (z * 2 ^ (- E)) E)%Q) as Ez. { intros z. rewrite <- dy_Z, (dy_shift z E 0) by lia. replace (0 - E) with (- E) by lia. reflexivity. }
    assert (inject_Z K * q <= p)%Q as LK. { apply (cancel_le _ _ _ PD). rewrite Er. assert (inject_Z (K * D) <= inject_Z N)%Q as U by (rewrite <- Zle_Qle; lia). rewrite inject_Z_mult in U. apply (mul_le _ _ q Pq) in U. lra. }
    assert (p < inject_Z (K + 1) * q)%Q as UK. { apply (cancel_lt _ _ _ PD). rewrite Er. assert (inject_Z N < inject_Z ((K + 1) * D))%Q as U by (rewrite <- Zlt_Qlt; lia). rewrite inject_Z_mult in U. apply (mul_lt _ _ q Pq) in U. lra. }
    assert (K * 2 ^ (- E) <= M) as KM. { assert (K * 2 ^ (- E) < M + 1); [|lia]. apply (dy_lt _ _ E). rewrite <- Ez. apply (cancel_lt _ _ _ Pq). lra. }
    assert (M + 1 <= (K + 1) * 2 ^ (- E)) as KM'. { assert (M < (K + 1) * 2 ^ (- E)); [|lia]. apply (dy_lt _ _ E). rewrite <- Ez. apply (cancel_lt _ _ _ Pq). lra. }
    assert (two (E - 1) + two (E - 1) == two E)%Q as EE. { replace E with (1 + (E - 1)) at 3 by lia. rewrite two_plus. change (two 1) with 2%Q. ring. }
    pose proof (two_pos (E - 1)) as PE1.
    (* an integer at the distance r / D from the quotient is not closer than half a unit *)
    assert (forall r', 0 < r' -> 2 ^ 52 <= M -> (two (E - 1) * q * inject_Z D < inject_Z r' * q)%Q) as Gap.
    { intros r' Hr' HM2. assert (two (E - 1) * inject_Z D < inject_Z r')%Q as U; [|apply (mul_lt _ _ q Pq) in U; lra].
      assert (dy M E * inject_Z D <= inject_Z N)%Q as U. { apply (cancel_le _ _ _ Pq). rewrite <- Er. apply (mul_le _ _ _ PD) in Lo. lra. }
      assert (dy (2 ^ 52) E <= dy M E)%Q as V by (apply dy_le; assumption). assert (dy (2 ^ 53) (E - 1) == dy (2 ^ 52) E)%Q as V2 by (unfold dy; rewrite <- EE; change (2 ^ 53) with (2 * 2 ^ 52); rewrite inject_Z_mult; change (inject_Z 2) with 2%Q; ring).
      assert (inject_Z N < inject_Z (2 ^ 53))%Q as V3 by (rewrite <- Zlt_Qlt; lia). assert (1 <= inject_Z r')%Q as V4 by (change 1%Q with (inject_Z 1); rewrite <- Zle_Qle; lia). apply (mul_le _ _ _ PD) in V. rewrite <- V2 in V. unfold dy in V, U.
      assert (0 < inject_Z (2 ^ 53))%Q as V6 by (change 0%Q with (inject_Z 0); rewrite <- Zlt_Qlt; reflexivity).
      apply Qlt_le_trans with 1%Q; [|assumption]. apply (cancel_lt _ _ _ V6). lra. }
    assert (p * inject_Z D - inject_Z K * q * inject_Z D == inject_Z r * q)%Q as Er1. { rewrite Er, Dm, inject_Z_plus, inject_Z_mult. ring. }
    assert (inject_Z (K + 1) * q * inject_Z D - p * inject_Z D == inject_Z (D - r) * q)%Q as Er2. { rewrite Er. assert (inject_Z (D - r) == inject_Z (K + 1) * inject_Z D - inject_Z N)%Q as ->; [|ring]. replace (D - r) with ((K + 1) * D + - N) by lia. rewrite (inject_Z_plus ((K + 1) * D)), inject_Z_opp, inject_Z_mult. ring. }
    exists v. split; [assumption|]. split; [|split; [|split; [contradiction|]]].
    + rewrite Ez. destruct Hv as [[-> _]|[-> _]]; apply dy_le; lia.
    + destruct Hv as [[Ev _]|[Ev Hd]]; [rewrite Ev, Ez; apply dy_lt; lia|]. rewrite Ev.
      destruct (Z.eq_dec (M + 1) ((K + 1) * 2 ^ (- E))) as [EQ|NE]; [|rewrite Ez; apply dy_lt; lia]. exfalso.
      destruct HM' as [HM'|HM'].
      * pose proof (Gap (D - r) ltac:(lia) HM') as G. rewrite EQ, <- Ez in Ev. rewrite Ev in Hd. apply (mul_le _ _ _ PD) in Hd. lra.
      * rewrite HM' in EQ. assert (2 ^ 1000 <= 2 ^ (- -1074)) as B1 by (apply Z.pow_le_mono_r; lia). assert (2 ^ 54 <= 2 ^ 1000) as B2 by (apply Z.pow_le_mono_r; lia). nia.
    + intros _ Lp. destruct Hv as [[Ev Hd]|[Ev _]]; [|rewrite Ev, Ez; apply dy_lt; lia]. rewrite Ev.
      destruct (Z.eq_dec (K * 2 ^ (- E)) M) as [EQ|NE]; [|rewrite Ez; apply dy_lt; lia]. exfalso.
      assert (2 ^ 52 <= M) as HM2.
      { destruct HM' as [HM'|HM']; [assumption|]. destruct (Z_le_gt_dec (2 ^ 52) M); [assumption|]. exfalso. assert (two (-1000) < dy (M + 1) E)%Q as C by (apply (cancel_lt _ _ _ Pq); lra). rewrite HM' in C.
        assert (dy (M + 1) (-1074) < two (-1000))%Q; [|lra]. assert (two (-1000) == dy (2 ^ 74) (-1074))%Q as -> by (unfold dy; rewrite <- (two_Z 74) by lia; rewrite <- two_plus; reflexivity). apply dy_lt. cbn; lia. }
      pose proof (Gap r ltac:(lia) HM2) as G. rewrite <- EQ, <- Ez in Ev. rewrite Ev in Hd. apply (mul_le _ _ _ PD) in Hd. lra.
Qed.
