(** When operations on 64 bit floating point numbers (SpecFloat of Coq's library with 53 bits) are exact. *)
From Coq Require Import ZArith QArith Qpower Floats.SpecFloat Lia Lqa.
From Verif Require Import U64 MapModel HoodModel GeoModel.
Open Scope Z_scope.

(** ** Numbers n 2^e *)
Definition two (e : Z) : Q := Qpower 2 e.
Definition dy (n e : Z) : Q := (inject_Z n * two e)%Q.
Lemma two_plus a b : (two (a + b) == two a * two b)%Q.
Proof. unfold two. apply Qpower_plus. intros H. discriminate. Qed.
Lemma two_Z e : 0 <= e -> (two e == inject_Z (2 ^ e))%Q.
Proof. intros H. unfold two. change 2%Q with (inject_Z 2). symmetry. apply Zpower_Qpower. assumption. Qed.
Lemma two_pos e : (0 < two e)%Q.
Proof.
  destruct (Z_le_gt_dec 0 e) as [H|H].
  - rewrite (two_Z e H). change 0%Q with (inject_Z 0). rewrite <- Zlt_Qlt. apply Z.pow_pos_nonneg; lia.
  - assert (two e * two (- e) == 1)%Q as E by (rewrite <- two_plus; replace (e + - e) with 0 by lia; reflexivity).
    assert (0 < two (- e))%Q as P. { rewrite (two_Z (- e)) by lia. change 0%Q with (inject_Z 0). rewrite <- Zlt_Qlt. apply Z.pow_pos_nonneg; lia. }
    nra.
Qed.
Lemma two_shift k e : k <= e -> (two e == inject_Z (2 ^ (e - k)) * two k)%Q.
Proof. intros H. replace e with ((e - k) + k) at 1 by lia. rewrite two_plus, (two_Z (e - k)) by lia. reflexivity. Qed.
Lemma dy_shift n k e : k <= e -> (dy n e == dy (n * 2 ^ (e - k)) k)%Q.
Proof. intros H. unfold dy. rewrite (two_shift k e H), inject_Z_mult. ring. Qed.
Lemma dy_inj a b k : (dy a k == dy b k)%Q -> a = b.
Proof.
  intros E. unfold dy in E. pose proof (two_pos k) as P. apply Qmult_inj_r in E; [|intros Q; rewrite Q in P; apply (Qlt_irrefl 0 P)]. apply inject_Z_injective. assumption.
Qed.
Lemma dy_eq a d b e k : k <= d -> k <= e -> (dy a d == dy b e)%Q <-> a * 2 ^ (d - k) = b * 2 ^ (e - k).
Proof. intros H1 H2. rewrite (dy_shift a k d H1), (dy_shift b k e H2). split; [apply dy_inj|intros ->; reflexivity]. Qed.
Lemma dy_cmp a b k : (dy a k ?= dy b k)%Q = (a ?= b).
Proof.
  unfold dy. pose proof (two_pos k) as P. destruct (Z.compare_spec a b) as [E|L|L].
  - subst. apply Qeq_alt. reflexivity.
  - apply -> Qlt_alt. apply Qmult_lt_compat_r; [assumption|]. rewrite <- Zlt_Qlt. assumption.
  - apply -> Qgt_alt. apply Qmult_lt_compat_r; [assumption|]. rewrite <- Zlt_Qlt. assumption.
Qed.
Lemma dy_le a b k : (dy a k <= dy b k)%Q <-> a <= b.
Proof. rewrite Qle_alt, dy_cmp. reflexivity. Qed.
Lemma dy_lt a b k : (dy a k < dy b k)%Q <-> a < b.
Proof. rewrite Qlt_alt, dy_cmp. reflexivity. Qed.
Lemma dy_plus a b e : (dy (a + b) e == dy a e + dy b e)%Q.
Proof. unfold dy. rewrite inject_Z_plus. ring. Qed.
Lemma dy_opp a e : (dy (- a) e == - dy a e)%Q.
Proof. unfold dy. rewrite inject_Z_opp. ring. Qed.
Lemma dy_mult a b d e : (dy (a * b) (d + e) == dy a d * dy b e)%Q.
Proof. unfold dy. rewrite inject_Z_mult, two_plus. ring. Qed.
Lemma dy_Z n : (dy n 0 == inject_Z n)%Q.
Proof. unfold dy. change (two 0) with 1%Q. ring. Qed.

(** ** Digits *)
Notation dig p := (Zpos (digits2_pos p)).
Lemma dig_pos p : 1 <= dig p.
Proof. lia. Qed.
Lemma dig_spec p : 2 ^ (dig p - 1) <= Zpos p < 2 ^ dig p.
Proof.
  induction p as [p IH|p IH|]; cbn [digits2_pos]; [| |split; reflexivity || (cbn; lia)].
  - rewrite Pos2Z.inj_succ. replace (Z.succ (dig p) - 1) with (Z.succ (dig p - 1)) by lia. rewrite !Z.pow_succ_r by lia. rewrite (Pos2Z.inj_xI p). lia.
  - rewrite Pos2Z.inj_succ. replace (Z.succ (dig p) - 1) with (Z.succ (dig p - 1)) by lia. rewrite !Z.pow_succ_r by lia. rewrite (Pos2Z.inj_xO p). lia.
Qed.
Lemma dig_unique p d : 2 ^ (d - 1) <= Zpos p < 2 ^ d -> dig p = d.
Proof.
  intros [A B]. pose proof (dig_spec p) as [C E]. pose proof (dig_pos p).
  assert (1 <= d). { destruct (Z_le_gt_dec 1 d); [assumption|]. destruct (Z.eq_dec d 0) as [->|]; [cbn in B; lia|]. rewrite (Z.pow_neg_r 2 d) in B by lia. lia. }
  destruct (Z.lt_trichotomy (dig p) d) as [L|[L|L]]; [|assumption|].
  - exfalso. assert (2 ^ dig p <= 2 ^ (d - 1)) by (apply Z.pow_le_mono_r; lia). lia.
  - exfalso. assert (2 ^ d <= 2 ^ (dig p - 1)) by (apply Z.pow_le_mono_r; lia). lia.
Qed.
Lemma dig_shift p k q : 0 <= k -> Zpos q = Zpos p * 2 ^ k -> dig q = dig p + k.
Proof.
  intros Hk E. apply dig_unique. pose proof (dig_spec p) as [A B]. pose proof (dig_pos p). rewrite E. replace (dig p + k - 1) with (dig p - 1 + k) by lia. rewrite !Z.pow_add_r by lia.
  assert (0 < 2 ^ k) by (apply Z.pow_pos_nonneg; lia). split; [apply Z.mul_le_mono_nonneg_r; lia|apply Z.mul_lt_mono_pos_r; lia].
Qed.
Lemma dig_le p d : Zpos p < 2 ^ d -> dig p <= d.
Proof.
  intros H. pose proof (dig_spec p) as [A _]. pose proof (dig_pos p). destruct (Z_le_gt_dec (dig p) d); [assumption|]. exfalso.
  assert (2 ^ d <= 2 ^ (dig p - 1)) by (apply Z.pow_le_mono_r; lia). lia.
Qed.
Lemma dig_ge p d : 0 <= d -> 2 ^ d <= Zpos p -> d < dig p.
Proof.
  intros Hd H. pose proof (dig_spec p) as [_ B]. destruct (Z_lt_ge_dec d (dig p)); [assumption|]. exfalso. assert (2 ^ dig p <= 2 ^ d) by (apply Z.pow_le_mono_r; lia). lia.
Qed.
(** the same number has the same leading digit *)
Lemma dig_same p d q e : (dy (Zpos p) d == dy (Zpos q) e)%Q -> dig p + d = dig q + e.
Proof.
  intros E. destruct (Z_le_gt_dec d e) as [H|H].
  - apply (dy_eq _ _ _ _ d) in E; try lia. rewrite Z.sub_diag, Z.mul_1_r in E. rewrite (dig_shift q (e - d) p) by (try lia; assumption). lia.
  - apply (dy_eq _ _ _ _ e) in E; try lia. rewrite Z.sub_diag, Z.mul_1_r in E. rewrite (dig_shift p (d - e) q) by (try lia; symmetry; assumption). lia.
Qed.

(** ** Rounding of numbers that fit *)
Notation fx := (fexp 53 1024).
Lemma fx_val e : fx e = Z.max (e - 53) (-1074).
Proof. reflexivity. Qed.
Global Opaque fexp.
Notation bnd := (bounded 53 1024).
Lemma bnd_iff p e : bnd p e = true <-> Z.max (dig p + e - 53) (-1074) = e /\ e <= 971.
Proof.
  unfold bounded, canonical_mantissa. rewrite andb_true_iff, <- Zeq_is_eq_bool, fx_val. change (Zle_bool e (1024 - 53)) with (e <=? 971). rewrite Z.leb_le. reflexivity.
Qed.

Lemma iter_pos_nat {A} (f : A -> A) p : forall x, SpecFloat.iter_pos f p x = Nat.iter (Pos.to_nat p) f x.
Proof.
  assert (forall a b x, Nat.iter a f (Nat.iter b f x) = Nat.iter (a + b) f x) as Add. { induction a; intros b x; cbn [Nat.iter Nat.add]; [reflexivity|]. cbn. f_equal. apply IHa. }
  induction p as [p IH|p IH|]; intros x; cbn [SpecFloat.iter_pos].
  - rewrite !IH, Pos2Nat.inj_xI. change (f x) with (Nat.iter 1 f x). rewrite !Add. f_equal. lia.
  - rewrite !IH, Pos2Nat.inj_xO, Add. f_equal. lia.
  - reflexivity.
Qed.
Definition clean (m : Z) : shr_record := Build_shr_record m false false.
Lemma shr_1_clean m : 0 <= m -> shr_1 (clean (m * 2)) = clean m.
Proof. intros H. destruct m as [|p|p]; [reflexivity| |lia]. replace (Zpos p * 2) with (Zpos (xO p)) by lia. reflexivity. Qed.
Lemma iter_clean n : forall m, 0 <= m -> Nat.iter n shr_1 (clean (m * 2 ^ Z.of_nat n)) = clean m.
Proof.
  induction n as [|n IH]; intros m H; [cbn [Nat.iter]; rewrite Z.mul_1_r; reflexivity|].
  change (Nat.iter (S n) shr_1 (clean (m * 2 ^ Z.of_nat (S n)))) with (shr_1 (Nat.iter n shr_1 (clean (m * 2 ^ Z.of_nat (S n))))). rewrite Nat2Z.inj_succ, Z.pow_succ_r by lia. replace (m * (2 * 2 ^ Z.of_nat n)) with ((m * 2) * 2 ^ Z.of_nat n) by ring. rewrite IH by lia. apply shr_1_clean. assumption.
Qed.
Lemma shr_clean m e d : 0 <= m -> 0 <= d -> shr (clean (m * 2 ^ d)) e d = (clean m, e + d).
Proof.
  intros Hm Hd. destruct d as [|p|p]; [cbn [shr]; rewrite Z.mul_1_r, Z.add_0_r; reflexivity| |lia]. cbn [shr]. f_equal. rewrite iter_pos_nat. replace (Zpos p) with (Z.of_nat (Pos.to_nat p)) by apply positive_nat_Z. apply iter_clean. assumption.
Qed.

Definition small (n e : Z) : Prop := Z.abs n < 2 ^ 53 /\ -1074 <= e <= 971.
Lemma round_aux_exact s p q a e : small (Zpos a) e -> (dy (Zpos p) q == dy (Zpos a) e)%Q -> 0 <= fx (dig p + q) - q ->
  exists p' q', binary_round_aux 53 1024 s (Zpos p) q loc_Exact = S754_finite s p' q' /\ bnd p' q' = true /\ (dy (Zpos p') q' == dy (Zpos a) e)%Q.
Proof.
  intros [Ha He] E Hd. pose proof (dig_same _ _ _ _ E) as Ed. assert (dig a <= 53) as Da by (apply dig_le; lia). set (f := fx (dig p + q)) in *.
  assert (f <= e) as Hf by (unfold f; rewrite fx_val; lia).
  assert (exists r, Zpos r = Zpos a * 2 ^ (e - f)) as (r & Er). { assert (0 < 2 ^ (e - f)) by (apply Z.pow_pos_nonneg; lia). destruct (Zpos a * 2 ^ (e - f)) as [|r|r] eqn:Q; try lia. exists r. reflexivity. }
  assert (Zpos p = Zpos r * 2 ^ (f - q)) as Ep. { rewrite Er, <- Z.mul_assoc, <- Z.pow_add_r by lia. apply (dy_eq _ _ _ _ q) in E; try lia. rewrite Z.sub_diag, Z.mul_1_r in E. rewrite E. do 2 f_equal. lia. }
  pose proof (dig_shift r (f - q) p ltac:(lia) Ep) as Dr.
  exists r, f. unfold binary_round_aux, shr_fexp. cbn [Zdigits2 shr_record_of_loc]. change (Build_shr_record (Zpos p) false false) with (clean (Zpos p)). fold f. rewrite Ep, shr_clean by lia. cbn [clean shr_m loc_of_shr_record round_nearest_even shr_record_of_loc Zdigits2].
  replace (q + (f - q)) with f by lia. replace (dig r + f) with (dig p + q) by lia. fold f. rewrite Z.sub_diag. cbn [shr shr_m]. change (Zle_bool f (1024 - 53)) with (f <=? 971). rewrite (proj2 (Z.leb_le f 971)) by lia.
  split; [reflexivity|]. split; [|rewrite (dy_shift (Zpos a) f e) by lia; rewrite Er; reflexivity].
  apply bnd_iff. split; [|lia]. rewrite <- fx_val. replace (dig r + f) with (dig p + q) by lia. reflexivity.
Qed.
Lemma shl_align_ok p q k : shl_align p q k = (p, q) /\ q <= k \/ exists r, shl_align p q k = (r, k) /\ k < q /\ Zpos r = Zpos p * 2 ^ (q - k).
Proof.
  unfold shl_align. destruct (k - q) as [|d|d] eqn:E; [left; split; [reflexivity|lia]|left; split; [reflexivity|lia]|]. right. exists (shift_pos d p). split; [reflexivity|]. split; [lia|]. rewrite shift_pos_correct. replace (q - k) with (Zpos d) by lia. apply Z.mul_comm.
Qed.
Lemma round_exact s p q a e : small (Zpos a) e -> (dy (Zpos p) q == dy (Zpos a) e)%Q ->
  exists p' q', binary_round 53 1024 s p q = S754_finite s p' q' /\ bnd p' q' = true /\ (dy (Zpos p') q' == dy (Zpos a) e)%Q.
Proof.
  intros Ha E. unfold binary_round. destruct (shl_align_ok p q (fx (dig p + q))) as [[-> H]|(r & -> & H & Er)].
  - apply round_aux_exact; [assumption|assumption|lia].
  - assert (dy (Zpos r) (fx (dig p + q)) == dy (Zpos a) e)%Q as E'. { rewrite Er, <- dy_shift by lia. assumption. }
    apply round_aux_exact; [assumption|assumption|]. rewrite (dig_same _ _ _ _ E'), <- (dig_same _ _ _ _ E). lia.
Qed.

(** ** The number that is a floating point number *)
Definition is (x : spec_float) (q : Q) : Prop :=
  match x with
  | S754_zero _ => (q == 0)%Q
  | S754_finite s p e => bnd p e = true /\ (q == dy (cond_Zopp s (Zpos p)) e)%Q
  | _ => False
  end.
(** numbers that can be represented *)
Definition fits (q : Q) : Prop := exists n e, small n e /\ (q == dy n e)%Q.
Lemma is_eq x p q : is x p -> (p == q)%Q -> is x q.
Proof. destruct x as [s| | |s a e]; cbn [is]; intros H E; try contradiction; [|destruct H as [B H]; split; [assumption|]]; rewrite <- E; assumption. Qed.
Lemma is_unique x p q : is x p -> is x q -> (p == q)%Q.
Proof. unfold is. destruct x; try contradiction; [intros -> ->; reflexivity|intros [_ ->] [_ ->]; reflexivity]. Qed.
Lemma is_fits x q : is x q -> fits q.
Proof.
  unfold is. destruct x as [s|s| |s p e]; try contradiction; intros H.
  - exists 0, 0. split; [split; [reflexivity|lia]|]. rewrite H. reflexivity.
  - destruct H as [B H]. exists (cond_Zopp s (Zpos p)), e. split; [|assumption]. apply bnd_iff in B. pose proof (dig_spec p) as [_ P]. pose proof (dig_pos p).
    assert (2 ^ dig p <= 2 ^ 53) by (apply Z.pow_le_mono_r; lia). split; [|lia]. destruct s; cbn [cond_Zopp]; lia.
Qed.
Lemma dy_zero_r n e : (dy n e == 0)%Q -> n = 0.
Proof. intros H. apply (dy_inj n 0 e). rewrite H. unfold dy. ring. Qed.
Lemma sign_dy s p e : (dy (cond_Zopp s (Zpos p)) e == if s then - dy (Zpos p) e else dy (Zpos p) e)%Q.
Proof. destruct s; cbn [cond_Zopp]; [apply dy_opp|reflexivity]. Qed.

Lemma normalize_exact n e b q : fits q -> (q == dy n e)%Q -> is (binary_normalize 53 1024 n e b) q.
Proof.
  intros (a & e' & Ha & Eq) E. destruct n as [|p|p]; cbn [binary_normalize].
  - cbn [is]. rewrite E. unfold dy. ring.
  - assert (exists a', a = Zpos a') as (a' & ->).
    { assert (0 < a) as P; [|destruct a as [|a|a]; try lia; exists a; reflexivity]. apply (dy_lt 0 a e'). rewrite <- Eq, E. setoid_replace (dy 0 e') with (dy 0 e) by (unfold dy; ring). apply dy_lt. lia. }
    destruct (round_exact false p e a' e' Ha) as (p' & q' & -> & B & E'); [rewrite <- E, <- Eq; reflexivity|]. cbn [is cond_Zopp]. split; [assumption|]. rewrite E', <- Eq. reflexivity.
  - assert (exists a', a = Zneg a') as (a' & ->).
    { assert (a < 0) as P; [|destruct a as [|a|a]; try lia; exists a; reflexivity]. apply (dy_lt a 0 e'). rewrite <- Eq, E. setoid_replace (dy 0 e') with (dy 0 e) by (unfold dy; ring). apply dy_lt. lia. }
    destruct (round_exact true p e a' e') as (p' & q' & -> & B & E').
    + exact Ha.
    + assert (- dy (Zneg p) e == - dy (Zneg a') e')%Q as K by (rewrite <- E, <- Eq; reflexivity). rewrite <- !dy_opp in K. exact K.
    + cbn [is cond_Zopp]. split; [assumption|]. rewrite dy_opp, E', <- dy_opp, Eq. reflexivity.
Qed.
Lemma shl_fst p q k : k <= q -> Zpos (fst (shl_align p q k)) = Zpos p * 2 ^ (q - k).
Proof. intros H. destruct (shl_align_ok p q k) as [[-> H']|(r & -> & _ & E)]; cbn [fst]; [|assumption]. assert (q = k) as -> by lia. rewrite Z.sub_diag. lia. Qed.
Lemma cond_mul s p k : cond_Zopp s (p * k) = cond_Zopp s p * k.
Proof. destruct s; cbn [cond_Zopp]; ring. Qed.
Lemma align_dy s p q k : k <= q -> (dy (cond_Zopp s (Zpos (fst (shl_align p q k)))) k == dy (cond_Zopp s (Zpos p)) q)%Q.
Proof. intros H. rewrite (dy_shift _ k q H), shl_fst, cond_mul by assumption. reflexivity. Qed.
Lemma cond_negb s p : cond_Zopp (negb s) p = - cond_Zopp s p.
Proof. destruct s; cbn [cond_Zopp negb]; ring. Qed.

Theorem add_exact x y p q : is x p -> is y q -> fits (p + q) -> is (SFadd 53 1024 x y) (p + q).
Proof.
  intros Hx Hy F. destruct x as [s| | |s a e]; try contradiction; destruct y as [s'| | |s' b e']; try contradiction; cbn [SFadd is] in *.
  - destruct (Bool.eqb s s'); cbn [is]; rewrite Hx, Hy; reflexivity.
  - destruct Hy as [B Hy]. split; [assumption|]. rewrite Hx, Hy. ring.
  - destruct Hx as [B Hx]. split; [assumption|]. rewrite Hx, Hy. ring.
  - destruct Hx as [B Hx], Hy as [B' Hy]. apply normalize_exact; [assumption|]. rewrite dy_plus, !align_dy, Hx, Hy by lia. reflexivity.
Qed.
Theorem sub_exact x y p q : is x p -> is y q -> fits (p - q) -> is (SFsub 53 1024 x y) (p - q).
Proof.
  intros Hx Hy F. destruct x as [s| | |s a e]; try contradiction; destruct y as [s'| | |s' b e']; try contradiction; cbn [SFsub is] in *.
  - destruct (Bool.eqb s (negb s')); cbn [is]; rewrite Hx, Hy; reflexivity.
  - destruct Hy as [B Hy]. split; [assumption|]. rewrite Hx, Hy, cond_negb, dy_opp. ring.
  - destruct Hx as [B Hx]. split; [assumption|]. rewrite Hx, Hy. ring.
  - destruct Hx as [B Hx], Hy as [B' Hy]. apply normalize_exact; [assumption|]. unfold Z.sub. rewrite dy_plus, dy_opp, !align_dy, Hx, Hy by lia. ring.
Qed.
(** the size of a number that fits *)
Lemma pos_fits q a e : (0 < dy (Zpos a) e)%Q -> fits q -> (q == dy (Zpos a) e)%Q -> exists a' e', small (Zpos a') e' /\ (dy (Zpos a) e == dy (Zpos a') e')%Q.
Proof.
  intros P (n & e' & S & E) E'. assert (0 < n) as Pn. { apply (dy_lt 0 n e'). rewrite <- E, E'. setoid_replace (dy 0 e') with 0%Q by (unfold dy; ring). assumption. }
  destruct n as [|n|n]; try lia. exists n, e'. split; [assumption|]. rewrite <- E', E. reflexivity.
Qed.
Lemma dy_pos a e : (0 < dy (Zpos a) e)%Q.
Proof. unfold dy. pose proof (two_pos e). assert (0 < inject_Z (Zpos a))%Q by reflexivity. nra. Qed.
Lemma fits_opp q : fits q -> fits (- q).
Proof. intros (n & e & [S1 S2] & E). exists (- n), e. split; [split; [rewrite Z.abs_opp|]; assumption|]. rewrite dy_opp, E. reflexivity. Qed.
Lemma fits_eq p q : (p == q)%Q -> fits p -> fits q.
Proof. intros E (n & e & S & H). exists n, e. split; [assumption|]. rewrite <- E. assumption. Qed.
Lemma cond_xor s s' p q : cond_Zopp (xorb s s') (p * q) = cond_Zopp s p * cond_Zopp s' q.
Proof. destruct s, s'; cbn [xorb cond_Zopp]; ring. Qed.

Theorem mul_exact x y p q : is x p -> is y q -> fits (p * q) -> is (SFmul 53 1024 x y) (p * q).
Proof.
  intros Hx Hy F. destruct x as [s| | |s a e]; try contradiction; destruct y as [s'| | |s' b e']; try contradiction; cbn [SFmul is] in *.
  - rewrite Hx. ring.
  - rewrite Hx. ring.
  - rewrite Hy. ring.
  - destruct Hx as [B Hx], Hy as [B' Hy].
    assert (p * q == dy (cond_Zopp (xorb s s') (Zpos (a * b))) (e + e'))%Q as E by (rewrite Pos2Z.inj_mul, cond_xor, dy_mult, Hx, Hy; reflexivity).
    assert (fits (dy (Zpos (a * b)) (e + e'))) as F'.
    { destruct (xorb s s'); cbn [cond_Zopp] in E; [|apply (fits_eq (p * q)); assumption]. apply (fits_eq (- (p * q))); [rewrite E, dy_opp; ring|apply fits_opp; assumption]. }
    destruct (pos_fits _ (a * b)%positive (e + e') (dy_pos _ _) F' ltac:(reflexivity)) as (n & e2 & S & E2).
    destruct (round_aux_exact (xorb s s') (a * b)%positive (e + e') n e2 S E2) as (p' & q' & -> & B2 & E3).
    + apply bnd_iff in B, B'. rewrite fx_val. pose proof (dig_pos a). pose proof (dig_pos b).
      assert (dig a + dig b - 1 <= dig (a * b)) as K.
      { assert (dig a + dig b - 2 < dig (a * b)); [|lia]. apply dig_ge; [lia|]. pose proof (dig_spec a) as [A1 _]. pose proof (dig_spec b) as [A2 _]. rewrite Pos2Z.inj_mul. replace (dig a + dig b - 2) with ((dig a - 1) + (dig b - 1)) by lia. rewrite Z.pow_add_r by lia.
        apply Z.mul_le_mono_nonneg; try assumption; apply Z.pow_nonneg; lia. }
      lia.
    + cbn [is]. split; [assumption|]. rewrite E, !sign_dy. destruct (xorb s s'); rewrite E3, E2; reflexivity.
Qed.

Lemma qcmp_opp a b : (- a ?= - b)%Q = CompOpp (a ?= b)%Q.
Proof.
  destruct (Qcompare_spec a b) as [H|H|H]; cbn [CompOpp]; [apply Qeq_alt; rewrite H; reflexivity|apply -> Qgt_alt; lra|apply -> Qlt_alt; lra].
Qed.
Theorem compare_exact x y p q : is x p -> is y q -> SFcompare x y = Some (p ?= q)%Q.
Proof.
  intros Hx Hy. destruct x as [s| | |s a e]; try contradiction; destruct y as [s'| | |s' b e']; try contradiction; cbn [SFcompare is] in *.
  - f_equal. symmetry. apply Qeq_alt. rewrite Hx, Hy. reflexivity.
  - destruct Hy as [B Hy]. f_equal. symmetry. pose proof (dy_pos b e') as P. destruct s'; cbn [cond_Zopp] in Hy; [apply -> Qgt_alt|apply -> Qlt_alt]; rewrite Hx, Hy; [|assumption]. rewrite dy_opp. lra.
  - destruct Hx as [B Hx]. f_equal. symmetry. pose proof (dy_pos a e) as P. destruct s; cbn [cond_Zopp] in Hx; [apply -> Qlt_alt|apply -> Qgt_alt]; rewrite Hx, Hy; [|assumption]. rewrite dy_opp. lra.
  - destruct Hx as [B Hx], Hy as [B' Hy]. f_equal.
    assert (match e ?= e' with Lt => Lt | Gt => Gt | Eq => Pos.compare_cont Eq a b end = (dy (Zpos a) e ?= dy (Zpos b) e')%Q) as K.
    { pose proof (dig_spec a) as [A1 A2]. pose proof (dig_spec b) as [C1 C2]. apply bnd_iff in B, B'. pose proof (dig_pos a). pose proof (dig_pos b).
      destruct (Z.compare_spec e e') as [Ee|L|L].
      - subst e'. rewrite dy_cmp. reflexivity.
      - symmetry. apply -> Qlt_alt. rewrite (dy_shift (Zpos b) e e') by lia. apply dy_lt. assert (dig b = 53) as Db by lia. rewrite Db in C1.
        assert (2 ^ dig a <= 2 ^ 53) by (apply Z.pow_le_mono_r; lia). assert (2 ^ 1 <= 2 ^ (e' - e)) by (apply Z.pow_le_mono_r; lia). change (2 ^ 1) with 2 in *. change (2 ^ 53) with (2 ^ (53 - 1) * 2) in *. nia.
      - symmetry. apply -> Qgt_alt. rewrite (dy_shift (Zpos a) e' e) by lia. apply dy_lt. assert (dig a = 53) as Da by lia. rewrite Da in A1.
        assert (2 ^ dig b <= 2 ^ 53) by (apply Z.pow_le_mono_r; lia). assert (2 ^ 1 <= 2 ^ (e - e')) by (apply Z.pow_le_mono_r; lia). change (2 ^ 1) with 2 in *. change (2 ^ 53) with (2 ^ (53 - 1) * 2) in *. nia. }
    pose proof (dy_pos a e) as Pa. pose proof (dy_pos b e') as Pb.
    setoid_rewrite (Qcompare_comp p (dy (cond_Zopp s (Zpos a)) e) Hx q (dy (cond_Zopp s' (Zpos b)) e') Hy). destruct s, s'; cbn [cond_Zopp].
    + rewrite !(Qcompare_comp _ _ (dy_opp _ _) _ _ (dy_opp _ _)). rewrite qcmp_opp, <- K. destruct (e ?= e'); reflexivity.
    + symmetry. apply -> Qlt_alt. rewrite dy_opp. lra.
    + symmetry. apply -> Qgt_alt. rewrite dy_opp. lra.
    + assumption.
Qed.

(** ** Division *)
Lemma dig_quot a b q d : 0 <= d -> Zpos a = Zpos b * q + d -> d < Zpos b -> 0 < q -> forall q', q = Zpos q' -> dig a - dig b <= dig q' <= dig a - dig b + 1.
Proof.
  intros Hd E L Q q' ->. pose proof (dig_spec a) as [A1 A2]. pose proof (dig_spec b) as [B1 B2]. pose proof (dig_spec q') as [C1 C2]. pose proof (dig_pos a). pose proof (dig_pos b). pose proof (dig_pos q'). split.
  - assert (dig a - 1 < dig b + dig q'); [|lia]. apply (Z.pow_lt_mono_r_iff 2); [lia|lia|]. rewrite Z.pow_add_r by lia. nia.
  - assert ((dig b - 1) + (dig q' - 1) < dig a); [|lia]. apply (Z.pow_lt_mono_r_iff 2); [lia|lia|]. rewrite Z.pow_add_r by lia. nia.
Qed.
(** what SFdiv divides *)
Lemma div_core a e b e' : let f := Z.min (fx (dig a + e - (dig b + e'))) (e - e') in let s := e - e' - f in
  SFdiv_core_binary 53 1024 (Zpos a) e (Zpos b) e' = ((Zpos a * 2 ^ s) / Zpos b, f, new_location (Zpos b) ((Zpos a * 2 ^ s) mod Zpos b)) /\ 0 <= s.
Proof.
  intros f s. assert (0 <= s) as Hs by (unfold s, f; lia). split; [|assumption]. unfold SFdiv_core_binary. cbn [Zdigits2]. fold f. fold s.
  replace (match s with Z0 => Zpos a | Zpos _ => Z.shiftl (Zpos a) s | Zneg _ => 0 end) with (Zpos a * 2 ^ s) by (destruct s; [cbn; lia|rewrite Z.shiftl_mul_pow2 by lia; reflexivity|lia]).
  unfold Z.div, Z.modulo. destruct (Z.div_eucl (Zpos a * 2 ^ s) (Zpos b)). reflexivity.
Qed.
Lemma new_location_0 n : new_location n 0 = loc_Exact.
Proof. unfold new_location, new_location_even, new_location_odd. destruct (Z.even n); reflexivity. Qed.
Lemma qmul_reg a b c : (0 < c)%Q -> (a * c == b * c)%Q -> (a == b)%Q.
Proof. intros P E. apply Qmult_inj_r in E; [assumption|]. intros Q. rewrite Q in P. apply (Qlt_irrefl 0 P). Qed.

Theorem div_exact x y p q r : is x p -> is y q -> ~ (q == 0)%Q -> (p == r * q)%Q -> fits r -> is (SFdiv 53 1024 x y) r.
Proof.
  intros Hx Hy Nz E F. destruct x as [s| | |s a e]; try contradiction; destruct y as [s'| | |s' b e']; try contradiction; cbn [SFdiv is] in *; try (exfalso; apply Nz; assumption).
  - rewrite Hx in E. destruct (Qeq_dec r 0) as [Z|Z]; [assumption|]. exfalso. symmetry in E. apply Qmult_integral in E. tauto.
  - destruct Hx as [B Hx], Hy as [B' Hy].
    set (u := if xorb s s' then (- r)%Q else r).
    assert (dy (Zpos a) e == u * dy (Zpos b) e')%Q as E1.
    { rewrite Hx, Hy, !sign_dy in E. unfold u. destruct s, s'; cbn [xorb]; lra. }
    assert (fits u) as Fu by (unfold u; destruct (xorb s s'); [apply fits_opp|]; assumption).
    pose proof (dy_pos a e) as Pa. pose proof (dy_pos b e') as Pb.
    destruct Fu as (n & k & Sn & En). assert (0 < n) as Pn. { apply (dy_lt 0 n k). rewrite <- En. setoid_replace (dy 0 k) with 0%Q by (unfold dy; ring). nra. }
    destruct n as [|n|n]; try lia. assert (dy (Zpos a) e == dy (Zpos (n * b)) (k + e'))%Q as E2 by (rewrite Pos2Z.inj_mul, dy_mult, <- En; exact E1).
    pose proof (dig_same _ _ _ _ E2) as Dn. pose proof (dig_pos a). pose proof (dig_pos b). pose proof (dig_pos n).
    assert (dig (n * b) <= dig n + dig b) as D1. { apply dig_le. rewrite Pos2Z.inj_mul, Z.pow_add_r by lia. pose proof (dig_spec n) as [? ?]. pose proof (dig_spec b) as [? ?]. apply Z.mul_lt_mono_nonneg; lia. }
    assert (dig n <= 53) as D53 by (apply dig_le; destruct Sn; lia). destruct Sn as [Sn Sk].
    destruct (div_core a e b e') as [C Hs]. set (f := Z.min (fx (dig a + e - (dig b + e'))) (e - e')) in *. set (t := e - e' - f) in *. rewrite C.
    assert (f <= k) as Hf by (unfold f; rewrite fx_val; lia).
    assert (Zpos a * 2 ^ t = Zpos n * 2 ^ (k - f) * Zpos b) as En2.
    { assert (0 <= t) by assumption. apply (dy_eq _ _ _ _ (e - t)) in E2; [|lia|unfold t; lia]. rewrite Pos2Z.inj_mul in E2. replace (e - (e - t)) with t in E2 by lia. replace (k + e' - (e - t)) with (k - f) in E2 by (unfold t; lia). rewrite E2. ring. }
    rewrite En2, Z.div_mul, Z.mod_mul, new_location_0 by lia.
    assert (exists w, Zpos w = Zpos n * 2 ^ (k - f)) as (w & Ew). { assert (0 < 2 ^ (k - f)) by (apply Z.pow_pos_nonneg; lia). destruct (Zpos n * 2 ^ (k - f)) as [|w|w] eqn:Q; try lia. exists w. reflexivity. }
    rewrite <- Ew. assert (dy (Zpos w) f == dy (Zpos n) k)%Q as Ew2 by (rewrite Ew, <- dy_shift by lia; reflexivity).
    destruct (round_aux_exact (xorb s s') w f n k (conj Sn Sk) Ew2) as (p' & q' & -> & B2 & E3).
    + rewrite (dig_same _ _ _ _ Ew2). assert (dig a + e - (dig b + e') <= dig n + k) by lia. unfold f. rewrite !fx_val. lia.
    + cbn [is]. split; [assumption|]. rewrite sign_dy. unfold u in En. destruct (xorb s s'); rewrite E3, <- En; ring.
Qed.

(** the position of num / den between m 2^d and (m + 1) 2^d *)
Definition place (num den d : Z) (x : shr_record) : Prop :=
  let F := num - shr_m x * (den * 2 ^ d) in
  0 <= shr_m x /\ 0 <= F < den * 2 ^ d /\
  match shr_r x, shr_s x with
  | false, false => F = 0
  | false, true => 0 < 2 * F < den * 2 ^ d
  | true, false => 2 * F = den * 2 ^ d
  | true, true => den * 2 ^ d < 2 * F
  end.
Lemma place_step num den d x : 0 < den -> 0 <= d -> place num den d x -> place num den (d + 1) (shr_1 x).
Proof.
  intros Pd Hd. destruct x as [m r s]. unfold place. cbn [shr_m shr_r shr_s]. rewrite Z.pow_add_r by lia. change (2 ^ 1) with 2. assert (0 < den * 2 ^ d) as P by (apply Z.mul_pos_pos; [assumption|apply Z.pow_pos_nonneg; lia]).
  replace (den * (2 ^ d * 2)) with (2 * (den * 2 ^ d)) by ring. set (u := den * 2 ^ d) in *. clearbody u. intros (Hm & HF & K).
  destruct m as [|[m|m|]|m]; try lia; cbn [shr_1 shr_m shr_r shr_s]; rewrite ?(Pos2Z.inj_xI m), ?(Pos2Z.inj_xO m) in *; destruct r, s; cbn [orb]; repeat split; lia.
Qed.
Lemma place_iter num den n : 0 < den -> forall d x, 0 <= d -> place num den d x -> place num den (d + Z.of_nat n) (Nat.iter n shr_1 x).
Proof.
  intros Pd. induction n as [|n IH]; intros d x Hd P; [cbn [Nat.iter]; replace (d + Z.of_nat 0) with d by lia; assumption|].
  change (Nat.iter (S n) shr_1 x) with (shr_1 (Nat.iter n shr_1 x)). replace (d + Z.of_nat (S n)) with (d + Z.of_nat n + 1) by lia. apply place_step; [assumption|lia|]. apply IH; assumption.
Qed.
Lemma place_shr num den d x e : 0 < den -> 0 <= d -> place num den 0 x -> exists x', shr x e d = (x', e + d) /\ place num den d x'.
Proof.
  intros Pd Hd P. destruct d as [|p|p]; [|clear Hd|lia].
  - exists x. cbn [shr]. rewrite Z.add_0_r. auto.
  - eexists. cbn [shr]. split; [reflexivity|]. rewrite iter_pos_nat. pose proof (place_iter num den (Pos.to_nat p) Pd 0 x ltac:(lia) P) as K. rewrite positive_nat_Z in K. exact K.
Qed.
Lemma place_start num den : 0 < den -> 0 <= num -> place num den 0 (shr_record_of_loc (num / den) (new_location den (num mod den))).
Proof.
  intros Pd Hn. pose proof (Z.mod_pos_bound num den Pd) as B. pose proof (Z.div_mod num den ltac:(lia)) as E. pose proof (Z.div_pos num den Hn Pd) as Q. set (q := num / den) in *. set (k := num mod den) in *. clearbody q k.
  unfold place. rewrite Z.mul_1_r. unfold new_location, new_location_even, new_location_odd. destruct (Z.even den) eqn:Ev.
  - destruct (Zeq_bool k 0) eqn:Z0; [apply Zeq_bool_eq in Z0|apply Zeq_bool_neq in Z0]; cbn [shr_record_of_loc shr_m shr_r shr_s]; [nia|]. destruct (Z.compare_spec (2 * k) den); cbn [shr_record_of_loc shr_m shr_r shr_s]; nia.
  - apply Bool.negb_true_iff in Ev. rewrite Z.negb_even in Ev. apply Z.odd_spec in Ev. destruct Ev as (h & Eh).
    destruct (Zeq_bool k 0) eqn:Z0; [apply Zeq_bool_eq in Z0|apply Zeq_bool_neq in Z0]; cbn [shr_record_of_loc shr_m shr_r shr_s]; [nia|]. destruct (Z.compare_spec (2 * k + 1) den); cbn [shr_record_of_loc shr_m shr_r shr_s]; nia.
Qed.

(** rounding to nearest of num / den * 2^f, of which q is the integer part *)
Lemma round_aux_near num den f q loc : 0 < den -> 0 <= num -> place num den 0 (shr_record_of_loc q loc) ->
  0 <= fx (Zdigits2 q + f) - f -> Zdigits2 q + f - 53 < 971 ->
  exists M E R, E = fx (Zdigits2 q + f) /\ 0 <= M < 2 ^ 53 /\ (2 ^ 52 <= M \/ E = -1074) /\ M * (den * 2 ^ (E - f)) <= num < (M + 1) * (den * 2 ^ (E - f)) /\
    (R = M /\ 2 * (num - M * (den * 2 ^ (E - f))) <= den * 2 ^ (E - f) \/ R = M + 1 /\ den * 2 ^ (E - f) <= 2 * (num - M * (den * 2 ^ (E - f)))) /\
    is (binary_round_aux 53 1024 false q f loc) (dy R E).
Proof.
  intros Pd Hn P0 Hd L2. set (E := fx (Zdigits2 q + f)) in *. pose proof (fx_val (Zdigits2 q + f)) as FE. fold E in FE.
  assert (0 <= q /\ q * den <= num < (q + 1) * den) as [Q0 Hq]. { destruct P0 as (A & B & _). rewrite Z.mul_1_r in B. destruct loc as [|[| |]]; cbn [shr_record_of_loc shr_m] in *; nia. }
  destruct (place_shr num den (E - f) _ f Pd Hd P0) as (x & Ex & P). set (T := den * 2 ^ (E - f)) in *. assert (0 < 2 ^ (E - f)) as PT by (apply Z.pow_pos_nonneg; lia). assert (0 < T) as PT' by (unfold T; apply Z.mul_pos_pos; assumption).
  destruct P as (P1 & P2 & P3). fold T in P2, P3. set (M := shr_m x) in *.
  assert (M * 2 ^ (E - f) <= q < (M + 1) * 2 ^ (E - f)) as MQ by (unfold T in P2; nia).
  assert (0 <= M < 2 ^ 53 /\ (2 ^ 52 <= M \/ E = -1074)) as [HM HM'].
  { destruct q as [|q|q]; [|cbn [Zdigits2] in *|lia].
    - cbn [Zdigits2] in FE. assert (M = 0) by nia. split; [lia|right]. lia.
    - pose proof (dig_spec q) as [Q1 Q2]. pose proof (dig_pos q). destruct (Z_le_gt_dec (-1074) (dig q + f - 53)).
      + replace (dig q) with (53 + (E - f)) in Q2 by lia. replace (dig q - 1) with (52 + (E - f)) in Q1 by lia. rewrite Z.pow_add_r in Q1, Q2 by lia. assert (2 ^ 52 < M + 1) by nia. split; [|left; lia]. nia.
      + split; [|right; lia]. split; [assumption|]. assert (2 ^ dig q <= 2 ^ 53 * 2 ^ (E - f)) by (rewrite <- Z.pow_add_r by lia; apply Z.pow_le_mono_r; lia). nia. }
  set (R := round_nearest_even M (loc_of_shr_record x)).
  assert (R = M /\ 2 * (num - M * T) <= T \/ R = M + 1 /\ T <= 2 * (num - M * T)) as HR.
  { unfold R. destruct x as [mm r t]. cbn [shr_r shr_s loc_of_shr_record] in *. destruct r, t; cbn [round_nearest_even]; [right; lia|destruct (Z.even M); [left|right]; lia|left; lia|left; lia]. }
  exists M, E, R. split; [reflexivity|]. split; [exact HM|]. split; [exact HM'|]. split; [lia|]. split; [exact HR|].
  unfold binary_round_aux, shr_fexp. change (fexp 53 1024 (Zdigits2 q + f)) with E. rewrite Ex. fold M. fold R. replace (f + (E - f)) with E by lia.
  assert (E <= 970) as LE by lia.
  destruct R as [|v|v] eqn:Ev; [| |lia]; cbn [Zdigits2 shr_record_of_loc].
  - change (fexp 53 1024 (0 + E)) with (fx (0 + E)). assert (E = -1074) as E74 by lia. assert (fx (0 + E) - E = 0) as -> by (rewrite fx_val; lia). cbn [shr shr_m is]. unfold dy. rewrite Qmult_0_l. reflexivity.
  - destruct (Z.eq_dec (Zpos v) (2 ^ 53)) as [E53|N53].
    + assert (dig v = 54) as Dv by (apply dig_unique; rewrite E53; split; [reflexivity|cbn; lia]). assert (fx (dig v + E) - E = 1) as F1 by (rewrite fx_val, Dv; lia). rewrite F1.
      replace (Zpos v) with (2 ^ 52 * 2 ^ 1) by (rewrite E53; reflexivity). change (Build_shr_record (2 ^ 52 * 2 ^ 1) false false) with (clean (2 ^ 52 * 2 ^ 1)). rewrite shr_clean by (try lia; cbn; lia). cbn [clean shr_m].
      change (2 ^ 52) with (Zpos (2 ^ 52)%positive). change (Zle_bool (E + 1) (1024 - 53)) with (E + 1 <=? 971). rewrite (proj2 (Z.leb_le (E + 1) 971)) by lia. cbn [is cond_Zopp]. split.
      * apply bnd_iff. change (dig (2 ^ 52)) with 53. lia.
      * rewrite (dy_shift (Zpos (2 ^ 52)) E (E + 1)) by lia. replace (E + 1 - E) with 1 by lia. reflexivity.
    + assert (dig v <= 53) as Dv by (apply dig_le; lia). assert (E = -1074 \/ dig v = 53) as Dv' by (destruct HM'; [right; apply dig_unique; change (53 - 1) with 52; lia|left; assumption]).
      assert (fx (dig v + E) - E = 0) as F0 by (rewrite fx_val; lia). rewrite F0. cbn [shr shr_m].
      change (Zle_bool E (1024 - 53)) with (E <=? 971). rewrite (proj2 (Z.leb_le E 971)) by lia. cbn [is cond_Zopp]. split; [|reflexivity]. apply bnd_iff. lia.
Qed.

Lemma dy_twice n m k : (2 * (dy n k - dy m k) == dy (2 * (n - m)) k)%Q.
Proof. unfold dy. rewrite inject_Z_mult. unfold Z.sub. rewrite inject_Z_plus, inject_Z_opp. change (inject_Z 2) with 2%Q. ring. Qed.

(** SFdiv rounds to nearest: the quotient is between the neighboring numbers M 2^E and (M+1) 2^E and the
    result is the one of them that is not farther away *)
Theorem div_near x y p q : is x p -> is y q -> (0 < p)%Q -> (0 < q)%Q -> (p <= two 1000 * q)%Q ->
  exists M E v, is (SFdiv 53 1024 x y) v /\ 0 <= M < 2 ^ 53 /\ (2 ^ 52 <= M \/ E = -1074) /\ (dy M E * q <= p)%Q /\ (p < dy (M + 1) E * q)%Q /\
    ((v == dy M E)%Q /\ (p - v * q <= two (E - 1) * q)%Q \/ (v == dy (M + 1) E)%Q /\ (v * q - p <= two (E - 1) * q)%Q).
Proof.
  intros Hx Hy Pp Pq Hi. destruct x as [s| | |s a e]; try contradiction; destruct y as [s'| | |s' b e']; try contradiction; cbn [SFdiv is] in *;
    try (rewrite Hx in Pp; destruct (Qlt_irrefl 0 Pp)); try (rewrite Hy in Pq; destruct (Qlt_irrefl 0 Pq)).
  destruct Hx as [B Hx], Hy as [B' Hy]. pose proof (dy_pos a e) as Pa. pose proof (dy_pos b e') as Pb.
  assert (s = false) as ->. { destruct s; [|reflexivity]. exfalso. rewrite Hx in Pp. cbn [cond_Zopp] in Pp. rewrite dy_opp in Pp. lra. }
  assert (s' = false) as ->. { destruct s'; [|reflexivity]. exfalso. rewrite Hy in Pq. cbn [cond_Zopp] in Pq. rewrite dy_opp in Pq. lra. }
  cbn [cond_Zopp xorb] in *. destruct (div_core a e b e') as [C Hs]. set (f := Z.min (fx (dig a + e - (dig b + e'))) (e - e')) in *. set (t := e - e' - f) in *. rewrite C. clear C.
  pose proof (dig_pos a). pose proof (dig_pos b). pose proof (dig_spec a) as [A1 A2]. pose proof (dig_spec b) as [B1 B2].
  assert (dig a + e - (dig b + e') <= 1001) as D1.
  { destruct (Z_le_gt_dec (dig a + e - (dig b + e')) 1001); [assumption|]. exfalso. assert (two 1000 * q < p)%Q; [|lra]. rewrite Hx, Hy.
    setoid_replace (two 1000 * dy (Zpos b) e')%Q with (dy (Zpos b) (1000 + e')) by (unfold dy; rewrite two_plus; ring).
    apply Qlt_le_trans with (dy (2 ^ dig b) (1000 + e')); [apply dy_lt; assumption|]. apply Qle_trans with (dy (2 ^ (dig a - 1)) e); [|apply dy_le; assumption].
    set (k := Z.min (1000 + e') e). rewrite (dy_shift _ k (1000 + e')), (dy_shift _ k e) by lia. apply dy_le. rewrite <- !Z.pow_add_r by lia. apply Z.pow_le_mono_r; lia. }
  assert (0 < 2 ^ t) as Pt by (apply Z.pow_pos_nonneg; lia).
  set (num := Zpos a * 2 ^ t) in *. assert (0 < num) as Pn by (unfold num; lia).
  assert (f <= Z.max (dig a + e - (dig b + e') - 53) (-1074)) as Hf by (unfold f; rewrite fx_val; lia).
  destruct (num) as [|n|n] eqn:En; try lia. assert (dig n = dig a + t) as Dn by (apply dig_shift; [lia|symmetry; exact En]).
  pose proof (Z.div_mod (Zpos n) (Zpos b) ltac:(lia)) as Dm. pose proof (Z.mod_pos_bound (Zpos n) (Zpos b) ltac:(lia)) as Mb.
  pose proof (Z.div_pos (Zpos n) (Zpos b) ltac:(lia) ltac:(lia)) as Pquot.
  pose proof (place_start (Zpos n) (Zpos b) ltac:(lia) ltac:(lia)) as PS. set (w := Zpos n / Zpos b) in *.
  (* the quotient has at least 53 digits unless it is very small *)
  assert (Zdigits2 w + f - 53 < 971 /\ 0 <= fx (Zdigits2 w + f) - f) as [Dw Dw'].
  { rewrite fx_val. destruct w as [|w'|w'] eqn:Ew; [|cbn [Zdigits2]|lia].
    - cbn [Zdigits2]. assert (dig n <= dig b) as Lnb. { destruct (Z_le_gt_dec (dig n) (dig b)); [assumption|]. exfalso. pose proof (dig_spec n) as [N1 _]. assert (2 ^ dig b <= 2 ^ (dig n - 1)) by (apply Z.pow_le_mono_r; lia). lia. }
      unfold t in Dn. lia.
    - destruct (dig_quot n b (Zpos w') (Zpos n mod Zpos b) (proj1 Mb) Dm (proj2 Mb) ltac:(lia) w' eq_refl) as [W1 W2]. unfold t in Dn. lia. }
  destruct (round_aux_near (Zpos n) (Zpos b) f w _ ltac:(lia) ltac:(lia) PS Dw' Dw) as (M & E & R & EE & HM & HM' & HB & HR & HI).
  assert (f <= E) as LfE by lia.
  assert (p == dy (Zpos n) (f + e'))%Q as Ep. { rewrite Hx, <- En, (dy_shift (Zpos a) (f + e') e) by (unfold t in Hs; lia). unfold num, t. replace (e - (f + e')) with (e - e' - f) by lia. reflexivity. }
  assert (forall k, (dy k E * q == dy (k * (Zpos b * 2 ^ (E - f))) (f + e'))%Q) as Ek.
  { intros k. rewrite Hy, <- dy_mult, (dy_shift _ (f + e') (E + e')) by lia. replace (E + e' - (f + e')) with (E - f) by lia. rewrite Z.mul_assoc. reflexivity. }
  assert (two (E - 1) * q + two (E - 1) * q == dy (Zpos b * 2 ^ (E - f)) (f + e'))%Q as Eh.
  { rewrite <- (Z.mul_1_l (Zpos b * _)), <- Ek. unfold dy. replace E with (1 + (E - 1)) at 3 by lia. rewrite two_plus. change (two 1) with 2%Q. ring. }
  exists M, E, (dy R E). split; [exact HI|]. split; [assumption|]. split; [assumption|]. rewrite !Ek, Ep. split; [apply dy_le; lia|]. split; [apply dy_lt; lia|].
  destruct HR as [[-> H1]|[-> H1]]; [left|right]; (split; [reflexivity|]).
  - assert (2 * (dy (Zpos n) (f + e') - dy (M * (Zpos b * 2 ^ (E - f))) (f + e')) <= dy (Zpos b * 2 ^ (E - f)) (f + e'))%Q as K.
    { setoid_replace (2 * (dy (Zpos n) (f + e') - dy (M * (Zpos b * 2 ^ (E - f))) (f + e')))%Q with (dy (2 * (Zpos n - M * (Zpos b * 2 ^ (E - f)))) (f + e')); [apply dy_le; assumption|apply dy_twice]. }
    lra.
  - assert (dy (Zpos b * 2 ^ (E - f)) (f + e') <= 2 * (dy (Zpos n) (f + e') - dy (M * (Zpos b * 2 ^ (E - f))) (f + e')))%Q as K.
    { setoid_replace (2 * (dy (Zpos n) (f + e') - dy (M * (Zpos b * 2 ^ (E - f))) (f + e')))%Q with (dy (2 * (Zpos n - M * (Zpos b * 2 ^ (E - f)))) (f + e')); [apply dy_le; assumption|apply dy_twice]. }
    assert (dy ((M + 1) * (Zpos b * 2 ^ (E - f))) (f + e') == dy (M * (Zpos b * 2 ^ (E - f))) (f + e') + dy (Zpos b * 2 ^ (E - f)) (f + e'))%Q as K2 by (rewrite Z.mul_add_distr_r, Z.mul_1_l, dy_plus; reflexivity).
    lra.
Qed.
