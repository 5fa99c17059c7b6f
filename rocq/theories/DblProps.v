(** Properties C07, C08, C09: limits of grid length and refinement level. *)
From Verif Require Import U64 MapModel MapSpec MapProofs DblModel.
Open Scope Z_scope.

(** ** rounding *)
Lemma rnd53_err n : 0 <= n -> 2 ^ 53 * Z.abs (rnd53 n - n) <= n.
Proof.
  intros Hn. unfold rnd53. set (e := Z.max 0 (Z.log2 n - 52)).
  assert (0 <= e) as He by lia. pose proof (pow2_pos e He) as Hu. set (u := 2 ^ e) in *. cbn zeta.
  pose proof (Z.div_mod n u ltac:(lia)) as D. pose proof (Z.mod_pos_bound n u ltac:(lia)) as R.
  set (q := n / u) in *. set (r := n mod u) in *.
  assert (2 ^ 52 * u <= n \/ u = 1) as Hcase.
  { destruct (Z.le_gt_cases (Z.log2 n) 52) as [Hle|Hgt].
    - right. unfold u, e. replace (Z.max 0 (Z.log2 n - 52)) with 0 by lia. reflexivity.
    - left. unfold u, e. rewrite <- Z.pow_add_r by lia.
      replace (52 + Z.max 0 (Z.log2 n - 52)) with (Z.log2 n) by lia.
      apply Z.log2_spec. destruct (Z.eq_dec n 0) as [E0|]; [rewrite E0 in Hgt; cbn in Hgt; lia|lia]. }
  change (2 ^ 53) with (2 * 2 ^ 52). set (p := 2 ^ 52) in *. assert (0 < p) by reflexivity.
  destruct Hcase as [Hc|Hu1].
  - assert (forall x, 2 * Z.abs (x - n) <= u -> 2 * p * Z.abs (x - n) <= n) as K by (intros; nia).
    destruct (Z.ltb_spec (2 * r) u); [apply K; lia|].
    destruct (Z.ltb_spec u (2 * r)); [apply K; lia|].
    destruct (Z.even q); apply K; lia.
  - assert (r = 0) as -> by lia. replace (2 * 0 <? u) with true by lia.
    replace (q * u - n) with 0 by lia. rewrite Z.abs_0. lia.
Qed.

Lemma rnd53_pow2 k : 0 <= k -> rnd53 (2 ^ k) = 2 ^ k.
Proof.
  intros Hk. unfold rnd53. rewrite Z.log2_pow2 by lia. set (e := Z.max 0 (k - 52)). cbn zeta.
  assert (2 ^ k = 2 ^ (k - e) * 2 ^ e) as E.
  { rewrite <- Z.pow_add_r by lia. f_equal. lia. }
  pose proof (pow2_pos e ltac:(lia)).
  assert (2 ^ k mod 2 ^ e = 0) as -> by (rewrite E; apply Z.mod_mul; lia).
  replace (2 * 0 <? 2 ^ e) with true by lia.
  rewrite E at 1. rewrite Z.div_mul by lia. symmetry. exact E.
Qed.

Lemma rnd53_nonneg n : 0 <= n -> 0 <= rnd53 n.
Proof. intros H. pose proof (rnd53_err n H). change (2 ^ 53) with 9007199254740992 in *. lia. Qed.

(** values just above 2^64 still round to 2^64 *)
Lemma rnd53_above n : 2 ^ 64 <= n <= 2 ^ 64 + 2048 -> rnd53 n = 2 ^ 64.
Proof.
  intros H. assert (Z.log2 n = 64) as L.
  { apply Z.log2_unique; [lia|]. change (2 ^ Z.succ 64) with (2 ^ 64 + 2 ^ 64). 
    change (2 ^ 64) with 18446744073709551616 in *. lia. }
  unfold rnd53. rewrite L. change (Z.max 0 (64 - 52)) with 12. cbn zeta.
  change (2 ^ 12) with 4096. change (2 ^ 64) with (4503599627370496 * 4096) in *.
  assert (n / 4096 = 4503599627370496 /\ n mod 4096 = n - 4503599627370496 * 4096) as [-> ->].
  { Z.div_mod_to_equations. lia. }
  destruct (Z.ltb_spec (2 * (n - 4503599627370496 * 4096)) 4096); [reflexivity|].
  replace (4096 <? 2 * (n - 4503599627370496 * 4096)) with false by lia. reflexivity.
Qed.

Lemma dbl_max64_eq : dbl_max64 = 2 ^ 64.
Proof. unfold dbl_max64. rewrite W_val. vm_compute. reflexivity. Qed.

(** ** C07 *)
Theorem c07_zero_length_refused old a b c :
  a = 0 \/ b = 0 \/ c = 0 -> length_set old (a, b, c) = (false, old).
Proof.
  intros H. unfold length_set.
  replace ((a =? 0) || (b =? 0) || (c =? 0)) with true by lia. reflexivity.
Qed.
Print Assumptions c07_zero_length_refused.

Theorem c07_refusal_changes_nothing old given :
  (fst (length_set old given) = false -> snd (length_set old given) = old) /\
  (fst (length_set old given) = true -> snd (length_set old given) = given).
Proof.
  unfold length_set. destruct given as [[a b] c].
  destruct (_ || _); [cbn; split; congruence|]. destruct (dbl_max64 <? _); cbn; split; congruence.
Qed.
Print Assumptions c07_refusal_changes_nothing.

(** every grid whose level 0 cells fit into 64 bits is accepted *)
Theorem c07_fitting_length_accepted old a b c :
  0 < a -> 0 < b -> 0 < c -> a * b * c < W -> length_set old (a, b, c) = (true, (a, b, c)).
Proof.
  intros Ha Hb Hc Hp. rewrite W_val in Hp. unfold length_set.
  replace ((a =? 0) || (b =? 0) || (c =? 0)) with false by lia.
  rewrite dbl_max64_eq.
  assert (rnd53 (rnd53 (rnd53 a + rnd53 b) + rnd53 c) <= 2 ^ 64) as K.
  2:{ replace (2 ^ 64 <? _) with false by lia. reflexivity. }
  assert (forall n, 0 <= n <= 2 ^ 64 -> 0 <= rnd53 n <= 2 ^ 64) as B.
  { intros n Hn. split; [apply rnd53_nonneg; lia|].
    destruct (Z.le_gt_cases n (2 ^ 64 - 2 ^ 12)) as [Hle|Hgt].
    - pose proof (rnd53_err n ltac:(lia)). change (2 ^ 53) with 9007199254740992 in *.
      change (2 ^ 64) with 18446744073709551616 in *. change (2 ^ 12) with 4096 in *. lia.
    - (* within 4096 of 2^64: unit in the last place is 2048 *)
      destruct (Z.eq_dec n (2 ^ 64)) as [->|Hne]; [rewrite rnd53_pow2; lia|].
      assert (Z.log2 n = 63) as L.
      { apply Z.log2_unique; [lia|]. change (Z.succ 63) with 64.
        change (2 ^ 63) with 9223372036854775808. change (2 ^ 64) with 18446744073709551616 in *.
        change (2 ^ 12) with 4096 in *. lia. }
      unfold rnd53. rewrite L. change (Z.max 0 (63 - 52)) with 11. cbn zeta.
      change (2 ^ 11) with 2048. change (2 ^ 64) with (9007199254740992 * 2048) in *.
      assert (n / 2048 <= 9007199254740991) by (Z.div_mod_to_equations; lia).
      destruct (_ <? _); [lia|]. destruct (_ <? _); [lia|]. destruct (Z.even _); lia. }
  assert (a <= 2 ^ 64 /\ b <= 2 ^ 64 /\ c <= 2 ^ 64) as (A64 & B64 & C64).
  { change (2 ^ 64) with 18446744073709551616. assert (0 < a * b) by nia. nia. }
  (* at most one length exceeds 2^32; sums of the others are tiny *)
  assert (a + b + c <= a * b * c + 2) as Sum.
  { assert (a + b <= a * b + 1) by nia. assert (0 < a * b) by nia. nia. }
  assert (2 ^ 53 * Z.abs (rnd53 a - a) <= a) as Ea by (apply rnd53_err; lia).
  assert (2 ^ 53 * Z.abs (rnd53 b - b) <= b) as Eb by (apply rnd53_err; lia).
  assert (2 ^ 53 * Z.abs (rnd53 c - c) <= c) as Ec by (apply rnd53_err; lia).
  destruct (Z.le_gt_cases (a + b + c) (2 ^ 63 + 3)) as [Hs|Hs].
  - (* far from the limit *)
    pose proof (rnd53_nonneg a ltac:(lia)). pose proof (rnd53_nonneg b ltac:(lia)).
    pose proof (rnd53_nonneg c ltac:(lia)).
    pose proof (rnd53_err (rnd53 a + rnd53 b) ltac:(lia)) as E1.
    pose proof (rnd53_nonneg (rnd53 a + rnd53 b) ltac:(lia)).
    pose proof (rnd53_err (rnd53 (rnd53 a + rnd53 b) + rnd53 c) ltac:(lia)) as E2.
    change (2 ^ 53) with 9007199254740992 in *. change (2 ^ 63) with 9223372036854775808 in *.
    change (2 ^ 64) with 18446744073709551616 in *. lia.
  - (* the product exceeds 2^63, so two of the lengths are 1 *)
    assert (rnd53 1 = 1) as R1 by reflexivity.
    assert ((a = 1 /\ b = 1) \/ (a = 1 /\ c = 1) \/ (b = 1 /\ c = 1)) as Two.
    { change (2 ^ 63) with 9223372036854775808 in Hs.
      destruct (Z.eq_dec a 1) as [->|Na]; destruct (Z.eq_dec b 1) as [->|Nb];
      destruct (Z.eq_dec c 1) as [->|Nc]; auto; exfalso.
      - assert (2 * (b + c - 2) <= b * c) by nia. lia.
      - assert (2 * (a + c - 2) <= a * c) by nia. lia.
      - assert (2 * (a + b - 2) <= a * b) by nia. lia.
      - assert (2 * (a + b - 2) <= a * b) by nia. assert (4 <= a * b) by nia.
        assert (2 * (a * b + c - 2) <= a * b * c) by nia. lia. }
    assert (forall n, 0 <= n <= 2 ^ 64 -> rnd53 (n + 1) <= 2 ^ 64) as B1.
    { intros n Hn. destruct (Z.eq_dec n (2 ^ 64)) as [->|]; [rewrite rnd53_above; lia|].
      apply B. lia. }
    destruct Two as [[-> ->]|[[-> ->]|[-> ->]]]; rewrite R1.
    + change (rnd53 (1 + 1)) with 2.
      pose proof (B c ltac:(lia)). destruct (Z.le_gt_cases (2 ^ 64) (2 + rnd53 c)).
      * rewrite rnd53_above; lia.
      * apply B. lia.
    + rewrite (Z.add_comm 1 (rnd53 b)). pose proof (B b ltac:(lia)). apply B1.
      split; [apply rnd53_nonneg; lia|apply B1; lia].
    + pose proof (B a ltac:(lia)). apply B1.
      split; [apply rnd53_nonneg; lia|apply B1; lia].
Qed.
Print Assumptions c07_fitting_length_accepted.

(** but lengths whose product does not fit are accepted too: the code checks the sum *)
Theorem c07_accepted_length_fits_refuted :
  exists a b c, is_u64 a /\ is_u64 b /\ is_u64 c /\
    length_set (1, 1, 1) (a, b, c) = (true, (a, b, c)) /\ W <= a * b * c.
Proof.
  exists (2 ^ 32), (2 ^ 32), 1. unfold is_u64. rewrite W_val.
  repeat (split; [vm_compute; try split; try reflexivity; discriminate|]). vm_compute. discriminate.
Qed.
Print Assumptions c07_accepted_length_fits_refuted.

(** ** C08 *)
(** exact number of cells up to and including level l *)
Definition total (g l : Z) : Z := before g (l + 1).

(** value of current_last after the iteration for level l *)
Fixpoint cur_after (g : Z) (n : nat) : Z :=
  match n with
  | O => 0
  | S k => maxlvl_step g (cur_after g k) (Z.of_nat k)
  end.

Lemma maxlvl_loop_spec g fuel : forall k,
  let r := maxlvl_loop fuel g (cur_after g k) (Z.of_nat k) in
  Z.of_nat k <= r <= Z.of_nat k + Z.of_nat fuel /\
  (forall j, (k <= j)%nat -> Z.of_nat j < r -> cur_after g j <= dbl_max64) /\
  (r < Z.of_nat k + Z.of_nat fuel -> dbl_max64 < cur_after g (Z.to_nat r)).
Proof.
  induction fuel as [|f IH]; intros k; cbn zeta.
  - cbn [maxlvl_loop]. split; [lia|]. split; intros; lia.
  - cbn [maxlvl_loop]. destruct (Z.leb_spec (cur_after g k) dbl_max64) as [Hle|Hgt].
    + specialize (IH (S k)). cbn zeta in IH.
      change (cur_after g (S k)) with (maxlvl_step g (cur_after g k) (Z.of_nat k)) in IH.
      replace (Z.of_nat (S k)) with (Z.of_nat k + 1) in IH by lia.
      destruct IH as (I1 & I2 & I3). split; [lia|]. split.
      * intros j Hj Hlt. destruct (Nat.eq_dec j k) as [->|]; [exact Hle|]. apply I2; lia.
      * intros Hr. apply I3. lia.
    + split; [lia|]. split; [intros; lia|]. intros _. rewrite Nat2Z.id. exact Hgt.
Qed.

Lemma total_succ g n : 0 <= n -> total g n = 8 * before g n + g.
Proof.
  intros H. unfold total. revert n H. apply natlike_ind.
  - rewrite before_succ by lia. rewrite before_0. change (8 ^ 0) with 1. lia.
  - intros x Hx IH. rewrite (before_succ g (Z.succ x)) by lia. rewrite Z.pow_succ_r by lia.
    replace (Z.succ x) with (x + 1) by lia. rewrite (before_succ g x) by lia.
    rewrite (before_succ g x) in IH by lia. lia.
Qed.

(** accumulated rounding error is at most 3 * 2^-53 of the exact value *)
Lemma cur_after_err g n : 0 <= g ->
  2 ^ 53 * Z.abs (cur_after g n - before g (Z.of_nat n)) <= 3 * before g (Z.of_nat n).
Proof.
  intros Hg. induction n as [|k IH].
  - cbn [cur_after]. change (Z.of_nat 0) with 0. rewrite before_0. cbn. lia.
  - cbn [cur_after]. unfold maxlvl_step.
    replace (Z.of_nat (S k)) with (Z.of_nat k + 1) by lia.
    pose proof (total_succ g (Z.of_nat k) ltac:(lia)) as T. unfold total in T.
    pose proof (before_succ g (Z.of_nat k) ltac:(lia)) as BS.
    pose proof (before_nonneg g (Z.of_nat k) Hg ltac:(lia)) as B0.
    pose proof (rnd53_err g Hg) as Eg. pose proof (rnd53_nonneg g Hg) as Ng.
    assert (0 < 8 ^ Z.of_nat k) as P8 by (apply Z.pow_pos_nonneg; lia).
    set (p := 8 ^ Z.of_nat k) in *. set (b := before g (Z.of_nat k)) in *.
    set (c := cur_after g k) in *. set (t := before g (Z.of_nat k + 1)) in *.
    assert (2 ^ 53 * Z.abs (rnd53 g * p - g * p) <= g * p) as Egp.
    { replace (rnd53 g * p - g * p) with ((rnd53 g - g) * p) by ring.
      rewrite Z.abs_mul, (Z.abs_eq p) by lia. nia. }
    assert (0 <= rnd53 g * p) by nia. assert (0 <= g * p) by nia.
    change (2 ^ 53) with 9007199254740992 in *.
    assert (0 <= c) by lia.
    pose proof (rnd53_err (c + rnd53 g * p) ltac:(lia)) as Es.
    change (2 ^ 53) with 9007199254740992 in *.
    set (s := rnd53 g * p) in *. set (gp := g * p) in *. set (r := rnd53 (c + s)) in *.
    lia.
Qed.

(** the reported maximum level k: all levels up to k pass the floating point test *)
Lemma maxpossible_iter m : 0 < grid64 m ->
  let k := get_maximum_possible_refinement_level m in
  -1 <= k <= 21 /\
  (forall l, 0 <= l <= k -> cur_after (grid64 m) (Z.to_nat (l + 1)) <= 2 ^ 64) /\
  2 ^ 64 < cur_after (grid64 m) (Z.to_nat (k + 2)).
Proof.
  intros Hg. cbn zeta. unfold get_maximum_possible_refinement_level.
  set (g := grid64 m) in *.
  pose proof (maxlvl_loop_spec g (Z.to_nat 343) 0) as S. cbn zeta in S.
  change (cur_after g 0) with 0 in S. change (Z.of_nat 0) with 0 in S.
  set (r := maxlvl_loop (Z.to_nat 343) g 0 0) in *. rewrite dbl_max64_eq in S.
  rewrite Z2Nat.id in S by lia.
  destruct S as (S1 & S2 & S3).
  assert (2 ^ 64 < cur_after g 23) as C23.
  { pose proof (cur_after_err g 23 ltac:(lia)) as E. change (Z.of_nat 23) with 23 in E.
    unfold before in *. change ((8 ^ 23 - 1) / 7) with 84327972908386521673 in *.
    change (2 ^ 53) with 9007199254740992 in *. change (2 ^ 64) with 18446744073709551616 in *. lia. }
  assert (r <= 23) as R23.
  { destruct (Z.le_gt_cases r 23) as [|Hgt]; [assumption|].
    specialize (S2 23%nat ltac:(lia) ltac:(lia)). lia. }
  specialize (S3 ltac:(lia)).
  assert (1 <= r) as R1.
  { destruct (Z.eq_dec r 0) as [E|]; [|lia]. rewrite E in S3. cbn in S3. lia. }
  split; [lia|]. split.
  - intros l Hl. apply S2; lia.
  - replace (r - 2 + 2) with r by lia. exact S3.
Qed.

(** The full claim would be [accepted -> total < 2^64]; it is refuted below. What holds is
    that an accepted level exceeds the 64-bit range by at most 2^13 cells, and that every level
    staying at least 2^13 below the limit is accepted. [grid64 m = l0*l1*l2] says that the
    number of level 0 cells itself does not wrap (see C07). *)
Theorem c08_level_limit_partial m l :
  0 < m_l0 m -> 0 < m_l1 m -> 0 < m_l2 m -> m_l0 m * m_l1 m * m_l2 m < W -> 0 <= l ->
  let g := m_l0 m * m_l1 m * m_l2 m in
  (l <= get_maximum_possible_refinement_level m -> total g l < W + 2 ^ 13) /\
  (total g l <= W - 2 ^ 13 -> l <= get_maximum_possible_refinement_level m).
Proof.
  intros H0 H1 H2 HW Hl. cbn zeta.
  assert (grid64 m = m_l0 m * m_l1 m * m_l2 m) as Eg.
  { unfold grid64, mul64. assert (0 < m_l0 m * m_l1 m) by nia.
    assert (m_l0 m * m_l1 m <= m_l0 m * m_l1 m * m_l2 m) by nia.
    rewrite (u64_small (m_l0 m * m_l1 m)) by lia. rewrite u64_small by lia. reflexivity. }
  assert (0 < grid64 m) as Hg by (rewrite Eg; assert (0 < m_l0 m * m_l1 m) by nia; nia).
  pose proof (maxpossible_iter m Hg) as (M1 & M2 & M3).
  rewrite <- Eg. set (g := grid64 m) in *. set (k := get_maximum_possible_refinement_level m) in *.
  rewrite W_val. change (2 ^ 13) with 8192. unfold total. split.
  - intros Hk. specialize (M2 l ltac:(lia)).
    pose proof (cur_after_err g (Z.to_nat (l + 1)) ltac:(lia)) as E. rewrite Z2Nat.id in E by lia.
    change (2 ^ 53) with 9007199254740992 in *. change (2 ^ 64) with 18446744073709551616 in *. lia.
  - intros Ht. destruct (Z.le_gt_cases l k) as [|Hgt]; [assumption|exfalso].
    pose proof (before_mono g (k + 2) (l + 1) ltac:(lia) ltac:(lia)) as Mo.
    pose proof (cur_after_err g (Z.to_nat (k + 2)) ltac:(lia)) as E. rewrite Z2Nat.id in E by lia.
    change (2 ^ 53) with 9007199254740992 in *. change (2 ^ 64) with 18446744073709551616 in *. lia.
Qed.
Print Assumptions c08_level_limit_partial.

(** levels above 21 are never accepted, whatever the (non-wrapping) grid *)
Theorem c08_never_above_21 m :
  0 < grid64 m -> get_maximum_possible_refinement_level m <= 21.
Proof. intros H. pose proof (maxpossible_iter m H) as ((_ & K) & _). exact K. Qed.
Print Assumptions c08_never_above_21.

(** a grid for which an overflowing level is accepted: 9 * ceil(2^64 / 9) = 2^64 + 2 *)
Definition limit_map : mapping := update_last_cell (Mapping 2049638230412172402 1 1 0 0).

Theorem c08_accepted_level_fits_refuted :
  exists m l, wf m /\ 0 <= l /\
    fst (set_maximum_refinement_level m l) = true /\
    W <= total (m_l0 m * m_l1 m * m_l2 m) l /\
    m_last (snd (set_maximum_refinement_level m l)) = 2.
Proof.
  exists limit_map, 1. split; [apply wfb_wf; vm_compute; reflexivity|]. split; [lia|].
  split; [vm_compute; reflexivity|]. split; [rewrite W_val; vm_compute; discriminate|].
  vm_compute. reflexivity.
Qed.
Print Assumptions c08_accepted_level_fits_refuted.

(** ** C09 *)
Definition consistent (m : mapping) : Prop :=
  0 <= m_max m <= get_maximum_possible_refinement_level m /\ m_last m = last_cell_of m.

Lemma last_cell_of_ext m m' : m_l0 m = m_l0 m' -> m_l1 m = m_l1 m' -> m_l2 m = m_l2 m' ->
  m_max m = m_max m' -> last_cell_of m = last_cell_of m'.
Proof.
  intros E0 E1 E2 E3. unfold last_cell_of. rewrite E3.
  induction (Z.to_nat (m_max m' + 1)) as [|n IH]; [reflexivity|]. cbn [add_levels]. rewrite IH.
  unfold level64, grid64. rewrite E0, E1, E2. reflexivity.
Qed.

(** a failing setter changes nothing; a succeeding one always refreshes the last cell *)
Theorem c09_setters_atomic m :
  (forall given, fst (set_length m given) = false -> snd (set_length m given) = m) /\
  (forall l, fst (set_maximum_refinement_level m l) = false -> snd (set_maximum_refinement_level m l) = m) /\
  (forall given, fst (set_length m given) = true ->
     let m' := snd (set_length m given) in
     (m_l0 m', m_l1 m', m_l2 m') = given /\ m_max m' = m_max m /\ m_last m' = last_cell_of m') /\
  (forall l, fst (set_maximum_refinement_level m l) = true ->
     let m' := snd (set_maximum_refinement_level m l) in
     (m_l0 m', m_l1 m', m_l2 m') = (m_l0 m, m_l1 m, m_l2 m) /\ m_max m' = l /\
     l <= get_maximum_possible_refinement_level m /\ m_last m' = last_cell_of m').
Proof.
  split; [|split; [|split]].
  - intros given. unfold set_length. pose proof (c07_refusal_changes_nothing (m_l0 m, m_l1 m, m_l2 m) given).
    destruct (length_set _ given) as [[] [[a b] c]]; cbn; congruence.
  - intros l. unfold set_maximum_refinement_level. destruct (_ <=? _); cbn; congruence.
  - intros given. unfold set_length.
    pose proof (c07_refusal_changes_nothing (m_l0 m, m_l1 m, m_l2 m) given) as [_ K].
    destruct (length_set _ given) as [[] [[a b] c]]; cbn in *; [|congruence].
    intros _. split; [auto|]. split; [reflexivity|]. apply last_cell_of_ext; reflexivity.
  - intros l. unfold set_maximum_refinement_level.
    destruct (Z.leb_spec l (get_maximum_possible_refinement_level m)); cbn; [|congruence].
    intros _. split; [reflexivity|]. split; [reflexivity|]. split; [assumption|].
    apply last_cell_of_ext; reflexivity.
Qed.
Print Assumptions c09_setters_atomic.

(** setting the length first and a level accepted for it afterwards, as the library's own
    set_initial_length / set_maximum_refinement_level calls are documented to be used, gives a
    consistent mapping which, away from the limit, is well formed *)
Theorem c09_length_then_level_partial m1 m2 m3 given l :
  set_length m1 given = (true, m2) -> set_maximum_refinement_level m2 l = (true, m3) -> 0 <= l ->
  consistent m3 /\
  (0 < m_l0 m3 -> 0 < m_l1 m3 -> 0 < m_l2 m3 -> total (m_l0 m3 * m_l1 m3 * m_l2 m3) l < W -> wf m3).
Proof.
  intros E1 E2 Hl. pose proof (c09_setters_atomic m2) as (_ & _ & _ & K). specialize (K l).
  rewrite E2 in K. cbn [fst snd] in K. specialize (K eq_refl). cbn zeta in K.
  destruct K as (KL & KM & KP & KLast). injection KL as K0 K1 K2.
  assert (get_maximum_possible_refinement_level m3 = get_maximum_possible_refinement_level m2) as Emp.
  { unfold get_maximum_possible_refinement_level, grid64. rewrite K0, K1, K2. reflexivity. }
  split.
  - unfold consistent. rewrite Emp, KM. split; [lia|assumption].
  - intros P0 P1 P2 HT. unfold total in HT.
    set (mm := Mapping (m_l0 m3) (m_l1 m3) (m_l2 m3) (m_max m3)
               (before (vol (dims_of m3)) (m_max m3 + 1))).
    assert (wf mm) as Hw.
    { unfold wf, mm; cbn. rewrite KM. repeat split; try lia. unfold vol; cbn. exact HT. }
    pose proof (last_cell_of_eq mm Hw) as L. cbn in L.
    assert (last_cell_of m3 = last_cell_of mm) as L' by (apply last_cell_of_ext; reflexivity).
    unfold wf. rewrite KLast, L', L. rewrite KM. cbn. repeat split; try lia.
    unfold vol; cbn. exact HT.
Qed.
Print Assumptions c09_length_then_level_partial.

(** any order of calls: refuted, a stale level survives set_length *)
Theorem c09_any_order_refuted :
  exists m2 m3, set_maximum_refinement_level default_mapping 21 = (true, m2) /\
    set_length m2 (1000, 1000, 1000) = (true, m3) /\ ~ consistent m3 /\
    m_last m3 <> before (vol (dims_of m3)) (m_max m3 + 1).
Proof.
  exists (snd (set_maximum_refinement_level default_mapping 21)).
  exists (snd (set_length (snd (set_maximum_refinement_level default_mapping 21)) (1000, 1000, 1000))).
  split; [vm_compute; reflexivity|]. split; [vm_compute; reflexivity|]. split.
  - intros [[_ H] _]. revert H. vm_compute. auto.
  - vm_compute. discriminate.
Qed.
Print Assumptions c09_any_order_refuted.

(** negative levels are accepted by the mapping and make later shifts undefined behaviour *)
Theorem c09_negative_level_refuted :
  exists m2, set_maximum_refinement_level default_mapping (-1) = (true, m2) /\
    ~ consistent m2 /\ ~ shift_defined (m_max m2).
Proof.
  exists (snd (set_maximum_refinement_level default_mapping (-1))).
  split; [vm_compute; reflexivity|]. split.
  - intros [[H _] _]. revert H. vm_compute. auto.
  - intros [H _]. revert H. vm_compute. auto.
Qed.
Print Assumptions c09_negative_level_refuted.

(** ** examples *)
Example c07_example : length_set (1, 1, 1) (100, 200, 300) = (true, (100, 200, 300)).
Proof. vm_compute. reflexivity. Qed.
Example c08_example : get_maximum_possible_refinement_level default_mapping = 21 /\
  get_maximum_possible_refinement_level (Mapping 100 200 300 0 6000000) = 13.
Proof. vm_compute. auto. Qed.
Example c08_wrapped_length : (* lengths accepted by C07's refutation: level 341 reported as possible *)
  get_maximum_possible_refinement_level (Mapping (2 ^ 32) (2 ^ 32) 1 0 0) = 341.
Proof. vm_compute. reflexivity. Qed.
