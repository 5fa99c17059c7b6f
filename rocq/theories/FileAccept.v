(** C10: which parameters of a geometry are accepted from a file (or by set()), in terms of the 64 bit
    floating point numbers that their bits stand for. *)
From Verif Require Import U64 MapModel FileModel.
From Coq Require Import Floats.SpecFloat.
Open Scope Z_scope.

(** the number with given bits in IEEE 754 binary64, independently of FileModel *)
Definition decode (b : Z) : spec_float :=
  let s := 2 ^ 63 <=? b in
  let e := (b / 2 ^ 52) mod 2048 in
  let f := b mod 2 ^ 52 in
  if e =? 2047 then (if f =? 0 then S754_infinity s else S754_nan)
  else if e =? 0 then match f with Zpos p => S754_finite s p (-1074) | _ => S754_zero s end
  else match 2 ^ 52 + f with Zpos p => S754_finite s p (e - 1075) | _ => S754_nan end.
Definition zero : spec_float := S754_zero false.

Lemma parts b : is_u64 b -> exists (s : bool) e f, b = (if s then 9223372036854775808 else 0) + e * 4503599627370496 + f /\ 0 <= e < 2048 /\ 0 <= f < 4503599627370496 /\
  (2 ^ 63 <=? b) = s /\ (b / 2 ^ 52) mod 2048 = e /\ b mod 2 ^ 52 = f.
Proof.
  unfold is_u64. rewrite W_val. intros H. change (2 ^ 52) with 4503599627370496. change (2 ^ 63) with 9223372036854775808.
  exists (9223372036854775808 <=? b), ((b / 4503599627370496) mod 2048), (b mod 4503599627370496).
  pose proof (Z.div_mod b 4503599627370496 ltac:(lia)). pose proof (Z.mod_pos_bound b 4503599627370496 ltac:(lia)). pose proof (Z.div_mod (b / 4503599627370496) 2048 ltac:(lia)). pose proof (Z.mod_pos_bound (b / 4503599627370496) 2048 ltac:(lia)).
  assert (b / 4503599627370496 / 2048 = if 9223372036854775808 <=? b then 1 else 0) by (rewrite Z.div_div by lia; destruct (Z.leb_spec 9223372036854775808 b); [symmetry; apply Z.div_unique with (b - 9223372036854775808)|apply Z.div_small]; lia).
  split; [|auto]. destruct (9223372036854775808 <=? b); lia.
Qed.
(** sign, exponent and fraction as a number that can be compared *)
Definition rank_of (x : spec_float) : option Z :=
  match x with
  | S754_nan => None
  | S754_zero _ => Some 0
  | S754_infinity s => Some ((if s then -1 else 1) * (2047 * 4503599627370496))
  | S754_finite s p e => Some ((if s then -1 else 1) * (Zpos p + (e + 1074) * 4503599627370496))
  end.
Definition fine (x : spec_float) : Prop :=
  match x with S754_finite _ p e => Zpos p < 9007199254740992 /\ -1074 <= e <= 971 /\ (4503599627370496 <= Zpos p \/ e = -1074) | _ => True end.
Lemma rank_le x y : fine x -> fine y -> SFleb x y = match rank_of x, rank_of y with Some a, Some b => a <=? b | _, _ => false end.
Proof.
  intros Fx Fy. destruct x as [s|s| |s p e], y as [s'|s'| |s' p' e']; cbn [fine] in Fx, Fy; unfold SFleb; cbn [SFcompare rank_of]; try reflexivity;
    try (destruct s; try destruct s'; symmetry; (apply Z.leb_le || apply Z.leb_gt); lia).
  - destruct s, s'; [| | |].
    + pose proof (Z.compare_spec e e') as C. change (Pos.compare_cont Eq p p') with (Zpos p ?= Zpos p'). pose proof (Z.compare_spec (Zpos p) (Zpos p')) as C'. destruct (e ?= e'); inversion C; [destruct (Zpos p ?= Zpos p'); inversion C'; cbn [CompOpp]| |]; symmetry; (apply Z.leb_le || apply Z.leb_gt); lia.
    + symmetry; apply Z.leb_le; lia.
    + symmetry; apply Z.leb_gt; lia.
    + pose proof (Z.compare_spec e e') as C. change (Pos.compare_cont Eq p p') with (Zpos p ?= Zpos p'). pose proof (Z.compare_spec (Zpos p) (Zpos p')) as C'. destruct (e ?= e'); inversion C; [destruct (Zpos p ?= Zpos p'); inversion C'; cbn [CompOpp]| |]; symmetry; (apply Z.leb_le || apply Z.leb_gt); lia.
Qed.
Lemma decode_ok b : is_u64 b -> fine (decode b) /\ rank_of (decode b) = if nan_bits b then None else Some (order_key b).
Proof.
  intros H. destruct (parts b H) as (s & e & f & Eb & He & Hf & Es & Ee & Ef). unfold decode. rewrite Es, Ee, Ef. unfold nan_bits, order_key.
  assert (b mod 2 ^ 63 = e * 4503599627370496 + f) as ->. { change (2 ^ 63) with 9223372036854775808. symmetry. apply Z.mod_unique_pos with (if s then 1 else 0); [lia|]. destruct s; lia. }
  change (2 ^ 52) with 4503599627370496. change (2 ^ 63) with 9223372036854775808 in *.
  assert ((b <? 9223372036854775808) = negb s) as -> by (destruct s; cbn [negb]; [apply Z.ltb_ge; apply Z.leb_le in Es|apply Z.ltb_lt; apply Z.leb_gt in Es]; lia).
  destruct (Z.eqb_spec e 2047) as [E|E].
  - destruct (Z.eqb_spec f 0) as [F|F]; (split; [exact I|]); cbn [rank_of].
    + destruct (Z.ltb_spec (4503599627370496 * 2047) (e * 4503599627370496 + f)); [lia|]. f_equal. destruct s; cbn [negb]; lia.
    + destruct (Z.ltb_spec (4503599627370496 * 2047) (e * 4503599627370496 + f)); [reflexivity|lia].
  - assert ((4503599627370496 * 2047 <? e * 4503599627370496 + f) = false) as -> by (apply Z.ltb_ge; lia). destruct (Z.eqb_spec e 0) as [E0|E0].
    + destruct f as [|p|p]; [split; [exact I|]| |lia].
      * cbn [rank_of]. f_equal. destruct s; cbn [negb]; lia.
      * split; [cbn [fine]; lia|]. cbn [rank_of]. f_equal. destruct s; cbn [negb]; lia.
    + destruct (4503599627370496 + f) as [|p|p] eqn:Ep; [lia| |lia]. split; [cbn [fine]; lia|]. cbn [rank_of]. f_equal. destruct s; cbn [negb]; lia.
Qed.

(** the comparison of FileModel is that of IEEE 754 *)
Theorem c10_bits_compare_as_doubles a b : is_u64 a -> is_u64 b -> dbl_le a b = SFleb (decode a) (decode b).
Proof.
  intros Ha Hb. destruct (decode_ok a Ha) as (Fa & Ra). destruct (decode_ok b Hb) as (Fb & Rb). rewrite (rank_le _ _ Fa Fb), Ra, Rb. unfold dbl_le. destruct (nan_bits a), (nan_bits b); reflexivity.
Qed.

(** set() of the Cartesian geometry: all lengths have to be something else than a number up to zero *)
Theorem c10_cartesian_accepted old given : (forall x, In x (c_len given) -> is_u64 x) ->
  ((forall x, In x (c_len given) -> SFleb (decode x) zero = false) -> cartesian_set old given = (true, given)) /\
  (forall x, In x (c_len given) -> SFleb (decode x) zero = true -> cartesian_set old given = (false, old)).
Proof.
  intros U. assert (is_u64 dbl_zero) as U0 by (unfold is_u64, dbl_zero; rewrite W_val; lia). change zero with (decode dbl_zero). unfold cartesian_set. split.
  - intros H. replace (existsb _ _) with false; [reflexivity|]. symmetry. apply not_true_is_false. intros E. apply existsb_exists in E. destruct E as (x & I & E). rewrite (c10_bits_compare_as_doubles x dbl_zero (U x I) U0), (H x I) in E. discriminate.
  - intros x I H. replace (existsb _ _) with true; [reflexivity|]. symmetry. apply existsb_exists. exists x. split; [assumption|]. rewrite (c10_bits_compare_as_doubles x dbl_zero (U x I) U0). assumption.
Qed.
(** lengths that are numbers are accepted exactly if they are positive *)
Theorem c10_cartesian_positive old given : (forall x, In x (c_len given) -> is_u64 x /\ decode x <> S754_nan) ->
  fst (cartesian_set old given) = true <-> forall x, In x (c_len given) -> SFltb zero (decode x) = true.
Proof.
  intros U. assert (forall x, In x (c_len given) -> is_u64 x) as U' by (intros x I; apply U, I). destruct (c10_cartesian_accepted old given U') as (A & B).
  assert (forall x, In x (c_len given) -> SFltb zero (decode x) = negb (SFleb (decode x) zero)) as N. { intros x I. destruct (U x I) as (_ & N). destruct (decode x) as [|[]| |[]]; try reflexivity. destruct N. reflexivity. }
  split.
  - intros E x I. rewrite (N x I). destruct (SFleb (decode x) zero) eqn:L; [|reflexivity]. rewrite (B x I L) in E. discriminate.
  - intros H. rewrite A; [reflexivity|]. intros x I. specialize (H x I). rewrite (N x I) in H. destruct (SFleb (decode x) zero); [discriminate|reflexivity].
Qed.
(** "Cell length must be > 0": a length that is not a number is accepted *)
Definition not_a_number : Z := 2047 * 2 ^ 52 + 2 ^ 51.
Theorem c10_cartesian_nan_refuted : ~ (forall old given, (forall x, In x (c_len given) -> is_u64 x) -> fst (cartesian_set old given) = true -> forall x, In x (c_len given) -> SFltb zero (decode x) = true).
Proof.
  intros H. assert (SFltb zero (decode not_a_number) = true) as Q; [|vm_compute in Q; discriminate Q].
  apply (H default_cartesian (Cartesian [dbl_zero; dbl_zero; dbl_zero] [not_a_number; dbl_one; dbl_one])); [|vm_compute; reflexivity|left; reflexivity].
  intros x [<-|[<-|[<-|[]]]]; unfold is_u64; rewrite W_val; vm_compute; intuition discriminate.
Qed.

(** ** Stretched geometry *)
Lemma increasing_iff l : increasing_bits l = true <-> forall i a b, nth_error l i = Some a -> nth_error l (S i) = Some b -> dbl_le b a = false.
Proof.
  induction l as [|x l IH]; [split; [intros _ [|i] a b E; discriminate E|reflexivity]|]. cbn [increasing_bits]. destruct l as [|y l].
  - split; [|reflexivity]. intros _ [|i] a b E F; [discriminate F|]. destruct i; discriminate F.
  - rewrite andb_true_iff, IH, negb_true_iff. split.
    + intros (A & B) [|i] a b E F; [injection E as <-; injection F as <-; assumption|]. apply (B i a b E F).
    + intros H. split; [apply (H 0%nat x y); reflexivity|]. intros i a b E F. apply (H (S i) a b E F).
Qed.
Definition u64s (l : list Z) : Prop := forall x, In x l -> is_u64 x.
(** one more coordinate than cells, and no coordinate is less than or equal to the one before it *)
Definition fits (n : Z) (l : list Z) : Prop :=
  Z.of_nat (length l) = n + 1 /\ forall i a b, nth_error l i = Some a -> nth_error l (S i) = Some b -> SFleb (decode b) (decode a) = false.
Lemma coordinates_iff n l : 1 <= n < W - 1 -> u64s l -> coordinates_ok n l = true <-> fits n l.
Proof.
  intros Hn U. unfold coordinates_ok, fits. rewrite !andb_true_iff, increasing_iff, Z.leb_le, Z.eqb_eq. unfold add64. rewrite u64_small by lia. split.
  - intros ((_ & L) & H). split; [assumption|]. intros i a b E F. rewrite <- c10_bits_compare_as_doubles; [apply (H i a b E F)|apply U, (nth_error_In l (S i) F)|apply U, (nth_error_In l i E)].
  - intros (L & H). split; [lia|]. intros i a b E F. rewrite c10_bits_compare_as_doubles; [apply (H i a b E F)|apply U, (nth_error_In l (S i) F)|apply U, (nth_error_In l i E)].
Qed.
(** set() of the stretched geometry accepts exactly these and otherwise changes nothing *)
Theorem c10_stretched_accepted m old given : (forall n, In n [m_l0 m; m_l1 m; m_l2 m] -> 1 <= n < W - 1) -> u64s (s_x given) -> u64s (s_y given) -> u64s (s_z given) ->
  (fits (m_l0 m) (s_x given) /\ fits (m_l1 m) (s_y given) /\ fits (m_l2 m) (s_z given) -> stretched_set m old given = (true, given)) /\
  (~ (fits (m_l0 m) (s_x given) /\ fits (m_l1 m) (s_y given) /\ fits (m_l2 m) (s_z given)) -> stretched_set m old given = (false, old)).
Proof.
  intros Hn Ux Uy Uz. rewrite <- !coordinates_iff by (try assumption; apply Hn; cbn; tauto). unfold stretched_set.
  destruct (coordinates_ok (m_l0 m) (s_x given)), (coordinates_ok (m_l1 m) (s_y given)), (coordinates_ok (m_l2 m) (s_z given)); cbn [andb]; intuition discriminate.
Qed.
(** coordinates that are numbers fit exactly if every one is less than all later ones *)
Theorem c10_stretched_increasing n l : u64s l -> (forall x, In x l -> decode x <> S754_nan) ->
  fits n l <-> Z.of_nat (length l) = n + 1 /\ forall i j a b, (i < j)%nat -> nth_error l i = Some a -> nth_error l j = Some b -> SFltb (decode a) (decode b) = true.
Proof.
  intros U N. unfold fits. assert (forall a b, In a l -> In b l -> exists x y, rank_of (decode a) = Some x /\ rank_of (decode b) = Some y /\ (SFleb (decode b) (decode a) = false <-> x < y) /\ (SFltb (decode a) (decode b) = true <-> x < y)) as K.
  { assert (forall a, In a l -> fine (decode a) /\ exists x, rank_of (decode a) = Some x) as K0.
    { intros a I. destruct (decode_ok a (U a I)) as (F & R). split; [assumption|]. pose proof (N a I) as Na. destruct (decode a); cbn [rank_of] in *; eauto. destruct Na. reflexivity. }
    intros a b Ia Ib. destruct (K0 a Ia) as (Fa & x & Ra). destruct (K0 b Ib) as (Fb & y & Rb). exists x, y. split; [assumption|]. split; [assumption|].
    assert (SFleb (decode b) (decode a) = false <-> x < y) as Q by (rewrite (rank_le _ _ Fb Fa), Ra, Rb; apply Z.leb_gt). split; [exact Q|]. rewrite <- Q.
    pose proof (N a Ia) as Na. pose proof (N b Ib) as Nb. destruct (decode a) as [s|s| |s p e], (decode b) as [s'|s'| |s' p' e']; try (destruct Na; reflexivity); try (destruct Nb; reflexivity); unfold SFleb, SFltb; cbn [SFcompare];
      try (destruct s; try destruct s'; split; (reflexivity || discriminate)); try (destruct s'; split; (reflexivity || discriminate)); try (split; (reflexivity || discriminate)).
    rewrite (Z.compare_antisym e e'). change (Pos.compare_cont Eq p' p) with (Zpos p' ?= Zpos p). change (Pos.compare_cont Eq p p') with (Zpos p ?= Zpos p'). rewrite (Z.compare_antisym (Zpos p) (Zpos p')).
    destruct s, s', (e ?= e'), (Zpos p ?= Zpos p'); cbn; split; (reflexivity || discriminate). }
  split; intros (L & H); (split; [assumption|]).
  - intros i j a b Hij. revert b. induction Hij as [|j Hij IH]; intros b Ea Eb.
    + destruct (K a b (nth_error_In l i Ea) (nth_error_In l (S i) Eb)) as (x & y & _ & _ & Q1 & Q2). apply Q2, Q1, (H i a b Ea Eb).
    + destruct (nth_error l j) as [c|] eqn:Ec; [|apply nth_error_None in Ec; assert (S j < length l)%nat by (apply nth_error_Some; congruence); lia].
      specialize (IH c Ea eq_refl). destruct (K a c (nth_error_In l i Ea) (nth_error_In l j Ec)) as (x & y & Rx & Ry & _ & Q2). destruct (K c b (nth_error_In l j Ec) (nth_error_In l (S j) Eb)) as (y' & z & Ry' & Rz & Q3 & _).
      destruct (K a b (nth_error_In l i Ea) (nth_error_In l (S j) Eb)) as (x' & z' & Rx' & Rz' & _ & Q4). assert (y' = y) by congruence. assert (x' = x) by congruence. assert (z' = z) by congruence. subst. apply Q4. apply Q2 in IH. pose proof (proj1 Q3 (H j c b Ec Eb)). lia.
  - intros i a b Ea Eb. destruct (K a b (nth_error_In l i Ea) (nth_error_In l (S i) Eb)) as (x & y & _ & _ & Q1 & Q2). apply Q1, Q2, (H i (S i) a b ltac:(lia) Ea Eb).
Qed.
(** "all values must be strictly increasing": not with a coordinate that is not a number *)
Theorem c10_stretched_nan_refuted : ~ (forall m old given, (forall n, In n [m_l0 m; m_l1 m; m_l2 m] -> 1 <= n < W - 1) -> u64s (s_x given) -> u64s (s_y given) -> u64s (s_z given) -> fst (stretched_set m old given) = true ->
  forall i j a b, (i < j)%nat -> nth_error (s_x given) i = Some a -> nth_error (s_x given) j = Some b -> SFltb (decode a) (decode b) = true).
Proof.
  intros H. assert (SFltb (decode dbl_one) (decode dbl_zero) = true) as Q; [|vm_compute in Q; discriminate Q].
  assert (forall l, forallb (fun x => (0 <=? x) && (x <? 18446744073709551616)) l = true -> u64s l) as U. { intros l E x I. rewrite forallb_forall in E. specialize (E x I). unfold is_u64. rewrite W_val. lia. }
  apply (H (Mapping 2 1 1 0 2) default_stretched (Stretched [dbl_one; not_a_number; dbl_zero] [dbl_zero; dbl_one] [dbl_zero; dbl_one])) with 0%nat 2%nat; try (apply U; vm_compute; reflexivity); [|vm_compute; reflexivity|lia|reflexivity|reflexivity].
  intros n I. rewrite W_val. destruct I as [<-|[<-|[<-|[]]]]; cbn; lia.
Qed.
(** -1, -0.5, 0 and 3 fit a grid of three cells; -0.5, -1, 0 and 3, and -1, 0, 0, 3 with zeros of different sign do not *)
Definition minus (b : Z) : Z := 2 ^ 63 + b.
Definition half_bits : Z := 2 ^ 52 * 1022.
Definition three_bits : Z := 2 ^ 52 * 1024 + 2 ^ 51.
Example c10_accept_example :
  decode (minus half_bits) = S754_finite true 4503599627370496 (-53) /\ decode three_bits = S754_finite false 6755399441055744 (-51) /\
  fst (stretched_set (Mapping 3 1 1 0 3) default_stretched (Stretched [minus dbl_one; minus half_bits; dbl_zero; three_bits] [dbl_zero; dbl_one] [dbl_zero; dbl_one])) = true /\
  fst (stretched_set (Mapping 3 1 1 0 3) default_stretched (Stretched [minus half_bits; minus dbl_one; dbl_zero; three_bits] [dbl_zero; dbl_one] [dbl_zero; dbl_one])) = false /\
  fst (stretched_set (Mapping 3 1 1 0 3) default_stretched (Stretched [minus dbl_one; minus dbl_zero; dbl_zero; three_bits] [dbl_zero; dbl_one] [dbl_zero; dbl_one])) = false /\
  fst (cartesian_set default_cartesian (Cartesian [dbl_zero; dbl_zero; dbl_zero] [three_bits; half_bits; dbl_one])) = true /\
  fst (cartesian_set default_cartesian (Cartesian [dbl_zero; dbl_zero; dbl_zero] [three_bits; minus half_bits; dbl_one])) = false.
Proof. vm_compute. auto 10. Qed.
Print Assumptions c10_bits_compare_as_doubles.
Print Assumptions c10_stretched_accepted.
Print Assumptions c10_stretched_increasing.
