(** C70: the geometries compute with 64 bit floating point numbers. When the start and the size
    of unrefined cells are multiples of a power of two and the grid is not too long for it, nothing
    is rounded and the results are those of exact arithmetic. *)
From Coq Require Import QArith Qround Floats.SpecFloat Lqa.
From Verif Require Import U64 MapModel MapSpec MapProofs MapProps HoodModel MeshSpec MeshBase GeoModel GeoBase GeoProps FloatBase FloatDiv.
Open Scope Z_scope.

(** the number that a double stands for, none for infinities and NaN *)
Definition real_of (x : spec_float) : option Q :=
  match x with
  | S754_zero _ => Some 0%Q
  | S754_finite s p e => Some (dy (cond_Zopp s (Zpos p)) e)
  | _ => None
  end.
Definition double (x : spec_float) : Prop := valid_binary 53 1024 x = true.
(** x is the double that stands for a; the NaN of exact arithmetic is NaN *)
Definition agree (a : option Q) (x : spec_float) : Prop :=
  match a with Some q => is x q | None => x = S754_nan end.

Lemma is_real x q : is x q -> exists q', real_of x = Some q' /\ (q' == q)%Q /\ is x q'.
Proof.
  destruct x as [s| | |s p e]; try contradiction; cbn [is real_of].
  - intros H. exists 0%Q. split; [reflexivity|]. split; [symmetry; assumption|reflexivity].
  - intros [B H]. eexists. split; [reflexivity|]. split; [symmetry; assumption|]. split; [assumption|reflexivity].
Qed.
Lemma real_is x q : double x -> real_of x = Some q -> is x q.
Proof.
  destruct x as [s| | |s p e]; try discriminate; cbn [is real_of]; intros D [= <-]; [reflexivity|]. split; [exact D|reflexivity].
Qed.

(** ** Multiples of 2^w of limited size *)
Definition lat (w B : Z) (q : Q) : Prop := exists n, (q == dy n w)%Q /\ Z.abs n <= B.
Lemma lat_fits w B q : lat w B q -> B < 2 ^ 53 -> -1074 <= w <= 971 -> fits q.
Proof. intros (n & E & L) HB Hw. exists n, w. split; [split; [lia|assumption]|assumption]. Qed.
Lemma lat_eq w B p q : (p == q)%Q -> lat w B p -> lat w B q.
Proof. intros E (n & En & L). exists n. rewrite <- E. auto. Qed.
Lemma lat_le w B B' q : B <= B' -> lat w B q -> lat w B' q.
Proof. intros H (n & E & L). exists n. split; [assumption|lia]. Qed.
Lemma lat_fine w w' B q : w' <= w -> lat w B q -> lat w' (B * 2 ^ (w - w')) q.
Proof.
  intros H (n & E & L). exists (n * 2 ^ (w - w')). split; [rewrite E; apply dy_shift; assumption|]. pose proof (Z.pow_pos_nonneg 2 (w - w') ltac:(lia) ltac:(lia)). rewrite Z.abs_mul, (Z.abs_eq (2 ^ _)) by lia. nia.
Qed.
Lemma lat_add w B B' p q : lat w B p -> lat w B' q -> lat w (B + B') (p + q).
Proof. intros (n & E & L) (n' & E' & L'). exists (n + n'). split; [rewrite E, E', dy_plus; reflexivity|lia]. Qed.
Lemma lat_opp w B q : lat w B q -> lat w B (- q).
Proof. intros (n & E & L). exists (- n). split; [rewrite E, dy_opp; reflexivity|lia]. Qed.
Lemma lat_sub w B B' p q : lat w B p -> lat w B' q -> lat w (B + B') (p - q).
Proof. intros H H'. apply (lat_add w B B' p (- q) H (lat_opp w B' q H')). Qed.
Lemma lat_scale w B i q : lat w B q -> lat w (Z.abs i * B) (inject_Z i * q).
Proof.
  intros (n & E & L). exists (i * n). split; [rewrite E; unfold dy; rewrite inject_Z_mult; ring|]. rewrite Z.abs_mul. nia.
Qed.
Lemma pow_q k : 0 <= k -> (0 < inject_Z (2 ^ k))%Q.
Proof. intros H. change 0%Q with (inject_Z 0). rewrite <- Zlt_Qlt. apply Z.pow_pos_nonneg; lia. Qed.
Lemma lat_half w B k q : 0 <= k -> lat w B q -> lat (w - k) B (q / inject_Z (2 ^ k)).
Proof.
  intros Hk (n & E & L). exists n. split; [|assumption]. rewrite E. pose proof (pow_q k Hk) as P. unfold dy. replace w with ((w - k) + k) at 1 by lia. rewrite two_plus, (two_Z k Hk). field. lra.
Qed.
Lemma lat_int n : lat 0 (Z.abs n) (inject_Z n).
Proof. exists n. split; [symmetry; apply dy_Z|lia]. Qed.
Lemma lat_dy n w : lat w (Z.abs n) (dy n w).
Proof. exists n. split; [reflexivity|lia]. Qed.

(** ** Operations on doubles that stand for such numbers *)
Lemma of_Z_small n : Z.abs n < 2 ^ 53 -> is (b64_of_Z n) (inject_Z n).
Proof. intros H. apply of_Z_is, fits_int, H. Qed.
Lemma of_Z_pow k : 0 <= k <= 971 -> is (b64_of_Z (2 ^ k)) (inject_Z (2 ^ k)).
Proof. intros H. apply of_Z_is, fits_pow, H. Qed.
Lemma div_pow x p k : is x p -> 0 <= k <= 971 -> fits (p / inject_Z (2 ^ k)) -> is (SFdiv 53 1024 x (b64_of_Z (2 ^ k))) (p / inject_Z (2 ^ k)).
Proof.
  intros Hx Hk Hf. pose proof (pow_q k ltac:(lia)) as P. apply (div_exact x _ p (inject_Z (2 ^ k))); [assumption|apply of_Z_pow; assumption|lra|field; lra|assumption].
Qed.
Lemma div_2 x p : is x p -> fits (p / inject_Z 2) -> is (SFdiv 53 1024 x (b64_of_Z 2)) (p / inject_Z 2).
Proof. exact (fun Hx Hf => div_pow x p 1 Hx ltac:(lia) Hf). Qed.
Lemma unit_div k : 0 <= k <= 971 -> is (SFdiv 53 1024 (b64_of_Z 1) (b64_of_Z (2 ^ k))) (inject_Z 1 / inject_Z (2 ^ k)).
Proof.
  intros Hk. apply div_pow; [apply of_Z_small; cbn; lia|assumption|]. apply (lat_fits (0 - k) 1); [apply lat_half; [lia|apply (lat_int 1)]|reflexivity|lia].
Qed.

(** ** Geometries without rounding *)
(** start and cell size are multiples of 2^u, and the grid has less than 2^52 halves of the smallest cells
    counted in units of 2^u *)
Definition dyadic (m : mapping) (g : cartesian binary64) : Prop :=
  forall k, exists S L u, is (ca_start g k) (dy S u) /\ is (ca_length0 g k) (dy L u) /\ 0 < L /\
    (Z.abs S + mlen m k * L) * 2 ^ (m_max m + 1) < 2 ^ 52 /\ m_max m - 1000 <= u <= 900.
(** the same geometry in exact arithmetic *)
Definition exact_of (g : cartesian binary64) : cartesian exact :=
  Cartesian (A := exact) (fun k => real_of (ca_start g k)) (fun k => real_of (ca_length0 g k)).

Section Cells.
Context (m : mapping) (Hwf : wf m) (c : Z) (Hc : valid m c) (k : dim).
Let i := get (get_indices m c) k.
Let l := get_refinement_level m c.
Lemma cell_numbers : 0 <= l <= m_max m /\ 0 <= i /\ i + 2 ^ (m_max m - l) <= mlen m k * 2 ^ m_max m /\ shl1 l = 2 ^ l /\ shl1 (m_max m) = 2 ^ m_max m /\ m_max m <= 21 /\ no_such_cell m c = false /\ 0 < mlen m k.
Proof.
  pose proof (cell_level m Hwf c Hc) as A. pose proof (cell_lines m Hwf c k Hc) as (B1 & B2 & B3). rewrite (cell_len m Hwf c Hc) in B2, B3.
  pose proof (level_shift m Hwf c Hc) as [D _]. pose proof (max_shift m Hwf) as [E _]. pose proof (wf_max_le_21 m Hwf). pose proof (mlen_pos m Hwf k).
  unfold glen, lvl_of, idx_of in *. fold l in A, B2, B3, D. fold i in B1, B2, B3. pose proof (valid_exists m Hwf c Hc). tauto.
Qed.
End Cells.

Lemma pow_split a b : 0 <= b <= a -> 2 ^ a = 2 ^ (a - b) * 2 ^ b.
Proof. intros H. rewrite <- Z.pow_add_r by lia. f_equal. lia. Qed.

Section Boxes.
Context (m : mapping) (g : cartesian binary64) (Hwf : wf m) (Hg : dyadic m g).
Lemma finite_of : finite (exact_of g).
Proof.
  intros k. destruct (Hg k) as (S & L & u & Hs & Hl & PL & _). destruct (is_real _ _ Hs) as (s & Es & _). destruct (is_real _ _ Hl) as (h & Eh & Qh & _).
  exists s, h. cbn [exact_of ca_start ca_length0]. split; [assumption|]. split; [assumption|]. rewrite Qh. destruct L as [|L|L]; try lia. apply dy_pos.
Qed.

Section Dim.
Context (k : dim) (s h : Q) (S L u : Z) (Hs : is (ca_start g k) s) (Hh : is (ca_length0 g k) h)
  (Es : real_of (ca_start g k) = Some s) (Eh : real_of (ca_length0 g k) = Some h) (Ls : lat u (Z.abs S) s) (Lh : lat u L h) (PL : 0 < L)
  (HB : (Z.abs S + mlen m k * L) * 2 ^ (m_max m + 1) < 2 ^ 52) (Hu : m_max m - 1000 <= u <= 900).
Let M := 2 ^ m_max m.
Lemma sizes : 1 <= M /\ 2 ^ (m_max m + 1) = 2 * M /\ 0 <= m_max m <= 21 /\ 0 < mlen m k /\ mlen m k <= mlen m k * L /\ mlen m k * L <= mlen m k * L * M.
Proof.
  pose proof (wf_max_le_21 m Hwf) as H. pose proof (mlen_pos m Hwf k). assert (0 < M) by (apply Z.pow_pos_nonneg; lia).
  split; [lia|]. split; [rewrite Z.pow_add_r by lia; change (2 ^ 1) with 2; unfold M; lia|]. split; [assumption|]. split; [assumption|]. split; nia.
Qed.
Lemma lat_w q B : lat u B q -> lat (u - m_max m - 1) (B * (2 * M)) q.
Proof.
  destruct sizes as (_ & E & Hm21 & _). intros H. apply (lat_fine u (u - m_max m - 1)) in H; [|lia]. replace (u - (u - m_max m - 1)) with (m_max m + 1) in H by lia. rewrite E in H. exact H.
Qed.

Lemma end_is : agree (ca_end exact m (exact_of g) k) (ca_end binary64 m g k).
Proof.
  destruct sizes as (M1 & EM & Hm & Pm & L1 & L2). rewrite EM in HB. assert (Z.abs S + mlen m k * L < 2 ^ 52) as B1 by nia.
  unfold ca_end. cbn [exact binary64 exact_of add mul of_u64 ca_start ca_length0]. rewrite Es, Eh. cbn [lift2 agree].
  assert (lat u (mlen m k * L) (inject_Z (mlen m k) * h)) as La by (rewrite <- (Z.abs_eq (mlen m k)) at 1 by lia; apply lat_scale, Lh).
  apply add_exact; [assumption| |].
  - apply mul_exact; [apply of_Z_small; lia|assumption|]. apply (lat_fits _ _ _ La); lia.
  - apply (lat_fits _ _ _ (lat_add _ _ _ _ _ Ls La)); lia.
Qed.

Section Cell.
Context (c : Z) (Hc : valid m c).
Let i := get (get_indices m c) k.
Let l := get_refinement_level m c.
Lemma length_is : exists q, ca_length exact m (exact_of g) c k = Some q /\ is (ca_length binary64 m g c k) q /\ lat (u - l) L q.
Proof.
  destruct (cell_numbers m Hwf c Hc k) as (Hl & _ & _ & E1 & E2 & H21 & Ex & _). fold l in Hl, E1. destruct sizes as (M1 & EM & Hm & Pm & L1 & L2). rewrite EM in HB.
  unfold ca_length. rewrite Ex. fold l. rewrite E1. cbn [exact binary64 exact_of mul div of_u64 ca_start ca_length0]. rewrite Eh, (div_some _ _ (pow_q l ltac:(lia))). cbn [lift2].
  eexists. split; [reflexivity|]. assert (lat (u - l) L (h * (inject_Z 1 / inject_Z (2 ^ l)))) as La.
  { apply (lat_eq _ _ (h / inject_Z (2 ^ l))); [pose proof (pow_q l ltac:(lia)); change (inject_Z 1) with 1%Q; field; lra|]. apply lat_half; [lia|assumption]. }
  split; [|assumption]. apply mul_exact; [assumption|apply unit_div; lia|]. apply (lat_fits _ _ _ La); nia.
Qed.
Lemma half_length q : lat (u - l) L q -> lat (u - m_max m - 1) (L * 2 ^ (m_max m - l)) (q / inject_Z 2).
Proof.
  destruct (cell_numbers m Hwf c Hc k) as (Hl & _). fold l in Hl. intros H. apply (lat_half _ _ 1) in H; [|lia]. change (2 ^ 1) with 2 in H.
  apply (lat_fine _ (u - m_max m - 1)) in H; [|lia]. replace (u - l - 1 - (u - m_max m - 1)) with (m_max m - l) in H by lia. exact H.
Qed.
Lemma center_is : exists q, ca_center exact m (exact_of g) c k = Some q /\ is (ca_center binary64 m g c k) q /\
  lat (u - m_max m - 1) (Z.abs S * (2 * M) + 2 * i * L + L * 2 ^ (m_max m - l)) q.
Proof.
  destruct length_is as (q & Eq & Iq & Lq). destruct (cell_numbers m Hwf c Hc k) as (Hl & Hi & Hil & E1 & E2 & H21 & Ex & _). fold l in Hl, Hil, E1. fold i in Hi, Hil.
  destruct sizes as (M1 & EM & Hm & Pm & L1 & L2). rewrite EM in HB. fold M in Hil. pose proof (Z.pow_pos_nonneg 2 (m_max m - l) ltac:(lia) ltac:(lia)) as P.
  assert (2 * i * L + 2 * (L * 2 ^ (m_max m - l)) <= mlen m k * L * (2 * M)) as Bi by nia.
  unfold ca_center. rewrite Ex, Eq. fold i. rewrite E2. cbn [exact binary64 exact_of add mul div of_u64 ca_start ca_length0]. rewrite Es, Eh. cbn [lift2]. rewrite (div_some _ _ (pow_q (m_max m) ltac:(lia))). change (inject_Z 2) with 2%Q. rewrite (div_some q 2) by reflexivity. cbn [lift2].
  assert (lat u (i * L) (inject_Z i * h)) as La by (rewrite <- (Z.abs_eq i) at 1 by lia; apply lat_scale, Lh).
  assert (lat (u - m_max m) (i * L) (inject_Z i * h / inject_Z (2 ^ m_max m))) as Lb by (apply lat_half; [lia|assumption]).
  assert (lat (u - m_max m - 1) (2 * i * L) (inject_Z i * h / inject_Z (2 ^ m_max m))) as Lb'.
  { apply (lat_fine _ (u - m_max m - 1)) in Lb; [|lia]. replace (u - m_max m - (u - m_max m - 1)) with 1 in Lb by lia. apply (lat_le _ _ _ _ ltac:(reflexivity)) in Lb. replace (2 * i * L) with (i * L * 2 ^ 1) by (change (2 ^ 1) with 2; lia). exact Lb. }
  pose proof (lat_add _ _ _ _ _ (lat_w _ _ Ls) Lb') as Lc. pose proof (half_length q Lq) as Ld. pose proof (lat_add _ _ _ _ _ Lc Ld) as Le. change (inject_Z 2) with 2%Q in *.
  eexists. split; [reflexivity|]. split; [|exact Le].
  apply add_exact; [apply add_exact; [assumption| |]| |].
  - apply div_pow; [|lia|apply (lat_fits _ _ _ Lb); nia]. apply mul_exact; [apply of_Z_small; nia|assumption|]. apply (lat_fits _ _ _ La); nia.
  - apply (lat_fits _ _ _ Lc); nia.
  - apply (div_2 _ q Iq). apply (lat_fits _ _ _ Ld); nia.
  - apply (lat_fits _ _ _ Le); nia.
Qed.
Lemma min_max_is : agree (ca_min exact m (exact_of g) c k) (ca_min binary64 m g c k) /\ agree (ca_max exact m (exact_of g) c k) (ca_max binary64 m g c k).
Proof.
  destruct length_is as (q & Eq & Iq & Lq). destruct center_is as (z & Ez & Iz & Lz). destruct (cell_numbers m Hwf c Hc k) as (Hl & Hi & Hil & E1 & E2 & H21 & Ex & _). fold l in Hl, Hil, E1. fold i in Hi, Hil.
  destruct sizes as (M1 & EM & Hm & Pm & L1 & L2). rewrite EM in HB. fold M in Hil. pose proof (Z.pow_pos_nonneg 2 (m_max m - l) ltac:(lia) ltac:(lia)) as P.
  assert (2 * i * L + 2 * (L * 2 ^ (m_max m - l)) <= mlen m k * L * (2 * M)) as Bi by nia.
  pose proof (half_length q Lq) as Lh2. unfold ca_min, ca_max. rewrite Eq, Ez. cbn [exact binary64 sub add div of_u64]. rewrite (div_some q (inject_Z 2)) by reflexivity. cbn [lift2 agree].
  assert (fits (q / inject_Z 2)) as F2 by (apply (lat_fits _ _ _ Lh2); nia).
  split; [apply sub_exact|apply add_exact]; try assumption; try (apply div_2; assumption).
  - apply (lat_fits _ _ _ (lat_sub _ _ _ _ _ Lz Lh2)); nia.
  - apply (lat_fits _ _ _ (lat_add _ _ _ _ _ Lz Lh2)); nia.
Qed.
End Cell.

Lemma center_at_is l j : (forall k', 0 <= get j k') -> agree (ca_center_at exact m (exact_of g) l j k) (ca_center_at binary64 m g l j k).
Proof.
  intros Hj. unfold ca_center_at. destruct (level_outside m l) eqn:El; [reflexivity|]. destruct (index_outside m j) eqn:Ei; [reflexivity|].
  assert (0 <= l <= m_max m) as Hl by (unfold level_outside in El; lia).
  assert (0 <= get j k <= mlen m k * 2 ^ m_max m) as Hi. { split; [apply Hj|]. unfold index_outside in Ei. rewrite !glen64_eq in Ei by assumption. unfold glen in Ei. destruct k; lia. }
  set (i := get j k) in *. destruct sizes as (M1 & EM & Hm & Pm & L1 & L2). rewrite EM in HB. fold M in Hi.
  assert (shl1 l = 2 ^ l) as E1 by (apply shl1_small; lia). rewrite (proj1 (max_shift m Hwf)), E1.
  cbn [exact binary64 exact_of add mul div of_u64 ca_start ca_length0]. rewrite Es, Eh. cbn [lift2]. rewrite (div_some _ _ (pow_q (m_max m) ltac:(lia))), (div_some _ _ (pow_q l ltac:(lia))). rewrite (div_some _ (inject_Z 2)) by reflexivity. cbn [lift2 agree].
  pose proof (Z.pow_pos_nonneg 2 (m_max m - l) ltac:(lia) ltac:(lia)) as P. assert (2 ^ (m_max m - l) <= M) as P' by (apply Z.pow_le_mono_r; lia).
  assert (2 * i * L + L * 2 ^ (m_max m - l) <= 2 * (mlen m k * L * (2 * M))) as Bi by nia.
  assert (lat u (i * L) (inject_Z i * h)) as La by (rewrite <- (Z.abs_eq i) at 1 by lia; apply lat_scale, Lh).
  assert (lat (u - m_max m) (i * L) (inject_Z i * h * (inject_Z 1 / inject_Z (2 ^ m_max m)))) as Lb.
  { apply (lat_eq _ _ (inject_Z i * h / inject_Z (2 ^ m_max m))); [pose proof (pow_q (m_max m) ltac:(lia)); change (inject_Z 1) with 1%Q; field; lra|]. apply lat_half; [lia|assumption]. }
  assert (lat (u - m_max m - 1) (2 * i * L) (inject_Z i * h * (inject_Z 1 / inject_Z (2 ^ m_max m)))) as Lb'.
  { apply (lat_fine _ (u - m_max m - 1)) in Lb; [|lia]. replace (u - m_max m - (u - m_max m - 1)) with 1 in Lb by lia. replace (2 * i * L) with (i * L * 2 ^ 1) by (change (2 ^ 1) with 2; lia). exact Lb. }
  pose proof (lat_add _ _ _ _ _ (lat_w _ _ Ls) Lb') as Lc.
  assert (lat (u - l - 1) L (h * (inject_Z 1 / inject_Z (2 ^ l) / inject_Z 2))) as Ld.
  { apply (lat_eq _ _ (h / inject_Z (2 ^ l) / inject_Z (2 ^ 1))); [pose proof (pow_q l ltac:(lia)); change (inject_Z 1) with 1%Q; change (inject_Z (2 ^ 1)) with 2%Q; change (inject_Z 2) with 2%Q; field; lra|]. apply lat_half; [lia|]. apply lat_half; [lia|assumption]. }
  assert (lat (u - m_max m - 1) (L * 2 ^ (m_max m - l)) (h * (inject_Z 1 / inject_Z (2 ^ l) / inject_Z 2))) as Ld'.
  { apply (lat_fine _ (u - m_max m - 1)) in Ld; [|lia]. replace (u - l - 1 - (u - m_max m - 1)) with (m_max m - l) in Ld by lia. exact Ld. }
  pose proof (lat_add _ _ _ _ _ Lc Ld') as Le.
  apply add_exact; [apply add_exact; [assumption| |]| |].
  - apply mul_exact; [apply mul_exact; [apply of_Z_small; nia|assumption|apply (lat_fits _ _ _ La); nia]|apply unit_div; lia|apply (lat_fits _ _ _ Lb); nia].
  - apply (lat_fits _ _ _ Lc); nia.
  - apply mul_exact; [assumption| |apply (lat_fits _ _ _ Ld); nia]. apply div_2; [apply unit_div; lia|].
    apply (lat_fits (0 - l - 1) 1); [apply (lat_half _ _ 1); [lia|]; apply lat_half; [lia|apply (lat_int 1)]|reflexivity|lia].
  - apply (lat_fits _ _ _ Le); nia.
Qed.
End Dim.

(** the parameters of one dimension *)
Lemma params k : exists s h S L u, is (ca_start g k) s /\ is (ca_length0 g k) h /\ real_of (ca_start g k) = Some s /\ real_of (ca_length0 g k) = Some h /\
  (s == dy S u)%Q /\ (h == dy L u)%Q /\ 0 < L /\ (Z.abs S + mlen m k * L) * 2 ^ (m_max m + 1) < 2 ^ 52 /\ m_max m - 1000 <= u <= 900.
Proof.
  destruct (Hg k) as (S & L & u & Hs & Hl & PL & HB & Hu). destruct (is_real _ _ Hs) as (s & Es & Qs & Is). destruct (is_real _ _ Hl) as (h & Eh & Qh & Ih).
  exists s, h, S, L, u. tauto.
Qed.
End Boxes.
