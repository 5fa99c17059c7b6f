(** C70 for Stretched_Cartesian_Geometry. *)
From Coq Require Import QArith Qround Floats.SpecFloat Lqa.
From Verif Require Import U64 MapModel MapSpec MapProofs MapProps HoodModel MeshSpec MeshBase GeoModel GeoBase GeoProps GeoStretch GeoExamples FloatBase FloatDiv FloatGeo FloatCell FloatProps.
Open Scope Z_scope.

(** the same coordinates in exact arithmetic *)
Definition exact_coordinates (s : coordinates binary64) : coordinates exact := fun k => map real_of (s k).
(** coordinates are multiples of 2^u, at most B 2^u from zero *)
Definition dyadic_coordinates (m : mapping) (s : coordinates binary64) : Prop :=
  regular m (exact_coordinates s) /\
  forall k, exists B u, 0 < B /\ B * 2 ^ (m_max m + 3) < 2 ^ 52 /\ m_max m - 1000 <= u <= 900 /\
    Forall (fun a => exists n, is a (dy n u) /\ Z.abs n <= B) (s k).
(** results of the two kinds of arithmetic *)
Definition stands_for (P : Q -> Prop) (r : result (option Q)) (r' : result spec_float) : Prop :=
  match r, r' with
  | Value (Some q), Value x => is x q /\ P q
  | Value None, Value x => x = S754_nan
  | Outside, Outside => True
  | Endless, Endless => True
  | _, _ => False
  end.
Definition result_agree : result (option Q) -> result spec_float -> Prop := stands_for (fun _ => True).

Lemma stands_weaken (P R : Q -> Prop) r r' : (forall q, P q -> R q) -> stands_for P r r' -> stands_for R r r'.
Proof. intros H. destruct r as [[q|]| |], r' as [x| |]; cbn; try tauto. intros [A B]. auto. Qed.

Lemma at_map (l : list spec_float) i : at_index exact (map real_of l) i = match at_index binary64 l i with Value x => Value (real_of x) | Outside => Outside | Endless => Endless end.
Proof.
  unfold at_index. change (num exact) with (option Q). change (num binary64) with spec_float. rewrite map_length, nth_error_map.
  destruct ((i <? 0) || (Z.of_nat (length l) <=? i)); [reflexivity|]. destruct (nth_error l (Z.to_nat i)); reflexivity.
Qed.

Section Stretched64.
Context (m : mapping) (s : coordinates binary64) (Hwf : wf m) (Hs : dyadic_coordinates m s).
Notation e := (exact_coordinates s).
Notation M := (2 ^ m_max m).
Section Dim.
Context (k : dim) (B u : Z) (PB : 0 < B) (HB : B * 2 ^ (m_max m + 3) < 2 ^ 52) (Hu : m_max m - 1000 <= u <= 900)
  (HF : Forall (fun a => exists n, is a (dy n u) /\ Z.abs n <= B) (s k)).
Lemma st_sizes : 1 <= M /\ 0 <= m_max m <= 21 /\ B * (8 * M) < 2 ^ 52 /\ 0 < mlen m k /\ M < W.
Proof.
  pose proof (wf_max_le_21 m Hwf) as H. pose proof (mlen_pos m Hwf k). assert (0 < M) by (apply Z.pow_pos_nonneg; lia).
  rewrite Z.pow_add_r in HB by lia. change (2 ^ 3) with 8 in HB. split; [lia|]. split; [assumption|]. split; [lia|]. split; [assumption|].
  rewrite W_val. change 18446744073709551616 with (2 ^ 64). apply Z.pow_lt_mono_r; lia.
Qed.
Lemma at_same i : stands_for (lat u B) (at_index exact (e k) i) (at_index binary64 (s k) i).
Proof.
  unfold exact_coordinates. rewrite at_map. unfold at_index. destruct ((i <? 0) || (Z.of_nat (length (s k)) <=? i)); [exact I|].
  destruct (nth_error (s k) (Z.to_nat i)) as [a|] eqn:E; [|exact I].
  apply nth_error_In in E. pose proof (proj1 (Forall_forall _ _) HF a E) as (n & Ia & Hn). destruct (is_real _ _ Ia) as (q & -> & Eq & Iq). cbn [stands_for].
  split; [assumption|]. exists n. split; assumption.
Qed.
Lemma width_same i : stands_for (lat u (2 * B)) (st_width exact e k i) (st_width binary64 s k i).
Proof.
  destruct st_sizes as (M1 & Hm & HB' & _). unfold st_width. pose proof (at_same (add64 i 1)) as A. destruct (at_index exact (e k) (add64 i 1)) as [[b|]| |], (at_index binary64 (s k) (add64 i 1)) as [b'| |]; cbn in A; try contradiction; cbn [rbind]; try exact I.
  - pose proof (at_same i) as C. destruct (at_index exact (e k) i) as [[a|]| |], (at_index binary64 (s k) i) as [a'| |]; cbn in C; try contradiction; cbn [rbind]; try exact I.
    + destruct A as [Ib Lb], C as [Ia La]. cbn [stands_for exact binary64 sub lift2]. pose proof (lat_sub _ _ _ _ _ Lb La) as Ld. replace (B + B) with (2 * B) in Ld by lia.
      split; [|assumption]. apply sub_exact; [assumption|assumption|]. apply (lat_fits _ _ _ Ld); [nia|lia].
    + subst a'. cbn. destruct b'; reflexivity.
  - subst b'. pose proof (at_same i) as C. destruct (at_index exact (e k) i) as [[a|]| |], (at_index binary64 (s k) i) as [a'| |]; cbn in C; try contradiction; cbn [rbind]; try exact I; cbn; destruct a'; reflexivity.
Qed.
Lemma coord_at q : 0 <= q <= mlen m k -> exists a, at_index binary64 (s k) q = Value a /\ is a (X e k q) /\ lat u B (X e k q).
Proof.
  intros Hq. pose proof (at_same q) as A. rewrite (at_index_eq m e Hwf (proj1 Hs) k q Hq) in A. cbn [stands_for] in A.
  destruct (at_index binary64 (s k) q) as [a| |]; try contradiction. exists a. split; [reflexivity|assumption].
Qed.
Lemma width_at q : 0 <= q < mlen m k -> exists w, st_width binary64 s k q = Value w /\ is w (wid e k q) /\ lat u (2 * B) (wid e k q).
Proof.
  intros Hq. pose proof (width_same q) as A. rewrite (st_width_eq m e Hwf (proj1 Hs) k q Hq) in A. cbn [stands_for] in A.
  destruct (st_width binary64 s k q) as [a| |]; try contradiction. exists a. split; [reflexivity|assumption].
Qed.
(** the width of the smallest cells of an unrefined cell, and the numbers of its lines *)
Lemma small_width q w : 0 <= q < mlen m k -> st_width binary64 s k q = Value w -> is w (wid e k q) -> lat u (2 * B) (wid e k q) ->
  is (SFdiv 53 1024 w (b64_of_Z M)) (wid e k q / inject_Z M) /\ lat (u - m_max m) (2 * B) (wid e k q / inject_Z M).
Proof.
  intros Hq _ Iw Lw. destruct st_sizes as (M1 & Hm & HB' & _). pose proof (lat_half _ _ (m_max m) _ ltac:(lia) Lw) as L. split; [|assumption].
  apply div_pow; [assumption|lia|]. apply (lat_fits _ _ _ L); [nia|lia].
Qed.
Lemma line_at a qa w qw i : is a qa -> lat u B qa -> is w qw -> lat (u - m_max m) (2 * B) qw -> 0 <= i <= M ->
  is (SFmul 53 1024 w (b64_of_Z i)) (qw * inject_Z i) /\ is (SFmul 53 1024 (b64_of_Z i) w) (inject_Z i * qw) /\
  is (SFadd 53 1024 a (SFmul 53 1024 (b64_of_Z i) w)) (qa + inject_Z i * qw) /\ is (SFadd 53 1024 a (SFmul 53 1024 w (b64_of_Z i))) (qa + qw * inject_Z i) /\ lat (u - m_max m) (3 * (B * M)) (qa + qw * inject_Z i).
Proof.
  intros Ia La Iw Lw Hi. destruct st_sizes as (M1 & Hm & HB' & _).
  assert (is (b64_of_Z i) (inject_Z i)) as Ii by (apply of_Z_small; nia).
  assert (lat (u - m_max m) (2 * (B * M)) (inject_Z i * qw)) as L1 by (apply (lat_le _ (Z.abs i * (2 * B))); [nia|apply lat_scale; assumption]).
  assert (lat (u - m_max m) (2 * (B * M)) (qw * inject_Z i)) as L2 by (apply (lat_eq _ _ (inject_Z i * qw)); [ring|assumption]).
  assert (lat (u - m_max m) (B * M) qa) as L3 by (pose proof (lat_fine u (u - m_max m) B qa ltac:(lia) La) as L; replace (u - (u - m_max m)) with (m_max m) in L by lia; assumption).
  pose proof (lat_add _ _ _ _ _ L3 L1) as L4. pose proof (lat_add _ _ _ _ _ L3 L2) as L5. replace (B * M + 2 * (B * M)) with (3 * (B * M)) in L4, L5 by lia.
  assert (is (SFmul 53 1024 w (b64_of_Z i)) (qw * inject_Z i)) as I1 by (apply mul_exact; [assumption|assumption|]; apply (lat_fits _ _ _ L2); lia).
  assert (is (SFmul 53 1024 (b64_of_Z i) w) (inject_Z i * qw)) as I2 by (apply mul_exact; [assumption|assumption|]; apply (lat_fits _ _ _ L1); lia).
  split; [assumption|]. split; [assumption|]. split; [|split; [|assumption]].
  - apply add_exact; [assumption|assumption|]. apply (lat_fits _ _ _ L4); lia.
  - apply add_exact; [assumption|assumption|]. apply (lat_fits _ _ _ L5); lia.
Qed.

Section Cell.
Context (c : Z) (Hc : valid m c).
Lemma length64 : exists l l', st_length exact m e c k = Value (Some l) /\ st_length binary64 m s c k = Value l' /\ is l' l /\ lat (u - get_refinement_level m c) (2 * B) l.
Proof.
  destruct st_sizes as (M1 & Hm & HB' & _). destruct (cell_place m Hwf c k Hc) as (Hq & _ & _ & E). set (q := get (idx_of m c) k / M) in *.
  destruct (width_at q Hq) as (w & Ew & Iw & Lw). unfold st_length. rewrite (valid_exists m Hwf c Hc), E, Ew, (st_width_eq m e Hwf (proj1 Hs) k q Hq). cbn [rbind].
  destruct (level_shift m Hwf c Hc) as [Sl Hl]. unfold lvl_of in Sl, Hl. pose proof (cell_level m Hwf c Hc) as Hl'. unfold lvl_of in Hl'. rewrite Sl. cbn [exact binary64 div of_u64].
  pose proof (pow_q (get_refinement_level m c) Hl) as P. rewrite (div_some _ _ P). pose proof (lat_half _ _ (get_refinement_level m c) _ ltac:(lia) Lw) as L.
  eexists. eexists. split; [reflexivity|]. split; [reflexivity|]. split; [|exact L]. apply div_pow; [assumption|lia|]. apply (lat_fits _ _ _ L); [nia|lia].
Qed.
Lemma half_at l : lat (u - get_refinement_level m c) (2 * B) l -> lat (u - m_max m - 1) (2 * (B * M)) (l / inject_Z 2).
Proof.
  intros L. destruct st_sizes as (M1 & Hm & HB' & _). pose proof (cell_level m Hwf c Hc) as Hl. unfold lvl_of in Hl. set (v := get_refinement_level m c) in *.
  pose proof (lat_half _ _ 1 _ ltac:(lia) L) as L1. change (2 ^ 1) with 2 in L1.
  pose proof (lat_fine (u - v - 1) (u - m_max m - 1) _ _ ltac:(lia) L1) as L2. replace (u - v - 1 - (u - m_max m - 1)) with (m_max m - v) in L2 by lia.
  apply (lat_le _ (2 * B * 2 ^ (m_max m - v))); [|assumption]. assert (2 ^ (m_max m - v) <= M) by (apply Z.pow_le_mono_r; lia). nia.
Qed.
Lemma center64 : exists x x', st_center exact m e c k = Value (Some x) /\ st_center binary64 m s c k = Value x' /\ is x' x /\ lat (u - m_max m - 1) (8 * (B * M)) x.
Proof.
  destruct st_sizes as (M1 & Hm & HB' & Pm & MW). destruct (cell_place m Hwf c k Hc) as (Hq & Hi & Hil & E). pose proof (cell_lines m Hwf c k Hc) as (P1 & P2 & P3). pose proof (glen_lt_W m Hwf k) as LW.
  set (i := get (idx_of m c) k) in *. set (q := i / M) in *.
  destruct (width_at q Hq) as (w & Ew & Iw & Lw). destruct (coord_at q ltac:(lia)) as (a & Ea & Ia & La). destruct length64 as (l & l' & El & El' & Il & Ll).
  unfold st_center. rewrite (valid_exists m Hwf c Hc), E, Ew, El, El', Ea, (st_width_eq m e Hwf (proj1 Hs) k q Hq), (at_index_eq m e Hwf (proj1 Hs) k q ltac:(lia)). cbn [rbind].
  rewrite (proj1 (max_shift m Hwf)). fold (idx_of m c). fold i. unfold mul64, sub64. rewrite (u64_small (q * M)) by lia. rewrite (u64_small (i - q * M)) by lia.
  cbn [exact binary64 add mul div of_u64]. pose proof (pow_q (m_max m) ltac:(lia)) as P. rewrite (div_some _ _ P). rewrite (div_some l (inject_Z 2)) by reflexivity. cbn [lift2].
  destruct (small_width q w Hq Ew Iw Lw) as [I1 L1]. destruct (line_at _ _ _ _ (i - q * M) Ia La I1 L1 ltac:(lia)) as (_ & _ & _ & I2 & L2). pose proof (half_at l Ll) as Lh.
  assert (lat (u - m_max m - 1) (6 * (B * M)) (X e k q + wid e k q / inject_Z M * inject_Z (i - q * M))) as L3.
  { pose proof (lat_fine (u - m_max m) (u - m_max m - 1) _ _ ltac:(lia) L2) as L. replace (u - m_max m - (u - m_max m - 1)) with 1 in L by lia. change (2 ^ 1) with 2 in L. replace (3 * (B * M) * 2) with (6 * (B * M)) in L by lia. assumption. }
  pose proof (lat_add _ _ _ _ _ L3 Lh) as L4. replace (6 * (B * M) + 2 * (B * M)) with (8 * (B * M)) in L4 by lia.
  eexists. eexists. split; [reflexivity|]. split; [reflexivity|]. split; [|exact L4]. apply add_exact; [assumption| |apply (lat_fits _ _ _ L4); lia].
  apply div_2; [assumption|]. apply (lat_fits _ _ _ Lh); lia.
Qed.
Lemma min_max64 : exists a b a' b', st_min exact m e c k = Value (Some a) /\ st_max exact m e c k = Value (Some b) /\ st_min binary64 m s c k = Value a' /\ st_max binary64 m s c k = Value b' /\ is a' a /\ is b' b.
Proof.
  destruct st_sizes as (M1 & Hm & HB' & _). destruct length64 as (l & l' & El & El' & Il & Ll). destruct center64 as (x & x' & Ex & Ex' & Ix & Lx). pose proof (half_at l Ll) as Lh.
  unfold st_min, st_max. rewrite El, El', Ex, Ex'. cbn [rbind exact binary64 add sub div of_u64]. rewrite (div_some l (inject_Z 2)) by reflexivity. cbn [lift2].
  assert (is (SFdiv 53 1024 l' (b64_of_Z 2)) (l / inject_Z 2)) as Ih by (apply div_2; [assumption|]; apply (lat_fits _ _ _ Lh); lia).
  pose proof (lat_add _ _ _ _ _ Lx Lh) as L1. pose proof (lat_sub _ _ _ _ _ Lx Lh) as L2.
  eexists. eexists. eexists. eexists. split; [reflexivity|]. split; [reflexivity|]. split; [reflexivity|]. split; [reflexivity|].
  split; [apply sub_exact|apply add_exact]; try assumption; [apply (lat_fits _ _ _ L2)|apply (lat_fits _ _ _ L1)]; lia.
Qed.
End Cell.

(** *** coordinates *)
Lemma search_same x v : is x v -> forall l i, Forall (fun a => exists n, is a (dy n u) /\ Z.abs n <= B) l ->
  coord_search binary64 x l i = coord_search exact (Some v) (map real_of l) i.
Proof.
  intros Ix l. induction l as [|a l IH]; intros i F; [reflexivity|]. inversion F as [|? ? (n & Ia & _) F']; subst. destruct (is_real _ _ Ia) as (q & Eq & _ & Iq).
  cbn [coord_search map]. rewrite Eq. change (lt binary64 a x) with (b64_lt a x). rewrite (b64_lt_is _ _ _ _ Iq Ix). change (lt exact (Some q) (Some v)) with (negb (Qle_bool v q)).
  destruct (negb (Qle_bool v q)); [apply IH; assumption|reflexivity].
Qed.
Lemma offset_same x v a qa w qw : is x v -> is a qa -> lat u B qa -> is w qw -> lat (u - m_max m) (2 * B) qw -> (v <= qa + inject_Z M * qw)%Q ->
  forall fuel i, 0 <= i <= M -> offset_search binary64 fuel x a w i = offset_search exact fuel (Some v) (Some qa) (Some qw) i.
Proof.
  intros Ix Ia La Iw Lw Hv. destruct st_sizes as (M1 & Hm & HB' & Pm & MW). induction fuel as [|fuel IH]; intros i Hi; [reflexivity|].
  cbn [offset_search]. cbn [exact binary64 add mul of_u64 lift2 lt]. destruct (line_at _ _ _ _ i Ia La Iw Lw Hi) as (_ & _ & I1 & _). rewrite (b64_lt_is _ _ _ _ I1 Ix).
  cbn [exact_lt]. destruct (negb (Qle_bool v (qa + inject_Z i * qw))) eqn:E; [|reflexivity].
  assert (i <> M) as N. { intros ->. rewrite (proj2 (qle_iff _ _) Hv) in E. discriminate. }
  unfold add64. rewrite u64_small by lia. apply IH. lia.
Qed.
Lemma index64_same fuel x : double x -> st_index binary64 m s fuel x k = st_index exact m e fuel (real_of x) k.
Proof.
  intros Dx. destruct st_sizes as (M1 & Hm & HB' & Pm & MW). pose proof (proj1 Hs) as Hr. destruct (coord_at 0 ltac:(lia)) as (a & Ea & Ia & La). destruct (coord_at (mlen m k) ltac:(lia)) as (b & Eb & Ib & Lb).
  unfold st_index, st_start, st_end. rewrite Ea, Eb, !(at_index_eq m e Hwf Hr) by lia. cbn [rbind].
  pose proof (proj2 (between a b x _ _ Ia Ib Dx)) as Bt. change (le binary64) with b64_le. change (le exact) with exact_le.
  assert (b64_le a x && b64_le x b = exact_le (Some (X e k 0)) (real_of x) && exact_le (real_of x) (Some (X e k (mlen m k)))) as E by (apply eq_true_iff_eq; rewrite !andb_true_iff; exact Bt).
  rewrite E. destruct (exact_le (Some (X e k 0)) (real_of x) && exact_le (real_of x) (Some (X e k (mlen m k)))) eqn:In; [|reflexivity].
  apply andb_true_iff in In. destruct In as [In1 In2]. destruct (real_of x) as [v|] eqn:Ex; [|discriminate]. apply le_iff in In1, In2. pose proof (real_is _ _ Dx Ex) as Ix.
  rewrite (search_same x v Ix (s k) 0 HF). fold (e k).
  destruct (coord_search_eq m e Hwf Hr k v In2 (Z.to_nat (mlen m k)) 0 ltac:(lia) ltac:(lia) ltac:(intros; lia)) as (f & Ef & Hf0 & Fb & Fv). change (skipn (Z.to_nat 0) (e k)) with (e k) in Ef.
  change (map real_of (s k)) with (e k). rewrite Ef. cbn [rbind]. destruct (Z.eq_dec f 0) as [->|N].
  - assert (sub64 0 1 = W - 1) as -> by (unfold sub64, u64; rewrite W_val; reflexivity). pose proof (width_same (W - 1)) as A.
    assert (st_width exact e k (W - 1) = Outside) as Eo.
    { unfold st_width. assert (add64 (W - 1) 1 = 0) as -> by (unfold add64, u64; rewrite W_val; reflexivity). rewrite (at_index_eq m e Hwf Hr) by lia. cbn [rbind]. destruct (Hr k) as [[Le LW1] _].
      assert (at_index exact (e k) (W - 1) = Outside) as ->; [|reflexivity]. unfold at_index. replace ((W - 1 <? 0) || (Z.of_nat (length (e k)) <=? W - 1)) with true by lia. reflexivity. }
    rewrite Eo in *. destruct (st_width binary64 s k (W - 1)); try contradiction. reflexivity.
  - pose proof (glen_lt_W m Hwf k) as LW. unfold glen in LW. assert (mlen m k < W) by nia. assert (sub64 f 1 = f - 1) as -> by (unfold sub64; apply u64_small; lia). set (q := f - 1) in *. assert (0 <= q < mlen m k) as Hq by lia.
    destruct (width_at q Hq) as (w & Ew & Iw & Lw). destruct (coord_at q ltac:(lia)) as (y & Ey & Iy & Ly). rewrite Ew, Ey, (st_width_eq m e Hwf Hr k q Hq), (at_index_eq m e Hwf Hr k q ltac:(lia)). cbn [rbind].
    rewrite (proj1 (max_shift m Hwf)). cbn [exact binary64 div of_u64]. pose proof (pow_q (m_max m) ltac:(lia)) as P. rewrite (div_some _ _ P).
    destruct (small_width q w Hq Ew Iw Lw) as [I1 L1].
    assert (inject_Z M * (wid e k q / inject_Z M) == wid e k q)%Q as Ewd by (field; lra). replace f with (q + 1) in Fv by (unfold q; lia).
    fold exact. fold binary64. rewrite (offset_same x v y _ _ _ Ix Iy Ly I1 L1); [reflexivity| |lia]. rewrite Ewd. unfold wid. lra.
Qed.
End Dim.
Lemma stretched_cell_same fuel l x : doubles x -> st_cell binary64 m s fuel l x = st_cell exact m e fuel l (reals x).
Proof.
  intros Dx. unfold st_cell. destruct (level_outside m l); [reflexivity|]. unfold st_indices.
  assert (forall k, st_index binary64 m s fuel (x k) k = st_index exact m e fuel (reals x k) k) as I.
  { intros k. destruct (proj2 Hs k) as (B & u & PB & HB & Hu & HF). apply (index64_same k B u PB HB Hu HF). apply Dx. }
  rewrite !I. reflexivity.
Qed.
End Stretched64.

(** the number a function returns, NaN if it does not return one *)
Definition value64 (r : result spec_float) : spec_float := match r with Value x => x | _ => S754_nan end.
Definition within64_upper (lo x hi : dim -> spec_float) : Prop := forall k, b64_lt (lo k) (x k) = true /\ b64_le (x k) (hi k) = true.

Lemma upper_bridge lo hi lo' hi' x : stands lo hi lo' hi' -> doubles x -> (within64_upper lo' x hi' <-> within_upper lo (reals x) hi).
Proof.
  intros H Dx. assert (forall k, b64_lt (lo' k) (x k) = true /\ b64_le (x k) (hi' k) = true <-> exact_lt (lo k) (reals x k) = true /\ exact_le (reals x k) (hi k) = true) as K.
  { intros k. destruct (H k) as (p & q & -> & -> & Ip & Iq). unfold reals. specialize (Dx k). destruct (real_of (x k)) as [r|] eqn:Er.
    - pose proof (real_is _ r Dx Er) as Hx. cbn [exact_le exact_lt]. rewrite (b64_lt_is _ _ p r Ip Hx), (b64_le_is _ _ r q Hx Iq). tauto.
    - cbn [exact_le exact_lt]. destruct (x k) as [b|b| |b n ex]; try discriminate.
      + destruct (lo' k) as [s1| | |s1 p1 e1]; try contradiction; destruct (hi' k) as [s2| | |s2 p2 e2]; try contradiction; destruct b; cbn; split; intros [H1 H2]; discriminate.
      + destruct (lo' k); cbn; split; intros [H1 H2]; discriminate. }
  split; intros I k; apply K, I.
Qed.

Section Bridge.
Context (m : mapping) (s : coordinates binary64) (Hwf : wf m) (Hs : dyadic_coordinates m s).
Notation e := (exact_coordinates s).
Lemma st_domain : stands (fun k => value (st_start exact e k)) (fun k => value (st_end exact m e k)) (fun k => value64 (st_start binary64 s k)) (fun k => value64 (st_end binary64 m s k)).
Proof.
  intros k. destruct (proj2 Hs k) as (B & u & PB & HB & Hu & HF). pose proof (mlen_pos m Hwf k). exists (X e k 0), (X e k (mlen m k)).
  split; [apply (st_start_eq m e Hwf (proj1 Hs))|]. split; [apply (st_end_eq m e Hwf (proj1 Hs))|].
  destruct (coord_at m s Hwf Hs k B u HF 0 ltac:(lia)) as (a & Ea & Ia & _). destruct (coord_at m s Hwf Hs k B u HF (mlen m k) ltac:(lia)) as (b & Eb & Ib & _).
  unfold st_start, st_end. rewrite Ea, Eb. split; assumption.
Qed.
Lemma st_box c : valid m c -> stands (fun k => value (st_min exact m e c k)) (fun k => value (st_max exact m e c k)) (fun k => value64 (st_min binary64 m s c k)) (fun k => value64 (st_max binary64 m s c k)).
Proof.
  intros Hc k. destruct (proj2 Hs k) as (B & u & PB & HB & Hu & HF). destruct (min_max64 m s Hwf Hs k B u PB HB Hu HF c Hc) as (a & b & a' & b' & E1 & E2 & E3 & E4 & Ia & Ib).
  exists a, b. rewrite E1, E2, E3, E4. cbn [value value64]. auto.
Qed.
Lemma st_mid c k : valid m c -> exists q x, st_center exact m e c k = Value (Some q) /\ st_center binary64 m s c k = Value x /\ is x q.
Proof.
  intros Hc. destruct (proj2 Hs k) as (B & u & PB & HB & Hu & HF). destruct (center64 m s Hwf Hs k B u PB HB Hu HF c Hc) as (q & x & E1 & E2 & I & _). exists q, x. auto.
Qed.
End Bridge.

(** a coordinate in the box of a cell, with the upper faces but not the lower ones, has that cell *)
Lemma st_hit m s fuel c x : wf m -> regular m s -> 2 ^ m_max m < Z.of_nat fuel -> valid m c ->
  within_upper (fun k => value (st_min exact m s c k)) x (fun k => value (st_max exact m s c k)) -> st_cell exact m s fuel (get_refinement_level m c) x = Value c.
Proof.
  intros Hwf Hr Hf Hc B. pose proof (cell_level m Hwf c Hc) as Hl. unfold lvl_of in Hl.
  pose proof (st_inc m s Hwf Hr) as Hinc. pose proof (st_min_eq m s Hwf Hr) as Hlo. pose proof (st_max_eq m s Hwf Hr) as Hhi.
  assert (forall k, exists q, value (st_start exact s k) = Some q /\ (q == st_edge m s k 0)%Q) as Hst by (intros k; eexists; apply (st_start_eq m s Hwf Hr)).
  assert (forall k, exists q, value (st_end exact m s k) = Some q /\ (q == st_edge m s k (glen m k))%Q) as He by (intros k; eexists; apply (st_end_eq m s Hwf Hr)).
  destruct (proj1 (c45_get_cell_partial m s fuel (get_refinement_level m c) x Hwf Hr Hf Hl)) as (c' & (E & V & L & B') & _).
  { intros k. pose proof (B k) as [B1 B2]. pose proof (cell_lines m Hwf c k Hc) as (P1 & P2 & P3).
    destruct (Hlo c k Hc) as (a & Ea & Qa), (Hhi c k Hc) as (b & Eb & Qb), (Hst k) as (a' & Ea' & Qa'), (He k) as (b' & Eb' & Qb').
    rewrite Ea, Eb, Ea', Eb' in *. destruct (x k) as [v|]; [|discriminate]. rewrite lt_iff, le_iff in *.
    pose proof (proj2 (edge_le m _ Hinc k 0 (get (idx_of m c) k) ltac:(lia) ltac:(lia)) ltac:(lia)).
    pose proof (proj2 (edge_le m _ Hinc k (get (idx_of m c) k + len_of m c) (glen m k) ltac:(lia) ltac:(lia)) ltac:(lia)). split; lra. }
  rewrite E. f_equal. symmetry.
  exact (box_upper_unique m Hwf (st_edge m s) Hinc (fun c k => value (st_min exact m s c k)) (fun c k => value (st_max exact m s c k)) Hlo Hhi _ _ Hst He (get_refinement_level m c) x c c' Hc V eq_refl L B B').
Qed.

(** All functions read the coordinates that exist, and return the numbers of exact arithmetic. *)
Theorem c70_stretched_values m s :
  wf m -> dyadic_coordinates m s ->
  let e := exact_coordinates s in
  regular m e /\
  (forall k, result_agree (st_start exact e k) (st_start binary64 s k) /\ result_agree (st_end exact m e k) (st_end binary64 m s k)) /\
  (forall c k, valid m c ->
     exists l x a b, st_length binary64 m s c k = Value l /\ st_center binary64 m s c k = Value x /\ st_min binary64 m s c k = Value a /\ st_max binary64 m s c k = Value b /\
       agree (value (st_length exact m e c k)) l /\ agree (value (st_center exact m e c k)) x /\
       agree (value (st_min exact m e c k)) a /\ agree (value (st_max exact m e c k)) b).
Proof.
  intros Hwf Hs. cbv zeta. split; [apply Hs|]. split.
  - intros k. destruct (proj2 Hs k) as (B & u & PB & HB & Hu & HF). split; (eapply stands_weaken; [intros q _; exact I|apply (at_same s k B u HF)]).
  - intros c k Hc. destruct (proj2 Hs k) as (B & u & PB & HB & Hu & HF).
    destruct (length64 m s Hwf Hs k B u HB Hu HF c Hc) as (l & l' & El & El' & Il & _). destruct (center64 m s Hwf Hs k B u PB HB Hu HF c Hc) as (x & x' & Ex & Ex' & Ix & _).
    destruct (min_max64 m s Hwf Hs k B u PB HB Hu HF c Hc) as (a & b & a' & b' & E1 & E2 & E3 & E4 & Ia & Ib).
    exists l', x', a', b'. rewrite El, Ex, E1, E2. cbn [value agree]. tauto.
Qed.
Print Assumptions c70_stretched_values.

(** C45 in doubles *)
Theorem c70_stretched_boxes_tile_the_domain m s x :
  wf m -> dyadic_coordinates m s -> doubles x ->
  let start k := value64 (st_start binary64 s k) in let end_ k := value64 (st_end binary64 m s k) in
  let lo c k := value64 (st_min binary64 m s c k) in let hi c k := value64 (st_max binary64 m s c k) in
  (forall l, 0 <= l <= m_max m -> within64 start x end_ ->
     exists! c, valid m c /\ get_refinement_level m c = l /\ within64 (lo c) x (hi c)) /\
  (forall l, 0 <= l <= m_max m -> within64_closed start x end_ ->
     exists c, valid m c /\ get_refinement_level m c = l /\ within64_closed (lo c) x (hi c)) /\
  (forall c, valid m c -> within64 (lo c) x (hi c) -> within64 start x end_) /\
  (forall c, valid m c -> get_refinement_level m c < m_max m ->
     (within64 (lo c) x (hi c) -> exists! k, In k (get_all_children m c) /\ within64 (lo k) x (hi k)) /\
     (forall k, In k (get_all_children m c) -> within64 (lo k) x (hi k) -> within64 (lo c) x (hi c))) /\
  (forall ex, tiling m ex -> within64 start x end_ -> exists! c, ex c = true /\ within64 (lo c) x (hi c)).
Proof.
  intros Hwf Hs Dx. cbv zeta. pose proof (proj1 Hs) as Hr. set (e := exact_coordinates s) in *.
  apply (tile_transfer m (fun k => value (st_start exact e k)) (fun k => value (st_end exact m e k)) (fun c k => value (st_min exact m e c k)) (fun c k => value (st_max exact m e c k))
    (fun k => value64 (st_start binary64 s k)) (fun k => value64 (st_end binary64 m s k)) (fun c k => value64 (st_min binary64 m s c k)) (fun c k => value64 (st_max binary64 m s c k))).
  - apply st_domain; assumption.
  - intros c Hc. apply st_box; assumption.
  - assumption.
  - intros c k V Hl. apply (kids_valid m c k Hwf V Hl).
  - intros ex c [T _]. apply T.
  - apply (c45_boxes_tile_the_domain m e (reals x) Hwf Hr).
Qed.
Print Assumptions c70_stretched_boxes_tile_the_domain.

(** get_cell in doubles, for all coordinates: it is what exact arithmetic gives, including reads outside of
    the coordinates at the start of the grid. *)
Theorem c70_stretched_get_cell m s fuel :
  wf m -> dyadic_coordinates m s ->
  let start k := value64 (st_start binary64 s k) in let end_ k := value64 (st_end binary64 m s k) in
  let lo c k := value64 (st_min binary64 m s c k) in let hi c k := value64 (st_max binary64 m s c k) in
  (forall l x, doubles x -> st_cell binary64 m s fuel l x = st_cell exact m (exact_coordinates s) fuel l (reals x)) /\
  (2 ^ m_max m < Z.of_nat fuel ->
   (forall l x, 0 <= l <= m_max m -> doubles x -> within64_upper start x end_ ->
      exists! c, st_cell binary64 m s fuel l x = Value c /\ valid m c /\ get_refinement_level m c = l /\ within64_upper (lo c) x (hi c)) /\
   (forall c x, valid m c -> doubles x -> within64_upper (lo c) x (hi c) -> st_cell binary64 m s fuel (get_refinement_level m c) x = Value c) /\
   (forall c, valid m c -> st_cell binary64 m s fuel (get_refinement_level m c) (fun k => value64 (st_center binary64 m s c k)) = Value c)).
Proof.
  intros Hwf Hs. cbv zeta. pose proof (proj1 Hs) as Hr. set (e := exact_coordinates s) in *.
  split; [intros l x Dx; apply stretched_cell_same; assumption|]. intros Hf.
  assert (forall l x, 0 <= l <= m_max m -> doubles x -> within64_upper (fun k => value64 (st_start binary64 s k)) x (fun k => value64 (st_end binary64 m s k)) ->
      exists! c, st_cell binary64 m s fuel l x = Value c /\ valid m c /\ get_refinement_level m c = l /\ within64_upper (fun k => value64 (st_min binary64 m s c k)) x (fun k => value64 (st_max binary64 m s c k))) as K.
  { intros l x Hl Dx I. apply (upper_bridge _ _ _ _ x (st_domain m s Hwf Hs) Dx) in I. destruct (proj1 (c45_get_cell_partial m e fuel l (reals x) Hwf Hr Hf Hl) I) as (c & (E & V & L & Ic) & _).
    exists c. split; [|intros c' (E' & _); rewrite (stretched_cell_same m s Hwf Hs fuel l x Dx) in E'; fold e in E'; congruence].
    split; [rewrite (stretched_cell_same m s Hwf Hs fuel l x Dx); exact E|]. split; [assumption|]. split; [assumption|]. apply (upper_bridge _ _ _ _ x (st_box m s Hwf Hs c V) Dx). exact Ic. }
  split; [exact K|].
  assert (forall c x, valid m c -> doubles x -> within64_upper (fun k => value64 (st_min binary64 m s c k)) x (fun k => value64 (st_max binary64 m s c k)) -> st_cell binary64 m s fuel (get_refinement_level m c) x = Value c) as H.
  { intros c x Hc Dx I. rewrite (stretched_cell_same m s Hwf Hs fuel _ x Dx). apply st_hit; try assumption. apply (upper_bridge _ _ _ _ x (st_box m s Hwf Hs c Hc) Dx). exact I. }
  split; [exact H|]. intros c Hc. apply H; [assumption| |].
  - intros k. destruct (st_mid m s Hwf Hs c k Hc) as (q & x & _ & E & I). rewrite E. apply (is_double _ _ I).
  - intros k. destruct (st_mid m s Hwf Hs c k Hc) as (q & x & E1 & E2 & I). destruct (st_box m s Hwf Hs c Hc k) as (p & r & Ep & Er & Ip & Ir).
    destruct (c45_center_and_length m e c k Hwf Hr Hc) as (A & B & _). cbv zeta in A, B. fold e in E1, Ep, Er. rewrite Ep, E1 in A. rewrite E1, Er in B. cbn [value] in A, B.
    rewrite E2. cbn [value64]. rewrite (b64_lt_is _ _ _ _ Ip I), (b64_le_is _ _ _ _ I Ir). split; [exact A|]. apply lt_iff in B. apply qle_iff. lra.
Qed.
Print Assumptions c70_stretched_get_cell.

(** C44 in doubles *)
Theorem c70_stretched_real_coordinate m t s x k :
  wf m -> dyadic_coordinates m s -> double (x k) ->
  let start := value64 (st_start binary64 s k) in let end_ := value64 (st_end binary64 m s k) in
  unrounded start end_ (per t k) (x k) ->
  exists y, st_real_coordinate binary64 m t s x k = Value y /\
  (b64_le start (x k) = true -> b64_le (x k) end_ = true -> y = x k) /\
  (y = S754_nan <-> real_of (x k) = None \/ per t k = false /\ ~ (b64_le start (x k) = true /\ b64_le (x k) end_ = true)) /\
  (y <> S754_nan -> b64_le start y = true /\ b64_le y end_ = true /\
     exists n q a b, (n <> 0 -> per t k = true) /\ is (x k) q /\ is start a /\ is end_ b /\ is y (q - inject_Z n * (b - a))).
Proof.
  intros Hwf Hs Dx. cbv zeta. intros Hun. pose proof (proj1 Hs) as Hr. destruct (proj2 Hs k) as (B & u & PB & HB & Hu & HF). pose proof (mlen_pos m Hwf k) as Pm.
  destruct (coord_at m s Hwf Hs k B u HF 0 ltac:(lia)) as (a' & Ea & Ia & La). destruct (coord_at m s Hwf Hs k B u HF (mlen m k) ltac:(lia)) as (b' & Eb & Ib & Lb).
  destruct (c44_stretched_real_coordinate m t (exact_coordinates s) (reals x) k Hwf Hr) as (y & Ey & C1 & C2 & C3). set (e := exact_coordinates s) in *.
  rewrite (proj1 (st_start_eq m e Hwf Hr k)), (proj1 (st_end_eq m e Hwf Hr k)) in *. set (a := X e k 0) in *. set (b := X e k (mlen m k)) in *.
  unfold st_real_coordinate, st_start, st_end in *. rewrite Ea, Eb in *. rewrite !(at_index_eq m e Hwf Hr) in Ey by lia. fold a b in Ey. cbn [rbind value64] in *. injection Ey as Ey.
  eexists. split; [reflexivity|]. pose proof (X_mono m e Hwf Hr k 0 (mlen m k) ltac:(lia) ltac:(lia)) as Lt. fold a b in Lt.
  assert (is (SFsub 53 1024 b' a') (b - a)) as Il.
  { destruct (st_sizes m Hwf k B HB) as (M1 & Hm & HB' & _). apply sub_exact; [assumption|assumption|]. pose proof (lat_sub _ _ _ _ _ Lb La) as L. apply (lat_fits _ _ _ L); [nia|lia]. }
  destruct (wrap_same _ _ _ _ (per t k) a b (b - a) Ia Ib Il Lt (Qeq_refl _) Hun) as [A _].
  change (wrap_with a b (b - a) (real_of (x k)) (per t k)) with (real_coordinate exact (Some a) (Some b) (reals x k) (per t k)) in A. rewrite Ey in A.
  change (wrap64 a' b' (SFsub 53 1024 b' a') (x k) (per t k)) with (real_coordinate binary64 a' b' (x k) (per t k)) in A. set (y' := real_coordinate binary64 a' b' (x k) (per t k)) in *.
  pose proof (proj2 (between _ _ (x k) _ _ Ia Ib Dx)) as Bt. fold (reals x k) in Bt. change (real_of (x k)) with (reals x k).
  assert (y = None <-> y' = S754_nan) as N.
  { destruct y as [q|]; cbn [agree] in A; [|tauto]. split; [discriminate|]. intros E. rewrite E in A. contradiction. }
  split; [|split].
  - intros H1 H2. unfold y', real_coordinate. change (le binary64) with b64_le. rewrite H1, H2. reflexivity.
  - rewrite <- N, C2. tauto.
  - intros H. assert (y <> None) as H' by (intros E; apply H, N, E). destruct (C3 H') as (L1 & L2 & n & Pn & Sn).
    destruct y as [q|]; [|congruence]. cbn [agree] in A.
    rewrite (b64_le_is _ _ _ _ Ia A), (b64_le_is _ _ _ _ A Ib). split; [assumption|]. split; [assumption|].
    unfold shifted, reals in Sn. destruct (real_of (x k)) as [r|] eqn:Er; [|destruct Sn; discriminate]. cbn [lift2] in Sn. apply same_iff in Sn.
    exists n, r, a, b. split; [assumption|]. split; [apply real_is; assumption|]. split; [assumption|]. split; [assumption|]. apply (is_eq _ q); [assumption|]. rewrite Sn. reflexivity.
Qed.
Print Assumptions c70_stretched_real_coordinate.

(** set accepts dyadic coordinates *)
Lemma increasing_same (l : list spec_float) : Forall (fun a => exists q, is a q) l -> increasing binary64 l = increasing exact (map real_of l).
Proof.
  induction l as [|a l IH]; intros F; [reflexivity|]. inversion F as [|? ? (q & Ia) F']; subst. destruct l as [|b l]; [reflexivity|].
  inversion F' as [|? ? (r & Ib) _]; subst. specialize (IH F'). cbn [map] in IH |- *. destruct (is_real _ _ Ia) as (q' & Ea & _ & Ia'). destruct (is_real _ _ Ib) as (r' & Eb & _ & Ib').
  change (increasing binary64 (a :: b :: l)) with (negb (b64_le b a) && increasing binary64 (b :: l)). rewrite IH. rewrite Ea, Eb.
  change (increasing exact (Some q' :: Some r' :: map real_of l)) with (negb (Qle_bool r' q') && increasing exact (Some r' :: map real_of l)).
  rewrite (b64_le_is _ _ _ _ Ib' Ia'). reflexivity.
Qed.
Theorem c70_stretched_set m old given :
  wf m -> (forall k, Forall (fun a => exists q, is a q) (given k)) ->
  (regular m (exact_coordinates given) -> stretched_set binary64 m old given = (true, given)) /\
  (~ regular m (exact_coordinates given) -> stretched_set binary64 m old given = (false, old)).
Proof.
  intros Hwf F. assert (forall k, acceptable binary64 m k (given k) = acceptable exact m k (exact_coordinates given k)) as A.
  { intros k. unfold acceptable. rewrite (increasing_same (given k) (F k)). unfold exact_coordinates. change (num exact) with (option Q). change (num binary64) with spec_float. rewrite map_length. reflexivity. }
  unfold stretched_set. rewrite !A.
  assert (forall k, acceptable exact m k (exact_coordinates given k) = true <->
   (Z.of_nat (length (exact_coordinates given k)) = mlen m k + 1 /\ mlen m k + 1 < W) /\
   forall i, 0 <= i < mlen m k -> exact_lt (coord (exact_coordinates given) k i) (coord (exact_coordinates given) k (i + 1)) = true) as E.
  { intros k. apply (acceptable_iff m (exact_coordinates given) k Hwf). intros x Hx. apply in_map_iff in Hx. destruct Hx as (a & <- & Ha). destruct (proj1 (Forall_forall _ _) (F k) a Ha) as (q & Ia). destruct (is_real _ _ Ia) as (q' & -> & _). discriminate. }
  destruct (acceptable exact m DX (exact_coordinates given DX) && acceptable exact m DY (exact_coordinates given DY) && acceptable exact m DZ (exact_coordinates given DZ)) eqn:T.
  - rewrite !andb_true_iff in T. split; [reflexivity|]. intros N. exfalso. apply N. intros k. apply E. destruct k; tauto.
  - split; [|reflexivity]. intros R. exfalso. rewrite (proj2 (E DX) (R DX)), (proj2 (E DY) (R DY)), (proj2 (E DZ) (R DZ)) in T. discriminate.
Qed.
Print Assumptions c70_stretched_set.

(** ** A case *)
Definition geo64_st : coordinates binary64 := three [dbl (-1) 1; dbl 0 1; dbl 1 2; dbl 7 1] [dbl 0 1; dbl 1 1; dbl 10 1] [dbl 3 1; dbl 4 1].
Example geo64_st_dyadic : dyadic_coordinates geo_map geo64_st.
Proof.
  split.
  - intros k. split; [destruct k; vm_compute; split; reflexivity|]. intros i Hi.
    assert (i = 0 \/ i = 1 \/ i = 2) as [->|[->| ->]] by (destruct k; cbn in Hi; lia); destruct k; cbn in Hi; try lia; vm_compute; reflexivity.
  - intros []; [exists 14, (-1)|exists 10, 0|exists 4, 0]; (split; [lia|]; split; [vm_compute; reflexivity|]; split; [cbn; lia|]).
    + repeat constructor; [exists (-2)|exists 0|exists 1|exists 14]; (split; [vm_compute; try split; reflexivity|lia]).
    + repeat constructor; [exists 0|exists 1|exists 10]; (split; [vm_compute; try split; reflexivity|lia]).
    + repeat constructor; [exists 3|exists 4]; (split; [vm_compute; try split; reflexivity|lia]).
Qed.
Definition geo64_s : dim -> spec_float := three (dbl 1 3) (dbl 3 2) (dbl 22 7).
Example geo64_s_inside : doubles geo64_s /\ within64_upper (fun k => value64 (st_start binary64 geo64_st k)) geo64_s (fun k => value64 (st_end binary64 geo_map geo64_st k)).
Proof. split; intros []; vm_compute; try split; reflexivity. Qed.
Example geo64_s_cells : map (fun l => st_cell binary64 geo_map geo64_st 5 l geo64_s) [0; 1; 2] = [Value 5; Value 22; Value 109].
Proof. vm_compute. reflexivity. Qed.
