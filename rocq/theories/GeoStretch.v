(** Stretched_Cartesian_Geometry in exact arithmetic: C45 and its part of C43 and C44. *)
From Coq Require Import QArith Qround Lqa.
From Verif Require Import U64 MapModel MapSpec MapProofs MapProps HoodModel MeshSpec MeshBase GeoModel GeoBase GeoProps.
Open Scope Z_scope.

(** the i-th coordinate of dimension k *)
Definition coord (s : coordinates exact) (k : dim) (i : Z) : option Q := nth (Z.to_nat i) (s k) None.
(** one more coordinate than cells in each dimension, all finite and increasing *)
Definition regular (m : mapping) (s : coordinates exact) : Prop :=
  forall k, (Z.of_nat (length (s k)) = mlen m k + 1 /\ mlen m k + 1 < W) /\
    forall i, 0 <= i < mlen m k -> exact_lt (coord s k i) (coord s k (i + 1)) = true.
(** the number a function returns, NaN if it does not return one *)
Definition value (r : result (option Q)) : option Q := match r with Value x => x | _ => None end.

Section Stretched.
Context (m : mapping) (t : topo) (s : coordinates exact) (Hwf : wf m) (Hr : regular m s).
Notation M := (2 ^ m_max m).
Definition X (k : dim) (i : Z) : Q := val (coord s k i).

Lemma X_eq k i : 0 <= i <= mlen m k -> coord s k i = Some (X k i).
Proof.
  intros H. destruct (Hr k) as [_ I]. pose proof (mlen_pos m Hwf k). unfold X.
  destruct (Z.eq_dec i (mlen m k)) as [->|N].
  - specialize (I (mlen m k - 1) ltac:(lia)). apply lt_some in I. destruct I as (a & b & _ & E).
    replace (mlen m k - 1 + 1) with (mlen m k) in E by lia. rewrite E. reflexivity.
  - specialize (I i ltac:(lia)). apply lt_some in I. destruct I as (a & b & E & _). rewrite E. reflexivity.
Qed.
Lemma X_step k i : 0 <= i < mlen m k -> (X k i < X k (i + 1))%Q.
Proof.
  intros H. destruct (Hr k) as [_ I]. specialize (I i H). rewrite !X_eq in I by lia. apply lt_iff in I. exact I.
Qed.
Lemma X_lt k n : forall i, 0 <= i -> i + Z.of_nat (S n) <= mlen m k -> (X k i < X k (i + Z.of_nat (S n)))%Q.
Proof.
  induction n as [|n IH]; intros i Hi Hn.
  - change (Z.of_nat 1) with 1 in *. apply X_step. lia.
  - pose proof (X_step k i ltac:(lia)). pose proof (IH (i + 1) ltac:(lia) ltac:(lia)) as H1.
    replace (i + 1 + Z.of_nat (S n)) with (i + Z.of_nat (S (S n))) in H1 by lia. lra.
Qed.
Lemma X_mono k i j : 0 <= i < j -> j <= mlen m k -> (X k i < X k j)%Q.
Proof.
  intros H Hj. pose proof (X_lt k (Z.to_nat (j - i - 1)) i ltac:(lia) ltac:(lia)) as L.
  replace (i + Z.of_nat (S (Z.to_nat (j - i - 1)))) with j in L by lia. exact L.
Qed.
Lemma at_index_eq k i : 0 <= i <= mlen m k -> at_index exact (s k) i = Value (Some (X k i)).
Proof.
  intros H. destruct (Hr k) as [[L LW1] _]. unfold at_index.
  replace ((i <? 0) || (Z.of_nat (length (s k)) <=? i)) with false by lia.
  pose proof (X_eq k i H) as E. unfold coord in E.
  destruct (nth_error (s k) (Z.to_nat i)) as [q|] eqn:En.
  - apply (nth_error_nth _ _ (None : num exact)) in En. rewrite <- En. f_equal. exact E.
  - apply nth_error_None in En. lia.
Qed.

Definition wid (k : dim) (q : Z) : Q := (X k (q + 1) - X k q)%Q.
Definition st_edge (k : dim) (i : Z) : Q := (X k (i / M) + z2q (i mod M) * (wid k (i / M) / z2q M))%Q.
Lemma M_pos : 1 <= M /\ (0 < z2q M)%Q.
Proof. pose proof (max_shift m Hwf) as [_ H]. split; [apply pow2_pos, H|apply p2_pos, H]. Qed.
(** lines of one unrefined cell *)
Lemma st_edge_in k q r : 0 <= q < mlen m k -> 0 <= r <= M -> (st_edge k (q * M + r) == X k q + z2q r * (wid k q / z2q M))%Q.
Proof.
  intros Hq Hr0. destruct M_pos as [M1 M2]. unfold st_edge.
  destruct (Z.eq_dec r M) as [->|N].
  - replace (q * M + M) with ((q + 1) * M) by lia. rewrite Z.div_mul, Z.mod_mul by lia.
    change (z2q 0) with 0%Q. unfold wid. field. lra.
  - replace (q * M + r) with (r + q * M) by lia. rewrite Z.div_add, Z.mod_add by lia.
    rewrite Z.div_small, Z.mod_small by lia. cbn [Z.add]. reflexivity.
Qed.
Lemma st_edge_step k i : 0 <= i < glen m k -> (st_edge k i < st_edge k (i + 1))%Q.
Proof.
  intros H. destruct M_pos as [M1 M2]. unfold glen in H.
  pose proof (Z.div_mod i M ltac:(lia)) as D. pose proof (Z.mod_pos_bound i M ltac:(lia)) as R.
  assert (0 <= i / M < mlen m k) as Hq by (split; [apply Z.div_pos; lia|apply Z.div_lt_upper_bound; lia]).
  pose proof (st_edge_in k (i / M) (i mod M) Hq ltac:(lia)) as E1.
  pose proof (st_edge_in k (i / M) (i mod M + 1) Hq ltac:(lia)) as E2.
  replace (i / M * M + i mod M) with i in E1 by lia. replace (i / M * M + (i mod M + 1)) with (i + 1) in E2 by lia.
  rewrite E1, E2, z2q_add. pose proof (X_step k (i / M) Hq).
  assert (0 < wid k (i / M) / z2q M)%Q by (apply Qlt_shift_div_l; [assumption|unfold wid; lra]).
  change (z2q 1) with 1%Q. nra.
Qed.
Lemma st_inc k i j : 0 <= i -> i < j -> j <= glen m k -> (st_edge k i < st_edge k j)%Q.
Proof.
  intros Hi Hij Hj. revert i Hi Hij.
  assert (forall n i, 0 <= i -> i + Z.of_nat (S n) = j -> (st_edge k i < st_edge k j)%Q) as F.
  { induction n as [|n IH]; intros i Hi E.
    - change (Z.of_nat 1) with 1 in E. subst j. apply st_edge_step. lia.
    - pose proof (st_edge_step k i ltac:(lia)). pose proof (IH (i + 1) ltac:(lia) ltac:(lia)). lra. }
  intros i Hi Hij. apply (F (Z.to_nat (j - i - 1))); lia.
Qed.
Lemma st_edge_0 k : (X k 0 == st_edge k 0)%Q.
Proof.
  pose proof (mlen_pos m Hwf k). destruct M_pos. pose proof (st_edge_in k 0 0 ltac:(lia) ltac:(lia)) as E.
  change (0 * M + 0) with 0 in E. rewrite E. change (z2q 0) with 0%Q. ring.
Qed.
Lemma st_edge_end k : (X k (mlen m k) == st_edge k (glen m k))%Q.
Proof.
  pose proof (mlen_pos m Hwf k). destruct M_pos. unfold glen.
  pose proof (st_edge_in k (mlen m k - 1) M ltac:(lia) ltac:(lia)) as E.
  replace ((mlen m k - 1) * M + M) with (mlen m k * M) in E by lia. rewrite E. unfold wid.
  replace (mlen m k - 1 + 1) with (mlen m k) by lia. field. lra.
Qed.

(** *** cells *)
Lemma cell_place c k : valid m c ->
  let i := get (idx_of m c) k in let q := i / M in
  0 <= q < mlen m k /\ 0 <= i - q * M /\ i - q * M + len_of m c <= M /\ st_start_index m c k = q.
Proof.
  intros H. cbv zeta. destruct M_pos as [M1 _]. pose proof (cell_lines m Hwf c k H) as (P1 & P2 & P3). unfold glen in P3.
  set (i := get (idx_of m c) k) in *.
  pose proof (Z.div_mod i M ltac:(lia)) as D. pose proof (Z.mod_pos_bound i M ltac:(lia)) as R.
  split; [split; [apply Z.div_pos; lia|apply Z.div_lt_upper_bound; lia]|].
  split; [lia|]. split.
  - assert (len_of m c | M) as Dv.
    { rewrite cell_len by assumption. pose proof (cell_level m Hwf c H). apply pow2_divide. lia. }
    pose proof (aligned_lt (len_of m c) i ((i / M + 1) * M) ltac:(lia) (cell_aligned m Hwf c k H)
      (Z.divide_mul_r _ _ _ Dv) ltac:(lia)). lia.
  - unfold st_start_index. rewrite valid_exists by assumption. rewrite (proj1 (max_shift m Hwf)). reflexivity.
Qed.
Lemma st_width_eq k q : 0 <= q < mlen m k -> st_width exact s k q = Value (Some (wid k q)).
Proof.
  intros H. unfold st_width. pose proof (glen_lt_W m Hwf k). unfold glen in *. destruct M_pos as [M1 _].
  unfold add64. rewrite u64_small by nia. rewrite !at_index_eq by lia. reflexivity.
Qed.
Lemma st_length_eq c k : valid m c -> exists l, st_length exact m s c k = Value (Some l) /\
  (l == z2q (len_of m c) * (wid k (get (idx_of m c) k / M) / z2q M))%Q /\
  (l == wid k (get (idx_of m c) k / M) / z2q (2 ^ lvl_of m c))%Q.
Proof.
  intros H. destruct (cell_place c k H) as (Hq & _ & _ & E). unfold st_length. rewrite valid_exists by assumption.
  rewrite E, st_width_eq by assumption. cbn [rbind].
  destruct (level_shift m Hwf c H) as [S Hl]. unfold lvl_of in S. rewrite S. fold (lvl_of m c).
  pose proof (p2_pos (lvl_of m c) Hl) as P2. cbn [exact div of_u64].
  change (inject_Z (2 ^ lvl_of m c)) with (z2q (2 ^ lvl_of m c)). rewrite div_some by assumption.
  eexists. split; [reflexivity|]. rewrite (len_scale m Hwf c H).
  assert (0 < z2q (len_of m c))%Q by (apply z2q_pos, cell_len_pos; assumption). split; [field; lra|reflexivity].
Qed.
Lemma st_center_eq c k : valid m c -> exists x l, st_center exact m s c k = Value (Some x) /\
  st_length exact m s c k = Value (Some l) /\ (x == st_edge k (get (idx_of m c) k) + l / 2)%Q /\
  (st_edge k (get (idx_of m c) k + len_of m c) == st_edge k (get (idx_of m c) k) + l)%Q /\ (0 < l)%Q.
Proof.
  intros H. destruct (st_length_eq c k H) as (l & El & Ql & _). destruct (cell_place c k H) as (Hq & Hi & Hl & E).
  set (i := get (idx_of m c) k) in *. set (q := i / M) in *. destruct M_pos as [M1 M2].
  unfold st_center. rewrite valid_exists by assumption. rewrite El, E, st_width_eq, at_index_eq by lia.
  cbn [rbind]. rewrite (proj1 (max_shift m Hwf)).
  pose proof (cell_lines m Hwf c k H) as (P1 & P2 & P3). fold i in P1, P2, P3. pose proof (glen_lt_W m Hwf k) as LW.
  unfold mul64, sub64. fold (idx_of m c). fold i. rewrite (u64_small (q * M)) by lia. rewrite (u64_small (i - q * M)) by lia.
  cbn [exact add mul div of_u64]. change (inject_Z M) with (z2q M). rewrite !div_some by (assumption || reflexivity). cbn [lift2].
  eexists; exists l. split; [reflexivity|]. split; [reflexivity|].
  pose proof (st_edge_in k q (i - q * M) Hq ltac:(lia)) as E1. replace (q * M + (i - q * M)) with i in E1 by lia.
  pose proof (st_edge_in k q (i - q * M + len_of m c) Hq ltac:(lia)) as E2.
  replace (q * M + (i - q * M + len_of m c)) with (i + len_of m c) in E2 by lia.
  split; [rewrite E1; change (inject_Z 2) with 2%Q; unfold z2q; ring|].
  split; [rewrite E1, E2, Ql, z2q_add; ring|].
  rewrite Ql. pose proof (X_step k q Hq).
  assert (0 < wid k q / z2q M)%Q by (apply Qlt_shift_div_l; [assumption|unfold wid; lra]).
  assert (0 < z2q (len_of m c))%Q by (apply z2q_pos, cell_len_pos; assumption). nra.
Qed.
Lemma st_min_eq c k : valid m c -> exists q, value (st_min exact m s c k) = Some q /\ (q == st_edge k (get (idx_of m c) k))%Q.
Proof.
  intros H. destruct (st_center_eq c k H) as (x & l & Ex & El & Qx & _). unfold st_min. rewrite Ex, El. cbn [rbind value].
  cbn [exact sub div of_u64]. rewrite div_some by reflexivity. cbn [lift2]. eexists. split; [reflexivity|].
  rewrite Qx. change (inject_Z 2) with 2%Q. field.
Qed.
Lemma st_max_eq c k : valid m c -> exists q, value (st_max exact m s c k) = Some q /\ (q == st_edge k (get (idx_of m c) k + len_of m c))%Q.
Proof.
  intros H. destruct (st_center_eq c k H) as (x & l & Ex & El & Qx & Qe & _). unfold st_max. rewrite Ex, El. cbn [rbind value].
  cbn [exact add div of_u64]. rewrite div_some by reflexivity. cbn [lift2]. eexists. split; [reflexivity|].
  rewrite Qx, Qe. change (inject_Z 2) with 2%Q. field.
Qed.
Lemma st_start_eq k : value (st_start exact s k) = Some (X k 0) /\ (X k 0 == st_edge k 0)%Q.
Proof.
  pose proof (mlen_pos m Hwf k). unfold st_start. rewrite at_index_eq by lia. split; [reflexivity|apply st_edge_0].
Qed.
Lemma st_end_eq k : value (st_end exact m s k) = Some (X k (mlen m k)) /\ (X k (mlen m k) == st_edge k (glen m k))%Q.
Proof.
  pose proof (mlen_pos m Hwf k). unfold st_end. rewrite at_index_eq by lia. split; [reflexivity|apply st_edge_end].
Qed.

(** *** search for a coordinate *)
Lemma skipn_coord k i : 0 <= i <= mlen m k -> skipn (Z.to_nat i) (s k) = Some (X k i) :: skipn (Z.to_nat (i + 1)) (s k).
Proof.
  intros H. destruct (Hr k) as [[L LW1] _]. pose proof (X_eq k i H) as E. unfold coord in E. rewrite <- E.
  replace (Z.to_nat (i + 1)) with (S (Z.to_nat i)) by lia.
  assert (Z.to_nat i < length (s k))%nat as Hl by lia. revert Hl. generalize (Z.to_nat i), (s k). clear.
  induction n as [|n IH]; intros [|a l] H; cbn in H; try lia; [reflexivity|].
  cbn [skipn nth]. rewrite IH by (apply Nat.succ_lt_mono; exact H). reflexivity.
Qed.
Lemma coord_search_eq k v : (v <= X k (mlen m k))%Q -> forall n i, 0 <= i -> i + Z.of_nat n = mlen m k ->
  (forall j, 0 <= j < i -> (X k j < v)%Q) ->
  exists f, coord_search exact (Some v) (skipn (Z.to_nat i) (s k)) i = Value f /\ 0 <= f <= mlen m k /\
    (forall j, 0 <= j < f -> (X k j < v)%Q) /\ (v <= X k f)%Q.
Proof.
  intros Hv. pose proof (glen_lt_W m Hwf k) as LW. destruct M_pos as [M1 _]. unfold glen in LW.
  induction n as [|n IH]; intros i Hi En Hb.
  - replace i with (mlen m k) in * by lia. rewrite skipn_coord by lia. cbn [coord_search].
    assert (lt exact (Some (X k (mlen m k))) (Some v) = false) as E.
    { apply not_true_iff_false. intros E. apply lt_iff in E. lra. }
    rewrite E. exists (mlen m k). split; [reflexivity|]. split; [lia|]. auto.
  - rewrite skipn_coord by lia. cbn [coord_search].
    destruct (lt exact (Some (X k i)) (Some v)) eqn:E.
    + apply lt_iff in E. unfold add64. rewrite u64_small by nia. apply IH; [lia|lia|].
      intros j Hj. destruct (Z.eq_dec j i) as [->|]; [assumption|apply Hb; lia].
    + apply not_true_iff_false in E. change (lt exact) with exact_lt in E. rewrite lt_iff in E. apply Qnot_lt_le in E.
      exists i. split; [reflexivity|]. split; [lia|]. auto.
Qed.
Lemma offset_search_eq a w v : (0 < w)%Q -> (a < v)%Q -> (v <= a + z2q M * w)%Q ->
  forall fuel i, 0 <= i <= M -> (0 < i -> (a + z2q (i - 1) * w < v)%Q) -> M - i < Z.of_nat fuel ->
  exists off, offset_search exact fuel (Some v) (Some a) (Some w) i = Value off /\ 1 <= off <= M /\
    (a + z2q (off - 1) * w < v)%Q /\ (v <= a + z2q off * w)%Q.
Proof.
  intros Hw Ha Hv. destruct M_pos as [M1 M2]. pose proof (max_shift m Hwf) as [_ Hm]. pose proof (wf_max_le_21 m Hwf) as H21.
  assert (M < W) as MW by (rewrite W_val; change 18446744073709551616 with (2 ^ 64); apply Z.pow_lt_mono_r; lia).
  induction fuel as [|fuel IH]; intros i Hi Hb Hf; [lia|].
  cbn [offset_search]. cbn [exact add mul lt of_u64 lift2]. change (inject_Z i) with (z2q i).
  destruct (exact_lt (Some (a + z2q i * w)%Q) (Some v)) eqn:E.
  - apply lt_iff in E. assert (i < M) as Hlt.
    { destruct (Z.eq_dec i M) as [->|]; [exfalso; lra|lia]. }
    unfold add64. rewrite u64_small by lia. apply IH; [lia| |lia].
    intros _. replace (i + 1 - 1) with i by lia. assumption.
  - apply not_true_iff_false in E. rewrite lt_iff in E. apply Qnot_lt_le in E.
    exists i. split; [reflexivity|].
    destruct (Z.eq_dec i 0) as [->|N]; [exfalso; change (z2q 0) with 0%Q in E; lra|].
    split; [lia|]. split; [apply Hb; lia|assumption].
Qed.
Lemma st_index_found fuel k v : M < Z.of_nat fuel -> (X k 0 < v)%Q -> (v <= X k (mlen m k))%Q ->
  exists j, st_index exact m s fuel (Some v) k = Value j /\ 0 <= j < glen m k /\ (st_edge k j < v)%Q /\ (v <= st_edge k (j + 1))%Q.
Proof.
  intros Hf L U. pose proof (mlen_pos m Hwf k) as Hm. destruct M_pos as [M1 M2]. pose proof (glen_lt_W m Hwf k) as LW. unfold glen in *.
  unfold st_index, st_start, st_end. rewrite !at_index_eq by lia. cbn [rbind].
  change (le exact) with exact_le. rewrite (proj2 (le_iff (X k 0) v)), (proj2 (le_iff v (X k (mlen m k)))) by lra. cbn [andb].
  destruct (coord_search_eq k v U (Z.to_nat (mlen m k)) 0 ltac:(lia) ltac:(lia) ltac:(intros; lia)) as (f & Ef & Hf0 & Fb & Fv).
  change (skipn (Z.to_nat 0) (s k)) with (s k) in Ef. rewrite Ef. cbn [rbind].
  assert (1 <= f) as F1. { destruct (Z.eq_dec f 0) as [->|]; [exfalso; lra|lia]. }
  unfold sub64 at 1 2 3 4. rewrite (u64_small (f - 1)) by nia. rewrite st_width_eq, at_index_eq by lia. cbn [rbind].
  rewrite (proj1 (max_shift m Hwf)). cbn [exact div of_u64]. change (inject_Z M) with (z2q M). rewrite div_some by assumption.
  fold exact. set (q := f - 1) in *. assert (0 <= q < mlen m k) as Hq by lia.
  pose proof (X_step k q Hq) as Hs. assert (0 < wid k q / z2q M)%Q as Hw by (apply Qlt_shift_div_l; [assumption|unfold wid; lra]).
  assert (z2q M * (wid k q / z2q M) == wid k q)%Q as Ew by (field; lra).
  replace f with (q + 1) in Fv by (unfold q; lia).
  destruct (offset_search_eq (X k q) (wid k q / z2q M) v Hw (Fb q ltac:(lia)) ltac:(rewrite Ew; unfold wid; lra) fuel 0 ltac:(lia) ltac:(lia) ltac:(lia))
    as (off & Eo & Ho & O1 & O2).
  rewrite Eo. cbn [rbind]. unfold add64, sub64, mul64. rewrite !(u64_small (off - 1)), !(u64_small (q * M)) by nia.
  rewrite u64_small by nia. exists (q * M + (off - 1)). split; [reflexivity|]. split; [nia|].
  pose proof (st_edge_in k q (off - 1) Hq ltac:(lia)) as E1. pose proof (st_edge_in k q off Hq ltac:(lia)) as E2.
  replace (q * M + (off - 1) + 1) with (q * M + off) by lia. rewrite E1, E2. auto.
Qed.
Lemma st_index_outside fuel k x : ~ (exact_le (Some (X k 0)) x = true /\ exact_le x (Some (X k (mlen m k))) = true) ->
  st_index exact m s fuel x k = Value error_index.
Proof.
  intros H. pose proof (mlen_pos m Hwf k) as Hm. unfold st_index, st_start, st_end. rewrite !at_index_eq by lia. cbn [rbind].
  change (le exact) with exact_le. destruct (exact_le (Some (X k 0)) x), (exact_le x (Some (X k (mlen m k)))); cbn [andb]; tauto.
Qed.
Lemma st_index_start fuel k v : (v == X k 0)%Q -> st_index exact m s fuel (Some v) k = Outside.
Proof.
  intros E. pose proof (mlen_pos m Hwf k) as Hm. pose proof (X_mono k 0 (mlen m k) ltac:(lia) ltac:(lia)).
  unfold st_index, st_start, st_end. rewrite !at_index_eq by lia. cbn [rbind].
  change (le exact) with exact_le. rewrite (proj2 (le_iff (X k 0) v)), (proj2 (le_iff v (X k (mlen m k)))) by lra. cbn [andb].
  pose proof (skipn_coord k 0 ltac:(lia)) as Es. change (skipn (Z.to_nat 0) (s k)) with (s k) in Es. rewrite Es at 1.
  cbn [coord_search]. assert (lt exact (Some (X k 0)) (Some v) = false) as E0.
  { apply not_true_iff_false. intros N. apply lt_iff in N. lra. }
  rewrite E0. cbn [rbind]. unfold st_width.
  assert (sub64 0 1 = W - 1) as -> by (unfold sub64, u64; rewrite W_val; reflexivity).
  assert (add64 (W - 1) 1 = 0) as -> by (unfold add64, u64; rewrite W_val; reflexivity).
  rewrite at_index_eq by lia. cbn [rbind]. destruct (Hr k) as [[L LW1] _].
  assert (at_index exact (s k) (W - 1) = Outside) as ->; [|reflexivity].
  unfold at_index. replace ((W - 1 <? 0) || (Z.of_nat (length (s k)) <=? W - 1)) with true by lia. reflexivity.
Qed.
End Stretched.

(** ** C45 *)
Notation bounds_lo m s := (fun c k => value (st_min exact m s c k)).
Notation bounds_hi m s := (fun c k => value (st_max exact m s c k)).

(** the boxes of cells; [within] requires all numbers to be returned and not to be NaN *)
Theorem c45_boxes_tile_the_domain m s x :
  wf m -> regular m s ->
  let start k := value (st_start exact s k) in let end_ k := value (st_end exact m s k) in
  let lo c k := value (st_min exact m s c k) in let hi c k := value (st_max exact m s c k) in
  (forall l, 0 <= l <= m_max m -> within start x end_ ->
     exists! c, valid m c /\ get_refinement_level m c = l /\ within (lo c) x (hi c)) /\
  (forall l, 0 <= l <= m_max m -> within_closed start x end_ ->
     exists c, valid m c /\ get_refinement_level m c = l /\ within_closed (lo c) x (hi c)) /\
  (forall c, valid m c -> within (lo c) x (hi c) -> within start x end_) /\
  (forall c, valid m c -> get_refinement_level m c < m_max m ->
     (within (lo c) x (hi c) -> exists! k, In k (get_all_children m c) /\ within (lo k) x (hi k)) /\
     (forall k, In k (get_all_children m c) -> within (lo k) x (hi k) -> within (lo c) x (hi c))) /\
  (forall ex, tiling m ex -> within start x end_ -> exists! c, ex c = true /\ within (lo c) x (hi c)).
Proof.
  intros Hwf Hr. cbv zeta.
  pose proof (st_inc m s Hwf Hr) as Hinc. pose proof (st_min_eq m s Hwf Hr) as Hlo. pose proof (st_max_eq m s Hwf Hr) as Hhi.
  assert (forall k, exists q, value (st_start exact s k) = Some q /\ (q == st_edge m s k 0)%Q) as Hs by (intros k; eexists; apply (st_start_eq m s Hwf Hr)).
  assert (forall k, exists q, value (st_end exact m s k) = Some q /\ (q == st_edge m s k (glen m k))%Q) as He by (intros k; eexists; apply (st_end_eq m s Hwf Hr)).
  split; [intros l; apply (level_tiles m Hwf (st_edge m s) Hinc (bounds_lo m s) (bounds_hi m s)); assumption|].
  split; [intros l; apply (closed_cover m Hwf (st_edge m s) Hinc (bounds_lo m s) (bounds_hi m s)); assumption|].
  split; [intros c; apply (box_in_grid m Hwf (st_edge m s) Hinc (bounds_lo m s) (bounds_hi m s)); assumption|].
  split; [intros c; apply (children_tile m Hwf (st_edge m s) Hinc (bounds_lo m s) (bounds_hi m s) Hlo Hhi (fun k => value (st_start exact s k)) (fun k => value (st_end exact m s k))); assumption|].
  intros ex. apply (existing_tile m Hwf (st_edge m s) Hinc (bounds_lo m s) (bounds_hi m s)); assumption.
Qed.
Print Assumptions c45_boxes_tile_the_domain.

(** the box of an unrefined cell is between consecutive coordinates, smaller cells divide it evenly *)
Theorem c45_center_and_length m s c k :
  wf m -> regular m s -> valid m c ->
  let lo := value (st_min exact m s c k) in let hi := value (st_max exact m s c k) in
  let mid := value (st_center exact m s c k) in let len := value (st_length exact m s c k) in
  let i := get (get_indices m (get_level_0_parent m c)) k / 2 ^ m_max m in
  exact_lt lo mid = true /\ exact_lt mid hi = true /\ same (minus mid lo) (minus hi mid) /\ same (minus hi lo) len /\
  same (times len (Some (inject_Z (2 ^ get_refinement_level m c)))) (minus (coord s k (i + 1)) (coord s k i)).
Proof.
  intros Hwf Hr Hc. cbv zeta.
  destruct (st_center_eq m s Hwf Hr c k Hc) as (x & l & Ex & El & Qx & Qe & Pl).
  destruct (st_length_eq m s Hwf Hr c k Hc) as (l' & El' & _ & Ql). rewrite El in El'. injection El' as <-.
  unfold st_min, st_max. rewrite Ex, El. cbn [rbind value]. cbn [exact add sub div of_u64]. rewrite !div_some by reflexivity.
  unfold minus, times. cbn [lift2]. change (inject_Z 2) with 2%Q.
  assert (l / 2 == l * (1 # 2))%Q as Hh by field. rewrite !lt_iff.
  split; [lra|]. split; [lra|]. split; [apply same_iff; lra|]. split; [apply same_iff; lra|].
  destruct (cell_place m Hwf c k Hc) as (Hq & _ & _ & _).
  assert (get (get_indices m (get_level_0_parent m c)) k / 2 ^ m_max m = get (idx_of m c) k / 2 ^ m_max m) as ->.
  { pose proof (cell_level m Hwf c Hc) as Hl. pose proof (cell_in_grid m Hwf c Hc) as G. pose proof (wf_max_le_21 m Hwf) as H21.
    pose proof (M_pos m Hwf) as [M1 _].
    assert (get_level_0_parent m c = get_cell_from_indices m (idx_of m c) 0) as ->.
    { unfold get_level_0_parent. unfold lvl_of in Hl. replace ((get_refinement_level m c <? 0) || (m_max m <? get_refinement_level m c)) with false by lia.
      destruct (Z.eqb_spec (get_refinement_level m c) 0) as [E|E]; [|reflexivity].
      symmetry. rewrite <- (cell_back m Hwf c Hc) at 2. unfold lvl_of. rewrite E. reflexivity. }
    destruct (c01_indices_to_id_and_back m (idx_of m c) 0 Hwf G ltac:(lia)) as (_ & _ & E). rewrite E.
    replace (m_max m - 0) with (m_max m) by lia.
    replace (get (Idx (rdown (2 ^ m_max m) (ix (idx_of m c))) (rdown (2 ^ m_max m) (iy (idx_of m c))) (rdown (2 ^ m_max m) (iz (idx_of m c)))) k)
      with (rdown (2 ^ m_max m) (get (idx_of m c) k)) by (destruct k; reflexivity).
    unfold rdown. set (a := get (idx_of m c) k). pose proof (Z.div_mod a (2 ^ m_max m) ltac:(lia)) as D.
    replace (a - a mod 2 ^ m_max m) with (a / 2 ^ m_max m * 2 ^ m_max m) by lia. apply Z.div_mul. lia. }
  rewrite !(X_eq m s Hwf Hr) by lia. cbn [lift2]. rewrite same_iff, Ql. unfold wid, lvl_of.
  fold (z2q (2 ^ get_refinement_level m c)).
  pose proof (p2_pos (lvl_of m c) (proj2 (level_shift m Hwf c Hc))). unfold lvl_of in H. field. lra.
Qed.
Print Assumptions c45_center_and_length.

Theorem c45_impossible_cells_have_no_place (A : arith) m s c k :
  wf m -> 0 <= c -> ~ valid m c -> st_length A m s c k = Value (nan A) /\ st_center A m s c k = Value (nan A).
Proof.
  intros Hwf H0 H. unfold st_length, st_center. rewrite (invalid_no_such_cell m c H0 H). auto.
Qed.
Print Assumptions c45_impossible_cells_have_no_place.

(** set: lists of finite numbers are accepted exactly if they have one coordinate more than the
    grid has cells and are strictly increasing; otherwise nothing changes *)
Lemma increasing_iff (l : list (option Q)) : (forall x, In x l -> x <> None) ->
  (increasing exact l = true <-> forall i, 0 <= i -> i + 1 < Z.of_nat (length l) ->
     exact_lt (nth (Z.to_nat i) l None) (nth (Z.to_nat (i + 1)) l None) = true).
Proof.
  induction l as [|a l IH]; intros Hf; [cbn; split; [lia|reflexivity]|].
  destruct l as [|b l]; [cbn; split; [lia|reflexivity]|].
  change (increasing exact (a :: b :: l)) with (negb (exact_le b a) && increasing exact (b :: l)).
  rewrite andb_true_iff, IH by (intros x Hx; apply Hf; right; exact Hx).
  assert (negb (exact_le b a) = exact_lt a b) as ->.
  { assert (a <> None) as Ha by (apply Hf; left; reflexivity). assert (b <> None) as Hb by (apply Hf; right; left; reflexivity).
    destruct a, b; try congruence. reflexivity. }
  split.
  - intros [H1 H2] i Hi Hl. destruct (Z.eq_dec i 0) as [->|N]; [exact H1|].
    specialize (H2 (i - 1) ltac:(lia) ltac:(cbn [length] in *; lia)).
    replace (i - 1 + 1) with i in H2 by lia. replace (Z.to_nat (i + 1)) with (S (Z.to_nat i)) by lia.
    replace (nth (Z.to_nat i) (a :: b :: l) None) with (nth (Z.to_nat (i - 1)) (b :: l) None)
      by (replace (Z.to_nat i) with (S (Z.to_nat (i - 1))) by lia; reflexivity). exact H2.
  - intros H. split; [exact (H 0 ltac:(lia) ltac:(cbn [length]; lia))|]. intros i Hi Hl.
    specialize (H (i + 1) ltac:(lia) ltac:(cbn [length] in *; lia)).
    replace (Z.to_nat (i + 1)) with (S (Z.to_nat i)) in * by lia. replace (Z.to_nat (i + 1 + 1)) with (S (S (Z.to_nat i))) in H by lia.
    exact H.
Qed.
Lemma acceptable_iff m s k : wf m -> (forall x, In x (s k) -> x <> None) ->
  (acceptable exact m k (s k) = true <->
   (Z.of_nat (length (s k)) = mlen m k + 1 /\ mlen m k + 1 < W) /\
   forall i, 0 <= i < mlen m k -> exact_lt (coord s k i) (coord s k (i + 1)) = true).
Proof.
  intros Hwf Hf. unfold acceptable. rewrite !andb_true_iff, negb_true_iff, increasing_iff by assumption.
  pose proof (mlen_pos m Hwf k) as Hm. pose proof (glen_lt_W m Hwf k) as LW. pose proof (M_pos m Hwf) as [M1 _]. unfold glen in LW.
  assert (mlen m k < W) as Hw by nia. unfold add64, coord.
  remember (Z.of_nat (length (s k))) as n eqn:En. change (Z.of_nat (@length (num exact) (s k))) with (Z.of_nat (@length (option Q) (s k))). rewrite <- En.
  split.
  - intros [[H1 H2] H3]. assert (mlen m k + 1 < W) as Hw1.
    { destruct (Z.eq_dec (mlen m k + 1) W) as [E|]; [|lia]. rewrite E in H2. unfold u64 in H2. rewrite Z.mod_same in H2 by lia. lia. }
    rewrite u64_small in H2 by lia. split; [lia|]. intros i Hi. apply H3; lia.
  - intros [[H1 H2] H3]. rewrite u64_small by lia. split; [lia|]. intros i Hi Hl. apply H3. lia.
Qed.
Theorem c45_set_accepts_increasing_coordinates m old given :
  wf m -> (forall k x, In x (given k) -> x <> None) ->
  (regular m given -> stretched_set exact m old given = (true, given)) /\
  (~ regular m given -> stretched_set exact m old given = (false, old)).
Proof.
  intros Hwf Hf. unfold stretched_set.
  pose proof (fun k => acceptable_iff m given k Hwf (Hf k)) as A.
  destruct (acceptable exact m DX (given DX) && acceptable exact m DY (given DY) && acceptable exact m DZ (given DZ)) eqn:E.
  - rewrite !andb_true_iff in E. split; [reflexivity|]. intros N. exfalso. apply N. intros k. apply A. destruct k; tauto.
  - split; [|reflexivity]. intros R. exfalso. rewrite (proj2 (A DX) (R DX)), (proj2 (A DY) (R DY)), (proj2 (A DZ) (R DZ)) in E. discriminate.
Qed.
Print Assumptions c45_set_accepts_increasing_coordinates.

(** set of a Cartesian geometry of the same grid gives the boxes of that geometry *)
Theorem c45_set_cartesian_gives_the_same_boxes m old g :
  wf m -> finite g -> (forall k, mlen m k + 1 < W) ->
  exists s, stretched_set_cartesian exact m old m g = (true, s) /\ regular m s /\
  forall c k, valid m c ->
    same (value (st_min exact m s c k)) (ca_min exact m g c k) /\ same (value (st_max exact m s c k)) (ca_max exact m g c k) /\
    same (value (st_center exact m s c k)) (ca_center exact m g c k).
Proof.
  intros Hwf Hg Hw. unfold stretched_set_cartesian. rewrite !Z.eqb_refl. cbn [andb].
  set (s := fun k => map (fun i => add exact (ca_start g k) (mul exact (of_u64 exact i) (ca_length0 g k))) (upto (mlen m k))).
  assert (forall k, length (s k) = Z.to_nat (mlen m k + 1)) as Ls by (intros k; unfold s, upto; rewrite !map_length, seq_length; reflexivity).
  assert (forall k i, 0 <= i <= mlen m k -> coord s k i = Some (val (ca_start g k) + z2q i * val (ca_length0 g k))%Q) as Cs.
  { intros k i Hi. unfold coord. apply nth_error_nth. unfold s, upto. rewrite !nth_error_map.
    rewrite nth_error_nth' with (d := O) by (rewrite seq_length; lia). rewrite seq_nth by lia. cbn [option_map Nat.add].
    rewrite Z2Nat.id by lia. destruct (ca_values g Hg k) as (Es & Eh & _). rewrite Es, Eh. reflexivity. }
  assert (regular m s) as Hr.
  { intros k. pose proof (mlen_pos m Hwf k). split; [rewrite Ls; split; [lia|apply Hw]|].
    intros i Hi. rewrite !Cs by lia. apply lt_iff. rewrite z2q_add. change (z2q 1) with 1%Q. pose proof (ca_values g Hg k) as (_ & _ & P). lra. }
  exists s. split; [|split; [exact Hr|]].
  - apply (c45_set_accepts_increasing_coordinates m old s Hwf); [|exact Hr].
    intros k x Hx. apply (In_nth _ _ None) in Hx. destruct Hx as (n & Hn & <-). rewrite Ls in Hn.
    pose proof (Cs k (Z.of_nat n) ltac:(lia)) as E. unfold coord in E. rewrite Nat2Z.id in E. intros N.
    change (nth n (s k) (None : num exact) = Some (val (ca_start g k) + z2q (Z.of_nat n) * val (ca_length0 g k))%Q) in E.
    change (nth n (s k) (None : num exact) = None) in N. rewrite N in E. discriminate.
  - intros c k Hc.
    assert (forall i, 0 <= i <= mlen m k -> (X s k i == val (ca_start g k) + z2q i * val (ca_length0 g k))%Q) as EX
      by (intros i Hi; unfold X; rewrite Cs by assumption; reflexivity).
    assert (forall i, 0 <= i <= glen m k -> (st_edge m s k i == ca_edge m g k i)%Q) as EE.
    { intros i Hi. destruct (M_pos m Hwf) as [M1 M2]. pose proof (Z.div_mod i (2 ^ m_max m) ltac:(lia)) as D.
      pose proof (Z.mod_pos_bound i (2 ^ m_max m) ltac:(lia)) as R. unfold glen in Hi.
      assert (z2q i == z2q (2 ^ m_max m) * z2q (i / 2 ^ m_max m) + z2q (i mod 2 ^ m_max m))%Q as Di by (rewrite <- z2q_mul, <- z2q_add; rewrite <- D; reflexivity).
      unfold ca_edge. rewrite Di. destruct (Z.eq_dec (i / 2 ^ m_max m) (mlen m k)) as [E|N].
      - assert (i mod 2 ^ m_max m = 0) as E0 by nia. unfold st_edge. rewrite E0, EX by (rewrite E; pose proof (mlen_pos m Hwf k); lia).
        change (z2q 0) with 0%Q. field. lra.
      - assert (0 <= i / 2 ^ m_max m < mlen m k) as Hq.
        { split; [apply Z.div_pos; lia|]. assert (i / 2 ^ m_max m < mlen m k + 1) by (apply Z.div_lt_upper_bound; nia). lia. }
        unfold st_edge, wid. rewrite !EX by lia. rewrite z2q_add. change (z2q 1) with 1%Q. field. lra. }
    pose proof (cell_lines m Hwf c k Hc) as (P1 & P2 & P3).
    destruct (st_min_eq m s Hwf Hr c k Hc) as (a & Ea & Qa), (st_max_eq m s Hwf Hr c k Hc) as (b & Eb & Qb).
    destruct (ca_min_eq m g Hwf Hg c k Hc) as (a' & Ea' & Qa'), (ca_max_eq m g Hwf Hg c k Hc) as (b' & Eb' & Qb').
    rewrite Ea, Eb, Ea', Eb', !same_iff, Qa, Qb, Qa', Qb', !EE by lia. split; [reflexivity|]. split; [reflexivity|].
    destruct (st_center_eq m s Hwf Hr c k Hc) as (x & l & Ex & _ & Qx & Ql & _).
    destruct (ca_center_eq m g Hwf Hg c k Hc) as (x' & l' & Ex' & _ & Qx' & Ql').
    rewrite Ex, Ex'. cbn [value]. rewrite same_iff. rewrite !EE in * by lia.
    assert (l == l')%Q as El.
    { rewrite Ql'. unfold ca_edge in Ql. rewrite z2q_add in Ql. lra. }
    rewrite Qx, Qx', El. reflexivity.
Qed.
Print Assumptions c45_set_cartesian_gives_the_same_boxes.

(** reset() ("starting corner at (0, 0, 0), size of cells of refinement level 0 in each dimension: 1") *)
Definition unit_cells : cartesian exact := @Cartesian exact (fun _ => Some 0%Q) (fun _ => Some 1%Q).
Theorem c45_reset m : wf m -> (forall k, mlen m k + 1 < W) ->
  let s := stretched_reset exact m in
  regular m s /\ (forall old, stretched_set exact m old s = (true, s)) /\
  (forall k i, 0 <= i <= mlen m k -> coord s k i = Some (inject_Z i)) /\
  forall c k, valid m c -> same (value (st_min exact m s c k)) (ca_min exact m unit_cells c k) /\ same (value (st_max exact m s c k)) (ca_max exact m unit_cells c k) /\
    same (value (st_center exact m s c k)) (ca_center exact m unit_cells c k).
Proof.
  intros Hwf Hw s. assert (finite unit_cells) as Hu by (intros k; exists 0%Q, 1%Q; split; [reflexivity|]; split; [reflexivity|lra]).
  assert (forall i, add exact (Some 0%Q : num exact) (mul exact (of_u64 exact i) (Some 1%Q : num exact)) = of_u64 exact i) as E.
  { intros i. cbn [exact add mul of_u64 lift2]. f_equal. unfold Qplus, Qmult, inject_Z. cbn [Qnum Qden]. f_equal. lia. }
  assert (forall k i, 0 <= i <= mlen m k -> coord s k i = Some (inject_Z i)) as Cs.
  { intros k i Hi. unfold coord. apply nth_error_nth. unfold s, stretched_reset, upto. rewrite !nth_error_map.
    rewrite nth_error_nth' with (d := O) by (rewrite seq_length; lia). rewrite seq_nth by lia. cbn [option_map Nat.add]. rewrite Z2Nat.id by lia. reflexivity. }
  assert (exists z : coordinates exact, (forall k, z k = s k) /\ stretched_set_cartesian exact m s m unit_cells = (true, z) /\ regular m z /\
    forall c k, valid m c -> same (value (st_min exact m z c k)) (ca_min exact m unit_cells c k) /\ same (value (st_max exact m z c k)) (ca_max exact m unit_cells c k) /\ same (value (st_center exact m z c k)) (ca_center exact m unit_cells c k)) as (z & Ez & _ & Hr & Hb).
  { destruct (c45_set_cartesian_gives_the_same_boxes m s unit_cells Hwf Hu Hw) as (z & Sz & Hr & Hb). exists z. split; [|auto]. unfold stretched_set_cartesian in Sz. rewrite !Z.eqb_refl in Sz. cbn [andb] in Sz. unfold stretched_set in Sz. destruct (_ && _) in Sz; [|discriminate]. injection Sz as <-.
    intros k. unfold s, stretched_reset. apply map_ext. exact E. }
  assert (regular m s) as Hs. { intros k. specialize (Hr k). unfold coord in *. rewrite (Ez k) in Hr. exact Hr. }
  split; [assumption|]. split; [|split; [exact Cs|]].
  - intros old. apply (c45_set_accepts_increasing_coordinates m old s Hwf); [|assumption]. intros k x I. unfold s, stretched_reset in I. apply in_map_iff in I. destruct I as (i & <- & _). discriminate.
  - intros c k V. specialize (Hb c k V). unfold st_min, st_max, st_center, st_length, st_width in *. rewrite (Ez k) in Hb. exact Hb.
Qed.
Print Assumptions c45_reset.

(** get_cell gives the cell whose box contains the coordinate, boxes including their upper faces
    but not their lower ones, and error_cell for coordinates outside; the loops stop after
    at most 2^maximum refinement level + 1 steps.  See c45_start_coordinate_refuted for
    coordinates at the start of the grid. *)
Theorem c45_get_cell_partial m s fuel l x :
  wf m -> regular m s -> 2 ^ m_max m < Z.of_nat fuel -> 0 <= l <= m_max m ->
  let start k := value (st_start exact s k) in let end_ k := value (st_end exact m s k) in
  let lo c k := value (st_min exact m s c k) in let hi c k := value (st_max exact m s c k) in
  (within_upper start x end_ ->
     exists! c, st_cell exact m s fuel l x = Value c /\ valid m c /\ get_refinement_level m c = l /\ within_upper (lo c) x (hi c)) /\
  ((forall k, ~ same (x k) (start k)) -> ~ within_upper start x end_ -> st_cell exact m s fuel l x = Value error_cell).
Proof.
  intros Hwf Hr Hf Hl. cbv zeta.
  pose proof (st_inc m s Hwf Hr) as Hinc. pose proof (st_min_eq m s Hwf Hr) as Hlo. pose proof (st_max_eq m s Hwf Hr) as Hhi.
  assert (forall k, exists q, value (st_start exact s k) = Some q /\ (q == st_edge m s k 0)%Q) as Hs by (intros k; eexists; apply (st_start_eq m s Hwf Hr)).
  assert (forall k, exists q, value (st_end exact m s k) = Some q /\ (q == st_edge m s k (glen m k))%Q) as He by (intros k; eexists; apply (st_end_eq m s Hwf Hr)).
  unfold st_cell. replace (level_outside m l) with false by (unfold level_outside; lia).
  split.
  - intros Hin.
    assert (forall k, exists j, st_index exact m s fuel (x k) k = Value j /\ exists v, x k = Some v /\ 0 <= j < glen m k /\
      (st_edge m s k j < v)%Q /\ (v <= st_edge m s k (j + 1))%Q) as F.
    { intros k. destruct (Hin k) as [L U]. destruct (st_start_eq m s Hwf Hr k) as [Es _], (st_end_eq m s Hwf Hr k) as [Ee _].
      rewrite Es in L. rewrite Ee in U. destruct (x k) as [v|]; [|discriminate]. apply lt_iff in L. apply le_iff in U.
      destruct (st_index_found m s Hwf Hr fuel k v Hf L U) as (j & Ej & H1 & H2 & H3). exists j. split; [assumption|]. exists v. auto. }
    destruct (choose_dims _ F) as (i & Hi).
    assert (st_indices exact m s fuel x = Value i) as Ei.
    { unfold st_indices. rewrite (proj1 (Hi DX)), (proj1 (Hi DY)), (proj1 (Hi DZ)). cbn [rbind]. destruct i; reflexivity. }
    rewrite Ei. cbn [rbind].
    assert (located_upper m (st_edge m s) x i) as Lu by (intros k; apply (Hi k)).
    destruct (cell_at_located_upper m Hwf (st_edge m s) Hinc (bounds_lo m s) (bounds_hi m s) Hlo Hhi l x i Hl Lu) as (V & Lc & B).
    exists (get_cell_from_indices m i l). split; [auto|]. intros c' ([= <-] & _). reflexivity.
  - intros Hns Hout.
    assert (forall k, exists j, st_index exact m s fuel (x k) k = Value j /\ (0 <= j < glen m k \/ j = error_index) /\
      (0 <= j < glen m k -> exact_lt (value (st_start exact s k)) (x k) = true /\ exact_le (x k) (value (st_end exact m s k)) = true)) as F.
    { intros k. specialize (Hns k). destruct (st_start_eq m s Hwf Hr k) as [Es _], (st_end_eq m s Hwf Hr k) as [Ee _].
      rewrite Es in *. rewrite Ee. pose proof (glen_lt_W m Hwf k).
      destruct (exact_le (Some (X s k 0)) (x k)) eqn:E1; destruct (exact_le (x k) (Some (X s k (mlen m k)))) eqn:E2.
      - destruct (x k) as [v|]; [|discriminate]. apply le_iff in E1, E2. rewrite same_iff in Hns.
        assert (X s k 0 < v)%Q as L by (apply Qle_lteq in E1; destruct E1 as [E1|E1]; [assumption|exfalso; apply Hns; symmetry; assumption]).
        destruct (st_index_found m s Hwf Hr fuel k v Hf L E2) as (j & Ej & H1 & _). exists j. split; [assumption|]. split; [auto|].
        intros _. rewrite lt_iff. auto.
      - exists error_index. split; [apply st_index_outside; [assumption..|]; rewrite E2; intuition discriminate|]. split; [auto|]. unfold error_index. lia.
      - exists error_index. split; [apply st_index_outside; [assumption..|]; rewrite E1; intuition discriminate|]. split; [auto|]. unfold error_index. lia.
      - exists error_index. split; [apply st_index_outside; [assumption..|]; rewrite E1; intuition discriminate|]. split; [auto|]. unfold error_index. lia. }
    destruct (choose_dims _ F) as (i & Hi).
    assert (st_indices exact m s fuel x = Value i) as Ei.
    { unfold st_indices. rewrite (proj1 (Hi DX)), (proj1 (Hi DY)), (proj1 (Hi DZ)). cbn [rbind]. destruct i; reflexivity. }
    rewrite Ei. cbn [rbind]. f_equal.
    assert (forall k, 0 <= get i k) as Hp.
    { intros k. destruct (Hi k) as (_ & [?|E] & _); [lia|]. rewrite E. unfold error_index. rewrite W_val. lia. }
    apply gcfi_invalid; [assumption|apply (Hp DX)|apply (Hp DY)|apply (Hp DZ)|].
    intros [G _]. rewrite in_grid_k in G. apply Hout. intros k. destruct (Hi k) as (_ & _ & H). apply H, G.
Qed.
Print Assumptions c45_get_cell_partial.

Theorem c43_stretched_center_is_in_the_cell m s fuel c :
  wf m -> regular m s -> 2 ^ m_max m < Z.of_nat fuel -> valid m c ->
  st_cell exact m s fuel (get_refinement_level m c) (fun k => value (st_center exact m s c k)) = Value c.
Proof.
  intros Hwf Hr Hf Hc. pose proof (cell_level m Hwf c Hc) as Hl. unfold lvl_of in Hl.
  pose proof (st_inc m s Hwf Hr) as Hinc. pose proof (st_min_eq m s Hwf Hr) as Hlo. pose proof (st_max_eq m s Hwf Hr) as Hhi.
  assert (forall k, exists q, value (st_start exact s k) = Some q /\ (q == st_edge m s k 0)%Q) as Hs by (intros k; eexists; apply (st_start_eq m s Hwf Hr)).
  assert (forall k, exists q, value (st_end exact m s k) = Some q /\ (q == st_edge m s k (glen m k))%Q) as He by (intros k; eexists; apply (st_end_eq m s Hwf Hr)).
  set (x := fun k => value (st_center exact m s c k)).
  assert (within_upper (fun k => value (st_min exact m s c k)) x (fun k => value (st_max exact m s c k))) as B.
  { intros k. destruct (c45_center_and_length m s c k Hwf Hr Hc) as (A & B & _). cbv zeta in A, B. split; [exact A|].
    unfold x. apply lt_some in B as E. destruct E as (u & v & Eu & Ev). rewrite Eu, Ev in *. apply lt_iff in B. apply le_iff. lra. }
  destruct (proj1 (c45_get_cell_partial m s fuel (get_refinement_level m c) x Hwf Hr Hf Hl)) as (c' & (E & V & L & B') & _).
  { intros k. pose proof (B k) as [B1 B2]. pose proof (cell_lines m Hwf c k Hc) as (P1 & P2 & P3).
    destruct (Hlo c k Hc) as (a & Ea & Qa), (Hhi c k Hc) as (b & Eb & Qb), (Hs k) as (a' & Ea' & Qa'), (He k) as (b' & Eb' & Qb').
    rewrite Ea, Eb, Ea', Eb' in *. destruct (x k) as [v|]; [|discriminate]. rewrite lt_iff, le_iff in *.
    pose proof (proj2 (edge_le m _ Hinc k 0 (get (idx_of m c) k) ltac:(lia) ltac:(lia)) ltac:(lia)).
    pose proof (proj2 (edge_le m _ Hinc k (get (idx_of m c) k + len_of m c) (glen m k) ltac:(lia) ltac:(lia)) ltac:(lia)). split; lra. }
  fold x. rewrite E. f_equal. symmetry.
  exact (box_upper_unique m Hwf (st_edge m s) Hinc (bounds_lo m s) (bounds_hi m s) Hlo Hhi _ _ Hs He (get_refinement_level m c) x c c' Hc V eq_refl L B B').
Qed.
Print Assumptions c43_stretched_center_is_in_the_cell.

(** at the start of the grid coordinates before the first one are read, whatever the geometry *)
Theorem c45_start_coordinate_refuted m s fuel l x :
  wf m -> regular m s -> 0 <= l <= m_max m ->
  same (x DX) (value (st_start exact s DX)) -> st_cell exact m s fuel l x = Outside.
Proof.
  intros Hwf Hr Hl Sx. unfold st_cell. replace (level_outside m l) with false by (unfold level_outside; lia).
  unfold st_indices. destruct (st_start_eq m s Hwf Hr DX) as [E _]. rewrite E in Sx.
  destruct (x DX) as [v|]; [|destruct Sx; discriminate]. rewrite same_iff in Sx.
  rewrite (st_index_start m s Hwf Hr fuel DX v Sx). reflexivity.
Qed.
Print Assumptions c45_start_coordinate_refuted.

(** C44 for this geometry *)
Theorem c44_stretched_real_coordinate m t s x k :
  wf m -> regular m s ->
  let start := value (st_start exact s k) in let end_ := value (st_end exact m s k) in
  exists y, st_real_coordinate exact m t s x k = Value y /\
  (exact_le start (x k) = true -> exact_le (x k) end_ = true -> y = x k) /\
  (y = None <-> x k = None \/ per t k = false /\ ~ (exact_le start (x k) = true /\ exact_le (x k) end_ = true)) /\
  (y <> None -> exact_le start y = true /\ exact_le y end_ = true /\
     exists n, (n <> 0 -> per t k = true) /\ same y (shifted start end_ (x k) n)).
Proof.
  intros Hwf Hr. cbv zeta. pose proof (mlen_pos m Hwf k). unfold st_real_coordinate, st_start, st_end.
  rewrite !(at_index_eq m s Hwf Hr) by lia. cbn [rbind value]. eexists. split; [reflexivity|].
  pose proof (X_mono m s Hwf Hr k 0 (mlen m k) ltac:(lia) ltac:(lia)). apply wraps_facts; [assumption|].
  apply real_coordinate_wraps. assumption.
Qed.
Print Assumptions c44_stretched_real_coordinate.

(** get_indices does not use it: coordinates outside of a periodic grid give the error cell *)
Theorem c43_stretched_periodic_refuted m s fuel l x k :
  wf m -> regular m s -> 2 ^ m_max m < Z.of_nat fuel -> 0 <= l <= m_max m ->
  (forall k', ~ same (x k') (value (st_start exact s k'))) ->
  exact_lt (x k) (value (st_start exact s k)) = true \/ exact_lt (value (st_end exact m s k)) (x k) = true ->
  st_cell exact m s fuel l x = Value error_cell.
Proof.
  intros Hwf Hr Hf Hl Hn H. apply (proj2 (c45_get_cell_partial m s fuel l x Hwf Hr Hf Hl)); [assumption|].
  intros B. destruct (B k) as [L U].
  destruct (value (st_start exact s k)), (x k), (value (st_end exact m s k)); try discriminate;
  apply lt_iff in L; apply le_iff in U; destruct H as [H|H]; apply lt_iff in H; lra.
Qed.
Print Assumptions c43_stretched_periodic_refuted.

(** C57 for this geometry: the indices of the cell, and those outside *)
Theorem c57_stretched_center_of_index (A : arith) m s i l k :
  wf m -> (forall k', 0 <= get i k') ->
  (forall c, valid m c -> get_refinement_level m c = l -> (forall k', get (get_indices m c) k' <= get i k' < get (get_indices m c) k' + 2 ^ (m_max m - l)) ->
     st_center_at A m s i l k = st_center A m s c k) /\
  (~ (0 <= l <= m_max m) \/ (exists k', glen m k' <= get i k') -> st_center_at A m s i l k = Value (nan A)).
Proof.
  intros Hwf Hi. unfold st_center_at. split.
  - intros c Hc <- Hin. f_equal. pose proof (cell_level m Hwf c Hc) as Hl. pose proof (cell_in_grid m Hwf c Hc) as G.
    apply (cell_at_covering m Hwf c i Hc). rewrite covers_k. intros k'. specialize (Hin k'). unfold idx_of.
    rewrite (cell_len m Hwf) by assumption. exact Hin.
  - intros H. assert (get_cell_from_indices m i l = error_cell) as ->.
    { apply gcfi_invalid; [assumption|apply (Hi DX)|apply (Hi DY)|apply (Hi DZ)|]. intros [G Hl]. rewrite in_grid_k in G.
      destruct H as [H|(k' & H)]; [tauto|]. specialize (G k'). lia. }
    reflexivity.
Qed.
Print Assumptions c57_stretched_center_of_index.
