(** Basic facts used by the proofs about meshes. *)
From Verif Require Import U64 MapModel MapSpec MapProofs MapFamily MapProps HoodModel MeshModel MeshSpec.
Open Scope Z_scope.

Lemma idx_ext a b : (forall k, get a k = get b k) -> a = b.
Proof.
  intros H. pose proof (H DX). pose proof (H DY). pose proof (H DZ).
  destruct a, b. cbn in *. congruence.
Qed.
Lemma get_upd_same v k a : get (upd v k a) k = a.
Proof. destruct k; reflexivity. Qed.
Lemma get_upd_other v k j a : j <> k -> get (upd v k a) j = get v j.
Proof. destruct k, j; intros; try reflexivity; congruence. Qed.
Lemma get_vadd a b k : get (vadd a b) k = get a k + get b k.
Proof. destruct k; reflexivity. Qed.
Lemma get_vsub a b k : get (vsub a b) k = get a k - get b k.
Proof. destruct k; reflexivity. Qed.
Lemma get_vneg a k : get (vneg a) k = - get a k.
Proof. destruct k; reflexivity. Qed.
Lemma get_vzero k : get vzero k = 0.
Proof. destruct k; reflexivity. Qed.
Lemma get_vmap f k : get (vmap f) k = f k.
Proof. destruct k; reflexivity. Qed.
Lemma dim_eq_dec (a b : dim) : {a = b} + {a <> b}.
Proof. decide equality. Qed.
Lemma forall_dim (P : dim -> Prop) : (forall k, P k) <-> P DX /\ P DY /\ P DZ.
Proof. split; [intros H; auto|]. intros (?&?&?) k; destruct k; assumption. Qed.

(** rounding down *)
Lemma rdown_le s a : 0 < s -> rdown s a <= a < rdown s a + s.
Proof. intros. unfold rdown. pose proof (Z.mod_pos_bound a s). lia. Qed.
Lemma rdown_div s a : 0 < s -> rdown s a = s * (a / s).
Proof. intros. unfold rdown. pose proof (Z.div_mod a s). lia. Qed.
Lemma rdown_unique s a b : 0 < s -> (s | b) -> b <= a < b + s -> rdown s a = b.
Proof.
  intros Hs [q ->] H. rewrite rdown_div by lia. rewrite (Z.mul_comm q s). f_equal.
  symmetry. apply Z.div_unique with (a - s * q); lia.
Qed.
Lemma rdown_divide s a : 0 < s -> (s | rdown s a).
Proof. intros. rewrite rdown_div by lia. exists (a / s). lia. Qed.
Lemma rdown_self s a : 0 < s -> (s | a) -> rdown s a = a.
Proof. intros. apply rdown_unique; auto; lia. Qed.
Lemma rdown_add s a g : 0 < s -> (s | g) -> rdown s (a + g) = rdown s a + g.
Proof.
  intros Hs Hg. apply rdown_unique; [lia| |pose proof (rdown_le s a Hs); lia].
  apply Z.divide_add_r; [apply rdown_divide; lia|assumption].
Qed.
Lemma rdown_rdown s r a : 0 < s -> 0 < r -> (s | r) -> rdown r (rdown s a) = rdown r a.
Proof.
  intros Hs Hr [q Hq]. apply rdown_unique; [lia|apply rdown_divide; lia|].
  pose proof (rdown_le r a Hr). pose proof (rdown_le s a Hs).
  split; [|lia].
  assert (s * (rdown r a / s) = rdown r a) as E.
  { rewrite <- (rdown_div s (rdown r a)) by lia. apply rdown_self; [lia|].
    rewrite (rdown_div r) by lia. exists (q * (a / r)). generalize (a / r). intros z. rewrite Hq. ring. }
  rewrite (rdown_div s a) by lia. rewrite <- E.
  apply Z.mul_le_mono_nonneg_l; [lia|]. apply Z.div_le_mono; lia.
Qed.
(** multiples of s in the same s-box *)
Lemma aligned_lt s a b : 0 < s -> (s | a) -> (s | b) -> a < b -> a + s <= b.
Proof. intros Hs [p ->] [q ->] H. assert (p < q) by nia. assert ((p + 1) * s <= q * s) by (apply Z.mul_le_mono_nonneg_r; lia). lia. Qed.

Lemma pow2_le a b : 0 <= a -> 0 <= b -> 2 ^ a <= 2 ^ b -> a <= b.
Proof. intros Ha Hb H. apply (Z.pow_le_mono_r_iff 2); lia. Qed.
Lemma pow2_divide a b : 0 <= a <= b -> (2 ^ a | 2 ^ b).
Proof. intros H. exists (2 ^ (b - a)). rewrite <- Z.pow_add_r by lia. f_equal. lia. Qed.
Lemma pow2_dbl a : 0 <= a -> 2 ^ (a + 1) = 2 * 2 ^ a.
Proof. intros. rewrite Z.pow_add_r by lia. lia. Qed.

Section Base.
Context (m : mapping) (Hwf : wf m).
Notation d := (dims_of m).

Lemma in_grid_k i : in_grid d i <-> forall k, 0 <= get i k < glen m k.
Proof. rewrite forall_dim. reflexivity. Qed.

Lemma mlen_pos k : 0 < mlen m k.
Proof. destruct Hwf as (?&?&?&_). destruct k; assumption. Qed.
Lemma glen_pos k : 0 < glen m k.
Proof.
  unfold glen. pose proof (mlen_pos k). pose proof (wf_max_le_21 m Hwf).
  pose proof (pow2_pos (m_max m)). nia.
Qed.
Lemma glen_lt_W k : glen m k < W.
Proof.
  pose proof (wf_max_le_21 m Hwf). pose proof (level_sizes m Hwf (m_max m) ltac:(lia)) as S.
  cbn zeta in S. unfold glen. destruct k; cbn [mlen]; lia.
Qed.
Lemma glen64_eq k : glen64 m k = glen m k.
Proof.
  unfold glen64, glen. apply index_limit; [assumption|apply mlen_pos|apply glen_lt_W].
Qed.
Lemma glen_divide k l : 0 <= l <= m_max m -> (2 ^ (m_max m - l) | glen m k).
Proof.
  intros H. unfold glen. apply Z.divide_mul_r. apply pow2_divide. lia.
Qed.

(** *** cells *)
Lemma cell_level c : valid m c -> 0 <= lvl_of m c <= m_max m.
Proof. intros H. pose proof (c01_id_to_indices_and_back m c Hwf H). cbn zeta in *. unfold lvl_of. tauto. Qed.
Lemma cell_len c : valid m c -> len_of m c = 2 ^ (m_max m - lvl_of m c).
Proof. intros H. pose proof (c01_id_to_indices_and_back m c Hwf H). cbn zeta in *. unfold lvl_of, len_of. tauto. Qed.
Lemma cell_len_pos c : valid m c -> 0 < len_of m c.
Proof.
  intros H. rewrite cell_len by assumption. pose proof (cell_level c H).
  pose proof (pow2_pos (m_max m - lvl_of m c)). lia.
Qed.
Lemma cell_in_grid c : valid m c -> in_grid d (idx_of m c).
Proof. intros H. pose proof (c01_id_to_indices_and_back m c Hwf H). cbn zeta in *. unfold idx_of. tauto. Qed.
Lemma cell_aligned c k : valid m c -> (len_of m c | get (idx_of m c) k).
Proof.
  intros H. pose proof (c01_id_to_indices_and_back m c Hwf H). cbn zeta in *. unfold idx_of, len_of.
  destruct k; cbn [get]; tauto.
Qed.
Lemma cell_back c : valid m c -> get_cell_from_indices m (idx_of m c) (lvl_of m c) = c.
Proof. intros H. pose proof (c01_id_to_indices_and_back m c Hwf H). cbn zeta in *. unfold idx_of, lvl_of. tauto. Qed.
Lemma cell_eq c c' : valid m c -> valid m c' -> idx_of m c = idx_of m c' -> lvl_of m c = lvl_of m c' -> c = c'.
Proof. intros H H' E E'. rewrite <- (cell_back c), <- (cell_back c') by assumption. congruence. Qed.
Lemma cell_len_glen c k : valid m c -> (len_of m c | glen m k).
Proof. intros H. rewrite cell_len by assumption. apply glen_divide, cell_level, H. Qed.

Lemma covers_k c i : covers m c i <-> forall k, get (idx_of m c) k <= get i k < get (idx_of m c) k + len_of m c.
Proof. rewrite forall_dim. reflexivity. Qed.
Lemma covers_rdown c i : valid m c ->
  (covers m c i <-> forall k, rdown (len_of m c) (get i k) = get (idx_of m c) k).
Proof.
  intros H. rewrite covers_k. pose proof (cell_len_pos c H). split; intros Hc k; specialize (Hc k).
  - apply rdown_unique; [lia|apply cell_aligned, H|lia].
  - pose proof (rdown_le (len_of m c) (get i k)). lia.
Qed.
Lemma covers_own c : valid m c -> covers m c (idx_of m c).
Proof. intros H. apply covers_k. intros k. pose proof (cell_len_pos c H). lia. Qed.
Lemma covers_in_grid c i : valid m c -> covers m c i -> in_grid d i.
Proof.
  intros H Hc. apply in_grid_k. intros k. apply (proj1 (covers_k _ _)) with (k:=k) in Hc.
  pose proof (proj1 (in_grid_k _) (cell_in_grid c H) k).
  pose proof (aligned_lt (len_of m c) (get (idx_of m c) k) (glen m k) (cell_len_pos c H)
    (cell_aligned c k H) (cell_len_glen c k H)). lia.
Qed.

Lemma cell_at i l : in_grid d i -> 0 <= l <= m_max m ->
  let c := get_cell_from_indices m i l in
  valid m c /\ lvl_of m c = l /\ covers m c i /\
  forall k, get (idx_of m c) k = rdown (2 ^ (m_max m - l)) (get i k).
Proof.
  intros Hi Hl c. pose proof (c01_indices_to_id_and_back m i l Hwf Hi Hl) as (V & L & E).
  fold c in V, L, E. assert (forall k, get (idx_of m c) k = rdown (2 ^ (m_max m - l)) (get i k)) as K.
  { intros k. unfold idx_of. rewrite E. destruct k; reflexivity. }
  repeat match goal with |- _ /\ _ => split end; auto.
  apply covers_rdown; [assumption|]. intros k. rewrite K. rewrite cell_len by assumption.
  unfold lvl_of. rewrite L. reflexivity.
Qed.

Lemma cell_at_covering c i : valid m c -> covers m c i -> get_cell_from_indices m i (lvl_of m c) = c.
Proof.
  intros H Hc. pose proof (covers_in_grid c i H Hc) as Hi.
  pose proof (cell_at i (lvl_of m c) Hi (cell_level c H)) as (V & L & _ & E). cbn zeta in *.
  apply cell_eq; try assumption. apply idx_ext. intros k. rewrite E.
  rewrite <- cell_len by assumption. apply covers_rdown; assumption.
Qed.

Lemma parent_facts c : valid m c -> 0 < lvl_of m c ->
  let p := get_parent m c in
  valid m p /\ lvl_of m p = lvl_of m c - 1 /\ len_of m p = 2 * len_of m c /\ p <> c /\
  forall k, get (idx_of m p) k = rdown (2 * len_of m c) (get (idx_of m c) k).
Proof.
  intros H Hl p. pose proof (cell_level c H) as L.
  assert (p = get_cell_from_indices m (idx_of m c) (lvl_of m c - 1)) as E.
  { unfold p, get_parent. unfold lvl_of in *.
    replace (get_refinement_level m c <? 0) with false by lia.
    replace (m_max m <? get_refinement_level m c) with false by lia. cbn [orb].
    replace (get_refinement_level m c =? 0) with false by lia. reflexivity. }
  pose proof (cell_at (idx_of m c) (lvl_of m c - 1) (cell_in_grid c H) ltac:(lia)) as (V & LV & _ & I).
  cbn zeta in *. rewrite <- E in *.
  assert (2 ^ (m_max m - (lvl_of m c - 1)) = 2 * len_of m c) as E2.
  { rewrite (cell_len c) by assumption. rewrite <- pow2_dbl by lia. f_equal. lia. }
  repeat match goal with |- _ /\ _ => split end; auto.
  - rewrite (cell_len p) by assumption. rewrite LV. exact E2.
  - intros Ep. rewrite Ep in LV. lia.
  - intros k. rewrite I, E2. reflexivity.
Qed.

Lemma parent_offset_k c k : valid m c -> 0 < lvl_of m c ->
  get (parent_offset m c) k = rdown (2 * len_of m c) (get (idx_of m c) k) - get (idx_of m c) k.
Proof.
  intros H Hl. pose proof (parent_facts c H Hl) as (V & _ & _ & N & E). cbn zeta in *.
  unfold parent_offset. unfold valid in V. unfold error_cell.
  replace (get_parent m c =? 0) with false by lia.
  replace (get_parent m c =? c) with false by lia. cbn [orb].
  rewrite get_vsub. fold (idx_of m). rewrite <- E. reflexivity.
Qed.

(** *** unrolled positions *)
Context (t : topo).

Lemma lands_self i : in_grid d i -> lands m t i i.
Proof.
  intros H. split; [assumption|]. intros k. destruct (per t k); [exists 0; lia|reflexivity].
Qed.
Lemma lands_unique x i j : lands m t x i -> lands m t x j -> i = j.
Proof.
  intros [Gi Hi] [Gj Hj]. apply idx_ext. intros k. specialize (Hi k). specialize (Hj k).
  pose proof (proj1 (in_grid_k i) Gi k). pose proof (proj1 (in_grid_k j) Gj k).
  destruct (per t k); [|lia]. destruct Hi as [a Ha], Hj as [b Hb].
  assert (a = b) as ->; [|lia].
  destruct (Z.lt_total a b) as [Q|[Q|Q]]; [exfalso|assumption|exfalso].
  - assert ((a + 1) * glen m k <= b * glen m k) by (apply Z.mul_le_mono_nonneg_r; lia). lia.
  - assert ((b + 1) * glen m k <= a * glen m k) by (apply Z.mul_le_mono_nonneg_r; lia). lia.
Qed.
Definition reachable (x : idx) : Prop := forall k, per t k = true \/ 0 <= get x k < glen m k.
Lemma lands_exists x : reachable x -> exists i, lands m t x i.
Proof.
  intros H. exists (vmap (fun k => if per t k then get x k mod glen m k else get x k)).
  split.
  - apply in_grid_k. intros k. rewrite get_vmap. pose proof (glen_pos k).
    destruct (per t k) eqn:E; [apply Z.mod_pos_bound; lia|]. destruct (H k); [congruence|lia].
  - intros k. rewrite get_vmap. destruct (per t k); [|reflexivity].
    exists (get x k / glen m k). pose proof (glen_pos k). pose proof (Z.div_mod (get x k) (glen m k)). lia.
Qed.
Lemma lands_reachable x i : lands m t x i -> reachable x.
Proof.
  intros [Gi H] k. specialize (H k). destruct (per t k); [left; reflexivity|right].
  rewrite H. apply in_grid_k, Gi.
Qed.
(** difference between the unrolled and the grid position is divisible by cell sizes *)
Lemma lands_diff x i c k : valid m c -> lands m t x i -> (len_of m c | get x k - get i k).
Proof.
  intros V [_ H]. specialize (H k). pose proof (cell_len_glen c k V). destruct (per t k).
  - destruct H as [n ->]. replace (get i k + n * glen m k - get i k) with (n * glen m k) by lia.
    apply Z.divide_mul_r; assumption.
  - rewrite H, Z.sub_diag. apply Z.divide_0_r.
Qed.
Lemma lands_rdown x i c : valid m c -> lands m t x i -> covers m c i ->
  lands m t (vmap (fun k => rdown (len_of m c) (get x k))) (idx_of m c).
Proof.
  intros V L C. split; [apply cell_in_grid, V|]. intros k. rewrite get_vmap.
  pose proof (proj1 (covers_rdown c i V) C k) as E. pose proof (cell_len_pos c V).
  pose proof (lands_diff x i c k V L) as D. destruct L as [_ L]. specialize (L k).
  replace (get x k) with (get i k + (get x k - get i k)) by lia.
  rewrite rdown_add by assumption. rewrite E.
  destruct (per t k); [destruct L as [n ->]; exists n; lia|lia].
Qed.
(** converse: a point of the unrolled box of c lands in c *)
Lemma lands_in_box c p x : valid m c -> lands m t p (idx_of m c) ->
  (forall k, get p k <= get x k < get p k + len_of m c) ->
  exists i, lands m t x i /\ covers m c i.
Proof.
  intros V L B. set (i := vadd (idx_of m c) (vsub x p)).
  assert (covers m c i) as C.
  { apply covers_k. intros k. unfold i. rewrite get_vadd, get_vsub. specialize (B k). lia. }
  exists i. split; [|assumption]. split; [apply (covers_in_grid c); assumption|].
  intros k. unfold i. rewrite get_vadd, get_vsub. destruct L as [_ L]. specialize (L k).
  destruct (per t k); [destruct L as [n Hn]; exists n; lia|lia].
Qed.
Lemma lands_aligned p c k : valid m c -> lands m t p (idx_of m c) -> (len_of m c | get p k).
Proof.
  intros V L. pose proof (lands_diff _ _ c k V L). pose proof (cell_aligned c k V).
  replace (get p k) with ((get p k - get (idx_of m c) k) + get (idx_of m c) k) by lia.
  apply Z.divide_add_r; assumption.
Qed.

(** *** existing cells *)
Context (ex : Z -> bool) (Htile : tiling m ex).

Lemma leaf_valid c : ex c = true -> valid m c.
Proof. apply Htile. Qed.
Lemma leaf_at i : in_grid d i -> exists c, ex c = true /\ covers m c i.
Proof. intros H. destruct Htile as [_ T]. destruct (T i H) as (c & Hc & _). exists c. assumption. Qed.
Lemma leaf_unique c c' i : ex c = true -> ex c' = true -> covers m c i -> covers m c' i -> c = c'.
Proof.
  intros E E' C C'. destruct Htile as [V T]. pose proof (covers_in_grid c i (V c E) C) as G.
  destruct (T i G) as (z & _ & U). rewrite <- (U c), <- (U c'); auto.
Qed.
Lemma ex_error : ex error_cell = false.
Proof.
  destruct (ex error_cell) eqn:E; [|reflexivity]. apply leaf_valid in E. unfold valid, error_cell in E. lia.
Qed.
(** the only existing cell among the possible cells at a position *)
Lemma ex_at c i l : ex c = true -> covers m c i -> 0 <= l <= m_max m ->
  ex (get_cell_from_indices m i l) = (l =? lvl_of m c).
Proof.
  intros E C Hl. pose proof (leaf_valid c E) as V. pose proof (covers_in_grid c i V C) as G.
  destruct (Z.eqb_spec l (lvl_of m c)) as [->|N].
  - rewrite cell_at_covering by assumption. assumption.
  - destruct (ex (get_cell_from_indices m i l)) eqn:E'; [|reflexivity]. exfalso.
    pose proof (cell_at i l G Hl) as (V' & L' & C' & _). cbn zeta in *.
    pose proof (leaf_unique _ _ i E E' C C') as EQ. rewrite <- EQ in L'. lia.
Qed.

(** an existing cell has no existing children: Dccrg::get_child returns it *)
Lemma get_child_ex_leaf c : ex c = true -> get_child_ex ex m c = c.
Proof.
  intros E. pose proof (leaf_valid c E) as V. unfold get_child_ex. fold lvl_of idx_of.
  pose proof (cell_level c V). destruct (Z.eqb_spec (lvl_of m c) (m_max m)) as [|N].
  - rewrite E. reflexivity.
  - rewrite (ex_at c) by (auto using covers_own; lia).
    replace (lvl_of m c + 1 =? lvl_of m c) with false by lia. rewrite E. reflexivity.
Qed.
(** a cell equal to its get_child is the error cell or exists *)
Lemma get_child_ex_eq c : valid m c -> get_child_ex ex m c = c -> ex c = true.
Proof.
  intros V. unfold get_child_ex. fold lvl_of idx_of. pose proof (cell_level c V).
  unfold valid in V. destruct (Z.eqb_spec (lvl_of m c) (m_max m)) as [|N].
  - destruct (ex c); [reflexivity|]. unfold error_cell. lia.
  - pose proof (cell_at (idx_of m c) (lvl_of m c + 1) (cell_in_grid c V) ltac:(lia)) as (_ & L' & _). cbn zeta in *.
    destruct (ex (get_cell_from_indices m (idx_of m c) (lvl_of m c + 1))).
    + intros E. rewrite E in L'. lia.
    + destruct (ex c); [reflexivity|]. unfold error_cell. lia.
Qed.
Lemma has_neighbors_leaf c : ex c = true -> has_neighbors ex m c = true.
Proof.
  intros E. unfold has_neighbors. rewrite get_child_ex_leaf by assumption. rewrite E.
  pose proof (leaf_valid c E). unfold valid, error_cell in *.
  replace (c =? 0) with false by lia. rewrite Z.eqb_refl. reflexivity.
Qed.

(** *** get_existing_cell *)
Lemma gec_loop_spec c i n : forall hi, ex c = true -> covers m c i -> hi <= m_max m -> 0 <= hi - Z.of_nat n + 1 ->
  gec_loop ex m i n hi = if (hi - Z.of_nat n <? lvl_of m c) && (lvl_of m c <=? hi) then c else error_cell.
Proof.
  induction n as [|n IH]; intros hi E C Hhi Hlo.
  - cbn [gec_loop]. replace ((hi - Z.of_nat 0 <? lvl_of m c) && (lvl_of m c <=? hi)) with false by lia. reflexivity.
  - cbn [gec_loop]. rewrite (ex_at c) by (assumption || lia).
    destruct (Z.eqb_spec hi (lvl_of m c)) as [->|N].
    + rewrite cell_at_covering by (auto using leaf_valid).
      replace ((lvl_of m c - Z.of_nat (S n) <? lvl_of m c) && (lvl_of m c <=? lvl_of m c)) with true by lia. reflexivity.
    + rewrite IH by (assumption || lia).
      replace (hi - 1 - Z.of_nat n) with (hi - Z.of_nat (S n)) by lia.
      replace (lvl_of m c <=? hi - 1) with (lvl_of m c <=? hi) by lia. reflexivity.
Qed.
Lemma gec_in i lo hi c : ex c = true -> covers m c i -> 0 <= lo -> hi <= m_max m ->
  get_existing_cell ex m i lo hi =
  if (lo <=? lvl_of m c) && (lvl_of m c <=? hi) then c else error_cell.
Proof.
  intros E C Hlo Hhi. pose proof (covers_in_grid c i (leaf_valid c E) C) as G.
  pose proof (proj1 (in_grid_k i) G DX). pose proof (proj1 (in_grid_k i) G DY).
  pose proof (proj1 (in_grid_k i) G DZ). cbn [get] in *.
  unfold get_existing_cell. rewrite !glen64_eq.
  replace (glen m DX <=? ix i) with false by lia. replace (glen m DY <=? iy i) with false by lia.
  replace (glen m DZ <=? iz i) with false by lia.
  destruct (Z.ltb_spec hi lo).
  - replace ((lo <=? lvl_of m c) && (lvl_of m c <=? hi)) with false by lia. reflexivity.
  - rewrite (gec_loop_spec c) by (assumption || lia).
    replace (hi - Z.of_nat (Z.to_nat (hi - lo + 1)) <? lvl_of m c) with (lo <=? lvl_of m c) by lia.
    reflexivity.
Qed.
Lemma gec_out i k lo hi : glen m k <= get i k -> get_existing_cell ex m i lo hi = error_cell.
Proof.
  intros H. unfold get_existing_cell. rewrite !glen64_eq.
  destruct (Z.leb_spec (glen m DX) (ix i)); [reflexivity|].
  destruct (Z.leb_spec (glen m DY) (iy i)); [reflexivity|].
  destruct (Z.leb_spec (glen m DZ) (iz i)); [reflexivity|].
  destruct k; cbn [get] in *; lia.
Qed.
End Base.
