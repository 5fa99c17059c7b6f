(** Boxes between grid lines: what the three geometries have in common. *)
From Coq Require Import QArith Qround Lqa.
From Verif Require Import U64 MapModel MapSpec MapProofs MapProps HoodModel MeshSpec MeshBase GeoModel.
Open Scope Z_scope.

Notation rvec := (vec exact).

(** *** statements about coordinates, in terms of comparisons only *)
(** x is in the box from lo to hi, whose upper faces are not included *)
Definition within (lo x hi : rvec) : Prop := forall k, exact_le (lo k) (x k) = true /\ exact_lt (x k) (hi k) = true.
(** lower faces are not included *)
Definition within_upper (lo x hi : rvec) : Prop := forall k, exact_lt (lo k) (x k) = true /\ exact_le (x k) (hi k) = true.
(** all faces are included *)
Definition within_closed (lo x hi : rvec) : Prop := forall k, exact_le (lo k) (x k) = true /\ exact_le (x k) (hi k) = true.
(** equal numbers *)
Definition same (a b : option Q) : Prop := exact_le a b = true /\ exact_le b a = true.

Lemma le_iff a b : exact_le (Some a) (Some b) = true <-> (a <= b)%Q.
Proof. apply Qle_bool_iff. Qed.
Lemma lt_iff a b : exact_lt (Some a) (Some b) = true <-> (a < b)%Q.
Proof.
  unfold exact_lt. rewrite negb_true_iff. split; intros H.
  - apply Qnot_le_lt. intros N. apply Qle_bool_iff in N. congruence.
  - apply not_true_iff_false. intros N. apply Qle_bool_iff in N. lra.
Qed.
Lemma le_some a b : exact_le a b = true -> exists x y, a = Some x /\ b = Some y.
Proof. destruct a, b; try discriminate. eauto. Qed.
Lemma lt_some a b : exact_lt a b = true -> exists x y, a = Some x /\ b = Some y.
Proof. destruct a, b; try discriminate. eauto. Qed.
Lemma same_iff a b : same (Some a) (Some b) <-> (a == b)%Q.
Proof. unfold same. rewrite !le_iff. split; [intros [? ?]; lra|intros E; rewrite E; split; lra]. Qed.
Lemma same_some a b : same a b -> exists x y, a = Some x /\ b = Some y.
Proof. intros [H _]. apply le_some, H. Qed.

Lemma Q0_neq (q : Q) : (0 < q)%Q -> Qeq_bool q 0 = false.
Proof. intros H. apply not_true_iff_false. intros N. apply Qeq_bool_iff in N. lra. Qed.
Lemma div_some a b : (0 < b)%Q -> exact_div (Some a) (Some b) = Some (a / b)%Q.
Proof. intros H. unfold exact_div. rewrite Q0_neq by assumption. reflexivity. Qed.

Definition z2q (n : Z) : Q := inject_Z n.
Lemma z2q_lt a b : (z2q a < z2q b)%Q <-> a < b.
Proof. unfold z2q. rewrite <- Zlt_Qlt. reflexivity. Qed.
Lemma z2q_le a b : (z2q a <= z2q b)%Q <-> a <= b.
Proof. unfold z2q. rewrite <- Zle_Qle. reflexivity. Qed.
Lemma z2q_pos a : 0 < a -> (0 < z2q a)%Q.
Proof. intros H. change 0%Q with (z2q 0). apply z2q_lt, H. Qed.
Lemma z2q_add a b : (z2q (a + b) == z2q a + z2q b)%Q.
Proof. unfold z2q. rewrite inject_Z_plus. reflexivity. Qed.
Lemma z2q_mul a b : (z2q (a * b) == z2q a * z2q b)%Q.
Proof. unfold z2q. rewrite inject_Z_mult. reflexivity. Qed.

Section Lines.
Context (m : mapping) (Hwf : wf m).
(** positions of grid lines in each dimension *)
Context (edge : dim -> Z -> Q).
Hypothesis Hinc : forall k i j, 0 <= i -> i < j -> j <= glen m k -> (edge k i < edge k j)%Q.

Lemma edge_lt k i j : 0 <= i <= glen m k -> 0 <= j <= glen m k -> ((edge k i < edge k j)%Q <-> i < j).
Proof.
  intros Hi Hj. split; intros H; [|apply Hinc; lia].
  destruct (Z.lt_trichotomy i j) as [L|[E|L]]; [assumption|subst; lra|].
  pose proof (Hinc k j i ltac:(lia) L ltac:(lia)). lra.
Qed.
Lemma edge_le k i j : 0 <= i <= glen m k -> 0 <= j <= glen m k -> ((edge k i <= edge k j)%Q <-> i <= j).
Proof.
  intros Hi Hj. pose proof (edge_lt k j i Hj Hi) as H. split; intros L.
  - destruct (Z_lt_le_dec j i); [apply H in l; lra|assumption].
  - destruct (Qlt_le_dec (edge k j) (edge k i)) as [N|]; [apply H in N; lia|assumption].
Qed.

(** the line below a coordinate *)
Lemma line_below k v : (edge k 0 <= v)%Q -> (v < edge k (glen m k))%Q ->
  exists j, 0 <= j < glen m k /\ (edge k j <= v)%Q /\ (v < edge k (j + 1))%Q.
Proof.
  intros L U.
  assert (forall n : nat, Z.of_nat n <= glen m k -> (v < edge k (Z.of_nat n))%Q ->
    exists j, 0 <= j < glen m k /\ (edge k j <= v)%Q /\ (v < edge k (j + 1))%Q) as Ind.
  { induction n as [|n IH]; intros Hn Hv; [change (Z.of_nat 0) with 0 in Hv; lra|].
    destruct (Qlt_le_dec v (edge k (Z.of_nat n))) as [N|N]; [apply IH; [lia|assumption]|].
    exists (Z.of_nat n). split; [lia|]. split; [assumption|].
    replace (Z.of_nat n + 1) with (Z.of_nat (S n)) by lia. assumption. }
  pose proof (glen_pos m Hwf k).
  apply (Ind (Z.to_nat (glen m k))); rewrite Z2Nat.id by lia; [lia|assumption].
Qed.
Lemma line_above k v : (edge k 0 < v)%Q -> (v <= edge k (glen m k))%Q ->
  exists j, 0 <= j < glen m k /\ (edge k j < v)%Q /\ (v <= edge k (j + 1))%Q.
Proof.
  intros L U.
  assert (forall n : nat, Z.of_nat n <= glen m k -> (v <= edge k (Z.of_nat n))%Q ->
    exists j, 0 <= j < glen m k /\ (edge k j < v)%Q /\ (v <= edge k (j + 1))%Q) as Ind.
  { induction n as [|n IH]; intros Hn Hv; [change (Z.of_nat 0) with 0 in Hv; lra|].
    destruct (Qlt_le_dec (edge k (Z.of_nat n)) v) as [N|N]; [|apply IH; [lia|assumption]].
    exists (Z.of_nat n). split; [lia|]. split; [assumption|].
    replace (Z.of_nat n + 1) with (Z.of_nat (S n)) by lia. assumption. }
  pose proof (glen_pos m Hwf k).
  apply (Ind (Z.to_nat (glen m k))); rewrite Z2Nat.id by lia; [lia|assumption].
Qed.

(** positions of cells *)
Lemma cell_lines c k : valid m c ->
  0 <= get (idx_of m c) k /\ get (idx_of m c) k < get (idx_of m c) k + len_of m c /\
  get (idx_of m c) k + len_of m c <= glen m k.
Proof.
  intros H. pose proof (cell_in_grid m Hwf c H) as G. rewrite in_grid_k in G. specialize (G k).
  pose proof (cell_len_pos m Hwf c H).
  pose proof (aligned_lt (len_of m c) (get (idx_of m c) k) (glen m k) ltac:(lia) (cell_aligned m Hwf c k H)
    (cell_len_glen m Hwf c k H) ltac:(lia)). lia.
Qed.

Context (lo hi : Z -> rvec).
Hypothesis Hlo : forall c k, valid m c -> exists q, lo c k = Some q /\ (q == edge k (get (idx_of m c) k))%Q.
Hypothesis Hhi : forall c k, valid m c -> exists q, hi c k = Some q /\ (q == edge k (get (idx_of m c) k + len_of m c))%Q.
Context (start end_ : rvec).
Hypothesis Hs : forall k, exists q, start k = Some q /\ (q == edge k 0)%Q.
Hypothesis He : forall k, exists q, end_ k = Some q /\ (q == edge k (glen m k))%Q.

(** the index of a coordinate *)
Definition located (x : rvec) (i : idx) : Prop :=
  forall k, exists v, x k = Some v /\ 0 <= get i k < glen m k /\ (edge k (get i k) <= v)%Q /\ (v < edge k (get i k + 1))%Q.
Definition located_upper (x : rvec) (i : idx) : Prop :=
  forall k, exists v, x k = Some v /\ 0 <= get i k < glen m k /\ (edge k (get i k) < v)%Q /\ (v <= edge k (get i k + 1))%Q.

Lemma choose_dims (P : dim -> Z -> Prop) : (forall k, exists j, P k j) -> exists i, forall k, P k (get i k).
Proof.
  intros H. destruct (H DX) as [a Ha], (H DY) as [b Hb], (H DZ) as [c Hc].
  exists (Idx a b c). intros []; assumption.
Qed.
Lemma within_located x : within start x end_ <-> exists i, located x i.
Proof.
  split.
  - intros H. refine (choose_dims (fun k j => exists v, x k = Some v /\ 0 <= j < glen m k /\ (edge k j <= v)%Q /\ (v < edge k (j + 1))%Q) _). intros k. destruct (H k) as [L U].
    destruct (Hs k) as (a & Ea & Qa), (He k) as (b & Eb & Qb). rewrite Ea in L. rewrite Eb in U.
    destruct (x k) as [v|]; [|discriminate]. apply le_iff in L. apply lt_iff in U.
    destruct (line_below k v) as (j & Hj & Lj & Uj); [rewrite <- Qa; assumption|rewrite <- Qb; assumption|].
    exists j, v. auto.
  - intros (i & Hi) k. destruct (Hi k) as (v & Ev & Hr & L & U).
    destruct (Hs k) as (a & Ea & Qa), (He k) as (b & Eb & Qb). rewrite Ea, Eb, Ev, le_iff, lt_iff.
    pose proof (proj2 (edge_le k 0 (get i k) ltac:(lia) ltac:(lia)) ltac:(lia)).
    pose proof (proj2 (edge_le k (get i k + 1) (glen m k) ltac:(lia) ltac:(lia)) ltac:(lia)). split; lra.
Qed.
Lemma within_located_upper x : within_upper start x end_ <-> exists i, located_upper x i.
Proof.
  split.
  - intros H. refine (choose_dims (fun k j => exists v, x k = Some v /\ 0 <= j < glen m k /\ (edge k j < v)%Q /\ (v <= edge k (j + 1))%Q) _). intros k. destruct (H k) as [L U].
    destruct (Hs k) as (a & Ea & Qa), (He k) as (b & Eb & Qb). rewrite Ea in L. rewrite Eb in U.
    destruct (x k) as [v|]; [|discriminate]. apply lt_iff in L. apply le_iff in U.
    destruct (line_above k v) as (j & Hj & Lj & Uj); [rewrite <- Qa; assumption|rewrite <- Qb; assumption|].
    exists j, v. auto.
  - intros (i & Hi) k. destruct (Hi k) as (v & Ev & Hr & L & U).
    destruct (Hs k) as (a & Ea & Qa), (He k) as (b & Eb & Qb). rewrite Ea, Eb, Ev, le_iff, lt_iff.
    pose proof (proj2 (edge_le k 0 (get i k) ltac:(lia) ltac:(lia)) ltac:(lia)).
    pose proof (proj2 (edge_le k (get i k + 1) (glen m k) ltac:(lia) ltac:(lia)) ltac:(lia)). split; lra.
Qed.
Lemma located_in_grid x i : located x i -> in_grid (dims_of m) i.
Proof. intros H. rewrite in_grid_k. intros k. destruct (H k) as (v & _ & R & _). exact R. Qed.
Lemma located_upper_in_grid x i : located_upper x i -> in_grid (dims_of m) i.
Proof. intros H. rewrite in_grid_k. intros k. destruct (H k) as (v & _ & R & _). exact R. Qed.

Lemma box_covers x i c : located x i -> valid m c -> (within (lo c) x (hi c) <-> covers m c i).
Proof.
  intros Hx Hc. rewrite covers_k. split; intros H k; specialize (H k);
  destruct (Hx k) as (v & Ev & R & L & U); pose proof (cell_lines c k Hc) as (P1 & P2 & P3);
  destruct (Hlo c k Hc) as (a & Ea & Qa), (Hhi c k Hc) as (b & Eb & Qb); rewrite Ea, Eb, Ev in *;
  rewrite le_iff, lt_iff in *.
  - destruct H as [H1 H2]. split.
    + apply Z.lt_succ_r. replace (Z.succ (get i k)) with (get i k + 1) by lia.
      apply (edge_lt k); [lia|lia|]. lra.
    + apply (edge_lt k); [lia|lia|]. lra.
  - pose proof (proj2 (edge_le k (get (idx_of m c) k) (get i k) ltac:(lia) ltac:(lia)) ltac:(lia)).
    pose proof (proj2 (edge_le k (get i k + 1) (get (idx_of m c) k + len_of m c) ltac:(lia) ltac:(lia)) ltac:(lia)).
    split; lra.
Qed.
Lemma box_covers_upper x i c : located_upper x i -> valid m c -> (within_upper (lo c) x (hi c) <-> covers m c i).
Proof.
  intros Hx Hc. rewrite covers_k. split; intros H k; specialize (H k);
  destruct (Hx k) as (v & Ev & R & L & U); pose proof (cell_lines c k Hc) as (P1 & P2 & P3);
  destruct (Hlo c k Hc) as (a & Ea & Qa), (Hhi c k Hc) as (b & Eb & Qb); rewrite Ea, Eb, Ev in *;
  rewrite le_iff, lt_iff in *.
  - destruct H as [H1 H2]. split.
    + apply Z.lt_succ_r. replace (Z.succ (get i k)) with (get i k + 1) by lia.
      apply (edge_lt k); [lia|lia|]. lra.
    + apply (edge_lt k); [lia|lia|]. lra.
  - pose proof (proj2 (edge_le k (get (idx_of m c) k) (get i k) ltac:(lia) ltac:(lia)) ltac:(lia)).
    pose proof (proj2 (edge_le k (get i k + 1) (get (idx_of m c) k + len_of m c) ltac:(lia) ltac:(lia)) ltac:(lia)).
    split; lra.
Qed.
Lemma box_in_grid c x : valid m c -> within (lo c) x (hi c) -> within start x end_.
Proof.
  intros Hc H k. destruct (H k) as [L U]. pose proof (cell_lines c k Hc) as (P1 & P2 & P3).
  destruct (Hlo c k Hc) as (a & Ea & Qa), (Hhi c k Hc) as (b & Eb & Qb).
  destruct (Hs k) as (a' & Ea' & Qa'), (He k) as (b' & Eb' & Qb'). rewrite Ea, Eb, Ea', Eb' in *.
  destruct (x k) as [v|]; [|discriminate]. rewrite le_iff, lt_iff in *.
  pose proof (proj2 (edge_le k 0 (get (idx_of m c) k) ltac:(lia) ltac:(lia)) ltac:(lia)).
  pose proof (proj2 (edge_le k (get (idx_of m c) k + len_of m c) (glen m k) ltac:(lia) ltac:(lia)) ltac:(lia)).
  split; lra.
Qed.

(** boxes of the cells of a level, of children and of existing cells *)
Lemma level_tiles l x : 0 <= l <= m_max m -> within start x end_ ->
  exists! c, valid m c /\ lvl_of m c = l /\ within (lo c) x (hi c).
Proof.
  intros Hl H. apply within_located in H. destruct H as (i & Hi).
  pose proof (located_in_grid x i Hi) as G.
  destruct (proj1 (c02_cells_of_a_level_tile_the_grid m l i Hwf Hl (proj1 (proj1 G)) (proj1 (proj1 (proj2 G))) (proj1 (proj2 (proj2 G)))) G)
    as (c & (Hc & Lc & Cc) & Uc).
  exists c. split.
  - split; [assumption|]. split; [assumption|]. apply (box_covers x i); assumption.
  - intros c' (Hc' & Lc' & Cc'). apply Uc. split; [assumption|]. split; [assumption|].
    apply (box_covers x i); assumption.
Qed.
Lemma children_tile c x : valid m c -> lvl_of m c < m_max m ->
  (within (lo c) x (hi c) -> exists! k, In k (get_all_children m c) /\ within (lo k) x (hi k)) /\
  (forall k, In k (get_all_children m c) -> within (lo k) x (hi k) -> within (lo c) x (hi c)).
Proof.
  intros Hc Hl. destruct (c03_children m c Hwf Hc Hl) as (_ & _ & Hk & _ & _ & Ht & Hin).
  assert (forall k, In k (get_all_children m c) -> valid m k) as Vk by (intros k Ik; apply Hk, Ik).
  split.
  - intros H. pose proof (box_in_grid c x Hc H) as G. apply within_located in G. destruct G as (i & Hi).
    apply (box_covers x i) in H; [|assumption..]. destruct (Ht i H) as (k & (Ik & Ck) & Uk).
    exists k. split; [split; [assumption|apply (box_covers x i); auto]|].
    intros k' (Ik' & Ck'). apply Uk. split; [assumption|]. apply (box_covers x i); auto.
  - intros k Ik H. pose proof (box_in_grid k x (Vk k Ik) H) as G. apply within_located in G. destruct G as (i & Hi).
    apply (box_covers x i) in H; [|auto..]. apply (box_covers x i); [assumption..|]. eapply Hin; eassumption.
Qed.
Lemma existing_tile ex x : tiling m ex -> within start x end_ ->
  exists! c, ex c = true /\ within (lo c) x (hi c).
Proof.
  intros [Hv Ht] H. apply within_located in H. destruct H as (i & Hi).
  destruct (Ht i (located_in_grid x i Hi)) as (c & (Ec & Cc) & Uc). exists c. split.
  - split; [assumption|]. apply (box_covers x i); auto.
  - intros c' (Ec' & Cc'). apply Uc. split; [assumption|]. apply (box_covers x i); auto.
Qed.
(** the closed boxes leave no gap *)
Lemma closed_cover l x : 0 <= l <= m_max m -> within_closed start x end_ ->
  exists c, valid m c /\ lvl_of m c = l /\ within_closed (lo c) x (hi c).
Proof.
  intros Hl H.
  assert (exists i, forall k, exists v, x k = Some v /\ 0 <= get i k < glen m k /\
    (edge k (get i k) <= v)%Q /\ (v <= edge k (get i k + 1))%Q) as (i & Hi).
  { refine (choose_dims (fun k j => exists v, x k = Some v /\ 0 <= j < glen m k /\ (edge k j <= v)%Q /\ (v <= edge k (j + 1))%Q) _). intros k. destruct (H k) as [L U].
    destruct (Hs k) as (a & Ea & Qa), (He k) as (b & Eb & Qb). rewrite Ea in L. rewrite Eb in U.
    destruct (x k) as [v|]; [|discriminate]. apply le_iff in L, U.
    pose proof (glen_pos m Hwf k).
    destruct (Qlt_le_dec v (edge k (glen m k))) as [N|N].
    - destruct (line_below k v) as (j & Hj & Lj & Uj); [rewrite <- Qa; assumption|assumption|].
      exists j, v. split; [reflexivity|]. split; [assumption|]. split; lra.
    - exists (glen m k - 1), v. split; [reflexivity|]. split; [lia|].
      replace (glen m k - 1 + 1) with (glen m k) by lia.
      pose proof (Hinc k (glen m k - 1) (glen m k) ltac:(lia) ltac:(lia) ltac:(lia)). split; lra. }
  assert (in_grid (dims_of m) i) as G.
  { rewrite in_grid_k. intros k. destruct (Hi k) as (v & _ & R & _). exact R. }
  destruct (proj1 (c02_cells_of_a_level_tile_the_grid m l i Hwf Hl (proj1 (proj1 G)) (proj1 (proj1 (proj2 G))) (proj1 (proj2 (proj2 G)))) G)
    as (c & (Hc & Lc & Cc) & _).
  exists c. split; [assumption|]. split; [assumption|]. rewrite covers_k in Cc. intros k.
  destruct (Hi k) as (v & Ev & R & L & U). specialize (Cc k). pose proof (cell_lines c k Hc) as (P1 & P2 & P3).
  destruct (Hlo c k Hc) as (a & Ea & Qa), (Hhi c k Hc) as (b & Eb & Qb). rewrite Ea, Eb, Ev, !le_iff.
  pose proof (proj2 (edge_le k (get (idx_of m c) k) (get i k) ltac:(lia) ltac:(lia)) ltac:(lia)).
  pose proof (proj2 (edge_le k (get i k + 1) (get (idx_of m c) k + len_of m c) ltac:(lia) ltac:(lia)) ltac:(lia)).
  split; lra.
Qed.
(** the cell of a level at a located coordinate *)
Lemma cell_at_located l x i : 0 <= l <= m_max m -> located x i ->
  let c := get_cell_from_indices m i l in
  valid m c /\ lvl_of m c = l /\ within (lo c) x (hi c).
Proof.
  intros Hl Hi. cbn zeta. pose proof (located_in_grid x i Hi) as G.
  destruct (c01_indices_to_id_and_back m i l Hwf G Hl) as (V & L & E).
  split; [assumption|]. split; [assumption|]. apply (box_covers x i); [assumption..|].
  apply covers_rdown; [assumption|assumption|]. intros k.
  rewrite cell_len by assumption. unfold lvl_of, idx_of. rewrite L, E. destruct k; reflexivity.
Qed.
Lemma cell_at_located_upper l x i : 0 <= l <= m_max m -> located_upper x i ->
  let c := get_cell_from_indices m i l in
  valid m c /\ lvl_of m c = l /\ within_upper (lo c) x (hi c).
Proof.
  intros Hl Hi. cbn zeta. pose proof (located_upper_in_grid x i Hi) as G.
  destruct (c01_indices_to_id_and_back m i l Hwf G Hl) as (V & L & E).
  split; [assumption|]. split; [assumption|]. apply (box_covers_upper x i); [assumption..|].
  apply covers_rdown; [assumption|assumption|]. intros k.
  rewrite cell_len by assumption. unfold lvl_of, idx_of. rewrite L, E. destruct k; reflexivity.
Qed.
Lemma box_upper_unique l x c c' : valid m c -> valid m c' -> lvl_of m c = l -> lvl_of m c' = l ->
  within_upper (lo c) x (hi c) -> within_upper (lo c') x (hi c') -> c = c'.
Proof.
  intros Vc Vc' Lc Lc' B B'.
  assert (within_upper start x end_) as G.
  { intros k. destruct (B k) as [L U]. pose proof (cell_lines c k Vc) as (P1 & P2 & P3).
    destruct (Hlo c k Vc) as (a & Ea & Qa), (Hhi c k Vc) as (b & Eb & Qb).
    destruct (Hs k) as (a' & Ea' & Qa'), (He k) as (b' & Eb' & Qb'). rewrite Ea, Eb, Ea', Eb' in *.
    destruct (x k) as [v|]; [|discriminate]. rewrite le_iff, lt_iff in *.
    pose proof (proj2 (edge_le k 0 (get (idx_of m c) k) ltac:(lia) ltac:(lia)) ltac:(lia)).
    pose proof (proj2 (edge_le k (get (idx_of m c) k + len_of m c) (glen m k) ltac:(lia) ltac:(lia)) ltac:(lia)).
    split; lra. }
  apply within_located_upper in G. destruct G as (i & Hi).
  apply (box_covers_upper x i) in B, B'; [|assumption..].
  pose proof (located_upper_in_grid x i Hi) as G.
  destruct (proj1 (c02_cells_of_a_level_tile_the_grid m l i Hwf ltac:(rewrite <- Lc; apply cell_level; assumption) (proj1 (proj1 G)) (proj1 (proj1 (proj2 G))) (proj1 (proj2 (proj2 G)))) G)
    as (c0 & _ & U).
  rewrite <- (U c), <- (U c'); auto.
Qed.
End Lines.

(** *** coordinates of periodic dimensions *)
(** the coordinate n grid lengths below x *)
Definition shifted (start end_ x : option Q) (n : Z) : option Q :=
  lift2 Qminus x (lift2 Qmult (Some (inject_Z n)) (lift2 Qminus end_ start)).
(** x is, after moving it by whole grid lengths in periodic dimensions, in the box from lo to hi *)
Definition hits (t : topo) (start end_ lo x hi : rvec) : Prop :=
  forall k, exists n, (n <> 0 -> per t k = true) /\
    exact_le (lo k) (shifted (start k) (end_ k) (x k) n) = true /\
    exact_lt (shifted (start k) (end_ k) (x k) n) (hi k) = true.
(** x is the end of the grid or whole grid lengths above it in dimension k *)
Definition at_upper_end (t : topo) (start end_ x : rvec) (k : dim) : Prop :=
  exists n, 0 <= n /\ (n <> 0 -> per t k = true) /\ same (shifted (start k) (end_ k) (x k) n) (end_ k).

(** specification of get_real_coordinate in one dimension; y is its result *)
Definition wraps (a b : Q) (p : bool) (x y : option Q) : Prop :=
  match x with
  | None => y = None
  | Some v =>
    if exact_le (Some a) (Some v) && exact_le (Some v) (Some b) then y = Some v else
    if p then exists w n, y = Some w /\ (w == v - z2q n * (b - a))%Q /\
      ((v < a)%Q -> n < 0 /\ (a <= w)%Q /\ (w < b)%Q) /\ ((b < v)%Q -> 0 < n /\ (a < w)%Q /\ (w <= b)%Q)
    else y = None
  end.

Lemma floor_unique q j : (z2q j <= q)%Q -> (q < z2q (j + 1))%Q -> Qfloor q = j.
Proof.
  intros L U. apply Z.le_antisymm.
  - assert (z2q (Qfloor q) < z2q (j + 1))%Q as H by (pose proof (Qfloor_le q); unfold z2q in *; lra).
    rewrite z2q_lt in H. lia.
  - assert (z2q j < z2q (Qfloor q + 1))%Q as H by (pose proof (Qlt_floor q); unfold z2q in *; lra).
    rewrite z2q_lt in H. lia.
Qed.
Lemma ceiling_bounds q : (q <= z2q (Qceiling q))%Q /\ (z2q (Qceiling q) < q + 1)%Q.
Proof.
  split; [apply Qle_ceiling|]. pose proof (Qceiling_lt q) as H. unfold z2q.
  replace (Qceiling q - 1) with (Qceiling q + -1) in H by lia. rewrite inject_Z_plus in H.
  change (inject_Z (-1)) with (-1)%Q in H. lra.
Qed.

(** the computation of get_real_coordinate with grid length L *)
Definition wrap_with (a b L : Q) (v : option Q) (p : bool) : option Q :=
  if exact_le (Some a) v && exact_le v (Some b) then v else
  if p then
    if exact_lt v (Some a) then lift2 Qplus v (lift2 Qmult (Some L) (ceil exact (exact_div (lift2 Qminus (Some a) v) (Some L))))
    else lift2 Qminus v (lift2 Qmult (Some L) (ceil exact (exact_div (lift2 Qminus v (Some b)) (Some L))))
  else None.
Lemma wrap_with_wraps a b L v p : (a < b)%Q -> (L == b - a)%Q -> wraps a b p v (wrap_with a b L v p).
Proof.
  intros Hab EL. unfold wraps, wrap_with. destruct v as [v|].
  2:{ cbn [exact_le andb]. destruct p; reflexivity. }
  destruct (exact_le (Some a) (Some v) && exact_le (Some v) (Some b)) eqn:E; [reflexivity|].
  destruct p; [|reflexivity]. cbn [lift2].
  assert (0 < L)%Q as HL by lra.
  destruct (exact_lt (Some v) (Some a)) eqn:El.
  - apply lt_iff in El. rewrite div_some by assumption. cbn [exact ceil lift2].
    set (q := ((a - v) / L)%Q). pose proof (ceiling_bounds q) as [C1 C2].
    assert (q * L == a - v)%Q as Eq by (unfold q; field; lra).
    assert (0 < q)%Q as Hq by (apply Qlt_shift_div_l; lra).
    set (n := Qceiling q) in *. eexists; exists (- n). split; [reflexivity|].
    assert (z2q (- n) == - z2q n)%Q as En by (unfold z2q; rewrite inject_Z_opp; reflexivity).
    split; [rewrite En, <- EL; unfold z2q; ring|]. split; [|intros; exfalso; lra].
    intros _. assert (0 < n) by (apply z2q_lt; change (z2q 0) with 0%Q; lra).
    change (inject_Z n) with (z2q n). split; [lia|].
    assert (q * L <= z2q n * L)%Q by (apply Qmult_le_compat_r; lra).
    assert (z2q n * L < (q + 1) * L)%Q by (apply Qmult_lt_compat_r; lra).
    split; nra.
  - assert (b < v)%Q as Hb.
    { apply not_true_iff_false in El. rewrite lt_iff in El. apply andb_false_iff in E. 
      destruct E as [E|E]; apply not_true_iff_false in E; rewrite le_iff in E; apply Qnot_le_lt in E; [tauto|assumption]. }
    rewrite div_some by assumption. cbn [exact ceil lift2].
    set (q := ((v - b) / L)%Q). pose proof (ceiling_bounds q) as [C1 C2].
    assert (q * L == v - b)%Q as Eq by (unfold q; field; lra).
    assert (0 < q)%Q as Hq by (apply Qlt_shift_div_l; lra).
    set (n := Qceiling q) in *. eexists; exists n. split; [reflexivity|].
    split; [rewrite <- EL; unfold z2q; ring|]. split; [intros; exfalso; lra|].
    intros _. assert (0 < n) by (apply z2q_lt; change (z2q 0) with 0%Q; lra).
    change (inject_Z n) with (z2q n). split; [lia|].
    assert (q * L <= z2q n * L)%Q by (apply Qmult_le_compat_r; lra).
    assert (z2q n * L < (q + 1) * L)%Q by (apply Qmult_lt_compat_r; lra).
    split; nra.
Qed.
Lemma real_coordinate_wraps a b v p : (a < b)%Q ->
  wraps a b p v (real_coordinate exact (Some a) (Some b) v p).
Proof. intros H. exact (wrap_with_wraps a b (b - a) v p H ltac:(reflexivity)). Qed.

Section Locate.
Context (m : mapping) (t : topo) (Hwf : wf m) (edge : dim -> Z -> Q).
Hypothesis Hinc : forall k i j, 0 <= i -> i < j -> j <= glen m k -> (edge k i < edge k j)%Q.
Context (lo hi : Z -> rvec).
Hypothesis Hlo : forall c k, valid m c -> exists q, lo c k = Some q /\ (q == edge k (get (idx_of m c) k))%Q.
Hypothesis Hhi : forall c k, valid m c -> exists q, hi c k = Some q /\ (q == edge k (get (idx_of m c) k + len_of m c))%Q.
Context (start end_ : rvec) (a b : dim -> Q).
Hypothesis Hs : forall k, start k = Some (a k) /\ (a k == edge k 0)%Q.
Hypothesis He : forall k, end_ k = Some (b k) /\ (b k == edge k (glen m k))%Q.
Context (real : rvec -> rvec) (indices : rvec -> idx) (cell : Z -> rvec -> Z).
Hypothesis Hreal : forall x k, wraps (a k) (b k) (per t k) (x k) (real x k).
(** the index of the line at or below a coordinate inside of the grid *)
Hypothesis Hind : forall x k,
  match real x k with
  | None => get (indices x) k = error_index
  | Some v => (forall j, 0 <= j < glen m k -> (edge k j <= v)%Q -> (v < edge k (j + 1))%Q -> get (indices x) k = j) /\
              ((v == b k)%Q -> get (indices x) k = glen m k)
  end.
Hypothesis Hcell : forall l x, cell l x = if level_outside m l then error_cell else get_cell_from_indices m (indices x) l.

Lemma edges_ab k : (a k < b k)%Q.
Proof.
  destruct (Hs k) as [_ Ea], (He k) as [_ Eb]. pose proof (glen_pos m Hwf k).
  pose proof (Hinc k 0 (glen m k) ltac:(lia) ltac:(lia) ltac:(lia)). lra.
Qed.
(** what the index says about the coordinate *)
Lemma index_cases x k :
  (exists v n, x k = Some v /\ (n <> 0 -> per t k = true) /\ 0 <= get (indices x) k < glen m k /\
     (edge k (get (indices x) k) <= v - z2q n * (b k - a k))%Q /\ (v - z2q n * (b k - a k) < edge k (get (indices x) k + 1))%Q /\
     (forall n', 0 <= n' -> (n' <> 0 -> per t k = true) -> ~ (v - z2q n' * (b k - a k) == b k)%Q)) \/
  (exists v n, x k = Some v /\ 0 <= n /\ (n <> 0 -> per t k = true) /\ get (indices x) k = glen m k /\
     (v - z2q n * (b k - a k) == b k)%Q) \/
  (get (indices x) k = error_index /\ forall v, x k = Some v -> per t k = false /\ ((v < a k)%Q \/ (b k < v)%Q)).
Proof.
  pose proof (Hreal x k) as R. pose proof (Hind x k) as I. unfold wraps in R.
  destruct (Hs k) as [_ Ea], (He k) as [_ Eb]. pose proof (edges_ab k) as Hab.
  destruct (x k) as [v|] eqn:Ex.
  2:{ rewrite R in I. right; right. split; [assumption|]. intros; discriminate. }
  destruct (exact_le (Some (a k)) (Some v) && exact_le (Some v) (Some (b k))) eqn:E.
  - rewrite R in I. apply andb_true_iff in E. destruct E as [E1 E2]. apply le_iff in E1, E2. destruct I as [I1 I2].
    destruct (Qlt_le_dec v (b k)) as [L|L].
    + left. destruct (line_below m Hwf edge k v) as (j & Hj & L1 & L2); [lra|lra|].
      pose proof (I1 j Hj L1 L2) as Ij. rewrite Ij.
      exists v, 0. split; [reflexivity|]. split; [lia|]. split; [assumption|]. change (z2q 0) with 0%Q.
      split; [lra|]. split; [lra|]. intros n' Hn' _ N.
      assert (0 <= z2q n')%Q by (change 0%Q with (z2q 0); apply z2q_le, Hn'). nra.
    + right; left. exists v, 0. split; [reflexivity|]. split; [lia|]. split; [lia|]. change (z2q 0) with 0%Q.
      split; [apply I2; lra|lra].
  - assert ((v < a k)%Q \/ (b k < v)%Q) as Out.
    { apply andb_false_iff in E. destruct E as [E|E]; apply not_true_iff_false in E; rewrite le_iff in E;
      apply Qnot_le_lt in E; tauto. }
    destruct (per t k) eqn:P.
    2:{ rewrite R in I. right; right. split; [assumption|]. intros v' [= <-]. auto. }
    destruct R as (w & n & Ew & Qw & R1 & R2). rewrite Ew in I. destruct I as [I1 I2].
    destruct (Qlt_le_dec w (b k)) as [L|L].
    + left. assert (a k <= w)%Q as La by (destruct Out as [O|O]; [apply R1 in O|apply R2 in O]; lra).
      destruct (line_below m Hwf edge k w) as (j & Hj & L1 & L2); [lra|lra|].
      pose proof (I1 j Hj L1 L2) as Ij. rewrite Ij.
      exists v, n. split; [reflexivity|]. split; [reflexivity|]. split; [assumption|].
      split; [lra|]. split; [lra|]. intros n' Hn' _ N.
      destruct Out as [O|O].
      * assert (0 <= z2q n')%Q by (change 0%Q with (z2q 0); apply z2q_le, Hn'). nra.
      * apply R2 in O. destruct O as (On & O1 & _).
        (* b - (n - n')(b - a) = w is strictly between a and b *)
        assert (w == b k - z2q (n - n') * (b k - a k))%Q as Ew'.
        { unfold z2q. replace (n - n') with (n + - n') by lia. rewrite inject_Z_plus, inject_Z_opp.
          unfold z2q in *. lra. }
        destruct (Z_le_gt_dec (n - n') 0) as [D|D].
        -- assert (z2q (n - n') <= 0)%Q by (change 0%Q with (z2q 0); apply z2q_le, D). nra.
        -- assert (1 <= z2q (n - n'))%Q by (change 1%Q with (z2q 1); apply z2q_le; lia). nra.
    + right; left. exists v, n. split; [reflexivity|]. destruct Out as [O|O].
      * apply R1 in O. exfalso. lra.
      * apply R2 in O. destruct O as (On & O1 & O2). split; [lia|]. split; [reflexivity|].
        split; [apply I2; lra|lra].
Qed.
Lemma index_nonneg x k : 0 <= get (indices x) k.
Proof.
  pose proof (glen_pos m Hwf k). destruct (index_cases x k) as [H0|[H0|H0]].
  - destruct H0 as (v & n & _ & _ & R & _). lia.
  - destruct H0 as (v & n & _ & _ & _ & R & _). lia.
  - destruct H0 as (R & _). rewrite R. unfold error_index. rewrite W_val. lia.
Qed.

Lemma shifted_eq k v n : shifted (start k) (end_ k) (Some v) n = Some (v - z2q n * (b k - a k))%Q.
Proof. destruct (Hs k) as [-> _], (He k) as [-> _]. reflexivity. Qed.

Lemma in_grid_dec i : in_grid (dims_of m) i \/ ~ in_grid (dims_of m) i.
Proof. unfold in_grid. lia. Qed.
(** the cell found is the one that the coordinate hits *)
Lemma cell_found l x c : cell l x = c -> c <> error_cell ->
  valid m c /\ lvl_of m c = l /\ hits t start end_ (lo c) x (hi c) /\ forall k, ~ at_upper_end t start end_ x k.
Proof.
  intros E Hc. rewrite Hcell in E. unfold level_outside in E.
  destruct ((l <? 0) || (m_max m <? l)) eqn:El; [congruence|].
  assert (0 <= l <= m_max m) as Hl by lia. clear El.
  assert (in_grid (dims_of m) (indices x)) as G.
  { destruct (in_grid_dec (indices x)) as [G|G]; [assumption|].
    exfalso. apply Hc. rewrite <- E. apply gcfi_invalid; [assumption|apply (index_nonneg x DX)|apply (index_nonneg x DY)|apply (index_nonneg x DZ)|tauto]. }
  assert (forall k, exists v n, x k = Some v /\ (n <> 0 -> per t k = true) /\ 0 <= get (indices x) k < glen m k /\
     (edge k (get (indices x) k) <= v - z2q n * (b k - a k))%Q /\ (v - z2q n * (b k - a k) < edge k (get (indices x) k + 1))%Q /\
     (forall n', 0 <= n' -> (n' <> 0 -> per t k = true) -> ~ (v - z2q n' * (b k - a k) == b k)%Q)) as C.
  { intros k. rewrite in_grid_k in G. specialize (G k). destruct (index_cases x k) as [H0|[H0|H0]]; [assumption| |].
    - destruct H0 as (v & n & _ & _ & _ & R & _). lia.
    - destruct H0 as (R & _). pose proof (glen_lt_W m Hwf k). unfold error_index in R. lia. }
  destruct (c01_indices_to_id_and_back m (indices x) l Hwf G Hl) as (V & L & Ei). rewrite E in *.
  split; [assumption|]. split; [assumption|]. split.
  - intros k. destruct (C k) as (v & n & Ev & Pn & R & L1 & L2 & _). exists n. split; [assumption|].
    destruct (Hlo c k V) as (qa & Ea & Qa), (Hhi c k V) as (qb & Eb & Qb).
    rewrite Ev, shifted_eq, Ea, Eb, le_iff, lt_iff.
    pose proof (cell_lines m Hwf c k V) as (P1 & P2 & P3).
    assert (get (idx_of m c) k <= get (indices x) k < get (idx_of m c) k + len_of m c) as Cv.
    { assert (rdown (len_of m c) (get (indices x) k) = get (idx_of m c) k) as Er.
      { rewrite cell_len by assumption. unfold lvl_of, idx_of. rewrite L, Ei. destruct k; reflexivity. }
      pose proof (rdown_le (len_of m c) (get (indices x) k) ltac:(lia)). lia. }
    pose proof (proj2 (edge_le m edge Hinc k (get (idx_of m c) k) (get (indices x) k) ltac:(lia) ltac:(lia)) ltac:(lia)).
    pose proof (proj2 (edge_le m edge Hinc k (get (indices x) k + 1) (get (idx_of m c) k + len_of m c) ltac:(lia) ltac:(lia)) ltac:(lia)).
    split; lra.
  - intros k (n & Hn & Pn & Sn). destruct (C k) as (v & n0 & Ev & _ & _ & _ & _ & NU).
    rewrite Ev, shifted_eq in Sn. destruct (He k) as [Ee _]. rewrite Ee, same_iff in Sn. exact (NU n Hn Pn Sn).
Qed.

(** a cell that the coordinate hits is found, unless the coordinate is at an upper end *)
Lemma hit_unique k x n n' q q' : (n <> 0 -> per t k = true) ->
  x k = Some q -> (a k <= q - z2q n * (b k - a k))%Q -> (q - z2q n * (b k - a k) < b k)%Q ->
  x k = Some q' -> (a k <= q' - z2q n' * (b k - a k))%Q -> (q' - z2q n' * (b k - a k) < b k)%Q -> n = n'.
Proof.
  intros _ E L U E' L' U'. rewrite E in E'. injection E' as <-. pose proof (edges_ab k).
  destruct (Z.lt_trichotomy n n') as [D|[D|D]]; [|assumption|].
  - assert (z2q n + 1 <= z2q n')%Q by (change 1%Q with (z2q 1); rewrite <- z2q_add; apply z2q_le; lia). nra.
  - assert (z2q n' + 1 <= z2q n)%Q by (change 1%Q with (z2q 1); rewrite <- z2q_add; apply z2q_le; lia). nra.
Qed.
Lemma hit_found c x : valid m c -> hits t start end_ (lo c) x (hi c) -> (forall k, ~ at_upper_end t start end_ x k) ->
  cell (lvl_of m c) x = c.
Proof.
  intros V H NU. pose proof (cell_level m Hwf c V) as Hl. rewrite Hcell. unfold level_outside.
  replace ((lvl_of m c <? 0) || (m_max m <? lvl_of m c)) with false by lia.
  assert (forall k, get (idx_of m c) k <= get (indices x) k < get (idx_of m c) k + len_of m c) as C.
  { intros k. destruct (H k) as (n & Pn & L & U). destruct (Hlo c k V) as (qa & Ea & Qa), (Hhi c k V) as (qb & Eb & Qb).
    pose proof (cell_lines m Hwf c k V) as (P1 & P2 & P3). destruct (Hs k) as [Es Qs], (He k) as [Ee Qe].
    destruct (x k) as [v|] eqn:Ev. 2:{ rewrite Ea in L. unfold shifted in L. cbn in L. discriminate. }
    rewrite shifted_eq, Ea, Eb in *. apply le_iff in L. apply lt_iff in U.
    pose proof (proj2 (edge_le m edge Hinc k 0 (get (idx_of m c) k) ltac:(lia) ltac:(lia)) ltac:(lia)) as B1.
    pose proof (proj2 (edge_le m edge Hinc k (get (idx_of m c) k + len_of m c) (glen m k) ltac:(lia) ltac:(lia)) ltac:(lia)) as B2.
    destruct (index_cases x k) as [H0|[H0|H0]].
    - destruct H0 as (v' & n' & Ev' & Pn' & R & L1 & L2 & _).
      pose proof (proj2 (edge_le m edge Hinc k 0 (get (indices x) k) ltac:(lia) ltac:(lia)) ltac:(lia)) as B1'.
      pose proof (proj2 (edge_le m edge Hinc k (get (indices x) k + 1) (glen m k) ltac:(lia) ltac:(lia)) ltac:(lia)) as B2'.
      assert (n = n') as <-.
      { apply (hit_unique k x n n' v v'); try assumption; lra. }
      rewrite Ev in Ev'. injection Ev' as <-.
      split.
      + apply Z.lt_succ_r. replace (Z.succ (get (indices x) k)) with (get (indices x) k + 1) by lia.
        apply (edge_lt m edge Hinc k); [lia|lia|]. lra.
      + apply (edge_lt m edge Hinc k); [lia|lia|]. lra.
    - exfalso. destruct H0 as (v' & n' & Ev' & Hn' & Pn' & _ & Q'). apply (NU k). exists n'.
      split; [assumption|]. split; [assumption|]. rewrite Ev', shifted_eq, Ee, same_iff. assumption.
    - exfalso. destruct H0 as (_ & H0). destruct (H0 v Ev) as [P Out].
      assert (n = 0) as En by (destruct (Z.eq_dec n 0); [assumption|]; rewrite Pn in P by assumption; discriminate).
      subst n. change (z2q 0) with 0%Q in *. destruct Out; lra. }
  assert (in_grid (dims_of m) (indices x)) as G.
  { rewrite in_grid_k. intros k. pose proof (cell_lines m Hwf c k V). specialize (C k). lia. }
  destruct (c01_indices_to_id_and_back m (indices x) (lvl_of m c) Hwf G Hl) as (V' & L' & E').
  apply (cell_eq m Hwf); [assumption|assumption| |assumption].
  unfold idx_of at 1. rewrite E'. apply idx_ext. intros k.
  assert (get (Idx (rdown (2 ^ (m_max m - lvl_of m c)) (ix (indices x))) (rdown (2 ^ (m_max m - lvl_of m c)) (iy (indices x)))
     (rdown (2 ^ (m_max m - lvl_of m c)) (iz (indices x)))) k = rdown (len_of m c) (get (indices x) k)) as Ek
    by (rewrite (cell_len m Hwf c V); destruct k; reflexivity).
  rewrite Ek. apply rdown_unique; [apply cell_len_pos; assumption|apply cell_aligned; assumption|apply C].
Qed.
Lemma upper_end_error l x k : at_upper_end t start end_ x k -> cell l x = error_cell.
Proof.
  intros H. destruct (Z.eq_dec (cell l x) error_cell) as [E|E]; [assumption|].
  destruct (cell_found l x _ eq_refl E) as (_ & _ & _ & NU). exfalso. exact (NU k H).
Qed.
End Locate.

(** a coordinate strictly inside of the upper faces of a box is found as it is *)
Lemma inside_hits t start end_ lo hi x : (forall k, start k <> None) -> (forall k, end_ k <> None) ->
  within lo x hi -> hits t start end_ lo x hi.
Proof.
  intros Hs He H k. exists 0. split; [lia|]. destruct (H k) as [L U]. specialize (Hs k). specialize (He k).
  destruct (start k) as [a|]; [|congruence]. destruct (end_ k) as [b|]; [|congruence].
  destruct (lo k) as [p|], (x k) as [v|], (hi k) as [q|]; try discriminate.
  unfold shifted. cbn [lift2]. apply le_iff in L. apply lt_iff in U. rewrite le_iff, lt_iff.
  change (inject_Z 0) with 0%Q. split; lra.
Qed.
Lemma inside_not_upper t start end_ x k : exact_lt (start k) (end_ k) = true -> exact_lt (x k) (end_ k) = true ->
  ~ at_upper_end t start end_ x k.
Proof.
  intros Hab U (n & Hn & _ & S). destruct (start k) as [a|], (end_ k) as [b|], (x k) as [v|]; try discriminate.
  unfold shifted in S. cbn [lift2] in S. rewrite same_iff in S. rewrite lt_iff in *.
  assert (0 <= inject_Z n)%Q by (change 0%Q with (z2q 0); apply z2q_le, Hn). nra.
Qed.
(** properties of wrapped coordinates in terms of comparisons *)
Lemma wraps_facts a b p x y : (a < b)%Q -> wraps a b p x y ->
  (exact_le (Some a) x = true -> exact_le x (Some b) = true -> y = x) /\
  (y = None <-> x = None \/ p = false /\ ~ (exact_le (Some a) x = true /\ exact_le x (Some b) = true)) /\
  (y <> None -> exact_le (Some a) y = true /\ exact_le y (Some b) = true /\
     exists n, (n <> 0 -> p = true) /\ same y (shifted (Some a) (Some b) x n)).
Proof.
  intros Hab. unfold wraps. destruct x as [v|].
  2:{ intros ->. split; [discriminate|]. split; [tauto|]. congruence. }
  destruct (exact_le (Some a) (Some v) && exact_le (Some v) (Some b)) eqn:E.
  - intros ->. apply andb_true_iff in E. destruct E as [E1 E2]. split; [reflexivity|]. split.
    + split; [discriminate|]. intros [H|[_ H]]; [discriminate|tauto].
    + intros _. split; [assumption|]. split; [assumption|]. exists 0. split; [lia|].
      unfold shifted. cbn [lift2]. rewrite same_iff. change (inject_Z 0) with 0%Q. ring.
  - apply andb_false_iff in E. destruct p.
    + intros (w & n & -> & Q & R1 & R2).
      split; [intros H1 H2; rewrite H1, H2 in E; destruct E; discriminate|].
      split; [split; [discriminate|intros [H|[H _]]; discriminate]|].
      intros _. assert ((a <= w)%Q /\ (w <= b)%Q) as [A B].
      { destruct E as [E|E]; apply not_true_iff_false in E; rewrite le_iff in E; apply Qnot_le_lt in E;
        [apply R1 in E|apply R2 in E]; lra. }
      rewrite !le_iff. split; [assumption|]. split; [assumption|]. exists n. split; [reflexivity|].
      unfold shifted. cbn [lift2]. rewrite same_iff. exact Q.
    + intros ->. split; [intros H1 H2; rewrite H1, H2 in E; destruct E; discriminate|].
      split; [split; [intros _; right; split; [reflexivity|]; intros [H1 H2]; rewrite H1, H2 in E; destruct E; discriminate|reflexivity]|].
      congruence.
Qed.
