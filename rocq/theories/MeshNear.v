(** C49: the distance test is_neighbor agrees with the neighborhoods. *)
From Verif Require Import U64 MapModel MapSpec MapProofs MapFamily MapProps HoodModel MeshModel
  MeshSpec MeshBase HoodProps MeshWalk MeshFind MeshKids MeshItem MeshCheck.
Open Scope Z_scope.

(** cells that share no position *)
Definition disjoint (m : mapping) (a b : Z) : Prop := forall i, covers m a i -> ~ covers m b i.

(** one dimension: some image of the second interval is closer than D to the first *)
Definition image (p : bool) (G i1 i2 o : Z) : Prop :=
  if p then exists a, i1 + o = i2 + a * G else i1 + o = i2.

Lemma distance1_spec p G i1 s1 i2 s2 D :
  0 < s1 -> 0 < s2 -> 0 <= i1 -> 0 <= i2 -> i1 + s1 <= G -> i2 + s2 <= G -> G < W -> 0 < D ->
  distance1 p G i1 s1 i2 s2 < D <->
  exists o, image p G i1 i2 o /\ o < s1 + D /\ - D < o + s2.
Proof.
  intros Hs1 Hs2 H1 H2 E1 E2 HG HD. unfold distance1, add64, sub64.
  rewrite !(u64_small (i1 + s1)), !(u64_small (i2 + s2)) by lia.
  assert (forall a, 1 <= a -> G <= a * G) as A1 by (intros; nia).
  assert (forall a, a <= -1 -> a * G <= - G) as A2 by (intros; nia).
  destruct (Z.leb_spec i1 i2) as [Hle|Hgt].
  - rewrite (u64_small (G - (i2 + s2))) by lia. rewrite (u64_small (i1 + (G - (i2 + s2)))) by lia.
    set (d := if i2 <=? i1 + s1 then 0 else u64 (i2 - (i1 + s1))).
    assert (d = Z.max 0 (i2 - (i1 + s1))) as Ed.
    { unfold d. destruct (Z.leb_spec i2 (i1 + s1)); [lia|]. rewrite u64_small by lia. lia. }
    destruct p; unfold image.
    + split.
      * intros Hm. destruct (Z_lt_le_dec d D).
        -- exists (i2 - i1). split; [exists 0; lia|]. lia.
        -- exists (i2 - i1 - G). split; [exists (-1); lia|]. lia.
      * intros (o & [a Ha] & Ho1 & Ho2).
        assert (a = 0 \/ 1 <= a \/ a <= -1) as [->|[Q|Q]] by lia; [lia| |].
        -- specialize (A1 a Q). lia.
        -- specialize (A2 a Q). lia.
    + split.
      * intros Hm. exists (i2 - i1). lia.
      * intros (o & Ho & Ho1 & Ho2). lia.
  - rewrite (u64_small (G - (i1 + s1))) by lia. rewrite (u64_small (i2 + (G - (i1 + s1)))) by lia.
    set (d := if i1 <=? i2 + s2 then 0 else u64 (i1 - (i2 + s2))).
    assert (d = Z.max 0 (i1 - (i2 + s2))) as Ed.
    { unfold d. destruct (Z.leb_spec i1 (i2 + s2)); [lia|]. rewrite u64_small by lia. lia. }
    destruct p; unfold image.
    + split.
      * intros Hm. destruct (Z_lt_le_dec d D).
        -- exists (i2 - i1). split; [exists 0; lia|]. lia.
        -- exists (i2 - i1 + G). split; [exists 1; lia|]. lia.
      * intros (o & [a Ha] & Ho1 & Ho2).
        assert (a = 0 \/ 1 <= a \/ a <= -1) as [->|[Q|Q]] by lia; [lia| |].
        -- specialize (A1 a Q). lia.
        -- specialize (A2 a Q). lia.
    + split.
      * intros Hm. exists (i2 - i1). lia.
      * intros (o & Ho & Ho1 & Ho2). lia.
Qed.

Lemma overlap1_spec p G i1 s1 i2 s2 :
  0 < s1 -> 0 < s2 -> 0 <= i1 -> 0 <= i2 -> i1 + s1 <= G -> i2 + s2 <= G -> G < W ->
  indices_overlap1 i1 s1 i2 s2 = true <-> exists o, image p G i1 i2 o /\ o < s1 /\ 0 < o + s2.
Proof.
  intros Hs1 Hs2 H1 H2 E1 E2 HG. unfold indices_overlap1, add64. rewrite !u64_small by lia.
  rewrite andb_true_iff. unfold image. split.
  - intros Q. exists (i2 - i1). split; [|lia]. destruct p; [exists 0; lia|lia].
  - intros (o & I & Ho1 & Ho2). destruct p; [|lia]. destruct I as [a Ha].
    assert (a = 0 \/ 1 <= a \/ a <= -1) as [->|[Q|Q]] by lia; [lia|exfalso|exfalso].
    + assert (G <= a * G) by nia. lia.
    + assert (a * G <= - G) by nia. lia.
Qed.

Section Near.
Context (m : mapping) (Hwf : wf m) (t : topo) (a c : Z) (Va : valid m a) (Vc : valid m c).
Context (Hdis : disjoint m a c).
Notation L := (len_of m a).
Notation s := (len_of m c).
Notation b := (idx_of m a).

Lemma images o : (forall k, image (per t k) (glen m k) (get b k) (get (idx_of m c) k) (get o k)) <-> placed m t a c o.
Proof.
  unfold placed, lands, image. split.
  - intros Q. split; [apply cell_in_grid; assumption|]. intros k. rewrite get_vadd. apply Q.
  - intros [_ Q] k. specialize (Q k). rewrite get_vadd in Q. exact Q.
Qed.

Lemma apart o x : placed m t a c o -> (forall k, get b k <= get x k < get b k + L) ->
  ~ (forall k, get b k + get o k <= get x k < get b k + get o k + s).
Proof.
  intros P Xa Xc.
  pose proof (lands_self m t b (cell_in_grid m Hwf a Va)) as La.
  destruct (lands_in_box m Hwf t a b x Va La Xa) as (i & Li & Ci).
  destruct (lands_in_box m Hwf t c _ x Vc P) as (j & Lj & Cj).
  { intros k. rewrite get_vadd. apply Xc. }
  pose proof (lands_unique m t _ _ _ Li Lj) as ->. exact (Hdis j Ci Cj).
Qed.

Definition in_reach (D : Z) (o : idx) : Prop := forall k, get o k < L + D /\ - D < get o k + s.

Lemma range_k k : 0 < L /\ 0 < s /\ 0 <= get b k /\ 0 <= get (idx_of m c) k /\
  get b k + L <= glen m k /\ get (idx_of m c) k + s <= glen m k /\ glen m k < W.
Proof.
  pose proof (cell_len_pos m Hwf a Va). pose proof (cell_len_pos m Hwf c Vc).
  pose proof (proj1 (in_grid_k m _) (cell_in_grid m Hwf a Va) k). pose proof (proj1 (in_grid_k m _) (cell_in_grid m Hwf c Vc) k).
  pose proof (aligned_lt L _ _ ltac:(lia) (cell_aligned m Hwf a k Va) (cell_len_glen m Hwf a k Va) ltac:(lia)).
  pose proof (aligned_lt s _ _ ltac:(lia) (cell_aligned m Hwf c k Vc) (cell_len_glen m Hwf c k Vc) ltac:(lia)).
  pose proof (glen_lt_W m Hwf k). lia.
Qed.

Definition dist (k : dim) : Z := distance1 (per t k) (glen64 m k) (get b k) L (get (idx_of m c) k) s.

Lemma max_distance_spec D : 0 < D ->
  Z.max (Z.max (dist DX) (dist DY)) (dist DZ) < D <-> exists o, placed m t a c o /\ in_reach D o.
Proof.
  intros HD.
  assert (forall k, dist k < D <-> exists o, image (per t k) (glen m k) (get b k) (get (idx_of m c) k) o /\ o < L + D /\ - D < o + s) as K.
  { intros k. unfold dist. rewrite glen64_eq by assumption. pose proof (range_k k) as (?&?&?&?&?&?&?). apply distance1_spec; assumption. }
  split.
  - intros Hm. destruct (proj1 (K DX) ltac:(lia)) as (o0 & A0 & B0). destruct (proj1 (K DY) ltac:(lia)) as (o1 & A1 & B1).
    destruct (proj1 (K DZ) ltac:(lia)) as (o2 & A2 & B2). exists (Idx o0 o1 o2). split.
    + apply images. intros k. destruct k; assumption.
    + intros k. destruct k; assumption.
  - intros (o & P & R). pose proof (proj2 (images o) P) as I.
    assert (forall k, dist k < D) as Q.
    { intros k. apply K. exists (get o k). split; [apply I|apply R]. }
    pose proof (Q DX). pose proof (Q DY). pose proof (Q DZ). lia.
Qed.

Lemma sees_box n : 0 < n -> sees m t (default_hood_of n) a c <-> exists o, placed m t a c o /\ in_reach (n * L) o.
Proof.
  intros Hn. pose proof (range_k DX) as (PL & Ps & _). split.
  - intros (h & o & Hh & P & M). exists o. split; [assumption|]. intros k. specialize (M k).
    apply default_hood_in in Hh; [|lia]. unfold in_default in Hh. destruct (Z.eqb_spec n 0); [lia|]. destruct Hh as [_ Hh].
    specialize (Hh k).
    assert ((get h k + 1) * L <= (n + 1) * L) by (apply Z.mul_le_mono_nonneg_r; lia).
    assert ((- n) * L <= get h k * L) by (apply Z.mul_le_mono_nonneg_r; lia). lia.
  - intros (o & P & R).
    set (y := vmap (fun k => Z.max (get o k) (- n * L))).
    set (h := vmap (fun k => get y k / L)).
    assert (forall k, - n * L <= get y k < (n + 1) * L /\ get o k <= get y k < get o k + s) as Y.
    { intros k. unfold y. rewrite get_vmap. specialize (R k). nia. }
    assert (forall k, get h k * L <= get y k < (get h k + 1) * L) as Hy.
    { intros k. unfold h. rewrite get_vmap. pose proof (Z.mul_div_le (get y k) L PL). pose proof (Z.mul_succ_div_gt (get y k) L PL). lia. }
    exists h, o. split.
    + apply default_hood_in; [lia|]. unfold in_default. destruct (Z.eqb_spec n 0); [lia|]. split.
      * intros E. apply (apart o (vadd b y) P); intros k; rewrite get_vadd; specialize (Y k); specialize (Hy k).
        -- rewrite E, get_vzero in Hy. lia.
        -- lia.
      * intros k. specialize (Y k). specialize (Hy k). split.
        -- assert (- n < get h k + 1) by (apply (Z.mul_lt_mono_pos_r L); lia). lia.
        -- assert (get h k < n + 1) by (apply (Z.mul_lt_mono_pos_r L); lia). lia.
    + split; [assumption|]. intros k. specialize (Y k). specialize (Hy k). lia.
Qed.

Definition ov (k : dim) : bool := indices_overlap1 (get b k) L (get (idx_of m c) k) s.
Lemma ov_spec k : ov k = true <-> exists o, image (per t k) (glen m k) (get b k) (get (idx_of m c) k) o /\ o < L /\ 0 < o + s.
Proof. pose proof (range_k k) as (?&?&?&?&?&?&?). apply overlap1_spec; assumption. Qed.
Lemma overlapping_sum : overlapping_indices m a c = Z.b2z (ov DX) + Z.b2z (ov DY) + Z.b2z (ov DZ).
Proof. reflexivity. Qed.

Lemma sees_faces : sees m t (default_hood_of 0) a c <->
  2 <= overlapping_indices m a c /\ exists o, placed m t a c o /\ in_reach L o.
Proof.
  pose proof (range_k DX) as (PL & Ps & _). rewrite overlapping_sum. split.
  - intros (h & o & Hh & P & M). apply default_hood_in in Hh; [|lia]. destruct Hh as (k & e & He & ->).
    pose proof (proj2 (images o) P) as I.
    assert (forall j, j <> k -> ov j = true) as O.
    { intros j N. apply ov_spec. exists (get o j). split; [apply I|]. specialize (M j). rewrite get_upd_other, get_vzero in M by assumption. lia. }
    split.
    + destruct k; rewrite ?(O DX), ?(O DY), ?(O DZ) by discriminate; cbn [Z.b2z]; destruct (ov _); cbn [Z.b2z]; lia.
    + exists o. split; [assumption|]. intros j. specialize (M j). destruct (dim_eq_dec j k) as [->|N].
      * rewrite get_upd_same in M. destruct He as [-> | ->]; lia.
      * rewrite get_upd_other, get_vzero in M by assumption. lia.
  - intros (O & o & P & R). pose proof (proj2 (images o) P) as I.
    assert (exists k, forall j, j <> k -> ov j = true) as [k Ok].
    { destruct (ov DX) eqn:O0; [|exists DX; destruct (ov DY) eqn:O1, (ov DZ) eqn:O2; cbn [Z.b2z] in O; try lia; intros j N; destruct j; congruence].
      destruct (ov DY) eqn:O1; [|exists DY; destruct (ov DZ) eqn:O2; cbn [Z.b2z] in O; try lia; intros j N; destruct j; congruence].
      exists DZ. intros j N. destruct j; congruence. }
    assert (exists o', placed m t a c o' /\ in_reach L o' /\ forall j, j <> k -> get o' j < L /\ 0 < get o' j + s) as (o' & P' & R' & J').
    { assert (forall j, exists v, image (per t j) (glen m j) (get b j) (get (idx_of m c) j) v /\ (v < L + L /\ - L < v + s) /\ (j <> k -> v < L /\ 0 < v + s)) as K.
      { intros j. destruct (dim_eq_dec j k) as [->|N].
        - exists (get o k). split; [apply I|]. split; [apply R|]. congruence.
        - destruct (proj1 (ov_spec j) (Ok j N)) as (v & Q1 & Q2). exists v. split; [assumption|]. split; [lia|]. auto. }
      destruct (K DX) as (v0 & A0 & B0 & C0). destruct (K DY) as (v1 & A1 & B1 & C1). destruct (K DZ) as (v2 & A2 & B2 & C2).
      exists (Idx v0 v1 v2). split; [apply images; intros j; destruct j; assumption|]. split; [intros j; destruct j; assumption|].
      intros j; destruct j; assumption. }
    assert (get o' k < L -> 0 < get o' k + s -> False) as NK.
    { intros Q1 Q2. apply (apart o' (vmap (fun j => get b j + Z.max 0 (get o' j))) P'); intros j; rewrite get_vmap;
        (destruct (dim_eq_dec j k) as [->|N]; [lia|specialize (J' j N); lia]). }
    specialize (R' k) as Rk.
    exists (upd vzero k (if L <=? get o' k then 1 else -1)), o'. split.
    + apply default_hood_in; [lia|]. exists k. eexists. split; [|reflexivity]. destruct (L <=? get o' k); auto.
    + split; [assumption|]. intros j. destruct (dim_eq_dec j k) as [->|N].
      * rewrite get_upd_same. destruct (Z.leb_spec L (get o' k)); lia.
      * rewrite get_upd_other, get_vzero by assumption. specialize (J' j N). lia.
Qed.
End Near.

(** C49.  Neighborhood lengths are unsigned ints in the code. *)
Theorem c49_is_neighbor m t n a c : wf m -> valid m a -> valid m c -> disjoint m a c -> 0 <= n < 2 ^ 32 ->
  (is_neighbor n m t a c = true <-> sees m t (default_hood_of n) a c).
Proof.
  intros Hwf Va Vc Hd Hn. unfold is_neighbor. fold (idx_of m a) (idx_of m c) (len_of m a) (len_of m c).
  change (Z.max (Z.max (distance1 (per t DX) (glen64 m DX) (get (idx_of m a) DX) (len_of m a) (get (idx_of m c) DX) (len_of m c))
    (distance1 (per t DY) (glen64 m DY) (get (idx_of m a) DY) (len_of m a) (get (idx_of m c) DY) (len_of m c)))
    (distance1 (per t DZ) (glen64 m DZ) (get (idx_of m a) DZ) (len_of m a) (get (idx_of m c) DZ) (len_of m c)))
    with (Z.max (Z.max (dist m t a c DX) (dist m t a c DY)) (dist m t a c DZ)).
  pose proof (cell_len_pos m Hwf a Va) as PL.
  destruct (Z.eqb_spec n 0) as [->|N].
  - rewrite (sees_faces m Hwf t a c Va Vc Hd), andb_true_iff, Z.ltb_lt, Z.leb_le. rewrite (max_distance_spec m Hwf t a c Va Vc _ PL). tauto.
  - rewrite (sees_box m Hwf t a c Va Vc Hd n ltac:(lia)), Z.ltb_lt.
    assert (mul64 n (len_of m a) = n * len_of m a) as ->.
    { apply u64_small. rewrite (cell_len m Hwf) by assumption. pose proof (wf_max_le_21 m Hwf). pose proof (cell_level m Hwf a Va).
      assert (0 < 2 ^ (m_max m - lvl_of m a) <= 2 ^ 21) by (split; [apply Z.pow_pos_nonneg; lia|apply Z.pow_le_mono_r; lia]).
      rewrite W_val. change (2 ^ 32) with 4294967296 in Hn. change (2 ^ 21) with 2097152 in *. nia. }
    apply max_distance_spec; try assumption. nia.
Qed.
Print Assumptions c49_is_neighbor.

(** existing cells are disjoint, so the test decides membership in the neighbor lists *)
Theorem c49_is_neighbor_lists m t n ex a c : mesh m t n ex -> n < 2 ^ 32 -> ex a = true -> ex c = true -> a <> c ->
  exists l, find_neighbors_of ex m t a (default_hood_of n) = Done l /\
    (is_neighbor n m t a c = true <-> In c (map fst l)).
Proof.
  intros M Hn Ea Ec Hac. destruct (neighbors_of_in m t n ex a (default_hood_of n) M Ea (fun h Q => Q)) as (l & El & Pl).
  exists l. split; [assumption|]. pose proof M as (Hwf & Hn0 & Htile & _).
  rewrite c49_is_neighbor; [|assumption|apply Htile; assumption|apply Htile; assumption| |lia].
  - rewrite in_map_iff. split.
    + intros (h & o & Hh & Q). exists (c, o). split; [reflexivity|]. apply Pl. split; [assumption|]. exists h. auto.
    + intros ([x o] & E & Hi). cbn [fst] in E. subst x. apply Pl in Hi. destruct Hi as (_ & h & Hh & Q). exists h, o. auto.
  - intros i C1 C2. apply Hac. apply (leaf_unique m Hwf ex Htile a c i); assumption.
Qed.

(** a cell and its periodic neighbor at the other end of the grid; a cell that is too far *)
Example c49_example :
  let t := Topo true false false in
  valid demo_map 1 /\ valid demo_map 4 /\ disjoint demo_map 1 4 /\
  is_neighbor 1 demo_map t 1 4 = true /\ is_neighbor 1 demo_map t 1 3 = false /\
  is_neighbor 1 demo_map (Topo false false false) 1 4 = false.
Proof.
  split; [unfold valid; cbn; lia|]. split; [unfold valid; cbn; lia|].
  split; [|vm_compute; repeat split; reflexivity].
  intros i C1 C2. apply covers_k with (k := DX) in C1. apply covers_k with (k := DX) in C2.
  replace (get (idx_of demo_map 1) DX) with 0 in C1 by (vm_compute; reflexivity).
  replace (len_of demo_map 1) with 4 in C1 by (vm_compute; reflexivity).
  replace (get (idx_of demo_map 4) DX) with 12 in C2 by (vm_compute; reflexivity). lia.
Qed.
