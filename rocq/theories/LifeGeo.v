(** C81: cells of level 0 around a cell that may have been refined once. *)
From Verif Require Import U64 MapModel MapSpec MapProofs MapFamily MapProps HoodModel MeshModel
  MeshSpec MeshBase HoodProps MeshWalk MeshFind MeshKids MeshItem MeshCheck MeshTo MeshNear RefineGeo RefineNear LoadCells GameSpec.
From Coq Require Import Permutation.
Open Scope Z_scope.

(** ** The game without cells: squares next to a square, each once, also across joined ends *)
Section Rules.
Context (len : dim -> Z) (joined : dim -> bool).
Notation on_board := (on_board len joined).
Notation square := (square len joined).
Definition around_once (i : idx) : list idx :=
  nodup idx_dec (filter (fun j => if idx_dec j i then false else true) (map square (filter on_board (map (vadd i) (default_hood_of 1))))).
Definition turn (a : idx -> bool) (i : idx) : bool :=
  let k := Z.of_nat (length (filter a (around_once i))) in (k =? 3) || (k =? 2) && a i.
Fixpoint turns (n : nat) (a : idx -> bool) : idx -> bool := match n with O => a | S n => turn (turns n a) end.
Lemma around_once_in i j : In j (around_once i) <-> j <> i /\ exists h, (forall k, -1 <= get h k <= 1) /\ on_board (vadd i h) = true /\ j = square (vadd i h) /\ h <> vzero.
Proof.
  unfold around_once. rewrite nodup_In, filter_In, in_map_iff. split.
  - intros ((q & E & I) & N). destruct (idx_dec j i) as [|Nj]; [discriminate|]. split; [assumption|]. apply filter_In in I. destruct I as [I B]. apply in_map_iff in I. destruct I as (h & <- & I). apply default_hood_in in I; [|lia]. destruct I as [I1 I2]. exists h. auto.
  - intros (N & h & Hh & B & -> & Nz). destruct (idx_dec _ i) as [|_]; [contradiction|]. split; [|reflexivity]. exists (vadd i h). split; [reflexivity|]. apply filter_In. split; [|assumption]. apply in_map. apply default_hood_in; [lia|]. split; assumption.
Qed.
Lemma around_once_nodup i : NoDup (around_once i). Proof. apply NoDup_nodup. Qed.
End Rules.

Section Once.
Context (m : mapping) (Hwf : wf m) (t : topo) (ex : Z -> bool) (Htile : tiling m ex) (Hlvl : forall c, ex c = true -> lvl_of m c <= 1).
Notation d := (dims_of m).
Notation l0 := (get_level_0_parent m).
Notation S := (unit m).
Notation on_board := (on_board (mlen m) (per t)).
Notation square := (square (mlen m) (per t)).
Definition pos (c : Z) : idx := position_of m (l0 c).
Lemma S_pos : 0 < S. Proof. apply unit_pos. assumption. Qed.
Lemma pos_facts c : valid m c -> in_board m (pos c) /\ cell_at m (pos c) = l0 c /\ valid m (l0 c) /\ lvl_of m (l0 c) = 0 /\ idx_of m (l0 c) = scaled S (pos c) /\ len_of m (l0 c) = S /\ inside m c (l0 c).
Proof.
  intros V. destruct (l0_facts m Hwf c V) as (V0 & L0 & C0). destruct (level0 m Hwf (l0 c) V0 L0) as [B E]. fold (pos c) in B, E. destruct (cell_facts m Hwf (pos c) B) as (_ & _ & I & L). rewrite E in I, L.
  split; [assumption|]. split; [assumption|]. split; [assumption|]. split; [assumption|]. split; [assumption|]. split; [assumption|]. apply (nest m Hwf _ _ (idx_of m c)); [assumption|assumption| |assumption|apply covers_own; assumption]. pose proof (cell_level m Hwf c V). lia.
Qed.
(** any index in a cell tells its position *)
Lemma pos_index c i k : valid m c -> covers m c i -> get (pos c) k = get i k / S.
Proof.
  intros V C. destruct (pos_facts c V) as (_ & _ & _ & _ & I & L & N). apply (inside_covers m _ _ _ N) in C. pose proof (proj1 (covers_k m _ i) C k) as Q. rewrite I, L in Q. unfold scaled in Q. rewrite get_vmap in Q.
  apply (Z.div_unique_pos _ _ _ (get i k - get (pos c) k * S)); [lia|ring].
Qed.
Lemma pos_same a b : valid m a -> valid m b -> (pos a = pos b <-> l0 a = l0 b).
Proof.
  intros Va Vb. split; intros E; [|unfold pos; rewrite E; reflexivity]. destruct (pos_facts a Va) as (_ & <- & _). destruct (pos_facts b Vb) as (_ & <- & _). rewrite E. reflexivity.
Qed.
Lemma cell_box c k : valid m c -> get (pos c) k * S <= get (idx_of m c) k /\ get (idx_of m c) k + len_of m c <= get (pos c) k * S + S.
Proof.
  intros V. destruct (pos_facts c V) as (_ & _ & V0 & _ & I & L & N). pose proof (cell_len_pos m Hwf c V) as P.
  pose proof (inside_covers m _ _ _ N (covers_own m Hwf c V)) as C1.
  assert (covers m c (vmap (fun k => get (idx_of m c) k + len_of m c - 1))) as C2' by (apply covers_k; intros j; rewrite get_vmap; lia).
  pose proof (inside_covers m _ _ _ N C2') as C2. apply covers_k with (k := k) in C1. apply covers_k with (k := k) in C2. rewrite I, L in C1, C2. unfold scaled in C1, C2. rewrite !get_vmap in *. lia.
Qed.
(** where an unrolled position lands *)
Lemma lands_square x i : lands m t x i -> let q := vmap (fun k => get x k / S) in on_board q = true /\ square q = vmap (fun k => get i k / S).
Proof.
  intros [G L]. pose proof S_pos as P. pose proof (proj1 (in_grid_k m i) G) as B. cbv zeta.
  assert (forall k, 0 <= get i k / S < mlen m k) as B' by (intros k; specialize (B k); unfold glen in B; fold (unit m) in B; split; [apply Z.div_pos; lia|apply Z.div_lt_upper_bound; lia]).
  split.
  - apply on_board_iff. intros k. rewrite get_vmap. specialize (L k). destruct (per t k); [auto|right]. rewrite L. apply B'.
  - apply idx_ext. intros k. unfold GameSpec.square. rewrite !get_vmap. specialize (L k). specialize (B' k). destruct (per t k); [|rewrite L; reflexivity]. destruct L as (n & ->). unfold glen. fold (unit m). replace (n * (mlen m k * S)) with (n * mlen m k * S) by ring.
    rewrite Z.div_add by lia. rewrite Z.mod_add by lia. apply Z.mod_small. assumption.
Qed.
(** neighbors lie in cells of level 0 that are next to each other *)
Lemma nbr_near c h y o : valid m c -> valid m y -> (forall k, -1 <= get h k <= 1) -> nbr m t c h y o ->
  exists h', (forall k, -1 <= get h' k <= 1) /\ on_board (vadd (pos c) h') = true /\ square (vadd (pos c) h') = pos y.
Proof.
  intros Vc Vy Hh [Pl Me]. pose proof S_pos as P. pose proof (cell_len_pos m Hwf c Vc) as Lc. pose proof (cell_len_pos m Hwf y Vy) as Ly.
  set (x := vmap (fun k => get (idx_of m c) k + Z.max (get h k * len_of m c) (get o k))).
  destruct (lands_in_box m Hwf t y (vadd (idx_of m c) o) x Vy Pl) as (i & Li & Ci).
  { intros k. unfold x. rewrite get_vmap, get_vadd. specialize (Me k). nia. }
  destruct (lands_square x i Li) as [B E]. set (q := vmap (fun k => get x k / S)) in *. exists (vsub q (pos c)).
  assert (vadd (pos c) (vsub q (pos c)) = q) as -> by (apply idx_ext; intros k; rewrite get_vadd, get_vsub; ring). split; [|split; [assumption|]].
  - intros k. rewrite get_vsub. unfold q, x. rewrite !get_vmap. pose proof (cell_box c k Vc) as Q. specialize (Me k). specialize (Hh k).
    assert (get (pos c) k * S - S <= get (idx_of m c) k + Z.max (get h k * len_of m c) (get o k) < get (pos c) k * S + 2 * S) as [A1 A2] by nia.
    assert (get (pos c) k - 1 <= (get (idx_of m c) k + Z.max (get h k * len_of m c) (get o k)) / S) by (apply Z.div_le_lower_bound; lia).
    assert ((get (idx_of m c) k + Z.max (get h k * len_of m c) (get o k)) / S < get (pos c) k + 2) by (apply Z.div_lt_upper_bound; lia). lia.
  - rewrite E. apply idx_ext. intros k. rewrite get_vmap. symmetry. apply pos_index; assumption.
Qed.
(** at an offset that does not leave the cell of level 0 next to it there is a neighbor *)
Lemma nbr_found s h : ex s = true -> on_board (vadd (pos s) h) = true ->
  (forall k, (get (pos s) k + get h k) * S <= get (idx_of m s) k + get h k * len_of m s < (get (pos s) k + get h k) * S + S) ->
  exists y o, ex y = true /\ nbr m t s h y o /\ pos y = square (vadd (pos s) h).
Proof.
  intros Es B Hb. pose proof S_pos as P. pose proof (leaf_valid m ex Htile s Es) as Vs. pose proof (cell_len_pos m Hwf s Vs) as Ls.
  set (x := vmap (fun k => get (idx_of m s) k + get h k * len_of m s)). set (i := vmap (fun k => if per t k then get x k mod glen m k else get x k)).
  assert (forall k, get x k / S = get (pos s) k + get h k) as Dx by (intros k; unfold x; rewrite get_vmap; symmetry; apply (Z.div_unique_pos _ _ _ (get (idx_of m s) k + get h k * len_of m s - (get (pos s) k + get h k) * S)); [specialize (Hb k); lia|ring]).
  assert (in_grid d i) as Gi.
  { apply in_grid_k. intros k. unfold i. rewrite get_vmap. apply (proj1 (on_board_iff m t _)) with (k := k) in B. destruct (per t k); [apply Z.mod_pos_bound, glen_pos; assumption|]. destruct B as [B|B]; [discriminate|]. rewrite get_vadd in B. unfold x. rewrite get_vmap. specialize (Hb k). unfold glen. fold (unit m). nia. }
  assert (lands m t x i) as Li.
  { split; [assumption|]. intros k. unfold i. rewrite get_vmap. destruct (per t k); [|reflexivity]. exists (get x k / glen m k). pose proof (glen_pos m Hwf k). pose proof (Z.div_mod (get x k) (glen m k) ltac:(lia)). lia. }
  destruct (leaf_at m ex Htile i Gi) as (y & Ey & Cy). pose proof (leaf_valid m ex Htile y Ey) as Vy. pose proof (cell_len_pos m Hwf y Vy) as Ly.
  exists y, (vsub (vmap (fun k => rdown (len_of m y) (get x k))) (idx_of m s)). split; [assumption|]. split.
  - split.
    + unfold placed. assert (forall a b, vadd a (vsub b a) = b) as -> by (intros; apply idx_ext; intros k; rewrite get_vadd, get_vsub; ring). apply (lands_rdown m Hwf t x i y Vy Li Cy).
    + intros k. rewrite get_vsub, get_vmap. pose proof (rdown_le (len_of m y) (get x k) Ly) as Q. unfold x in *. rewrite get_vmap in *. lia.
  - destruct (lands_square x i Li) as [_ E]. apply idx_ext. intros k. rewrite (pos_index y i k Vy Cy). apply (f_equal (fun v => get v k)) in E. rewrite get_vmap in E. rewrite <- E.
    f_equal. f_equal. apply idx_ext. intros j. rewrite get_vmap, get_vadd. apply Dx.
Qed.
(** *** cells inside the same cell of level 0 *)
Lemma sizes c : ex c = true -> (lvl_of m c = 0 /\ len_of m c = S /\ l0 c = c) \/ (lvl_of m c = 1 /\ 2 * len_of m c = S).
Proof.
  intros E. pose proof (leaf_valid m ex Htile c E) as V. pose proof (cell_level m Hwf c V) as L. pose proof (Hlvl c E) as L1. rewrite (cell_len m Hwf c V). destruct (Z.eq_dec (lvl_of m c) 0) as [L0|N0].
  - left. split; [assumption|]. split; [rewrite L0, Z.sub_0_r; reflexivity|]. apply l0_self; assumption.
  - right. assert (lvl_of m c = 1) as -> by lia. split; [reflexivity|]. unfold unit. replace (m_max m) with (m_max m - 1 + 1) at 2 by lia. rewrite pow2_dbl by lia. reflexivity.
Qed.
Lemma halves c k : ex c = true -> lvl_of m c = 1 -> get (idx_of m c) k = get (pos c) k * S \/ get (idx_of m c) k = get (pos c) k * S + len_of m c.
Proof.
  intros E L. pose proof (leaf_valid m ex Htile c E) as V. destruct (sizes c E) as [(Q & _)|(_ & H2)]; [lia|]. destruct (cell_aligned m Hwf c k V) as (z & Ez). pose proof (cell_box c k V) as B. pose proof (cell_len_pos m Hwf c V) as P. rewrite <- H2 in *. rewrite Ez in *.
  assert (2 * get (pos c) k <= z <= 2 * get (pos c) k + 1) as Q by nia. assert (z = 2 * get (pos c) k \/ z = 2 * get (pos c) k + 1) as [-> | ->] by lia; [left|right]; ring.
Qed.
(** the cell at one of the corners of the cell of level 0 *)
Lemma sibling_at c (e : dim -> bool) : ex c = true -> lvl_of m c = 1 -> exists s, ex s = true /\ lvl_of m s = 1 /\ pos s = pos c /\ forall k, get (idx_of m s) k = get (pos c) k * S + (if e k then len_of m s else 0).
Proof.
  intros E L. pose proof (leaf_valid m ex Htile c E) as V. destruct (sizes c E) as [(Q & _)|(_ & H2)]; [lia|]. destruct (pos_facts c V) as (B & _ & V0 & L0 & I0 & Le0 & N0). pose proof (cell_len_pos m Hwf c V) as P.
  set (i := vmap (fun k => get (pos c) k * S + (if e k then len_of m c else 0))).
  assert (covers m (l0 c) i) as Ci by (apply covers_k; intros k; rewrite I0, Le0; unfold scaled, i; rewrite !get_vmap; destruct (e k); lia).
  destruct (leaf_at m ex Htile i (covers_in_grid m Hwf _ _ V0 Ci)) as (s & Es & Cs). pose proof (leaf_valid m ex Htile s Es) as Vs.
  assert (lvl_of m s = 1) as Ls.
  { destruct (sizes s Es) as [(Q & _ & _)|(Q & _)]; [|assumption]. exfalso. assert (s = l0 c) as -> by (apply (overlap_same m Hwf _ _ i); [assumption|assumption|assumption|assumption|congruence]).
    assert (l0 c = c) as F by (apply (leaf_unique m Hwf ex Htile _ _ (idx_of m c) Es E); [apply (inside_covers m _ _ _ N0); apply covers_own; assumption|apply covers_own; assumption]). rewrite F in L0. lia. }
  assert (len_of m s = len_of m c) as Len by (rewrite !(cell_len m Hwf) by assumption; congruence).
  assert (pos s = pos c) as Ps by (apply idx_ext; intros k; rewrite (pos_index s i k Vs Cs); symmetry; unfold i; rewrite get_vmap; apply (Z.div_unique_pos _ _ _ (if e k then len_of m c else 0)); [destruct (e k); lia|ring]).
  exists s. split; [assumption|]. split; [assumption|]. split; [assumption|]. intros k. pose proof (proj1 (covers_k m s i) Cs k) as Q. unfold i in Q. rewrite get_vmap in Q. rewrite Len. destruct (halves s k Es Ls) as [A|A]; rewrite Ps, ?Len in A; rewrite A in *; rewrite ?Len in *; destruct (e k); lia.
Qed.
Lemma siblings_meet a b : ex a = true -> ex b = true -> pos a = pos b -> a <> b -> exists h o, (forall k, -1 <= get h k <= 1) /\ h <> vzero /\ nbr m t a h b o.
Proof.
  intros Ea Eb Ep N. pose proof (leaf_valid m ex Htile a Ea) as Va. pose proof (leaf_valid m ex Htile b Eb) as Vb. pose proof (proj1 (pos_same a b Va Vb) Ep) as E0.
  destruct (pos_facts a Va) as (_ & _ & _ & _ & _ & _ & Na). destruct (pos_facts b Vb) as (_ & _ & _ & _ & _ & _ & Nb).
  destruct (sizes a Ea) as [(La & _ & Fa)|(La & Ha)].
  { exfalso. apply N. apply (leaf_unique m Hwf ex Htile _ _ (idx_of m b) Ea Eb); [rewrite <- Fa, E0; apply (inside_covers m _ _ _ Nb)|]; apply covers_own; assumption. }
  destruct (sizes b Eb) as [(Lb & _ & Fb)|(Lb & Hb)].
  { exfalso. apply N. apply (leaf_unique m Hwf ex Htile _ _ (idx_of m a) Ea Eb); [|rewrite <- Fb, <- E0; apply (inside_covers m _ _ _ Na)]; apply covers_own; assumption. }
  assert (len_of m b = len_of m a) as Len by (rewrite !(cell_len m Hwf) by assumption; congruence). pose proof (cell_len_pos m Hwf a Va) as P.
  set (o := vsub (idx_of m b) (idx_of m a)).
  assert (forall k, exists z, -1 <= z <= 1 /\ get o k = z * len_of m a) as Z3.
  { intros k. unfold o. rewrite get_vsub. pose proof (halves a k Ea La) as A. pose proof (halves b k Eb Lb) as B. rewrite <- Ep, Len in B. destruct A as [A|A], B as [B|B]; rewrite A, B; [exists 0|exists 1|exists (-1)|exists 0]; split; lia. }
  destruct (Z3 DX) as (zx & Bx & Ex). destruct (Z3 DY) as (zy & By & Ey). destruct (Z3 DZ) as (zz & Bz & Ez). exists (Idx zx zy zz), o.
  assert (forall k, get o k = get (Idx zx zy zz) k * len_of m a) as Eo by (intros k; destruct k; assumption). split; [intros k; destruct k; assumption|]. split.
  - intros Q. apply N. apply (cell_eq m Hwf); [assumption|assumption| |congruence]. apply idx_ext. intros k. specialize (Eo k). rewrite Q, get_vzero in Eo. unfold o in Eo. rewrite get_vsub in Eo. lia.
  - split; [|intros k; rewrite Eo, Len; lia]. unfold placed. replace (vadd (idx_of m a) o) with (idx_of m b); [apply lands_self; apply cell_in_grid; assumption|]. apply idx_ext. intros k. unfold o. rewrite get_vadd, get_vsub. ring.
Qed.
(** every cell of level 0 next to that of c has a cell that c or one of its siblings has as a neighbor *)
Lemma ring_seen c h : ex c = true -> (forall k, -1 <= get h k <= 1) -> on_board (vadd (pos c) h) = true ->
  exists s y o, ex s = true /\ pos s = pos c /\ ex y = true /\ nbr m t s h y o /\ pos y = square (vadd (pos c) h).
Proof.
  intros E Hh B. pose proof S_pos as P. destruct (sizes c E) as [(L & Len & F)|(L & H2)].
  - destruct (nbr_found c h E B) as (y & o & Ey & N & Ep); [|exists c, y, o; auto]. intros k. pose proof (leaf_valid m ex Htile c E) as V. destruct (pos_facts c V) as (_ & _ & _ & _ & I & _). rewrite F in I. rewrite I, Len. unfold scaled. rewrite get_vmap. lia.
  - destruct (sibling_at c (fun k => get h k =? 1) E L) as (s & Es & Ls & Ps & Is). rewrite <- Ps in B. destruct (nbr_found s h Es B) as (y & o & Ey & N & Ep); [|exists s, y, o; rewrite <- Ps; auto].
    intros k. destruct (sizes s Es) as [(Q & _)|(_ & Hs)]; [lia|]. rewrite Is, Ps. specialize (Hh k). assert (get h k = -1 \/ get h k = 0 \/ get h k = 1) as [-> | [-> | ->]] by lia; [change (-1 =? 1) with false|change (0 =? 1) with false|change (1 =? 1) with true]; cbv iota; nia.
Qed.
End Once.

(** there are at most eight squares around a square of a board that is one square thick *)
Lemma at_most_eight (m : mapping) (Hwf : wf m) t k i : mlen m k = 1 -> in_board m i -> (length (around_once (mlen m) (per t) i) <= 8)%nat.
Proof.
  intros Hk Hi. set (eight := filter (fun h => get h k =? 0) (default_hood_of 1)).
  assert (length eight = 8%nat) as <- by (unfold eight; destruct k; vm_compute; reflexivity).
  rewrite <- (map_length (fun h => square (mlen m) (per t) (vadd i h)) eight). apply NoDup_incl_length; [apply around_once_nodup|]. intros j I. apply around_once_in in I. destruct I as (N & h & Hh & B & -> & Nz).
  pose proof (Hi k) as Ik. rewrite Hk in Ik. assert (square (mlen m) (per t) (vadd i h) = square (mlen m) (per t) (vadd i (upd h k 0))) as E.
  { apply idx_ext. intros j. unfold square. rewrite !get_vmap, !get_vadd. destruct (dim_eq_dec j k) as [->|Nj]; [|rewrite get_upd_other by assumption; reflexivity]. rewrite get_upd_same, Hk. apply (proj1 (on_board_iff m t _)) with (k := k) in B. rewrite get_vadd, Hk in B.
    destruct (per t k); [rewrite !Z.mod_1_r; reflexivity|]. destruct B as [B|B]; [discriminate|]. lia. }
  rewrite E. apply (in_map (fun h => square (mlen m) (per t) (vadd i h))). unfold eight. apply filter_In. rewrite get_upd_same. split; [|reflexivity]. apply default_hood_in; [lia|]. split.
  - intros Q. apply N. rewrite E, Q. apply idx_ext. intros j. unfold square. rewrite get_vmap, get_vadd, get_vzero, Z.add_0_r. specialize (Hi j). destruct (per t j); [apply Z.mod_small; assumption|reflexivity].
  - intros j. destruct (dim_eq_dec j k) as [->|Nj]; [rewrite get_upd_same; lia|rewrite get_upd_other by assumption; apply Hh].
Qed.
