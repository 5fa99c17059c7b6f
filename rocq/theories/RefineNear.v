(** The search of override_unrefines (dccrg.hpp:10032-10086) visits every cell that would be in
    the neighborhood of the merged parent, or finds one that prevents merging. *)
From Verif Require Import U64 MapModel MapSpec MapProofs MapFamily MapProps HoodModel MeshModel
  MeshSpec MeshBase HoodProps MeshWalk MeshFind MeshKids MeshItem MeshCheck MeshTo MeshNear RefineGeo.
Open Scope Z_scope.

Section Near.
Context (m : mapping) (Hwf : wf m) (t : topo) (n : Z) (Hn : 0 <= n < 2 ^ 32).
Notation H := (default_hood_of n).
Context (ex : Z -> bool) (Htile : tiling m ex) (Hbal : balanced m t H ex).
Notation V := (leaf_valid m ex Htile).

Lemma nested a b i : valid m a -> valid m b -> covers m a i -> covers m b i -> lvl_of m b <= lvl_of m a -> inside m a b.
Proof.
  intros Va Vb Ca Cb Hl. split; [assumption|]. split; [assumption|]. intros k.
  pose proof (cell_len_pos m Hwf a Va) as Pa. pose proof (cell_len_pos m Hwf b Vb) as Pb.
  assert (len_of m a | len_of m b) as Dv.
  { rewrite !(cell_len m Hwf) by assumption. pose proof (cell_level m Hwf a Va). pose proof (cell_level m Hwf b Vb). apply pow2_divide. lia. }
  pose proof (proj1 (covers_k m a i) Ca k). pose proof (proj1 (covers_k m b i) Cb k).
  pose proof (proj1 (covers_rdown m Hwf a i Va) Ca k) as Ea. pose proof (proj1 (covers_rdown m Hwf b i Vb) Cb k) as Eb.
  pose proof (rdown_rdown (len_of m a) (len_of m b) (get i k) Pa Pb Dv) as E. rewrite Ea, Eb in E.
  pose proof (rdown_le (len_of m b) (get (idx_of m a) k) Pb). rewrite E in *.
  split; [lia|]. 
  assert (get (idx_of m a) k < get (idx_of m b) k + len_of m b) by lia.
  apply (aligned_lt (len_of m a)); [assumption|apply cell_aligned; assumption| |assumption].
  apply Z.divide_add_r; [|assumption]. apply Z.divide_trans with (len_of m b); [assumption|apply cell_aligned; assumption].
Qed.

Lemma inside_lvl a b : inside m a b -> lvl_of m b <= lvl_of m a.
Proof.
  intros (Va & Vb & I). specialize (I DX). assert (len_of m a <= len_of m b) as L by lia. rewrite !(cell_len m Hwf) in L by assumption.
  pose proof (cell_level m Hwf a Va). pose proof (cell_level m Hwf b Vb). apply pow2_le in L; lia.
Qed.
Lemma inside_own a b : inside m a b -> covers m b (idx_of m a).
Proof. intros I. apply (inside_covers m a); [assumption|]. apply covers_own; [assumption|apply I]. Qed.
Lemma inside_parent_eq a b : inside m a b -> lvl_of m a = lvl_of m b + 1 -> get_parent m a = b.
Proof.
  intros I E. pose proof I as (Va & Vb & _). pose proof (cell_level m Hwf b Vb).
  apply (kid_parent_eq m Hwf a (idx_of m a)); auto; [lia|apply covers_own; assumption|apply inside_own; assumption].
Qed.

(** cells inside of another are near it whatever the neighborhood *)
Lemma is_neighbor_inside P x : inside m x P -> is_neighbor n m t P x = true.
Proof.
  intros (Vx & VP & I). pose proof (cell_len_pos m Hwf P VP) as PP. pose proof (cell_len_pos m Hwf x Vx) as Px.
  set (o := vsub (idx_of m x) (idx_of m P)).
  assert (placed m t P x o) as Po.
  { split; [apply cell_in_grid; assumption|]. intros k. unfold o. rewrite get_vadd, get_vsub. destruct (per t k); [exists 0; lia|lia]. }
  assert (forall D, 0 < D -> Z.max (Z.max (dist m t P x DX) (dist m t P x DY)) (dist m t P x DZ) < D) as MD.
  { intros D HD. apply (max_distance_spec m Hwf t P x VP Vx D HD). exists o. split; [assumption|]. intros k. unfold o. rewrite get_vsub. specialize (I k). lia. }
  unfold is_neighbor. fold (idx_of m P) (idx_of m x) (len_of m P) (len_of m x).
  change (Z.max (Z.max (distance1 (per t DX) (glen64 m DX) (get (idx_of m P) DX) (len_of m P) (get (idx_of m x) DX) (len_of m x))
    (distance1 (per t DY) (glen64 m DY) (get (idx_of m P) DY) (len_of m P) (get (idx_of m x) DY) (len_of m x)))
    (distance1 (per t DZ) (glen64 m DZ) (get (idx_of m P) DZ) (len_of m P) (get (idx_of m x) DZ) (len_of m x)))
    with (Z.max (Z.max (dist m t P x DX) (dist m t P x DY)) (dist m t P x DZ)).
  destruct (Z.eqb_spec n 0) as [E0|N0].
  - apply andb_true_iff. split; [apply Z.ltb_lt, MD; assumption|]. rewrite overlapping_sum.
    assert (forall k, ov m P x k = true) as O.
    { intros k. apply (ov_spec m Hwf t P x VP Vx k). exists (get o k). split; [apply (images m Hwf t P x Vx o); assumption|]. unfold o. rewrite get_vsub. specialize (I k). lia. }
    rewrite !O. reflexivity.
  - apply Z.ltb_lt. apply MD. unfold mul64. pose proof (wf_max_le_21 m Hwf). pose proof (cell_level m Hwf P VP).
    rewrite u64_small; [apply Z.mul_pos_pos; lia|]. rewrite W_val. rewrite (cell_len m Hwf) by assumption.
    assert (2 ^ (m_max m - lvl_of m P) <= 2 ^ 21) by (apply Z.pow_le_mono_r; lia).
    assert (0 < 2 ^ (m_max m - lvl_of m P)) by (apply Z.pow_pos_nonneg; lia).
    split; [apply Z.mul_nonneg_nonneg; lia|]. apply Z.le_lt_trans with ((2 ^ 32 - 1) * 2 ^ 21); [apply Z.mul_le_mono_nonneg; lia|reflexivity].
Qed.

(** ** One family *)
Context (c : Z) (Ec : ex c = true) (Hc : 0 < lvl_of m c).
Notation P := (get_parent m c).
Notation l := (lvl_of m c).
Notation S := (len_of m c).
Context (Hsib : forall x, valid m x -> 0 < lvl_of m x -> get_parent m x = P -> ex x = true).
Context (R : Z -> Prop).

Lemma P_facts : valid m P /\ lvl_of m P = l - 1 /\ len_of m P = 2 * S /\ 0 < S /\ lvl_of m P < m_max m.
Proof.
  pose proof (V c Ec) as Vc. pose proof (parent_facts m Hwf c Vc Hc) as (Vp & Lp & Sp & _). cbn zeta in *.
  pose proof (cell_len_pos m Hwf c Vc). pose proof (cell_level m Hwf c Vc). repeat match goal with |- _ /\ _ => split end; auto; lia.
Qed.

Definition face_list (x : Z) : list Z := map (fun d => face_neighbor ex m t x (fst (fst d)) (snd (fst d))) dirs.
Definition nbP (x : Z) : Prop := is_neighbor n m t P x = true.

(** what the search visits *)
Inductive visited : Z -> Prop :=
| vis_start x : In x (face_list c) -> x <> error_cell -> visited x
| vis_next x y : visited x -> In y (face_list x) -> y <> error_cell -> nbP y -> visited y.

Definition bad (x : Z) : Prop := l < lvl_of m x \/ (lvl_of m x = l /\ R x).

Lemma face_in x k pos : In (face_neighbor ex m t x k pos) (face_list x).
Proof. unfold face_list, dirs. destruct k, pos; cbn [map fst snd In]; tauto. Qed.

(** leaves meeting P are its children *)
Lemma meets_P x i : ex x = true -> covers m x i -> covers m P i -> inside m x P /\ lvl_of m x = l.
Proof.
  intros Ex Cx CP. destruct P_facts as (VP & LP & SP & PS & HP).
  destruct (kid_exists m Hwf P i VP HP CP) as (p & Vp & Lp & Cp & Ep).
  pose proof (cell_level m Hwf P VP). pose proof (Hsib p Vp ltac:(lia) Ep) as Exp.
  rewrite (leaf_unique m Hwf ex Htile x p i Ex Exp Cx Cp). split; [|lia]. apply (nested p P i); auto. lia.
Qed.
Lemma leaf_P x : ex x = true -> inside m x P \/ disjoint m P x.
Proof.
  intros Ex. destruct P_facts as (VP & LP & _). pose proof (V x Ex) as Vx.
  assert (covers m P (idx_of m x) \/ ~ covers m P (idx_of m x)) as [Q|Q].
  { destruct (Z_le_gt_dec (ix (idx_of m P)) (ix (idx_of m x))), (Z_lt_le_dec (ix (idx_of m x)) (ix (idx_of m P) + len_of m P)),
      (Z_le_gt_dec (iy (idx_of m P)) (iy (idx_of m x))), (Z_lt_le_dec (iy (idx_of m x)) (iy (idx_of m P) + len_of m P)),
      (Z_le_gt_dec (iz (idx_of m P)) (iz (idx_of m x))), (Z_lt_le_dec (iz (idx_of m x)) (iz (idx_of m P) + len_of m P));
    first [left; apply covers_k; intros []; cbn [get]; lia
          |right; intros Q; pose proof (proj1 (covers_k m P _) Q DX); pose proof (proj1 (covers_k m P _) Q DY); pose proof (proj1 (covers_k m P _) Q DZ); cbn [get] in *; lia]. }
  - left. apply (meets_P x (idx_of m x) Ex (covers_own m Hwf x Vx) Q).
  - right. intros i CP Cx. destruct (meets_P x i Ex Cx CP) as [I _]. apply Q. apply inside_own. assumption.
Qed.

Lemma nbP_iff x : ex x = true -> nbP x <-> inside m x P \/ sees m t H P x.
Proof.
  intros Ex. destruct P_facts as (VP & _). unfold nbP. destruct (leaf_P x Ex) as [I|Hd].
  - split; [auto|]. intros _. apply is_neighbor_inside. assumption.
  - rewrite (c49_is_neighbor m t n P x Hwf VP (V x Ex) Hd Hn). split; [auto|]. intros [I|Q]; [|assumption].
    exfalso. apply (Hd (idx_of m x)); [apply inside_own; assumption|apply covers_own; [assumption|apply V; assumption]].
Qed.

(** ** What is visited is inside of or seen by the parent *)
Lemma face_leaf x k pos : ex x = true -> face_neighbor ex m t x k pos <> error_cell ->
  let y := face_neighbor ex m t x k pos in ex y = true /\ sees m t H x y.
Proof.
  intros Ex N y. pose proof (V x Ex) as Vx. pose proof (lands_self m t _ (cell_in_grid m Hwf x Vx)) as L0.
  set (f := front (idx_of m x) (len_of m x) k pos).
  assert (reachable m t f \/ ~ reachable m t f) as [Rf|Rf].
  { unfold reachable. assert (forall j, (per t j = true \/ 0 <= get f j < glen m j) \/ ~ (per t j = true \/ 0 <= get f j < glen m j)) as Dj.
    { intros j. destruct (per t j); [auto|]. destruct (Z_le_gt_dec 0 (get f j)), (Z_lt_le_dec (get f j) (glen m j)); [left; auto|right; intros [?|?]; [discriminate|lia]..]. }
    destruct (Dj DX), (Dj DY), (Dj DZ); [left; intros []; assumption|right; intros Q; auto..]. }
  - destruct (lands_exists m Hwf t f Rf) as (i & Li). destruct (leaf_at m ex Htile i (proj1 Li)) as (z & Ez & Cz).
    destruct (face_neighbor_in m Hwf t ex Htile H Hbal (default_faces n (proj1 Hn)) x k pos (idx_of m x) i z Ex L0 Li Ez Cz) as [E _].
    unfold y. rewrite E. split; [assumption|].
    exists (upd vzero k (if pos then 1 else -1)). pose proof (V z Ez) as Vz.
    pose proof (lands_rdown m Hwf t f i z Vz Li Cz) as Lb. exists (vsub (vmap (fun k => rdown (len_of m z) (get f k))) (idx_of m x)).
    split; [apply default_faces; [lia|destruct pos; auto]|]. split; [apply lands_shift; assumption|].
    pose proof (cell_len_pos m Hwf x Vx) as PL. pose proof (cell_len_pos m Hwf z Vz) as Pz.
    intros j. rewrite get_vsub, get_vmap. pose proof (rdown_le (len_of m z) (get f j) Pz) as Q. unfold f, front in *.
    destruct (dim_eq_dec j k) as [->|Nj]; [rewrite !get_upd_same in *; destruct pos; lia|rewrite !get_upd_other in * by assumption; rewrite get_vzero; lia].
  - exfalso. apply N. apply (face_neighbor_out m Hwf t ex Htile x k pos (idx_of m x)); assumption.
Qed.
Lemma face_list_leaf x y : ex x = true -> In y (face_list x) -> y <> error_cell -> ex y = true /\ sees m t H x y.
Proof.
  intros Ex Hy N. unfold face_list in Hy. apply in_map_iff in Hy. destruct Hy as (d & <- & _). apply face_leaf; assumption.
Qed.

Lemma c_inside : inside m c P.
Proof. apply inside_parent; [assumption|apply V; assumption|assumption]. Qed.

Lemma visited_near x : visited x -> ex x = true /\ (inside m x P \/ sees m t H P x).
Proof.
  induction 1 as [x Hx N|x y _ (Ex & _) Hy N Q].
  - destruct (face_list_leaf c x Ec Hx N) as [Ex Sx]. split; [assumption|]. destruct (leaf_P x Ex) as [I|Hd]; [auto|right].
    apply (sees_up m Hwf t n (proj1 Hn) c P x x); auto using c_inside, inside_refl, V.
  - destruct (face_list_leaf x y Ex Hy N) as [Ey Sy]. split; [assumption|]. apply nbP_iff; assumption.
Qed.

(** ** Blocks: the cells of the size of P around P, existing or not *)
Definition blk (b : idx) (Q : Z) : Prop :=
  valid m Q /\ lvl_of m Q = lvl_of m P /\ placed m t P Q (scaled b (2 * S)).
Definition small (Q : Z) : Prop := exists x, ex x = true /\ inside m x Q.
Definition visit (Q : Z) : Prop := small Q /\ forall x, ex x = true -> inside m x Q -> visited x.
Definition in_hood (b : idx) : Prop := b = vzero \/ In b H.

Lemma blk_len b Q : blk b Q -> len_of m Q = 2 * S.
Proof.
  intros (VQ & LQ & _). destruct P_facts as (VP & _ & SP & _). rewrite <- SP. rewrite !(cell_len m Hwf) by assumption. rewrite LQ. reflexivity.
Qed.
Lemma blk_unique b Q Q' : blk b Q -> blk b Q' -> Q = Q'.
Proof.
  intros (VQ & LQ & PQ) (VQ' & LQ' & PQ'). apply (cell_eq m Hwf); [assumption|assumption| |congruence].
  apply (lands_unique m t _ _ _ PQ PQ').
Qed.
Lemma blk_exists b : reachable m t (vadd (idx_of m P) (scaled b (2 * S))) -> exists Q, blk b Q.
Proof.
  intros Rb. destruct (lands_exists m Hwf t _ Rb) as (i & Li). destruct P_facts as (VP & LP & SP & PS & HP). pose proof (cell_level m Hwf P VP) as LL.
  pose proof (cell_at m Hwf i (lvl_of m P) (proj1 Li) LL) as (VQ & LQ & CQ & IQ). cbn zeta in *. set (Q := get_cell_from_indices m i (lvl_of m P)) in *.
  exists Q. split; [assumption|]. split; [assumption|]. pose proof (lands_rdown m Hwf t _ _ Q VQ Li CQ) as L.
  unfold placed. replace (vadd (idx_of m P) (scaled b (2 * S))) with (vmap (fun k => rdown (len_of m Q) (get (vadd (idx_of m P) (scaled b (2 * S))) k))); [assumption|].
  apply idx_ext. intros k. rewrite get_vmap. 
  assert (len_of m Q = 2 * S) as EQ by (rewrite <- SP; rewrite !(cell_len m Hwf) by assumption; rewrite LQ; reflexivity).
  rewrite EQ. apply rdown_self; [lia|]. unfold scaled. rewrite get_vadd, get_vmap.
  apply Z.divide_add_r; [rewrite <- SP; apply cell_aligned; assumption|]. exists (get b k). reflexivity.
Qed.
Lemma blk_reachable b Q : blk b Q -> reachable m t (vadd (idx_of m P) (scaled b (2 * S))).
Proof. intros (_ & _ & PQ). apply (lands_reachable m t _ _ PQ). Qed.
Lemma blk_zero : blk vzero P.
Proof.
  destruct P_facts as (VP & _). split; [assumption|]. split; [reflexivity|]. unfold placed.
  replace (vadd (idx_of m P) (scaled vzero (2 * S))) with (idx_of m P); [apply lands_self, cell_in_grid; assumption|].
  apply idx_ext. intros k. unfold scaled. rewrite get_vadd, get_vmap, get_vzero. lia.
Qed.

Lemma leaf_in_small Q x i : valid m Q -> small Q -> ex x = true -> covers m x i -> covers m Q i -> inside m x Q.
Proof.
  intros VQ (y & Ey & Iy) Ex Cx CQ. destruct (Z_le_gt_dec (lvl_of m Q) (lvl_of m x)) as [L|L]; [apply (nested x Q i); auto using V|].
  exfalso. assert (inside m Q x) as I by (apply (nested Q x i); auto using V; lia).
  assert (x = y) as ->.
  { apply (leaf_unique m Hwf ex Htile x y (idx_of m y)); [assumption|assumption| |apply covers_own; [assumption|apply V; assumption]].
    apply (inside_covers m Q x); [assumption|]. apply inside_own. assumption. }
  pose proof (inside_lvl y Q Iy). lia.
Qed.
Lemma small_or Q : valid m Q -> small Q \/ exists x, ex x = true /\ inside m Q x /\ lvl_of m x < lvl_of m Q.
Proof.
  intros VQ. destruct (leaf_at m ex Htile (idx_of m Q) (cell_in_grid m Hwf Q VQ)) as (x & Ex & Cx).
  pose proof (covers_own m Hwf Q VQ) as CQ. destruct (Z_le_gt_dec (lvl_of m Q) (lvl_of m x)).
  - left. exists x. split; [assumption|]. apply (nested x Q (idx_of m Q)); auto using V.
  - right. exists x. split; [assumption|]. split; [|lia]. apply (nested Q x (idx_of m Q)); auto using V. lia.
Qed.

(** leaves inside of a block of the neighborhood are near P *)
Lemma blk_nbP b Q x : in_hood b -> blk b Q -> ex x = true -> inside m x Q -> nbP x.
Proof.
  intros Hb (VQ & LQ & PQ) Ex Ix. apply nbP_iff; [assumption|]. destruct Hb as [->|Hb].
  - left. rewrite (blk_unique vzero P Q blk_zero) by (split; auto). assumption.
  - right. destruct P_facts as (VP & LP & SP & _). destruct (proj2 (nbr_region_cell m Hwf t P b x (V x Ex) VP)) as (o & N).
    + exists Q. split; [assumption|]. split; [assumption|]. split; [rewrite SP; exact PQ|]. exists (idx_of m x). split; [apply inside_own; assumption|].
      apply covers_own; [assumption|apply V; assumption].
    + exists b, o. auto.
Qed.
Lemma sees_blk x : ex x = true -> sees m t H P x -> exists b Q i, In b H /\ blk b Q /\ covers m Q i /\ covers m x i.
Proof.
  intros Ex (b & o & Hb & N). destruct P_facts as (VP & LP & SP & _). destruct (proj1 (nbr_region_cell m Hwf t P b x (V x Ex) VP)) as (Q & VQ & LQ & L & i & C1 & C2); [eauto|].
  exists b, Q, i. split; [assumption|]. split; [|auto]. split; [assumption|]. split; [assumption|]. rewrite <- SP. exact L.
Qed.

Section NoBad.
Context (Good : forall x, visited x -> ~ bad x).

Lemma visited_lvl x : visited x -> lvl_of m x <= l.
Proof. intros Vx. destruct (Z_le_gt_dec (lvl_of m x) l); [assumption|]. exfalso. apply (Good x Vx). left. lia. Qed.

Lemma visit_spread b Q x0 : in_hood b -> blk b Q -> ex x0 = true -> inside m x0 Q -> visited x0 -> visit Q.
Proof.
  intros Hb HQ Ex0 Ix0 V0. pose proof HQ as (VQ & LQ & PQ). pose proof (blk_len b Q HQ) as SQ. destruct P_facts as (VP & LP & SP & PS & HP).
  assert (small Q) as SmQ by (exists x0; auto). split; [assumption|].
  pose proof (inside_lvl x0 Q Ix0) as Lx0. pose proof (visited_lvl x0 V0) as Lx0'.
  pose proof (covers_own m Hwf x0 (V x0 Ex0)) as C0.
  destruct (Z.eq_dec (lvl_of m x0) (lvl_of m Q)) as [E|NE].
  - assert (x0 = Q) as <-. { apply (overlap_same m Hwf x0 Q (idx_of m x0)); auto using V. apply inside_own. assumption. }
    intros x Ex Ix. assert (x = x0) as ->; [|assumption].
    apply (leaf_unique m Hwf ex Htile x x0 (idx_of m x)); auto; [apply covers_own; auto using V|apply inside_own; assumption].
  - assert (lvl_of m x0 = lvl_of m Q + 1) as E by lia. assert (lvl_of m Q < m_max m) as HQm by lia.
    assert (2 ^ (m_max m - (lvl_of m Q + 1)) = S) as Es. { rewrite (cell_len m Hwf c (V c Ec)). f_equal. lia. }
    pose proof (fun e => kid_facts m Hwf Q e VQ HQm) as KF. cbn zeta in KF. rewrite Es in KF.
    set (okk := fun e => ex (kid_at m Q e) = true /\ visited (kid_at m Q e)).
    assert (forall e k a, In e (corners S) -> okk e -> a = 0 \/ a = S -> okk (upd e k a)) as Flip.
    { intros e k a He [Exe Vise] Ha. pose proof (proj1 (corners_in S e) He) as Ce.
      destruct (Z.eq_dec a (get e k)) as [->|Na]; [replace (upd e k (get e k)) with e; [split; assumption|]; apply idx_ext; intros j; destruct (dim_eq_dec j k) as [->|Nj]; [rewrite get_upd_same; reflexivity|rewrite get_upd_other by assumption; reflexivity]|].
      assert (In (upd e k a) (corners S)) as He'.
      { apply corners_in. intros j. destruct (dim_eq_dec j k) as [->|Nj]; [rewrite get_upd_same; assumption|rewrite get_upd_other by assumption; apply Ce]. }
      destruct (KF e He) as (Ve & Le & Se & Ie). destruct (KF (upd e k a) He') as (Ve' & Le' & Se' & Ie').
      set (pos := if get e k =? 0 then true else false).
      set (f := front (idx_of m (kid_at m Q e)) (len_of m (kid_at m Q e)) k pos).
      assert (covers m (kid_at m Q (upd e k a)) f) as Cf.
      { apply covers_k. intros j. rewrite Ie', Se', get_vadd. unfold f, front. rewrite Se. destruct (dim_eq_dec j k) as [->|Nj].
        - rewrite !get_upd_same, Ie, get_vadd. destruct (Ce k) as [Q0|Q0], Ha as [->| ->]; unfold pos; destruct (Z.eqb_spec (get e k) 0); lia.
        - rewrite !get_upd_other by assumption. rewrite Ie, get_vadd. lia. }
      pose proof (kid_covers m Hwf Q (upd e k a) f VQ HQm) as CQf. rewrite Es in CQf. specialize (CQf He' Cf).
      pose proof (covers_in_grid m Hwf Q f VQ CQf) as Gf. destruct (leaf_at m ex Htile f Gf) as (y & Ey & Cy).
      destruct (face_neighbor_in m Hwf t ex Htile H Hbal (default_faces n (proj1 Hn)) (kid_at m Q e) k pos _ f y Exe
        (lands_self m t _ (cell_in_grid m Hwf _ Ve)) (lands_self m t _ Gf) Ey Cy) as [Ef _].
      pose proof (leaf_in_small Q y f VQ SmQ Ey Cy CQf) as Iy.
      assert (visited y) as Vy.
      { apply vis_next with (kid_at m Q e); [assumption|rewrite <- Ef; apply face_in| |apply (blk_nbP b Q); assumption].
        pose proof (V y Ey) as Vv. unfold valid in Vv. unfold error_cell. lia. }
      pose proof (visited_lvl y Vy) as Ly. pose proof (inside_lvl y Q Iy) as Ly'.
      assert (lvl_of m y <> lvl_of m Q) as Ny.
      { intros Q0. assert (y = Q) as -> by (apply (overlap_same m Hwf y Q f); auto using V).
        apply NE. f_equal. apply (leaf_unique m Hwf ex Htile x0 Q (idx_of m x0)); auto. apply inside_own. assumption. }
      assert (y = kid_at m Q (upd e k a)) as Ek by (apply (overlap_same m Hwf y _ f); auto using V; lia).
      unfold okk. rewrite <- Ek. split; assumption. }
    pose proof (inside_parent_eq x0 Q Ix0 E) as EpQ.
    assert (0 < lvl_of m x0) as Hl0 by (pose proof (cell_level m Hwf Q VQ); lia).
    pose proof (in_parent m Hwf x0 (V x0 Ex0) Hl0) as [He0 Ek0]. cbn zeta in *. rewrite EpQ in *.
    assert (len_of m x0 = S) as Sx0. { rewrite !(cell_len m Hwf) by auto using V. f_equal. lia. }
    rewrite Sx0 in He0. set (e0 := vsub (idx_of m x0) (idx_of m Q)) in *.
    assert (okk e0) as K0 by (unfold okk; rewrite Ek0; auto).
    assert (forall e, In e (corners S) -> okk e) as All.
    { intros e He. pose proof (proj1 (corners_in S e) He) as Ce. pose proof (proj1 (corners_in S e0) He0) as Ce0.
      assert (forall e k a, In e (corners S) -> a = 0 \/ a = S -> In (upd e k a) (corners S)) as Cu.
      { intros e' k a He' Ha. apply corners_in. intros j. destruct (dim_eq_dec j k) as [->|Nj]; [rewrite get_upd_same; assumption|rewrite get_upd_other by assumption; apply (proj1 (corners_in S e') He')]. }
      replace e with (upd (upd (upd e0 DX (get e DX)) DY (get e DY)) DZ (get e DZ)).
      - apply Flip; [apply Cu; [apply Cu; [assumption|apply Ce]|apply Ce]| |apply Ce].
        apply Flip; [apply Cu; [assumption|apply Ce]| |apply Ce]. apply Flip; [assumption|assumption|apply Ce].
      - destruct e, e0. reflexivity. }
    intros x Ex Ix. pose proof (V x Ex) as Vx. pose proof (inside_own x Q Ix) as Cx.
    destruct (kid_covering m Hwf Q (idx_of m x) VQ HQm Cx) as (e & He & Ck). rewrite Es in He. destruct (All e He) as [Exe Vise].
    rewrite (leaf_unique m Hwf ex Htile x (kid_at m Q e) (idx_of m x)); auto. apply covers_own; assumption.
Qed.

(** entering the next block *)
Lemma visit_step b b' Q Q' k (pos : bool) : in_hood b -> in_hood b' -> blk b Q -> blk b' Q' -> b' = upd b k (get b k + (if pos then 1 else -1)) ->
  visit Q -> small Q' -> visit Q'.
Proof.
  intros Hb Hb' HQ HQ' Eb (SmQ & VisQ) SmQ'. pose proof HQ as (VQ & LQ & PQ). pose proof HQ' as (VQ' & LQ' & PQ').
  pose proof (blk_len b Q HQ) as SQ. pose proof (blk_len b' Q' HQ') as SQ'. destruct P_facts as (VP & LP & SP & PS & HP).
  set (i0 := if pos then upd (idx_of m Q) k (get (idx_of m Q) k + (2 * S - 1)) else idx_of m Q).
  assert (covers m Q i0) as C0.
  { apply covers_k. intros j. rewrite SQ. unfold i0. destruct pos; [|lia]. destruct (dim_eq_dec j k) as [->|Nj]; [rewrite get_upd_same; lia|rewrite get_upd_other by assumption; lia]. }
  destruct (leaf_at m ex Htile i0 (covers_in_grid m Hwf Q i0 VQ C0)) as (x & Ex & Cx).
  pose proof (leaf_in_small Q x i0 VQ SmQ Ex Cx C0) as Ix. pose proof (V x Ex) as Vx. pose proof (VisQ x Ex Ix) as Vis.
  set (f := front (idx_of m x) (len_of m x) k pos).
  pose proof (placed_flip m Hwf t P Q _ VP VQ PQ) as PQf.
  assert (placed m t Q Q' (upd vzero k (if pos then 2 * S else - (2 * S)))) as PQQ.
  { destruct PQ as [_ A]. destruct PQ' as [G A']. split; [assumption|]. intros j. specialize (A j). specialize (A' j).
    rewrite Eb in A'. unfold scaled in *. rewrite !get_vadd, !get_vmap in *. destruct (dim_eq_dec j k) as [->|Nj].
    - rewrite get_upd_same in *. destruct (per t k); [destruct A as [u A], A' as [v A']; exists (v - u); destruct pos; lia|destruct pos; lia].
    - rewrite get_upd_other in * by assumption. rewrite get_vzero. destruct (per t j); [destruct A as [u A], A' as [v A']; exists (v - u); lia|lia]. }
  destruct (lands_in_box m Hwf t Q' _ f VQ' PQQ) as (i & Li & Ci).
  { intros j. rewrite get_vadd, SQ'. unfold f, front. pose proof (proj1 (covers_k m x i0) Cx j) as Cj. destruct Ix as (_ & _ & Ix). specialize (Ix j). rewrite SQ in Ix.
    unfold i0 in Cj. pose proof (cell_len_pos m Hwf x Vx).
    destruct (dim_eq_dec j k) as [->|Nj].
    - rewrite !get_upd_same. destruct pos; [rewrite get_upd_same in Cj; lia|lia].
    - rewrite !get_upd_other, get_vzero by assumption. destruct pos; [rewrite get_upd_other in Cj by assumption; lia|lia]. }
  destruct (leaf_at m ex Htile i (proj1 Li)) as (y & Ey & Cy).
  destruct (face_neighbor_in m Hwf t ex Htile H Hbal (default_faces n (proj1 Hn)) x k pos _ i y Ex
        (lands_self m t _ (cell_in_grid m Hwf _ Vx)) Li Ey Cy) as [Ef _].
  pose proof (leaf_in_small Q' y i VQ' SmQ' Ey Cy Ci) as Iy.
  apply (visit_spread b' Q' y); auto. apply vis_next with x; [assumption|rewrite <- Ef; apply face_in| |apply (blk_nbP b' Q'); assumption].
  pose proof (V y Ey) as Vv. unfold valid in Vv. unfold error_cell. lia.
Qed.

(** the start *)
Lemma visit_P : visit P.
Proof.
  destruct P_facts as (VP & LP & SP & PS & HP). pose proof (V c Ec) as Vc.
  pose proof (in_parent m Hwf c Vc Hc) as [He Ek]. cbn zeta in *. set (e := vsub (idx_of m c) (idx_of m P)) in *.
  pose proof (proj1 (corners_in S e) He DX) as CX.
  assert (2 ^ (m_max m - (lvl_of m P + 1)) = S) as Es. { rewrite (cell_len m Hwf c Vc). f_equal. lia. }
  set (a := if get e DX =? 0 then S else 0). set (pos := if get e DX =? 0 then true else false).
  assert (In (upd e DX a) (corners S)) as He'.
  { apply corners_in. intros j. destruct (dim_eq_dec j DX) as [->|Nj]; [rewrite get_upd_same; unfold a; destruct (_ =? _); auto|rewrite get_upd_other by assumption; apply (proj1 (corners_in S e) He)]. }
  pose proof (fun e => kid_facts m Hwf P e VP HP) as KF. cbn zeta in KF. rewrite Es in KF.
  destruct (KF e He) as (_ & _ & _ & Ie). rewrite Ek in Ie. destruct (KF (upd e DX a) He') as (Ve' & Le' & Se' & Ie').
  set (f := front (idx_of m c) S DX pos).
  assert (covers m (kid_at m P (upd e DX a)) f) as Cf.
  { apply covers_k. intros j. rewrite Ie', Se', get_vadd. unfold f, front. rewrite Ie. destruct (dim_eq_dec j DX) as [->|Nj].
    - rewrite !get_upd_same, get_vadd. unfold pos, a. destruct (Z.eqb_spec (get e DX) 0); lia.
    - rewrite !get_upd_other by assumption. rewrite get_vadd. lia. }
  pose proof (kid_covers m Hwf P (upd e DX a) f VP HP) as CPf. rewrite Es in CPf. specialize (CPf He' Cf).
  assert (get_parent m (kid_at m P (upd e DX a)) = P) as Ep.
  { pose proof (cell_level m Hwf P VP). apply (kid_parent_eq m Hwf _ f); auto; lia. }
  pose proof (Hsib _ Ve' ltac:(lia) Ep) as Exk. pose proof (covers_in_grid m Hwf P f VP CPf) as Gf.
  destruct (face_neighbor_in m Hwf t ex Htile H Hbal (default_faces n (proj1 Hn)) c DX pos _ f _ Ec
        (lands_self m t _ (cell_in_grid m Hwf _ Vc)) (lands_self m t _ Gf) Exk Cf) as [Ef _].
  apply (visit_spread vzero P (kid_at m P (upd e DX a))).
  - left. reflexivity.
  - apply blk_zero.
  - assumption.
  - apply (nested _ P f); auto. lia.
  - apply vis_start; [rewrite <- Ef; apply face_in|]. unfold valid in Ve'. unfold error_cell. lia.
Qed.
End NoBad.

(** ** Blocks that are not larger than P *)
Lemma blk_disjoint b Q a : blk b Q -> ex a = true -> lvl_of m a = l -> ~ inside m a Q -> disjoint m a Q.
Proof.
  intros (VQ & LQ & _) Ea La N i Ca CQ. apply N. apply (nested a Q i); auto using V. destruct P_facts as (_ & LP & _). lia.
Qed.
Lemma small_of_sees b Q a : blk b Q -> ex a = true -> lvl_of m a = l -> disjoint m a Q -> sees m t H a Q -> small Q.
Proof.
  intros HQ Ea La Hd Hs. pose proof HQ as (VQ & LQ & _). destruct P_facts as (_ & LP & _).
  destruct (small_or Q VQ) as [|(x & Ex & Ix & Lx)]; [assumption|]. exfalso.
  assert (a <> x) as N by (intros ->; lia).
  pose proof (sees_up m Hwf t n (proj1 Hn) a a Q x (inside_refl m a (V a Ea)) Ix (leaf_disjoint m Hwf ex Htile a x Ea Ex N) Hs) as Sx.
  pose proof (Hbal a x Ea Ex Sx). lia.
Qed.

(** around a cell of the family's level inside of block b *)
Lemma small_around b b' Q Q' a : blk b Q -> blk b' Q' -> ex a = true -> lvl_of m a = l -> inside m a Q ->
  reach n S (2 * S) (vadd (scaled (vsub b' b) (2 * S)) (vsub (idx_of m Q) (idx_of m a))) -> small Q'.
Proof.
  intros HQ HQ' Ea La Ia Rr. pose proof HQ as (VQ & LQ & PQ). pose proof HQ' as (VQ' & LQ' & PQ'). pose proof (V a Ea) as Va.
  assert (inside m a Q' \/ ~ inside m a Q') as [I|N].
  { destruct (Z.eq_dec Q Q') as [<-|NQ]; [auto|]. right. intros I. apply NQ. apply (overlap_same m Hwf Q Q' (idx_of m a)); auto using inside_own. congruence. }
  - exists a. auto.
  - pose proof (blk_disjoint b' Q' a HQ' Ea La N) as Hd. apply (small_of_sees b' Q' a); auto.
    assert (len_of m a = S) as Sa by (rewrite !(cell_len m Hwf) by auto using V; f_equal; lia).
    apply sees_reach; auto; [apply Hn|]. rewrite Sa, (blk_len b' Q' HQ'). eexists. split; [|exact Rr].
    destruct PQ as [_ A]. destruct PQ' as [G A']. split; [assumption|]. intros j. specialize (A j). specialize (A' j).
    unfold scaled in *. rewrite !get_vadd, !get_vmap, ?get_vsub in *. destruct (per t j); [destruct A as [u A], A' as [v A']; exists (v - u); lia|lia].
Qed.

Lemma half_bound a : 0 < S -> n <> 0 -> Z.abs a <= n / 2 -> - (n * S) <= a * (2 * S) <= n * S.
Proof.
  intros PS N Ha. pose proof (Z.div_mod n 2 ltac:(lia)). pose proof (Z.mod_pos_bound n 2 ltac:(lia)).
  assert (- n <= 2 * a <= n) by lia. assert (- n * S <= 2 * a * S <= n * S) by (split; apply Z.mul_le_mono_nonneg_r; lia). lia.
Qed.

(** second half of a way: blocks within n / 2 of a block with a cell of level l *)
Lemma small_end b b' Q Q' a : n <> 0 -> blk b Q -> blk b' Q' -> ex a = true -> lvl_of m a = l -> inside m a Q ->
  (forall k, Z.abs (get b' k - get b k) <= n / 2) -> small Q'.
Proof.
  intros N HQ HQ' Ea La Ia Hb. destruct P_facts as (VP & LP & SP & PS & HP). apply (small_around b b' Q Q' a); auto.
  unfold reach. destruct (Z.eqb_spec n 0); [contradiction|]. intros k. unfold close. unfold scaled. rewrite get_vadd, get_vmap, !get_vsub.
  pose proof (half_bound _ PS N (Hb k)). destruct Ia as (_ & _ & Ia). specialize (Ia k). rewrite (blk_len b Q HQ) in Ia.
  pose proof (cell_len_pos m Hwf a (V a Ea)). lia.
Qed.

(** first half: blocks within (n + 1) / 2 of P *)
Lemma small_begin b Q : n <> 0 -> blk b Q -> (forall k, Z.abs (get b k) <= (n + 1) / 2) -> small Q.
Proof.
  intros N HQ Hb. destruct P_facts as (VP & LP & SP & PS & HP).
  assert (2 ^ (m_max m - (lvl_of m P + 1)) = S) as Es. { rewrite (cell_len m Hwf c (V c Ec)). f_equal. lia. }
  pose proof (fun e => kid_facts m Hwf P e VP HP) as KF. cbn zeta in KF. rewrite Es in KF.
  set (e := vmap (fun k => if 0 <? get b k then S else 0)).
  assert (In e (corners S)) as He by (apply corners_in; intros k; unfold e; rewrite get_vmap; destruct (_ <? _); auto).
  destruct (KF e He) as (Ve & Le & Se & Ie).
  assert (inside m (kid_at m P e) P) as Ia.
  { split; [assumption|]. split; [assumption|]. intros k. rewrite Ie, Se, SP, get_vadd. unfold e. rewrite get_vmap. destruct (_ <? _); lia. }
  pose proof (inside_parent_eq _ _ Ia ltac:(lia)) as Ep. pose proof (cell_level m Hwf P VP).
  pose proof (Hsib _ Ve ltac:(lia) Ep) as Exk.
  apply (small_around vzero b P Q (kid_at m P e)); auto using blk_zero; [lia|].
  unfold reach. destruct (Z.eqb_spec n 0); [contradiction|]. intros k. unfold close, scaled. rewrite get_vadd, get_vmap, !get_vsub, get_vzero, Ie, get_vadd. unfold e. rewrite get_vmap.
  specialize (Hb k). pose proof (Z.div_mod (n + 1) 2 ltac:(lia)). pose proof (Z.mod_pos_bound (n + 1) 2 ltac:(lia)).
  assert (- (n + 1) <= 2 * get b k <= n + 1) by lia.
  assert (- (n + 1) * S <= 2 * get b k * S <= (n + 1) * S) by (split; apply Z.mul_le_mono_nonneg_r; lia).
  destruct (Z.ltb_spec 0 (get b k)).
  - assert (1 * S <= get b k * S) by (apply Z.mul_le_mono_nonneg_r; lia). assert (0 <= n * S) by (apply Z.mul_nonneg_nonneg; lia). lia.
  - assert (get b k * S <= 0 * S) by (apply Z.mul_le_mono_nonneg_r; lia). assert (0 < n * S) by (apply Z.mul_pos_pos; lia). lia.
Qed.

(** ** Ways through small blocks *)
Definition between (b b2 b' : idx) : Prop := forall k, Z.min (get b k) (get b2 k) <= get b' k <= Z.max (get b k) (get b2 k).
Definition gap (b b2 : idx) : Z := sum3 (fun k => Z.abs (get b2 k - get b k)).

Lemma between_reachable b b2 b' Q Q2 : blk b Q -> blk b2 Q2 -> between b b2 b' -> reachable m t (vadd (idx_of m P) (scaled b' (2 * S))).
Proof.
  intros HQ HQ2 Hb k. pose proof (blk_reachable b Q HQ k) as R1. pose proof (blk_reachable b2 Q2 HQ2 k) as R2. specialize (Hb k).
  unfold scaled in *. rewrite get_vadd, get_vmap in *. destruct P_facts as (_ & _ & _ & PS & _).
  destruct (per t k); [auto|]. right. destruct R1 as [R1|R1]; [discriminate|]. destruct R2 as [R2|R2]; [discriminate|].
  assert (Z.min (get b k) (get b2 k) * (2 * S) <= get b' k * (2 * S) <= Z.max (get b k) (get b2 k) * (2 * S)) by (split; apply Z.mul_le_mono_nonneg_r; lia).
  destruct (Z.min_spec (get b k) (get b2 k)) as [[? E1]|[? E1]], (Z.max_spec (get b k) (get b2 k)) as [[? E2]|[? E2]]; rewrite E1, E2 in *; lia.
Qed.

Lemma gap_zero b b2 : gap b b2 <= 0 -> b = b2.
Proof.
  intros G. unfold gap, sum3 in G. apply idx_ext. intros k. destruct k; lia.
Qed.
Lemma gap_dim b b2 : b <> b2 -> exists k, get b k <> get b2 k.
Proof.
  intros N. destruct (Z.eq_dec (get b DX) (get b2 DX)); [|eauto]. destruct (Z.eq_dec (get b DY) (get b2 DY)); [|eauto].
  destruct (Z.eq_dec (get b DZ) (get b2 DZ)); [|eauto]. exfalso. apply N. apply idx_ext. intros []; assumption.
Qed.

Section Ways.
Context (Good : forall x, visited x -> ~ bad x).
Definition in_range (b : idx) : Prop := forall k, Z.abs (get b k) <= n.
Lemma range_hood b : n <> 0 -> in_range b -> in_hood b.
Proof.
  intros N Hb. destruct (vzero_dec b) as [->|Nb]; [left; reflexivity|right]. apply default_hood_in; [apply Hn|]. unfold in_default.
  destruct (Z.eqb_spec n 0); [contradiction|]. split; [assumption|]. intros k. specialize (Hb k). lia.
Qed.

Definition toward (b b2 : idx) (k : dim) : idx := upd b k (get b k + (if get b k <? get b2 k then 1 else -1)).
Lemma toward_between b b2 k : get b k <> get b2 k -> between b b2 (toward b b2 k) /\ gap (toward b b2 k) b2 = gap b b2 - 1 /\
  (forall b', between (toward b b2 k) b2 b' -> between b b2 b').
Proof.
  intros N. unfold toward. repeat match goal with |- _ /\ _ => split end.
  - intros j. destruct (dim_eq_dec j k) as [->|Nj]; [rewrite get_upd_same; destruct (Z.ltb_spec (get b k) (get b2 k)); lia|rewrite get_upd_other by assumption; lia].
  - unfold gap. rewrite (sum3_upd (fun j => Z.abs (get b2 j - get b j)) _ k).
    + rewrite get_upd_same. destruct (Z.ltb_spec (get b k) (get b2 k)); lia.
    + intros j Nj. rewrite get_upd_other by assumption. reflexivity.
  - intros b' Hb j. specialize (Hb j). destruct (dim_eq_dec j k) as [->|Nj]; [rewrite get_upd_same in Hb; destruct (Z.ltb_spec (get b k) (get b2 k)); lia|rewrite get_upd_other in Hb by assumption; lia].
Qed.

Lemma way : n <> 0 -> forall N b b2 Q Q2, gap b b2 <= Z.of_nat N -> in_range b -> in_range b2 -> blk b Q -> blk b2 Q2 -> visit Q ->
  (forall b' Q', between b b2 b' -> blk b' Q' -> small Q') -> visit Q2.
Proof.
  intros N0 N. induction N as [|N IH]; intros b b2 Q Q2 G Rb Rb2 HQ HQ2 VQ Sm.
  - pose proof (gap_zero b b2 ltac:(lia)) as ->. rewrite <- (blk_unique b2 Q Q2 HQ HQ2). assumption.
  - assert (b = b2 \/ b <> b2) as [->|Nb].
    { destruct (Z_le_gt_dec (gap b b2) 0); [left; apply gap_zero; assumption|right]. intros ->. unfold gap, sum3 in *. lia. }
    { rewrite <- (blk_unique b2 Q Q2 HQ HQ2). assumption. }
    destruct (gap_dim b b2 Nb) as (k & Nk). destruct (toward_between b b2 k Nk) as (B1 & B2 & B3). set (b1 := toward b b2 k) in *.
    destruct (blk_exists b1 (between_reachable b b2 b1 Q Q2 HQ HQ2 B1)) as (Q1 & HQ1).
    assert (in_range b1) as Rb1. { intros j. specialize (B1 j). specialize (Rb j). specialize (Rb2 j). lia. }
    apply (IH b1 b2 Q1 Q2); auto; [lia| |].
    + apply (visit_step Good b b1 Q Q1 k (get b k <? get b2 k)); auto using range_hood. apply (Sm b1); assumption.
    + intros b' Q' Hb' HQ'. apply (Sm b'); auto.
Qed.

(** a block with a cell of level l is visited *)
Lemma visit_anchored b Q a : n <> 0 -> in_range b -> blk b Q -> ex a = true -> lvl_of m a = l -> inside m a Q -> visit Q.
Proof.
  intros N Rb HQ Ea La Ia. set (h := (n + 1) / 2). pose proof (Z.div_mod (n + 1) 2 ltac:(lia)) as E1. pose proof (Z.mod_pos_bound (n + 1) 2 ltac:(lia)) as E2.
  pose proof (Z.div_mod n 2 ltac:(lia)) as E3. pose proof (Z.mod_pos_bound n 2 ltac:(lia)) as E4. fold h in E1.
  set (mid := vmap (fun k => Z.max (- h) (Z.min h (get b k)))).
  assert (between vzero b mid) as Bm. { intros k. unfold mid. rewrite get_vzero, get_vmap. lia. }
  destruct (blk_exists mid (between_reachable vzero b mid P Q blk_zero HQ Bm)) as (Qm & HQm).
  assert (in_range mid) as Rm. { intros k. unfold mid. rewrite get_vmap. specialize (Rb k). lia. }
  assert (forall b b2, gap b b2 <= Z.of_nat (Z.to_nat (gap b b2))) as G. { intros. unfold gap, sum3. lia. }
  assert (visit Qm) as Vm.
  { apply (way N _ vzero mid P Qm (G _ _)); auto using blk_zero, visit_P.
    - intros k. rewrite get_vzero. lia.
    - intros b' Q' Hb' HQ'. apply (small_begin b'); auto. intros k. specialize (Hb' k). unfold mid in Hb'. rewrite get_vzero, get_vmap in Hb'. fold h. lia. }
  apply (way N _ mid b Qm Q (G _ _)); auto. intros b' Q' Hb' HQ'. apply (small_end b b' Q Q' a); auto.
  intros k. specialize (Hb' k). specialize (Rb k). unfold mid in Hb'. rewrite get_vmap in Hb'. lia.
Qed.

(** ** No cell that prevents merging is left unvisited *)
Lemma lvl_in_block b Q x i : blk b Q -> ex x = true -> covers m x i -> covers m Q i -> small Q -> inside m x Q.
Proof. intros (VQ & _) Ex Cx CQ Sm. apply (leaf_in_small Q x i); auto. Qed.

Lemma no_bad N0 : n <> 0 -> forall b Q x i, gap vzero b <= Z.of_nat N0 -> in_range b -> blk b Q -> ex x = true -> covers m x i -> covers m Q i -> ~ bad x.
Proof.
  intros N. induction N0 as [|N0 IH]; intros b Q x i G Rb HQ Ex Cx CQ.
  - assert (vzero = b) as <- by (apply gap_zero; lia). rewrite <- (blk_unique vzero P Q blk_zero HQ) in CQ.
    destruct (meets_P x i Ex Cx CQ) as [I _]. apply Good. apply (visit_P Good); assumption.
  - pose proof HQ as (VQ & LQ & PQ). destruct P_facts as (VP & LP & SP & PS & HP).
    destruct (small_or Q VQ) as [Sm|(y & Ey & Iy & Ly)].
    2: { rewrite (leaf_unique m Hwf ex Htile x y i Ex Ey Cx (inside_covers m Q y i Iy CQ)). unfold bad. lia. }
    pose proof (leaf_in_small Q x i VQ Sm Ex Cx CQ) as Ix.
    destruct (existsb (fun a => ex a) (get_all_children m Q)) eqn:Ek.
    + apply existsb_exists in Ek. destruct Ek as (a & Ha & Ea). assert (lvl_of m Q < m_max m) as HQm by lia.
      rewrite (children_list m Hwf Q VQ HQm) in Ha. apply in_map_iff in Ha. destruct Ha as (e & <- & He).
      pose proof (kid_facts m Hwf Q e VQ HQm He) as (Ve & Le & Se & Ie). cbn zeta in *.
      assert (inside m (kid_at m Q e) Q) as Ia. { apply (nested _ Q (idx_of m (kid_at m Q e))); auto; [apply covers_own; auto| |lia]. apply (kid_covers m Hwf Q e); auto. apply covers_own; auto. }
      apply Good. apply (visit_anchored b Q (kid_at m Q e) N Rb HQ Ea ltac:(lia) Ia); assumption.
    + assert (forall a, ex a = true -> inside m a Q -> lvl_of m a <> l) as NoL.
      { intros a Ea Ia La. assert (existsb (fun a => ex a) (get_all_children m Q) = true); [|congruence]. apply existsb_exists. exists a. split; [|assumption].
        pose proof (cell_level m Hwf Q VQ). pose proof (V a Ea) as Va. assert (lvl_of m Q < m_max m) as HQm by lia.
        rewrite (children_list m Hwf Q VQ HQm). pose proof (in_parent m Hwf a Va ltac:(lia)) as [He Eq]. cbn zeta in *. rewrite (inside_parent_eq a Q Ia ltac:(lia)) in *.
        rewrite <- Eq. apply in_map. replace (2 ^ (m_max m - (lvl_of m Q + 1))) with (len_of m a); [assumption|]. rewrite (cell_len m Hwf) by assumption. f_equal. lia. }
      assert (lvl_of m Q <= lvl_of m x) as Lx by (apply inside_lvl; assumption). pose proof (NoL x Ex Ix) as Nx.
      destruct (Z.eq_dec (lvl_of m x) (l - 1)) as [Ex1|Nx1]; [unfold bad; lia|]. exfalso.
      (* every leaf of Q is smaller than those of the family *)
      assert (forall a, ex a = true -> inside m a Q -> l < lvl_of m a) as Fine.
      { intros a Ea Ia. pose proof (NoL a Ea Ia). pose proof (inside_lvl a Q Ia). destruct (Z.eq_dec (lvl_of m a) (lvl_of m Q)) as [E|]; [|lia]. exfalso.
        pose proof (overlap_same m Hwf a Q (idx_of m a) (V a Ea) VQ (covers_own m Hwf a (V a Ea)) (inside_own a Q Ia) E) as ->.
        apply Nx1. rewrite (leaf_unique m Hwf ex Htile x Q i Ex Ea Cx CQ). lia. }
      assert (b <> vzero) as Nb.
      { intros ->. rewrite <- (blk_unique vzero P Q blk_zero HQ) in *. destruct (meets_P x i Ex Cx CQ). lia. }
      destruct (gap_dim b vzero Nb) as (k & Nk). destruct (toward_between b vzero k Nk) as (B1 & B2 & B3). set (b1 := toward b vzero k) in *.
      destruct (blk_exists b1 (between_reachable b vzero b1 Q P HQ blk_zero B1)) as (Q1 & HQ1).
      assert (in_range b1) as Rb1. { intros j. specialize (B1 j). specialize (Rb j). rewrite get_vzero in B1. lia. }
      assert (gap vzero b1 <= Z.of_nat N0) as G1.
      { assert (forall v, gap vzero v = gap v vzero) as Gs by (intros v; unfold gap, sum3; rewrite !get_vzero; lia). rewrite Gs in *. lia. }
      set (pos := get b k <? 0). assert (b1 = upd b k (get b k + (if pos then 1 else -1))) as Eb1 by (unfold b1, toward, pos; rewrite get_vzero; reflexivity).
      assert (b = upd b1 k (get b1 k + (if negb pos then 1 else -1))) as Eb.
      { rewrite Eb1. apply idx_ext. intros j. destruct (dim_eq_dec j k) as [->|Nj]; [rewrite !get_upd_same; destruct pos; cbn [negb]; lia|rewrite !get_upd_other by assumption; reflexivity]. }
      pose proof HQ1 as (VQ1 & LQ1 & PQ1).
      (* the leaf x1 of Q at the face to Q1 and its face neighbor y *)
      pose proof (blk_len b Q HQ) as SQ. pose proof (blk_len b1 Q1 HQ1) as SQ1.
      set (i0 := if pos then upd (idx_of m Q) k (get (idx_of m Q) k + (2 * S - 1)) else idx_of m Q).
      assert (covers m Q i0) as C0.
      { apply covers_k. intros j. rewrite SQ. unfold i0. destruct pos; [|lia]. destruct (dim_eq_dec j k) as [->|Nj]; [rewrite get_upd_same; lia|rewrite get_upd_other by assumption; lia]. }
      destruct (leaf_at m ex Htile i0 (covers_in_grid m Hwf Q i0 VQ C0)) as (x1 & Ex1' & Cx1).
      pose proof (leaf_in_small Q x1 i0 VQ Sm Ex1' Cx1 C0) as Ix1. pose proof (V x1 Ex1') as Vx1.
      set (f := front (idx_of m x1) (len_of m x1) k pos).
      assert (placed m t Q Q1 (upd vzero k (if pos then 2 * S else - (2 * S)))) as PQQ.
      { destruct PQ as [_ A]. destruct PQ1 as [Gr A']. split; [assumption|]. intros j. specialize (A j). specialize (A' j).
        rewrite Eb1 in A'. unfold scaled in *. rewrite !get_vadd, !get_vmap in *. destruct (dim_eq_dec j k) as [->|Nj].
        - rewrite get_upd_same in *. destruct (per t k); [destruct A as [u A], A' as [v A']; exists (v - u); destruct pos; lia|destruct pos; lia].
        - rewrite get_upd_other in * by assumption. rewrite get_vzero. destruct (per t j); [destruct A as [u A], A' as [v A']; exists (v - u); lia|lia]. }
      destruct (lands_in_box m Hwf t Q1 _ f VQ1 PQQ) as (i1 & Li & Ci).
      { intros j. rewrite get_vadd, SQ1. unfold f, front. pose proof (proj1 (covers_k m x1 i0) Cx1 j) as Cj. destruct Ix1 as (_ & _ & Ix1). specialize (Ix1 j). rewrite SQ in Ix1.
        unfold i0 in Cj. pose proof (cell_len_pos m Hwf x1 Vx1).
        destruct (dim_eq_dec j k) as [->|Nj].
        - rewrite !get_upd_same. destruct pos; [rewrite get_upd_same in Cj; lia|lia].
        - rewrite !get_upd_other, get_vzero by assumption. destruct pos; [rewrite get_upd_other in Cj by assumption; lia|lia]. }
      destruct (leaf_at m ex Htile i1 (proj1 Li)) as (y & Ey & Cy).
      destruct (face_neighbor_in m Hwf t ex Htile H Hbal (default_faces n (proj1 Hn)) x1 k pos _ i1 y Ex1'
        (lands_self m t _ (cell_in_grid m Hwf _ Vx1)) Li Ey Cy) as [_ Lyx].
      pose proof (Fine x1 Ex1' Ix1) as Lx1. pose proof (IH b1 Q1 y i1 G1 Rb1 HQ1 Ey Cy Ci) as Gy.
      assert (lvl_of m y = l) as Ly by (unfold bad in Gy; lia).
      assert (inside m y Q1) as Iy by (apply (nested y Q1 i1); auto using V; lia).
      pose proof (visit_anchored b1 Q1 y N Rb1 HQ1 Ey Ly Iy) as Vis1.
      destruct (visit_step Good b1 b Q1 Q k (negb pos) (range_hood b1 N Rb1) (range_hood b N Rb) HQ1 HQ Eb Vis1 Sm) as [_ Vis].
      apply (Good x (Vis x Ex Ix)). left. apply Fine; assumption.
Qed.

Lemma no_bad_faces b Q x i : n = 0 -> In b H -> blk b Q -> ex x = true -> covers m x i -> covers m Q i -> ~ bad x.
Proof.
  intros N Hb HQ Ex Cx CQ. pose proof HQ as (VQ & LQ & PQ). destruct P_facts as (VP & LP & SP & PS & HP).
  pose proof (proj1 (default_hood_in n b (proj1 Hn)) Hb) as Ub. unfold in_default in Ub. rewrite N in Ub. cbn in Ub. destruct Ub as (k & s & Hs & Eb).
  assert (small Q) as Sm.
  { assert (2 ^ (m_max m - (lvl_of m P + 1)) = S) as Es. { rewrite (cell_len m Hwf c (V c Ec)). f_equal. lia. }
    pose proof (fun e => kid_facts m Hwf P e VP HP) as KF. cbn zeta in KF. rewrite Es in KF.
    set (e := upd vzero k (if 0 <? s then S else 0)).
    assert (In e (corners S)) as He.
    { apply corners_in; intros j; unfold e. destruct (dim_eq_dec j k) as [->|Nj]; [rewrite get_upd_same; destruct (_ <? _); auto|rewrite get_upd_other, get_vzero by assumption; auto]. }
    destruct (KF e He) as (Ve & Le & Se & Ie).
    assert (inside m (kid_at m P e) P) as Ia.
    { split; [assumption|]. split; [assumption|]. intros j. rewrite Ie, Se, SP, get_vadd. pose proof (proj1 (corners_in S e) He j). lia. }
    pose proof (inside_parent_eq _ _ Ia ltac:(lia)) as Ep. pose proof (cell_level m Hwf P VP).
    pose proof (Hsib _ Ve ltac:(lia) Ep) as Exk.
    apply (small_around vzero b P Q (kid_at m P e)); auto using blk_zero; [lia|].
    unfold reach. replace (n =? 0) with true by lia. exists k. unfold close, scaled. split.
    - rewrite get_vadd, get_vmap, !get_vsub, get_vzero, Ie, get_vadd, Eb. unfold e. rewrite !get_upd_same. destruct Hs as [-> | ->]; cbn [Z.ltb Z.compare]; lia.
    - intros j Nj. rewrite get_vadd, get_vmap, !get_vsub, get_vzero, Ie, get_vadd, Eb. unfold e. rewrite !get_upd_other, !get_vzero by assumption. lia. }
  apply Good. assert (visit Q) as [_ Vis]; [|apply Vis; [assumption|apply (leaf_in_small Q x i); auto]].
  apply (visit_step Good vzero b P Q k (0 <? s)); auto using blk_zero, visit_P; [left; reflexivity|right; assumption|].
  rewrite Eb, get_vzero. destruct Hs as [-> | ->]; reflexivity.
Qed.
End Ways.

(** the search succeeds iff no cell in the neighborhood of the parent, and none of the family,
    prevents merging *)
Theorem search_complete : (forall x, visited x -> ~ bad x) <->
  forall x, ex x = true -> inside m x P \/ sees m t H P x -> ~ bad x.
Proof.
  split.
  - intros Good x Ex [I|Sx].
    + apply Good. apply (visit_P Good); assumption.
    + destruct (sees_blk x Ex Sx) as (b & Q & i & Hb & HQ & CQ & Cx).
      destruct (Z.eq_dec n 0) as [E|N]; [apply (no_bad_faces Good b Q x i); assumption|].
      apply (no_bad Good (Z.to_nat (gap vzero b)) N b Q x i); auto.
      * unfold gap, sum3. lia.
      * pose proof (proj1 (default_hood_in n b (proj1 Hn)) Hb) as Ub. unfold in_default in Ub. destruct (Z.eqb_spec n 0); [contradiction|]. intros k. destruct Ub as [_ Ub]. specialize (Ub k). lia.
  - intros G x Vx. destruct (visited_near x Vx) as [Ex N]. apply G; assumption.
Qed.
End Near.
