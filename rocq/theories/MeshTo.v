(** C15: neighbors_to is the converse of neighbors_of. *)
From Verif Require Import U64 MapModel MapSpec MapProofs MapFamily MapProps HoodModel MeshModel
  MeshSpec MeshBase HoodProps MeshWalk MeshFind MeshKids MeshItem MeshCheck.
Open Scope Z_scope.

(** a neighborhood offset of the largest cells reaches less than 2^64 indices from the far end
    of the grid in non-periodic dimensions *)
Definition hood_fits (m : mapping) (t : topo) (U : hood) : Prop :=
  forall h k, In h U -> per t k = false -> glen m k + Z.abs (get h k) * 2 ^ m_max m < W.

Section To.
Context (m : mapping) (Hwf : wf m) (t : topo) (ex : Z -> bool) (Htile : tiling m ex).
Notation V := (leaf_valid m ex Htile).

Lemma lands_flip x y i j k : lands m t x i -> lands m t y j ->
  (if per t k then exists n, get x k - get i k = n * glen m k else get x k = get i k) /\
  (if per t k then exists n, get y k - get j k = n * glen m k else get y k = get j k).
Proof.
  intros [_ A] [_ B]. specialize (A k). specialize (B k). destruct (per t k); [|auto].
  destruct A as [a A], B as [b B]. split; [exists a|exists b]; lia.
Qed.

Lemma lands_back a b v : valid m a -> valid m b ->
  lands m t (vadd (idx_of m b) v) (idx_of m a) <-> lands m t (vsub (idx_of m a) v) (idx_of m b).
Proof.
  intros Va Vb. split; intros [_ A]; (split; [apply cell_in_grid; assumption|]); intros k; specialize (A k);
    rewrite ?get_vadd, ?get_vsub in *; destruct (per t k); try lia; destruct A as [n A]; exists (- n); lia.
Qed.

(** a neighbor at item h is a cell overlapping the cell of b's size at which the region lands *)
Lemma nbr_region_cell b h a : valid m a -> valid m b ->
  (exists o, nbr m t b h a o) <->
  exists q, valid m q /\ lvl_of m q = lvl_of m b /\
    lands m t (vadd (idx_of m b) (scaled h (len_of m b))) (idx_of m q) /\
    exists i, covers m q i /\ covers m a i.
Proof.
  intros Va Vb. pose proof (cell_len_pos m Hwf a Va) as Pa. pose proof (cell_len_pos m Hwf b Vb) as Pb.
  pose proof (cell_level m Hwf b Vb) as Lb. split.
  - intros (o & P & M).
    set (x := vmap (fun k => get (idx_of m b) k + Z.max (get h k * len_of m b) (get o k))).
    destruct (lands_in_box m Hwf t a _ x Va P) as (i & Li & Ci).
    { intros k. unfold x. rewrite get_vmap, get_vadd. specialize (M k). lia. }
    pose proof (cell_at m Hwf i (lvl_of m b) (proj1 Li) Lb) as (Vq & Lq & Cq & _). cbn zeta in *.
    set (q := get_cell_from_indices m i (lvl_of m b)) in *.
    exists q. split; [assumption|]. split; [assumption|]. split; [|exists i; auto].
    pose proof (lands_rdown m Hwf t x i q Vq Li Cq) as Lx.
    assert (len_of m q = len_of m b) as Eq by (rewrite !(cell_len m Hwf) by assumption; congruence).
    replace (vadd (idx_of m b) (scaled h (len_of m b))) with (vmap (fun k => rdown (len_of m q) (get x k))); [assumption|].
    apply idx_ext. intros k. rewrite get_vmap, get_vadd. unfold scaled. rewrite get_vmap. rewrite Eq.
    apply rdown_unique; [assumption| |].
    + apply Z.divide_add_r; [apply cell_aligned; assumption|exists (get h k); reflexivity].
    + unfold x. rewrite get_vmap. specialize (M k). lia.
  - intros (q & Vq & Lq & Ll & i & Cq & Ca).
    assert (len_of m q = len_of m b) as Eq by (rewrite !(cell_len m Hwf) by assumption; congruence).
    set (y := vadd (idx_of m b) (scaled h (len_of m b))) in *.
    set (x := vadd y (vsub i (idx_of m q))).
    assert (lands m t x i) as Lx.
    { split; [apply (covers_in_grid m Hwf q); assumption|]. intros k. destruct Ll as [_ Ll]. specialize (Ll k).
      unfold x. rewrite get_vadd, get_vsub. destruct (per t k); [|lia]. destruct Ll as [n Ll]. exists n. lia. }
    pose proof (lands_rdown m Hwf t x i a Va Lx Ca) as La.
    set (z := vmap (fun k => rdown (len_of m a) (get x k))) in *.
    exists (vsub z (idx_of m b)). split.
    + unfold placed. replace (vadd (idx_of m b) (vsub z (idx_of m b))) with z; [assumption|].
      apply idx_ext. intros k. rewrite get_vadd, get_vsub. lia.
    + intros k. rewrite get_vsub. unfold z. rewrite get_vmap.
      pose proof (rdown_le (len_of m a) (get x k) Pa) as R.
      assert (get x k = get (idx_of m b) k + get h k * len_of m b + (get i k - get (idx_of m q) k)) as Ex.
      { unfold x, y, scaled. rewrite !get_vadd, get_vsub, get_vmap. lia. }
      pose proof (proj1 (covers_k m q i) Cq k). lia.
Qed.

Lemma overlap_same q a i : valid m q -> valid m a -> covers m q i -> covers m a i -> lvl_of m q = lvl_of m a -> q = a.
Proof.
  intros Vq Va Cq Ca E. rewrite <- (cell_at_covering m Hwf q i), <- (cell_at_covering m Hwf a i) by assumption. congruence.
Qed.

Lemma parent_covers a i : valid m a -> 0 < lvl_of m a -> covers m a i -> covers m (get_parent m a) i.
Proof.
  intros Va La Ca. pose proof (parent_facts m Hwf a Va La) as (Vp & Lp & Sp & _ & Ip). cbn zeta in *.
  apply covers_k. intros k. rewrite Ip, Sp. pose proof (proj1 (covers_k m a i) Ca k).
  pose proof (cell_len_pos m Hwf a Va) as Pa. pose proof (rdown_le (2 * len_of m a) (get (idx_of m a) k) ltac:(lia)).
  assert (len_of m a | rdown (2 * len_of m a) (get (idx_of m a) k)) as D.
  { apply Z.divide_trans with (2 * len_of m a); [exists 2; ring|apply rdown_divide; lia]. }
  pose proof (aligned_lt (len_of m a) (get (idx_of m a) k) (rdown (2 * len_of m a) (get (idx_of m a) k) + 2 * len_of m a)
    Pa (cell_aligned m Hwf a k Va)) as Al.
  assert (len_of m a | rdown (2 * len_of m a) (get (idx_of m a) k) + 2 * len_of m a) as D'.
  { apply Z.divide_add_r; [assumption|exists 2; ring]. }
  specialize (Al D'). lia.
Qed.

(** children cover the cell *)
Lemma kid_covering a i : valid m a -> lvl_of m a < m_max m -> covers m a i ->
  exists e, In e (corners (2 ^ (m_max m - (lvl_of m a + 1)))) /\ covers m (kid_at m a e) i.
Proof.
  intros Va Hl Ca. pose proof (cell_level m Hwf a Va) as La. set (s := 2 ^ (m_max m - (lvl_of m a + 1))).
  assert (0 < s) as Ps by (apply Z.pow_pos_nonneg; lia).
  pose proof (kid_len m Hwf a Va Hl) as El. fold s in El.
  pose proof (cell_at m Hwf i (lvl_of m a + 1) (covers_in_grid m Hwf a i Va Ca) ltac:(lia)) as (Vq & Lq & Cq & Iq).
  cbn zeta in *. fold s in Iq. set (q := get_cell_from_indices m i (lvl_of m a + 1)) in *.
  set (e := vsub (idx_of m q) (idx_of m a)).
  assert (In e (corners s)) as He.
  { apply corners_in. intros k. unfold e. rewrite get_vsub, Iq. pose proof (proj1 (covers_k m a i) Ca k) as Ck.
    destruct (cell_aligned m Hwf a k Va) as [r Hr]. rewrite El in *.
    destruct (Z_lt_le_dec (get i k) (get (idx_of m a) k + s)).
    - left. rewrite (rdown_unique s _ (get (idx_of m a) k)); [lia|assumption| |lia]. exists (2 * r). lia.
    - right. rewrite (rdown_unique s _ (get (idx_of m a) k + s)); [lia|assumption| |lia]. exists (2 * r + 1). lia. }
  exists e. split; [assumption|].
  pose proof (kid_facts m Hwf a e Va Hl He) as (Vk & Lk & _ & Ik). cbn zeta in *.
  replace (kid_at m a e) with q; [assumption|]. apply (cell_eq m Hwf); try assumption; [|congruence].
  rewrite Ik. apply idx_ext. intros k. unfold e. rewrite get_vadd, get_vsub. lia.
Qed.

Lemma kid_covers a e i : valid m a -> lvl_of m a < m_max m ->
  In e (corners (2 ^ (m_max m - (lvl_of m a + 1)))) -> covers m (kid_at m a e) i -> covers m a i.
Proof.
  intros Va Hl He Ck. pose proof (kid_facts m Hwf a e Va Hl He) as (Vk & Lk & Sk & Ik). cbn zeta in *.
  pose proof (proj1 (corners_in _ e) He) as Ce. pose proof (kid_len m Hwf a Va Hl) as El.
  apply covers_k. intros k. pose proof (proj1 (covers_k m _ i) Ck k) as C. rewrite Ik, Sk, get_vadd in C.
  specialize (Ce k). lia.
Qed.

(** ** the search at one level *)
Lemma found_at_spec q U l b : valid m q -> lvl_of m q = l -> hood_fits m t U ->
  In b (found_at ex m t (idx_of m q) (len_of m q) (hood_to U) l) <->
  ex b = true /\ lvl_of m b = l /\
  exists h, In h U /\ lands m t (vadd (idx_of m b) (scaled h (len_of m b))) (idx_of m q).
Proof.
  intros Vq Lq Fit. pose proof (cell_level m Hwf q Vq) as Lr.
  assert (forall h, In h U -> no_overflow m t (len_of m q) (vneg h)) as NO.
  { intros h Hh k Pk. specialize (Fit h k Hh Pk). rewrite get_vneg, Z.abs_opp.
    rewrite (cell_len m Hwf) by assumption.
    assert (2 ^ (m_max m - lvl_of m q) <= 2 ^ m_max m) by (apply Z.pow_le_mono_r; lia). nia. }
  unfold found_at, indices_from_neighborhood, hood_to. rewrite in_flat_map. split.
  - intros (s & Hs & Hb). rewrite map_map in Hs. apply in_map_iff in Hs. destruct Hs as (h & Es & Hh).
    pose proof (ifn_item_spec m Hwf t q (vneg h) Vq (NO h Hh)) as [A B]. cbn zeta in *. rewrite Es in A, B.
    set (x := vadd (idx_of m q) (scaled (vneg h) (len_of m q))) in *.
    destruct (Z.eqb_spec (ix s) error_index) as [|Ne]; [destruct Hb|].
    assert (exists i, lands m t x i) as [i Li].
    { assert (reachable m t x \/ ~ reachable m t x) as [R|R].
      { assert (forall j, (per t j = true \/ 0 <= get x j < glen m j) \/ ~ (per t j = true \/ 0 <= get x j < glen m j)) as D.
        { intros j. destruct (per t j); [left; left; reflexivity|]. lia. }
        destruct (D DX) as [D0|D0]; [|right; intros Q; apply D0, Q].
        destruct (D DY) as [D1|D1]; [|right; intros Q; apply D1, Q].
        destruct (D DZ) as [D2|D2]; [|right; intros Q; apply D2, Q].
        left. intros j; destruct j; assumption. }
      - apply lands_exists; assumption.
      - exfalso. apply Ne. rewrite B; [reflexivity|]. intros [i Li]. apply R. apply (lands_reachable m t x i). assumption. }
    rewrite (A i Li) in *. clear A B Ne.
    destruct (Z.eqb_spec (get_cell_from_indices m i l) (get_child_ex ex m (get_cell_from_indices m i l))) as [Ef|]; [|destruct Hb].
    destruct Hb as [Hb|[]]. rewrite Hb in *.
    pose proof (cell_at m Hwf i l (proj1 Li) ltac:(lia)) as (Vf & Lf & Cf & If). cbn zeta in *. rewrite Hb in *.
    assert (ex b = true) as Eb by (apply (get_child_ex_eq m Hwf ex); [assumption|symmetry; assumption]).
    split; [assumption|]. split; [assumption|]. exists h. split; [assumption|].
    assert (len_of m b = len_of m q) as El by (rewrite !(cell_len m Hwf) by assumption; congruence).
    apply lands_back; [assumption|assumption|]. rewrite El.
    assert (x = vsub (idx_of m q) (scaled h (len_of m q))) as Ex.
    { apply idx_ext. intros k. unfold x, scaled. rewrite get_vadd, get_vsub, !get_vmap, get_vneg. lia. }
    rewrite <- Ex. replace (idx_of m b) with i; [assumption|].
    apply idx_ext. intros k. rewrite If. symmetry.
    assert (2 ^ (m_max m - l) = len_of m q) as -> by (rewrite (cell_len m Hwf) by assumption; congruence).
    apply rdown_self; [apply cell_len_pos; assumption|].
    pose proof (lands_diff m Hwf t x i q k Vq Li) as D.
    apply (Z.divide_add_cancel_r _ (get x k - get i k)); [assumption|].
    replace (get x k - get i k + get i k) with (get x k) by ring. rewrite Ex, get_vsub. unfold scaled. rewrite get_vmap.
    apply Z.divide_sub_r; [apply cell_aligned; assumption|exists (get h k); reflexivity].
  - intros (Eb & Lb & h & Hh & Ll). pose proof (V b Eb) as Vb.
    assert (len_of m b = len_of m q) as El by (rewrite !(cell_len m Hwf) by assumption; congruence).
    apply lands_back in Ll; try assumption. rewrite El in Ll.
    assert (vadd (idx_of m q) (scaled (vneg h) (len_of m q)) = vsub (idx_of m q) (scaled h (len_of m q))) as Ex.
    { apply idx_ext. intros k. unfold scaled. rewrite get_vadd, get_vsub, !get_vmap, get_vneg. lia. }
    pose proof (ifn_item_spec m Hwf t q (vneg h) Vq (NO h Hh)) as [A _]. cbn zeta in *. rewrite Ex in A.
    exists (idx_of m b). split.
    + rewrite map_map. apply in_map_iff. exists h. split; [apply A; assumption|assumption].
    + pose proof (proj1 (in_grid_k m _) (cell_in_grid m Hwf b Vb) DX) as G. pose proof (glen_lt_W m Hwf DX).
      cbn [get] in G. unfold error_index.
      destruct (Z.eqb_spec (ix (idx_of m b)) (W - 1)) as [E|_]; [lia|].
      rewrite <- Lb. rewrite (cell_back m Hwf) by assumption. rewrite (get_child_ex_leaf m Hwf ex Htile) by assumption.
      rewrite Z.eqb_refl. left. reflexivity.
Qed.
End To.

(** C15, first half: find_neighbors_to lists exactly the cells that see the given one *)
Theorem c15_neighbors_to m t n ex a U :
  mesh m t n ex -> ex a = true -> (forall h, In h U -> In h (default_hood_of n)) -> hood_fits m t U ->
  exists l, find_neighbors_to ex m t a (hood_to U) = Done l /\ NoDup l /\
    forall b, In b l <-> ex b = true /\ sees m t U b a.
Proof.
  intros (Hwf & Hn & Htile & Hbal) Ea HU Fit.
  pose proof (leaf_valid m ex Htile) as V. pose proof (V a Ea) as Va.
  unfold find_neighbors_to. rewrite (get_child_ex_leaf m Hwf ex Htile a Ea). rewrite Z.eqb_refl.
  pose proof Va as Va'. unfold valid in Va'. unfold error_cell at 1.
  replace (a =? 0) with false by lia. replace (m_last m <? a) with false by lia. cbn [orb negb].
  eexists. split; [reflexivity|]. split; [apply NoDup_nodup|]. intros b. rewrite nodup_In, !in_app_iff.
  change (get_refinement_level m) with (lvl_of m). change (get_indices m) with (idx_of m).
  change (get_cell_length_in_indices m) with (len_of m).
  pose proof (cell_level m Hwf a Va) as La.
  assert (ex b = true -> sees m t U b a <->
    exists h q, In h U /\ valid m q /\ lvl_of m q = lvl_of m b /\
      lands m t (vadd (idx_of m b) (scaled h (len_of m b))) (idx_of m q) /\ exists i, covers m q i /\ covers m a i) as S.
  { intros Eb. unfold sees. split.
    - intros (h & o & Hh & Hn'). destruct (proj1 (nbr_region_cell m Hwf t b h a Va (V b Eb)) (ex_intro _ o Hn')) as (q & Q).
      exists h, q. split; [assumption|exact Q].
    - intros (h & q & Hh & Q). destruct (proj2 (nbr_region_cell m Hwf t b h a Va (V b Eb)) (ex_intro _ q Q)) as (o & Ho).
      exists h, o. auto. }
  split.
  - intros Hin. assert (ex b = true /\ exists h q, In h U /\ valid m q /\ lvl_of m q = lvl_of m b /\
      lands m t (vadd (idx_of m b) (scaled h (len_of m b))) (idx_of m q) /\ exists i, covers m q i /\ covers m a i) as [Eb Q].
    { destruct Hin as [Hin|[Hin|Hin]].
      - destruct (Z.ltb_spec 0 (lvl_of m a)) as [Hl|]; [|destruct Hin].
        pose proof (parent_facts m Hwf a Va Hl) as (Vp & Lp & _). cbn zeta in *.
        apply (found_at_spec m Hwf t ex Htile _ _ _ _ Vp Lp Fit) in Hin. destruct Hin as (Eb & Lb & h & Hh & Ll).
        split; [assumption|]. exists h, (get_parent m a). split; [assumption|]. split; [assumption|]. split; [congruence|].
        split; [assumption|]. exists (idx_of m a). pose proof (covers_own m Hwf a Va). split; [|assumption].
        apply parent_covers; assumption.
      - destruct (Z.ltb_spec (lvl_of m a) (m_max m)) as [Hl|]; [|destruct Hin].
        rewrite (children_list m Hwf a Va Hl) in Hin. apply in_flat_map in Hin. destruct Hin as (k & Hk & Hin).
        set (s := 2 ^ (m_max m - (lvl_of m a + 1))) in *.
        apply in_map_iff in Hk. destruct Hk as (e & <- & He).
        pose proof (kid_facts m Hwf a e Va Hl He) as (Vk & Lk & Sk & _). cbn zeta in *. fold s in Sk.
        assert (len_of m (hd error_cell (map (kid_at m a) (corners s))) = len_of m (kid_at m a e)) as E.
        { rewrite Sk. assert (In (Idx 0 0 0) (corners s)) as I0 by (left; reflexivity).
          pose proof (kid_facts m Hwf a _ Va Hl I0) as (_ & _ & S0 & _). cbn zeta in *. exact S0. }
        rewrite E in Hin.
        apply (found_at_spec m Hwf t ex Htile _ _ _ _ Vk Lk Fit) in Hin. destruct Hin as (Eb & Lb & h & Hh & Ll).
        split; [assumption|]. exists h, (kid_at m a e). split; [assumption|]. split; [assumption|]. split; [congruence|].
        split; [assumption|]. exists (idx_of m (kid_at m a e)). pose proof (covers_own m Hwf _ Vk). split; [assumption|].
        apply (kid_covers m Hwf a e); assumption.
      - apply (found_at_spec m Hwf t ex Htile _ _ _ _ Va eq_refl Fit) in Hin. destruct Hin as (Eb & Lb & h & Hh & Ll).
        split; [assumption|]. exists h, a. split; [assumption|]. split; [assumption|]. split; [congruence|].
        split; [assumption|]. exists (idx_of m a). pose proof (covers_own m Hwf a Va). auto. }
    split; [assumption|]. apply S; assumption.
  - intros [Eb Hs]. pose proof (V b Eb) as Vb.
    assert (Z.abs (lvl_of m b - lvl_of m a) <= 1) as Hl.
    { apply Hbal; [assumption|assumption|]. destruct Hs as (h & o & Hh & Q). exists h, o. split; [apply HU; assumption|assumption]. }
    apply S in Hs; [|assumption]. destruct Hs as (h & q & Hh & Vq & Lq & Ll & i & Cq & Ca).
    pose proof (cell_level m Hwf b Vb) as Lb.
    assert (lvl_of m b = lvl_of m a - 1 \/ lvl_of m b = lvl_of m a + 1 \/ lvl_of m b = lvl_of m a) as [E|[E|E]] by lia.
    + left. replace (0 <? lvl_of m a) with true by lia.
      pose proof (parent_facts m Hwf a Va ltac:(lia)) as (Vp & Lp & _). cbn zeta in *.
      apply (found_at_spec m Hwf t ex Htile _ _ _ _ Vp Lp Fit).
      split; [assumption|]. split; [assumption|]. exists h. split; [assumption|].
      replace (get_parent m a) with q; [assumption|].
      apply (overlap_same m Hwf _ _ i); try assumption; [|congruence].
      apply parent_covers; try assumption. lia.
    + right. left. replace (lvl_of m a <? m_max m) with true by lia.
      rewrite (children_list m Hwf a Va ltac:(lia)). apply in_flat_map.
      set (s := 2 ^ (m_max m - (lvl_of m a + 1))) in *.
      destruct (kid_covering m Hwf a i Va ltac:(lia) Ca) as (e & He & Ce). fold s in He.
      pose proof (kid_facts m Hwf a e Va ltac:(lia) He) as (Vk & Lk & Sk & _). cbn zeta in *. fold s in Sk.
      exists (kid_at m a e). split; [apply in_map; assumption|].
      assert (len_of m (hd error_cell (map (kid_at m a) (corners s))) = len_of m (kid_at m a e)) as E'.
      { rewrite Sk. assert (In (Idx 0 0 0) (corners s)) as I0 by (left; reflexivity).
        pose proof (kid_facts m Hwf a _ Va ltac:(lia) I0) as (_ & _ & S0 & _). cbn zeta in *. exact S0. }
      rewrite E'. apply (found_at_spec m Hwf t ex Htile _ _ _ _ Vk Lk Fit).
      split; [assumption|]. split; [assumption|]. exists h. split; [assumption|].
      replace (kid_at m a e) with q; [assumption|].
      apply (overlap_same m Hwf _ _ i); try assumption. congruence.
    + right. right. apply (found_at_spec m Hwf t ex Htile _ _ _ _ Va eq_refl Fit).
      split; [assumption|]. split; [assumption|]. exists h. split; [assumption|].
      replace a with q at 1; [assumption|]. apply (overlap_same m Hwf _ _ i); try assumption. congruence.
Qed.

(** C15: the lists are converse relations *)
Theorem c15_converse m t n ex a b U :
  mesh m t n ex -> ex a = true -> ex b = true ->
  (forall h, In h U -> In h (default_hood_of n)) -> hood_fits m t U ->
  exists lof lto,
    find_neighbors_of ex m t b U = Done lof /\ find_neighbors_to ex m t a (hood_to U) = Done lto /\
    (In a (map fst lof) <-> In b lto).
Proof.
  intros M Ea Eb HU Fit.
  destruct (neighbors_of_in m t n ex b U M Eb HU) as (lof & E1 & P1).
  destruct (c15_neighbors_to m t n ex a U M Ea HU Fit) as (lto & E2 & _ & P2).
  exists lof, lto. split; [assumption|]. split; [assumption|]. rewrite P2, in_map_iff. split.
  - intros ([x o] & E & Hi). cbn [fst] in E. subst x. apply P1 in Hi. destruct Hi as (_ & h & Hh & Q).
    split; [assumption|]. exists h, o. auto.
  - intros (_ & h & o & Hh & Q). exists (a, o). split; [reflexivity|]. apply P1. split; [assumption|]. exists h. auto.
Qed.
Print Assumptions c15_converse.

(** an asymmetric user neighborhood in the three-level mesh of MeshCheck.v *)
Example c15_example :
  hood_fits demo_map demo_topo [Idx 1 0 0] /\ mesh demo_map demo_topo 0 demo_ex /\
  find_neighbors_to demo_ex demo_map demo_topo 4 (hood_to [Idx 1 0 0]) =
    Done (map (fun k => nth k (get_all_children demo_map 3) 0) [1; 3; 5; 7]%nat) /\
  find_neighbors_of demo_ex demo_map demo_topo (nth 1 (get_all_children demo_map 3) 0) [Idx 1 0 0] = Done [(4, Idx 2 0 0)].
Proof.
  split; [|split; [exact demo_mesh|split; vm_compute; reflexivity]].
  intros h k [<-|[]] _. rewrite W_val. destruct k; vm_compute; reflexivity.
Qed.
