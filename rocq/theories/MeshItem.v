(** The cells found for one neighborhood item and C14: neighbor lists are exactly the cells at
    the neighborhood offsets. *)
From Verif Require Import U64 MapModel MapSpec MapProofs MapFamily MapProps HoodModel MeshModel
  MeshSpec MeshBase HoodProps MeshWalk MeshFind MeshKids.
Open Scope Z_scope.

(** the region of size [len c] that is h cell lengths from c is in the unrolled grid *)
Definition region_in_grid (m : mapping) (t : topo) (c : Z) (h : idx) : Prop :=
  forall k, per t k = true \/ 0 <= get (idx_of m c) k + get h k * len_of m c < glen m k.

(** what the list for one item looks like *)
Definition item_shape (m : mapping) (t : topo) (c : Z) (h : idx) (item : list (Z * idx)) : Prop :=
  let L := len_of m c in
  (~ region_in_grid m t c h /\ item = []) \/
  (region_in_grid m t c h /\ exists n o, item = [(n, o)] /\ (len_of m n = L \/ len_of m n = 2 * L) /\
     forall k, get o k <= get h k * L /\ (get h k + 1) * L <= get o k + len_of m n) \/
  (region_in_grid m t c h /\ exists s, L = 2 * s /\ 0 < s /\ (forall n o, In (n, o) item -> len_of m n = s) /\
     map snd item = map (fun e => vadd (vmap (fun k => get h k * L)) e) (corners s)).

Section Item.
Context (m : mapping) (Hwf : wf m) (t : topo) (ex : Z -> bool) (Htile : tiling m ex).
Context (H : hood) (Hbal : balanced m t H ex) (Hfaces : has_faces H).
Context (c0 : Z) (Ec0 : ex c0 = true) (h : idx) (Hh : In h H) (Hbox : box_closed H h).
Notation V := (leaf_valid m ex Htile).
Notation L := (len_of m c0).
Notation b := (idx_of m c0).

Lemma sizes n o : ex n = true -> nbr m t c0 h n o ->
  L = 2 * len_of m n \/ len_of m n = L \/ len_of m n = 2 * L.
Proof.
  intros En Hn. pose proof (V n En) as Vn. pose proof (V c0 Ec0) as Vc.
  assert (Z.abs (lvl_of m c0 - lvl_of m n) <= 1) as Hl.
  { apply Hbal; [assumption|assumption|]. exists h, o. split; assumption. }
  destruct (len_ratio m Hwf c0 n Vc Vn) as (A & B & C).
  assert (lvl_of m n = lvl_of m c0 \/ lvl_of m n = lvl_of m c0 - 1 \/ lvl_of m n = lvl_of m c0 + 1) as [Q|[Q|Q]] by lia.
  - specialize (A Q). lia. - specialize (B Q). lia. - specialize (C Q). lia.
Qed.

(** a large neighbor contains the whole region *)
Lemma large_contains n o : ex n = true -> nbr m t c0 h n o -> (len_of m n = L \/ len_of m n = 2 * L) ->
  forall k, get o k <= get h k * L /\ (get h k + 1) * L <= get o k + len_of m n.
Proof.
  intros En [P M] Hs k. specialize (M k). pose proof (V n En) as Vn. pose proof (V c0 Ec0) as Vc.
  pose proof (cell_len_pos m Hwf c0 Vc) as PL.
  pose proof (lands_aligned m Hwf t _ _ k Vn P) as Al. rewrite get_vadd in Al.
  assert (L | get b k + get o k) as Al'.
  { destruct Hs as [E|E]; rewrite E in Al; [assumption|]. apply Z.divide_trans with (2 * L); [exists 2; ring|assumption]. }
  assert (L | get o k) as Ao.
  { apply (Z.divide_add_cancel_r _ (get b k)); [apply cell_aligned; assumption|assumption]. }
  destruct Ao as [q Hq]. rewrite Hq in *.
  assert (q < get h k + 1) by (apply (Z.mul_lt_mono_pos_r L); lia).
  assert (q * L <= get h k * L) by (apply Z.mul_le_mono_nonneg_r; lia).
  split; [lia|]. destruct Hs as [E|E]; rewrite E in *.
  - assert (get h k < q + 1) by (apply (Z.mul_lt_mono_pos_r L); lia).
    assert (get h k = q) by lia. subst q. lia.
  - assert (get h k < q + 2) by (apply (Z.mul_lt_mono_pos_r L); lia).
    assert ((get h k + 1) * L <= (q + 2) * L) by (apply Z.mul_le_mono_nonneg_r; lia). lia.
Qed.

(** the common point of the region and a neighbor *)
Lemma common_point n o : nbr m t c0 h n o -> ex n = true ->
  exists x, (forall k, get b k + get h k * L <= get x k < get b k + (get h k + 1) * L) /\
            (forall k, get b k + get o k <= get x k < get b k + get o k + len_of m n).
Proof.
  intros [P M] En. pose proof (cell_len_pos m Hwf c0 (V c0 Ec0)). pose proof (cell_len_pos m Hwf n (V n En)).
  exists (vmap (fun k => get b k + Z.max (get h k * L) (get o k))).
  split; intros k; rewrite get_vmap; specialize (M k); lia.
Qed.

Lemma add_cancel o o' : vadd b o = vadd b o' -> o = o'.
Proof.
  intros E. apply idx_ext. intros k. pose proof (f_equal (fun v => get v k) E) as Q. cbn beta in Q.
  rewrite !get_vadd in Q. lia.
Qed.

Lemma region_reachable : reachable m t (region m c0 h) <-> region_in_grid m t c0 h.
Proof.
  unfold reachable, region_in_grid, region, target. split; intros Q k; specialize (Q k); rewrite get_vmap in *; exact Q.
Qed.

Lemma nbr_region n o : ex n = true -> nbr m t c0 h n o -> region_in_grid m t c0 h.
Proof.
  intros En Hn k. destruct (per t k) eqn:Pk; [left; reflexivity|right].
  pose proof (V n En) as Vn. pose proof (V c0 Ec0) as Vc. pose proof (cell_len_pos m Hwf c0 Vc) as PL.
  pose proof (cell_len_pos m Hwf n Vn) as Pn.
  assert (0 <= get b k + get o k /\ get b k + get o k + len_of m n <= glen m k) as [B1 B2].
  { destruct Hn as [[G P] _]. specialize (P k). rewrite Pk in P. rewrite get_vadd in P. rewrite P.
    pose proof (proj1 (in_grid_k m _) G k) as Gk. split; [lia|].
    apply aligned_lt; [lia|apply cell_aligned; assumption|apply cell_len_glen; assumption|lia]. }
  destruct Hn as [_ M]. specialize (M k).
  destruct (cell_aligned m Hwf c0 k Vc) as [q Hq]. destruct (cell_len_glen m Hwf c0 k Vc) as [g Hg].
  rewrite Hq, Hg in *. 
  assert (0 < q + get h k + 1) by (apply (Z.mul_lt_mono_pos_r L); lia).
  assert (q + get h k < g) by (apply (Z.mul_lt_mono_pos_r L); lia).
  pose proof (Z.mul_le_mono_nonneg_r 0 (q + get h k) L ltac:(lia) ltac:(lia)).
  pose proof (Z.mul_le_mono_nonneg_r (q + get h k + 1) g L ltac:(lia) ltac:(lia)). lia.
Qed.

Lemma unique_large cur off : ex cur = true -> nbr m t c0 h cur off -> (len_of m cur = L \/ len_of m cur = 2 * L) ->
  forall n o, ex n = true -> nbr m t c0 h n o -> n = cur /\ o = off.
Proof.
  intros Ec Nc Sc n o En Nn. pose proof (large_contains cur off Ec Nc Sc) as LC.
  destruct (common_point n o Nn En) as (x & X1 & X2).
  destruct (same_box m Hwf t ex Htile n (vadd b o) cur (vadd b off) x En Ec (proj1 Nn) (proj1 Nc)) as [E1 E2].
  - intros k. rewrite get_vadd. apply X2.
  - intros k. rewrite get_vadd. specialize (LC k). specialize (X1 k). lia.
  - split; [assumption|]. apply add_cancel, E2.
Qed.

(** case of smaller neighbors *)
Section Small.
Context (cur : Z) (off : idx) (Ecur : ex cur = true) (Ncur : nbr m t c0 h cur off).
Context (Scur : L = 2 * len_of m cur).
Notation s := (len_of m cur).

Lemma s_pos : 0 < s. Proof. apply cell_len_pos; auto using V. Qed.

Lemma small_aligned n o k : ex n = true -> nbr m t c0 h n o -> len_of m n = s ->
  (s | get o k) /\ (get o k = get h k * L \/ get o k = get h k * L + s).
Proof.
  intros En [P M] Sn. specialize (M k). pose proof s_pos as Ps. pose proof (V c0 Ec0) as Vc.
  pose proof (lands_aligned m Hwf t _ _ k (V n En) P) as Al. rewrite get_vadd, Sn in Al.
  assert (s | get o k) as Ao.
  { apply (Z.divide_add_cancel_r _ (get b k)); [|assumption].
    apply Z.divide_trans with L; [rewrite Scur; exists 2; ring|apply cell_aligned; assumption]. }
  split; [assumption|]. destruct Ao as [q Hq]. rewrite Hq in *. rewrite Sn, Scur in *.
  assert (q < 2 * get h k + 2) by (apply (Z.mul_lt_mono_pos_r s); lia).
  assert (2 * get h k < q + 1) by (apply (Z.mul_lt_mono_pos_r s); lia).
  assert (q = 2 * get h k \/ q = 2 * get h k + 1) as [->| ->] by lia; [left|right]; ring.
Qed.

Lemma cur_level : 0 < lvl_of m cur.
Proof.
  pose proof (V c0 Ec0) as Vc. pose proof (V cur Ecur) as Vn. pose proof (cell_level m Hwf c0 Vc).
  pose proof (cell_level m Hwf cur Vn). rewrite !(cell_len m Hwf) in Scur by assumption.
  destruct (Z_le_gt_dec (lvl_of m cur) 0); [exfalso|lia].
  rewrite <- pow2_dbl in Scur by lia. apply Z.pow_inj_r in Scur; lia.
Qed.

Notation par := (get_parent m cur).
Notation e0 := (vsub (idx_of m cur) (idx_of m par)).
Definition base : idx := vmap (fun k => get h k * L).

Lemma base_off : vsub off e0 = base.
Proof.
  apply idx_ext. intros k. unfold base. rewrite get_vmap, !get_vsub.
  pose proof (parent_facts m Hwf cur (V cur Ecur) cur_level) as (Vp & Lp & Sp & _ & Ip). cbn zeta in *.
  rewrite Ip, <- Scur. pose proof (V c0 Ec0) as Vc. pose proof (cell_len_pos m Hwf c0 Vc) as PL.
  destruct Ncur as [P M].
  pose proof (lands_diff m Hwf t _ _ par k Vp P) as D. rewrite get_vadd, Sp, <- Scur in D.
  assert (rdown L (get b k + get off k) = get b k + get h k * L) as R1.
  { apply rdown_unique; [assumption| |].
    - apply Z.divide_add_r; [apply cell_aligned; assumption|exists (get h k); reflexivity].
    - destruct (small_aligned cur off k Ecur Ncur eq_refl) as [_ [E|E]]; rewrite E; pose proof s_pos; lia. }
  assert (rdown L (get (idx_of m cur) k) + (get b k + get off k - get (idx_of m cur) k) = rdown L (get b k + get off k)) as R2.
  { rewrite <- rdown_add by assumption. f_equal. ring. }
  lia.
Qed.

Lemma parent_lands : lands m t (vadd b base) (idx_of m par).
Proof.
  pose proof (parent_facts m Hwf cur (V cur Ecur) cur_level) as (Vp & Lp & Sp & _ & Ip). cbn zeta in *.
  destruct Ncur as [[G P] _]. split; [apply cell_in_grid; assumption|]. intros k. specialize (P k).
  pose proof (f_equal (fun v => get v k) base_off) as Eb. cbn beta in Eb. rewrite !get_vsub in Eb.
  rewrite get_vadd in *. destruct (per t k).
  - destruct P as [a Ha]. exists a. lia.
  - lia.
Qed.

(** every octant of the region is an existing cell *)
Lemma octant e : In e (corners s) ->
  ex (kid_at m par e) = true /\ nbr m t c0 h (kid_at m par e) (vadd base e).
Proof.
  intros He. pose proof (V cur Ecur) as Vn. pose proof (V c0 Ec0) as Vc.
  pose proof (parent_facts m Hwf cur Vn cur_level) as (Vp & Lp & Sp & _ & Ip). cbn zeta in *.
  pose proof (cell_level m Hwf cur Vn) as Lc. pose proof s_pos as Ps.
  assert (2 ^ (m_max m - (lvl_of m par + 1)) = s) as Es.
  { rewrite Lp. rewrite (cell_len m Hwf) by assumption. f_equal. lia. }
  pose proof (kid_facts m Hwf par e Vp ltac:(lia)) as K. cbn zeta in K. rewrite Es in K. specialize (K He).
  destruct K as (Vk & Lk & Sk & Ik). set (kd := kid_at m par e) in *.
  pose proof (proj1 (corners_in s e) He) as Ce.
  set (y := vadd (vadd b base) e).
  assert (forall k, get y k = get b k + get h k * L + get e k) as Ey.
  { intros k. unfold y, base. rewrite !get_vadd, get_vmap. reflexivity. }
  assert (lands m t y (idx_of m kd)) as Ly.
  { destruct parent_lands as [_ P]. split; [apply cell_in_grid; assumption|]. intros k. specialize (P k).
    rewrite Ik. unfold y. rewrite get_vadd, (get_vadd (idx_of m par)). destruct (per t k).
    - destruct P as [a Ha]. exists a. lia.
    - lia. }
  destruct (leaf_at m ex Htile _ (proj1 Ly)) as (n & En & Cn).
  pose proof (V n En) as Vnn.
  pose proof (lands_rdown m Hwf t y _ n Vnn Ly Cn) as Ln.
  set (q := vmap (fun k => rdown (len_of m n) (get y k))) in *.
  pose proof (cell_len_pos m Hwf n Vnn) as Pn.
  assert (nbr m t c0 h n (vsub q b)) as Nn.
  { split.
    - unfold placed. replace (vadd b (vsub q b)) with q; [assumption|].
      apply idx_ext. intros k. rewrite get_vadd, get_vsub. lia.
    - intros k. rewrite get_vsub. unfold q. rewrite get_vmap. pose proof (rdown_le (len_of m n) (get y k) Pn).
      rewrite Ey in *. destruct (Ce k) as [Q|Q]; rewrite Q in *; lia. }
  destruct (sizes n _ En Nn) as [Q|Q].
  - (* half size *)
    assert (len_of m n = s) as Sn by lia.
    assert (n = kd) as ->.
    { apply (cell_eq m Hwf); try assumption.
      - apply idx_ext. intros k. symmetry.
        pose proof (proj1 (covers_rdown m Hwf n _ Vnn) Cn k) as R1. rewrite <- R1. symmetry. apply rdown_self; [assumption|].
        rewrite Sn, <- Sk. apply cell_aligned; assumption.
      - pose proof (cell_level m Hwf n Vnn). pose proof (cell_level m Hwf kd Vk).
        rewrite <- Sk in Sn. rewrite !(cell_len m Hwf) in Sn by assumption. apply Z.pow_inj_r in Sn; lia. }
    split; [assumption|]. replace (vadd base e) with (vsub q b); [assumption|].
    apply idx_ext. intros k. rewrite get_vsub, get_vadd. unfold q, base. rewrite !get_vmap.
    rewrite rdown_self; [rewrite Ey; ring|assumption|]. apply (lands_aligned m Hwf t _ _ k Vnn Ly).
  - exfalso. destruct (unique_large n _ En Nn Q cur off Ecur Ncur) as [E _]. rewrite <- E in Q. pose proof s_pos. lia.
Qed.

Lemma small_complete n o : ex n = true -> nbr m t c0 h n o ->
  exists e, In e (corners s) /\ n = kid_at m par e /\ o = vadd base e.
Proof.
  intros En Nn. pose proof s_pos as Ps.
  destruct (sizes n o En Nn) as [Q|Q].
  2:{ exfalso. destruct (unique_large n o En Nn Q cur off Ecur Ncur) as [E _]. rewrite <- E in Q. lia. }
  assert (len_of m n = s) as Sn by lia.
  set (e := vsub o base).
  assert (In e (corners s)) as He.
  { apply corners_in. intros k. unfold e, base. rewrite get_vsub, get_vmap.
    destruct (small_aligned n o k En Nn Sn) as [_ [->| ->]]; [left|right]; ring. }
  exists e. split; [assumption|].
  assert (vadd base e = o) as Eo by (apply idx_ext; intros k; unfold e; rewrite get_vadd, get_vsub; lia).
  destruct (octant e He) as [Ek Nk]. rewrite Eo in Nk. split; [|symmetry; assumption].
  destruct (same_box m Hwf t ex Htile n (vadd b o) _ (vadd b o) (vadd b o) En Ek (proj1 Nn) (proj1 Nk)) as [E _].
  - intros k. pose proof (cell_len_pos m Hwf n (V n En)). lia.
  - intros k. pose proof (cell_len_pos m Hwf _ (V _ Ek)). lia.
  - assumption.
Qed.
End Small.

Theorem find_item_spec : exists item, find_item ex m t c0 h = Done item /\ NoDup item /\
  (forall n o, In (n, o) item <-> ex n = true /\ nbr m t c0 h n o) /\ item_shape m t c0 h item.
Proof.
  unfold find_item. fold (len_of m c0). fold (lo m c0 h). fold (hi m c0 h).
  pose proof (cell_len_pos m Hwf c0 (V c0 Ec0)) as PL.
  destruct (walk_result m Hwf t ex Htile H Hbal Hfaces c0 Ec0 h Hbox) as [[Wk NR]|(cur & off & Wk & Ec & Lc & Mc)]; rewrite Wk.
  - rewrite region_reachable in NR. exists []. split; [reflexivity|]. split; [constructor|]. split.
    + intros n o. split; [intros []|]. intros [En Nn]. apply NR. apply (nbr_region n o); assumption.
    + left. split; [assumption|reflexivity].
  - assert (nbr m t c0 h cur off) as Nc.
    { split; [exact Lc|]. intros k. specialize (Mc k). rewrite get_lo, get_hi in Mc. lia. }
    pose proof (nbr_region cur off Ec Nc) as RG.
    destruct (sizes cur off Ec Nc) as [Q|Q].
    + rewrite (expand_smaller m Hwf) by (auto using V, cur_level || (pose proof (cell_len_pos m Hwf cur (V cur Ec)); lia)).
      eexists. split; [reflexivity|]. rewrite (base_off cur off Ec Nc Q).
      set (f := fun e => (kid_at m (get_parent m cur) e, vadd base e)).
      assert (map snd (map f (corners (len_of m cur))) = map (fun e => vadd base e) (corners (len_of m cur))) as Es.
      { rewrite map_map. reflexivity. }
      split; [|split].
      * apply (NoDup_map_inv snd). rewrite Es. apply FinFun.Injective_map_NoDup.
        { intros x y E. apply idx_ext. intros k. pose proof (f_equal (fun v => get v k) E) as Qk. cbn beta in Qk.
          rewrite !get_vadd in Qk. lia. }
        apply corners_nodup. pose proof (s_pos cur Ec). lia.
      * intros n o. rewrite in_map_iff. split.
        { intros (e & E & He). injection E as <- <-. apply octant with (off := off); assumption. }
        { intros [En Nn]. destruct (small_complete cur off Ec Nc Q n o En Nn) as (e & He & -> & ->).
          exists e. split; [reflexivity|assumption]. }
      * right. right. split; [assumption|]. exists (len_of m cur). split; [assumption|]. split; [apply s_pos; assumption|].
        split; [|exact Es]. intros n o Hi. apply in_map_iff in Hi. destruct Hi as (e & E & He). injection E as <- <-.
        pose proof (parent_facts m Hwf cur (V cur Ec) (cur_level cur Ec Q)) as (Vp & Lp & _). cbn zeta in *.
        pose proof (cell_level m Hwf cur (V cur Ec)).
        pose proof (kid_facts m Hwf (get_parent m cur) e Vp ltac:(lia)) as K. cbn zeta in K. rewrite Lp in K.
        replace (lvl_of m cur - 1 + 1) with (lvl_of m cur) in K by lia. rewrite <- (cell_len m Hwf) in K by (auto using V).
        apply K, He.
    + unfold expand. fold (len_of m cur). replace (L <=? len_of m cur) with true by lia.
      eexists. split; [reflexivity|]. split; [constructor; [intros []|constructor]|]. split.
      * intros n o. split.
        { intros [E|[]]. injection E as <- <-. split; assumption. }
        { intros [En Nn]. destruct (unique_large cur off Ec Nc Q n o En Nn) as [-> ->]. left. reflexivity. }
      * right. left. split; [assumption|]. exists cur, off. split; [reflexivity|]. split; [assumption|].
        apply large_contains; assumption.
Qed.
End Item.

(** C14 *)
Theorem c14_neighbors_of m t n ex c U :
  mesh m t n ex -> ex c = true -> (forall h, In h U -> In h (default_hood_of n)) ->
  exists items,
    find_neighbors_of ex m t c U = Done (concat items) /\
    Forall2 (fun h item => NoDup item /\
      (forall n o, In (n, o) item <-> ex n = true /\ nbr m t c h n o) /\ item_shape m t c h item) U items.
Proof.
  intros (Hwf & Hn & Htile & Hbal) Ec HU.
  unfold find_neighbors_of. pose proof (leaf_valid m ex Htile c Ec) as Vc. unfold valid in Vc. unfold error_cell.
  replace (c =? 0) with false by lia. rewrite Ec. rewrite (has_neighbors_leaf m Hwf ex Htile c Ec). cbn [orb negb].
  induction U as [|h U IH].
  - exists []. split; [reflexivity|constructor].
  - destruct IH as (items & E & F); [intros h' Hh'; apply HU; right; assumption|].
    pose proof (HU h (or_introl eq_refl)) as Hh.
    destruct (find_item_spec m Hwf t ex Htile (default_hood_of n) Hbal (default_faces n Hn) c Ec h Hh (default_box_closed n h Hn Hh))
      as (item & Ei & P).
    exists (item :: items). cbn [find_items]. rewrite Ei, E. split; [reflexivity|]. constructor; assumption.
Qed.

(** consequence: membership in the list *)
Corollary neighbors_of_in m t n ex c U :
  mesh m t n ex -> ex c = true -> (forall h, In h U -> In h (default_hood_of n)) ->
  exists l, find_neighbors_of ex m t c U = Done l /\
    forall x o, In (x, o) l <-> ex x = true /\ exists h, In h U /\ nbr m t c h x o.
Proof.
  intros M Ec HU. destruct (c14_neighbors_of m t n ex c U M Ec HU) as (items & E & F).
  exists (concat items). split; [assumption|]. intros x o. clear E HU. induction F as [|h item U items P F IH].
  - cbn. split; [intros []|intros (_ & h & [] & _)].
  - cbn [concat]. rewrite in_app_iff, IH. destruct P as (_ & P & _). rewrite P. split.
    + intros [[Ex Hn]|(Ex & h' & Hh & Hn)]; (split; [assumption|]); [exists h|exists h']; cbn [In]; auto.
    + intros (Ex & h' & [->|Hh] & Hn); [left; auto|right]. split; [assumption|]. exists h'. auto.
Qed.
