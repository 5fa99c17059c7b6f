(** Children and siblings of a cell in terms of index boxes. *)
From Verif Require Import U64 MapModel MapSpec MapProofs MapFamily MapProps HoodModel MeshModel
  MeshSpec MeshBase.
Open Scope Z_scope.

(** lower corners of the eight octants of size s, x fastest *)
Definition corners (s : Z) : list idx :=
  flat_map (fun dz => flat_map (fun dy => map (fun dx => Idx dx dy dz) [0; s]) [0; s]) [0; s].

Lemma corners_in s e : In e (corners s) <-> forall k, get e k = 0 \/ get e k = s.
Proof.
  rewrite forall_dim. destruct e as [x y z]. cbn [get ix iy iz]. split.
  - cbn. intros Hc. repeat destruct Hc as [Hc|Hc]; try (inversion Hc; auto; fail).
  - intros ([->| ->]&[->| ->]&[->| ->]); cbn; auto 10.
Qed.

Lemma corners_nodup s : s <> 0 -> NoDup (corners s).
Proof.
  intros Hs. cbn. repeat (constructor; [cbn [In]; intros H;
    repeat destruct H as [H|H]; try (injection H; lia); try destruct H |]). constructor.
Qed.

Lemma position_nth l : forall i x, NoDup l -> nth_error l i = Some x -> position x l = Some i.
Proof.
  induction l as [|y l IH]; intros i x N E; [destruct i; discriminate|].
  apply NoDup_cons_iff in N. destruct N as [N1 N2]. cbn [position]. destruct i as [|i]; cbn [nth_error] in E.
  - injection E as ->. rewrite Z.eqb_refl. reflexivity.
  - destruct (Z.eqb_spec x y) as [Exy|Nxy].
    + subst y. apply nth_error_In in E. contradiction.
    + rewrite (IH i x N2 E). reflexivity.
Qed.

Section Kids.
Context (m : mapping) (Hwf : wf m).
Notation d := (dims_of m).

Definition kid_at (c : Z) (e : idx) : Z := get_cell_from_indices m (vadd (idx_of m c) e) (lvl_of m c + 1).

Lemma kid_len c : valid m c -> lvl_of m c < m_max m ->
  len_of m c = 2 * 2 ^ (m_max m - (lvl_of m c + 1)).
Proof.
  intros V Hl. rewrite (cell_len m Hwf) by assumption. pose proof (cell_level m Hwf c V).
  rewrite <- pow2_dbl by lia. f_equal. lia.
Qed.

Lemma kid_facts c e : valid m c -> lvl_of m c < m_max m ->
  let s := 2 ^ (m_max m - (lvl_of m c + 1)) in In e (corners s) ->
  let k := kid_at c e in
  valid m k /\ lvl_of m k = lvl_of m c + 1 /\ len_of m k = s /\ idx_of m k = vadd (idx_of m c) e.
Proof.
  intros V Hl s He k. pose proof (cell_level m Hwf c V) as Lc. pose proof (kid_len c V Hl) as Ls. fold s in Ls.
  assert (0 < s) as Ps by (apply Z.pow_pos_nonneg; lia).
  pose proof (proj1 (corners_in s e) He) as Ce.
  assert (covers m c (vadd (idx_of m c) e)) as Cv.
  { apply covers_k. intros j. rewrite get_vadd. destruct (Ce j); lia. }
  pose proof (covers_in_grid m Hwf c _ V Cv) as G.
  pose proof (cell_at m Hwf (vadd (idx_of m c) e) (lvl_of m c + 1) G ltac:(lia)) as (Vk & Lk & _ & Ik).
  fold (kid_at c e) in *. fold k in Vk, Lk, Ik.
  split; [assumption|]. split; [assumption|]. split; [rewrite (cell_len m Hwf) by assumption; rewrite Lk; reflexivity|].
  apply idx_ext. intros j. rewrite Ik. fold s. apply rdown_self; [assumption|]. rewrite get_vadd.
  apply Z.divide_add_r.
  - apply Z.divide_trans with (len_of m c); [rewrite Ls; exists 2; ring|]. apply cell_aligned; assumption.
  - destruct (Ce j) as [-> | ->]; [apply Z.divide_0_r|apply Z.divide_refl].
Qed.

Lemma children_list c : valid m c -> lvl_of m c < m_max m ->
  get_all_children m c = map (kid_at c) (corners (2 ^ (m_max m - (lvl_of m c + 1)))).
Proof.
  intros V Hl. pose proof (cell_level m Hwf c V) as Lc. pose proof (kid_len c V Hl) as Ls.
  unfold get_all_children. fold (lvl_of m c). pose proof V as V'. unfold valid in V'. unfold error_cell.
  replace (c =? 0) with false by lia. replace (m_max m <=? lvl_of m c) with false by lia.
  cbn zeta. set (s := 2 ^ (m_max m - (lvl_of m c + 1))) in *.
  assert (0 < s) as Ps by (apply Z.pow_pos_nonneg; lia).
  assert (shl1 (m_max m - (lvl_of m c + 1)) = s) as ->.
  { apply shl1_small. pose proof (wf_max_le_21 m Hwf). lia. }
  assert (forall k e, (e = 0 \/ e = s) -> add64 (get (idx_of m c) k) e = get (idx_of m c) k + e) as A.
  { intros k e He. apply Z.mod_small.
    pose proof (proj1 (in_grid_k m _) (cell_in_grid m Hwf c V) k).
    pose proof (glen_lt_W m Hwf k).
    pose proof (aligned_lt (len_of m c) (get (idx_of m c) k) (glen m k) (cell_len_pos m Hwf c V)
      (cell_aligned m Hwf c k V) (cell_len_glen m Hwf c k V) ltac:(lia)). lia. }
  assert (forall dx dy dz, (dx = 0 \/ dx = s) -> (dy = 0 \/ dy = s) -> (dz = 0 \/ dz = s) ->
    Idx (add64 (ix (get_indices m c)) dx) (add64 (iy (get_indices m c)) dy) (add64 (iz (get_indices m c)) dz)
    = vadd (idx_of m c) (Idx dx dy dz)) as B.
  { intros dx dy dz Hx Hy Hz. apply idx_ext. intros k. rewrite get_vadd. destruct k; cbn [get ix iy iz].
    - apply (A DX); assumption. - apply (A DY); assumption. - apply (A DZ); assumption. }
  unfold corners. cbn [flat_map map app]. unfold kid_at.
  rewrite !B by auto. reflexivity.
Qed.

Lemma children_nodup c : valid m c -> lvl_of m c < m_max m -> NoDup (get_all_children m c).
Proof.
  intros V Hl. rewrite children_list by assumption.
  set (s := 2 ^ (m_max m - (lvl_of m c + 1))).
  assert (0 < s) as Ps by (apply Z.pow_pos_nonneg; pose proof (cell_level m Hwf c V); lia).
  pose proof (corners_nodup s ltac:(lia)) as N.
  assert (forall l, incl l (corners s) -> NoDup l -> NoDup (map (kid_at c) l)) as K.
  { induction l as [|e l IH]; intros I Nl; [constructor|]. apply NoDup_cons_iff in Nl. cbn [map].
    constructor; [|apply IH; [intros x Hx; apply I; right; assumption|tauto]].
    rewrite in_map_iff. intros (e' & E & He').
    pose proof (kid_facts c e V Hl (I e (or_introl eq_refl))) as (_ & _ & _ & I1).
    pose proof (kid_facts c e' V Hl (I e' (or_intror He'))) as (_ & _ & _ & I2).
    cbn zeta in *. rewrite E in I2. rewrite I1 in I2.
    assert (e = e'); [|subst e'; tauto].
    apply idx_ext. intros k. pose proof (f_equal (fun v => get v k) I2) as Q. cbn beta in Q. rewrite !get_vadd in Q. lia. }
  apply K; [apply incl_refl|assumption].
Qed.

(** the octant of a cell in its parent *)
Lemma in_parent c : valid m c -> 0 < lvl_of m c ->
  let e := vsub (idx_of m c) (idx_of m (get_parent m c)) in
  In e (corners (len_of m c)) /\ kid_at (get_parent m c) e = c.
Proof.
  intros V Hl e. pose proof (parent_facts m Hwf c V Hl) as (Vp & Lp & Sp & Np & Ip). cbn zeta in *.
  pose proof (cell_len_pos m Hwf c V) as Pc.
  split.
  - apply corners_in. intros k. unfold e. rewrite get_vsub, Ip.
    destruct (cell_aligned m Hwf c k V) as [q Hq]. rewrite Hq.
    destruct (Z.Even_or_Odd q) as [[r ->]|[r ->]].
    + left. rewrite rdown_self; [lia|lia|]. exists r. ring.
    + right. rewrite (rdown_unique (2 * len_of m c) _ (2 * r * len_of m c)); [ring|lia| |lia]. exists r. ring.
  - unfold kid_at. rewrite Lp. replace (lvl_of m c - 1 + 1) with (lvl_of m c) by lia.
    replace (vadd (idx_of m (get_parent m c)) e) with (idx_of m c).
    + apply cell_back; assumption.
    + apply idx_ext. intros k. unfold e. rewrite get_vadd, get_vsub. lia.
Qed.

Lemma siblings_list c : valid m c -> 0 < lvl_of m c ->
  get_siblings m c = map (kid_at (get_parent m c)) (corners (len_of m c)).
Proof.
  intros V Hl. pose proof (parent_facts m Hwf c V Hl) as (Vp & Lp & Sp & _). cbn zeta in *.
  pose proof (cell_level m Hwf c V) as Lc.
  unfold get_siblings. fold (lvl_of m c).
  replace (lvl_of m c <? 0) with false by lia. replace (m_max m <? lvl_of m c) with false by lia.
  replace (lvl_of m c =? 0) with false by lia. cbn [orb].
  rewrite children_list by (assumption || lia). rewrite Lp.
  replace (lvl_of m c - 1 + 1) with (lvl_of m c) by lia. rewrite <- (cell_len m Hwf) by assumption. reflexivity.
Qed.

(** expand lists the eight siblings with their offsets *)
Lemma expand_smaller cl cur off : valid m cur -> 0 < lvl_of m cur -> len_of m cur < cl ->
  let p := get_parent m cur in
  let e0 := vsub (idx_of m cur) (idx_of m p) in
  expand m cl cur off = Done (map (fun e => (kid_at p e, vadd (vsub off e0) e)) (corners (len_of m cur))).
Proof.
  intros V Hl Hc p e0. pose proof (in_parent cur V Hl) as (Ie & Ek). cbn zeta in *. fold p in Ie, Ek. fold e0 in Ie, Ek.
  pose proof (parent_facts m Hwf cur V Hl) as (Vp & Lp & _). cbn zeta in *. fold p in Vp, Lp.
  pose proof (siblings_list cur V Hl) as Sl. fold p in Sl.
  assert (NoDup (get_siblings m cur)) as N.
  { pose proof (cell_level m Hwf cur V) as Lc.
    pose proof (children_nodup p Vp ltac:(lia)) as N. rewrite children_list in N by (assumption || lia).
    rewrite Lp in N. replace (lvl_of m cur - 1 + 1) with (lvl_of m cur) in N by lia.
    rewrite <- (cell_len m Hwf) in N by assumption. rewrite Sl. exact N. }
  unfold expand. fold (len_of m cur). replace (cl <=? len_of m cur) with false by lia.
  set (s := len_of m cur) in *.
  assert (exists i, nth_error (corners s) i = Some e0) as [i Hi] by (apply In_nth_error, Ie).
  assert (nth_error (get_siblings m cur) i = Some cur) as Hn.
  { rewrite Sl, nth_error_map, Hi. cbn [option_map]. rewrite Ek. reflexivity. }
  rewrite (position_nth _ _ _ N Hn). rewrite Sl. f_equal.
  destruct e0 as [x y z] eqn:E0.
  assert (forall x y z dx dy dz, Idx (x - dx) (y - dy) (z - dz) = vsub (Idx x y z) (Idx dx dy dz)) as Q by reflexivity.
  cbn [corners flat_map map app nth_error] in Hi.
  do 8 (destruct i as [|i]; [injection Hi as <- <- <-; reflexivity|cbn [nth_error] in Hi]).
  destruct i; discriminate Hi.
Qed.
End Kids.
