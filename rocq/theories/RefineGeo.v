(** Geometry of adaptation: neighborhoods of nested boxes, and the grid after replacing some
    cells by their children and some families by their parents. *)
From Verif Require Import U64 MapModel MapSpec MapProofs MapFamily MapProps HoodModel MeshModel
  MeshSpec MeshBase HoodProps MeshWalk MeshFind MeshKids MeshItem MeshCheck MeshTo MeshNear.
Open Scope Z_scope.

(** closer than d lengths in one dimension; x is the offset of the second interval *)
Definition close (d L s x : Z) : Prop := x < L + d * L /\ - (d * L) < x + s.
Definition reach (n L s : Z) (o : idx) : Prop :=
  if n =? 0 then exists k, close 1 L s (get o k) /\ forall j, j <> k -> close 0 L s (get o j)
  else forall k, close n L s (get o k).

Section Geo.
Context (m : mapping) (Hwf : wf m) (t : topo) (n : Z) (Hn : 0 <= n).
Notation H := (default_hood_of n).

Lemma sees_reach a b : valid m a -> valid m b -> disjoint m a b ->
  sees m t H a b <-> exists o, placed m t a b o /\ reach n (len_of m a) (len_of m b) o.
Proof.
  intros Va Vb Hd. pose proof (cell_len_pos m Hwf a Va) as PL. pose proof (cell_len_pos m Hwf b Vb) as Ps.
  unfold reach. destruct (Z.eqb_spec n 0) as [->|N].
  - split.
    + intros (h & o & Hh & P & M). apply default_hood_in in Hh; [|lia]. destruct Hh as (k & e & He & ->).
      exists o. split; [assumption|]. exists k. split.
      * specialize (M k). rewrite get_upd_same in M. unfold close. destruct He as [-> | ->]; lia.
      * intros j Nj. specialize (M j). rewrite get_upd_other, get_vzero in M by assumption. unfold close. lia.
    + intros (o & P & k & Ck & Co).
      set (e := if get o k <? len_of m a then -1 else 1).
      exists (upd vzero k e), o. split; [apply default_hood_in; [lia|]; exists k, e; split; [unfold e; destruct (_ <? _); auto|reflexivity]|].
      split; [assumption|]. intros j. destruct (dim_eq_dec j k) as [->|Nj].
      * rewrite get_upd_same. unfold close in Ck.
        assert (get o k < len_of m a -> get o k + len_of m b <= 0) as A.
        { intros Q. destruct (Z_le_gt_dec (get o k + len_of m b) 0); [assumption|]. exfalso.
          set (x := vadd (idx_of m a) (vmap (fun j => Z.max 0 (get o j)))).
          apply (apart m Hwf t a b Va Vb Hd o x P).
          - intros j. unfold x. rewrite get_vadd, get_vmap. destruct (dim_eq_dec j k) as [->|Nj]; [lia|]. specialize (Co j Nj). unfold close in Co. lia.
          - intros j. unfold x. rewrite get_vadd, get_vmap. destruct (dim_eq_dec j k) as [->|Nj]; [lia|]. specialize (Co j Nj). unfold close in Co. lia. }
        unfold e. destruct (Z.ltb_spec (get o k) (len_of m a)); lia.
      * rewrite get_upd_other, get_vzero by assumption. specialize (Co j Nj). unfold close in Co. lia.
  - rewrite (sees_box m Hwf t a b Va Vb Hd n ltac:(lia)). unfold in_reach, close.
    split; intros (o & P & R); exists o; (split; [assumption|]); intros k; specialize (R k); lia.
Qed.

Lemma reach_flip L s o : 0 < L -> L <= s -> reach n L s o -> reach n s L (vneg o).
Proof.
  intros PL Hs. assert (forall d x, 0 <= d -> close d L s x -> close d s L (- x)) as F.
  { intros d x Hd. unfold close. assert (d * L <= d * s) by (apply Z.mul_le_mono_nonneg_l; lia). lia. }
  unfold reach. destruct (Z.eqb_spec n 0) as [->|N].
  - intros (k & Ck & Co). exists k. split; [rewrite get_vneg; apply F; [lia|assumption]|].
    intros j Nj. rewrite get_vneg. apply F; [lia|]. apply Co, Nj.
  - intros R k. rewrite get_vneg. apply F; [lia|]. apply R.
Qed.

Lemma placed_flip a b o : valid m a -> valid m b -> placed m t a b o -> placed m t b a (vneg o).
Proof.
  intros Va Vb P. unfold placed in *. apply (lands_back m Hwf t b a o Vb Va) in P.
  replace (vadd (idx_of m b) (vneg o)) with (vsub (idx_of m b) o); [assumption|].
  apply idx_ext. intros k. rewrite get_vadd, get_vsub, get_vneg. lia.
Qed.

Lemma disjoint_sym a b : disjoint m a b -> disjoint m b a.
Proof. intros Q i Cb Ca. exact (Q i Ca Cb). Qed.

(** a larger cell sees every cell that sees it *)
Lemma sees_flip a b : valid m a -> valid m b -> disjoint m a b -> len_of m a <= len_of m b ->
  sees m t H a b -> sees m t H b a.
Proof.
  intros Va Vb Hd Hl Hs. apply sees_reach in Hs; [|assumption..]. destruct Hs as (o & P & R).
  apply sees_reach; [assumption|assumption|apply disjoint_sym; assumption|]. exists (vneg o).
  split; [apply placed_flip; assumption|]. apply reach_flip; [apply cell_len_pos; assumption|assumption|assumption].
Qed.

(** boxes within boxes *)
Definition inside (a A : Z) : Prop := valid m a /\ valid m A /\
  forall k, get (idx_of m A) k <= get (idx_of m a) k /\ get (idx_of m a) k + len_of m a <= get (idx_of m A) k + len_of m A.

Lemma inside_refl a : valid m a -> inside a a.
Proof. intros V. split; [assumption|]. split; [assumption|]. intros k. lia. Qed.
Lemma inside_covers a A i : inside a A -> covers m a i -> covers m A i.
Proof. intros (_ & _ & I) C. apply covers_k. intros k. specialize (I k). pose proof (proj1 (covers_k m a i) C k). lia. Qed.
Lemma inside_parent a : valid m a -> 0 < lvl_of m a -> inside a (get_parent m a).
Proof.
  intros V Hl. pose proof (parent_facts m Hwf a V Hl) as (Vp & Lp & Sp & _). cbn zeta in *.
  split; [assumption|]. split; [assumption|]. intros k. pose proof (cell_len_pos m Hwf a V) as Pa.
  pose proof (parent_covers m Hwf a (idx_of m a) V Hl (covers_own m Hwf a V)) as C0.
  set (e := vmap (fun k => get (idx_of m a) k + (len_of m a - 1))).
  assert (covers m a e) as Ce. { apply covers_k. intros j. unfold e. rewrite get_vmap. lia. }
  pose proof (parent_covers m Hwf a e V Hl Ce) as C1.
  pose proof (proj1 (covers_k m _ _) C0 k). pose proof (proj1 (covers_k m _ _) C1 k) as Q. unfold e in Q. rewrite get_vmap in Q. lia.
Qed.

Lemma inside_disjoint a A b B : inside a A -> inside b B -> disjoint m A B -> disjoint m a b.
Proof. intros Ia Ib Hd i Ca Cb. apply (Hd i); [apply (inside_covers a); assumption|apply (inside_covers b); assumption]. Qed.

Lemma sees_up a A b B : inside a A -> inside b B -> disjoint m A B -> sees m t H a b -> sees m t H A B.
Proof.
  intros Ia Ib Hd Hs. pose proof Ia as (Va & VA & Ea). pose proof Ib as (Vb & VB & Eb).
  apply sees_reach in Hs; [|assumption|assumption|apply (inside_disjoint a A b B); assumption].
  destruct Hs as (o & P & R). apply sees_reach; [assumption|assumption|assumption|].
  exists (vadd o (vsub (vsub (idx_of m a) (idx_of m A)) (vsub (idx_of m b) (idx_of m B)))). split.
  - destruct P as [_ P]. split; [apply cell_in_grid; assumption|]. intros k. specialize (P k).
    rewrite !get_vadd, !get_vsub in *. destruct (per t k); [destruct P as [x Hx]; exists x; lia|lia].
  - pose proof (cell_len_pos m Hwf a Va) as Pa. pose proof (cell_len_pos m Hwf b Vb) as Pb.
    assert (len_of m a <= len_of m A) as La by (specialize (Ea DX); lia).
    assert (forall d k, 0 <= d -> close d (len_of m a) (len_of m b) (get o k) -> close d (len_of m A) (len_of m B)
       (get (vadd o (vsub (vsub (idx_of m a) (idx_of m A)) (vsub (idx_of m b) (idx_of m B)))) k)) as F.
    { intros d k Hd0. unfold close. rewrite get_vadd, !get_vsub. specialize (Ea k). specialize (Eb k).
      assert (d * len_of m a <= d * len_of m A) by (apply Z.mul_le_mono_nonneg_l; lia). lia. }
    unfold reach in *. destruct (n =? 0).
    + destruct R as (k & Ck & Co). exists k. split; [apply F; [lia|assumption]|]. intros j Nj. apply F; [lia|]. apply Co, Nj.
    + intros k. apply F; [assumption|]. apply R.
Qed.

(** a cell that sees P sees one of the children of P *)
Lemma sees_kid a P : valid m a -> valid m P -> lvl_of m P < m_max m -> disjoint m a P -> sees m t H a P ->
  exists p, valid m p /\ 0 < lvl_of m p /\ get_parent m p = P /\ lvl_of m p = lvl_of m P + 1 /\ sees m t H a p.
Proof.
  intros Va VP Hl Hd Hs. apply sees_reach in Hs; [|assumption..]. destruct Hs as (o & Po & R).
  pose proof (cell_level m Hwf P VP) as LP. pose proof (kid_len m Hwf P VP Hl) as El.
  set (s := 2 ^ (m_max m - (lvl_of m P + 1))) in *. assert (0 < s) as Ps by (apply Z.pow_pos_nonneg; lia).
  pose proof (cell_len_pos m Hwf a Va) as Pa.
  assert (forall d x, 0 <= d -> close d (len_of m a) (2 * s) x ->
    close d (len_of m a) s (x + (if x + s <=? - (d * len_of m a) then s else 0))) as F.
  { intros d x Hd0. unfold close. assert (0 <= d * len_of m a) by (apply Z.mul_nonneg_nonneg; lia). destruct (Z.leb_spec (x + s) (- (d * len_of m a))); lia. }
  rewrite El in R.
  assert (exists e, In e (corners s) /\ reach n (len_of m a) s (vadd o e)) as (e & He & Re).
  { unfold reach in *. destruct (n =? 0) eqn:En.
    - destruct R as (k & Ck & Co).
      exists (vmap (fun j => if get o j + s <=? - ((if dim_eq_dec j k then 1 else 0) * len_of m a) then s else 0)). split.
      + apply corners_in. intros j. rewrite get_vmap. destruct (_ <=? _); auto.
      + exists k. split.
        * rewrite get_vadd, get_vmap. destruct (dim_eq_dec k k); [|contradiction]. apply F; [lia|assumption].
        * intros j Nj. rewrite get_vadd, get_vmap. destruct (dim_eq_dec j k); [contradiction|]. apply F; [lia|]. apply Co, Nj.
    - exists (vmap (fun j => if get o j + s <=? - (n * len_of m a) then s else 0)). split.
      + apply corners_in. intros j. rewrite get_vmap. destruct (_ <=? _); auto.
      + intros k. rewrite get_vadd, get_vmap. apply F; [assumption|]. apply R. }
  pose proof (kid_facts m Hwf P e VP Hl He) as (Vk & Lk & Sk & Ik). cbn zeta in *. fold s in Sk.
  set (p := kid_at m P e) in *. exists p. split; [assumption|]. split; [lia|].
  assert (covers m P (idx_of m p)) as CP.
  { apply (kid_covers m Hwf P e); [assumption|assumption|assumption|]. apply covers_own; assumption. }
  assert (get_parent m p = P) as Ep.
  { pose proof (parent_facts m Hwf p Vk ltac:(lia)) as (Vq & Lq & _). cbn zeta in *.
    apply (overlap_same m Hwf _ _ (idx_of m p)); [assumption|assumption| |assumption|lia].
    apply (parent_covers m Hwf); [assumption|lia|]. apply covers_own; assumption. }
  split; [assumption|]. split; [assumption|].
  apply sees_reach; [assumption|assumption| |].
  - intros i Ca Cp. apply (Hd i Ca). apply (kid_covers m Hwf P e); assumption.
  - exists (vadd o e). split; [|rewrite Sk; assumption].
    destruct Po as [_ Po]. split; [apply cell_in_grid; assumption|]. intros k. specialize (Po k).
    rewrite !get_vadd in *. rewrite Ik, get_vadd. destruct (per t k); [destruct Po as [x Hx]; exists x; lia|lia].
Qed.

Lemma len_le_lvl a b : valid m a -> valid m b -> lvl_of m a <= lvl_of m b -> len_of m b <= len_of m a.
Proof.
  intros Va Vb Hl. rewrite !(cell_len m Hwf) by assumption. pose proof (cell_level m Hwf a Va). pose proof (cell_level m Hwf b Vb).
  apply Z.pow_le_mono_r; lia.
Qed.
Lemma kid_parent_eq p i P : valid m p -> valid m P -> 0 < lvl_of m p -> lvl_of m p = lvl_of m P + 1 -> covers m p i -> covers m P i -> get_parent m p = P.
Proof.
  intros Vp VP Hl E Cp CP. pose proof (parent_facts m Hwf p Vp Hl) as (Vq & Lq & _). cbn zeta in *.
  apply (overlap_same m Hwf _ _ i); [assumption|assumption| |assumption|lia]. apply (parent_covers m Hwf); assumption.
Qed.
Lemma kid_exists P i : valid m P -> lvl_of m P < m_max m -> covers m P i ->
  exists p, valid m p /\ lvl_of m p = lvl_of m P + 1 /\ covers m p i /\ get_parent m p = P.
Proof.
  intros VP Hl C. pose proof (cell_level m Hwf P VP).
  pose proof (cell_at m Hwf i (lvl_of m P + 1) (covers_in_grid m Hwf P i VP C) ltac:(lia)) as (V & L & Cq & _). cbn zeta in *.
  eexists. split; [exact V|]. split; [assumption|]. split; [assumption|]. apply (kid_parent_eq _ i); auto. lia.
Qed.

(** ** The grid after a commit *)
Section After.
Context (ex : Z -> bool) (Htile : tiling m ex) (Hbal : balanced m t H ex).
Context (R M : Z -> Prop).
Context (HR : forall c, R c -> ex c = true /\ lvl_of m c < m_max m).
Context (HM : forall p, M p -> valid m p /\ lvl_of m p < m_max m /\
  forall c, valid m c -> 0 < lvl_of m c -> get_parent m c = p -> ex c = true /\ ~ R c).
Context (Rdec : forall c, R c \/ ~ R c) (Mdec : forall c, M c \/ ~ M c).

Definition after (c : Z) : Prop :=
  (ex c = true /\ ~ R c /\ ~ (0 < lvl_of m c /\ M (get_parent m c))) \/
  (valid m c /\ 0 < lvl_of m c /\ R (get_parent m c)) \/
  M c.
Context (ex' : Z -> bool) (Hex' : forall c, ex' c = true <-> after c).
Notation V := (leaf_valid m ex Htile).

Lemma after_valid c : after c -> valid m c.
Proof. intros [(E & _)|[(E & _)|E]]; [apply V; assumption|assumption|apply HM; assumption]. Qed.

(** the old leaf behind a new cell at a position *)
Lemma after_old x i : after x -> covers m x i -> exists c, ex c = true /\ covers m c i /\
  ((c = x /\ ~ R c /\ ~ (0 < lvl_of m c /\ M (get_parent m c))) \/
   (R c /\ 0 < lvl_of m x /\ get_parent m x = c) \/
   (M x /\ 0 < lvl_of m c /\ get_parent m c = x)).
Proof.
  intros [(E & NR & NM)|[(Vx & Hl & Rp)|Mx]] C.
  - exists x. split; [assumption|]. split; [assumption|]. left. split; [reflexivity|]. split; assumption.
  - exists (get_parent m x). split; [apply HR; assumption|]. split; [apply (parent_covers m Hwf); assumption|]. right. left. auto.
  - destruct (HM x Mx) as (Vx & Hl & K). destruct (kid_exists x i Vx Hl C) as (p & Vp & Lp & Cp & Ep).
    pose proof (cell_level m Hwf x Vx). exists p. split; [apply (K p); auto; lia|]. split; [assumption|]. right. right. split; [assumption|]. split; [lia|assumption].
Qed.

Lemma tiling_after : tiling m ex'.
Proof.
  split; [intros c E; apply Hex' in E; apply after_valid; assumption|].
  intros i Hi. destruct (leaf_at m ex Htile i Hi) as (c & Ec & Cc). pose proof (V c Ec) as Vc.
  assert (exists x, after x /\ covers m x i) as (x & Ax & Cx).
  { destruct (Rdec c) as [Rc|NR].
    - destruct (kid_exists c i Vc (proj2 (HR c Rc)) Cc) as (p & Vp & Lp & Cp & Ep). pose proof (cell_level m Hwf c Vc).
      exists p. split; [|assumption]. right. left. rewrite Ep. split; [assumption|]. split; [lia|assumption].
    - destruct (Z_lt_le_dec 0 (lvl_of m c)) as [Hl|Hl].
      + destruct (Mdec (get_parent m c)) as [Mc|NM].
        * exists (get_parent m c). split; [right; right; assumption|]. apply (parent_covers m Hwf); assumption.
        * exists c. split; [left|assumption]. split; [assumption|]. split; [assumption|tauto].
      + exists c. split; [left|assumption]. split; [assumption|]. split; [assumption|]. intros [Q _]. lia. }
  exists x. split; [split; [apply Hex'; assumption|assumption]|]. intros y [Ey Cy]. apply Hex' in Ey.
  pose proof (after_valid x Ax) as Vx. pose proof (after_valid y Ey) as Vy.
  destruct (after_old x i Ax Cx) as (c1 & E1 & C1 & K1). destruct (after_old y i Ey Cy) as (c2 & E2 & C2 & K2).
  pose proof (leaf_unique m Hwf ex Htile c1 c i E1 Ec C1 Cc) as ->. pose proof (leaf_unique m Hwf ex Htile c2 c i E2 Ec C2 Cc) as ->.
  clear E2 C1 C2.
  assert (forall p, M p -> 0 < lvl_of m c -> get_parent m c = p -> ~ R c) as MR.
  { intros p Mp Hl Ep. apply (HM p Mp); assumption. }
  destruct K1 as [(-> & NR1 & NM1)|[(R1 & L1 & P1)|(M1 & L1 & P1)]]; destruct K2 as [(-> & NR2 & NM2)|[(R2 & L2 & P2)|(M2 & L2 & P2)]];
    try reflexivity; try contradiction.
  - exfalso. apply NM1. split; [assumption|]. rewrite P2. assumption.
  - pose proof (parent_facts m Hwf x Vx L1) as (_ & Lx & _). pose proof (parent_facts m Hwf y Vy L2) as (_ & Ly & _). cbn zeta in *.
    rewrite P1 in Lx. rewrite P2 in Ly. apply (overlap_same m Hwf x y i); auto. lia.
  - exfalso. apply (MR y M2 L2 P2). assumption.
  - exfalso. apply NM2. split; [assumption|]. rewrite P1. assumption.
  - exfalso. apply (MR x M1 L1 P1). assumption.
  - congruence.
Qed.

(** ** 2:1 rule *)
Context (HRc : forall r b, R r -> ex b = true -> lvl_of m b < lvl_of m r -> sees m t H r b \/ sees m t H b r -> R b).
Context (HMb : forall p b, M p -> ex b = true -> sees m t H p b -> lvl_of m b <= lvl_of m p + 1 /\ (lvl_of m b = lvl_of m p + 1 -> ~ R b)).

Lemma leaf_disjoint a b : ex a = true -> ex b = true -> a <> b -> disjoint m a b.
Proof. intros Ea Eb N i Ca Cb. apply N. apply (leaf_unique m Hwf ex Htile a b i); assumption. Qed.

(** a leaf outside of the family of P is disjoint from P *)
Lemma merged_disjoint P b : M P -> ex b = true -> ~ (0 < lvl_of m b /\ get_parent m b = P) -> disjoint m P b.
Proof.
  intros MP Eb NF i CP Cb. destruct (HM P MP) as (VP & Hl & K). destruct (kid_exists P i VP Hl CP) as (p & Vp & Lp & Cp & Ep).
  pose proof (cell_level m Hwf P VP). destruct (K p Vp ltac:(lia) Ep) as [E _].
  pose proof (leaf_unique m Hwf ex Htile p b i E Eb Cp Cb) as <-. apply NF. split; [lia|assumption].
Qed.

(** leaves seen by a merged parent are not larger than it *)
Lemma merged_sees_low P b : M P -> ex b = true -> disjoint m P b -> sees m t H P b -> lvl_of m P <= lvl_of m b.
Proof.
  intros MP Eb Hd Hs. destruct (Z_le_gt_dec (lvl_of m P) (lvl_of m b)); [assumption|]. exfalso.
  destruct (HM P MP) as (VP & Hl & K). pose proof (V b Eb) as Vb.
  assert (sees m t H b P) as Hs'.
  { apply sees_flip; auto. apply len_le_lvl; auto; lia. }
  destruct (sees_kid b P Vb VP Hl (disjoint_sym _ _ Hd) Hs') as (p & Vp & Lp0 & Ep & Lp & Sp).
  destruct (K p Vp Lp0 Ep) as [E _]. pose proof (Hbal b p Eb E Sp). lia.
Qed.

(** the leaf behind a new cell that is not a merged parent *)
Lemma split_old x : after x -> ~ M x -> exists c, ex c = true /\ inside x c /\
  ((c = x /\ ~ R c /\ ~ (0 < lvl_of m c /\ M (get_parent m c))) \/ (R c /\ lvl_of m x = lvl_of m c + 1)).
Proof.
  intros [(E & NR & NM)|[(Vx & Hl & Rp)|Mx]] Nx; [| |contradiction].
  - exists x. split; [assumption|]. split; [apply inside_refl, V; assumption|]. auto.
  - exists (get_parent m x). split; [apply HR; assumption|]. split; [apply inside_parent; assumption|]. right. split; [assumption|].
    pose proof (parent_facts m Hwf x Vx Hl) as (_ & L & _). cbn zeta in L. lia.
Qed.

(** new cells seen by a merged parent *)
Lemma merged_sees P b : M P -> after b -> P <> b -> sees m t H P b -> Z.abs (lvl_of m P - lvl_of m b) <= 1.
Proof.
  intros MP Ab N Hs. destruct (HM P MP) as (VP & Hl & K). pose proof (after_valid b Ab) as Vb.
  destruct (Mdec b) as [Mb|NM].
  - destruct (HM b Mb) as (_ & Hlb & Kb).
    assert (disjoint m P b) as Hd.
    { intros i CP Cb. apply N.
      destruct (proj2 tiling_after i (covers_in_grid m Hwf P i VP CP)) as (z & _ & U).
      rewrite <- (U P), <- (U b); [reflexivity| |]; (split; [apply Hex'; assumption || (right; right; assumption)|assumption]). }
    destruct (sees_kid P b VP Vb Hlb Hd Hs) as (p & Vp & Lp0 & Ep & Lp & Sp). destruct (Kb p Vp Lp0 Ep) as [E _].
    assert (disjoint m P p) as Hd'.
    { intros i CP Cp. apply (Hd i CP). rewrite <- Ep. apply (parent_covers m Hwf); assumption. }
    pose proof (HMb P p MP E Sp) as [Q _]. pose proof (merged_sees_low P p MP E Hd' Sp). lia.
  - destruct (split_old b Ab NM) as (c & Ec & Ic & Hc).
    assert (~ (0 < lvl_of m c /\ get_parent m c = P)) as NF.
    { intros [Q1 Q2]. destruct (K c (V c Ec) Q1 Q2) as [_ NR]. destruct Hc as [(-> & _ & NMc)|(Rc & _)]; [|contradiction].
      apply NMc. rewrite Q2. auto. }
    pose proof (merged_disjoint P c MP Ec NF) as Hd.
    assert (sees m t H P c) as Hs' by (apply (sees_up P P b c); auto using inside_refl).
    pose proof (HMb P c MP Ec Hs') as [Q1 Q2]. pose proof (merged_sees_low P c MP Ec Hd Hs') as Q3.
    destruct Hc as [(-> & _)|(Rc & Lb)]; [lia|]. destruct (Z.eq_dec (lvl_of m c) (lvl_of m P + 1)) as [E|NE]; [destruct (Q2 E Rc)|lia].
Qed.

Lemma after_disjoint a b : after a -> after b -> a <> b -> disjoint m a b.
Proof.
  intros Aa Ab N i Ca Cb. apply N. pose proof (after_valid a Aa) as Va.
  destruct (proj2 tiling_after i (covers_in_grid m Hwf a i Va Ca)) as (z & _ & U).
  rewrite <- (U a), <- (U b); [reflexivity| |]; (split; [apply Hex'; assumption|assumption]).
Qed.

Lemma balanced_after : balanced m t H ex'.
Proof.
  intros a b Ea Eb Hs. apply Hex' in Ea. apply Hex' in Eb.
  destruct (Z.eq_dec a b) as [->|N]; [lia|].
  pose proof (after_valid a Ea) as Va. pose proof (after_valid b Eb) as Vb.
  pose proof (after_disjoint a b Ea Eb N) as Hd.
  destruct (Mdec a) as [Ma|NMa]; [apply merged_sees; assumption|].
  destruct (split_old a Ea NMa) as (A & EA & IA & HA).
  destruct (Mdec b) as [Mb|NMb].
  - destruct (Z_le_gt_dec (lvl_of m b) (lvl_of m a)) as [Hl|Hl].
    + assert (sees m t H b a) as Hs' by (apply sees_flip; auto; apply len_le_lvl; auto).
      pose proof (merged_sees b a Mb Ea (fun E => N (eq_sym E)) Hs'). lia.
    + destruct (HM b Mb) as (_ & Hlb & Kb). destruct (sees_kid a b Va Vb Hlb Hd Hs) as (p & Vp & Lp0 & Ep & Lp & Sp).
      destruct (Kb p Vp Lp0 Ep) as [E NRp].
      assert (A <> p) as NA.
      { intros ->. destruct HA as [(-> & _ & NM)|(Rp & _)]; [|contradiction]. apply NM. rewrite Ep. auto. }
      pose proof (sees_up a A p p IA (inside_refl p Vp) (leaf_disjoint A p EA E NA) Sp) as SA.
      pose proof (Hbal A p EA E SA). destruct HA as [(-> & _)|(_ & LA)]; lia.
  - destruct (split_old b Eb NMb) as (B & EB & IB & HB).
    destruct (Z.eq_dec A B) as [E|NAB].
    { subst B. destruct HA as [(-> & _)|(_ & LA)], HB as [(HB & _)|(_ & LB)]; try subst b; try lia. }
    pose proof (sees_up a A b B IA IB (leaf_disjoint A B EA EB NAB) Hs) as SA.
    pose proof (Hbal A B EA EB SA) as Q.
    destruct HA as [(EA' & NRA & _)|(RA & LA)], HB as [(EB' & NRB & _)|(RB & LB)]; try subst A; try subst B; try lia.
    + destruct (Z_lt_le_dec (lvl_of m a) (lvl_of m B)) as [Hl|Hl]; [|lia]. exfalso. apply NRA. apply (HRc B a); auto.
    + destruct (Z_lt_le_dec (lvl_of m b) (lvl_of m A)) as [Hl|Hl]; [|lia]. exfalso. apply NRB. apply (HRc A b); auto.
Qed.
End After.
End Geo.
