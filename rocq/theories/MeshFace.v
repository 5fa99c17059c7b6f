(** C16: get_face_neighbors_of lists exactly the cells sharing a face. *)
From Verif Require Import U64 MapModel MapSpec MapProofs MapFamily MapProps HoodModel MeshModel
  MeshSpec MeshBase HoodProps MeshWalk MeshFind MeshKids MeshItem MeshCheck.
Open Scope Z_scope.

(** a copy of n (periodic dimensions unrolled) touches the face of c in direction k, pos and
    overlaps it in the other two dimensions *)
Definition shares_face (m : mapping) (t : topo) (c n : Z) (k : dim) (pos : bool) : Prop :=
  exists o, placed m t c n o /\
    (if pos then get o k = len_of m c else get o k + len_of m n = 0) /\
    forall j, j <> k -> get o j < len_of m c /\ 0 < get o j + len_of m n.

(** documented direction numbers: +1, -1 for x, 2 for y, 3 for z *)
Definition dir_code (k : dim) (pos : bool) : Z :=
  (if pos then 1 else -1) * match k with DX => 1 | DY => 2 | DZ => 3 end.

Lemma dirs_all k pos : In (k, pos, dir_code k pos) dirs.
Proof. destruct k, pos; cbn; auto 10. Qed.
Lemma dirs_code k pos d : In (k, pos, d) dirs -> d = dir_code k pos.
Proof. cbn. intros Hd. repeat destruct Hd as [Hd|Hd]; try (injection Hd as <- <- <-; reflexivity). destruct Hd. Qed.

Lemma NoDup_map_in {A B} (f : A -> B) l :
  (forall x y, In x l -> In y l -> f x = f y -> x = y) -> NoDup l -> NoDup (map f l).
Proof.
  induction l as [|a l IH]; intros I N; [constructor|]. apply NoDup_cons_iff in N. cbn [map]. constructor.
  - rewrite in_map_iff. intros (b & E & Hb). apply I in E; [subst b; tauto|right; assumption|left; reflexivity].
  - apply IH; [|tauto]. intros x y Hx Hy. apply I; right; assumption.
Qed.

Section Face.
Context (m : mapping) (Hwf : wf m) (t : topo) (ex : Z -> bool) (Htile : tiling m ex).
Context (H : hood) (Hbal : balanced m t H ex) (Hfaces : has_faces H).
Context (c : Z) (Ec : ex c = true) (k : dim) (pos : bool).
Notation V := (leaf_valid m ex Htile).
Notation L := (len_of m c).
Notation b := (idx_of m c).
Definition unit : idx := upd vzero k (if pos then 1 else -1).

Lemma unit_in : In unit H. Proof. apply Hfaces. destruct pos; auto. Qed.
Lemma unit_same : get unit k = if pos then 1 else -1. Proof. apply get_upd_same. Qed.
Lemma unit_other j : j <> k -> get unit j = 0. Proof. intros. unfold unit. rewrite get_upd_other by assumption. apply get_vzero. Qed.

Lemma c_lands : lands m t b b. Proof. apply lands_self. apply cell_in_grid; auto using V. Qed.
Notation x := (front b L k pos).
Lemma x_same : get x k = get b k + (if pos then L else -1). Proof. apply get_upd_same. Qed.
Lemma x_other j : j <> k -> get x j = get b j. Proof. intros. apply get_upd_other. assumption. Qed.

Lemma share_nbr n : ex n = true -> (shares_face m t c n k pos <->
  exists o, nbr m t c unit n o /\ (if pos then get o k = L else get o k + len_of m n = 0)).
Proof.
  intros En. pose proof (cell_len_pos m Hwf n (V n En)) as Pn. pose proof (cell_len_pos m Hwf c (V c Ec)) as Pc. split.
  - intros (o & P & F & O). exists o. split; [|assumption]. split; [assumption|]. intros j.
    destruct (dim_eq_dec j k) as [->|N].
    + rewrite unit_same. destruct pos; lia.
    + rewrite unit_other by assumption. specialize (O j N). lia.
  - intros (o & (P & M) & F). exists o. split; [assumption|]. split; [assumption|]. intros j N.
    specialize (M j). rewrite unit_other in M by assumption. lia.
Qed.

(** nothing in this direction *)
Lemma side_out n : ~ reachable m t x -> ex n = true -> ~ shares_face m t c n k pos.
Proof.
  intros NR En Hs. apply share_nbr in Hs; [|assumption]. destruct Hs as (o & Hn & _). apply NR.
  pose proof (nbr_region m Hwf t ex Htile c Ec unit n o En Hn) as RG. intros j. specialize (RG j).
  pose proof (cell_len_pos m Hwf c (V c Ec)) as Pc.
  pose proof (proj1 (in_grid_k m _) (cell_in_grid m Hwf c (V c Ec)) j) as G.
  destruct (dim_eq_dec j k) as [->|N].
  - rewrite unit_same in RG. rewrite x_same. destruct RG as [RG|RG]; [left; assumption|right]. destruct pos; lia.
  - rewrite x_other by assumption. right. assumption.
Qed.

Section Found.
Context (n : Z) (i : idx) (Lx : lands m t x i) (En : ex n = true) (Cn : covers m n i).
Definition o_n : idx := vsub (box_at m n x) b.

Lemma n_lands : lands m t (vadd b o_n) (idx_of m n).
Proof.
  pose proof (lands_rdown m Hwf t x i n (V n En) Lx Cn) as Ln. fold (box_at m n x) in Ln.
  replace (vadd b o_n) with (box_at m n x); [assumption|].
  apply idx_ext. intros j. unfold o_n. rewrite get_vadd, get_vsub. lia.
Qed.
Lemma n_nbr : nbr m t c unit n o_n.
Proof.
  split; [exact n_lands|]. intros j. unfold o_n. rewrite get_vsub.
  pose proof (box_at_contains m Hwf n x j (V n En)) as B. pose proof (cell_len_pos m Hwf c (V c Ec)) as Pc.
  destruct (dim_eq_dec j k) as [->|N].
  - rewrite unit_same. rewrite x_same in B. destruct pos; lia.
  - rewrite unit_other by assumption. rewrite x_other in B by assumption. lia.
Qed.

Lemma n_large_face : (len_of m n = L \/ len_of m n = 2 * L) -> if pos then get o_n k = L else get o_n k + len_of m n = 0.
Proof.
  intros Hs. pose proof (V c Ec) as Vc. pose proof (V n En) as Vn. pose proof (cell_len_pos m Hwf c Vc) as Pc.
  pose proof (large_contains m Hwf t ex Htile c Ec unit n o_n En n_nbr Hs) as LC.
  pose proof (lands_aligned m Hwf t _ _ k Vn n_lands) as Al. rewrite get_vadd in Al.
  assert (L | get o_n k) as Ao.
  { apply (Z.divide_add_cancel_r _ (get b k)); [apply cell_aligned; assumption|].
    destruct Hs as [E|E]; rewrite E in Al; [assumption|]. apply Z.divide_trans with (2 * L); [exists 2; ring|assumption]. }
  assert (~ (forall j, get (vadd b o_n) j <= get b j < get (vadd b o_n) j + len_of m n)) as NB.
  { intros Q. destruct (same_box m Hwf t ex Htile c b n (vadd b o_n) b Ec En c_lands n_lands) as [E1 E2].
    - intros j. lia.
    - exact Q.
    - pose proof (f_equal (fun v => get v k) E2) as Q2. cbn beta in Q2. rewrite get_vadd in Q2.
      pose proof (f_equal (len_of m) E1) as Q3.
      specialize (LC k). rewrite unit_same in LC. destruct pos; lia. }
  pose proof (LC k) as LCk. rewrite unit_same in LCk.
  assert (~ (get o_n k <= 0 < get o_n k + len_of m n)) as NK.
  { intros Q. apply NB. intros j. rewrite get_vadd. destruct (dim_eq_dec j k) as [->|N]; [lia|].
    specialize (LC j). rewrite unit_other in LC by assumption. lia. }
  destruct Ao as [q Hq]. rewrite Hq in *. destruct pos.
  - destruct (Z_le_gt_dec q 0) as [Q|Q].
    + assert (q * L <= 0) by nia. lia.
    + assert (1 * L <= q * L) by (apply Z.mul_le_mono_nonneg_r; lia). lia.
  - destruct (Z_le_gt_dec (q * L + len_of m n) 0); [lia|]. exfalso. apply NK. split; [|lia].
    assert (q * L <= (-1) * L) by lia. lia.
Qed.

(** smaller cells *)
Section Small.
Context (Sm : L = 2 * len_of m n).
Notation s := (len_of m n).
Notation par := (get_parent m n).
(** the octants on the side of c *)
Definition e_of (j1 j2 : dim) (u v : bool) : idx :=
  upd (upd (upd vzero k (if pos then 0 else s)) j1 (if u then s else 0)) j2 (if v then s else 0).

Lemma o_n_eq : o_n = vadd (base m c unit) (upd vzero k (if pos then 0 else s)).
Proof.
  pose proof (V c Ec) as Vc. pose proof (V n En) as Vn. pose proof (cell_len_pos m Hwf n Vn) as Pn.
  apply idx_ext. intros j. unfold o_n, base, box_at. rewrite get_vsub, get_vadd, !get_vmap.
  assert (s | get b j) as D.
  { apply Z.divide_trans with L; [rewrite Sm; exists 2; ring|apply cell_aligned; assumption]. }
  destruct (dim_eq_dec j k) as [->|N].
  - rewrite unit_same, x_same, get_upd_same. destruct pos.
    + rewrite rdown_self; [lia|assumption|]. apply Z.divide_add_r; [assumption|rewrite Sm; exists 2; ring].
    + rewrite (rdown_unique s _ (get b k - s)); [lia|assumption| |lia].
      apply Z.divide_sub_r; [assumption|apply Z.divide_refl].
  - rewrite unit_other, x_other, get_upd_other, get_vzero by assumption. rewrite rdown_self by assumption. lia.
Qed.

Lemma kid_n : kid_at m par (upd vzero k (if pos then 0 else s)) = n.
Proof.
  pose proof (V n En) as Vn. pose proof (cur_level m Hwf ex Htile c Ec n En Sm) as Hl.
  pose proof (in_parent m Hwf n Vn Hl) as (_ & E). cbn zeta in E.
  pose proof (base_off m Hwf t ex Htile c Ec unit n o_n En n_nbr Sm) as B.
  replace (upd vzero k (if pos then 0 else s)) with (vsub (idx_of m n) (idx_of m par)); [assumption|].
  apply idx_ext. intros j. pose proof (f_equal (fun v => get v j) B) as Q. cbn beta in Q.
  rewrite o_n_eq, get_vsub, get_vadd in Q. lia.
Qed.

(** face neighbor in a positive direction of an octant in the lower half *)
Lemma next_octant e j : In e (corners s) -> j <> k -> get e j = 0 ->
  face_neighbor ex m t (kid_at m par e) j true = kid_at m par (upd e j s).
Proof.
  intros He N E0. pose proof (V n En) as Vn. pose proof (cur_level m Hwf ex Htile c Ec n En Sm) as Hl.
  pose proof (octant m Hwf t ex Htile H Hbal c Ec unit unit_in n o_n En n_nbr Sm e He) as [E1 [L1 _]].
  assert (In (upd e j s) (corners s)) as He'.
  { apply corners_in. intros a. destruct (dim_eq_dec a j) as [->|Na].
    - rewrite get_upd_same. right. reflexivity.
    - rewrite get_upd_other by assumption. apply (proj1 (corners_in s e) He). }
  pose proof (octant m Hwf t ex Htile H Hbal c Ec unit unit_in n o_n En n_nbr Sm _ He') as [E2 [L2 _]].
  pose proof (parent_facts m Hwf n Vn Hl) as (Vp & Lp & _). cbn zeta in *.
  pose proof (cell_level m Hwf n Vn) as Ln.
  assert (len_of m (kid_at m par e) = s) as Sk.
  { pose proof (kid_facts m Hwf par e Vp ltac:(lia)) as K. cbn zeta in K. rewrite Lp in K.
    replace (lvl_of m n - 1 + 1) with (lvl_of m n) in K by lia. rewrite <- (cell_len m Hwf) in K by assumption. apply K, He. }
  apply (face_neighbor_in m Hwf t ex Htile H Hbal Hfaces _ j true _ (idx_of m (kid_at m par (upd e j s))) _ E1 L1).
  - replace (front _ _ j true) with (vadd b (vadd (base m c unit) (upd e j s))); [assumption|].
    unfold front. rewrite Sk. apply idx_ext. intros a. destruct (dim_eq_dec a j) as [->|Na].
    + rewrite get_upd_same, !get_vadd, get_upd_same. lia.
    + rewrite get_upd_other, !get_vadd, get_upd_other by assumption. reflexivity.
  - assumption.
  - apply covers_own; auto using V.
Qed.

Lemma small_share n' : ex n' = true -> (shares_face m t c n' k pos <->
  exists e, In e (corners s) /\ get e k = (if pos then 0 else s) /\ n' = kid_at m par e).
Proof.
  intros En'. pose proof (V n En) as Vn. pose proof (cur_level m Hwf ex Htile c Ec n En Sm) as Hl.
  pose proof (parent_facts m Hwf n Vn Hl) as (Vp & Lp & _). cbn zeta in *.
  pose proof (cell_level m Hwf n Vn) as Ln. pose proof (cell_len_pos m Hwf n Vn) as Pn.
  assert (forall e, In e (corners s) -> len_of m (kid_at m par e) = s) as Sk.
  { intros e He. pose proof (kid_facts m Hwf par e Vp ltac:(lia)) as K. cbn zeta in K. rewrite Lp in K.
    replace (lvl_of m n - 1 + 1) with (lvl_of m n) in K by lia. rewrite <- (cell_len m Hwf) in K by assumption. apply K, He. }
  rewrite share_nbr by assumption. split.
  - intros (o & Hn & F). destruct (small_complete m Hwf t ex Htile H Hbal c Ec unit unit_in n o_n En n_nbr Sm n' o En' Hn) as (e & He & -> & ->).
    exists e. split; [assumption|]. split; [|reflexivity]. rewrite Sk in F by assumption.
    unfold base in F. rewrite get_vadd, get_vmap, unit_same in F. destruct pos; lia.
  - intros (e & He & Ek & ->). destruct (octant m Hwf t ex Htile H Hbal c Ec unit unit_in n o_n En n_nbr Sm e He) as [_ Hn].
    eexists. split; [exact Hn|]. rewrite Sk by assumption. unfold base. rewrite get_vadd, get_vmap, unit_same, Ek. destruct pos; lia.
Qed.
End Small.
End Found.

Lemma face_side_spec : exists side, face_side ex m t c k pos = Done side /\ NoDup side /\
  (forall n, In n side <-> ex n = true /\ shares_face m t c n k pos) /\
  ((side = [] /\ ~ reachable m t (front b L k pos)) \/
   (exists n, side = [n] /\ lvl_of m n <= lvl_of m c) \/
   (length side = 4%nat /\ forall n, In n side -> lvl_of m n = lvl_of m c + 1)).
Proof.
  assert (reachable m t x \/ ~ reachable m t x) as [R|R].
  { assert (forall j, (per t j = true \/ 0 <= get x j < glen m j) \/ ~ (per t j = true \/ 0 <= get x j < glen m j)) as D.
    { intros j. destruct (per t j); [left; left; reflexivity|]. lia. }
    destruct (D DX) as [D0|D0]; [|right; intros Q; apply D0, Q].
    destruct (D DY) as [D1|D1]; [|right; intros Q; apply D1, Q].
    destruct (D DZ) as [D2|D2]; [|right; intros Q; apply D2, Q].
    left. intros j; destruct j; assumption. }
  2:{ exists []. unfold face_side. rewrite (face_neighbor_out m Hwf t ex Htile c k pos b Ec c_lands R). rewrite Z.eqb_refl.
      split; [reflexivity|]. split; [constructor|]. split; [|left; auto].
      intros n. split; [intros []|]. intros [En Hs]. exact (side_out n R En Hs). }
  destruct (lands_exists m Hwf t _ R) as (i & Li). destruct (leaf_at m ex Htile i (proj1 Li)) as (n & En & Cn).
  destruct (face_neighbor_in m Hwf t ex Htile H Hbal Hfaces c k pos b i n Ec c_lands Li En Cn) as [Fn Hl].
  pose proof (V n En) as Vn. pose proof (V c Ec) as Vc. pose proof (n_nbr n i Li En Cn) as Nn.
  pose proof (cell_len_pos m Hwf n Vn) as Pn.
  unfold face_side. rewrite Fn. pose proof Vn as Vn'. unfold valid in Vn'. unfold error_cell.
  replace (n =? 0) with false by lia. fold (lvl_of m n). fold (lvl_of m c).
  destruct (len_ratio m Hwf c n Vc Vn) as (Q1 & Q2 & Q3).
  destruct (Z.leb_spec (lvl_of m n) (lvl_of m c)) as [Le|Gt].
  - assert (len_of m n = L \/ len_of m n = 2 * L) as Hs by (destruct (Z.eq_dec (lvl_of m n) (lvl_of m c)); [left; auto|right; apply Q2; lia]).
    exists [n]. split; [reflexivity|]. split; [constructor; [intros []|constructor]|].
    split; [|right; left; exists n; auto].
    intros n'. split.
    + intros [<-|[]]. split; [assumption|]. apply share_nbr; [assumption|]. exists (o_n n). split; [assumption|].
      apply (n_large_face n i); assumption.
    + intros [En' Sh]. apply share_nbr in Sh; [|assumption]. destruct Sh as (o & Hn & _).
      destruct (unique_large m Hwf t ex Htile c Ec unit n (o_n n) En Nn Hs n' o En' Hn) as [-> _]. left. reflexivity.
  - assert (L = 2 * len_of m n) as Sm by (apply Q3; lia).
    set (s := len_of m n) in *.
    pose proof (next_octant n i Li En Cn Sm) as NO. fold s in NO.
    pose proof (octant m Hwf t ex Htile H Hbal c Ec unit unit_in n (o_n n) En Nn Sm) as OC. fold s in OC.
    pose proof (kid_n n i Li En Cn Sm) as KN. fold s in KN.
    set (e0 := upd vzero k (if pos then 0 else s)) in *.
    destruct (face_dims k) as [ja jb] eqn:Fd.
    assert (ja <> k /\ jb <> k /\ ja <> jb /\ forall j, j = k \/ j = ja \/ j = jb) as (Na & Nb & Nab & All).
    { destruct k; cbn in Fd; injection Fd as <- <-; repeat match goal with |- _ /\ _ => split end; try discriminate;
      intros j; destruct j; auto. }
    assert (forall e a, In e (corners s) -> In (upd e a s) (corners s)) as Cu.
    { intros e a He. apply corners_in. intros j. destruct (dim_eq_dec j a) as [->|N].
      - rewrite get_upd_same. auto.
      - rewrite get_upd_other by assumption. apply (proj1 (corners_in s e) He). }
    assert (In e0 (corners s)) as C0.
    { apply corners_in. intros j. unfold e0. destruct (dim_eq_dec j k) as [->|N].
      - rewrite get_upd_same. destruct pos; auto.
      - rewrite get_upd_other, get_vzero by assumption. auto. }
    assert (get e0 ja = 0 /\ get e0 jb = 0 /\ get e0 k = if pos then 0 else s) as (G0 & G1 & G2).
    { unfold e0. rewrite get_upd_same, !get_upd_other, !get_vzero by assumption. auto. }
    assert (face_neighbor ex m t n ja true = kid_at m (get_parent m n) (upd e0 ja s)) as F1.
    { rewrite <- KN at 1. apply NO; assumption. }
    assert (face_neighbor ex m t n jb true = kid_at m (get_parent m n) (upd e0 jb s)) as F2.
    { rewrite <- KN at 1. apply NO; assumption. }
    assert (face_neighbor ex m t (kid_at m (get_parent m n) (upd e0 jb s)) ja true = kid_at m (get_parent m n) (upd (upd e0 jb s) ja s)) as F3.
    { apply NO; [apply Cu; assumption|assumption|]. rewrite get_upd_other by assumption. assumption. }
    rewrite (has_neighbors_leaf m Hwf ex Htile n En). cbn [negb]. rewrite F1, F2.
    set (kd := kid_at m (get_parent m n)) in *.
    assert (forall e, In e (corners s) -> ex (kd e) = true) as EX by (intros e He; apply OC; assumption).
    assert (forall e, In e (corners s) -> (kd e =? 0) = false) as NZ.
    { intros e He. pose proof (V _ (EX e He)) as Q. unfold valid in Q. lia. }
    rewrite !NZ by auto. rewrite (has_neighbors_leaf m Hwf ex Htile _ (EX _ (Cu e0 jb C0))). cbn [negb].
    rewrite F3. rewrite NZ by auto. cbn [app].
    assert (NoDup (map kd [e0; upd e0 ja s; upd e0 jb s; upd (upd e0 jb s) ja s])) as ND.
    { apply NoDup_map_in.
      - intros e1 e2 H1 H2 E. assert (forall e, In e [e0; upd e0 ja s; upd e0 jb s; upd (upd e0 jb s) ja s] -> In e (corners s)) as I.
        { intros e [<-|[<-|[<-|[<-|[]]]]]; auto. }
        pose proof (OC e1 (I e1 H1)) as [X1 [P1 _]]. pose proof (OC e2 (I e2 H2)) as [X2 [P2 _]].
        fold kd in E. pose proof (cur_level m Hwf ex Htile c Ec n En Sm) as Hl0.
        pose proof (parent_facts m Hwf n Vn Hl0) as (Vp & Lp & _). cbn zeta in *. pose proof (cell_level m Hwf n Vn).
        assert (2 ^ (m_max m - (lvl_of m (get_parent m n) + 1)) = s) as Es.
        { rewrite Lp. unfold s. rewrite (cell_len m Hwf) by assumption. f_equal. lia. }
        pose proof (kid_facts m Hwf (get_parent m n) e1 Vp ltac:(lia)) as K1. pose proof (kid_facts m Hwf (get_parent m n) e2 Vp ltac:(lia)) as K2.
        cbn zeta in K1, K2. rewrite Es in K1, K2. specialize (K1 (I e1 H1)). specialize (K2 (I e2 H2)).
        destruct K1 as (_ & _ & _ & I1). destruct K2 as (_ & _ & _ & I2). fold kd in I1, I2. rewrite E in I1. rewrite I1 in I2.
        apply idx_ext. intros j. pose proof (f_equal (fun v => get v j) I2) as Q. cbn beta in Q. rewrite !get_vadd in Q. lia.
      - assert (forall u v, get u ja <> get v ja -> u <> v) as D1 by congruence.
        assert (forall u v, get u jb <> get v jb -> u <> v) as D2 by congruence.
        assert (get (upd e0 ja s) ja = s) as U1 by apply get_upd_same.
        assert (get (upd e0 ja s) jb = 0) as U2 by (rewrite get_upd_other by auto; assumption).
        assert (get (upd e0 jb s) jb = s) as U3 by apply get_upd_same.
        assert (get (upd e0 jb s) ja = 0) as U4 by (rewrite get_upd_other by auto; assumption).
        assert (get (upd (upd e0 jb s) ja s) ja = s) as U5 by apply get_upd_same.
        assert (get (upd (upd e0 jb s) ja s) jb = s) as U6 by (rewrite get_upd_other by auto; assumption).
        assert (forall (u : idx) l, (forall v, In v l -> v <> u) -> ~ In u l) as NI by (intros u l T1 T2; apply (T1 u T2 eq_refl)).
        repeat (apply NoDup_cons; [apply NI; intros v Q; cbn [In] in Q; repeat destruct Q as [<-|Q];
          try (first [apply D1; lia | apply D2; lia]); destruct Q|]). apply NoDup_nil. }
    cbn [map] in ND. rewrite KN in ND.
    eexists. split; [reflexivity|]. split; [exact ND|].
    assert (forall n', In n' [n; kd (upd e0 ja s); kd (upd e0 jb s); kd (upd (upd e0 jb s) ja s)] <->
       exists e, In e (corners s) /\ get e k = (if pos then 0 else s) /\ n' = kd e) as SP.
    { intros n'. split.
      - intros [<-|[<-|[<-|[<-|[]]]]]; [exists e0|exists (upd e0 ja s)|exists (upd e0 jb s)|exists (upd (upd e0 jb s) ja s)];
          rewrite ?get_upd_other by congruence; (split; [first [exact C0|apply Cu, C0|apply Cu, Cu, C0]|split; [exact G2|first [symmetry; exact KN|reflexivity]]]).
      - intros (e & He & Ek & ->). pose proof (proj1 (corners_in s e) He) as Ce.
        assert (e = upd (upd e0 jb (get e jb)) ja (get e ja)) as Ee.
        { apply idx_ext. intros j. destruct (All j) as [->|[->| ->]].
          - rewrite !get_upd_other by auto. congruence.
          - rewrite get_upd_same. reflexivity.
          - rewrite get_upd_other by auto. rewrite get_upd_same. reflexivity. }
        assert (upd e0 jb 0 = e0) as Z1.
        { apply idx_ext. intros j. destruct (dim_eq_dec j jb) as [->|N]; [rewrite get_upd_same; lia|apply get_upd_other; assumption]. }
        assert (upd (upd e0 jb s) ja 0 = upd e0 jb s) as Z2.
        { apply idx_ext. intros j. destruct (dim_eq_dec j ja) as [->|N]; [rewrite get_upd_same, get_upd_other by auto; lia|apply get_upd_other; assumption]. }
        assert (upd e0 ja 0 = e0) as Z3.
        { apply idx_ext. intros j. destruct (dim_eq_dec j ja) as [->|N]; [rewrite get_upd_same; lia|apply get_upd_other; assumption]. }
        rewrite Ee. clear - Z1 Z2 Z3 KN Ce. clearbody kd e0 s. destruct (Ce ja) as [-> | ->], (Ce jb) as [-> | ->]; rewrite ?Z1, ?Z2, ?Z3, ?KN; cbn [In]; tauto. }
    split; [|right; right; split; [reflexivity|]].
    + intros n'. rewrite SP. split.
      * intros Q. assert (ex n' = true) as E' by (destruct Q as (e & He & _ & ->); auto).
        split; [assumption|]. apply (small_share n i Li En Cn Sm); assumption.
      * intros [E' Sh]. apply (small_share n i Li En Cn Sm) in Sh; assumption.
    + intros n' Hn'. apply SP in Hn'. destruct Hn' as (e & He & _ & ->).
      pose proof (cur_level m Hwf ex Htile c Ec n En Sm) as Hl0. pose proof (cell_level m Hwf n Vn).
      pose proof (parent_facts m Hwf n Vn Hl0) as (Vp & Lp & _). cbn zeta in *.
      assert (2 ^ (m_max m - (lvl_of m (get_parent m n) + 1)) = s) as Es.
      { rewrite Lp. unfold s. rewrite (cell_len m Hwf) by assumption. f_equal. lia. }
      pose proof (kid_facts m Hwf (get_parent m n) e Vp ltac:(lia)) as K. cbn zeta in K. rewrite Es in K.
      destruct (K He) as (_ & Lk & _). fold kd in Lk. lia.
Qed.
End Face.

(** C16 *)
Theorem c16_face_neighbors m t nl ex c : mesh m t nl ex -> ex c = true ->
  exists l, get_face_neighbors_of ex m t c = Done l /\ NoDup l /\
    (forall n d, In (n, d) l <-> ex n = true /\ exists k pos, d = dir_code k pos /\ shares_face m t c n k pos) /\
    (forall k pos, let side := map fst (filter (fun p => snd p =? dir_code k pos) l) in
      (side = [] /\ ~ reachable m t (front (idx_of m c) (len_of m c) k pos)) \/
      (exists n, side = [n] /\ lvl_of m n <= lvl_of m c) \/
      (length side = 4%nat /\ forall n, In n side -> lvl_of m n = lvl_of m c + 1)).
Proof.
  intros (Hwf & Hn & Htile & Hbal) Ec.
  pose proof (default_faces nl Hn) as Hf.
  pose proof (fun k pos => face_side_spec m Hwf t ex Htile (default_hood_of nl) Hbal Hf c Ec k pos) as FS.
  unfold get_face_neighbors_of. rewrite (has_neighbors_leaf m Hwf ex Htile c Ec). cbn [negb].
  set (P := fun (q : dim * bool * Z) (side : list Z) => let '(k, pos, d) := q in
    NoDup side /\ (forall n, In n side <-> ex n = true /\ shares_face m t c n k pos) /\
    ((side = [] /\ ~ reachable m t (front (idx_of m c) (len_of m c) k pos)) \/
      (exists n, side = [n] /\ lvl_of m n <= lvl_of m c) \/
      (length side = 4%nat /\ forall n, In n side -> lvl_of m n = lvl_of m c + 1))).
  assert (forall ds, exists sides, face_sides ex m t c ds =
     Done (concat (map (fun p => map (fun n => (n, snd (fst p))) (snd p)) (combine ds sides))) /\ Forall2 P ds sides) as K.
  { induction ds as [|[[k pos] d] ds (sides & E & F)].
    - exists []. split; [reflexivity|constructor].
    - destruct (FS k pos) as (side & Es & Ps). exists (side :: sides). cbn [face_sides]. rewrite Es, E.
      split; [reflexivity|]. constructor; assumption. }
  destruct (K dirs) as (sides & E & F). clear K.
  inversion F as [|? s1 ? r1 P1 F1]; subst. inversion F1 as [|? s2 ? r2 P2 F2]; subst. inversion F2 as [|? s3 ? r3 P3 F3]; subst.
  inversion F3 as [|? s4 ? r4 P4 F4]; subst. inversion F4 as [|? s5 ? r5 P5 F5]; subst. inversion F5 as [|? s6 ? r6 P6 F6]; subst.
  inversion F6; subst. clear F F1 F2 F3 F4 F5 F6.
  rewrite E. eexists. split; [reflexivity|]. cbn [dirs combine map fst snd concat].
  assert (forall s (d n d' : Z), In (n, d') (map (fun x : Z => (x, d)) s) <-> In n s /\ d' = d) as IM.
  { intros s d n d'. rewrite in_map_iff. split.
    - intros (x & Q & Hx). injection Q as <- <-. auto.
    - intros [Hx ->]. exists n. auto. }
  assert (forall s (d : Z), NoDup s -> NoDup (map (fun x : Z => (x, d)) s)) as NM.
  { intros s d Ns. apply FinFun.Injective_map_NoDup; [|assumption]. intros x y Q. congruence. }
  assert (forall (l1 l2 : list (Z * Z)), NoDup l1 -> NoDup l2 -> (forall x, In x l1 -> ~ In x l2) -> NoDup (l1 ++ l2)) as NA.
  { induction l1 as [|x l1 IH]; intros l2 N1 N2 D; [assumption|]. cbn. apply NoDup_cons_iff in N1. constructor.
    - rewrite in_app_iff. intros [Q|Q]; [tauto|]. apply (D x (or_introl eq_refl) Q).
    - apply IH; [tauto|assumption|]. intros y Hy. apply D. right. assumption. }
  destruct P1 as (N1 & I1 & S1), P2 as (N2 & I2 & S2), P3 as (N3 & I3 & S3), P4 as (N4 & I4 & S4), P5 as (N5 & I5 & S5), P6 as (N6 & I6 & S6).
  split; [|split].
  - repeat (apply NA; [apply NM; assumption| |intros [n d]; rewrite ?in_app_iff, ?IM; cbn [In]; clear; lia]). constructor.
  - intros n d. rewrite !in_app_iff, !IM, I1, I2, I3, I4, I5, I6. cbn [In]. split.
    + intros Q. repeat destruct Q as [Q|Q]; try (destruct Q as [[Q1 Q2] ->]; split; [assumption|];
        match type of Q2 with shares_face _ _ _ _ ?a ?b => exists a, b; split; [reflexivity|assumption] end). destruct Q.
    + intros (Q1 & k & pos & -> & Q2). clear - Q1 Q2. destruct k, pos; cbn [dir_code]; tauto.
  - assert (forall d d' (s : list Z), map fst (filter (fun p => snd p =? d') (map (fun n => (n, d)) s)) = if d =? d' then s else []) as FM.
    { intros d d' s. induction s as [|a s IH]; [destruct (d =? d'); reflexivity|]. cbn [map filter snd].
      destruct (d =? d') eqn:Ed; [cbn [map fst]; f_equal; assumption|assumption]. }
    intros k pos. cbv zeta. rewrite !filter_app, !map_app, !FM. 
    destruct k, pos; cbn [dir_code Z.mul Pos.mul Z.eqb Pos.eqb]; rewrite ?app_nil_r; cbn [app filter map]; rewrite ?app_nil_r; assumption.
Qed.
Print Assumptions c16_face_neighbors.

(** in the three-level mesh: cell 4 has four smaller face neighbors on each x side, nothing on
    the non-periodic y and z sides *)
Example c16_example :
  mesh demo_map demo_topo 0 demo_ex /\ demo_ex 4 = true /\
  exists l, get_face_neighbors_of demo_ex demo_map demo_topo 4 = Done l /\ map snd l = [-1;-1;-1;-1;1;1;1;1] /\ NoDup (map fst l).
Proof.
  split; [exact demo_mesh|]. split; [vm_compute; reflexivity|]. eexists. split; [vm_compute; reflexivity|].
  split; [reflexivity|]. repeat constructor; cbn; lia.
Qed.
