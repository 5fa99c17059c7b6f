(** Faces between neighbors are seen from both sides. *)
From Verif Require Import U64 MapModel MapSpec MapProofs MapFamily MapProps HoodModel MeshModel
  MeshSpec MeshBase HoodProps MeshWalk MeshFind MeshKids MeshItem MeshCheck MeshTo MeshNear
  Sets RefineModel RefineGeo RefineInv BalanceModel Create History CommModel CommInv ProgramModel AdvectModel.
Open Scope Z_scope.

Lemma look_one cl nl o k a : look cl nl o a k = (fst a + Z.b2z (overlap cl nl o k),
  if overlap cl nl o k then snd a else if get o k =? cl then Some (k, true) else if get o k =? - nl then Some (k, false) else snd a).
Proof. unfold look. destruct (overlap cl nl o k); cbn [Z.b2z]; [reflexivity|]. rewrite Z.add_0_r. destruct (get o k =? cl), (get o k =? - nl); try reflexivity. destruct a; reflexivity. Qed.
Lemma overlap_iff cl nl o k : overlap cl nl o k = true <-> - nl < get o k < cl.
Proof. unfold overlap. rewrite andb_true_iff. lia. Qed.
Lemma contact_inside cl nl o : contact_of cl nl o = Inside <-> forall k, - nl < get o k < cl.
Proof.
  unfold contact_of. cbn [fold_left]. rewrite !look_one. cbn [fst snd]. split.
  - intros E k. apply overlap_iff. destruct (overlap cl nl o DX) eqn:E0, (overlap cl nl o DY) eqn:E1, (overlap cl nl o DZ) eqn:E2; cbn in E; try discriminate E; try (destruct (_ =? _) in E; cbn in E; try discriminate E; destruct (_ =? _) in E; cbn in E; discriminate E). destruct k; assumption.
  - intros H. rewrite !(proj2 (overlap_iff cl nl o _) (H _)). reflexivity.
Qed.
Lemma contact_face cl nl o k pos : 0 < cl -> 0 < nl -> contact_of cl nl o = Face k pos <->
  get o k = (if pos then cl else - nl) /\ forall j, j <> k -> - nl < get o j < cl.
Proof.
  intros Hc Hn. unfold contact_of. cbn [fold_left]. rewrite !look_one. cbn [fst snd]. split.
  - intros E. assert (forall j, overlap cl nl o j = false -> (if get o j =? cl then Some (j, true) else if get o j =? - nl then Some (j, false) else None) = Some (k, pos) -> j = k /\ get o k = (if pos then cl else - nl)) as F.
    { intros j _ Q. destruct (Z.eqb_spec (get o j) cl) as [A|A]; [injection Q as <- <-; auto|]. destruct (Z.eqb_spec (get o j) (- nl)) as [B|B]; [injection Q as <- <-; auto|discriminate Q]. }
    destruct (overlap cl nl o DX) eqn:E0, (overlap cl nl o DY) eqn:E1, (overlap cl nl o DZ) eqn:E2; cbn [Z.b2z Z.add fst snd] in E; try discriminate E.
    + cbn -[get Z.eqb Z.opp] in E. destruct (F DZ E2) as [<- G]; [revert E; destruct (get o DZ =? cl), (get o DZ =? - nl); cbn; congruence|]. split; [assumption|]. intros j Nj. apply overlap_iff. destruct j; congruence.
    + cbn -[get Z.eqb Z.opp] in E. destruct (F DY E1) as [<- G]; [revert E; destruct (get o DY =? cl), (get o DY =? - nl); cbn; congruence|]. split; [assumption|]. intros j Nj. apply overlap_iff. destruct j; congruence.
    + cbn -[get Z.eqb Z.opp] in E. destruct (F DX E0) as [<- G]; [revert E; destruct (get o DX =? cl), (get o DX =? - nl); cbn; congruence|]. split; [assumption|]. intros j Nj. apply overlap_iff. destruct j; congruence.
  - intros [E H]. assert (overlap cl nl o k = false) as Ok by (apply not_true_iff_false; rewrite overlap_iff, E; destruct pos; lia).
    assert ((if get o k =? cl then Some (k, true) else if get o k =? - nl then Some (k, false) else None) = Some (k, pos)) as S.
    { rewrite E. destruct pos; [rewrite Z.eqb_refl; reflexivity|]. replace (- nl =? cl) with false by lia. rewrite Z.eqb_refl. reflexivity. }
    assert (forall j, j <> k -> overlap cl nl o j = true) as Oj by (intros j Nj; apply overlap_iff, H, Nj).
    destruct k; rewrite Ok, ?(Oj DX), ?(Oj DY), ?(Oj DZ) by discriminate; cbn [Z.b2z Z.add Z.ltb Z.compare Pos.compare Pos.compare_cont]; rewrite S; reflexivity.
Qed.
(** a face in positive direction is a face in negative direction for the other cell *)
Lemma contact_flip cl nl o k pos : 0 < cl -> 0 < nl -> contact_of cl nl o = Face k pos -> contact_of nl cl (vneg o) = Face k (negb pos).
Proof.
  intros Hc Hn E. apply contact_face in E; [|assumption..]. apply contact_face; [assumption..|]. destruct E as [E H]. rewrite get_vneg, E. split; [destruct pos; cbn; lia|]. intros j Nj. specialize (H j Nj). rewrite get_vneg. lia.
Qed.

Section Faces.
Context (m : mapping) (Hwf : wf m) (t : topo) (ex : Z -> bool) (Htile : tiling m ex).
Let V := leaf_valid m ex Htile.
(** neighborhoods with all six face neighbors *)
Definition has_faces (U : hood) : Prop := forall k e, e = 1 \/ e = -1 -> In (upd vzero k e) U.

Lemma face_nbr U c y o k pos : has_faces U -> ex c = true -> ex y = true -> placed m t c y o ->
  contact_of (len_of m c) (len_of m y) o = Face k pos -> exists h, In h U /\ nbr m t c h y o.
Proof.
  intros HU Ec Ey P E. pose proof (cell_len_pos m Hwf c (V c Ec)) as Lc. pose proof (cell_len_pos m Hwf y (V y Ey)) as Ly.
  apply contact_face in E; [|assumption..]. destruct E as [E H]. exists (upd vzero k (if pos then 1 else -1)). split; [apply HU; destruct pos; auto|]. split; [assumption|].
  intros j. destruct (dim_eq_dec j k) as [->|N].
  - rewrite get_upd_same, E. destruct pos; lia.
  - rewrite get_upd_other, get_vzero by assumption. specialize (H j N). lia.
Qed.
(** the entries of both cells for one face *)
Lemma face_both U c y o k pos : has_faces U -> ex c = true -> ex y = true -> (exists h, In h U /\ nbr m t c h y o) ->
  contact_of (len_of m c) (len_of m y) o = Face k pos ->
  (exists h, In h U /\ nbr m t y h c (vneg o)) /\ contact_of (len_of m y) (len_of m c) (vneg o) = Face k (negb pos).
Proof.
  intros HU Ec Ey (h & _ & P & _) E. pose proof (cell_len_pos m Hwf c (V c Ec)) as Lc. pose proof (cell_len_pos m Hwf y (V y Ey)) as Ly.
  pose proof (contact_flip _ _ _ _ _ Lc Ly E) as E'. split; [|assumption].
  apply (face_nbr U y c (vneg o) k (negb pos)); auto. apply (placed_flip m Hwf t); auto.
Qed.
(** abort() is never reached *)
Lemma never_inside U c y o n : 0 <= n -> (forall h, In h U -> In h (default_hood_of n)) -> ex c = true -> ex y = true -> (exists h, In h U /\ nbr m t c h y o) ->
  contact_of (len_of m c) (len_of m y) o <> Inside.
Proof.
  intros Hn HU Ec Ey (h & Hh & P & M) E. pose proof (proj1 (contact_inside _ _ _) E) as I. clear E. pose proof (V c Ec) as Vc. pose proof (V y Ey) as Vy.
  pose proof (cell_len_pos m Hwf c Vc) as Lc. pose proof (cell_len_pos m Hwf y Vy) as Ly.
  assert (c = y) as <-.
  { pose (x := vmap (fun k => get (idx_of m c) k + Z.max 0 (get o k))).
    destruct (lands_in_box m Hwf t c _ x Vc (lands_self m t _ (cell_in_grid m Hwf c Vc))) as (i & Li & Ci).
    { intros k. unfold x. rewrite get_vmap. specialize (I k). lia. }
    destruct (lands_in_box m Hwf t y _ x Vy P) as (j & Lj & Cj).
    { intros k. unfold x. rewrite get_vadd, get_vmap. specialize (I k). lia. }
    pose proof (lands_unique m t _ _ _ Li Lj) as <-. destruct (proj2 Htile i (proj1 Li)) as (z & _ & Uz).
    rewrite <- (Uz c), <- (Uz y); auto. }
  assert (forall k, get o k = 0) as Z0.
  { intros k. specialize (I k). destruct P as (_ & P). specialize (P k). rewrite get_vadd in P. pose proof (range_k m Hwf c c Vc Vc k) as (_ & _ & B & _ & G & _ & _).
    destruct (per t k); [|lia]. destruct P as (a & P). assert (a = 0 \/ 1 <= a \/ a <= -1) as [->|[Q|Q]] by lia; [lia| |]; exfalso.
    - assert (glen m k <= a * glen m k) by nia. lia.
    - assert (a * glen m k <= - glen m k) by nia. lia. }
  apply HU in Hh. apply default_hood_in in Hh; [|assumption].
  assert (forall k, get h k = 0) as H0. { intros k. specialize (M k). rewrite Z0 in M. nia. }
  unfold in_default in Hh. destruct (Z.eqb_spec n 0) as [->|N].
  - destruct Hh as (k & e & He & ->). specialize (H0 k). rewrite get_upd_same in H0. lia.
  - destruct Hh as [Nz _]. apply Nz. apply idx_ext. intros k. rewrite H0, get_vzero. reflexivity.
Qed.
End Faces.
(** every neighborhood length has the six faces *)
Lemma default_has_faces n : 0 <= n -> has_faces (default_hood_of n).
Proof.
  intros Hn k e He. apply default_hood_in; [assumption|]. unfold in_default. destruct (Z.eqb_spec n 0) as [->|N]; [exists k, e; auto|]. split.
  - intros E. apply (f_equal (fun v => get v k)) in E. rewrite get_upd_same, get_vzero in E. lia.
  - intros j. destruct (dim_eq_dec j k) as [->|Nj]; [rewrite get_upd_same; lia|]. rewrite get_upd_other, get_vzero by assumption. lia.
Qed.
