(** C75: the area used for the flux between two cells is the area of the common part of their faces. *)
From Verif Require Import U64 MapModel MapSpec MapProofs MapFamily MapProps HoodModel MeshModel
  MeshSpec MeshBase HoodProps MeshWalk MeshFind MeshKids MeshItem MeshCheck MeshTo MeshNear
  Sets RefineModel RefineGeo RefineInv RefineSpread RefineMerge RefineFold RefineExec RefineStop RefineNear
  BalanceModel RefineReqs Create Balance History HistProps CommModel CommInv ProgramModel ProgramProps AdvectModel AdvectGeo AdvectSum AdvectRegroup AdvectProps AdvectStep.
From Coq Require Import QArith Qcanon.
Open Scope Z_scope.

(** length of the common part of the intervals [0, cl) and [o, o + nl) *)
Definition common (cl nl o : Z) : Z := Z.min (o + nl) cl - Z.max o 0.
Definition others (k : dim) : dim * dim := match k with DX => (DY, DZ) | DY => (DX, DZ) | DZ => (DX, DY) end.
Definition zq (z : Z) : Qc := Q2Qc (inject_Z z).

Section Common.
Context (m : mapping) (Hwf : wf m) (t : topo).
Lemma common_min c n o j : valid m c -> valid m n -> placed m t c n o -> - len_of m n < get o j < len_of m c ->
  common (len_of m c) (len_of m n) (get o j) = Z.min (len_of m c) (len_of m n).
Proof.
  intros Vc Vn P H. pose proof (cell_len_pos m Hwf c Vc) as Lc. pose proof (cell_len_pos m Hwf n Vn) as Ln.
  pose proof (lands_aligned m Hwf t _ n j Vn P) as An. rewrite get_vadd in An. pose proof (cell_aligned m Hwf c j Vc) as Ac.
  assert ((len_of m n | len_of m c) \/ (len_of m c | len_of m n)) as [D|D].
  { rewrite (cell_len m Hwf c Vc), (cell_len m Hwf n Vn). pose proof (cell_level m Hwf c Vc). pose proof (cell_level m Hwf n Vn). destruct (Z.le_gt_cases (lvl_of m c) (lvl_of m n)); [left|right]; apply pow2_divide; unfold lvl_of in *; lia. }
  - assert (len_of m n | get o j) as Ao. { apply (Z.divide_add_cancel_r _ (get (idx_of m c) j)); [apply Z.divide_trans with (len_of m c); assumption|assumption]. }
    pose proof (Z.divide_pos_le _ _ Lc D). destruct Ao as (a & Ea). destruct D as (b & Eb). assert (0 <= a) by nia. assert (a < b) by nia. assert ((a + 1) * len_of m n <= b * len_of m n) by nia. unfold common. lia.
  - pose proof (Z.divide_pos_le _ _ Ln D). assert (len_of m c | get o j) as Ao. { apply (Z.divide_add_cancel_r _ (get (idx_of m c) j)); [assumption|apply Z.divide_trans with (len_of m n); assumption]. }
    destruct Ao as (a & Ea). destruct D as (b & Eb). assert (a <= 0) by nia. assert (- b < a) by nia. assert ((a + b) * len_of m c >= len_of m c) by nia. assert (a * len_of m c <= 0) by nia. unfold common. lia.
Qed.
End Common.
Lemma zq_mul a b : zq (a * b) = (zq a * zq b)%Qc.
Proof. unfold zq. apply Qc_is_canon. unfold Qcmult. cbn [this Q2Qc]. rewrite !Qred_correct. rewrite inject_Z_mult. reflexivity. Qed.
Lemma zq_le a b : a <= b -> (zq a <= zq b)%Qc.
Proof. intros H. unfold Qcle, zq. cbn [this Q2Qc]. rewrite !Qred_correct. rewrite <- Zle_Qle. exact H. Qed.
Lemma zq_min (u : Qc) a b : (0 <= u)%Qc -> 0 <= a -> 0 <= b -> qmin (u * (zq a * zq a))%Qc (u * (zq b * zq b))%Qc = (u * (zq (Z.min a b) * zq (Z.min a b)))%Qc.
Proof.
  intros Hu Ha Hb. assert (forall a b, 0 <= a <= b -> (u * (zq a * zq a) <= u * (zq b * zq b))%Qc) as Mo.
  { intros a' b' H. rewrite <- !zq_mul. rewrite !(Qcmult_comm u). apply Qcmult_le_compat_r; [|assumption]. apply zq_le. nia. }
  unfold qmin. destruct (qleb _ _) eqn:E.
  - apply qleb_le in E. destruct (Z.min_spec a b) as [[L ->]|[L ->]]; [reflexivity|]. apply Qcle_antisym; [assumption|apply Mo; lia].
  - apply qleb_gt in E. destruct (Z.min_spec a b) as [[L ->]|[L ->]]; [|reflexivity]. apply Qcle_antisym; [assumption|apply Mo; lia].
Qed.

Section Area.
Context (d0 : fluid) (g : grid) (Hg : grid_ok g).
Notation m := (g_map g).
Notation t := (g_topo g).
Notation state := (xstate (D := fluid)).
Context (len : dim -> Qc) (Hlen : forall k, (0 < len k)%Qc).
Context (shape : Z -> (Qc * Qc * Qc) * (Qc * Qc * Qc)).
Context (Hshape : forall c, valid m c -> forall k, size (with_shape shape c 0%Qc) k = (len k / pow2 (get_refinement_level m c))%Qc).
(** the physical length of one index *)
Definition unit (k : dim) : Qc := (len k / pow2 (m_max m))%Qc.

Lemma size_unit c r k : valid m c -> size (with_shape shape c r) k = (unit k * zq (len_of m c))%Qc.
Proof.
  intros V. destruct (shaped shape c r) as (_ & _ & S). rewrite S, (Hshape c V). unfold unit. rewrite (cell_len m (Hwf g Hg) c V). pose proof (cell_level m (Hwf g Hg) c V) as Hl.
  replace (pow2 (m_max m)) with (pow2 (get_refinement_level m c) * zq (2 ^ (m_max m - lvl_of m c)))%Qc.
  - field. split; [|apply pow2_nz; unfold lvl_of in Hl; lia]. change (zq (2 ^ (m_max m - lvl_of m c))) with (pow2 (m_max m - lvl_of m c)). apply pow2_nz. unfold lvl_of in *. lia.
  - change (pow2 (get_refinement_level m c)) with (zq (2 ^ (get_refinement_level m c))). rewrite <- zq_mul. unfold pow2, zq. do 2 f_equal. rewrite <- Z.pow_add_r by (unfold lvl_of in *; lia). f_equal. unfold lvl_of in *. lia.
Qed.
Lemma unit_pos k : (0 <= unit k)%Qc.
Proof.
  apply nn_div; [apply Qclt_le_weak, Hlen|]. pose proof (Hwf g Hg) as Wf. assert (0 <= m_max m) as Hm by apply Wf. unfold pow2, Qclt. cbn [this Q2Qc]. rewrite !Qred_correct. pose proof (Z.pow_pos_nonneg 2 (m_max m) ltac:(lia) Hm) as P. change 0%Q with (inject_Z 0). rewrite <- Zlt_Qlt. exact P.
Qed.
Theorem c75_face_area x c d n e h o k pos : xreachable d0 g x -> settled g shape x -> shows g x c d -> shows g x n e -> nbr m t c h n o ->
  contact_of (get_cell_length_in_indices m c) (get_cell_length_in_indices m n) o = Face k pos ->
  qmin (area d k) (area e k) =
    (unit (fst (others k)) * zq (common (len_of m c) (len_of m n) (get o (fst (others k)))) *
     (unit (snd (others k)) * zq (common (len_of m c) (len_of m n) (get o (snd (others k))))))%Qc.
Proof.
  intros R S Sd Se (P & _) C. destruct (shows_unique d0 g Hg x c d R Sd) as (Ec & _). destruct (shows_unique d0 g Hg x n e R Se) as (En & _).
  pose proof (leaf_valid m _ (tiling_at d0 g Hg x R) c Ec) as Vc. pose proof (leaf_valid m _ (tiling_at d0 g Hg x R) n En) as Vn.
  pose proof (cell_len_pos m (Hwf g Hg) c Vc) as Lc. pose proof (cell_len_pos m (Hwf g Hg) n Vn) as Ln.
  apply contact_face in C; [|assumption..]. destruct C as (_ & C).
  assert (forall j, j <> k -> common (len_of m c) (len_of m n) (get o j) = Z.min (len_of m c) (len_of m n)) as K by (intros j Nj; apply (common_min m (Hwf g Hg) t); auto).
  rewrite !K by (destruct k; discriminate).
  assert (forall y v, valid m y -> v = with_shape shape y (rho v) -> area v k = (unit (fst (others k)) * unit (snd (others k)) * (zq (len_of m y) * zq (len_of m y)))%Qc) as A.
  { intros y v V ->. unfold area, others. destruct k; cbn [fst snd].
    - change (ly ?v) with (size v DY). change (lz ?v) with (size v DZ). rewrite !size_unit by assumption. ring.
    - change (lx ?v) with (size v DX). change (lz ?v) with (size v DZ). rewrite !size_unit by assumption. ring.
    - change (lx ?v) with (size v DX). change (ly ?v) with (size v DY). rewrite !size_unit by assumption. ring. }
  rewrite (A c d Vc (S c d Sd)), (A n e Vn (S n e Se)). rewrite zq_min; [ring|apply nn_mul; apply unit_pos|lia|lia].
Qed.
End Area.
Print Assumptions c75_face_area.
