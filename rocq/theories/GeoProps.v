(** Properties C42-C44 of the geometries with equal cells, in exact arithmetic. *)
From Coq Require Import QArith Qround Lqa.
From Verif Require Import U64 MapModel MapSpec MapProofs MapProps HoodModel MeshSpec MeshBase GeoModel GeoBase.
Open Scope Z_scope.

(** a geometry with finite parameters and cells of positive size *)
Definition finite (g : cartesian exact) : Prop :=
  forall k, exists s h, ca_start g k = Some s /\ ca_length0 g k = Some h /\ (0 < h)%Q.
Definition val (a : option Q) : Q := match a with Some q => q | None => 0%Q end.

Lemma p2_pos n : 0 <= n -> (0 < z2q (2 ^ n))%Q.
Proof. intros H. apply z2q_pos. pose proof (pow2_pos n H). lia. Qed.

Section Facts.
Context (m : mapping) (Hwf : wf m).
Lemma max_shift : shl1 (m_max m) = 2 ^ m_max m /\ 0 <= m_max m.
Proof. pose proof (wf_max_le_21 m Hwf). split; [apply shl1_small; lia|lia]. Qed.
Lemma level_shift c : valid m c -> shl1 (lvl_of m c) = 2 ^ lvl_of m c /\ 0 <= lvl_of m c.
Proof. intros H. pose proof (wf_max_le_21 m Hwf). pose proof (cell_level m Hwf c H). split; [apply shl1_small; lia|lia]. Qed.
Lemma valid_exists c : valid m c -> no_such_cell m c = false.
Proof.
  intros H. pose proof (cell_level m Hwf c H) as L. unfold lvl_of in L. unfold valid in H. unfold no_such_cell, error_cell. lia.
Qed.
Lemma invalid_no_such_cell c : 0 <= c -> ~ valid m c -> no_such_cell m c = true.
Proof.
  intros H0 H. unfold no_such_cell. unfold valid in H. destruct (Z.eqb_spec c error_cell); [reflexivity|].
  unfold error_cell in *. rewrite level_invalid by lia. reflexivity.
Qed.
Lemma len_scale c : valid m c -> (z2q (2 ^ m_max m) == z2q (2 ^ lvl_of m c) * z2q (len_of m c))%Q.
Proof.
  intros H. rewrite cell_len by assumption. rewrite <- z2q_mul.
  rewrite <- Z.pow_add_r by (pose proof (cell_level m Hwf c H); lia).
  replace (lvl_of m c + (m_max m - lvl_of m c)) with (m_max m) by lia. reflexivity.
Qed.
End Facts.

(** a wrapped coordinate is inside *)
Lemma wraps_inside (a b v : Q) p x : (a < b)%Q -> wraps a b p x (Some v) -> (a <= v)%Q /\ (v <= b)%Q.
Proof.
  intros Hab. unfold wraps. destruct x as [u|]; [|discriminate].
  destruct (exact_le (Some a) (Some u) && exact_le (Some u) (Some b)) eqn:E.
  - intros [= ->]. apply andb_true_iff in E. rewrite !le_iff in E. exact E.
  - destruct p; [|discriminate]. intros (w & n & [= <-] & _ & R1 & R2).
    apply andb_false_iff in E. destruct E as [E|E]; apply not_true_iff_false in E; rewrite le_iff in E;
    apply Qnot_le_lt in E; [apply R1 in E|apply R2 in E]; lra.
Qed.

Section Cartesian.
Context (m : mapping) (t : topo) (g : cartesian exact) (Hwf : wf m) (Hg : finite g).
Definition ca_edge (k : dim) (i : Z) : Q :=
  (val (ca_start g k) + z2q i * (val (ca_length0 g k) / z2q (2 ^ m_max m)))%Q.

Lemma ca_values k : ca_start g k = Some (val (ca_start g k)) /\ ca_length0 g k = Some (val (ca_length0 g k)) /\
  (0 < val (ca_length0 g k))%Q.
Proof. destruct (Hg k) as (s & h & Es & Eh & Ph). rewrite Es, Eh. auto. Qed.
Lemma ca_step k : (0 < val (ca_length0 g k) / z2q (2 ^ m_max m))%Q.
Proof.
  destruct (ca_values k) as (_ & _ & P). pose proof (p2_pos (m_max m) (proj2 (max_shift m Hwf))).
  apply Qlt_shift_div_l; [assumption|]. lra.
Qed.
Lemma ca_inc k i j : 0 <= i -> i < j -> j <= glen m k -> (ca_edge k i < ca_edge k j)%Q.
Proof.
  intros _ H _. unfold ca_edge. pose proof (ca_step k). rewrite <- z2q_lt in H. nra.
Qed.
Lemma ca_length_eq c k : valid m c -> exists q, ca_length exact m g c k = Some q /\
  (q == z2q (len_of m c) * (val (ca_length0 g k) / z2q (2 ^ m_max m)))%Q /\ (q == val (ca_length0 g k) / z2q (2 ^ lvl_of m c))%Q.
Proof.
  intros H. unfold ca_length. rewrite valid_exists by assumption. destruct (ca_values k) as (_ & E & P). rewrite E.
  destruct (level_shift m Hwf c H) as [S Hl]. unfold lvl_of in S. rewrite S. fold (lvl_of m c).
  pose proof (p2_pos (lvl_of m c) Hl) as P2. cbn [exact mul div of_u64].
  change (inject_Z (2 ^ lvl_of m c)) with (z2q (2 ^ lvl_of m c)). rewrite div_some by assumption. cbn [lift2].
  eexists. split; [reflexivity|]. rewrite (len_scale m Hwf c H).
  assert (0 < z2q (len_of m c))%Q by (apply z2q_pos, cell_len_pos; assumption).
  change (inject_Z 1) with 1%Q. cbn [val]. split; field; lra.
Qed.
Lemma ca_center_eq c k : valid m c -> exists q l, ca_center exact m g c k = Some q /\ ca_length exact m g c k = Some l /\
  (q == ca_edge k (get (idx_of m c) k) + l / 2)%Q /\
  (l == z2q (len_of m c) * (val (ca_length0 g k) / z2q (2 ^ m_max m)))%Q.
Proof.
  intros H. destruct (ca_length_eq c k H) as (l & El & Ql & _). unfold ca_center.
  rewrite valid_exists by assumption. rewrite El. destruct (ca_values k) as (Es & E & P). rewrite Es, E.
  destruct (max_shift m Hwf) as [S HM]. rewrite S. pose proof (p2_pos (m_max m) HM) as P2.
  cbn [exact add mul div of_u64 lift2]. change (inject_Z (2 ^ m_max m)) with (z2q (2 ^ m_max m)).
  rewrite !div_some by (assumption || reflexivity). cbn [lift2].
  eexists; exists l. split; [reflexivity|]. split; [reflexivity|]. split; [|assumption].
  unfold ca_edge. rewrite Es, E. cbn [val]. unfold idx_of.
  change (inject_Z (get (get_indices m c) k)) with (z2q (get (get_indices m c) k)). change (inject_Z 2) with 2%Q.
  field. lra.
Qed.
Lemma ca_min_eq c k : valid m c -> exists q, ca_min exact m g c k = Some q /\ (q == ca_edge k (get (idx_of m c) k))%Q.
Proof.
  intros H. destruct (ca_center_eq c k H) as (q & l & Eq & El & Qq & _). unfold ca_min. rewrite Eq, El.
  cbn [exact sub div of_u64]. rewrite div_some by reflexivity. cbn [lift2]. eexists. split; [reflexivity|].
  rewrite Qq. change (inject_Z 2) with 2%Q. field.
Qed.
Lemma ca_max_eq c k : valid m c -> exists q, ca_max exact m g c k = Some q /\ (q == ca_edge k (get (idx_of m c) k + len_of m c))%Q.
Proof.
  intros H. destruct (ca_center_eq c k H) as (q & l & Eq & El & Qq & Ql). unfold ca_max. rewrite Eq, El.
  cbn [exact add div of_u64]. rewrite div_some by reflexivity. cbn [lift2]. eexists. split; [reflexivity|].
  rewrite Qq, Ql. change (inject_Z 2) with 2%Q. unfold ca_edge. rewrite z2q_add. field.
  pose proof (p2_pos (m_max m) (proj2 (max_shift m Hwf))). lra.
Qed.
Lemma ca_start_eq k : ca_start g k = Some (val (ca_start g k)) /\ (val (ca_start g k) == ca_edge k 0)%Q.
Proof. split; [apply ca_values|]. unfold ca_edge. change (z2q 0) with 0%Q. ring. Qed.
Lemma ca_end_eq k : ca_end exact m g k = Some (val (ca_end exact m g k)) /\ (val (ca_end exact m g k) == ca_edge k (glen m k))%Q.
Proof.
  unfold ca_end. destruct (ca_values k) as (Es & E & P). rewrite Es, E. cbn [exact add mul of_u64 lift2 val].
  split; [reflexivity|]. unfold ca_edge, glen. rewrite Es, E. cbn [val]. rewrite z2q_mul.
  change (inject_Z (mlen m k)) with (z2q (mlen m k)). field.
  pose proof (p2_pos (m_max m) (proj2 (max_shift m Hwf))). lra.
Qed.
Lemma ca_real_eq x k : wraps (val (ca_start g k)) (val (ca_end exact m g k)) (per t k) (x k) (ca_real_coordinate exact m t g x k).
Proof.
  unfold ca_real_coordinate. destruct (ca_start_eq k) as [Es Qs], (ca_end_eq k) as [Ee Qe]. rewrite Es, Ee. cbn [val].
  apply real_coordinate_wraps. pose proof (glen_pos m Hwf k).
  pose proof (ca_inc k 0 (glen m k) ltac:(lia) ltac:(lia) ltac:(lia)). lra.
Qed.
Lemma ca_index_eq x k :
  match ca_real_coordinate exact m t g x k with
  | None => get (ca_indices exact m t g x) k = error_index
  | Some v => (forall j, 0 <= j < glen m k -> (ca_edge k j <= v)%Q -> (v < ca_edge k (j + 1))%Q -> get (ca_indices exact m t g x) k = j) /\
              ((v == val (ca_end exact m g k))%Q -> get (ca_indices exact m t g x) k = glen m k)
  end.
Proof.
  assert (get (ca_indices exact m t g x) k =
    let y := ca_real_coordinate exact m t g x k in
    if le exact (ca_start g k) y && le exact y (ca_end exact m g k)
    then floor_u64 exact (div exact (sub exact y (ca_start g k)) (div exact (ca_length0 g k) (of_u64 exact (shl1 (m_max m)))))
    else error_index) as E by (destruct k; reflexivity).
  cbv zeta in E. destruct (ca_start_eq k) as [Es Qs], (ca_end_eq k) as [Ee Qe]. destruct (ca_values k) as (_ & El & P).
  pose proof (ca_real_eq x k) as R. destruct (ca_real_coordinate exact m t g x k) as [v|].
  2:{ rewrite E. rewrite Es. reflexivity. }
  assert (val (ca_start g k) < val (ca_end exact m g k))%Q as Hab.
  { pose proof (glen_pos m Hwf k). pose proof (ca_inc k 0 (glen m k) ltac:(lia) ltac:(lia) ltac:(lia)). lra. }
  apply wraps_inside in R; [|assumption]. destruct R as [R1 R2].
  rewrite Es, Ee, El in E. cbn [exact le sub div floor_u64 of_u64] in E.
  rewrite (proj2 (le_iff _ _) R1), (proj2 (le_iff _ _) R2) in E. cbn [andb] in E.
  destruct (max_shift m Hwf) as [S HM]. rewrite S in E. pose proof (p2_pos (m_max m) HM) as P2.
  change (inject_Z (2 ^ m_max m)) with (z2q (2 ^ m_max m)) in E. rewrite div_some in E by assumption.
  cbn [lift2 val] in E. rewrite div_some in E by (apply ca_step). rewrite E.
  set (h := (val (ca_length0 g k) / z2q (2 ^ m_max m))%Q). assert (0 < h)%Q as Hh by apply ca_step.
  pose proof (glen_lt_W m Hwf k). pose proof (glen_pos m Hwf k).
  assert (forall j, 0 <= j <= glen m k -> (ca_edge k j <= v)%Q -> (v < ca_edge k (j + 1))%Q ->
    u64 (Qfloor ((v - val (ca_start g k)) / h)) = j) as F.
  { intros j Hj L U. unfold ca_edge in L, U. fold h in L, U.
    rewrite (floor_unique _ j).
    - apply u64_small. lia.
    - apply Qle_shift_div_l; [assumption|]. lra.
    - apply Qlt_shift_div_r; [assumption|]. lra. }
  split; [intros j Hj; apply F; lia|]. intros Ev. apply F; [lia|lra|].
  unfold ca_edge in *. fold h in Qe |- *. rewrite z2q_add. change (z2q 1) with 1%Q. nra.
Qed.
Lemma ca_cell_eq l x : ca_cell exact m t g l x = if level_outside m l then error_cell else get_cell_from_indices m (ca_indices exact m t g x) l.
Proof. reflexivity. Qed.
End Cartesian.

Section NoGeometry.
Context (m : mapping) (t : topo) (Hwf : wf m).
Definition no_edge (k : dim) (i : Z) : Q := (z2q i * (1 / z2q (2 ^ m_max m)))%Q.
Lemma no_p2 : (0 < z2q (2 ^ m_max m))%Q.
Proof. apply p2_pos, (max_shift m Hwf). Qed.
Lemma no_step : (0 < 1 / z2q (2 ^ m_max m))%Q.
Proof. pose proof no_p2. apply Qlt_shift_div_l; [assumption|lra]. Qed.
Lemma no_inc k i j : 0 <= i -> i < j -> j <= glen m k -> (no_edge k i < no_edge k j)%Q.
Proof. intros _ H _. unfold no_edge. pose proof no_step. rewrite <- z2q_lt in H. nra. Qed.
Lemma no_length_eq c k : valid m c -> exists q, no_length exact m c k = Some q /\
  (q == z2q (len_of m c) * (1 / z2q (2 ^ m_max m)))%Q /\ (q == 1 / z2q (2 ^ lvl_of m c))%Q.
Proof.
  intros H. unfold no_length. rewrite valid_exists by assumption.
  destruct (level_shift m Hwf c H) as [S Hl]. unfold lvl_of in S. rewrite S. fold (lvl_of m c).
  pose proof (p2_pos (lvl_of m c) Hl) as P2. cbn [exact div of_u64].
  change (inject_Z (2 ^ lvl_of m c)) with (z2q (2 ^ lvl_of m c)). rewrite div_some by assumption.
  eexists. split; [reflexivity|]. rewrite (len_scale m Hwf c H).
  assert (0 < z2q (len_of m c))%Q by (apply z2q_pos, cell_len_pos; assumption).
  change (inject_Z 1) with 1%Q. split; [field; lra|reflexivity].
Qed.
Lemma no_center_eq c k : valid m c -> exists q l, no_center exact m c k = Some q /\ no_length exact m c k = Some l /\
  (q == no_edge k (get (idx_of m c) k) + l / 2)%Q /\ (l == z2q (len_of m c) * (1 / z2q (2 ^ m_max m)))%Q.
Proof.
  intros H. destruct (no_length_eq c k H) as (l & El & Ql & _). unfold no_center.
  rewrite valid_exists by assumption. rewrite El. destruct (max_shift m Hwf) as [S HM]. rewrite S. pose proof no_p2 as P2.
  cbn [exact add div of_u64]. change (inject_Z (2 ^ m_max m)) with (z2q (2 ^ m_max m)).
  rewrite !div_some by (assumption || reflexivity). cbn [lift2].
  eexists; exists l. split; [reflexivity|]. split; [reflexivity|]. split; [|assumption].
  unfold no_edge, idx_of. change (inject_Z (get (get_indices m c) k)) with (z2q (get (get_indices m c) k)).
  change (inject_Z 2) with 2%Q. field. lra.
Qed.
Lemma no_min_eq c k : valid m c -> exists q, no_min exact m c k = Some q /\ (q == no_edge k (get (idx_of m c) k))%Q.
Proof.
  intros H. destruct (no_center_eq c k H) as (q & l & Eq & El & Qq & _). unfold no_min. rewrite Eq, El.
  cbn [exact sub div of_u64]. rewrite div_some by reflexivity. cbn [lift2]. eexists. split; [reflexivity|].
  rewrite Qq. change (inject_Z 2) with 2%Q. field.
Qed.
Lemma no_max_eq c k : valid m c -> exists q, no_max exact m c k = Some q /\ (q == no_edge k (get (idx_of m c) k + len_of m c))%Q.
Proof.
  intros H. destruct (no_center_eq c k H) as (q & l & Eq & El & Qq & Ql). unfold no_max. rewrite Eq, El.
  cbn [exact add div of_u64]. rewrite div_some by reflexivity. cbn [lift2]. eexists. split; [reflexivity|].
  rewrite Qq, Ql. change (inject_Z 2) with 2%Q. unfold no_edge. rewrite z2q_add. field. pose proof no_p2. lra.
Qed.
Lemma no_start_eq k : no_start exact k = Some 0%Q /\ (0 == no_edge k 0)%Q.
Proof. split; [reflexivity|]. unfold no_edge. change (z2q 0) with 0%Q. ring. Qed.
Lemma no_end_eq k : no_end exact m k = Some (z2q (mlen m k)) /\ (z2q (mlen m k) == no_edge k (glen m k))%Q.
Proof. split; [reflexivity|]. unfold no_edge, glen. rewrite z2q_mul. field. pose proof no_p2. lra. Qed.
Lemma no_len_pos k : (0 < z2q (mlen m k))%Q.
Proof. apply z2q_pos, mlen_pos, Hwf. Qed.
Lemma no_real_eq x k : wraps 0 (z2q (mlen m k)) (per t k) (x k) (no_real_coordinate exact m t x k).
Proof. apply (wrap_with_wraps 0 (z2q (mlen m k)) (z2q (mlen m k))); [apply no_len_pos|ring]. Qed.
Lemma no_index_eq x k :
  match no_real_coordinate exact m t x k with
  | None => get (no_indices exact m t x) k = error_index
  | Some v => (forall j, 0 <= j < glen m k -> (no_edge k j <= v)%Q -> (v < no_edge k (j + 1))%Q -> get (no_indices exact m t x) k = j) /\
              ((v == z2q (mlen m k))%Q -> get (no_indices exact m t x) k = glen m k)
  end.
Proof.
  assert (get (no_indices exact m t x) k =
    let y := no_real_coordinate exact m t x k in
    if le exact (of_u64 exact 0) y && le exact y (no_end exact m k)
    then floor_u64 exact (mul exact y (of_u64 exact (shl1 (m_max m)))) else error_index) as E by (destruct k; reflexivity).
  cbv zeta in E. pose proof (no_real_eq x k) as R. destruct (no_real_coordinate exact m t x k) as [v|].
  2:{ rewrite E. reflexivity. }
  apply wraps_inside in R; [|apply no_len_pos]. destruct R as [R1 R2].
  rewrite (proj1 (no_end_eq k)) in E. cbn [exact le mul floor_u64 of_u64 lift2] in E.
  change (inject_Z 0) with 0%Q in E.
  rewrite (proj2 (le_iff _ _) R1), (proj2 (le_iff _ _) R2) in E. cbn [andb] in E.
  destruct (max_shift m Hwf) as [S HM]. rewrite S in E. pose proof no_p2 as P2.
  change (inject_Z (2 ^ m_max m)) with (z2q (2 ^ m_max m)) in E. rewrite E.
  pose proof (glen_lt_W m Hwf k). pose proof (glen_pos m Hwf k).
  assert (forall j, (no_edge k j * z2q (2 ^ m_max m) == z2q j)%Q) as Ej by (intros j; unfold no_edge; field; lra).
  assert (forall j, 0 <= j <= glen m k -> (no_edge k j <= v)%Q -> (v < no_edge k (j + 1))%Q ->
    u64 (Qfloor (v * z2q (2 ^ m_max m))) = j) as F.
  { intros j Hj L U. rewrite (floor_unique _ j).
    - apply u64_small. lia.
    - rewrite <- (Ej j). apply Qmult_le_compat_r; lra.
    - rewrite <- (Ej (j + 1)). apply Qmult_lt_compat_r; lra. }
  split; [intros j Hj; apply F; lia|]. intros Ev. pose proof (proj2 (no_end_eq k)) as Qe. apply F; [lia|lra|].
  pose proof no_step. unfold no_edge in *. rewrite z2q_add. change (z2q 1) with 1%Q. nra.
Qed.
End NoGeometry.

(** ** C42 *)

(** Cartesian_Geometry: the boxes from get_min to get_max of the cells of a refinement level, of
    the children of a cell and of any existing cells that tile the grid tile the domain. *)
Theorem c42_cartesian_boxes_tile_the_domain m g x :
  wf m -> finite g ->
  let start := ca_start g in let end_ := ca_end exact m g in
  let lo := ca_min exact m g in let hi := ca_max exact m g in
  (forall l, 0 <= l <= m_max m -> within start x end_ ->
     exists! c, valid m c /\ get_refinement_level m c = l /\ within (lo c) x (hi c)) /\
  (forall l, 0 <= l <= m_max m -> within_closed start x end_ ->
     exists c, valid m c /\ get_refinement_level m c = l /\ within_closed (lo c) x (hi c)) /\
  (forall c, valid m c -> within (lo c) x (hi c) -> within start x end_) /\
  (forall c, valid m c -> get_refinement_level m c < m_max m ->
     (within (lo c) x (hi c) -> exists! k, In k (get_all_children m c) /\ within (lo k) x (hi k)) /\
     (forall k, In k (get_all_children m c) -> within (lo k) x (hi k) -> within (lo c) x (hi c))) /\
  (forall ex, tiling m ex -> within start x end_ -> exists! c, ex c = true /\ within (lo c) x (hi c)).
Proof.
  intros Hwf Hg. cbv zeta.
  pose proof (ca_inc m g Hwf Hg) as Hinc. pose proof (ca_min_eq m g Hwf Hg) as Hlo. pose proof (ca_max_eq m g Hwf Hg) as Hhi.
  assert (forall k, exists q, ca_start g k = Some q /\ (q == ca_edge m g k 0)%Q) as Hs by (intros k; eexists; apply (ca_start_eq m g Hg)).
  assert (forall k, exists q, ca_end exact m g k = Some q /\ (q == ca_edge m g k (glen m k))%Q) as He by (intros k; eexists; apply (ca_end_eq m g Hwf Hg)).
  split; [intros l; apply (level_tiles m Hwf (ca_edge m g)); assumption|].
  split; [intros l; apply (closed_cover m Hwf (ca_edge m g)); assumption|].
  split; [intros c; apply (box_in_grid m Hwf (ca_edge m g)); assumption|].
  split; [intros c; apply (children_tile m Hwf (ca_edge m g) Hinc _ _ Hlo Hhi (ca_start g) (ca_end exact m g)); assumption|].
  intros ex. apply (existing_tile m Hwf (ca_edge m g)); assumption.
Qed.
Print Assumptions c42_cartesian_boxes_tile_the_domain.

Theorem c42_no_geometry_boxes_tile_the_domain m x :
  wf m ->
  let start := no_start exact in let end_ := no_end exact m in
  let lo := no_min exact m in let hi := no_max exact m in
  (forall l, 0 <= l <= m_max m -> within start x end_ ->
     exists! c, valid m c /\ get_refinement_level m c = l /\ within (lo c) x (hi c)) /\
  (forall l, 0 <= l <= m_max m -> within_closed start x end_ ->
     exists c, valid m c /\ get_refinement_level m c = l /\ within_closed (lo c) x (hi c)) /\
  (forall c, valid m c -> within (lo c) x (hi c) -> within start x end_) /\
  (forall c, valid m c -> get_refinement_level m c < m_max m ->
     (within (lo c) x (hi c) -> exists! k, In k (get_all_children m c) /\ within (lo k) x (hi k)) /\
     (forall k, In k (get_all_children m c) -> within (lo k) x (hi k) -> within (lo c) x (hi c))) /\
  (forall ex, tiling m ex -> within start x end_ -> exists! c, ex c = true /\ within (lo c) x (hi c)).
Proof.
  intros Hwf. cbv zeta.
  pose proof (no_inc m Hwf) as Hinc. pose proof (no_min_eq m Hwf) as Hlo. pose proof (no_max_eq m Hwf) as Hhi.
  assert (forall k, exists q, no_start exact k = Some q /\ (q == no_edge m k 0)%Q) as Hs by (intros k; eexists; apply (no_start_eq m)).
  assert (forall k, exists q, no_end exact m k = Some q /\ (q == no_edge m k (glen m k))%Q) as He by (intros k; eexists; apply (no_end_eq m Hwf)).
  split; [intros l; apply (level_tiles m Hwf (no_edge m)); assumption|].
  split; [intros l; apply (closed_cover m Hwf (no_edge m)); assumption|].
  split; [intros c; apply (box_in_grid m Hwf (no_edge m)); assumption|].
  split; [intros c; apply (children_tile m Hwf (no_edge m) Hinc _ _ Hlo Hhi (no_start exact) (no_end exact m)); assumption|].
  intros ex. apply (existing_tile m Hwf (no_edge m)); assumption.
Qed.
Print Assumptions c42_no_geometry_boxes_tile_the_domain.

(** the center is the middle of the box, whose size is the length of unrefined cells divided by
    two to the power of refinement level *)
Definition minus := lift2 Qminus.
Definition times := lift2 Qmult.
Theorem c42_cartesian_center_and_length m g c k :
  wf m -> finite g -> valid m c ->
  let lo := ca_min exact m g c k in let hi := ca_max exact m g c k in let mid := ca_center exact m g c k in
  exact_lt lo mid = true /\ exact_lt mid hi = true /\ same (minus mid lo) (minus hi mid) /\
  same (minus hi lo) (ca_length exact m g c k) /\
  same (times (ca_length exact m g c k) (Some (inject_Z (2 ^ get_refinement_level m c)))) (ca_length0 g k).
Proof.
  intros Hwf Hg Hc. cbv zeta.
  destruct (ca_center_eq m g Hwf Hg c k Hc) as (q & l & Eq & El & Qq & Ql).
  destruct (ca_length_eq m g Hwf Hg c k Hc) as (l' & El' & _ & Ql'). rewrite El in El'. injection El' as <-.
  unfold ca_min, ca_max. rewrite Eq, El. cbn [exact add sub div of_u64]. rewrite !div_some by reflexivity.
  unfold minus, times. cbn [lift2]. change (inject_Z 2) with 2%Q.
  destruct (ca_values g Hg k) as (_ & E & P). rewrite E. fold (z2q (2 ^ get_refinement_level m c)). fold (lvl_of m c).
  pose proof (p2_pos (lvl_of m c) (proj2 (level_shift m Hwf c Hc))).
  assert (0 < l)%Q by (rewrite Ql'; apply Qlt_shift_div_l; lra).
  assert (l / 2 == l * (1 # 2))%Q as Hh by field. rewrite !lt_iff, !same_iff.
  split; [lra|]. split; [lra|]. split; [lra|]. split; [lra|]. rewrite Ql'. field. lra.
Qed.
Print Assumptions c42_cartesian_center_and_length.

Theorem c42_no_geometry_center_and_length m c k :
  wf m -> valid m c ->
  let lo := no_min exact m c k in let hi := no_max exact m c k in let mid := no_center exact m c k in
  exact_lt lo mid = true /\ exact_lt mid hi = true /\ same (minus mid lo) (minus hi mid) /\
  same (minus hi lo) (no_length exact m c k) /\
  same (times (no_length exact m c k) (Some (inject_Z (2 ^ get_refinement_level m c)))) (Some 1%Q).
Proof.
  intros Hwf Hc. cbv zeta.
  destruct (no_center_eq m Hwf c k Hc) as (q & l & Eq & El & Qq & Ql).
  destruct (no_length_eq m Hwf c k Hc) as (l' & El' & _ & Ql'). rewrite El in El'. injection El' as <-.
  unfold no_min, no_max. rewrite Eq, El. cbn [exact add sub div of_u64]. rewrite !div_some by reflexivity.
  unfold minus, times. cbn [lift2]. change (inject_Z 2) with 2%Q.
  fold (z2q (2 ^ get_refinement_level m c)). fold (lvl_of m c).
  pose proof (p2_pos (lvl_of m c) (proj2 (level_shift m Hwf c Hc))).
  assert (0 < l)%Q by (rewrite Ql'; apply Qlt_shift_div_l; lra).
  assert (l / 2 == l * (1 # 2))%Q as Hh by field. rewrite !lt_iff, !same_iff.
  split; [lra|]. split; [lra|]. split; [lra|]. split; [lra|]. rewrite Ql'. field. lra.
Qed.
Print Assumptions c42_no_geometry_center_and_length.

(** ids of cells that cannot exist give NaN, in any arithmetic *)
Theorem c42_impossible_cells_have_no_place (A : arith) m g c k :
  wf m -> 0 <= c -> ~ valid m c ->
  ca_length A m g c k = nan A /\ ca_center A m g c k = nan A /\
  no_length A m c k = nan A /\ no_center A m c k = nan A.
Proof.
  intros Hwf H0 H. unfold ca_length, ca_center, no_length, no_center.
  rewrite (invalid_no_such_cell m c H0 H). auto.
Qed.
Print Assumptions c42_impossible_cells_have_no_place.

(** set refuses lengths that are not positive and keeps the old geometry then *)
Theorem c42_set_refuses_nonpositive_lengths old given :
  let (ok, new) := cartesian_set exact old given in
  if ok then new = given /\ forall k q, ca_length0 given k = Some q -> (0 < q)%Q
  else new = old /\ exists k q, ca_length0 given k = Some q /\ (q <= 0)%Q.
Proof.
  unfold cartesian_set, all_dims.
  assert (forall k, negb (le exact (ca_length0 given k) (of_u64 exact 0)) = false -> exists q, ca_length0 given k = Some q /\ (q <= 0)%Q) as F.
  { intros k H. apply negb_false_iff in H. cbn [exact le of_u64] in H. destruct (ca_length0 given k) as [q|]; [|discriminate].
    exists q. split; [reflexivity|]. apply le_iff in H. exact H. }
  destruct (negb (le exact (ca_length0 given DX) (of_u64 exact 0))) eqn:EX;
  [|cbn [andb]; split; [reflexivity|]; exists DX; apply F, EX].
  destruct (negb (le exact (ca_length0 given DY) (of_u64 exact 0))) eqn:EY;
  [|cbn [andb]; split; [reflexivity|]; exists DY; apply F, EY].
  destruct (negb (le exact (ca_length0 given DZ) (of_u64 exact 0))) eqn:EZ;
  [|cbn [andb]; split; [reflexivity|]; exists DZ; apply F, EZ].
  cbn [andb]. split; [reflexivity|].
  assert (forall k, negb (le exact (ca_length0 given k) (of_u64 exact 0)) = true) as T by (intros []; assumption).
  intros k q E. specialize (T k). rewrite E in T. apply negb_true_iff in T. apply not_true_iff_false in T.
  cbn [exact le of_u64] in T. rewrite le_iff in T. apply Qnot_le_lt in T. exact T.
Qed.
Print Assumptions c42_set_refuses_nonpositive_lengths.

(** ** C43 *)
(** get_cell gives the cell of the level that the coordinate is in, after moving the coordinate by
    whole grid lengths in periodic dimensions, except for coordinates at the upper end of the grid
    (moved by whole grid lengths), for which the error cell is returned. *)
Theorem c43_cartesian_get_cell m t g :
  wf m -> finite g ->
  let start := ca_start g in let end_ := ca_end exact m g in
  let lo := ca_min exact m g in let hi := ca_max exact m g in
  (forall l x, let c := ca_cell exact m t g l x in c <> error_cell ->
     valid m c /\ get_refinement_level m c = l /\ hits t start end_ (lo c) x (hi c)) /\
  (forall c x, valid m c -> hits t start end_ (lo c) x (hi c) -> (forall k, ~ at_upper_end t start end_ x k) ->
     ca_cell exact m t g (get_refinement_level m c) x = c) /\
  (forall l x k, at_upper_end t start end_ x k -> ca_cell exact m t g l x = error_cell).
Proof.
  intros Hwf Hg. cbv zeta.
  pose proof (ca_inc m g Hwf Hg) as Hinc. pose proof (ca_min_eq m g Hwf Hg) as Hlo. pose proof (ca_max_eq m g Hwf Hg) as Hhi.
  pose proof (ca_start_eq m g Hg) as Hs. pose proof (ca_end_eq m g Hwf Hg) as He.
  pose proof (ca_real_eq m t g Hwf Hg) as Hr. pose proof (ca_index_eq m t g Hwf Hg) as Hi.
  pose proof (ca_cell_eq m t g) as Hcl.
  split; [|split].
  - intros l x Hc. destruct (cell_found m t Hwf _ Hinc _ _ Hlo Hhi _ _ _ _ Hs He _ _ _ Hr Hi Hcl l x _ eq_refl Hc) as (V & L & H & _). auto.
  - intros c x. exact (hit_found m t Hwf _ Hinc _ _ Hlo Hhi _ _ _ _ Hs He _ _ _ Hr Hi Hcl c x).
  - intros l x k. exact (upper_end_error m t Hwf _ Hinc _ _ Hlo Hhi _ _ _ _ Hs He _ _ _ Hr Hi Hcl l x k).
Qed.
Print Assumptions c43_cartesian_get_cell.

Theorem c43_no_geometry_get_cell m t :
  wf m ->
  let start := no_start exact in let end_ := no_end exact m in
  let lo := no_min exact m in let hi := no_max exact m in
  (forall l x, let c := no_cell exact m t l x in c <> error_cell ->
     valid m c /\ get_refinement_level m c = l /\ hits t start end_ (lo c) x (hi c)) /\
  (forall c x, valid m c -> hits t start end_ (lo c) x (hi c) -> (forall k, ~ at_upper_end t start end_ x k) ->
     no_cell exact m t (get_refinement_level m c) x = c) /\
  (forall l x k, at_upper_end t start end_ x k -> no_cell exact m t l x = error_cell).
Proof.
  intros Hwf. cbv zeta.
  pose proof (no_inc m Hwf) as Hinc. pose proof (no_min_eq m Hwf) as Hlo. pose proof (no_max_eq m Hwf) as Hhi.
  pose proof (no_start_eq m) as Hs. pose proof (no_end_eq m Hwf) as He.
  pose proof (no_real_eq m t Hwf) as Hr. pose proof (no_index_eq m t Hwf) as Hi.
  assert (forall l x, no_cell exact m t l x = if level_outside m l then error_cell else get_cell_from_indices m (no_indices exact m t x) l) as Hcl by reflexivity.
  split; [|split].
  - intros l x Hc. destruct (cell_found m t Hwf _ Hinc _ _ Hlo Hhi (no_start exact) (no_end exact m) (fun _ => 0%Q) (fun k => z2q (mlen m k)) Hs He _ _ _ Hr Hi Hcl l x _ eq_refl Hc) as (V & L & H & _). auto.
  - intros c x. exact (hit_found m t Hwf _ Hinc _ _ Hlo Hhi (no_start exact) (no_end exact m) (fun _ => 0%Q) (fun k => z2q (mlen m k)) Hs He _ _ _ Hr Hi Hcl c x).
  - intros l x k. exact (upper_end_error m t Hwf _ Hinc _ _ Hlo Hhi (no_start exact) (no_end exact m) (fun _ => 0%Q) (fun k => z2q (mlen m k)) Hs He _ _ _ Hr Hi Hcl l x k).
Qed.
Print Assumptions c43_no_geometry_get_cell.

(** the center of a cell is in the cell *)
Theorem c43_cartesian_center_is_in_the_cell m t g c :
  wf m -> finite g -> valid m c -> ca_cell exact m t g (get_refinement_level m c) (ca_center exact m g c) = c.
Proof.
  intros Hwf Hg Hc. destruct (c43_cartesian_get_cell m t g Hwf Hg) as (_ & F & _). cbv zeta in F.
  assert (within (ca_min exact m g c) (ca_center exact m g c) (ca_max exact m g c)) as Hin.
  { intros k. destruct (c42_cartesian_center_and_length m g c k Hwf Hg Hc) as (A & B & _). cbv zeta in A, B.
    split; [|assumption]. apply lt_some in A as E. destruct E as (u & v & Eu & Ev). rewrite Eu, Ev in *.
    apply lt_iff in A. apply le_iff. lra. }
  pose proof (c42_cartesian_boxes_tile_the_domain m g (ca_center exact m g c) Hwf Hg) as (_ & _ & G & _).
  specialize (G c Hc Hin). apply F; [assumption| |].
  - apply inside_hits; [| |assumption]; intros k.
    + destruct (ca_start_eq m g Hg k) as [E _]. rewrite E. discriminate.
    + destruct (ca_end_eq m g Hwf Hg k) as [E _]. rewrite E. discriminate.
  - intros k. apply inside_not_upper; [|apply G].
    destruct (ca_start_eq m g Hg k) as [E Q], (ca_end_eq m g Hwf Hg k) as [E' Q']. rewrite E, E'. apply lt_iff.
    pose proof (glen_pos m Hwf k). pose proof (ca_inc m g Hwf Hg k 0 (glen m k) ltac:(lia) ltac:(lia) ltac:(lia)). lra.
Qed.
Print Assumptions c43_cartesian_center_is_in_the_cell.
Theorem c43_no_geometry_center_is_in_the_cell m t c :
  wf m -> valid m c -> no_cell exact m t (get_refinement_level m c) (no_center exact m c) = c.
Proof.
  intros Hwf Hc. destruct (c43_no_geometry_get_cell m t Hwf) as (_ & F & _). cbv zeta in F.
  assert (within (no_min exact m c) (no_center exact m c) (no_max exact m c)) as Hin.
  { intros k. destruct (c42_no_geometry_center_and_length m c k Hwf Hc) as (A & B & _). cbv zeta in A, B.
    split; [|assumption]. apply lt_some in A as E. destruct E as (u & v & Eu & Ev). rewrite Eu, Ev in *.
    apply lt_iff in A. apply le_iff. lra. }
  pose proof (c42_no_geometry_boxes_tile_the_domain m (no_center exact m c) Hwf) as (_ & _ & G & _).
  specialize (G c Hc Hin). apply F; [assumption| |].
  - apply inside_hits; [| |assumption]; intros k; discriminate.
  - intros k. apply inside_not_upper; [|apply G]. apply lt_iff. apply (no_len_pos m Hwf k).
Qed.
Print Assumptions c43_no_geometry_center_is_in_the_cell.

(** ** C44 *)
Theorem c44_cartesian_real_coordinate m t g x k :
  wf m -> finite g ->
  let start := ca_start g k in let end_ := ca_end exact m g k in let y := ca_real_coordinate exact m t g x k in
  (exact_le start (x k) = true -> exact_le (x k) end_ = true -> y = x k) /\
  (y = None <-> x k = None \/ per t k = false /\ ~ (exact_le start (x k) = true /\ exact_le (x k) end_ = true)) /\
  (y <> None -> exact_le start y = true /\ exact_le y end_ = true /\
     exists n, (n <> 0 -> per t k = true) /\ same y (shifted start end_ (x k) n)).
Proof.
  intros Hwf Hg. cbv zeta. pose proof (ca_real_eq m t g Hwf Hg x k) as R.
  destruct (ca_start_eq m g Hg k) as [E Q], (ca_end_eq m g Hwf Hg k) as [E' Q']. rewrite E, E'.
  apply wraps_facts; [|assumption].
  pose proof (glen_pos m Hwf k). pose proof (ca_inc m g Hwf Hg k 0 (glen m k) ltac:(lia) ltac:(lia) ltac:(lia)). lra.
Qed.
Print Assumptions c44_cartesian_real_coordinate.
Theorem c44_no_geometry_real_coordinate m t x k :
  wf m ->
  let start := no_start exact k in let end_ := no_end exact m k in let y := no_real_coordinate exact m t x k in
  (exact_le start (x k) = true -> exact_le (x k) end_ = true -> y = x k) /\
  (y = None <-> x k = None \/ per t k = false /\ ~ (exact_le start (x k) = true /\ exact_le (x k) end_ = true)) /\
  (y <> None -> exact_le start y = true /\ exact_le y end_ = true /\
     exists n, (n <> 0 -> per t k = true) /\ same y (shifted start end_ (x k) n)).
Proof.
  intros Hwf. cbv zeta. apply (wraps_facts 0 (z2q (mlen m k))); [apply no_len_pos, Hwf|apply no_real_eq, Hwf].
Qed.
Print Assumptions c44_no_geometry_real_coordinate.

(** ** C57: get_center of a level and index *)
Theorem c57_center_of_level_and_index m g c k :
  wf m -> finite g -> valid m c ->
  same (ca_center_at exact m g (get_refinement_level m c) (get_indices m c) k) (ca_center exact m g c k) /\
  same (no_center_at exact m (get_refinement_level m c) (get_indices m c) k) (no_center exact m c k).
Proof.
  intros Hwf Hg Hc. pose proof (cell_level m Hwf c Hc) as Hl. unfold lvl_of in Hl.
  assert (level_outside m (get_refinement_level m c) = false) as El by (unfold level_outside; lia).
  pose proof (cell_in_grid m Hwf c Hc) as G. rewrite in_grid_k in G. unfold idx_of in G.
  assert (index_outside m (get_indices m c) = false) as Ei.
  { unfold index_outside. rewrite !glen64_eq by assumption. pose proof (G DX). pose proof (G DY). pose proof (G DZ). lia. }
  destruct (max_shift m Hwf) as [S HM]. pose proof (p2_pos (m_max m) HM) as P2.
  destruct (level_shift m Hwf c Hc) as [S' Hl']. pose proof (p2_pos (lvl_of m c) Hl') as P2'. unfold lvl_of in S', P2'.
  split.
  - destruct (ca_center_eq m g Hwf Hg c k Hc) as (q & l & Eq & El' & Qq & _).
    destruct (ca_length_eq m g Hwf Hg c k Hc) as (l' & El2 & _ & Ql). rewrite El' in El2. injection El2 as <-.
    rewrite Eq. unfold ca_center_at. rewrite El, Ei, S, S'. destruct (ca_values g Hg k) as (Es & Eh & P). rewrite Es, Eh.
    cbn [exact add mul div of_u64]. fold (z2q (2 ^ m_max m)). fold (z2q (2 ^ get_refinement_level m c)).
    rewrite !div_some by assumption. rewrite div_some by reflexivity. cbn [lift2]. rewrite same_iff, Qq, Ql. unfold ca_edge.
    rewrite Es, Eh. cbn [val]. change (inject_Z 1) with 1%Q. change (inject_Z 2) with 2%Q. fold (z2q (get (get_indices m c) k)).
    unfold idx_of, lvl_of. field. split; lra.
  - destruct (no_center_eq m Hwf c k Hc) as (q & l & Eq & El' & Qq & _).
    destruct (no_length_eq m Hwf c k Hc) as (l' & El2 & _ & Ql). rewrite El' in El2. injection El2 as <-.
    rewrite Eq. unfold no_center_at. rewrite El, Ei, S, S'.
    cbn [exact add mul div of_u64]. fold (z2q (2 ^ m_max m)). fold (z2q (2 ^ get_refinement_level m c)).
    rewrite !div_some by assumption. rewrite div_some by reflexivity. cbn [lift2]. rewrite same_iff, Qq, Ql. unfold no_edge.
    change (inject_Z 1) with 1%Q. change (inject_Z 2) with 2%Q. fold (z2q (get (get_indices m c) k)).
    unfold idx_of, lvl_of. field. split; lra.
Qed.
Print Assumptions c57_center_of_level_and_index.
(** levels and indices outside of the grid give NaN, except for indices that are equal to the
    length of the grid in some dimension *)
Theorem c57_outside_is_nan_partial (A : arith) m g l i k :
  wf m -> ~ (0 <= l <= m_max m) \/ (exists k', glen m k' < get i k') ->
  ca_center_at A m g l i k = nan A /\ no_center_at A m l i k = nan A.
Proof.
  intros Hwf H. unfold ca_center_at, no_center_at. destruct (level_outside m l) eqn:El; [auto|].
  destruct H as [H|(k' & H)]; [unfold level_outside in El; lia|].
  assert (index_outside m i = true) as ->; [|auto].
  unfold index_outside. rewrite !glen64_eq by assumption. destruct k'; lia.
Qed.
Print Assumptions c57_outside_is_nan_partial.
