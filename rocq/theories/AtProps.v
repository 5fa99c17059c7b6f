(** C63: cells and requests given by coordinates, in exact arithmetic. *)
From Coq Require Import QArith Lqa.
From Verif Require Import U64 MapModel MapSpec MapProofs MapFamily MapProps HoodModel MeshModel
  MeshSpec MeshBase HoodProps MeshWalk MeshFind MeshKids MeshItem MeshCheck MeshTo MeshNear MeshLookup
  Sets RefineModel RefineGeo RefineInv RefineSpread RefineMerge RefineFold RefineExec RefineStop
  BalanceModel RefineReqs Create Balance History HistProps GeoModel GeoBase GeoProps GeoStretch LoadCells HistExamples GeoExamples AtModel.
Open Scope Z_scope.

Section At.
Context {D : Type} (d0 : D) (g : grid) (Hg : grid_ok g).
Notation m := (g_map g).
Notation t := (g_topo g).
Notation reachable := (reachable d0 g).
Notation rank r := (In r (ranks g)).

Lemma tiling_on st r : reachable st -> rank r -> tiling m (exists_on st r) /\ forall c, exb (p_store (st r)) c = exists_on st r c.
Proof.
  intros R Ir. destruct (reachable_inv d0 g Hg st R) as (own & Hi). pose proof Hi as (((Hm & Hw) & Hr) & _). destruct (Hr r Ir) as (Hs & _).
  assert (forall c, exb (p_store (st r)) c = exists_on st r c) as E by (intros c; rewrite (viewx g own st r c Hi Ir); apply (exb_exo own r _ c Hs)). split; [|exact E].
  pose proof (mesh_ext g _ _ (fun c => eq_sym (viewx g own st r c Hi Ir)) Hm) as (_ & _ & T & _). exact T.
Qed.

Lemma existing_spec st r i : reachable st -> rank r -> (forall k, 0 <= get i k) ->
  (in_grid (dims_of m) i /\ exists_on st r (existing_at g (st r) i) = true /\ covers m (existing_at g (st r) i) i) \/
  (~ in_grid (dims_of m) i /\ existing_at g (st r) i = error_cell).
Proof.
  intros R Ir P. destruct (tiling_on st r R Ir) as (T & Ex). pose proof Hg as (Hwf & _).
  assert (tiling m (exb (p_store (st r)))) as T' by (destruct T as (V & T); split; [intros c; rewrite Ex; apply V|]; intros j Hj; destruct (T j Hj) as (c & (E1 & E2) & U); exists c; (split; [rewrite Ex; auto|]); intros y (Y1 & Y2); apply U; rewrite <- Ex; auto).
  destruct (c48_get_existing_cell m _ i Hwf T') as (A & B).
  assert (forall k, glen m k < W) as GW by (intros k; rewrite <- (glen64_eq m Hwf); apply u64_range).
  unfold existing_at. destruct (in_grid_dec m i) as [G|G].
  - left. split; [assumption|]. pose proof (proj1 (in_grid_k m i) G DX) as GX. pose proof (proj1 (in_grid_k m i) G DY) as GY. pose proof (proj1 (in_grid_k m i) G DZ) as GZ. cbn [get] in GX, GY, GZ.
    pose proof (GW DX). pose proof (GW DY). pose proof (GW DZ). unfold error_index. replace (ix i =? W - 1) with false by lia. replace (iy i =? W - 1) with false by lia. replace (iz i =? W - 1) with false by lia. cbn [orb].
    destruct (A G) as (A1 & A2 & _). rewrite <- Ex. auto.
  - right. split; [assumption|]. destruct (_ || _); [reflexivity|]. apply B; [apply (P DX)|apply (P DY)|apply (P DZ)|assumption].
Qed.

(** any geometry in which get_cell of a level finds the cell that the coordinate hits *)
Section Geometry.
Context (start end_ : rvec) (lo hi : Z -> rvec) (indices : rvec -> idx) (cell : Z -> rvec -> Z).
Context (Hcell : forall l x, cell l x = if level_outside m l then error_cell else get_cell_from_indices m (indices x) l) (Hpos : forall x k, 0 <= get (indices x) k).
Context (P1 : forall l x, cell l x <> error_cell -> valid m (cell l x) /\ get_refinement_level m (cell l x) = l /\ hits t start end_ (lo (cell l x)) x (hi (cell l x))).
Context (P2 : forall c x, valid m c -> hits t start end_ (lo c) x (hi c) -> (forall k, ~ at_upper_end t start end_ x k) -> cell (get_refinement_level m c) x = c).
Context (P3 : forall l x k, at_upper_end t start end_ x k -> cell l x = error_cell).

Lemma existing_cell_at st r x : reachable st -> rank r -> let c := existing_at g (st r) (indices x) in
  (c <> error_cell -> exists_on st r c = true /\ hits t start end_ (lo c) x (hi c) /\ forall k, ~ at_upper_end t start end_ x k) /\
  (forall a, exists_on st r a = true -> hits t start end_ (lo a) x (hi a) -> (forall k, ~ at_upper_end t start end_ x k) -> c = a).
Proof.
  intros R Ir c. destruct (tiling_on st r R Ir) as (T & _). pose proof Hg as (Hwf & _).
  assert (forall a, exists_on st r a = true -> covers m a (indices x) -> cell (lvl_of m a) x = a) as K.
  { intros a Ea Ca. pose proof (leaf_valid m _ T a Ea) as V. pose proof (cell_level m Hwf a V). rewrite Hcell. unfold level_outside. replace ((lvl_of m a <? 0) || (m_max m <? lvl_of m a)) with false by lia. apply (cell_at_covering m Hwf a _ V Ca). }
  destruct (existing_spec st r (indices x) R Ir (Hpos x)) as [(G & E & C)|(G & E)]; fold c in E.
  - fold c in C. specialize (K c E C). pose proof (leaf_valid m _ T c E) as V. split.
    + intros N. split; [assumption|]. rewrite <- K in N. destruct (P1 _ _ N) as (_ & _ & Q). rewrite K in Q. split; [assumption|]. intros k U. apply N. apply (P3 _ _ k U).
    + intros a Ea Ha U. pose proof (leaf_valid m _ T a Ea) as Va. pose proof (P2 a x Va Ha U) as Q. rewrite Hcell in Q. unfold level_outside in Q. pose proof (cell_level m Hwf a Va) as La. fold (lvl_of m a) in Q. replace ((lvl_of m a <? 0) || (m_max m <? lvl_of m a)) with false in Q by lia.
      destruct (cell_at m Hwf (indices x) (lvl_of m a) G La) as (_ & _ & Ca & _). rewrite Q in Ca. apply (leaf_unique m Hwf _ T c a (indices x)); assumption.
  - split; [intros N; contradiction|]. intros a Ea Ha U. pose proof (leaf_valid m _ T a Ea) as Va. pose proof (P2 a x Va Ha U) as Q. rewrite Hcell in Q. destruct (level_outside m _); [exfalso; unfold valid in Va; unfold error_cell in Q; lia|].
    rewrite (gcfi_invalid m Hwf) in Q; [unfold valid in Va; unfold error_cell in Q; lia|apply (Hpos x DX)|apply (Hpos x DY)|apply (Hpos x DZ)|tauto].
Qed.
Lemma requested_at st r x (call : proc D -> Z -> outcome (bool * reqs)) : reachable st -> rank r ->
  (forall c, exists_on st r c = true -> hits t start end_ (lo c) x (hi c) -> (forall k, ~ at_upper_end t start end_ x k) ->
     request_at g call (st r) (indices x) = call (st r) c) /\
  ((forall c, exists_on st r c = true -> ~ hits t start end_ (lo c) x (hi c)) \/ (exists k, at_upper_end t start end_ x k) ->
     request_at g call (st r) (indices x) = Done (false, p_req (st r))).
Proof.
  intros R Ir. destruct (tiling_on st r R Ir) as (T & _). destruct (existing_cell_at st r x R Ir) as (A & B). unfold request_at. split.
  - intros c E H U. rewrite (B c E H U). pose proof (leaf_valid m _ T c E) as V. unfold valid in V. unfold error_cell. replace (c =? 0) with false by lia. reflexivity.
  - intros N. destruct (Z.eqb_spec (existing_at g (st r) (indices x)) error_cell) as [|E]; [reflexivity|]. exfalso. destruct (A E) as (A1 & A2 & A3). destruct N as [N|(k & N)]; [apply (N _ A1 A2)|apply (A3 k N)].
Qed.
End Geometry.
End At.

Section Props.
Context {D : Type} (d0 : D) (g : grid) (Hg : grid_ok g).
Notation m := (g_map g).
Notation t := (g_topo g).
Notation reachable := (reachable d0 g).
Notation rank r := (In r (ranks g)).

Lemma ca_nonneg ca x k : finite ca -> 0 <= get (ca_indices exact m t ca x) k.
Proof.
  intros Fi. pose proof Hg as (Hwf & _). apply (index_nonneg m t Hwf _ (ca_inc m ca Hwf Fi) _ _ _ _ (ca_start_eq m ca Fi) (ca_end_eq m ca Hwf Fi) _ _ (ca_real_eq m t ca Hwf Fi) (ca_index_eq m t ca Hwf Fi)).
Qed.

(** the cell found exists and contains the coordinate, and whenever an existing cell contains the
    coordinate it is found; coordinates at the upper end of the grid are not found (C43) *)
Theorem c63_cartesian_existing_cell ca st r x : finite ca -> reachable st -> rank r ->
  let start := ca_start ca in let end_ := ca_end exact m ca in let lo := ca_min exact m ca in let hi := ca_max exact m ca in
  let c := existing_at g (st r) (ca_indices exact m t ca x) in
  (c <> error_cell -> exists_on st r c = true /\ hits t start end_ (lo c) x (hi c) /\ forall k, ~ at_upper_end t start end_ x k) /\
  (forall a, exists_on st r a = true -> hits t start end_ (lo a) x (hi a) -> (forall k, ~ at_upper_end t start end_ x k) -> c = a).
Proof.
  intros Fi R Ir. cbv zeta. destruct (c43_cartesian_get_cell m t ca (proj1 Hg) Fi) as (P1 & P2 & P3).
  exact (existing_cell_at d0 g Hg _ _ _ _ _ _ (ca_cell_eq m t ca) (fun x k => ca_nonneg ca x k Fi) P1 P2 P3 st r x R Ir).
Qed.
Theorem c63_cartesian_requests ca st r x : finite ca -> reachable st -> rank r ->
  let start := ca_start ca in let end_ := ca_end exact m ca in let lo := ca_min exact m ca in let hi := ca_max exact m ca in
  let i := ca_indices exact m t ca x in
  (forall c, exists_on st r c = true -> hits t start end_ (lo c) x (hi c) -> (forall k, ~ at_upper_end t start end_ x k) ->
     refine_completely_at g (st r) i = refine_completely g (st r) c /\ unrefine_completely_at g (st r) i = unrefine_completely g (st r) c /\
     dont_unrefine_at g (st r) i = dont_unrefine g (st r) c) /\
  ((forall c, exists_on st r c = true -> ~ hits t start end_ (lo c) x (hi c)) \/ (exists k, at_upper_end t start end_ x k) ->
     refine_completely_at g (st r) i = Done (false, p_req (st r)) /\ unrefine_completely_at g (st r) i = Done (false, p_req (st r)) /\
     dont_unrefine_at g (st r) i = Done (false, p_req (st r))).
Proof.
  intros Fi R Ir. cbv zeta. destruct (c43_cartesian_get_cell m t ca (proj1 Hg) Fi) as (P1 & P2 & P3).
  pose proof (fun call => requested_at d0 g Hg _ _ _ _ _ _ (ca_cell_eq m t ca) (fun x k => ca_nonneg ca x k Fi) P1 P2 P3 st r x call R Ir) as A. split.
  - intros c E H U. split; [|split]; apply A; assumption.
  - intros N. split; [|split]; apply A; assumption.
Qed.

Lemma no_nonneg x k : 0 <= get (no_indices exact m t x) k.
Proof.
  pose proof Hg as (Hwf & _).
  apply (index_nonneg m t Hwf _ (no_inc m Hwf) (no_start exact) (no_end exact m) (fun _ => 0%Q) (fun k => z2q (mlen m k)) (no_start_eq m) (no_end_eq m Hwf) _ _ (no_real_eq m t Hwf) (no_index_eq m t Hwf)).
Qed.
Theorem c63_no_geometry_existing_cell st r x : reachable st -> rank r ->
  let start := no_start exact in let end_ := no_end exact m in let lo := no_min exact m in let hi := no_max exact m in
  let c := existing_at g (st r) (no_indices exact m t x) in
  (c <> error_cell -> exists_on st r c = true /\ hits t start end_ (lo c) x (hi c) /\ forall k, ~ at_upper_end t start end_ x k) /\
  (forall a, exists_on st r a = true -> hits t start end_ (lo a) x (hi a) -> (forall k, ~ at_upper_end t start end_ x k) -> c = a).
Proof.
  intros R Ir. cbv zeta. destruct (c43_no_geometry_get_cell m t (proj1 Hg)) as (P1 & P2 & P3).
  exact (existing_cell_at d0 g Hg _ _ _ _ _ (no_cell exact m t) (fun l x => eq_refl) no_nonneg P1 P2 P3 st r x R Ir).
Qed.
Theorem c63_no_geometry_requests st r x : reachable st -> rank r ->
  let start := no_start exact in let end_ := no_end exact m in let lo := no_min exact m in let hi := no_max exact m in
  let i := no_indices exact m t x in
  (forall c, exists_on st r c = true -> hits t start end_ (lo c) x (hi c) -> (forall k, ~ at_upper_end t start end_ x k) ->
     refine_completely_at g (st r) i = refine_completely g (st r) c /\ unrefine_completely_at g (st r) i = unrefine_completely g (st r) c /\
     dont_unrefine_at g (st r) i = dont_unrefine g (st r) c) /\
  ((forall c, exists_on st r c = true -> ~ hits t start end_ (lo c) x (hi c)) \/ (exists k, at_upper_end t start end_ x k) ->
     refine_completely_at g (st r) i = Done (false, p_req (st r)) /\ unrefine_completely_at g (st r) i = Done (false, p_req (st r)) /\
     dont_unrefine_at g (st r) i = Done (false, p_req (st r))).
Proof.
  intros R Ir. cbv zeta. destruct (c43_no_geometry_get_cell m t (proj1 Hg)) as (P1 & P2 & P3).
  pose proof (fun call => requested_at d0 g Hg _ _ _ _ _ (no_cell exact m t) (fun l x => eq_refl) no_nonneg P1 P2 P3 st r x call R Ir) as A. split.
  - intros c E H U. split; [|split]; apply A; assumption.
  - intros N. split; [|split]; apply A; assumption.
Qed.

(** indices of coordinates that are not at the start of the grid *)
Lemma st_located s fuel x : regular m s -> 2 ^ m_max m < Z.of_nat fuel -> (forall k, ~ GeoBase.same (x k) (value (st_start exact s k))) ->
  exists i, st_indices exact m s fuel x = Value i /\ forall k, 0 <= get i k /\
    ((exists v, x k = Some v /\ get i k < glen m k /\ (st_edge m s k (get i k) < v)%Q /\ (v <= st_edge m s k (get i k + 1))%Q) \/
     (get i k = error_index /\ forall v, x k = Some v -> ~ ((st_edge m s k 0 < v)%Q /\ (v <= st_edge m s k (glen m k))%Q))).
Proof.
  intros Hr Hf Hns. pose proof Hg as (Hwf & _).
  assert (forall k, exists j, st_index exact m s fuel (x k) k = Value j /\ 0 <= j /\
    ((exists v, x k = Some v /\ j < glen m k /\ (st_edge m s k j < v)%Q /\ (v <= st_edge m s k (j + 1))%Q) \/
     (j = error_index /\ forall v, x k = Some v -> ~ ((st_edge m s k 0 < v)%Q /\ (v <= st_edge m s k (glen m k))%Q)))) as F.
  { intros k. specialize (Hns k). destruct (st_start_eq m s Hwf Hr k) as [Es Qs], (st_end_eq m s Hwf Hr k) as [Ee Qe]. rewrite Es in Hns.
    assert (exact_le (Some (X s k 0)) (x k) = true /\ exact_le (x k) (Some (X s k (mlen m k))) = true \/ ~ (exact_le (Some (X s k 0)) (x k) = true /\ exact_le (x k) (Some (X s k (mlen m k))) = true)) as [[E1 E2]|N].
    { destruct (exact_le (Some (X s k 0)) (x k)), (exact_le (x k) (Some (X s k (mlen m k)))); intuition discriminate. }
    - destruct (x k) as [v|]; [|discriminate]. apply le_iff in E1, E2. rewrite same_iff in Hns.
      assert (X s k 0 < v)%Q as L by (apply Qle_lteq in E1; destruct E1 as [E1|E1]; [assumption|exfalso; apply Hns; symmetry; assumption]).
      destruct (st_index_found m s Hwf Hr fuel k v Hf L E2) as (j & Ej & H1 & H2 & H3). exists j. split; [assumption|]. split; [lia|]. left. exists v. split; [reflexivity|]. split; [lia|]. auto.
    - exists error_index. split; [apply st_index_outside; assumption|]. split; [unfold error_index; rewrite W_val; lia|]. right. split; [reflexivity|]. intros v Ev (L & U). apply N. rewrite Ev, !le_iff. rewrite <- Qs in L. rewrite <- Qe in U. split; [apply Qlt_le_weak|]; assumption. }
  destruct (choose_dims _ F) as (i & Hi). exists i. split.
  - unfold st_indices. rewrite (proj1 (Hi DX)), (proj1 (Hi DY)), (proj1 (Hi DZ)). cbn [rbind]. destruct i; reflexivity.
  - intros k. apply (Hi k).
Qed.

(** Stretched geometries: boxes include their upper faces, not their lower ones.  What is missing for the
    full claim are coordinates at the start of the grid in some dimension, see c45_start_coordinate_refuted. *)
Theorem c63_stretched_existing_cell_partial s fuel st r x : regular m s -> 2 ^ m_max m < Z.of_nat fuel -> reachable st -> rank r ->
  let start k := value (st_start exact s k) in
  let lo c k := value (st_min exact m s c k) in let hi c k := value (st_max exact m s c k) in
  (forall k, ~ GeoBase.same (x k) (start k)) ->
  exists i, st_indices exact m s fuel x = Value i /\ let c := existing_at g (st r) i in
    (c <> error_cell -> exists_on st r c = true /\ within_upper (lo c) x (hi c)) /\
    (forall a, exists_on st r a = true -> within_upper (lo a) x (hi a) -> c = a).
Proof.
  intros Hr Hf R Ir. cbv zeta. intros Hns. pose proof Hg as (Hwf & _). destruct (tiling_on d0 g Hg st r R Ir) as (T & _).
  destruct (st_located s fuel x Hr Hf Hns) as (i & Ei & Hi). exists i. split; [assumption|].
  pose proof (st_inc m s Hwf Hr) as Hinc. pose proof (st_min_eq m s Hwf Hr) as Hlo. pose proof (st_max_eq m s Hwf Hr) as Hhi.
  assert (forall a, exists_on st r a = true -> within_upper (fun k => value (st_min exact m s a k)) x (fun k => value (st_max exact m s a k)) -> covers m a i) as Cov.
  { intros a Ea Wa. pose proof (leaf_valid m _ T a Ea) as V. apply covers_k. intros k. destruct (Wa k) as (L & U). destruct (Hlo a k V) as (p & Ep & Qp), (Hhi a k V) as (q & Eq & Qq). rewrite Ep in L. rewrite Eq in U.
    pose proof (cell_lines m Hwf a k V) as (B0 & B1 & B2). destruct (Hi k) as (P & [(v & Ev & Hj & L1 & U1)|(E & N)]).
    - rewrite Ev, lt_iff in L. rewrite Ev, le_iff in U. rewrite Qp in L. rewrite Qq in U.
      assert (st_edge m s k (get (idx_of m a) k) < st_edge m s k (get i k + 1))%Q as A1 by lra. apply (edge_lt m (st_edge m s) Hinc) in A1; [|lia|lia].
      assert (st_edge m s k (get i k) < st_edge m s k (get (idx_of m a) k + len_of m a))%Q as A2 by lra. apply (edge_lt m (st_edge m s) Hinc) in A2; lia.
    - exfalso. destruct (x k) as [v|]; [|discriminate L]. rewrite lt_iff in L. rewrite le_iff in U. rewrite Qp in L. rewrite Qq in U. apply (N v eq_refl).
      assert (st_edge m s k 0 <= st_edge m s k (get (idx_of m a) k))%Q by (apply (edge_le m (st_edge m s) Hinc); lia). assert (st_edge m s k (get (idx_of m a) k + len_of m a) <= st_edge m s k (glen m k))%Q by (apply (edge_le m (st_edge m s) Hinc); lia). lra. }
  destruct (existing_spec d0 g Hg st r i R Ir (fun k => proj1 (Hi k))) as [(G & E & C)|(G & E)].
  - split.
    + intros _. split; [assumption|]. set (c := existing_at g (st r) i) in *. pose proof (leaf_valid m _ T c E) as V. intros k. rewrite covers_k in C. specialize (C k). pose proof (cell_lines m Hwf c k V) as (B0 & B1 & B2).
      destruct (Hlo c k V) as (p & Ep & Qp), (Hhi c k V) as (q & Eq & Qq). rewrite Ep, Eq. destruct (Hi k) as (P & [(v & Ev & Hj & L1 & U1)|(Er & N)]).
      * rewrite Ev, lt_iff, le_iff, Qp, Qq. assert (st_edge m s k (get (idx_of m c) k) <= st_edge m s k (get i k))%Q by (apply (edge_le m (st_edge m s) Hinc); lia). assert (st_edge m s k (get i k + 1) <= st_edge m s k (get (idx_of m c) k + len_of m c))%Q by (apply (edge_le m (st_edge m s) Hinc); lia). split; lra.
      * exfalso. pose proof (proj1 (in_grid_k m i) G k). pose proof (glen_lt_W m Hwf k). unfold error_index in Er. lia.
    + intros a Ea Wa. apply (leaf_unique m Hwf _ T _ a i E Ea C (Cov a Ea Wa)).
  - split; [intros N; contradiction|]. intros a Ea Wa. exfalso. apply G. apply (covers_in_grid m Hwf a i (leaf_valid m _ T a Ea) (Cov a Ea Wa)).
Qed.
End Props.
Print Assumptions c63_cartesian_requests.
Print Assumptions c63_stretched_existing_cell_partial.

(** ** Cell 2 of a 2 x 1 x 1 grid refined: the coordinate (13/8, 1/4, 3/4) is in one of its children *)
Definition unit_ca : cartesian exact := Cartesian (A := exact) (three (Some 0) (Some 0) (Some 0))%Q (three (Some 1) (Some 1) (Some 1))%Q.
Lemma unit_finite : finite unit_ca.
Proof. intros []; eexists _, _; (split; [reflexivity|split; reflexivity]). Qed.
Definition some_x : dim -> option Q := at3 (13 # 8) (1 # 4) (3 # 4).
Definition far_x : dim -> option Q := at3 ((13 # 8) + 40) (1 # 4) (3 # 4).
Definition refined_twice : list (step (D := Z)) := [Do (Refine 1 2); Do Stop].
Definition child_at : Z := nth 5 (get_all_children (g_map g2) 2) 0.
Example c63_example : holds (go 0 g2 refined_twice) (fun st =>
  (existing_at g2 (st 0) (ca_indices exact (g_map g2) (g_topo g2) unit_ca some_x) =? child_at) &&
  (existing_at g2 (st 0) (ca_indices exact (g_map g2) (g_topo g2) unit_ca far_x) =? child_at) && exists_on st 0 child_at &&
  holds (refine_completely_at g2 (st 1) (ca_indices exact (g_map g2) (g_topo g2) unit_ca some_x)) (fun a => fst a && HistExamples.same (r_ref (snd a)) [child_at]) &&
  holds (refine_completely_at g2 (st 0) (ca_indices exact (g_map g2) (g_topo g2) unit_ca some_x)) (fun a => negb (fst a)) &&
  holds (refine_completely_at g2 (st 1) (ca_indices exact (g_map g2) (g_topo g2) unit_ca (at3 1 2 0))) (fun a => negb (fst a))) = true.
Proof. vm_compute. reflexivity. Qed.

(** the end of a periodic grid is in the closed box of its last cell but nothing exists there *)
Theorem c63_end_of_grid_refuted : exists st c, reachable 0 g2 st /\ exists_on st 0 c = true /\ per (g_topo g2) DX = true /\
  let x := at3 2 (1 # 4) (1 # 4) in within_closed (ca_min exact (g_map g2) unit_ca c) x (ca_max exact (g_map g2) unit_ca c) /\
  existing_at g2 (st 0) (ca_indices exact (g_map g2) (g_topo g2) unit_ca x) = error_cell.
Proof.
  assert (holds (go 0 g2 []) (fun st => exists_on st 0 2 && (existing_at g2 (st 0) (ca_indices exact (g_map g2) (g_topo g2) unit_ca (at3 2 (1 # 4) (1 # 4))) =? error_cell)) = true) as Q by (vm_compute; reflexivity).
  apply holds_ex in Q. destruct Q as (st & E & Q). apply andb_true_iff in Q. destruct Q as (Q1 & Q2). exists st, 2. split; [apply (go_reachable 0 g2 []); assumption|]. split; [assumption|]. split; [reflexivity|].
  split; [intros []; split; vm_compute; reflexivity|]. apply Z.eqb_eq. assumption.
Qed.
(** in stretched geometries the lookup of coordinates at the start reads outside of the coordinates *)
Theorem c63_stretched_start_refuted m s fuel x : wf m -> regular m s -> GeoBase.same (x DX) (value (st_start exact s DX)) ->
  st_indices exact m s fuel x = Outside.
Proof.
  intros Hwf Hr S. unfold st_indices. destruct (st_start_eq m s Hwf Hr DX) as [Es _]. rewrite Es in S. destruct (x DX) as [v|]; [|destruct S; discriminate]. apply same_iff in S. rewrite (st_index_start m s Hwf Hr fuel DX v S). reflexivity.
Qed.
