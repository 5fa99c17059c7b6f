(** C67: requests made in programs compiled with DEBUG. *)
From Verif Require Import U64 MapModel MapSpec MapProofs MapFamily MapProps HoodModel MeshModel
  MeshSpec MeshBase HoodProps MeshWalk MeshFind MeshKids MeshItem MeshCheck MeshTo MeshNear
  Sets RefineModel RefineGeo RefineInv RefineSpread RefineMerge RefineFold RefineExec RefineStop RefineNear
  BalanceModel RefineReqs Create Balance History HistProps BalProps CommModel CommInv CommProps CommViews LoadCells HistExamples CommMore CommExamples CopyProps DebugModel DebugProps DebugCommit DebugCommitProps.
Open Scope Z_scope.

(** ** Model *)
Section Model.
Context {D : Type} (g : grid).
Notation m := (g_map g).
Notation t := (g_topo g).
Notation level := (get_refinement_level m).

(** dccrg.hpp:2757-2812 with the checks 2777-2785; the child is the one of Mapping *)
Definition dont_unrefine_debug (p : proc D) (c : Z) : outcome (bool * reqs) :=
  if c =? error_cell then Done (false, p_req p) else
  if negb (exb (p_store p) c) then Done (false, p_req p) else
  if negb (has c (s_data (p_store p))) || exb (p_store p) (get_child m c) then Threw else
  dont_unrefine g p c.
(** dccrg.hpp:2821-2861 with the check 2842-2846 *)
Definition dont_refine_debug (p : proc D) (c : Z) : outcome (bool * reqs) :=
  if c =? error_cell then Done (false, p_req p) else
  if negb (exb (p_store p) c) then Done (false, p_req p) else
  if exb (p_store p) (get_child m c) then Threw else
  Done (dont_refine g p c).
(** dccrg.hpp:2511-2609 with the checks 2538-2547 *)
Definition refine_completely_debug (p : proc D) (c : Z) : outcome (bool * reqs) :=
  let q := p_req p in
  if c =? error_cell then Done (false, q) else
  if negb (exb (p_store p) c) then Done (false, q) else
  if negb (has c (s_data (p_store p))) then Done (false, q) else
  if (m_max m <? level c) || negb (c =? get_child_ex (exb (p_store p)) m c) then Threw else
  if level c =? m_max m then do r <- dont_unrefine_debug p c; Done (true, snd r) else
  refine_completely g p c.
(** dccrg.hpp:2637-2732 with the checks 2690-2702 *)
Definition unrefine_completely_debug (p : proc D) (c : Z) : outcome (bool * reqs) :=
  let q := p_req p in
  let ex := exb (p_store p) in
  if c =? error_cell then Done (false, q) else
  if negb (ex c) then Done (false, q) else
  if negb (has c (s_data (p_store p))) then Done (false, q) else
  if level c =? 0 then Done (true, q) else
  let sib := get_siblings m c in
  if (nth 0 sib error_cell =? error_cell) || (nth 1 sib error_cell =? error_cell) then Threw else
  match sib_check g ex q sib with
  | Some b => Done (b, q)
  | None =>
    let parent := get_parent_ex g ex c in
    if (parent =? 0) || (level parent <? 0) then Threw else unrefine_completely g p c
  end.
End Model.

(** ** Theorems *)
Section Props.
Context {D : Type} (d0 : D) (g : grid) (Hg : grid_ok g) (st : Z -> proc D) (Hst : reachable d0 g st).
Context (r : Z) (Ir : In r (ranks g)).
Notation m := (g_map g).
Notation s := (p_store (st r)).

Lemma store_tiling own : good g own st -> tiling m (exb s).
Proof. intros Hgood. apply (msh g own st Hgood r Ir). Qed.
(** the child that Mapping gives for an existing cell exists exactly at the maximum level, where
    it is the cell *)
Lemma child_exists own c : good g own st -> exo own c = true -> exb s (get_child m c) = (lvl_of m c =? m_max m).
Proof.
  intros Hgood Ec. pose proof (own_valid g own st Hgood c Ec) as Vc. pose proof (cell_level m (wfm g Hg) c Vc) as Lc.
  pose proof (get_child_ex_leaf m (wfm g Hg) (exb s) (store_tiling own Hgood) c) as E. rewrite (ex_eq g own st Hgood r Ir c) in E. specialize (E Ec).
  unfold get_child. change (get_refinement_level m c) with (lvl_of m c). unfold valid in Vc. unfold error_cell. destruct (Z.eqb_spec c 0); [lia|]. destruct (Z.ltb_spec (m_last m) c); [lia|]. cbn [orb].
  destruct (Z.leb_spec (m_max m) (lvl_of m c)); destruct (Z.eqb_spec (lvl_of m c) (m_max m)); try lia.
  - rewrite (ex_eq g own st Hgood r Ir c). assumption.
  - unfold get_child_ex in E. cbv zeta in E. change (get_refinement_level m c) with (lvl_of m c) in E. destruct (Z.eqb_spec (lvl_of m c) (m_max m)); [lia|].
    destruct (child_of g Hg c Vc ltac:(lia)) as (_ & _ & _ & Nk). destruct (exb s (get_cell_from_indices m (get_indices m c) (lvl_of m c + 1))); [contradiction|reflexivity].
Qed.
Lemma no_error own : good g own st -> exo own error_cell = false.
Proof. intros Hgood. destruct (exo own error_cell) eqn:E; [|reflexivity]. pose proof (own_valid g own st Hgood _ E) as V. unfold valid, error_cell in V. lia. Qed.
Lemma owner_ex own c : good g own st -> exo own c = match owner st r c with Some _ => true | None => false end.
Proof. intros Hgood. rewrite <- (ex_eq g own st Hgood r Ir c). reflexivity. Qed.

(** dont_unrefine throws for existing cells of other processes and for cells that cannot be
    refined, and otherwise does what it does without DEBUG *)
Theorem c67_dont_unrefine c : dont_unrefine_debug g (st r) c =
  match owner st r c with
  | None => Done (false, p_req (st r))
  | Some q => if (q =? r) && (lvl_of m c <? m_max m) then dont_unrefine g (st r) c else Threw
  end.
Proof.
  destruct (reachable_inv d0 g Hg st Hst) as (own & Hgood & _). unfold dont_unrefine_debug.
  pose proof (owner_ex own c Hgood) as Eo. rewrite (ex_eq g own st Hgood r Ir c).
  destruct (Z.eqb_spec c error_cell) as [->|Nc]; [rewrite (no_error own Hgood) in Eo; destruct (owner st r error_cell); [discriminate|reflexivity]|].
  destruct (owner st r c) as [q|] eqn:Eq; rewrite Eo; [|reflexivity]. cbn [negb]. rewrite (child_exists own c Hgood Eo).
  pose proof (own_valid g own st Hgood c Eo) as Vc. pose proof (cell_level m (wfm g Hg) c Vc) as Lc.
  assert (has c (s_data s) = (q =? r)) as ->.
  { apply eq_iff_eq_true. rewrite (has_eq g own st Hgood r Ir c), Z.eqb_eq. pose proof (proj1 (Hs g own st Hgood r Ir) c) as Hp. unfold owner in Eq. rewrite Hp in Eq. rewrite Eq. split; congruence. }
  destruct (q =? r); destruct (Z.eqb_spec (lvl_of m c) (m_max m)); destruct (Z.ltb_spec (lvl_of m c) (m_max m)); try lia; reflexivity.
Qed.

(** dont_refine throws for all cells that cannot be refined, of whatever process *)
Theorem c67_dont_refine c : dont_refine_debug g (st r) c =
  match owner st r c with
  | None => Done (false, p_req (st r))
  | Some _ => if lvl_of m c <? m_max m then Done (dont_refine g (st r) c) else Threw
  end.
Proof.
  destruct (reachable_inv d0 g Hg st Hst) as (own & Hgood & _). unfold dont_refine_debug.
  pose proof (owner_ex own c Hgood) as Eo. rewrite (ex_eq g own st Hgood r Ir c).
  destruct (Z.eqb_spec c error_cell) as [->|Nc]; [rewrite (no_error own Hgood) in Eo; destruct (owner st r error_cell); [discriminate|reflexivity]|].
  destruct (owner st r c) as [q|] eqn:Eq; rewrite Eo; [|reflexivity]. cbn [negb]. rewrite (child_exists own c Hgood Eo).
  pose proof (own_valid g own st Hgood c Eo) as Vc. pose proof (cell_level m (wfm g Hg) c Vc) as Lc.
  destruct (Z.eqb_spec (lvl_of m c) (m_max m)); destruct (Z.ltb_spec (lvl_of m c) (m_max m)); try lia; reflexivity.
Qed.

(** refine_completely throws for local cells that cannot be refined *)
Theorem c67_refine_completely c : refine_completely_debug g (st r) c =
  match owner st r c with
  | None => Done (false, p_req (st r))
  | Some q => if negb (q =? r) then Done (false, p_req (st r)) else
      if lvl_of m c <? m_max m then refine_completely g (st r) c else Threw
  end.
Proof.
  destruct (reachable_inv d0 g Hg st Hst) as (own & Hgood & _). unfold refine_completely_debug. cbv zeta.
  pose proof (owner_ex own c Hgood) as Eo. rewrite (ex_eq g own st Hgood r Ir c).
  destruct (Z.eqb_spec c error_cell) as [->|Nc]; [rewrite (no_error own Hgood) in Eo; destruct (owner st r error_cell); [discriminate|reflexivity]|].
  pose proof (c67_dont_unrefine c) as Ed.
  destruct (owner st r c) as [q|] eqn:Eq; rewrite Eo; [|reflexivity]. cbn [negb].
  pose proof (own_valid g own st Hgood c Eo) as Vc. pose proof (cell_level m (wfm g Hg) c Vc) as Lc.
  assert (has c (s_data s) = (q =? r)) as ->.
  { apply eq_iff_eq_true. rewrite (has_eq g own st Hgood r Ir c), Z.eqb_eq. pose proof (proj1 (Hs g own st Hgood r Ir) c) as Hp. unfold owner in Eq. rewrite Hp in Eq. rewrite Eq. split; congruence. }
  destruct (q =? r); cbn [negb andb] in *; [|reflexivity].
  rewrite (get_child_ex_leaf m (wfm g Hg) (exb s) (store_tiling own Hgood) c) by (rewrite (ex_eq g own st Hgood r Ir c); assumption).
  change (get_refinement_level m c) with (lvl_of m c). rewrite Z.eqb_refl. destruct (Z.ltb_spec (m_max m) (lvl_of m c)); [lia|]. cbn [negb orb].
  destruct (Z.eqb_spec (lvl_of m c) (m_max m)) as [E|E]; destruct (Z.ltb_spec (lvl_of m c) (m_max m)); try lia; [|reflexivity]. rewrite Ed. reflexivity.
Qed.

(** unrefine_completely is the same with and without DEBUG *)
Theorem c67_unrefine_completely c : unrefine_completely_debug g (st r) c = unrefine_completely g (st r) c.
Proof.
  destruct (reachable_inv d0 g Hg st Hst) as (own & Hgood & _). unfold unrefine_completely_debug. cbv zeta.
  destruct (exb s c) eqn:Ex; [|unfold unrefine_completely; cbv zeta; rewrite Ex; reflexivity].
  rewrite (get_parent_ex_leaf g Hg (exb s) c (store_tiling own Hgood) Ex).
  assert (valid m c) as Vc by (apply (own_valid g own st Hgood); rewrite <- (ex_eq g own st Hgood r Ir c); assumption). pose proof (cell_level m (wfm g Hg) c Vc) as Lc.
  change (get_refinement_level m c) with (lvl_of m c). destruct (Z.ltb_spec (lvl_of m c) 0); [lia|]. unfold valid in Vc. destruct (Z.eqb_spec c 0); [lia|]. cbn [orb].
  unfold unrefine_completely. cbv zeta. rewrite Ex. change (get_refinement_level m c) with (lvl_of m c).
  destruct (c =? error_cell); [reflexivity|]. cbn [negb]. destruct (negb (has c (s_data s))); [reflexivity|]. destruct (lvl_of m c =? 0); [reflexivity|].
  destruct (_ || _)%bool; [reflexivity|]. destruct (sib_check g (exb s) (p_req (st r)) (get_siblings m c)); reflexivity.
Qed.
End Props.

(** the documentation says that these requests for a cell of maximum refinement level succeed *)
Theorem c67_requests_refuted : exists st c, reachable 0 g2 st /\ owner st 0 c = Some 0 /\ lvl_of (g_map g2) c = m_max (g_map g2) /\
  dont_refine g2 (st 0) c = (true, p_req (st 0)) /\ dont_refine_debug g2 (st 0) c = Threw /\
  dont_unrefine_debug g2 (st 0) c = Threw /\ refine_completely_debug g2 (st 0) c = Threw /\
  exists q1 q2, dont_unrefine g2 (st 0) c = Done (true, q1) /\ refine_completely g2 (st 0) c = Done (true, q2).
Proof.
  assert (holds (go 0 g2 (map Do [Refine 0 1; Stop; Refine 0 kid1; Stop])) (fun st =>
    let c := nth 0 kids11 0 in eqo (owner st 0 c) (Some 0) && (lvl_of (g_map g2) c =? m_max (g_map g2)) && mem 0 (ranks g2)) = true) as Q by (vm_compute; reflexivity).
  apply holds_ex in Q. destruct Q as (st & E & Q). apply andb_true_iff in Q. destruct Q as [Q Q3]. apply andb_true_iff in Q. destruct Q as [Q1 Q2]. apply Z.eqb_eq in Q2. apply eqo_eq in Q1. apply mem_In in Q3.
  set (c := nth 0 kids11 0) in *. pose proof (go_reachable _ _ _ _ E) as R. destruct (reachable_inv 0 g2 g2_ok st R) as (own & Hgood & _). exists st, c. split; [assumption|]. split; [assumption|]. split; [assumption|].
  assert (exo own c = true) as Ec by (rewrite (owner_ex g2 st 0 Q3 own c Hgood), Q1; reflexivity).
  assert (own c = Some 0) as Eo by (pose proof (proj1 (Hs g2 own st Hgood 0 Q3) c) as Hp; unfold owner in Q1; rewrite Hp in Q1; assumption).
  rewrite (c67_dont_refine 0 g2 g2_ok st R 0 Q3 c), (c67_dont_unrefine 0 g2 g2_ok st R 0 Q3 c), (c67_refine_completely 0 g2 g2_ok st R 0 Q3 c), Q1, Q2, Z.ltb_irrefl, Z.eqb_refl. cbn [andb negb].
  split; [|split; [reflexivity|split; [reflexivity|split; [reflexivity|]]]].
  - unfold dont_refine. cbv zeta. rewrite (ex_eq g2 own st Hgood 0 Q3 c), Ec. change (get_refinement_level (g_map g2) c) with (lvl_of (g_map g2) c). rewrite Q2, Z.eqb_refl.
    replace (c =? error_cell) with false by (vm_compute; reflexivity). reflexivity.
  - destruct (dont_unrefine_ok g2 g2_ok own st Hgood 0 Q3 c) as (b1 & q1 & E1 & _ & B1 & _). destruct (refine_completely_ok g2 g2_ok own st Hgood 0 Q3 c) as (b2 & q2 & E2 & _ & B2 & _).
    exists q1, q2. rewrite E1, E2. rewrite (proj2 B1 Ec), (proj2 B2 (conj Eo (or_introl Q2))). auto.
Qed.
(** of a process, a cell of another process, and cells below the maximum level *)
Example c67_example : holds (go 0 g2 (map Do [Refine 0 1; Stop])) (fun st =>
  holds (refine_completely_debug g2 (st 0) kid1) (fun x => fst x && mem kid1 (r_ref (snd x))) &&
  holds (dont_refine_debug g2 (st 0) 2) (fun x => fst x && mem 2 (r_noref (snd x))) &&
  throws (dont_unrefine_debug g2 (st 0) 2) && holds (dont_unrefine g2 (st 0) 2) (fun x => fst x) &&
  holds (dont_unrefine_debug g2 (st 0) kid1) (fun x => fst x && mem kid1 (r_nounref (snd x))) &&
  holds (unrefine_completely_debug g2 (st 0) kid1) (fun x => fst x && mem kid1 (r_unref (snd x))) &&
  holds (refine_completely_debug g2 (st 0) 1) (fun x => negb (fst x))) = true.
Proof. vm_compute. reflexivity. Qed.
Print Assumptions c67_refine_completely.
