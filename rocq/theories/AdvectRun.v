(** C75: the solver on a small grid, with refinement, merging and cells moving between two processes;
    and a time step of the length that the program allows that makes a density negative. *)
From Verif Require Import U64 MapModel MapSpec MapProofs MapFamily MapProps HoodModel MeshModel
  MeshSpec MeshBase HoodProps MeshWalk MeshFind MeshKids MeshItem MeshCheck MeshTo MeshNear
  Sets RefineModel RefineGeo RefineInv RefineSpread RefineMerge RefineFold RefineExec RefineStop
  BalanceModel RefineReqs Create Balance History HistProps CommitProps BalProps LoadCells HistExamples
  CommModel CommInv CommProps CommViews CommMore CommExamples Adapt AdaptCases ProgramModel ProgramProps CopyProps ProgramCases
  AdvectModel AdvectGeo AdvectSum AdvectRegroup AdvectProps AdvectCode AdvectStep AdvectFace.
From Coq Require Import QArith Qcanon.
Open Scope Z_scope.

Definition q (a : Z) (b : positive) : Qc := Q2Qc (a # b).
Definition fl0 : fluid := Fluid 0 0 0 0 0 0 0 0.
Definition eqf (a : option fluid) (r : Qc) : bool := match a with Some d => Qc_eq_bool (rho d) r | None => false end.
Definition unit_len (k : dim) : Qc := 1%Qc.
(** cells of length 1 at level 0; the flow is to the right, faster in cells with a larger id *)
Definition wind (m : mapping) (c : Z) : (Qc * Qc * Qc) * (Qc * Qc * Qc) :=
  let l := (1 / pow2 (get_refinement_level m c))%Qc in (((1 + q c 8)%Qc, q 1 3, 0%Qc), (l, l, l)).
Lemma wind_ok m c k : size (with_shape (wind m) c 0%Qc) k = (unit_len k / pow2 (get_refinement_level m c))%Qc.
Proof. unfold with_shape, wind, unit_len. destruct k; reflexivity. Qed.

Definition m2 := g_map g2.
Definition pick (cs : list Z) (w : want) (c : Z) (d : fluid) (ns : list (seen fluid)) : list want := if existsb (Z.eqb c) cs then [w] else [].
Definition init_step (r : Z -> Qc) : pstep fluid := ProgramModel.Compute dft (fun c _ _ => with_shape (wind m2) c (r c)).
Definition adv (dt : Qc) : pstep fluid := ProgramModel.Compute dft (advance m2 dt).
Definition change (cs : list Z) (w : want) : pstep fluid := ProgramModel.Adapt dft (pick cs w) (child_value (wind m2)) (parent_value (wind m2)).
Definition start_density (c : Z) : Qc := q (c * c) 1.
Definition solver : list (pstep fluid) := [adv (q 1 8); change [1] ToRefine; adv (q 1 16); change [fam 3] ToUnrefine; adv (q 1 8)].
Definition s_of i := PStep (nth i solver (RemoveHood 0)).
Definition by_both : list (pdo (D := fluid)) := [s_of 0%nat; s_of 1%nat; PMove [(fam 3, 1); (fam 5, 1)]; s_of 2%nat; PMove [(2, 0)]; s_of 3%nat; s_of 4%nat].
Definition run_f (g : grid) (l : list (pdo (D := fluid))) (t : xstate (D := fluid) -> bool) : bool := HistExamples.holds (bind (xinitialize fl0 g) (fun x => foldM (pdo_step fl0 g) l x)) t.
Definition mass_of (x : xstate (D := fluid)) : Qc := qsum (map (fun c => mass (value fl0 x c)) (all_cells g2 x)).

Lemma eqf_eq o r : eqf o r = true -> exists d, o = Some d /\ rho d = r.
Proof. destruct o as [d|]; [|discriminate]. intros E. exists d. split; [reflexivity|]. apply Qc_eq_bool_correct, E. Qed.
Lemma eqf_shows g (Hg : grid_ok g) x c r : xreachable fl0 g x -> eqf (data_at x c) r = true -> exists d, shows g x c d /\ rho d = r.
Proof. intros R E. apply eqf_eq in E. destruct E as (d & E & Q). exists d. split; [|assumption]. apply (shows_iff fl0 g Hg x c d R), E. Qed.

(** ** Five in all: 1 in cell 1 and 4 in cell 2 *)
Lemma started : run_f g2 [PStep (init_step start_density)] (fun x => Qc_eq_bool (mass_of x) (q 5 1) && eqf (data_at x 1) (q 1 1) && eqf (data_at x 2) (q 4 1)) = true.
Proof. vm_compute. reflexivity. Qed.
(** in the middle there are nine cells on two processes and the contents have moved *)
Example in_the_middle : run_f g2 (PStep (init_step start_density) :: firstn 4 by_both) (fun x => eqf (data_at x 2) (q 81605 24576) && eqf (data_at x (fam 3)) (q 75665 49152)
  && eqo (owner (x_st x) 0 (fam 3)) (Some 1) && eqo (owner (x_st x) 0 (fam 1)) (Some 0) && negb (ex_at x 1) && Qc_eq_bool (mass_of x) (q 5 1)) = true.
Proof. vm_compute. reflexivity. Qed.
(** a small and a large cell share the whole face of the small one *)
Example c75_example_area : run_f g2 (PStep (init_step start_density) :: firstn 2 by_both) (fun x => Qc_eq_bool (qmin (area (value fl0 x (fam 3)) DX) (area (value fl0 x 2) DX)) (q 1 4)
  && Qc_eq_bool (unit g2 unit_len DY * zq (common 2 4 (-2)) * (unit g2 unit_len DZ * zq (common 2 4 0)))%Qc (q 1 4)
  && match find_neighbors_of (exists_on (x_st x) 0) m2 (g_topo g2) (fam 3) (g_hood g2) with Done l => existsb (same_entry (2, Idx 2 (-2) 0)) l | _ => false end) = true.
Proof. vm_compute. reflexivity. Qed.
Lemma finished : run_f g2 (PStep (init_step start_density) :: by_both) (fun x => eqf (data_at x 1) (q 1008245 524288) && eqf (data_at x 2) (q 1613195 524288)) = true.
Proof. vm_compute. reflexivity. Qed.
Lemma solver_ok : Forall (solver_step g2 (wind m2)) solver.
Proof. unfold solver. repeat constructor; try (eexists; reflexivity). Qed.
Example c75_example : exists x0 x1 x2, xinitialize fl0 g2 = Done x0 /\ exec_step fl0 g2 x0 (init_step start_density) x1 /\ execs fl0 g2 x1 solver x2 /\
  settled g2 (wind m2) x1 /\ total g2 x1 (q 5 1) /\ total g2 x2 (q 5 1) /\
  (exists d, shows g2 x1 1 d /\ rho d = q 1 1) /\ (exists d, shows g2 x2 1 d /\ rho d = q 1008245 524288).
Proof.
  pose proof started as A. pose proof finished as B. unfold run_f in A, B. apply holds_ex in A. destruct A as (x1 & E1 & A). apply holds_ex in B. destruct B as (x2 & E2 & B).
  apply bind_done in E1. destruct E1 as (x0 & E0 & E1). apply bind_done in E2. destruct E2 as (x0' & E0' & E2). assert (x0' = x0) as -> by congruence. clear E0'.
  pose proof (xreach_init fl0 g2 x0 E0) as R0. cbn [foldM] in E1, E2. apply bind_done in E1. destruct E1 as (y1 & E1 & Ey). injection Ey as ->. apply bind_done in E2. destruct E2 as (y1 & Ey & E2). rewrite E1 in Ey. injection Ey as <-.
  assert (exec_step fl0 g2 x0 (init_step start_density) x1) as H1.
  { cbn [pdo_step] in E1. destruct (usable x0 _); [|discriminate]. destruct (auto_step_ok fl0 g2 g2_ok x0 (init_step start_density) R0) as (x1' & E1' & H); [cbn [init_step can_use]; left; reflexivity|]. rewrite E1 in E1'. injection E1' as <-. exact H. }
  pose proof (exec_reachable fl0 g2 x0 _ x1 R0 H1) as R1. pose proof (pdo_execs fl0 g2 g2_ok by_both x1 x2 R1 E2) as H2. change (steps_of by_both) with solver in H2.
  pose proof (c75_first_values fl0 g2 g2_ok (wind m2) x0 start_density x1 R0 H1) as S1.
  assert (idle g2 (x_st x1)) as I1. { destruct (compute_ok fl0 g2 g2_ok x0 _ _ x1 R0 H1) as (_ & _ & K & _). apply K. apply (start_ok fl0 g2 g2_ok x0 E0). }
  rewrite !andb_true_iff in A. destruct A as ((A0 & A1) & _). apply Qc_eq_bool_correct in A0.
  assert (total g2 x1 (q 5 1)) as T1 by (apply (total_iff fl0 g2 g2_ok x1 _ R1); symmetry; exact A0).
  destruct (c75_total_kept fl0 g2 g2_ok unit_len ltac:(intros k; discriminate) (wind m2) (fun c _ k => wind_ok m2 c k) x1 solver x2 R1 I1 S1 solver_ok H2) as (_ & T2).
  apply andb_true_iff in B. destruct B as (B1 & _). pose proof (execs_reachable fl0 g2 x1 solver x2 R1 H2) as R2.
  exists x0, x1, x2. split; [assumption|]. split; [assumption|]. split; [assumption|]. split; [assumption|]. split; [assumption|]. split; [apply T2, T1|]. split; [apply (eqf_shows g2 g2_ok x1 1 _ R1 A1)|apply (eqf_shows g2 g2_ok x2 1 _ R2 B1)].
Qed.

(** ** Every process computes the same: solve.hpp on process 0, which has cell 1 and copies of cell 2, and on process 1 *)
Definition here_of (x : xstate (D := fluid)) (p : Z) (c : Z) : bool := has c (s_data (p_store (x_st x p))).
Definition two_views (x : xstate (D := fluid)) (p : Z) : option memory :=
  match iterators g2 x dft p with
  | Done v => time_step m2 (here_of x p) (q 1 8) v (fun c => data_at x c) (fun c => if here_of x p c then data_at x c else None)
  | _ => None
  end.
Example c75_example_code : run_f g2 [PStep (init_step start_density); PMove [(2, 1)]] (fun x => eqo (owner (x_st x) 0 1) (Some 0) && eqo (owner (x_st x) 0 2) (Some 1)
  && match two_views x 0, two_views x 1 with Some s0, Some s1 => eqf (s0 1) (q 185 128) && eqf (s1 2) (q 455 128) | _, _ => false end) = true.
Proof. vm_compute. reflexivity. Qed.

(** ** A density below zero: 4 x 4 x 1 cells with the velocities of solve.hpp:336-346, a time step given by
    max_time_step and cfl = 1, which 2d.cpp:161-164 allows *)
Definition gr : grid := Grid (update_last_cell (Mapping 4 4 1 0 0)) (Topo true true false) 0 1.
Lemma gr_ok : grid_ok gr. Proof. apply grid_okb; vm_compute; reflexivity. Qed.
Definition center (a : Z) : Qc := q (2 * a + 1) 8.
Definition turning (c : Z) : (Qc * Qc * Qc) * (Qc * Qc * Qc) :=
  let i := get_indices (g_map gr) c in (((q 1 2 - center (iy i))%Qc, (center (ix i) - q 1 2)%Qc, 0%Qc), (q 1 4, q 1 4, q 1 4)).
Definition one_full (c : Z) : Qc := if c =? 12 then 1%Qc else 0%Qc.
Definition fill : pstep fluid := ProgramModel.Compute dft (fun c _ _ => with_shape turning c (one_full c)).
Definition all_values (x : xstate (D := fluid)) : list fluid := map (value fl0 x) (all_cells gr x).
Definition qle_all (x : xstate (D := fluid)) : bool := forallb (fun d => qleb 0%Qc (rho d)) (all_values x).
Definition cfl_of (cfl : Qc) (l : option Qc) : Qc := match l with Some dt => (cfl * dt)%Qc | None => 0%Qc end.
Definition then_step (cfl : Qc) (t : xstate (D := fluid) -> xstate (D := fluid) -> bool) : bool := run_f gr [PStep fill] (fun x =>
  HistExamples.holds (pdo_step fl0 gr x (PStep (ProgramModel.Compute dft (advance (g_map gr) (cfl_of cfl (max_time_step [all_values x])))))) (t x)).
Lemma full_step : then_step 1%Qc (fun x x' => match max_time_step [all_values x] with Some dt => Qc_eq_bool dt (q 2 3) | None => false end && qle_all x && eqf (data_at x' 12) (q (-1) 3)) = true.
Proof. vm_compute. reflexivity. Qed.
Lemma all_values_in x d : xreachable fl0 gr x -> In d (all_values x) <-> exists c, shows gr x c d.
Proof.
  intros R. unfold all_values. rewrite in_map_iff. split.
  - intros (c & <- & I). exists c. apply (shows_value fl0 gr gr_ok x c R). apply (all_cells_in fl0 gr gr_ok x c R), I.
  - intros (c & S). exists c. apply (shows_unique fl0 gr gr_ok x c d R) in S. destruct S as (E & ->). split; [reflexivity|]. apply (all_cells_in fl0 gr gr_ok x c R), E.
Qed.
Theorem c75_full_courant_number_refuted : ~ (forall g d0 x x' l cfl dt, grid_ok g -> xreachable d0 g x ->
  (forall d, In d l <-> exists c, shows g x c d) -> max_time_step [l] = Some dt -> (0 <= cfl)%Qc -> (cfl <= 1)%Qc ->
  (forall c d, shows g x c d -> (0 <= rho d)%Qc /\ flux d = 0%Qc /\ forall k, (0 < size d k)%Qc) ->
  exec_step d0 g x (ProgramModel.Compute default_neighborhood_id (advance (g_map g) (cfl * dt)%Qc)) x' ->
  forall c d, shows g x' c d -> (0 <= rho d)%Qc).
Proof.
  intros H. pose proof full_step as A. unfold then_step, run_f in A. apply holds_ex in A. destruct A as (x & E & A). apply holds_ex in A. destruct A as (x' & E' & A). rewrite !andb_true_iff in A. destruct A as ((A0 & A1) & A2).
  apply bind_done in E. destruct E as (x0 & E0 & E). pose proof (xreach_init fl0 gr x0 E0) as R0. cbn [foldM] in E. apply bind_done in E. destruct E as (y & E & Ey). injection Ey as ->.
  assert (exec_step fl0 gr x0 fill x) as H1.
  { cbn [pdo_step] in E. destruct (usable x0 _); [|discriminate]. destruct (auto_step_ok fl0 gr gr_ok x0 fill R0) as (x1' & E1' & K); [cbn [fill can_use]; left; reflexivity|]. rewrite E in E1'. injection E1' as <-. exact K. }
  pose proof (exec_reachable fl0 gr x0 _ x R0 H1) as R. destruct (max_time_step [all_values x]) as [dt|] eqn:Edt; [|discriminate].
  cbn [cfl_of] in E'. assert (exec_step fl0 gr x (ProgramModel.Compute dft (advance (g_map gr) (1 * dt)%Qc)) x') as H2.
  { cbn [pdo_step] in E'. destruct (usable x _); [|discriminate]. destruct (auto_step_ok fl0 gr gr_ok x (ProgramModel.Compute dft (advance (g_map gr) (1 * dt)%Qc)) R) as (x1' & E1' & K); [cbn [can_use]; left; reflexivity|]. rewrite E' in E1'. injection E1' as <-. exact K. }
  pose proof (c75_first_values fl0 gr gr_ok turning x0 one_full x R0 H1) as S. pose proof (exec_reachable fl0 gr x _ x' R H2) as R'.
  destruct (eqf_shows gr gr_ok x' 12 _ R' A2) as (d & Sd & Q). assert (0 <= rho d)%Qc as L; [|rewrite Q in L; apply L; reflexivity].
  refine (H gr fl0 x x' (all_values x) 1%Qc dt gr_ok R (fun d => all_values_in x d R) Edt ltac:(discriminate) ltac:(apply Qcle_refl) _ H2 12 d Sd).
  intros c e Se. split; [|rewrite (S c e Se); unfold with_shape, turning; cbn; split; [reflexivity|intros k; destruct k; reflexivity]].
  unfold qle_all in A1. rewrite forallb_forall in A1. apply qleb_le, A1, (all_values_in x e R). exists c. exact Se.
Qed.
(** with cfl = 1/2, the default, no cell of this grid loses more than it has *)
Definition sees_of (x : xstate (D := fluid)) (c : Z) : option (list (seen fluid)) :=
  match find_neighbors_of (exists_on (x_st x) 0) (g_map gr) (g_topo gr) c (g_hood gr) with Done l => Some (map (of_val (value fl0 x)) l) | _ => None end.
Example c75_example_half : then_step (q 1 2) (fun x x' => qle_all x && eqf (data_at x' 12) (q 1 3)
  && forallb (fun c => match sees_of x c with Some ns => qleb (qsum (map (leaving (g_map gr) (cfl_of (q 1 2) (max_time_step [all_values x])) c (value fl0 x c)) (once ns))) 1%Qc | None => false end) (all_cells gr x)) = true.
Proof. vm_compute. reflexivity. Qed.
(** ** The clock: 2d.cpp:319-442.  dts are the results of the calls of max_time_step, [advanced] the sum of the time steps used in
    calculate_fluxes (2d.cpp:331, 339), [shown] the variable time (2d.cpp:319, 442); without adaptation dt stays the same. *)
Fixpoint clock (fuel : nat) (cfl dt tmax shown advanced : Qc) : Qc * Qc :=
  match fuel with
  | O => (shown, advanced)
  | S fuel => if qleb tmax shown then (shown, advanced) else clock fuel cfl dt tmax (shown + dt)%Qc (advanced + cfl * dt)%Qc
  end.
(** after any number of turns the simulation has advanced cfl times the time that is shown and compared with tmax *)
Theorem c75_clock fuel cfl dt tmax : snd (clock fuel cfl dt tmax 0 0) = (cfl * fst (clock fuel cfl dt tmax 0 0))%Qc.
Proof.
  assert (forall shown advanced, advanced = (cfl * shown)%Qc -> snd (clock fuel cfl dt tmax shown advanced) = (cfl * fst (clock fuel cfl dt tmax shown advanced))%Qc) as G; [|apply G; ring].
  induction fuel as [|fuel IH]; intros shown advanced E; cbn [clock]; [exact E|]. destruct (qleb tmax shown); [exact E|]. apply IH. rewrite E. ring.
Qed.
(** so it ends before tmax has been simulated: with the default cfl = 1/2 half way *)
Theorem c75_simulated_time_refuted : ~ (forall fuel cfl dt tmax, (0 < cfl)%Qc -> (0 < dt)%Qc -> (tmax <= fst (clock fuel cfl dt tmax 0 0))%Qc -> (tmax <= snd (clock fuel cfl dt tmax 0 0))%Qc).
Proof. intros H. specialize (H 8%nat (q 1 2) (q 1 4) (q 2 1) ltac:(reflexivity) ltac:(reflexivity) ltac:(vm_compute; discriminate)). vm_compute in H. apply H. reflexivity. Qed.
Print Assumptions c75_full_courant_number_refuted.
