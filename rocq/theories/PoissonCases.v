(** C77: concrete runs of the Poisson solver, and what it does not do. *)
From Verif Require Import U64 MapModel MapSpec MapProofs MapFamily MapProps HoodModel MeshModel
  MeshSpec MeshBase HoodProps MeshWalk MeshFind MeshKids MeshItem MeshCheck MeshTo MeshNear MeshFace
  Sets RefineModel RefineGeo RefineInv RefineSpread RefineMerge RefineFold RefineExec RefineStop RefineNear
  BalanceModel RefineReqs Create Balance History HistProps CommitProps BalProps LoadCells HistExamples CommModel CommInv CommProps CommViews CommMore CommExamples Stages StageUpdate ProgramModel ProgramProps
  AdvectModel AdvectSum PoissonModel PoissonRef PoissonCache PoissonProps PoissonGeo PoissonRun.
From Coq Require Import QArith Qcanon.
Open Scope Z_scope.

Lemma eqo_iff a b : eqo a b = true <-> a = b.
Proof. destruct a, b; cbn [eqo]; split; intros E; try discriminate; try reflexivity; [apply Z.eqb_eq in E; congruence|injection E as ->; apply Z.eqb_refl]. Qed.
(** ** There is a setting for every state and all arguments *)
Section Any.
Context (d0 : pcell) (g : grid) (Hg : grid_ok g).
Definition the_ex (x : xstate (D := pcell)) (c : Z) : bool := exists_on (x_st x) 0 c.
Definition the_values (x : xstate (D := pcell)) : values := fun c => match data_at x c with Some d => d | None => d0 end.
Definition the_kinds (x : xstate (D := pcell)) (cells skip : Z -> list Z) (c : Z) : Z := match owner_in x c with Some r => given (cells r) (skip r) c | None => skip_cell end.
Definition the_own (x : xstate (D := pcell)) (r : Z) : list Z := filter (fun c => eqo (owner_in x c) (Some r)) (cells_of g (the_ex x)).
Theorem c77_settings x cells skip : xreachable d0 g x -> setting d0 g x (the_ex x) (the_values x) (the_kinds x cells skip) (the_own x) cells skip /\ shows_world g x (read x).
Proof.
  intros R. destruct (xreachable_inv d0 g Hg x R) as (own & Hx). split; [|intros r c _ _; reflexivity]. split; [assumption|reflexivity| | |].
  - intros c E. unfold the_ex in E. change (exists_on (x_st x) 0 c) with (ex_at x c) in E. rewrite (ex_own g Hg own x c Hx) in E. apply exo_some in E. destruct E as (r & E). destruct (data_here g Hg own x c r Hx E) as (_ & v & _ & D). unfold the_values. rewrite D. reflexivity.
  - intros r Ir. split; [apply NoDup_filter, cells_of_nodup|]. intros c. unfold the_own. rewrite filter_In, (cells_of_in g (the_ex x) c); [|apply (mesh_in d0 g Hg x (the_ex x) R (fun _ => eq_refl))]. unfold owns. rewrite (proj1 (at_rank g Hg own x Hx r c Ir)). split.
    + intros [_ E]. apply eqo_iff. assumption.
    + intros E. split; [|apply eqo_iff; assumption]. unfold the_ex, exists_on. change (owner (x_st x) 0 c) with (owner_in x c). rewrite E. reflexivity.
  - intros r c Ir O. unfold the_kinds. unfold owns in O. rewrite (proj1 (at_rank g Hg own x Hx r c Ir)) in O. rewrite O. reflexivity.
Qed.
End Any.

(** ** Cells in a row, all of length 1, on two processes *)
Definition pz : pcell := blank.
Definition plain (f s b p : Qc) : pcell := PCell f s b p 0 0 0 0 (Geom 0 0 0 0 0 0 0) 0.
Definition zz (n : Z) : Qc := Q2Qc (n # 1).
Definition one_len (c : Z) (k : dim) : Qc := 1%Qc.
Definition square (a : Qc) : Qc := (a * a)%Qc.
Definition identity (a : Qc) : Qc := a.
Definition lim : limits := Limits 0 (zz 10) 0.
Definition line (n np : Z) : grid := Grid (update_last_cell (Mapping n 1 1 0 0)) (Topo false false false) 0 np.
Definition four_cells := line 4 2.
Definition six_cells := line 6 2.
Example four_ok : grid_ok four_cells. Proof. apply grid_okb; vm_compute; reflexivity. Qed.
Example four_ok1 : grid_ok (line 4 1). Proof. apply grid_okb; vm_compute; reflexivity. Qed.
Example six_ok : grid_ok six_cells. Proof. apply grid_okb; vm_compute; reflexivity. Qed.
Section With.
Context (g : grid).
(** a call of solve() in state x *)
Definition call_solve (M : limits) (n : nat) (cells skip : Z -> list Z) (x : xstate (D := pcell)) : option world :=
  solve (ranks g) (owner_in x) (the_own g x) one_len (faces_of (g_map g) (g_topo g) (the_ex x)) (get_refinement_level (g_map g)) square identity M n cells skip (read x).
Definition call_failsafe (stop : Qc) (n : nat) (cells skip : Z -> list Z) (x : xstate (D := pcell)) : option (world * option Qc) :=
  solve_failsafe (ranks g) (owner_in x) (the_own g x) one_len (faces_of (g_map g) (g_topo g) (the_ex x)) (get_refinement_level (g_map g)) stop n cells skip (read x).
Definition has_sol (w : option world) (r c : Z) (v : Qc) : bool := match w with Some w => match w r c with Some d => Qc_eq_bool (sol d) v | None => false end | None => false end.
Definition sol_of (w : option world) (r c : Z) : option Qc := match w with Some w => match w r c with Some d => Some (sol d) | None => None end | None => None end.
Lemma has_sol_eq w r c v : has_sol w r c v = true -> sol_of w r c = Some v.
Proof. unfold has_sol, sol_of. destruct w as [w|]; [|discriminate]. destruct (w r c); [|discriminate]. intros E. apply Qc_eq_bool_correct in E. congruence. Qed.
End With.
Definition none (r : Z) : list Z := [].
Definition middle (r : Z) : list Z := [2; 3].
(** f'' = 0 between f = 0 at the left and f = 3 at the right *)
Definition ends : list (xstep (D := pcell)) := [XDo (Plain (Write 1 4 (plain 0 (zz 3) 0 0)))].
Definition ends1 : list (xstep (D := pcell)) := [XDo (Plain (Write 0 4 (plain 0 (zz 3) 0 0)))].
Example c77_example_solve : exists x w, xreachable pz four_cells x /\ call_solve four_cells lim 2 middle none x = Some w /\
  sol_of (Some w) 0 1 = Some 0%Qc /\ sol_of (Some w) 0 2 = Some 1%Qc /\ sol_of (Some w) 1 3 = Some (zz 2) /\ sol_of (Some w) 1 4 = Some (zz 3).
Proof.
  destruct (xgo_holds pz four_cells ends (fun x => let w := call_solve four_cells lim 2 middle none x in has_sol w 0 1 0%Qc && has_sol w 0 2 1%Qc && has_sol w 1 3 (zz 2) && has_sol w 1 4 (zz 3))) as (x & R & B); [vm_compute; reflexivity|].
  cbv zeta in B. rewrite !andb_true_iff in B. destruct B as [[[B1 B2] B3] B4]. destruct (call_solve four_cells lim 2 middle none x) as [w|] eqn:E; [|discriminate]. exists x, w. split; [assumption|]. split; [assumption|]. apply has_sol_eq in B1, B2, B3, B4. auto.
Qed.
(** solve_failsafe halves the distance to the solution with every iteration *)
Example c77_example_failsafe : exists x w a, xreachable pz four_cells x /\ call_failsafe four_cells 0%Qc 4 middle none x = Some (w, Some a) /\ a = Q2Qc (3 # 16) /\
  sol_of (Some w) 0 2 = Some (Q2Qc (15 # 16)) /\ sol_of (Some w) 1 3 = Some (Q2Qc (15 # 8)).
Proof.
  destruct (xgo_holds pz four_cells ends (fun x => match call_failsafe four_cells 0%Qc 4 middle none x with Some (w, Some a) => has_sol (Some w) 0 2 (Q2Qc (15 # 16)) && has_sol (Some w) 1 3 (Q2Qc (15 # 8)) && Qc_eq_bool a (Q2Qc (3 # 16)) | _ => false end)) as (x & R & B); [vm_compute; reflexivity|].
  destruct (call_failsafe four_cells 0%Qc 4 middle none x) as [[w [a|]]|] eqn:E; try discriminate. rewrite !andb_true_iff in B. destruct B as [[B1 B2] B3]. exists x, w, a. split; [assumption|]. split; [assumption|]. apply has_sol_eq in B1, B2. apply Qc_eq_bool_correct in B3. auto.
Qed.

(** ** Corollaries at work: the same result on one and on two processes *)
Example c77_example_same : exists x x' w w', xreachable pz four_cells x /\ xreachable pz (line 4 1) x' /\ call_solve four_cells lim 2 middle none x = Some w /\ call_solve (line 4 1) lim 2 middle none x' = Some w' /\
  owner_in x 3 = Some 1 /\ owner_in x' 3 = Some 0 /\ sol_of (Some w) 1 3 = Some (zz 2) /\ sol_of (Some w') 0 3 = Some (zz 2).
Proof.
  destruct (xgo_holds pz four_cells ends (fun x => has_sol (call_solve four_cells lim 2 middle none x) 1 3 (zz 2) && eqo (owner_in x 3) (Some 1))) as (x & R & B); [vm_compute; reflexivity|].
  destruct (xgo_holds pz (line 4 1) ends1 (fun x => has_sol (call_solve (line 4 1) lim 2 middle none x) 0 3 (zz 2) && eqo (owner_in x 3) (Some 0))) as (x' & R' & B'); [vm_compute; reflexivity|].
  apply andb_true_iff in B, B'. destruct B as [B O], B' as [B' O']. apply eqo_iff in O, O'. destruct (call_solve four_cells lim 2 middle none x) as [w|] eqn:E; [|discriminate]. destruct (call_solve (line 4 1) lim 2 middle none x') as [w'|] eqn:E'; [|discriminate].
  apply has_sol_eq in B, B'. exists x, x', w, w'. auto 10.
Qed.

(** ** What does not hold *)
Lemma q_neq a b : Qc_eq_bool a b = false -> a <> b.
Proof. intros E ->. unfold Qc_eq_bool in E. destruct (Qc_eq_dec b b); [discriminate|contradiction]. Qed.
Notation L_ g x := (cells_of g (the_ex x)).
Notation links_ g x cells skip := (glinks (faces_of (g_map g) (g_topo g) (the_ex x)) (get_refinement_level (g_map g)) (the_kinds x cells skip)).
Notation start_ g x cells skip := (gcached one_len (faces_of (g_map g) (g_topo g) (the_ex x)) (the_kinds x cells skip) (L_ g x) (the_values pz x)).
Definition A_in (g : grid) (x : xstate (D := pcell)) (cells skip : Z -> list Z) : (Z -> Qc) -> Z -> Qc := A g one_len (the_ex x) (the_values pz x) (the_kinds x cells skip).
Definition At_in (g : grid) (x : xstate (D := pcell)) (cells skip : Z -> list Z) : (Z -> Qc) -> Z -> Qc := At g one_len (the_ex x) (the_values pz x) (the_kinds x cells skip).
Definition solvesb (g : grid) (x : xstate (D := pcell)) (cells skip : Z -> list Z) (c : Z) : bool := the_ex x c && (kind (start_ g x cells skip c) =? solve_cell).
(** A solution given as the first guess is lost: the search direction is zero, the loop is left before anything is saved
    and best_solution replaces the guess (poisson_solve.hpp:353-356, 513-519). *)
Definition ones : list (xstep (D := pcell)) := map (fun c => XDo (Plain (Write (if c <? 3 then 0 else 1) c (plain 0 1 0 0)))) [1; 2; 3; 4].
Theorem c77_exact_guess_refuted : exists x w, xreachable pz four_cells x /\
  (forall c, In c [2; 3] -> A_in four_cells x middle none (fun n => sol (the_values pz x n)) c = rhs (the_values pz x c)) /\ sol (the_values pz x 2) = 1%Qc /\
  call_solve four_cells lim 5 middle none x = Some w /\ sol_of (Some w) 0 2 = Some 0%Qc /\ A_in four_cells x middle none (fun n => if mem n [2; 3] then 0%Qc else 1%Qc) 2 <> rhs (the_values pz x 2).
Proof.
  destruct (xgo_holds pz four_cells ones (fun x => forallb (fun c => Qc_eq_bool (A_in four_cells x middle none (fun n => sol (the_values pz x n)) c) (rhs (the_values pz x c))) [2; 3] && Qc_eq_bool (sol (the_values pz x 2)) 1
    && has_sol (call_solve four_cells lim 5 middle none x) 0 2 0%Qc && negb (Qc_eq_bool (A_in four_cells x middle none (fun n => if mem n [2; 3] then 0%Qc else 1%Qc) 2) (rhs (the_values pz x 2))))) as (x & R & B); [vm_compute; reflexivity|].
  rewrite !andb_true_iff in B. destruct B as [[[B1 B2] B3] B4]. rewrite forallb_forall in B1. destruct (call_solve four_cells lim 5 middle none x) as [w|] eqn:E; [|discriminate]. exists x, w. split; [assumption|]. split; [intros c I; apply Qc_eq_bool_correct, (B1 c I)|].
  split; [apply Qc_eq_bool_correct; assumption|]. split; [assumption|]. split; [apply has_sol_eq; assumption|]. apply q_neq, negb_true_iff, B4.
Qed.
(** The solution that is kept is not the one with the smallest residual: the residual is compared before it is updated
    for the new solution (poisson_solve.hpp:372-390).  Here the guess was better than the result. *)
Definition inner4 (r : Z) : list Z := [2; 3; 4; 5].
Definition uneven : list (xstep (D := pcell)) := [XDo (Plain (Write 0 2 (plain (zz (-1)) 0 0 0))); XDo (Plain (Write 0 3 (plain (zz (-1)) 0 0 0))); XDo (Plain (Write 1 4 (plain (zz (-1)) 0 0 0)))].
Definition left_over (g : grid) (x : xstate (D := pcell)) (cells skip : Z -> list Z) (f : Z -> Qc) : Qc :=
  qsum (map (fun c => square (rhs (the_values pz x c) - A_in g x cells skip f c)%Qc) (filter (solvesb g x cells skip) (L_ g x))).
Definition field_of (x : xstate (D := pcell)) (w : option world) (c : Z) : Qc := match owner_in x c with Some r => match sol_of w r c with Some q => q | None => 0%Qc end | None => 0%Qc end.
Theorem c77_smallest_residual_refuted : exists x w, xreachable pz six_cells x /\ call_solve six_cells lim 2 inner4 none x = Some w /\
  (left_over six_cells x inner4 none (fun n => sol (the_values pz x n)) < left_over six_cells x inner4 none (field_of x (Some w)))%Qc.
Proof.
  destruct (xgo_holds pz six_cells uneven (fun x => match call_solve six_cells lim 2 inner4 none x with Some w => negb (qle (left_over six_cells x inner4 none (field_of x (Some w))) (left_over six_cells x inner4 none (fun n => sol (the_values pz x n)))) | None => false end)) as (x & R & B); [vm_compute; reflexivity|].
  destruct (call_solve six_cells lim 2 inner4 none x) as [w|] eqn:E; [|discriminate]. exists x, w. split; [assumption|]. split; [assumption|]. apply qle_not, negb_true_iff, B.
Qed.
(** p0 in boundary cells is never set by the solver, but used: with a value left there r0 is no longer the residual *)
Definition stale : list (xstep (D := pcell)) := [XDo (Plain (Write 0 1 (plain 0 0 0 (zz 5)))); XDo (Plain (Write 1 4 (plain 0 (zz 3) 0 0)))].
Theorem c77_residual_of_stale_boundaries_refuted : exists x q, xreachable pz four_cells x /\
  met (L_ four_cells x) (links_ four_cells x middle none) square identity lim (start_ four_cells x middle none) 2 q /\
  r0 (gq_values q 2) <> (rhs (the_values pz x 2) - A_in four_cells x middle none (fun n => sol (gq_values q n)) 2)%Qc.
Proof.
  destruct (xgo_holds pz four_cells stale (fun x => match giteration (L_ four_cells x) (links_ four_cells x middle none) square identity lim 1 (gstarted (L_ four_cells x) (links_ four_cells x middle none) (start_ four_cells x middle none)) with
    | GAgain q => negb (Qc_eq_bool (r0 (gq_values q 2)) (rhs (the_values pz x 2) - A_in four_cells x middle none (fun n => sol (gq_values q n)) 2)%Qc) | GEnded _ => false end)) as (x & R & B); [vm_compute; reflexivity|].
  destruct (giteration _ _ _ _ _ _ _) as [|q] eqn:E; [discriminate|]. exists x, q. split; [assumption|]. split; [|apply q_neq, negb_true_iff, B]. apply (met_next _ _ _ _ _ _ 1 _ q (met_start _ _ _ _ _ _) E).
Qed.
(** On refined grids the second sum is not that of the transposed matrix: between a cell and a smaller neighbor the
    factor is divided by four in the wrong direction (poisson_solve.hpp:461-464). *)
Definition split1 : list (xstep (D := pcell)) := [XDo (Plain (Refine 0 1)); XDo (Plain Stop)].
Definition everything (r : Z) : list Z := map Z.of_nat (seq 1 20).
Definition at_cell (c n : Z) : Qc := if n =? c then 1%Qc else 0%Qc.
Definition a_kid : Z := nth 1 kids1 0.
Theorem c77_transposed_on_refined_refuted : exists x, xreachable pz g2 x /\ (forall c, In c (L_ g2 x) -> solvesb g2 x everything none c = true) /\
  qsum (map (fun c => at_cell a_kid c * A_in g2 x everything none (at_cell 2) c)%Qc (L_ g2 x)) <> qsum (map (fun c => at_cell 2 c * At_in g2 x everything none (at_cell a_kid) c)%Qc (L_ g2 x)).
Proof.
  destruct (xgo_holds pz g2 split1 (fun x => forallb (solvesb g2 x everything none) (L_ g2 x) && negb (Qc_eq_bool (qsum (map (fun c => at_cell a_kid c * A_in g2 x everything none (at_cell 2) c)%Qc (L_ g2 x))) (qsum (map (fun c => at_cell 2 c * At_in g2 x everything none (at_cell a_kid) c)%Qc (L_ g2 x)))))) as (x & R & B); [vm_compute; reflexivity|].
  apply andb_true_iff in B. destruct B as [B1 B2]. rewrite forallb_forall in B1. exists x. split; [assumption|]. split; [assumption|]. apply q_neq, negb_true_iff, B2.
Qed.
(** With some of four smaller neighbors skipped the factors do not add up: constants are no solutions then *)
Definition skip_kid (r : Z) : list Z := [a_kid].
Definition others (r : Z) : list Z := filter (fun c => negb (c =? a_kid)) (everything 0).
Theorem c77_constants_beside_skipped_refuted : exists x, xreachable pz g2 x /\ solvesb g2 x others skip_kid 2 = true /\ A_in g2 x others skip_kid (fun _ => 1%Qc) 2 <> 0%Qc.
Proof.
  destruct (xgo_holds pz g2 split1 (fun x => solvesb g2 x others skip_kid 2 && negb (Qc_eq_bool (A_in g2 x others skip_kid (fun _ => 1%Qc) 2) 0%Qc))) as (x & R & B); [vm_compute; reflexivity|].
  apply andb_true_iff in B. destruct B as [B1 B2]. exists x. split; [assumption|]. split; [assumption|]. apply q_neq, negb_true_iff, B2.
Qed.
(** without skipping they are, between cells of different sizes *)
Example c77_example_constants : exists x, xreachable pz g2 x /\ solvesb g2 x everything none 2 = true /\ A_in g2 x everything none (fun _ => 1%Qc) 2 = 0%Qc /\ A_in g2 x everything none (at_cell 2) 2 = zz (-2) /\ A_in g2 x everything none (at_cell 2) a_kid <> 0%Qc.
Proof.
  destruct (xgo_holds pz g2 split1 (fun x => solvesb g2 x everything none 2 && Qc_eq_bool (A_in g2 x everything none (fun _ => 1%Qc) 2) 0%Qc && Qc_eq_bool (A_in g2 x everything none (at_cell 2) 2) (zz (-2)) && negb (Qc_eq_bool (A_in g2 x everything none (at_cell 2) a_kid) 0%Qc))) as (x & R & B); [vm_compute; reflexivity|].
  rewrite !andb_true_iff in B. destruct B as [[[B1 B2] B3] B4]. exists x. split; [assumption|]. split; [assumption|]. split; [apply Qc_eq_bool_correct; assumption|]. split; [apply Qc_eq_bool_correct; assumption|]. apply q_neq, negb_true_iff, B4.
Qed.
(** the second derivative of x^2, with all hypotheses of the theorem *)
Definition mid (c : Z) (k : dim) : Qc := match k with DX => zz c | _ => 0%Qc end.
Example c77_example_quadratic : exists x, xreachable pz four_cells x /\ solvesb four_cells x middle none 2 = true /\
  (forall j, straight one_len mid 2 (nbrs four_cells (the_ex x) (the_kinds x middle none) 2) j) /\
  A_in four_cells x middle none (quadratic mid (fun _ => 1%Qc) (fun _ => 0%Qc) 0%Qc) 2 = zz 2.
Proof.
  destruct (xgo_holds pz four_cells ends (fun x => solvesb four_cells x middle none 2 && Qc_eq_bool (A_in four_cells x middle none (quadratic mid (fun _ => 1%Qc) (fun _ => 0%Qc) 0%Qc) 2) (zz 2)
    && match nbrs four_cells (the_ex x) (the_kinds x middle none) 2 with [(1, -1); (3, 1)] => true | _ => false end)) as (x & R & B); [vm_compute; reflexivity|].
  rewrite !andb_true_iff in B. destruct B as [[B1 B2] B3]. exists x. split; [assumption|]. split; [assumption|]. split; [|apply Qc_eq_bool_correct; assumption].
  assert (nbrs four_cells (the_ex x) (the_kinds x middle none) 2 = [(1, -1); (3, 1)]) as ->.
  { destruct (nbrs four_cells (the_ex x) (the_kinds x middle none) 2) as [|[a b] [|[c d] [|]]]; try (destruct a as [|[| |]|]; try discriminate; destruct b as [| |[| |]]; discriminate).
    - discriminate.
    - destruct a as [|[| |]|]; try discriminate. destruct b as [| |[| |]]; try discriminate. destruct c as [|[[| |]| |]|]; try discriminate. destruct d as [|[| |]|]; try discriminate. reflexivity.
    - destruct a as [|[| |]|]; try discriminate. destruct b as [| |[| |]]; try discriminate. destruct c as [|[[| |]| |]|]; try discriminate. destruct d as [|[| |]|]; discriminate. }
  intros [| |]; [right; exists 3, 1|left; intros []; reflexivity|left; intros []; reflexivity]. split; [reflexivity|]. split; [reflexivity|]. split; (split; [apply Qc_eq_bool_correct; vm_compute; reflexivity|]); intros [| |] N; try reflexivity; contradiction.
Qed.
