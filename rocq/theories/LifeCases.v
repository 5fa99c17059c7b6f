(** C81: a game with refined cells on two processes, and what the comment in solve.hpp:33-34 leaves out. *)
From Verif Require Import U64 MapModel MapSpec MapProofs MapFamily MapProps HoodModel MeshModel
  MeshSpec MeshBase HoodProps MeshWalk MeshFind MeshKids MeshItem MeshCheck MeshTo MeshNear
  Sets RefineModel RefineGeo RefineInv RefineSpread RefineMerge RefineFold RefineExec RefineStop
  BalanceModel RefineReqs Create Balance History HistProps CommitProps BalProps LoadCells HistExamples
  CommModel CommInv CommProps CommViews CommMore CommExamples Adapt AdaptCases ProgramModel ProgramProps CopyProps ProgramCases
  GameSpec LifeModel LifeRing LifeGeo LifeProps.
From Coq Require Import Permutation.
Open Scope Z_scope.

Definition none : life := Life 0 empty.
Definition run_l (g : grid) (l : list (pdo (D := life))) (t : xstate (D := life) -> bool) : bool := HistExamples.holds (bind (xinitialize none g) (fun x => foldM (pdo_step none g) l x)) t.
Definition draw (lives : list Z) : pdo (D := life) := PStep (ProgramModel.Compute dft (fun c _ _ => Life (Z.b2z (mem c lives)) empty)).
Definition divide (cells : list Z) : pdo (D := life) := PStep (ProgramModel.Adapt dft (fun c _ _ => if mem c cells then [ToRefine] else []) (fun _ d => Life (on d) []) (fun _ ds => match ds with d :: _ => d | [] => none end)).
(** get_live_neighbors on all processes, cells in the order of get_cells *)
Definition cells_in (g : grid) (x : xstate (D := life)) (r : Z) : list Z := match get_cells g (x_hoods x) dft r (x_st x r) [] false with Done l => l | _ => [] end.
Definition put_back (g : grid) (x : xstate (D := life)) (s : Z -> option memory) : outcome xstate :=
  foldM (fun x r => match s r with None => Threw | Some s => foldM (fun x c => match s c with Some d => xrun none g x (Plain (Write r c d)) | None => Threw end) (cells_in g x r) x end) (ranks g) x.
Definition play (g : grid) (x : xstate (D := life)) : outcome xstate :=
  do x1 <- xrun none g x (CommModel.Update dft);
  do x2 <- put_back g x1 (fun r => first_half (g_map g) (nbrs_at g x1 r) (cells_in g x1 r) (read x1 r));
  do x3 <- xrun none g x2 (CommModel.Update dft);
  put_back g x3 (fun r => second_half (g_map g) (nbrs_at g x3 r) (cells_in g x3 r) (read x3 r)).
Definition lives_at (x : xstate (D := life)) (c : Z) : bool := match data_at x c with Some d => on d =? 1 | None => false end.

(** ** A blinker of 3 cells; the middle one and one below it are refined *)
Definition b3 : grid := Grid (update_last_cell (Mapping 3 3 1 1 0)) (Topo false false false) 1 2.
Example b3_ok : grid_ok b3. Proof. apply grid_okb; vm_compute; reflexivity. Qed.
Definition kid5 : list Z := get_all_children (g_map b3) 5.
Definition kid2 : list Z := get_all_children (g_map b3) 2.
Definition blinker : list (pdo (D := life)) := [draw [4; 5; 6]; divide [2; 5]; PMove [(nth 1 kid5 0, 1); (nth 2 kid5 0, 0); (nth 6 kid2 0, 1)]].
Example c81_example_run : run_l b3 blinker (fun x => HistExamples.holds (play b3 x) (fun y =>
  negb (forallb (fun c => eqo (owner (x_st y) 0 c) (owner (x_st y) 0 (nth 0 kid5 0))) kid5)
  && forallb (lives_at x) (4 :: 6 :: kid5) && forallb (fun c => negb (lives_at x c)) (8 :: kid2)
  && forallb (lives_at y) (8 :: kid2 ++ kid5) && forallb (fun c => negb (lives_at y c)) [1; 3; 4; 6; 7; 9])) = true.
Proof. vm_compute. reflexivity. Qed.
(** the same by the theorems: after one turn from the state of the example above, in which cells 2 and 5 are refined, a cell
    is alive exactly if it is in the middle column *)
Definition refined_5 (x : xstate (D := life)) : bool := forallb (fun c => exists_on (x_st x) 0 c) (kid2 ++ kid5).
Lemma turned_blinker i : in_board (g_map b3) i -> LifeGeo.turns (mlen (g_map b3)) (per (g_topo b3)) 1 (fun i => mem (cell_at (g_map b3) i) [4; 5; 6]) i = (get i DX =? 1).
Proof.
  intros B. pose proof (B DX) as B0. pose proof (B DY) as B1. pose proof (B DZ) as B2. change (mlen (g_map b3) DX) with 3 in B0. change (mlen (g_map b3) DY) with 3 in B1. change (mlen (g_map b3) DZ) with 1 in B2. destruct i as [i j k]. cbn [get ix iy iz] in *.
  assert (i = 0 \/ i = 1 \/ i = 2) as [->|[->| ->]] by lia; assert (j = 0 \/ j = 1 \/ j = 2) as [->|[->| ->]] by lia; assert (k = 0) as -> by lia; vm_compute; reflexivity.
Qed.
Example c81_example : exists x0 x1 x2 x3, xinitialize none b3 = Done x0 /\ exec_step none b3 x0 (ProgramModel.Compute dft (fun c _ _ => Life (Z.b2z (mem c [4; 5; 6])) empty)) x1 /\
  game_run none b3 x1 0 (Some x2) /\ life_turn none b3 x2 (Some x3) /\ (forall c, In c (kid2 ++ kid5) -> exists_on (x_st x3) 0 c = true) /\
  forall c v, shows b3 x3 c v -> on v = Z.b2z (get (position_of (g_map b3) (get_level_0_parent (g_map b3) c)) DX =? 1).
Proof.
  assert (run_l b3 blinker refined_5 = true) as A by (vm_compute; reflexivity). unfold run_l in A. apply holds_ex in A. destruct A as (x2 & E & A). apply bind_done in E. destruct E as (x0 & E0 & E). unfold blinker in E. cbn [foldM] in E. apply bind_done in E. destruct E as (x1 & E1 & E).
  pose proof (xreach_init none b3 x0 E0) as R0.
  assert (exec_step none b3 x0 (ProgramModel.Compute dft (fun c _ _ => Life (Z.b2z (mem c [4; 5; 6])) empty)) x1) as H1.
  { unfold draw in E1. cbn [pdo_step] in E1. destruct (usable x0 _); [|discriminate]. destruct (auto_step_ok none b3 b3_ok x0 (ProgramModel.Compute dft (fun c _ _ => Life (Z.b2z (mem c [4; 5; 6])) empty)) R0) as (x1' & E1' & H); [cbn [can_use]; left; reflexivity|]. rewrite E1 in E1'. injection E1' as <-. exact H. }
  destruct (c81_from_start none b3 x0 (fun c => mem c [4; 5; 6]) x1 b3_ok eq_refl E0 H1) as (R1 & I1 & F1).
  pose proof (pdo_execs none b3 b3_ok [divide [2; 5]; PMove [(nth 1 kid5 0, 1); (nth 2 kid5 0, 0); (nth 6 kid2 0, 1)]] x1 x2 R1 E) as H2.
  assert (game_run none b3 x1 0 (Some x2)) as G.
  { apply (execs_game none b3 x1 _ x2 H2); [|constructor]. constructor; [|constructor]. split; [reflexivity|]. intros c [|w ws] N; [contradiction|]. exists w. split; [left; reflexivity|reflexivity]. }
  destruct (c81_plays_the_game none b3 b3_ok eq_refl DZ x1 _ 0 _ eq_refl ltac:(discriminate) R1 I1 F1 G) as (x2' & Q & R2 & F2). injection Q as <-.
  assert (forall c, exists_on (x_st x2) 0 c = true -> get_refinement_level (g_map b3) c <= 1) as L.
  { intros c Ec. pose proof (cell_level _ (proj1 b3_ok) c (leaf_valid _ _ (proj1 (proj2 (proj2 (mesh_at none b3 b3_ok x2 R2)))) c Ec)) as Q. exact (proj2 Q). }
  destruct (c81_turn_possible none b3 b3_ok eq_refl DZ x2 _ eq_refl R2 L F2) as (x3 & T). exists x0, x1, x2, x3. split; [assumption|]. split; [assumption|]. split; [assumption|]. split; [assumption|].
  destruct (c81_turn none b3 b3_ok eq_refl DZ x2 _ _ eq_refl R2 L F2 T) as (x3' & Q & R3 & O3 & F3 & _). injection Q as <-. split.
  - intros c I. unfold exists_on. rewrite O3. unfold refined_5 in A. rewrite forallb_forall in A. apply A, I.
  - intros c v S. rewrite (F3 c v S). f_equal.
    pose proof (proj1 (shows_iff none b3 b3_ok x3 c v R3) S) as Dv. assert (ex_at x3 c = true) as Ec by (unfold ex_at, exists_on; unfold data_at in Dv; destruct (owner (x_st x3) 0 c); [reflexivity|discriminate]).
    pose proof (leaf_valid _ _ (proj1 (proj2 (proj2 (mesh_at none b3 b3_ok x3 R3)))) c Ec) as Vc. apply (turned_blinker (position_of (g_map b3) (get_level_0_parent (g_map b3) c))). apply (pos_facts (g_map b3) (proj1 b3_ok) c Vc).
Qed.
(** boards on which the game is Conway's, and one on which it is not: both neighbors of a cell are one cell on a joined board of two *)
Example c81_example_conway : forall i, in_board (g_map b3) i -> game (mlen (g_map b3)) (per (g_topo b3)) (default_hood_of 1) 1 (fun i => mem (cell_at (g_map b3) i) [4; 5; 6]) i = (get i DX =? 1).
Proof. intros i B. rewrite <- (turned_blinker i B). symmetry. apply (c81_is_conways_game (g_map b3) (g_topo b3)); [apply b3_ok|intros [] H; discriminate|assumption]. Qed.
Definition ring2 : mapping := update_last_cell (Mapping 2 2 1 0 0).
Definition corner (i : idx) : bool := (ix i =? 1) || (iy i =? 0).
Theorem c81_conway_short_board_refuted : ~ (forall m t a n i, wf m -> in_board m i -> turns (mlen m) (per t) n a i = game (mlen m) (per t) (default_hood_of 1) n a i).
Proof.
  intros H. assert (wf ring2) as Hw by (apply wfb_wf; vm_compute; reflexivity). assert (in_board ring2 (Idx 0 0 0)) as Hb by (intros []; vm_compute; split; congruence).
  specialize (H ring2 (Topo true false false) corner 1%nat (Idx 0 0 0) Hw Hb). vm_compute in H. discriminate H.
Qed.

(** ** Three dimensions *)
Lemma drawn g (Hg : grid_ok g) (Hn : g_len g = 1) lives t : run_l g [draw lives] t = true -> exists x, xreachable none g x /\ follows g x (fun i => mem (cell_at (g_map g) i) lives) /\ t x = true.
Proof.
  intros A. unfold run_l in A. apply holds_ex in A. destruct A as (x1 & E & A). apply bind_done in E. destruct E as (x0 & E0 & E). cbn [foldM] in E. apply bind_done in E. destruct E as (y & E1 & E). injection E as ->.
  pose proof (xreach_init none g x0 E0) as R0. assert (exec_step none g x0 (ProgramModel.Compute dft (fun c _ _ => Life (Z.b2z (mem c lives)) empty)) x1) as H1.
  { unfold draw in E1. cbn [pdo_step] in E1. destruct (usable x0 _); [|discriminate]. destruct (auto_step_ok none g Hg x0 (ProgramModel.Compute dft (fun c _ _ => Life (Z.b2z (mem c lives)) empty)) R0) as (x1' & E1' & K); [cbn [can_use]; left; reflexivity|]. rewrite E1 in E1'. injection E1' as <-. exact K. }
  destruct (c81_from_start none g x0 (fun c => mem c lives) x1 Hg Hn E0 H1) as (R1 & _ & F1). exists x1. auto.
Qed.
Definition stops (g : grid) (x : xstate (D := life)) : bool := match xrun none g x (CommModel.Update dft) with Done x1 =>
  match get_cells g (x_hoods x1) dft 0 (x_st x1 0) [] false with Done l => match first_half (g_map g) (nbrs_at g x1 0) l (read x1 0) with None => true | Some _ => false end | _ => false end | _ => false end.
Lemma stops_turn g x : ranks g = [0] -> stops g x = true -> life_turn none g x None.
Proof.
  intros Er A. unfold stops in A. destruct (xrun none g x (CommModel.Update dft)) as [x2| |] eqn:U; try discriminate. destruct (get_cells _ _ _ _ _ _ _) as [l| |] eqn:C; try discriminate. destruct (first_half _ _ _ _) eqn:N; [discriminate|].
  apply aborts_first with (fun _ => l) x2 0; [assumption| |rewrite Er; left; reflexivity|assumption]. intros r I. rewrite Er in I. destruct I as [<-|[]]. exists l. split; [exact C|apply Permutation_refl].
Qed.
(** the comment only asks for cells that are refined at most once, but there is room for 8 neighbors *)
Definition brick : grid := Grid (update_last_cell (Mapping 3 2 2 0 0)) (Topo false false false) 1 1.
Example brick_ok : grid_ok brick. Proof. apply grid_okb; vm_compute; reflexivity. Qed.
Lemma brick_stops : run_l brick [draw [1; 2; 3; 4; 5; 6; 7; 8; 9; 10; 11; 12]] (stops brick) = true.
Proof. vm_compute. reflexivity. Qed.
Lemma brick_levels : m_max (g_map brick) = 0. Proof. reflexivity. Qed.
Lemma brick_ranks : ranks brick = [0]. Proof. reflexivity. Qed.
Lemma brick_len : g_len brick = 1. Proof. reflexivity. Qed.
Theorem c81_three_dimensions_refuted : ~ (forall d0 g x a res, grid_ok g -> g_len g = 1 -> xreachable d0 g x -> (forall c, exists_on (x_st x) 0 c = true -> get_refinement_level (g_map g) c <= 1) -> follows g x a ->
  life_turn d0 g x res -> exists x', res = Some x').
Proof.
  intros H. pose proof brick_ok as Hg. pose proof brick_levels as Hm. pose proof brick_ranks as Hr. pose proof brick_len as Hn. pose proof brick_stops as A. revert Hg Hm Hr Hn A. generalize brick. intros g Hg Hm Hr Hn A.
  destruct (drawn g Hg Hn _ _ A) as (x & R & F & S). assert (exists x', @None (xstate (D := life)) = Some x') as (x' & Q); [|discriminate]. refine (H none g x _ None Hg Hn R _ F (stops_turn g x Hr S)).
  intros c Ec. pose proof (cell_level _ (proj1 Hg) c (leaf_valid _ _ (proj1 (proj2 (proj2 (mesh_at none g Hg x R)))) c Ec)) as [_ Q]. unfold lvl_of in Q. lia.
Qed.
