(** C83: concrete runs of propagate_particles, and what it does not do. *)
From Verif Require Import U64 MapModel MapSpec MapProofs MapFamily MapProps HoodModel MeshModel
  MeshSpec MeshBase HoodProps MeshWalk MeshFind MeshKids MeshItem MeshCheck MeshTo MeshNear MeshFace
  Sets RefineModel RefineGeo RefineInv RefineSpread RefineMerge RefineFold RefineExec RefineStop RefineNear
  BalanceModel RefineReqs Create Balance History HistProps CommitProps BalProps LoadCells HistExamples CommModel CommInv CommProps CommViews CommMore CommExamples Stages ParticleModel ParticleProps ParticleRun.
From Coq Require Import Permutation.
Open Scope Z_scope.

(** cells of length 1 in a row; a particle is its x coordinate in tenths, vx = 0.1 as in simple.cpp:54 *)
Definition step_x (p : Z) : Z := p + 1.
Definition wrap_x (n : Z) (p : Z) : Z := p mod (10 * n).
Definition cell_x (p : Z) : Z := p / 10 + 1.
Lemma wrap_twice n p : wrap_x n (wrap_x n p) = wrap_x n p. Proof. apply Zmod_mod. Qed.
Definition row (n np : Z) (side : bool) : grid := Grid (update_last_cell (Mapping n 1 1 0 1)) (Topo true side side) 1 np.
(** the grid of simple.cpp:222-228, periodic in all directions *)
Definition program_grid : grid := row 3 1 true.
Definition nobody : pdata Z := PData 0 [].
Definition here (l : list Z) : pdata Z := PData (Z.of_nat (length l)) l.
Definition start_with (r c : Z) (l : list Z) : list (xstep (D := pdata Z)) := [XDo (Plain (Write r c (here l))); XDo (CommModel.Update default_neighborhood_id)].
Definition run (n : Z) (g : grid) (x : xstate (D := pdata Z)) (r : Z) : option (pmemory Z) := match iterators g x default_neighborhood_id r with Done v => propagate step_x (wrap_x n) cell_x (items_of v) (read x r) | _ => None end.
Fixpoint same (a b : list Z) : bool := match a, b with [], [] => true | x :: a, y :: b => (x =? y) && same a b | _, _ => false end.
Lemma same_eq a : forall b, same a b = true -> a = b.
Proof. induction a as [|x a IH]; intros [|y b] E; try discriminate; [reflexivity|]. cbn [same] in E. apply andb_true_iff in E. destruct E as [E1 E2]. apply Z.eqb_eq in E1. rewrite E1, (IH b E2). reflexivity. Qed.
Definition shows (u : option (pmemory Z)) (c : Z) (l : list Z) : bool := match u with Some u => match u c with Some d => same (particles d) l && (number d =? Z.of_nat (length l)) | None => false end | None => false end.
Lemma shows_eq u c l : shows (Some u) c l = true -> u c = Some (here l).
Proof. unfold shows. destruct (u c) as [[n k]|]; [|discriminate]. cbn [particles number]. intros E. apply andb_true_iff in E. destruct E as [E1 E2]. apply same_eq in E1. apply Z.eqb_eq in E2. subst. reflexivity. Qed.
Example row_ok : grid_ok program_grid. Proof. apply grid_okb; vm_compute; reflexivity. Qed.
(** one particle at 0.9 moves from cell 1 to cell 2, and one at 2.9 from cell 3 to cell 1 *)
Definition two_move : list (xstep (D := pdata Z)) := start_with 0 1 [9; 5] ++ start_with 0 3 [29].
Example c83_example_moves : exists x u, xreachable nobody (row 3 1 false) x /\ run 3 (row 3 1 false) x 0 = Some u /\ u 1 = Some (here [6; 0]) /\ u 2 = Some (here [10]) /\ u 3 = Some (here []).
Proof.
  destruct (xgo_holds nobody (row 3 1 false) two_move (fun x => let u := run 3 (row 3 1 false) x 0 in shows u 1 [6; 0] && shows u 2 [10] && shows u 3 [])) as (x & R & B); [vm_compute; reflexivity|].
  cbv zeta in B. destruct (run 3 (row 3 1 false) x 0) as [u|] eqn:E; [|discriminate]. rewrite !andb_true_iff in B. destruct B as [[B1 B2] B3]. exists x, u. split; [assumption|]. split; [assumption|]. apply shows_eq in B1, B2, B3. auto.
Qed.
(** In the grid of the program cell 2 is nine times a neighbor of cell 1, with different offsets: the particle becomes nine *)
Theorem c83_no_particles_made_refuted : exists x u, xreachable nobody program_grid x /\ read x 0 1 = Some (here [9]) /\ read x 0 2 = Some nobody /\ run 3 program_grid x 0 = Some u /\ u 1 = Some (here []) /\ u 2 = Some (here (repeat 10 9)).
Proof.
  destruct (xgo_holds nobody program_grid (start_with 0 1 [9]) (fun x => let u := run 3 program_grid x 0 in shows u 1 [] && shows u 2 (repeat 10 9) && shows (Some (read x 0)) 1 [9] && shows (Some (read x 0)) 2 [])) as (x & R & B); [vm_compute; reflexivity|].
  cbv zeta in B. destruct (run 3 program_grid x 0) as [u|] eqn:E; [|discriminate]. rewrite !andb_true_iff in B. destruct B as [[[B1 B2] B3] B4]. apply shows_eq in B1, B2, B3, B4. exists x, u. auto 10.
Qed.
(** The particle after one that leaves is passed by: it stays in the list of a cell that it is not inside of *)
Theorem c83_every_particle_moves_refuted : exists x u, xreachable nobody (row 3 1 false) x /\ read x 0 1 = Some (here [9; 9]) /\ run 3 (row 3 1 false) x 0 = Some u /\ u 1 = Some (here [10]) /\ u 2 = Some (here [10]) /\ cell_x 10 = 2.
Proof.
  destruct (xgo_holds nobody (row 3 1 false) (start_with 0 1 [9; 9]) (fun x => let u := run 3 (row 3 1 false) x 0 in shows u 1 [10] && shows u 2 [10] && shows (Some (read x 0)) 1 [9; 9])) as (x & R & B); [vm_compute; reflexivity|].
  cbv zeta in B. destruct (run 3 (row 3 1 false) x 0) as [u|] eqn:E; [|discriminate]. rewrite !andb_true_iff in B. destruct B as [[B1 B2] B3]. apply shows_eq in B1, B2, B3. exists x, u. auto 10.
Qed.
(** On more cells than the program has, a copy whose particle enters a cell that the process does not have ends the
    program with a null pointer: here process 0 has cells 1 and 2 and copies of 3 and 6, and the particle enters 4 *)
Theorem c83_copies_work_refuted : exists x, xreachable nobody (row 6 3 false) x /\ read x 1 3 = Some (here [29]) /\ read x 0 3 = Some (here [29]) /\ read x 0 4 = None /\ run 6 (row 6 3 false) x 0 = None /\
  exists u, run 6 (row 6 3 false) x 1 = Some u /\ u 4 = Some (here [30]).
Proof.
  destruct (xgo_holds nobody (row 6 3 false) (start_with 1 3 [29]) (fun x => shows (run 6 (row 6 3 false) x 1) 4 [30] && match run 6 (row 6 3 false) x 0, read x 0 4 with None, None => true | _, _ => false end && shows (Some (read x 1)) 3 [29] && shows (Some (read x 0)) 3 [29])) as (x & R & B); [vm_compute; reflexivity|].
  rewrite !andb_true_iff in B. destruct B as [[[B1 B2] B3] B4]. apply shows_eq in B3, B4. exists x. destruct (run 6 (row 6 3 false) x 0); [discriminate|]. destruct (read x 0 4); [discriminate|]. destruct (run 6 (row 6 3 false) x 1) as [u|]; [|discriminate]. apply shows_eq in B1.
  split; [assumption|]. split; [assumption|]. split; [assumption|]. split; [reflexivity|]. split; [reflexivity|]. exists u. auto.
Qed.
(** one particle on one and on three processes *)
Example c83_example_same : exists x x' u u', xreachable nobody (row 3 1 false) x /\ xreachable nobody (row 3 3 false) x' /\ run 3 (row 3 1 false) x 0 = Some u /\ run 3 (row 3 3 false) x' 1 = Some u' /\
  owner (x_st x) 0 2 = Some 0 /\ owner (x_st x') 1 2 = Some 1 /\ u 2 = Some (here [18; 10]) /\ u' 2 = Some (here [18; 10]).
Proof.
  destruct (xgo_holds nobody (row 3 1 false) (start_with 0 1 [9] ++ start_with 0 2 [17]) (fun x => shows (run 3 (row 3 1 false) x 0) 2 [18; 10] && match owner (x_st x) 0 2 with Some q => q =? 0 | None => false end)) as (x & R & B); [vm_compute; reflexivity|].
  destruct (xgo_holds nobody (row 3 3 false) (start_with 0 1 [9] ++ start_with 1 2 [17]) (fun x => shows (run 3 (row 3 3 false) x 1) 2 [18; 10] && match owner (x_st x) 1 2 with Some q => q =? 1 | None => false end)) as (x' & R' & B'); [vm_compute; reflexivity|].
  apply andb_true_iff in B, B'. destruct B as [B O], B' as [B' O']. destruct (run 3 (row 3 1 false) x 0) as [u|] eqn:E; [|discriminate]. destruct (run 3 (row 3 3 false) x' 1) as [u'|] eqn:E'; [|discriminate].
  destruct (owner (x_st x) 0 2) as [q|] eqn:Q; [|discriminate]. destruct (owner (x_st x') 1 2) as [q'|] eqn:Q'; [|discriminate]. apply Z.eqb_eq in O, O'. subst q q'. apply shows_eq in B, B'. exists x, x', u, u'. auto 10.
Qed.
(** A second step can differ between numbers of processes: particles that enter cell 2 from both sides are in the order in
    which the process visits cells 1 and 3, and when both leave it the second one is not looked at.  The particle at 0.9
    goes to 1.4 and then 2.7, the one at 2.5 to 1.6 and then 2.8. *)
Definition two_steps (p : Z) : Z := if p =? 9 then 14 else if p =? 25 then 16 else if p =? 14 then 27 else if p =? 16 then 28 else p.
Definition run_two (g : grid) (x : xstate (D := pdata Z)) (r : Z) : option (pmemory Z) := match iterators g x default_neighborhood_id r with Done v => propagate two_steps (wrap_x 3) cell_x (items_of v) (read x r) | _ => None end.
Theorem c83_same_after_two_steps_refuted : exists x x' y y' u u' w w',
  xreachable nobody (row 3 1 false) x /\ xreachable nobody (row 3 3 false) x' /\ xreachable nobody (row 3 1 false) y /\ xreachable nobody (row 3 3 false) y' /\
  (read x 0 1 = Some (here [9]) /\ read x 0 2 = Some nobody /\ read x 0 3 = Some (here [25])) /\ (read x' 1 1 = Some (here [9]) /\ read x' 1 2 = Some nobody /\ read x' 1 3 = Some (here [25])) /\
  run_two (row 3 1 false) x 0 = Some u /\ run_two (row 3 3 false) x' 1 = Some u' /\ u 2 = Some (here [14; 16]) /\ u' 2 = Some (here [16; 14]) /\
  (forall c, In c [1; 2; 3] -> read y 0 c = u c) /\ (forall c, In c [1; 2; 3] -> read y' 1 c = u' c) /\
  run_two (row 3 1 false) y 0 = Some w /\ run_two (row 3 3 false) y' 1 = Some w' /\ w 2 = Some (here [28]) /\ w' 2 = Some (here [27]).
Proof.
  destruct (xgo_holds nobody (row 3 1 false) (start_with 0 1 [9] ++ start_with 0 3 [25]) (fun x => let u := run_two (row 3 1 false) x 0 in let s := Some (read x 0) in shows u 2 [14; 16] && shows u 1 [] && shows u 3 [] && shows s 1 [9] && shows s 2 [] && shows s 3 [25])) as (x & R & B); [vm_compute; reflexivity|].
  destruct (xgo_holds nobody (row 3 3 false) (start_with 0 1 [9] ++ start_with 2 3 [25]) (fun x => let u := run_two (row 3 3 false) x 1 in let s := Some (read x 1) in shows u 2 [16; 14] && shows u 1 [] && shows u 3 [] && shows s 1 [9] && shows s 2 [] && shows s 3 [25])) as (x' & R' & B'); [vm_compute; reflexivity|].
  destruct (xgo_holds nobody (row 3 1 false) (start_with 0 2 [14; 16]) (fun x => let s := Some (read x 0) in shows (run_two (row 3 1 false) x 0) 2 [28] && shows s 1 [] && shows s 2 [14; 16] && shows s 3 [])) as (y & Ry & C); [vm_compute; reflexivity|].
  destruct (xgo_holds nobody (row 3 3 false) (start_with 1 2 [16; 14]) (fun x => let s := Some (read x 1) in shows (run_two (row 3 3 false) x 1) 2 [27] && shows s 1 [] && shows s 2 [16; 14] && shows s 3 [])) as (y' & Ry' & C'); [vm_compute; reflexivity|].
  cbv zeta in *. rewrite !andb_true_iff in B. rewrite !andb_true_iff in B'. rewrite !andb_true_iff in C. rewrite !andb_true_iff in C'. destruct B as [[[[[B1 B2] B3] B4] B5] B6], B' as [[[[[B1' B2'] B3'] B4'] B5'] B6'], C as [[[C1 C2] C3] C4], C' as [[[C1' C2'] C3'] C4'].
  destruct (run_two (row 3 1 false) x 0) as [u|] eqn:E; [|discriminate]. destruct (run_two (row 3 3 false) x' 1) as [u'|] eqn:E'; [|discriminate]. destruct (run_two (row 3 1 false) y 0) as [w|] eqn:F; [|discriminate]. destruct (run_two (row 3 3 false) y' 1) as [w'|] eqn:F'; [|discriminate].
  apply shows_eq in B1, B2, B3, B4, B5, B6, B1', B2', B3', B4', B5', B6', C1, C2, C3, C4, C1', C2', C3', C4'. exists x, x', y, y', u, u', w, w'. do 4 (split; [assumption|]). split; [auto|]. split; [auto|]. do 4 (split; [assumption|]).
  split; [|split; [|split; [assumption|split; [assumption|split; assumption]]]]; intros c [<-|[<-|[<-|[]]]]; congruence.
Qed.
(** the copy on process 1 has no particles before the transfers, and afterwards those of cell 1 on process 0 *)
Example c83_example_transfers : exists x x1 x2, xreachable nobody (row 3 3 false) x /\ read x 1 1 = Some nobody /\ read x 0 1 = Some (here [9; 5]) /\
  update_with nobody (row 3 3 false) numbers_sent x default_neighborhood_id = Done x1 /\ read x1 1 1 = Some (PData 2 []) /\
  update_with nobody (row 3 3 false) (particles_sent 0) x1 default_neighborhood_id = Done x2 /\ read x2 1 1 = Some (here [9; 5]).
Proof.
  destruct (xgo_holds nobody (row 3 3 false) [XDo (Plain (Write 0 1 (here [9; 5])))] (fun x => shows (Some (read x 1)) 1 [] && shows (Some (read x 0)) 1 [9; 5] && match update_with nobody (row 3 3 false) numbers_sent x default_neighborhood_id with
    | Done x1 => match read x1 1 1 with Some d => (number d =? 2) && same (particles d) [] | None => false end && match update_with nobody (row 3 3 false) (particles_sent 0) x1 default_neighborhood_id with Done x2 => shows (Some (read x2 1)) 1 [9; 5] | _ => false end
    | _ => false end)) as (x & R & B); [vm_compute; reflexivity|].
  rewrite !andb_true_iff in B. destruct B as [[B1 B2] B3]. apply shows_eq in B1, B2. destruct (update_with nobody (row 3 3 false) numbers_sent x default_neighborhood_id) as [x1| |] eqn:E1; try discriminate. rewrite andb_true_iff in B3. destruct B3 as [B3 B4].
  destruct (update_with nobody (row 3 3 false) (particles_sent 0) x1 default_neighborhood_id) as [x2| |] eqn:E2; try discriminate. apply shows_eq in B4. exists x, x1, x2. do 4 (split; [assumption|]). split; [|split; assumption].
  destruct (read x1 1 1) as [[n k]|]; [|discriminate]. cbn [number particles] in B3. apply andb_true_iff in B3. destruct B3 as [N S]. apply Z.eqb_eq in N. apply same_eq in S. subst. reflexivity.
Qed.
