(** The game of life on grids with cells of different sizes: get_live_neighbors of
    /repo/tests/game_of_life/solve.hpp and the loop around it in unrefined2d.cpp. *)
From Verif Require Import U64 MapModel MapSpec MapProofs MapFamily MapProps HoodModel MeshModel
  MeshSpec MeshBase HoodProps Sets RefineModel BalanceModel Create History CommModel CommInv ProgramModel.
From Coq Require Import Permutation.
Open Scope Z_scope.

(** cell.hpp:34-44: data[0], and data[1] ... data[8] *)
Record life := Life { on : Z; ring : list Z }.
(** cleared list: solve.hpp:56-58, 163 *)
Definition empty : list Z := repeat error_cell 8.

(** Adding p to a list: solve.hpp:94-104 and 133-147.  The second compares with error_cell first, which is the
    same.  None is abort() for lack of room. *)
Fixpoint record (p : Z) (r : list Z) : option (list Z) :=
  match r with
  | [] => None
  | e :: r' => if e =? p then Some r else if e =? error_cell then Some (p :: r') else option_map (cons e) (record p r')
  end.

(** what grid[c] points to on one process: own cells and copies of remote cells *)
Definition memory : Type := Z -> option life.
Definition put (s : memory) (c : Z) (d : life) : memory := fun y => if y =? c then Some d else s y.

Section Solve.
Context (m : mapping).
Notation l0 := (get_level_0_parent m).
(** *** The neighbor counts: solve.hpp:45-108 *)
(** one neighbor of cell c: solve.hpp:63-107.  None is abort(). *)
Definition hear (s : memory) (c : Z) (r : option (list Z)) (n : Z) : option (list Z) :=
  match r with
  | None => None
  | Some r =>
    if n =? error_cell then Some r else if l0 n =? l0 c then Some r
    else match s n with
    | None => None
    | Some d => if on d =? 0 then (if existsb (fun e => e =? l0 n) r then None else Some r) else record (l0 n) r
    end
  end.
(** one cell; nbrs c is the list that get_neighbors_of(c) points to, None a null pointer *)
Definition listen (nbrs : Z -> option (list Z)) (s : option memory) (c : Z) : option memory :=
  match s with
  | None => None
  | Some s =>
    match s c, nbrs c with
    | Some d, Some ns => match fold_left (hear s c) ns (Some empty) with Some r => Some (put s c (Life (on d) r)) | None => None end
    | _, _ => None
    end
  end.
(** *** Spreading between siblings: solve.hpp:112-150 *)
(** the entries of a neighbor's list: solve.hpp:128-148 *)
Fixpoint pour (from to : list Z) : option (list Z) :=
  match from with
  | [] => Some to
  | e :: f => if e =? error_cell then Some to else match record e to with Some r => pour f r | None => None end
  end.
(** one neighbor of cell c: solve.hpp:118-149.  Lists of local siblings may have been changed already by this loop. *)
Definition ask (c : Z) (s : option memory) (n : Z) : option memory :=
  match s with
  | None => None
  | Some s =>
    if n =? error_cell then Some s else if negb (l0 c =? l0 n) then Some s
    else match s c, s n with
    | Some d, Some dn => match pour (ring dn) (ring d) with Some r => Some (put s c (Life (on d) r)) | None => None end
    | _, _ => None
    end
  end.
Definition share (nbrs : Z -> option (list Z)) (s : option memory) (c : Z) : option memory :=
  match nbrs c with Some ns => fold_left (ask c) ns s | None => None end.
(** *** The next turn: solve.hpp:153-170 *)
Definition count (r : list Z) : Z := Z.of_nat (length (filter (fun e => negb (e =? error_cell)) r)).
Definition decide (d : life) : life :=
  Life (if count (ring d) =? 3 then 1 else if negb (count (ring d) =? 2) then 0 else on d) (map (fun _ => error_cell) (ring d)).
Definition settle (s : option memory) (c : Z) : option memory :=
  match s with Some s => match s c with Some d => Some (put s c (decide d)) | None => None end | None => None end.

(** before and after update_copies_of_remote_neighbors() in get_live_neighbors, on one process *)
Definition first_half (nbrs : Z -> option (list Z)) (cells : list Z) (s : memory) : option memory := fold_left (listen nbrs) cells (Some s).
Definition second_half (nbrs : Z -> option (list Z)) (cells : list Z) (s : memory) : option memory := fold_left settle cells (fold_left (share nbrs) cells (Some s)).
End Solve.

(** ** All processes *)
Section Turn.
Context (d0 : life) (g : grid).
Notation state := (xstate (D := life)).
Notation did := default_neighborhood_id.
Definition nbrs_at (x : state) (r c : Z) : option (list Z) :=
  match get_neighbors_of g (x_hoods x) did r (x_st x r) c with Done (Some l) => Some (map fst l) | _ => None end.
(** get_cells() in any order: solve.hpp:43 *)
Definition cells_of (x : state) (r : Z) (cells : list Z) : Prop :=
  exists l, get_cells g (x_hoods x) did r (x_st x r) [] false = Done l /\ Permutation l cells.
(** own cells hold the values in s: l has all of them in some order *)
Definition stored (cells : Z -> list Z) (s : Z -> memory) (l : list (Z * Z * life)) : Prop :=
  forall r c v, In (r, c, v) l <-> In r (ranks g) /\ In c (cells r) /\ s r c = Some v.

(** update_copies_of_remote_neighbors() and get_live_neighbors() on all processes (unrefined2d.cpp:197, 222).
    The result is None when some process aborts. *)
Inductive life_turn (x : state) : option state -> Prop :=
| aborts_first cells x1 r : xrun d0 g x (CommModel.Update did) = Done x1 -> (forall r, In r (ranks g) -> cells_of x1 r (cells r)) ->
    In r (ranks g) -> first_half (g_map g) (nbrs_at x1 r) (cells r) (read x1 r) = None -> life_turn x None
| aborts_second cells x1 s1 l1 x2 x3 r : xrun d0 g x (CommModel.Update did) = Done x1 -> (forall r, In r (ranks g) -> cells_of x1 r (cells r)) ->
    (forall r, In r (ranks g) -> first_half (g_map g) (nbrs_at x1 r) (cells r) (read x1 r) = Some (s1 r)) -> stored cells s1 l1 -> calls d0 g x1 (writes l1) x2 ->
    xrun d0 g x2 (CommModel.Update did) = Done x3 ->
    In r (ranks g) -> second_half (g_map g) (nbrs_at x3 r) (cells r) (read x3 r) = None -> life_turn x None
| plays_on cells x1 s1 l1 x2 x3 s3 l3 x4 : xrun d0 g x (CommModel.Update did) = Done x1 -> (forall r, In r (ranks g) -> cells_of x1 r (cells r)) ->
    (forall r, In r (ranks g) -> first_half (g_map g) (nbrs_at x1 r) (cells r) (read x1 r) = Some (s1 r)) -> stored cells s1 l1 -> calls d0 g x1 (writes l1) x2 ->
    xrun d0 g x2 (CommModel.Update did) = Done x3 ->
    (forall r, In r (ranks g) -> second_half (g_map g) (nbrs_at x3 r) (cells r) (read x3 r) = Some (s3 r)) -> stored cells s3 l3 -> calls d0 g x3 (writes l3) x4 ->
    life_turn x (Some x4).

(** refine.hpp:60-131: requests for any cells, commit, data[0] of new cells from their parent, data[0] of merged cells
    from one of their former children.  Nothing is said about data[1] ... data[8] of new cells. *)
Definition keeps_life (s : pstep life) : Prop :=
  match s with
  | ProgramModel.Adapt _ _ kid par => (forall c w, on (kid c w) = on w) /\ forall c ws, ws <> [] -> exists w, In w ws /\ on (par c ws) = on w
  | _ => False
  end.
(** any number of turns, with changes of the grid and load balancing in between: unrefined2d.cpp:189-248 *)
Inductive game_run (x : state) : nat -> option state -> Prop :=
| run_start : game_run x 0 (Some x)
| run_adapt n x1 s x2 : game_run x n (Some x1) -> keeps_life s -> exec_step d0 g x1 s x2 -> game_run x n (Some x2)
| run_house n x1 a x2 : game_run x n (Some x1) -> housekeeping a -> xallowed g x1 a -> xrun d0 g x1 a = Done x2 -> game_run x n (Some x2)
| run_turn n x1 res : game_run x n (Some x1) -> life_turn x1 res -> game_run x (S n) res.
End Turn.
