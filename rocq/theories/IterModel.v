(** The items which iterators give to users: their data pointers and the additional items that
    users have calculated for cells and neighbors, and the calls that make them anew.
    Definitions only.

    The iterators of a neighborhood are made by update_cell_pointers and kept until the next
    time it is called for that neighborhood, which happens at the end of initialize
    (dccrg.hpp:544), of a commit of refinement (10730-10745), of load balancing (4185-4200) and
    of add_neighborhood (6685).  A data pointer is what operator[] gives at that time (11511,
    11617, 11637, 11657).  Additional items are template arguments whose update functions are
    given the grid and the item (11513, 11620, 7489-7573); what they calculate is a parameter of
    the model and may depend on the geometry and on everything else the process knows. *)
From Verif Require Import U64 MapModel HoodModel MeshModel Sets RefineModel BalanceModel History CommModel CommViews.
Open Scope Z_scope.

(** the container an element of which a pointer points to *)
Inductive place := Own | Copied | Refined | Unrefined.

(** what users are shown for one neighborhood on one process: cells with data pointer and
    additional item, and for each of them its neighbors in the same way *)
Record shown (X N : Type) := Shown {
  sh_views : views;
  sh_cells : list (cell_item * option place * X);
  sh_nbrs : list (cell_item * list (Z * idx * option place * N)) }.
Arguments Shown {X N}.
Arguments sh_views {X N}.
Arguments sh_cells {X N}.
Arguments sh_nbrs {X N}.

Section Model.
Context {D : Type} (d0 : D) (g : grid).
Notation state := (xstate (D := D)).

(** dccrg.hpp:768-781 operator[] *)
Definition pointer (x : state) (r c : Z) : option place :=
  let s := p_store (x_st x r) in
  if has c (s_data s) then Some Own else
  if has c (x_copies x r) then Some Copied else
  if has c (s_refd s) then Some Refined else
  if has c (s_unrefd s) then Some Unrefined else None.
(** the data at the place pointed to; None if there is none any more *)
Definition follow (x : state) (r c : Z) (p : place) : option D :=
  let s := p_store (x_st x r) in
  match p with
  | Own => find c (s_data s) | Copied => find c (x_copies x r)
  | Refined => find c (s_refd s) | Unrefined => find c (s_unrefd s) end.
(** between initialize_balance_load and finish_balance_load: cell_data has the data of arriving
    and leaving cells, the other containers have been cleared (dccrg.hpp:3887-3891) *)
Definition follow_moving (mv : Z -> moving (D := D)) (r c : Z) (p : place) : option D :=
  match p with Own => find c (s_data (v_store (mv r))) | _ => None end.

(** G: geometry; X, N: additional items of a cell (geometry, state, rank, cell) and of a neighbor
    (also neighborhood id, cell and the neighbor with its offset) *)
Context {G X N : Type} (cmark : G -> state -> Z -> Z -> X) (nmark : G -> state -> Z -> Z -> Z -> Z * idx -> N).

(** dccrg.hpp:11418-11732 *)
Definition fresh (geo : G) (x : state) (id r : Z) : outcome (shown X N) :=
  do v <- iterators g x id r;
  Done (Shown v
    (map (fun i => (i, pointer x r (i_id i), cmark geo x r (i_id i))) (view_cells v))
    (map (fun i => (i, map (fun e => (e, pointer x r (fst e), nmark geo x r id (i_id i) e)) (view_all v i))) (view_cells v))).

Record cstate := CState { c_geo : G; c_x : state; c_shown : Z -> Z -> option (shown X N) }.

(** update_cell_pointers, update_cell_pointers_user (dccrg.hpp:11739-11769) of all processes for
    one neighborhood and for several *)
Definition renew (geo : G) (x : state) (id : Z) : outcome (Z -> option (shown X N)) :=
  each g (fun r => do s <- fresh geo x id r; Done (Some s)) (fun _ => None).
Definition renew_all (geo : G) (x : state) (ids : list Z) (old : Z -> Z -> option (shown X N)) : outcome (Z -> Z -> option (shown X N)) :=
  foldM (fun sh id => do f <- renew geo x id; Done (fun j => if j =? id then f else sh j)) ids old.

(** the neighborhoods whose iterators a call makes anew, x' is the state after it *)
Definition renewed (x : state) (a : xcall (D := D)) (x' : state) : list Z :=
  let all := default_neighborhood_id :: map fst (x_hoods x') in
  match a with
  | Plain Stop | Plain (LoadBalance _ _) => all                                   (* 10730-10745, 4185-4200 *)
  | Plain (History.Load given) => if loads_nothing g (x_st x) given then [] else all
  | AddNeighborhood id items => if fst (add_neighborhood (g_len g) (x_hoods x) id items) then [id] else []   (* 6685 *)
  | _ => []
  end.

Inductive ccall := OnGrid (a : xcall (D := D)) | SetGeometry (geo : G).
Definition crun (c : cstate) (a : ccall) : outcome cstate :=
  match a with
  | OnGrid a =>
    do x <- xrun d0 g (c_x c) a;
    do sh <- renew_all (c_geo c) x (renewed (c_x c) a x) (c_shown c);
    Done (CState (c_geo c) x sh)
  | SetGeometry geo => Done (CState geo (c_x c) (c_shown c))                      (* dccrg.hpp:586-600 *)
  end.
Definition callowed (c : cstate) (a : ccall) : Prop :=
  match a with OnGrid a => xallowed g (c_x c) a | SetGeometry _ => True end.
(** dccrg.hpp:485-562 with the geometry of a new grid *)
Definition cinitialize (geo : G) : outcome cstate :=
  do x <- xinitialize d0 g;
  do sh <- renew_all geo x [default_neighborhood_id] (fun _ _ => None);
  Done (CState geo x sh).

(** the state after a list of calls *)
Inductive creached : list ccall -> cstate -> Prop :=
| creached_init geo c : cinitialize geo = Done c -> creached [] c
| creached_step l c a c' : creached l c -> callowed c a -> crun c a = Done c' -> creached (l ++ [a]) c'.
End Model.
Arguments CState {D G X N}.
Arguments c_geo {D G X N}.
Arguments c_x {D G X N}.
Arguments c_shown {D G X N}.
