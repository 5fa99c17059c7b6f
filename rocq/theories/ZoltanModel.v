(** Model of the functions through which Zoltan reads the grid: dccrg.hpp:11766-12275.
    Definitions only.

    Arrays given by Zoltan are the lists of the values written to them.  The int counters do not
    overflow here.  Weights are opaque as in RefineModel, before their conversion to float.  The
    order of cells is that of the iteration over cell_data, the same in all functions since
    nothing changes cell_data between them. *)
From Verif Require Import U64 MapModel HoodModel MeshModel Sets RefineModel.
Open Scope Z_scope.

Section Zoltan.
Context {D : Type}.
(** the width of ZOLTAN_ID_TYPE, to which ids of cells are converted *)
Context (bits : Z).
Definition zid (c : Z) : Z := c mod 2 ^ bits.

(** dccrg.hpp:11840-11857 *)
Definition zo_number_of_cells (p : proc D) : Z := Z.of_nat (length (s_data (p_store p))).
(** dccrg.hpp:11865-11916; OBJ_WEIGHT_DIM is 1 (line 7906) *)
Definition zo_cell_list (one : Z) (p : proc D) : list Z * list Z :=
  (map zid (keys (s_data (p_store p))),
   map (fun c => match find c (s_wt (p_store p)) with Some w => w | None => one end) (keys (s_data (p_store p)))).

(** None is ZOLTAN_FATAL; what was written before is not used then *)
Definition zo_each {A} (f : Z -> outcome (option A)) (ids : list Z) : outcome (option (list A)) :=
  fold_right (fun c rest => do x <- f c; match x with
    | None => Done None
    | Some a => do r <- rest; Done (match r with None => None | Some l => Some (a :: l) end) end) (Done (Some [])) ids.
(** dccrg.hpp:11791-11831; [center] is geometry.get_center *)
Definition zo_coordinates {A} (center : Z -> A) (p : proc D) (ids : list Z) : outcome (option (list A)) :=
  zo_each (fun c => Done (if has c (s_data (p_store p)) then Some (center c) else None)) ids.

(** neighbors other than 0 and the cell itself *)
Definition zo_others (c : Z) (l : list (Z * idx)) : list Z :=
  filter (fun n => negb (n =? 0) && negb (n =? c)) (map fst l).
(** dccrg.hpp:11924-11971 *)
Definition zo_number_of_neighbors (p : proc D) (ids : list Z) : outcome (option (list Z)) :=
  zo_each (fun c => if negb (has c (s_data (p_store p))) then Done None else
    do l <- at_ c (k_of (p_cache p)); Done (Some (Z.of_nat (length (zo_others c l))))) ids.
(** dccrg.hpp:11979-12046: numbers of neighbors, neighbors, their processes; EDGE_WEIGHT_DIM is 0 *)
Definition zo_neighbor_lists (p : proc D) (ids : list Z) : outcome (option (list Z * list Z * list Z)) :=
  do r <- zo_each (fun c => if negb (has c (s_data (p_store p))) then Done None else
    do l <- at_ c (k_of (p_cache p));
    do procs <- mapM (fun n => at_ n (s_proc (p_store p))) (zo_others c l);
    Done (Some (zo_others c l, procs))) ids;
  Done (match r with None => None | Some l =>
    Some (map (fun x => Z.of_nat (length (fst x))) l, map zid (flat_map fst l), flat_map snd l) end).

(** dccrg.hpp:12054-12096 *)
Definition zo_number_of_hyperedges (p : proc D) : outcome (Z * Z) :=
  do n <- foldM (fun n c => do l <- at_ c (k_of (p_cache p)); Done (n + 1 + Z.of_nat (length (zo_others c l))))
    (keys (s_data (p_store p))) 0;
  Done (Z.of_nat (length (s_data (p_store p))), n).
(** dccrg.hpp:12104-12180: hyperedges, offsets, connections; format is whether it is ZOLTAN_COMPRESSED_EDGE *)
Fixpoint zo_edges (p : proc D) (cells : list Z) (number : Z) : outcome (list Z * list Z * list Z) :=
  match cells with
  | [] => Done ([], [], [])
  | c :: r =>
    do l <- at_ c (k_of (p_cache p));
    do x <- zo_edges p r (number + 1 + Z.of_nat (length (zo_others c l)));
    let '(es, os, cs) := x in Done (zid c :: es, number :: os, map zid (c :: zo_others c l) ++ cs)
  end.
Definition zo_hyperedges (p : proc D) (format : bool) (hyperedges connections : Z) : outcome (option (list Z * list Z * list Z)) :=
  if negb format then Done None else
  if negb (hyperedges mod 2 ^ 32 =? Z.of_nat (length (s_data (p_store p)))) then Done None else
  do x <- zo_edges p (keys (s_data (p_store p))) 0;
  let '(es, os, cs) := x in Done (if Z.of_nat (length cs) =? connections then Some (es, os, cs) else None).
(** dccrg.hpp:12188-12207 *)
Definition zo_number_of_edge_weights (p : proc D) : Z := Z.of_nat (length (s_data (p_store p))).
(** dccrg.hpp:12215-12275: hyperedges and their weights *)
Definition zo_edge_weights (p : proc D) (hyperedges : Z) : outcome (option (list Z * list Z)) :=
  if negb (hyperedges mod 2 ^ 32 =? Z.of_nat (length (s_data (p_store p)))) then Done None else
  do ws <- mapM (fun c => do l <- at_ c (k_of (p_cache p)); Done (Z.of_nat (length (zo_others c l)))) (keys (s_data (p_store p)));
  Done (Some (map zid (keys (s_data (p_store p))), ws)).
End Zoltan.
