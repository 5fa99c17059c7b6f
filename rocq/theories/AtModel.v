(** Model of the calls that take a coordinate instead of a cell: dccrg.hpp:3450-3527, 6479-6499.
    Definitions only. *)
From Verif Require Import U64 MapModel HoodModel MeshModel Sets RefineModel GeoModel.
Open Scope Z_scope.

Section At.
Context {D : Type} (g : grid).
Notation m := (g_map g).

(** dccrg.hpp:6490-6498; [i] is what geometry.get_indices returns for the coordinate *)
Definition existing_at (p : proc D) (i : idx) : Z :=
  if (ix i =? error_index) || (iy i =? error_index) || (iz i =? error_index) then error_cell
  else get_existing_cell (exb (p_store p)) m i 0 (m_max m).
(** the common body of the three functions below *)
Definition request_at (call : proc D -> Z -> outcome (bool * reqs)) (p : proc D) (i : idx) : outcome (bool * reqs) :=
  let cell := existing_at p i in
  if cell =? error_cell then Done (false, p_req p) else call p cell.
Definition refine_completely_at := request_at (refine_completely g).       (* 3456-3473 *)
Definition unrefine_completely_at := request_at (unrefine_completely g).   (* 3482-3499 *)
Definition dont_unrefine_at := request_at (dont_unrefine g).               (* 3508-3525 *)
End At.
