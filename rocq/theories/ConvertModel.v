(** Model of examples/dc2vtk.cpp, which turns files saved by game_of_life_with_output.cpp into vtk files.
    Definitions only.  Errors of MPI and files that cannot be opened are not modelled, neither are
    offsets beyond 2^63. *)
From Coq Require Import QArith.
From Verif Require Import U64 MapModel HoodModel DblModel FileModel SaveModel VtkModel.
Open Scope Z_scope.

(** what is transferred and saved of a cell: game_of_life_with_output.cpp:23-31; the data are is_alive and
    live_neighbor_count *)
Definition game_cell (big : bool) : user (Z * Z) := User (fun _ _ _ _ _ => Shape true 1 4)
  (fun _ _ _ _ d => bytes_of big 4 (fst d)) (fun _ _ _ _ d b => (value_of big b, snd d)).
(** game_of_life_with_output.cpp:106-110 *)
Definition game_header (big : bool) (step : Z) : list Z := words big [step].

Section Convert.
Context (big : bool).
(** dc2vtk.cpp:228-243: memory of cell_data is 0 at first *)
Fixpoint read_ids (n : nat) (f : file) (o : Z) : list Z :=
  match n with O => [] | S n => value_of big (read_at f o (bytes_of big 8 0)) :: read_ids n f (o + 8 + 8) end.
(** dc2vtk.cpp:246-259 *)
Fixpoint read_alive (n : nat) (f : file) (o : Z) : list Z :=
  match n with O => [] | S n => value_of big (read_at f o (bytes_of big 4 0)) :: read_alive n f (o + 4) end.
Record shown := Shown { h_map : mapping; h_topo : topo; h_geo : cartesian; h_cells : list (Z * Z) }.
(** dc2vtk.cpp:70-259; None if the file is skipped; junk is what the memory of number_of_cells held *)
Definition read_game (junk : Z) (f : file) : option shown :=
  (* 74-90: the time step is not used *)
  if negb (value_of big (read_at f 8 (bytes_of big 8 0)) =? endianness) then None else
  let '(ok, m) := mapping_read big default_mapping f 16 in
  if negb ok then None else
  (* 157-172: neither is the neighborhood length *)
  let o := 16 + mapping_size + 4 in
  let t := topology_read f o in
  let o := o + topology_size in
  let '(ok, c) := cartesian_read big default_cartesian f o in
  if negb ok then None else
  let o := o + cartesian_size in
  let n := Z.to_nat (value_of big (read_at f o (bytes_of big 8 junk))) in
  let o := o + 8 in
  Some (Shown m t c (combine (read_ids n f o) (read_alive n f (o + 16 * Z.of_nat n)))).

(** the words of the vtk file after those of dccrg.hpp:3391-3434 *)
Inductive line := Word (w : word) | CellData | Scalars | Lookup.
Section Write.
Context (lo hi : Z -> dim -> option Q) (out : option Q -> option Q).
(** dc2vtk.cpp:273-320; cells are not sorted; an unsigned int counts the cells in 301 and 311 *)
Definition write_game (cells : list (Z * Z)) : list line :=
  let size := Z.of_nat (length cells) in
  map Word ([Header; Points; Int (size * 8); Float] ++ flat_map (fun e => corners lo hi out (fst e)) cells ++
    [Cells; Int size; Int (size * 9)] ++ flat_map (fun j => point_numbers (Z.of_nat j)) (seq 0 (length cells)) ++
    [Types; Int size] ++ map (fun _ => Int 11) cells) ++
  [CellData; Word (Int size); Scalars; Lookup] ++ map (fun e => Word (Int (snd e))) cells.
End Write.
(** all of dc2vtk.cpp for one file; [bounds] are geometry.get_min and get_max (284-286) *)
Definition dc2vtk (bounds : mapping -> topo -> cartesian -> bool -> Z -> dim -> option Q) (out : option Q -> option Q) (junk : Z) (f : file) : option (list line) :=
  match read_game junk f with
  | None => None
  | Some s => Some (write_game (bounds (h_map s) (h_topo s) (h_geo s) false) (bounds (h_map s) (h_topo s) (h_geo s) true) out (h_cells s))
  end.
(** dc2vtk.cpp:43-47: whether a process converts argument number arg *)
Definition converts (comm_size rank arg : Z) : bool := (arg - 1) mod comm_size =? rank.
End Convert.
