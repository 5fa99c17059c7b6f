(** Model of saving a grid to a file and loading it: dccrg.hpp:1117-1787 and 1817-2480.  Definitions only.

    All writes of all processes are collected in one list; the file has the result of making them
    in some order.  Datatypes given by the user's get_mpi_datatype are reduced to their number of
    items, the size of an item in bytes and whether the datatype is a named one; the described
    bytes of a cell are a list.  Named datatypes whose extent differs from their size
    (MPI_DOUBLE_INT, ...) and more than 2^31 cells on one process are not modelled, neither are MPI
    errors other than negative counts, Zoltan's initialization and errors in opening files. *)
From Verif Require Import U64 MapModel HoodModel MeshModel DblModel Sets RefineModel BalanceModel FileModel.
Open Scope Z_scope.

Definition apply_writes (ws : list (Z * list Z)) (f : file) : file :=
  fold_left (fun f w => write_at f (fst w) (snd w)) ws f.
(** conversion of uint64_t to int *)
Definition to_int (v : Z) : Z := let w := v mod 2 ^ 32 in if w <? 2 ^ 31 then w else w - 2 ^ 32.

(** 0x1234567890abcdef, dccrg.hpp:1256 and 1958 *)
Definition endianness : Z := 1311768467294899695.

(** what get_mpi_datatype returns: item count, size of one item, and whether the type is named *)
Record shape := Shape { h_named : bool; h_count : Z; h_size : Z }.
(** the user's cell data class: arguments cell, sender, receiver, receiving; [u_get] are the
    described bytes in the order of the datatype, [u_put] overwrites them *)
Record user (D : Type) := User {
  u_shape : Z -> Z -> Z -> bool -> D -> shape;
  u_get : Z -> Z -> Z -> bool -> D -> list Z;
  u_put : Z -> Z -> Z -> bool -> D -> list Z -> D }.
Arguments User {D}. Arguments u_shape {D}. Arguments u_get {D}. Arguments u_put {D}.
Record flags := Flags { w_info : bool; w_ids : bool; w_offsets : bool }.

Section Model.
Context (big : bool) {D : Type} (u : user D).

(** the writes of Mapping::write, Grid_Topology::write and Geometry::write, see FileModel *)
Definition mapping_writes (m : mapping) (o : Z) : list (Z * list Z) :=
  [(o, words big [m_l0 m; m_l1 m; m_l2 m]); (o + 24, int_bytes big (m_max m))].
Definition topology_writes (t : topo) (o : Z) : list (Z * list Z) :=
  [(o, [flag (per_x t); flag (per_y t); flag (per_z t)])].
Definition geometry_writes (y : geometry) (o : Z) : list (Z * list Z) :=
  match y with
  | NoGeometry => [(o, int_bytes big 0)]
  | CartesianGeometry c => [(o, int_bytes big 1); (o + 4, words big (c_start c)); (o + 28, words big (c_len c))]
  | StretchedGeometry s =>
    [(o, int_bytes big 2); (o + 4, words big [count_of (s_x s); count_of (s_y s); count_of (s_z s)]);
     (o + 28, words big (s_x s)); (o + 28 + 8 * count_of (s_x s), words big (s_y s));
     (o + 28 + 8 * count_of (s_x s) + 8 * count_of (s_y s), words big (s_z s))]
  end.

(** ** save_grid_data *)

(** dccrg.hpp:1252-1337: what rank 0 writes before the number of cells *)
Definition info_writes (g : grid) (y : geometry) (o : Z) : list (Z * list Z) :=
  [(o, words big [endianness])] ++ mapping_writes (g_map g) (o + 8) ++
  [(o + 8 + mapping_size, bytes_of big 4 (g_len g))] ++
  topology_writes (g_topo g) (o + 8 + mapping_size + 4) ++
  geometry_writes y (o + 8 + mapping_size + 4 + topology_size).
Definition info_size (y : geometry) : Z := 8 + mapping_size + 4 + topology_size + geometry_size y.

(** dccrg.hpp:1506-1510: bytes reserved for a cell *)
Definition advance (h : shape) : Z := if h_named h then mul64 (h_count h) (h_size h) else u64 (h_size h).
(** dccrg.hpp:1492-1511: file_displacements relative to the first cell of the process *)
Fixpoint displacements (start : Z) (l : list shape) : list Z :=
  match l with [] => [] | h :: r => start :: displacements (add64 start (advance h)) r end.
(** dccrg.hpp:1492-1511: current_byte_offset *)
Definition byte_total (l : list shape) : Z := fold_left (fun a h => add64 a (advance h)) l 0.
(** the ranks less than r *)
Definition below (r : Z) : list Z := map Z.of_nat (seq 0 (Z.to_nat r)).

(** cells written by each process with their data *)
Context (g : grid) (y : geometry) (sel : Z -> list (Z * D)) (fl : flags).
(** dccrg.hpp:1393-1408: the saving rank is the sender, nobody the receiver *)
Definition shapes (r : Z) : list shape := map (fun e => u_shape u (fst e) r (-1) false (snd e)) (sel r).
Definition number (r : Z) : Z := Z.of_nat (length (sel r)).
(** dccrg.hpp:1341-1346 *)
Definition total_number : Z := fold_left add64 (map number (ranks g)) 0.
(** dccrg.hpp:1534-1546; o is the offset after the number of cells *)
Definition data_start (o r : Z) : Z :=
  let a := add64 (u64 o) (mul64 (mul64 2 total_number) 8) in
  let b := if w_ids fl then a else sub64 a (mul64 total_number 8) in
  let c := if w_offsets fl then b else sub64 b (mul64 total_number 8) in
  fold_left (fun s q => add64 s (byte_total (shapes q))) (below r) c.
(** dccrg.hpp:1548-1551 *)
Definition file_displacements (o r : Z) : list Z := map (fun x => add64 x (data_start o r)) (displacements 0 (shapes r)).
(** dccrg.hpp:1578-1585 *)
Definition list_start (o r : Z) : Z :=
  fold_left (fun s q => add64 s
      (if w_ids fl && w_offsets fl then mul64 (mul64 (number q) 2) 8
       else if w_ids fl || w_offsets fl then mul64 (number q) 8 else 0)) (below r) (u64 o).
(** dccrg.hpp:1587-1608 *)
Definition list_words (o r : Z) : list Z :=
  if w_ids fl && w_offsets fl then flat_map (fun e => [fst e; snd e]) (combine (map fst (sel r)) (file_displacements o r))
  else if w_ids fl then map fst (sel r)
  else if w_offsets fl then file_displacements o r
  else [].
(** dccrg.hpp:1615-1622: the count is an int *)
Definition list_write (o r : Z) : list (Z * list Z) :=
  [(list_start o r, words big (firstn (Z.to_nat (to_int (Z.of_nat (length (list_words o r))))) (list_words o r)))].
(** dccrg.hpp:1637-1711: the items of a cell are written one after the other *)
Definition data_writes (o r : Z) : list (Z * list Z) :=
  combine (file_displacements o r) (map (fun e => u_get u (fst e) r (-1) false (snd e)) (sel r)).

(** dccrg.hpp:1176-1250, 1348-1368; header is rank 0's, its size is an int *)
Definition info_start (header : list Z) (o : Z) : Z := o + to_int (Z.of_nat (length header)).
Definition list_offset (header : list Z) (o : Z) : Z :=
  if w_info fl then info_start header o + info_size y + 8 else info_start header o.
(** all writes of all processes *)
Definition all_writes (header : list Z) (o : Z) : list (Z * list Z) :=
  [(o, header)] ++
  (if w_info fl then info_writes g y (info_start header o) ++ [(info_start header o + info_size y, words big [total_number])] else []) ++
  flat_map (list_write (list_offset header o)) (ranks g) ++
  flat_map (data_writes (list_offset header o)) (ranks g).
(** negative counts are refused by MPI: dccrg.hpp:1623-1630 *)
Definition counts_ok (o : Z) : bool := forallb (fun r => 0 <=? to_int (Z.of_nat (length (list_words o r)))) (ranks g).
End Model.

Section Save.
Context (big : bool) {D : Type} (u : user D).
(** dccrg.hpp:1370-1408: cells_to_write_ of each process is [cells], cell_data.at throws *)
Definition selected (g : grid) (st : Z -> proc D) (cells : Z -> list Z) : outcome (Z -> list (Z * D)) :=
  each g (fun r => mapM (fun c => do d <- at_ c (s_data (p_store (st r))); Done (c, d)) (cells r)) (fun _ => []).
(** dccrg.hpp:1117-1787; the result are all writes, or None if false is returned *)
Definition save_grid_data (g : grid) (y : geometry) (st : Z -> proc D) (cells : Z -> list Z) (fl : flags)
  (header : list Z) (o : Z) : outcome (option (list (Z * list Z))) :=
  do sel <- selected g st cells;
  Done (if counts_ok u g sel fl (list_offset y fl header o)
        then Some (all_writes big u g y sel fl header o) else None).

(** ** load_grid_data *)

(** a grid whose cells exist but whose data is not loaded yet *)
Record loading := Loading { z_grid : grid; z_geo : geometry; z_header : list Z; z_st : Z -> proc D; z_disp : Z -> list (Z * Z) }.
Fixpoint pairs (l : list Z) : list (Z * Z) := match l with a :: b :: r => (a, b) :: pairs r | _ => [] end.

Context (d0 : D).
(** dccrg.hpp:2088-2101: 2 * total numbers, the count of the read is an int *)
Definition read_pairs (f : file) (o total : Z) : option (list (Z * Z)) :=
  let n := mul64 2 total in
  let k := to_int n in
  if k <? 0 then None else
  Some (pairs (take_words big (Z.to_nat k) (read_at f o (words big (repeat error_cell (Z.to_nat k)))) ++
               repeat error_cell (Z.to_nat n - Z.to_nat k))).
(** dccrg.hpp:2059-2161: creation of the initial cells, o is the offset of the number of cells *)
Definition start_cells (g : grid) (y : geometry) (header : list Z) (f : file) (o : Z) : outcome (option loading) :=
  do st <- initialize d0 g;
  let total := hd 0 (take_words big 1 (read_at f o (words big [0]))) in
  match read_pairs f (o + 8) total with
  | None => Done None
  | Some all =>
    if existsb (fun e => fst e =? error_cell) all then Threw else
    let disp r := filter (fun e => cell_overlaps_local g r (p_store (st r)) (fst e)) all in
    do st' <- load_cells d0 g st (fun r => map fst (disp r));
    do _ <- each g (fun r => if Z.of_nat (length (s_data (p_store (st' r)))) =? Z.of_nat (length (disp r)) then Done 0 else Threw) (fun _ => 0);
    Done (Some (Loading g y header st' disp))
  end.
(** dccrg.hpp:1870-2057 on np processes of a grid object with mapping m0 and geometry y0; None if
    false is returned, Threw if the program is aborted; buffer is the header's memory *)
Definition start_loading (np : Z) (m0 : mapping) (y0 : geometry) (f : file) (o : Z) (buffer : list Z)
  : outcome (option loading) :=
  let header := read_at f o buffer in
  let o1 := o + to_int (Z.of_nat (length buffer)) in
  if negb (hd 0 (take_words big 1 (read_at f o1 (words big [0]))) =? endianness) then Done None else
  let '(ok, m) := mapping_read big m0 f (o1 + 8) in
  if negb ok then Done None else
  let o2 := o1 + 8 + mapping_size in
  let n := value_of big (read_at f o2 (bytes_of big 4 0)) in
  let t := topology_read f (o2 + 4) in
  let o3 := o2 + 4 + topology_size in
  let '(ok, y) := geometry_read big m y0 f o3 in
  if negb ok then Done None else
  start_cells (Grid m t n np) y header f (o3 + geometry_size y).

(** dccrg.hpp:2231-2246, 2388-2395 on one process: data read into one cell; reading past the end
    of the file leaves the memory as it was *)
Definition load_cell (f : file) (r : Z) (s : store D) (e : Z * Z) : outcome (store D) :=
  do d <- at_ (fst e) (s_data s);
  Done (write s (fst e) (u_put u (fst e) (-1) r true d (read_at f (snd e) (u_get u (fst e) (-1) r true d)))).
(** dccrg.hpp:2287-2303: offsets are moved by the size of one item *)
Definition move_offset (r : Z) (data : list (Z * D)) (e : Z * Z) : outcome (Z * Z) :=
  do d <- at_ (fst e) data;
  Done (fst e, add64 (snd e) (h_size (u_shape u (fst e) (-1) r true d))).
(** dccrg.hpp:2189-2444 *)
Definition continue_loading (f : file) (z : loading) : outcome loading :=
  do _ <- each (z_grid z) (fun r => if Z.of_nat (length (s_data (p_store (z_st z r)))) =? Z.of_nat (length (z_disp z r)) then Done 0 else Threw) (fun _ => 0);
  do disp <- each (z_grid z) (fun r => mapM (move_offset r (s_data (p_store (z_st z r)))) (z_disp z r)) (fun _ => []);
  do st <- each (z_grid z) (fun r =>
    do s <- foldM (load_cell f r) (z_disp z r) (p_store (z_st z r));
    Done (Proc (p_req (z_st z r)) (p_cache (z_st z r)) s)) (z_st z);
  Done (Loading (z_grid z) (z_geo z) (z_header z) st disp).
Fixpoint continue_times (k : nat) (f : file) (z : loading) : outcome loading :=
  match k with O => Done z | S k' => do z' <- continue_loading f z; continue_times k' f z' end.
(** dccrg.hpp:1817-1849 *)
Definition load_grid_data (np : Z) (m0 : mapping) (y0 : geometry) (f : file) (o : Z) (buffer : list Z)
  : outcome (option loading) :=
  do x <- start_loading np m0 y0 f o buffer;
  match x with
  | None => Done None
  | Some z => do z' <- continue_loading f z; Done (Some z')
  end.
End Save.
