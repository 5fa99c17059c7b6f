(** Model of the file format: bytes, the mapping, the topology and the three geometries.
    Definitions only.

    A file gives the byte at every offset, None past its end. MPI_File_read_at of bytes past the
    end succeeds and leaves the rest of the buffer as it was (the code ignores the status), so the
    model of a read has the old contents of the buffer as argument. MPI errors are not modelled.
    Doubles in files are their 64 bits. The byte order of the machine is a parameter: [big]. *)
From Verif Require Import U64 MapModel HoodModel DblModel.
Open Scope Z_scope.

Definition file := Z -> option Z.
Definition empty_file : file := fun _ => None.
Definition write_at (f : file) (o : Z) (b : list Z) : file :=
  fun p => if p <? o then f p else match nth_error b (Z.to_nat (p - o)) with Some x => Some x | None => f p end.
Fixpoint read_at (f : file) (o : Z) (buffer : list Z) : list Z :=
  match buffer with
  | [] => []
  | x :: r => match f o with Some b => b | None => x end :: read_at f (o + 1) r
  end.
(** a file cut off at n bytes *)
Definition cut (f : file) (n : Z) : file := fun p => if p <? n then f p else None.
(** std::ifstream::read fails if a byte is missing *)
Fixpoint stream_read (f : file) (o : Z) (n : nat) : option (list Z) :=
  match n with
  | O => Some []
  | S k => match f o, stream_read f (o + 1) k with Some b, Some r => Some (b :: r) | _, _ => None end
  end.

Fixpoint little (n : nat) (v : Z) : list Z := match n with O => [] | S k => v mod 256 :: little k (v / 256) end.
Fixpoint value (b : list Z) : Z := match b with [] => 0 | x :: r => x + 256 * value r end.

(** a double's order on its 64 bits; comparisons with NaN are false *)
Definition nan_bits (b : Z) : bool := 2 ^ 52 * 2047 <? b mod 2 ^ 63.
Definition order_key (b : Z) : Z := if b <? 2 ^ 63 then b else 2 ^ 63 - b.
Definition dbl_le (a b : Z) : bool := negb (nan_bits a) && negb (nan_bits b) && (order_key a <=? order_key b).
(** 0.0 and 1.0 *)
Definition dbl_zero : Z := 0.
Definition dbl_one : Z := 2 ^ 52 * 1023.

Section Format.
Context (big : bool).

(** objects of n bytes in memory *)
Definition bytes_of (n : nat) (v : Z) : list Z := if big then rev (little n v) else little n v.
Definition value_of (b : list Z) : Z := value (if big then rev b else b).
Definition words (l : list Z) : list Z := flat_map (bytes_of 8) l.
Fixpoint take_words (k : nat) (b : list Z) : list Z :=
  match k with O => [] | S k' => value_of (firstn 8 b) :: take_words k' (skipn 8 b) end.
(** int: 32 bits, two's complement *)
Definition int_bytes (v : Z) : list Z := bytes_of 4 (v mod 2 ^ 32).
Definition int_of (b : list Z) : Z := let v := value_of b in if v <? 2 ^ 31 then v else v - 2 ^ 32.

(** ** dccrg_mapping.hpp *)

(** dccrg_mapping.hpp:615-652 *)
Definition mapping_write (m : mapping) (f : file) (o : Z) : file :=
  write_at (write_at f o (words [m_l0 m; m_l1 m; m_l2 m])) (o + 24) (int_bytes (m_max m)).
(** dccrg_mapping.hpp:658-661 *)
Definition mapping_size : Z := 24 + 4.
Definition lengths_of (l : list Z) : lengths := match l with [a; b; c] => (a, b, c) | _ => (0, 0, 0) end.
(** dccrg_mapping.hpp:516-569 *)
Definition mapping_read (m : mapping) (f : file) (o : Z) : bool * mapping :=
  let l := take_words 3 (read_at f o (words [0; 0; 0])) in
  let '(ok, m1) := set_length m (lengths_of l) in
  if negb ok then (false, m1) else
  set_maximum_refinement_level m1 (int_of (read_at f (o + 24) (int_bytes (-1)))).
(** dccrg_mapping.hpp:573-607: reads at the stream's position *)
Definition mapping_read_stream (m : mapping) (f : file) (o : Z) : bool * mapping :=
  match stream_read f o 24 with
  | None => (false, m)
  | Some b =>
    let '(ok, m1) := set_length m (lengths_of (take_words 3 b)) in
    if negb ok then (false, m1) else
    match stream_read f (o + 24) 4 with
    | None => (false, m1)
    | Some b => set_maximum_refinement_level m1 (int_of b)
    end
  end.

(** ** dccrg_topology.hpp *)

(** dccrg_topology.hpp:170-199 *)
Definition flag (b : bool) : Z := if b then 1 else 0.
Definition topology_write (t : topo) (f : file) (o : Z) : file :=
  write_at f o [flag (per_x t); flag (per_y t); flag (per_z t)].
(** dccrg_topology.hpp:205-208 *)
Definition topology_size : Z := 3.
Definition topo_of (b : list Z) : topo := match b with [x; y; z] => Topo (0 <? x) (0 <? y) (0 <? z) | _ => Topo false false false end.
(** dccrg_topology.hpp:108-137 *)
Definition topology_read (f : file) (o : Z) : topo := topo_of (read_at f o [0; 0; 0]).
(** dccrg_topology.hpp:141-162 *)
Definition topology_read_stream (t : topo) (f : file) (o : Z) : bool * topo :=
  match stream_read f o 3 with None => (false, t) | Some b => (true, topo_of b) end.

(** ** Geometries *)

(** dccrg_no_geometry.hpp:486-506, 514-541, 547-550: geometry_id = 0 *)
Definition no_geometry_write (f : file) (o : Z) : file := write_at f o (int_bytes 0).
Definition no_geometry_read (f : file) (o : Z) : bool := int_of (read_at f o (int_bytes (0 + 1))) =? 0.
Definition no_geometry_size : Z := 4.

(** Cartesian_Geometry_Parameters, dccrg_cartesian_geometry.hpp:51-89 *)
Record cartesian := Cartesian { c_start : list Z; c_len : list Z }.
Definition default_cartesian : cartesian := Cartesian [dbl_zero; dbl_zero; dbl_zero] [dbl_one; dbl_one; dbl_one].
(** dccrg_cartesian_geometry.hpp:186-207 *)
Definition cartesian_set (old given : cartesian) : bool * cartesian :=
  if existsb (fun x => dbl_le x dbl_zero) (c_len given) then (false, old) else (true, given).
(** dccrg_cartesian_geometry.hpp:620-673: geometry_id = 1 *)
Definition cartesian_write (c : cartesian) (f : file) (o : Z) : file :=
  write_at (write_at (write_at f o (int_bytes 1)) (o + 4) (words (c_start c))) (o + 28) (words (c_len c)).
(** dccrg_cartesian_geometry.hpp:683-753 *)
Definition cartesian_read (c : cartesian) (f : file) (o : Z) : bool * cartesian :=
  if negb (int_of (read_at f o (int_bytes (1 + 1))) =? 1) then (false, c) else
  cartesian_set c (Cartesian (take_words 3 (read_at f (o + 4) (words (c_start default_cartesian))))
                             (take_words 3 (read_at f (o + 28) (words (c_len default_cartesian))))).
(** dccrg_cartesian_geometry.hpp:757-804 *)
Definition cartesian_read_stream (c : cartesian) (f : file) (o : Z) : bool * cartesian :=
  match stream_read f o 4 with
  | None => (false, c)
  | Some b =>
    if negb (int_of b =? 1) then (false, c) else
    match stream_read f (o + 4) 24, stream_read f (o + 28) 24 with
    | Some s, Some l => cartesian_set c (Cartesian (take_words 3 s) (take_words 3 l))
    | _, _ => (false, c)
    end
  end.
(** dccrg_cartesian_geometry.hpp:810-813 *)
Definition cartesian_size : Z := 4 + 6 * 8.

(** Stretched_Cartesian_Geometry_Parameters, dccrg_stretched_cartesian_geometry.hpp:48-58: the
    coordinates in each dimension *)
Record stretched := Stretched { s_x : list Z; s_y : list Z; s_z : list Z }.
(** dccrg_stretched_cartesian_geometry.hpp:193-203 *)
Fixpoint increasing_bits (l : list Z) : bool :=
  match l with
  | a :: r => match r with b :: _ => negb (dbl_le b a) && increasing_bits r | [] => true end
  | [] => true
  end.
(** dccrg_stretched_cartesian_geometry.hpp:177-204 in one dimension, n is the length of the grid *)
Definition coordinates_ok (n : Z) (l : list Z) : bool :=
  (2 <=? Z.of_nat (length l)) && (Z.of_nat (length l) =? add64 n 1) && increasing_bits l.
(** dccrg_stretched_cartesian_geometry.hpp:172-210 *)
Definition stretched_set (m : mapping) (old given : stretched) : bool * stretched :=
  if coordinates_ok (m_l0 m) (s_x given) && coordinates_ok (m_l1 m) (s_y given) && coordinates_ok (m_l2 m) (s_z given)
  then (true, given) else (false, old).
(** dccrg_stretched_cartesian_geometry.hpp:652-715: geometry_id = 2 *)
Definition count_of (l : list Z) : Z := Z.of_nat (length l).
Definition stretched_write (s : stretched) (f : file) (o : Z) : file :=
  let f1 := write_at f o (int_bytes 2) in
  let f2 := write_at f1 (o + 4) (words [count_of (s_x s); count_of (s_y s); count_of (s_z s)]) in
  let f3 := write_at f2 (o + 28) (words (s_x s)) in
  let f4 := write_at f3 (o + 28 + 8 * count_of (s_x s)) (words (s_y s)) in
  write_at f4 (o + 28 + 8 * count_of (s_x s) + 8 * count_of (s_y s)) (words (s_z s)).
(** resize(n) of an empty vector and a read into it *)
Definition read_coordinates (f : file) (o n : Z) : list Z := take_words (Z.to_nat n) (read_at f o (words (repeat dbl_zero (Z.to_nat n)))).
(** dccrg_stretched_cartesian_geometry.hpp:723-800 *)
Definition stretched_read (m : mapping) (s : stretched) (f : file) (o : Z) : bool * stretched :=
  if negb (int_of (read_at f o (int_bytes (2 + 1))) =? 2) then (false, s) else
  let '(a, b, c) := lengths_of (take_words 3 (read_at f (o + 4) (words [0; 0; 0]))) in
  stretched_set m s (Stretched (read_coordinates f (o + 28) a) (read_coordinates f (o + 28 + 8 * a) b)
                               (read_coordinates f (o + 28 + 8 * a + 8 * b) c)).
(** dccrg_stretched_cartesian_geometry.hpp:808-817 *)
Definition stretched_size (s : stretched) : Z := 4 + 24 + 8 * count_of (s_x s) + 8 * count_of (s_y s) + 8 * count_of (s_z s).
(** dccrg_stretched_cartesian_geometry.hpp:138-150: reset() when the grid was created, with length 1 *)
Definition default_stretched : stretched := Stretched [dbl_zero; dbl_one] [dbl_zero; dbl_one] [dbl_zero; dbl_one].

(** the geometry of a grid: the type is fixed when the program is compiled *)
Inductive geometry := NoGeometry | CartesianGeometry (c : cartesian) | StretchedGeometry (s : stretched).
Definition geometry_write (y : geometry) (f : file) (o : Z) : file :=
  match y with NoGeometry => no_geometry_write f o | CartesianGeometry c => cartesian_write c f o | StretchedGeometry s => stretched_write s f o end.
Definition geometry_read (m : mapping) (y : geometry) (f : file) (o : Z) : bool * geometry :=
  match y with
  | NoGeometry => (no_geometry_read f o, NoGeometry)
  | CartesianGeometry c => let '(ok, c') := cartesian_read c f o in (ok, CartesianGeometry c')
  | StretchedGeometry s => let '(ok, s') := stretched_read m s f o in (ok, StretchedGeometry s')
  end.
Definition geometry_size (y : geometry) : Z :=
  match y with NoGeometry => no_geometry_size | CartesianGeometry _ => cartesian_size | StretchedGeometry s => stretched_size s end.
End Format.
