(** Model of neighborhoods (definitions only): dccrg.hpp initialize_neighborhoods,
    add_neighborhood, remove_neighborhood, indices_from_neighborhood; dccrg_topology.hpp. *)
From Verif Require Import U64 MapModel.
Open Scope Z_scope.

(** dimensions; [get v k] is [v[k]] of the C++ arrays *)
Inductive dim := DX | DY | DZ.
Definition get (v : idx) (k : dim) : Z :=
  match k with DX => ix v | DY => iy v | DZ => iz v end.
Definition upd (v : idx) (k : dim) (a : Z) : idx :=
  match k with
  | DX => Idx a (iy v) (iz v)
  | DY => Idx (ix v) a (iz v)
  | DZ => Idx (ix v) (iy v) a
  end.
Definition vmap (f : dim -> Z) : idx := Idx (f DX) (f DY) (f DZ).
Definition vadd (a b : idx) : idx := Idx (ix a + ix b) (iy a + iy b) (iz a + iz b).
Definition vsub (a b : idx) : idx := Idx (ix a - ix b) (iy a - iy b) (iz a - iz b).
Definition vneg (a : idx) : idx := Idx (- ix a) (- iy a) (- iz a).
Definition vzero : idx := Idx 0 0 0.
Definition error_idx : idx := Idx error_index error_index error_index.

(** dccrg_topology.hpp:38-120: class Grid_Topology, member periodic[3];
    is_periodic(0..2) *)
Record topo := Topo { per_x : bool; per_y : bool; per_z : bool }.
Definition per (t : topo) (k : dim) : bool :=
  match k with DX => per_x t | DY => per_y t | DZ => per_z t end.
Definition mlen (m : mapping) (k : dim) : Z :=
  match k with DX => m_l0 m | DY => m_l1 m | DZ => m_l2 m end.

(** [length[k] * (uint64_t(1) << max_refinement_level)] dccrg.hpp:4310-4314 *)
Definition glen64 (m : mapping) (k : dim) : Z := mul64 (mlen m k) (shl1 (m_max m)).

(** neighborhood items are arrays of three ints; [idx] is reused for them *)
Definition hood := list idx.

(** integers from -n to n in increasing order: the loops of dccrg.hpp:8102-8116 *)
Definition from_to (n : Z) : list Z :=
  map (fun k => Z.of_nat k - n) (seq 0 (Z.to_nat (2 * n + 1))).

(** dccrg.hpp:8072-8131, first part.  [-this->neighborhood_length] is an unsigned negation
    converted to int: it is -n for n < 2^31, the range in which the loops make sense. *)
Definition default_hood_of (n : Z) : hood :=
  if n =? 0 then
    [Idx 0 0 (-1); Idx 0 (-1) 0; Idx (-1) 0 0; Idx 1 0 0; Idx 0 1 0; Idx 0 0 1]
  else
    flat_map (fun z => flat_map (fun y => flat_map (fun x =>
      if (x =? 0) && (y =? 0) && (z =? 0) then [] else [Idx x y z])
      (from_to n)) (from_to n)) (from_to n).

(** dccrg.hpp:8126-8130 *)
Definition hood_to (h : hood) : hood := map vneg h.

(** dccrg.hpp:91 *)
Definition default_neighborhood_id : Z := -3532.

(** user_hood_of as an association list from id to items; user_hood_to is its reflection
    (dccrg.hpp:6664-6673) *)
Definition hoods := list (Z * hood).
Definition hood_lookup (u : hoods) (id : Z) : option hood :=
  option_map snd (find (fun p => fst p =? id) u).

(** dccrg.hpp:6628-6661: the checks on the items *)
Definition item_ok (n : Z) (i : idx) : bool :=
  if 0 <? n then
    (Z.abs (ix i) <=? n) && (Z.abs (iy i) <=? n) && (Z.abs (iz i) <=? n) &&
    negb ((ix i =? 0) && (iy i =? 0) && (iz i =? 0))
  else
    (Z.abs (ix i) <=? 1) && (Z.abs (iy i) <=? 1) && (Z.abs (iz i) <=? 1) &&
    (Z.b2z (ix i =? 0) + Z.b2z (iy i =? 0) + Z.b2z (iz i =? 0) =? 2).

(** dccrg.hpp:6546-6718; the neighbor lists derived from the neighborhood are in MeshModel *)
Definition add_neighborhood (n : Z) (u : hoods) (id : Z) (items : hood) : bool * hoods :=
  if id =? default_neighborhood_id then (false, u) else
  if existsb (fun p => fst p =? id) u then (false, u) else
  if forallb (item_ok n) items then (true, (id, items) :: u) else (false, u).

(** dccrg.hpp:6736-6763 *)
Definition remove_neighborhood (u : hoods) (id : Z) : hoods :=
  if id =? default_neighborhood_id then u else filter (fun p => negb (fst p =? id)) u.

(** one step of the periodic loops, dccrg.hpp:4349-4353 and 4381-4385 *)
Definition step_down (G len t : Z) : Z := if len <=? t then sub64 t len else sub64 G len.
Definition step_up (G len t : Z) : Z := if t <? sub64 G len then add64 t len else 0.

(** dccrg.hpp:4332-4400, one dimension; None: outside of a non-periodic grid.
    [offsets * length_in_indices] converts the int to uint64_t. *)
Definition ifn_dim (p : bool) (G len i off : Z) : option Z :=
  if off <? 0 then
    if p then Some (Nat.iter (Z.to_nat (- off)) (step_down G len) i)
    else if i <? mul64 (Z.abs off) len then None
    else Some (add64 i (mul64 (u64 off) len))
  else
    if p then Some (Nat.iter (Z.to_nat off) (step_up G len) i)
    else if G <=? add64 i (mul64 off len) then None
    else Some (add64 i (mul64 off len)).

(** dccrg.hpp:4327-4404, one item *)
Definition ifn_item (m : mapping) (t : topo) (i : idx) (len : Z) (o : idx) : idx :=
  match ifn_dim (per_x t) (glen64 m DX) len (ix i) (ix o),
        ifn_dim (per_y t) (glen64 m DY) len (iy i) (iy o),
        ifn_dim (per_z t) (glen64 m DZ) len (iz i) (iz o) with
  | Some x, Some y, Some z => Idx x y z
  | _, _, _ => error_idx
  end.

(** dccrg.hpp:4291-4407 *)
Definition indices_from_neighborhood (m : mapping) (t : topo) (i : idx) (len : Z) (h : hood)
  : list idx := map (ifn_item m t i len) h.
