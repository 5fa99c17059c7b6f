(** Model of the neighbor searches of dccrg.hpp (definitions only).  [ex c] stands for
    [cell_process.count(c) > 0].  All functions are for one process whose cell_process lists
    every existing cell, which is how the class is used (cell_process is kept identical on all
    processes, see RefineModel.v). *)
From Verif Require Import U64 MapModel HoodModel.
Open Scope Z_scope.

(** dccrg.hpp:9749-9775, Dccrg::get_child *)
Definition get_child_ex (ex : Z -> bool) (m : mapping) (cell : Z) : Z :=
  let lvl := get_refinement_level m cell in
  if lvl =? m_max m then (if ex cell then cell else error_cell) else
  let child := get_cell_from_indices m (get_indices m cell) (lvl + 1) in
  if ex child then child else if ex cell then cell else error_cell.

(** dccrg.hpp:11400-11409: the loop over levels [hi, hi - 1, ..., hi - n + 1] *)
Fixpoint gec_loop (ex : Z -> bool) (m : mapping) (i : idx) (n : nat) (lvl : Z) : Z :=
  match n with
  | O => error_cell
  | S k =>
    let c := get_cell_from_indices m i lvl in
    if ex c then c else gec_loop ex m i k (lvl - 1)
  end.

(** dccrg.hpp:11379-11412 *)
Definition get_existing_cell (ex : Z -> bool) (m : mapping) (i : idx) (lo hi : Z) : Z :=
  if glen64 m DX <=? ix i then error_cell else
  if glen64 m DY <=? iy i then error_cell else
  if glen64 m DZ <=? iz i then error_cell else
  if hi <? lo then error_cell else
  gec_loop ex m i (Z.to_nat (hi - lo + 1)) hi.

(** dccrg.hpp:9545-9575: the index searched in the negative or positive direction of k *)
Definition search_index (m : mapping) (t : topo) (i : idx) (len : Z) (k : dim) (pos : bool) : idx :=
  upd i k
    (if pos then
       let max_index := sub64 (glen64 m k) 1 in
       if (max_index <? len) || (sub64 max_index len <? get i k)
       then (if per t k then 0 else error_index)
       else add64 (get i k) len
     else
       if get i k =? 0 then (if per t k then sub64 (glen64 m k) 1 else error_index)
       else sub64 (get i k) 1).

(** dccrg.hpp:9518-9652, one entry of neighbors_[cell]; the cell is known to exist and to have
    no children *)
Definition face_neighbor (ex : Z -> bool) (m : mapping) (t : topo) (c : Z) (k : dim) (pos : bool) : Z :=
  let lvl := get_refinement_level m c in
  get_existing_cell ex m
    (search_index m t (get_indices m c) (get_cell_length_in_indices m c) k pos)
    (if lvl =? 0 then 0 else lvl - 1)
    (if lvl =? m_max m then m_max m else lvl + 1).

(** dccrg.hpp:9522-9528: neighbors_ has an entry for c *)
Definition has_neighbors (ex : Z -> bool) (m : mapping) (c : Z) : bool :=
  negb (c =? error_cell) && ex c && (c =? get_child_ex ex m c).

(** dccrg.hpp:4475-4493 *)
Definition parent_offset (m : mapping) (c : Z) : idx :=
  let p := get_parent m c in
  if (p =? error_cell) || (p =? c) then vzero else vsub (get_indices m p) (get_indices m c).

(** dccrg.hpp:4496-4618.  Offsets are ints in the C++ code; they are unbounded here. *)
Definition adjust_offset (m : mapping) (off : idx) (from to : Z) (k : dim) (pos : bool) : idx :=
  let from_len := get_cell_length_in_indices m from in
  let to_len := get_cell_length_in_indices m to in
  let addk v a := upd v k (get v k + (if pos then a else - a)) in
  if from_len =? to_len then addk off from_len
  else if from_len <? to_len then addk (vadd off (parent_offset m from)) to_len
  else addk (vsub off (parent_offset m to)) from_len.

(** dccrg.hpp:4640-4644 and the order of the tests 4653-4720; None: the loop ends *)
Definition step_dir (lo hi off : idx) (len : Z) : option (dim * bool) :=
  if ix hi <? ix off then Some (DX, false) else
  if ix off + len - 1 <? ix lo then Some (DX, true) else
  if iy hi <? iy off then Some (DY, false) else
  if iy off + len - 1 <? iy lo then Some (DY, true) else
  if iz hi <? iz off then Some (DZ, false) else
  if iz off + len - 1 <? iz lo then Some (DZ, true) else None.

Inductive outcome (A : Type) :=
| Done (a : A)
| Threw      (* std::runtime_error *)
| NoFuel.    (* the loop did not finish within the fuel *)
Arguments Done {A}. Arguments Threw {A}. Arguments NoFuel {A}.

(** dccrg.hpp:4640-4727: the walk; Done None is current == error_cell *)
Fixpoint walk (fuel : nat) (ex : Z -> bool) (m : mapping) (t : topo) (lo hi : idx)
  (current : Z) (off : idx) : outcome (option (Z * idx)) :=
  match step_dir lo hi off (get_cell_length_in_indices m current) with
  | None => Done (Some (current, off))
  | Some (k, pos) =>
    match fuel with
    | O => NoFuel
    | S f =>
      if negb (has_neighbors ex m current) then Threw else
      let n := face_neighbor ex m t current k pos in
      if n =? error_cell then Done None
      else walk f ex m t lo hi n (adjust_offset m off current n k pos)
    end
  end.

(** position of the first occurrence, dccrg.hpp:4737-4742 *)
Fixpoint position (x : Z) (l : list Z) : option nat :=
  match l with
  | [] => None
  | y :: r => if x =? y then Some O else option_map S (position x r)
  end.

(** dccrg.hpp:4729-4767 *)
Definition expand (m : mapping) (cell_length current : Z) (off : idx) : outcome (list (Z * idx)) :=
  let len := get_cell_length_in_indices m current in
  if cell_length <=? len then Done [(current, off)] else
  let sib := get_siblings m current in
  match position current sib with
  | None => Threw
  | Some i =>
    let j := Z.of_nat i in
    let o := Idx (ix off - (if 0 <? j mod 2 then len else 0))
                 (iy off - (if 1 <? j mod 4 then len else 0))
                 (iz off - (if 3 <? j then len else 0)) in
    Done (combine sib
      (flat_map (fun dz => flat_map (fun dy => map (fun dx =>
         Idx (ix o + dx) (iy o + dy) (iz o + dz)) [0; len]) [0; len]) [0; len]))
  end.

(** number of iterations after which the model gives up.  Sufficient on every balanced grid
    (proved); the C++ loop has no limit. *)
Definition walk_fuel (len : Z) (h : idx) : nat :=
  Z.to_nat ((4 * len + 1) * (Z.abs (ix h) + Z.abs (iy h) + Z.abs (iz h) + 1)).

(** dccrg.hpp:4622-4768, one neighborhood item *)
Definition find_item (ex : Z -> bool) (m : mapping) (t : topo) (cell : Z) (h : idx)
  : outcome (list (Z * idx)) :=
  let len := get_cell_length_in_indices m cell in
  let lo := Idx (ix h * len) (iy h * len) (iz h * len) in
  let hi := Idx ((ix h + 1) * len - 1) ((iy h + 1) * len - 1) ((iz h + 1) * len - 1) in
  match walk (walk_fuel len h) ex m t lo hi cell vzero with
  | Done None => Done []
  | Done (Some (c, off)) => expand m len c off
  | Threw => Threw
  | NoFuel => NoFuel
  end.

Fixpoint find_items (ex : Z -> bool) (m : mapping) (t : topo) (cell : Z) (h : hood)
  : outcome (list (Z * idx)) :=
  match h with
  | [] => Done []
  | i :: r =>
    match find_item ex m t cell i with
    | Done a =>
      match find_items ex m t cell r with
      | Done b => Done (a ++ b)
      | x => x
      end
    | x => x
    end
  end.

(** dccrg.hpp:4430-4771 *)
Definition find_neighbors_of (ex : Z -> bool) (m : mapping) (t : topo) (cell : Z) (h : hood)
  : outcome (list (Z * idx)) :=
  if (cell =? error_cell) || negb (ex cell) then Threw else
  if negb (has_neighbors ex m cell) then Threw else find_items ex m t cell h.

(** dccrg.hpp:4865-4879 and the equal loops 4907-4919, 4933-4943 *)
Definition found_at (ex : Z -> bool) (m : mapping) (t : topo) (i : idx) (len : Z) (h : hood) (lvl : Z)
  : list Z :=
  flat_map (fun s =>
    if ix s =? error_index then [] else
    let f := get_cell_from_indices m s lvl in
    if f =? get_child_ex ex m f then [f] else [])
  (indices_from_neighborhood m t i len h).

(** dccrg.hpp:4799-4952.  The unordered_map makes the result a set; the model keeps the keys
    as a list without duplicates, its order is not meaningful. *)
Definition find_neighbors_to (ex : Z -> bool) (m : mapping) (t : topo) (cell : Z) (hto : hood)
  : outcome (list Z) :=
  if (cell =? error_cell) || (m_last m <? cell) || negb (cell =? get_child_ex ex m cell) then Threw
  else
  let lvl := get_refinement_level m cell in
  let larger :=
    if 0 <? lvl then
      let p := get_parent m cell in
      found_at ex m t (get_indices m p) (get_cell_length_in_indices m p) hto (lvl - 1)
    else [] in
  let smaller :=
    if lvl <? m_max m then
      let ch := get_all_children m cell in
      flat_map (fun c => found_at ex m t (get_indices m c)
        (get_cell_length_in_indices m (hd error_cell ch)) hto (lvl + 1)) ch
    else [] in
  let same := found_at ex m t (get_indices m cell) (get_cell_length_in_indices m cell) hto lvl in
  Done (nodup Z.eq_dec (larger ++ smaller ++ same)).

(** dccrg.hpp:11272-11309 *)
Definition indices_overlap1 (i1 s1 i2 s2 : Z) : bool :=
  (i2 <? add64 i1 s1) && (i1 <? add64 i2 s2).

(** dccrg.hpp:11329-11370 *)
Definition overlapping_indices (m : mapping) (c1 c2 : Z) : Z :=
  let i1 := get_indices m c1 in let i2 := get_indices m c2 in
  let s1 := get_cell_length_in_indices m c1 in let s2 := get_cell_length_in_indices m c2 in
  Z.b2z (indices_overlap1 (ix i1) s1 (ix i2) s2) +
  Z.b2z (indices_overlap1 (iy i1) s1 (iy i2) s2) +
  Z.b2z (indices_overlap1 (iz i1) s1 (iz i2) s2).

(** dccrg.hpp:9696-9719, one dimension *)
Definition distance1 (p : bool) (G i1 s1 i2 s2 : Z) : Z :=
  if i1 <=? i2 then
    let d := if i2 <=? add64 i1 s1 then 0 else sub64 i2 (add64 i1 s1) in
    if p then Z.min d (add64 i1 (sub64 G (add64 i2 s2))) else d
  else
    let d := if i1 <=? add64 i2 s2 then 0 else sub64 i1 (add64 i2 s2) in
    if p then Z.min d (add64 i2 (sub64 G (add64 i1 s1))) else d.

(** dccrg.hpp:9658-9739; n is neighborhood_length *)
Definition is_neighbor (n : Z) (m : mapping) (t : topo) (c1 c2 : Z) : bool :=
  let i1 := get_indices m c1 in let i2 := get_indices m c2 in
  let s1 := get_cell_length_in_indices m c1 in let s2 := get_cell_length_in_indices m c2 in
  let dist k := distance1 (per t k) (glen64 m k) (get i1 k) s1 (get i2 k) s2 in
  let max_distance := Z.max (Z.max (dist DX) (dist DY)) (dist DZ) in
  if n =? 0 then (max_distance <? s1) && (2 <=? overlapping_indices m c1 c2)
  else max_distance <? mul64 n s1.

(** dccrg.hpp:2883-3010: the four cells of one face.  [a], [b] are the two dimensions whose
    positive directions are followed; None: an entry of neighbors_ is missing (throw). *)
Definition face_dims (k : dim) : dim * dim :=
  match k with DX => (DY, DZ) | DY => (DX, DZ) | DZ => (DX, DY) end.

Definition face_side (ex : Z -> bool) (m : mapping) (t : topo) (c : Z) (k : dim) (pos : bool)
  : outcome (list Z) :=
  let n := face_neighbor ex m t c k pos in
  if n =? error_cell then Done [] else
  if get_refinement_level m n <=? get_refinement_level m c then Done [n] else
  if negb (has_neighbors ex m n) then Threw else
  let (a, b) := face_dims k in
  let na := face_neighbor ex m t n a true in
  let nb := face_neighbor ex m t n b true in
  let add x := if x =? error_cell then [] else [x] in
  if nb =? error_cell then Done (n :: add na) else
  if negb (has_neighbors ex m nb) then Threw else
  Done (n :: add na ++ nb :: add (face_neighbor ex m t nb a true)).

(** dirs of dccrg.hpp:2908 *)
Definition dirs : list (dim * bool * Z) :=
  [(DX, false, -1); (DX, true, 1); (DY, false, -2); (DY, true, 2); (DZ, false, -3); (DZ, true, 3)].

Fixpoint face_sides (ex : Z -> bool) (m : mapping) (t : topo) (c : Z) (l : list (dim * bool * Z))
  : outcome (list (Z * Z)) :=
  match l with
  | [] => Done []
  | (k, pos, d) :: r =>
    match face_side ex m t c k pos with
    | Done a =>
      match face_sides ex m t c r with
      | Done b => Done (map (fun n => (n, d)) a ++ b)
      | x => x
      end
    | Threw => Threw
    | NoFuel => NoFuel
    end
  end.

(** dccrg.hpp:2883-3010 get_face_neighbors_of (abort on a cell without neighbors_) *)
Definition get_face_neighbors_of (ex : Z -> bool) (m : mapping) (t : topo) (c : Z)
  : outcome (list (Z * Z)) :=
  if negb (has_neighbors ex m c) then Threw else face_sides ex m t c dirs.

(** the values min, min + inc, ... <= max of the loops dccrg.hpp:5024-5026 *)
Definition range_by (lo hi inc : Z) : list Z :=
  map (fun k => lo + Z.of_nat k * inc) (seq 0 (Z.to_nat ((hi - lo) / inc + 1))).

(** dccrg.hpp:4963-5085 (without DEBUG); [indices += index_increase] is taken without
    wrap-around *)
Definition find_cells (ex : Z -> bool) (m : mapping) (imin imax : idx) (lo hi : Z) : list Z :=
  let inc := shl1 (m_max m - hi) in
  let visited := flat_map (fun z => flat_map (fun y => map (fun x =>
      get_existing_cell ex m (Idx x y z) lo hi)
    (range_by (ix imin) (ix imax) inc)) (range_by (iy imin) (iy imax) inc))
    (range_by (iz imin) (iz imax) inc) in
  rev (fold_left (fun acc c =>
    if negb (c =? get_child_ex ex m c) then acc
    else if existsb (Z.eqb c) acc then acc else c :: acc) visited []).
