(** Model of dccrg_length.hpp and dccrg_mapping.hpp (definitions only).
    The constructor/setters that involve double arithmetic are in DblModel.v. *)
From Verif Require Import U64.
Open Scope Z_scope.

(** class Mapping: members length_rw (dccrg_length.hpp:140), max_refinement_level
    (dccrg_mapping.hpp:668), last_cell (:674). *)
Record mapping := Mapping {
  m_l0 : Z; m_l1 : Z; m_l2 : Z;
  m_max : Z;
  m_last : Z
}.

(** [length[0] * length[1] * length[2]] in uint64_t: dccrg_mapping.hpp:184-186, 229-231,
    273-275, 681-682 *)
Definition grid64 (m : mapping) : Z := mul64 (mul64 (m_l0 m) (m_l1 m)) (m_l2 m).

(** number of cells of level i, [... * (uint64_t(1) << (i * 3))] *)
Definition level64 (m : mapping) (i : Z) : Z := mul64 (grid64 m) (shl1 (3 * i)).

(** loop [for (int i = 0; i < refinement_level; i++) cell += ...]
    dccrg_mapping.hpp:182-188 (n iterations) *)
Fixpoint add_levels (m : mapping) (n : nat) (cell : Z) : Z :=
  match n with
  | O => cell
  | S k => add64 (add_levels m k cell) (level64 m (Z.of_nat k))
  end.

(** loop [cell -= ...] dccrg_mapping.hpp:227-233 *)
Fixpoint sub_levels (m : mapping) (n : nat) (cell : Z) : Z :=
  match n with
  | O => cell
  | S k => sub64 (sub_levels m k cell) (level64 m (Z.of_nat k))
  end.

(** dccrg_mapping.hpp:679-687 update_last_cell: sum over levels 0..max *)
Definition last_cell_of (m : mapping) : Z := add_levels m (Z.to_nat (m_max m + 1)) 0.
Definition update_last_cell (m : mapping) : mapping :=
  {| m_l0 := m_l0 m; m_l1 := m_l1 m; m_l2 := m_l2 m; m_max := m_max m;
     m_last := last_cell_of m |}.

(** dccrg_mapping.hpp:154-209 *)
Definition get_cell_from_indices (m : mapping) (i : idx) (lvl : Z) : Z :=
  if mul64 (m_l0 m) (shl1 (m_max m)) <=? ix i then error_cell else
  if mul64 (m_l1 m) (shl1 (m_max m)) <=? iy i then error_cell else
  if mul64 (m_l2 m) (shl1 (m_max m)) <=? iz i then error_cell else
  if lvl <? 0 then error_cell else
  if m_max m <? lvl then error_cell else
  let cell := add_levels m (Z.to_nat lvl) 1 in
  let d := shl1 (m_max m - lvl) in
  let x := ix i / d in
  let y := iy i / d in
  let z := iz i / d in
  let L0 := mul64 (m_l0 m) (shl1 lvl) in
  let L1 := mul64 (m_l1 m) (shl1 lvl) in
  add64 cell (add64 (add64 x (mul64 y L0)) (mul64 (mul64 z L0) L1)).

(** dccrg_mapping.hpp:271-283: the while loop; [fuel] is exactly the number of remaining
    iterations allowed by [refinement_level <= max_refinement_level]. *)
Fixpoint level_loop (fuel : nat) (m : mapping) (cell lvl cur : Z) : Z :=
  match fuel with
  | O => lvl
  | S f =>
    let cur' := add64 cur (level64 m lvl) in
    if cell <=? cur' then lvl else level_loop f m cell (lvl + 1) cur'
  end.

(** dccrg_mapping.hpp:262-290 *)
Definition get_refinement_level (m : mapping) (cell : Z) : Z :=
  if (cell =? error_cell) || (m_last m <? cell) then -1 else
  let lvl := level_loop (Z.to_nat (m_max m + 1)) m cell 0 0 in
  if m_max m <? lvl then -1 else lvl.

(** dccrg_mapping.hpp:218-254 *)
Definition get_indices (m : mapping) (cell : Z) : idx :=
  if (cell =? error_cell) || (m_last m <? cell)
  then Idx error_index error_index error_index
  else
  let lvl := get_refinement_level m cell in
  let c := sub64 (sub_levels m (Z.to_nat lvl) cell) 1 in
  let L0 := mul64 (m_l0 m) (shl1 lvl) in
  let L1 := mul64 (m_l1 m) (shl1 lvl) in
  let s := shl1 (m_max m - lvl) in
  Idx (mul64 (c mod L0) s)
      (mul64 ((c / L0) mod L1) s)
      (mul64 (c / mul64 (mul64 (m_l0 m) (m_l1 m)) (shl1 (2 * lvl))) s).

(** dccrg_mapping.hpp:298-311 *)
Definition get_cell_length_in_indices (m : mapping) (cell : Z) : Z :=
  if cell =? error_cell then error_index else
  let lvl := get_refinement_level m cell in
  if lvl <? 0 then error_index else shl1 (m_max m - lvl).

(** dccrg_mapping.hpp:339-357 *)
Definition get_child (m : mapping) (cell : Z) : Z :=
  if (cell =? error_cell) || (m_last m <? cell) then error_cell else
  let lvl := get_refinement_level m cell in
  if m_max m <=? lvl then cell else
  get_cell_from_indices m (get_indices m cell) (lvl + 1).

(** dccrg_mapping.hpp:368-384 *)
Definition get_parent (m : mapping) (cell : Z) : Z :=
  let lvl := get_refinement_level m cell in
  if (lvl <? 0) || (m_max m <? lvl) then error_cell else
  if lvl =? 0 then cell else
  get_cell_from_indices m (get_indices m cell) (lvl - 1).

Definition eight_errors : list Z :=
  [error_cell; error_cell; error_cell; error_cell; error_cell; error_cell; error_cell; error_cell].

(** dccrg_mapping.hpp:392-442. The three nested loops
    [for (off = 0; off < 2 * index_offset; off += index_offset)] run for offsets 0 and
    index_offset (exact while index_offset < 2^63, i.e. maximum level below 63). *)
Definition get_all_children (m : mapping) (cell : Z) : list Z :=
  if cell =? error_cell then eight_errors else
  let lvl := get_refinement_level m cell in
  if m_max m <=? lvl then eight_errors else
  let i := get_indices m cell in
  let lvl' := lvl + 1 in
  let off := shl1 (m_max m - lvl') in
  flat_map (fun dz => flat_map (fun dy => map (fun dx =>
    get_cell_from_indices m
      (Idx (add64 (ix i) dx) (add64 (iy i) dy) (add64 (iz i) dz)) lvl')
    [0; off]) [0; off]) [0; off].

(** dccrg_mapping.hpp:450-471 *)
Definition get_siblings (m : mapping) (cell : Z) : list Z :=
  let lvl := get_refinement_level m cell in
  if (lvl <? 0) || (m_max m <? lvl) then eight_errors else
  if lvl =? 0 then
    [cell; error_cell; error_cell; error_cell; error_cell; error_cell; error_cell; error_cell]
  else get_all_children m (get_parent m cell).

(** dccrg_mapping.hpp:480-494 *)
Definition get_level_0_parent (m : mapping) (cell : Z) : Z :=
  let lvl := get_refinement_level m cell in
  if (lvl <? 0) || (m_max m <? lvl) then error_cell else
  if lvl =? 0 then cell else
  get_cell_from_indices m (get_indices m cell) 0.
