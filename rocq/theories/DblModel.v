(** The parts of dccrg_length.hpp and dccrg_mapping.hpp that use double arithmetic.
    All values involved are non-negative integers below 2^1024, so a double is modelled by the
    integer it represents and every operation by the exact result rounded to 53 significant
    bits, ties to even (IEEE 754 binary64, default rounding mode). *)
From Verif Require Import U64 MapModel.
Open Scope Z_scope.

(** round a non-negative integer to 53 significant bits, nearest, ties to even *)
Definition rnd53 (n : Z) : Z :=
  let e := Z.max 0 (Z.log2 n - 52) in
  let u := 2 ^ e in
  let q := n / u in
  let r := n mod u in
  if 2 * r <? u then q * u
  else if u <? 2 * r then (q + 1) * u
  else if Z.even q then q * u else (q + 1) * u.

(** double(~uint64_t(0)): 2^64 - 1 rounds to 2^64 *)
Definition dbl_max64 : Z := rnd53 (W - 1).

Definition lengths := (Z * Z * Z)%type.

(** dccrg_length.hpp:95-134 Grid_Length::set: result and the stored length *)
Definition length_set (old given : lengths) : bool * lengths :=
  let '(a, b, c) := given in
  if (a =? 0) || (b =? 0) || (c =? 0) then (false, old)
  else if dbl_max64 <? rnd53 (rnd53 (rnd53 a + rnd53 b) + rnd53 c) then (false, old)
  else (true, given).

(** dccrg_mapping.hpp:323-327: loop body, [current_last += double(grid_length) * pow(8, lvl)].
    Multiplication by a power of 2 is exact. *)
Definition maxlvl_step (g cur lvl : Z) : Z := rnd53 (cur + rnd53 g * 8 ^ lvl).

(** the loop; pow(8, 342) is infinite, so in iteration 342 current_last becomes infinite or,
    for g = 0, NaN and the loop ends in either case: 343 iterations at most. *)
Fixpoint maxlvl_loop (fuel : nat) (g cur lvl : Z) : Z :=
  match fuel with
  | O => lvl
  | S f => if cur <=? dbl_max64 then maxlvl_loop f g (maxlvl_step g cur lvl) (lvl + 1) else lvl
  end.

(** dccrg_mapping.hpp:317-330 *)
Definition get_maximum_possible_refinement_level (m : mapping) : Z :=
  maxlvl_loop (Z.to_nat 343) (grid64 m) 0 0 - 2.

(** dccrg_mapping.hpp:110-119 *)
Definition set_length (m : mapping) (given : lengths) : bool * mapping :=
  let '(ok, (a, b, c)) := length_set (m_l0 m, m_l1 m, m_l2 m) given in
  if ok then (true, update_last_cell (Mapping a b c (m_max m) (m_last m))) else (false, m).

(** dccrg_mapping.hpp:137-146 *)
Definition set_maximum_refinement_level (m : mapping) (lvl : Z) : bool * mapping :=
  if lvl <=? get_maximum_possible_refinement_level m then
    (true, update_last_cell (Mapping (m_l0 m) (m_l1 m) (m_l2 m) lvl (m_last m)))
  else (false, m).

(** dccrg_mapping.hpp:76-80 *)
Definition default_mapping : mapping := Mapping 1 1 1 0 1.
