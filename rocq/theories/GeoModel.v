(** Model of the geometry classes: dccrg_no_geometry.hpp, dccrg_cartesian_geometry.hpp and
    dccrg_stretched_cartesian_geometry.hpp.  Definitions only.

    The functions are written once over a set of arithmetic operations, which is instantiated by
    exact rational numbers (an idealisation: no rounding, no overflow, no infinities) and by the
    64 bit floating point numbers of the C++ code (SpecFloat of Coq's library, round to nearest
    even). Arrays of three numbers are functions of the dimension. *)
From Coq Require Import QArith Qround Floats.SpecFloat.
From Verif Require Import U64 MapModel HoodModel.
Open Scope Z_scope.

(** operations of double used by the geometries *)
Record arith := Arith {
  num : Type;
  nan : num;
  add : num -> num -> num;
  sub : num -> num -> num;
  mul : num -> num -> num;
  div : num -> num -> num;
  le : num -> num -> bool;
  lt : num -> num -> bool;
  of_u64 : Z -> num;       (* conversion of an unsigned integer to double *)
  floor_u64 : num -> Z;    (* uint64_t(floor(x)) *)
  ceil : num -> num
}.

(** ** exact arithmetic: None is NaN *)
Definition lift2 (f : Q -> Q -> Q) (a b : option Q) : option Q :=
  match a, b with Some x, Some y => Some (f x y) | _, _ => None end.
(** division by zero gives NaN instead of an infinity *)
Definition exact_div (a b : option Q) : option Q :=
  match a, b with Some x, Some y => if Qeq_bool y 0 then None else Some (x / y)%Q | _, _ => None end.
Definition exact_le (a b : option Q) : bool := match a, b with Some x, Some y => Qle_bool x y | _, _ => false end.
Definition exact_lt (a b : option Q) : bool := match a, b with Some x, Some y => negb (Qle_bool y x) | _, _ => false end.
Definition exact : arith :=
  Arith (option Q) None (lift2 Qplus) (lift2 Qminus) (lift2 Qmult) exact_div exact_le exact_lt
    (fun n => Some (inject_Z n))
    (fun a => match a with Some x => u64 (Qfloor x) | None => 0 end)
    (fun a => match a with Some x => Some (inject_Z (Qceiling x)) | None => None end).

(** ** IEEE 754 binary64 *)
Definition b64_of_Z (n : Z) : spec_float := binary_normalize 53 1024 n 0 false.
Definition b64_floor (x : spec_float) : Z :=
  match x with
  | S754_finite s p e =>
    let n := if s then Zneg p else Zpos p in
    if 0 <=? e then n * 2 ^ e else n / 2 ^ (- e)
  | _ => 0
  end.
Definition b64_ceil (x : spec_float) : spec_float :=
  match x with
  | S754_finite s p e => if 0 <=? e then x else b64_of_Z (- ((if s then Zpos p else Zneg p) / 2 ^ (- e)))
  | _ => x
  end.
Definition b64_le (a b : spec_float) : bool := match SFcompare a b with Some Lt | Some Eq => true | _ => false end.
Definition b64_lt (a b : spec_float) : bool := match SFcompare a b with Some Lt => true | _ => false end.
Definition binary64 : arith :=
  Arith spec_float S754_nan (SFadd 53 1024) (SFsub 53 1024) (SFmul 53 1024) (SFdiv 53 1024) b64_le b64_lt
    b64_of_Z (fun x => u64 (b64_floor x)) b64_ceil.

Section Geometry.
Context (A : arith) (m : mapping) (t : topo).
Notation "a + b" := (add A a b). Notation "a - b" := (sub A a b).
Notation "a * b" := (mul A a b). Notation "a / b" := (div A a b).
Notation "a <= b" := (le A a b). Notation "a < b" := (lt A a b).
Notation real := (num A).
Notation "# n" := (of_u64 A n) (at level 2).
Definition vec : Type := dim -> real.

(** the test that opens get_length, get_center and get_level_0_cell_coord_start_index of all
    three classes, e.g. dccrg_cartesian_geometry.hpp:288-290 *)
Definition no_such_cell (c : Z) : bool :=
  (c =? error_cell)%Z || (get_refinement_level m c <? 0)%Z || (m_max m <? get_refinement_level m c)%Z.
Definition level_outside (l : Z) : bool := (l <? 0)%Z || (m_max m <? l)%Z.

(** get_real_coordinate in one dimension:
    dccrg_cartesian_geometry.hpp:537-563, dccrg_stretched_cartesian_geometry.hpp:518-544 *)
Definition real_coordinate (start end_ x : real) (periodic : bool) : real :=
  if (start <= x) && (x <= end_) then x
  else if periodic then
    let grid_length := end_ - start in
    if x < start then x + grid_length * ceil A ((start - x) / grid_length)
    else x - grid_length * ceil A ((x - end_) / grid_length)
  else nan A.

(** ** No_Geometry *)
Definition no_start : vec := fun _ => # 0.                               (* 141-145 *)
Definition no_end : vec := fun k => # (mlen m k).                         (* 155-164 *)
(** dccrg_no_geometry.hpp:183-208 *)
Definition no_length (c : Z) : vec := fun _ =>
  if no_such_cell c then nan A else # 1 / # (shl1 (get_refinement_level m c)).
(** dccrg_no_geometry.hpp:217-252 *)
Definition no_center (c : Z) : vec := fun k =>
  if no_such_cell c then nan A else
  # (get (get_indices m c) k) / # (shl1 (m_max m)) + no_length c k / # 2.
(** dccrg_no_geometry.hpp:266-278 and 292-304 *)
Definition no_min (c : Z) : vec := fun k => no_center c k - no_length c k / # 2.
Definition no_max (c : Z) : vec := fun k => no_center c k + no_length c k / # 2.
(** the index of some dimension is larger than the grid:
    dccrg_no_geometry.hpp:332-344, dccrg_cartesian_geometry.hpp:444-456 *)
Definition index_outside (i : idx) : bool :=
  (glen64 m DX <? get i DX)%Z || (glen64 m DY <? get i DY)%Z || (glen64 m DZ <? get i DZ)%Z.
(** dccrg_no_geometry.hpp:313-362 *)
Definition no_center_at (l : Z) (i : idx) : vec := fun k =>
  if level_outside l then nan A else if index_outside i then nan A else
  # (get i k) * (# 1 / # (shl1 (m_max m))) + # 1 / # (shl1 l) / # 2.
(** dccrg_no_geometry.hpp:397-438: [distance = -given_coordinate] is written as a subtraction
    from zero; the first bound is 0.0 and the grid length is the end *)
Definition no_real_coordinate (x : vec) : vec := fun k =>
  if (# 0 <= x k) && (x k <= no_end k) then x k
  else if per t k then
    if x k < # 0 then x k + no_end k * ceil A ((# 0 - x k) / no_end k)
    else x k - no_end k * ceil A ((x k - no_end k) / no_end k)
  else nan A.
(** dccrg_no_geometry.hpp:447-475 *)
Definition no_indices (x : vec) : idx := vmap (fun k =>
  let y := no_real_coordinate x k in
  if (# 0 <= y) && (y <= no_end k) then floor_u64 A (y * # (shl1 (m_max m))) else error_index).
(** dccrg_no_geometry.hpp:371-383 *)
Definition no_cell (l : Z) (x : vec) : Z :=
  if level_outside l then error_cell else get_cell_from_indices m (no_indices x) l.

(** ** Cartesian_Geometry *)
Record cartesian := Cartesian { ca_start : vec; ca_length0 : vec }.
Definition all_dims (f : dim -> bool) : bool := f DX && f DY && f DZ.
(** dccrg_cartesian_geometry.hpp:186-207 *)
Definition cartesian_set (old given : cartesian) : bool * cartesian :=
  if all_dims (fun k => negb (ca_length0 given k <= # 0)) then (true, given) else (false, old).
Context (c : cartesian).
Definition ca_end : vec := fun k => ca_start c k + # (mlen m k) * ca_length0 c k.     (* 244-266 *)
(** dccrg_cartesian_geometry.hpp:284-309 *)
Definition ca_length (id : Z) : vec := fun k =>
  if no_such_cell id then nan A else ca_length0 c k * (# 1 / # (shl1 (get_refinement_level m id))).
(** dccrg_cartesian_geometry.hpp:318-364 *)
Definition ca_center (id : Z) : vec := fun k =>
  if no_such_cell id then nan A else
  ca_start c k + # (get (get_indices m id) k) * ca_length0 c k / # (shl1 (m_max m)) + ca_length id k / # 2.
(** dccrg_cartesian_geometry.hpp:378-390 and 404-416 *)
Definition ca_min (id : Z) : vec := fun k => ca_center id k - ca_length id k / # 2.
Definition ca_max (id : Z) : vec := fun k => ca_center id k + ca_length id k / # 2.
(** dccrg_cartesian_geometry.hpp:425-488 *)
Definition ca_center_at (l : Z) (i : idx) : vec := fun k =>
  if level_outside l then nan A else if index_outside i then nan A else
  ca_start c k + # (get i k) * ca_length0 c k * (# 1 / # (shl1 (m_max m)))
  + ca_length0 c k * (# 1 / # (shl1 l) / # 2).
(** dccrg_cartesian_geometry.hpp:523-567 *)
Definition ca_real_coordinate (x : vec) : vec := fun k => real_coordinate (ca_start c k) (ca_end k) (x k) (per t k).
(** dccrg_cartesian_geometry.hpp:576-609 *)
Definition ca_indices (x : vec) : idx := vmap (fun k =>
  let y := ca_real_coordinate x k in
  if (ca_start c k <= y) && (y <= ca_end k)
  then floor_u64 A ((y - ca_start c k) / (ca_length0 c k / # (shl1 (m_max m)))) else error_index).
(** dccrg_cartesian_geometry.hpp:497-509 *)
Definition ca_cell (l : Z) (x : vec) : Z :=
  if level_outside l then error_cell else get_cell_from_indices m (ca_indices x) l.
End Geometry.
Arguments Cartesian {A}. Arguments ca_start {A}. Arguments ca_length0 {A}.

(** ** Stretched_Cartesian_Geometry *)

(** results of functions that read vectors of coordinates: [Outside] is a read outside of a
    vector, which is undefined behaviour; [Endless] that the given number of steps is not enough *)
Inductive result (X : Type) := Value (x : X) | Outside | Endless.
Arguments Value {X}. Arguments Outside {X}. Arguments Endless {X}.
Definition rbind {X Y} (r : result X) (f : X -> result Y) : result Y :=
  match r with Value x => f x | Outside => Outside | Endless => Endless end.
Notation "'let*' x ':=' r 'in' f" := (rbind r (fun x => f)) (at level 200, x name, r at level 100, f at level 200).

Section Stretched.
Context (A : arith) (m : mapping) (t : topo).
Notation "a + b" := (add A a b). Notation "a - b" := (sub A a b).
Notation "a * b" := (mul A a b). Notation "a / b" := (div A a b).
Notation "a <= b" := (le A a b). Notation "a < b" := (lt A a b).
Notation real := (num A).
Notation "# n" := (of_u64 A n) (at level 2).
(** parameters.coordinates *)
Definition coordinates : Type := dim -> list real.

(** an element of a std::vector *)
Definition at_index (l : list real) (i : Z) : result real :=
  if (i <? 0)%Z || (Z.of_nat (length l) <=? i)%Z then Outside else
  match nth_error l (Z.to_nat i) with Some x => Value x | None => Outside end.
(** dccrg_stretched_cartesian_geometry.hpp:193-203 *)
Fixpoint increasing (l : list real) : bool :=
  match l with
  | a :: r => match r with b :: _ => negb (b <= a) && increasing r | [] => true end
  | [] => true
  end.
(** dccrg_stretched_cartesian_geometry.hpp:178-203: one dimension; [length + 1] is a uint64_t *)
Definition acceptable (k : dim) (l : list real) : bool :=
  negb (Z.of_nat (length l) <? 2)%Z && (Z.of_nat (length l) =? add64 (mlen m k) 1)%Z && increasing l.
(** dccrg_stretched_cartesian_geometry.hpp:172-210 *)
Definition stretched_set (old given : coordinates) : bool * coordinates :=
  if acceptable DX (given DX) && acceptable DY (given DY) && acceptable DZ (given DZ)
  then (true, given) else (false, old).
(** integers from 0 to n *)
Definition upto (n : Z) : list Z := map Z.of_nat (seq 0 (Z.to_nat (n + 1)%Z)).
(** dccrg_stretched_cartesian_geometry.hpp:138-150 *)
Definition stretched_reset : coordinates := fun k => map (fun i => # i) (upto (mlen m k)).
(** dccrg_stretched_cartesian_geometry.hpp:223-251: m' is the mapping of the other geometry *)
Definition stretched_set_cartesian (old : coordinates) (m' : mapping) (o : cartesian A) : bool * coordinates :=
  if (mlen m DX =? mlen m' DX)%Z && (mlen m DY =? mlen m' DY)%Z && (mlen m DZ =? mlen m' DZ)%Z
  then stretched_set old (fun k => map (fun i => ca_start o k + # i * ca_length0 o k) (upto (mlen m' k)))
  else (false, old).

Context (s : coordinates).
Definition st_start (k : dim) : result real := at_index (s k) 0.              (* 261-269 *)
Definition st_end (k : dim) : result real := at_index (s k) (mlen m k).       (* 279-289 *)
(** dccrg_stretched_cartesian_geometry.hpp:616-641 *)
Definition st_start_index (c : Z) (k : dim) : Z :=
  if no_such_cell m c then error_index else (get (get_indices m c) k / shl1 (m_max m))%Z.
(** the width of the unrefined cell at given place, 317-319, 373-375, 587-589 *)
Definition st_width (k : dim) (i : Z) : result real :=
  let* b := at_index (s k) (add64 i 1) in
  let* a := at_index (s k) i in Value (b - a).
(** dccrg_stretched_cartesian_geometry.hpp:298-337 *)
Definition st_length (c : Z) (k : dim) : result real :=
  if no_such_cell m c then Value (nan A) else
  let* w := st_width k (st_start_index c k) in
  Value (w / # (shl1 (get_refinement_level m c))).
(** dccrg_stretched_cartesian_geometry.hpp:346-403 *)
Definition st_center (c : Z) (k : dim) : result real :=
  if no_such_cell m c then Value (nan A) else
  let i := st_start_index c k in
  let* w := st_width k i in
  let* l := st_length c k in
  let* a := at_index (s k) i in
  Value (a + w / # (shl1 (m_max m)) * # (sub64 (get (get_indices m c) k) (mul64 i (shl1 (m_max m)))) + l / # 2).
(** dccrg_stretched_cartesian_geometry.hpp:417-429 and 443-455 *)
Definition st_min (c : Z) (k : dim) : result real :=
  let* x := st_center c k in let* l := st_length c k in Value (x - l / # 2).
Definition st_max (c : Z) (k : dim) : result real :=
  let* x := st_center c k in let* l := st_length c k in Value (x + l / # 2).
(** dccrg_stretched_cartesian_geometry.hpp:464-469 *)
Definition st_center_at (i : idx) (l : Z) (k : dim) : result real := st_center (get_cell_from_indices m i l) k.
(** dccrg_stretched_cartesian_geometry.hpp:504-548 *)
Definition st_real_coordinate (x : vec A) (k : dim) : result real :=
  let* a := st_start k in let* b := st_end k in Value (real_coordinate A a b (x k) (per t k)).

(** dccrg_stretched_cartesian_geometry.hpp:580-583: the rest of the vector from position i on *)
Fixpoint coord_search (x : real) (rest : list real) (i : Z) : result Z :=
  match rest with
  | [] => Outside
  | a :: r => if a < x then coord_search x r (add64 i 1) else Value i
  end.
(** dccrg_stretched_cartesian_geometry.hpp:592-598 *)
Fixpoint offset_search (fuel : nat) (x a w : real) (i : Z) : result Z :=
  match fuel with
  | O => Endless
  | S f => if a + # i * w < x then offset_search f x a w (add64 i 1) else Value i
  end.
(** dccrg_stretched_cartesian_geometry.hpp:571-603 in one dimension; coordinates are not wrapped
    in periodic dimensions *)
Definition st_index (fuel : nat) (x : real) (k : dim) : result Z :=
  let* a := st_start k in
  let* b := st_end k in
  if (a <= x) && (x <= b) then
    let* found := coord_search x (s k) 0 in
    let i := sub64 found 1 in
    let* w := st_width k i in
    let* y := at_index (s k) i in
    let* off := offset_search fuel x y (w / # (shl1 (m_max m))) 0 in
    Value (add64 (mul64 i (shl1 (m_max m))) (sub64 off 1))
  else Value error_index.
(** dccrg_stretched_cartesian_geometry.hpp:557-607 *)
Definition st_indices (fuel : nat) (x : vec A) : result idx :=
  let* a := st_index fuel (x DX) DX in
  let* b := st_index fuel (x DY) DY in
  let* c := st_index fuel (x DZ) DZ in Value (Idx a b c).
(** dccrg_stretched_cartesian_geometry.hpp:478-490 *)
Definition st_cell (fuel : nat) (l : Z) (x : vec A) : result Z :=
  if level_outside m l then Value error_cell else
  let* i := st_indices fuel x in Value (get_cell_from_indices m i l).
End Stretched.
