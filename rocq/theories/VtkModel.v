(** Model of write_vtk_file, dccrg.hpp:3375-3444.  Definitions only.
    The file is the list of its words; white space is not kept.  Files that cannot be opened or
    written are not modelled. *)
From Coq Require Import QArith Qround Qabs.
From Verif Require Import U64 MapModel HoodModel Sets.
Open Scope Z_scope.

Inductive word := Header | Points | Float | Cells | Types | Int (n : Z) | Real (x : option Q).

(** what operator<< writes of a double with the default precision: six significant digits,
    half to even; None is NaN *)
Definition half_even (q : Q) : Z :=
  let f := Qfloor q in
  match Qcompare (q - inject_Z f) (1 # 2) with Lt => f | Gt => f + 1 | Eq => if Z.even f then f else f + 1 end.
Definition pow10 (e : Z) : Q := if 0 <=? e then inject_Z (10 ^ e) else (/ inject_Z (10 ^ (- e)))%Q.
(** the largest e with 10^e <= q is searched between bounds from binary logarithms *)
Fixpoint exponent (n : nat) (hi : Z) (q : Q) : Z :=
  match n with O => hi | S n => if Qle_bool (pow10 hi) q then hi else exponent n (hi - 1) q end.
Definition log2_diff (q : Q) : Z := Z.log2 (Qnum q) - Z.log2 (Z.pos (Qden q)).
Definition least_exponent (q : Q) : Z := let d := log2_diff q - 1 in if 0 <=? d then d / 4 else d / 3.
Definition most_exponent (q : Q) : Z := let d := log2_diff q + 1 in if 0 <=? d then d / 3 else d / 4.
Definition decimal_exponent (q : Q) : Z := exponent (Z.to_nat (most_exponent q - least_exponent q)) (most_exponent q) q.
Definition six_digits (x : option Q) : option Q :=
  match x with
  | None => None
  | Some q =>
    if Qeq_bool q 0 then Some 0%Q else
    let a := Qabs.Qabs q in
    let u := pow10 (decimal_exponent a - 5) in
    let r := (inject_Z (half_even (a / u)) * u)%Q in
    Some (if Qle_bool 0 q then r else - r)%Q
  end.

Section Write.
(** the bounds of cells (geometry.get_min and get_max) and what is written of a number *)
Context (lo hi : Z -> dim -> option Q) (out : option Q -> option Q).
(** dccrg.hpp:3407-3416 *)
Definition corners (c : Z) : list word :=
  flat_map (fun p => map (fun x => Real (out x)) [(if fst (fst p) : bool then hi c DX else lo c DX); (if snd (fst p) : bool then hi c DY else lo c DY); (if snd p : bool then hi c DZ else lo c DZ)])
    [(false, false, false); (true, false, false); (false, true, false); (true, true, false);
     (false, false, true); (true, false, true); (false, true, true); (true, true, true)].
(** dccrg.hpp:3421-3427: j is an unsigned int; with 2^32 or more cells the loop over j does not end,
    which is not modelled *)
Definition point_numbers (j : Z) : list word := Int 8 :: map (fun i => Int ((j * 8 + i) mod 2 ^ 32)) [0; 1; 2; 3; 4; 5; 6; 7].
(** dccrg.hpp:3391-3434 *)
Definition write_vtk (cells : list Z) : list word :=
  let leaf_cells := sort cells in
  let size := Z.of_nat (length leaf_cells) in
  [Header; Points; Int (size * 8); Float] ++ flat_map corners leaf_cells ++
  [Cells; Int size; Int (size * 9)] ++ flat_map (fun j => point_numbers (Z.of_nat j)) (seq 0 (length leaf_cells)) ++
  [Types; Int size] ++ map (fun _ => Int 11) leaf_cells.
End Write.
