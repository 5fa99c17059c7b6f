(** The serial solver /repo/tests/poisson/reference_poisson_solve.hpp with which the programs in tests/poisson compare
    their results.  Definitions only.  Numbers are exact rationals; a vector is its size and a function of indices.
    [size_t] has no limit. *)
From Coq Require Import List Arith QArith Qcanon.
Import ListNotations.
Open Scope Qc_scope.

(** an index as a number *)
Definition qn (n : nat) : Qc := Q2Qc (inject_Z (Z.of_nat n)).
Definition vec : Type := nat -> Qc.
(** v[i] = a *)
Definition at_put (v : vec) (i : nat) (a : Qc) : vec := fun j => if Nat.eqb j i then a else v j.
(** reference_poisson_solve.hpp:199-205.  size: of both vectors *)
Record serial := Serial { is_initialized : bool; size : nat; dx : Qc; solution : vec; rhs : vec }.
Inductive result := Ok (s : serial) | Abort | OutOfRange.
(** reference_poisson_solve.hpp:42-45; the width is not set *)
Definition default_constructor (any : Qc) : serial := Serial false 0 any (fun _ => 0) (fun _ => 0).
(** reference_poisson_solve.hpp:66-82 *)
Definition initialize (number_of_cells : nat) (given_dx : Qc) : result :=
  if Qclt_le_dec 0 given_dx then Ok (Serial true number_of_cells given_dx (fun _ => 0) (fun _ => 0)) else Abort.
(** get_rhs(index) = a: reference_poisson_solve.hpp:87-90 *)
Definition set_rhs (s : serial) (i : nat) (a : Qc) : result :=
  if (i <? size s)%nat then Ok (Serial (is_initialized s) (size s) (dx s) (solution s) (at_put (rhs s) i a)) else OutOfRange.
(** reference_poisson_solve.hpp:111-114 *)
Definition get_solution (s : serial) (i : nat) : option Qc := if (i <? size s)%nat then Some (solution s i) else None.
(** solve, reference_poisson_solve.hpp:138-196, one loop after another: the sum of rhs, 152-155 *)
Definition total_rhs (n : nat) (r : vec) : Qc := fold_left (fun a i => a + r i) (seq 0 n) 0.
(** 157-160 *)
Definition centered (n : nat) (r : vec) : vec :=
  let avg_charge := total_rhs n r / qn n in fold_left (fun r i => at_put r i (r i - avg_charge)) (seq 0 n) r.
(** 181-185 *)
Definition first_cell (n : nat) (scaling : Qc) (r : vec) : Qc :=
  fold_left (fun a i => a + scaling * qn (i + 1) * r i) (seq 0 n) 0 / qn n.
(** 189-194 *)
Definition rest_of_cells (n : nat) (scaling : Qc) (r s : vec) : vec :=
  fold_left (fun s i => at_put s i (scaling * r (i - 1)%nat + qn 2 * s (i - 1)%nat - s (i - 2)%nat)) (seq 2 (n - 2)) s.
Definition solve (s : serial) : result :=
  if negb (is_initialized s) then Abort
  else if (size s =? 0)%nat then Ok s
  else
    let n := size s in
    let r := centered n (rhs s) in
    let s0 := at_put (solution s) (n - 1) 0 in
    if (n =? 1)%nat then Ok (Serial true n (dx s) s0 r)
    else
      let scaling := dx s * dx s in
      let s1 := at_put s0 0 (first_cell n scaling r) in
      let s2 := at_put s1 1 (scaling * r 0%nat + qn 2 * s1 0%nat) in
      Ok (Serial true n (dx s) (rest_of_cells n scaling r s2) r).
(** what a user can do *)
Inductive obtained : serial -> Prop :=
| o_default a : obtained (default_constructor a)
| o_initialize n a s : initialize n a = Ok s -> obtained s
| o_set s i a s' : obtained s -> set_rhs s i a = Ok s' -> obtained s'
| o_solve s s' : obtained s -> solve s = Ok s' -> obtained s'.
