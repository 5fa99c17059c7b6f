(** What is transferred of a cell: dccrg_get_cell_datatype.hpp. All calls in dccrg.hpp (1400, 2237, 10830, 10911, 11039,
    11111) give a modifiable cell, the data of a map reached with at(). *)
From Coq Require Import ZArith List Bool.
Import ListNotations.
Open Scope Z_scope.

(** member functions get_mpi_datatype that the user has written into the class, as seen by
    BOOST_TTI_HAS_MEMBER_FUNCTION: with (cell, sender, receiver, receiving, neighborhood) or with no arguments, const or
    not. Functions that are inherited, or callable only by conversions or default arguments, are not modelled. *)
Record members := Members { args_const : bool; args : bool; none_const : bool; none : bool }.
Inductive overload := OArgsConst | OArgs | ONoneConst | ONone | OBasic.
Definition overloads : list overload := [OArgsConst; OArgs; ONoneConst; ONone; OBasic].
(** conditions of enable_if: dccrg_get_cell_datatype.hpp:48-67, 91-109, 134-160, 179-203, 288-329 *)
Definition viable (m : members) (o : overload) : bool :=
  match o with
  | OArgsConst => args_const m
  | OArgs => args m
  | ONoneConst => none_const m && negb (args_const m)
  | ONone => none m && negb (args m)
  | OBasic => negb (args_const m) && negb (args m) && negb (none_const m) && negb (none m)
  end.
(** first parameter is const Cell_Data& (others Cell_Data&) *)
Definition by_const (o : overload) : bool := match o with OArgsConst | ONoneConst => true | _ => false end.
(** C++ overload resolution for a modifiable cell: a reference to const is worse, otherwise the parameters are the same *)
Definition better (o o' : overload) : bool := negb (by_const o) && by_const o'.
Definition same (o o' : overload) : bool :=
  match o, o' with OArgsConst, OArgsConst | OArgs, OArgs | ONoneConst, ONoneConst | ONone, ONone | OBasic, OBasic => true | _, _ => false end.
Inductive choice := Chosen (o : overload) | Ambiguous | NoMatch.
Definition resolve (m : members) : choice :=
  let vs := filter (viable m) overloads in
  match vs with
  | [] => NoMatch
  | _ => match filter (fun o => forallb (fun o' => same o o' || better o o') vs) vs with o :: _ => Chosen o | [] => Ambiguous end
  end.
(** the function of the class that the overload calls (68-83, 110-125, 161-170, 204-213, 330-339): a const cell reaches only const functions and a modifiable one
    prefers functions that are not const *)
Inductive call := CallArgs (const : bool) | CallNone (const : bool) | CallBasic | CallError.
Definition body (m : members) (o : overload) : call :=
  match o with
  | OArgsConst => if args_const m then CallArgs true else CallError
  | OArgs => if args m then CallArgs false else if args_const m then CallArgs true else CallError
  | ONoneConst => if none_const m then CallNone true else CallError
  | ONone => if none m then CallNone false else if none_const m then CallNone true else CallError
  | OBasic => CallBasic
  end.
Definition get_cell_mpi_datatype (m : members) : call := match resolve m with Chosen o => body m o | _ => CallError end.

(** types without member functions: dccrg_get_cell_datatype.hpp:226-281 (without DCCRG_USER_COMPLEX) *)
Inductive ctype := Char | SChar | UChar | Short | UShort | Int | UInt | Long | ULong | LongLong | ULongLong | Float | Double | LongDouble | WChar | Bool.
Inductive mtype := MPI_CHAR | MPI_UNSIGNED_CHAR | MPI_SHORT | MPI_UNSIGNED_SHORT | MPI_INT | MPI_UNSIGNED | MPI_LONG | MPI_UNSIGNED_LONG | MPI_LONG_LONG | MPI_UNSIGNED_LONG_LONG
  | MPI_FLOAT | MPI_DOUBLE | MPI_LONG_DOUBLE | MPI_WCHAR | MPI_CXX_BOOL.
Definition mpi_of (t : ctype) : mtype :=
  match t with
  | Char => MPI_CHAR | SChar => MPI_CHAR | UChar => MPI_UNSIGNED_CHAR | Short => MPI_SHORT | UShort => MPI_UNSIGNED_SHORT
  | Int => MPI_INT | UInt => MPI_UNSIGNED | Long => MPI_LONG | ULong => MPI_UNSIGNED_LONG | LongLong => MPI_LONG_LONG
  | ULongLong => MPI_UNSIGNED_LONG_LONG | Float => MPI_FLOAT | Double => MPI_DOUBLE | LongDouble => MPI_LONG_DOUBLE
  | WChar => MPI_WCHAR | Bool => MPI_CXX_BOOL
  end.
Inductive plain := Scalar (t : ctype) | Array (t : ctype) (n : Z).
(** std::make_tuple gives a size_t which becomes an int, modulo 2^32 as gcc does *)
Definition to_int (n : Z) : Z := (n + 2 ^ 31) mod 2 ^ 32 - 2 ^ 31.
(** get_mpi_datatype_basic: None is the failing static_assert at 216-224; there is no version for arrays of bool *)
Definition basic (p : plain) : option (Z * mtype) :=
  match p with
  | Scalar t => Some (1, mpi_of t)
  | Array Bool _ => None
  | Array t n => Some (to_int n, mpi_of t)
  end.
