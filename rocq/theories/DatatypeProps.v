(** C85: which function says what is transferred of a cell *)
From Verif Require Import DatatypeModel.
From Coq Require Import ZArith List Bool Lia.
Import ListNotations.
Open Scope Z_scope.

(** some function is always chosen, it is one that the class has, and none only if the class has none *)
Definition has (m : members) (c : call) : Prop :=
  match c with CallArgs true => args_const m = true | CallArgs false => args m = true | CallNone true => none_const m = true | CallNone false => none m = true
  | CallBasic => args_const m = false /\ args m = false /\ none_const m = false /\ none m = false | CallError => False end.
Theorem c85_resolves m : has m (get_cell_mpi_datatype m).
Proof. destruct m as [[] [] [] []]; cbn; auto. Qed.
(** a function that is not const is called whenever there is one *)
Theorem c85_not_const_first m : (args m = true \/ none m = true) <-> (get_cell_mpi_datatype m = CallArgs false \/ get_cell_mpi_datatype m = CallNone false).
Proof. destruct m as [[] [] [] []]; cbn; split; intros [H|H]; try discriminate; auto. Qed.
(** the function with arguments is called exactly if it is not const, or is const and the one without arguments is not
    modifiable or missing *)
Theorem c85_with_arguments m : (exists b, get_cell_mpi_datatype m = CallArgs b) <-> args m = true \/ (args_const m = true /\ none m = false).
Proof. destruct m as [[] [] [] []]; cbn; split; intros H; try (destruct H as [? H]; discriminate); try (destruct H as [H|[H H']]; discriminate); eauto. Qed.
(** dccrg_get_cell_datatype.hpp:132 and 177 "Gives precedence to get_mpi_datatype which takes arguments": not if that one is
    const and the one without arguments is not *)
Theorem c85_precedence_refuted : exists m, (args m = true \/ args_const m = true) /\ get_cell_mpi_datatype m = CallNone false.
Proof. exists (Members true false false true). cbn. auto. Qed.
(** it holds among functions that are const and among those that are not *)
Theorem c85_precedence_same_const m : (args m = true -> get_cell_mpi_datatype m = CallArgs false) /\
  (args_const m = true -> args m = false -> none m = false -> get_cell_mpi_datatype m = CallArgs true).
Proof. destruct m as [[] [] [] []]; cbn; split; intros; congruence. Qed.

(** ** Types without functions *)
(** the type of C or C++ that every MPI type is for, from the MPI standard *)
Definition stands_for (m : mtype) : ctype :=
  match m with
  | MPI_CHAR => Char | MPI_UNSIGNED_CHAR => UChar | MPI_SHORT => Short | MPI_UNSIGNED_SHORT => UShort | MPI_INT => Int | MPI_UNSIGNED => UInt
  | MPI_LONG => Long | MPI_UNSIGNED_LONG => ULong | MPI_LONG_LONG => LongLong | MPI_UNSIGNED_LONG_LONG => ULongLong
  | MPI_FLOAT => Float | MPI_DOUBLE => Double | MPI_LONG_DOUBLE => LongDouble | MPI_WCHAR => WChar | MPI_CXX_BOOL => Bool
  end.
(** every built-in type but signed char has its own MPI type *)
Theorem c85_own_type t n m : basic (Scalar t) = Some (n, m) -> stands_for m = t \/ (t = SChar /\ stands_for m = Char).
Proof. intros E. injection E as _ <-. destruct t; auto. Qed.
Section Sizes.
(** sizeof, and sizes of MPI types, which are those of the types they are for *)
Context (size : ctype -> Z) (msize : mtype -> Z) (Hs : forall m, msize m = size (stands_for m)) (Hc : size SChar = size Char).
Definition bytes (p : plain) : Z := match p with Scalar t => size t | Array t n => n * size t end.
Definition below (p : plain) : Prop := match p with Scalar _ => True | Array _ n => 0 <= n < 2 ^ 31 end.
(** all of the cell is transferred, if the number of elements fits in an int *)
Theorem c85_whole_cell p n m : below p -> basic p = Some (n, m) -> n * msize m = bytes p.
Proof.
  assert (forall t, msize (mpi_of t) = size t) as A by (intros t; rewrite Hs; destruct t; cbn; congruence).
  destruct p as [t|t k]; cbn [below basic bytes]; intros L E.
  - injection E as <- <-. rewrite A. lia.
  - assert (to_int k = k) as T by (unfold to_int; rewrite Z.mod_small; lia). rewrite <- A. destruct t; [..|discriminate]; injection E as <- <-; rewrite T; reflexivity.
Qed.
End Sizes.
(** with more elements the count given to MPI is negative *)
Theorem c85_large_array_refuted : exists n m, basic (Array Double (2 ^ 31)) = Some (n, m) /\ n < 0.
Proof. eexists. eexists. split; [reflexivity|]. vm_compute. reflexivity. Qed.
(** arrays can be cells exactly if their elements are not bool, although a bool can be a cell *)
Theorem c85_arrays t n : basic (Array t n) <> None <-> t <> Bool.
Proof. destruct t; cbn; split; intros H; try discriminate; congruence. Qed.
Theorem c85_scalars t : basic (Scalar t) <> None.
Proof. discriminate. Qed.

(** tests/game_of_life/scalability.cpp:37-46 has only get_mpi_datatype() *)
Example c85_example : get_cell_mpi_datatype (Members false false false true) = CallNone false /\ get_cell_mpi_datatype (Members false true true false) = CallArgs false /\
  basic (Array Float 3) = Some (3, MPI_FLOAT) /\ basic (Scalar Bool) = Some (1, MPI_CXX_BOOL).
Proof. repeat split; vm_compute; reflexivity. Qed.
