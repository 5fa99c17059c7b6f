(** uint64_t arithmetic on Z: values are integers in [0, 2^64), every operation wraps. *)
From Coq Require Export ZArith List Lia Bool.
Export ListNotations.
Require Export ZifyBool.
Open Scope Z_scope.

Definition W : Z := 2 ^ 64.

(** C++ conversion to uint64_t. *)
Definition u64 (x : Z) : Z := x mod W.
Definition add64 (a b : Z) : Z := u64 (a + b).
Definition sub64 (a b : Z) : Z := u64 (a - b).
Definition mul64 (a b : Z) : Z := u64 (a * b).

(** [uint64_t(1) << n]. Undefined behaviour in C++ unless 0 <= n < 64; the predicate
    [shift_defined] states that condition and is proved wherever a theorem relies on a shift. *)
Definition shl1 (n : Z) : Z := u64 (2 ^ n).
Definition shift_defined (n : Z) : Prop := 0 <= n < 64.

(** dccrg_mapping.hpp:41 (error_index) and dccrg.hpp/dccrg_mapping.hpp error_cell *)
Definition error_cell : Z := 0.
Definition error_index : Z := W - 1.

Definition is_u64 (x : Z) : Prop := 0 <= x < W.

(** an index triple, Types<3>::indices_t (dccrg_types.hpp) *)
Record idx := Idx { ix : Z; iy : Z; iz : Z }.

Lemma W_pos : 0 < W. Proof. reflexivity. Qed.
Lemma W_val : W = 18446744073709551616. Proof. reflexivity. Qed.
Global Opaque W.

Lemma u64_small x : 0 <= x < W -> u64 x = x.
Proof. intros H. unfold u64. apply Z.mod_small. exact H. Qed.

Lemma u64_range x : 0 <= u64 x < W.
Proof. unfold u64. apply Z.mod_pos_bound, W_pos. Qed.

Lemma shl1_small n : 0 <= n < 64 -> shl1 n = 2 ^ n.
Proof.
  intros H. unfold shl1. apply u64_small. split; [apply Z.pow_nonneg; lia|].
  rewrite W_val. change 18446744073709551616 with (2 ^ 64).
  apply Z.pow_lt_mono_r; lia.
Qed.
