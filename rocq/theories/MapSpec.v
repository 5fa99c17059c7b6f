(** Specification of the cell numbering, independent of the model's functions: cells are
    dyadic boxes of a 3d grid, numbered level by level, x fastest.  No wrap-around here. *)
From Verif Require Import U64 MapModel.
Open Scope Z_scope.

(** number of cells at levels below l: G * (1 + 8 + ... + 8^(l-1)) *)
Definition before (G l : Z) : Z := G * ((8 ^ l - 1) / 7).

(** a cell as a geometric object: level and position in units of its own size *)
Record cube := Cube { q_l : Z; q_x : Z; q_y : Z; q_z : Z }.

Record dims := Dims { d0 : Z; d1 : Z; d2 : Z; dmax : Z }.
Definition dims_of (m : mapping) : dims := Dims (m_l0 m) (m_l1 m) (m_l2 m) (m_max m).
Definition vol (d : dims) : Z := d0 d * d1 d * d2 d.

(** cube [q] is one of the possible cells of the grid *)
Definition in_dims (d : dims) (q : cube) : Prop :=
  0 <= q_l q <= dmax d /\
  0 <= q_x q < d0 d * 2 ^ q_l q /\
  0 <= q_y q < d1 d * 2 ^ q_l q /\
  0 <= q_z q < d2 d * 2 ^ q_l q.

(** the id documented for a cell: numbering starts from 1, coarser levels first, x fastest *)
Definition id_of (d : dims) (q : cube) : Z :=
  1 + before (vol d) (q_l q)
  + q_x q + q_y q * (d0 d * 2 ^ q_l q) + q_z q * ((d0 d * 2 ^ q_l q) * (d1 d * 2 ^ q_l q)).

(** side of a cube and its lower corner in units of the smallest possible cell (indices) *)
Definition side (d : dims) (q : cube) : Z := 2 ^ (dmax d - q_l q).
Definition corner (d : dims) (q : cube) : idx :=
  Idx (q_x q * side d q) (q_y q * side d q) (q_z q * side d q).

(** grid size in indices *)
Definition in_grid (d : dims) (i : idx) : Prop :=
  0 <= ix i < d0 d * 2 ^ dmax d /\ 0 <= iy i < d1 d * 2 ^ dmax d /\ 0 <= iz i < d2 d * 2 ^ dmax d.

(** index triple i is inside of cube q *)
Definition inside (d : dims) (q : cube) (i : idx) : Prop :=
  q_x q * side d q <= ix i < (q_x q + 1) * side d q /\
  q_y q * side d q <= iy i < (q_y q + 1) * side d q /\
  q_z q * side d q <= iz i < (q_z q + 1) * side d q.

(** a mapping whose ids fit into 64 bits and whose last cell is up to date *)
Definition wf (m : mapping) : Prop :=
  0 < m_l0 m /\ 0 < m_l1 m /\ 0 < m_l2 m /\ 0 <= m_max m /\
  before (vol (dims_of m)) (m_max m + 1) < W /\
  m_last m = before (vol (dims_of m)) (m_max m + 1).

(** decidable version used by examples *)
Definition wfb (m : mapping) : bool :=
  (0 <? m_l0 m) && (0 <? m_l1 m) && (0 <? m_l2 m) && (0 <=? m_max m) &&
  (before (vol (dims_of m)) (m_max m + 1) <? W) &&
  (m_last m =? before (vol (dims_of m)) (m_max m + 1)).

Lemma wfb_wf m : wfb m = true -> wf m.
Proof. unfold wfb, wf. rewrite !andb_true_iff. lia. Qed.
