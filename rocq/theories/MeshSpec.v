(** Specification of meshes and neighbors, independent of the search functions: cells are boxes
    of index space, periodic dimensions are unrolled, and a cell is a neighbor at a
    neighborhood offset if its box meets the region at that offset. *)
From Verif Require Import U64 MapModel MapSpec MapProps HoodModel.
Open Scope Z_scope.

(** size of the grid in indices in dimension k, no wrap-around *)
Definition glen (m : mapping) (k : dim) : Z := mlen m k * 2 ^ m_max m.

(** the unrolled position x is the grid position i: equal in non-periodic dimensions, equal up
    to whole grid lengths in periodic ones *)
Definition lands (m : mapping) (t : topo) (x i : idx) : Prop :=
  in_grid (dims_of m) i /\
  forall k, if per t k then exists n, get x k = get i k + n * glen m k else get x k = get i k.

Definition idx_of := get_indices.
Definition len_of := get_cell_length_in_indices.
Definition lvl_of := get_refinement_level.

(** the lower corner of n is at offset o (in indices) from the lower corner of c *)
Definition placed (m : mapping) (t : topo) (c n : Z) (o : idx) : Prop :=
  lands m t (vadd (idx_of m c) o) (idx_of m n).

(** the box of n at offset o meets the region at neighborhood item h of c, which has the size
    of c and is h cell lengths away *)
Definition meets (m : mapping) (c n : Z) (h o : idx) : Prop :=
  forall k, get o k < (get h k + 1) * len_of m c /\ get h k * len_of m c < get o k + len_of m n.

Definition nbr (m : mapping) (t : topo) (c : Z) (h : idx) (n : Z) (o : idx) : Prop :=
  placed m t c n o /\ meets m c n h o.

(** n is in the neighborhood H of c *)
Definition sees (m : mapping) (t : topo) (H : hood) (c n : Z) : Prop :=
  exists h o, In h H /\ nbr m t c h n o.

(** every position of the grid is in exactly one existing cell *)
Definition tiling (m : mapping) (ex : Z -> bool) : Prop :=
  (forall c, ex c = true -> valid m c) /\
  (forall i, in_grid (dims_of m) i -> exists! c, ex c = true /\ covers m c i).

(** 2:1 rule for neighborhood H *)
Definition balanced (m : mapping) (t : topo) (H : hood) (ex : Z -> bool) : Prop :=
  forall c n, ex c = true -> ex n = true -> sees m t H c n ->
  Z.abs (lvl_of m c - lvl_of m n) <= 1.

(** the documented default neighborhood of length n *)
Definition in_default (n : Z) (h : idx) : Prop :=
  if n =? 0 then
    exists k s, (s = 1 \/ s = -1) /\ h = upd vzero k s
  else h <> vzero /\ forall k, - n <= get h k <= n.

Definition mesh (m : mapping) (t : topo) (n : Z) (ex : Z -> bool) : Prop :=
  wf m /\ 0 <= n /\ tiling m ex /\ balanced m t (default_hood_of n) ex.
