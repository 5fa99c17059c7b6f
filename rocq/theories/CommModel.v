(** Model of neighborhoods' neighbor lists, process boundaries, transfers of neighbor data,
    selection of cells and iterator caches on all processes.  Definitions only.

    The lists of user neighborhoods are recomputed by the class whenever cell_process changes
    (dccrg.hpp:4155-4199, 6675-6685, 10705-10745); the model computes them from cell_process
    when they are used.  Message tag overflow (dccrg.hpp:8889, 8929, 9018, 9057) and the DEBUG
    checks are not modelled. *)
From Verif Require Import U64 MapModel HoodModel MeshModel Sets RefineModel BalanceModel SfcModel History.
Open Scope Z_scope.

(** neighbors_of, neighbors_to, local and remote cells on the process boundary for one
    neighborhood *)
Record lists := Lists {
  l_of : list (Z * list (Z * idx)); l_to : list (Z * list Z); l_local : list Z; l_remote : list Z }.

Lemma pair_eq_dec (a b : Z * Z) : {a = b} + {a <> b}.
Proof. decide equality; apply Z.eq_dec. Defined.
Lemma nbr_eq_dec (a b : Z * idx) : {a = b} + {a <> b}.
Proof. decide equality; [decide equality; apply Z.eq_dec|apply Z.eq_dec]. Defined.

(** dccrg.hpp:106-148 *)
Definition has_local_neighbor_of : Z := 1.
Definition has_local_neighbor_to : Z := 2.
Definition has_remote_neighbor_of : Z := 4.
Definition has_remote_neighbor_to : Z := 8.

Section Model.
Context {D : Type} (d0 : D) (g : grid).
Notation m := (g_map g).
Notation t := (g_topo g).

(** the members for the default neighborhood *)
Definition default_lists (k : caches) : lists := Lists (k_of k) (k_to k) (k_local k) (k_remote k).
(** dccrg.hpp:9168-9175 for all cells and 9299-9412, 9471-9500; cell_process.at throws for
    data of unknown cells *)
Definition user_lists (rank : Z) (s : store D) (h : hood) : outcome lists :=
  let ex := exb s in let cells := keys (s_proc s) in
  do nof <- mapM (fun c => do l <- find_neighbors_of ex m t c h; Done (c, l)) cells;
  do nto <- mapM (fun c => do l <- find_neighbors_to ex m t c (hood_to h); Done (c, l)) cells;
  do _ <- mapM (fun c => at_ c (s_proc s)) (keys (s_data s));
  do b <- build_bnd g rank s nof nto;
  Done (Lists nof nto (fst b) (snd b)).

(** hoods are added and removed on all processes together (6532) *)
Definition lists_of (hs : hoods) (id rank : Z) (p : proc D) : outcome (option lists) :=
  if id =? default_neighborhood_id then Done (Some (default_lists (p_cache p))) else
  match hood_lookup hs id with
  | None => Done None
  | Some h => do l <- user_lists rank (p_store p) h; Done (Some l)
  end.

(** ** Transfers of neighbor data *)

(** dccrg.hpp:8803-8836 and 8985-8995: unique_cells_to_receive as (process, cell) *)
Definition recv_pairs (rank : Z) (s : store D) (L : lists) : outcome (list (Z * Z)) :=
  do x <- mapM (fun c =>
      do a <- at_ c (l_of L);
      do y <- mapM (fun n => do w <- at_ n (s_proc s); Done (if w =? rank then [] else [(w, n)]))
                (filter (fun n => negb (n =? error_cell)) (map fst a));
      Done (concat y)) (l_local L);
  Done (nodup pair_eq_dec (concat x)).
(** dccrg.hpp:8838-8852 and 8997-9008: unique_cells_to_send as (process, cell) *)
Definition send_pairs (rank : Z) (s : store D) (L : lists) : outcome (list (Z * Z)) :=
  do x <- mapM (fun c =>
      do a <- at_ c (l_to L);
      do y <- mapM (fun n => do w <- at_ n (s_proc s); Done (if w =? rank then [] else [(w, c)]))
                (filter (fun n => negb (n =? error_cell)) a);
      Done (concat y)) (l_local L);
  Done (nodup pair_eq_dec (concat x)).
(** the sorted cells with their tags 1, 2, ...: dccrg.hpp:8855-8940, 9012-9075; [listed] is the
    list of one peer *)
Definition tagged (cells : list Z) : list (Z * Z) :=
  combine cells (map (fun i => Z.of_nat i + 1) (seq 0 (length cells))).
(** dccrg.hpp:5483-5590: the sum of the sizes of the lists of all peers *)
Definition transfer_count (l : list (Z * Z)) : Z :=
  fold_left add64 (map (fun q => Z.of_nat (length (listed q l))) (ranks g)) 0.

(** ** State with copies of remote cells and user neighborhoods *)
Record xstate := XState { x_st : Z -> proc D; x_copies : Z -> list (Z * D); x_hoods : hoods }.

(** dccrg.hpp:7208-7239 for the given cells *)
Definition allocate (cells : list Z) (f : list (Z * D)) : list (Z * D) :=
  fold_left (fun f c => touch c d0 f) cells f.
Definition fresh_copies (st : Z -> proc D) : Z -> list (Z * D) :=
  fun r => allocate (k_remote (p_cache (st r))) [].

(** dccrg.hpp:768-781 operator[] *)
Definition read (x : xstate) (r c : Z) : option D :=
  let s := p_store (x_st x r) in
  match find c (s_data s) with Some v => Some v | None =>
  match find c (x_copies x r) with Some v => Some v | None =>
  match find c (s_refd s) with Some v => Some v | None => find c (s_unrefd s) end end end.

(** one rank's remote_neighbors after the messages of all ranks have arrived:
    dccrg.hpp:10758-11264 as in RefineModel.receive *)
Definition deliver (rank : Z) (x : xstate) (send recv : Z -> list (Z * Z)) : outcome (list (Z * D)) :=
  foldM (fun dest q => receive (s_data (p_store (x_st x q))) (listed rank (send q)) (listed q (recv rank)) dest)
    (ranks g) (x_copies x rank).

(** dccrg.hpp:978-1014 with 5102-5455; the result is false unless the id is in user_hood_of,
    .at(id) throws for an unknown id (5162-5166) *)
Definition update_copies (x : xstate) (id : Z) : outcome (bool * xstate) :=
  do L <- each g (fun r => lists_of (x_hoods x) id r (x_st x r)) (fun _ => None);
  do lists <- each g (fun r => match L r with Some l => Done l | None => Threw end) (fun _ => Lists [] [] [] []);
  do recv <- each g (fun r => recv_pairs r (p_store (x_st x r)) (lists r)) (fun _ => []);
  do send <- each g (fun r => send_pairs r (p_store (x_st x r)) (lists r)) (fun _ => []);
  do copies <- each g (fun r => deliver r x send recv) (x_copies x);
  Done (match hood_lookup (x_hoods x) id with Some _ => true | None => false end,
        XState (x_st x) copies (x_hoods x)).

(** ** Calls *)
Inductive xcall :=
| Plain (a : call (D := D))
| WriteCopy (r c : Z) (v : D)
| AddNeighborhood (id : Z) (items : hood) | RemoveNeighborhood (id : Z)
| Allocate (id : Z) | Update (id : Z).

(** load_cells commits once per level to be refined *)
Definition loads_nothing (st : Z -> proc D) (given : Z -> list Z) : bool :=
  fold_left Z.max (map (get_refinement_level m)
    (gather g (fun r => filter (cell_overlaps_local g r (p_store (st r))) (given r)))) 0 <=? 0.

Definition xrun (x : xstate) (a : xcall) : outcome xstate :=
  match a with
  | Plain a =>
    do st <- run d0 g (x_st x) a;
    Done (XState st
      (match a with
       | Stop | LoadBalance _ _ => fresh_copies st                   (* 10318, 10727; 3887, 4182 *)
       | History.Load given => if loads_nothing (x_st x) given then x_copies x else fresh_copies st
       | _ => x_copies x
       end) (x_hoods x))
  | WriteCopy r c v =>
    Done (XState (x_st x)
      (fun q => if q =? r then map (fun e => (fst e, if fst e =? c then v else snd e)) (x_copies x r) else x_copies x q)
      (x_hoods x))
  | AddNeighborhood id items =>                                       (* 6546-6718 *)
    let (ok, hs) := add_neighborhood (g_len g) (x_hoods x) id items in
    if negb ok then Done x else
    do _ <- each g (fun r => user_lists r (p_store (x_st x r)) items) (fun _ => Lists [] [] [] []);
    Done (XState (x_st x) (fun r => allocate (k_remote (p_cache (x_st x r))) (x_copies x r)) hs)
  | RemoveNeighborhood id => Done (XState (x_st x) (x_copies x) (remove_neighborhood (x_hoods x) id))
  | Allocate id =>                                                    (* 7208-7239 *)
    do L <- each g (fun r => lists_of (x_hoods x) id r (x_st x r)) (fun _ => None);
    do copies <- each g (fun r => match L r with Some l => Done (allocate (l_remote l) (x_copies x r)) | None => Threw end) (x_copies x);
    Done (XState (x_st x) copies (x_hoods x))
  | Update id => do y <- update_copies x id; Done (snd y)
  end.

(** existing ranks; Allocate and Update throw for unknown neighborhoods *)
Definition xallowed (x : xstate) (a : xcall) : Prop :=
  match a with
  | Plain a => allowed g (x_st x) a
  | WriteCopy r _ _ => In r (ranks g)
  | Allocate id | Update id => id = default_neighborhood_id \/ hood_lookup (x_hoods x) id <> None
  | _ => True
  end.

(** dccrg.hpp:485-562 *)
Definition xinitialize : outcome xstate :=
  do st <- initialize d0 g; Done (XState st (fresh_copies st) []).

(** the same with USE_SFC *)
Definition xinitialize_sfc (curve : Z -> idx) (batches : Z) : outcome xstate :=
  do st <- initialize_sfc d0 g curve batches; Done (XState st (fresh_copies st) []).

(** ** Queries *)

(** dccrg.hpp:836-883 and 900-943; None is nullptr *)
Definition get_neighbors_of (hs : hoods) (id rank : Z) (p : proc D) (c : Z) : outcome (option (list (Z * idx))) :=
  if negb (exb (p_store p) c) then Done None else
  do L <- lists_of hs id rank p;
  match L with None => Done None | Some L => do l <- at_ c (l_of L); Done (Some l) end.
Definition get_neighbors_to (hs : hoods) (id rank : Z) (p : proc D) (c : Z) : outcome (option (list Z)) :=
  if negb (exb (p_store p) c) then Done None else
  do L <- lists_of hs id rank p;
  match L with None => Done None | Some L => do l <- at_ c (l_to L); Done (Some l) end.

(** dccrg.hpp:3341-3358 *)
Definition is_local (rank : Z) (s : store D) (c : Z) : bool :=
  match find c (s_proc s) with Some q => q =? rank | None => false end.

(** dccrg.hpp:3055-3110 *)
Definition neighbor_types (rank : Z) (s : store D) (nof nto : list Z) : Z :=
  let or local remote acc n :=
    if n =? error_cell then acc else Z.lor acc (if is_local rank s n then local else remote) in
  fold_left (or has_local_neighbor_to has_remote_neighbor_to) nto
    (fold_left (or has_local_neighbor_of has_remote_neighbor_of) nof 0).
(** dccrg.hpp:3113-3130 *)
Definition criteria_match (types : Z) (criteria : list Z) (exact : bool) : bool :=
  if exact then existsb (Z.eqb types) criteria
  else 0 <? Z.land types (fold_left Z.lor criteria 0).
(** dccrg.hpp:3023-3132 *)
Definition is_neighbor_type_match (hs : hoods) (id rank : Z) (p : proc D) (c : Z) (criteria : list Z) (exact : bool)
  : outcome bool :=
  if (c =? error_cell) || negb (is_local rank (p_store p) c) then Done false else
  do L <- lists_of hs id rank p;
  match L with
  | None => Done false
  | Some L =>
    do a <- at_ c (l_of L);
    do b <- at_ c (l_to L);
    Done (criteria_match (neighbor_types rank (p_store p) (map fst a) b) criteria exact)
  end.
(** dccrg.hpp:661-753, not sorted *)
Definition get_cells (hs : hoods) (id rank : Z) (p : proc D) (criteria : list Z) (exact : bool) : outcome (list Z) :=
  if negb (id =? default_neighborhood_id) && match hood_lookup hs id with None => true | _ => false end then Done [] else
  filterM (fun c => match criteria with [] => Done true | _ => is_neighbor_type_match hs id rank p c criteria exact end)
    (keys (s_data (p_store p))).

(** dccrg.hpp:6213-6357 *)
Definition get_local_cells_on_process_boundary (hs : hoods) (id rank : Z) (p : proc D) : outcome (list Z) :=
  do L <- lists_of hs id rank p; Done (match L with None => [] | Some L => l_local L end).
Definition get_local_cells_not_on_process_boundary (hs : hoods) (id rank : Z) (p : proc D) : outcome (list Z) :=
  do L <- lists_of hs id rank p;
  Done (match L with None => [] | Some L => filter (fun c => negb (mem c (l_local L))) (keys (s_data (p_store p))) end).
Definition get_remote_cells_on_process_boundary (hs : hoods) (id rank : Z) (p : proc D) : outcome (list Z) :=
  do L <- lists_of hs id rank p; Done (match L with None => [] | Some L => l_remote L end).

(** dccrg.hpp:3156-3211; only the first neighborhood item of the call *)
Definition get_neighbors_of_at_offset (rank : Z) (p : proc D) (c : Z) (o : idx) : outcome (list (Z * idx)) :=
  if negb (is_local rank (p_store p) c) || ((ix o =? 0) && (iy o =? 0) && (iz o =? 0)) then Done [] else
  do l <- at_ c (k_of (p_cache p));
  Done (flat_map (fun i => filter (fun n => let j := get_indices m (fst n) in
      (ix j =? ix i) && (iy j =? iy i) && (iz j =? iz i)) l)
    (indices_from_neighborhood m t (get_indices m c) (get_cell_length_in_indices m c) [o])).

(** ** Iterator caches *)

(** cells and their neighbor ranges as positions in the common neighbor array *)
Record cell_item := CellItem { i_id : Z; i_first : nat; i_of : nat; i_both : nat; i_to : nat }.
Record views := Views { v_cells : list cell_item; v_neighbors : list (Z * idx);
  v_inner : nat; v_outer : nat; v_remote : nat }.

(** the std::sets of dccrg.hpp:11567-11608; their order does not matter here *)
Definition split_neighbors (nof : list (Z * idx)) (nto : list Z) : list (Z * idx) * list (Z * idx) * list (Z * idx) :=
  let ids_of := nodup nbr_eq_dec (filter (fun n => negb (fst n =? error_cell)) nof) in
  let ids_to := nodup nbr_eq_dec (filter (fun n => negb (fst n =? error_cell)) (map (fun c => (c, vzero)) nto)) in
  let in_to n := existsb (fun x => if nbr_eq_dec x (fst n, vzero) then true else false) ids_to in
  (filter (fun n => negb (in_to n)) ids_of,
   filter in_to ids_of,
   filter (fun x => negb (existsb (fun n => if nbr_eq_dec x (fst n, vzero) then true else false) ids_of)) ids_to).

(** dccrg.hpp:11509-11672 for the cells in the given order *)
Fixpoint cell_items (L : lists) (cells : list Z) (nbrs : list (Z * idx)) : outcome (list cell_item * list (Z * idx)) :=
  match cells with
  | [] => Done ([], nbrs)
  | c :: r =>
    if c =? error_cell then Threw else
    do a <- at_ c (l_of L);
    do b <- at_ c (l_to L);
    let '(only_of, both, only_to) := split_neighbors a b in
    do x <- cell_items L r (nbrs ++ only_of ++ both ++ only_to);
    Done (CellItem c (length nbrs) (length only_of) (length both) (length only_to) :: fst x, snd x)
  end.
(** dccrg.hpp:11418-11732; the remote cells are always those of the default neighborhood
    (11477), each must have a copy *)
Definition update_cell_pointers (L : lists) (p : proc D) (copies : list (Z * D)) : outcome views :=
  let inner := filter (fun c => negb (mem c (l_local L))) (keys (s_data (p_store p))) in
  let outer := filter (fun c => mem c (l_local L)) (keys (s_data (p_store p))) in
  let remote := k_remote (p_cache p) in
  if existsb (fun c => negb (has c copies)) remote then Threw else
  do x <- cell_items L (inner ++ outer ++ remote) [];
  Done (Views (fst x) (snd x) (length inner) (length outer) (length remote)).

(** [begin_, end_) as positions *)
Definition range {A} (l : list A) (first last : nat) : list A := firstn (last - first) (skipn first l).
(** dccrg.hpp:11674-11707 *)
Definition view_of (v : views) (i : cell_item) : list (Z * idx) := range (v_neighbors v) (i_first i) (i_first i + i_of i + i_both i).
Definition view_to (v : views) (i : cell_item) : list (Z * idx) := range (v_neighbors v) (i_first i + i_of i) (i_first i + i_of i + i_both i + i_to i).
Definition view_all (v : views) (i : cell_item) : list (Z * idx) := range (v_neighbors v) (i_first i) (i_first i + i_of i + i_both i + i_to i).
(** dccrg.hpp:11709-11731 *)
Definition view_inner (v : views) : list cell_item := range (v_cells v) 0 (v_inner v).
Definition view_outer (v : views) : list cell_item := range (v_cells v) (v_inner v) (v_inner v + v_outer v).
Definition view_local (v : views) : list cell_item := range (v_cells v) 0 (v_inner v + v_outer v).
Definition view_remote (v : views) : list cell_item := range (v_cells v) (v_inner v + v_outer v) (v_inner v + v_outer v + v_remote v).
Definition view_cells (v : views) : list cell_item := range (v_cells v) 0 (v_inner v + v_outer v + v_remote v).

End Model.
Arguments XState {D}. Arguments x_st {D}. Arguments x_copies {D}. Arguments x_hoods {D}.

(** dccrg.hpp:344-442 without user neighborhoods: new copies of remote cells *)
Definition xcopied {D D'} (d0' : D') (x : xstate (D := D)) : xstate (D := D') :=
  XState (copied d0' (x_st x)) (fresh_copies d0' (copied d0' (x_st x))) [].

(** states after any calls, also after copying a grid without user neighborhoods; created with
    either distribution of level 0 cells *)
Inductive xreach (g : grid) : forall D : Type, D -> xstate (D := D) -> Prop :=
| xreached_init D d0 x : xinitialize d0 g = Done x -> xreach g D d0 x
| xreached_curve D d0 curve batches x : space_filling (g_map g) curve -> xinitialize_sfc d0 g curve batches = Done x -> xreach g D d0 x
| xreached_step D d0 x a x' : xreach g D d0 x -> xallowed g x a -> xrun d0 g x a = Done x' -> xreach g D d0 x'
| xreached_copy D d0 D' (d0' : D') x : xreach g D d0 x -> x_hoods x = [] -> xreach g D' d0' (xcopied d0' x).
Definition xreachable {D} (d0 : D) (g : grid) (x : xstate (D := D)) : Prop := xreach g D d0 x.
Lemma xreach_init {D} (d0 : D) g x : xinitialize d0 g = Done x -> xreachable d0 g x.
Proof. apply xreached_init. Qed.
Lemma xreach_curve {D} (d0 : D) g curve batches x : space_filling (g_map g) curve -> xinitialize_sfc d0 g curve batches = Done x -> xreachable d0 g x.
Proof. apply xreached_curve. Qed.
Lemma xreach_step {D} (d0 : D) g x a x' : xreachable d0 g x -> xallowed g x a -> xrun d0 g x a = Done x' -> xreachable d0 g x'.
Proof. apply xreached_step. Qed.
Lemma xreach_copy {D D'} (d0 : D) (d0' : D') g x : xreachable d0 g x -> x_hoods x = [] -> xreachable d0' g (xcopied d0' x).
Proof. apply xreached_copy. Qed.
