(** Model of the checks that programs compiled with DEBUG make of the state of the grid:
    dccrg.hpp:12415-13003 and the checks of offsets at 8432-8448, 9139-9155, 11536-11553,
    11622-11633, 11649-11661.  Definitions only.

    [Done false] is the result false, on which every caller ends the program; [Threw] an abort, an
    exit or an exception.  The sorting of neighbors_to (12593) is not kept. *)
From Verif Require Import U64 MapModel HoodModel MeshModel Sets RefineModel BalanceModel CommModel.
Open Scope Z_scope.

(** std::equal with three iterators: None if it reads past the end of the second range *)
Fixpoint std_equal (a b : list Z) : option bool :=
  match a, b with
  | [], _ => Some true
  | _ :: _, [] => None
  | x :: a, y :: b => if x =? y then std_equal a b else Some false
  end.
Definition both (a : option bool) (b : option bool) : option bool :=
  match a with Some true => b | _ => a end.
(** stops at the first check that does not hold *)
Fixpoint all_hold {A} (f : A -> outcome bool) (l : list A) : outcome bool :=
  match l with [] => Done true | a :: r => do b <- f a; if b then all_hold f r else Done false end.

Section Debug.
Context {D : Type} (g : grid).
Notation m := (g_map g).
Notation t := (g_topo g).

(** dccrg.hpp:12420-12475; All_Gather gives every process the vectors of all (C41) *)
Definition sorted_cells (s : store D) : list Z := sort (keys (s_proc s)).
Definition sorted_processes (s : store D) : list Z :=
  map (fun c => match find c (s_proc s) with Some q => q | None => 0 end) (sorted_cells s).
Definition is_consistent (st : Z -> proc D) : option bool :=
  fold_right (fun r rest =>
    both (std_equal (sorted_cells (p_store (st r))) (sorted_cells (p_store (st 0))))
   (both (std_equal (sorted_processes (p_store (st r))) (sorted_processes (p_store (st 0)))) rest))
    (Some true) (ranks g).

(** dccrg.hpp:12481-12640; neighbors_to without their offsets, all zero *)
Definition same_neighbors (a b : list (Z * idx)) : bool :=
  if list_eq_dec nbr_eq_dec a b then true else false.
Definition same_ids (a b : list Z) : bool := if list_eq_dec Z.eq_dec a b then true else false.
Definition verify_cell (s : store D) (U : hood) (nof : list (Z * list (Z * idx))) (nto : list (Z * list Z)) (c : Z) : outcome bool :=
  if c =? error_cell then Done false else
  if m_last m <? c then Done false else
  if negb (has c (s_proc s)) then Done false else
  if negb (c =? get_child_ex (exb s) m c) then Done (negb (has c nof) && negb (has c nto)) else
  if negb (has c nof) || negb (has c nto) then Done false else
  do reference <- find_neighbors_of (exb s) m t c U;
  do a <- at_ c nof;
  if negb (same_neighbors a reference) then Done false else
  do b <- at_ c nto;
  do to <- find_neighbors_to (exb s) m t c (hood_to U);
  Done (same_ids (sort b) (sort to)).
(** dccrg.hpp:12703-12724: [v] are the iterators of the default neighborhood as last updated *)
Definition close (a b : Z) : bool := Z.abs (get_refinement_level m a - get_refinement_level m b) <=? 1.
Definition verify_levels (v : views) : bool :=
  forallb (fun i => forallb (fun n => close (i_id i) (fst n)) (view_of v i) && forallb (fun n => close (i_id i) (fst n)) (view_to v i)) (view_cells v).
(** dccrg.hpp:12646-12727 *)
Definition verify_neighbors (hs : hoods) (rank : Z) (p : proc D) (v : views) : outcome bool :=
  do ok <- all_hold (fun e =>
    if negb (snd e =? rank) then Done true else
    do a <- verify_cell (p_store p) (g_hood g) (k_of (p_cache p)) (k_to (p_cache p)) (fst e);
    if negb a then Done false else
    all_hold (fun id => match hood_lookup hs id with
      | None => Threw
      | Some U => do L <- user_lists g rank (p_store p) U; verify_cell (p_store p) U (l_of L) (l_to L) (fst e)
      end) (map fst hs))
    (s_proc (p_store p));
  if ok then Done (verify_levels v) else Done false.

(** dccrg.hpp:12736-12801 *)
Definition verify_remote_of (rank : Z) (p : proc D) (c : Z) : outcome bool :=
  let s := p_store p in
  do ok <- verify_cell s (g_hood g) (k_of (p_cache p)) (k_to (p_cache p)) c;
  if negb ok then Done false else
  if negb (c =? get_child_ex (exb s) m c) then Done true else
  do a <- at_ c (k_of (p_cache p));
  do b <- at_ c (k_to (p_cache p));
  all_hold (fun n => if n =? error_cell then Done true else
    do q <- at_ n (s_proc s);
    Done ((q =? rank) || (mem c (k_local (p_cache p)) && mem n (k_remote (p_cache p))))) (map fst a ++ b).

(** dccrg.hpp:12810-12942 *)
Definition verify_remote (rank : Z) (p : proc D) : outcome bool :=
  let s := p_store p in let leaf c := c =? get_child_ex (exb s) m c in
  all_hold (fun e => let c := fst e in
    if negb (leaf c) then Done true else
    if negb (snd e =? rank) then
      let should := existsb (fun l => (snd l =? rank) && leaf (fst l) &&
        (is_neighbor (g_len g) m t c (fst l) || is_neighbor (g_len g) m t (fst l) c)) (s_proc s) in
      Done (Bool.eqb should (mem c (k_remote (p_cache p))))
    else
      let seen (of : bool) l := mapM (fun n => if n =? 0 then Done false else
        do q <- at_ n (s_proc s);
        if (if of then is_neighbor (g_len g) m t c n else is_neighbor (g_len g) m t n c) then Done (negb (q =? rank)) else Threw) l in
      do nof <- find_neighbors_of (exb s) m t c (g_hood g);
      do a <- seen true (map fst nof);
      do nto <- find_neighbors_to (exb s) m t c (hood_to (g_hood g));
      do b <- seen false nto;
      Done (Bool.eqb (existsb (fun x => x) (a ++ b)) (mem c (k_local (p_cache p)))))
    (s_proc s).

(** dccrg.hpp:12949-12976 *)
Definition verify_user_data (rank : Z) (s : store D) : bool :=
  forallb (fun e =>
    negb ((snd e =? rank) && (fst e =? get_child_ex (exb s) m (fst e)) && negb (has (fst e) (s_data s))) &&
    negb (negb (snd e =? rank) && has (fst e) (s_data s))) (s_proc s).

(** dccrg.hpp:12982-13002 *)
Definition pin_requests_succeeded (s : store D) : outcome bool :=
  all_hold (fun e => do q <- at_ (fst e) (s_proc s); Done (q =? snd e)) (s_pin s).

(** dccrg.hpp:8432-8448 and the same test elsewhere: no neighbor has the offset of the cell itself *)
Definition offsets_ok (nof : list (Z * list (Z * idx))) (c : Z) : outcome bool :=
  do l <- at_ c nof;
  Done (forallb (fun n => (fst n =? error_cell) || negb ((ix (snd n) =? 0) && (iy (snd n) =? 0) && (iz (snd n) =? 0))) l).
End Debug.
