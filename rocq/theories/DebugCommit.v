(** Model of the checks that programs compiled with DEBUG make while a commit is being executed:
    dccrg.hpp:9908-9960, 10107-10178, 10253-10288, 10302-10314, 10324-10364, 10369-10405,
    10464-10485, 10494-10535, 10546-10553, 10653-10668, 10685-10689, 10710-10717.  Definitions only.

    [Threw] is an abort, an exit or an exception.  The test of cell_data at 10570-10578 is not
    repeated: the statement after it throws for the same cells.  Of the lists of neighbors of
    cells that are created none is tested before the lists are rebuilt. *)
From Verif Require Import U64 MapModel HoodModel MeshModel Sets RefineModel BalanceModel CommModel DebugModel.
Open Scope Z_scope.

Section Debug.
Context {D : Type} (d0 : D) (g : grid).
Notation m := (g_map g).
Notation t := (g_topo g).
Notation level := (get_refinement_level m).

(** cell != get_child(cell) with given cell_process *)
Definition is_leaf (cp : list (Z * Z)) (c : Z) : bool := c =? get_child_ex (fun k => has k cp) m c.
(** cell_process.at(cell) == rank *)
Definition owned (rank : Z) (cp : list (Z * Z)) (c : Z) : bool :=
  match find c cp with Some q => q =? rank | None => false end.
(** dccrg.hpp:10255-10282 and 10109-10134 *)
Definition leaf_with_data (rank : Z) (s : store D) (c : Z) : bool :=
  is_leaf (s_proc s) c && has c (s_proc s) && (negb (owned rank (s_proc s) c) || has c (s_data s)).

(** dccrg.hpp:9910-9954 *)
Definition refines_induced (s : store D) (toref : list Z) : outcome bool :=
  all_hold (fun c =>
    do nof <- find_neighbors_of (exb s) m t c (g_hood g);
    do nto <- find_neighbors_to (exb s) m t c (hood_to (g_hood g));
    Done (forallb (fun n => (n =? error_cell) || negb ((level n <? level c) && negb (mem n toref))) (map fst nof ++ nto)))
    toref.

(** dccrg.hpp:10109-10177; get_parent is the one of Dccrg, so its result is not the parent *)
Definition unrefine_allowed (rank : Z) (s : store D) (toref : list Z) (c : Z) : outcome bool :=
  if negb (leaf_with_data rank s c) then Done false else
  do ns <- find_neighbors_of (exb s) m t (get_parent_ex g (exb s) c) (g_hood g);
  Done (forallb (fun n => (n =? 0) ||
    (negb (level c <? level n) && negb ((level n =? level c) && mem n toref))) (map fst ns)).

(** dccrg.hpp:10325-10343, 10345-10363 *)
Definition same_everywhere (l : Z -> list Z) : option bool :=
  fold_right (fun r rest => both (std_equal (sort (l r)) (sort (l 0))) rest) (Some true) (ranks g).
Definition holds_now (b : option bool) : bool := match b with Some b => b | None => false end.

(** dccrg.hpp:10366-10457 with the checks 10369-10405; [k] are the neighbor lists *)
Definition refine_one_debug (rank : Z) (k : caches) (x : store D * list Z) (c : Z) : outcome (store D * list Z) :=
  let cp := s_proc (fst x) in
  if has c cp && (negb (owned rank cp c) || (has c (s_data (fst x)) && has c (k_of k) && has c (k_to k)))
  then refine_one d0 g rank x c else Threw.

(** dccrg.hpp:10459-10540 with the checks 10464-10485 and 10494-10535 *)
Definition sibling_ok (rank : Z) (cp : list (Z * Z)) (data : list (Z * D)) (s : Z) : bool :=
  (s =? error_cell) || (has s cp && is_leaf cp s && (negb (owned rank cp s) || has s data)).
Definition unrefine_one_debug (rank : Z) (data : list (Z * D)) (x : list (Z * Z) * list Z * list Z) (c : Z)
  : outcome (list (Z * Z) * list Z * list Z) :=
  let cp := let '(cp, _, _) := x in cp in
  let parent := get_parent m c in
  let sib := get_all_children m parent in
  if negb (is_leaf cp c) || (parent =? 0) || (parent =? c) then Threw else
  do y <- unrefine_one g x c;
  let cp' := let '(cp', _, _) := y in cp' in
  if forallb (sibling_ok rank cp' data) sib && existsb (fun s => negb (s =? error_cell) && (s =? c)) sib
  then Done y else Threw.

(** dccrg.hpp:10542-10600 with the check 10546-10553 *)
Definition remove_one_debug (rank : Z) (x : store D * list (Z * Z) * list (Z * Z)) (c : Z)
  : outcome (store D * list (Z * Z) * list (Z * Z)) :=
  if get_parent m c =? c then Threw else remove_one g rank x c.

Definition execute_local_debug (rank : Z) (k : caches) (toref tounref : list Z) (s : store D)
  : outcome (store D * list Z * list Z * list Z * list (Z * Z) * list (Z * Z)) :=
  let s1 := Store (s_proc s) (s_data s) [] [] (s_pin s) (s_newpin s) (s_wt s) in
  do x <- foldM (refine_one_debug rank k) toref (s1, []);
  let (s2, new) := x in
  do y <- foldM (unrefine_one_debug rank (s_data s2)) tounref (s_proc s2, [], []);
  let '(cp, all, parents) := y in
  let s3 := Store cp (s_data s2) (s_refd s2) (s_unrefd s2) (s_pin s2) (s_newpin s2) (s_wt s2) in
  do z <- foldM (remove_one_debug rank) all (s3, [], []);
  let '(s4, send, recv) := z in
  Done (s4, new, all, parents, send, recv).

(** dccrg.hpp:10642-10695 with the checks: user data are verified while the refined cells are
    still in cell_process *)
Definition execute_finish_debug (rank : Z) (toref all parents : list Z) (s : store D) (recv : list (Z * Z))
  (sends : Z -> list (Z * Z)) (datas : Z -> list (Z * D)) : outcome (store D) :=
  if negb (forallb (fun p => has p (s_proc s) && is_leaf (s_proc s) p) parents) then Threw else
  do s' <- execute_finish d0 g rank toref all parents s recv sends datas;
  if verify_user_data g rank (Store (s_proc s) (s_data s') (s_refd s') (s_unrefd s') (s_pin s') (s_newpin s') (s_wt s'))
  then Done s' else Threw.

(** dccrg.hpp:10298-10748 with the checks; [hs] are the neighborhoods and [vs r] the iterators of
    process r, both as before the call *)
Definition execute_refines_debug (hs : hoods) (vs : Z -> views) (st : Z -> proc D) (toref tounref noref : Z -> list Z)
  : outcome (Z -> proc D * list Z) :=
  do ok <- all_hold (fun r => do b <- verify_remote g r (st r); Done (b && verify_user_data g r (p_store (st r)))) (ranks g);
  if negb (ok && holds_now (same_everywhere toref) && holds_now (same_everywhere tounref)) then Threw else
  do loc <- each g (fun r => execute_local_debug r (p_cache (st r)) (toref r) (tounref r) (p_store (st r)))
              (fun r => (p_store (st r), [], [], [], [], []));
  let store_of r := let '(s, _, _, _, _, _) := loc r in s in
  let new_of r := let '(_, n, _, _, _, _) := loc r in n in
  let all_of r := let '(_, _, a, _, _, _) := loc r in a in
  let parents_of r := let '(_, _, _, p, _, _) := loc r in p in
  let send_of r := let '(_, _, _, _, x, _) := loc r in x in
  let recv_of r := let '(_, _, _, _, _, x) := loc r in x in
  each g (fun r =>
    do s <- execute_finish_debug r (toref r) (all_of r) (parents_of r) (store_of r) (recv_of r)
              send_of (fun q => s_data (store_of q));
    do k <- rebuild g r s;
    let p := Proc (Reqs [] (noref r) [] []) k s in
    do b <- verify_neighbors g hs r p (vs r);
    if b then Done (p, new_of r) else Threw) (fun r => (st r, [])).

(** dccrg.hpp:3538-3562 with the checks *)
Definition stop_refining_debug (hs : hoods) (vs : Z -> views) (st : Z -> proc D) : outcome (Z -> proc D * list Z) :=
  do x <- override_refines g st;
  if negb (forallb (fun r => forallb (leaf_with_data r (p_store (st r))) (snd (x r))) (ranks g) && holds_now (is_consistent g st)) then Threw else
  do toref <- induce_refines g st (fun r => snd (x r));
  do b1 <- all_hold (fun r => refines_induced (p_store (st r)) (toref r)) (ranks g);
  if negb (b1 && holds_now (is_consistent g st)) then Threw else
  do tounref <- override_unrefines g st toref;
  do b2 <- all_hold (fun r => all_hold (unrefine_allowed r (p_store (st r)) (toref r)) (tounref r)) (ranks g);
  if negb (b2 && holds_now (is_consistent g st)) then Threw else
  execute_refines_debug hs vs st toref tounref (fun r => fst (x r)).
End Debug.
