(** Model of grid creation, pins, weights and load balancing on all processes.
    Definitions only.

    The partitioner (Zoltan) is a parameter: for every rank the list of cells to import with
    the processes they come from and the list of cells to export with their destinations.
    Messages are delivered by (source, destination, tag) as in RefineModel; tag overflow
    (dccrg.hpp:8677, 8764) and DCCRG_NO_LB are not modelled; USE_SFC is in SfcModel. *)
From Verif Require Import U64 MapModel HoodModel MeshModel Sets RefineModel.
Open Scope Z_scope.

(** ** Creation *)

(** dccrg.hpp:8153-8156 *)
Definition total_cells (m : mapping) : Z := mul64 (mul64 (m_l0 m) (m_l1 m)) (m_l2 m).
(** dccrg.hpp:8158-8166 *)
Definition cells_per_process (total np : Z) : Z :=
  if total <? np then 1 else if 0 <? total mod np then total / np + 1 else total / np.
(** dccrg.hpp:8169 *)
Definition procs_with_fewer (total np : Z) : Z := sub64 (mul64 (cells_per_process total np) np) total.
(** dccrg.hpp:8176-8181 *)
Definition cells_to_create (total np process : Z) : Z :=
  if process <? procs_with_fewer total np then sub64 (cells_per_process total np) 1 else cells_per_process total np.
(** dccrg.hpp:8183-8189: k cells of one process from id [cell] on *)
Fixpoint create_some (k : nat) (cell process : Z) : list (Z * Z) :=
  match k with O => [] | S k' => (cell, process) :: create_some k' (add64 cell 1) process end.
(** dccrg.hpp:8173-8190: cell_process *)
Fixpoint create_from (total np : Z) (processes : list Z) (cell : Z) : list (Z * Z) :=
  match processes with
  | [] => []
  | p :: r =>
    let k := cells_to_create total np p in
    create_some (Z.to_nat k) cell p ++ create_from total np r (add64 cell k)
  end.
Definition created_cells (g : grid) : list (Z * Z) :=
  create_from (total_cells (g_map g)) (g_np g) (ranks g) 1.

Section Model.
Context {D : Type} (d0 : D) (g : grid).
Notation m := (g_map g).

(** dccrg.hpp:8183-8190 on one process *)
Definition created_store (rank : Z) : store D :=
  Store (created_cells g)
    (map (fun e => (fst e, d0)) (filter (fun e => snd e =? rank) (created_cells g))) [] [] [] [] [].
Definition no_requests : reqs := Reqs [] [] [] [].
(** dccrg.hpp:485-562 initialize after the checks: create_level_0_cells, update_neighbors_,
    initialize_neighbors *)
Definition initialize : outcome (Z -> proc D) :=
  each g (fun r => do k <- rebuild g r (created_store r); Done (Proc no_requests k (created_store r)))
    (fun r => Proc no_requests (Caches [] [] [] [] []) (created_store r)).

(** dccrg.hpp:344-442: the copy of a grid, possibly with another type of cell data; no requests,
    new cell data.  Not while load is being balanced (abort, line 387) *)
Definition copied {D' : Type} (st : Z -> proc D') : Z -> proc D :=
  fun r => let s := p_store (st r) in
    Proc no_requests (p_cache (st r))
      (Store (s_proc s) (map (fun e => (fst e, d0)) (s_data s)) [] [] (s_pin s) (s_newpin s) (s_wt s)).

(** ** Pins and weights *)

Definition with_newpin (s : store D) (f : list (Z * Z)) : store D :=
  Store (s_proc s) (s_data s) (s_refd s) (s_unrefd s) (s_pin s) f (s_wt s).
(** dccrg.hpp:6013-6023, 6069-6079, 6384-6394: the checks of pin, unpin and set_cell_weight *)
Definition local_leaf (rank : Z) (s : store D) (c : Z) : bool :=
  match find c (s_proc s) with
  | None => false
  | Some q => (q =? rank) && (c =? get_child_ex (exb s) m c)
  end.
(** dccrg.hpp:6001-6041 *)
Definition pin (rank : Z) (s : store D) (c q : Z) : bool * store D :=
  if negb (local_leaf rank s c) then (false, s) else
  if (q <? 0) || (g_np g <=? q) then (false, s) else
  match find c (s_pin s) with
  | Some q' => if q' =? q then (true, s) else (true, with_newpin s (put c q (s_newpin s)))
  | None => (true, with_newpin s (put c q (s_newpin s)))
  end.
(** dccrg.hpp:6057-6092 *)
Definition unpin (rank : Z) (s : store D) (c : Z) : bool * store D :=
  if negb (local_leaf rank s c) then (false, s) else
  if has c (s_pin s) then (true, with_newpin s (put c (g_np g) (s_newpin s)))
  else (true, with_newpin s (del c (s_newpin s))).
(** dccrg.hpp:6106-6160 *)
Definition unpin_local_cells (rank : Z) (s : store D) : bool * store D :=
  fold_left (fun x c => let r := unpin rank (snd x) c in (fst x && fst r, snd r)) (keys (s_data s)) (true, s).
(** dccrg.hpp:6172-6194 *)
Definition unpin_all_cells (s : store D) : store D :=
  Store (s_proc s) (s_data s) (s_refd s) (s_unrefd s) [] [] (s_wt s).
(** dccrg.hpp:6373-6399 *)
Definition set_cell_weight (rank : Z) (s : store D) (c w : Z) : bool * store D :=
  if negb (local_leaf rank s c) then (false, s) else
  (true, Store (s_proc s) (s_data s) (s_refd s) (s_unrefd s) (s_pin s) (s_newpin s) (put c w (s_wt s))).
(** dccrg.hpp:6407-6435; None is a quiet NaN, [one] the weight 1 *)
Definition get_cell_weight (one : Z) (rank : Z) (s : store D) (c : Z) : option Z :=
  if negb (local_leaf rank s c) then None else
  match find c (s_wt s) with Some w => Some w | None => Some one end.

(** writing through the pointers given by operator[] on local cells *)
Definition write (s : store D) (c : Z) (v : D) : store D :=
  Store (s_proc s) (map (fun e => (fst e, if fst e =? c then v else snd e)) (s_data s))
    (s_refd s) (s_unrefd s) (s_pin s) (s_newpin s) (s_wt s).

(** ** Load balancing *)

(** dccrg.hpp:8502-8523 *)
Definition pin_one (f : list (Z * Z)) (e : Z * Z) : list (Z * Z) :=
  if g_np g <=? snd e then del (fst e) f else put (fst e) (snd e) f.
(** dccrg.hpp:8483-8526: pin_requests of one rank afterwards *)
Definition update_pin_requests (st : Z -> proc D) (r : Z) : list (Z * Z) :=
  fold_left pin_one (flat_map (fun q => s_newpin (p_store (st q))) (ranks g)) (s_pin (p_store (st r))).

(** the partitioner's answer on one rank: (cell, process) to import and to export; None if
    use_zoltan is false *)
Definition answer := option (list (Z * Z) * list (Z * Z)).

(** dccrg.hpp:8617-8664: cells_to_receive as (process, cell) *)
Definition lb_receive (rank : Z) (s : store D) (pins : list (Z * Z)) (z : answer) : outcome (list (Z * Z)) :=
  do a <- mapM (fun e => do cur <- at_ (fst e) (s_proc s);
              Done (if (snd e =? rank) && negb (cur =? rank) then [(cur, fst e)] else [])) pins;
  Done (concat a ++ match z with None => [] | Some (imp, _) =>
    map (fun e => (snd e, fst e)) (filter (fun e => negb (snd e =? rank) && negb (has (fst e) pins)) imp) end).
(** dccrg.hpp:8695-8742: cells_to_send as (process, cell) *)
Definition lb_send (rank : Z) (s : store D) (pins : list (Z * Z)) (z : answer) : outcome (list (Z * Z)) :=
  do a <- mapM (fun e => do cur <- at_ (fst e) (s_proc s);
              Done (if negb (snd e =? rank) && (cur =? rank) then [(snd e, fst e)] else [])) pins;
  Done (concat a ++ match z with None => [] | Some (_, exp) =>
    map (fun e => (snd e, fst e)) (filter (fun e => negb (snd e =? rank) && negb (has (fst e) pins)) exp) end).

(** one rank between initialize_balance_load and finish_balance_load *)
Record moving := Moving { v_store : store D; v_recv : list (Z * Z); v_send : list (Z * Z) }.

(** dccrg.hpp:3825-3894 *)
Definition initialize_balance_load (st : Z -> proc D) (z : Z -> answer) : outcome (Z -> moving) :=
  each g (fun r =>
    let s := p_store (st r) in
    let pins := update_pin_requests st r in
    do recv <- lb_receive r s pins (z r);
    do send <- lb_send r s pins (z r);
    Done (Moving (Store (s_proc s) (fold_left (fun f c => touch c d0 f) (map snd recv) (s_data s)) [] [] pins [] [])
            recv send)) (fun r => Moving (p_store (st r)) [] []).
(** dccrg.hpp:3987-4020 *)
Definition continue_balance_load (mv : Z -> moving) : outcome (Z -> moving) :=
  each g (fun r =>
    let s := v_store (mv r) in
    do data <- foldM (fun dest q => receive (s_data (v_store (mv q))) (listed r (v_send (mv q))) (listed q (v_recv (mv r))) dest)
                 (ranks g) (s_data s);
    Done (Moving (Store (s_proc s) data (s_refd s) (s_unrefd s) (s_pin s) (s_newpin s) (s_wt s)) (v_recv (mv r)) (v_send (mv r)))) mv.
(** dccrg.hpp:4128-4134 *)
Definition migrate (mv : Z -> moving) (proc : list (Z * Z)) : outcome (list (Z * Z)) :=
  foldM (fun f q => foldM (fun f c => do _ <- at_ c f; Done (put c q f)) (map snd (v_recv (mv q))) f) (ranks g) proc.
(** dccrg.hpp:4035-4238 *)
Definition finish_balance_load (mv : Z -> moving) : outcome (Z -> proc D) :=
  each g (fun r =>
    let s := v_store (mv r) in
    do proc <- migrate mv (s_proc s);
    let s' := Store proc (fold_left (fun f c => del c f) (map snd (v_send (mv r))) (s_data s))
                (s_refd s) (s_unrefd s) (s_pin s) (s_newpin s) (s_wt s) in
    do k <- rebuild g r s';
    Done (Proc no_requests k s')) (fun r => Proc no_requests (Caches [] [] [] [] []) (v_store (mv r))).

Fixpoint continues (n : nat) (mv : Z -> moving) : outcome (Z -> moving) :=
  match n with O => Done mv | S k => do mv' <- continue_balance_load mv; continues k mv' end.
(** dccrg.hpp:1046-1064 is the case n = 1 *)
Definition balance_load (n : nat) (st : Z -> proc D) (z : Z -> answer) : outcome (Z -> proc D) :=
  do a <- initialize_balance_load st z;
  do b <- continues n a;
  finish_balance_load b.

(** ** Loading *)

(** dccrg.hpp:3654-3673 *)
Definition cell_overlaps_local (rank : Z) (s : store D) (c : Z) : bool :=
  match find (get_level_0_parent m c) (s_proc s) with Some q => q =? rank | None => false end.
(** dccrg.hpp:3770-3778: the parents of a given cell, closest first *)
Fixpoint parents_of (k : nat) (c : Z) : list Z :=
  match k with O => [] | S k' => let p := get_parent m c in p :: parents_of k' p end.
(** dccrg.hpp:3767-3778: cells_and_parents[l] *)
Definition to_refine_at (over : list Z) (l : Z) : list Z :=
  addall (filter (fun p => get_refinement_level m p =? l)
    (flat_map (fun c => parents_of (Z.to_nat (get_refinement_level m c)) c) over)) [].

Definition with_reqs (p : proc D) (q : reqs) : proc D := Proc q (p_cache p) (p_store p).
(** refine_completely of all given cells on one process *)
Definition refine_all (p : proc D) (cells : list Z) : outcome (proc D) :=
  foldM (fun p c => do x <- refine_completely g p c; Done (with_reqs p (snd x))) cells p.
(** dccrg.hpp:3780-3790 for k levels from level l on *)
Fixpoint load_levels (k : nat) (st : Z -> proc D) (over : Z -> list Z) (l : Z) : outcome (Z -> proc D) :=
  match k with
  | O => Done st
  | S k' =>
    do st1 <- each g (fun r => refine_all (st r) (to_refine_at (over r) l)) st;
    do res <- stop_refining d0 g st1;
    load_levels k' (fun r => clear_refined_unrefined_data (fst (res r))) over (l + 1)
  end.
(** dccrg.hpp:3724-3793 *)
Definition load_cells (st : Z -> proc D) (given : Z -> list Z) : outcome (Z -> proc D) :=
  let over r := filter (cell_overlaps_local r (p_store (st r))) (given r) in
  let most := fold_left Z.max (map (get_refinement_level m) (gather g over)) 0 in
  load_levels (Z.to_nat most) st over 0.

End Model.
