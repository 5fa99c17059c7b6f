(** Model of adaptation: requests (refine_completely, unrefine_completely, dont_refine,
    dont_unrefine) and their collective commit (stop_refining) on all processes.
    Definitions only.

    The state of the class is one [proc] per rank; collective calls are functions of the states
    of all ranks.  MPI collectives are functions of the contributions of all ranks; point to
    point messages are delivered by (source, destination, tag).  Not modelled here: user
    neighborhoods' caches, iterator caches, copies of remote neighbors, the DEBUG checks,
    message tag overflow (dccrg.hpp:10610, 10628). *)
From Verif Require Import U64 MapModel HoodModel MeshModel Sets.
Open Scope Z_scope.

Definition bind {A B} (x : outcome A) (f : A -> outcome B) : outcome B :=
  match x with Done a => f a | Threw => Threw | NoFuel => NoFuel end.
Notation "'do' x <- e ; k" := (bind e (fun x => k)) (at level 200, x pattern, e at level 100, k at level 200).

Fixpoint mapM {A B} (f : A -> outcome B) (l : list A) : outcome (list B) :=
  match l with
  | [] => Done []
  | a :: r => do b <- f a; do bs <- mapM f r; Done (b :: bs)
  end.
Fixpoint foldM {A B} (f : B -> A -> outcome B) (l : list A) (b : B) : outcome B :=
  match l with [] => Done b | a :: r => do b' <- f b a; foldM f r b' end.
(** container.at(k): std::out_of_range if absent *)
Definition at_ {A} (k : Z) (f : list (Z * A)) : outcome A :=
  match find k f with Some a => Done a | None => Threw end.

(** what is the same on all processes from initialization on: mapping, topology,
    neighborhood_length, comm_size *)
Record grid := Grid { g_map : mapping; g_topo : topo; g_len : Z; g_np : Z }.
Definition ranks (g : grid) : list Z := map Z.of_nat (seq 0 (Z.to_nat (g_np g))).
Definition g_hood (g : grid) : hood := default_hood_of (g_len g).

(** cells_to_refine, cells_not_to_refine, cells_to_unrefine, cells_not_to_unrefine
    (dccrg.hpp:7325-7350) *)
Record reqs := Reqs { r_ref : list Z; r_noref : list Z; r_unref : list Z; r_nounref : list Z }.
(** neighbors_of, neighbors_to, neighbors_, local_cells_on_process_boundary,
    remote_cells_on_process_boundary *)
Record caches := Caches {
  k_of : list (Z * list (Z * idx)); k_to : list (Z * list Z); k_face : list (Z * list Z);
  k_local : list Z; k_remote : list Z }.
(** cell_process, cell_data, refined_cell_data, unrefined_cell_data, pin_requests,
    new_pin_requests, cell_weights (weights are opaque numbers) *)
Record store (D : Type) := Store {
  s_proc : list (Z * Z); s_data : list (Z * D); s_refd : list (Z * D); s_unrefd : list (Z * D);
  s_pin : list (Z * Z); s_newpin : list (Z * Z); s_wt : list (Z * Z) }.
Arguments Store {D}. Arguments s_proc {D}. Arguments s_data {D}. Arguments s_refd {D}. Arguments s_unrefd {D}.
Arguments s_pin {D}. Arguments s_newpin {D}. Arguments s_wt {D}.
Record proc (D : Type) := Proc { p_req : reqs; p_cache : caches; p_store : store D }.
Arguments Proc {D}. Arguments p_req {D}. Arguments p_cache {D}. Arguments p_store {D}.

(** the values of all ranks; computed by every rank from its own part *)
Fixpoint collect {A} (l : list Z) (f : Z -> outcome A) (base : Z -> A) : outcome (Z -> A) :=
  match l with
  | [] => Done base
  | r :: rest =>
    do a <- f r;
    do g <- collect rest f base;
    Done (fun x => if x =? r then a else g x)
  end.
Definition each {A} (g : grid) (f : Z -> outcome A) (base : Z -> A) : outcome (Z -> A) :=
  collect (ranks g) f base.
(** dccrg_mpi_support.hpp All_Gather, all contributions in rank order *)
Definition gather (g : grid) (f : Z -> list Z) : list Z := flat_map f (ranks g).

Section Model.
Context {D : Type} (d0 : D) (g : grid).
Notation m := (g_map g).
Notation t := (g_topo g).
Notation level := (get_refinement_level m).

(** cell_process.count(c) > 0 *)
Definition exb (s : store D) (c : Z) : bool := has c (s_proc s).

(** dccrg.hpp:4248-4281 Dccrg::get_parent *)
Definition get_parent_ex (ex : Z -> bool) (c : Z) : Z :=
  if level c =? 0 then (if ex c then c else error_cell) else
  let p := get_cell_from_indices m (get_indices m c) (level c - 1) in
  if ex p then p else if ex c then c else error_cell.

(** ** Requests *)

(** dccrg.hpp:2756-2811 *)
Definition dont_unrefine (p : proc D) (c : Z) : outcome (bool * reqs) :=
  let q := p_req p in
  if c =? error_cell then Done (false, q) else
  if negb (exb (p_store p) c) then Done (false, q) else
  if level c =? 0 then Done (true, q) else
  let sib := get_siblings m c in
  if (nth 0 sib error_cell =? error_cell) || (nth 1 sib error_cell =? error_cell) then Threw else
  if existsb (fun s => mem s (r_nounref q)) sib then Done (true, q) else
  Done (true, Reqs (r_ref q) (r_noref q) (delall sib (r_unref q)) (adds c (r_nounref q))).

(** dccrg.hpp:2580-2606: the unrefines overridden because of neighbor n of c *)
Definition overridden (c n : Z) : list Z :=
  if level n <=? level c then filter (fun s => negb (s =? error_cell)) (get_siblings m n) else [].

(** dccrg.hpp:2511-2609 *)
Definition refine_completely (p : proc D) (c : Z) : outcome (bool * reqs) :=
  let q := p_req p in
  if c =? error_cell then Done (false, q) else
  if negb (exb (p_store p) c) then Done (false, q) else
  if negb (has c (s_data (p_store p))) then Done (false, q) else
  if level c =? m_max m then do r <- dont_unrefine p c; Done (true, snd r) else
  if mem c (r_noref q) then Done (false, q) else
  do nof <- at_ c (k_of (p_cache p));
  if existsb (fun n => (level (fst n) <? level c) && mem (fst n) (r_noref q)) nof
  then Done (false, q) else
  do nto <- at_ c (k_to (p_cache p));
  let gone := filter (fun s => negb (s =? error_cell)) (get_siblings m c)
    ++ flat_map (fun n => overridden c (fst n)) nof ++ flat_map (overridden c) nto in
  Done (true, Reqs (adds c (r_ref q)) (r_noref q) (delall gone (r_unref q)) (r_nounref q)).

(** dccrg.hpp:2637-2732; find_neighbors_of is called for the result of Dccrg::get_parent *)
Fixpoint sib_check (ex : Z -> bool) (q : reqs) (sib : list Z) : option bool :=
  match sib with
  | [] => None
  | s :: r =>
    if negb (s =? get_child_ex ex m s) then Some false else
    if mem s (r_ref q) || mem s (r_nounref q) then Some true else sib_check ex q r
  end.
Definition unrefine_completely (p : proc D) (c : Z) : outcome (bool * reqs) :=
  let q := p_req p in
  let ex := exb (p_store p) in
  if c =? error_cell then Done (false, q) else
  if negb (ex c) then Done (false, q) else
  if negb (has c (s_data (p_store p))) then Done (false, q) else
  if level c =? 0 then Done (true, q) else
  let sib := get_siblings m c in
  if (nth 0 sib error_cell =? error_cell) || (nth 1 sib error_cell =? error_cell) then Threw else
  match sib_check ex q sib with
  | Some b => Done (b, q)
  | None =>
    let parent := get_parent_ex ex c in
    do ns <- find_neighbors_of ex m t parent (g_hood g);
    if existsb (fun n => (level parent + 1 <? level (fst n)) ||
         ((level (fst n) =? level parent + 1) && mem (fst n) (r_ref q))) ns
    then Done (true, q) else
    if existsb (fun s => mem s (r_unref q)) sib then Done (true, q) else
    Done (true, Reqs (r_ref q) (r_noref q) (adds c (r_unref q)) (r_nounref q))
  end.

(** dccrg.hpp:2821-2861 *)
Definition dont_refine (p : proc D) (c : Z) : bool * reqs :=
  let q := p_req p in
  if c =? error_cell then (false, q) else
  if negb (exb (p_store p) c) then (false, q) else
  if level c =? m_max m then (true, q) else
  (true, Reqs (dels c (r_ref q)) (adds c (r_noref q)) (r_unref q) (r_nounref q)).

(** ** Caches *)

(** dccrg.hpp:9507-9652 *)
Definition build_face (ex : Z -> bool) (cells : list Z) : list (Z * list Z) :=
  map (fun c => (c, map (fun d => face_neighbor ex m t c (fst (fst d)) (snd (fst d))) dirs))
    (filter (has_neighbors ex m) cells).

(** dccrg.hpp:9109-9122: update_neighbors(cell) does something *)
Definition updated (ex : Z -> bool) (c : Z) : bool :=
  ex c && (c =? get_child_ex ex m c) && (c =? get_parent_ex ex c).
(** dccrg.hpp:9088-9122 *)
Definition build_of (ex : Z -> bool) (cells : list Z) : outcome (list (Z * list (Z * idx))) :=
  mapM (fun c => do l <- find_neighbors_of ex m t c (g_hood g); Done (c, l)) (filter (updated ex) cells).
Definition build_to (ex : Z -> bool) (cells : list Z) : outcome (list (Z * list Z)) :=
  mapM (fun c => do l <- find_neighbors_to ex m t c (hood_to (g_hood g)); Done (c, l)) (filter (updated ex) cells).

(** dccrg.hpp:9186-9289, 9432-9464: remote cells among the neighbors of the local cell c *)
Definition remote_of (rank : Z) (s : store D) (nof : list (Z * list (Z * idx))) (nto : list (Z * list Z)) (c : Z)
  : outcome (list Z) :=
  match find c (s_proc s) with
  | None => Done []
  | Some q =>
    if negb (q =? rank) then Done [] else
    do a <- at_ c nof;
    do b <- at_ c nto;
    do ra <- mapM (fun n => do w <- at_ n (s_proc s); Done (if w =? rank then [] else [n]))
               (filter (fun n => negb (n =? error_cell)) (map fst a) ++ b);
    Done (concat ra)
  end.
Definition build_bnd (rank : Z) (s : store D) (nof : list (Z * list (Z * idx))) (nto : list (Z * list Z))
  : outcome (list Z * list Z) :=
  do rs <- mapM (fun c => do l <- remote_of rank s nof nto c; Done (c, l))
    (filter (fun c => c =? get_child_ex (exb s) m c) (keys (s_data s)));
  Done (map fst (filter (fun e => negb (match snd e with [] => true | _ => false end)) rs),
        nodup Z.eq_dec (flat_map snd rs)).

(** dccrg.hpp:10697-10719 and 4152-4170: all caches from cell_process and cell_data *)
Definition rebuild (rank : Z) (s : store D) : outcome caches :=
  let ex := exb s in let cells := keys (s_proc s) in
  do nof <- build_of ex cells;
  do nto <- build_to ex cells;
  do b <- build_bnd rank s nof nto;
  Done (Caches nof nto (build_face ex cells) (fst b) (snd b)).

(** ** Commit *)

(** dccrg.hpp:10198-10226 on one process: new_donts *)
Definition spread_one (p : proc D) (old donts : list Z) (c : Z) : outcome (list Z) :=
  if negb (exb (p_store p) c) then Done [] else
  do a <- at_ c (k_of (p_cache p));
  do b <- at_ c (k_to (p_cache p));
  Done (filter (fun n => negb (mem n old || mem n donts) && (level c <? level n)) (map fst a ++ b)).
Definition spread (p : proc D) (old donts : list Z) : outcome (list Z) :=
  do l <- mapM (spread_one p old donts) donts; Done (concat l).

(** dccrg.hpp:10191-10231: the loop; [notref] is cells_not_to_refine in the first iteration and
    empty afterwards, [old r] is old_donts of rank r, [new] the new_donts of all ranks *)
Fixpoint donts_loop (fuel : nat) (st : Z -> proc D) (notref old : Z -> list Z) (new : list Z)
  : outcome (Z -> list Z) :=
  let donts r := addall (notref r) (addall new []) in
  do news <- each g (fun r => spread (st r) (old r) (donts r)) (fun _ => []);
  let old' r := addall (donts r) (old r) in
  match addall (gather g news) [] with
  | [] => Done old'
  | new' => match fuel with O => NoFuel | S f => donts_loop f st (fun _ => []) old' new' end
  end.
Definition level_fuel : nat := S (Z.to_nat (m_max m)).

(** dccrg.hpp:10185-10251: cells_not_to_refine and cells_to_refine afterwards *)
Definition override_refines (st : Z -> proc D) : outcome (Z -> list Z * list Z) :=
  do old <- donts_loop level_fuel st (fun r => r_noref (p_req (st r))) (fun _ => []) [];
  let noref r := addall (gather g old) (old r) in
  let mine r := delall (noref r) (r_ref (p_req (st r))) in
  Done (fun r => (noref r, addall (gather g mine) [])).

(** dccrg.hpp:9797-9884: refines induced on one process *)
Definition induced_own (rank : Z) (p : proc D) (toref : list Z) (refined : Z) : outcome (list Z) :=
  do a <- at_ refined (k_of (p_cache p));
  do b <- at_ refined (k_to (p_cache p));
  do l <- mapM (fun n => do w <- at_ n (s_proc (p_store p));
        Done (if (w =? rank) && (level n <? level refined) && negb (mem n toref) then [n] else []))
      (filter (fun n => negb (n =? error_cell)) (map fst a ++ b));
  Done (concat l).
Definition induced_other (p : proc D) (toref : list Z) (refined : Z) : list Z :=
  if negb (mem refined (k_remote (p_cache p))) then [] else
  filter (fun l => is_neighbor (g_len g) m t l refined && (level l <? level refined) && negb (mem l toref))
    (k_local (p_cache p)).
Definition induced (rank : Z) (p : proc D) (toref : list Z) (all : Z -> list Z) : outcome (list Z) :=
  do own <- mapM (induced_own rank p toref) (all rank);
  Done (addall (concat own ++
    flat_map (fun q => if q =? rank then [] else flat_map (induced_other p toref) (all q)) (ranks g)) []).

(** dccrg.hpp:9788-9897 *)
Fixpoint induce_loop (fuel : nat) (st : Z -> proc D) (toref new : Z -> list Z) : outcome (Z -> list Z) :=
  match gather g new with
  | [] => Done toref
  | _ =>
    match fuel with
    | O => NoFuel
    | S f =>
      do new' <- each g (fun r => induced r (st r) (toref r) new) (fun _ => []);
      induce_loop f st (fun r => addall (new' r) (toref r)) new'
    end
  end.
(** dccrg.hpp:9785-9906 *)
Definition induce_refines (st : Z -> proc D) (toref : Z -> list Z) : outcome (Z -> list Z) :=
  do l <- induce_loop (S level_fuel) st toref toref;
  Done (fun r => addall (gather g l) (l r)).

(** dccrg.hpp:10038-10086: true if no visited cell prevents unrefinement *)
Fixpoint near_ok (fuel : nat) (p : proc D) (toref : list Z) (parent lvl : Z) (processed process : list Z)
  : outcome bool :=
  match process with
  | [] => Done true
  | next :: rest =>
    match fuel with
    | O => NoFuel
    | S f =>
      do ns <- at_ next (k_face (p_cache p));
      let '(processed', process') := fold_left (fun '(pd, ps) n =>
          if (n =? error_cell) || mem n pd then (pd, ps) else
          if is_neighbor (g_len g) m t parent n then (pd, sins n ps) else (adds n pd, ps))
        ns (adds next processed, rest) in
      let l := level next in
      if l <? lvl then near_ok f p toref parent lvl processed' process' else
      if l =? lvl then
        if mem next toref then Done false else near_ok f p toref parent lvl processed' process'
      else Done false
    end
  end.

(** dccrg.hpp:10000-10091: one unrefine *)
Definition can_unrefine (p : proc D) (toref nounref : list Z) (c : Z) : outcome bool :=
  let parent := get_parent m c in
  if existsb (fun s => negb (s =? error_cell) && (mem s toref || mem s nounref)) (get_all_children m parent)
  then Done false else
  do ns <- at_ c (k_face (p_cache p));
  near_ok (length (s_proc (p_store p))) p toref parent (level c) []
    (filter (fun x => negb (x =? error_cell)) (fold_right sins [] ns)).
Fixpoint filterM {A} (f : A -> outcome bool) (l : list A) : outcome (list A) :=
  match l with
  | [] => Done []
  | a :: r => do b <- f a; do rest <- filterM f r; Done (if b then a :: rest else rest)
  end.

(** dccrg.hpp:9990-10105: cells_to_unrefine afterwards *)
Definition override_unrefines (st : Z -> proc D) (toref : Z -> list Z) : outcome (Z -> list Z) :=
  let nounref r := addall (gather g (fun q => r_nounref (p_req (st q)))) (r_nounref (p_req (st r))) in
  do fin <- each g (fun r => filterM (can_unrefine (st r) (toref r) (nounref r)) (r_unref (p_req (st r))))
              (fun _ => []);
  Done (fun r => addall (gather g fin) []).

(** children inherit: dccrg.hpp:10433-10445 *)
Definition inherit (children : list Z) (c : Z) (f : list (Z * Z)) : list (Z * Z) :=
  match find c f with
  | None => f
  | Some v => del c (fold_left (fun f' k => put k v f') children f)
  end.

(** dccrg.hpp:10367-10455, one refined cell; the second component is new_cells *)
Definition refine_one (rank : Z) (x : store D * list Z) (c : Z) : outcome (store D * list Z) :=
  let (s, new) := x in
  do owner <- at_ c (s_proc s);
  do d <- (if rank =? owner then do v <- at_ c (s_data s); Done (put c v (s_refd s), del c (s_data s))
           else Done (s_refd s, s_data s));
  let children := get_all_children m c in
  if (nth 0 children error_cell =? error_cell) || (nth 1 children error_cell =? error_cell) then Threw else
  Done (Store
    (fold_left (fun f k => put k owner f) children (s_proc s))
    (if rank =? owner then fold_left (fun f k => touch k d0 f) children (snd d) else snd d)
    (fst d) (s_unrefd s)
    (inherit children c (s_pin s)) (inherit children c (s_newpin s))
    (if rank =? owner then inherit children c (s_wt s) else s_wt s),
    if rank =? owner then new ++ children else new).

(** dccrg.hpp:10461-10540, one recorded unrefine: cell_process, all_to_unrefine, parents *)
Definition unrefine_one (x : list (Z * Z) * list Z * list Z) (c : Z) : outcome (list (Z * Z) * list Z * list Z) :=
  let '(cp, all, parents) := x in
  let parent := get_parent m c in
  let sib := get_all_children m parent in
  do owner <- at_ (nth 0 sib error_cell) cp;
  Done (put parent owner cp, addall sib all, adds parent parents).

(** dccrg.hpp:10543-10597, one cell of all_to_unrefine: store, cells_to_send, cells_to_receive *)
Definition remove_one (rank : Z) (x : store D * list (Z * Z) * list (Z * Z)) (c : Z)
  : outcome (store D * list (Z * Z) * list (Z * Z)) :=
  let '(s, send, recv) := x in
  do pp <- at_ (get_parent m c) (s_proc s);
  do pc <- at_ c (s_proc s);
  let s' data unref := Store (del c (s_proc s)) data (s_refd s) unref
              (del c (s_pin s)) (del c (s_newpin s)) (del c (s_wt s)) in
  if (rank =? pc) && (rank =? pp) then
    do v <- at_ c (s_data s);
    Done (s' (del c (s_data s)) (put c v (s_unrefd s)), send, recv)
  else if rank =? pc then Done (s' (s_data s) (s_unrefd s), (pp, c) :: send, recv)
  else if rank =? pp then Done (s' (s_data s) (s_unrefd s), send, (pc, c) :: recv)
  else Done (s' (s_data s) (s_unrefd s), send, recv).

(** dccrg.hpp:10600-10639: the cells of one peer in increasing order; the tag of a cell is its
    position + 1 *)
Definition listed (peer : Z) (l : list (Z * Z)) : list Z :=
  sort (map snd (filter (fun e => fst e =? peer) l)).

(** dccrg.hpp:10758-11264 with send_single_cells or one message per process: the i-th cell of
    the receive list gets the data of the i-th cell of the sender's send list.  A missing
    message leaves the receiver waiting forever, a missing datum makes the sender throw. *)
Fixpoint receive (from : list (Z * D)) (sent expected : list Z) (dest : list (Z * D)) : outcome (list (Z * D)) :=
  match expected, sent with
  | [], [] => Done dest
  | [], _ :: _ => Threw
  | c :: r, [] => Threw
  | c :: r, c' :: r' => do v <- at_ c' from; receive from r' r (put c v dest)
  end.

(** dccrg.hpp:10316-10597 on one process, up to the transfers *)
Definition execute_local (rank : Z) (toref tounref : list Z) (s : store D)
  : outcome (store D * list Z * list Z * list Z * list (Z * Z) * list (Z * Z)) :=
  let s1 := Store (s_proc s) (s_data s) [] [] (s_pin s) (s_newpin s) (s_wt s) in
  do x <- foldM (refine_one rank) toref (s1, []);
  let (s2, new) := x in
  do y <- foldM unrefine_one tounref (s_proc s2, [], []);
  let '(cp, all, parents) := y in
  let s3 := Store cp (s_data s2) (s_refd s2) (s_unrefd s2) (s_pin s2) (s_newpin s2) (s_wt s2) in
  do z <- foldM (remove_one rank) all (s3, [], []);
  let '(s4, send, recv) := z in
  Done (s4, new, all, parents, send, recv).

(** dccrg.hpp:10642-10695 on one process: [sends q] are the transfers listed by rank q and
    [datas q] the cell_data of rank q at that time *)
Definition execute_finish (rank : Z) (toref all parents : list Z) (s : store D) (recv : list (Z * Z))
  (sends : Z -> list (Z * Z)) (datas : Z -> list (Z * D)) : outcome (store D) :=
  do unref <- foldM (fun dest q => receive (datas q) (listed rank (sends q)) (listed q recv) dest)
                (ranks g) (s_unrefd s);
  do data <- foldM (fun f c => do w <- at_ c (s_proc s); Done (if w =? rank then touch c d0 f else f))
               parents (s_data s);
  Done (Store (fold_left (fun f c => del c f) toref (s_proc s))
    (fold_left (fun f c => del c f) all data) (s_refd s) unref
    (s_pin s) (s_newpin s) (s_wt s)).

(** dccrg.hpp:10298-10748 on all processes; the lists are the return values *)
Definition execute_refines (st : Z -> proc D) (toref tounref noref : Z -> list Z)
  : outcome (Z -> proc D * list Z) :=
  do loc <- each g (fun r => execute_local r (toref r) (tounref r) (p_store (st r)))
              (fun r => (p_store (st r), [], [], [], [], []));
  let store_of r := let '(s, _, _, _, _, _) := loc r in s in
  let new_of r := let '(_, n, _, _, _, _) := loc r in n in
  let all_of r := let '(_, _, a, _, _, _) := loc r in a in
  let parents_of r := let '(_, _, _, p, _, _) := loc r in p in
  let send_of r := let '(_, _, _, _, x, _) := loc r in x in
  let recv_of r := let '(_, _, _, _, _, x) := loc r in x in
  each g (fun r =>
    do s <- execute_finish r (toref r) (all_of r) (parents_of r) (store_of r) (recv_of r)
              send_of (fun q => s_data (store_of q));
    do k <- rebuild r s;
    Done (Proc (Reqs [] (noref r) [] []) k s, new_of r)) (fun r => (st r, [])).

(** dccrg.hpp:3538-3562 (the returned cells may additionally be sorted) *)
Definition stop_refining (st : Z -> proc D) : outcome (Z -> proc D * list Z) :=
  do x <- override_refines st;
  do toref <- induce_refines st (fun r => snd (x r));
  do tounref <- override_unrefines st toref;
  execute_refines st toref tounref (fun r => fst (x r)).

(** dccrg.hpp:3574-3597 *)
Definition get_removed_cells (p : proc D) : list Z := keys (s_unrefd (p_store p)).

(** dccrg.hpp:768-781 without the copies of remote neighbors *)
Definition data_of (p : proc D) (c : Z) : option D :=
  match find c (s_data (p_store p)) with
  | Some v => Some v
  | None =>
    match find c (s_refd (p_store p)) with
    | Some v => Some v
    | None => find c (s_unrefd (p_store p))
    end
  end.

(** dccrg.hpp:5605-5612 clear_refined_unrefined_data *)
Definition clear_refined_unrefined_data (p : proc D) : proc D :=
  let s := p_store p in
  Proc (p_req p) (p_cache p) (Store (s_proc s) (s_data s) [] [] (s_pin s) (s_newpin s) (s_wt s)).

End Model.
