(** Programs that a user writes for all processes together: computation from neighbors, adaptation of
    the grid by local criteria, and anything that only moves cells between processes. *)
From Verif Require Import U64 MapModel MapSpec MapProofs MapFamily MapProps HoodModel MeshModel
  MeshSpec MeshBase HoodProps MeshWalk MeshFind MeshKids MeshItem MeshCheck MeshTo MeshNear
  Sets RefineModel RefineGeo RefineInv RefineSpread RefineMerge RefineFold RefineExec RefineStop RefineNear
  BalanceModel RefineReqs Create Balance History HistProps CommModel.
Open Scope Z_scope.

Fixpoint all_some {A} (l : list (option A)) : option (list A) :=
  match l with
  | [] => Some []
  | Some a :: r => match all_some r with Some b => Some (a :: b) | None => None end
  | None :: _ => None
  end.

Section Program.
Context {D : Type}.

(** the data of a neighbor with the neighbor's id and offset *)
Definition seen : Type := (Z * idx) * D.
(** Process r reads the data of its cell c and of the cells in get_neighbors_of(c, id), in the order of
    that list, with operator[] (dccrg.hpp:768-781, 836-883). *)
Definition local_view (g : grid) (id : Z) (x : xstate (D := D)) (r c : Z) : option (D * list seen) :=
  match read x r c, get_neighbors_of g (x_hoods x) id r (x_st x r) c with
  | Some v, Done (Some l) =>
    match all_some (map (fun e => match read x r (fst e) with Some w => Some (e, w) | None => None end) l) with
    | Some ns => Some (v, ns)
    | None => None
    end
  | _, _ => None
  end.

Inductive want := ToRefine | ToUnrefine | ToHold.
Definition call_of (k : want) (r c : Z) : call (D := D) :=
  match k with ToRefine => Refine r c | ToUnrefine => Unrefine r c | ToHold => DontUnrefine r c end.

Inductive pstep :=
(** update copies of remote neighbors for neighborhood id, then give every cell a new value *)
| Compute (id : Z) (f : Z -> D -> list seen -> D)
(** update copies, request changes by a local criterion, commit, give new cells values from the removed ones *)
| Adapt (id : Z) (w : Z -> D -> list seen -> list want) (kid : Z -> D -> D) (par : Z -> list D -> D)
| AddHood (id : Z) (items : hood)
| RemoveHood (id : Z).

(** a sequence of calls *)
Inductive calls (d0 : D) (g : grid) : xstate (D := D) -> list (xcall (D := D)) -> xstate (D := D) -> Prop :=
| calls_nil x : calls d0 g x [] x
| calls_cons x a x1 l x2 : xallowed g x a -> xrun d0 g x a = Done x1 -> calls d0 g x1 l x2 -> calls d0 g x (a :: l) x2.

Definition writes (l : list (Z * Z * D)) : list (xcall (D := D)) := map (fun e => Plain (Write (fst (fst e)) (snd (fst e)) (snd e))) l.

(** Process r gives its new cell c the value v: children of refined cells come from the result of
    stop_refining, parents of merged families from get_removed_cells. *)
Definition new_value (g : grid) (kid : Z -> D -> D) (par : Z -> list D -> D) (res : Z -> proc D * list Z) (x : xstate (D := D)) (r c : Z) (v : D) : Prop :=
  (In c (snd (res r)) /\ exists w, read x r (get_parent (g_map g) c) = Some w /\ v = kid c w) \/
  (exists k ws, In k (get_removed_cells (fst (res r))) /\ get_parent (g_map g) k = c /\
    all_some (map (read x r) (get_all_children (g_map g) c)) = Some ws /\ v = par c ws).

(** One step of all processes.  Within a step every process may treat its cells in any order, and
    processes may be interleaved in any way. *)
Inductive exec_step (d0 : D) (g : grid) (x : xstate (D := D)) : pstep -> xstate (D := D) -> Prop :=
| exec_compute id f x1 l x' :
    xallowed g x (Update id) -> xrun d0 g x (Update id) = Done x1 ->
    (forall r c v, In (r, c, v) l -> In r (ranks g) /\ owner (x_st x1) r c = Some r /\
      exists d ns, local_view g id x1 r c = Some (d, ns) /\ v = f c d ns) ->
    (forall r c, In r (ranks g) -> owner (x_st x1) r c = Some r -> exists v, In (r, c, v) l) ->
    calls d0 g x1 (writes l) x' -> exec_step d0 g x (Compute id f) x'
| exec_adapt id w kid par x1 l x2 res x3 l' x' :
    xallowed g x (Update id) -> xrun d0 g x (Update id) = Done x1 ->
    (forall a, In a l -> exists r c k d ns, In r (ranks g) /\ owner (x_st x1) r c = Some r /\
      local_view g id x1 r c = Some (d, ns) /\ In k (w c d ns) /\ a = call_of k r c) ->
    (forall r c k d ns, In r (ranks g) -> owner (x_st x1) r c = Some r ->
      local_view g id x1 r c = Some (d, ns) -> In k (w c d ns) -> In (call_of k r c) l) ->
    calls d0 g x1 (map Plain l) x2 ->
    stop_refining d0 g (x_st x2) = Done res -> xrun d0 g x2 (Plain Stop) = Done x3 ->
    (forall r c v, In (r, c, v) l' <-> In r (ranks g) /\ new_value g kid par res x3 r c v) ->
    calls d0 g x3 (writes l') x' -> exec_step d0 g x (Adapt id w kid par) x'
| exec_add id items x' : xrun d0 g x (AddNeighborhood id items) = Done x' -> exec_step d0 g x (AddHood id items) x'
| exec_remove id x' : xrun d0 g x (RemoveNeighborhood id) = Done x' -> exec_step d0 g x (RemoveHood id) x'.

(** calls between steps that are not meant to change the result: load balancing (with data), pins,
    weights, copies of remote neighbors, releasing data of removed cells *)
Definition housekeeping (a : xcall (D := D)) : Prop :=
  match a with
  | Plain (LoadBalance (S _) _) | Plain (Pin _ _ _) | Plain (Unpin _ _) | Plain (UnpinLocal _) | Plain UnpinAll
  | Plain (Weight _ _ _) | Plain (Clear _) | WriteCopy _ _ _ | Allocate _ | Update _ => True
  | _ => False
  end.

Inductive execs (d0 : D) (g : grid) : xstate (D := D) -> list pstep -> xstate (D := D) -> Prop :=
| execs_nil x : execs d0 g x [] x
| execs_step x s x1 l x2 : exec_step d0 g x s x1 -> execs d0 g x1 l x2 -> execs d0 g x (s :: l) x2
| execs_house x a x1 l x2 : housekeeping a -> xallowed g x a -> xrun d0 g x a = Done x1 -> execs d0 g x1 l x2 -> execs d0 g x l x2.
End Program.
Arguments pstep : clear implicits.
Arguments seen : clear implicits.
