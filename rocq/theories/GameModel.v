(** The game of life programs of /repo/examples. *)
From Verif Require Import U64 MapModel MapSpec MapProofs MapFamily MapProps HoodModel MeshModel
  MeshSpec MeshBase HoodProps MeshWalk MeshFind MeshKids MeshItem MeshCheck MeshTo MeshNear
  Sets RefineModel RefineGeo RefineInv RefineSpread RefineMerge RefineFold RefineExec RefineStop
  BalanceModel RefineReqs Create Balance History HistProps CommitProps BalProps LoadCells HistExamples CommModel CommInv CommProps CommMore CommExamples Async CommAsync CommViews CopyProps Overlap OverlapProps.
Open Scope Z_scope.

Section Programs.
Context (g : grid).
(** game_of_life_cell (game_of_life.cpp:25-32): is_alive and live_neighbor_count; only is_alive is transferred *)
Notation cell := (Z * Z)%type.
Notation state := (xstate (D := cell)).
Notation op := (op (D := Z)).

(** The members of a process' cells are kept apart: is_alive of cell c at c and live_neighbor_count of c at
    - c.  The transfers only use the former.  What is at 0 is not 0 after the process has printed "Internal error!". *)
Definition members (x : state) (p : Z) : Z -> option Z := fun k =>
  if k =? 0 then Some 0 else if 0 <? k then option_map fst (find k (s_data (p_store (x_st x p)))) else option_map snd (find (- k) (s_data (p_store (x_st x p)))).
Definition member_copies (x : state) (p : Z) : Z -> option Z := fun k => option_map fst (find k (x_copies x p)).

(** live_neighbor_count++ for neighbors with is_alive > 0; reading a neighbor without data is an error *)
Fixpoint live (vs : list (option Z)) (n : Z) : option Z :=
  match vs with
  | [] => Some n
  | Some v :: r => live r (if 0 <? v then (n + 1) mod 2 ^ 32 else n)
  | None :: _ => None
  end.
(** get_live_neighbor_counts for one cell: game_of_life.cpp:58-63, simple_game_of_life.cpp:102-110,
    game_of_life_with_output.cpp:59-65.  Neighbors on this process come first here, which is not important for the sum. *)
Definition count (x : state) (p : Z) (v : views) (i : cell_item) : op :=
  let ns := map fst (view_of v i) in
  let here c := has c (s_data (p_store (x_st x p))) in
  Compute (- i_id i) (filter here ns) (filter (fun c => negb (here c)) ns) (fun a b => live (a ++ b) 0).
(** apply_rules for one cell: game_of_life.cpp:73-77, simple_game_of_life.cpp:115-119, game_of_life_with_output.cpp:77-81 *)
Definition rule (i : cell_item) : op :=
  Compute (i_id i) [i_id i; - i_id i] [] (fun a _ => match a with
    | [Some a; Some n] => Some (if n =? 3 then 1 else if negb (n =? 2) then 0 else a)
    | _ => None end).
(** the first values of a cell: game_of_life.cpp:38-48, simple_game_of_life.cpp:80-88, game_of_life_with_output.cpp:37-49 *)
Definition set_up (first : Z -> Z) (i : cell_item) : list op :=
  [Compute (- i_id i) [] [] (fun _ _ => Some 0); Compute (i_id i) [] [] (fun _ _ => Some (first (i_id i)))].
(** "verify solution" for one cell: simple_game_of_life.cpp:123-158 *)
Definition wrong (turn : nat) (c v : Z) : bool :=
  (c =? 55) && (v =? 0) ||
  (if Nat.even turn then ((c =? 54) || (c =? 56)) && negb (v =? 0) || ((c =? 45) || (c =? 65)) && (v =? 0)
   else ((c =? 54) || (c =? 56)) && (v =? 0) || ((c =? 45) || (c =? 65)) && negb (v =? 0)).
Definition verify (turn : nat) (i : cell_item) : op :=
  Compute 0 [0; i_id i] [] (fun a _ => match a with
    | [Some e; Some v] => Some (if wrong turn (i_id i) v then 1 else e)
    | _ => None end).

(** update_copies_of_remote_neighbors starts and waits (dccrg.hpp:978-1024), and so does
    wait_remote_neighbor_copy_updates (5362-5399) *)
Notation start := (Start default_neighborhood_id).
(** one turn: game_of_life.cpp:120-139 *)
Definition turn_overlapped (x : state) (k : nat) (p : Z) (v : views) : list op :=
  start :: map (count x p v) (view_inner v) ++ [WaitR] ++ map (count x p v) (view_outer v) ++ map rule (view_inner v) ++ [WaitS] ++ map rule (view_outer v).
(** simple_game_of_life.cpp:91-159 *)
Definition turn_simple (x : state) (k : nat) (p : Z) (v : views) : list op :=
  start :: [WaitR; WaitS] ++ map (count x p v) (view_local v) ++ map rule (view_local v) ++ map (verify k) (view_local v).
(** game_of_life_with_output.cpp:150-161 without the output, which changes nothing *)
Definition turn_with_output (x : state) (k : nat) (p : Z) (v : views) : list op :=
  start :: map (count x p v) (view_inner v) ++ [WaitR; WaitS] ++ map (count x p v) (view_outer v) ++ map rule (view_local v).

(** what process p does after the grid has been initialized and balanced *)
Definition program (turn : state -> nat -> Z -> views -> list op) (first : Z -> Z) (turns : nat) (x : state) (p : Z) : list op :=
  match iterators g x default_neighborhood_id p with
  | Done v => flat_map (set_up first) (view_local v) ++ flat_map (fun k => turn x k p v) (seq 0 turns)
  | _ => []
  end.
End Programs.
