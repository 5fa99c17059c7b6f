(** C74: games played by game_of_life_with_output.cpp as shown by dc2vtk.cpp. *)
From Coq Require Import QArith Permutation.
From Verif Require Import U64 MapModel MapSpec MapProofs MapFamily MapProps HoodModel DblModel MeshModel
  MeshSpec MeshBase HoodProps MeshWalk MeshFind MeshKids MeshItem MeshCheck MeshTo MeshNear MeshLookup
  Sets RefineModel RefineGeo RefineInv RefineSpread RefineMerge RefineFold RefineExec RefineStop
  BalanceModel RefineReqs Create Balance History HistProps CommitProps BalProps LoadCells HistExamples FileModel FileProps SaveModel SaveProps SaveLoad
  CommModel CommInv CommProps CommMore CommExamples Async CommAsync CommViews CopyProps Overlap OverlapProps Rounds GameSpec GameModel GameProps GameRun
  VtkModel VtkProps ConvertModel ConvertProps.
Open Scope Z_scope.

(** The vtk file made of what is saved after some turns of game_of_life_with_output.cpp has each cell of the board once, at
    its place, with a positive is_alive if and only if it is alive after as many turns of the game. *)
Theorem c74_the_game_is_shown big g (d0 : Z * Z) x first one_each turns s st c cells step bounds out :
  grid_ok g -> xreachable d0 g x -> (forall e, exists_on (x_st x) 0 e = true -> lvl_of (g_map g) e = 0) -> Z.of_nat (length (g_hood g)) < 2 ^ 32 ->
  execution (ranks g) (grid_sends g one_each x) (grid_recvs g one_each x) (program g turn_with_output first turns x) (members x) (member_copies x) s -> finished (ranks g) s ->
  (* the grid that is saved *)
  reachable d0 g st -> (forall q e, In q (ranks g) -> owner st q e = owner (x_st x) q e) ->
  (forall q e v, In q (ranks g) -> owns x q q e -> own (at_ s q) e = Some v -> exists n, find e (s_data (p_store (st q))) = Some (v, n)) ->
  (forall q e d, In q (ranks g) -> find e (s_data (p_store (st q))) = Some d -> 0 <= fst d < 2 ^ 32) ->
  own_cells g st cells -> geometry_set (g_map g) (CartesianGeometry c) -> settable (g_map g) -> len (gather g cells) <= 2 ^ 29 ->
  exists writes, save_grid_data big (game_cell big) g (CartesianGeometry c) st cells (Flags true true true) (game_header big step) 0 = Done (Some writes) /\
  forall ws f junk, Permutation writes ws -> exists lines l, dc2vtk big bounds out junk (apply_writes ws f) = Some lines /\
    read_shown lines = Some (map (fun e => (map (fun i => Some (corner (bounds (g_map g) (g_topo g) c false) (bounds (g_map g) (g_topo g) c true) out (fst e) i)) eight, snd e)) l) /\
    NoDup (map fst l) /\ (forall e, In e (map fst l) <-> exists_on (x_st x) 0 e = true) /\
    (forall e a, In (e, a) l -> (0 < a <-> game (mlen (g_map g)) (per (g_topo g)) (g_hood g) turns (fun i => 0 <? first (cell_at (g_map g) i)) (position_of (g_map g) e) = true)).
Proof.
  intros Hg Rx Hl Hs Ex F R Ho Hv Hd Hc Hy Hm Hn.
  destruct (c74_saved_games_are_shown big d0 g c st cells step bounds out Hg R Hc Hd Hy Hm Hn) as (writes & E & H). exists writes. split; [assumption|]. intros ws f junk P. destruct (H ws f junk P) as (lines & l & A1 & A2 & A3 & A4 & A5). exists lines, l. split; [assumption|]. split; [assumption|]. split; [assumption|].
  pose proof (Balance.rank0 g Hg) as I0. assert (forall e, exists_on st 0 e = exists_on (x_st x) 0 e) as Ee. { intros e. specialize (Ho 0 e I0). unfold exists_on, owner in *. rewrite Ho. reflexivity. }
  split; [intros e; rewrite A4, Ee; reflexivity|]. intros e a I. destruct (A5 e a I) as (q & d & Iq & Fd & ->). assert (owns x q q e) as O. { unfold owns. rewrite <- Ho by assumption. apply (c25_processes_agree d0 g Hg st q q R Iq Iq). unfold has. rewrite Fd. reflexivity. }
  destruct (c73_game_of_life_with_output g Hg d0 x Rx Hl Hs first one_each turns s Ex) as (_ & _ & _ & G). destruct (G F q e Iq O) as (v & Ev & Gv). destruct (Hv q e v Iq O Ev) as (n & Fn). assert (d = (v, n)) as -> by congruence. exact Gv.
Qed.

(** ** Three live cells in a row, after one turn, saved by two processes *)
Definition unit_bounds (m : mapping) (t : topo) (c : cartesian) (upper : bool) (e : Z) (d : dim) : option Q := Some (inject_Z (get (position_of m e) d + if upper then 1 else 0)).
Definition unit_cartesian : cartesian := Cartesian [0; 0; 0] [dbl_one; dbl_one; dbl_one].
(** cells 1 to 4 are on process 0 *)
Definition turned_row : list (@HistExamples.step (Z * Z)) := map (fun c => Do (Write (if c <? 5 then 0 else 1) c ((if c mod 3 =? 2 then 1 else 0), 2))) (map Z.of_nat (seq 1 9)).
Definition own_list {D} (st : Z -> proc D) (r : Z) : list Z := rev (keys (s_data (p_store (st r)))).
Definition places (f : list (list (option point) * Z)) : list (Q * Q * Z) :=
  map (fun e => match nth 0 (fst e) None with Some (Some x, Some y, _) => (x, y, snd e) | _ => (0%Q, 0%Q, 9) end) f.
Fixpoint same_places (a : list (Q * Q * Z)) (b : list (Z * Z * Z)) : bool :=
  match a, b with [], [] => true | (x, y, v) :: a, (i, j, w) :: b => Qeq_bool x (inject_Z i) && Qeq_bool y (inject_Z j) && (v =? w) && same_places a b | _, _ => false end.
Definition saved_game (big : bool) (st : Z -> proc (Z * Z)) : option file :=
  match save_grid_data big (game_cell big) tiny (CartesianGeometry unit_cartesian) st (own_list st) (Flags true true true) (game_header big 1) 0 with Done (Some writes) => Some (apply_writes writes empty_file) | _ => None end.
Definition shows (big : bool) (f : file) (l : list (Z * Z * Z)) : bool :=
  match dc2vtk big unit_bounds six_digits 7 f with Some lines => match read_shown lines with Some v => same_places (places v) l | None => false end | None => false end.
Example c74_example big : HistExamples.holds (go (0, 0) tiny turned_row) (fun st =>
  HistExamples.holds (xgo (0, 0) tiny []) (fun x => let s := tries true x (from_start turn_with_output 1 x) fair in
    (* the hypotheses of c74_the_game_is_shown *)
    done2 s && forallb (fun e => eqo (owner st 0 e) (owner (x_st x) 0 e) && match owner st 0 e with
      | Some q => match own (at_ s q) e, find e (s_data (p_store (st q))) with Some v, Some d => (v =? fst d) && (fst d <? 2) | _, _ => false end
      | None => false end) (map Z.of_nat (seq 1 9))) &&
  match saved_game big st with
  | Some f => shows big f [(0, 1, 0); (2, 0, 0); (1, 0, 1); (0, 0, 0); (2, 2, 0); (1, 2, 1); (0, 2, 0); (2, 1, 0); (1, 1, 1)] && match dc2vtk (negb big) unit_bounds six_digits 7 f with None => true | _ => false end
  | None => false
  end) = true.
Proof. destruct big; vm_compute; reflexivity. Qed.
(** Files whose end is missing are not noticed: cells are shown as dead. *)
Theorem c74_truncated_refuted big : exists st f, reachable (0, 0) tiny st /\ saved_game big st = Some f /\
  find 2 (s_data (p_store (st 0))) = Some (1, 2) /\ find 5 (s_data (p_store (st 1))) = Some (1, 2) /\
  shows big (cut f (9 * 16 + 8 + 8 + mapping_size + 4 + topology_size + cartesian_size + 8)) [(0, 1, 0); (2, 0, 0); (1, 0, 0); (0, 0, 0); (2, 2, 0); (1, 2, 0); (0, 2, 0); (2, 1, 0); (1, 1, 0)] = true.
Proof.
  assert (HistExamples.holds (go (0, 0) tiny turned_row) (fun st => match saved_game big st with Some f =>
    match find 2 (s_data (p_store (st 0))), find 5 (s_data (p_store (st 1))) with Some (1, 2), Some (1, 2) => true | _, _ => false end &&
    shows big (cut f (9 * 16 + 8 + 8 + mapping_size + 4 + topology_size + cartesian_size + 8)) [(0, 1, 0); (2, 0, 0); (1, 0, 0); (0, 0, 0); (2, 2, 0); (1, 2, 0); (0, 2, 0); (2, 1, 0); (1, 1, 0)] | None => false end) = true) as Q by (destruct big; vm_compute; reflexivity).
  apply holds_ex in Q. destruct Q as (st & E & Q). apply go_reachable in E. destruct (saved_game big st) as [f|] eqn:Es; [|discriminate]. apply andb_prop in Q. destruct Q as [Q1 Q2]. exists st, f. split; [assumption|]. split; [assumption|].
  destruct (find 2 _) as [[[|[| |]|] [|[|[| |]|]|]]|]; try discriminate. destruct (find 5 _) as [[[|[| |]|] [|[|[| |]|]|]]|]; try discriminate. auto.
Qed.
Print Assumptions c74_the_game_is_shown.
Print Assumptions c74_truncated_refuted.
