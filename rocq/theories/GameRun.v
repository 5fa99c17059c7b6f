(** C73: executions of the game of life programs. *)
From Verif Require Import U64 MapModel MapSpec MapProofs MapFamily MapProps HoodModel MeshModel
  MeshSpec MeshBase HoodProps MeshWalk MeshFind MeshKids MeshItem MeshCheck MeshTo MeshNear
  Sets RefineModel RefineGeo RefineInv RefineSpread RefineMerge RefineFold RefineExec RefineStop
  BalanceModel RefineReqs Create Balance History HistProps CommitProps BalProps LoadCells HistExamples CommModel CommInv CommProps CommMore CommExamples Async CommAsync CommViews CopyProps Overlap OverlapProps Rounds GameSpec GameModel GameProps.
Open Scope Z_scope.

Section Game.
Context (g : grid) (Hg : grid_ok g).
Notation m := (g_map g).
Notation t := (g_topo g).
Notation rank r := (In r (ranks g)).
Notation U := (g_hood g).
Notation state := (xstate (D := Z * Z)).
Notation did := default_neighborhood_id.
(** any state of a grid in which all cells are of level 0, with fewer than 2^32 neighborhood offsets *)
Context (d0 : Z * Z) (x : state) (Rx : xreachable d0 g x) (Hlevel : forall c, exists_on (x_st x) 0 c = true -> lvl_of m c = 0).
Context (Hsmall : Z.of_nat (length U) < 2 ^ 32).
Context (first : Z -> Z) (one_each : bool) (turns : nat).
Notation sends := (grid_sends g one_each x).
Notation recvs := (grid_recvs g one_each x).
Notation op := (op (D := Z)).
Notation board := (mlen m).
Notation start := (fun i => 0 <? first (cell_at m i)).

Section Turn.
Context (turn : state -> nat -> Z -> views -> list op) (Ht : turn_ok g x first one_each turn).
Notation script := (program g turn first turns x).
Notation execution := (execution (ranks g) sends recvs script (members x) (member_copies x)).
Notation finished := (finished (ranks g)).
Definition skeleton : list op := flat_map (fun _ => [Start did; WaitR; WaitS]) (seq 0 turns).
Notation seen := (seen g x).
Notation after := (after g x first).

Lemma set_up_phase l d cop : (forall i, In i l -> 0 < i_id i) -> exists d', (forall rest, advance (flat_map (set_up first) l ++ rest) d cop = advance rest d' cop) /\
  d' 0 = d 0 /\ forall c, In c (map i_id l) \/ d c = Some (first c) -> 0 < c -> d' c = Some (first c).
Proof.
  revert d. induction l as [|i l IH]; intros d Hp; [exists d; split; [reflexivity|]; split; [reflexivity|]; intros c [[]|E] _; assumption|].
  pose proof (Hp i (or_introl eq_refl)) as Pi. set (d1 := Overlap.upd (Overlap.upd d (- i_id i) (Some 0)) (i_id i) (Some (first (i_id i)))).
  destruct (IH d1) as (d' & A & B & C); [intros j J; apply Hp; right; assumption|]. exists d'. split; [intros rest; cbn [flat_map set_up app advance]; apply A|]. split.
  - rewrite B. unfold d1, Overlap.upd. destruct (Z.eqb_spec 0 (i_id i)); [lia|]. destruct (Z.eqb_spec 0 (- i_id i)); [lia|]. reflexivity.
  - intros c I Pc. apply C; [|assumption]. unfold d1, Overlap.upd. destruct (Z.eqb_spec c (i_id i)) as [->|Nc]; [right; reflexivity|]. destruct (Z.eqb_spec c (- i_id i)); [lia|]. destruct I as [[E|I]|E]; [congruence|left; assumption|right; assumption].
Qed.
(** what the program of a process is *)
Lemma the_script p : rank p -> exists v body, seen p v /\ script p = flat_map (set_up first) (view_local v) ++ flat_map (fun k => Start did :: body k) (seq 0 turns) /\
  forall k, filter collective (body k) = [WaitR; WaitS] /\
  (forall rest, (forall w, careful (D := Z) sends recvs p rest [] w) -> careful sends recvs p (body k ++ rest) [did] false) /\
  (forall d cop, after k p d -> copied_ok g x first p k cop -> exists d', (forall rest, advance (body k ++ rest) d cop = advance rest d' cop) /\ after (S k) p d').
Proof.
  intros Ip. destruct (views_seen g Hg d0 x Rx p Ip) as (v & Sv). exists v, (fun k => tl (turn x k p v)). split; [assumption|]. split.
  - unfold program. rewrite (s_iter _ _ _ _ Sv). f_equal. apply flat_map_ext. intros k. destruct (turn_is _ _ _ _ _ Ht p v k Ip Sv) as (body & E & _). rewrite E. reflexivity.
  - intros k. destruct (turn_is _ _ _ _ _ Ht p v k Ip Sv) as (body & E & A & B & C). rewrite E. cbn [tl]. auto.
Qed.
Lemma the_skeleton p : rank p -> filter collective (script p) = skeleton.
Proof.
  intros Ip. destruct (the_script p Ip) as (v & body & Sv & E & H). rewrite E, filter_app. unfold skeleton. assert (forall l, filter collective (flat_map (set_up first) l) = []) as -> by (induction l as [|i l IH]; [reflexivity|exact IH]). cbn [app]. clear E. generalize (seq 0 turns). intros l.
  induction l as [|k l IH]; [reflexivity|]. cbn [flat_map app filter collective]. rewrite filter_app, (proj1 (H k)), IH. reflexivity.
Qed.
Lemma used_default id : used skeleton id -> id = did.
Proof. unfold used, skeleton. intros I. apply in_flat_map in I. destruct I as (k & _ & I). destruct I as [E|[E|[E|[]]]]; [injection E as ->; reflexivity|discriminate|discriminate]. Qed.
Lemma the_care p : rank p -> careful sends recvs p (script p) [] false.
Proof.
  intros Ip. destruct (the_script p Ip) as (v & body & Sv & E & H). rewrite E. apply (careful_computes g x one_each).
  - intros o I. apply in_flat_map in I. destruct I as (i & _ & I). destruct I as [<-|[<-|[]]]; do 4 eexists; (split; [reflexivity|]); (split; [intros id e []|auto]).
  - clear E. generalize (seq 0 turns). generalize false. intros w l. revert w. induction l as [|k l IH]; intros w; [exact I|]. cbn [flat_map app careful]. apply (proj1 (proj2 (H k))). assumption.
Qed.
Lemma the_ports id p : used skeleton id -> rank p -> NoDup (map fst (sends id p)) /\ NoDup (map fst (recvs id p)) /\
  (forall e, In e (sends id p) -> rank (fst (fst e))) /\ (forall e, In e (recvs id p) -> rank (fst (fst e))).
Proof. intros _ _. split; [apply messages_ports|]. split; [apply messages_ports|]. split; apply messages_ports. Qed.
Lemma the_matches id p q tg cs : used skeleton id -> rank p -> rank q -> In ((q, tg), cs) (sends id p) <-> In ((p, tg), cs) (recvs id q).
Proof.
  intros Hu Ip Iq. rewrite (used_default id Hu). destruct (list_facts d0 g Hg x did U q p Rx (default_hood g x) Iq Ip) as (Es & _). unfold grid_sends, grid_recvs. rewrite !in_messages, Es. tauto.
Qed.
Lemma the_source id id' p p' q tg tg' cs cs' c : used skeleton id -> used skeleton id' -> rank q -> In ((p, tg), cs) (recvs id q) -> In ((p', tg'), cs') (recvs id' q) -> In c cs -> In c cs' -> p = p'.
Proof.
  intros Hu Hu' Iq I I' J J'. rewrite (used_default id Hu) in I. rewrite (used_default id' Hu') in I'.
  pose proof (proj2 (messages_ports g one_each (fun p => listed p (recv_list g x did q))) _ I) as Ip. pose proof (proj2 (messages_ports g one_each (fun p => listed p (recv_list g x did q))) _ I') as Ip'. cbn [fst] in Ip, Ip'.
  apply (message_cells g _ _ _ _ _ _ I) in J. apply (message_cells g _ _ _ _ _ _ I') in J'. apply (received_needed d0 g Hg x Rx did U q p c (default_hood g x) Iq Ip) in J. apply (received_needed d0 g Hg x Rx did U q p' c (default_hood g x) Iq Ip') in J'.
  destruct J as (O & _), J' as (O' & _). unfold owns in *. congruence.
Qed.
Notation ref_own := (ref_own recvs script (members x) (member_copies x)).
Notation plan := (plan recvs script (members x) (member_copies x) skeleton).
Lemma plan_length : length plan = turns.
Proof.
  unfold Overlap.plan. rewrite map_length. unfold skeleton. assert (forall l p d n ph, length (trace recvs script (members x) (member_copies x) p (flat_map (fun _ : nat => [Start did; WaitR; WaitS]) l) d n ph) = length l) as H.
  { induction l as [|k l IH]; intros p d n ph; [reflexivity|]. cbn [flat_map app trace length]. rewrite IH. reflexivity. }
  rewrite H. apply seq_length.
Qed.
Lemma reached p n : rank p -> (n <= turns)%nat -> after n p (ref_own n p).
Proof.
  intros Ip L.
  set (body := fun (k : nat) (q : Z) => match iterators g x did q with Done v => tl (turn x k q v) | _ => [] end).
  set (prelude := fun q => match iterators g x did q with Done v => flat_map (set_up first) (view_local v) | _ => [] end).
  refine (proj2 (rounds_reach (ranks g) recvs (members x) (member_copies x) did prelude body turns after script _ _ _ n p Ip L)).
  - intros q Iq. unfold prelude, rounds, body, program. destruct (views_seen g Hg d0 x Rx q Iq) as (v & Sv). rewrite (s_iter _ _ _ _ Sv). f_equal. apply flat_map_ext. intros k. destruct (turn_is _ _ _ _ _ Ht q v k Iq Sv) as (b & E & _). rewrite E. reflexivity.
  - intros q cop Iq. unfold prelude. destruct (views_seen g Hg d0 x Rx q Iq) as (v & Sv). rewrite (s_iter _ _ _ _ Sv).
    destruct (set_up_phase (view_local v) (members x q) cop) as (d' & A & B & C); [intros i I; apply (item_local g Hg d0 x Rx Hlevel q Iq v Sv i I)|]. exists d'. split; [assumption|]. split.
    + intros c O. unfold holds. cbn [val]. apply C; [left; apply (s_local _ _ _ _ Sv); assumption|apply (owned_pos g Hg d0 x Rx Hlevel q q c Iq O)].
    + exists 0. split; [|auto]. rewrite B. reflexivity.
  - intros k q d cop Iq Hd Hc. unfold body. destruct (views_seen g Hg d0 x Rx q Iq) as (v & Sv). rewrite (s_iter _ _ _ _ Sv). destruct (turn_is _ _ _ _ _ Ht q v k Iq Sv) as (b & E & _ & _ & C). rewrite E. cbn [tl]. apply C; [assumption|].
    intros c r N. assert (rank r) as Ir.
    { destruct (xreachable_inv d0 g Hg x Rx) as (own & Hx). pose proof Hx as ((Hgood & _) & _). apply (needs_iff g own _ _ q r c Hx Iq) in N. destruct N as (O & _). apply (proj2 (proj1 Hgood) c r O). }
    destruct (Hc c r (needed_source g Hg d0 x Rx one_each q r c Iq Ir N) Ir) as (dq & Pq & ->). apply Pq. destruct N as (O & _). destruct (xreachable_inv d0 g Hg x Rx) as (own & Hx). unfold owns in *. rewrite (xview g own x _ c Hx Ir). rewrite (xview g own x q c Hx Iq) in O. assumption.
Qed.
Notation steps := (steps (ranks g) sends recvs).
Notation left_over := (left_over (ranks g) sends recvs).
(** At the end of every execution cells are alive as in the game. *)
Lemma plays s p c : execution s -> finished s -> rank p -> owns x p p c ->
  exists v, own (at_ s p) c = Some v /\ (0 < v <-> game board (per t) U turns start (position_of m c) = true).
Proof.
  intros Ex F Ip O. destruct (overlap_result (ranks g) sends recvs script (members x) (member_copies x) skeleton the_skeleton the_care the_ports the_matches the_source s p c Ex F Ip) as [E _].
  rewrite E, plan_length. destruct (reached p turns Ip (le_n _)) as [A _]. exists (val g first turns c). split; [apply A; assumption|].
  pose proof (owned_exists _ _ _ _ O) as Ec. apply (cells_exist g Hg d0 x Rx Hlevel p c Ip) in Ec. destruct Ec as [Vc Lc]. destruct (level0 m (proj1 Hg) c Vc Lc) as [Bc Cc].
  rewrite <- (val_game g Hg first turns _ Bc), Cc. split; lia.
Qed.
(** No order of messages leads to a deadlock, and all end. *)
Lemma ends s : execution s ->
  (finished s \/ exists s', step (ranks g) sends recvs s s') /\
  (forall n s', steps s n s' -> (n <= left_over s)%nat /\ (finished s' <-> n = left_over s)) /\
  exists s', steps s (left_over s) s' /\ finished s'.
Proof.
  intros Ex. split; [apply (overlap_progress (ranks g) sends recvs script (members x) (member_copies x) skeleton the_skeleton the_care the_ports the_matches the_source); assumption|].
  apply (overlap_finishes (ranks g) sends recvs script (members x) (member_copies x) skeleton the_skeleton the_care the_ports the_matches the_source); [apply ranks_NoDup|assumption].
Qed.
Lemma flag_at_end s p : right g first -> execution s -> finished s -> rank p -> own (at_ s p) 0 = Some 0.
Proof.
  intros Hr Ex F Ip. destruct (overlap_result (ranks g) sends recvs script (members x) (member_copies x) skeleton the_skeleton the_care the_ports the_matches the_source s p 0 Ex F Ip) as [E _].
  rewrite E, plan_length. destruct (reached p turns Ip (le_n _)) as [_ (e & -> & H)]. rewrite (H Hr). reflexivity.
Qed.
(** what is at 0 never becomes 0 again *)
Definition lasting (o : op) : Prop := match o with Compute c rs cs f => c = 0 -> forall d cop, Overlap.value rs cs f d cop = Some 0 -> d 0 = Some 0 | _ => True end.
Lemma lasting_steps s n s' p : steps s n s' -> (forall o, In o (todo (at_ s p)) -> lasting o) -> own (at_ s' p) 0 = Some 0 -> own (at_ s p) 0 = Some 0.
Proof.
  intros St. induction St as [s|s s1 n s2 A St IH]; intros Hl E; [assumption|].
  assert ((forall o, In o (todo (at_ s1 p)) -> lasting o) /\ (own (at_ s1 p) 0 = Some 0 -> own (at_ s p) 0 = Some 0)) as [H1 H2]; [|auto].
  destruct A as [s r id l Ir T|s r c rs cs f l Ir T|s r l Ir T EI|s r l Ir T EO|s r q tg k cs l1 l2 Ir T N|s r q tg k cs l1 l2 k' vs l Ir T N C]; cbn [with_local with_chan at_]; (destruct (Z.eqb_spec p r) as [->|Np]; [|auto]); cbn [todo own].
  2: { split; [intros o I; apply Hl; rewrite T; right; assumption|]. unfold Overlap.upd. destruct (Z.eqb_spec 0 c) as [<-|Nc]; [|auto]. pose proof (Hl (Compute 0 rs cs f) ltac:(rewrite T; left; reflexivity)) as Q. cbn [lasting] in Q. intros V. apply (Q eq_refl _ _ V). }
  all: split; [|auto]; first [assumption|intros o I; apply Hl; rewrite T; right; assumption].
Qed.
Lemma todo_script s p : execution s -> forall o, In o (todo (at_ s p)) -> In o (script p).
Proof.
  induction 1 as [|s s' Ex IH A]; [auto|]. destruct A as [s r id l Ir T|s r c rs cs f l Ir T|s r l Ir T EI|s r l Ir T EO|s r q tg k cs l1 l2 Ir T N|s r q tg k cs l1 l2 k' vs l Ir T N C]; cbn [with_local with_chan at_]; (destruct (Z.eqb_spec p r) as [->|Np]; [|auto]); cbn [todo]; try assumption; intros o I; apply IH; rewrite T; right; assumption.
Qed.
End Turn.
Notation played turn := (forall s, execution (ranks g) sends recvs (program g turn first turns x) (members x) (member_copies x) s ->
  (* no order of messages leads to a deadlock or goes on forever *)
  (finished (ranks g) s \/ exists s', step (ranks g) sends recvs s s') /\
  (exists s', steps (ranks g) sends recvs s (left_over (ranks g) sends recvs s) s' /\ finished (ranks g) s') /\
  (forall n s', steps (ranks g) sends recvs s n s' -> (n <= left_over (ranks g) sends recvs s)%nat) /\
  (* and at the end all cells are alive as in the game *)
  (finished (ranks g) s -> forall p c, rank p -> owns x p p c ->
    exists v, own (at_ s p) c = Some v /\ (0 < v <-> game board (per t) U turns start (position_of m c) = true))).
Lemma played_by turn : turn_ok g x first one_each turn -> played turn.
Proof.
  intros Ht s Ex. destruct (ends turn Ht s Ex) as (A & B & C). split; [assumption|]. split; [assumption|]. split; [intros n s' St; apply (B n s' St)|]. intros F p c Ip O. apply (plays turn Ht); assumption.
Qed.
(** game_of_life.cpp, simple_game_of_life.cpp and game_of_life_with_output.cpp play the game *)
Theorem c73_game_of_life : played turn_overlapped.
Proof. apply played_by. apply overlapped_ok with d0; assumption. Qed.
Theorem c73_simple_game_of_life : played turn_simple.
Proof. apply played_by. apply simple_ok with d0; assumption. Qed.
Theorem c73_game_of_life_with_output : played turn_with_output.
Proof. apply played_by. apply with_output_ok with d0; assumption. Qed.
End Game.

(** ** Neighborhoods of length 1 on a flat board: the usual game with eight neighbors *)
Section Conway.
Context (w h : Z).
Notation board := (Z -> Z -> bool).
Definition inside (i j : Z) : bool := (0 <=? i) && (i <? w) && (0 <=? j) && (j <? h).
(** the number of live squares next to (i, j), also diagonally *)
Definition live8 (a : board) (i j : Z) : Z :=
  let one (q : Z * Z) := let (di, dj) := q in if inside (i + di) (j + dj) && a (i + di) (j + dj) then 1 else 0 in
  fold_right (fun q n => one q + n) 0 [(-1, -1); (0, -1); (1, -1); (-1, 0); (1, 0); (-1, 1); (0, 1); (1, 1)].
Fixpoint conway (n : nat) (a : board) : board :=
  match n with
  | O => a
  | S n => fun i j => let b := conway n a in (live8 b i j =? 3) || (live8 b i j =? 2) && b i j
  end.
End Conway.

Lemma filter_length_sum {A} (f : A -> bool) l : Z.of_nat (length (filter f l)) = fold_right (fun a n => (if f a then 1 else 0) + n) 0 l.
Proof. induction l as [|a l IH]; [reflexivity|]. cbn [filter fold_right]. rewrite <- IH. destruct (f a); cbn [length]; lia. Qed.
Lemma conway_game m : m_l2 m = 1 -> forall n a i j, game (mlen m) (per (Topo false false false)) (default_hood_of 1) n a (Idx i j 0) = conway (m_l0 m) (m_l1 m) n (fun i j => a (Idx i j 0)) i j.
Proof.
  intros Hz. assert (forall b i j, around (mlen m) (per (Topo false false false)) (default_hood_of 1) b (Idx i j 0) = live8 (m_l0 m) (m_l1 m) (fun i j => b (Idx i j 0)) i j) as H.
  { intros b i j. unfold around. rewrite filter_length_sum.
    assert (forall u v z, alive (mlen m) (per (Topo false false false)) b (vadd (Idx i j 0) (Idx u v z)) = (z =? 0) && (inside (m_l0 m) (m_l1 m) (i + u) (j + v) && b (Idx (i + u) (j + v) 0))) as F.
    { intros u v z. unfold alive, on_board, square, inside. cbn [forallb per per_x per_y per_z orb get vadd vmap ix iy iz mlen]. rewrite Hz. destruct (Z.eqb_spec z 0) as [->|Nz].
      - unfold vadd, vmap. cbn [get ix iy iz per per_x per_y per_z orb mlen]. change (0 + 0) with 0. replace ((0 <=? 0) && (0 <? 1)) with true by reflexivity. cbn [andb]. rewrite !andb_true_r. rewrite !andb_assoc. reflexivity.
      - unfold vadd, vmap. cbn [get ix iy iz per per_x per_y per_z orb mlen]. destruct (Z.leb_spec 0 (0 + z)); cbn [andb]; [|rewrite !andb_false_r; reflexivity]. destruct (Z.ltb_spec (0 + z) 1); [lia|]. cbn [andb]. rewrite !andb_false_r. reflexivity. }
    let L := eval vm_compute in (default_hood_of 1) in assert (default_hood_of 1 = L) as E by (vm_compute; reflexivity). rewrite E. cbn [fold_right]. rewrite !F. unfold live8. cbn [fold_right]. cbn [Z.eqb andb Z.add]. reflexivity. }
  intros n a. induction n as [|n IH]; intros i j; [reflexivity|]. cbn [game conway]. unfold next. rewrite H. assert (live8 (m_l0 m) (m_l1 m) (fun i j => game (mlen m) (per (Topo false false false)) (default_hood_of 1) n a (Idx i j 0)) i j = live8 (m_l0 m) (m_l1 m) (conway (m_l0 m) (m_l1 m) n (fun i j => a (Idx i j 0))) i j) as ->.
  { unfold live8. cbn [fold_right]. rewrite !IH. reflexivity. }
  rewrite IH. reflexivity.
Qed.

(** The grid of simple_game_of_life.cpp:58-69, on any number of processes *)
Definition small (np : Z) : grid := Grid (update_last_cell (Mapping 10 10 1 0 0)) (Topo false false false) 1 np.
(** its first values: simple_game_of_life.cpp:83-87 *)
Definition three (c : Z) : Z := if (c =? 54) || (c =? 55) || (c =? 56) then 1 else 0.
(** game_of_life.cpp:102-106 *)
Definition large (np : Z) : grid := Grid (update_last_cell (Mapping 500 500 1 0 0)) (Topo false false false) 1 np.
Lemma small_ok np : 0 < np < 2 ^ 31 -> grid_ok (small np).
Proof.
  intros H. destruct (grid_okb (update_last_cell (Mapping 10 10 1 0 0)) (Topo false false false) 1 1) as (A & B & C & _); [vm_compute; reflexivity..|]. split; [exact A|]. split; [exact B|]. split; [exact C|exact H].
Qed.
Lemma large_ok np : 0 < np < 2 ^ 31 -> grid_ok (large np).
Proof.
  intros H. destruct (grid_okb (update_last_cell (Mapping 500 500 1 0 0)) (Topo false false false) 1 1) as (A & B & C & _); [vm_compute; reflexivity..|]. split; [exact A|]. split; [exact B|]. split; [exact C|exact H].
Qed.

Lemma flat (g : grid) (Hg : grid_ok g) (d0 : Z * Z) x : xreachable d0 g x -> m_max (g_map g) = 0 -> forall c, exists_on (x_st x) 0 c = true -> lvl_of (g_map g) c = 0.
Proof.
  intros Rx H0 c E. pose proof (c18_cells_always_tile_the_grid d0 g Hg (x_st x) 0 (c25_histories_with_neighborhoods d0 g x Rx) (rank0 g Hg)) as (Tv & _). pose proof (Tv c E) as V.
  pose proof (cell_level (g_map g) (proj1 Hg) c V). lia.
Qed.
(** On a board that is one cell thick, with neighborhoods of length 1 and no joined ends, the game is Conway's. *)
Theorem c73_conway g (Hg : grid_ok g) (d0 : Z * Z) x (Rx : xreachable d0 g x) first one_each turns turn :
  g_topo g = Topo false false false -> g_len g = 1 -> m_l2 (g_map g) = 1 -> (forall c, exists_on (x_st x) 0 c = true -> lvl_of (g_map g) c = 0) ->
  turn = turn_overlapped \/ turn = turn_simple \/ turn = turn_with_output ->
  forall s, execution (ranks g) (grid_sends g one_each x) (grid_recvs g one_each x) (program g turn first turns x) (members x) (member_copies x) s -> finished (ranks g) s ->
  forall p c, In p (ranks g) -> owns x p p c -> let w := m_l0 (g_map g) in
  exists v, own (at_ s p) c = Some v /\ (0 < v <-> conway w (m_l1 (g_map g)) turns (fun i j => 0 <? first (1 + i + j * w)) ((c - 1) mod w) ((c - 1) / w) = true).
Proof.
  intros Et El Ez Hlevel Hturn s Ex F p c Ip O w. assert (Z.of_nat (length (g_hood g)) < 2 ^ 32) as Hs by (unfold g_hood; rewrite El; vm_compute; reflexivity).
  assert (turn_ok g x first one_each turn) as Ht by (destruct Hturn as [->|[->| ->]]; [apply overlapped_ok with d0|apply simple_ok with d0|apply with_output_ok with d0]; assumption).
  destruct (plays g Hg d0 x Rx Hlevel first one_each turns turn Ht s p c Ex F Ip O) as (v & E & V). exists v. split; [assumption|]. rewrite V.
  pose proof (owned_exists _ _ _ _ O) as Ec. apply (cells_exist g Hg d0 x Rx Hlevel p c Ip) in Ec. destruct Ec as [Vc Lc]. destruct (level0 (g_map g) (proj1 Hg) c Vc Lc) as [Bc _].
  pose proof (Bc DY) as By. pose proof (Bc DZ) as Bz. cbn [get mlen position_of ix iy iz] in By, Bz. rewrite Ez in Bz. unfold position_of. replace ((c - 1) / (m_l0 (g_map g) * m_l1 (g_map g))) with 0 by lia.
  pose proof (mlen_pos (g_map g) (proj1 Hg) DX) as Px. pose proof (mlen_pos (g_map g) (proj1 Hg) DY) as Py. cbn [mlen] in Px, Py. rewrite <- Z.div_div in Bz by lia.
  fold w. assert (((c - 1) / w) mod m_l1 (g_map g) = (c - 1) / w) as -> by (apply Z.mod_small; unfold w; pose proof (Z.div_mod ((c - 1) / m_l0 (g_map g)) (m_l1 (g_map g)) ltac:(lia)); nia).
  unfold g_hood. rewrite Et, El, conway_game by assumption. unfold cell_at. cbn [ix iy iz]. fold w.
  assert (forall i j, (0 <? first (1 + i + j * w + 0 * (w * m_l1 (g_map g)))) = (0 <? first (1 + i + j * w))) as Q by (intros i j; do 2 f_equal; ring).
  assert (forall n a b, (forall i j, a i j = b i j) -> forall i j, conway w (m_l1 (g_map g)) n a i j = conway w (m_l1 (g_map g)) n b i j) as C.
  { clear. induction n as [|n IH]; intros a b H i j; [apply H|]. cbn [conway]. unfold live8. cbn [fold_right]. rewrite !(IH a b H). reflexivity. }
  rewrite (C turns _ _ Q). tauto.
Qed.

(** ** simple_game_of_life.cpp never prints "Internal error!" *)
Definition turned (c : Z) : Z := if (c =? 45) || (c =? 55) || (c =? 65) then 1 else 0.
Definition blink (k : nat) : Z -> Z := if Nat.even k then three else turned.
Definition cells100 : list Z := map Z.of_nat (seq 1 100).
Lemma cells100_In c : In c cells100 <-> 1 <= c <= 100.
Proof. unfold cells100. rewrite in_map_iff. split; [intros (n & <- & I); apply in_seq in I; lia|]. intros H. exists (Z.to_nat c). split; [lia|]. apply in_seq. lia. Qed.
Lemma near_ext np a b c : (forall y, 1 <= y <= 100 -> a y = b y) -> near (small np) a c = near (small np) b c.
Proof.
  intros H. unfold near, around. apply (f_equal (fun l => Z.of_nat (length l))). apply filter_ext_in. intros h _. unfold alive. destruct (on_board _ _ _) eqn:E; [|reflexivity]. cbn [andb]. rewrite H; [reflexivity|].
  apply (square_on_board (g_map (small np)) (wfb_wf (g_map (small np)) eq_refl) (g_topo (small np))) in E. pose proof (E DX) as A. pose proof (E DY) as B. pose proof (E DZ) as C. unfold cell_at. cbn [small g_map update_last_cell m_l0 m_l1 m_l2 mlen get] in *. lia.
Qed.
Lemma blinks np k c : 1 <= c <= 100 -> val (small np) three k c = blink k c.
Proof.
  revert c. induction k as [|k IH]; intros c Hc; [reflexivity|]. cbn [val]. rewrite (near_ext np _ (blink k) c IH), (IH c Hc). unfold blink. rewrite Nat.even_succ, <- Nat.negb_even.
  assert (forall e : bool, forallb (fun c => let n := near (small 1) (if e then three else turned) c in (if n =? 3 then 1 else if negb (n =? 2) then 0 else (if e then three else turned) c) =? (if negb e then three else turned) c) cells100 = true) as Q by (intros []; vm_compute; reflexivity).
  specialize (Q (Nat.even k)). rewrite forallb_forall in Q. specialize (Q c (proj2 (cells100_In c) Hc)). apply Z.eqb_eq in Q. exact Q.
Qed.
Lemma blinker_right np : right (small np) three.
Proof.
  intros k c. unfold wrong. destruct (Z.eqb_spec c 55) as [->|?]; [|destruct (Z.eqb_spec c 54) as [->|?]; [|destruct (Z.eqb_spec c 56) as [->|?]; [|destruct (Z.eqb_spec c 45) as [->|?]; [|destruct (Z.eqb_spec c 65) as [->|?]; [|cbn; destruct (Nat.even k); reflexivity]]]]].
  all: rewrite blinks by lia; unfold blink; rewrite Nat.even_succ, <- Nat.negb_even; destruct (Nat.even k); reflexivity.
Qed.
Theorem c73_blinker_never_fails np (d0 : Z * Z) x one_each turns s p : 0 < np < 2 ^ 31 -> xreachable d0 (small np) x ->
  execution (ranks (small np)) (grid_sends (small np) one_each x) (grid_recvs (small np) one_each x) (program (small np) turn_simple three turns x) (members x) (member_copies x) s ->
  In p (ranks (small np)) -> own (at_ s p) 0 = Some 0.
Proof.
  intros Hnp Rx Ex Ip. pose proof (small_ok np Hnp) as Hg. pose proof (flat (small np) Hg d0 x Rx eq_refl) as Hlevel.
  assert (Z.of_nat (length (g_hood (small np))) < 2 ^ 32) as Hs by (vm_compute; reflexivity). pose proof (simple_ok (small np) Hg d0 x Rx Hlevel Hs three one_each) as Ht.
  destruct (ends (small np) Hg d0 x Rx three one_each turns turn_simple Ht s Ex) as (_ & _ & (s' & St & F)).
  apply (lasting_steps (small np) x one_each s _ s' p St).
  - destruct (views_seen (small np) Hg d0 x Rx p Ip) as (v & Sv). assert (forall i, In i (view_local v) -> 0 < i_id i) as local by (intros i Ii; apply (item_local (small np) Hg d0 x Rx Hlevel p Ip v Sv i Ii)).
    intros o I. apply (todo_script (small np) x three one_each turns turn_simple s p Ex) in I. unfold program in I. rewrite (s_iter _ _ _ _ Sv) in I. apply in_app_or in I. destruct I as [I|I].
    + apply in_flat_map in I. destruct I as (i & Ii & I). assert (0 < i_id i) as Pi by (apply local; assumption). destruct I as [<-|[<-|[]]]; cbn [lasting]; lia.
    + apply in_flat_map in I. destruct I as (k & _ & I). unfold turn_simple in I. cbn [app] in I. destruct I as [<-|[<-|[<-|I]]]; [exact I.. |].
      apply in_app_or in I. destruct I as [I|I]; [|apply in_app_or in I; destruct I as [I|I]]; apply in_map_iff in I; destruct I as (i & <- & Ii); pose proof (local i Ii) as Pi; cbn [count rule verify lasting]; [lia|lia|]. intros _ d cop. unfold Overlap.value. cbn [map].
      destruct (d 0) as [e|]; [|discriminate]. destruct (d (i_id i)) as [w|]; [|discriminate]. destruct (wrong k (i_id i) w); [discriminate|auto].
  - apply (flag_at_end (small np) Hg d0 x Rx Hlevel three one_each turns turn_simple Ht s' p (blinker_right np)); [|assumption|assumption]. clear - Ex St. induction St as [s|s s1 n s2 A St IH]; [assumption|]. apply IH. eapply exec_step; [exact Ex|exact A].
Qed.

(** ** Examples: 3 x 3 x 1 cells on two processes *)
Definition tiny : grid := Grid (update_last_cell (Mapping 3 3 1 0 0)) (Topo false false false) 1 2.
Example tiny_ok : grid_ok tiny. Proof. apply grid_okb; vm_compute; reflexivity. Qed.
Definition bar (c : Z) : Z := if (c =? 4) || (c =? 5) || (c =? 6) then 1 else 0.
(** processes go on in the given order when they can *)
Fixpoint tries (b : bool) (x : xstate (D := Z * Z)) (s : global (D := Z)) (l : list choice) : global :=
  match l with [] => s | ch :: l => tries b x (match act (ranks tiny) (grid_sends tiny b x) (grid_recvs tiny b x) s ch with Some s' => s' | None => s end) l end.
Lemma tries_execution b x script own0 copies0 l : forall s, execution (ranks tiny) (grid_sends tiny b x) (grid_recvs tiny b x) script own0 copies0 s -> execution (ranks tiny) (grid_sends tiny b x) (grid_recvs tiny b x) script own0 copies0 (tries b x s l).
Proof.
  induction l as [|ch l IH]; intros s Ex; [assumption|]. cbn [tries]. destruct (act _ _ _ s ch) as [s'|] eqn:A; apply IH; [|assumption]. eapply exec_step; [exact Ex|]. apply act_step with ch. assumption.
Qed.
Fixpoint times {A} (n : nat) (l : list A) : list A := match n with O => [] | S n => l ++ times n l end.
Definition from_start (turn : xstate -> nat -> Z -> views -> list op) (turns : nat) (x : xstate) : global := start_state (program tiny turn bar turns x) (members x) (member_copies x).
Definition board_of (x : xstate (D := Z * Z)) (s : global (D := Z)) : list Z :=
  map (fun c => match owner (x_st x) 0 c with Some p => match own (at_ s p) c with Some v => v | None => 9 end | None => 8 end) (map Z.of_nat (seq 1 9)).
Fixpoint eqzs (a b : list Z) : bool := match a, b with [], [] => true | a :: l, b :: r => (a =? b) && eqzs l r | _, _ => false end.
Definition fair : list choice := times 50 [Go 0; Go 1; Recv 1; Send 0; Send 1; Recv 0].
(** process 0 sends as late as possible *)
Definition lazily : list choice := times 30 [Go 1; Send 1; Recv 0; Go 0] ++ times 50 [Send 0; Go 1; Recv 1; Go 0].
Example c73_example b : HistExamples.holds (xgo (0, 0) tiny []) (fun x =>
  forallb (fun turn => forallb (fun l =>
    done2 (tries b x (from_start turn 1 x) l) && eqzs (board_of x (tries b x (from_start turn 1 x) l)) [0; 1; 0; 0; 1; 0; 0; 1; 0]) [fair; lazily]) [turn_overlapped; turn_simple; turn_with_output]
  && eqzs (map (fun c => match owner (x_st x) 0 c with Some p => p | None => 9 end) (map Z.of_nat (seq 1 9))) [0; 0; 0; 0; 1; 1; 1; 1; 1]
  && done2 (tries b x (from_start turn_overlapped 2 x) fair) && eqzs (board_of x (tries b x (from_start turn_overlapped 2 x) fair)) [0; 0; 0; 1; 1; 1; 0; 0; 0]) = true.
Proof. destruct b; vm_compute; reflexivity. Qed.

(** Applying the rules to outer cells before waiting for the sends gives wrong results. *)
Definition turn_hasty (x : xstate (D := Z * Z)) (k : nat) (p : Z) (v : views) : list (op (D := Z)) :=
  Start default_neighborhood_id :: map (count x p v) (view_inner v) ++ [WaitR] ++ map (count x p v) (view_outer v) ++ map rule (view_local v) ++ [WaitS].
Theorem c73_hasty_rules_refuted b : exists x s p c v,
  xreachable (0, 0) tiny x /\ execution (ranks tiny) (grid_sends tiny b x) (grid_recvs tiny b x) (program tiny turn_hasty bar 1 x) (members x) (member_copies x) s /\
  (forall p, In p (ranks tiny) -> todo (at_ s p) = [] /\ outbox (at_ s p) = [] /\ inbox (at_ s p) = []) /\ In p (ranks tiny) /\ owns x p p c /\ own (at_ s p) c = Some v /\
  ~ (0 < v <-> game (mlen (g_map tiny)) (per (g_topo tiny)) (g_hood tiny) 1 (fun i => 0 <? bar (cell_at (g_map tiny) i)) (position_of (g_map tiny) c) = true).
Proof.
  destruct (xgo_holds (0, 0) tiny [] (fun x => let s := tries b x (from_start turn_hasty 1 x) lazily in done2 s && eqo (owner (x_st x) 1 6) (Some 1) && eqo (own (at_ s 1) 6) (Some 1))) as (x & R & B); [destruct b; vm_compute; reflexivity|].
  cbv zeta in B. apply andb_prop in B. destruct B as [B B3]. apply andb_prop in B. destruct B as [B1 B2]. apply eqo_eq in B2. apply eqo_eq in B3. assert (execution (ranks tiny) (grid_sends tiny b x) (grid_recvs tiny b x) (program tiny turn_hasty bar 1 x) (members x) (member_copies x) (tries b x (from_start turn_hasty 1 x) lazily)) as Ex by (apply tries_execution, exec_start).
  revert B1 B3 Ex. generalize (tries b x (from_start turn_hasty 1 x) lazily). intros s B1 B3 Ex.
  exists x, s, 1, 6, 1. split; [assumption|]. split; [assumption|]. split; [|split; [right; left; reflexivity|split; [assumption|split; [assumption|]]]].
  - intros p Ip. unfold done2 in B1. rewrite forallb_forall in B1. specialize (B1 p Ip). destruct (todo (at_ s p)), (outbox (at_ s p)), (inbox (at_ s p)); try discriminate. split; [reflexivity|split; reflexivity].
  - intros [Q _]. specialize (Q ltac:(lia)). vm_compute in Q. discriminate.
Qed.
