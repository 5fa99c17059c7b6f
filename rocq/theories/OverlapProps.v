(** C65: updates of remote neighbors that overlap with computation on inner cells give the same
    result as updates made at once: dccrg.hpp:5088-5490, 10753-11262.  The processes, messages and
    steps are those of Overlap.v, here for the cells that a grid sends and receives. *)
From Verif Require Import U64 MapModel MapSpec MapProofs MapFamily MapProps HoodModel MeshModel
  MeshSpec MeshBase HoodProps MeshWalk MeshFind MeshKids MeshItem MeshCheck MeshTo MeshNear
  Sets RefineModel RefineGeo RefineInv RefineSpread RefineMerge RefineFold RefineExec RefineStop
  BalanceModel RefineReqs Create Balance History HistProps CommitProps BalProps LoadCells HistExamples CommModel CommInv CommProps CommMore CommExamples Async CommAsync CopyProps Overlap.
Open Scope Z_scope.

Section Props.
Context {D : Type} (d0 : D) (g : grid) (Hg : grid_ok g).
Notation m := (g_map g).
Notation t := (g_topo g).
Notation xreachable := (xreachable d0 g).
Notation rank r := (In r (ranks g)).
Notation state := (xstate (D := D)).
Notation hood_at := (hood_at g).
Notation needs := (needs g).
Notation data x p c := (find c (s_data (p_store (x_st x p)))).
Notation op := (op (D := D)).
Notation cells := (Z -> option D)%type.

(** the messages of an update: with one message per cell the tag is that of the cell
    (dccrg.hpp:10806-10886, 11029-11095), with one per process it is 0 (10888-10976, 11097-11186) *)
Definition messages (one_each : bool) (lists : Z -> list Z) : list ((Z * Z) * list Z) :=
  flat_map (fun q => if one_each then map (fun e => ((q, snd e), [fst e])) (tagged (lists q)) else match lists q with [] => [] | l => [((q, 0), l)] end) (ranks g).
Definition grid_sends (one_each : bool) (x : state) (id p : Z) : list ((Z * Z) * list Z) := messages one_each (fun q => listed q (send_list g x id p)).
Definition grid_recvs (one_each : bool) (x : state) (id p : Z) : list ((Z * Z) * list Z) := messages one_each (fun q => listed q (recv_list g x id p)).

Lemma messages_ports b F : NoDup (map fst (messages b F)) /\ forall e, In e (messages b F) -> rank (fst (fst e)).
Proof.
  unfold messages. split.
  - rewrite flat_map_map. destruct b.
    + erewrite flat_map_ext; [apply (NoDup_ports (fun q => tagged (F q)) (fun q e => (q, snd e)) (ranks g) (ranks_NoDup g))|].
      * reflexivity.
      * intros q. rewrite <- (map_map snd (fun k => (q, k))). apply FinFun.Injective_map_NoDup; [intros a c E; congruence|apply tagged_tags].
      * intros q. rewrite map_map. reflexivity.
    + rewrite (flat_map_ext _ (fun q => map (fun _ => (q, 0)) (match F q with [] => [] | _ => [tt] end))); [apply (NoDup_ports (fun q => match F q with [] => [] | _ => [tt] end) (fun q _ => (q, 0)) (ranks g) (ranks_NoDup g)); [reflexivity|]|].
      * intros q. destruct (F q); cbn [map]; [constructor|]. constructor; [intros []|constructor].
      * intros q. destruct (F q); reflexivity.
  - intros e He. apply in_flat_map in He. destruct He as (q & Iq & He). destruct b; [apply in_map_iff in He; destruct He as (y & <- & _); assumption|]. destruct (F q); [destruct He|]. destruct He as [<-|[]]. assumption.
Qed.
Lemma in_messages b F q tg cs : In ((q, tg), cs) (messages b F) <-> rank q /\ (if b then exists c, cs = [c] /\ In (c, tg) (tagged (F q)) else F q <> [] /\ cs = F q /\ tg = 0).
Proof.
  unfold messages. rewrite in_flat_map. split.
  - intros (q' & Iq & I). destruct b.
    + apply in_map_iff in I. destruct I as ([c k] & E & I). cbn [fst snd] in E. injection E as -> -> <-. split; [assumption|]. eauto.
    + destruct (F q') as [|c l] eqn:E; [destruct I|]. destruct I as [I|[]]. injection I as -> <- <-. rewrite E. split; [assumption|]. split; [discriminate|auto].
  - intros (Iq & I). exists q. split; [assumption|]. destruct b.
    + destruct I as (c & -> & I). apply in_map_iff. exists (c, tg). auto.
    + destruct I as (N & -> & ->). destruct (F q); [contradiction|left; reflexivity].
Qed.
Lemma message_cells b F q tg cs c : In ((q, tg), cs) (messages b F) -> In c cs -> In c (F q).
Proof.
  intros I J. apply in_messages in I. destruct I as (_ & I). destruct b; [destruct I as (a & -> & I); destruct J as [<-|[]]; apply in_tagged in I; assumption|destruct I as (_ & -> & _); assumption].
Qed.
Lemma cell_message b F q c : rank q -> In c (F q) -> exists tg cs, In ((q, tg), cs) (messages b F) /\ In c cs.
Proof.
  intros Iq I. destruct b.
  - destruct (tagged_has _ _ I) as (tg & J). exists tg, [c]. split; [apply in_messages; split; [assumption|eauto]|left; reflexivity].
  - exists 0, (F q). split; [apply in_messages; split; [assumption|]; split; [intros E; rewrite E in I; destruct I|auto]|assumption].
Qed.

Section Programs.
Context (one_each : bool) (x : state) (Rx : xreachable x).
Context (script : Z -> list op) (skeleton : list op).
Notation sends := (grid_sends one_each x).
Notation recvs := (grid_recvs one_each x).

(** c is one of the cells returned by get_local_cells_not_on_process_boundary *)
Definition inner (id p c : Z) : Prop := exists l, get_local_cells_not_on_process_boundary g (x_hoods x) id p (x_st x p) = Done l /\ In c l.
(** What programs do: updates are started for existing neighborhoods, receives are waited for and
    then sends.  Until then only inner cells are changed, and copies of
    remote cells are not used until receives have been waited for. *)
Fixpoint disciplined (p : Z) (l : list op) (busy : list Z) (waited : bool) : Prop :=
  match l with
  | [] => True
  | Start id :: l => hood_at (x_hoods x) id <> None /\ disciplined p l (id :: busy) false
  | WaitR :: l => disciplined p l busy true
  | WaitS :: l => waited = true /\ disciplined p l [] false
  | Compute c _ cs _ :: l => (forall id, In id busy -> inner id p c) /\ (cs = [] \/ waited = true \/ busy = []) /\ disciplined p l busy waited
  end.
Context (Hskel : forall p, rank p -> filter collective (script p) = skeleton).
Context (Hdisc : forall p, rank p -> disciplined p (script p) [] false).
Lemma Hranks : ranks g <> [].
Proof.
  destruct Hg as (_ & _ & _ & Hn). unfold ranks. intros E. apply map_eq_nil in E. apply (f_equal (@length _)) in E. rewrite seq_length in E. cbn [length] in E. lia.
Qed.

Lemma used_hood id : used skeleton id -> exists U, hood_at (x_hoods x) id = Some U.
Proof.
  intros Hu. assert (exists p, rank p) as (p & Ip) by (pose proof Hranks as Q; destruct (ranks g) as [|p l]; [contradiction|exists p; left; reflexivity]). unfold used in Hu. rewrite <- (Hskel p Ip) in Hu. apply filter_In in Hu. destruct Hu as [Hu _].
  pose proof (Hdisc p Ip) as Hd. revert Hu Hd. generalize (@nil Z) false. induction (script p) as [|[j| | |c rs cs f] l IH]; intros busy w I Hd; cbn [In disciplined] in *; [destruct I| | | |].
  - destruct Hd as (Hj & Hd). destruct I as [E|I]; [|apply (IH _ _ I Hd)]. injection E as ->. destruct (hood_at (x_hoods x) id) as [U|]; [eauto|contradiction].
  - destruct I as [E|I]; [discriminate|apply (IH _ _ I Hd)].
  - destruct I as [E|I]; [discriminate|apply (IH _ _ I (proj2 Hd))].
  - destruct I as [E|I]; [discriminate|apply (IH _ _ I (proj2 (proj2 Hd)))].
Qed.
Lemma sent_needed id U p q c : hood_at (x_hoods x) id = Some U -> rank p -> rank q -> In c (listed q (send_list g x id p)) <-> needs U x q p c.
Proof. intros EU Ip Iq. destruct (list_facts d0 g Hg x id U q p Rx EU Iq Ip) as (Es & _ & P). rewrite Es. apply P. Qed.
Lemma received_needed id U p q c : hood_at (x_hoods x) id = Some U -> rank p -> rank q -> In c (listed q (recv_list g x id p)) <-> needs U x p q c.
Proof. intros EU Ip Iq. destruct (list_facts d0 g Hg x id U p q Rx EU Ip Iq) as (_ & _ & P). apply P. Qed.
Lemma inner_not_sent id p c : hood_at (x_hoods x) id <> None -> rank p -> inner id p c -> forall e, In e (sends id p) -> ~ In c (snd e).
Proof.
  intros Hid Ip (l & El & Il) [[q tg] cs] I J. cbn [snd] in J. destruct (hood_at (x_hoods x) id) as [U|] eqn:EU; [|contradiction].
  pose proof (proj2 (messages_ports one_each (fun q => listed q (send_list g x id p))) _ I) as Iq. cbn [fst] in Iq.
  apply (message_cells _ _ _ _ _ _ I) in J. apply (sent_needed id U p q c EU Ip Iq) in J.
  destruct (c36_boundaries d0 g Hg x id U p Rx EU Ip) as (outer & inn & remote & _ & E & _ & _ & _ & _ & _ & Pin & _). assert (inn = l) as -> by congruence. apply Pin in Il. destruct Il as (Op & Nt). apply Nt.
  destruct (xreachable_inv d0 g Hg x Rx) as (own & Hx). destruct J as (O1 & Nq & a & Oa & S). exists a. unfold elsewhere, owns in *. rewrite (xview g own x q _ Hx Iq) in *. split; [exists q; split; [rewrite (xview g own x p a Hx Ip); assumption|congruence]|]. right. assumption.
Qed.
Lemma disciplined_careful p l : rank p -> forall busy w, (forall id, In id busy -> hood_at (x_hoods x) id <> None) -> disciplined p l busy w -> careful sends recvs p l busy w.
Proof.
  intros Ip. induction l as [|[j| | |c rs cs f] l IH]; intros busy w Hb Hd; cbn [careful disciplined] in *; [exact I| | | |].
  - destruct Hd as (Hj & Hd). apply IH; [intros id [<-|I]; auto|assumption].
  - apply IH; assumption.
  - destruct Hd as [-> Hd]. split; [reflexivity|]. apply IH; [intros id []|assumption].
  - destruct Hd as (Hc & Hr & Hd). split; [|split; [|apply IH; assumption]].
    + intros id e Iid Ie. apply (inner_not_sent id p c (Hb id Iid) Ip (Hc id Iid) e Ie).
    + intros a Ia. destruct Hr as [->|[->| ->]]; [destruct Ia|left; reflexivity|right; intros id e []].
Qed.
Lemma programs_careful p : rank p -> careful sends recvs p (script p) [] false.
Proof. intros Ip. apply disciplined_careful; [assumption|intros id []|auto]. Qed.
Lemma ports id p : used skeleton id -> rank p -> NoDup (map fst (sends id p)) /\ NoDup (map fst (recvs id p)) /\
  (forall e, In e (sends id p) -> rank (fst (fst e))) /\ (forall e, In e (recvs id p) -> rank (fst (fst e))).
Proof. intros _ _. split; [apply messages_ports|]. split; [apply messages_ports|]. split; apply messages_ports. Qed.
Lemma matches id p q tg cs : used skeleton id -> rank p -> rank q -> In ((q, tg), cs) (sends id p) <-> In ((p, tg), cs) (recvs id q).
Proof.
  intros Hu Ip Iq. destruct (used_hood id Hu) as (U & EU). destruct (list_facts d0 g Hg x id U q p Rx EU Iq Ip) as (Es & _). unfold grid_sends, grid_recvs. rewrite !in_messages, Es. tauto.
Qed.
Lemma one_source id id' p p' q tg tg' cs cs' c : used skeleton id -> used skeleton id' -> rank q -> In ((p, tg), cs) (recvs id q) -> In ((p', tg'), cs') (recvs id' q) -> In c cs -> In c cs' -> p = p'.
Proof.
  intros Hu Hu' Iq I I' J J'. destruct (used_hood id Hu) as (U & EU). destruct (used_hood id' Hu') as (U' & EU').
  pose proof (proj2 (messages_ports one_each (fun p => listed p (recv_list g x id q))) _ I) as Ip. pose proof (proj2 (messages_ports one_each (fun p => listed p (recv_list g x id' q))) _ I') as Ip'. cbn [fst] in Ip, Ip'.
  apply (message_cells _ _ _ _ _ _ I) in J. apply (message_cells _ _ _ _ _ _ I') in J'. apply (received_needed id U q p c EU Iq Ip) in J. apply (received_needed id' U' q p' c EU' Iq Ip') in J'.
  destruct J as (O & _), J' as (O' & _). unfold owns in *. congruence.
Qed.

(** ** Results *)
Notation own0 := (fun p c => data x p c).
Notation copies0 := (fun p c => find c (x_copies x p)).
Notation execution := (execution (ranks g) sends recvs script own0 copies0).
Notation step := (step (ranks g) sends recvs).
Notation steps := (steps (ranks g) sends recvs).
Notation plan := (plan recvs script own0 copies0 skeleton).
Notation ref_own := (ref_own recvs script own0 copies0).
Notation ref_copies := (ref_copies recvs script own0 copies0).
Notation id_of := (id_of recvs script own0 copies0 skeleton).
(** Whatever the order of messages, copies that are not being received are those of a program
    which made every update at once, and at the end so is all data. *)
Theorem c65_same_result s : execution s ->
  (forall q c, rank q -> (forall k e, In (k, e) (inbox (at_ s q)) -> ~ In c (snd e)) -> copies (at_ s q) c = ref_copies (started (at_ s q)) q c) /\
  (forall p k e c, rank p -> In (k, e) (outbox (at_ s p)) -> In c (snd e) -> own (at_ s p) c = ref_own k p c) /\
  (finished (ranks g) s -> forall p c, rank p -> own (at_ s p) c = ref_own (length plan) p c /\ copies (at_ s p) c = ref_copies (length plan) p c).
Proof.
  intros Ex. split; [|split].
  - intros q c Iq. apply (overlap_copies (ranks g) sends recvs script own0 copies0 skeleton Hskel programs_careful ports matches one_source); assumption.
  - intros p k e c Ip. apply (overlap_reads (ranks g) sends recvs script own0 copies0 skeleton Hskel programs_careful ports matches one_source); assumption.
  - intros F p c Ip. apply (overlap_result (ranks g) sends recvs script own0 copies0 skeleton Hskel programs_careful ports matches one_source s); assumption.
Qed.
(** No order of messages leads to a deadlock, and all end. *)
Theorem c65_no_deadlock s : execution s ->
  (finished (ranks g) s \/ exists s', step s s') /\
  (forall n s', steps s n s' -> (n <= left_over (ranks g) sends recvs s)%nat /\ (finished (ranks g) s' <-> n = left_over (ranks g) sends recvs s)) /\
  exists s', steps s (left_over (ranks g) sends recvs s) s' /\ finished (ranks g) s'.
Proof.
  intros Ex. split; [apply (overlap_progress (ranks g) sends recvs script own0 copies0 skeleton Hskel programs_careful ports matches one_source); assumption|].
  apply (overlap_finishes (ranks g) sends recvs script own0 copies0 skeleton Hskel programs_careful ports matches one_source); [apply ranks_NoDup|assumption].
Qed.
(** What an update made at once does: a process gets the data of remote cells in the neighborhood
    of its cells from their owners, and keeps other copies. *)
Theorem c65_reference n q c U : rank q -> (n < length plan)%nat -> hood_at (x_hoods x) (id_of n) = Some U ->
  (forall p, needs U x q p c -> ref_copies (S n) q c = ref_own n p c) /\ ((forall p, ~ needs U x q p c) -> ref_copies (S n) q c = ref_copies n q c).
Proof.
  intros Iq L EU. rewrite (ref_copies_S (ranks g) sends recvs script own0 copies0 skeleton Hskel ports q n c Iq L). destruct (source recvs (id_of n) q c) as [p|] eqn:E.
  - apply source_some in E. destruct E as (tg & cs & I & J). pose proof (proj2 (messages_ports one_each (fun p => listed p (recv_list g x (id_of n) q))) _ I) as Ip. cbn [fst] in Ip.
    apply (message_cells _ _ _ _ _ _ I) in J. apply (received_needed _ U q p c EU Iq Ip) in J. split; [|intros N; destruct (N p J)]. intros p' J'. assert (p' = p) as -> by (destruct J as (O & _), J' as (O' & _); unfold owns in *; congruence).
    apply (sync_start (ranks g) recvs script own0 copies0 skeleton Hskel p n Ip L).
  - split; [|reflexivity]. intros p J. exfalso. destruct (xreachable_inv d0 g Hg _ Rx) as (own & Hx). pose proof Hx as ((Hgood & _) & _). pose proof Hgood as (Hw & _).
    assert (rank p) as Ip. { apply (needs_iff g own _ _ q p c Hx Iq) in J. destruct J as (O & _). apply (proj2 Hw c p O). }
    apply (received_needed _ U q p c EU Iq Ip) in J. destruct (cell_message one_each (fun p => listed p (recv_list g x (id_of n) q)) p c Ip J) as (tg & cs & I & Ic). apply (source_none _ _ _ _ _ E I Ic).
Qed.
End Programs.
End Props.

(** ** Executions by a list of choices *)
Inductive choice := Go (p : Z) | Send (p : Z) | Recv (p : Z).
Section Run.
Context {D : Type} (procs : list Z) (sends recvs : Z -> Z -> list ((Z * Z) * list Z)).
Notation global := (global (D := D)).
Definition act (s : global) (ch : choice) : option global :=
  match ch with
  | Go p => if mem p procs then
      let a := at_ s p in
      match todo a with
      | Start id :: l => Some (with_local s p (Local l (S (started a)) (phase a) (own a) (copies a) (outbox a ++ numbered (started a) (sends id p)) (inbox a ++ numbered (started a) (recvs id p)) (log a)))
      | Compute c rs cs f :: l => Some (with_local s p (Local l (started a) (phase a) (upd (own a) c (value rs cs f (own a) (copies a))) (copies a) (outbox a) (inbox a) (log a)))
      | WaitR :: l => match inbox a with [] => Some (with_local s p (Local l (started a) (phase a) (own a) (copies a) (outbox a) [] (log a))) | _ => None end
      | WaitS :: l => match outbox a with [] => Some (with_local s p (Local l (started a) (S (phase a)) (own a) (copies a) [] (inbox a) (log a))) | _ => None end
      | [] => None
      end else None
  | Send p => if mem p procs then
      let a := at_ s p in
      match outbox a with
      | (k, ((q, t), cs)) :: l => Some (with_chan (with_local s p (Local (todo a) (started a) (phase a) (own a) (copies a) l (inbox a) (log a))) p q t (chan s p q t ++ [(k, map (own a) cs)]))
      | [] => None
      end else None
  | Recv p => if mem p procs then
      let a := at_ s p in
      match inbox a with
      | (k, ((q, t), cs)) :: l => match chan s q p t with
        | (_, vs) :: r => Some (with_chan (with_local s p (Local (todo a) (started a) (phase a) (own a) (store (copies a) cs vs) (outbox a) l (log a ++ [(k, ((q, t), cs))]))) q p t r)
        | [] => None end
      | [] => None
      end else None
  end.
Fixpoint acts (s : global) (l : list choice) : option global := match l with [] => Some s | ch :: l => match act s ch with Some s' => acts s' l | None => None end end.
Lemma act_step s ch s' : act s ch = Some s' -> step procs sends recvs s s'.
Proof.
  destruct ch as [p|p|p]; cbn [act]; destruct (mem p procs) eqn:M; try discriminate; apply mem_In in M.
  - destruct (todo (at_ s p)) as [|[id| | |c rs cs f] l] eqn:E; [discriminate| | | |].
    + intros Q. injection Q as <-. apply (step_start _ _ _ s p id l M E).
    + destruct (inbox (at_ s p)) eqn:EI; [|discriminate]. intros Q. injection Q as <-. apply (step_waitr _ _ _ s p l M E EI).
    + destruct (outbox (at_ s p)) eqn:EI; [|discriminate]. intros Q. injection Q as <-. apply (step_waits _ _ _ s p l M E EI).
    + intros Q. injection Q as <-. apply (step_write _ _ _ s p c rs cs f l M E).
  - destruct (outbox (at_ s p)) as [|[k [[q t] cs]] l] eqn:E; [discriminate|]. intros Q. injection Q as <-. apply (step_send _ _ _ s p q t k cs [] l M E). intros [].
  - destruct (inbox (at_ s p)) as [|[k [[q t] cs]] l] eqn:E; [discriminate|]. destruct (chan s q p t) as [|[k' vs] r] eqn:EC; [discriminate|]. intros Q. injection Q as <-. apply (step_recv _ _ _ s p q t k cs [] l k' vs r M E); [intros []|assumption].
Qed.
Lemma acts_execution script own0 copies0 l : forall s s', execution procs sends recvs script own0 copies0 s -> acts s l = Some s' -> execution procs sends recvs script own0 copies0 s'.
Proof.
  induction l as [|ch l IH]; intros s s' Ex E; cbn [acts] in E; [congruence|]. destruct (act s ch) as [s1|] eqn:A; [|discriminate]. apply (IH s1 s'); [|assumption]. eapply exec_step; [exact Ex|]. apply act_step with ch. assumption.
Qed.
End Run.

(** ** Examples: four cells in a row, two on each of two processes *)
Definition row : grid := Grid (update_last_cell (Mapping 4 1 1 0 0)) (Topo false false false) 0 2.
Example row_ok : grid_ok row. Proof. apply grid_okb; vm_compute; reflexivity. Qed.
Definition row_data : list (xstep (D := Z)) := [XDo (Plain (Write 0 1 10)); XDo (Plain (Write 0 2 20)); XDo (Plain (Write 1 3 30)); XDo (Plain (Write 1 4 40))].
Definition sum (a b : list (option Z)) : option Z := Some (fold_right (fun o n => match o with Some v => v + n | None => n end) 0 (a ++ b)).
Definition dflt := default_neighborhood_id.
(** two rounds of: start, sum for the inner cell, wait, sum for the outer cell *)
Definition half (p : Z) : list (op (D := Z)) :=
  if p =? 0 then [Start dflt; Compute 1 [1; 2] [] sum; WaitR; WaitS; Compute 2 [1; 2] [3] sum]
  else [Start dflt; Compute 4 [3; 4] [] sum; WaitR; WaitS; Compute 3 [3; 4] [2] sum].
Definition both (p : Z) : list (op (D := Z)) := half p ++ half p.
Definition both_skeleton : list (op (D := Z)) := [Start dflt; WaitR; WaitS; Start dflt; WaitR; WaitS].
Definition from (x : xstate (D := Z)) (script : Z -> list op) : global := start_state script (fun p c => find c (s_data (p_store (x_st x p)))) (fun p c => find c (x_copies x p)).
Definition eq_done (s : option global) (f : global (D := Z) -> bool) : bool := match s with Some s => f s | None => false end.
Definition done2 (s : global (D := Z)) : bool :=
  forallb (fun p => match todo (at_ s p), outbox (at_ s p), inbox (at_ s p) with [], [], [] => true | _, _, _ => false end) [0; 1].
(** process 0 goes as far as it can before process 1 does anything, and its message is sent late *)
Definition late : list choice := [Go 0; Go 0; Go 1; Go 1; Send 1; Recv 0; Go 0; Send 0; Go 0; Recv 1; Go 1; Go 1; Go 0; Go 0; Go 1; Go 0; Send 0; Go 1; Recv 1; Go 1; Send 1; Go 1; Go 1; Go 1; Recv 0; Go 0; Go 0; Go 0].
Definition late_values (s : global (D := Z)) : bool :=
  done2 s && eqo (own (at_ s 0) 1) (Some 110) && eqo (own (at_ s 0) 2) (Some 310) && eqo (copies (at_ s 0) 3) (Some 120) && eqo (own (at_ s 1) 3) (Some 390).
Definition inners (x : xstate (D := Z)) (p : Z) : list Z := match get_local_cells_not_on_process_boundary row (x_hoods x) dflt p (x_st x p) with Done l => l | _ => [] end.
Example c65_example (b : bool) : exists x s,
  xreachable 0 row x /\ (forall p, In p (ranks row) -> filter collective (both p) = both_skeleton) /\ (forall p, In p (ranks row) -> disciplined row x p (both p) [] false) /\
  execution (ranks row) (grid_sends row b x) (grid_recvs row b x) both (fun p c => find c (s_data (p_store (x_st x p)))) (fun p c => find c (x_copies x p)) s /\
  own (at_ s 0) 1 = Some 110 /\ own (at_ s 0) 2 = Some 310 /\ copies (at_ s 0) 3 = Some 120 /\ own (at_ s 1) 3 = Some 390.
Proof.
  destruct (xgo_holds 0 row row_data (fun x => mem 1 (inners x 0) && mem 4 (inners x 1) && eq_done (acts (ranks row) (grid_sends row b x) (grid_recvs row b x) (from x both) late) late_values)) as (x & R & B); [destruct b; vm_compute; reflexivity|].
  apply andb_prop in B. destruct B as [B B3]. apply andb_prop in B. destruct B as [B1 B2]. unfold eq_done in B3. destruct (acts _ _ _ _ late) as [s|] eqn:E; [|discriminate].
  exists x, s. split; [assumption|]. split; [intros p [<-|[<-|[]]]; reflexivity|]. split; [|split].
  - assert (forall p c, mem c (inners x p) = true -> inner row x dflt p c) as In_.
    { intros p c M. apply mem_In in M. unfold inners in M. unfold inner. destruct (get_local_cells_not_on_process_boundary row (x_hoods x) dflt p (x_st x p)) as [l| |]; [eauto|destruct M|destruct M]. }
    assert (hood_at row (x_hoods x) dflt <> None) as Hd by discriminate.
    intros p [<-|[<-|[]]]; cbn [both half app disciplined Z.eqb Z.of_nat]; change (Z.pos (Pos.of_succ_nat 0) =? 0) with false; cbn [app disciplined]; (split; [exact Hd|]).
    + split; [intros id [<-|[]]; apply In_; assumption|]. split; [auto|]. split; [reflexivity|]. split; [intros id []|]. split; [auto|]. split; [exact Hd|]. split; [intros id [<-|[]]; apply In_; assumption|]. split; [auto|]. split; [reflexivity|]. split; [intros id []|]. split; [auto|exact I].
    + split; [intros id [<-|[]]; apply In_; assumption|]. split; [auto|]. split; [reflexivity|]. split; [intros id []|]. split; [auto|]. split; [exact Hd|]. split; [intros id [<-|[]]; apply In_; assumption|]. split; [auto|]. split; [reflexivity|]. split; [intros id []|]. split; [auto|exact I].
  - eapply acts_execution; [apply exec_start|exact E].
  - unfold late_values in B3. repeat (apply andb_prop in B3; destruct B3 as [B3 ?]). repeat (match goal with Q : eqo _ _ = true |- _ => apply eqo_eq in Q end). auto.
Qed.

(** A cell that is being sent must not be changed: what arrives then depends on when the message
    is sent. *)
Definition hasty (p : Z) : list (op (D := Z)) :=
  if p =? 0 then [Start dflt; Compute 2 [1; 2] [] sum; WaitR; WaitS] else [Start dflt; WaitR; WaitS].
Theorem c65_outer_cells_refuted (b : bool) : exists x s1 s2,
  xreachable 0 row x /\ (forall p, In p (ranks row) -> filter collective (hasty p) = [Start dflt; WaitR; WaitS]) /\
  (let ex := execution (ranks row) (grid_sends row b x) (grid_recvs row b x) hasty (fun p c => find c (s_data (p_store (x_st x p)))) (fun p c => find c (x_copies x p)) in ex s1 /\ ex s2) /\
  (forall s, s = s1 \/ s = s2 -> forall p, In p (ranks row) -> todo (at_ s p) = [] /\ outbox (at_ s p) = [] /\ inbox (at_ s p) = []) /\ copies (at_ s1 1) 2 = Some 20 /\ copies (at_ s2 1) 2 = Some 30.
Proof.
  destruct (xgo_holds 0 row row_data (fun x =>
    eq_done (acts (ranks row) (grid_sends row b x) (grid_recvs row b x) (from x hasty) [Go 0; Send 0; Go 0; Go 1; Send 1; Recv 0; Recv 1; Go 0; Go 0; Go 1; Go 1]) (fun s => done2 s && eqo (copies (at_ s 1) 2) (Some 20)) &&
    eq_done (acts (ranks row) (grid_sends row b x) (grid_recvs row b x) (from x hasty) [Go 0; Go 0; Send 0; Go 1; Send 1; Recv 0; Recv 1; Go 0; Go 0; Go 1; Go 1]) (fun s => done2 s && eqo (copies (at_ s 1) 2) (Some 30)))) as (x & R & B); [destruct b; vm_compute; reflexivity|].
  apply andb_prop in B. destruct B as [B1 B2]. unfold eq_done in B1, B2.
  destruct (acts _ _ _ _ [Go 0; Send 0; Go 0; Go 1; Send 1; Recv 0; Recv 1; Go 0; Go 0; Go 1; Go 1]) as [s1|] eqn:E1; [|discriminate]. destruct (acts _ _ _ _ [Go 0; Go 0; Send 0; Go 1; Send 1; Recv 0; Recv 1; Go 0; Go 0; Go 1; Go 1]) as [s2|] eqn:E2; [|discriminate].
  apply andb_prop in B1. destruct B1 as [D1 V1]. apply andb_prop in B2. destruct B2 as [D2 V2]. apply eqo_eq in V1. apply eqo_eq in V2.
  exists x, s1, s2. split; [assumption|]. split; [intros p [<-|[<-|[]]]; reflexivity|]. split; [split; (eapply acts_execution; [apply exec_start|eassumption])|]. split; [|auto].
  intros s Es p Ip. assert (done2 s = true) as Ds by (destruct Es as [->| ->]; assumption). unfold done2 in Ds. rewrite forallb_forall in Ds. specialize (Ds p Ip). destruct (todo (at_ s p)), (outbox (at_ s p)), (inbox (at_ s p)); try discriminate. auto.
Qed.
