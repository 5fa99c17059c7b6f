(** Transfers of cell data as executions of messages: updates of copies, load balancing and
    commits give the results of the sequential model in every interleaving of their messages. *)
From Verif Require Import U64 MapModel MapSpec MapProofs MapFamily MapProps HoodModel MeshModel
  MeshSpec MeshBase HoodProps MeshWalk MeshFind MeshKids MeshItem MeshCheck MeshTo MeshNear
  Sets RefineModel RefineGeo RefineInv RefineSpread RefineMerge RefineFold RefineExec RefineStop
  BalanceModel RefineReqs Create Balance History HistProps CommitProps BalProps LoadCells HistExamples CommModel CommInv CommProps CommMore CommExamples Async CommAsync.
Open Scope Z_scope.

(** ** Any transfer *)
Section Transfer.
Context {D : Type} (procs : list Z) (Np : NoDup procs).

(** the arguments of start_user_data_transfers on all processes, dccrg.hpp:10758-11264: what each
    process sends and receives as (process, cell), and where each process reads the data it sends *)
Record transfer := Transfer { t_send : Z -> list (Z * Z); t_recv : Z -> list (Z * Z); t_data : Z -> list (Z * D) }.
(** the model of all transfers in RefineModel, BalanceModel and CommModel *)
Definition transferred (T : transfer) (p : Z) (dest : list (Z * D)) : outcome (list (Z * D)) :=
  foldM (fun dest q => receive (t_data T q) (listed p (t_send T q)) (listed q (t_recv T p)) dest) procs dest.

(** the messages of a list of cells as (tag, cells): one per cell if send_single_cells
    (dccrg.hpp:10807-10886, 11020-11095), otherwise one with all cells (10888-10980, 11097-11190) *)
Definition pieces (single : bool) (l : list Z) : list (Z * list Z) :=
  if single then map (fun e => (snd e, [fst e])) (tagged l) else match l with [] => [] | _ => [(0, l)] end.
Definition sent_by (T : transfer) (single : bool) (p : Z) : list ((Z * Z) * list (option D)) :=
  flat_map (fun q => map (fun e => ((q, fst e), map (fun c => find c (t_data T p)) (snd e))) (pieces single (listed q (t_send T p)))) procs.
Definition expected_by (T : transfer) (single : bool) (p : Z) : list (Z * Z) :=
  flat_map (fun q => map (fun e => (q, fst e)) (pieces single (listed q (t_recv T p)))) procs.
(** where the data of a message is stored *)
Definition cells_of (T : transfer) (single : bool) (p : Z) (e : Z * Z) : list Z :=
  match List.find (fun y => fst y =? snd e) (pieces single (listed (fst e) (t_recv T p))) with Some y => snd y | None => [] end.
(** the messages stored in the order of their arrival *)
Definition arrivals (T : transfer) (single : bool) (p : Z) (r : list ((Z * Z) * list (option D))) : list (Z * option D) :=
  flat_map (fun e => combine (cells_of T single p (fst e)) (snd e)) r.

(** what is sent fits what is received *)
Definition fits (T : transfer) : Prop := forall p q, In p procs -> In q procs ->
  listed p (t_send T q) = listed q (t_recv T p) /\ NoDup (listed q (t_recv T p)) /\
  (forall c, In c (listed q (t_recv T p)) -> has c (t_data T q) = true) /\
  (forall q' c, In q' procs -> In c (listed q (t_recv T p)) -> In c (listed q' (t_recv T p)) -> q = q').

Lemma pieces_tags b l : NoDup (map fst (pieces b l)).
Proof.
  unfold pieces. destruct b.
  - rewrite map_map. cbn [fst]. apply tagged_tags.
  - destruct l; cbn [map fst]; [constructor|]. constructor; [intros []|constructor].
Qed.
Lemma pieces_In b l c : In c l <-> exists e, In e (pieces b l) /\ In c (snd e).
Proof.
  unfold pieces. destruct b.
  - split.
    + intros I. destruct (tagged_has l c I) as (k & J). exists (k, [c]). split; [|left; reflexivity]. apply in_map_iff. exists (c, k). auto.
    + intros (e & I & J). apply in_map_iff in I. destruct I as ([c' k] & <- & I). cbn [fst snd] in J. destruct J as [<-|[]]. apply (in_tagged l c' k I).
  - destruct l as [|a l].
    + split; [intros []|intros (e & [] & _)].
    + split; [intros I; exists (0, a :: l); split; [left; reflexivity|assumption]|]. intros (e & [<-|[]] & J). exact J.
Qed.
Lemma key_unique {A B} (l : list (A * B)) a b b' : NoDup (map fst l) -> In (a, b) l -> In (a, b') l -> b = b'.
Proof.
  intros N I J. induction l as [|e l IH]; [destruct I|]. cbn [map] in N. apply NoDup_cons_iff in N. destruct N as [N1 N2]. destruct I as [E|I], J as [E'|J]; [congruence| | |auto].
  - exfalso. apply N1. subst e. apply in_map_iff. exists (a, b'). auto.
  - exfalso. apply N1. subst e. apply in_map_iff. exists (a, b). auto.
Qed.
Lemma cells_of_In T b p q k l : In (k, l) (pieces b (listed q (t_recv T p))) -> cells_of T b p (q, k) = l.
Proof.
  intros I. unfold cells_of. cbn [fst snd]. destruct (List.find (fun y => fst y =? k) (pieces b (listed q (t_recv T p)))) as [[k' l']|] eqn:F.
  - apply find_some in F. destruct F as [J F]. cbn [fst snd] in *. apply Z.eqb_eq in F. subst k'. apply (key_unique _ k l' l (pieces_tags b _) J I).
  - exfalso. apply (find_none _ _ F) in I. cbn [fst] in I. rewrite Z.eqb_refl in I. discriminate.
Qed.

(** the source of a received cell *)
Definition source (T : transfer) (p c : Z) : option Z := List.find (fun q => mem c (listed q (t_recv T p))) procs.
Lemma source_iff T p q c : fits T -> In p procs -> In q procs -> In c (listed q (t_recv T p)) <-> source T p c = Some q.
Proof.
  intros HT Ip Iq. unfold source. split.
  - intros I. destruct (List.find (fun q => mem c (listed q (t_recv T p))) procs) as [q'|] eqn:F.
    + apply find_some in F. destruct F as [Iq' F]. apply mem_In in F. f_equal. apply (proj2 (proj2 (proj2 (HT p q' Ip Iq'))) q c Iq F I).
    + exfalso. apply (find_none _ _ F) in Iq. apply mem_not in Iq. contradiction.
  - intros F. apply find_some in F. apply mem_In. apply F.
Qed.
Lemma transferred_ok T p dest : fits T -> In p procs -> exists dest', transferred T p dest = Done dest' /\
  forall c, find c dest' = match source T p c with Some q => find c (t_data T q) | None => find c dest end.
Proof.
  intros HT Ip. unfold transferred.
  assert (forall q, In q procs -> listed p (t_send T q) = listed q (t_recv T p)) as Es by (intros q Iq; apply (HT p q Ip Iq)).
  apply (receives_ok (fun q => listed p (t_send T q)) (t_data T) (source T p) (fun q => listed q (t_recv T p)) procs dest).
  - intros q Iq. rewrite Es by assumption. split; [reflexivity|apply (HT p q Ip Iq)].
  - intros q c Iq. rewrite Es by assumption. apply (HT p q Ip Iq).
  - intros q c Iq. rewrite Es by assumption. apply source_iff; assumption.
  - assumption.
  - intros c q F. unfold source in F. apply find_some in F. apply F.
Qed.

(** ** Successive transfers, each with one message per cell or per process *)
Context (rounds : nat) (T : nat -> transfer) (b : nat -> bool).
Context (HT : forall k, (k < rounds)%nat -> fits (T k)).
Notation out := (fun p k => sent_by (T k) (b k) p).
Notation inc := (fun p k => expected_by (T k) (b k) p).

Lemma transfers_match : matching procs rounds out inc.
Proof.
  intros k Hk. unfold sent_by, expected_by.
  assert (forall (L : Z -> list Z), NoDup (flat_map (fun q => map (fun e => (q, fst e)) (pieces (b k) (L q))) procs)) as Nd.
  { intros L. apply (NoDup_ports (fun q => pieces (b k) (L q)) (fun q e => (q, fst e)) procs Np); [reflexivity|].
    intros q. rewrite <- (map_map fst (fun k => (q, k))). apply FinFun.Injective_map_NoDup; [intros x y E; congruence|apply pieces_tags]. }
  split.
  - intros p Ip. split; [|split; [|split]].
    + rewrite flat_map_map. erewrite flat_map_ext; [apply (Nd (fun q => listed q (t_send (T k) p)))|]. intros q. rewrite map_map. reflexivity.
    + apply Nd.
    + intros e He. apply in_flat_map in He. destruct He as (q & Iq & He). apply in_map_iff in He. destruct He as (y & <- & _). assumption.
    + intros e He. apply in_flat_map in He. destruct He as (q & Iq & He). apply in_map_iff in He. destruct He as (y & <- & _). assumption.
  - intros p q tg Ip Iq. destruct (HT k Hk q p Iq Ip) as (Es & _). rewrite flat_map_map, !in_flat_map. split.
    + intros (q' & Iq' & J). rewrite map_map in J. apply in_map_iff in J. destruct J as (e & E & J). cbn [fst] in E. injection E as <- <-. exists p. split; [assumption|]. rewrite <- Es. apply in_map_iff. exists e. auto.
    + intros (p' & Ip' & J). apply in_map_iff in J. destruct J as (e & E & J). injection E as <- <-. exists q. split; [assumption|]. rewrite map_map. apply in_map_iff. exists e. cbn [fst]. rewrite Es. auto.
Qed.

Theorem transfers_deliver s p k r dest : execution procs rounds out inc s -> In p procs -> nth_error (results (procs_at s p)) k = Some r ->
  exists dest', transferred (T k) p dest = Done dest' /\ forall c, find c (store_all (arrivals (T k) (b k) p r) dest) = find c dest'.
Proof.
  intros Ex Ip Er. destruct (rounds_deliver _ _ _ _ transfers_match s p k r Ex Ip Er) as (Hk & N & Kr & Vr). pose proof (HT k Hk) as Hf.
  destruct (transferred_ok (T k) p dest Hf Ip) as (dest' & Ed & Pd). exists dest'. split; [assumption|]. intros c. rewrite Pd.
  (* every stored datum is that of its source *)
  assert (forall q tg vs, In ((q, tg), vs) r -> In q procs /\ exists l, In (tg, l) (pieces (b k) (listed q (t_recv (T k) p))) /\ vs = map (fun c => find c (t_data (T k) q)) l) as Vs.
  { intros q tg vs J. assert (In (q, tg) (map fst r)) as Jk by (apply in_map_iff; exists ((q, tg), vs); auto). apply Kr in Jk. unfold expected_by in Jk. apply in_flat_map in Jk. destruct Jk as (q' & Iq & Jk).
    apply in_map_iff in Jk. destruct Jk as ([k' l'] & E & Jk). cbn [fst] in E. injection E as -> ->. split; [assumption|].
    apply Vr in J. unfold sent_by in J. apply in_flat_map in J. destruct J as (p' & Ip' & J). apply in_map_iff in J. destruct J as ([t2 l2] & E & J). cbn [fst snd] in E. injection E as -> -> <-.
    exists l2. split; [|reflexivity]. rewrite <- (proj1 (Hf p q Ip Iq)). exact J. }
  assert (forall c o, In (c, o) (arrivals (T k) (b k) p r) -> exists q, source (T k) p c = Some q /\ o = find c (t_data (T k) q) /\ o <> None) as A.
  { intros c1 o I. unfold arrivals in I. apply in_flat_map in I. destruct I as ([[q tg] vs] & J & I). cbn [fst snd] in I. destruct (Vs q tg vs J) as (Iq & l & Jl & ->).
    rewrite (cells_of_In (T k) (b k) p q tg l Jl) in I. assert (In c1 l /\ o = find c1 (t_data (T k) q)) as [Il Eo].
    { clear - I. induction l as [|a l IH]; cbn [map combine In] in I; [destruct I|]. destruct I as [E|I]; [injection E as <- <-; split; [left|]; reflexivity|]. destruct (IH I). split; [right|]; assumption. }
    assert (In c1 (listed q (t_recv (T k) p))) as Ic by (apply (pieces_In (b k)); exists (tg, l); auto).
    exists q. split; [apply source_iff; assumption|]. split; [assumption|]. rewrite Eo. destruct (Hf p q Ip Iq) as (_ & _ & Hd & _). apply Hd, has_find in Ic. destruct Ic as (v & ->). discriminate. }
  assert (forall q, source (T k) p c = Some q -> In c (map fst (arrivals (T k) (b k) p r))) as B.
  { intros q Es. assert (In q procs) as Iq by (unfold source in Es; apply find_some in Es; apply Es). apply source_iff in Es; [|assumption|assumption|assumption].
    apply (pieces_In (b k)) in Es. destruct Es as ([tg l] & Jl & Ic). cbn [snd] in Ic.
    assert (In (q, tg) (map fst r)) as J by (apply Kr; unfold expected_by; apply in_flat_map; exists q; split; [assumption|]; apply in_map_iff; exists (tg, l); auto).
    apply in_map_iff in J. destruct J as ([[q' t'] vs] & Ej & J). cbn [fst] in Ej. injection Ej as -> ->.
    destruct (Vs q tg vs J) as (_ & l' & Jl' & ->). assert (l' = l) as -> by (apply (key_unique _ tg l' l (pieces_tags (b k) _) Jl' Jl)).
    apply in_map_iff. exists (c, find c (t_data (T k) q)). split; [reflexivity|]. unfold arrivals. apply in_flat_map. exists ((q, tg), map (fun c => find c (t_data (T k) q)) l). split; [assumption|]. cbn [fst snd].
    rewrite (cells_of_In (T k) (b k) p q tg l Jl). clear - Ic. induction l as [|a l IH]; cbn [map combine In]; [destruct Ic|]. destruct Ic as [->|Ic]; auto. }
  destruct (store_all_ok (arrivals (T k) (b k) p r) c dest) as [S1 S2].
  { intros [c' o] I. cbn [snd]. destruct (A c' o I) as (q & _ & _ & Hn). assumption. }
  destruct (in_dec Z.eq_dec c (map fst (arrivals (T k) (b k) p r))) as [I|I].
  - apply in_map_iff in I. destruct I as ([c' o] & Ec & I). cbn [fst] in Ec. subst c'. destruct (A c o I) as (q & Es & Eo & Hn). rewrite Es. destruct o as [v|]; [|contradiction]. rewrite <- Eo. apply S1; [assumption|].
    intros w Iw. destruct (A c (Some w) Iw) as (q' & Es' & Ew & _). congruence.
  - rewrite (S2 I). destruct (source (T k) p c) as [q|] eqn:Es; [|reflexivity]. exfalso. apply I, (B q). reflexivity.
Qed.
Theorem transfers_end : 
  (forall s, execution procs rounds out inc s -> (finished procs rounds s \/ exists s', step procs rounds out inc s s') /\
    exists s', execution procs rounds out inc s' /\ forall p, In p procs -> length (results (procs_at s' p)) = rounds) /\
  (exists f : global (V := list (option D)) -> nat, forall s s', step procs rounds out inc s s' -> (f s' < f s)%nat).
Proof.
  split.
  - intros s Ex. split; [apply (rounds_progress _ _ _ _ transfers_match s Ex)|]. destruct (rounds_finish _ _ _ _ transfers_match s Np Ex) as (s' & E & _ & L). eauto.
  - eexists. intros s s' St. apply (rounds_terminate _ _ _ _ s s' Np St).
Qed.
End Transfer.

(** ** The transfers of dccrg *)
Section Rounds.
Context {D : Type} (d0 : D) (g : grid) (Hg : grid_ok g).
Notation m := (g_map g).
Notation rank r := (In r (ranks g)).
Notation state := (xstate (D := D)).

(** what a process has computed in a commit before the transfers (RefineModel.execute_local) *)
Definition committing := (store D * list Z * list Z * list Z * list (Z * Z) * list (Z * Z))%type.
Definition c_store (x : committing) : store D := let '(s, _, _, _, _, _) := x in s.
Definition c_send (x : committing) : list (Z * Z) := let '(_, _, _, _, l, _) := x in l.
Definition c_recv (x : committing) : list (Z * Z) := let '(_, _, _, _, _, l) := x in l.

(** one call with transfers: an update of copies (dccrg.hpp:978-1014, 5102-5455), continue_balance_load
    (3987-4020) after [n] others since initialize_balance_load, or the part of stop_refining that
    moves the data of removed cells (10600-10664) *)
Inductive round :=
| RUpdate (x : state) (id : Z)
| RMoves (st : Z -> proc D) (z : Z -> answer) (n : nat)
| RCommit (st : Z -> proc D).

(** the state in which load balancing has made n transfers *)
Definition moved (st : Z -> proc D) (z : Z -> answer) (n : nat) : outcome (Z -> moving) :=
  do mv <- initialize_balance_load d0 g st z; continues g n mv.
(** the state of a commit before the transfers: RefineModel.stop_refining and execute_refines *)
Definition removed_cells (st : Z -> proc D) : outcome (Z -> committing) :=
  do x <- override_refines g st;
  do toref <- induce_refines g st (fun r => snd (x r));
  do tounref <- override_unrefines g st toref;
  each g (fun r => execute_local d0 g r (toref r) (tounref r) (p_store (st r))) (fun r => (p_store (st r), [], [], [], [], [])).

Definition nothing : transfer (D := D) := Transfer (fun _ => []) (fun _ => []) (fun _ => []).
Definition transfer_of (a : round) : transfer :=
  match a with
  | RUpdate x id => Transfer (send_list g x id) (recv_list g x id) (fun q => s_data (p_store (x_st x q)))
  | RMoves st z n => match moved st z n with
    | Done mv => Transfer (fun q => v_send (mv q)) (fun q => v_recv (mv q)) (fun q => s_data (v_store (mv q)))
    | _ => nothing end
  | RCommit st => match removed_cells st with
    | Done loc => Transfer (fun q => c_send (loc q)) (fun q => c_recv (loc q)) (fun q => s_data (c_store (loc q)))
    | _ => nothing end
  end.
(** the calls start from states that histories of calls reach *)
Definition round_ok (a : round) : Prop :=
  match a with
  | RUpdate x id => xreachable d0 g x /\ hood_at g (x_hoods x) id <> None
  | RMoves st z n => reachable d0 g st /\ exists dest, answers_ok g (owner st 0) z dest
  | RCommit st => reachable d0 g st
  end.


Lemma moved_ok st z n own dest : History.inv g own st -> answers_ok g own z dest ->
  exists mv b, moved st z n = Done mv /\ forall r, rank r -> moving_ok d0 g own st dest b r (mv r).
Proof.
  intros Hi Hz. unfold moved. destruct (init_balance_ok d0 g Hg own st (proj1 Hi) (proj2 Hi) z dest Hz) as (mv & Em & Pm). rewrite Em. cbn [bind].
  destruct (continues_ok d0 g own st (proj1 Hi) dest n false mv Pm) as (mv' & E & P). eauto.
Qed.
Lemma moves_view st z dest : reachable d0 g st -> answers_ok g (owner st 0) z dest -> exists own, History.inv g own st /\ answers_ok g own z dest.
Proof.
  intros R Hz. destruct (reachable_inv d0 g Hg st R) as (own & Hi). exists own. split; [assumption|].
  apply (answers_ext g (owner st 0)); [intros x; apply (view g own st 0 x Hi (HistProps.rank0 g Hg))|assumption].
Qed.
Lemma commit_ok st : reachable d0 g st -> exists own x toref tounref loc,
  override_refines g st = Done x /\ induce_refines g st (fun r => snd (x r)) = Done toref /\ override_unrefines g st toref = Done tounref /\
  removed_cells st = Done loc /\ good g own st /\
  forall r, rank r -> execute_local d0 g r (toref r) (tounref r) (p_store (st r)) = Done (loc r) /\ local_spec d0 g own st toref tounref r (loc r) /\
    forall q c, In (q, c) (c_send (loc r)) -> has c (s_data (c_store (loc r))) = true.
Proof.
  intros R. destruct (reachable_inv d0 g Hg st R) as (own & Hi). pose proof Hi as (Hgood & _).
  destruct (override_refines_ok g Hg own st Hgood) as (x & Ex & Px).
  destruct (induce_refines_ok g Hg own st Hgood (fun r => snd (x r))) as (tr & Et & Pt); [intros y c Iy; apply (Px y c Iy)|].
  destruct (override_unrefines_ok g Hg own st Hgood tr Pt) as (tu & Eu & Pu).
  pose proof (induce_refines_NoDup g st _ _ Et (override_refines_NoDup g st x Ex)) as Nt.
  destruct (collect_ok (ranks g) (fun r => execute_local d0 g r (tr r) (tu r) (p_store (st r))) (fun r => (p_store (st r), [], [], [], [], []))
    (local_spec d0 g own st tr tu) (execute_local_ok d0 g Hg own st Hgood tr tu (fun r => fst (x r)) Pt Nt Pu)) as (loc & E1 & P1).
  exists own, x, tr, tu, loc. split; [assumption|]. split; [assumption|]. split; [assumption|]. split; [|split; [assumption|]].
  2:{ intros r Ir. destruct (P1 r Ir) as [El Ls]. split; [assumption|]. split; [assumption|]. intros q c I. destruct (loc r) as [[[[[s n'] a] ps] send] rc]. cbn [c_send c_store] in *. unfold local_spec in Ls.
    destruct Ls as (_ & _ & Dq & _ & _ & _ & _ & _ & _ & _ & _ & _ & Sq & _). apply Sq in I. destruct I as (Mc & Oc & Op & Nq).
    unfold has. rewrite Dq. unfold stays. rewrite Mc. assert (ownr r (own' g own tr tu) (get_parent m c) = false) as -> by (apply not_true; rewrite ownr_iff; congruence). rewrite andb_false_r. cbn [andb].
    rewrite (Mk_data d0 g Hg own st Hgood tr tu) by assumption. destruct (proj2 Hgood r Ir) as ((_ & _ & _ & Hq) & _). apply Hq. assumption. }
  unfold removed_cells. rewrite Ex. cbn [bind]. rewrite Et. cbn [bind]. rewrite Eu. cbn [bind]. exact E1.
Qed.
Lemma one_source {q q' c : Z} {l : list (Z * Z)} : NoDup (map snd l) -> In (q, c) l -> In (q', c) l -> q = q'.
Proof.
  intros N I J. induction l as [|e l IH]; [destruct I|]. cbn [map] in N. apply NoDup_cons_iff in N. destruct N as [N1 N2]. destruct I as [E|I], J as [E'|J]; [congruence| | |auto].
  - exfalso. apply N1. subst e. apply in_map_iff. exists (q', c). auto.
  - exfalso. apply N1. subst e. apply in_map_iff. exists (q, c). auto.
Qed.

(** both ends of every transfer list the same cells, the sender has them, and each cell comes from
    one process *)
Lemma round_fits a : round_ok a -> fits (ranks g) (transfer_of a).
Proof.
  destruct a as [x id|st z n|st]; cbn [round_ok transfer_of].
  - intros [R HU] p q Ip Iq. cbn [t_send t_recv t_data]. destruct (hood_at g (x_hoods x) id) as [U|] eqn:EU; [|contradiction].
    destruct (list_facts d0 g Hg x id U p q R EU Ip Iq) as (A & B & C). split; [assumption|]. split; [assumption|].
    destruct (xreachable_inv d0 g Hg x R) as (own & Hx). pose proof Hx as ((Hgood & _) & _). pose proof Hgood as (Hw & Hr). split.
    + intros c I. apply C, (needs_iff g own _ _ p q c Hx Ip) in I. destruct I as (O & _). apply (proj2 (proj2 (proj2 (proj1 (Hr q Iq))))). assumption.
    + intros q' c Iq' I J. destruct (list_facts d0 g Hg x id U p q' R EU Ip Iq') as (_ & _ & C'). apply C in I. apply C' in J. destruct I as (I & _), J as (J & _). unfold owns in *. congruence.
  - intros [R (dest & Hz)]. destruct (moves_view st z dest R Hz) as (own & Hi & Hz'). destruct (moved_ok st z n own dest Hi Hz') as (mv & b & E & P). rewrite E. intros p q Ip Iq. cbn [t_send t_recv t_data].
    destruct (P q Iq) as (_ & (Ns & Ps) & _ & _ & _ & _ & _ & _ & _ & Dq). destruct (P p Ip) as ((Nr & Pr) & _). split; [|split; [|split]].
    + apply listed_same; [assumption|assumption|]. intros c. rewrite Ps, Pr. split; intros (A & N & C); auto.
    + apply listed_NoDup. assumption.
    + intros c I. apply listed_In, Pr in I. destruct I as (O & _). unfold has. rewrite Dq, O, Z.eqb_refl. destruct (data_some g own st (proj1 Hi) q c O) as (v & ->). reflexivity.
    + intros q' c _ I J. apply listed_In in I, J. apply (one_source Nr I J).
  - intros R. destruct (commit_ok st R) as (own & x & tr & tu & loc & _ & _ & _ & E & Hgood & P). rewrite E. intros p q Ip Iq. cbn [t_send t_recv t_data]. destruct (P q Iq) as (_ & Lq & Hq). destruct (P p Ip) as (_ & Lp & _).
    destruct (loc q) as [[[[[sq nq] aq] pq] send] rq] eqn:Elq. destruct (loc p) as [[[[[sp np'] ap] pp] ep] recv] eqn:Elp. cbn [c_send c_recv c_store] in *.
    unfold local_spec in Lq, Lp. destruct Lq as (_ & _ & Dq & _ & _ & _ & _ & _ & _ & _ & _ & _ & Sq & Nsq & _). destruct Lp as (_ & _ & _ & _ & _ & _ & _ & _ & _ & _ & _ & _ & _ & _ & Rp & Nrp). split; [|split; [|split]].
    + apply listed_same; [assumption|assumption|]. intros c. rewrite Sq, Rp. split; intros (A & B & C & N); auto.
    + apply listed_NoDup. assumption.
    + intros c I. apply listed_In, Rp in I. destruct I as (Mc & O & Op & N). apply (Hq p). apply Sq. auto.
    + intros q' c _ I J. apply listed_In in I, J. apply (one_source Nrp I J).
Qed.

(** ** Results *)
Context (rounds : nat) (A : nat -> round) (single : nat -> bool) (HA : forall k, (k < rounds)%nat -> round_ok (A k)).
Notation out := (fun p k => sent_by (ranks g) (transfer_of (A k)) (single k) p).
Notation inc := (fun p k => expected_by (ranks g) (transfer_of (A k)) (single k) p).
Lemma all_fit k : (k < rounds)%nat -> fits (ranks g) (transfer_of (A k)).
Proof. intros Hk. apply round_fits, HA, Hk. Qed.

(** any sequence of such calls: whatever the order of the messages, also of different calls, every
    process ends each call with the data of the sequential model *)
Theorem c66_any_order s p k r : execution (ranks g) rounds out inc s -> rank p -> nth_error (results (procs_at s p)) k = Some r ->
  let stored := store_all (arrivals (transfer_of (A k)) (single k) p r) in
  match A k with
  | RUpdate x id => exists b x', update_copies g x id = Done (b, x') /\ forall c, find c (stored (x_copies x p)) = find c (x_copies x' p)
  | RMoves st z n => exists mv mv', moved st z n = Done mv /\ moved st z (S n) = Done mv' /\
      forall c, find c (stored (s_data (v_store (mv p)))) = find c (s_data (v_store (mv' p)))
  | RCommit st => exists loc res, removed_cells st = Done loc /\ stop_refining d0 g st = Done res /\
      forall c, find c (stored (s_unrefd (c_store (loc p)))) = find c (s_unrefd (p_store (fst (res p))))
  end.
Proof.
  intros Ex Ip Er stored. assert (forall dest, exists dest', transferred (ranks g) (transfer_of (A k)) p dest = Done dest' /\ forall c, find c (stored dest) = find c dest') as Td
    by (intros dest; apply (transfers_deliver (ranks g) (ranks_NoDup g) rounds (fun k => transfer_of (A k)) single all_fit s p k r dest Ex Ip Er)).
  assert (round_ok (A k)) as Hk.
  { apply HA. destruct (rounds_deliver _ _ _ _ (transfers_match (ranks g) (ranks_NoDup g) rounds (fun k => transfer_of (A k)) single all_fit) s p k r Ex Ip Er) as (Hk & _). exact Hk. }
  clearbody stored. destruct (A k) as [x id|st z n|st]; cbn [round_ok] in Hk; cbn [transfer_of] in Td.
  - destruct Hk as [R HU]. destruct (hood_at g (x_hoods x) id) as [U|] eqn:EU; [|contradiction].
    destruct (c34_update d0 g Hg x id U R EU) as (b & x' & E & _). exists b, x'. split; [assumption|]. destruct (Td (x_copies x p)) as (dest' & Et & P). intros c. rewrite P. f_equal.
    unfold update_copies, each in E. apply bind_done in E. destruct E as (L & EL & E). apply bind_done in E. destruct E as (ls & El & E). apply bind_done in E. destruct E as (recv & Erc & E).
    apply bind_done in E. destruct E as (send & Es & E). apply bind_done in E. destruct E as (cp & Ec & E). injection E as _ <-. cbn [x_copies].
    pose proof (collect_inv _ _ _ _ Ec p Ip) as Ep. cbn beta in Ep. unfold deliver in Ep. unfold transferred in Et. cbn [t_send t_recv t_data] in Et.
    assert (forall q, rank q -> send_list g x id q = send q /\ recv_list g x id q = recv q) as Ls.
    { intros q Iq. unfold send_list, recv_list. rewrite (collect_inv _ _ _ _ EL q Iq). pose proof (collect_inv _ _ _ _ El q Iq) as El'. cbn beta in El'. destruct (L q) as [l|]; [|discriminate]. injection El' as El'.
      rewrite El'. rewrite (collect_inv _ _ _ _ Es q Iq), (collect_inv _ _ _ _ Erc q Iq). auto. }
    rewrite (proj2 (Ls p Ip)) in Et.
    assert (forall qs dest, incl qs (ranks g) ->
      foldM (fun dest q => receive (s_data (p_store (x_st x q))) (listed p (send_list g x id q)) (listed q (recv p)) dest) qs dest =
      foldM (fun dest q => receive (s_data (p_store (x_st x q))) (listed p (send q)) (listed q (recv p)) dest) qs dest) as Ef.
    { induction qs as [|q qs IH]; intros dest Hq; cbn [foldM]; [reflexivity|]. rewrite (proj1 (Ls q (Hq q (or_introl eq_refl)))). destruct (receive _ _ _ dest); cbn [bind]; try reflexivity. apply IH. intros y Hy. apply Hq. right. assumption. }
    rewrite Ef in Et by apply incl_refl. congruence.
  - destruct Hk as [R (dest & Hz)]. destruct (moves_view st z dest R Hz) as (own & Hi & Hz'). destruct (moved_ok st z n own dest Hi Hz') as (mv & b & E & P). rewrite E in Td.
    destruct (moved_ok st z (S n) own dest Hi Hz') as (mv' & b' & E' & _). exists mv, mv'. split; [assumption|]. split; [assumption|].
    assert (continue_balance_load g mv = Done mv') as Ec.
    { unfold moved in E, E'. apply bind_done in E. destruct E as (mv0 & E0 & E). rewrite E0 in E'. cbn [bind] in E'. clear - E E'. revert mv0 E E'. induction n as [|n IH]; intros mv0 E E'.
      - cbn [continues] in *. injection E as ->. apply bind_done in E'. destruct E' as (a & Ea & E'). congruence.
      - change (continues g (S (S n)) mv0) with (do a <- continue_balance_load g mv0; continues g (S n) a) in E'. cbn [continues] in E. apply bind_done in E. destruct E as (a & Ea & E). rewrite Ea in E'. cbn [bind] in E'. apply (IH a E E'). }
    destruct (Td (s_data (v_store (mv p)))) as (dest' & Et & Q). intros c. rewrite Q. f_equal.
    unfold continue_balance_load, each in Ec. pose proof (collect_inv _ _ _ _ Ec p Ip) as Ep. cbn beta in Ep. unfold transferred in Et. cbn [t_send t_recv t_data] in Et. rewrite Et in Ep. cbn [bind] in Ep. injection Ep as Ep. rewrite <- Ep. reflexivity.
  - destruct (commit_ok st Hk) as (own & x & tr & tu & loc & Ex' & Et & Eu & E & Hgood & P). rewrite E in Td. destruct (stop_refining_ok d0 g Hg own st Hgood) as (own2 & res & Es & _).
    exists loc, res. split; [assumption|]. split; [assumption|]. destruct (Td (s_unrefd (c_store (loc p)))) as (dest' & Ed & Q). intros c. rewrite Q. f_equal.
    unfold stop_refining in Es. rewrite Ex' in Es. cbn [bind] in Es. rewrite Et in Es. cbn [bind] in Es. rewrite Eu in Es. cbn [bind] in Es. unfold execute_refines in Es.
    unfold removed_cells in E. rewrite Ex' in E. cbn [bind] in E. rewrite Et in E. cbn [bind] in E. rewrite Eu in E. cbn [bind] in E. rewrite E in Es. cbn [bind] in Es. unfold each in Es.
    pose proof (collect_inv _ _ _ _ Es p Ip) as Ep. cbn beta in Ep. unfold execute_finish in Ep. unfold transferred in Ed. cbn [t_send t_recv t_data] in Ed. unfold c_send, c_recv, c_store in Ed. rewrite Ed in Ep. cbn [bind] in Ep.
    apply bind_done in Ep. destruct Ep as (s' & Ep1 & Ep). apply bind_done in Ep1. destruct Ep1 as (dt & _ & Ep1). injection Ep1 as <-. apply bind_done in Ep. destruct Ep as (kk & _ & Ep). injection Ep as Ep. rewrite <- Ep. reflexivity.
Qed.
(** no order of messages blocks, and every order ends *)
Theorem c66_transfers_end :
  (forall s, execution (ranks g) rounds out inc s -> (finished (ranks g) rounds s \/ exists s', step (ranks g) rounds out inc s s') /\
    exists s', execution (ranks g) rounds out inc s' /\ forall p, rank p -> length (results (procs_at s' p)) = rounds) /\
  (exists f : global (V := list (option D)) -> nat, forall s s', step (ranks g) rounds out inc s s' -> (f s' < f s)%nat).
Proof. apply (transfers_end (ranks g) (ranks_NoDup g) rounds (fun k => transfer_of (A k)) single all_fit). Qed.

(** a cell that a process sends is not one it receives in the same call: what is received does not
    change what is sent *)
Theorem c66_sent_not_received a p q q' c : round_ok a -> rank p -> rank q -> rank q' ->
  In c (listed q (t_send (transfer_of a) p)) -> ~ In c (listed q' (t_recv (transfer_of a) p)).
Proof.
  destruct a as [x id|st z n|st]; cbn [round_ok transfer_of].
  - intros [R HU] Ip Iq Iq'. cbn [t_send t_recv]. destruct (hood_at g (x_hoods x) id) as [U|] eqn:EU; [|contradiction]. destruct (xreachable_inv d0 g Hg x R) as (own & Hx).
    destruct (list_facts d0 g Hg x id U q p R EU Iq Ip) as (-> & _ & C). destruct (list_facts d0 g Hg x id U p q' R EU Ip Iq') as (_ & _ & C'). rewrite C, C', (needs_iff g own _ _ q p c Hx Iq), (needs_iff g own _ _ p q' c Hx Ip).
    intros (O & _) (O' & N & _). congruence.
  - intros [R (dest & Hz)] Ip Iq Iq'. destruct (moves_view st z dest R Hz) as (own & Hi & Hz'). destruct (moved_ok st z n own dest Hi Hz') as (mv & b & E & P). rewrite E. cbn [t_send t_recv]. rewrite !listed_In.
    destruct (P p Ip) as ((_ & Pr) & (_ & Ps) & _). rewrite Pr, Ps. intros (O & _) (O' & N & _). congruence.
  - intros R Ip Iq Iq'. destruct (commit_ok st R) as (own & x & tr & tu & loc & _ & _ & _ & E & Hgood & P). rewrite E. cbn [t_send t_recv]. rewrite !listed_In. destruct (P p Ip) as (_ & Lp & _).
    destruct (loc p) as [[[[[sp np'] ap] pp] sd] recv]. cbn [c_send c_recv]. unfold local_spec in Lp. destruct Lp as (_ & _ & _ & _ & _ & _ & _ & _ & _ & _ & _ & _ & Sp & _ & Rp & _). rewrite Sp, Rp. intros (_ & O & _) (_ & O' & _ & N). congruence.
Qed.
End Rounds.
Print Assumptions c66_any_order.
Print Assumptions c66_transfers_end.
Print Assumptions c66_sent_not_received.

(** an update, a load balance that moves cells in both directions and a commit that moves the data
    of two removed cells, with different kinds of messages, and an execution to the end of all *)
Definition same_messages (a b : list ((Z * Z) * list (option Z))) : bool := if list_eq_dec whole_dec a b then true else false.
Definition kid3 : Z := nth 3 kids1 0.
Definition swap : list (Z * Z) := [(kid2, 0); (kid3, 1)].
Definition sends (a : round (D := Z)) (b : bool) (p : Z) := sent_by (ranks g2) (transfer_of 0 g2 a) b p.
Example c66_any_order_example : exists x st1 st2 s,
  let A := fun k : nat => match k with O => RUpdate x default_neighborhood_id | 1%nat => RMoves st1 (plan st1 swap) 0 | _ => RCommit st2 end in
  let b := fun k : nat => match k with O => true | 1%nat => true | _ => false end in
  (forall k, (k < 3)%nat -> round_ok 0 g2 (A k)) /\
  sends (A 0%nat) true 0 = [((1, 1), [Some 17])] /\ sends (A 0%nat) true 1 = [((0, 1), [Some 23])] /\
  sends (A 1%nat) true 0 = [((1, 1), [Some 0])] /\ sends (A 1%nat) true 1 = [((0, 1), [Some 8])] /\
  sends (A 2%nat) false 0 = [] /\ sends (A 2%nat) false 1 = [((0, 0), [Some 7; Some 8])] /\ sends (A 2%nat) true 1 = [((0, 1), [Some 7]); ((0, 2), [Some 8])] /\
  execution (ranks g2) 3 (fun p k => sent_by (ranks g2) (transfer_of 0 g2 (A k)) (b k) p) (fun p k => expected_by (ranks g2) (transfer_of 0 g2 (A k)) (b k) p) s /\
  length (results (procs_at s 0)) = 3%nat /\ length (results (procs_at s 1)) = 3%nat.
Proof.
  assert (forall a b : list ((Z * Z) * list (option Z)), same_messages a b = true -> a = b) as Eq by (intros a b; unfold same_messages; destruct (list_eq_dec whole_dec a b); [auto|discriminate]).
  destruct (xgo_holds 0 g2 start2 (fun x => same_messages (sends (RUpdate x default_neighborhood_id) true 0) [((1, 1), [Some 17])] && same_messages (sends (RUpdate x default_neighborhood_id) true 1) [((0, 1), [Some 23])])) as (x & Rx & Bx); [vm_compute; reflexivity|].
  assert (exists st1, reachable 0 g2 st1 /\ (planb g2 st1 swap && same_messages (sends (RMoves st1 (plan st1 swap) 0) true 0) [((1, 1), [Some 0])] && same_messages (sends (RMoves st1 (plan st1 swap) 0) true 1) [((0, 1), [Some 8])]) = true) as (st1 & R1 & B1).
  { assert (holds (go 0 g2 h3) (fun st1 => planb g2 st1 swap && same_messages (sends (RMoves st1 (plan st1 swap) 0) true 0) [((1, 1), [Some 0])] && same_messages (sends (RMoves st1 (plan st1 swap) 0) true 1) [((0, 1), [Some 8])]) = true) as Q by (vm_compute; reflexivity).
    apply holds_ex in Q. destruct Q as (st1 & E & Q). exists st1. split; [apply (go_reachable 0 g2 h3); assumption|assumption]. }
  assert (exists st2, reachable 0 g2 st2 /\ (same_messages (sends (RCommit st2) false 0) [] && same_messages (sends (RCommit st2) false 1) [((0, 0), [Some 7; Some 8])] && same_messages (sends (RCommit st2) true 1) [((0, 1), [Some 7]); ((0, 2), [Some 8])]) = true) as (st2 & R2 & B2).
  { assert (holds (go 0 g2 (h3 ++ [Do (Unrefine 1 kid2)])) (fun st2 => same_messages (sends (RCommit st2) false 0) [] && same_messages (sends (RCommit st2) false 1) [((0, 0), [Some 7; Some 8])] && same_messages (sends (RCommit st2) true 1) [((0, 1), [Some 7]); ((0, 2), [Some 8])]) = true) as Q by (vm_compute; reflexivity).
    apply holds_ex in Q. destruct Q as (st2 & E & Q). exists st2. split; [apply (go_reachable 0 g2 (h3 ++ [Do (Unrefine 1 kid2)])); assumption|assumption]. }
  apply andb_prop in Bx. destruct Bx as [Bx1 Bx2]. apply andb_prop in B1. destruct B1 as [B1 B13]. apply andb_prop in B1. destruct B1 as [B11 B12]. apply andb_prop in B2. destruct B2 as [B2 B23]. apply andb_prop in B2. destruct B2 as [B21 B22].
  set (A := fun k : nat => match k with O => RUpdate x default_neighborhood_id | 1%nat => RMoves st1 (plan st1 swap) 0 | _ => RCommit st2 end).
  set (b := fun k : nat => match k with O => true | 1%nat => true | _ => false end).
  assert (forall k, (k < 3)%nat -> round_ok 0 g2 (A k)) as HA.
  { intros [|[|k]] Hk; cbn [A round_ok].
    - split; [assumption|]. unfold hood_at. rewrite Z.eqb_refl. discriminate.
    - split; [assumption|]. eexists. apply plan_ok. assumption.
    - assumption. }
  destruct (proj1 (c66_transfers_end 0 g2 g2_ok 3 A b HA) _ (exec_start _ _ _ _)) as (_ & s & Es & Ls).
  exists x, st1, st2, s. cbn zeta. split; [exact HA|]. do 7 (split; [apply Eq; assumption|]). split; [exact Es|]. split; apply Ls; vm_compute; auto.
Qed.
