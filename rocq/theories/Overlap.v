(** Transfers of cell data that overlap with computation.

    A process starts any number of updates of its copies of remote cells, goes on computing,
    waits for the receives and later for the sends: dccrg.hpp:5088-5490, 10758-11262.  The data of
    a cell is read when its message is sent, which can be at any time between the start of the
    update and the end of the wait for sends.  Messages with the same source, destination and tag
    arrive in the order in which they were started, everything else can happen in any order.

    Starting the receives and the sends of an update separately (5146, 5253) is not modelled. *)
From Coq Require Import ZArith Bool List Lia PeanoNat Wf_nat.
From Verif Require Import Sets Async.
Import ListNotations.
Local Open Scope nat_scope.

Section Overlap.
Context {D : Type}.
Notation port := (Z * Z)%type.       (* peer and tag *)
Notation data := (Z -> option D)%type.
(** the messages of an update: peer, tag and cells *)
Context (procs : list Z) (sends recvs : Z -> Z -> list (port * list Z)).

(** what the program of a process does; [Start] is start_remote_neighbor_copy_updates,
    [WaitR] and [WaitS] are wait_remote_neighbor_copy_update_receives and _sends *)
Inductive op := Start (id : Z) | WaitR | WaitS | Compute (c : Z) (rs cs : list Z) (f : list (option D) -> list (option D) -> option D).
(** the new data of a cell is computed from own cells rs and from copies cs of other processes' cells *)
Definition value (rs cs : list Z) (f : list (option D) -> list (option D) -> option D) (own copies : data) : option D := f (map own rs) (map copies cs).
Definition upd (f : data) (c : Z) (v : option D) : data := fun a => if Z.eqb a c then v else f a.
Definition store (f : data) (cs : list Z) (vs : list (option D)) : data := fold_left (fun f e => upd f (fst e) (snd e)) (combine cs vs) f.

(** the state of a process: what is left of its program, the number of updates started, the number
    of waits for sends, its cells, its copies, messages to send and to receive (with the number of
    their update) in the order in which they were started, and received ones *)
Record local := Local { todo : list op; started : nat; phase : nat; own : data; copies : data;
  outbox : list (nat * (port * list Z)); inbox : list (nat * (port * list Z)); log : list (nat * (port * list Z)) }.
Record global := Global { at_ : Z -> local; chan : Z -> Z -> Z -> list (nat * list (option D)) }.
Definition with_local (s : global) (p : Z) (l : local) : global := Global (fun q => if Z.eqb q p then l else at_ s q) (chan s).
Definition with_chan (s : global) (p q t : Z) (l : list (nat * list (option D))) : global :=
  Global (at_ s) (fun p' q' t' => if Z.eqb p' p && Z.eqb q' q && Z.eqb t' t then l else chan s p' q' t').
Definition numbered (k : nat) (l : list (port * list Z)) : list (nat * (port * list Z)) := map (pair k) l.

Inductive step : global -> global -> Prop :=
| step_start s p id l : In p procs -> todo (at_ s p) = Start id :: l ->
    step s (with_local s p (let a := at_ s p in Local l (S (started a)) (phase a) (own a) (copies a)
      (outbox a ++ numbered (started a) (sends id p)) (inbox a ++ numbered (started a) (recvs id p)) (log a)))
| step_write s p c rs cs f l : In p procs -> todo (at_ s p) = Compute c rs cs f :: l ->
    step s (with_local s p (let a := at_ s p in Local l (started a) (phase a) (upd (own a) c (value rs cs f (own a) (copies a))) (copies a) (outbox a) (inbox a) (log a)))
| step_waitr s p l : In p procs -> todo (at_ s p) = WaitR :: l -> inbox (at_ s p) = [] ->
    step s (with_local s p (let a := at_ s p in Local l (started a) (phase a) (own a) (copies a) (outbox a) [] (log a)))
| step_waits s p l : In p procs -> todo (at_ s p) = WaitS :: l -> outbox (at_ s p) = [] ->
    step s (with_local s p (let a := at_ s p in Local l (started a) (S (phase a)) (own a) (copies a) [] (inbox a) (log a)))
| step_send s p q t k cs l1 l2 : In p procs -> outbox (at_ s p) = l1 ++ (k, ((q, t), cs)) :: l2 -> ~ In (q, t) (map (fun e => fst (snd e)) l1) ->
    step s (with_chan (with_local s p (let a := at_ s p in Local (todo a) (started a) (phase a) (own a) (copies a) (l1 ++ l2) (inbox a) (log a)))
                      p q t (chan s p q t ++ [(k, map (own (at_ s p)) cs)]))
| step_recv s p q t k cs l1 l2 k' vs l : In p procs -> inbox (at_ s p) = l1 ++ (k, ((q, t), cs)) :: l2 -> ~ In (q, t) (map (fun e => fst (snd e)) l1) ->
    chan s q p t = (k', vs) :: l ->
    step s (with_chan (with_local s p (let a := at_ s p in Local (todo a) (started a) (phase a) (own a) (store (copies a) cs vs) (outbox a) (l1 ++ l2) (log a ++ [(k, ((q, t), cs))])))
                      q p t l).

(** ** The programs *)
Context (script : Z -> list op) (own0 copies0 : Z -> data).
Definition start_state : global := Global (fun p => Local (script p) 0 0 (own0 p) (copies0 p) [] [] []) (fun _ _ _ => []).
Inductive execution : global -> Prop :=
| exec_start : execution start_state
| exec_step s s' : execution s -> step s s' -> execution s'.

(** updates and waits are in the same order on all processes *)
Definition collective (o : op) : bool := match o with Compute _ _ _ _ => false | _ => true end.
Context (skeleton : list op) (Hskel : forall p, In p procs -> filter collective (script p) = skeleton).
Definition used (id : Z) : Prop := In (Start id) skeleton.
(** sends are waited for after receives, cells that are
    being sent are not written and copies that are being received are not read: [busy] are the
    updates since the last wait for sends *)
Fixpoint careful (p : Z) (l : list op) (busy : list Z) (waited : bool) : Prop :=
  match l with
  | [] => True
  | Start id :: l => careful p l (id :: busy) false
  | WaitR :: l => careful p l busy true
  | WaitS :: l => waited = true /\ careful p l [] false
  | Compute c _ cs _ :: l => (forall id e, In id busy -> In e (sends id p) -> ~ In c (snd e)) /\
      (forall a, In a cs -> waited = true \/ forall id e, In id busy -> In e (recvs id p) -> ~ In a (snd e)) /\ careful p l busy waited
  end.
Context (Hcare : forall p, In p procs -> careful p (script p) [] false).
(** both ends of every message agree about it, and each cell has one source *)
Context (Hports : forall id p, used id -> In p procs -> NoDup (map fst (sends id p)) /\ NoDup (map fst (recvs id p)) /\
    (forall e, In e (sends id p) -> In (fst (fst e)) procs) /\ (forall e, In e (recvs id p) -> In (fst (fst e)) procs)).
Context (Hmatch : forall id p q t cs, used id -> In p procs -> In q procs -> In ((q, t), cs) (sends id p) <-> In ((p, t), cs) (recvs id q)).
Context (Hsource : forall id id' p p' q t t' cs cs' c, used id -> used id' -> In q procs ->
    In ((p, t), cs) (recvs id q) -> In ((p', t'), cs') (recvs id' q) -> In c cs -> In c cs' -> p = p').

(** ** The same programs with update_copies_of_remote_neighbors in place of every start *)
(** the process from which q receives c in an update *)
Definition source (id q c : Z) : option Z :=
  option_map (fun e => fst (fst e)) (List.find (fun e => if in_dec Z.eq_dec c (snd e) then true else false) (recvs id q)).
(** what a process does until the next update *)
Fixpoint advance (l : list op) (d cop : data) : list op * data :=
  match l with
  | Compute c rs cs f :: l => advance l (upd d c (value rs cs f d cop)) cop
  | WaitR :: l | WaitS :: l => advance l d cop
  | _ => (l, d)
  end.
(** programs left and data after n updates *)
Fixpoint sync (n : nat) : (Z -> list op * data) * (Z -> data) :=
  match n with
  | 0 => (fun p => (script p, own0 p), copies0)
  | S n => let '(st, cop) := sync n in
      let st' p := advance (fst (st p)) (snd (st p)) (cop p) in
      (fun p => (tl (fst (st' p)), snd (st' p)),
       fun q c => match fst (st' q) with Start id :: _ => match source id q c with Some p => snd (st' p) c | None => cop q c end | _ => cop q c end)
  end.
Definition ref_copies (n : nat) (q : Z) : data := snd (sync n) q.
Definition ref_own (n : nat) (p : Z) : data := snd (advance (fst (fst (sync n) p)) (snd (fst (sync n) p)) (ref_copies n p)).

(** the updates of a program: neighborhood, phase and the cells of the process at their start *)
Fixpoint trace (p : Z) (l : list op) (d : data) (n ph : nat) : list (Z * nat * data) :=
  match l with
  | [] => []
  | Start id :: l => (id, ph, d) :: trace p l d (S n) ph
  | WaitR :: l => trace p l d n ph
  | WaitS :: l => trace p l d n (S ph)
  | Compute c rs cs f :: l => trace p l (upd d c (value rs cs f d (ref_copies n p))) n ph
  end.
Definition updates (p : Z) : list (Z * nat * data) := trace p (script p) (own0 p) 0 0.
(** the neighborhood and the phase of the k-th update *)
Definition plan : list (Z * nat) := map fst (trace 0%Z skeleton (fun _ => None) 0 0).

Lemma trace_plan p p' l : forall d d' n n' ph, map fst (trace p l d n ph) = map fst (trace p' (filter collective l) d' n' ph).
Proof. induction l as [|[id| | |c rs cs f] l IH]; intros d d' n n' ph; cbn [trace filter collective map fst]; [reflexivity|f_equal; apply IH|apply IH|apply IH|apply IH]. Qed.
Lemma updates_plan p : In p procs -> map fst (updates p) = plan.
Proof. intros Ip. unfold updates, plan. rewrite (trace_plan p 0%Z _ _ (fun _ => None) 0 0), Hskel by assumption. reflexivity. Qed.
Lemma trace_starts p l : forall d n ph0 id ph d', In (id, ph, d') (trace p l d n ph0) -> In (Start id) l.
Proof.
  induction l as [|[j| | |c rs cs f] l IH]; intros d n ph0 id ph d'; cbn [trace In]; [intros []|intros [E|I]|intros I|intros I|intros I]; try (right; eapply IH; eassumption). injection E as -> _ _. left. reflexivity.
Qed.
Lemma plan_used k id ph : nth_error plan k = Some (id, ph) -> used id.
Proof.
  unfold plan, used. intros E. apply nth_error_In, in_map_iff in E. destruct E as ([[id' ph'] d] & E & I). cbn [fst] in E. injection E as -> ->. apply (trace_starts _ _ _ _ _ _ _ _ I).
Qed.
Lemma trace_phase p l : forall d n ph k id ph' d', nth_error (trace p l d n ph) k = Some (id, ph', d') -> ph <= ph'.
Proof.
  induction l as [|[j| | |c rs cs f] l IH]; intros d n ph k id ph' d' E; cbn [trace] in E; [destruct k; discriminate|destruct k as [|k]; cbn in E; [injection E; lia|apply IH in E; assumption]| | |]; apply IH in E; lia.
Qed.
Lemma trace_mono p l : forall d n ph k k' a b, k <= k' -> nth_error (trace p l d n ph) k = Some a -> nth_error (trace p l d n ph) k' = Some b -> snd (fst a) <= snd (fst b).
Proof.
  induction l as [|[j| | |c rs cs f] l IH]; intros d n ph k k' [[i1 p1] d1] [[i2 p2] d2] L A B; cbn [trace] in A, B; [destruct k; discriminate| |apply (IH _ _ _ _ _ _ _ L A B)|apply (IH _ _ _ _ _ _ _ L A B)|apply (IH _ _ _ _ _ _ _ L A B)].
  destruct k as [|k], k' as [|k']; cbn [nth_error] in A, B; [injection A as <- <- <-; injection B as <- <- <-; cbn [fst snd]; lia| |lia|apply (IH d (S n) ph k k' _ _ ltac:(lia) A B)].
  injection A as <- <- <-. apply trace_phase in B. cbn [fst snd]. assumption.
Qed.
(** cells that are sent keep their data until the end of the phase *)
Lemma busy_kept p l : forall busy w d n ph k id' d' c, careful p l busy w -> nth_error (trace p l d n ph) k = Some (id', ph, d') ->
  (exists id e, In id busy /\ In e (sends id p) /\ In c (snd e)) -> d' c = d c.
Proof.
  induction l as [|[j| | |a rs cs f] l IH]; intros busy w d n ph k id' d' c H E B; cbn [trace careful] in E, H; [destruct k; discriminate| | | |].
  - destruct k as [|k]; cbn [nth_error] in E; [congruence|]. destruct B as (id & e & B1 & B2). apply (IH (j :: busy) false d (S n) ph k id' d' c H E). exists id, e. split; [right; assumption|assumption].
  - apply (IH busy true d n ph k id' d' c H E B).
  - apply trace_phase in E. lia.
  - destruct H as (W & _ & H). rewrite (IH busy w _ n ph k id' d' c H E B). unfold upd. destruct (Z.eqb_spec c a) as [->|]; [|reflexivity]. destruct B as (id & e & B1 & B2 & B3). destruct (W id e B1 B2 B3).
Qed.
Lemma kept p l : forall busy w d n ph k k' id id' ph' d1 d2 e c, careful p l busy w -> k <= k' ->
  nth_error (trace p l d n ph) k = Some (id, ph', d1) -> nth_error (trace p l d n ph) k' = Some (id', ph', d2) -> In e (sends id p) -> In c (snd e) -> d1 c = d2 c.
Proof.
  induction l as [|[j| | |a rs cs f] l IH]; intros busy w d n ph k k' id id' ph' d1 d2 e c H L A B Ie Ic; cbn [trace careful] in A, B, H; [destruct k; discriminate| | | |].
  - destruct k as [|k], k' as [|k']; cbn [nth_error] in A, B; [congruence| |lia|apply (IH (j :: busy) false d (S n) ph k k' id id' ph' d1 d2 e c H ltac:(lia) A B Ie Ic)].
    injection A as <- <- <-. symmetry. apply (busy_kept p l (j :: busy) false d (S n) ph k' id' d2 c H B). exists j, e. split; [left; reflexivity|auto].
  - apply (IH busy true d n ph k k' id id' ph' d1 d2 e c H L A B Ie Ic).
  - destruct H as (_ & H). apply (IH [] false d n (S ph) k k' id id' ph' d1 d2 e c H L A B Ie Ic).
  - destruct H as (_ & _ & H). apply (IH busy w _ n ph k k' id id' ph' d1 d2 e c H L A B Ie Ic).
Qed.

(** ** Invariant *)
(** data of cell c of process p at the start of the k-th update *)
Definition at_start (p : Z) (k : nat) (c : Z) : option D := match nth_error (updates p) k with Some (_, _, d) => d c | None => None end.
Definition id_of (k : nat) : Z := match nth_error plan k with Some (id, _) => id | None => 0%Z end.
Definition phase_of (k : nat) : nat := match nth_error plan k with Some (_, ph) => ph | None => 0 end.
Definition has_port (e : port) (l : list port) : bool := if in_dec port_dec e l then true else false.
(** updates among the first n in which p sends to q with tag t *)
Definition series (p q t : Z) (n : nat) : list nat := filter (fun k => has_port (q, t) (map fst (sends (id_of k) p))) (seq 0 n).
Definition on (e : port) (box : list (nat * (port * list Z))) : list nat := map fst (filter (fun x => if port_dec (fst (snd x)) e then true else false) box).

(** the cells of a process at the end of its program *)
Fixpoint results (p : Z) (l : list op) (d : data) (n : nat) : data :=
  match l with
  | [] => d
  | Start _ :: l => results p l d (S n)
  | WaitR :: l | WaitS :: l => results p l d n
  | Compute c rs cs f :: l => results p l (upd d c (value rs cs f d (ref_copies n p))) n
  end.
(** what holds for a process *)
Record good (p : Z) (a : local) : Prop := {
  i_trace : skipn (started a) (updates p) = trace p (todo a) (own a) (started a) (phase a) /\ started a <= length plan;
  i_results : results p (todo a) (own a) (started a) = results p (script p) (own0 p) 0;
  i_care : exists busy w, careful p (todo a) busy w /\ (w = true -> inbox a = []) /\ (forall k e, In (k, e) (outbox a) \/ In (k, e) (inbox a) -> In (id_of k) busy);
  i_out : forall k e, In (k, e) (outbox a) -> k < started a /\ In e (sends (id_of k) p) /\ (forall c, In c (snd e) -> own a c = at_start p k c);
  i_in : forall k e, In (k, e) (inbox a) -> k < started a /\ In e (recvs (id_of k) p) /\ phase_of k = phase a;
  i_log : forall k e, In (k, e) (log a) -> k < started a /\ In e (recvs (id_of k) p);
  i_phase : forall k, k < started a -> phase_of k <= phase a;
  i_copies : forall c,
    ((forall k e, In (k, e) (log a) -> ~ In c (snd e)) -> copies a c = copies0 p c) /\
    (forall k q t cs, In (k, ((q, t), cs)) (log a) -> In c cs -> (forall k' e', In (k', e') (log a) -> In c (snd e') -> k' <= k) -> copies a c = at_start q k c) }.
Record inv (s : global) : Prop := {
  i_good : forall p, In p procs -> good p (at_ s p);
  i_chan : forall p q t k vs, In p procs -> In q procs -> In (k, vs) (chan s p q t) -> exists cs, In ((q, t), cs) (sends (id_of k) p) /\ vs = map (at_start p k) cs;
  i_sent : forall p q t, In p procs -> In q procs -> series p q t (started (at_ s p)) = on (p, t) (log (at_ s q)) ++ map fst (chan s p q t) ++ on (q, t) (outbox (at_ s p));
  i_rcvd : forall p q t, In p procs -> In q procs -> series p q t (started (at_ s q)) = on (p, t) (log (at_ s q)) ++ on (p, t) (inbox (at_ s q)) }.

Lemma on_app e a b : on e (a ++ b) = on e a ++ on e b.
Proof. unfold on. rewrite filter_app, map_app. reflexivity. Qed.
Lemma on_cons_same e k cs l : on e ((k, (e, cs)) :: l) = k :: on e l.
Proof. unfold on. cbn [filter fst snd]. destruct (port_dec e e); [reflexivity|contradiction]. Qed.
Lemma on_cons_other e k x l : fst x <> e -> on e ((k, x) :: l) = on e l.
Proof. intros N. unfold on. cbn [filter fst snd]. destruct (port_dec (fst x) e); [contradiction|reflexivity]. Qed.
Lemma on_none e l : ~ In e (map (fun x => fst (snd x)) l) -> on e l = [].
Proof.
  unfold on. induction l as [|x l IH]; cbn [map filter]; intros N; [reflexivity|]. destruct (port_dec (fst (snd x)) e) as [E|_]; [exfalso; apply N; left; assumption|]. apply IH. intros Q. apply N. right. assumption.
Qed.
Lemma on_numbered e k l : NoDup (map fst l) -> on e (numbered k l) = if has_port e (map fst l) then [k] else [].
Proof.
  unfold has_port. induction l as [|x l IH]; intros N; [reflexivity|]. cbn [map numbered]. cbn [map] in N. apply NoDup_cons_iff in N. destruct N as [N1 N2]. specialize (IH N2). fold (numbered k l).
  destruct (port_dec (fst x) e) as [E|E].
  - destruct x as [y cs]. cbn [fst] in *. subst y. rewrite on_cons_same, IH. destruct (in_dec port_dec e (map fst l)); [contradiction|]. destruct (in_dec port_dec e (e :: map fst l)) as [_|Q]; [reflexivity|destruct Q; left; reflexivity].
  - rewrite on_cons_other by assumption. rewrite IH. destruct (in_dec port_dec e (map fst l)) as [I|I], (in_dec port_dec e (fst x :: map fst l)) as [J|J]; try reflexivity; [destruct J; right; assumption|destruct J as [J|J]; contradiction].
Qed.
Lemma series_S p q t n : series p q t (S n) = series p q t n ++ (if has_port (q, t) (map fst (sends (id_of n) p)) then [n] else []).
Proof. unfold series. rewrite seq_S, filter_app. cbn [filter Nat.add]. destruct (has_port _ _); reflexivity. Qed.
Lemma series_prefix p q t a b : a <= b -> exists r, series p q t b = series p q t a ++ r.
Proof. intros L. unfold series. replace b with (a + (b - a)) by lia. rewrite seq_app, filter_app. eauto. Qed.

Lemma at_same s p l : at_ (with_local s p l) p = l.
Proof. cbn. rewrite Z.eqb_refl. reflexivity. Qed.
Lemma at_other s p l q : q <> p -> at_ (with_local s p l) q = at_ s q.
Proof. intros N. cbn. destruct (Z.eqb_spec q p); [contradiction|reflexivity]. Qed.
Lemma chan_same s p q t l : chan (with_chan s p q t l) p q t = l.
Proof. cbn. rewrite !Z.eqb_refl. reflexivity. Qed.
Lemma chan_other s p q t l p' q' t' : (p', q', t') <> (p, q, t) -> chan (with_chan s p q t l) p' q' t' = chan s p' q' t'.
Proof. intros N. cbn. destruct (Z.eqb_spec p' p), (Z.eqb_spec q' q), (Z.eqb_spec t' t); cbn [andb]; try reflexivity. subst. contradiction. Qed.

Lemma start_inv : inv start_state.
Proof.
  constructor; cbn [start_state at_ chan started outbox inbox log]; [|intros p q t k vs Ip Iq []|reflexivity|reflexivity].
  intros p Ip. constructor; cbn [todo started phase own copies outbox inbox log]; [|reflexivity|exists [], false|intros k e []|intros k e []|intros k e []|intros k L; lia|].
  - split; [reflexivity|lia].
  - split; [apply Hcare; assumption|]. split; [discriminate|intros k e [[]|[]]].
  - intros c. split; [reflexivity|intros k q t cs []].
Qed.
Lemma skipn_next {T} n : forall (l : list T) a r, skipn n l = a :: r -> skipn (S n) l = r /\ nth_error l n = Some a.
Proof. induction n as [|n IH]; intros [|b l] a r E; cbn [skipn] in E; try discriminate; [injection E as -> ->; split; reflexivity|apply IH; assumption]. Qed.
(** the update that a process starts next *)
Lemma next_update p a id l : good p a -> In p procs -> todo a = Start id :: l ->
  nth_error (updates p) (started a) = Some (id, phase a, own a) /\ nth_error plan (started a) = Some (id, phase a) /\
  skipn (S (started a)) (updates p) = trace p l (own a) (S (started a)) (phase a) /\ S (started a) <= length plan.
Proof.
  intros H Ip E. destruct (i_trace p a H) as [T L]. rewrite E in T. cbn [trace] in T. destruct (skipn_next _ _ _ _ T) as [A B].
  split; [assumption|]. assert (nth_error plan (started a) = Some (id, phase a)) as C by (rewrite <- (updates_plan p Ip), nth_error_map, B; reflexivity). split; [assumption|]. split; [assumption|].
  assert (started a < length plan) by (apply nth_error_Some; congruence). lia.
Qed.
Lemma used_id k p a : good p a -> k < started a -> used (id_of k).
Proof.
  intros H L. destruct (i_trace p a H) as [_ L']. unfold id_of. destruct (nth_error plan k) as [[id ph]|] eqn:E; [apply (plan_used k id ph E)|]. apply nth_error_None in E. lia.
Qed.
(** a cell sent in an update has the same data at the start of later updates in the same phase *)
Lemma same_phase p k k' e c : In p procs -> k <= k' -> k' < length plan -> phase_of k = phase_of k' -> In e (sends (id_of k) p) -> In c (snd e) -> at_start p k c = at_start p k' c.
Proof.
  intros Ip L L' P Ie Ic. unfold at_start. pose proof (updates_plan p Ip) as U.
  destruct (nth_error (updates p) k) as [[[id ph] d]|] eqn:A; [|apply nth_error_None in A; apply (f_equal (@length _)) in U; rewrite map_length in U; lia].
  destruct (nth_error (updates p) k') as [[[id' ph'] d']|] eqn:B; [|apply nth_error_None in B; apply (f_equal (@length _)) in U; rewrite map_length in U; lia].
  unfold id_of, phase_of in *. rewrite <- U, !nth_error_map, A, B in P. rewrite <- U, nth_error_map, A in Ie. cbn [option_map fst snd] in P, Ie. subst ph'.
  apply (kept p (script p) [] false (own0 p) 0 0 k k' id id' ph d d' e c (Hcare p Ip) L A B Ie Ic).
Qed.

Lemma good_start p a id l : In p procs -> good p a -> todo a = Start id :: l ->
  good p (Local l (S (started a)) (phase a) (own a) (copies a) (outbox a ++ numbered (started a) (sends id p)) (inbox a ++ numbered (started a) (recvs id p)) (log a)).
Proof.
  intros Ip H E. destruct (next_update p a id l H Ip E) as (A & B & C & L).
  assert (id_of (started a) = id) as EI by (unfold id_of; rewrite B; reflexivity). assert (phase_of (started a) = phase a) as EP by (unfold phase_of; rewrite B; reflexivity).
  constructor; cbn [todo started phase own copies outbox inbox log].
  - split; assumption.
  - rewrite <- (i_results p a H), E. reflexivity.
  - destruct (i_care p a H) as (busy & w & K & _ & K'). rewrite E in K. cbn [careful] in K. exists (id :: busy), false. split; [assumption|]. split; [discriminate|].
    intros k e I. rewrite !in_app_iff in I. assert ((In (k, e) (outbox a) \/ In (k, e) (inbox a)) \/ (In (k, e) (numbered (started a) (sends id p)) \/ In (k, e) (numbered (started a) (recvs id p)))) as [J|J] by tauto; [right; apply (K' k e J)|]. left. rewrite <- EI. f_equal.
    destruct J as [J|J]; apply in_map_iff in J; destruct J as (x & Q & _); congruence.
  - intros k e I. apply in_app_or in I. destruct I as [I|I]; [destruct (i_out p a H k e I) as (X & Y & Z); split; [lia|auto]|]. apply in_map_iff in I. destruct I as (x & Q & I). injection Q as <- ->. rewrite EI. split; [lia|]. split; [assumption|].
    intros c _. unfold at_start. rewrite A. reflexivity.
  - intros k e I. apply in_app_or in I. destruct I as [I|I]; [destruct (i_in p a H k e I) as (X & Y & Z); split; [lia|auto]|]. apply in_map_iff in I. destruct I as (x & Q & I). injection Q as <- ->. rewrite EI, EP. split; [lia|]. split; [assumption|reflexivity].
  - intros k e I. destruct (i_log p a H k e I) as (X & Y). split; [lia|assumption].
  - intros k Lk. destruct (Nat.eq_dec k (started a)) as [->|N]; [rewrite EP; lia|]. apply (i_phase p a H k). lia.
  - exact (i_copies p a H).
Qed.
Lemma good_write p a c rs cs f l : In p procs -> good p a -> todo a = Compute c rs cs f :: l -> (forall x, In x cs -> copies a x = ref_copies (started a) p x) ->
  good p (Local l (started a) (phase a) (upd (own a) c (value rs cs f (own a) (copies a))) (copies a) (outbox a) (inbox a) (log a)).
Proof.
  intros Ip H E V. assert (value rs cs f (own a) (copies a) = value rs cs f (own a) (ref_copies (started a) p)) as EV by (unfold value; f_equal; apply map_ext_in; assumption).
  constructor; cbn [todo started phase own copies outbox inbox log].
  - destruct (i_trace p a H) as [T L]. rewrite E in T. rewrite EV. split; assumption.
  - rewrite <- (i_results p a H), E, EV. reflexivity.
  - destruct (i_care p a H) as (busy & w & K & K1 & K2). rewrite E in K. destruct K as (_ & _ & K). exists busy, w. auto.
  - intros k e I. destruct (i_out p a H k e I) as (X & Y & Z). split; [assumption|]. split; [assumption|]. intros x Ix. unfold upd. destruct (Z.eqb_spec x c) as [->|]; [|auto].
    destruct (i_care p a H) as (busy & w & K & _ & K2). rewrite E in K. destruct K as [K _]. destruct (K (id_of k) e (K2 k e (or_introl I)) Y Ix).
  - exact (i_in p a H).
  - exact (i_log p a H).
  - exact (i_phase p a H).
  - exact (i_copies p a H).
Qed.
Lemma good_waitr p a l : In p procs -> good p a -> todo a = WaitR :: l -> inbox a = [] ->
  good p (Local l (started a) (phase a) (own a) (copies a) (outbox a) [] (log a)).
Proof.
  intros Ip H E EI. constructor; cbn [todo started phase own copies outbox inbox log].
  - destruct (i_trace p a H) as [T L]. rewrite E in T. split; assumption.
  - rewrite <- (i_results p a H), E. reflexivity.
  - destruct (i_care p a H) as (busy & w & K & K1 & K2). rewrite E in K. exists busy, true. split; [assumption|]. split; [reflexivity|]. intros k e [I|[]]. apply (K2 k e). left. assumption.
  - exact (i_out p a H).
  - intros k e [].
  - exact (i_log p a H).
  - exact (i_phase p a H).
  - exact (i_copies p a H).
Qed.
Lemma good_waits p a l : In p procs -> good p a -> todo a = WaitS :: l -> outbox a = [] ->
  good p (Local l (started a) (S (phase a)) (own a) (copies a) [] (inbox a) (log a)).
Proof.
  intros Ip H E EO. destruct (i_care p a H) as (busy & w & K & K1 & K2). rewrite E in K. destruct K as [-> K]. specialize (K1 eq_refl). constructor; cbn [todo started phase own copies outbox inbox log].
  - destruct (i_trace p a H) as [T L]. rewrite E in T. split; assumption.
  - rewrite <- (i_results p a H), E. reflexivity.
  - exists [], false. split; [assumption|]. split; [discriminate|]. rewrite K1. intros k e [[]|[]].
  - intros k e [].
  - rewrite K1. intros k e [].
  - exact (i_log p a H).
  - intros k L. pose proof (i_phase p a H k L). lia.
  - exact (i_copies p a H).
Qed.
Lemma in_less {T} (l1 : list T) x l2 y : In y (l1 ++ l2) -> In y (l1 ++ x :: l2).
Proof. rewrite !in_app_iff. cbn [In]. tauto. Qed.
Lemma good_send p a x l1 l2 : good p a -> outbox a = l1 ++ x :: l2 ->
  good p (Local (todo a) (started a) (phase a) (own a) (copies a) (l1 ++ l2) (inbox a) (log a)).
Proof.
  intros H E. constructor; cbn [todo started phase own copies outbox inbox log].
  - exact (i_trace p a H).
  - exact (i_results p a H).
  - destruct (i_care p a H) as (busy & w & K & K1 & K2). exists busy, w. split; [assumption|]. split; [assumption|]. intros k e [I|I]; apply (K2 k e); [left; rewrite E; apply in_less; assumption|right; assumption].
  - intros k e I. apply (i_out p a H). rewrite E. apply in_less. assumption.
  - exact (i_in p a H).
  - exact (i_log p a H).
  - exact (i_phase p a H).
  - exact (i_copies p a H).
Qed.
Lemma store_values f cs g c : store f cs (map g cs) c = if in_dec Z.eq_dec c cs then g c else f c.
Proof.
  unfold store. revert f. induction cs as [|x cs IH]; intros f; [reflexivity|]. cbn [map combine fold_left fst snd]. rewrite IH.
  destruct (in_dec Z.eq_dec c cs) as [I|I]; [destruct (in_dec Z.eq_dec c (x :: cs)) as [_|J]; [reflexivity|destruct J; right; assumption]|]. unfold upd. destruct (Z.eqb_spec c x) as [->|N].
  - destruct (in_dec Z.eq_dec x (x :: cs)) as [_|J]; [reflexivity|destruct J; left; reflexivity].
  - destruct (in_dec Z.eq_dec c (x :: cs)) as [[J|J]|_]; [congruence|contradiction|reflexivity].
Qed.
Lemma good_recv p a q t k cs l1 l2 : In p procs -> In q procs -> good p a -> inbox a = l1 ++ (k, ((q, t), cs)) :: l2 ->
  good p (Local (todo a) (started a) (phase a) (own a) (store (copies a) cs (map (at_start q k) cs)) (outbox a) (l1 ++ l2) (log a ++ [(k, ((q, t), cs))])).
Proof.
  intros Ip Iq H E. assert (In (k, ((q, t), cs)) (inbox a)) as I0 by (rewrite E; apply in_or_app; right; left; reflexivity). destruct (i_in p a H _ _ I0) as (X & Y & Z).
  pose proof (used_id k p a H X) as Uk. destruct (i_trace p a H) as [_ Lp].
  constructor; cbn [todo started phase own copies outbox inbox log].
  - exact (i_trace p a H).
  - exact (i_results p a H).
  - destruct (i_care p a H) as (busy & w & K & K1 & K2). exists busy, w. split; [assumption|]. split; [intros W; specialize (K1 W); rewrite K1 in I0; destruct I0|].
    intros k' e [I|I]; apply (K2 k' e); [left; assumption|right; rewrite E; apply in_less; assumption].
  - exact (i_out p a H).
  - intros k' e I. apply (i_in p a H). rewrite E. apply in_less. assumption.
  - intros k' e I. apply in_app_or in I. destruct I as [I|[I|[]]]; [apply (i_log p a H k' e I)|]. injection I as <- <-. split; assumption.
  - exact (i_phase p a H).
  - intros c. rewrite store_values. destruct (i_copies p a H c) as [C1 C2]. split.
    + intros N. destruct (in_dec Z.eq_dec c cs) as [J|J]; [destruct (N k ((q, t), cs)); [apply in_or_app; right; left; reflexivity|assumption]|]. apply C1. intros k' e I. apply N with k'. apply in_or_app. left. assumption.
    + intros k' q' t' cs' I J M. destruct (in_dec Z.eq_dec c cs) as [Jc|Jc].
      * pose proof (M k ((q, t), cs) ltac:(apply in_or_app; right; left; reflexivity) Jc) as L.
        assert (k' < started a /\ In ((q', t'), cs') (recvs (id_of k') p)) as [X' Y'] by (apply in_app_or in I; destruct I as [I|[I|[]]]; [apply (i_log p a H _ _ I)|injection I as <- <- <- <-; split; assumption]).
        assert (q' = q) as -> by (apply (Hsource _ _ _ _ _ _ _ _ _ c (used_id k' p a H X') Uk Ip Y' Y J Jc)).
        apply (same_phase q k k' ((p, t), cs) c Iq L ltac:(lia)); [|apply Hmatch; assumption|assumption].
        pose proof (i_phase p a H k' X') as P1. assert (phase_of k <= phase_of k') as P2; [|lia].
        unfold phase_of. destruct (nth_error plan k) as [[i1 p1]|] eqn:A; [|lia]. destruct (nth_error plan k') as [[i2 p2]|] eqn:B; [|apply nth_error_None in B; lia].
        unfold plan in A, B. rewrite nth_error_map in A, B. destruct (nth_error (trace 0%Z skeleton (fun _ => None) 0 0) k) as [a1|] eqn:A'; [|discriminate]. destruct (nth_error (trace 0%Z skeleton (fun _ => None) 0 0) k') as [a2|] eqn:B'; [|discriminate].
        pose proof (trace_mono _ _ _ _ _ _ _ _ _ L A' B') as G. cbn [option_map] in A, B. injection A as A. injection B as B. rewrite A, B in G. exact G.
      * apply in_app_or in I. destruct I as [I|[I|[]]]; [|injection I as <- <- <- <-; contradiction]. apply (C2 k' q' t' cs' I J). intros k2 e2 I2 J2. apply (M k2 e2); [apply in_or_app; left; assumption|assumption].
Qed.

Lemma series_nodup p q t n : NoDup (series p q t n).
Proof. apply NoDup_filter, seq_NoDup. Qed.
Lemma in_series p q t n k : In k (series p q t n) <-> k < n /\ has_port (q, t) (map fst (sends (id_of k) p)) = true.
Proof. unfold series. rewrite filter_In, in_seq. intuition lia. Qed.
Lemma port_cells {A} (l : list (port * A)) e a b : NoDup (map fst l) -> In (e, a) l -> In (e, b) l -> a = b.
Proof.
  induction l as [|[x y] l IH]; cbn [map fst]; intros N I J; [destruct I|]. apply NoDup_cons_iff in N. destruct N as [N1 N2]. destruct I as [I|I], J as [J|J].
  - congruence.
  - injection I as -> ->. destruct N1. apply in_map_iff. exists (e, b). split; [reflexivity|assumption].
  - injection J as -> ->. destruct N1. apply in_map_iff. exists (e, a). split; [reflexivity|assumption].
  - apply (IH N2 I J).
Qed.
Lemma same_ports id p q t : used id -> In p procs -> In q procs -> has_port (p, t) (map fst (recvs id q)) = has_port (q, t) (map fst (sends id p)).
Proof.
  intros U Ip Iq. unfold has_port. destruct (in_dec port_dec (p, t) (map fst (recvs id q))) as [I|I], (in_dec port_dec (q, t) (map fst (sends id p))) as [J|J]; try reflexivity; exfalso.
  - apply J. apply in_map_iff in I. destruct I as ([x cs] & E & I). cbn [fst] in E. subst x. apply in_map_iff. exists ((q, t), cs). split; [reflexivity|]. apply Hmatch; assumption.
  - apply I. apply in_map_iff in J. destruct J as ([x cs] & E & J). cbn [fst] in E. subst x. apply in_map_iff. exists ((p, t), cs). split; [reflexivity|]. apply Hmatch; assumption.
Qed.
Lemma triple_dec (a b : Z * Z * Z) : {a = b} + {a <> b}.
Proof. repeat decide equality. Qed.
(** messages and receives with the same source, destination and tag pair up *)
Lemma heads_agree s p q t k k' l l' : inv s -> In p procs -> In q procs -> on (q, t) (inbox (at_ s p)) = k :: l -> map fst (chan s q p t) = k' :: l' -> k = k'.
Proof.
  intros H Ip Iq A B. pose proof (i_sent s H q p t Iq Ip) as S1. pose proof (i_rcvd s H q p t Iq Ip) as S2. rewrite A in S2. rewrite B in S1. cbn [app] in S1.
  destruct (Nat.le_ge_cases (started (at_ s p)) (started (at_ s q))) as [L|L]; destruct (series_prefix q p t _ _ L) as [r E].
  - rewrite S1, S2, <- app_assoc in E. apply app_inv_head in E. cbn [app] in E. congruence.
  - rewrite S1, S2, <- app_assoc in E. apply app_inv_head in E. cbn [app] in E. congruence.
Qed.

(** ** The reference *)
Lemma source_some id q c p : source id q c = Some p -> exists t cs, In ((p, t), cs) (recvs id q) /\ In c cs.
Proof.
  unfold source. destruct (List.find _ (recvs id q)) as [[[p' t] cs]|] eqn:E; [|discriminate]. cbn [option_map fst]. intros Q. injection Q as <-. apply find_some in E. destruct E as [I E]. cbn [snd] in E.
  exists t, cs. split; [assumption|]. destruct (in_dec Z.eq_dec c cs); [assumption|discriminate].
Qed.
Lemma source_none id q c e : source id q c = None -> In e (recvs id q) -> ~ In c (snd e).
Proof.
  unfold source. destruct (List.find _ (recvs id q)) as [x|] eqn:E; [discriminate|]. intros _ I J. pose proof (find_none _ _ E e I) as N. cbn beta in N. destruct (in_dec Z.eq_dec c (snd e)); [discriminate|contradiction].
Qed.
Lemma advance_trace p n l : forall d ph,
  (fst (advance l d (ref_copies n p)) = [] /\ trace p l d n ph = [] /\ results p l d n = snd (advance l d (ref_copies n p))) \/
  (exists id l2 ph', fst (advance l d (ref_copies n p)) = Start id :: l2 /\ trace p l d n ph = (id, ph', snd (advance l d (ref_copies n p))) :: trace p l2 (snd (advance l d (ref_copies n p))) (S n) ph' /\
     results p l d n = results p l2 (snd (advance l d (ref_copies n p))) (S n)).
Proof.
  induction l as [|[id| | |c rs cs f] l IH]; intros d ph; cbn [advance trace results]; [left; auto|right; exists id, l, ph; auto|apply IH|apply IH|apply IH].
Qed.
Lemma sync_S n : sync (S n) = (fun p => (tl (fst (advance (fst (fst (sync n) p)) (snd (fst (sync n) p)) (ref_copies n p))), ref_own n p),
  fun q c => match fst (advance (fst (fst (sync n) q)) (snd (fst (sync n) q)) (ref_copies n q)) with Start id :: _ => match source id q c with Some p => ref_own n p c | None => ref_copies n q c end | _ => ref_copies n q c end).
Proof. unfold ref_own, ref_copies. cbn [sync]. destruct (sync n) as [st cop]. reflexivity. Qed.
Lemma sync_trace p : In p procs -> forall n, n <= length plan -> exists ph,
  skipn n (updates p) = trace p (fst (fst (sync n) p)) (snd (fst (sync n) p)) n ph /\ results p (fst (fst (sync n) p)) (snd (fst (sync n) p)) n = results p (script p) (own0 p) 0.
Proof.
  intros Ip. induction n as [|n IH]; intros L; [exists 0; split; reflexivity|]. destruct (IH ltac:(lia)) as (ph & T & R). rewrite sync_S. cbn [fst snd]. fold (ref_own n p).
  destruct (advance_trace p n (fst (fst (sync n) p)) (snd (fst (sync n) p)) ph) as [(_ & E & _)|(id & l2 & ph' & E1 & E2 & E3)].
  - exfalso. rewrite E in T. apply (f_equal (@length _)) in T. rewrite skipn_length in T. pose proof (updates_plan p Ip) as U. apply (f_equal (@length _)) in U. rewrite map_length in U. cbn [length] in T. lia.
  - rewrite E1. cbn [tl]. rewrite E2 in T. apply skipn_next in T. destruct T as [T _]. exists ph'. split; [exact T|]. rewrite <- R, E3. reflexivity.
Qed.
Lemma sync_start p n : In p procs -> n < length plan -> (forall c, at_start p n c = ref_own n p c) /\ exists l, fst (advance (fst (fst (sync n) p)) (snd (fst (sync n) p)) (ref_copies n p)) = Start (id_of n) :: l.
Proof.
  intros Ip L. destruct (sync_trace p Ip n ltac:(lia)) as (ph & T & _). pose proof (updates_plan p Ip) as U.
  destruct (advance_trace p n (fst (fst (sync n) p)) (snd (fst (sync n) p)) ph) as [(_ & E & _)|(id & l2 & ph' & E1 & E2 & _)].
  - exfalso. rewrite E in T. apply (f_equal (@length _)) in T. rewrite skipn_length in T. apply (f_equal (@length _)) in U. rewrite map_length in U. cbn [length] in T. lia.
  - rewrite E2 in T. apply skipn_next in T. destruct T as [_ T]. split; [intros c; unfold at_start; rewrite T; reflexivity|]. exists l2. rewrite E1. f_equal. f_equal. unfold id_of. rewrite <- U, nth_error_map, T. reflexivity.
Qed.
(** the copies after the n-th update *)
Lemma ref_copies_S q n c : In q procs -> n < length plan ->
  ref_copies (S n) q c = match source (id_of n) q c with Some p => at_start p n c | None => ref_copies n q c end.
Proof.
  intros Iq L. unfold ref_copies at 1. rewrite sync_S. cbn [snd]. destruct (sync_start q n Iq L) as (_ & l & E). rewrite E. destruct (source (id_of n) q c) as [p|] eqn:ES; [|reflexivity].
  apply source_some in ES. destruct ES as (t & cs & I & _). assert (used (id_of n)) as U by (unfold id_of; destruct (nth_error plan n) as [[id ph]|] eqn:EN; [apply (plan_used n id ph EN)|apply nth_error_None in EN; lia]).
  destruct (Hports _ q U Iq) as (_ & _ & _ & HP). pose proof (HP _ I) as Ip. cbn [fst] in Ip. symmetry. apply (sync_start p n Ip L).
Qed.
Lemma ref_last q c n : In q procs -> n <= length plan ->
  ((forall k, k < n -> source (id_of k) q c = None) /\ ref_copies n q c = copies0 q c) \/
  exists k p, k < n /\ source (id_of k) q c = Some p /\ (forall k', k < k' -> k' < n -> source (id_of k') q c = None) /\ ref_copies n q c = at_start p k c.
Proof.
  intros Iq. induction n as [|n IH]; intros L; [left; split; [intros k Lk; lia|reflexivity]|]. rewrite (ref_copies_S q n c Iq L). destruct (source (id_of n) q c) as [p|] eqn:E.
  - right. exists n, p. split; [lia|]. split; [assumption|]. split; [intros k' A B; lia|reflexivity].
  - destruct (IH ltac:(lia)) as [(N & R)|(k & p & Lk & Es & N & R)]; [left|right; exists k, p].
    + split; [|assumption]. intros k Lk. destruct (Nat.eq_dec k n) as [->|]; [assumption|apply N; lia].
    + split; [lia|]. split; [assumption|]. split; [|assumption]. intros k' A B. destruct (Nat.eq_dec k' n) as [->|]; [assumption|apply N; lia].
Qed.
(** copies that are not being received *)
Lemma settled s q c : inv s -> In q procs -> (forall k e, In (k, e) (inbox (at_ s q)) -> ~ In c (snd e)) -> copies (at_ s q) c = ref_copies (started (at_ s q)) q c.
Proof.
  intros H Iq N. pose proof (i_good s H q Iq) as G. destruct (i_trace q _ G) as [_ Lp]. destruct (i_copies q _ G c) as [C1 C2].
  destruct (ref_last q c (started (at_ s q)) Iq Lp) as [(Nn & ->)|(k & p & L & Es & Nl & ->)].
  - apply C1. intros k e I. destruct (i_log q _ G k e I) as [Lk Y]. apply (source_none _ _ _ _ (Nn k Lk) Y).
  - apply source_some in Es. destruct Es as (t & cs & Y & J). pose proof (used_id k q _ G L) as U. destruct (Hports _ q U Iq) as (_ & NR & _ & HP). pose proof (HP _ Y) as Ip. cbn [fst] in Ip.
    assert (forall box, In k (on (p, t) box) -> (forall k' e', In (k', e') box -> In e' (recvs (id_of k') q)) -> In (k, ((p, t), cs)) box) as Find.
    { intros box I A. unfold on in I. apply in_map_iff in I. destruct I as ([k2 [e cs2]] & E & I). cbn [fst] in E. subst k2. apply filter_In in I. destruct I as [I E]. cbn [fst snd] in E. destruct (port_dec e (p, t)) as [->|]; [|discriminate].
      pose proof (A _ _ I) as Y'. assert (cs2 = cs) as -> by (apply (port_cells _ _ _ _ NR Y' Y)). assumption. }
    assert (In (k, ((p, t), cs)) (log (at_ s q))) as I.
    { assert (In k (series p q t (started (at_ s q)))) as Is.
      { apply in_series. split; [assumption|]. rewrite <- (same_ports _ p q t U Ip Iq). unfold has_port. destruct (in_dec port_dec (p, t) (map fst (recvs (id_of k) q))) as [_|X]; [reflexivity|]. destruct X. apply in_map_iff. exists ((p, t), cs). split; [reflexivity|assumption]. }
      rewrite (i_rcvd s H p q t Ip Iq) in Is. apply in_app_or in Is. destruct Is as [Is|Is]; [apply (Find _ Is); intros k' e' I'; apply (i_log q _ G k' e' I')|].
      exfalso. apply (N k ((p, t), cs)); [apply (Find _ Is); intros k' e' I'; apply (i_in q _ G k' e' I')|assumption]. }
    apply (C2 k p t cs I J). intros k' e' I' J'. destruct (i_log q _ G _ _ I') as [L' Y2]. destruct (Nat.le_gt_cases k' k) as [|Lt]; [assumption|]. destruct (source_none _ _ _ _ (Nl k' Lt L') Y2 J').
Qed.

Lemma step_inv s s' : inv s -> step s s' -> inv s'.
Proof.
  intros H St. destruct St as [s p id l Ip E|s p c rs ws f l Ip E|s p l Ip E EI|s p l Ip E EO|s p q t k cs l1 l2 Ip E N|s p q t k cs l1 l2 k' vs l Ip E N EC].
  - pose proof (i_good s H p Ip) as G. destruct (next_update p _ id l G Ip E) as (_ & B & _ & L).
    assert (id_of (started (at_ s p)) = id) as EI by (unfold id_of; rewrite B; reflexivity). pose proof (plan_used _ _ _ B) as U.
    destruct (Hports id p U Ip) as (N1 & N2 & _ & _).
    constructor.
    + intros q Iq. destruct (Z.eq_dec q p) as [->|Nq]; [rewrite at_same; apply good_start; assumption|rewrite at_other by assumption; apply (i_good s H q Iq)].
    + exact (i_chan s H).
    + intros q r t Iq Ir. change (chan (with_local s p _) q r t) with (chan s q r t).
      assert (forall x, log (at_ (with_local s p (let a := at_ s p in Local l (S (started a)) (phase a) (own a) (copies a) (outbox a ++ numbered (started a) (sends id p)) (inbox a ++ numbered (started a) (recvs id p)) (log a))) x) = log (at_ s x)) as EL
        by (intros x; destruct (Z.eq_dec x p) as [->|Nx]; [rewrite at_same|rewrite at_other by assumption]; reflexivity).
      rewrite EL. destruct (Z.eq_dec q p) as [->|Nq]; [rewrite at_same; cbn [started outbox]|rewrite at_other by assumption; apply (i_sent s H q r t Iq Ir)].
      rewrite series_S, on_app, (i_sent s H p r t Ip Ir), EI, on_numbered, <- !app_assoc by assumption. reflexivity.
    + intros q r t Iq Ir. destruct (Z.eq_dec r p) as [->|Nr]; [rewrite at_same; cbn [started inbox log]|rewrite at_other by assumption; apply (i_rcvd s H q r t Iq Ir)].
      rewrite series_S, on_app, (i_rcvd s H q p t Iq Ip), EI, on_numbered, same_ports, <- !app_assoc by assumption. reflexivity.
  - constructor.
    + intros q Iq. destruct (Z.eq_dec q p) as [->|Nq]; [rewrite at_same; apply good_write; [assumption|apply (i_good s H p Ip)|assumption|]|rewrite at_other by assumption; apply (i_good s H q Iq)].
      intros x Ix. apply (settled s p x H Ip). intros k e I. destruct (i_care p _ (i_good s H p Ip)) as (busy & w & K & K1 & K2). rewrite E in K. destruct K as (_ & K & _). destruct (K x Ix) as [W|W].
      * rewrite (K1 W) in I. destruct I.
      * apply (W (id_of k) e); [apply (K2 k e); right; assumption|]. apply (i_in p _ (i_good s H p Ip) k e I).
    + exact (i_chan s H).
    + intros q r t Iq Ir. pose proof (i_sent s H q r t Iq Ir) as Q. cbn [with_local at_ chan]. destruct (Z.eqb_spec q p) as [->|], (Z.eqb_spec r p) as [->|]; exact Q.
    + intros q r t Iq Ir. pose proof (i_rcvd s H q r t Iq Ir) as Q. cbn [with_local at_ chan]. destruct (Z.eqb_spec r p) as [->|]; exact Q.
  - constructor.
    + intros q Iq. destruct (Z.eq_dec q p) as [->|Nq]; [rewrite at_same; apply good_waitr; [assumption|apply (i_good s H p Ip)|assumption|assumption]|rewrite at_other by assumption; apply (i_good s H q Iq)].
    + exact (i_chan s H).
    + intros q r t Iq Ir. pose proof (i_sent s H q r t Iq Ir) as Q. cbn [with_local at_ chan]. destruct (Z.eqb_spec q p) as [->|], (Z.eqb_spec r p) as [->|]; exact Q.
    + intros q r t Iq Ir. pose proof (i_rcvd s H q r t Iq Ir) as Q. cbn [with_local at_ chan]. destruct (Z.eqb_spec r p) as [->|]; [rewrite EI in Q|]; exact Q.
  - constructor.
    + intros q Iq. destruct (Z.eq_dec q p) as [->|Nq]; [rewrite at_same; apply good_waits; [assumption|apply (i_good s H p Ip)|assumption|assumption]|rewrite at_other by assumption; apply (i_good s H q Iq)].
    + exact (i_chan s H).
    + intros q r t Iq Ir. pose proof (i_sent s H q r t Iq Ir) as Q. cbn [with_local at_ chan]. destruct (Z.eqb_spec q p) as [->|], (Z.eqb_spec r p) as [->|]; try rewrite EO in Q; exact Q.
    + intros q r t Iq Ir. pose proof (i_rcvd s H q r t Iq Ir) as Q. cbn [with_local at_ chan]. destruct (Z.eqb_spec r p) as [->|]; exact Q.
  - pose proof (i_good s H p Ip) as G. assert (In (k, ((q, t), cs)) (outbox (at_ s p))) as I0 by (rewrite E; apply in_or_app; right; left; reflexivity). destruct (i_out p _ G _ _ I0) as (X & Y & Z).
    constructor.
    + intros r Ir. cbn [with_chan at_]. destruct (Z.eq_dec r p) as [->|Nr]; [rewrite at_same; apply (good_send p _ _ _ _ G E)|rewrite at_other by assumption; apply (i_good s H r Ir)].
    + intros r r' t' k' vs Ir Ir' I. destruct (triple_dec (r, r', t') (p, q, t)) as [Q|Q].
      * injection Q as -> -> ->. rewrite chan_same in I. apply in_app_or in I. destruct I as [I|[I|[]]]; [apply (i_chan s H p q t k' vs Ip Ir' I)|]. injection I as <- <-. exists cs. split; [assumption|].
        apply map_ext_in. assumption.
      * rewrite chan_other in I by assumption. apply (i_chan s H r r' t' k' vs Ir Ir' I).
    + intros r r' t' Ir Ir'.
      assert (forall x, log (at_ (with_local s p (let a := at_ s p in Local (todo a) (started a) (phase a) (own a) (copies a) (l1 ++ l2) (inbox a) (log a))) x) = log (at_ s x)) as EL
        by (intros x; destruct (Z.eq_dec x p) as [->|Nx]; [rewrite at_same|rewrite at_other by assumption]; reflexivity).
      cbn [with_chan at_]. fold (at_ s). rewrite EL. pose proof (i_sent s H r r' t' Ir Ir') as Q0.
      destruct (triple_dec (r, r', t') (p, q, t)) as [Q|Q].
      * injection Q as -> -> ->. rewrite chan_same, at_same. cbn [started outbox]. rewrite Q0, E, !on_app, on_cons_same, (on_none (q, t) l1 N), map_app. cbn [map fst app]. rewrite <- app_assoc. reflexivity.
      * rewrite chan_other by assumption. cbn [with_local chan]. destruct (Z.eq_dec r p) as [->|Nr]; [rewrite at_same; cbn [started outbox]|rewrite at_other by assumption; assumption].
        rewrite Q0, E, !on_app, on_cons_other; [reflexivity|]. cbn [fst]. congruence.
    + intros r r' t' Ir Ir'. pose proof (i_rcvd s H r r' t' Ir Ir') as Q. cbn [with_chan at_ with_local]. destruct (Z.eqb_spec r' p) as [->|]; exact Q.
  - pose proof (i_good s H p Ip) as G. assert (In (k, ((q, t), cs)) (inbox (at_ s p))) as I0 by (rewrite E; apply in_or_app; right; left; reflexivity). destruct (i_in p _ G _ _ I0) as (X & Y & Z).
    pose proof (used_id k p _ G X) as U. destruct (Hports _ p U Ip) as (_ & _ & _ & HP). pose proof (HP _ Y) as Iq. cbn [fst] in Iq.
    assert (k' = k) as ->. { symmetry. apply (heads_agree s p q t k k' (on (q, t) l2) (map fst l) H Ip Iq); [|rewrite EC; reflexivity]. rewrite E, on_app, (on_none _ _ N), on_cons_same. reflexivity. }
    destruct (i_chan s H q p t k vs Iq Ip ltac:(rewrite EC; left; reflexivity)) as (cs' & J & ->).
    destruct (Hports _ q U Iq) as (NS & _). assert (cs' = cs) as -> by (apply (port_cells _ _ _ _ NS J); apply Hmatch; assumption).
    constructor.
    + intros r Ir. cbn [with_chan at_]. destruct (Z.eq_dec r p) as [->|Nr]; [rewrite at_same; apply good_recv; assumption|rewrite at_other by assumption; apply (i_good s H r Ir)].
    + intros r r' t' k' vs Ir Ir' I. destruct (triple_dec (r, r', t') (q, p, t)) as [Q|Q].
      * injection Q as -> -> ->. rewrite chan_same in I. apply (i_chan s H q p t k' vs Ir Ir'). rewrite EC. right. assumption.
      * rewrite chan_other in I by assumption. apply (i_chan s H r r' t' k' vs Ir Ir' I).
    + intros r r' t' Ir Ir'. pose proof (i_sent s H r r' t' Ir Ir') as Q0.
      assert (forall b x, started b = started (at_ s p) -> outbox b = outbox (at_ s p) -> started (at_ (with_local s p b) x) = started (at_ s x) /\ outbox (at_ (with_local s p b) x) = outbox (at_ s x)) as EL
        by (intros b x B1 B2; destruct (Z.eq_dec x p) as [->|Nx]; [rewrite at_same; split; assumption|rewrite at_other by assumption; split; reflexivity]).
      cbn [with_chan at_]. match goal with |- series r r' t' (started (_ (with_local s p ?b) r)) = _ => destruct (EL b r eq_refl eq_refl) as [EL1 EL2] end. rewrite EL1, EL2, Q0.
      destruct (triple_dec (r, r', t') (q, p, t)) as [Q|Q].
      * injection Q as -> -> ->. rewrite chan_same, at_same, EC. cbn [log]. rewrite on_app, on_cons_same. cbn [map fst]. rewrite <- app_assoc. reflexivity.
      * rewrite chan_other by assumption. cbn [with_local chan]. destruct (Z.eq_dec r' p) as [->|Nr]; [rewrite at_same; cbn [log]|rewrite at_other by assumption; reflexivity].
        rewrite on_app, on_cons_other by (cbn [fst]; congruence). unfold on at 4. cbn [filter map]. rewrite app_nil_r. reflexivity.
    + intros r r' t' Ir Ir'. pose proof (i_rcvd s H r r' t' Ir Ir') as Q0. cbn [with_chan at_]. destruct (Z.eq_dec r' p) as [->|Nr]; [rewrite at_same; cbn [started log inbox]|rewrite at_other by assumption; assumption].
      rewrite Q0, E, !on_app. destruct (port_dec (q, t) (r, t')) as [Q|Q].
      * injection Q as <- <-. rewrite (on_none _ _ N), !on_cons_same, <- app_assoc. reflexivity.
      * rewrite !on_cons_other by assumption. unfold on at 5. cbn [filter map]. rewrite app_nil_r. reflexivity.
Qed.
Lemma exec_inv s : execution s -> inv s.
Proof. induction 1; [apply start_inv|eapply step_inv; eassumption]. Qed.

(** ** Results *)
(** Whenever a copy is not being received, it is what it would be if all updates had been made at once. *)
Theorem overlap_copies s q c : execution s -> In q procs -> (forall k e, In (k, e) (inbox (at_ s q)) -> ~ In c (snd e)) -> copies (at_ s q) c = ref_copies (started (at_ s q)) q c.
Proof. intros Ex. apply settled, exec_inv, Ex. Qed.
(** Cells that are being sent have not changed since the start of the update. *)
Theorem overlap_reads s p k e c : execution s -> In p procs -> In (k, e) (outbox (at_ s p)) -> In c (snd e) -> own (at_ s p) c = ref_own k p c.
Proof.
  intros Ex Ip I J. pose proof (i_good s (exec_inv s Ex) p Ip) as G. destruct (i_out p _ G k e I) as (L & _ & V). rewrite (V c J). destruct (i_trace p _ G) as [_ Lp]. apply (sync_start p k Ip). lia.
Qed.

Definition finished (s : global) : Prop := forall p, In p procs -> todo (at_ s p) = [] /\ outbox (at_ s p) = [] /\ inbox (at_ s p) = [] /\ forall q t, In q procs -> chan s p q t = [].
Lemma all_or_some {T} (P : T -> bool) (l : list T) : (forall x, In x l -> P x = true) \/ exists x, In x l /\ P x = false.
Proof.
  induction l as [|a l [IH|(x & I & E)]]; [left; intros x []| |right; exists x; split; [right; assumption|assumption]].
  destruct (P a) eqn:E; [left; intros x [->|I]; auto|right; exists a; split; [left; reflexivity|assumption]].
Qed.
Lemma least {T} (f : T -> nat) (l : list T) : l <> [] -> exists x, In x l /\ forall y, In y l -> f x <= f y.
Proof.
  induction l as [|a l IH]; [contradiction|]. intros _. destruct l as [|b l]; [exists a; split; [left; reflexivity|intros y [->|[]]; lia]|]. destruct IH as (x & I & M); [discriminate|].
  destruct (Nat.le_gt_cases (f a) (f x)); [exists a; split; [left; reflexivity|]|exists x; split; [right; assumption|]]; (intros y [->|J]; [lia|specialize (M y J); lia]).
Qed.
(** No deadlock: some process can go on until all have finished and nothing is left on the way. *)
Theorem overlap_progress s : execution s -> finished s \/ exists s', step s s'.
Proof.
  intros Ex. pose proof (exec_inv s Ex) as H.
  destruct (all_or_some (fun p => match outbox (at_ s p) with [] => true | _ => false end) procs) as [Out|(p & Ip & E)].
  2: { right. destruct (outbox (at_ s p)) as [|[k [[q t] cs]] l] eqn:EO; [discriminate|]. eexists. eapply (step_send s p q t k cs [] l Ip EO). intros []. }
  assert (forall p, In p procs -> outbox (at_ s p) = []) as Out' by (intros p Ip; specialize (Out p Ip); cbn beta in Out; destruct (outbox (at_ s p)); [reflexivity|discriminate]). clear Out.
  destruct (all_or_some (fun p => match todo (at_ s p) with [] | WaitR :: _ => true | _ => false end) procs) as [To|(p & Ip & E)].
  2: { right. destruct (todo (at_ s p)) as [|[id| | |c rs cs f] l] eqn:ET; try discriminate; eexists; [apply (step_start s p id l Ip ET)|apply (step_waits s p l Ip ET (Out' p Ip))|apply (step_write s p c rs cs f l Ip ET)]. }
  assert (procs = [] \/ procs <> []) as [EP|NP] by (clear; destruct procs; [left; reflexivity|right; discriminate]).
  { left. intros p Ip. rewrite EP in Ip. destruct Ip. }
  destruct (least (fun p => started (at_ s p)) procs NP) as (m & Im & Mm).
  (* a process with the least number of updates started can receive what it waits for *)
  assert (forall p, In p procs -> (forall q, In q procs -> started (at_ s p) <= started (at_ s q)) -> inbox (at_ s p) <> [] -> exists s', step s s') as Recv.
  { intros p Ip Mp NE. destruct (inbox (at_ s p)) as [|[k [[q t] cs]] l] eqn:EB; [contradiction|]. pose proof (i_good s H p Ip) as G. destruct (i_in p _ G k ((q, t), cs) ltac:(rewrite EB; left; reflexivity)) as (X & Y & _).
    pose proof (used_id k p _ G X) as U. destruct (Hports _ p U Ip) as (_ & _ & _ & HP). pose proof (HP _ Y) as Iq. cbn [fst] in Iq.
    destruct (chan s q p t) as [|[k' vs] l'] eqn:EC; [|eexists; apply (step_recv s p q t k cs [] l k' vs l' Ip EB ltac:(intros []) EC)]. exfalso.
    pose proof (i_sent s H q p t Iq Ip) as S1. pose proof (i_rcvd s H q p t Iq Ip) as S2. rewrite EC, (Out' q Iq) in S1. unfold on at 2 in S1. cbn [filter map app] in S1. rewrite app_nil_r in S1. rewrite EB, on_cons_same in S2.
    assert (In k (series q p t (started (at_ s p)))) as I1 by (rewrite S2; apply in_or_app; right; left; reflexivity).
    assert (~ In k (on (q, t) (log (at_ s p)))) as I2. { pose proof (series_nodup q p t (started (at_ s p))) as ND. rewrite S2 in ND. apply NoDup_remove_2 in ND. intros I. apply ND. apply in_or_app. left. assumption. }
    apply I2. rewrite <- S1. apply in_series. apply in_series in I1. specialize (Mp q Iq). split; [lia|tauto]. }
  destruct (list_eq_dec Nat.eq_dec (map fst (inbox (at_ s m))) []) as [EB|EB].
  2: { right. apply (Recv m Im Mm). intros Q. rewrite Q in EB. contradiction. }
  apply map_eq_nil in EB. pose proof (To m Im) as Tm. cbn beta in Tm. destruct (todo (at_ s m)) as [|[id| | |c rs cs f] l] eqn:ET; try discriminate; [|right; eexists; apply (step_waitr s m l Im ET EB)].
  assert (forall p, In p procs -> started (at_ s p) = length plan) as All.
  { intros p Ip. destruct (i_trace m _ (i_good s H m Im)) as [T _]. rewrite ET in T. cbn [trace] in T. apply (f_equal (@length _)) in T. rewrite skipn_length in T. cbn [length] in T.
    pose proof (updates_plan m Im) as U. apply (f_equal (@length _)) in U. rewrite map_length in U. destruct (i_trace p _ (i_good s H p Ip)) as [_ L]. specialize (Mm p Ip). cbn beta in Mm. lia. }
  destruct (all_or_some (fun p => match inbox (at_ s p) with [] => true | _ => false end) procs) as [In_|(p & Ip & E)].
  2: { right. apply (Recv p Ip); [|intros Q; rewrite Q in E; discriminate]. intros q Iq. rewrite !All by assumption. lia. }
  assert (forall p, In p procs -> inbox (at_ s p) = []) as In' by (intros p Ip; specialize (In_ p Ip); cbn beta in In_; destruct (inbox (at_ s p)); [reflexivity|discriminate]). clear In_.
  destruct (all_or_some (fun p => match todo (at_ s p) with [] => true | _ => false end) procs) as [To'|(p & Ip & E)].
  2: { right. pose proof (To p Ip) as Tp. cbn beta in Tp. destruct (todo (at_ s p)) as [|[id| | |c rs cs f] l] eqn:ETp; try discriminate. eexists. apply (step_waitr s p l Ip ETp (In' p Ip)). }
  left. intros p Ip. split; [specialize (To' p Ip); cbn beta in To'; destruct (todo (at_ s p)); [reflexivity|discriminate]|]. split; [auto|]. split; [auto|]. intros q t Iq.
  pose proof (i_sent s H p q t Ip Iq) as S1. pose proof (i_rcvd s H p q t Ip Iq) as S2. rewrite All in S1, S2 by assumption. rewrite (In' q Iq) in S2. rewrite S2, (Out' p Ip) in S1. unfold on at 2 4 in S1. cbn [filter map] in S1. rewrite !app_nil_r in S1.
  rewrite <- (app_nil_r (on (p, t) (log (at_ s q)))) in S1 at 1. apply app_inv_head in S1. symmetry in S1. apply map_eq_nil in S1. assumption.
Qed.
(** All executions take the same number of steps. *)
Definition work (p : Z) (o : op) : nat := match o with Start id => S (length (sends id p) + length (recvs id p)) | _ => 1 end.
Definition left_of (p : Z) (a : local) : nat := list_sum (map (work p) (todo a)) + length (outbox a) + length (inbox a).
Definition left_over (s : global) : nat := list_sum (map (fun p => left_of p (at_ s p)) procs).
Lemma sum_change (f f' : Z -> nat) p l : NoDup l -> In p l -> (forall q, q <> p -> f' q = f q) -> f p = S (f' p) -> list_sum (map f l) = S (list_sum (map f' l)).
Proof.
  intros N I O E. induction l as [|a l IH]; [destruct I|]. apply NoDup_cons_iff in N. destruct N as [N1 N2]. cbn [map list_sum fold_right]. fold (list_sum (map f l)) (list_sum (map f' l)). destruct (Z.eq_dec a p) as [->|Na].
  - rewrite E. rewrite (map_ext_in f f' l); [lia|]. intros q Iq. symmetry. apply O. intros ->. contradiction.
  - destruct I as [I|I]; [congruence|]. rewrite (O a Na), (IH N2 I). lia.
Qed.
Theorem overlap_steps s s' : NoDup procs -> step s s' -> left_over s = S (left_over s').
Proof.
  intros N St. unfold left_over.
  destruct St as [s r id l Ir E|s r c rs ws f l Ir E|s r l Ir E EI|s r l Ir E EO|s r q t k cs l1 l2 Ir E E2|s r q t k cs l1 l2 k' vs l Ir E E2 EC]; (eapply (sum_change _ _ r); [assumption|assumption|intros q' Nq; cbn [with_chan with_local at_]; destruct (Z.eqb_spec q' r); [contradiction|reflexivity]|]);
    cbn [with_chan with_local at_]; rewrite Z.eqb_refl; unfold left_of; cbn [todo outbox inbox]; rewrite E; unfold numbered; rewrite ?app_length, ?map_length; cbn [map list_sum fold_right length work]; unfold list_sum; rewrite ?EI, ?EO; cbn [length]; lia.
Qed.
Inductive steps : global -> nat -> global -> Prop :=
| steps_none s : steps s 0 s
| steps_more s s1 n s2 : step s s1 -> steps s1 n s2 -> steps s (S n) s2.
(** From any point every way to go on ends, after the same number of steps, with all processes finished. *)
Lemma finished_left s : finished s -> left_over s = 0.
Proof.
  intros F. unfold left_over. assert (forall l, (forall p, In p l -> In p procs) -> list_sum (map (fun p => left_of p (at_ s p)) l) = 0) as Q; [|apply Q; auto].
  induction l as [|p l IH]; intros A; [reflexivity|]. cbn [map list_sum fold_right]. fold (list_sum (map (fun p => left_of p (at_ s p)) l)). rewrite IH by (intros x I; apply A; right; assumption).
  destruct (F p (A p (or_introl eq_refl))) as (E1 & E2 & E3 & _). unfold left_of. rewrite E1, E2, E3. reflexivity.
Qed.
Lemma steps_execution s n s' : execution s -> steps s n s' -> execution s'.
Proof. intros Ex St. induction St as [s|s s1 n s2 A St IH]; [assumption|]. apply IH. eapply exec_step; eassumption. Qed.
Lemma steps_count s n s' : NoDup procs -> steps s n s' -> n + left_over s' = left_over s.
Proof. intros N St. induction St as [s|s s1 n s2 A St IH]; [reflexivity|]. rewrite (overlap_steps s s1 N A). lia. Qed.
Theorem overlap_finishes s : NoDup procs -> execution s ->
  (forall n s', steps s n s' -> n <= left_over s /\ (finished s' <-> n = left_over s)) /\ exists s', steps s (left_over s) s' /\ finished s'.
Proof.
  intros N Ex. assert (forall n s', steps s n s' -> n <= left_over s /\ (finished s' <-> n = left_over s)) as A.
  { intros n s' St. pose proof (steps_count s n s' N St) as C. split; [lia|]. split; [intros F; pose proof (finished_left s' F); lia|]. intros ->.
    destruct (overlap_progress s' (steps_execution _ _ _ Ex St)) as [F|[s2 St2]]; [assumption|]. pose proof (overlap_steps s' s2 N St2). lia. }
  split; [assumption|]. clear A. remember (left_over s) as n eqn:En. revert s Ex En. induction n as [|n IH]; intros s Ex En.
  - destruct (overlap_progress s Ex) as [F|[s2 St]]; [exists s; split; [constructor|assumption]|]. pose proof (overlap_steps s s2 N St). lia.
  - destruct (overlap_progress s Ex) as [F|[s2 St]]; [pose proof (finished_left s F); lia|]. pose proof (overlap_steps s s2 N St). destruct (IH s2) as (s' & S1 & F); [eapply exec_step; eassumption|lia|].
    exists s'. split; [econstructor; eassumption|assumption].
Qed.
(** At the end every process has what it would have if all updates had been made at once. *)
Theorem overlap_result s p c : execution s -> finished s -> In p procs ->
  own (at_ s p) c = ref_own (length plan) p c /\ copies (at_ s p) c = ref_copies (length plan) p c.
Proof.
  intros Ex F Ip. pose proof (exec_inv s Ex) as H. pose proof (i_good s H p Ip) as G. destruct (F p Ip) as (E1 & _ & E3 & _). destruct (i_trace p _ G) as [T L]. pose proof (i_results p _ G) as R. rewrite E1 in T, R. cbn [trace results] in T, R.
  pose proof (updates_plan p Ip) as U. apply (f_equal (@length _)) in U. rewrite map_length in U.
  assert (started (at_ s p) = length plan) as ES by (apply (f_equal (@length _)) in T; rewrite skipn_length in T; cbn [length] in T; lia). split.
  - rewrite R. destruct (sync_trace p Ip (length plan) (le_n _)) as (ph & T2 & R2). rewrite <- R2. rewrite skipn_all2 in T2 by lia.
    destruct (advance_trace p (length plan) (fst (fst (sync (length plan)) p)) (snd (fst (sync (length plan)) p)) ph) as [(_ & _ & Q)|(id & l2 & ph' & _ & Q & _)]; [|rewrite Q in T2; discriminate]. rewrite Q. reflexivity.
  - rewrite <- ES. apply settled; [assumption|assumption|]. rewrite E3. intros k e [].
Qed.
End Overlap.
