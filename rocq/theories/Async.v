(** Executions of rounds of point-to-point messages.

    In every round a process posts receives and sends for the round, waits for all of them and
    then starts the next one, as dccrg_mpi_support.hpp:294-369 (Some_Reduce) and
    dccrg.hpp:5102-5455 with 10758-11264 (updates of remote neighbors) do.  Messages with the
    same source, destination and tag arrive in the order they were sent, everything else can
    happen in any order: a process sends and receives the messages of its round in any order and
    processes may be in different rounds. *)
From Coq Require Import ZArith Bool List Lia Permutation PeanoNat.
From Verif Require Import Sets.
Import ListNotations.
Local Open Scope nat_scope.

Section Async.
Context {V : Type}.
Notation port := (Z * Z)%type.       (* peer and tag *)
Definition port_dec (a b : port) : {a = b} + {a <> b}.
Proof. decide equality; apply Z.eq_dec. Defined.

Context (procs : list Z) (rounds : nat).
(** messages sent and expected in every round *)
Context (out : Z -> nat -> list (port * V)) (inc : Z -> nat -> list port).

Record local := Local { at_round : nat; tosend : list (port * V); torecv : list port; got : list (port * V); results : list (list (port * V)) }.
Record global := Global { procs_at : Z -> local; chan : Z -> Z -> Z -> list V }.

Definition load (p : Z) (k : nat) : list (port * V) * list port := if Nat.ltb k rounds then (out p k, inc p k) else ([], []).
Definition start_state : global :=
  Global (fun p => Local 0 (fst (load p 0)) (snd (load p 0)) [] []) (fun _ _ _ => []).
Definition at_proc (s : Z -> local) (p : Z) (l : local) : Z -> local := fun q => if Z.eqb q p then l else s q.
Definition at_chan (c : Z -> Z -> Z -> list V) (p q t : Z) (l : list V) : Z -> Z -> Z -> list V :=
  fun p' q' t' => if Z.eqb p' p && Z.eqb q' q && Z.eqb t' t then l else c p' q' t'.

Inductive step : global -> global -> Prop :=
| step_send s p q t v l1 l2 : In p procs -> tosend (procs_at s p) = l1 ++ ((q, t), v) :: l2 ->
    step s (Global (at_proc (procs_at s) p (Local (at_round (procs_at s p)) (l1 ++ l2) (torecv (procs_at s p)) (got (procs_at s p)) (results (procs_at s p))))
                   (at_chan (chan s) p q t (chan s p q t ++ [v])))
| step_recv s p q t v l l1 l2 : In p procs -> torecv (procs_at s p) = l1 ++ (q, t) :: l2 -> chan s q p t = v :: l ->
    step s (Global (at_proc (procs_at s) p (Local (at_round (procs_at s p)) (tosend (procs_at s p)) (l1 ++ l2) (((q, t), v) :: got (procs_at s p)) (results (procs_at s p))))
                   (at_chan (chan s) q p t l))
| step_next s p : In p procs -> tosend (procs_at s p) = [] -> torecv (procs_at s p) = [] -> at_round (procs_at s p) < rounds ->
    step s (Global (at_proc (procs_at s) p (Local (S (at_round (procs_at s p))) (fst (load p (S (at_round (procs_at s p))))) (snd (load p (S (at_round (procs_at s p)))))
                                              [] (results (procs_at s p) ++ [got (procs_at s p)])))
                   (chan s)).
Inductive execution : global -> Prop :=
| exec_start : execution start_state
| exec_step s s' : execution s -> step s s' -> execution s'.
Definition finished (s : global) : Prop := forall p, In p procs -> at_round (procs_at s p) = rounds.

(** both ends of every message agree about it *)
Definition matching : Prop := forall k, k < rounds ->
  (forall p, In p procs -> NoDup (map fst (out p k)) /\ NoDup (inc p k) /\
    (forall e, In e (out p k) -> In (fst (fst e)) procs) /\ (forall e, In e (inc p k) -> In (fst e) procs)) /\
  (forall p q t, In p procs -> In q procs -> In (q, t) (map fst (out p k)) <-> In (p, t) (inc q k)).
Context (Hm : matching).

(** the messages from p to q with tag t in round k: one or none *)
Definition vals (p q t : Z) (k : nat) : list V :=
  map snd (filter (fun e => if port_dec (fst e) (q, t) then true else false) (fst (load p k))).
Definition upto (p q t : Z) (k : nat) : list V := flat_map (vals p q t) (seq 0 k).
Definition inb (e : port) (l : list port) : bool := if in_dec port_dec e l then true else false.
Definition nsent (s : global) (p q t : Z) : nat :=
  if inb (q, t) (map fst (tosend (procs_at s p))) then at_round (procs_at s p) else S (at_round (procs_at s p)).
Definition nrecv (s : global) (p q t : Z) : nat :=
  if inb (p, t) (torecv (procs_at s q)) then at_round (procs_at s q) else S (at_round (procs_at s q)).

Lemma inb_spec e l : inb e l = true <-> In e l.
Proof. unfold inb. destruct (in_dec port_dec e l); split; try tauto; discriminate. Qed.
Lemma inb_not e l : inb e l = false <-> ~ In e l.
Proof. rewrite <- inb_spec. symmetry. apply not_true_iff_false. Qed.
Lemma load_ok p k : In p procs -> NoDup (map fst (fst (load p k))) /\ NoDup (snd (load p k)) /\
  (forall e, In e (fst (load p k)) -> In (fst (fst e)) procs) /\ (forall e, In e (snd (load p k)) -> In (fst e) procs).
Proof.
  intros Ip. unfold load. destruct (Nat.ltb_spec k rounds) as [L|L]; cbn [fst snd map]; [apply (Hm k L); assumption|].
  split; [constructor|]. split; [constructor|]. split; intros e [].
Qed.
Lemma load_match p q t k : In p procs -> In q procs -> In (q, t) (map fst (fst (load p k))) <-> In (p, t) (snd (load q k)).
Proof. intros Ip Iq. unfold load. destruct (Nat.ltb_spec k rounds) as [L|L]; cbn [fst snd map]; [apply (Hm k L); assumption|reflexivity]. Qed.
Lemma vals_none p q t k : ~ In (q, t) (map fst (fst (load p k))) -> vals p q t k = [].
Proof.
  unfold vals. induction (fst (load p k)) as [|e l IH]; cbn [filter map]; intros N; [reflexivity|].
  destruct (port_dec (fst e) (q, t)) as [E|_]; [exfalso; apply N; left; assumption|]. apply IH. intros Q. apply N. right. assumption.
Qed.
Lemma vals_one p q t v k : In p procs -> In ((q, t), v) (fst (load p k)) -> vals p q t k = [v].
Proof.
  intros Ip. destruct (load_ok p k Ip) as (N & _). unfold vals. induction (fst (load p k)) as [|e l IH]; cbn [filter map In]; [intros []|].
  inversion N as [|? ? N1 N2]. subst. intros [E|I].
  - subst e. cbn [fst]. destruct (port_dec (q, t) (q, t)) as [_|F]; [|contradiction]. cbn [map snd]. f_equal.
    clear IH N N2. induction l as [|e l IH]; cbn [filter map]; [reflexivity|]. destruct (port_dec (fst e) (q, t)) as [E|_]; [exfalso; apply N1; left; assumption|].
    apply IH. intros Q. apply N1. right. assumption.
  - destruct (port_dec (fst e) (q, t)) as [E|_]; [|apply IH; assumption]. exfalso. apply N1. rewrite E. apply in_map_iff. exists (q, t, v). auto.
Qed.
Lemma upto_S p q t k : upto p q t (S k) = upto p q t k ++ vals p q t k.
Proof. unfold upto. rewrite seq_S, flat_map_app. cbn [flat_map Nat.add]. rewrite app_nil_r. reflexivity. Qed.
Lemma upto_split p q t a b : a <= b -> upto p q t b = upto p q t a ++ flat_map (vals p q t) (seq a (b - a)).
Proof. intros L. unfold upto. replace b with (a + (b - a)) at 1 by lia. rewrite seq_app, flat_map_app. reflexivity. Qed.

(** what a process has received in a round *)
Definition complete (p : Z) (k : nat) (l : list (port * V)) : Prop :=
  NoDup (map fst l) /\ (forall q t, In (q, t) (map fst l) <-> In (q, t) (snd (load p k))) /\
  (forall q t v, In ((q, t), v) l -> In ((p, t), v) (fst (load q k))).

Definition local_inv (s : global) (p : Z) : Prop :=
  let l := procs_at s p in
  at_round l <= rounds /\
  NoDup (map fst (tosend l)) /\ (forall e, In e (tosend l) -> In e (fst (load p (at_round l)))) /\
  NoDup (torecv l) /\ NoDup (map fst (got l)) /\
  (forall e, In e (snd (load p (at_round l))) <-> In e (torecv l) \/ In e (map fst (got l))) /\
  (forall e, In e (torecv l) -> ~ In e (map fst (got l))) /\
  (forall q t v, In ((q, t), v) (got l) -> In ((p, t), v) (fst (load q (at_round l)))) /\
  length (results l) = at_round l /\ (forall k r, nth_error (results l) k = Some r -> complete p k r).
Definition inv (s : global) : Prop :=
  (forall p, In p procs -> local_inv s p) /\
  (forall p q t, In p procs -> In q procs -> upto p q t (nsent s p q t) = upto p q t (nrecv s p q t) ++ chan s p q t).

Lemma start_inv : inv start_state.
Proof.
  split.
  - intros p Ip. destruct (load_ok p 0 Ip) as (A & B & C & D). unfold local_inv. cbn [start_state procs_at at_round tosend torecv got results map].
    split; [lia|]. split; [assumption|]. split; [auto|]. split; [assumption|]. split; [constructor|]. split; [intros e; cbn [In]; tauto|]. split; [auto|]. split; [intros q t v []|].
    split; [reflexivity|]. intros [|k] r E; discriminate.
  - intros p q t Ip Iq. unfold nsent, nrecv. cbn [start_state procs_at at_round tosend torecv chan]. rewrite app_nil_r.
    destruct (inb (q, t) (map fst (fst (load p 0)))) eqn:A, (inb (p, t) (snd (load q 0))) eqn:B; try reflexivity.
    + apply inb_spec in A. apply load_match in A; [|assumption..]. apply inb_spec in A. congruence.
    + apply inb_spec in B. apply load_match in B; [|assumption..]. apply inb_spec in B. congruence.
Qed.

Lemma at_proc_same s p l : at_proc s p l p = l.
Proof. unfold at_proc. rewrite Z.eqb_refl. reflexivity. Qed.
Lemma at_proc_other s p l q : q <> p -> at_proc s p l q = s q.
Proof. intros N. unfold at_proc. destruct (Z.eqb_spec q p); [contradiction|reflexivity]. Qed.
Lemma at_chan_same c p q t l : at_chan c p q t l p q t = l.
Proof. unfold at_chan. rewrite !Z.eqb_refl. reflexivity. Qed.
Lemma at_chan_other c p q t l p' q' t' : (p', q', t') <> (p, q, t) -> at_chan c p q t l p' q' t' = c p' q' t'.
Proof.
  intros N. unfold at_chan. destruct (Z.eqb_spec p' p), (Z.eqb_spec q' q), (Z.eqb_spec t' t); cbn [andb]; try reflexivity. subst. contradiction.
Qed.

(** a waiting receive gets the message of its own round *)
Lemma head_is_round s p q t v l : inv s -> In p procs -> In q procs -> In (q, t) (torecv (procs_at s p)) -> chan s q p t = v :: l ->
  In ((p, t), v) (fst (load q (at_round (procs_at s p)))).
Proof.
  intros [Hl Hc] Ip Iq Iw Ec. pose proof (Hc q p t Iq Ip) as E. rewrite Ec in E. unfold nrecv in E. rewrite (proj2 (inb_spec _ _) Iw) in E. set (k := at_round (procs_at s p)) in *.
  destruct (le_lt_dec (nsent s q p t) k) as [L|L].
  - rewrite (upto_split q p t _ k L) in E. apply (f_equal (@length V)) in E. rewrite !app_length in E. cbn [length] in E. lia.
  - rewrite (upto_split q p t (S k) _ L), upto_S, <- app_assoc in E. apply app_inv_head in E.
    assert (In (p, t) (map fst (fst (load q k)))) as I.
    { apply (load_match q p t k Iq Ip). destruct (Hl p Ip) as (_ & _ & _ & _ & _ & R & _). apply R. left. assumption. }
    apply in_map_iff in I. destruct I as ([[p' t'] w] & E1 & I). cbn [fst] in E1. injection E1 as -> ->. pose proof (vals_one q p t w k Iq I) as Ev. rewrite Ev in E. cbn [app] in E. injection E as <- _. assumption.
Qed.

Lemma step_inv s s' : inv s -> step s s' -> inv s'.
Proof.
  intros Hi St. pose proof Hi as [Hl Hc]. destruct St as [s p q t v l1 l2 Ip E|s p q t v l l1 l2 Ip E Ec|s p Ip E1 E2 Lt].
  - (* send *)
    destruct (Hl p Ip) as (R & Ns & Ss & Nr & Ng & Rx & Rd & Gv & Rl & Rr). rewrite E in Ns, Ss.
    assert (In (q, t, v) (fst (load p (at_round (procs_at s p))))) as Il by (apply Ss, in_app_iff; right; left; reflexivity).
    assert (~ In (q, t) (map fst (l1 ++ l2))) as Nq. { rewrite map_app in Ns |- *. cbn [map fst] in Ns. apply NoDup_remove in Ns. apply Ns. }
    split.
    + intros p' Ip'. unfold local_inv. cbn [procs_at]. destruct (Z.eq_dec p' p) as [->|N]; [rewrite at_proc_same|rewrite at_proc_other by assumption; apply Hl; assumption].
      cbn [at_round tosend torecv got results]. split; [assumption|]. split; [rewrite map_app in Ns |- *; cbn [map fst] in Ns; apply NoDup_remove in Ns; apply Ns|].
      split; [intros e He; apply Ss; apply in_app_iff in He; apply in_app_iff; cbn [In]; tauto|]. auto 10.
    + intros p' q' t' Ip' Iq'. cbn [chan].
      assert (nrecv (Global (at_proc (procs_at s) p (Local (at_round (procs_at s p)) (l1 ++ l2) (torecv (procs_at s p)) (got (procs_at s p)) (results (procs_at s p)))) (at_chan (chan s) p q t (chan s p q t ++ [v]))) p' q' t' = nrecv s p' q' t') as ->.
      { unfold nrecv. cbn [procs_at]. destruct (Z.eq_dec q' p) as [->|N]; [rewrite at_proc_same; reflexivity|rewrite at_proc_other by assumption; reflexivity]. }
      specialize (Hc p' q' t' Ip' Iq'). unfold nsent in *. cbn [procs_at]. destruct (Z.eq_dec p' p) as [->|N].
      2: { rewrite at_proc_other by assumption. rewrite at_chan_other by congruence. exact Hc. }
      rewrite at_proc_same. cbn [at_round tosend]. rewrite E, map_app in Hc. cbn [map fst] in Hc.
      destruct (port_dec (q', t') (q, t)) as [Eq|Nq'].
      * injection Eq as -> ->. rewrite at_chan_same. rewrite (proj2 (inb_not _ _) Nq). rewrite (proj2 (inb_spec (q, t) _)) in Hc by (apply in_app_iff; right; left; reflexivity).
        rewrite upto_S, Hc, (vals_one p q t v _ Ip Il), app_assoc. reflexivity.
      * rewrite at_chan_other by congruence. replace (inb (q', t') (map fst (l1 ++ l2))) with (inb (q', t') (map fst l1 ++ (q, t) :: map fst l2)); [exact Hc|].
        apply eq_true_iff_eq. rewrite !inb_spec, map_app, !in_app_iff. cbn [In]. intuition congruence.
  - (* receive *)
    assert (In (q, t) (torecv (procs_at s p))) as Iw by (rewrite E; apply in_app_iff; right; left; reflexivity).
    destruct (Hl p Ip) as (R & Ns & Ss & Nr & Ng & Rx & Rd & Gv & Rl & Rr).
    assert (In q procs) as Iq. { destruct (load_ok p (at_round (procs_at s p)) Ip) as (_ & _ & _ & D). apply (D (q, t)). apply Rx. left. assumption. }
    pose proof (head_is_round s p q t v l Hi Ip Iq Iw Ec) as Il. rewrite E in Nr. pose proof (NoDup_remove _ _ _ Nr) as [Nr1 Nr2]. split.
    + intros p' Ip'. unfold local_inv. cbn [procs_at]. destruct (Z.eq_dec p' p) as [->|N]; [rewrite at_proc_same|rewrite at_proc_other by assumption; apply Hl; assumption].
      cbn [at_round tosend torecv got results map fst]. split; [assumption|]. split; [assumption|]. split; [assumption|]. split; [assumption|]. split; [constructor; [apply Rd; assumption|assumption]|].
      split; [intros e; rewrite Rx, E, !in_app_iff; cbn [In]; tauto|]. split.
      { intros e He [Q|Q]; [subst e; contradiction|]. apply (Rd e); [|assumption]. rewrite E. apply in_app_iff. apply in_app_iff in He. cbn [In]. tauto. }
      split; [|auto]. intros q' t' v' [Q|Q]; [injection Q as <- <- <-; assumption|apply Gv; assumption].
    + intros p' q' t' Ip' Iq'. cbn [chan].
      match goal with |- context [nsent ?s1] => assert (nsent s1 p' q' t' = nsent s p' q' t') as -> end.
      { unfold nsent. cbn [procs_at]. destruct (Z.eq_dec p' p) as [->|N]; [rewrite at_proc_same; reflexivity|rewrite at_proc_other by assumption; reflexivity]. }
      rewrite (Hc p' q' t' Ip' Iq'). unfold nrecv. cbn [procs_at]. destruct (Z.eq_dec q' p) as [->|N].
      2: { rewrite at_proc_other by assumption. rewrite at_chan_other by congruence. reflexivity. }
      rewrite at_proc_same. cbn [at_round torecv]. rewrite E. destruct (port_dec (p', t') (q, t)) as [Eq|Nq].
      * injection Eq as -> ->. rewrite at_chan_same. rewrite (proj2 (inb_not _ _) Nr2). rewrite (proj2 (inb_spec (q, t) _)) by (apply in_app_iff; right; left; reflexivity).
        rewrite upto_S, Ec, (vals_one q p t v _ Iq Il), <- app_assoc. reflexivity.
      * rewrite at_chan_other by congruence. replace (inb (p', t') (l1 ++ l2)) with (inb (p', t') (l1 ++ (q, t) :: l2)); [reflexivity|].
        apply eq_true_iff_eq. rewrite !inb_spec, !in_app_iff. cbn [In]. intuition congruence.
  - (* next *)
    destruct (Hl p Ip) as (R & Ns & Ss & Nr & Ng & Rx & Rd & Gv & Rl & Rr). rewrite E2 in Rx. split.
    + intros p' Ip'. unfold local_inv. cbn [procs_at]. destruct (Z.eq_dec p' p) as [->|N]; [rewrite at_proc_same|rewrite at_proc_other by assumption; apply Hl; assumption].
      cbn [at_round tosend torecv got results map]. destruct (load_ok p (S (at_round (procs_at s p))) Ip) as (A & B & _).
      split; [lia|]. split; [assumption|]. split; [auto|]. split; [assumption|]. split; [constructor|]. split; [intros e; cbn [In]; tauto|]. split; [auto|]. split; [intros q t v []|].
      split; [rewrite app_length; cbn [length]; lia|]. intros k r Ek. destruct (lt_dec k (length (results (procs_at s p)))) as [L|L].
      * rewrite nth_error_app1 in Ek by assumption. apply Rr. assumption.
      * rewrite nth_error_app2 in Ek by lia. destruct (k - length (results (procs_at s p))) as [|j] eqn:Ej; [|destruct j; discriminate]. injection Ek as <-. replace k with (at_round (procs_at s p)) by lia.
        split; [assumption|]. split; [intros q t; rewrite Rx; cbn [In]; tauto|assumption].
    + intros p' q' t' Ip' Iq'. cbn [chan]. specialize (Hc p' q' t' Ip' Iq').
      assert (forall k, In p' procs -> inb (q', t') (map fst (fst (load p' k))) = false -> upto p' q' t' (S k) = upto p' q' t' k) as Skip.
      { intros k _ Q. rewrite upto_S, vals_none, app_nil_r; [reflexivity|]. apply inb_not. assumption. }
      match goal with |- context [nsent ?s1] => assert (upto p' q' t' (nsent s1 p' q' t') = upto p' q' t' (nsent s p' q' t')) as -> end.
      { unfold nsent. cbn [procs_at]. destruct (Z.eq_dec p' p) as [->|N]; [rewrite at_proc_same|rewrite at_proc_other by assumption; reflexivity]. cbn [at_round tosend]. rewrite E1.
        change (inb (q', t') (map fst [])) with false. cbn beta iota. destruct (inb (q', t') (map fst (fst (load p (S (at_round (procs_at s p))))))) eqn:B; [reflexivity|]. apply Skip; assumption. }
      rewrite Hc. f_equal. unfold nrecv. cbn [procs_at]. destruct (Z.eq_dec q' p) as [->|N]; [rewrite at_proc_same|rewrite at_proc_other by assumption; reflexivity]. cbn [at_round torecv]. rewrite E2.
      change (inb (p', t') []) with false. cbn beta iota. destruct (inb (p', t') (snd (load p (S (at_round (procs_at s p)))))) eqn:B; [reflexivity|]. symmetry. apply Skip; [assumption|].
      apply inb_not. intros Q. apply load_match in Q; [|assumption..]. apply inb_spec in Q. congruence.
Qed.
Lemma execution_inv s : execution s -> inv s.
Proof. induction 1 as [|s s' _ IH St]; [apply start_inv|apply (step_inv s); assumption]. Qed.

(** ** Every execution delivers the messages of each round in that round *)
Theorem rounds_deliver s p k r : execution s -> In p procs -> nth_error (results (procs_at s p)) k = Some r ->
  k < rounds /\ NoDup (map fst r) /\ (forall q t, In (q, t) (map fst r) <-> In (q, t) (inc p k)) /\ (forall q t v, In ((q, t), v) r -> In ((p, t), v) (out q k)).
Proof.
  intros X Ip E. destruct (execution_inv s X) as [Hl _]. destruct (Hl p Ip) as (R & _ & _ & _ & _ & _ & _ & _ & Rl & Rr).
  assert (k < length (results (procs_at s p))) as L by (apply nth_error_Some; congruence). assert (k < rounds) as Lk by lia. split; [assumption|].
  destruct (Rr k r E) as (A & B & C). unfold load in B, C. replace (k <? rounds) with true in * by (symmetry; apply Nat.ltb_lt; assumption). cbn [fst snd] in B, C. auto.
Qed.

(** ** No execution gets stuck before all processes have finished all rounds *)
Theorem rounds_progress s : execution s -> finished s \/ exists s', step s s'.
Proof.
  intros X. pose proof (execution_inv s X) as Hi. pose proof Hi as [Hl Hc].
  assert (forall l, (forall p, In p l -> In p procs) -> l <> [] -> exists p, In p l /\ forall q, In q l -> at_round (procs_at s p) <= at_round (procs_at s q)) as Min.
  { induction l as [|a l IH]; intros Sub Ne; [congruence|]. destruct l as [|b l]; [exists a; split; [left; reflexivity|]; intros q [->|[]]; lia|].
    destruct (IH ltac:(intros; apply Sub; right; assumption) ltac:(discriminate)) as (p & Ip & Mp). destruct (le_lt_dec (at_round (procs_at s a)) (at_round (procs_at s p))) as [L|L].
    - exists a. split; [left; reflexivity|]. intros q [->|Iq]; [lia|]. specialize (Mp q Iq). lia.
    - exists p. split; [right; assumption|]. intros q [<-|Iq]; [lia|]. apply Mp. assumption. }
  assert (procs = [] \/ procs <> []) as [Ep|Ne] by (destruct procs; [left; reflexivity|right; discriminate]).
  { left. intros p Ip. rewrite Ep in Ip. destruct Ip. }
  destruct (Min procs (fun p Ip => Ip) Ne) as (p & Ip & Mp). set (k := at_round (procs_at s p)) in *.
  destruct (Hl p Ip) as (R & _ & _ & _ & _ & Rx & _). fold k in R, Rx.
  destruct (Nat.eq_dec k rounds) as [Ek|Nk].
  - left. intros q Iq. destruct (Hl q Iq) as (Rq & _). specialize (Mp q Iq). lia.
  - right. destruct (tosend (procs_at s p)) as [|[[q t] v] l] eqn:Es; [|eexists; apply (step_send s p q t v [] l Ip Es)].
    destruct (torecv (procs_at s p)) as [|[q t] l] eqn:Er; [eexists; apply (step_next s p Ip Es Er); fold k; lia|].
    assert (In q procs) as Iq. { destruct (load_ok p k Ip) as (_ & _ & _ & D). apply (D (q, t)). apply Rx. left. left. reflexivity. }
    destruct (chan s q p t) as [|v c] eqn:Ec; [|eexists; apply (step_recv s p q t v c [] l Ip Er Ec)].
    pose proof (Hc q p t Iq Ip) as E. rewrite Ec, app_nil_r in E. unfold nrecv in E. rewrite Er in E. rewrite (proj2 (inb_spec _ _)) in E by (left; reflexivity). fold k in E.
    assert (In (p, t) (map fst (fst (load q k)))) as I by (apply (load_match q p t k Iq Ip), Rx; left; left; reflexivity).
    apply in_map_iff in I. destruct I as ([[p' t'] w] & E1 & I). cbn [fst] in E1. injection E1 as -> ->. pose proof (vals_one q p t w k Iq I) as Ev.
    assert (nsent s q p t <= k) as L.
    { destruct (le_lt_dec (nsent s q p t) k) as [L|L]; [assumption|]. rewrite (upto_split q p t (S k) _ L), upto_S, Ev in E. apply (f_equal (@length V)) in E. rewrite !app_length in E. cbn [length] in E. lia. }
    unfold nsent in L. specialize (Mp q Iq). destruct (inb (p, t) (map fst (tosend (procs_at s q)))) eqn:B; [|lia]. apply inb_spec in B. apply in_map_iff in B. destruct B as ([[p' t'] w'] & E1 & B). cbn [fst] in E1. injection E1 as -> ->.
    apply in_split in B. destruct B as (l1 & l2 & B). eexists. apply (step_send s q p t w' l1 l2 Iq B).
Qed.

(** ** Every execution ends *)
Definition left_over (p : Z) (k : nat) : nat := length (fst (load p k)) + length (snd (load p k)) + 1.
Definition work (s : global) (p : Z) : nat :=
  length (tosend (procs_at s p)) + length (torecv (procs_at s p)) + (if at_round (procs_at s p) <? rounds then 1 else 0) + list_sum (map (left_over p) (seq (S (at_round (procs_at s p))) (rounds - S (at_round (procs_at s p))))).
Definition total_work (s : global) : nat := list_sum (map (work s) procs).
Lemma sum_less (f h : Z -> nat) l p : NoDup l -> In p l -> h p < f p -> (forall q, q <> p -> h q = f q) -> list_sum (map h l) < list_sum (map f l).
Proof.
  intros N I Lp O. induction l as [|a l IH]; [destruct I|]. inversion N as [|? ? Na Nl]. subst. cbn [map]. change (list_sum (h a :: map h l)) with (h a + list_sum (map h l)). change (list_sum (f a :: map f l)) with (f a + list_sum (map f l)). destruct I as [->|I].
  - assert (map h l = map f l) as ->; [|lia]. apply map_ext_in. intros q Iq. apply O. intros ->. contradiction.
  - assert (a <> p) by (intros ->; contradiction). rewrite (O a) by assumption. specialize (IH Nl I). lia.
Qed.
Theorem rounds_terminate s s' : NoDup procs -> step s s' -> total_work s' < total_work s.
Proof.
  intros N St. destruct St as [s p q t v l1 l2 Ip E|s p q t v l l1 l2 Ip E Ec|s p Ip E1 E2 Lt]; apply (sum_less _ _ _ p N Ip);
    try (intros q' Nq; unfold work; cbn [procs_at]; rewrite at_proc_other by assumption; reflexivity); unfold work; cbn [procs_at]; rewrite at_proc_same; cbn [at_round tosend torecv].
  - rewrite E, !app_length. cbn [length]. lia.
  - rewrite E, !app_length. cbn [length]. lia.
  - rewrite E1, E2. set (k := at_round (procs_at s p)) in *. replace (k <? rounds) with true by (symmetry; apply Nat.ltb_lt; assumption). cbn [length].
    destruct (Nat.ltb_spec (S k) rounds) as [L|L].
    + replace (rounds - S k) with (S (rounds - S (S k))) by lia. cbn [seq map]. change (list_sum (left_over p (S k) :: map (left_over p) (seq (S (S k)) (rounds - S (S k))))) with (left_over p (S k) + list_sum (map (left_over p) (seq (S (S k)) (rounds - S (S k))))). unfold left_over at 2. lia.
    + unfold load. replace (S k <? rounds) with false by (symmetry; apply Nat.ltb_ge; lia). cbn [fst snd length]. replace (rounds - S (S k)) with 0 by lia. replace (rounds - S k) with 0 by lia. cbn. lia.
Qed.
(** so every execution can be, and if continued is, completed *)
Theorem rounds_finish s : NoDup procs -> execution s -> exists s', execution s' /\ finished s' /\ forall p, In p procs -> length (results (procs_at s' p)) = rounds.
Proof.
  intros N. remember (total_work s) as w eqn:Ew. revert s Ew. induction w as [w IH] using (well_founded_induction lt_wf). intros s Ew X.
  destruct (rounds_progress s X) as [F|(s' & St)].
  - exists s. split; [assumption|]. split; [assumption|]. intros p Ip. destruct (execution_inv s X) as [Hl _]. destruct (Hl p Ip) as (_ & _ & _ & _ & _ & _ & _ & _ & Rl & _). rewrite Rl. apply F. assumption.
  - apply (IH (total_work s')) with s'; [subst w; apply rounds_terminate; assumption|reflexivity|]. apply exec_step with s; assumption.
Qed.
End Async.
