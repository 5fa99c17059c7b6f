(** Programs that repeat an update of copies and a computation. *)
From Coq Require Import ZArith Bool List Lia PeanoNat.
From Verif Require Import Sets Async Overlap.
Import ListNotations.
Local Open Scope nat_scope.

Section Writes.
Context {D : Type}.
Notation op := (op (D := D)).
Notation data := (Z -> option D)%type.
Context {I : Type} (key : I -> Z) (rs cs : I -> list Z) (f : I -> list (option D) -> list (option D) -> option D).
Lemma value_same (d d' cop : data) r c h : (forall a, In a r -> d a = d' a) -> value r c h d cop = value r c h d' cop.
Proof. intros H. unfold value. f_equal. apply map_ext_in. assumption. Qed.
(** computing the data of different cells, none of which is used for another *)
Lemma advance_writes l : NoDup (map key l) -> (forall i j, In i l -> In j l -> key i <> key j -> ~ In (key j) (rs i)) -> forall d cop, exists d',
  (forall rest, advance (map (fun i => Compute (key i) (rs i) (cs i) (f i)) l ++ rest) d cop = advance rest d' cop) /\
  (forall i, In i l -> d' (key i) = value (rs i) (cs i) (f i) d cop) /\ (forall a, ~ In a (map key l) -> d' a = d a).
Proof.
  induction l as [|i l IH]; intros N Hr d cop.
  - exists d. split; [reflexivity|]. split; [intros i []|reflexivity].
  - cbn [map] in N. inversion N as [|? ? Ni Nl]; subst. destruct (IH Nl (fun a b A B => Hr a b (or_intror A) (or_intror B)) (upd d (key i) (value (rs i) (cs i) (f i) d cop)) cop) as (d' & A & B & C).
    exists d'. split; [intros rest; cbn [map app advance]; apply A|]. split.
    + intros j [<-|J].
      * rewrite (C _ Ni). unfold upd. rewrite Z.eqb_refl. reflexivity.
      * rewrite (B j J). apply value_same. intros a Ia. unfold upd. destruct (Z.eqb_spec a (key i)) as [->|]; [|reflexivity]. exfalso. apply (Hr j i (or_intror J) (or_introl eq_refl)); [|assumption].
        intros E. apply Ni. rewrite <- E. apply in_map. assumption.
    + intros a Na. cbn [map In] in Na. rewrite (C a) by tauto. unfold upd. destruct (Z.eqb_spec a (key i)) as [->|]; [tauto|reflexivity].
Qed.
End Writes.

Section Rounds.
Context {D : Type} (procs : list Z) (recvs : Z -> Z -> list ((Z * Z) * list Z)) (own0 copies0 : Z -> Z -> option D).
Notation op := (op (D := D)).
Notation data := (Z -> option D)%type.
Context (id : Z) (prelude : Z -> list op) (body : nat -> Z -> list op) (turns : nat).
Context (P : nat -> Z -> data -> Prop).
Definition rounds (n T : nat) (p : Z) : list op := flat_map (fun k => Start id :: body k p) (seq n T).
Context (script : Z -> list op) (Hscript : forall p, In p procs -> script p = prelude p ++ rounds 0 turns p).
Context (Hprelude : forall p cop, In p procs -> exists d', (forall rest, advance (prelude p ++ rest) (own0 p) cop = advance rest d' cop) /\ P 0 p d').
Context (Hbody : forall k p d cop, In p procs -> P k p d ->
  (forall c q, source recvs id p c = Some q -> In q procs -> exists dq, P k q dq /\ cop c = dq c) ->
  exists d', (forall rest, advance (body k p ++ rest) d cop = advance rest d' cop) /\ P (S k) p d').
Notation sync := (sync recvs script own0 copies0).
Notation ref_own := (ref_own recvs script own0 copies0).
Notation ref_copies := (ref_copies recvs script own0 copies0).
Lemma advance_rounds n T p (d cop : data) : advance (rounds n T p) d cop = (rounds n T p, d).
Proof. unfold rounds. destruct T; reflexivity. Qed.
Theorem rounds_reach n p : In p procs -> n <= turns ->
  fst (advance (fst (fst (sync n) p)) (snd (fst (sync n) p)) (ref_copies n p)) = rounds n (turns - n) p /\ P n p (ref_own n p).
Proof.
  revert p. induction n as [|n IH]; intros p Ip L.
  - unfold Overlap.ref_own, Overlap.ref_copies. cbn [Overlap.sync fst snd]. rewrite (Hscript p Ip). destruct (Hprelude p (copies0 p) Ip) as (d' & A & B). rewrite A, advance_rounds, Nat.sub_0_r. auto.
  - destruct (IH p Ip ltac:(lia)) as [Ep Pp]. unfold Overlap.ref_own at 1. unfold Overlap.ref_copies. rewrite sync_S. cbn [fst snd]. rewrite Ep.
    assert (rounds n (turns - n) p = Start id :: body n p ++ rounds (S n) (turns - S n) p) as E by (unfold rounds; replace (turns - n) with (S (turns - S n)) by lia; reflexivity). rewrite E. cbn [tl].
    set (cop := fun c => match source recvs id p c with Some q => ref_own n q c | None => ref_copies n p c end).
    destruct (Hbody n p (ref_own n p) cop Ip Pp) as (d' & A & B).
    { intros c q Es Iq. exists (ref_own n q). split; [apply (IH q Iq ltac:(lia))|]. unfold cop. rewrite Es. reflexivity. }
    rewrite A, advance_rounds. auto.
Qed.
End Rounds.
