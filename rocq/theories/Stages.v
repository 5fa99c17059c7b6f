(** Moving parts of cell data: what a transfer does when the user's get_mpi_datatype selects only
    a part of the data, or when sender and receiver hold different amounts of it.

    What a message makes of the receiver's data is a parameter; it fails if the message does not
    fit, in which case MPI reports an error (MPI_ERR_TRUNCATE, with the default error handler the
    program ends).  The transfers modelled are those of load balancing, in any number of stages
    with changes to the data by the user between them, and updates between neighbors. *)
From Verif Require Import U64 MapModel MapSpec MapProofs MapFamily MapProps HoodModel MeshModel
  MeshSpec MeshBase HoodProps Sets RefineModel RefineGeo RefineInv RefineFold RefineStop BalanceModel Create Balance
  History HistProps CommitProps BalProps CommModel CommInv CommProps.
Open Scope Z_scope.

Section Model.
Context {D : Type} (d0 : D) (g : grid).

(** cell, sender, receiver, data at the sender, data at the receiver *)
Definition absorb : Type := Z -> Z -> Z -> D -> D -> outcome D.
(** dccrg.hpp:10816-10818: operator[] creates missing data *)
Definition held (c : Z) (f : list (Z * D)) : D := match find c f with Some v => v | None => d0 end.
(** dccrg.hpp:10758-11264 between two processes: the i-th message sent, of cell c', is put into
    the data of the i-th cell expected; destination.at and cell_data.at give the buffers.  One
    message per cell (10807-10886, 11020-11095), see StageProps for one message per process *)
Fixpoint receive_into (ab : Z -> D -> D -> outcome D) (from : list (Z * D)) (sent expected : list Z) (dest : list (Z * D)) : outcome (list (Z * D)) :=
  match expected, sent with
  | [], [] => Done dest
  | [], _ :: _ => Threw
  | c :: r, [] => Threw
  | c :: r, c' :: r' => do v <- at_ c' from; do u <- ab c v (held c dest); receive_into ab from r' r (put c u dest)
  end.

(** ** Load balancing in stages *)
(** what the user does to the data held by a process, arriving and leaving cells included,
    before continue_balance_load, and what the transfer does *)
Record stage := Stage { t_write : Z -> Z -> D -> D; t_absorb : absorb }.
Definition set_data (s : store D) (f : list (Z * D)) : store D := Store (s_proc s) f (s_refd s) (s_unrefd s) (s_pin s) (s_newpin s) (s_wt s).
Definition with_data (v : moving (D := D)) (f : list (Z * D)) : moving := Moving (set_data (v_store v) f) (v_recv v) (v_send v).
Definition change (w : Z -> Z -> D -> D) (mv : Z -> moving (D := D)) : Z -> moving :=
  fun r => with_data (mv r) (map (fun e => (fst e, w r (fst e) (snd e))) (s_data (v_store (mv r)))).
(** dccrg.hpp:3987-4020 *)
Definition continue_with (ab : absorb) (mv : Z -> moving (D := D)) : outcome (Z -> moving) :=
  each g (fun r =>
    do data <- foldM (fun dest q => receive_into (fun c => ab c q r) (s_data (v_store (mv q))) (listed r (v_send (mv q))) (listed q (v_recv (mv r))) dest)
                 (ranks g) (s_data (v_store (mv r)));
    Done (with_data (mv r) data)) mv.
Fixpoint stages (l : list stage) (mv : Z -> moving (D := D)) : outcome (Z -> moving) :=
  match l with [] => Done mv | s :: l => do mv' <- continue_with (t_absorb s) (change (t_write s) mv); stages l mv' end.
Definition staged_balance (l : list stage) (st : Z -> proc D) (z : Z -> answer) : outcome (Z -> proc D) :=
  do a <- initialize_balance_load d0 g st z; do b <- stages l a; finish_balance_load g b.

(** ** Updates between neighbors *)
Definition deliver_with (ab : absorb) (rank : Z) (x : xstate (D := D)) (send recv : Z -> list (Z * Z)) : outcome (list (Z * D)) :=
  foldM (fun dest q => receive_into (fun c => ab c q rank) (s_data (p_store (x_st x q))) (listed rank (send q)) (listed q (recv rank)) dest)
    (ranks g) (x_copies x rank).
(** dccrg.hpp:978-1014 with 5102-5455 *)
Definition update_with (ab : absorb) (x : xstate (D := D)) (id : Z) : outcome xstate :=
  do L <- each g (fun r => lists_of g (x_hoods x) id r (x_st x r)) (fun _ => None);
  do lists <- each g (fun r => match L r with Some l => Done l | None => Threw end) (fun _ => Lists [] [] [] []);
  do recv <- each g (fun r => recv_pairs r (p_store (x_st x r)) (lists r)) (fun _ => []);
  do send <- each g (fun r => send_pairs r (p_store (x_st x r)) (lists r)) (fun _ => []);
  do copies <- each g (fun r => deliver_with ab r x send recv) (x_copies x);
  Done (XState (x_st x) copies (x_hoods x)).
End Model.
Arguments Stage {D}. Arguments t_write {D}. Arguments t_absorb {D}.

(** ** Lists *)
Lemma assoc_eq {A} (a b : list (Z * A)) : keys a = keys b -> NoDup (keys a) -> (forall k, find k a = find k b) -> a = b.
Proof.
  revert b. induction a as [|[k v] a IH]; intros [|[k' v'] b] E N F; cbn [keys map fst] in *; try discriminate; [reflexivity|]. injection E as <- E. apply NoDup_cons_iff in N. destruct N as [Nk N].
  pose proof (F k) as Fk. cbn [find] in Fk. rewrite Z.eqb_refl in Fk. injection Fk as <-. f_equal. apply IH; [assumption|assumption|]. intros x. pose proof (F x) as Fx. cbn [find] in Fx. destruct (Z.eqb_spec x k) as [Exk|]; [subst x|assumption].
  assert (~ In k (map fst b)) as Nb by (rewrite <- E; assumption). transitivity (@None A).
  - destruct (find k a) eqn:Q; [|reflexivity]. exfalso. apply Nk. apply (keys_find k a). eauto.
  - destruct (find k b) eqn:Q; [|reflexivity]. exfalso. apply Nb. apply (keys_find k b). eauto.
Qed.
Lemma keys_map {A} (h : Z -> A -> A) (f : list (Z * A)) : keys (map (fun e => (fst e, h (fst e) (snd e))) f) = keys f.
Proof. unfold keys. rewrite map_map. reflexivity. Qed.
Lemma find_map {A} (h : Z -> A -> A) (f : list (Z * A)) c : find c (map (fun e => (fst e, h (fst e) (snd e))) f) = option_map (h c) (find c f).
Proof. induction f as [|[k v] f IH]; cbn [map find fst snd]; [reflexivity|]. destruct (Z.eqb_spec c k) as [->|]; [reflexivity|apply IH]. Qed.
Lemma keys_del {A} k (f : list (Z * A)) : keys (del k f) = filter (fun y => negb (y =? k)) (keys f).
Proof. unfold keys, del. induction f as [|e f IH]; cbn [map filter]; [reflexivity|]. destruct (negb (fst e =? k)); cbn [map]; rewrite IH; reflexivity. Qed.
Lemma keys_put {A B} k (v : A) (w : B) f f' : keys f = keys f' -> keys (put k v f) = keys (put k w f').
Proof. intros E. unfold put. change (keys ((k, v) :: del k f)) with (k :: keys (del k f)). change (keys ((k, w) :: del k f')) with (k :: keys (del k f')). rewrite !keys_del, E. reflexivity. Qed.
Lemma keys_dels {A B} l : forall (f : list (Z * A)) (f' : list (Z * B)), keys f = keys f' -> keys (fold_left (fun f c => del c f) l f) = keys (fold_left (fun f c => del c f) l f').
Proof. induction l as [|c l IH]; intros f f' E; cbn [fold_left]; [assumption|]. apply IH. rewrite !keys_del, E. reflexivity. Qed.

Section Receive.
Context {D : Type} (d0 : D).
Notation held := (held d0).
Notation receive_into := (receive_into d0).
Lemma held_put c c' u f : held c (put c' u f) = if c =? c' then u else held c f.
Proof. unfold Stages.held. rewrite find_put. destruct (c =? c'); reflexivity. Qed.

Lemma receive_into_ok ab (from : list (Z * D)) (val : Z -> D) l : forall dest, NoDup l -> (forall c, In c l -> exists v, find c from = Some v /\ ab c v (held c dest) = Done (val c)) ->
  exists dest', receive_into ab from l l dest = Done dest' /\ forall k, find k dest' = if mem k l then Some (val k) else find k dest.
Proof.
  induction l as [|c l IH]; intros dest N Hf; cbn [Stages.receive_into]; [exists dest; auto|]. apply NoDup_cons_iff in N. destruct N as [Nc N].
  destruct (Hf c (or_introl eq_refl)) as (v & Ev & Eu). unfold at_. rewrite Ev. cbn [bind]. rewrite Eu. cbn [bind].
  destruct (IH (put c (val c) dest) N) as (dest' & E & Q).
  { intros k Hk. destruct (Hf k (or_intror Hk)) as (w & Ew & Ek). exists w. split; [assumption|]. rewrite held_put. destruct (Z.eqb_spec k c) as [->|]; [contradiction|assumption]. }
  exists dest'. split; [assumption|]. intros k. rewrite Q, mem_cons, find_put. destruct (Z.eqb_spec k c) as [->|]; cbn [orb]; [|reflexivity]. rewrite (proj2 (mem_not c l) Nc). reflexivity.
Qed.
Lemma receive_into_inv ab (from : list (Z * D)) l : forall dest dest', NoDup l -> receive_into ab from l l dest = Done dest' ->
  (forall c, In c l -> exists v u, find c from = Some v /\ ab c v (held c dest) = Done u) /\ forall k, ~ In k l -> find k dest' = find k dest.
Proof.
  induction l as [|c l IH]; intros dest dest' N E; cbn [Stages.receive_into] in E; [injection E as <-; split; [intros c []|reflexivity]|]. apply NoDup_cons_iff in N. destruct N as [Nc N].
  apply bind_done in E. destruct E as (v & Ev & E). apply bind_done in E. destruct E as (u & Eu & E). unfold at_ in Ev. destruct (find c from) as [w|] eqn:F; [|discriminate]. injection Ev as ->.
  destruct (IH _ _ N E) as [A B]. split.
  - intros k [<-|Hk]; [eauto|]. destruct (A k Hk) as (x & y & Ex & Ey). exists x, y. split; [assumption|]. rewrite held_put in Ey. destruct (Z.eqb_spec k c) as [->|]; [contradiction|assumption].
  - intros k Hk. rewrite B by (intros Q; apply Hk; right; assumption). rewrite find_put. destruct (Z.eqb_spec k c) as [->|]; [|reflexivity]. exfalso. apply Hk. left. reflexivity.
Qed.

Section Peers.
Context (lst lst' : Z -> list Z) (datas : Z -> list (Z * D)) (src : Z -> option Z) (ab : Z -> Z -> D -> D -> outcome D) (qs : list Z).
Context (H1 : forall q, In q qs -> lst q = lst' q /\ NoDup (lst q)) (H3 : forall q c, In q qs -> In c (lst q) <-> src c = Some q) (Nq : NoDup qs) (H4 : forall c q, src c = Some q -> In q qs).
Notation fetch := (fun dest q => receive_into (fun c => ab c q) (datas q) (lst q) (lst' q) dest).


Lemma receives_into_ok (val : Z -> D) dest : (forall c q, src c = Some q -> exists v, find c (datas q) = Some v /\ ab c q v (held c dest) = Done (val c)) ->
  exists dest', foldM fetch qs dest = Done dest' /\ forall k, find k dest' = match src k with Some _ => Some (val k) | None => find k dest end.
Proof.
  intros Hv.
  assert (forall qs', incl qs' qs -> NoDup qs' -> forall dst, (forall c q, src c = Some q -> In q qs' -> held c dst = held c dest) ->
    exists dest', foldM fetch qs' dst = Done dest' /\ forall k, find k dest' = match src k with Some q => if mem q qs' then Some (val k) else find k dst | None => find k dst end) as G.
  { induction qs' as [|q qs' IH]; intros I N dst Hd; cbn [foldM]; [exists dst; split; [reflexivity|]; intros k; destruct (src k); reflexivity|].
    pose proof (I q (or_introl eq_refl)) as Iq. destruct (H1 q Iq) as [El Nl]. rewrite <- El. apply NoDup_cons_iff in N. destruct N as [Nq' N].
    destruct (receive_into_ok (fun c => ab c q) (datas q) val (lst q) dst Nl) as (d1 & E1 & P1).
    { intros c Hc. apply H3 in Hc; [|assumption]. destruct (Hv c q Hc) as (v & Ev & Eu). exists v. split; [assumption|]. rewrite (Hd c q Hc (or_introl eq_refl)). assumption. }
    rewrite E1. cbn [bind]. destruct (IH (fun x Hx => I x (or_intror Hx)) N d1) as (d2 & E2 & P2).
    { intros c w Ew Iw. rewrite <- (Hd c w Ew (or_intror Iw)). unfold Stages.held. rewrite P1. rewrite (proj2 (mem_not c (lst q))); [reflexivity|]. rewrite H3 by assumption. intros Q. assert (w = q) by congruence. subst w. contradiction. }
    exists d2. split; [assumption|]. intros k. rewrite P2, P1. destruct (src k) as [w|] eqn:Ew.
    - rewrite mem_cons. destruct (Z.eqb_spec w q) as [->|Nw]; cbn [orb].
      + rewrite (proj2 (mem_not q qs') Nq'). rewrite (proj2 (mem_In k (lst q))) by (apply H3; assumption). reflexivity.
      + destruct (mem w qs'); [reflexivity|]. rewrite (proj2 (mem_not k (lst q))); [reflexivity|]. rewrite H3 by assumption. congruence.
    - rewrite (proj2 (mem_not k (lst q))); [reflexivity|]. rewrite H3 by assumption. congruence. }
  destruct (G qs (incl_refl qs) Nq dest) as (d & E & P); [reflexivity|]. exists d. split; [assumption|]. intros k. rewrite P. destruct (src k) as [w|] eqn:Ew; [|reflexivity].
  rewrite (proj2 (mem_In w qs)) by (apply (H4 k); assumption). reflexivity.
Qed.
Lemma receives_into_inv dest dest' : foldM fetch qs dest = Done dest' -> forall c q, src c = Some q -> exists v u, find c (datas q) = Some v /\ ab c q v (held c dest) = Done u.
Proof.
  assert (forall qs', incl qs' qs -> NoDup qs' -> forall dst dst', foldM fetch qs' dst = Done dst' -> forall c q, src c = Some q -> In q qs' -> exists v u, find c (datas q) = Some v /\ ab c q v (held c dst) = Done u) as G.
  { induction qs' as [|q qs' IH]; intros I N dst dst' E c w Ew Iw; [destruct Iw|]. cbn [foldM] in E. apply bind_done in E. destruct E as (d1 & E1 & E). pose proof (I q (or_introl eq_refl)) as Iq. destruct (H1 q Iq) as [El Nl]. rewrite <- El in E1. apply NoDup_cons_iff in N. destruct N as [Nq' N].
    destruct (receive_into_inv (fun c => ab c q) (datas q) (lst q) dst d1 Nl E1) as [A B]. destruct Iw as [<-|Iw]; [apply A; apply H3; assumption|].
    destruct (IH (fun x Hx => I x (or_intror Hx)) N d1 dst' E c w Ew Iw) as (v & u & Ev & Eu). exists v, u. split; [assumption|]. unfold Stages.held in *. rewrite B in Eu; [assumption|]. rewrite H3 by assumption. intros Q. assert (w = q) by congruence. subst w. contradiction. }
  intros E c q Es. apply (G qs (incl_refl qs) Nq dest dest' E c q Es). apply (H4 c). assumption.
Qed.
End Peers.

(** the cells present do not depend on what messages carry *)
Lemma receive_keys ab (from from' : list (Z * D)) sent l : forall dest dest1 dest', receive_into ab from sent l dest = Done dest1 -> keys dest = keys dest' ->
  keys from = keys from' -> exists dest1', receive from' sent l dest' = Done dest1' /\ keys dest1 = keys dest1'.
Proof.
  revert l. induction sent as [|c' sent IH]; intros [|c l] dest dest1 dest' E K F; cbn [Stages.receive_into receive] in *; try discriminate; [injection E as <-; eauto|].
  apply bind_done in E. destruct E as (v & Ev & E). apply bind_done in E. destruct E as (u & _ & E). unfold at_ in *. destruct (find c' from) as [v0|] eqn:Q; [|discriminate].
  assert (exists v', find c' from' = Some v') as (v' & Ev'). { apply keys_find. rewrite <- F. apply keys_find. eauto. }
  rewrite Ev'. cbn [bind]. apply (IH l _ _ _ E); [apply keys_put; assumption|assumption].
Qed.
Lemma fetch_keys ab (datas datas' : Z -> list (Z * D)) (sent lst : Z -> list Z) qs : forall dest dest1 dest', (forall q, In q qs -> keys (datas q) = keys (datas' q)) ->
  foldM (fun dest q => receive_into (fun c => ab c q) (datas q) (sent q) (lst q) dest) qs dest = Done dest1 -> keys dest = keys dest' ->
  exists dest1', foldM (fun dest q => receive (datas' q) (sent q) (lst q) dest) qs dest' = Done dest1' /\ keys dest1 = keys dest1'.
Proof.
  induction qs as [|q qs IH]; intros dest dest1 dest' F E K; cbn [foldM] in *; [injection E as <-; eauto|]. apply bind_done in E. destruct E as (d1 & E1 & E).
  destruct (receive_keys _ _ (datas' q) _ _ _ _ dest' E1 K (F q (or_introl eq_refl))) as (d1' & E1' & K1). rewrite E1'. cbn [bind]. apply (IH _ _ _ (fun p Hp => F p (or_intror Hp)) E K1).
Qed.
End Receive.

(** ** Load balancing in stages *)
Section Staged.
Context {D : Type} (d0 : D) (g : grid) (Hg : grid_ok g).
Notation m := (g_map g).
Notation rank r := (In r (ranks g)).
Notation moving := (@moving D).

(** what the owner's data becomes by the user's changes *)
Fixpoint kept (l : list (stage (D := D))) (r c : Z) (a : D) : D := match l with [] => a | s :: l => kept l r c (t_write s r c a) end.
(** what the data of a cell moving from o to q becomes at q: a at o, b at q before *)
Fixpoint carried (l : list (stage (D := D))) (c o q : Z) (a b : D) : outcome D :=
  match l with [] => Done b | s :: l => let a' := t_write s o c a in do b' <- t_absorb s c o q a' (t_write s q c b); carried l c o q a' b' end.

(** the same but for the data *)
Definition alike (v w : moving) : Prop :=
  v_recv v = v_recv w /\ v_send v = v_send w /\ v_store v = set_data (v_store w) (s_data (v_store v)) /\ keys (s_data (v_store v)) = keys (s_data (v_store w)).
Lemma alike_change w mv mv' : (forall r, rank r -> alike (mv r) (mv' r)) -> forall r, rank r -> alike (change w mv r) (mv' r).
Proof. intros H r Ir. destruct (H r Ir) as (A & B & C & K). unfold alike, change, with_data. cbn [v_recv v_send v_store]. split; [assumption|]. split; [assumption|]. cbn [set_data s_data]. split; [rewrite C; reflexivity|]. rewrite keys_map. assumption. Qed.
Lemma alike_step ab mv mv' mv1 : (forall r, rank r -> alike (mv r) (mv' r)) -> continue_with d0 g ab mv = Done mv1 ->
  exists mv1', continue_balance_load g mv' = Done mv1' /\ forall r, rank r -> alike (mv1 r) (mv1' r).
Proof.
  intros H E. unfold continue_balance_load, each. match goal with |- exists x, collect _ ?ff ?bb = _ /\ _ => destruct (collect_ok (ranks g) ff bb (fun r v => alike (mv1 r) v)) as (res & Er & P) end.
  - intros r Ir. pose proof (collect_inv _ _ _ _ E r Ir) as Rr. cbv beta in Rr. apply bind_done in Rr. destruct Rr as (data & Ed & Rr). injection Rr as Rr. destruct (H r Ir) as (A & B & C & K). cbn zeta.
    rewrite <- A. destruct (fetch_keys d0 (fun c q => ab c q r) (fun q => s_data (v_store (mv q))) (fun q => s_data (v_store (mv' q))) (fun q => listed r (v_send (mv q))) (fun q => listed q (v_recv (mv r))) (ranks g) _ _ (s_data (v_store (mv' r))) (fun q Iq => proj2 (proj2 (proj2 (H q Iq)))) Ed K) as (data' & Ed' & K').
    assert (foldM (fun dest q => receive (s_data (v_store (mv' q))) (listed r (v_send (mv' q))) (listed q (v_recv (mv r))) dest) (ranks g) (s_data (v_store (mv' r))) = Done data') as Ed''.
    { rewrite <- Ed'. assert (forall qs, (forall q, In q qs -> rank q) -> forall x, foldM (fun dest q => receive (s_data (v_store (mv' q))) (listed r (v_send (mv' q))) (listed q (v_recv (mv r))) dest) qs x = foldM (fun dest q => receive (s_data (v_store (mv' q))) (listed r (v_send (mv q))) (listed q (v_recv (mv r))) dest) qs x) as G; [|apply G; auto].
      induction qs as [|q qs IH]; intros Hq x; [reflexivity|]. cbn [foldM]. destruct (H q (Hq q (or_introl eq_refl))) as (_ & -> & _). match goal with |- bind ?a _ = _ => destruct a end; cbn [bind]; try reflexivity. apply IH. intros p Hp. apply Hq. right. assumption. }
    rewrite Ed''. cbn [bind]. eexists. split; [reflexivity|]. rewrite <- Rr. unfold alike, with_data. cbn [v_recv v_send v_store set_data s_data s_proc s_refd s_unrefd s_pin s_newpin s_wt]. split; [reflexivity|]. split; [assumption|]. split; [rewrite C; reflexivity|assumption].
  - exists res. split; [exact Er|]. intros r Ir. apply (P r Ir).
Qed.
Lemma alike_stages l : forall mv mv' mv1, (forall r, rank r -> alike (mv r) (mv' r)) -> stages d0 g l mv = Done mv1 ->
  exists mv1', continues g (length l) mv' = Done mv1' /\ forall r, rank r -> alike (mv1 r) (mv1' r).
Proof.
  induction l as [|s l IH]; intros mv mv' mv1 H E; cbn [stages continues length] in *; [injection E as <-; eauto|]. apply bind_done in E. destruct E as (mv2 & E2 & E).
  destruct (alike_step _ _ mv' _ (alike_change _ _ _ H) E2) as (mv2' & E2' & H2). rewrite E2'. cbn [bind]. apply (IH _ _ _ H2 E).
Qed.
(** the same but for the data *)
Definition akin (p q : proc D) : Prop :=
  p_req p = p_req q /\ p_cache p = p_cache q /\ p_store p = set_data (p_store q) (s_data (p_store p)) /\ keys (s_data (p_store p)) = keys (s_data (p_store q)).
Lemma alike_migrate mv mv' : (forall r, rank r -> alike (mv r) (mv' r)) -> forall f, migrate g mv f = migrate g mv' f.
Proof.
  intros H. unfold migrate. assert (forall qs, (forall q, In q qs -> rank q) -> forall f, foldM (fun f q => foldM (fun f c => do _ <- at_ c f; Done (put c q f)) (map snd (v_recv (mv q))) f) qs f = foldM (fun f q => foldM (fun f c => do _ <- at_ c f; Done (put c q f)) (map snd (v_recv (mv' q))) f) qs f) as G; [|apply G; auto].
  induction qs as [|q qs IH]; intros Hq x; [reflexivity|]. cbn [foldM]. destruct (H q (Hq q (or_introl eq_refl))) as (-> & _). match goal with |- bind ?a _ = _ => destruct a end; cbn [bind]; try reflexivity. apply IH. intros p Hp. apply Hq. right. assumption.
Qed.
Lemma alike_finish mv mv' st' : (forall r, rank r -> alike (mv r) (mv' r)) -> finish_balance_load g mv' = Done st' ->
  exists st1, finish_balance_load g mv = Done st1 /\ forall r, rank r -> akin (st1 r) (st' r) /\ s_data (p_store (st1 r)) = fold_left (fun f c => del c f) (map snd (v_send (mv r))) (s_data (v_store (mv r))).
Proof.
  intros H E. unfold finish_balance_load at 1, each. match goal with |- exists x, collect _ ?ff ?bb = _ /\ _ => destruct (collect_ok (ranks g) ff bb (fun r v => akin v (st' r) /\ s_data (p_store v) = fold_left (fun f c => del c f) (map snd (v_send (mv r))) (s_data (v_store (mv r))))) as (res & Er & P) end.
  - intros r Ir. pose proof (collect_inv _ _ _ _ E r Ir) as Rr. cbv zeta in Rr. apply bind_done in Rr. destruct Rr as (pr & Ep & Rr). apply bind_done in Rr. destruct Rr as (k & Ek & Rr). injection Rr as Rr. cbn zeta. destruct (H r Ir) as (A & B & C & K).
    rewrite (alike_migrate mv mv' H). assert (s_proc (v_store (mv r)) = s_proc (v_store (mv' r))) as Cp by (rewrite C; reflexivity). rewrite Cp, Ep. cbn [bind].
    match goal with |- context [rebuild g r ?s] => assert (rebuild g r s = Done k) as Ek' end.
    { rewrite <- Ek. apply rebuild_ext; cbn [s_proc s_data]; [reflexivity|]. rewrite B. apply keys_dels. assumption. }
    rewrite Ek'. cbn [bind]. eexists. split; [reflexivity|]. cbn [p_store s_data]. split; [|reflexivity]. rewrite <- Rr. unfold akin. cbn [p_req p_cache p_store s_data set_data s_proc s_refd s_unrefd s_pin s_newpin s_wt].
    split; [reflexivity|]. split; [reflexivity|]. rewrite B. split; [rewrite C; reflexivity|apply keys_dels; assumption].
  - exists res. split; [exact Er|]. intros r Ir. apply (P r Ir).
Qed.

Section One.
Context (own : Z -> option Z) (st : Z -> proc D) (Hgood : good g own st) (Hpins : pins_ok g own st) (z : Z -> answer) (dest : Z -> option Z) (Hz : answers_ok g own z dest).
Notation target := (target g own st dest).
(** cell c moves from o to q *)
Definition moves (c o q : Z) : Prop := own c = Some o /\ target c = Some q /\ o <> q.
Definition lists_ok (mv : Z -> moving) : Prop := forall r, rank r -> recv_ok g own st dest r (v_recv (mv r)) /\ send_ok g own st dest r (v_send (mv r)).
(** the data held by every process: sv at the owners, rv at the destinations *)
Definition holding (sv rv : Z -> D) (mv : Z -> moving) : Prop := forall r c, rank r -> find c (s_data (v_store (mv r))) =
  match own c with
  | None => None
  | Some o => if o =? r then Some (sv c) else match target c with Some q => if q =? r then Some (rv c) else None | None => None end
  end.
Definition at_owner (F : Z -> Z -> D -> D) (sv : Z -> D) (c : Z) : D := match own c with Some o => F o c (sv c) | None => sv c end.
Definition at_target (F : Z -> Z -> D -> D) (rv : Z -> D) (c : Z) : D := match target c with Some q => F q c (rv c) | None => rv c end.
Lemma change_ok w sv rv mv : holding sv rv mv -> holding (at_owner w sv) (at_target w rv) (change w mv).
Proof.
  intros H r c Ir. unfold change, with_data. cbn [v_store set_data s_data]. rewrite find_map, (H r c Ir). unfold at_owner, at_target. destruct (own c) as [o|]; [|reflexivity]. destruct (Z.eqb_spec o r) as [->|]; [reflexivity|].
  destruct (target c) as [q|]; [|reflexivity]. destruct (Z.eqb_spec q r) as [->|]; reflexivity.
Qed.
Notation coming r := (fun c => match own c with Some q => if (negb (q =? r)) && match target c with Some p => p =? r | None => false end then Some q else None | None => None end).
Lemma coming_moves r c q : coming r c = Some q <-> moves c q r.
Proof.
  unfold moves. destruct (own c) as [o|]; [|split; [discriminate|intros (? & _); discriminate]]. destruct (target c) as [p|].
  - destruct (Z.eqb_spec o r) as [->|N]; cbn [negb andb]; [split; [discriminate|intros (Q & _ & N); congruence]|]. destruct (Z.eqb_spec p r) as [->|Np]; (split; [intros Q|intros (A & B & C)]); try congruence.
    injection Q as <-. auto.
  - rewrite andb_false_r. split; [discriminate|intros (_ & ? & _); discriminate].
Qed.
Lemma peers mv r : lists_ok mv -> rank r ->
  (forall q, rank q -> listed r (v_send (mv q)) = listed q (v_recv (mv r)) /\ NoDup (listed r (v_send (mv q)))) /\
  (forall q c, rank q -> In c (listed r (v_send (mv q))) <-> coming r c = Some q) /\ (forall c q, coming r c = Some q -> rank q).
Proof.
  intros H Ir. destruct (H r Ir) as [Hr _]. split; [|split].
  - intros q Iq. destruct (H q Iq) as [_ Hsq]. split; [|apply listed_NoDup, Hsq]. apply listed_same; [apply Hsq|apply Hr|]. intros c. rewrite (proj2 Hsq), (proj2 Hr). split; intros (A & B & C); auto.
  - intros q c Iq. destruct (H q Iq) as [_ Hsq]. rewrite coming_moves, listed_In, (proj2 Hsq). unfold moves. split; intros (A & B & C); auto.
  - intros c q Q. apply coming_moves in Q. apply (proj2 (proj1 Hgood) c q). apply Q.
Qed.
Lemma lists_kept mv f : lists_ok mv -> lists_ok (fun r => with_data (mv r) (f r)).
Proof. intros H r Ir. apply (H r Ir). Qed.
Lemma step_ok ab sv rv mv (val : Z -> D) : lists_ok mv -> holding sv rv mv -> (forall c o q, moves c o q -> ab c o q (sv c) (rv c) = Done (val c)) ->
  exists mv1, continue_with d0 g ab mv = Done mv1 /\ lists_ok mv1 /\ holding sv val mv1.
Proof.
  intros Hl H Hv. unfold continue_with, each. match goal with |- exists x, collect _ ?ff ?bb = _ /\ _ => destruct (collect_ok (ranks g) ff bb (fun r v => v_recv v = v_recv (mv r) /\ v_send v = v_send (mv r) /\ forall c, find c (s_data (v_store v)) = match own c with None => None | Some o => if o =? r then Some (sv c) else match target c with Some q => if q =? r then Some (val c) else None | None => None end end)) as (res & Er & P) end.
  - intros r Ir. destruct (peers mv r Hl Ir) as (P1 & P2 & P3).
    destruct (receives_into_ok d0 (fun q => listed r (v_send (mv q))) (fun q => listed q (v_recv (mv r))) (fun q => s_data (v_store (mv q))) (coming r) (fun c q => ab c q r) (ranks g) P1 P2 (ranks_NoDup g) P3 val (s_data (v_store (mv r)))) as (d & Ed & Hd).
    { intros c q Q. pose proof (P3 c q Q) as Iq. apply coming_moves in Q. pose proof Q as (O & T & N). exists (sv c). rewrite (H q c Iq), O, Z.eqb_refl. split; [reflexivity|]. unfold held. rewrite (H r c Ir), O, T, Z.eqb_refl. destruct (Z.eqb_spec q r); [contradiction|]. apply Hv. assumption. }
    rewrite Ed. cbn [bind]. eexists. split; [reflexivity|]. unfold with_data. cbn [v_recv v_send v_store set_data s_data]. split; [reflexivity|]. split; [reflexivity|]. intros c. rewrite Hd, (H r c Ir).
    destruct (own c) as [o|]; [|reflexivity]. destruct (Z.eqb_spec o r); cbn [negb andb]; [reflexivity|]. destruct (target c) as [q|]; [|reflexivity]. destruct (q =? r); reflexivity.
  - exists res. split; [exact Er|]. split.
    + intros r Ir. destruct (P r Ir) as (_ & -> & -> & _). apply (Hl r Ir).
    + intros r c Ir. destruct (P r Ir) as (_ & _ & _ & Q). apply Q.
Qed.
Lemma step_inv ab sv rv mv mv1 : lists_ok mv -> holding sv rv mv -> continue_with d0 g ab mv = Done mv1 -> forall c o q, moves c o q -> exists v, ab c o q (sv c) (rv c) = Done v.
Proof.
  intros Hl H E c o r Q. pose proof Q as (O & T & N). assert (rank r) as Ir by (apply (target_in g Hg own st Hgood Hpins z dest Hz c r T)). pose proof (collect_inv _ _ _ _ E r Ir) as Rr. cbv beta in Rr. apply bind_done in Rr. destruct Rr as (data & Ed & _).
  destruct (peers mv r Hl Ir) as (P1 & P2 & P3). apply coming_moves in Q. pose proof (P3 c o Q) as Io.
  destruct (receives_into_inv d0 (fun q => listed r (v_send (mv q))) (fun q => listed q (v_recv (mv r))) (fun q => s_data (v_store (mv q))) (coming r) (fun c q => ab c q r) (ranks g) P1 P2 (ranks_NoDup g) P3 (s_data (v_store (mv r))) data Ed c o Q) as (v & u & Ev & Eu).
  rewrite (H o c Io), O, Z.eqb_refl in Ev. injection Ev as <-. unfold held in Eu. rewrite (H r c Ir), O, T, Z.eqb_refl in Eu. destruct (Z.eqb_spec o r); [contradiction|]. eauto.
Qed.
Lemma holding_ext sv rv sv' rv' mv : holding sv rv mv -> (forall c o, own c = Some o -> sv c = sv' c) -> (forall c o q, moves c o q -> rv c = rv' c) -> holding sv' rv' mv.
Proof.
  intros H E1 E2 r c Ir. rewrite (H r c Ir). destruct (own c) as [o|] eqn:O; [|reflexivity]. destruct (Z.eqb_spec o r); [rewrite (E1 c o O); reflexivity|]. destruct (target c) as [q|] eqn:T; [|reflexivity].
  destruct (Z.eqb_spec q r) as [->|]; [|reflexivity]. rewrite (E2 c o r); [reflexivity|]. unfold moves. auto.
Qed.
Definition pick (F : Z -> Z -> Z -> outcome D) (c : Z) : D := match own c, target c with Some o, Some q => match F c o q with Done v => v | _ => d0 end | _, _ => d0 end.
Lemma pick_ok F c o q v : moves c o q -> F c o q = Done v -> pick F c = v.
Proof. intros (O & T & _) E. unfold pick. rewrite O, T, E. reflexivity. Qed.
Lemma stages_ok l : forall sv rv mv val, lists_ok mv -> holding sv rv mv -> (forall c o q, moves c o q -> carried l c o q (sv c) (rv c) = Done (val c)) ->
  exists mv1, stages d0 g l mv = Done mv1 /\ lists_ok mv1 /\ holding (at_owner (kept l) sv) val mv1.
Proof.
  induction l as [|s l IH]; intros sv rv mv val Hl H Hc; cbn [stages].
  - exists mv. split; [reflexivity|]. split; [assumption|]. apply (holding_ext sv rv); [assumption| |].
    + intros c o O. unfold at_owner. rewrite O. reflexivity.
    + intros c o q Q. specialize (Hc c o q Q). cbn [carried] in Hc. congruence.
  - set (sv1 := at_owner (t_write s) sv). set (rv1 := at_target (t_write s) rv). set (mid := pick (fun c o q => t_absorb s c o q (sv1 c) (rv1 c))).
    assert (forall c o q, moves c o q -> t_absorb s c o q (sv1 c) (rv1 c) = Done (mid c) /\ carried l c o q (sv1 c) (mid c) = Done (val c)) as Hs.
    { intros c o q Q. specialize (Hc c o q Q). cbn [carried] in Hc. assert (t_write s o c (sv c) = sv1 c /\ t_write s q c (rv c) = rv1 c) as [E1 E2] by (unfold sv1, rv1, at_owner, at_target; destruct Q as (-> & -> & _); auto). rewrite E1, E2 in Hc.
      apply bind_done in Hc. destruct Hc as (b & Eb & Hc). assert (mid c = b) as -> by (apply (pick_ok _ c o q b Q Eb)). auto. }
    destruct (step_ok (t_absorb s) sv1 rv1 (change (t_write s) mv) mid) as (mv1 & E1 & L1 & H1); [apply (lists_kept mv); assumption|apply change_ok; assumption|intros c o q Q; apply (Hs c o q Q)|]. rewrite E1. cbn [bind].
    destruct (IH sv1 mid mv1 val L1 H1 (fun c o q Q => proj2 (Hs c o q Q))) as (mv2 & E2 & L2 & H2). exists mv2. split; [assumption|]. split; [assumption|].
    apply (holding_ext _ val _ val _ H2); [|reflexivity]. intros c o O. unfold sv1, at_owner. rewrite O. reflexivity.
Qed.
Lemma stages_inv l : forall sv rv mv mv1, lists_ok mv -> holding sv rv mv -> stages d0 g l mv = Done mv1 -> forall c o q, moves c o q -> exists v, carried l c o q (sv c) (rv c) = Done v.
Proof.
  induction l as [|s l IH]; intros sv rv mv mv1 Hl H E c o q Q; cbn [stages carried] in *; [eauto|]. apply bind_done in E. destruct E as (mv2 & E2 & E).
  set (sv1 := at_owner (t_write s) sv). set (rv1 := at_target (t_write s) rv). set (mid := pick (fun c o q => t_absorb s c o q (sv1 c) (rv1 c))).
  assert (forall c o q, moves c o q -> t_absorb s c o q (sv1 c) (rv1 c) = Done (mid c)) as Hs.
  { intros c1 o1 q1 Q1. destruct (step_inv (t_absorb s) sv1 rv1 _ _ (lists_kept mv _ Hl) (change_ok _ _ _ _ H) E2 c1 o1 q1 Q1) as (v & Ev). rewrite Ev. f_equal. symmetry. apply (pick_ok _ c1 o1 q1 v Q1 Ev). }
  destruct (step_ok (t_absorb s) sv1 rv1 (change (t_write s) mv) mid (lists_kept mv _ Hl) (change_ok _ _ _ _ H) Hs) as (mv3 & E3 & L3 & H3). assert (mv3 = mv2) as -> by congruence.
  assert (t_write s o c (sv c) = sv1 c /\ t_write s q c (rv c) = rv1 c) as [W1 W2] by (unfold sv1, rv1, at_owner, at_target; destruct Q as (-> & -> & _); auto). rewrite W1, W2, (Hs c o q Q). cbn [bind].
  apply (IH sv1 mid mv2 mv1 L3 H3 E c o q Q).
Qed.

(** the data of a cell at its owner *)
Definition value_of (c : Z) : D := match own c with Some o => held d0 c (s_data (p_store (st o))) | None => d0 end.
Lemma staged_iff l : (exists st1, staged_balance d0 g l st z = Done st1) <-> forall c o q, moves c o q -> exists v, carried l c o q (value_of c) d0 = Done v.
Proof.
  unfold staged_balance. destruct (init_balance_ok d0 g Hg own st Hgood Hpins z dest Hz) as (mv0 & E0 & H0). rewrite E0. cbn [bind].
  assert (lists_ok mv0) as L0 by (intros r Ir; destruct (H0 r Ir) as (A & B & _); auto).
  assert (holding value_of (fun _ => d0) mv0) as K0.
  { intros r c Ir. destruct (H0 r Ir) as (_ & _ & _ & _ & _ & _ & _ & _ & _ & ->). destruct (own c) as [o|] eqn:O; [|reflexivity]. unfold value_of, held. rewrite O. destruct (Z.eqb_spec o r) as [->|]; [|reflexivity]. destruct (data_some g own st Hgood r c O) as (v & ->). reflexivity. }
  split.
  - intros (st1 & E). apply bind_done in E. destruct E as (mv & E & _). apply (stages_inv l _ _ _ _ L0 K0 E).
  - intros H. destruct (stages_ok l value_of (fun _ => d0) mv0 (pick (fun c o q => carried l c o q (value_of c) d0)) L0 K0) as (mv & E & _).
    { intros c o q Q. destruct (H c o q Q) as (v & Ev). rewrite Ev. f_equal. symmetry. apply (pick_ok _ c o q v Q Ev). }
    rewrite E. cbn [bind]. destruct (alike_stages l mv0 mv0 mv) as (mv' & E' & A); [intros r Ir; unfold alike; split; [reflexivity|split; [reflexivity|split; [destruct (v_store (mv0 r)); reflexivity|reflexivity]]]|assumption|].
    destruct (balance_load_ok d0 g Hg own st Hgood Hpins z dest Hz (length l)) as (st' & Eb & _). unfold balance_load in Eb. rewrite E0 in Eb. cbn [bind] in Eb. rewrite E' in Eb. cbn [bind] in Eb.
    destruct (alike_finish mv mv' st' A Eb) as (st1 & Es & _). eauto.
Qed.
Lemma staged_result l st1 : staged_balance d0 g l st z = Done st1 -> exists st', balance_load d0 g (length l) st z = Done st' /\
  (forall r, rank r -> akin (st1 r) (st' r)) /\
  (forall c o q, own c = Some o -> target c = Some q -> exists u, find c (s_data (p_store (st1 q))) = Some u /\
     (if o =? q then u = kept l o c (value_of c) else carried l c o q (value_of c) d0 = Done u)).
Proof.
  intros E. pose proof (proj1 (staged_iff l) (ex_intro _ st1 E)) as Hc. revert E. unfold staged_balance. destruct (init_balance_ok d0 g Hg own st Hgood Hpins z dest Hz) as (mv0 & E0 & H0). rewrite E0. cbn [bind].
  assert (lists_ok mv0) as L0 by (intros r Ir; destruct (H0 r Ir) as (A & B & _); auto).
  assert (holding value_of (fun _ => d0) mv0) as K0.
  { intros r c Ir. destruct (H0 r Ir) as (_ & _ & _ & _ & _ & _ & _ & _ & _ & ->). destruct (own c) as [o|] eqn:O; [|reflexivity]. unfold value_of, held. rewrite O. destruct (Z.eqb_spec o r) as [->|]; [|reflexivity]. destruct (data_some g own st Hgood r c O) as (v & ->). reflexivity. }
  intros E. apply bind_done in E. destruct E as (mv & E & Ef).
  destruct (stages_ok l value_of (fun _ => d0) mv0 (pick (fun c o q => carried l c o q (value_of c) d0)) L0 K0) as (mv2 & E2 & L2 & K2).
  { intros c o q Q. destruct (Hc c o q Q) as (v & Ev). rewrite Ev. f_equal. symmetry. apply (pick_ok _ c o q v Q Ev). }
  assert (mv2 = mv) as -> by congruence.
  destruct (alike_stages l mv0 mv0 mv) as (mv' & E' & A); [intros r Ir; unfold alike; split; [reflexivity|split; [reflexivity|split; [destruct (v_store (mv0 r)); reflexivity|reflexivity]]]|assumption|].
  destruct (balance_load_ok d0 g Hg own st Hgood Hpins z dest Hz (length l)) as (st' & Eb & _). pose proof Eb as Eb'. unfold balance_load in Eb. rewrite E0 in Eb. cbn [bind] in Eb. rewrite E' in Eb. cbn [bind] in Eb.
  destruct (alike_finish mv mv' st' A Eb) as (st2 & Es & P). assert (st2 = st1) as -> by congruence. exists st'. split; [assumption|]. split; [intros r Ir; apply (P r Ir)|].
  intros c o q O T. pose proof (target_in g Hg own st Hgood Hpins z dest Hz c q T) as Iq. destruct (P q Iq) as (_ & ->). rewrite find_dels.
  assert (mem c (map snd (v_send (mv q))) = false) as ->.
  { apply mem_not. rewrite in_map_iff. intros ([p c1] & E1 & Q). cbn [snd] in E1. subst c1. apply (proj2 (L2 q Iq)) in Q. destruct Q as (_ & N & T'). congruence. }
  rewrite (K2 q c Iq), O, T, Z.eqb_refl. destruct (Z.eqb_spec o q) as [->|N].
  - eexists. split; [reflexivity|]. unfold at_owner. rewrite O. reflexivity.
  - eexists. split; [reflexivity|]. destruct (Hc c o q) as (v & Ev); [unfold moves; auto|]. rewrite Ev. f_equal. symmetry. apply (pick_ok _ c o q v); [unfold moves; auto|assumption].
Qed.
End One.
End Staged.
