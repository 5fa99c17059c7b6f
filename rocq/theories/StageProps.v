(** Cell data moved in parts and in several stages. *)
From Verif Require Import U64 MapModel MapSpec MapProofs MapFamily MapProps HoodModel MeshModel
  MeshSpec MeshBase HoodProps Sets RefineModel RefineGeo RefineInv RefineFold RefineStop BalanceModel Create Balance
  History HistProps CommitProps BalProps CommModel CommInv CommProps Stages.
Open Scope Z_scope.

(** ** The user's changes of data reach every content of the present cells *)
Section WriteAll.
Context {D : Type} (d0 : D) (g : grid) (Hg : grid_ok g).
Notation rank r := (In r (ranks g)).
Definition over (l f : list (Z * D)) : list (Z * D) := map (fun e => (fst e, match find (fst e) l with Some v => v | None => snd e end)) f.
Lemma over_cons c v l f : over ((c, v) :: l) f = map (fun e => (fst e, if fst e =? c then v else snd e)) (over l f).
Proof. unfold over. rewrite map_map. apply map_ext. intros [k w]. cbn [fst snd find]. destruct (k =? c); reflexivity. Qed.
Lemma over_all l f : keys l = keys f -> NoDup (keys f) -> over l f = l.
Proof.
  intros K N. apply assoc_eq; unfold over.
  - rewrite (keys_map (fun k w => match find k l with Some v => v | None => w end)). symmetry. assumption.
  - rewrite (keys_map (fun k w => match find k l with Some v => v | None => w end)). assumption.
  - intros k. rewrite (find_map (fun k w => match find k l with Some v => v | None => w end)). destruct (find k f) as [w|] eqn:F.
    + assert (exists v, find k l = Some v) as (v & ->) by (apply keys_find; rewrite K; apply keys_find; eauto). reflexivity.
    + destruct (find k l) as [v|] eqn:L; [|reflexivity]. exfalso. assert (exists v, find k f = Some v) as (w & Fw) by (apply keys_find; rewrite <- K; apply keys_find; eauto). congruence.
Qed.
Lemma write_rank st r l : reachable d0 g st -> rank r -> exists st1, reachable d0 g st1 /\
  st1 r = with_store (st r) (set_data (p_store (st r)) (over l (s_data (p_store (st r))))) /\ forall q, q <> r -> st1 q = st q.
Proof.
  intros R Ir. induction l as [|[c v] l (st1 & R1 & E1 & O1)].
  - exists st. split; [assumption|]. split; [|reflexivity]. assert (over [] (s_data (p_store (st r))) = s_data (p_store (st r))) as ->.
    { unfold over. rewrite <- (map_id (s_data (p_store (st r)))) at 2. apply map_ext. intros []; reflexivity. }
    destruct (st r) as [? ? []]. reflexivity.
  - eexists. split; [apply (reach_step d0 g st1 (Write r c v)); [assumption|assumption|reflexivity]|]. unfold set_rank. rewrite Z.eqb_refl. split.
    + rewrite E1, over_cons. destruct (st r) as [? ? []]. reflexivity.
    + intros q N. destruct (Z.eqb_spec q r); [contradiction|]. apply O1. assumption.
Qed.
Lemma write_all st (T : Z -> list (Z * D)) : reachable d0 g st -> (forall r, rank r -> keys (T r) = keys (s_data (p_store (st r))) /\ NoDup (keys (T r))) ->
  exists st1, reachable d0 g st1 /\ forall r, rank r -> st1 r = with_store (st r) (set_data (p_store (st r)) (T r)).
Proof.
  intros R H. assert (forall qs, NoDup qs -> (forall q, In q qs -> rank q) -> exists st1, reachable d0 g st1 /\ (forall r, In r qs -> st1 r = with_store (st r) (set_data (p_store (st r)) (T r))) /\ forall r, ~ In r qs -> st1 r = st r) as G.
  { induction qs as [|q qs IH]; intros N Hq; [exists st; split; [assumption|]; split; [intros r []|reflexivity]|]. apply NoDup_cons_iff in N. destruct N as [Nq N]. destruct IH as (st1 & R1 & E1 & O1); [assumption|intros p Hp; apply Hq; right; assumption|].
    pose proof (Hq q (or_introl eq_refl)) as Iq. destruct (write_rank st1 q (T q) R1 Iq) as (st2 & R2 & E2 & O2). exists st2. split; [assumption|]. split.
    - intros r [<-|Hr]; [|rewrite O2 by (intros ->; contradiction); apply E1; assumption]. rewrite E2, (O1 q Nq). destruct (H q Iq) as [K Nk]. rewrite over_all; [reflexivity|assumption|rewrite <- K; assumption].
    - intros r Hr. rewrite O2 by (intros ->; apply Hr; left; reflexivity). apply O1. intros Q. apply Hr. right. assumption. }
  destruct (G (ranks g) (ranks_NoDup g)) as (st1 & R1 & E1 & _); [auto|]. eauto.
Qed.
End WriteAll.

Section Props.
Context {D : Type} (d0 : D) (g : grid) (Hg : grid_ok g).
Notation m := (g_map g).
Notation reachable := (reachable d0 g).
Notation rank r := (In r (ranks g)).
Notation rank0 := (rank0 g Hg).
Notation view := (view g).
Notation effective_pin := (effective_pin g).

(** where load balancing puts a cell, see c30_balancing_moves_cells *)
Definition new_owner (st : Z -> proc D) (dest : Z -> option Z) (c : Z) : option Z :=
  match owner st 0 c with
  | None => None
  | Some o => Some (match effective_pin st c with Some q => q | None => match dest c with Some q => q | None => o end end)
  end.
Lemma new_owner_eq own st dest c : inv g own st -> new_owner st dest c = target g own st dest c.
Proof. intros Hi. unfold new_owner, target. rewrite (view own st 0 c Hi rank0), (effective_pin_eq g Hg own st c Hi). destruct (own c); [|reflexivity]. destruct (pin_after g own st c); [reflexivity|]. destruct (dest c); reflexivity. Qed.
Lemma value_of_eq own st c o v : inv g own st -> own c = Some o -> data_of (st o) c = Some v -> value_of d0 own st c = v.
Proof. intros Hi O E. destruct (data_local g own st o c Hi (proj2 (proj1 (proj1 Hi)) c o O) O) as (w & F). unfold data_of in E. rewrite F in E. injection E as ->. unfold value_of, held. rewrite O, F. reflexivity. Qed.

(** load balancing in stages ends well if and only if every message fits where it goes; [carried]
    follows the data of one cell from process o to q, d0 being what q starts with *)
Theorem c72_when_stages_succeed st z dest l : reachable st -> answers_ok g (owner st 0) z dest ->
  (exists st', staged_balance d0 g l st z = Done st') <->
  forall c o q v, owner st 0 c = Some o -> new_owner st dest c = Some q -> o <> q -> data_of (st o) c = Some v -> exists u, carried l c o q v d0 = Done u.
Proof.
  intros R Hz. destruct (reachable_inv d0 g Hg st R) as (own & Hi).
  assert (answers_ok g own z dest) as Hz' by (apply (answers_ext g (owner st 0)); [intros x; apply (view own st 0 x Hi rank0)|assumption]).
  rewrite (staged_iff d0 g Hg own st (proj1 Hi) (proj2 Hi) z dest Hz' l). split.
  - intros H c o q v O T N E. rewrite (view own st 0 c Hi rank0) in O. rewrite (new_owner_eq own st dest c Hi) in T. destruct (H c o q) as (u & Eu); [unfold moves; auto|]. rewrite (value_of_eq own st c o v Hi O E) in Eu. eauto.
  - intros H c o q (O & T & N). destruct (data_local g own st o c Hi (proj2 (proj1 (proj1 Hi)) c o O) O) as (v & F). assert (data_of (st o) c = Some v) as E by (unfold data_of; rewrite F; reflexivity).
    rewrite (value_of_eq own st c o v Hi O E). apply (H c o q v); [rewrite (view own st 0 c Hi rank0); assumption|rewrite (new_owner_eq own st dest c Hi); assumption|assumption|assumption].
Qed.

(** everything but cell data is as after load balancing without stages, the cells on each process
    included *)
Theorem c72_stages_only_change_data st z dest l st' : reachable st -> answers_ok g (owner st 0) z dest -> staged_balance d0 g l st z = Done st' ->
  exists st0, balance_load d0 g (length l) st z = Done st0 /\ forall r, rank r -> exists f, keys f = keys (s_data (p_store (st0 r))) /\
    st' r = Proc (p_req (st0 r)) (p_cache (st0 r)) (Store (s_proc (p_store (st0 r))) f (s_refd (p_store (st0 r))) (s_unrefd (p_store (st0 r))) (s_pin (p_store (st0 r))) (s_newpin (p_store (st0 r))) (s_wt (p_store (st0 r)))).
Proof.
  intros R Hz E. destruct (reachable_inv d0 g Hg st R) as (own & Hi).
  assert (answers_ok g own z dest) as Hz' by (apply (answers_ext g (owner st 0)); [intros x; apply (view own st 0 x Hi rank0)|assumption]).
  destruct (staged_result d0 g Hg own st (proj1 Hi) (proj2 Hi) z dest Hz' l st' E) as (st0 & E0 & A & _). exists st0. split; [assumption|]. intros r Ir. destruct (A r Ir) as (Aq & Ac & As & Ak). exists (s_data (p_store (st' r))). split; [assumption|].
  rewrite <- Aq, <- Ac. destruct (st' r) as [rq ch sto]. cbn [p_req p_cache p_store] in *. f_equal. exact As.
Qed.

(** who owns the cells and what data they have *)
Theorem c72_stages_move_data st z dest l st' c o q v : reachable st -> answers_ok g (owner st 0) z dest -> staged_balance d0 g l st z = Done st' ->
  owner st 0 c = Some o -> new_owner st dest c = Some q -> data_of (st o) c = Some v ->
  (forall r, rank r -> owner st' r c = Some q) /\
  (exists u, data_of (st' q) c = Some u /\ if o =? q then u = kept l o c v else carried l c o q v d0 = Done u) /\
  forall p, rank p -> p <> q -> data_of (st' p) c = None.
Proof.
  intros R Hz E O T V. destruct (reachable_inv d0 g Hg st R) as (own & Hi).
  assert (answers_ok g own z dest) as Hz' by (apply (answers_ext g (owner st 0)); [intros x; apply (view own st 0 x Hi rank0)|assumption]).
  destruct (staged_result d0 g Hg own st (proj1 Hi) (proj2 Hi) z dest Hz' l st' E) as (st0 & E0 & A & Dt). pose proof (c30_balancing_moves_cells d0 g Hg st (length l) z dest st0) as M.
  rewrite (view own st 0 c Hi rank0) in O. pose proof T as T0. rewrite (new_owner_eq own st dest c Hi) in T. destruct (balance_view d0 g Hg st _ z dest st0 R Hz E0) as (own1 & Hi1 & Hi1' & B1).
  split; [|split].
  - intros r Ir. destruct (A r Ir) as (_ & _ & As & _). unfold owner. rewrite As. cbn [set_data s_proc]. change (owner st0 r c = Some q). rewrite (M r c R Hz E0 Ir), <- T0. reflexivity.
  - destruct (Dt c o q O T) as (u & F & Q). exists u. split; [unfold data_of; rewrite F; reflexivity|]. rewrite (value_of_eq own st c o v Hi O V) in Q. assumption.
  - intros p Ip N. destruct (A p Ip) as (_ & _ & As & Ak). destruct (bl_rest _ _ _ _ _ _ _ B1 p Ip) as (_ & _ & Rf & Un & _).
    assert (find c (s_data (p_store (st' p))) = None) as F.
    { destruct (find c (s_data (p_store (st' p)))) as [w|] eqn:F; [|reflexivity]. exfalso. assert (exists w, find c (s_data (p_store (st0 p))) = Some w) as (w' & F') by (apply keys_find; rewrite <- Ak; apply keys_find; eauto).
      rewrite (data_not_local g _ st0 p c Hi1' Ip) in F'; [discriminate|]. rewrite <- (new_owner_eq own1 st dest c Hi1), T0. congruence. }
    unfold data_of. rewrite F, As. cbn [set_data s_refd s_unrefd]. rewrite Rf, Un. reflexivity.
Qed.

(** the result is as after a sequence of ordinary calls: load balancing, then writing data *)
Theorem c72_stages_reach_ordinary_states st z dest l st' : reachable st -> answers_ok g (owner st 0) z dest -> staged_balance d0 g l st z = Done st' ->
  exists st1, reachable st1 /\ forall r, rank r -> st1 r = st' r.
Proof.
  intros R Hz E. destruct (reachable_inv d0 g Hg st R) as (own & Hi).
  assert (answers_ok g own z dest) as Hz' by (apply (answers_ext g (owner st 0)); [intros x; apply (view own st 0 x Hi rank0)|assumption]).
  destruct (staged_result d0 g Hg own st (proj1 Hi) (proj2 Hi) z dest Hz' l st' E) as (st0 & E0 & A & _).
  assert (reachable st0) as R0 by (apply (reach_step d0 g st (LoadBalance (length l) z)); [assumption|exists dest; assumption|assumption]). destruct (reachable_inv d0 g Hg st0 R0) as (own0 & Hi0).
  destruct (write_all d0 g st0 (fun r => s_data (p_store (st' r))) R0) as (st1 & R1 & E1).
  { intros r Ir. destruct (A r Ir) as (_ & _ & _ & K). split; [assumption|]. rewrite K. destruct (proj2 (proj1 Hi0) r Ir) as ((_ & _ & N & _) & _). assumption. }
  exists st1. split; [assumption|]. intros r Ir. rewrite (E1 r Ir). destruct (A r Ir) as (Aq & Ac & As & _). destruct (st' r) as [rq ch sto]. cbn [p_req p_cache p_store] in *. rewrite Aq, Ac. unfold with_store. f_equal. symmetry. exact As.
Qed.

(** two results with the same data in every cell are the same *)
Lemma akin_eq own (p q : proc D) : keys (s_data (p_store p)) = keys (s_data (p_store q)) -> akin p q -> store_ok own 0 (p_store q) \/ NoDup (keys (s_data (p_store q))) -> (forall c, find c (s_data (p_store p)) = find c (s_data (p_store q))) -> p = q.
Proof.
  intros K (A & B & C & _) N F. assert (NoDup (keys (s_data (p_store q)))) as Nd by (destruct N as [(_ & _ & N & _)|N]; assumption). assert (s_data (p_store p) = s_data (p_store q)) as Ed by (apply assoc_eq; [assumption|rewrite K; assumption|assumption]).
  destruct p as [a1 a2 s], q as [b1 b2 s']. cbn [p_req p_cache p_store] in *. subst. rewrite C, Ed. destruct s'. reflexivity.
Qed.
(** stages in which nothing is lost: the result is that of ordinary load balancing *)
Lemma stages_lose_nothing st z dest l : reachable st -> answers_ok g (owner st 0) z dest ->
  (forall c o v, owner st 0 c = Some o -> data_of (st o) c = Some v -> kept l o c v = v /\ forall q, o <> q -> carried l c o q v d0 = Done v) -> (1 <= length l)%nat ->
  exists st' st0, staged_balance d0 g l st z = Done st' /\ balance_load d0 g (length l) st z = Done st0 /\ forall r, rank r -> st' r = st0 r.
Proof.
  intros R Hz H Hl. destruct (proj2 (c72_when_stages_succeed st z dest l R Hz)) as (st' & E).
  { intros c o q v O T N V. exists v. apply (H c o v O V). assumption. }
  destruct (reachable_inv d0 g Hg st R) as (own & Hi).
  assert (answers_ok g own z dest) as Hz' by (apply (answers_ext g (owner st 0)); [intros x; apply (view own st 0 x Hi rank0)|assumption]).
  destruct (staged_result d0 g Hg own st (proj1 Hi) (proj2 Hi) z dest Hz' l st' E) as (st0 & E0 & A & Dt). exists st', st0. split; [assumption|]. split; [assumption|]. intros r Ir.
  destruct (balance_load_ok d0 g Hg own st (proj1 Hi) (proj2 Hi) z dest Hz' (length l)) as (st0' & E0' & B). assert (st0' = st0) as -> by congruence.
  pose proof (bl_good _ _ _ _ _ _ _ B) as (_ & Gs). destruct (Gs r Ir) as ((_ & _ & Nd & Hd) & _).
  apply (akin_eq own); [apply (A r Ir)|apply (A r Ir)|right; assumption|]. intros c. destruct (find c (s_data (p_store (st0 r)))) as [w|] eqn:F0.
  - assert (target g own st dest c = Some r) as T by (apply Hd, has_find; eauto). destruct (bl_data _ _ _ _ _ _ _ B r c T) as (o & O & Q). rewrite F0 in Q.
    destruct (data_local g own st o c Hi (proj2 (proj1 (proj1 Hi)) c o O) O) as (v & V). destruct (Z.ltb_spec 0 (Z.of_nat (length l))); [|lia]. rewrite orb_true_r, V in Q. injection Q as ->.
    assert (data_of (st o) c = Some v) as V' by (unfold data_of; rewrite V; reflexivity). assert (owner st 0 c = Some o) as O' by (rewrite (view own st 0 c Hi rank0); assumption). destruct (H c o v O' V') as [H1 H2].
    destruct (Dt c o r O T) as (u & Fu & Q). rewrite (value_of_eq own st c o v Hi O V') in Q. rewrite Fu. f_equal. destruct (Z.eqb_spec o r) as [->|N]; [congruence|]. rewrite (H2 r N) in Q. congruence.
  - destruct (find c (s_data (p_store (st' r)))) as [w|] eqn:F; [|reflexivity]. exfalso. assert (exists w, find c (s_data (p_store (st0 r))) = Some w) as (w' & F') by (apply keys_find; destruct (A r Ir) as (_ & _ & _ & <-); apply keys_find; eauto). congruence.
Qed.

(** *** Data sent part by part *)
(** what is left at the receiver after a transfer of one part: a function of the data sent and of
    that held before *)
Definition sends (p : D -> D -> D) : stage := Stage (fun _ _ x => x) (fun _ _ _ v b => Done (p v b)).
(** if the parts together make up the data then sending them one after another moves the data *)
Theorem c72_parts_make_the_whole st z dest (parts : list (D -> D -> D)) : reachable st -> answers_ok g (owner st 0) z dest -> parts <> [] ->
  (forall c o v, owner st 0 c = Some o -> data_of (st o) c = Some v -> fold_left (fun b p => p v b) parts d0 = v) ->
  exists st' st0, staged_balance d0 g (map sends parts) st z = Done st' /\ balance_load d0 g (length parts) st z = Done st0 /\ forall r, rank r -> st' r = st0 r.
Proof.
  intros R Hz Np Hp. assert (forall l r c v, kept (map sends l) r c v = v) as Hk by (induction l as [|p l IH]; intros r c v; [reflexivity|apply IH]).
  assert (forall l c o q v b, carried (map sends l) c o q v b = Done (fold_left (fun b p => p v b) l b)) as Hc by (induction l as [|p l IH]; intros c o q v b; [reflexivity|cbn [map carried sends t_write t_absorb bind fold_left]; apply IH]).
  destruct (stages_lose_nothing st z dest (map sends parts) R Hz) as (st' & st0 & E & E0 & H).
  - intros c o v O V. split; [apply Hk|]. intros q N. rewrite Hc, (Hp c o v O V). reflexivity.
  - rewrite map_length. destruct parts; [contradiction|cbn; lia].
  - rewrite map_length in E0. eauto.
Qed.
End Props.

(** *** Data of any length *)
Section Lists.
Context {A : Type} (a0 : A).
(** a message of src into memory holding dst: it fails if it is too long, and leaves what is
    behind its end *)
Definition fill (src dst : list A) : outcome (list A) := if (length src <=? length dst)%nat then Done (src ++ skipn (length src) dst) else Threw.
Definition resize (k : nat) (l : list A) : list A := firstn k l ++ repeat a0 (k - length l).
Lemma resize_length k l : length (resize k l) = k.
Proof. unfold resize. rewrite app_length, firstn_length, repeat_length. lia. Qed.
Lemma resize_same l : resize (length l) l = l.
Proof. unfold resize. rewrite firstn_all, Nat.sub_diag. apply app_nil_r. Qed.
Lemma fill_same src dst : length src = length dst -> fill src dst = Done src.
Proof. intros E. unfold fill. rewrite E, Nat.leb_refl, skipn_all. rewrite app_nil_r. reflexivity. Qed.

Context (g : grid) (Hg : grid_ok g).
Notation rank r := (In r (ranks g)).

(** the number of items is sent first, then every process makes room for as many, then the items
    are sent *)
Definition sized : list (stage (D := nat * list A)) :=
  [Stage (fun _ _ x => x) (fun _ _ _ v b => Done (fst v, snd b));
   Stage (fun _ _ x => (fst x, resize (fst x) (snd x))) (fun _ _ _ v b => do l <- fill (snd v) (snd b); Done (fst b, l))].
Theorem c72_length_then_items d0 st z dest : reachable d0 g st -> answers_ok g (owner st 0) z dest ->
  (forall c o v, owner st 0 c = Some o -> data_of (st o) c = Some v -> fst v = length (snd v)) ->
  exists st' st0, staged_balance d0 g sized st z = Done st' /\ balance_load d0 g 2 st z = Done st0 /\ forall r, rank r -> st' r = st0 r.
Proof.
  intros R Hz H. apply (stages_lose_nothing d0 g Hg st z dest sized R Hz); [|cbn; lia]. intros c o [k l] O V. specialize (H c o _ O V). cbn [fst snd] in H. subst k.
  unfold sized. cbn [kept carried t_write t_absorb fst snd bind]. rewrite resize_same. split; [reflexivity|]. intros q N. rewrite fill_same; [reflexivity|]. rewrite resize_length. reflexivity.
Qed.
(** as in tests/load_balancing/multi_stage_load_balancing.cpp: arrays of n items, made large enough
    on arrival, one item per stage *)
Fixpoint set_item (i : nat) (a : A) (l : list A) : list A :=
  match l, i with [], _ => [] | _ :: r, O => a :: r | x :: r, S j => x :: set_item j a r end.
Definition item_stage (n i : nat) : stage (D := list A) := Stage (fun _ _ => resize n) (fun _ _ _ v b => Done (set_item i (nth i v a0) b)).
Lemma set_item_length i a l : length (set_item i a l) = length l.
Proof. revert i. induction l as [|x l IH]; intros [|i]; cbn; auto. Qed.
Lemma set_items v : forall k b, length b = length v -> (k <= length v)%nat -> fold_left (fun b i => set_item i (nth i v a0) b) (seq 0 k) b = firstn k v ++ skipn k b.
Proof.
  induction k as [|k IH]; intros b L Hk; [reflexivity|]. rewrite seq_S, fold_left_app, IH by lia. cbn [fold_left Nat.add].
  assert (forall j u w, length u = length w -> (j < length u)%nat -> set_item j (nth j u a0) (firstn j u ++ skipn j w) = firstn (S j) u ++ skipn (S j) w) as G.
  { clear. induction j as [|j IH]; intros [|x u] [|y w] L Hj; cbn [length] in *; try lia; [reflexivity|]. cbn [firstn skipn app nth set_item]. f_equal. rewrite IH by lia. reflexivity. }
  apply G; [congruence|lia].
Qed.
Theorem c72_items_one_by_one (n : nat) d0 st z dest : reachable d0 g st -> answers_ok g (owner st 0) z dest -> (1 <= n)%nat ->
  (forall c o v, owner st 0 c = Some o -> data_of (st o) c = Some v -> length v = n) ->
  exists st' st0, staged_balance d0 g (map (item_stage n) (seq 0 n)) st z = Done st' /\ balance_load d0 g n st z = Done st0 /\ forall r, rank r -> st' r = st0 r.
Proof.
  intros R Hz Hn H. assert (forall l r c v, length v = n -> kept (map (item_stage n) l) r c v = v) as Hk.
  { induction l as [|i l IH]; intros r c v L; [reflexivity|]. cbn [map kept item_stage t_write]. rewrite <- L, resize_same, L. apply IH. assumption. }
  assert (forall l c o q v b, length v = n -> length b = n -> carried (map (item_stage n) l) c o q v b = Done (fold_left (fun b i => set_item i (nth i v a0) b) l b)) as Hc.
  { induction l as [|i l IH]; intros c o q v b L Lb; [reflexivity|]. cbn [map carried item_stage t_write t_absorb bind fold_left]. assert (resize n v = v) as -> by (rewrite <- L; apply resize_same). assert (resize n b = b) as -> by (rewrite <- Lb; apply resize_same). apply IH; [assumption|]. rewrite set_item_length. assumption. }
  destruct (stages_lose_nothing d0 g Hg st z dest (map (item_stage n) (seq 0 n)) R Hz) as (st' & st0 & E & E0 & Q).
  - intros c o v O V. specialize (H c o v O V). split; [apply Hk; assumption|]. intros q N.
    assert (carried (map (item_stage n) (seq 0 n)) c o q v d0 = carried (map (item_stage n) (seq 0 n)) c o q v (resize n d0)) as ->.
    { destruct n; [lia|]. cbn [seq map carried item_stage t_write t_absorb bind]. f_equal. f_equal. set (d := resize (S n) d0). assert (length d = S n) as Ld by apply resize_length. rewrite <- Ld, resize_same. reflexivity. }
    rewrite Hc; [|assumption|apply resize_length]. rewrite set_items; [|rewrite resize_length; auto|lia]. rewrite <- H at 1. rewrite firstn_all. f_equal. rewrite skipn_all2; [apply app_nil_r|]. rewrite resize_length. lia.
  - rewrite map_length, seq_length. assumption.
  - rewrite map_length, seq_length in E0. eauto.
Qed.
(** without the first stage receivers that start with nothing cannot receive anything *)
Theorem c72_items_alone_do_not_fit st z dest : reachable [] g st -> answers_ok g (owner st 0) z dest ->
  (exists st', staged_balance [] g [Stage (fun _ _ x => x) (fun _ _ _ => fill)] st z = Done st') <->
  forall c o q, owner st 0 c = Some o -> new_owner g st dest c = Some q -> o <> q -> data_of (st o) c = Some [].
Proof.
  intros R Hz. rewrite (c72_when_stages_succeed [] g Hg st z dest _ R Hz). destruct (reachable_inv [] g Hg st R) as (own & Hi). split.
  - intros H c o q O T N. assert (exists v, data_of (st o) c = Some v) as (v & V).
    { pose proof O as O'. rewrite (HistProps.view g own st 0 c Hi (rank0 g Hg)) in O'. destruct (data_local g own st o c Hi (proj2 (proj1 (proj1 Hi)) c o O') O') as (v & F). exists v. unfold data_of. rewrite F. reflexivity. }
    rewrite V. destruct (H c o q v O T N V) as (u & Eu). cbn [carried t_write t_absorb] in Eu. unfold fill in Eu. destruct v; [reflexivity|discriminate].
  - intros H c o q v O T N V. rewrite (H c o q O T N) in V. injection V as <-. exists []. reflexivity.
Qed.

(** ** One message per process instead of one per cell (dccrg.hpp:10888-10990, 11097-11200;
    this is the default, 7286) *)
(** the items of one message are spread over the room in the cells expected *)
Fixpoint pour (stream : list A) (cells : list Z) (dest : list (Z * list A)) : list (Z * list A) :=
  match cells with
  | [] => dest
  | c :: r => let old := held [] c dest in let k := length old in
              pour (skipn k stream) r (put c (firstn k stream ++ skipn (length (firstn k stream)) old) dest)
  end.
Definition room (cells : list Z) (dest : list (Z * list A)) : nat := fold_right (fun c k => (length (held [] c dest) + k)%nat) 0%nat cells.
Definition receive_whole (from : list (Z * list A)) (sent expected : list Z) (dest : list (Z * list A)) : outcome (list (Z * list A)) :=
  do vs <- mapM (fun c => at_ c from) sent;
  if (length (concat vs) <=? room expected dest)%nat then Done (pour (concat vs) expected dest) else Threw.

Lemma room_put c u cells dest : ~ In c cells -> room cells (put c u dest) = room cells dest.
Proof. induction cells as [|k cells IH]; intros N; cbn [room fold_right]; [reflexivity|]. unfold room in IH. rewrite IH by (intros Q; apply N; right; assumption). rewrite held_put. destruct (Z.eqb_spec k c) as [->|]; [exfalso; apply N; left; reflexivity|reflexivity]. Qed.
(** it makes no difference if the cells have the same sizes on both sides *)
Theorem c72_whole_messages (from : list (Z * list A)) l dest : NoDup l -> (forall c, In c l -> exists v, find c from = Some v /\ length v = length (held [] c dest)) ->
  exists dest', receive_whole from l l dest = Done dest' /\ receive_into [] (fun _ => fill) from l l dest = Done dest' /\
  forall c, In c l -> find c dest' = find c from.
Proof.
  intros N H. assert (exists vs, mapM (fun c => at_ c from) l = Done vs /\ length (concat vs) = room l dest /\ receive_into [] (fun _ => fill) from l l dest = Done (pour (concat vs) l dest)) as (vs & E & L & Q).
  { revert dest N H. induction l as [|c l IH]; intros dest N H; [exists []; auto|]. apply NoDup_cons_iff in N. destruct N as [Nc N]. destruct (H c (or_introl eq_refl)) as (v & Fv & Lv).
    destruct (IH (put c v dest) N) as (vs & E & L & Q).
    { intros k Hk. destruct (H k (or_intror Hk)) as (w & Fw & Lw). exists w. split; [assumption|]. rewrite held_put. destruct (Z.eqb_spec k c) as [->|]; [contradiction|assumption]. }
    exists (v :: vs). cbn [mapM receive_into]. unfold at_ at 1. rewrite Fv. cbn [bind]. rewrite E. cbn [bind]. split; [reflexivity|]. cbn [concat room fold_right]. rewrite app_length, L. unfold at_ at 1. rewrite Fv. cbn [bind]. rewrite (fill_same _ _ Lv). cbn [bind].
    split; [rewrite Lv; fold (room l dest); rewrite room_put by assumption; reflexivity|]. rewrite Q. cbn [pour]. rewrite <- Lv. f_equal. rewrite firstn_app, firstn_all, Nat.sub_diag, skipn_app, skipn_all, Nat.sub_diag. cbn [firstn skipn app]. rewrite app_nil_r. f_equal. rewrite Lv, skipn_all, app_nil_r. reflexivity. }
  unfold receive_whole. rewrite E. cbn [bind]. rewrite L, Nat.leb_refl. eexists. split; [reflexivity|]. split; [assumption|]. intros c Hc.
  destruct (receive_into_ok [] (fun _ => fill) from (fun c => held [] c from) l dest N) as (d & Ed & Pd).
  { intros k Hk. destruct (H k Hk) as (v & Fv & Lv). exists v. split; [assumption|]. unfold held at 2. rewrite Fv. apply fill_same. assumption. }
  rewrite Q in Ed. injection Ed as ->. rewrite Pd, (proj2 (mem_In c l) Hc). destruct (H c Hc) as (v & Fv & _). unfold held. rewrite Fv. reflexivity.
Qed.
End Lists.
(** otherwise items may end up in other cells than those they belong to, although single messages
    would have failed *)
Theorem c72_whole_messages_refuted :
  let from := [(1, [10]); (2, [20; 21])] in let dest := [(1, [0; 0]); (2, [0])] in
  receive_whole from [1; 2] [1; 2] dest = Done [(2, [21]); (1, [10; 20])] /\ receive_into [] (fun _ => fill) from [1; 2] [1; 2] dest = Threw.
Proof. split; reflexivity. Qed.
