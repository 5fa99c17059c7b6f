(** Properties of neighborhoods' lists, process boundaries, copies of remote neighbors, selection
    of cells and iterator caches after any history of calls. *)
From Verif Require Import U64 MapModel MapSpec MapProofs MapFamily MapProps HoodModel MeshModel
  MeshSpec MeshBase HoodProps MeshWalk MeshFind MeshKids MeshItem MeshCheck MeshTo MeshNear
  Sets RefineModel RefineGeo RefineInv RefineSpread RefineMerge RefineFold RefineExec RefineStop
  BalanceModel RefineReqs Create Balance History HistProps CommitProps BalProps CommModel CommInv.
Open Scope Z_scope.

Lemma no_default_hood {D} (d0 : D) g (Hg : grid_ok g) x : xreachable d0 g x -> hood_lookup (x_hoods x) default_neighborhood_id = None.
Proof.
  intros R. induction R as [D d0 x E|D d0 curve batches x Hc E|D d0 x a x' R IH Ha E|D d0 D' d0' x R IH Eh].
  - unfold xinitialize in E. apply bind_done in E. destruct E as (st & _ & E). injection E as <-. reflexivity.
  - unfold xinitialize_sfc in E. apply bind_done in E. destruct E as (st & _ & E). injection E as <-. reflexivity.
  - destruct a as [a|r c v|id items|id|id|id]; cbn [xrun] in E.
    + apply bind_done in E. destruct E as (st & _ & E). injection E as <-. exact IH.
    + injection E as <-. exact IH.
    + destruct (add_neighborhood (g_len g) (x_hoods x) id items) as [ok hs] eqn:A. pose proof (c12_add_neighborhood (g_len g) (x_hoods x) id items (proj1 (proj1 (proj2 Hg)))) as B. rewrite A in B. destruct B as (B1 & _ & B3).
      destruct ok; cbn [negb] in E; [|injection E as <-; exact IH]. apply bind_done in E. destruct E as (ls & _ & E). injection E as <-. cbn [x_hoods].
      destruct (B3 eq_refl) as [_ B4]. rewrite B4; [exact IH|]. intros Q. apply (proj1 (proj1 B1 eq_refl)). congruence.
    + injection E as <-. cbn [x_hoods]. rewrite c12_remove_neighborhood. destruct (_ && _); [reflexivity|exact IH].
    + apply bind_done in E. destruct E as (L & _ & E). apply bind_done in E. destruct E as (cp & _ & E). injection E as <-. exact IH.
    + apply bind_done in E. destruct E as ([b y] & E1 & E). injection E as <-. unfold update_copies in E1.
      repeat (apply bind_done in E1; destruct E1 as (? & _ & E1)). injection E1 as _ <-. exact IH.
  - reflexivity.
Qed.

Section Props.
Context {D : Type} (d0 : D) (g : grid) (Hg : grid_ok g).
Notation m := (g_map g).
Notation t := (g_topo g).
Notation np := (g_np g).
Notation xreachable := (xreachable d0 g).
Notation rank r := (In r (ranks g)).
Notation state := (xstate (D := D)).
(** the neighborhood items behind an id: the default neighborhood or one added by the user *)
Notation hood_at := (hood_at g).

(** q owns c, as rank r knows it *)
Definition owns (x : state) (r q c : Z) : Prop := owner (x_st x) r c = Some q.
(** c exists on another process than r *)
Definition elsewhere (x : state) (r c : Z) : Prop := exists q, owns x r q c /\ q <> r.
(** c is owned by q and in the neighborhood of a cell of r *)
Definition needs (U : hood) (x : state) (r q c : Z) : Prop :=
  owns x r q c /\ q <> r /\ exists a, owns x r r a /\ sees m t U a c.

Lemma xview own (x : state) r c : xinv g own x -> rank r -> owner (x_st x) r c = own c.
Proof. intros (Hi & _) Ir. apply (owner_eq g); assumption. Qed.
Lemma needs_iff own U (x : state) r q c : xinv g own x -> rank r -> needs U x r q c <-> receives g U own r q c.
Proof.
  intros Hx Ir. unfold needs, owns, receives. rewrite (xview own x r c Hx Ir). split; intros (A & B & a & C & S); (split; [assumption|]; split; [assumption|]; exists a; split; [|assumption]).
  - rewrite <- (xview own x r a Hx Ir). assumption.
  - rewrite (xview own x r a Hx Ir). assumption.
Qed.
Lemma elsewhere_iff own (x : state) r b : xinv g own x -> rank r -> elsewhere x r b <-> exo own b = true /\ own b <> Some r.
Proof.
  intros Hx Ir. unfold elsewhere, owns. rewrite (xview own x r b Hx Ir), exo_some. split.
  - intros (q & E & N). split; [eauto|]. congruence.
  - intros ((q & E) & N). exists q. split; [assumption|]. congruence.
Qed.

(** ** Histories *)
Theorem c34_every_call_succeeds : (exists x, xinitialize d0 g = Done x) /\
  forall x a, xreachable x -> xallowed g x a -> exists x', xrun d0 g x a = Done x'.
Proof.
  split; [destruct (xinitialize_inv d0 g Hg) as (x & E & _); eauto|]. intros x a R Ha. destruct (xreachable_inv d0 g Hg x R) as (own & Hx).
  destruct (xrun_ok d0 g Hg own x a Hx Ha) as (own' & x' & E & _). eauto.
Qed.

(** the properties of HistProps, CommitProps, BalProps and LoadCells hold for these histories *)
Theorem c25_histories_with_neighborhoods x : xreachable x -> reachable d0 g (x_st x).
Proof. apply xreachable_reachable. Qed.

(** ** Transfers *)
Theorem c33_update_lists x id U r q : xreachable x -> hood_at (x_hoods x) id = Some U -> rank r -> rank q ->
  exists Lr Lq sent expected,
    lists_of g (x_hoods x) id r (x_st x r) = Done (Some Lr) /\ lists_of g (x_hoods x) id q (x_st x q) = Done (Some Lq) /\
    recv_pairs r (p_store (x_st x r)) Lr = Done expected /\ send_pairs q (p_store (x_st x q)) Lq = Done sent /\
    tagged (listed r sent) = tagged (listed q expected) /\
    NoDup (listed q expected) /\ (forall c, In c (listed q expected) <-> needs U x r q c).
Proof.
  intros R EU Ir Iq. destruct (xreachable_inv d0 g Hg x R) as (own & Hx). pose proof Hx as ((Hgood & _) & _ & Ho). pose proof Hgood as (Hw & Hr).
  destruct (lists_of_ok g Hg own _ _ id r U Hgood Ho Ir EU) as (Lr & E1 & S1). destruct (lists_of_ok g Hg own _ _ id q U Hgood Ho Iq EU) as (Lq & E2 & S2).
  destruct (recv_pairs_ok g own r _ Hw (proj1 (Hr r Ir)) U Lr S1) as (ex & E3 & N3 & P3). destruct (send_pairs_ok g own q _ Hw (proj1 (Hr q Iq)) U Lq S2) as (sd & E4 & N4 & P4).
  exists Lr, Lq, sd, ex. do 4 (split; [assumption|]). split; [|split].
  - f_equal. apply listed_same'; [assumption|assumption|]. intros k. rewrite P3, P4. reflexivity.
  - apply listed_NoDup'. assumption.
  - intros c. rewrite listed_In, P3. symmetry. apply (needs_iff own); assumption.
Qed.

(** the messages of one sender have different tags *)
Theorem c33_tags_differ l i j c c' k k' : nth_error (tagged l) i = Some (c, k) -> nth_error (tagged l) j = Some (c', k') -> k = k' -> i = j.
Proof.
  assert (forall (l0 : list Z) s i c k, nth_error (combine l0 (map (fun i => Z.of_nat i + 1) (seq s (length l0)))) i = Some (c, k) -> k = Z.of_nat (s + i) + 1) as K.
  { clear. induction l0 as [|a l0 IH]; intros s [|i] c k; cbn [length seq map combine nth_error]; try discriminate.
    - intros E. injection E as _ <-. rewrite Nat.add_0_r. reflexivity.
    - intros E. apply IH in E. rewrite E. lia. }
  unfold tagged. intros E1 E2 E. apply K in E1. apply K in E2. lia.
Qed.

(** load balancing: the cells r receives from q are those moving from q to r *)
Theorem c33_balance_lists st k z dest st' r q : reachable d0 g st -> answers_ok g (owner st 0) z dest -> balance_load d0 g k st z = Done st' -> rank r -> rank q ->
  exists mv, initialize_balance_load d0 g st z = Done mv /\
    tagged (listed r (v_send (mv q))) = tagged (listed q (v_recv (mv r))) /\ NoDup (listed q (v_recv (mv r))) /\
    forall c, In c (listed q (v_recv (mv r))) <-> owner st r c = Some q /\ q <> r /\ owner st' r c = Some r.
Proof.
  intros R Hz E Ir Iq. destruct (balance_view d0 g Hg st k z dest st' R Hz E) as (own & Hi & Hi' & B). pose proof (HistProps.rank0 g Hg) as I0.
  assert (answers_ok g own z dest) as Hz' by (apply (answers_ext g (owner st 0)); [intros x; apply (view g own st 0 x Hi I0)|assumption]).
  destruct (init_balance_ok d0 g Hg own st (proj1 Hi) (proj2 Hi) z dest Hz') as (mv & Em & Pm). exists mv. split; [assumption|].
  destruct (Pm q Iq) as (_ & (Ns & Ps) & _). destruct (Pm r Ir) as ((Nr & Pr) & _). split; [|split].
  - f_equal. apply listed_same; [assumption|assumption|]. intros c. rewrite Ps, Pr. split; intros (A & N & C); auto.
  - apply listed_NoDup. assumption.
  - intros c. rewrite listed_In, Pr, (view g own st r c Hi Ir), (view g _ st' r c Hi' Ir). reflexivity.
Qed.

(** unrefinement: r receives from q the data of the removed cells of q of which r becomes the
    owner of the parent *)
Theorem c33_unrefine_lists st x toref tounref res r q : reachable d0 g st ->
  override_refines g st = Done x -> induce_refines g st (fun r => snd (x r)) = Done toref -> override_unrefines g st toref = Done tounref ->
  stop_refining d0 g st = Done res -> rank r -> rank q ->
  exists sq nq aq pq send rq sr nr ar pr er recv,
    execute_local d0 g q (toref q) (tounref q) (p_store (st q)) = Done (sq, nq, aq, pq, send, rq) /\
    execute_local d0 g r (toref r) (tounref r) (p_store (st r)) = Done (sr, nr, ar, pr, er, recv) /\
    tagged (listed r send) = tagged (listed q recv) /\ NoDup (listed q recv) /\
    forall c, In c (listed q recv) <-> owner st r c = Some q /\ q <> r /\ 0 < lvl_of m c /\
      was_unrefined g st (state_of res) (get_parent m c) /\ owner (state_of res) r (get_parent m c) = Some r.
Proof.
  intros R Ex Et Eu Es Ir Iq. destruct (reachable_inv d0 g Hg st R) as (own & Hi). pose proof Hi as (Hgood & _).
  destruct (override_refines_ok g Hg own st Hgood) as (x' & Ex' & Px). assert (x' = x) as -> by congruence.
  destruct (induce_refines_ok g Hg own st Hgood (fun r => snd (x r))) as (tr & Et' & Pt); [intros y c Iy; apply (Px y c Iy)|]. assert (tr = toref) as -> by congruence.
  destruct (override_unrefines_ok g Hg own st Hgood toref Pt) as (tu & Eu' & Pu). assert (tu = tounref) as -> by congruence.
  pose proof (induce_refines_NoDup g st _ _ Et (override_refines_NoDup g st x Ex)) as Nt.
  destruct (execute_local_ok d0 g Hg own st Hgood toref tounref (fun r => fst (x r)) Pt Nt Pu q Iq) as ([[[[[sq nq] aq] pq] send] rq] & Eq & Lq).
  destruct (execute_local_ok d0 g Hg own st Hgood toref tounref (fun r => fst (x r)) Pt Nt Pu r Ir) as ([[[[[sr nr] ar] pr] er] recv] & Er & Lr).
  unfold local_spec in Lq, Lr. destruct Lq as (_ & _ & _ & _ & _ & _ & _ & _ & _ & _ & _ & _ & Sq & Nsq & _). destruct Lr as (_ & _ & _ & _ & _ & _ & _ & _ & _ & _ & _ & _ & _ & _ & Rr & Nrr).
  exists sq, nq, aq, pq, send, rq, sr, nr, ar, pr, er, recv. split; [assumption|]. split; [assumption|]. split; [|split].
  - f_equal. apply listed_same; [assumption|assumption|]. intros c. rewrite Sq, Rr. split; intros (A & B & C & N); auto.
  - apply listed_NoDup. assumption.
  - intros c. rewrite listed_In, Rr.
    destruct (stop_refining_ok d0 g Hg own st Hgood) as (own2 & res' & E' & C). assert (res' = res) as -> by congruence. pose proof (inv_commit d0 g Hg own st own2 res Hi C) as Hi2.
    destruct (execute_refines_ok d0 g Hg own st Hgood toref tounref (fun r => fst (x r)) Pt Nt Pu) as (res1 & Er1 & Gr & _).
    assert (res1 = res) as -> by (unfold stop_refining in Es; rewrite Ex in Es; cbn [bind] in Es; rewrite Et in Es; cbn [bind] in Es; rewrite Eu in Es; cbn [bind] in Es; congruence).
    assert (forall y, owner (state_of res) r y = own' g own toref tounref y) as Ov by (intros y; apply (proj1 (proj1 (proj2 Gr r Ir)))).
    rewrite Ov, (view g own st r c Hi Ir), (Mk_iff g Hg own st Hgood tounref Pu c), (unrefined_iff d0 g Hg own own2 st res _ Hi Hi2 C). unfold removed. split.
    + intros ((V & Lc & Mg) & O & P & N). auto.
    + intros (O & N & Lc & Mg & P). split; [|auto]. split; [|auto]. apply (RefineSpread.own_valid g own st Hgood). unfold exo. rewrite O. reflexivity.
Qed.

Theorem c34_update x id U : xreachable x -> hood_at (x_hoods x) id = Some U ->
  exists b x', update_copies g x id = Done (b, x') /\ x_st x' = x_st x /\ x_hoods x' = x_hoods x /\
  forall r c, rank r ->
    (forall q, needs U x r q c -> exists v, find c (s_data (p_store (x_st x q))) = Some v /\ read x' r c = Some v) /\
    ((forall q, ~ needs U x r q c) -> read x' r c = read x r c).
Proof.
  intros R EU. destruct (xreachable_inv d0 g Hg x R) as (own & Hx). destruct (update_ok g Hg own x id U Hx EU) as (x' & E & E1 & E2 & P).
  exists (match hood_lookup (x_hoods x) id with Some _ => true | None => false end), x'. split; [assumption|]. split; [assumption|]. split; [assumption|]. intros r c Ir. destruct (P r Ir) as [_ Q]. destruct (Q c) as [Q1 Q2].
  pose proof Hx as ((Hgood & _) & _). pose proof Hgood as (Hw & Hr). split.
  - intros q N. apply (needs_iff own U x r q c Hx Ir) in N. specialize (Q1 q N). destruct N as (O & N & _). assert (rank q) as Iq by (apply (proj2 Hw c q O)).
    assert (has c (s_data (p_store (x_st x q))) = true) as Hq by (apply (proj2 (proj2 (proj2 (proj1 (Hr q Iq))))); assumption). apply has_find in Hq. destruct Hq as (v & Ev). exists v. split; [assumption|].
    unfold read. rewrite E1. assert (find c (s_data (p_store (x_st x r))) = None) as ->.
    { apply has_not. destruct (has c (s_data (p_store (x_st x r)))) eqn:Hh; [|reflexivity]. apply (proj2 (proj2 (proj2 (proj1 (Hr r Ir))))) in Hh. congruence. }
    rewrite Q1, Ev. reflexivity.
  - intros N. unfold read. rewrite E1, Q2; [reflexivity|]. intros q K. apply (N q). apply (needs_iff own); assumption.
Qed.

(** a copy of every remote cell on the process boundary exists at all times *)
Theorem c34_copies_exist x r a b : xreachable x -> rank r -> owns x r r a -> elsewhere x r b ->
  sees m t (g_hood g) a b \/ sees m t (g_hood g) b a -> exists v, read x r b = Some v.
Proof.
  intros R Ir Oa Eb S. destruct (xreachable_inv d0 g Hg x R) as (own & Hx). unfold owns in Oa. rewrite (xview own x r a Hx Ir) in Oa. apply (elsewhere_iff own x r b Hx Ir) in Eb. destruct Eb as [Eb Nb].
  pose proof Hx as ((Hgood & _) & Hc & _). pose proof Hgood as (Hw & Hr). destruct (Hr r Ir) as (Hs & Hk & _).
  pose proof (default_lists_ok g Hg own r _ _ Hw Hs Hk) as (_ & _ & _ & Rm & _). destruct (Hc r Ir) as [_ K]. assert (has b (x_copies x r) = true) as Hb.
  { apply K. apply Rm. exists a. split; [assumption|]. auto. }
  apply has_find in Hb. destruct Hb as (v & Ev). unfold read. rewrite Ev. destruct (find b (s_data (p_store (x_st x r)))); eauto.
Qed.
(** nothing but local cells, copies of remote cells on the process boundary and cells of the last
    commit can be read *)
Theorem c34_nothing_else_can_be_read x r c v : xreachable x -> rank r -> read x r c = Some v ->
  owns x r r c \/ (elsewhere x r c /\ exists a, owns x r r a /\ (sees m t (g_hood g) a c \/ sees m t (g_hood g) c a)) \/
  has c (s_refd (p_store (x_st x r))) = true \/ has c (s_unrefd (p_store (x_st x r))) = true.
Proof.
  intros R Ir E. destruct (xreachable_inv d0 g Hg x R) as (own & Hx). pose proof Hx as ((Hgood & _) & Hc & _). pose proof Hgood as (Hw & Hr). destruct (Hr r Ir) as (Hs & Hk & _). unfold read in E.
  destruct (find c (s_data (p_store (x_st x r)))) as [u|] eqn:E1.
  { left. unfold owns. rewrite (xview own x r c Hx Ir). apply (proj2 (proj2 (proj2 Hs))). apply has_find. eauto. }
  destruct (find c (x_copies x r)) as [u|] eqn:E2.
  { right. left. destruct (Hc r Ir) as [_ K]. assert (has c (x_copies x r) = true) as Hb by (apply has_find; eauto). apply K in Hb.
    pose proof (default_lists_ok g Hg own r _ _ Hw Hs Hk) as (_ & _ & _ & Rm & _). apply Rm in Hb. destruct Hb as (a & Oa & Eb & Nb & S). split; [apply (elsewhere_iff own); auto|].
    exists a. split; [|assumption]. unfold owns. rewrite (xview own x r a Hx Ir). assumption. }
  right. right. destruct (find c (s_refd (p_store (x_st x r)))) as [u|] eqn:E3; [left|right]; apply has_find; eauto.
Qed.

(** ** The returned value *)
Lemma no_default own (x : state) : xreachable x -> xinv g own x -> hood_lookup (x_hoods x) default_neighborhood_id = None.
Proof. intros R _. apply (no_default_hood d0 g Hg x R). Qed.
(** documented as true: the update of the default neighborhood reports failure, the update of
    user neighborhoods success; updates of unknown neighborhoods throw *)
Theorem c35_returned_value x id : xreachable x ->
  (id = default_neighborhood_id -> exists x', update_copies g x id = Done (false, x')) /\
  (id <> default_neighborhood_id -> hood_lookup (x_hoods x) id <> None -> exists x', update_copies g x id = Done (true, x')) /\
  (id <> default_neighborhood_id -> hood_lookup (x_hoods x) id = None -> update_copies g x id = Threw).
Proof.
  intros R. destruct (xreachable_inv d0 g Hg x R) as (own & Hx). split; [|split].
  - intros ->. destruct (update_ok g Hg own x default_neighborhood_id (g_hood g) Hx) as (x' & E & _); [unfold CommInv.hood_at; rewrite Z.eqb_refl; reflexivity|].
    rewrite (no_default own x R Hx) in E. eauto.
  - intros N K. destruct (hood_known g (x_hoods x) id (or_intror K)) as (U & EU). destruct (update_ok g Hg own x id U Hx EU) as (x' & E & _). destruct (hood_lookup (x_hoods x) id); [eauto|congruence].
  - intros N K. unfold update_copies.
    destruct (each_ok g (fun r => lists_of g (x_hoods x) id r (x_st x r)) (fun _ => None) (fun r L => L = None)) as (L & EL & PL).
    { intros r _. exists None. split; [|reflexivity]. apply lists_of_none. unfold CommInv.hood_at. destruct (Z.eqb_spec id default_neighborhood_id); [contradiction|assumption]. }
    rewrite EL. cbn [bind]. pose proof (Balance.rank0 g Hg) as I0. unfold each. destruct (ranks g) as [|r l]; [destruct I0|]. cbn [collect].
    destruct (PL r (or_introl eq_refl)) as [_ ->]. reflexivity.
Qed.

(** ** Process boundaries *)
Definition touches_remote (U : hood) (x : state) (r a : Z) : Prop :=
  exists b, elsewhere x r b /\ (sees m t U a b \/ sees m t U b a).
Theorem c36_boundaries x id U r : xreachable x -> hood_at (x_hoods x) id = Some U -> rank r ->
  exists outer inner remote,
    get_local_cells_on_process_boundary g (x_hoods x) id r (x_st x r) = Done outer /\
    get_local_cells_not_on_process_boundary g (x_hoods x) id r (x_st x r) = Done inner /\
    get_remote_cells_on_process_boundary g (x_hoods x) id r (x_st x r) = Done remote /\
    NoDup outer /\ NoDup inner /\ NoDup remote /\
    (forall a, In a outer <-> owns x r r a /\ touches_remote U x r a) /\
    (forall a, In a inner <-> owns x r r a /\ ~ touches_remote U x r a) /\
    (forall b, In b remote <-> elsewhere x r b /\ exists a, owns x r r a /\ (sees m t U a b \/ sees m t U b a)).
Proof.
  intros R EU Ir. destruct (xreachable_inv d0 g Hg x R) as (own & Hx). pose proof Hx as ((Hgood & _) & _ & Ho). pose proof Hgood as (Hw & Hr). destruct (Hr r Ir) as (Hs & _).
  destruct (lists_of_ok g Hg own _ _ id r U Hgood Ho Ir EU) as (L & EL & SL). destruct SL as (_ & _ & Lo & Re & N1 & N2).
  unfold get_local_cells_on_process_boundary, get_local_cells_not_on_process_boundary, get_remote_cells_on_process_boundary. rewrite EL. cbn [bind].
  eexists _, _, _. do 3 (split; [reflexivity|]). split; [assumption|]. split; [apply NoDup_filter; apply Hs|]. split; [assumption|].
  assert (forall a, owns x r r a <-> own a = Some r) as Ow by (intros a; unfold owns; rewrite (xview own x r a Hx Ir); reflexivity).
  assert (forall a, In a (l_local L) <-> owns x r r a /\ touches_remote U x r a) as K.
  { intros a. rewrite Lo, Ow. unfold beside, touches_remote. split.
    - intros (b & Oa & Eb & Nb & S). split; [assumption|]. exists b. rewrite (elsewhere_iff own) by assumption. auto.
    - intros (Oa & b & Eb & S). rewrite (elsewhere_iff own) in Eb by assumption. exists b. tauto. }
  split; [exact K|]. split.
  - intros a. rewrite filter_In, negb_true_iff, mem_not, K, Ow, keys_find, <- has_find. rewrite (proj2 (proj2 (proj2 Hs)) a). tauto.
  - intros b. rewrite Re. unfold beside. rewrite (elsewhere_iff own) by assumption. split.
    + intros (a & Oa & Eb & Nb & S). split; [auto|]. exists a. rewrite Ow. auto.
    + intros ((Eb & Nb) & a & Oa & S). exists a. rewrite Ow in Oa. auto.
Qed.
Theorem c36_unknown_neighborhood (x : state) id r : hood_at (x_hoods x) id = None ->
  get_local_cells_on_process_boundary g (x_hoods x) id r (x_st x r) = Done [] /\
  get_local_cells_not_on_process_boundary g (x_hoods x) id r (x_st x r) = Done [] /\
  get_remote_cells_on_process_boundary g (x_hoods x) id r (x_st x r) = Done [].
Proof.
  intros E. unfold get_local_cells_on_process_boundary, get_local_cells_not_on_process_boundary, get_remote_cells_on_process_boundary.
  rewrite (lists_of_none g (x_hoods x) id r (x_st x r) E). auto.
Qed.

(** ** Neighbor queries *)
Theorem c17_neighbors_of_existing_cells x id U r c : xreachable x -> hood_at (x_hoods x) id = Some U -> rank r ->
  (exists_on (x_st x) r c = false -> get_neighbors_of g (x_hoods x) id r (x_st x r) c = Done None /\ get_neighbors_to g (x_hoods x) id r (x_st x r) c = Done None) /\
  (exists_on (x_st x) r c = true -> exists lof lto,
    get_neighbors_of g (x_hoods x) id r (x_st x r) c = Done (Some lof) /\ get_neighbors_to g (x_hoods x) id r (x_st x r) c = Done (Some lto) /\
    (forall y o, In (y, o) lof <-> exists_on (x_st x) r y = true /\ exists h, In h U /\ nbr m t c h y o) /\
    NoDup lto /\ (forall y, In y lto <-> exists_on (x_st x) r y = true /\ sees m t U y c)).
Proof.
  intros R EU Ir. destruct (xreachable_inv d0 g Hg x R) as (own & Hx). pose proof Hx as (Hi & _ & Ho). pose proof Hi as (Hgood & _). pose proof Hgood as (Hw & Hr). destruct (Hr r Ir) as (Hs & _).
  assert (forall y, exists_on (x_st x) r y = exo own y) as Ex by (intros y; unfold exists_on; rewrite (xview own x r y Hx Ir); reflexivity).
  unfold get_neighbors_of, get_neighbors_to. rewrite !Ex, (exb_exo own r _ c Hs). split; intros E; rewrite E; cbn [negb]; [auto|].
  destruct (lists_of_ok g Hg own _ _ id r U Hgood Ho Ir EU) as (L & EL & ((A & _) & (B & _) & _)). rewrite EL. cbn [bind]. destruct (A c E) as (lof & F1 & P1). destruct (B c E) as (lto & F2 & N2 & P2).
  exists lof, lto. unfold at_. rewrite F1, F2. cbn [bind]. split; [reflexivity|]. split; [reflexivity|]. split; [|split; [assumption|]].
  - intros y o. rewrite P1, Ex. reflexivity.
  - intros y. rewrite P2, Ex. reflexivity.
Qed.

(** ** Selection of cells *)
(** the four kinds of neighbors, numbered as the bits of the constants in dccrg.hpp:106-148 *)
Definition has_neighbor (U : hood) (x : state) (r c i : Z) : Prop :=
  (i = 0 /\ exists b, owns x r r b /\ sees m t U c b) \/ (i = 1 /\ exists b, owns x r r b /\ sees m t U b c) \/
  (i = 2 /\ exists b, elsewhere x r b /\ sees m t U c b) \/ (i = 3 /\ exists b, elsewhere x r b /\ sees m t U b c).
(** the criterion names exactly the kinds of neighbors c has *)
Definition exactly (U : hood) (x : state) (r c k : Z) : Prop := forall i, 0 <= i -> Z.testbit k i = true <-> has_neighbor U x r c i.
(** the criterion names at least one of the kinds of neighbors c has *)
Definition some_of (U : hood) (x : state) (r c k : Z) : Prop := exists i, 0 <= i /\ Z.testbit k i = true /\ has_neighbor U x r c i.

Lemma or_bits (isl : Z -> bool) (a b : Z) l : forall acc i, 0 <= i -> 0 <= a -> 0 <= b -> (forall c, In c l -> (c =? error_cell) = false) ->
  Z.testbit (fold_left (fun acc c => if c =? error_cell then acc else Z.lor acc (if isl c then a else b)) l acc) i = true <->
  Z.testbit acc i = true \/ exists c, In c l /\ Z.testbit (if isl c then a else b) i = true.
Proof.
  induction l as [|c l IH]; intros acc i Hi Ha Hb Hl; cbn [fold_left].
  - split; [auto|intros [Q|(c & [] & _)]; assumption].
  - rewrite IH; [|assumption..|intros; apply Hl; right; assumption]. rewrite (Hl c (or_introl eq_refl)), Z.lor_spec, orb_true_iff. split.
    + intros [[Q|Q]|(c' & I & Q)]; [auto|right; exists c; cbn; auto|right; exists c'; cbn; auto].
    + intros [Q|(c' & [->|I] & Q)]; [auto|auto|right; eauto].
Qed.
Lemma or_nonneg (isl : Z -> bool) (a b : Z) l : forall acc, 0 <= acc -> 0 <= a -> 0 <= b ->
  0 <= fold_left (fun acc c => if c =? error_cell then acc else Z.lor acc (if isl c then a else b)) l acc.
Proof.
  induction l as [|c l IH]; intros acc H Ha Hb; cbn [fold_left]; [assumption|]. apply IH; [|assumption..]. destruct (c =? error_cell); [assumption|]. apply Z.lor_nonneg. destruct (isl c); auto.
Qed.
Lemma bit_pow a k i : a = 2 ^ k -> 0 <= k -> 0 <= i -> Z.testbit a i = true <-> i = k.
Proof. intros -> Hk Hi. rewrite Z.pow2_bits_eqb by assumption. rewrite Z.eqb_eq. split; congruence. Qed.

Lemma types_bits own U (x : state) r c L : xinv g own x -> rank r -> lists_spec g U own r L -> exo own c = true ->
  exists a b, find c (l_of L) = Some a /\ find c (l_to L) = Some b /\
    0 <= neighbor_types r (p_store (x_st x r)) (map fst a) b /\
    forall i, 0 <= i -> Z.testbit (neighbor_types r (p_store (x_st x r)) (map fst a) b) i = true <-> has_neighbor U x r c i.
Proof.
  intros Hx Ir (A & B & _) Ec. pose proof Hx as ((Hgood & _) & _). pose proof Hgood as (Hw & Hr). destruct (Hr r Ir) as (Hs & _). destruct (proj1 A c Ec) as (a & F1 & P1). destruct (proj1 B c Ec) as (b & F2 & _ & P2).
  exists a, b. split; [assumption|]. split; [assumption|]. pose proof (fst_sees g U own c a P1) as P1'. unfold neighbor_types, has_local_neighbor_of, has_local_neighbor_to, has_remote_neighbor_of, has_remote_neighbor_to.
  split; [apply or_nonneg; [apply or_nonneg|..]; lia|]. intros i Hi.
  rewrite or_bits; [|lia..|intros y Hy; apply (not_error g own Hw), P2, Hy]. rewrite or_bits; [|lia..|intros y Hy; apply (not_error g own Hw), P1', Hy].
  assert (forall y, is_local r (p_store (x_st x r)) y = true <-> owns x r r y) as Il.
  { intros y. unfold is_local, owns, owner. destruct (find y (s_proc (p_store (x_st x r)))) as [q|]; [|split; discriminate]. rewrite Z.eqb_eq. split; [intros ->; reflexivity|congruence]. }
  assert (forall y, exo own y = true -> is_local r (p_store (x_st x r)) y = false -> elsewhere x r y) as In_.
  { intros y Ey N. apply (elsewhere_iff own); [assumption..|]. split; [assumption|]. intros O. rewrite <- (xview own x r y Hx Ir) in O. apply Il in O. congruence. }
  assert (forall y, elsewhere x r y -> exo own y = true /\ is_local r (p_store (x_st x r)) y = false) as In2.
  { intros y Ey. pose proof Ey as Q. apply (elsewhere_iff own) in Q; [|assumption..]. split; [tauto|]. apply not_true_iff_false. rewrite Il. unfold owns. rewrite (xview own x r y Hx Ir). tauto. }
  assert (forall y, owns x r r y -> exo own y = true) as Io by (intros y O; unfold owns in O; rewrite (xview own x r y Hx Ir) in O; apply exo_some; eauto).
  rewrite Z.bits_0. unfold has_neighbor. split.
  - intros [[Q|(y & Hy & Q)]|(y & Hy & Q)]; [discriminate| |].
    + apply P1' in Hy. destruct (is_local r (p_store (x_st x r)) y) eqn:El.
      * apply (bit_pow 1 0) in Q; [|lia..]. left. split; [assumption|]. exists y. rewrite <- Il. tauto.
      * apply (bit_pow 4 2) in Q; [|lia..]. right; right; left. split; [assumption|]. exists y. split; [apply In_; tauto|tauto].
    + apply P2 in Hy. destruct (is_local r (p_store (x_st x r)) y) eqn:El.
      * apply (bit_pow 2 1) in Q; [|lia..]. right; left. split; [assumption|]. exists y. rewrite <- Il. tauto.
      * apply (bit_pow 8 3) in Q; [|lia..]. right; right; right. split; [assumption|]. exists y. split; [apply In_; tauto|tauto].
  - intros [(-> & y & O & S)|[(-> & y & O & S)|[(-> & y & O & S)|(-> & y & O & S)]]].
    + left; right. exists y. split; [apply P1'; split; [apply Io|]; assumption|]. rewrite (proj2 (Il y) O). reflexivity.
    + right. exists y. split; [apply P2; split; [apply Io|]; assumption|]. rewrite (proj2 (Il y) O). reflexivity.
    + destruct (In2 y O) as [Ey Ly]. left; right. exists y. split; [apply P1'; auto|]. rewrite Ly. reflexivity.
    + destruct (In2 y O) as [Ey Ly]. right. exists y. split; [apply P2; auto|]. rewrite Ly. reflexivity.
Qed.

Lemma lors_bits l : forall acc i, 0 <= i -> Z.testbit (fold_left Z.lor l acc) i = true <-> Z.testbit acc i = true \/ exists k, In k l /\ Z.testbit k i = true.
Proof.
  induction l as [|c l IH]; intros acc i Hi; cbn [fold_left].
  - split; [auto|intros [Q|(c & [] & _)]; assumption].
  - rewrite IH by assumption. rewrite Z.lor_spec, orb_true_iff. split.
    + intros [[Q|Q]|(c' & I & Q)]; [auto|right; exists c; cbn; auto|right; exists c'; cbn; auto].
    + intros [Q|(c' & [->|I] & Q)]; [auto|auto|right; eauto].
Qed.
Lemma nonneg_bit z : 0 <= z -> (0 <? z) = true <-> exists i, 0 <= i /\ Z.testbit z i = true.
Proof.
  intros Hz. rewrite Z.ltb_lt. split.
  - intros P. exists (Z.log2 z). split; [apply Z.log2_nonneg|apply Z.bit_log2; assumption].
  - intros (i & _ & Q). destruct (Z.eq_dec z 0) as [->|]; [rewrite Z.bits_0 in Q; discriminate|lia].
Qed.

Theorem c37_get_cells x id U r criteria exact : xreachable x -> hood_at (x_hoods x) id = Some U -> rank r ->
  exists l, get_cells g (x_hoods x) id r (x_st x r) criteria exact = Done l /\ NoDup l /\
  forall c, In c l <-> owns x r r c /\ (criteria = [] \/ exists k, In k criteria /\ if exact then exactly U x r c k else some_of U x r c k).
Proof.
  intros R EU Ir. destruct (xreachable_inv d0 g Hg x R) as (own & Hx). pose proof Hx as (Hi & _ & Ho). pose proof Hi as (Hgood & _). pose proof Hgood as (Hw & Hr). destruct (Hr r Ir) as (Hs & _). pose proof Hs as (P & _ & ND & Kd).
  destruct (lists_of_ok g Hg own _ _ id r U Hgood Ho Ir EU) as (L & EL & SL). unfold get_cells.
  assert (negb (id =? default_neighborhood_id) && match hood_lookup (x_hoods x) id with None => true | _ => false end = false) as ->.
  { unfold CommInv.hood_at in EU. destruct (id =? default_neighborhood_id); [reflexivity|]. rewrite EU. reflexivity. }
  assert (forall (f : Z -> outcome bool) (Q : Z -> Prop) l0, (forall c, In c l0 -> exists b, f c = Done b /\ (b = true <-> Q c)) -> NoDup l0 -> exists l, filterM f l0 = Done l /\ NoDup l /\ forall c, In c l <-> In c l0 /\ Q c) as K.
  { clear. induction l0 as [|c l0 IH]; intros Hf N; cbn [filterM].
    - exists []. split; [reflexivity|]. split; [constructor|]. intros c. cbn. tauto.
    - destruct (Hf c (or_introl eq_refl)) as (b & Eb & Pb). apply NoDup_cons_iff in N. destruct IH as (l & El & Nl & Pl); [intros; apply Hf; right; assumption|tauto|].
      rewrite Eb. cbn [bind]. rewrite El. cbn [bind]. eexists. split; [reflexivity|]. destruct b.
      + split; [constructor; [rewrite Pl; tauto|assumption]|]. intros y. cbn [In]. rewrite Pl. split; [intros [<-|Q1]; tauto|tauto].
      + split; [assumption|]. intros y. rewrite Pl. cbn [In]. split; [tauto|]. intros [[->|Q1] Q2]; [apply Pb in Q2; discriminate|auto]. }
  destruct (K (fun c => match criteria with [] => Done true | _ => is_neighbor_type_match g (x_hoods x) id r (x_st x r) c criteria exact end)
    (fun c => criteria = [] \/ exists k, In k criteria /\ if exact then exactly U x r c k else some_of U x r c k) (keys (s_data (p_store (x_st x r))))) as (l & El & Nl & Pl); [|assumption|].
  - intros c Hc. apply keys_find in Hc. apply has_find in Hc. apply Kd in Hc. assert (exo own c = true) as Ec by (apply exo_some; eauto).
    destruct criteria as [|k0 ks]; [exists true; split; [reflexivity|]; split; auto|]. unfold is_neighbor_type_match. rewrite (not_error g own Hw c Ec). unfold is_local. rewrite P, Hc, Z.eqb_refl. cbn [orb negb].
    rewrite EL. cbn [bind]. destruct (types_bits own U x r c L Hx Ir SL Ec) as (a & b & Fa & Fb & T0 & Tb). unfold at_. rewrite Fa, Fb. cbn [bind]. set (T := neighbor_types r (p_store (x_st x r)) (map fst a) b) in *.
    eexists. split; [reflexivity|]. set (cs := k0 :: ks) in *. unfold criteria_match. destruct exact.
    + rewrite existsb_exists. split.
      * intros (k & I & E). right. exists k. split; [assumption|]. apply Z.eqb_eq in E. subst k. exact Tb.
      * intros [Q|(k & I & E)]; [discriminate|]. exists k. split; [assumption|]. apply Z.eqb_eq. apply Z.bits_inj'. intros i Hii. apply eq_true_iff_eq. rewrite (Tb i Hii), (E i Hii). reflexivity.
    + rewrite nonneg_bit by (apply Z.land_nonneg; auto). split.
      * intros (i & Hii & Q). rewrite Z.land_spec, andb_true_iff, lors_bits, Z.bits_0 in Q by assumption. destruct Q as [Q1 [Q2|(k & I & Q2)]]; [discriminate|]. right. exists k. split; [assumption|]. exists i. rewrite <- Tb by assumption. auto.
      * intros [Q|(k & I & i & Hii & Q1 & Q2)]; [discriminate|]. exists i. split; [assumption|]. rewrite Z.land_spec, andb_true_iff, lors_bits by assumption. rewrite Tb by assumption. split; [assumption|]. right. eauto.
  - exists l. split; [assumption|]. split; [assumption|]. intros c. rewrite Pl, keys_find, <- has_find, Kd. unfold owns. rewrite (xview own x r c Hx Ir). reflexivity.
Qed.
Theorem c37_unknown_neighborhood (x : state) id r criteria exact : hood_at (x_hoods x) id = None ->
  get_cells g (x_hoods x) id r (x_st x r) criteria exact = Done [].
Proof.
  unfold CommInv.hood_at, get_cells. destruct (id =? default_neighborhood_id); [discriminate|]. intros ->. reflexivity.
Qed.
End Props.
Print Assumptions c33_update_lists.
Print Assumptions c34_update.
Print Assumptions c37_get_cells.
