(** The global invariant of the adaptation protocol and what the caches contain. *)
From Verif Require Import U64 MapModel MapSpec MapProofs MapFamily MapProps HoodModel MeshModel
  MeshSpec MeshBase HoodProps MeshWalk MeshFind MeshKids MeshItem MeshCheck MeshTo MeshNear
  Sets RefineModel RefineGeo.
Open Scope Z_scope.

Lemma bind_done {A B} (x : outcome A) (f : A -> outcome B) b :
  bind x f = Done b -> exists a, x = Done a /\ f a = Done b.
Proof. destruct x; cbn; intros H; try discriminate. eauto. Qed.

Lemma mapM_ok {A B} (f : A -> outcome B) (P : A -> B -> Prop) l :
  (forall a, In a l -> exists b, f a = Done b /\ P a b) -> exists bs, mapM f l = Done bs /\ Forall2 P l bs.
Proof.
  induction l as [|a l IH]; intros H; [exists []; cbn; auto|].
  destruct (H a (or_introl eq_refl)) as (b & Eb & Pb). destruct IH as (bs & Ebs & Pbs); [intros; apply H; right; assumption|].
  exists (b :: bs). cbn [mapM]. rewrite Eb. cbn [bind]. rewrite Ebs. cbn [bind]. auto.
Qed.
Lemma mapM_inv {A B} (f : A -> outcome B) l bs : mapM f l = Done bs -> Forall2 (fun a b => f a = Done b) l bs.
Proof.
  revert bs. induction l as [|a l IH]; cbn [mapM]; intros bs H; [injection H as <-; constructor|].
  apply bind_done in H. destruct H as (b & Eb & H). apply bind_done in H. destruct H as (r & Er & H). injection H as <-.
  constructor; auto.
Qed.
Lemma Forall2_In_l {A B} (P : A -> B -> Prop) l l' a : Forall2 P l l' -> In a l -> exists b, In b l' /\ P a b.
Proof.
  induction 1 as [|x y l l' Hxy _ IH]; cbn [In]; [intros []|]. intros [->|Q]; [eauto|].
  destruct (IH Q) as (b & ? & ?). eauto.
Qed.
Lemma Forall2_In_r {A B} (P : A -> B -> Prop) l l' b : Forall2 P l l' -> In b l' -> exists a, In a l /\ P a b.
Proof.
  induction 1 as [|x y l l' Hxy _ IH]; cbn [In]; [intros []|]. intros [->|Q]; [eauto|].
  destruct (IH Q) as (a & ? & ?). eauto.
Qed.
Lemma Forall2_flat {A B} (P : A -> list B -> Prop) l l' b : Forall2 P l l' -> (In b (concat l') <-> exists a x, In a l /\ P a x /\ In x l' /\ In b x).
Proof.
  intros F. rewrite in_concat. split.
  - intros (x & Hx & Hb). destruct (Forall2_In_r P l l' x F Hx) as (a & Ha & Pa). exists a, x. auto.
  - intros (a & x & _ & _ & Hx & Hb). exists x. auto.
Qed.
(** the union of the lists computed for all elements *)
Lemma mapM_concat {A B} (f : A -> outcome (list B)) (Q : A -> B -> Prop) l :
  (forall a, In a l -> exists x, f a = Done x /\ forall b, In b x <-> Q a b) ->
  exists bs, mapM f l = Done bs /\ forall b, In b (concat bs) <-> exists a, In a l /\ Q a b.
Proof.
  intros H. destruct (mapM_ok f (fun a x => forall b, In b x <-> Q a b) l H) as (bs & E & F).
  exists bs. split; [assumption|]. intros b. rewrite in_concat. split.
  - intros (x & Hx & Hb). destruct (Forall2_In_r _ l bs x F Hx) as (a & Ha & Pa). exists a. split; [assumption|]. apply Pa, Hb.
  - intros (a & Ha & Hq). destruct (Forall2_In_l _ l bs a F Ha) as (x & Hx & Px). exists x. split; [assumption|]. apply Px, Hq.
Qed.

(** association lists computed key by key *)
Lemma keyed {A} (F : Z -> outcome A) cs : (forall c, In c cs -> exists l, F c = Done l) ->
  exists f, mapM (fun c => do l <- F c; Done (c, l)) cs = Done f /\
    (forall c, In c cs -> exists l, F c = Done l /\ find c f = Some l) /\ (forall c, ~ In c cs -> find c f = None).
Proof.
  induction cs as [|c cs IH]; intros H.
  - exists []. split; [reflexivity|]. split; [intros c []|reflexivity].
  - destruct IH as (f & Ef & F1 & F2); [intros; apply H; right; assumption|].
    destruct (H c (or_introl eq_refl)) as (l & El). exists ((c, l) :: f). cbn [mapM]. rewrite El. cbn [bind]. rewrite Ef. cbn [bind].
    split; [reflexivity|]. split.
    + intros x Hx. cbn [find]. destruct (Z.eqb_spec x c) as [->|N]; [eauto|]. apply F1. destruct Hx; [congruence|assumption].
    + intros x Hx. cbn [find]. destruct (Z.eqb_spec x c) as [->|N]; [exfalso; apply Hx; left; reflexivity|]. apply F2. intros Q. apply Hx. right. assumption.
Qed.

Lemma find_map_fn {A} (F : Z -> A) cs c : In c cs -> find c (map (fun c => (c, F c)) cs) = Some (F c).
Proof.
  induction cs as [|x cs IH]; [intros []|]. cbn [map find In]. destruct (Z.eqb_spec c x) as [->|N]; [reflexivity|].
  intros [E|H]; [congruence|auto].
Qed.

Lemma collect_ok {A} l (f : Z -> outcome A) base (P : Z -> A -> Prop) :
  (forall r, In r l -> exists a, f r = Done a /\ P r a) ->
  exists F, collect l f base = Done F /\ forall r, In r l -> f r = Done (F r) /\ P r (F r).
Proof.
  induction l as [|r l IH]; intros H; [exists base; split; [reflexivity|intros r []]|].
  destruct (H r (or_introl eq_refl)) as (a & Ea & Pa). destruct IH as (F & EF & PF); [intros; apply H; right; assumption|].
  cbn [collect]. rewrite Ea. cbn [bind]. rewrite EF. cbn [bind]. eexists. split; [reflexivity|]. cbn beta.
  intros x Hx. destruct (Z.eqb_spec x r) as [->|N]; [auto|]. apply PF. destruct Hx; [congruence|assumption].
Qed.

Lemma in_ranks g r : In r (ranks g) <-> 0 <= r < g_np g.
Proof.
  unfold ranks. rewrite in_map_iff. split.
  - intros (k & <- & Hk). apply in_seq in Hk. lia.
  - intros H. exists (Z.to_nat r). split; [lia|]. apply in_seq. lia.
Qed.
Lemma ranks_NoDup g : NoDup (ranks g).
Proof. unfold ranks. apply FinFun.Injective_map_NoDup; [intros a b; apply Nat2Z.inj|apply seq_NoDup]. Qed.
Lemma gather_In g f c : In c (gather g f) <-> exists r, In r (ranks g) /\ In c (f r).
Proof. unfold gather. apply in_flat_map. Qed.

(** ** The invariant *)
(** what the model assumes of a grid: at least one process (comm_size is an int), a valid mapping, neighborhood
    offsets that fit *)
Definition grid_ok (g : grid) : Prop :=
  wf (g_map g) /\ 0 <= g_len g < 2 ^ 32 /\ hood_fits (g_map g) (g_topo g) (g_hood g) /\ 0 < g_np g < 2 ^ 31.

Definition exo (own : Z -> option Z) (c : Z) : bool := match own c with Some _ => true | None => false end.

(** the grid every process agrees on *)
Definition world_ok (g : grid) (own : Z -> option Z) : Prop :=
  mesh (g_map g) (g_topo g) (g_len g) (exo own) /\ forall c q, own c = Some q -> In q (ranks g).

Section Inv.
Context {D : Type} (d0 : D) (g : grid) (Hg : grid_ok g).
Notation m := (g_map g).
Notation t := (g_topo g).
Notation n := (g_len g).
Notation H := (g_hood g).

Definition store_ok (own : Z -> option Z) (r : Z) (s : store D) : Prop :=
  (forall c, find c (s_proc s) = own c) /\ NoDup (keys (s_proc s)) /\
  NoDup (keys (s_data s)) /\ (forall c, has c (s_data s) = true <-> own c = Some r).

(** same family *)
Definition siblings (a b : Z) : Prop :=
  valid m a /\ valid m b /\ 0 < lvl_of m a /\ 0 < lvl_of m b /\ get_parent m a = get_parent m b.

Definition reqs_ok (own : Z -> option Z) (r : Z) (q : reqs) : Prop :=
  (forall c, In c (r_ref q) -> own c = Some r /\ lvl_of m c < m_max m) /\
  (forall c, In c (r_unref q) -> own c = Some r /\ 0 < lvl_of m c /\ forall s, siblings c s -> exo own s = true).

Definition good (own : Z -> option Z) (st : Z -> proc D) : Prop :=
  world_ok g own /\ forall r, In r (ranks g) ->
    store_ok own r (p_store (st r)) /\ rebuild g r (p_store (st r)) = Done (p_cache (st r)) /\ reqs_ok own r (p_req (st r)).

Lemma mesh_ext ex ex' : (forall c, ex c = ex' c) -> mesh m t n ex -> mesh m t n ex'.
Proof.
  intros E (W1 & W2 & (V & T) & B). split; [assumption|]. split; [assumption|]. split; [split|].
  - intros c. rewrite <- E. apply V.
  - intros i Hi. destruct (T i Hi) as (c & [Q1 Q2] & U). exists c. split; [rewrite <- E; auto|]. intros y [Y1 Y2]. apply U. rewrite E. auto.
  - intros a b. rewrite <- !E. apply B.
Qed.

Lemma exb_exo own r s c : store_ok own r s -> exb s c = exo own c.
Proof. intros (P & _). unfold exb, has, exo. rewrite P. reflexivity. Qed.
Lemma store_mesh own r s : world_ok g own -> store_ok own r s -> mesh m t n (exb s).
Proof. intros [M _] S. apply (mesh_ext (exo own)); [|assumption]. intros c. symmetry. apply (exb_exo own r). assumption. Qed.
Lemma store_keys own r s c : store_ok own r s -> In c (keys (s_proc s)) <-> exo own c = true.
Proof.
  intros (P & _). rewrite keys_find. unfold exo. rewrite P. destruct (own c); split; intros Q; try discriminate; eauto. destruct Q; discriminate.
Qed.
Lemma exo_some own c : exo own c = true <-> exists q, own c = Some q.
Proof. unfold exo. destruct (own c); split; intros Q; try discriminate; eauto. destruct Q; discriminate. Qed.

Lemma get_parent_ex_leaf ex c : tiling m ex -> ex c = true -> get_parent_ex g ex c = c.
Proof.
  intros T E. destruct Hg as (Hwf & _). pose proof (leaf_valid m ex T c E) as V. unfold get_parent_ex. fold (lvl_of m c) (idx_of m c).
  rewrite E. destruct (Z.eqb_spec (lvl_of m c) 0); [reflexivity|]. pose proof (cell_level m Hwf c V).
  rewrite (ex_at m Hwf ex T c (idx_of m c) (lvl_of m c - 1) E (covers_own m Hwf c V) ltac:(lia)).
  replace (lvl_of m c - 1 =? lvl_of m c) with false by lia. reflexivity.
Qed.

Lemma updated_leaf ex c : tiling m ex -> updated g ex c = ex c.
Proof.
  intros T. unfold updated. destruct (ex c) eqn:E; [|reflexivity]. destruct Hg as (Hwf & _).
  rewrite (get_child_ex_leaf m Hwf ex T c E), get_parent_ex_leaf by assumption. rewrite Z.eqb_refl. reflexivity.
Qed.

(** ** Caches *)
Definition linked (a b : Z) : Prop := sees m t H a b \/ sees m t H b a.

Definition of_spec (own : Z -> option Z) (k : caches) : Prop :=
  forall c, exo own c = true -> exists l, find c (k_of k) = Some l /\
    forall x, In x (map fst l) <-> exo own x = true /\ sees m t H c x.
Definition to_spec (own : Z -> option Z) (k : caches) : Prop :=
  forall c, exo own c = true -> exists l, find c (k_to k) = Some l /\
    forall x, In x l <-> exo own x = true /\ sees m t H x c.
Definition face_spec (s : store D) (k : caches) : Prop :=
  forall c, exb s c = true ->
    find c (k_face k) = Some (map (fun d => face_neighbor (exb s) m t c (fst (fst d)) (snd (fst d))) dirs).
(** a local cell and a remote cell, one of which is in the neighborhood of the other *)
Definition across (own : Z -> option Z) (r a b : Z) : Prop :=
  own a = Some r /\ exo own b = true /\ own b <> Some r /\ linked a b.
Definition bnd_spec (own : Z -> option Z) (r : Z) (k : caches) : Prop :=
  (forall a, In a (k_local k) <-> exists b, across own r a b) /\
  (forall b, In b (k_remote k) <-> exists a, across own r a b).
Definition only_spec (own : Z -> option Z) (k : caches) : Prop :=
  (forall c, exo own c = false -> find c (k_of k) = None /\ find c (k_to k) = None).
Definition cache_spec (own : Z -> option Z) (r : Z) (s : store D) (k : caches) : Prop :=
  of_spec own k /\ to_spec own k /\ face_spec s k /\ bnd_spec own r k /\ only_spec own k.

Lemma of_list ex c : mesh m t n ex -> ex c = true -> exists l, find_neighbors_of ex m t c H = Done l /\
  forall x, In x (map fst l) <-> ex x = true /\ sees m t H c x.
Proof.
  intros M E. destruct (neighbors_of_in m t n ex c H M E (fun h Q => Q)) as (l & El & Pl).
  exists l. split; [assumption|]. intros x. rewrite in_map_iff. split.
  - intros ([y o] & Ey & Hi). cbn [fst] in Ey. subst y. apply Pl in Hi. destruct Hi as (Ex & h & Hh & N). split; [assumption|]. exists h, o. auto.
  - intros (Ex & h & o & Hh & N). exists (x, o). split; [reflexivity|]. apply Pl. split; [assumption|]. exists h. auto.
Qed.

Lemma rebuild_ok own r s : world_ok g own -> store_ok own r s ->
  exists k, rebuild g r s = Done k /\ cache_spec own r s k.
Proof.
  intros Hw Hs. pose proof (store_mesh own r s Hw Hs) as M. pose proof (fun c => exb_exo own r s c Hs) as Eb.
  pose proof Hg as (Hwf & Hn & Fit & _). pose proof M as (_ & _ & T & _).
  assert (forall c, In c (filter (updated g (exb s)) (keys (s_proc s))) <-> exo own c = true) as Kc.
  { intros c. rewrite filter_In, (updated_leaf (exb s) c T), (store_keys own r s c Hs), Eb. tauto. }
  destruct (keyed (fun c => find_neighbors_of (exb s) m t c H) (filter (updated g (exb s)) (keys (s_proc s)))) as (nof & Eof & Pof & Nof).
  { intros c Hc. apply Kc in Hc. rewrite <- Eb in Hc. destruct (of_list (exb s) c M Hc) as (l & El & _). eauto. }
  destruct (keyed (fun c => find_neighbors_to (exb s) m t c (hood_to H)) (filter (updated g (exb s)) (keys (s_proc s)))) as (nto & Eto & Pto & Nto).
  { intros c Hc. apply Kc in Hc. rewrite <- Eb in Hc. destruct (c15_neighbors_to m t n (exb s) c H M Hc (fun h Q => Q) Fit) as (l & El & _). eauto. }
  assert (forall c, exo own c = true -> exists l, find c nof = Some l /\
    forall x, In x (map fst l) <-> exo own x = true /\ sees m t H c x) as Sof.
  { intros c Ec. destruct (Pof c (proj2 (Kc c) Ec)) as (l & El & Fl). exists l. split; [assumption|].
    rewrite <- Eb in Ec. destruct (of_list (exb s) c M Ec) as (l' & El' & Pl). rewrite El in El'. injection El' as <-. intros x. rewrite Pl, Eb. reflexivity. }
  assert (forall c, exo own c = true -> exists l, find c nto = Some l /\
    forall x, In x l <-> exo own x = true /\ sees m t H x c) as Sto.
  { intros c Ec. destruct (Pto c (proj2 (Kc c) Ec)) as (l & El & Fl). exists l. split; [assumption|].
    rewrite <- Eb in Ec. destruct (c15_neighbors_to m t n (exb s) c H M Ec (fun h Q => Q) Fit) as (l' & El' & _ & Pl). rewrite El in El'. injection El' as <-. intros x. rewrite Pl, Eb. reflexivity. }
  assert (exists rs, mapM (fun c => do l <- remote_of r s nof nto c; Done (c, l))
    (filter (fun c => c =? get_child_ex (exb s) m c) (keys (s_data s))) = Done rs /\
    forall a b, In b (flat_map snd (filter (fun e => fst e =? a) rs)) <-> across own r a b) as (rs & Ers & Prs).
  { assert (forall c, own c = Some r -> exists l, remote_of r s nof nto c = Done l /\ forall b, In b l <-> across own r c b) as R.
    { intros c Oc. unfold remote_of. pose proof Hs as (P & _). rewrite P, Oc, Z.eqb_refl. cbn [negb].
      assert (exo own c = true) as Ec by (apply exo_some; eauto).
      destruct (Sof c Ec) as (la & Fa & Pa). destruct (Sto c Ec) as (lb & Fb & Pb).
      unfold at_. rewrite Fa, Fb. cbn [bind].
      destruct (mapM_concat (fun x => do w <- at_ x (s_proc s); Done (if w =? r then [] else [x])) (fun x b => b = x /\ own x <> Some r)
        (filter (fun x => negb (x =? error_cell)) (map fst la) ++ lb)) as (bs & Ebs & Pbs).
      { intros x Hx. assert (exo own x = true) as Ex.
        { apply in_app_iff in Hx. destruct Hx as [Hx|Hx]; [apply filter_In in Hx; apply Pa, Hx|apply Pb, Hx]. }
        apply exo_some in Ex. destruct Ex as (w & Ow). unfold at_. rewrite P, Ow. cbn [bind]. eexists. split; [reflexivity|].
        intros b. destruct (Z.eqb_spec w r) as [->|N]; cbn [In]; split; [intros []|intros (_ & Q); congruence| |]; [intros [<-|[]]|]; intuition congruence. }
      unfold at_ in Ebs. rewrite Ebs. cbn [bind]. eexists. split; [reflexivity|]. intros b. rewrite Pbs. unfold across, linked. split.
      - intros (x & Hx & -> & Nx). split; [assumption|]. apply in_app_iff in Hx. destruct Hx as [Hx|Hx].
        + apply filter_In in Hx. destruct Hx as [Hx _]. apply Pa in Hx. destruct Hx. auto.
        + apply Pb in Hx. destruct Hx. auto.
      - intros (_ & Ex & Nx & L). exists b. split; [|auto]. apply in_app_iff. destruct L as [L|L].
        + left. apply filter_In. split; [apply Pa; auto|]. destruct Hw as [(_ & _ & Tw & _) _].
          pose proof (leaf_valid m _ Tw b Ex) as Vb. unfold valid in Vb. unfold error_cell. apply negb_true_iff. lia.
        + right. apply Pb. auto. }
    pose proof Hs as (_ & _ & NDd & Kd).
    destruct (keyed (remote_of r s nof nto) (filter (fun c => c =? get_child_ex (exb s) m c) (keys (s_data s)))) as (rs & Ers & Prs & Nrs).
    { intros c Hc. apply filter_In in Hc. destruct Hc as [Hc _]. apply keys_find in Hc. destruct (R c) as (l & El & _); [|eauto].
      apply Kd. apply has_find. assumption. }
    exists rs. split; [assumption|]. intros a b.
    pose proof (mapM_inv _ _ _ Ers) as F2.
    assert (forall c l, In (c, l) rs -> own c = Some r /\ forall b, In b l <-> across own r c b) as Q1.
    { intros c l Hcl. destruct (Forall2_In_r _ _ _ _ F2 Hcl) as (c' & Hc' & Ec'). apply bind_done in Ec'. destruct Ec' as (l' & El' & E). injection E as -> ->.
      apply filter_In in Hc'. destruct Hc' as [Hc' _]. apply keys_find in Hc'. assert (own c = Some r) as Oc by (apply Kd, has_find; assumption).
      destruct (R c Oc) as (l2 & El2 & Pl2). rewrite El' in El2. injection El2 as <-. auto. }
    rewrite in_flat_map. split.
    - intros ([c l] & Hi & Hb). apply filter_In in Hi. destruct Hi as [Hi E]. cbn [fst snd] in *. apply Z.eqb_eq in E. subst c. apply (Q1 a l Hi), Hb.
    - intros A. pose proof A as (Oa & _). destruct (R a Oa) as (l & El & Pl).
      assert (In a (filter (fun c => c =? get_child_ex (exb s) m c) (keys (s_data s)))) as Ia.
      { apply filter_In. assert (exb s a = true) as Ea by (rewrite Eb; apply exo_some; eauto). split.
        - apply keys_find. apply has_find. apply Kd. assumption.
        - rewrite (get_child_ex_leaf m Hwf (exb s) T a Ea). apply Z.eqb_refl. }
      destruct (Prs a Ia) as (l' & El' & Fl'). rewrite El in El'. injection El' as <-. exists (a, l). split.
      + apply filter_In. split; [apply find_In; assumption|]. cbn [fst]. apply Z.eqb_refl.
      + cbn [snd]. apply Pl, A. }
  unfold rebuild, build_of, build_to, build_bnd. rewrite Eof. cbn [bind]. rewrite Eto. cbn [bind]. rewrite Ers. cbn [bind].
  eexists. split; [reflexivity|]. split; [exact Sof|]. split; [exact Sto|]. split; [|split].
  - intros c Ec. cbn [k_face]. unfold build_face.
    apply (find_map_fn (fun c => map (fun d => face_neighbor (exb s) m t c (fst (fst d)) (snd (fst d))) dirs)).
    apply filter_In. split; [apply (store_keys own r s c Hs); rewrite <- Eb; assumption|]. apply (has_neighbors_leaf m Hwf (exb s) T). assumption.
  - split.
    + intros a. cbn [k_local fst]. rewrite in_map_iff. split.
      * intros ([c l] & <- & Hi). apply filter_In in Hi. destruct Hi as [Hi Hl]. cbn [fst snd] in *. destruct l as [|b l]; [discriminate|].
        exists b. apply Prs. apply in_flat_map. exists (c, b :: l). split; [|left; reflexivity]. apply filter_In. split; [assumption|]. cbn [fst]. apply Z.eqb_refl.
      * intros (b & Hb). apply Prs in Hb. apply in_flat_map in Hb. destruct Hb as ([c l] & Hi & Hb). apply filter_In in Hi. destruct Hi as [Hi E]. cbn [fst snd] in *.
        apply Z.eqb_eq in E. subst c. exists (a, l). split; [reflexivity|]. apply filter_In. split; [assumption|]. cbn [snd]. destruct l; [destruct Hb|reflexivity].
    + intros b. cbn [k_remote snd]. rewrite nodup_In, in_flat_map. split.
      * intros ([c l] & Hi & Hb). exists c. apply Prs. apply in_flat_map. exists (c, l). split; [|assumption]. apply filter_In. split; [assumption|]. cbn [fst]. apply Z.eqb_refl.
      * intros (a & Ha). apply Prs in Ha. apply in_flat_map in Ha. destruct Ha as (e & Hi & Hb). apply filter_In in Hi. exists e. tauto.
  - intros c Ec. cbn [k_of k_to]. split; [apply Nof|apply Nto]; rewrite Kc, Ec; discriminate.
Qed.

Lemma good_cache own st r : good own st -> In r (ranks g) -> cache_spec own r (p_store (st r)) (p_cache (st r)).
Proof.
  intros (Hw & Hr) Ir. destruct (Hr r Ir) as (Hs & Hc & _). destruct (rebuild_ok own r _ Hw Hs) as (k & Ek & Sk). rewrite Hc in Ek. injection Ek as <-. assumption.
Qed.
End Inv.
