(** Properties of all histories of calls: cells, owners, requests and commits. *)
From Verif Require Import U64 MapModel MapSpec MapProofs MapFamily MapProps HoodModel MeshModel
  MeshSpec MeshBase HoodProps MeshWalk MeshFind MeshKids MeshItem MeshCheck MeshTo MeshNear
  Sets RefineModel RefineGeo RefineInv RefineSpread RefineMerge RefineFold RefineExec RefineStop
  BalanceModel RefineReqs Create Balance History.
Open Scope Z_scope.

Arguments Refine {D}. Arguments Unrefine {D}. Arguments DontRefine {D}. Arguments DontUnrefine {D}.
Arguments Pin {D}. Arguments Unpin {D}. Arguments UnpinLocal {D}. Arguments Weight {D}.
Arguments Clear {D}. Arguments UnpinAll {D}. Arguments Stop {D}. Arguments Load {D}. Arguments LoadBalance {D}.

(** c is known to exist by rank r *)
Definition exists_on {D} (st : Z -> proc D) (r c : Z) : bool := match owner st r c with Some _ => true | None => false end.
(** x is one of the eight children of c *)
Definition child_of (m : mapping) (c x : Z) : Prop := valid m x /\ 0 < lvl_of m x /\ get_parent m x = c.
(** the grid after a commit *)
Definition state_of {D} (res : Z -> proc D * list Z) : Z -> proc D := fun r => fst (res r).
(** no requests are pending, except possibly dont_refine *)
Definition fresh {D} (g : grid) (st : Z -> proc D) : Prop := forall q, In q (ranks g) ->
  r_ref (p_req (st q)) = [] /\ r_unref (p_req (st q)) = [] /\ r_nounref (p_req (st q)) = [].
(** c existed before and children of it exist after *)
Definition was_refined {D} (g : grid) (st st' : Z -> proc D) (c : Z) : Prop :=
  exists_on st 0 c = true /\ exists x, child_of (g_map g) c x /\ exists_on st' 0 x = true.
(** the children of p existed before and p exists after *)
Definition was_unrefined {D} (g : grid) (st st' : Z -> proc D) (p : Z) : Prop :=
  exists_on st' 0 p = true /\ exists x, child_of (g_map g) p x /\ exists_on st 0 x = true.

Section Props.
Context {D : Type} (d0 : D) (g : grid) (Hg : grid_ok g).
Notation m := (g_map g).
Notation t := (g_topo g).
Notation np := (g_np g).
Notation reachable := (reachable d0 g).
Notation runs := (runs d0 g).
Notation rank r := (In r (ranks g)).

Lemma rank0 : rank 0. Proof. apply (Balance.rank0 g Hg). Qed.
Lemma view own (st : Z -> proc D) r c : inv g own st -> rank r -> owner st r c = own c. Proof. intros. apply (owner_eq g); assumption. Qed.
Lemma viewx own (st : Z -> proc D) r c : inv g own st -> rank r -> exists_on st r c = exo own c. Proof. intros Hi Ir. unfold exists_on. rewrite (view own st r c Hi Ir). reflexivity. Qed.

(** ** Cells *)
Theorem c18_cells_always_tile_the_grid st r : reachable st -> rank r -> tiling m (exists_on st r).
Proof.
  intros R Ir. destruct (reachable_inv d0 g Hg st R) as (own & Hi). pose proof Hi as [((Ms & _) & _) _]. pose proof Ms as (_ & _ & (V & T) & _). split.
  - intros c. rewrite (viewx own st r c Hi Ir). apply V.
  - intros i Gi. destruct (T i Gi) as (c & [E C] & U). exists c. split; [rewrite (viewx own st r c Hi Ir); auto|]. intros c' [E' C']. apply U. rewrite (viewx own st r c' Hi Ir) in E'. auto.
Qed.
Theorem c18_every_call_succeeds : (exists st, initialize d0 g = Done st) /\
  forall st a, reachable st -> allowed g st a -> exists st', run d0 g st a = Done st'.
Proof.
  split; [destruct (initialize_inv d0 g Hg) as (st & E & _); eauto|]. intros st a R Ha. destruct (reachable_inv d0 g Hg st R) as (own & Hi). destruct (run_ok d0 g Hg own st a Hi Ha) as (_ & st' & E & _). eauto.
Qed.
Theorem c19_neighbors_differ_by_at_most_one_level st r a b : reachable st -> rank r ->
  exists_on st r a = true -> exists_on st r b = true -> sees m t (g_hood g) a b -> Z.abs (lvl_of m a - lvl_of m b) <= 1.
Proof.
  intros R Ir. destruct (reachable_inv d0 g Hg st R) as (own & Hi). pose proof Hi as [((Ms & _) & _) _]. pose proof Ms as (_ & _ & _ & B). rewrite !(viewx own st r _ Hi Ir). apply B.
Qed.
Theorem c25_processes_agree st r q : reachable st -> rank r -> rank q ->
  (forall c, owner st r c = owner st q c) /\ (forall c o, owner st r c = Some o -> rank o) /\
  (forall c, has c (s_data (p_store (st r))) = true <-> owner st q c = Some r).
Proof.
  intros R Ir Iq. destruct (reachable_inv d0 g Hg st R) as (own & Hi). split; [intros c; rewrite !(view own st _ c Hi); auto|]. pose proof Hi as [((_ & Hr) & Hs) _]. split.
  - intros c o. rewrite (view own st r c Hi Ir). apply Hr.
  - intros c. rewrite (view own st q c Hi Iq). destruct (Hs r Ir) as ((_ & _ & _ & Hd) & _). apply Hd.
Qed.

(** ** Commits *)
Lemma commit_view st res : reachable st -> stop_refining d0 g st = Done res -> exists own own', inv g own st /\ inv g own' (state_of res) /\ committed d0 g own st own' res.
Proof.
  intros R E. destruct (reachable_inv d0 g Hg st R) as (own & Hi). destruct (stop_refining_ok d0 g Hg own st (proj1 Hi)) as (own' & res' & E' & C). assert (res' = res) as -> by congruence.
  exists own, own'. split; [assumption|]. split; [apply (inv_commit d0 g Hg own st own' res Hi C)|assumption].
Qed.
Lemma some_child c : valid m c -> lvl_of m c < m_max m -> exists x, child_of m c x.
Proof.
  intros V L. pose proof (kids_first g (proj1 Hg) c V L) as Q. apply (kids_in g (proj1 Hg) c _ V L) in Q. unfold child_of. eauto.
Qed.
(** refined in terms of the model's sets *)
Lemma refined_iff own own' st res c : inv g own st -> inv g own' (state_of res) -> committed d0 g own st own' res -> was_refined g st (state_of res) c <-> all_refined g own st c.
Proof.
  intros Hi Hi' C. unfold was_refined. rewrite (viewx own st 0 c Hi rank0). split.
  - intros (E & x & Hx & Q). rewrite (viewx own' _ 0 x Hi' rank0) in Q. apply (cm_ex _ _ _ _ _ _ C) in Q. destruct Hx as (Vx & Lx & <-). destruct Q as [(Ex & _)|[(_ & _ & Q)|Q]]; [|assumption|].
    + pose proof (RefineExec.par_not_ex g Hg own st (proj1 Hi) x Ex Lx). congruence.
    + destruct (merged_kid g own st (proj1 Hi) x Q) as (y & Ey & Ly & Py). exfalso.
      pose proof (RefineSpread.own_valid g own st (proj1 Hi) y Ey) as Vy. pose proof (covers_own m (proj1 Hg) y Vy) as Cy. pose proof (parent_covers m (proj1 Hg) y _ Vy Ly Cy) as C1. rewrite Py in C1.
      pose proof (parent_covers m (proj1 Hg) x _ Vx Lx C1) as C2. pose proof (RefineExec.tile g own st (proj1 Hi)) as T.
      pose proof (leaf_unique m (proj1 Hg) _ T y (get_parent m x) _ Ey E Cy C2) as Q'. pose proof (parent_facts m (proj1 Hg) y Vy Ly) as (_ & L1 & _). pose proof (parent_facts m (proj1 Hg) x Vx Lx) as (_ & L2 & _). cbn zeta in *. rewrite Py in L1. rewrite <- Q' in L2. unfold lvl_of in *. lia.
  - intros Q. destruct (RefineExec.R_ok g own st (proj1 Hi) c Q) as [E L]. split; [assumption|]. pose proof (RefineSpread.own_valid g own st (proj1 Hi) c E) as V. destruct (some_child c V L) as (x & Vx & Lx & Px). exists x. split; [split; auto|].
    rewrite (viewx own' _ 0 x Hi' rank0). apply (cm_ex _ _ _ _ _ _ C). right. left. rewrite Px. auto.
Qed.
Lemma unrefined_iff own own' st res p : inv g own st -> inv g own' (state_of res) -> committed d0 g own st own' res -> was_unrefined g st (state_of res) p <-> merged g own st p.
Proof.
  intros Hi Hi' C. unfold was_unrefined. rewrite (viewx own' _ 0 p Hi' rank0). split.
  - intros (E & x & Hx & Ex). rewrite (viewx own st 0 x Hi rank0) in Ex. destruct Hx as (Vx & Lx & Px). pose proof (RefineExec.par_not_ex g Hg own st (proj1 Hi) x Ex Lx) as Np. rewrite Px in Np.
    apply (cm_ex _ _ _ _ _ _ C) in E. destruct E as [(Q & _)|[(Vp & Lp & Q)|Q]]; [congruence| |assumption]. exfalso.
    destruct (RefineExec.R_ok g own st (proj1 Hi) _ Q) as [Epp _]. pose proof (covers_own m (proj1 Hg) x Vx) as Cx. pose proof (parent_covers m (proj1 Hg) x _ Vx Lx Cx) as C1. rewrite Px in C1.
    pose proof (parent_covers m (proj1 Hg) p _ Vp Lp C1) as C2. pose proof (RefineExec.tile g own st (proj1 Hi)) as T.
    pose proof (leaf_unique m (proj1 Hg) _ T x (get_parent m p) _ Ex Epp Cx C2) as Q'. pose proof (parent_facts m (proj1 Hg) x Vx Lx) as (_ & L1 & _). pose proof (parent_facts m (proj1 Hg) p Vp Lp) as (_ & L2 & _). cbn zeta in *. rewrite Px in L1. rewrite <- Q' in L2. unfold lvl_of in *. lia.
  - intros Q. split; [apply (cm_ex _ _ _ _ _ _ C); right; right; assumption|]. destruct (merged_kid g own st (proj1 Hi) p Q) as (x & Ex & Lx & Px). exists x. rewrite (viewx own st 0 x Hi rank0). split; [|assumption].
    split; [apply (RefineSpread.own_valid g own st (proj1 Hi) x Ex)|auto].
Qed.

(** after a commit no requests are pending *)
Theorem c20_commit_ends_requests st res : reachable st -> stop_refining d0 g st = Done res -> fresh g (state_of res).
Proof.
  intros R E q Iq. destruct (commit_view st res R E) as (own & own' & Hi & Hi' & C). destruct (cm_req _ _ _ _ _ _ C q Iq) as (nr & Q & _). unfold state_of. rewrite Q. auto.
Qed.

(** [prot] is the set of cells on which dont_refine was called or which were protected through
    the 2:1 rule by earlier commits *)
Definition dont_refine_set (st : Z -> proc D) (c : Z) : Prop := exists q, rank q /\ In c (r_noref (p_req (st q))).
(** protection of a cell also protects smaller cells close to it, recursively *)
Inductive sheltered (st : Z -> proc D) : Z -> Prop :=
| shelter_given c : dont_refine_set st c -> sheltered st c
| shelter_next a b : sheltered st a -> exists_on st 0 a = true -> exists_on st 0 b = true -> linked g a b -> lvl_of m a < lvl_of m b -> sheltered st b.
Lemma sheltered_iff own st c : inv g own st -> sheltered st c <-> all_protected g own st c.
Proof.
  intros Hi. split; intros Q.
  - induction Q as [c (q & Iq & Hq)|a b _ IH Ea Eb Lk L]; [apply prot_given; exists q; auto|]. apply prot_next with a; [assumption|]. rewrite (viewx own st 0 a Hi rank0) in Ea. rewrite (viewx own st 0 b Hi rank0) in Eb. split; [assumption|]. auto.
  - unfold all_protected in Q. induction Q as [c (q & Iq & Hq)|a b _ IH (Ea & Eb & Lk & L)]; [apply shelter_given; exists q; auto|]. apply shelter_next with a; auto; rewrite (viewx own st 0 _ Hi rank0); assumption.
Qed.

Theorem c20_refine_requests_are_honoured st r c q l st1 res x k :
  reachable st -> rank r -> refine_completely g (st r) c = Done (true, q) -> lvl_of m c < m_max m ->
  runs (set_rank st r (with_reqs (st r) q)) l st1 -> all_quiet l -> ~ In (DontRefine r c) l -> ~ sheltered st1 c ->
  stop_refining d0 g st1 = Done res -> child_of m c x -> rank k ->
  exists_on (state_of res) k c = false /\ owner (state_of res) k x = Some r.
Proof.
  intros R Ir E L H Hq Nd Ns Es Hx Ik.
  assert (run d0 g st (Refine r c) = Done (set_rank st r (with_reqs (st r) q))) as Er by (cbn [run]; rewrite E; reflexivity).
  assert (reachable (set_rank st r (with_reqs (st r) q))) as R0 by (apply reach_step with st (Refine r c); assumption).
  pose proof (runs_reachable d0 g _ _ _ R0 H) as R1.
  destruct (reachable_inv d0 g Hg st R) as (ow & Hi0). pose proof (quiet_inv d0 g Hg ow st (Refine r c) _ Hi0 Ir I Er) as Hi00.
  pose proof (quiets_inv d0 g Hg ow _ _ _ Hi00 H Hq) as Hi1.
  pose proof (req_steps_ok d0 g Hg ow _ _ _ r Hi00 H Hq Ir) as Rs.
  destruct (commit_view st1 res R1 Es) as (own & own' & Hi & Hi' & C).
  destruct (refine_completely_ok g Hg ow st (proj1 Hi0) r Ir c) as (b & q' & E' & _ & B & A & _). assert (b = true /\ q' = q) as [-> ->] by (split; congruence).
  assert (In c (r_ref (p_req (st1 r)))) as Hc. { apply (rss_ref _ _ _ _ Rs); [|assumption]. unfold set_rank. rewrite Z.eqb_refl. cbn [with_reqs p_req]. apply A; auto. }
  destruct (proj1 B eq_refl) as [Oc _]. assert (own c = Some r) as Oc'. { rewrite <- (view own st1 0 c Hi rank0), (view ow st1 0 c Hi1 rank0). assumption. }
  assert (all_refined g own st1 c) as Rc. { apply forced_given. split; [exists r; auto|]. rewrite <- (sheltered_iff own st1 c Hi). assumption. }
  split.
  - rewrite (viewx own' _ k c Hi' Ik). apply (refined_gone d0 g Hg own st1 own' res c (proj1 Hi) C Rc).
  - rewrite (view own' _ k x Hi' Ik). destruct Hx as (Vx & Lx & Px). rewrite (cm_kid _ _ _ _ _ _ C x); [rewrite Px; assumption|]. split; [assumption|]. split; [assumption|]. rewrite Px. assumption.
Qed.

(** a cell is refined only if it was asked for since the last commit or if a smaller cell close to it is refined *)
Theorem c20_refined_only_if_asked_or_forced st l st1 res c :
  reachable st -> fresh g st -> runs st l st1 -> all_quiet l -> stop_refining d0 g st1 = Done res ->
  was_refined g st1 (state_of res) c ->
  ~ sheltered st1 c /\ ((exists q, In (Refine q c) l) \/
  exists a, was_refined g st1 (state_of res) a /\ lvl_of m c < lvl_of m a /\ linked g a c).
Proof.
  intros R F H Hq E Wr. pose proof (runs_reachable d0 g _ _ _ R H) as R1. destruct (reachable_inv d0 g Hg st R) as (ow & Hi0).
  destruct (commit_view st1 res R1 E) as (own & own' & Hi & Hi' & C). apply (refined_iff own own' st1 res c Hi Hi' C) in Wr. rename Wr into Q.
  split; [rewrite (sheltered_iff own st1 c Hi); apply (refined_ok g own st1 (proj1 Hi) c Q)|].
  destruct Q as [c [(q & Iq & Hc) _]|a b Q U].
  - left. exists q. pose proof (req_steps_ok d0 g Hg ow _ _ _ q Hi0 H Hq Iq) as Rs. destruct (rss_ref_new _ _ _ _ Rs c Hc) as [Q|Q]; [|assumption]. destruct (F q Iq) as (Fr & _). rewrite Fr in Q. destruct Q.
  - right. exists a. split; [apply (refined_iff own own' st1 res a Hi Hi' C); auto|]. destruct U as (_ & _ & Lk & Lv). split; [assumption|]. destruct Lk; [right|left]; assumption.
Qed.

(** without any dont_refine since the last load balance nothing is protected *)
Theorem c20_no_protection_without_dont_refine st l st1 c : reachable st -> (forall q, rank q -> r_noref (p_req (st q)) = []) ->
  runs st l st1 -> all_quiet l -> (forall q x, ~ In (DontRefine q x) l) -> ~ sheltered st1 c.
Proof.
  intros R F H Hq N S. destruct (reachable_inv d0 g Hg st R) as (ow & Hi0). induction S as [c (q & Iq & Hc)|]; [|assumption].
  pose proof (req_steps_ok d0 g Hg ow _ _ _ q Hi0 H Hq Iq) as Rs. destruct (rss_noref_new _ _ _ _ Rs c Hc) as [Q|Q]; [rewrite F in Q by assumption; destruct Q|]. apply (N q c Q).
Qed.

Theorem c21_dont_refine_protects st r c l st1 res x k :
  reachable st -> rank r -> fst (dont_refine g (st r) c) = true -> lvl_of m c < m_max m ->
  runs (set_rank st r (with_reqs (st r) (snd (dont_refine g (st r) c)))) l st1 -> all_quiet l ->
  stop_refining d0 g st1 = Done res -> child_of m c x -> rank k ->
  exists_on (state_of res) k x = false.
Proof.
  intros R Ir E L H Hq Es Hx Ik.
  assert (run d0 g st (DontRefine r c) = Done (set_rank st r (with_reqs (st r) (snd (dont_refine g (st r) c))))) as Er by reflexivity.
  assert (reachable (set_rank st r (with_reqs (st r) (snd (dont_refine g (st r) c))))) as R0 by (apply reach_step with st (DontRefine r c); assumption).
  pose proof (runs_reachable d0 g _ _ _ R0 H) as R1.
  destruct (reachable_inv d0 g Hg st R) as (ow & Hi0). pose proof (quiet_inv d0 g Hg ow st (DontRefine r c) _ Hi0 Ir I Er) as Hi00.
  pose proof (quiets_inv d0 g Hg ow _ _ _ Hi00 H Hq) as Hi1.
  pose proof (req_steps_ok d0 g Hg ow _ _ _ r Hi00 H Hq Ir) as Rs.
  destruct (commit_view st1 res R1 Es) as (own & own' & Hi & Hi' & C).
  destruct (dont_refine_ok g Hg ow st (proj1 Hi0) r Ir c) as (_ & B & A & _). apply B in E.
  assert (In c (r_noref (p_req (st1 r)))) as Hc. { apply (rss_noref _ _ _ _ Rs). unfold set_rank. rewrite Z.eqb_refl. cbn [with_reqs p_req]. apply A; auto. }
  rewrite (viewx own' _ k x Hi' Ik). destruct (exo own' x) eqn:Ex; [|reflexivity]. exfalso.
  assert (exo own c = true) as Ec. { rewrite <- (viewx own st1 0 c Hi rank0), (viewx ow st1 0 c Hi1 rank0). assumption. }
  assert (all_protected g own st1 c) as Pc by (apply prot_given; exists r; auto).
  (* one child exists after the commit, so c was refined *)
  destruct Hx as (Vx & Lx & Px). pose proof Ex as Ex'. apply (cm_ex _ _ _ _ _ _ C) in Ex. destruct Ex as [(Q & _)|[(_ & _ & Q)|Q]].
  - pose proof (RefineExec.par_not_ex g Hg own st1 (proj1 Hi) x Q Lx). congruence.
  - rewrite Px in Q. apply (refined_ok g own st1 (proj1 Hi) c Q). assumption.
  - assert (was_unrefined g st1 (state_of res) x) as Wu by (apply (unrefined_iff own own' st1 res x Hi Hi' C); assumption). destruct Wu as (_ & y & (Vy & Ly & Py) & Ey). rewrite (viewx own st1 0 y Hi rank0) in Ey.
    pose proof (covers_own m (proj1 Hg) y Vy) as Cy. pose proof (parent_covers m (proj1 Hg) y _ Vy Ly Cy) as C1. rewrite Py in C1.
    pose proof (parent_covers m (proj1 Hg) x _ Vx Lx C1) as C2. pose proof (RefineExec.tile g own st1 (proj1 Hi)) as T.
    pose proof (leaf_unique m (proj1 Hg) _ T y (get_parent m x) _ Ey ltac:(congruence) Cy C2) as Q'. pose proof (parent_facts m (proj1 Hg) y Vy Ly) as (_ & L1 & _). pose proof (parent_facts m (proj1 Hg) x Vx Lx) as (_ & L2 & _). cbn zeta in *. rewrite Py in L1. rewrite <- Q' in L2. unfold lvl_of in *. lia.
Qed.

(** dont_unrefine on any process for any sibling leaves a mark until the commit *)
Lemma dont_unrefine_marks own st l st1 q s : inv g own st -> runs st l st1 -> all_quiet l -> In (DontUnrefine q s) l -> exo own s = true -> 0 < lvl_of m s ->
  rank q /\ exists s', siblings g s s' /\ In s' (r_nounref (p_req (st1 q))).
Proof.
  intros Hi H Hq Hin Es Ls. induction H as [st|st a st1 l st2 Ha E H IH]; [destruct Hin|].
  assert (quiet a) as Qa by (apply Hq; left; reflexivity). pose proof (quiet_inv d0 g Hg own st a st1 Hi Ha Qa E) as Hi1. assert (all_quiet l) as Hql by (intros y Hy; apply Hq; right; assumption).
  destruct Hin as [->|Hin]; [|apply IH; assumption]. cbn [allowed] in Ha. split; [assumption|]. cbn [run] in E.
  destruct (dont_unrefine_ok g Hg own st (proj1 Hi) q Ha s) as (b & q' & E1 & _ & B & A & _). rewrite E1 in E. cbn [bind snd] in E. injection E as <-.
  destruct (A (proj2 B Es) Ls) as (s' & S & Hs). exists s'. split; [assumption|]. apply (rss_nounref _ _ _ _ (req_steps_ok d0 g Hg own _ _ _ q Hi1 H Hql Ha)). unfold set_rank. rewrite Z.eqb_refl. exact Hs.
Qed.

Theorem c23_unrefined_only_on_request_and_never_against_protection st l st1 res p :
  reachable st -> fresh g st -> runs st l st1 -> all_quiet l -> stop_refining d0 g st1 = Done res ->
  was_unrefined g st1 (state_of res) p ->
  (exists q c, In (Unrefine q c) l /\ child_of m p c /\ owner st1 0 c = Some q) /\
  (forall x, child_of m p x -> exists_on st1 0 x = true /\ exists_on (state_of res) 0 x = false /\ ~ was_refined g st1 (state_of res) x) /\
  (forall q x, child_of m p x -> ~ In (DontUnrefine q x) l).
Proof.
  intros R F H Hq E Wu. pose proof (runs_reachable d0 g _ _ _ R H) as R1. destruct (reachable_inv d0 g Hg st R) as (ow & Hi0). pose proof (quiets_inv d0 g Hg ow _ _ _ Hi0 H Hq) as Hi1.
  destruct (commit_view st1 res R1 E) as (own & own' & Hi & Hi' & C). apply (unrefined_iff own own' st1 res p Hi Hi' C) in Wu. pose proof (merged_ok g Hg own st1 (proj1 Hi) p Wu) as (Vp & Lp & Kp).
  pose proof Wu as (c & (A & Uc & _) & Pc). destruct A as (q & Iq & Hc). pose proof (proj2 (proj2 (proj2 (proj1 Hi) q Iq)) ) as [_ Ru]. destruct (Ru c Hc) as (Oc & Lc & _).
  assert (child_of m p c) as Kc by (split; [apply (RefineSpread.own_valid g own st1 (proj1 Hi)); unfold exo; rewrite Oc; reflexivity|auto]).
  split; [|split].
  - exists q, c. pose proof (req_steps_ok d0 g Hg ow _ _ _ q Hi0 H Hq Iq) as Rs. destruct (rss_unref_new _ _ _ _ Rs c Hc) as [Q|Q]; [destruct (F q Iq) as (_ & Fr & _); rewrite Fr in Q; destruct Q|].
    split; [assumption|]. split; [assumption|]. rewrite (view own st1 0 c Hi rank0). assumption.
  - intros x (Vx & Lx & Px). destruct (Kp x Vx Lx Px) as [Ex Nx]. rewrite (viewx own st1 0 x Hi rank0). split; [assumption|].
    rewrite (viewx own' _ 0 x Hi' rank0). split; [apply (removed_gone d0 g Hg own st1 own' res x (proj1 Hi) C); split; [assumption|]; split; [assumption|]; rewrite Px; assumption|].
    intros Wr. apply (refined_iff own own' st1 res x Hi Hi' C) in Wr. contradiction.
  - intros q' x (Vx & Lx & Px) Hin. destruct (Kp x Vx Lx Px) as [Ex _].
    assert (exo ow x = true) as Ex0. { rewrite <- (viewx ow st1 0 x Hi1 rank0), (viewx own st1 0 x Hi rank0). assumption. }
    destruct (dont_unrefine_marks ow st l st1 q' x Hi0 H Hq Hin Ex0 Lx) as (Iq' & s' & (_ & Vs & _ & Ls & Ps) & Hs). apply (Uc s').
    + destruct Kc as (Vc & _ & _). split; [assumption|]. split; [assumption|]. split; [assumption|]. split; [assumption|congruence].
    + exists q'. auto.
Qed.
End Props.
