(** Properties of commits: refining against unrefining, what commits report, data, pins and weights. *)
From Verif Require Import U64 MapModel MapSpec MapProofs MapFamily MapProps HoodModel MeshModel
  MeshSpec MeshBase HoodProps MeshWalk MeshFind MeshKids MeshItem MeshCheck MeshTo MeshNear
  Sets RefineModel RefineGeo RefineInv RefineSpread RefineMerge RefineFold RefineExec RefineStop
  BalanceModel RefineReqs Create Balance History HistProps.
Open Scope Z_scope.

(** calls of rank q that concern the pin of cell c *)
Definition pins_cell {D : Type} (q c : Z) (a : @call D) : Prop :=
  match a with Pin r x _ => r = q /\ x = c | Unpin r x => r = q /\ x = c | UnpinLocal r => r = q | UnpinAll => True | _ => False end.

Section Props.
Context {D : Type} (d0 : D) (g : grid) (Hg : grid_ok g).
Notation m := (g_map g).
Notation t := (g_topo g).
Notation np := (g_np g).
Notation reachable := (reachable d0 g).
Notation runs := (runs d0 g).
Notation rank r := (In r (ranks g)).
Notation rank0 := (rank0 g Hg).
Notation view := (view g).
Notation viewx := (viewx g).
Notation commit_view := (commit_view d0 g Hg).
Notation refined_iff := (refined_iff d0 g Hg).
Notation unrefined_iff := (unrefined_iff d0 g Hg).

(** *** Quiet calls and the stores *)
Record sto_step (st : Z -> proc D) (a : call) (st' : Z -> proc D) (q : Z) : Prop := StoStep {
  ss_newpin : forall c, ~ pins_cell q c a -> find c (s_newpin (p_store (st' q))) = find c (s_newpin (p_store (st q)));
  ss_pin : a <> UnpinAll -> s_pin (p_store (st' q)) = s_pin (p_store (st q));
  ss_wt : forall c, (forall w, a <> Weight q c w) -> find c (s_wt (p_store (st' q))) = find c (s_wt (p_store (st q)));
  ss_refd : a <> Clear q -> s_refd (p_store (st' q)) = s_refd (p_store (st q)) /\ s_unrefd (p_store (st' q)) = s_unrefd (p_store (st q));
  ss_data : forall c, (forall v : D, a <> Write q c v) -> find c (s_data (p_store (st' q))) = find c (s_data (p_store (st q))) }.
Lemma sto_same st a st' q : p_store (st' q) = p_store (st q) -> sto_step st a st' q.
Proof. intros E. constructor; rewrite E; auto. Qed.
Lemma unpin_other r (s : store D) c x : x <> c -> find x (s_newpin (snd (unpin g r s c))) = find x (s_newpin s).
Proof.
  intros N. unfold unpin. destruct (negb _); [reflexivity|]. destruct (has c (s_pin s)); cbn [snd with_newpin s_newpin]; [rewrite find_put|rewrite find_del]; destruct (Z.eqb_spec x c); (contradiction || reflexivity).
Qed.
Lemma unpin_refd r (s : store D) c : s_refd (snd (unpin g r s c)) = s_refd s /\ s_unrefd (snd (unpin g r s c)) = s_unrefd s.
Proof. unfold unpin. destruct (negb _); [auto|]. destruct (has c (s_pin s)); auto. Qed.
Lemma unpins_keep r l : forall x : bool * store D, let s := snd (fold_left (fun x c => let u := unpin g r (snd x) c in (fst x && fst u, snd u)) l x) in
  s_data s = s_data (snd x) /\ s_pin s = s_pin (snd x) /\ s_wt s = s_wt (snd x) /\ s_refd s = s_refd (snd x) /\ s_unrefd s = s_unrefd (snd x).
Proof.
  induction l as [|c l IH]; intros x; cbn [fold_left]; [auto|]. cbn zeta. destruct (IH (fst x && fst (unpin g r (snd x) c), snd (unpin g r (snd x) c))) as (A & B & C & E & F). cbn zeta in *. cbn [snd] in *.
  rewrite A, B, C, E, F. destruct (unpin_keeps g r (snd x) c) as (_ & -> & -> & ->). destruct (unpin_refd r (snd x) c) as (-> & ->). auto.
Qed.
Lemma find_write (s : store D) c v x : x <> c -> find x (s_data (write s c v)) = find x (s_data s).
Proof.
  intros N. cbn [write s_data]. induction (s_data s) as [|[k w] l IH]; [reflexivity|]. cbn [map find fst snd]. destruct (Z.eqb_spec x k) as [->|]; [|apply IH]. destruct (Z.eqb_spec k c); [contradiction|reflexivity].
Qed.
Lemma sto_step_ok st a st' q : quiet a -> run d0 g st a = Done st' -> sto_step st a st' q.
Proof.
  intros Hq E. destruct a as [r c|r c|r c|r c|r c p|r c|r|r c w|r c v|r| | |given|k z]; cbn [run quiet] in *; try contradiction.
  - apply RefineInv.bind_done in E. destruct E as (x & _ & [= <-]). apply sto_same. unfold set_rank. destruct (Z.eqb_spec q r) as [->|]; reflexivity.
  - apply RefineInv.bind_done in E. destruct E as (x & _ & [= <-]). apply sto_same. unfold set_rank. destruct (Z.eqb_spec q r) as [->|]; reflexivity.
  - injection E as <-. apply sto_same. unfold set_rank. destruct (Z.eqb_spec q r) as [->|]; reflexivity.
  - apply RefineInv.bind_done in E. destruct E as (x & _ & [= <-]). apply sto_same. unfold set_rank. destruct (Z.eqb_spec q r) as [->|]; reflexivity.
  - injection E as <-. destruct (Z.eqb_spec q r) as [->|N]; [|apply sto_same; unfold set_rank; destruct (Z.eqb_spec q r); [contradiction|reflexivity]].
    assert (forall s : store D, exists f, snd (pin g r s c p) = with_newpin s f /\ forall x, x <> c -> find x f = find x (s_newpin s)) as P.
    { intros s. unfold pin. destruct (negb _); [exists (s_newpin s); destruct s; auto|]. destruct (_ || _); [exists (s_newpin s); destruct s; auto|].
      assert (exists f, with_newpin s (put c p (s_newpin s)) = with_newpin s f /\ forall x, x <> c -> find x f = find x (s_newpin s)) as Q by (eexists; split; [reflexivity|]; intros x Nx; rewrite find_put; destruct (Z.eqb_spec x c); [contradiction|reflexivity]).
      destruct (find c (s_pin s)) as [p'|]; [|exact Q]. destruct (p' =? p); [exists (s_newpin s); destruct s; auto|exact Q]. }
    destruct (P (p_store (st r))) as (f & Ef & Hf). constructor; unfold set_rank; rewrite Z.eqb_refl; cbn [with_store p_store]; rewrite Ef; cbn [with_newpin s_newpin s_pin s_wt s_refd s_unrefd s_data]; auto.
    intros x Nx. apply Hf. intros ->. apply Nx. cbn. auto.
  - injection E as <-. destruct (Z.eqb_spec q r) as [->|N]; [|apply sto_same; unfold set_rank; destruct (Z.eqb_spec q r); [contradiction|reflexivity]].
    destruct (unpin_keeps g r (p_store (st r)) c) as (_ & E1 & E2 & E3). destruct (unpin_refd r (p_store (st r)) c) as (E4 & E5).
    constructor; unfold set_rank; rewrite Z.eqb_refl; cbn [with_store p_store]; rewrite ?E1, ?E2, ?E3, ?E4, ?E5; auto. intros x Nx. apply unpin_other. intros ->. apply Nx. cbn. auto.
  - injection E as <-. destruct (Z.eqb_spec q r) as [->|N]; [|apply sto_same; unfold set_rank; destruct (Z.eqb_spec q r); [contradiction|reflexivity]].
    destruct (unpins_keep r (keys (s_data (p_store (st r)))) (true, p_store (st r))) as (E1 & E2 & E3 & E4 & E5). cbn zeta in *. cbn [snd] in *. unfold unpin_local_cells.
    constructor; unfold set_rank; rewrite Z.eqb_refl; cbn [with_store p_store]; rewrite ?E1, ?E2, ?E3, ?E4, ?E5; auto. intros x Nx. exfalso. apply Nx. reflexivity.
  - injection E as <-. destruct (Z.eqb_spec q r) as [->|N]; [|apply sto_same; unfold set_rank; destruct (Z.eqb_spec q r); [contradiction|reflexivity]].
    unfold set_cell_weight. destruct (negb _); constructor; unfold set_rank; rewrite Z.eqb_refl; cbn [with_store p_store snd s_newpin s_pin s_wt s_refd s_unrefd s_data]; auto.
    intros x Nx. rewrite find_put. destruct (Z.eqb_spec x c) as [->|]; [|reflexivity]. exfalso. apply (Nx w). reflexivity.
  - injection E as <-. destruct (Z.eqb_spec q r) as [->|N]; [|apply sto_same; unfold set_rank; destruct (Z.eqb_spec q r); [contradiction|reflexivity]].
    constructor; unfold set_rank; rewrite Z.eqb_refl; cbn [with_store p_store]; auto. intros x Nx. apply find_write. intros ->. apply (Nx v). reflexivity.
  - injection E as <-. destruct (Z.eqb_spec q r) as [->|N]; [|apply sto_same; unfold set_rank; destruct (Z.eqb_spec q r); [contradiction|reflexivity]].
    constructor; unfold set_rank; rewrite Z.eqb_refl; cbn [clear_refined_unrefined_data p_store s_newpin s_pin s_wt s_refd s_unrefd s_data]; auto. intros N. exfalso. apply N. reflexivity.
  - injection E as <-. constructor; cbn [with_store unpin_all_cells p_store s_newpin s_pin s_wt s_refd s_unrefd s_data]; auto; [intros c N; exfalso; apply N; exact I|intros N; exfalso; apply N; reflexivity].
Qed.
Record sto_steps (st : Z -> proc D) (l : list call) (st' : Z -> proc D) (q : Z) : Prop := StoSteps {
  sss_newpin : forall c, (forall a, In a l -> ~ pins_cell q c a) -> find c (s_newpin (p_store (st' q))) = find c (s_newpin (p_store (st q)));
  sss_pin : ~ In UnpinAll l -> s_pin (p_store (st' q)) = s_pin (p_store (st q));
  sss_wt : forall c, (forall w, ~ In (Weight q c w) l) -> find c (s_wt (p_store (st' q))) = find c (s_wt (p_store (st q)));
  sss_refd : ~ In (Clear q) l -> s_refd (p_store (st' q)) = s_refd (p_store (st q)) /\ s_unrefd (p_store (st' q)) = s_unrefd (p_store (st q));
  sss_data : forall c, (forall v : D, ~ In (Write q c v) l) -> find c (s_data (p_store (st' q))) = find c (s_data (p_store (st q))) }.
Lemma sto_steps_ok st l st' q : runs st l st' -> all_quiet l -> sto_steps st l st' q.
Proof.
  intros H Hq. induction H as [st|st a st1 l st2 Ha E H IH]; [constructor; auto|].
  assert (quiet a) as Qa by (apply Hq; left; reflexivity). specialize (IH ltac:(intros x Hx; apply Hq; right; assumption)).
  destruct (sto_step_ok st a st1 q Qa E) as [A1 A2 A3 A4 A5]. destruct IH as [B1 B2 B3 B4 B5]. constructor; cbn [In].
  - intros c N. rewrite B1, A1; [reflexivity|apply N; auto|intros b Hb; apply N; auto].
  - intros N. rewrite B2, A2; [reflexivity|intros ->; apply N; auto|auto].
  - intros c N. rewrite B3, A3; [reflexivity|intros w ->; apply (N w); auto|intros w Hw; apply (N w); auto].
  - intros N. destruct (B4 ltac:(auto)) as [-> ->]. apply A4. intros ->. apply N. auto.
  - intros c N. rewrite B5, A5; [reflexivity|intros w ->; apply (N w); auto|intros w Hw; apply (N w); auto].
Qed.

(** ** Refining against unrefining *)
Theorem c24_refining_wins_over_unrefining st res p c : reachable st -> stop_refining d0 g st = Done res ->
  was_refined g st (state_of res) c -> child_of m p c -> ~ was_unrefined g st (state_of res) p.
Proof.
  intros R E Wr (Vc & Lc & Pc) Wu. destruct (commit_view st res R E) as (own & own' & Hi & Hi' & C).
  apply (refined_iff own own' st res c Hi Hi' C) in Wr. apply (unrefined_iff own own' st res p Hi Hi' C) in Wu. apply (merged_ok g Hg own st (proj1 Hi) p Wu) in Pc; [|assumption..]. tauto.
Qed.
(** whatever else is requested before or after, on any process *)
Theorem c24_refine_beats_unrefine st r c q l st1 res p s k :
  reachable st -> rank r -> refine_completely g (st r) c = Done (true, q) -> lvl_of m c < m_max m ->
  runs (set_rank st r (with_reqs (st r) q)) l st1 -> all_quiet l -> ~ In (DontRefine r c) l -> ~ sheltered g st1 c ->
  stop_refining d0 g st1 = Done res -> child_of m p c -> child_of m p s -> exists_on st1 0 s = true -> rank k ->
  exists_on (state_of res) k p = false /\ (exists_on (state_of res) k s = true \/ was_refined g st1 (state_of res) s).
Proof.
  intros R Ir E L H Hq Nd Ns Es Kc Ks Exs Ik.
  assert (run d0 g st (Refine r c) = Done (set_rank st r (with_reqs (st r) q))) as Er by (cbn [run]; rewrite E; reflexivity).
  assert (reachable (set_rank st r (with_reqs (st r) q))) as R0 by (apply reach_step with st (Refine r c); assumption).
  pose proof (runs_reachable d0 g _ _ _ R0 H) as R1. destruct (commit_view st1 res R1 Es) as (own & own' & Hi & Hi' & C).
  assert (was_refined g st1 (state_of res) c) as Wr.
  { destruct (reachable_inv d0 g Hg st R) as (ow & Hi0). pose proof (quiet_inv d0 g Hg ow st (Refine r c) _ Hi0 Ir I Er) as Hi00. pose proof (quiets_inv d0 g Hg ow _ _ _ Hi00 H Hq) as Hi1.
    destruct (refine_completely_ok g Hg ow st (proj1 Hi0) r Ir c) as (b & q' & E' & _ & B & _). assert (b = true) as -> by congruence. destruct (proj1 B eq_refl) as [Oc _].
    split; [rewrite (viewx ow st1 0 c Hi1 rank0); unfold exo; rewrite Oc; reflexivity|]. destruct Kc as (Vc & _). destruct (some_child g Hg c Vc L) as (x & Hx). exists x. split; [assumption|].
    destruct (c20_refine_requests_are_honoured d0 g Hg st r c q l st1 res x 0 R Ir E L H Hq Nd Ns Es Hx rank0) as [_ O]. unfold exists_on. rewrite O. reflexivity. }
  pose proof (c24_refining_wins_over_unrefining st1 res p c R1 Es Wr Kc) as Nu.
  rewrite (viewx own st1 0 s Hi rank0) in Exs. rewrite !(viewx own' _ k _ Hi' Ik). split.
  - destruct (exo own' p) eqn:Ep; [|reflexivity]. exfalso. apply Nu. split; [rewrite (viewx own' _ 0 p Hi' rank0); assumption|]. exists s. rewrite (viewx own st1 0 s Hi rank0). auto.
  - rewrite (refined_iff own own' st1 res s Hi Hi' C). destruct (exo own' s) eqn:E2; [auto|right].
    assert (~ merged g own st1 p) as Nm by (rewrite <- (unrefined_iff own own' st1 res p Hi Hi' C); assumption).
    destruct Ks as (Vs & Ls & Ps). assert (lvl_of m s < m_max m) as Lm by (destruct Kc as (Vc & Lc & Pc); pose proof (parent_facts m (proj1 Hg) c Vc Lc) as (_ & L1 & _); pose proof (parent_facts m (proj1 Hg) s Vs Ls) as (_ & L2 & _); cbn zeta in *; rewrite Pc in L1; rewrite Ps in L2; unfold lvl_of in *; lia).
    destruct (some_child g Hg s Vs Lm) as (x & Hx). destruct (exo own' x) eqn:Exx.
    + apply (refined_iff own own' st1 res s Hi Hi' C). split; [rewrite (viewx own st1 0 s Hi rank0); assumption|]. exists x. rewrite (viewx own' _ 0 x Hi' rank0). auto.
    + exfalso. assert (exo own' s = true); [|congruence]. apply (cm_ex _ _ _ _ _ _ C). left. split; [assumption|]. split; [|rewrite Ps; tauto].
      intros Q. destruct Hx as (Vx & Lx & Px). assert (exo own' x = true); [|congruence]. apply (cm_ex _ _ _ _ _ _ C). right. left. rewrite Px. auto.
Qed.
(** a refine request takes back unrefine requests of the same process for the family of the cell
    and of neighbors of the same size or larger *)
Theorem c24_refine_cancels_unrefines st r c q x s : reachable st -> rank r -> refine_completely g (st r) c = Done (true, q) -> lvl_of m c < m_max m ->
  x = c \/ exists_on st r x = true /\ linked g c x /\ lvl_of m x <= lvl_of m c -> siblings g x s -> ~ In s (r_unref q).
Proof.
  intros R Ir E L Hx Hs. destruct (reachable_inv d0 g Hg st R) as (ow & Hi). destruct (refine_completely_ok g Hg ow st (proj1 Hi) r Ir c) as (b & q' & E' & _ & _ & A & _). assert (b = true /\ q' = q) as [-> ->] by (split; congruence).
  apply (proj2 (A eq_refl L) x s Hs). rewrite (viewx ow st r x Hi Ir) in Hx. assumption.
Qed.

(** ** What a commit reports *)
Theorem c26_commit_returns_the_new_cells st res r x : reachable st -> stop_refining d0 g st = Done res -> rank r ->
  In x (snd (res r)) <-> (exists c, child_of m c x /\ exists_on st 0 c = true) /\ owner (state_of res) r x = Some r.
Proof.
  intros R E Ir. destruct (commit_view st res R E) as (own & own' & Hi & Hi' & C). rewrite (cm_new _ _ _ _ _ _ C r x Ir), (view own' _ r x Hi' Ir). split.
  - intros [Q O]. rewrite (cm_kid _ _ _ _ _ _ C x Q). split; [|assumption]. exists (get_parent m x). destruct Q as (V & L & _). split; [split; auto|]. rewrite (viewx own st 0 _ Hi rank0). unfold exo. rewrite O. reflexivity.
  - intros [(c & Hx & Ec) O]. assert (was_refined g st (state_of res) c) as Q. { split; [assumption|]. exists x. split; [assumption|]. rewrite (viewx own' _ 0 x Hi' rank0). unfold exo. rewrite O. reflexivity. }
    apply (refined_iff own own' st res c Hi Hi' C) in Q. destruct Hx as (V & L & P). assert (created g own st x) as K by (split; [assumption|]; split; [assumption|]; rewrite P; assumption).
    split; [assumption|]. rewrite <- (cm_kid _ _ _ _ _ _ C x K). assumption.
Qed.
Theorem c26_commit_reports_the_removed_cells st res r x : reachable st -> stop_refining d0 g st = Done res -> rank r ->
  In x (get_removed_cells (fst (res r))) <-> exists_on st 0 x = true /\ exists p, child_of m p x /\ owner (state_of res) r p = Some r.
Proof.
  intros R E Ir. destruct (commit_view st res R E) as (own & own' & Hi & Hi' & C). unfold get_removed_cells. rewrite keys_find. rewrite (viewx own st 0 x Hi rank0). split.
  - intros (v & F). apply (cm_unrefd _ _ _ _ _ _ C r x v Ir) in F. destruct F as (K & O & q & Oq & _).
    split; [unfold exo; rewrite Oq; reflexivity|]. exists (get_parent m x). destruct K as (V & L & _). split; [split; auto|]. rewrite (view own' _ r _ Hi' Ir). assumption.
  - intros (Ex & p & Hp & O). rewrite (view own' _ r p Hi' Ir) in O. assert (was_unrefined g st (state_of res) p) as Q. { split; [rewrite (viewx own' _ 0 p Hi' rank0); unfold exo; rewrite O; reflexivity|]. exists x. rewrite (viewx own st 0 x Hi rank0). auto. }
    apply (unrefined_iff own own' st res p Hi Hi' C) in Q. destruct Hp as (V & L & P). assert (removed g own st x) as K by (split; [assumption|]; split; [assumption|]; rewrite P; assumption).
    unfold exo in Ex. destruct (own x) as [q|] eqn:Oq; [|discriminate]. pose proof Hi as [((_ & Hr) & Hs) _]. destruct (Hs q (Hr x q Oq)) as ((_ & _ & _ & Hd) & _). apply Hd in Oq as Hh. rewrite has_find in Hh. destruct Hh as (v & F). exists v. apply (cm_unrefd _ _ _ _ _ _ C r x v Ir). split; [assumption|]. split; [rewrite P; assumption|]. exists q. auto.
Qed.

(** ** Data of refined, unrefined and other cells *)
Lemma data_local own (st : Z -> proc D) r c : inv g own st -> rank r -> own c = Some r -> exists v, find c (s_data (p_store (st r))) = Some v.
Proof. intros [(_ & Hs) _] Ir O. destruct (Hs r Ir) as ((_ & _ & _ & Hd) & _). apply Hd in O. apply has_find in O. assumption. Qed.
Lemma data_not_local own (st : Z -> proc D) r c : inv g own st -> rank r -> own c <> Some r -> find c (s_data (p_store (st r))) = None.
Proof. intros [(_ & Hs) _] Ir O. destruct (Hs r Ir) as ((_ & _ & _ & Hd) & _). destruct (find c (s_data (p_store (st r)))) eqn:F; [|reflexivity]. exfalso. apply O, Hd. apply has_find. eauto. Qed.

(** the data a cell had before the commit, l being any calls after it *)
Theorem c27_data_of_refined_cells_readable st res l st' r c : reachable st -> stop_refining d0 g st = Done res ->
  was_refined g st (state_of res) c -> owner st 0 c = Some r -> runs (state_of res) l st' -> all_quiet l -> ~ In (Clear r) l ->
  exists v, data_of (st r) c = Some v /\ data_of (st' r) c = Some v.
Proof.
  intros R E Wr O H Hq Nc. destruct (commit_view st res R E) as (own & own' & Hi & Hi' & C). apply (refined_iff own own' st res c Hi Hi' C) in Wr.
  rewrite (view own st 0 c Hi rank0) in O. assert (rank r) as Ir by (apply (proj2 (proj1 (proj1 Hi)) c r O)). destruct (data_local own st r c Hi Ir O) as (v & Fv). exists v.
  unfold data_of. rewrite Fv. split; [reflexivity|]. pose proof (quiets_inv d0 g Hg own' _ _ _ Hi' H Hq) as Hi2. destruct (sss_refd _ _ _ _ (sto_steps_ok _ _ _ r H Hq) Nc) as [-> _].
  rewrite (data_not_local own' st' r c Hi2 Ir); [|pose proof (refined_gone d0 g Hg own st own' res c (proj1 Hi) C Wr) as Q; unfold exo in Q; destruct (own' c); [discriminate|discriminate]].
  unfold state_of. assert (find c (s_refd (p_store (fst (res r)))) = Some v) as ->; [|reflexivity]. apply (cm_refd _ _ _ _ _ _ C r c v Ir). auto.
Qed.
Theorem c27_data_of_unrefined_cells_readable st res l st' q r p x : reachable st -> stop_refining d0 g st = Done res ->
  was_unrefined g st (state_of res) p -> child_of m p x -> owner st 0 x = Some q -> owner (state_of res) 0 p = Some r ->
  runs (state_of res) l st' -> all_quiet l -> ~ In (Clear r) l ->
  exists v, data_of (st q) x = Some v /\ data_of (st' r) x = Some v.
Proof.
  intros R E Wu Hx O Or H Hq Nc. destruct (commit_view st res R E) as (own & own' & Hi & Hi' & C). apply (unrefined_iff own own' st res p Hi Hi' C) in Wu.
  rewrite (view own st 0 x Hi rank0) in O. assert (rank q) as Iq by (apply (proj2 (proj1 (proj1 Hi)) x q O)). rewrite (view own' _ 0 p Hi' rank0) in Or. assert (rank r) as Ir by (apply (proj2 (proj1 (proj1 Hi')) p r Or)).
  destruct (data_local own st q x Hi Iq O) as (v & Fv). exists v. unfold data_of. rewrite Fv. split; [reflexivity|].
  destruct Hx as (V & L & P). assert (removed g own st x) as K by (split; [assumption|]; split; [assumption|]; rewrite P; assumption).
  pose proof (removed_gone d0 g Hg own st own' res x (proj1 Hi) C K) as G. destruct (removed_ex g Hg own st (proj1 Hi) x K) as [_ NR].
  pose proof (quiets_inv d0 g Hg own' _ _ _ Hi' H Hq) as Hi2. destruct (sss_refd _ _ _ _ (sto_steps_ok _ _ _ r H Hq) Nc) as [-> ->].
  rewrite (data_not_local own' st' r x Hi2 Ir); [|unfold exo in G; destruct (own' x); discriminate]. unfold state_of.
  destruct (find x (s_refd (p_store (fst (res r))))) as [w|] eqn:F; [apply (cm_refd _ _ _ _ _ _ C r x w Ir) in F; destruct F; contradiction|].
  apply (cm_unrefd _ _ _ _ _ _ C r x v Ir). split; [assumption|]. split; [rewrite P; assumption|]. exists q. auto.
Qed.
Theorem c27_data_of_other_cells_kept st res r c : reachable st -> stop_refining d0 g st = Done res -> rank r -> owner (state_of res) r c = Some r ->
  (exists_on st r c = true -> owner st r c = Some r /\ exists v, data_of (st r) c = Some v /\ data_of (state_of res r) c = Some v) /\
  (exists_on st r c = false -> data_of (state_of res r) c = Some d0).
Proof.
  intros R E Ir O. destruct (commit_view st res R E) as (own & own' & Hi & Hi' & C). rewrite (view own' _ r c Hi' Ir) in O. rewrite (viewx own st r c Hi Ir), (view own st r c Hi Ir).
  pose proof (cm_data _ _ _ _ _ _ C r c Ir O) as Dc. unfold state_of, data_of. split; intros Ex; rewrite Ex in Dc.
  - assert (own c = Some r) as Oc by (rewrite <- (cm_keep _ _ _ _ _ _ C c Ex); [assumption|unfold exo; rewrite O; reflexivity]). split; [assumption|].
    destruct (data_local own st r c Hi Ir Oc) as (v & Fv). exists v. rewrite Dc, Fv. auto.
  - rewrite Dc. reflexivity.
Qed.
(** clear_refined_unrefined_data forgets *)
Theorem c27_clear_forgets st r c : reachable st -> rank r -> exists_on st r c = false -> data_of (clear_refined_unrefined_data (st r)) c = None.
Proof.
  intros R Ir Ex. destruct (reachable_inv d0 g Hg st R) as (ow & Hi). rewrite (viewx ow st r c Hi Ir) in Ex. unfold data_of, clear_refined_unrefined_data. cbn [p_store s_data s_refd s_unrefd find].
  rewrite (data_not_local ow st r c Hi Ir); [reflexivity|]. unfold exo in Ex. destruct (ow c); discriminate.
Qed.

(** ** Pins and weights *)
(** where load balancing will put the cell if it is pinned: the latest request of the owner
    stored since the last load balance or the pin made before *)
Definition effective_pin (st : Z -> proc D) (c : Z) : option Z := pin_after g (owner st 0) st c.
Lemma effective_pin_eq own (st : Z -> proc D) c : inv g own st -> effective_pin st c = pin_after g own st c.
Proof. intros Hi. unfold effective_pin, pin_after, newpin. rewrite (view own st 0 c Hi rank0). reflexivity. Qed.

Lemma handed_kid own (st : Z -> proc D) own' res loc f f' x : inv g own st -> committed d0 g own st own' res -> handed g own own' st loc f f' ->
  (forall c v, find c f = Some v -> exo own c = true) -> created g own st x -> loc (get_parent m x) -> find x f' = find (get_parent m x) f.
Proof.
  intros Hi C (H1 & _) Hf Q L. rewrite (H1 x Q L). destruct (find (get_parent m x) f); [reflexivity|]. destruct (find x f) eqn:F; [|reflexivity]. apply Hf in F. rewrite (created_not_ex g Hg own st (proj1 Hi) x Q) in F. discriminate.
Qed.
Lemma handed_par own (st : Z -> proc D) own' res loc f f' p : inv g own st -> committed d0 g own st own' res -> handed g own own' st loc f f' ->
  (forall c v, find c f = Some v -> exo own c = true) -> merged g own st p -> find p f' = None.
Proof.
  intros Hi C (_ & _ & _ & H4 & _) Hf Q. apply H4.
  - intros [Q' _]. apply (created_not_merged g Hg own st (proj1 Hi) p Q' Q).
  - destruct (find p f) eqn:F; [|reflexivity]. apply Hf in F. rewrite (merged_not_ex g Hg own st (proj1 Hi) p Q) in F. discriminate.
Qed.
Lemma handed_keep own (st : Z -> proc D) own' res loc f f' c : inv g own st -> committed d0 g own st own' res -> handed g own own' st loc f f' ->
  exo own c = true -> exo own' c = true -> find c f' = find c f.
Proof. intros Hi C (_ & _ & H3 & _) E E'. apply H3; [|auto]. intros [Q _]. rewrite (created_not_ex g Hg own st (proj1 Hi) c Q) in E. discriminate. Qed.

Theorem c32_children_inherit_pins st res c x : reachable st -> stop_refining d0 g st = Done res ->
  was_refined g st (state_of res) c -> child_of m c x -> effective_pin (state_of res) x = effective_pin st c.
Proof.
  intros R E Wr (V & L & P). destruct (commit_view st res R E) as (own & own' & Hi & Hi' & C). apply (refined_iff own own' st res c Hi Hi' C) in Wr.
  rewrite (effective_pin_eq own st c Hi), (effective_pin_eq own' _ x Hi'). assert (created g own st x) as K by (split; [assumption|]; split; [assumption|]; rewrite P; assumption).
  unfold pin_after, newpin, pinned. rewrite (cm_kid _ _ _ _ _ _ C x K), P. destruct (RefineExec.R_ok g own st (proj1 Hi) c Wr) as [Ec _]. unfold exo in Ec. destruct (own c) as [r|] eqn:O; [|discriminate].
  assert (rank r) as Ir by (apply (proj2 (proj1 (proj1 Hi)) c r O)). destruct (proj2 (proj2 Hi) r Ir) as (_ & Hn & _). destruct (proj2 (proj2 Hi) 0 rank0) as (Hp & _). cbn zeta in *.
  unfold state_of. rewrite (handed_kid own st own' res _ _ _ x Hi C (cm_newpin _ _ _ _ _ _ C r Ir)); [|intros y v Fy; unfold exo; rewrite (proj1 (Hn y v Fy)); reflexivity|assumption|exact I].
  rewrite (handed_kid own st own' res _ _ _ x Hi C (cm_pin _ _ _ _ _ _ C 0 rank0)); [|intros y v Fy; apply (Hp y v Fy)|assumption|exact I]. rewrite P. reflexivity.
Qed.
Theorem c32_other_cells_keep_pins st res c : reachable st -> stop_refining d0 g st = Done res ->
  exists_on st 0 c = true -> exists_on (state_of res) 0 c = true -> effective_pin (state_of res) c = effective_pin st c.
Proof.
  intros R E Ex Ex'. destruct (commit_view st res R E) as (own & own' & Hi & Hi' & C). rewrite (viewx own st 0 c Hi rank0) in Ex. rewrite (viewx own' _ 0 c Hi' rank0) in Ex'.
  rewrite (effective_pin_eq own st c Hi), (effective_pin_eq own' _ c Hi'). unfold pin_after, newpin, pinned. rewrite (cm_keep _ _ _ _ _ _ C c Ex Ex').
  pose proof Ex as Q. unfold exo in Q. destruct (own c) as [r|] eqn:O; [|discriminate]. assert (rank r) as Ir by (apply (proj2 (proj1 (proj1 Hi)) c r O)).
  unfold state_of. rewrite (handed_keep own st own' res _ _ _ c Hi C (cm_newpin _ _ _ _ _ _ C r Ir) Ex Ex'), (handed_keep own st own' res _ _ _ c Hi C (cm_pin _ _ _ _ _ _ C 0 rank0) Ex Ex'). reflexivity.
Qed.
Theorem c32_unrefined_cells_are_not_pinned st res p : reachable st -> stop_refining d0 g st = Done res ->
  was_unrefined g st (state_of res) p -> effective_pin (state_of res) p = None.
Proof.
  intros R E Wu. destruct (commit_view st res R E) as (own & own' & Hi & Hi' & C). apply (unrefined_iff own own' st res p Hi Hi' C) in Wu.
  rewrite (effective_pin_eq own' _ p Hi'). unfold pin_after, newpin, pinned. assert (exo own' p = true) as Ex by (apply (cm_ex _ _ _ _ _ _ C); right; right; assumption). unfold exo in Ex. destruct (own' p) as [r|] eqn:O; [|discriminate].
  assert (rank r) as Ir by (apply (proj2 (proj1 (proj1 Hi')) p r O)). destruct (proj2 (proj2 Hi) r Ir) as (_ & Hn & _). destruct (proj2 (proj2 Hi) 0 rank0) as (Hp & _). cbn zeta in *. unfold state_of.
  rewrite (handed_par own st own' res _ _ _ p Hi C (cm_newpin _ _ _ _ _ _ C r Ir)); [|intros y v Fy; unfold exo; rewrite (proj1 (Hn y v Fy)); reflexivity|assumption].
  apply (handed_par own st own' res _ _ _ p Hi C (cm_pin _ _ _ _ _ _ C 0 rank0)); [intros y v Fy; apply (Hp y v Fy)|assumption].
Qed.

Theorem c32_children_inherit_weights one st res c x r : reachable st -> stop_refining d0 g st = Done res ->
  was_refined g st (state_of res) c -> owner st 0 c = Some r -> child_of m c x ->
  exists w, get_cell_weight g one r (p_store (st r)) c = Some w /\ get_cell_weight g one r (p_store (state_of res r)) x = Some w.
Proof.
  intros R E Wr Or (V & L & P). destruct (commit_view st res R E) as (own & own' & Hi & Hi' & C). apply (refined_iff own own' st res c Hi Hi' C) in Wr.
  rewrite (view own st 0 c Hi rank0) in Or. assert (rank r) as Ir by (apply (proj2 (proj1 (proj1 Hi)) c r Or)).
  assert (created g own st x) as K by (split; [assumption|]; split; [assumption|]; rewrite P; assumption). assert (own' x = Some r) as Ox by (rewrite (cm_kid _ _ _ _ _ _ C x K), P; assumption).
  unfold get_cell_weight. rewrite (proj2 (inv_leaf g Hg own st r c Hi Ir) Or), (proj2 (inv_leaf g Hg own' _ r x Hi' Ir) Ox). cbn [negb].
  destruct (proj2 (proj2 Hi) r Ir) as (_ & _ & Hw & _). cbn zeta in *. unfold state_of.
  rewrite (handed_kid own st own' res _ _ _ x Hi C (cm_wt _ _ _ _ _ _ C r Ir)); [|intros y v Fy; unfold exo; rewrite (Hw y v Fy); reflexivity|assumption|rewrite P; assumption].
  rewrite P. destruct (find c _); eauto.
Qed.
Theorem c50_other_cells_keep_weights one st res c r : reachable st -> stop_refining d0 g st = Done res -> rank r ->
  exists_on st 0 c = true -> exists_on (state_of res) 0 c = true -> get_cell_weight g one r (p_store (state_of res r)) c = get_cell_weight g one r (p_store (st r)) c.
Proof.
  intros R E Ir Ex Ex'. destruct (commit_view st res R E) as (own & own' & Hi & Hi' & C). rewrite (viewx own st 0 c Hi rank0) in Ex. rewrite (viewx own' _ 0 c Hi' rank0) in Ex'.
  unfold get_cell_weight. pose proof (cm_keep _ _ _ _ _ _ C c Ex Ex') as K. assert (local_leaf g r (p_store (state_of res r)) c = local_leaf g r (p_store (st r)) c) as -> by (apply bool_eq; rewrite (inv_leaf g Hg own st r c Hi Ir), (inv_leaf g Hg own' _ r c Hi' Ir), K; reflexivity).
  unfold state_of. rewrite (handed_keep own st own' res _ _ _ c Hi C (cm_wt _ _ _ _ _ _ C r Ir) Ex Ex'). reflexivity.
Qed.
Theorem c50_unrefined_cells_have_the_default_weight one st res p r : reachable st -> stop_refining d0 g st = Done res ->
  was_unrefined g st (state_of res) p -> owner (state_of res) 0 p = Some r -> get_cell_weight g one r (p_store (state_of res r)) p = Some one.
Proof.
  intros R E Wu O. destruct (commit_view st res R E) as (own & own' & Hi & Hi' & C). apply (unrefined_iff own own' st res p Hi Hi' C) in Wu.
  rewrite (view own' _ 0 p Hi' rank0) in O. assert (rank r) as Ir by (apply (proj2 (proj1 (proj1 Hi')) p r O)). unfold get_cell_weight. rewrite (proj2 (inv_leaf g Hg own' _ r p Hi' Ir) O). cbn [negb].
  destruct (proj2 (proj2 Hi) r Ir) as (_ & _ & Hw & _). cbn zeta in *. unfold state_of. rewrite (handed_par own st own' res _ _ _ p Hi C (cm_wt _ _ _ _ _ _ C r Ir)); [reflexivity|intros y v Fy; unfold exo; rewrite (Hw y v Fy); reflexivity|assumption].
Qed.

(** *** Weights of local cells *)
Theorem c50_weights_only_of_local_cells one st r c w : reachable st -> rank r ->
  (fst (set_cell_weight g r (p_store (st r)) c w) = true <-> owner st r c = Some r) /\
  (get_cell_weight g one r (p_store (st r)) c <> None <-> owner st r c = Some r) /\
  (owner st r c <> Some r -> snd (set_cell_weight g r (p_store (st r)) c w) = p_store (st r)).
Proof.
  intros R Ir. destruct (reachable_inv d0 g Hg st R) as (ow & Hi). pose proof (inv_leaf g Hg ow st r c Hi Ir) as Lf. rewrite (view ow st r c Hi Ir). unfold set_cell_weight, get_cell_weight.
  destruct (local_leaf g r (p_store (st r)) c); cbn [negb fst snd]; (split; [|split]).
  - tauto.
  - destruct (find c _); split; intros; try tauto; discriminate.
  - intros N. tauto.
  - split; [discriminate|tauto].
  - split; [intros N; exfalso; apply N; reflexivity|intros O; apply Lf in O; discriminate].
  - reflexivity.
Qed.
Theorem c50_last_weight_wins one st r c w l st' : reachable st -> rank r -> fst (set_cell_weight g r (p_store (st r)) c w) = true ->
  runs (set_rank st r (with_store (st r) (snd (set_cell_weight g r (p_store (st r)) c w)))) l st' -> all_quiet l -> (forall w', ~ In (Weight r c w') l) ->
  get_cell_weight g one r (p_store (st' r)) c = Some w.
Proof.
  intros R Ir E H Hq N. destruct (reachable_inv d0 g Hg st R) as (ow & Hi). destruct (c50_weights_only_of_local_cells one st r c w R Ir) as (Q & _ & _). apply Q in E as O. rewrite (view ow st r c Hi Ir) in O.
  pose proof (quiet_inv d0 g Hg ow st (Weight r c w) _ Hi Ir I eq_refl) as Hi1. pose proof (quiets_inv d0 g Hg ow _ _ _ Hi1 H Hq) as Hi2.
  unfold get_cell_weight. rewrite (proj2 (inv_leaf g Hg ow st' r c Hi2 Ir) O). cbn [negb]. rewrite (sss_wt _ _ _ _ (sto_steps_ok _ _ _ r H Hq) c N).
  unfold set_rank. rewrite Z.eqb_refl. cbn [with_store p_store]. unfold set_cell_weight. rewrite (proj2 (inv_leaf g Hg ow st r c Hi Ir) O). cbn [negb snd s_wt]. rewrite find_put, Z.eqb_refl. reflexivity.
Qed.
Theorem c50_balancing_resets_weights one st k z st' r c : reachable st -> allowed g st (LoadBalance k z) -> run d0 g st (LoadBalance k z) = Done st' -> rank r ->
  owner st' r c = Some r -> get_cell_weight g one r (p_store (st' r)) c = Some one.
Proof.
  intros R (dest & Hz) E Ir O. assert (reachable st') as R' by (apply reach_step with st (LoadBalance k z); [assumption|exists dest; assumption|assumption]).
  destruct (reachable_inv d0 g Hg st R) as (ow & Hi). destruct (reachable_inv d0 g Hg st' R') as (ow' & Hi'). rewrite (view ow' st' r c Hi' Ir) in O.
  assert (answers_ok g ow z dest) as Hz' by (apply (answers_ext g (owner st 0)); [intros x; apply (view ow st 0 x Hi rank0)|assumption]).
  destruct (balance_load_ok d0 g Hg ow st (proj1 Hi) (proj2 Hi) z dest Hz' k) as (res & E' & B). cbn [run] in E. assert (res = st') as -> by congruence.
  unfold get_cell_weight. rewrite (proj2 (inv_leaf g Hg ow' st' r c Hi' Ir) O). destruct (bl_rest _ _ _ _ _ _ _ B r Ir) as (_ & -> & _). reflexivity.
Qed.
End Props.
