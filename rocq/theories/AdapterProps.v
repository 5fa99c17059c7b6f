(** C80: how the advection program adapts its grid. *)
From Verif Require Import U64 MapModel MapSpec MapProofs MapFamily MapProps HoodModel MeshModel
  MeshSpec MeshBase HoodProps MeshWalk MeshFind MeshKids MeshItem MeshCheck MeshTo MeshNear
  Sets RefineModel RefineGeo RefineInv RefineSpread RefineMerge RefineFold RefineExec RefineStop RefineNear
  BalanceModel RefineReqs Create Balance History HistProps CommModel CommInv CommProps CommViews Adapt ProgramModel ProgramProps AdvectModel AdvectProps AdapterModel AdapterDiff AdapterSets.
From Coq Require Import QArith Qcanon.
Open Scope Z_scope.

Section Adapter.
Context (d0 : fluid) (g : grid) (Hg : grid_ok g).
Notation m := (g_map g).
Notation t := (g_topo g).
Notation n := (g_len g).
Notation state := (xstate (D := fluid)).
Notation xreachable := (xreachable d0 g).
Notation did := default_neighborhood_id.
Notation rank r := (In r (ranks g)).
Context (inc thr sens : Qc).

Definition view (x : state) (c : Z) : option (fluid * list (seen fluid)) := view_at g (x_hoods x) did (ex_at x) (data_at x) c.
Definition verdict_at (x : state) (c : Z) : verdict := match view x c with Some (d, ns) => judge inc sens (get_refinement_level m c) (steepest m thr c d ns) | None => Down end.

Lemma known_hood (x : state) : CommInv.hood_at g (x_hoods x) did = Some (g_hood g).
Proof. unfold CommInv.hood_at. rewrite Z.eqb_refl. reflexivity. Qed.
Lemma may_update (x : state) : xallowed g x (CommModel.Update did).
Proof. left. reflexivity. Qed.

Section After.
Context (x x1 : state) (R : xreachable x) (E : xrun d0 g x (CommModel.Update did) = Done x1).
Lemma copied : xreachable x1 /\ x_st x1 = x_st x /\ x_hoods x1 = x_hoods x /\ (forall r c, rank r -> owner (x_st x) r c = Some r -> exists d ns, view x c = Some (d, ns)).
Proof.
  destruct (update_view d0 g Hg x did x1 R (may_update x) E) as (A & B & C & P). split; [assumption|]. split; [assumption|]. split; [assumption|].
  intros r c Ir O. destruct (P r c Ir O) as (d & ns & _ & Q). exists d, ns. exact Q.
Qed.
Lemma check_ok p old before : rank p -> 0 < m_max m -> exists s L, check_for_adaptation g x1 inc thr sens p old before = Some s /\
  (forall c, In c L <-> owns x p p c) /\ picked m (siblings g) (verdict_at x) L s.
Proof.
  intros Ip Hm. destruct copied as (R1 & E1 & E2 & Vw). unfold check_for_adaptation. destruct (Z.eqb_spec (m_max m) 0); [lia|].
  destruct (c80_differences d0 g Hg x1 p R1 Ip) as (v & Ev & Df). rewrite Ev. destruct (xreachable_inv d0 g Hg x R) as (own & Hx). destruct (xreachable_inv d0 g Hg x1 R1) as (own1 & Hx1).
  destruct (c38_cells d0 g Hg x1 did (g_hood g) p R1 (known_hood x1) Ip) as (v' & Ev' & _ & _ & _ & Loc & _). rewrite Ev in Ev'. injection Ev' as <-.
  assert (forall c, owns x1 p p c <-> owns x p p c) as Ow by (intros c; unfold owns; rewrite E1; reflexivity).
  assert (forall c r, rank r -> owns x1 r r c -> exists u, read x1 r c = Some u /\ shows g x1 c u) as Own.
  { intros c r Ir O. pose proof O as O'. unfold owns in O'. rewrite (xview g own1 x1 r c Hx1 Ir) in O'. destruct (data_here g Hg own1 x1 c r Hx1 O') as (_ & u & Eu & _). assert (read x1 r c = Some u) as Q by (unfold read; rewrite Eu; reflexivity). exists u. split; [assumption|]. exists r. auto. }
  destruct (Df thr (read x1 p) old) as (s & Es & Ds).
  { intros c O. destruct (Own c p Ip O) as (u & Q & Sh). exists u, u. auto. }
  { intros c q N. destruct (c34_update d0 g Hg x did (g_hood g) R (known_hood x)) as (b & x' & Eu & Ex1 & _ & P). cbn [xrun] in E. rewrite Eu in E. cbn [bind snd] in E. injection E as ->.
    assert (needs g (g_hood g) x p q c) as N' by (destruct N as (N1 & N2 & a & N3 & N4); unfold needs, owns in *; rewrite E1 in *; eauto).
    destruct (proj1 (P p c Ip) q N') as (u & Fu & Ru). exists u, u. split; [assumption|]. split; [|reflexivity]. destruct N as (O & Nq & _). unfold owns in O. rewrite (xview g own1 x1 p c Hx1 Ip) in O. destruct (data_here g Hg own1 x1 c q Hx1 O) as (Iq & _). exists q. split; [assumption|].
    rewrite (xview g own1 x1 q c Hx1 Iq). split; [assumption|]. unfold read. rewrite E1, Fu. reflexivity. }
  rewrite Es. pose proof Hx as ((Hgood & _) & _).
  assert (forall c, In c (map i_id (view_local v)) -> exo own c = true) as Lx.
  { intros c I. apply Loc, Ow in I. unfold owns in I. rewrite (xview g own x p c Hx Ip) in I. apply exo_some. eauto. }
  destruct (choose_ok m (siblings g) (fun c => judge inc sens (get_refinement_level m c) (s c)) (map i_id (view_local v))) as (sets & Ec & K).
  - exact (sib_sym g).
  - exact (sib_trans g).
  - intros a b (_ & _ & Q & _). exact Q.
  - intros c I Lc. pose proof (own_valid g own _ Hgood c (Lx c I)). unfold siblings. auto.
  - intros c I Lc. apply (sibs g Hg own _ Hgood c (Lx c I) Lc).
  - intros c s' I Lc. pose proof (own_level g Hg own _ Hgood c (Lx c I)). apply (sib_level0 g Hg own _ Hgood c s' ltac:(lia) (Lx c I)).
  - intros I. pose proof (own_valid g own _ Hgood _ (Lx _ I)) as V. unfold valid, error_cell in V. lia.
  - intros c I. apply Z.eqb_neq. pose proof (own_level g Hg own _ Hgood c (Lx c I)) as Lv. destruct (Z_lt_dec 0 (lvl_of m c)) as [Lc|Lc].
    + pose proof (proj2 (proj2 (sibs g Hg own _ Hgood c (Lx c I) Lc)) 0%nat ltac:(lia)) as Q. destruct (get_siblings m c); exact Q.
    + pose proof (own_valid g own _ Hgood c (Lx c I)) as V. unfold get_siblings. change (get_refinement_level m c) with (lvl_of m c). replace (lvl_of m c) with 0 by lia. destruct (Z.ltb_spec 0 0); [lia|]. destruct (Z.ltb_spec (m_max m) 0); [lia|]. cbn [orb]. change (0 =? 0) with true. cbn [hd]. unfold valid in V. unfold error_cell. lia.
  - exists sets, (map i_id (view_local v)). split; [exact Ec|]. split; [intros c; rewrite Loc; apply Ow|]. eapply picked_ext; [|exact K]. intros c I. cbv beta. apply Loc in I. pose proof (proj1 (Ow c) I) as I'.
    destruct (Vw p c Ip I') as (d & ns & Q). unfold verdict_at. rewrite Q. f_equal. apply Ds; [assumption|].
    apply (sees_iff d0 g Hg x1 did c d ns R1). rewrite E2. unfold view in Q. rewrite <- Q. apply view_at_ext.
    + intros k. unfold ex_at. rewrite E1. reflexivity.
    + intros k. unfold data_at. rewrite E1. reflexivity.
Qed.
End After.

(** ** Fewer requests with the same effect *)
Section Fewer.
Context (ex : Z -> bool) (Q A : requests).
Context (Hsplit : forall c, q_split Q c <-> q_split A c) (Wq : forall c, ~ q_whole Q c) (Wa : forall c, ~ q_whole A c).
Lemma never_whole q c : (forall c, ~ q_whole q c) -> ~ stays_whole m t n ex q c.
Proof. intros W H. induction H as [c H|]; [exact (W c H)|assumption]. Qed.
Lemma splits_same c : splits m t n ex Q c <-> splits m t n ex A c.
Proof.
  split; intros H; (induction H as [c H N|a b _ IH Ea Eb C L]; [|apply split_next with a; assumption]); (apply split_given; [apply Hsplit; assumption|apply never_whole; assumption]).
Qed.
Lemma cells_same (Hm : forall p, merges m t n ex Q p <-> merges m t n ex A p) c : cells_after m t n ex Q c <-> cells_after m t n ex A c.
Proof. unfold cells_after. rewrite !splits_same, !Hm. reflexivity. Qed.
End Fewer.

Lemma runs_all (l : list (call (D := fluid))) : forall st own, inv g own st -> (forall a, In a l -> quiet a /\ exists p, rank p /\ forall st', In p (ranks g) -> allowed g st' a) -> exists st1, runs d0 g st l st1.
Proof.
  induction l as [|a l IH]; intros st own Hi H; [exists st; constructor|]. destruct (H a (or_introl eq_refl)) as (Qa & p & Ip & Al).
  destruct (quiet_ok d0 g Hg own st a Hi (Al st Ip) Qa) as (st1 & E & Hi1). destruct (IH st1 own Hi1 (fun b I => H b (or_intror I))) as (st2 & R). exists st2. apply runs_cons with st1; auto.
Qed.

Definition wish (x : state) (k : want) (c : Z) : Prop := asked_for g x did (criterion m inc thr sens) k c.

Lemma wish_iff x x1 c k r : xreachable x -> xrun d0 g x (CommModel.Update did) = Done x1 -> rank r -> owns x r r c -> wish x k c <-> want_of (verdict_at x c) = k.
Proof.
  intros R E Ir O. destruct (copied x x1 R E) as (_ & _ & _ & Vw). destruct (xreachable_inv d0 g Hg x R) as (own & Hx). destruct (Vw r c Ir O) as (d & ns & S).
  assert (exists_on (x_st x) 0 c = true) as Ec. { change (exists_on (x_st x) 0) with (ex_at x). rewrite (ex_own g Hg own x c Hx). apply exo_some. unfold owns in O. rewrite (xview g own x r c Hx Ir) in O. eauto. }
  unfold wish, asked_for. split.
  - intros (_ & d' & ns' & S' & [I|[]]). apply (sees_iff d0 g Hg x did c d' ns' R) in S'. unfold verdict_at, view. rewrite S'. exact I.
  - intros <-. split; [assumption|]. exists d, ns. split; [apply (sees_iff d0 g Hg x did c d ns R); exact S|]. left. unfold verdict_at. rewrite S. reflexivity.
Qed.
(** The sets of process p after copies are updated, whatever the order of its cells and the earlier contents of the sets *)
Theorem c80_sets x x1 p old before : xreachable x -> xrun d0 g x (CommModel.Update did) = Done x1 -> rank p -> 0 < m_max m ->
  exists s, check_for_adaptation g x1 inc thr sens p old before = Some s /\
  (forall c, In c (to_refine s) <-> owns x p p c /\ wish x ToRefine c) /\
  (forall c, In c (to_unrefine s) <-> owns x p p c /\ 0 < get_refinement_level m c /\ wish x ToUnrefine c /\ forall a, owns x p p a -> siblings g c a -> wish x ToUnrefine a) /\
  (forall c, In c (not_to_unrefine s) -> owns x p p c /\ 0 < get_refinement_level m c /\ wish x ToHold c /\ forall a, owns x p p a -> siblings g c a -> ~ wish x ToRefine a) /\
  (forall c, owns x p p c -> 0 < get_refinement_level m c -> wish x ToHold c -> (forall a, owns x p p a -> siblings g c a -> ~ wish x ToRefine a) ->
    exists a, siblings g c a /\ In a (not_to_unrefine s)).
Proof.
  intros R E Ip Hm. destruct (check_ok x x1 R E p old before Ip Hm) as (s & L & Es & HL & [K1 K2 K3 K4]). exists s. split; [assumption|].
  assert (forall c v, owns x p p c -> wish x (want_of v) c <-> verdict_at x c = v) as W.
  { intros c v O. rewrite (wish_iff x x1 c (want_of v) p R E Ip O). split; [|intros ->; reflexivity]. destruct (verdict_at x c), v; cbn; congruence. }
  change ToRefine with (want_of Up). change ToUnrefine with (want_of Down). change ToHold with (want_of Keep). change (get_refinement_level m) with (lvl_of m). split; [|split; [|split]].
  - intros c. rewrite K1, HL. split; intros [O V]; (split; [assumption|]); apply (W c Up O); assumption.
  - intros c. rewrite K4, HL. split.
    + intros (O & V & Lc & H). split; [assumption|]. split; [assumption|]. split; [apply (W c Down O), V|]. intros a Oa Sa. apply (W a Down Oa), H; [apply HL, Oa|assumption].
    + intros (O & Lc & V & H). split; [assumption|]. split; [apply (W c Down O), V|]. split; [assumption|]. intros a Ia Sa. apply HL in Ia. apply (W a Down Ia), H; assumption.
  - intros c I. destruct (K2 c I) as (O & V & Lc & H). apply HL in O. split; [assumption|]. split; [assumption|]. split; [apply (W c Keep O), V|]. intros a Oa Sa Q. apply (W a Up Oa) in Q. apply (H a (proj2 (HL a) Oa) Sa Q).
  - intros c O Lc V H. apply (W c Keep O) in V. apply (K3 c (proj2 (HL c) O) V Lc). intros a Ia Sa Q. apply HL in Ia. apply (H a Ia Sa), (W a Up Ia), Q.
Qed.
(** without refinement levels nothing is chosen and nothing is requested *)
Theorem c80_no_levels x p old before s : m_max m = 0 -> check_for_adaptation g x inc thr sens p old before = Some before /\ requests_of g p s = [].
Proof. intros E. unfold check_for_adaptation, requests_of. rewrite E. auto. Qed.

(** The calls of all processes, in any order, give the cells of C68 for the requests of a criterion that every cell
    applies to itself and its neighbors alone. *)
Theorem c80_cells_after x x1 old before : xreachable x -> xrun d0 g x (CommModel.Update did) = Done x1 -> 0 < m_max m ->
  exists sets : Z -> picks, (forall p, rank p -> check_for_adaptation g x1 inc thr sens p (old p) (before p) = Some (sets p)) /\
  forall st l, reachable d0 g st -> idle g st -> (forall r c, rank r -> owner st r c = owner (x_st x) r c) ->
    (forall a, In a l <-> exists p, rank p /\ In a (requests_of g p (sets p))) ->
    exists st1 res, runs d0 g st l st1 /\ stop_refining d0 g st1 = Done res /\
    forall k c, rank k -> exists_on (state_of res) k c = true <-> cells_after m t n (exists_on (x_st x) 0) (Requests
      (fun c => wish x ToRefine c /\ get_refinement_level m c < m_max m) (fun _ => False) (wish x ToUnrefine)
      (fun c => wish x ToHold c \/ wish x ToRefine c /\ get_refinement_level m c = m_max m)) c.
Proof.
  intros R E Hm. destruct (copied x x1 R E) as (R1 & E1 & E2 & Vw).
  assert (exists sets, forall p, rank p -> check_for_adaptation g x1 inc thr sens p (old p) (before p) = Some (sets p) /\ exists L, (forall c, In c L <-> owns x p p c) /\ picked m (siblings g) (verdict_at x) L (sets p)) as (sets & Hs).
  { exists (fun p => match check_for_adaptation g x1 inc thr sens p (old p) (before p) with Some s => s | None => Picks [] [] [] end). intros p Ip. destruct (check_ok x x1 R E p (old p) (before p) Ip Hm) as (s & L & Es & HL & K). rewrite Es. split; [reflexivity|]. exists L. auto. }
  exists sets. split; [intros p Ip; apply (Hs p Ip)|]. intros st l Rs Ix Ho Hl.
  destruct (xreachable_inv d0 g Hg x R) as (own & Hx). destruct (reachable_inv d0 g Hg st Rs) as (own' & Hi).
  pose proof (HistProps.rank0 g Hg) as I0.
  assert (forall c, owner st 0 c = own c) as O0 by (intros c; rewrite (Ho 0 c I0); apply (xview g own x 0 c Hx I0)).
  assert (forall r c, rank r -> owns x r r c <-> own c = Some r) as Ow by (intros r c Ir; unfold owns; rewrite (xview g own x r c Hx Ir); reflexivity).
  assert (forall c, exists_on st 0 c = exists_on (x_st x) 0 c) as Ex by (intros c; unfold exists_on; rewrite (Ho 0 c I0); reflexivity).
  assert (forall c, exists_on (x_st x) 0 c = true <-> exists r, rank r /\ own c = Some r) as Ex0.
  { intros c. change (exists_on (x_st x) 0) with (ex_at x). rewrite (ex_own g Hg own x c Hx), exo_some. split; [|intros (r & _ & Q); eauto]. intros (r & Q). exists r. split; [|assumption]. apply (data_here g Hg own x c r Hx Q). }
  assert (forall a, In a l -> quiet a /\ exists p, rank p /\ forall st', In p (ranks g) -> allowed g st' a) as Al.
  { intros a I. apply Hl in I. destruct I as (p & Ip & I). unfold requests_of in I. destruct (m_max m =? 0); [destruct I|]. rewrite !in_app_iff, !in_map_iff in I. split; [destruct I as [(c & <- & _)|[(c & <- & _)|(c & <- & _)]]; exact Logic.I|].
    exists p. split; [assumption|]. intros st' Ip'. destruct I as [(c & <- & _)|[(c & <- & _)|(c & <- & _)]]; exact Ip'. }
  destruct (runs_all l st own' Hi Al) as (st1 & Hr). assert (all_quiet l) as Hq by (intros a I; apply (Al a I)).
  pose proof (quiets_inv d0 g Hg own' _ _ _ Hi Hr Hq) as Hi1. destruct (stop_refining_ok d0 g Hg own' st1 (proj1 Hi1)) as (own2 & res & Er & _). exists st1, res. split; [assumption|]. split; [assumption|].
  (* what was requested *)
  assert (forall c, exists_on (x_st x) 0 c = true -> exists r L, rank r /\ own c = Some r /\ (forall z, In z L <-> own z = Some r) /\ picked m (siblings g) (verdict_at x) L (sets r)) as Fam.
  { intros c Ec. apply Ex0 in Ec. destruct Ec as (r & Ir & O). destruct (Hs r Ir) as (_ & L & HL & K). exists r, L. split; [assumption|]. split; [assumption|]. split; [intros z; rewrite HL; apply Ow, Ir|assumption]. }
  assert (forall c k, wish x k c <-> exists_on (x_st x) 0 c = true /\ want_of (verdict_at x c) = k) as Wi.
  { intros c k. unfold wish, asked_for. split.
    - intros (Ec & d & ns & S & I). split; [assumption|]. apply (sees_iff d0 g Hg x did c d ns R) in S. unfold verdict_at, view. rewrite S. unfold criterion in I. destruct I as [I|[]]. exact I.
    - intros (Ec & <-). split; [assumption|]. pose proof Ec as Ec'. apply Ex0 in Ec'. destruct Ec' as (r & Ir & O). destruct (Vw r c Ir) as (d & ns & S); [rewrite (xview g own x r c Hx Ir); assumption|].
      exists d, ns. split; [apply (sees_iff d0 g Hg x did c d ns R); exact S|]. left. unfold verdict_at. rewrite S. reflexivity. }
  assert (forall c v, verdict_at x c = v <-> want_of (verdict_at x c) = want_of v) as Wv by (intros c v; split; [intros ->; reflexivity|]; destruct (verdict_at x c), v; cbn; congruence).
  assert (m_max m =? 0 = false) as M0 by lia.
  assert (forall r c, In (Refine r c) l <-> rank r /\ In c (to_refine (sets r))) as L1.
  { intros r c. rewrite Hl. unfold requests_of. rewrite M0. split.
    - intros (p & Ip & I). rewrite !in_app_iff, !in_map_iff in I. destruct I as [(z & Q & I)|[(z & Q & I)|(z & Q & I)]]; try discriminate Q. injection Q as -> ->. auto.
    - intros (Ir & I). exists r. split; [assumption|]. rewrite !in_app_iff. left. apply in_map. assumption. }
  assert (forall r c, In (DontUnrefine r c) l <-> rank r /\ In c (not_to_unrefine (sets r))) as L2.
  { intros r c. rewrite Hl. unfold requests_of. rewrite M0. split.
    - intros (p & Ip & I). rewrite !in_app_iff, !in_map_iff in I. destruct I as [(z & Q & I)|[(z & Q & I)|(z & Q & I)]]; try discriminate Q. injection Q as -> ->. auto.
    - intros (Ir & I). exists r. split; [assumption|]. rewrite !in_app_iff. right. left. apply in_map. assumption. }
  assert (forall r c, In (Unrefine r c) l <-> rank r /\ In c (to_unrefine (sets r))) as L3.
  { intros r c. rewrite Hl. unfold requests_of. rewrite M0. split.
    - intros (p & Ip & I). rewrite !in_app_iff, !in_map_iff in I. destruct I as [(z & Q & I)|[(z & Q & I)|(z & Q & I)]]; try discriminate Q. injection Q as -> ->. auto.
    - intros (Ir & I). exists r. split; [assumption|]. rewrite !in_app_iff. right. right. apply in_map. assumption. }
  assert (forall r c, ~ In (DontRefine r c) l) as L4.
  { intros r c I. apply Hl in I. destruct I as (p & Ip & I). unfold requests_of in I. rewrite M0, !in_app_iff, !in_map_iff in I. destruct I as [(z & Q & I)|[(z & Q & I)|(z & Q & I)]]; discriminate Q. }
  assert (forall c, wish x ToRefine c <-> exists r, In (Refine r c) l /\ own c = Some r) as Up1.
  { intros c. rewrite Wi, <- (Wv c Up). split.
    - intros (Ec & V). destruct (Fam c Ec) as (r & L & Ir & O & HL & K). exists r. split; [|assumption]. apply L1. split; [assumption|]. apply (k_up _ _ _ _ _ K). rewrite HL. auto.
    - intros (r & I & O). apply L1 in I. destruct I as (Ir & I). split; [apply Ex0; eauto|]. destruct (Hs r Ir) as (_ & L & HL & K). apply (k_up _ _ _ _ _ K) in I. apply I. }
  set (A := Requests (fun c => wish x ToRefine c /\ get_refinement_level m c < m_max m) (fun _ => False) (wish x ToUnrefine)
      (fun c => wish x ToHold c \/ wish x ToRefine c /\ get_refinement_level m c = m_max m)).
  assert (forall c, ~ q_whole (requested g st l) c) as Wq.
  { intros c [(q & Iq & I)|((r & I) & _)]; [|exact (L4 r c I)]. rewrite (Ix q Iq) in I. exact I. }
  assert (forall c, q_split (requested g st l) c <-> q_split A c) as Sp.
  { intros c. cbn [requested A q_split]. change (get_refinement_level m c) with (lvl_of m c). rewrite (Up1 c). split; [intros (r & I & O & Lc); rewrite O0 in O; eauto|]. intros ((r & I & O) & Lc). exists r. rewrite O0. auto. }
  assert (fresh g st) as Fr by (intros q Iq; rewrite (Ix q Iq); auto).
  intros k c Ik. rewrite (c68_cells_after d0 g Hg st l st1 res k c Rs Fr Wq Hr Hq Er Ik).
  transitivity (cells_after m t n (exists_on (x_st x) 0) (requested g st l) c).
  { split; apply cells_ext; auto; intros z; repeat (split; [reflexivity|]); reflexivity. }
  apply cells_same; [assumption|assumption|intros z []|]. clear c. intros p.
  assert (forall c, splits m t n (exists_on (x_st x) 0) (requested g st l) c <-> splits m t n (exists_on (x_st x) 0) A c) as Ss by (apply splits_same; [assumption|assumption|intros z []]).
  assert (mesh m t n (exists_on (x_st x) 0)) as Ms by apply (mesh_at d0 g Hg x R). pose proof Ms as (Hwf & _ & Ti & _).
  assert (forall a b, child_of m p a -> child_of m p b -> exists_on (x_st x) 0 a = true -> exists_on (x_st x) 0 b = true -> siblings g a b) as Sib.
  { intros a b (A1 & A2 & A3) (B1 & B2 & B3) Ea Eb. split; [apply (leaf_valid m _ Ti), Ea|]. split; [apply (leaf_valid m _ Ti), Eb|]. unfold lvl_of in *. repeat (split; [assumption|]). congruence. }
  unfold merges. split.
  - intros ((c & Kc & Mc) & Kids & Far). cbn [requested q_merge] in Mc. destruct Mc as (r & Mc & Oc). apply L3 in Mc. destruct Mc as (Ir & Mc). rewrite O0 in Oc.
    split; [|split].
    + exists c. split; [assumption|]. cbn [A q_merge]. rewrite Wi. destruct (Kids c Kc) as (Ec & _). split; [assumption|]. destruct (Hs r Ir) as (_ & L & HL & K). apply (k_down _ _ _ _ _ K) in Mc. destruct Mc as (_ & -> & _). reflexivity.
    + intros z Kz. destruct (Kids z Kz) as (Ez & Nz & Hz). split; [assumption|]. split; [rewrite <- Ss; assumption|]. cbn [A q_hold].
      assert (forall y, child_of m p y -> verdict_at x y <> Up) as NoUp.
      { intros y Ky Vy. destruct (Kids y Ky) as (Ey & Ny & Hy). assert (wish x ToRefine y) as Wy by (apply Wi; split; [assumption|]; rewrite Vy; reflexivity). apply Up1 in Wy. destruct Wy as (r' & I' & O').
        destruct (Z_lt_dec (lvl_of m y) (m_max m)) as [Ly|Ly].
        - apply Ny. apply split_given; [|apply never_whole; assumption]. cbn [requested q_split]. exists r'. rewrite O0. auto.
        - apply Hy. cbn [requested q_hold]. right. exists r'. rewrite O0. split; [assumption|]. split; [assumption|]. pose proof (cell_level m Hwf y (leaf_valid m _ Ti y Ey)). lia. }
      intros [W|[W _]]; apply Wi in W; destruct W as (_ & W); [|apply (NoUp z Kz), Wv; exact W]. change ToHold with (want_of Keep) in W. apply Wv in W.
      destruct (Fam z Ez) as (r' & L & Ir' & O' & HL & K). destruct (k_held _ _ _ _ _ K z (proj2 (HL z) O') W) as (y & Sy & Iy).
      * apply Kz.
      * intros y Iy Sy. apply NoUp. destruct Kz as (K1 & K2 & K3). destruct Sy as (_ & Vy & _ & Ly & Py). unfold child_of. unfold lvl_of in *. split; [assumption|]. split; [assumption|congruence].
      * destruct (k_keep _ _ _ _ _ K y Iy) as (Py & _). destruct Kz as (K1 & K2 & K3). assert (child_of m p y) as Ky by (destruct Sy as (_ & Vy & _ & Ly & Qy); unfold child_of; unfold lvl_of in *; split; [assumption|]; split; [assumption|congruence]).
        destruct (Kids y Ky) as (_ & _ & Hy). apply Hy. cbn [requested q_hold]. left. exists r'. apply L2. auto.
    + intros z Ez Sz. destruct (Far z Ez Sz) as (F1 & F2). split; [assumption|]. intros F3. rewrite <- Ss. auto.
  - intros ((c & Kc & Mc) & Kids & Far). cbn [A q_merge] in Mc.
    assert (forall y, child_of m p y -> verdict_at x y = Down) as AllDown.
    { intros y Ky. destruct (Kids y Ky) as (Ey & Ny & Hy). cbn [A q_hold] in Hy. destruct (verdict_at x y) eqn:Vy; [| |reflexivity]; exfalso.
      - assert (wish x ToRefine y) as Wy by (apply Wi; split; [assumption|]; rewrite Vy; reflexivity). pose proof (cell_level m Hwf y (leaf_valid m _ Ti y Ey)) as Lv.
        destruct (Z_lt_dec (lvl_of m y) (m_max m)) as [Ly|Ly]; [apply Ny; apply split_given; [cbn [A q_split]; auto|apply never_whole; intros z []]|]. apply Hy. right. split; [assumption|]. change (get_refinement_level m y) with (lvl_of m y). lia.
      - apply Hy. left. apply Wi. split; [assumption|]. rewrite Vy. reflexivity. }
    split; [|split].
    + exists c. split; [assumption|]. cbn [requested q_merge]. destruct (Kids c Kc) as (Ec & _). destruct (Fam c Ec) as (r & L & Ir & O & HL & K). exists r. rewrite O0. split; [|assumption]. apply L3. split; [assumption|]. apply (k_down _ _ _ _ _ K).
      split; [apply HL; assumption|]. split; [apply AllDown, Kc|]. split; [apply Kc|]. intros y _ (_ & Vy & _ & Ly & Py). apply AllDown. destruct Kc as (_ & _ & K3). unfold child_of. unfold lvl_of in *. split; [assumption|]. split; [assumption|congruence].
    + intros z Kz. destruct (Kids z Kz) as (Ez & Nz & Hz). split; [assumption|]. split; [rewrite Ss; assumption|]. cbn [requested q_hold]. intros [(r & I)|(r & I & O & _)].
      * apply L2 in I. destruct I as (Ir & I). destruct (Hs r Ir) as (_ & L & HL & K). destruct (k_keep _ _ _ _ _ K z I) as (_ & V & _). rewrite (AllDown z Kz) in V. discriminate.
      * apply L1 in I. destruct I as (Ir & I). destruct (Hs r Ir) as (_ & L & HL & K). apply (k_up _ _ _ _ _ K) in I. rewrite (AllDown z Kz) in I. destruct I. discriminate.
    + intros z Ez Sz. destruct (Far z Ez Sz) as (F1 & F2). split; [assumption|]. intros F3. rewrite Ss. auto.
Qed.

(** The same cells as when every cell requests its own change *)
Theorem c80_as_if_all_asked x x1 old before kid par x' : xreachable x -> idle g (x_st x) -> xrun d0 g x (CommModel.Update did) = Done x1 -> 0 < m_max m ->
  exec_step d0 g x (ProgramModel.Adapt did (criterion m inc thr sens) kid par) x' ->
  forall sets l st1 res, (forall p, rank p -> check_for_adaptation g x1 inc thr sens p (old p) (before p) = Some (sets p)) ->
  (forall a, In a l <-> exists p, rank p /\ In a (requests_of g p (sets p))) -> runs d0 g (x_st x1) l st1 -> stop_refining d0 g st1 = Done res ->
  forall k c, rank k -> exists_on (state_of res) k c = exists_on (x_st x') k c.
Proof.
  intros R Ix E Hm Ex sets l st1 res Hs Hl Hr Er k c Ik. destruct (copied x x1 R E) as (R1 & E1 & _).
  destruct (c80_cells_after x x1 old before R E Hm) as (sets' & Hs' & P).
  assert (forall a, In a l <-> exists p, rank p /\ In a (requests_of g p (sets' p))) as Hl'.
  { intros a. rewrite Hl. split; intros (p & Ip & I); exists p; (split; [assumption|]); [assert (sets' p = sets p) as -> |assert (sets p = sets' p) as ->]; try assumption; pose proof (Hs p Ip) as Q1; pose proof (Hs' p Ip) as Q2; congruence. }
  destruct (P (x_st x1) l) as (st1' & res' & Hr' & Er' & Q).
  - apply xreachable_reachable, R1.
  - rewrite E1. assumption.
  - intros r y Ir. rewrite E1. reflexivity.
  - exact Hl'.
  - assert (st1' = st1) as ->. { clear - Hr Hr'. induction Hr as [st|st a st1 l st2 Ha E H IH]; inversion Hr' as [?|? ? st1'' ? ? Ha' E' H']; subst; [reflexivity|]. apply IH. rewrite E in E'. injection E' as <-. assumption. }
    rewrite Er in Er'. injection Er' as <-. apply Bool.eq_iff_eq_true. rewrite (Q k c Ik). symmetry. apply (c69_adapt d0 g Hg x did (criterion m inc thr sens) kid par x' R Ix Ex). assumption.
Qed.
(** What the processes do together is a step of a program of C69, so that nothing is lost or created by it (C75). *)
Definition asked (sets : Z -> picks) (c : Z) (_ : fluid) (_ : list (seen fluid)) : list want :=
  let some f := existsb (fun p => mem c (f (sets p))) (ranks g) in
  (if some to_refine then [ToRefine] else []) ++ (if some not_to_unrefine then [ToHold] else []) ++ (if some to_unrefine then [ToUnrefine] else []).
Lemma asked_iff sets c d ns k : In k (asked sets c d ns) <-> exists p, rank p /\ In c (match k with ToRefine => to_refine | ToHold => not_to_unrefine | ToUnrefine => to_unrefine end (sets p)).
Proof.
  assert (forall f, existsb (fun p => mem c (f (sets p))) (ranks g) = true <-> exists p, rank p /\ In c (f (sets p))) as Q.
  { intros f. rewrite existsb_exists. split; intros (p & I & M); exists p; (split; [assumption|]); apply mem_In; assumption. }
  unfold asked. rewrite !in_app_iff. destruct k; rewrite <- Q; [pose (b := to_refine)|pose (b := to_unrefine)|pose (b := not_to_unrefine)];
    repeat match goal with |- context [existsb ?f ?l] => destruct (existsb f l) end; cbn; intuition discriminate.
Qed.
Theorem c80_is_step x x1 old before sets l x2 res x3 kid par l' x' : xreachable x -> xrun d0 g x (CommModel.Update did) = Done x1 -> 0 < m_max m ->
  (forall p, rank p -> check_for_adaptation g x1 inc thr sens p (old p) (before p) = Some (sets p)) ->
  (forall a, In a l <-> exists p, rank p /\ In a (requests_of g p (sets p))) -> calls d0 g x1 (map Plain l) x2 ->
  stop_refining d0 g (x_st x2) = Done res -> xrun d0 g x2 (Plain Stop) = Done x3 ->
  (forall r c v, In (r, c, v) l' <-> rank r /\ new_value g kid par res x3 r c v) -> calls d0 g x3 (writes l') x' ->
  exec_step d0 g x (ProgramModel.Adapt did (asked sets) kid par) x'.
Proof.
  intros R E Hm Hs Hl Hc Er E3 Hn Hw. destruct (update_view d0 g Hg x did x1 R (may_update x) E) as (R1 & E1 & _ & Lv).
  assert (forall k p c, rank p -> In c (match k with ToRefine => to_refine | ToHold => not_to_unrefine | ToUnrefine => to_unrefine end (sets p)) -> owns x p p c) as Ow.
  { intros k p c Ip I. destruct (c80_sets x x1 p (old p) (before p) R E Ip Hm) as (s & Es & S1 & S2 & S3 & _). rewrite (Hs p Ip) in Es. injection Es as <-. destruct k; [apply S1, I|apply S2, I|apply S3, I]. }
  assert (forall k p c, In (call_of k p c) (requests_of g p (sets p)) <-> In c (match k with ToRefine => to_refine | ToHold => not_to_unrefine | ToUnrefine => to_unrefine end (sets p))) as Rq.
  { intros k p c. unfold requests_of. destruct (Z.eqb_spec (m_max m) 0); [lia|]. rewrite !in_app_iff, !in_map_iff. destruct k; cbn [call_of]; (split; [intros [(y & Q & I)|[(y & Q & I)|(y & Q & I)]]; try discriminate Q; injection Q as ->; exact I|intros I; eauto 6]). }
  apply exec_adapt with x1 l x2 res x3 l'; try assumption; [apply may_update| |].
  - intros a I. apply Hl in I. destruct I as (p & Ip & I). assert (exists k c, a = call_of k p c) as (k & c & ->).
    { unfold requests_of in I. destruct (m_max m =? 0); [destruct I|]. rewrite !in_app_iff, !in_map_iff in I. destruct I as [(y & <- & I)|[(y & <- & I)|(y & <- & I)]]; [exists ToRefine, y|exists ToHold, y|exists ToUnrefine, y]; reflexivity. }
    apply Rq in I. pose proof (Ow k p c Ip I) as O. unfold owns in O. destruct (Lv p c Ip O) as (d & ns & V & _). exists p, c, k, d, ns. rewrite E1. split; [assumption|]. split; [assumption|]. split; [assumption|]. split; [|reflexivity]. apply asked_iff. eauto.
  - intros r c k d ns Ir O _ I. apply asked_iff in I. destruct I as (p & Ip & I). pose proof (Ow k p c Ip I) as O'. unfold owns in O'. rewrite E1 in O. destruct (xreachable_inv d0 g Hg x R) as (own & Hx).
    rewrite (xview g own x r c Hx Ir) in O. rewrite (xview g own x p c Hx Ip) in O'. assert (p = r) as -> by congruence. apply Hl. exists r. split; [assumption|]. apply Rq, I.
Qed.
End Adapter.

(** ** The number of processes and the distribution of cells do not matter *)
Section Procs.
Context (d0 d0' : fluid) (g : grid) (np : Z) (Hg : grid_ok g) (Hg' : grid_ok (on_procs g np)).
Notation g' := (on_procs g np).
Notation did := default_neighborhood_id.
Lemma wish_same inc thr sens x y k c : xreachable d0 g x -> xreachable d0' g' y ->
  (forall c, exists_on (x_st x) 0 c = exists_on (x_st y) 0 c) -> (forall c v, shows g x c v <-> shows g' y c v) -> wish g inc thr sens x k c <-> wish g' inc thr sens y k c.
Proof.
  intros Rx Ry Ee Es. unfold wish, asked_for. rewrite Ee. change (g_map g') with (g_map g).
  assert (forall d ns, ProgramProps.sees g x did c d ns <-> ProgramProps.sees g' y did c d ns) as S.
  { intros d ns. unfold ProgramProps.sees. change (g_map g') with (g_map g). change (g_topo g') with (g_topo g). split; intros (U & l & EU & Sd & El & F); exists U, l.
    - split; [exact EU|]. split; [apply Es, Sd|]. split; [rewrite <- El; apply neighbors_ext; auto|]. clear - F Es. induction F as [|e s l ns [Q1 Q2] F IH]; constructor; auto. split; [assumption|]. apply Es. assumption.
    - split; [exact EU|]. split; [apply Es, Sd|]. split; [rewrite <- El; apply neighbors_ext; auto|]. clear - F Es. induction F as [|e s l ns [Q1 Q2] F IH]; constructor; auto. split; [assumption|]. apply Es. assumption. }
  split; intros (Ec & d & ns & Sd & I); (split; [assumption|]); exists d, ns; (split; [apply S; assumption|assumption]).
Qed.
Theorem c80_same_cells inc thr sens x x1 y y1 sets sets' old before old' before' l st1 res l' st1' res' :
  xreachable d0 g x -> xreachable d0' g' y -> idle g (x_st x) -> idle g' (x_st y) -> 0 < m_max (g_map g) ->
  (forall c, exists_on (x_st x) 0 c = exists_on (x_st y) 0 c) -> (forall c v, shows g x c v <-> shows g' y c v) ->
  xrun d0 g x (CommModel.Update did) = Done x1 -> xrun d0' g' y (CommModel.Update did) = Done y1 ->
  (forall p, In p (ranks g) -> check_for_adaptation g x1 inc thr sens p (old p) (before p) = Some (sets p)) ->
  (forall p, In p (ranks g') -> check_for_adaptation g' y1 inc thr sens p (old' p) (before' p) = Some (sets' p)) ->
  (forall a, In a l <-> exists p, In p (ranks g) /\ In a (requests_of g p (sets p))) ->
  (forall a, In a l' <-> exists p, In p (ranks g') /\ In a (requests_of g' p (sets' p))) ->
  runs d0 g (x_st x1) l st1 -> stop_refining d0 g st1 = Done res -> runs d0' g' (x_st y1) l' st1' -> stop_refining d0' g' st1' = Done res' ->
  forall k k' c, In k (ranks g) -> In k' (ranks g') -> exists_on (state_of res) k c = exists_on (state_of res') k' c.
Proof.
  intros Rx Ry Ix Iy Hm Ee Es Ex Ey Hs Hs' Hl Hl' Hr Er Hr' Er' k k' c Ik Ik'.
  assert (forall (e0 : fluid) (h : grid) (Hh : grid_ok h) z z1 (o : Z -> diffs) (b ss : Z -> picks) w s1 r, xreachable e0 h z -> idle h (x_st z) -> 0 < m_max (g_map h) -> xrun e0 h z (CommModel.Update did) = Done z1 ->
    (forall p, In p (ranks h) -> check_for_adaptation h z1 inc thr sens p (o p) (b p) = Some (ss p)) -> (forall a, In a w <-> exists p, In p (ranks h) /\ In a (requests_of h p (ss p))) ->
    runs e0 h (x_st z1) w s1 -> stop_refining e0 h s1 = Done r -> forall k c, In k (ranks h) -> exists_on (state_of r) k c = true <-> cells_after (g_map h) (g_topo h) (g_len h) (exists_on (x_st z) 0) (Requests
      (fun c => wish h inc thr sens z ToRefine c /\ get_refinement_level (g_map h) c < m_max (g_map h)) (fun _ => False) (wish h inc thr sens z ToUnrefine)
      (fun c => wish h inc thr sens z ToHold c \/ wish h inc thr sens z ToRefine c /\ get_refinement_level (g_map h) c = m_max (g_map h))) c) as G.
  { clear. intros e0 h Hh z z1 o b ss w s1 r R I M E C W Rn St. destruct (copied e0 h Hh z z1 R E) as (R1 & E1 & _). destruct (c80_cells_after e0 h Hh inc thr sens z z1 o b R E M) as (ss' & C' & P).
    destruct (P (x_st z1) w) as (st1' & res' & Hr' & Er' & Q).
    - apply xreachable_reachable, R1.
    - rewrite E1. assumption.
    - intros q y Iq. rewrite E1. reflexivity.
    - intros a. rewrite W. split; intros (p & Ip & J); exists p; (split; [assumption|]); [assert (ss' p = ss p) as -> |assert (ss p = ss' p) as ->]; try assumption; pose proof (C p Ip) as Q1; pose proof (C' p Ip) as Q2; congruence.
    - assert (st1' = s1) as ->. { clear - Rn Hr'. induction Rn as [st|st a st1 l st2 Ha E H IH]; inversion Hr' as [?|? ? st1'' ? ? Ha' E' H']; subst; [reflexivity|]. apply IH. rewrite E in E'. injection E' as <-. assumption. }
      rewrite St in Er'. injection Er' as <-. exact Q. }
  apply Bool.eq_iff_eq_true. rewrite (G d0 g Hg x x1 old before sets l st1 res Rx Ix Hm Ex Hs Hl Hr Er k c Ik), (G d0' g' Hg' y y1 old' before' sets' l' st1' res' Ry Iy Hm Ey Hs' Hl' Hr' Er' k' c Ik').
  change (g_map g') with (g_map g). change (g_topo g') with (g_topo g). change (g_len g') with (g_len g).
  assert (forall k c, wish g inc thr sens x k c <-> wish g' inc thr sens y k c) as W by (intros; apply wish_same; assumption).
  split; apply cells_ext; auto; intros z; cbn [q_split q_whole q_merge q_hold]; rewrite !W; repeat (split; [reflexivity|]); reflexivity.
Qed.
End Procs.
Print Assumptions c80_cells_after.
Print Assumptions c80_sets.
Print Assumptions c80_same_cells.
