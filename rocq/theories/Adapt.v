(** C68: what a commit does is determined by the set of requests, not by their order or by which
    process makes them. *)
From Verif Require Import U64 MapModel MapSpec MapProofs MapFamily MapProps HoodModel MeshModel
  MeshSpec MeshBase HoodProps MeshWalk MeshFind MeshKids MeshItem MeshCheck MeshTo MeshNear
  Sets RefineModel RefineGeo RefineInv RefineSpread RefineMerge RefineFold RefineExec RefineStop RefineNear
  BalanceModel RefineReqs Create Balance History HistProps.
Open Scope Z_scope.

Section Reqs.
Context {D : Type} (g : grid) (Hg : grid_ok g).
Notation m := (g_map g).
Notation t := (g_topo g).
Notation n := (g_len g).
Notation H := (g_hood g).
Context (own : Z -> option Z) (st : Z -> proc D) (Hgood : good g own st).
Context (r : Z) (Ir : In r (ranks g)).
Notation p := (st r).
Notation q := (p_req p).

Lemma sib_level0 c x : lvl_of m c = 0 -> exo own c = true -> In x (get_siblings m c) -> x = c \/ x = error_cell.
Proof.
  intros L E. pose proof (own_level g Hg own st Hgood c E) as Lv. unfold get_siblings. change (get_refinement_level m c) with (lvl_of m c). rewrite L in *.
  destruct (Z.ltb_spec 0 0); [lia|]. destruct (Z.ltb_spec (m_max m) 0); [lia|]. cbn [orb]. change (0 =? 0) with true. cbn [In]. cbv iota. intros Q. cbn [In] in Q. intuition auto.
Qed.
Lemma sib_of c x : exo own c = true -> In x (get_siblings m c) -> x <> error_cell -> 0 < lvl_of m x -> siblings g c x.
Proof.
  intros E Hx Ne Lx. pose proof (own_level g Hg own st Hgood c E) as Lv. destruct (Z.eq_dec (lvl_of m c) 0) as [L0|L0].
  - destruct (sib_level0 c x L0 E Hx) as [-> | ->]; [lia|contradiction].
  - apply (proj1 (sibs g Hg own st Hgood c E ltac:(lia))). assumption.
Qed.

(** exactly what refine_completely records and forgets *)
Lemma refine_exact c : exists b q', refine_completely g p c = Done (b, q') /\
  (own c <> Some r -> q' = q) /\
  (own c = Some r -> lvl_of m c = m_max m -> exists b', dont_unrefine g p c = Done (b', q')) /\
  (own c = Some r -> lvl_of m c < m_max m ->
    q' = q /\ (In c (r_noref q) \/ exists x, exo own x = true /\ sees m t H c x /\ lvl_of m x < lvl_of m c /\ In x (r_noref q)) \/
    r_ref q' = adds c (r_ref q) /\ r_noref q' = r_noref q /\ r_nounref q' = r_nounref q /\
    (forall x, In x (r_unref q') -> In x (r_unref q)) /\
    forall x, In x (r_unref q) -> In x (r_unref q') \/ exists y, siblings g y x /\ (y = c \/ exo own y = true /\ linked g c y /\ lvl_of m y <= lvl_of m c)).
Proof.
  destruct (refine_completely_ok g Hg own st Hgood r Ir c) as (b & q' & E & Rq' & Bb & _). exists b, q'. split; [assumption|].
  pose proof (Hr g own st Hgood r Ir) as Hq. pose proof (ex_eq g own st Hgood r Ir c) as Ex. pose proof (has_eq g own st Hgood r Ir c) as Hh.
  unfold refine_completely in E. rewrite Ex in E. cbv zeta in E.
  assert (own c = Some r -> exo own c = true) as Oe by (unfold exo; intros ->; reflexivity).
  destruct (Z.eqb_spec c error_cell) as [->|Ne].
  { injection E as <- <-. split; [reflexivity|]. split; intros O; exfalso; apply Oe in O; pose proof (own_valid g own st Hgood _ O) as V; unfold valid, error_cell in V; lia. }
  destruct (exo own c) eqn:Ec; cbn [negb] in E; [|injection E as <- <-; split; [reflexivity|]; split; intros O; discriminate (Oe O)].
  destruct (has c (s_data (p_store p))) eqn:Eh; cbn [negb] in E.
  2: { injection E as <- <-. split; [reflexivity|]. split; intros O; apply Hh in O; discriminate. }
  assert (own c = Some r) as Oc by (apply Hh; reflexivity). split; [contradiction|]. change (get_refinement_level m c) with (lvl_of m c) in E.
  destruct (Z.eqb_spec (lvl_of m c) (m_max m)) as [Lm|Lm].
  { split; [intros _ _|intros _ ?; lia]. apply bind_done in E. destruct E as ([b' q1] & E1 & E). cbn [snd] in E. injection E as <- <-. eauto. }
  split; [intros _ ?; contradiction|]. intros _ Ll.
  destruct (mem c (r_noref q)) eqn:Em. { injection E as <- <-. left. split; [reflexivity|]. left. apply mem_In. assumption. }
  destruct (good_cache g Hg own st r Hgood Ir) as (Sof & Sto & _). destruct (Sof c Ec) as (a & Fa & Pa). destruct (Sto c Ec) as (e & Fb & Pb).
  unfold at_ in E. rewrite Fa, Fb in E. cbn [bind] in E.
  destruct (existsb _ a) eqn:Ee.
  { injection E as <- <-. left. split; [reflexivity|]. right. apply existsb_exists in Ee. destruct Ee as (x & Hx & Q). apply andb_true_iff in Q. destruct Q as [Q1 Q2]. apply Z.ltb_lt in Q1. apply mem_In in Q2.
    pose proof (proj1 (Pa (fst x)) (in_map fst a x Hx)) as (Exx & Sx). exists (fst x). auto. }
  right. injection E as <- <-. cbn [r_ref r_noref r_unref r_nounref]. split; [reflexivity|]. split; [reflexivity|]. split; [reflexivity|]. split; [intros x Hx; apply delall_In in Hx; apply Hx|].
  intros x Hx. set (gone := filter _ _ ++ _). destruct (mem x gone) eqn:Eg; [|left; apply delall_In; split; [assumption|apply mem_not; assumption]]. right. apply mem_In in Eg.
  destruct Hq as (_ & Hq). destruct (Hq x Hx) as (Ox & Lx & _).
  unfold gone in Eg. rewrite !in_app_iff, !in_flat_map in Eg. destruct Eg as [Q|[(e0 & He & Q)|(e0 & He & Q)]].
  - apply filter_In in Q. destruct Q as (Q & Nx). apply negb_true_iff, Z.eqb_neq in Nx. exists c. split; [apply sib_of; assumption|auto].
  - pose proof (proj1 (Pa (fst e0)) (in_map fst a e0 He)) as (E0 & S0). unfold overridden in Q. destruct (Z.leb_spec (get_refinement_level m (fst e0)) (get_refinement_level m c)) as [Q1|Q1]; [|destruct Q].
    apply filter_In in Q. destruct Q as (Q & Nx). apply negb_true_iff, Z.eqb_neq in Nx. exists (fst e0). split; [apply sib_of; assumption|]. right. split; [assumption|]. split; [left; assumption|assumption].
  - apply Pb in He. destruct He as (E0 & S0). unfold overridden in Q. destruct (Z.leb_spec (get_refinement_level m e0) (get_refinement_level m c)) as [Q1|Q1]; [|destruct Q].
    apply filter_In in Q. destruct Q as (Q & Nx). apply negb_true_iff, Z.eqb_neq in Nx. exists e0. split; [apply sib_of; assumption|]. right. split; [assumption|]. split; [right; assumption|assumption].
Qed.

(** exactly what dont_unrefine forgets *)
Lemma dont_unrefine_exact c b q' : dont_unrefine g p c = Done (b, q') -> r_ref q' = r_ref q /\ r_noref q' = r_noref q /\
  (forall x, In x (r_nounref q') -> In x (r_nounref q) \/ x = c /\ exo own c = true) /\ (forall x, In x (r_nounref q) -> In x (r_nounref q')) /\
  (exo own c = true -> 0 < lvl_of m c -> exists s, siblings g c s /\ In s (r_nounref q')) /\
  (forall x, In x (r_unref q') -> In x (r_unref q)) /\ (forall x, In x (r_unref q) -> In x (r_unref q') \/ siblings g c x /\ exo own c = true /\ 0 < lvl_of m c).
Proof.
  intros E. destruct (dont_unrefine_ok g Hg own st Hgood r Ir c) as (b0 & q0 & E0 & _ & B0 & B1 & _ & _ & B4 & B5 & B6). rewrite E in E0. injection E0 as <- <-.
  assert (forall x, In x (r_unref q) -> In x (r_unref q') \/ siblings g c x /\ exo own c = true /\ 0 < lvl_of m c) as K.
  { intros x Hx. destruct (proj2 (Hr g own st Hgood r Ir) x Hx) as (Ox & Lx & _). unfold dont_unrefine in E. rewrite (ex_eq g own st Hgood r Ir c) in E. cbv zeta in E. change (get_refinement_level m c) with (lvl_of m c) in E.
    destruct (c =? error_cell); [injection E as <- <-; auto|]. destruct (exo own c) eqn:Ec; cbn [negb] in E; [|injection E as <- <-; auto]. destruct (Z.eqb_spec (lvl_of m c) 0); [injection E as <- <-; auto|].
    destruct (_ || _)%bool; [discriminate|]. destruct (existsb _ _); [injection E as <- <-; auto|]. injection E as <- <-. cbn [r_unref]. pose proof (own_level g Hg own st Hgood c Ec) as Lv.
    destruct (mem x (get_siblings m c)) eqn:M; [|left; apply delall_In; split; [assumption|apply mem_not; assumption]]. right. apply mem_In in M. split; [|split; [reflexivity|lia]]. apply (proj1 (sibs g Hg own st Hgood c Ec ltac:(lia))). assumption. }
  assert (r_ref q' = r_ref q /\ r_noref q' = r_noref q) as (K1 & K2).
  { unfold dont_unrefine in E. cbv zeta in E. destruct (c =? error_cell); [injection E as <- <-; auto|]. destruct (negb _); [injection E as <- <-; auto|]. destruct (_ =? 0); [injection E as <- <-; auto|]. destruct (_ || _)%bool; [discriminate|]. destruct (existsb _ _); injection E as <- <-; auto. }
  split; [assumption|]. split; [assumption|]. split; [assumption|]. split; [assumption|]. split; [|auto]. intros Ec Lc. apply B1; [apply B0|]; assumption.
Qed.

(** why unrefine_completely may not record a request *)
Lemma unrefine_exact c : exists b q', unrefine_completely g p c = Done (b, q') /\ r_ref q' = r_ref q /\ r_noref q' = r_noref q /\ r_nounref q' = r_nounref q /\
  (forall x, In x (r_unref q) -> In x (r_unref q')) /\ (forall x, In x (r_unref q') -> In x (r_unref q) \/ x = c /\ own c = Some r /\ 0 < lvl_of m c) /\
  (own c = Some r -> 0 < lvl_of m c ->
    (exists s, siblings g c s /\ (In s (r_unref q') \/ exo own s = false \/ In s (r_ref q) \/ In s (r_nounref q))) \/
    exists x, exo own x = true /\ sees m t H c x /\ lvl_of m c < lvl_of m x /\ In x (r_ref q)).
Proof.
  destruct (unrefine_completely_ok g Hg own st Hgood r Ir c) as (b & q' & E & _). exists b, q'. split; [assumption|].
  unfold unrefine_completely in E. cbv zeta in E. rewrite (ex_eq g own st Hgood r Ir c) in E. change (get_refinement_level m c) with (lvl_of m c) in E. pose proof (has_eq g own st Hgood r Ir c) as Hh.
  assert (own c = Some r -> exo own c = true) as Oe by (unfold exo; intros ->; reflexivity).
  assert (forall P : Prop, (own c = Some r -> 0 < lvl_of m c -> P) -> r_ref q = r_ref q /\ r_noref q = r_noref q /\ r_nounref q = r_nounref q /\ (forall x, In x (r_unref q) -> In x (r_unref q)) /\
    (forall x, In x (r_unref q) -> In x (r_unref q) \/ x = c /\ own c = Some r /\ 0 < lvl_of m c) /\ (own c = Some r -> 0 < lvl_of m c -> P)) as Same by (intros; auto 10).
  destruct (Z.eqb_spec c error_cell) as [->|Ne].
  { injection E as <- <-. apply Same. intros O. apply Oe in O. pose proof (own_valid g own st Hgood _ O) as V. unfold valid, error_cell in V. lia. }
  destruct (exo own c) eqn:Ec; cbn [negb] in E; [|injection E as <- <-; apply Same; intros O; discriminate (Oe O)].
  destruct (has c (s_data (p_store p))) eqn:Eh; cbn [negb] in E.
  2: { injection E as <- <-. apply Same. intros O. apply Hh in O. discriminate. }
  assert (own c = Some r) as Oc by (apply Hh; reflexivity).
  destruct (Z.eqb_spec (lvl_of m c) 0) as [L0|L0]; [injection E as <- <-; apply Same; lia|].
  pose proof (own_level g Hg own st Hgood c Ec) as Lv. destruct (sibs g Hg own st Hgood c Ec ltac:(lia)) as (Si & _).
  destruct (_ || _)%bool; [discriminate|].
  pose proof (sib_check_spec g Hg own st Hgood r Ir (get_siblings m c) ltac:(intros s Hs0; apply Si in Hs0; apply Hs0)) as Sp.
  destruct (sib_check g (exb (p_store p)) q (get_siblings m c)).
  { injection E as <- <-. apply Same. intros _ _. left. destruct Sp as (s & Hs & Sp). exists s. split; [apply Si; assumption|]. tauto. }
  pose proof (msh g own st Hgood r Ir) as M. pose proof M as (_ & _ & T & _). pose proof (ex_eq g own st Hgood r Ir c) as Exb. rewrite Ec in Exb. rewrite (get_parent_ex_leaf g Hg _ c T Exb) in E.
  destruct (of_list g (exb (p_store p)) c M Exb) as (l & El & Pl). rewrite El in E. cbn [bind] in E.
  destruct (existsb _ l) eqn:Ex1.
  { injection E as <- <-. apply Same. intros _ _. right. apply existsb_exists in Ex1. destruct Ex1 as (x & Hx & Q). pose proof (proj1 (Pl (fst x)) (in_map fst l x Hx)) as (Exx & Sx). rewrite (ex_eq g own st Hgood r Ir) in Exx. change (get_refinement_level m (fst x)) with (lvl_of m (fst x)) in Q. change (get_refinement_level m c) with (lvl_of m c) in Q.
    apply orb_true_iff in Q. destruct Q as [Q|Q].
    - apply Z.ltb_lt in Q. pose proof Hgood as (((_ & _ & _ & Bal) & _) & _). pose proof (Bal c (fst x) Ec Exx Sx). lia.
    - apply andb_true_iff in Q. destruct Q as (Q1 & Q2). apply Z.eqb_eq in Q1. apply mem_In in Q2. exists (fst x). split; [assumption|]. split; [assumption|]. split; [lia|assumption]. }
  destruct (existsb (fun s => mem s (r_unref q)) (get_siblings m c)) eqn:Ex2.
  { injection E as <- <-. apply Same. intros _ _. left. apply existsb_exists in Ex2. destruct Ex2 as (s & Hs & Q). apply mem_In in Q. exists s. split; [apply Si; assumption|]. auto. }
  injection E as <- <-. cbn [r_ref r_noref r_unref r_nounref]. split; [reflexivity|]. split; [reflexivity|]. split; [reflexivity|]. split; [intros x Hx; apply adds_In; auto|]. split.
  - intros x Hx. apply adds_In in Hx. destruct Hx as [->|Hx]; [right; split; [reflexivity|split; [assumption|lia]]|auto].
  - intros _ _. left. exists c. pose proof (own_valid g own st Hgood c Ec). split; [split; [assumption|split; [assumption|split; [lia|split; [lia|reflexivity]]]]|]. left. apply adds_In. auto.
Qed.
End Reqs.

(** ** What one call does to the requests of all processes *)
Section Step.
Context {D : Type} (d0 : D) (g : grid) (Hg : grid_ok g).
Notation m := (g_map g).
Notation t := (g_topo g).
Notation n := (g_len g).
Notation H := (g_hood g).
Notation rank r := (In r (ranks g)).
Context (own : Z -> option Z).

Definition guards (a : call (D := D)) (x : Z) : Prop := exists r, a = DontRefine r x /\ exo own x = true /\ lvl_of m x < m_max m.
Definition asks (a : call (D := D)) (x : Z) : Prop := exists r, a = Refine r x /\ own x = Some r /\ lvl_of m x < m_max m.
Definition asks_back (a : call (D := D)) (x : Z) : Prop := exists r, a = Unrefine r x /\ own x = Some r /\ 0 < lvl_of m x.
Definition holds_up (a : call (D := D)) (x : Z) : Prop := exo own x = true /\ 0 < lvl_of m x /\
  ((exists r, a = DontUnrefine r x) \/ exists r, a = Refine r x /\ own x = Some r /\ lvl_of m x = m_max m).

(** the family of c cannot be merged *)
Definition blocked (st : Z -> proc D) (c : Z) : Prop :=
  (exists s, siblings g c s /\ (exo own s = false \/ all_refined g own st s \/ asked g st r_nounref s)) \/
  exists x, exo own x = true /\ sees m t H (get_parent m c) x /\ (lvl_of m c < lvl_of m x \/ lvl_of m x = lvl_of m c /\ all_refined g own st x).

Definition no_guard (st : Z -> proc D) : Prop := forall c, ~ asked g st r_noref c.

Record summary (st : Z -> proc D) (a : call) (st' : Z -> proc D) : Prop := Summary {
  su_noref : forall x, asked g st' r_noref x <-> asked g st r_noref x \/ guards a x;
  su_ref_new : forall x, asked g st' r_ref x -> asked g st r_ref x \/ asks a x;
  su_ref_keep : forall x, asked g st r_ref x -> asked g st' r_ref x \/ guards a x;
  su_ref_add : forall x, asks a x -> asked g st' r_ref x \/ all_protected g own st' x;
  su_nou_new : forall x, asked g st' r_nounref x -> asked g st r_nounref x \/ exo own x = true /\ (0 < lvl_of m x -> holds_up a x);
  su_nou_keep : forall x, asked g st r_nounref x -> asked g st' r_nounref x;
  su_nou_add : forall x, holds_up a x -> exists s, siblings g x s /\ asked g st' r_nounref s;
  su_unr_new : forall x, asked g st' r_unref x -> asked g st r_unref x \/ asks_back a x;
  su_unr_keep : no_guard st' -> forall x, asked g st r_unref x -> asked g st' r_unref x \/ blocked st' x;
  su_unr_add : no_guard st' -> forall x, asks_back a x -> (exists s, siblings g x s /\ asked g st' r_unref s) \/ blocked st' x }.

Lemma unprotected st c : no_guard st -> ~ all_protected g own st c.
Proof. intros N Q. unfold all_protected in Q. induction Q as [c Q|]; [exact (N c Q)|assumption]. Qed.
Lemma ref_all st c : no_guard st -> asked g st r_ref c -> all_refined g own st c.
Proof. intros N Q. apply forced_given. split; [assumption|]. apply unprotected. assumption. Qed.
Lemma sib_sym a b : siblings g a b -> siblings g b a.
Proof. intros (A & B & C & E & F). split; [assumption|]. split; [assumption|]. split; [assumption|]. split; [assumption|]. congruence. Qed.
Lemma sib_trans a b c : siblings g a b -> siblings g b c -> siblings g a c.
Proof. intros (A & B & C & E & F) (_ & B' & _ & E' & F'). split; [assumption|]. split; [assumption|]. split; [assumption|]. split; [assumption|]. congruence. Qed.
Lemma sib_lvl a b : siblings g a b -> lvl_of m a = lvl_of m b.
Proof.
  intros (Va & Vb & La & Lb & P). pose proof (parent_facts m (proj1 Hg) a Va La) as (_ & L1 & _). pose proof (parent_facts m (proj1 Hg) b Vb Lb) as (_ & L2 & _). cbn zeta in *. rewrite P in L1. lia.
Qed.

(** a refined cell next to a family that is not smaller keeps the family from merging *)
Lemma blocked_near st x y c : good g own st -> no_guard st -> asked g st r_ref c -> siblings g y x -> exo own y = true ->
  y = c \/ exo own y = true /\ linked g c y /\ lvl_of m y <= lvl_of m c -> blocked st x.
Proof.
  intros Hgood N Hc S Ey Q. pose proof (ref_all st c N Hc) as Rc. pose proof (asked_ref g own st Hgood c Hc) as (Ec & _). pose proof (sib_sym _ _ S) as S'.
  destruct Q as [->|(_ & Lk & Ll)]; [left; exists c; auto|].
  destruct (Z.eq_dec (lvl_of m y) (lvl_of m c)) as [Le|Le].
  2: { left. exists y. split; [assumption|]. right. left. apply (refined_closed g own st Hgood c y Rc Ey ltac:(lia) Lk). }
  pose proof (sib_lvl _ _ S) as Lx. pose proof S as (Vy & Vx & Py & Px & Pe). pose proof (own_valid g own st Hgood c Ec) as Vc.
  destruct (Z.eq_dec (get_parent m c) (get_parent m x)) as [Pc|Pc].
  { left. exists c. split; [|auto]. split; [assumption|]. split; [assumption|]. split; [assumption|]. split; [lia|congruence]. }
  right. exists c. split; [assumption|]. split; [|right; split; [lia|assumption]]. rewrite <- Pe.
  pose proof (parent_facts m (proj1 Hg) y Vy Py) as (VP & LP & _). cbn zeta in *.
  assert (disjoint m (get_parent m y) c) as Dj.
  { intros i C1 C2. apply Pc. rewrite <- Pe. apply (kid_parent_eq m (proj1 Hg) c i); auto; lia. }
  assert (disjoint m y c) as Dj'. { apply (inside_disjoint m y (get_parent m y) c c); [apply (inside_parent m (proj1 Hg)); assumption|apply inside_refl; assumption|assumption]. }
  apply (sees_up m (proj1 Hg) t n (proj1 (proj1 (proj2 Hg))) y (get_parent m y) c c); [apply (inside_parent m (proj1 Hg)); assumption|apply inside_refl; assumption|assumption|].
  destruct Lk as [Lk|Lk]; [|assumption]. apply (sees_flip m (proj1 Hg) t n (proj1 (proj1 (proj2 Hg))) c y); [assumption|assumption|apply disjoint_sym; assumption| |assumption].
  rewrite (cell_len m (proj1 Hg) c Vc), (cell_len m (proj1 Hg) y Vy), Le. lia.
Qed.

Section One.
Context (st : Z -> proc D) (Hgood : good g own st) (r : Z) (Ir : rank r) (q' : reqs).
Notation q := (p_req (st r)).
Notation st' := (set_rank st r (with_reqs (st r) q')).
Definition elsewhere (f : reqs -> list Z) (x : Z) : Prop := exists k, k <> r /\ rank k /\ In x (f (p_req (st k))).
Lemma asked_new f x : asked g st' f x <-> In x (f q') \/ elsewhere f x.
Proof.
  unfold asked, set_rank. split.
  - intros (k & Ik & Hk). destruct (Z.eqb_spec k r) as [->|Nk]; [left; exact Hk|right; exists k; auto].
  - intros [Q|(k & Nk & Ik & Q)]; [exists r; rewrite Z.eqb_refl; auto|exists k; destruct (Z.eqb_spec k r); [contradiction|auto]].
Qed.
Lemma asked_old f x : asked g st f x <-> In x (f q) \/ elsewhere f x.
Proof.
  unfold asked. split.
  - intros (k & Ik & Hk). destruct (Z.eq_dec k r) as [->|Nk]; [auto|right; exists k; auto].
  - intros [Q|(k & Nk & Ik & Q)]; eauto.
Qed.
End One.

Lemma summary_same st a st' : (forall f x, asked g st' f x <-> asked g st f x) -> (forall x, ~ guards a x) -> (forall x, ~ asks a x) -> (forall x, ~ asks_back a x) -> (forall x, ~ holds_up a x) -> summary st a st'.
Proof.
  intros A N1 N2 N3 N4. constructor.
  - intros x. rewrite A. pose proof (N1 x). tauto.
  - intros x Q. left. apply A. assumption.
  - intros x Q. left. apply A. assumption.
  - intros x Q. destruct (N2 x Q).
  - intros x Q. left. apply A. assumption.
  - intros x Q. apply A. assumption.
  - intros x Q. destruct (N4 x Q).
  - intros x Q. left. apply A. assumption.
  - intros _ x Q. left. apply A. assumption.
  - intros _ x Q. destruct (N3 x Q).
Qed.

Lemma summary_dont_unrefine st r c b q' a : inv g own st -> rank r -> dont_unrefine g (st r) c = Done (b, q') -> good g own (set_rank st r (with_reqs (st r) q')) ->
  (forall x, ~ guards a x) -> (forall x, ~ asks a x) -> (forall x, ~ asks_back a x) -> (forall x, holds_up a x <-> x = c /\ exo own c = true /\ 0 < lvl_of m c) ->
  summary st a (set_rank st r (with_reqs (st r) q')).
Proof.
  intros [Hgood Hp] Ir E Hgood' N1 N2 N3 Hh. destruct (dont_unrefine_exact g Hg own st Hgood r Ir c b q' E) as (A1 & A2 & A3 & A4 & A5 & A6 & A7).
  constructor; intros.
  - rewrite (asked_new st r Ir), (asked_old st r Ir), A2. pose proof (N1 x). tauto.
  - rewrite (asked_new st r Ir) in H. rewrite (asked_old st r Ir). rewrite A1 in H. tauto.
  - rewrite (asked_new st r Ir), A1. rewrite (asked_old st r Ir) in H. tauto.
  - exfalso. eapply N2; eassumption.
  - rewrite (asked_new st r Ir) in H. rewrite (asked_old st r Ir). destruct H as [Q|Q]; [|auto]. destruct (A3 x Q) as [?|(-> & Ec)]; [auto|]. right. split; [assumption|]. intros L. apply Hh. auto.
  - rewrite (asked_new st r Ir). rewrite (asked_old st r Ir) in H. destruct H; auto.
  - apply Hh in H. destruct H as (-> & Ec & Lc). destruct (A5 Ec Lc) as (s & S & Q). exists s. split; [assumption|]. rewrite (asked_new st r Ir). auto.
  - rewrite (asked_new st r Ir) in H. rewrite (asked_old st r Ir). destruct H; auto.
  - rewrite (asked_new st r Ir). rewrite (asked_old st r Ir) in H0. destruct H0 as [Q|Q]; [|auto]. destruct (A7 x Q) as [?|(S & Ec & Lc)]; [auto|]. right. left.
    destruct (A5 Ec Lc) as (s & S1 & Q1). exists s. split; [apply (sib_trans _ c); [apply sib_sym|]; assumption|]. right. right. rewrite (asked_new st r Ir). auto.
  - exfalso. eapply N3; eassumption.
Qed.

Lemma summary_ok st a st' : inv g own st -> allowed g st a -> quiet a -> run d0 g st a = Done st' -> summary st a st'.
Proof.
  intros Hi Ha Hq E. pose proof (quiet_inv d0 g Hg own st a st' Hi Ha Hq E) as [Hgood' _]. pose proof Hi as [Hgood Hp].
  assert (forall r f x (s : store D), asked g (set_rank st r (with_store (st r) s)) f x <-> asked g st f x) as Sm.
  { intros r f x s. unfold asked, set_rank. split; intros (k & Ik & Hk); exists k; (split; [assumption|]); destruct (Z.eqb_spec k r) as [->|]; assumption. }
  assert (forall r f x, asked g (set_rank st r (clear_refined_unrefined_data (st r))) f x <-> asked g st f x) as Sc.
  { intros r f x. unfold asked, set_rank. split; intros (k & Ik & Hk); exists k; (split; [assumption|]); destruct (Z.eqb_spec k r) as [->|]; assumption. }
  assert (forall x, ~ (exo own x = true /\ own x = None)) as Ox by (intros x [A B]; unfold exo in A; rewrite B in A; discriminate).
  destruct a as [r c|r c|r c|r c|r c x|r c|r|r c w|r c v|r| | |given|k z]; cbn [run allowed quiet] in *; try contradiction.
  5-10: injection E as <-; (apply summary_same; [intros f0 x0; first [apply Sm|apply Sc]|intros x' (k & Q & _); discriminate|intros x' (k & Q & _); discriminate|intros x' (k & Q & _); discriminate|intros x' (_ & _ & [(k & Q)|(k & Q & _)]); discriminate]).
  5: injection E as <-; (apply summary_same; [intros; reflexivity|intros x' (k & Q & _); discriminate|intros x' (k & Q & _); discriminate|intros x' (k & Q & _); discriminate|intros x' (_ & _ & [(k & Q)|(k & Q & _)]); discriminate]).
  - destruct (refine_exact g Hg own st Hgood r Ha c) as (b & q' & E1 & A1 & A2 & A3). rewrite E1 in E. cbn [bind snd] in E. injection E as <-.
    assert (forall x, ~ guards (Refine r c) x) as N1 by (intros x (k & Q & _); discriminate).
    assert (forall x, ~ asks_back (Refine r c) x) as N3 by (intros x (k & Q & _); discriminate).
    assert (forall x, asks (Refine r c) x -> x = c /\ own c = Some r /\ lvl_of m c < m_max m) as Ak by (intros x (k & Q & O & L); injection Q as <- <-; auto).
    assert (forall x, holds_up (Refine r c) x -> x = c /\ own c = Some r /\ lvl_of m c = m_max m) as Hk by (intros x (_ & _ & [(k & Q)|(k & Q & O & L)]); [discriminate|injection Q as <- <-; auto]).
    assert (own c = Some r \/ own c <> Some r) as [Oc|Oc] by (destruct (own c) as [k|]; [destruct (Z.eq_dec k r) as [->|]; [auto|right; congruence]|right; discriminate]).
    2: { rewrite (A1 Oc) in *. apply summary_same; [|assumption|intros x Q; apply Ak in Q; tauto|assumption|intros x Q; apply Hk in Q; tauto]. intros f x. rewrite (asked_new st r Ha), (asked_old st r Ha). reflexivity. }
    assert (exo own c = true) as Ec by (unfold exo; rewrite Oc; reflexivity). pose proof (own_level g Hg own st Hgood c Ec) as Lv.
    destruct (Z.eq_dec (lvl_of m c) (m_max m)) as [Lm|Lm].
    + destruct (A2 Oc Lm) as (b' & E2). apply (summary_dont_unrefine st r c b' q'); auto.
      * intros x Q. apply Ak in Q. lia.
      * intros x. split; [intros Q; pose proof Q as (_ & L & _); apply Hk in Q; destruct Q as (-> & _); auto|]. intros (-> & _ & L). split; [assumption|]. split; [assumption|]. right. exists r. auto.
    + destruct (A3 Oc ltac:(lia)) as [(-> & Pr)|(B1 & B2 & B3 & B4 & B5)].
      * constructor; intros; rewrite ?(asked_new st r Ha), ?(asked_old st r Ha) in *; try tauto.
        -- pose proof (N1 x). tauto.
        -- apply Ak in H. destruct H as (-> & _). right. destruct Pr as [Pr|(x & Ex & Sx & Lx & Px)].
           ++ apply prot_given. rewrite (asked_new st r Ha). auto.
           ++ apply prot_next with x; [apply prot_given; rewrite (asked_new st r Ha); auto|]. split; [assumption|]. split; [assumption|]. split; [right; assumption|assumption].
        -- apply Hk in H. tauto.
        -- exfalso. eapply N3; eassumption.
      * constructor; intros; rewrite ?(asked_new st r Ha), ?(asked_old st r Ha) in *.
        -- rewrite B2. pose proof (N1 x). tauto.
        -- rewrite B1, adds_In in H. destruct H as [[->|?]|?]; [right; exists r; split; [reflexivity|split; [assumption|lia]]|auto|auto].
        -- rewrite B1, adds_In. tauto.
        -- apply Ak in H. destruct H as (-> & _). left. left. rewrite B1, adds_In. auto.
        -- rewrite B3 in H. auto.
        -- rewrite B3. auto.
        -- apply Hk in H. tauto.
        -- destruct H; auto.
        -- destruct H0 as [Q|Q]; [|auto]. destruct (B5 x Q) as [?|(y & S & Hy)]; [auto|]. right. apply (blocked_near _ x y c); [assumption|assumption| |assumption| |assumption].
           ++ rewrite (asked_new st r Ha), B1, adds_In. auto.
           ++ destruct Hy as [->|(? & _)]; assumption.
        -- exfalso. eapply N3; eassumption.
  - destruct (unrefine_exact g Hg own st Hgood r Ha c) as (b & q' & E1 & B1 & B2 & B3 & B4 & B5 & B6). rewrite E1 in E. cbn [bind snd] in E. injection E as <-.
    constructor; intros; rewrite ?(asked_new st r Ha), ?(asked_old st r Ha) in *; rewrite ?B1, ?B2, ?B3 in *; auto.
    + split; [auto|]. intros [Q|(k & Q & _)]; [assumption|discriminate].
    + destruct H as (k & Q & _). discriminate.
    + destruct H as (_ & _ & [(k & Q)|(k & Q & _)]); discriminate.
    + destruct H as [Q|Q]; [|auto]. destruct (B5 x Q) as [?|(-> & ? & ?)]; [auto|]. right. exists r. auto.
    + destruct H0; auto.
    + destruct H0 as (k & Q & O & L). injection Q as <- <-.
      assert (forall y, In y (r_ref (p_req (st r))) -> all_refined g own (set_rank st r (with_reqs (st r) q')) y) as Ry by (intros y Hy; apply ref_all; [assumption|rewrite (asked_new st r Ha), B1; auto]).
      assert (exo own c = true) as Ec by (unfold exo; rewrite O; reflexivity). pose proof (own_valid g own st Hgood c Ec) as Vc.
      destruct (B6 O L) as [(s & S & [Q|[Q|[Q|Q]]])|(x & Ex & Sx & Lx & Q)].
      * left. exists s. rewrite (asked_new st r Ha). auto.
      * right. left. exists s. auto.
      * right. left. exists s. auto.
      * right. left. exists s. split; [assumption|]. right. right. rewrite (asked_new st r Ha), B3. auto.
      * right. left. exists c. split; [split; [assumption|split; [assumption|split; [assumption|split; [assumption|reflexivity]]]]|]. right. left. apply (refined_closed g own _ Hgood' x c (Ry x Q) Ec Lx). right. assumption.
  - destruct (dont_refine_ok g Hg own st Hgood r Ha c) as (_ & _ & A & B & C & F). injection E as <-. 
    constructor; intros; rewrite ?(asked_new st r Ha), ?(asked_old st r Ha) in *; rewrite ?C, ?F in *; auto.
    + rewrite A. split; [intros [[?|(-> & ? & ?)]|?]; auto; right; exists r; auto|]. intros [[?|?]|(k & Q & ? & ?)]; auto. injection Q as <- <-. auto.
    + rewrite B in H. tauto.
    + rewrite B. destruct H as [Q|Q]; [|auto]. destruct (Z.eq_dec x c) as [->|Nx]; [|left; left; split; [assumption|contradiction]].
      destruct (exo own c) eqn:Ec; [|left; left; split; [assumption|intros _ [? _]; discriminate]]. destruct (Z.ltb_spec (lvl_of m c) (m_max m)); [right; exists r; auto|]. left. left. split; [assumption|]. lia.
    + destruct H as (k & Q & _). discriminate.
    + destruct H as (_ & _ & [(k & Q)|(k & Q & _)]); discriminate.
    + destruct H0 as (k & Q & _). discriminate.
  - destruct (dont_unrefine_ok g Hg own st Hgood r Ha c) as (b & q' & E1 & _). rewrite E1 in E. cbn [bind snd] in E. injection E as <-.
    apply (summary_dont_unrefine st r c b q'); auto; [intros x (k & Q & _); discriminate|intros x (k & Q & _); discriminate|intros x (k & Q & _); discriminate|].
    intros x. split; [intros (Ex & L & [(k & Q)|(k & Q & _)]); [injection Q as <- <-; auto|discriminate]|]. intros (-> & ? & ?). split; [assumption|]. split; [assumption|]. left. exists r. reflexivity.
Qed.
End Step.

(** ** What the calls between two commits ask for *)
(** cells to refine, cells that must not be refined, cells to unrefine, cells that must not be unrefined *)
Record requests := Requests { q_split : Z -> Prop; q_whole : Z -> Prop; q_merge : Z -> Prop; q_hold : Z -> Prop }.

(** Calls l made in state st.  A request to refine or unrefine counts if its process owns the cell
    (dccrg.hpp:2524-2534, 2650-2660); to refine a cell of the largest level is not to unrefine it
    (2549-2552).  The other two count on any process for cells that exist (2773-2775, 2838-2840). *)
Definition requested {D} (g : grid) (st : Z -> proc D) (l : list (call (D := D))) : requests := Requests
  (fun c => exists r, In (Refine r c) l /\ owner st 0 c = Some r /\ lvl_of (g_map g) c < m_max (g_map g))
  (fun c => dont_refine_set g st c \/ (exists r, In (DontRefine r c) l) /\ exists_on st 0 c = true /\ lvl_of (g_map g) c < m_max (g_map g))
  (fun c => exists r, In (Unrefine r c) l /\ owner st 0 c = Some r)
  (fun c => (exists r, In (DontUnrefine r c) l) \/ exists r, In (Refine r c) l /\ owner st 0 c = Some r /\ lvl_of (g_map g) c = m_max (g_map g)).

(** ** What a commit must do, from the existing cells and the requests alone *)
Section Spec.
Context (m : mapping) (t : topo) (n : Z) (ex : Z -> bool) (q : requests).
Definition close (a b : Z) : Prop := sees m t (default_hood_of n) a b \/ sees m t (default_hood_of n) b a.
(** cells that are not refined whatever is asked: protected, or close to a larger one of these *)
Inductive stays_whole : Z -> Prop :=
| whole_given c : q_whole q c -> stays_whole c
| whole_next a b : stays_whole a -> ex a = true -> ex b = true -> close a b -> lvl_of m a < lvl_of m b -> stays_whole b.
(** cells that are refined: asked for, or close to a smaller one of these *)
Inductive splits : Z -> Prop :=
| split_given c : q_split q c -> ~ stays_whole c -> splits c
| split_next a b : splits a -> ex a = true -> ex b = true -> close a b -> lvl_of m b < lvl_of m a -> splits b.
(** parents of families that are unrefined *)
Definition merges (p : Z) : Prop :=
  (exists c, child_of m p c /\ q_merge q c) /\
  (forall c, child_of m p c -> ex c = true /\ ~ splits c /\ ~ q_hold q c) /\
  forall x, ex x = true -> sees m t (default_hood_of n) p x -> lvl_of m x <= lvl_of m p + 1 /\ (lvl_of m x = lvl_of m p + 1 -> ~ splits x).
(** the cells afterwards *)
Definition cells_after (c : Z) : Prop :=
  ex c = true /\ ~ splits c /\ ~ (0 < lvl_of m c /\ merges (get_parent m c)) \/
  valid m c /\ 0 < lvl_of m c /\ splits (get_parent m c) \/ merges c.
End Spec.

Section Outcome.
Context {D : Type} (d0 : D) (g : grid) (Hg : grid_ok g).
Notation m := (g_map g).
Notation t := (g_topo g).
Notation n := (g_len g).
Notation rank r := (In r (ranks g)).
Notation reachable := (reachable d0 g).
Notation runs := (runs d0 g).
Context (own : Z -> option Z).
Notation guards := (guards (D := D) g own).
Notation asks := (asks (D := D) g own).
Notation asks_back := (asks_back (D := D) g own).
Notation holds_up := (holds_up (D := D) g own).

Record past (i0 : Z -> Prop) (l : list (call (D := D))) (st : Z -> proc D) : Prop := Past {
  pa_noref : forall x, asked g st r_noref x <-> i0 x \/ exists a, In a l /\ guards a x;
  pa_ref : forall x, asked g st r_ref x -> exists a, In a l /\ asks a x;
  pa_asks : forall a x, In a l -> asks a x -> asked g st r_ref x \/ all_protected g own st x;
  pa_nou : forall x, asked g st r_nounref x -> 0 < lvl_of m x -> exists a, In a l /\ holds_up a x;
  pa_holds : forall a x, In a l -> holds_up a x -> exists s, siblings g x s /\ asked g st r_nounref s;
  pa_unr : forall x, asked g st r_unref x -> exists a, In a l /\ asks_back a x;
  pa_back : no_guard g st -> forall a x, In a l -> asks_back a x -> (exists s, siblings g x s /\ asked g st r_unref s) \/ blocked g own st x }.

Lemma protected_more (A B : Z -> Prop) c : (forall x, A x -> B x) -> protected g own A c -> protected g own B c.
Proof. intros S Q. induction Q as [c Q|a b _ IH U]; [apply prot_given; auto|apply prot_next with a; assumption]. Qed.
Lemma forced_more (A B : Z -> Prop) c : (forall x, A x -> B x) -> forced g own A c -> forced g own B c.
Proof. intros S Q. induction Q as [c Q|a b _ IH U]; [apply forced_given; auto|apply forced_next with a; assumption]. Qed.

Lemma past_step i0 l st a st' : inv g own st -> past i0 l st -> summary g own st a st' -> past i0 (l ++ [a]) st'.
Proof.
  intros Hi P S. destruct P as [P1 P2 P3 P4 P5 P6 P7], S as [S1 S2 S3 S4 S5 S6 S7 S8 S9 S10].
  assert (forall x, asked g st r_noref x -> asked g st' r_noref x) as Mn by (intros x Q; apply S1; auto).
  assert (forall x, all_protected g own st x -> all_protected g own st' x) as Mp by (intros x; apply protected_more; assumption).
  assert (no_guard g st' -> no_guard g st) as Ng by (intros N x Q; apply (N x), Mn, Q).
  assert (forall b, In b (l ++ [a]) <-> In b l \/ b = a) as Ia by (intros b; rewrite in_app_iff; cbn [In]; intuition auto).
  assert (no_guard g st' -> forall x, all_refined g own st x -> all_refined g own st' x) as Mr.
  { intros N x. apply forced_more. intros y [Q _]. split; [|apply unprotected; assumption]. destruct (S3 y Q) as [?|G]; [assumption|]. exfalso. apply (N y), S1. auto. }
  assert (no_guard g st' -> forall x, blocked g own st x -> blocked g own st' x) as Mb.
  { intros N x [(s & Q & K)|(y & E & Sy & K)]; [left; exists s|right; exists y].
    - split; [assumption|]. destruct K as [K|[K|K]]; auto.
    - split; [assumption|]. split; [assumption|]. destruct K as [K|[K1 K2]]; auto. }
  constructor.
  - intros x. rewrite S1, P1. split.
    + intros [[Q|(b & Hb & Q)]|Q]; [auto|right; exists b; rewrite Ia; auto|right; exists a; rewrite Ia; auto].
    + intros [Q|(b & Hb & Q)]; [auto|]. apply Ia in Hb. destruct Hb as [Hb| ->]; [left; right; eauto|auto].
  - intros x Q. destruct (S2 x Q) as [K|K]; [destruct (P2 x K) as (b & Hb & K'); exists b; rewrite Ia; auto|exists a; rewrite Ia; auto].
  - intros b x Hb Q. apply Ia in Hb. destruct Hb as [Hb| ->]; [|apply S4; assumption]. destruct (P3 b x Hb Q) as [K|K]; [|auto]. destruct (S3 x K) as [?|G]; [auto|]. right. apply prot_given, S1. auto.
  - intros x Q L. destruct (S5 x Q) as [K|[_ K]]; [destruct (P4 x K L) as (b & Hb & K'); exists b; rewrite Ia; auto|exists a; rewrite Ia; auto].
  - intros b x Hb Q. apply Ia in Hb. destruct Hb as [Hb| ->]; [|apply S7; assumption]. destruct (P5 b x Hb Q) as (s & K1 & K2). eauto.
  - intros x Q. destruct (S8 x Q) as [K|K]; [destruct (P6 x K) as (b & Hb & K'); exists b; rewrite Ia; auto|exists a; rewrite Ia; auto].
  - intros N b x Hb Q. apply Ia in Hb. destruct Hb as [Hb| ->]; [|apply S10; assumption]. destruct (P7 (Ng N) b x Hb Q) as [(s & K1 & K2)|K]; [|auto].
    destruct (S9 N s K2) as [K|K]; [left; eauto|]. right. destruct K as [(s' & K3 & K4)|(y & E & Sy & K)]; [left; exists s'|right; exists y].
    + split; [apply (sib_trans g _ s); assumption|assumption].
    + split; [assumption|]. pose proof (sib_lvl g Hg _ _ K1) as Ls. destruct K1 as (_ & _ & _ & _ & Pe). rewrite Pe, Ls. auto.
Qed.

Lemma past_runs i0 l0 st l st' : inv g own st -> runs st l st' -> all_quiet l -> past i0 l0 st -> past i0 (l0 ++ l) st'.
Proof.
  intros Hi R. revert l0. induction R as [st|st a st1 l st2 Ha E R IH]; intros l0 Hq P; [rewrite app_nil_r; assumption|].
  assert (quiet a) as Qa by (apply Hq; left; reflexivity). replace (l0 ++ a :: l) with ((l0 ++ [a]) ++ l) by (rewrite <- app_assoc; reflexivity).
  apply IH; [apply (quiet_inv d0 g Hg own st a); assumption|intros b Hb; apply Hq; right; assumption|].
  apply (past_step i0 l0 st); [assumption|assumption|]. apply (summary_ok d0 g Hg own); assumption.
Qed.

Lemma past_start st : fresh g st -> past (dont_refine_set g st) [] st.
Proof.
  intros F. assert (forall f, (forall k, rank k -> f (p_req (st k)) = []) -> forall x, ~ asked g st f x) as No by (intros f Ff x (k & Ik & Q); rewrite (Ff k Ik) in Q; destruct Q).
  constructor; try (intros; contradiction).
  - intros x. split; [intros (k & Ik & Q); left; exists k; auto|]. intros [(k & Ik & Q)|(a & [] & _)]. exists k. auto.
  - intros x Q. exfalso. refine (No r_ref _ x Q). intros k Ik. apply (F k Ik).
  - intros x Q. exfalso. refine (No r_nounref _ x Q). intros k Ik. apply (F k Ik).
  - intros x Q. exfalso. refine (No r_unref _ x Q). intros k Ik. apply (F k Ik).
Qed.

Context (st : Z -> proc D) (Hi : inv g own st) (l : list (call (D := D))) (Hq : all_quiet l) (st1 : Z -> proc D) (Hr : runs st l st1) (Hf : fresh g st).
Notation ex := (exists_on st 0).
Notation rq := (requested g st l).
Lemma after_l : past (dont_refine_set g st) l st1.
Proof. apply (past_runs _ [] st l st1 Hi Hr Hq). apply past_start. assumption. Qed.
Lemma exq c : ex c = exo own c. Proof. apply (viewx g own st 0 c Hi). apply (HistProps.rank0 g Hg). Qed.
Lemma owq c : owner st 0 c = own c. Proof. apply (view g own st 0 c Hi). apply (HistProps.rank0 g Hg). Qed.
Lemma whole_iff c : stays_whole m t n ex rq c <-> all_protected g own st1 c.
Proof.
  pose proof after_l as P. assert (forall x, q_whole rq x <-> asked g st1 r_noref x) as Q.
  { intros x. rewrite (pa_noref _ _ _ P). cbn [requested q_whole]. split.
    - intros [Q|((r & Hl) & Ex & L)]; [auto|]. right. exists (DontRefine r x). split; [assumption|]. exists r. rewrite exq in Ex. auto.
    - intros [Q|(a & Hl & r & -> & Ex & L)]; [auto|]. right. split; [eauto|]. rewrite exq. auto. }
  unfold all_protected. split; intros K.
  - induction K as [c K|a b _ IH Ea Eb C L]; [apply prot_given, Q; assumption|]. apply prot_next with a; [assumption|]. rewrite exq in Ea, Eb. split; [assumption|]. auto.
  - induction K as [c K|a b _ IH (Ea & Eb & C & L)]; [apply whole_given, Q; assumption|]. apply whole_next with a; rewrite ?exq; assumption.
Qed.
Lemma split_iff c : splits m t n ex rq c <-> all_refined g own st1 c.
Proof.
  pose proof after_l as P. unfold all_refined. split; intros K.
  - induction K as [c (r & Hl & O & L) N|a b _ IH Ea Eb C L].
    + apply forced_given. rewrite whole_iff in N. split; [|assumption]. rewrite owq in O. destruct (pa_asks _ _ _ P _ c Hl) as [?|?]; [exists r; auto|assumption|contradiction].
    + apply forced_next with a; [assumption|]. rewrite exq in Ea, Eb. split; [assumption|]. split; [assumption|]. split; [|assumption]. destruct C; [right|left]; assumption.
  - induction K as [c [A N]|a b _ IH (Eb & Ea & C & L)].
    + apply split_given; [|rewrite whole_iff; assumption]. destruct (pa_ref _ _ _ P c A) as (a & Hl & r & -> & O & L). exists r. rewrite owq. auto.
    + apply split_next with a; rewrite ?exq; try assumption. destruct C; [right|left]; assumption.
Qed.
Lemma kid_sib p c x : child_of m p c -> siblings g c x <-> child_of m p x.
Proof.
  intros (Vc & Lc & Pc). split; [intros (_ & Vx & _ & Lx & Px); split; [assumption|split; [assumption|congruence]]|]. intros (Vx & Lx & Px). split; [assumption|]. split; [assumption|]. split; [assumption|]. split; [assumption|congruence].
Qed.
Lemma merge_iff p : (forall c, ~ q_whole rq c) -> merges m t n ex rq p <-> merged g own st1 p.
Proof.
  intros Nw. pose proof after_l as P. pose proof (quiets_inv d0 g Hg own _ _ _ Hi Hr Hq) as [Hgood1 _].
  assert (no_guard g st1) as Ng. { intros x Q. apply (Nw x). apply (pa_noref _ _ _ P) in Q. cbn [requested q_whole]. destruct Q as [Q|(a & Hl & r & -> & Ex & L)]; [auto|]. right. rewrite exq. eauto. }
  assert (forall x, exo own x = true -> 0 < lvl_of m x -> q_hold rq x -> exists a, In a l /\ holds_up a x) as Hu.
  { intros x Ex Lx [(r & Hl)|(r & Hl & O & L)]; eexists; (split; [exact Hl|]); (split; [assumption|]); (split; [assumption|]); [eauto|]. right. exists r. rewrite owq in O. auto. }
  split.
  - intros ((c & K & r & Hl & O) & Kids & See). rewrite owq in O. pose proof K as (Vc & Lc & Pc). 
    pose proof (parent_facts m (proj1 Hg) c Vc Lc) as (_ & LP & _). cbn zeta in LP. rewrite Pc in LP.
    assert (forall x, asked g st1 r_nounref x -> ~ child_of m p x) as Nh.
    { intros x A Kx. pose proof Kx as (Vx & Lx & _). destruct (Kids x Kx) as (_ & _ & Nh). apply Nh. destruct (pa_nou _ _ _ P x A Lx) as (a & Ha & _ & _ & [(k & ->)|(k & -> & Ok & Lk)]); cbn [requested q_hold]; [eauto|]. right. exists k. rewrite owq. auto. }
    destruct (pa_back _ _ _ P Ng (Unrefine r c) c Hl) as [(s & S & A)|B]; [exists r; auto| |].
    + apply (kid_sib p c s K) in S. pose proof S as (_ & _ & Ps). pose proof S as (Vs & Ls & _). pose proof (parent_facts m (proj1 Hg) s Vs Ls) as (_ & Lps & _). cbn zeta in Lps. rewrite Ps in Lps. exists s. split; [|assumption]. split; [assumption|]. split.
      * intros x Sx. apply (kid_sib p s x S) in Sx. destruct (Kids x Sx) as (_ & Ns & _). rewrite split_iff in Ns. split; [assumption|]. intros Q. apply (Nh x Q Sx).
      * intros x Ex Sx. rewrite Ps in Sx. rewrite <- exq in Ex. destruct (See x Ex Sx) as (L1 & L2). split; [lia|]. intros Le. rewrite <- split_iff. apply L2. lia.
    + exfalso. destruct B as [(s & S & [Q|[Q|Q]])|(x & Ex & Sx & Q)].
      * apply (kid_sib p c s K) in S. destruct (Kids s S) as (Es & _). rewrite exq in Es. congruence.
      * apply (kid_sib p c s K) in S. destruct (Kids s S) as (_ & Ns & _). apply Ns, split_iff. assumption.
      * apply (kid_sib p c s K) in S. apply (Nh s Q S).
      * rewrite Pc in Sx. rewrite <- exq in Ex. destruct (See x Ex Sx) as (L1 & L2). destruct Q as [Q|(Q & R)]; [lia|]. apply L2; [lia|]. apply split_iff. assumption.
  - intros Mp. pose proof (merged_ok g Hg own st1 Hgood1 p Mp) as (Vp & Lp & Kp). destruct Mp as (c & (A & Uc & See) & Pc). destruct (pa_unr _ _ _ P c A) as (a & Hl & r & -> & O & L).
    assert (child_of m p c) as K. { split; [|auto]. apply (own_valid g own st1 Hgood1). unfold exo. rewrite O. reflexivity. }
    pose proof K as (Vc & _). pose proof (parent_facts m (proj1 Hg) c Vc L) as (_ & LP & _). cbn zeta in LP. rewrite Pc in LP. split; [|split].
    + exists c. split; [assumption|]. exists r. rewrite owq. auto.
    + intros x Kx. pose proof Kx as (Vx & Lx & Px). destruct (Kp x Vx Lx Px) as [Ex Nx]. rewrite exq. split; [assumption|]. rewrite split_iff. split; [assumption|]. intros Hd.
      destruct (Hu x Ex Lx Hd) as (a & Ha & Hh). destruct (pa_holds _ _ _ P a x Ha Hh) as (s & S & As). apply (Uc s); [|assumption]. apply (kid_sib p c s K). apply (kid_sib p x s Kx). assumption.
    + intros x Ex Sx. rewrite exq in Ex. rewrite <- Pc in Sx. destruct (See x Ex Sx) as (L1 & L2). split; [lia|]. rewrite split_iff. intros Le. apply L2. lia.
Qed.
End Outcome.

Section C68.
Context {D : Type} (d0 : D) (g : grid) (Hg : grid_ok g).
Notation m := (g_map g).
Notation t := (g_topo g).
Notation n := (g_len g).

Lemma commit_from (st : Z -> proc D) l st1 res : reachable d0 g st -> runs d0 g st l st1 -> all_quiet l -> stop_refining d0 g st1 = Done res ->
  exists own own', inv g own st /\ inv g own st1 /\ inv g own' (state_of res) /\ committed d0 g own st1 own' res.
Proof.
  intros R Hr Hq E. destruct (reachable_inv d0 g Hg st R) as (own & Hi). pose proof (quiets_inv d0 g Hg own _ _ _ Hi Hr Hq) as Hi1.
  destruct (stop_refining_ok d0 g Hg own st1 (proj1 Hi1)) as (own' & res' & E' & C). assert (res' = res) as -> by congruence.
  exists own, own'. split; [assumption|]. split; [assumption|]. split; [apply (inv_commit d0 g Hg own st1 own' res Hi1 C)|assumption].
Qed.

(** which cells a commit refines follows from the cells and the requests *)
Theorem c68_refined_cells (st : Z -> proc D) l st1 res c :
  reachable d0 g st -> fresh g st -> runs d0 g st l st1 -> all_quiet l -> stop_refining d0 g st1 = Done res ->
  was_refined g st1 (state_of res) c <-> splits m t n (exists_on st 0) (requested g st l) c.
Proof.
  intros R F Hr Hq E. destruct (commit_from st l st1 res R Hr Hq E) as (own & own' & Hi & Hi1 & Hi' & C).
  rewrite (refined_iff d0 g Hg own own' st1 res c Hi1 Hi' C), (split_iff d0 g Hg own st Hi l Hq st1 Hr F). reflexivity.
Qed.
(** so do the families it unrefines, if nothing is protected from refinement *)
Theorem c68_unrefined_families (st : Z -> proc D) l st1 res p :
  reachable d0 g st -> fresh g st -> (forall c, ~ q_whole (requested g st l) c) -> runs d0 g st l st1 -> all_quiet l -> stop_refining d0 g st1 = Done res ->
  was_unrefined g st1 (state_of res) p <-> merges m t n (exists_on st 0) (requested g st l) p.
Proof.
  intros R F Nw Hr Hq E. destruct (commit_from st l st1 res R Hr Hq E) as (own & own' & Hi & Hi1 & Hi' & C).
  rewrite (unrefined_iff d0 g Hg own own' st1 res p Hi1 Hi' C), (merge_iff d0 g Hg own st Hi l Hq st1 Hr F p Nw). reflexivity.
Qed.
Theorem c68_cells_after (st : Z -> proc D) l st1 res k c :
  reachable d0 g st -> fresh g st -> (forall c, ~ q_whole (requested g st l) c) -> runs d0 g st l st1 -> all_quiet l -> stop_refining d0 g st1 = Done res -> In k (ranks g) ->
  exists_on (state_of res) k c = true <-> cells_after m t n (exists_on st 0) (requested g st l) c.
Proof.
  intros R F Nw Hr Hq E Ik. destruct (commit_from st l st1 res R Hr Hq E) as (own & own' & Hi & Hi1 & Hi' & C).
  rewrite (viewx g own' _ k c Hi' Ik), (cm_ex _ _ _ _ _ _ C). unfold after, cells_after. rewrite (exq g Hg own st Hi c), !(split_iff d0 g Hg own st Hi l Hq st1 Hr F), !(merge_iff d0 g Hg own st Hi l Hq st1 Hr F _ Nw). reflexivity.
Qed.
End C68.

(** the same grid on another number of processes *)
Definition on_procs (g : grid) (np : Z) : grid := Grid (g_map g) (g_topo g) (g_len g) np.
Definition same_requests (q q' : requests) : Prop := forall c,
  (q_split q c <-> q_split q' c) /\ (q_whole q c <-> q_whole q' c) /\ (q_merge q c <-> q_merge q' c) /\ (q_hold q c <-> q_hold q' c).

Section Ext.
Context (m : mapping) (t : topo) (n : Z) (ex ex' : Z -> bool) (Hex : forall c, ex c = ex' c).
Lemma whole_ext q q' c : same_requests q q' -> stays_whole m t n ex q c -> stays_whole m t n ex' q' c.
Proof. intros S Q. induction Q as [c Q|a b _ IH Ea Eb C L]; [apply whole_given, S; assumption|]. rewrite Hex in Ea, Eb. apply whole_next with a; assumption. Qed.
End Ext.
Lemma same_sym q q' : same_requests q q' -> same_requests q' q.
Proof. intros S c. destruct (S c) as (A & B & C & E). tauto. Qed.
Section Ext2.
Context (m : mapping) (t : topo) (n : Z).
Lemma splits_ext ex ex' q q' c : (forall c, ex c = ex' c) -> same_requests q q' -> splits m t n ex q c -> splits m t n ex' q' c.
Proof.
  intros Hex S Q. induction Q as [c Q N|a b _ IH Ea Eb C L].
  - apply split_given; [apply S; assumption|]. intros K. apply N. apply (whole_ext m t n ex' ex) with q'; [auto|apply same_sym; assumption|assumption].
  - rewrite Hex in Ea, Eb. apply split_next with a; assumption.
Qed.
Lemma merges_ext ex ex' q q' p : (forall c, ex c = ex' c) -> same_requests q q' -> merges m t n ex q p -> merges m t n ex' q' p.
Proof.
  intros Hex S ((c & K & Q) & Kids & See).
  assert (forall x, splits m t n ex' q' x -> splits m t n ex q x) as Sp by (intros x; apply splits_ext; [auto|apply same_sym; assumption]).
  split; [exists c; split; [assumption|]; apply S; assumption|]. split.
  - intros x Kx. destruct (Kids x Kx) as (E & N & Nh). rewrite <- Hex. split; [assumption|]. split; [auto|]. intros Q'. apply Nh, S, Q'.
  - intros x Ex Sx. rewrite <- Hex in Ex. destruct (See x Ex Sx) as (L1 & L2). split; [assumption|]. intros Le K'. apply (L2 Le), Sp, K'.
Qed.
Lemma cells_ext ex ex' q q' c : (forall c, ex c = ex' c) -> same_requests q q' -> cells_after m t n ex q c -> cells_after m t n ex' q' c.
Proof.
  intros Hex S Q. assert (forall x, ex' x = ex x) as Hex' by auto. pose proof (same_sym _ _ S) as S'.
  destruct Q as [(E & N & Nm)|[(V & L & Q)|Q]].
  - left. rewrite <- Hex. split; [assumption|]. split; [intros K; apply N; apply (splits_ext ex' ex q' q); assumption|]. intros [L K]. apply Nm. split; [assumption|]. apply (merges_ext ex' ex q' q); assumption.
  - right. left. split; [assumption|]. split; [assumption|]. apply (splits_ext ex ex' q q'); assumption.
  - right. right. apply (merges_ext ex ex' q q'); assumption.
Qed.
End Ext2.

(** The same requests on the same cells give the same cells, whatever the order of the requests, the
    distribution of cells to processes, the number of processes and the data of cells. *)
Theorem c68_same_requests_same_cells {D1 D2 : Type} (d1 : D1) (d2 : D2) g np st l st1 res st' l' st1' res' k k' c :
  grid_ok g -> grid_ok (on_procs g np) ->
  reachable d1 g st -> fresh g st -> runs d1 g st l st1 -> all_quiet l -> stop_refining d1 g st1 = Done res ->
  reachable d2 (on_procs g np) st' -> fresh (on_procs g np) st' -> runs d2 (on_procs g np) st' l' st1' -> all_quiet l' -> stop_refining d2 (on_procs g np) st1' = Done res' ->
  (forall c, exists_on st 0 c = exists_on st' 0 c) -> same_requests (requested g st l) (requested (on_procs g np) st' l') ->
  (forall c, ~ q_whole (requested g st l) c) -> In k (ranks g) -> In k' (ranks (on_procs g np)) ->
  exists_on (state_of res) k c = exists_on (state_of res') k' c.
Proof.
  intros Hg Hg' R F Hr Hq E R' F' Hr' Hq' E' Hex S Nw Ik Ik'.
  assert (forall c, ~ q_whole (requested (on_procs g np) st' l') c) as Nw' by (intros x Q; apply (Nw x), (S x), Q).
  apply Bool.eq_iff_eq_true. rewrite (c68_cells_after d1 g Hg st l st1 res k c R F Nw Hr Hq E Ik), (c68_cells_after d2 _ Hg' st' l' st1' res' k' c R' F' Nw' Hr' Hq' E' Ik').
  split; apply cells_ext; auto. apply same_sym. assumption.
Qed.
(** with protection from refinement the refined cells are still the same *)
Theorem c68_same_requests_same_refined {D1 D2 : Type} (d1 : D1) (d2 : D2) g np st l st1 res st' l' st1' res' c :
  grid_ok g -> grid_ok (on_procs g np) ->
  reachable d1 g st -> fresh g st -> runs d1 g st l st1 -> all_quiet l -> stop_refining d1 g st1 = Done res ->
  reachable d2 (on_procs g np) st' -> fresh (on_procs g np) st' -> runs d2 (on_procs g np) st' l' st1' -> all_quiet l' -> stop_refining d2 (on_procs g np) st1' = Done res' ->
  (forall c, exists_on st 0 c = exists_on st' 0 c) -> same_requests (requested g st l) (requested (on_procs g np) st' l') ->
  was_refined g st1 (state_of res) c <-> was_refined (on_procs g np) st1' (state_of res') c.
Proof.
  intros Hg Hg' R F Hr Hq E R' F' Hr' Hq' E' Hex S.
  rewrite (c68_refined_cells d1 g Hg st l st1 res c R F Hr Hq E), (c68_refined_cells d2 _ Hg' st' l' st1' res' c R' F' Hr' Hq' E').
  split; apply splits_ext; auto. apply same_sym. assumption.
Qed.
