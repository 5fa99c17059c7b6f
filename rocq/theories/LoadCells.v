(** Loading of cells: load_cells recreates any given balanced tiling from an unrefined grid. *)
From Verif Require Import U64 MapModel MapSpec MapProofs MapFamily MapProps HoodModel MeshModel
  MeshSpec MeshBase HoodProps MeshWalk MeshFind MeshKids MeshItem MeshCheck MeshTo MeshNear
  Sets RefineModel RefineGeo RefineInv RefineSpread RefineMerge RefineFold RefineExec RefineStop
  BalanceModel RefineReqs Create Balance History HistProps.
Open Scope Z_scope.

Section Target.
Context (m : mapping) (Hwf : wf m) (t : topo) (n : Z) (Hn : 0 <= n).
Notation H := (default_hood_of n).
Context (tx : Z -> bool) (Ht : tiling m tx) (Hb : balanced m t H tx).
Notation V := (leaf_valid m tx Ht).
Notation lvl := (lvl_of m).

(** of two cells with a common point the larger contains the smaller *)
Lemma nest a b i : valid m a -> valid m b -> lvl a <= lvl b -> covers m a i -> covers m b i -> inside m b a.
Proof.
  intros Va Vb L Ca Cb. split; [assumption|]. split; [assumption|]. intros k.
  pose proof (cell_len_pos m Hwf a Va) as Pa. pose proof (cell_len_pos m Hwf b Vb) as Pb. pose proof (cell_level m Hwf a Va). pose proof (cell_level m Hwf b Vb).
  assert (len_of m b | len_of m a) as Dv by (rewrite !(cell_len m Hwf) by assumption; apply pow2_divide; lia).
  pose proof (proj1 (covers_k m a i) Ca k). pose proof (proj1 (covers_k m b i) Cb k).
  pose proof (cell_aligned m Hwf a k Va) as Aa. pose proof (cell_aligned m Hwf b k Vb) as Ab.
  destruct Dv as [q Hq], Aa as [x Hx], Ab as [y Hy]. rewrite Hx, Hy in *. rewrite Hq in *. assert (x * q <= y) by nia. assert (y + 1 <= x * q + q) by nia. nia.
Qed.

(** cells of which the target grid has (grand...)children *)
Definition inner (p : Z) : Prop := valid m p /\ exists x, tx x = true /\ lvl p < lvl x /\ covers m p (idx_of m x).
(** the target grid cut at level l *)
Definition trunc (l c : Z) : Prop := (tx c = true /\ lvl c <= l) \/ (lvl c = l /\ inner c).

Lemma trunc_valid l c : trunc l c -> valid m c.
Proof. intros [[Q _]|[_ [Q _]]]; [apply (V c Q)|assumption]. Qed.
Lemma inner_not_tx p : inner p -> tx p = false.
Proof.
  intros (Vp & x & Tx & L & C). destruct (tx p) eqn:E; [|reflexivity]. pose proof (leaf_unique m Hwf tx Ht p x _ E Tx C (covers_own m Hwf x (V x Tx))). subst x. lia.
Qed.
Lemma inner_parent c : valid m c -> 0 < lvl c -> tx c = true \/ inner c -> inner (get_parent m c).
Proof.
  intros Vc L Q. pose proof (parent_facts m Hwf c Vc L) as (Vp & Lp & _). cbn zeta in *. split; [assumption|]. destruct Q as [Q|(_ & x & Tx & Lx & C)].
  - exists c. split; [assumption|]. split; [unfold lvl_of in *; lia|]. apply (parent_covers m Hwf); [assumption|assumption|]. apply covers_own; assumption.
  - exists x. split; [assumption|]. split; [unfold lvl_of in *; lia|]. apply (parent_covers m Hwf); assumption.
Qed.
Lemma leaf_of c : valid m c -> (forall y, tx y = true -> covers m y (idx_of m c) -> lvl c <= lvl y) -> tx c = true \/ inner c.
Proof.
  intros Vc Hy. destruct (leaf_at m tx Ht (idx_of m c) (cell_in_grid m Hwf c Vc)) as (y & Ty & Cy). specialize (Hy y Ty Cy).
  pose proof (covers_own m Hwf c Vc) as Cc. destruct (Z.eq_dec (lvl c) (lvl y)) as [E|N].
  - left. rewrite (overlap_same m Hwf c y _ Vc (V y Ty) Cc Cy E). assumption.
  - right. split; [assumption|]. exists y. split; [assumption|]. split; [lia|]. apply (inside_covers m y c); [apply (nest c y _ Vc (V y Ty) Hy Cc Cy)|]. apply covers_own; [assumption|apply (V y Ty)].
Qed.
Lemma inner_kid c : valid m c -> 0 < lvl c -> inner (get_parent m c) -> tx c = true \/ inner c.
Proof.
  intros Vc L (Vp & x & Tx & Lx & Cx). pose proof (parent_facts m Hwf c Vc L) as (_ & Lp & _). cbn zeta in *. apply leaf_of; [assumption|]. intros y Ty Cy.
  destruct (Z_le_gt_dec (lvl c) (lvl y)) as [|G]; [assumption|]. exfalso. pose proof (parent_covers m Hwf c _ Vc L (covers_own m Hwf c Vc)) as Cp.
  pose proof (nest y (get_parent m c) _ (V y Ty) Vp ltac:(unfold lvl_of in *; lia) Cy Cp) as In. pose proof (inside_covers m _ _ _ In Cx) as Q.
  pose proof (leaf_unique m Hwf tx Ht y x _ Ty Tx Q (covers_own m Hwf x (V x Tx))). subst y. unfold lvl_of in *. lia.
Qed.
Lemma level_0 c : valid m c -> lvl c = 0 -> tx c = true \/ inner c.
Proof. intros Vc L. apply leaf_of; [assumption|]. intros y Ty _. pose proof (cell_level m Hwf y (V y Ty)). lia. Qed.

Lemma inside_trans a b c : inside m a b -> inside m b c -> inside m a c.
Proof. intros (Va & _ & A) (_ & Vc & B). split; [assumption|]. split; [assumption|]. intros k. specialize (A k). specialize (B k). lia. Qed.
Lemma sees_leaf b k : forall P, m_max m - lvl P <= Z.of_nat k -> valid m b -> valid m P -> disjoint m b P -> sees m t H b P -> tx P = true \/ inner P ->
  exists x, tx x = true /\ inside m x P /\ sees m t H b x.
Proof.
  induction k as [|k IH]; intros P Hk Vb VP Hd Hs [Q|Q]; try (exists P; split; [assumption|]; split; [apply inside_refl; assumption|assumption]).
  - destruct Q as (_ & x & Tx & L & _). pose proof (cell_level m Hwf x (V x Tx)). lia.
  - pose proof Q as (_ & x0 & Tx0 & L0 & _). pose proof (cell_level m Hwf x0 (V x0 Tx0)).
    destruct (sees_kid m Hwf t n Hn b P Vb VP ltac:(lia) Hd Hs) as (p & Vp & Lp & Pp & El & Sp).
    assert (inside m p P) as Ip by (rewrite <- Pp; apply inside_parent; assumption).
    destruct (IH p) as (x & Tx & Ix & Sx); [lia|assumption|assumption| |assumption| |].
    + intros i C1 C2. apply (Hd i C1). apply (inside_covers m p P); assumption.
    + apply inner_kid; [assumption|assumption|]. rewrite Pp. assumption.
    + exists x. split; [assumption|]. split; [apply inside_trans with p; assumption|assumption].
Qed.
(** no coarser leaf is linked to an inner cell *)
Lemma calm a b : inner a -> tx b = true -> lvl b < lvl a -> sees m t H a b \/ sees m t H b a -> False.
Proof.
  intros Ia Tb L Q. pose proof (V b Tb) as Vb. pose proof Ia as (Va & x0 & Tx0 & L0 & C0).
  assert (disjoint m a b) as Hd.
  { intros i Ca Cb. pose proof (nest b a i Vb Va ltac:(lia) Cb Ca) as In. pose proof (leaf_unique m Hwf tx Ht b x0 _ Tb Tx0 (inside_covers m _ _ _ In C0) (covers_own m Hwf x0 (V x0 Tx0))). subst x0. lia. }
  assert (sees m t H b a) as Sb.
  { destruct Q as [Q|Q]; [|assumption]. apply sees_flip; [assumption..|apply len_le_lvl; [assumption..|lia]|assumption]. }
  destruct (sees_leaf b (Z.to_nat (m_max m - lvl a)) a ltac:(lia) Vb Va (disjoint_sym m _ _ Hd) Sb (or_intror Ia)) as (x & Tx & Ix & Sx).
  specialize (Hb b x Tb Tx Sx). assert (lvl a < lvl x) as Lx; [|unfold lvl_of in *; lia].
  pose proof (inside_covers m _ _ _ Ix (covers_own m Hwf x (V x Tx))) as Cx. destruct (Z_lt_le_dec (lvl a) (lvl x)) as [|Le]; [assumption|]. exfalso.
  pose proof (nest x a _ (V x Tx) Va Le (covers_own m Hwf x (V x Tx)) Cx) as In. pose proof (leaf_unique m Hwf tx Ht x x0 _ Tx Tx0 (inside_covers m _ _ _ In C0) (covers_own m Hwf x0 (V x0 Tx0))). subst x0. lia.
Qed.
(** cutting one level deeper *)
Lemma trunc_next l c : 0 <= l -> trunc (l + 1) c <-> (trunc l c /\ ~ (lvl c = l /\ inner c)) \/ (valid m c /\ 0 < lvl c /\ lvl (get_parent m c) = l /\ inner (get_parent m c)).
Proof.
  intros Hl. split.
  - intros Q. pose proof (trunc_valid _ c Q) as Vc. pose proof (cell_level m Hwf c Vc) as L0.
    destruct (Z_le_gt_dec (lvl c) l) as [Le|G].
    + left. destruct Q as [[Tc _]|[E _]]; [|lia]. split; [left; auto|]. intros [_ Ic]. rewrite (inner_not_tx c Ic) in Tc. discriminate.
    + right. assert (lvl c = l + 1) as E by (destruct Q as [[_ ?]|[? _]]; lia). split; [assumption|]. split; [lia|]. pose proof (parent_facts m Hwf c Vc ltac:(lia)) as (_ & Lp & _). cbn zeta in *. split; [unfold lvl_of in *; lia|].
      apply inner_parent; [assumption|lia|]. destruct Q as [[? _]|[_ ?]]; auto.
  - intros [[[[Tc Le]|Q] N]|(Vc & Lc & Lp & Ip)].
    + left. split; [assumption|lia].
    + contradiction.
    + pose proof (parent_facts m Hwf c Vc Lc) as (_ & E & _). cbn zeta in *. destruct (inner_kid c Vc Lc Ip) as [Q|Q]; [left|right]; (split; [|try assumption]); try assumption; unfold lvl_of in *; lia.
Qed.

(** ** Ancestors *)
Lemma parents_in g p k : g_map g = m -> forall c, valid m c -> Z.of_nat k <= lvl c -> In p (parents_of g k c) <-> valid m p /\ lvl c - Z.of_nat k <= lvl p < lvl c /\ covers m p (idx_of m c).
Proof.
  intros Eg. induction k as [|k IH]; intros c Vc Hk; cbn [parents_of In]; rewrite ?Eg; [split; [intros []|lia]|].
  pose proof (parent_facts m Hwf c Vc ltac:(lia)) as (Vp & Lp & _). cbn zeta in *. pose proof (parent_covers m Hwf c _ Vc ltac:(lia) (covers_own m Hwf c Vc)) as Cp.
  rewrite (IH (get_parent m c) Vp ltac:(unfold lvl_of in *; lia)). split.
  - intros [<-|(V' & L & C)]; [split; [assumption|]; split; [unfold lvl_of in *; lia|assumption]|]. split; [assumption|]. split; [unfold lvl_of in *; lia|].
    apply (inside_covers m (get_parent m c) p); [|assumption]. apply (nest p _ (idx_of m (get_parent m c))); [assumption|assumption|lia|assumption|apply covers_own; assumption].
  - intros (V' & L & C). destruct (Z.eq_dec (lvl p) (lvl (get_parent m c))) as [E|N].
    + left. apply (overlap_same m Hwf _ _ (idx_of m c)); auto.
    + right. split; [assumption|]. split; [unfold lvl_of in *; lia|]. apply (inside_covers m (get_parent m c) p); [|apply covers_own; assumption]. apply (nest p _ (idx_of m c)); [assumption|assumption|unfold lvl_of in *; lia|assumption|assumption].
Qed.
Lemma l0_facts c : valid m c -> valid m (get_level_0_parent m c) /\ lvl (get_level_0_parent m c) = 0 /\ covers m (get_level_0_parent m c) (idx_of m c).
Proof.
  intros Vc. pose proof (c04_level_0_parent m c Hwf Vc) as (_ & _ & Q). cbn zeta in Q. destruct (proj2 (Q (get_level_0_parent m c)) eq_refl) as (A & B & C). split; [assumption|]. split; [assumption|]. apply C, covers_own; assumption.
Qed.
Lemma l0_same p c : valid m p -> valid m c -> covers m p (idx_of m c) -> lvl p <= lvl c -> get_level_0_parent m p = get_level_0_parent m c.
Proof.
  intros Vp Vc C L. destruct (l0_facts p Vp) as (V1 & L1 & C1). destruct (l0_facts c Vc) as (V2 & L2 & C2). apply (overlap_same m Hwf _ _ (idx_of m c)); [assumption|assumption| |assumption|congruence].
  apply (inside_covers m p); [|assumption]. apply (nest _ p (idx_of m p)); [assumption|assumption| |assumption|apply covers_own; assumption]. pose proof (cell_level m Hwf p Vp). lia.
Qed.
Lemma l0_self c : valid m c -> lvl c = 0 -> get_level_0_parent m c = c.
Proof. intros Vc L. destruct (l0_facts c Vc) as (V1 & L1 & C1). apply (overlap_same m Hwf _ _ (idx_of m c)); [assumption|assumption|assumption|apply covers_own; assumption|congruence]. Qed.
End Target.

Section Loading.
Context {D : Type} (d0 : D) (g : grid) (Hg : grid_ok g).
Notation m := (g_map g).
Notation t := (g_topo g).
Notation np := (g_np g).
Notation lvl := (lvl_of m).
Notation rank r := (In r (ranks g)).
Notation l0 := (get_level_0_parent m).
Context (tx : Z -> bool) (Ht : tiling m tx) (Hb : balanced m t (g_hood g) tx).
Notation inner := (inner m tx).
Notation trunc := (trunc m tx).
Notation Hwf := (proj1 Hg).
Notation V := (leaf_valid m tx Ht).
Context (ow0 : Z -> option Z) (H0 : forall c, exo ow0 c = true <-> valid m c /\ lvl c = 0) (R0 : forall c q, ow0 c = Some q -> rank q).
Context (over : Z -> list Z) (Hover : forall r x, rank r -> In x (over r) <-> tx x = true /\ ow0 (l0 x) = Some r).

Definition at_level (l : Z) (own : Z -> option Z) (st : Z -> proc D) : Prop :=
  inv g own st /\ (forall c, exo own c = true <-> trunc l c) /\ (forall c q, own c = Some q -> ow0 (l0 c) = Some q) /\
  forall r, rank r -> p_req (st r) = no_requests.

Lemma Hn : 0 <= g_len g. Proof. destruct Hg as (_ & ? & _). lia. Qed.

Lemma at_in r l p : rank r -> 0 <= l -> In p (to_refine_at g (over r) l) <-> lvl p = l /\ exists x, tx x = true /\ ow0 (l0 x) = Some r /\ valid m p /\ lvl p < lvl x /\ covers m p (idx_of m x).
Proof.
  intros Ir Hl. unfold to_refine_at. rewrite addall_In, filter_In, in_flat_map. cbn [In]. split.
  - intros [[(x & Hx & Hp) E]|[]]. apply Z.eqb_eq in E. split; [assumption|]. apply (Hover r x Ir) in Hx. destruct Hx as [Tx Ox]. exists x. pose proof (V x Tx) as Vx. pose proof (cell_level m Hwf x Vx) as Lx.
    apply (parents_in m Hwf g p _ eq_refl x Vx) in Hp; [|unfold lvl_of in *; lia]. destruct Hp as (Vp & Lp & Cp). split; [assumption|]. split; [assumption|]. split; [assumption|]. split; [lia|assumption].
  - intros (E & x & Tx & Ox & Vp & L & C). left. split; [|apply Z.eqb_eq; assumption]. exists x. split; [apply Hover; auto|]. pose proof (V x Tx) as Vx. pose proof (cell_level m Hwf x Vx) as Lx. pose proof (cell_level m Hwf p Vp) as Lp.
    apply (parents_in m Hwf g p _ eq_refl x Vx); [unfold lvl_of in *; lia|]. split; [assumption|]. split; [unfold lvl_of in *; lia|assumption].
Qed.

Lemma one_level l own st : 0 <= l -> at_level l own st -> exists st1 res own', each g (fun r => refine_all g (st r) (to_refine_at g (over r) l)) st = Done st1 /\
  stop_refining d0 g st1 = Done res /\ at_level (l + 1) own' (fun r => clear_refined_unrefined_data (fst (res r))).
Proof.
  intros Hl (Hi & Hex & Ho & Hq).
  destruct (collect_ok (ranks g) (fun r => refine_all g (st r) (to_refine_at g (over r) l)) st (fun r p => exists q, p = with_reqs (st r) q /\ reqs_ok g own r q /\
    (forall x, ~ In x (r_noref q)) /\ (forall x, ~ In x (r_unref q)) /\ forall x, In x (r_ref q) <-> In x (to_refine_at g (over r) l) /\ own x = Some r)) as (st1 & E1 & H1).
  { intros r Ir. destruct (refine_all_ok g Hg own st r (to_refine_at g (over r) l) (proj1 Hi) Ir) as (q & E & Q & A1 & A2 & A3 & A4). rewrite (Hq r Ir) in A1, A2, A3, A4. cbn [no_requests r_ref r_noref r_unref In] in *.
    eexists. split; [exact E|]. exists q. split; [reflexivity|]. split; [assumption|]. split; [intros x; rewrite A1; tauto|]. split; [exact A2|]. intros x. split.
    - intros Hx. split; [destruct (A3 x Hx); [contradiction|assumption]|]. apply (proj1 Q x Hx).
    - intros [Hx Ox]. apply A4. right. split; [assumption|]. split; [assumption|]. split; [|tauto]. apply (at_in r l x Ir Hl) in Hx. destruct Hx as (_ & y & Ty & _ & _ & L & _). pose proof (cell_level m Hwf y (V y Ty)). lia. }
  unfold each. rewrite E1. assert (inv g own st1) as Hi1.
  { apply (inv_many g own st (fun r => p_req (st1 r)) st1 Hi). intros r Ir. destruct (H1 r Ir) as (_ & q & E & Q & _). rewrite E. cbn [with_reqs p_req]. auto. }
  destruct (stop_refining_ok d0 g Hg own st1 (proj1 Hi1)) as (own2 & res & E2 & C). exists st1, res, own2. split; [reflexivity|]. split; [assumption|].
  assert (forall c, asked g st1 r_ref c <-> lvl c = l /\ inner c) as Ask.
  { intros c. split.
    - intros (r & Ir & Hc). destruct (H1 r Ir) as (_ & q & E & _ & _ & _ & Q). rewrite E in Hc. cbn [with_reqs p_req] in Hc. apply Q in Hc. destruct Hc as [Hc _]. apply (at_in r l c Ir Hl) in Hc. destruct Hc as (L & x & Tx & _ & Vc & Lx & Cx). split; [assumption|]. split; [assumption|]. eauto.
    - intros [L Ic]. pose proof Ic as (Vc & x & Tx & Lx & Cx). pose proof (V x Tx) as Vx. assert (exo own c = true) as Ec by (apply Hex; right; auto).
      unfold exo in Ec. destruct (own c) as [r|] eqn:O; [|discriminate]. pose proof (Ho c r O) as O0. exists r. assert (rank r) as Ir by (apply (R0 _ _ O0)). split; [assumption|].
      destruct (H1 r Ir) as (_ & q & E & _ & _ & _ & Q). rewrite E. cbn [with_reqs p_req]. apply Q. split; [|assumption]. apply (at_in r l c Ir Hl). split; [assumption|]. exists x. split; [assumption|]. split; [rewrite <- (l0_same m Hwf c x Vc Vx Cx ltac:(lia)); assumption|]. auto. }
  assert (forall c, ~ all_protected g own st1 c) as NP.
  { intros c Q. unfold all_protected in Q. induction Q as [c (r & Ir & Hc)|]; [|assumption]. destruct (H1 r Ir) as (_ & q & E & _ & N & _). rewrite E in Hc. apply (N c Hc). }
  assert (forall c, all_refined g own st1 c <-> lvl c = l /\ inner c) as Ref.
  { intros c. split.
    - intros Q. unfold all_refined in Q. induction Q as [c [Q _]|a b _ IH (Eb & Ea & Lk & L)]; [apply Ask; assumption|]. exfalso. destruct IH as [La Ia]. apply Hex in Eb. destruct Eb as [[Tb Lb]|[Lb _]]; [|unfold lvl_of in *; lia].
      apply (calm m Hwf t (g_len g) Hn tx Ht Hb a b Ia Tb L). destruct Lk; auto.
    - intros Q. apply forced_given. split; [apply Ask; assumption|apply NP]. }
  assert (forall p, ~ merged g own st1 p) as NM.
  { intros p (c & ((r & Ir & Hc) & _) & _). destruct (H1 r Ir) as (_ & q & E & _ & _ & N & _). rewrite E in Hc. apply (N c Hc). }
  split; [apply (inv_clear_all g own2 (fun r => fst (res r))); apply (inv_commit d0 g Hg own st1 own2 res Hi1 C)|].
  assert (forall c, exo own2 c = true <-> trunc (l + 1) c) as Ex2.
  { intros c. rewrite (cm_ex _ _ _ _ _ _ C c), (trunc_next m Hwf tx Ht l c Hl). unfold after. rewrite Hex, Ref, Ref. split.
    - intros [(A & B & _)|[(A & B & E & F)|Q]]; [left; auto|right; auto|exfalso; apply (NM c Q)].
    - intros [(A & B)|(A & B & E & F)]; [left|right; left; auto]. split; [assumption|]. split; [assumption|]. intros [_ Q]. apply (NM _ Q). }
  split; [assumption|]. split.
  - intros c q O. assert (exo own2 c = true) as Ec by (unfold exo; rewrite O; reflexivity). pose proof Ec as Ec'. apply (cm_ex _ _ _ _ _ _ C) in Ec. destruct Ec as [(E & _)|[K|Q]]; [| |exfalso; apply (NM c Q)].
    + apply Ho. rewrite <- (cm_keep _ _ _ _ _ _ C c E Ec'). assumption.
    + pose proof (cm_kid _ _ _ _ _ _ C c K) as Q. destruct K as (Vc & Lc & _). pose proof (parent_facts m Hwf c Vc Lc) as (Vp & Lp & _). cbn zeta in *. rewrite Q in O. apply Ho in O.
      rewrite <- (l0_same m Hwf (get_parent m c) c Vp Vc); [assumption|apply (parent_covers m Hwf); [assumption|assumption|apply covers_own; [apply Hwf|assumption]]|unfold lvl_of in *; lia].
  - intros r Ir. cbn [clear_refined_unrefined_data p_req]. destruct (cm_req _ _ _ _ _ _ C r Ir) as (nr & -> & Q). destruct nr as [|x nr]; [reflexivity|]. exfalso. apply (NP x). apply Q. left. reflexivity.
Qed.

Lemma levels k : forall l own st, 0 <= l -> at_level l own st -> exists own' st', load_levels d0 g k st over l = Done st' /\ at_level (l + Z.of_nat k) own' st'.
Proof.
  induction k as [|k IH]; intros l own st Hl A; cbn [load_levels]; [exists own, st; split; [reflexivity|]; rewrite Z.add_0_r; assumption|].
  destruct (one_level l own st Hl A) as (st1 & res & own' & -> & E2 & A'). cbn [bind]. rewrite E2. cbn [bind]. replace (l + Z.of_nat (S k)) with (l + 1 + Z.of_nat k) by lia. apply (IH (l + 1) own'); [lia|assumption].
Qed.
End Loading.

Lemma fold_max l : forall a, a <= fold_left Z.max l a /\ forall x, In x l -> x <= fold_left Z.max l a.
Proof.
  induction l as [|y l IH]; intros a; cbn [fold_left In]; [split; [lia|intros x []]|]. destruct (IH (Z.max a y)) as [A B]. split; [lia|]. intros x [->|Hx]; [lia|auto].
Qed.

(** given is the list of cells each process is given: all of the target cells that are
    inside of its level 0 cells, and possibly others, in any order *)
Theorem c28_load_cells_recreates_the_cells {D} (d0 : D) g st tx given st' : grid_ok g -> reachable d0 g st ->
  (forall c, exists_on st 0 c = true -> lvl_of (g_map g) c = 0) -> (forall r, In r (ranks g) -> p_req (st r) = no_requests) ->
  tiling (g_map g) tx -> balanced (g_map g) (g_topo g) (g_hood g) tx ->
  (forall r x, In r (ranks g) -> In x (given r) -> tx x = true) ->
  (forall r x, In r (ranks g) -> tx x = true -> owner st r (get_level_0_parent (g_map g) x) = Some r -> In x (given r)) ->
  load_cells d0 g st given = Done st' ->
  forall r c, In r (ranks g) -> owner st' r c = if tx c then owner st 0 (get_level_0_parent (g_map g) c) else None.
Proof.
  intros Hg R L0 Q0 Ht Hb G1 G2 E r c Ir. destruct (reachable_inv d0 g Hg st R) as (own & Hi). pose proof (Balance.rank0 g Hg) as I0. set (m := g_map g) in *.
  assert (forall x, exists_on st 0 x = exo own x) as Vx by (intros x; apply (viewx g own st 0 x Hi I0)).
  pose proof (RefineExec.tile g own st (proj1 Hi)) as T.
  assert (forall x, exo own x = true <-> valid m x /\ lvl_of m x = 0) as H0.
  { intros x. split; [intros Ex; split; [apply (RefineSpread.own_valid g own st (proj1 Hi) x Ex)|apply L0; rewrite Vx; assumption]|]. intros [V L].
    destruct (leaf_at m _ T (idx_of m x) (cell_in_grid m (proj1 Hg) x V)) as (y & Ey & Cy). pose proof (leaf_valid m _ T y Ey) as Vy.
    rewrite (overlap_same m (proj1 Hg) x y (idx_of m x) V Vy); [assumption|apply covers_own; [apply Hg|assumption]|assumption|]. rewrite L. symmetry. apply L0. rewrite Vx. assumption. }
  assert (forall x q, own x = Some q -> In q (ranks g)) as R0 by (apply (proj1 (proj1 Hi))).
  unfold load_cells in E. set (over := fun r => filter (cell_overlaps_local g r (p_store (st r))) (given r)) in E.
  assert (forall q x, In q (ranks g) -> In x (over q) <-> tx x = true /\ own (get_level_0_parent m x) = Some q) as Hover.
  { intros q x Iq. unfold over. rewrite filter_In. unfold cell_overlaps_local. fold m. change (find (get_level_0_parent m x) (s_proc (p_store (st q)))) with (owner st q (get_level_0_parent m x)). rewrite (view g own st q _ Hi Iq). split.
    - intros [A B]. split; [apply (G1 q x Iq A)|]. destruct (own (get_level_0_parent m x)) as [o|]; [|discriminate]. apply Z.eqb_eq in B. congruence.
    - intros [A B]. rewrite B, Z.eqb_refl. split; [|reflexivity]. apply (G2 q x Iq A). fold m. rewrite (view g own st q _ Hi Iq). assumption. }
  assert (at_level g tx own 0 own st) as A0.
  { split; [assumption|]. split; [|split; [|assumption]].
    - intros x. rewrite H0. split.
      + intros [V L]. destruct (level_0 m (proj1 Hg) tx Ht x V L) as [Q|Q]; [left; split; [assumption|unfold m in *; lia]|right; auto].
      + intros Q. pose proof (trunc_valid m tx Ht 0 x Q) as V. split; [assumption|]. pose proof (cell_level m (proj1 Hg) x V). destruct Q as [[_ ?]|[? _]]; unfold m in *; lia.
    - intros x q O. assert (exo own x = true) as Ex by (unfold exo; rewrite O; reflexivity). apply H0 in Ex. destruct Ex as [V L]. fold m. rewrite (l0_self m (proj1 Hg) x V L). assumption. }
  set (most := fold_left Z.max (map (get_refinement_level (g_map g)) (gather g over)) 0) in E. destruct (fold_max (map (get_refinement_level (g_map g)) (gather g over)) 0) as [M0 M1]. fold most in M0, M1.
  destruct (levels d0 g Hg tx Ht Hb own R0 over Hover (Z.to_nat most) 0 own st ltac:(lia) A0) as (own' & st2 & E2 & (Hi' & Hex & Ho & _)). assert (st2 = st') as -> by congruence.
  rewrite (view g own' st' r c Hi' Ir). rewrite Z2Nat.id in Hex by lia.
  assert (forall x, tx x = true -> lvl_of m x <= most) as Lm.
  { intros x Tx. pose proof (leaf_valid m tx Ht x Tx) as V. destruct (l0_facts m (proj1 Hg) x V) as (V1 & L1 & _). assert (exo own (get_level_0_parent m x) = true) as Q by (apply H0; auto).
    unfold exo in Q. destruct (own (get_level_0_parent m x)) as [q|] eqn:O; [|discriminate]. apply M1. apply in_map_iff. exists x. split; [reflexivity|]. apply gather_In. exists q. split; [apply (R0 _ _ O)|]. apply (Hover q x (R0 _ _ O)). auto. }
  destruct (tx c) eqn:Tc.
  - assert (exo own' c = true) as Q by (apply Hex; left; split; [assumption|apply Lm; assumption]). unfold exo in Q. destruct (own' c) as [q|] eqn:O; [|discriminate]. fold m. rewrite (view g own st 0 _ Hi I0). symmetry. apply Ho. assumption.
  - destruct (own' c) as [q|] eqn:O; [|reflexivity]. exfalso. assert (exo own' c = true) as Q by (unfold exo; rewrite O; reflexivity). apply Hex in Q. destruct Q as [[Q _]|[L (_ & x & Tx & Lx & _)]]; [congruence|]. specialize (Lm x Tx). unfold m, lvl_of in *. lia.
Qed.
