(** What a commit does: stop_refining succeeds on all processes and leaves a consistent grid. *)
From Coq Require Import Sorted.
From Verif Require Import U64 MapModel MapSpec MapProofs MapFamily MapProps HoodModel MeshModel
  MeshSpec MeshBase HoodProps MeshWalk MeshFind MeshKids MeshItem MeshCheck MeshTo MeshNear
  Sets RefineModel RefineGeo RefineInv RefineSpread RefineNear RefineMerge RefineFold.
Open Scope Z_scope.

Section Exec.
Context {D : Type} (d0 : D) (g : grid) (Hg : grid_ok g).
Notation m := (g_map g).
Notation t := (g_topo g).
Notation n := (g_len g).
Notation H := (g_hood g).
Notation par := (get_parent m).
Notation kids := (get_all_children m).
Notation first p := (nth 0 (kids p) error_cell).

(** ** The lists of cells to refine have no duplicates *)
Lemma induce_loop_NoDup fuel : forall (st : Z -> proc D) toref new res, induce_loop g fuel st toref new = Done res ->
  (forall r, NoDup (toref r)) -> forall r, NoDup (res r).
Proof.
  induction fuel as [|fuel IH]; intros st toref new res E N; cbn [induce_loop] in E; destruct (gather g new); try (injection E as <-; assumption); [discriminate|].
  apply bind_done in E. destruct E as (new' & _ & E). apply (IH _ _ _ _ E). intros r. apply addall_NoDup, N.
Qed.
Lemma induce_refines_NoDup (st : Z -> proc D) x l : induce_refines g st x = Done l -> (forall r, NoDup (x r)) -> forall r, NoDup (l r).
Proof.
  intros E N r. unfold induce_refines in E. apply bind_done in E. destruct E as (l0 & E0 & E). injection E as <-.
  apply addall_NoDup. apply (induce_loop_NoDup _ _ _ _ _ E0 N).
Qed.
Lemma override_refines_NoDup (st : Z -> proc D) x : override_refines g st = Done x -> forall r, NoDup (snd (x r)).
Proof.
  intros E r. unfold override_refines in E. apply bind_done in E. destruct E as (old & _ & E). injection E as <-. cbn [snd]. apply addall_NoDup. constructor.
Qed.

Context (own : Z -> option Z) (st : Z -> proc D) (Hgood : good g own st).
Notation R := (all_refined g own st).
Notation U := (unrefined g own st).

(** parents of merged families, members of merged families, children of refined cells *)
Definition merged (p : Z) : Prop := exists c, U c /\ par c = p.
Definition removed (c : Z) : Prop := valid m c /\ 0 < lvl_of m c /\ merged (par c).
Definition created (c : Z) : Prop := valid m c /\ 0 < lvl_of m c /\ R (par c).

Lemma wfm : wf m. Proof. apply Hg. Qed.
Lemma tile : tiling m (exo own). Proof. apply Hgood. Qed.
Lemma bal : balanced m t (default_hood_of n) (exo own). Proof. apply Hgood. Qed.
Lemma vld c : exo own c = true -> valid m c. Proof. apply (own_valid g own st Hgood). Qed.

Lemma R_ok c : R c -> exo own c = true /\ lvl_of m c < m_max m.
Proof. intros Q. destruct (refined_ok g own st Hgood c Q) as (A & B & _). auto. Qed.

Lemma merged_ok p : merged p -> valid m p /\ lvl_of m p < m_max m /\ forall c, valid m c -> 0 < lvl_of m c -> par c = p -> exo own c = true /\ ~ R c.
Proof.
  intros (c & (A & Uc & _) & <-). destruct (asked_unref g own st Hgood c A) as (Ec & Lc & Sc).
  pose proof (vld c Ec) as Vc. pose proof (parent_facts m wfm c Vc Lc) as (Vp & Lp & _). cbn zeta in *. pose proof (cell_level m wfm c Vc).
  split; [assumption|]. split; [lia|]. intros k Vk Lk Ek. assert (siblings g c k) as S by (split; [assumption|]; split; [assumption|]; split; [assumption|]; split; [assumption|congruence]).
  split; [apply Sc; assumption|apply Uc; assumption].
Qed.
Lemma merged_kid p : merged p -> exists c, exo own c = true /\ 0 < lvl_of m c /\ par c = p.
Proof. intros (c & (A & _) & E). destruct (asked_unref g own st Hgood c A) as (Ec & Lc & _). eauto. Qed.

Lemma par_not_ex c : exo own c = true -> 0 < lvl_of m c -> exo own (par c) = false.
Proof.
  intros Ec Lc. pose proof (vld c Ec) as Vc. destruct (exo own (par c)) eqn:E; [|reflexivity]. exfalso.
  pose proof (parent_facts m wfm c Vc Lc) as (Vp & Lp & _). cbn zeta in *.
  pose proof (covers_own m wfm c Vc) as C. pose proof (parent_covers m wfm c _ Vc Lc C) as Cp.
  pose proof (leaf_unique m wfm _ tile c (par c) _ Ec E C Cp) as Q. rewrite <- Q in Lp. lia.
Qed.
Lemma created_not_ex c : created c -> exo own c = false.
Proof.
  intros (Vc & Lc & Rp). destruct (exo own c) eqn:E; [|reflexivity]. pose proof (par_not_ex c E Lc) as Q. destruct (R_ok _ Rp). congruence.
Qed.
Lemma merged_not_ex p : merged p -> exo own p = false.
Proof. intros M. destruct (merged_kid p M) as (c & Ec & Lc & <-). apply par_not_ex; assumption. Qed.
Lemma removed_ex c : removed c -> exo own c = true /\ ~ R c.
Proof. intros (Vc & Lc & M). apply (merged_ok _ M); auto. Qed.
Lemma created_not_merged c : created c -> ~ merged c.
Proof.
  intros (Vc & Lc & Rp) M. destruct (merged_kid c M) as (k & Ek & Lk & Ep). destruct (R_ok _ Rp) as [Epp _].
  pose proof (vld k Ek) as Vk. pose proof (covers_own m wfm k Vk) as C. pose proof (parent_covers m wfm k _ Vk Lk C) as C1. rewrite Ep in C1.
  pose proof (parent_covers m wfm c _ Vc Lc C1) as C2. pose proof (leaf_unique m wfm _ tile k (par c) _ Ek Epp C C2) as Q.
  pose proof (parent_facts m wfm k Vk Lk) as (_ & L1 & _). pose proof (parent_facts m wfm c Vc Lc) as (_ & L2 & _). cbn zeta in *. rewrite Ep in L1. rewrite <- Q in L2. lia.
Qed.

(** ** The lists used by the processes *)
Context (tr tu noref : Z -> list Z).
Context (Htr : forall r c, In r (ranks g) -> In c (tr r) <-> R c) (Ntr : forall r, NoDup (tr r)).
Context (Htu : forall r c, In r (ranks g) -> In c (tu r) <-> U c).

Definition Rb (c : Z) : bool := mem c (tr 0).
Definition Mb (p : Z) : bool := mem p (map par (tu 0)).
Definition Rk (c : Z) : bool := kidb g (tr 0) c.
Definition Mk (c : Z) : bool := kidb g (map par (tu 0)) c.

Lemma rank0 : In 0 (ranks g).
Proof. apply in_ranks. destruct Hg as (_ & _ & _ & ?). lia. Qed.
Lemma bool_eq (a b : bool) : (a = true <-> b = true) -> a = b.
Proof. destruct a, b; intros [A B]; try reflexivity; [symmetry; apply A; reflexivity|apply B; reflexivity]. Qed.
Lemma Rb_r r c : In r (ranks g) -> mem c (tr r) = true <-> R c.
Proof. intros Ir. rewrite mem_In. apply Htr. assumption. Qed.
Lemma Mb_r r p : In r (ranks g) -> mem p (map par (tu r)) = true <-> merged p.
Proof.
  intros Ir. rewrite mem_In, in_map_iff. split.
  - intros (c & E & Hc). apply Htu in Hc; [|assumption]. exists c. auto.
  - intros (c & Uc & E). exists c. split; [assumption|]. apply Htu; assumption.
Qed.
Lemma tr_valid r p : In r (ranks g) -> In p (tr r) -> valid m p /\ lvl_of m p < m_max m.
Proof. intros Ir Hp. apply Htr in Hp; [|assumption]. destruct (R_ok p Hp). split; [apply vld; assumption|assumption]. Qed.
Lemma tu_valid r p : In r (ranks g) -> In p (map par (tu r)) -> valid m p /\ lvl_of m p < m_max m.
Proof. intros Ir Hp. apply mem_In in Hp. apply Mb_r in Hp; [|assumption]. destruct (merged_ok p Hp) as (A & B & _). auto. Qed.
Lemma Rk_r r c : In r (ranks g) -> kidb g (tr r) c = true <-> created c.
Proof. intros Ir. rewrite (kidb_In g wfm (tr r) c (fun p => tr_valid r p Ir)). rewrite Htr by assumption. reflexivity. Qed.
Lemma Mk_r r c : In r (ranks g) -> kidb g (map par (tu r)) c = true <-> removed c.
Proof. intros Ir. rewrite (kidb_In g wfm _ c (fun p => tu_valid r p Ir)). rewrite <- mem_In, Mb_r by assumption. reflexivity. Qed.
Lemma Rb_iff c : Rb c = true <-> R c. Proof. apply Rb_r, rank0. Qed.
Lemma Mb_iff c : Mb c = true <-> merged c. Proof. apply Mb_r, rank0. Qed.
Lemma Rk_iff c : Rk c = true <-> created c. Proof. apply Rk_r, rank0. Qed.
Lemma Mk_iff c : Mk c = true <-> removed c. Proof. apply Mk_r, rank0. Qed.
Lemma Rb_eq r c : In r (ranks g) -> mem c (tr r) = Rb c.
Proof. intros Ir. apply bool_eq. rewrite Rb_r, Rb_iff by assumption. reflexivity. Qed.
Lemma Mb_eq r c : In r (ranks g) -> mem c (map par (tu r)) = Mb c.
Proof. intros Ir. apply bool_eq. rewrite Mb_r, Mb_iff by assumption. reflexivity. Qed.
Lemma Rk_eq r c : In r (ranks g) -> kidb g (tr r) c = Rk c.
Proof. intros Ir. apply bool_eq. rewrite Rk_r, Rk_iff by assumption. reflexivity. Qed.
Lemma Mk_eq r c : In r (ranks g) -> kidb g (map par (tu r)) c = Mk c.
Proof. intros Ir. apply bool_eq. rewrite Mk_r, Mk_iff by assumption. reflexivity. Qed.
Lemma not_true (b : bool) : ~ b = true -> b = false. Proof. destruct b; [intros Q; destruct Q; reflexivity|reflexivity]. Qed.

(** the four kinds of changed cells are different *)
Lemma Rb_only c : Rb c = true -> exo own c = true /\ Rk c = false /\ Mk c = false /\ Mb c = false.
Proof.
  intros Q. apply Rb_iff in Q. destruct (R_ok c Q) as [E _]. split; [assumption|]. repeat split; apply not_true; rewrite ?Rk_iff, ?Mk_iff, ?Mb_iff; intros Q'.
  - pose proof (created_not_ex c Q'). congruence.
  - destruct (removed_ex c Q'). contradiction.
  - pose proof (merged_not_ex c Q'). congruence.
Qed.
Lemma Rk_only c : Rk c = true -> exo own c = false /\ Rb c = false /\ Mk c = false /\ Mb c = false.
Proof.
  intros Q. apply Rk_iff in Q. pose proof (created_not_ex c Q) as E. split; [assumption|]. repeat split; apply not_true; rewrite ?Rb_iff, ?Mk_iff, ?Mb_iff; intros Q'.
  - destruct (R_ok c Q'). congruence.
  - destruct (removed_ex c Q'). congruence.
  - apply (created_not_merged c Q Q').
Qed.
Lemma Mk_only c : Mk c = true -> exo own c = true /\ Rb c = false /\ Rk c = false /\ Mb c = false.
Proof.
  intros Q. apply Mk_iff in Q. destruct (removed_ex c Q) as [E NR]. split; [assumption|]. repeat split; apply not_true; rewrite ?Rb_iff, ?Rk_iff, ?Mb_iff; intros Q'.
  - contradiction.
  - pose proof (created_not_ex c Q'). congruence.
  - pose proof (merged_not_ex c Q'). congruence.
Qed.
Lemma Mb_only c : Mb c = true -> exo own c = false /\ Rb c = false /\ Rk c = false /\ Mk c = false.
Proof.
  intros Q. apply Mb_iff in Q. pose proof (merged_not_ex c Q) as E. split; [assumption|]. repeat split; apply not_true; rewrite ?Rb_iff, ?Mk_iff, ?Rk_iff; intros Q'.
  - destruct (R_ok c Q'). congruence.
  - apply (created_not_merged c Q' Q).
  - destruct (removed_ex c Q'). congruence.
Qed.
Lemma Mb_first c : Mb c = true -> Mk (first c) = true /\ exo own (first c) = true /\ par (first c) = c.
Proof.
  intros Q. apply Mb_iff in Q. destruct (merged_ok c Q) as (V & L & K). pose proof (kids_first g wfm c V L) as F. apply (kids_in g wfm c _ V L) in F. destruct F as (Vf & Lf & Ef).
  assert (removed (first c)) as Rf by (split; [assumption|]; split; [assumption|]; rewrite Ef; assumption).
  split; [apply Mk_iff; assumption|]. split; [apply removed_ex; assumption|assumption].
Qed.
Lemma Mk_par c : Mk c = true -> Mb (par c) = true.
Proof. intros Q. apply Mk_iff in Q. destruct Q as (_ & _ & M). apply Mb_iff. assumption. Qed.
Lemma Rk_par c : Rk c = true -> Rb (par c) = true.
Proof. intros Q. apply Rk_iff in Q. destruct Q as (_ & _ & M). apply Rb_iff. assumption. Qed.

(** ** Owners afterwards *)
Definition own' (c : Z) : option Z :=
  if Rb c then None else if Mk c then None else if Rk c then own (par c) else if Mb c then own (first c) else own c.

Lemma exo_own' c : exo own' c = true <-> after m (exo own) R merged c.
Proof.
  unfold after, exo at 1, own'. destruct (Rb c) eqn:E1; [|destruct (Mk c) eqn:E2; [|destruct (Rk c) eqn:E3; [|destruct (Mb c) eqn:E4]]].
  - destruct (Rb_only c E1) as (Ex & A & B & C). apply Rb_iff in E1. split; [discriminate|]. intros [(_ & Q & _)|[Q|Q]]; [contradiction|apply Rk_iff in Q; congruence|apply Mb_iff in Q; congruence].
  - destruct (Mk_only c E2) as (Ex & A & B & C). apply Mk_iff in E2. split; [discriminate|]. intros [(_ & _ & Q)|[Q|Q]]; [destruct E2 as (_ & ? & ?); tauto|apply Rk_iff in Q; congruence|apply Mb_iff in Q; congruence].
  - pose proof (proj1 (Rk_iff c) E3) as Q. split; [intros _; right; left; exact Q|]. intros _. destruct Q as (_ & _ & Rp). destruct (R_ok _ Rp) as [Ex _].
    unfold exo in Ex. exact Ex.
  - pose proof (proj1 (Mb_iff c) E4) as Q. split; [auto|]. intros _. destruct (Mb_first c E4) as (_ & Ex & _). exact Ex.
  - split.
    + intros Ex. left. split; [exact Ex|]. split; [rewrite <- Rb_iff; congruence|]. intros [L M]. assert (removed c) as Q by (split; [apply vld; exact Ex|auto]). apply Mk_iff in Q. congruence.
    + intros [(Q & _)|[Q|Q]]; [exact Q|apply Rk_iff in Q; congruence|apply Mb_iff in Q; congruence].
Qed.

Lemma own'_in c q : own' c = Some q -> In q (ranks g).
Proof.
  destruct Hgood as [[_ Ho] _]. unfold own'. destruct (Rb c); [discriminate|]. destruct (Mk c); [discriminate|]. destruct (Rk c); [apply Ho|]. destruct (Mb c); apply Ho.
Qed.

Lemma world' : world_ok g own'.
Proof.
  split; [|apply own'_in]. destruct Hgood as [[(W & N & T & B) _] _].
  assert (forall c, R c \/ ~ R c) as Rdec by (intros c; rewrite <- Rb_iff; destruct (Rb c); auto).
  assert (forall c, merged c \/ ~ merged c) as Mdec by (intros c; rewrite <- Mb_iff; destruct (Mb c); auto).
  split; [assumption|]. split; [assumption|].
  pose proof (tiling_after m W (exo own) T R merged R_ok merged_ok Rdec Mdec (exo own') exo_own') as TA.
  split; [assumption|].
  apply (balanced_after m W t n N (exo own) T B R merged R_ok merged_ok Rdec Mdec (exo own') exo_own').
  - intros r b Rr Eb L S. apply (refined_closed g own st Hgood r b Rr Eb L). exact S.
  - intros p b (c & (A0 & _ & Uc) & <-) Eb S. destruct (Uc b Eb S) as [A1 A2].

    destruct (asked_unref g own st Hgood c A0) as (Ec & Lc & _). pose proof (parent_facts m wfm c (vld c Ec) Lc) as (_ & Lp & _). cbn zeta in Lp.
    split; [lia|]. intros E. apply A2. lia.
Qed.

(** ** One process before the transfers *)
Notation data r := (s_data (p_store (st r))).
Definition data2 (r k : Z) : option D :=
  if Rb k && ownr r own k then None else if Rk k && ownr r own (par k) then Some d0 else find k (data r).
Definition stays (r k : Z) : bool := Mk k && (ownr r own k && ownr r own' (par k)).
(** pins and weights: children inherit, removed cells lose them *)
Definition passed (loc : Z -> bool) (f f' : list (Z * Z)) : Prop :=
  forall k, find k f' = if Mk k then None else if Rb k && loc k then None else
    if Rk k && loc (par k) then match find (par k) f with Some v => Some v | None => find k f end else find k f.

Definition local_spec (r : Z) (x : store D * list Z * list Z * list Z * list (Z * Z) * list (Z * Z)) : Prop :=
  let '(s, new, all, ps, send, recv) := x in
  (forall k, find k (s_proc s) = if Rb k then own k else own' k) /\ NoDup (keys (s_proc s)) /\
  (forall k, find k (s_data s) = if stays r k then None else data2 r k) /\ NoDup (keys (s_data s)) /\
  (forall k, find k (s_refd s) = if Rb k && ownr r own k then find k (data r) else None) /\
  (forall k, find k (s_unrefd s) = if stays r k then find k (data r) else None) /\
  passed (fun _ => true) (s_pin (p_store (st r))) (s_pin s) /\ passed (fun _ => true) (s_newpin (p_store (st r))) (s_newpin s) /\
  passed (ownr r own) (s_wt (p_store (st r))) (s_wt s) /\
  (forall k, In k new <-> created k /\ own (par k) = Some r) /\
  (forall k, mem k all = Mk k) /\ (forall k, mem k ps = Mb k) /\
  (forall q k, In (q, k) send <-> Mk k = true /\ own k = Some r /\ own' (par k) = Some q /\ q <> r) /\ NoDup (map snd send) /\
  (forall q k, In (q, k) recv <-> Mk k = true /\ own k = Some q /\ own' (par k) = Some r /\ q <> r) /\ NoDup (map snd recv).

Lemma store_of r : In r (ranks g) -> store_ok own r (p_store (st r)).
Proof. intros Ir. destruct Hgood as [_ Hr]. apply (Hr r Ir). Qed.
Lemma Mk_data r k : In r (ranks g) -> Mk k = true -> data2 r k = find k (data r).
Proof. intros Ir Mx. destruct (Mk_only k Mx) as (_ & A & B & _). unfold data2. rewrite A, B. reflexivity. Qed.

Lemma execute_local_ok r : In r (ranks g) -> exists x, execute_local d0 g r (tr r) (tu r) (p_store (st r)) = Done x /\ local_spec r x.
Proof.
  intros Ir. destruct (store_of r Ir) as (Pf & Np & Nd & Hd). unfold execute_local. set (s := p_store (st r)) in *.
  set (s1 := Store (s_proc s) (s_data s) [] [] (s_pin s) (s_newpin s) (s_wt s)).
  destruct (refine_fold d0 g wfm r own (tr r) s1 []) as (s2 & new & E2 & P2 & D2 & F2 & U2 & Pn2 & Nn2 & W2 & New2 & Np2 & Nd2).
  - apply Ntr.
  - intros c Hc. apply Htr in Hc; [|assumption]. destruct (R_ok c Hc). split; [apply Pf|]. split; [assumption|]. split; [apply vld; assumption|assumption].
  - intros c _ Oc. cbn [s1 s_data]. apply Hd. assumption.
  - intros c Hc. apply not_true. rewrite Rk_r by assumption. intros Q. apply Htr in Hc; [|assumption]. destruct (R_ok c Hc). pose proof (created_not_ex c Q). congruence.
  - intros k Hk. apply Rk_r in Hk; [|assumption]. pose proof (created_not_ex k Hk) as Q. cbn [s1 s_data]. apply has_not. apply not_true. rewrite Hd. intros O. unfold exo in Q. rewrite O in Q. discriminate.
  - rewrite E2. cbn [bind]. cbn [s1 s_proc s_data s_refd s_unrefd s_pin s_newpin s_wt] in *.
    assert (forall k, find k (s_proc s2) = if Rk k then own (par k) else own k) as P2'. { intros k. rewrite P2, Rk_eq, Pf by assumption. reflexivity. }
    assert (forall c, In c (tu r) -> Mb (par c) = true) as Tm.
    { intros c Hc. rewrite <- (Mb_eq r) by assumption. apply mem_In. apply in_map. assumption. }
    destruct (unrefine_fold g own (tu r) (s_proc s2) [] []) as (cp & all & ps & E3 & P3 & A3 & S3 & N3 & Na3).
    + intros c Hc. destruct (Mb_first _ (Tm c Hc)) as (K & Ex & Ep). split; [assumption|]. destruct (Mk_only _ K) as (_ & _ & K2 & K3). split; [rewrite P2', K2; reflexivity|].
      intros c' Hc' Q. pose proof (Tm c' Hc') as T'. rewrite <- Q in T'. congruence.
    + apply Np2. assumption.
    + constructor.
    + rewrite E3. cbn [bind].
      assert (forall k, mem k all = Mk k) as All.
      { intros k. rewrite <- (Mk_eq r) by assumption. apply bool_eq. rewrite mem_In, A3. unfold kidb. rewrite existsb_exists. cbn [In]. split.
        - intros [[]|(c & Hc & Hk)]. exists (par c). split; [apply in_map; assumption|apply mem_In; assumption].
        - intros (p & Hp & Hk). apply in_map_iff in Hp. destruct Hp as (c & <- & Hc). right. exists c. split; [assumption|apply mem_In; assumption]. }
      assert (forall k, find k cp = if Mb k then own (first k) else if Rk k then own (par k) else own k) as P3'.
      { intros k. rewrite P3, Mb_eq, P2' by assumption. reflexivity. }
      assert (forall k, find k cp = if Rb k || Mk k then own k else own' k) as P3''.
      { intros k. rewrite P3'. unfold own'. destruct (Rb k) eqn:E; cbn [orb]; [destruct (Rb_only k E) as (_ & -> & _ & ->); reflexivity|].
        destruct (Mk k) eqn:E1; [destruct (Mk_only k E1) as (_ & _ & -> & ->); reflexivity|]. destruct (Rk k) eqn:E4; [|reflexivity]. destruct (Rk_only k E4) as (_ & _ & _ & ->). reflexivity. }
      assert (forall c, In c all -> Mk c = true) as Am by (intros c Hc; rewrite <- All; apply mem_In; assumption).
      destruct (remove_fold d0 g r own own' all (Store cp (s_data s2) (s_refd s2) (s_unrefd s2) (s_pin s2) (s_newpin s2) (s_wt s2)) [] [])
        as (s4 & send & recv & E4 & P4 & D4 & U4 & F4 & Pn4 & Nn4 & W4 & Se4 & Re4 & Ns4 & Nr4 & Np4 & Nd4).
      * assumption.
      * intros c Hc. pose proof (Am c Hc) as Mc. cbn [s_proc]. destruct (Mk_only c Mc) as (Ex & A & B & C). rewrite !P3'', A, Mc. cbn [orb].
        pose proof (Mk_par c Mc) as Mp. destruct (Mb_only _ Mp) as (Exp & A' & B' & C'). rewrite A', C'. cbn [orb]. split; [reflexivity|]. split; [assumption|]. split; [reflexivity|]. split.
        -- unfold exo, own'. rewrite A', C', B', Mp. apply (Mb_first _ Mp).
        -- intros Q. apply Am in Q. congruence.
      * intros c Hc Oc _. cbn [s_data]. pose proof (Am c Hc) as Mc. destruct (Mk_only c Mc) as (Ex & A & B & C). unfold has. rewrite D2, Rb_eq, Rk_eq, A, B by assumption. cbn [andb]. apply Hd. assumption.
      * rewrite E4. cbn [bind]. eexists. split; [reflexivity|]. unfold local_spec. cbn [s_proc s_data s_refd s_unrefd s_pin s_newpin s_wt] in *.
        assert (forall k, find k (s_data s2) = data2 r k) as D2'. { intros k. rewrite D2, Rb_eq, Rk_eq by assumption. reflexivity. }
        assert (forall loc (f f2 f4 : list (Z * Z)), given g (tr r) f f2 loc -> (forall k, find k f4 = if mem k all then None else find k f2) -> passed loc f f4) as Pass.
        { intros loc f f2 f4 G F k. rewrite F, All. destruct (Mk k); [reflexivity|]. rewrite (G k), Rb_eq, Rk_eq by assumption. reflexivity. }
        split; [|split; [|split; [|split; [|split; [|split; [|split; [|split; [|split; [|split; [|split; [|split; [|split; [|split; [|split]]]]]]]]]]]]]].
        -- intros k. rewrite P4, All, P3''. destruct (Mk k) eqn:E; [|rewrite orb_false_r; reflexivity]. destruct (Mk_only k E) as (_ & -> & _). unfold own'. rewrite E. destruct (Rb k); reflexivity.
        -- apply Np4. assumption.
        -- intros k. rewrite D4, All, D2'. reflexivity.
        -- apply Nd4, Nd2. assumption.
        -- intros k. rewrite F4, F2, Rb_eq by assumption. cbn [find]. reflexivity.
        -- intros k. rewrite U4, All, U2, D2'. cbn [find]. fold (stays r k). destruct (stays r k) eqn:E; [|reflexivity]. unfold stays in E. apply andb_true_iff in E. apply Mk_data; [assumption|apply E].
        -- apply (Pass _ _ _ _ Pn2 Pn4).
        -- apply (Pass _ _ _ _ Nn2 Nn4).
        -- apply (Pass _ _ _ _ W2 W4).
        -- intros k. rewrite New2, Rk_r by assumption. cbn [In]. tauto.
        -- assumption.
        -- intros k. rewrite <- (Mb_eq r k Ir). apply mem_ext. rewrite S3. cbn [In]. tauto.
        -- intros q k. rewrite Se4, <- mem_In, All. cbn [In]. tauto.
        -- apply Ns4; [constructor|auto].
        -- intros q k. rewrite Re4, <- mem_In, All. cbn [In]. tauto.
        -- apply Nr4; [constructor|auto].
Qed.

(** ** After the transfers *)
(** the data of a removed cell goes to the owner of its parent *)
Definition unref_data (r k : Z) : option D :=
  if Mk k && ownr r own' (par k) then match own k with Some q => find k (data q) | None => None end else None.
Definition final_spec (r : Z) (s : store D) : Prop :=
  store_ok own' r s /\
  (forall k, own' k = Some r -> find k (s_data s) = if Rk k || Mb k then Some d0 else find k (data r)) /\
  (forall k, find k (s_refd s) = if Rb k && ownr r own k then find k (data r) else None) /\
  (forall k, find k (s_unrefd s) = unref_data r k) /\
  passed (fun _ => true) (s_pin (p_store (st r))) (s_pin s) /\ passed (fun _ => true) (s_newpin (p_store (st r))) (s_newpin s) /\
  passed (ownr r own) (s_wt (p_store (st r))) (s_wt s).

Lemma execute_finish_ok (loc : Z -> store D * list Z * list Z * list Z * list (Z * Z) * list (Z * Z)) r :
  In r (ranks g) -> (forall q, In q (ranks g) -> local_spec q (loc q)) ->
  exists s, execute_finish d0 g r (tr r) (let '(_, _, a, _, _, _) := loc r in a) (let '(_, _, _, p, _, _) := loc r in p)
    (let '(s, _, _, _, _, _) := loc r in s) (let '(_, _, _, _, _, x) := loc r in x)
    (fun q => let '(_, _, _, _, x, _) := loc q in x) (fun q => s_data (let '(s, _, _, _, _, _) := loc q in s)) = Done s /\ final_spec r s.
Proof.
  intros Ir Hl. pose proof (Hl r Ir) as Lr. destruct (loc r) as [[[[[s new] all] ps] send] recv] eqn:El. unfold local_spec in Lr.
  destruct Lr as (P4 & Np4 & D4 & Nd4 & F4 & U4 & Pn4 & Nn4 & W4 & _ & All & Ps & Se4 & Ns4 & Re4 & Nr4).
  destruct (store_of r Ir) as (Pf & _ & _ & Hd).
  unfold execute_finish.
  set (src := fun k => if Mk k && ownr r own' (par k) && negb (ownr r own k) then own k else None).
  assert (forall k q, src k = Some q <-> Mk k = true /\ own k = Some q /\ own' (par k) = Some r /\ q <> r) as Src.
  { intros k q. unfold src. destruct (Mk k); cbn [andb]; [|split; [discriminate|intros (? & _); discriminate]].
    destruct (ownr r own' (par k)) eqn:E1; cbn [andb].
    - apply ownr_iff in E1. destruct (ownr r own k) eqn:E2; cbn [negb].
      + apply ownr_iff in E2. split; [discriminate|]. intros (_ & A & _ & N). congruence.
      + assert (own k <> Some r) by (intros Q; apply ownr_iff in Q; congruence). split; [intros Q; repeat split; auto; intros ->; contradiction|tauto].
    - split; [discriminate|]. intros (_ & _ & A & _). apply ownr_iff in A. congruence. }
  assert (forall q c, In q (ranks g) -> In (r, c) (let '(_, _, _, _, x, _) := loc q in x) <-> src c = Some q) as Snd.
  { intros q c Iq. pose proof (Hl q Iq) as Lq. destruct (loc q) as [[[[[sq ?] ?] ?] sendq] ?]. unfold local_spec in Lq.
    destruct Lq as (_ & _ & _ & _ & _ & _ & _ & _ & _ & _ & _ & _ & Sq & _). rewrite Sq, Src. split; intros (A & B & C & N); repeat split; auto. }
  destruct (receives_ok (fun q => listed r (let '(_, _, _, _, x, _) := loc q in x))
     (fun q => s_data (let '(s, _, _, _, _, _) := loc q in s)) src (fun q => listed q recv) (ranks g) (s_unrefd s)) as (un & Eu & Pu).
  - intros q Iq. pose proof (Hl q Iq) as Lq. pose proof (Snd q) as Sq. destruct (loc q) as [[[[[sq ?] ?] ?] sendq] ?] eqn:Elq. unfold local_spec in Lq.
    destruct Lq as (_ & _ & _ & _ & _ & _ & _ & _ & _ & _ & _ & _ & _ & Nsq & _). split; [|apply listed_NoDup; assumption].
    apply listed_same; [assumption|assumption|]. intros k. rewrite (Sq k Iq), Src, Re4. reflexivity.
  - intros q c Iq Hc. apply listed_In in Hc. apply (Snd q c Iq), Src in Hc. destruct Hc as (Mc & Oc & Op & Nq).
    pose proof (Hl q Iq) as Lq. destruct (loc q) as [[[[[sq ?] ?] ?] sendq] ?] eqn:Elq. unfold local_spec in Lq. destruct Lq as (_ & _ & Dq & _).
    unfold has. rewrite Dq. unfold stays. rewrite Mc. assert (ownr q own' (par c) = false) as -> by (apply not_true; rewrite ownr_iff; congruence). rewrite andb_false_r. cbn [andb].
    rewrite Mk_data by assumption. destruct (store_of q Iq) as (_ & _ & _ & Hq). apply Hq. assumption.
  - intros q c Iq. rewrite listed_In. apply Snd. assumption.
  - apply ranks_NoDup.
  - intros c q Hs. apply Src in Hs. destruct Hgood as [[_ Ho] _]. apply (Ho c). apply Hs.
  - rewrite Eu. cbn [bind].
    assert (forall p, In p ps -> find p (s_proc s) = own' p /\ exo own' p = true) as Pp.
    { intros p Hp. apply mem_In in Hp. rewrite Ps in Hp. destruct (Mb_only p Hp) as (_ & A & B & C). rewrite P4, A. split; [reflexivity|]. unfold exo, own'. rewrite A, B, C, Hp. apply (Mb_first p Hp). }
    destruct (parents_fold d0 r (s_proc s) own' ps (s_data s) Pp) as (dt & Ed & Pd & Ndt). rewrite Ed. cbn [bind]. eexists. split; [reflexivity|].
    assert (forall k, find k (fold_left (fun f c => del c f) all dt) = if own' k then (if ownr r own' k then (if Rk k || Mb k then Some d0 else find k (data r)) else None) else None) as Fin.
    { intros k. rewrite find_dels, All. unfold has in Pd. 
      destruct (Mk k) eqn:E1; [unfold own'; rewrite E1; destruct (Rb k); reflexivity|]. rewrite Pd, Ps.
      assert (stays r k = false) as St by (unfold stays; rewrite E1; reflexivity). rewrite D4, St.
      assert (forall q, own k = Some q -> ownr r own k = false -> find k (data r) = None) as NoD.
      { intros q O1 O2. apply has_not, not_true. rewrite Hd. intros Q. apply ownr_iff in Q. congruence. }
      assert (own k = None -> find k (data r) = None) as NoD'. { intros O1. apply has_not, not_true. rewrite Hd. congruence. }
      destruct (Rb k) eqn:E0.
      { destruct (Rb_only k E0) as (Ex & A & _ & C). assert (own' k = None) as -> by (unfold own'; rewrite E0; reflexivity). rewrite C. cbn [andb]. unfold data2. rewrite E0. cbn [andb].
        destruct (ownr r own k) eqn:Eo; [reflexivity|]. rewrite A. cbn [andb]. apply exo_some in Ex. destruct Ex as (q & Oq). apply (NoD q); auto. }
      destruct (Rk k) eqn:E2.
      { destruct (Rk_only k E2) as (Ex & _ & _ & C). rewrite C. cbn [andb orb]. unfold data2. rewrite E0, E2. cbn [andb].
        assert (own' k = own (par k)) as O' by (unfold own'; rewrite E0, E1, E2; reflexivity).
        assert (ownr r own' k = ownr r own (par k)) as -> by (unfold ownr; rewrite O'; reflexivity).
        destruct (ownr r own (par k)) eqn:Eo.
        - apply ownr_iff in Eo. rewrite O', Eo. reflexivity.
        - rewrite NoD'; [destruct (own' k); reflexivity|]. unfold exo in Ex. destruct (own k); [discriminate|reflexivity]. }
      cbn [orb]. unfold data2. rewrite E0, E2. cbn [andb]. destruct (Mb k) eqn:E3; cbn [andb].
      - destruct (Mb_only k E3) as (Ex & _). rewrite NoD'; [|unfold exo in Ex; destruct (own k); [discriminate|reflexivity]]. cbn [negb].
        destruct (ownr r own' k) eqn:Eo; cbn [andb]; [apply ownr_iff in Eo; rewrite Eo; reflexivity|destruct (own' k); reflexivity].
      - assert (own' k = own k) as O' by (unfold own'; rewrite E0, E1, E2, E3; reflexivity).
        assert (ownr r own' k = ownr r own k) as -> by (unfold ownr; rewrite O'; reflexivity). rewrite O'.
        destruct (own k) as [q|] eqn:Oq; [|apply NoD'; reflexivity]. destruct (ownr r own k) eqn:Eo; [reflexivity|]. apply (NoD q); auto. }
    unfold final_spec, store_ok. cbn [s_proc s_data s_refd s_unrefd s_pin s_newpin s_wt].
    split; [|split; [|split; [|split; [|auto]]]].
    + split; [|split; [|split]].
      * intros c. rewrite find_dels, Rb_eq, P4 by assumption. unfold own'. destruct (Rb c); reflexivity.
      * apply dels_NoDup. assumption.
      * apply dels_NoDup, Ndt. assumption.
      * intros c. unfold has. rewrite Fin. destruct (own' c) as [q|] eqn:Oq; [|split; discriminate].
        destruct (ownr r own' c) eqn:Eo.
        -- apply ownr_iff in Eo. rewrite <- Oq, Eo. split; [reflexivity|]. intros _. destruct (Rk c || Mb c) eqn:Ek; [reflexivity|]. apply orb_false_iff in Ek. destruct Ek as [Ek1 Ek2].
           unfold own' in Eo. destruct (Rb c) eqn:?; [discriminate|]. destruct (Mk c); [discriminate|]. rewrite Ek1, Ek2 in Eo. apply Hd in Eo. unfold has in Eo. assumption.
        -- split; [discriminate|]. intros Q. assert (own' c = Some r) as Q' by congruence. apply ownr_iff in Q'. congruence.
    + intros k Ok. rewrite Fin, Ok. rewrite (proj2 (ownr_iff r own' k) Ok). reflexivity.
    + assumption.
    + intros k. rewrite Pu, U4. unfold unref_data.
      destruct (src k) as [q|] eqn:Es.
      * apply Src in Es. destruct Es as (Mx & Ox & Op & Nq). rewrite Mx, (proj2 (ownr_iff r own' (par k)) Op), Ox. cbn [andb].
        destruct Hgood as [[_ Ho] _]. pose proof (Ho k q Ox) as Iq.
        pose proof (Hl q Iq) as Lq. destruct (loc q) as [[[[[sq ?] ?] ?] sendq] ?] eqn:Elq. unfold local_spec in Lq. destruct Lq as (_ & _ & Dq & _).
        rewrite Dq. unfold stays. assert (ownr q own' (par k) = false) as -> by (apply not_true; rewrite ownr_iff; congruence). rewrite !andb_false_r. apply Mk_data; assumption.
      * unfold stays. unfold src in Es. destruct (Mk k) eqn:E1; cbn [andb]; [|reflexivity]. destruct (ownr r own' (par k)) eqn:E2; cbn [andb] in *; [|rewrite andb_false_r; reflexivity].
        rewrite andb_true_r. destruct (ownr r own k) eqn:E3; cbn [negb] in Es.
        -- apply ownr_iff in E3. rewrite E3. reflexivity.
        -- destruct (own k); [discriminate|reflexivity].
Qed.

Lemma execute_refines_ok : exists res, execute_refines d0 g st tr tu noref = Done res /\
  good g own' (fun r => fst (res r)) /\
  forall r, In r (ranks g) -> final_spec r (p_store (fst (res r))) /\ p_req (fst (res r)) = Reqs [] (noref r) [] [] /\
    forall k, In k (snd (res r)) <-> created k /\ own (par k) = Some r.
Proof.
  unfold execute_refines, each.
  destruct (collect_ok (ranks g) (fun r => execute_local d0 g r (tr r) (tu r) (p_store (st r))) (fun r => (p_store (st r), [], [], [], [], []))
    local_spec execute_local_ok) as (loc & E1 & P1). rewrite E1. cbn [bind].
  destruct (collect_ok (ranks g) (fun r => do s <- execute_finish d0 g r (tr r) (let '(_, _, a, _, _, _) := loc r in a) (let '(_, _, _, p, _, _) := loc r in p)
    (let '(s, _, _, _, _, _) := loc r in s) (let '(_, _, _, _, _, x) := loc r in x)
    (fun q => let '(_, _, _, _, x, _) := loc q in x) (fun q => s_data (let '(s, _, _, _, _, _) := loc q in s));
      do k <- rebuild g r s; Done (Proc (Reqs [] (noref r) [] []) k s, let '(_, n, _, _, _, _) := loc r in n)) (fun r => (st r, []))
    (fun r x => final_spec r (p_store (fst x)) /\ p_req (fst x) = Reqs [] (noref r) [] [] /\ rebuild g r (p_store (fst x)) = Done (p_cache (fst x)) /\
      forall k, In k (snd x) <-> created k /\ own (par k) = Some r)) as (res & E2 & P2).
  { intros r Ir. destruct (execute_finish_ok loc r Ir (fun q Iq => proj2 (P1 q Iq))) as (s & Es & Fs). rewrite Es. cbn [bind].
    pose proof Fs as (Ss & _). destruct (rebuild_ok g Hg own' r s world' Ss) as (k & Ek & _). rewrite Ek. cbn [bind]. eexists. split; [reflexivity|]. cbn [fst snd p_store p_req p_cache].
    split; [assumption|]. split; [reflexivity|]. split; [assumption|]. pose proof (proj2 (P1 r Ir)) as L. destruct (loc r) as [[[[[? new] ?] ?] ?] ?]. unfold local_spec in L. apply L. }
  exists res. split; [exact E2|]. split.
  - split; [apply world'|]. intros r Ir. destruct (P2 r Ir) as (_ & Fs & Rq & Rb' & _). split; [apply Fs|]. split; [assumption|]. rewrite Rq. split; intros c [].
  - intros r Ir. destruct (P2 r Ir) as (_ & Fs & Rq & _ & Nw). auto.
Qed.
End Exec.
