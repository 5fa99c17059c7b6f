(** C62: no check made during a commit ends a program compiled with DEBUG. *)
From Coq Require Import Sorted.
From Verif Require Import U64 MapModel MapSpec MapProofs MapFamily MapProps HoodModel MeshModel
  MeshSpec MeshBase HoodProps MeshWalk MeshFind MeshKids MeshItem MeshCheck MeshTo MeshNear
  Sets RefineModel RefineGeo RefineInv RefineSpread RefineMerge RefineFold RefineExec RefineStop RefineNear
  BalanceModel RefineReqs Create Balance History HistProps BalProps CommModel CommInv CommProps CommViews LoadCells HistExamples CommMore CommExamples DebugModel DebugProps DebugCommit.
Open Scope Z_scope.

(** ** Folds and processes *)
Lemma foldM_guard {A B} (f f' : B -> A -> outcome B) l : forall x y, foldM f l x = Done y ->
  (forall l1 c l2 x1, l = l1 ++ c :: l2 -> foldM f l1 x = Done x1 -> f' x1 c = f x1 c) -> foldM f' l x = Done y.
Proof.
  induction l as [|a l IH]; intros x y E G; [assumption|]. cbn [foldM] in *. apply bind_done in E. destruct E as (x1 & E1 & E).
  rewrite (G [] a l x eq_refl eq_refl), E1. cbn [bind]. apply (IH x1 y E). intros l1 c l2 x2 El Ef. apply (G (a :: l1) c l2 x2); [rewrite El; reflexivity|]. cbn [foldM]. rewrite E1. exact Ef.
Qed.
Lemma foldM_snoc {A B} (f : B -> A -> outcome B) l c : forall x x1 y, foldM f l x = Done x1 -> foldM f (l ++ [c]) x = Done y -> f x1 c = Done y.
Proof.
  induction l as [|a l IH]; intros x x1 y E E'; cbn [foldM app] in *.
  - injection E as <-. apply bind_done in E'. destruct E' as (y' & E' & Q). congruence.
  - apply bind_done in E. destruct E as (x2 & E2 & E). rewrite E2 in E'. cbn [bind] in E'. apply (IH x2 x1 y E E').
Qed.
Lemma NoDup_prefix {A} (l1 l2 : list A) : NoDup (l1 ++ l2) -> NoDup l1.
Proof. induction l1 as [|a l IH]; intros N; [constructor|]. cbn [app] in N. apply NoDup_cons_iff in N. destruct N as (Na & N). constructor; [|auto]. intros Q. apply Na, in_app_iff. auto. Qed.
Lemma collect_same {A} l (f f' : Z -> outcome A) base : (forall r, In r l -> f' r = f r) -> collect l f' base = collect l f base.
Proof.
  induction l as [|r l IH]; intros E; [reflexivity|]. cbn [collect]. rewrite (E r) by (left; reflexivity). destruct (f r); cbn [bind]; try reflexivity. rewrite IH by (intros q Q; apply E; right; assumption). reflexivity.
Qed.

Section Local.
Context {D : Type} (d0 : D) (g : grid) (Hg : grid_ok g).
Notation m := (g_map g).
Notation t := (g_topo g).
Notation n := (g_len g).
Notation H := (g_hood g).
Notation par := (get_parent m).
Notation kids := (get_all_children m).
Notation first p := (nth 0 (kids p) error_cell).
Context (own : Z -> option Z) (st : Z -> proc D) (Hgood : good g own st).
Notation R := (all_refined g own st).
Notation U := (unrefined g own st).
Notation wfm := (wfm g Hg).
Notation vld := (vld g own st Hgood).

(** the first child of a cell and whether the cell has children in a set of cells *)
Lemma child_of c : valid m c -> lvl_of m c < m_max m ->
  let k := get_cell_from_indices m (get_indices m c) (lvl_of m c + 1) in valid m k /\ 0 < lvl_of m k /\ par k = c /\ k <> c.
Proof.
  intros V L k. pose proof (cell_level m wfm c V). destruct (cell_at m wfm (idx_of m c) (lvl_of m c + 1) (cell_in_grid m wfm c V) ltac:(lia)) as (Vk & Lk & Ck & _).
  change (get_cell_from_indices m (idx_of m c) (lvl_of m c + 1)) with k in Vk, Lk, Ck. split; [assumption|]. split; [lia|]. split; [|intros E; rewrite E in Lk; lia]. apply (kid_parent_eq m wfm k (idx_of m c) c); auto; try lia. apply covers_own; [apply wfm|assumption].
Qed.
Lemma leaf_in (cp : list (Z * Z)) c : valid m c -> has c cp = true -> (forall k, valid m k -> 0 < lvl_of m k -> par k = c -> has k cp = false) -> is_leaf g cp c = true.
Proof.
  intros V Hc Hk. unfold is_leaf, get_child_ex. cbv zeta. change (get_refinement_level m c) with (lvl_of m c). destruct (Z.eqb_spec (lvl_of m c) (m_max m)) as [E|E]; [rewrite Hc; apply Z.eqb_refl|].
  pose proof (cell_level m wfm c V). destruct (child_of c V ltac:(lia)) as (Vk & Lk & Pk & _). rewrite (Hk _ Vk Lk Pk), Hc. apply Z.eqb_refl.
Qed.
Lemma not_leaf_in (cp : list (Z * Z)) c : valid m c -> lvl_of m c < m_max m -> (forall k, valid m k -> 0 < lvl_of m k -> par k = c -> has k cp = true) -> is_leaf g cp c = false.
Proof.
  intros V L Hk. unfold is_leaf, get_child_ex. cbv zeta. change (get_refinement_level m c) with (lvl_of m c). destruct (Z.eqb_spec (lvl_of m c) (m_max m)) as [E|E]; [lia|].
  destruct (child_of c V L) as (Vk & Lk & Pk & Nk). rewrite (Hk _ Vk Lk Pk). apply Z.eqb_neq. congruence.
Qed.
Lemma has_some {A} (k : Z) (f : list (Z * A)) : has k f = match find k f with Some _ => true | None => false end.
Proof. reflexivity. Qed.

Lemma leaf_not_merged c k : exo own c = true -> valid m k -> 0 < lvl_of m k -> par k = c -> ~ merged g own st k.
Proof.
  intros Ec Vk Lk Ek M. destruct (merged_kid g own st Hgood k M) as (j & Ej & Lj & Ep).
  pose proof (vld j Ej) as Vj. pose proof (covers_own m wfm j Vj) as C. pose proof (parent_covers m wfm j _ Vj Lj C) as C1. rewrite Ep in C1.
  pose proof (parent_covers m wfm k _ Vk Lk C1) as C2. rewrite Ek in C2. pose proof (leaf_unique m wfm _ (tile g own st Hgood) j c _ Ej Ec C C2) as Q.
  pose proof (parent_facts m wfm j Vj Lj) as (_ & L1 & _). pose proof (parent_facts m wfm k Vk Lk) as (_ & L2 & _). cbn zeta in *. rewrite Ep in L1. rewrite Ek, <- Q in L2. lia.
Qed.

(** ** What is tested before the grid is changed *)
Section Before.
Context (r : Z) (Ir : In r (ranks g)).
Notation s := (p_store (st r)).
Lemma leaf_with_data_ok c : exo own c = true -> leaf_with_data g r s c = true.
Proof.
  intros E. destruct (store_of g own st Hgood r Ir) as (Pf & _ & _ & Hd). pose proof (vld c E) as V. apply exo_some in E as Q. destruct Q as (q & O).
  assert (forall k, has k (s_proc s) = exo own k) as Hh by (intros k; rewrite has_some, Pf; reflexivity).
  unfold leaf_with_data. rewrite !andb_true_iff. split; [split|].
  - apply leaf_in; [assumption|rewrite Hh; assumption|]. intros k Vk Lk Ek. rewrite Hh. destruct (exo own k) eqn:X; [|reflexivity]. pose proof (par_not_ex g Hg own st Hgood k X Lk). congruence.
  - rewrite Hh. assumption.
  - unfold owned. rewrite Pf, O. destruct (Z.eqb_spec q r) as [->|]; [|reflexivity]. apply orb_true_iff. right. apply Hd. assumption.
Qed.

Context (tr : Z -> list Z) (Htr : forall r c, In r (ranks g) -> In c (tr r) <-> R c).
Lemma mesh_here : mesh m t n (exb s).
Proof. apply (mesh_r g own st Hgood r Ir). Qed.
Lemma exb_here c : exb s c = exo own c.
Proof. apply (ex_r g own st Hgood r Ir). Qed.

Lemma refines_induced_ok : refines_induced g s (tr r) = Done true.
Proof.
  unfold refines_induced. apply all_hold_ok. intros c Hc. apply Htr in Hc; [|assumption]. destruct (R_ok g own st Hgood c Hc) as (E & _).
  destruct (of_list g (exb s) c mesh_here ltac:(rewrite exb_here; assumption)) as (a & -> & Pa). cbn [bind].
  destruct (c15_neighbors_to m t n (exb s) c H mesh_here ltac:(rewrite exb_here; assumption) (fun h Q => Q) (sub_fits g Hg H (fun h Q => Q))) as (b & -> & _ & Pb). cbn [bind]. f_equal.
  apply forallb_forall. intros x Hx. assert (exo own x = true /\ linked g c x) as (Ex & Lx).
  { apply in_app_iff in Hx. rewrite Pa, Pb, exb_here in Hx. destruct Hx as [(A & B)|(A & B)]; (split; [assumption|]); [left|right]; assumption. }
  apply orb_true_iff. right. apply negb_true_iff. destruct (Z.ltb_spec (get_refinement_level m x) (get_refinement_level m c)) as [L|L]; [|reflexivity]. cbn [andb].
  apply negb_false_iff, mem_In, Htr; [assumption|]. apply (refined_closed g own st Hgood c x Hc Ex L Lx).
Qed.

Lemma unrefine_allowed_ok c : U c -> unrefine_allowed g r s (tr r) c = Done true.
Proof.
  intros Hc. pose proof Hc as (A & Sb & Nb). destruct (asked_unref g own st Hgood c A) as (E & L & Sx). pose proof (vld c E) as V.
  unfold unrefine_allowed. rewrite (leaf_with_data_ok c E). cbn [negb].
  assert (get_parent_ex g (exb s) c = c) as ->.
  { unfold get_parent_ex. destruct (Z.eqb_spec (get_refinement_level m c) 0); [unfold lvl_of in L; lia|]. rewrite !exb_here.
    assert (get_cell_from_indices m (get_indices m c) (get_refinement_level m c - 1) = par c) as ->.
    { pose proof (cell_level m wfm c V). destruct (cell_at m wfm (idx_of m c) (lvl_of m c - 1) (cell_in_grid m wfm c V) ltac:(lia)) as (Vp & Lp & Cp & _). symmetry.
      apply (kid_parent_eq m wfm c (idx_of m c)); auto; [|apply covers_own; [apply wfm|assumption]]. change (get_refinement_level m c) with (lvl_of m c). change (get_indices m c) with (idx_of m c). lia. }
    rewrite (par_not_ex g Hg own st Hgood c E L), E. reflexivity. }
  destruct (of_list g (exb s) c mesh_here ltac:(rewrite exb_here; assumption)) as (a & -> & Pa). cbn [bind]. f_equal.
  apply forallb_forall. intros x Hx. apply Pa in Hx. rewrite exb_here in Hx. destruct Hx as (Ex & Sx0). apply orb_true_iff. right. pose proof (vld x Ex) as Vx.
  assert (lvl_of m x <= lvl_of m c /\ (lvl_of m x = lvl_of m c -> ~ R x)) as (Q1 & Q2).
  { assert (merged g own st (par c)) as M by (exists c; auto). destruct (merged_ok g Hg own st Hgood _ M) as (VP & LP & _). pose proof (merged_ok g Hg own st Hgood) as MO.
    destruct (Z_lt_dec 0 (lvl_of m x)) as [Lx|Lx]; [destruct (Z.eq_dec (par x) (par c)) as [P|P]|].
    - assert (siblings g c x) as S by (repeat split; auto; apply Vx || apply V). split; [|intros _; apply Sb; assumption].
      pose proof (parent_facts m wfm c V L) as (_ & L1 & _). pose proof (parent_facts m wfm x Vx Lx) as (_ & L2 & _). cbn zeta in *. rewrite P in L2. lia.
    - assert (disjoint m (par c) x) as Dj by (apply (merged_disjoint m wfm (exo own) (tile g own st Hgood) R (merged g own st) MO); [assumption|assumption|tauto]).
      apply Nb; [assumption|]. apply (sees_up m wfm t n (proj1 (proj1 (proj2 Hg))) c (par c) x x); auto; [apply inside_parent; [apply wfm|assumption|assumption]|apply inside_refl; assumption].
    - assert (disjoint m (par c) x) as Dj by (apply (merged_disjoint m wfm (exo own) (tile g own st Hgood) R (merged g own st) MO); [assumption|assumption|tauto]).
      apply Nb; [assumption|]. apply (sees_up m wfm t n (proj1 (proj1 (proj2 Hg))) c (par c) x x); auto; [apply inside_parent; [apply wfm|assumption|assumption]|apply inside_refl; assumption]. }
  unfold lvl_of in *. apply andb_true_iff. split.
  - apply negb_true_iff, Z.ltb_ge. assumption.
  - apply negb_true_iff. destruct (Z.eqb_spec (get_refinement_level m x) (get_refinement_level m c)) as [Q|]; [|reflexivity]. cbn [andb]. apply mem_not. rewrite Htr by assumption. apply Q2. assumption.
Qed.
End Before.

(** ** What is tested while the grid is being changed *)
Context (tr tu : Z -> list Z).
Context (Htr : forall r c, In r (ranks g) -> In c (tr r) <-> R c) (Ntr : forall r, NoDup (tr r)).
Context (Htu : forall r c, In r (ranks g) -> In c (tu r) <-> U c).
Notation Rb := (Rb tr).
Notation Rk := (Rk g tr).
Notation Mb := (Mb g tu).
Notation Mk := (Mk g tu).
Notation own' := (own' g own tr tu).
Notation Rb_only := (Rb_only g Hg own st Hgood tr tu Htr Htu).
Notation Rk_only := (Rk_only g Hg own st Hgood tr tu Htr Htu).
Notation Mb_only := (Mb_only g Hg own st Hgood tr tu Htr Htu).
Notation Mk_only := (Mk_only g Hg own st Hgood tr tu Htr Htu).
Notation Rk_iff := (Rk_iff g Hg own st Hgood tr Htr).
Notation Mk_iff := (Mk_iff g Hg own st Hgood tu Htu).
Notation Mb_iff := (Mb_iff g Hg own st tu Htu).

Lemma kidb_app L L' k : kidb g (L ++ L') k = kidb g L k || kidb g L' k.
Proof. apply existsb_app. Qed.

(** a removed cell has no children in any stage *)
Lemma removed_leaf c k : Mk c = true -> valid m k -> 0 < lvl_of m k -> par k = c -> exo own k = false /\ Rk k = false /\ Mb k = false.
Proof.
  intros Mc Vk Lk Ek. destruct (Mk_only c Mc) as (Ec & Nr & _ & _). split; [|split]; apply not_true.
  - intros X. pose proof (par_not_ex g Hg own st Hgood k X Lk). congruence.
  - intros X. pose proof (Rk_par g Hg own st Hgood tr Htr k X). congruence.
  - rewrite Mb_iff. apply (leaf_not_merged c); auto.
Qed.

Section Stages.
Context (r : Z) (Ir : In r (ranks g)).
Notation s := (p_store (st r)).
Notation s1 := (Store (s_proc s) (s_data s) [] [] (s_pin s) (s_newpin s) (s_wt s)).

Lemma refines_guarded s2 : foldM (refine_one d0 g r) (tr r) (s1, []) = Done s2 -> foldM (refine_one_debug d0 g r (p_cache (st r))) (tr r) (s1, []) = Done s2.
Proof.
  intros E. apply (foldM_guard _ _ _ _ _ E). clear E. intros l1 c l2 x1 El E1. destruct (store_of g own st Hgood r Ir) as (Pf & Np & Nd & Hd).
  pose proof (Ntr r) as N. rewrite El in N. assert (~ In c l1) as Nc. { intros Q. apply NoDup_remove_2 in N. apply N, in_app_iff. auto. } apply NoDup_prefix in N.
  assert (forall x, In x l1 \/ x = c -> R x) as Sub. { intros x Q. apply (Htr r); [assumption|]. rewrite El. apply in_app_iff. cbn [In]. destruct Q; auto. }
  assert (forall x, kidb g l1 x = true -> Rk x = true) as Kid. { intros x Q. rewrite <- (Rk_eq g Hg own st Hgood tr Htr r) by assumption. rewrite El, kidb_app, Q. reflexivity. }
  assert (forall x, R x -> kidb g l1 x = false) as NK. { intros x Q. apply not_true. intros Q'. apply Kid in Q'. destruct (Rk_only x Q'). destruct (R_ok g own st Hgood x Q). congruence. }
  destruct (refine_fold d0 g wfm r own l1 s1 []) as (s2' & new & E2 & P2 & D2 & _).
  - assumption.
  - intros x Hx. destruct (R_ok g own st Hgood x (Sub x (or_introl Hx))). split; [apply Pf|]. split; [assumption|]. split; [apply vld; assumption|assumption].
  - intros x _ Ox. cbn [s_data]. apply Hd. assumption.
  - intros x Hx. apply NK, Sub. auto.
  - intros k Hk. apply Kid in Hk. destruct (Rk_only k Hk) as (Q & _). cbn [s_data]. apply has_not, not_true. rewrite Hd. intros O. unfold exo in Q. rewrite O in Q. discriminate.
  - rewrite E2 in E1. injection E1 as <-. unfold refine_one_debug. cbn [fst s_proc s_data] in *.
    pose proof (Sub c (or_intror eq_refl)) as Rc. destruct (R_ok g own st Hgood c Rc) as (Ec & _). apply exo_some in Ec as (q & O).
    assert (find c (s_proc s2') = Some q) as Fc by (rewrite P2, (NK c Rc), Pf; assumption).
    unfold owned. rewrite has_some, Fc. cbn [andb]. destruct (Z.eqb_spec q r) as [->|]; [|reflexivity]. cbn [negb orb].
    assert (has c (s_data s2') = true) as ->. { rewrite has_some, D2, (NK c Rc). assert (mem c l1 = false) as -> by (apply mem_not; assumption). cbn [andb]. rewrite <- has_some. apply Hd. assumption. }
    destruct (good_cache g Hg own st r Hgood Ir) as (Sof & Sto & _). assert (exo own c = true) as Ec by (apply exo_some; eauto).
    destruct (Sof c Ec) as (a & Fa & _). destruct (Sto c Ec) as (b & Fb & _). rewrite !has_some, Fa, Fb. reflexivity.
Qed.

Lemma unrefines_guarded s2 new y : foldM (refine_one d0 g r) (tr r) (s1, []) = Done (s2, new) -> foldM (unrefine_one g) (tu r) (s_proc s2, [], []) = Done y ->
  foldM (unrefine_one_debug g r (s_data s2)) (tu r) (s_proc s2, [], []) = Done y.
Proof.
  intros Er E. destruct (store_of g own st Hgood r Ir) as (Pf & Np & Nd & Hd).
  destruct (refine_fold d0 g wfm r own (tr r) s1 []) as (s2' & new' & E2 & P2 & D2 & _ & _ & _ & _ & _ & _ & Np2 & _).
  { apply Ntr. } { intros c Hc. apply Htr in Hc; [|assumption]. destruct (R_ok g own st Hgood c Hc). split; [apply Pf|]. split; [assumption|]. split; [apply vld; assumption|assumption]. }
  { intros c _ Oc. cbn [s_data]. apply Hd. assumption. }
  { intros c Hc. rewrite (Rk_eq g Hg own st Hgood tr Htr r) by assumption. apply Htr in Hc; [|assumption]. apply not_true. intros Q. destruct (Rk_only c Q). destruct (R_ok g own st Hgood c Hc). congruence. }
  { intros k Hk. rewrite (Rk_eq g Hg own st Hgood tr Htr r) in Hk by assumption. destruct (Rk_only k Hk) as (Q & _). cbn [s_data]. apply has_not, not_true. rewrite Hd. intros O. unfold exo in Q. rewrite O in Q. discriminate. }
  rewrite Er in E2. injection E2 as <- <-. cbn [s_proc s_data] in *.
  assert (forall k, find k (s_proc s2) = if Rk k then own (par k) else own k) as P2'. { intros k. rewrite P2, (Rk_eq g Hg own st Hgood tr Htr r), Pf by assumption. reflexivity. }
  assert (forall c, In c (tu r) -> Mb (par c) = true) as Tm. { intros c Hc. rewrite <- (Mb_eq g Hg own st tu Htu r) by assumption. apply mem_In. apply in_map. assumption. }
  (* cell_process after any part of the loop *)
  assert (forall L, (forall x, In x L -> In x (tu r)) -> exists cp all ps, foldM (unrefine_one g) L (s_proc s2, [], []) = Done (cp, all, ps) /\
    forall k, find k cp = if mem k (map par L) then own (first k) else if Rk k then own (par k) else own k) as Part.
  { intros L HL. destruct (unrefine_fold g own L (s_proc s2) [] []) as (cp & all & ps & E3 & P3 & _).
    - intros c Hc. apply HL in Hc. destruct (Mb_first g Hg own st Hgood tu Htu _ (Tm c Hc)) as (K & Ex & Ep). split; [assumption|]. destruct (Mk_only _ K) as (_ & _ & K2 & K3). split; [rewrite P2', K2; reflexivity|].
      intros c' Hc' Q. apply HL in Hc'. pose proof (Tm c' Hc') as T'. rewrite <- Q in T'. congruence.
    - apply Np2. assumption.
    - constructor.
    - exists cp, all, ps. split; [assumption|]. intros k. rewrite P3, P2'. reflexivity. }
  assert (forall L cp, (forall x, In x L -> In x (tu r)) -> (forall k, find k cp = if mem k (map par L) then own (first k) else if Rk k then own (par k) else own k) ->
    forall c, Mk c = true -> find c cp = own c /\ is_leaf g cp c = true) as Leaf.
  { intros L cp HL P c Mc. destruct (Mk_only c Mc) as (Ec & _ & Kc & Bc).
    assert (forall k, Mb k = false -> mem k (map par L) = false) as NM. { intros k Q. apply mem_not. intros Q'. apply in_map_iff in Q'. destruct Q' as (x & <- & Hx). rewrite (Tm x (HL x Hx)) in Q. discriminate. }
    assert (find c cp = own c) as Fc by (rewrite P, (NM c Bc), Kc; reflexivity). split; [assumption|]. apply leaf_in; [apply vld; assumption|rewrite has_some, Fc; exact Ec|].
    intros k Vk Lk Ek. destruct (removed_leaf c k Mc Vk Lk Ek) as (X1 & X2 & X3). rewrite has_some, P, (NM k X3), X2. exact X1. }
  apply (foldM_guard _ _ _ _ _ E). clear E. intros l1 c l2 x1 El E1.
  assert (forall x, In x (l1 ++ [c]) -> In x (tu r)) as Sub. { intros x Q. rewrite El. apply in_app_iff. apply in_app_iff in Q. cbn [In] in *. tauto. }
  assert (forall x, In x l1 -> In x (tu r)) as Sub1 by (intros x Q; apply Sub, in_app_iff; auto).
  assert (In c (tu r)) as Hc by (apply Sub, in_app_iff; cbn [In]; auto). apply Htu in Hc as Uc; [|assumption]. pose proof Uc as (Ac & _). destruct (asked_unref g own st Hgood c Ac) as (Ec & Lc & _). pose proof (vld c Ec) as Vc.
  destruct (Part l1 Sub1) as (cp & all & ps & E3 & P3). rewrite E1 in E3. injection E3 as ->. destruct (Part (l1 ++ [c]) Sub) as (cp' & all' & ps' & E4 & P4).
  pose proof (foldM_snoc _ _ _ _ _ _ E1 E4) as Ey. pose proof (parent_facts m wfm c Vc Lc) as (Vp & Lp & _). cbn zeta in Vp, Lp. assert (merged g own st (par c)) as M by (exists c; auto). destruct (merged_ok g Hg own st Hgood _ M) as (_ & LM & _).
  assert (removed g own st c) as Rc by (split; [assumption|]; split; assumption). apply Mk_iff in Rc.
  unfold unrefine_one_debug. cbv zeta. rewrite (proj2 (Leaf l1 cp Sub1 P3 c Rc)), Ey. cbn [negb orb bind].
  assert ((par c =? 0) = false) as -> by (unfold valid in Vp; lia). assert ((par c =? c) = false) as -> by (apply Z.eqb_neq; intros Q; rewrite Q in Lp; lia). cbn [orb].
  assert (forallb (sibling_ok g r cp' (s_data s2)) (kids (par c)) = true) as ->.
  { apply forallb_forall. intros x Hx. unfold sibling_ok. apply orb_true_iff. right. apply (kids_in g wfm _ _ Vp LM) in Hx. destruct Hx as (Vx & Lx & Ex).
    assert (Mk x = true) as Mx by (apply Mk_iff; split; [assumption|]; split; [assumption|]; rewrite Ex; assumption). destruct (Leaf _ cp' Sub P4 x Mx) as (Fx & ->). destruct (Mk_only x Mx) as (Oe & B1 & B2 & _). apply exo_some in Oe as (q & O).
    unfold owned. rewrite has_some, Fx, O. cbn [andb]. destruct (Z.eqb_spec q r) as [->|]; [|reflexivity]. cbn [negb orb]. rewrite has_some, D2, (Rk_eq g Hg own st Hgood tr Htr r), (Rb_eq g Hg own st tr Htr r), B1, B2 by assumption. cbn [andb]. rewrite <- has_some. apply Hd. assumption. }
  assert (existsb (fun x => negb (x =? error_cell) && (x =? c)) (kids (par c)) = true) as ->; [|reflexivity].
  apply existsb_exists. exists c. split; [apply (kids_in g wfm _ _ Vp LM); auto|]. rewrite Z.eqb_refl, andb_true_r. apply negb_true_iff. unfold error_cell. unfold valid in Vc. lia.
Qed.

Lemma removes_guarded all x y : (forall c, In c all -> Mk c = true) -> foldM (remove_one g r) all x = Done y -> foldM (remove_one_debug (D := D) g r) all x = Done y.
Proof.
  intros Ha E. apply (foldM_guard _ _ _ _ _ E). clear E. intros l1 c l2 x1 El _. unfold remove_one_debug. assert (Mk c = true) as Mc by (apply Ha; rewrite El; apply in_app_iff; cbn [In]; auto).
  apply Mk_iff in Mc. destruct Mc as (V & L & _). pose proof (parent_facts m wfm c V L) as (_ & Lp & _). cbn zeta in Lp. assert ((par c =? c) = false) as -> by (apply Z.eqb_neq; intros Q; rewrite Q in Lp; lia). reflexivity.
Qed.

Lemma execute_local_guarded x : execute_local d0 g r (tr r) (tu r) s = Done x -> local_spec d0 g own st tr tu r x ->
  execute_local_debug d0 g r (p_cache (st r)) (tr r) (tu r) s = Done x.
Proof.
  intros E Ls. unfold execute_local in E. apply bind_done in E. destruct E as ([s2 new] & E1 & E). apply bind_done in E. destruct E as ([[cp all] ps] & E2 & E). apply bind_done in E. destruct E as ([[s4 send] recv] & E3 & E). injection E as <-.
  unfold local_spec in Ls. destruct Ls as (_ & _ & _ & _ & _ & _ & _ & _ & _ & _ & All & _).
  unfold execute_local_debug. rewrite (refines_guarded _ E1). cbn [bind]. rewrite (unrefines_guarded _ _ _ E1 E2). cbn [bind]. rewrite (removes_guarded all _ _ (fun c Hc => eq_trans (eq_sym (All c)) (proj2 (mem_In c all) Hc)) E3). reflexivity.
Qed.

Lemma execute_finish_guarded s0 new all ps send recv sends datas s' : local_spec d0 g own st tr tu r (s0, new, all, ps, send, recv) ->
  execute_finish d0 g r (tr r) all ps s0 recv sends datas = Done s' -> final_spec d0 g own st tr tu r s' ->
  execute_finish_debug d0 g r (tr r) all ps s0 recv sends datas = Done s'.
Proof.
  intros Ls E ((_ & _ & _ & Hd) & _). unfold local_spec in Ls. destruct Ls as (P & Np & _ & _ & _ & _ & _ & _ & _ & _ & _ & Ps & _).
  unfold execute_finish_debug. assert (forallb (fun p => has p (s_proc s0) && is_leaf g (s_proc s0) p) ps = true) as ->.
  { apply forallb_forall. intros p Hp. assert (Mb p = true) as Mp by (rewrite <- Ps; apply mem_In; assumption). destruct (Mb_only p Mp) as (_ & B1 & B2 & B3).
    destruct (Mb_first g Hg own st Hgood tu Htu p Mp) as (_ & Ef & _). assert (has p (s_proc s0) = true) as Hp' by (rewrite has_some, P, B1; unfold own'; rewrite B1, B3, B2, Mp; exact Ef). rewrite Hp'. cbn [andb].
    apply Mb_iff in Mp as M. destruct (merged_ok g Hg own st Hgood p M) as (Vp & Lp & _). apply leaf_in; [assumption|assumption|]. intros k Vk Lk Ek. assert (Mk k = true) as Mk0 by (apply Mk_iff; split; [assumption|]; split; [assumption|]; rewrite Ek; assumption).
    destruct (Mk_only k Mk0) as (_ & C1 & _). rewrite has_some, P, C1. unfold own'. rewrite C1, Mk0. reflexivity. }
  cbn [negb]. rewrite E. cbn [bind]. match goal with |- (if ?b then _ else _) = _ => assert (b = true) as -> end; [|reflexivity].
  apply c62_data_checked; [exact Np|]. cbn [s_proc s_data]. intros c q F. rewrite P in F. destruct (Rb c) eqn:Ec.
  - destruct (Rb_only c Ec) as (Ex & _). assert (has c (s_data s') = false) as Hc. { apply not_true. rewrite Hd. unfold own'. rewrite Ec. discriminate. }
    destruct (q =? r); [|assumption]. intros Lf. exfalso. apply (Rb_iff g Hg own st tr Htr) in Ec as Rc. destruct (R_ok g own st Hgood c Rc) as (_ & Lc).
    assert (is_leaf g (s_proc s0) c = false) as Nl; [|unfold is_leaf in Nl; apply Z.eqb_neq in Nl; apply Nl; symmetry; exact Lf].
    apply not_leaf_in; [apply vld; assumption|assumption|]. intros k Vk Lk Ek. assert (Rk k = true) as Kk by (apply Rk_iff; split; [assumption|]; split; [assumption|]; rewrite Ek; assumption).
    destruct (Rk_only k Kk) as (_ & C1 & C2 & _). rewrite has_some, P, C1. unfold own'. rewrite C1, C2, Kk, Ek. exact Ex.
  - destruct (Z.eqb_spec q r) as [->|Nq]; [intros _; apply Hd; assumption|]. apply not_true. rewrite Hd. congruence.
Qed.
End Stages.
End Local.

Section Props.
Context {D : Type} (d0 : D) (g : grid) (Hg : grid_ok g).
Notation m := (g_map g).
Notation xreachable := (xreachable d0 g).

Lemma same_everywhere_ok (l : Z -> list Z) : (forall r, In r (ranks g) -> sort (l r) = sort (l 0)) -> same_everywhere g l = Some true.
Proof. unfold same_everywhere. induction (ranks g) as [|r rs IH]; intros E; [reflexivity|]. cbn [fold_right]. rewrite (E r) by (left; reflexivity). rewrite std_equal_refl. cbn [both]. apply IH. intros q Q. apply E. right. assumption. Qed.

(** the commit of a program compiled with DEBUG is the commit of other programs *)
Theorem c62_commit_checks_hold x (vs : Z -> views) : xreachable x ->
  (forall r, In r (ranks g) -> iterators g x default_neighborhood_id r = Done (vs r)) ->
  stop_refining_debug d0 g (x_hoods x) vs (x_st x) = stop_refining d0 g (x_st x).
Proof.
  intros Rx Hv. set (st := x_st x). pose proof (xreachable_reachable d0 g x Rx) as Rs. destruct (reachable_inv d0 g Hg st Rs) as (own & (Hgood & _)).
  pose proof (c62_processes_are_consistent d0 g Hg x Rx) as Cons. fold st in Cons.
  destruct (override_refines_ok g Hg own st Hgood) as (ov & Ex & Px).
  destruct (induce_refines_ok g Hg own st Hgood (fun r => snd (ov r))) as (tr & Et & Pt); [intros y c Iy; apply (Px y c Iy)|].
  destruct (override_unrefines_ok g Hg own st Hgood tr Pt) as (tu & Eu & Pu).
  pose proof (induce_refines_NoDup g st _ _ Et (override_refines_NoDup g st ov Ex)) as Nt.
  assert (forall r, In r (ranks g) -> tu r = tu 0) as Tu. { intros r Ir. unfold override_unrefines in Eu. apply bind_done in Eu. destruct Eu as (fin & _ & Eu). injection Eu as <-. reflexivity. }
  unfold stop_refining_debug, stop_refining. rewrite Ex. cbn [bind]. rewrite Cons. cbn [holds_now].
  assert (forallb (fun r => forallb (leaf_with_data g r (p_store (st r))) (snd (ov r))) (ranks g) = true) as ->.
  { apply forallb_forall. intros r Ir. apply forallb_forall. intros c Hc. apply (leaf_with_data_ok g Hg own st Hgood r Ir). apply (Px r c Ir) in Hc. apply (asked_ref g own st Hgood c), Hc. }
  cbn [andb negb]. rewrite Et. cbn [bind]. rewrite all_hold_ok by (intros r Ir; apply (refines_induced_ok g Hg own st Hgood r Ir tr Pt)). cbn [bind andb negb].
  rewrite Eu. cbn [bind]. rewrite all_hold_ok by (intros r Ir; apply all_hold_ok; intros c Hc; apply (unrefine_allowed_ok g Hg own st Hgood r Ir tr Pt), (Pu r c Ir), Hc). cbn [bind andb negb].
  destruct (execute_refines_ok d0 g Hg own st Hgood tr tu (fun r => fst (ov r)) Pt Nt Pu) as (res & Er & _).
  unfold execute_refines_debug. rewrite all_hold_ok.
  2: { intros r Ir. unfold st. rewrite (c62_boundary_verifies d0 g Hg x r Rx Ir), (c62_data_verifies d0 g Hg x r Rx Ir). reflexivity. }
  cbn [bind andb]. assert (In 0 (ranks g)) as I0 by (apply in_ranks; pose proof Hg as (_ & _ & _ & ?); lia).
  rewrite (same_everywhere_ok tr).
  2: { intros r Ir. apply sorted_eq; try apply sort_sorted; try (apply sort_NoDup, Nt). intros c. rewrite !sort_In, (Pt r c Ir), (Pt 0 c I0). reflexivity. }
  rewrite (same_everywhere_ok tu) by (intros r Ir; rewrite (Tu r Ir); reflexivity). cbn [holds_now andb negb].
  destruct (collect_ok (ranks g) (fun r => execute_local d0 g r (tr r) (tu r) (p_store (st r))) (fun r => (p_store (st r), [], [], [], [], []))
    (local_spec d0 g own st tr tu) (execute_local_ok d0 g Hg own st Hgood tr tu (fun r => fst (ov r)) Pt Nt Pu)) as (loc & E1 & P1).
  pose proof Er as Er'. unfold execute_refines, each in Er' |- *. rewrite E1 in Er' |- *. cbn [bind] in Er' |- *.
  rewrite (collect_same (ranks g) (fun r => execute_local d0 g r (tr r) (tu r) (p_store (st r)))), E1.
  2: { intros r Ir. destruct (P1 r Ir) as (El & Ls). rewrite El. apply (execute_local_guarded d0 g Hg own st Hgood tr tu Pt Nt Pu r Ir); assumption. }
  cbn [bind]. apply collect_same. intros r Ir. pose proof (collect_inv _ _ _ _ Er' r Ir) as Rr. cbn beta in Rr. rewrite Rr.
  apply bind_done in Rr. destruct Rr as (s' & Es & Rr). apply bind_done in Rr. destruct Rr as (k & Ek & Rr). injection Rr as Rr.
  destruct (execute_finish_ok d0 g Hg own st Hgood tr tu (fun r => fst (ov r)) Pt Pu loc r Ir (fun q Iq => proj2 (P1 q Iq))) as (s'' & Es' & Fs).
  assert (s'' = s') as -> by congruence. pose proof (proj2 (P1 r Ir)) as Ls. revert Es. destruct (loc r) as [[[[[s0 new] al] ps] send] recv] eqn:El. intros Es.
  rewrite (execute_finish_guarded d0 g Hg own st Hgood tr tu Pt Pu r s0 new al ps send recv _ _ s' Ls Es Fs). cbn [bind]. rewrite Ek. cbn [bind].
  assert (stop_refining d0 g st = Done res) as Sr. { unfold stop_refining. rewrite Ex. cbn [bind]. rewrite Et. cbn [bind]. rewrite Eu. cbn [bind]. exact Er. }
  assert (xreachable (XState (fun q => fst (res q)) (fresh_copies d0 (fun q => fst (res q))) (x_hoods x))) as Rx'.
  { apply (xreach_step d0 g x (Plain Stop)); [assumption|exact I|]. cbn [xrun run]. fold st. rewrite Sr. reflexivity. }
  pose proof (c62_neighbor_lists_verify d0 g Hg _ x r (vs r) Rx' Rx Ir (Hv r Ir)) as V. cbn [x_hoods x_st] in V. rewrite <- Rr in V. cbn [fst] in V. rewrite V. cbn [bind]. rewrite <- Rr. reflexivity.
Qed.
End Props.
Print Assumptions c62_commit_checks_hold.

(** ** Merging a family of two processes and splitting a cell *)
Definition views_of (x : xstate (D := Z)) (r : Z) : views :=
  match iterators g2 x default_neighborhood_id r with Done v => v | _ => Views [] [] 0 0 0 end.
Definition refuses (o : outcome bool) : bool := match o with Done b => negb b | _ => false end.
Definition throws {A} (o : outcome A) : bool := match o with Threw => true | _ => false end.
(** a merge and a split, in different commits *)
Example c62_commit_example : holds (xgo 0 g2 (mixed ++ [XDo (Plain (Unrefine 0 (nth 0 kids2 0)))])) (fun x =>
  holds (stop_refining_debug 0 g2 (x_hoods x) (views_of x) (x_st x)) (fun res =>
    eqo (owner (fun r => fst (res r)) 0 2) (Some 0) && eqo (find (nth 2 kids2 0) (s_unrefd (p_store (fst (res 0))))) (Some 6)))
  && holds (xgo 0 g2 (mixed ++ [XDo (Plain (Refine 0 1))])) (fun x =>
  holds (stop_refining_debug 0 g2 (x_hoods x) (views_of x) (x_st x)) (fun res => Nat.eqb (length (snd (res 0))) 8)) = true.
Proof. vm_compute. reflexivity. Qed.
(** the checks notice a refine that was not induced, a merge beside a cell to be split, different
    lists, lost data of a family and a cell to be split that does not exist *)
Example c62_commit_checks_notice : holds (xgo 0 g2 mixed) (fun x =>
  let s r := p_store (x_st x r) in let k := nth 0 kids2 0 in
  refuses (refines_induced g2 (s 0) [k]) && holds (refines_induced g2 (s 0) [k; 1]) (fun b => b) &&
  holds (unrefine_allowed g2 0 (s 0) [] k) (fun b => b) && refuses (unrefine_allowed g2 0 (s 0) [nth 1 kids2 0] k) && refuses (unrefine_allowed g2 0 (s 0) [] 2) &&
  negb (holds_now (same_everywhere g2 (fun r => if r =? 0 then [1] else [k]))) &&
  throws (execute_local_debug 0 g2 0 (p_cache (x_st x 0)) [2] [] (s 0)) &&
  throws (execute_local_debug 0 g2 1 (p_cache (x_st x 1)) [] [k] (Store (s_proc (s 1)) [] [] [] [] [] [])) &&
  holds (execute_local_debug 0 g2 1 (p_cache (x_st x 1)) [] [k] (s 1)) (fun _ => true) &&
  throws (execute_local_debug 0 g2 0 (Caches [] [] [] [] []) [1] [] (s 0))) = true.
Proof. vm_compute. reflexivity. Qed.
