(** Queries of the cells of the whole grid, and of the cells that load balancing is going to move. *)
From Coq Require Import Sorted Permutation.
From Verif Require Import U64 MapModel MapSpec MapProofs MapFamily MapProps HoodModel MeshModel
  MeshSpec MeshBase HoodProps MeshWalk MeshFind MeshKids MeshItem MeshCheck MeshTo MeshNear
  Sets RefineModel RefineGeo RefineInv RefineSpread RefineMerge RefineFold RefineExec RefineStop
  BalanceModel RefineReqs Create Balance History HistProps CommitProps BalProps LoadCells CommModel HistExamples.
Open Scope Z_scope.

Section Model.
Context {D : Type} (g : grid).
Notation m := (g_map g).
(** dccrg.hpp:3612-3644; std::sort of an empty vector does nothing *)
Definition get_all_cells (s : store D) (sorted : bool) : list Z :=
  let l := filter (fun c => get_child_ex (exb s) m c =? c) (keys (s_proc s)) in
  if sorted then sort l else l.
(** dccrg.hpp:5941-5957 *)
Definition get_process (s : store D) (c : Z) : Z :=
  match find c (s_proc s) with None => -1 | Some q => q end.
(** dccrg.hpp:3685-3708 *)
Definition get_cells_overlapping_local (rank : Z) (s : store D) (given : list Z) : list Z :=
  addall (filter (cell_overlaps_local g rank s) given) [].
(** dccrg.hpp:6441-6453 with 8629, 8662: the cells of cells_to_receive *)
Definition get_cells_added_by_balance_load (v : moving (D := D)) : list Z := map snd (v_recv v).
(** dccrg.hpp:6458-6470 with 8708, 8741: the cells of cells_to_send *)
Definition get_cells_removed_by_balance_load (v : moving (D := D)) : list Z := map snd (v_send v).
(** dccrg.hpp:6505-6517 *)
Definition get_cell_weights (s : store D) : list (Z * Z) := s_wt s.
End Model.

Section Props.
Context {D : Type} (d0 : D) (g : grid) (Hg : grid_ok g).
Notation m := (g_map g).
Notation np := (g_np g).
Notation reachable := (reachable d0 g).
Notation rank r := (In r (ranks g)).
Notation rank0 := (HistProps.rank0 g Hg).
Notation view := (HistProps.view g).
Notation viewx := (HistProps.viewx g).

Lemma filter_all {A} (f : A -> bool) l : (forall x, In x l -> f x = true) -> filter f l = l.
Proof.
  induction l as [|x l IH]; intros H; cbn [filter]; [reflexivity|]. rewrite (H x (or_introl eq_refl)), IH; [reflexivity|]. intros y Hy. apply H. right. assumption.
Qed.
Lemma strictly (l : list Z) : StronglySorted Z.le l -> NoDup l -> forall i j a b, (i < j)%nat -> nth_error l i = Some a -> nth_error l j = Some b -> a < b.
Proof.
  induction l as [|x l IH]; intros S N i j a b Hij E1 E2; [destruct i; discriminate|]. apply StronglySorted_inv in S. destruct S as [S F]. rewrite Forall_forall in F. apply NoDup_cons_iff in N. destruct N as [N1 N2].
  destruct j as [|j]; [lia|]. cbn [nth_error] in E2. destruct i as [|i]; cbn [nth_error] in E1.
  - injection E1 as <-. apply nth_error_In in E2. pose proof (F b E2). destruct (Z.eq_dec x b) as [->|]; [contradiction|lia].
  - apply (IH S N2 i j a b); [lia|assumption..].
Qed.
Lemma all_cells_keys own (st : Z -> proc D) r : inv g own st -> rank r -> get_all_cells g (p_store (st r)) false = keys (s_proc (p_store (st r))).
Proof.
  intros Hi Ir. pose proof Hi as [((Ms & _) & Hs) _]. destruct (Hs r Ir) as (So & _). unfold get_all_cells.
  apply filter_all. intros c Hc. apply Z.eqb_eq.
  pose proof (store_mesh g own r _ (proj1 (proj1 Hi)) So) as (_ & _ & T & _). apply (get_child_ex_leaf m (proj1 Hg) _ T).
  unfold exb. apply keys_find in Hc. apply has_find. assumption.
Qed.

(** every process lists every cell of the whole grid once; sorted, the lists are identical *)
Theorem c71_all_cells st r : reachable st -> rank r ->
  NoDup (get_all_cells g (p_store (st r)) false) /\
  (forall c, In c (get_all_cells g (p_store (st r)) false) <-> exists q, rank q /\ has c (s_data (p_store (st q))) = true) /\
  Permutation (get_all_cells g (p_store (st r)) false) (flat_map (fun q => keys (s_data (p_store (st q)))) (ranks g)) /\
  Permutation (get_all_cells g (p_store (st r)) true) (get_all_cells g (p_store (st r)) false) /\
  (forall i j a b, (i < j)%nat -> nth_error (get_all_cells g (p_store (st r)) true) i = Some a ->
     nth_error (get_all_cells g (p_store (st r)) true) j = Some b -> a < b) /\
  forall q, rank q -> get_all_cells g (p_store (st q)) true = get_all_cells g (p_store (st r)) true.
Proof.
  intros R Ir. destruct (reachable_inv d0 g Hg st R) as (own & Hi). pose proof Hi as [((Ms & Hr) & Hs) _].
  assert (forall q, rank q -> NoDup (get_all_cells g (p_store (st q)) false)) as N.
  { intros q Iq. rewrite (all_cells_keys own st q Hi Iq). apply (proj1 (proj2 (proj1 (Hs q Iq)))). }
  assert (forall q c, rank q -> In c (get_all_cells g (p_store (st q)) false) <-> exo own c = true) as I.
  { intros q c Iq. rewrite (all_cells_keys own st q Hi Iq), keys_find. destruct (Hs q Iq) as ((F & _) & _). rewrite F. unfold exo. destruct (own c); split; [reflexivity|eauto|intros (v & ?); discriminate|discriminate]. }
  assert (forall q c, rank q -> has c (s_data (p_store (st q))) = true <-> own c = Some q) as Hd by (intros q c Iq; apply (proj2 (proj2 (proj2 (proj1 (Hs q Iq)))))).
  assert (forall c, In c (get_all_cells g (p_store (st r)) false) <-> exists q, rank q /\ has c (s_data (p_store (st q))) = true) as K.
  { intros c. rewrite (I r c Ir). split.
    - unfold exo. destruct (own c) as [q|] eqn:O; [|discriminate]. intros _. pose proof (Hr c q O) as Iq. exists q. split; [assumption|]. apply Hd; assumption.
    - intros (q & Iq & Hq). apply Hd in Hq; [|assumption]. unfold exo. rewrite Hq. reflexivity. }
  split; [apply N; assumption|]. split; [exact K|].
  assert (forall q, rank q -> get_all_cells g (p_store (st q)) true = sort (get_all_cells g (p_store (st q)) false)) as So by reflexivity.
  split; [|split; [|split]].
  - apply NoDup_Permutation; [apply N; assumption| |].
    + assert (flat_map (fun q => keys (s_data (p_store (st q)))) (ranks g) = keys (flat_map (fun q => s_data (p_store (st q))) (ranks g))) as ->.
      { generalize (ranks g). induction l as [|q l IH]; cbn [flat_map]; [reflexivity|]. unfold keys in *. rewrite map_app, IH. reflexivity. }
      apply flat_NoDup; [apply ranks_NoDup|intros q Iq; apply (proj1 (proj2 (proj2 (proj1 (Hs q Iq)))))|]. intros q q' k Iq Iq' H1 H2. apply keys_find, has_find, Hd in H1; [|assumption]. apply keys_find, has_find, Hd in H2; [|assumption]. congruence.
    + intros c. rewrite K, in_flat_map. split; intros (q & Iq & Hq); exists q; (split; [assumption|]); apply keys_find, has_find || (apply has_find, keys_find); assumption.
  - rewrite So by assumption. apply NoDup_Permutation; [apply sort_NoDup; auto|auto|]. intros c. apply sort_In.
  - rewrite So by assumption. apply strictly; [apply sort_sorted|apply sort_NoDup; auto].
  - intros q Iq. rewrite !So by assumption. apply sorted_eq; try apply sort_sorted; try (apply sort_NoDup; auto). intros c. rewrite !sort_In, !I by assumption. reflexivity.
Qed.

(** get_process is the one process that has the cell, the same on all processes, and -1 if no
    process has it *)
Theorem c71_process st r c : reachable st -> rank r ->
  (forall q, rank q -> get_process (p_store (st r)) c = q <-> has c (s_data (p_store (st q))) = true) /\
  (get_process (p_store (st r)) c = -1 <-> forall q, rank q -> has c (s_data (p_store (st q))) = false) /\
  (get_process (p_store (st r)) c = -1 \/ rank (get_process (p_store (st r)) c)) /\
  (is_local r (p_store (st r)) c = true <-> get_process (p_store (st r)) c = r) /\
  (In c (get_all_cells g (p_store (st r)) false) <-> get_process (p_store (st r)) c <> -1).
Proof.
  intros R Ir. destruct (reachable_inv d0 g Hg st R) as (own & Hi). pose proof Hi as [((Ms & Hr) & Hs) _].
  assert (forall q, rank q -> has c (s_data (p_store (st q))) = true <-> own c = Some q) as Hd by (intros q Iq; apply (proj2 (proj2 (proj2 (proj1 (Hs q Iq)))))).
  assert (find c (s_proc (p_store (st r))) = own c) as F by (destruct (Hs r Ir) as ((F & _) & _); apply F).
  destruct (c71_all_cells st r R Ir) as (_ & K & _). rewrite K. unfold get_process, is_local. rewrite F. destruct (own c) as [o|] eqn:O.
  - pose proof (Hr c o O) as Io. assert (0 <= o) by (apply in_ranks in Io; lia). split; [intros q Iq; rewrite (Hd q Iq); split; congruence|]. split; [|split; [auto|split]].
    + split; [lia|]. intros Q. pose proof (Q o Io) as Q'. rewrite (proj2 (Hd o Io) eq_refl) in Q'. discriminate.
    + apply Z.eqb_eq.
    + split; [lia|]. intros _. exists o. split; [assumption|]. apply Hd; auto.
  - split; [|split; [|split; [auto|split]]].
    + intros q Iq. rewrite (Hd q Iq). apply in_ranks in Iq. split; [lia|discriminate].
    + split; [|reflexivity]. intros _ q Iq. apply not_true_iff_false. rewrite (Hd q Iq). discriminate.
    + apply in_ranks in Ir. split; [discriminate|lia].
    + split; [|congruence]. intros (q & Iq & Hq). apply Hd in Hq; [discriminate|assumption].
Qed.

(** ** Cells overlapping local cells *)
(** c and some local cell of rank r have a smallest possible cell in common *)
Definition overlaps_local (st : Z -> proc D) (r c : Z) : Prop :=
  exists x i, has x (s_data (p_store (st r))) = true /\ covers m x i /\ covers m c i.
(** the level 0 cell of a cell *)
Lemma l0_of c : valid m c -> valid m (get_level_0_parent m c) /\ lvl_of m (get_level_0_parent m c) = 0 /\ forall i, covers m c i -> covers m (get_level_0_parent m c) i.
Proof. intros Vc. pose proof (c04_level_0_parent m c (proj1 Hg) Vc) as (_ & _ & Q). cbn zeta in Q. apply (proj2 (Q _)). reflexivity. Qed.
Lemma valid_u64 c : valid m c -> is_u64 c.
Proof. intros V. destruct Hg as ((_ & _ & _ & _ & B & L) & _). unfold valid in V. unfold is_u64. lia. Qed.
Lemma l0_valid c : is_u64 c -> valid m (get_level_0_parent m c) -> valid m c.
Proof.
  intros U V. destruct (Z_le_dec 1 c) as [H1|H1]; [destruct (Z_le_dec c (m_last m)) as [H2|H2]|]; [unfold valid; lia|exfalso|exfalso].
  all: pose proof (c05_invalid_ids_are_errors m c (proj1 Hg) U ltac:(unfold valid; lia)) as (_ & _ & _ & _ & _ & E & _); rewrite E in V; unfold valid, error_cell in V; lia.
Qed.

(** true only if the given cell overlaps a local cell, which then is the level 0 cell there *)
Theorem c71_overlap_is_real st r c : reachable st -> rank r -> is_u64 c -> cell_overlaps_local g r (p_store (st r)) c = true ->
  overlaps_local st r c /\ exists p, lvl_of m p = 0 /\ has p (s_data (p_store (st r))) = true /\ forall i, covers m c i -> covers m p i.
Proof.
  intros R Ir U E. destruct (reachable_inv d0 g Hg st R) as (own & Hi). pose proof Hi as [((Ms & Hr) & Hs) _]. destruct (Hs r Ir) as (So & _). pose proof So as (F & _ & _ & Hd).
  unfold cell_overlaps_local in E. rewrite F in E. destruct (own (get_level_0_parent m c)) as [o|] eqn:O; [|discriminate]. apply Z.eqb_eq in E. subst o.
  assert (valid m (get_level_0_parent m c)) as Vp by (apply (RefineSpread.own_valid g own st (proj1 Hi)); unfold exo; rewrite O; reflexivity).
  pose proof (l0_valid c U Vp) as Vc. destruct (l0_of c Vc) as (_ & L & C). split.
  - exists (get_level_0_parent m c), (idx_of m c). pose proof (covers_own m (proj1 Hg) c Vc) as Co. split; [apply Hd; assumption|]. split; [apply C|]; assumption.
  - exists (get_level_0_parent m c). split; [assumption|]. split; [apply Hd; assumption|exact C].
Qed.
(** the documented behaviour holds where the grid is not refined *)
Theorem c71_overlap_partial st r c : reachable st -> rank r -> valid m c ->
  (exists p, lvl_of m p = 0 /\ exists_on st r p = true /\ forall i, covers m c i -> covers m p i) ->
  cell_overlaps_local g r (p_store (st r)) c = true <-> overlaps_local st r c.
Proof.
  intros R Ir Vc (p & Lp & Ep & Cp). split; [intros E; apply (c71_overlap_is_real st r c R Ir (valid_u64 c Vc) E)|].
  destruct (reachable_inv d0 g Hg st R) as (own & Hi). pose proof Hi as [((Ms & Hr) & Hs) _]. destruct (Hs r Ir) as (So & _). pose proof So as (F & _ & _ & Hd). rewrite (viewx own st r p Hi Ir) in Ep.
  intros (x & i & Hx & Cx & Cc). apply Hd in Hx. pose proof (RefineExec.tile g own st (proj1 Hi)) as T.
  assert (exo own x = true) as Ex by (unfold exo; rewrite Hx; reflexivity).
  assert (x = p) as -> by (apply (leaf_unique m (proj1 Hg) _ T x p i); auto).
  assert (p = get_level_0_parent m c) as ->.
  { apply (c04_level_0_parent m c (proj1 Hg) Vc). split; [|split; assumption]. apply (RefineSpread.own_valid g own st (proj1 Hi) p Ex). }
  unfold cell_overlaps_local. rewrite F, Hx. apply Z.eqb_refl.
Qed.
Theorem c71_overlap_of_invalid_cells st r c : reachable st -> rank r -> is_u64 c -> ~ valid m c -> cell_overlaps_local g r (p_store (st r)) c = false.
Proof.
  intros R Ir U N. apply not_true_iff_false. intros E. apply N, (l0_valid c U). destruct (reachable_inv d0 g Hg st R) as (own & Hi). pose proof Hi as [(_ & Hs) _]. destruct (Hs r Ir) as ((F & _) & _).
  unfold cell_overlaps_local in E. rewrite F in E. apply (RefineSpread.own_valid g own st (proj1 Hi)). unfold exo. destruct (own (get_level_0_parent m c)); [reflexivity|discriminate].
Qed.
Theorem c71_overlapping_cells st r given c : reachable st -> rank r ->
  In c (get_cells_overlapping_local g r (p_store (st r)) given) <-> In c given /\ cell_overlaps_local g r (p_store (st r)) c = true.
Proof. intros _ _. unfold get_cells_overlapping_local. rewrite addall_In, filter_In. cbn [In]. tauto. Qed.

(** ** Weights *)
(** the weights that have been set, of local cells only *)
Theorem c71_weights one st r c w : reachable st -> rank r ->
  NoDup (keys (get_cell_weights (p_store (st r)))) /\
  (In (c, w) (get_cell_weights (p_store (st r))) -> has c (s_data (p_store (st r))) = true /\ get_cell_weight g one r (p_store (st r)) c = Some w) /\
  (get_cell_weight g one r (p_store (st r)) c = Some w -> w <> one -> In (c, w) (get_cell_weights (p_store (st r)))).
Proof.
  intros R Ir. destruct (reachable_inv d0 g Hg st R) as (own & Hi). pose proof Hi as [(_ & Hs) [_ P]]. destruct (P r Ir) as (_ & _ & P3 & _ & _ & N). cbn zeta in *. pose proof (inv_leaf g Hg own st r c Hi Ir) as L. unfold get_cell_weights.
  split; [assumption|]. split.
  - intros I. apply (In_find) in I; [|assumption]. pose proof (P3 c w I) as O. split; [apply (proj2 (proj2 (proj2 (proj1 (Hs r Ir))))); assumption|]. unfold get_cell_weight. apply L in O. rewrite O. cbn [negb]. rewrite I. reflexivity.
  - unfold get_cell_weight. destruct (local_leaf g r (p_store (st r)) c); cbn [negb]; [|discriminate]. destruct (find c (s_wt (p_store (st r)))) as [v|] eqn:F; [|congruence]. intros [= ->] _. apply find_In. assumption.
Qed.

(** ** Cells about to be moved *)
(** between initialize_balance_load and finish_balance_load the announced cells are those whose
    owner changes; data of arriving and leaving cells can be accessed on both processes *)
Theorem c71_announced_moves st z dest mv k mv' st' r : reachable st -> answers_ok g (owner st 0) z dest ->
  initialize_balance_load d0 g st z = Done mv -> continues g k mv = Done mv' -> finish_balance_load g mv' = Done st' -> rank r ->
  NoDup (get_cells_added_by_balance_load (mv' r)) /\ NoDup (get_cells_removed_by_balance_load (mv' r)) /\
  (forall c, In c (get_cells_added_by_balance_load (mv' r)) <-> get_process (p_store (st r)) c <> -1 /\ get_process (p_store (st r)) c <> r /\ get_process (p_store (st' r)) c = r) /\
  (forall c, In c (get_cells_removed_by_balance_load (mv' r)) <-> get_process (p_store (st r)) c = r /\ get_process (p_store (st' r)) c <> r) /\
  (forall c, has c (s_data (v_store (mv' r))) = true <-> get_process (p_store (st r)) c = r \/ get_process (p_store (st r)) c <> -1 /\ get_process (p_store (st' r)) c = r).
Proof.
  intros R Hz E1 E2 E3 Ir.
  assert (balance_load d0 g k st z = Done st') as E by (unfold balance_load; rewrite E1; cbn [bind]; rewrite E2; cbn [bind]; assumption).
  destruct (balance_view d0 g Hg st k z dest st' R Hz E) as (own & Hi & Hi' & B). pose proof rank0 as I0.
  assert (answers_ok g own z dest) as Hz' by (apply (answers_ext g (owner st 0)); [intros x; apply (view own st 0 x Hi I0)|assumption]).
  destruct (init_balance_ok d0 g Hg own st (proj1 Hi) (proj2 Hi) z dest Hz') as (mv0 & Em & Pm). assert (mv0 = mv) as -> by congruence.
  destruct (continues_ok d0 g own st (proj1 Hi) dest k false mv Pm) as (mv1 & Em1 & Pm1). assert (mv1 = mv') as -> by congruence.
  destruct (Pm1 r Ir) as ((Nr & Pr) & (Ns & Ps) & _ & _ & _ & _ & _ & _ & _ & Hd). unfold get_cells_added_by_balance_load, get_cells_removed_by_balance_load. split; [assumption|]. split; [assumption|].
  pose proof Hi as [((_ & Hr) & _) _]. pose proof Hi' as [((_ & Hr') & _) _].
  assert (forall c, get_process (p_store (st r)) c = match own c with Some q => q | None => -1 end) as G.
  { intros c. unfold get_process. change (find c (s_proc (p_store (st r)))) with (owner st r c). rewrite (view own st r c Hi Ir). reflexivity. }
  assert (forall c, get_process (p_store (st' r)) c = match target g own st dest c with Some q => q | None => -1 end) as G'.
  { intros c. unfold get_process. change (find c (s_proc (p_store (st' r)))) with (owner st' r c). rewrite (view _ st' r c Hi' Ir). reflexivity. }
  assert (forall c, own c = None -> target g own st dest c = None) as Tn by (intros c O; unfold target; rewrite O; reflexivity).
  assert (forall c q, own c = Some q -> exists q', target g own st dest c = Some q') as Ts.
  { intros c q O. pose proof (target_exo g own st dest c) as T. unfold exo in T. rewrite O in T. destruct (target g own st dest c); [eauto|discriminate]. }
  pose proof (proj1 (in_ranks g r) Ir) as Rr. split; [|split].
  - intros c. rewrite G, G', in_map_iff. split.
    + intros ([q c1] & Ec & Q). cbn [snd] in Ec. subst c1. apply Pr in Q. destruct Q as (O & N & T). rewrite O, T. pose proof (proj1 (in_ranks g q) (Hr c q O)). split; [lia|auto].
    + destruct (own c) as [q|] eqn:O; [|intros (? & _); congruence]. intros (_ & N & T). destruct (Ts c q O) as (q' & T'). rewrite T' in T. subst q'. exists (q, c). split; [reflexivity|]. apply Pr. auto.
  - intros c. rewrite G, G', in_map_iff. split.
    + intros ([q c1] & Ec & Q). cbn [snd] in Ec. subst c1. apply Ps in Q. destruct Q as (O & N & T). rewrite O, T. auto.
    + destruct (own c) as [q|] eqn:O; [|intros (? & _); lia]. intros (-> & N). destruct (Ts c r O) as (q' & T'). rewrite T' in N. exists (q', c). split; [reflexivity|]. apply Ps. auto.
  - intros c. rewrite G, G'. unfold has. rewrite Hd. destruct (own c) as [q|] eqn:O; [|split; [discriminate|lia]]. pose proof (proj1 (in_ranks g q) (Hr c q O)) as Rq. destruct (Z.eqb_spec q r) as [->|N].
    + destruct (data_some g own st (proj1 Hi) r c O) as (v & ->). tauto.
    + destruct (Ts c q O) as (q' & ->). destruct (Z.eqb_spec q' r) as [->|N'].
      * destruct (data_some g own st (proj1 Hi) q c O) as (v & ->). destruct (false || _); split; try reflexivity; intros _; right; split; (lia || reflexivity).
      * split; [discriminate|]. intros [Q|[_ Q]]; congruence.
Qed.
End Props.

(** ** Examples and a counterexample *)
(** the 2 x 1 x 1 grid of HistExamples with cell 1 refined, some of its children on process 1 and cell 2 on process 0 *)
Example c71_example : holds (go 0 g2 h3) (fun st =>
  forallb (fun r => let l := get_all_cells g2 (p_store (st r)) true in same l (2 :: kids1) && Nat.eqb (length l) 9 && (nth 0 l 0 =? 2)) [0; 1] &&
  (get_process (p_store (st 0)) kid1 =? 1) && (get_process (p_store (st 1)) 2 =? 0) && (get_process (p_store (st 1)) 1 =? -1) &&
  holds (initialize_balance_load 0 g2 st (plan st [(kid1, 0); (2, 1)])) (fun mv =>
    same (get_cells_added_by_balance_load (mv 0)) [kid1] && same (get_cells_removed_by_balance_load (mv 0)) [2] &&
    same (get_cells_added_by_balance_load (mv 1)) [2] && same (get_cells_removed_by_balance_load (mv 1)) [kid1] &&
    has kid1 (s_data (v_store (mv 0))) && has kid1 (s_data (v_store (mv 1))))) = true.
Proof. vm_compute. reflexivity. Qed.
(** cells overlapping local cells before refinement *)
Example c71_overlap_example : holds (initialize 0 g2) (fun st =>
  forallb (fun r => forallb (fun c => Bool.eqb (cell_overlaps_local g2 r (p_store (st r)) c) (r =? 0)) (1 :: kids1 ++ kids11) && negb (cell_overlaps_local g2 r (p_store (st r)) 0)) [0; 1] &&
  same (get_cells_overlapping_local g2 0 (p_store (st 0)) (2 :: kids1)) kids1) = true.
Proof. vm_compute. reflexivity. Qed.
(** after a commit a local cell is reported as not overlapping a local cell: it is not of level 0 *)
Theorem c71_overlap_refuted : exists (g : grid) (st : Z -> proc Z) (c : Z), grid_ok g /\ reachable 0 g st /\ valid (g_map g) c /\
  has c (s_data (p_store (st 0))) = true /\ overlaps_local g st 0 c /\ cell_overlaps_local g 0 (p_store (st 0)) c = false.
Proof.
  assert (holds (go 0 g2 (map Do [Refine 0 1; Stop])) (fun st => has kid1 (s_data (p_store (st 0))) && negb (cell_overlaps_local g2 0 (p_store (st 0)) kid1)) = true) as Q by (vm_compute; reflexivity).
  apply holds_ex in Q. destruct Q as (st & E & Q). apply andb_true_iff in Q. destruct Q as [H Q]. apply negb_true_iff in Q. exists g2, st, kid1.
  assert (valid (g_map g2) kid1) as V by (unfold valid; vm_compute; split; discriminate). split; [apply g2_ok|]. split; [apply (go_reachable _ _ _ _ E)|]. split; [exact V|]. split; [exact H|]. split; [|exact Q].
  exists kid1, (idx_of (g_map g2) kid1). pose proof (covers_own (g_map g2) (proj1 g2_ok) kid1 V). auto.
Qed.
Print Assumptions c71_all_cells.
Print Assumptions c71_announced_moves.
Print Assumptions c71_overlap_refuted.
