(** C68: cases and counterexample *)
From Verif Require Import U64 MapModel MapSpec MapProofs MapFamily MapProps HoodModel MeshModel
  MeshSpec MeshBase HoodProps MeshWalk MeshFind MeshKids MeshItem MeshCheck MeshTo MeshNear
  Sets RefineModel RefineGeo RefineInv RefineSpread RefineMerge RefineFold RefineExec RefineStop
  BalanceModel RefineReqs Create Balance History HistProps CommitProps BalProps LoadCells HistExamples Adapt.
From Coq Require Import Permutation.
Open Scope Z_scope.

Definition freshb {D} (g : grid) (st : Z -> proc D) : bool := forallb (fun r =>
  match r_ref (p_req (st r)), r_unref (p_req (st r)), r_nounref (p_req (st r)) with [], [], [] => true | _, _, _ => false end) (ranks g).
Lemma freshb_ok {D} g (st : Z -> proc D) : freshb g st = true -> fresh g st.
Proof.
  unfold freshb. rewrite forallb_forall. intros A q Iq. specialize (A q Iq). destruct (r_ref _); [|discriminate]. destruct (r_unref _); [|discriminate]. destruct (r_nounref _); [auto|discriminate].
Qed.

(** ** The order of requests matters once something is protected from refinement *)
(** cell 1 is refined, its children are a family of process 0 *)
Definition family : list (@step Z) := map Do [Refine 0 1; Stop].
Definition fam (i : nat) : Z := nth i (get_all_children (g_map g2) 1) 0.
Definition order1 : list (@call Z) := [Unrefine 0 (fam 1); Refine 0 (fam 0); DontRefine 0 (fam 0)].
Definition order2 : list (@call Z) := [DontRefine 0 (fam 0); Refine 0 (fam 0); Unrefine 0 (fam 1)].
Lemma order_cases : holds (go 0 g2 family) (fun st => freshb g2 st &&
  holds (foldM (do_step 0 g2) (map Do order1) st) (fun s1 => holds (stop_refining 0 g2 s1) (fun res => negb (exists_on (state_of res) 0 1) && exists_on (state_of res) 0 (fam 0))) &&
  holds (foldM (do_step 0 g2) (map Do order2) st) (fun s2 => holds (stop_refining 0 g2 s2) (fun res => exists_on (state_of res) 0 1 && negb (exists_on (state_of res) 0 (fam 0))))) = true.
Proof. vm_compute. reflexivity. Qed.

(** the same calls in another order leave other cells: "the outcome of a commit follows from the set of
    requests" is false in general *)
Theorem c68_order_with_protection_refuted : exists g (st : Z -> proc Z) l l' st1 st1' res res' c,
  grid_ok g /\ reachable 0 g st /\ fresh g st /\ runs 0 g st l st1 /\ all_quiet l /\ runs 0 g st l' st1' /\ all_quiet l' /\ Permutation l l' /\
  stop_refining 0 g st1 = Done res /\ stop_refining 0 g st1' = Done res' /\
  exists_on (state_of res) 0 c = false /\ exists_on (state_of res') 0 c = true.
Proof.
  destruct (holds_ex _ _ order_cases) as (st & E & K). apply andb_true_iff in K. destruct K as [K K3]. apply andb_true_iff in K. destruct K as [K1 K2].
  apply holds_ex in K2. destruct K2 as (s1 & E1 & K2). apply holds_ex in K2. destruct K2 as (r1 & F1 & K2). apply andb_true_iff in K2. destruct K2 as [K2 _]. apply negb_true_iff in K2.
  apply holds_ex in K3. destruct K3 as (s2 & E2 & K3). apply holds_ex in K3. destruct K3 as (r2 & F2 & K3). apply andb_true_iff in K3. destruct K3 as [K3 _].
  destruct (steps_runs 0 g2 order1 st s1 E1 eq_refl) as [R1 Q1]. destruct (steps_runs 0 g2 order2 st s2 E2 eq_refl) as [R2 Q2].
  exists g2, st, order1, order2, s1, s2, r1, r2, 1. split; [exact g2_ok|]. split; [apply (go_reachable 0 g2 family); assumption|]. split; [apply freshb_ok; assumption|]. split; [assumption|]. split; [assumption|]. split; [assumption|]. split; [assumption|]. split; [|auto].
  unfold order1, order2. apply (Permutation_rev [Unrefine 0 (fam 1); Refine 0 (fam 0); DontRefine 0 (fam 0)]).
Qed.

(** ** Two processes and one, requests in another order *)
(** children of 1 on process 0 (one child moved to 1), cell 2 on process 1; against everything on one process *)
Definition two : list (@step Z) := family ++ [Move [(fam 3, 1)]].
Definition ask2 : list (@call Z) := [Unrefine 1 (fam 3); Refine 1 2; DontUnrefine 1 2].
Definition ask1 : list (@call Z) := [DontUnrefine 0 2; Refine 0 2; Write 0 2 5; Unrefine 0 (fam 3)].
Definition ask2' : list (@call Z) := [Unrefine 1 (fam 3); Refine 0 (fam 0)].
Definition ask1' : list (@call Z) := [Refine 0 (fam 0); Unrefine 0 (fam 3)].
Definition one : grid := on_procs g2 1.
Example one_ok : grid_ok one. Proof. apply grid_okb; vm_compute; reflexivity. Qed.
Definition outcome_of (g : grid) (h : list (@step Z)) (l : list (@call Z)) (t : (Z -> proc Z) -> bool) : bool :=
  holds (go 0 g h) (fun st => freshb g st && holds (foldM (do_step 0 g) (map Do l) st) (fun s1 => holds (stop_refining 0 g s1) (fun res => t (state_of res)))).
(** cell 2 is refined and the family of 1 is merged *)
Definition merged_and_split (s : Z -> proc Z) : bool := exists_on s 0 1 && negb (exists_on s 0 (fam 3)) && negb (exists_on s 0 2) && exists_on s 0 (nth 7 (get_all_children (g_map g2) 2) 0).
(** the request for the first child wins, and makes cell 2 split too *)
Definition stayed (s : Z -> proc Z) : bool := negb (exists_on s 0 1) && exists_on s 0 (fam 3) && negb (exists_on s 0 (fam 0)) && negb (exists_on s 0 2).
Example c68_example : outcome_of g2 two ask2 merged_and_split && outcome_of one family ask1 merged_and_split &&
  outcome_of g2 two ask2' stayed && outcome_of one family ask1' stayed = true.
Proof. vm_compute. reflexivity. Qed.

(** hypotheses of c68_same_requests_same_cells *)
Lemma exists_keys {D} (st : Z -> proc D) r c : exists_on st r c = mem c (keys (s_proc (p_store (st r)))).
Proof.
  unfold exists_on, owner. destruct (find c (s_proc (p_store (st r)))) eqn:F.
  - symmetry. apply mem_In. apply find_In in F. apply in_map_iff. exists (c, z). auto.
  - symmetry. apply mem_not. intros Q. apply keys_find in Q. destruct Q as (a & Q). congruence.
Qed.
Lemma same_cells {D} (st st' : Z -> proc D) : same (keys (s_proc (p_store (st 0)))) (keys (s_proc (p_store (st' 0)))) = true -> forall c, exists_on st 0 c = exists_on st' 0 c.
Proof.
  unfold same. rewrite !andb_true_iff, !forallb_forall. intros [[A B] _] c. rewrite !exists_keys. apply Bool.eq_iff_eq_true. rewrite !mem_In. split; intros Q; apply mem_In; auto.
Qed.
Definition nowhole {D} (g : grid) (st : Z -> proc D) : bool := forallb (fun r => match r_noref (p_req (st r)) with [] => true | _ => false end) (ranks g).
Lemma eqo_same a b : eqo a b = true -> a = b.
Proof. destruct a as [a|], b as [b|]; cbn [eqo]; try discriminate; [intros Q; apply Z.eqb_eq in Q; congruence|reflexivity]. Qed.
Lemma whole_none (g : grid) (s : Z -> proc Z) c : nowhole g s = true -> ~ dont_refine_set g s c.
Proof.
  intros Nw (q & Iq & Hc). unfold nowhole in Nw. rewrite forallb_forall in Nw. specialize (Nw q Iq). destruct (r_noref (p_req (s q))); [destruct Hc|discriminate].
Qed.
Lemma same_asked (st st' : Z -> proc Z) f : owner st 0 2 = Some 1 -> owner st 0 f = Some 1 -> owner st' 0 2 = Some 0 -> owner st' 0 f = Some 0 -> nowhole g2 st = true -> nowhole one st' = true ->
  same_requests (requested g2 st [Unrefine 1 f; Refine 1 2; DontUnrefine 1 2]) (requested one st' [DontUnrefine 0 2; Refine 0 2; Write 0 2 5; Unrefine 0 f]).
Proof.
  intros O1 O2 O3 O4 W1 W2. assert (lvl_of (g_map g2) 2 = 0) as L2 by (vm_compute; reflexivity). assert (m_max (g_map g2) = 2) as Lm by (vm_compute; reflexivity).
  intros c. unfold requested, one, on_procs. cbn [q_split q_whole q_merge q_hold g_map]. rewrite Lm. fold (on_procs g2 1). fold one. split; [|split; [|split]].
  - split; intros (r & Q & O & L); [exists 0|exists 1]; (cbn [In] in Q; repeat destruct Q as [Q|Q]; try discriminate; try contradiction); injection Q as <- <-; (split; [cbn [In]; auto|auto]).
  - split; intros [Q|((r & Q) & _)].
    + destruct (whole_none g2 st c W1 Q).
    + exfalso. cbn [In] in Q. repeat destruct Q as [Q|Q]; try discriminate; contradiction.
    + destruct (whole_none one st' c W2 Q).
    + exfalso. cbn [In] in Q. repeat destruct Q as [Q|Q]; try discriminate; contradiction.
  - split; intros (r & Q & O); [exists 0|exists 1]; (cbn [In] in Q; repeat destruct Q as [Q|Q]; try discriminate; try contradiction); injection Q as <- <-; (split; [cbn [In]; auto|auto]).
  - split; intros [(r & Q)|(r & Q & O & L)]; (cbn [In] in Q; repeat destruct Q as [Q|Q]; try discriminate; try contradiction); injection Q as <- <-; try (exfalso; lia); left; [exists 0|exists 1]; cbn [In]; auto.
Qed.
Lemma asked_parts (st : Z -> proc Z) f : owner st 0 2 = Some 1 -> owner st 0 f = Some 1 -> nowhole g2 st = true ->
  let q := requested g2 st [Unrefine 1 f; Refine 1 2; DontUnrefine 1 2] in (forall c, ~ q_whole q c) /\ q_split q 2 /\ q_merge q f.
Proof.
  intros O1 O2 W1. cbv zeta. cbn [requested q_whole q_split q_merge]. split; [|split].
  - intros c [Q|((r & Q) & _)]; [destruct (whole_none g2 st c W1 Q)|]. cbn [In] in Q. repeat destruct Q as [Q|Q]; try discriminate; contradiction.
  - exists 1. split; [cbn [In]; auto|]. split; [assumption|]. vm_compute. reflexivity.
  - exists 1. split; [cbn [In]; auto|assumption].
Qed.
Example c68_hypotheses : exists st l st1 res st' l' st1' res',
  reachable 0 g2 st /\ fresh g2 st /\ runs 0 g2 st l st1 /\ all_quiet l /\ stop_refining 0 g2 st1 = Done res /\
  reachable 0 (on_procs g2 1) st' /\ fresh (on_procs g2 1) st' /\ runs 0 (on_procs g2 1) st' l' st1' /\ all_quiet l' /\ stop_refining 0 (on_procs g2 1) st1' = Done res' /\
  (forall c, exists_on st 0 c = exists_on st' 0 c) /\ same_requests (requested g2 st l) (requested (on_procs g2 1) st' l') /\
  (forall c, ~ q_whole (requested g2 st l) c) /\ q_split (requested g2 st l) 2 /\ q_merge (requested g2 st l) (fam 3) /\ owner st 0 2 <> owner st' 0 2.
Proof.
  assert (holds (go 0 g2 two) (fun st => holds (go 0 one family) (fun st' => freshb g2 st && freshb one st' && nowhole g2 st && nowhole one st' &&
    same (keys (s_proc (p_store (st 0)))) (keys (s_proc (p_store (st' 0)))) &&
    eqo (owner st 0 2) (Some 1) && eqo (owner st 0 (fam 3)) (Some 1) && eqo (owner st' 0 2) (Some 0) && eqo (owner st' 0 (fam 3)) (Some 0) &&
    holds (foldM (do_step 0 g2) (map Do ask2) st) (fun s1 => holds (stop_refining 0 g2 s1) (fun _ => true)) &&
    holds (foldM (do_step 0 one) (map Do ask1) st') (fun s1 => holds (stop_refining 0 one s1) (fun _ => true)))) = true) as K by (vm_compute; reflexivity).
  apply holds_ex in K. destruct K as (st & E & K). apply holds_ex in K. destruct K as (st' & E' & K).
  apply andb_true_iff in K. destruct K as [K Ka]. apply andb_true_iff in K. destruct K as [K Kb]. apply andb_true_iff in K. destruct K as [K O4]. apply andb_true_iff in K. destruct K as [K O3]. apply andb_true_iff in K. destruct K as [K O2]. apply andb_true_iff in K. destruct K as [K O1].
  apply andb_true_iff in K. destruct K as [K Ks]. apply andb_true_iff in K. destruct K as [K W2]. apply andb_true_iff in K. destruct K as [K W1]. apply andb_true_iff in K. destruct K as [F1 F2].
  apply holds_ex in Ka. destruct Ka as (s1' & Ea & Ka). apply holds_ex in Ka. destruct Ka as (r1' & Ea' & _). apply holds_ex in Kb. destruct Kb as (s1 & Eb & Kb). apply holds_ex in Kb. destruct Kb as (r1 & Eb' & _).
  destruct (steps_runs 0 one ask1 st' s1' Ea eq_refl) as [R1 Q1]. destruct (steps_runs 0 g2 ask2 st s1 Eb eq_refl) as [R2 Q2].
  apply eqo_same in O1, O2, O3, O4.
  exists st, ask2, s1, r1, st', ask1, s1', r1'.
  split; [apply (go_reachable 0 g2 two); assumption|]. split; [apply freshb_ok; assumption|]. split; [assumption|]. split; [assumption|]. split; [assumption|].
  split; [apply (go_reachable 0 one family); assumption|]. split; [apply freshb_ok; assumption|]. split; [assumption|]. split; [assumption|]. split; [assumption|].
  split; [apply same_cells; assumption|]. split; [exact (same_asked st st' (fam 3) O1 O2 O3 O4 W1 W2)|].
  destruct (asked_parts st (fam 3) O1 O2 W1) as (A1 & A2 & A3). split; [exact A1|]. split; [exact A2|]. split; [exact A3|]. rewrite O1, O3. discriminate.
Qed.
