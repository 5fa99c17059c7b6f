(** Concrete histories: cases meeting the hypotheses of the theorems on histories, and
    counterexamples to documented behaviour. *)
From Verif Require Import U64 MapModel MapSpec MapProofs MapFamily MapProps HoodModel MeshModel
  MeshSpec MeshBase HoodProps MeshWalk MeshFind MeshKids MeshItem MeshCheck MeshTo MeshNear
  Sets RefineModel RefineGeo RefineInv RefineSpread RefineMerge RefineFold RefineExec RefineStop
  BalanceModel RefineReqs Create Balance History HistProps CommitProps BalProps LoadCells.
Open Scope Z_scope.

(** ** Partitioners: any assignment of existing cells to processes can be answered consistently *)
Section Plan.
Context {D : Type} (d0 : D) (g : grid) (Hg : grid_ok g).
Definition plan (st : Z -> proc D) (dl : list (Z * Z)) (r : Z) : answer :=
  Some (flat_map (fun e => if snd e =? r then match owner st 0 (fst e) with Some o => [(fst e, o)] | None => [] end else []) dl,
        filter (fun e => match owner st 0 (fst e) with Some o => o =? r | None => false end) dl).
Fixpoint nodupb (l : list Z) : bool := match l with [] => true | x :: r => negb (mem x r) && nodupb r end.
Lemma nodupb_ok l : nodupb l = true -> NoDup l.
Proof.
  induction l as [|x r IH]; cbn [nodupb]; [constructor|]. rewrite andb_true_iff, negb_true_iff. intros [A B]. constructor; [|auto]. intros Q. apply mem_In in Q. congruence.
Qed.
Definition planb (st : Z -> proc D) (dl : list (Z * Z)) : bool :=
  nodupb (keys dl) && forallb (fun e => exists_on st 0 (fst e) && mem (snd e) (ranks g)) dl.
Lemma plan_ok st dl : planb st dl = true -> answers_ok g (owner st 0) (plan st dl) (fun c => find c dl).
Proof.
  unfold planb. rewrite andb_true_iff, forallb_forall. intros [A B]. apply nodupb_ok in A. split.
  - intros c q F. apply find_In in F. specialize (B _ F). cbn [fst snd] in B. apply andb_true_iff in B. destruct B as [B1 B2]. split; [exact B1|apply mem_In; assumption].
  - right. intros r Ir. eexists _, _. split; [reflexivity|]. split; [|split; [|split]].
    + unfold keys in A. clear B. induction dl as [|[c q] dl IH]; cbn [flat_map map fst snd] in *; [constructor|]. apply NoDup_cons_iff in A. destruct A as [A1 A2]. specialize (IH A2). rewrite map_app.
      assert (~ In c (map fst (flat_map (fun e : Z * Z => if snd e =? r then match owner st 0 (fst e) with Some o => [(fst e, o)] | None => [] end else []) dl))) as N.
      { intros Q. apply A1. apply in_map_iff in Q. destruct Q as ([c' o] & Ec & Q). cbn [fst] in Ec. subst c'. apply in_flat_map in Q. destruct Q as ([c2 q2] & I2 & Q). cbn [fst snd] in Q. destruct (q2 =? r); [|destruct Q]. destruct (owner st 0 c2); [|destruct Q]. destruct Q as [[= -> _]|[]]. apply in_map_iff. exists (c, q2). auto. }
      destruct (q =? r); [|assumption]. destruct (owner st 0 c); [|assumption]. cbn [map fst app]. constructor; assumption.
    + unfold keys in A. clear B. induction dl as [|[c q] dl IH]; cbn [filter map fst snd] in *; [constructor|]. apply NoDup_cons_iff in A. destruct A as [A1 A2]. specialize (IH A2).
      destruct (owner st 0 c) as [o|]; [|assumption]. destruct (o =? r); [|assumption]. cbn [map fst]. constructor; [|assumption]. intros Q. apply A1. apply in_map_iff in Q. destruct Q as (e & Ee & Q). apply filter_In in Q. apply in_map_iff. exists e. tauto.
    + intros c q N. rewrite in_flat_map. split.
      * intros ([c' q'] & I' & Q). cbn [fst snd] in Q. destruct (Z.eqb_spec q' r) as [->|]; [|destruct Q]. destruct (owner st 0 c') as [o|] eqn:O; [|destruct Q]. destruct Q as [[= -> ->]|[]]. split; [assumption|]. apply In_find; assumption.
      * intros [O F]. exists (c, r). split; [apply find_In; assumption|]. cbn [fst snd]. rewrite Z.eqb_refl, O. left. reflexivity.
    + intros c q N. rewrite filter_In. cbn [fst]. split.
      * intros [I' Q]. split; [|apply In_find; assumption]. destruct (owner st 0 c) as [o|]; [|discriminate]. apply Z.eqb_eq in Q. congruence.
      * intros [O F]. split; [apply find_In; assumption|]. rewrite O. apply Z.eqb_refl.
Qed.

(** ** Running histories *)
Inductive step := Do (a : @call D) | Move (dl : list (Z * Z)).
Definition okb (a : @call D) : bool :=
  match a with
  | Refine r _ | Unrefine r _ | DontRefine r _ | DontUnrefine r _ | Pin r _ _ | Unpin r _ | UnpinLocal r
  | Weight r _ _ | Write r _ _ | Clear r => mem r (ranks g)
  | UnpinAll | Stop | History.Load _ => true
  | LoadBalance _ _ => false
  end.
Definition do_step (st : Z -> proc D) (s : step) : outcome (Z -> proc D) :=
  match s with
  | Do a => if okb a then run d0 g st a else Threw
  | Move dl => if planb st dl then balance_load d0 g 1 st (plan st dl) else Threw
  end.
Definition go (l : list step) : outcome (Z -> proc D) := do st <- initialize d0 g; foldM do_step l st.
Lemma step_reachable st s st' : reachable d0 g st -> do_step st s = Done st' -> reachable d0 g st'.
Proof.
  intros R E. destruct s as [a|dl]; cbn [do_step] in E.
  - destruct (okb a) eqn:O; [|discriminate]. apply reach_step with st a; [assumption| |assumption]. destruct a; cbn [okb allowed] in *; try (apply mem_In; assumption); try exact I. discriminate.
  - destruct (planb st dl) eqn:P; [|discriminate]. apply reach_step with st (LoadBalance 1 (plan st dl)); [assumption| |exact E]. cbn [allowed]. eexists. apply plan_ok. assumption.
Qed.
Lemma steps_reachable l : forall st st', reachable d0 g st -> foldM do_step l st = Done st' -> reachable d0 g st'.
Proof.
  induction l as [|s l IH]; cbn [foldM]; intros st st' R E; [injection E as <-; assumption|]. apply bind_done in E. destruct E as (st1 & E1 & E). apply (IH st1); [|assumption]. apply step_reachable with st s; assumption.
Qed.
Lemma go_reachable l st : go l = Done st -> reachable d0 g st.
Proof. intros E. apply bind_done in E. destruct E as (st0 & E0 & E). apply (steps_reachable l st0); [|assumption]. apply reach_init. assumption. Qed.
(** quiet calls *)
Definition quietb (a : @call D) : bool := match a with Stop | History.Load _ | LoadBalance _ _ => false | _ => true end.
Lemma steps_runs l : forall st st', foldM do_step (map Do l) st = Done st' -> forallb quietb l = true -> runs d0 g st l st' /\ all_quiet l.
Proof.
  induction l as [|a l IH]; cbn [map foldM forallb]; intros st st' E Q; [injection E as <-; split; [constructor|intros x []]|].
  apply andb_true_iff in Q. destruct Q as [Qa Ql]. apply bind_done in E. destruct E as (st1 & E1 & E). destruct (IH st1 st' E Ql) as [R A]. cbn [do_step] in E1. destruct (okb a) eqn:O; [|discriminate]. split.
  - apply runs_cons with st1; [|assumption..]. destruct a; cbn [okb allowed quietb] in *; try (apply mem_In; assumption); try exact I; discriminate.
  - intros x [<-|Hx]; [|auto]. destruct a; cbn [quiet quietb] in *; try exact I; discriminate.
Qed.
End Plan.
Arguments Do {D}. Arguments Move {D}.

(** ** A grid of 2 x 1 x 1 cells, periodic in x, with two processes *)
Definition g2 : grid := Grid (update_last_cell (Mapping 2 1 1 2 0)) (Topo true false false) 0 2.
Lemma grid_okb m t n np : wfb m = true -> (0 <=? n) && (n <? 2 ^ 32) && (0 <? np) && (np <? 2 ^ 31) = true ->
  forallb (fun h => forallb (fun k => per t k || (glen m k + Z.abs (get h k) * 2 ^ m_max m <? W)) dims3) (default_hood_of n) = true -> grid_ok (Grid m t n np).
Proof.
  intros A B C. rewrite !andb_true_iff in B. split; [apply wfb_wf; assumption|]. cbn [g_len g_np]. split; [lia|]. split; [|lia]. intros h k Hh Hk. cbn [g_map g_topo] in *. rewrite forallb_forall in C. specialize (C h Hh). rewrite dims3_all in C. specialize (C k). rewrite Hk in C. cbn [orb] in C. lia.
Qed.
Example g2_ok : grid_ok g2. Proof. apply grid_okb; vm_compute; reflexivity. Qed.

Definition holds {A} (x : outcome A) (t : A -> bool) : bool := match x with Done a => t a | _ => false end.
Lemma holds_ex {A} (x : outcome A) t : holds x t = true -> exists a, x = Done a /\ t a = true.
Proof. destruct x; cbn [holds]; try discriminate. eauto. Qed.

(** cells 1 and 2; process 0 refines cell 1, which it owns, after writing, weighing and pinning *)
Definition h1 : list (@step Z) := map Do [Write 0 1 17; Weight 0 1 5; Pin 0 1 1; Refine 0 1; DontUnrefine 1 2].
Definition kids1 : list Z := get_all_children (g_map g2) 1.
Definition eqo (a b : option Z) : bool := match a, b with Some x, Some y => x =? y | None, None => true | _, _ => false end.
Definition same (a b : list Z) : bool := forallb (fun x => mem x b) a && forallb (fun x => mem x a) b && Nat.eqb (length a) (length b).

Example c20_example : holds (go 0 g2 h1) (fun st => holds (stop_refining 0 g2 st) (fun res =>
  let st' := state_of res in
  negb (exists_on st' 0 1) && negb (exists_on st' 1 1) &&
  forallb (fun x => eqo (owner st' 0 x) (Some 0) && eqo (owner st' 1 x) (Some 0)) kids1 && exists_on st' 0 2 &&
  same (snd (res 0)) kids1 && same (snd (res 1)) [] &&
  eqo (data_of (st' 0) 1) (Some 17) && forallb (fun x => eqo (data_of (st' 0) x) (Some 0)) kids1 &&
  forallb (fun x => eqo (effective_pin g2 st' x) (Some 1)) kids1 &&
  forallb (fun x => eqo (get_cell_weight g2 1 0 (p_store (st' 0)) x) (Some 5)) kids1)) = true.
Proof. vm_compute. reflexivity. Qed.
(** hypotheses of c20_refine_requests_are_honoured *)
Example c20_hypotheses : exists st q l st1 res, reachable 0 g2 st /\ refine_completely g2 (st 0) 1 = Done (true, q) /\ lvl_of (g_map g2) 1 < m_max (g_map g2) /\
  runs 0 g2 (set_rank st 0 (with_reqs (st 0) q)) l st1 /\ all_quiet l /\ l <> [] /\ ~ In (DontRefine 0 1) l /\ ~ sheltered g2 st1 1 /\ stop_refining 0 g2 st1 = Done res.
Proof.
  assert (holds (go 0 g2 [Do (Write 0 1 17)]) (fun st => holds (refine_completely g2 (st 0) 1) (fun x => fst x && holds (foldM (do_step 0 g2) (map Do [Unrefine 1 2; Weight 0 1 3]) (set_rank st 0 (with_reqs (st 0) (snd x)))) (fun st1 =>
    forallb (fun r => match r_noref (p_req (st1 r)) with [] => true | _ => false end) (ranks g2) && holds (stop_refining 0 g2 st1) (fun _ => true)))) = true) as Q by (vm_compute; reflexivity).
  apply holds_ex in Q. destruct Q as (st & E & Q). apply holds_ex in Q. destruct Q as ([b q] & Eq & Q). cbn [fst snd] in Q. apply andb_true_iff in Q. destruct Q as [-> Q]. apply holds_ex in Q. destruct Q as (st1 & E1 & Q).
  apply andb_true_iff in Q. destruct Q as [Qn Q]. apply holds_ex in Q. destruct Q as (res & Er & _). destruct (steps_runs 0 g2 _ _ _ E1 eq_refl) as [R A].
  exists st, q, [Unrefine 1 2; Weight 0 1 3], st1, res. split; [apply (go_reachable _ _ _ _ E)|]. split; [assumption|]. split; [vm_compute; reflexivity|]. split; [assumption|]. split; [assumption|]. split; [discriminate|]. split; [intros [?|[?|[]]]; discriminate|]. split; [|assumption].
  assert (forall c, sheltered g2 st1 c -> False) as N; [|exact (N 1)].
  intros c S. induction S as [c (k & Ik & Hc)|]; [|assumption]. rewrite forallb_forall in Qn. specialize (Qn k Ik). destruct (r_noref (p_req (st1 k))); [destruct Hc|discriminate].
Qed.

(** protecting cell 2 protects it from a refinement forced by the 2:1 rule, and then cell 1's
    child next to it is not refined either *)
Definition kid1 : Z := nth 1 kids1 0.
Definition kids11 : list Z := get_all_children (g_map g2) kid1.
Definition h2 : list (@step Z) := map Do [Refine 0 1; Stop; Refine 0 kid1].
Example c19_example : holds (go 0 g2 h2) (fun st => holds (stop_refining 0 g2 st) (fun res =>
  forallb (fun x => exists_on (state_of res) 1 x) (kids11 ++ get_all_children (g_map g2) 2) && negb (exists_on (state_of res) 1 2) && negb (exists_on (state_of res) 1 kid1))) = true.
Proof. vm_compute. reflexivity. Qed.
Example c21_example : holds (go 0 g2 (h2 ++ [Do (DontRefine 1 2)])) (fun st => holds (stop_refining 0 g2 st) (fun res =>
  fst (dont_refine g2 (st 1) 2) && exists_on (state_of res) 0 2 && exists_on (state_of res) 0 kid1 && negb (existsb (exists_on (state_of res) 0) (kids11 ++ get_all_children (g_map g2) 2)))) = true.
Proof. vm_compute. reflexivity. Qed.

(** unrefining the children of cell 1, of which some were given to process 1 with their data *)
Definition kid2 : Z := nth 2 kids1 0.
Definition h3 : list (@step Z) := map Do [Refine 0 1; Stop; Clear 0] ++ [Move [(kid1, 1); (kid2, 1); (2, 0)]] ++ map Do [Write 0 (nth 0 kids1 0) 5; Write 1 kid1 7; Write 1 kid2 8].
Example c30_example : holds (go 0 g2 (h3 ++ [Move [(kid2, 0)]])) (fun st =>
  eqo (owner st 0 kid1) (Some 1) && eqo (owner st 1 kid2) (Some 0) && eqo (owner st 1 2) (Some 0) &&
  eqo (data_of (st 1) kid1) (Some 7) && eqo (data_of (st 0) kid2) (Some 8) && eqo (data_of (st 1) kid2) None) = true.
Proof. vm_compute. reflexivity. Qed.
Example c23_example : holds (go 0 g2 (h3 ++ [Do (Unrefine 1 kid2)])) (fun st => holds (stop_refining 0 g2 st) (fun res =>
  let st' := state_of res in
  eqo (owner st' 0 1) (Some 0) && negb (existsb (exists_on st' 1) kids1) && same (get_removed_cells (fst (res 0))) kids1 && same (get_removed_cells (fst (res 1))) [] &&
  eqo (data_of (st' 0) (nth 0 kids1 0)) (Some 5) && eqo (data_of (st' 0) kid1) (Some 7) && eqo (data_of (st' 0) kid2) (Some 8) && eqo (data_of (st' 0) 1) (Some 0))) = true.
Proof. vm_compute. reflexivity. Qed.
Example c23_protected : holds (go 0 g2 (h3 ++ map Do [Unrefine 1 kid2; DontUnrefine 0 (nth 3 kids1 0)])) (fun st => holds (stop_refining 0 g2 st) (fun res =>
  negb (exists_on (state_of res) 0 1) && forallb (exists_on (state_of res) 1) kids1)) = true.
Proof. vm_compute. reflexivity. Qed.
(** process 1 asks for unrefining, process 0 for refining a sibling *)
Example c24_example : holds (go 0 g2 (h3 ++ map Do [Refine 0 (nth 0 kids1 0); Unrefine 1 kid2])) (fun st => holds (stop_refining 0 g2 st) (fun res =>
  negb (exists_on (state_of res) 0 1) && forallb (exists_on (state_of res) 1) (tl kids1) && negb (exists_on (state_of res) 1 (nth 0 kids1 0)) && exists_on (state_of res) 1 (nth 0 (get_all_children (g_map g2) (nth 0 kids1 0)) 0))) = true.
Proof. vm_compute. reflexivity. Qed.
Example c29_example : holds (initialize 0 (Grid (update_last_cell (Mapping 3 2 1 0 0)) (Topo false false false) 1 4)) (fun st =>
  forallb (fun e => eqo (owner st 2 (fst e)) (Some (snd e))) [(1, 0); (2, 1); (3, 2); (4, 2); (5, 3); (6, 3)] && eqo (owner st 2 7) None) = true.
Proof. vm_compute. reflexivity. Qed.
Example c31_example : holds (go 0 g2 [Do (Pin 0 1 1); Move [(1, 0); (2, 0)]; Move [(1, 0)]; Do (Unpin 1 1); Do (Pin 0 2 1)]) (fun st =>
  holds (balance_load 0 g2 1 st (plan st [(1, 0)])) (fun st' =>
  eqo (owner st 0 1) (Some 1) && eqo (owner st 0 2) (Some 0) && planb g2 st [(1, 0)] && eqo (owner st' 1 1) (Some 0) && eqo (owner st' 1 2) (Some 1))) = true.
Proof. vm_compute. reflexivity. Qed.

(** a tiling with three levels, given to both processes *)
Definition target28 : list Z := kids11 ++ filter (fun c => negb (c =? kid1)) kids1 ++ get_all_children (g_map g2) 2.
Example c28_target : tiling (g_map g2) (MeshCheck.of_list target28) /\ balanced (g_map g2) (g_topo g2) (g_hood g2) (MeshCheck.of_list target28) /\ map (lvl_of (g_map g2)) target28 = repeat 2 8 ++ repeat 1 15.
Proof. destruct (meshb_mesh (g_map g2) (g_topo g2) 0 target28) as (_ & _ & A & B); [vm_compute; reflexivity|]. split; [assumption|]. split; [assumption|]. vm_compute. reflexivity. Qed.
Example c28_example : holds (go 0 g2 [Do (History.Load (fun _ => target28))]) (fun st =>
  forallb (exists_on st 0) target28 && negb (existsb (exists_on st 0) [1; 2; kid1]) && eqo (owner st 1 (nth 3 kids11 0)) (Some 0)) = true.
Proof. vm_compute. reflexivity. Qed.

(** ** Counterexamples *)
(** C22: a grid of one cell and one process: after dont_refine and a commit the cell still cannot be refined *)
Definition g1 : grid := Grid (update_last_cell (Mapping 1 1 1 1 0)) (Topo false false false) 0 1.
Example g1_ok : grid_ok g1. Proof. apply grid_okb; vm_compute; reflexivity. Qed.
Theorem c22_dont_refine_lasts_only_until_the_next_commit_refuted :
  exists (g : grid) (st : Z -> proc Z) (c : Z) (res : Z -> proc Z * list Z) (q : reqs), grid_ok g /\ reachable 0 g st /\
  stop_refining 0 g st = Done res /\
  (exists st0, initialize 0 g = Done st0 /\ run 0 g st0 (DontRefine 0 c) = Done st) /\
  owner (state_of res) 0 c = Some 0 /\ lvl_of (g_map g) c < m_max (g_map g) /\
  refine_completely g (state_of res 0) c = Done (false, q).
Proof.
  assert (holds (initialize 0 g1) (fun st0 => holds (run 0 g1 st0 (DontRefine 0 1)) (fun st => holds (stop_refining 0 g1 st) (fun res => eqo (owner (state_of res) 0 1) (Some 0) && holds (refine_completely g1 (state_of res 0) 1) (fun x => negb (fst x))))) = true) as Q by (vm_compute; reflexivity).
  apply holds_ex in Q. destruct Q as (st0 & E0 & Q). apply holds_ex in Q. destruct Q as (st & E & Q). apply holds_ex in Q. destruct Q as (res & Er & Q). apply andb_true_iff in Q. destruct Q as [O Q]. apply holds_ex in Q. destruct Q as ([b q] & Eq & Q). destruct b; [discriminate|].
  exists g1, st, 1, res, q. split; [apply g1_ok|]. split; [apply reach_step with st0 (DontRefine 0 1); [apply reach_init; assumption|vm_compute; auto|assumption]|]. split; [assumption|].
  split; [exists st0; auto|]. split; [unfold eqo in O; destruct (owner (state_of res) 0 1); [|discriminate]; f_equal; lia|]. split; [vm_compute; reflexivity|assumption].
Qed.

(** C22: the protection ends at the next load balance *)
Theorem c22_protection_ends_with_balancing {D} (d0 : D) g st k z dest st' : grid_ok g -> reachable d0 g st -> answers_ok g (owner st 0) z dest ->
  balance_load d0 g k st z = Done st' -> forall c, ~ dont_refine_set g st' c /\ ~ sheltered g st' c.
Proof.
  intros Hg R Hz E. destruct (balance_view d0 g Hg st k z dest st' R Hz E) as (own & Hi & Hi' & B). assert (forall c, dont_refine_set g st' c -> False) as N.
  { intros c (p & Ip & Hc). destruct (bl_rest _ _ _ _ _ _ _ B p Ip) as (_ & _ & _ & _ & Q). rewrite Q in Hc. destruct Hc. }
  intros c. split; [exact (N c)|]. intros S. induction S as [c Hc|]; [apply (N c Hc)|assumption].
Qed.

(** C31: cell 1 is pinned to process 0 by a load balance; then pinned to 1 and again to 0, all
    calls successful; the next load balance moves it to process 1 *)
Theorem c31_latest_pin_wins_refuted : exists (g : grid) (st st1 st2 st3 : Z -> proc Z) (c : Z) (z : Z -> answer) (dest : Z -> option Z),
  grid_ok g /\ reachable 0 g st /\ owner st 0 c = Some 0 /\
  fst (pin g 0 (p_store (st 0)) c 1) = true /\ run 0 g st (Pin 0 c 1) = Done st1 /\
  fst (pin g 0 (p_store (st1 0)) c 0) = true /\ run 0 g st1 (Pin 0 c 0) = Done st2 /\
  answers_ok g (owner st2 0) z dest /\ balance_load 0 g 1 st2 z = Done st3 /\ owner st3 0 c = Some 1.
Proof.
  assert (holds (go 0 g2 [Do (Pin 0 1 0); Move []]) (fun st => holds (run 0 g2 st (Pin 0 1 1)) (fun st1 => holds (run 0 g2 st1 (Pin 0 1 0)) (fun st2 => holds (balance_load 0 g2 1 st2 (plan st2 [])) (fun st3 =>
    eqo (owner st 0 1) (Some 0) && fst (pin g2 0 (p_store (st 0)) 1 1) && fst (pin g2 0 (p_store (st1 0)) 1 0) && eqo (owner st3 0 1) (Some 1))))) = true) as Q by (vm_compute; reflexivity).
  apply holds_ex in Q. destruct Q as (st & E & Q). apply holds_ex in Q. destruct Q as (st1 & E1 & Q). apply holds_ex in Q. destruct Q as (st2 & E2 & Q). apply holds_ex in Q. destruct Q as (st3 & E3 & Q). rewrite !andb_true_iff in Q. destruct Q as [[[A B] C] F].
  exists g2, st, st1, st2, st3, 1, (plan st2 []), (fun c => find c []). split; [apply g2_ok|]. split; [apply (go_reachable _ _ _ _ E)|].
  assert (forall o x, eqo o (Some x) = true -> o = Some x) as Eo by (intros [y|] x; cbn [eqo]; [intros; f_equal; lia|discriminate]).
  split; [apply Eo; assumption|]. split; [assumption|]. split; [assumption|]. split; [assumption|]. split; [assumption|]. split; [apply (plan_ok g2 st2 []); reflexivity|]. split; [assumption|apply Eo; assumption].
Qed.
