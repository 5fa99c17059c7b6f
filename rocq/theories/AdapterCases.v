(** C80: the target levels of adapter.hpp:36-45, neighbors that are left out, and an adaptation on two processes. *)
From Verif Require Import U64 MapModel MapSpec MapProofs MapFamily MapProps HoodModel MeshModel
  MeshSpec MeshBase HoodProps MeshWalk MeshFind MeshKids MeshItem MeshCheck MeshTo MeshNear
  Sets RefineModel RefineGeo RefineInv RefineSpread RefineMerge RefineFold RefineExec RefineStop
  BalanceModel RefineReqs Create Balance History HistProps CommitProps BalProps LoadCells HistExamples
  CommModel CommInv CommProps CommViews CommMore CommExamples Adapt AdaptCases ProgramModel ProgramProps CopyProps ProgramCases
  AdvectModel AdvectGeo AdvectSum AdvectRegroup AdvectProps AdvectCode AdvectStep AdvectFace AdvectRun AdapterModel AdapterDiff AdapterSets AdapterProps.
From Coq Require Import QArith Qcanon.
Open Scope Z_scope.

(** ** The table of adapter.hpp:38-45 *)
(** the refinement level target of a cell with largest relative difference diff *)
Definition target (inc diff : Qc) (l : Z) : Prop := (zq l * inc <= diff)%Qc /\ (diff < zq (l + 1) * inc)%Qc.
Lemma zq_lt_iff a b inc : (0 < inc)%Qc -> (zq a * inc < zq b * inc)%Qc -> a < b.
Proof.
  intros Hi H. destruct (Z_lt_le_dec a b) as [L|L]; [assumption|]. exfalso. apply (Qclt_not_le _ _ H). apply Qcmult_le_compat_r; [apply zq_le, L|apply Qclt_le_weak, Hi].
Qed.
Lemma zq_mono a b inc : (0 < inc)%Qc -> a <= b -> (zq a * inc <= zq b * inc)%Qc.
Proof. intros Hi L. apply Qcmult_le_compat_r; [apply zq_le, L|apply Qclt_le_weak, Hi]. Qed.
Lemma judge_up inc sens l diff : judge inc sens l diff = Up <-> (zq (l + 1) * inc < diff)%Qc.
Proof. unfold judge. change (Q2Qc (inject_Z (l + 1))) with (zq (l + 1)). destruct (qltb (zq (l + 1) * inc) diff) eqn:E; [apply qltb_iff in E; tauto|]. apply qltb_not in E. split; [destruct (qleb _ _); discriminate|]. intros L. exfalso. apply (Qclt_not_le _ _ L E). Qed.
Lemma judge_down inc sens l diff : judge inc sens l diff = Down -> (diff < sens * (zq (l + 1) * inc))%Qc.
Proof. unfold judge. change (Q2Qc (inject_Z (l + 1))) with (zq (l + 1)). destruct (qltb (zq (l + 1) * inc) diff); [discriminate|]. destruct (qleb _ _) eqn:E; [discriminate|]. intros _. apply qleb_not, E. Qed.
Lemma half_zq l : 0 < l -> (Q2Qc (1 # 2) * zq (l + 1) <= zq l)%Qc.
Proof.
  intros H. unfold Qcle, Qcmult, zq. cbn [this Q2Qc]. rewrite !Qred_correct. unfold Qle, Qmult, inject_Z. cbn [Qnum Qden]. lia.
Qed.
(** A cell is only refined if its target level is larger than its level, it is refined then unless the difference is
    exactly at the limit, and with a sensitivity of at most 1/2 it is only unrefined if its target level is smaller. *)
Theorem c80_table inc sens l diff k : (0 < inc)%Qc -> 0 <= l -> target inc diff k ->
  (judge inc sens l diff = Up -> l < k) /\
  (l < k -> judge inc sens l diff = Up \/ diff = (zq (l + 1) * inc)%Qc /\ k = l + 1) /\
  ((0 <= sens)%Qc -> (sens <= Q2Qc (1 # 2))%Qc -> 0 < l -> judge inc sens l diff = Down -> k < l).
Proof.
  intros Hi Hl (T1 & T2). split; [|split].
  - intros E. apply judge_up in E. pose proof (zq_lt_iff (l + 1) (k + 1) inc Hi (Qclt_trans _ _ _ E T2)). lia.
  - intros L. pose proof (Qcle_trans _ _ _ (zq_mono (l + 1) k inc Hi ltac:(lia)) T1) as H. apply Qcle_lt_or_eq in H. destruct H as [H|H]; [left; apply judge_up, H|]. right. split; [congruence|].
    rewrite <- H in T2, T1. destruct (Z.eq_dec k (l + 1)) as [|N]; [assumption|]. exfalso. pose proof (zq_mono (l + 2) k inc Hi ltac:(lia)) as M. pose proof (Qcle_trans _ _ _ M T1) as M'.
    assert (zq (l + 1) * inc < zq (l + 2) * inc)%Qc as S; [|apply (Qclt_not_le _ _ S M')]. apply Qcmult_lt_compat_r; [assumption|]. unfold Qclt, zq. cbn [this Q2Qc]. rewrite !Qred_correct. rewrite <- Zlt_Qlt. lia.
  - intros S0 S1 L E. apply judge_down in E. apply (zq_lt_iff k l inc Hi). eapply Qcle_lt_trans; [exact T1|]. eapply Qclt_le_trans; [exact E|].
    rewrite Qcmult_assoc. apply Qcmult_le_compat_r; [|apply Qclt_le_weak, Hi]. eapply Qcle_trans; [|apply half_zq, L]. apply Qcmult_le_compat_r; [assumption|]. change 0%Qc with (zq 0). apply zq_le. lia.
Qed.
(** the table puts a difference of exactly diff_increase to level 1, the code does not refine the cell *)
Theorem c80_table_limit_refuted : ~ (forall inc sens l diff k, (0 < inc)%Qc -> 0 <= l -> target inc diff k -> l < k -> judge inc sens l diff = Up).
Proof. intros H. assert (judge 1%Qc (q 1 2) 0 1%Qc = Up) as Q; [|vm_compute in Q; discriminate Q]. apply (H 1%Qc (q 1 2) 0 1%Qc 1); [reflexivity|lia| |lia]. split; [discriminate|reflexivity]. Qed.
(** a sensitivity of 3/4 unrefines cells that are at their target level, which are then refined again *)
Theorem c80_table_sensitivity_refuted : ~ (forall inc sens l diff k, (0 < inc)%Qc -> (0 <= sens)%Qc -> (sens <= 1)%Qc -> 0 < l -> target inc diff k -> judge inc sens l diff = Down -> k < l).
Proof. intros H. assert (1 < 1) as Q; [|lia]. apply (H 1%Qc (q 3 4) 1 (q 5 4) 1); [reflexivity|discriminate|discriminate|lia| |vm_compute; reflexivity]. split; [discriminate|reflexivity]. Qed.

(** ** Neighbors that are left out *)
Definition paint (r : Z -> Qc) : pstep fluid := ProgramModel.Compute dft (fun c _ _ => with_shape (wind m2) c (r c)).
Definition spike (c : Z) : Qc := if c =? fam 3 then q 1000 1 else 1%Qc.
Definition is_face_b (cl nl : Z) (o : idx) : bool := match contact_of cl nl o with Face _ _ => true | _ => false end.
Definition ignored (x : xstate (D := fluid)) (c : Z) : bool :=
  match view_at g2 (x_hoods x) default_neighborhood_id (ex_at x) (data_at x) c with
  | Some (d, ns) => Qc_eq_bool (steepest m2 (q 1 4) c d ns) 0%Qc && existsb (fun e => is_face_b (get_cell_length_in_indices m2 c) (get_cell_length_in_indices m2 (fst (fst e))) (snd (fst e)) && qltb 0%Qc (rel_diff (q 1 4) (rho d) (rho (snd e)))) ns
  | None => false
  end.
Lemma ignored_2 : run_f g2 (PStep (init_step start_density) :: PStep (change [1] ToRefine) :: [PStep (paint spike)]) (fun x => ignored x 2) = true.
Proof. vm_compute. reflexivity. Qed.
Lemma run_reach l t : run_f g2 l t = true -> exists x, xreachable fl0 g2 x /\ t x = true.
Proof.
  intros A. unfold run_f in A. apply holds_ex in A. destruct A as (x & E & A). exists x. split; [|assumption]. apply bind_done in E. destruct E as (x0 & E0 & E).
  pose proof (xreach_init fl0 g2 x0 E0) as R0. apply (execs_reachable fl0 g2 x0 (steps_of l) x R0), (pdo_execs fl0 g2 g2_ok l x0 x R0 E).
Qed.
(** "based on relative difference in variables between neighboring cells" (adapter.hpp:36): a smaller neighbor behind the
    same face counts only if it is at the corner of the face where both offsets are 0 *)
Theorem c80_every_face_refuted : ~ (forall g d0 x c d ns e k pos thr, grid_ok g -> xreachable d0 g x -> ProgramProps.sees g x default_neighborhood_id c d ns -> In e ns ->
  contact_of (get_cell_length_in_indices (g_map g) c) (get_cell_length_in_indices (g_map g) (fst (fst e))) (snd (fst e)) = Face k pos ->
  (rel_diff thr (rho d) (rho (snd e)) <= steepest (g_map g) thr c d ns)%Qc).
Proof.
  intros H. destruct (run_reach _ _ ignored_2) as (x & R & I). unfold ignored in I. destruct (view_at _ _ _ _ _ 2) as [[d ns]|] eqn:V; [|discriminate].
  apply andb_true_iff in I. destruct I as (I0 & I). apply Qc_eq_bool_correct in I0. apply existsb_exists in I. destruct I as (e & Ie & I). apply andb_true_iff in I. destruct I as (F & L). apply qltb_iff in L.
  unfold is_face_b in F. destruct (contact_of _ _ _) as [| |k pos] eqn:C in F; try discriminate F.
  apply (Qclt_not_le _ _ L). rewrite <- I0. apply (H g2 fl0 x 2 d ns e k pos (q 1 4) g2_ok R); [|assumption|exact C]. apply (sees_iff fl0 g2 g2_ok x _ 2 d ns R), V.
Qed.

(** ** Two processes: cell 2 is refined, one cell of the family of cell 1 on process 0 is kept, and the others are left alone or asked to be unrefined *)
Definition eqs (a b : list Z) : bool := forallb (fun c => mem c b) a && forallb (fun c => mem c a) b.
Definition sets_of (x : xstate (D := fluid)) (p : Z) : option picks :=
  match xrun fl0 g2 x (CommModel.Update dft) with Done x1 => check_for_adaptation g2 x1 1 1 (q 1 2) p (fun _ => q 99 1) (Picks [7] [8] [9]) | _ => None end.
Definition sets_are (x : xstate (D := fluid)) (p : Z) (a b c : list Z) : bool :=
  match sets_of x p with Some s => eqs (to_refine s) a && eqs (not_to_unrefine s) b && eqs (to_unrefine s) c | None => false end.
Definition after_calls (x : xstate (D := fluid)) (t : (Z -> proc fluid * list Z) -> bool) : bool :=
  match sets_of x 0, sets_of x 1 with
  | Some a, Some b => HistExamples.holds (foldM (fun st k => run fl0 g2 st k) (requests_of g2 1 b ++ requests_of g2 0 a) (x_st x)) (fun st => HistExamples.holds (stop_refining fl0 g2 st) t)
  | _, _ => false
  end.
Definition steep (r : Z) (c : Z) : Qc := if c =? 2 then q r 1 else 1%Qc.
Definition split_family (r : Z) : list (pdo (D := fluid)) := [PStep (init_step start_density); PStep (change [1] ToRefine); PMove [(fam 3, 1); (fam 5, 1)]; PStep (paint (steep r))].
Example c80_example : run_f g2 (split_family 5) (fun x => sets_are x 0 [] [fam 1] [] && sets_are x 1 [2] [] [fam 3; fam 5]
  && after_calls x (fun res => negb (exists_on (state_of res) 0 2) && exists_on (state_of res) 0 (fam 3) && exists_on (state_of res) 1 (fam 6) && negb (exists_on (state_of res) 0 1))) = true.
Proof. vm_compute. reflexivity. Qed.
(** with equal densities the whole family is asked for and merged *)
Example c80_example_merge : run_f g2 (split_family 1) (fun x => sets_are x 0 [] [] [fam 0; fam 1; fam 2; fam 4; fam 6; fam 7] && sets_are x 1 [] [] [fam 3; fam 5]
  && after_calls x (fun res => exists_on (state_of res) 0 2 && exists_on (state_of res) 1 1 && negb (exists_on (state_of res) 0 (fam 3)))) = true.
Proof. vm_compute. reflexivity. Qed.
Print Assumptions c80_table.
Print Assumptions c80_every_face_refuted.
