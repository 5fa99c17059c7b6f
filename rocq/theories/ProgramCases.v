(** C69: a program run by two processes, with cells moving between them, and by one *)
From Verif Require Import U64 MapModel MapSpec MapProofs MapFamily MapProps HoodModel MeshModel
  MeshSpec MeshBase HoodProps MeshWalk MeshFind MeshKids MeshItem MeshCheck MeshTo MeshNear
  Sets RefineModel RefineGeo RefineInv RefineSpread RefineMerge RefineFold RefineExec RefineStop
  BalanceModel RefineReqs Create Balance History HistProps CommitProps BalProps LoadCells HistExamples
  CommModel CommInv CommProps CommViews CommMore CommExamples Adapt AdaptCases ProgramModel ProgramProps CopyProps.
Open Scope Z_scope.

Section Auto.
Context {D : Type} (d0 : D) (g : grid) (Hg : grid_ok g).
Inductive pdo := PStep (s : pstep D) | PMove (dl : list (Z * Z)).
Definition usable (x : xstate (D := D)) (s : pstep D) : bool :=
  match s with Compute id _ | ProgramModel.Adapt id _ _ _ => (id =? default_neighborhood_id) || match hood_lookup (x_hoods x) id with Some _ => true | None => false end | _ => true end.
Definition pdo_step (x : xstate (D := D)) (s : pdo) : outcome xstate :=
  match s with
  | PStep s => if usable x s then auto_step d0 g x s else Threw
  | PMove dl => if planb g (x_st x) dl then xrun d0 g x (Plain (LoadBalance 1 (plan (x_st x) dl))) else Threw
  end.
Definition steps_of (l : list pdo) : list (pstep D) := flat_map (fun s => match s with PStep s => [s] | PMove _ => [] end) l.
Lemma pdo_execs l : forall x x', xreachable d0 g x -> foldM pdo_step l x = Done x' -> execs d0 g x (steps_of l) x'.
Proof.
  induction l as [|s l IH]; cbn [foldM]; intros x x' R E; [injection E as <-; constructor|]. apply bind_done in E. destruct E as (x1 & E1 & E). destruct s as [s|dl]; cbn [pdo_step] in E1.
  - destruct (usable x s) eqn:U; [|discriminate]. assert (can_use x s) as C.
    { destruct s; cbn [usable can_use] in *; try exact I; apply orb_true_iff in U; rewrite Z.eqb_eq in U; (destruct U as [U|U]; [left; assumption|right]); destruct (hood_lookup _ _); [discriminate|discriminate| discriminate|discriminate]. }
    destruct (auto_step_ok d0 g Hg x s R C) as (x2 & E2 & H). assert (x2 = x1) as -> by congruence. apply execs_step with x1; [exact H|]. apply IH; [|assumption]. apply (exec_reachable d0 g x s); assumption.
  - destruct (planb g (x_st x) dl) eqn:P; [|discriminate]. assert (xallowed g x (Plain (LoadBalance 1 (plan (x_st x) dl)))) as Al by (cbn [xallowed allowed]; eexists; apply plan_ok; assumption).
    apply execs_house with (Plain (LoadBalance 1 (plan (x_st x) dl))) x1; [exact I|exact Al|exact E1|]. apply IH; [|assumption]. apply xreach_step with x (Plain (LoadBalance 1 (plan (x_st x) dl))); assumption.
Qed.
End Auto.
Arguments PStep {D}. Arguments PMove {D}.

(** sum of neighbors; cells above 8 are refined, families are merged when their data is small *)
Definition sum_of (c d : Z) (ns : list (seen Z)) : Z := fold_left Z.add (map snd ns) d.
Definition start_at (c d : Z) (ns : list (seen Z)) : Z := 3 * c.
Definition crit (c d : Z) (ns : list (seen Z)) : list want := if 8 <? d then [ToRefine] else if d <? 0 then [ToUnrefine] else [].
Definition share (c v : Z) : Z := v + c.
Definition gather (c : Z) (vs : list Z) : Z := fold_left Z.add vs 0.
Definition negate (c d : Z) (ns : list (seen Z)) : Z := 0 - d - Z.of_nat (length ns).
Definition dft := default_neighborhood_id.
Definition prog : list (pstep Z) := [Compute dft start_at; Compute dft sum_of; ProgramModel.Adapt dft crit share gather; Compute dft sum_of; Compute dft negate; ProgramModel.Adapt dft crit share gather].
Definition by_two : list (pdo (D := Z)) :=
  [PStep (nth 0 prog (RemoveHood 0)); PMove [(1, 1); (2, 0)]; PStep (nth 1 prog (RemoveHood 0)); PStep (nth 2 prog (RemoveHood 0)); PMove [(fam 3, 0); (fam 5, 0)];
   PStep (nth 3 prog (RemoveHood 0)); PStep (nth 4 prog (RemoveHood 0)); PMove [(fam 3, 1)]; PStep (nth 5 prog (RemoveHood 0))].
Definition by_one : list (pdo (D := Z)) := map PStep prog.

Definition run_do (g : grid) (l : list (pdo (D := Z))) (t : xstate (D := Z) -> bool) : bool := holds (bind (xinitialize 0 g) (fun x => foldM (pdo_step 0 g) l x)) t.
Definition vals (x : xstate (D := Z)) : bool := eqo (data_at x 1) (Some (-1004)) && eqo (data_at x 2) (Some (-980)) && negb (ex_at x (fam 3)).
Lemma by_two_runs : run_do g2 by_two (fun x => vals x && eqo (owner (x_st x) 0 1) (Some 1)) = true.
Proof. vm_compute. reflexivity. Qed.
Lemma by_one_runs : run_do one by_one (fun x => vals x && eqo (owner (x_st x) 0 1) (Some 0)) = true.
Proof. vm_compute. reflexivity. Qed.
(** in the middle of it all children exist *)
Example halfway : run_do g2 (firstn 7 by_two) (fun x => negb (ex_at x 1) && ex_at x (fam 3) && eqo (owner (x_st x) 0 (fam 3)) (Some 0) && eqo (owner (x_st x) 0 (fam 2)) (Some 1)) = true.
Proof. vm_compute. reflexivity. Qed.

(** a program that refines and merges, run by two processes with cells moved in between and by one *)
Example c69_example : exists x0 y0 x y, xinitialize 0 g2 = Done x0 /\ xinitialize 0 one = Done y0 /\ execs 0 g2 x0 prog x /\ execs 0 one y0 prog y /\
  owner (x_st x) 0 1 = Some 1 /\ owner (x_st y) 0 1 = Some 0 /\ shows g2 x 1 (-1004) /\ shows one y 1 (-1004) /\ exists_on (x_st x) 0 (fam 3) = false.
Proof.
  pose proof by_two_runs as A. pose proof by_one_runs as B. unfold run_do in A, B. apply holds_ex in A. destruct A as (x & Ex & A). apply holds_ex in B. destruct B as (y & Ey & B).
  apply bind_done in Ex. destruct Ex as (x0 & Ex0 & Ex). apply bind_done in Ey. destruct Ey as (y0 & Ey0 & Ey).
  pose proof (xreach_init 0 g2 x0 Ex0) as Rx. pose proof (xreach_init 0 one y0 Ey0) as Ry.
  pose proof (pdo_execs 0 g2 g2_ok by_two x0 x Rx Ex) as Hx. pose proof (pdo_execs 0 one one_ok by_one y0 y Ry Ey) as Hy.
  clear Ex Ey. unfold vals in A, B. rewrite !andb_true_iff in A, B. destruct A as (((A1 & _) & A3) & A4). destruct B as (((B1 & _) & _) & B4).
  apply eqo_eq in A1, A4, B1, B4. apply negb_true_iff in A3.
  exists x0, y0, x, y. split; [assumption|]. split; [assumption|]. split; [exact Hx|]. split; [exact Hy|]. split; [assumption|]. split; [assumption|].
  split; [apply (shows_iff 0 g2 g2_ok x 1 _ (execs_reachable 0 g2 x0 prog x Rx Hx)); assumption|]. split; [apply (shows_iff 0 one one_ok y 1 _ (execs_reachable 0 one y0 prog y Ry Hy)); assumption|]. exact A3.
Qed.
