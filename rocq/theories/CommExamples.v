(** Concrete histories with neighborhoods and copies of remote cells: cases meeting the
    hypotheses of the theorems on them, and counterexamples to documented behaviour. *)
From Verif Require Import U64 MapModel MapSpec MapProofs MapFamily MapProps HoodModel MeshModel
  MeshSpec MeshBase HoodProps MeshWalk MeshFind MeshKids MeshItem MeshCheck MeshTo MeshNear
  Sets RefineModel RefineGeo RefineInv RefineSpread RefineMerge RefineFold RefineExec RefineStop
  BalanceModel RefineReqs Create Balance History HistProps CommitProps BalProps LoadCells HistExamples
  CommModel CommInv CommProps CommViews CommMore.
Open Scope Z_scope.

Section Run.
Context {D : Type} (d0 : D) (g : grid).
Inductive xstep := XDo (a : xcall (D := D)) | XMove (dl : list (Z * Z)).
Definition xokb (x : xstate (D := D)) (a : xcall (D := D)) : bool :=
  match a with
  | Plain a => okb g a
  | WriteCopy r _ _ => mem r (ranks g)
  | AddNeighborhood _ _ | RemoveNeighborhood _ => true
  | Allocate id | Update id => (id =? default_neighborhood_id) || match hood_lookup (x_hoods x) id with Some _ => true | None => false end
  end.
Definition do_xstep (x : xstate (D := D)) (s : xstep) : outcome xstate :=
  match s with
  | XDo a => if xokb x a then xrun d0 g x a else Threw
  | XMove dl => if planb g (x_st x) dl then xrun d0 g x (Plain (LoadBalance 1 (plan (x_st x) dl))) else Threw
  end.
Definition xgo (l : list xstep) : outcome xstate := do x <- xinitialize d0 g; foldM do_xstep l x.
Lemma xokb_ok x a : xokb x a = true -> xallowed g x a.
Proof.
  destruct a as [a|r c v|id h|id|id|id]; cbn [xokb xallowed]; try exact (fun _ => I).
  - destruct a; cbn [okb allowed] in *; intros O; try (apply mem_In; assumption); try exact I. discriminate.
  - intros O. apply mem_In. assumption.
  - rewrite orb_true_iff, Z.eqb_eq. destruct (hood_lookup (x_hoods x) id); intros [O|O]; auto; [right|]; discriminate.
  - rewrite orb_true_iff, Z.eqb_eq. destruct (hood_lookup (x_hoods x) id); intros [O|O]; auto; [right|]; discriminate.
Qed.
Lemma xsteps_reachable l : forall x x', xreachable d0 g x -> foldM do_xstep l x = Done x' -> xreachable d0 g x'.
Proof.
  induction l as [|s l IH]; cbn [foldM]; intros x x' R E; [injection E as <-; assumption|]. apply bind_done in E. destruct E as (x1 & E1 & E). apply (IH x1); [|assumption]. destruct s as [a|dl]; cbn [do_xstep] in E1.
  - destruct (xokb x a) eqn:O; [|discriminate]. apply xreach_step with x a; [assumption|apply xokb_ok; assumption|assumption].
  - destruct (planb g (x_st x) dl) eqn:P; [|discriminate]. apply xreach_step with x (Plain (LoadBalance 1 (plan (x_st x) dl))); [assumption| |exact E1]. cbn [xallowed allowed]. eexists. apply plan_ok. assumption.
Qed.
Lemma xgo_reachable l x : xgo l = Done x -> xreachable d0 g x.
Proof. intros E. apply bind_done in E. destruct E as (x0 & E0 & E). apply (xsteps_reachable l x0); [|assumption]. apply xreach_init. assumption. Qed.
Lemma xgo_holds l (b : xstate -> bool) : holds (xgo l) b = true -> exists x, xreachable d0 g x /\ b x = true.
Proof. intros Q. apply holds_ex in Q. destruct Q as (x & E & Q). exists x. split; [apply (xgo_reachable l); assumption|assumption]. Qed.
End Run.
Arguments XDo {D}. Arguments XMove {D}.

(** the 2 x 1 x 1 grid of HistExamples; process 0 owns cell 1, process 1 cell 2 *)
Definition one_way : hood := [Idx 1 0 0].
Definition start2 : list (xstep (D := Z)) :=
  [XDo (Plain (Write 0 1 17)); XDo (Plain (Write 1 2 23)); XDo (AddNeighborhood 5 one_way)].

(** ** C34, C35: an update delivers, and reports failure for the default neighborhood *)
Example c34_example : holds (xgo 0 g2 start2) (fun x =>
  eqo (read x 0 2) (Some 0) && eqo (read x 1 1) (Some 0) &&
  holds (update_copies g2 x default_neighborhood_id) (fun y => negb (fst y) && eqo (read (snd y) 0 2) (Some 23) && eqo (read (snd y) 1 1) (Some 17) && eqo (read (snd y) 0 1) (Some 17)) &&
  holds (update_copies g2 x 5) (fun y => fst y && eqo (read (snd y) 0 2) (Some 23))) = true.
Proof. vm_compute. reflexivity. Qed.
Theorem c35_default_neighborhood_refuted : exists x x', xreachable 0 g2 x /\ update_copies g2 x default_neighborhood_id = Done (false, x').
Proof.
  assert (holds (xgo 0 g2 start2) (fun _ => true) = true) as Q by (vm_compute; reflexivity). apply xgo_holds in Q. destruct Q as (x & R & _).
  destruct (c35_returned_value 0 g2 g2_ok x default_neighborhood_id R) as [A _]. destruct (A eq_refl) as (x' & E). eauto.
Qed.
Theorem c35_unknown_neighborhood_refuted : exists x id, xreachable 0 g2 x /\ hood_at g2 (x_hoods x) id = None /\ update_copies g2 x id = Threw.
Proof.
  assert (holds (xgo 0 g2 start2) (fun x => match hood_at g2 (x_hoods x) 6 with None => true | _ => false end) = true) as Q by (vm_compute; reflexivity). apply xgo_holds in Q. destruct Q as (x & R & Q).
  exists x, 6. split; [assumption|]. destruct (hood_at g2 (x_hoods x) 6) eqn:E; [discriminate|]. split; [reflexivity|].
  destruct (c35_returned_value 0 g2 g2_ok x 6 R) as (_ & _ & A). apply A; [discriminate|exact E].
Qed.
Print Assumptions c35_unknown_neighborhood_refuted.

(** ** C17: lists are returned for cells of other processes *)
Theorem c17_remote_cell_refuted : exists x r q c l, xreachable 0 g2 x /\ In r (ranks g2) /\ owns x r q c /\ q <> r /\
  get_neighbors_of g2 (x_hoods x) default_neighborhood_id r (x_st x r) c = Done (Some l) /\ l <> [] /\
  exists lt, get_neighbors_to g2 (x_hoods x) default_neighborhood_id r (x_st x r) c = Done (Some lt) /\ lt <> [].
Proof.
  assert (holds (xgo 0 g2 start2) (fun x => eqo (owner (x_st x) 0 2) (Some 1) &&
    holds (get_neighbors_of g2 (x_hoods x) default_neighborhood_id 0 (x_st x 0) 2) (fun l => match l with Some (_ :: _) => true | _ => false end) &&
    holds (get_neighbors_to g2 (x_hoods x) default_neighborhood_id 0 (x_st x 0) 2) (fun l => match l with Some (_ :: _) => true | _ => false end)) = true) as Q by (vm_compute; reflexivity).
  apply xgo_holds in Q. destruct Q as (x & R & Q). rewrite !andb_true_iff in Q. destruct Q as ((Q1 & Q2) & Q3). apply holds_ex in Q2. destruct Q2 as (l & E & Q2). apply holds_ex in Q3. destruct Q3 as (lt & E3 & Q3).
  destruct l as [l|]; [|discriminate]. destruct lt as [lt|]; [|discriminate]. exists x, 0, 1, 2, l. split; [assumption|]. split; [vm_compute; auto|].
  split.
  - unfold owns. destruct (owner (x_st x) 0 2) as [k|]; cbn [eqo] in Q1; [|discriminate]. apply Z.eqb_eq in Q1. congruence.
  - split; [discriminate|]. split; [assumption|]. split; [destruct l; discriminate|]. exists lt. split; [assumption|]. destruct lt; discriminate.
Qed.

(** ** C33, C36, C37, C38, C54 after refining cell 2 and giving one child to process 0 *)
Definition kids2 : list Z := get_all_children (g_map g2) 2.
Definition mixed : list (xstep (D := Z)) := start2 ++
  [XDo (Plain (Refine 1 2)); XDo (Plain Stop); XMove [(nth 0 kids2 0, 0)]; XDo (Plain (Write 0 (nth 0 kids2 0) 5)); XDo (Plain (Write 1 (nth 2 kids2 0) 6))].
Definition done_some {A} (o : outcome (option A)) (t : A -> bool) : bool := match o with Done (Some a) => t a | _ => false end.
Definition zpair (a b : Z * Z) : bool := (fst a =? fst b) && (snd a =? snd b).
Definition eqlist (a b : list (Z * Z)) : bool := Nat.eqb (length a) (length b) && forallb (fun p => zpair (fst p) (snd p)) (combine a b).
(** with the neighborhood of items +x only: process 0 needs the children of 2 it does not
    own, process 1 needs cell 1 *)
Example c33_example : holds (xgo 0 g2 mixed) (fun x =>
  done_some (lists_of g2 (x_hoods x) 5 0 (x_st x 0)) (fun L0 => done_some (lists_of g2 (x_hoods x) 5 1 (x_st x 1)) (fun L1 =>
    holds (recv_pairs 0 (p_store (x_st x 0)) L0) (fun e => holds (send_pairs 1 (p_store (x_st x 1)) L1) (fun s =>
      eqlist (tagged (listed 0 s)) (tagged (listed 1 e)) && eqlist (tagged (listed 1 e)) (combine (tl kids2) [1; 2; 3; 4; 5; 6; 7])))
    && holds (recv_pairs 1 (p_store (x_st x 1)) L1) (fun e => eqlist (tagged (listed 0 e)) [(1, 1)])))) = true.
Proof. vm_compute. reflexivity. Qed.
Example c54_example : holds (xgo 0 g2 mixed) (fun x =>
  holds (get_number_of_update_receive_cells g2 (x_hoods x) 5 0 (x_st x 0)) (Z.eqb 7) && holds (get_number_of_update_send_cells g2 (x_hoods x) 5 1 (x_st x 1)) (Z.eqb 7) &&
  holds (get_number_of_update_send_cells g2 (x_hoods x) 5 0 (x_st x 0)) (Z.eqb 1) && holds (get_number_of_update_send_cells g2 (x_hoods x) 6 0 (x_st x 0)) (Z.eqb 18446744073709551615)) = true.
Proof. vm_compute. reflexivity. Qed.
Example c34_example_mixed : holds (xgo 0 g2 mixed) (fun x => holds (update_copies g2 x 5) (fun y => fst y && eqo (read (snd y) 0 (nth 2 kids2 0)) (Some 6) && eqo (read (snd y) 1 1) (Some 17) && eqo (read (snd y) 1 (nth 0 kids2 0)) (Some 0))) = true.
Proof. vm_compute. reflexivity. Qed.
(** process 1's children: those with smaller x touch cell 1 from the right, those with larger x
    wrap around to cell 1 *)
Example c36_example : holds (xgo 0 g2 (mixed ++ [XDo (AddNeighborhood 6 [Idx 0 1 0])])) (fun x =>
  holds (get_local_cells_on_process_boundary g2 (x_hoods x) 6 1 (x_st x 1)) (fun l => same l [nth 2 kids2 0]) &&
  holds (get_local_cells_not_on_process_boundary g2 (x_hoods x) 6 1 (x_st x 1)) (fun l => same l [nth 1 kids2 0; nth 3 kids2 0; nth 4 kids2 0; nth 5 kids2 0; nth 6 kids2 0; nth 7 kids2 0]) &&
  holds (get_remote_cells_on_process_boundary g2 (x_hoods x) 6 1 (x_st x 1)) (fun l => same l [nth 0 kids2 0])) = true.
Proof. vm_compute. reflexivity. Qed.
(** with neighborhood 6 only the child above the remote child has a remote neighbor_to *)
Example c37_example : holds (xgo 0 g2 (mixed ++ [XDo (AddNeighborhood 6 [Idx 0 1 0])])) (fun x =>
  holds (get_cells g2 (x_hoods x) 6 1 (x_st x 1) [has_remote_neighbor_to; has_remote_neighbor_of] false) (fun l => same l [nth 2 kids2 0]) &&
  holds (get_cells g2 (x_hoods x) 6 1 (x_st x 1) [has_remote_neighbor_to] true) (fun l => same l [nth 2 kids2 0]) &&
  holds (get_cells g2 (x_hoods x) 6 1 (x_st x 1) [has_local_neighbor_of; 3] true) (fun l => same l [nth 1 kids2 0; nth 4 kids2 0; nth 5 kids2 0]) &&
  holds (get_cells g2 (x_hoods x) 6 1 (x_st x 1) [] true) (fun l => same l (tl kids2))) = true.
Proof. vm_compute. reflexivity. Qed.
Example c38_example : holds (xgo 0 g2 mixed) (fun x => holds (iterators g2 x 5 0) (fun v =>
  same (map i_id (view_outer v)) [1; nth 0 kids2 0] && same (map i_id (view_inner v)) [] &&
  existsb (fun i => (i_id i =? 1) && same (map fst (view_of v i)) kids2 &&
    same (map fst (view_to v i)) [nth 1 kids2 0; nth 3 kids2 0; nth 5 kids2 0; nth 7 kids2 0] && Nat.eqb (length (view_all v i)) 8) (view_cells v))) = true.
Proof. vm_compute. reflexivity. Qed.
(** a neighbor on both sides appears twice among the cells that consider this one as neighbor *)
Theorem c38_neighbors_to_once_refuted : exists x v i, xreachable 0 g2 x /\ iterators g2 x default_neighborhood_id 0 = Done v /\ In i (view_local v) /\ ~ NoDup (map fst (view_to v i)).
Proof.
  assert (holds (xgo 0 g2 start2) (fun x => holds (iterators g2 x default_neighborhood_id 0) (fun v => existsb (fun i => negb (nodupb (map fst (view_to v i)))) (view_local v))) = true) as Q by (vm_compute; reflexivity).
  apply xgo_holds in Q. destruct Q as (x & R & Q). apply holds_ex in Q. destruct Q as (v & E & Q). apply existsb_exists in Q. destruct Q as (i & Ii & Q).
  exists x, v, i. split; [assumption|]. split; [assumption|]. split; [assumption|]. intros N. apply negb_true_iff in Q.
  assert (forall l, NoDup l -> nodupb l = true) as K. { induction l as [|a l IH]; intros Hl; cbn [nodupb]; [reflexivity|]. inversion Hl. subst. rewrite IH by assumption. rewrite andb_true_r, negb_true_iff. apply mem_not. assumption. }
  rewrite (K _ N) in Q. discriminate.
Qed.

(** ** C52 *)
Definition refined2 : list (xstep (D := Z)) := [XDo (Plain (Refine 1 2)); XDo (Plain Stop)].
(** cell 1 is the neighbor of all children of 2 in front of it but is found by none of them *)
Theorem c52_larger_neighbor_refuted : exists x r c o, xreachable 0 g2 x /\ owns x r r c /\ In r (ranks g2) /\ In o (g_hood g2) /\
  sees (g_map g2) (g_topo g2) [o] c 1 /\ exists_on (x_st x) r 1 = true /\ get_neighbors_of_at_offset g2 r (x_st x r) c o = Done [].
Proof.
  assert (holds (xgo 0 g2 refined2) (fun x => eqo (owner (x_st x) 1 (nth 0 kids2 0)) (Some 1) && exists_on (x_st x) 1 1 && holds (get_neighbors_of_at_offset g2 1 (x_st x 1) (nth 0 kids2 0) (Idx (-1) 0 0)) (fun l => match l with [] => true | _ => false end)) = true) as Q by (vm_compute; reflexivity).
  apply xgo_holds in Q. destruct Q as (x & R & Q). rewrite !andb_true_iff in Q. destruct Q as ((Q1 & Q2) & Q3). apply holds_ex in Q3. destruct Q3 as (l & E & Q3). destruct l; [|discriminate].
  exists x, 1, (nth 0 kids2 0), (Idx (-1) 0 0). split; [assumption|]. split.
  { unfold owns. destruct (owner (x_st x) 1 (nth 0 kids2 0)) as [k|]; cbn [eqo] in Q1; [|discriminate]. apply Z.eqb_eq in Q1. congruence. }
  split; [vm_compute; auto|]. split; [vm_compute; tauto|]. split; [|split; assumption].
  apply seesb_spec; [apply g2_ok| | |vm_compute; reflexivity]; vm_compute; split; discriminate.
Qed.
(** the eight children of 2 are the neighbors of cell 1 at offset (1, 0, 0), only the first is returned *)
Theorem c52_smaller_neighbors_refuted : exists x r c o y l, xreachable 0 g2 x /\ owns x r r c /\ In r (ranks g2) /\ In o (g_hood g2) /\
  sees (g_map g2) (g_topo g2) [o] c y /\ exists_on (x_st x) r y = true /\ get_neighbors_of_at_offset g2 r (x_st x r) c o = Done l /\ l <> [] /\ ~ In y (map fst l).
Proof.
  assert (holds (xgo 0 g2 refined2) (fun x => eqo (owner (x_st x) 0 1) (Some 0) && exists_on (x_st x) 0 (nth 2 kids2 0) && holds (get_neighbors_of_at_offset g2 0 (x_st x 0) 1 (Idx 1 0 0)) (fun l => match l with [] => false | _ => forallb (fun e => fst e =? nth 0 kids2 0) l end)) = true) as Q by (vm_compute; reflexivity).
  apply xgo_holds in Q. destruct Q as (x & R & Q). rewrite !andb_true_iff in Q. destruct Q as ((Q1 & Q2) & Q3). apply holds_ex in Q3. destruct Q3 as (l & E & Q3). assert (l <> []) as Nl by (destruct l; discriminate). assert (forallb (fun e : Z * idx => fst e =? nth 0 kids2 0) l = true) as Fl by (destruct l; [congruence|exact Q3]).
  exists x, 0, 1, (Idx 1 0 0), (nth 2 kids2 0), l. split; [assumption|]. split.
  { unfold owns. destruct (owner (x_st x) 0 1) as [k|]; cbn [eqo] in Q1; [|discriminate]. apply Z.eqb_eq in Q1. congruence. }
  split; [vm_compute; auto|]. split; [vm_compute; tauto|]. split; [apply seesb_spec; [apply g2_ok| | |vm_compute; reflexivity]; vm_compute; split; discriminate|].
  split; [assumption|]. split; [assumption|]. split; [assumption|]. intros K. apply in_map_iff in K. destruct K as (e & Ee & K). rewrite forallb_forall in Fl. specialize (Fl e K). rewrite Ee in Fl. vm_compute in Fl. discriminate.
Qed.
(** in a periodic grid an offset beyond the neighborhood still finds neighbors *)
Theorem c52_far_offset_refuted : exists x r c o l, xreachable 0 g2 x /\ owns x r r c /\ In r (ranks g2) /\ 1 < ix o /\ g_len g2 = 0 /\
  get_neighbors_of_at_offset g2 r (x_st x r) c o = Done l /\ l <> [].
Proof.
  assert (holds (xgo 0 g2 start2) (fun x => eqo (owner (x_st x) 0 1) (Some 0) && holds (get_neighbors_of_at_offset g2 0 (x_st x 0) 1 (Idx 3 0 0)) (fun l => match l with [] => false | _ => true end)) = true) as Q by (vm_compute; reflexivity).
  apply xgo_holds in Q. destruct Q as (x & R & Q). rewrite !andb_true_iff in Q. destruct Q as (Q1 & Q3). apply holds_ex in Q3. destruct Q3 as (l & E & Q3).
  exists x, 0, 1, (Idx 3 0 0), l. split; [assumption|]. split.
  { unfold owns. destruct (owner (x_st x) 0 1) as [k|]; cbn [eqo] in Q1; [|discriminate]. apply Z.eqb_eq in Q1. congruence. }
  split; [vm_compute; auto|]. split; [cbn; lia|]. split; [reflexivity|]. split; [assumption|]. destruct l; discriminate.
Qed.
Print Assumptions c52_smaller_neighbors_refuted.
