(** Concrete cases of saving and loading, and counterexamples. *)
From Verif Require Import U64 MapModel MapSpec MapProofs MapFamily MapProps HoodModel MeshModel
  MeshSpec MeshBase HoodProps MeshWalk MeshFind MeshKids MeshItem MeshCheck MeshTo MeshNear
  Sets RefineModel RefineGeo RefineInv RefineSpread RefineMerge RefineFold RefineExec RefineStop
  BalanceModel RefineReqs Create Balance History HistProps CommitProps BalProps LoadCells HistExamples DblModel FileModel FileProps SaveModel SaveProps SaveLoad.
From Coq Require Import Permutation.
Open Scope Z_scope.

Lemma g2_settable : settable (g_map g2).
Proof.
  apply (setters_settable default_mapping 2 1 1 (snd (set_length default_mapping (2, 1, 1))) 2); try (unfold is_u64; rewrite W_val; lia); try lia; vm_compute; reflexivity.
Qed.
(** cells of one, two or three bytes which are all the same *)
Definition byte_of (d : bool) : Z := if d then 200 else 100.
Definition ubool : user bool := User
  (fun c _ _ _ _ => Shape true (c mod 3 + 1) 1)
  (fun c _ _ _ d => repeat (byte_of d) (Z.to_nat (c mod 3 + 1)))
  (fun c _ _ _ _ b => 150 <? hd 0 b).
Lemma ubool_ok c d r : item_ok ubool (c, d) r.
Proof.
  unfold item_ok, ubool. cbn [u_shape u_get h_count h_size h_named fst snd]. pose proof (Z.mod_pos_bound c 3 ltac:(lia)). split; [split; cbn [h_count h_size]; lia|]. split; [|left; reflexivity]. rewrite repeat_length. lia.
Qed.
Lemma ubool_law c q r d e : u_put ubool c (-1) r true e (u_get ubool c q (-1) false d) = d.
Proof.
  cbn [ubool u_put u_get]. pose proof (Z.mod_pos_bound c 3 ltac:(lia)). destruct (Z.to_nat (c mod 3 + 1)) as [|k] eqn:E; [lia|]. cbn [repeat hd]. destruct d; reflexivity.
Qed.
(** cell 1 is refined, some of its children are given to process 1, some data is changed *)
Definition hs : list (@step bool) := map Do [Refine 0 1; Stop; Clear 0] ++ [Move [(kid1, 1); (kid2, 1); (2, 0)]] ++ map Do [Write 0 (nth 0 kids1 0) true; Write 1 kid1 true; Write 0 2 true].
Definition cells_of (st : Z -> proc bool) (r : Z) : list Z := rev (keys (s_data (p_store (st r)))).

Definition header3 : list Z := [7; 8; 9].
Definition yc : geometry := CartesianGeometry (Cartesian [0; 0; 0] [dbl_one; dbl_one; dbl_one]).
Lemma yc_set : geometry_set (g_map g2) yc.
Proof.
  cbn [yc geometry_set c_start c_len]. split; [reflexivity|]. split; [reflexivity|]. split; [|split; [|vm_compute; reflexivity]]; intros x [<-|[<-|[<-|[]]]]; unfold is_u64; rewrite W_val; vm_compute; split; congruence.
Qed.
(** hypotheses of the theorems of C39 and C40 *)
Example c40_hypotheses : exists st writes, reachable false g2 st /\ own_cells g2 st (cells_of st) /\ saves ubool g2 yc st (cells_of st) (Flags true true true) header3 5 /\
  len (gather g2 (cells_of st)) = 9 /\ save_grid_data false ubool g2 yc st (cells_of st) (Flags true true true) header3 5 = Done (Some writes) /\ same_sizes ubool g2 st /\
  owner st 0 kid1 = Some 1 /\ owner st 0 (nth 3 kids1 0) = Some 0.
Proof.
  assert (holds (go false g2 hs) (fun st => holds (save_grid_data false ubool g2 yc st (cells_of st) (Flags true true true) header3 5) (fun w => match w with Some _ => true | None => false end) &&
    holds (selected g2 st (cells_of st)) (fun sel => file_end ubool g2 sel (Flags true true true) (list_begin yc (Flags true true true) header3 5) <? 2 ^ 63) && (len (gather g2 (cells_of st)) =? 9) && forallb (fun r => len (cells_of st r) <? 2 ^ 30) (ranks g2) &&
    eqo (owner st 0 kid1) (Some 1) && eqo (owner st 0 (nth 3 kids1 0)) (Some 0)) = true) as Q by (vm_compute; reflexivity).
  apply holds_ex in Q. destruct Q as (st & E & Q). rewrite !andb_true_iff in Q. destruct Q as (((((Q1 & Q2) & Q3) & Q4) & Q5) & Q6). apply holds_ex in Q1. destruct Q1 as ([w|] & E1 & Q1); [|discriminate]. apply holds_ex in Q2. destruct Q2 as (sel & E2 & Q2).
  apply Z.eqb_eq in Q3. exists st, w. split; [apply (go_reachable _ _ _ _ E)|]. split; [intros r _; apply Permutation_sym, Permutation_rev|]. split; [|split; [assumption|]; split; [assumption|]; split].
  - split; [apply yc_set|]. split; [lia|]. split; [cbn; lia|]. split; [intros; apply ubool_ok|]. split; [lia|]. split; [intros r Ir; rewrite forallb_forall in Q4; specialize (Q4 r Ir); lia|]. intros sel' E'. assert (sel' = sel) as -> by congruence. lia.
  - intros q c d _ _ r d'. cbn [ubool u_get]. rewrite !repeat_length. reflexivity.
  - unfold eqo in *. destruct (owner st 0 kid1) as [a|]; [|discriminate]. destruct (owner st 0 (nth 3 kids1 0)) as [b|]; [|discriminate]. apply Z.eqb_eq in Q5, Q6. split; congruence.
Qed.
(** the saved grid loaded by three processes into a grid object with other contents *)
Definition data_in (st : Z -> proc bool) (np c : Z) : list bool :=
  flat_map (fun r => match find c (s_data (p_store (st r))) with Some d => [d] | None => [] end) (map Z.of_nat (seq 0 (Z.to_nat np))).
Example c40_example : holds (go false g2 hs) (fun st => holds (save_grid_data false ubool g2 yc st (cells_of st) (Flags true true true) header3 5) (fun w =>
  match w with
  | Some writes => holds (load_grid_data false ubool false 3 default_mapping (CartesianGeometry default_cartesian) (apply_writes (rev writes) empty_file) 5 [0; 0; 0]) (fun x =>
    match x with
    | Some z => (g_len (z_grid z) =? 0) && (g_np (z_grid z) =? 3) && (m_l0 (g_map (z_grid z)) =? 2) && (m_max (g_map (z_grid z)) =? 2) && (m_last (g_map (z_grid z)) =? m_last (g_map g2)) && same (z_header z) header3 &&
      forallb (fun c => match data_in (z_st z) 3 c, data_in st 2 c with [a], [b] => Bool.eqb a b | _, _ => false end) (2 :: kids1) &&
      match data_in (z_st z) 3 1 with [] => true | _ => false end && match data_in (z_st z) 3 kid1 with [b] => b | _ => false end
    | None => false
    end)
  | None => false
  end)) = true.
Proof. vm_compute. reflexivity. Qed.

(** ** Several items of a derived datatype *)
Definition g1 : grid := Grid (update_last_cell (Mapping 2 1 1 0 0)) (Topo false false false) 0 1.
Example g1_ok : grid_ok g1. Proof. apply grid_okb; vm_compute; reflexivity. Qed.
Lemma g1_settable : settable (g_map g1).
Proof.
  apply (setters_settable default_mapping 2 1 1 (snd (set_length default_mapping (2, 1, 1))) 0); try (unfold is_u64; rewrite W_val; lia); try lia; vm_compute; reflexivity.
Qed.
(** two items of one byte of a derived datatype *)
Definition upair : user (bool * bool) := User
  (fun _ _ _ _ _ => Shape false 2 1)
  (fun _ _ _ _ d => [byte_of (fst d); byte_of (snd d)])
  (fun _ _ _ _ _ b => (150 <? hd 0 b, 150 <? hd 0 (tl b))).
Definition st_of {D} (d0 : D) (g : grid) (l : list (@step D)) : Z -> proc D := match go d0 g l with Done st => st | _ => fun r => Proc no_requests (Caches [] [] [] [] []) (created_store d0 g r) end.
(** C39 and C40 are false for more than one item of a derived datatype: only room for one is left
    in the file, the data of cells 1 and 2 overlaps and cell 1 is not restored. *)
Theorem c39_several_derived_items_refuted : exists (u : user (bool * bool)) g st cells writes,
  grid_ok g /\ reachable (false, false) g st /\ own_cells g st cells /\ settable (g_map g) /\ same_sizes u g st /\
  (forall c q r d e, u_put u c (-1) r true e (u_get u c q (-1) false d) = d) /\
  (forall c r d, let h := u_shape u c r (-1) false d in shape_ok h /\ len (u_get u c r (-1) false d) = h_count h * h_size h) /\
  save_grid_data false u g NoGeometry st cells (Flags true true true) [] 0 = Done (Some writes) /\
  (exists a b, In a writes /\ In b writes /\ a <> b /\ ~ apart a b) /\
  exists z, load_grid_data false u (false, false) 1 default_mapping NoGeometry (apply_writes writes empty_file) 0 [] = Done (Some z) /\
    find 1 (s_data (p_store (st 0))) = Some (true, true) /\ find 1 (s_data (p_store (z_st z 0))) = Some (true, false).
Proof.
  set (l := map Do [Write 0 1 (true, true)] : list (@step (bool * bool))).
  exists upair, g1, (st_of (false, false) g1 l), (fun r => [1; 2]), 
    (match save_grid_data false upair g1 NoGeometry (st_of (false, false) g1 l) (fun r => [1; 2]) (Flags true true true) [] 0 with Done (Some w) => w | _ => [] end).
  split; [apply g1_ok|]. split; [apply (go_reachable (false, false) g1 l); vm_compute; reflexivity|]. split.
  { intros r Ir. apply below_in in Ir. cbn [g1 g_np] in Ir. assert (r = 0) as -> by lia. replace (keys (s_data (p_store (st_of (false, false) g1 l 0)))) with [1; 2] by (vm_compute; reflexivity). apply Permutation_refl. }
  split; [apply g1_settable|]. split; [intros q c d _ _ r d'; reflexivity|]. split; [intros c q r [[] []] e; reflexivity|]. split; [intros c r d; cbn zeta; split; [split; cbn; lia|reflexivity]|].
  split; [vm_compute; reflexivity|]. split.
  - exists (87, [200; 200]), (88, [100; 100]). split; [vm_compute; tauto|]. split; [vm_compute; tauto|]. split; [discriminate|]. unfold apart. cbn [fst snd length]. lia.
  - eexists. split; [vm_compute; reflexivity|]. split; vm_compute; reflexivity.
Qed.

(** ** Loading several items per call *)
(** data of any number of bytes, loaded two bytes at a time *)
Definition ulist (named : bool) (n : nat) : user (list Z) := User
  (fun _ _ _ receiving d => if receiving : bool then Shape true (if named then Z.of_nat n else 1) (if named then 1 else Z.of_nat n) else Shape true (len d) 1)
  (fun _ _ _ receiving d => if receiving : bool then repeat 0 n else d)
  (fun _ _ _ _ d b => d ++ b).
Definition run_parts (u : user (list Z)) (k : nat) : list Z :=
  let st := st_of [] g1 (map Do [Write 0 1 [1; 2; 3; 4]; Write 0 2 [5; 6; 7; 8]]) in
  match save_grid_data false u g1 NoGeometry st (fun r => [1; 2]) (Flags true true true) [] 0 with
  | Done (Some writes) =>
    match start_loading false [] 1 default_mapping NoGeometry (apply_writes writes empty_file) 0 [] with
    | Done (Some z) => match continue_times u k (apply_writes writes empty_file) z with
      | Done z' => match find 1 (s_data (p_store (z_st z' 0))) with Some d => d | None => [] end
      | _ => [] end
    | _ => [] end
  | _ => [] end.
(** with one item of two bytes the parts are loaded one after the other, *)
Example c56_example : run_parts (ulist false 2) 2 = [1; 2; 3; 4]. Proof. vm_compute. reflexivity. Qed.
Example c56_hypotheses : forall r c, single_items (ulist false 2) 2 r c [] [1; 2; 3; 4] /\ load_parts (ulist false 2) 2 r c [] [1; 2; 3; 4] = [1; 2; 3; 4].
Proof. intros r c. cbn. split; [|reflexivity]. split; [reflexivity|]. split; [lia|]. split; [reflexivity|]. split; [lia|exact I]. Qed.
(** with two items of one byte the second call starts from the second byte *)
Theorem c56_several_items_per_call_refuted : exists u d, (forall c r, len (u_get u c (-1) r true []) = h_count (u_shape u c (-1) r true []) * h_size (u_shape u c (-1) r true [])) /\
  run_parts u 2 = d /\ d = [1; 2; 2; 3].
Proof. exists (ulist true 2), (run_parts (ulist true 2) 2). split; [intros c r; reflexivity|]. split; [reflexivity|vm_compute; reflexivity]. Qed.

(** ** Large grids *)
Section Large.
Context {D : Type} (d0 : D) (g : grid) (Hg : grid_ok g).
Notation T := (vol (dims_of (g_map g))).
Lemma created_number st r : initialize d0 g = Done st -> In r (ranks g) ->
  len (keys (s_data (p_store (st r)))) = start T (g_np g) (r + 1) - start T (g_np g) r.
Proof.
  intros E Ir. destruct (initialize_ok d0 g Hg) as (st0 & E0 & G & _). assert (st0 = st) as -> by congruence. destruct (proj2 G r Ir) as ((_ & _ & N & Hd) & _).
  pose proof (vol_bound g Hg) as B. pose proof Hg as (_ & _ & _ & Hnp). apply below_in in Ir. pose proof (start_mono T (g_np g) B Hnp r (r + 1) ltac:(lia)) as M. pose proof (start_mono T (g_np g) B Hnp 0 r ltac:(lia)) as M0. rewrite start_0 in M0 by assumption.
  rewrite (Permutation_length (l' := zseq (start T (g_np g) r + 1) (Z.to_nat (start T (g_np g) (r + 1) - start T (g_np g) r)))).
  - unfold zseq. rewrite map_length, seq_length. lia.
  - apply NoDup_Permutation; [assumption|apply zseq_NoDup|]. intros c. rewrite zseq_In, keys_find, <- has_find, Hd, (own0_spec g Hg). lia.
Qed.
End Large.
Definition gbig : grid := Grid (update_last_cell (Mapping 1024 1024 1024 0 0)) (Topo false false false) 0 2.
Example gbig_ok : grid_ok gbig. Proof. apply grid_okb; vm_compute; reflexivity. Qed.
Lemma gbig_settable : settable (g_map gbig).
Proof.
  apply (setters_settable default_mapping 1024 1024 1024 (snd (set_length default_mapping (1024, 1024, 1024))) 0); try (unfold is_u64; rewrite W_val; lia); try lia; vm_compute; reflexivity.
Qed.
Lemma gbig_half r : In r (ranks gbig) -> start (vol (dims_of (g_map gbig))) (g_np gbig) (r + 1) - start (vol (dims_of (g_map gbig))) (g_np gbig) r = 2 ^ 29.
Proof. intros Ir. apply below_in in Ir. cbn [gbig g_np] in Ir. assert (r = 0 \/ r = 1) as [-> | ->] by lia; vm_compute; reflexivity. Qed.
(** one byte in each cell *)
Definition uone : user unit := User (fun _ _ _ _ _ => Shape true 1 1) (fun _ _ _ _ _ => [0]) (fun _ _ _ _ d _ => d).
Lemma uone_tot sel r : tot (shapes uone sel r) = number sel r.
Proof.
  unfold shapes, number. induction (sel r) as [|e l IH]; [reflexivity|]. cbn [map tot fold_right length]. fold (tot (map (fun e => u_shape uone (fst e) r (-1) false (snd e)) l)). rewrite IH. cbn [uone u_shape adv h_named h_count h_size]. lia.
Qed.
(** A grid of 1024^3 cells can be saved but cannot be loaded by any number of processes. *)
Theorem c40_large_grids_refuted : exists g st cells writes, grid_ok g /\ reachable tt g st /\ own_cells g st cells /\ saves uone g NoGeometry st cells (Flags true true true) [] 0 /\
  settable (g_map g) /\ same_sizes uone g st /\ save_grid_data false uone g NoGeometry st cells (Flags true true true) [] 0 = Done (Some writes) /\
  forall np' m0, 0 < np' < 2 ^ 31 -> load_grid_data false uone tt np' m0 NoGeometry (apply_writes writes empty_file) 0 [] = Done None.
Proof.
  pose proof gbig_ok as Hg. destruct (initialize_inv tt gbig Hg) as (st & E & _). pose proof (reach_init tt gbig st E) as R. set (cells r := keys (s_data (p_store (st r)))).
  assert (own_cells gbig st cells) as Oc by (intros r _; apply Permutation_refl).
  assert (forall r, In r (ranks gbig) -> len (cells r) = 2 ^ 29) as Hc by (intros r Ir; unfold cells; rewrite (created_number tt gbig Hg st r E Ir); apply gbig_half; assumption).
  assert (len (gather gbig cells) = 2 ^ 30) as Hl.
  { unfold gather. change (ranks gbig) with [0; 1]. cbn [flat_map]. rewrite !app_length, !Nat2Z.inj_add. rewrite !Hc by (change (ranks gbig) with [0; 1]; cbn; tauto). reflexivity. }
  assert (saves uone gbig NoGeometry st cells (Flags true true true) [] 0) as Hs.
  { split; [exact I|]. split; [lia|]. split; [cbn; lia|]. split; [intros r c d _ _ _; split; [split; cbn; lia|]; split; [reflexivity|left; reflexivity]|]. split; [lia|]. split; [intros r Ir; rewrite Hc by assumption; lia|].
    intros sel Es. unfold file_end, data_begin. pose proof (number_gather _ _ _ _ Es) as En. unfold nbytes. rewrite (psum_ext _ (number sel)) by (intros; apply uone_tot). fold (ntotal gbig sel). rewrite En, Hl. vm_compute. reflexivity. }
  destruct (whole_facts tt gbig st cells Hg R Oc) as ((sel & Es) & _ & _). pose proof Hs as (_ & _ & _ & Hi & Hn1 & Hn2 & He).
  destruct (c39_cells_are_stored_once_without_overlap false uone gbig NoGeometry st cells (Flags true true true) [] 0 sel ltac:(cbn; lia) I ltac:(lia) ltac:(cbn; lia) Es Hi Hn1 Hn2 (He sel Es)) as (writes & es & Ew & _).
  exists gbig, st, cells, writes. split; [assumption|]. split; [assumption|]. split; [assumption|]. split; [assumption|]. split; [apply gbig_settable|]. split; [intros q c d _ _ r d'; reflexivity|]. split; [assumption|].
  intros np' m0 Hnp. apply (c40_large_grids_are_not_loaded false uone tt gbig NoGeometry st cells [] 0 writes writes empty_file np' m0 NoGeometry []); try assumption; [apply gbig_settable|apply Permutation_refl|exact I|reflexivity|]. rewrite Hl. lia.
Qed.
