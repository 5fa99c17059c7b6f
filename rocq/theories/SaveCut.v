(** C40: files whose list of cells has been cut are refused *)
From Verif Require Import U64 MapModel MapSpec MapProofs MapFamily MapProps HoodModel MeshModel
  MeshSpec MeshBase HoodProps MeshWalk MeshFind MeshKids MeshItem MeshCheck MeshTo MeshNear
  Sets RefineModel RefineGeo RefineInv RefineSpread RefineMerge RefineFold RefineExec RefineStop
  BalanceModel RefineReqs Create Balance History HistProps LoadCells DblModel FileModel FileProps SaveModel SaveProps SaveLoad.
Open Scope Z_scope.

Lemma read_split f a b : forall o, read_at f o (a ++ b) = read_at f o a ++ read_at f (o + Z.of_nat (length a)) b.
Proof.
  induction a as [|x a IH]; intros o; cbn [app read_at length]; [rewrite Z.add_0_r; reflexivity|]. rewrite IH. do 2 f_equal. f_equal. lia.
Qed.
Lemma read_nothing f b : forall o, (forall i, o <= i < o + Z.of_nat (length b) -> f i = None) -> read_at f o b = b.
Proof.
  induction b as [|x b IH]; intros o H; [reflexivity|]. cbn [read_at length] in *. rewrite (H o) by lia. rewrite IH; [reflexivity|]. intros i L. apply H. lia.
Qed.
Section Words.
Context (big : bool).
Lemma word_at f k : forall o j, (j < k)%nat ->
  nth_error (take_words big k (read_at f o (words big (repeat error_cell k)))) j = Some (value_of big (read_at f (o + 8 * Z.of_nat j) (bytes_of big 8 error_cell))).
Proof.
  induction k as [|k IH]; intros o j L; [lia|]. cbn [repeat]. unfold words. cbn [flat_map]. fold (words big (repeat error_cell k)). rewrite read_split, bytes_length. cbn [take_words].
  assert (length (read_at f o (bytes_of big 8 error_cell)) = 8%nat) as L8 by (rewrite read_length, bytes_length; reflexivity).
  rewrite firstn_app, skipn_app, L8, Nat.sub_diag. rewrite (firstn_all2 (n := 8)), (skipn_all2 (n := 8)) by lia. cbn [firstn skipn]. rewrite app_nil_r. cbn [app]. destruct j as [|j]; cbn [nth_error].
  - do 4 f_equal. lia.
  - rewrite IH by lia. do 3 f_equal. lia.
Qed.
End Words.
Lemma pair_at i : forall l a b, nth_error l (2 * i) = Some a -> nth_error l (2 * i + 1) = Some b -> nth_error (pairs l) i = Some (a, b).
Proof.
  induction i as [|i IH]; intros [|x [|y l]] a b A B; cbn in A, B; try discriminate.
  - injection A as ->. injection B as ->. reflexivity.
  - replace (i + S (i + 0))%nat with (S (2 * i)) in * by lia. cbn in A. destruct (2 * i)%nat; discriminate.
  - cbn [pairs nth_error]. apply IH; [replace (i + S (i + 0))%nat with (S (2 * i)) in A by lia; exact A|replace (i + S (i + 0) + 1)%nat with (S (2 * i + 1)) in B by lia; exact B].
Qed.

(** The file has everything up to the number of cells, but ends before some cell of the list: the program stops. This holds
    for files of any origin, on any number of processes. *)
Theorem c40_cut_list_is_refused big {D} (d0 : D) g y m0 y0 header buffer N f o i :
  grid_ok g -> settable (g_map g) -> geometry_set (g_map g) y -> same_class y y0 -> length buffer = length header -> len header < 2 ^ 31 ->
  0 <= i < N -> N < 2 ^ 30 -> stored f o (header ++ info_bytes big g y N) ->
  (forall b, 0 <= b < 8 -> f (o + len header + len (info_bytes big g y N) + 16 * i + b) = None) ->
  start_loading big d0 (g_np g) m0 y0 f o buffer = Threw.
Proof.
  intros Hg Hm Hy Hc Hb Hh Hi HN S Cut. destruct (read_prefix big d0 g Hg y y0 m0 Hm Hy Hc header buffer Hb Hh N ltac:(rewrite W_val; lia) f o S) as (p & Pp & Ep & ->).
  unfold start_cells. destruct (initialize_inv d0 g Hg) as (st0 & -> & _). cbn [bind]. rewrite Ep. unfold read_pairs. unfold mul64. rewrite u64_small by (rewrite W_val; lia). rewrite to_int_small by lia.
  destruct (Z.ltb_spec (2 * N) 0) as [|_]; [lia|]. rewrite Nat.sub_diag. cbn [repeat]. rewrite app_nil_r.
  match goal with |- context [existsb ?h ?l] => assert (existsb h l = true) as -> end; [|reflexivity].
  apply existsb_exists. set (ws := take_words _ _ _).
  assert (forall j, (j < Z.to_nat (2 * N))%nat -> nth_error ws j = Some (value_of big (read_at f (p + 8 + 8 * Z.of_nat j) (bytes_of big 8 error_cell)))) as W by (intros; apply word_at; assumption).
  assert (nth_error (pairs ws) (Z.to_nat i) = Some (error_cell, value_of big (read_at f (p + 8 + 8 * Z.of_nat (2 * Z.to_nat i + 1)) (bytes_of big 8 error_cell)))) as E.
  { apply pair_at; [|apply W; lia]. rewrite W by lia. f_equal. rewrite read_nothing; [apply value_word; red; unfold error_cell; rewrite W_val; lia|].
    rewrite bytes_length. intros j L. replace j with (o + len header + len (info_bytes big g y N) + 16 * i + (j - (p + 8 + 16 * i))) by lia. apply Cut. lia. }
  apply nth_error_In in E. eexists. split; [exact E|]. apply Z.eqb_refl.
Qed.
(** two cells: the list is whole, ends after the first cell, ends after the second cell: then the place of its data is not
    known but nothing is said *)
Definition two_g : grid := Grid (update_last_cell (Mapping 2 1 1 0 0)) (Topo false false false) 1 1.
Definition cut_file (list : list Z) : file := fun i => if i <? 0 then None else nth_error (info_bytes false two_g NoGeometry 2 ++ words false list) (Z.to_nat i).
Definition outcome_of (list : list Z) : Z :=
  match start_loading false 0 1 (Mapping 1 1 1 0 1) NoGeometry (cut_file list) 0 [] with Done (Some l) => Z.of_nat (length (z_disp l 0)) | Done None => -1 | Threw => -2 | _ => -3 end.
Example c40_example_cut : outcome_of [1; 100; 2; 108] = 2 /\ outcome_of [1; 100] = -2 /\ outcome_of [1; 100; 2] = 2.
Proof. repeat split; vm_compute; reflexivity. Qed.
(** a file that ends between the last cell and the place of its data is not refused, the data is read from byte 0 *)
Theorem c40_cut_place_refuted : exists l, start_loading false 0 1 (Mapping 1 1 1 0 1) NoGeometry (cut_file [1; 100; 2]) 0 [] = Done (Some l) /\ z_disp l 0 = [(1, 100); (2, 0)].
Proof.
  destruct (start_loading false 0 1 (Mapping 1 1 1 0 1) NoGeometry (cut_file [1; 100; 2]) 0 []) as [[l|]| |] eqn:E; [|vm_compute in E; discriminate..].
  exists l. split; [reflexivity|]. assert (match start_loading false 0 1 (Mapping 1 1 1 0 1) NoGeometry (cut_file [1; 100; 2]) 0 [] with Done (Some l) => z_disp l 0 | _ => [] end = [(1, 100); (2, 0)]) as H by (vm_compute; reflexivity). rewrite E in H. exact H.
Qed.
