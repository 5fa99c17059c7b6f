(** C74: dc2vtk.cpp shows what game_of_life_with_output.cpp has saved. *)
From Coq Require Import QArith Permutation.
From Verif Require Import U64 MapModel MapSpec MapProofs MapFamily MapProps HoodModel DblModel MeshModel
  MeshSpec MeshBase HoodProps MeshWalk MeshFind MeshKids MeshItem MeshCheck MeshTo MeshNear MeshLookup
  Sets RefineModel RefineGeo RefineInv RefineSpread RefineMerge RefineFold RefineExec RefineStop
  BalanceModel RefineReqs Create Balance History HistProps BalProps LoadCells HistExamples FileModel FileProps SaveModel SaveProps SaveLoad
  VtkModel VtkProps ConvertModel.
Open Scope Z_scope.

(** ** Consecutive data *)
Definition sizes (ws : list (Z * list Z)) : Z := fold_right (fun w n => len (snd w) + n) 0 ws.
Lemma ordered_total ws : forall o e, ordered o ws e -> o + sizes ws <= e.
Proof. induction ws as [|w r IH]; intros o e H; cbn [ordered sizes fold_right] in *; [lia|]. destruct H as [A B]. apply IH in B. fold (sizes r). lia. Qed.
Lemma tight f ws : forall o e, ordered o ws e -> e = o + sizes ws -> (forall w, In w ws -> stored f (fst w) (snd w)) -> stored f o (flat_map snd ws).
Proof.
  induction ws as [|w r IH]; intros o e H E S; cbn [ordered sizes fold_right flat_map] in *; [intros i x Q; destruct i; discriminate|]. fold (sizes r) in *. destruct H as [A B]. pose proof (ordered_total _ _ _ B). assert (fst w = o) as Ew by lia.
  rewrite stored_app. split; [rewrite <- Ew; apply S; left; reflexivity|]. apply (IH _ e); [rewrite <- Ew; assumption|lia|]. intros v Iv. apply S. right. assumption.
Qed.

Lemma combine_fst {A B} (a : list A) : forall b : list B, length a = length b -> map fst (combine a b) = a.
Proof. induction a as [|x a IH]; intros [|z b] E; try discriminate; [reflexivity|]. cbn [combine map fst]. f_equal. apply IH. injection E. auto. Qed.
Section Read.
Context (big : bool).
Notation words := (words big).
Lemma read_word f o v buffer : stored f o (bytes_of big 8 v) -> is_u64 v -> length buffer = 8%nat -> value_of big (read_at f o buffer) = v.
Proof. intros S U B. rewrite (read_stored f (bytes_of big 8 v)); [apply value_word; assumption|assumption|]. rewrite bytes_length. assumption. Qed.
Lemma read_ids_ok f es : forall o, stored f o (words (flat_map (fun e : Z * Z * list Z => [fst (fst e); snd (fst e)]) es)) -> (forall e, In e es -> is_u64 (fst (fst e))) ->
  read_ids big (length es) f o = map (fun e => fst (fst e)) es.
Proof.
  induction es as [|e es IH]; intros o S U; [reflexivity|]. cbn [length read_ids map flat_map app] in *. unfold FileModel.words in S. cbn [flat_map] in S. rewrite !stored_app, !bytes_length in S. destruct S as (S1 & S2 & S3). f_equal.
  - apply read_word; [assumption|apply U; left; reflexivity|apply bytes_length].
  - apply IH; [exact S3|]. intros e' I. apply U. right. assumption.
Qed.
Lemma read_alive_ok f l : forall o, stored f o (flat_map (bytes_of big 4) l) -> (forall a, In a l -> 0 <= a < 2 ^ 32) -> read_alive big (length l) f o = l.
Proof.
  induction l as [|a l IH]; intros o S U; [reflexivity|]. cbn [length read_alive flat_map] in *. rewrite stored_app, bytes_length in S. destruct S as (S1 & S2). f_equal.
  - rewrite (read_stored f (bytes_of big 4 a)); [apply value_bytes; apply (U a); left; reflexivity|assumption|rewrite !bytes_length; reflexivity].
  - apply IH; [exact S2|]. intros b I. apply U. right. assumption.
Qed.
End Read.

Section Saved.
Context (big : bool) (d0 : Z * Z) (g : grid) (Hg : grid_ok g) (c : cartesian) (st : Z -> proc (Z * Z)) (R : reachable d0 g st).
Notation fl := (Flags true true true).
Notation y := (CartesianGeometry c).
Notation u := (game_cell big).
(** the local cells of each process in some order; is_alive is an unsigned int; numbers of cells fit *)
Context (cells : Z -> list Z) (Hc : own_cells g st cells) (Hd : forall q e d, In q (ranks g) -> find e (s_data (p_store (st q))) = Some d -> 0 <= fst d < 2 ^ 32).
Context (Hy : geometry_set (g_map g) y) (Hm : settable (g_map g)).
Context (Hn : len (gather g cells) < 2 ^ 58) (Hr : forall r, In r (ranks g) -> len (cells r) < 2 ^ 30) (step : Z).
Notation header := (game_header big step).

Lemma sizes_fit sel : nbytes u g sel = 4 * ntotal g sel.
Proof.
  unfold nbytes, ntotal, psum. induction (below (g_np g)) as [|r l IH]; cbn [fold_right]; [reflexivity|]. rewrite IH. assert (tot (shapes u sel r) = 4 * number sel r) as ->; [|lia]. unfold shapes, number. induction (sel r) as [|e k IHk]; [reflexivity|].
  cbn [map tot fold_right length]. fold (tot (map (fun e => u_shape u (fst e) r (-1) false (snd e)) k)). rewrite IHk. cbn [game_cell u_shape]. unfold adv. cbn [h_named h_count h_size]. lia.
Qed.
Lemma game_item r e d : item_ok u (e, d) r.
Proof. split; [split; cbn; lia|]. split; [cbn [game_cell u_get u_shape h_count h_size fst snd]; rewrite bytes_length; reflexivity|left; reflexivity]. Qed.
Lemma game_saves : saves u g y st cells fl header 0.
Proof.
  split; [assumption|]. split; [lia|]. split; [unfold game_header; rewrite words_length; cbn [length]; lia|]. split; [intros; apply game_item|]. split; [assumption|]. split; [assumption|]. intros sel Es.
  unfold file_end, data_begin. rewrite sizes_fit, (number_gather _ _ _ _ Es). unfold list_begin, per_cell, info_size, mapping_size, topology_size. cbn [w_info w_ids w_offsets geometry_size]. unfold cartesian_size, game_header. rewrite words_length. cbn [length]. lia.
Qed.

(** In whatever order the processes write, dc2vtk.cpp reads the grid and the cells of the saved grid with their is_alive. *)
Theorem c74_saved_games_are_read : exists writes, save_grid_data big u g y st cells fl header 0 = Done (Some writes) /\
  forall ws f junk, Permutation writes ws -> exists l, read_game big junk (apply_writes ws f) = Some (Shown (g_map g) (g_topo g) c l) /\
    NoDup (map fst l) /\ (forall e, In e (map fst l) <-> exists_on st 0 e = true) /\
    map fst l = gather g cells /\
    (forall e a, In (e, a) l -> exists q d, In q (ranks g) /\ find e (s_data (p_store (st q))) = Some d /\ a = fst d).
Proof.
  pose proof game_saves as (_ & _ & Hh & Hi & _ & _ & He). destruct (whole_facts d0 g st cells Hg R Hc) as ((sel & Es) & Nd & Ex). specialize (He sel Es).
  destruct (c39_cells_are_stored_once_without_overlap big u g y st cells fl header 0 sel) as (writes & es & E & F2 & Ord & St); try assumption; [destruct Hg as (_ & _ & _ & Gn); lia|lia|]. cbn zeta in Ord, St. cbn [w_info] in Ord, St.
  exists writes. split; [exact E|]. intros ws f junk P. destruct (St ws f P) as (S & Sd & _). clear St. set (f' := apply_writes ws f) in *. clearbody f'.
  assert (map (fun e => fst (fst e)) es = gather g cells) as Ec. { rewrite <- flat_map_fst. apply (Forall2_map_fst _ (fun e => fst (fst e)) fst _ _ F2). intros a b [Q _]. exact Q. }
  assert (len es = len (gather g cells)) as El by (rewrite <- Ec, map_length; reflexivity).
  (* is_alive of each entry *)
  assert (exists al, map snd es = map (bytes_of big 4) al /\ length al = length es /\ (forall a, In a al -> 0 <= a < 2 ^ 32) /\
    forall e a, In (e, a) (combine (map (fun e => fst (fst e)) es) al) -> exists q d, In q (ranks g) /\ find e (s_data (p_store (st q))) = Some d /\ a = fst d) as (al & A1 & A2 & A3 & A4).
  { assert (forall p, In p (flat_map (fun r => map (fun c => (c, r)) (cells r)) (ranks g)) -> In (snd p) (ranks g)) as Iq by (intros p Ip; apply in_flat_map in Ip; destruct Ip as (r & Ir & Ip); apply in_map_iff in Ip; destruct Ip as (e & <- & _); assumption).
    revert F2 Iq. generalize (flat_map (fun r => map (fun c => (c, r)) (cells r)) (ranks g)). clear - Hd. intros l F2. induction F2 as [|e p es l (Q & d & Fd & Eb) F2 IH]; intros Iq; [exists []; split; [reflexivity|]; split; [reflexivity|]; split; [intros ? []|intros ? ? []]|].
    destruct (IH (fun p Ip => Iq p (or_intror Ip))) as (al & A1 & A2 & A3 & A4). pose proof (Iq p (or_introl eq_refl)) as Ir. exists (fst d :: al). cbn [map length combine]. rewrite A1, A2, Eb. split; [reflexivity|]. split; [reflexivity|]. split.
    - intros a [<-|Ia]; [apply (Hd _ _ _ Ir Fd)|auto].
    - intros e' a [I|I]; [|auto]. injection I as <- <-. rewrite Q. eauto. }
  assert (sizes (map (fun e => (snd (fst e), snd e)) es) = 4 * len es) as Sz.
  { unfold sizes. assert (forall l : list (Z * Z * list Z), (forall b, In b (map snd l) -> length b = 4%nat) -> fold_right (fun w n => len (snd w) + n) 0 (map (fun e => (snd (fst e), snd e)) l) = 4 * len l) as K.
    { induction l as [|e l IH]; intros H; [reflexivity|]. cbn [map fold_right snd length]. rewrite IH by (intros b Ib; apply H; right; assumption). rewrite (H (snd e)) by (left; reflexivity). lia. }
    apply K. intros b Ib. rewrite A1 in Ib. apply in_map_iff in Ib. destruct Ib as (a & <- & _). apply bytes_length. }
  assert (len (words big (flat_map (fun e => listed fl (fst (fst e)) (snd (fst e))) es)) = 16 * len es) as Lw.
  { rewrite words_length. change (flat_map (fun e : Z * Z * list Z => listed fl (fst (fst e)) (snd (fst e))) es) with (flat_map (fun e : Z * Z * list Z => [fst (fst e); snd (fst e)]) es). rewrite flat2_length. lia. }
  assert (len (info_bytes big g y (len es)) = 8 + mapping_size + 4 + topology_size + cartesian_size + 8) as Li.
  { unfold info_bytes. rewrite !app_length, !words_length, bytes_length. cbn [length topology_bytes]. pose proof (geometry_bytes_size big (g_map g) y Hy). pose proof (mapping_bytes_size big (g_map g)). cbn [geometry_size] in *. unfold topology_size. lia. }
  rewrite !app_length, !Nat2Z.inj_add in Ord. rewrite Lw, Li in Ord. rewrite !stored_app in S. destruct S as (Sh & Si & Sl). assert (len header = 8) as Lh by (unfold game_header; rewrite words_length; reflexivity). rewrite Lh in *. rewrite Li in Sl.
  (* data *)
  assert (stored f' (8 + (8 + mapping_size + 4 + topology_size + cartesian_size + 8) + 16 * len es) (flat_map (bytes_of big 4) al)) as Sa.
  { assert (flat_map (bytes_of big 4) al = flat_map snd (map (fun e => (snd (fst e), snd e)) es)) as -> by (rewrite !flat_map_concat_map, map_map; cbn [snd]; rewrite <- A1; reflexivity).
    apply (tight f' _ _ _ (ordered_weak _ (8 + (8 + mapping_size + 4 + topology_size + cartesian_size + 8) + 16 * len es) _ _ _ Ord ltac:(lia) (Z.le_refl _))).
    - rewrite Sz. unfold file_end, data_begin. rewrite sizes_fit, (number_gather _ _ _ _ Es), <- El. unfold list_begin, per_cell, info_size. rewrite Lh. cbn [w_info w_ids w_offsets geometry_size]. lia.
    - intros w Iw. apply in_map_iff in Iw. destruct Iw as (e & <- & Ie). apply (Sd e Ie). }
  unfold info_bytes in Si. rewrite !stored_app, words_length, mapping_bytes_size, bytes_length in Si. cbn [length topology_bytes] in Si. destruct Si as (S1 & S2 & S3 & S4 & S5 & S6). pose proof (geometry_bytes_size big (g_map g) y Hy) as Gs. rewrite Gs in S6. cbn [geometry_size] in S6.
  exists (combine (map (fun e => fst (fst e)) es) al). split; [|split; [|split; [|split]]].
  - unfold read_game. unfold words in S1. cbn [flat_map] in S1. rewrite app_nil_r in S1. rewrite (read_word big f' 8 endianness); [|exact S1|unfold is_u64, endianness; rewrite W_val; lia|apply bytes_length]. rewrite Z.eqb_refl. cbn [negb].
    destruct (mapping_reads big (g_map g) default_mapping f' 16 Hm S2) as [-> _]. cbn [negb].
    destruct (topology_reads (g_topo g) (g_topo g) f' (16 + mapping_size + 4)) as [-> _]. { replace (16 + mapping_size + 4) with (0 + 8 + Z.of_nat (8 * 1) + mapping_size + Z.of_nat 4) by lia. exact S4. }
    pose proof (geometry_reads big (g_map g) y (CartesianGeometry default_cartesian) f' (16 + mapping_size + 4 + topology_size) Hy I) as Gr. cbn [geometry_read] in Gr. destruct (cartesian_read big default_cartesian f' (16 + mapping_size + 4 + topology_size)) as [ok cr] eqn:Er.
    assert ((ok, CartesianGeometry cr) = (true, y)) as Q. { apply Gr. replace (16 + mapping_size + 4 + topology_size) with (0 + 8 + Z.of_nat (8 * 1) + mapping_size + Z.of_nat 4 + Z.of_nat 3) by (unfold topology_size; lia). exact S5. }
    injection Q as -> ->. cbn [negb]. unfold words in S6. cbn [flat_map] in S6. rewrite app_nil_r in S6.
    rewrite (read_word big f' (16 + mapping_size + 4 + topology_size + cartesian_size) (len es)).
    + rewrite Nat2Z.id. replace (16 + mapping_size + 4 + topology_size + cartesian_size + 8) with (0 + 8 + (8 + mapping_size + 4 + topology_size + cartesian_size + 8)) by lia. rewrite (read_ids_ok big f' es _ Sl).
      * rewrite <- A2 at 1. rewrite (read_alive_ok big f' al); [reflexivity| |assumption]. replace (0 + 8 + (8 + mapping_size + 4 + topology_size + cartesian_size + 8) + 16 * len es) with (8 + (8 + mapping_size + 4 + topology_size + cartesian_size + 8) + 16 * len es) by lia. exact Sa.
      * intros e Ie. assert (exists_on st 0 (fst (fst e)) = true) as Q by (apply Ex; rewrite <- Ec; apply (in_map (fun e => fst (fst e))); assumption). pose proof (c18_cells_always_tile_the_grid d0 g Hg st 0 R (Balance.rank0 g Hg)) as Ht. apply Ht in Q. pose proof (m_last_lt_W (g_map g) (proj1 Hg)). unfold valid in Q. unfold is_u64. lia.
    + replace (16 + mapping_size + 4 + topology_size + cartesian_size) with (0 + 8 + Z.of_nat (8 * 1) + mapping_size + Z.of_nat 4 + Z.of_nat 3 + cartesian_size) by (unfold topology_size; lia). exact S6.
    + unfold is_u64. rewrite W_val. lia.
    + apply bytes_length.
  - rewrite combine_fst by (rewrite map_length; congruence). rewrite Ec. assumption.
  - rewrite combine_fst by (rewrite map_length; congruence). rewrite Ec. assumption.
  - rewrite combine_fst by (rewrite map_length; congruence). assumption.
  - exact A4.
Qed.
End Saved.

(** ** A reader of the vtk files *)
Fixpoint words_of (l : list line) : list word * list line := match l with Word w :: r => let (a, b) := words_of r in (w :: a, b) | _ => ([], l) end.
Fixpoint ints_of (l : list line) : option (list Z) := match l with [] => Some [] | Word (Int n) :: r => match ints_of r with Some k => Some (n :: k) | None => None end | _ => None end.
(** the corners of every cell, and its scalar *)
Definition read_shown (l : list line) : option (list (list (option point) * Z)) :=
  match words_of l with
  | (ws, CellData :: Word (Int n) :: Scalars :: Lookup :: r) =>
    match read_vtk ws, ints_of r with
    | Some boxes, Some values => if (n =? len boxes) && (n =? len values) then Some (combine boxes values) else None
    | _, _ => None
    end
  | _ => None
  end.
Section Write.
Context (lo hi : Z -> dim -> option Q) (out : option Q -> option Q).
Lemma words_of_map ws r : (forall w q, r <> Word w :: q) -> words_of (map Word ws ++ r) = (ws, r).
Proof. intros H. induction ws as [|w ws IH]; cbn [map app words_of]; [destruct r as [|[w| | |] r]; [reflexivity|exfalso; eapply H; reflexivity|reflexivity..]|]. rewrite IH. reflexivity. Qed.
Lemma ints_of_map (l : list (Z * Z)) : ints_of (map (fun e => Word (Int (snd e))) l) = Some (map snd l).
Proof. induction l as [|e l IH]; [reflexivity|]. cbn [map ints_of]. rewrite IH. reflexivity. Qed.
(** with at most 2^29 cells all are read back *)
Lemma read_written_game cells : len cells <= 2 ^ 29 ->
  read_shown (write_game lo hi out cells) = Some (map (fun e => (map (fun i => Some (corner lo hi out (fst e) i)) eight, snd e)) cells).
Proof.
  intros B. unfold write_game. cbv zeta. unfold read_shown. rewrite words_of_map by discriminate. cbn [app]. rewrite ints_of_map.
  assert (read_vtk ([Header; Points; Int (len cells * 8); Float] ++ flat_map (fun e => corners lo hi out (fst e)) cells ++ [Cells; Int (len cells); Int (len cells * 9)] ++ flat_map (fun j => point_numbers (Z.of_nat j)) (seq 0 (length cells)) ++ [Types; Int (len cells)] ++ map (fun _ => Int 11) cells)
    = Some (map (fun e => map (fun i => Some (corner lo hi out (fst e) i)) eight) cells)) as Q.
  { set (l := map fst cells). assert (length cells = length l) as -> by (unfold l; rewrite map_length; reflexivity). assert (flat_map (fun e => corners lo hi out (fst e)) cells = flat_map (corners lo hi out) l) as -> by (unfold l; rewrite !flat_map_concat_map, map_map; reflexivity).
    assert (map (fun _ : Z * Z => Int 11) cells = map (fun _ => Int 11) l) as -> by (unfold l; rewrite map_map; reflexivity).
    assert (map (fun e => map (fun i => Some (corner lo hi out (fst e) i)) eight) cells = map (fun c => map (fun i => Some (corner lo hi out c i)) eight) l) as -> by (unfold l; rewrite map_map; reflexivity).
    assert (len l <= 2 ^ 29) as Bl by (unfold l; rewrite map_length; assumption). clearbody l. clear B cells.
    cbn [app read_vtk]. replace (Z.to_nat (len l * 8)) with (8 * length l)%nat by lia. rewrite read_corners. cbn [app].
    rewrite (Z.mul_comm (len l) 9), Z.eqb_refl. cbn [negb]. rewrite Nat2Z.id, (read_numbers (length l) 0). cbn [app]. rewrite Z.eqb_refl. cbn [negb].
    rewrite read_types. assert (forallb (Z.eqb 11) (map (fun _ => 11) l) = true) as -> by (apply forallb_forall; intros y Hy; apply in_map_iff in Hy; destruct Hy as (? & <- & _); reflexivity).
    f_equal. rewrite map_map. rewrite <- (map_nth_seq (fun c => map (fun i => Some (corner lo hi out c i)) eight)). apply map_ext_in. intros j Hj. apply in_seq in Hj. rewrite wrapped_small by lia. rewrite map_map. apply map_ext_in. intros i Hi. assert (0 <= i < 8) by (unfold eight in Hi; cbn [In] in Hi; lia).
    replace (Z.to_nat (Z.of_nat j * 8 + i)) with (8 * j + Z.to_nat i)%nat by lia. pose proof (nth_corner lo hi out l [] j (Z.to_nat i) ltac:(lia) ltac:(lia)) as Q. rewrite app_nil_r in Q. rewrite Q, Z2Nat.id by lia. reflexivity. }
  cbn [app] in Q. rewrite Q. rewrite !map_length, !Z.eqb_refl. cbn [andb]. f_equal. clear. induction cells as [|e l IH]; [reflexivity|]. cbn [map combine]. f_equal. assumption.
Qed.
End Write.

(** every file is converted by exactly one process *)
Theorem c74_one_process_per_file comm_size arg : 0 < comm_size -> exists! r, 0 <= r < comm_size /\ converts comm_size r arg = true.
Proof.
  intros H. unfold converts. exists ((arg - 1) mod comm_size). split; [split; [apply Z.mod_pos_bound; assumption|apply Z.eqb_refl]|]. intros r [_ E]. apply Z.eqb_eq in E. assumption.
Qed.
(** files written with the other byte order are skipped *)
Theorem c74_other_byte_order_skipped big f junk bounds out : stored f 8 (words (negb big) [endianness]) -> dc2vtk big bounds out junk f = None.
Proof.
  intros S. unfold dc2vtk, read_game. assert (value_of big (read_at f 8 (bytes_of big 8 0)) =? endianness = false) as ->; [|reflexivity].
  rewrite (read_stored f (words (negb big) [endianness])); [destruct big; vm_compute; reflexivity|assumption|rewrite bytes_length, words_length; reflexivity].
Qed.
(** the vtk file of a saved game: each cell of the grid once, with the corners that the grid's geometry gives it, and its is_alive *)
Theorem c74_saved_games_are_shown big (d0 : Z * Z) g c st cells step bounds out :
  grid_ok g -> reachable d0 g st -> own_cells g st cells ->
  (forall q e d, In q (ranks g) -> find e (s_data (p_store (st q))) = Some d -> 0 <= fst d < 2 ^ 32) ->
  geometry_set (g_map g) (CartesianGeometry c) -> settable (g_map g) -> len (gather g cells) <= 2 ^ 29 ->
  exists writes, save_grid_data big (game_cell big) g (CartesianGeometry c) st cells (Flags true true true) (game_header big step) 0 = Done (Some writes) /\
  forall ws f junk, Permutation writes ws -> exists lines l, dc2vtk big bounds out junk (apply_writes ws f) = Some lines /\
    read_shown lines = Some (map (fun e => (map (fun i => Some (corner (bounds (g_map g) (g_topo g) c false) (bounds (g_map g) (g_topo g) c true) out (fst e) i)) eight, snd e)) l) /\
    NoDup (map fst l) /\ (forall e, In e (map fst l) <-> exists_on st 0 e = true) /\
    (forall e a, In (e, a) l -> exists q d, In q (ranks g) /\ find e (s_data (p_store (st q))) = Some d /\ a = fst d).
Proof.
  intros Hg R Hc Hd Hy Hm Hn. assert (forall r, In r (ranks g) -> len (cells r) < 2 ^ 30) as Hr.
  { intros r Ir. assert (len (cells r) <= len (gather g cells)); [|lia]. unfold gather. revert Ir. generalize (ranks g). clear. induction l as [|a l IH]; [intros []|]. cbn [flat_map]. rewrite app_length. intros [<-|I]; [lia|]. apply IH in I. lia. }
  destruct (c74_saved_games_are_read big d0 g Hg c st R cells Hc Hd Hy Hm ltac:(lia) Hr step) as (writes & E & H). exists writes. split; [assumption|]. intros ws f junk P. destruct (H ws f junk P) as (l & Rl & N & Ex & Eg & Da).
  unfold dc2vtk. rewrite Rl. cbn [h_map h_topo h_geo h_cells]. eexists. exists l. split; [reflexivity|]. split; [|auto]. apply read_written_game. rewrite <- (map_length fst), Eg. assumption.
Qed.
