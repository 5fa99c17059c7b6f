(** Saving followed by loading, C39, C40. *)
From Verif Require Import U64 MapModel MapSpec MapProofs MapFamily MapProps HoodModel MeshModel
  MeshSpec MeshBase HoodProps MeshWalk MeshFind MeshKids MeshItem MeshCheck MeshTo MeshNear
  Sets RefineModel RefineGeo RefineInv RefineSpread RefineMerge RefineFold RefineExec RefineStop
  BalanceModel RefineReqs Create Balance History HistProps LoadCells DblModel FileModel FileProps SaveModel SaveProps.
From Coq Require Import Permutation.
Open Scope Z_scope.
Notation len b := (Z.of_nat (length b)).

(** ** Reading a file *)
Lemma pairs_flat (l : list (Z * Z)) : pairs (flat_map (fun e => [fst e; snd e]) l) = l.
Proof. induction l as [|[a b] l IH]; cbn [flat_map app pairs fst snd]; [reflexivity|]. rewrite IH. reflexivity. Qed.
Lemma flat2_length {A} (h k : A -> Z) l : length (flat_map (fun e => [h e; k e]) l) = (2 * length l)%nat.
Proof. induction l as [|a l IH]; cbn [flat_map app length]; [reflexivity|]. rewrite IH. lia. Qed.

Lemma read_prefix big {D} (d0 : D) g (Hg : grid_ok g) y y0 m0 (Hm : settable (g_map g)) (Hy : geometry_set (g_map g) y) (Hc : same_class y y0)
  header buffer (Hb : length buffer = length header) (Hh : len header < 2 ^ 31) N (HN : 0 <= N < W) f o : stored f o (header ++ info_bytes big g y N) ->
  exists p, p = o + len header + len (info_bytes big g y N) - 8 /\ hd 0 (take_words big 1 (read_at f p (words big [0]))) = N /\
    start_loading big d0 (g_np g) m0 y0 f o buffer = start_cells big d0 g y header f p.
Proof.
  intros S. rewrite stored_app in S. destruct S as [Sh Si]. unfold info_bytes in Si. rewrite !stored_app, words_length, mapping_bytes_size, bytes_length in Si. cbn [length topology_bytes] in Si.
  assert (len (info_bytes big g y N) = 8 + mapping_size + 4 + topology_size + geometry_size y + 8) as Li.
  { unfold info_bytes. rewrite !app_length, !words_length, bytes_length. cbn [length topology_bytes]. pose proof (geometry_bytes_size big (g_map g) y Hy). pose proof (mapping_bytes_size big (g_map g)). unfold topology_size. lia. }
  destruct Si as (S1 & S2 & S3 & S4 & S5 & S6). pose proof (geometry_bytes_size big (g_map g) y Hy) as Gs. rewrite Gs in S6.
  set (p := o + len header) in *. exists (p + 8 + mapping_size + 4 + topology_size + geometry_size y). split; [rewrite Li; lia|]. split.
  { rewrite (read_words big f _ [N] (words big [0])); [reflexivity| | |rewrite words_length; reflexivity].
    - replace (p + 8 + mapping_size + 4 + topology_size + geometry_size y) with (p + Z.of_nat (8 * 1) + mapping_size + Z.of_nat 4 + Z.of_nat 3 + geometry_size y) by (unfold topology_size; lia). assumption.
    - intros x [<-|[]]. exact HN. }
  unfold start_loading. cbn zeta. rewrite Hb, to_int_small by lia. rewrite (read_stored f header o buffer Sh Hb). fold p.
  assert (take_words big 1 (read_at f p (words big [0])) = [endianness]) as ->.
  { apply (read_words big f p [endianness] (words big [0])); [assumption| |rewrite words_length; reflexivity]. intros x [<-|[]]. unfold is_u64, endianness. rewrite W_val. lia. }
  cbn [hd]. rewrite Z.eqb_refl. cbn [negb]. destruct (mapping_reads big (g_map g) m0 f (p + 8) Hm) as [-> _]. { replace (p + 8) with (p + Z.of_nat (8 * 1)) by lia. assumption. }
  cbn [negb]. replace (value_of big (read_at f (p + 8 + mapping_size) (bytes_of big 4 0))) with (g_len g).
  2:{ rewrite (read_stored f (bytes_of big 4 (g_len g))); [|replace (p + 8 + mapping_size) with (p + Z.of_nat (8 * 1) + mapping_size) by lia; assumption|rewrite !bytes_length; reflexivity]. symmetry. apply value_bytes. change (256 ^ Z.of_nat 4) with (2 ^ 32). apply Hg. }
  destruct (topology_reads (g_topo g) (g_topo g) f (p + 8 + mapping_size + 4)) as [-> _]. { replace (p + 8 + mapping_size + 4) with (p + Z.of_nat (8 * 1) + mapping_size + Z.of_nat 4) by lia. assumption. }
  rewrite (geometry_reads big (g_map g) y y0 f _ Hy Hc). 2:{ replace (p + 8 + mapping_size + 4 + topology_size) with (p + Z.of_nat (8 * 1) + mapping_size + Z.of_nat 4 + Z.of_nat 3) by (unfold topology_size; lia). assumption. }
  cbn [negb]. assert (Grid (g_map g) (g_topo g) (g_len g) (g_np g) = g) as -> by (destruct g; reflexivity). reflexivity.
Qed.

Section Read.
Context (big : bool) {D : Type} (u : user D) (d0 : D) (g : grid) (Hg : grid_ok g) (y y0 : geometry) (m0 : mapping).
Context (Hm : settable (g_map g)) (Hy : geometry_set (g_map g) y) (Hc : same_class y y0).
Context (header buffer : list Z) (Hb : length buffer = length header) (Hh : len header < 2 ^ 31).
Context (es : list (Z * Z * list Z)) (Hn : len es < 2 ^ 30) (Hu : forall e, In e es -> is_u64 (fst (fst e)) /\ is_u64 (snd (fst e))).
Context (f : file) (o : Z).
Context (Hf : stored f o (header ++ info_bytes big g y (len es) ++ words big (flat_map (fun e => [fst (fst e); snd (fst e)]) es))).
Context (tx : Z -> bool) (Ht : tiling (g_map g) tx) (Hx : balanced (g_map g) (g_topo g) (g_hood g) tx).
Context (Hnd : NoDup (map (fun e => fst (fst e)) es)) (Hin : forall c, In c (map (fun e => fst (fst e)) es) <-> tx c = true).
Notation m := (g_map g).
Notation all := (map fst es).

Lemma read_list o' : stored f o' (words big (flat_map (fun e => [fst (fst e); snd (fst e)]) es)) -> read_pairs big f o' (len es) = Some all.
Proof.
  intros S. unfold read_pairs. assert (mul64 2 (len es) = 2 * len es) as -> by (unfold mul64; apply u64_small; rewrite W_val; lia). rewrite to_int_small by lia. destruct (Z.ltb_spec (2 * len es) 0); [lia|]. rewrite Nat.sub_diag. cbn [repeat]. rewrite app_nil_r. f_equal.
  assert (Z.to_nat (2 * len es) = length (flat_map (fun e => [fst (fst e); snd (fst e)]) es)) as E by (rewrite flat2_length; lia). rewrite E. rewrite read_words; [|assumption| |].
  - rewrite <- (pairs_flat all). f_equal. rewrite flat_map_concat_map, flat_map_concat_map, map_map. reflexivity.
  - intros x Hx'. apply in_flat_map in Hx'. destruct Hx' as (e & Ie & [<-|[<-|[]]]); apply Hu; assumption.
  - rewrite words_length, repeat_length. reflexivity.
Qed.

(** the local cells of process r in the file's order *)
Definition loaded (st : Z -> proc D) (r : Z) : list (Z * Z) := filter (fun e => cell_overlaps_local g r (p_store (st r)) (fst e)) all.

Lemma created_facts : exists st, initialize d0 g = Done st /\ reachable d0 g st /\ inv g (own0 g) st /\
  (forall c, exists_on st 0 c = true -> lvl_of m c = 0) /\ (forall r, In r (ranks g) -> p_req (st r) = no_requests).
Proof.
  destruct (initialize_ok d0 g Hg) as (st & E & _ & S). destruct (initialize_inv d0 g Hg) as (st1 & E1 & Hi). assert (st1 = st) as -> by congruence.
  exists st. split; [assumption|]. split; [apply reach_init; assumption|]. split; [assumption|]. split; [|intros r Ir; apply S; assumption].
  intros c Ex. rewrite (viewx g _ st 0 c Hi (Balance.rank0 g Hg)) in Ex. apply (own0_ex g Hg), (level0 g Hg) in Ex. apply Ex.
Qed.

Lemma read_start : exists st0 st, initialize d0 g = Done st0 /\ reachable d0 g st0 /\ inv g (own0 g) st0 /\ reachable d0 g st /\
  start_loading big d0 (g_np g) m0 y0 f o buffer = Done (Some (Loading g y header st (loaded st0))) /\
  (forall r c, In r (ranks g) -> owner st r c = if tx c then own0 g (get_level_0_parent m c) else None) /\
  (forall r, In r (ranks g) -> NoDup (map fst (loaded st0 r)) /\ (forall c, In c (map fst (loaded st0 r)) <-> owner st r c = Some r) /\
     length (s_data (p_store (st r))) = length (loaded st0 r)).
Proof.
  destruct created_facts as (st0 & E0 & R0 & Hi0 & L0 & Q0). exists st0. pose proof (Balance.rank0 g Hg) as I0.
  assert (forall r c, In r (ranks g) -> cell_overlaps_local g r (p_store (st0 r)) c = true <-> own0 g (get_level_0_parent m c) = Some r) as Ov.
  { intros r c Ir. unfold cell_overlaps_local. change (find (get_level_0_parent m c) (s_proc (p_store (st0 r)))) with (owner st0 r (get_level_0_parent m c)). rewrite (view g _ st0 r _ Hi0 Ir). destruct (own0 g (get_level_0_parent m c)) as [q|]; [|split; discriminate]. rewrite Z.eqb_eq. split; congruence. }
  assert (forall r c, In r (ranks g) -> In c (map fst (loaded st0 r)) <-> tx c = true /\ own0 g (get_level_0_parent m c) = Some r) as Lo.
  { intros r c Ir. unfold loaded. rewrite in_map_iff. split.
    - intros (e & <- & Ie). apply filter_In in Ie. destruct Ie as [Ie Oe]. apply Ov in Oe; [|assumption]. split; [|assumption]. apply Hin. apply in_map_iff in Ie. destruct Ie as (x & <- & Ix). apply in_map_iff. exists x. auto.
    - intros [T O]. apply Hin in T. apply in_map_iff in T. destruct T as (x & <- & Ix). exists (fst x). split; [reflexivity|]. apply filter_In. split; [apply in_map; assumption|]. apply Ov; assumption. }
  destruct (run_ok d0 g Hg (own0 g) st0 (History.Load (fun r => map fst (loaded st0 r))) Hi0 I) as (own & st & E & Hi). cbn [run] in E. exists st.
  assert (reachable d0 g st) as R by (apply (reach_step d0 g st0 (History.Load (fun r => map fst (loaded st0 r)))); [assumption|exact I|exact E]).
  assert (forall r c, In r (ranks g) -> owner st r c = if tx c then own0 g (get_level_0_parent m c) else None) as Ow.
  { intros r c Ir. rewrite (c28_load_cells_recreates_the_cells d0 g st0 tx (fun r => map fst (loaded st0 r)) st Hg R0 L0 Q0 Ht Hx); [|intros q x Iq; cbn beta; rewrite (Lo q x Iq); tauto| |exact E|assumption].
    - destruct (tx c); [|reflexivity]. apply (view g _ st0 0 _ Hi0 I0).
    - intros q x Iq Tx O. apply Lo; [assumption|]. rewrite (view g _ st0 q _ Hi0 Iq) in O. auto. }
  assert (forall r, In r (ranks g) -> NoDup (map fst (loaded st0 r)) /\ (forall c, In c (map fst (loaded st0 r)) <-> owner st r c = Some r) /\ length (s_data (p_store (st r))) = length (loaded st0 r)) as F.
  { intros r Ir. assert (NoDup (map fst (loaded st0 r))) as Nd.
    { unfold loaded. rewrite <- map_map in Hnd. revert Hnd. clear. generalize all. intros l. induction l as [|e l IH]; cbn [map filter]; intros N; [constructor|]. apply NoDup_cons_iff in N. destruct N as [A B]. destruct (cell_overlaps_local _ _ _ _); [|auto]. cbn [map]. constructor; [|auto]. intros I. apply A. apply in_map_iff in I. destruct I as (x & <- & I). apply filter_In in I. apply in_map, I. }
    assert (forall c, In c (map fst (loaded st0 r)) <-> owner st r c = Some r) as Oc. { intros c. rewrite (Lo r c Ir), (Ow r c Ir). destruct (tx c); split; [tauto|auto|intros []; discriminate|discriminate]. }
    split; [assumption|]. split; [assumption|]. destruct Hi as [[_ G] _]. destruct (G r Ir) as ((Fp & _ & Nk & Hd) & _).
    rewrite <- (map_length fst (s_data (p_store (st r)))), <- (map_length fst (loaded st0 r)). apply Permutation_length. apply NoDup_Permutation; [assumption|assumption|]. intros c. rewrite Oc. unfold owner. rewrite Fp, <- Hd, has_find. apply keys_find. }
  split; [assumption|]. split; [assumption|]. split; [assumption|]. split; [assumption|]. split; [|split; assumption].
  assert (stored f o (header ++ info_bytes big g y (len es)) /\ stored f (o + len header + len (info_bytes big g y (len es))) (words big (flat_map (fun e => [fst (fst e); snd (fst e)]) es))) as [S1 S2].
  { rewrite app_assoc, stored_app, app_length, Nat2Z.inj_add, Z.add_assoc in Hf. exact Hf. }
  destruct (read_prefix big d0 g Hg y y0 m0 Hm Hy Hc header buffer Hb Hh (len es) ltac:(rewrite W_val; lia) f o S1) as (p & -> & Ep & ->). unfold start_cells. rewrite E0. cbn [bind]. rewrite Ep. cbn zeta.
  rewrite read_list; [|replace (o + len header + len (info_bytes big g y (len es)) - 8 + 8) with (o + len header + len (info_bytes big g y (len es))) by lia; assumption].
  destruct (existsb (fun e => fst e =? error_cell) all) eqn:Ee.
  { exfalso. apply existsb_exists in Ee. destruct Ee as (e & Ie & E'). assert (tx (fst e) = true) as T. { apply Hin. rewrite <- map_map. apply in_map. assumption. } apply Ht in T. unfold valid in T. apply Z.eqb_eq in E'. unfold error_cell in E'. lia. }
  cbn zeta. fold (loaded st0). change (fun r => map fst (filter (fun e => cell_overlaps_local g r (p_store (st0 r)) (fst e)) all)) with (fun r => map fst (loaded st0 r)). rewrite E. cbn [bind].
  destruct (collect_ok (ranks g) (fun r => if len (s_data (p_store (st r))) =? len (filter (fun e => cell_overlaps_local g r (p_store (st0 r)) (fst e)) all) then Done 0 else Threw) (fun _ => 0) (fun _ _ => True)) as (z & Ez & _).
  { intros r Ir. destruct (F r Ir) as (_ & _ & L). unfold loaded in L. rewrite L, Z.eqb_refl. exists 0. auto. }
  unfold each. rewrite Ez. reflexivity.
Qed.
End Read.

(** ** Reading cells' data *)
Lemma find_write {D} (s : store D) x v c : find c (s_data (write s x v)) = if c =? x then match find c (s_data s) with Some _ => Some v | None => None end else find c (s_data s).
Proof.
  cbn [write s_data]. induction (s_data s) as [|[k a] l IH]; cbn [map find fst snd]; [destruct (c =? x); reflexivity|]. destruct (Z.eqb_spec c k) as [->|N]; [|assumption]. destruct (k =? x); reflexivity.
Qed.
Definition write_all {D} (vs : list (Z * D)) (s : store D) : store D := fold_left (fun s e => write s (fst e) (snd e)) vs s.

Section Data.
Context {D : Type} (u : user D) (d0 : D) (g : grid).
(** the data of cell c after reading at offset off *)
Definition reread (f : file) (r c off : Z) (d : D) : D := u_put u c (-1) r true d (read_at f off (u_get u c (-1) r true d)).

Lemma load_fold f r l : forall s, NoDup (map fst l) -> (forall e, In e l -> has (fst e) (s_data s) = true) ->
  exists vs, foldM (load_cell u f r) l s = Done (write_all vs s) /\
    (forall c, (forall off, ~ In (c, off) l) -> find c (s_data (write_all vs s)) = find c (s_data s)) /\
    (forall c off d, In (c, off) l -> find c (s_data s) = Some d -> find c (s_data (write_all vs s)) = Some (reread f r c off d)).
Proof.
  induction l as [|[c off] l IH]; cbn [foldM map fst]; intros s N H.
  - exists []. split; [reflexivity|]. split; [reflexivity|intros c off d []].
  - apply NoDup_cons_iff in N. destruct N as [Nc N]. unfold load_cell at 1. cbn [fst snd]. specialize (H (c, off) (or_introl eq_refl)) as Hc. cbn [fst] in Hc. apply has_find in Hc. destruct Hc as (d & Fd). unfold at_. rewrite Fd. cbn [bind]. fold (reread f r c off d). set (v := reread f r c off d).
    destruct (IH (write s c v) N) as (vs & E & A & B). { intros e Ie. apply has_find. rewrite find_write. specialize (H e (or_intror Ie)). apply has_find in H. destruct H as (a & ->). destruct (fst e =? c); eauto. }
    exists ((c, v) :: vs). cbn [write_all fold_left fst snd]. fold (write_all vs (write s c v)). split; [exact E|]. split.
    + intros x Nx. rewrite A by (intros off' I; apply (Nx off'); right; assumption). rewrite find_write. destruct (Z.eqb_spec x c) as [->|]; [|reflexivity]. exfalso. apply (Nx off). left. reflexivity.
    + intros x off' d' [Q|I] Fx.
      * injection Q as <- <-. assert (d' = d) as -> by congruence. rewrite A; [rewrite find_write, Z.eqb_refl, Fd; reflexivity|]. intros o' I. apply Nc. apply (in_map fst _ _ I).
      * apply B; [assumption|]. rewrite find_write. destruct (Z.eqb_spec x c) as [->|]; [|assumption]. exfalso. apply Nc. apply (in_map fst _ _ I).
Qed.
Lemma write_all_proc vs : forall s : store D, s_proc (write_all vs s) = s_proc s.
Proof. induction vs as [|e vs IH]; intros s; cbn [write_all fold_left]; [reflexivity|]. fold (write_all vs (write s (fst e) (snd e))). rewrite IH. reflexivity. Qed.
Lemma write_all_count vs : forall s : store D, length (s_data (write_all vs s)) = length (s_data s).
Proof. induction vs as [|e vs IH]; intros s; cbn [write_all fold_left]; [reflexivity|]. fold (write_all vs (write s (fst e) (snd e))). rewrite IH. cbn [write s_data]. apply map_length. Qed.
Lemma write_all_reachable vs : forall st r, reachable d0 g st -> In r (ranks g) -> exists st', reachable d0 g st' /\
  st' r = Proc (p_req (st r)) (p_cache (st r)) (write_all vs (p_store (st r))) /\ forall q, q <> r -> st' q = st q.
Proof.
  induction vs as [|[c v] vs IH]; intros st r R Ir; [exists st; split; [assumption|]; split; [destruct (st r); reflexivity|auto]|].
  destruct (IH (set_rank st r (with_store (st r) (write (p_store (st r)) c v))) r) as (st' & R' & E & O); [|assumption|].
  - apply (reach_step d0 g st (Write r c v)); [assumption|exact Ir|reflexivity].
  - exists st'. split; [assumption|]. split.
    + rewrite E. unfold set_rank. rewrite Z.eqb_refl. reflexivity.
    + intros q Nq. rewrite O by assumption. unfold set_rank. apply Z.eqb_neq in Nq. rewrite Nq. reflexivity.
Qed.
Lemma write_ranks_reachable (vs : Z -> list (Z * D)) l : NoDup l -> (forall r, In r l -> In r (ranks g)) -> forall st, reachable d0 g st -> exists st', reachable d0 g st' /\
  (forall r, In r l -> st' r = Proc (p_req (st r)) (p_cache (st r)) (write_all (vs r) (p_store (st r)))) /\ forall q, ~ In q l -> st' q = st q.
Proof.
  induction l as [|r l IH]; intros N H st R; [exists st; split; [assumption|]; split; [intros r []|auto]|]. apply NoDup_cons_iff in N. destruct N as [Nr N].
  destruct (write_all_reachable (vs r) st r R (H r (or_introl eq_refl))) as (st1 & R1 & E1 & O1). destruct (IH N (fun x Hx => H x (or_intror Hx)) st1 R1) as (st2 & R2 & E2 & O2).
  exists st2. split; [assumption|]. split.
  - intros x [<-|Ix]; [rewrite O2, E1 by assumption; reflexivity|]. rewrite E2 by assumption. rewrite O1 by (intros ->; contradiction). reflexivity.
  - intros q Nq. cbn [In] in Nq. rewrite O2, O1 by (try intros ->; tauto). reflexivity.
Qed.
Lemma ranks_NoDup : NoDup (ranks g).
Proof. unfold ranks. apply FinFun.Injective_map_NoDup; [intros a b; lia|apply seq_NoDup]. Qed.

(** offsets and states fit together *)
Definition loading_ok (z : loading (D := D)) (st : Z -> proc D) : Prop :=
  z_grid z = g /\ reachable d0 g st /\ (forall r, In r (ranks g) -> z_st z r = st r) /\
  forall r, In r (ranks g) -> NoDup (map fst (z_disp z r)) /\ (forall c, In c (map fst (z_disp z r)) <-> owner st r c = Some r) /\
    length (s_data (p_store (st r))) = length (z_disp z r).
Lemma continue_ok f z st : grid_ok g -> loading_ok z st -> exists z' st', continue_loading u f z = Done z' /\ loading_ok z' st' /\
  z_geo z' = z_geo z /\ z_header z' = z_header z /\ (forall r c, In r (ranks g) -> owner st' r c = owner st r c) /\
  (forall r c off, In r (ranks g) -> In (c, off) (z_disp z r) -> exists d, find c (s_data (p_store (st r))) = Some d /\
     find c (s_data (p_store (st' r))) = Some (reread f r c off d) /\ In (c, add64 off (h_size (u_shape u c (-1) r true d))) (z_disp z' r)).
Proof.
  intros Hg (Eg & R & Es & Hz). unfold continue_loading, each. rewrite Eg. destruct (reachable_inv d0 g Hg st R) as (own & Hi).
  assert (forall r e, In r (ranks g) -> In e (z_disp z r) -> has (fst e) (s_data (p_store (st r))) = true) as Hh.
  { intros r e Ir Ie. destruct (Hz r Ir) as (_ & O & _). pose proof (proj1 (O (fst e)) (in_map fst _ _ Ie)) as Oe. destruct Hi as [[_ G] _]. destruct (G r Ir) as ((Fp & _ & _ & Hd) & _). apply Hd. rewrite <- Fp. exact Oe. }
  destruct (collect_ok (ranks g) (fun r => if len (s_data (p_store (z_st z r))) =? len (z_disp z r) then Done 0 else Threw) (fun _ => 0) (fun _ _ => True)) as (cx & -> & _).
  { intros r Ir. destruct (Hz r Ir) as (_ & _ & L). rewrite (Es r Ir), L, Z.eqb_refl. exists 0. auto. }
  cbn [bind].
  destruct (collect_ok (ranks g) (fun r => mapM (move_offset u r (s_data (p_store (z_st z r)))) (z_disp z r)) (fun _ => [])
    (fun r l => Forall2 (fun e e' => exists d, find (fst e) (s_data (p_store (st r))) = Some d /\ e' = (fst e, add64 (snd e) (h_size (u_shape u (fst e) (-1) r true d)))) (z_disp z r) l)) as (disp & -> & Hdisp).
  { intros r Ir. rewrite (Es r Ir). apply RefineInv.mapM_ok. intros e Ie. pose proof (Hh r e Ir Ie) as F. apply has_find in F. destruct F as (d & F). unfold move_offset, at_. rewrite F. cbn [bind]. eexists. split; [reflexivity|]. exists d. auto. }
  cbn [bind].
  destruct (collect_ok (ranks g) (fun r => do s <- foldM (load_cell u f r) (z_disp z r) (p_store (z_st z r)); Done (Proc (p_req (z_st z r)) (p_cache (z_st z r)) s)) (z_st z)
    (fun r p => exists vs, p = Proc (p_req (st r)) (p_cache (st r)) (write_all vs (p_store (st r))) /\
      forall c off d, In (c, off) (z_disp z r) -> find c (s_data (p_store (st r))) = Some d -> find c (s_data (write_all vs (p_store (st r)))) = Some (reread f r c off d))) as (F & -> & HF).
  { intros r Ir. rewrite (Es r Ir). destruct (Hz r Ir) as (N & _). destruct (load_fold f r (z_disp z r) (p_store (st r)) N (fun e => Hh r e Ir)) as (vs & E & _ & B). rewrite E. cbn [bind]. eexists. split; [reflexivity|]. exists vs. auto. }
  cbn [bind].
  assert (exists vs, forall r, In r (ranks g) -> F r = Proc (p_req (st r)) (p_cache (st r)) (write_all (vs r) (p_store (st r))) /\
      forall c off d, In (c, off) (z_disp z r) -> find c (s_data (p_store (st r))) = Some d -> find c (s_data (write_all (vs r) (p_store (st r)))) = Some (reread f r c off d)) as (vs & Hvs).
  { assert (forall l, NoDup l -> (forall r, In r l -> In r (ranks g)) -> exists vs, forall r, In r l -> F r = Proc (p_req (st r)) (p_cache (st r)) (write_all (vs r) (p_store (st r))) /\
      forall c off d, In (c, off) (z_disp z r) -> find c (s_data (p_store (st r))) = Some d -> find c (s_data (write_all (vs r) (p_store (st r)))) = Some (reread f r c off d)) as K; [|apply K; [apply ranks_NoDup|auto]].
    induction l as [|r l IH]; intros N H; [exists (fun _ => []); intros r []|]. apply NoDup_cons_iff in N. destruct N as [Nr N]. destruct (IH N (fun x Hx => H x (or_intror Hx))) as (vs & Hvs). destruct (HF r (H r (or_introl eq_refl))) as (_ & v & Ev).
    exists (fun x => if x =? r then v else vs x). intros x [<-|Ix]; [rewrite Z.eqb_refl; exact Ev|]. destruct (Z.eqb_spec x r) as [->|]; [contradiction|]. apply Hvs. assumption. }
  destruct (write_ranks_reachable vs (ranks g) ranks_NoDup (fun r Hr => Hr) st R) as (st' & R' & E' & _).
  assert (forall r c, In r (ranks g) -> owner st' r c = owner st r c) as Ow by (intros r c Ir; unfold owner; rewrite (E' r Ir); cbn [p_store]; rewrite write_all_proc; reflexivity).
  assert (forall r, In r (ranks g) -> map fst (disp r) = map fst (z_disp z r)) as Dm.
  { intros r Ir. destruct (Hdisp r Ir) as [_ Q]. revert Q. clear. generalize (z_disp z r) (disp r). intros l l'. induction 1 as [|e e' l l' (d & _ & ->) Q IH]; cbn [map fst]; [reflexivity|]. rewrite IH. reflexivity. }
  exists (Loading g (z_geo z) (z_header z) F disp), st'. split; [reflexivity|]. split; [|split; [reflexivity|split; [reflexivity|split; [assumption|]]]].
  - split; [reflexivity|]. split; [assumption|]. cbn [z_st z_disp]. split; [intros r Ir; rewrite (E' r Ir); apply (Hvs r Ir)|]. intros r Ir. destruct (Hz r Ir) as (N & O & L). rewrite (Dm r Ir). split; [assumption|]. split; [intros c; rewrite (O c), (Ow r c Ir); reflexivity|].
    rewrite (E' r Ir). cbn [p_store]. rewrite write_all_count, L. rewrite <- (map_length fst (disp r)), (Dm r Ir), map_length. reflexivity.
  - intros r c off Ir Ic. pose proof (Hh r _ Ir Ic) as Fd. cbn [fst] in Fd. apply has_find in Fd. destruct Fd as (d & Fd). exists d. split; [assumption|]. split.
    + rewrite (E' r Ir). cbn [p_store]. apply (proj2 (Hvs r Ir)); assumption.
    + cbn [z_disp]. destruct (Hdisp r Ir) as [_ Q]. destruct (Forall2_In_l _ _ _ _ Q Ic) as (e' & Ie & d' & Fd' & ->). cbn [fst snd] in *. assert (d' = d) as -> by congruence. assumption.
Qed.
End Data.

(** ** Saving and loading whole grids *)
Lemma NoDup_flat_map {A B} (f : A -> list B) l : NoDup l -> (forall a, In a l -> NoDup (f a)) -> (forall a b x, In a l -> In b l -> In x (f a) -> In x (f b) -> a = b) -> NoDup (flat_map f l).
Proof.
  induction l as [|a l IH]; cbn [flat_map]; intros N F D; [constructor|]. apply NoDup_cons_iff in N. destruct N as [Na N].
  assert (NoDup (flat_map f l)) as R by (apply IH; [assumption|intros; apply F; right; assumption|intros b c x Ib Ic; apply D; right; assumption]).
  assert (forall x, In x (f a) -> ~ In x (flat_map f l)) as Dj. { intros x Ix I. apply in_flat_map in I. destruct I as (b & Ib & Ix'). apply Na. rewrite (D a b x (or_introl eq_refl) (or_intror Ib) Ix Ix'). assumption. }
  specialize (F a (or_introl eq_refl)). revert F Dj. generalize (f a). clear - R. intros k. induction k as [|x k IH]; cbn [app]; intros F Dj; [assumption|]. apply NoDup_cons_iff in F. constructor.
  - rewrite in_app_iff. intros [I|I]; [apply F; assumption|]. apply (Dj x); [left; reflexivity|assumption].
  - apply IH; [apply F|]. intros z Iz. apply Dj. right. assumption.
Qed.
(** cells lists each process's own cells in some order: what get_cells() returns *)
Definition own_cells {D} (g : grid) (st : Z -> proc D) (cells : Z -> list Z) : Prop :=
  forall r, In r (ranks g) -> Permutation (cells r) (keys (s_data (p_store (st r)))).
Lemma whole_facts {D} (d0 : D) g st cells : grid_ok g -> reachable d0 g st -> own_cells g st cells ->
  (exists sel, selected g st cells = Done sel) /\ NoDup (gather g cells) /\ forall c, In c (gather g cells) <-> exists_on st 0 c = true.
Proof.
  intros Hg R Hc. destruct (reachable_inv d0 g Hg st R) as (own & Hi). pose proof (Balance.rank0 g Hg) as I0. pose proof Hi as [[[_ Wq] G] _].
  assert (forall r c, In r (ranks g) -> In c (cells r) <-> own c = Some r) as K.
  { intros r c Ir. destruct (G r Ir) as ((_ & _ & _ & Hd) & _). rewrite <- Hd, has_find, <- keys_find. split; apply Permutation_in; [|apply Permutation_sym]; apply Hc; assumption. }
  split; [|split].
  - unfold selected, each. destruct (collect_ok (ranks g) (fun r => mapM (fun c => do d <- at_ c (s_data (p_store (st r))); Done (c, d)) (cells r)) (fun _ => []) (fun _ _ => True)) as (sel & E & _); [|exists sel; exact E].
    intros r Ir. destruct (RefineInv.mapM_ok (fun c => do d <- at_ c (s_data (p_store (st r))); Done (c, d)) (fun _ _ => True) (cells r)) as (bs & E & _); [|exists bs; auto].
    intros c Ic. apply (K r c Ir) in Ic. destruct (G r Ir) as ((_ & _ & _ & Hd) & _). apply Hd in Ic. apply has_find in Ic. destruct Ic as (d & F). unfold at_. rewrite F. cbn [bind]. eauto.
  - apply NoDup_flat_map; [apply ranks_NoDup| |].
    + intros r Ir. apply (Permutation_NoDup (Permutation_sym (Hc r Ir))). apply (G r Ir).
    + intros a b x Ia Ib Xa Xb. apply (K a x Ia) in Xa. apply (K b x Ib) in Xb. congruence.
  - intros c. rewrite gather_In, (viewx g own st 0 c Hi I0). unfold exo. split.
    + intros (r & Ir & Ic). apply (K r c Ir) in Ic. rewrite Ic. reflexivity.
    + destruct (own c) as [r|] eqn:O; [|discriminate]. intros _. pose proof (Wq c r O) as Ir. exists r. split; [assumption|]. apply K; assumption.
Qed.
Lemma Forall2_map_fst {A B C} (P : A -> B -> Prop) (f : A -> C) (h : B -> C) l l' : Forall2 P l l' -> (forall a b, P a b -> f a = h b) -> map f l = map h l'.
Proof. intros F E. induction F as [|a b l l' Q F IH]; cbn [map]; [reflexivity|]. rewrite (E a b Q), IH. reflexivity. Qed.
Lemma flat_map_fst g (cells : Z -> list Z) : map fst (flat_map (fun r => map (fun c => (c, r)) (cells r)) (ranks g)) = gather g cells.
Proof. unfold gather. rewrite map_flat_map. apply flat_map_eq. intros r _. rewrite map_map. cbn [fst]. apply map_id. Qed.

(** what a saved file needs: the sizes fit; see C39 for the meaning of [item_ok] and [file_end] *)
Definition saves {D} (u : user D) g y (st : Z -> proc D) cells fl header o : Prop :=
  geometry_set (g_map g) y /\ 0 <= o /\ len header < 2 ^ 31 /\
  (forall r c d, In r (ranks g) -> In c (cells r) -> find c (s_data (p_store (st r))) = Some d -> item_ok u (c, d) r) /\
  len (gather g cells) < 2 ^ 58 /\ (forall r, In r (ranks g) -> len (cells r) < 2 ^ 30) /\
  (forall sel, selected g st cells = Done sel -> file_end u g sel fl (list_begin y fl header o) < 2 ^ 63).

Theorem c39_every_existing_cell_is_listed_once big {D} (d0 : D) (u : user D) g y st cells header o :
  grid_ok g -> reachable d0 g st -> own_cells g st cells -> saves u g y st cells (Flags true true true) header o ->
  exists writes n (list : list (Z * Z)), save_grid_data big u g y st cells (Flags true true true) header o = Done (Some writes) /\
    n = len header + len (info_bytes big g y 0) /\ NoDup (map fst list) /\ (forall c, In c (map fst list) <-> exists_on st 0 c = true) /\
    forall ws f, Permutation writes ws -> stored (apply_writes ws f) (o + n - 8) (words big [len list]) /\
      stored (apply_writes ws f) (o + n) (words big (flat_map (fun e => [fst e; snd e]) list)).
Proof.
  intros Hg R Hc (Hy & O & Hh & Hi & Hn & Hn2 & He). destruct (whole_facts d0 g st cells Hg R Hc) as ((sel & Es) & Nd & Ex).
  destruct (c39_cells_are_stored_once_without_overlap big u g y st cells (Flags true true true) header o sel) as (writes & es & E & F2 & Ord & St); try assumption; [destruct Hg as (_ & _ & _ & Gn); lia|apply He; assumption|]. cbn zeta in *.
  assert (map fst (map fst es) = gather g cells) as Ec. { rewrite map_map, <- flat_map_fst. apply (Forall2_map_fst _ (fun e => fst (fst e)) fst _ _ F2). intros a b [Q _]. exact Q. }
  exists writes, (len header + len (info_bytes big g y 0)), (map fst es). split; [exact E|]. split; [reflexivity|]. rewrite Ec. split; [assumption|]. split; [assumption|].
  intros ws f P. destruct (St ws f P) as (S & _). cbn [w_info] in S. rewrite !stored_app in S. destruct S as (_ & S1 & S2).
  assert (len (info_bytes big g y (len es)) = len (info_bytes big g y 0)) as El by (unfold info_bytes; rewrite !app_length, !words_length; reflexivity). split.
  - unfold info_bytes in S1. rewrite !app_assoc in S1. rewrite <- !app_assoc in S1. rewrite !stored_app in S1. destruct S1 as (_ & _ & _ & _ & _ & S1). rewrite map_length. match type of S1 with stored _ ?a _ => match goal with |- stored _ ?b _ => replace b with a; [exact S1|] end end.
    unfold info_bytes. rewrite !app_length, !words_length. cbn [length]. lia.
  - rewrite El in S2. rewrite Z.add_assoc. replace (flat_map (fun e : Z * Z => [fst e; snd e]) (map fst es)) with (flat_map (fun e : Z * Z * list Z => listed (Flags true true true) (fst (fst e)) (snd (fst e))) es); [exact S2|]. rewrite !flat_map_concat_map, map_map. reflexivity.
Qed.

(** the number of bytes described by a cell's datatype when loading is what was saved *)
Definition same_sizes {D} (u : user D) (g : grid) (st : Z -> proc D) : Prop :=
  forall q c d, In q (ranks g) -> find c (s_data (p_store (st q))) = Some d ->
  forall r d', length (u_get u c (-1) r true d') = length (u_get u c q (-1) false d).

Section RoundTrip.
Context (big : bool) {D : Type} (u : user D) (d0 : D) (g : grid) (y : geometry) (st : Z -> proc D) (cells : Z -> list Z) (header : list Z) (o : Z).
Notation fl := (Flags true true true).
Context (Hg : grid_ok g) (R : reachable d0 g st) (Hc : own_cells g st cells) (Hs : saves u g y st cells fl header o) (Hl : len (gather g cells) < 2 ^ 30) (Hm : settable (g_map g)).
Context (writes ws : list (Z * list Z)) (Hw : save_grid_data big u g y st cells fl header o = Done (Some writes)) (P : Permutation writes ws) (f : file).
(** the loading grid has np' processes *)
Context (np' : Z) (m0 : mapping) (y0 : geometry) (Hnp : 0 < np' < 2 ^ 31) (Hk : same_class y y0) (buffer : list Z) (Hb : length buffer = length header).
Notation g' := (Grid (g_map g) (g_topo g) (g_len g) np').
Notation f' := (apply_writes ws f).

Lemma grid_ok' : grid_ok g'.
Proof. destruct Hg as (A & B & C & _). split; [exact A|]. split; [exact B|]. split; [exact C|exact Hnp]. Qed.
Lemma restart : exists es st' disp, start_loading big d0 np' m0 y0 f' o buffer = Done (Some (Loading g' y header st' disp)) /\
  loading_ok d0 g' (Loading g' y header st' disp) st' /\
  (forall r c, In r (ranks g') -> exists_on st' r c = exists_on st 0 c) /\
  (forall r c off, In r (ranks g') -> In (c, off) (disp r) -> exists b, In (c, off, b) es) /\
  forall e, In e es -> stored f' (snd (fst e)) (snd e) /\ is_u64 (snd (fst e)) /\ snd (fst e) + len (snd e) < 2 ^ 63 /\
    exists q d, In q (ranks g) /\ find (fst (fst e)) (s_data (p_store (st q))) = Some d /\ snd e = u_get u (fst (fst e)) q (-1) false d.
Proof.
  pose proof Hs as (Hy & O & Hh & Hi & Hn & Hn2 & He). destruct (whole_facts d0 g st cells Hg R Hc) as ((sel & Es) & Nd & Ex).
  destruct (c39_cells_are_stored_once_without_overlap big u g y st cells fl header o sel) as (writes' & es & E & F2 & Ord & St); try assumption; [destruct Hg as (_ & _ & _ & Gn); lia|apply He; assumption|]. cbn zeta in *.
  assert (writes' = writes) as -> by congruence. clear E.
  assert (map (fun e => fst (fst e)) es = gather g cells) as Ec. { rewrite <- flat_map_fst. apply (Forall2_map_fst _ (fun e => fst (fst e)) fst _ _ F2). intros a b [Q _]. exact Q. }
  destruct (St ws f P) as (S & Sd' & _). cbn [w_info] in S. specialize (He sel Es).
  assert (forall e, In e es -> 0 <= snd (fst e) /\ snd (fst e) + len (snd e) < 2 ^ 63) as Ho. { intros e Ie. destruct (ordered_in _ _ _ (snd (fst e), snd e) Ord) as [A B]; [apply (in_map (fun e => (snd (fst e), snd e))); assumption|]. cbn [fst snd] in A, B. lia. }
  pose proof (c18_cells_always_tile_the_grid d0 g Hg st 0 R (Balance.rank0 g Hg)) as Ht.
  assert (balanced (g_map g) (g_topo g) (g_hood g) (exists_on st 0)) as Hx by (intros a b; apply (c19_neighbors_differ_by_at_most_one_level d0 g Hg st 0 a b R (Balance.rank0 g Hg))).
  assert (len es = len (gather g cells)) as El by (rewrite <- Ec, map_length; reflexivity).
  destruct (read_start big d0 g' grid_ok' y y0 m0 Hm Hy Hk header buffer Hb Hh es ltac:(lia)) with (f := f') (o := o) (tx := exists_on st 0) as (st0 & st' & E0 & _ & _ & R' & Est & Ow & Fd); try assumption.
  - intros e Ie. split; [|unfold is_u64; rewrite W_val; specialize (Ho e Ie); lia]. assert (exists_on st 0 (fst (fst e)) = true) as Q by (apply Ex; rewrite <- Ec; apply (in_map (fun e => fst (fst e))); assumption). apply Ht in Q. pose proof (m_last_lt_W (g_map g) (proj1 Hg)). unfold valid in Q. unfold is_u64. lia.
  - rewrite Ec. assumption.
  - intros c. rewrite Ec. apply Ex.
  - exists es, st', (loaded g' es st0). split; [exact Est|]. split; [split; [reflexivity|]; split; [assumption|]; split; [reflexivity|exact Fd]|]. split; [|split].
    + intros r c Ir. unfold exists_on at 1. rewrite (Ow r c Ir). destruct (exists_on st 0 c) eqn:X; [|reflexivity]. apply Ht in X. destruct (l0_facts (g_map g) (proj1 Hg) c X) as (V & L & _).
      assert (exo (own0 g') (get_level_0_parent (g_map g) c) = true) as Q by (apply (own0_ex g' grid_ok'), (level0 g' grid_ok'); split; assumption). unfold exo in Q. cbn [g_map] in *. destruct (own0 g' _); [reflexivity|discriminate].
    + intros r c off Ir I. unfold loaded in I. apply filter_In in I. destruct I as [I _]. apply in_map_iff in I. destruct I as ([q b] & Q & I). cbn [fst] in Q. subst q. exists b. assumption.
    + intros e Ie. split; [apply Sd'; assumption|]. specialize (Ho e Ie). split; [unfold is_u64; rewrite W_val; lia|]. split; [lia|].
      destruct (Forall2_In_l _ _ _ _ F2 Ie) as ([c q] & Iq & Q & d & Fd' & Ed). cbn [fst snd] in *. exists q, d. apply in_flat_map in Iq. destruct Iq as (q' & Iq & Q2). apply in_map_iff in Q2. destruct Q2 as (c' & Q2 & _). injection Q2 as <- <-. rewrite Q. auto.
Qed.

(** Loading on any number of processes: the same mapping, topology, neighborhood length,
    geometry, header and cells; the loaded bytes of every cell are the saved ones. *)
Theorem c40_loading_restores_cells_and_bytes : same_sizes u g st ->
  exists z st', load_grid_data big u d0 np' m0 y0 f' o buffer = Done (Some z) /\ z_grid z = g' /\ z_geo z = y /\ z_header z = header /\
    reachable d0 g' st' /\ (forall r, In r (ranks g') -> z_st z r = st' r) /\
    (forall r c, In r (ranks g') -> exists_on st' r c = exists_on st 0 c) /\
    (forall r c d', In r (ranks g') -> find c (s_data (p_store (st' r))) = Some d' ->
       exists q d e, In q (ranks g) /\ find c (s_data (p_store (st q))) = Some d /\ d' = u_put u c (-1) r true e (u_get u c q (-1) false d)).
Proof.
  intros Hz. destruct restart as (es & st1 & disp & E & Lo & Ex & Di & Hes). unfold load_grid_data. rewrite E. cbn [bind].
  destruct (continue_ok u d0 g' f' _ st1 grid_ok' Lo) as (z & st' & E' & (Q1 & R' & Q3 & Q4) & Zg & Zh & Ow & Dt). rewrite E'. cbn [bind]. exists z, st'. split; [reflexivity|]. split; [assumption|]. split; [assumption|]. split; [assumption|]. split; [assumption|]. split; [assumption|]. split.
  - intros r c Ir. rewrite <- (Ex r c Ir). unfold exists_on. rewrite Ow by assumption. reflexivity.
  - intros r c d' Ir F. destruct Lo as (_ & R1 & _ & L). destruct (L r Ir) as (_ & O & _). cbn [z_disp] in *.
    assert (owner st1 r c = Some r) as Oc. { rewrite <- (Ow r c Ir). destruct (c25_processes_agree d0 g' grid_ok' st' r r R' Ir Ir) as (_ & _ & H). apply H. unfold has. rewrite F. reflexivity. }
    apply O in Oc. apply in_map_iff in Oc. destruct Oc as ([c' off] & Q & I). cbn [fst] in Q. subst c'. destruct (Di r c off Ir I) as (b & Ib). destruct (Hes _ Ib) as (S & _ & _ & q & d & Iq & Fd & Eb). cbn [fst snd] in *.
    destruct (Dt r c off Ir I) as (e & _ & F' & _). exists q, d, e. split; [assumption|]. split; [assumption|]. assert (d' = reread u f' r c off e) as -> by congruence. unfold reread. rewrite (read_stored f' b); [rewrite Eb; reflexivity|assumption|]. rewrite Eb. apply Hz; assumption.
Qed.

(** with datatypes that describe all of the data the data is the same *)
Theorem c40_save_then_load_restores_cells_and_data : same_sizes u g st ->
  (forall c q r d e, u_put u c (-1) r true e (u_get u c q (-1) false d) = d) ->
  exists z st', load_grid_data big u d0 np' m0 y0 f' o buffer = Done (Some z) /\ z_grid z = g' /\ z_geo z = y /\ z_header z = header /\
    reachable d0 g' st' /\ (forall r, In r (ranks g') -> z_st z r = st' r) /\
    (forall r c, In r (ranks g') -> exists_on st' r c = exists_on st 0 c) /\
    (forall c d, (exists r, In r (ranks g') /\ find c (s_data (p_store (st' r))) = Some d) <-> (exists q, In q (ranks g) /\ find c (s_data (p_store (st q))) = Some d)).
Proof.
  intros Hz Law. destruct (c40_loading_restores_cells_and_bytes Hz) as (z & st' & E & A & B & C & R' & F & X & Dt). exists z, st'. do 7 (split; [assumption|]).
  assert (forall r c d', In r (ranks g') -> find c (s_data (p_store (st' r))) = Some d' -> exists q, In q (ranks g) /\ find c (s_data (p_store (st q))) = Some d') as K.
  { intros r c d' Ir Fc. destruct (Dt r c d' Ir Fc) as (q & d & e & Iq & Fq & ->). rewrite Law. eauto. }
  intros c d. split; [intros (r & Ir & Fr); apply (K r c d Ir Fr)|]. intros (q & Iq & Fq).
  assert (owner st 0 c = Some q) as Oq. { destruct (c25_processes_agree d0 g Hg st q 0 R Iq (Balance.rank0 g Hg)) as (_ & _ & H). apply H. unfold has. rewrite Fq. reflexivity. }
  pose proof (Balance.rank0 g' grid_ok') as I0. pose proof (X 0 c I0) as Xc. unfold exists_on in Xc. rewrite Oq in Xc. destruct (owner st' 0 c) as [r|] eqn:Or; [|discriminate].
  destruct (c25_processes_agree d0 g' grid_ok' st' 0 0 R' I0 I0) as (_ & Rk & _). pose proof (Rk c r Or) as Ir. destruct (c25_processes_agree d0 g' grid_ok' st' r 0 R' Ir I0) as (_ & _ & H). apply H in Or. apply has_find in Or. destruct Or as (d' & Fr).
  exists r. split; [assumption|]. destruct (K r c d' Ir Fr) as (q' & Iq' & Fq'). assert (q' = q) as ->. { destruct (c25_processes_agree d0 g Hg st q' 0 R Iq' (Balance.rank0 g Hg)) as (_ & _ & H'). assert (owner st 0 c = Some q') by (apply H'; unfold has; rewrite Fq'; reflexivity). congruence. } congruence.
Qed.
End RoundTrip.

(** ** Limits of loading *)
(** a grid of 2^30 or more cells can be saved but not loaded: the count of numbers is an int *)
Theorem c40_large_grids_are_not_loaded big {D} (u : user D) (d0 : D) g y st cells header o writes ws f np' m0 y0 buffer :
  grid_ok g -> reachable d0 g st -> own_cells g st cells -> saves u g y st cells (Flags true true true) header o -> settable (g_map g) ->
  save_grid_data big u g y st cells (Flags true true true) header o = Done (Some writes) -> Permutation writes ws ->
  0 < np' < 2 ^ 31 -> same_class y y0 -> length buffer = length header -> 2 ^ 30 <= len (gather g cells) < 2 ^ 31 ->
  load_grid_data big u d0 np' m0 y0 (apply_writes ws f) o buffer = Done None.
Proof.
  intros Hg R Hc Hs Hm Hw P Hnp Hk Hb Hl. pose proof Hs as (Hy & O & Hh & Hi & Hn & Hn2 & He). destruct (whole_facts d0 g st cells Hg R Hc) as ((sel & Es) & Nd & Ex).
  destruct (c39_cells_are_stored_once_without_overlap big u g y st cells (Flags true true true) header o sel) as (writes' & es & E & F2 & Ord & St); try assumption; [destruct Hg as (_ & _ & _ & Gn); lia|apply He; assumption|]. cbn zeta in *.
  assert (writes' = writes) as -> by congruence. clear E.
  assert (map (fun e => fst (fst e)) es = gather g cells) as Ec. { rewrite <- flat_map_fst. apply (Forall2_map_fst _ (fun e => fst (fst e)) fst _ _ F2). intros a b [Q _]. exact Q. }
  assert (len es = len (gather g cells)) as El by (rewrite <- Ec, map_length; reflexivity).
  destruct (St ws f P) as (S & _ & _). cbn [w_info] in S. rewrite app_assoc, stored_app in S. destruct S as [S _].
  assert (grid_ok (Grid (g_map g) (g_topo g) (g_len g) np')) as Hg'. { destruct Hg as (A & B & C & _). split; [exact A|]. split; [exact B|]. split; [exact C|exact Hnp]. }
  unfold load_grid_data. destruct (read_prefix big d0 _ Hg' y y0 m0 Hm Hy Hk header buffer Hb Hh (len es) ltac:(rewrite W_val; lia) (apply_writes ws f) o S) as (p & _ & Ep & E). cbn [g_np] in E. rewrite E.
  unfold start_cells. destruct (initialize_inv d0 _ Hg') as (st0 & -> & _). cbn [bind]. rewrite Ep. unfold read_pairs.
  assert (to_int (mul64 2 (len es)) <? 0 = true) as ->; [|reflexivity].
  unfold mul64. rewrite u64_small by (rewrite W_val; lia). unfold to_int. rewrite Z.mod_small by lia. cbn zeta. destruct (Z.ltb_spec (2 * len es) (2 ^ 31)); [lia|]. lia.
Qed.

(** ** Loading in parts *)
Section Parts.
Context {D : Type} (u : user D) (d0 : D) (g : grid).
(** cell c of process r: data after k calls if b are the saved bytes of the cell *)
Fixpoint load_parts (k : nat) (r c : Z) (d : D) (b : list Z) : D :=
  match k with
  | O => d
  | S k' => let n := length (u_get u c (-1) r true d) in load_parts k' r c (u_put u c (-1) r true d (firstn n b)) (skipn n b)
  end.
(** every call describes one item of the remaining bytes *)
Fixpoint single_items (k : nat) (r c : Z) (d : D) (b : list Z) : Prop :=
  match k with
  | O => True
  | S k' => let n := length (u_get u c (-1) r true d) in
      Z.of_nat n = h_size (u_shape u c (-1) r true d) /\ (n <= length b)%nat /\ single_items k' r c (u_put u c (-1) r true d (firstn n b)) (skipn n b)
  end.
Lemma stored_split f o b n : (n <= length b)%nat -> stored f o b -> stored f o (firstn n b) /\ stored f (o + Z.of_nat n) (skipn n b).
Proof. intros L S. rewrite <- (firstn_skipn n b) in S. apply stored_app in S. rewrite firstn_length, Nat.min_l in S by assumption. exact S. Qed.

Lemma continue_parts f (Hg : grid_ok g) k : forall z st (B : Z -> Z -> list Z), loading_ok d0 g z st ->
  (forall r c off d, In r (ranks g) -> In (c, off) (z_disp z r) -> find c (s_data (p_store (st r))) = Some d ->
     stored f off (B r c) /\ 0 <= off /\ off + len (B r c) < 2 ^ 63 /\ single_items k r c d (B r c)) ->
  exists z' st', continue_times u k f z = Done z' /\ loading_ok d0 g z' st' /\ z_geo z' = z_geo z /\ z_header z' = z_header z /\
    (forall r c, In r (ranks g) -> owner st' r c = owner st r c) /\
    (forall r c d, In r (ranks g) -> find c (s_data (p_store (st r))) = Some d -> find c (s_data (p_store (st' r))) = Some (load_parts k r c d (B r c))).
Proof.
  induction k as [|k IH]; intros z st B Lo H.
  - exists z, st. cbn [continue_times load_parts]. auto 10.
  - destruct (continue_ok u d0 g f z st Hg Lo) as (z1 & st1 & E1 & Lo1 & G1 & H1 & Ow1 & Dt). cbn [continue_times]. rewrite E1. cbn [bind].
    pose proof Lo as (_ & R & _ & Lz). pose proof Lo1 as (_ & R1 & _ & Lz1).
    assert (forall r c d, In r (ranks g) -> find c (s_data (p_store (st r))) = Some d -> exists off, In (c, off) (z_disp z r)) as Ic.
    { intros r c d Ir F. assert (owner st r c = Some r) as Oc. { destruct (c25_processes_agree d0 g Hg st r r R Ir Ir) as (_ & _ & Q). apply Q. unfold has. rewrite F. reflexivity. }
      destruct (Lz r Ir) as (_ & O & _). apply O in Oc. apply in_map_iff in Oc. destruct Oc as ([c' off] & Q & I). cbn [fst] in Q. subst c'. eauto. }
    set (dat r c := match find c (s_data (p_store (st r))) with Some d => d | None => d0 end).
    set (B1 r c := skipn (length (u_get u c (-1) r true (dat r c))) (B r c)).
    destruct (IH z1 st1 B1 Lo1) as (z' & st' & E & Lo' & G' & H' & Ow' & Dt').
    + intros r c off1 d1 Ir I1 F1. assert (owner st r c = Some r) as Oc. { rewrite <- (Ow1 r c Ir). apply (Lz1 r Ir). apply (in_map fst _ _ I1). }
      destruct (Lz r Ir) as (_ & O & _). apply O in Oc. apply in_map_iff in Oc. destruct Oc as ([c' off] & Q & I). cbn [fst] in Q. subst c'.
      destruct (Dt r c off Ir I) as (d & F & F' & I'). assert (dat r c = d) as Ed by (unfold dat; rewrite F; reflexivity). unfold B1. rewrite Ed.
      destruct (H r c off d Ir I F) as (S & P0 & P1 & N & L & Si). cbn zeta in *. set (n := length (u_get u c (-1) r true d)) in *.
      destruct (stored_split f off (B r c) n L S) as [S1 S2].
      assert (off1 = off + Z.of_nat n) as ->.
      { assert (add64 off (h_size (u_shape u c (-1) r true d)) = off + Z.of_nat n) as Ea by (unfold add64; rewrite <- N; apply u64_small; rewrite W_val; lia). rewrite Ea in I'. destruct (Lz1 r Ir) as (Nd & _). clear - I1 I' Nd. revert Nd I1 I'. generalize (z_disp z1 r). intros l. induction l as [|e l IH]; cbn [map In]; intros Nd; [intros []|]. apply NoDup_cons_iff in Nd. destruct Nd as [Ne Nd].
        intros [->|A] [Q|B0]; [congruence|exfalso; apply Ne; apply (in_map fst _ _ B0)|subst e; exfalso; apply Ne; apply (in_map fst _ _ A)|auto]. }
      split; [assumption|]. split; [lia|]. split; [rewrite skipn_length; lia|].
      assert (d1 = u_put u c (-1) r true d (firstn n (B r c))) as ->; [|assumption]. rewrite F' in F1. injection F1 as <-. unfold reread. rewrite (read_stored f (firstn n (B r c))); [reflexivity|assumption|]. rewrite firstn_length. lia.
    + exists z', st'. split; [exact E|]. split; [assumption|]. split; [congruence|]. split; [congruence|]. split; [intros r c Ir; rewrite Ow', Ow1 by assumption; reflexivity|].
      intros r c d Ir F. destruct (Ic r c d Ir F) as (off & I). destruct (Dt r c off Ir I) as (d' & F0 & F' & _). assert (d' = d) as -> by congruence. rewrite (Dt' r c _ Ir F'). cbn [load_parts]. cbn zeta. unfold B1. assert (dat r c = d) as -> by (unfold dat; rewrite F; reflexivity).
      destruct (H r c off d Ir I F) as (S & P0 & P1 & N & L & Si). cbn zeta in *. destruct (stored_split f off (B r c) _ L S) as [S1 _]. f_equal. unfold reread. rewrite (read_stored f _ off _ S1); [reflexivity|]. rewrite firstn_length. lia.
Qed.
End Parts.

Section LoadParts.
Context (big : bool) {D : Type} (u v : user D) (d0 : D) (g : grid) (y : geometry) (st : Z -> proc D) (cells : Z -> list Z) (header : list Z) (o : Z).
Notation fl := (Flags true true true).
(** saved with the datatypes of u, loaded with those of v: a cell's datatype can depend on its data
    and on whether it is sent or received, so they can be the same *)
Theorem c56_parts_are_loaded_one_after_the_other_partial writes ws f np' m0 y0 buffer k :
  grid_ok g -> reachable d0 g st -> own_cells g st cells -> saves u g y st cells fl header o -> len (gather g cells) < 2 ^ 30 -> settable (g_map g) ->
  save_grid_data big u g y st cells fl header o = Done (Some writes) -> Permutation writes ws ->
  0 < np' < 2 ^ 31 -> same_class y y0 -> length buffer = length header ->
  let f' := apply_writes ws f in let g' := Grid (g_map g) (g_topo g) (g_len g) np' in
  exists z st1, start_loading big d0 np' m0 y0 f' o buffer = Done (Some z) /\ (forall r, In r (ranks g') -> z_st z r = st1 r) /\
  ((forall r q c d e, In r (ranks g') -> In q (ranks g) -> find c (s_data (p_store (st q))) = Some d -> find c (s_data (p_store (st1 r))) = Some e ->
     single_items v k r c e (u_get u c q (-1) false d)) ->
   exists z' st', continue_times v k f' z = Done z' /\ reachable d0 g' st' /\ (forall r, In r (ranks g') -> z_st z' r = st' r) /\
     (forall r c, In r (ranks g') -> exists_on st' r c = exists_on st 0 c) /\
     (forall r q c d, In r (ranks g') -> In q (ranks g) -> find c (s_data (p_store (st q))) = Some d -> owner st' r c = Some r ->
        exists e, find c (s_data (p_store (st1 r))) = Some e /\ find c (s_data (p_store (st' r))) = Some (load_parts v k r c e (u_get u c q (-1) false d)))).
Proof.
  intros Hg R Hc Hs Hl Hm Hw P Hnp Hk Hb f' g'. destruct (restart big u d0 g y st cells header o Hg R Hc Hs Hl Hm writes ws Hw P f np' m0 y0 Hnp Hk buffer Hb) as (es & st1 & disp & E & Lo & Ex & Di & Hes).
  assert (grid_ok g') as Hg'. { destruct Hg as (A & B & C & _). split; [exact A|]. split; [exact B|]. split; [exact C|exact Hnp]. }
  eexists _, st1. split; [exact E|]. split; [reflexivity|]. intros Hp.
  assert (forall q q' c d d', In q (ranks g) -> In q' (ranks g) -> find c (s_data (p_store (st q))) = Some d -> find c (s_data (p_store (st q'))) = Some d' -> q = q' /\ d = d') as Un.
  { intros q q' c d d' Iq Iq' F F'. assert (q = q') as <-; [|split; [reflexivity|congruence]]. pose proof (Balance.rank0 g Hg) as I0.
    destruct (c25_processes_agree d0 g Hg st q 0 R Iq I0) as (_ & _ & A). destruct (c25_processes_agree d0 g Hg st q' 0 R Iq' I0) as (_ & _ & A').
    assert (owner st 0 c = Some q) by (apply A; unfold has; rewrite F; reflexivity). assert (owner st 0 c = Some q') by (apply A'; unfold has; rewrite F'; reflexivity). congruence. }
  set (B (r c : Z) := match List.find (fun e : Z * Z * list Z => fst (fst e) =? c) es with Some e => snd e | None => [] end).
  assert (forall q c d, In q (ranks g) -> find c (s_data (p_store (st q))) = Some d -> (exists off b, In (c, off, b) es) -> forall r, B r c = u_get u c q (-1) false d) as HB.
  { intros q c d Iq F (off & b & I) r. unfold B. destruct (List.find (fun e : Z * Z * list Z => fst (fst e) =? c) es) as [e|] eqn:Q.
    - apply find_some in Q. destruct Q as [Ie Q]. apply Z.eqb_eq in Q. destruct (Hes e Ie) as (_ & _ & _ & q' & d' & Iq' & F' & Eb). rewrite Q in *. destruct (Un q' q c d' d Iq' Iq F' F) as [-> ->]. exact Eb.
    - exfalso. pose proof (find_none _ _ Q _ I) as K. cbn [fst] in K. rewrite Z.eqb_refl in K. discriminate. }
  destruct (continue_parts v d0 g' f' Hg' k _ st1 B Lo) as (z' & st' & E' & Lo' & _ & _ & Ow & Dt).
  - cbn [z_disp]. intros r c off d Ir I F. destruct (Di r c off Ir I) as (b & Ib). destruct (Hes _ Ib) as (S & U & Le & q & dq & Iq & Fq & Eb). cbn [fst snd] in *. rewrite (HB q c dq Iq Fq) by eauto. rewrite <- Eb. split; [assumption|]. split; [unfold is_u64 in U; lia|]. split; [assumption|]. rewrite Eb. apply Hp; assumption.
  - exists z', st'. destruct Lo' as (_ & R' & Zs & _). split; [exact E'|]. split; [assumption|]. split; [assumption|]. split.
    + intros r c Ir. rewrite <- (Ex r c Ir). unfold exists_on. rewrite Ow by assumption. reflexivity.
    + intros r q c d Ir Iq F Oc. rewrite Ow in Oc by assumption. destruct Lo as (_ & R1 & _ & Lz). destruct (c25_processes_agree d0 g' Hg' st1 r r R1 Ir Ir) as (_ & _ & Q). apply Q in Oc as He. apply has_find in He. destruct He as (e & Fe). exists e. split; [assumption|].
      rewrite (Dt r c e Ir Fe). do 2 f_equal. destruct (Lz r Ir) as (_ & O & _). cbn [z_disp] in O. apply O in Oc. apply in_map_iff in Oc. destruct Oc as ([c' off] & Qc & I). cbn [fst] in Qc. subst c'. destruct (Di r c off Ir I) as (b & Ib). apply HB; eauto.
Qed.
End LoadParts.
