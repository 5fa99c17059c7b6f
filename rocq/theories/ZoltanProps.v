(** What Zoltan reads from the grid in all histories (C60). *)
From Verif Require Import U64 MapModel MapSpec MapProofs MapFamily MapProps HoodModel MeshModel
  MeshSpec MeshBase HoodProps MeshWalk MeshFind MeshKids MeshItem MeshCheck MeshTo MeshNear
  Sets RefineModel RefineGeo RefineInv RefineSpread RefineMerge RefineFold RefineExec RefineStop
  BalanceModel RefineReqs Create Balance History HistProps CommitProps BalProps LoadCells HistExamples ZoltanModel.
Open Scope Z_scope.

Lemma zo_each_all {A} (f : Z -> outcome (option A)) (h : Z -> A) ids : (forall c, In c ids -> f c = Done (Some (h c))) -> zo_each f ids = Done (Some (map h ids)).
Proof.
  induction ids as [|c r IH]; intros H; [reflexivity|]. unfold zo_each. cbn [fold_right]. fold (zo_each f r). rewrite (H c (or_introl eq_refl)). cbn [bind].
  rewrite IH by (intros x Hx; apply H; right; exact Hx). reflexivity.
Qed.
Lemma zo_each_fatal {A} (f : Z -> outcome (option A)) c0 ids : (forall c, In c ids -> exists x, f c = Done x) -> In c0 ids -> f c0 = Done None -> zo_each f ids = Done None.
Proof.
  induction ids as [|c r IH]; intros H I E; [destruct I|]. unfold zo_each. cbn [fold_right]. fold (zo_each f r).
  destruct (H c (or_introl eq_refl)) as (x & Ex). rewrite Ex. cbn [bind]. destruct x as [a|]; [|reflexivity].
  destruct I as [->|I]; [rewrite E in Ex; discriminate|]. rewrite IH; [reflexivity|intros y Hy; apply H; right; exact Hy|assumption..].
Qed.

Section Props.
Context {D : Type} (d0 : D) (g : grid) (Hg : grid_ok g).
Notation m := (g_map g).
Notation t := (g_topo g).
Notation reachable := (reachable d0 g).
Notation rank r := (In r (ranks g)).

(** the cells connected by one hyperedge each *)
Definition edge (nbrs : Z -> list Z) (c : Z) : list Z := c :: nbrs c.
Definition connections (nbrs : Z -> list Z) (cells : list Z) : list Z := flat_map (edge nbrs) cells.
Definition count (l : list Z) : Z := Z.of_nat (length l).

Lemma zo_edges_all (bits : Z) (p : proc D) (nbrs : Z -> list Z) cells : forall number, (forall c, In c cells -> exists l, find c (k_of (p_cache p)) = Some l /\ zo_others c l = nbrs c) ->
  exists os, zo_edges bits p cells number = Done (map (zid bits) cells, os, map (zid bits) (connections nbrs cells)) /\
    os = map (fun i => number + count (connections nbrs (firstn i cells))) (seq 0 (length cells)).
Proof.
  induction cells as [|c r IH]; intros number H; [exists []; split; reflexivity|].
  destruct (H c (or_introl eq_refl)) as (l & F & E). destruct (IH (number + 1 + count (nbrs c)) (fun x Hx => H x (or_intror Hx))) as (os & E2 & P).
  exists (number :: os). split.
  - cbn [zo_edges]. unfold at_. rewrite F. cbn [bind]. rewrite E. unfold count in E2. rewrite E2. cbn [bind]. unfold connections. cbn [flat_map]. rewrite map_app. reflexivity.
  - cbn [length seq map firstn]. f_equal; [unfold count; cbn; lia|]. rewrite P, <- seq_shift, map_map. apply map_ext. intros i. unfold connections. cbn [firstn flat_map]. unfold count. rewrite app_length. unfold edge at 2. cbn [length]. lia.
Qed.
Lemma zo_count_all (p : proc D) (nbrs : Z -> list Z) cells : forall n, (forall c, In c cells -> exists l, find c (k_of (p_cache p)) = Some l /\ zo_others c l = nbrs c) ->
  foldM (fun n c => do l <- at_ c (k_of (p_cache p)); Done (n + 1 + Z.of_nat (length (zo_others c l)))) cells n = Done (n + count (connections nbrs cells)).
Proof.
  induction cells as [|c r IH]; intros n H; [cbn; f_equal; unfold count; cbn; lia|].
  destruct (H c (or_introl eq_refl)) as (l & F & E). cbn [foldM]. unfold at_ at 1. rewrite F. cbn [bind]. rewrite E, IH by (intros x Hx; apply H; right; exact Hx).
  f_equal. unfold connections, count. cbn [flat_map]. rewrite app_length. unfold edge at 2. cbn [length]. lia.
Qed.

(** In every reachable state the functions given to Zoltan describe one graph and one hypergraph:
    the cells of the process without repetition and their weights, for each of them the other
    cells in its neighborhood with the processes that have them, and the hyperedge of each cell
    made of it and these neighbors, with the counts, offsets and weights that go with these
    lists.  Questions about cells of other processes are answered with an error. *)
Theorem c60_zoltan_reads_the_grid {A} (center : Z -> A) one bits st r : reachable st -> rank r -> m_last m < 2 ^ bits ->
  let p := st r in
  exists (cells : list Z) (nbrs : Z -> list Z),
  NoDup cells /\ (forall c, In c cells <-> owner st r c = Some r) /\
  (forall c x, In c cells -> (In x (nbrs c) <-> x <> c /\ exists_on st r x = true /\ sees m t (g_hood g) c x)) /\
  zo_number_of_cells p = count cells /\
  fst (zo_cell_list bits one p) = cells /\ map Some (snd (zo_cell_list bits one p)) = map (get_cell_weight g one r (p_store p)) cells /\
  (forall ids, (forall c, In c ids -> owner st r c = Some r) ->
    zo_coordinates center p ids = Done (Some (map center ids)) /\
    zo_number_of_neighbors p ids = Done (Some (map (fun c => count (nbrs c)) ids)) /\
    exists procs, zo_neighbor_lists bits p ids = Done (Some (map (fun c => count (nbrs c)) ids, flat_map nbrs ids, procs)) /\
      Forall2 (fun x q => rank q /\ owner st q x = Some q) (flat_map nbrs ids) procs) /\
  (forall ids c, In c ids -> owner st r c <> Some r ->
    zo_coordinates center p ids = Done None /\ zo_number_of_neighbors p ids = Done None /\ zo_neighbor_lists bits p ids = Done None) /\
  zo_number_of_hyperedges p = Done (count cells, count (connections nbrs cells)) /\
  zo_number_of_edge_weights p = count cells /\
  (count cells < 2 ^ 32 ->
    zo_hyperedges bits p true (count cells) (count (connections nbrs cells)) =
      Done (Some (cells, map (fun i => count (connections nbrs (firstn i cells))) (seq 0 (length cells)), connections nbrs cells)) /\
    zo_edge_weights bits p (count cells) = Done (Some (cells, map (fun c => count (nbrs c)) cells))) /\
  (forall format ne nc, 0 <= ne < 2 ^ 32 -> format = false \/ ne <> count cells \/ nc <> count (connections nbrs cells) ->
    zo_hyperedges bits p format ne nc = Done None).
Proof.
  intros R Ir Hb p. destruct (reachable_inv d0 g Hg st R) as (own & Hi). pose proof Hi as ((Hw & Hr) & Hp). destruct (Hr r Ir) as (Hs & Hk & _). fold p in Hs, Hk.
  destruct (rebuild_ok g Hg own r _ Hw Hs) as (k & Ek & (Of & _)). rewrite Hk in Ek. injection Ek as <-.
  pose proof Hs as (Pf & _ & Nd & Dt). pose proof Hw as ((_ & _ & (V & _) & _) & Rk).
  set (cells := keys (s_data (p_store p))).
  assert (forall c, owner st r c = own c) as Vw by (intros c; apply (view g own st r c Hi Ir)).
  assert (forall c, In c cells <-> owner st r c = Some r) as Ci.
  { intros c. unfold cells. rewrite keys_find, <- has_find, Dt, Vw. reflexivity. }
  set (nbrs := fun c => match find c (k_of (p_cache p)) with Some l => zo_others c l | None => [] end).
  assert (forall c, In c cells -> exo own c = true) as Ce by (intros c Hc; apply Ci in Hc; rewrite Vw in Hc; unfold exo; rewrite Hc; reflexivity).
  assert (forall c, In c cells -> exists l, find c (k_of (p_cache p)) = Some l /\ zo_others c l = nbrs c) as Cl.
  { intros c Hc. destruct (Of c (Ce c Hc)) as (l & F & _). exists l. split; [assumption|]. unfold nbrs. rewrite F. reflexivity. }
  assert (forall c x, In c cells -> (In x (nbrs c) <-> x <> c /\ exists_on st r x = true /\ sees m t (g_hood g) c x)) as Nb.
  { intros c x Hc. destruct (Of c (Ce c Hc)) as (l & F & P). unfold nbrs. rewrite F. unfold zo_others. rewrite filter_In, P, andb_true_iff, !negb_true_iff, !Z.eqb_neq.
    rewrite (viewx g own st r x Hi Ir). split; [tauto|]. intros (A1 & A2 & A3). split; [tauto|]. split; [|assumption]. pose proof (V x A2) as Vx. unfold valid in Vx. lia. }
  assert (forall c, exo own c = true -> zid bits c = c) as Zi.
  { intros c Ec. apply V in Ec. unfold valid in Ec. unfold zid. apply Z.mod_small. lia. }
  assert (map (zid bits) cells = cells) as Zc by (rewrite <- map_id; apply map_ext_in; intros c Hc; apply Zi, Ce, Hc).
  assert (forall c x, In c cells -> In x (nbrs c) -> exo own x = true) as Ne.
  { intros c x Hc Hx. apply Nb in Hx; [|assumption]. rewrite <- (viewx g own st r x Hi Ir). tauto. }
  assert (forall l, (forall c, In c l -> In c cells) -> map (zid bits) (flat_map nbrs l) = flat_map nbrs l) as Zn.
  { intros l Hl. rewrite <- map_id. apply map_ext_in. intros x Hx. apply in_flat_map in Hx. destruct Hx as (c & Hc & Hx). apply Zi. apply (Ne c x); auto. }
  assert (map (zid bits) (connections nbrs cells) = connections nbrs cells) as Zs.
  { rewrite <- map_id. apply map_ext_in. intros x Hx. apply in_flat_map in Hx. destruct Hx as (c & Hc & [<-|Hx]); apply Zi; [apply Ce; assumption|apply (Ne c x); auto]. }
  assert (forall c, has c (s_data (p_store p)) = true <-> In c cells) as Hc by (intros c; unfold cells; rewrite keys_find, has_find; reflexivity).
  exists cells, nbrs. split; [exact Nd|]. split; [exact Ci|]. split; [exact Nb|].
  assert (count cells = Z.of_nat (length (s_data (p_store p)))) as Cn by (unfold count, cells, keys; rewrite map_length; reflexivity).
  split; [symmetry; exact Cn|]. split; [exact Zc|]. split.
  { unfold zo_cell_list. cbn [snd]. fold cells. rewrite map_map. apply map_ext_in. intros c Hcc. unfold get_cell_weight.
    replace (local_leaf g r (p_store p) c) with true by (symmetry; apply (inv_leaf g Hg own st r c Hi Ir); rewrite <- Vw; apply Ci; assumption).
    cbn [negb]. destruct (find c (s_wt (p_store p))); reflexivity. }
  split.
  { intros ids Hids. assert (forall c, In c ids -> In c cells) as Hids' by (intros c Q; apply Ci, Hids, Q). split.
    - apply zo_each_all. intros c Q. rewrite (proj2 (Hc c)) by auto. reflexivity.
    - assert (exists procs : Z -> list Z, forall c, In c ids -> mapM (fun n => at_ n (s_proc (p_store p))) (nbrs c) = Done (procs c) /\ Forall2 (fun x q => rank q /\ owner st q x = Some q) (nbrs c) (procs c)) as (procs & Hprocs).
      { exists (fun c => map (fun x => match own x with Some q => q | None => 0 end) (nbrs c)). intros c Q.
        assert (forall l, (forall x, In x l -> exo own x = true) -> mapM (fun n => at_ n (s_proc (p_store p))) l = Done (map (fun x => match own x with Some q => q | None => 0 end) l) /\
          Forall2 (fun x q => rank q /\ owner st q x = Some q) l (map (fun x => match own x with Some q => q | None => 0 end) l)) as G.
        { induction l as [|x l IH]; intros Hl; [split; [reflexivity|constructor]|]. destruct (IH (fun y Hy => Hl y (or_intror Hy))) as [I1 I2]. specialize (Hl x (or_introl eq_refl)).
          unfold exo in Hl. destruct (own x) as [q|] eqn:O; [|discriminate]. cbn [mapM map]. unfold at_ at 1. rewrite Pf, O. cbn [bind]. rewrite I1. cbn [bind]. split; [reflexivity|].
          constructor; [|exact I2]. pose proof (Rk x q O) as Iq. split; [assumption|]. rewrite (view g own st q x Hi Iq). exact O. }
        apply G. intros x Hx. apply (Ne c x); auto. }
      split.
      + apply zo_each_all. intros c Q. rewrite (proj2 (Hc c)) by auto. cbn [negb]. destruct (Cl c (Hids' c Q)) as (l & F & E). unfold at_. rewrite F. cbn [bind]. rewrite E. reflexivity.
      + exists (flat_map procs ids). split.
        * unfold zo_neighbor_lists. rewrite (zo_each_all _ (fun c => (nbrs c, procs c))).
          2:{ intros c Q. rewrite (proj2 (Hc c)) by auto. cbn [negb]. destruct (Cl c (Hids' c Q)) as (l & F & E). unfold at_ at 1. rewrite F. cbn [bind]. rewrite E. rewrite (proj1 (Hprocs c Q)). reflexivity. }
          cbn [bind]. rewrite map_map. cbn [fst]. rewrite <- (Zn ids Hids').
          replace (flat_map fst (map (fun c => (nbrs c, procs c)) ids)) with (flat_map nbrs ids) by (clear; induction ids as [|c l IH]; cbn; [reflexivity|rewrite IH; reflexivity]).
          replace (flat_map snd (map (fun c => (nbrs c, procs c)) ids)) with (flat_map procs ids) by (clear; induction ids as [|c l IH]; cbn; [reflexivity|rewrite IH; reflexivity]).
          reflexivity.
        * clear -Hprocs. induction ids as [|c l IH]; [constructor|]. cbn [flat_map]. apply Forall2_app; [apply Hprocs; left; reflexivity|apply IH; intros x Hx; apply Hprocs; right; exact Hx]. }
  split.
  { intros ids c Ic Oc. assert (has c (s_data (p_store p)) = false) as Hn by (destruct (has c (s_data (p_store p))) eqn:Q; [apply Hc, Ci in Q; congruence|reflexivity]).
    assert (forall x, has x (s_data (p_store p)) = true -> exists l, at_ x (k_of (p_cache p)) = Done l /\ exists ps, mapM (fun n => at_ n (s_proc (p_store p))) (zo_others x l) = Done ps) as Go.
    { intros x Q. apply Hc in Q. destruct (Cl x Q) as (l & F & E). exists l. unfold at_ at 1. rewrite F. split; [reflexivity|]. rewrite E.
      assert (forall l, (forall y, In y l -> exo own y = true) -> exists ps, mapM (fun n => at_ n (s_proc (p_store p))) l = Done ps) as G.
      { induction l0 as [|y l0 IH]; intros Hl; [exists []; reflexivity|]. destruct (IH (fun z Hz => Hl z (or_intror Hz))) as [ps I1]. specialize (Hl y (or_introl eq_refl)).
        unfold exo in Hl. destruct (own y) as [q|] eqn:O; [|discriminate]. cbn [mapM]. unfold at_ at 1. rewrite Pf, O. cbn [bind]. rewrite I1. cbn [bind]. eauto. }
      apply G. intros y Hy. apply (Ne x y); auto. }
    split; [|split].
    - apply (zo_each_fatal _ c); [eauto|assumption|]. rewrite Hn. reflexivity.
    - apply (zo_each_fatal _ c); [|assumption|rewrite Hn; reflexivity]. intros x _. destruct (has x (s_data (p_store p))) eqn:Q; cbn [negb]; [|eauto]. destruct (Go x Q) as (l & E & _). rewrite E. cbn [bind]. eauto.
    - unfold zo_neighbor_lists. rewrite (zo_each_fatal _ c); [reflexivity| |assumption|rewrite Hn; reflexivity].
      intros x _. destruct (has x (s_data (p_store p))) eqn:Q; cbn [negb]; [|eauto]. destruct (Go x Q) as (l & E & ps & E2). rewrite E. cbn [bind]. rewrite E2. cbn [bind]. eauto. }
  destruct (zo_edges_all bits p nbrs cells 0 Cl) as (os & Ee & Eo). rewrite Zc, Zs in Ee.
  split.
  { unfold zo_number_of_hyperedges. fold cells. rewrite (zo_count_all p nbrs cells 0 Cl). cbn [bind]. rewrite Cn. reflexivity. }
  split; [symmetry; exact Cn|]. split.
  - intros Sm. assert (0 <= count cells) by (unfold count; lia). split.
    + unfold zo_hyperedges. cbn [negb]. rewrite <- Cn, Z.mod_small, Z.eqb_refl by lia. cbn [negb]. fold cells. rewrite Ee. cbn [bind].
      fold (count (connections nbrs cells)). rewrite Z.eqb_refl, Eo. reflexivity.
    + unfold zo_edge_weights. rewrite <- Cn, Z.mod_small, Z.eqb_refl by lia. cbn [negb]. fold cells. rewrite Zc.
      rewrite (Balance.mapM_ok _ (fun c => count (nbrs c))); [reflexivity|]. intros c Q. destruct (Cl c Q) as (l & F & E). unfold at_. rewrite F. cbn [bind]. rewrite E. reflexivity.
  - intros f ne nc Hne Bad. unfold zo_hyperedges. destruct f; cbn [negb]; [|reflexivity]. rewrite <- Cn, Z.mod_small by lia. destruct (Z.eqb_spec ne (count cells)) as [E|]; [|reflexivity].
    cbn [negb]. fold cells. rewrite Ee. cbn [bind]. fold (count (connections nbrs cells)). destruct (Z.eqb_spec (count (connections nbrs cells)) nc); [|reflexivity].
    destruct Bad as [B|[B|B]]; congruence.
Qed.
Print Assumptions c60_zoltan_reads_the_grid.

(** cells of the same size are in each other's lists *)
Lemma distance_sym p G i s j : distance1 p G i s j s = distance1 p G j s i s.
Proof.
  unfold distance1. destruct (Z.leb_spec i j); destruct (Z.leb_spec j i); try reflexivity; try lia.
  assert (i = j) as -> by lia. reflexivity.
Qed.
Lemma overlap_sym i s j : indices_overlap1 i s j s = indices_overlap1 j s i s.
Proof. unfold indices_overlap1. apply andb_comm. Qed.
Theorem c60_graph_is_symmetric_within_a_level st r a b : reachable st -> rank r ->
  exists_on st r a = true -> exists_on st r b = true -> a <> b -> lvl_of m a = lvl_of m b ->
  sees m t (g_hood g) a b <-> sees m t (g_hood g) b a.
Proof.
  intros R Ir Ea Eb Nab El. destruct (reachable_inv d0 g Hg st R) as (own & Hi). pose proof Hi as ((((Hwf & Hn0 & T & _) & _) & _) & _). rewrite (viewx g own st r a Hi Ir) in Ea. rewrite (viewx g own st r b Hi Ir) in Eb.
  pose proof (proj1 T _ Ea) as Va. pose proof (proj1 T _ Eb) as Vb. pose proof Hg as (_ & Hn & _).
  assert (disjoint m a b) as Dj by (intros i C1 C2; apply Nab; apply (leaf_unique m Hwf (exo own) T a b i); assumption).
  assert (disjoint m b a) as Dj' by (intros i C1 C2; apply (Dj i C2 C1)).
  unfold g_hood. rewrite <- (c49_is_neighbor m t (g_len g) a b Hwf Va Vb Dj Hn), <- (c49_is_neighbor m t (g_len g) b a Hwf Vb Va Dj' Hn).
  assert (is_neighbor (g_len g) m t a b = is_neighbor (g_len g) m t b a) as ->; [|reflexivity].
  unfold is_neighbor, overlapping_indices.
  assert (get_cell_length_in_indices m a = get_cell_length_in_indices m b) as ->.
  { fold (len_of m a) (len_of m b). rewrite !(cell_len m Hwf) by assumption. rewrite El. reflexivity. }
  rewrite (distance_sym _ _ (get (get_indices m a) DX)), (distance_sym _ _ (get (get_indices m a) DY)), (distance_sym _ _ (get (get_indices m a) DZ)).
  rewrite (overlap_sym (ix (get_indices m a))), (overlap_sym (iy (get_indices m a))), (overlap_sym (iz (get_indices m a))). reflexivity.
Qed.
Print Assumptions c60_graph_is_symmetric_within_a_level.
End Props.

(** the graph is not symmetric between cells of different levels, which Zoltan's methods for
    graphs require: cell 1 lists all children of cell 2, four of which do not list cell 1 (the
    grid is not periodic) *)
Definition g3 : grid := Grid (update_last_cell (Mapping 2 1 1 1 0)) (Topo false false false) 0 2.
Example g3_ok : grid_ok g3. Proof. apply grid_okb; vm_compute; reflexivity. Qed.
Definition lists (p : proc Z) (c : Z) : list Z :=
  match zo_neighbor_lists 64 p [c] with Done (Some (_, ns, _)) => ns | _ => [] end.
Lemma eqo_eq a b : eqo a b = true -> a = b.
Proof. destruct a, b; cbn; intros E; try discriminate; [apply Z.eqb_eq in E; congruence|reflexivity]. Qed.
Theorem c60_symmetric_graph_refuted : exists st a b, reachable 0 g3 st /\ owner st 0 a = Some 0 /\ owner st 0 b = Some 1 /\
  In b (lists (st 0) a) /\ ~ In a (lists (st 1) b).
Proof.
  set (far := nth 1 (get_all_children (g_map g3) 2) 0).
  assert (holds (go 0 g3 (map Do [Refine 1 2; Stop])) (fun st => eqo (owner st 0 1) (Some 0) && eqo (owner st 0 far) (Some 1) && mem far (lists (st 0) 1) && negb (mem 1 (lists (st 1) far))) = true) as Q by (vm_compute; reflexivity).
  apply holds_ex in Q. destruct Q as (st & E & Q). rewrite !andb_true_iff in Q. destruct Q as (((Q1 & Q2) & Q3) & Q4).
  exists st, 1, far. split; [apply (go_reachable _ _ _ _ E)|].
  split; [apply eqo_eq, Q1|]. split; [apply eqo_eq, Q2|]. split; [apply mem_In, Q3|]. intros I. apply mem_In in I. rewrite I in Q4. discriminate.
Qed.
Print Assumptions c60_symmetric_graph_refuted.

(** with ids of 32 bits, Zoltan's default, different cells of a large grid have the same id and
    the answer for some cell's id is an error *)
Definition g4 : grid := Grid (update_last_cell (Mapping 131072 131072 1 0 0)) (Topo false false false) 1 1.
Example g4_ok : grid_ok g4. Proof. apply grid_okb; vm_compute; reflexivity. Qed.
Theorem c60_narrow_ids_refuted : exists st, reachable 0 g4 st /\ ~ NoDup (fst (zo_cell_list 32 1 (st 0))) /\
  exists c, owner st 0 c = Some 0 /\ In (zid 32 c) (fst (zo_cell_list 32 1 (st 0))) /\ zo_number_of_neighbors (st 0) [zid 32 c] = Done None.
Proof.
  destruct (initialize_inv 0 g4 g4_ok) as (st & E & Hi). exists st. assert (reachable 0 g4 st) as R by (apply reach_init; exact E). split; [exact R|].
  assert (In 0 (ranks g4)) as I0 by (left; reflexivity).
  destruct (c60_zoltan_reads_the_grid 0 g4 g4_ok (fun c => c) 1 64 st 0 R I0) as (cells & nbrs & Nd & Ci & _ & _ & Ec & _ & _ & Bad & _); [vm_compute; reflexivity|]. cbv zeta in *.
  assert (forall c, 1 <= c <= 2 ^ 34 -> owner st 0 c = Some 0) as Ow.
  { intros c Hc. pose proof (proj2 (c29_every_level_0_cell_once 0 g4 g4_ok st 0 c E I0)) as X. unfold exists_on in X.
    assert (MapSpec.vol (dims_of (g_map g4)) = 2 ^ 34) as Ev by (vm_compute; reflexivity). rewrite Ev in X. specialize (X Hc).
    destruct (owner st 0 c) as [q|] eqn:O; [|discriminate]. destruct (c25_processes_agree 0 g4 g4_ok st 0 0 R I0 I0) as (_ & A & _). apply A in O. cbn in O. destruct O as [<-|[]]. reflexivity. }
  assert (forall c, owner st 0 c = Some 0 -> valid (g_map g4) c) as Vc.
  { intros c O. apply (c18_cells_always_tile_the_grid 0 g4 g4_ok st 0 R I0). unfold exists_on. rewrite O. reflexivity. }
  assert (keys (s_data (p_store (st 0))) = cells) as Ek.
  { rewrite <- Ec. cbn [zo_cell_list fst]. rewrite <- map_id at 1. apply map_ext_in. intros c Hc. unfold zid. symmetry. apply Z.mod_small.
    assert (valid (g_map g4) c) as V; [|unfold valid in V; change (m_last (g_map g4)) with 17179869184 in V; lia].
    apply Vc. apply keys_find in Hc. destruct (c25_processes_agree 0 g4 g4_ok st 0 0 R I0 I0) as (_ & _ & A). apply A. apply has_find. exact Hc. }
  unfold zo_cell_list. cbn [fst]. rewrite Ek. split.
  - intros N. assert (In 1 cells) as H1 by (apply Ci, Ow; lia). assert (In (2 ^ 32 + 1) cells) as H2 by (apply Ci, Ow; lia).
    assert (zid 32 1 = zid 32 (2 ^ 32 + 1)) as Ez by (vm_compute; reflexivity).
    clear -N H1 H2 Ez Nd. apply in_split in H1. destruct H1 as (l1 & l2 & ->). apply in_app_iff in H2.
    rewrite map_app in N. cbn [map] in N. apply NoDup_remove_2 in N. apply N. rewrite Ez. rewrite <- map_app. apply in_map. apply in_app_iff. destruct H2 as [H2|[H2|H2]]; [auto|lia|auto].
  - exists (2 ^ 32). assert (owner st 0 (2 ^ 32) = Some 0) as O by (apply Ow; lia). split; [exact O|]. split; [apply in_map, Ci, O|].
    apply (Bad [zid 32 (2 ^ 32)] (zid 32 (2 ^ 32))); [left; reflexivity|]. replace (zid 32 (2 ^ 32)) with 0 by (vm_compute; reflexivity). intros O0. apply Vc in O0. unfold valid in O0. lia.
Qed.
Print Assumptions c60_narrow_ids_refuted.

(** a case of c60_zoltan_reads_the_grid with cells of two levels on two processes *)
Example c60_example : holds (go 0 g3 (map Do [Refine 1 2; Weight 0 1 7; Stop])) (fun st =>
  same (fst (zo_cell_list 64 1 (st 0))) [1] && same (snd (zo_cell_list 64 1 (st 0))) [7] && (zo_number_of_cells (st 1) =? 8) &&
  same (lists (st 0) 1) (get_all_children (g_map g3) 2) &&
  holds (zo_number_of_hyperedges (st 1)) (fun x => (fst x =? 8) && (snd x =? 8 + 8 * 3 + 4))) = true.
Proof. vm_compute. reflexivity. Qed.
