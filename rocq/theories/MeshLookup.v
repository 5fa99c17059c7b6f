(** C48: lookup of existing cells. *)
From Verif Require Import U64 MapModel MapSpec MapProofs MapFamily MapProps HoodModel MeshModel
  MeshSpec MeshBase HoodProps MeshWalk MeshFind MeshKids MeshItem MeshCheck.
Open Scope Z_scope.

(** the index lookup over all levels returns the one existing cell covering the location, the
    error cell outside of the grid *)
Theorem c48_get_existing_cell m ex i : wf m -> tiling m ex ->
  (in_grid (dims_of m) i ->
     ex (get_existing_cell ex m i 0 (m_max m)) = true /\ covers m (get_existing_cell ex m i 0 (m_max m)) i /\
     forall c, ex c = true -> covers m c i -> c = get_existing_cell ex m i 0 (m_max m)) /\
  (0 <= ix i -> 0 <= iy i -> 0 <= iz i -> ~ in_grid (dims_of m) i ->
     get_existing_cell ex m i 0 (m_max m) = error_cell).
Proof.
  intros Hwf Ht. split.
  - intros G. destruct (leaf_at m ex Ht i G) as (c & Ec & Cc).
    pose proof (cell_level m Hwf c (leaf_valid m ex Ht c Ec)) as Lc.
    assert (get_existing_cell ex m i 0 (m_max m) = c) as ->.
    { rewrite (gec_in m Hwf ex Ht i 0 (m_max m) c) by (assumption || lia).
      replace ((0 <=? lvl_of m c) && (lvl_of m c <=? m_max m)) with true by lia. reflexivity. }
    split; [assumption|]. split; [assumption|]. intros c' E' C'. apply (leaf_unique m Hwf ex Ht c' c i); assumption.
  - intros H0 H1 H2 N.
    assert (exists k, glen m k <= get i k) as [k Hk].
    { destruct (Z_lt_le_dec (ix i) (glen m DX)); [|exists DX; assumption].
      destruct (Z_lt_le_dec (iy i) (glen m DY)); [|exists DY; assumption].
      destruct (Z_lt_le_dec (iz i) (glen m DZ)); [|exists DZ; assumption].
      exfalso. apply N. apply in_grid_k. intros k. destruct k; cbn [get]; lia. }
    apply (gec_out m Hwf ex i k). assumption.
Qed.
Print Assumptions c48_get_existing_cell.

Lemma range_by_in lo hi inc x : 0 < inc -> lo <= hi -> In x (range_by lo hi inc) <-> lo <= x <= hi /\ (inc | x - lo).
Proof.
  intros Hi Hl. unfold range_by. rewrite in_map_iff.
  pose proof (Z.mul_div_le (hi - lo) inc Hi) as D1. pose proof (Z.mul_succ_div_gt (hi - lo) inc Hi) as D2.
  assert (0 <= (hi - lo) / inc) as D0 by (apply Z.div_pos; lia). split.
  - intros (k & <- & Hk). apply in_seq in Hk. assert (Z.of_nat k <= (hi - lo) / inc) as K by lia.
    pose proof (Z.mul_le_mono_nonneg_r _ _ inc ltac:(lia) K).
    pose proof (Z.mul_nonneg_nonneg (Z.of_nat k) inc ltac:(lia) ltac:(lia)). split; [lia|]. exists (Z.of_nat k). lia.
  - intros [Hx [q Hq]]. assert (0 <= q) by nia. exists (Z.to_nat q). split; [lia|]. apply in_seq.
    assert (q <= (hi - lo) / inc); [|lia]. apply Z.div_le_lower_bound; lia.
Qed.

(** the loop collecting unique cells *)
Lemma uniq_loop (keep : Z -> bool) l : forall acc, NoDup acc ->
  let r := fold_left (fun acc c => if negb (keep c) then acc else if existsb (Z.eqb c) acc then acc else c :: acc) l acc in
  NoDup r /\ forall c, In c r <-> In c acc \/ (In c l /\ keep c = true).
Proof.
  induction l as [|a l IH]; intros acc N; cbn [fold_left].
  - split; [assumption|]. cbn [In]. tauto.
  - destruct (keep a) eqn:Ka; cbn [negb].
    + destruct (existsb (Z.eqb a) acc) eqn:Ea.
      * apply existsb_exists in Ea. destruct Ea as (x & Hx & E). apply Z.eqb_eq in E. subst x.
        destruct (IH acc N) as [N' I']. split; [exact N'|]. intros c. rewrite I'. cbn [In]. intuition (subst; auto).
      * assert (~ In a acc) as Na.
        { intros Q. assert (existsb (Z.eqb a) acc = true); [|congruence]. apply existsb_exists. exists a. split; [assumption|apply Z.eqb_refl]. }
        destruct (IH (a :: acc)) as [N' I']; [constructor; assumption|]. split; [exact N'|]. intros c. rewrite I'. cbn [In]. intuition (subst; auto).
    + destruct (IH acc N) as [N' I']. split; [exact N'|]. intros c. rewrite I'. cbn [In].
      intuition (subst; auto). congruence.
Qed.

Definition in_box (imin imax i : idx) : Prop := forall k, get imin k <= get i k <= get imax k.

Section FindCells.
Context (m : mapping) (Hwf : wf m) (ex : Z -> bool) (Htile : tiling m ex).
Context (imin imax : idx) (lo hi : Z).
Context (Hbox : forall k, 0 <= get imin k <= get imax k /\ get imax k < glen m k).
Context (Hlvl : 0 <= lo <= hi /\ hi <= m_max m).
Notation inc := (2 ^ (m_max m - hi)).
Context (Hal : forall k, (inc | get imin k)).

Lemma find_cells_in c : c <> error_cell ->
  In c (find_cells ex m imin imax lo hi) <->
  ex c = true /\ lo <= lvl_of m c <= hi /\ exists i, in_box imin imax i /\ covers m c i.
Proof.
  intros Nc. unfold find_cells. pose proof (wf_max_le_21 m Hwf).
  assert (shl1 (m_max m - hi) = inc) as -> by (apply shl1_small; lia).
  assert (0 < inc) as Pi by (apply Z.pow_pos_nonneg; lia).
  set (vis := flat_map _ _).
  assert (forall x, In x vis <-> exists i, in_box imin imax i /\ (forall k, (inc | get i k)) /\ x = get_existing_cell ex m i lo hi) as Vis.
  { intros x. unfold vis. rewrite in_flat_map. split.
    - intros (z & Hz & Hx). apply in_flat_map in Hx. destruct Hx as (y & Hy & Hx). apply in_map_iff in Hx. destruct Hx as (w & Ew & Hw).
      pose proof (Hbox DX). pose proof (Hbox DY). pose proof (Hbox DZ). cbn [get] in *.
      apply range_by_in in Hz; [|assumption|lia]. apply range_by_in in Hy; [|assumption|lia]. apply range_by_in in Hw; [|assumption|lia].
      exists (Idx w y z). split; [intros k; destruct k; cbn [get ix iy iz]; lia|]. split; [|symmetry; assumption].
      assert (forall v u, (inc | u) -> (inc | v - u) -> (inc | v)) as D.
      { intros v u D1 D2. replace v with (v - u + u) by ring. apply Z.divide_add_r; assumption. }
      intros k. pose proof (Hal k). destruct k; cbn [get ix iy iz] in *; eapply D; try eassumption; tauto.
    - intros (i & Bi & Di & ->). exists (iz i).
      pose proof (Hbox DX). pose proof (Hbox DY). pose proof (Hbox DZ). cbn [get] in *.
      split; [apply range_by_in; [assumption|lia|]; split; [apply (Bi DZ)|apply Z.divide_sub_r; [apply (Di DZ)|apply (Hal DZ)]]|].
      apply in_flat_map. exists (iy i).
      split; [apply range_by_in; [assumption|lia|]; split; [apply (Bi DY)|apply Z.divide_sub_r; [apply (Di DY)|apply (Hal DY)]]|].
      apply in_map_iff. exists (ix i). split; [destruct i; reflexivity|].
      apply range_by_in; [assumption|lia|]; split; [apply (Bi DX)|apply Z.divide_sub_r; [apply (Di DX)|apply (Hal DX)]]. }
  rewrite <- in_rev.
  pose proof (uniq_loop (fun c => c =? get_child_ex ex m c) vis [] (NoDup_nil _)) as [_ U]. cbn zeta in U. rewrite U. clear U.
  cbn [In]. rewrite Vis.
  assert (forall i, in_box imin imax i -> in_grid (dims_of m) i) as G.
  { intros i Bi. apply in_grid_k. intros k. specialize (Bi k). specialize (Hbox k). lia. }
  assert (forall i x, ex x = true -> covers m x i -> get_existing_cell ex m i lo hi = if (lo <=? lvl_of m x) && (lvl_of m x <=? hi) then x else error_cell) as GE.
  { intros i x Ex Cx. apply (gec_in m Hwf ex Htile); try assumption; lia. }
  split.
  - intros [[]|[(i & Bi & Di & ->) K]]. destruct (leaf_at m ex Htile i (G i Bi)) as (x & Ex & Cx).
    rewrite (GE i x Ex Cx) in *. destruct ((lo <=? lvl_of m x) && (lvl_of m x <=? hi)) eqn:Q; [|congruence].
    split; [assumption|]. split; [lia|]. exists i. auto.
  - intros (Ec & Lc & i & Bi & Ci). right. pose proof (leaf_valid m ex Htile c Ec) as Vc.
    split; [|rewrite (get_child_ex_leaf m Hwf ex Htile c Ec); apply Z.eqb_refl].
    set (j := vmap (fun k => rdown inc (get i k))). exists j.
    assert (forall k, rdown inc (get i k) <= get i k < rdown inc (get i k) + inc) as Rd by (intros k; apply rdown_le; assumption).
    assert (forall k, (inc | rdown inc (get i k))) as Dv by (intros k; apply rdown_divide; assumption).
    assert (forall a k, (inc | a) -> a <= get i k -> a <= rdown inc (get i k)) as Lo.
    { intros a k Da Ha. destruct (Z_le_gt_dec a (rdown inc (get i k))); [assumption|].
      pose proof (aligned_lt inc (rdown inc (get i k)) a Pi (Dv k) Da ltac:(lia)). pose proof (Rd k). lia. }
    split; [|split].
    + intros k. unfold j. rewrite get_vmap. specialize (Bi k). pose proof (Lo _ k (Hal k) ltac:(lia)). pose proof (Rd k). lia.
    + intros k. unfold j. rewrite get_vmap. apply Dv.
    + rewrite (GE j c Ec); [replace ((lo <=? lvl_of m c) && (lvl_of m c <=? hi)) with true by lia; reflexivity|].
      apply covers_k. intros k. unfold j. rewrite get_vmap. pose proof (proj1 (covers_k m c i) Ci k). pose proof (Rd k).
      assert (inc | get (idx_of m c) k) as Dc.
      { apply Z.divide_trans with (len_of m c); [|apply cell_aligned; assumption].
        rewrite (cell_len m Hwf) by assumption. apply pow2_divide. lia. }
      pose proof (Lo _ k Dc ltac:(lia)). lia.
Qed.

Lemma find_cells_nodup : NoDup (find_cells ex m imin imax lo hi).
Proof.
  unfold find_cells. apply NoDup_rev.
  apply (uniq_loop (fun c => c =? get_child_ex ex m c)). constructor.
Qed.

Lemma find_cells_error : In error_cell (find_cells ex m imin imax lo hi) ->
  exists i c, in_box imin imax i /\ ex c = true /\ covers m c i /\ ~ lo <= lvl_of m c <= hi.
Proof.
  intros Q. unfold find_cells in Q. rewrite <- in_rev in Q. pose proof (wf_max_le_21 m Hwf).
  assert (shl1 (m_max m - hi) = inc) as E by (apply shl1_small; lia). rewrite E in Q. clear E.
  assert (0 < inc) as Pi by (apply Z.pow_pos_nonneg; lia).
  pose proof (uniq_loop (fun c => c =? get_child_ex ex m c)) as U. apply U in Q; [|constructor]. clear U.
  destruct Q as [[]|[Q _]]. apply in_flat_map in Q. destruct Q as (z & Hz & Hx). apply in_flat_map in Hx. destruct Hx as (y & Hy & Hx).
  apply in_map_iff in Hx. destruct Hx as (w & Ew & Hw).
  pose proof (Hbox DX). pose proof (Hbox DY). pose proof (Hbox DZ). cbn [get] in *.
  apply range_by_in in Hz; [|assumption|lia]. apply range_by_in in Hy; [|assumption|lia]. apply range_by_in in Hw; [|assumption|lia].
  set (i := Idx w y z) in *.
  assert (in_box imin imax i) as Bi by (intros k; destruct k; cbn [get ix iy iz i]; lia).
  assert (in_grid (dims_of m) i) as G.
  { apply in_grid_k. intros k. specialize (Bi k). specialize (Hbox k). lia. }
  destruct (leaf_at m ex Htile i G) as (x & Ex & Cx). exists i, x. split; [assumption|]. split; [assumption|]. split; [assumption|].
  intros Lx. rewrite (gec_in m Hwf ex Htile i lo hi x) in Ew by (assumption || lia).
  replace ((lo <=? lvl_of m x) && (lvl_of m x <=? hi)) with true in Ew by lia.
  subst x. rewrite (ex_error m ex Htile) in Ex. discriminate.
Qed.
End FindCells.

(** find_cells over all levels: exactly the cells overlapping the box, each once *)
Theorem c48_find_cells_all_levels m ex imin imax : wf m -> tiling m ex ->
  (forall k, 0 <= get imin k <= get imax k /\ get imax k < glen m k) ->
  let l := find_cells ex m imin imax 0 (m_max m) in
  NoDup l /\ forall c, In c l <-> ex c = true /\ exists i, in_box imin imax i /\ covers m c i.
Proof.
  intros Hwf Ht Hb l. assert (0 <= 0 <= m_max m /\ m_max m <= m_max m) as Hl by (destruct Hwf as (_&_&_&?&_); lia).
  assert (forall k, (2 ^ (m_max m - m_max m) | get imin k)) as Ha.
  { intros k. rewrite Z.sub_diag. change (2 ^ 0) with 1. apply Z.divide_1_l. }
  split; [apply find_cells_nodup|]. intros c. destruct (Z.eq_dec c error_cell) as [->|N].
  - split.
    + intros Q. destruct (find_cells_error m Hwf ex Ht imin imax 0 (m_max m) Hb Hl Q) as (i & c & _ & Ec & _ & NL).
      exfalso. apply NL. pose proof (cell_level m Hwf c (leaf_valid m ex Ht c Ec)). lia.
    + intros [E _]. rewrite (ex_error m ex Ht) in E. discriminate.
  - unfold l. rewrite (find_cells_in m Hwf ex Ht imin imax 0 (m_max m) Hb Hl Ha c N). split.
    + intros (A & _ & B). auto.
    + intros (A & B). split; [assumption|]. split; [|assumption]. apply (cell_level m Hwf). apply (leaf_valid m ex Ht). assumption.
Qed.
Print Assumptions c48_find_cells_all_levels.

(** with a smaller level range: exact for boxes starting at a multiple of the smallest cell
    size, apart from the error cell *)
Theorem c51_find_cells_levels_partial m ex imin imax lo hi : wf m -> tiling m ex ->
  (forall k, 0 <= get imin k <= get imax k /\ get imax k < glen m k) ->
  0 <= lo <= hi /\ hi <= m_max m -> (forall k, (2 ^ (m_max m - hi) | get imin k)) ->
  let l := find_cells ex m imin imax lo hi in
  NoDup l /\ forall c, c <> error_cell ->
    (In c l <-> ex c = true /\ lo <= lvl_of m c <= hi /\ exists i, in_box imin imax i /\ covers m c i).
Proof.
  intros Hwf Ht Hb Hl Ha l. split; [apply find_cells_nodup|]. intros c N. apply find_cells_in; assumption.
Qed.

(** refuted: the result may contain the error cell *)
Theorem c51_find_cells_error_cell_refuted :
  exists m ex imin imax lo hi, wf m /\ tiling m ex /\
    (forall k, 0 <= get imin k <= get imax k /\ get imax k < glen m k) /\
    0 <= lo <= hi /\ hi <= m_max m /\
    In error_cell (find_cells ex m imin imax lo hi).
Proof.
  exists demo_map, demo_ex, (Idx 12 0 0), (Idx 15 0 0), 1, 2. pose proof demo_mesh as (A & _ & B & _).
  split; [assumption|]. split; [assumption|]. split; [|split; [lia|split; [cbn; lia|vm_compute; auto]]].
  intros k. destruct k; vm_compute; repeat split; congruence.
Qed.

(** refuted: with a start that is not aligned the last overlapping cell is missed *)
Theorem c51_find_cells_unaligned_refuted :
  exists m ex imin imax lo hi c, wf m /\ tiling m ex /\
    (forall k, 0 <= get imin k <= get imax k /\ get imax k < glen m k) /\
    0 <= lo <= hi /\ hi <= m_max m /\
    ex c = true /\ lo <= lvl_of m c <= hi /\ (exists i, in_box imin imax i /\ covers m c i) /\
    ~ In c (find_cells ex m imin imax lo hi).
Proof.
  exists demo_map, demo_ex, (Idx 11 0 0), (Idx 12 0 0), 0, 1, 4. pose proof demo_mesh as (A & _ & B & _).
  split; [assumption|]. split; [assumption|]. split; [intros k; destruct k; vm_compute; repeat split; congruence|].
  split; [lia|]. split; [cbn; lia|]. split; [vm_compute; reflexivity|]. split; [vm_compute; split; congruence|].
  split.
  - exists (Idx 12 0 0). split; [intros k; destruct k; cbn; lia|]. apply coversb_spec. vm_compute. reflexivity.
  - vm_compute. intros [Q|[]]. discriminate.
Qed.

Example c48_example :
  wf demo_map /\ tiling demo_map demo_ex /\ get_existing_cell demo_ex demo_map (Idx 13 2 1) 0 2 = 4 /\
  find_cells demo_ex demo_map (Idx 11 0 0) (Idx 13 0 1) 0 2 = [nth 1 (get_all_children demo_map 3) 0; 4].
Proof.
  pose proof demo_mesh as (A & _ & B & _). split; [assumption|]. split; [assumption|]. split; vm_compute; reflexivity.
Qed.
