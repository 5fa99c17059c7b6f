(** Creation of the level 0 cells along a space filling curve: every cell is created once, on the
    process of its part of the curve, and the grid's invariant holds. *)
From Verif Require Import U64 MapModel MapSpec MapProofs MapFamily MapProps HoodModel MeshModel
  MeshSpec MeshBase HoodProps MeshWalk MeshFind MeshKids MeshItem MeshCheck MeshTo MeshNear
  Sets RefineModel RefineGeo RefineInv BalanceModel RefineReqs Create SfcModel.
Open Scope Z_scope.

(** ** Caching *)
Section Caching.
Context (T batches : Z) (HT : 0 < T) (HW : 2 * T <= W) (Hb : 0 < batches).
Notation batch := (batch_size T batches).
Lemma batch_range : 1 <= batch <= T.
Proof.
  unfold batch_size. pose proof (Z.div_mod T batches ltac:(lia)) as E. pose proof (Z.mod_pos_bound T batches Hb) as M.
  assert (0 <= T / batches <= T) as Q by (split; [apply Z.div_pos; lia|apply Z.div_le_upper_bound; nia]).
  destruct (Z.ltb_spec 0 (T mod batches)); [|split; [|lia]; nia]. split; [lia|].
  destruct (Z.eq_dec batches 1) as [->|]; [rewrite Z.mod_1_r in *; lia|]. nia.
Qed.
Lemma recache_ok i cache : 0 <= i < T -> 0 <= fst cache <= i -> i - 1 <= snd cache < T -> 0 <= snd cache ->
  exists cache', recache T batch i cache = Done cache' /\ fst cache' <= i <= snd cache' /\ 0 <= fst cache' /\ snd cache' < T.
Proof.
  intros Hi Hf Hs Hn. unfold recache. destruct (Z.ltb_spec (snd cache) i); [|exists cache; split; [reflexivity|lia]]. pose proof batch_range.
  unfold add64, sub64, u64. rewrite !Z.mod_small by lia. unfold cache_range.
  destruct (Z.leb_spec T (snd cache + batch)).
  - destruct (Z.leb_spec (snd cache) (T - 1)); [|lia]. destruct (Z.ltb_spec (T - 1) T); [|lia]. cbn [andb]. eexists. split; [reflexivity|]. cbn [fst snd]. lia.
  - destruct (Z.leb_spec (snd cache) (snd cache + batch)); [|lia]. destruct (Z.ltb_spec (snd cache + batch) T); [|lia]. cbn [andb]. eexists. split; [reflexivity|]. cbn [fst snd]. lia.
Qed.
Lemma sfc_some_ok m curve p k : forall i cache, 0 <= i -> i + Z.of_nat k <= T -> 0 <= fst cache <= i -> i - 1 <= snd cache < T -> 0 <= snd cache ->
  exists l cache', sfc_some m curve T batch k i cache p = Done (l, cache') /\ 0 <= fst cache' <= i + Z.of_nat k /\ i + Z.of_nat k - 1 <= snd cache' < T /\ 0 <= snd cache'.
Proof.
  induction k as [|k IH]; intros i cache Hi Hk Hf Hs Hn; cbn [sfc_some]; [do 2 eexists; split; [reflexivity|]; lia|].
  destruct (recache_ok i cache ltac:(lia) Hf Hs Hn) as (c1 & -> & C1 & C2 & C3). cbn [bind]. unfold curve_indices.
  destruct (Z.leb_spec (fst c1) i); [|lia]. destruct (Z.leb_spec i (snd c1)); [|lia]. cbn [andb bind].
  replace (add64 i 1) with (i + 1) by (unfold add64, u64; rewrite Z.mod_small; lia).
  destruct (IH (i + 1) c1 ltac:(lia) ltac:(lia) ltac:(lia) ltac:(lia) ltac:(lia)) as (l & c2 & -> & Q). cbn [bind fst snd]. do 2 eexists. split; [reflexivity|]. lia.
Qed.
End Caching.

(** ** Assignments *)
Section Assign.
Context (T np : Z) (HT : 0 < T < W) (Hnp : 0 < np < 2 ^ 31) (m : mapping) (curve : Z -> idx).
Notation cell j := (curve_cell m (curve j)).

Lemma sfc_some_eq batch p k : forall i cache l cache', 0 <= i -> i + Z.of_nat k <= T -> sfc_some m curve T batch k i cache p = Done (l, cache') ->
  l = map (fun j => (cell j, p)) (zseq i k).
Proof.
  induction k as [|k IH]; intros i cache l cache' Hi Hk E; cbn [sfc_some] in E; [injection E as <- _; reflexivity|].
  apply bind_done in E. destruct E as (c1 & _ & E). apply bind_done in E. destruct E as (x & Ex & E). apply bind_done in E. destruct E as ([l1 c2] & E1 & E). cbn [fst snd] in E. injection E as <- <-.
  unfold curve_indices in Ex. destruct (_ && _); [|discriminate]. injection Ex as <-. rewrite zseq_S. cbn [map]. f_equal.
  replace (add64 i 1) with (i + 1) in E1 by (unfold add64, u64; rewrite Z.mod_small; lia). refine (IH (i + 1) _ _ _ _ _ E1); lia.
Qed.
Lemma sfc_from_eq batch ps : forall a cache l i, 0 <= a -> ps = zseq a (length ps) -> a + Z.of_nat (length ps) = np ->
  sfc_from m curve T batch np ps (start T np a) cache = Done (l, i) ->
  i = T /\ keys l = map (fun j => cell j) (zseq (start T np a) (Z.to_nat (T - start T np a))) /\
  forall c q, In (c, q) l <-> a <= q < np /\ exists j, c = cell j /\ start T np q <= j < start T np (q + 1).
Proof.
  induction ps as [|p ps IH]; intros a cache l i Ha E L S; cbn [length] in *.
  - cbn [sfc_from] in S. injection S as <- <-. replace a with np by lia. rewrite start_np, Z.sub_diag by assumption. split; [reflexivity|]. split; [reflexivity|]. intros c q. split; [intros []|lia].
  - rewrite zseq_S in E. injection E as -> E. cbn [sfc_from] in S. cbn zeta in S. apply bind_done in S. destruct S as ([l1 c1] & E1 & S). apply bind_done in S. destruct S as ([l2 i2] & E2 & S). cbn [fst snd] in *. injection S as <- <-.
    assert (0 <= cells_to_create T np a) as K0 by (rewrite create_eq by assumption; pose proof (cpp_range T np HT Hnp); destruct (_ <? _); lia).
    pose proof (start_succ T np HT Hnp a) as Ss. pose proof (start_mono T np HT Hnp 0 a ltac:(lia)) as S0. rewrite start_0 in S0 by assumption. pose proof (start_mono T np HT Hnp (a + 1) np ltac:(lia)) as Sn. rewrite start_np in Sn by assumption.
    apply sfc_some_eq in E1; [|lia|lia]. subst l1.
    replace (add64 (start T np a) (cells_to_create T np a)) with (start T np (a + 1)) in E2 by (unfold add64, u64; rewrite Z.mod_small; lia).
    destruct (IH (a + 1) _ _ _ ltac:(lia) E ltac:(lia) E2) as (I0 & K & I). split; [assumption|]. split.
    + unfold keys in *. rewrite map_app, K, map_map. cbn [fst].
      replace (Z.to_nat (T - start T np a)) with (Z.to_nat (cells_to_create T np a) + Z.to_nat (T - start T np (a + 1)))%nat by lia. rewrite zseq_app, map_app. f_equal. f_equal. f_equal. lia.
    + intros c q. rewrite in_app_iff, I, in_map_iff. split.
      * intros [(x & Q & Hx)|(Q & j & Hj)]; [injection Q as <- <-; apply zseq_In in Hx; split; [lia|]; exists x; split; [reflexivity|lia]|split; [lia|exists j; assumption]].
      * intros (Q & j & -> & Hj). destruct (Z.eq_dec q a) as [->|]; [left; exists j; split; [reflexivity|]; apply zseq_In; lia|right; split; [lia|exists j; auto]].
Qed.
Lemma sfc_from_ok batches ps : 2 * T <= W -> 0 < batches -> forall a cache, 0 <= a -> ps = zseq a (length ps) -> a + Z.of_nat (length ps) = np ->
  0 <= fst cache <= start T np a -> start T np a - 1 <= snd cache < T -> 0 <= snd cache ->
  exists x, sfc_from m curve T (batch_size T batches) np ps (start T np a) cache = Done x.
Proof.
  intros HW Hb. induction ps as [|p ps IH]; intros a cache Ha E L Hf Hs Hn; cbn [length sfc_from] in *; [eauto|]. rewrite zseq_S in E. injection E as -> E. cbn zeta.
  assert (0 <= cells_to_create T np a) as K0 by (rewrite create_eq by assumption; pose proof (cpp_range T np HT Hnp); destruct (_ <? _); lia).
  pose proof (start_succ T np HT Hnp a) as Ss. pose proof (start_mono T np HT Hnp 0 a ltac:(lia)) as S0. rewrite start_0 in S0 by assumption. pose proof (start_mono T np HT Hnp (a + 1) np ltac:(lia)) as Sn. rewrite start_np in Sn by assumption.
  destruct (sfc_some_ok T batches ltac:(lia) HW Hb m curve a (Z.to_nat (cells_to_create T np a)) (start T np a) cache ltac:(lia) ltac:(lia) Hf Hs Hn) as (l & c1 & -> & Q1 & Q2 & Q3). cbn [bind fst snd].
  replace (add64 (start T np a) (cells_to_create T np a)) with (start T np (a + 1)) by (unfold add64, u64; rewrite Z.mod_small; lia).
  destruct (IH (a + 1) c1 ltac:(lia) E ltac:(lia) ltac:(lia) ltac:(lia) Q3) as (x & ->). cbn [bind]. eauto.
Qed.
End Assign.

(** ** Cells of the curve *)
Section Curve.
Context (m : mapping) (Hwf : wf m).
Notation T := (vol (dims_of m)).
Lemma side_W : m_l0 m * 2 ^ m_max m < W /\ m_l1 m * 2 ^ m_max m < W /\ m_l2 m * 2 ^ m_max m < W.
Proof.
  pose proof Hwf as (_ & _ & _ & Hm & _). pose proof (wf_level_total m Hwf (m_max m) ltac:(lia)) as B. pose proof (wf_vol m Hwf) as (V & V0 & V1 & V2 & _).
  assert (2 ^ m_max m <= 8 ^ m_max m) by (apply Z.pow_le_mono_l; lia). assert (0 < 2 ^ m_max m) by (apply Z.pow_pos_nonneg; lia).
  assert (T * 2 ^ m_max m <= T * 8 ^ m_max m) by (apply Z.mul_le_mono_nonneg_l; lia).
  assert (forall a, a <= T -> a * 2 ^ m_max m <= T * 2 ^ m_max m) as K by (intros; apply Z.mul_le_mono_nonneg_r; lia). pose proof (K _ V0). pose proof (K _ V1). pose proof (K _ V2). lia.
Qed.
Lemma scaled a b : 0 <= a < b -> b * 2 ^ m_max m < W -> mul64 a (2 ^ m_max m) = a * 2 ^ m_max m /\ 0 <= a * 2 ^ m_max m < b * 2 ^ m_max m.
Proof.
  intros Ha Hb. pose proof Hwf as (_ & _ & _ & Hm & _). assert (0 < 2 ^ m_max m) by (apply Z.pow_pos_nonneg; lia).
  assert (0 <= a * 2 ^ m_max m < b * 2 ^ m_max m) by (split; [apply Z.mul_nonneg_nonneg; lia|apply Z.mul_lt_mono_pos_r; lia]). split; [|assumption]. unfold mul64, u64. apply Z.mod_small. lia.
Qed.
Lemma curve_cell_spec i : in_box m i -> valid m (curve_cell m i) /\ lvl_of m (curve_cell m i) = 0 /\
  get_indices m (curve_cell m i) = Idx (ix i * 2 ^ m_max m) (iy i * 2 ^ m_max m) (iz i * 2 ^ m_max m).
Proof.
  intros (X & Y & Z0). pose proof (wf_max_le_21 m Hwf) as M. destruct side_W as (W0 & W1 & W2).
  destruct (scaled _ _ X W0) as [EX BX], (scaled _ _ Y W1) as [EY BY], (scaled _ _ Z0 W2) as [EZ BZ].
  unfold curve_cell. cbn zeta. rewrite shl1_eq by lia. rewrite EX, EY, EZ.
  destruct (c01_indices_to_id_and_back m (Idx (ix i * 2 ^ m_max m) (iy i * 2 ^ m_max m) (iz i * 2 ^ m_max m)) 0 Hwf) as (V & L & I); [split; [exact BX|split; [exact BY|exact BZ]]|lia|].
  split; [exact V|]. split; [exact L|]. rewrite I. cbn [ix iy iz]. rewrite Z.sub_0_r. assert (0 < 2 ^ m_max m) by (apply Z.pow_pos_nonneg; lia).
  rewrite !rdown_self by (assumption || (eexists; reflexivity)). reflexivity.
Qed.
Lemma curve_cell_inj i j : in_box m i -> in_box m j -> curve_cell m i = curve_cell m j -> i = j.
Proof.
  intros Hi Hj E. destruct (curve_cell_spec i Hi) as (_ & _ & I). destruct (curve_cell_spec j Hj) as (_ & _ & J). rewrite E, J in I. injection I as A B C.
  pose proof Hwf as (_ & _ & _ & Hm & _). assert (2 ^ m_max m <> 0) by (apply Z.pow_nonzero; lia). destruct i as [i1 i2 i3], j as [j1 j2 j3]. cbn [ix iy iz] in *.
  apply Z.mul_reg_r in A, B, C; try assumption. subst. reflexivity.
Qed.
Lemma curve_cell_sur c : valid m c -> lvl_of m c = 0 -> exists i, in_box m i /\ curve_cell m i = c.
Proof.
  intros V L. destruct (c01_id_to_indices_and_back m c Hwf V) as (_ & (Gx & Gy & Gz) & S & (a & A) & (b & B) & (d & C) & E). unfold lvl_of in L. rewrite L, Z.sub_0_r in *. rewrite S in *. cbn [dims_of MapSpec.d0 d1 d2 dmax] in *.
  pose proof (wf_max_le_21 m Hwf) as M. assert (0 < 2 ^ m_max m) as P by (apply Z.pow_pos_nonneg; lia). destruct side_W as (W0 & W1 & W2).
  assert (forall k n x, x = k * 2 ^ m_max m -> 0 <= x < n * 2 ^ m_max m -> 0 <= k < n) as K by (intros k n x -> [Q1 Q2]; split; [apply Z.mul_nonneg_cancel_r in Q1; assumption|apply Z.mul_lt_mono_pos_r in Q2; assumption]).
  pose proof (K _ _ _ A Gx) as X. pose proof (K _ _ _ B Gy) as Y. pose proof (K _ _ _ C Gz) as Z0.
  exists (Idx a b d). split; [split; [exact X|split; [exact Y|exact Z0]]|]. unfold curve_cell. cbn [ix iy iz]. cbn zeta. rewrite shl1_eq by lia.
  destruct (scaled _ _ X W0) as [-> _], (scaled _ _ Y W1) as [-> _], (scaled _ _ Z0 W2) as [-> _]. rewrite <- A, <- B, <- C. destruct (get_indices m c). exact E.
Qed.
End Curve.

(** ** The new grid *)
Lemma puts_find {A B} (h : A -> B) (l : list (Z * A)) : forall (f : list (Z * B)) c, NoDup (keys l) ->
  find c (fold_left (fun f e => put (fst e) (h (snd e)) f) l f) = match find c l with Some a => Some (h a) | None => find c f end.
Proof.
  induction l as [|[k a] l IH]; intros f c N; cbn [fold_left]; [reflexivity|]. cbn [keys map fst] in N. apply NoDup_cons_iff in N. destruct N as [Nk N]. rewrite IH by assumption. cbn [find fst snd]. rewrite find_put.
  destruct (Z.eqb_spec c k) as [->|]; [|reflexivity]. destruct (find k l) eqn:F; [exfalso; apply Nk, keys_find; eauto|reflexivity].
Qed.
Lemma puts_NoDup {A B} (h : A -> B) (l : list (Z * A)) : forall (f : list (Z * B)), NoDup (keys f) -> NoDup (keys (fold_left (fun f e => put (fst e) (h (snd e)) f) l f)).
Proof. induction l as [|[k a] l IH]; intros f N; cbn [fold_left]; [assumption|]. apply IH, put_NoDup. assumption. Qed.
Lemma filter_find (P : Z * Z -> bool) (l : list (Z * Z)) c : NoDup (keys l) -> find c (filter P l) = match find c l with Some q => if P (c, q) then Some q else None | None => None end.
Proof.
  induction l as [|[k q] l IH]; intros N; [reflexivity|]. cbn [keys map fst] in N. apply NoDup_cons_iff in N. destruct N as [N1 N]. specialize (IH N). cbn [filter find].
  assert (c = k -> find c l = None) as Nf by (intros ->; destruct (find k l) eqn:F; [exfalso; apply N1, keys_find; eauto|reflexivity]).
  destruct (Z.eqb_spec c k) as [->|Nk].
  - destruct (P (k, q)) eqn:E; cbn [find]; [rewrite Z.eqb_refl; reflexivity|]. rewrite IH, Nf; reflexivity.
  - destruct (P (k, q)); cbn [find]; [destruct (Z.eqb_spec c k); [contradiction|]|]; exact IH.
Qed.

Section Created.
Context {D : Type} (d0 : D) (g : grid) (Hg : grid_ok g) (curve : Z -> idx) (Hc : space_filling (g_map g) curve).
Notation m := (g_map g).
Notation T := (vol (dims_of m)).
Notation np := (g_np g).
Notation cell j := (curve_cell m (curve j)).

Lemma cell_range j : 0 <= j < T -> 1 <= cell j <= T.
Proof. intros Hj. apply level0; [assumption|]. destruct (curve_cell_spec m (proj1 Hg) (curve j) (proj1 Hc j Hj)) as (A & B & _). auto. Qed.
Lemma cell_inj j k : 0 <= j < T -> 0 <= k < T -> cell j = cell k -> j = k.
Proof. intros Hj Hk E. apply (proj1 (proj2 Hc)); [assumption|assumption|]. apply (curve_cell_inj m (proj1 Hg)); [apply (proj1 Hc); assumption..|assumption]. Qed.
Lemma cell_sur c : 1 <= c <= T -> exists j, 0 <= j < T /\ cell j = c.
Proof.
  intros H. apply level0 in H; [|assumption]. destruct H as [V L]. destruct (curve_cell_sur m (proj1 Hg) c V L) as (i & Bi & <-). destruct (proj2 (proj2 Hc) i Bi) as (j & Hj & <-). eauto.
Qed.

(** the process of a cell: the one of its part of the curve *)
Lemma sfc_cells_spec batches cells : sfc_cells g curve batches = Done cells -> NoDup (keys cells) /\
  (forall c, In c (keys cells) <-> 1 <= c <= T) /\
  forall c q, find c cells = Some q <-> 0 <= q < np /\ exists j, c = cell j /\ start T np q <= j < start T np (q + 1).
Proof.
  unfold sfc_cells. cbn zeta. rewrite (total_eq g Hg). destruct (batches =? 0); [discriminate|]. intros E. apply bind_done in E. destruct E as (cache & _ & E). apply bind_done in E. destruct E as ([l i] & E1 & E). cbn [fst snd] in E. destruct (i =? T); [|discriminate]. injection E as <-.
  pose proof (vol_bound g Hg) as B. pose proof Hg as (_ & _ & _ & Hnp). destruct (ranks_seq g Hg) as [Er L].
  rewrite <- (start_0 T np B Hnp) in E1. destruct (sfc_from_eq T np B Hnp m curve _ (ranks g) 0 _ _ _ ltac:(lia) Er ltac:(lia) E1) as (_ & K & I). rewrite start_0, Z.sub_0_r in K by assumption.
  assert (NoDup (keys l)) as N.
  { rewrite K. clear - Hg Hc B. assert (forall k a, 0 <= a -> a + Z.of_nat k <= T -> NoDup (map (fun j => cell j) (zseq a k))) as Q.
    { induction k as [|k IH]; intros a Ha Hk; [constructor|]. rewrite zseq_S. cbn [map]. constructor; [|apply IH; lia]. rewrite in_map_iff. intros (j & E & Hj). apply zseq_In in Hj. apply cell_inj in E; lia. }
    apply Q; lia. }
  split; [assumption|]. split.
  - intros c. rewrite K, in_map_iff. split; [intros (j & <- & Hj); apply zseq_In in Hj; apply cell_range; lia|]. intros H. destruct (cell_sur c H) as (j & Hj & <-). exists j. split; [reflexivity|]. apply zseq_In. lia.
  - intros c q. rewrite <- I. split; [apply find_In|apply In_find; assumption].
Qed.
Lemma sfc_cells_ok batches : 2 * T <= W -> 0 < batches -> exists cells, sfc_cells g curve batches = Done cells.
Proof.
  intros HW Hb. pose proof (vol_bound g Hg) as B. pose proof Hg as (_ & _ & _ & Hnp). destruct (ranks_seq g Hg) as [Er L]. unfold sfc_cells. cbn zeta. rewrite (total_eq g Hg). destruct (Z.eqb_spec batches 0); [lia|].
  pose proof (batch_range T batches ltac:(lia) Hb) as Q. unfold sub64, u64. rewrite Z.mod_small by lia. unfold cache_range. destruct (Z.leb_spec 0 (batch_size T batches - 1)); [|lia]. destruct (Z.ltb_spec (batch_size T batches - 1) T); [|lia]. cbn [andb bind].
  destruct (sfc_from_ok T np B Hnp m curve batches (ranks g) HW Hb 0 (0, batch_size T batches - 1) ltac:(lia) Er ltac:(lia)) as ([l i] & E); [rewrite start_0 by assumption; cbn [fst snd]; lia..|cbn [snd]; lia|].
  pose proof E as E'. destruct (sfc_from_eq T np B Hnp m curve _ (ranks g) 0 _ _ _ ltac:(lia) Er ltac:(lia) E') as (-> & _). rewrite start_0 in E by assumption. rewrite E. cbn [bind fst snd]. rewrite Z.eqb_refl. eauto.
Qed.

Section Given.
Context (cells : list (Z * Z)) (Hd : NoDup (keys cells)) (Hk : forall c, In c (keys cells) <-> 1 <= c <= T) (Hq : forall c q, find c cells = Some q -> 0 <= q < np).
Definition sfc_own (c : Z) : option Z := find c cells.
Lemma sfc_exo c : exo sfc_own c = true <-> 1 <= c <= T.
Proof. rewrite <- Hk, keys_find. unfold exo, sfc_own. destruct (find c cells); split; eauto; [discriminate|intros (? & ?); discriminate]. Qed.
Lemma sfc_world : world_ok g sfc_own.
Proof.
  pose proof (world0 g Hg) as (M & _). split; [|intros c q O; apply in_ranks; apply (Hq c q O)]. revert M. apply mesh_ext. intros c. apply Bool.eq_iff_eq_true. rewrite sfc_exo, own0_ex by assumption. reflexivity.
Qed.
Lemma sfc_find r c : find c (s_data (sfc_store d0 cells r)) = if match sfc_own c with Some q => q =? r | None => false end then Some d0 else None.
Proof.
  cbn [sfc_store s_data]. rewrite (puts_find (fun _ => d0)). 2:{ unfold keys. clear - Hd. induction cells as [|e l IH]; [constructor|]. cbn [filter]. unfold keys in Hd. cbn [map] in Hd. apply NoDup_cons_iff in Hd. destruct Hd as [N1 N]. destruct (_ =? _); [|auto]. cbn [map]. constructor; [|auto]. intros Q. apply N1. apply in_map_iff in Q. destruct Q as (x & E & Q). apply filter_In in Q. rewrite <- E. apply in_map. apply Q. }
  rewrite filter_find by assumption. unfold sfc_own. destruct (find c cells); [|reflexivity]. cbn [snd]. destruct (_ =? _); reflexivity.
Qed.
Lemma sfc_store_ok r : store_ok sfc_own r (sfc_store d0 cells r).
Proof.
  split; [|split; [|split]].
  - intros c. cbn [sfc_store s_proc]. rewrite (puts_find (fun q => q)) by assumption. unfold sfc_own. destruct (find c cells); reflexivity.
  - apply (puts_NoDup (fun q : Z => q)). constructor.
  - apply (puts_NoDup (fun _ : Z => d0)). constructor.
  - intros c. unfold has. rewrite sfc_find. destruct (sfc_own c) as [q|]; [|split; discriminate]. destruct (Z.eqb_spec q r) as [->|]; split; intros; try reflexivity; try discriminate. congruence.
Qed.
Lemma sfc_each : exists st, each g (fun r => do k <- rebuild g r (sfc_store d0 cells r); Done (Proc no_requests k (sfc_store d0 cells r)))
    (fun r => Proc no_requests (Caches [] [] [] [] []) (sfc_store d0 cells r)) = Done st /\ good g sfc_own st /\
  forall r, In r (ranks g) -> p_store (st r) = sfc_store d0 cells r /\ p_req (st r) = no_requests.
Proof.
  unfold each.
  destruct (collect_ok (ranks g) (fun r => do k <- rebuild g r (sfc_store d0 cells r); Done (Proc no_requests k (sfc_store d0 cells r)))
    (fun r => Proc no_requests (Caches [] [] [] [] []) (sfc_store d0 cells r))
    (fun r p => p_store p = sfc_store d0 cells r /\ p_req p = no_requests /\ rebuild g r (p_store p) = Done (p_cache p))) as (st & E & P).
  - intros r Ir. destruct (rebuild_ok g Hg sfc_own r _ sfc_world (sfc_store_ok r)) as (k & Ek & _). rewrite Ek. cbn [bind]. eexists. split; [reflexivity|]. auto.
  - exists st. split; [exact E|]. split; [split; [apply sfc_world|]|].
    + intros r Ir. destruct (P r Ir) as (_ & S & Q & K). split; [rewrite S; apply sfc_store_ok|]. split; [assumption|]. rewrite Q. split; intros c [].
    + intros r Ir. destruct (P r Ir) as (_ & S & Q & _). auto.
Qed.
End Given.

Lemma initialize_sfc_ok batches st : initialize_sfc d0 g curve batches = Done st -> exists cells, sfc_cells g curve batches = Done cells /\ good g (sfc_own cells) st /\
  forall r, In r (ranks g) -> p_store (st r) = sfc_store d0 cells r /\ p_req (st r) = no_requests.
Proof.
  unfold initialize_sfc. intros E. apply bind_done in E. destruct E as (cells & Ec & E). exists cells. split; [assumption|]. destruct (sfc_cells_spec batches cells Ec) as (N & K & F).
  destruct (sfc_each cells N K) as (st' & E' & P); [intros c q Q; apply F in Q; apply Q|]. assert (st' = st) as <- by congruence. exact P.
Qed.
Lemma initialize_sfc_done batches : 2 * T <= W -> 0 < batches -> exists st, initialize_sfc d0 g curve batches = Done st.
Proof.
  intros HW Hb. destruct (sfc_cells_ok batches HW Hb) as (cells & Ec). unfold initialize_sfc. rewrite Ec. cbn [bind]. destruct (sfc_cells_spec batches cells Ec) as (N & K & F).
  destruct (sfc_each cells N K) as (st' & E' & _); [intros c q Q; apply F in Q; apply Q|]. rewrite E'. eauto.
Qed.
End Created.
