(** Creation of the level 0 cells: which process gets which, and the invariant of the new grid. *)
From Verif Require Import U64 MapModel MapSpec MapProofs MapFamily MapProps HoodModel MeshModel
  MeshSpec MeshBase HoodProps MeshWalk MeshFind MeshKids MeshItem MeshCheck MeshTo MeshNear
  Sets RefineModel RefineGeo RefineInv BalanceModel.
Open Scope Z_scope.

Section Counts.
Context (T np : Z) (HT : 0 < T < W) (Hnp : 0 < np < 2 ^ 31).
Notation cpp := (cells_per_process T np).

Lemma cpp_range : 1 <= cpp <= T /\ 0 <= cpp * np - T < np.
Proof.
  unfold cells_per_process. destruct (Z.ltb_spec T np); [lia|]. pose proof (Z.div_mod T np ltac:(lia)) as E. pose proof (Z.mod_pos_bound T np ltac:(lia)).
  assert (1 <= T / np) by (apply Z.div_le_lower_bound; lia). assert (T / np <= T) by (apply Z.div_le_upper_bound; nia).
  destruct (Z.ltb_spec 0 (T mod np)); [|split; [lia|nia]]. split; [|nia]. split; [lia|].
  destruct (Z.eq_dec np 1) as [->|]; [rewrite Z.mod_1_r in *; lia|]. assert (T / np * 2 <= T) by nia. assert (T / np = T -> False) by nia. lia.
Qed.
Lemma fewer_eq : procs_with_fewer T np = cpp * np - T.
Proof.
  unfold procs_with_fewer, sub64, mul64, u64. rewrite Zminus_mod_idemp_l. apply Z.mod_small. pose proof cpp_range. rewrite W_val. lia.
Qed.
Lemma create_eq p : cells_to_create T np p = if p <? cpp * np - T then cpp - 1 else cpp.
Proof.
  unfold cells_to_create. rewrite fewer_eq. destruct (_ <? _); [|reflexivity]. unfold sub64, u64. apply Z.mod_small. pose proof cpp_range. lia.
Qed.

(** cells of the processes before process p *)
Definition start (p : Z) : Z := p * cpp - Z.min p (cpp * np - T).
Lemma start_succ p : start (p + 1) = start p + cells_to_create T np p.
Proof. rewrite create_eq. unfold start. destruct (Z.ltb_spec p (cpp * np - T)); lia. Qed.
Lemma start_0 : start 0 = 0. Proof. unfold start. pose proof cpp_range. lia. Qed.
Lemma start_np : start np = T. Proof. unfold start. pose proof cpp_range. lia. Qed.
Lemma start_mono a b : 0 <= a <= b -> start a <= start b.
Proof.
  intros Q. unfold start. pose proof cpp_range as [C F]. set (f := cpp * np - T) in *. assert ((b - a) * 1 <= (b - a) * cpp) by (apply Z.mul_le_mono_nonneg_l; lia). lia.
Qed.

Definition zseq (c : Z) (k : nat) : list Z := map (fun i => c + Z.of_nat i) (seq 0 k).
Lemma zseq_S c k : zseq c (S k) = c :: zseq (c + 1) k.
Proof. unfold zseq. cbn [seq map]. rewrite <- seq_shift, map_map. f_equal; [lia|]. apply map_ext. intros. lia. Qed.
Lemma zseq_app a : forall c b, zseq c (a + b) = zseq c a ++ zseq (c + Z.of_nat a) b.
Proof.
  induction a as [|a IH]; intros c b; [cbn [plus app]; rewrite Z.add_0_r; reflexivity|]. cbn [plus]. rewrite !zseq_S, IH. cbn [app]. f_equal. f_equal. f_equal. lia.
Qed.
Lemma zseq_In x c k : In x (zseq c k) <-> c <= x < c + Z.of_nat k.
Proof.
  unfold zseq. rewrite in_map_iff. split; [intros (i & <- & Hi); apply in_seq in Hi; lia|]. intros. exists (Z.to_nat (x - c)). split; [lia|]. apply in_seq. lia.
Qed.
Lemma zseq_NoDup c k : NoDup (zseq c k).
Proof. apply FinFun.Injective_map_NoDup; [intros a b; lia|apply seq_NoDup]. Qed.

Lemma create_some_eq k : forall c p, 0 <= c -> c + Z.of_nat k <= W -> create_some k c p = map (fun x => (x, p)) (zseq c k).
Proof.
  induction k as [|k IH]; intros c p Hc Hk; [reflexivity|]. cbn [create_some]. rewrite zseq_S. cbn [map]. f_equal.
  destruct k as [|k]; [reflexivity|]. replace (add64 c 1) with (c + 1) by (unfold add64, u64; rewrite Z.mod_small; lia). apply IH; lia.
Qed.

Lemma create_from_spec ps : forall a, 0 <= a -> ps = zseq a (length ps) -> a + Z.of_nat (length ps) = np ->
  let l := create_from T np ps (1 + start a) in
  keys l = zseq (1 + start a) (Z.to_nat (T - start a)) /\
  forall c q, In (c, q) l <-> a <= q < np /\ start q < c <= start (q + 1).
Proof.
  induction ps as [|p ps IH]; intros a Ha E L; cbn [length] in *.
  - replace a with np by lia. rewrite start_np, Z.sub_diag. cbn. split; [reflexivity|]. intros c q. split; [intros []|lia].
  - rewrite zseq_S in E. injection E as -> E. cbn [create_from]. cbn zeta.
    assert (0 <= cells_to_create T np a) as K0 by (rewrite create_eq; pose proof cpp_range; destruct (_ <? _); lia).
    pose proof (start_succ a) as Ss. pose proof (start_mono 0 a ltac:(lia)) as S0. rewrite start_0 in S0. pose proof (start_mono (a + 1) np ltac:(lia)) as Sn. rewrite start_np in Sn.
    rewrite create_some_eq by lia. assert (create_from T np ps (add64 (1 + start a) (cells_to_create T np a)) = create_from T np ps (1 + start (a + 1))) as ->.
    { destruct ps as [|p ps']; [reflexivity|]. f_equal. cbn [length] in L. pose proof (start_succ (np - 1)) as Sl. replace (np - 1 + 1) with np in Sl by lia. rewrite start_np, create_eq in Sl.
      pose proof (start_mono (a + 1) (np - 1) ltac:(lia)). pose proof cpp_range as [C F]. destruct (Z.ltb_spec (np - 1) (cpp * np - T)); [lia|]. unfold add64, u64. rewrite Z.mod_small; lia. }
    destruct (IH (a + 1) ltac:(lia) E ltac:(lia)) as [K I]. cbn zeta in K, I. split.
    + unfold keys in *. rewrite map_app, K, map_map. cbn [fst]. rewrite map_id.
      replace (Z.to_nat (T - start a)) with (Z.to_nat (cells_to_create T np a) + Z.to_nat (T - start (a + 1)))%nat by lia. rewrite zseq_app. f_equal. f_equal. lia.
    + intros c q. rewrite in_app_iff, I, in_map_iff. split.
      * intros [(x & Q & Hx)|Q]; [injection Q as -> <-; apply zseq_In in Hx; lia|lia].
      * intros Q. destruct (Z.eq_dec q a) as [->|]; [left; exists c; split; [reflexivity|]; apply zseq_In; lia|right; lia].
Qed.
End Counts.

Section Created.
Context {D : Type} (d0 : D) (g : grid) (Hg : grid_ok g).
Notation m := (g_map g).
Notation T := (vol (dims_of m)).
Notation np := (g_np g).

Lemma vol_bound : 0 < T < W.
Proof.
  pose proof Hg as (Hwf & _). pose proof (wf_vol m Hwf). pose proof (wf_level_total m Hwf 0). destruct Hwf as (_ & _ & _ & ? & _). change (8 ^ 0) with 1 in *. lia.
Qed.
Lemma total_eq : total_cells m = T.
Proof. destruct Hg as (Hwf & _). apply (grid64_eq m Hwf). Qed.

Lemma ranks_seq : ranks g = zseq 0 (length (ranks g)) /\ Z.of_nat (length (ranks g)) = np.
Proof.
  unfold ranks. rewrite map_length, seq_length. pose proof Hg as (_ & _ & _ & ?). split; [|lia]. unfold zseq. apply map_ext. intros. lia.
Qed.
Lemma created_spec : keys (created_cells g) = zseq 1 (Z.to_nat T) /\
  forall c q, In (c, q) (created_cells g) <-> 0 <= q < np /\ start T np q < c <= start T np (q + 1).
Proof.
  unfold created_cells. rewrite total_eq. pose proof vol_bound as B. pose proof Hg as (_ & _ & _ & Hnp). destruct ranks_seq as [E L].
  destruct (create_from_spec T np B Hnp (ranks g) 0 ltac:(lia) E ltac:(lia)) as [K I]. cbn zeta in K, I. rewrite start_0, Z.sub_0_r in K by assumption. rewrite start_0 in I by assumption. change (1 + 0) with 1 in *. auto.
Qed.
(** the process of a new cell *)
Definition own0 (c : Z) : option Z := find c (created_cells g).
Lemma own0_spec c q : own0 c = Some q <-> 0 <= q < np /\ start T np q < c <= start T np (q + 1).
Proof.
  destruct created_spec as [K I]. unfold own0. rewrite <- I. split; [apply find_In|]. apply In_find. rewrite K. apply zseq_NoDup.
Qed.
Lemma own0_ex c : exo own0 c = true <-> 1 <= c <= T.
Proof.
  destruct created_spec as [K _]. pose proof vol_bound. assert (In c (keys (created_cells g)) <-> 1 <= c <= T) as <- by (rewrite K, zseq_In; lia).
  rewrite keys_find. unfold exo, own0. destruct (find c (created_cells g)) as [q|]; split; eauto; [discriminate|intros (? & ?); discriminate].
Qed.
Lemma level0 c : 1 <= c <= T <-> valid m c /\ lvl_of m c = 0.
Proof.
  destruct Hg as (Hwf & _). pose proof Hwf as (_ & _ & _ & Hm & _). pose proof (before_max_W m Hwf 1 ltac:(lia)) as B.
  assert (before T 1 = T) as B1. { change 1 with (0 + 1). rewrite before_succ, before_0 by lia. change (8 ^ 0) with 1. lia. }
  unfold valid, lvl_of. split.
  - intros Q. assert (1 <= c <= m_last m) as V by lia. split; [assumption|]. destruct (level_spec m Hwf c V) as [L S].
    apply (level_unique m Hwf _ 0 c); [lia|lia|assumption|]. rewrite before_0, Z.add_0_l. lia.
  - intros [V L]. destruct (level_spec m Hwf c V) as [_ S]. rewrite L, before_0, Z.add_0_l in S. lia.
Qed.

Lemma world0 : world_ok g own0.
Proof.
  pose proof Hg as (Hwf & Hn & _ & _). pose proof Hwf as (_ & _ & _ & Hm & _). split.
  - split; [assumption|]. split; [lia|]. split; [split|].
    + intros c E. apply own0_ex, level0 in E. apply E.
    + intros i Hi. destruct (proj1 (c02_cells_of_a_level_tile_the_grid m 0 i Hwf ltac:(lia) ltac:(apply Hi) ltac:(apply Hi) ltac:(apply Hi)) Hi) as (c & (V & L & C) & U).
      exists c. split; [split; [|assumption]; apply own0_ex, level0; auto|]. intros c' [E' C']. apply own0_ex, level0 in E'. apply U. unfold lvl_of in E'. tauto.
    + intros a b Ea Eb _. apply own0_ex, level0 in Ea. apply own0_ex, level0 in Eb. destruct Ea as [_ ->], Eb as [_ ->]. cbn. lia.
  - intros c q O. apply own0_spec in O. apply in_ranks. lia.
Qed.

Lemma find_const (P : Z * Z -> bool) (l : list (Z * Z)) c : NoDup (keys l) ->
  find c (map (fun e => (fst e, d0)) (filter P l)) = match find c l with Some q => if P (c, q) then Some d0 else None | None => None end.
Proof.
  induction l as [|[k q] l IH]; intros N; [reflexivity|]. cbn [keys map fst] in N. apply NoDup_cons_iff in N. destruct N as [N1 N]. specialize (IH N). cbn [filter find].
  assert (c = k -> find c l = None) as Nf. { intros ->. destruct (find k l) eqn:F; [|reflexivity]. exfalso. apply N1. apply keys_find. eauto. }
  destruct (P (k, q)) eqn:E; cbn [map find fst]; destruct (Z.eqb_spec c k) as [->|Nk].
  - rewrite E. reflexivity.
  - exact IH.
  - rewrite IH, Nf, E by reflexivity. reflexivity.
  - exact IH.
Qed.
Lemma filter_keys_NoDup (P : Z * Z -> bool) l : NoDup (keys l) -> NoDup (keys (map (fun e => (fst e, d0)) (filter P l))).
Proof.
  unfold keys. rewrite map_map. cbn [fst]. intros N. induction l as [|e l IH]; [constructor|]. cbn [map] in N. apply NoDup_cons_iff in N. destruct N as [N1 N]. cbn [filter].
  destruct (P e); [|auto]. cbn [map]. constructor; [|auto]. intros Q. apply N1. apply in_map_iff in Q. destruct Q as (x & Ex & Hx). apply filter_In in Hx. rewrite <- Ex. apply in_map. apply Hx.
Qed.
Lemma created_data r c : find c (s_data (created_store d0 g r)) = if match own0 c with Some q => q =? r | None => false end then Some d0 else None.
Proof.
  destruct created_spec as [K _]. assert (NoDup (keys (created_cells g))) as N by (rewrite K; apply zseq_NoDup). cbn [created_store s_data]. rewrite find_const by assumption. unfold own0. destruct (find c (created_cells g)); reflexivity.
Qed.
Lemma store0 r : store_ok own0 r (created_store d0 g r).
Proof.
  destruct created_spec as [K _]. assert (NoDup (keys (created_cells g))) as N by (rewrite K; apply zseq_NoDup).
  split; [reflexivity|]. split; [assumption|]. split; [apply filter_keys_NoDup; assumption|].
  intros c. unfold has. rewrite created_data. destruct (own0 c) as [q|]; [|split; discriminate]. destruct (Z.eqb_spec q r) as [->|Nq]; split; intros Q; try reflexivity; try discriminate. congruence.
Qed.

Lemma initialize_ok : exists st, initialize d0 g = Done st /\ good g own0 st /\
  forall r, In r (ranks g) -> p_store (st r) = created_store d0 g r /\ p_req (st r) = no_requests.
Proof.
  unfold initialize, each.
  destruct (collect_ok (ranks g) (fun r => do k <- rebuild g r (created_store d0 g r); Done (Proc no_requests k (created_store d0 g r)))
    (fun r => Proc no_requests (Caches [] [] [] [] []) (created_store d0 g r))
    (fun r p => p_store p = created_store d0 g r /\ p_req p = no_requests /\ rebuild g r (p_store p) = Done (p_cache p))) as (st & E & P).
  - intros r Ir. destruct (rebuild_ok g Hg own0 r _ world0 (store0 r)) as (k & Ek & _). rewrite Ek. cbn [bind]. eexists. split; [reflexivity|]. auto.
  - exists st. split; [exact E|]. split; [split; [apply world0|]|].
    + intros r Ir. destruct (P r Ir) as (_ & S & Q & K). split; [rewrite S; apply store0|]. split; [assumption|]. rewrite Q. split; intros c [].
    + intros r Ir. destruct (P r Ir) as (_ & S & Q & _). auto.
Qed.
End Created.
