(** C75: the advection solver moves the quantity between cells and neither creates nor destroys it,
    whatever the refinement of the grid, the requested changes, the processes of cells and the moves between processes. *)
From Verif Require Import U64 MapModel MapSpec MapProofs MapFamily MapProps HoodModel MeshModel
  MeshSpec MeshBase HoodProps MeshWalk MeshFind MeshKids MeshItem MeshCheck MeshTo MeshNear
  Sets RefineModel RefineGeo RefineInv RefineSpread RefineMerge RefineFold RefineExec RefineStop RefineNear
  BalanceModel RefineReqs Create Balance History HistProps CommModel CommInv ProgramModel ProgramProps AdvectModel AdvectGeo AdvectSum AdvectRegroup.
From Coq Require Import QArith Qcanon Permutation.
Open Scope Z_scope.

Section Solver.
Context (d0 : fluid) (g : grid) (Hg : grid_ok g).
Notation m := (g_map g).
Notation t := (g_topo g).
Notation state := (xstate (D := fluid)).
Notation xreachable := (xreachable d0 g).
Notation shows := (shows g).
Notation exists0 x := (exists_on (x_st x) 0).

(** M is the sum of volume times density over all cells of the grid *)
Definition total (x : state) (M : Qc) : Prop := exists l : list (Z * fluid),
  NoDup (map fst l) /\ (forall c v, In (c, v) l <-> shows x c v) /\ M = qsum (map (fun e => (volume (snd e) * rho (snd e))%Qc) l).

Lemma Hwf : wf m. Proof. apply Hg. Qed.
Lemma mesh_at x : xreachable x -> mesh m t (g_len g) (exists0 x) /\ hoods_ok g (x_hoods x).
Proof.
  intros R. destruct (xreachable_inv d0 g Hg x R) as (own & Hx). pose proof Hx as (((Hw & _) & _) & _ & Ho). split; [|assumption].
  apply (mesh_ext g (exo own)); [|apply Hw]. intros c. symmetry. apply (ex_own g Hg own x c Hx).
Qed.
Definition tiling_at x (R : xreachable x) : tiling m (exists0 x) := proj1 (proj2 (proj2 (proj1 (mesh_at x R)))).
Lemma data_exists x c : xreachable x -> exists0 x c = true <-> exists v, data_at x c = Some v.
Proof.
  intros R. destruct (xreachable_inv d0 g Hg x R) as (own & Hx). change (exists_on (x_st x) 0) with (ex_at x). rewrite (ex_own g Hg own x c Hx). split.
  - intros E. apply exo_some in E. destruct E as (r & E). destruct (data_here g Hg own x c r Hx E) as (_ & v & _ & D). eauto.
  - intros (v & E). rewrite (data_own g Hg own x c Hx) in E. unfold exo. destruct (own c); [reflexivity|discriminate].
Qed.
Definition value (x : state) (c : Z) : fluid := match data_at x c with Some v => v | None => d0 end.
Lemma shows_value x c : xreachable x -> exists0 x c = true -> shows x c (value x c).
Proof. intros R E. apply (data_exists x c R) in E. destruct E as (v & E). apply (shows_iff d0 g Hg x c _ R). unfold value. rewrite E. reflexivity. Qed.
Lemma shows_unique x c v : xreachable x -> shows x c v -> exists0 x c = true /\ v = value x c.
Proof. intros R E. apply (shows_iff d0 g Hg x c v R) in E. split; [apply (data_exists x c R); eauto|]. unfold value. rewrite E. reflexivity. Qed.

(** all cells in order of id *)
Definition all_cells (x : state) : list Z := filter (exists0 x) (map Z.of_nat (seq 1 (Z.to_nat (m_last m)))).
Lemma all_cells_in x c : xreachable x -> In c (all_cells x) <-> exists0 x c = true.
Proof.
  intros R. unfold all_cells. rewrite filter_In, in_map_iff. split; [tauto|]. intros E. split; [|assumption]. pose proof (leaf_valid m _ (tiling_at x R) c E) as V. unfold valid in V.
  exists (Z.to_nat c). split; [lia|]. apply in_seq. lia.
Qed.
Lemma all_cells_nodup x : NoDup (all_cells x).
Proof. apply NoDup_filter. apply FinFun.Injective_map_NoDup; [intros a b; lia|apply seq_NoDup]. Qed.
Lemma total_iff x M : xreachable x -> total x M <-> M = qsum (map (fun c => mass (value x c)) (all_cells x)).
Proof.
  intros R. assert (forall l : list (Z * fluid), NoDup (map fst l) -> (forall c v, In (c, v) l <-> shows x c v) -> qsum (map (fun e => (volume (snd e) * rho (snd e))%Qc) l) = qsum (map (fun c => mass (value x c)) (all_cells x))) as K.
  { intros l N Q. transitivity (qsum (map (fun c => mass (value x c)) (map fst l))).
    - rewrite map_map. f_equal. apply map_ext_in. intros [c v] I. apply Q in I. apply (shows_unique x c v R) in I. destruct I as [_ ->]. reflexivity.
    - apply qsum_perm, Permutation_map. apply NoDup_Permutation; [assumption|apply all_cells_nodup|]. intros c. rewrite (all_cells_in x c R), in_map_iff. split.
      + intros ([c' v] & <- & I). apply Q in I. apply (shows_unique x _ v R) in I. apply I.
      + intros E. exists (c, value x c). split; [reflexivity|]. apply Q, shows_value; assumption. }
  split.
  - intros (l & N & Q & ->). apply K; assumption.
  - intros ->. exists (map (fun c => (c, value x c)) (all_cells x)). assert (map fst (map (fun c => (c, value x c)) (all_cells x)) = all_cells x) as E by (rewrite map_map; cbn [fst]; apply map_id).
    split; [rewrite E; apply all_cells_nodup|]. assert (forall c v, In (c, v) (map (fun c => (c, value x c)) (all_cells x)) <-> shows x c v) as Q.
    { intros c v. rewrite in_map_iff. split.
      - intros (c' & Q & I). injection Q as -> <-. apply shows_value; [assumption|]. apply (all_cells_in x c R), I.
      - intros S. apply (shows_unique x c v R) in S. destruct S as [E' ->]. exists c. split; [reflexivity|]. apply (all_cells_in x c R), E'. }
    split; [assumption|]. symmetry. apply K; [rewrite E; apply all_cells_nodup|assumption].
Qed.
(** there is exactly one total *)
Theorem c75_one_total x : xreachable x -> exists! M, total x M.
Proof. intros R. eexists. split; [apply (total_iff x _ R); reflexivity|]. intros M Q. apply (total_iff x M R) in Q. congruence. Qed.

(** ** The solver *)
Definition pow2 (l : Z) : Qc := Q2Qc (inject_Z (2 ^ l)).
(** lengths of cells: grid.geometry.get_length *)
Context (len : dim -> Qc) (Hlen : forall k, len k <> 0%Qc).
Context (shape : Z -> (Qc * Qc * Qc) * (Qc * Qc * Qc)).
Context (Hshape : forall c, valid m c -> forall k, size (with_shape shape c 0%Qc) k = (len k / pow2 (get_refinement_level m c))%Qc).
(** every cell has its velocity and lengths, and no flux is waiting to be applied *)
Definition settled (x : state) : Prop := forall c v, shows x c v -> v = with_shape shape c (rho v).
(** a time step of any length, a change of the grid by any criterion, or a change of neighborhoods *)
Definition solver_step (s : pstep fluid) : Prop :=
  match s with
  | ProgramModel.Compute id f => id = default_neighborhood_id /\ exists dt, f = advance m dt
  | ProgramModel.Adapt _ _ kid par => kid = child_value shape /\ par = parent_value shape
  | _ => True
  end.

Lemma shaped c r : let v := with_shape shape c r in flux v = 0%Qc /\ rho v = r /\ forall k, size v k = size (with_shape shape c 0%Qc) k.
Proof. unfold with_shape. destruct (shape c) as [[[u v] w] [[a b] e]]. cbn. split; [reflexivity|]. split; [reflexivity|]. intros k. destruct k; reflexivity. Qed.
Lemma pow2_nz l : 0 <= l -> pow2 l <> 0%Qc.
Proof. intros Hl E. unfold pow2 in E. apply (f_equal this) in E. cbn [this Q2Qc] in E. assert (inject_Z (2 ^ l) == 0)%Q as Q by (rewrite <- (Qred_correct (inject_Z (2 ^ l))), E; reflexivity). unfold Qeq in Q. cbn [inject_Z Qnum Qden] in Q. pose proof (Z.pow_pos_nonneg 2 l ltac:(lia) Hl). lia. Qed.
Lemma pow2_succ l : 0 <= l -> pow2 (l + 1) = (pow2 l * Q2Qc (2 # 1))%Qc.
Proof. intros Hl. unfold pow2. apply Qc_is_canon. unfold Qcmult. cbn [this Q2Qc]. rewrite !Qred_correct. rewrite Z.pow_add_r by lia. rewrite inject_Z_mult. reflexivity. Qed.
Lemma volume_of c r : valid m c -> volume (with_shape shape c r) = (len DX / pow2 (lvl_of m c) * (len DY / pow2 (lvl_of m c)) * (len DZ / pow2 (lvl_of m c)))%Qc.
Proof.
  intros V. destruct (shaped c r) as (_ & _ & S). unfold volume. change (lx (with_shape shape c r)) with (size (with_shape shape c r) DX). change (ly (with_shape shape c r)) with (size (with_shape shape c r) DY). change (lz (with_shape shape c r)) with (size (with_shape shape c r) DZ).
  rewrite !S, !Hshape by assumption. reflexivity.
Qed.
Lemma level_nonneg c : valid m c -> 0 <= lvl_of m c. Proof. intros V. pose proof (cell_level m Hwf c V). lia. Qed.
Lemma volume_nz c r : valid m c -> volume (with_shape shape c r) <> 0%Qc.
Proof.
  intros V E. rewrite (volume_of c r V) in E. pose proof (pow2_nz _ (level_nonneg c V)) as P.
  assert (forall k, (len k / pow2 (lvl_of m c))%Qc <> 0%Qc) as N. { intros k Q. apply (Hlen k). transitivity (len k / pow2 (lvl_of m c) * pow2 (lvl_of m c))%Qc; [field; assumption|rewrite Q; ring]. }
  apply Qcmult_integral in E. destruct E as [E|E]; [|exact (N _ E)]. apply Qcmult_integral in E. destruct E as [E|E]; exact (N _ E).
Qed.
Lemma eight_nz : Q2Qc (8 # 1) <> 0%Qc. Proof. discriminate. Qed.
Lemma volume_child c k r r' : valid m c -> valid m k -> lvl_of m k = lvl_of m c + 1 -> (Q2Qc (8 # 1) * volume (with_shape shape k r))%Qc = volume (with_shape shape c r').
Proof.
  intros Vc Vk Lk. rewrite (volume_of k r Vk), (volume_of c r' Vc), Lk. rewrite (pow2_succ _ (level_nonneg c Vc)). pose proof (pow2_nz _ (level_nonneg c Vc)) as P.
  replace (Q2Qc (8 # 1)) with (Q2Qc (2 # 1) * Q2Qc (2 # 1) * Q2Qc (2 # 1))%Qc by (apply Qc_is_canon; reflexivity). field. split; first [assumption|discriminate].
Qed.

(** ** One step *)
Lemma value_settled x c : xreachable x -> settled x -> exists0 x c = true -> value x c = with_shape shape c (rho (value x c)).
Proof. intros R S E. apply S, shows_value; assumption. Qed.

Lemma compute_step x dt x' : xreachable x -> settled x -> exec_step d0 g x (ProgramModel.Compute default_neighborhood_id (advance m dt)) x' ->
  settled x' /\ forall M, total x M -> total x' M.
Proof.
  intros R S H. pose proof (exec_reachable d0 g x _ x' R H) as R'. destruct (c69_compute d0 g Hg x _ _ x' R H) as (Ex & Q). pose proof (rank0 g Hg) as I0.
  assert (forall c, exists0 x' c = exists0 x c) as Ex0 by (intros c; apply Ex, I0).
  destruct (mesh_at x R) as ((_ & Hn & Ti & _) & Ho). pose proof (mesh_at x R) as (Hmesh & _).
  set (val := value x).
  (* entries of a cell *)
  assert (forall c, exists0 x c = true -> exists E, NoDup E /\ (forall y o, In (y, o) E <-> exists0 x y = true /\ exists h, In h (g_hood g) /\ nbr m t c h y o) /\
    value x' c = Fluid (rho (val c) + flux (val c) + qsum (map (gain m dt c (val c)) (map (of_val val) E)))%Qc (vx (val c)) (vy (val c)) (vz (val c)) 0%Qc (lx (val c)) (ly (val c)) (lz (val c))) as K.
  { intros c Ec. destruct (Q c Ec) as (d & ns & (U & l & EU & Sd & El & F) & Sx). unfold hood_at in EU. rewrite Z.eqb_refl in EU. injection EU as <-.
    apply (shows_unique x c d R) in Sd. destruct Sd as [_ ->]. fold val in Sx.
    assert (ns = map (of_val val) l) as ->.
    { clear - F R Hg. induction F as [|e s l ns [Es Ss] F IH]; [reflexivity|]. cbn [map]. rewrite <- IH. f_equal. destruct s as [e' w]. cbn [fst snd] in *. subst e'. apply (shows_unique x (fst e) w R) in Ss. destruct Ss as [_ ->]. reflexivity. }
    assert (once (map (of_val val) l) = map (of_val val) (map fst (once (map (of_val val) l)))) as Eo.
    { rewrite map_map. rewrite <- (map_id (once _)) at 1. apply map_ext_in. intros e I. apply once_in in I. apply in_map_iff in I. destruct I as (k & <- & _). reflexivity. }
    exists (map fst (once (map (of_val val) l))). split; [apply once_nodup|]. split.
    - intros y o. rewrite once_keys. rewrite map_map. cbn [of_val fst]. rewrite map_id. destruct (neighbors_of_in m t (g_len g) (exists0 x) c (g_hood g) Hmesh Ec ltac:(auto)) as (l' & El' & P). rewrite El in El'. injection El' as <-. apply P.
    - apply (shows_unique x' c _ R') in Sx. destruct Sx as [_ <-]. unfold advance. rewrite <- Eo. reflexivity. }
  split.
  - intros c v Sv. apply (shows_unique x' c v R') in Sv. destruct Sv as [Ec ->]. rewrite Ex0 in Ec. destruct (K c Ec) as (E & _ & _ & ->). unfold val. rewrite (value_settled x c R S Ec). unfold with_shape. cbn [rho]. destruct (shape c) as [[[? ?] ?] [[? ?] ?]]. reflexivity.
  - intros M HM. apply (total_iff x M R) in HM. apply (total_iff x' M R'). rewrite HM.
    assert (all_cells x' = all_cells x) as EA by (unfold all_cells; apply filter_ext; assumption). rewrite EA. clear EA.
    assert (exists EE : Z -> list (Z * idx), forall c, exists0 x c = true -> NoDup (EE c) /\ (forall y o, In (y, o) (EE c) <-> exists0 x y = true /\ exists h, In h (g_hood g) /\ nbr m t c h y o) /\
      value x' c = Fluid (rho (val c) + flux (val c) + qsum (map (gain m dt c (val c)) (map (of_val val) (EE c))))%Qc (vx (val c)) (vy (val c)) (vz (val c)) 0%Qc (lx (val c)) (ly (val c)) (lz (val c))) as (EE & KE).
    { assert (forall l, (forall c, In c l -> exists0 x c = true) -> exists EE : Z -> list (Z * idx), forall c, In c l -> NoDup (EE c) /\ (forall y o, In (y, o) (EE c) <-> exists0 x y = true /\ exists h, In h (g_hood g) /\ nbr m t c h y o) /\
        value x' c = Fluid (rho (val c) + flux (val c) + qsum (map (gain m dt c (val c)) (map (of_val val) (EE c))))%Qc (vx (val c)) (vy (val c)) (vz (val c)) 0%Qc (lx (val c)) (ly (val c)) (lz (val c))) as Ch.
      { induction l as [|a l IH]; intros Hl; [exists (fun _ => []); intros c []|]. destruct IH as (EE & KE); [intros; apply Hl; right; assumption|]. destruct (K a (Hl a (or_introl eq_refl))) as (E & KA). exists (fun c => if c =? a then E else EE c). intros c [<-|I].
        - rewrite Z.eqb_refl. assumption.
        - destruct (Z.eqb_spec c a) as [->|_]; [assumption|]. apply KE, I. }
      destruct (Ch (all_cells x)) as (EE & KE); [intros c; apply (all_cells_in x c R)|]. exists EE. intros c Ec. apply KE, (all_cells_in x c R), Ec. }
    pose proof (gains_cancel m Hwf t (exists0 x) Ti (g_hood g) (default_has_faces (g_len g) Hn) dt val (all_cells x) EE (all_cells_nodup x) (fun c => all_cells_in x c R)
      (fun c I => proj1 (KE c (proj1 (all_cells_in x c R) I))) (fun c y o I => proj1 (proj2 (KE c (proj1 (all_cells_in x c R) I))) y o)) as G.
    rewrite <- (Qcplus_0_r (qsum (map (fun c => mass (value x c)) (all_cells x)))). rewrite <- G.
    + rewrite <- qsum_add. f_equal. apply map_ext_in. intros c I. apply (all_cells_in x c R) in I. destruct (KE c I) as (_ & _ & ->). unfold mass, volume. cbn [rho lx ly lz]. fold val.
      assert (flux (val c) = 0%Qc) as ->; [|ring]. unfold val. rewrite (value_settled x c R S I). apply shaped.
    + intros c I. apply (all_cells_in x c R) in I. unfold val. rewrite (value_settled x c R S I). apply volume_nz. apply (leaf_valid m _ Ti c I).
Qed.

Lemma adapt_step x id w x' : xreachable x -> idle g (x_st x) -> settled x -> exec_step d0 g x (ProgramModel.Adapt id w (child_value shape) (parent_value shape)) x' ->
  settled x' /\ forall M, total x M -> total x' M.
Proof.
  intros R Ix S H. pose proof (exec_reachable d0 g x _ x' R H) as R'. destruct (c69_adapt d0 g Hg x id w _ _ x' R Ix H) as (_ & Q).
  pose proof (tiling_at x R) as T. pose proof (tiling_at x' R') as T'.
  assert (forall c, exists0 x' c = true -> exists0 x c = true -> value x' c = value x c) as Qk.
  { intros c E' E. destruct (Q c E') as [(_ & (v & Sv) & W)|[(E1 & _)|(E1 & _)]]; [|congruence..]. pose proof (proj2 (W v) Sv) as Sv'. apply (shows_unique x c v R) in Sv. apply (shows_unique x' c v R') in Sv'. destruct Sv as [_ <-], Sv' as [_ <-]. reflexivity. }
  assert (forall c, exists0 x' c = true -> exists0 x c = false -> (0 < lvl_of m c /\ exists0 x (get_parent m c) = true /\ value x' c = child_value shape c (value x (get_parent m c))) \/
    ((forall k, In k (get_all_children m c) -> exists0 x k = true) /\ value x' c = parent_value shape c (map (value x) (get_all_children m c)))) as Qn.
  { intros c E' E. destruct (Q c E') as [(E1 & _)|[(_ & L & Ep & v & Sv & Sv')|(_ & ws & F & Sv')]]; [congruence| |].
    - left. split; [assumption|]. split; [assumption|]. apply (shows_unique x _ v R) in Sv. apply (shows_unique x' c _ R') in Sv'. destruct Sv as [_ ->], Sv' as [_ <-]. reflexivity.
    - right. assert ((forall k, In k (get_all_children m c) -> exists0 x k = true) /\ ws = map (value x) (get_all_children m c)) as [A ->].
      { clear - F R Hg. induction F as [|k v ks ws Sv F [IH1 IH2]]; [split; [intros k []|reflexivity]|]. apply (shows_unique x k v R) in Sv. destruct Sv as [Ek ->]. split; [intros k' [<-|I]; auto|]. cbn [map]. f_equal. assumption. }
      split; [assumption|]. apply (shows_unique x' c _ R') in Sv'. destruct Sv' as [_ <-]. reflexivity. }
  assert (settled x') as S'.
  { intros c v Sv. apply (shows_unique x' c v R') in Sv. destruct Sv as [E' ->]. destruct (exists0 x c) eqn:E.
    - rewrite (Qk c E' E). apply (value_settled x c R S E).
    - destruct (Qn c E' E) as [(_ & _ & ->)|(_ & ->)]; unfold child_value, parent_value; rewrite (proj1 (proj2 (shaped c _))); reflexivity. }
  split; [assumption|]. intros M HM. apply (total_iff x M R) in HM. apply (total_iff x' M R'). rewrite HM. symmetry.
  apply (sums_equal m Hwf (exists0 x) (exists0 x') T T'); [|apply all_cells_nodup|apply all_cells_nodup|intros c; apply all_cells_in; assumption|intros c; apply all_cells_in; assumption| | |].
  - intros c E'. destruct (exists0 x c) eqn:E; [auto|]. right. destruct (Qn c E' E) as [(L & Ep & _)|(A & _)]; [left; split; auto|right; split; auto].
  - intros c E E'. rewrite (Qk c E' E). reflexivity.
  - intros c E E' Hk Lc. pose proof (leaf_valid m _ T c E) as Vc. destruct (c03_children m c Hwf Vc Lc) as (Len & _ & KI & _).
    assert (forall k, In k (get_all_children m c) -> mass (value x' k) = (mass (value x c) / Q2Qc (8 # 1))%Qc) as Mk.
    { intros k I. destruct (Hk k I) as (Ek' & Ek & Pk). pose proof (proj1 (KI k) I) as (Vk & Lk & _). assert (value x' k = child_value shape k (value x c)) as ->.
      { destruct (Qn k Ek' Ek) as [(_ & _ & V)|(A & _)]; [rewrite Pk in V; assumption|]. exfalso.
        destruct (has_kid m Hwf k Vk) as (j & Ij). pose proof (A j Ij) as Ej. pose proof (kid_valid_level m Hwf k j Vk Ij (leaf_valid m _ T j Ej)) as Lk'. pose proof (proj1 (kid_iff m Hwf k j Vk Lk') Ij) as (Vj & Lj & _).
        pose proof (covers_own m Hwf j Vj) as C. assert (j = c) as ->; [|unfold lvl_of in *; lia]. apply (only m Hwf (exists0 x) T j c (idx_of m j)); auto. apply (kid_inside m Hwf c k); auto. apply (kid_inside m Hwf k j); auto. }
      unfold child_value, mass. rewrite (proj1 (proj2 (shaped k _))). rewrite (f_equal volume (value_settled x c R S E)). rewrite <- (volume_child c k (rho (value x c)) (rho (value x c)) Vc Vk Lk). field. apply eight_nz. }
    rewrite (map_ext_in _ (fun _ => (mass (value x c) / Q2Qc (8 # 1))%Qc) _ Mk). clear Mk Hk KI.
    destruct (get_all_children m c) as [|k1 [|k2 [|k3 [|k4 [|k5 [|k6 [|k7 [|k8 [|k9 ks]]]]]]]]]; try discriminate Len. cbn [map]. rewrite !qsum_cons, qsum_nil.
    replace (Q2Qc (8 # 1)) with (1 + (1 + (1 + (1 + (1 + (1 + (1 + 1)))))))%Qc by (apply Qc_is_canon; reflexivity). field. discriminate.
  - intros c E' M'. destruct M' as [E A]. destruct (Qn c E' E) as [(L & Ep & _)|(_ & ->)].
    + exfalso. pose proof (leaf_valid m _ T' c E') as Vc. pose proof (merged_level m Hwf (exists0 x) (exists0 x') T T' c E' (conj E A)) as Lc. destruct (has_kid m Hwf c Vc) as (k & Ik). pose proof (proj1 (kid_iff m Hwf c k Vc Lc) Ik) as (Vk & Lk & _).
      destruct (kid_of_parent m Hwf c Vc L) as (_ & Vp & Lp). pose proof (covers_own m Hwf k Vk) as C. assert (k = get_parent m c) as Ek.
      { apply (only m Hwf (exists0 x) T k _ (idx_of m k)); auto. apply (parent_covers m Hwf c); auto. apply (kid_inside m Hwf c k); auto. }
      rewrite Ek in Lk. lia.
    + pose proof (leaf_valid m _ T' c E') as Vc. pose proof (merged_level m Hwf (exists0 x) (exists0 x') T T' c E' (conj E A)) as Lc.
      unfold mass at 1. unfold parent_value. rewrite (proj1 (proj2 (shaped c _))).
      assert (forall l s, (forall k, In k l -> In k (get_all_children m c)) -> (volume (with_shape shape c 0%Qc) * fold_left (fun s k => s + rho k / Q2Qc (8 # 1)) (map (value x) l) s)%Qc = (volume (with_shape shape c 0%Qc) * s + qsum (map (fun k => mass (value x k)) l))%Qc) as F.
      { induction l as [|k l IH]; intros s Hl; cbn [map fold_left]; [rewrite qsum_nil; ring|]. rewrite qsum_cons, IH by (intros; apply Hl; right; assumption).
        pose proof (Hl k (or_introl eq_refl)) as Ik. pose proof (proj1 (kid_iff m Hwf c k Vc Lc) Ik) as (Vk & Lk & _). unfold mass. rewrite (f_equal volume (value_settled x k R S (A k Ik))). rewrite <- (volume_child c k (rho (value x k)) 0%Qc Vc Vk Lk). field. apply eight_nz. }
      rewrite (volume_of c _ Vc). rewrite <- (volume_of c 0%Qc Vc). rewrite F by auto. ring.
Qed.

(** ** C75 *)
Theorem c75_total_kept x prog x' : xreachable x -> idle g (x_st x) -> settled x -> Forall solver_step prog -> execs d0 g x prog x' ->
  settled x' /\ forall M, total x M -> total x' M.
Proof.
  intros R Ix S F E. revert R Ix S F. induction E as [x|x s x1 l x2 H E IH|x a x1 l x2 Ha Al Er E IH]; intros R Ix S F.
  - auto.
  - inversion F as [|? ? Fs Fl]; subst. pose proof (exec_reachable d0 g x s x1 R H) as R1.
    assert (idle g (x_st x1) /\ settled x1 /\ forall M, total x M -> total x1 M) as (I1 & S1 & T1).
    { destruct s as [id f|id w kid par|id items|id].
      - destruct Fs as (-> & dt & ->). split; [|apply compute_step with dt; assumption]. destruct (compute_ok d0 g Hg x _ _ x1 R H) as (_ & _ & A2 & _). auto.
      - destruct Fs as (-> & ->). split; [|apply (adapt_step x id w x1); assumption]. destruct (adapt_ok d0 g Hg x id w _ _ x1 R Ix H) as (_ & _ & A3 & _). auto.
      - inversion H as [| |? ? ? Er|]; subst. destruct (add_ok d0 g Hg x id items x1 Er) as (_ & Es). 
        assert (forall c v, shows x1 c v <-> shows x c v) as W by (intros c v; rewrite (shows_iff d0 g Hg x1 c v R1), (shows_iff d0 g Hg x c v R); unfold data_at; rewrite Es; reflexivity).
        split; [rewrite Es; assumption|]. split; [intros c v Q; apply S, W, Q|]. intros M (ls & N & Q & HM). exists ls. split; [assumption|]. split; [|assumption]. intros c v. rewrite Q. symmetry. apply W.
      - inversion H as [| | |? ? Er]; subst.
        assert (x_st x1 = x_st x) as Es by (cbn [xrun] in Er; injection Er as <-; reflexivity).
        assert (forall c v, shows x1 c v <-> shows x c v) as W by (intros c v; rewrite (shows_iff d0 g Hg x1 c v R1), (shows_iff d0 g Hg x c v R); unfold data_at; rewrite Es; reflexivity).
        split; [rewrite Es; assumption|]. split; [intros c v Q; apply S, W, Q|]. intros M (ls & N & Q & HM). exists ls. split; [assumption|]. split; [|assumption]. intros c v. rewrite Q. symmetry. apply W. }
    destruct (IH R1 I1 S1 Fl) as (S2 & T2). split; [assumption|]. intros M HM. apply T2, T1, HM.
  - assert (xreachable x1) as R1 by (eapply xreach_step; eassumption).
    destruct (house_ok d0 g Hg x a x1 R Ha Al Er) as (_ & I1 & _). destruct (c69_housekeeping d0 g Hg x a x1 R Ha Al Er) as (_ & W).
    destruct (IH R1 (I1 Ix)) as (S2 & T2); [intros c v Q; apply S, W, Q|assumption|]. split; [assumption|]. intros M HM. apply T2. destruct HM as (ls & N & Q & HM). exists ls. split; [assumption|]. split; [|assumption]. intros c v. rewrite Q. symmetry. apply W.
Qed.
(** setting the first values makes a settled grid *)
Theorem c75_first_values x r0 x' : xreachable x -> exec_step d0 g x (ProgramModel.Compute default_neighborhood_id (fun c _ _ => with_shape shape c (r0 c))) x' -> settled x'.
Proof.
  intros R H c v Sv. pose proof (exec_reachable d0 g x _ x' R H) as R'. destruct (c69_compute d0 g Hg x _ _ x' R H) as (Ex & Q). apply (shows_unique x' c v R') in Sv. destruct Sv as [Ec ->].
  rewrite (Ex 0 c (rank0 g Hg)) in Ec. destruct (Q c Ec) as (d & ns & _ & Sv). apply (shows_unique x' c _ R') in Sv. destruct Sv as [_ <-]. rewrite (proj1 (proj2 (shaped c (r0 c)))). reflexivity.
Qed.
End Solver.
Print Assumptions c75_total_kept.
