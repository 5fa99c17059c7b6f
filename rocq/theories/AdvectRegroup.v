(** Sums over the cells of a grid before and after adaptation. *)
From Verif Require Import U64 MapModel MapSpec MapProofs MapFamily MapProps HoodModel MeshModel
  MeshSpec MeshBase HoodProps MeshWalk MeshFind MeshKids MeshItem MeshCheck MeshTo MeshNear
  Sets RefineModel RefineGeo RefineInv BalanceModel Create History CommModel CommInv ProgramModel AdvectModel AdvectGeo AdvectSum.
From Coq Require Import QArith Qcanon Permutation.
Open Scope Z_scope.

Lemma split_perm {A} (P : A -> bool) l : Permutation l (filter P l ++ filter (fun x => negb (P x)) l).
Proof.
  induction l as [|a l IH]; [constructor|]. cbn [filter]. destruct (P a); cbn [negb app]; [constructor; assumption|]. rewrite <- Permutation_middle. constructor. assumption.
Qed.

Section Regroup.
Context (m : mapping) (Hwf : wf m) (ex ex' : Z -> bool) (T : tiling m ex) (T' : tiling m ex').
Notation kids c := (get_all_children m c).
Notation lvl := (lvl_of m).
(** what may happen to cells: kept, created from a parent, created from all children *)
Definition made_by_split (c : Z) : Prop := ex c = false /\ 0 < lvl c /\ ex (get_parent m c) = true.
Definition made_by_merge (c : Z) : Prop := ex c = false /\ forall k, In k (kids c) -> ex k = true.
Context (H : forall c, ex' c = true -> ex c = true \/ made_by_split c \/ made_by_merge c).
Let V := leaf_valid m ex T.
Let V' := leaf_valid m ex' T'.

Lemma only a b i : ex a = true -> ex b = true -> covers m a i -> covers m b i -> a = b.
Proof. intros Ea Eb Ca Cb. destruct (proj2 T i (covers_in_grid m Hwf a i (V a Ea) Ca)) as (z & _ & Uz). rewrite <- (Uz a), <- (Uz b); auto. Qed.
Lemma only' a b i : ex' a = true -> ex' b = true -> covers m a i -> covers m b i -> a = b.
Proof. intros Ea Eb Ca Cb. destruct (proj2 T' i (covers_in_grid m Hwf a i (V' a Ea) Ca)) as (z & _ & Uz). rewrite <- (Uz a), <- (Uz b); auto. Qed.
Lemma there' c : valid m c -> exists y, ex' y = true /\ covers m y (idx_of m c).
Proof. intros Vc. destruct (proj2 T' (idx_of m c) (cell_in_grid m Hwf c Vc)) as (y & Q & _). eauto. Qed.
Lemma level_le c : valid m c -> lvl c <= m_max m. Proof. intros Vc. pose proof (cell_level m Hwf c Vc). lia. Qed.
Lemma kid_iff c k : valid m c -> lvl c < m_max m -> In k (kids c) <-> valid m k /\ lvl k = lvl c + 1 /\ get_parent m k = c.
Proof. intros Vc Lc. apply (c03_children m c Hwf Vc Lc). Qed.
Lemma kid_valid_level c k : valid m c -> In k (kids c) -> valid m k -> lvl c < m_max m.
Proof.
  intros Vc I Vk. destruct (Z_lt_le_dec (lvl c) (m_max m)); [assumption|]. pose proof (level_le c Vc). destruct (c03_children_of_finest_cell m c Hwf Vc ltac:(unfold lvl_of in *; lia)) as [E _]. rewrite E in I.
  unfold valid in Vk. unfold eight_errors, error_cell in I. cbn [In] in I. lia.
Qed.
Lemma kid_of_parent c : valid m c -> 0 < lvl c -> In c (kids (get_parent m c)) /\ valid m (get_parent m c) /\ lvl (get_parent m c) = lvl c - 1.
Proof.
  intros Vc Lc. pose proof (parent_facts m Hwf c Vc Lc) as (Vp & Lp & _). cbn zeta in *. pose proof (level_le c Vc). split; [|split; [assumption|lia]]. apply kid_iff; [assumption|lia|]. split; [assumption|]. split; [lia|reflexivity].
Qed.
Lemma kid_inside c k i : valid m c -> lvl c < m_max m -> In k (kids c) -> covers m k i -> covers m c i.
Proof. intros Vc Lc I C. exact (proj2 (proj2 (proj2 (proj2 (proj2 (proj2 (c03_children m c Hwf Vc Lc)))))) k i I C). Qed.
Lemma kid_at_index c i : valid m c -> lvl c < m_max m -> covers m c i -> exists k, In k (kids c) /\ covers m k i.
Proof. intros Vc Lc C. destruct (c03_children m c Hwf Vc Lc) as (_ & _ & _ & _ & _ & Q & _). destruct (Q i C) as (k & K & _). eauto. Qed.
Lemma has_kid c : valid m c -> exists k, In k (kids c).
Proof.
  intros Vc. destruct (Z_lt_le_dec (lvl c) (m_max m)) as [Lc|Lc].
  - destruct (kid_at_index c (idx_of m c) Vc Lc (covers_own m Hwf c Vc)) as (k & I & _). eauto.
  - pose proof (level_le c Vc). destruct (c03_children_of_finest_cell m c Hwf Vc ltac:(unfold lvl_of in *; lia)) as [E _]. rewrite E. exists error_cell. left. reflexivity.
Qed.
(** a merged cell has children *)
Lemma merged_level c : ex' c = true -> made_by_merge c -> lvl c < m_max m.
Proof. intros Ec [_ M]. destruct (has_kid c (V' c Ec)) as (k & I). apply (kid_valid_level c k (V' c Ec) I). apply V, M, I. Qed.

(** cell that covers a removed cell of the old grid *)
Lemma gone c i : ex c = true -> ex' c = false -> covers m c i -> exists y, ex' y = true /\ covers m y i /\
  ((In y (kids c) /\ lvl c < m_max m) \/ (made_by_merge y /\ In c (kids y) /\ lvl y < m_max m)).
Proof.
  intros Ec Nc Ci. destruct (proj2 T' i (covers_in_grid m Hwf c i (V c Ec) Ci)) as (y & (Ey & Cy) & _). exists y. split; [assumption|]. split; [assumption|].
  destruct (H y Ey) as [Q|[Q|Q]].
  - assert (y = c) as -> by (apply (only y c i); assumption). congruence.
  - destruct Q as (_ & Ly & Ep). destruct (kid_of_parent y (V' y Ey) Ly) as (I & Vp & Lp). left.
    assert (get_parent m y = c) as <- by (apply (only _ c i); auto; apply (parent_covers m Hwf y i); auto). split; [assumption|]. pose proof (level_le y (V' y Ey)). lia.
  - right. pose proof (merged_level y Ey Q) as Ly. split; [assumption|]. split; [|assumption]. destruct (kid_at_index y i (V' y Ey) Ly Cy) as (k & I & Ck). assert (k = c) as <- by (apply (only k c i); auto; apply (proj2 Q), I). assumption.
Qed.
(** when one child of a removed cell exists then all of them do *)
Lemma all_kids c y z : ex c = true -> ex' c = false -> In y (kids c) -> ex' y = true -> In z (kids c) -> ex' z = true.
Proof.
  intros Ec Nc Iy Ey Iz. pose proof (V c Ec) as Vc. pose proof (kid_valid_level c y Vc Iy (V' y Ey)) as Lc. pose proof (proj1 (kid_iff c z Vc Lc) Iz) as (Vz & Lz & Pz). pose proof (proj1 (kid_iff c y Vc Lc) Iy) as (Vy & Ly & Py).
  pose proof (covers_own m Hwf z Vz) as Cz. destruct (gone c (idx_of m z) Ec Nc (kid_inside c z _ Vc Lc Iz Cz)) as (w & Ew & Cw & [[Iw _]|(_ & Iw & Lw)]).
  - pose proof (proj1 (kid_iff c w Vc Lc) Iw) as (Vw & Lw & _). assert (w = z) as <- by (apply (overlap_same m Hwf w z (idx_of m z)); auto; lia). assumption.
  - exfalso. pose proof (proj1 (kid_iff w c (V' w Ew) Lw) Iw) as (_ & Lw' & _). assert (w = y) as <-.
    { apply (only' w y (idx_of m y)); auto; [|apply (covers_own m Hwf y Vy)]. apply (kid_inside w c _ (V' w Ew) Lw Iw). apply (kid_inside c y _ Vc Lc Iy). apply (covers_own m Hwf y Vy). }
    lia.
Qed.

Context (L L' : list Z) (NL : NoDup L) (NL' : NoDup L') (HL : forall c, In c L <-> ex c = true) (HL' : forall c, In c L' <-> ex' c = true).
Definition kept : list Z := filter ex' L.
Definition split : list Z := filter (fun c => existsb ex' (kids c)) (filter (fun c => negb (ex' c)) L).
Definition merged_away : list Z := filter (fun c => negb (existsb ex' (kids c))) (filter (fun c => negb (ex' c)) L).
Definition merged_into : list Z := filter (fun c => forallb ex (kids c)) (filter (fun c => negb (ex c)) L').
Definition children : list Z := filter (fun c => negb (forallb ex (kids c))) (filter (fun c => negb (ex c)) L').
Lemma old_cells : Permutation L (kept ++ split ++ merged_away).
Proof. rewrite (split_perm ex' L) at 1. apply Permutation_app_head. apply split_perm. Qed.
Lemma kept_cells : Permutation kept (filter ex L').
Proof. apply NoDup_Permutation; [apply NoDup_filter; assumption..|]. intros c. unfold kept. rewrite !filter_In, HL, HL'. tauto. Qed.
Lemma new_cells : Permutation L' (kept ++ children ++ merged_into).
Proof.
  rewrite (split_perm ex L') at 1. rewrite kept_cells. apply Permutation_app_head. rewrite (split_perm (fun c => forallb ex (kids c))). apply Permutation_app_comm.
Qed.
Lemma split_iff c : In c split <-> ex c = true /\ ex' c = false /\ exists k, In k (kids c) /\ ex' k = true.
Proof. unfold split. rewrite !filter_In, HL, negb_true_iff, existsb_exists. tauto. Qed.
Lemma merged_into_iff c : In c merged_into <-> ex' c = true /\ made_by_merge c.
Proof. unfold merged_into, made_by_merge. rewrite !filter_In, HL', negb_true_iff, forallb_forall. tauto. Qed.
Lemma families_nodup l : NoDup l -> (forall c, In c l -> valid m c /\ lvl c < m_max m) -> NoDup (flat_map (get_all_children m) l).
Proof.
  intros N Q. apply NoDup_flat; [assumption| |].
  - intros c I. destruct (Q c I) as [Vc Lc]. apply (c03_children m c Hwf Vc Lc).
  - intros a b k Ia Ib Ka Kb. destruct (Q a Ia) as [Va La], (Q b Ib) as [Vb Lb]. apply (kid_iff a k Va La) in Ka. apply (kid_iff b k Vb Lb) in Kb. destruct Ka as (_ & _ & <-), Kb as (_ & _ & <-). reflexivity.
Qed.
Lemma split_level c : In c split -> valid m c /\ lvl c < m_max m.
Proof. intros I. apply split_iff in I. destruct I as (Ec & _ & k & I & Ek). split; [auto|]. apply (kid_valid_level c k (V c Ec) I (V' k Ek)). Qed.
Lemma merged_into_level c : In c merged_into -> valid m c /\ lvl c < m_max m.
Proof. intros I. apply merged_into_iff in I. destruct I as (Ec & M). split; [auto|]. apply merged_level; assumption. Qed.
Lemma split_children : Permutation children (flat_map (get_all_children m) split).
Proof.
  apply NoDup_Permutation; [apply NoDup_filter, NoDup_filter; assumption|apply families_nodup; [apply NoDup_filter, NoDup_filter; assumption|apply split_level]|].
  intros z. unfold children. rewrite !filter_In, HL', negb_true_iff, in_flat_map. split.
  - intros ((Ez & Nz) & Q). apply negb_true_iff in Q. destruct (H z Ez) as [E|[(_ & Lz & Ep)|(_ & M)]]; [congruence| |].
    + destruct (kid_of_parent z (V' z Ez) Lz) as (I & Vp & Lp). exists (get_parent m z). split; [|assumption]. apply split_iff. split; [assumption|]. split; [|eauto].
      destruct (ex' (get_parent m z)) eqn:E; [|reflexivity]. exfalso. pose proof (covers_own m Hwf z (V' z Ez)) as C. assert (get_parent m z = z) as Q' by (apply (only' _ z (idx_of m z)); auto; apply (parent_covers m Hwf); auto). rewrite Q' in Lp. lia.
    + assert (forallb ex (kids z) = true) as K by (apply forallb_forall; assumption). congruence.
  - intros (c & I & Iz). pose proof (split_level c I) as [Vc Lc]. apply split_iff in I. destruct I as (Ec & Nc & y & Iy & Ey). pose proof (all_kids c y z Ec Nc Iy Ey Iz) as Ez. pose proof (proj1 (kid_iff c z Vc Lc) Iz) as (Vz & Lz & _).
    assert (ex z = false) as Nz.
    { destruct (ex z) eqn:E; [|reflexivity]. exfalso. pose proof (covers_own m Hwf z Vz) as C. assert (z = c) as -> by (apply (only z c (idx_of m z)); auto; apply (kid_inside c z); auto). lia. }
    split; [auto|]. apply negb_true_iff, not_true_iff_false. rewrite forallb_forall. intros M. destruct (has_kid z Vz) as (k & Ik). pose proof (M k Ik) as Ek. pose proof (kid_valid_level z k Vz Ik (V k Ek)) as Lz'. pose proof (proj1 (kid_iff z k Vz Lz') Ik) as (Vk & Lk & _).
    pose proof (covers_own m Hwf k Vk) as C. assert (k = c) as -> by (apply (only k c (idx_of m k)); auto; apply (kid_inside c z); auto; apply (kid_inside z k); auto). lia.
Qed.
Lemma merge_children : Permutation merged_away (flat_map (get_all_children m) merged_into).
Proof.
  apply NoDup_Permutation; [apply NoDup_filter, NoDup_filter; assumption|apply families_nodup; [apply NoDup_filter, NoDup_filter; assumption|apply merged_into_level]|].
  intros c. unfold merged_away. rewrite !filter_In, HL, negb_true_iff, in_flat_map. split.
  - intros ((Ec & Nc) & Q). apply negb_true_iff in Q. destruct (gone c (idx_of m c) Ec Nc (covers_own m Hwf c (V c Ec))) as (y & Ey & Cy & [[Iy Lc]|(M & I & _)]).
    + exfalso. assert (existsb ex' (kids c) = true) as K by (apply existsb_exists; eauto). congruence.
    + exists y. split; [apply merged_into_iff; auto|assumption].
  - intros (p & I & Ic). pose proof (merged_into_level p I) as [Vp Lp]. apply merged_into_iff in I. destruct I as (Ep & Np & M). pose proof (M c Ic) as Ec. pose proof (proj1 (kid_iff p c Vp Lp) Ic) as (Vc & Lc & _).
    split.
    + split; [assumption|]. destruct (ex' c) eqn:E; [|reflexivity]. exfalso. pose proof (covers_own m Hwf c Vc) as C. assert (c = p) as -> by (apply (only' c p (idx_of m c)); auto; apply (kid_inside p c); auto). lia.
    + apply negb_true_iff, not_true_iff_false. rewrite existsb_exists. intros (k & Ik & Ek). pose proof (kid_valid_level c k Vc Ik (V' k Ek)) as Lc'. pose proof (proj1 (kid_iff c k Vc Lc') Ik) as (Vk & Lk & _). pose proof (covers_own m Hwf k Vk) as C.
      assert (k = p) as -> by (apply (only' k p (idx_of m k)); auto; apply (kid_inside p c); auto; apply (kid_inside c k); auto). lia.
Qed.

(** ** Sums *)
Context (f f' : Z -> Qc).
Context (Kept : forall c, ex c = true -> ex' c = true -> f' c = f c).
Context (Split : forall c, ex c = true -> ex' c = false -> (forall k, In k (kids c) -> ex' k = true /\ ex k = false /\ get_parent m k = c) -> lvl c < m_max m -> qsum (map f' (kids c)) = f c).
Context (Merge : forall c, ex' c = true -> made_by_merge c -> f' c = qsum (map f (kids c))).
Lemma sums_equal : qsum (map f' L') = qsum (map f L).
Proof.
  rewrite (qsum_perm _ _ (Permutation_map f' new_cells)), (qsum_perm _ _ (Permutation_map f old_cells)). rewrite !map_app, !qsum_app.
  rewrite (qsum_perm _ _ (Permutation_map f' split_children)), (qsum_perm _ _ (Permutation_map f merge_children)). rewrite !qsum_flat.
  f_equal; [|f_equal].
  - f_equal. apply map_ext_in. intros c I. unfold kept in I. apply filter_In in I. destruct I as [I E]. apply HL in I. auto.
  - f_equal. apply map_ext_in. intros c I. pose proof (split_level c I) as [Vc Lc]. pose proof I as J. apply split_iff in J. destruct J as (Ec & Nc & y & Iy & Ey). apply Split; auto. intros k Ik. split; [apply (all_kids c y k); assumption|].
    pose proof (proj1 (kid_iff c k Vc Lc) Ik) as (Vk & Lk & Pk). split; [|assumption]. assert (In k children) as Q by (apply (Permutation_in _ (Permutation_sym split_children)), in_flat_map; exists c; auto). unfold children in Q. rewrite !filter_In, negb_true_iff in Q. tauto.
  - f_equal. apply map_ext_in. intros c I. apply merged_into_iff in I. destruct I as [Ec M]. apply Merge; assumption.
Qed.
End Regroup.
