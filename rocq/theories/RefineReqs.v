(** Requests: they never fail unexpectedly, keep the invariant, and what they record. *)
From Verif Require Import U64 MapModel MapSpec MapProofs MapFamily MapProps HoodModel MeshModel
  MeshSpec MeshBase HoodProps MeshWalk MeshFind MeshKids MeshItem MeshCheck MeshTo MeshNear
  Sets RefineModel RefineGeo RefineInv RefineSpread RefineNear RefineMerge RefineFold RefineExec BalanceModel.
Open Scope Z_scope.

Section Reqs.
Context {D : Type} (g : grid) (Hg : grid_ok g).
Notation m := (g_map g).
Notation t := (g_topo g).
Notation n := (g_len g).
Notation H := (g_hood g).
Context (own : Z -> option Z) (st : Z -> proc D) (Hgood : good g own st).
Context (r : Z) (Ir : In r (ranks g)).
Notation p := (st r).
Notation q := (p_req p).

Lemma Hs : store_ok own r (p_store p). Proof. apply Hgood. assumption. Qed.
Lemma Hr : reqs_ok g own r q. Proof. apply Hgood. assumption. Qed.
Lemma ex_eq c : exb (p_store p) c = exo own c. Proof. apply (exb_exo own r), Hs. Qed.
Lemma has_eq c : has c (s_data (p_store p)) = true <-> own c = Some r. Proof. apply Hs. Qed.
Lemma wfm : wf m. Proof. apply Hg. Qed.
Lemma msh : mesh m t n (exb (p_store p)). Proof. apply (store_mesh g own r); [apply Hgood|apply Hs]. Qed.
Lemma own_ex c : own c = Some r -> exo own c = true. Proof. unfold exo. intros ->. reflexivity. Qed.

Lemma sibs c : exo own c = true -> 0 < lvl_of m c ->
  (forall s, In s (get_siblings m c) <-> siblings g c s) /\ length (get_siblings m c) = 8%nat /\ (forall i, (i < 8)%nat -> nth i (get_siblings m c) error_cell <> error_cell).
Proof.
  intros Ec Lc. pose proof (own_valid g own st Hgood c Ec) as Vc. pose proof (cell_level m wfm c Vc) as Lv. pose proof (parent_facts m wfm c Vc Lc) as (Vp & Lp & _). cbn zeta in *.
  assert (get_siblings m c = get_all_children m (get_parent m c)) as ->.
  { unfold get_siblings. unfold lvl_of in *. destruct (Z.ltb_spec (get_refinement_level m c) 0); [lia|]. destruct (Z.ltb_spec (m_max m) (get_refinement_level m c)); [lia|].
    destruct (Z.eqb_spec (get_refinement_level m c) 0); [lia|]. reflexivity. }
  split; [intros s; apply (family_list g Hg own st Hgood c Ec Lc s)|]. split; [rewrite (children_list m wfm _ Vp ltac:(lia)), map_length; reflexivity|].
  intros i Hi. apply kids_not_error; [apply wfm|assumption|lia|assumption].
Qed.

Ltac triv := repeat match goal with |- _ /\ _ => split end; intros; tauto.
(** *** dont_unrefine *)
Lemma dont_unrefine_ok c : exists b q', dont_unrefine g p c = Done (b, q') /\ reqs_ok g own r q' /\
  (b = true <-> exo own c = true) /\
  (b = true -> 0 < lvl_of m c -> exists s, siblings g c s /\ In s (r_nounref q')) /\
  (forall x, In x (r_ref q') <-> In x (r_ref q)) /\ (forall x, In x (r_noref q') <-> In x (r_noref q)) /\
  (forall x, In x (r_nounref q) -> In x (r_nounref q')) /\ (forall x, In x (r_unref q') -> In x (r_unref q)) /\
  (forall x, In x (r_nounref q') -> In x (r_nounref q) \/ x = c /\ exo own c = true).
Proof.
  pose proof Hr as Hq. unfold dont_unrefine. rewrite ex_eq.
  destruct (Z.eqb_spec c error_cell) as [->|Ne].
  { exists false, q. split; [reflexivity|]. split; [assumption|]. split; [|split; [discriminate|triv]].
    split; [discriminate|]. intros E. pose proof (own_valid g own st Hgood _ E) as V. unfold valid, error_cell in V. lia. }
  destruct (exo own c) eqn:Ec; cbn [negb].
  2:{ exists false, q. split; [reflexivity|]. split; [assumption|]. split; [tauto|]. split; [discriminate|]. triv. }
  destruct (Z.eqb_spec (get_refinement_level m c) 0) as [L0|L0].
  { exists true, q. split; [reflexivity|]. split; [assumption|]. split; [tauto|]. split; [unfold lvl_of; lia|]. triv. }
  pose proof (own_level g Hg own st Hgood c Ec) as Lv. destruct (sibs c Ec ltac:(unfold lvl_of in *; lia)) as (Si & _ & Ne0).
  rewrite (proj2 (Z.eqb_neq _ _) (Ne0 0%nat ltac:(lia))), (proj2 (Z.eqb_neq _ _) (Ne0 1%nat ltac:(lia))). cbn [orb].
  assert (siblings g c c) as Sc. { pose proof (own_valid g own st Hgood c Ec). split; [assumption|]. split; [assumption|]. unfold lvl_of in *. split; [lia|]. split; [lia|reflexivity]. }
  destruct (existsb _ _) eqn:Es.
  - exists true, q. split; [reflexivity|]. split; [assumption|]. split; [tauto|]. split; [|triv].
    intros _ _. apply existsb_exists in Es. destruct Es as (s & Hs1 & Hs2). exists s. split; [apply Si; assumption|apply mem_In; assumption].
  - exists true, (Reqs (r_ref q) (r_noref q) (delall (get_siblings m c) (r_unref q)) (adds c (r_nounref q))). split; [reflexivity|]. cbn [r_ref r_noref r_unref r_nounref].
    split; [|split; [tauto|split; [|split; [tauto|split; [tauto|split; [|split]]]]]].
    + destruct Hq as [A B]. split; cbn [r_ref r_unref]; [assumption|]. intros x Hx. apply delall_In in Hx. apply B, Hx.
    + intros _ _. exists c. split; [assumption|apply adds_In; auto].
    + intros x Hx. apply adds_In. auto.
    + intros x Hx. apply delall_In in Hx. apply Hx.
    + intros x Hx. apply adds_In in Hx. destruct Hx as [->|Hx]; auto.
Qed.

(** *** refine_completely *)
Lemma refine_completely_ok c : exists b q', refine_completely g p c = Done (b, q') /\ reqs_ok g own r q' /\
  (b = true <-> own c = Some r /\ (lvl_of m c = m_max m \/
     ~ In c (r_noref q) /\ forall x, exo own x = true -> sees m t H c x -> lvl_of m x < lvl_of m c -> ~ In x (r_noref q))) /\
  (b = true -> lvl_of m c < m_max m -> In c (r_ref q') /\
     forall x s, siblings g x s -> x = c \/ exo own x = true /\ linked g c x /\ lvl_of m x <= lvl_of m c -> ~ In s (r_unref q')) /\
  (forall x, In x (r_ref q') <-> In x (r_ref q) \/ b = true /\ x = c /\ lvl_of m c < m_max m) /\
  (forall x, In x (r_noref q') <-> In x (r_noref q)) /\
  (forall x, In x (r_nounref q) -> In x (r_nounref q')) /\ (forall x, In x (r_unref q') -> In x (r_unref q)).
Proof.
  pose proof Hr as Hq. unfold refine_completely. rewrite ex_eq.
  assert (forall b : bool, b = false -> reqs_ok g own r q /\ (b = true <-> False) /\ (b = true -> lvl_of m c < m_max m -> False) /\ (forall x, In x (r_ref q) <-> In x (r_ref q) \/ b = true /\ x = c /\ lvl_of m c < m_max m) /\
     (forall x, In x (r_noref q) <-> In x (r_noref q)) /\ (forall x, In x (r_nounref q) -> In x (r_nounref q)) /\ (forall x, In x (r_unref q) -> In x (r_unref q))) as No.
  { intros b ->. split; [assumption|]. split; [split; [discriminate|contradiction]|]. split; [discriminate|]. split; [|triv]. intros x. split; [auto|]. intros [?|[? _]]; [assumption|discriminate]. }
  assert (forall X : Prop, ~ X -> exists b q', Done (false, q) = Done (b, q') /\ reqs_ok g own r q' /\ (b = true <-> X) /\
    (b = true -> lvl_of m c < m_max m -> In c (r_ref q') /\
     forall x s, siblings g x s -> x = c \/ exo own x = true /\ linked g c x /\ lvl_of m x <= lvl_of m c -> ~ In s (r_unref q')) /\
    (forall x, In x (r_ref q') <-> In x (r_ref q) \/ b = true /\ x = c /\ lvl_of m c < m_max m) /\
    (forall x, In x (r_noref q') <-> In x (r_noref q)) /\
    (forall x, In x (r_nounref q) -> In x (r_nounref q')) /\ (forall x, In x (r_unref q') -> In x (r_unref q))) as Fail.
  { intros X NX. exists false, q. destruct (No false eq_refl) as (A & _ & _ & B). split; [reflexivity|]. split; [assumption|]. split; [split; [discriminate|contradiction]|]. split; [discriminate|exact B]. }
  clear No.
  destruct (Z.eqb_spec c error_cell) as [->|Ne].
  { apply Fail. intros (O & _). apply own_ex in O. pose proof (own_valid g own st Hgood _ O) as V. unfold valid, error_cell in V. lia. }
  destruct (exo own c) eqn:Ec; cbn [negb].
  2:{ apply Fail. intros (O & _). apply own_ex in O. congruence. }
  destruct (has c (s_data (p_store p))) eqn:Eh; cbn [negb].
  2:{ apply Fail. intros (O & _). apply has_eq in O. congruence. }
  apply has_eq in Eh. pose proof (own_level g Hg own st Hgood c Ec) as Lv.
  destruct (Z.eqb_spec (get_refinement_level m c) (m_max m)) as [Lm|Lm].
  { destruct (dont_unrefine_ok c) as (b & q' & E & Q' & Bb & _ & B1 & B2 & B3 & B4 & _). rewrite E. cbn [bind snd]. exists true, q'. split; [reflexivity|]. split; [assumption|].
    unfold lvl_of in *. split; [tauto|]. split; [lia|]. split; [|tauto]. intros x. rewrite B1. split; [auto|]. intros [?|(_ & _ & ?)]; [assumption|lia]. }
  destruct (mem c (r_noref q)) eqn:Em.
  { apply mem_In in Em. apply Fail. unfold lvl_of in *. intros (_ & [?|(? & _)]); [lia|contradiction]. }
  apply mem_not in Em.
  destruct (good_cache g Hg own st r Hgood Ir) as (Sof & Sto & _). destruct (Sof c Ec) as (a & Fa & Pa). destruct (Sto c Ec) as (b & Fb & Pb).
  unfold at_. rewrite Fa. cbn [bind].
  destruct (existsb _ a) eqn:Ee.
  { apply existsb_exists in Ee. destruct Ee as (e & He & Q). apply andb_true_iff in Q. destruct Q as [Q1 Q2]. apply Z.ltb_lt in Q1. apply mem_In in Q2.
    pose proof (proj1 (Pa (fst e)) (in_map fst a e He)) as (Ex & Sx). apply Fail. unfold lvl_of in *. intros (_ & [?|(_ & Q)]); [lia|]. apply (Q (fst e)); assumption. }
  rewrite Fb. cbn [bind].
  set (gone := filter _ _ ++ _).
  assert (forall x s, siblings g x s -> x = c \/ exo own x = true /\ linked g c x /\ lvl_of m x <= lvl_of m c -> In s gone) as Gone.
  { intros x s S Hx. pose proof S as (Vx & Vs & Lx & Ls & _).
    assert (exo own x = true) as Ex by (destruct Hx as [->|(? & _)]; assumption).
    destruct (sibs x Ex Lx) as (Sx & _). apply Sx in S. assert (negb (s =? error_cell) = true) as Ns. { unfold valid, error_cell in *. destruct (Z.eqb_spec s 0); [lia|reflexivity]. }
    unfold gone. rewrite !in_app_iff, !in_flat_map. destruct Hx as [->|(_ & [Q|Q] & Q2)].
    - left. apply filter_In. auto.
    - right. left. pose proof (proj2 (Pa x) (conj Ex Q)) as I. apply in_map_iff in I. destruct I as (e & Ee' & He). exists e. split; [assumption|]. unfold overridden. unfold lvl_of in Q2. rewrite Ee', (proj2 (Z.leb_le _ _) Q2). apply filter_In. auto.
    - right. right. exists x. split; [apply Pb; auto|]. unfold overridden. unfold lvl_of in Q2. rewrite (proj2 (Z.leb_le _ _) Q2). apply filter_In. auto. }
  exists true, (Reqs (adds c (r_ref q)) (r_noref q) (delall gone (r_unref q)) (r_nounref q)). cbn [r_ref r_noref r_unref r_nounref].
  split; [reflexivity|]. split; [|split; [|split; [|split; [|split; [tauto|split; [auto|]]]]]].
  - destruct Hq as [A B]. split; cbn [r_ref r_unref].
    + intros x Hx. apply adds_In in Hx. destruct Hx as [->|Hx]; [unfold lvl_of in *; split; [assumption|lia]|apply A, Hx].
    + intros x Hx. apply delall_In in Hx. apply B, Hx.
  - split; [|reflexivity]. intros _. split; [assumption|]. right. split; [assumption|]. intros x Ex Sx Lx Nx.
    pose proof (proj2 (Pa x) (conj Ex Sx)) as I. apply in_map_iff in I. destruct I as (e & Ee' & He).
    assert (existsb (fun n0 : Z * idx => (get_refinement_level m (fst n0) <? get_refinement_level m c) && mem (fst n0) (r_noref q)) a = true) as Q; [|congruence].
    apply existsb_exists. exists e. split; [assumption|]. rewrite Ee'. unfold lvl_of in Lx. rewrite (proj2 (Z.ltb_lt _ _) Lx), (proj2 (mem_In _ _) Nx). reflexivity.
  - intros _ _. split; [apply adds_In; auto|]. intros x s S Hx Q. apply delall_In in Q. apply Q. apply (Gone x s S Hx).
  - intros x. rewrite adds_In. unfold lvl_of in *. split; [intros [->|?]; [right|left; assumption]|intros [?|(_ & -> & _)]; auto]. split; [reflexivity|]. split; [reflexivity|lia].
  - intros x Hx. apply delall_In in Hx. apply Hx.
Qed.

(** *** unrefine_completely *)
Lemma sib_check_spec l : (forall s, In s l -> valid m s) -> match sib_check g (exb (p_store p)) q l with
  | None => forall s, In s l -> exo own s = true /\ ~ In s (r_ref q) /\ ~ In s (r_nounref q)
  | Some _ => exists s, In s l /\ (exo own s = false \/ In s (r_ref q) \/ In s (r_nounref q)) end.
Proof.
  induction l as [|s l IH]; intros V; cbn [sib_check]; [intros s []|].
  pose proof msh as (_ & _ & T & _). pose proof (ex_eq s) as Es. destruct (Z.eqb_spec s (get_child_ex (exb (p_store p)) m s)) as [E|E]; cbn [negb].
  - symmetry in E. pose proof (get_child_ex_eq m wfm (exb (p_store p)) s (V s (or_introl eq_refl)) E) as Ex.
    destruct (mem s (r_ref q) || mem s (r_nounref q)) eqn:Em.
    + exists s. split; [left; reflexivity|]. right. apply orb_true_iff in Em. rewrite !mem_In in Em. assumption.
    + apply orb_false_iff in Em. rewrite !mem_not in Em. specialize (IH (fun x Hx => V x (or_intror Hx))). destruct (sib_check _ _ _ l).
      * destruct IH as (x & Hx & Q). exists x. split; [right; assumption|assumption].
      * intros x [<-|Hx]; [|auto]. rewrite <- Es. tauto.
  - exists s. split; [left; reflexivity|]. left. rewrite <- Es. destruct (exb (p_store p) s) eqn:Ex; [|reflexivity]. pose proof (get_child_ex_leaf m wfm _ T s Ex). congruence.
Qed.

Lemma unrefine_completely_ok c : exists b q', unrefine_completely g p c = Done (b, q') /\ reqs_ok g own r q' /\
  (b = true -> own c = Some r) /\
  (forall x, In x (r_ref q') <-> In x (r_ref q)) /\ (forall x, In x (r_noref q') <-> In x (r_noref q)) /\
  (forall x, In x (r_nounref q') <-> In x (r_nounref q)) /\
  (forall x, In x (r_unref q') <-> In x (r_unref q) \/ x = c /\ In c (r_unref q')) /\
  (In c (r_unref q') -> ~ In c (r_unref q) -> forall s, siblings g c s -> exo own s = true /\ ~ In s (r_ref q) /\ ~ In s (r_nounref q)).
Proof.
  pose proof Hr as Hq. unfold unrefine_completely. rewrite ex_eq.
  assert (forall b : bool, (b = true -> own c = Some r) -> exists b0 q', Done (b, q) = Done (b0, q') /\ reqs_ok g own r q' /\
    (b0 = true -> own c = Some r) /\
    (forall x, In x (r_ref q') <-> In x (r_ref q)) /\ (forall x, In x (r_noref q') <-> In x (r_noref q)) /\
    (forall x, In x (r_nounref q') <-> In x (r_nounref q)) /\
    (forall x, In x (r_unref q') <-> In x (r_unref q) \/ x = c /\ In c (r_unref q')) /\
    (In c (r_unref q') -> ~ In c (r_unref q) -> forall s, siblings g c s -> exo own s = true /\ ~ In s (r_ref q) /\ ~ In s (r_nounref q))) as Same.
  { intros b Hb. exists b, q. split; [reflexivity|]. split; [assumption|]. split; [assumption|]. split; [tauto|]. split; [tauto|]. split; [tauto|]. split; [|contradiction]. intros x. split; [auto|]. intros [?|[-> ?]]; assumption. }
  destruct (Z.eqb_spec c error_cell) as [->|Ne]; [apply Same; discriminate|].
  destruct (exo own c) eqn:Ec; cbn [negb]; [|apply Same; discriminate].
  destruct (has c (s_data (p_store p))) eqn:Eh; cbn [negb]; [|apply Same; discriminate].
  apply has_eq in Eh.
  destruct (Z.eqb_spec (get_refinement_level m c) 0) as [L0|L0]; [apply Same; auto|].
  pose proof (own_level g Hg own st Hgood c Ec) as Lv. destruct (sibs c Ec ltac:(unfold lvl_of in *; lia)) as (Si & _ & Ne0).
  rewrite (proj2 (Z.eqb_neq _ _) (Ne0 0%nat ltac:(lia))), (proj2 (Z.eqb_neq _ _) (Ne0 1%nat ltac:(lia))). cbn [orb].
  pose proof (sib_check_spec (get_siblings m c) ltac:(intros s Hs0; apply Si in Hs0; apply Hs0)) as Sp.
  destruct (sib_check g (exb (p_store p)) q (get_siblings m c)); [apply Same; auto|].
  pose proof msh as M. pose proof M as (_ & _ & T & _). pose proof (ex_eq c) as Exb. rewrite Ec in Exb. rewrite (get_parent_ex_leaf g Hg _ c T Exb).
  destruct (of_list g (exb (p_store p)) c M Exb) as (l & El & _). rewrite El. cbn [bind].
  destruct (existsb _ l); [apply Same; auto|]. destruct (existsb _ _); [apply Same; auto|].
  exists true, (Reqs (r_ref q) (r_noref q) (adds c (r_unref q)) (r_nounref q)). cbn [r_ref r_noref r_unref r_nounref].
  split; [reflexivity|]. split; [|split; [auto|split; [tauto|split; [tauto|split; [tauto|split]]]]].
  - destruct Hq as [A B]. split; cbn [r_ref r_unref]; [assumption|]. intros x Hx. apply adds_In in Hx. destruct Hx as [->|Hx]; [|apply B, Hx].
    split; [assumption|]. unfold lvl_of in *. split; [lia|]. intros s S. apply Sp. apply Si. assumption.
  - intros x. rewrite !adds_In. tauto.
  - intros _ _ s S. apply Sp, Si. assumption.
Qed.

(** *** dont_refine *)
Lemma dont_refine_ok c : reqs_ok g own r (snd (dont_refine g p c)) /\
  (fst (dont_refine g p c) = true <-> exo own c = true) /\
  (forall x, In x (r_noref (snd (dont_refine g p c))) <-> In x (r_noref q) \/ x = c /\ exo own c = true /\ lvl_of m c < m_max m) /\
  (forall x, In x (r_ref (snd (dont_refine g p c))) <-> In x (r_ref q) /\ (x = c -> ~ (exo own c = true /\ lvl_of m c < m_max m))) /\
  r_unref (snd (dont_refine g p c)) = r_unref q /\ r_nounref (snd (dont_refine g p c)) = r_nounref q.
Proof.
  pose proof Hr as Hq. unfold dont_refine. rewrite ex_eq.
  destruct (Z.eqb_spec c error_cell) as [->|Ne].
  { cbn [fst snd]. assert (exo own error_cell = false) as E. { destruct (exo own error_cell) eqn:E; [|reflexivity]. pose proof (own_valid g own st Hgood _ E) as V. unfold valid, error_cell in V. lia. }
    rewrite E. split; [assumption|]. split; [split; discriminate|]. split; [intros x; split; [auto|intros [?|(_ & ? & _)]; [assumption|discriminate]]|].
    split; [|auto]. intros x. split; [|tauto]. intros Hx. split; [assumption|]. intros _ [? _]. discriminate. }
  destruct (exo own c) eqn:Ec; cbn [negb].
  2:{ cbn [fst snd]. split; [assumption|]. split; [split; discriminate|]. split; [intros x; split; [auto|intros [?|(_ & ? & _)]; [assumption|discriminate]]|].
      split; [|auto]. intros x. split; [|tauto]. intros Hx. split; [assumption|]. intros _ [? _]. discriminate. }
  pose proof (own_level g Hg own st Hgood c Ec) as Lv. unfold lvl_of in *.
  destruct (Z.eqb_spec (get_refinement_level m c) (m_max m)) as [Lm|Lm]; cbn [fst snd].
  - split; [assumption|]. split; [tauto|]. split; [intros x; split; [auto|intros [?|(_ & _ & ?)]; [assumption|lia]]|]. split; [|auto]. intros x. split; [|tauto]. intros Hx. split; [assumption|lia].
  - cbn [r_ref r_noref r_unref r_nounref]. split; [|split; [tauto|split; [|split; [|auto]]]].
    + destruct Hq as [A B]. split; cbn [r_ref r_unref]; [|assumption]. intros x Hx. apply dels_In in Hx. apply A, Hx.
    + intros x. rewrite adds_In. split; [intros [->|?]; [right; split; [reflexivity|split; [reflexivity|lia]]|auto]|]. intros [?|(-> & _)]; auto.
    + intros x. rewrite dels_In. split; [intros [Hx N]; split; [assumption|contradiction]|]. intros [Hx N]. split; [assumption|]. intros E. apply (N E). split; [reflexivity|lia].
Qed.
End Reqs.
