(** C80: the three sets of check_for_adaptation do not depend on the order of cells, up to which cell of a family is kept. *)
From Verif Require Import U64 MapModel MapSpec MapProofs MapFamily MapProps HoodModel MeshModel
  MeshSpec MeshBase HoodProps MeshWalk MeshFind MeshKids MeshItem MeshCheck MeshTo MeshNear
  Sets RefineModel RefineGeo RefineInv RefineSpread RefineMerge RefineFold RefineExec RefineStop RefineNear
  BalanceModel RefineReqs Create Balance History HistProps CommModel CommInv CommProps CommViews Adapt ProgramModel ProgramProps AdvectModel AdapterModel AdapterDiff.
From Coq Require Import QArith Qcanon.
Open Scope Z_scope.

Section Sets.
Context (m : mapping) (fam : Z -> Z -> Prop) (f : Z -> verdict) (L : list Z).
Context (fam_sym : forall a b, fam a b -> fam b a) (fam_trans : forall a b c, fam a b -> fam b c -> fam a c) (fam_lvl : forall a b, fam a b -> 0 < lvl_of m a).
Context (fam_refl : forall c, In c L -> 0 < lvl_of m c -> fam c c).
Context (Hsib : forall c, In c L -> 0 < lvl_of m c -> forall s, In s (get_siblings m c) <-> fam c s).
Context (Hbase : forall c s, In c L -> ~ 0 < lvl_of m c -> In s (get_siblings m c) -> s = c \/ s = error_cell).
Context (Herr : ~ In error_cell L) (Hhead : forall c, In c L -> (hd error_cell (get_siblings m c) =? error_cell) = false).

(** the sets after the cells of P *)
Record picked (P : list Z) (s : picks) : Prop := Picked {
  k_up : forall c, In c (to_refine s) <-> In c P /\ f c = Up;
  k_keep : forall c, In c (not_to_unrefine s) -> In c P /\ f c = Keep /\ 0 < lvl_of m c /\ forall s', In s' P -> fam c s' -> f s' <> Up;
  k_held : forall k, In k P -> f k = Keep -> 0 < lvl_of m k -> (forall s', In s' P -> fam k s' -> f s' <> Up) -> exists s', fam k s' /\ In s' (not_to_unrefine s);
  k_down : forall c, In c (to_unrefine s) <-> In c P /\ f c = Down /\ 0 < lvl_of m c /\ forall s', In s' P -> fam c s' -> f s' = Down }.

Lemma sib_iff c z : In c L -> In z L -> 0 < lvl_of m z -> In z (get_siblings m c) <-> fam c z.
Proof.
  intros Ic Iz Lz. destruct (Z_lt_dec 0 (lvl_of m c)) as [Lc|Lc]; [apply Hsib; assumption|]. split; [|intros F; exfalso; apply Lc, (fam_lvl _ _ F)].
  intros I. destruct (Hbase c z Ic Lc I) as [-> | ->]; contradiction.
Qed.
Lemma claimed s c : In c L -> 0 < lvl_of m c -> unclaimed s (get_siblings m c) = true <-> forall z, fam c z -> ~ In z (to_refine s) /\ ~ In z (not_to_unrefine s).
Proof.
  intros Ic Lc. unfold unclaimed. rewrite negb_true_iff. split.
  - intros E z F. assert (forall z, In z (get_siblings m c) -> mem z (to_refine s) || mem z (not_to_unrefine s) = false) as H.
    { intros y Iy. destruct (mem y (to_refine s) || mem y (not_to_unrefine s)) eqn:Q; [|reflexivity]. rewrite <- E. symmetry. apply existsb_exists. eauto. }
    specialize (H z (proj2 (Hsib c Ic Lc z) F)). apply orb_false_iff in H. destruct H as [H1 H2]. split; apply mem_not; assumption.
  - intros H. destruct (existsb _ _) eqn:E; [|reflexivity]. apply existsb_exists in E. destruct E as (z & Iz & Q). apply (Hsib c Ic Lc) in Iz. destruct (H z Iz) as [H1 H2]. apply mem_not in H1, H2. rewrite H1, H2 in Q. discriminate.
Qed.

Lemma decide_ok P s c : picked P s -> (forall z, In z P -> In z L) -> In c L -> exists s', decide m f (Some s) c = Some s' /\ picked (P ++ [c]) s'.
Proof.
  intros [K1 K2 K3 K4] PL Ic. unfold decide. rewrite (Hhead c Ic). eexists. split; [reflexivity|]. change (get_refinement_level m c) with (lvl_of m c).
  assert (forall z, In z (P ++ [c]) <-> In z P \/ z = c) as Ia by (intros z; rewrite in_app_iff; cbn [In]; intuition congruence).
  destruct (f c) eqn:Fc.
  - (* Up *) constructor; cbn [to_refine not_to_unrefine to_unrefine].
    + intros z. rewrite adds_In, K1, Ia. split; [intros [->|[? ?]]; auto|]. intros [[?| ->] ?]; auto.
    + intros z. rewrite delall_In. intros [I N]. destruct (K2 z I) as (Pz & Fz & Lz & Nz). rewrite Ia. split; [auto|]. split; [assumption|]. split; [assumption|].
      intros s'. rewrite Ia. intros [Is| ->] F; [auto|]. exfalso. apply N. apply (sib_iff c z Ic (PL z Pz) Lz). auto.
    + intros k. rewrite Ia. intros Pk Fk Lk H. destruct Pk as [Pk|Q]; [|congruence]. destruct (K3 k Pk Fk Lk) as (s' & F & I); [intros s' Is F; apply (H s'); [apply Ia; auto|assumption]|].
      exists s'. split; [assumption|]. apply delall_In. split; [assumption|]. intros J. destruct (K2 s' I) as (Ps & _ & Ls & _). apply (sib_iff c s' Ic (PL s' Ps) Ls) in J. apply (H c); [apply Ia; auto|eauto|assumption].
    + intros z. rewrite delall_In, K4, Ia. split.
      * intros ((Pz & Fz & Lz & H) & N). split; [auto|]. split; [assumption|]. split; [assumption|]. intros s'. rewrite Ia. intros [Is| ->] F; [auto|]. exfalso. apply N. apply (sib_iff c z Ic (PL z Pz) Lz). auto.
      * intros (Pz & Fz & Lz & H). destruct Pz as [Pz|Q]; [|congruence]. split; [split; [assumption|]; split; [assumption|]; split; [assumption|]; intros s' Is F; apply H; [apply Ia; auto|assumption]|].
        intros J. apply (sib_iff c z Ic (PL z Pz) Lz) in J. pose proof (H c (proj2 (Ia c) (or_intror eq_refl)) (fam_sym _ _ J)). congruence.
  - (* Keep *) destruct (unclaimed s (get_siblings m c) && (0 <? lvl_of m c)) eqn:U.
    + apply andb_true_iff in U. destruct U as [U Lc]. apply Z.ltb_lt in Lc. rewrite (claimed s c Ic Lc) in U. constructor; cbn [to_refine not_to_unrefine to_unrefine].
      * intros z. rewrite K1, Ia. split; [tauto|]. intros [[?|Q] ?]; [auto|congruence].
      * intros z. rewrite adds_In. intros [->|I].
        -- rewrite Ia. split; [auto|]. split; [assumption|]. split; [assumption|]. intros s'. rewrite Ia. intros [Is| ->] F Q; [|congruence]. apply (proj1 (U s' F)), K1. auto.
        -- destruct (K2 z I) as (Pz & Fz & Lz & H). rewrite Ia. split; [auto|]. split; [assumption|]. split; [assumption|]. intros s'. rewrite Ia. intros [Is| ->] F; [auto|congruence].
      * intros k. rewrite Ia. intros Pk Fk Lk H. destruct Pk as [Pk| ->]; [|exists c; split; [apply fam_refl; assumption|apply adds_In; auto]].
        destruct (K3 k Pk Fk Lk) as (s' & F & I); [intros s' Is F; apply (H s'); [apply Ia; auto|assumption]|]. exists s'. split; [assumption|]. apply adds_In. auto.
      * intros z. rewrite delall_In, K4, Ia. split.
        -- intros ((Pz & Fz & Lz & H) & N). split; [auto|]. split; [assumption|]. split; [assumption|]. intros s'. rewrite Ia. intros [Is| ->] F; [auto|]. exfalso. apply N. apply (sib_iff c z Ic (PL z Pz) Lz). auto.
        -- intros (Pz & Fz & Lz & H). destruct Pz as [Pz|Q]; [|congruence]. split; [split; [assumption|]; split; [assumption|]; split; [assumption|]; intros s' Is F; apply H; [apply Ia; auto|assumption]|].
           intros J. apply (sib_iff c z Ic (PL z Pz) Lz) in J. pose proof (H c (proj2 (Ia c) (or_intror eq_refl)) (fam_sym _ _ J)). congruence.
    + assert (0 < lvl_of m c -> exists z, fam c z /\ (In z (to_refine s) \/ In z (not_to_unrefine s))) as Cl.
      { intros Lc. apply andb_false_iff in U. destruct U as [U|U]; [|apply Z.ltb_ge in U; lia]. unfold unclaimed in U. apply negb_false_iff in U. apply existsb_exists in U. destruct U as (z & Iz & Q). exists z. split; [apply Hsib; assumption|]. apply orb_true_iff in Q. rewrite !mem_In in Q. assumption. }
      constructor.
      * intros z. rewrite K1, Ia. split; [tauto|]. intros [[?|Q] ?]; [auto|congruence].
      * intros z I. destruct (K2 z I) as (Pz & Fz & Lz & H). rewrite Ia. split; [auto|]. split; [assumption|]. split; [assumption|]. intros s'. rewrite Ia. intros [Is| ->] F; [auto|congruence].
      * intros k. rewrite Ia. intros Pk Fk Lk H. destruct Pk as [Pk| ->]; [apply (K3 k Pk Fk Lk); intros s' Is F; apply (H s'); [apply Ia; auto|assumption]|].
        destruct (Cl Lk) as (z & F & [I|I]); [|eauto]. apply K1 in I. destruct I as [Pz Fz]. exfalso. apply (H z); [apply Ia; auto|assumption|assumption].
      * intros z. rewrite K4, Ia. split.
        -- intros (Pz & Fz & Lz & H). split; [auto|]. split; [assumption|]. split; [assumption|]. intros s'. rewrite Ia. intros [Is| ->] F; [auto|]. exfalso.
           destruct (Cl (fam_lvl _ _ (fam_sym _ _ F))) as (y & Fy & [I|I]); [apply K1 in I; destruct I as [Py Qy]|destruct (K2 y I) as (Py & Qy & _)]; pose proof (H y Py (fam_trans _ _ _ F Fy)); congruence.
        -- intros (Pz & Fz & Lz & H). destruct Pz as [Pz|Q]; [|congruence]. split; [assumption|]. split; [assumption|]. split; [assumption|]. intros s' Is F. apply H; [apply Ia; auto|assumption].
  - (* Down *) destruct (unclaimed s (get_siblings m c) && (0 <? lvl_of m c)) eqn:U.
    + apply andb_true_iff in U. destruct U as [U Lc]. apply Z.ltb_lt in Lc. rewrite (claimed s c Ic Lc) in U. constructor; cbn [to_refine not_to_unrefine to_unrefine].
      * intros z. rewrite K1, Ia. split; [tauto|]. intros [[?|Q] ?]; [auto|congruence].
      * intros z I. destruct (K2 z I) as (Pz & Fz & Lz & H). rewrite Ia. split; [auto|]. split; [assumption|]. split; [assumption|]. intros s'. rewrite Ia. intros [Is| ->] F; [auto|congruence].
      * intros k. rewrite Ia. intros Pk Fk Lk H. destruct Pk as [Pk|Q]; [|congruence]. apply (K3 k Pk Fk Lk). intros s' Is F. apply (H s'); [apply Ia; auto|assumption].
      * intros z. rewrite adds_In, K4, Ia. split.
        -- intros [->|(Pz & Fz & Lz & H)].
           ++ split; [auto|]. split; [assumption|]. split; [assumption|]. intros s'. rewrite Ia. intros [Is| ->] F; [|assumption]. destruct (f s') eqn:Fs; [exfalso; apply (proj1 (U s' F)), K1; auto| |reflexivity].
              exfalso. assert (0 < lvl_of m s') as Ls by (apply (fam_lvl s' c), fam_sym, F). destruct (K3 s' Is Fs Ls) as (y & Fy & Iy).
              ** intros y Iy Fy Q. apply (proj1 (U y (fam_trans _ _ _ F Fy))), K1. auto.
              ** apply (proj2 (U y (fam_trans _ _ _ F Fy)) Iy).
           ++ split; [auto|]. split; [assumption|]. split; [assumption|]. intros s'. rewrite Ia. intros [Is| ->] F; auto.
        -- intros ([Pz| ->] & Fz & Lz & H); [|auto]. right. split; [assumption|]. split; [assumption|]. split; [assumption|]. intros s' Is F. apply H; [apply Ia; auto|assumption].
    + assert (0 < lvl_of m c -> exists z, fam c z /\ (In z (to_refine s) \/ In z (not_to_unrefine s))) as Cl.
      { intros Lc. apply andb_false_iff in U. destruct U as [U|U]; [|apply Z.ltb_ge in U; lia]. unfold unclaimed in U. apply negb_false_iff in U. apply existsb_exists in U. destruct U as (z & Iz & Q). exists z. split; [apply Hsib; assumption|]. apply orb_true_iff in Q. rewrite !mem_In in Q. assumption. }
      constructor.
      * intros z. rewrite K1, Ia. split; [tauto|]. intros [[?|Q] ?]; [auto|congruence].
      * intros z I. destruct (K2 z I) as (Pz & Fz & Lz & H). rewrite Ia. split; [auto|]. split; [assumption|]. split; [assumption|]. intros s'. rewrite Ia. intros [Is| ->] F; [auto|congruence].
      * intros k. rewrite Ia. intros Pk Fk Lk H. destruct Pk as [Pk|Q]; [|congruence]. apply (K3 k Pk Fk Lk). intros s' Is F. apply (H s'); [apply Ia; auto|assumption].
      * intros z. rewrite K4, Ia. split.
        -- intros (Pz & Fz & Lz & H). split; [auto|]. split; [assumption|]. split; [assumption|]. intros s'. rewrite Ia. intros [Is| ->] F; [auto|assumption].
        -- intros ([Pz| ->] & Fz & Lz & H); [split; [assumption|]; split; [assumption|]; split; [assumption|]; intros s' Is F; apply H; [apply Ia; auto|assumption]|].
           exfalso. destruct (Cl Lz) as (y & Fy & [I|I]); [apply K1 in I; destruct I as [Py Qy]|destruct (K2 y I) as (Py & Qy & _)]; pose proof (H y (proj2 (Ia y) (or_introl Py)) Fy); congruence.
Qed.
Lemma choose_ok : exists s, choose m f L = Some s /\ picked L s.
Proof.
  assert (forall l P s, picked P s -> (forall z, In z (P ++ l) -> In z L) -> exists s', fold_left (decide m f) l (Some s) = Some s' /\ picked (P ++ l) s') as G.
  { induction l as [|c l IH]; intros P s K H; cbn [fold_left]; [exists s; rewrite app_nil_r; auto|].
    destruct (decide_ok P s c K) as (s1 & E1 & K1); [intros z I; apply H, in_app_iff; auto|apply H, in_app_iff; right; left; reflexivity|]. rewrite E1.
    destruct (IH (P ++ [c]) s1 K1) as (s2 & E2 & K2); [rewrite <- app_assoc; exact H|]. exists s2. split; [assumption|]. rewrite <- app_assoc in K2. exact K2. }
  apply (G L [] (Picks [] [] [])); [|auto]. constructor; cbn [to_refine not_to_unrefine to_unrefine In]; intros; tauto.
Qed.
End Sets.
Lemma picked_ext m fam f f' L s : (forall c, In c L -> f c = f' c) -> picked m fam f L s -> picked m fam f' L s.
Proof.
  intros H [A B C E]. constructor.
  - intros c. rewrite A. split; intros [I Q]; (split; [assumption|]); [rewrite <- H|rewrite H]; assumption.
  - intros c I. destruct (B c I) as (P & Q & L' & N). split; [assumption|]. split; [rewrite <- H; assumption|]. split; [assumption|]. intros s' Is F. rewrite <- H by assumption. auto.
  - intros k P Q L' N. apply C; [assumption|rewrite H; assumption|assumption|]. intros s' Is F. rewrite H by assumption. auto.
  - intros c. rewrite E. split; intros (P & Q & L' & N); (split; [assumption|]); [rewrite <- H by assumption|rewrite H by assumption]; (split; [assumption|]); (split; [assumption|]); intros s' Is F; [rewrite <- H by assumption|rewrite H by assumption]; auto.
Qed.
