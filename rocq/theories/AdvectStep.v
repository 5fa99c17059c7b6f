(** C75: the length of the time step, and when densities stay nonnegative. *)
From Verif Require Import U64 MapModel MapSpec MapProofs MapFamily MapProps HoodModel MeshModel
  MeshSpec MeshBase HoodProps MeshWalk MeshFind MeshKids MeshItem MeshCheck MeshTo MeshNear
  Sets RefineModel RefineGeo RefineInv RefineSpread RefineMerge RefineFold RefineExec RefineStop RefineNear
  BalanceModel RefineReqs Create Balance History HistProps CommModel CommInv ProgramModel ProgramProps AdvectModel AdvectGeo AdvectSum AdvectRegroup AdvectProps.
From Coq Require Import QArith Qcanon.
Open Scope Z_scope.

(** ** max_time_step: solve.hpp:289-333 *)
Definition qabs (a : Qc) : Qc := if qleb 0%Qc a then a else (- a)%Qc.
(** solve.hpp:297-302, 304-312: without velocity the quotient is infinite and is skipped by std::isnormal.
    Quotients so small that isnormal skips them do not exist without rounding. *)
Definition limit_of (d : fluid) (k : dim) : option Qc := if Qc_eq_bool (vel d k) 0%Qc then None else Some (size d k / qabs (vel d k))%Qc.
(** None stands for std::numeric_limits<double>::max() *)
Definition omin (a b : option Qc) : option Qc := match a, b with Some a, Some b => Some (qmin a b) | None, b => b | a, None => a end.
(** solve.hpp:294-313 *)
Definition own_limit (l : list fluid) : option Qc := fold_left (fun s d => fold_left (fun s k => omin (limit_of d k) s) [DX; DY; DZ] s) l None.
(** solve.hpp:315-331: MPI_Allreduce with MPI_MIN over all processes *)
Definition max_time_step (procs : list (list fluid)) : option Qc := fold_left (fun s l => omin s (own_limit l)) procs None.

Lemma qleb_le a b : qleb a b = true <-> (a <= b)%Qc. Proof. apply Qle_bool_iff. Qed.
Lemma qleb_gt a b : qleb a b = false -> (b <= a)%Qc.
Proof. intros E. destruct (Qclt_le_dec b a) as [L|L]; [apply Qclt_le_weak, L|]. apply qleb_le in L. congruence. Qed.
Lemma qmin_le a b : (qmin a b <= a)%Qc /\ (qmin a b <= b)%Qc.
Proof. unfold qmin. destruct (qleb a b) eqn:E; split; try apply Qcle_refl; [apply qleb_le, E|apply qleb_gt, E]. Qed.
Lemma qmin_either a b : qmin a b = a \/ qmin a b = b. Proof. unfold qmin. destruct (qleb a b); auto. Qed.
(** the smallest of some numbers, None when there are none *)
Definition least (P : Qc -> Prop) (r : option Qc) : Prop := match r with None => forall q, ~ P q | Some q => P q /\ forall q', P q' -> (q <= q')%Qc end.
Lemma least_ext P P' r : (forall q, P q <-> P' q) -> least P r -> least P' r.
Proof. intros E. destruct r as [q|]; cbn [least]; [intros (A & B)|intros A]; [split; [apply E, A|intros q' Q; apply B, E, Q]|intros q Q; apply (A q), E, Q]. Qed.
Lemma least_omin P P' r r' : least P r -> least P' r' -> least (fun q => P q \/ P' q) (omin r r').
Proof.
  destruct r as [a|], r' as [b|]; cbn [least omin]; [intros (A & B) (A' & B')|intros (A & B) B'|intros B (A' & B')|intros B B'].
  - destruct (qmin_le a b) as (L1 & L2). split; [destruct (qmin_either a b) as [->| ->]; auto|]. intros q [Q|Q]; [eapply Qcle_trans; [exact L1|apply B, Q]|eapply Qcle_trans; [exact L2|apply B', Q]].
  - split; [auto|]. intros q [Q|Q]; [apply B, Q|exfalso; exact (B' q Q)].
  - split; [auto|]. intros q [Q|Q]; [exfalso; exact (B q Q)|apply B', Q].
  - intros q [Q|Q]; [exact (B q Q)|exact (B' q Q)].
Qed.
Definition limits (d : fluid) (q : Qc) : Prop := exists k, vel d k <> 0%Qc /\ q = (size d k / qabs (vel d k))%Qc.
Lemma least_of d k : least (fun q => vel d k <> 0%Qc /\ q = (size d k / qabs (vel d k))%Qc) (limit_of d k).
Proof.
  unfold limit_of. destruct (Qc_eq_bool (vel d k) 0) eqn:E; cbn [least].
  - apply Qc_eq_bool_correct in E. intros q (N & _). exact (N E).
  - split; [split; [|reflexivity]|intros q (_ & ->); apply Qcle_refl]. intros Q. rewrite Q in E. discriminate E.
Qed.
Lemma own_limit_ok l : least (fun q => exists d, In d l /\ limits d q) (own_limit l).
Proof.
  unfold own_limit. assert (forall s P, least P s -> least (fun q => P q \/ exists d, In d l /\ limits d q) (fold_left (fun s d => fold_left (fun s k => omin (limit_of d k) s) [DX; DY; DZ] s) l s)) as G.
  { induction l as [|d l IH]; intros s P Hs; cbn [fold_left]; [apply (least_ext P); [|assumption]; intros q; split; [auto|]; intros [Q|(d & [] & _)]; exact Q|].
    eapply least_ext; [|apply IH, least_omin; [apply least_of|apply least_omin; [apply least_of|apply least_omin; [apply least_of|exact Hs]]]].
    intros q. cbn [In]. split.
    - intros [[Q|[Q|[Q|Q]]]|(d' & I & Q)]; [right; exists d; split; [auto|]; eexists; exact Q..|auto|right; exists d'; auto].
    - intros [Q|(d' & [<-|I] & Q)]; [auto| |right; exists d'; auto]. left. destruct Q as (k & Q). destruct k; auto. }
  eapply least_ext; [|apply (G None (fun _ => False)); intros q []]. intros q. tauto.
Qed.
(** the time step is the smallest time of crossing a cell, in whatever way cells are divided between processes *)
Theorem c75_time_step procs : match max_time_step procs with
  | None => forall l d k, In l procs -> In d l -> vel d k = 0%Qc
  | Some dt => (exists l d k, In l procs /\ In d l /\ vel d k <> 0%Qc /\ dt = (size d k / qabs (vel d k))%Qc) /\
               forall l d k, In l procs -> In d l -> (0 <= size d k)%Qc -> (dt * qabs (vel d k) <= size d k)%Qc
  end.
Proof.
  assert (least (fun q => exists l, In l procs /\ exists d, In d l /\ limits d q) (max_time_step procs)) as H.
  { unfold max_time_step. assert (forall s P, least P s -> least (fun q => P q \/ exists l, In l procs /\ exists d, In d l /\ limits d q) (fold_left (fun s l => omin s (own_limit l)) procs s)) as G.
    { induction procs as [|l procs IH]; intros s P Hs; cbn [fold_left]; [apply (least_ext P); [|assumption]; intros q; split; [auto|]; intros [Q|(d & [] & _)]; exact Q|].
      eapply least_ext; [|apply IH, least_omin; [exact Hs|apply own_limit_ok]]. intros q. cbn [In]. split.
      - intros [[Q|Q]|(l' & I & Q)]; [auto|right; exists l; auto|right; exists l'; auto].
      - intros [Q|(l' & [<-|I] & Q)]; [auto|auto|right; exists l'; auto]. }
    eapply least_ext; [|apply (G None (fun _ => False)); intros q []]. intros q. tauto. }
  destruct (max_time_step procs) as [dt|]; cbn [least] in H.
  - destruct H as ((l & Il & d & Id & k & N & E) & L). split; [exists l, d, k; auto|]. clear l Il d Id k N E. intros l d k Il Id Hs.
    destruct (Qc_eq_dec (vel d k) 0) as [E|N]; [rewrite E; change (qabs 0%Qc) with 0%Qc; rewrite Qcmult_0_r; assumption|].
    assert (0 < qabs (vel d k))%Qc as Hp.
    { unfold qabs. destruct (qleb 0 (vel d k)) eqn:B.
      - apply qleb_le in B. apply Qcle_lt_or_eq in B. destruct B as [B|B]; [assumption|congruence].
      - apply qleb_gt in B. apply Qcle_lt_or_eq in B. destruct B as [B|B]; [|congruence]. apply Qclt_minus_iff in B. rewrite Qcplus_0_l in B. exact B. }
    specialize (L (size d k / qabs (vel d k))%Qc ltac:(exists l; split; [assumption|]; exists d; split; [assumption|]; exists k; auto)).
    apply (Qcmult_le_compat_r _ _ (qabs (vel d k))) in L; [|apply Qclt_le_weak, Hp]. replace (size d k / qabs (vel d k) * qabs (vel d k))%Qc with (size d k) in L; [exact L|]. field. intros Q. rewrite Q in Hp. discriminate Hp.
  - intros l d k Il Id. destruct (Qc_eq_dec (vel d k) 0) as [E|N]; [assumption|]. exfalso. apply (H (size d k / qabs (vel d k))%Qc). exists l. split; [assumption|]. exists d. split; [assumption|]. exists k. auto.
Qed.

(** ** Nonnegative densities *)
(** the part of the contents of cell c that leaves through one neighbor *)
Definition qpos (a : Qc) : Qc := if qleb 0%Qc a then a else 0%Qc.
Definition leaving (m : mapping) (dt : Qc) (c : Z) (d : fluid) (e : seen fluid) : Qc :=
  match contact_of (get_cell_length_in_indices m c) (get_cell_length_in_indices m (fst (fst e))) (snd (fst e)) with
  | Face k pos => (dt * qpos (if pos then face_speed d (snd e) k else - face_speed d (snd e) k) * qmin (area d k) (area (snd e) k) / volume d)%Qc
  | _ => 0%Qc
  end.
Lemma nn_mul a b : (0 <= a)%Qc -> (0 <= b)%Qc -> (0 <= a * b)%Qc.
Proof. intros A B. rewrite <- (Qcmult_0_l b). apply Qcmult_le_compat_r; assumption. Qed.
Lemma nn_add a b : (0 <= a)%Qc -> (0 <= b)%Qc -> (0 <= a + b)%Qc.
Proof. intros A B. rewrite <- (Qcplus_0_l 0%Qc). apply Qcplus_le_compat; assumption. Qed.
Lemma nn_opp a : (a <= 0)%Qc -> (0 <= - a)%Qc.
Proof. intros A. apply Qcle_minus_iff in A. rewrite Qcplus_0_l in A. exact A. Qed.
Lemma nn_div a b : (0 <= a)%Qc -> (0 < b)%Qc -> (0 <= a / b)%Qc.
Proof.
  intros A B. unfold Qcdiv. apply nn_mul; [assumption|]. destruct (Qclt_le_dec (/ b) 0) as [L|L]; [|assumption]. exfalso.
  assert (b <> 0)%Qc as N by (intros ->; discriminate B). pose proof (nn_mul (- / b) b (nn_opp _ (Qclt_le_weak _ _ L)) (Qclt_le_weak _ _ B)) as Q.
  replace (- / b * b)%Qc with (Qcopp 1%Qc) in Q by (field; assumption). apply Q. reflexivity.
Qed.
Lemma qmin_nn a b : (0 <= a)%Qc -> (0 <= b)%Qc -> (0 <= qmin a b)%Qc. Proof. intros A B. unfold qmin. destruct (qleb a b); assumption. Qed.
Lemma area_nn d k : (forall k, 0 < size d k)%Qc -> (0 <= area d k)%Qc.
Proof. intros S. pose proof (Qclt_le_weak _ _ (S DX)). pose proof (Qclt_le_weak _ _ (S DY)). pose proof (Qclt_le_weak _ _ (S DZ)). destruct k; apply nn_mul; assumption. Qed.
Lemma volume_pos d : (forall k, 0 < size d k)%Qc -> (0 < volume d)%Qc.
Proof.
  intros S. unfold volume. change (0 < size d DX * size d DY * size d DZ)%Qc. assert (forall a b : Qc, 0 < a -> 0 < b -> 0 < a * b)%Qc as P; [|apply P; [apply P|]; apply S].
  intros a b A B. rewrite <- (Qcmult_0_l b). apply Qcmult_lt_compat_r; assumption.
Qed.
Lemma gain_bound m dt c d e : (0 <= dt)%Qc -> (0 <= rho d)%Qc -> (0 <= rho (snd e))%Qc -> (forall k, 0 < size d k)%Qc -> (forall k, 0 < size (snd e) k)%Qc ->
  (0 <= gain m dt c d e + rho d * leaving m dt c d e)%Qc.
Proof.
  intros T A B Sd Se. unfold gain, leaving. destruct (contact_of _ _ _) as [| |k pos]; [rewrite Qcmult_0_r, Qcplus_0_r; apply Qcle_refl..|].
  pose proof (volume_pos d Sd) as V. pose proof (qmin_nn _ _ (area_nn d k Sd) (area_nn (snd e) k Se)) as Ar. unfold flow. set (v := face_speed d (snd e) k). set (ar := qmin (area d k) (area (snd e) k)) in *. set (vo := volume d) in *. clearbody v ar vo.
  unfold Qcdiv. assert (0 <= / vo)%Qc as Iv by (replace (/ vo)%Qc with (1 / vo)%Qc by (unfold Qcdiv; ring); apply nn_div; [discriminate|assumption]). set (iv := (/ vo)%Qc) in *. clearbody iv. clear V vo.
  destruct pos.
  - unfold qpos. destruct (qleb 0 v) eqn:L.
    + replace (- (rho d * dt * v * ar * iv) + rho d * (dt * v * ar * iv))%Qc with 0%Qc by ring. apply Qcle_refl.
    + apply qleb_gt, nn_opp in L. replace (- (rho (snd e) * dt * v * ar * iv) + rho d * (dt * 0 * ar * iv))%Qc with (rho (snd e) * dt * (- v) * ar * iv)%Qc by ring. repeat apply nn_mul; assumption.
  - destruct (qleb 0 v) eqn:L.
    + apply qleb_le in L. assert (qpos (- v) = 0%Qc) as ->. { unfold qpos. destruct (qleb 0 (- v)) eqn:E; [|reflexivity]. apply qleb_le in E. apply Qcle_antisym; [|assumption]. apply Qcopp_le_compat in L. exact L. }
      replace (rho (snd e) * dt * v * ar * iv + rho d * (dt * 0 * ar * iv))%Qc with (rho (snd e) * dt * v * ar * iv)%Qc by ring. repeat apply nn_mul; assumption.
    + apply qleb_gt, nn_opp in L. unfold qpos. apply qleb_le in L. rewrite L. replace (rho d * dt * v * ar * iv + rho d * (dt * - v * ar * iv))%Qc with 0%Qc by ring. apply Qcle_refl.
Qed.
Lemma gains_bound m dt c d l : (0 <= dt)%Qc -> (0 <= rho d)%Qc -> (forall k, 0 < size d k)%Qc -> (forall e, In e l -> (0 <= rho (snd e))%Qc /\ forall k, 0 < size (snd e) k)%Qc ->
  (0 <= qsum (map (gain m dt c d) l) + rho d * qsum (map (leaving m dt c d) l))%Qc.
Proof.
  intros T A Sd. induction l as [|e l IH]; intros H; cbn [map]; [rewrite !qsum_nil, Qcmult_0_r, Qcplus_0_r; apply Qcle_refl|]. rewrite !qsum_cons.
  replace (gain m dt c d e + qsum (map (gain m dt c d) l) + rho d * (leaving m dt c d e + qsum (map (leaving m dt c d) l)))%Qc with ((gain m dt c d e + rho d * leaving m dt c d e) + (qsum (map (gain m dt c d) l) + rho d * qsum (map (leaving m dt c d) l)))%Qc by ring.
  apply nn_add; [|apply IH; intros; apply H; right; assumption]. destruct (H e (or_introl eq_refl)). apply gain_bound; assumption.
Qed.

(** a time step in which no cell loses more than it has leaves no density negative *)
Theorem c75_nonnegative d0 g (Hg : grid_ok g) x dt x' : xreachable d0 g x -> (0 <= dt)%Qc ->
  (forall c d, shows g x c d -> (0 <= rho d)%Qc /\ flux d = 0%Qc /\ forall k, (0 < size d k)%Qc) ->
  (forall c d ns, ProgramProps.sees g x default_neighborhood_id c d ns -> (qsum (map (leaving (g_map g) dt c d) (once ns)) <= 1)%Qc) ->
  exec_step d0 g x (ProgramModel.Compute default_neighborhood_id (advance (g_map g) dt)) x' ->
  forall c d, shows g x' c d -> (0 <= rho d)%Qc /\ flux d = 0%Qc /\ forall k, (0 < size d k)%Qc.
Proof.
  intros R T P Q H c v Sv. pose proof (exec_reachable d0 g x _ x' R H) as R'. destruct (c69_compute d0 g Hg x _ _ x' R H) as (Ex & K). pose proof (rank0 g Hg) as I0.
  pose proof (shows_unique d0 g Hg x' c v R' Sv) as (Ec & ->). rewrite (Ex 0 c I0) in Ec. destruct (K c Ec) as (d & ns & S & Sx). specialize (Q c d ns S). destruct S as (U & l & _ & Sd & _ & F).
  apply (shows_unique d0 g Hg x' c _ R') in Sx. destruct Sx as [_ <-]. destruct (P c d Sd) as (A & Z0 & Sz). unfold advance. cbn [rho flux]. split; [|split; [reflexivity|intros k; destruct k; [apply (Sz DX)|apply (Sz DY)|apply (Sz DZ)]]].
  rewrite Z0, Qcplus_0_r. assert (0 <= qsum (map (gain (g_map g) dt c d) (once ns)) + rho d * qsum (map (leaving (g_map g) dt c d) (once ns)))%Qc as G.
  { apply gains_bound; [assumption..|]. intros e I. apply once_in in I. clear - F I P. induction F as [|k s l ns [Es Ss] F IH]; [destruct I|]. destruct I as [<-|I]; [|apply IH, I]. destruct (P _ _ Ss) as (B & _ & C). auto. }
  set (a := qsum (map (gain (g_map g) dt c d) (once ns))) in *. set (b := qsum (map (leaving (g_map g) dt c d) (once ns))) in *.
  replace (rho d + a)%Qc with ((a + rho d * b) + rho d * (1 + - b))%Qc by ring. apply nn_add; [assumption|]. apply nn_mul; [assumption|]. apply Qcle_minus_iff in Q. exact Q.
Qed.
Print Assumptions c75_nonnegative.
Print Assumptions c75_time_step.
