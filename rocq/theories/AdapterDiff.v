(** C80: the differences that check_for_adaptation collects are what every cell sees itself. *)
From Verif Require Import U64 MapModel MapSpec MapProofs MapFamily MapProps HoodModel MeshModel
  MeshSpec MeshBase HoodProps MeshWalk MeshFind MeshKids MeshItem MeshCheck MeshTo MeshNear
  Sets RefineModel RefineGeo RefineInv RefineSpread RefineMerge RefineFold RefineExec RefineStop RefineNear
  BalanceModel RefineReqs Create Balance History HistProps CommModel CommInv CommProps CommViews ProgramModel ProgramProps AdvectModel AdvectGeo AdvectSum AdvectRegroup AdvectProps AdvectCode AdapterModel.
From Coq Require Import QArith Qcanon Qcabs.
Open Scope Z_scope.

(** ** Numbers *)
Lemma qleb_iff a b : qleb a b = true <-> (a <= b)%Qc.
Proof. unfold qleb. apply Qle_bool_iff. Qed.
Lemma qleb_not a b : qleb a b = false <-> (b < a)%Qc.
Proof. rewrite <- not_true_iff_false, qleb_iff. split; [apply Qcnot_le_lt|apply Qclt_not_le]. Qed.
Lemma qltb_iff a b : qltb a b = true <-> (a < b)%Qc.
Proof. unfold qltb. rewrite negb_true_iff. apply qleb_not. Qed.
Lemma qltb_not a b : qltb a b = false <-> (b <= a)%Qc.
Proof. unfold qltb. rewrite negb_false_iff. apply qleb_iff. Qed.
Lemma qmax_l a b : (a <= qmax a b)%Qc.
Proof. unfold qmax. destruct (qltb a b) eqn:E; [apply Qclt_le_weak, qltb_iff, E|apply Qcle_refl]. Qed.
Lemma qmax_r a b : (b <= qmax a b)%Qc.
Proof. unfold qmax. destruct (qltb a b) eqn:E; [apply Qcle_refl|apply qltb_not, E]. Qed.
Lemma qmax_or a b : qmax a b = a \/ qmax a b = b.
Proof. unfold qmax. destruct (qltb a b); auto. Qed.
Lemma qmin_sym a b : qmin a b = qmin b a.
Proof.
  unfold qmin. destruct (qleb a b) eqn:E, (qleb b a) eqn:F; try reflexivity; [apply qleb_iff in E, F; apply Qcle_antisym; assumption|].
  apply qleb_not in E, F. exfalso. apply (Qclt_not_le _ _ E), Qclt_le_weak, F.
Qed.
Lemma rel_diff_sym thr a b : rel_diff thr a b = rel_diff thr b a.
Proof. unfold rel_diff. rewrite (qmin_sym a b). f_equal. rewrite <- (Qcabs_opp (a - b)). f_equal. ring. Qed.

(** q is the largest of 0 and the numbers of P *)
Definition largest (P : Qc -> Prop) (q : Qc) : Prop := (0 <= q)%Qc /\ (forall r, P r -> (r <= q)%Qc) /\ (q = 0%Qc \/ P q).
Lemma largest_unique P q r : largest P q -> largest P r -> q = r.
Proof.
  intros (A1 & A2 & A3) (B1 & B2 & B3). apply Qcle_antisym.
  - destruct A3 as [->|A3]; [assumption|]. apply B2, A3.
  - destruct B3 as [->|B3]; [assumption|]. apply A2, B3.
Qed.
Lemma largest_ext (P P' : Qc -> Prop) q : (forall r, P r <-> P' r) -> largest P q -> largest P' q.
Proof. intros H (A & B & C). split; [assumption|]. split; [intros r Q; apply B, H, Q|]. rewrite <- H. assumption. Qed.
Lemma largest_more (P P' : Qc -> Prop) q d : (forall r, P' r <-> P r \/ r = d) -> largest P q -> largest P' (qmax d q).
Proof.
  intros H (A & B & C). split; [eapply Qcle_trans; [exact A|apply qmax_r]|]. split.
  - intros r Q. apply H in Q. destruct Q as [Q| ->]; [eapply Qcle_trans; [apply B, Q|apply qmax_r]|apply qmax_l].
  - destruct (qmax_or d q) as [->| ->]; [right; apply H; auto|]. destruct C as [C|C]; [auto|right; apply H; auto].
Qed.
Lemma steepest_largest m thr c d ns : largest (fun r => exists e, In e ns /\ aligned (len_of m c) (len_of m (fst (fst e))) (snd (fst e)) = true /\ r = rel_diff thr (rho d) (rho (snd e))) (steepest m thr c d ns).
Proof.
  unfold steepest. induction ns as [|e ns IH]; cbn [fold_right].
  - split; [apply Qcle_refl|]. split; [intros r (e & [] & _)|auto].
  - change (get_cell_length_in_indices m) with (len_of m) in *. destruct (aligned (len_of m c) (len_of m (fst (fst e))) (snd (fst e))) eqn:E.
    + eapply largest_more; [|exact IH]. intros r. split.
      * intros (e' & [<-|I] & A & Q); [auto|]. left. eauto.
      * intros [(e' & I & A & Q)| ->]; [exists e'; split; [right; assumption|]; auto|exists e; split; [left; reflexivity|]; auto].
    + eapply largest_ext; [|exact IH]. intros r. split; intros (e' & I & A & Q); [exists e'; split; [right; assumption|]; auto|]. destruct I as [<-|I]; [congruence|]. eauto.
Qed.

(** ** Neighbors that count share a face, and count from both sides *)
Lemma aligned_face cl nl o : 0 < cl -> 0 < nl -> aligned cl nl o = true -> exists k pos, contact_of cl nl o = Face k pos.
Proof.
  intros Hc Hn. unfold aligned, level_with. rewrite !orb_true_iff, !andb_true_iff, !orb_true_iff, !Z.eqb_eq. intros H.
  assert (exists k (pos : bool), get o k = (if pos then cl else - nl) /\ forall j, j <> k -> get o j = 0) as (k & pos & A & B).
  { destruct H as [[([A|A] & B & C)|([A|A] & B & C)]|([A|A] & B & C)];
      [exists DX, true|exists DX, false|exists DY, true|exists DY, false|exists DZ, true|exists DZ, false]; (split; [exact A|]); intros [] N; try congruence; assumption. }
  exists k, pos. apply contact_face; [assumption..|]. split; [exact A|]. intros j Nj. rewrite (B j Nj). lia.
Qed.
Lemma aligned_flip cl nl o : aligned nl cl (vneg o) = aligned cl nl o.
Proof.
  apply eq_true_iff_eq. unfold aligned, level_with. rewrite !orb_true_iff, !andb_true_iff, !orb_true_iff, !Z.eqb_eq, !get_vneg. lia.
Qed.

Section Process.
Context (m : mapping) (here : Z -> bool) (thr : Qc) (d : memory) (val : Z -> fluid).
Notation entry := (Z * (Z * idx))%type.
(** the differences that are offered to cell z *)
Definition offers (done : list entry) (z : Z) (r : Qc) : Prop := exists a y o, In (a, (y, o)) done /\ aligned (len_of m a) (len_of m y) o = true /\
  (z = a \/ z = y /\ here y = true) /\ r = rel_diff thr (rho (val a)) (rho (val y)).
Definition right (y : Z) : Prop := exists w, d y = Some w /\ rho w = rho (val y).
Definition upto (done : list entry) (s : diffs) : Prop := forall z, here z = true -> largest (offers done z) (s z).
Lemma compare_ok done s c e : upto done s -> right c -> right (fst e) ->
  exists s', compare_one m here thr d c (Some s) e = Some s' /\ upto (done ++ [(c, e)]) s'.
Proof.
  intros Hs (a & Ea & Ra) (b & Eb & Rb). destruct e as [y o]. cbn [fst snd] in *. unfold compare_one. cbn [fst snd]. change (get_cell_length_in_indices m) with (len_of m).
  assert (forall z r, offers (done ++ [(c, (y, o))]) z r <-> offers done z r \/ (aligned (len_of m c) (len_of m y) o = true /\ (z = c \/ z = y /\ here y = true) /\ r = rel_diff thr (rho (val c)) (rho (val y)))) as Ex.
  { intros z r. unfold offers. split.
    - intros (a' & y' & o' & I & Q). apply in_app_iff in I. destruct I as [I|[E|[]]]; [left; exists a', y', o'; auto|]. injection E as <- <- <-. auto.
    - intros [(a' & y' & o' & I & Q)|Q]; [exists a', y', o'; split; [apply in_app_iff; auto|assumption]|]. exists c, y, o. split; [apply in_app_iff; right; left; reflexivity|assumption]. }
  destruct (aligned (len_of m c) (len_of m y) o) eqn:Al.
  2:{ exists s. split; [reflexivity|]. intros z Hz. eapply largest_ext; [|apply (Hs z Hz)]. intros r. rewrite Ex. intuition discriminate. }
  rewrite Ea, Eb, Ra, Rb. set (q := rel_diff thr (rho (val c)) (rho (val y))) in *. eexists. split; [reflexivity|]. intros z Hz.
  assert (largest (fun r => offers done z r \/ z = c /\ r = q) (raise s c q z)) as L1.
  { unfold raise. destruct (Z.eqb_spec z c) as [->|N].
    - apply (largest_more (offers done c)); [intros r; tauto|apply Hs, Hz].
    - eapply largest_ext; [|apply (Hs z Hz)]. intros r. tauto. }
  destruct (here y) eqn:Hy.
  - unfold raise at 1. destruct (Z.eqb_spec z y) as [->|N].
    + eapply largest_more; [|exact L1]. intros r. rewrite Ex. tauto.
    + eapply largest_ext; [|exact L1]. intros r. rewrite Ex. tauto.
  - eapply largest_ext; [|exact L1]. intros r. rewrite Ex. intuition discriminate.
Qed.
Lemma compares_ok c l : forall done s, upto done s -> right c -> (forall e, In e l -> right (fst e)) ->
  exists s', fold_left (compare_one m here thr d c) l (Some s) = Some s' /\ upto (done ++ map (pair c) l) s'.
Proof.
  induction l as [|e l IH]; intros done s Hs Rc Hl; cbn [fold_left map]; [exists s; rewrite app_nil_r; auto|].
  destruct (compare_ok done s c e Hs Rc (Hl e (or_introl eq_refl))) as (s1 & E1 & H1). rewrite E1. destruct (IH _ s1 H1 Rc ltac:(intros e' I; apply Hl; right; assumption)) as (s2 & E2 & H2). exists s2. split; [assumption|]. rewrite <- app_assoc in H2. exact H2.
Qed.
Lemma all_ok (v : views) l : forall done s, upto done s -> (forall i, In i l -> right (i_id i)) -> (forall i e, In i l -> In e (view_of v i) -> right (fst e)) ->
  exists s', fold_left (fun s i => fold_left (compare_one m here thr d (i_id i)) (view_of v i) s) l (Some s) = Some s' /\ upto (done ++ met v l) s'.
Proof.
  unfold met. induction l as [|i l IH]; intros done s Hs Hi He; cbn [fold_left flat_map]; [exists s; rewrite app_nil_r; auto|].
  destruct (compares_ok (i_id i) (view_of v i) done s Hs (Hi i (or_introl eq_refl)) (fun e I => He i e (or_introl eq_refl) I)) as (s1 & E1 & H1). rewrite E1.
  destruct (IH _ s1 H1 (fun j J => Hi j (or_intror J)) (fun j e J K => He j e (or_intror J) K)) as (s2 & E2 & H2). exists s2. split; [assumption|]. rewrite <- app_assoc in H2. exact H2.
Qed.
End Process.

Section Code.
Context (d0 : fluid) (g : grid) (Hg : grid_ok g).
Notation m := (g_map g).
Notation t := (g_topo g).
Notation state := (xstate (D := fluid)).
Notation xreachable := (xreachable d0 g).
Notation did := default_neighborhood_id.
Notation exists0 x := (exists_on (x_st x) 0).
(** Process p works with its own data and with copies of its remote neighbors that have the density of the
    owner's data.  Then no null pointer is used, and max_diff of every own cell is the largest difference to the
    neighbors that count as seen from the cell itself: what is added from the side of other cells changes nothing. *)
Theorem c80_differences x p : xreachable x -> In p (ranks g) ->
  exists v, iterators g x did p = Done v /\ forall thr d old,
    (forall c, owns x p p c -> exists w u, d c = Some w /\ shows g x c u /\ rho w = rho u) ->
    (forall c q, needs g (g_hood g) x p q c -> exists w u, d c = Some w /\ shows g x c u /\ rho w = rho u) ->
    exists s, differences m (fun c => has c (s_data (p_store (x_st x p)))) thr d v old = Some s /\
      forall c u ns, owns x p p c -> ProgramProps.sees g x did c u ns -> s c = steepest m thr c u ns.
Proof.
  intros R Ip. assert (hood_at g (x_hoods x) did = Some (g_hood g)) as EU by (unfold hood_at; rewrite Z.eqb_refl; reflexivity).
  destruct (c38_cells d0 g Hg x did (g_hood g) p R EU Ip) as (v & E & N & _ & _ & Loc & _ & S1 & _ & A). exists v. split; [assumption|]. intros thr d old Hown Hcopy.
  destruct (xreachable_inv d0 g Hg x R) as (own & Hx). destruct (mesh_at d0 g Hg x R) as (Hmesh & _). pose proof Hmesh as (Hwf & Hn & Ti & _).
  set (here := fun c => has c (s_data (p_store (x_st x p)))). set (val := value d0 x).
  assert (forall c, exists_on (x_st x) p c = exists0 x c) as Ex.
  { intros c. rewrite (viewx g own _ p c (proj1 Hx) Ip), (viewx g own _ 0 c (proj1 Hx) (HistProps.rank0 g Hg)). reflexivity. }
  assert (forall c, here c = true <-> owns x p p c) as Hh.
  { intros c. unfold here, owns. rewrite (xview g own x p c Hx Ip). pose proof Hx as (((_ & Hr) & _) & _). apply (proj2 (proj2 (proj2 (proj1 (Hr p Ip))))). }
  assert (forall c, here c = true -> exists0 x c = true) as Hex. { intros c Q. apply Hh in Q. rewrite <- Ex. unfold exists_on. unfold owns in Q. rewrite Q. reflexivity. }
  assert (forall c u, shows g x c u -> u = val c) as Sv by (intros c u Q; apply (shows_unique d0 g Hg x c u R Q)).
  assert (forall i, In i (view_local v) -> forall y o, In (y, o) (view_of v i) <-> exists0 x y = true /\ exists h, In h (g_hood g) /\ nbr m t (i_id i) h y o) as Hof.
  { intros i I y o. assert (In i (view_cells v)) as J by (rewrite S1; apply in_app_iff; auto). destruct (A i J) as (_ & Q & _). rewrite Q, Ex. reflexivity. }
  assert (forall i, In i (view_local v) -> here (i_id i) = true) as Hloc by (intros i I; apply Hh, Loc, in_map, I).
  assert (forall c, here c = true -> right d val c) as Ro.
  { intros c Hc. destruct (Hown c (proj1 (Hh c) Hc)) as (w & u & E1 & E2 & E3). exists w. rewrite <- (Sv c u E2). auto. }
  unfold differences. fold here.
  destruct (all_ok m here thr d val v (view_local v) [] (fun c => if mem c (map i_id (view_local v)) then 0%Qc else old c)) as (s & Es & Hs).
  { intros z Hz. assert (mem z (map i_id (view_local v)) = true) as -> by (apply mem_In, Loc, Hh, Hz). split; [apply Qcle_refl|]. split; [|auto]. intros r (a & y & o & [] & _). }
  { intros i I. apply Ro, Hloc, I. }
  { intros i [y o] I J. cbn [fst]. apply (Hof i I) in J. destruct J as (Ey & h & Ih & Nb). destruct (here y) eqn:Hy; [apply Ro, Hy|].
    rewrite <- Ex in Ey. unfold exists_on in Ey. destruct (owner (x_st x) p y) as [q|] eqn:Oy; [|discriminate]. assert (q <> p) as Nq by (intros ->; apply Hh in Oy; congruence).
    destruct (Hcopy y q) as (w & u & E1 & E2 & E3).
    - split; [assumption|]. split; [assumption|]. exists (i_id i). split; [apply Hh, Hloc; auto|]. exists h, o. auto.
    - exists w. rewrite <- (Sv y u E2). auto. }
  exists s. split; [exact Es|]. intros c u ns Oc (U & l & EU' & Su & El & F). rewrite EU in EU'. injection EU' as <-. rewrite (Sv c u Su).
  assert (ns = map (of_val val) l) as ->.
  { clear - F Sv. induction F as [|e n l ns [Ee Sn] F IH]; [reflexivity|]. cbn [map]. rewrite <- IH. f_equal. destruct n as [e' w]. cbn [fst snd] in *. subst e'. rewrite (Sv _ _ Sn). reflexivity. }
  pose proof (proj2 (Hh c) Oc) as Hc. destruct (neighbors_of_in m t (g_len g) (exists0 x) c (g_hood g) Hmesh (Hex c Hc) (fun h I => I)) as (l' & El' & P). rewrite El in El'. injection El' as <-.
  assert (forall c y o, In (c, (y, o)) (met v (view_local v)) <-> here c = true /\ exists0 x y = true /\ exists h, In h (g_hood g) /\ nbr m t c h y o) as Met.
  { intros a y o. unfold met. rewrite in_flat_map. split.
    - intros (i & I & J). apply in_map_iff in J. destruct J as (e & Q & J). injection Q as <- ->. apply (Hof i I) in J. auto.
    - intros (Ha & J). apply Hh, Loc, in_map_iff in Ha. destruct Ha as (i & <- & I). exists i. split; [assumption|]. apply in_map, (Hof i I), J. }
  cbn [app] in Hs. apply (largest_unique (offers m here thr val (met v (view_local v)) c)); [apply Hs, Hc|]. eapply largest_ext; [|apply steepest_largest]. intros r. cbv beta. split.
  - intros (e & I & Al & ->). apply in_map_iff in I. destruct I as ([y o] & <- & I). unfold of_val in *. cbn [fst snd] in *. exists c, y, o. split; [|auto]. apply Met. apply P in I. auto.
  - intros (a & y & o & I & Al & Z & ->). apply Met in I. destruct I as (Ha & Ey & Nb). destruct Z as [->|[-> _]].
    + exists (of_val val (y, o)). split; [apply in_map, P; auto|]. unfold of_val. cbn [fst snd]. auto.
    + exists (of_val val (a, vneg o)). destruct (aligned_face (len_of m a) (len_of m y) o) as (k & pos & C); [apply (cell_len_pos m Hwf), (leaf_valid m _ Ti), Hex, Ha|apply (cell_len_pos m Hwf), (leaf_valid m _ Ti), Ey|assumption|].
      destruct (face_both m Hwf t (exists0 x) Ti (g_hood g) a y o k pos (default_has_faces (g_len g) Hn) (Hex a Ha) Ey Nb C) as (Nb' & _). split; [apply in_map, P; split; [apply Hex, Ha|exact Nb']|]. unfold of_val. cbn [fst snd]. split; [rewrite aligned_flip; assumption|apply rel_diff_sym].
Qed.
End Code.
Print Assumptions c80_differences.
