(** C75: what calculate_fluxes and apply_fluxes do on each process is what [advance] says for each cell. *)
From Verif Require Import U64 MapModel MapSpec MapProofs MapFamily MapProps HoodModel MeshModel
  MeshSpec MeshBase HoodProps MeshWalk MeshFind MeshKids MeshItem MeshCheck MeshTo MeshNear
  Sets RefineModel RefineGeo RefineInv RefineSpread RefineMerge RefineFold RefineExec RefineStop RefineNear
  BalanceModel RefineReqs Create Balance History HistProps CommModel CommInv CommProps CommViews ProgramModel ProgramProps AdvectModel AdvectGeo AdvectSum AdvectRegroup AdvectProps.
From Coq Require Import QArith Qcanon Permutation.
Open Scope Z_scope.

(** equal except for the flux, which is not transferred *)
Definition alike (a b : fluid) : Prop := rho a = rho b /\ (forall k, vel a k = vel b k) /\ forall k, size a k = size b k.
Lemma alike_refl a : alike a a. Proof. unfold alike. auto. Qed.
Lemma alike_add a b q : alike a b -> alike (add_flux a q) b.
Proof. intros (A & B & C). split; [exact A|]. split; [intros k; destruct k; [apply (B DX)|apply (B DY)|apply (B DZ)]|]. intros k; destruct k; [apply (C DX)|apply (C DY)|apply (C DZ)]. Qed.
Lemma alike_volume a b : alike a b -> volume a = volume b.
Proof. intros (_ & _ & C). unfold volume. rewrite (C DX : lx a = lx b), (C DY : ly a = ly b), (C DZ : lz a = lz b). reflexivity. Qed.
Lemma alike_area a b k : alike a b -> area a k = area b k.
Proof. intros (_ & _ & C). unfold area. rewrite (C DX : lx a = lx b), (C DY : ly a = ly b), (C DZ : lz a = lz b). reflexivity. Qed.
Lemma alike_flow dt a b a' b' k pos : alike a a' -> alike b b' -> flow dt a b k pos = flow dt a' b' k pos.
Proof.
  intros A B. unfold flow. assert (face_speed a b k = face_speed a' b' k) as -> by (unfold face_speed; destruct A as (_ & A1 & A2), B as (_ & B1 & B2); rewrite !A1, !A2, !B1, !B2; reflexivity).
  rewrite (alike_area a a' k A), (alike_area b b' k B). destruct A as (A & _), B as (B & _). destruct pos, (qleb 0 _); rewrite ?A, ?B; reflexivity.
Qed.

Lemma apply_ok l : forall s : memory, NoDup (map i_id l) -> (forall i, In i l -> exists d, s (i_id i) = Some d) ->
  exists s', apply_all l (Some s) = Some s' /\ (forall c, In c (map i_id l) -> s' c = option_map apply_flux (s c)) /\ forall c, ~ In c (map i_id l) -> s' c = s c.
Proof.
  unfold apply_all. induction l as [|i l IH]; intros s N H; cbn [fold_left map]; [exists s; split; [reflexivity|]; split; [intros c []|auto]|]. inversion N as [|? ? N1 N2]; subst.
  destruct (H i (or_introl eq_refl)) as (d & Ed). rewrite Ed. destruct (IH (put s (i_id i) (apply_flux d)) N2) as (s' & E & A & B).
  - intros j J. unfold put. destruct (Z.eqb_spec (i_id j) (i_id i)); [eauto|]. apply H. right. assumption.
  - exists s'. split; [assumption|]. split.
    + intros c [<-|I]; [rewrite B by assumption; unfold put; rewrite Z.eqb_refl, Ed; reflexivity|]. rewrite A by assumption. unfold put. destruct (Z.eqb_spec c (i_id i)) as [->|_]; [contradiction|reflexivity].
    + intros c Nc. cbn [In] in Nc. rewrite B by tauto. unfold put. destruct (Z.eqb_spec c (i_id i)) as [->|_]; [tauto|reflexivity].
Qed.

Section Process.
Context (m : mapping) (Hwf : wf m) (t : topo) (ex : Z -> bool) (Htile : tiling m ex) (U : hood) (HU : has_faces U) (n : Z) (Hn : 0 <= n) (HUn : forall h, In h U -> In h (default_hood_of n)).
Context (dt : Qc) (val : Z -> fluid) (here : Z -> bool) (Hhere : forall c, here c = true -> ex c = true).
Notation entry := (Z * (Z * idx))%type.
Notation is_face := (is_face m).
Definition gained (e : entry) : Qc := gain m dt (fst e) (val (fst e)) (of_val val (snd e)).
Definition positive (e : entry) : bool := match contact_of (len_of m (fst e)) (len_of m (fst (snd e))) (snd (snd e)) with Face _ pos => pos | _ => false end.
(** the entries that the code does not skip *)
Definition active (e : entry) : bool := is_face e && (negb (here (fst (snd e))) || positive e).
Definition share (c : Z) (e : entry) : Qc := if fst e =? c then gained e else 0%Qc.
Definition adds (c : Z) (e : entry) : Qc := if active e then (share c e + share c (turn e))%Qc else 0%Qc.
(** entries of cell a *)
Definition entry_ok (e : entry) : Prop := here (fst e) = true /\ ex (fst (snd e)) = true /\ exists h, In h U /\ nbr m t (fst e) h (fst (snd e)) (snd (snd e)).
Definition readable (s : memory) (y : Z) : Prop := exists d, s y = Some d /\ alike d (val y).
Definition known (done : list entry) (s : memory) : Prop := forall c, here c = true ->
  exists d, s c = Some d /\ alike d (val c) /\ flux d = (flux (val c) + qsum (map (adds c) done))%Qc.
Lemma known_readable done s c : known done s -> here c = true -> readable s c.
Proof. intros K E. destruct (K c E) as (d & A & B & _). exists d. auto. Qed.
Lemma known_skip done s e : known done s -> active e = false -> known (done ++ [e]) s.
Proof.
  intros K A c E. destruct (K c E) as (d & A1 & A2 & A3). exists d. split; [assumption|]. split; [assumption|]. rewrite map_app, qsum_app. cbn [map]. rewrite qsum_cons, qsum_nil. unfold adds at 2. rewrite A, A3. ring.
Qed.
Lemma gained_turn e k pos : contact_of (len_of m (fst e)) (len_of m (fst (snd e))) (snd (snd e)) = Face k pos -> entry_ok e ->
  gained e = (if pos then - (flow dt (val (fst e)) (val (fst (snd e))) k pos / volume (val (fst e))) else flow dt (val (fst e)) (val (fst (snd e))) k pos / volume (val (fst e)))%Qc /\
  gained (turn e) = (if pos then flow dt (val (fst e)) (val (fst (snd e))) k pos / volume (val (fst (snd e))) else - (flow dt (val (fst e)) (val (fst (snd e))) k pos / volume (val (fst (snd e)))))%Qc.
Proof.
  intros C (Ec & Ey & N). destruct e as [c [y o]]. cbn [fst snd] in *. destruct (face_both m Hwf t ex Htile U c y o k pos HU (Hhere c Ec) Ey N C) as (_ & C').
  unfold gained, turn, gain, of_val. cbn [fst snd]. change (get_cell_length_in_indices m) with (len_of m). rewrite C, C'. split; [reflexivity|]. rewrite (flow_flip dt (val y) (val c)), negb_involutive. destruct pos; reflexivity.
Qed.
Lemma meet_ok done s e : known done s -> entry_ok e -> readable s (fst (snd e)) ->
  exists s', meet m here dt (fst e) (Some s) (snd e) = Some s' /\ known (done ++ [e]) s' /\ forall y, readable s y -> readable s' y.
Proof.
  intros K Oe Rd. pose proof Oe as (Ec & Ey & N). destruct e as [c [y o]]. cbn [fst snd] in *. unfold meet. cbn [fst snd]. change (get_cell_length_in_indices m) with (len_of m).
  pose proof (never_inside m Hwf t ex Htile U c y o n Hn HUn (Hhere c Ec) Ey N) as NI.
  destruct (contact_of (len_of m c) (len_of m y) o) as [| |k pos] eqn:C; [|congruence|].
  { exists s. split; [reflexivity|]. split; [|auto]. apply known_skip; [assumption|]. unfold active, AdvectSum.is_face. cbn [fst snd]. rewrite C. reflexivity. }
  destruct (here y && negb pos) eqn:Sk.
  { exists s. split; [reflexivity|]. split; [|auto]. apply known_skip; [assumption|]. unfold active, AdvectSum.is_face, positive. cbn [fst snd]. rewrite C. apply andb_true_iff in Sk. destruct Sk as [-> Sk]. apply negb_true_iff in Sk. rewrite Sk. reflexivity. }
  assert (active (c, (y, o)) = true) as Ac. { unfold active, AdvectSum.is_face, positive. cbn [fst snd]. rewrite C. destruct (here y), pos; cbn in *; congruence. }
  destruct (gained_turn (c, (y, o)) k pos C Oe) as [G1 G2]. cbn [fst snd] in G1, G2.
  destruct (K c Ec) as (a & Ea & Aa & Fa). destruct Rd as (b & Eb & Ab). rewrite Ea, Eb. rewrite (alike_flow dt a b _ _ k pos Aa Ab), (alike_volume a _ Aa), (alike_volume b _ Ab).
  rewrite <- G1, <- G2. clear G1 G2. unfold add_to at 1. rewrite Ea. unfold add_to. set (s1 := put s c _).
  assert (forall z, readable s z -> readable s1 z) as Rs1.
  { intros z (d & Ez & Az). unfold s1, put, readable. destruct (Z.eqb_spec z c) as [->|_]; [|eauto]. eexists. split; [reflexivity|]. apply alike_add. assumption. }
  destruct (Rs1 y) as (b1 & Eb1 & Ab1); [exists b; auto|]. rewrite Eb1. eexists. split; [reflexivity|]. split.
  - intros z Ez. destruct (K z Ez) as (d & Ed & Ad & Fd). rewrite map_app, qsum_app. cbn [map]. rewrite qsum_cons, qsum_nil. unfold adds at 2. rewrite Ac. unfold share, turn. cbn [fst snd]. unfold put.
    destruct (Z.eqb_spec z y) as [->|Ny].
    + eexists. split; [reflexivity|]. split; [apply alike_add; assumption|]. cbn [add_flux flux]. rewrite (Z.eqb_refl y). unfold s1, put in Eb1. destruct (Z.eqb_spec y c) as [->|Nc].
      * injection Eb1 as <-. cbn [add_flux flux]. rewrite Z.eqb_refl. rewrite Ed in Ea. injection Ea as ->. rewrite Fd. unfold gained, turn. cbn [fst snd]. ring.
      * destruct (Z.eqb_spec c y) as [E|_]; [congruence|]. rewrite Ed in Eb1. injection Eb1 as ->. rewrite Fd. unfold gained, turn. cbn [fst snd]. ring.
    + destruct (Z.eqb_spec y z) as [E|_]; [congruence|]. unfold s1, put. destruct (Z.eqb_spec z c) as [->|Nc].
      * eexists. split; [reflexivity|]. split; [apply alike_add; assumption|]. rewrite Z.eqb_refl. cbn [add_flux flux]. rewrite Ed in Ea. injection Ea as ->. rewrite Fd. ring.
      * destruct (Z.eqb_spec c z) as [E|_]; [congruence|]. exists d. split; [assumption|]. split; [assumption|]. rewrite Fd. ring.
  - intros z Rz. destruct (Rs1 z Rz) as (d & Ed & Ad). unfold readable, put. destruct (Z.eqb_spec z y) as [->|_]; [|eauto]. eexists. split; [reflexivity|]. rewrite Ed in Eb1. injection Eb1 as <-. apply alike_add. assumption.
Qed.
Lemma meets_ok c l : forall done s, known done s -> (forall e, In e l -> entry_ok (c, e) /\ readable s (fst e)) ->
  exists s', fold_left (meet m here dt c) l (Some s) = Some s' /\ known (done ++ map (pair c) l) s' /\ forall y, readable s y -> readable s' y.
Proof.
  induction l as [|e l IH]; intros done s K H; cbn [fold_left map].
  - exists s. rewrite app_nil_r. auto.
  - destruct (H e (or_introl eq_refl)) as [O Rd]. destruct (meet_ok done s (c, e) K O Rd) as (s1 & E1 & K1 & R1). cbn [fst snd] in E1. rewrite E1. destruct (IH _ s1 K1) as (s2 & E2 & K2 & R2).
    + intros e' I. destruct (H e' (or_intror I)) as [O' Rd']. auto.
    + exists s2. split; [assumption|]. rewrite <- app_assoc in K2. cbn [app] in K2. auto.
Qed.
Context (v : views).
Definition met (l : list cell_item) : list entry := flat_map (fun i => map (pair (i_id i)) (view_of v i)) l.
Lemma calculate_ok l : forall done s, known done s -> (forall i e, In i l -> In e (view_of v i) -> entry_ok (i_id i, e) /\ readable s (fst e)) ->
  exists s', calculate m here dt v l (Some s) = Some s' /\ known (done ++ met l) s' /\ forall y, readable s y -> readable s' y.
Proof.
  unfold calculate, met. induction l as [|i l IH]; intros done s K H; cbn [fold_left flat_map].
  - exists s. rewrite app_nil_r. auto.
  - destruct (meets_ok (i_id i) (view_of v i) done s K) as (s1 & E1 & K1 & R1); [intros e I; apply H; [left; reflexivity|assumption]|]. rewrite E1. destruct (IH _ s1 K1) as (s2 & E2 & K2 & R2).
    + intros i' e I J. destruct (H i' e (or_intror I) J). auto.
    + exists s2. split; [assumption|]. rewrite <- app_assoc in K2. auto.
Qed.
(** every face of an own cell is added exactly once *)
Context (items : list cell_item) (Nit : NoDup (map i_id items)) (Hit : forall c, In c (map i_id items) <-> here c = true).
Context (Hof : forall i, In i items -> NoDup (view_of v i) /\ forall y o, In (y, o) (view_of v i) <-> ex y = true /\ exists h, In h U /\ nbr m t (i_id i) h y o).
Lemma met_in c y o : In (c, (y, o)) (met items) <-> here c = true /\ ex y = true /\ exists h, In h U /\ nbr m t c h y o.
Proof.
  unfold met. rewrite in_flat_map. split.
  - intros (i & I & J). apply in_map_iff in J. destruct J as (e & Q & J). injection Q as <- ->. apply (proj2 (Hof i I)) in J. split; [apply Hit, in_map, I|assumption].
  - intros (Ec & J). apply Hit, in_map_iff in Ec. destruct Ec as (i & <- & I). exists i. split; [assumption|]. apply in_map, (proj2 (Hof i I)), J.
Qed.
Lemma met_nodup : NoDup (met items).
Proof.
  unfold met. apply NoDup_flat.
  - clear - Nit. induction items as [|i l IH]; [constructor|]. inversion Nit as [|? ? N1 N2]; subst. constructor; [|auto]. intros I. apply N1, in_map, I.
  - intros i I. apply FinFun.Injective_map_NoDup; [intros a b Q; injection Q; auto|apply Hof, I].
  - intros i j e I J A B. apply in_map_iff in A, B. destruct A as (? & <- & _), B as (? & Q & _). injection Q as Q _. clear - Nit I J Q. induction items as [|k l IH]; [destruct I|]. inversion Nit as [|? ? N1 N2]; subst. destruct I as [<-|I], J as [<-|J]; auto.
    + exfalso. apply N1. rewrite <- Q. apply in_map, J.
    + exfalso. apply N1. rewrite Q. apply in_map, I.
Qed.
Lemma turn_face' e k pos : In e (met items) -> contact_of (len_of m (fst e)) (len_of m (fst (snd e))) (snd (snd e)) = Face k pos ->
  contact_of (len_of m (fst (snd e))) (len_of m (fst e)) (vneg (snd (snd e))) = Face k (negb pos) /\ (here (fst (snd e)) = true -> In (turn e) (met items)).
Proof.
  intros I C. destruct e as [c [y o]]. apply met_in in I. destruct I as (Ec & Ey & N). cbn [fst snd] in *. destruct (face_both m Hwf t ex Htile U c y o k pos HU (Hhere c Ec) Ey N C) as (N' & C'). split; [assumption|].
  intros Hy. apply met_in. auto.
Qed.
Lemma active_in e : In e (filter active (met items)) <-> In e (met items) /\ is_face e = true /\ (here (fst (snd e)) = false \/ positive e = true).
Proof. rewrite filter_In. unfold active. rewrite andb_true_iff, orb_true_iff, negb_true_iff. tauto. Qed.
Lemma faces_once c E : here c = true -> NoDup E -> (forall y o, In (y, o) E <-> ex y = true /\ exists h, In h U /\ nbr m t c h y o) ->
  Permutation (filter (fun e => fst e =? c) (filter active (met items)) ++ filter (fun e => fst e =? c) (map turn (filter active (met items)))) (filter is_face (map (pair c) E)).
Proof.
  intros Ec NE HE. apply NoDup_Permutation.
  - assert (forall p q : list entry, NoDup p -> NoDup q -> (forall b, In b p -> ~ In b q) -> NoDup (p ++ q)) as App.
    { clear. intros p q Np Nq H. induction p as [|b p IH]; [assumption|]. inversion Np; subst. cbn [app]. constructor; [rewrite in_app_iff; intros [I|I]; [contradiction|exact (H b (or_introl eq_refl) I)]|]. apply IH; [assumption|]. intros z I. apply H. right. assumption. }
    apply App; [apply NoDup_filter, NoDup_filter, met_nodup|apply NoDup_filter, FinFun.Injective_map_NoDup; [|apply NoDup_filter, met_nodup]; intros a b Q; rewrite <- (turn_turn a), Q; apply turn_turn|].
    intros e I J. apply filter_In in I, J. destruct I as [I F], J as [J _]. apply in_map_iff in J. destruct J as (e' & <- & J). apply active_in in I, J. destruct I as (I & Fe & P), J as (J & Fe' & P').
    destruct e' as [a [y o]]. unfold turn in *. cbn [fst snd] in *. unfold AdvectSum.is_face in Fe'. cbn [fst snd] in Fe'. destruct (contact_of (len_of m a) (len_of m y) o) as [| |k pos] eqn:C; try discriminate Fe'.
    destruct (turn_face' (a, (y, o)) k pos J C) as [C' _]. cbn [fst snd] in C'. pose proof J as J'. apply met_in in J'. destruct J' as (Ha & _). pose proof I as I'. apply met_in in I'. destruct I' as (Hy & _).
    unfold positive in P, P'. cbn [fst snd] in P, P'. rewrite C in P'. rewrite C' in P. destruct P as [P|P]; [congruence|]. destruct P' as [P'|P']; [congruence|]. rewrite P' in P. discriminate.
  - apply NoDup_filter, FinFun.Injective_map_NoDup; [intros a b Q; injection Q; auto|assumption].
  - intros [a [y o]]. rewrite in_app_iff, !filter_In, !in_map_iff. cbn [fst]. rewrite Z.eqb_eq. split.
    + intros [((I & A) & ->)|((e & Q & I) & ->)].
      * split; [|unfold active in A; apply andb_true_iff in A; apply A]. exists (y, o). split; [reflexivity|]. apply HE. apply met_in in I. tauto.
      * apply active_in in I. destruct I as (I & F & _). destruct e as [b [z w]]. unfold turn in Q. cbn [fst snd] in Q. injection Q as -> -> <-. unfold AdvectSum.is_face in F. cbn [fst snd] in F. destruct (contact_of (len_of m y) (len_of m c) w) as [| |k pos] eqn:C; try discriminate F.
        destruct (turn_face' (y, (c, w)) k pos I C) as [C' J]. cbn [fst snd] in C', J. specialize (J Ec). unfold turn in J. cbn [fst snd] in J. split; [|unfold AdvectSum.is_face; cbn [fst snd]; rewrite C'; reflexivity]. exists (y, vneg w). split; [reflexivity|]. apply HE. apply met_in in J. tauto.
    + intros ((e & Q & I) & F). injection Q as <- ->. apply HE in I. assert (In (c, (y, o)) (met items)) as M by (apply met_in; tauto).
      unfold AdvectSum.is_face in F. cbn [fst snd] in F. destruct (contact_of (len_of m c) (len_of m y) o) as [| |k pos] eqn:C; try discriminate F. clear F. destruct (turn_face' (c, (y, o)) k pos M C) as [C' J]. cbn [fst snd] in C', J.
      destruct (active (c, (y, o))) eqn:A; [left; auto|]. right. unfold active, AdvectSum.is_face, positive in A. cbn [fst snd] in A. rewrite C in A. cbn [andb] in A. apply orb_false_iff in A. destruct A as [A ->]. apply negb_false_iff in A. specialize (J A).
      split; [|reflexivity]. exists (turn (c, (y, o))). split; [apply turn_turn|]. apply active_in. split; [assumption|]. unfold AdvectSum.is_face, positive, turn. cbn [fst snd]. rewrite C'. auto.
Qed.
Lemma all_added c E : here c = true -> NoDup E -> (forall y o, In (y, o) E <-> ex y = true /\ exists h, In h U /\ nbr m t c h y o) ->
  qsum (map (adds c) (met items)) = qsum (map (gain m dt c (val c)) (map (of_val val) E)).
Proof.
  intros Ec NE HE.
  assert (forall l : list entry, qsum (map (share c) l) = qsum (map gained (filter (fun e => fst e =? c) l))) as Sh.
  { intros l. transitivity (qsum (map (share c) (filter (fun e => fst e =? c) l))).
    - symmetry. apply qsum_filter. intros e _ Q. unfold share. rewrite Q. reflexivity.
    - f_equal. apply map_ext_in. intros e I. apply filter_In in I. unfold share. rewrite (proj2 I). reflexivity. }
  transitivity (qsum (map (adds c) (filter active (met items)))); [symmetry; apply qsum_filter; intros e _ Q; unfold adds; rewrite Q; reflexivity|].
  transitivity (qsum (map (fun e => share c e + share c (turn e))%Qc (filter active (met items)))).
  { f_equal. apply map_ext_in. intros e I. apply filter_In in I. unfold adds. rewrite (proj2 I). reflexivity. }
  rewrite qsum_add. rewrite <- (map_map turn (share c)). rewrite !Sh, <- qsum_app, <- map_app. rewrite (qsum_perm _ _ (Permutation_map gained (faces_once c E Ec NE HE))).
  rewrite qsum_filter.
  - rewrite !map_map. reflexivity.
  - intros e _ F. unfold gained, gain, of_val. cbn [fst snd]. unfold AdvectSum.is_face in F. change (get_cell_length_in_indices m) with (len_of m). destruct (contact_of _ _ _); try discriminate F; reflexivity.
Qed.
End Process.

Section Code.
Context (d0 : fluid) (g : grid) (Hg : grid_ok g).
Notation m := (g_map g).
Notation t := (g_topo g).
Notation state := (xstate (D := fluid)).
Notation xreachable := (xreachable d0 g).
Notation did := default_neighborhood_id.
Notation exists0 x := (exists_on (x_st x) 0).
(** Process p works with its own data and with copies of its remote neighbors that have the density, velocity and
    lengths of the owner's data when outer cells are solved; copies may contain anything before that and their flux is never used.
    Then neither a null pointer is used nor abort() called and every own cell gets the value of [advance]. *)
Theorem c75_code x p : xreachable x -> In p (ranks g) ->
  exists v, iterators g x did p = Done v /\ forall dt old new,
    (forall c, owns x p p c -> exists d, shows g x c d /\ old c = Some d) ->
    (forall c q, needs g (g_hood g) x p q c -> exists w d, new c = Some w /\ shows g x c d /\ alike w d) ->
    exists s, time_step m (fun c => has c (s_data (p_store (x_st x p)))) dt v new old = Some s /\
      forall c d ns, owns x p p c -> ProgramProps.sees g x did c d ns -> s c = Some (advance m dt c d ns).
Proof.
  intros R Ip. assert (hood_at g (x_hoods x) did = Some (g_hood g)) as EU by (unfold hood_at; rewrite Z.eqb_refl; reflexivity).
  destruct (c38_cells d0 g Hg x did (g_hood g) p R EU Ip) as (v & E & N & In_ & Out & Loc & Rem & S1 & S2 & A). exists v. split; [assumption|]. intros dt old new Hold Hnew.
  destruct (xreachable_inv d0 g Hg x R) as (own & Hx). destruct (mesh_at d0 g Hg x R) as (Hmesh & _). pose proof Hmesh as (Hwf & Hn & Ti & _).
  set (here := fun c => has c (s_data (p_store (x_st x p)))). set (val := value d0 x).
  assert (forall c, exists_on (x_st x) p c = exists0 x c) as Ex.
  { intros c. rewrite (viewx g own _ p c (proj1 Hx) Ip), (viewx g own _ 0 c (proj1 Hx) (HistProps.rank0 g Hg)). reflexivity. }
  assert (forall c, here c = true <-> owns x p p c) as Hh.
  { intros c. unfold here, owns. rewrite (xview g own x p c Hx Ip). pose proof Hx as (((_ & Hr) & _) & _). apply (proj2 (proj2 (proj2 (proj1 (Hr p Ip))))). }
  assert (forall c, here c = true -> exists0 x c = true) as Hex. { intros c Q. apply Hh in Q. rewrite <- Ex. unfold exists_on. unfold owns in Q. rewrite Q. reflexivity. }
  assert (forall c d, shows g x c d -> d = val c) as Sv by (intros c d Q; apply (shows_unique d0 g Hg x c d R Q)).
  assert (NoDup (map i_id (view_local v))) as Nl. { rewrite S1, map_app in N. clear - N. induction (map i_id (view_local v)) as [|a l IH]; [constructor|]. cbn [app] in N. inversion N as [|? ? N1 N2]; subst. constructor; [|auto]. intros I. apply N1, in_app_iff. auto. }
  assert (forall i, In i (view_local v) -> NoDup (view_of v i) /\ forall y o, In (y, o) (view_of v i) <-> exists0 x y = true /\ exists h, In h (g_hood g) /\ nbr m t (i_id i) h y o) as Hof.
  { intros i I. assert (In i (view_cells v)) as J by (rewrite S1; apply in_app_iff; auto). destruct (A i J) as (N1 & Q & _). split.
    - unfold view_of, view_all, range in *. replace (i_first i + i_of i + i_both i + i_to i - i_first i)%nat with (i_of i + i_both i + i_to i)%nat in N1 by lia. replace (i_first i + i_of i + i_both i - i_first i)%nat with (i_of i + i_both i)%nat by lia.
      replace (i_of i + i_both i)%nat with (Nat.min (i_of i + i_both i) (i_of i + i_both i + i_to i)) by lia. rewrite <- firstn_firstn. clear - N1. remember (firstn (i_of i + i_both i + i_to i) _) as l eqn:El. clear El. rewrite <- (firstn_skipn (i_of i + i_both i) l) in N1. revert N1. generalize (firstn (i_of i + i_both i) l). intros a N1. induction a as [|e a IH]; [constructor|]. cbn [app] in N1. inversion N1 as [|? ? M1 M2]; subst. constructor; [|auto]. intros I. apply M1, in_app_iff. auto.
    - intros y o. rewrite Q, Ex. reflexivity. }
  assert (forall i, In i (view_local v) -> here (i_id i) = true) as Hloc by (intros i I; apply Hh, Loc, in_map, I).
  assert (forall i e, In i (view_local v) -> In e (view_of v i) -> entry_ok m t (exists0 x) (g_hood g) here (i_id i, e)) as Hok.
  { intros i [y o] I J. split; [apply Hloc, I|]. cbn [fst snd]. apply (Hof i I), J. }
  assert (forall i, In i (view_inner v) \/ In i (view_outer v) -> In i (view_local v)) as Hio by (intros i I; rewrite S2; apply in_app_iff; assumption).
  assert (forall c q, owns x p q c -> q <> p -> here c = false) as Hrem. { intros c q O Nq. apply not_true_iff_false. rewrite Hh. unfold owns in *. congruence. }
  unfold time_step. fold here.
  pose proof (default_has_faces (g_len g) Hn) as HF. assert (forall h, In h (g_hood g) -> In h (default_hood_of (g_len g))) as HUn by auto.
  destruct (calculate_ok m Hwf t (exists0 x) Ti (g_hood g) HF (g_len g) Hn HUn dt val here Hex v (view_inner v) [] old) as (s1 & E1 & K1 & _).
  { intros c Hc. destruct (Hold c (proj1 (Hh c) Hc)) as (d & Sd & Eo). exists d. rewrite (Sv c d Sd) in *. split; [assumption|]. split; [apply alike_refl|]. cbn [map]. rewrite qsum_nil. ring. }
  { intros i e I J. split; [apply Hok; auto|]. destruct e as [y o]. cbn [fst]. pose proof (proj1 (proj2 (Hof i (Hio i (or_introl I))) y o) J) as (Ey & h & Ih & Nb).
    assert (here y = true) as Hy.
    { destruct (here y) eqn:Q; [reflexivity|]. exfalso. rewrite <- Ex in Ey. unfold exists_on in Ey. destruct (owner (x_st x) p y) as [q|] eqn:Oy; [|discriminate]. assert (q <> p) as Nq by (intros ->; apply Hh in Oy; congruence).
      apply (proj2 (proj1 (In_ (i_id i)) (in_map i_id _ _ I))). exists y. split; [exists q; auto|]. left. exists h, o. auto. }
    destruct (Hold y (proj1 (Hh y) Hy)) as (d & Sd & Eo). exists d. rewrite (Sv y d Sd) in *. split; [assumption|apply alike_refl]. }
  rewrite E1. pose (s2 := (fun c => if here c then s1 c else new c) : memory). change (receive here new (Some s1)) with (@Some memory s2).
  destruct (calculate_ok m Hwf t (exists0 x) Ti (g_hood g) HF (g_len g) Hn HUn dt val here Hex v (view_outer v) (met v (view_inner v)) s2) as (s3 & E3 & K3 & _).
  { intros c Hc. unfold s2. rewrite Hc. cbn [app] in K1. apply K1, Hc. }
  { intros i e I J. split; [apply Hok; auto|]. destruct e as [y o]. cbn [fst]. pose proof (proj1 (proj2 (Hof i (Hio i (or_intror I))) y o) J) as (Ey & h & Ih & Nb). unfold readable, s2. destruct (here y) eqn:Hy.
    - destruct (K1 y Hy) as (d & Ed & Ad & _). eauto.
    - rewrite <- Ex in Ey. unfold exists_on in Ey. destruct (owner (x_st x) p y) as [q|] eqn:Oy; [|discriminate]. assert (q <> p) as Nq by (intros ->; apply Hh in Oy; congruence).
      destruct (Hnew y q) as (w & d & Ew & Sd & Aw).
      + split; [assumption|]. split; [assumption|]. exists (i_id i). split; [apply Hh, Hloc; auto|]. exists h, o. auto.
      + exists w. rewrite <- (Sv y d Sd). auto. }
  rewrite E3. destruct (apply_ok (view_local v) s3 Nl) as (s4 & E4 & B4 & _).
  { intros i I. destruct (K3 (i_id i) (Hloc i I)) as (d & Ed & _). eauto. }
  rewrite E4. exists s4. split; [reflexivity|]. intros c d ns Oc (U & l & EU' & Sd & El & F). rewrite EU in EU'. injection EU' as <-. rewrite (Sv c d Sd). clear d Sd.
  assert (ns = map (of_val val) l) as ->.
  { clear - F Sv. induction F as [|e s l ns [Es Ss] F IH]; [reflexivity|]. cbn [map]. rewrite <- IH. f_equal. destruct s as [e' w]. cbn [fst snd] in *. subst e'. rewrite (Sv _ _ Ss). reflexivity. }
  rewrite (B4 c) by (apply Loc, Oc). pose proof (proj2 (Hh c) Oc) as Hc. destruct (K3 c Hc) as (d & Ed & Ad & Fd). rewrite Ed. cbn [option_map]. f_equal.
  assert (once (map (of_val val) l) = map (of_val val) (map fst (once (map (of_val val) l)))) as Eo.
  { rewrite map_map. rewrite <- (map_id (once _)) at 1. apply map_ext_in. intros e I. apply once_in in I. apply in_map_iff in I. destruct I as (k & <- & _). reflexivity. }
  assert (met v (view_inner v) ++ met v (view_outer v) = met v (view_local v)) as Em by (rewrite S2; unfold met; rewrite flat_map_app; reflexivity). rewrite Em in Fd.
  rewrite (all_added m Hwf t (exists0 x) Ti (g_hood g) HF (g_len g) dt val here Hex v (view_local v) Nl) with (E := map fst (once (map (of_val val) l))) in Fd; [|intros c'; rewrite Hh; apply Loc|assumption|assumption|apply once_nodup|].
  - rewrite <- Eo in Fd. unfold apply_flux, advance. destruct Ad as (Ar & Av & As). rewrite Ar, Fd, (Av DX : vx d = vx (val c)), (Av DY : vy d = vy (val c)), (Av DZ : vz d = vz (val c)), (As DX : lx d = lx (val c)), (As DY : ly d = ly (val c)), (As DZ : lz d = lz (val c)). f_equal. ring.
  - intros y o. rewrite once_keys. rewrite map_map. cbn [of_val fst]. rewrite map_id. destruct (neighbors_of_in m t (g_len g) (exists0 x) c (g_hood g) Hmesh (Hex c Hc) HUn) as (l' & El' & P). rewrite El in El'. injection El' as <-. apply P.
Qed.
End Code.
Print Assumptions c75_code.
