(** C81: the game of life on grids with refined cells is the game on the cells of level 0. *)
From Verif Require Import U64 MapModel MapSpec MapProofs MapFamily MapProps HoodModel MeshModel
  MeshSpec MeshBase HoodProps MeshWalk MeshFind MeshKids MeshItem MeshCheck MeshTo MeshNear
  Sets RefineModel RefineGeo RefineInv RefineSpread RefineMerge RefineFold RefineExec RefineStop RefineNear
  BalanceModel RefineReqs Create Balance History HistProps CommModel CommInv CommProps CommViews Adapt LoadCells ProgramModel ProgramProps GameSpec LifeModel LifeRing LifeGeo.
From Coq Require Import Permutation.
Open Scope Z_scope.

Section Halves.
Context (m : mapping).
Lemma first_ext f f' cells s : (forall c, In c cells -> f c = f' c) -> first_half m f cells s = first_half m f' cells s.
Proof.
  unfold first_half. generalize (Some s). induction cells as [|c cells IH]; intros o H; cbn [fold_left]; [reflexivity|].
  replace (listen m f' o c) with (listen m f o c) by (unfold listen; rewrite (H c (or_introl eq_refl)); reflexivity). apply IH. intros y I. apply H. right. assumption.
Qed.
Lemma second_ext f f' cells s : (forall c, In c cells -> f c = f' c) -> second_half m f cells s = second_half m f' cells s.
Proof.
  intros H. unfold second_half. f_equal. generalize (Some s). induction cells as [|c cells IH]; intros o; cbn [fold_left]; [reflexivity|].
  replace (share m f' o c) with (share m f o c) by (unfold share; rewrite (H c (or_introl eq_refl)); reflexivity). apply IH. intros y I. apply H. right. assumption.
Qed.
End Halves.

Section Game.
Context (d0 : life) (g : grid) (Hg : grid_ok g) (Hn : g_len g = 1).
Notation m := (g_map g).
Notation t := (g_topo g).
Notation state := (xstate (D := life)).
Notation xreachable := (xreachable d0 g).
Notation did := default_neighborhood_id.
Notation rank r := (In r (ranks g)).
Notation l0 := (get_level_0_parent m).
Notation pos := (pos m).
Notation turn := (turn (mlen m) (per t)).
Notation turns := (turns (mlen m) (per t)).
Notation around_once := (around_once (mlen m) (per t)).

(** every cell is as alive as its cell of level 0 is in the game a *)
Definition follows (x : state) (a : idx -> bool) : Prop := forall c v, shows g x c v -> on v = Z.b2z (a (position_of m (l0 c))).

Lemma Hwf : wf m. Proof. apply Hg. Qed.
Lemma mesh_at x : xreachable x -> mesh m t (g_len g) (ex_at x).
Proof.
  intros R. destruct (xreachable_inv d0 g Hg x R) as (own & Hx). pose proof Hx as ((Hgood & _) & _). pose proof (proj1 (proj1 Hgood)) as M. apply (mesh_ext g (exo own)); [|assumption]. intros c. symmetry. apply (ex_own g Hg own x c Hx).
Qed.
Lemma may_update (x : state) : xallowed g x (CommModel.Update did). Proof. left. reflexivity. Qed.

(** *** what the processes read *)
Definition NB (x : state) (c : Z) : list Z := match find_neighbors_of (ex_at x) m t c (g_hood g) with Done l => map fst l | _ => [] end.
Lemma all_some_fst (f : Z * idx -> option life) l ns : all_some (map (fun e => match f e with Some w => Some (e, w) | None => None end) l) = Some ns -> map fst ns = l /\ forall e w, In (e, w) ns -> f e = Some w.
Proof.
  revert ns. induction l as [|e l IH]; intros ns; cbn [map all_some]; [intros E; injection E as <-; split; [reflexivity|intros ? ? []]|].
  destruct (f e) as [w|] eqn:Ef; [|discriminate]. destruct (all_some _) as [b|]; [|discriminate]. intros E. injection E as <-. destruct (IH b eq_refl) as [A B]. split; [cbn [map fst]; rewrite A; reflexivity|]. intros e' w' [Q|Q]; [injection Q as <- <-; assumption|apply B; assumption].
Qed.
Lemma reads x x1 : xreachable x -> xrun d0 g x (CommModel.Update did) = Done x1 -> xreachable x1 /\ x_st x1 = x_st x /\ x_hoods x1 = x_hoods x /\
  forall r c, rank r -> owner (x_st x) r c = Some r -> nbrs_at g x1 r c = Some (NB x c) /\ forall y, y = c \/ In y (NB x c) -> read x1 r y = data_at x y /\ exists v, data_at x y = Some v.
Proof.
  intros R E. destruct (update_view d0 g Hg x did x1 R (may_update x) E) as (R1 & E1 & E2 & P). split; [assumption|]. split; [assumption|]. split; [assumption|]. intros r c Ir O.
  destruct (P r c Ir O) as (d & ns & Lv & Vw). unfold local_view in Lv. unfold view_at in Vw. unfold nbrs_at, NB.
  destruct (read x1 r c) as [v|] eqn:Rc; [|discriminate]. destruct (data_at x c) as [v'|] eqn:Dc; [|discriminate].
  unfold CommInv.hood_at in Vw. rewrite Z.eqb_refl in Vw.
  destruct (get_neighbors_of g (x_hoods x1) did r (x_st x1 r) c) as [[l|]| |]; try discriminate. destruct (find_neighbors_of (ex_at x) m t c (g_hood g)) as [l'| |]; try discriminate.
  destruct (all_some _) as [ns1|] eqn:A1 in Lv; [|discriminate]. destruct (all_some _) as [ns2|] eqn:A2 in Vw; [|discriminate]. injection Lv as -> ->. injection Vw as -> ->.
  apply (all_some_fst (fun e => read x1 r (fst e))) in A1. apply (all_some_fst (fun e => data_at x (fst e))) in A2. destruct A1 as [<- B1]. destruct A2 as [<- B2]. split; [reflexivity|]. intros y [->|I]; [rewrite Rc, Dc; eauto|].
  apply in_map_iff in I. destruct I as (e & <- & I). apply in_map_iff in I. destruct I as ([e' w] & <- & I). cbn [fst]. rewrite (B1 e' w I), (B2 e' w I). eauto.
Qed.
Lemma cells_own x r cells : xreachable x -> rank r -> cells_of g x r cells -> NoDup cells /\ forall c, In c cells <-> owner (x_st x) r c = Some r.
Proof.
  intros R Ir (l & E & P). destruct (c37_get_cells d0 g Hg x did (g_hood g) r [] false R) as (l' & E' & N & Q); [unfold CommInv.hood_at; rewrite Z.eqb_refl; reflexivity|assumption|]. rewrite E in E'. injection E' as <-.
  split; [apply (Permutation_NoDup P N)|]. intros c. rewrite <- (Permutation_in' (eq_refl c) P), Q. unfold owns. split; [tauto|auto].
Qed.
Lemma cells_there x r : xreachable x -> rank r -> exists cells, cells_of g x r cells.
Proof.
  intros R Ir. destruct (c37_get_cells d0 g Hg x did (g_hood g) r [] false R) as (l & E & _); [unfold CommInv.hood_at; rewrite Z.eqb_refl; reflexivity|assumption|]. exists l, l. split; [assumption|apply Permutation_refl].
Qed.
(** *** what they store *)
Lemma stored_ok x cells s l x' : xreachable x -> (forall r c, rank r -> In c (cells r) <-> owner (x_st x) r c = Some r) -> stored g cells s l -> calls d0 g x (writes l) x' ->
  xreachable x' /\ x_hoods x' = x_hoods x /\ (idle g (x_st x) -> idle g (x_st x')) /\ (forall r c, owner (x_st x') r c = owner (x_st x) r c) /\
  forall r c v, rank r -> owner (x_st x) r c = Some r -> s r c = Some v -> data_at x' c = Some v.
Proof.
  intros R Hc Hl H. destruct (writes_ok d0 g l x x' H) as (A & B & C & F). split; [apply (calls_reachable d0 g _ _ _ R H)|]. split; [assumption|]. split; [intros I r Ir; rewrite B; apply I; assumption|]. split; [assumption|].
  intros r c v Ir O Es. destruct (xreachable_inv d0 g Hg x R) as (own & Hx). rewrite (xview g own x r c Hx Ir) in O. destruct (data_here g Hg own x c r Hx O) as (_ & w & Ew & _).
  unfold data_at. rewrite C, (xview g own x 0 c Hx (ProgramProps.rank0 g Hg)), O, F, Ew. f_equal. apply last_in.
  - apply Hl. split; [assumption|]. split; [|assumption]. apply Hc; [assumption|]. rewrite (xview g own x r c Hx Ir). assumption.
  - intros w' I. apply Hl in I. destruct I as (_ & _ & Q). congruence.
Qed.
Lemma stored_there x cells s : xreachable x -> exists l x', stored g cells s l /\ calls d0 g x (writes l) x'.
Proof.
  intros R. set (l := flat_map (fun r => flat_map (fun c => match s r c with Some v => [(r, c, v)] | None => [] end) (cells r)) (ranks g)).
  assert (stored g cells s l) as Hl.
  { intros r c v. unfold l. rewrite in_flat_map. split.
    - intros (r' & Ir & Q). apply in_flat_map in Q. destruct Q as (c' & Ic & Q). destruct (s r' c') as [w|] eqn:Es; [|destruct Q]. destruct Q as [Q|[]]. injection Q as -> -> ->. auto.
    - intros (Ir & Ic & Es). exists r. split; [assumption|]. apply in_flat_map. exists c. split; [assumption|]. rewrite Es. left. reflexivity. }
  destruct (run_calls_ok d0 g Hg (writes l) x R) as (x' & _ & H); [|exists l, x'; auto].
  intros a Ha y. unfold writes in Ha. apply in_map_iff in Ha. destruct Ha as ([[r c] v] & <- & Ha). apply Hl in Ha. cbn [xallowed allowed fst snd]. apply Ha.
Qed.

(** ** One turn *)
Section OneTurn.
Context (k : dim) (Hk : mlen m k = 1) (x : state) (R : xreachable x) (Hlvl : forall c, ex_at x c = true -> lvl_of m c <= 1) (a : idx -> bool) (Ha : follows x a).
Notation ex := (ex_at x).
Definition Htile : tiling m ex := proj1 (proj2 (proj2 (mesh_at x R))).
Lemma valid_ex c : ex c = true -> valid m c. Proof. apply (leaf_valid m ex Htile). Qed.
Lemma NB_in c y : ex c = true -> In y (NB x c) <-> ex y = true /\ exists h o, ((forall k, -1 <= get h k <= 1) /\ h <> vzero) /\ nbr m t c h y o.
Proof.
  intros Ec. unfold NB. destruct (neighbors_of_in m t (g_len g) ex c (g_hood g) (mesh_at x R) Ec) as (l & -> & P); [unfold g_hood; auto|]. rewrite in_map_iff. unfold g_hood in P. rewrite Hn in P. split.
  - intros ([y' o] & <- & I). apply P in I. destruct I as (Ey & h & Ih & N). split; [assumption|]. exists h, o. apply default_hood_in in Ih; [|lia]. destruct Ih as [A B]. auto.
  - intros (Ey & h & o & (A & B) & N). exists (y, o). split; [reflexivity|]. apply P. split; [assumption|]. exists h. split; [|assumption]. apply default_hood_in; [lia|]. split; assumption.
Qed.
Definition st (e : Z) : Z := Z.b2z (a (position_of m e)).
Definition F (e : Z) : list Z := firstn 8 (map (cell_at m) (around_once (position_of m e))).
Lemma F_length e : (length (F e) <= 8)%nat. Proof. apply firstn_le_length. Qed.
Lemma F_in c e : ex c = true -> In e (F (l0 c)) <-> exists j, In j (around_once (pos c)) /\ e = cell_at m j.
Proof.
  intros Ec. unfold F. destruct (pos_facts m Hwf c (valid_ex c Ec)) as (B & _). change (position_of m (l0 c)) with (pos c). rewrite firstn_all2.
  - rewrite in_map_iff. split; [intros (j & <- & I)|intros (j & I & ->)]; eauto.
  - rewrite map_length. apply (at_most_eight m Hwf t k); assumption.
Qed.
Lemma alive_st e : st e <> 0 <-> a (position_of m e) = true.
Proof. unfold st. destruct (a (position_of m e)); cbn [Z.b2z]; split; congruence. Qed.
Notation heard := (heard m (NB x) st).
Lemma heard_near c e : ex c = true -> heard c e -> exists j, In j (around_once (pos c)) /\ a j = true /\ e = cell_at m j.
Proof.
  intros Ec (N & A & n & I & <-). apply (NB_in c n Ec) in I. destruct I as (En & h & o & (Hh & _) & Nb). pose proof (valid_ex c Ec) as Vc. pose proof (valid_ex n En) as Vn.
  destruct (nbr_near m Hwf t c h n o Vc Vn Hh Nb) as (h' & Hh' & B & Sq). destruct (pos_facts m Hwf n Vn) as (_ & Cn & _). exists (pos n). split; [|split; [apply alive_st; assumption|symmetry; assumption]].
  assert (pos n <> pos c) as Np by (intros Q; apply N; apply (pos_same m Hwf n c Vn Vc); assumption). apply around_once_in. split; [assumption|]. exists h'. split; [assumption|]. split; [assumption|]. split; [symmetry; assumption|].
  intros ->. apply Np. rewrite <- Sq. destruct (pos_facts m Hwf c Vc) as (Bc & _). apply idx_ext. intros j. unfold square. rewrite get_vmap, get_vadd, get_vzero, Z.add_0_r. specialize (Bc j). destruct (per t j); [apply Z.mod_small; assumption|reflexivity].
Qed.
Notation gathered := (gathered m (NB x) heard).
Lemma gathered_iff c e : ex c = true -> gathered c e <-> exists j, In j (around_once (pos c)) /\ a j = true /\ e = cell_at m j.
Proof.
  intros Ec. pose proof (valid_ex c Ec) as Vc. split.
  - intros [H|(n & I & Ln & H)]; [apply heard_near; assumption|]. apply (NB_in c n Ec) in I. destruct I as (En & _). rewrite <- (proj2 (pos_same m Hwf n c (valid_ex n En) Vc) Ln). apply heard_near; assumption.
  - intros (j & I & A & ->). apply around_once_in in I. destruct I as (Nj & h & Hh & B & -> & Nz).
    destruct (ring_seen m Hwf t ex Htile Hlvl c h Ec Hh B) as (s & y & o & Es & Ps & Ey & Nb & Py). pose proof (valid_ex s Es) as Vs. pose proof (valid_ex y Ey) as Vy.
    assert (heard s (l0 y)) as Hs.
    { split; [intros Q; apply Nj; rewrite <- Py, <- Ps; apply (pos_same m Hwf y s Vy Vs); assumption|]. split; [apply alive_st; change (position_of m (l0 y)) with (pos y); rewrite Py; assumption|]. exists y. split; [|reflexivity]. apply (NB_in s y Es). split; [assumption|]. exists h, o. auto. }
    rewrite <- Py. destruct (pos_facts m Hwf y Vy) as (_ & -> & _). destruct (Z.eq_dec s c) as [<-|Nc]; [left; assumption|]. right. exists s. split; [|split; [apply (pos_same m Hwf s c Vs Vc); assumption|assumption]].
    apply (NB_in c s Ec). split; [assumption|]. destruct (siblings_meet m Hwf t ex Htile Hlvl c s Ec Es (eq_sym Ps)) as (h' & o' & A1 & A2 & A3); [congruence|]. exists h', o'. auto.
Qed.
Lemma state_of c v : data_at x c = Some v -> on v = st (l0 c).
Proof. intros E. apply (Ha c v). apply (shows_iff d0 g Hg x c v R). assumption. Qed.
Lemma owned_ex r c : rank r -> owner (x_st x) r c = Some r -> ex c = true.
Proof. intros Ir O. destruct (xreachable_inv d0 g Hg x R) as (own & Hx). rewrite (ex_own g Hg own x c Hx). rewrite (xview g own x r c Hx Ir) in O. apply exo_some. eauto. Qed.
Lemma ex_owned c : ex c = true -> exists r, rank r /\ owner (x_st x) r c = Some r.
Proof. intros E. destruct (xreachable_inv d0 g Hg x R) as (own & Hx). rewrite (ex_own g Hg own x c Hx) in E. apply exo_some in E. destruct E as (r & O). destruct (data_here g Hg own x c r Hx O) as (Ir & _). exists r. rewrite (xview g own x r c Hx Ir). auto. Qed.
Lemma nonzero c n : ex c = true -> In n (NB x c) -> n <> error_cell /\ l0 n <> error_cell.
Proof.
  intros Ec I. apply (NB_in c n Ec) in I. destruct I as (En & _). pose proof (valid_ex n En) as Vn. destruct (pos_facts m Hwf n Vn) as (_ & _ & V0 & _). unfold valid in Vn, V0. unfold error_cell. lia.
Qed.

Context (x1 : state) (E1 : xrun d0 g x (CommModel.Update did) = Done x1) (cells : Z -> list Z) (Hcells : forall r, rank r -> cells_of g x1 r (cells r)).
Lemma in_cells r c : rank r -> In c (cells r) <-> owner (x_st x) r c = Some r.
Proof. intros Ir. destruct (reads x x1 R E1) as (R1 & <- & _). apply (cells_own x1 r (cells r) R1 Ir (Hcells r Ir)). Qed.
Lemma once_cells r : rank r -> NoDup (cells r).
Proof. intros Ir. destruct (reads x x1 R E1) as (R1 & _). apply (cells_own x1 r (cells r) R1 Ir (Hcells r Ir)). Qed.
Lemma first_runs r : rank r -> exists s, first_half m (nbrs_at g x1 r) (cells r) (read x1 r) = Some s /\
  forall c, In c (cells r) -> exists q l, s c = Some (Life (st (l0 c)) q) /\ filled q l /\ forall e, In e l <-> heard c e.
Proof.
  intros Ir. destruct (reads x x1 R E1) as (_ & _ & _ & Q). rewrite (first_ext m _ (nbrs (NB x))) by (intros c I; apply (in_cells r c Ir) in I; apply (Q r c Ir I)).
  assert (forall c, In c (cells r) -> ex c = true) as Ce by (intros c I; apply (in_cells r c Ir) in I; apply (owned_ex r c Ir I)).
  destruct (first_ok m (NB x) (cells r) (once_cells r Ir) st F F_length) with (s := read x1 r) as (s & Es & _ & P).
  - intros c n I. apply nonzero. apply Ce. assumption.
  - intros c e I H. apply F_in; [apply Ce; assumption|]. destruct (heard_near c e (Ce c I) H) as (j & A & _ & B). eauto.
  - intros c I. apply (in_cells r c Ir) in I. destruct (proj2 (Q r c Ir I) c (or_introl eq_refl)) as (-> & v & Ev). exists v. split; [assumption|apply state_of; assumption].
  - intros c n I J. apply (in_cells r c Ir) in I. destruct (proj2 (Q r c Ir I) n (or_intror J)) as (-> & v & Ev). exists v. split; [assumption|apply state_of; assumption].
  - exists s. auto.
Qed.

Context (s1 : Z -> memory) (H1 : forall r, rank r -> first_half m (nbrs_at g x1 r) (cells r) (read x1 r) = Some (s1 r)) (l1 : list (Z * Z * life)) (Hl1 : stored g cells s1 l1).
Context (x2 : state) (C2 : calls d0 g x1 (writes l1) x2) (x3 : state) (E3 : xrun d0 g x2 (CommModel.Update did) = Done x3).
Lemma after_first : xreachable x2 /\ x_hoods x2 = x_hoods x /\ (idle g (x_st x) -> idle g (x_st x2)) /\ (forall r c, owner (x_st x2) r c = owner (x_st x) r c) /\
  forall c, ex c = true -> exists q l, data_at x2 c = Some (Life (st (l0 c)) q) /\ filled q l /\ forall e, In e l <-> heard c e.
Proof.
  destruct (reads x x1 R E1) as (R1 & S1 & G1 & _). destruct (stored_ok x1 cells s1 l1 x2 R1) as (R2 & G2 & I2 & O2 & D2); [intros r c Ir; rewrite S1; apply in_cells; assumption|assumption|assumption|].
  split; [assumption|]. split; [congruence|]. split; [rewrite <- S1; assumption|]. split; [intros r c; rewrite O2, S1; reflexivity|].
  intros c Ec. destruct (ex_owned c Ec) as (r & Ir & O). destruct (first_runs r Ir) as (s & Es & P). rewrite (H1 r Ir) in Es. injection Es as <-. destruct (P c (proj2 (in_cells r c Ir) O)) as (q & l & A & B & C). exists q, l. split; [|auto]. apply (D2 r c); [assumption|rewrite S1; assumption|assumption].
Qed.
Lemma same_NB c : NB x2 c = NB x c.
Proof. destruct after_first as (_ & _ & _ & O & _). unfold NB. rewrite (neighbors_ext (ex_at x2) ex); [reflexivity|]. intros y. unfold ex_at, exists_on. rewrite O. reflexivity. Qed.
Lemma counted c l : ex c = true -> NoDup l -> (forall e, In e l <-> gathered c e) -> length l = length (filter a (around_once (pos c))).
Proof.
  intros Ec N Hl. rewrite <- (map_length (cell_at m) (filter a (around_once (pos c)))). apply Permutation_length, NoDup_Permutation; [assumption| |].
  - assert (forall L, NoDup L -> (forall j, In j L -> in_board m j) -> NoDup (map (cell_at m) L)) as Q.
    { clear - Hg. induction L as [|j L IH]; intros N B; cbn [map]; [constructor|]. inversion N as [|? ? N1 N2]; subst. constructor; [|apply IH; [assumption|intros i I; apply B; right; assumption]].
      intros I. apply in_map_iff in I. destruct I as (i & E & I). apply N1. rewrite <- (position_cell m Hwf j (B j (or_introl eq_refl))), <- E, (position_cell m Hwf i (B i (or_intror I))). assumption. }
    apply Q; [apply NoDup_filter, around_once_nodup|]. intros j I. apply filter_In in I. destruct I as [I _]. apply around_once_in in I. destruct I as (_ & h & _ & B & -> & _). apply square_on_board; [apply Hwf|assumption].
  - intros e. rewrite Hl, (gathered_iff c e Ec), in_map_iff. split; [intros (j & I & A & ->)|intros (j & <- & I)]; [exists j; rewrite filter_In; auto|]. apply filter_In in I. exists j. tauto.
Qed.
Lemma second_runs r : rank r -> exists s, second_half m (nbrs_at g x3 r) (cells r) (read x3 r) = Some s /\
  forall c, In c (cells r) -> exists v, s c = Some v /\ on v = Z.b2z (turn a (pos c)) /\ ring v = empty.
Proof.
  intros Ir. destruct after_first as (R2 & G2 & _ & O2 & D2). destruct (reads x2 x3 R2 E3) as (_ & _ & _ & Q).
  assert (forall c, In c (cells r) -> ex c = true /\ owner (x_st x2) r c = Some r) as Ce by (intros c I; apply (in_cells r c Ir) in I; rewrite O2; split; [apply (owned_ex r c Ir I)|assumption]).
  rewrite (second_ext m _ (nbrs (NB x))) by (intros c I; change (nbrs (NB x) c) with (Some (NB x c)); rewrite <- (same_NB c); apply (Q r c Ir); apply Ce; assumption).
  destruct (second_ok m (NB x) (cells r) (once_cells r Ir) F F_length) with (own := heard) (s0 := read x3 r) as (s & Es & _ & P).
  - intros c n I. apply nonzero. apply Ce. assumption.
  - intros c n I J Ln e. rewrite (gathered_iff c e) by (apply Ce; assumption). apply (NB_in c n) in J; [|apply Ce; assumption]. destruct J as (En & _). rewrite (gathered_iff n e En), (proj2 (pos_same m Hwf n c (valid_ex n En) (valid_ex c (proj1 (Ce c I)))) Ln). auto.
  - intros n I e H. apply F_in; [apply Ce; assumption|]. apply (gathered_iff n e) in H; [|apply Ce; assumption]. destruct H as (j & A & _ & B). eauto.
  - intros c y I Hy. assert (ex y = true) as Ey by (destruct Hy as [->|[J _]]; [apply Ce; assumption|apply (NB_in c y) in J; [apply J|apply Ce; assumption]]).
    destruct (D2 y Ey) as (q & l & A & B & C). destruct (proj2 (Q r c Ir (proj2 (Ce c I))) y) as (Rd & _); [rewrite same_NB; tauto|]. rewrite Rd, A. exists (Life (st (l0 y)) q), l. auto.
  - exists s. split; [assumption|]. intros c I. destruct (Ce c I) as [Ec O]. destruct (D2 c Ec) as (q & l & A & _). destruct (proj2 (Q r c Ir O) c (or_introl eq_refl)) as (Rd & _).
    destruct (P c (Life (st (l0 c)) q) I) as (v & l' & Ev & N & Hl & On & Rg); [rewrite Rd; assumption|]. exists v. split; [assumption|]. split; [|assumption]. rewrite On, (counted c l' Ec N Hl). unfold LifeGeo.turn. cbv zeta. cbn [on]. unfold st. change (position_of m (l0 c)) with (pos c).
    set (n := Z.of_nat (length (filter a (around_once (pos c))))). destruct (Z.eqb_spec n 3); [reflexivity|]. destruct (Z.eqb_spec n 2); cbn [negb orb andb]; reflexivity.
Qed.
Context (s3 : Z -> memory) (H3 : forall r, rank r -> second_half m (nbrs_at g x3 r) (cells r) (read x3 r) = Some (s3 r)) (l3 : list (Z * Z * life)) (Hl3 : stored g cells s3 l3).
Context (x4 : state) (C4 : calls d0 g x3 (writes l3) x4).
Lemma after_second : xreachable x4 /\ x_hoods x4 = x_hoods x /\ (idle g (x_st x) -> idle g (x_st x4)) /\ (forall r c, owner (x_st x4) r c = owner (x_st x) r c) /\ follows x4 (turn a).
Proof.
  destruct after_first as (R2 & G2 & I2 & O2 & _). destruct (reads x2 x3 R2 E3) as (R3 & S3 & G3 & _). destruct (stored_ok x3 cells s3 l3 x4 R3) as (R4 & G4 & I4 & O4 & D4); [intros r c Ir; rewrite S3, O2; apply in_cells; assumption|assumption|assumption|].
  assert (forall r c, owner (x_st x4) r c = owner (x_st x) r c) as O by (intros r c; rewrite O4, S3, O2; reflexivity).
  split; [assumption|]. split; [congruence|]. split; [intros Q; apply I4; rewrite S3; apply I2; assumption|]. split; [assumption|].
  intros c v Sh. pose proof (proj1 (shows_iff d0 g Hg x4 c v R4) Sh) as Dv. destruct Sh as (r & Ir & Oc & _). rewrite O in Oc. destruct (second_runs r Ir) as (s & Es & P). rewrite (H3 r Ir) in Es. injection Es as <-.
  destruct (P c (proj2 (in_cells r c Ir) Oc)) as (v' & Ev & On & _). rewrite (D4 r c v' Ir) in Dv; [|rewrite S3, O2; assumption|assumption]. injection Dv as <-. exact On.
Qed.
End OneTurn.

(** on a board one cell thick, with cells refined at most once, no process aborts, no cell is lost or made, and every cell
    is then as alive as its cell of level 0 on the next turn of the game *)
Theorem c81_turn k x a res : mlen m k = 1 -> xreachable x -> (forall c, exists_on (x_st x) 0 c = true -> get_refinement_level m c <= 1) -> follows x a -> life_turn d0 g x res ->
  exists x', res = Some x' /\ xreachable x' /\ (forall r c, owner (x_st x') r c = owner (x_st x) r c) /\ follows x' (turn a) /\ (idle g (x_st x) -> idle g (x_st x')).
Proof.
  intros Hk R L Fa T. destruct T as [cells x1 r E1 Hc Ir N|cells x1 s1 l1 x2 x3 r E1 Hc H1 S1 C1 E3 Ir N|cells x1 s1 l1 x2 x3 s3 l3 x4 E1 Hc H1 S1 C1 E3 H3 S3 C3].
  - exfalso. destruct (first_runs k Hk x R a Fa x1 E1 cells Hc r Ir) as (s & Q & _). congruence.
  - exfalso. destruct (second_runs k Hk x R L a Fa x1 E1 cells Hc s1 H1 l1 S1 x2 C1 x3 E3 r Ir) as (s & Q & _). congruence.
  - exists x4. destruct (after_second k Hk x R L a Fa x1 E1 cells Hc s1 H1 l1 S1 x2 C1 x3 E3 s3 H3 l3 S3 x4 C3) as (A & _ & B & C & D). auto.
Qed.
(** such a turn is possible *)
Theorem c81_turn_possible k x a : mlen m k = 1 -> xreachable x -> (forall c, exists_on (x_st x) 0 c = true -> get_refinement_level m c <= 1) -> follows x a -> exists x', life_turn d0 g x (Some x').
Proof.
  intros Hk R L Fa. destruct (c34_every_call_succeeds d0 g Hg) as [_ Runs]. destruct (Runs x (CommModel.Update did) R (may_update x)) as (x1 & E1). destruct (reads x x1 R E1) as (R1 & _).
  set (cells := fun r => match get_cells g (x_hoods x1) did r (x_st x1 r) [] false with Done l => l | _ => [] end).
  assert (forall r, rank r -> cells_of g x1 r (cells r)) as Hc by (intros r Ir; destruct (cells_there x1 r R1 Ir) as (l & l' & E & _); exists l'; unfold cells; rewrite E; split; [reflexivity|apply Permutation_refl]).
  set (s1 := fun r => match first_half m (nbrs_at g x1 r) (cells r) (read x1 r) with Some s => s | None => fun _ => None end).
  assert (forall r, rank r -> first_half m (nbrs_at g x1 r) (cells r) (read x1 r) = Some (s1 r)) as H1 by (intros r Ir; unfold s1; destruct (first_runs k Hk x R a Fa x1 E1 cells Hc r Ir) as (s & -> & _); reflexivity).
  destruct (stored_there x1 cells s1 R1) as (l1 & x2 & S1 & C1). destruct (after_first k Hk x R a Fa x1 E1 cells Hc s1 H1 l1 S1 x2 C1) as (R2 & _). destruct (Runs x2 (CommModel.Update did) R2 (may_update x2)) as (x3 & E3). destruct (reads x2 x3 R2 E3) as (R3 & _).
  set (s3 := fun r => match second_half m (nbrs_at g x3 r) (cells r) (read x3 r) with Some s => s | None => fun _ => None end).
  assert (forall r, rank r -> second_half m (nbrs_at g x3 r) (cells r) (read x3 r) = Some (s3 r)) as H3 by (intros r Ir; unfold s3; destruct (second_runs k Hk x R L a Fa x1 E1 cells Hc s1 H1 l1 S1 x2 C1 x3 E3 r Ir) as (s & -> & _); reflexivity).
  destruct (stored_there x3 cells s3 R3) as (l3 & x4 & S3 & C3). exists x4. apply plays_on with cells x1 s1 l1 x2 x3 s3 l3; assumption.
Qed.

(** ** Changing the grid *)
Lemma parent_root c : valid m c -> 0 < lvl_of m c -> l0 (get_parent m c) = l0 c.
Proof.
  intros V L. pose proof (parent_facts m Hwf c V L) as (Vp & Lp & _). cbn zeta in *. apply (l0_same m Hwf); [assumption|assumption| |unfold lvl_of in *; lia]. apply (parent_covers m Hwf c _ V L), (covers_own m Hwf c V).
Qed.
Lemma adapt_follows x id w kid par x' a : xreachable x -> idle g (x_st x) -> follows x a -> keeps_life (ProgramModel.Adapt id w kid par) -> exec_step d0 g x (ProgramModel.Adapt id w kid par) x' -> follows x' a.
Proof.
  intros R Ix Fa (Kk & Kp) H. pose proof (exec_reachable d0 g x _ x' R H) as R'. destruct (c69_adapt d0 g Hg x id w _ _ x' R Ix H) as (_ & Q). intros c v Sv. pose proof (proj1 (shows_iff d0 g Hg x' c v R') Sv) as Dv.
  assert (exists_on (x_st x') 0 c = true) as Ec. { unfold exists_on. unfold data_at in Dv. destruct (owner (x_st x') 0 c); [reflexivity|discriminate]. }
  assert (valid m c) as Vc by (apply (leaf_valid m _ (proj1 (proj2 (proj2 (mesh_at x' R')))) c Ec)).
  assert (forall w, shows g x' c w -> w = v) as One by (intros u Su; apply (shows_iff d0 g Hg x' c u R') in Su; congruence).
  destruct (Q c Ec) as [(_ & _ & W)|[(_ & L & _ & u & Su & Sk)|(_ & ws & Fw & Sp)]].
  - apply Fa, W. assumption.
  - rewrite <- (One _ Sk), Kk. rewrite (Fa _ _ Su). change (get_refinement_level m c) with (lvl_of m c) in L. rewrite (parent_root c Vc L). reflexivity.
  - rewrite <- (One _ Sp). assert (forall u, In u ws -> exists k, In k (get_all_children m c) /\ shows g x k u) as Kids by (intros u I; clear - Fw I; induction Fw as [|k v ks ws Sv Fw IH]; [destruct I|]; destruct I as [<-|I]; [exists k; split; [left; reflexivity|assumption]|destruct (IH I) as (k' & A & B); exists k'; split; [right; assumption|assumption]]).
    assert (get_all_children m c <> []) as Nc.
    { destruct (Z_lt_le_dec (lvl_of m c) (m_max m)) as [Lc|Lc].
      - pose proof (proj1 (c03_children m c Hwf Vc Lc)) as Q8. intros E. rewrite E in Q8. discriminate.
      - pose proof (cell_level m Hwf c Vc). destruct (c03_children_of_finest_cell m c Hwf Vc ltac:(unfold lvl_of in *; lia)) as [E _]. rewrite E. discriminate. }
    destruct (Kp c ws) as (u & I & ->); [intros ->; inversion Fw; congruence|]. destruct (Kids u I) as (k & Ik & Sk). rewrite (Fa _ _ Sk). f_equal. f_equal. f_equal.
    pose proof (proj1 (shows_iff d0 g Hg x k u R) Sk) as Dk. assert (ex_at x k = true) as Ek. { unfold ex_at, exists_on. unfold data_at in Dk. destruct (owner (x_st x) 0 k); [reflexivity|discriminate]. }
    assert (valid m k) as Vk by (apply (leaf_valid m _ (proj1 (proj2 (proj2 (mesh_at x R)))) k Ek)).
    destruct (Z_lt_le_dec (lvl_of m c) (m_max m)) as [Lc|Lc].
    + destruct (c03_children m c Hwf Vc Lc) as (_ & _ & Kd & _). apply Kd in Ik. destruct Ik as (_ & Lk & <-). symmetry. apply parent_root; [assumption|]. pose proof (cell_level m Hwf _ Vc). unfold lvl_of in *. lia.
    + exfalso. pose proof (cell_level m Hwf c Vc). destruct (c03_children_of_finest_cell m c Hwf Vc ltac:(unfold lvl_of in *; lia)) as [E _]. rewrite E in Ik. unfold valid in Vk. unfold eight_errors, error_cell in Ik. cbn [In] in Ik. lia.
Qed.
(** ** Any number of turns with any refinement, unrefinement and load balancing in between *)
Theorem c81_plays_the_game k x a n res : mlen m k = 1 -> m_max m <= 1 -> xreachable x -> idle g (x_st x) -> follows x a -> game_run d0 g x n res ->
  exists x', res = Some x' /\ xreachable x' /\ follows x' (turns n a).
Proof.
  intros Hk Hm R I Fa H. assert (exists x', res = Some x' /\ (xreachable x' /\ idle g (x_st x')) /\ follows x' (turns n a)) as (x' & A & (B & _) & C); [|eauto].
  assert (forall y, xreachable y -> forall c, exists_on (x_st y) 0 c = true -> get_refinement_level m c <= 1) as L.
  { intros y Ry c Ec. pose proof (cell_level m Hwf c (leaf_valid m _ (proj1 (proj2 (proj2 (mesh_at y Ry)))) c Ec)) as Q. unfold lvl_of in Q. lia. }
  induction H as [|n x1 s x2 H IH K E|n x1 b x2 H IH K Hb E|n x1 res H IH T].
  - exists x. auto.
  - destruct IH as (y & Ey & (Ry & Iy) & Fy). injection Ey as <-. exists x2. split; [reflexivity|]. destruct s as [|id w kid par| |]; try contradiction. split; [|apply (adapt_follows x1 id w kid par x2 _ Ry Iy Fy K E)]. destruct (adapt_ok d0 g Hg x1 id w kid par x2 Ry Iy E) as (A & _ & B & _). auto.
  - destruct IH as (y & Ey & (Ry & Iy) & Fy). injection Ey as <-. exists x2. split; [reflexivity|]. assert (xreachable x2) as R2 by (apply xreach_step with x1 b; assumption). destruct (house_ok d0 g Hg x1 b x2 Ry K Hb E) as (_ & Ib & _). split; [auto|].
    intros c v Sv. apply (Fy c v). apply (c69_housekeeping d0 g Hg x1 b x2 Ry K Hb E). assumption.
  - destruct IH as (y & Ey & (Ry & Iy) & Fy). injection Ey as <-. destruct (c81_turn k x1 _ res Hk Ry (L x1 Ry) Fy T) as (x' & -> & R' & _ & F' & I'). exists x'. auto.
Qed.
(** the values that initialize.hpp:108-116 gives to cells of level 0, for any set of live cells *)
Theorem c81_first_values x lives x' : xreachable x -> exec_step d0 g x (ProgramModel.Compute did (fun c _ _ => Life (Z.b2z (lives c)) empty)) x' ->
  (forall c, exists_on (x_st x) 0 c = true -> get_refinement_level m c = 0) -> follows x' (fun i => lives (cell_at m i)).
Proof.
  intros R H L0. pose proof (exec_reachable d0 g x _ x' R H) as R'. destruct (c69_compute d0 g Hg x did _ x' R H) as (Ec & P). intros c v Sv. pose proof (proj1 (shows_iff d0 g Hg x' c v R') Sv) as Dv.
  assert (exists_on (x_st x') 0 c = true) as E'. { unfold exists_on. unfold data_at in Dv. destruct (owner (x_st x') 0 c); [reflexivity|discriminate]. }
  rewrite (Ec 0 c (ProgramProps.rank0 g Hg)) in E'. destruct (P c E') as (d & ns & _ & Sh). apply (shows_iff d0 g Hg x' c _ R') in Sh. rewrite Dv in Sh. injection Sh as ->. cbn [on]. f_equal. f_equal.
  assert (valid m c) as Vc by (apply (leaf_valid m _ (proj1 (proj2 (proj2 (mesh_at x R)))) c E')). destruct (pos_facts m Hwf c Vc) as (_ & Q & _). unfold LifeGeo.pos in Q. rewrite Q. symmetry. apply (l0_self m Hwf c Vc). apply L0. assumption.
Qed.
End Game.

(** ** The game counted by offsets, as on boards that are not joined or at least three squares long *)
Lemma turn_is_next (m : mapping) (Hwf : wf m) t a b i : (forall k, per t k = true -> 3 <= mlen m k) -> in_board m i -> (forall j, in_board m j -> a j = b j) -> LifeGeo.turn (mlen m) (per t) a i = next (mlen m) (per t) (default_hood_of 1) b i.
Proof.
  intros H3 Hi Hab. unfold LifeGeo.turn, next. rewrite (Hab i Hi). assert (Z.of_nat (length (filter a (around_once (mlen m) (per t) i))) = around (mlen m) (per t) (default_hood_of 1) b i) as ->; [|reflexivity].
  unfold around. f_equal. rewrite <- (map_length (fun h => square (mlen m) (per t) (vadd i h)) (filter _ (default_hood_of 1))).
  assert (forall j, in_board m j -> square (mlen m) (per t) j = j) as Sq by (intros j Bj; apply idx_ext; intros k; unfold square; rewrite get_vmap; specialize (Bj k); destruct (per t k); [apply Z.mod_small; assumption|reflexivity]).
  assert (forall h h', (forall k, -1 <= get h k <= 1) -> (forall k, -1 <= get h' k <= 1) -> on_board (mlen m) (per t) (vadd i h) = true -> on_board (mlen m) (per t) (vadd i h') = true -> square (mlen m) (per t) (vadd i h) = square (mlen m) (per t) (vadd i h') -> h = h') as Inj.
  { intros h h' A A' B B' E. apply idx_ext. intros k. apply (f_equal (fun v => get v k)) in E. unfold square in E. rewrite !get_vmap, !get_vadd in E. specialize (A k). specialize (A' k). destruct (per t k) eqn:Ep; [|lia]. specialize (H3 k Ep). specialize (Hi k).
    pose proof (Z.div_mod (get i k + get h k) (mlen m k) ltac:(lia)) as D1. pose proof (Z.div_mod (get i k + get h' k) (mlen m k) ltac:(lia)) as D2. rewrite E in D1.
    assert (get h k - get h' k = mlen m k * ((get i k + get h k) / mlen m k - (get i k + get h' k) / mlen m k)) as D by lia. assert ((get i k + get h k) / mlen m k - (get i k + get h' k) / mlen m k = 0) by nia. nia. }
  apply Permutation_length, NoDup_Permutation.
  - apply NoDup_filter, around_once_nodup.
  - assert (NoDup (filter (fun h => alive (mlen m) (per t) b (vadd i h)) (default_hood_of 1))) as N by (apply NoDup_filter; vm_compute; repeat constructor; cbn [In]; intuition discriminate).
    assert (forall h, In h (filter (fun h => alive (mlen m) (per t) b (vadd i h)) (default_hood_of 1)) -> (forall k, -1 <= get h k <= 1) /\ on_board (mlen m) (per t) (vadd i h) = true) as P.
    { intros h I. apply filter_In in I. destruct I as [I A]. apply default_hood_in in I; [|lia]. unfold alive in A. apply andb_prop in A. split; [apply I|apply A]. }
    revert N P. generalize (filter (fun h => alive (mlen m) (per t) b (vadd i h)) (default_hood_of 1)). intros l. induction l as [|h l IH]; intros N P; cbn [map]; [constructor|]. inversion N as [|? ? N1 N2]; subst. constructor; [|apply IH; [assumption|intros q I; apply P; right; assumption]].
    intros I. apply in_map_iff in I. destruct I as (q & E & I). apply N1. destruct (P h (or_introl eq_refl)) as [A B]. destruct (P q (or_intror I)) as [A' B']. rewrite (Inj h q A A' B B' (eq_sym E)). assumption.
  - intros j. rewrite filter_In, around_once_in, in_map_iff. split.
    + intros ((N & h & Hh & B & -> & Nz) & A). exists h. split; [reflexivity|]. apply filter_In. split; [apply default_hood_in; [lia|]; split; assumption|]. unfold alive. rewrite B. cbn [andb]. rewrite <- Hab; [assumption|apply square_on_board; assumption].
    + intros (h & <- & I). apply filter_In in I. destruct I as [I A]. apply default_hood_in in I; [|lia]. destruct I as [Nz Hh]. unfold alive in A. apply andb_prop in A. destruct A as [B A]. split; [|rewrite Hab; [assumption|apply square_on_board; assumption]]. split; [|exists h; auto].
      intros E. apply Nz. apply (Inj h vzero Hh); [intros k; rewrite get_vzero; lia|assumption| |].
      * apply on_board_iff. intros k. right. rewrite get_vadd, get_vzero, Z.add_0_r. apply Hi.
      * rewrite E. symmetry. replace (vadd i vzero) with i by (apply idx_ext; intros k; rewrite get_vadd, get_vzero; ring). apply Sq. assumption.
Qed.
Theorem c81_is_conways_game (m : mapping) t a n : wf m -> (forall k, per t k = true -> 3 <= mlen m k) -> forall i, in_board m i -> turns (mlen m) (per t) n a i = game (mlen m) (per t) (default_hood_of 1) n a i.
Proof.
  intros Hwf H3. induction n as [|n IH]; intros i Hi; [reflexivity|]. cbn [turns game]. apply turn_is_next; assumption.
Qed.
(** unrefined2d.cpp:224-240 compares every cell with the cell at its place in a reference grid that has no refined cells and
    possibly other processes.  After as many turns they are the same. *)
Theorem c81_same_as_reference d0 g x d0' g' y a k n x1 y1 : grid_ok g -> grid_ok g' -> g_len g = 1 -> g_len g' = 1 ->
  m_l0 (g_map g) = m_l0 (g_map g') -> m_l1 (g_map g) = m_l1 (g_map g') -> m_l2 (g_map g) = m_l2 (g_map g') -> g_topo g = g_topo g' -> mlen (g_map g) k = 1 -> m_max (g_map g) <= 1 -> m_max (g_map g') = 0 ->
  xreachable d0 g x -> idle g (x_st x) -> xreachable d0' g' y -> idle g' (x_st y) -> follows g x a -> follows g' y a ->
  game_run d0 g x n (Some x1) -> game_run d0' g' y n (Some y1) ->
  forall c v w, shows g x1 c v -> shows g' y1 (get_level_0_parent (g_map g) c) w -> on v = on w.
Proof.
  intros Hg Hg' Hn Hn' E0 E1 E2 Et Hk Hm Hm' R I R' I' Fa Fb Gx Gy c v w Sv Sw.
  assert (mlen (g_map g) = mlen (g_map g')) as El by (unfold mlen; rewrite E0, E1, E2; reflexivity).
  destruct (c81_plays_the_game d0 g Hg Hn k x a n _ Hk Hm R I Fa Gx) as (x2 & Q & Rx & Fx). injection Q as <-.
  destruct (c81_plays_the_game d0' g' Hg' Hn' k y a n _ ltac:(rewrite <- El; assumption) ltac:(lia) R' I' Fb Gy) as (y2 & Q & Ry & Fy). injection Q as <-.
  rewrite (Fx c v Sv), (Fy _ w Sw), El, Et. f_equal. f_equal.
  pose proof (proj1 (shows_iff d0' g' Hg' y1 _ w Ry) Sw) as Dw. assert (ex_at y1 (get_level_0_parent (g_map g) c) = true) as E. { unfold ex_at, exists_on. unfold data_at in Dw. destruct (owner (x_st y1) 0 _); [reflexivity|discriminate]. }
  pose proof (leaf_valid _ _ (proj1 (proj2 (proj2 (mesh_at d0' g' Hg' y1 Ry)))) _ E) as V. pose proof (cell_level _ (Hwf g' Hg') _ V) as L. rewrite (l0_self _ (Hwf g' Hg') _ V ltac:(lia)).
  unfold position_of. rewrite E0, E1. reflexivity.
Qed.
(** ** From initialize() on *)
Lemma execs_game d0 g x1 l x2 : execs d0 g x1 l x2 -> Forall keeps_life l -> forall x n, game_run d0 g x n (Some x1) -> game_run d0 g x n (Some x2).
Proof.
  induction 1 as [x|x s x1 l x2 E H IH|x b x1 l x2 K Hb E H IH]; intros F y n G; [assumption| |].
  - inversion F as [|? ? K F']; subst. apply IH; [assumption|]. apply run_adapt with x s; assumption.
  - apply IH; [assumption|]. apply run_house with x b; assumption.
Qed.
Theorem c81_from_start d0 g x0 lives x : grid_ok g -> g_len g = 1 -> xinitialize d0 g = Done x0 -> exec_step d0 g x0 (ProgramModel.Compute default_neighborhood_id (fun c _ _ => Life (Z.b2z (lives c)) empty)) x ->
  xreachable d0 g x /\ idle g (x_st x) /\ follows g x (fun i => lives (cell_at (g_map g) i)).
Proof.
  intros Hg Hn E H. destruct (start_ok d0 g Hg x0 E) as (R0 & _ & I0 & X0 & _). split; [apply (exec_reachable d0 g x0 _ x R0 H)|]. split; [destruct (compute_ok d0 g Hg x0 _ _ x R0 H) as (_ & _ & K & _); apply K, I0|].
  apply (c81_first_values d0 g Hg x0 lives x R0 H). intros c Ec. apply (proj2 (proj1 (Create.level0 g Hg c) (proj1 (X0 c) Ec))).
Qed.
