(** C83: propagate_particles on the cells of grids: the same on any number of processes, and when particles are neither
    lost nor made. *)
From Verif Require Import U64 MapModel MapSpec MapProofs MapFamily MapProps HoodModel MeshModel
  MeshSpec MeshBase HoodProps MeshWalk MeshFind MeshKids MeshItem MeshCheck MeshTo MeshNear MeshFace
  Sets RefineModel RefineGeo RefineInv RefineSpread RefineMerge RefineFold RefineExec RefineStop RefineNear
  BalanceModel RefineReqs Create Balance History HistProps CommitProps BalProps LoadCells HistExamples CommModel CommInv CommProps CommViews CommMore CommExamples Stages StageUpdate ZoltanModel ZoltanProps ParticleModel ParticleProps.
From Coq Require Import Permutation.
Open Scope Z_scope.

(** ** Lists *)
Lemma flat_map_perm {A B} (f : A -> list B) l l' : Permutation l l' -> Permutation (flat_map f l) (flat_map f l').
Proof.
  induction 1 as [|a l l' _ IH|a b l|l l' l'' _ IH _ IH']; cbn [flat_map]; [constructor|apply Permutation_app_head; assumption| |eapply Permutation_trans; eassumption]. rewrite !app_assoc. apply Permutation_app_tail, Permutation_app_comm.
Qed.
Definition some_of {B} (l : list B) : bool := match l with [] => false | _ => true end.
Lemma flat_filter {A B} (f : A -> list B) l : flat_map f l = flat_map f (filter (fun a => some_of (f a)) l).
Proof. induction l as [|a l IH]; [reflexivity|]. cbn [flat_map filter]. destruct (f a) as [|b u] eqn:E; cbn [some_of]; [assumption|]. cbn [flat_map]. rewrite E, IH. reflexivity. Qed.
Definition at_id {B} (f : pitem -> list B) (l : list pitem) (a : Z) : list B := match List.find (fun i => fst i =? a) l with Some i => f i | None => [] end.
Lemma at_id_in {B} (f : pitem -> list B) l i : NoDup (map fst l) -> In i l -> at_id f l (fst i) = f i.
Proof.
  intros N I. unfold at_id. induction l as [|j l IH]; [destruct I|]. cbn [List.find map] in *. apply NoDup_cons_iff in N. destruct N as [Nj N]. destruct (Z.eqb_spec (fst j) (fst i)) as [E|E].
  - destruct I as [->|I]; [reflexivity|]. exfalso. apply Nj. rewrite E. apply in_map. assumption.
  - destruct I as [->|I]; [contradiction|]. apply IH; assumption.
Qed.
Lemma flat_ids {B} (f : pitem -> list B) l0 l : NoDup (map fst l0) -> (forall i, In i l -> In i l0) -> flat_map f l = flat_map (at_id f l0) (map fst l).
Proof. intros N. induction l as [|i l IH]; intros H; [reflexivity|]. cbn [flat_map map]. rewrite (at_id_in f l0 i N (H i (or_introl eq_refl))), IH; [reflexivity|]. intros j I. apply H. right. assumption. Qed.
Lemma nodup_filter_fst {A B} (b : A * B -> bool) l : NoDup (map fst l) -> NoDup (map fst (filter b l)).
Proof.
  induction l as [|i l IH]; intros N; [constructor|]. cbn [map filter] in *. apply NoDup_cons_iff in N. destruct N as [Ni N]. destruct (b i); [|apply IH; assumption]. cbn [map]. constructor; [|apply IH; assumption].
  intros J. apply Ni. apply in_map_iff in J. destruct J as (j & E & I). apply filter_In in I. apply in_map_iff. exists j. tauto.
Qed.
Lemma same_sources {B} (f f' : pitem -> list B) l l' : NoDup (map fst l) -> NoDup (map fst l') ->
  (forall i, In i l -> f i <> [] -> exists i', In i' l' /\ fst i' = fst i /\ f' i' = f i) -> (forall i', In i' l' -> f' i' <> [] -> exists i, In i l /\ fst i' = fst i /\ f' i' = f i) ->
  Permutation (flat_map f l) (flat_map f' l').
Proof.
  intros N N' H H'. rewrite (flat_filter f l), (flat_filter f' l'). set (u := filter (fun a => some_of (f a)) l). set (u' := filter (fun a => some_of (f' a)) l').
  assert (forall i, In i u <-> In i l /\ f i <> []) as U. { intros i. unfold u. rewrite filter_In. destruct (f i); cbn [some_of]; split; intros [A C]; split; congruence. }
  assert (forall i, In i u' <-> In i l' /\ f' i <> []) as U'. { intros i. unfold u'. rewrite filter_In. destruct (f' i); cbn [some_of]; split; intros [A C]; split; congruence. }
  rewrite (flat_ids f l u N), (flat_ids f' l' u' N'); [|intros i I; apply U' in I; tauto|intros i I; apply U in I; tauto].
  assert (Permutation (map fst u) (map fst u')) as Q.
  { apply NoDup_Permutation; [apply nodup_filter_fst; assumption|apply nodup_filter_fst; assumption|]. intros a. rewrite !in_map_iff. split.
    - intros (i & E & I). apply U in I. destruct (H i (proj1 I) (proj2 I)) as (i' & I' & E' & F). exists i'. split; [congruence|]. apply U'. split; [assumption|rewrite F; tauto].
    - intros (i' & E & I). apply U' in I. destruct (H' i' (proj1 I) (proj2 I)) as (i & I' & E' & F). exists i. split; [congruence|]. apply U. split; [assumption|rewrite <- F; tauto]. }
  eapply Permutation_trans; [apply (flat_map_perm _ _ _ Q)|].
  assert (forall a, In a (map fst u') -> at_id f l a = at_id f' l' a) as E.
  { intros a I. apply in_map_iff in I. destruct I as (i' & <- & I). apply U' in I. destruct (H' i' (proj1 I) (proj2 I)) as (i & Ii & E & F). rewrite (at_id_in f' l' i' N' (proj1 I)), E, (at_id_in f l i N Ii). congruence. }
  clear -E. induction (map fst u') as [|a w IH]; [constructor|]. cbn [flat_map]. rewrite (E a (or_introl eq_refl)). apply Permutation_app_head. apply IH. intros b I. apply E. right. assumption.
Qed.

(** ** On a grid *)
Section OnGrids.
Context {P : Type} (drift wrap : P -> P) (place_of : P -> Z) (wrapped : forall p, wrap (wrap p) = wrap p).
Notation D := (pdata P).
Notation propagate := (propagate drift wrap place_of).
Notation dft := default_neighborhood_id.
Notation moved ps c := (map drift (ps c%Z)).
(** own cells and copies on a process have the particles ps, as after update_copies_of_remote_neighbors *)
Definition holds_all (v : views) (s : pmemory P) (ps : Z -> list P) : Prop := forall i, In i (view_cells v) -> s (i_id i) = Some (sized (ps (i_id i))).
(** no particle in an own cell or copy enters a neighbor of that cell that the process does not have *)
Definition no_stranger (v : views) (ps : Z -> list P) : Prop := forall i p, In i (view_cells v) -> In p (leaving wrap place_of (i_id i) (moved ps (i_id i))) -> In (place_of p) (map fst (view_of v i)) -> In (place_of p) (map i_id (view_cells v)).
Lemma ids_of v : map fst (items_of v) = map i_id (view_cells v).
Proof. unfold items_of. rewrite map_map. reflexivity. Qed.
Section One.
Context (d0 : D) (g : grid) (Hg : grid_ok g) (x : xstate (D := D)) (R : xreachable d0 g x) (r : Z) (Ir : In r (ranks g)) (v : views) (Ev : iterators g x dft r = Done v).
Notation final ps c := (kept wrap place_of c (moved ps c) ++ gathered drift wrap place_of ps c (items_of v)).
Lemma facts : NoDup (map i_id (view_cells v)) /\ (forall c, In c (map i_id (view_cells v)) <-> owns x r r c \/ (elsewhere x r c /\ exists a, owns x r r a /\ (sees (g_map g) (g_topo g) (g_hood g) a c \/ sees (g_map g) (g_topo g) (g_hood g) c a))) /\
  forall i, In i (view_cells v) -> NoDup (view_of v i) /\ forall y o, In (y, o) (view_of v i) <-> exists_on (x_st x) r y = true /\ exists h, In h (g_hood g) /\ nbr (g_map g) (g_topo g) (i_id i) h y o.
Proof.
  destruct (c38_cells d0 g Hg x dft (g_hood g) r R eq_refl Ir) as (w & E & N & _ & _ & Lo & Re & Sp & _ & It). rewrite Ev in E. injection E as <-. split; [assumption|]. split.
  - intros c. rewrite Sp, map_app, in_app_iff, Lo, Re. reflexivity.
  - intros i I. destruct (It i I) as (Na & Of & _). split; [|assumption]. unfold view_all in Na. unfold view_of, range in *. clear -Na.
    replace (i_first i + i_of i + i_both i + i_to i - i_first i)%nat with ((i_first i + i_of i + i_both i - i_first i) + i_to i)%nat in Na by lia. revert Na. generalize (skipn (i_first i) (v_neighbors v)) as l, (i_first i + i_of i + i_both i - i_first i)%nat as n. intros l n. revert l. induction n as [|n IH]; intros l N; [constructor|]. destruct l as [|a l]; [constructor|].
    cbn [plus firstn] in *. apply NoDup_cons_iff in N. destruct N as [Na N]. constructor; [|apply IH; assumption]. intros I. apply Na. clear -I. revert l I. induction n as [|n IH]; intros l I; [destruct I|]. destruct l as [|b l]; [destruct I|]. cbn [plus firstn] in *. destruct I as [->|I]; [left; reflexivity|right; apply IH; assumption].
Qed.
Lemma runs s ps : holds_all v s ps -> no_stranger v ps -> exists u, propagate (items_of v) s = Some u /\ forall c, In c (map i_id (view_cells v)) -> u c = Some (sized (final ps c)).
Proof.
  intros Hs Hn. destruct (propagate_ok drift wrap place_of wrapped (items_of v) s ps) as (u & E & U).
  - rewrite ids_of. apply facts.
  - intros c I. rewrite ids_of in I. apply in_map_iff in I. destruct I as (i & <- & I). apply (Hs i I).
  - intros j p Ij Ip In'. rewrite ids_of. unfold items_of in Ij. apply in_map_iff in Ij. destruct Ij as (i & <- & Ii). cbn [fst snd] in *. apply (Hn i p Ii Ip In').
  - exists u. split; [assumption|]. intros c I. apply U. rewrite ids_of. assumption.
Qed.
(** After propagate_particles every cell on a process has, in this order, the particles that it keeps and those that other
    cells give to it, each of them once for every item of neighbors_of; number_of_particles is their number. *)
Theorem c83_lists s ps c : holds_all v s ps -> no_stranger v ps -> In c (map i_id (view_cells v)) ->
  exists u, propagate (items_of v) s = Some u /\ u c = Some (PData (Z.of_nat (length (final ps c))) (final ps c)).
Proof. intros Hs Hn I. destruct (runs s ps Hs Hn) as (u & E & U). exists u. split; [assumption|]. apply (U c I). Qed.
(** particles that came from another cell are inside their new cell *)
Theorem c83_arrivals_are_inside ps c p : In p (gathered drift wrap place_of ps c (items_of v)) -> place_of p = c /\ wrap p = p.
Proof. intros I. destruct (gathered_inside drift wrap place_of wrapped ps c _ p I). auto. Qed.
(** If a process has all cells, and every cell that a particle enters is once among the neighbors of the cell that it
    leaves, then there are as many particles after propagate_particles as before *)
Definition found (u : pmemory P) (c : Z) : list P := match u c with Some d => particles d | None => [] end.
Theorem c83_conserved s ps : (forall y, exists_on (x_st x) r y = true -> owns x r r y) -> holds_all v s ps ->
  (forall i p, In i (view_cells v) -> In p (leaving wrap place_of (i_id i) (moved ps (i_id i))) -> times (place_of p) (map fst (view_of v i)) = 1%nat) ->
  let cells := map i_id (view_cells v) in (forall y, In y cells <-> exists_on (x_st x) r y = true) /\
  exists u, propagate (items_of v) s = Some u /\ length (flat_map (found u) cells) = length (flat_map ps cells).
Proof.
  intros Hall Hs Ho. cbv zeta. destruct facts as (N & I & F). assert (forall y, In y (map i_id (view_cells v)) <-> exists_on (x_st x) r y = true) as Iy.
  { intros y. rewrite I. split; [intros [Q|[(q & Q & _) _]]; unfold owns, exists_on in *; rewrite Q; reflexivity|]. intros Q. left. apply Hall. assumption. }
  split; [assumption|]. assert (no_stranger v ps) as Hn. { intros i p Ii Ip J. apply in_map_iff in J. destruct J as ([y o] & E & J). apply (F i Ii) in J. cbn [fst] in E. subst y. apply Iy. apply J. }
  destruct (runs s ps Hs Hn) as (u & E & U). exists u. split; [assumption|].
  rewrite <- ids_of. rewrite <- (conserved drift wrap place_of (items_of v) ps).
  - rewrite ids_of. f_equal. clear -U. induction (map i_id (view_cells v)) as [|a l IH]; [reflexivity|]. cbn [flat_map]. rewrite IH by (intros c J; apply U; right; assumption). f_equal. unfold found. rewrite (U a (or_introl eq_refl)). reflexivity.
  - rewrite ids_of. assumption.
  - intros j p Ij Ip J. rewrite ids_of. unfold items_of in Ij. apply in_map_iff in Ij. destruct Ij as (i & <- & Ii). apply (Hn i p Ii Ip J).
  - intros j p Ij Ip. unfold items_of in Ij. apply in_map_iff in Ij. destruct Ij as (i & <- & Ii). apply (Ho i p Ii Ip).
Qed.
(** If no particle that leaves a cell is followed in its list by one that is outside of the cell, then every particle is
    in the list of the cell that it is inside of *)
Theorem c83_right_place s ps c p : holds_all v s ps -> no_stranger v ps -> In c (map i_id (view_cells v)) ->
  (forall a q b w, moved ps c = a ++ q :: b :: w -> place_of (wrap q) <> c -> place_of b = c) ->
  exists u d, propagate (items_of v) s = Some u /\ u c = Some d /\ (In p (particles d) -> place_of p = c).
Proof.
  intros Hs Hn I H. destruct (runs s ps Hs Hn) as (u & E & U). exists u. eexists. split; [assumption|]. split; [apply (U c I)|]. unfold sized. cbn [particles]. rewrite in_app_iff. intros [J|J]; [apply (calm_kept wrap place_of c _ H p J)|apply (c83_arrivals_are_inside ps c p J)].
Qed.
End One.

(** The two updates and resize() of simple.cpp:285-294 give every copy that a process needs the particles of the cell.
    y has what x1 has on every process. *)
Theorem c83_transfers (d0 : D) g (Hg : grid_ok g) (junk : P) x : xreachable d0 g x ->
  (forall r c d, In r (ranks g) -> owns x r r c -> read x r c = Some d -> number d = Z.of_nat (length (particles d))) ->
  exists x1 y x2, update_with d0 g numbers_sent x dft = Done x1 /\ xreachable d0 g y /\ x_st y = x_st x1 /\ x_hoods y = x_hoods x1 /\ (forall r, In r (ranks g) -> x_copies y r = x_copies x1 r) /\
    update_with d0 g (particles_sent junk) y dft = Done x2 /\ x_st x2 = x_st x /\ (forall r q c, In r (ranks g) -> needs g (g_hood g) x r q c -> exists d, read x q c = Some d /\ read x2 r c = Some d) /\
    forall r c, In r (ranks g) -> (forall q, ~ needs g (g_hood g) x r q c) -> read x2 r c = read x r c.
Proof.
  intros R Hsz. destruct (proj2 (c72_when_updates_succeed d0 g Hg numbers_sent x dft (g_hood g) R eq_refl)) as (x1 & E1); [intros; eexists; reflexivity|].
  destruct (c72_update_parts d0 g Hg _ x dft (g_hood g) x1 R eq_refl E1) as (S1 & H1 & P1). destruct (c72_updates_reach_ordinary_states d0 g Hg _ x dft (g_hood g) x1 R eq_refl E1) as (y & Ry & Sy & Hy & Cy).
  destruct (xreachable_inv d0 g Hg x R) as (own & Hx).
  assert (forall r c, In r (ranks g) -> read y r c = read x1 r c) as Rd by (intros r c Ir; unfold read; rewrite Sy, (Cy r Ir); reflexivity).
  assert (forall r q c, needs g (g_hood g) y r q c <-> needs g (g_hood g) x r q c) as Ne by (intros r q c; unfold needs, owns; rewrite Sy, S1; reflexivity).
  assert (forall r q c, In r (ranks g) -> needs g (g_hood g) x r q c -> In q (ranks g) /\ owns x q q c) as Nq.
  { intros r q c Ir (O & _). unfold owns in *. rewrite (xview g own x r c Hx Ir) in O. pose proof (proj2 (proj1 (proj1 (proj1 Hx))) c q O) as Iq. split; [assumption|]. rewrite (xview g own x q c Hx Iq). assumption. }
  assert (forall r q c, In r (ranks g) -> needs g (g_hood g) x r q c -> exists d b, read x q c = Some d /\ read y q c = Some d /\ number d = Z.of_nat (length (particles d)) /\ read y r c = Some (PData (number d) b)) as K.
  { intros r q c Ir N. destruct (Nq r q c Ir N) as [Iq Oq]. destruct (P1 r c Ir) as [A _]. destruct (A q N) as (d & b & w & V & _ & W & F). unfold numbers_sent in W. injection W as <-. exists d, (particles b). split; [assumption|]. split; [|split; [apply (Hsz q c d Iq Oq V)|rewrite (Rd r c Ir); assumption]].
    rewrite (Rd q c Iq). destruct (P1 q c Iq) as [_ B]. rewrite B; [assumption|]. intros q' (O' & N' & _). unfold owns in *. congruence. }
  assert (forall junk (d : D) (l : list P), number d = Z.of_nat (length (particles d)) -> length (resized junk (PData (number d) l)) = length (particles d)) as Rz.
  { intros j d l E. unfold resized. cbn [number particles]. rewrite E, Nat2Z.id, app_length, firstn_length, repeat_length. lia. }
  destruct (proj2 (c72_when_updates_succeed d0 g Hg (particles_sent junk) y dft (g_hood g) Ry eq_refl)) as (x2 & E2).
  { intros r q c d b Ir N V B. apply Ne in N. destruct (K r q c Ir N) as (d' & l & _ & V' & Sz & B'). assert (d' = d) as -> by congruence. assert (b = PData (number d) l) as -> by congruence. unfold particles_sent. rewrite (Rz junk d l Sz), Z.ltb_irrefl. eexists. reflexivity. }
  destruct (c72_update_parts d0 g Hg _ y dft (g_hood g) x2 Ry eq_refl E2) as (S2 & _ & P2). exists x1, y, x2. split; [assumption|]. split; [assumption|]. split; [assumption|]. split; [assumption|]. split; [assumption|]. split; [assumption|]. split; [congruence|].
  split; [|intros r c Ir N; destruct (P1 r c Ir) as [_ B1]; destruct (P2 r c Ir) as [_ B2]; rewrite B2 by (intros q M; apply (N q), Ne, M); rewrite (Rd r c Ir); apply B1, N].
  intros r q c Ir N. destruct (K r q c Ir N) as (d & l & V & V' & Sz & B). exists d. split; [assumption|]. destruct (P2 r c Ir) as [A _]. destruct (A q (proj2 (Ne r q c) N)) as (d2 & b & w & V2 & B2 & W & F). assert (d2 = d) as -> by congruence. assert (b = PData (number d) l) as -> by congruence.
  rewrite F. f_equal. unfold particles_sent in W. rewrite (Rz junk d l Sz), Z.ltb_irrefl in W. injection W as <-. rewrite <- (Rz junk d l Sz) at 1. rewrite skipn_all, app_nil_r. destruct d; reflexivity.
Qed.
(** If all cells are of the same size, as in the program, this gives all copies that propagate_particles uses the
    particles of their owners.  z is what the second update leaves. *)
Theorem c83_copies_hold_all (d0 : D) g (Hg : grid_ok g) (junk : P) x ps : xreachable d0 g x ->
  (forall r a b, In r (ranks g) -> exists_on (x_st x) r a = true -> exists_on (x_st x) r b = true -> lvl_of (g_map g) a = lvl_of (g_map g) b) ->
  (forall r c, In r (ranks g) -> owns x r r c -> read x r c = Some (sized (ps c))) ->
  exists x1 y x2 z, update_with d0 g numbers_sent x dft = Done x1 /\ xreachable d0 g y /\ x_st y = x_st x1 /\ x_hoods y = x_hoods x1 /\ (forall r, In r (ranks g) -> x_copies y r = x_copies x1 r) /\
    update_with d0 g (particles_sent junk) y dft = Done x2 /\ xreachable d0 g z /\ x_st z = x_st x2 /\ x_hoods z = x_hoods x2 /\ (forall r, In r (ranks g) -> x_copies z r = x_copies x2 r) /\ x_st z = x_st x /\
    forall r, In r (ranks g) -> exists v, iterators g z dft r = Done v /\ holds_all v (read z r) ps.
Proof.
  intros R Hl Hs. destruct (c83_transfers d0 g Hg junk x R) as (x1 & y & x2 & E1 & Ry & Sy & Hy & Cy & E2 & S2 & K & K').
  { intros r c d Ir O V. rewrite (Hs r c Ir O) in V. injection V as <-. reflexivity. }
  destruct (c72_updates_reach_ordinary_states d0 g Hg _ y dft (g_hood g) x2 Ry eq_refl E2) as (z & Rz & Sz & Hz & Cz).
  assert (x_st z = x_st x) as Szx by congruence. exists x1, y, x2, z. repeat (split; [assumption|]).
  intros r Ir. destruct (c38_cells d0 g Hg z dft (g_hood g) r Rz eq_refl Ir) as (v & Ev & _). exists v. split; [assumption|].
  destruct (facts d0 g Hg z Rz r Ir v Ev) as (_ & Fc & _). destruct (xreachable_inv d0 g Hg x R) as (own & Hx).
  assert (forall c, read z r c = read x2 r c) as Rd by (intros c; unfold read; rewrite Sz, (Cz r Ir); reflexivity).
  intros i Ii. apply (in_map i_id) in Ii. apply Fc in Ii. set (c := i_id i) in *. rewrite Rd. unfold elsewhere, owns in Ii. rewrite Szx in Ii. destruct Ii as [O|[(q & Oq & Nq) (a & Oa & Se)]].
  - rewrite (K' r c Ir); [apply (Hs r c Ir O)|]. intros q (O' & N' & _). unfold owns in O'. congruence.
  - assert (sees (g_map g) (g_topo g) (g_hood g) a c) as Sac.
    { destruct Se as [Se|Se]; [assumption|].
      assert (exists_on (x_st x) r a = true) as Ea by (unfold exists_on; rewrite Oa; reflexivity). assert (exists_on (x_st x) r c = true) as Ec by (unfold exists_on; rewrite Oq; reflexivity).
      apply (c60_graph_is_symmetric_within_a_level d0 g Hg (x_st x) r a c (xreachable_reachable d0 g x R) Ir Ea Ec); [congruence|apply (Hl r); assumption|assumption]. }
    assert (needs g (g_hood g) x r q c) as N by (split; [exact Oq|]; split; [assumption|]; exists a; split; assumption).
    destruct (K r q c Ir N) as (d & V & W). rewrite W. rewrite (xview g own x r c Hx Ir) in Oq. pose proof (proj2 (proj1 (proj1 (proj1 Hx))) c q Oq) as Iq. rewrite <- V. apply (Hs q c Iq). unfold owns. rewrite (xview g own x q c Hx Iq). assumption.
Qed.
(** The particles of a cell, up to order, do not depend on the number of processes and on the distribution of cells *)
Theorem c83_same_on_any_processes (d0 d0' : D) g g' (Hg : grid_ok g) (Hg' : grid_ok g') x x' r r' v v' s s' ps c :
  g_map g = g_map g' -> g_topo g = g_topo g' -> g_len g = g_len g' -> xreachable d0 g x -> xreachable d0' g' x' -> In r (ranks g) -> In r' (ranks g') ->
  (forall y, exists_on (x_st x) r y = exists_on (x_st x') r' y) -> iterators g x dft r = Done v -> iterators g' x' dft r' = Done v' ->
  holds_all v s ps -> holds_all v' s' ps -> no_stranger v ps -> no_stranger v' ps -> owns x r r c -> owns x' r' r' c ->
  exists u u' l l', propagate (items_of v) s = Some u /\ propagate (items_of v') s' = Some u' /\ u c = Some (sized l) /\ u' c = Some (sized l') /\ Permutation l l'.
Proof.
  intros Em Et El R R' Ir Ir' Ex Ev Ev' Hs Hs' Hn Hn' O O'.
  destruct (facts d0 g Hg x R r Ir v Ev) as (N & I & F). destruct (facts d0' g' Hg' x' R' r' Ir' v' Ev') as (N' & I' & F').
  destruct (runs d0 g Hg x R r Ir v Ev s ps Hs Hn) as (u & E & U). destruct (runs d0' g' Hg' x' R' r' Ir' v' Ev' s' ps Hs' Hn') as (u' & E' & U').
  exists u, u'. eexists _, _. split; [assumption|]. split; [assumption|]. split; [apply U, I; left; assumption|]. split; [apply U', I'; left; assumption|]. apply Permutation_app_head. unfold gathered.
  assert (g_hood g = g_hood g') as Eh by (unfold g_hood; rewrite El; reflexivity).
  assert (forall i i', In i (view_cells v) -> In i' (view_cells v') -> i_id i = i_id i' -> times c (map fst (view_of v i)) = times c (map fst (view_of v' i'))) as T.
  { intros i i' Ii Ii' Eid. destruct (F i Ii) as [Ni Mi], (F' i' Ii') as [Ni' Mi']. unfold times. apply (Permutation_count_occ Z.eq_dec). apply Permutation_map, NoDup_Permutation; [assumption|assumption|]. intros [y o]. rewrite Mi, Mi', Ex, Eid, Em, Et, Eh. reflexivity. }
  assert (forall y z nbrs out, given_by place_of y nbrs out <> [] -> z = y -> In y nbrs) as G.
  { intros y z nbrs out H _. unfold given_by in H. destruct (in_dec Z.eq_dec y nbrs) as [J|J]; [assumption|]. exfalso. apply H. clear H. apply (count_occ_not_In Z.eq_dec) in J. unfold times. rewrite J. clear. induction out as [|p out IH]; [reflexivity|]. cbn [flat_map]. destruct (place_of p =? y); exact IH. }
  assert (forall y nb nb' out, times y nb = times y nb' -> given_by place_of y nb out = given_by place_of y nb' out) as G2 by (intros y nb nb' out H; unfold given_by; rewrite H; reflexivity).
  assert (forall (e0 : D) gg (Hgg : grid_ok gg) xx (RR : xreachable e0 gg xx) rr, In rr (ranks gg) -> forall a, exists_on (x_st xx) rr a = true -> owns xx rr rr a \/ elsewhere xx rr a) as W.
  { intros e0 gg Hgg xx RR rr Irr a Q. unfold exists_on in Q. unfold elsewhere, owns. destruct (owner (x_st xx) rr a) as [q|]; [|discriminate]. destruct (Z.eq_dec q rr) as [->|]; [left; reflexivity|right; exists q; auto]. }
  assert (forall (xx : xstate (D := D)) rr a, owns xx rr rr a \/ elsewhere xx rr a -> exists_on (x_st xx) rr a = true) as W2. { intros xx rr a [Q|(q & Q & _)]; unfold owns, exists_on in *; rewrite Q; reflexivity. }
  apply same_sources; [rewrite ids_of; assumption|rewrite ids_of; assumption| |].
  - intros j Ij Hf. unfold items_of in Ij. apply in_map_iff in Ij. destruct Ij as (i & <- & Ii). cbn [fst snd] in *. pose proof (G _ c _ _ Hf eq_refl) as J. apply in_map_iff in J. destruct J as ([y o] & <- & J). cbn [fst] in *. apply (F i Ii) in J. destruct J as (_ & h & Ih & Nb).
    assert (exists_on (x_st x) r (i_id i) = true) as Ea by (apply W2; pose proof (proj1 (I (i_id i)) (in_map i_id _ _ Ii)) as Q; tauto). rewrite Ex in Ea.
    assert (In (i_id i) (map i_id (view_cells v'))) as J'. { apply I'. destruct (W d0' g' Hg' x' R' r' Ir' _ Ea) as [Q|Q]; [left; assumption|right]. split; [assumption|]. exists y. split; [assumption|]. right. exists h, o. rewrite <- Em, <- Et, <- Eh. auto. }
    apply in_map_iff in J'. destruct J' as (i' & Eid & Ii'). exists (i_id i', map fst (view_of v' i')). split; [unfold items_of; apply in_map_iff; exists i'; auto|]. cbn [fst snd]. split; [assumption|]. rewrite Eid. apply G2. symmetry. apply T; [assumption|assumption|congruence].
  - intros j Ij Hf. unfold items_of in Ij. apply in_map_iff in Ij. destruct Ij as (i' & <- & Ii'). cbn [fst snd] in *. pose proof (G _ c _ _ Hf eq_refl) as J. apply in_map_iff in J. destruct J as ([y o] & <- & J). cbn [fst] in *. apply (F' i' Ii') in J. destruct J as (_ & h & Ih & Nb).
    assert (exists_on (x_st x') r' (i_id i') = true) as Ea by (apply W2; pose proof (proj1 (I' (i_id i')) (in_map i_id _ _ Ii')) as Q; tauto). rewrite <- Ex in Ea.
    assert (In (i_id i') (map i_id (view_cells v))) as J'. { apply I. destruct (W d0 g Hg x R r Ir _ Ea) as [Q|Q]; [left; assumption|right]. split; [assumption|]. exists y. split; [assumption|]. right. exists h, o. rewrite Em, Et, Eh. auto. }
    apply in_map_iff in J'. destruct J' as (i & Eid & Ii). exists (i_id i, map fst (view_of v i)). split; [unfold items_of; apply in_map_iff; exists i; auto|]. cbn [fst snd]. split; [congruence|]. rewrite Eid. apply G2. symmetry. apply T; [assumption|assumption|congruence].
Qed.
End OnGrids.
