(** What the neighbor lists of every neighborhood contain, and the invariant of all histories of
    calls including those for neighborhoods and copies of remote neighbors. *)
From Verif Require Import U64 MapModel MapSpec MapProofs MapFamily MapProps HoodModel MeshModel
  MeshSpec MeshBase HoodProps MeshWalk MeshFind MeshKids MeshItem MeshCheck MeshTo MeshNear
  Sets RefineModel RefineGeo RefineInv RefineSpread RefineMerge RefineFold RefineExec RefineStop
  BalanceModel RefineReqs Create Balance History CommModel.
Open Scope Z_scope.

Section Comm.
Context {D : Type} (d0 : D) (g : grid) (Hg : grid_ok g).
Notation m := (g_map g).
Notation t := (g_topo g).
Notation n := (g_len g).
Notation H := (g_hood g).

(** a local cell and a remote cell, one of which is in neighborhood U of the other *)
Definition beside (U : hood) (own : Z -> option Z) (r a b : Z) : Prop :=
  own a = Some r /\ exo own b = true /\ own b <> Some r /\ (sees m t U a b \/ sees m t U b a).

Definition nof_spec (U : hood) (own : Z -> option Z) (nof : list (Z * list (Z * idx))) : Prop :=
  (forall c, exo own c = true -> exists l, find c nof = Some l /\
    forall x o, In (x, o) l <-> exo own x = true /\ exists h, In h U /\ nbr m t c h x o) /\
  (forall c, exo own c = false -> find c nof = None).
Definition nto_spec (U : hood) (own : Z -> option Z) (nto : list (Z * list Z)) : Prop :=
  (forall c, exo own c = true -> exists l, find c nto = Some l /\ NoDup l /\
    forall x, In x l <-> exo own x = true /\ sees m t U x c) /\
  (forall c, exo own c = false -> find c nto = None).
Definition lists_spec (U : hood) (own : Z -> option Z) (r : Z) (L : lists) : Prop :=
  nof_spec U own (l_of L) /\ nto_spec U own (l_to L) /\
  (forall a, In a (l_local L) <-> exists b, beside U own r a b) /\
  (forall b, In b (l_remote L) <-> exists a, beside U own r a b) /\
  NoDup (l_local L) /\ NoDup (l_remote L).

Lemma fst_sees U own c l : (forall x o, In (x, o) l <-> exo own x = true /\ exists h, In h U /\ nbr m t c h x o) ->
  forall x, In x (map fst l) <-> exo own x = true /\ sees m t U c x.
Proof.
  intros P x. rewrite in_map_iff. split.
  - intros ([y o] & Ey & Hi). cbn [fst] in Ey. subst y. apply P in Hi. destruct Hi as (Ex & h & Hh & N). split; [assumption|]. exists h, o. auto.
  - intros (Ex & h & o & Hh & N). exists (x, o). split; [reflexivity|]. apply P. split; [assumption|]. exists h. auto.
Qed.

Lemma sub_fits U : (forall h, In h U -> In h H) -> hood_fits m t U.
Proof. intros S h k Hh. apply (proj1 (proj2 (proj2 Hg))). apply S, Hh. Qed.

Section Lists.
Context (own : Z -> option Z) (r : Z) (s : store D) (Hw : world_ok g own) (Hs : store_ok own r s).
Context (U : hood) (HU : forall h, In h U -> In h H).

Lemma nof_ok cells : (forall c, In c cells <-> exo own c = true) ->
  exists nof, mapM (fun c => do l <- find_neighbors_of (exb s) m t c U; Done (c, l)) cells = Done nof /\ nof_spec U own nof.
Proof.
  intros Kc. pose proof (store_mesh g own r s Hw Hs) as M. pose proof (fun c => exb_exo own r s c Hs) as Eb.
  destruct (keyed (fun c => find_neighbors_of (exb s) m t c U) cells) as (nof & Eof & Pof & Nof).
  { intros c Hc. apply Kc in Hc. rewrite <- Eb in Hc. destruct (neighbors_of_in m t n (exb s) c U M Hc HU) as (l & El & _). eauto. }
  exists nof. split; [assumption|]. split.
  - intros c Ec. destruct (Pof c (proj2 (Kc c) Ec)) as (l & El & Fl). exists l. split; [assumption|].
    rewrite <- Eb in Ec. destruct (neighbors_of_in m t n (exb s) c U M Ec HU) as (l' & El' & Pl). rewrite El in El'. injection El' as <-. intros x o. rewrite Pl, Eb. reflexivity.
  - intros c Ec. apply Nof. rewrite Kc, Ec. discriminate.
Qed.
Lemma nto_ok cells : (forall c, In c cells <-> exo own c = true) ->
  exists nto, mapM (fun c => do l <- find_neighbors_to (exb s) m t c (hood_to U); Done (c, l)) cells = Done nto /\ nto_spec U own nto.
Proof.
  intros Kc. pose proof (store_mesh g own r s Hw Hs) as M. pose proof (fun c => exb_exo own r s c Hs) as Eb.
  destruct (keyed (fun c => find_neighbors_to (exb s) m t c (hood_to U)) cells) as (nto & Eto & Pto & Nto).
  { intros c Hc. apply Kc in Hc. rewrite <- Eb in Hc. destruct (c15_neighbors_to m t n (exb s) c U M Hc HU (sub_fits U HU)) as (l & El & _). eauto. }
  exists nto. split; [assumption|]. split.
  - intros c Ec. destruct (Pto c (proj2 (Kc c) Ec)) as (l & El & Fl). exists l. split; [assumption|].
    rewrite <- Eb in Ec. destruct (c15_neighbors_to m t n (exb s) c U M Ec HU (sub_fits U HU)) as (l' & El' & Nl & Pl). rewrite El in El'. injection El' as <-. split; [assumption|]. intros x. rewrite Pl, Eb. reflexivity.
  - intros c Ec. apply Nto. rewrite Kc, Ec. discriminate.
Qed.

Lemma not_error c : exo own c = true -> (c =? error_cell) = false.
Proof.
  intros Ec. destruct Hw as [(_ & _ & Tw & _) _]. pose proof (leaf_valid m _ Tw c Ec) as Vb. unfold valid in Vb. unfold error_cell. lia.
Qed.

Lemma remote_of_ok nof nto c : nof_spec U own nof -> nto_spec U own nto -> own c = Some r ->
  exists l, remote_of r s nof nto c = Done l /\ forall b, In b l <-> beside U own r c b.
Proof.
  intros [Sof _] [Sto _] Oc. unfold remote_of. pose proof Hs as (P & _). rewrite P, Oc, Z.eqb_refl. cbn [negb].
  assert (exo own c = true) as Ec by (apply exo_some; eauto).
  destruct (Sof c Ec) as (la & Fa & Pa). pose proof (fst_sees U own c la Pa) as Pa'. destruct (Sto c Ec) as (lb & Fb & _ & Pb).
  unfold at_. rewrite Fa, Fb. cbn [bind].
  destruct (mapM_concat (fun x => do w <- at_ x (s_proc s); Done (if w =? r then [] else [x])) (fun x b => b = x /\ own x <> Some r)
    (filter (fun x => negb (x =? error_cell)) (map fst la) ++ lb)) as (bs & Ebs & Pbs).
  { intros x Hx. assert (exo own x = true) as Ex.
    { apply in_app_iff in Hx. destruct Hx as [Hx|Hx]; [apply filter_In in Hx; apply Pa', Hx|apply Pb, Hx]. }
    apply exo_some in Ex. destruct Ex as (w & Ow). unfold at_. rewrite P, Ow. cbn [bind]. eexists. split; [reflexivity|].
    intros b. destruct (Z.eqb_spec w r) as [->|N]; cbn [In]; split; [intros []|intros (_ & Q); congruence| |]; [intros [<-|[]]|]; intuition congruence. }
  unfold at_ in Ebs. rewrite Ebs. cbn [bind]. eexists. split; [reflexivity|]. intros b. rewrite Pbs. unfold beside. split.
  - intros (x & Hx & -> & Nx). split; [assumption|]. apply in_app_iff in Hx. destruct Hx as [Hx|Hx].
    + apply filter_In in Hx. destruct Hx as [Hx _]. apply Pa' in Hx. destruct Hx. auto.
    + apply Pb in Hx. destruct Hx. auto.
  - intros (_ & Ex & Nx & L). exists b. split; [|auto]. apply in_app_iff. destruct L as [L|L].
    + left. apply filter_In. split; [apply Pa'; auto|]. rewrite not_error by assumption. reflexivity.
    + right. apply Pb. auto.
Qed.

Lemma Forall2_keys {A B} (f : A -> outcome B) l rs : Forall2 (fun a b => bind (f a) (fun l => Done (a, l)) = Done b) l rs -> map fst rs = l.
Proof. induction 1 as [|a b l rs E _ IH]; [reflexivity|]. apply bind_done in E. destruct E as (x & _ & E). injection E as <-. cbn [map fst]. rewrite IH. reflexivity. Qed.

Lemma NoDup_map_filter {A} (f : Z * A -> bool) (l : list (Z * A)) : NoDup (map fst l) -> NoDup (map fst (filter f l)).
Proof.
  induction l as [|[k a] l IH]; intros N; cbn [filter map]; [constructor|]. cbn [map fst] in N. apply NoDup_cons_iff in N.
  destruct (f (k, a)); cbn [map fst]; [|apply IH; tauto]. constructor; [|apply IH; tauto]. intros Q. apply N. rewrite in_map_iff in *. destruct Q as (x & E & Q). exists x. split; [assumption|]. apply filter_In in Q. tauto.
Qed.

Lemma bnd_ok nof nto : nof_spec U own nof -> nto_spec U own nto -> exists b, build_bnd g r s nof nto = Done b /\
  (forall a, In a (fst b) <-> exists x, beside U own r a x) /\ (forall x, In x (snd b) <-> exists a, beside U own r a x) /\
  NoDup (fst b) /\ NoDup (snd b).
Proof.
  intros Sof Sto. pose proof Hs as (_ & _ & NDd & Kd). pose proof (fun c => exb_exo own r s c Hs) as Eb. pose proof (store_mesh g own r s Hw Hs) as (_ & _ & T & _).
  destruct (RefineInv.mapM_ok (fun c => do l <- remote_of r s nof nto c; Done (c, l)) (fun (c : Z) (e : Z * list Z) => fst e = c /\ own c = Some r /\ forall b, In b (snd e) <-> beside U own r c b)
    (filter (fun c => c =? get_child_ex (exb s) m c) (keys (s_data s)))) as (rs & Ers & Prs).
  { intros c Hc. apply filter_In in Hc. destruct Hc as [Hc _]. apply keys_find in Hc. assert (own c = Some r) as Oc by (apply Kd, has_find; assumption).
    destruct (remote_of_ok nof nto c Sof Sto Oc) as (l & El & Pl). rewrite El. cbn [bind]. eexists. split; [reflexivity|]. auto. }
  assert (forall e, In e rs -> own (fst e) = Some r /\ forall b, In b (snd e) <-> beside U own r (fst e) b) as Q1.
  { intros e He. destruct (Forall2_In_r _ _ _ _ Prs He) as (c & _ & <- & ? & ?). auto. }
  assert (forall a, own a = Some r -> exists e, In e rs /\ fst e = a) as Q2.
  { intros a Oa. destruct (Forall2_In_l _ _ _ a Prs) as (e & He & Ee & _); [|eauto].
    apply filter_In. assert (exb s a = true) as Ea by (rewrite Eb; apply exo_some; eauto). split.
    - apply keys_find. apply has_find. apply Kd. assumption.
    - rewrite (get_child_ex_leaf m (proj1 Hg) (exb s) T a Ea). apply Z.eqb_refl. }
  unfold build_bnd. rewrite Ers. cbn [bind]. eexists. split; [reflexivity|]. cbn [fst snd]. split; [|split; [|split]].
  - intros a. rewrite in_map_iff. split.
    + intros (e & <- & Hi). apply filter_In in Hi. destruct Hi as [Hi Hl]. destruct (Q1 e Hi) as [_ P]. destruct (snd e) as [|b l]; [discriminate|]. exists b. apply P. left. reflexivity.
    + intros (b & Hb). destruct (Q2 a (proj1 Hb)) as (e & He & <-). exists e. split; [reflexivity|]. apply filter_In. split; [assumption|]. apply (Q1 e He) in Hb. destruct (snd e); [destruct Hb|reflexivity].
  - intros b. rewrite nodup_In, in_flat_map. split.
    + intros (e & Hi & Hb). exists (fst e). apply (Q1 e Hi), Hb.
    + intros (a & Ha). destruct (Q2 a (proj1 Ha)) as (e & He & <-). exists e. split; [assumption|]. apply (Q1 e He), Ha.
  - apply NoDup_map_filter. rewrite (Forall2_keys _ _ _ (mapM_inv _ _ _ Ers)). apply NoDup_filter. assumption.
  - apply NoDup_nodup.
Qed.

Lemma user_lists_ok : exists L, user_lists g r s U = Done L /\ lists_spec U own r L.
Proof.
  assert (forall c, In c (keys (s_proc s)) <-> exo own c = true) as Kc by (intros c; apply (store_keys own r s c Hs)).
  destruct (nof_ok _ Kc) as (nof & E1 & S1). destruct (nto_ok _ Kc) as (nto & E2 & S2). destruct (bnd_ok nof nto S1 S2) as (b & E3 & P1 & P2 & P3 & P4).
  unfold user_lists. rewrite E1. cbn [bind]. rewrite E2. cbn [bind].
  destruct (RefineInv.mapM_ok (fun c => at_ c (s_proc s)) (fun _ _ => True) (keys (s_data s))) as (x & Ex & _).
  { intros c Hc. apply keys_find in Hc. apply has_find in Hc. apply (proj2 (proj2 (proj2 Hs))) in Hc. exists r. split; [|exact I]. unfold at_. rewrite (proj1 Hs), Hc. reflexivity. }
  rewrite Ex. cbn [bind]. rewrite E3. cbn [bind]. eexists. split; [reflexivity|]. split; [exact S1|]. split; [exact S2|]. cbn [l_local l_remote]. auto.
Qed.
End Lists.

Lemma default_lists_ok own r (s : store D) k : world_ok g own -> store_ok own r s -> rebuild g r s = Done k -> lists_spec H own r (default_lists k).
Proof.
  intros Hw Hs E. pose proof (store_mesh g own r s Hw Hs) as (_ & _ & T & _).
  assert (forall c, In c (filter (updated g (exb s)) (keys (s_proc s))) <-> exo own c = true) as Kc.
  { intros c. rewrite filter_In, (updated_leaf g Hg (exb s) c T), (store_keys own r s c Hs), (exb_exo own r s c Hs). tauto. }
  destruct (nof_ok own r s Hw Hs H (fun h Q => Q) _ Kc) as (nof & E1 & S1). destruct (nto_ok own r s Hw Hs H (fun h Q => Q) _ Kc) as (nto & E2 & S2).
  destruct (bnd_ok own r s Hw Hs H nof nto S1 S2) as (b & E3 & P1 & P2 & P3 & P4).
  unfold rebuild, build_of, build_to in E. rewrite E1 in E. cbn [bind] in E. rewrite E2 in E. cbn [bind] in E. rewrite E3 in E. cbn [bind] in E. injection E as <-.
  split; [exact S1|]. split; [exact S2|]. cbn [default_lists k_local k_remote l_local l_remote]. auto.
Qed.

(** ** The invariant *)
Definition hoods_ok (hs : hoods) : Prop := forall id U, hood_lookup hs id = Some U -> forall h, In h U -> In h H.

(** the items of a neighborhood in use *)
Definition hood_at (hs : hoods) (id : Z) : option hood := if id =? default_neighborhood_id then Some H else hood_lookup hs id.

Lemma lists_of_ok own (st : Z -> proc D) hs id r U : good g own st -> hoods_ok hs -> In r (ranks g) -> hood_at hs id = Some U ->
  exists L, lists_of g hs id r (st r) = Done (Some L) /\ lists_spec U own r L.
Proof.
  intros (Hw & Hr) Ho Ir E. destruct (Hr r Ir) as (Hs & Hc & _). unfold lists_of. unfold hood_at in E. destruct (id =? default_neighborhood_id).
  - injection E as <-. eexists. split; [reflexivity|]. apply (default_lists_ok own r _ _ Hw Hs Hc).
  - rewrite E. destruct (user_lists_ok own r _ Hw Hs U (Ho id U E)) as (L & EL & SL). rewrite EL. cbn [bind]. eauto.
Qed.
Lemma lists_of_none hs id r (p : proc D) : hood_at hs id = None -> lists_of g hs id r p = Done None.
Proof. unfold hood_at, lists_of. destruct (id =? default_neighborhood_id); [discriminate|]. intros ->. reflexivity. Qed.
Lemma hood_at_sub hs id U : hoods_ok hs -> hood_at hs id = Some U -> forall h, In h U -> In h H.
Proof. unfold hood_at. intros Ho E. destruct (id =? default_neighborhood_id); [injection E as <-; auto|]. apply (Ho id U E). Qed.
Lemma beside_sub U own r a b : (forall h, In h U -> In h H) -> beside U own r a b -> beside H own r a b.
Proof.
  intros S (A & B & C & L). split; [assumption|]. split; [assumption|]. split; [assumption|].
  destruct L as [(h & o & Hh & N)|(h & o & Hh & N)]; [left|right]; exists h, o; auto.
Qed.

Definition copies_ok (x : xstate (D := D)) : Prop := forall r, In r (ranks g) ->
  NoDup (keys (x_copies x r)) /\ forall c, has c (x_copies x r) = true <-> In c (k_remote (p_cache (x_st x r))).
Definition xinv (own : Z -> option Z) (x : xstate (D := D)) : Prop :=
  inv g own (x_st x) /\ copies_ok x /\ hoods_ok (x_hoods x).

Lemma find_allocate cells (f : list (Z * D)) c : find c (allocate d0 cells f) = if mem c cells && negb (has c f) then Some d0 else find c f.
Proof. apply find_touches. Qed.
Lemma has_allocate cells (f : list (Z * D)) c : has c (allocate d0 cells f) = true <-> In c cells \/ has c f = true.
Proof.
  rewrite <- mem_In. unfold has at 1. rewrite find_allocate. destruct (mem c cells); cbn [andb]; [|fold (has c f); split; [tauto|intros [Q|Q]; [discriminate|assumption]]].
  destruct (has c f) eqn:E; cbn [negb]; [fold (has c f); rewrite E; tauto|tauto].
Qed.
Lemma allocate_NoDup cells (f : list (Z * D)) : NoDup (keys f) -> NoDup (keys (allocate d0 cells f)).
Proof. apply touches_NoDup. Qed.
Lemma fresh_ok st : copies_ok (XState st (fresh_copies d0 st) []).
Proof.
  intros r _. cbn [x_copies x_st]. unfold fresh_copies. split; [apply allocate_NoDup; constructor|]. intros c. rewrite has_allocate. cbn. split; [intros [Q|Q]; [assumption|discriminate]|auto].
Qed.

Lemma each_ok {A} (f : Z -> outcome A) base (P : Z -> A -> Prop) : (forall r, In r (ranks g) -> exists a, f r = Done a /\ P r a) ->
  exists F, each g f base = Done F /\ forall r, In r (ranks g) -> f r = Done (F r) /\ P r (F r).
Proof. apply collect_ok. Qed.

Lemma quiet_cache st (a : call (D := D)) st' : quiet a -> run d0 g st a = Done st' -> forall r, p_cache (st' r) = p_cache (st r).
Proof.
  intros Q E r. destruct a; cbn [quiet] in Q; try contradiction; cbn [run] in E; try (apply bind_done in E; destruct E as (x & _ & E));
    injection E as <-; try reflexivity; unfold set_rank; destruct (Z.eqb_spec r r0) as [->|]; reflexivity.
Qed.

Lemma add_hoods_ok hs id items : hoods_ok hs -> hoods_ok (snd (add_neighborhood n hs id items)) /\
  (fst (add_neighborhood n hs id items) = true -> forall h, In h items -> In h H).
Proof.
  intros Ho. pose proof Hg as (_ & Hn & _). pose proof (c12_add_neighborhood n hs id items (proj1 Hn)) as A. destruct (add_neighborhood n hs id items) as [ok hs'].
  cbn [fst snd]. destruct A as (A1 & A2 & A3). assert (ok = true -> forall h, In h items -> In h H) as K by (intros E; apply A1 in E; apply E). split; [|exact K].
  destruct ok; [|rewrite A2 by reflexivity; assumption]. destruct (A3 eq_refl) as [B1 B2]. intros j U L. destruct (Z.eq_dec j id) as [->|N].
  - rewrite B1 in L. injection L as <-. apply K. reflexivity.
  - rewrite (B2 j N) in L. apply (Ho j U L).
Qed.
Lemma remove_hoods_ok hs id : hoods_ok hs -> hoods_ok (remove_neighborhood hs id).
Proof. intros Ho j U. rewrite c12_remove_neighborhood. destruct (_ && _); [discriminate|]. apply Ho. Qed.

(** ** Transfer lists *)
Lemma listed_NoDup' q (l : list (Z * Z)) : NoDup l -> NoDup (listed q l).
Proof.
  intros N. apply sort_NoDup. induction l as [|[a b] l IH]; cbn [filter map]; [constructor|]. cbn [fst] in *. apply NoDup_cons_iff in N.
  destruct (Z.eqb_spec a q) as [->|]; cbn [map snd]; [|apply IH; tauto]. constructor; [|apply IH; tauto]. intros Q. apply N. rewrite in_map_iff in Q. destruct Q as ([x y] & E & Q). apply filter_In in Q. cbn [fst snd] in *. destruct Q as [Q E']. apply Z.eqb_eq in E'. subst. assumption.
Qed.
Lemma listed_same' q q' (l l' : list (Z * Z)) : NoDup l -> NoDup l' -> (forall k, In (q, k) l <-> In (q', k) l') -> listed q l = listed q' l'.
Proof.
  intros N N' E. apply sorted_eq; try apply sort_sorted; try (apply listed_NoDup'; assumption). intros k. rewrite !listed_In. apply E.
Qed.

Section Pairs.
Context (own : Z -> option Z) (r : Z) (s : store D) (Hw : world_ok g own) (Hs : store_ok own r s).
Context (U : hood) (L : lists) (HL : lists_spec U own r L).

(** r receives c from its owner q if c is in the neighborhood of one of its cells *)
Definition receives (U : hood) (own : Z -> option Z) (r q c : Z) : Prop :=
  own c = Some q /\ q <> r /\ exists a, own a = Some r /\ sees m t U a c.

Lemma recv_pairs_ok : exists l, recv_pairs r s L = Done l /\ NoDup l /\ forall q c, In (q, c) l <-> receives U own r q c.
Proof.
  destruct HL as ((Sof & _) & _ & Lo & _). pose proof Hs as (P & _).
  destruct (mapM_concat (fun c => do a <- at_ c (l_of L);
      do y <- mapM (fun x => do w <- at_ x (s_proc s); Done (if w =? r then [] else [(w, x)])) (filter (fun x => negb (x =? error_cell)) (map fst a));
      Done (concat y)) (fun a e => own (snd e) = Some (fst e) /\ fst e <> r /\ sees m t U a (snd e)) (l_local L)) as (bs & Ebs & Pbs).
  { intros a Ha. apply Lo in Ha. destruct Ha as (b0 & Oa & _). assert (exo own a = true) as Ea by (apply exo_some; eauto).
    destruct (Sof a Ea) as (la & Fa & Pa). pose proof (fst_sees U own a la Pa) as Pa'. unfold at_ at 1. rewrite Fa. cbn [bind].
    destruct (mapM_concat (fun x => do w <- at_ x (s_proc s); Done (if w =? r then [] else [(w, x)])) (fun x e => snd e = x /\ own x = Some (fst e) /\ fst e <> r)
      (filter (fun x => negb (x =? error_cell)) (map fst la))) as (ys & Eys & Pys).
    { intros x Hx. apply filter_In in Hx. destruct Hx as [Hx _]. apply Pa' in Hx. destruct Hx as [Ex _]. apply exo_some in Ex. destruct Ex as (w & Ow).
      unfold at_. rewrite P, Ow. cbn [bind]. eexists. split; [reflexivity|]. intros [q y]. cbn [fst snd].
      destruct (Z.eqb_spec w r) as [->|N]; cbn [In]; split; [intros []|intros (_ & Q & Q'); congruence|intros [Q|[]]; injection Q as <- <-; auto|intros (-> & Q & _); left; congruence]. }
    rewrite Eys. cbn [bind]. eexists. split; [reflexivity|]. intros [q y]. rewrite Pys. cbn [fst snd]. split.
    - intros (x & Hx & <- & O & N). apply filter_In in Hx. destruct Hx as [Hx _]. apply Pa' in Hx. tauto.
    - intros (O & N & S). exists y. split; [|auto]. assert (exo own y = true) as Ey by (apply exo_some; eauto). apply filter_In. rewrite (not_error own Hw) by assumption. split; [apply Pa'; auto|reflexivity]. }
  unfold recv_pairs. rewrite Ebs. cbn [bind]. eexists. split; [reflexivity|]. split; [apply NoDup_nodup|]. intros q c. rewrite nodup_In, Pbs. cbn [fst snd]. unfold receives. split.
  - intros (a & Ha & O & N & S). split; [assumption|]. split; [assumption|]. exists a. split; [|assumption]. apply Lo in Ha. destruct Ha as (? & Oa & _). assumption.
  - intros (O & N & a & Oa & S). exists a. split; [|auto]. apply Lo. exists c. split; [assumption|]. split; [apply exo_some; eauto|]. split; [congruence|left; assumption].
Qed.

Lemma send_pairs_ok : exists l, send_pairs r s L = Done l /\ NoDup l /\ forall q c, In (q, c) l <-> receives U own q r c.
Proof.
  destruct HL as (_ & (Sto & _) & Lo & _). pose proof Hs as (P & _).
  destruct (mapM_concat (fun c => do a <- at_ c (l_to L);
      do y <- mapM (fun x => do w <- at_ x (s_proc s); Done (if w =? r then [] else [(w, c)])) (filter (fun x => negb (x =? error_cell)) a);
      Done (concat y)) (fun a e => snd e = a /\ fst e <> r /\ exists b, own b = Some (fst e) /\ sees m t U b a) (l_local L)) as (bs & Ebs & Pbs).
  { intros a Ha. apply Lo in Ha. destruct Ha as (b0 & Oa & _). assert (exo own a = true) as Ea by (apply exo_some; eauto).
    destruct (Sto a Ea) as (la & Fa & _ & Pa). unfold at_ at 1. rewrite Fa. cbn [bind].
    destruct (mapM_concat (fun x => do w <- at_ x (s_proc s); Done (if w =? r then [] else [(w, a)])) (fun x e => snd e = a /\ own x = Some (fst e) /\ fst e <> r)
      (filter (fun x => negb (x =? error_cell)) la)) as (ys & Eys & Pys).
    { intros x Hx. apply filter_In in Hx. destruct Hx as [Hx _]. apply Pa in Hx. destruct Hx as [Ex _]. apply exo_some in Ex. destruct Ex as (w & Ow).
      unfold at_. rewrite P, Ow. cbn [bind]. eexists. split; [reflexivity|]. intros [q y]. cbn [fst snd].
      destruct (Z.eqb_spec w r) as [->|N]; cbn [In]; split; [intros []|intros (_ & Q & Q'); congruence|intros [Q|[]]; injection Q as <- <-; auto|intros (-> & Q & _); left; congruence]. }
    rewrite Eys. cbn [bind]. eexists. split; [reflexivity|]. intros [q y]. rewrite Pys. cbn [fst snd]. split.
    - intros (x & Hx & E & O & N). apply filter_In in Hx. destruct Hx as [Hx _]. apply Pa in Hx. split; [assumption|]. split; [assumption|]. exists x. tauto.
    - intros (E & N & x & O & S). exists x. split; [|auto]. assert (exo own x = true) as Ey by (apply exo_some; eauto). apply filter_In. rewrite (not_error own Hw) by assumption. split; [apply Pa; auto|reflexivity]. }
  unfold send_pairs. rewrite Ebs. cbn [bind]. eexists. split; [reflexivity|]. split; [apply NoDup_nodup|]. intros q c. rewrite nodup_In, Pbs. cbn [fst snd]. unfold receives. split.
  - intros (a & Ha & -> & N & b & Ob & S). apply Lo in Ha. destruct Ha as (? & Oa & _). split; [assumption|]. split; [congruence|]. exists b. auto.
  - intros (O & N & b & Ob & S). exists c. split; [|eauto]. apply Lo. exists b. split; [assumption|]. split; [apply exo_some; eauto|]. split; [congruence|right; assumption].
Qed.
End Pairs.

Lemma receive_NoDup (from : list (Z * D)) sent : forall l dest dest', receive from sent l dest = Done dest' -> NoDup (keys dest) -> NoDup (keys dest').
Proof.
  induction sent as [|c' sent IH]; intros [|c l] dest dest' E N; cbn [receive] in E; try discriminate; [injection E as <-; assumption|].
  apply bind_done in E. destruct E as (v & _ & E). apply (IH _ _ _ E). apply put_NoDup. assumption.
Qed.

(** one update of copies *)
Definition updated_copies (U : hood) (own : Z -> option Z) (x x' : xstate (D := D)) : Prop :=
  x_st x' = x_st x /\ x_hoods x' = x_hoods x /\
  forall r, In r (ranks g) -> NoDup (keys (x_copies x' r)) /\ forall c,
    (forall q, receives U own r q c -> find c (x_copies x' r) = find c (s_data (p_store (x_st x q)))) /\
    ((forall q, ~ receives U own r q c) -> find c (x_copies x' r) = find c (x_copies x r)).

Lemma sees_dec U a c : valid m a -> valid m c -> sees m t U a c \/ ~ sees m t U a c.
Proof. intros Va Vc. rewrite <- (seesb_spec m t U a c (proj1 Hg) Va Vc). destruct (seesb m t U a c); [left; reflexivity|right; discriminate]. Qed.

Lemma update_ok own x id U : xinv own x -> hood_at (x_hoods x) id = Some U ->
  exists x', update_copies g x id = Done (match hood_lookup (x_hoods x) id with Some _ => true | None => false end, x') /\ updated_copies U own x x'.
Proof.
  intros ((Hgood & _) & Hc & Ho) Eh. pose proof Hgood as (Hw & Hr). unfold update_copies.
  destruct (each_ok (fun r => lists_of g (x_hoods x) id r (x_st x r)) (fun _ => None) (fun r L => exists l, L = Some l /\ lists_spec U own r l)) as (L & EL & PL).
  { intros r Ir. destruct (lists_of_ok own (x_st x) (x_hoods x) id r U Hgood Ho Ir Eh) as (l & El & Sl). eauto. }
  rewrite EL. cbn [bind].
  destruct (each_ok (fun r => match L r with Some l => Done l | None => Threw end) (fun _ => Lists [] [] [] []) (lists_spec U own)) as (ls & Els & Pls).
  { intros r Ir. destruct (PL r Ir) as (_ & l & -> & Sl). eauto. }
  rewrite Els. cbn [bind].
  destruct (each_ok (fun r => recv_pairs r (p_store (x_st x r)) (ls r)) (fun _ => []) (fun r l => NoDup l /\ forall q c, In (q, c) l <-> receives U own r q c)) as (rv & Erv & Prv).
  { intros r Ir. destruct (Hr r Ir) as (Hs & _). destruct (recv_pairs_ok own r _ Hw Hs U (ls r) (proj2 (Pls r Ir))) as (l & El & Pl). eauto. }
  rewrite Erv. cbn [bind].
  destruct (each_ok (fun r => send_pairs r (p_store (x_st x r)) (ls r)) (fun _ => []) (fun r l => NoDup l /\ forall q c, In (q, c) l <-> receives U own q r c)) as (sd & Esd & Psd).
  { intros r Ir. destruct (Hr r Ir) as (Hs & _). destruct (send_pairs_ok own r _ Hw Hs U (ls r) (proj2 (Pls r Ir))) as (l & El & Pl). eauto. }
  rewrite Esd. cbn [bind].
  destruct (each_ok (fun r => deliver g r x sd rv) (x_copies x) (fun r f => NoDup (keys f) /\ forall c,
    (forall q, receives U own r q c -> find c f = find c (s_data (p_store (x_st x q)))) /\ ((forall q, ~ receives U own r q c) -> find c f = find c (x_copies x r)))) as (cp & Ecp & Pcp).
  { intros r Ir. pose (src := fun c => match own c with Some q => if mem c (listed q (rv r)) then Some q else None | None => None end).
    assert (forall c q, src c = Some q <-> receives U own r q c) as Ps.
    { intros c q. unfold src. destruct (own c) as [w|] eqn:O.
      - destruct (mem c (listed w (rv r))) eqn:Em.
        + apply mem_In, listed_In, (proj2 (proj2 (Prv r Ir))) in Em. split; [intros Q; injection Q as <-; assumption|]. intros (Q & _). congruence.
        + apply mem_not in Em. rewrite listed_In, (proj2 (proj2 (Prv r Ir))) in Em. split; [discriminate|]. intros Q. exfalso. apply Em. assert (w = q) as -> by (destruct Q; congruence). assumption.
      - split; [discriminate|]. intros (Q & _). congruence. }
    destruct (receives_ok (fun q => listed r (sd q)) (fun q => s_data (p_store (x_st x q))) src (fun q => listed q (rv r)) (ranks g) (x_copies x r)) as (f & Ef & Pf).
    - intros q Iq. destruct (Psd q Iq) as (_ & N1 & P1). destruct (Prv r Ir) as (_ & N2 & P2). split; [|apply listed_NoDup'; assumption].
      apply listed_same'; [assumption|assumption|]. intros k. rewrite P1, P2. reflexivity.
    - intros q c Iq. rewrite listed_In. rewrite (proj2 (proj2 (Psd q Iq))). intros (O & _). apply (proj2 (proj2 (proj2 (proj1 (Hr q Iq))))). assumption.
    - intros q c Iq. rewrite listed_In, Ps. apply (proj2 (proj2 (Psd q Iq))).
    - apply ranks_NoDup.
    - intros c q Q. apply Ps in Q. apply (proj2 Hw c q), Q.
    - exists f. split; [exact Ef|]. split.
      + destruct (Hc r Ir) as [N _]. revert Ef. apply (foldM_inv (fun f => NoDup (keys f))); [|assumption]. intros b a b' Nb E. apply (receive_NoDup _ _ _ _ _ E Nb).
      + intros c. split.
        * intros q Q. rewrite Pf, (proj2 (Ps c q) Q). reflexivity.
        * intros Q. rewrite Pf. destruct (src c) as [q|] eqn:E; [|reflexivity]. apply Ps in E. exfalso. apply (Q q E). }
  rewrite Ecp. cbn [bind]. eexists. split; [reflexivity|]. split; [reflexivity|]. split; [reflexivity|]. cbn [x_copies]. intros r Ir. apply (Pcp r Ir).
Qed.

Lemma receives_remote own (st : Z -> proc D) r q c U : good g own st -> (forall h, In h U -> In h H) -> In r (ranks g) -> receives U own r q c -> In c (k_remote (p_cache (st r))).
Proof.
  intros (Hw & Hr) S Ir (O & N & a & Oa & Se). destruct (Hr r Ir) as (Hs & Hc & _). pose proof (default_lists_ok own r _ _ Hw Hs Hc) as (_ & _ & _ & R & _). cbn [default_lists l_remote] in R.
  apply R. exists a. apply (beside_sub U _ _ _ _ S). split; [assumption|]. split; [apply exo_some; eauto|]. split; [congruence|left; assumption].
Qed.

Lemma update_inv own x U x' : xinv own x -> (forall h, In h U -> In h H) -> updated_copies U own x x' -> xinv own x'.
Proof.
  intros (Hi & Hc & Ho) S (E1 & E2 & P). split; [rewrite E1; assumption|]. split; [|rewrite E2; assumption]. intros r Ir. rewrite E1. destruct (P r Ir) as [N Q]. split; [assumption|].
  intros c. destruct (Q c) as [Q1 Q2]. pose proof Hi as (Hgood & _). pose proof Hgood as (Hw & Hr).
  assert ((exists q, receives U own r q c) \/ forall q, ~ receives U own r q c) as [(q & R)|R].
  { destruct (Hr r Ir) as (Hs & Hk & _). destruct (user_lists_ok own r _ Hw Hs U S) as (L & _ & SL). destruct (recv_pairs_ok own r _ Hw Hs U L SL) as (l & _ & _ & Pl).
    destruct (own c) as [q|] eqn:O; [|right; intros q (O' & _); congruence]. destruct (in_dec pair_eq_dec (q, c) l) as [I|I]; rewrite Pl in I; [left; eauto|]. right. intros q' R. apply I. assert (q = q') as -> by (destruct R; congruence). assumption. }
  - unfold has. rewrite (Q1 q R). fold (has c (s_data (p_store (x_st x q)))). pose proof (receives_remote own _ r q c U Hgood S Ir R) as K. split; [auto|]. intros _.
    destruct R as (O & _). assert (In q (ranks g)) as Iq by (apply (proj2 Hw c q O)). apply (proj2 (proj2 (proj2 (proj1 (Hr q Iq))))). assumption.
  - unfold has. rewrite (Q2 R). fold (has c (x_copies x r)). apply (Hc r Ir).
Qed.

(** ** All calls *)
Lemma run_plain own x a : xinv own x -> allowed g (x_st x) a -> exists own' x', xrun d0 g x (Plain a) = Done x' /\ xinv own' x'.
Proof.
  intros (Hi & Hc & Ho) Ha. cbn [xrun].
  assert ((exists own' st', run d0 g (x_st x) a = Done st' /\ inv g own' st' /\ forall r, p_cache (st' r) = p_cache (x_st x r)) -> exists own' st', run d0 g (x_st x) a = Done st' /\ inv g own' st' /\
    copies_ok (XState st' (x_copies x) (x_hoods x))) as K.
  { intros (own' & st' & E & Hi' & C). exists own', st'. split; [assumption|]. split; [assumption|]. intros r Ir. cbn [x_copies x_st]. rewrite C. apply (Hc r Ir). }
  assert (quiet a \/ ~ quiet a) as [Hq|Nq] by (destruct a; cbn; tauto).
  - destruct K as (own' & st' & E & Hi' & C').
    { destruct (quiet_ok d0 g Hg own (x_st x) a Hi Ha Hq) as (st' & E & Hi'). exists own, st'. split; [assumption|]. split; [assumption|]. apply (quiet_cache _ a _ Hq E). }
    rewrite E. cbn [bind]. exists own'. eexists. split; [reflexivity|]. split; [assumption|]. cbn [x_st x_hoods]. split; [|assumption]. destruct a; cbn in Hq; try contradiction; exact C'.
  - destruct (run_ok d0 g Hg own (x_st x) a Hi Ha) as (own' & st' & E & Hi'). destruct a; cbn [quiet] in Nq; try tauto.
    + rewrite E. cbn [bind]. exists own'. eexists. split; [reflexivity|]. split; [assumption|]. split; [|assumption]. intros r Ir. apply (fresh_ok st' r Ir).
    + destruct (loads_nothing g (x_st x) given) eqn:El.
      * destruct K as (own1 & st1 & E1 & Hi1 & C1).
        { exists own, (x_st x). split; [|auto]. unfold loads_nothing in El. apply Z.leb_le in El. cbn [run]. unfold load_cells. replace (Z.to_nat _) with O by lia. reflexivity. }
        rewrite E1. cbn [bind]. exists own1. eexists. split; [reflexivity|]. split; [assumption|]. split; assumption.
      * rewrite E. cbn [bind]. exists own'. eexists. split; [reflexivity|]. split; [assumption|]. split; [|assumption]. intros r Ir. apply (fresh_ok st' r Ir).
    + rewrite E. cbn [bind]. exists own'. eexists. split; [reflexivity|]. split; [assumption|]. split; [|assumption]. intros r Ir. apply (fresh_ok st' r Ir).
Qed.

Lemma keys_map {A} (F : Z * A -> A) (f : list (Z * A)) : keys (map (fun e => (fst e, F e)) f) = keys f.
Proof. unfold keys. rewrite map_map. apply map_ext. reflexivity. Qed.

Lemma hood_known hs id : id = default_neighborhood_id \/ hood_lookup hs id <> None -> exists U, hood_at hs id = Some U.
Proof.
  unfold hood_at. destruct (Z.eqb_spec id default_neighborhood_id); [eauto|]. intros [Q|Q]; [contradiction|]. destruct (hood_lookup hs id); [eauto|congruence].
Qed.

Lemma xrun_ok own x a : xinv own x -> xallowed g x a -> exists own' x', xrun d0 g x a = Done x' /\ xinv own' x'.
Proof.
  intros Hx Ha. pose proof Hx as (Hi & Hc & Ho). pose proof Hi as (Hgood & _). pose proof Hgood as (Hw & Hr). destruct a as [a|r c v|id items|id|id|id]; cbn [xallowed] in Ha.
  - apply (run_plain own x a Hx Ha).
  - exists own. cbn [xrun]. eexists. split; [reflexivity|]. split; [assumption|]. split; [|assumption]. intros q Iq. cbn [x_copies x_st]. destruct (Z.eqb_spec q r) as [->|]; [|apply (Hc q Iq)].
    destruct (Hc r Ha) as [N K]. rewrite (keys_map (fun e => if fst e =? c then v else snd e)). split; [assumption|]. intros k. rewrite <- K, !has_find, <- !keys_find, (keys_map (fun e => if fst e =? c then v else snd e)). reflexivity.
  - cbn [xrun]. destruct (add_hoods_ok (x_hoods x) id items Ho) as [A1 A2]. destruct (add_neighborhood n (x_hoods x) id items) as [ok hs] eqn:Ea. cbn [fst snd] in *. destruct ok; cbn [negb].
    2:{ exists own, x. auto. }
    destruct (each_ok (fun r => user_lists g r (p_store (x_st x r)) items) (fun _ => Lists [] [] [] []) (fun _ _ => True)) as (ls & Els & _).
    { intros r Ir. destruct (user_lists_ok own r _ Hw (proj1 (Hr r Ir)) items (A2 eq_refl)) as (L & EL & _). eauto. }
    rewrite Els. cbn [bind]. exists own. eexists. split; [reflexivity|]. split; [assumption|]. split; [|assumption].
    intros r Ir. cbn [x_copies x_st]. destruct (Hc r Ir) as [N K]. split; [apply allocate_NoDup; assumption|]. intros c. rewrite has_allocate, K. tauto.
  - exists own. cbn [xrun]. eexists. split; [reflexivity|]. split; [assumption|]. split; [exact Hc|]. apply remove_hoods_ok. assumption.
  - destruct (hood_known _ _ Ha) as (U & EU). cbn [xrun].
    destruct (each_ok (fun r => lists_of g (x_hoods x) id r (x_st x r)) (fun _ => None) (fun r L => exists l, L = Some l /\ lists_spec U own r l)) as (L & EL & PL).
    { intros r Ir. destruct (lists_of_ok own (x_st x) (x_hoods x) id r U Hgood Ho Ir EU) as (l & El & Sl). eauto. }
    rewrite EL. cbn [bind].
    destruct (each_ok (fun r => match L r with Some l => Done (allocate d0 (l_remote l) (x_copies x r)) | None => Threw end) (x_copies x)
      (fun r f => NoDup (keys f) /\ forall c, has c f = true <-> In c (k_remote (p_cache (x_st x r))))) as (cp & Ecp & Pcp).
    { intros r Ir. destruct (PL r Ir) as (_ & l & -> & Sl). eexists. split; [reflexivity|]. destruct (Hc r Ir) as [N K]. split; [apply allocate_NoDup; assumption|].
      intros c. rewrite has_allocate, K. split; [|auto]. intros [Q|Q]; [|assumption]. apply (proj1 (proj2 (proj2 (proj2 Sl)))) in Q. destruct Q as (a & Q).
      destruct (Hr r Ir) as (Hs & Hk & _). pose proof (default_lists_ok own r _ _ Hw Hs Hk) as (_ & _ & _ & R & _). apply R. exists a. apply (beside_sub U); [|assumption]. apply (hood_at_sub _ id U Ho EU). }
    rewrite Ecp. cbn [bind]. exists own. eexists. split; [reflexivity|]. split; [assumption|]. split; [|assumption]. intros r Ir. apply (Pcp r Ir).
  - destruct (hood_known _ _ Ha) as (U & EU). destruct (update_ok own x id U Hx EU) as (x' & E & P). cbn [xrun]. rewrite E. cbn [bind snd]. exists own, x'. split; [reflexivity|]. apply (update_inv own x U x' Hx (hood_at_sub _ id U Ho EU) P).
Qed.

Lemma xinitialize_inv : exists x, xinitialize d0 g = Done x /\ xinv (own0 g) x.
Proof.
  destruct (initialize_inv d0 g Hg) as (st & E & Hi). unfold xinitialize. rewrite E. cbn [bind]. eexists. split; [reflexivity|]. split; [assumption|]. split; [|intros id U; discriminate]. apply fresh_ok.
Qed.

End Comm.

Lemma xreachable_inv {D} (d0 : D) g (Hg : grid_ok g) x : xreachable d0 g x -> exists own, xinv g own x.
Proof.
  induction 1 as [D d0 x E|D d0 curve batches x Hc E|D d0 x a x' _ (own & Hx) Ha E|D d0 D' d0' x _ (own & Hx & _) Eh].
  - destruct (xinitialize_inv d0 g Hg) as (x0 & E0 & Hx). assert (x0 = x) as <- by congruence. eauto.
  - unfold xinitialize_sfc in E. apply bind_done in E. destruct E as (st & E & Ex). injection Ex as <-. destruct (initialize_sfc_inv d0 g Hg curve batches st Hc E) as (own & Hi). exists own. split; [assumption|]. split; [apply fresh_ok|intros id U; discriminate].
  - destruct (xrun_ok d0 g Hg own x a Hx Ha) as (own' & x1 & E1 & H1). assert (x1 = x') as <- by congruence. eauto.
  - exists own. split; [apply copied_inv; assumption|]. split; [apply fresh_ok|intros id U; discriminate].
Qed.

(** the histories with neighborhoods and copies are histories of cells *)
Lemma xreachable_reachable {D} (d0 : D) g x : xreachable d0 g x -> reachable d0 g (x_st x).
Proof.
  induction 1 as [D d0 x E|D d0 curve batches x Hc E|D d0 x a x' R IH Ha E|D d0 D' d0' x R IH Eh].
  - apply bind_done in E. destruct E as (st & E & E'). injection E' as <-. apply reach_init. assumption.
  - apply bind_done in E. destruct E as (st & E & E'). injection E' as <-. apply (reach_curve d0 g curve batches); assumption.
  - destruct a as [a|r c v|id items|id|id|id]; cbn [xrun xallowed] in *.
    + apply bind_done in E. destruct E as (st & E & E'). injection E' as <-. apply reach_step with (x_st x) a; assumption.
    + injection E as <-. exact IH.
    + destruct (add_neighborhood (g_len g) (x_hoods x) id items) as [[] hs]; cbn [negb] in E; [|injection E as <-; exact IH]. apply bind_done in E. destruct E as (ls & _ & E). injection E as <-. exact IH.
    + injection E as <-. exact IH.
    + apply bind_done in E. destruct E as (L & _ & E). apply bind_done in E. destruct E as (cp & _ & E). injection E as <-. exact IH.
    + apply bind_done in E. destruct E as ([b y] & E1 & E). injection E as <-. unfold update_copies in E1.
      repeat (apply bind_done in E1; destruct E1 as (? & _ & E1)). injection E1 as _ <-. exact IH.
  - apply (reach_copy d0). exact IH.
Qed.
