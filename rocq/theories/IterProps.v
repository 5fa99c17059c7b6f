(** Data pointers and additional items of iterators stay what making them anew would give. *)
From Verif Require Import U64 MapModel MapSpec MapProofs MapFamily MapProps HoodModel MeshModel
  MeshSpec MeshBase HoodProps MeshWalk MeshFind MeshKids MeshItem MeshCheck MeshTo MeshNear
  Sets RefineModel RefineGeo RefineInv RefineSpread RefineMerge RefineFold RefineExec RefineStop
  BalanceModel RefineReqs Create Balance History HistProps CommitProps BalProps CommModel CommInv CommProps CommViews IterModel.
Open Scope Z_scope.

(** cells, their owners, which data is where and the neighbors of the default neighborhood are
    the same as far as process r knows; the data itself, requests, weights, pins and
    neighborhoods of the user may differ *)
Definition same_structure {D} (x x' : xstate (D := D)) (r : Z) : Prop :=
  s_proc (p_store (x_st x' r)) = s_proc (p_store (x_st x r)) /\
  keys (s_data (p_store (x_st x' r))) = keys (s_data (p_store (x_st x r))) /\
  p_cache (x_st x' r) = p_cache (x_st x r) /\
  forall c, has c (x_copies x' r) = has c (x_copies x r).

Section Props.
Context {D : Type} (d0 : D) (g : grid) (Hg : grid_ok g).
Notation m := (g_map g).
Notation t := (g_topo g).
Notation xreachable := (xreachable d0 g).
Notation rank r := (In r (ranks g)).
Notation state := (xstate (D := D)).
Notation hood_at := (hood_at g).

Lemma has_keys {A B} (f : list (Z * A)) (h : list (Z * B)) c : keys f = keys h -> has c f = has c h.
Proof.
  intros E. destruct (has c h) eqn:K; [apply has_find, keys_find; rewrite E; apply keys_find, has_find; assumption|].
  apply not_true_iff_false. intros Q. apply not_true_iff_false in K. apply K. apply has_find, keys_find. rewrite <- E. apply keys_find, has_find. assumption.
Qed.

(** ** What quiet calls leave as it is *)
Lemma unpins_refd r l : forall (x : bool * store D), let s := snd (fold_left (fun x c => let u := unpin g r (snd x) c in (fst x && fst u, snd u)) l x) in
  s_proc s = s_proc (snd x) /\ s_data s = s_data (snd x) /\ s_refd s = s_refd (snd x) /\ s_unrefd s = s_unrefd (snd x).
Proof.
  induction l as [|c l IH]; intros x; [cbn; auto|]. cbn [fold_left]. destruct (IH (let u := unpin g r (snd x) c in (fst x && fst u, snd u))) as (A & B & C & E). cbn zeta in *. rewrite A, B, C, E. cbn [snd].
  destruct (unpin_keeps g r (snd x) c) as (-> & -> & _). destruct (unpin_refd g r (snd x) c) as (-> & ->). auto.
Qed.
Lemma quiet_skeleton st (a : call (D := D)) st' : quiet a -> run d0 g st a = Done st' -> forall r,
  let s := p_store (st r) in let s' := p_store (st' r) in
  s_proc s' = s_proc s /\ keys (s_data s') = keys (s_data s) /\ p_cache (st' r) = p_cache (st r) /\
  (s_refd s' = s_refd s /\ s_unrefd s' = s_unrefd s \/ s_refd s' = [] /\ s_unrefd s' = []).
Proof.
  intros Q E r. cbn zeta. rewrite (quiet_cache d0 g st a st' Q E r).
  destruct a; cbn [quiet] in Q; try contradiction; cbn [run] in E; try (apply bind_done in E; destruct E as (x & _ & E));
    injection E as <-; unfold set_rank; try (destruct (Z.eqb_spec r r0) as [->|]; [|auto 10]); cbn [with_reqs with_store p_store]; auto 10.
  - unfold pin. destruct (negb _); [auto 10|]. destruct (_ || _); [auto 10|]. destruct (find c _); [destruct (_ =? _)|]; cbn; auto 10.
  - destruct (unpin_keeps g r0 (p_store (st r0)) c) as (-> & -> & _). destruct (unpin_refd g r0 (p_store (st r0)) c) as (-> & ->). auto 10.
  - unfold unpin_local_cells. match goal with |- context [fold_left _ ?l ?b] => pose proof (unpins_refd r0 l b) as (A & B & C & E) end. cbn zeta in *. cbn [snd] in *. rewrite A, B, C, E. auto 10.
  - unfold set_cell_weight. destruct (negb _); cbn; auto 10.
  - cbn [write s_proc s_data s_refd s_unrefd]. split; [reflexivity|]. split; [unfold keys; rewrite map_map; reflexivity|auto].
Qed.

(** ** Cells of the last commit do not exist any more *)
Definition gone (x : state) : Prop := forall r c, rank r -> exists_on (x_st x) r c = true ->
  has c (s_refd (p_store (x_st x r))) = false /\ has c (s_unrefd (p_store (x_st x r))) = false.

Lemma load_levels_cleared k : forall st over l st', k <> O -> load_levels d0 g k st over l = Done st' -> forall r, s_refd (p_store (st' r)) = [] /\ s_unrefd (p_store (st' r)) = [].
Proof.
  induction k as [|k IH]; intros st over l st' Nk E r; [contradiction|]. cbn [load_levels] in E. apply bind_done in E. destruct E as (st1 & _ & E). apply bind_done in E. destruct E as (res & _ & E).
  destruct k as [|k]; [|apply (IH _ _ _ _ ltac:(discriminate) E)]. cbn [load_levels] in E. injection E as <-. auto.
Qed.

Lemma gone_step x a x' : xreachable x -> xallowed g x a -> xrun d0 g x a = Done x' -> gone x -> gone x'.
Proof.
  intros R Ha E Hgo. destruct a as [a|r c v|id items|id|id|id]; cbn [xrun] in E.
  - apply bind_done in E. destruct E as (st & E & Ex). injection Ex as <-. cbn [xallowed] in Ha. pose proof (xreachable_reachable d0 g x R) as Rs. intros r c Ir. unfold exists_on, owner. cbn [x_st].
    assert (quiet a -> forall q, find c (s_proc (p_store (st r))) = Some q -> has c (s_refd (p_store (st r))) = false /\ has c (s_unrefd (p_store (st r))) = false) as Qk.
    { intros Q q. destruct (quiet_skeleton _ _ _ Q E r) as (A & _ & _ & F). cbn zeta in *. rewrite A. intros Hq. destruct F as [[-> ->]|[-> ->]]; [|auto]. apply Hgo; [assumption|]. unfold exists_on, owner. rewrite Hq. reflexivity. }
    destruct (find c (s_proc (p_store (st r)))) as [q|] eqn:Fq; [|discriminate]. intros _. destruct a; try (apply (Qk I q); reflexivity).
    + cbn [run] in E. apply bind_done in E. destruct E as (res & E & Es). injection Es as <-. destruct (commit_view d0 g Hg _ _ Rs E) as (own & own' & Hi & Hi' & C).
      assert (exo own' c = true) as Ec. { rewrite <- (viewx g own' _ r c Hi' Ir). unfold exists_on, owner, state_of. cbn in Fq |- *. rewrite Fq. reflexivity. }
      split; apply not_true_iff_false; rewrite has_find; intros (w & F).
      * apply (cm_refd _ _ _ _ _ _ C r c w Ir) in F. destruct F as (F & _). rewrite (refined_gone d0 g Hg own _ own' res c (proj1 Hi) C F) in Ec. discriminate.
      * apply (cm_unrefd _ _ _ _ _ _ C r c w Ir) in F. destruct F as (F & _). rewrite (removed_gone d0 g Hg own _ own' res c (proj1 Hi) C F) in Ec. discriminate.
    + cbn [run] in E. unfold load_cells in E. set (k := Z.to_nat _) in E. destruct k as [|k].
      * cbn [load_levels] in E. injection E as <-. apply Hgo; [assumption|]. unfold exists_on, owner. rewrite Fq. reflexivity.
      * destruct (load_levels_cleared (S k) _ _ _ _ ltac:(discriminate) E r) as [-> ->]. auto.
    + cbn [run] in E. destruct Ha as (dest & Ha). destruct (balance_view d0 g Hg _ _ _ _ _ Rs Ha E) as (own & _ & _ & B).
      destruct (bl_rest _ _ _ _ _ _ _ B r Ir) as (_ & _ & -> & -> & _). auto.
  - injection E as <-. exact Hgo.
  - destruct (add_neighborhood _ _ _ _) as [ok hs]. destruct ok; cbn [negb] in E; [|injection E as <-; exact Hgo]. apply bind_done in E. destruct E as (? & _ & E). injection E as <-. exact Hgo.
  - injection E as <-. exact Hgo.
  - apply bind_done in E. destruct E as (? & _ & E). apply bind_done in E. destruct E as (? & _ & E). injection E as <-. exact Hgo.
  - apply bind_done in E. destruct E as (y & E & Ex). injection Ex as <-. unfold update_copies in E. do 5 (apply bind_done in E; destruct E as (? & _ & E)). injection E as <-. exact Hgo.
Qed.

(** ** Making iterators anew gives the same *)
Lemma user_lists_ext r (s s' : store D) h : s_proc s' = s_proc s -> keys (s_data s') = keys (s_data s) -> user_lists g r s' h = user_lists g r s h.
Proof.
  intros E1 E2. unfold user_lists, build_bnd. assert (exb s' = exb s) as -> by (unfold exb; rewrite E1; reflexivity). rewrite E1, E2.
  assert (forall a b c, remote_of r s' a b c = remote_of r s a b c) as R by (intros; unfold remote_of; rewrite E1; reflexivity).
  assert (forall a b l, mapM (fun c => do l <- remote_of r s' a b c; Done (c, l)) l = mapM (fun c => do l <- remote_of r s a b c; Done (c, l)) l) as Rm.
  { intros a b l. induction l as [|x l IH]; cbn [mapM]; [reflexivity|]. rewrite R, IH. reflexivity. }
  destruct (mapM _ (keys (s_proc s))) as [x| |]; cbn [bind]; try reflexivity. destruct (mapM _ (keys (s_proc s))) as [y| |]; cbn [bind]; try reflexivity.
  destruct (mapM _ (keys (s_data s))) as [w| |]; cbn [bind]; try reflexivity. rewrite Rm. reflexivity.
Qed.
Lemma iterators_ext (x x' : state) id r : same_structure x x' r -> hood_at (x_hoods x') id = hood_at (x_hoods x) id -> iterators g x' id r = iterators g x id r.
Proof.
  intros (E1 & E2 & E3 & E4) Eh. unfold iterators. assert (lists_of g (x_hoods x') id r (x_st x' r) = lists_of g (x_hoods x) id r (x_st x r)) as ->.
  { unfold lists_of, CommInv.hood_at in *. destruct (id =? default_neighborhood_id); [rewrite E3; reflexivity|]. rewrite Eh. destruct (hood_lookup (x_hoods x) id); [|reflexivity]. rewrite (user_lists_ext r _ _ _ E1 E2). reflexivity. }
  destruct (lists_of _ _ _ _ _) as [[L|]| |]; cbn [bind]; try reflexivity. unfold update_cell_pointers. rewrite E2, E3.
  assert (existsb (fun c => negb (has c (x_copies x' r))) (k_remote (p_cache (x_st x r))) = existsb (fun c => negb (has c (x_copies x r))) (k_remote (p_cache (x_st x r)))) as ->; [|reflexivity].
  induction (k_remote _) as [|c l IH]; [reflexivity|]. cbn [existsb]. rewrite E4, IH. reflexivity.
Qed.

Lemma pointer_ext (x x' : state) r c : same_structure x x' r -> rank r -> gone x -> gone x' -> exists_on (x_st x) r c = true -> pointer x' r c = pointer x r c.
Proof.
  intros (E1 & E2 & E3 & E4) Ir G1 G2 Ex. assert (exists_on (x_st x') r c = true) as Ex' by (unfold exists_on, owner in *; rewrite E1; assumption).
  unfold pointer. destruct (G1 r c Ir Ex) as [-> ->], (G2 r c Ir Ex') as [-> ->]. rewrite E4, (has_keys _ (s_data (p_store (x_st x r))) c E2). reflexivity.
Qed.

(** the cells shown exist *)
Lemma shown_exist (x : state) id U r : xreachable x -> hood_at (x_hoods x) id = Some U -> rank r -> exists v, iterators g x id r = Done v /\
  forall i, In i (view_cells v) -> exists_on (x_st x) r (i_id i) = true /\ forall e, In e (view_all v i) -> exists_on (x_st x) r (fst e) = true.
Proof.
  intros R EU Ir. destruct (c38_cells d0 g Hg x id U r R EU Ir) as (v & Ev & _ & _ & _ & Lo & Re & Ap & _ & P). exists v. split; [assumption|]. intros i Hi. split.
  - rewrite Ap in Hi. apply in_app_iff in Hi. destruct Hi as [Hi|Hi]; apply (in_map i_id) in Hi.
    + apply Lo in Hi. unfold owns in Hi. unfold exists_on. rewrite Hi. reflexivity.
    + apply Re in Hi. destruct Hi as ((q & Hq & _) & _). unfold owns in Hq. unfold exists_on. rewrite Hq. reflexivity.
  - intros [y o] He. cbn [fst]. destruct (P i Hi) as (_ & P1 & P2 & _ & P4). apply P4 in He. destruct He as [He|He]; [apply P1 in He; apply He|]. apply (in_map fst) in He. apply P2 in He. apply He.
Qed.

Section Marks.
Context {G X N : Type} (cmark : G -> state -> Z -> Z -> X) (nmark : G -> state -> Z -> Z -> Z -> Z * idx -> N).
Notation fresh := (fresh g cmark nmark).
Notation cstate := (cstate (D := D) (G := G) (X := X) (N := N)).

(** additional items which depend on the geometry and on the structure only *)
Definition structural : Prop :=
  (forall geo x x' r c, same_structure x x' r -> cmark geo x' r c = cmark geo x r c) /\
  (forall geo x x' r id c e, same_structure x x' r -> nmark geo x' r id c e = nmark geo x r id c e).
(** and those which do not depend on the geometry *)
Definition not_geometric : Prop :=
  (forall geo geo' x r c, cmark geo x r c = cmark geo' x r c) /\ (forall geo geo' x r id c e, nmark geo x r id c e = nmark geo' x r id c e).

Lemma fresh_ext geo geo' x x' id U r : structural -> geo' = geo \/ not_geometric -> xreachable x -> hood_at (x_hoods x) id = Some U -> rank r -> gone x -> gone x' ->
  same_structure x x' r -> hood_at (x_hoods x') id = hood_at (x_hoods x) id -> fresh geo' x' id r = fresh geo x id r.
Proof.
  intros (S1 & S2) Hgeo R EU Ir G1 G2 Sm Eh. unfold IterModel.fresh. rewrite (iterators_ext x x' id r Sm Eh). destruct (shown_exist x id U r R EU Ir) as (v & -> & P). cbn [bind].
  assert (forall c, cmark geo' x' r c = cmark geo x r c) as M1 by (intros c; rewrite (S1 geo' x x' r c Sm); destruct Hgeo as [->|[K _]]; auto).
  assert (forall c e, nmark geo' x' r id c e = nmark geo x r id c e) as M2 by (intros c e; rewrite (S2 geo' x x' r id c e Sm); destruct Hgeo as [->|[_ K]]; auto).
  f_equal. f_equal; apply map_ext_in; intros i Hi; destruct (P i Hi) as [P1 P2].
  - rewrite M1, (pointer_ext x x' r _ Sm Ir G1 G2 P1). reflexivity.
  - f_equal. apply map_ext_in. intros e He. rewrite M2, (pointer_ext x x' r _ Sm Ir G1 G2 (P2 e He)). reflexivity.
Qed.

(** ** Calls that do not make iterators anew *)
Lemma structure_kept x a x' : xreachable x -> xallowed g x a -> xrun d0 g x a = Done x' ->
  (forall r, rank r -> same_structure x x' r) \/ renewed g x a x' = default_neighborhood_id :: map fst (x_hoods x').
Proof.
  intros R Ha E. assert (xreachable x') as R' by (apply (xreach_step d0 g x a); assumption). destruct (xreachable_inv d0 g Hg x R) as (own & _ & Hc & _), (xreachable_inv d0 g Hg x' R') as (own' & _ & Hc' & _).
  assert ((forall r, rank r -> s_proc (p_store (x_st x' r)) = s_proc (p_store (x_st x r)) /\ keys (s_data (p_store (x_st x' r))) = keys (s_data (p_store (x_st x r))) /\ p_cache (x_st x' r) = p_cache (x_st x r)) -> forall r, rank r -> same_structure x x' r) as K.
  { intros P r Ir. destruct (P r Ir) as (P1 & P2 & P3). split; [assumption|]. split; [assumption|]. split; [assumption|]. intros c. destruct (Hc r Ir) as [_ Q], (Hc' r Ir) as [_ Q']. rewrite P3 in Q'.
    destruct (has c (x_copies x r)) eqn:F; [apply Q', Q; assumption|]. apply not_true_iff_false. intros F'. apply Q', Q in F'. congruence. }
  destruct a as [a|r c v|id items|id|id|id]; cbn [xrun] in E.
  - apply bind_done in E. destruct E as (st & E & Ex). assert (x_st x' = st) as Es by (injection Ex as <-; reflexivity).
    assert (quiet a -> forall r, rank r -> same_structure x x' r) as Kq. { intros Q. apply K. intros r Ir. rewrite Es. destruct (quiet_skeleton _ _ _ Q E r) as (A & B & C & _). auto. }
    destruct a; try (left; apply Kq; exact I); cbn [renewed]; [right; reflexivity| |right; reflexivity].
    destruct (loads_nothing g (x_st x) given) eqn:El; [left|right; reflexivity]. apply K. intros r Ir. rewrite Es.
    assert (st = x_st x) as ->; [|auto]. unfold loads_nothing in El. apply Z.leb_le in El. cbn [run] in E. unfold load_cells in E. replace (Z.to_nat _) with O in E by lia. cbn [load_levels] in E. injection E as <-. reflexivity.
  - left. apply K. injection E as <-. auto.
  - left. apply K. destruct (add_neighborhood _ _ _ _) as [ok hs]. destruct ok; cbn [negb] in E; [|injection E as <-; auto]. apply bind_done in E. destruct E as (? & _ & E). injection E as <-. auto.
  - left. apply K. injection E as <-. auto.
  - left. apply K. apply bind_done in E. destruct E as (? & _ & E). apply bind_done in E. destruct E as (? & _ & E). injection E as <-. auto.
  - left. apply K. apply bind_done in E. destruct E as (y & E & Ex). injection Ex as <-. unfold update_copies in E. do 5 (apply bind_done in E; destruct E as (? & _ & E)). injection E as <-. auto.
Qed.

(** ** Making iterators of neighborhoods anew *)
Notation renew := (renew g cmark nmark).
Notation renew_all := (renew_all g cmark nmark).
Definition current (geo : G) (x : state) (sh : Z -> Z -> option (shown X N)) (id : Z) : Prop :=
  forall r, rank r -> exists s, sh id r = Some s /\ fresh geo x id r = Done s.

Lemma renew_ok geo x id U : xreachable x -> hood_at (x_hoods x) id = Some U -> exists f, renew geo x id = Done f /\ forall r, rank r -> exists s, f r = Some s /\ fresh geo x id r = Done s.
Proof.
  intros R EU. unfold IterModel.renew. destruct (each_ok g (fun r => do s <- fresh geo x id r; Done (Some s)) (fun _ => None) (fun r s => exists v, s = Some v /\ fresh geo x id r = Done v)) as (f & Ef & Pf).
  - intros r Ir. unfold IterModel.fresh. destruct (shown_exist x id U r R EU Ir) as (v & -> & _). cbn [bind]. eexists. split; [reflexivity|]. eauto.
  - exists f. split; [assumption|]. intros r Ir. apply (Pf r Ir).
Qed.
Lemma renew_all_ok geo x ids : xreachable x -> (forall id, In id ids -> hood_at (x_hoods x) id <> None) -> forall old,
  exists sh, renew_all geo x ids old = Done sh /\ (forall id, In id ids -> current geo x sh id) /\ forall id, ~ In id ids -> sh id = old id.
Proof.
  intros R. induction ids as [|i ids IH]; intros Hi old; cbn [IterModel.renew_all foldM].
  - exists old. split; [reflexivity|]. split; [intros id []|auto].
  - destruct (hood_at (x_hoods x) i) as [U|] eqn:EU; [|destruct (Hi i (or_introl eq_refl) EU)]. destruct (renew_ok geo x i U R EU) as (f & -> & Pf). cbn [bind].
    destruct (IH ltac:(intros id Q; apply Hi; right; assumption) (fun j => if j =? i then f else old j)) as (sh & Es & P1 & P2). exists sh. split; [exact Es|]. split.
    + intros id Q. destruct (in_dec Z.eq_dec id ids) as [Q'|Q']; [auto|]. destruct Q as [<-|Q]; [|contradiction]. intros r Ir. rewrite (P2 i Q'), Z.eqb_refl. auto.
    + intros id Q. cbn [In] in Q. rewrite (P2 id) by tauto. destruct (Z.eqb_spec id i) as [->|]; [tauto|reflexivity].
Qed.

Lemma lookup_in hs id : hood_lookup hs id <> None <-> In id (map fst hs).
Proof.
  unfold hood_lookup. induction hs as [|[j h] hs IH]; cbn [List.find map fst option_map In]; [tauto|]. destruct (Z.eqb_spec j id) as [->|Q]; cbn [option_map]; [split; [auto|discriminate]|]. rewrite IH. split; [auto|]. intros [K|K]; [contradiction|assumption].
Qed.
Lemma hood_live (x : state) id : hood_at (x_hoods x) id <> None <-> In id (default_neighborhood_id :: map fst (x_hoods x)).
Proof.
  unfold CommInv.hood_at. cbn [In]. rewrite <- lookup_in. destruct (Z.eqb_spec id default_neighborhood_id) as [->|Q]; [split; [auto|discriminate]|]. split; [auto|]. intros [K|K]; [congruence|assumption].
Qed.

(** ** Histories *)
Notation crun := (crun d0 g cmark nmark).
Notation creached := (creached d0 g cmark nmark).
Notation ccall := (ccall (D := D) (G := G)).

Lemma renewed_live x a x' : xreachable x -> xallowed g x a -> xrun d0 g x a = Done x' -> forall id, In id (renewed g x a x') -> hood_at (x_hoods x') id <> None.
Proof.
  intros R Ha E id Hi. destruct a as [a|r c v|j items|j|j|j]; cbn [renewed] in Hi; try contradiction.
  - destruct a; try contradiction; try (apply hood_live; assumption). destruct (loads_nothing _ _ _); [contradiction|apply hood_live; assumption].
  - cbn [xrun] in E. destruct (add_neighborhood (g_len g) (x_hoods x) j items) as [ok hs] eqn:Ea. cbn [fst] in Hi. destruct ok; [|contradiction]. destruct Hi as [<-|[]]. cbn [negb] in E. apply bind_done in E. destruct E as (? & _ & E). injection E as <-.
    apply hood_live. cbn [x_hoods]. right. unfold add_neighborhood in Ea. destruct (j =? _); [discriminate|]. destruct (existsb _ _); [discriminate|]. destruct (forallb _ _); [|discriminate]. injection Ea as <-. left. reflexivity.
Qed.
(** a neighborhood in use whose iterators are not made anew was in use before *)
Lemma hoods_kept x a x' id : xreachable x -> xrun d0 g x a = Done x' -> ~ In id (renewed g x a x') -> hood_at (x_hoods x') id <> None -> hood_at (x_hoods x') id = hood_at (x_hoods x) id.
Proof.
  intros R E Ni Hi. unfold CommInv.hood_at in *. destruct (Z.eqb_spec id default_neighborhood_id) as [|Nd]; [reflexivity|].
  destruct a as [a|r c v|j items|j|j|j]; cbn [xrun] in E.
  - apply bind_done in E. destruct E as (? & _ & E). injection E as <-. reflexivity.
  - injection E as <-. reflexivity.
  - cbn [renewed] in Ni. destruct (add_neighborhood (g_len g) (x_hoods x) j items) as [ok hs] eqn:Ea. cbn [fst] in Ni. destruct ok; cbn [negb] in E; [|injection E as <-; reflexivity]. apply bind_done in E. destruct E as (? & _ & E). injection E as <-. cbn [x_hoods].
    unfold add_neighborhood in Ea. destruct (j =? _); [discriminate|]. destruct (existsb _ _); [discriminate|]. destruct (forallb _ _); [|discriminate]. injection Ea as <-. unfold hood_lookup. cbn [List.find fst]. destruct (Z.eqb_spec j id) as [->|]; [cbn [In] in Ni; tauto|reflexivity].
  - injection E as <-. cbn [x_hoods] in *. rewrite c12_remove_neighborhood in *. destruct (_ && _); [congruence|reflexivity].
  - apply bind_done in E. destruct E as (? & _ & E). apply bind_done in E. destruct E as (? & _ & E). injection E as <-. reflexivity.
  - apply bind_done in E. destruct E as (y & E & Ex). injection Ex as <-. unfold update_copies in E. do 5 (apply bind_done in E; destruct E as (? & _ & E)). injection E as <-. reflexivity.
Qed.

Lemma gone_init x : xinitialize d0 g = Done x -> gone x.
Proof.
  unfold xinitialize. intros E. apply bind_done in E. destruct E as (st & E & Ex). injection Ex as <-. intros r c Ir _. cbn [x_st]. unfold initialize in E. 
  pose proof (collect_inv _ _ _ _ E r Ir) as Er. cbn beta zeta in Er. apply bind_done in Er. destruct Er as (k & _ & Er). injection Er as <-. auto.
Qed.

Lemma cinit_ok geo : exists c, cinitialize d0 g cmark nmark geo = Done c.
Proof.
  unfold cinitialize. destruct (xinitialize_inv d0 g Hg) as (x & E & _). rewrite E. cbn [bind]. destruct (renew_all_ok geo x [default_neighborhood_id] (xreach_init d0 g x E)) with (old := fun _ _ : Z => @None (shown X N)) as (sh & -> & _).
  - intros id [<-|[]]. apply hood_live. left. reflexivity.
  - cbn [bind]. eauto.
Qed.
Lemma cstep_ok c a : xreachable (c_x c) -> callowed g c a -> exists c', crun c a = Done c'.
Proof.
  intros R Ha. destruct a as [a|geo]; cbn [IterModel.crun callowed] in *; [|eauto]. destruct (xreachable_inv d0 g Hg _ R) as (own & Hx). destruct (xrun_ok d0 g Hg own _ a Hx Ha) as (own' & x' & E & _). rewrite E. cbn [bind].
  destruct (renew_all_ok (c_geo c) x' (renewed g (c_x c) a x') (xreach_step d0 g _ a x' R Ha E) (renewed_live _ a x' R Ha E) (c_shown c)) as (sh & -> & _). cbn [bind]. eauto.
Qed.

Lemma creached_x l c : creached l c -> xreachable (c_x c) /\ gone (c_x c).
Proof.
  induction 1 as [geo c E|l c a c' _ [R Hgo] Ha E].
  - unfold cinitialize in E. apply bind_done in E. destruct E as (x & E & Ex). apply bind_done in Ex. destruct Ex as (sh & _ & Ex). injection Ex as <-. cbn [c_x]. split; [apply xreach_init; assumption|apply gone_init; assumption].
  - destruct a as [a|geo]; cbn [IterModel.crun callowed] in *; [|injection E as <-; auto]. apply bind_done in E. destruct E as (x & E & Ex). apply bind_done in Ex. destruct Ex as (sh & _ & Ex). injection Ex as <-. cbn [c_x].
    split; [apply (xreach_step d0 g (c_x c) a); assumption|apply (gone_step (c_x c) a); assumption].
Qed.

(** making and keeping iterators never fails *)
Theorem c76_calls_succeed : (forall geo, exists c, cinitialize d0 g cmark nmark geo = Done c) /\
  forall l c a, creached l c -> callowed g c a -> exists c', crun c a = Done c'.
Proof. split; [apply cinit_ok|]. intros l c a R Ha. apply cstep_ok; [apply (creached_x l c R)|assumption]. Qed.

(** whatever the additional items depend on, right after these calls they are what they would be
    if calculated now, in all neighborhoods *)
Theorem c76_made_anew l c a c' id r : creached l c -> callowed g c a -> crun c a = Done c' ->
  (match a with OnGrid (Plain Stop) | OnGrid (Plain (LoadBalance _ _)) => True | OnGrid (Plain (History.Load given)) => loads_nothing g (x_st (c_x c)) given = false | _ => False end) ->
  hood_at (x_hoods (c_x c')) id <> None -> rank r -> exists s, c_shown c' id r = Some s /\ fresh (c_geo c') (c_x c') id r = Done s.
Proof.
  intros R Ha E Hall EU Ir. destruct (creached_x l c R) as [Rx _]. destruct a as [a|geo]; [|contradiction]. cbn [IterModel.crun callowed] in *. apply bind_done in E. destruct E as (x & E & Ex). apply bind_done in Ex. destruct Ex as (sh & Es & Ex). injection Ex as <-. cbn [c_x c_geo c_shown] in *.
  destruct (renew_all_ok (c_geo c) x (renewed g (c_x c) a x) (xreach_step d0 g _ a x Rx Ha E) (renewed_live _ a x Rx Ha E) (c_shown c)) as (sh' & Es' & P & _). assert (sh' = sh) as -> by congruence.
  apply P; [|assumption]. assert (renewed g (c_x c) a x = default_neighborhood_id :: map fst (x_hoods x)) as ->; [|apply hood_live; assumption].
  destruct a as [a| | | | |]; try contradiction. destruct a; try contradiction; try reflexivity. cbn [renewed]. rewrite Hall. reflexivity.
Qed.

Lemma same_trans (x y z : state) r : same_structure x y r -> same_structure y z r -> same_structure x z r.
Proof. intros (A1 & A2 & A3 & A4) (B1 & B2 & B3 & B4). split; [congruence|]. split; [congruence|]. split; [congruence|]. intros c. rewrite B4. apply A4. Qed.
Lemma same_refl (x : state) r : same_structure x x r.
Proof. split; [reflexivity|]. split; [reflexivity|]. split; reflexivity. Qed.

(** what is shown was made in a state of the same structure *)
Lemma made_from l c : creached l c -> forall id r, hood_at (x_hoods (c_x c)) id <> None -> rank r -> exists s geo x, c_shown c id r = Some s /\ fresh geo x id r = Done s /\
  xreachable x /\ gone x /\ same_structure x (c_x c) r /\ hood_at (x_hoods (c_x c)) id = hood_at (x_hoods x) id /\ ((forall geo, ~ In (SetGeometry geo) l) -> geo = c_geo c).
Proof.
  intros R. induction R as [geo c E|l c a c' R IH Ha E]; intros id r EU Ir.
  - pose proof (creached_x _ c (creached_init d0 g cmark nmark geo c E)) as [Rx Gx]. unfold cinitialize in E. apply bind_done in E. destruct E as (x & E & Ex). apply bind_done in Ex. destruct Ex as (sh & Es & Ex). injection Ex as <-. cbn [c_x c_geo c_shown] in *.
    destruct (renew_all_ok geo x [default_neighborhood_id] (xreach_init d0 g x E)) with (old := fun _ _ : Z => @None (shown X N)) as (sh' & Es' & P & _).
    { intros j [<-|[]]. apply hood_live. left. reflexivity. }
    assert (sh' = sh) as -> by congruence. destruct (P id) with (r := r) as (s & E1 & E2); [|assumption|].
    { apply hood_live in EU. unfold xinitialize in E. apply bind_done in E. destruct E as (st & _ & E). injection E as <-. exact EU. }
    exists s, geo, x. split; [assumption|]. split; [assumption|]. split; [assumption|]. split; [assumption|]. split; [apply same_refl|]. split; [reflexivity|]. reflexivity.
  - pose proof (creached_x _ c' (creached_step d0 g cmark nmark l c a c' R Ha E)) as [Rx' Gx']. destruct (creached_x l c R) as [Rx Gx]. destruct a as [a|geo]; cbn [IterModel.crun callowed] in *.
    + apply bind_done in E. destruct E as (x & E & Ex). apply bind_done in Ex. destruct Ex as (sh & Es & Ex). injection Ex as <-. cbn [c_x c_geo c_shown] in *.
      destruct (renew_all_ok (c_geo c) x (renewed g (c_x c) a x) Rx' (renewed_live _ a x Rx Ha E) (c_shown c)) as (sh' & Es' & P & P'). assert (sh' = sh) as -> by congruence.
      destruct (in_dec Z.eq_dec id (renewed g (c_x c) a x)) as [Q|Q].
      { destruct (P id Q r Ir) as (s & E1 & E2). exists s, (c_geo c), x. split; [assumption|]. split; [assumption|]. split; [assumption|]. split; [assumption|]. split; [apply same_refl|]. split; reflexivity. }
      rewrite (P' id Q). destruct (structure_kept (c_x c) a x Rx Ha E) as [K|K]; [|rewrite K in Q; apply hood_live in EU; contradiction].
      pose proof (hoods_kept (c_x c) a x id Rx E Q EU) as Eh. rewrite Eh in EU. destruct (IH id r EU Ir) as (s & geo & y & E1 & E2 & Ry & Gy & Sy & Hy & Ny). exists s, geo, y. split; [assumption|]. split; [assumption|]. split; [assumption|]. split; [assumption|].
      split; [apply (same_trans _ (c_x c)); auto|]. split; [congruence|]. intros Ng. apply Ny. intros geo' K'. apply (Ng geo'), in_app_iff. auto.
    + injection E as <-. cbn [c_x c_geo c_shown] in *. destruct (IH id r EU Ir) as (s & geo' & y & E1 & E2 & Ry & Gy & Sy & Hy & Ny). exists s, geo', y. split; [assumption|]. split; [assumption|]. split; [assumption|]. split; [assumption|]. split; [assumption|]. split; [assumption|].
      intros Ng. exfalso. apply (Ng geo), in_app_iff. right. left. reflexivity.
Qed.

(** at all other times as well, if they depend on the structure of the grid only and the
    geometry is left alone or does not matter to them *)
Theorem c76_iterators_current l c id r : structural -> (forall geo, ~ In (SetGeometry geo) l) \/ not_geometric -> creached l c ->
  hood_at (x_hoods (c_x c)) id <> None -> rank r -> exists s, c_shown c id r = Some s /\ fresh (c_geo c) (c_x c) id r = Done s.
Proof.
  intros Hs Hgeo R EU Ir. destruct (creached_x l c R) as [_ Gx]. destruct (made_from l c R id r EU Ir) as (s & geo & x & E1 & E2 & Rx & Gy & Sm & Eh & Ng). exists s. split; [assumption|]. rewrite <- E2.
  rewrite Eh in EU. destruct (hood_at (x_hoods x) id) as [U|] eqn:EU'; [|congruence]. apply (fresh_ext geo (c_geo c) x (c_x c) id U r Hs); auto; [|congruence]. destruct Hgeo as [Q|Q]; [left; symmetry; auto|auto].
Qed.

(** ** Data pointers *)
Lemma follow_read (x : state) r c : match pointer x r c with Some p => exists v, follow x r c p = Some v /\ read x r c = Some v | None => read x r c = None end.
Proof.
  unfold pointer, read, has. destruct (find c (s_data (p_store (x_st x r)))) as [v|] eqn:E1; [cbn; eauto|]. destruct (find c (x_copies x r)) as [v|] eqn:E2; [cbn; eauto|].
  destruct (find c (s_refd (p_store (x_st x r)))) as [v|] eqn:E3; [cbn; eauto|]. destruct (find c (s_unrefd (p_store (x_st x r)))) as [v|] eqn:E4; [cbn; eauto|reflexivity].
Qed.

(** whatever else users calculate: at all times the cells and neighbors shown are those that
    exist, data pointers of cells and of neighbors of own cells point to the data which the grid
    gives for the cell, and all others do if the grid gives any *)
Theorem c76_data_pointers l c id r : creached l c -> hood_at (x_hoods (c_x c)) id <> None -> rank r -> exists s, c_shown c id r = Some s /\
  iterators g (c_x c) id r = Done (sh_views s) /\
  map (fun e => fst (fst e)) (sh_cells s) = view_cells (sh_views s) /\
  map (fun e => (fst e, map (fun n => fst (fst n)) (snd e))) (sh_nbrs s) = map (fun i => (i, view_all (sh_views s) i)) (view_cells (sh_views s)) /\
  (forall i p a, In (i, p, a) (sh_cells s) -> exists q v, p = Some q /\ follow (c_x c) r (i_id i) q = Some v /\ read (c_x c) r (i_id i) = Some v) /\
  (forall i ns n p b, In (i, ns) (sh_nbrs s) -> In (n, p, b) ns ->
    match p with Some q => exists v, follow (c_x c) r (fst n) q = Some v /\ read (c_x c) r (fst n) = Some v
    | None => read (c_x c) r (fst n) = None /\ owner (x_st (c_x c)) r (i_id i) <> Some r end).
Proof.
  intros R EU Ir. destruct (creached_x l c R) as [Rc Gx]. destruct (made_from l c R id r EU Ir) as (s & geo & x & E1 & E2 & Rx & Gy & Sm & Eh & Ng). exists s. split; [assumption|]. clear Ng.
  destruct (hood_at (x_hoods (c_x c)) id) as [U|] eqn:EU'; [|congruence]. symmetry in Eh. destruct (shown_exist x id U r Rx Eh Ir) as (v & Ev & P). unfold IterModel.fresh in E2. rewrite Ev in E2. cbn [bind] in E2. injection E2 as <-. cbn [sh_views sh_cells sh_nbrs].
  rewrite <- Ev. split; [apply (iterators_ext x (c_x c) id r Sm); congruence|]. rewrite !map_map. split; [rewrite <- (map_id (view_cells v)) at 2; apply map_ext; reflexivity|].
  split; [apply map_ext; intros i; cbn [fst snd]; rewrite map_map; cbn [fst]; rewrite map_id; reflexivity|].
  assert (iterators g (c_x c) id r = Done v) as Ev' by (rewrite <- Ev; apply (iterators_ext x (c_x c) id r Sm); congruence).
  destruct (c38_cells d0 g Hg (c_x c) id U r Rc EU' Ir) as (v' & Ev2 & _ & _ & _ & Lo & Re & Ap & _ & Q). assert (v' = v) as -> by congruence. clear Ev2.
  assert (forall b a, owns (c_x c) r r b -> elsewhere (c_x c) r a -> sees m t (g_hood g) b a \/ sees m t (g_hood g) a b -> exists w, read (c_x c) r a = Some w) as Cp by (intros b a; apply (c34_copies_exist d0 g Hg); assumption).
  destruct (xreachable_inv d0 g Hg (c_x c) Rc) as (own & Hx). pose proof Hx as ((Hgood & _) & _ & Ho). destruct (proj2 Hgood r Ir) as ((_ & _ & _ & Kd) & _).
  assert (forall b, owns (c_x c) r r b -> exists w, read (c_x c) r b = Some w) as Op.
  { intros b Ob. unfold owns in Ob. rewrite (xview g own (c_x c) r b Hx Ir) in Ob. apply Kd, has_find in Ob. destruct Ob as (w & Ew). exists w. unfold read. rewrite Ew. reflexivity. }
  split.
  - intros i p a Hi. apply in_map_iff in Hi. destruct Hi as (i' & Ei & Hi). injection Ei as -> <- _. destruct (P i Hi) as [P1 _]. rewrite <- (pointer_ext x (c_x c) r (i_id i) Sm Ir Gy Gx P1). pose proof (follow_read (c_x c) r (i_id i)) as F.
    assert (exists w, read (c_x c) r (i_id i) = Some w) as (w & Ew). { rewrite Ap in Hi. apply in_app_iff in Hi. destruct Hi as [Hi|Hi]; apply (in_map i_id) in Hi; [apply Op, Lo; assumption|]. apply Re in Hi. destruct Hi as (El & b & Ob & S). apply (Cp b); assumption. }
    destruct (pointer (c_x c) r (i_id i)) as [q|]; [|congruence]. destruct F as (w' & F1 & F2). eauto.
  - intros i ns n p b Hi Hn. apply in_map_iff in Hi. destruct Hi as (i' & Ei & Hi). injection Ei as -> <-. apply in_map_iff in Hn. destruct Hn as (n' & En & Hn). injection En as -> <- _. destruct (P i Hi) as [_ P2].
    rewrite <- (pointer_ext x (c_x c) r (fst n) Sm Ir Gy Gx (P2 n Hn)). pose proof (follow_read (c_x c) r (fst n)) as F. destruct (pointer (c_x c) r (fst n)) as [q|]; [assumption|]. split; [assumption|]. intros Oi.
    assert (exists_on (x_st (c_x c)) r (fst n) = true /\ (sees m t U (i_id i) (fst n) \/ sees m t U (fst n) (i_id i))) as [Ex S].
    { destruct n as [y o]. cbn [fst]. destruct (Q i Hi) as (_ & Q1 & Q2 & _ & Q4). apply Q4 in Hn. destruct Hn as [Hn|Hn].
      - apply Q1 in Hn. destruct Hn as (Hn & h & Hh & Hb). split; [assumption|]. left. exists h, o. auto.
      - apply (in_map fst) in Hn. apply Q2 in Hn. tauto. }
    assert (exists w, read (c_x c) r (fst n) = Some w) as (w & Ew); [|congruence]. unfold exists_on in Ex. destruct (owner (x_st (c_x c)) r (fst n)) as [q|] eqn:Oq; [|discriminate]. destruct (Z.eq_dec q r) as [->|Nq]; [apply Op; assumption|].
    apply (Cp (i_id i)); [assumption|exists q; split; assumption|]. pose proof (hood_at_sub g _ id U Ho EU') as Su. destruct S as [(h & o & Hh & Hb)|(h & o & Hh & Hb)]; [left|right]; exists h, o; auto.
Qed.

(** in the middle of load balancing, however often continue_balance_load has been called: data
    pointers of own cells still point to their data, those of all remote cells point to data that
    has been freed *)
Theorem c76_pointers_while_balancing l c id r z dest mv k mv' s i p a : creached l c -> hood_at (x_hoods (c_x c)) id <> None -> rank r ->
  answers_ok g (owner (x_st (c_x c)) 0) z dest -> initialize_balance_load d0 g (x_st (c_x c)) z = Done mv -> continues g k mv = Done mv' ->
  c_shown c id r = Some s -> In (i, p, a) (sh_cells s) ->
  (owner (x_st (c_x c)) r (i_id i) = Some r -> p = Some Own /\ exists v, follow_moving mv' r (i_id i) Own = Some v /\ read (c_x c) r (i_id i) = Some v) /\
  (owner (x_st (c_x c)) r (i_id i) <> Some r -> p = Some Copied /\ follow_moving mv' r (i_id i) Copied = None).
Proof.
  intros R EU Ir Hz Em Ek Es Hi. destruct (creached_x l c R) as [Rc _]. destruct (c76_data_pointers l c id r R EU Ir) as (s' & Es' & _ & _ & _ & Pc & _). assert (s' = s) as -> by congruence. destruct (Pc i p a Hi) as (q & v & -> & Fq & Rq).
  destruct (xreachable_inv d0 g Hg (c_x c) Rc) as (own & Hx). pose proof Hx as ((Hgood & Hpins) & Hc & _). destruct (proj2 Hgood r Ir) as ((_ & _ & _ & Kd) & _).
  assert (answers_ok g own z dest) as Hz' by (apply (answers_ext g (owner (x_st (c_x c)) 0)); [intros y; apply (xview g own (c_x c) 0 y Hx (Balance.rank0 g Hg))|assumption]).
  destruct (init_balance_ok d0 g Hg own (x_st (c_x c)) Hgood Hpins z dest Hz') as (mv0 & Em0 & P0). assert (mv0 = mv) as -> by congruence.
  destruct (continues_ok d0 g own (x_st (c_x c)) Hgood dest k false mv P0) as (mv1 & Ek1 & P1). assert (mv1 = mv') as -> by congruence. destruct (P1 r Ir) as (_ & _ & _ & _ & _ & _ & _ & _ & _ & Pd).
  assert (q = Own \/ q = Copied) as Hq.
  { destruct (made_from l c R id r EU Ir) as (s' & geo & x & E1 & E2 & Rx & Gy & Sm & Eh & _). assert (s' = s) as -> by congruence. destruct (creached_x l c R) as [_ Gx].
    destruct (hood_at (x_hoods (c_x c)) id) as [U|] eqn:EU'; [|congruence]. symmetry in Eh. destruct (shown_exist x id U r Rx Eh Ir) as (w & Ev & P). unfold IterModel.fresh in E2. rewrite Ev in E2. cbn [bind] in E2. injection E2 as <-. cbn [sh_cells] in Hi.
    apply in_map_iff in Hi. destruct Hi as (i' & Ei & Hi). injection Ei as -> Ep _. destruct (P i Hi) as [P' _]. destruct (Gy r _ Ir P') as [G1 G2]. unfold pointer in Ep. rewrite G1, G2 in Ep. destruct (has _ _); [left; congruence|]. destruct (has _ _); [right; congruence|discriminate]. }
  rewrite (xview g own (c_x c) r (i_id i) Hx Ir). split; intros O.
  - assert (q = Own) as ->. { destruct Hq as [->| ->]; [reflexivity|]. exfalso. cbn [follow] in Fq. destruct (Hc r Ir) as [_ K]. assert (has (i_id i) (x_copies (c_x c) r) = true) as Hh by (apply has_find; eauto). apply K in Hh.
      destruct (proj2 Hgood r Ir) as (Hs & Hk & _). destruct (default_lists_ok g Hg own r _ _ (proj1 Hgood) Hs Hk) as (_ & _ & _ & Rm & _). apply Rm in Hh. destruct Hh as (b & _ & _ & Nb & _). contradiction. }
    split; [reflexivity|]. exists v. cbn [follow_moving follow] in *. rewrite Pd, O, Z.eqb_refl. auto.
  - destruct Hq as [->| ->]; [|auto]. exfalso. apply O. cbn [follow] in Fq. apply Kd, has_find. eauto.
Qed.
End Marks.
End Props.
Print Assumptions c76_made_anew.
Print Assumptions c76_iterators_current.
Print Assumptions c76_pointers_while_balancing.
