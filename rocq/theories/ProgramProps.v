(** C69: programs give the same cells and data on any number of processes, with any order of work
    within processes, any interleaving of processes and any load balancing. *)
From Verif Require Import U64 MapModel MapSpec MapProofs MapFamily MapProps HoodModel MeshModel
  MeshSpec MeshBase HoodProps MeshWalk MeshFind MeshKids MeshItem MeshCheck MeshTo MeshNear
  Sets RefineModel RefineGeo RefineInv RefineSpread RefineMerge RefineFold RefineExec RefineStop RefineNear
  BalanceModel RefineReqs Create Balance History HistProps CommitProps BalProps CommModel CommInv CommProps Adapt ProgramModel.
Open Scope Z_scope.

(** ** Neighbor searches depend on the existing cells only *)
Section Ext.
Context (ex ex' : Z -> bool) (He : forall c, ex c = ex' c) (m : mapping) (t : topo).
Lemma gec_ext i n : forall lvl, gec_loop ex m i n lvl = gec_loop ex' m i n lvl.
Proof. induction n as [|n IH]; intros lvl; cbn [gec_loop]; [reflexivity|]. rewrite He, IH. reflexivity. Qed.
Lemma child_ext c : get_child_ex ex m c = get_child_ex ex' m c.
Proof. unfold get_child_ex. rewrite !He. reflexivity. Qed.
Lemma has_ext c : has_neighbors ex m c = has_neighbors ex' m c.
Proof. unfold has_neighbors. rewrite He, child_ext. reflexivity. Qed.
Lemma face_ext c k pos : face_neighbor ex m t c k pos = face_neighbor ex' m t c k pos.
Proof. unfold face_neighbor, get_existing_cell. rewrite gec_ext. reflexivity. Qed.
Lemma walk_ext fuel : forall lo hi c o, walk fuel ex m t lo hi c o = walk fuel ex' m t lo hi c o.
Proof.
  induction fuel as [|f IH]; intros lo hi c o; cbn [walk]; [reflexivity|]. destruct (step_dir lo hi o (get_cell_length_in_indices m c)) as [[k pos]|]; [|reflexivity].
  rewrite has_ext, face_ext. destruct (negb (has_neighbors ex' m c)); [reflexivity|]. cbn zeta. destruct (face_neighbor ex' m t c k pos =? error_cell); [reflexivity|apply IH].
Qed.
Lemma items_ext c h : find_items ex m t c h = find_items ex' m t c h.
Proof. induction h as [|i h IH]; cbn [find_items]; [reflexivity|]. unfold find_item. rewrite walk_ext, IH. reflexivity. Qed.
Lemma neighbors_ext c h : find_neighbors_of ex m t c h = find_neighbors_of ex' m t c h.
Proof. unfold find_neighbors_of. rewrite He, has_ext, items_ext. reflexivity. Qed.
End Ext.

Lemma all_some_ext {A B} (f f' : A -> option B) l : (forall a, In a l -> f a = f' a) -> all_some (map f l) = all_some (map f' l).
Proof.
  induction l as [|a l IH]; intros E; cbn [map all_some]; [reflexivity|]. rewrite (E a (or_introl eq_refl)), IH; [reflexivity|]. intros b Hb. apply E. right. assumption.
Qed.
Lemma all_some_ok {A B} (f : A -> option B) l : (forall a, In a l -> exists b, f a = Some b) -> exists bs, all_some (map f l) = Some bs.
Proof.
  induction l as [|a l IH]; intros E; cbn [map all_some]; [eauto|]. destruct (E a (or_introl eq_refl)) as (b & ->). destruct IH as (bs & ->); [intros c Hc; apply E; right; assumption|eauto].
Qed.

(** ** The grid as a whole *)
Section Whole.
Context {D : Type}.
(** the data of a cell on its process *)
Definition data_at (x : xstate (D := D)) (c : Z) : option D :=
  match owner (x_st x) 0 c with Some r => find c (s_data (p_store (x_st x r))) | None => None end.
(** the data of a cell and of its neighbors, from the existing cells and their data alone *)
Definition view_at (g : grid) (hs : hoods) (id : Z) (ex : Z -> bool) (val : Z -> option D) (c : Z) : option (D * list (seen D)) :=
  match val c, CommInv.hood_at g hs id with
  | Some v, Some U =>
    match find_neighbors_of ex (g_map g) (g_topo g) c U with
    | Done l => match all_some (map (fun e => match val (fst e) with Some w => Some (e, w) | None => None end) l) with
                | Some ns => Some (v, ns) | None => None end
    | _ => None
    end
  | _, _ => None
  end.
Lemma view_at_ext g hs id ex ex' val val' c : (forall c, ex c = ex' c) -> (forall c, val c = val' c) -> view_at g hs id ex val c = view_at g hs id ex' val' c.
Proof.
  intros He Hv. unfold view_at. rewrite Hv. destruct (val' c); [|reflexivity]. destruct (CommInv.hood_at g hs id); [|reflexivity]. rewrite (neighbors_ext ex ex' He).
  destruct (find_neighbors_of ex' (g_map g) (g_topo g) c h); try reflexivity. rewrite (all_some_ext _ (fun e => match val' (fst e) with Some w => Some (e, w) | None => None end)); [reflexivity|]. intros e _. rewrite Hv. reflexivity.
Qed.
(** no requests are pending *)
Definition idle (g : grid) (st : Z -> proc D) : Prop := forall r, In r (ranks g) -> p_req (st r) = no_requests.
End Whole.

Section Steps.
Context {D : Type} (d0 : D) (g : grid) (Hg : grid_ok g).
Notation m := (g_map g).
Notation t := (g_topo g).
Notation n := (g_len g).
Notation rank r := (In r (ranks g)).
Notation xreachable := (xreachable d0 g).
Notation state := (xstate (D := D)).
Notation calls := (calls d0 g).
Definition ex_at (x : state) (c : Z) : bool := exists_on (x_st x) 0 c.

Lemma rank0 : rank 0. Proof. apply (HistProps.rank0 g Hg). Qed.
Lemma calls_reachable x l x' : xreachable x -> calls x l x' -> xreachable x'.
Proof. intros R H. induction H as [x|x a x1 l x2 Ha E H IH]; [assumption|]. apply IH. apply xreach_step with x a; assumption. Qed.
Lemma calls_app x l x1 l' x2 : calls x l x1 -> calls x1 l' x2 -> calls x (l ++ l') x2.
Proof. intros H H'. induction H as [x|x a x1 l x3 Ha E H IH]; [assumption|]. cbn [app]. apply calls_cons with x1; auto. Qed.

Lemma data_own own (x : state) c : xinv g own x -> data_at x c = match own c with Some r => find c (s_data (p_store (x_st x r))) | None => None end.
Proof. intros Hx. unfold data_at. rewrite (xview g own x 0 c Hx rank0). reflexivity. Qed.
Lemma data_here own (x : state) c r : xinv g own x -> own c = Some r -> rank r /\ exists v, find c (s_data (p_store (x_st x r))) = Some v /\ data_at x c = Some v.
Proof.
  intros Hx O. pose proof Hx as (((Hw & Hr) & _) & _). assert (rank r) as Ir by (apply (proj2 Hw c r O)). split; [assumption|]. rewrite (data_own own x c Hx), O.
  assert (has c (s_data (p_store (x_st x r))) = true) as Hh by (apply (proj2 (proj2 (proj2 (proj1 (Hr r Ir))))); assumption). apply has_find in Hh. destruct Hh as (v & Ev). eauto.
Qed.
Lemma ex_own own (x : state) c : xinv g own x -> ex_at x c = exo own c.
Proof. intros (Hi & _). apply (viewx g own (x_st x) 0 c Hi rank0). Qed.

(** the lists of neighbors are those of the search *)
Lemma nof_exact own r (s : store D) U L : world_ok g own -> store_ok own r s -> (forall h, In h U -> In h (g_hood g)) ->
  user_lists g r s U = Done L -> forall c, exo own c = true -> exists l, find c (l_of L) = Some l /\ find_neighbors_of (exo own) m t c U = Done l.
Proof.
  intros Hw Hs HU E c Ec. pose proof (store_mesh g own r s Hw Hs) as M. pose proof (fun c => exb_exo own r s c Hs) as Eb.
  unfold user_lists in E. apply bind_done in E. destruct E as (nof & Eof & E). apply bind_done in E. destruct E as (nto & _ & E). apply bind_done in E. destruct E as (u & _ & E). apply bind_done in E. destruct E as (b & _ & E). injection E as <-. cbn [l_of].
  destruct (keyed (fun c => find_neighbors_of (exb s) m t c U) (keys (s_proc s))) as (f & Ef & P & _).
  { intros k Hk. apply (store_keys own r s k Hs) in Hk. rewrite <- Eb in Hk. destruct (neighbors_of_in m t n (exb s) k U M Hk HU) as (l & El & _). eauto. }
  assert (f = nof) as <- by congruence. destruct (P c) as (l & El & Fl); [apply (store_keys own r s c Hs); assumption|]. exists l. split; [assumption|]. rewrite <- (neighbors_ext _ _ Eb). assumption.
Qed.
Lemma default_exact own r (s : store D) k : world_ok g own -> store_ok own r s -> rebuild g r s = Done k ->
  forall c, exo own c = true -> exists l, find c (k_of k) = Some l /\ find_neighbors_of (exo own) m t c (g_hood g) = Done l.
Proof.
  intros Hw Hs E c Ec. pose proof (store_mesh g own r s Hw Hs) as M. pose proof (fun c => exb_exo own r s c Hs) as Eb. pose proof M as (_ & _ & T & _).
  unfold rebuild in E. apply bind_done in E. destruct E as (nof & Eof & E). apply bind_done in E. destruct E as (nto & _ & E). apply bind_done in E. destruct E as (b & _ & E). injection E as <-. cbn [k_of]. unfold build_of in Eof.
  assert (forall c, In c (filter (updated g (exb s)) (keys (s_proc s))) <-> exo own c = true) as Kc.
  { intros k. rewrite filter_In, (updated_leaf g Hg (exb s) k T), (store_keys own r s k Hs), (exb_exo own r s k Hs). tauto. }
  destruct (keyed (fun c => find_neighbors_of (exb s) m t c (g_hood g)) (filter (updated g (exb s)) (keys (s_proc s)))) as (f & Ef & P & _).
  { intros k Hk. apply Kc in Hk. rewrite <- Eb in Hk. destruct (neighbors_of_in m t n (exb s) k (g_hood g) M Hk (fun h Q => Q)) as (l & El & _). eauto. }
  assert (f = nof) as <- by congruence. destruct (P c) as (l & El & Fl); [apply Kc; assumption|]. exists l. split; [assumption|]. rewrite <- (neighbors_ext _ _ Eb). assumption.
Qed.
Lemma of_exact own (x : state) id U r c : xinv g own x -> CommInv.hood_at g (x_hoods x) id = Some U -> rank r -> exo own c = true ->
  exists l, get_neighbors_of g (x_hoods x) id r (x_st x r) c = Done (Some l) /\ find_neighbors_of (exo own) m t c U = Done l /\
    forall e, In e l -> exo own (fst e) = true /\ sees m t U c (fst e).
Proof.
  intros Hx EU Ir Ec. pose proof Hx as ((Hgood & _) & _ & Ho). pose proof Hgood as (Hw & Hr). destruct (Hr r Ir) as (Hs & Hc & _).
  pose proof (hood_at_sub g (x_hoods x) id U Ho EU) as HU.
  assert (forall l, find_neighbors_of (exo own) m t c U = Done l -> forall e, In e l -> exo own (fst e) = true /\ sees m t U c (fst e)) as K.
  { intros l El [y o] He. destruct (neighbors_of_in m t n (exo own) c U (proj1 Hw) Ec HU) as (l' & El' & P). rewrite El in El'. injection El' as <-. apply P in He. destruct He as (Ey & h & Hh & N). cbn [fst]. split; [assumption|]. exists h, o. auto. }
  unfold get_neighbors_of. rewrite (exb_exo own r _ c Hs), Ec. cbn [negb]. unfold CommInv.hood_at in EU. unfold lists_of. destruct (id =? default_neighborhood_id).
  - injection EU as <-. cbn [bind default_lists]. destruct (default_exact own r _ _ Hw Hs Hc c Ec) as (l & Fl & El). exists l. unfold at_. cbn [l_of default_lists]. rewrite Fl. cbn [bind]. split; [reflexivity|]. split; [assumption|]. apply K, El.
  - rewrite EU. destruct (user_lists_ok g Hg own r _ Hw Hs U HU) as (L & EL & _). rewrite EL. cbn [bind]. destruct (nof_exact own r _ U L Hw Hs HU EL c Ec) as (l & Fl & El). exists l. unfold at_. rewrite Fl. cbn [bind]. split; [reflexivity|]. split; [assumption|]. apply K, El.
Qed.

(** after an update a process sees the data of its cells' neighbors *)
Lemma update_view x id x1 : xreachable x -> xallowed g x (Update id) -> xrun d0 g x (Update id) = Done x1 ->
  xreachable x1 /\ x_st x1 = x_st x /\ x_hoods x1 = x_hoods x /\
  forall r c, rank r -> owner (x_st x) r c = Some r -> exists d ns,
    local_view g id x1 r c = Some (d, ns) /\ view_at g (x_hoods x) id (ex_at x) (data_at x) c = Some (d, ns).
Proof.
  intros R Ha E. split; [apply xreach_step with x (Update id); assumption|]. destruct (xreachable_inv d0 g Hg x R) as (own & Hx). destruct (hood_known g _ _ Ha) as (U & EU).
  destruct (update_ok g Hg own x id U Hx EU) as (x' & E' & E1 & E2 & P). cbn [xrun] in E. rewrite E' in E. cbn [bind snd] in E. injection E as <-. split; [assumption|]. split; [assumption|].
  intros r c Ir O. rewrite (xview g own x r c Hx Ir) in O. pose proof Hx as ((Hgood & _) & Hc & Ho). pose proof Hgood as (Hw & Hr).
  assert (exo own c = true) as Ec by (apply exo_some; eauto). destruct (of_exact own x id U r c Hx EU Ir Ec) as (l & El & Es & Pl).
  assert (forall c', own c' = Some r -> read x' r c' = data_at x c' /\ exists v, data_at x c' = Some v) as Rl.
  { intros c' O'. destruct (data_here own x c' r Hx O') as (_ & v & Ev & Dv). rewrite Dv. split; [|eauto]. unfold read. rewrite E1, Ev. reflexivity. }
  assert (forall e, In e l -> read x' r (fst e) = data_at x (fst e) /\ exists v, data_at x (fst e) = Some v) as Re.
  { intros e He. destruct (Pl e He) as [Ee Se]. apply exo_some in Ee. destruct Ee as (q & Oq). destruct (Z.eq_dec q r) as [->|Nq]; [apply Rl; assumption|].
    destruct (data_here own x (fst e) q Hx Oq) as (_ & v & Ev & Dv). rewrite Dv. split; [|eauto]. unfold read. rewrite E1.
    assert (find (fst e) (s_data (p_store (x_st x r))) = None) as ->.
    { apply has_not. destruct (has (fst e) (s_data (p_store (x_st x r)))) eqn:Hh; [|reflexivity]. apply (proj2 (proj2 (proj2 (proj1 (Hr r Ir))))) in Hh. congruence. }
    destruct (P r Ir) as [_ Q]. destruct (Q (fst e)) as [Q1 _]. rewrite (Q1 q), Ev; [reflexivity|]. split; [assumption|]. split; [assumption|]. exists c. auto. }
  destruct (Rl c O) as (Rc & v & Dv). destruct (all_some_ok (fun e : Z * idx => match data_at x (fst e) with Some w => Some (e, w) | None => None end) l) as (ns & Ens).
  { intros e He. destruct (Re e He) as (_ & w & ->). eauto. }
  exists v, ns. split.
  - unfold local_view. rewrite Rc, Dv, E1, E2, El. rewrite (all_some_ext _ (fun e : Z * idx => match data_at x (fst e) with Some w => Some (e, w) | None => None end)); [rewrite Ens; reflexivity|]. intros e He. destruct (Re e He) as [-> _]. reflexivity.
  - unfold view_at. rewrite Dv, EU. rewrite (neighbors_ext (ex_at x) (exo own)) by (intros k; apply (ex_own own x k Hx)). rewrite Es, Ens. reflexivity.
Qed.

(** ** Writes *)
Definition last_write (l : list (Z * Z * D)) (r c : Z) (v : D) : D :=
  fold_left (fun a e => if (fst (fst e) =? r) && (snd (fst e) =? c) then snd e else a) l v.
Lemma last_in l r c v w : In (r, c, w) l -> (forall w', In (r, c, w') l -> w' = w) -> last_write l r c v = w.
Proof.
  assert (forall l v, (forall w', In (r, c, w') l -> w' = w) -> v = w -> last_write l r c v = w) as K.
  { clear. induction l as [|[[a b] u] l IH]; intros v Hw Hv; cbn [last_write fold_left fst snd]; [assumption|]. apply IH; [intros w' Q; apply Hw; right; assumption|].
    destruct (Z.eqb_spec a r) as [->|]; cbn [andb]; [|assumption]. destruct (Z.eqb_spec b c) as [->|]; [|assumption]. apply Hw. left. reflexivity. }
  revert v. induction l as [|[[a b] u] l IH]; intros v Hi Hw; [destruct Hi|]. cbn [last_write fold_left fst snd]. destruct Hi as [Q|Hi].
  - injection Q as -> -> ->. rewrite !Z.eqb_refl. cbn [andb]. apply K; [intros w' Q; apply Hw; right; assumption|reflexivity].
  - apply IH; [assumption|]. intros w' Q. apply Hw. right. assumption.
Qed.
Lemma last_not l r c v : (forall w, ~ In (r, c, w) l) -> last_write l r c v = v.
Proof.
  revert v. induction l as [|[[a b] u] l IH]; intros v N; cbn [last_write fold_left fst snd]; [reflexivity|].
  destruct (Z.eqb_spec a r) as [->|]; cbn [andb]; [destruct (Z.eqb_spec b c) as [->|]|]; [exfalso; apply (N u); left; reflexivity|apply IH; intros w Q; apply (N w); right; assumption..].
Qed.
Lemma find_written (f : list (Z * D)) c v k : find k (map (fun e => (fst e, if fst e =? c then v else snd e)) f) = match find k f with Some w => Some (if k =? c then v else w) | None => None end.
Proof.
  induction f as [|[a w] f IH]; cbn [map find fst snd]; [reflexivity|]. destruct (Z.eqb_spec k a) as [->|]; [reflexivity|apply IH].
Qed.
Lemma writes_ok l : forall x x', calls x (writes l) x' ->
  x_hoods x' = x_hoods x /\ (forall r, p_req (x_st x' r) = p_req (x_st x r)) /\ (forall r c, owner (x_st x') r c = owner (x_st x) r c) /\
  forall r c, find c (s_data (p_store (x_st x' r))) = match find c (s_data (p_store (x_st x r))) with Some v => Some (last_write l r c v) | None => None end.
Proof.
  induction l as [|[[r0 c0] v0] l IH]; intros x x' H; inversion H as [?|? a x1 l1 x2 Ha E H']; subst.
  - split; [reflexivity|]. split; [reflexivity|]. split; [reflexivity|]. intros r c. cbn [last_write fold_left]. destruct (find c _); reflexivity.
  - cbn [xrun run bind fst snd] in E. injection E as <-. destruct (IH _ _ H') as (A & B & C & F). cbn [x_hoods x_st] in *. split; [assumption|].
    assert (forall r, p_req (set_rank (x_st x) r0 (with_store (x_st x r0) (write (p_store (x_st x r0)) c0 v0)) r) = p_req (x_st x r)) as B' by (intros r; unfold set_rank; destruct (Z.eqb_spec r r0) as [->|]; reflexivity).
    split; [intros r; rewrite B, B'; reflexivity|]. split.
    + intros r c. rewrite C. unfold owner, set_rank. destruct (Z.eqb_spec r r0) as [->|]; reflexivity.
    + intros r c. rewrite F. cbn [last_write fold_left fst snd]. unfold set_rank. destruct (Z.eqb_spec r r0) as [->|Nr].
      * cbn [with_store p_store write s_data]. rewrite find_written, Z.eqb_refl. cbn [andb]. destruct (find c (s_data (p_store (x_st x r0)))); [|reflexivity]. rewrite (Z.eqb_sym c0 c). reflexivity.
      * destruct (Z.eqb_spec r0 r); [congruence|]. cbn [andb]. reflexivity.
Qed.

(** ** Computation *)
Lemma compute_ok x id f x' : xreachable x -> exec_step d0 g x (Compute id f) x' ->
  xreachable x' /\ x_hoods x' = x_hoods x /\ (idle g (x_st x) -> idle g (x_st x')) /\ (forall c, ex_at x' c = ex_at x c) /\
  forall c, ex_at x c = true -> exists d ns, view_at g (x_hoods x) id (ex_at x) (data_at x) c = Some (d, ns) /\ data_at x' c = Some (f c d ns).
Proof.
  intros R H. inversion H as [? ? x1 l ? Ha E H1 H2 H3| | |]; subst. destruct (update_view x id x1 R Ha E) as (R1 & E1 & E2 & P). destruct (writes_ok l x1 x' H3) as (A & B & C & F).
  split; [apply (calls_reachable _ _ _ R1 H3)|]. split; [congruence|]. split; [intros I r Ir; rewrite B, E1; apply I; assumption|].
  assert (forall c, owner (x_st x') 0 c = owner (x_st x) 0 c) as O by (intros c; rewrite C, E1; reflexivity).
  split; [intros c; unfold ex_at, exists_on; rewrite O; reflexivity|]. destruct (xreachable_inv d0 g Hg x R) as (own & Hx). intros c Ec. rewrite (ex_own own x c Hx) in Ec. apply exo_some in Ec. destruct Ec as (r & Oc).
  destruct (data_here own x c r Hx Oc) as (Ir & v & Ev & Dv). pose proof (xview g own x r c Hx Ir) as V. rewrite Oc in V. destruct (P r c Ir V) as (d & ns & Lv & Va). exists d, ns. split; [assumption|].
  unfold data_at. rewrite O, (xview g own x 0 c Hx rank0), Oc, F, E1, Ev. f_equal. rewrite <- E1 in V. destruct (H2 r c Ir V) as (w & Hw).
  assert (forall w', In (r, c, w') l -> w' = f c d ns) as Same. { intros w' Q. destruct (H1 r c w' Q) as (_ & _ & d' & ns' & Lv' & ->). rewrite Lv in Lv'. injection Lv' as <- <-. reflexivity. }
  rewrite (last_in l r c v w Hw); [apply Same; assumption|]. intros w' Q. rewrite (Same w' Q), (Same w Hw). reflexivity.
Qed.

(** ** Adaptation *)
(** the requests of a local criterion, from the existing cells and their data alone *)
Definition wants (hs : hoods) (id : Z) (ex : Z -> bool) (val : Z -> option D) (w : Z -> D -> list (seen D) -> list want) (k : want) (c : Z) : Prop :=
  ex c = true /\ exists d ns, view_at g hs id ex val c = Some (d, ns) /\ In k (w c d ns).
Definition wishes hs id ex val w : requests := Requests
  (fun c => wants hs id ex val w ToRefine c /\ lvl_of m c < m_max m) (fun _ => False) (wants hs id ex val w ToUnrefine)
  (fun c => wants hs id ex val w ToHold c \/ wants hs id ex val w ToRefine c /\ lvl_of m c = m_max m).
(** the data of cells after an adaptation *)
Definition data_after (kid : Z -> D -> D) (par : Z -> list D -> D) (ex : Z -> bool) (val : Z -> option D) (c : Z) : option D :=
  if ex c then val c
  else if (0 <? lvl_of m c) && ex (get_parent m c) then option_map (kid c) (val (get_parent m c))
  else option_map (par c) (all_some (map val (get_all_children m c))).

Lemma calls_plain l : forall x x', calls x (map Plain l) x' -> all_quiet l -> runs d0 g (x_st x) l (x_st x') /\ x_hoods x' = x_hoods x /\ x_copies x' = x_copies x.
Proof.
  induction l as [|a l IH]; intros x x' H Q; inversion H as [?|? b x1 l1 x2 Ha E H']; subst; [split; [constructor|auto]|].
  cbn [xrun] in E. apply bind_done in E. destruct E as (st & E & E'). injection E' as <-. assert (quiet a) as Qa by (apply Q; left; reflexivity).
  destruct (IH _ _ H' ltac:(intros b Hb; apply Q; right; assumption)) as (A & B & C). cbn [x_st x_hoods x_copies] in *. split; [apply runs_cons with st; assumption|]. split; [assumption|]. rewrite C. destruct a; cbn [quiet] in Qa; try contradiction; reflexivity.
Qed.
Lemma asks_quiet (l : list (call (D := D))) : (forall a, In a l -> exists k r c, a = call_of k r c) -> all_quiet l.
Proof. intros H a Ha. destruct (H a Ha) as ([] & r & c & ->); exact I. Qed.
Lemma asks_store l : forall st st', runs d0 g st l st' -> (forall a, In a l -> exists k r c, a = call_of k r c) -> forall r, p_store (st' r) = p_store (st r).
Proof.
  intros st st' H. induction H as [st|st a st1 l st2 Ha E H IH]; intros Q r; [reflexivity|]. rewrite (IH ltac:(intros b Hb; apply Q; right; assumption)).
  destruct (Q a (or_introl eq_refl)) as ([] & r0 & c & ->); cbn [call_of run] in E; apply bind_done in E; destruct E as (y & _ & E); injection E as <-; unfold set_rank; destruct (Z.eqb_spec r r0) as [->|]; reflexivity.
Qed.
Lemma copies_none own (x : state) r c : xinv g own x -> rank r -> exo own c = false -> find c (x_copies x r) = None.
Proof.
  intros Hx Ir Ec. pose proof Hx as (((Hw & Hr) & _) & Hc & _). destruct (Hr r Ir) as (Hs & Hk & _). destruct (Hc r Ir) as [_ K]. apply has_not. destruct (has c (x_copies x r)) eqn:Hh; [|reflexivity].
  apply K in Hh. pose proof (default_lists_ok g Hg own r _ _ Hw Hs Hk) as (_ & _ & _ & Rm & _). apply Rm in Hh. destruct Hh as (a & _ & E & _). congruence.
Qed.
Lemma data_none own (x : state) r c : xinv g own x -> rank r -> own c <> Some r -> find c (s_data (p_store (x_st x r))) = None.
Proof.
  intros (((Hw & Hr) & _) & _) Ir O. apply has_not. destruct (has c (s_data (p_store (x_st x r)))) eqn:Hh; [|reflexivity]. apply (proj2 (proj2 (proj2 (proj1 (Hr r Ir))))) in Hh. contradiction.
Qed.
Lemma not_nested own (st : Z -> proc D) c : good g own st -> merged g own st c -> valid m c -> 0 < lvl_of m c -> exo own (get_parent m c) = false.
Proof.
  intros Hgood M Vc Lc. destruct (exo own (get_parent m c)) eqn:Epp; [|reflexivity]. exfalso. pose proof Hgood as ((Ms & _) & _). pose proof Ms as (wfm & _ & tile & _).
  destruct (merged_kid g own st Hgood c M) as (k & Ek & Lk & Ep).
  pose proof (leaf_valid m _ tile k Ek) as Vk. pose proof (covers_own m wfm k Vk) as C. pose proof (parent_covers m wfm k _ Vk Lk C) as C1. rewrite Ep in C1.
  pose proof (parent_covers m wfm c _ Vc Lc C1) as C2. pose proof (leaf_unique m wfm _ tile k (get_parent m c) _ Ek Epp C C2) as Q.
  pose proof (parent_facts m wfm k Vk Lk) as (_ & L1 & _). pose proof (parent_facts m wfm c Vc Lc) as (_ & L2 & _). cbn zeta in *. rewrite Ep in L1. rewrite <- Q in L2. lia.
Qed.

Lemma same_wishes x x1 id w l : xreachable x -> idle g (x_st x) -> x_st x1 = x_st x ->
  (forall r c, rank r -> owner (x_st x) r c = Some r -> exists d ns,
    local_view g id x1 r c = Some (d, ns) /\ view_at g (x_hoods x) id (ex_at x) (data_at x) c = Some (d, ns)) ->
  (forall a, In a l -> exists r c k d ns, rank r /\ owner (x_st x1) r c = Some r /\ local_view g id x1 r c = Some (d, ns) /\ In k (w c d ns) /\ a = call_of k r c) ->
  (forall r c k d ns, rank r -> owner (x_st x1) r c = Some r -> local_view g id x1 r c = Some (d, ns) -> In k (w c d ns) -> In (call_of k r c) l) ->
  same_requests (requested g (x_st x) l) (wishes (x_hoods x) id (ex_at x) (data_at x) w).
Proof.
  intros R I E1 P Ha Hb. destruct (xreachable_inv d0 g Hg x R) as (own & Hx).
  assert (forall k r c, In (call_of k r c) l -> rank r /\ owner (x_st x) 0 c = Some r /\ wants (x_hoods x) id (ex_at x) (data_at x) w k c) as Q1.
  { intros k r c Hl. destruct (Ha _ Hl) as (r' & c' & k' & d & ns & Ir & O & Lv & Hk & E). assert (k' = k /\ r' = r /\ c' = c) as (-> & -> & ->) by (destruct k, k'; cbn [call_of] in E; try discriminate; injection E as -> ->; auto).
    rewrite E1 in O. split; [assumption|]. destruct (P r c Ir O) as (d' & ns' & Lv' & Va). rewrite Lv in Lv'. injection Lv' as <- <-. rewrite (xview g own x r c Hx Ir) in O. split; [rewrite (xview g own x 0 c Hx rank0); assumption|].
    split; [rewrite (ex_own own x c Hx); apply exo_some; eauto|eauto]. }
  assert (forall k c, wants (x_hoods x) id (ex_at x) (data_at x) w k c -> exists r, In (call_of k r c) l /\ owner (x_st x) 0 c = Some r) as Q2.
  { intros k c (Ec & d & ns & Va & Hk). rewrite (ex_own own x c Hx) in Ec. apply exo_some in Ec. destruct Ec as (r & O). destruct (data_here own x c r Hx O) as (Ir & _). pose proof (xview g own x r c Hx Ir) as V. rewrite O in V.
    destruct (P r c Ir V) as (d' & ns' & Lv & Va'). rewrite Va in Va'. injection Va' as <- <-. exists r. split; [apply (Hb r c k d ns); rewrite ?E1; assumption|]. rewrite (xview g own x 0 c Hx rank0). assumption. }
  intros c. cbn [requested wishes q_split q_whole q_merge q_hold]. split; [|split; [|split]].
  - split; [intros (r & Hl & O & L); split; [apply (Q1 ToRefine r c Hl)|assumption]|]. intros (Hw & L). destruct (Q2 _ _ Hw) as (r & Hl & O). exists r. auto.
  - split; [|intros []]. intros [(r & Ir & Hr)|((r & Hl) & _)]; [rewrite (I r Ir) in Hr; destruct Hr|]. destruct (Ha _ Hl) as (? & ? & [] & ? & ? & _ & _ & _ & _ & E); discriminate.
  - split; [intros (r & Hl & O); apply (Q1 ToUnrefine r c Hl)|]. intros Hw. destruct (Q2 _ _ Hw) as (r & Hl & O). exists r. auto.
  - split.
    + intros [(r & Hl)|(r & Hl & O & L)]; [left; apply (Q1 ToHold r c Hl)|right; split; [apply (Q1 ToRefine r c Hl)|assumption]].
    + intros [Hw|(Hw & L)]; destruct (Q2 _ _ Hw) as (r & Hl & O); [left|right]; exists r; auto.
Qed.

Lemma adapt_ok x id w kid par x' : xreachable x -> idle g (x_st x) -> exec_step d0 g x (Adapt id w kid par) x' ->
  xreachable x' /\ x_hoods x' = x_hoods x /\ idle g (x_st x') /\
  (forall c, ex_at x' c = true <-> cells_after m t n (ex_at x) (wishes (x_hoods x) id (ex_at x) (data_at x) w) c) /\
  forall c, ex_at x' c = true -> data_at x' c = data_after kid par (ex_at x) (data_at x) c /\ data_at x' c <> None.
Proof.
  intros R I H. inversion H as [|? ? ? ? x1 l x2 res x3 l' ? Ha E H1 H2 H3 Es Ex3 H4 H5| |]; subst. destruct (update_view x id x1 R Ha E) as (R1 & E1 & E2 & P).
  assert (forall a, In a l -> exists k r c, a = call_of k r c) as Al by (intros a Q; destruct (H1 a Q) as (r & c & k & _ & _ & _ & _ & _ & _ & ->); eauto).
  pose proof (asks_quiet l Al) as Hq. destruct (calls_plain l x1 x2 H3 Hq) as (Hr & Eh & _). pose proof (asks_store l _ _ Hr Al) as St.
  pose proof (same_wishes x x1 id w l R I E1 P H1 H2) as Sw. rewrite E1 in *.
  pose proof (xreachable_reachable d0 g x R) as Rx. assert (fresh g (x_st x)) as F by (intros q Iq; rewrite (I q Iq); cbn; auto).
  assert (forall c, ~ q_whole (requested g (x_st x) l) c) as Nw by (intros c Q; apply Sw in Q; exact Q).
  pose proof (calls_reachable _ _ _ R1 H3) as R2. assert (xreachable x3) as R3 by (apply xreach_step with x2 (Plain Stop); [assumption|exact Logic.I|assumption]). pose proof (calls_reachable _ _ _ R3 H5) as R'.
  cbn [xrun run] in Ex3. rewrite Es in Ex3. cbn [bind] in Ex3. injection Ex3 as Ex3. change (fun r => fst (res r)) with (state_of res) in Ex3.
  assert (x_st x3 = state_of res) as S3 by (rewrite <- Ex3; reflexivity).
  destruct (commit_from d0 g Hg (x_st x) l (x_st x2) res Rx Hr Hq Es) as (own & own' & Hi & Hi1 & Hi' & C). pose proof (proj1 Hi1) as Hgood.
  assert (xinv g own' x3) as Hx3. { destruct (xreachable_inv d0 g Hg x3 R3) as (ow & _ & Hc & Ho). split; [rewrite S3; assumption|]. auto. }
  assert (xinv g own x) as Hx. { destruct (xreachable_inv d0 g Hg x R) as (ow & _ & Hc & Ho). split; [assumption|]. auto. }
  destruct (writes_ok l' x3 x' H5) as (A & B & Cw & Fw).
  assert (forall c, ex_at x' c = exo own' c) as Ex'. { intros c. unfold ex_at, exists_on. rewrite Cw. fold (exists_on (x_st x3) 0 c). apply (ex_own own' x3 c Hx3). }
  assert (forall c r, own c = Some r -> data_at x c = find c (s_data (p_store (x_st x2 r)))) as Dx. { intros c r O. rewrite (data_own own x c Hx), O. rewrite St. reflexivity. }
  assert (forall r c, rank r -> exo own' c = false -> read x3 r c = match find c (s_refd (p_store (fst (res r)))) with Some v => Some v | None => find c (s_unrefd (p_store (fst (res r)))) end) as Rd.
  { intros r c Ir Ec. unfold read. rewrite (data_none own' x3 r c Hx3 Ir), (copies_none own' x3 r c Hx3 Ir Ec), S3; [reflexivity|]. unfold exo in Ec. destruct (own' c); discriminate. }
  assert (forall r c v, In (r, c, v) l' -> created g own (x_st x2) c /\ (exists d, data_at x (get_parent m c) = Some d /\ v = kid c d) \/
    merged g own (x_st x2) c /\ exists ws, all_some (map (data_at x) (get_all_children m c)) = Some ws /\ v = par c ws) as Wr.
  { intros r c v Q. apply H4 in Q. destruct Q as (Ir & [(Hn & d & Hd & ->)|(k & ws & Hk & Pk & Hws & ->)]).
    - left. apply (cm_new _ _ _ _ _ _ C r c Ir) in Hn. destruct Hn as [Cr Op]. split; [assumption|]. exists d. split; [|reflexivity]. pose proof Cr as (_ & _ & Rp). pose proof (refined_gone d0 g Hg own _ own' res _ Hgood C Rp) as G.
      rewrite (Rd r _ Ir G) in Hd. rewrite (Dx _ r Op). destruct (find (get_parent m c) (s_refd (p_store (fst (res r))))) as [d'|] eqn:Fr.
      + injection Hd as <-. apply (cm_refd _ _ _ _ _ _ C r _ _ Ir) in Fr. apply Fr.
      + apply (cm_unrefd _ _ _ _ _ _ C r _ _ Ir) in Hd. destruct Hd as (Rm & _). destruct (removed_ex g Hg own _ Hgood _ Rm). contradiction.
    - right. unfold get_removed_cells in Hk. apply keys_find in Hk. destruct Hk as (u & Hu). apply (cm_unrefd _ _ _ _ _ _ C r _ _ Ir) in Hu. destruct Hu as ((Vk & Lk & Mk) & Op & _). rewrite Pk in *. split; [assumption|]. exists ws. split; [|reflexivity]. rewrite <- Hws.
      destruct (merged_ok g Hg own _ Hgood c Mk) as (Vc & Lc & _). apply all_some_ext. intros y Hy. apply (kids_in g (proj1 Hg) c y Vc Lc) in Hy. destruct Hy as (Vy & Ly & Py). assert (removed g own (x_st x2) y) as Rm by (split; [assumption|]; split; [assumption|]; rewrite Py; assumption).
      rewrite (Rd r y Ir (removed_gone d0 g Hg own _ own' res y Hgood C Rm)). destruct (removed_ex g Hg own _ Hgood y Rm) as [Ey Ny]. apply exo_some in Ey. destruct Ey as (q & Oq). destruct (data_here own x y q Hx Oq) as (Iq & v & Ev & Dv).
      destruct (find y (s_refd (p_store (fst (res r))))) as [d'|] eqn:Fr; [apply (cm_refd _ _ _ _ _ _ C r _ _ Ir) in Fr; tauto|]. rewrite Dv. symmetry. apply (cm_unrefd _ _ _ _ _ _ C r _ _ Ir). split; [assumption|]. split; [rewrite Py; assumption|]. exists q. split; [assumption|]. rewrite St. assumption. }
  split; [assumption|]. split; [rewrite A, <- Ex3; cbn [x_hoods]; congruence|]. split; [|split].
  - intros r Ir. rewrite B, S3. destruct (cm_req _ _ _ _ _ _ C r Ir) as (noref & Eq & Pq). unfold state_of. rewrite Eq. destruct noref as [|c noref]; [reflexivity|]. exfalso.
    assert (all_protected g own (x_st x2) c) as Q by (apply Pq; left; reflexivity). apply (whole_iff d0 g Hg own (x_st x) Hi l Hq (x_st x2) Hr F) in Q. clear - Q Nw. induction Q as [c0 Q|? ? ? IH]; [apply (Nw c0 Q)|assumption].
  - intros c. rewrite Ex', <- (viewx g own' _ 0 c Hi' rank0), (c68_cells_after d0 g Hg (x_st x) l (x_st x2) res 0 c Rx F Nw Hr Hq Es rank0). split; apply cells_ext; auto. apply same_sym. assumption.
  - intros c Ec. rewrite Ex' in Ec. pose proof Ec as Ec'. apply exo_some in Ec'. destruct Ec' as (r & Oc). destruct (data_here own' x3 c r Hx3 Oc) as (Ir & v0 & Ev0 & _).
    assert (data_at x' c = Some (last_write l' r c v0)) as Da. { unfold data_at. rewrite Cw, (xview g own' x3 0 c Hx3 rank0), Oc, Fw, Ev0. reflexivity. }
    rewrite Da. split; [|discriminate]. unfold data_after. rewrite (ex_own own x c Hx). rewrite S3 in Ev0. pose proof (cm_data _ _ _ _ _ _ C r c Ir Oc) as Cd. unfold state_of in Ev0. rewrite Ev0 in Cd. destruct (exo own c) eqn:Eo.
    + rewrite last_not.
      * rewrite (Dx c r); [assumption|]. rewrite <- (cm_keep _ _ _ _ _ _ C c Eo Ec). assumption.
      * intros w0 Q. apply Wr in Q. destruct Q as [[Q _]|[Q _]]; [pose proof (created_not_ex g Hg own _ Hgood c Q)|pose proof (merged_not_ex g Hg own _ Hgood c Q)]; congruence.
    + rewrite (ex_own own x _ Hx). destruct (new_cell d0 g Hg own _ own' res c Hgood C Eo Ec) as [Cr|[Nc Mg]].
      * pose proof Cr as (Vc & Lc & Rp). destruct (R_ok g own _ Hgood _ Rp) as [Ep _]. rewrite Ep. destruct (Z.ltb_spec 0 (lvl_of m c)); [|lia]. cbn [andb].
        assert (own (get_parent m c) = Some r) as Op by (rewrite <- (cm_kid _ _ _ _ _ _ C c Cr); assumption). destruct (data_here own x _ r Hx Op) as (_ & d & Ed & Dd). rewrite Dd. cbn [option_map]. f_equal.
        apply last_in.
        -- apply H4. split; [assumption|]. left. split; [apply (cm_new _ _ _ _ _ _ C r c Ir); auto|]. exists d. split; [|reflexivity]. rewrite (Rd r _ Ir (refined_gone d0 g Hg own _ own' res _ Hgood C Rp)).
           assert (find (get_parent m c) (s_refd (p_store (fst (res r)))) = Some d) as ->; [|reflexivity]. apply (cm_refd _ _ _ _ _ _ C r _ _ Ir). split; [assumption|]. split; [assumption|]. rewrite St. assumption.
        -- intros w' Q. apply Wr in Q. destruct Q as [(_ & d' & Dd' & ->)|[Mc _]]; [congruence|]. destruct (created_not_merged g Hg own _ Hgood c Cr Mc).
      * destruct (merged_ok g Hg own _ Hgood c Mg) as (Vc & Lc & Kc).
        assert ((0 <? lvl_of m c) && exo own (get_parent m c) = false) as ->. { destruct (Z.ltb_spec 0 (lvl_of m c)); [|reflexivity]. cbn [andb]. apply (not_nested own (x_st x2)); assumption. }
        assert (forall y, In y (get_all_children m c) -> removed g own (x_st x2) y /\ get_parent m y = c) as Ky.
        { intros y Hy. apply (kids_in g (proj1 Hg) c y Vc Lc) in Hy. destruct Hy as (Vy & Ly & Py). split; [|assumption]. split; [assumption|]. split; [assumption|]. rewrite Py. assumption. }
        destruct (all_some_ok (data_at x) (get_all_children m c)) as (ws & Ews).
        { intros y Hy. destruct (Ky y Hy) as [Ry _]. destruct (removed_ex g Hg own _ Hgood y Ry) as [Ey _]. apply exo_some in Ey. destruct Ey as (q & Oq). destruct (data_here own x y q Hx Oq) as (_ & v & _ & Dv). eauto. }
        rewrite Ews. cbn [option_map]. f_equal. apply last_in.
        -- apply H4. split; [assumption|]. right. pose proof (kids_first g (proj1 Hg) c Vc Lc) as Fst. destruct (Ky _ Fst) as [Rf Pf]. set (k := nth 0 (get_all_children m c) error_cell) in *.
           assert (forall y, In y (get_all_children m c) -> read x3 r y = data_at x y /\ find y (s_unrefd (p_store (fst (res r)))) = data_at x y /\ data_at x y <> None) as Ru.
           { intros y Hy. destruct (Ky y Hy) as [Ry Py]. rewrite (Rd r y Ir (removed_gone d0 g Hg own _ own' res y Hgood C Ry)). destruct (removed_ex g Hg own _ Hgood y Ry) as [Ey Ny]. apply exo_some in Ey. destruct Ey as (q & Oq). destruct (data_here own x y q Hx Oq) as (Iq & v & Ev & Dv). rewrite Dv.
             assert (find y (s_unrefd (p_store (fst (res r)))) = Some v) as Fu. { apply (cm_unrefd _ _ _ _ _ _ C r _ _ Ir). split; [assumption|]. split; [rewrite Py; assumption|]. exists q. split; [assumption|]. rewrite St. assumption. }
             rewrite Fu. split; [|split; [reflexivity|discriminate]]. destruct (find y (s_refd (p_store (fst (res r))))) as [d'|] eqn:Fr; [apply (cm_refd _ _ _ _ _ _ C r _ _ Ir) in Fr; tauto|reflexivity]. }
           exists k, ws. split; [|split; [assumption|split; [|reflexivity]]].
           ++ unfold get_removed_cells. apply keys_find. destruct (Ru k Fst) as (_ & Fu & Nd). destruct (data_at x k); [eauto|congruence].
           ++ rewrite <- Ews. apply all_some_ext. intros y Hy. apply (Ru y Hy).
        -- intros w' Q. apply Wr in Q. destruct Q as [(Cr & _)|(_ & ws' & Ews' & ->)]; [contradiction|congruence].
Qed.

(** ** Other calls *)
Definition unchanged (x x' : state) : Prop := x_hoods x' = x_hoods x /\ (idle g (x_st x) -> idle g (x_st x')) /\ (forall c, ex_at x' c = ex_at x c) /\ forall c, data_at x' c = data_at x c.
Lemma unchanged_same (x x' : state) : x_hoods x' = x_hoods x -> (forall r, p_req (x_st x' r) = p_req (x_st x r)) -> (forall r, s_proc (p_store (x_st x' r)) = s_proc (p_store (x_st x r))) ->
  (forall r, s_data (p_store (x_st x' r)) = s_data (p_store (x_st x r))) -> unchanged x x'.
Proof.
  intros Eh Er Ep Ed. assert (forall r c, owner (x_st x') r c = owner (x_st x) r c) as O by (intros r c; unfold owner; rewrite Ep; reflexivity).
  split; [assumption|]. split; [intros I r Ir; rewrite Er; apply I; assumption|]. split; [intros c; unfold ex_at, exists_on; rewrite O; reflexivity|].
  intros c. unfold data_at. rewrite O. destruct (owner (x_st x) 0 c); [rewrite Ed|]; reflexivity.
Qed.
Lemma unpin_local_keeps r l : forall (b : bool) (s : store D), let s' := snd (fold_left (fun x c => let y := unpin g r (snd x) c in (fst x && fst y, snd y)) l (b, s)) in s_proc s' = s_proc s /\ s_data s' = s_data s.
Proof.
  induction l as [|c l IH]; intros b s; cbn [fold_left fst snd]; [auto|]. destruct (IH (b && fst (unpin g r s c)) (snd (unpin g r s c))) as [A B]. cbn zeta in *. rewrite A, B.
  unfold unpin. destruct (negb _); [auto|]. destruct (has c (s_pin s)); auto.
Qed.
Lemma update_same x id x' : xrun d0 g x (Update id) = Done x' -> x_st x' = x_st x /\ x_hoods x' = x_hoods x.
Proof.
  cbn [xrun]. intros E. apply bind_done in E. destruct E as ([b y] & E1 & E). injection E as <-. unfold update_copies in E1. repeat (apply bind_done in E1; destruct E1 as (? & _ & E1)). injection E1 as _ <-. auto.
Qed.
Lemma house_ok x a x' : xreachable x -> housekeeping a -> xallowed g x a -> xrun d0 g x a = Done x' -> unchanged x x'.
Proof.
  intros R H Ha E. destruct a as [a|r c v|id items|id|id|id]; cbn [housekeeping] in H; try contradiction.
  - destruct a as [r c|r c|r c|r c|r c q|r c|r|r c w|r c v|r| | |given|k z]; try contradiction; cbn [xrun] in E; apply bind_done in E; destruct E as (st & E & E'); injection E' as <-; cbn [run] in E.
    + injection E as <-. apply unchanged_same; cbn [x_st x_hoods]; [reflexivity|intros q'; unfold set_rank; destruct (Z.eqb_spec q' r) as [->|]; [|reflexivity]..]; cbn [with_store p_req p_store]; [reflexivity|..];
        unfold pin; destruct (negb _); [reflexivity| |reflexivity|]; destruct (_ || _); [reflexivity| |reflexivity|]; (destruct (find c _) as [q0|]; [destruct (q0 =? q)|]); reflexivity.
    + injection E as <-. apply unchanged_same; cbn [x_st x_hoods]; [reflexivity|intros q'; unfold set_rank; destruct (Z.eqb_spec q' r) as [->|]; [|reflexivity]..]; cbn [with_store p_req p_store]; [reflexivity|..];
        unfold unpin; destruct (negb _); [reflexivity| |reflexivity|]; destruct (has c _); reflexivity.
    + injection E as <-. apply unchanged_same; cbn [x_st x_hoods]; [reflexivity|intros q'; unfold set_rank; destruct (Z.eqb_spec q' r) as [->|]; [|reflexivity]..]; cbn [with_store p_req p_store]; [reflexivity|..]; apply unpin_local_keeps.
    + injection E as <-. apply unchanged_same; cbn [x_st x_hoods]; [reflexivity|intros q'; unfold set_rank; destruct (Z.eqb_spec q' r) as [->|]; [|reflexivity]..]; cbn [with_store p_req p_store]; [reflexivity|..];
        unfold set_cell_weight; destruct (negb _); reflexivity.
    + injection E as <-. apply unchanged_same; cbn [x_st x_hoods]; [reflexivity|intros q'; unfold set_rank; destruct (Z.eqb_spec q' r) as [->|]; reflexivity..].
    + injection E as <-. apply unchanged_same; reflexivity.
    + destruct k as [|k]; [contradiction|]. cbn [xallowed allowed] in Ha. destruct Ha as (dest & Hz). destruct (balance_view d0 g Hg (x_st x) (S k) z dest st (xreachable_reachable d0 g x R) Hz E) as (own & Hi & Hi' & B).
      set (x' := XState st (fresh_copies d0 st) (x_hoods x)). assert (xreachable x') as R'. { apply xreach_step with x (Plain (LoadBalance (S k) z)); [assumption|exists dest; assumption|]. cbn [xrun run]. rewrite E. reflexivity. }
      assert (xinv g own x) as Hx by (destruct (xreachable_inv d0 g Hg x R) as (ow & _ & Hc & Ho); split; [assumption|auto]).
      assert (xinv g (target g own (x_st x) dest) x') as Hx' by (destruct (xreachable_inv d0 g Hg x' R') as (ow & _ & Hc & Ho); split; [assumption|auto]).
      split; [reflexivity|]. split; [intros _ r Ir; apply (bl_rest _ _ _ _ _ _ _ B r Ir)|].
      assert (forall c, ex_at x' c = ex_at x c) as Ex. { intros c. rewrite (ex_own _ x' c Hx'), (ex_own own x c Hx). apply target_exo. } split; [assumption|].
      intros c. rewrite (data_own _ x' c Hx'), (data_own own x c Hx). destruct (target g own (x_st x) dest c) as [r|] eqn:T.
      * destruct (bl_data _ _ _ _ _ _ _ B r c T) as (o & O & F). rewrite O. cbn [x_st x']. rewrite F. replace (0 <? Z.of_nat (S k)) with true by (symmetry; apply Z.ltb_lt; lia). rewrite orb_true_r. reflexivity.
      * specialize (Ex c). rewrite (ex_own _ x' c Hx'), (ex_own own x c Hx) in Ex. unfold exo in Ex. rewrite T in Ex. destruct (own c); [discriminate|reflexivity].
  - cbn [xrun] in E. injection E as <-. apply unchanged_same; reflexivity.
  - cbn [xrun] in E. apply bind_done in E. destruct E as (L & _ & E). apply bind_done in E. destruct E as (cp & _ & E). injection E as <-. apply unchanged_same; reflexivity.
  - destruct (update_same x id x' E) as [E1 E2]. apply unchanged_same; rewrite ?E1; auto.
Qed.
Lemma add_ok x id items x' : xrun d0 g x (AddNeighborhood id items) = Done x' -> x_hoods x' = snd (add_neighborhood (g_len g) (x_hoods x) id items) /\ x_st x' = x_st x.
Proof.
  cbn [xrun]. intros E. assert (fst (add_neighborhood n (x_hoods x) id items) = false -> snd (add_neighborhood n (x_hoods x) id items) = x_hoods x) as K.
  { pose proof (c12_add_neighborhood n (x_hoods x) id items (proj1 (proj1 (proj2 Hg)))) as B. destruct (add_neighborhood n (x_hoods x) id items). apply B. }
  destruct (add_neighborhood n (x_hoods x) id items) as [ok hs]. cbn [fst snd] in *. destruct ok; cbn [negb] in E.
  - apply bind_done in E. destruct E as (ls & _ & E). injection E as <-. auto.
  - injection E as <-. rewrite K; auto.
Qed.

(** ** Creation *)
Lemma start_ok x : xinitialize d0 g = Done x -> xreachable x /\ x_hoods x = [] /\ idle g (x_st x) /\ (forall c, ex_at x c = true <-> 1 <= c <= vol (dims_of m)) /\ forall c, data_at x c = if ex_at x c then Some d0 else None.
Proof.
  intros E. split; [apply xreach_init; assumption|]. destruct (xinitialize_inv d0 g Hg) as (x0 & E0 & Hx). assert (x0 = x) as -> by congruence. unfold xinitialize in E. apply bind_done in E. destruct E as (st & E1 & E). injection E as <-. split; [reflexivity|].
  destruct (initialize_ok d0 g Hg) as (st' & E' & _ & S). assert (st' = st) as -> by congruence. split; [intros r Ir; apply (S r Ir)|].
  split.
  - intros c. rewrite (ex_own _ _ c Hx). apply own0_ex. assumption.
  - intros c. rewrite (ex_own _ _ c Hx), (data_own _ _ c Hx). unfold exo. destruct (own0 g c) as [r|] eqn:O; [|reflexivity]. cbn [x_st]. assert (rank r) as Ir by (destruct (data_here _ _ c r Hx O); assumption).
    destruct (S r Ir) as [-> _]. rewrite (created_data d0 g Hg r c), O, Z.eqb_refl. reflexivity.
Qed.

(** ** Programs can be run *)
(** the cells of all processes *)
Definition places (x : state) : list (Z * Z) := flat_map (fun r => map (fun c => (r, c)) (keys (s_data (p_store (x_st x r))))) (ranks g).
Lemma places_in x r c : xreachable x -> In (r, c) (places x) <-> rank r /\ owner (x_st x) r c = Some r.
Proof.
  intros R. destruct (xreachable_inv d0 g Hg x R) as (own & Hx). pose proof Hx as (((Hw & Hr) & _) & _). unfold places. rewrite in_flat_map. split.
  - intros (r' & Ir & Q). apply in_map_iff in Q. destruct Q as (c' & Q & Hc). injection Q as -> ->. split; [assumption|]. rewrite (xview g own x r c Hx Ir). apply (proj2 (proj2 (proj2 (proj1 (Hr r Ir))))). apply has_find, keys_find. assumption.
  - intros (Ir & O). exists r. split; [assumption|]. apply in_map. rewrite (xview g own x r c Hx Ir) in O. apply keys_find, has_find. apply (proj2 (proj2 (proj2 (proj1 (Hr r Ir))))). assumption.
Qed.
Lemma exec_reachable x s x' : xreachable x -> exec_step d0 g x s x' -> xreachable x'.
Proof.
  intros R H. destruct H as [id f x1 l x' Ha E _ _ H|id w kid par x1 l x2 res x3 l' x' Ha E _ _ H2 _ E3 _ H|id items x' E|id x' E].
  - apply (calls_reachable x1 (writes l)); [|assumption]. apply xreach_step with x (Update id); assumption.
  - apply (calls_reachable x3 (writes l')); [|assumption]. apply xreach_step with x2 (Plain Stop); [|exact I|assumption]. apply (calls_reachable x1 (map Plain l)); [|assumption]. apply xreach_step with x (Update id); assumption.
  - apply xreach_step with x (AddNeighborhood id items); [assumption|exact I|assumption].
  - apply xreach_step with x (RemoveNeighborhood id); [assumption|exact I|assumption].
Qed.
Lemma execs_reachable x l x' : xreachable x -> execs d0 g x l x' -> xreachable x'.
Proof.
  intros R H. induction H as [x|x s x1 l x2 Hs H IH|x a x1 l x2 Hh Ha E H IH]; [assumption|apply IH; apply exec_reachable with x s; assumption|apply IH; apply xreach_step with x a; assumption].
Qed.
(** the neighborhood used by a step must be known *)
Definition can_use (x : state) (s : pstep D) : Prop :=
  match s with Compute id _ | ProgramModel.Adapt id _ _ _ => id = default_neighborhood_id \/ hood_lookup (x_hoods x) id <> None | _ => True end.
(** one way to execute a step: processes one after another, each with its cells in stored order *)
Fixpoint run_calls (x : state) (l : list (xcall (D := D))) : outcome state :=
  match l with [] => Done x | a :: l => bind (xrun d0 g x a) (fun x1 => run_calls x1 l) end.
Definition values_of id f x1 : list (Z * Z * D) :=
  flat_map (fun e => match local_view g id x1 (fst e) (snd e) with Some (d, ns) => [(e, f (snd e) d ns)] | None => [] end) (places x1).
Definition asks_of id w x1 : list call :=
  flat_map (fun e => match local_view g id x1 (fst e) (snd e) with Some (d, ns) => map (fun k => @call_of D k (fst e) (snd e)) (w (snd e) d ns) | None => [] end) (places x1).
Definition news_of (kid : Z -> D -> D) (par : Z -> list D -> D) (res : Z -> proc D * list Z) (x3 : state) : list (Z * Z * D) :=
  flat_map (fun r =>
    flat_map (fun c => match read x3 r (get_parent m c) with Some v => [(r, c, kid c v)] | None => [] end) (snd (res r)) ++
    flat_map (fun k => match all_some (map (read x3 r) (get_all_children m (get_parent m k))) with Some ws => [(r, get_parent m k, par (get_parent m k) ws)] | None => [] end) (get_removed_cells (fst (res r)))) (ranks g).
Definition auto_step (x : state) (s : pstep D) : outcome state :=
  match s with
  | Compute id f => bind (xrun d0 g x (Update id)) (fun x1 => run_calls x1 (writes (values_of id f x1)))
  | ProgramModel.Adapt id w kid par => bind (xrun d0 g x (Update id)) (fun x1 => bind (run_calls x1 (map Plain (asks_of id w x1))) (fun x2 =>
      bind (stop_refining d0 g (x_st x2)) (fun res => bind (xrun d0 g x2 (Plain Stop)) (fun x3 => run_calls x3 (writes (news_of kid par res x3))))))
  | AddHood id items => xrun d0 g x (AddNeighborhood id items)
  | RemoveHood id => xrun d0 g x (RemoveNeighborhood id)
  end.
Lemma run_calls_ok l : forall x, xreachable x -> (forall a, In a l -> forall y, xallowed g y a) -> exists x', run_calls x l = Done x' /\ calls x l x'.
Proof.
  induction l as [|a l IH]; intros x R H; [exists x; split; [reflexivity|constructor]|]. pose proof (H a (or_introl eq_refl) x) as Ha. destruct (c34_every_call_succeeds d0 g Hg) as [_ K]. destruct (K x a R Ha) as (x1 & E).
  destruct (IH x1 ltac:(apply xreach_step with x a; assumption) ltac:(intros b Hb; apply H; right; assumption)) as (x' & Q1 & Q). exists x'. cbn [run_calls]. rewrite E. split; [exact Q1|]. apply calls_cons with x1; assumption.
Qed.
Lemma auto_step_ok x s : xreachable x -> can_use x s -> exists x', auto_step x s = Done x' /\ exec_step d0 g x s x'.
Proof.
  intros R Hs. destruct (c34_every_call_succeeds d0 g Hg) as [_ Runs]. destruct s as [id f|id w kid par|id items|id]; cbn [can_use auto_step] in *.
  - destruct (Runs x (Update id) R Hs) as (x1 & E). destruct (update_view x id x1 R Hs E) as (R1 & _ & _ & P). rewrite E. cbn [bind].
    set (l := values_of id f x1). assert (forall r c v, In (r, c, v) l <-> (rank r /\ owner (x_st x1) r c = Some r) /\ exists d ns, local_view g id x1 r c = Some (d, ns) /\ v = f c d ns) as Hl.
    { intros r c v. unfold l, values_of. rewrite in_flat_map. split.
      - intros ([r' c'] & Hp & Q). cbn [fst snd] in Q. destruct (local_view g id x1 r' c') as [[d ns]|] eqn:Lv; [|destruct Q]. destruct Q as [Q|[]]. injection Q as -> -> <-. apply (places_in x1 r c R1) in Hp. split; [assumption|eauto].
      - intros (Hp & d & ns & Lv & ->). exists (r, c). split; [apply (places_in x1 r c R1); assumption|]. cbn [fst snd]. rewrite Lv. left. reflexivity. }
    destruct (run_calls_ok (writes l) x1 R1) as (x' & Hw1 & Hw).
    { intros a Ha y. unfold writes in Ha. apply in_map_iff in Ha. destruct Ha as ([[r c] v] & <- & Ha). apply Hl in Ha. cbn [xallowed allowed fst snd]. apply Ha. }
    exists x'. split; [assumption|]. apply exec_compute with x1 l; [assumption|assumption| | |assumption].
    + intros r c v Q. apply Hl in Q. tauto.
    + intros r c Ir O. destruct (update_same x id x1 E) as [E1 _]. rewrite E1 in O. destruct (P r c Ir O) as (d & ns & Lv & _). exists (f c d ns). apply Hl. rewrite E1. split; [auto|eauto].
  - destruct (Runs x (Update id) R Hs) as (x1 & E). destruct (update_view x id x1 R Hs E) as (R1 & _ & _ & P). rewrite E. cbn [bind].
    set (l := asks_of id w x1). assert (forall a, In a l <-> exists r c k d ns, rank r /\ owner (x_st x1) r c = Some r /\ local_view g id x1 r c = Some (d, ns) /\ In k (w c d ns) /\ a = call_of k r c) as Hl.
    { intros a. unfold l, asks_of. rewrite in_flat_map. split.
      - intros ([r c] & Hp & Q). cbn [fst snd] in Q. destruct (local_view g id x1 r c) as [[d ns]|] eqn:Lv; [|destruct Q]. apply in_map_iff in Q. destruct Q as (k & <- & Hk). apply (places_in x1 r c R1) in Hp. destruct Hp. exists r, c, k, d, ns. auto.
      - intros (r & c & k & d & ns & Ir & O & Lv & Hk & ->). exists (r, c). split; [apply (places_in x1 r c R1); auto|]. cbn [fst snd]. rewrite Lv. apply in_map_iff. exists k. auto. }
    destruct (run_calls_ok (map Plain l) x1 R1) as (x2 & H2' & H2).
    { intros a Ha y. apply in_map_iff in Ha. destruct Ha as (b & <- & Ha). apply Hl in Ha. destruct Ha as (r & c & k & d & ns & Ir & _ & _ & _ & ->). destruct k; exact Ir. }
    pose proof (calls_reachable _ _ _ R1 H2) as R2. destruct (Runs x2 (Plain Stop) R2 I) as (x3 & E3). assert (xreachable x3) as R3 by (apply xreach_step with x2 (Plain Stop); [assumption|exact I|assumption]).
    pose proof E3 as E3'. cbn [xrun run] in E3'. apply bind_done in E3'. destruct E3' as (st & E4 & _). apply bind_done in E4. destruct E4 as (res & Er & _).
    rewrite H2'. cbn [bind]. rewrite Er. cbn [bind]. rewrite E3. cbn [bind].
    set (l' := news_of kid par res x3). assert (forall r c v, In (r, c, v) l' <-> rank r /\ new_value g kid par res x3 r c v) as Hl'.
    { intros r c v. unfold l', news_of, new_value. rewrite in_flat_map. split.
      - intros (r' & Ir & Q). apply in_app_iff in Q. destruct Q as [Q|Q]; apply in_flat_map in Q; destruct Q as (k & Hk & Q).
        + destruct (read x3 r' (get_parent m k)) as [u|] eqn:Eu; [|destruct Q]. destruct Q as [Q|[]]. injection Q as -> -> <-. split; [assumption|]. left. split; [assumption|eauto].
        + destruct (all_some (map (read x3 r') (get_all_children m (get_parent m k)))) as [ws|] eqn:Ew; [|destruct Q]. destruct Q as [Q|[]]. injection Q as -> <- <-. split; [assumption|]. right. exists k, ws. auto.
      - intros (Ir & Q). exists r. split; [assumption|]. apply in_app_iff. destruct Q as [(Hc & u & Eu & ->)|(k & ws & Hk & Pk & Ew & ->)]; [left|right]; apply in_flat_map.
        + exists c. split; [assumption|]. rewrite Eu. left. reflexivity.
        + exists k. split; [assumption|]. rewrite Pk, Ew. left. reflexivity. }
    destruct (run_calls_ok (writes l') x3 R3) as (x' & Hw1 & Hw).
    { intros a Ha y. unfold writes in Ha. apply in_map_iff in Ha. destruct Ha as ([[r c] v] & <- & Ha). apply Hl' in Ha. cbn [xallowed allowed fst snd]. apply Ha. }
    exists x'. split; [assumption|]. apply exec_adapt with x1 l x2 res x3 l'; try assumption.
    + intros a Ha. apply Hl. assumption.
    + intros r c k d ns Ir O Lv Hk. apply Hl. exists r, c, k, d, ns. auto.
  - destruct (Runs x (AddNeighborhood id items) R I) as (x' & E). exists x'. split; [assumption|]. apply exec_add. assumption.
  - destruct (Runs x (RemoveNeighborhood id) R I) as (x' & E). exists x'. split; [assumption|]. apply exec_remove. assumption.
Qed.
Theorem c69_every_step_can_run x s : xreachable x -> can_use x s -> exists x', exec_step d0 g x s x'.
Proof. intros R Hs. destruct (auto_step_ok x s R Hs) as (x' & _ & H). exists x'. assumption. Qed.

(** ** What is observed: the process of c reads v as the data of c *)
Definition shows (x : state) (c : Z) (v : D) : Prop := exists r, rank r /\ owner (x_st x) r c = Some r /\ read x r c = Some v.
Lemma shows_iff x c v : xreachable x -> shows x c v <-> data_at x c = Some v.
Proof.
  intros R. destruct (xreachable_inv d0 g Hg x R) as (own & Hx). split.
  - intros (r & Ir & O & Rd). rewrite (xview g own x r c Hx Ir) in O. destruct (data_here own x c r Hx O) as (_ & u & Eu & Du). unfold read in Rd. rewrite Eu in Rd. congruence.
  - intros Dv. pose proof Dv as Q. rewrite (data_own own x c Hx) in Q. destruct (own c) as [r|] eqn:O; [|discriminate]. destruct (data_here own x c r Hx O) as (Ir & _). exists r. split; [assumption|]. rewrite (xview g own x r c Hx Ir). split; [assumption|]. unfold read. rewrite Q. reflexivity.
Qed.
Lemma data_ex x c : xreachable x -> ex_at x c = false -> data_at x c = None.
Proof. intros _ E. unfold ex_at, exists_on in E. unfold data_at. destruct (owner (x_st x) 0 c); [discriminate|reflexivity]. Qed.
End Steps.

(** ** Two executions of a program *)
Section Two.
Context {D : Type} (d0 : D) (g : grid) (Hg : grid_ok g) (np : Z) (Hg' : grid_ok (on_procs g np)).
Notation g' := (on_procs g np).
Notation state := (xstate (D := D)).
(** the same cells with the same data, no requests pending *)
Record alike (x y : state) : Prop := Alike {
  al_x : xreachable d0 g x; al_y : xreachable d0 g' y; al_ix : idle g (x_st x); al_iy : idle g' (x_st y);
  al_hoods : x_hoods x = x_hoods y; al_ex : forall c, ex_at x c = ex_at y c; al_data : forall c, data_at x c = data_at y c }.

Lemma alike_step x y s x' y' : alike x y -> exec_step d0 g x s x' -> exec_step d0 g' y s y' -> alike x' y'.
Proof.
  intros [Rx Ry Ix Iy Eh Ee Ed] Hx Hy. assert (forall hs id c, view_at g hs id (ex_at x) (data_at x) c = view_at g' hs id (ex_at y) (data_at y) c) as Vw.
  { intros hs id c. apply (view_at_ext g hs id); assumption. }
  destruct s as [id f|id w kid par|id items|id].
  - destruct (compute_ok d0 g Hg x id f x' Rx Hx) as (A1 & A2 & A3 & A4 & A5). destruct (compute_ok d0 g' Hg' y id f y' Ry Hy) as (B1 & B2 & B3 & B4 & B5).
    assert (forall c, ex_at x' c = ex_at y' c) as Ee' by (intros c; rewrite A4, B4; apply Ee).
    split; auto; [congruence|]. intros c. destruct (ex_at x c) eqn:Ec.
    + destruct (A5 c Ec) as (d & ns & V & ->). rewrite Ee in Ec. destruct (B5 c Ec) as (d' & ns' & V' & ->). rewrite Vw, Eh, V' in V. injection V as -> ->. reflexivity.
    + rewrite (data_ex d0 g x' c A1), (data_ex d0 g' y' c B1); [reflexivity|rewrite <- Ee', A4; assumption|rewrite A4; assumption].
  - destruct (adapt_ok d0 g Hg x id w kid par x' Rx Ix Hx) as (A1 & A2 & A3 & A4 & A5). destruct (adapt_ok d0 g' Hg' y id w kid par y' Ry Iy Hy) as (B1 & B2 & B3 & B4 & B5).
    assert (forall k c, wants g (x_hoods x) id (ex_at x) (data_at x) w k c <-> wants g' (x_hoods y) id (ex_at y) (data_at y) w k c) as Wn.
    { intros k c. unfold wants. rewrite Ee, Eh. split; intros (E & d & ns & V & Hk); (split; [assumption|]); exists d, ns; (split; [|assumption]); [rewrite <- Vw|rewrite Vw]; assumption. }
    assert (same_requests (wishes g (x_hoods x) id (ex_at x) (data_at x) w) (wishes g' (x_hoods y) id (ex_at y) (data_at y) w)) as Sw.
    { intros c. cbn [wishes q_split q_whole q_merge q_hold]. rewrite !Wn. split; [reflexivity|]. split; [reflexivity|]. split; reflexivity. }
    assert (forall c, ex_at x' c = ex_at y' c) as Ee'.
    { intros c. apply Bool.eq_iff_eq_true. rewrite A4, B4. split; apply cells_ext; auto. apply same_sym. assumption. }
    split; auto; [congruence|]. intros c. destruct (ex_at x' c) eqn:Ec.
    + rewrite (proj1 (A5 c Ec)). rewrite Ee' in Ec. rewrite (proj1 (B5 c Ec)). unfold data_after. cbn [on_procs g_map]. rewrite !Ee, !Ed. destruct (ex_at y c); [reflexivity|]. destruct (_ && _); [reflexivity|]. f_equal. apply all_some_ext. intros k _. apply Ed.
    + rewrite (data_ex d0 g x' c A1), (data_ex d0 g' y' c B1); [reflexivity|rewrite <- Ee'; assumption|assumption].
  - assert (xreachable d0 g x' /\ xreachable d0 g' y') as [R1 R2].
    { inversion Hx; inversion Hy; subst. split; [apply xreach_step with x (AddNeighborhood id items)|apply xreach_step with y (AddNeighborhood id items)]; auto; exact I. }
    inversion Hx as [| |? ? ? E|]; inversion Hy as [| |? ? ? E'|]; subst. destruct (add_ok d0 g Hg x id items x' E) as [A1 A2]. destruct (add_ok d0 g' Hg' y id items y' E') as [B1 B2].
    split; unfold ex_at, data_at in *; rewrite ?A2, ?B2; auto. rewrite A1, B1, Eh. reflexivity.
  - assert (xreachable d0 g x' /\ xreachable d0 g' y') as [R1 R2].
    { inversion Hx; inversion Hy; subst. split; [apply xreach_step with x (RemoveNeighborhood id)|apply xreach_step with y (RemoveNeighborhood id)]; auto; exact I. }
    inversion Hx as [| | |? ? E]; inversion Hy as [| | |? ? E']; subst. cbn [xrun] in E, E'. injection E as <-. injection E' as <-. split; auto. cbn [x_hoods]. rewrite Eh. reflexivity.
Qed.
Lemma alike_left x y a x' : alike x y -> housekeeping a -> xallowed g x a -> xrun d0 g x a = Done x' -> alike x' y.
Proof.
  intros [Rx Ry Ix Iy Eh Ee Ed] H Ha E. destruct (house_ok d0 g Hg x a x' Rx H Ha E) as (A & B & C & F). split; auto; [apply xreach_step with x a; assumption|congruence|intros c; rewrite C; apply Ee|intros c; rewrite F; apply Ed].
Qed.
Lemma alike_right x y a y' : alike x y -> housekeeping a -> xallowed g' y a -> xrun d0 g' y a = Done y' -> alike x y'.
Proof.
  intros [Rx Ry Ix Iy Eh Ee Ed] H Ha E. destruct (house_ok d0 g' Hg' y a y' Ry H Ha E) as (A & B & C & F). split; auto; [apply xreach_step with y a; assumption|congruence|intros c; rewrite C; apply Ee|intros c; rewrite F; apply Ed].
Qed.
Lemma alike_execs x prog x' : execs d0 g x prog x' -> forall y y', alike x y -> execs d0 g' y prog y' -> alike x' y'.
Proof.
  intros H. induction H as [x|x s x1 l x2 Hs H IH|x a x1 l x2 Hh Ha E H IH]; intros y y' A H'.
  - remember [] as prog eqn:Ep. induction H' as [y|y s y1 l y2|y a y1 l y2 Hh Ha E H' IH]; [assumption|discriminate|]. apply IH; [|assumption]. apply alike_right with y a; assumption.
  - remember (s :: l) as prog eqn:Ep. induction H' as [y|y s' y1 l' y2 Hs' H'|y a y1 l' y2 Hh Ha E H' IH']; [discriminate| |].
    + injection Ep as -> ->. apply (IH y1 y2); [|assumption]. apply alike_step with x y s; assumption.
    + apply IH'; [|assumption]. apply alike_right with y a; assumption.
  - apply (IH y y'); [|assumption]. apply alike_left with x a; assumption.
Qed.

Lemma alike_observed x y : alike x y -> (forall c r q, In r (ranks g) -> In q (ranks g') -> exists_on (x_st x) r c = exists_on (x_st y) q c) /\ forall c v, shows g x c v <-> shows g' y c v.
Proof.
  intros A. pose proof (al_x _ _ A) as Rx. pose proof (al_y _ _ A) as Ry. split.
  - intros c r q Ir Iq. destruct (xreachable_inv d0 g Hg x Rx) as (own & Hx). destruct (xreachable_inv d0 g' Hg' y Ry) as (own' & Hy).
    rewrite (viewx g own (x_st x) r c (proj1 Hx) Ir), (viewx g' own' (x_st y) q c (proj1 Hy) Iq), <- (ex_own g Hg own x c Hx), <- (ex_own g' Hg' own' y c Hy). apply (al_ex _ _ A).
  - intros c v. rewrite (shows_iff d0 g Hg x c v Rx), (shows_iff d0 g' Hg' y c v Ry), (al_data _ _ A c). reflexivity.
Qed.

(** The same program gives the same cells with the same data, whatever the number of processes, the
    partition of the grid at any time, the order in which processes treat their cells and the way their
    calls interleave. *)
Theorem c69_same_result x0 y0 prog x y : xinitialize d0 g = Done x0 -> xinitialize d0 g' = Done y0 ->
  execs d0 g x0 prog x -> execs d0 g' y0 prog y ->
  (forall c r q, In r (ranks g) -> In q (ranks g') -> exists_on (x_st x) r c = exists_on (x_st y) q c) /\
  forall c v, shows g x c v <-> shows g' y c v.
Proof.
  intros Ex Ey Hx Hy. apply alike_observed. apply (alike_execs x0 prog x Hx y0 y); [|assumption].
  destruct (start_ok d0 g Hg x0 Ex) as (A1 & A2 & A3 & A4 & A5). destruct (start_ok d0 g' Hg' y0 Ey) as (B1 & B2 & B3 & B4 & B5).
  assert (forall c, ex_at x0 c = ex_at y0 c) as Ee by (intros c; apply Bool.eq_iff_eq_true; rewrite A4, B4; reflexivity).
  split; auto; [congruence|]. intros c. rewrite A5, B5, Ee. reflexivity.
Qed.
(** also when started in the middle of a run *)
Theorem c69_same_result_from_any_state x0 y0 prog x y : xreachable d0 g x0 -> xreachable d0 g' y0 -> idle g (x_st x0) -> idle g' (x_st y0) -> x_hoods x0 = x_hoods y0 ->
  (forall c, exists_on (x_st x0) 0 c = exists_on (x_st y0) 0 c) -> (forall c v, shows g x0 c v <-> shows g' y0 c v) ->
  execs d0 g x0 prog x -> execs d0 g' y0 prog y ->
  (forall c r q, In r (ranks g) -> In q (ranks g') -> exists_on (x_st x) r c = exists_on (x_st y) q c) /\
  forall c v, shows g x c v <-> shows g' y c v.
Proof.
  intros Rx Ry Ix Iy Eh Ee Es Hx Hy. apply alike_observed. apply (alike_execs x0 prog x Hx y0 y); [|assumption]. split; auto.
  assert (forall c v, data_at x0 c = Some v <-> data_at y0 c = Some v) as K by (intros c v; rewrite <- (shows_iff d0 g Hg x0 c v Rx), <- (shows_iff d0 g' Hg' y0 c v Ry); apply Es).
  intros c. destruct (data_at x0 c) as [v|] eqn:E; [symmetry; apply K; assumption|]. destruct (data_at y0 c) as [v|] eqn:E'; [|reflexivity]. apply K in E'. congruence.
Qed.
End Two.

(** ** What a step does, without processes *)
Section Alone.
Context {D : Type} (d0 : D) (g : grid) (Hg : grid_ok g).
(** load balancing and other housekeeping change no cells and no data *)
Theorem c69_housekeeping x a x' : xreachable d0 g x -> housekeeping a -> xallowed g x a -> xrun d0 g x a = Done x' ->
  (forall r c, In r (ranks g) -> exists_on (x_st x') r c = exists_on (x_st x) r c) /\ forall c v, shows g x' c v <-> shows g x c v.
Proof.
  intros R H Ha E. assert (xreachable d0 g x') as R' by (apply xreach_step with x a; assumption). destruct (house_ok d0 g Hg x a x' R H Ha E) as (_ & _ & C & F). split.
  - intros r c Ir. destruct (xreachable_inv d0 g Hg x R) as (own & Hx). destruct (xreachable_inv d0 g Hg x' R') as (own' & Hx').
    rewrite (viewx g own _ r c (proj1 Hx) Ir), (viewx g own' _ r c (proj1 Hx') Ir), <- (ex_own g Hg own x c Hx), <- (ex_own g Hg own' x' c Hx'). apply C.
  - intros c v. rewrite (shows_iff d0 g Hg x' c v R'), (shows_iff d0 g Hg x c v R), F. reflexivity.
Qed.
(** what process-independent cell c and its neighbors show to a computation *)
Definition sees (x : xstate (D := D)) (id c : Z) (d : D) (ns : list (seen D)) : Prop := exists U l,
  CommInv.hood_at g (x_hoods x) id = Some U /\ shows g x c d /\
  find_neighbors_of (exists_on (x_st x) 0) (g_map g) (g_topo g) c U = Done l /\
  Forall2 (fun e s => fst s = e /\ shows g x (fst e) (snd s)) l ns.
Lemma sees_iff x id c d ns : xreachable d0 g x -> sees x id c d ns <-> view_at g (x_hoods x) id (ex_at x) (data_at x) c = Some (d, ns).
Proof.
  intros R. unfold sees, view_at. change (ex_at x) with (exists_on (x_st x) 0). split.
  - intros (U & l & EU & Ed & El & F). rewrite EU, El. apply (shows_iff d0 g Hg x c d R) in Ed. rewrite Ed. replace (all_some _) with (Some ns); [reflexivity|]. symmetry.
    clear - F R Hg. induction F as [|e s l ns [Q1 Q2] F IH]; cbn [map all_some]; [reflexivity|]. apply (shows_iff d0 g Hg x _ _ R) in Q2. rewrite Q2, IH, <- Q1. destruct s. reflexivity.
  - intros V. destruct (data_at x c) as [d'|] eqn:Ed; [|discriminate]. destruct (CommInv.hood_at g (x_hoods x) id) as [U|] eqn:EU; [|discriminate].
    destruct (find_neighbors_of (exists_on (x_st x) 0) (g_map g) (g_topo g) c U) as [l| |] eqn:El; try discriminate.
    destruct (all_some _) as [ns'|] eqn:Ea in V; [|discriminate]. injection V as -> ->. exists U, l. split; [reflexivity|]. split; [apply (shows_iff d0 g Hg x c d R); assumption|]. split; [exact El|].
    clear - Ea R Hg. revert ns Ea. induction l as [|e l IH]; intros ns Ea; cbn [map all_some] in Ea; [injection Ea as <-; constructor|].
    destruct (data_at x (fst e)) as [w|] eqn:Ew; [|discriminate]. destruct (all_some _) as [ns'|] eqn:En in Ea; [|discriminate]. injection Ea as <-. constructor; [|apply IH; assumption]. split; [reflexivity|]. apply (shows_iff d0 g Hg x _ _ R). assumption.
Qed.
(** computation: every cell gets the value of f at its old data and the old data of its neighbors *)
Theorem c69_compute x id f x' : xreachable d0 g x -> exec_step d0 g x (Compute id f) x' ->
  (forall r c, In r (ranks g) -> exists_on (x_st x') r c = exists_on (x_st x) r c) /\
  forall c, exists_on (x_st x) 0 c = true -> exists d ns, sees x id c d ns /\ shows g x' c (f c d ns).
Proof.
  intros R H. destruct (compute_ok d0 g Hg x id f x' R H) as (A1 & A2 & A3 & A4 & A5). split.
  - intros r c Ir. destruct (xreachable_inv d0 g Hg x R) as (own & Hx). destruct (xreachable_inv d0 g Hg x' A1) as (own' & Hx').
    rewrite (viewx g own _ r c (proj1 Hx) Ir), (viewx g own' _ r c (proj1 Hx') Ir), <- (ex_own g Hg own x c Hx), <- (ex_own g Hg own' x' c Hx'). apply A4.
  - intros c Ec. destruct (A5 c Ec) as (d & ns & V & Dv). exists d, ns. rewrite (sees_iff x id c d ns R), (shows_iff d0 g Hg x' c _ A1). auto.
Qed.
(** the criterion asks for k at c *)
Definition asked_for (x : xstate (D := D)) (id : Z) (w : Z -> D -> list (seen D) -> list want) (k : want) (c : Z) : Prop :=
  exists_on (x_st x) 0 c = true /\ exists d ns, sees x id c d ns /\ In k (w c d ns).
(** adaptation: the cells of C68 for the requests of the criterion; kept cells keep their data, children
    get theirs from the parent, merged cells from all of the children *)
Theorem c69_adapt x id w kid par x' : xreachable d0 g x -> idle g (x_st x) -> exec_step d0 g x (ProgramModel.Adapt id w kid par) x' ->
  let m := g_map g in
  (forall r c, In r (ranks g) -> exists_on (x_st x') r c = true <-> cells_after m (g_topo g) (g_len g) (exists_on (x_st x) 0) (Requests
    (fun c => asked_for x id w ToRefine c /\ get_refinement_level m c < m_max m) (fun _ => False) (asked_for x id w ToUnrefine)
    (fun c => asked_for x id w ToHold c \/ asked_for x id w ToRefine c /\ get_refinement_level m c = m_max m)) c) /\
  forall c, exists_on (x_st x') 0 c = true ->
    (exists_on (x_st x) 0 c = true /\ (exists v, shows g x c v) /\ forall v, shows g x' c v <-> shows g x c v) \/
    (exists_on (x_st x) 0 c = false /\ 0 < get_refinement_level m c /\ exists_on (x_st x) 0 (get_parent m c) = true /\ exists v, shows g x (get_parent m c) v /\ shows g x' c (kid c v)) \/
    (exists_on (x_st x) 0 c = false /\ exists ws, Forall2 (shows g x) (get_all_children m c) ws /\ shows g x' c (par c ws)).
Proof.
  intros R Ix H m. destruct (adapt_ok d0 g Hg x id w kid par x' R Ix H) as (A1 & A2 & A3 & A4 & A5).
  assert (forall k c, asked_for x id w k c <-> wants g (x_hoods x) id (ex_at x) (data_at x) w k c) as K.
  { intros k c. unfold asked_for, wants. change (ex_at x c) with (exists_on (x_st x) 0 c). split; intros (E & d & ns & V & Hk); (split; [assumption|]); exists d, ns; (split; [|assumption]); apply (sees_iff x id c d ns R); assumption. }
  split.
  - intros r c Ir. destruct (xreachable_inv d0 g Hg x' A1) as (own' & Hx'). rewrite (viewx g own' _ r c (proj1 Hx') Ir), <- (ex_own g Hg own' x' c Hx'), A4.
    assert (same_requests (Requests (fun c => asked_for x id w ToRefine c /\ get_refinement_level m c < m_max m) (fun _ => False) (asked_for x id w ToUnrefine)
      (fun c => asked_for x id w ToHold c \/ asked_for x id w ToRefine c /\ get_refinement_level m c = m_max m)) (wishes g (x_hoods x) id (ex_at x) (data_at x) w)) as Sw.
    { intros c'. cbn [wishes q_split q_whole q_merge q_hold]. change (lvl_of (g_map g) c') with (get_refinement_level m c'). rewrite !K. split; [reflexivity|]. split; [reflexivity|]. split; reflexivity. }
    split; apply cells_ext; auto. apply same_sym. assumption.
  - intros c Ec. destruct (A5 c Ec) as [Dc Dn]. unfold data_after in Dc. change (ex_at x) with (exists_on (x_st x) 0) in Dc. destruct (exists_on (x_st x) 0 c) eqn:E0.
    + left. split; [reflexivity|]. split.
      * destruct (data_at x' c) as [v|] eqn:Ev; [|contradiction]. exists v. apply (shows_iff d0 g Hg x c v R). congruence.
      * intros v. rewrite (shows_iff d0 g Hg x' c v A1), (shows_iff d0 g Hg x c v R), Dc. reflexivity.
    + right. destruct (_ && _) eqn:Ep in Dc.
      * left. apply andb_true_iff in Ep. destruct Ep as [Ep1 Ep2]. apply Z.ltb_lt in Ep1. split; [reflexivity|]. split; [exact Ep1|]. split; [exact Ep2|]. fold m in Dc. destruct (data_at x (get_parent m c)) as [v|] eqn:Ev; [|cbn [option_map] in Dc; contradiction].
        exists v. rewrite (shows_iff d0 g Hg x _ v R), (shows_iff d0 g Hg x' c _ A1). auto.
      * right. split; [reflexivity|]. fold m in Dc. destruct (all_some _) as [ws|] eqn:Ea in Dc; [|cbn [option_map] in Dc; contradiction]. exists ws. split; [|apply (shows_iff d0 g Hg x' c _ A1); assumption].
        clear - Ea R Hg. revert ws Ea. induction (get_all_children m c) as [|k l IH]; intros ws Ea; cbn [map all_some] in Ea; [injection Ea as <-; constructor|].
        destruct (data_at x k) as [v|] eqn:Ev; [|discriminate]. destruct (all_some (map _ l)) as [ws'|] eqn:En; [|discriminate]. injection Ea as <-. constructor; [|apply IH; reflexivity]. apply (shows_iff d0 g Hg x _ _ R). assumption.
Qed.
End Alone.

Print Assumptions c69_same_result.
Print Assumptions c69_adapt.
Print Assumptions c69_every_step_can_run.
