(** Iterator caches: the cells and neighbors given by inner_cells, outer_cells, local_cells,
    remote_cells, all_cells and the neighbors_of, neighbors_to and all_neighbors of their items. *)
From Verif Require Import U64 MapModel MapSpec MapProofs MapFamily MapProps HoodModel MeshModel
  MeshSpec MeshBase HoodProps MeshWalk MeshFind MeshKids MeshItem MeshCheck MeshTo MeshNear
  Sets RefineModel RefineGeo RefineInv RefineSpread RefineMerge RefineFold RefineExec RefineStop
  BalanceModel RefineReqs Create Balance History HistProps CommModel CommInv CommProps.
Open Scope Z_scope.

Lemma skipn_plus {A} i j : forall l : list A, skipn j (skipn i l) = skipn (i + j) l.
Proof. induction i as [|i IH]; intros l; [reflexivity|]. destruct l; cbn [skipn Nat.add]; [destruct j; reflexivity|apply IH]. Qed.
Lemma range_middle {A} (a b c : list A) k l : k = length a -> l = (length a + length b)%nat -> range (a ++ b ++ c) k l = b.
Proof.
  intros -> ->. unfold range. rewrite skipn_app, skipn_all, Nat.sub_diag. cbn [app skipn]. rewrite firstn_app.
  replace (length a + length b - length a)%nat with (length b) by lia. rewrite firstn_all, Nat.sub_diag. cbn [firstn]. apply app_nil_r.
Qed.

Section Split.
Context (a : list (Z * idx)) (b : list Z) (Ha : forall e, In e a -> (fst e =? error_cell) = false) (Hb : forall c, In c b -> (c =? error_cell) = false).

Lemma split_ok : let '(x, y, z) := split_neighbors a b in
  NoDup (x ++ y ++ z) /\ (forall e, In e (x ++ y) <-> In e a) /\ (forall c, In c (map fst (y ++ z)) <-> In c b) /\
  (forall c o, In (c, o) (y ++ z) -> In (c, o) a \/ o = vzero).
Proof.
  unfold split_neighbors. cbv zeta. set (ids_of := nodup nbr_eq_dec (filter (fun n => negb (fst n =? error_cell)) a)).
  set (ids_to := nodup nbr_eq_dec (filter (fun n => negb (fst n =? error_cell)) (map (fun c => (c, vzero)) b))).
  set (in_to := fun n : Z * idx => existsb (fun x => if nbr_eq_dec x (fst n, vzero) then true else false) ids_to).
  set (in_of := fun x : Z * idx => existsb (fun n => if nbr_eq_dec x (fst n, vzero) then true else false) ids_of).
  assert (forall e, In e ids_of <-> In e a) as Pof.
  { intros e. unfold ids_of. rewrite nodup_In, filter_In. split; [tauto|]. intros He. rewrite Ha by assumption. auto. }
  assert (forall c o, In (c, o) ids_to <-> In c b /\ o = vzero) as Pto.
  { intros c o. unfold ids_to. rewrite nodup_In, filter_In, in_map_iff. cbn [fst]. split.
    - intros ((c' & E & Q) & _). injection E as <- <-. auto.
    - intros (Q & ->). rewrite Hb by assumption. split; [exists c; auto|reflexivity]. }
  assert (forall n, in_to n = true <-> In (fst n) b) as Pin.
  { intros n. unfold in_to. rewrite existsb_exists. split.
    - intros ([c o] & Q & E). destruct (nbr_eq_dec (c, o) (fst n, vzero)) as [E'|]; [|discriminate]. injection E' as -> _. apply Pto in Q. tauto.
    - intros Q. exists (fst n, vzero). split; [apply Pto; auto|]. destruct (nbr_eq_dec _ _); [reflexivity|contradiction]. }
  assert (forall c, in_of (c, vzero) = true <-> In c (map fst a)) as Piof.
  { intros c. unfold in_of. rewrite existsb_exists, in_map_iff. split.
    - intros (e & Q & E). destruct (nbr_eq_dec (c, vzero) (fst e, vzero)) as [E'|]; [|discriminate]. injection E' as ->. exists e. rewrite <- Pof. auto.
    - intros (e & <- & Q). exists e. split; [apply Pof; assumption|]. destruct (nbr_eq_dec _ _); [reflexivity|contradiction]. }
  change (fun n : Z * idx => negb (existsb (fun x => if nbr_eq_dec x (fst n, vzero) then true else false) ids_to)) with (fun n => negb (in_to n)).
  change (fun x : Z * idx => negb (existsb (fun n => if nbr_eq_dec x (fst n, vzero) then true else false) ids_of)) with (fun n => negb (in_of n)).
  assert (forall e, In e (filter (fun x => negb (in_of x)) ids_to) -> In (fst e) b /\ snd e = vzero /\ ~ In (fst e) (map fst a)) as Pz.
  { intros [c o] Q. apply filter_In in Q. destruct Q as [Q1 Q2]. apply Pto in Q1. destruct Q1 as [Q1 ->]. cbn [fst snd]. split; [assumption|]. split; [reflexivity|]. rewrite <- Piof. destruct (in_of (c, vzero)); discriminate || congruence. }
  split; [|split; [|split]].
  - apply NoDup_app; [apply NoDup_filter, NoDup_nodup| |].
    + apply NoDup_app; [apply NoDup_filter, NoDup_nodup|apply NoDup_filter, NoDup_nodup|]. intros e Q1 Q2. apply filter_In in Q1. apply Pz in Q2. destruct Q1 as [Q1 _], Q2 as (_ & _ & N). apply N, in_map, Pof, Q1.
    + intros e Q1 Q2. apply filter_In in Q1. destruct Q1 as [Q1 E]. apply in_app_iff in Q2. destruct Q2 as [Q2|Q2]; [apply filter_In in Q2; destruct Q2 as [_ Q2]; rewrite Q2 in E; discriminate|].
      apply Pz in Q2. destruct Q2 as (_ & _ & N). apply N, in_map, Pof, Q1.
  - intros e. rewrite in_app_iff, !filter_In, Pof. destruct (in_to e); cbn [negb]; intuition congruence.
  - intros c. rewrite map_app, in_app_iff. split.
    + intros [Q|Q]; apply in_map_iff in Q; destruct Q as (e & <- & Q); [apply filter_In in Q; apply Pin, Q|apply Pz, Q].
    + intros Q. destruct (in_of (c, vzero)) eqn:E.
      * left. apply Piof in E. apply in_map_iff in E. destruct E as (e & <- & E). apply in_map, filter_In. split; [apply Pof; assumption|apply Pin; assumption].
      * right. apply in_map_iff. exists (c, vzero). split; [reflexivity|]. apply filter_In. split; [apply Pto; auto|]. rewrite E. reflexivity.
  - intros c o Q. apply in_app_iff in Q. destruct Q as [Q|Q]; [left; apply filter_In in Q; apply Pof, Q|right; apply Pz in Q; apply Q].
Qed.
End Split.

Lemma cell_items_ok L cells : (forall c, In c cells -> (c =? error_cell) = false /\ exists a b, find c (l_of L) = Some a /\ find c (l_to L) = Some b) ->
  forall nbrs, exists items ext, cell_items L cells nbrs = Done (items, nbrs ++ ext) /\ map i_id items = cells /\
  forall i, In i items -> exists a b pre x y z post, find (i_id i) (l_of L) = Some a /\ find (i_id i) (l_to L) = Some b /\ split_neighbors a b = (x, y, z) /\
    nbrs ++ ext = pre ++ x ++ y ++ z ++ post /\ i_first i = length pre /\ i_of i = length x /\ i_both i = length y /\ i_to i = length z.
Proof.
  induction cells as [|c cells IH]; intros Hc nbrs; cbn [cell_items].
  - exists [], []. rewrite app_nil_r. split; [reflexivity|]. split; [reflexivity|]. intros i [].
  - destruct (Hc c (or_introl eq_refl)) as (E & a & b & Fa & Fb). rewrite E. unfold at_. rewrite Fa, Fb. cbn [bind]. destruct (split_neighbors a b) as [[x y] z] eqn:Es.
    destruct (IH (fun k Hk => Hc k (or_intror Hk)) (nbrs ++ x ++ y ++ z)) as (items & ext & Ei & Em & P). rewrite Ei. cbn [bind fst snd]. eexists _, (x ++ y ++ z ++ ext). split; [|split].
    + rewrite <- !app_assoc. reflexivity.
    + cbn [map i_id]. rewrite Em. reflexivity.
    + intros i [<-|Hi]; [exists a, b, nbrs, x, y, z, ext; cbn [i_id i_first i_of i_both i_to]; auto 10|].
      destruct (P i Hi) as (a' & b' & pre & x' & y' & z' & post & Q1 & Q2 & Q3 & Q4 & Q5). exists a', b', pre, x', y', z', post. rewrite <- !app_assoc in Q4. auto.
Qed.

Section Props.
Context {D : Type} (d0 : D) (g : grid) (Hg : grid_ok g).
Notation m := (g_map g).
Notation t := (g_topo g).
Notation xreachable := (xreachable d0 g).
Notation rank r := (In r (ranks g)).
Notation state := (xstate (D := D)).
Notation hood_at := (hood_at g).

(** the iterator caches of neighborhood id on rank r after a history of calls *)
Definition iterators (x : state) (id r : Z) : outcome views :=
  do L <- lists_of g (x_hoods x) id r (x_st x r);
  match L with None => Threw | Some L => update_cell_pointers L (x_st x r) (x_copies x r) end.

Lemma map_range {A B} (f : A -> B) l i j : map f (range l i j) = range (map f l) i j.
Proof. unfold range. rewrite skipn_map, firstn_map. reflexivity. Qed.

Theorem c38_cells x id U r : xreachable x -> hood_at (x_hoods x) id = Some U -> rank r ->
  exists v, iterators x id r = Done v /\ NoDup (map i_id (view_cells v)) /\
    (forall c, In c (map i_id (view_inner v)) <-> owns x r r c /\ ~ touches_remote g U x r c) /\
    (forall c, In c (map i_id (view_outer v)) <-> owns x r r c /\ touches_remote g U x r c) /\
    (forall c, In c (map i_id (view_local v)) <-> owns x r r c) /\
    (forall c, In c (map i_id (view_remote v)) <-> elsewhere x r c /\ exists a, owns x r r a /\ (sees m t (g_hood g) a c \/ sees m t (g_hood g) c a)) /\
    view_cells v = view_local v ++ view_remote v /\ view_local v = view_inner v ++ view_outer v /\
    forall i, In i (view_cells v) ->
      NoDup (view_all v i) /\
      (forall y o, In (y, o) (view_of v i) <-> exists_on (x_st x) r y = true /\ exists h, In h U /\ nbr m t (i_id i) h y o) /\
      (forall y, In y (map fst (view_to v i)) <-> exists_on (x_st x) r y = true /\ sees m t U y (i_id i)) /\
      (forall y o, In (y, o) (view_to v i) -> In (y, o) (view_of v i) \/ o = vzero) /\
      (forall e, In e (view_all v i) <-> In e (view_of v i) \/ In e (view_to v i)).
Proof.
  intros R EU Ir. destruct (xreachable_inv d0 g Hg x R) as (own & Hx). pose proof Hx as ((Hgood & Hp) & Hc & Ho). pose proof Hgood as (Hw & Hr). destruct (Hr r Ir) as (Hs & Hk & _). pose proof Hs as (_ & _ & ND & Kd).
  destruct (lists_of_ok g Hg own _ _ id r U Hgood Ho Ir EU) as (L & EL & SL). pose proof (default_lists_ok g Hg own r _ _ Hw Hs Hk) as (_ & _ & _ & Rm & _ & NRm). cbn [default_lists l_remote] in Rm, NRm.
  unfold iterators. rewrite EL. cbn [bind]. unfold update_cell_pointers.
  set (inner := filter (fun c => negb (mem c (l_local L))) (keys (s_data (p_store (x_st x r))))).
  set (outer := filter (fun c => mem c (l_local L)) (keys (s_data (p_store (x_st x r))))). set (remote := k_remote (p_cache (x_st x r))) in *.
  assert (existsb (fun c => negb (has c (x_copies x r))) remote = false) as ->.
  { apply not_true_iff_false. rewrite existsb_exists. intros (c & I & E). destruct (Hc r Ir) as [_ K]. apply K in I. rewrite I in E. discriminate. }
  assert (forall c, owns x r r c <-> own c = Some r) as Ow by (intros c; unfold owns; rewrite (xview g own x r c Hx Ir); reflexivity).
  assert (forall c, In c (keys (s_data (p_store (x_st x r)))) <-> owns x r r c) as Kk by (intros c; rewrite keys_find, <- has_find, Kd, Ow; reflexivity).
  assert (forall c, In c remote -> elsewhere x r c) as Rel.
  { intros c Q. apply Rm in Q. destruct Q as (a & _ & Ec & Nc & _). apply (elsewhere_iff g own); auto. }
  assert (forall c, In c (inner ++ outer ++ remote) -> exo own c = true) as Ce.
  { intros c Q. rewrite !in_app_iff in Q. destruct Q as [Q|[Q|Q]].
    - apply filter_In in Q. destruct Q as [Q _]. apply Kk, Ow in Q. apply exo_some. eauto.
    - apply filter_In in Q. destruct Q as [Q _]. apply Kk, Ow in Q. apply exo_some. eauto.
    - apply Rm in Q. destruct Q as (a & _ & Ec & _). assumption. }
  pose proof SL as ((Sof & _) & (Sto & _) & Lo & _).
  destruct (cell_items_ok L (inner ++ outer ++ remote)) with (nbrs := @nil (Z * idx)) as (items & ext & Ei & Em & Pi).
  { intros c Q. apply Ce in Q. split; [apply (not_error g own Hw); assumption|]. destruct (Sof c Q) as (a & Fa & _), (Sto c Q) as (b & Fb & _). eauto. }
  rewrite Ei. cbn [bind fst snd app]. eexists. split; [reflexivity|].
  assert (length items = (length inner + length outer + length remote)%nat) as Len by (rewrite <- (map_length i_id), Em, !app_length; lia).
  unfold view_cells, view_inner, view_outer, view_local, view_remote. cbn [v_cells v_inner v_outer v_remote v_neighbors].
  rewrite !map_range, Em.
  assert (range (inner ++ outer ++ remote) 0 (length inner + length outer + length remote) = inner ++ outer ++ remote) as ->.
  { pose proof (range_middle [] (inner ++ outer ++ remote) [] 0 (length inner + length outer + length remote) eq_refl) as Q. rewrite app_nil_r in Q. apply Q. cbn [length]. rewrite !app_length. lia. }
  assert (range (inner ++ outer ++ remote) 0 (length inner) = inner) as -> by (apply (range_middle [] inner (outer ++ remote)); reflexivity).
  assert (range (inner ++ outer ++ remote) (length inner) (length inner + length outer) = outer) as -> by (apply (range_middle inner outer remote); reflexivity).
  assert (range (inner ++ outer ++ remote) 0 (length inner + length outer) = inner ++ outer) as ->.
  { rewrite app_assoc. apply (range_middle [] (inner ++ outer) remote); [reflexivity|]. cbn [length]. rewrite app_length. reflexivity. }
  assert (range (inner ++ outer ++ remote) (length inner + length outer) (length inner + length outer + length remote) = remote) as ->.
  { rewrite app_assoc. pose proof (range_middle (inner ++ outer) remote []) as Q. rewrite app_nil_r in Q. apply Q; rewrite !app_length; reflexivity. }
  assert (forall c, In c (l_local L) <-> owns x r r c /\ touches_remote g U x r c) as Kl.
  { intros a. rewrite Lo, Ow. unfold beside, touches_remote. split.
    - intros (b & Oa & Eb & Nb & S). split; [assumption|]. exists b. rewrite (elsewhere_iff g own) by assumption. auto.
    - intros (Oa & b & Eb & S). rewrite (elsewhere_iff g own) in Eb by assumption. exists b. tauto. }
  assert (forall c, In c inner <-> owns x r r c /\ ~ touches_remote g U x r c) as Ki.
  { intros c. unfold inner. rewrite filter_In, negb_true_iff, mem_not, Kl, Kk. tauto. }
  assert (forall c, In c outer <-> owns x r r c /\ touches_remote g U x r c) as Kou.
  { intros c. unfold outer. rewrite filter_In, mem_In, Kl, Kk. tauto. }
  split.
  { apply NoDup_app; [apply NoDup_filter; assumption|apply NoDup_app; [apply NoDup_filter; assumption|assumption|]|].
    - intros c Q1 Q2. apply Kou in Q1. apply Rel in Q2. destruct Q1 as [Q1 _], Q2 as (q & Q2 & N). unfold owns in *. congruence.
    - intros c Q1 Q2. apply Ki in Q1. apply in_app_iff in Q2. destruct Q2 as [Q2|Q2]; [apply Kou in Q2; tauto|]. apply Rel in Q2. destruct Q1 as [Q1 _], Q2 as (q & Q2 & N). unfold owns in *. congruence. }
  split; [exact Ki|]. split; [exact Kou|]. split.
  { intros c. rewrite in_app_iff, Ki, Kou. split; [tauto|]. intros O. destruct (mem c (l_local L)) eqn:E; [right; apply Kl, mem_In; assumption|left]. apply mem_not in E. split; [assumption|]. intros Q. apply E, Kl. auto. }
  split.
  { intros c. rewrite Rm. unfold beside. rewrite (elsewhere_iff g own) by assumption. split.
    - intros (a & Oa & Eb & Nb & S). split; [auto|]. exists a. rewrite Ow. auto.
    - intros ((Eb & Nb) & a & Oa & S). exists a. rewrite Ow in Oa. auto. }
  assert (forall i j k : nat, (i <= j <= k)%nat -> range items i k = range items i j ++ range items j k) as Rs.
  { intros i j k Hij. unfold range. replace (k - i)%nat with ((j - i) + (k - j))%nat by lia. replace (skipn j items) with (skipn (j - i) (skipn i items)) by (rewrite skipn_plus; f_equal; lia).
    generalize (skipn i items) as l. intros l. generalize (j - i)%nat as p, (k - j)%nat as q. intros p q. clear. revert l. induction p as [|p IH]; intros l; [reflexivity|]. destruct l as [|e l]; [cbn; rewrite firstn_nil; reflexivity|]. cbn. rewrite IH. reflexivity. }
  split; [apply Rs; lia|]. split; [apply Rs; lia|].
  intros i Hi. assert (In i items) as Ii. { unfold range in Hi. rewrite <- (firstn_skipn 0 items). apply in_app_iff. right. rewrite <- (firstn_skipn (length inner + length outer + length remote - 0) (skipn 0 items)). apply in_app_iff. left. exact Hi. }
  destruct (Pi i Ii) as (a & b & pre & y & z & w & post & Fa & Fb & Es & Ex & Q1 & Q2 & Q3 & Q4). cbn [app] in Ex.
  assert (In (i_id i) (inner ++ outer ++ remote)) as Ic by (rewrite <- Em; apply in_map; assumption). apply Ce in Ic.
  destruct (Sof _ Ic) as (a' & Fa' & Pa). rewrite Fa in Fa'. injection Fa' as <-. destruct (Sto _ Ic) as (b' & Fb' & _ & Pb). rewrite Fb in Fb'. injection Fb' as <-.
  assert (forall k, exists_on (x_st x) r k = exo own k) as Xo by (intros k; unfold exists_on; rewrite (xview g own x r k Hx Ir); reflexivity).
  pose proof (split_ok a b) as Sp. rewrite Es in Sp. destruct Sp as (S1 & S2 & S3 & S4).
  { intros [k o] Q. apply Pa in Q. cbn [fst]. apply (not_error g own Hw). tauto. }
  { intros k Q. apply Pb in Q. apply (not_error g own Hw). tauto. }
  unfold view_of, view_to, view_all. cbn [v_neighbors]. rewrite Ex, Q1, Q2, Q3, Q4.
  assert (range (pre ++ y ++ z ++ w ++ post) (length pre) (length pre + length y + length z) = y ++ z) as ->.
  { replace (pre ++ y ++ z ++ w ++ post) with (pre ++ (y ++ z) ++ w ++ post) by (rewrite <- !app_assoc; reflexivity). apply range_middle; [reflexivity|]. rewrite app_length. lia. }
  assert (range (pre ++ y ++ z ++ w ++ post) (length pre + length y) (length pre + length y + length z + length w) = z ++ w) as ->.
  { replace (pre ++ y ++ z ++ w ++ post) with ((pre ++ y) ++ (z ++ w) ++ post) by (rewrite <- !app_assoc; reflexivity). apply range_middle; rewrite !app_length; lia. }
  assert (range (pre ++ y ++ z ++ w ++ post) (length pre) (length pre + length y + length z + length w) = y ++ z ++ w) as ->.
  { replace (pre ++ y ++ z ++ w ++ post) with (pre ++ (y ++ z ++ w) ++ post) by (rewrite <- !app_assoc; reflexivity). apply range_middle; [reflexivity|]. rewrite !app_length. lia. }
  split; [assumption|]. split; [|split; [|split]].
  - intros k o. rewrite S2, Pa, Xo. reflexivity.
  - intros k. rewrite S3, Pb, Xo. reflexivity.
  - intros k o Q. apply S4 in Q. rewrite S2. assumption.
  - intros e. rewrite !in_app_iff. tauto.
Qed.
End Props.
Print Assumptions c38_cells.
