(** The collective decision on unrefining (override_unrefines). *)
From Coq Require Import Sorted.
From Verif Require Import U64 MapModel MapSpec MapProofs MapFamily MapProps HoodModel MeshModel
  MeshSpec MeshBase HoodProps MeshWalk MeshFind MeshKids MeshItem MeshCheck MeshTo MeshNear
  Sets RefineModel RefineGeo RefineInv RefineSpread RefineNear.
Open Scope Z_scope.

Lemma sins_sorted x l : StronglySorted Z.lt l -> StronglySorted Z.lt (sins x l).
Proof.
  induction l as [|y l IH]; intros S; cbn [sins]; [repeat constructor|]. apply StronglySorted_inv in S. destruct S as [S F].
  destruct (Z.ltb_spec x y); [|destruct (Z.eqb_spec x y)].
  - constructor; [constructor; assumption|]. constructor; [assumption|]. apply Forall_forall. intros z Hz. rewrite Forall_forall in F. specialize (F z Hz). lia.
  - constructor; assumption.
  - constructor; [apply IH; assumption|]. apply Forall_forall. intros z Hz. apply sins_In in Hz. rewrite Forall_forall in F. destruct Hz as [->|Hz]; [lia|apply F; assumption].
Qed.
Lemma filter_sorted f l : StronglySorted Z.lt l -> StronglySorted Z.lt (filter f l).
Proof.
  induction l as [|y l IH]; intros S; cbn [filter]; [constructor|]. apply StronglySorted_inv in S. destruct S as [S F].
  destruct (f y); [|apply IH; assumption]. constructor; [apply IH; assumption|]. apply Forall_forall. intros z Hz. apply filter_In in Hz. rewrite Forall_forall in F. apply F. tauto.
Qed.
Lemma fold_sins xs : StronglySorted Z.lt (fold_right sins [] xs) /\ forall y, In y (fold_right sins [] xs) <-> In y xs.
Proof.
  induction xs as [|x xs [IH1 IH2]]; cbn [fold_right]; [split; [constructor|tauto]|]. split; [apply sins_sorted; assumption|].
  intros y. rewrite sins_In, IH2. cbn [In]. split; intros [Q|Q]; auto.
Qed.

Section Merge.
Context {D : Type} (g : grid) (Hg : grid_ok g).
Notation m := (g_map g).
Notation t := (g_topo g).
Notation n := (g_len g).
Notation H := (g_hood g).
Context (own : Z -> option Z) (st : Z -> proc D) (Hgood : good g own st).

(** ** The search of one process for one family *)
Section One.
Context (r : Z) (Ir : In r (ranks g)) (c : Z) (Ec : exo own c = true) (Hc : 0 < lvl_of m c).
Context (Hsib : forall s, siblings g c s -> exo own s = true) (toref : list Z).
Notation P := (get_parent m c).
Notation p := (st r).
Notation ex := (exb (p_store p)).
Notation vis := (visited m t n ex c).
Notation nb := (nbP m t n c).
Notation bd := (bad m c (fun x => In x toref)).
Notation faces := (face_list m t ex).

Lemma store_r : store_ok own r (p_store p).
Proof. destruct Hgood as [_ Hr]. apply (Hr r Ir). Qed.
Lemma mesh_r : mesh m t n ex.
Proof. destruct Hgood as [Hw _]. apply (store_mesh g own r); [assumption|apply store_r]. Qed.
Lemma ex_r x : ex x = exo own x.
Proof. apply (exb_exo own r). apply store_r. Qed.
Lemma faces_r x : ex x = true -> at_ x (k_face (p_cache p)) = Done (faces x).
Proof. intros Ex. destruct (good_cache g Hg own st r Hgood Ir) as (_ & _ & F & _). unfold at_. rewrite (F x Ex). reflexivity. Qed.
Lemma tile_r : tiling m ex.
Proof. apply mesh_r. Qed.
Lemma bal_r : balanced m t (default_hood_of n) ex.
Proof. apply mesh_r. Qed.
Lemma Ec_r : ex c = true.
Proof. rewrite ex_r. assumption. Qed.
Lemma sib_r x : valid m x -> 0 < lvl_of m x -> get_parent m x = P -> ex x = true.
Proof.
  intros Vx Lx E. rewrite ex_r. apply Hsib. split; [apply (own_valid g own st Hgood); assumption|]. split; [assumption|]. split; [assumption|]. split; [assumption|congruence].
Qed.
Lemma vis_ex x : vis x -> ex x = true /\ nb x.
Proof.
  intros V. destruct (visited_near m (proj1 Hg) t n (proj1 (proj2 Hg)) ex tile_r bal_r c Ec_r Hc sib_r x V) as [Ex N].
  split; [assumption|]. apply (nbP_iff m (proj1 Hg) t n (proj1 (proj2 Hg)) ex tile_r c Ec_r Hc sib_r x Ex). assumption.
Qed.

Definition stepf := fun '(pd, ps) x => if (x =? error_cell) || mem x pd then (pd, ps) else
          if is_neighbor n m t P x then (pd, sins x ps) else (adds x pd, ps).
Lemma step_fold ns : forall pd ps, StronglySorted Z.lt ps ->
  let '(pd', ps') := fold_left stepf ns (pd, ps) in
  StronglySorted Z.lt ps' /\
  (forall x, In x pd -> In x pd') /\ (forall x, In x pd' -> In x pd \/ ~ nb x) /\
  (forall x, In x ps -> In x ps') /\ (forall x, In x ps' -> In x ps \/ In x ns /\ x <> error_cell /\ nb x /\ ~ In x pd) /\
  (forall x, In x ns -> x <> error_cell -> nb x -> In x pd \/ In x ps').
Proof.
  induction ns as [|a ns IH]; intros pd ps S; cbn [fold_left].
  - repeat match goal with |- _ /\ _ => split end; auto. intros x [].
  - unfold stepf at 2. destruct ((a =? error_cell) || mem a pd) eqn:E1.
    { specialize (IH pd ps S). destruct (fold_left stepf ns (pd, ps)) as [pd' ps']. destruct IH as (I0 & I1 & I2 & I3 & I4 & I5).
      repeat match goal with |- _ /\ _ => split end; auto.
      - intros x Hx. destruct (I4 x Hx) as [Q|(Q & R)]; [auto|]. right. cbn [In]. auto.
      - intros x [<-|Hx] N NB; [|auto]. apply orb_true_iff in E1. destruct E1 as [E1|E1]; [apply Z.eqb_eq in E1; contradiction|]. apply mem_In in E1. auto. }
    apply orb_false_iff in E1. destruct E1 as [E1 E2]. apply Z.eqb_neq in E1. apply mem_not in E2.
    destruct (is_neighbor n m t P a) eqn:E3.
    + specialize (IH pd (sins a ps) (sins_sorted a ps S)). destruct (fold_left stepf ns (pd, sins a ps)) as [pd' ps']. destruct IH as (I0 & I1 & I2 & I3 & I4 & I5).
      repeat match goal with |- _ /\ _ => split end; auto.
      * intros x Hx. apply I3. apply sins_In. auto.
      * intros x Hx. destruct (I4 x Hx) as [Q|(Q & R)]; [|right; cbn [In]; auto]. apply sins_In in Q. destruct Q as [->|Q]; [|auto]. right. cbn [In]. repeat split; auto.
      * intros x [<-|Hx] N NB; [|auto]. right. apply I3. apply sins_In. auto.
    + specialize (IH (adds a pd) ps S). destruct (fold_left stepf ns (adds a pd, ps)) as [pd' ps']. destruct IH as (I0 & I1 & I2 & I3 & I4 & I5).
      assert (~ nb a) as Na by (unfold nbP; rewrite E3; discriminate).
      repeat match goal with |- _ /\ _ => split end; auto.
      * intros x Hx. apply I1. apply adds_In. auto.
      * intros x Hx. destruct (I2 x Hx) as [Q|Q]; [|auto]. apply adds_In in Q. destruct Q as [->|Q]; auto.
      * intros x Hx. destruct (I4 x Hx) as [Q|(Q1 & Q2 & Q3 & Q4)]; [auto|]. right. cbn [In]. repeat split; auto. intros Q. apply Q4. apply adds_In. auto.
      * intros x [<-|Hx] N NB; [contradiction|]. destruct (I5 x Hx N NB) as [Q|Q]; [|auto]. apply adds_In in Q. destruct Q as [->|Q]; [contradiction|auto].
Qed.

Lemma near_ok_spec fuel : forall pd processed process,
  NoDup pd -> (forall x, In x pd -> In x processed) -> (forall x, In x processed -> In x pd \/ ~ nb x) ->
  (forall x, In x pd -> vis x /\ ~ bd x) ->
  StronglySorted Z.lt process -> (forall x, In x process -> vis x /\ ~ In x pd) ->
  (forall x, In x (faces c) -> x <> error_cell -> In x pd \/ In x process) ->
  (forall x y, In x pd -> In y (faces x) -> y <> error_cell -> nb y -> In y pd \/ In y process) ->
  (length (s_proc (p_store p)) <= fuel + length pd)%nat ->
  exists b, near_ok g fuel p toref P (lvl_of m c) processed process = Done b /\ (b = true <-> forall x, vis x -> ~ bd x).
Proof.
  induction fuel as [|fuel IH]; intros pd processed process N I1 I2 I3 I4 I5 I6 I7 F.
  all: assert (process = [] -> forall x, vis x -> ~ bd x) as Fin by
    (intros -> x Vx; enough (In x pd) by (apply I3; assumption); induction Vx as [x Hx Nx|x y Vx IHx Hy Ny NB];
     [destruct (I6 x Hx Nx) as [|[]]; assumption|destruct (I7 x y IHx Hy Ny NB) as [|[]]; assumption]).
  - cbn [near_ok]. destruct process as [|next rest]; [exists true; split; [reflexivity|]; split; auto|]. exfalso.
    assert (NoDup (next :: pd)) as ND. { constructor; [apply I5; left; reflexivity|assumption]. }
    assert (incl (next :: pd) (keys (s_proc (p_store p)))) as Inc.
    { intros x Hx. apply (store_keys own r _ x store_r). rewrite <- ex_r. apply vis_ex. destruct Hx as [<-|Hx]; [apply I5; left; reflexivity|apply I3; assumption]. }
    pose proof (NoDup_incl_length ND Inc) as L. unfold keys in L. rewrite map_length in L. cbn [length] in L. lia.
  - cbn [near_ok]. destruct process as [|next rest]; [exists true; split; [reflexivity|]; split; auto|]. clear Fin.
    destruct (I5 next (or_introl eq_refl)) as [Vn Nn]. destruct (vis_ex next Vn) as [En NBn]. rewrite (faces_r next En). cbn [bind].
    apply StronglySorted_inv in I4. destruct I4 as [I4 I4']. rewrite Forall_forall in I4'.
    change (fun '(pd, ps) n0 => if (n0 =? error_cell) || mem n0 pd then (pd, ps) else if is_neighbor n m t P n0 then (pd, sins n0 ps) else (adds n0 pd, ps)) with stepf.
    pose proof (step_fold (faces next) (adds next processed) rest I4) as SF. destruct (fold_left stepf (faces next) (adds next processed, rest)) as [processed' process'].
    destruct SF as (S0 & S1 & S2 & S3 & S4 & S5).
    assert (bd next \/ ~ bd next /\ (lvl_of m next < lvl_of m c \/ lvl_of m next = lvl_of m c /\ ~ In next toref)) as Db.
    { unfold bad. destruct (Z_lt_le_dec (lvl_of m next) (lvl_of m c)); [right; split; [lia|auto]|]. destruct (Z.eq_dec (lvl_of m next) (lvl_of m c)); [|left; left; lia].
      destruct (in_dec Z.eq_dec next toref); [left; right; auto|right]. split; [|auto]. intros [?|[_ ?]]; [lia|contradiction]. }
    assert (~ bd next -> exists b, near_ok g fuel p toref P (lvl_of m c) processed' process' = Done b /\ (b = true <-> forall x, vis x -> ~ bd x)) as Rec.
    { intros Gn. apply (IH (next :: pd)).
      - constructor; assumption.
      - intros x [<-|Hx]; apply S1, adds_In; auto.
      - intros x Hx. destruct (S2 x Hx) as [Q|Q]; [|auto]. apply adds_In in Q. cbn [In]. destruct Q as [->|Q]; [auto|]. destruct (I2 x Q); auto.
      - intros x [<-|Hx]; auto.
      - assumption.
      - intros x Hx. cbn [In]. destruct (S4 x Hx) as [Q|(Q1 & Q2 & Q3 & Q4)].
        + split; [apply I5; right; assumption|]. intros [<-|Q']; [specialize (I4' next Q); lia|]. apply (I5 x (or_intror Q)). assumption.
        + split; [apply vis_next with next; assumption|]. intros Q. apply Q4. apply adds_In. destruct Q as [<-|Q]; auto.
      - intros x Hx Nx. cbn [In]. destruct (I6 x Hx Nx) as [Q|[Q|Q]]; auto.
      - intros x y [<-|Hx] Hy Ny NB; cbn [In].
        + destruct (S5 y Hy Ny NB) as [Q|Q]; [|auto]. apply adds_In in Q. destruct Q as [->|Q]; [auto|]. destruct (I2 y Q); [auto|contradiction].
        + destruct (I7 x y Hx Hy Ny NB) as [Q|[Q|Q]]; auto.
      - cbn [length]. lia. }
    assert (bd next -> false = true <-> (forall x, vis x -> ~ bd x)) as Bad by (intros Q; split; [discriminate|]; intros Q'; exfalso; apply (Q' next); assumption).
    fold (lvl_of m next). destruct Db as [B|[B [L|[L Nt]]]].
    + exists false. split; [|apply Bad; assumption]. destruct B as [B|[B1 B2]].
      * replace (lvl_of m next <? lvl_of m c) with false by lia. replace (lvl_of m next =? lvl_of m c) with false by lia. reflexivity.
      * replace (lvl_of m next <? lvl_of m c) with false by lia. replace (lvl_of m next =? lvl_of m c) with true by lia. rewrite (proj2 (mem_In next toref)) by assumption. reflexivity.
    + replace (lvl_of m next <? lvl_of m c) with true by lia. apply Rec. assumption.
    + replace (lvl_of m next <? lvl_of m c) with false by lia. replace (lvl_of m next =? lvl_of m c) with true by lia. rewrite (proj2 (mem_not next toref)) by assumption. apply Rec. assumption.
Qed.

(** the family may be merged: no member is to be refined or protected, and nothing in the
    neighborhood of the parent is smaller than the family, now or after the commit *)
Definition mergeable (nounref : list Z) : Prop :=
  (forall s, siblings g c s -> ~ In s toref /\ ~ In s nounref) /\
  forall x, exo own x = true -> sees m t H P x -> lvl_of m x <= lvl_of m c /\ (lvl_of m x = lvl_of m c -> ~ In x toref).

Lemma family_list s : In s (get_all_children m P) <-> siblings g c s.
Proof.
  pose proof Hg as (Hwf & _). pose proof (own_valid g own st Hgood c Ec) as Vc. pose proof (parent_facts m Hwf c Vc Hc) as (VP & LP & SP & _). cbn zeta in *.
  pose proof (cell_level m Hwf c Vc). pose proof (cell_level m Hwf P VP).
  rewrite (children_list m Hwf P VP ltac:(lia)), in_map_iff. split.
  - intros (e & <- & He). pose proof (kid_facts m Hwf P e VP ltac:(lia) He) as (Ve & Le & Se & Ie). cbn zeta in *.
    split; [assumption|]. split; [assumption|]. split; [assumption|]. split; [lia|].
    symmetry. apply (kid_parent_eq m Hwf (kid_at m P e) (idx_of m (kid_at m P e)) P); auto; [lia|apply covers_own; auto|].
    apply (kid_covers m Hwf P e); auto; [lia|apply covers_own; auto].
  - intros (_ & Vs & _ & Ls & E). pose proof (in_parent m Hwf s Vs Ls) as [He Ek]. cbn zeta in *. rewrite <- E in *.
    exists (vsub (idx_of m s) (idx_of m P)). split; [assumption|].
    replace (2 ^ (m_max m - (lvl_of m P + 1))) with (len_of m s); [assumption|]. rewrite (cell_len m Hwf s Vs).
    pose proof (parent_facts m Hwf s Vs Ls) as (_ & Lp & _). cbn zeta in *. rewrite <- E in Lp. f_equal. lia.
Qed.

Lemma can_unrefine_ok nounref : exists b, can_unrefine g p toref nounref c = Done b /\ (b = true <-> mergeable nounref).
Proof.
  pose proof Hg as (Hwf & Hn & _). unfold can_unrefine.
  destruct (existsb (fun s => negb (s =? error_cell) && (mem s toref || mem s nounref)) (get_all_children m P)) eqn:Ee.
  - exists false. split; [reflexivity|]. split; [discriminate|]. intros [Q _]. exfalso. apply existsb_exists in Ee. destruct Ee as (s & Hs & Es).
    apply family_list in Hs. destruct (Q s Hs) as [Q1 Q2]. apply andb_true_iff in Es. destruct Es as [_ Es]. apply orb_true_iff in Es. rewrite !mem_In in Es. tauto.
  - assert (forall s, siblings g c s -> ~ In s toref /\ ~ In s nounref) as Sb.
    { intros s Hs. assert (s <> error_cell) as Ns by (destruct Hs as (_ & V & _); unfold valid in V; unfold error_cell; lia).
      apply family_list in Hs. rewrite <- !mem_not. destruct (mem s toref || mem s nounref) eqn:Eo; [|apply orb_false_iff; assumption]. exfalso.
      assert (existsb (fun s => negb (s =? error_cell) && (mem s toref || mem s nounref)) (get_all_children m P) = true); [|congruence].
      apply existsb_exists. exists s. split; [assumption|]. rewrite Eo. destruct (Z.eqb_spec s error_cell); [contradiction|reflexivity]. }
    rewrite (faces_r c Ec_r). cbn [bind]. fold (lvl_of m c). destruct (fold_sins (faces c)) as [FS FI].
    destruct (near_ok_spec (length (s_proc (p_store p))) [] [] (filter (fun x => negb (x =? error_cell)) (fold_right sins [] (faces c)))) as (b & Eb & Pb).
    + constructor.
    + intros x [].
    + intros x [].
    + intros x [].
    + apply filter_sorted. assumption.
    + intros x Hx. apply filter_In in Hx. destruct Hx as [Hx Nx]. apply FI in Hx. apply negb_true_iff, Z.eqb_neq in Nx. split; [apply vis_start; assumption|intros []].
    + intros x Hx Nx. right. apply filter_In. split; [apply FI; assumption|]. apply negb_true_iff, Z.eqb_neq. assumption.
    + intros x y [].
    + cbn [length]. lia.
    + exists b. split; [assumption|]. rewrite Pb.
      rewrite (search_complete m Hwf t n Hn ex tile_r bal_r c Ec_r Hc sib_r (fun x => In x toref)). split.
      * intros G. split; [assumption|]. intros x Ex Sx. rewrite <- ex_r in Ex. pose proof (G x Ex (or_intror Sx)) as B. unfold bad in B. split; [lia|]. intros E Q. apply B. auto.
      * intros [_ G] x Ex [I|Sx].
        -- pose proof (inside_lvl m Hwf x P I) as Li.
           destruct (meets_P m Hwf ex tile_r c Ec_r Hc sib_r x (idx_of m x) Ex) as [_ Lx]; [apply covers_own; [assumption|apply I]|apply (inside_own m Hwf x P I)|].
           unfold bad. intros [?|[_ Q]]; [lia|]. refine (proj1 (Sb x _) Q). 
           pose proof (own_valid g own st Hgood c Ec) as Vc. pose proof (parent_facts m Hwf c Vc Hc) as (_ & LP & _). cbn zeta in LP.
           split; [assumption|]. split; [apply I|]. split; [assumption|]. split; [lia|]. symmetry. apply (inside_parent_eq m Hwf x P I). lia.
        -- rewrite ex_r in Ex. destruct (G x Ex Sx) as [G1 G2]. unfold bad. intros [?|[? ?]]; [lia|]. apply G2; assumption.
Qed.
End One.

(** ** All processes *)
(** families that are merged, by one of their members *)
Definition unrefined (c : Z) : Prop :=
  asked g st r_unref c /\
  (forall s, siblings g c s -> ~ all_refined g own st s /\ ~ asked g st r_nounref s) /\
  forall x, exo own x = true -> sees m t H (get_parent m c) x ->
    lvl_of m x <= lvl_of m c /\ (lvl_of m x = lvl_of m c -> ~ all_refined g own st x).

Lemma filterM_ok {A} (f : A -> outcome bool) (Q : A -> Prop) l : (forall a, In a l -> exists b, f a = Done b /\ (b = true <-> Q a)) ->
  exists l', filterM f l = Done l' /\ forall a, In a l' <-> In a l /\ Q a.
Proof.
  induction l as [|a l IH]; intros Hf; [exists []; split; [reflexivity|cbn; tauto]|]. destruct (Hf a (or_introl eq_refl)) as (b & Eb & Pb).
  destruct IH as (l' & El & Pl); [intros; apply Hf; right; assumption|]. cbn [filterM]. rewrite Eb. cbn [bind]. rewrite El. cbn [bind]. eexists. split; [reflexivity|].
  intros x. destruct b; cbn [In]; rewrite Pl.
  - split; [intros [<-|[? ?]]; [split; [auto|apply Pb; reflexivity]|auto]|]. intros [[->|?] ?]; auto.
  - split; [intros [? ?]; auto|]. intros [[->|?] Hq]; [|auto]. exfalso. apply Pb in Hq. discriminate.
Qed.

Lemma asked_unref c : asked g st r_unref c -> exo own c = true /\ 0 < lvl_of m c /\ (forall s, siblings g c s -> exo own s = true).
Proof.
  intros (r & Ir & Hc). destruct Hgood as [_ Hr]. destruct (Hr r Ir) as (_ & _ & _ & Q). destruct (Q c Hc) as (O & L & S).
  split; [apply exo_some; eauto|auto].
Qed.

Lemma override_unrefines_ok (toref : Z -> list Z) : (forall r c, In r (ranks g) -> In c (toref r) <-> all_refined g own st c) ->
  exists l, override_unrefines g st toref = Done l /\ forall r c, In r (ranks g) -> In c (l r) <-> unrefined c.
Proof.
  intros Ht. unfold override_unrefines.
  set (nounref := fun r => addall (gather g (fun q => r_nounref (p_req (st q)))) (r_nounref (p_req (st r)))).
  assert (forall r c, In r (ranks g) -> In c (nounref r) <-> asked g st r_nounref c) as Nn.
  { intros r c Ir. unfold nounref. rewrite addall_In, gather_In. unfold asked. split; [|auto]. intros [Q|Q]; eauto. }
  destruct (collect_ok (ranks g) (fun r => filterM (can_unrefine g (st r) (toref r) (nounref r)) (r_unref (p_req (st r)))) (fun _ => [])
    (fun r l => forall c, In c l <-> In c (r_unref (p_req (st r))) /\ mergeable c (toref r) (nounref r))) as (fin & Ef & Pf).
  { intros r Ir. apply filterM_ok. intros c Hc. destruct (asked_unref c) as (E & L & S); [exists r; auto|]. apply can_unrefine_ok; assumption. }
  unfold each. unfold nounref in Ef. rewrite Ef. cbn [bind]. eexists. split; [reflexivity|]. cbn beta. intros r c Ir.
  rewrite addall_In, gather_In. cbn [In]. split.
  - intros [(q & Iq & Hc)|[]]. apply Pf in Hc; [|assumption]. destruct Hc as [Hc [M1 M2]]. split; [exists q; auto|]. split.
    + intros s Hs. destruct (M1 s Hs) as [A B]. rewrite (Ht q s Iq) in A. change (~ In s (nounref q)) in B. rewrite (Nn q s Iq) in B. auto.
    + intros x Ex Sx. destruct (M2 x Ex Sx) as [A B]. split; [assumption|]. intros E. rewrite <- (Ht q x Iq). auto.
  - intros ((q & Iq & Hc) & M1 & M2). left. exists q. split; [assumption|]. apply Pf; [assumption|]. split; [assumption|]. split.
    + intros s Hs. destruct (M1 s Hs) as [A B]. rewrite (Ht q s Iq). change (~ all_refined g own st s /\ ~ In s (nounref q)). rewrite (Nn q s Iq). auto.
    + intros x Ex Sx. destruct (M2 x Ex Sx) as [A B]. split; [assumption|]. intros E. rewrite (Ht q x Iq). auto.
Qed.
End Merge.
