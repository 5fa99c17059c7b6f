(** The collective decisions on refining: protection spreads to finer neighbors
    (override_refines), refinement spreads to coarser neighbors (induce_refines). *)
From Verif Require Import U64 MapModel MapSpec MapProofs MapFamily MapProps HoodModel MeshModel
  MeshSpec MeshBase HoodProps MeshWalk MeshFind MeshKids MeshItem MeshCheck MeshTo MeshNear
  Sets RefineModel RefineGeo RefineInv.
Open Scope Z_scope.

Section Spread.
Context {D : Type} (g : grid) (Hg : grid_ok g).
Notation m := (g_map g).
Notation t := (g_topo g).
Notation n := (g_len g).
Notation H := (g_hood g).
Notation linked := (linked g).

(** existing cells one of which is in the neighborhood of the other, b being smaller *)
Definition up (own : Z -> option Z) (a b : Z) : Prop :=
  exo own a = true /\ exo own b = true /\ linked a b /\ lvl_of m a < lvl_of m b.

(** the given cells and cells connected to them by a chain of ever smaller neighbors *)
Inductive protected (own : Z -> option Z) (D0 : Z -> Prop) : Z -> Prop :=
| prot_given c : D0 c -> protected own D0 c
| prot_next a b : protected own D0 a -> up own a b -> protected own D0 b.

(** the given cells and cells connected to them by a chain of ever larger neighbors *)
Inductive forced (own : Z -> option Z) (R0 : Z -> Prop) : Z -> Prop :=
| forced_given c : R0 c -> forced own R0 c
| forced_next a b : forced own R0 a -> up own b a -> forced own R0 b.

Lemma linked_sym a b : linked a b -> linked b a.
Proof. unfold RefineInv.linked. tauto. Qed.

(** ** What ranks ask for *)
Definition asked (st : Z -> proc D) (f : reqs -> list Z) (c : Z) : Prop :=
  exists r, In r (ranks g) /\ In c (f (p_req (st r))).
Definition all_protected (own : Z -> option Z) (st : Z -> proc D) : Z -> Prop := protected own (asked st r_noref).
Definition all_refined (own : Z -> option Z) (st : Z -> proc D) : Z -> Prop :=
  forced own (fun c => asked st r_ref c /\ ~ all_protected own st c).

Section Fixed.
Context (own : Z -> option Z) (st : Z -> proc D) (Hgood : good g own st).

Lemma own_valid c : exo own c = true -> valid m c.
Proof. intros E. destruct Hgood as [[(_ & _ & T & _) _] _]. apply (leaf_valid m _ T). assumption. Qed.
Lemma own_level c : exo own c = true -> 0 <= lvl_of m c <= m_max m.
Proof. intros E. apply cell_level; [apply Hg|apply own_valid; assumption]. Qed.

Lemma both_lists r c : In r (ranks g) -> exo own c = true ->
  exists a b, find c (k_of (p_cache (st r))) = Some a /\ find c (k_to (p_cache (st r))) = Some b /\
    forall x, In x (map fst a ++ b) <-> exo own x = true /\ linked c x.
Proof.
  intros Ir Ec. destruct (good_cache g Hg own st r Hgood Ir) as (Sof & Sto & _).
  destruct (Sof c Ec) as (a & Fa & Pa). destruct (Sto c Ec) as (b & Fb & Pb).
  exists a, b. split; [assumption|]. split; [assumption|]. intros x. rewrite in_app_iff, Pa, Pb. unfold RefineInv.linked. tauto.
Qed.

Lemma spread_ok r old donts : In r (ranks g) ->
  exists l, spread g (st r) old donts = Done l /\
    forall b, In b l <-> ~ In b old /\ ~ In b donts /\ exists a, In a donts /\ up own a b.
Proof.
  intros Ir. destruct Hgood as [Hw Hr]. destruct (Hr r Ir) as (Hs & _).
  destruct (mapM_concat (spread_one g (st r) old donts) (fun a b => ~ In b old /\ ~ In b donts /\ up own a b) donts) as (bs & E & P).
  - intros a Ha. unfold spread_one. rewrite (exb_exo own r _ a Hs). destruct (exo own a) eqn:Ea; cbn [negb].
    + destruct (both_lists r a Ir Ea) as (x & y & Fx & Fy & Pxy). unfold at_. rewrite Fx, Fy. cbn [bind].
      eexists. split; [reflexivity|]. intros b. rewrite filter_In, Pxy. unfold up. fold (lvl_of m a) (lvl_of m b).
      rewrite andb_true_iff, negb_true_iff, orb_false_iff, !mem_not, Z.ltb_lt. tauto.
    + exists []. split; [reflexivity|]. intros b. cbn [In]. unfold up. split; [intros []|intros (_ & _ & Q & _); congruence].
  - unfold spread. rewrite E. cbn [bind]. eexists. split; [reflexivity|]. intros b. rewrite P. split.
    + intros (a & Ha & Q1 & Q2 & U). eauto.
    + intros (Q1 & Q2 & a & Ha & U). eauto.
Qed.

Lemma donts_loop_ok (D0 : Z -> Prop) fuel : forall (notref old : Z -> list Z) new k,
  (forall r c, In r (ranks g) -> In c (notref r) \/ In c (old r) -> protected own D0 c) ->
  (forall c, In c new -> protected own D0 c) ->
  (forall c, D0 c -> exists r, In r (ranks g) /\ (In c (notref r) \/ In c (old r))) ->
  (forall r a b, In r (ranks g) -> In a (old r) -> up own a b -> In b (old r) \/ In b (notref r) \/ In b new) ->
  (forall r c, In r (ranks g) -> In c (notref r) \/ In c new -> exo own c = true -> k <= lvl_of m c) ->
  m_max m <= Z.of_nat fuel + k ->
  exists res, donts_loop g fuel st notref old new = Done res /\
    forall c, (exists r, In r (ranks g) /\ In c (res r)) <-> protected own D0 c.
Proof.
  induction fuel as [|fuel IH]; intros notref old new k I1 I1' I2 I3 Hk Hf; cbn [donts_loop];
  set (donts := fun r => addall (notref r) (addall new []));
  assert (forall r c, In c (donts r) <-> In c (notref r) \/ In c new) as Dn
    by (intros r c; unfold donts; rewrite !addall_In; cbn [In]; tauto);
  destruct (collect_ok (ranks g) (fun r => spread g (st r) (old r) (donts r)) (fun _ => [])
    (fun r l => forall b, In b l <-> ~ In b (old r) /\ ~ In b (donts r) /\ exists a, In a (donts r) /\ up own a b)) as (news & En & Pn);
  try (intros r Ir; apply spread_ok; assumption);
  unfold each; unfold donts in En; rewrite En; cbn [bind];
  assert (forall r c, In c (addall (donts r) (old r)) <-> In c (notref r) \/ In c new \/ In c (old r)) as On
    by (intros r c; rewrite addall_In, Dn; tauto);
  assert (forall c, In c (addall (gather g news) []) <-> exists r, In r (ranks g) /\ In c (news r)) as Gn
    by (intros c; rewrite addall_In, gather_In; cbn [In]; tauto);
  (assert (addall (gather g news) [] = [] -> forall c, (exists r, In r (ranks g) /\ In c (addall (donts r) (old r))) <-> protected own D0 c) as Fin;
   [intros Em c; split;
    [intros (r & Ir & Hc); apply On in Hc; destruct Hc as [Q|[Q|Q]]; eauto
    |intros Pc; induction Pc as [c Hc|a b _ IHa U];
      [destruct (I2 c Hc) as (r & Ir & Q); exists r; split; [assumption|]; apply On; tauto
      |destruct IHa as (r & Ir & Ha); exists r; split; [assumption|]; apply On;
       apply On in Ha;
       destruct (in_dec Z.eq_dec b (old r)) as [|N1]; [tauto|];
       destruct (in_dec Z.eq_dec b (donts r)) as [Q|N2]; [apply Dn in Q; tauto|];
       assert (In a (old r) \/ In a (donts r)) as [Q|Q] by (rewrite Dn; tauto);
       [destruct (I3 r a b Ir Q U) as [?|[?|?]]; tauto|];
       exfalso; assert (In b (addall (gather g news) [])) as Z0 by (apply Gn; exists r; split; [assumption|]; apply Pn; [assumption|]; eauto);
       rewrite Em in Z0; destruct Z0]]|]);
  destruct (addall (gather g news) []) as [|b0 bs] eqn:Eb.
  - eexists. split; [reflexivity|]. apply Fin. reflexivity.
  - exfalso. destruct (proj1 (Gn b0) (or_introl eq_refl)) as (r & Ir & Hb). apply Pn in Hb; [|assumption].
    destruct Hb as (_ & _ & a & Ha & U). apply Dn in Ha. pose proof U as (Ea & Ebb & _ & Hl). pose proof (Hk r a Ir Ha Ea). pose proof (own_level b0 Ebb). lia.
  - eexists. split; [reflexivity|]. apply Fin. reflexivity.
  - rewrite <- Eb in *. clear Eb.
    assert (forall b, In b (addall (gather g news) []) -> exists r a, In r (ranks g) /\ (In a (notref r) \/ In a new) /\ up own a b) as Nb.
    { intros b Hb. apply Gn in Hb. destruct Hb as (r & Ir & Hb). apply Pn in Hb; [|assumption]. destruct Hb as (_ & _ & a & Ha & U).
      apply Dn in Ha. eauto. }
    apply IH with (k := k + 1).
    + intros r c Ir [[]|Hc]. apply On in Hc. destruct Hc as [Q|[Q|Q]]; eauto.
    + intros b Hb. destruct (Nb b Hb) as (r & a & Ir & Ha & U). apply prot_next with a; [|assumption]. destruct Ha; eauto.
    + intros c Hc. destruct (I2 c Hc) as (r & Ir & Q). exists r. split; [assumption|]. right. apply On. tauto.
    + intros r a b Ir Ha U. change (In b (addall (donts r) (old r)) \/ In b [] \/ In b (addall (gather g news) [])). rewrite On. destruct (in_dec Z.eq_dec b (old r)) as [|N1]; [tauto|].
      destruct (in_dec Z.eq_dec b (donts r)) as [Q|N2]; [apply Dn in Q; tauto|].
      apply On in Ha. assert (In a (old r) \/ In a (donts r)) as [Q|Q] by (rewrite Dn; tauto).
      * destruct (I3 r a b Ir Q U) as [?|[?|?]]; tauto.
      * right. right. apply Gn. exists r. split; [assumption|]. apply Pn; [assumption|]. eauto.
    + intros r b Ir [[]|Hb] Ebb. destruct (Nb b Hb) as (r' & a & Ir' & Ha & U). pose proof U as (Ea & _ & _ & Hl).
      pose proof (Hk r' a Ir' Ha Ea). lia.
    + lia.
Qed.

Lemma override_refines_ok : exists x, override_refines g st = Done x /\ forall r c, In r (ranks g) ->
  (In c (fst (x r)) <-> all_protected own st c) /\
  (In c (snd (x r)) <-> asked st r_ref c /\ ~ all_protected own st c).
Proof.
  destruct (donts_loop_ok (asked st r_noref) (level_fuel g) (fun r => r_noref (p_req (st r))) (fun _ => []) [] 0) as (old & Eo & Po).
  - intros r c Ir [Hc|[]]. apply prot_given. exists r. auto.
  - intros c [].
  - intros c (r & Ir & Hc). eauto.
  - intros r a b Ir [].
  - intros r c Ir _ Ec. apply own_level. assumption.
  - unfold level_fuel. lia.
  - unfold override_refines. rewrite Eo. cbn [bind]. eexists. split; [reflexivity|]. cbn beta. intros r c Ir. cbn [fst snd].
    assert (forall r c, In r (ranks g) -> In c (addall (gather g old) (old r)) <-> all_protected own st c) as Pn.
    { intros r' c' Ir'. rewrite addall_In, gather_In, Po. split; [|auto]. intros [Q|Q]; [assumption|]. apply Po. eauto. }
    split; [apply Pn; assumption|]. rewrite addall_In, gather_In. cbn [In]. split.
    + intros [(q & Iq & Hc)|[]]. apply delall_In in Hc. destruct Hc as [Hc Nc]. split; [exists q; auto|]. intros P. apply Nc. apply Pn; assumption.
    + intros [(q & Iq & Hc) Np]. left. exists q. split; [assumption|]. apply delall_In. split; [assumption|]. intros Q. apply Np. apply (Pn q c Iq), Q.
Qed.

(** ** Induced refines *)
Lemma asked_ref c : asked st r_ref c -> exo own c = true /\ lvl_of m c < m_max m.
Proof.
  intros (r & Ir & Hc). destruct Hgood as [_ Hr]. destruct (Hr r Ir) as (_ & _ & Q & _). destruct (Q c Hc) as (O & L).
  split; [apply exo_some; eauto|assumption].
Qed.
Lemma forced_ex (R0 : Z -> Prop) c : (forall c, R0 c -> exo own c = true) -> forced own R0 c -> exo own c = true.
Proof. intros Q F. destruct F as [c Hc|a b _ U]; [apply Q, Hc|apply U]. Qed.

Lemma induced_ok r toref all : In r (ranks g) -> (forall q c, In q (ranks g) -> In c (all q) -> exo own c = true) ->
  (forall q c, In q (ranks g) -> In c (all q) -> own c = Some r -> In c (all r)) ->
  exists l, induced g r (st r) toref all = Done l /\
    (forall b, In b l -> own b = Some r /\ ~ In b toref /\ exists q a, In q (ranks g) /\ In a (all q) /\ up own b a) /\
    (forall b q a, In q (ranks g) -> In a (all q) -> up own b a -> own b = Some r -> In b toref \/ In b l).
Proof.
  intros Ir Hall Hloc. pose proof Hgood as [Hw Hr]. destruct (Hr r Ir) as (Hs & _). pose proof Hs as (Ps & _).
  destruct (good_cache g Hg own st r Hgood Ir) as (_ & _ & _ & (Bl & Br) & _).
  destruct (mapM_concat (induced_own g r (st r) toref) (fun a b => own b = Some r /\ ~ In b toref /\ up own b a) (all r)) as (bs & E & P).
  { intros a Ha. pose proof (Hall r a Ir Ha) as Ea. unfold induced_own.
    destruct (both_lists r a Ir Ea) as (x & y & Fx & Fy & Pxy). unfold at_ at 1 2. rewrite Fx, Fy. cbn [bind].
    destruct (mapM_concat (fun z => do w <- at_ z (s_proc (p_store (st r)));
        Done (if (w =? r) && (get_refinement_level m z <? get_refinement_level m a) && negb (mem z toref) then [z] else []))
      (fun z b => b = z /\ own z = Some r /\ lvl_of m z < lvl_of m a /\ ~ In z toref)
      (filter (fun z => negb (z =? error_cell)) (map fst x ++ y))) as (zs & Ez & Pz).
    - intros z Hz. apply filter_In in Hz. destruct Hz as [Hz _]. apply Pxy in Hz. destruct Hz as [Ez _]. apply exo_some in Ez. destruct Ez as (w & Ow).
      unfold at_. rewrite Ps, Ow. cbn [bind]. eexists. split; [reflexivity|]. intros b. fold (lvl_of m z) (lvl_of m a).
      destruct (Z.eqb_spec w r) as [->|Nw]; cbn [andb].
      + destruct (Z.ltb_spec (lvl_of m z) (lvl_of m a)); cbn [andb]; [|cbn [In]; split; [intros []|intros (_ & _ & ? & _); lia]].
        destruct (mem z toref) eqn:Em; cbn [negb In].
        * apply mem_In in Em. split; [intros []|intros (_ & _ & _ & Q); contradiction].
        * apply mem_not in Em. split; [intros [<-|[]]; auto|intros (-> & _); auto].
      + cbn [In]. split; [intros []|intros (_ & Q & _); congruence].
    - rewrite Ez. cbn [bind]. eexists. split; [reflexivity|]. intros b. rewrite Pz. split.
      + intros (z & Hz & -> & Oz & Lz & Nz). apply filter_In in Hz. destruct Hz as [Hz _]. apply Pxy in Hz. destruct Hz as [Exz Lk].
        split; [assumption|]. split; [assumption|]. split; [assumption|]. split; [assumption|]. split; [apply linked_sym; assumption|assumption].
      + intros (Ob & Nb & (Exb & _ & Lk & Lb)). exists b. split; [|auto]. apply filter_In. split; [apply Pxy; split; [assumption|apply linked_sym; assumption]|].
        pose proof (own_valid b Exb) as Vb. unfold valid in Vb. unfold error_cell. apply negb_true_iff. lia. }
  unfold induced. rewrite E. cbn [bind]. eexists. split; [reflexivity|].
  assert (forall a b, exo own a = true -> own a <> Some r -> In b (induced_other g (st r) toref a) <-> own b = Some r /\ ~ In b toref /\ up own b a) as Po.
  { intros a b Ea Oa. unfold induced_other. destruct (mem a (k_remote (p_cache (st r)))) eqn:Em; cbn [negb].
    - apply mem_In in Em. rewrite filter_In, !andb_true_iff, negb_true_iff, mem_not, Z.ltb_lt. fold (lvl_of m a) (lvl_of m b). split.
      + intros (Hb & (Hi & Lb) & Nb). apply Bl in Hb. destruct Hb as (x & Ob & _). assert (exo own b = true) as Eb by (apply exo_some; eauto).
        split; [assumption|]. split; [assumption|]. split; [assumption|]. split; [assumption|]. split; [|assumption].
        left. apply (c49_is_neighbor m t n b a) in Hi; [exact Hi|apply Hg|apply own_valid; assumption|apply own_valid; assumption| |apply Hg].
        destruct Hw as [(Hwf & _ & T & _) _]. apply (leaf_disjoint m Hwf (exo own) T b a Eb Ea). intros ->. congruence.
      + intros (Ob & Nb & (Eb & _ & Lk & Lb)). split.
        * apply Bl. exists a. split; [assumption|]. split; [assumption|]. split; [assumption|assumption].
        * split; [split; [|assumption]|assumption].
          assert (disjoint m b a) as Hd.
          { destruct Hw as [(Hwf & _ & T & _) _]. apply (leaf_disjoint m Hwf (exo own) T b a Eb Ea). intros ->. congruence. }
          apply (c49_is_neighbor m t n b a); [apply Hg|apply own_valid; assumption|apply own_valid; assumption|assumption|apply Hg|].
          destruct Lk as [Lk|Lk]; [exact Lk|]. apply (sees_flip m (proj1 Hg) t n (proj1 (proj1 (proj2 Hg)))); [apply own_valid; assumption|apply own_valid; assumption| | |exact Lk].
          -- apply disjoint_sym. assumption.
          -- apply len_le_lvl; [apply Hg|apply own_valid; assumption|apply own_valid; assumption|lia].
    - apply mem_not in Em. cbn [In]. split; [intros []|]. intros (Ob & _ & (Eb & _ & Lk & _)). apply Em. apply Br. exists b.
      split; [assumption|]. split; [assumption|]. split; assumption. }
  assert (forall a b, exo own a = true -> own a = Some r -> In b (induced_other g (st r) toref a) -> False) as Pno.
  { intros a b Ea Oa Hb. unfold induced_other in Hb. destruct (mem a (k_remote (p_cache (st r)))) eqn:Em; cbn [negb] in Hb; [|destruct Hb].
    apply mem_In in Em. apply Br in Em. destruct Em as (x & _ & _ & Q & _). contradiction. }
  split.
  - intros b Hb. apply addall_In in Hb. destruct Hb as [Hb|[]]. apply in_app_iff in Hb. destruct Hb as [Hb|Hb].
    + apply P in Hb. destruct Hb as (a & Ha & Q1 & Q2 & Q3). split; [assumption|]. split; [assumption|]. exists r, a. auto.
    + apply in_flat_map in Hb. destruct Hb as (q & Iq & Hb). destruct (q =? r); [destruct Hb|]. apply in_flat_map in Hb. destruct Hb as (a & Ha & Hb).
      pose proof (Hall q a Iq Ha) as Ea. assert (own a = Some r \/ own a <> Some r) as [Oa|Oa] by (destruct (own a) as [w|]; [destruct (Z.eq_dec w r); [left|right]; congruence|right; congruence]).
      * destruct (Pno a b Ea Oa Hb).
      * apply Po in Hb; [|assumption..]. destruct Hb as (Q1 & Q2 & Q3). split; [assumption|]. split; [assumption|]. exists q, a. auto.
  - intros b q a Iq Ha U Ob. destruct (in_dec Z.eq_dec b toref) as [|Nb]; [auto|right]. apply addall_In. left. apply in_app_iff.
    pose proof (Hall q a Iq Ha) as Ea.
    assert (own a = Some r \/ own a <> Some r) as [Oa|Oa] by (destruct (own a) as [w|]; [destruct (Z.eq_dec w r); [left|right]; congruence|right; congruence]).
    + left. apply P. exists a. split; [apply (Hloc q); assumption|auto].
    + destruct (Z.eq_dec q r) as [->|Nq]; [left; apply P; exists a; auto|].
      right. apply in_flat_map. exists q. split; [assumption|]. replace (q =? r) with false by lia. apply in_flat_map. exists a. split; [assumption|].
      apply Po; auto.
Qed.

Lemma induce_loop_ok (R0 : Z -> Prop) fuel : forall (toref new : Z -> list Z) B,
  (forall c, R0 c -> exo own c = true) ->
  (forall r c, In r (ranks g) -> In c (toref r) -> forced own R0 c) ->
  (forall r c, In r (ranks g) -> In c (new r) -> In c (toref r) /\ lvl_of m c <= B) ->
  (forall r q c, In r (ranks g) -> In q (ranks g) -> In c (new q) -> own c = Some r -> In c (new r)) ->
  (forall c, R0 c -> exists r, In r (ranks g) /\ In c (toref r)) ->
  (forall r a b, In r (ranks g) -> In a (toref r) -> up own b a -> (exists q, In q (ranks g) /\ In b (toref q)) \/ exists q, In q (ranks g) /\ In a (new q)) ->
  B < Z.of_nat fuel ->
  exists res, induce_loop g fuel st toref new = Done res /\
    forall c, (exists r, In r (ranks g) /\ In c (res r)) <-> forced own R0 c.
Proof.
  induction fuel as [|fuel IH]; intros toref new B H0 J1 J2 J3 J4 J5 HB;
    (assert (gather g new = [] -> forall c, (exists r, In r (ranks g) /\ In c (toref r)) <-> forced own R0 c) as Fin;
    [intros Em c; split; [intros (r & Ir & Hc); apply (J1 r); assumption|];
     intros F; induction F as [c Hc|a b _ (r & Ir & Ha) U]; [apply J4; assumption|];
     destruct (J5 r a b Ir Ha U) as [Q|(q & Iq & Hq)]; [assumption|];
     exfalso; assert (In a (gather g new)) as Z0 by (apply gather_In; eauto); rewrite Em in Z0; destruct Z0|]);
    cbn [induce_loop]; destruct (gather g new) as [|c0 cs] eqn:Eg.
  - eexists. split; [reflexivity|]. apply Fin. reflexivity.
  - exfalso. assert (In c0 (gather g new)) as Z0 by (rewrite Eg; left; reflexivity). apply gather_In in Z0. destruct Z0 as (r & Ir & Hc).
    destruct (J2 r c0 Ir Hc) as [Q1 Q2]. pose proof (own_level c0 (forced_ex R0 c0 H0 (J1 r c0 Ir Q1))). lia.
  - eexists. split; [reflexivity|]. apply Fin. reflexivity.
  - clear Fin Eg.
    destruct (collect_ok (ranks g) (fun r => induced g r (st r) (toref r) new) (fun _ => [])
      (fun r l => (forall b, In b l -> own b = Some r /\ ~ In b (toref r) /\ exists q a, In q (ranks g) /\ In a (new q) /\ up own b a) /\
        (forall b q a, In q (ranks g) -> In a (new q) -> up own b a -> own b = Some r -> In b (toref r) \/ In b l))) as (new' & En & Pn).
    { intros r Ir. apply induced_ok; [assumption| |].
      - intros q c Iq Hc. apply (forced_ex R0); [assumption|]. apply (J1 q); [assumption|]. apply J2; assumption.
      - intros q c Iq Hc Oc. apply (J3 r q); assumption. }
    unfold each. rewrite En. cbn [bind]. apply IH with (B := B - 1).
    + assumption.
    + intros r c Ir Hc. apply addall_In in Hc. destruct Hc as [Hc|Hc]; [|apply (J1 r); assumption].
      destruct (Pn r Ir) as (_ & P1 & _). destruct (P1 c Hc) as (_ & _ & q & a & Iq & Ha & U). apply forced_next with a; [|assumption].
      apply (J1 q); [assumption|]. apply J2; assumption.
    + intros r c Ir Hc. split; [apply addall_In; left; assumption|]. destruct (Pn r Ir) as (_ & P1 & _). destruct (P1 c Hc) as (_ & _ & q & a & Iq & Ha & (_ & _ & _ & L)).
      destruct (J2 q a Iq Ha) as [_ Q]. lia.
    + intros r q c Ir Iq Hc Oc. destruct (Pn q Iq) as (_ & P1 & _). destruct (P1 c Hc) as (O & _). replace r with q by congruence. assumption.
    + intros c Hc. destruct (J4 c Hc) as (r & Ir & Q). exists r. split; [assumption|]. apply addall_In. right. assumption.
    + intros r a b Ir Ha U. apply addall_In in Ha. destruct Ha as [Ha|Ha]; [right; eauto|].
      left. destruct (J5 r a b Ir Ha U) as [(q & Iq & Hq)|(q & Iq & Hq)].
      * exists q. split; [assumption|]. apply addall_In. right. assumption.
      * pose proof U as (Eb & _). apply exo_some in Eb. destruct Eb as (w & Ow). pose proof Hgood as [[_ Hown] _]. pose proof (Hown b w Ow) as Iw.
        destruct (Pn w Iw) as (_ & _ & P2). exists w. split; [assumption|]. apply addall_In.
        destruct (P2 b q a Iq Hq U Ow); [right|left]; assumption.
    + lia.
Qed.

Lemma induce_refines_ok (x : Z -> list Z) : (forall r c, In r (ranks g) -> In c (x r) <-> asked st r_ref c /\ ~ all_protected own st c) ->
  exists l, induce_refines g st x = Done l /\ forall r c, In r (ranks g) -> In c (l r) <-> all_refined own st c.
Proof.
  intros Hx. set (R0 := fun c => asked st r_ref c /\ ~ all_protected own st c).
  assert (exists r0, In r0 (ranks g)) as (r0 & I0) by (exists 0; apply in_ranks; destruct Hg as (_ & _ & _ & ?); lia).
  destruct (induce_loop_ok R0 (S (level_fuel g)) x x (m_max m)) as (l & El & Pl).
  - intros c (Q & _). apply asked_ref, Q.
  - intros r c Ir Hc. apply forced_given. apply (Hx r c Ir), Hc.
  - intros r c Ir Hc. split; [assumption|]. apply (Hx r c Ir) in Hc. destruct (asked_ref c (proj1 Hc)) as [_ Q]. lia.
  - intros r q c Ir Iq Hc _. apply (Hx r c Ir). apply (Hx q c Iq), Hc.
  - intros c Hc. exists r0. split; [assumption|]. apply (Hx r0 c I0), Hc.
  - intros r a b Ir Ha _. right. eauto.
  - unfold level_fuel. pose proof Hg as (Hwf & _). pose proof (wf_max_le_21 m Hwf). lia.
  - unfold induce_refines. rewrite El. cbn [bind]. eexists. split; [reflexivity|]. cbn beta. intros r c Ir. rewrite addall_In, gather_In, Pl. unfold all_refined. fold R0.
    split; [|auto]. intros [Q|Q]; [assumption|]. apply Pl. eauto.
Qed.

(** refined cells exist, are below the maximum level and are not protected; refining is closed
    under larger neighbors *)
Lemma refined_ok c : all_refined own st c -> exo own c = true /\ lvl_of m c < m_max m /\ ~ all_protected own st c.
Proof.
  intros F. induction F as [c [Q1 Q2]|a b _ (Ea & La & Na) U].
  - destruct (asked_ref c Q1). auto.
  - pose proof U as (Eb & _ & Lk & L). split; [assumption|]. split; [lia|]. intros P. apply Na. apply prot_next with b; assumption.
Qed.
Lemma refined_closed a b : all_refined own st a -> exo own b = true -> lvl_of m b < lvl_of m a -> linked a b -> all_refined own st b.
Proof.
  intros Ra Eb L Lk. apply forced_next with a; [assumption|]. split; [assumption|]. split; [apply refined_ok; assumption|]. split; [apply linked_sym; assumption|assumption].
Qed.
End Fixed.
End Spread.
