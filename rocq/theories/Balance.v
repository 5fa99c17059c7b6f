(** Load balancing: where every cell goes and what it carries. *)
From Verif Require Import U64 MapModel MapSpec MapProofs MapFamily HoodModel MeshModel
  MeshSpec MeshBase HoodProps Sets RefineModel RefineGeo RefineInv RefineFold RefineStop BalanceModel.
Open Scope Z_scope.

(** ** Lists of (key, value) *)
Lemma find_app {A} k (a b : list (Z * A)) : find k (a ++ b) = match find k a with Some v => Some v | None => find k b end.
Proof. induction a as [|[j v] a IH]; cbn [app find]; [reflexivity|]. destruct (k =? j); [reflexivity|apply IH]. Qed.
Lemma find_flat {A} k (F : Z -> list (Z * A)) qs q : In q qs -> (forall q', In q' qs -> q' <> q -> find k (F q') = None) ->
  find k (flat_map F qs) = find k (F q).
Proof.
  induction qs as [|x qs IH]; intros Hq Ho; [destruct Hq|]. cbn [flat_map]. rewrite find_app.
  destruct (in_dec Z.eq_dec q qs) as [Hi|Hi].
  - rewrite IH; [|assumption|intros; apply Ho; [right; assumption|assumption]]. destruct (Z.eq_dec x q) as [->|N]; [destruct (find k (F q)); reflexivity|].
    rewrite (Ho x); [reflexivity|left; reflexivity|assumption].
  - destruct Hq as [->|Hq]; [|contradiction]. destruct (find k (F q)); [reflexivity|].
    clear IH. assert (forall q', In q' qs -> find k (F q') = None) as Ho' by (intros q' Q; apply Ho; [right; assumption|intros ->; contradiction]).
    clear Ho Hi. induction qs as [|y qs IH]; [reflexivity|]. cbn [flat_map]. rewrite find_app, Ho' by (left; reflexivity). apply IH. intros; apply Ho'; right; assumption.
Qed.
Lemma find_flat_none {A} k (F : Z -> list (Z * A)) qs : (forall q, In q qs -> find k (F q) = None) -> find k (flat_map F qs) = None.
Proof.
  induction qs as [|y qs IH]; intros Ho; [reflexivity|]. cbn [flat_map]. rewrite find_app, Ho by (left; reflexivity). apply IH. intros; apply Ho; right; assumption.
Qed.
Lemma NoDup_app {A} (a b : list A) : NoDup a -> NoDup b -> (forall x, In x a -> ~ In x b) -> NoDup (a ++ b).
Proof.
  induction a as [|x a IH]; intros Na Nb Ha; [assumption|]. apply NoDup_cons_iff in Na. cbn [app]. constructor.
  - rewrite in_app_iff. intros [Q|Q]; [tauto|]. apply (Ha x); [left; reflexivity|assumption].
  - apply IH; [tauto|assumption|]. intros y Hy. apply Ha. right. assumption.
Qed.
Lemma flat_NoDup {A} (F : Z -> list (Z * A)) qs : NoDup qs -> (forall q, In q qs -> NoDup (keys (F q))) ->
  (forall q q' k, In q qs -> In q' qs -> In k (keys (F q)) -> In k (keys (F q')) -> q = q') -> NoDup (keys (flat_map F qs)).
Proof.
  induction qs as [|x qs IH]; intros N Nf Hd; [constructor|]. apply NoDup_cons_iff in N. cbn [flat_map]. unfold keys. rewrite map_app. apply NoDup_app.
  - apply Nf. left. reflexivity.
  - apply IH; [tauto|intros; apply Nf; right; assumption|]. intros q q' k Hq Hq'. apply Hd; right; assumption.
  - intros k Hk Hk'. apply in_map_iff in Hk'. destruct Hk' as (e & <- & He). apply in_flat_map in He. destruct He as (q & Hq & He).
    assert (x = q) as -> by (apply (Hd x q (fst e)); [left; reflexivity|right; assumption|assumption|apply in_map; assumption]). tauto.
Qed.
Lemma filter_snd_NoDup {A B} (P : A * B -> bool) l : NoDup (map fst l) -> NoDup (map fst (filter P l)).
Proof.
  induction l as [|e l IH]; intros N; cbn [filter map]; [constructor|]. cbn [map] in N. apply NoDup_cons_iff in N. destruct (P e); [|tauto]. cbn [map]. constructor; [|tauto].
  intros Q. apply N. apply in_map_iff in Q. destruct Q as (x & E & Q). apply filter_In in Q. rewrite <- E. apply in_map. apply Q.
Qed.
Lemma mapM_ok {A B} (f : A -> outcome B) (h : A -> B) l : (forall a, In a l -> f a = Done (h a)) -> mapM f l = Done (map h l).
Proof.
  induction l as [|a l IH]; intros F; cbn [mapM map]; [reflexivity|]. rewrite F by (left; reflexivity). cbn [bind]. rewrite IH by (intros; apply F; right; assumption). reflexivity.
Qed.

Section Balance.
Context {D : Type} (d0 : D) (g : grid) (Hg : grid_ok g).
Notation m := (g_map g).
Notation np := (g_np g).

(** pins, new pins and weights only refer to cells that exist and are known where they should be *)
Definition pins_ok (own : Z -> option Z) (st : Z -> proc D) : Prop :=
  (forall r q c, In r (ranks g) -> In q (ranks g) -> find c (s_pin (p_store (st r))) = find c (s_pin (p_store (st q)))) /\
  forall r, In r (ranks g) -> let s := p_store (st r) in
    (forall c q, find c (s_pin s) = Some q -> exo own c = true /\ 0 <= q < np) /\
    (forall c q, find c (s_newpin s) = Some q -> own c = Some r /\ 0 <= q <= np) /\
    (forall c w, find c (s_wt s) = Some w -> own c = Some r) /\
    NoDup (keys (s_pin s)) /\ NoDup (keys (s_newpin s)) /\ NoDup (keys (s_wt s)).

(** the partitioner's answers are consistent: every cell's new process is [dest], no answer
    meaning that the cell stays; entries naming the rank itself are ignored *)
Definition answers_ok (own : Z -> option Z) (z : Z -> answer) (dest : Z -> option Z) : Prop :=
  (forall c q, dest c = Some q -> exo own c = true /\ In q (ranks g)) /\
  ((forall r, In r (ranks g) -> z r = None) /\ (forall c, dest c = None) \/
   forall r, In r (ranks g) -> exists imp exp, z r = Some (imp, exp) /\ NoDup (map fst imp) /\ NoDup (map fst exp) /\
     (forall c q, q <> r -> In (c, q) imp <-> own c = Some q /\ dest c = Some r) /\
     (forall c q, q <> r -> In (c, q) exp <-> own c = Some r /\ dest c = Some q)).

Section One.
Context (own : Z -> option Z) (st : Z -> proc D) (Hgood : good g own st) (Hpins : pins_ok own st)
  (z : Z -> answer) (dest : Z -> option Z) (Hz : answers_ok own z dest).

(** the committed pin of a cell, and its pin after new requests are taken into account *)
Definition pinned (c : Z) : option Z := find c (s_pin (p_store (st 0))).
Definition newpin (c : Z) : option Z := match own c with Some q => find c (s_newpin (p_store (st q))) | None => None end.
Definition pin_after (c : Z) : option Z :=
  match newpin c with Some v => if np <=? v then None else Some v | None => pinned c end.
Definition target (c : Z) : option Z :=
  match own c with
  | None => None
  | Some o => match pin_after c with Some q => Some q | None => match dest c with Some q => Some q | None => Some o end end
  end.

Lemma rank0 : In 0 (ranks g).
Proof. apply in_ranks. destruct Hg as (_ & _ & _ & ?). lia. Qed.
Lemma own_in c q : own c = Some q -> In q (ranks g).
Proof. destruct Hgood as ((_ & O) & _). apply O. Qed.
Lemma find_pins r c : In r (ranks g) -> find c (s_pin (p_store (st r))) = pinned c.
Proof. intros Ir. apply (proj1 Hpins); [assumption|apply rank0]. Qed.

Lemma find_pin_fold l : forall f c, NoDup (keys l) -> find c (fold_left (pin_one g) l f) =
  match find c l with Some v => if np <=? v then None else Some v | None => find c f end.
Proof.
  induction l as [|[k v] l IH]; intros f c N; cbn [fold_left]; [reflexivity|]. cbn [keys map fst] in N. apply NoDup_cons_iff in N. destruct N as [Nk N]. rewrite IH by assumption. cbn [find].
  unfold pin_one. cbn [fst snd]. destruct (Z.eqb_spec c k) as [->|Nc].
  - destruct (find k l) eqn:F; [exfalso; apply Nk, keys_find; eauto|]. destruct (np <=? v); [rewrite find_del|rewrite find_put]; rewrite Z.eqb_refl; reflexivity.
  - destruct (find c l); [reflexivity|]. destruct (np <=? v); [rewrite find_del|rewrite find_put]; destruct (Z.eqb_spec c k); (contradiction || reflexivity).
Qed.
Lemma pin_fold_NoDup l : forall f, NoDup (keys f) -> NoDup (keys (fold_left (pin_one g) l f)).
Proof.
  induction l as [|[k v] l IH]; intros f N; cbn [fold_left]; [assumption|]. apply IH. unfold pin_one. destruct (_ <=? _); [apply del_NoDup|apply put_NoDup]; assumption.
Qed.

Lemma all_new_NoDup : NoDup (keys (flat_map (fun q => s_newpin (p_store (st q))) (ranks g))).
Proof.
  apply flat_NoDup; [apply ranks_NoDup|intros q Iq; apply (proj2 Hpins q Iq)|]. intros q q' k Iq Iq' Hk Hk'. apply keys_find in Hk, Hk'. destruct Hk as (v & Hk), Hk' as (v' & Hk').
  destruct (proj2 Hpins q Iq) as (_ & P & _). destruct (proj2 Hpins q' Iq') as (_ & P' & _). destruct (P _ _ Hk) as [O _], (P' _ _ Hk') as [O' _]. congruence.
Qed.
Lemma all_new_find c : find c (flat_map (fun q => s_newpin (p_store (st q))) (ranks g)) = newpin c.
Proof.
  unfold newpin. destruct (own c) as [q|] eqn:O.
  - apply (find_flat c (fun q => s_newpin (p_store (st q)))); [apply (own_in c); assumption|]. intros q' Iq' N. destruct (find c (s_newpin (p_store (st q')))) eqn:F; [|reflexivity]. destruct (proj2 Hpins q' Iq') as (_ & P & _). destruct (P _ _ F). congruence.
  - apply (find_flat_none c (fun q => s_newpin (p_store (st q)))). intros q' Iq'. destruct (find c (s_newpin (p_store (st q')))) eqn:F; [|reflexivity]. destruct (proj2 Hpins q' Iq') as (_ & P & _). destruct (P _ _ F). congruence.
Qed.
Lemma update_pins r c : In r (ranks g) -> find c (update_pin_requests g st r) = pin_after c.
Proof.
  intros Ir. unfold update_pin_requests. rewrite find_pin_fold by apply all_new_NoDup. rewrite all_new_find, find_pins by assumption. reflexivity.
Qed.
Lemma update_pins_NoDup r : In r (ranks g) -> NoDup (keys (update_pin_requests g st r)).
Proof. intros Ir. apply pin_fold_NoDup. apply (proj2 Hpins r Ir). Qed.
Lemma pin_after_ok c q : pin_after c = Some q -> exo own c = true /\ 0 <= q < np.
Proof.
  unfold pin_after, newpin. destruct (own c) as [o|] eqn:O.
  - pose proof (own_in c o O) as Io. destruct (find c (s_newpin (p_store (st o)))) as [v|] eqn:F.
    + destruct (Z.leb_spec np v); [discriminate|]. intros [= <-]. destruct (proj2 Hpins o Io) as (_ & P & _). destruct (P _ _ F). unfold exo. rewrite O. split; [reflexivity|lia].
    + intros Q. destruct (proj2 Hpins 0 rank0) as (P & _). apply (P _ _ Q).
  - intros Q. destruct (proj2 Hpins 0 rank0) as (P & _). apply (P _ _ Q).
Qed.
Lemma target_exo c : exo target c = exo own c.
Proof. unfold exo, target. destruct (own c) as [o|]; [|reflexivity]. destruct (pin_after c); [reflexivity|]. destruct (dest c); reflexivity. Qed.
Lemma target_in c q : target c = Some q -> In q (ranks g).
Proof.
  unfold target. destruct (own c) as [o|] eqn:O; [|discriminate]. destruct (pin_after c) as [p|] eqn:P.
  - intros [= <-]. apply in_ranks. apply (pin_after_ok c). assumption.
  - destruct (dest c) as [p|] eqn:E; intros [= <-]; [apply (proj1 Hz c); assumption|apply (own_in c); assumption].
Qed.
Lemma world_target : world_ok g target.
Proof.
  destruct Hgood as ((M & O) & _). split; [|intros c q; apply target_in]. apply (mesh_ext g (exo own)); [|assumption]. intros c. symmetry. apply target_exo.
Qed.

(** *** Transfer lists *)
Notation upd r := (update_pin_requests g st r).
Definition recv_ok (r : Z) (l : list (Z * Z)) : Prop :=
  NoDup (map snd l) /\ forall q c, In (q, c) l <-> own c = Some q /\ q <> r /\ target c = Some r.
Definition send_ok (r : Z) (l : list (Z * Z)) : Prop :=
  NoDup (map snd l) /\ forall q c, In (q, c) l <-> own c = Some r /\ q <> r /\ target c = Some q.

Lemma pin_known r e : In r (ranks g) -> In e (upd r) -> pin_after (fst e) = Some (snd e) /\ exists o, own (fst e) = Some o /\ at_ (fst e) (s_proc (p_store (st r))) = Done o.
Proof.
  intros Ir He. destruct e as [c v]. cbn [fst snd]. assert (pin_after c = Some v) as P. { rewrite <- (update_pins r c Ir). apply In_find; [apply update_pins_NoDup|]; assumption. }
  split; [assumption|]. destruct (pin_after_ok c v P) as [E _]. unfold exo in E. destruct (own c) as [o|] eqn:O; [|discriminate]. exists o. split; [reflexivity|].
  unfold at_. destruct (proj2 Hgood r Ir) as ((F & _) & _). rewrite F, O. reflexivity.
Qed.
Lemma pin_has r c : In r (ranks g) -> has c (upd r) = true <-> pin_after c <> None.
Proof. intros Ir. unfold has. rewrite update_pins by assumption. destruct (pin_after c); split; congruence. Qed.

Definition cur (c : Z) : Z := match own c with Some o => o | None => 0 end.
Lemma concat_sel {A B} (P : A -> bool) (h : A -> B) l : concat (map (fun e => if P e then [h e] else []) l) = map h (filter P l).
Proof. induction l as [|a l IH]; cbn [map concat filter]; [reflexivity|]. destruct (P a); cbn [app map]; rewrite IH; reflexivity. Qed.

Lemma sel_NoDup (F : Z * Z -> Z) (P : Z * Z -> bool) l : NoDup (map fst l) -> NoDup (map snd (map (fun e => (F e, fst e)) (filter P l))).
Proof. intros N. rewrite map_map. cbn [snd]. apply filter_snd_NoDup. assumption. Qed.

Lemma lb_receive_ok r : In r (ranks g) -> exists l, lb_receive r (p_store (st r)) (upd r) (z r) = Done l /\ recv_ok r l.
Proof.
  intros Ir. unfold lb_receive.
  rewrite (mapM_ok _ (fun e => if (snd e =? r) && negb (cur (fst e) =? r) then [(cur (fst e), fst e)] else [])).
  2:{ intros e He. destruct (pin_known r e Ir He) as (_ & o & O & ->). unfold cur. rewrite O. reflexivity. }
  cbn [bind]. rewrite concat_sel. eexists. split; [reflexivity|].
  assert (forall q c, In (q, c) (map (fun e => (cur (fst e), fst e)) (filter (fun e => (snd e =? r) && negb (cur (fst e) =? r)) (upd r))) <->
    own c = Some q /\ q <> r /\ pin_after c = Some r) as HP.
  { intros q c. rewrite in_map_iff. split.
    - intros (e & [= <- <-] & He). apply filter_In in He. destruct He as [He C]. destruct (pin_known r e Ir He) as (P & o & O & _). unfold cur in *. rewrite O in *.
      apply andb_true_iff in C. destruct C as [C1 C2]. apply Z.eqb_eq in C1. apply negb_true_iff, Z.eqb_neq in C2. rewrite C1 in P. auto.
    - intros (O & N & P). exists (c, r). cbn [fst snd]. unfold cur. rewrite O. split; [reflexivity|]. apply filter_In. split; [apply find_In; rewrite update_pins by assumption; assumption|].
      cbn [fst snd]. rewrite O, Z.eqb_refl. destruct (Z.eqb_spec q r); [contradiction|reflexivity]. }
  pose proof (sel_NoDup (fun e => cur (fst e)) (fun e => (snd e =? r) && negb (cur (fst e) =? r)) _ (update_pins_NoDup r Ir)) as NP.
  assert (forall q c, own c = Some q -> q <> r -> target c = Some r <-> pin_after c = Some r \/ pin_after c = None /\ dest c = Some r) as HT.
  { intros q c O N. unfold target. rewrite O. destruct (pin_after c) as [p|]; [intuition congruence|]. destruct (dest c); [intuition congruence|]. split; [congruence|]. intros [?|[_ ?]]; discriminate. }
  destruct Hz as [_ [[Zn Dn]|Zs]].
  - rewrite Zn by assumption. rewrite app_nil_r. split; [assumption|]. intros q c. rewrite HP. split.
    + intros (O & N & P). rewrite (HT q c O N). auto.
    + intros (O & N & P). rewrite (HT q c O N), Dn in P. destruct P as [P|[_ ?]]; [auto|discriminate].
  - destruct (Zs r Ir) as (imp & ex & -> & Ni & _ & Hi & _). split.
    + rewrite map_app. apply NoDup_app; [assumption|apply sel_NoDup; assumption|]. intros c Hc Hc'. apply in_map_iff in Hc, Hc'. destruct Hc as ([q c1] & E1 & Hc), Hc' as ([q' c2] & E2 & Hc'). cbn [snd] in *. subst c1 c2.
      apply HP in Hc. apply in_map_iff in Hc'. destruct Hc' as (e & [= <- <-] & He). apply filter_In in He. destruct He as [_ C]. apply andb_true_iff in C. destruct C as [_ C]. apply negb_true_iff in C.
      assert (has (fst e) (upd r) = true) by (apply pin_has; [assumption|]; destruct Hc as (_ & _ & ->); discriminate). congruence.
    + intros q c. rewrite in_app_iff, HP. split.
      * intros [(O & N & P)|Q]; [rewrite (HT q c O N); auto|]. apply in_map_iff in Q. destruct Q as ([c1 q1] & [= -> ->] & He). apply filter_In in He. destruct He as [He C]. cbn [fst snd] in C.
        apply andb_true_iff in C. destruct C as [C1 C2]. apply negb_true_iff, Z.eqb_neq in C1. apply negb_true_iff in C2. apply Hi in He; [|assumption]. destruct He as [O Dc]. split; [assumption|]. split; [assumption|]. rewrite (HT q c O C1).
        destruct (pin_after c) eqn:P; [|auto]. assert (has c (upd r) = true) by (apply pin_has; [assumption|congruence]). congruence.
      * intros (O & N & P). rewrite (HT q c O N) in P. destruct P as [P|[P Dc]]; [auto|]. right. apply in_map_iff. exists (c, q). split; [reflexivity|]. apply filter_In. split; [apply Hi; auto|]. cbn [fst snd].
        destruct (Z.eqb_spec q r); [contradiction|]. cbn [negb andb]. apply negb_true_iff. destruct (has c (upd r)) eqn:H; [|reflexivity]. apply pin_has in H; [contradiction|assumption].
Qed.

Lemma lb_send_ok r : In r (ranks g) -> exists l, lb_send r (p_store (st r)) (upd r) (z r) = Done l /\ send_ok r l.
Proof.
  intros Ir. unfold lb_send.
  rewrite (mapM_ok _ (fun e => if negb (snd e =? r) && (cur (fst e) =? r) then [(snd e, fst e)] else [])).
  2:{ intros e He. destruct (pin_known r e Ir He) as (_ & o & O & ->). unfold cur. rewrite O. reflexivity. }
  cbn [bind]. rewrite concat_sel. eexists. split; [reflexivity|].
  assert (forall q c, In (q, c) (map (fun e => (snd e, fst e)) (filter (fun e => negb (snd e =? r) && (cur (fst e) =? r)) (upd r))) <->
    own c = Some r /\ q <> r /\ pin_after c = Some q) as HP.
  { intros q c. rewrite in_map_iff. split.
    - intros (e & [= <- <-] & He). apply filter_In in He. destruct He as [He C]. destruct (pin_known r e Ir He) as (P & o & O & _). unfold cur in *. rewrite O in *.
      apply andb_true_iff in C. destruct C as [C1 C2]. apply Z.eqb_eq in C2. apply negb_true_iff, Z.eqb_neq in C1. subst o. auto.
    - intros (O & N & P). exists (c, q). cbn [fst snd]. split; [reflexivity|]. apply filter_In. split; [apply find_In; rewrite update_pins by assumption; assumption|].
      cbn [fst snd]. unfold cur. rewrite O, Z.eqb_refl. destruct (Z.eqb_spec q r); [contradiction|reflexivity]. }
  pose proof (sel_NoDup (fun e => snd e) (fun e => negb (snd e =? r) && (cur (fst e) =? r)) _ (update_pins_NoDup r Ir)) as NP.
  assert (forall q c, own c = Some r -> q <> r -> target c = Some q <-> pin_after c = Some q \/ pin_after c = None /\ dest c = Some q) as HT.
  { intros q c O N. unfold target. rewrite O. destruct (pin_after c) as [p|]; [intuition congruence|]. destruct (dest c); [intuition congruence|]. split; [congruence|]. intros [?|[_ ?]]; discriminate. }
  destruct Hz as [_ [[Zn Dn]|Zs]].
  - rewrite Zn by assumption. rewrite app_nil_r. split; [assumption|]. intros q c. rewrite HP. split.
    + intros (O & N & P). rewrite (HT q c O N). auto.
    + intros (O & N & P). rewrite (HT q c O N), Dn in P. destruct P as [P|[_ ?]]; [auto|discriminate].
  - destruct (Zs r Ir) as (imp & ex & -> & _ & Ni & _ & Hi). split.
    + rewrite map_app. apply NoDup_app; [assumption|apply sel_NoDup; assumption|]. intros c Hc Hc'. apply in_map_iff in Hc, Hc'. destruct Hc as ([q c1] & E1 & Hc), Hc' as ([q' c2] & E2 & Hc'). cbn [snd] in *. subst c1 c2.
      apply HP in Hc. apply in_map_iff in Hc'. destruct Hc' as (e & [= <- <-] & He). apply filter_In in He. destruct He as [_ C]. apply andb_true_iff in C. destruct C as [_ C]. apply negb_true_iff in C.
      assert (has (fst e) (upd r) = true) by (apply pin_has; [assumption|]; destruct Hc as (_ & _ & ->); discriminate). congruence.
    + intros q c. rewrite in_app_iff, HP. split.
      * intros [(O & N & P)|Q]; [rewrite (HT q c O N); auto|]. apply in_map_iff in Q. destruct Q as ([c1 q1] & [= -> ->] & He). apply filter_In in He. destruct He as [He C]. cbn [fst snd] in C.
        apply andb_true_iff in C. destruct C as [C1 C2]. apply negb_true_iff, Z.eqb_neq in C1. apply negb_true_iff in C2. apply Hi in He; [|assumption]. destruct He as [O Dc]. split; [assumption|]. split; [assumption|]. rewrite (HT q c O C1).
        destruct (pin_after c) eqn:P; [|auto]. assert (has c (upd r) = true) by (apply pin_has; [assumption|congruence]). congruence.
      * intros (O & N & P). rewrite (HT q c O N) in P. destruct P as [P|[P Dc]]; [auto|]. right. apply in_map_iff. exists (c, q). split; [reflexivity|]. apply filter_In. split; [apply Hi; auto|]. cbn [fst snd].
        destruct (Z.eqb_spec q r); [contradiction|]. cbn [negb andb]. apply negb_true_iff. destruct (has c (upd r)) eqn:H; [|reflexivity]. apply pin_has in H; [contradiction|assumption].
Qed.

(** *** The steps of load balancing *)
Notation data r := (s_data (p_store (st r))).
(** data of rank r while cells are moving: cells to be received hold [fresh] *)
Definition moving_ok (got : bool) (r : Z) (v : moving) : Prop :=
  recv_ok r (v_recv v) /\ send_ok r (v_send v) /\
  s_proc (v_store v) = s_proc (p_store (st r)) /\ s_refd (v_store v) = [] /\ s_unrefd (v_store v) = [] /\
  s_pin (v_store v) = upd r /\ s_newpin (v_store v) = [] /\ s_wt (v_store v) = [] /\ NoDup (keys (s_data (v_store v))) /\
  forall c, find c (s_data (v_store v)) =
    match own c with
    | None => None
    | Some o => if o =? r then find c (data r) else
        match target c with Some q => if q =? r then (if got then find c (data o) else Some d0) else None | None => None end
    end.

Lemma data_none r c : In r (ranks g) -> own c <> Some r -> find c (data r) = None.
Proof.
  intros Ir N. destruct (proj2 Hgood r Ir) as ((_ & _ & _ & Hd) & _). destruct (find c (data r)) eqn:F; [|reflexivity]. exfalso. apply N, Hd. apply has_find. eauto.
Qed.
Lemma data_some r c : own c = Some r -> exists v, find c (data r) = Some v.
Proof. intros O. destruct (proj2 Hgood r (own_in c r O)) as ((_ & _ & _ & Hd) & _). apply has_find, Hd, O. Qed.

Lemma init_balance_ok : exists mv, initialize_balance_load d0 g st z = Done mv /\ forall r, In r (ranks g) -> moving_ok false r (mv r).
Proof.
  unfold initialize_balance_load, each.
  match goal with |- exists mv, collect _ ?f ?b = _ /\ _ => destruct (collect_ok (ranks g) f b (fun r v => moving_ok false r v)) as (mv & E & P) end.
  - intros r Ir. destruct (lb_receive_ok r Ir) as (lr & Er & Hr). destruct (lb_send_ok r Ir) as (ls & Es & Hs). rewrite Er, Es. cbn [bind]. eexists. split; [reflexivity|].
    unfold moving_ok. cbn [v_recv v_send v_store s_proc s_refd s_unrefd s_pin s_newpin s_wt s_data].
    split; [assumption|]. split; [assumption|]. do 6 (split; [reflexivity|]).
    destruct (proj2 Hgood r Ir) as ((_ & _ & Nd & Hd) & _).
    split; [apply touches_NoDup; assumption|]. intros c. rewrite find_touches. destruct Hr as [_ Hr].
    assert (In c (map snd lr) <-> exists q, own c = Some q /\ q <> r /\ target c = Some r) as Hm.
    { rewrite in_map_iff. split; [intros ([q c1] & E & Q); cbn [snd] in E; subst c1; apply Hr in Q; eauto|intros (q & Q); exists (q, c); split; [reflexivity|apply Hr; assumption]]. }
    destruct (own c) as [o|] eqn:O.
    + destruct (Z.eqb_spec o r) as [->|N].
      * destruct (data_some r c O) as (v & F). unfold has. rewrite F. rewrite andb_false_r. reflexivity.
      * pose proof (data_none r c Ir ltac:(congruence)) as F. unfold has. rewrite F. rewrite andb_true_r.
        destruct (mem c (map snd lr)) eqn:M.
        -- apply mem_In, Hm in M. destruct M as (q & _ & _ & ->). rewrite Z.eqb_refl. reflexivity.
        -- apply mem_not in M. rewrite Hm in M. destruct (target c) as [q|]; [|reflexivity]. destruct (Z.eqb_spec q r) as [->|]; [|reflexivity]. exfalso. apply M. eauto.
    + destruct (mem c (map snd lr)) eqn:M; [apply mem_In, Hm in M; destruct M as (q & ? & _); discriminate|]. cbn [andb]. apply data_none; [assumption|congruence].
  - exists mv. split; [exact E|]. intros r Ir. apply (P r Ir).
Qed.

Lemma continue_ok b mv : (forall r, In r (ranks g) -> moving_ok b r (mv r)) ->
  exists mv', continue_balance_load g mv = Done mv' /\ forall r, In r (ranks g) -> moving_ok true r (mv' r).
Proof.
  intros Hmv. unfold continue_balance_load, each.
  match goal with |- exists mv, collect _ ?f ?b = _ /\ _ => destruct (collect_ok (ranks g) f b (fun r v => moving_ok true r v)) as (mv' & E & P) end.
  - intros r Ir. destruct (Hmv r Ir) as (Hr & Hs & Ep & Er & Eu & Epi & En & Ew & Nd & Hd).
    destruct (receives_ok (fun q => listed r (v_send (mv q))) (fun q => s_data (v_store (mv q)))
      (fun c => match own c with Some q => if (negb (q =? r)) && match target c with Some p => p =? r | None => false end then Some q else None | None => None end)
      (fun q => listed q (v_recv (mv r))) (ranks g) (s_data (v_store (mv r)))) as (dest' & Ed & Hf).
    + intros q Iq. destruct (Hmv q Iq) as (_ & Hsq & _). split; [|apply listed_NoDup, Hsq]. apply listed_same; [apply Hsq|apply Hr|]. intros c. rewrite (proj2 Hsq), (proj2 Hr).
      split; intros (A & B & C); auto.
    + intros q c Iq Hc. apply listed_In in Hc. destruct (Hmv q Iq) as (_ & Hsq & _ & _ & _ & _ & _ & _ & _ & Hdq). apply (proj2 Hsq) in Hc. destruct Hc as (O & N & T).
      unfold has. rewrite Hdq, O, Z.eqb_refl. destruct (data_some q c O) as (v & ->). reflexivity.
    + intros q c Iq. destruct (Hmv q Iq) as (_ & Hsq & _). rewrite listed_In, (proj2 Hsq). destruct (own c) as [o|]; [|split; [intros (? & _); discriminate|discriminate]].
      destruct (target c) as [p|]; [|rewrite andb_false_r; split; [intros (_ & _ & ?); discriminate|discriminate]].
      destruct (Z.eqb_spec o r) as [->|No]; cbn [negb andb]; [split; [intros (Q & ? & ?); injection Q as <-; congruence|discriminate]|]. destruct (Z.eqb_spec p r) as [->|Np]; (split; [intros (A & B & C)|intros Q]).
      * exact A.
      * injection Q as <-. split; [reflexivity|]. split; [congruence|reflexivity].
      * congruence.
      * discriminate.
    + apply ranks_NoDup.
    + intros c q. destruct (own c) as [o|] eqn:O; [|discriminate]. destruct (_ && _); [|discriminate]. intros [= <-]. apply (own_in c). assumption.
    + rewrite Ed. cbn [bind]. eexists. split; [reflexivity|]. unfold moving_ok. cbn [v_recv v_send v_store s_proc s_refd s_unrefd s_pin s_newpin s_wt s_data].
      split; [assumption|]. split; [assumption|]. do 6 (split; [assumption|]).
      split.
      * apply (foldM_inv (fun f => NoDup (keys f)) (fun dest q => receive (s_data (v_store (mv q))) (listed r (v_send (mv q))) (listed q (v_recv (mv r))) dest) (ranks g)) with (b := s_data (v_store (mv r))); [|assumption|exact Ed].
        intros f q f'. generalize (listed r (v_send (mv q))) as l1. generalize (listed q (v_recv (mv r))) as l2. intros l2. revert f f'. induction l2 as [|c l2 IH]; intros f f' [|c' l1] Nf; cbn [receive]; try discriminate; [intros [= <-]; assumption|].
        unfold at_. destruct (find c' _); cbn [bind]; [|discriminate]. apply IH. apply put_NoDup. assumption.
      * intros c. rewrite Hf, Hd. destruct (own c) as [o|] eqn:O; [|reflexivity]. destruct (Z.eqb_spec o r) as [->|No]; cbn [negb andb]; [reflexivity|].
        destruct (target c) as [p|]; [|reflexivity]. destruct (Z.eqb_spec p r) as [->|Np]; [|reflexivity].
        destruct (Hmv o (own_in c o O)) as (_ & _ & _ & _ & _ & _ & _ & _ & _ & Hdo). rewrite Hdo, O, Z.eqb_refl. reflexivity.
  - exists mv'. split; [exact E|]. intros r Ir. apply (P r Ir).
Qed.

Lemma continues_ok k : forall b mv, (forall r, In r (ranks g) -> moving_ok b r (mv r)) ->
  exists mv', continues g k mv = Done mv' /\ forall r, In r (ranks g) -> moving_ok (b || (0 <? Z.of_nat k)) r (mv' r).
Proof.
  induction k as [|k IH]; intros b mv Hmv; cbn [continues].
  - exists mv. split; [reflexivity|]. change (0 <? Z.of_nat 0) with false. rewrite orb_false_r. assumption.
  - destruct (continue_ok b mv Hmv) as (mv1 & E1 & H1). rewrite E1. cbn [bind]. destruct (IH true mv1 H1) as (mv2 & E2 & H2). exists mv2. split; [assumption|].
    destruct (Z.ltb_spec 0 (Z.of_nat (S k))); [|lia]. rewrite orb_true_r. exact H2.
Qed.

(** puts of a list of cells *)
Lemma migrate_some (q : Z) l : forall f : list (Z * Z), (forall c, In c l -> exists v, find c f = Some v) -> NoDup (keys f) ->
  exists f', foldM (fun f c => do _ <- at_ c f; Done (put c q f)) l f = Done f' /\ NoDup (keys f') /\
    forall c, find c f' = if mem c l then Some q else find c f.
Proof.
  induction l as [|x l IH]; intros f Hl N; cbn [foldM]; [exists f; split; [reflexivity|]; split; [assumption|reflexivity]|].
  destruct (Hl x (or_introl eq_refl)) as (v & F). unfold at_ at 1. rewrite F. cbn [bind].
  destruct (IH (put x q f)) as (f' & E & N' & Hf).
  - intros c Hc. rewrite find_put. destruct (c =? x); [eauto|]. apply Hl. right. assumption.
  - apply put_NoDup. assumption.
  - exists f'. split; [exact E|]. split; [assumption|]. intros c. rewrite Hf, find_put, mem_cons. destruct (c =? x), (mem c l); reflexivity.
Qed.
Lemma migrate_ok b mv : (forall r, In r (ranks g) -> moving_ok b r (mv r)) -> forall qs (f : list (Z * Z)),
  (forall q, In q qs -> In q (ranks g)) -> NoDup (keys f) -> (forall c, exo own c = true -> exists v, find c f = Some v) ->
  exists f', foldM (fun f q => foldM (fun f c => do _ <- at_ c f; Done (put c q f)) (map snd (v_recv (mv q))) f) qs f = Done f' /\
    NoDup (keys f') /\ forall c, find c f' = match target c with
      | Some q => if mem q qs && negb (match own c with Some o => o =? q | None => true end) then Some q else find c f
      | None => find c f end.
Proof.
  intros Hmv. induction qs as [|q qs IH]; intros f Hq N Hf; cbn [foldM].
  - exists f. split; [reflexivity|]. split; [assumption|]. intros c. destruct (target c); reflexivity.
  - pose proof (Hq q (or_introl eq_refl)) as Iq. destruct (Hmv q Iq) as ((_ & Hr) & _).
    assert (forall c, In c (map snd (v_recv (mv q))) <-> exists o, own c = Some o /\ o <> q /\ target c = Some q) as Hm.
    { intros c. rewrite in_map_iff. split; [intros ([o c1] & E & Q); cbn [snd] in E; subst c1; apply Hr in Q; eauto|intros (o & Q); exists (o, c); split; [reflexivity|apply Hr; assumption]]. }
    destruct (migrate_some q (map snd (v_recv (mv q))) f) as (f1 & E1 & N1 & H1); [|assumption|].
    { intros c Hc. apply Hm in Hc. destruct Hc as (o & O & _). apply Hf. unfold exo. rewrite O. reflexivity. }
    rewrite E1. cbn [bind]. destruct (IH f1) as (f2 & E2 & N2 & H2).
    { intros p Hp. apply Hq. right. assumption. } { assumption. } { intros c Ec. rewrite H1. destruct (mem c _); eauto. }
    exists f2. split; [assumption|]. split; [assumption|]. intros c. rewrite H2, H1.
    destruct (mem c (map snd (v_recv (mv q)))) eqn:M.
    + apply mem_In, Hm in M. destruct M as (o & O & No & T). rewrite T, O, mem_cons, Z.eqb_refl. destruct (Z.eqb_spec o q); [contradiction|]. cbn [negb andb orb]. destruct (mem q qs); reflexivity.
    + apply mem_not in M. rewrite Hm in M. destruct (target c) as [p|] eqn:T; [|reflexivity]. rewrite mem_cons. destruct (Z.eqb_spec p q) as [->|Np]; cbn [orb]; [|reflexivity].
      unfold target in T. destruct (own c) as [o|] eqn:O; [|discriminate]. destruct (Z.eqb_spec o q) as [->|No]; [rewrite andb_false_r; reflexivity|]. exfalso. apply M. eauto.
Qed.

(** what load balancing does; [sent] tells whether cell data was transferred *)
Record balanced_to (sent : bool) (res : Z -> proc D) : Prop := BalancedTo {
  bl_good : good g target res;
  bl_pins_ok : pins_ok target res;
  bl_data : forall r c, target c = Some r -> exists o, own c = Some o /\
    find c (s_data (p_store (res r))) = if (o =? r) || sent then find c (data o) else Some d0;
  bl_pin : forall r c, In r (ranks g) -> find c (s_pin (p_store (res r))) = pin_after c;
  bl_rest : forall r, In r (ranks g) -> s_newpin (p_store (res r)) = [] /\ s_wt (p_store (res r)) = [] /\
    s_refd (p_store (res r)) = [] /\ s_unrefd (p_store (res r)) = [] /\ p_req (res r) = no_requests }.

Lemma balance_load_ok k : exists res, balance_load d0 g k st z = Done res /\ balanced_to (0 <? Z.of_nat k) res.
Proof.
  unfold balance_load. destruct init_balance_ok as (mv0 & E0 & H0). rewrite E0. cbn [bind].
  destruct (continues_ok k false mv0 H0) as (mv & E1 & Hmv). rewrite E1. cbn [bind orb] in *. clear E0 H0 E1 mv0. set (sent := 0 <? Z.of_nat k) in *.
  unfold finish_balance_load, each.
  pose (fin := fun (r : Z) (p : proc D) => store_ok target r (p_store p) /\ rebuild g r (p_store p) = Done (p_cache p) /\ p_req p = no_requests /\
    s_pin (p_store p) = upd r /\ s_newpin (p_store p) = [] /\ s_wt (p_store p) = [] /\ s_refd (p_store p) = [] /\ s_unrefd (p_store p) = [] /\
    forall c o, own c = Some o -> target c = Some r -> find c (s_data (p_store p)) = if (o =? r) || sent then find c (data o) else Some d0).
  match goal with |- exists mv, collect _ ?f ?b = _ /\ _ => destruct (collect_ok (ranks g) f b fin) as (res & E & P) end.
  - intros r Ir. destruct (Hmv r Ir) as (Hr & Hs & Ep & Er & Eu & Epi & En & Ew & Nd & Hd).
    destruct (proj2 Hgood r Ir) as ((Fp & Np & Nd0 & Hd0) & _).
    unfold migrate. destruct (migrate_ok sent mv Hmv (ranks g) (s_proc (v_store (mv r)))) as (pr & Em & Nm & Hm).
    { auto. } { rewrite Ep. assumption. } { intros c Ec. rewrite Ep, Fp. unfold exo in Ec. destruct (own c); [eauto|discriminate]. }
    rewrite Em. cbn [bind].
    assert (forall c, find c pr = target c) as Hp.
    { intros c. rewrite Hm, Ep, Fp. destruct (target c) as [q|] eqn:T.
      - pose proof (target_in c q T) as Iq. apply mem_In in Iq. rewrite Iq. cbn [andb]. unfold target in T. destruct (own c) as [o|]; [|discriminate]. destruct (Z.eqb_spec o q) as [->|]; reflexivity.
      - unfold target in T. destruct (own c); [|reflexivity]. destruct (pin_after c); [discriminate|]. destruct (dest c); discriminate. }
    assert (forall c, find c (fold_left (fun f c => del c f) (map snd (v_send (mv r))) (s_data (v_store (mv r)))) =
      match target c with Some q => if q =? r then match own c with Some o => if (o =? r) || sent then find c (data o) else Some d0 | None => None end else None | None => None end) as Hfd.
    { intros c. rewrite find_dels, Hd. destruct Hs as [_ Hs].
      assert (In c (map snd (v_send (mv r))) <-> exists q, own c = Some r /\ q <> r /\ target c = Some q) as Hms.
      { rewrite in_map_iff. split; [intros ([q c1] & E & Q); cbn [snd] in E; subst c1; apply Hs in Q; eauto|intros (q & Q); exists (q, c); split; [reflexivity|apply Hs; assumption]]. }
      destruct (mem c (map snd (v_send (mv r)))) eqn:M.
      - apply mem_In, Hms in M. destruct M as (q & O & Nq & T). rewrite T. destruct (Z.eqb_spec q r); [contradiction|reflexivity].
      - apply mem_not in M. rewrite Hms in M. destruct (own c) as [o|] eqn:O; [|unfold target; rewrite O; reflexivity].
        pose proof (target_exo c) as Te. unfold exo in Te. rewrite O in Te. destruct (target c) as [q|] eqn:T; [|discriminate].
        destruct (Z.eqb_spec o r) as [->|No]; cbn [orb]; destruct (Z.eqb_spec q r) as [->|Nq]; try reflexivity. exfalso. apply M. eauto. }
    set (s' := Store pr _ _ _ _ _ _).
    assert (store_ok target r s') as So.
    { split; [exact Hp|]. split; [exact Nm|]. split; [apply dels_NoDup; assumption|]. intros c. unfold has. cbn [s' s_data]. rewrite Hfd. pose proof (target_exo c) as Te. unfold exo in Te.
      destruct (target c) as [q|]; [|split; discriminate]. destruct (own c) as [o|] eqn:O; [|discriminate]. destruct (Z.eqb_spec q r) as [->|]; [|split; [discriminate|congruence]].
      destruct (_ || _); [|tauto]. destruct (data_some o c O) as (v & ->). tauto. }
    destruct (rebuild_ok g Hg target r s' world_target So) as (kk & Ek & _). rewrite Ek. cbn [bind]. eexists. split; [reflexivity|]. unfold fin. cbn [p_store p_cache p_req].
    split; [exact So|]. split; [exact Ek|]. split; [reflexivity|]. unfold s'. cbn [s_pin s_newpin s_wt s_refd s_unrefd s_data]. do 5 (split; [assumption|]).
    intros c o O T. rewrite Hfd, T, Z.eqb_refl, O. reflexivity.
  - exists res. split; [exact E|]. assert (forall r, In r (ranks g) -> fin r (res r)) as Hf by (intros r Ir; apply (P r Ir)). clear P. unfold fin in Hf. constructor.
    + split; [apply world_target|]. intros r Ir. destruct (Hf r Ir) as (So & Rb & Rq & _). split; [assumption|]. split; [assumption|]. rewrite Rq. split; intros c [].
    + split.
      * intros r q c Ir Iq. destruct (Hf r Ir) as (_ & _ & _ & -> & _). destruct (Hf q Iq) as (_ & _ & _ & -> & _). rewrite !update_pins by assumption. reflexivity.
      * intros r Ir. cbn zeta. destruct (Hf r Ir) as (_ & _ & _ & -> & -> & -> & _). split; [|split; [|split; [|split; [|split]]]].
        -- intros c q. rewrite update_pins by assumption. intros Q. destruct (pin_after_ok c q Q). rewrite target_exo. auto.
        -- intros c q. discriminate.
        -- intros c q. discriminate.
        -- apply update_pins_NoDup. assumption.
        -- constructor.
        -- constructor.
    + intros r c T. pose proof (target_exo c) as Te. unfold exo in Te. rewrite T in Te. destruct (own c) as [o|] eqn:O; [|discriminate]. exists o. split; [reflexivity|].
      destruct (Hf r (target_in c r T)) as (_ & _ & _ & _ & _ & _ & _ & _ & Fd). apply (Fd c o O T).
    + intros r c Ir. destruct (Hf r Ir) as (_ & _ & _ & -> & _). apply update_pins. assumption.
    + intros r Ir. destruct (Hf r Ir) as (_ & _ & Rq & _ & ? & ? & ? & ? & _). auto.
Qed.
End One.
End Balance.
