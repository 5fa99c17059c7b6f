(** What the loops of execute_refines do to the containers of one process. *)
From Coq Require Import Sorted.
From Verif Require Import U64 MapModel MapSpec MapProofs MapFamily MapProps HoodModel MeshModel
  MeshSpec MeshBase HoodProps MeshWalk MeshFind MeshKids MeshItem MeshCheck MeshTo MeshNear
  Sets RefineModel RefineGeo RefineInv.
Open Scope Z_scope.

(** ** Lists *)
Lemma mem_ext x l l' : (In x l <-> In x l') -> mem x l = mem x l'.
Proof. intros E. destruct (mem x l) eqn:E1, (mem x l') eqn:E2; try reflexivity; [apply mem_In in E1; apply mem_not in E2; tauto|apply mem_In in E2; apply mem_not in E1; tauto]. Qed.
Lemma mem_cons x a l : mem x (a :: l) = (x =? a) || mem x l.
Proof. reflexivity. Qed.

Lemma find_puts {A} (v : A) ks : forall f j, find j (fold_left (fun f k => put k v f) ks f) = if mem j ks then Some v else find j f.
Proof.
  induction ks as [|k ks IH]; intros f j; cbn [fold_left]; [reflexivity|]. rewrite IH, find_put, mem_cons.
  destruct (mem j ks); [rewrite orb_true_r; reflexivity|]. rewrite orb_false_r. reflexivity.
Qed.
Lemma puts_NoDup {A} (v : A) ks : forall f, NoDup (keys f) -> NoDup (keys (fold_left (fun f k => put k v f) ks f)).
Proof. induction ks as [|k ks IH]; intros f N; cbn [fold_left]; [assumption|]. apply IH, put_NoDup, N. Qed.
Lemma touch_NoDup {A} k (v : A) f : NoDup (keys f) -> NoDup (keys (touch k v f)).
Proof. intros N. unfold touch. destruct (has k f); [assumption|apply put_NoDup, N]. Qed.
Lemma has_touch {A} k j (v : A) f : has j (touch k v f) = (j =? k) || has j f.
Proof. unfold has at 1. rewrite find_touch. unfold has. destruct (Z.eqb_spec j k) as [->|]; cbn [andb orb]; [|reflexivity]. destruct (find k f); reflexivity. Qed.
Lemma find_touches {A} (v : A) ks : forall f j, find j (fold_left (fun f k => touch k v f) ks f) = if mem j ks && negb (has j f) then Some v else find j f.
Proof.
  induction ks as [|k ks IH]; intros f j; cbn [fold_left]; [reflexivity|]. rewrite IH, find_touch, mem_cons, has_touch.
  destruct (Z.eqb_spec j k) as [->|N]; cbn [orb andb negb]; [rewrite andb_false_r; reflexivity|]. reflexivity.
Qed.
Lemma touches_NoDup {A} (v : A) ks : forall f, NoDup (keys f) -> NoDup (keys (fold_left (fun f k => touch k v f) ks f)).
Proof. induction ks as [|k ks IH]; intros f N; cbn [fold_left]; [assumption|]. apply IH, touch_NoDup, N. Qed.
Lemma find_dels {A} ks : forall (f : list (Z * A)) j, find j (fold_left (fun f k => del k f) ks f) = if mem j ks then None else find j f.
Proof.
  induction ks as [|k ks IH]; intros f j; cbn [fold_left]; [reflexivity|]. rewrite IH, find_del, mem_cons.
  destruct (mem j ks); [rewrite orb_true_r; reflexivity|]. rewrite orb_false_r. reflexivity.
Qed.
Lemma dels_NoDup {A} ks : forall (f : list (Z * A)), NoDup (keys f) -> NoDup (keys (fold_left (fun f k => del k f) ks f)).
Proof. induction ks as [|k ks IH]; intros f N; cbn [fold_left]; [assumption|]. apply IH, del_NoDup, N. Qed.

(** equal sorted lists *)
Lemma insert_sorted x l : StronglySorted Z.le l -> StronglySorted Z.le (insert x l).
Proof.
  induction l as [|y l IH]; intros S; cbn [insert]; [repeat constructor|]. pose proof S as S'. apply StronglySorted_inv in S. destruct S as [S F]. rewrite Forall_forall in F.
  destruct (Z.leb_spec x y).
  - constructor; [assumption|]. constructor; [assumption|]. apply Forall_forall. intros z Hz. specialize (F z Hz). lia.
  - constructor; [apply IH; assumption|]. apply Forall_forall. intros z Hz. apply insert_In in Hz. destruct Hz as [->|Hz]; [lia|apply F; assumption].
Qed.
Lemma sort_sorted l : StronglySorted Z.le (sort l).
Proof. unfold sort. induction l as [|x l IH]; cbn [fold_right]; [constructor|]. apply insert_sorted, IH. Qed.
Lemma insert_NoDup x l : NoDup l -> ~ In x l -> NoDup (insert x l).
Proof.
  induction l as [|y l IH]; intros N Hx; cbn [insert]; [repeat constructor; auto|]. destruct (x <=? y); [constructor; assumption|].
  apply NoDup_cons_iff in N. cbn [In] in Hx. constructor; [rewrite insert_In; intuition|apply IH; tauto].
Qed.
Lemma sort_NoDup l : NoDup l -> NoDup (sort l).
Proof.
  unfold sort. induction l as [|x l IH]; intros N; cbn [fold_right]; [constructor|]. apply NoDup_cons_iff in N.
  apply insert_NoDup; [apply IH; tauto|]. fold (sort l). rewrite sort_In. tauto.
Qed.
Lemma sorted_eq l : forall l', StronglySorted Z.le l -> StronglySorted Z.le l' -> NoDup l -> NoDup l' -> (forall x, In x l <-> In x l') -> l = l'.
Proof.
  induction l as [|a l IH]; intros [|b l'] S S' N N' E.
  - reflexivity.
  - exfalso. apply (E b). left. reflexivity.
  - exfalso. apply (E a). left. reflexivity.
  - apply StronglySorted_inv in S. apply StronglySorted_inv in S'. destruct S as [S F], S' as [S' F']. rewrite Forall_forall in F, F'.
    apply NoDup_cons_iff in N. apply NoDup_cons_iff in N'.
    assert (a = b) as <-.
    { destruct (proj1 (E a) (or_introl eq_refl)) as [|Ha]; [auto|]. destruct (proj2 (E b) (or_introl eq_refl)) as [|Hb]; [auto|].
      specialize (F b Hb). specialize (F' a Ha). lia. }
    f_equal. apply IH; try tauto. intros x. specialize (E x). cbn [In] in E. destruct (Z.eq_dec a x) as [->|Nx]; [tauto|].
    split; intros Q; [destruct (proj1 E (or_intror Q))|destruct (proj2 E (or_intror Q))]; tauto.
Qed.

Section Fold.
Context {D : Type} (d0 : D) (g : grid) (Hwf : wf (g_map g)).
Notation m := (g_map g).
Notation kids := (get_all_children m).

Lemma kids_in c k : valid m c -> lvl_of m c < m_max m -> In k (kids c) <-> valid m k /\ 0 < lvl_of m k /\ get_parent m k = c.
Proof.
  intros Vc Hc. pose proof (cell_level m Hwf c Vc) as Lc. rewrite (children_list m Hwf c Vc Hc), in_map_iff. split.
  - intros (e & <- & He). pose proof (kid_facts m Hwf c e Vc Hc He) as (Ve & Le & Se & Ie). cbn zeta in *.
    split; [assumption|]. split; [lia|]. apply (kid_parent_eq m Hwf (kid_at m c e) (idx_of m (kid_at m c e)) c); auto; [lia|apply covers_own; auto|].
    apply (kid_covers m Hwf c e); auto. apply covers_own; auto.
  - intros (Vs & Ls & E). pose proof (in_parent m Hwf k Vs Ls) as [He Ek]. cbn zeta in *. rewrite E in *.
    exists (vsub (idx_of m k) (idx_of m c)). split; [assumption|].
    replace (2 ^ (m_max m - (lvl_of m c + 1))) with (len_of m k); [assumption|]. rewrite (cell_len m Hwf k Vs).
    pose proof (parent_facts m Hwf k Vs Ls) as (_ & Lp & _). cbn zeta in *. rewrite E in Lp. f_equal. lia.
Qed.
Lemma kids_not_error c i : valid m c -> lvl_of m c < m_max m -> (i < 8)%nat -> nth i (kids c) error_cell <> error_cell.
Proof.
  intros Vc Hc Hi. assert (In (nth i (kids c) error_cell) (kids c)) as Q.
  { apply nth_In. rewrite (children_list m Hwf c Vc Hc), map_length. exact Hi. }
  apply (kids_in c _ Vc Hc) in Q. destruct Q as (V & _). unfold valid in V. unfold error_cell in *. lia.
Qed.
Lemma kids_first c : valid m c -> lvl_of m c < m_max m -> In (nth 0 (kids c) error_cell) (kids c).
Proof. intros Vc Hc. apply nth_In. rewrite (children_list m Hwf c Vc Hc), map_length. apply Nat.lt_0_succ. Qed.

(** is k a child of a cell in L *)
Definition kidb (L : list Z) (k : Z) : bool := existsb (fun p => mem k (kids p)) L.
Lemma kidb_In L k : (forall p, In p L -> valid m p /\ lvl_of m p < m_max m) ->
  kidb L k = true <-> valid m k /\ 0 < lvl_of m k /\ In (get_parent m k) L.
Proof.
  intros HL. unfold kidb. rewrite existsb_exists. split.
  - intros (p & Hp & Hk). apply mem_In in Hk. destruct (HL p Hp). apply kids_in in Hk; [|assumption..]. destruct Hk as (? & ? & ->). auto.
  - intros (Vk & Lk & Hp). exists (get_parent m k). split; [assumption|]. apply mem_In. destruct (HL _ Hp). apply kids_in; auto.
Qed.

(** ** Refines *)
Lemma find_inherit ch c (f : list (Z * Z)) k : ~ In c ch ->
  find k (inherit ch c f) = if k =? c then None else if mem k ch then match find c f with Some v => Some v | None => find k f end else find k f.
Proof.
  intros N. unfold inherit. destruct (find c f) as [v|] eqn:E.
  - rewrite find_del. destruct (Z.eqb_spec k c); [reflexivity|]. rewrite find_puts. reflexivity.
  - destruct (Z.eqb_spec k c) as [->|]; [assumption|]. destruct (mem k ch); reflexivity.
Qed.

Section Refines.
Context (r : Z) (own : Z -> option Z).
Definition ownr (c : Z) : bool := match own c with Some q => q =? r | None => false end.
Lemma ownr_iff c : ownr c = true <-> own c = Some r.
Proof. unfold ownr. destruct (own c) as [q|]; [|split; discriminate]. rewrite Z.eqb_eq. split; [intros ->; reflexivity|congruence]. Qed.

Definition given (L : list Z) (f : list (Z * Z)) (f' : list (Z * Z)) (loc : Z -> bool) : Prop :=
  forall k, find k f' = if mem k L && loc k then None else
    if kidb L k && loc (get_parent m k) then match find (get_parent m k) f with Some v => Some v | None => find k f end else find k f.

Lemma refine_fold L : forall (s : store D) new, NoDup L ->
  (forall c, In c L -> find c (s_proc s) = own c /\ exo own c = true /\ valid m c /\ lvl_of m c < m_max m) ->
  (forall c, In c L -> own c = Some r -> has c (s_data s) = true) ->
  (forall c, In c L -> kidb L c = false) ->
  (forall k, kidb L k = true -> find k (s_data s) = None) ->
  exists s' new', foldM (refine_one d0 g r) L (s, new) = Done (s', new') /\
  (forall k, find k (s_proc s') = if kidb L k then own (get_parent m k) else find k (s_proc s)) /\
  (forall k, find k (s_data s') = if mem k L && ownr k then None else if kidb L k && ownr (get_parent m k) then Some d0 else find k (s_data s)) /\
  (forall k, find k (s_refd s') = if mem k L && ownr k then find k (s_data s) else find k (s_refd s)) /\
  s_unrefd s' = s_unrefd s /\
  given L (s_pin s) (s_pin s') (fun _ => true) /\ given L (s_newpin s) (s_newpin s') (fun _ => true) /\ given L (s_wt s) (s_wt s') ownr /\
  (forall k, In k new' <-> In k new \/ kidb L k = true /\ own (get_parent m k) = Some r) /\
  (NoDup (keys (s_proc s)) -> NoDup (keys (s_proc s'))) /\ (NoDup (keys (s_data s)) -> NoDup (keys (s_data s'))).
Proof.
  induction L as [|c L IH]; intros s new N H1 H2 H3 H4.
  - exists s, new. cbn [foldM]. split; [reflexivity|]. unfold given. cbn [mem existsb kidb andb].
    repeat match goal with |- _ /\ _ => split end; auto. intros k. split; [auto|]. intros [|[? _]]; [assumption|discriminate].
  - apply NoDup_cons_iff in N. destruct N as [Nc N].
    destruct (H1 c (or_introl eq_refl)) as (Pc & Ec & Vc & Lc). cbn [foldM]. unfold refine_one at 1. unfold at_ at 1. rewrite Pc.
    apply exo_some in Ec. destruct Ec as (q & Oc). rewrite Oc. cbn [bind].
    assert (forall k, In k (kids c) <-> valid m k /\ 0 < lvl_of m k /\ get_parent m k = c) as Kc by (intros k; apply kids_in; assumption).
    assert (~ In c (kids c)) as Ncc.
    { intros Q. pose proof Q as Q'. apply Kc in Q. destruct Q as (_ & Q1 & Q2). pose proof (parent_facts m Hwf c Vc Q1) as (_ & Lp & _). cbn zeta in Lp. rewrite Q2 in Lp. lia. }
    assert (forall x, In x L -> mem x (kids c) = false /\ kidb L x = false /\ x <> c) as Lx.
    { intros x Hx. pose proof (H3 x (or_intror Hx)) as Q. unfold kidb in Q. cbn [existsb] in Q. apply orb_false_iff in Q. destruct Q. split; [assumption|]. split; [assumption|]. intros ->. contradiction. }
    assert (kidb L c = false) as KLc. { pose proof (H3 c (or_introl eq_refl)) as Q. unfold kidb in Q. cbn [existsb] in Q. apply orb_false_iff in Q. apply Q. }
    assert (forall k, kidb (c :: L) k = mem k (kids c) || kidb L k) as KB by reflexivity.
    assert (forall k, mem k (kids c) = true -> get_parent m k = c /\ kidb L k = false /\ mem k L = false /\ k <> c) as Kk.
    { intros k Hk. assert (get_parent m k = c) as Ep by (apply mem_In, Kc in Hk; apply Hk). split; [assumption|]. split; [|split].
      - destruct (kidb L k) eqn:E; [|reflexivity]. apply kidb_In in E; [|intros p Hp; apply H1; right; assumption]. rewrite Ep in E. tauto.
      - destruct (mem k L) eqn:E; [|reflexivity]. apply mem_In in E. destruct (Lx k E) as [Q _]. congruence.
      - intros ->. apply mem_In in Hk. contradiction. }
    set (own_it := r =? q).
    assert (ownr c = own_it) as Oit by (unfold ownr, own_it; rewrite Oc; apply Z.eqb_sym).
    set (d1 := if own_it then (put c (match find c (s_data s) with Some v => v | None => d0 end) (s_refd s), del c (s_data s)) else (s_refd s, s_data s)).
    assert ((if own_it then do v <- at_ c (s_data s); Done (put c v (s_refd s), del c (s_data s)) else Done (s_refd s, s_data s)) = Done d1) as ->.
    { unfold d1. destruct own_it eqn:Eo; [|reflexivity]. pose proof (H2 c (or_introl eq_refl) ltac:(apply ownr_iff; assumption)) as Hd. apply has_find in Hd. destruct Hd as (v & Ev). unfold at_. rewrite Ev. reflexivity. }
    cbn [bind].
    replace ((nth 0 (kids c) error_cell =? error_cell) || (nth 1 (kids c) error_cell =? error_cell)) with false.
    2: { symmetry. apply orb_false_iff. split; apply Z.eqb_neq; apply kids_not_error; auto; lia. }
    cbn [bind].
    set (s1 := Store (fold_left (fun f k => put k q f) (kids c) (s_proc s))
        (if own_it then fold_left (fun f k => touch k d0 f) (kids c) (snd d1) else snd d1) (fst d1) (s_unrefd s)
        (inherit (kids c) c (s_pin s)) (inherit (kids c) c (s_newpin s)) (if own_it then inherit (kids c) c (s_wt s) else s_wt s)).
    assert (forall k, find k (s_proc s1) = if mem k (kids c) then Some q else find k (s_proc s)) as Fp by (intros k; apply find_puts).
    assert (forall k, find k (s_data s1) = if (k =? c) && own_it then None else if mem k (kids c) && own_it then Some d0 else find k (s_data s)) as Fd.
    { intros k. cbn [s_data s1]. unfold d1. destruct own_it; cbn [snd]; [|rewrite !andb_false_r; reflexivity]. rewrite !andb_true_r.
      rewrite find_touches. unfold has. rewrite find_del. destruct (Z.eqb_spec k c) as [->|Nk].
      - rewrite (proj2 (mem_not c (kids c)) Ncc). reflexivity.
      - destruct (mem k (kids c)) eqn:Em; cbn [andb]; [|reflexivity]. rewrite (H4 k) by (rewrite KB, Em; reflexivity). reflexivity. }
    assert (forall k, find k (s_refd s1) = if (k =? c) && own_it then find k (s_data s) else find k (s_refd s)) as Fr.
    { intros k. cbn [s_refd s1]. unfold d1. destruct own_it eqn:Eo; cbn [fst]; [|rewrite andb_false_r; reflexivity]. rewrite andb_true_r, find_put. destruct (Z.eqb_spec k c) as [->|]; [|reflexivity].
      pose proof (H2 c (or_introl eq_refl) ltac:(apply ownr_iff; assumption)) as Hd. apply has_find in Hd. destruct Hd as (v & Ev). rewrite Ev. reflexivity. }
    destruct (IH s1 (if own_it then new ++ kids c else new)) as (s' & new' & E & Q1 & Q2 & Q3 & Q4 & Q5 & Q6 & Q7 & Q8 & Q9 & Q10).
    + assumption.
    + intros x Hx. destruct (H1 x (or_intror Hx)) as (A & B). destruct (Lx x Hx) as (C & _). rewrite Fp, C. auto.
    + intros x Hx Ox. destruct (Lx x Hx) as (C & _ & Nx). unfold has. rewrite Fd, C. replace (x =? c) with false by lia. cbn [andb]. apply (H2 x (or_intror Hx) Ox).
    + intros x Hx. apply Lx. assumption.
    + intros k Hk. rewrite Fd. destruct (Z.eqb_spec k c) as [->|]; [congruence|]. cbn [andb]. destruct (mem k (kids c)) eqn:Em; [destruct (Kk k Em) as (_ & ? & _); congruence|].
      cbn [andb]. apply H4. rewrite KB, Hk. apply orb_true_r.
    + exists s', new'. split; [exact E|].
      assert (forall f f0 loc, loc c = own_it -> (forall k, find k f0 = if own_it then (if k =? c then None else if mem k (kids c) then match find c f with Some v => Some v | None => find k f end else find k f) else find k f) ->
        forall f', given L f0 f' loc -> given (c :: L) f f' loc) as GV.
      { intros f f0 loc Lc0 F0 f' G k. rewrite (G k), mem_cons, KB. destruct (Z.eqb_spec k c) as [->|Nk]; cbn [orb].
        - rewrite (proj2 (mem_not c L) Nc), KLc, Lc0. cbn [andb]. rewrite F0, Z.eqb_refl. cbn [andb]. destruct own_it; [reflexivity|]. rewrite (proj2 (mem_not c (kids c)) Ncc). reflexivity.
        - destruct (mem k L && loc k); [reflexivity|]. destruct (mem k (kids c)) eqn:Em; cbn [orb andb].
          + destruct (Kk k Em) as (Ep & KL & _). rewrite KL, Ep, Lc0. cbn [andb]. rewrite F0. replace (k =? c) with false by lia. rewrite Em. destruct own_it; reflexivity.
          + destruct (kidb L k) eqn:Kb; cbn [andb].
            * apply kidb_In in Kb; [|intros p Hp; apply H1; right; assumption]. destruct Kb as (_ & _ & Ip). destruct (Lx _ Ip) as (Mp & _ & Np).
              rewrite (F0 k), (F0 (get_parent m k)), Em, Mp. replace (k =? c) with false by lia. replace (get_parent m k =? c) with false by lia. destruct own_it; reflexivity.
            * rewrite F0, Em. replace (k =? c) with false by lia. destruct own_it; reflexivity. }
      split; [|split; [|split; [|split; [|split; [|split; [|split; [|split; [|split]]]]]]]].
      * intros k. rewrite Q1, KB, Fp. destruct (mem k (kids c)) eqn:Em; cbn [orb]; [|reflexivity]. destruct (Kk k Em) as (Ep & KL & _). rewrite KL, Ep. congruence.
      * intros k. rewrite Q2, mem_cons, KB, Fd. destruct (Z.eqb_spec k c) as [->|Nk]; cbn [orb andb].
        -- rewrite (proj2 (mem_not c L) Nc), KLc, Oit, (proj2 (mem_not c (kids c)) Ncc). cbn [andb orb]. reflexivity.
        -- destruct (mem k L && ownr k); [reflexivity|]. destruct (mem k (kids c)) eqn:Em; cbn [orb andb]; [|reflexivity]. destruct (Kk k Em) as (Ep & KL & _). rewrite KL, Ep, Oit. cbn [andb]. reflexivity.
      * intros k. rewrite Q3, mem_cons, Fr. destruct (Z.eqb_spec k c) as [->|Nk]; cbn [orb andb].
        -- rewrite (proj2 (mem_not c L) Nc), Oit. cbn [andb]. reflexivity.
        -- destruct (mem k L) eqn:Ek; cbn [andb]; [|reflexivity]. destruct (ownr k); [|reflexivity]. apply mem_In in Ek. destruct (Lx k Ek) as (Em & _). rewrite Fd, Em. replace (k =? c) with false by lia. reflexivity.
      * rewrite Q4. reflexivity.
      * unfold given. intros k. rewrite (Q5 k). rewrite !andb_true_r. rewrite mem_cons, KB. cbn [s_pin s1]. rewrite !(find_inherit (kids c) c (s_pin s)) by assumption.
        destruct (Z.eqb_spec k c) as [->|Nk]; cbn [orb].
        -- rewrite (proj2 (mem_not c L) Nc), KLc. reflexivity.
        -- destruct (mem k L); [reflexivity|]. destruct (mem k (kids c)) eqn:Em; cbn [orb].
           ++ destruct (Kk k Em) as (Ep & KL & _). rewrite KL, Ep. reflexivity.
           ++ destruct (kidb L k) eqn:Kb; [|reflexivity]. apply kidb_In in Kb; [|intros p Hp; apply H1; right; assumption]. destruct Kb as (_ & _ & Ip). destruct (Lx _ Ip) as (Mp & _ & Np).
              rewrite Mp. replace (get_parent m k =? c) with false by lia. reflexivity.
      * unfold given. intros k. rewrite (Q6 k). rewrite !andb_true_r. rewrite mem_cons, KB. cbn [s_newpin s1]. rewrite !(find_inherit (kids c) c (s_newpin s)) by assumption.
        destruct (Z.eqb_spec k c) as [->|Nk]; cbn [orb].
        -- rewrite (proj2 (mem_not c L) Nc), KLc. reflexivity.
        -- destruct (mem k L); [reflexivity|]. destruct (mem k (kids c)) eqn:Em; cbn [orb].
           ++ destruct (Kk k Em) as (Ep & KL & _). rewrite KL, Ep. reflexivity.
           ++ destruct (kidb L k) eqn:Kb; [|reflexivity]. apply kidb_In in Kb; [|intros p Hp; apply H1; right; assumption]. destruct Kb as (_ & _ & Ip). destruct (Lx _ Ip) as (Mp & _ & Np).
              rewrite Mp. replace (get_parent m k =? c) with false by lia. reflexivity.
      * apply (GV (s_wt s) (s_wt s1) ownr Oit); [|exact Q7]. intros k. cbn [s_wt s1]. destruct own_it; [apply find_inherit; assumption|reflexivity].
      * intros k. rewrite Q8, KB. rewrite <- !ownr_iff. destruct own_it eqn:Eo; [rewrite in_app_iff, <- (mem_In k (kids c))|].
        -- destruct (mem k (kids c)) eqn:Em; cbn [orb].
           ++ destruct (Kk k Em) as (Ep & KL & _). rewrite Ep, Oit. split; [auto|]. intros _. left. right. reflexivity.
           ++ split; intros Q; [destruct Q as [[Q|Q]|Q]; [auto|discriminate|auto]|tauto].
        -- destruct (mem k (kids c)) eqn:Em; cbn [orb]; [|tauto]. destruct (Kk k Em) as (Ep & KL & _). rewrite KL, Ep, Oit. split; intros [Q|[Q1' Q2']]; auto; discriminate.
      * intros Nd. apply Q9. apply puts_NoDup. assumption.
      * intros Nd. apply Q10. cbn [s_data s1]. unfold d1. destruct own_it; cbn [snd]; [apply touches_NoDup, del_NoDup|]; assumption.
Qed.
End Refines.

(** ** Unrefines *)
Section Unrefines.
Context (r : Z) (own : Z -> option Z).
Notation par := (get_parent m).
Notation first p := (nth 0 (kids p) error_cell).

Lemma unrefine_fold L : forall cp all ps,
  (forall c, In c L -> exo own (first (par c)) = true /\ find (first (par c)) cp = own (first (par c)) /\ forall c', In c' L -> first (par c) <> par c') ->
  NoDup (keys cp) -> NoDup all ->
  exists cp' all' ps', foldM (unrefine_one g) L (cp, all, ps) = Done (cp', all', ps') /\
  (forall k, find k cp' = if mem k (map par L) then own (first k) else find k cp) /\
  (forall k, In k all' <-> In k all \/ exists c, In c L /\ In k (kids (par c))) /\
  (forall k, In k ps' <-> In k ps \/ In k (map par L)) /\ NoDup (keys cp') /\ NoDup all'.
Proof.
  induction L as [|c L IH]; intros cp all ps H1 Nc Na.
  - exists cp, all, ps. cbn [foldM map]. split; [reflexivity|]. split; [reflexivity|]. split; [|split; [|auto]].
    + intros k. split; [auto|]. intros [?|(c & [] & _)]. assumption.
    + intros k. cbn [In]. tauto.
  - destruct (H1 c (or_introl eq_refl)) as (Ef & Ff & Nf). apply exo_some in Ef. destruct Ef as (q & Oq).
    cbn [foldM]. unfold unrefine_one at 1. unfold at_. rewrite Ff, Oq. cbn [bind].
    destruct (IH (put (par c) q cp) (addall (kids (par c)) all) (adds (par c) ps)) as (cp' & all' & ps' & E & Q1 & Q2 & Q3 & Q4 & Q5).
    + intros x Hx. destruct (H1 x (or_intror Hx)) as (A & B & C). split; [assumption|]. split.
      * rewrite find_put. specialize (C c (or_introl eq_refl)). destruct (Z.eqb_spec (first (par x)) (par c)); [contradiction|assumption].
      * intros x' Hx'. apply C. right. assumption.
    + apply put_NoDup. assumption.
    + apply addall_NoDup. assumption.
    + exists cp', all', ps'. split; [exact E|]. split; [|split; [|split; [|auto]]].
      * intros k. rewrite Q1. cbn [map]. rewrite mem_cons. destruct (mem k (map par L)); [rewrite orb_true_r; reflexivity|]. rewrite orb_false_r, find_put.
        destruct (Z.eqb_spec k (par c)) as [->|]; congruence.
      * intros k. rewrite Q2, addall_In. split.
        -- intros [[Q|Q]|(x & Hx & Q)]; [right; exists c; split; [left; reflexivity|assumption]|auto|right; exists x; split; [right; assumption|assumption]].
        -- intros [Q|(x & [<-|Hx] & Q)]; eauto.
      * intros k. rewrite Q3, adds_In. cbn [map In]. split; [intros [[->|Q]|Q]|intros [Q|[<-|Q]]]; auto.
Qed.

(** own' is the owner of the parent; no element's parent is an element *)
Lemma remove_fold (own' : Z -> option Z) L : forall (s : store D) send recv, NoDup L ->
  (forall c, In c L -> find c (s_proc s) = own c /\ exo own c = true /\ find (par c) (s_proc s) = own' (par c) /\ exo own' (par c) = true /\ ~ In (par c) L) ->
  (forall c, In c L -> own c = Some r -> own' (par c) = Some r -> has c (s_data s) = true) ->
  exists s' send' recv', foldM (remove_one g r) L (s, send, recv) = Done (s', send', recv') /\
  (forall k, find k (s_proc s') = if mem k L then None else find k (s_proc s)) /\
  (forall k, find k (s_data s') = if mem k L && (ownr r own k && ownr r own' (par k)) then None else find k (s_data s)) /\
  (forall k, find k (s_unrefd s') = if mem k L && (ownr r own k && ownr r own' (par k)) then find k (s_data s) else find k (s_unrefd s)) /\
  s_refd s' = s_refd s /\
  (forall k, find k (s_pin s') = if mem k L then None else find k (s_pin s)) /\
  (forall k, find k (s_newpin s') = if mem k L then None else find k (s_newpin s)) /\
  (forall k, find k (s_wt s') = if mem k L then None else find k (s_wt s)) /\
  (forall q k, In (q, k) send' <-> In (q, k) send \/ In k L /\ own k = Some r /\ own' (par k) = Some q /\ q <> r) /\
  (forall q k, In (q, k) recv' <-> In (q, k) recv \/ In k L /\ own k = Some q /\ own' (par k) = Some r /\ q <> r) /\
  (NoDup (map snd send) -> (forall k, In k L -> ~ In k (map snd send)) -> NoDup (map snd send')) /\
  (NoDup (map snd recv) -> (forall k, In k L -> ~ In k (map snd recv)) -> NoDup (map snd recv')) /\
  (NoDup (keys (s_proc s)) -> NoDup (keys (s_proc s'))) /\ (NoDup (keys (s_data s)) -> NoDup (keys (s_data s'))).
Proof.
  induction L as [|c L IH]; intros s send recv N H1 H2.
  - exists s, send, recv. cbn [foldM mem existsb andb]. split; [reflexivity|]. repeat match goal with |- _ /\ _ => split end; auto.
    + intros q k. cbn [In]. tauto.
    + intros q k. cbn [In]. tauto.
  - apply NoDup_cons_iff in N. destruct N as [Nc N]. destruct (H1 c (or_introl eq_refl)) as (Pc & Ec & Pp & Ep & Npc).
    apply exo_some in Ec. destruct Ec as (pc & Oc). apply exo_some in Ep. destruct Ep as (pp & Op).
    cbn [foldM]. unfold remove_one at 1. unfold at_ at 1 2. rewrite Pc, Pp, Oc, Op. cbn [bind].
    set (b1 := r =? pc). set (b2 := r =? pp).
    assert (ownr r own c = b1) as Ob1 by (unfold ownr, b1; rewrite Oc; apply Z.eqb_sym).
    assert (ownr r own' (par c) = b2) as Ob2 by (unfold ownr, b2; rewrite Op; apply Z.eqb_sym).
    set (s1 := Store (del c (s_proc s)) (if b1 && b2 then del c (s_data s) else s_data s) (s_refd s)
       (if b1 && b2 then put c (match find c (s_data s) with Some v => v | None => d0 end) (s_unrefd s) else s_unrefd s)
       (del c (s_pin s)) (del c (s_newpin s)) (del c (s_wt s))).
    set (send1 := if b1 && negb b2 then (pp, c) :: send else send). set (recv1 := if negb b1 && b2 then (pc, c) :: recv else recv).
    match goal with |- context [bind ?X _] => assert (X = Done (s1, send1, recv1)) as -> end.
    { unfold s1, send1, recv1. destruct b1 eqn:Eb1, b2 eqn:Eb2; cbn [andb negb]; try reflexivity.
      assert (own c = Some r) as A by (apply ownr_iff; congruence). assert (own' (par c) = Some r) as B by (apply ownr_iff; congruence).
      pose proof (H2 c (or_introl eq_refl) A B) as Hd. apply has_find in Hd. destruct Hd as (v & Ev). unfold at_. rewrite Ev. cbn [bind]. reflexivity. }
    cbn [bind].
    destruct (IH s1 send1 recv1) as (s' & send' & recv' & E & Q1 & Q2 & Q3 & Q4 & Q5 & Q6 & Q7 & Q8 & Q9 & Q10 & Q11 & Q12 & Q13).
    + assumption.
    + intros x Hx. destruct (H1 x (or_intror Hx)) as (A & B & C & E' & F). cbn [In] in F. cbn [s_proc s1]. rewrite !find_del.
      assert (x <> c) by (intros ->; contradiction). replace (x =? c) with false by lia. destruct (Z.eqb_spec (par x) c) as [Q|]; [exfalso; apply F; left; congruence|]. repeat split; auto.
    + intros x Hx A B. assert (x <> c) by (intros ->; contradiction). pose proof (H2 x (or_intror Hx) A B) as Q. unfold has in *. cbn [s_data s1].
      destruct (b1 && b2); [rewrite find_del; replace (x =? c) with false by lia|]; assumption.
    + exists s', send', recv'. split; [exact E|].
      assert (mem c L = false) as McL by (apply mem_not; assumption).
      split; [|split; [|split; [|split; [|split; [|split; [|split; [|split; [|split; [|split; [|split; [|split]]]]]]]]]]].
      * intros k. rewrite Q1, mem_cons. cbn [s_proc s1]. rewrite find_del. destruct (Z.eqb_spec k c) as [->|]; cbn [orb]; destruct (mem _ L); reflexivity.
      * intros k. rewrite Q2, mem_cons. cbn [s_data s1]. destruct (Z.eqb_spec k c) as [->|Nk]; cbn [orb].
        -- rewrite McL, Ob1, Ob2. cbn [andb]. destruct (b1 && b2); [rewrite find_del, Z.eqb_refl|]; reflexivity.
        -- destruct (b1 && b2); [rewrite find_del; replace (k =? c) with false by lia|]; reflexivity.
      * intros k. rewrite Q3, mem_cons. cbn [s_data s_unrefd s1]. destruct (Z.eqb_spec k c) as [->|Nk]; cbn [orb].
        -- rewrite McL, Ob1, Ob2. cbn [andb]. destruct (b1 && b2) eqn:Eb; [|reflexivity]. rewrite find_put, Z.eqb_refl.
           apply andb_true_iff in Eb. destruct Eb as [Eb1 Eb2].
           assert (own c = Some r) as A by (apply ownr_iff; congruence). assert (own' (par c) = Some r) as B by (apply ownr_iff; congruence).
           pose proof (H2 c (or_introl eq_refl) A B) as Hd. apply has_find in Hd. destruct Hd as (v & Ev). rewrite Ev. reflexivity.
        -- destruct (b1 && b2); [rewrite find_del, find_put; replace (k =? c) with false by lia|]; reflexivity.
      * rewrite Q4. reflexivity.
      * intros k. rewrite Q5, mem_cons. cbn [s_pin s1]. rewrite find_del. destruct (Z.eqb_spec k c) as [->|]; cbn [orb]; destruct (mem _ L); reflexivity.
      * intros k. rewrite Q6, mem_cons. cbn [s_newpin s1]. rewrite find_del. destruct (Z.eqb_spec k c) as [->|]; cbn [orb]; destruct (mem _ L); reflexivity.
      * intros k. rewrite Q7, mem_cons. cbn [s_wt s1]. rewrite find_del. destruct (Z.eqb_spec k c) as [->|]; cbn [orb]; destruct (mem _ L); reflexivity.
      * intros q k. rewrite Q8. cbn [In]. unfold send1. destruct (b1 && negb b2) eqn:Eb.
        -- apply andb_true_iff in Eb. destruct Eb as [Eb1 Eb2]. unfold b1, b2 in *. apply negb_true_iff in Eb2. assert (pc = r) by lia. assert (pp <> r) by lia. cbn [In]. split.
           ++ intros [[Q|Q]|Q]; [injection Q as <- <-; right; split; [auto|]; split; [congruence|]; split; congruence|auto|right; tauto].
           ++ intros [Q|([<-|Q] & A & B & C)]; [auto| |right; auto]. left. left. congruence.
        -- split; [tauto|]. intros [Q|([<-|Q] & A & B & C)]; [auto| |right; auto]. exfalso. unfold b1, b2 in Eb. assert (pc = r) by congruence. assert (pp = q) by congruence.
           replace (r =? pc) with true in Eb by lia. replace (r =? pp) with false in Eb by lia. discriminate.
      * intros q k. rewrite Q9. cbn [In]. unfold recv1. destruct (negb b1 && b2) eqn:Eb.
        -- apply andb_true_iff in Eb. destruct Eb as [Eb1 Eb2]. unfold b1, b2 in *. apply negb_true_iff in Eb1. assert (pc <> r) by lia. assert (pp = r) by lia. cbn [In]. split.
           ++ intros [[Q|Q]|Q]; [injection Q as <- <-; right; split; [auto|]; split; [congruence|]; split; congruence|auto|right; tauto].
           ++ intros [Q|([<-|Q] & A & B & C)]; [auto| |right; auto]. left. left. congruence.
        -- split; [tauto|]. intros [Q|([<-|Q] & A & B & C)]; [auto| |right; auto]. exfalso. unfold b1, b2 in Eb. assert (pc = q) by congruence. assert (pp = r) by congruence.
           replace (r =? pc) with false in Eb by lia. replace (r =? pp) with true in Eb by lia. discriminate.
      * intros Nd Fr. apply Q10; unfold send1; destruct (b1 && negb b2); cbn [map snd]; auto.
        -- constructor; [apply Fr; left; reflexivity|assumption].
        -- intros k Hk [<-|Q]; [contradiction|]. apply (Fr k (or_intror Hk) Q).
        -- intros k Hk. apply Fr. right. assumption.
      * intros Nd Fr. apply Q11; unfold recv1; destruct (negb b1 && b2); cbn [map snd]; auto.
        -- constructor; [apply Fr; left; reflexivity|assumption].
        -- intros k Hk [<-|Q]; [contradiction|]. apply (Fr k (or_intror Hk) Q).
        -- intros k Hk. apply Fr. right. assumption.
      * intros Nd. apply Q12. apply del_NoDup. assumption.
      * intros Nd. apply Q13. cbn [s_data s1]. destruct (b1 && b2); [apply del_NoDup|]; assumption.
Qed.
End Unrefines.

(** ** Transfers *)
Lemma listed_In q l k : In k (listed q l) <-> In (q, k) l.
Proof.
  unfold listed. rewrite sort_In, in_map_iff. split.
  - intros ([a b] & E & Hi). apply filter_In in Hi. cbn [fst snd] in *. destruct Hi as [Hi Ea]. apply Z.eqb_eq in Ea. subst. assumption.
  - intros Hi. exists (q, k). split; [reflexivity|]. apply filter_In. split; [assumption|]. apply Z.eqb_refl.
Qed.
Lemma listed_NoDup q l : NoDup (map snd l) -> NoDup (listed q l).
Proof.
  intros N. apply sort_NoDup. induction l as [|[a b] l IH]; cbn [filter map]; [constructor|]. cbn [map snd fst] in *. apply NoDup_cons_iff in N.
  destruct (a =? q); cbn [map snd]; [|apply IH; tauto]. constructor; [|apply IH; tauto]. intros Q. apply N. rewrite in_map_iff in *. destruct Q as (x & E & Q). exists x. split; [assumption|]. apply filter_In in Q. tauto.
Qed.
Lemma listed_same q q' l l' : NoDup (map snd l) -> NoDup (map snd l') -> (forall k, In (q, k) l <-> In (q', k) l') -> listed q l = listed q' l'.
Proof.
  intros N N' E. apply sorted_eq; try apply sort_sorted; try (apply listed_NoDup; assumption). intros k. rewrite !listed_In. apply E.
Qed.

Lemma receive_ok (from : list (Z * D)) l : forall dest, NoDup l -> (forall c, In c l -> has c from = true) ->
  exists dest', receive from l l dest = Done dest' /\ (forall k, find k dest' = if mem k l then find k from else find k dest).
Proof.
  induction l as [|c l IH]; intros dest N Hf; cbn [receive]; [exists dest; auto|]. apply NoDup_cons_iff in N.
  pose proof (Hf c (or_introl eq_refl)) as Hc. apply has_find in Hc. destruct Hc as (v & Ev). unfold at_. rewrite Ev. cbn [bind].
  destruct (IH (put c v dest)) as (dest' & E & Q); [tauto|intros; apply Hf; right; assumption|]. exists dest'. split; [assumption|].
  intros k. rewrite Q, mem_cons, find_put. destruct (Z.eqb_spec k c) as [->|]; cbn [orb]; [|reflexivity]. rewrite (proj2 (mem_not c l)) by tauto. congruence.
Qed.

Lemma receives_ok (lst : Z -> list Z) (datas : Z -> list (Z * D)) (src : Z -> option Z) (lst' : Z -> list Z) qs : forall dest,
  (forall q, In q qs -> lst q = lst' q /\ NoDup (lst q)) -> (forall q c, In q qs -> In c (lst q) -> has c (datas q) = true) ->
  (forall q c, In q qs -> In c (lst q) <-> src c = Some q) -> NoDup qs -> (forall c q, src c = Some q -> In q qs) ->
  exists dest', foldM (fun dest q => receive (datas q) (lst q) (lst' q) dest) qs dest = Done dest' /\
    forall k, find k dest' = match src k with Some q => find k (datas q) | None => find k dest end.
Proof.
  intros dest H1 H2 H3 N H4.
  assert (forall qs', incl qs' qs -> NoDup qs' -> forall dest, exists dest', foldM (fun dest q => receive (datas q) (lst q) (lst' q) dest) qs' dest = Done dest' /\
    forall k, find k dest' = match src k with Some q => if mem q qs' then find k (datas q) else find k dest | None => find k dest end) as G.
  { induction qs' as [|q qs' IH]; intros I Nq dst; cbn [foldM].
    - exists dst. split; [reflexivity|]. intros k. cbn [mem existsb]. destruct (src k); reflexivity.
    - pose proof (I q (or_introl eq_refl)) as Iq. destruct (H1 q Iq) as [El Nl]. rewrite <- El. apply NoDup_cons_iff in Nq. destruct Nq as [Nq Nqs].
      destruct (receive_ok (datas q) (lst q) dst Nl (fun c Hc => H2 q c Iq Hc)) as (d1 & E1 & P1). rewrite E1. cbn [bind].
      destruct (IH (fun x Hx => I x (or_intror Hx)) Nqs d1) as (d2 & E2 & P2). exists d2. split; [assumption|]. intros k. rewrite P2, P1.
      destruct (src k) as [w|] eqn:Ew.
      + rewrite mem_cons. destruct (Z.eqb_spec w q) as [->|Nw]; cbn [orb].
        * rewrite (proj2 (mem_not q qs') Nq). rewrite (proj2 (mem_In k (lst q))) by (apply H3; assumption). reflexivity.
        * destruct (mem w qs'); [reflexivity|]. rewrite (proj2 (mem_not k (lst q))); [reflexivity|]. rewrite H3 by assumption. congruence.
      + rewrite (proj2 (mem_not k (lst q))); [reflexivity|]. rewrite H3 by assumption. congruence. }
  destruct (G qs (incl_refl qs) N dest) as (d & E & P). exists d. split; [assumption|]. intros k. rewrite P. destruct (src k) as [w|] eqn:Ew; [|reflexivity].
  rewrite (proj2 (mem_In w qs)) by (apply (H4 k); assumption). reflexivity.
Qed.

(** data of merged parents *)
Lemma parents_fold (r : Z) (cp : list (Z * Z)) (own' : Z -> option Z) ps : forall f,
  (forall p, In p ps -> find p cp = own' p /\ exo own' p = true) ->
  exists f', foldM (fun f c => do w <- at_ c cp; Done (if w =? r then touch c d0 f else f)) ps f = Done f' /\
    (forall k, find k f' = if mem k ps && ownr r own' k && negb (has k f) then Some d0 else find k f) /\
    (NoDup (keys f) -> NoDup (keys f')).
Proof.
  induction ps as [|p ps IH]; intros f Hp; cbn [foldM]; [exists f; split; [reflexivity|]; split; [reflexivity|auto]|].
  destruct (Hp p (or_introl eq_refl)) as (Fp & Ep). apply exo_some in Ep. destruct Ep as (q & Oq). unfold at_ at 1. rewrite Fp, Oq. cbn [bind].
  destruct (IH (if q =? r then touch p d0 f else f)) as (f' & E & Q & Nd); [intros; apply Hp; right; assumption|].
  exists f'. split; [assumption|]. split.
  - intros k. rewrite Q, mem_cons. assert (ownr r own' p = (q =? r)) as Op by (unfold ownr; rewrite Oq; reflexivity).
    destruct (q =? r).
    + rewrite has_touch, find_touch. destruct (Z.eqb_spec k p) as [->|]; cbn [orb andb negb]; [|reflexivity]. rewrite Op, andb_false_r. reflexivity.
    + destruct (Z.eqb_spec k p) as [->|]; cbn [orb andb]; [|reflexivity]. rewrite Op, andb_false_r. reflexivity.
  - intros N. apply Nd. destruct (q =? r); [apply touch_NoDup|]; assumption.
Qed.
End Fold.
