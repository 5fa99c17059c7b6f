(** C81: the lists of live neighbors on one process. *)
From Verif Require Import U64 MapModel MapSpec MapProofs MapFamily MapProps HoodModel MeshModel
  MeshSpec MeshBase HoodProps Sets RefineModel BalanceModel Create History CommModel CommInv ProgramModel LifeModel.
From Coq Require Import Permutation.
Open Scope Z_scope.

(** list r has room for eight entries, the first of which are those in l *)
Definition filled (r l : list Z) : Prop := NoDup l /\ ~ In error_cell l /\ (length l <= 8)%nat /\ r = l ++ repeat error_cell (8 - length l).
Lemma filled_empty : filled empty [].
Proof. split; [constructor|]. split; [intros []|]. split; [cbn; lia|reflexivity]. Qed.
Lemma record_in p l s : In p l -> ~ In error_cell l -> record p (l ++ s) = Some (l ++ s).
Proof.
  induction l as [|e l IH]; intros I N; [destruct I|]. cbn [app record]. destruct (Z.eqb_spec e p) as [->|Ne]; [reflexivity|]. destruct (Z.eqb_spec e error_cell) as [->|Nz]; [exfalso; apply N; left; reflexivity|].
  destruct I as [->|I]; [congruence|]. rewrite IH; [reflexivity|assumption|]. intros Q. apply N. right. assumption.
Qed.
Lemma record_out p l s : ~ In p l -> ~ In error_cell l -> p <> error_cell -> record p (l ++ error_cell :: s) = Some (l ++ p :: s).
Proof.
  induction l as [|e l IH]; intros I N P; cbn [app record].
  - destruct (Z.eqb_spec error_cell p); [congruence|]. rewrite Z.eqb_refl. reflexivity.
  - destruct (Z.eqb_spec e p) as [->|Ne]; [exfalso; apply I; left; reflexivity|]. destruct (Z.eqb_spec e error_cell) as [->|Nz]; [exfalso; apply N; left; reflexivity|].
    rewrite IH; [reflexivity| | |assumption]; intros Q; [apply I|apply N]; right; assumption.
Qed.
Lemma record_ok p r l (F : list Z) : filled r l -> (length F <= 8)%nat -> incl l F -> In p F -> p <> error_cell ->
  exists r' l', record p r = Some r' /\ filled r' l' /\ incl l' F /\ forall e, In e l' <-> In e l \/ e = p.
Proof.
  intros (N & Z0 & L & ->) LF I Ip P. destruct (in_dec Z.eq_dec p l) as [J|J].
  - exists (l ++ repeat error_cell (8 - length l)), l. rewrite record_in by assumption. split; [reflexivity|]. split; [split; [assumption|split; [assumption|split; [assumption|reflexivity]]]|]. split; [assumption|]. intros e. split; [auto|]. intros [Q|Q]; [assumption|subst e; assumption].
  - assert (length l < 8)%nat as L'.
    { pose proof (@NoDup_incl_length Z (p :: l) F (NoDup_cons _ J N)) as Q. cbn [length] in Q. assert (incl (p :: l) F) as Q2 by (intros e [<-|Q2]; auto). specialize (Q Q2). lia. }
    replace (8 - length l)%nat with (S (8 - S (length l))) by lia. cbn [repeat]. exists (l ++ p :: repeat error_cell (8 - S (length l))), (l ++ [p]). rewrite record_out by assumption. split; [reflexivity|]. split; [|split].
    + split; [|split; [|split]].
      * apply NoDup_Add with p l; [|split; assumption]. pose proof (Add_app p l []) as Q. rewrite app_nil_r in Q. exact Q.
      * rewrite in_app_iff. intros [Q|[Q|[]]]; [tauto|congruence].
      * rewrite app_length. cbn [length]. lia.
      * rewrite app_length. cbn [length]. rewrite <- app_assoc. cbn [app]. repeat f_equal. lia.
    + intros e Q. apply in_app_iff in Q. destruct Q as [Q|[<-|[]]]; auto.
    + intros e. rewrite in_app_iff. cbn [In]. split; [intros [Q|[Q|[]]]; auto|intros [Q|Q]; auto].
Qed.
Lemma pour_ok (F : list Z) lf k : (length F <= 8)%nat -> ~ In error_cell lf -> incl lf F -> forall to lt, filled to lt -> incl lt F ->
  exists r' l', pour (lf ++ repeat error_cell k) to = Some r' /\ filled r' l' /\ incl l' F /\ forall e, In e l' <-> In e lt \/ In e lf.
Proof.
  intros LF. induction lf as [|e lf IH]; intros N I to lt Ft It; cbn [app].
  - exists to, lt. split; [destruct k; [reflexivity|cbn [repeat pour]; rewrite Z.eqb_refl; reflexivity]|]. split; [assumption|]. split; [assumption|]. intros e. cbn [In]. tauto.
  - cbn [pour]. destruct (Z.eqb_spec e error_cell) as [->|Ne]; [exfalso; apply N; left; reflexivity|].
    destruct (record_ok e to lt F Ft LF It (I e (or_introl eq_refl)) Ne) as (r & l & -> & Fr & Il & El). destruct (IH (fun Q => N (or_intror Q)) (fun a Q => I a (or_intror Q)) r l Fr Il) as (r' & l' & E & Fr' & Il' & El').
    exists r', l'. split; [assumption|]. split; [assumption|]. split; [assumption|]. intros a. rewrite El', El. cbn [In]. split; [intros [[Q|Q]|Q]; auto|intros [Q|[Q|Q]]; auto].
Qed.
Lemma count_filled r l : filled r l -> count r = Z.of_nat (length l).
Proof.
  intros (_ & N & _ & ->). unfold count. rewrite filter_app. f_equal. rewrite app_length.
  assert (forall k, filter (fun e => negb (e =? error_cell)) (repeat error_cell k) = []) as -> by (intros k; induction k as [|k IH]; cbn [repeat filter]; [reflexivity|]; rewrite Z.eqb_refl; cbn [negb]; assumption).
  assert (filter (fun e => negb (e =? error_cell)) l = l) as ->; [|cbn [length]; lia]. induction l as [|e l IH]; cbn [filter]; [reflexivity|]. destruct (Z.eqb_spec e error_cell) as [->|]; [exfalso; apply N; left; reflexivity|]. cbn [negb]. rewrite IH; [reflexivity|]. intros Q. apply N. right. assumption.
Qed.

Lemma filled_length (l : list Z) : (length l <= 8)%nat -> 8%nat = length (l ++ repeat error_cell (8 - length l)).
Proof. intros L. rewrite app_length, repeat_length. lia. Qed.

Section Process.
Context (m : mapping).
Notation l0 := (get_level_0_parent m).
(** The lists of neighbors, the cells of this process, the state of every cell of level 0 before the turn, and the list of
    cells of level 0 that may become entries of the lists of the cells inside a cell of level 0. *)
Context (nb : Z -> list Z) (cells : list Z) (Hcells : NoDup cells) (st : Z -> Z) (F : Z -> list Z).
Context (HF : forall a, (length (F a) <= 8)%nat).
Context (Hroot : forall c n, In c cells -> In n (nb c) -> n <> error_cell /\ l0 n <> error_cell).
Definition heard (c e : Z) : Prop := e <> l0 c /\ st e <> 0 /\ exists n, In n (nb c) /\ l0 n = e.
Context (Hheard : forall c e, In c cells -> heard c e -> In e (F (l0 c))).
Definition nbrs (c : Z) : option (list Z) := Some (nb c).

(** *** first half *)
Lemma hear_all (s : memory) c : In c cells -> (forall n, In n (nb c) -> l0 n <> l0 c -> exists d, s n = Some d /\ on d = st (l0 n)) ->
  exists r l, fold_left (hear m s c) (nb c) (Some empty) = Some r /\ filled r l /\ forall e, In e l <-> heard c e.
Proof.
  intros Ic Hs.
  assert (forall pre post r l, nb c = pre ++ post -> filled r l -> (forall e, In e l <-> e <> l0 c /\ st e <> 0 /\ exists n, In n pre /\ l0 n = e) ->
    exists r' l', fold_left (hear m s c) post (Some r) = Some r' /\ filled r' l' /\ forall e, In e l' <-> heard c e) as K.
  { intros pre post. revert pre. induction post as [|n post IH]; intros pre r l E Fr Hl; cbn [fold_left].
    - exists r, l. split; [reflexivity|]. split; [assumption|]. intros e. rewrite Hl. unfold heard. rewrite E, app_nil_r. reflexivity.
    - assert (In n (nb c)) as In_n by (rewrite E; apply in_app_iff; right; left; reflexivity). destruct (Hroot c n Ic In_n) as [Nn Nl].
      assert (nb c = (pre ++ [n]) ++ post) as E' by (rewrite <- app_assoc; exact E).
      assert (forall e, (exists n', In n' (pre ++ [n]) /\ l0 n' = e) <-> (exists n', In n' pre /\ l0 n' = e) \/ l0 n = e) as Q.
      { intros e. split; [intros (n' & I & Q)|intros [(n' & I & Q)|Q]].
        - apply in_app_iff in I. destruct I as [I|[<-|[]]]; [left; eauto|right; assumption].
        - exists n'. rewrite in_app_iff. auto.
        - exists n. rewrite in_app_iff. cbn [In]. auto. }
      cbn [hear]. destruct (Z.eqb_spec n error_cell); [contradiction|]. destruct (Z.eqb_spec (l0 n) (l0 c)) as [Es|Ns].
      + apply (IH (pre ++ [n]) r l E' Fr). intros e. rewrite Hl, Q. split; [intros (A & B & C); auto|]. intros (A & B & [C|C]); [auto|congruence].
      + destruct (Hs n In_n Ns) as (d & -> & Ed). rewrite Ed. destruct (Z.eqb_spec (st (l0 n)) 0) as [Z0|Nz].
        * destruct (existsb (fun e => e =? l0 n) r) eqn:Eb.
          { exfalso. apply existsb_exists in Eb. destruct Eb as (e & Ie & Q'). apply Z.eqb_eq in Q'. subst e. destruct Fr as (_ & _ & _ & ->). apply in_app_iff in Ie. destruct Ie as [Ie|Ie]; [apply Hl in Ie; tauto|]. apply repeat_spec in Ie. congruence. }
          apply (IH (pre ++ [n]) r l E' Fr). intros e. rewrite Hl, Q. split; [intros (A & B & C); auto|]. intros (A & B & [C|C]); [auto|congruence].
        * destruct (record_ok (l0 n) r l (F (l0 c)) Fr (HF _)) as (r' & l' & -> & Fr' & _ & El'); [| |assumption|].
          { intros e I. apply Hl in I. apply (Hheard c e Ic). destruct I as (A & B & n' & I' & C). split; [assumption|]. split; [assumption|]. exists n'. split; [rewrite E; apply in_app_iff; auto|assumption]. }
          { apply (Hheard c _ Ic). split; [assumption|]. split; [assumption|]. exists n. auto. }
          apply (IH (pre ++ [n]) r' l' E' Fr'). intros e. rewrite El', Hl, Q. split; [intros [(A & B & C)|C]|intros (A & B & [C|C])]; [auto|subst e; auto|auto|auto]. }
  apply (K [] (nb c) empty [] eq_refl filled_empty). intros e. cbn [In]. split; [intros []|]. intros (_ & _ & n & [] & _).
Qed.
Lemma put_same s c d : put s c d c = Some d. Proof. unfold put. rewrite Z.eqb_refl. reflexivity. Qed.
Lemma put_other s c d y : y <> c -> put s c d y = s y. Proof. intros N. unfold put. destruct (Z.eqb_spec y c); [contradiction|reflexivity]. Qed.
Lemma first_ok (s : memory) : (forall c, In c cells -> exists d, s c = Some d /\ on d = st (l0 c)) ->
  (forall c n, In c cells -> In n (nb c) -> exists d, s n = Some d /\ on d = st (l0 n)) ->
  exists s', first_half m nbrs cells s = Some s' /\ (forall y, ~ In y cells -> s' y = s y) /\
    forall c, In c cells -> exists r l, s' c = Some (Life (st (l0 c)) r) /\ filled r l /\ forall e, In e l <-> heard c e.
Proof.
  intros Hc Hn. unfold first_half.
  assert (forall todo done s1, cells = done ++ todo -> (forall y d, s y = Some d -> exists d', s1 y = Some d' /\ on d' = on d) -> (forall y, ~ In y done -> s1 y = s y) ->
    (forall c, In c done -> exists r l, s1 c = Some (Life (st (l0 c)) r) /\ filled r l /\ forall e, In e l <-> heard c e) ->
    exists s', fold_left (listen m nbrs) todo (Some s1) = Some s' /\ (forall y, ~ In y cells -> s' y = s y) /\
      forall c, In c cells -> exists r l, s' c = Some (Life (st (l0 c)) r) /\ filled r l /\ forall e, In e l <-> heard c e) as K.
  { induction todo as [|c todo IH]; intros done s1 E A B C; cbn [fold_left].
    - exists s1. rewrite app_nil_r in E. subst done. auto.
    - assert (In c cells) as Ic by (rewrite E; apply in_app_iff; right; left; reflexivity). destruct (Hc c Ic) as (d & Ed & Od). destruct (A c d Ed) as (d' & Ed' & Od').
      cbn [listen]. change (nbrs c) with (Some (nb c)). rewrite Ed'. destruct (hear_all s1 c Ic) as (r & l & -> & Fr & Hl).
      { intros n I _. destruct (Hn c n Ic I) as (dn & En & On). destruct (A n dn En) as (dn' & En' & On'). exists dn'. split; [assumption|congruence]. }
      assert (~ In c done) as Nc by (rewrite E in Hcells; apply NoDup_remove_2 in Hcells; intros Q; apply Hcells, in_app_iff; auto).
      apply (IH (done ++ [c]) (put s1 c (Life (on d') r))).
      + rewrite <- app_assoc. exact E.
      + intros y dy Ey. destruct (Z.eq_dec y c) as [->|Ny]; [rewrite put_same; exists (Life (on d') r); split; [reflexivity|cbn [on]; congruence]|rewrite put_other by assumption; apply A; assumption].
      + intros y Ny. rewrite in_app_iff in Ny. cbn [In] in Ny. rewrite put_other by (intros ->; tauto). apply B. tauto.
      + intros y Iy. apply in_app_iff in Iy. destruct Iy as [Iy|[<-|[]]].
        * rewrite put_other by (intros ->; contradiction). apply C. assumption.
        * rewrite put_same. exists r, l. rewrite Od', Od. auto. }
  apply (K cells [] s); [reflexivity|eauto|auto|intros c []].
Qed.

(** *** second half *)
(** entries that a cell has after the first half: [own c e] *)
Context (own : Z -> Z -> Prop) (Hown : forall c e, own c e -> In e (F (l0 c))).
Definition gathered (c e : Z) : Prop := own c e \/ exists n, In n (nb c) /\ l0 n = l0 c /\ own n e.
(** everything that any cell inside the same cell of level 0 has is seen by each of them *)
Context (Hall : forall c n, In c cells -> In n (nb c) -> l0 n = l0 c -> forall e, gathered n e -> gathered c e).
Context (Hlocal : forall n, In n cells -> forall e, gathered n e -> In e (F (l0 n))).

Definition between (s0 s : memory) : Prop := forall y d0 l0', s0 y = Some d0 -> filled (ring d0) l0' -> (forall e, In e l0' <-> own y e) ->
  exists d l, s y = Some d /\ on d = on d0 /\ filled (ring d) l /\ (forall e, own y e -> In e l) /\ forall e, In e l -> (In y cells /\ gathered y e) \/ own y e.
Lemma ask_all (s0 s : memory) c : In c cells -> between s0 s ->
  (forall y, y = c \/ In y (nb c) /\ l0 y = l0 c -> exists d l, s0 y = Some d /\ filled (ring d) l /\ forall e, In e l <-> own y e) ->
  exists s', fold_left (ask m c) (nb c) (Some s) = Some s' /\ between s0 s' /\ (forall y, y <> c -> s' y = s y) /\
    exists d l, s' c = Some d /\ filled (ring d) l /\ forall e, In e l <-> gathered c e.
Proof.
  intros Ic Bt H0.
  assert (forall post pre s1, nb c = pre ++ post -> between s0 s1 -> (forall y, y <> c -> s1 y = s y) ->
    (exists d l, s1 c = Some d /\ filled (ring d) l /\ (forall e, In e l -> gathered c e) /\ forall e, own c e \/ (exists n, In n pre /\ l0 n = l0 c /\ own n e) -> In e l) ->
    exists s', fold_left (ask m c) post (Some s1) = Some s' /\ between s0 s' /\ (forall y, y <> c -> s' y = s y) /\
      exists d l, s' c = Some d /\ filled (ring d) l /\ forall e, In e l <-> gathered c e) as K.
  { induction post as [|n post IH]; intros pre s1 E B1 S1 (d & l & Ed & Fd & L1 & L2); cbn [fold_left].
    - exists s1. split; [reflexivity|]. split; [assumption|]. split; [assumption|]. exists d, l. split; [assumption|]. split; [assumption|]. intros e. split; [apply L1|]. intros Q. apply L2. unfold gathered in Q. rewrite E, app_nil_r in Q. exact Q.
    - assert (In n (nb c)) as In_n by (rewrite E; apply in_app_iff; right; left; reflexivity). destruct (Hroot c n Ic In_n) as [Nn Nl].
      assert (nb c = (pre ++ [n]) ++ post) as E' by (rewrite <- app_assoc; exact E).
      cbn [ask]. destruct (Z.eqb_spec n error_cell); [contradiction|]. destruct (Z.eqb_spec (l0 c) (l0 n)) as [Es|Ns]; cbn [negb].
      + destruct (H0 n (or_intror (conj In_n (eq_sym Es)))) as (dn0 & ln0 & En0 & Fn0 & Ln0). destruct (B1 n dn0 ln0 En0 Fn0 Ln0) as (dn & ln & En & On & Fn & N1 & N2). rewrite Ed, En.
        assert (forall e, In e ln -> gathered c e) as G.
        { intros e Q. destruct (N2 e Q) as [[_ Q']|Q']; [apply (Hall c n Ic In_n (eq_sym Es)); assumption|]. right. exists n. auto. }
        pose proof Fn as (_ & Zn & _ & Rn). rewrite Rn. destruct (pour_ok (F (l0 c)) ln (8 - length ln) (HF _) Zn) with (to := ring d) (lt := l) as (r' & l' & -> & Fr' & _ & El').
        { intros e Q. apply (Hlocal c Ic), G, Q. }
        { assumption. }
        { intros e Q. apply (Hlocal c Ic), L1, Q. }
        apply (IH (pre ++ [n]) _ E').
        * intros y dy ly Ey Fy Hy. destruct (Z.eq_dec y c) as [->|Ny]; [|rewrite put_other by assumption; apply (B1 y dy ly Ey Fy Hy)].
          destruct (B1 c dy ly Ey Fy Hy) as (d' & l1 & Ed' & Od' & _). rewrite Ed in Ed'. injection Ed' as <-. rewrite put_same. exists (Life (on d) r'), l'. cbn [on ring]. split; [reflexivity|]. split; [assumption|]. split; [assumption|]. split.
          { intros e Q. apply El'. left. apply L2. auto. }
          { intros e Q. left. split; [assumption|]. apply El' in Q. destruct Q as [Q|Q]; [apply L1|apply G]; assumption. }
        * intros y Ny. rewrite put_other by assumption. apply S1. assumption.
        * exists (Life (on d) r'), l'. rewrite put_same. split; [reflexivity|]. cbn [ring]. split; [assumption|]. split.
          { intros e Q. apply El' in Q. destruct Q as [Q|Q]; [apply L1|apply G]; assumption. }
          { intros e [Q|(n' & I & Ln & Q)]; apply El'; [left; apply L2; auto|]. apply in_app_iff in I. destruct I as [I|[<-|[]]]; [left; apply L2; right; eauto|right; apply N1; assumption]. }
      + apply (IH (pre ++ [n]) s1 E' B1 S1). exists d, l. split; [assumption|]. split; [assumption|]. split; [assumption|]. intros e [Q|(n' & I & Ln & Q)]; apply L2; [auto|]. apply in_app_iff in I. destruct I as [I|[<-|[]]]; [right; eauto|congruence]. }
  destruct (H0 c (or_introl eq_refl)) as (dc0 & lc0 & Ec0 & Fc0 & Lc0). destruct (Bt c dc0 lc0 Ec0 Fc0 Lc0) as (d & l & Ed & Od & Fd & N1 & N2).
  apply (K (nb c) [] s eq_refl Bt); [auto|]. exists d, l. split; [assumption|]. split; [assumption|]. split.
  - intros e Q. destruct (N2 e Q) as [[_ Q']|Q']; [assumption|left; assumption].
  - intros e [Q|(n & [] & _)]. apply N1. assumption.
Qed.
Lemma settle_all todo : forall s : memory, NoDup todo -> (forall c, In c todo -> exists d, s c = Some d) ->
  exists s', fold_left settle todo (Some s) = Some s' /\ (forall y, ~ In y todo -> s' y = s y) /\ forall c d, In c todo -> s c = Some d -> s' c = Some (decide d).
Proof.
  induction todo as [|c todo IH]; intros s N H; cbn [fold_left]; [exists s; split; [reflexivity|]; split; [auto|intros c d []]|]. inversion N as [|? ? N1 N2]; subst. destruct (H c (or_introl eq_refl)) as (d & Ed). cbn [settle]. rewrite Ed.
  destruct (IH (put s c (decide d)) N2) as (s' & E & A & B).
  - intros y Iy. destruct (Z.eq_dec y c) as [->|Ny]; [contradiction|]. rewrite put_other by assumption. apply H. right. assumption.
  - exists s'. split; [assumption|]. split.
    + intros y Ny. cbn [In] in Ny. rewrite A by tauto. apply put_other. intros ->. tauto.
    + intros y dy [<-|Iy] Ey; [rewrite A, put_same by assumption; congruence|]. apply B; [assumption|]. rewrite put_other by (intros ->; contradiction). assumption.
Qed.
Lemma second_ok (s0 : memory) : (forall c y, In c cells -> y = c \/ In y (nb c) /\ l0 y = l0 c -> exists d l, s0 y = Some d /\ filled (ring d) l /\ forall e, In e l <-> own y e) ->
  exists s', second_half m nbrs cells s0 = Some s' /\ (forall y, ~ In y cells -> s' y = s0 y) /\
    forall c d, In c cells -> s0 c = Some d -> exists d' l, s' c = Some d' /\ NoDup l /\ (forall e, In e l <-> gathered c e) /\
      on d' = (if Z.of_nat (length l) =? 3 then 1 else if negb (Z.of_nat (length l) =? 2) then 0 else on d) /\ ring d' = empty.
Proof.
  intros H0. unfold second_half.
  assert (forall todo done s1, cells = done ++ todo -> between s0 s1 -> (forall y, ~ In y done -> s1 y = s0 y) ->
    (forall c, In c done -> exists d l, s1 c = Some d /\ filled (ring d) l /\ forall e, In e l <-> gathered c e) ->
    exists s', fold_left (share m nbrs) todo (Some s1) = Some s' /\ between s0 s' /\ (forall y, ~ In y cells -> s' y = s0 y) /\
      forall c, In c cells -> exists d l, s' c = Some d /\ filled (ring d) l /\ forall e, In e l <-> gathered c e) as K.
  { induction todo as [|c todo IH]; intros done s1 E B1 S1 D1; cbn [fold_left].
    - rewrite app_nil_r in E. subst done. exists s1. auto.
    - assert (In c cells) as Ic by (rewrite E; apply in_app_iff; right; left; reflexivity).
      assert (~ In c done) as Nc by (rewrite E in Hcells; apply NoDup_remove_2 in Hcells; intros Q; apply Hcells, in_app_iff; auto).
      change (share m nbrs (Some s1) c) with (fold_left (ask m c) (nb c) (Some s1)). destruct (ask_all s0 s1 c Ic B1 (fun y => H0 c y Ic)) as (s' & -> & B' & S' & d & l & Ed & Fd & Hl).
      apply (IH (done ++ [c]) s').
      + rewrite <- app_assoc. exact E.
      + assumption.
      + intros y Ny. rewrite in_app_iff in Ny. cbn [In] in Ny. rewrite S' by (intros ->; tauto). apply S1. tauto.
      + intros y Iy. apply in_app_iff in Iy. destruct Iy as [Iy|[<-|[]]]; [rewrite S' by (intros ->; contradiction); apply D1; assumption|eauto]. }
  destruct (K cells [] s0) as (s1 & -> & B1 & S1 & D1); [reflexivity| |auto|intros c []|].
  { intros y d l E Fl Hl. exists d, l. split; [assumption|]. split; [reflexivity|]. split; [assumption|]. split; intros e Q; [apply Hl; assumption|right; apply Hl; assumption]. }
  destruct (settle_all cells s1 Hcells) as (s' & -> & S' & D').
  { intros c Ic. destruct (D1 c Ic) as (d & _ & E & _). eauto. }
  exists s'. split; [reflexivity|]. split; [intros y Ny; rewrite S', S1 by assumption; reflexivity|]. intros c d Ic Ed. destruct (D1 c Ic) as (d1 & l & E1 & F1 & L1).
  destruct (H0 c c Ic (or_introl eq_refl)) as (d' & l' & Ed' & Fl' & Hl'). rewrite Ed in Ed'. injection Ed' as <-. destruct (B1 c d l' Ed Fl' Hl') as (d2 & _ & E2 & O2 & _). rewrite E1 in E2. injection E2 as <-.
  exists (decide d1), l. split; [apply D'; assumption|]. split; [apply F1|]. split; [assumption|]. unfold decide. cbn [on ring]. rewrite (count_filled _ _ F1), O2. split; [reflexivity|].
  destruct F1 as (_ & _ & L8 & ->). unfold empty. rewrite (filled_length l L8) at 2. induction (l ++ repeat error_cell (8 - length l)) as [|e q IH]; cbn [map length repeat]; [reflexivity|]. rewrite IH. reflexivity.
Qed.
End Process.
