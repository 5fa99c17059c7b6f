(** Finite sets and maps of cell ids as lists: std::unordered_set<uint64_t>, std::set<uint64_t>
    and std::unordered_map<uint64_t, A>.  The order of a list is the (arbitrary) iteration order
    of the container; theorems hold for every order. *)
From Coq Require Export List ZArith Lia Bool.
Export ListNotations.
Open Scope Z_scope.

Definition mem (x : Z) (l : list Z) : bool := existsb (Z.eqb x) l.
Definition adds (x : Z) (l : list Z) : list Z := if mem x l then l else x :: l.
Definition addall (xs l : list Z) : list Z := fold_right adds l xs.
Definition dels (x : Z) (l : list Z) : list Z := filter (fun y => negb (y =? x)) l.
Definition delall (xs l : list Z) : list Z := filter (fun y => negb (mem y xs)) l.

(** std::set: increasing, without duplicates *)
Fixpoint sins (x : Z) (l : list Z) : list Z :=
  match l with
  | [] => [x]
  | y :: r => if x <? y then x :: l else if x =? y then l else y :: sins x r
  end.
(** std::sort of a vector of ids *)
Fixpoint insert (x : Z) (l : list Z) : list Z :=
  match l with [] => [x] | y :: r => if x <=? y then x :: l else y :: insert x r end.
Definition sort (l : list Z) : list Z := fold_right insert [] l.

Section Maps.
Context {A : Type}.
Fixpoint find (k : Z) (f : list (Z * A)) : option A :=
  match f with [] => None | (j, a) :: r => if k =? j then Some a else find k r end.
Definition has (k : Z) (f : list (Z * A)) : bool := match find k f with Some _ => true | None => false end.
Definition del (k : Z) (f : list (Z * A)) : list (Z * A) := filter (fun p => negb (fst p =? k)) f.
Definition put (k : Z) (a : A) (f : list (Z * A)) : list (Z * A) := (k, a) :: del k f.
Definition keys (f : list (Z * A)) : list Z := map fst f.
(** operator[] used only to create the entry *)
Definition touch (k : Z) (a : A) (f : list (Z * A)) : list (Z * A) := if has k f then f else put k a f.
End Maps.

Lemma mem_In x l : mem x l = true <-> In x l.
Proof.
  unfold mem. rewrite existsb_exists. split; [intros (y & H & E); apply Z.eqb_eq in E; subst; assumption|].
  intros H. exists x. rewrite Z.eqb_refl. auto.
Qed.
Lemma mem_not x l : mem x l = false <-> ~ In x l.
Proof. rewrite <- mem_In. destruct (mem x l); split; congruence. Qed.
Lemma adds_In x y l : In y (adds x l) <-> y = x \/ In y l.
Proof.
  unfold adds. destruct (mem x l) eqn:E; [|cbn; split; intros [H|H]; auto].
  apply mem_In in E. split; [auto|]. intros [->|H]; assumption.
Qed.
Lemma adds_NoDup x l : NoDup l -> NoDup (adds x l).
Proof. intros N. unfold adds. destruct (mem x l) eqn:E; [assumption|]. constructor; [apply mem_not; assumption|assumption]. Qed.
Lemma addall_In xs y l : In y (addall xs l) <-> In y xs \/ In y l.
Proof.
  unfold addall. induction xs as [|x xs IH]; cbn [fold_right In]; [tauto|]. rewrite adds_In, IH.
  split; intros [H|H]; auto; destruct H; auto.
Qed.
Lemma addall_NoDup xs l : NoDup l -> NoDup (addall xs l).
Proof. intros N. unfold addall. induction xs as [|x xs IH]; cbn; [assumption|]. apply adds_NoDup, IH. Qed.
Lemma dels_In x y l : In y (dels x l) <-> In y l /\ y <> x.
Proof. unfold dels. rewrite filter_In. destruct (Z.eqb_spec y x); cbn; intuition congruence. Qed.
Lemma delall_In xs y l : In y (delall xs l) <-> In y l /\ ~ In y xs.
Proof. unfold delall. rewrite filter_In. rewrite <- mem_not. destruct (mem y xs); cbn; intuition congruence. Qed.
Lemma sins_In x y l : In y (sins x l) <-> y = x \/ In y l.
Proof.
  induction l as [|z r IH]; cbn [sins In]; [intuition|].
  destruct (Z.ltb_spec x z); [cbn; intuition|]. destruct (Z.eqb_spec x z) as [->|N]; cbn [In]; [intuition|].
  rewrite IH. intuition.
Qed.
Lemma insert_In x y l : In y (insert x l) <-> y = x \/ In y l.
Proof. induction l as [|z r IH]; cbn [insert In]; [intuition|]. destruct (Z.leb_spec x z); cbn [In]; [intuition|]. rewrite IH. intuition. Qed.
Lemma sort_In y l : In y (sort l) <-> In y l.
Proof. unfold sort. induction l as [|x l IH]; cbn [fold_right In]; [tauto|]. rewrite insert_In, IH. intuition. Qed.

Lemma find_del {A} k j (f : list (Z * A)) : find j (del k f) = if j =? k then None else find j f.
Proof.
  induction f as [|[i a] r IH]; cbn [del filter find fst]; [destruct (j =? k); reflexivity|].
  fold (del k r). destruct (Z.eqb_spec i k) as [->|N]; cbn [negb].
  - rewrite IH. destruct (j =? k); reflexivity.
  - cbn [find]. rewrite IH. destruct (Z.eqb_spec j i) as [->|]; [|reflexivity].
    destruct (Z.eqb_spec i k); [contradiction|reflexivity].
Qed.
Lemma find_put {A} k j (a : A) f : find j (put k a f) = if j =? k then Some a else find j f.
Proof. unfold put. cbn [find]. rewrite find_del. destruct (j =? k); reflexivity. Qed.
Lemma has_find {A} k (f : list (Z * A)) : has k f = true <-> exists a, find k f = Some a.
Proof. unfold has. destruct (find k f) as [a|]; split; intros H; try discriminate; eauto. destruct H; discriminate. Qed.
Lemma has_not {A} k (f : list (Z * A)) : has k f = false <-> find k f = None.
Proof. unfold has. destruct (find k f); split; congruence. Qed.
Lemma find_touch {A} k j (a : A) f : find j (touch k a f) = if (j =? k) && negb (has k f) then Some a else find j f.
Proof.
  unfold touch. destruct (has k f) eqn:E; cbn [negb]; [rewrite andb_false_r; reflexivity|].
  rewrite find_put, andb_true_r. reflexivity.
Qed.
Lemma find_In {A} k (a : A) f : find k f = Some a -> In (k, a) f.
Proof.
  induction f as [|[j b] r IH]; cbn [find In]; [discriminate|].
  destruct (Z.eqb_spec k j) as [->|]; [intros [= ->]; auto|auto].
Qed.
Lemma keys_find {A} k (f : list (Z * A)) : In k (keys f) <-> exists a, find k f = Some a.
Proof.
  unfold keys. induction f as [|[j b] r IH]; cbn [map fst In find]; [split; [intros []|intros [? [=]]]|].
  rewrite IH. destruct (Z.eqb_spec k j) as [->|N]; split; intros H; eauto.
  - destruct H as [H|H]; [congruence|assumption].
Qed.
Lemma keys_del {A} k j (f : list (Z * A)) : In j (keys (del k f)) <-> In j (keys f) /\ j <> k.
Proof. rewrite !keys_find, find_del. destruct (Z.eqb_spec j k); split; [intros [? [=]]|intros []; contradiction|auto|tauto]. Qed.
Lemma del_NoDup {A} k (f : list (Z * A)) : NoDup (keys f) -> NoDup (keys (del k f)).
Proof.
  unfold keys, del. induction f as [|[j a] r IH]; cbn [map filter fst]; [auto|]. intros N. apply NoDup_cons_iff in N.
  destruct (negb (j =? k)); cbn [map fst]; [|apply IH; tauto]. constructor; [|apply IH; tauto].
  intros H. apply N. rewrite in_map_iff in *. destruct H as (x & E & H). exists x. split; [assumption|]. apply filter_In in H. tauto.
Qed.
Lemma put_NoDup {A} k (a : A) f : NoDup (keys f) -> NoDup (keys (put k a f)).
Proof.
  intros N. unfold put. cbn [keys map fst]. constructor; [|apply del_NoDup; assumption].
  fold (keys (del k f)). rewrite keys_del. tauto.
Qed.
Lemma In_find {A} k (a : A) f : NoDup (keys f) -> In (k, a) f -> find k f = Some a.
Proof.
  unfold keys. induction f as [|[j b] r IH]; cbn [map fst find In]; [intros _ []|]. intros N H. apply NoDup_cons_iff in N.
  destruct H as [[= -> ->]|H]; [rewrite Z.eqb_refl; reflexivity|].
  destruct (Z.eqb_spec k j) as [->|]; [|apply IH; tauto]. exfalso. apply N. apply in_map_iff. exists (j, a). auto.
Qed.
