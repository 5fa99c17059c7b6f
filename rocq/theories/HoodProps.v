(** Theorems about neighborhoods: C11, C12, C13. *)
From Coq Require Import Sorted FinFun.
From Verif Require Import U64 MapModel MapSpec MapProofs MapFamily MapProps HoodModel MeshModel MeshSpec MeshBase.
Open Scope Z_scope.

(** ** C11 *)
(** z slowest, x fastest *)
Definition zyx_before (a b : idx) : Prop :=
  iz a < iz b \/ (iz a = iz b /\ (iy a < iy b \/ (iy a = iy b /\ ix a < ix b))).

Lemma ss_app {A} (S : A -> A -> Prop) l1 l2 :
  StronglySorted S l1 -> StronglySorted S l2 ->
  (forall a b, In a l1 -> In b l2 -> S a b) -> StronglySorted S (l1 ++ l2).
Proof.
  intros H1 H2 H. induction H1 as [|x l Hl IH Hx]; [assumption|].
  cbn [app]. constructor.
  - apply IH. intros a b Ha Hb. apply H; [right; assumption|assumption].
  - apply Forall_app. split; [assumption|]. apply Forall_forall. intros b Hb. apply H; [left; reflexivity|assumption].
Qed.

Lemma ss_flat_map {A B} (R : A -> A -> Prop) (S : B -> B -> Prop) f l :
  StronglySorted R l -> (forall a, In a l -> StronglySorted S (f a)) ->
  (forall a a' b b', R a a' -> In b (f a) -> In b' (f a') -> S b b') ->
  StronglySorted S (flat_map f l).
Proof.
  intros H Hf HS. induction H as [|x l Hl IH Hx]; [constructor|].
  cbn [flat_map]. apply ss_app.
  - apply Hf. left; reflexivity.
  - apply IH. intros a Ha. apply Hf. right; assumption.
  - intros a b Ha Hb. apply in_flat_map in Hb. destruct Hb as (y & Hy & Hb).
    apply (HS x y); [|assumption|assumption]. rewrite Forall_forall in Hx. apply Hx, Hy.
Qed.

Lemma from_to_in n z : 0 <= n -> (In z (from_to n) <-> - n <= z <= n).
Proof.
  intros Hn. unfold from_to. rewrite in_map_iff. split.
  - intros (k & <- & Hk). apply in_seq in Hk. lia.
  - intros Hz. exists (Z.to_nat (z + n)). split; [lia|]. apply in_seq. lia.
Qed.

Lemma from_to_sorted n : StronglySorted Z.lt (from_to n).
Proof.
  unfold from_to. generalize 0%nat as s. generalize (Z.to_nat (2 * n + 1)) as c.
  induction c as [|c IH]; intros s; cbn [seq map]; [constructor|].
  constructor; [apply IH|]. apply Forall_forall. intros z Hz. apply in_map_iff in Hz.
  destruct Hz as (k & <- & Hk). apply in_seq in Hk. lia.
Qed.

Lemma default_hood_in n h : 0 <= n -> (In h (default_hood_of n) <-> in_default n h).
Proof.
  intros Hn. unfold default_hood_of, in_default. destruct (Z.eqb_spec n 0) as [->|N].
  - cbn [In]. split.
    + intros H. repeat destruct H as [<-|H]; try destruct H.
      * exists DZ, (-1). auto. * exists DY, (-1). auto. * exists DX, (-1). auto.
      * exists DX, 1. auto. * exists DY, 1. auto. * exists DZ, 1. auto.
    + intros (k & s & [->| ->] & ->); destruct k; cbn; auto 10.
  - rewrite in_flat_map. split.
    + intros (z & Hz & H). apply in_flat_map in H. destruct H as (y & Hy & H).
      apply in_flat_map in H. destruct H as (x & Hx & H).
      rewrite from_to_in in Hx, Hy, Hz by lia.
      destruct ((x =? 0) && (y =? 0) && (z =? 0)) eqn:E; cbn [In] in H; [destruct H|].
      destruct H as [<-|[]]. split.
      * intros E'. injection E'; intros; subst. cbn in E. discriminate.
      * intros k; destruct k; cbn [get ix iy iz]; assumption.
    + intros [Hz H]. exists (iz h). split; [apply from_to_in; [lia|apply (H DZ)]|].
      apply in_flat_map. exists (iy h). split; [apply from_to_in; [lia|apply (H DY)]|].
      apply in_flat_map. exists (ix h). split; [apply from_to_in; [lia|apply (H DX)]|].
      destruct ((ix h =? 0) && (iy h =? 0) && (iz h =? 0)) eqn:E.
      * exfalso. apply Hz. destruct h; cbn in *. unfold vzero. f_equal; lia.
      * left. destruct h; reflexivity.
Qed.

Lemma vneg_vneg a : vneg (vneg a) = a.
Proof. apply idx_ext. intros k. rewrite !get_vneg. lia. Qed.

Lemma in_default_neg n h : in_default n h -> in_default n (vneg h).
Proof.
  unfold in_default. destruct (n =? 0).
  - intros (k & s & Hs & ->). exists k, (- s). split; [lia|]. apply idx_ext. intros j.
    rewrite get_vneg. destruct (dim_eq_dec j k) as [->|N].
    + rewrite !get_upd_same. reflexivity.
    + rewrite !get_upd_other, get_vzero by assumption. reflexivity.
  - intros [H0 H]. split.
    + intros E. apply H0. rewrite <- (vneg_vneg h), E. reflexivity.
    + intros k. rewrite get_vneg. specialize (H k). lia.
Qed.

Theorem c11_default_neighborhood n :
  0 <= n ->
  (* exactly the documented offsets, in the documented order, each once *)
  (forall h, In h (default_hood_of n) <-> in_default n h) /\
  NoDup (default_hood_of n) /\
  (0 < n -> StronglySorted zyx_before (default_hood_of n)) /\
  (* the reflected neighborhood is the same set *)
  (forall h, In h (hood_to (default_hood_of n)) <-> In h (default_hood_of n)) /\
  NoDup (hood_to (default_hood_of n)).
Proof.
  intros Hn.
  assert (forall h, In h (hood_to (default_hood_of n)) <-> In h (default_hood_of n)) as Hto.
  { intros h. unfold hood_to. rewrite in_map_iff, default_hood_in by assumption. split.
    - intros (x & <- & Hx). apply in_default_neg. apply default_hood_in; assumption.
    - intros H. exists (vneg h). rewrite vneg_vneg. split; [reflexivity|].
      apply default_hood_in; [assumption|]. apply in_default_neg, H. }
  assert (0 < n -> StronglySorted zyx_before (default_hood_of n)) as HS.
  { intros Hp. unfold default_hood_of. replace (n =? 0) with false by lia.
    apply ss_flat_map with (R := Z.lt); [apply from_to_sorted| |].
    - intros z Hz. apply ss_flat_map with (R := Z.lt); [apply from_to_sorted| |].
      + intros y Hy. apply ss_flat_map with (R := Z.lt); [apply from_to_sorted| |].
        * intros x Hx. destruct (_ && _); repeat constructor.
        * intros x x' b b' Hxx Hb Hb'.
          destruct ((x =? 0) && _ && _); [destruct Hb|]. destruct ((x' =? 0) && _ && _); [destruct Hb'|].
          destruct Hb as [<-|[]]. destruct Hb' as [<-|[]]. unfold zyx_before; cbn. lia.
      + intros y y' b b' Hyy Hb Hb'. apply in_flat_map in Hb, Hb'.
        destruct Hb as (x & _ & Hb). destruct Hb' as (x' & _ & Hb').
        destruct ((x =? 0) && _ && _); [destruct Hb|]. destruct ((x' =? 0) && _ && _); [destruct Hb'|].
        destruct Hb as [<-|[]]. destruct Hb' as [<-|[]]. unfold zyx_before; cbn. lia.
    - intros z z' b b' Hzz Hb Hb'. apply in_flat_map in Hb, Hb'.
      destruct Hb as (y & _ & Hb). destruct Hb' as (y' & _ & Hb'). apply in_flat_map in Hb, Hb'.
      destruct Hb as (x & _ & Hb). destruct Hb' as (x' & _ & Hb').
      destruct ((x =? 0) && _ && _); [destruct Hb|]. destruct ((x' =? 0) && _ && _); [destruct Hb'|].
      destruct Hb as [<-|[]]. destruct Hb' as [<-|[]]. unfold zyx_before; cbn. lia. }
  assert (NoDup (default_hood_of n)) as HN.
  { destruct (Z.eq_dec n 0) as [->|N].
    - unfold default_hood_of; cbn. repeat (constructor; [cbn [In]; intuition discriminate|]). constructor.
    - specialize (HS ltac:(lia)). clear - HS. induction HS as [|x l Hl IH Hx]; [constructor|].
      constructor; [|assumption]. intros Hin. rewrite Forall_forall in Hx. specialize (Hx x Hin).
      unfold zyx_before in Hx. lia. }
  assert (NoDup (hood_to (default_hood_of n))) as HNt.
  { unfold hood_to. apply FinFun.Injective_map_NoDup; [|assumption].
    intros a b E. rewrite <- (vneg_vneg a), E. apply vneg_vneg. }
  split; [intros h; apply default_hood_in, Hn|]. auto.
Qed.
Print Assumptions c11_default_neighborhood.

Example c11_example : length (default_hood_of 2) = 124%nat /\ hd_error (default_hood_of 2) = Some (Idx (-2) (-2) (-2)).
Proof. vm_compute. auto. Qed.

(** ** C12 *)
Inductive hood_op := AddHood (id : Z) (items : hood) | RemoveHood (id : Z).
Definition hood_step (n : Z) (u : hoods) (o : hood_op) : hoods :=
  match o with
  | AddHood id items => snd (add_neighborhood n u id items)
  | RemoveHood id => remove_neighborhood u id
  end.
Definition hood_run (n : Z) (ops : list hood_op) : hoods := fold_left (hood_step n) ops [].

Lemma lookup_in_use u id : existsb (fun p => fst p =? id) u = true <-> hood_lookup u id <> None.
Proof.
  unfold hood_lookup. induction u as [|[j h] u IH]; cbn; [split; [discriminate|congruence]|].
  destruct (j =? id); cbn; [split; [discriminate|reflexivity]|exact IH].
Qed.

Lemma item_ok_default n i : 0 <= n -> (item_ok n i = true <-> in_default n i).
Proof.
  intros Hn. unfold item_ok, in_default. destruct (Z.eqb_spec n 0) as [->|N].
  - replace (0 <? 0) with false by reflexivity. rewrite !andb_true_iff. split.
    + intros (((X & Y) & Z0) & S).
      destruct i as [x y z]; cbn [ix iy iz] in *.
      destruct (Z.eqb_spec x 0), (Z.eqb_spec y 0), (Z.eqb_spec z 0); cbn in S; try discriminate; subst.
      * exists DZ, z. split; [lia|reflexivity].
      * exists DY, y. split; [lia|reflexivity].
      * exists DX, x. split; [lia|reflexivity].
    + intros (k & s & [->| ->] & ->); destruct k; cbn; auto.
  - replace (0 <? n) with true by lia. rewrite !andb_true_iff. split.
    + intros (((X & Y) & Z0) & S). split.
      * intros ->. cbn in S. discriminate.
      * intros k; destruct k; cbn [get]; lia.
    + intros [H0 H]. pose proof (H DX). pose proof (H DY). pose proof (H DZ). cbn [get] in *.
      repeat match goal with |- _ /\ _ => split end; try lia.
      destruct ((ix i =? 0) && (iy i =? 0) && (iz i =? 0)) eqn:E; [|reflexivity].
      exfalso. apply H0. destruct i; cbn in *. unfold vzero. f_equal; lia.
Qed.

(** when a call is accepted, in terms of the documentation *)
Definition add_ok (n : Z) (u : hoods) (id : Z) (items : hood) : Prop :=
  id <> default_neighborhood_id /\ hood_lookup u id = None /\
  forall i, In i items -> In i (default_hood_of n).

Theorem c12_add_neighborhood n u id items :
  0 <= n ->
  let '(ok, u') := add_neighborhood n u id items in
  (ok = true <-> add_ok n u id items) /\
  (* a refused call changes nothing *)
  (ok = false -> u' = u) /\
  (* an accepted one stores the items and leaves the other neighborhoods alone *)
  (ok = true -> hood_lookup u' id = Some items /\
                forall j, j <> id -> hood_lookup u' j = hood_lookup u j).
Proof.
  intros Hn. unfold add_neighborhood, add_ok.
  destruct (Z.eqb_spec id default_neighborhood_id) as [E|E].
  { split; [split; [discriminate|tauto]|]. split; [reflexivity|discriminate]. }
  destruct (existsb (fun p => fst p =? id) u) eqn:U.
  { apply lookup_in_use in U. split; [split; [discriminate|tauto]|]. split; [reflexivity|discriminate]. }
  assert (hood_lookup u id = None) as UN.
  { destruct (hood_lookup u id) eqn:L; [|reflexivity]. assert (existsb (fun p => fst p =? id) u = true) by (apply lookup_in_use; congruence). congruence. }
  destruct (forallb (item_ok n) items) eqn:F.
  - rewrite forallb_forall in F. split; [|split; [discriminate|]].
    + split; [|reflexivity]. intros _. split; [assumption|]. split; [assumption|].
      intros i Hi. apply default_hood_in; [assumption|]. apply item_ok_default; auto.
    + intros _. unfold hood_lookup; cbn. rewrite Z.eqb_refl. split; [reflexivity|].
      intros j Hj. replace (id =? j) with false by lia. reflexivity.
  - split; [|split; [reflexivity|discriminate]]. split; [discriminate|].
    intros (_ & _ & H). exfalso. assert (forallb (item_ok n) items = true); [|congruence].
    apply forallb_forall. intros i Hi. apply item_ok_default; [assumption|]. apply default_hood_in; auto.
Qed.
Print Assumptions c12_add_neighborhood.

Lemma lookup_filter u id j :
  hood_lookup (filter (fun p => negb (fst p =? id)) u) j = if j =? id then None else hood_lookup u j.
Proof.
  unfold hood_lookup. induction u as [|[i h] u IH]; cbn [filter fst find option_map snd]; [destruct (j =? id); reflexivity|].
  destruct (Z.eqb_spec i id) as [->|Ni]; cbn [negb].
  - rewrite IH. destruct (Z.eqb_spec j id) as [Ej|]; [reflexivity|]. replace (id =? j) with false by lia. reflexivity.
  - cbn [find fst]. destruct (Z.eqb_spec i j) as [Ej|]; cbn [option_map snd].
    + rewrite <- Ej; replace (i =? id) with false by lia. reflexivity.
    + exact IH.
Qed.

Theorem c12_remove_neighborhood u id j :
  hood_lookup (remove_neighborhood u id) j =
  if (j =? id) && negb (id =? default_neighborhood_id) then None else hood_lookup u j.
Proof.
  unfold remove_neighborhood. destruct (id =? default_neighborhood_id); cbn [negb].
  - rewrite andb_false_r. reflexivity.
  - rewrite andb_true_r. apply lookup_filter.
Qed.
Print Assumptions c12_remove_neighborhood.

Lemma hood_run_snoc n ops o : hood_run n (ops ++ [o]) = hood_step n (hood_run n ops) o.
Proof. unfold hood_run. rewrite fold_left_app. reflexivity. Qed.

(** neighborhoods in use after any history: added by an accepted call and not removed since;
    they never contain anything outside of the default neighborhood *)
Theorem c12_histories n ops id items :
  0 <= n ->
  (hood_lookup (hood_run n ops) id = Some items <->
   exists before after,
     ops = before ++ AddHood id items :: after /\
     add_ok n (hood_run n before) id items /\
     ~ In (RemoveHood id) after) /\
  (hood_lookup (hood_run n ops) id = Some items ->
   id <> default_neighborhood_id /\ forall i, In i items -> In i (default_hood_of n)).
Proof.
  intros Hn.
  assert (hood_lookup (hood_run n ops) id = Some items <->
   exists before after,
     ops = before ++ AddHood id items :: after /\
     add_ok n (hood_run n before) id items /\
     ~ In (RemoveHood id) after) as K.
  { induction ops as [|o ops IH] using rev_ind.
    - split; [discriminate|]. intros (b & a & E & _). destruct b; discriminate.
    - rewrite hood_run_snoc. destruct o as [i h|i]; cbn [hood_step].
      + pose proof (c12_add_neighborhood n (hood_run n ops) i h Hn) as A.
        destruct (add_neighborhood n (hood_run n ops) i h) as [ok u']. cbn [snd].
        destruct A as (A1 & A2 & A3). split.
        * intros L. destruct ok.
          -- destruct (A3 eq_refl) as [L1 L2]. destruct (Z.eq_dec id i) as [->|N].
             ++ rewrite L1 in L. injection L as ->. exists ops, []. split; [reflexivity|].
                split; [apply A1; reflexivity|intros []].
             ++ rewrite L2 in L by assumption. apply IH in L. destruct L as (b & a & -> & O & R).
                exists b, (a ++ [AddHood i h]). rewrite <- app_assoc. split; [reflexivity|]. split; [assumption|].
                rewrite in_app_iff. intros [|[X|[]]]; [tauto|discriminate].
          -- rewrite (A2 eq_refl) in L. apply IH in L. destruct L as (b & a & -> & O & R).
             exists b, (a ++ [AddHood i h]). rewrite <- app_assoc. split; [reflexivity|]. split; [assumption|].
             rewrite in_app_iff. intros [|[X|[]]]; [tauto|discriminate].
        * intros (b & a & E & O & R). destruct a as [|x a _] using rev_ind.
          -- apply app_inj_tail in E. destruct E as [-> E]. injection E as -> ->.
             destruct ok; [apply A3; reflexivity|]. assert (false = true) by (apply A1; exact O). discriminate.
          -- rewrite app_comm_cons, app_assoc in E. apply app_inj_tail in E. destruct E as [-> _].
             assert (hood_lookup (hood_run n (b ++ AddHood id items :: a)) id = Some items) as L.
             { apply IH. exists b, a. split; [reflexivity|]. split; [assumption|]. rewrite in_app_iff in R. tauto. }
             destruct ok.
             ++ destruct (A3 eq_refl) as [L1 L2]. rewrite L2; [assumption|]. intros ->.
                destruct A1 as [A1 _]. destruct (A1 eq_refl) as (_ & X & _). congruence.
             ++ rewrite (A2 eq_refl). assumption.
      + rewrite c12_remove_neighborhood. destruct (Z.eqb_spec id i) as [->|N]; cbn [andb].
        * destruct (Z.eqb_spec i default_neighborhood_id) as [D|D]; cbn [negb].
          -- split.
             ++ intros L. apply IH in L. destruct L as (b & a & _ & O & _). destruct O as [O _]. congruence.
             ++ intros (b & a & _ & O & _). destruct O as [O _]. congruence.
          -- split; [discriminate|]. intros (b & a & E & O & R). destruct a as [|x a _] using rev_ind.
             ++ apply app_inj_tail in E. destruct E as [_ E]. discriminate.
             ++ rewrite app_comm_cons, app_assoc in E. apply app_inj_tail in E. destruct E as [_ <-].
                exfalso. apply R. apply in_app_iff. right; left; reflexivity.
        * rewrite IH. split.
          -- intros (b & a & -> & O & R). exists b, (a ++ [RemoveHood i]). rewrite <- app_assoc.
             split; [reflexivity|]. split; [assumption|]. rewrite in_app_iff. intros [|[X|[]]]; [tauto|]. congruence.
          -- intros (b & a & E & O & R). destruct a as [|x a _] using rev_ind.
             ++ apply app_inj_tail in E. destruct E as [_ E]. discriminate.
             ++ rewrite app_comm_cons, app_assoc in E. apply app_inj_tail in E. destruct E as [-> _].
                exists b, a. split; [reflexivity|]. split; [assumption|]. rewrite in_app_iff in R. tauto. }
  split; [exact K|]. intros L. apply K in L. destruct L as (b & a & _ & (O1 & _ & O2) & _). auto.
Qed.
Print Assumptions c12_histories.

Example c12_example :
  let ops := [AddHood 1 [Idx 1 0 0]; AddHood 1 [Idx 0 1 0]; AddHood 2 [Idx 0 3 0];
              AddHood 3 [Idx (-1) 1 0]; RemoveHood 1] in
  map (hood_lookup (hood_run 1 ops)) [1; 2; 3] = [None; None; Some [Idx (-1) 1 0]].
Proof. reflexivity. Qed.

(** ** C13 *)
Section C13.
Context (m : mapping) (Hwf : wf m) (t : topo).

Lemma step_down_eq G len x : 0 < len -> (len | G) -> 0 < G < W -> (len | x) -> 0 <= x < G ->
  step_down G len x = (x - len) mod G.
Proof.
  intros Hl HG HW Hx Hr. unfold step_down, sub64.
  pose proof (aligned_lt len x G Hl Hx HG ltac:(lia)).
  destruct (Z.leb_spec len x).
  - rewrite u64_small by lia. rewrite Z.mod_small; lia.
  - rewrite u64_small by lia.
    assert (x = 0) as ->.
    { destruct (Z.eq_dec x 0); [assumption|].
      pose proof (aligned_lt len 0 x Hl (Z.divide_0_r _) Hx ltac:(lia)). lia. }
    apply Z.mod_unique with (-1); lia.
Qed.

Lemma step_up_eq G len x : 0 < len -> (len | G) -> 0 < G < W -> (len | x) -> 0 <= x < G ->
  step_up G len x = (x + len) mod G.
Proof.
  intros Hl HG HW Hx Hr. unfold step_up, sub64, add64.
  pose proof (aligned_lt len x G Hl Hx HG ltac:(lia)).
  rewrite (u64_small (G - len)) by lia.
  destruct (Z.ltb_spec x (G - len)).
  - rewrite u64_small by lia. rewrite Z.mod_small; lia.
  - apply Z.mod_unique with 1; lia.
Qed.

Lemma mod_aligned G len x : 0 < len -> (len | G) -> 0 < G -> (len | x) -> (len | x mod G).
Proof.
  intros Hl HG HG0 Hx. rewrite Z.mod_eq by lia. apply Z.divide_sub_r; [assumption|].
  apply Z.divide_mul_l; assumption.
Qed.

Lemma iter_down G len x n : 0 < len -> (len | G) -> 0 < G < W -> (len | x) -> 0 <= x < G ->
  Nat.iter n (step_down G len) x = (x - Z.of_nat n * len) mod G.
Proof.
  intros Hl HG HW Hx Hr. induction n as [|n IH]; cbn [Nat.iter nat_rect].
  - rewrite Z.mul_0_l, Z.sub_0_r, Z.mod_small; lia.
  - change (nat_rect _ _ _ n) with (Nat.iter n (step_down G len) x). rewrite IH.
    rewrite step_down_eq; try assumption.
    + rewrite Zminus_mod_idemp_l. f_equal. lia.
    + apply mod_aligned; try assumption; [lia|]. apply Z.divide_sub_r; [assumption|]. exists (Z.of_nat n). reflexivity.
    + apply Z.mod_pos_bound; lia.
Qed.
Lemma iter_up G len x n : 0 < len -> (len | G) -> 0 < G < W -> (len | x) -> 0 <= x < G ->
  Nat.iter n (step_up G len) x = (x + Z.of_nat n * len) mod G.
Proof.
  intros Hl HG HW Hx Hr. induction n as [|n IH]; cbn [Nat.iter nat_rect].
  - rewrite Z.mul_0_l, Z.add_0_r, Z.mod_small; lia.
  - change (nat_rect _ _ _ n) with (Nat.iter n (step_up G len) x). rewrite IH.
    rewrite step_up_eq; try assumption.
    + rewrite Zplus_mod_idemp_l. f_equal. lia.
    + apply mod_aligned; try assumption; [lia|]. apply Z.divide_add_r; [assumption|]. exists (Z.of_nat n). reflexivity.
    + apply Z.mod_pos_bound; lia.
Qed.

(** what one dimension returns, no wrap-around of the 64-bit type *)
Definition ifn_spec (p : bool) (G x : Z) : option Z :=
  if p then Some (x mod G) else if (0 <=? x) && (x <? G) then Some x else None.

Lemma ifn_dim_eq p G len i off : 0 < len -> (len | G) -> 0 < G < W -> (len | i) -> 0 <= i < G ->
  (p = false -> G + Z.abs off * len < W) ->
  ifn_dim p G len i off = ifn_spec p G (i + off * len).
Proof.
  intros Hl HG HW Hi Hr Hov. unfold ifn_dim, ifn_spec. destruct (Z.ltb_spec off 0) as [Ho|Ho].
  - destruct p.
    + rewrite iter_down by assumption. f_equal. f_equal. lia.
    + specialize (Hov eq_refl). unfold mul64, add64. rewrite (u64_small (Z.abs off * len)) by nia.
      destruct (Z.ltb_spec i (Z.abs off * len)).
      * replace ((0 <=? i + off * len) && (i + off * len <? G)) with false by nia. reflexivity.
      * replace ((0 <=? i + off * len) && (i + off * len <? G)) with true by nia. f_equal.
        unfold u64. rewrite Zmult_mod_idemp_l, Zplus_mod_idemp_r. apply Z.mod_small. nia.
  - destruct p.
    + rewrite iter_up by assumption. f_equal. f_equal. lia.
    + specialize (Hov eq_refl). unfold mul64, add64. rewrite (u64_small (off * len)) by nia.
      rewrite u64_small by nia.
      destruct (Z.leb_spec G (i + off * len)).
      * replace ((0 <=? i + off * len) && (i + off * len <? G)) with false by nia. reflexivity.
      * replace ((0 <=? i + off * len) && (i + off * len <? G)) with true by nia. reflexivity.
Qed.

(** no overflow of uint64_t: a neighborhood offset reaches less than 2^64 indices beyond the
    grid.  True for every grid whose sides are below 2^63 indices and offsets below 2^41. *)
Definition no_overflow (len : Z) (o : idx) : Prop :=
  forall k, per t k = false -> glen m k + Z.abs (get o k) * len < W.

Definition scaled (o : idx) (len : Z) : idx := vmap (fun k => get o k * len).

Theorem ifn_item_spec c o : valid m c -> no_overflow (len_of m c) o ->
  let r := ifn_item m t (idx_of m c) (len_of m c) o in
  let x := vadd (idx_of m c) (scaled o (len_of m c)) in
  (forall i, lands m t x i -> r = i) /\ ((~ exists i, lands m t x i) -> r = error_idx).
Proof.
  intros V O r x.
  assert (forall k, ifn_dim (per t k) (glen64 m k) (len_of m c) (get (idx_of m c) k) (get o k)
     = ifn_spec (per t k) (glen m k) (get x k)) as E.
  { intros k. unfold x. rewrite get_vadd. unfold scaled. rewrite get_vmap. rewrite glen64_eq by assumption.
    apply ifn_dim_eq.
    - apply cell_len_pos; assumption.
    - apply cell_len_glen; assumption.
    - split; [apply glen_pos; assumption|apply glen_lt_W; assumption].
    - apply cell_aligned; assumption.
    - apply in_grid_k. apply cell_in_grid; assumption.
    - apply O. }
  unfold r, ifn_item. change (per_x t) with (per t DX). change (per_y t) with (per t DY).
  change (per_z t) with (per t DZ). change (ix (idx_of m c)) with (get (idx_of m c) DX).
  change (iy (idx_of m c)) with (get (idx_of m c) DY). change (iz (idx_of m c)) with (get (idx_of m c) DZ).
  change (ix o) with (get o DX). change (iy o) with (get o DY). change (iz o) with (get o DZ).
  rewrite !E. clear r. unfold ifn_spec. split.
  - intros i [Gi L].
    assert (forall k, (if per t k then Some (get x k mod glen m k)
       else if (0 <=? get x k) && (get x k <? glen m k) then Some (get x k) else None) = Some (get i k)) as K.
    { intros k. specialize (L k). pose proof (proj1 (in_grid_k m i) Gi k). pose proof (glen_pos m Hwf k). destruct (per t k).
      - destruct L as [n L]. rewrite L, Z.mod_add by lia. f_equal. apply Z.mod_small. lia.
      - rewrite L. replace ((0 <=? get i k) && (get i k <? glen m k)) with true by lia. reflexivity. }
    rewrite !K. destruct i; reflexivity.
  - intros N.
    destruct (if per t DX then _ else _) as [a|] eqn:A; [|reflexivity].
    destruct (if per t DY then _ else _) as [b|] eqn:B; [|reflexivity].
    destruct (if per t DZ then _ else _) as [c'|] eqn:C; [|reflexivity].
    exfalso. apply N. apply lands_exists; [assumption|]. intros k.
    destruct k; [destruct (per t DX); [auto|right]|destruct (per t DY); [auto|right]|destruct (per t DZ); [auto|right]];
      match goal with H : (if ?b then _ else _) = Some _ |- _ => destruct b eqn:?; [lia|discriminate] end.
Qed.
End C13.

(** C13 in full: every item of the result is the position at the offset, or the error triple *)
Theorem c13_indices_from_neighborhood m t c h :
  wf m -> valid m c -> (forall o, In o h -> no_overflow m t (get_cell_length_in_indices m c) o) ->
  let len := get_cell_length_in_indices m c in
  let r := indices_from_neighborhood m t (get_indices m c) len h in
  length r = length h /\
  forall n o, nth_error h n = Some o ->
    let x := vadd (get_indices m c) (Idx (ix o * len) (iy o * len) (iz o * len)) in
    (forall i, lands m t x i -> nth_error r n = Some i) /\
    ((~ exists i, lands m t x i) -> nth_error r n = Some error_idx).
Proof.
  intros Hwf V O len r. split; [apply map_length|]. intros n o Hn x.
  pose proof (ifn_item_spec m Hwf t c o V (O o (nth_error_In _ _ Hn))) as [A B]. cbn zeta in *.
  unfold r, indices_from_neighborhood. split.
  - intros i L. rewrite (map_nth_error _ _ _ Hn). f_equal. apply A. exact L.
  - intros N. rewrite (map_nth_error _ _ _ Hn). f_equal. apply B. exact N.
Qed.
Print Assumptions c13_indices_from_neighborhood.

(** an offset several times around a periodic 3x2x5 grid, and one leaving it *)
Example c13_example :
  let m := ex_map in let t := Topo true false true in
  indices_from_neighborhood m t (get_indices m 1) 4 [Idx (-7) 1 11; Idx 0 2 0] =
  [Idx 8 4 4; error_idx].
Proof. vm_compute. reflexivity. Qed.

(** Without the overflow condition the statement fails: the last cell of a grid of 2^64 - 1
    cells steps out of a non-periodic grid and arrives at its beginning. *)
Theorem c13_huge_grid_refuted :
  exists m c o, wf m /\ valid m c /\
    let t := Topo false false false in
    let x := vadd (get_indices m c) o in
    get_cell_length_in_indices m c = 1 /\
    (~ exists i, lands m t x i) /\
    indices_from_neighborhood m t (get_indices m c) 1 [o] = [Idx 4 0 0].
Proof.
  exists (Mapping 18446744073709551615 1 1 0 18446744073709551615), 18446744073709551615, (Idx 6 0 0).
  split; [apply wfb_wf; vm_compute; reflexivity|]. split; [unfold valid; cbn; lia|].
  split; [vm_compute; reflexivity|]. split; [|vm_compute; reflexivity].
  intros (i & Gi & L). specialize (L DX). cbn [per per_x] in L. destruct Gi as (G & _).
  change (get i DX) with (ix i) in L. rewrite <- L in G. vm_compute in G. destruct G as [_ G]. discriminate.
Qed.
Print Assumptions c13_huge_grid_refuted.
