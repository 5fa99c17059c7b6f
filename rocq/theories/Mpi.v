(** Model and properties of dccrg_mpi_support.hpp: All_Gather, All_Reduce, Some_Reduce. *)
From Coq Require Import Permutation.
From Verif Require Import U64 Sets Async.
Open Scope Z_scope.

(** largest int *)
Definition int_max : Z := 2147483647.

(** ** All_Gather, dccrg_mpi_support.hpp:101-235 *)
Inductive gathered :=
| Gathered (result : list (list Z))
| Aborted        (* more values than INT_MAX on one process, 129-133 *)
| Overflowed.    (* signed overflow of a displacement, 180-183 *)

(** 180-183: displacements[i] += send_counts[i - 1] + displacements[i - 1] *)
Fixpoint displacements (d : Z) (counts : list Z) : option (list Z) :=
  match counts with
  | [] => Some []
  | [c] => Some [d]
  | c :: r => if int_max <? c + d then None else
      match displacements (c + d) r with Some l => Some (d :: l) | None => None end
  end.
(** MPI_Allgatherv, 201-216: the values of each process are stored at its displacement *)
Definition place (buffer : list Z) (d : Z) (v : list Z) : list Z :=
  firstn (Z.to_nat d) buffer ++ v ++ skipn (Z.to_nat d + length v) buffer.
Definition allgatherv (buffer : list Z) (ds : list Z) (values : list (list Z)) : list Z :=
  fold_left (fun b e => place b (fst e) (snd e)) (combine ds values) buffer.
(** 219-232 *)
Fixpoint unpack (buffer : list Z) (counts : list Z) : list (list Z) :=
  match counts with [] => [] | c :: r => firstn (Z.to_nat c) buffer :: unpack (skipn (Z.to_nat c) buffer) r end.
(** the values of all processes in order of rank; the same result on all of them *)
Definition all_gather (values : list (list Z)) : gathered :=
  if existsb (fun v => int_max <? Z.of_nat (length v)) values then Aborted else
  let counts := map (fun v => Z.of_nat (length v)) values in
  match displacements 0 counts with
  | None => Overflowed
  | Some ds =>
    let total := fold_left add64 counts 0 in
    Gathered (unpack (allgatherv (repeat (W - 1) (Z.to_nat total)) ds values) counts)
  end.

Definition total (l : list (list Z)) : Z := Z.of_nat (length (concat l)).
Lemma total_cons v l : total (v :: l) = Z.of_nat (length v) + total l.
Proof. unfold total. cbn [concat]. rewrite app_length. lia. Qed.
Lemma skipn_more a b : forall l : list Z, skipn b (skipn a l) = skipn (a + b) l.
Proof. induction a as [|a IH]; intros l; [reflexivity|]. destruct l as [|x l]; cbn [skipn Nat.add]; [apply skipn_nil|apply IH]. Qed.
Lemma displacements_cons d c c' r : displacements d (c :: c' :: r) = if int_max <? c + d then None else match displacements (c + d) (c' :: r) with Some l => Some (d :: l) | None => None end.
Proof. reflexivity. Qed.
Lemma displacements_ok values : forall d, 0 <= d -> d + total (removelast values) <= int_max ->
  exists ds, displacements d (map (fun v => Z.of_nat (length v)) values) = Some ds /\ length ds = length values /\
  forall done rest, length done = Z.to_nat d -> (length (concat values) <= length rest)%nat ->
    fold_left (fun b e => place b (fst e) (snd e)) (combine ds values) (done ++ rest) = done ++ concat values ++ skipn (length (concat values)) rest.
Proof.
  induction values as [|v values IH]; intros d Hd Ht.
  - exists []. split; [reflexivity|]. split; [reflexivity|]. intros done rest _ _. cbn [combine fold_left concat app length skipn]. reflexivity.
  - assert (forall done rest, length done = Z.to_nat d -> (length v <= length rest)%nat -> place (done ++ rest) d v = (done ++ v) ++ skipn (length v) rest) as P.
    { intros done rest L Lr. unfold place. rewrite <- L. rewrite firstn_app, firstn_all, Nat.sub_diag. cbn [firstn]. rewrite app_nil_r, <- app_assoc. do 2 f_equal.
      rewrite skipn_app. replace (skipn (length done + length v) done) with (@nil Z) by (symmetry; apply skipn_all2; lia). cbn [app]. f_equal. lia. }
    destruct values as [|w values].
    + exists [d]. split; [reflexivity|]. split; [reflexivity|]. intros done rest L Lr. cbn [concat] in *. rewrite app_nil_r in *. cbn [combine fold_left fst snd]. rewrite (P done rest L Lr), <- app_assoc. reflexivity.
    + cbn [map]. rewrite displacements_cons. change (removelast (v :: w :: values)) with (v :: removelast (w :: values)) in Ht. rewrite total_cons in Ht.
      assert (0 <= total (removelast (w :: values))) by (unfold total; lia). replace (int_max <? Z.of_nat (length v) + d) with false by lia.
      destruct (IH (Z.of_nat (length v) + d)) as (ds & E & Ld & K); [lia|lia|]. cbn [map] in E. rewrite E. exists (d :: ds). split; [reflexivity|]. split; [cbn [length] in *; lia|].
      intros done rest L Lr. change (concat (v :: w :: values)) with (v ++ concat (w :: values)) in *. rewrite app_length in *. cbn [combine fold_left fst snd]. rewrite (P done rest L) by lia.
      change (fold_left (fun b e => place b (fst e) (snd e)) (combine ds (w :: values)) ((done ++ v) ++ skipn (length v) rest) = done ++ (v ++ concat (w :: values)) ++ skipn (length v + length (concat (w :: values))) rest).
      rewrite K; [|rewrite app_length; lia|rewrite skipn_length; lia].
      rewrite <- !app_assoc. do 3 f_equal. apply skipn_more.
Qed.
Lemma unpack_ok values : forall rest, unpack (concat values ++ rest) (map (fun v => Z.of_nat (length v)) values) = values.
Proof.
  induction values as [|v values IH]; intros rest; cbn [map unpack concat]; [reflexivity|]. rewrite Nat2Z.id, <- app_assoc. rewrite firstn_app, firstn_all, Nat.sub_diag. cbn [firstn]. rewrite app_nil_r. f_equal.
  rewrite skipn_app, skipn_all, Nat.sub_diag. cbn [app skipn]. apply IH.
Qed.
Lemma counts_sum values : forall a, 0 <= a -> a + total values < W -> fold_left add64 (map (fun v => Z.of_nat (length v)) values) a = a + total values.
Proof.
  induction values as [|v values IH]; intros a Ha Ht; cbn [map fold_left]; [unfold total; cbn; lia|]. rewrite total_cons in *. assert (0 <= total values) by (unfold total; lia).
  rewrite IH; unfold add64; rewrite u64_small by lia; lia.
Qed.
Lemma total_last values : (forall v, In v values -> Z.of_nat (length v) <= int_max) -> total (removelast values) <= int_max -> total values <= 2 * int_max.
Proof.
  intros A B. destruct values as [|v values] using rev_ind; [unfold total; cbn; lia|]. rewrite removelast_last in B. unfold total in *. rewrite concat_app, app_length. cbn [concat]. rewrite app_nil_r. specialize (A v ltac:(apply in_app_iff; right; left; reflexivity)). rewrite Nat2Z.inj_add. lia.
Qed.

(** every process gets the vectors of all processes in order of rank, if none is longer than
    INT_MAX and all but the last together are not longer than that *)
Theorem c41_all_gather values : (forall v, In v values -> Z.of_nat (length v) <= 2 ^ 31 - 1) -> total (removelast values) <= 2 ^ 31 - 1 -> all_gather values = Gathered values.
Proof.
  intros A B. change (2 ^ 31 - 1) with int_max in *. unfold all_gather.
  replace (existsb (fun v : list Z => int_max <? Z.of_nat (length v)) values) with false.
  2: { symmetry. apply not_true_iff_false. rewrite existsb_exists. intros (v & I & Q). specialize (A v I). lia. }
  destruct (displacements_ok values 0) as (ds & E & _ & K); [lia|lia|]. rewrite E. f_equal. pose proof (total_last values A B) as T.
  assert (2 * int_max < W) as LW by (rewrite W_val; unfold int_max; lia). assert (0 <= total values) by (unfold total; lia).
  rewrite counts_sum by lia. rewrite Z.add_0_l. unfold allgatherv. specialize (K [] (repeat (W - 1) (Z.to_nat (total values)))). cbn [app] in K. rewrite K.
  - apply unpack_ok.
  - reflexivity.
  - rewrite repeat_length. unfold total. lia.
Qed.
Print Assumptions c41_all_gather.
Example c41_gather_example : all_gather [[3; 1]; []; [7]; []; [5; 5; 5]] = Gathered [[3; 1]; []; [7]; []; [5; 5; 5]].
Proof. vm_compute. reflexivity. Qed.
(** otherwise the program stops or an int overflows *)
Lemma displacements_none values : forall d, int_max < d + total (removelast values) -> d <= int_max -> displacements d (map (fun v => Z.of_nat (length v)) values) = None.
Proof.
  induction values as [|v values IH]; intros d H Hd; [unfold total in H; cbn in H; lia|]. destruct values as [|w values]; [unfold total in H; cbn in H; lia|].
  cbn [map]. rewrite displacements_cons. change (removelast (v :: w :: values)) with (v :: removelast (w :: values)) in H. rewrite total_cons in H.
  destruct (Z.ltb_spec int_max (Z.of_nat (length v) + d)) as [|L]; [reflexivity|]. specialize (IH (Z.of_nat (length v) + d) ltac:(lia) L). cbn [map] in IH. rewrite IH. reflexivity.
Qed.
Theorem c41_all_gather_otherwise values : ((exists v, In v values /\ 2 ^ 31 - 1 < Z.of_nat (length v)) -> all_gather values = Aborted) /\
  ((forall v, In v values -> Z.of_nat (length v) <= 2 ^ 31 - 1) -> 2 ^ 31 - 1 < total (removelast values) -> all_gather values = Overflowed).
Proof.
  change (2 ^ 31 - 1) with int_max in *. unfold all_gather. split.
  - intros (v & I & L). replace (existsb _ values) with true; [reflexivity|]. symmetry. apply existsb_exists. exists v. split; [assumption|apply Z.ltb_lt, L].
  - intros A B. replace (existsb (fun v : list Z => int_max <? Z.of_nat (length v)) values) with false.
    + rewrite displacements_none; [reflexivity|lia|unfold int_max; lia].
    + symmetry. apply not_true_iff_false. rewrite existsb_exists. intros (v & I & Q). specialize (A v I). lia.
Qed.
(** more than INT_MAX values before the last process overflow an int, although every single
    process stays below the checked limit *)
Theorem c41_all_gather_overflow_refuted : exists values, (forall v, In v values -> Z.of_nat (length v) <= 2 ^ 31 - 1) /\ all_gather values = Overflowed.
Proof.
  set (k := Z.to_nat int_max). assert (Z.of_nat k = int_max) as K by (unfold k; rewrite Z2Nat.id; [reflexivity|discriminate]). clearbody k.
  exists [repeat 0 k; [0]; []]. split.
  - intros v [<-|[<-|[<-|[]]]]; [rewrite repeat_length, K; unfold int_max|cbn|cbn]; lia.
  - unfold all_gather. cbn [existsb map]. rewrite repeat_length, K. reflexivity.
Qed.
Print Assumptions c41_all_gather_overflow_refuted.

(** ** All_Reduce, dccrg_mpi_support.hpp:240-268, with MPI_SUM on MPI_UINT64_T *)
Definition all_reduce (values : list Z) : Z := fold_left add64 values 0.
Definition sum (l : list Z) : Z := fold_right Z.add 0 l.
Lemma fold_add64 l : forall a, 0 <= a < W -> fold_left add64 l a = (a + sum l) mod W.
Proof.
  pose proof W_pos. induction l as [|x l IH]; intros a Ha; cbn [fold_left sum fold_right]; [rewrite Z.mod_small by lia; lia|]. fold (sum l). unfold add64 at 2, u64. rewrite IH by (apply Z.mod_pos_bound; lia). rewrite Z.add_mod_idemp_l by lia. f_equal. lia.
Qed.
Theorem c41_all_reduce values : all_reduce values = sum values mod 2 ^ 64 /\ (forall other, Permutation values other -> all_reduce other = all_reduce values) /\
  ((forall v, In v values -> 0 <= v) -> sum values < 2 ^ 64 -> (all_reduce values = 0 <-> forall v, In v values -> v = 0)).
Proof.
  pose proof W_pos. unfold all_reduce. rewrite fold_add64 by lia. replace (2 ^ 64) with W by apply W_val. rewrite Z.add_0_l. split; [reflexivity|]. split.
  - intros other P. rewrite fold_add64 by lia. rewrite Z.add_0_l. f_equal. clear - P. induction P as [|x l l' _ IH|x y l|l1 l2 l3 _ IH1 _ IH2]; cbn [sum fold_right]; [reflexivity|fold (sum l) (sum l'); lia|fold (sum l); lia|congruence].
  - intros Pos Lt. assert (0 <= sum values) as S0. { clear Lt. induction values as [|v l IH]; cbn [sum fold_right]; [lia|]. fold (sum l). pose proof (Pos v (or_introl eq_refl)). specialize (IH ltac:(intros; apply Pos; right; assumption)). lia. }
    rewrite Z.mod_small by lia. clear Lt. split.
    + induction values as [|v l IH]; cbn [sum fold_right]; intros E w I; [destruct I|]. fold (sum l) in *. pose proof (Pos v (or_introl eq_refl)).
      assert (0 <= sum l) as Sl. { clear IH E I S0. induction l as [|u l IH]; cbn [sum fold_right]; [lia|]. fold (sum l). pose proof (Pos u (or_intror (or_introl eq_refl))). assert (0 <= sum l); [|lia]. apply IH. intros x [Ex|Ix]; apply Pos; cbn; auto. }
      cbn [sum fold_right] in E. fold (sum l) in E. destruct I as [<-|I]; [lia|]. apply IH; [intros; apply Pos; right; assumption|assumption|lia|assumption].
    + intros Z0. clear - Z0. induction values as [|v l IH]; cbn [sum fold_right]; [reflexivity|]. fold (sum l). rewrite (Z0 v) by (left; reflexivity). rewrite IH; [reflexivity|]. intros; apply Z0; right; assumption.
Qed.
Example c41_reduce_example : all_reduce [3; 18446744073709551615; 4] = 6.
Proof. rewrite (proj1 (c41_all_reduce _)). reflexivity. Qed.

(** ** Some_Reduce, dccrg_mpi_support.hpp:285-374: rounds of messages with tag 1 *)
Section Some.
Context (procs : list Z) (rounds : nat) (value : Z -> nat -> Z) (nbrs : Z -> nat -> list Z).
Definition reduce_out (p : Z) (k : nat) : list ((Z * Z) * Z) := map (fun n => ((n, 1), value p k)) (nbrs p k).
Definition reduce_inc (p : Z) (k : nat) : list (Z * Z) := map (fun n => (n, 1)) (nbrs p k).
Definition received (r : list ((Z * Z) * Z)) (n : Z) : Z :=
  match List.find (fun e => fst (fst e) =? n) r with Some e => snd e | None => 0 end.
(** 355-358 *)
Definition some_reduce (v : Z) (ns : list Z) (r : list ((Z * Z) * Z)) : Z := fold_left (fun a n => add64 a (received r n)) ns v.
(** the documented requirements: neighbors are other processes, mutually *)
Definition mutual : Prop := forall k, (k < rounds)%nat -> forall p, In p procs ->
  NoDup (nbrs p k) /\ (forall n, In n (nbrs p k) -> In n procs /\ n <> p) /\ (forall n, In n procs -> In n (nbrs p k) <-> In p (nbrs n k)).

Lemma reduce_matching : mutual -> matching procs rounds reduce_out reduce_inc.
Proof.
  intros M k Hk. unfold reduce_out, reduce_inc. split.
  - intros p Ip. destruct (M k Hk p Ip) as (N & S & _). rewrite map_map. cbn [fst].
    assert (NoDup (map (fun n : Z => (n, 1)) (nbrs p k))) as Nm by (apply FinFun.Injective_map_NoDup; [intros a b E; congruence|assumption]).
    split; [assumption|]. split; [assumption|]. split; intros e He; apply in_map_iff in He; destruct He as (n & <- & He); cbn [fst]; apply S; assumption.
  - intros p q t Ip Iq. rewrite map_map. cbn [fst]. rewrite !in_map_iff. destruct (M k Hk p Ip) as (_ & _ & S).
    split; intros (n & E & I); injection E as -> <-; eexists; (split; [reflexivity|]); apply (S _ Iq); assumption.
Qed.

(** in every execution of any number of rounds, each process gets the sum over itself and the
    given processes of the values of that round *)
Theorem c41_some_reduce s p k r : mutual -> 0 <= value p k < 2 ^ 64 ->
  execution procs rounds reduce_out reduce_inc s -> In p procs -> nth_error (results (procs_at s p)) k = Some r ->
  some_reduce (value p k) (nbrs p k) r = (value p k + sum (map (fun n => value n k) (nbrs p k))) mod 2 ^ 64.
Proof.
  intros M V X Ip E. destruct (rounds_deliver procs rounds _ _ (reduce_matching M) s p k r X Ip E) as (Lk & N & K & Vr). replace (2 ^ 64) with W in * by apply W_val.
  assert (forall n, In n (nbrs p k) -> received r n = value n k) as R.
  { intros n In_. unfold received. assert (In (n, 1) (map fst r)) as I by (apply K; unfold reduce_inc; apply in_map_iff; exists n; auto). apply in_map_iff in I. destruct I as (e & Ee & I).
    destruct (List.find (fun e => fst (fst e) =? n) r) as [e'|] eqn:F.
    - apply find_some in F. destruct F as [Ie F]. apply Z.eqb_eq in F. destruct e' as [[q t] v]. cbn [fst snd] in *. subst q. apply Vr in Ie. unfold reduce_out in Ie. apply in_map_iff in Ie. destruct Ie as (x & Ex & _). congruence.
    - exfalso. apply (find_none _ _ F) in I. rewrite Ee in I. cbn [fst] in I. lia. }
  unfold some_reduce. assert (forall l a, (forall n, In n l -> In n (nbrs p k)) -> 0 <= a < W -> fold_left (fun a n => add64 a (received r n)) l a = (a + sum (map (fun n => value n k) l)) mod W) as Q.
  { pose proof W_pos. induction l as [|n l IH]; intros a Sub Ha; cbn [fold_left map sum fold_right]; [rewrite Z.mod_small; lia|]. fold (sum (map (fun n => value n k) l)). rewrite (R n) by (apply Sub; left; reflexivity).
    rewrite IH; [|intros; apply Sub; right; assumption|unfold add64, u64; apply Z.mod_pos_bound; lia]. unfold add64, u64. rewrite Z.add_mod_idemp_l by lia. f_equal. lia. }
  apply Q; [auto|exact V].
Qed.
(** and no execution gets stuck or goes on forever *)
Theorem c41_some_reduce_ends : mutual -> NoDup procs ->
  (forall s, execution procs rounds reduce_out reduce_inc s -> finished procs rounds s \/ exists s', step procs rounds reduce_out reduce_inc s s') /\
  (exists f : global -> nat, forall s s', step procs rounds reduce_out reduce_inc s s' -> (f s' < f s)%nat).
Proof.
  intros M N. split.
  - intros s X. apply (rounds_progress procs rounds _ _ (reduce_matching M)). assumption.
  - exists (total_work procs rounds reduce_out reduce_inc). intros s s' St. apply rounds_terminate; assumption.
Qed.
End Some.
(** three rounds on three processes, with everybody, with nobody and between two of them *)
Definition ex_nbrs (p : Z) (k : nat) : list Z := nth k [filter (fun q => negb (q =? p)) [0; 1; 2]; []; if p =? 2 then [] else [1 - p]] [].
Definition ex_value (p : Z) (k : nat) : Z := 10 * p + Z.of_nat (Nat.min k 3).
Example c41_some_reduce_example : exists s r0 r2, mutual [0; 1; 2] 3 ex_nbrs /\ execution [0; 1; 2] 3 (reduce_out ex_value ex_nbrs) (reduce_inc ex_nbrs) s /\
  nth_error (results (procs_at s 1)) 0 = Some r0 /\ some_reduce (ex_value 1 0) (ex_nbrs 1 0) r0 = 30 /\
  nth_error (results (procs_at s 1)) 2 = Some r2 /\ some_reduce (ex_value 1 2) (ex_nbrs 1 2) r2 = 14.
Proof.
  assert (mutual [0; 1; 2] 3 ex_nbrs) as M.
  { intros k Hk p Ip. assert (k = 0 \/ k = 1 \/ k = 2)%nat as K by lia. destruct Ip as [<-|[<-|[<-|[]]]], K as [->|[->| ->]]; unfold ex_nbrs; cbn -[Z.eq_dec];
      (split; [repeat (constructor; [cbn; intuition discriminate|]); constructor|]); (split; [intros n I; intuition (subst; auto; discriminate)|]); intros n I; intuition (subst; cbn in *; intuition (try discriminate; auto)). }
  assert (NoDup [0; 1; 2]) as N by (repeat (constructor; [cbn; intuition discriminate|]); constructor).
  destruct (rounds_finish [0; 1; 2] 3 _ _ (reduce_matching _ _ ex_value _ M) _ N (exec_start _ _ _ _)) as (s & X & F & L).
  assert (forall k, (k < 3)%nat -> exists r, nth_error (results (procs_at s 1)) k = Some r) as G.
  { intros k Hk. destruct (nth_error (results (procs_at s 1)) k) as [r|] eqn:E; [eauto|]. apply nth_error_None in E. rewrite L in E by (cbn; auto). lia. }
  destruct (G 0%nat) as (r0 & E0); [lia|]. destruct (G 2%nat) as (r2 & E2); [lia|]. exists s, r0, r2. split; [assumption|]. split; [assumption|].
  split; [assumption|]. split; [|split; [assumption|]].
  - rewrite (c41_some_reduce [0; 1; 2] 3 ex_value ex_nbrs s 1 0 r0 M); [reflexivity|cbn; lia|assumption|cbn; auto|assumption].
  - rewrite (c41_some_reduce [0; 1; 2] 3 ex_value ex_nbrs s 1 2 r2 M); [reflexivity|cbn; lia|assumption|cbn; auto|assumption].
Qed.
Print Assumptions c41_some_reduce.
Print Assumptions c41_some_reduce_ends.
