(** C84: the serial solver gives the one solution of Poisson's equation on a ring of cells that vanishes in the last cell. *)
From Coq Require Import List Arith Lia QArith Qcanon.
From Verif Require Import SerialModel.
Import ListNotations.
Open Scope Qc_scope.

(** ** Numbers *)
Lemma qn_S k : qn (S k) = qn k + 1.
Proof. apply Qc_is_canon. unfold qn, Qcplus. cbn [this Q2Qc]. rewrite !Qred_correct, Nat2Z.inj_succ. unfold Z.succ. rewrite inject_Z_plus. reflexivity. Qed.
Lemma qn_0 : qn 0 = 0. Proof. apply Qc_is_canon. reflexivity. Qed.
Lemma qn_2 : qn 2 = 1 + 1. Proof. rewrite !qn_S, qn_0. ring. Qed.
Lemma qn_nz n : qn (S n) <> 0.
Proof.
  intros E. apply (f_equal this) in E. unfold qn in E. cbn [this Q2Qc] in E. assert (inject_Z (Z.of_nat (S n)) == 0)%Q as Q by (rewrite <- (Qred_correct (inject_Z (Z.of_nat (S n)))), E; reflexivity). unfold Qeq, inject_Z in Q. cbn [Qnum Qden] in Q. lia.
Qed.
(** the sum of f over the first n cells *)
Fixpoint sum_of (n : nat) (f : nat -> Qc) : Qc := match n with O => 0 | S k => sum_of k f + f k end.
Lemma sum_ext n f h : (forall i, (i < n)%nat -> f i = h i) -> sum_of n f = sum_of n h.
Proof. induction n as [|n IH]; intros H; [reflexivity|]. cbn [sum_of]. rewrite IH, H by (intros; try apply H; lia). reflexivity. Qed.
Lemma loop_sum n f : fold_left (fun a i => a + f i) (seq 0 n) 0 = sum_of n f.
Proof. induction n as [|n IH]; [reflexivity|]. rewrite seq_S, fold_left_app, IH. reflexivity. Qed.
Lemma sum_minus n f a : sum_of n (fun i => f i - a) = sum_of n f - qn n * a.
Proof. induction n as [|n IH]; cbn [sum_of]; [rewrite qn_0; ring|]. rewrite IH, qn_S. ring. Qed.
Lemma sum_scaled n c r : sum_of n (fun i => c * qn (i + 1) * r i) = c * sum_of n (fun i => qn (i + 1) * r i).
Proof. induction n as [|n IH]; cbn [sum_of]; [ring|]. rewrite IH. ring. Qed.

(** ** The loops *)
Lemma centered_at n r i : centered n r i = if (i <? n)%nat then r i - total_rhs n r / qn n else r i.
Proof.
  unfold centered. set (a := total_rhs n r / qn n). clearbody a. revert i. induction n as [|n IH]; intros i; [reflexivity|]. rewrite seq_S, fold_left_app. cbn [fold_left plus]. unfold at_put at 1. rewrite !IH.
  destruct (Nat.eqb_spec i n) as [->|N]; [rewrite Nat.ltb_irrefl, (proj2 (Nat.ltb_lt n (S n))) by lia; reflexivity|]. destruct (Nat.ltb_spec i n), (Nat.ltb_spec i (S n)); try reflexivity; lia.
Qed.
Lemma centered_total n r : (0 < n)%nat -> sum_of n (centered n r) = 0.
Proof.
  intros H. rewrite (sum_ext n _ (fun i => r i - total_rhs n r / qn n)) by (intros i L; rewrite centered_at, (proj2 (Nat.ltb_lt i n) L); reflexivity).
  rewrite sum_minus. unfold total_rhs. rewrite loop_sum. destruct n as [|n]; [lia|]. field. apply qn_nz.
Qed.
Lemma rest_at n c r s : forall k, (k <= n - 2)%nat -> let u := fold_left (fun s i => at_put s i (c * r (i - 1)%nat + qn 2 * s (i - 1)%nat - s (i - 2)%nat)) (seq 2 k) s in
  (forall j, (j < 2 \/ k + 2 <= j)%nat -> u j = s j) /\ forall j, (2 <= j < k + 2)%nat -> u j = c * r (j - 1)%nat + qn 2 * u (j - 1)%nat - u (j - 2)%nat.
Proof.
  induction k as [|k IH]; intros H; cbv zeta; [split; [reflexivity|intros; lia]|]. destruct IH as [A B]; [lia|]. rewrite seq_S, fold_left_app. cbn [fold_left]. set (u := fold_left _ (seq 2 k) s) in *. split.
  - intros j L. unfold at_put. destruct (Nat.eqb_spec j (2 + k)); [lia|]. apply A. lia.
  - intros j L. unfold at_put. destruct (Nat.eqb_spec (j - 1) (2 + k)); [lia|]. destruct (Nat.eqb_spec (j - 2) (2 + k)); [lia|]. destruct (Nat.eqb_spec j (2 + k)) as [->|N]; [reflexivity|]. apply B. lia.
Qed.

(** ** The equation *)
(** f solves f'' = r on a ring of n cells of width h: cell 0 follows cell n - 1 *)
Definition solves_on_ring (n : nat) (h : Qc) (f r : nat -> Qc) : Prop :=
  forall i, (i < n)%nat -> (f ((i + 1) mod n)%nat - (1 + 1) * f i + f ((i + n - 1) mod n)%nat) / (h * h) = r i.
(** a sequence with these steps, r with total 0 over n cells *)
Lemma steps_of n a c r : (2 <= n)%nat -> sum_of n r = 0 -> a 0%nat = c * sum_of n (fun i => qn (i + 1) * r i) / qn n -> a 1%nat = c * r 0%nat + (1 + 1) * a 0%nat ->
  (forall j, (2 <= j < n)%nat -> a j = c * r (j - 1)%nat + (1 + 1) * a (j - 1)%nat - a (j - 2)%nat) ->
  a (n - 1)%nat = 0 /\ a 0%nat + a (n - 2)%nat = c * r (n - 1)%nat.
Proof.
  intros Hn H0 A0 A1 A2. set (W := fun k => sum_of k (fun i => qn (i + 1) * r i)). set (R := fun k => sum_of k r).
  assert (forall k, (k < n)%nat -> a k = qn (S k) * a 0%nat + c * (qn (S k) * R k - W k)) as F.
  { intros k. induction k as [k IH] using lt_wf_ind. intros L. destruct k as [|[|k]].
    - unfold R, W. cbn [sum_of]. rewrite qn_S, qn_0. ring.
    - rewrite A1. unfold R, W. cbn [sum_of plus]. rewrite !qn_S, qn_0. ring.
    - rewrite A2 by lia. replace (S (S k) - 1)%nat with (S k) by lia. replace (S (S k) - 2)%nat with k by lia. rewrite (IH (S k)), (IH k) by lia. unfold R, W. cbn [sum_of]. replace (k + 1)%nat with (S k) by lia. replace (S k + 1)%nat with (S (S k)) by lia. rewrite !qn_S. ring. }
  destruct n as [|[|n]]; [lia|lia|]. replace (S (S n) - 1)%nat with (S n) by lia. replace (S (S n) - 2)%nat with n by lia.
  pose proof (qn_nz (S n)) as Nz. assert (qn (S (S n)) * a 0%nat = c * W (S (S n))) as E0 by (rewrite A0; apply Qcmult_div_r; assumption).
  assert (R (S (S n)) = 0) as E1 by exact H0. assert (W (S (S n)) = W (S n) + qn (S (S n)) * r (S n)) as EW by (unfold W; cbn [sum_of]; replace (S n + 1)%nat with (S (S n)) by lia; reflexivity).
  assert (R (S n) = - r (S n)) as ER by (change (R (S n) + r (S n) = 0) in E1; rewrite <- (Qcplus_0_l (- r (S n))), <- E1; ring).
  assert (a (S n) = 0) as Z by (rewrite (F (S n)) by lia; rewrite E0, EW, ER; ring). split; [assumption|].
  rewrite (F n) by lia. assert (R n = - r (S n) - r n) as ER' by (change (R (S n)) with (R n + r n) in ER; rewrite <- ER; ring).
  assert (W (S n) = W n + qn (S n) * r n) as EW' by (unfold W; cbn [sum_of]; replace (n + 1)%nat with (S n) by lia; reflexivity).
  transitivity (qn (S (S n)) * a 0%nat + c * (qn (S n) * R n - W n)); [rewrite (qn_S (S n)); ring|]. rewrite E0, EW, EW', ER', !qn_S. ring.
Qed.
Lemma div_sq h b c : h <> 0 -> b = h * h * c -> b / (h * h) = c.
Proof. intros H ->. field. assumption. Qed.

(** ** Access *)
(** at() throws exactly outside of the grid, and a write changes the right hand side of that cell only *)
Theorem c84_access s i a : (set_rhs s i a = OutOfRange <-> (size s <= i)%nat) /\ (get_solution s i = None <-> (size s <= i)%nat) /\ set_rhs s i a <> Abort /\
  forall s', set_rhs s i a = Ok s' -> is_initialized s' = is_initialized s /\ size s' = size s /\ dx s' = dx s /\ solution s' = solution s /\ rhs s' i = a /\ forall j, j <> i -> rhs s' j = rhs s j.
Proof.
  unfold set_rhs, get_solution. destruct (Nat.ltb_spec i (size s)) as [L|L]; (split; [split; [discriminate || reflexivity || lia|intros; first [lia|reflexivity]]|]); (split; [split; [discriminate || (intros _; assumption)|intros; first [lia|reflexivity]]|]); (split; [discriminate|]); intros s' E; [|discriminate].
  injection E as <-. cbn. do 4 (split; [reflexivity|]). unfold at_put. split; [rewrite Nat.eqb_refl; reflexivity|]. intros j N. destruct (Nat.eqb_spec j i); [contradiction|reflexivity].
Qed.
(** initialize() accepts exactly positive widths, and clears both vectors *)
Theorem c84_initialize n a : (initialize n a = Abort <-> a <= 0) /\ forall s, initialize n a = Ok s -> is_initialized s = true /\ size s = n /\ dx s = a /\ forall i, solution s i = 0 /\ rhs s i = 0.
Proof.
  unfold initialize. destruct (Qclt_le_dec 0 a) as [L|L]; (split; [split; [discriminate || (intros _; assumption)|]|]).
  - intros M. destruct (Qclt_not_le _ _ L M).
  - intros s E. injection E as <-. auto.
  - reflexivity.
  - discriminate.
Qed.
(** ** What solve() does *)
Lemma obtained_ok s : obtained s -> is_initialized s = true -> 0 < dx s.
Proof.
  induction 1 as [a|n a s E|s i a s' _ IH E|s s' _ IH E].
  - discriminate.
  - unfold initialize in E. destruct (Qclt_le_dec 0 a); [injection E as <-; intros _; assumption|discriminate].
  - unfold set_rhs in E. destruct (i <? size s)%nat; [injection E as <-; assumption|discriminate].
  - unfold solve in E. destruct (is_initialized s) eqn:I; [|discriminate]. cbn [negb] in E. destruct (size s =? 0)%nat; [injection E as <-; intros _; apply IH; reflexivity|]. destruct (size s =? 1)%nat; injection E as <-; intros _; apply IH; reflexivity.
Qed.
(** solve() ends the program before initialize(), and never otherwise *)
Theorem c84_when_solve_works s : solve s = Abort <-> is_initialized s = false.
Proof. unfold solve. destruct (is_initialized s); cbn [negb]; [|tauto]. split; [|discriminate]. destruct (size s =? 0)%nat; [discriminate|]. destruct (size s =? 1)%nat; discriminate. Qed.
Theorem c84_solves s : obtained s -> is_initialized s = true -> exists s', solve s = Ok s' /\ size s' = size s /\ dx s' = dx s /\
  (forall i, (i < size s)%nat -> rhs s' i = rhs s i - sum_of (size s) (rhs s) / qn (size s)) /\
  sum_of (size s) (rhs s') = 0 /\ (size s <> 0%nat -> solution s' (size s - 1)%nat = 0) /\ solves_on_ring (size s) (dx s) (solution s') (rhs s').
Proof.
  intros O I. pose proof (obtained_ok s O I) as Hd. assert (dx s <> 0) as Nd by (intros E; rewrite E in Hd; apply (Qclt_not_eq _ _ Hd); reflexivity).
  unfold solve. rewrite I. cbn [negb]. set (n := size s). destruct (Nat.eqb_spec n 0) as [E|N0].
  { exists s. fold n. rewrite E. do 3 (split; [first [reflexivity|assumption]|]). split; [intros; lia|]. split; [reflexivity|]. split; [intros K; destruct (K eq_refl)|intros i L; lia]. }
  set (r := centered n (rhs s)). assert (forall i, (i < n)%nat -> r i = rhs s i - sum_of n (rhs s) / qn n) as Er.
  { intros i L. unfold r. rewrite centered_at, (proj2 (Nat.ltb_lt i n) L). unfold total_rhs. rewrite loop_sum. reflexivity. }
  assert (sum_of n r = 0) as E0 by (apply centered_total; lia).
  destruct (Nat.eqb_spec n 1) as [E|N1].
  { eexists. split; [reflexivity|]. cbn [size dx rhs solution]. do 2 (split; [reflexivity|]). split; [assumption|]. split; [assumption|]. split; [intros _; unfold at_put; rewrite Nat.eqb_refl; reflexivity|].
    intros i L. assert (i = 0)%nat as -> by lia. rewrite E in *. cbn [sum_of] in E0. cbn. rewrite <- (Qcplus_0_l (r 0%nat)), E0. field. assumption. }
  cbv zeta. eexists. split; [reflexivity|]. cbn [size dx rhs solution]. do 2 (split; [reflexivity|]). split; [assumption|]. split; [assumption|].
  set (c := dx s * dx s). set (s1 := at_put (at_put (solution s) (n - 1) 0) 0 (first_cell n c r)). set (s2 := at_put s1 1 (c * r 0%nat + qn 2 * s1 0%nat)).
  destruct (rest_at n c r s2 (n - 2) (le_n _)) as [A B]. unfold rest_of_cells. set (a := fold_left _ (seq 2 (n - 2)) s2) in *.
  assert (a 0%nat = first_cell n c r) as A0 by (rewrite A by lia; reflexivity). assert (a 1%nat = c * r 0%nat + (1 + 1) * a 0%nat) as A1 by (rewrite !A by lia; unfold s2; cbn [at_put Nat.eqb]; rewrite qn_2; reflexivity).
  assert (forall j, (2 <= j < n)%nat -> a j = c * r (j - 1)%nat + (1 + 1) * a (j - 1)%nat - a (j - 2)%nat) as A2 by (intros j L; rewrite B, qn_2 by lia; reflexivity).
  destruct (steps_of n a c r) as [Z1 Z2]; [lia|assumption| |assumption|assumption|].
  { rewrite A0. unfold first_cell. rewrite loop_sum. rewrite sum_scaled. reflexivity. }
  split; [intros _; assumption|]. intros i L. apply div_sq; [assumption|]. fold c.
  destruct (Nat.eq_dec i 0) as [->|Ni].
  - replace ((0 + n - 1) mod n)%nat with (n - 1)%nat by (rewrite Nat.mod_small; lia). replace ((0 + 1) mod n)%nat with 1%nat by (rewrite Nat.mod_small; lia). rewrite Z1, A1. ring.
  - replace ((i + n - 1) mod n)%nat with (i - 1)%nat by (replace (i + n - 1)%nat with (i - 1 + 1 * n)%nat by lia; rewrite Nat.mod_add, Nat.mod_small by lia; reflexivity).
    destruct (Nat.eq_dec i (n - 1)) as [->|Nl].
    + replace (n - 1 + 1)%nat with n by lia. rewrite Nat.mod_same by lia. replace (n - 1 - 1)%nat with (n - 2)%nat by lia. rewrite Z1, <- Z2. ring.
    + rewrite Nat.mod_small by lia. rewrite (A2 (i + 1)%nat) by lia. replace (i + 1 - 1)%nat with i by lia. replace (i + 1 - 2)%nat with (i - 1)%nat by lia. ring.
Qed.

(** ** There is no other solution *)
Lemma next_of a b c : a - (1 + 1) * b + c = 0 -> a = (1 + 1) * b - c.
Proof. intros H. transitivity (a - (1 + 1) * b + c + (1 + 1) * b - c); [ring|]. rewrite H. ring. Qed.
Lemma same_steps n d : (2 <= n)%nat -> (forall i, (i < n)%nat -> d ((i + 1) mod n)%nat - (1 + 1) * d i + d ((i + n - 1) mod n)%nat = 0) -> forall i, (i < n)%nat -> d i = d 0%nat.
Proof.
  intros Hn H. remember (d 0%nat - d (n - 1)%nat) as e eqn:De.
  assert (forall i, (i < n)%nat -> d i = d 0%nat + qn i * e) as F.
  { intros i. induction i as [i IH] using lt_wf_ind. intros L. destruct i as [|[|i]].
    - rewrite qn_0. ring.
    - specialize (H 0%nat ltac:(lia)). replace ((0 + n - 1) mod n)%nat with (n - 1)%nat in H by (rewrite Nat.mod_small; lia). replace ((0 + 1) mod n)%nat with 1%nat in H by (rewrite Nat.mod_small; lia).
      rewrite (next_of _ _ _ H), qn_S, qn_0, De. ring.
    - specialize (H (S i) ltac:(lia)). replace ((S i + n - 1) mod n)%nat with i in H by (replace (S i + n - 1)%nat with (i + 1 * n)%nat by lia; rewrite Nat.mod_add, Nat.mod_small by lia; reflexivity). replace ((S i + 1) mod n)%nat with (S (S i)) in H by (rewrite Nat.mod_small; lia).
      rewrite (next_of _ _ _ H). rewrite (IH (S i)), (IH i) by lia. rewrite !qn_S. ring. }
  assert (e = 0) as E.
  { pose proof (F (n - 1)%nat ltac:(lia)) as L. destruct n as [|n]; [lia|]. replace (S n - 1)%nat with n in * by lia. apply (Qcmult_integral_l (qn (S n))); [apply qn_nz|]. rewrite qn_S. transitivity (d 0%nat + qn n * e - d n); [transitivity (qn n * e + e); [ring|]; rewrite De at 2; ring|]. rewrite <- L. ring. }
  intros i L. rewrite (F i L), E. ring.
Qed.
Theorem c84_no_other_solution n h f f' r : h <> 0 -> solves_on_ring n h f r -> solves_on_ring n h f' r -> f (n - 1)%nat = f' (n - 1)%nat -> forall i, (i < n)%nat -> f i = f' i.
Proof.
  intros Nh H H' El i L. destruct (Nat.eq_dec n 1) as [->|N]; [assert (i = 0)%nat as -> by lia; exact El|].
  assert (forall j, (j < n)%nat -> f j - f' j = f 0%nat - f' 0%nat) as S.
  { apply (same_steps n (fun j => f j - f' j)); [lia|]. intros j Lj. pose proof (H j Lj) as A. rewrite <- (H' j Lj) in A.
    assert (f ((j + 1) mod n)%nat - (1 + 1) * f j + f ((j + n - 1) mod n)%nat = f' ((j + 1) mod n)%nat - (1 + 1) * f' j + f' ((j + n - 1) mod n)%nat) as B.
    { apply (f_equal (fun q => q * (h * h))) in A. unfold Qcdiv in A. rewrite <- !Qcmult_assoc, !(Qcmult_comm (/ (h * h))), !Qcmult_inv_r, !Qcmult_1_r in A; [assumption|]. intros Q. destruct (Qcmult_integral _ _ Q); contradiction. }
    transitivity (f ((j + 1) mod n)%nat - (1 + 1) * f j + f ((j + n - 1) mod n)%nat - (f' ((j + 1) mod n)%nat - (1 + 1) * f' j + f' ((j + n - 1) mod n)%nat)); [ring|]. rewrite B. ring. }
  pose proof (S (n - 1)%nat ltac:(lia)) as A. pose proof (S i L) as B. rewrite El in A. transitivity (f i - f' i + f' i); [ring|]. rewrite B, <- A. ring.
Qed.
(** solving again changes nothing that can be read *)
Theorem c84_solve_again s s1 s2 : obtained s -> solve s = Ok s1 -> solve s1 = Ok s2 ->
  size s2 = size s1 /\ forall i, (i < size s1)%nat -> solution s2 i = solution s1 i /\ rhs s2 i = rhs s1 i.
Proof.
  intros O E1 E2. assert (is_initialized s = true) as I by (destruct (is_initialized s) eqn:Q; [reflexivity|apply c84_when_solve_works in Q; congruence]).
  pose proof (obtained_ok s O I) as Hd. assert (dx s <> 0) as Nd by (intros E; rewrite E in Hd; apply (Qclt_not_eq _ _ Hd); reflexivity).
  assert (obtained s1) as O1 by (eapply o_solve; eassumption). assert (is_initialized s1 = true) as I1 by (destruct (is_initialized s1) eqn:Q; [reflexivity|apply c84_when_solve_works in Q; congruence]).
  destruct (c84_solves s O I) as (t & F & Sz & Dx & _ & T & Ls & Eq). rewrite E1 in F. injection F as <-. destruct (c84_solves s1 O1 I1) as (t & F & Sz' & Dx' & R' & T' & Ls' & Eq'). rewrite E2 in F. injection F as <-.
  split; [assumption|]. rewrite Sz in *. assert (forall i, (i < size s)%nat -> rhs s2 i = rhs s1 i) as R by (intros i L; rewrite (R' i L), T; unfold Qcdiv; ring).
  intros i L. split; [|apply R, L]. assert (size s <> 0%nat) as N by lia. apply (c84_no_other_solution (size s) (dx s) _ _ (rhs s1) Nd); [|assumption|rewrite (Ls N), (Ls' N); reflexivity|assumption].
  intros j Lj. rewrite <- (R j Lj). rewrite <- Dx. apply Eq', Lj.
Qed.
(** ** Why the average is taken away: without it there is no solution *)
Lemma sum_plus n f h : sum_of n (fun i => f i + h i) = sum_of n f + sum_of n h.
Proof. induction n as [|n IH]; cbn [sum_of]; [ring|]. rewrite IH. ring. Qed.
Lemma sum_times n f a : sum_of n (fun i => f i * a) = sum_of n f * a.
Proof. induction n as [|n IH]; cbn [sum_of]; [ring|]. rewrite IH. ring. Qed.
Lemma sum_shift n f : f 0%nat + sum_of n (fun i => f (S i)) = sum_of n f + f n.
Proof. induction n as [|n IH]; cbn [sum_of]; [ring|]. rewrite Qcplus_assoc, IH. reflexivity. Qed.
Lemma sum_next n f : sum_of n (fun i => f ((i + 1) mod n)%nat) = sum_of n f.
Proof.
  destruct n as [|n]; [reflexivity|]. cbn [sum_of]. replace (n + 1)%nat with (S n) by lia. rewrite Nat.mod_same by lia. rewrite <- (sum_shift n f). rewrite Qcplus_comm. f_equal. apply sum_ext. intros i L. rewrite Nat.mod_small by lia. f_equal. lia.
Qed.
Lemma sum_previous n f : sum_of n (fun i => f ((i + n - 1) mod n)%nat) = sum_of n f.
Proof.
  rewrite <- (sum_next n (fun i => f ((i + n - 1) mod n)%nat)). apply sum_ext. intros i L. f_equal. destruct (Nat.eq_dec (i + 1) n) as [E|N].
  - rewrite E, Nat.mod_same by lia. rewrite Nat.mod_small by lia. lia.
  - rewrite (Nat.mod_small (i + 1)) by lia. replace (i + 1 + n - 1)%nat with (i + 1 * n)%nat by lia. rewrite Nat.mod_add, Nat.mod_small by lia. reflexivity.
Qed.
Theorem c84_total_must_vanish n h f r : solves_on_ring n h f r -> sum_of n r = 0.
Proof.
  intros H. rewrite <- (sum_ext n _ _ H). unfold Qcdiv. rewrite sum_times.
  rewrite (sum_ext n _ (fun i => f ((i + 1) mod n)%nat + (f i * (- (1 + 1)) + f ((i + n - 1) mod n)%nat))) by (intros; ring). rewrite !sum_plus, sum_times, sum_next, sum_previous. ring.
Qed.
(** Refuted: that solve() solves the equation with the rhs that was given, reference_poisson_solve.hpp:26-30 and 133-135:
    the rhs must have total 0, it is changed otherwise *)
Theorem c84_given_rhs_refuted : exists s s1 s2, initialize 2 1 = Ok s /\ set_rhs s 0 1 = Ok s1 /\ solve s1 = Ok s2 /\ rhs s2 0%nat <> rhs s1 0%nat /\ forall f, ~ solves_on_ring 2 1 f (rhs s1).
Proof.
  eexists. eexists. eexists. split; [reflexivity|]. split; [reflexivity|]. split; [reflexivity|]. split; [vm_compute; discriminate|]. intros f H. apply c84_total_must_vanish in H. discriminate H.
Qed.
(** four cells of width 1/2 with charges 1 in cell 0 and -1 in cell 2 *)
Example c84_example : exists s s1 s2 s3, initialize 4 (Q2Qc (1 # 2)) = Ok s /\ set_rhs s 0 1 = Ok s1 /\ set_rhs s1 2 (- (1)) = Ok s2 /\ solve s2 = Ok s3 /\
  map (fun i => option_map this (get_solution s3 i)) [0; 1; 2; 3; 4]%nat = [Some (- 1 # 8); Some 0; Some (1 # 8); Some 0; None]%Q.
Proof. do 4 eexists. do 4 (split; [reflexivity|]). vm_compute. reflexivity. Qed.
