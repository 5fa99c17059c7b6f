(** The factors of the Poisson solver: signs, sums over rows, and how well they approximate the Laplacian. *)
From Verif Require Import U64 MapModel MapSpec HoodModel MeshModel MeshFace Sets RefineModel CommModel Stages RefineFold AdvectModel AdvectSum PoissonModel PoissonRef PoissonCache PoissonProps.
From Coq Require Import QArith Qcanon Permutation.
Open Scope Z_scope.

(** the neighbors on one side of a cell *)
Definition on_side (ns : list (Z * Z)) (k : dim) (pos : bool) : list (Z * Z) := filter (fun e => snd e =? dir_code k pos) ns.
Definition directed (ns : list (Z * Z)) : Prop := forall e, In e ns -> exists k pos, snd e = dir_code k pos.
(** on every side nothing, one neighbor that is not smaller, or four that are *)
Definition whole (finer : Z -> bool) (ns : list (Z * Z)) : Prop := forall k pos,
  on_side ns k pos = [] \/ (exists e, on_side ns k pos = [e] /\ finer (fst e) = false) \/ (length (on_side ns k pos) = 4%nat /\ forall e, In e (on_side ns k pos) -> finer (fst e) = true).
Definition over_sides (h : dim -> bool -> Qc) : Qc := (h DX true + h DX false + h DY true + h DY false + h DZ true + h DZ false)%Qc.
Lemma dir_code_inj k pos k' pos' : dir_code k pos = dir_code k' pos' <-> k = k' /\ pos = pos'.
Proof. split; [|intros [-> ->]; reflexivity]. destruct k, pos, k', pos'; cbn; intros E; try discriminate; split; reflexivity. Qed.
Lemma by_side (h : Z * Z -> Qc) ns : directed ns -> qsum (map h ns) = over_sides (fun k pos => qsum (map h (on_side ns k pos))).
Proof.
  unfold over_sides, on_side. induction ns as [|e ns IH]; intros D; [cbn [filter map]; rewrite qsum_nil; ring|]. cbn [map]. rewrite qsum_cons, IH by (intros x I; apply D; right; assumption). cbn [filter].
  destruct (D e (or_introl eq_refl)) as (k & pos & ->). destruct k, pos; cbn [dir_code Z.mul Z.eqb Pos.eqb Pos.mul map]; rewrite qsum_cons; ring.
Qed.

Section Factors.
Context (len : Z -> dim -> Qc) (Hlen : forall c k, (0 < len c k)%Qc).
Notation half c k := (len c k / two)%Qc.
Lemma offset_side c ns k pos : offset len c ns k pos = fold_left (fun _ e => if pos then (half c k + half (fst e) k)%Qc else (- (1) * (half c k + half (fst e) k))%Qc) (on_side ns k pos) (if pos then two * half c k else - two * half c k)%Qc.
Proof.
  unfold offset, on_side. set (i := if pos then _ else _). clearbody i. revert i. induction ns as [|e ns IH]; intros i; [reflexivity|]. cbn [fold_left filter]. rewrite IH. destruct (snd e =? dir_code k pos); [cbn [fold_left]|]; destruct pos; reflexivity.
Qed.
Lemma half_pos c k : (0 < half c k)%Qc.
Proof. unfold Qcdiv. pose proof (Qcmult_lt_compat_r 0 (len c k) (/ two) eq_refl (Hlen c k)) as H. rewrite Qcmult_0_l in H. exact H. Qed.
Lemma Qcadd_pos a b : (0 < a)%Qc -> (0 < b)%Qc -> (0 < a + b)%Qc.
Proof. intros A B. apply (Qclt_trans _ a); [assumption|]. apply Qclt_minus_iff. assert (a + b + - a = b)%Qc as -> by ring. assumption. Qed.
Lemma Qcmul_pos a b : (0 < a)%Qc -> (0 < b)%Qc -> (0 < a * b)%Qc.
Proof. intros A B. pose proof (Qcmult_lt_compat_r 0 a b B A) as H. rewrite Qcmult_0_l in H. exact H. Qed.
Lemma Qcneg a : (0 < a)%Qc <-> (- a < 0)%Qc.
Proof. rewrite (Qclt_minus_iff (- a) 0). assert (0 + - - a = a)%Qc as -> by ring. reflexivity. Qed.
Lemma Qcinv_pos a : (0 < a)%Qc -> (0 < / a)%Qc.
Proof.
  intros A. assert (a <> 0%Qc) as N by (intros ->; apply (Qclt_not_eq _ _ A); reflexivity). destruct (Qclt_le_dec 0 (/ a)) as [H|H]; [assumption|exfalso].
  pose proof (Qcmult_le_compat_r _ _ a H (Qclt_le_weak _ _ A)) as Q. rewrite Qcmult_0_l, Qcmult_comm, Qcmult_inv_r in Q by assumption. apply (Qcle_not_lt _ _ Q). reflexivity.
Qed.
Lemma offset_sign c ns k (pos : bool) : if pos then (0 < offset len c ns k pos)%Qc else (0 < - offset len c ns k pos)%Qc.
Proof.
  rewrite offset_side. match goal with |- context [fold_left ?h _ _] => set (f := h) end. set (i := (if pos then two * half c k else - two * half c k)%Qc).
  assert (if pos then (0 < i)%Qc else (0 < - i)%Qc) as H0. { unfold i. destruct pos; [|assert (- (- two * half c k) = two * half c k)%Qc as -> by ring]; apply Qcmul_pos; [reflexivity|apply half_pos|reflexivity|apply half_pos]. }
  clearbody i. revert i H0. induction (on_side ns k pos) as [|e l IH]; intros i H0; cbn [fold_left]; [assumption|]. apply IH. unfold f. destruct pos.
  - apply Qcadd_pos; apply half_pos.
  - assert (- (- (1) * (half c k + half (fst e) k)) = half c k + half (fst e) k)%Qc as -> by ring. apply Qcadd_pos; apply half_pos.
Qed.
Lemma total_pos c ns k : (0 < total_offset len c ns k)%Qc.
Proof. unfold total_offset, Qcminus. apply Qcadd_pos; [apply (offset_sign c ns k true)|apply (offset_sign c ns k false)]. Qed.
Lemma exists_side ns k pos : existsb (fun e => snd e =? dir_code k pos) ns = match on_side ns k pos with [] => false | _ => true end.
Proof. unfold on_side. induction ns as [|e ns IH]; [reflexivity|]. cbn [existsb filter]. destruct (snd e =? dir_code k pos); [reflexivity|exact IH]. Qed.
Lemma face_factor_none c ns k pos : on_side ns k pos = [] -> face_factor len c ns k pos = 0%Qc.
Proof. intros E. unfold face_factor. rewrite exists_side, E. reflexivity. Qed.
Lemma face_factor_pos c ns k pos : on_side ns k pos <> [] -> (0 < face_factor len c ns k pos)%Qc.
Proof.
  intros N. unfold face_factor. rewrite exists_side. destruct (on_side ns k pos) eqn:E; [contradiction|]. pose proof (offset_sign c ns k pos) as S. pose proof (total_pos c ns k) as T. destruct pos.
  - unfold Qcdiv. apply Qcmul_pos; [reflexivity|]. apply Qcinv_pos, Qcmul_pos; assumption.
  - assert (- two / (offset len c ns k false * total_offset len c ns k) = two / (- offset len c ns k false * total_offset len c ns k))%Qc as ->.
    { assert (total_offset len c ns k <> 0%Qc) as Tn by (intros Q; rewrite Q in T; apply (Qclt_not_eq _ _ T); reflexivity). assert (offset len c ns k false <> 0%Qc) as Sn by (intros Q; rewrite Q in S; apply (Qclt_not_eq _ _ S); ring). field. split; [assumption|]. split; [|assumption]. intros Q. apply Sn. rewrite <- (Qcopp_involutive (offset len c ns k false)), Q. reflexivity. }
    unfold Qcdiv. apply Qcmul_pos; [reflexivity|]. apply Qcinv_pos, Qcmul_pos; assumption.
Qed.
Lemma face_factor_nonneg c ns k pos : (0 <= face_factor len c ns k pos)%Qc.
Proof. destruct (on_side ns k pos) eqn:E; [rewrite face_factor_none by assumption; apply Qcle_refl|]. apply Qclt_le_weak, face_factor_pos. congruence. Qed.
Lemma factor_code c ns k pos : factor (factors len c ns) (dir_code k pos) = face_factor len c ns k pos.
Proof. destruct k, pos; reflexivity. Qed.
Lemma scale_sum c ns : g_scale (factors len c ns) = (- over_sides (face_factor len c ns))%Qc.
Proof. unfold factors, over_sides. cbv zeta. cbn [g_scale]. ring. Qed.
(** the diagonal is never zero for a cell with a neighbor *)
Lemma scale_negative c ns : directed ns -> ns <> [] -> (g_scale (factors len c ns) < 0)%Qc.
Proof.
  intros D N. rewrite scale_sum. apply (proj1 (Qcneg _)). destruct ns as [|e ns]; [contradiction|]. destruct (D e (or_introl eq_refl)) as (k & pos & Ee).
  set (l := e :: ns). assert (0 < face_factor len c l k pos)%Qc as P. { apply face_factor_pos. unfold on_side, l. cbn [filter]. rewrite Ee, Z.eqb_refl. discriminate. }
  pose proof (face_factor_nonneg c l) as Q. unfold over_sides.
  assert (forall a b, (0 <= a)%Qc -> (0 <= b)%Qc -> (0 <= a + b)%Qc) as A1 by (intros a b Ha Hb; rewrite <- (Qcplus_0_l 0); apply Qcplus_le_compat; assumption).
  assert (forall a b, (0 < a)%Qc -> (0 <= b)%Qc -> (0 < a + b)%Qc) as A2 by (intros a b Ha Hb; apply (Qclt_le_trans _ (a + 0)%Qc); [rewrite Qcplus_0_r; assumption|apply Qcplus_le_compat; [apply Qcle_refl|assumption]]).
  assert (forall a b, (0 <= a)%Qc -> (0 < b)%Qc -> (0 < a + b)%Qc) as A3 by (intros a b Ha Hb; rewrite Qcplus_comm; apply A2; assumption).
  destruct k, pos; repeat first [exact P|apply Q|apply A3; [solve [repeat (apply A1 || apply Q)]|exact P]|apply A2; [|apply Q]].
Qed.

(** ** Rows *)
Context (finer : Z -> bool).
Notation linked := (map (fun e : Z * Z => (e, finer (fst e)))).
Definition mean (f : Z -> Qc) (side : list (Z * Z)) : Qc := match side with [e] => f (fst e) | _ => (qsum (map (fun e => f (fst e)) side) / four)%Qc end.
Theorem row_whole c ns here f : directed ns -> whole finer ns ->
  A_at (factors len c ns) (linked ns) here f = over_sides (fun k pos => face_factor len c ns k pos * (mean f (on_side ns k pos) - here))%Qc.
Proof.
  intros D Wh. unfold A_at. rewrite map_map. cbn [fst snd]. rewrite (by_side (fun e => weight (factors len c ns) (e, finer (fst e)) * f (fst e))%Qc ns D), scale_sum.
  assert (forall k pos, qsum (map (fun e => weight (factors len c ns) (e, finer (fst e)) * f (fst e))%Qc (on_side ns k pos)) = (face_factor len c ns k pos * mean f (on_side ns k pos))%Qc) as K.
  { intros k pos. destruct (Wh k pos) as [E|[(e & E & Fe)|[E Fe]]].
    - rewrite E, face_factor_none by assumption. cbn [map]. rewrite qsum_nil. ring.
    - assert (snd e = dir_code k pos) as Ee. { assert (In e (on_side ns k pos)) as I by (rewrite E; left; reflexivity). apply filter_In in I. apply Z.eqb_eq, I. }
      rewrite E. cbn [map mean]. rewrite qsum_cons, qsum_nil. unfold weight. cbn [fst snd]. rewrite Fe, Ee, factor_code. cbn [shared]. ring.
    - assert (mean f (on_side ns k pos) = qsum (map (fun e => f (fst e)) (on_side ns k pos)) / four)%Qc as ->. { destruct (on_side ns k pos) as [|a [|b r]]; try discriminate; reflexivity. }
      transitivity (qsum (map (fun e => face_factor len c ns k pos / four * f (fst e))%Qc (on_side ns k pos))); [|rewrite qsum_scale; field; exact four_nz].
      apply qsum_ext. intros e I. rewrite <- (factor_code c ns k pos). unfold weight. cbn [fst snd]. rewrite (Fe e I). apply filter_In in I. rewrite (proj1 (Z.eqb_eq _ _) (proj2 I)). reflexivity. }
  unfold over_sides. rewrite !K. ring.
Qed.
Lemma mean_const a side : (exists e : Z * Z, side = [e]) \/ length side = 4%nat -> mean (fun _ => a) side = a.
Proof.
  intros [(e & ->)|H]; [reflexivity|]. do 5 (destruct side as [|? side]; try discriminate). unfold mean. cbn [map]. rewrite !qsum_cons, qsum_nil. replace (a + (a + (a + (a + 0))))%Qc with (four * a)%Qc; [field; exact four_nz|].
  unfold four. change (Q2Qc (4 # 1)) with (1 + 1 + 1 + 1)%Qc. ring.
Qed.
(** a constant is annihilated *)
Theorem row_constant c ns a : directed ns -> whole finer ns -> A_at (factors len c ns) (linked ns) a (fun _ => a) = 0%Qc.
Proof.
  intros D Wh. rewrite (row_whole c ns a _ D Wh). assert (forall k pos, (face_factor len c ns k pos * (mean (fun _ => a) (on_side ns k pos) - a))%Qc = 0%Qc) as K.
  { intros k pos. destruct (Wh k pos) as [E|[(e & E & _)|[E _]]]; [rewrite face_factor_none by assumption; ring| |]; rewrite mean_const by (rewrite ?E; eauto); ring. }
  unfold over_sides. rewrite !K. ring.
Qed.

(** ** Second derivatives *)
(** positions of cells; the neighbor on side (k, pos) is straight ahead *)
Context (center : Z -> dim -> Qc).
Definition quadratic (a b : dim -> Qc) (e : Qc) (c : Z) : Qc := (e + (a DX * center c DX + b DX) * center c DX + (a DY * center c DY + b DY) * center c DY + (a DZ * center c DZ + b DZ) * center c DZ)%Qc.
Definition ahead (c : Z) (k : dim) (pos : bool) (n : Z) : Prop :=
  center n k = (if pos then center c k + (half c k + half n k) else center c k - (half c k + half n k))%Qc /\ forall j, j <> k -> center n j = center c j.
Definition straight (c : Z) (ns : list (Z * Z)) (k : dim) : Prop :=
  (forall pos, on_side ns k pos = []) \/ exists n p, on_side ns k true = [(n, dir_code k true)] /\ on_side ns k false = [(p, dir_code k false)] /\ ahead c k true n /\ ahead c k false p.
Definition both_sides (ns : list (Z * Z)) (k : dim) : bool := match on_side ns k true with [] => false | _ => true end.
Lemma quadratic_diff a b e c n k (o : Qc) : center n k = (center c k + o)%Qc -> (forall j, j <> k -> center n j = center c j) -> (quadratic a b e n - quadratic a b e c)%Qc = (a k * ((center c k + center c k) * o + o * o) + b k * o)%Qc.
Proof. intros E H. unfold quadratic. destruct k; [rewrite E, (H DY), (H DZ) by discriminate|rewrite E, (H DX), (H DZ) by discriminate|rewrite E, (H DX), (H DY) by discriminate]; ring. Qed.
Theorem row_quadratic c ns a b e : directed ns -> (forall k, straight c ns k) -> (forall x, In x ns -> finer (fst x) = false) ->
  A_at (factors len c ns) (linked ns) (quadratic a b e c) (quadratic a b e) = qsum (map (fun k => if both_sides ns k then two * a k else 0)%Qc [DX; DY; DZ]).
Proof.
  intros D S Fi. assert (whole finer ns) as Wh.
  { intros k pos. destruct (S k) as [E|(n & p & E1 & E2 & _)]; [left; apply E|]. right. left. destruct pos; eexists; (split; [eassumption|]); apply Fi; [assert (In (n, dir_code k true) (on_side ns k true)) as I by (rewrite E1; left; reflexivity)|assert (In (p, dir_code k false) (on_side ns k false)) as I by (rewrite E2; left; reflexivity)]; apply filter_In in I; apply I. }
  rewrite (row_whole c ns _ _ D Wh). unfold over_sides. cbn [map]. rewrite !qsum_cons, qsum_nil.
  assert (forall k, (face_factor len c ns k true * (mean (quadratic a b e) (on_side ns k true) - quadratic a b e c) + face_factor len c ns k false * (mean (quadratic a b e) (on_side ns k false) - quadratic a b e c))%Qc = (if both_sides ns k then two * a k else 0)%Qc) as K.
  { intros k. unfold both_sides. destruct (S k) as [E|(n & p & E1 & E2 & [A1 A1'] & [A2 A2'])].
    - rewrite !face_factor_none, E by apply E. ring.
    - pose proof (total_pos c ns k) as T. pose proof (offset_sign c ns k true) as S1. pose proof (offset_sign c ns k false) as S2. cbv beta iota in S1, S2.
      unfold face_factor. rewrite !exists_side, E1, E2. cbn [mean fst].
      rewrite (quadratic_diff a b e c n k (offset len c ns k true)); [|rewrite offset_side, E1; cbn [fold_left fst]; exact A1|assumption].
      rewrite (quadratic_diff a b e c p k (offset len c ns k false)); [|rewrite offset_side, E2; cbn [fold_left fst]; rewrite A2; ring|assumption].
      unfold total_offset in *. set (u := offset len c ns k true) in *. set (w := offset len c ns k false) in *. clearbody u w. field. split; [|split]; intros Q.
      + rewrite Q in T. apply (Qclt_not_eq _ _ T). reflexivity.
      + rewrite Q in S2. apply (Qclt_not_eq _ _ S2). ring.
      + rewrite Q in S1. apply (Qclt_not_eq _ _ S1). reflexivity. }
  rewrite <- !K. ring.
Qed.
(** ** Bounds *)
Lemma over_sides_le h h' : (forall k pos, (h k pos <= h' k pos)%Qc) -> (over_sides h <= over_sides h')%Qc.
Proof. intros H. unfold over_sides. repeat apply Qcplus_le_compat; apply H. Qed.
Lemma mean_bounds f side lo hi : (exists e : Z * Z, side = [e]) \/ length side = 4%nat -> (forall e, In e side -> (lo <= f (fst e) /\ f (fst e) <= hi)%Qc) -> (lo <= mean f side /\ mean f side <= hi)%Qc.
Proof.
  intros H B. pose proof (mean_const lo side H) as El. pose proof (mean_const hi side H) as Eh. destruct H as [(e & ->)|H]; [apply B; left; reflexivity|].
  do 5 (destruct side as [|? side]; try discriminate). unfold mean in El, Eh |- *. cbn [map] in El, Eh |- *. rewrite !qsum_cons, !qsum_nil in El, Eh |- *. rewrite <- El at 1. rewrite <- Eh. unfold Qcdiv.
  split; (apply Qcmult_le_compat_r; [|discriminate]); (repeat apply Qcplus_le_compat); try apply Qcle_refl; apply B; cbn [In]; tauto.
Qed.
(** without sources the new value of a cell lies between the values of its neighbors *)
Theorem row_bounds c ns here f lo hi : directed ns -> ns <> [] -> whole finer ns -> (forall e, In e ns -> (lo <= f (fst e) /\ f (fst e) <= hi)%Qc) ->
  let new := (here + (0 - A_at (factors len c ns) (linked ns) here f) / g_scale (factors len c ns))%Qc in (lo <= new /\ new <= hi)%Qc.
Proof.
  intros D N Wh B. cbv zeta. rewrite (row_whole c ns here f D Wh), scale_sum. pose proof (scale_negative c ns D N) as Sn. rewrite scale_sum in Sn. apply (proj2 (Qcneg _)) in Sn. set (T := over_sides (face_factor len c ns)) in *.
  assert (T <> 0%Qc) as Tn by (intros E; rewrite E in Sn; apply (Qclt_not_eq _ _ Sn); reflexivity).
  assert (here + (0 - over_sides (fun k pos => face_factor len c ns k pos * (mean f (on_side ns k pos) - here))) / (- T) = over_sides (fun k pos => face_factor len c ns k pos * mean f (on_side ns k pos)) / T)%Qc as ->.
  { assert (over_sides (fun k pos => face_factor len c ns k pos * (mean f (on_side ns k pos) - here)) = over_sides (fun k pos => face_factor len c ns k pos * mean f (on_side ns k pos)) - T * here)%Qc as -> by (unfold T, over_sides; ring).
    clearbody T. field. split; [assumption|]. intros Q. apply Tn. rewrite <- (Qcopp_involutive T), Q. reflexivity. }
  assert (forall k pos, (face_factor len c ns k pos * lo <= face_factor len c ns k pos * mean f (on_side ns k pos) /\ face_factor len c ns k pos * mean f (on_side ns k pos) <= face_factor len c ns k pos * hi)%Qc) as K.
  { intros k pos. destruct (Wh k pos) as [E|W'].
    - rewrite face_factor_none by assumption. rewrite !Qcmult_0_l. split; apply Qcle_refl.
    - destruct (mean_bounds f (on_side ns k pos) lo hi) as [B1 B2]; [destruct W' as [(e & E & _)|[E _]]; eauto|intros e I; apply filter_In in I; apply B, I|].
      rewrite !(Qcmult_comm (face_factor len c ns k pos)). split; apply Qcmult_le_compat_r; try assumption; apply face_factor_nonneg. }
  assert (forall y, (over_sides (fun k pos => face_factor len c ns k pos * y) = T * y)%Qc) as Ty by (intros y; unfold T, over_sides; ring).
  assert (forall y, (T * y / T = y)%Qc) as Dy by (intros y; field; assumption).
  pose proof (Qclt_le_weak _ _ (Qcinv_pos _ Sn)) as Ti. split.
  - rewrite <- (Dy lo) at 1. unfold Qcdiv. apply Qcmult_le_compat_r; [|assumption]. rewrite <- Ty. apply over_sides_le. intros. apply K.
  - rewrite <- (Dy hi). unfold Qcdiv. apply Qcmult_le_compat_r; [|assumption]. rewrite <- Ty. apply over_sides_le. intros. apply K.
Qed.
End Factors.
