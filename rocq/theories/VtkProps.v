(** C64: the vtk file describes the local cells. *)
From Coq Require Import QArith Qround Qabs Qfield Lqa Sorted Permutation.
From Verif Require Import U64 MapModel MapSpec MapProofs MapFamily MapProps HoodModel MeshModel
  MeshSpec MeshBase HoodProps MeshWalk MeshFind MeshKids MeshItem MeshCheck MeshTo MeshNear MeshLookup
  Sets RefineModel RefineGeo RefineInv RefineSpread RefineMerge RefineFold RefineExec RefineStop
  BalanceModel RefineReqs Create Balance History HistProps CommModel CommInv CommProps LoadCells HistExamples BalProps SaveModel SaveExamples CommMore CommExamples
  GeoModel GeoBase GeoProps GeoStretch GeoExamples AtProps VtkModel.
Open Scope Z_scope.

(** ** A reader of files with voxels (cell type 11) *)
Definition point : Type := (option Q * option Q * option Q)%type.
Fixpoint read_points (n : nat) (l : list word) : option (list point * list word) :=
  match n with
  | O => Some ([], l)
  | S n => match l with
    | Real x :: Real y :: Real z :: r => match read_points n r with Some (p, r) => Some ((x, y, z) :: p, r) | None => None end
    | _ => None
    end
  end.
Fixpoint read_ints (n : nat) (l : list word) : option (list Z * list word) :=
  match n with
  | O => Some ([], l)
  | S n => match l with Int x :: r => match read_ints n r with Some (p, r) => Some (x :: p, r) | None => None end | _ => None end
  end.
(** cells as lists of point numbers *)
Fixpoint read_cells (n : nat) (l : list word) : option (list (list Z) * list word) :=
  match n with
  | O => Some ([], l)
  | S n => match l with
    | Int 8 :: r => match read_ints 8 r with
      | Some (c, r) => match read_cells n r with Some (p, r) => Some (c :: p, r) | None => None end
      | None => None end
    | _ => None
    end
  end.
(** the corners of every cell: x varies fastest, then y, then z *)
Definition read_vtk (l : list word) : option (list (list (option point))) :=
  match l with
  | Header :: Points :: Int n :: Float :: l =>
    match read_points (Z.to_nat n) l with
    | Some (ps, Cells :: Int k :: Int words :: l) =>
      if negb (words =? 9 * k) then None else
      match read_cells (Z.to_nat k) l with
      | Some (cs, Types :: Int k' :: l) =>
        if negb (k' =? k) then None else
        match read_ints (Z.to_nat k) l with
        | Some (ts, []) => if forallb (Z.eqb 11) ts then Some (map (map (fun i => nth_error ps (Z.to_nat i))) cs) else None
        | _ => None
        end
      | _ => None
      end
    | _ => None
    end
  | _ => None
  end.

Section Write.
Context (lo hi : Z -> dim -> option Q) (out : option Q -> option Q).
Definition corner (c : Z) (i : Z) : point :=
  (out (if Z.testbit i 0 then hi c DX else lo c DX), out (if Z.testbit i 1 then hi c DY else lo c DY), out (if Z.testbit i 2 then hi c DZ else lo c DZ)).
Definition eight : list Z := [0; 1; 2; 3; 4; 5; 6; 7].

Lemma read_corners cells r : read_points (8 * length cells) (flat_map (corners lo hi out) cells ++ r) = Some (flat_map (fun c => map (corner c) eight) cells, r).
Proof.
  induction cells as [|c cells IH]; [reflexivity|]. cbn [length flat_map]. replace (8 * S (length cells))%nat with (8 + 8 * length cells)%nat by lia.
  cbn [Nat.add corners flat_map map app fst snd read_points eight]. rewrite <- ?app_assoc. cbn [app]. rewrite IH. reflexivity.
Qed.
Definition wrapped (j : nat) : nat := Z.to_nat (Z.of_nat j mod 2 ^ 29).
Lemma wrapped_small j : Z.of_nat j < 2 ^ 29 -> wrapped j = j.
Proof. intros H. unfold wrapped. rewrite Z.mod_small by lia. apply Nat2Z.id. Qed.
Lemma wrapped_le j : (wrapped j <= j)%nat.
Proof. unfold wrapped. change (2 ^ 29) with 536870912. pose proof (Z.mod_le (Z.of_nat j) 536870912 ltac:(lia) ltac:(lia)). pose proof (Z.mod_pos_bound (Z.of_nat j) 536870912 ltac:(lia)). lia. Qed.
Lemma point_number j i : 0 <= i < 8 -> (Z.of_nat j * 8 + i) mod 2 ^ 32 = Z.of_nat (wrapped j) * 8 + i.
Proof.
  intros Hi. unfold wrapped. change (2 ^ 32) with 4294967296. change (2 ^ 29) with 536870912. pose proof (Z.mod_pos_bound (Z.of_nat j) 536870912 ltac:(lia)). rewrite Z2Nat.id by lia.
  symmetry. apply (Z.mod_unique _ _ (Z.of_nat j / 536870912)); [left; lia|]. pose proof (Z.div_mod (Z.of_nat j) 536870912). lia.
Qed.
Lemma read_numbers n : forall s r, read_cells n (flat_map (fun j => point_numbers (Z.of_nat j)) (seq s n) ++ r) = Some (map (fun j => map (fun i => Z.of_nat (wrapped j) * 8 + i) eight) (seq s n), r).
Proof.
  induction n as [|n IH]; intros s r; [reflexivity|]. cbn [seq flat_map point_numbers map app read_cells read_ints]. rewrite <- ?app_assoc. rewrite IH.
  cbn [map eight]. rewrite !point_number by lia. reflexivity.
Qed.
Lemma read_types cells : read_ints (length cells) (map (fun _ => Int 11) cells) = Some (map (fun _ : Z => 11) cells, []).
Proof. induction cells as [|c cells IH]; [reflexivity|]. cbn [length map read_ints]. rewrite IH. reflexivity. Qed.
Lemma nth_corner cells r : forall j i, (j < length cells)%nat -> (i < 8)%nat ->
  nth_error (flat_map (fun c => map (corner c) eight) cells ++ r) (8 * j + i) = Some (corner (nth j cells 0) (Z.of_nat i)).
Proof.
  induction cells as [|c cells IH]; intros j i Hj Hi; cbn [length] in Hj; [lia|]. destruct j as [|j].
  - replace (8 * 0 + i)%nat with i by lia. cbn [flat_map nth]. do 8 (destruct i as [|i]; [reflexivity|]). lia.
  - cbn [flat_map]. rewrite <- app_assoc. rewrite nth_error_app2; change (length (map (corner c) eight)) with 8%nat; [|lia]. replace (8 * S j + i - 8)%nat with (8 * j + i)%nat by lia. cbn [nth]. apply IH; lia.
Qed.

Lemma read_written_any cells :
  read_vtk (write_vtk lo hi out cells) = Some (map (fun j => map (fun i => Some (corner (nth (wrapped j) (sort cells) 0) i)) eight) (seq 0 (length cells))).
Proof.
  unfold write_vtk. cbv zeta. rewrite <- (sort_length cells). set (l := sort cells) in *. clearbody l.
  cbn [app read_vtk]. replace (Z.to_nat (Z.of_nat (length l) * 8)) with (8 * length l)%nat by lia. rewrite read_corners. cbn [app].
  rewrite (Z.mul_comm (Z.of_nat (length l)) 9), Z.eqb_refl. cbn [negb]. rewrite Nat2Z.id, (read_numbers (length l) 0). cbn [app]. rewrite Z.eqb_refl. cbn [negb].
  rewrite read_types. assert (forallb (Z.eqb 11) (map (fun _ => 11) l) = true) as -> by (apply forallb_forall; intros y Hy; apply in_map_iff in Hy; destruct Hy as (? & <- & _); reflexivity).
  f_equal. rewrite map_map. apply map_ext_in. intros j Hj. apply in_seq in Hj. pose proof (wrapped_le j). rewrite map_map. apply map_ext_in. intros i Hi. assert (0 <= i < 8) by (unfold eight in Hi; cbn [In] in Hi; lia).
  replace (Z.to_nat (Z.of_nat (wrapped j) * 8 + i)) with (8 * wrapped j + Z.to_nat i)%nat by lia. pose proof (nth_corner l [] (wrapped j) (Z.to_nat i) ltac:(lia) ltac:(lia)) as Q. rewrite app_nil_r in Q. rewrite Q, Z2Nat.id by lia. reflexivity.
Qed.
Lemma map_nth_seq (F : Z -> list (option point)) l : map (fun j => F (nth j l 0)) (seq 0 (length l)) = map F l.
Proof. induction l as [|c l IH]; [reflexivity|]. cbn [length seq map nth]. f_equal. rewrite <- seq_shift, map_map. apply IH. Qed.
Lemma read_written cells : Z.of_nat (length cells) <= 2 ^ 29 ->
  read_vtk (write_vtk lo hi out cells) = Some (map (fun c => map (fun i => Some (corner c i)) eight) (sort cells)).
Proof.
  intros B. rewrite read_written_any. f_equal. rewrite <- (map_nth_seq (fun c => map (fun i => Some (corner c i)) eight)), sort_length. apply map_ext_in. intros j Hj. apply in_seq in Hj. rewrite wrapped_small by lia. reflexivity.
Qed.
End Write.


(** ** How far what is written is from what is meant *)
Lemma half_even_near q : (Qabs (inject_Z (half_even q) - q) <= 1 # 2)%Q.
Proof.
  unfold half_even. pose proof (Qfloor_le q) as L. pose proof (Qlt_floor q) as U. rewrite inject_Z_plus in U. apply Qabs_Qle_condition.
  destruct (Qcompare (q - inject_Z (Qfloor q)) (1 # 2)) eqn:E; [apply Qeq_alt in E; destruct (Z.even (Qfloor q))|apply Qlt_alt in E|apply Qgt_alt in E]; rewrite ?inject_Z_plus; change (inject_Z 1) with 1%Q in *; split; lra.
Qed.
Lemma pow10_pos e : (0 < pow10 e)%Q.
Proof.
  unfold pow10. assert (forall n, 0 <= n -> (0 < inject_Z (10 ^ n))%Q) as P by (intros n Hn; rewrite <- (Zlt_Qlt 0); apply Z.pow_pos_nonneg; lia).
  destruct (Z.leb_spec 0 e); [apply P; assumption|]. apply Qinv_lt_0_compat, P. lia.
Qed.
Lemma pow10_shift e : (pow10 e == 100000 * pow10 (e - 5))%Q.
Proof.
  unfold pow10. change 100000%Q with (inject_Z 100000).
  assert (forall n, 0 <= n -> ~ (inject_Z (10 ^ n) == 0)%Q) as NZ by (intros n Hn Q; change 0%Q with (inject_Z 0) in Q; rewrite inject_Z_injective in Q; pose proof (Z.pow_pos_nonneg 10 n eq_refl Hn) as P; rewrite Q in P; discriminate P).
  destruct (Z.leb_spec 0 e), (Z.leb_spec 0 (e - 5)); try lia.
  - rewrite <- inject_Z_mult. rewrite inject_Z_injective. replace e with (5 + (e - 5)) at 1 by lia. rewrite Z.pow_add_r by lia. reflexivity.
  - apply (Qmult_inj_r _ _ (inject_Z (10 ^ (- (e - 5))))); [apply NZ; lia|]. rewrite <- Qmult_assoc, (Qmult_comm (/ _)), Qmult_inv_r, Qmult_1_r by (apply NZ; lia). rewrite <- inject_Z_mult. rewrite inject_Z_injective. rewrite <- Z.pow_add_r by lia. replace (e + - (e - 5)) with 5 by lia. reflexivity.
  - apply (Qmult_inj_r _ _ (inject_Z (10 ^ (- (e - 5))))); [apply NZ; lia|]. rewrite <- (Qmult_assoc (inject_Z 100000)), (Qmult_comm (/ inject_Z (10 ^ (- (e - 5))))), Qmult_inv_r, Qmult_1_r by (apply NZ; lia).
    replace (- (e - 5)) with (- e + 5) by lia. rewrite Z.pow_add_r, inject_Z_mult by lia. rewrite Qmult_assoc, (Qmult_comm (/ _)), Qmult_inv_r, Qmult_1_l by (apply NZ; lia). reflexivity.
Qed.
Lemma exponent_le n : forall hi q, (pow10 (hi - Z.of_nat n) <= q)%Q -> (pow10 (exponent n hi q) <= q)%Q.
Proof.
  induction n as [|n IH]; intros hi q P; cbn [exponent].
  - replace (hi - Z.of_nat 0) with hi in P by lia. assumption.
  - destruct (Qle_bool (pow10 hi) q) eqn:E; [apply Qle_bool_iff; assumption|]. apply IH. replace (hi - 1 - Z.of_nat n) with (hi - Z.of_nat (S n)) by lia. assumption.
Qed.
Lemma exponent_max n : forall hi q, (q < pow10 (hi + 1))%Q -> (q < pow10 (exponent n hi q + 1))%Q.
Proof.
  induction n as [|n IH]; intros hi q P; cbn [exponent]; [assumption|]. destruct (Qle_bool (pow10 hi) q) eqn:E; [assumption|]. apply IH. replace (hi - 1 + 1) with hi by lia.
  apply Qnot_le_lt. intros Q. apply Qle_bool_iff in Q. congruence.
Qed.
(** powers of two *)
Definition pow2 (e : Z) : Q := if 0 <=? e then inject_Z (2 ^ e) else (/ inject_Z (2 ^ (- e)))%Q.
Lemma inject_pos n : 0 < n -> (0 < inject_Z n)%Q.
Proof. intros H. rewrite <- (Zlt_Qlt 0). assumption. Qed.
Lemma inject_nz n : 0 < n -> ~ (inject_Z n == 0)%Q.
Proof. intros H Q. apply inject_pos in H. rewrite Q in H. discriminate. Qed.
Lemma inv_le a b : 0 < a <= b -> (/ inject_Z b <= / inject_Z a)%Q.
Proof. intros [P L]. destruct (Qlt_le_dec (/ inject_Z a) (/ inject_Z b)) as [K|K]; [|assumption]. apply Qinv_lt_contravar in K; [|apply inject_pos; lia|apply inject_pos; lia]. rewrite <- Zlt_Qlt in K. lia. Qed.
Lemma pow2_frac a b : 0 <= a -> 0 <= b -> (pow2 (a - b) == inject_Z (2 ^ a) / inject_Z (2 ^ b))%Q.
Proof.
  intros Ha Hb. assert (forall n, 0 <= n -> 0 < 2 ^ n) as P by (intros; apply Z.pow_pos_nonneg; lia). unfold pow2. destruct (Z.leb_spec 0 (a - b)).
  - replace a with ((a - b) + b) at 2 by lia. rewrite Z.pow_add_r, inject_Z_mult by lia. field. apply inject_nz, P; lia.
  - replace b with ((- (a - b)) + a) at 2 by lia. rewrite Z.pow_add_r, inject_Z_mult by lia. field. split; apply inject_nz, P; lia.
Qed.
Lemma pow2_bounds q : (0 < q)%Q -> (pow2 (log2_diff q - 1) <= q /\ q < pow2 (log2_diff q + 1))%Q.
Proof.
  intros Hq. unfold log2_diff. destruct q as [n d]. cbn [Qnum Qden]. assert (0 < n) as Hn by (unfold Qlt in Hq; cbn in Hq; lia).
  pose proof (Z.log2_spec n Hn) as [A B]. pose proof (Z.log2_spec (Z.pos d) ltac:(lia)) as [C E]. pose proof (Z.log2_nonneg n). pose proof (Z.log2_nonneg (Z.pos d)).
  set (a := Z.log2 n) in *. set (b := Z.log2 (Z.pos d)) in *. assert (forall n, 0 <= n -> 0 < 2 ^ n) as P by (intros; apply Z.pow_pos_nonneg; lia).
  pose proof (P a ltac:(lia)). pose proof (P b ltac:(lia)). pose proof (P (Z.succ a) ltac:(lia)). pose proof (P (Z.succ b) ltac:(lia)).
  replace (a - b - 1) with (a - Z.succ b) by lia. replace (a - b + 1) with (Z.succ a - b) by lia. rewrite !pow2_frac by lia.
  assert (n # d == inject_Z n / inject_Z (Z.pos d))%Q as -> by apply Qmake_Qdiv. split.
  - apply Qle_shift_div_l; [apply inject_pos; lia|]. unfold Qdiv. rewrite <- Qmult_assoc, (Qmult_comm (/ _)), Qmult_assoc. apply Qle_shift_div_r; [apply inject_pos; lia|]. rewrite <- !inject_Z_mult, <- Zle_Qle. nia.
  - apply Qlt_shift_div_r; [apply inject_pos; lia|]. unfold Qdiv. rewrite <- Qmult_assoc, (Qmult_comm (/ _)), Qmult_assoc. apply Qlt_shift_div_l; [apply inject_pos; lia|]. rewrite <- !inject_Z_mult, <- Zlt_Qlt. nia.
Qed.
Lemma pow_2_10 e : 0 <= e -> 2 ^ (3 * e) <= 10 ^ e <= 2 ^ (4 * e).
Proof. intros He. rewrite !Z.pow_mul_r by lia. change (2 ^ 3) with 8. change (2 ^ 4) with 16. split; apply Z.pow_le_mono_l; lia. Qed.
Lemma ten_below e d : (0 <= e -> 4 * e <= d) -> (e < 0 -> 3 * e <= d) -> (pow10 e <= pow2 d)%Q.
Proof.
  intros H1 H2. assert (forall n, 0 <= n -> 0 < 2 ^ n) as P by (intros; apply Z.pow_pos_nonneg; lia). unfold pow10, pow2. destruct (Z.leb_spec 0 e), (Z.leb_spec 0 d); try lia.
  - rewrite <- Zle_Qle. pose proof (pow_2_10 e ltac:(lia)). pose proof (Z.pow_le_mono_r 2 (4 * e) d). lia.
  - apply Qle_trans with 1%Q; [|change 1%Q with (inject_Z 1); rewrite <- Zle_Qle; specialize (P d ltac:(lia)); lia]. change 1%Q with (/ inject_Z 1)%Q. apply inv_le. pose proof (Z.pow_pos_nonneg 10 (- e)). lia.
  - apply inv_le. split; [apply P; lia|]. pose proof (pow_2_10 (- e) ltac:(lia)). pose proof (Z.pow_le_mono_r 2 (- d) (3 * - e)). lia.
Qed.
Lemma ten_above e d : (0 <= e -> d <= 3 * e) -> (e < 0 -> d <= 4 * e) -> (pow2 d <= pow10 e)%Q.
Proof.
  intros H1 H2. assert (forall n, 0 <= n -> 0 < 2 ^ n) as P by (intros; apply Z.pow_pos_nonneg; lia). unfold pow10, pow2. destruct (Z.leb_spec 0 e), (Z.leb_spec 0 d); try lia.
  - rewrite <- Zle_Qle. pose proof (pow_2_10 e ltac:(lia)). pose proof (Z.pow_le_mono_r 2 d (3 * e)). lia.
  - apply Qle_trans with 1%Q; [|change 1%Q with (inject_Z 1); rewrite <- Zle_Qle; pose proof (Z.pow_pos_nonneg 10 e); lia]. change 1%Q with (/ inject_Z 1)%Q. apply inv_le. specialize (P (- d) ltac:(lia)). lia.
  - apply inv_le. split; [apply Z.pow_pos_nonneg; lia|]. pose proof (pow_2_10 (- e) ltac:(lia)). pose proof (Z.pow_le_mono_r 2 (4 * - e) (- d)). lia.
Qed.
Lemma decimal_exponent_spec q : (0 < q -> pow10 (decimal_exponent q) <= q /\ q < pow10 (decimal_exponent q + 1))%Q.
Proof.
  intros Hq. destruct (pow2_bounds q Hq) as [A B]. assert (least_exponent q <= most_exponent q) as L.
  { unfold least_exponent, most_exponent. cbv zeta. destruct (Z.leb_spec 0 (log2_diff q - 1)), (Z.leb_spec 0 (log2_diff q + 1)); Z.to_euclidean_division_equations; lia. }
  assert (pow10 (least_exponent q) <= q)%Q as C.
  { apply Qle_trans with (pow2 (log2_diff q - 1)); [|assumption]. unfold least_exponent. cbv zeta. destruct (Z.leb_spec 0 (log2_diff q - 1)); apply ten_below; Z.to_euclidean_division_equations; lia. }
  assert (q < pow10 (most_exponent q + 1))%Q as E.
  { apply Qlt_le_trans with (pow2 (log2_diff q + 1)); [assumption|]. unfold most_exponent. cbv zeta. destruct (Z.leb_spec 0 (log2_diff q + 1)); apply ten_above; Z.to_euclidean_division_equations; lia. }
  unfold decimal_exponent. split; [apply exponent_le|apply exponent_max; assumption]. replace (most_exponent q - Z.of_nat (Z.to_nat (most_exponent q - least_exponent q))) with (least_exponent q) by lia. assumption.
Qed.
Lemma six_digits_near q : (exists w, six_digits (Some q) = Some w /\ Qabs (w - q) <= (1 # 200000) * Qabs q)%Q.
Proof.
  unfold six_digits. destruct (Qeq_bool q 0) eqn:E.
  - apply Qeq_bool_eq in E. eexists. split; [reflexivity|]. rewrite E. vm_compute. discriminate.
  - apply Qeq_bool_neq in E.
    set (a := Qabs q) in *. set (e := decimal_exponent a). assert (pow10 e <= a)%Q as Le by (apply decimal_exponent_spec; apply Qabs_case; intros C; apply Qle_lteq in C; destruct C as [C|C]; [assumption|destruct E; symmetry; assumption|apply Qopp_lt_compat in C; assumption|contradiction]).
    pose proof (pow10_shift e) as Sh. pose proof (pow10_pos (e - 5)) as Pu. set (u := pow10 (e - 5)) in *. cbv zeta.
    pose proof (half_even_near (a / u)) as N. set (h := inject_Z (half_even (a / u))) in *.
    assert (Qabs (h * u - a) <= (1 # 200000) * a)%Q as K.
    { assert (h * u - a == (h - a / u) * u)%Q as -> by (field; intros Q; rewrite Q in Pu; discriminate). rewrite Qabs_Qmult, (Qabs_pos u) by (apply Qlt_le_weak; assumption).
      apply Qle_trans with ((1 # 2) * u)%Q; [apply Qmult_le_compat_r; [assumption|apply Qlt_le_weak; assumption]|]. lra. }
    eexists. split; [reflexivity|]. destruct (Qle_bool 0 q) eqn:S.
    + apply Qle_bool_iff in S. unfold a in K at 1. rewrite (Qabs_pos q S) in K at 1. exact K.
    + assert (q <= 0)%Q as S' by (destruct (Qlt_le_dec 0 q) as [L|]; [apply Qlt_le_weak, Qle_bool_iff in L; congruence|assumption]).
      assert (- (h * u) - q == - (h * u - - q))%Q as -> by ring. rewrite Qabs_opp. unfold a in K at 1. rewrite (Qabs_neg q S') in K at 1. exact K.
Qed.

Lemma sorted_lt cells : NoDup cells -> StronglySorted Z.lt (sort cells).
Proof.
  intros N. assert (NoDup (sort cells)) as ND by (apply sort_NoDup; assumption). pose proof (sort_sorted cells) as S. clear - ND S. induction S as [|y l S IH F]; constructor; inversion ND; subst; auto.
  apply Forall_forall. intros z Iz. rewrite Forall_forall in F. specialize (F z Iz). assert (y <> z) by (intros ->; contradiction). lia.
Qed.

Section Props.
Context {D : Type} (d0 : D) (g : grid) (Hg : grid_ok g).
Notation m := (g_map g).
Notation rank r := (In r (ranks g)).

(** the file written on a process with at most 2^29 cells describes exactly its cells, each by
    its eight corners, in ascending order; [out] is what is written of a coordinate *)
Theorem c64_vtk_file x r lo hi out : xreachable d0 g x -> rank r -> exists cells,
  get_cells g (x_hoods x) default_neighborhood_id r (x_st x r) [] false = Done cells /\
  (Z.of_nat (length cells) <= 2 ^ 29 -> exists written,
     read_vtk (write_vtk lo hi out cells) = Some (map (fun c => map (fun i => Some (corner lo hi out c i)) eight) written) /\
     StronglySorted Z.lt written /\ forall c, In c written <-> owner (x_st x) r c = Some r).
Proof.
  intros R Ir. destruct (c37_get_cells d0 g Hg x default_neighborhood_id (g_hood g) r [] false R eq_refl Ir) as (cells & E & N & P). exists cells. split; [assumption|]. intros B. exists (sort cells). split; [apply read_written; assumption|]. split.
  - apply sorted_lt. assumption.
  - intros c. rewrite sort_In, P. split; [intros [Q _]; exact Q|intros Q; split; [exact Q|left; reflexivity]].
Qed.

(** the coordinates that are read differ from those of the geometry by at most 5 in 1000000 *)
Definition normal (q : option Q) : Prop := exists b, q = Some b.
Definition near (w q : option Q) : Prop := exists a b, w = Some a /\ q = Some b /\ (Qabs (a - b) <= (1 # 200000) * Qabs b)%Q.
Definition near_point (p q : point) : Prop := near (fst (fst p)) (fst (fst q)) /\ near (snd (fst p)) (snd (fst q)) /\ near (snd p) (snd q).
Lemma written_near q : normal q -> near (six_digits q) q.
Proof. intros (b & ->). destruct (six_digits_near b) as (w & E & N). exists w, b. auto. Qed.
Theorem c64_coordinates_partial x r lo hi : xreachable d0 g x -> rank r -> (forall c k, owner (x_st x) r c = Some r -> normal (lo c k) /\ normal (hi c k)) ->
  exists cells, get_cells g (x_hoods x) default_neighborhood_id r (x_st x r) [] false = Done cells /\
  (Z.of_nat (length cells) <= 2 ^ 29 -> exists written file,
     read_vtk (write_vtk lo hi six_digits cells) = Some file /\
     StronglySorted Z.lt written /\ (forall c, In c written <-> owner (x_st x) r c = Some r) /\
     Forall2 (fun c => Forall2 (fun i p => exists q, p = Some q /\ near_point q (corner lo hi (fun a => a) c i)) eight) written file).
Proof.
  intros R Ir Nm. destruct (c64_vtk_file x r lo hi six_digits R Ir) as (cells & E & P). exists cells. split; [assumption|]. intros B. destruct (P B) as (written & F & S & I). exists written. eexists. split; [eassumption|]. split; [assumption|]. split; [assumption|].
  clear E P B F S. assert (forall c, In c written -> owner (x_st x) r c = Some r) as I' by (intros c; apply I). clear I. induction written as [|c l IH]; [constructor|]. cbn [map]. constructor; [|apply IH; intros; apply I'; right; assumption].
  specialize (I' c (or_introl eq_refl)). pose proof (Nm c DX I') as [? ?]. pose proof (Nm c DY I') as [? ?]. pose proof (Nm c DZ I') as [? ?]. generalize eight. intros e. induction e as [|i e IHe]; constructor; [|assumption].
  eexists. split; [reflexivity|]. unfold near_point, corner. cbn [fst snd]. destruct (Z.testbit i 0), (Z.testbit i 1), (Z.testbit i 2); auto using written_near.
Qed.
End Props.
Print Assumptions c64_coordinates_partial.

(** ** Cell 2 of a 2 x 1 x 1 grid refined: the file of process 1, which owns the children of 2 *)
Definition cells_of (g : grid) (x : xstate (D := Z)) r : list Z := match get_cells g (x_hoods x) default_neighborhood_id r (x_st x r) [] false with Done l => l | _ => [] end.
Definition eqp (a : option point) (x y z : Q) : bool := match a with Some (Some x', Some y', Some z') => Qeq_bool x x' && Qeq_bool y y' && Qeq_bool z z' | _ => false end.
Example c64_example : holds (xgo 0 g2 refined2) (fun x =>
  match read_vtk (write_vtk (ca_min exact (g_map g2) unit_ca) (ca_max exact (g_map g2) unit_ca) six_digits (cells_of g2 x 1)) with
  | Some file => (Z.of_nat (length file) =? 8) &&
      eqp (nth 0 (nth 0 file []) None) 1 0 0 && eqp (nth 7 (nth 0 file []) None) (3 # 2) (1 # 2) (1 # 2) && eqp (nth 1 (nth 5 file []) None) 2 0 (1 # 2)
  | None => false end) = true.
Proof. vm_compute. reflexivity. Qed.

(** ** The point numbers wrap after 2^29 cells *)
Lemma many_cells lo hi out cells n : (n < length cells)%nat -> exists file, read_vtk (write_vtk lo hi out cells) = Some file /\
  nth_error file n = Some (map (fun i => Some (corner lo hi out (nth (Z.to_nat (Z.of_nat n mod 2 ^ 29)) (sort cells) 0) i)) eight).
Proof.
  intros Hn. eexists. split; [apply read_written_any|]. rewrite nth_error_map. assert (nth_error (seq 0 (length cells)) n = Some n) as -> by (rewrite nth_error_nth' with (d := O) by (rewrite seq_length; assumption); rewrite seq_nth by assumption; reflexivity). reflexivity.
Qed.

Definition gbig1 : grid := Grid (update_last_cell (Mapping 1024 1024 1024 0 0)) (Topo false false false) 0 1.
Example gbig1_ok : grid_ok gbig1. Proof. apply grid_okb; vm_compute; reflexivity. Qed.
Lemma sorted_count l : forall a, StronglySorted Z.lt l -> (forall c, In c l <-> a < c <= a + Z.of_nat (length l)) -> forall n, (n < length l)%nat -> nth n l 0 = a + 1 + Z.of_nat n.
Proof.
  induction l as [|y l IH]; intros a S I n Hn; cbn [length] in *; [lia|]. apply StronglySorted_inv in S. destruct S as [S F]. rewrite Forall_forall in F.
  assert (y = a + 1) as ->.
  { pose proof (proj1 (I y) (or_introl eq_refl)). destruct (proj2 (I (a + 1)) ltac:(lia)) as [Q|Q]; [assumption|]. specialize (F _ Q). lia. }
  destruct n as [|n]; cbn [nth]; [lia|]. rewrite (IH (a + 1)); [lia|assumption| |lia]. intros c. specialize (I c). cbn [In] in I. split.
  - intros Q. specialize (F c Q). apply proj1 in I. specialize (I (or_intror Q)). lia.
  - intros Q. destruct (proj2 I ltac:(lia)) as [E|E]; [lia|assumption].
Qed.
(** one process with 2^30 cells: the cell with index (0, 0, 512) is described by the corners of
    the cell with index (0, 0, 0) *)
Theorem c64_many_cells_refuted : exists g (x : xstate (D := unit)) cells c n, grid_ok g /\ xreachable tt g x /\
  get_cells g (x_hoods x) default_neighborhood_id 0 (x_st x 0) [] false = Done cells /\ owner (x_st x) 0 c = Some 0 /\ nth_error (sort cells) n = Some c /\
  exists file, read_vtk (write_vtk (no_min exact (g_map g)) (no_max exact (g_map g)) (fun a => a) cells) = Some file /\
    exists p q, nth_error file n = Some (p :: q) /\ eqp p 0 0 0 = true /\ eqp (Some (corner (no_min exact (g_map g)) (no_max exact (g_map g)) (fun a => a) c 0)) 0 0 512 = true.
Proof.
  destruct (xinitialize_inv tt gbig1 gbig1_ok) as (x & E & _). pose proof (xreach_init tt gbig1 x E) as R. assert (In 0 (ranks gbig1)) as I0 by (vm_compute; tauto).
  destruct (c37_get_cells tt gbig1 gbig1_ok x default_neighborhood_id (g_hood gbig1) 0 [] false R eq_refl I0) as (cells & Ec & N & P).
  unfold xinitialize in E. apply bind_done in E. destruct E as (st & E & Q). injection Q as <-. cbn [x_st x_hoods] in *.
  destruct (c29_initial_distribution tt gbig1 gbig1_ok st E) as (first & F0 & F1 & _ & Fo).
  change (g_np gbig1) with 1 in *. replace (vol (dims_of (g_map gbig1))) with 1073741824 in * by (vm_compute; reflexivity).
  assert (forall c, owner st 0 c = Some 0 <-> 0 < c <= 1073741824) as O by (intros c; rewrite (Fo 0 c 0 I0); change (0 + 1) with 1; rewrite F0, F1; lia).
  assert (forall c, In c cells <-> 0 < c <= 1073741824) as I by (intros c; rewrite P, <- O; unfold owns; cbn [x_st]; tauto).
  assert (Z.of_nat (length cells) = 1073741824) as L.
  { rewrite (Permutation_length (l' := zseq 1 (Z.to_nat 1073741824))); [unfold zseq; rewrite map_length, seq_length; lia|].
    apply NoDup_Permutation; [assumption|apply zseq_NoDup|]. intros c. rewrite zseq_In, I. lia. }
  pose proof (sort_length cells) as SL.
  assert (StronglySorted Z.lt (sort cells)) as S by (apply sorted_lt; assumption).
  assert (forall n, (n < length cells)%nat -> nth n (sort cells) 0 = 1 + Z.of_nat n) as K.
  { intros n Hn. apply (sorted_count (sort cells) 0 S); [|lia]. intros c. rewrite sort_In, I, SL, L. reflexivity. }
  assert (exists n, Z.of_nat n = 536870912) as (n & Hn) by (exists (Z.to_nat 536870912); apply Z2Nat.id; discriminate).
  exists gbig1, (XState st (fresh_copies tt st) []), cells, 536870913, n. split; [apply gbig1_ok|]. split; [assumption|]. split; [assumption|]. split; [apply O; lia|].
  split. { rewrite nth_error_nth' with (d := 0) by lia. rewrite K by lia. rewrite Hn. reflexivity. }
  destruct (many_cells (no_min exact (g_map gbig1)) (no_max exact (g_map gbig1)) (fun a => a) cells n ltac:(lia)) as (file & Ef & Nf). exists file. split; [assumption|].
  rewrite Hn in Nf. change (2 ^ 29) with 536870912 in Nf. rewrite Z.mod_same in Nf by lia. change (Z.to_nat 0) with 0%nat in Nf. rewrite K in Nf by lia. change (1 + Z.of_nat 0) with 1 in Nf. cbn [map eight] in Nf. eexists _, _. split; [exact Nf|]. split; vm_compute; reflexivity.
Qed.

(** ** Six digits do not tell cells apart *)
(** cells of length 1 in a grid that starts at x = 1000000 *)
Definition away_ca : cartesian exact := Cartesian (A := exact) (three (Some 1000000) (Some 0) (Some 0))%Q (three (Some 1) (Some 1) (Some 1))%Q.
Definition written_x (file : list (list (option point))) : list (option Q) := flat_map (map (fun p => match p with Some (x, _, _) => x | None => None end)) file.
Theorem c64_six_digits_refuted : exists x c, xreachable 0 g2 x /\ finite away_ca /\ owner (x_st x) 1 c = Some 1 /\
  exists file, read_vtk (write_vtk (ca_min exact (g_map g2) away_ca) (ca_max exact (g_map g2) away_ca) six_digits (cells_of g2 x 1)) = Some file /\
  forallb (fun q => match q with Some v => Qeq_bool v 1000000 | None => false end) (written_x file) = true /\
  match ca_min exact (g_map g2) away_ca c DX, ca_max exact (g_map g2) away_ca c DX with Some a, Some b => Qeq_bool a 1000001 && Qeq_bool b 1000002 | _, _ => false end = true.
Proof.
  assert (holds (xgo 0 g2 []) (fun x => eqo (owner (x_st x) 1 2) (Some 1) && match read_vtk (write_vtk (ca_min exact (g_map g2) away_ca) (ca_max exact (g_map g2) away_ca) six_digits (cells_of g2 x 1)) with
    | Some file => (Z.of_nat (length (written_x file)) =? 8) && forallb (fun q => match q with Some v => Qeq_bool v 1000000 | None => false end) (written_x file) | None => false end) = true) as Q by (vm_compute; reflexivity).
  apply xgo_holds in Q. destruct Q as (x & R & Q). apply andb_true_iff in Q. destruct Q as [Q1 Q2]. destruct (read_vtk _) as [file|] eqn:Ef; [|discriminate Q2]. apply andb_true_iff in Q2. destruct Q2 as [_ Q2].
  exists x, 2. split; [assumption|]. split; [intros []; eexists _, _; (split; [reflexivity|split; reflexivity])|]. split; [destruct (owner (x_st x) 1 2); [apply Z.eqb_eq in Q1; subst; reflexivity|discriminate Q1]|]. exists file. split; [assumption|]. split; [assumption|vm_compute; reflexivity].
Qed.
