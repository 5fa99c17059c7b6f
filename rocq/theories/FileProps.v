(** What is written to a file is read back: mapping, topology and geometries. *)
From Verif Require Import U64 MapModel MapSpec MapProofs HoodModel DblModel DblProps FileModel.
Open Scope Z_scope.

(** ** Bytes *)

(** b is in file f from offset o on *)
Definition stored (f : file) (o : Z) (b : list Z) : Prop := forall i x, nth_error b i = Some x -> f (o + Z.of_nat i) = Some x.
Notation len b := (Z.of_nat (length b)).

Lemma write_other f o b p : p < o \/ o + len b <= p -> write_at f o b p = f p.
Proof.
  intros Hp. unfold write_at. destruct (Z.ltb_spec p o); [reflexivity|]. destruct (nth_error b (Z.to_nat (p - o))) eqn:E; [|reflexivity].
  assert (Z.to_nat (p - o) < length b)%nat by (apply nth_error_Some; congruence). lia.
Qed.
Lemma stored_write f o b : stored (write_at f o b) o b.
Proof. intros i x E. unfold write_at. destruct (Z.ltb_spec (o + Z.of_nat i) o); [lia|]. replace (Z.to_nat (o + Z.of_nat i - o)) with i by lia. rewrite E. reflexivity. Qed.
Lemma stored_agree f f' o b : stored f o b -> (forall p, o <= p < o + len b -> f' p = f p) -> stored f' o b.
Proof. intros S A i x E. rewrite A; [apply S; assumption|]. assert (i < length b)%nat by (apply nth_error_Some; congruence). lia. Qed.
Lemma stored_other f o b o' b' : stored f o b -> o' + len b' <= o \/ o + len b <= o' -> stored (write_at f o' b') o b.
Proof. intros S A. apply (stored_agree f); [assumption|]. intros p Hp. apply write_other. lia. Qed.
Lemma stored_app f o a b : stored f o (a ++ b) <-> stored f o a /\ stored f (o + len a) b.
Proof.
  split.
  - intros S. split; intros i x E.
    + apply S. rewrite nth_error_app1; [assumption|]. apply nth_error_Some. congruence.
    + replace (o + len a + Z.of_nat i) with (o + Z.of_nat (length a + i)) by lia. apply S. rewrite nth_error_app2 by lia. replace (length a + i - length a)%nat with i by lia. assumption.
  - intros [A B] i x E. destruct (Nat.lt_ge_cases i (length a)) as [L|L].
    + apply A. rewrite nth_error_app1 in E by assumption. assumption.
    + rewrite nth_error_app2 in E by assumption. specialize (B _ _ E). rewrite <- B. f_equal. lia.
Qed.
Lemma stored_cons f o a b : stored f o (a :: b) <-> f o = Some a /\ stored f (o + 1) b.
Proof.
  change (a :: b) with ([a] ++ b). rewrite stored_app. cbn [length]. replace (Z.of_nat 1) with 1 by lia. split; intros [A B]; (split; [|assumption]).
  - specialize (A 0%nat a eq_refl). cbn in A. rewrite Z.add_0_r in A. assumption.
  - intros [|[|i]] x E; cbn in E; try discriminate. injection E as <-. cbn. rewrite Z.add_0_r. assumption.
Qed.
Lemma read_stored f b : forall o buffer, stored f o b -> length buffer = length b -> read_at f o buffer = b.
Proof.
  induction b as [|a b IH]; intros o [|x buffer] S L; cbn [length] in L; try lia; [reflexivity|]. apply stored_cons in S. destruct S as [A B]. cbn [read_at]. rewrite A, (IH (o + 1)); [reflexivity|assumption|lia].
Qed.
Lemma stream_stored f b : forall o n, stored f o b -> n = length b -> stream_read f o n = Some b.
Proof.
  induction b as [|a b IH]; intros o n S ->; cbn [length stream_read]; [reflexivity|]. apply stored_cons in S. destruct S as [A B]. rewrite A, (IH (o + 1) (length b) B eq_refl). reflexivity.
Qed.
Lemma stream_missing f n : forall o p, o <= p < o + Z.of_nat n -> f p = None -> stream_read f o n = None.
Proof.
  induction n as [|n IH]; intros o p Hp E; [lia|]. cbn [stream_read]. destruct (Z.eq_dec p o) as [->|]; [rewrite E; reflexivity|]. rewrite (IH (o + 1) p) by (lia || assumption). destruct (f o); reflexivity.
Qed.
Lemma read_length f buffer : forall o, length (read_at f o buffer) = length buffer.
Proof. induction buffer as [|x r IH]; intros o; cbn [read_at length]; [reflexivity|]. rewrite IH. reflexivity. Qed.

Lemma little_length n : forall v, length (little n v) = n.
Proof. induction n as [|n IH]; intros v; cbn [little length]; [reflexivity|]. rewrite IH. reflexivity. Qed.
Lemma value_little n : forall v, 0 <= v < 256 ^ Z.of_nat n -> value (little n v) = v.
Proof.
  induction n as [|n IH]; intros v Hv; cbn [little value].
  - cbn in Hv. lia.
  - rewrite IH.
    + pose proof (Z.div_mod v 256 ltac:(lia)). lia.
    + replace (256 ^ Z.of_nat (S n)) with (256 * 256 ^ Z.of_nat n) in Hv by (rewrite Nat2Z.inj_succ, Z.pow_succ_r by lia; reflexivity).
      split; [apply Z.div_pos; lia|apply Z.div_lt_upper_bound; lia].
Qed.

Section Format.
Context (big : bool).
Notation bytes_of := (bytes_of big).
Notation value_of := (value_of big).
Notation words := (words big).
Notation take_words := (take_words big).
Notation int_bytes := (int_bytes big).
Notation int_of := (int_of big).

Lemma bytes_length n v : length (bytes_of n v) = n.
Proof. unfold FileModel.bytes_of. destruct big; rewrite ?rev_length; apply little_length. Qed.
Lemma value_bytes n v : 0 <= v < 256 ^ Z.of_nat n -> value_of (bytes_of n v) = v.
Proof. intros Hv. unfold FileModel.bytes_of, FileModel.value_of. destruct big; rewrite ?rev_involutive; apply value_little; assumption. Qed.
Lemma value_word v : is_u64 v -> value_of (bytes_of 8 v) = v.
Proof. intros Hv. apply value_bytes. unfold is_u64 in Hv. rewrite W_val in Hv. change (256 ^ Z.of_nat 8) with 18446744073709551616. assumption. Qed.
Lemma words_length l : length (words l) = (8 * length l)%nat.
Proof. unfold FileModel.words. induction l as [|x l IH]; cbn [flat_map length]; [reflexivity|]. rewrite app_length, IH, bytes_length. lia. Qed.
Lemma take_words_ok l : (forall x, In x l -> is_u64 x) -> take_words (length l) (words l) = l.
Proof.
  induction l as [|x l IH]; intros U; cbn [length FileModel.take_words FileModel.words flat_map]; [reflexivity|].
  pose proof (bytes_length 8 x) as L. rewrite firstn_app, skipn_app, L, Nat.sub_diag, firstn_O, skipn_O, app_nil_r.
  rewrite (firstn_all2 (n := 8) (bytes_of 8 x)), (skipn_all2 (n := 8) (bytes_of 8 x)) by lia. cbn [app]. rewrite value_word by (apply U; left; reflexivity). f_equal. apply IH. intros y Hy. apply U. right. assumption.
Qed.
Lemma int_length v : length (int_bytes v) = 4%nat.
Proof. apply bytes_length. Qed.
Lemma int_ok v : - 2 ^ 31 <= v < 2 ^ 31 -> int_of (int_bytes v) = v.
Proof.
  intros Hv. unfold FileModel.int_of, FileModel.int_bytes. rewrite value_bytes.
  - destruct (Z.le_gt_cases 0 v).
    + rewrite Z.mod_small by lia. destruct (Z.ltb_spec v (2 ^ 31)); lia.
    + replace (v mod 2 ^ 32) with (v + 2 ^ 32) by (apply (Z.mod_unique_pos _ _ (-1)); lia). destruct (Z.ltb_spec (v + 2 ^ 32) (2 ^ 31)); lia.
  - change (256 ^ Z.of_nat 4) with (2 ^ 32). apply Z.mod_pos_bound. lia.
Qed.
Lemma read_words f o l buffer : stored f o (words l) -> (forall x, In x l -> is_u64 x) -> length buffer = (8 * length l)%nat -> take_words (length l) (read_at f o buffer) = l.
Proof. intros S U L. rewrite (read_stored f (words l)); [apply take_words_ok; assumption|assumption|]. rewrite words_length. assumption. Qed.
Lemma read_int f o v w : stored f o (int_bytes v) -> - 2 ^ 31 <= v < 2 ^ 31 -> int_of (read_at f o (int_bytes w)) = v.
Proof. intros S U. rewrite (read_stored f (int_bytes v)); [apply int_ok; assumption|assumption|]. rewrite !int_length. reflexivity. Qed.

(** ** Mapping *)
Definition mapping_bytes (m : mapping) : list Z := words [m_l0 m; m_l1 m; m_l2 m] ++ int_bytes (m_max m).
Lemma mapping_bytes_size m : len (mapping_bytes m) = mapping_size.
Proof. unfold mapping_bytes. rewrite app_length, words_length, int_length. reflexivity. Qed.
Lemma mapping_stored m f o : stored (mapping_write big m f o) o (mapping_bytes m).
Proof.
  unfold mapping_write, mapping_bytes. apply stored_app. rewrite words_length. cbn [length]. split; [|apply stored_write].
  apply stored_other; [apply stored_write|]. rewrite words_length, int_length. cbn [length]. lia.
Qed.
(** the values the setters of a mapping leave: dccrg_mapping.hpp:110-146 *)
Definition settable (m : mapping) : Prop :=
  is_u64 (m_l0 m) /\ is_u64 (m_l1 m) /\ is_u64 (m_l2 m) /\ (forall old, fst (length_set old (m_l0 m, m_l1 m, m_l2 m)) = true) /\
  - 2 ^ 31 <= m_max m <= get_maximum_possible_refinement_level m /\ m_max m < 2 ^ 31 /\ m_last m = last_cell_of m.
Lemma level_from_length m m' : m_l0 m' = m_l0 m -> m_l1 m' = m_l1 m -> m_l2 m' = m_l2 m -> settable m ->
  set_maximum_refinement_level m' (m_max m) = (true, m).
Proof.
  intros E0 E1 E2 (U0 & U1 & U2 & A & Lm & Li & La). unfold set_maximum_refinement_level.
  assert (get_maximum_possible_refinement_level m' = get_maximum_possible_refinement_level m) as -> by (unfold get_maximum_possible_refinement_level, grid64; rewrite E0, E1, E2; reflexivity).
  destruct (Z.leb_spec (m_max m) (get_maximum_possible_refinement_level m)); [|lia]. f_equal. unfold update_last_cell. cbn [m_l0 m_l1 m_l2 m_max]. rewrite E0, E1, E2. destruct m as [a b c d e]. cbn [m_l0 m_l1 m_l2 m_max m_last] in *. rewrite La. f_equal. apply last_cell_of_ext; reflexivity.
Qed.
Lemma set_same m0 m : settable m -> exists m1, set_length m0 (m_l0 m, m_l1 m, m_l2 m) = (true, m1) /\ m_l0 m1 = m_l0 m /\ m_l1 m1 = m_l1 m /\ m_l2 m1 = m_l2 m.
Proof.
  intros (_ & _ & _ & A & _). unfold set_length. specialize (A (m_l0 m0, m_l1 m0, m_l2 m0)). pose proof (c07_refusal_changes_nothing (m_l0 m0, m_l1 m0, m_l2 m0) (m_l0 m, m_l1 m, m_l2 m)) as [_ C]. specialize (C A).
  destruct (length_set (m_l0 m0, m_l1 m0, m_l2 m0) (m_l0 m, m_l1 m, m_l2 m)) as [ok l]. cbn [fst snd] in *. subst. eexists. split; [reflexivity|]. unfold update_last_cell. cbn. auto.
Qed.
Lemma mapping_reads m m0 f o : settable m -> stored f o (mapping_bytes m) -> mapping_read big m0 f o = (true, m) /\ mapping_read_stream big m0 f o = (true, m).
Proof.
  intros Hm S. pose proof Hm as (U0 & U1 & U2 & _ & Lm & Li & _). unfold mapping_bytes in S. apply stored_app in S. rewrite words_length in S. cbn [length] in S. replace (Z.of_nat (8 * 3)) with 24 in S by lia. destruct S as [S1 S2].
  assert (forall x, In x [m_l0 m; m_l1 m; m_l2 m] -> is_u64 x) as Us by (intros x [<-|[<-|[<-|[]]]]; assumption).
  destruct (set_same m0 m Hm) as (m1 & E1 & A & B & C). split.
  - unfold mapping_read. rewrite (read_words f o [m_l0 m; m_l1 m; m_l2 m] _ S1 Us) by (rewrite words_length; reflexivity). cbn [lengths_of]. rewrite E1. cbn [negb].
    rewrite (read_int f (o + 24) (m_max m) (-1) S2) by lia. apply level_from_length; assumption.
  - unfold mapping_read_stream. rewrite (stream_stored f _ o 24 S1) by (rewrite words_length; reflexivity). rewrite (take_words_ok [m_l0 m; m_l1 m; m_l2 m] Us : take_words 3 _ = _). cbn [lengths_of]. rewrite E1. cbn [negb].
    rewrite (stream_stored f _ (o + 24) 4 S2) by (rewrite int_length; reflexivity). rewrite int_ok by lia. apply level_from_length; assumption.
Qed.

(** ** Topology *)
Definition topology_bytes (t : topo) : list Z := [flag (per_x t); flag (per_y t); flag (per_z t)].
Lemma topology_reads t t0 f o : stored f o (topology_bytes t) -> topology_read f o = t /\ topology_read_stream t0 f o = (true, t).
Proof.
  intros S. unfold topology_read, topology_read_stream. rewrite (read_stored f _ o [0; 0; 0] S eq_refl), (stream_stored f _ o 3 S eq_refl). destruct t as [[] [] []]; auto.
Qed.

(** ** Geometries *)
Definition words_ok (l : list Z) : Prop := forall x, In x l -> is_u64 x.
(** the values a geometry can have after set() of mapping m's grid; for the stretched geometry
    the number of coordinates depends on the length of the grid *)
Definition geometry_set (m : mapping) (y : geometry) : Prop :=
  match y with
  | NoGeometry => True
  | CartesianGeometry c => length (c_start c) = 3%nat /\ length (c_len c) = 3%nat /\ words_ok (c_start c) /\ words_ok (c_len c) /\ cartesian_set c c = (true, c)
  | StretchedGeometry s => words_ok (s_x s) /\ words_ok (s_y s) /\ words_ok (s_z s) /\ stretched_set m s s = (true, s)
  end.
Definition geometry_bytes (y : geometry) : list Z :=
  match y with
  | NoGeometry => int_bytes 0
  | CartesianGeometry c => int_bytes 1 ++ words (c_start c) ++ words (c_len c)
  | StretchedGeometry s => int_bytes 2 ++ words [count_of (s_x s); count_of (s_y s); count_of (s_z s)] ++ words (s_x s) ++ words (s_y s) ++ words (s_z s)
  end.
Definition same_class (y z : geometry) : Prop :=
  match y, z with NoGeometry, NoGeometry | CartesianGeometry _, CartesianGeometry _ | StretchedGeometry _, StretchedGeometry _ => True | _, _ => False end.
Lemma geometry_bytes_size m y : geometry_set m y -> len (geometry_bytes y) = geometry_size y.
Proof.
  destruct y as [|c|s]; cbn [geometry_set geometry_bytes geometry_size].
  - intros _. rewrite int_length. reflexivity.
  - intros (A & B & _). rewrite !app_length, int_length, !words_length, A, B. reflexivity.
  - intros _. rewrite !app_length, int_length, !words_length. unfold stretched_size, count_of. cbn [length]. lia.
Qed.
Lemma geometry_stored m y f o : geometry_set m y -> stored (geometry_write big y f o) o (geometry_bytes y).
Proof.
  destruct y as [|c|s]; cbn [geometry_set geometry_bytes geometry_write].
  - intros _. apply stored_write.
  - intros (A & B & _). unfold cartesian_write. rewrite !stored_app, int_length, words_length, A. replace (o + Z.of_nat 4) with (o + 4) by lia. replace (o + 4 + Z.of_nat (8 * 3)) with (o + 28) by lia.
    split; [|split; [|apply stored_write]].
    + apply stored_other; [apply stored_other; [apply stored_write|]|]; rewrite int_length; rewrite words_length; lia.
    + apply stored_other; [apply stored_write|]. rewrite !words_length. lia.
  - intros _. unfold stretched_write, count_of. rewrite !stored_app, int_length, !words_length. cbn [length]. cbn zeta.
    replace (o + Z.of_nat 4) with (o + 4) by lia. replace (o + 4 + Z.of_nat (8 * 3)) with (o + 28) by lia.
    replace (o + 28 + Z.of_nat (8 * length (s_x s))) with (o + 28 + 8 * len (s_x s)) by lia. replace (o + 28 + 8 * len (s_x s) + Z.of_nat (8 * length (s_y s))) with (o + 28 + 8 * len (s_x s) + 8 * len (s_y s)) by lia.
    split; [|split; [|split; [|split; [|apply stored_write]]]].
    + do 4 (apply stored_other; [|rewrite ?int_length, ?words_length; cbn [length]; lia]). apply stored_write.
    + do 3 (apply stored_other; [|rewrite ?int_length, ?words_length; cbn [length]; lia]). apply stored_write.
    + do 2 (apply stored_other; [|rewrite ?int_length, ?words_length; cbn [length]; lia]). apply stored_write.
    + do 1 (apply stored_other; [|rewrite ?int_length, ?words_length; cbn [length]; lia]). apply stored_write.
Qed.
Lemma coordinates_count n l : coordinates_ok n l = true -> is_u64 (count_of l).
Proof.
  unfold coordinates_ok, count_of. intros E. assert (len l = add64 n 1) as -> by lia. unfold is_u64, add64. apply u64_range.
Qed.
Lemma read_coordinates_ok f o l : stored f o (words l) -> words_ok l -> read_coordinates big f o (count_of l) = l.
Proof.
  intros S U. unfold read_coordinates, count_of. rewrite Nat2Z.id. apply read_words; [assumption|assumption|]. rewrite words_length, repeat_length. reflexivity.
Qed.
Lemma geometry_reads m y y0 f o : geometry_set m y -> same_class y y0 -> stored f o (geometry_bytes y) -> geometry_read big m y0 f o = (true, y).
Proof.
  destruct y as [|c|s], y0 as [|c0|s0]; cbn [geometry_set geometry_bytes geometry_read same_class]; try tauto.
  - intros _ _ S. unfold no_geometry_read. rewrite (read_int f o 0 (0 + 1) S) by lia. reflexivity.
  - intros (A & B & Us & Ul & Es) _ S. rewrite !stored_app, int_length, words_length, A in S. replace (o + Z.of_nat 4) with (o + 4) in S by lia. replace (o + 4 + Z.of_nat (8 * 3)) with (o + 28) in S by lia. destruct S as (S1 & S2 & S3).
    unfold cartesian_read. rewrite (read_int f o 1 (1 + 1) S1) by lia. rewrite Z.eqb_refl. cbn [negb].
    rewrite <- A at 1. rewrite (read_words f (o + 4) (c_start c) _ S2 Us) by (rewrite words_length, A; reflexivity). rewrite <- B at 1. rewrite (read_words f (o + 28) (c_len c) _ S3 Ul) by (rewrite words_length, B; reflexivity).
    destruct c as [cs cl]. cbn [c_start c_len] in *. unfold cartesian_set in *. cbn [c_len] in *. destruct (existsb _ cl); [discriminate|reflexivity].
  - intros (Ux & Uy & Uz & Es) _ S. rewrite !stored_app, int_length, !words_length in S. cbn [length] in S. replace (o + Z.of_nat 4) with (o + 4) in S by lia. replace (o + 4 + Z.of_nat (8 * 3)) with (o + 28) in S by lia.
    replace (o + 28 + Z.of_nat (8 * length (s_x s))) with (o + 28 + 8 * len (s_x s)) in S by lia. replace (o + 28 + 8 * len (s_x s) + Z.of_nat (8 * length (s_y s))) with (o + 28 + 8 * len (s_x s) + 8 * len (s_y s)) in S by lia. destruct S as (S1 & S2 & S3 & S4 & S5).
    unfold stretched_read. rewrite (read_int f o 2 (2 + 1) S1) by lia. rewrite Z.eqb_refl. cbn [negb].
    assert (coordinates_ok (m_l0 m) (s_x s) = true /\ coordinates_ok (m_l1 m) (s_y s) = true /\ coordinates_ok (m_l2 m) (s_z s) = true) as (Kx & Ky & Kz).
    { unfold stretched_set in Es. destruct (coordinates_ok (m_l0 m) (s_x s)), (coordinates_ok (m_l1 m) (s_y s)), (coordinates_ok (m_l2 m) (s_z s)); cbn [andb] in Es; try discriminate. auto. }
    rewrite (read_words f (o + 4) [count_of (s_x s); count_of (s_y s); count_of (s_z s)] _ S2); [|intros x [<-|[<-|[<-|[]]]]; eapply coordinates_count; eassumption|rewrite words_length; reflexivity].
    cbn [lengths_of]. rewrite (read_coordinates_ok f _ _ S3 Ux). unfold count_of at 1. rewrite (read_coordinates_ok f _ _ S4 Uy). unfold count_of at 1. unfold count_of at 1. rewrite (read_coordinates_ok f _ _ S5 Uz).
    unfold stretched_set. cbn [s_x s_y s_z]. rewrite Kx, Ky, Kz. destruct s. reflexivity.
Qed.
End Format.

(** ** C10 *)

Lemma set_length_fst m l : fst (set_length m l) = fst (length_set (m_l0 m, m_l1 m, m_l2 m) l).
Proof. unfold set_length. generalize (length_set (m_l0 m, m_l1 m, m_l2 m) l). intros [[] [[x y] z]]; reflexivity. Qed.
(** the mapping of a grid whose length and maximum refinement level have been set *)
Lemma setters_settable m1 a b c m2 l m3 : is_u64 a -> is_u64 b -> is_u64 c ->
  set_length m1 (a, b, c) = (true, m2) -> set_maximum_refinement_level m2 l = (true, m3) -> - 2 ^ 31 <= l < 2 ^ 31 -> settable m3.
Proof.
  intros Ua Ub Uc E1 E2 Hl.
  pose proof (c09_setters_atomic m1) as (_ & _ & K1 & _). specialize (K1 (a, b, c)). rewrite E1 in K1. specialize (K1 eq_refl). cbn [snd] in K1. cbn zeta in K1. destruct K1 as (K1 & _). injection K1 as A1 B1 C1.
  pose proof (c09_setters_atomic m2) as (_ & _ & _ & K2). specialize (K2 l). rewrite E2 in K2. specialize (K2 eq_refl). cbn [snd] in K2. cbn zeta in K2. destruct K2 as (KL & KM & KP & KLast). injection KL as A2 B2 C2.
  assert (m_l0 m3 = a /\ m_l1 m3 = b /\ m_l2 m3 = c) as (A3 & B3 & C3) by (split; [|split]; congruence).
  assert (get_maximum_possible_refinement_level m3 = get_maximum_possible_refinement_level m2) as Ep by (unfold get_maximum_possible_refinement_level, grid64; rewrite A2, B2, C2; reflexivity).
  assert (fst (length_set (m_l0 m1, m_l1 m1, m_l2 m1) (a, b, c)) = true) as F.
  { apply (f_equal fst) in E1. rewrite set_length_fst in E1. exact E1. }
  unfold settable. rewrite A3, B3, C3. split; [assumption|]. split; [assumption|]. split; [assumption|]. split; [|split; [lia|split; [lia|assumption]]].
  intros old. unfold length_set in *. destruct ((a =? 0) || (b =? 0) || (c =? 0)); [discriminate|]. destruct (dbl_max64 <? _); [discriminate|reflexivity].
Qed.

Theorem c10_mapping_round_trip big m1 a b c m2 l m : is_u64 a -> is_u64 b -> is_u64 c ->
  set_length m1 (a, b, c) = (true, m2) -> set_maximum_refinement_level m2 l = (true, m) -> - 2 ^ 31 <= l < 2 ^ 31 ->
  forall m0 f f' o, let w := mapping_write big m f o in
  (forall p, o <= p < o + mapping_size -> f' p = w p) ->
  (m_l0 m, m_l1 m, m_l2 m) = (a, b, c) /\ m_max m = l /\
  mapping_read big m0 f' o = (true, m) /\ mapping_read_stream big m0 f' o = (true, m) /\
  (forall p, p < o \/ o + mapping_size <= p -> w p = f p) /\ (forall p, o <= p < o + mapping_size -> w p <> None).
Proof.
  intros Ua Ub Uc E1 E2 Hl m0 f f' o w A. pose proof (setters_settable m1 a b c m2 l m Ua Ub Uc E1 E2 Hl) as Hm.
  pose proof (mapping_stored big m f o) as S. fold w in S. pose proof (mapping_bytes_size big m) as L.
  destruct (mapping_reads big m m0 f' o Hm) as [R1 R2]. { apply (stored_agree w); [assumption|]. rewrite L. assumption. }
  pose proof (c09_setters_atomic m1) as (_ & _ & K1 & _). specialize (K1 (a, b, c)). rewrite E1 in K1. specialize (K1 eq_refl). cbn [snd] in K1. cbn zeta in K1. destruct K1 as (K1 & _).
  pose proof (c09_setters_atomic m2) as (_ & _ & _ & K2). specialize (K2 l). rewrite E2 in K2. specialize (K2 eq_refl). cbn [snd] in K2. cbn zeta in K2. destruct K2 as (KL & KM & _).
  split; [congruence|]. split; [assumption|]. split; [assumption|]. split; [assumption|]. split.
  - intros p Hp. unfold w, mapping_write. rewrite !write_other; [reflexivity| |]; rewrite ?words_length, ?int_length; cbn [length]; unfold mapping_size in Hp; lia.
  - intros p Hp. destruct (nth_error (mapping_bytes big m) (Z.to_nat (p - o))) as [x|] eqn:E; [|apply nth_error_None in E; lia]. apply S in E. replace (o + Z.of_nat (Z.to_nat (p - o))) with p in E by lia. congruence.
Qed.
Theorem c10_topology_round_trip t t0 f f' o : let w := topology_write t f o in
  (forall p, o <= p < o + topology_size -> f' p = w p) ->
  topology_read f' o = t /\ topology_read_stream t0 f' o = (true, t) /\
  (forall p, p < o \/ o + topology_size <= p -> w p = f p) /\ (forall p, o <= p < o + topology_size -> w p <> None).
Proof.
  intros w A. pose proof (stored_write f o (topology_bytes t)) as S. destruct (topology_reads t t0 f' o) as [R1 R2]. { apply (stored_agree w); assumption. }
  split; [assumption|]. split; [assumption|]. split.
  - intros p Hp. apply write_other. assumption.
  - intros p Hp. unfold topology_size in Hp. destruct (nth_error (topology_bytes t) (Z.to_nat (p - o))) as [x|] eqn:E; [|apply nth_error_None in E; cbn [topology_bytes length] in E; lia]. apply S in E. replace (o + Z.of_nat (Z.to_nat (p - o))) with p in E by lia. unfold w, topology_write. unfold topology_bytes in E. congruence.
Qed.
Theorem c10_geometry_round_trip big m y y0 f f' o : let w := geometry_write big y f o in
  geometry_set m y -> same_class y y0 -> (forall p, o <= p < o + geometry_size y -> f' p = w p) ->
  geometry_read big m y0 f' o = (true, y) /\
  (forall p, p < o \/ o + geometry_size y <= p -> w p = f p) /\ (forall p, o <= p < o + geometry_size y -> w p <> None).
Proof.
  intros w Hy Sc A. pose proof (geometry_stored big m y f o Hy) as S. fold w in S. pose proof (geometry_bytes_size big m y Hy) as L. split; [|split].
  - apply geometry_reads; [assumption|assumption|]. apply (stored_agree w); [assumption|]. rewrite L. assumption.
  - intros p Hp. rewrite <- L in Hp. unfold w. destruct y as [|c|s]; cbn [geometry_write geometry_bytes geometry_set] in *.
    + apply write_other. assumption.
    + destruct Hy as (H1 & H2 & _). unfold cartesian_write. rewrite !app_length, int_length, !words_length in Hp. rewrite !write_other; [reflexivity| | |]; rewrite ?int_length, ?words_length; lia.
    + unfold stretched_write. cbn zeta. rewrite !app_length, int_length, !words_length in Hp. cbn [length] in Hp. unfold count_of. rewrite !write_other; [reflexivity| | | | |]; rewrite ?int_length, ?words_length; cbn [length]; lia.
  - intros p Hp. destruct (nth_error (geometry_bytes big y) (Z.to_nat (p - o))) as [x|] eqn:E; [|apply nth_error_None in E; lia]. apply S in E. replace (o + Z.of_nat (Z.to_nat (p - o))) with p in E by lia. congruence.
Qed.
(** the bytes of one geometry are refused by the others, whose parameters stay as they were *)
Theorem c10_wrong_geometry_refused big m y y0 f f' o : let w := geometry_write big y f o in
  geometry_set m y -> ~ same_class y y0 -> (forall p, o <= p < o + geometry_size y -> f' p = w p) -> geometry_read big m y0 f' o = (false, y0).
Proof.
  intros w Hy Sc A. pose proof (geometry_stored big m y f o Hy) as S. fold w in S. pose proof (geometry_bytes_size big m y Hy) as L.
  assert (stored f' o (geometry_bytes big y)) as S' by (apply (stored_agree w); [assumption|]; rewrite L; assumption). clear S A w.
  destruct y as [|c|s], y0 as [|c0|s0]; cbn [same_class geometry_bytes geometry_read] in *; try tauto; rewrite ?stored_app in S'; (try (destruct S' as [S' _])).
  - unfold cartesian_read. rewrite (read_int big f' o 0 (1 + 1) S') by lia. reflexivity.
  - unfold stretched_read. rewrite (read_int big f' o 0 (2 + 1) S') by lia. reflexivity.
  - unfold no_geometry_read. rewrite (read_int big f' o 1 (0 + 1) S') by lia. reflexivity.
  - unfold stretched_read. rewrite (read_int big f' o 1 (2 + 1) S') by lia. reflexivity.
  - unfold no_geometry_read. rewrite (read_int big f' o 2 (0 + 1) S') by lia. reflexivity.
  - unfold cartesian_read. rewrite (read_int big f' o 2 (1 + 1) S') by lia. reflexivity.
Qed.
(** with std::ifstream files that end too early are refused *)
Theorem c10_short_streams_refused big m0 t0 c0 f o p : f p = None ->
  (o <= p < o + mapping_size -> fst (mapping_read_stream big m0 f o) = false) /\
  (o <= p < o + topology_size -> topology_read_stream t0 f o = (false, t0)) /\
  (o <= p < o + cartesian_size -> cartesian_read_stream big c0 f o = (false, c0)).
Proof.
  intros E. unfold mapping_size, topology_size, cartesian_size. split; [|split]; intros Hp.
  - unfold mapping_read_stream. destruct (Z.lt_ge_cases p (o + 24)) as [L|L]; [rewrite (stream_missing f 24 o p) by (lia || assumption); reflexivity|].
    destruct (stream_read f o 24); [|reflexivity]. destruct (set_length m0 _) as [[] m1]; [|reflexivity]. cbn [negb]. rewrite (stream_missing f 4 (o + 24) p) by (lia || assumption). reflexivity.
  - unfold topology_read_stream. rewrite (stream_missing f 3 o p) by (lia || assumption). reflexivity.
  - unfold cartesian_read_stream. destruct (Z.lt_ge_cases p (o + 4)) as [L|L]; [rewrite (stream_missing f 4 o p) by (lia || assumption); reflexivity|].
    destruct (stream_read f o 4) as [b|]; [|reflexivity]. destruct (negb _); [reflexivity|]. destruct (Z.lt_ge_cases p (o + 28)) as [L2|L2].
    + rewrite (stream_missing f 24 (o + 4) p) by (lia || assumption). reflexivity.
    + rewrite (stream_missing f 24 (o + 28) p) by (lia || assumption). destruct (stream_read f (o + 4) 24); reflexivity.
Qed.
(** with MPI_File they are accepted: missing coordinates are the default ones and a missing
    maximum refinement level is -1 *)
Theorem c10_truncated_refused_refuted : exists c c' m m' n n',
  geometry_set m (CartesianGeometry c) /\ settable m /\ n < cartesian_size /\ n' < mapping_size /\
  cartesian_read false default_cartesian (cut (cartesian_write false c empty_file 0) n) 0 = (true, c') /\ c' <> c /\
  mapping_read false default_mapping (cut (mapping_write false m empty_file 0) n') 0 = (true, m') /\ m_max m = 2 /\ m_max m' = -1.
Proof.
  set (two := 2 ^ 52 * 1024). set (m := snd (set_maximum_refinement_level (snd (set_length default_mapping (3, 2, 5))) 2)).
  exists (Cartesian [two; two; two] [two; two; two]), (Cartesian [two; two; two] [dbl_one; dbl_one; dbl_one]), m, (snd (set_maximum_refinement_level (snd (set_length default_mapping (3, 2, 5))) (-1))), 28, 24.
  assert (is_u64 two) as U by (unfold is_u64, two; rewrite W_val; lia).
  split; [|split; [|split; [reflexivity|split; [reflexivity|split; [vm_compute; reflexivity|split; [discriminate|split; [vm_compute; reflexivity|split; vm_compute; reflexivity]]]]]]].
  - cbn [geometry_set c_start c_len length]. split; [reflexivity|]. split; [reflexivity|]. split; [intros x [<-|[<-|[<-|[]]]]; assumption|]. split; [intros x [<-|[<-|[<-|[]]]]; assumption|]. vm_compute. reflexivity.
  - apply (setters_settable default_mapping 3 2 5 (snd (set_length default_mapping (3, 2, 5))) 2); try (unfold is_u64; rewrite W_val; lia); try lia; vm_compute; reflexivity.
Qed.
(** a stretched geometry that was not set after setting the length of the grid is not read back *)
Theorem c10_default_stretched_refuted : exists m m2, set_length default_mapping (2, 1, 1) = (true, m) /\ set_maximum_refinement_level m 0 = (true, m2) /\
  forall big f o, fst (geometry_read big m2 (StretchedGeometry default_stretched) (geometry_write big (StretchedGeometry default_stretched) f o) o) = false.
Proof.
  exists (snd (set_length default_mapping (2, 1, 1))), (snd (set_maximum_refinement_level (snd (set_length default_mapping (2, 1, 1))) 0)). split; [vm_compute; reflexivity|]. split; [vm_compute; reflexivity|].
  intros big f o. cbn [geometry_read geometry_write].
  assert (words_ok [dbl_zero; dbl_one]) as U by (intros x [<-|[<-|[]]]; unfold is_u64, dbl_zero, dbl_one; rewrite W_val; lia).
  assert (geometry_set default_mapping (StretchedGeometry default_stretched)) as Hy by (cbn [geometry_set default_stretched s_x s_y s_z]; split; [assumption|]; split; [assumption|]; split; [assumption|]; vm_compute; reflexivity).
  pose proof (geometry_stored big default_mapping _ f o Hy) as S. cbn [geometry_write] in S. pose proof (geometry_reads big default_mapping _ (StretchedGeometry default_stretched) _ o Hy I S) as R. cbn [geometry_read] in R.
  unfold stretched_read in *. destruct (negb _); [cbn in R; discriminate|]. destruct (lengths_of _) as [[a b] c]. unfold stretched_set in *. cbn [s_x s_y s_z] in *.
  set (rx := read_coordinates big _ (o + 28) a) in *. set (ry := read_coordinates big _ (o + 28 + 8 * a) b) in *. set (rz := read_coordinates big _ _ c) in *.
  destruct (coordinates_ok (m_l0 default_mapping) rx) eqn:Ex; cbn [andb] in R; [|discriminate].
  assert (length rx = 2%nat) as L. { unfold coordinates_ok in Ex. change (add64 (m_l0 default_mapping) 1) with 2 in Ex. lia. }
  match goal with |- context [coordinates_ok ?n rx] => replace (coordinates_ok n rx) with false end; [reflexivity|]. symmetry. unfold coordinates_ok. rewrite L. vm_compute (Z.of_nat 2 =? _). rewrite andb_false_r. reflexivity.
Qed.
(** a mapping whose length was set after its maximum refinement level is not always read back *)
Theorem c10_length_after_level_refuted : exists m2 m, set_maximum_refinement_level default_mapping 21 = (true, m2) /\ set_length m2 (1000, 1000, 1000) = (true, m) /\
  fst (mapping_read false default_mapping (mapping_write false m empty_file 0) 0) = false.
Proof.
  exists (snd (set_maximum_refinement_level default_mapping 21)), (snd (set_length (snd (set_maximum_refinement_level default_mapping 21)) (1000, 1000, 1000))).
  split; [vm_compute; reflexivity|]. split; vm_compute; reflexivity.
Qed.
(** a file of the other byte order has another number at the endianness check, dccrg.hpp:1251, 1957 *)
Definition endianness_check : Z := 1311768467294899695.
Theorem c55_other_byte_order_detected big f o : stored f o (words big [endianness_check]) ->
  take_words (negb big) 1 (read_at f o (words (negb big) [0])) <> [endianness_check].
Proof.
  intros S. rewrite (read_stored f _ o (words (negb big) [0]) S) by (rewrite !words_length; reflexivity). destruct big; vm_compute; discriminate.
Qed.

(** examples: a 3 x 2 x 5 grid with 2 refinement levels at offset 7 of a file with other contents *)
Example c10_mapping_example : let m := snd (set_maximum_refinement_level (snd (set_length default_mapping (3, 2, 5))) 2) in
  let f := fun p => Some (p mod 251) in
  set_length default_mapping (3, 2, 5) = (true, snd (set_length default_mapping (3, 2, 5))) /\ mapping_read true default_mapping (mapping_write true m f 7) 7 = (true, m) /\
  read_at (mapping_write true m f 7) 6 (repeat 0 30) = [6; 0; 0; 0; 0; 0; 0; 0; 3; 0; 0; 0; 0; 0; 0; 0; 2; 0; 0; 0; 0; 0; 0; 0; 5; 0; 0; 0; 2; 35].
Proof. vm_compute. repeat split. Qed.
Example c10_geometry_example : let m := snd (set_length default_mapping (2, 1, 1)) in
  let half := 2 ^ 52 * 1022 in let s := Stretched [dbl_zero; half; dbl_one] [dbl_zero; half] [half; dbl_one] in
  geometry_set m (StretchedGeometry s) /\
  geometry_read false m (StretchedGeometry default_stretched) (geometry_write false (StretchedGeometry s) empty_file 100) 100 = (true, StretchedGeometry s).
Proof.
  cbn zeta. split; [|vm_compute; reflexivity]. cbn [geometry_set s_x s_y s_z]. assert (is_u64 (2 ^ 52 * 1022) /\ is_u64 dbl_zero /\ is_u64 dbl_one) as (A & B & C) by (unfold is_u64, dbl_zero, dbl_one; rewrite W_val; lia).
  split; [intros x [<-|[<-|[<-|[]]]]; assumption|]. split; [intros x [<-|[<-|[]]]; assumption|]. split; [intros x [<-|[<-|[]]]; assumption|]. vm_compute. reflexivity.
Qed.
Print Assumptions c10_mapping_round_trip.
Print Assumptions c10_topology_round_trip.
Print Assumptions c10_geometry_round_trip.
Print Assumptions c10_wrong_geometry_refused.
Print Assumptions c10_short_streams_refused.
Print Assumptions c10_truncated_refused_refuted.
Print Assumptions c10_default_stretched_refuted.
Print Assumptions c10_length_after_level_refuted.
Print Assumptions c55_other_byte_order_detected.
