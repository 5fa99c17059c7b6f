(** The layout of saved files, C39. *)
From Verif Require Import U64 MapModel HoodModel MeshModel DblModel Sets RefineModel BalanceModel FileModel FileProps SaveModel RefineInv RefineStop.
From Coq Require Import Permutation.
Open Scope Z_scope.
Notation len b := (Z.of_nat (length b)).

(** ** Writes at increasing offsets *)
(** all writes are in [o, e), each after the end of the previous one *)
Fixpoint ordered (o : Z) (ws : list (Z * list Z)) (e : Z) : Prop :=
  match ws with [] => o <= e | w :: r => o <= fst w /\ ordered (fst w + len (snd w)) r e end.
Definition apart (w v : Z * list Z) : Prop := fst w + len (snd w) <= fst v \/ fst v + len (snd v) <= fst w.

Lemma ordered_weak o o' ws e e' : ordered o ws e -> o' <= o -> e <= e' -> ordered o' ws e'.
Proof. revert o o'. induction ws as [|w ws IH]; cbn [ordered]; intros o o' H A B; [lia|]. split; [lia|]. apply (IH (fst w + len (snd w))); [tauto|lia|lia]. Qed.
Lemma ordered_app o a e b e' : ordered o a e -> ordered e b e' -> ordered o (a ++ b) e'.
Proof. revert o. induction a as [|w a IH]; cbn [ordered app]; intros o A B; [apply (ordered_weak e _ b e' e'); [assumption|lia|lia]|]. split; [tauto|]. apply IH; tauto. Qed.
Lemma ordered_one o w e : o <= fst w -> fst w + len (snd w) <= e -> ordered o [w] e.
Proof. cbn. lia. Qed.
Lemma ordered_in o ws e w : ordered o ws e -> In w ws -> o <= fst w /\ fst w + len (snd w) <= e.
Proof.
  revert o. induction ws as [|v ws IH]; cbn [ordered In]; intros o H; [tauto|]. intros [<-|I].
  - split; [tauto|]. destruct H as [_ H]. clear IH. revert H. generalize (fst v + len (snd v)). induction ws as [|x ws IH]; cbn [ordered]; intros k H; [lia|]. specialize (IH (fst x + len (snd x)) (proj2 H)). lia.
  - destruct (IH _ (proj2 H) I). lia.
Qed.
Lemma ordered_apart o ws e : ordered o ws e -> ForallOrdPairs apart ws.
Proof.
  revert o. induction ws as [|w ws IH]; cbn [ordered]; intros o H; constructor.
  - apply Forall_forall. intros v I. left. destruct (ordered_in _ _ _ v (proj2 H) I). lia.
  - apply (IH _ (proj2 H)).
Qed.
Lemma apart_perm ws vs : Permutation ws vs -> ForallOrdPairs apart ws -> ForallOrdPairs apart vs.
Proof.
  assert (forall a b, apart a b -> apart b a) as Sy by (unfold apart; intros; lia).
  induction 1 as [|w ws vs P IH|a b ws|ws vs us P IH Q IH']; intros H; auto.
  - inversion H as [|? ? A B]. subst. constructor; [|auto]. apply Forall_forall. intros x Hx. rewrite Forall_forall in A. apply A. apply (Permutation_in _ (Permutation_sym P) Hx).
  - inversion H as [|? ? A B]. subst. inversion B as [|? ? A' B']. subst. inversion A as [|? ? A1 A2]. subst. constructor; [constructor; [apply Sy; assumption|assumption]|]. constructor; assumption.
Qed.
Lemma apply_other ws : forall f p, (forall w, In w ws -> p < fst w \/ fst w + len (snd w) <= p) -> apply_writes ws f p = f p.
Proof.
  induction ws as [|w ws IH]; intros f p H; [reflexivity|]. cbn [apply_writes fold_left]. change (apply_writes ws (write_at f (fst w) (snd w)) p = f p). rewrite IH by (intros; apply H; right; assumption). apply write_other. apply H. left. reflexivity.
Qed.
Lemma apply_keeps ws : forall f o b, stored f o b -> (forall w, In w ws -> apart w (o, b)) -> stored (apply_writes ws f) o b.
Proof.
  intros f o b S H. apply (stored_agree f); [assumption|]. intros p Hp. apply apply_other. intros w Hw. destruct (H w Hw) as [A|A]; cbn [fst snd] in A; lia.
Qed.
Lemma apply_stored ws : forall f w, ForallOrdPairs apart ws -> In w ws -> stored (apply_writes ws f) (fst w) (snd w).
Proof.
  induction ws as [|v ws IH]; intros f w H I; [destruct I|]. inversion H as [|? ? A B]. subst. cbn [apply_writes fold_left]. change (stored (apply_writes ws (write_at f (fst v) (snd v))) (fst w) (snd w)). destruct I as [<-|I]; [|apply IH; assumption].
  apply apply_keeps; [apply stored_write|]. intros x Hx. rewrite Forall_forall in A. destruct v as [a b]. specialize (A x Hx). unfold apart in *. cbn [fst snd] in *. lia.
Qed.
(** writes that do not overlap can be made in any order *)
Lemma apply_same ws vs f p : Permutation ws vs -> ForallOrdPairs apart ws -> apply_writes ws f p = apply_writes vs f p.
Proof.
  intros P A. assert ((exists w, In w ws /\ fst w <= p < fst w + len (snd w)) \/ forall w, In w ws -> p < fst w \/ fst w + len (snd w) <= p) as [(w & I & H)|H].
  { clear. induction ws as [|w ws IH]; [right; intros w []|]. destruct (Z_lt_le_dec p (fst w)); [|destruct (Z_lt_le_dec p (fst w + len (snd w))); [left; exists w; split; [left; reflexivity|lia]|]];
    (destruct IH as [(v & I & H)|IH]; [left; exists v; split; [right; assumption|assumption]|right; intros v [<-|I]; [lia|apply IH; assumption]]). }
  - pose proof (apply_stored ws f w A I) as S. pose proof (apply_stored vs f w (apart_perm _ _ P A) (Permutation_in _ P I)) as S'.
    destruct (nth_error (snd w) (Z.to_nat (p - fst w))) as [x|] eqn:E; [|apply nth_error_None in E; lia].
    specialize (S _ _ E). specialize (S' _ _ E). rewrite Z2Nat.id in S, S' by lia. replace (fst w + (p - fst w)) with p in S, S' by lia. congruence.
  - rewrite (apply_other ws) by assumption. symmetry. apply apply_other. intros w I. apply H. apply (Permutation_in _ (Permutation_sym P) I).
Qed.

(** ** Sums over ranks *)
Lemma below_succ r : 0 <= r -> below (r + 1) = below r ++ [r].
Proof. intros. unfold below. replace (Z.to_nat (r + 1)) with (S (Z.to_nat r)) by lia. rewrite seq_S, map_app. cbn [map Nat.add]. rewrite Z2Nat.id by lia. reflexivity. Qed.
Lemma below_0 : below 0 = []. Proof. reflexivity. Qed.
Lemma below_in n r : In r (below n) <-> 0 <= r < n.
Proof. unfold below. rewrite in_map_iff. split; [intros (k & <- & I); apply in_seq in I; lia|]. intros H. exists (Z.to_nat r). split; [lia|]. apply in_seq. lia. Qed.
Lemma ranks_below g : ranks g = below (g_np g). Proof. reflexivity. Qed.
Lemma up_ind (P : Z -> Prop) : P 0 -> (forall r, 0 <= r -> P r -> P (r + 1)) -> forall n, 0 <= n -> P n.
Proof. intros A B n H. apply natlike_ind; [assumption| |assumption]. intros x Hx Px. apply B; assumption. Qed.

Definition psum (h : Z -> Z) (r : Z) : Z := fold_right (fun q a => h q + a) 0 (below r).
Lemma psum_0 h : psum h 0 = 0. Proof. reflexivity. Qed.
Lemma psum_succ h r : 0 <= r -> psum h (r + 1) = psum h r + h r.
Proof.
  intros H. unfold psum. rewrite below_succ by assumption. generalize (below r). induction l as [|x l IH]; cbn [app fold_right]; [lia|]. rewrite IH. lia.
Qed.
Lemma psum_mono h a b : (forall q, 0 <= q -> 0 <= h q) -> 0 <= a <= b -> psum h a <= psum h b.
Proof.
  intros P [A B]. replace b with (a + (b - a)) by lia. revert A. assert (0 <= b - a) as K by lia. revert K. generalize (b - a). intros k K A. revert k K. apply (up_ind (fun k => psum h a <= psum h (a + k))); [rewrite Z.add_0_r; lia|]. intros r R IH. replace (a + (r + 1)) with (a + r + 1) by lia. rewrite psum_succ by lia. specialize (P (a + r) ltac:(lia)). lia.
Qed.
Lemma psum_pos h r : (forall q, 0 <= q -> 0 <= h q) -> 0 <= r -> 0 <= psum h r.
Proof. intros P R. pose proof (psum_mono h 0 r P ltac:(lia)). rewrite psum_0 in H. lia. Qed.
Lemma fold_psum h h' r a : (forall q, 0 <= q < r -> h' q = h q) -> (forall q, 0 <= q -> 0 <= h q) -> 0 <= a -> 0 <= r -> a + psum h r < W ->
  fold_left (fun s q => add64 s (h' q)) (below r) a = a + psum h r.
Proof.
  intros E P A R. revert r R E. apply (up_ind (fun r => (forall q, 0 <= q < r -> h' q = h q) -> a + psum h r < W -> fold_left (fun s q => add64 s (h' q)) (below r) a = a + psum h r)).
  - intros _ _. cbn. unfold psum. cbn. lia.
  - intros r R IH E L. rewrite below_succ by assumption. rewrite fold_left_app. cbn [fold_left]. rewrite psum_succ in * by assumption. pose proof (P r R). pose proof (psum_pos h r P R). rewrite IH by (try (intros; apply E); lia). rewrite E by lia. unfold add64. rewrite u64_small by lia. lia.
Qed.
Lemma chain_ordered S (w : Z -> list (Z * list Z)) n : 0 <= n -> (forall r, 0 <= r < n -> ordered (S r) (w r) (S (r + 1))) -> ordered (S 0) (flat_map w (below n)) (S n).
Proof.
  intros N. revert n N. apply (up_ind (fun n => (forall r, 0 <= r < n -> ordered (S r) (w r) (S (r + 1))) -> ordered (S 0) (flat_map w (below n)) (S n))).
  - intros _. cbn. lia.
  - intros r R IH H. rewrite below_succ, flat_map_app by assumption. apply (ordered_app _ _ (S r)); [apply IH; intros; apply H; lia|]. cbn [flat_map]. rewrite app_nil_r. apply H. lia.
Qed.
Lemma chain_stored f S (b : Z -> list Z) n : 0 <= n -> (forall r, 0 <= r < n -> stored f (S r) (b r) /\ S (r + 1) = S r + len (b r)) ->
  stored f (S 0) (flat_map b (below n)) /\ S n = S 0 + len (flat_map b (below n)).
Proof.
  intros N. revert n N. apply (up_ind (fun n => (forall r, 0 <= r < n -> stored f (S r) (b r) /\ S (r + 1) = S r + len (b r)) -> stored f (S 0) (flat_map b (below n)) /\ S n = S 0 + len (flat_map b (below n)))).
  - intros _. split; [intros i x E; destruct i; discriminate|cbn; lia].
  - intros r R IH H. destruct IH as [A B]; [intros; apply H; lia|]. destruct (H r ltac:(lia)) as [C E]. rewrite below_succ, flat_map_app by assumption. cbn [flat_map]. rewrite app_nil_r, app_length, stored_app. rewrite <- B. split; [auto|lia].
Qed.

(** ** The writes of a saved grid *)
(** bytes between the start of a cell's data and the next cell's *)
Definition adv (h : shape) : Z := if h_named h then h_count h * h_size h else h_size h.
Fixpoint starts (s : Z) (l : list shape) : list Z := match l with [] => [] | h :: r => s :: starts (s + adv h) r end.
Definition tot (l : list shape) : Z := fold_right (fun h a => adv h + a) 0 l.
Definition shape_ok (h : shape) : Prop := 0 <= h_count h < 2 ^ 31 /\ 0 <= h_size h < 2 ^ 31.

Lemma adv_pos h : shape_ok h -> 0 <= adv h < W.
Proof. rewrite W_val. intros [A B]. unfold adv. destruct (h_named h); nia. Qed.
Lemma advance_eq h : shape_ok h -> advance h = adv h.
Proof. intros H. pose proof (adv_pos h H). unfold advance, adv, mul64 in *. destruct (h_named h); apply u64_small; lia. Qed.
Lemma tot_pos l : (forall h, In h l -> shape_ok h) -> 0 <= tot l.
Proof. induction l as [|h l IH]; cbn [tot fold_right]; intros H; [lia|]. fold (tot l). pose proof (adv_pos h (H h (or_introl eq_refl))). specialize (IH (fun x Hx => H x (or_intror Hx))). lia. Qed.
Lemma byte_total_eq l : (forall h, In h l -> shape_ok h) -> tot l < W -> byte_total l = tot l.
Proof.
  intros H L. unfold byte_total. assert (forall a, 0 <= a -> a + tot l < W -> fold_left (fun a h => add64 a (advance h)) l a = a + tot l) as K; [|rewrite K; lia].
  clear L. induction l as [|h l IH]; intros a A L; cbn [fold_left tot fold_right] in *; [lia|]. fold (tot l) in *. pose proof (adv_pos h (H h (or_introl eq_refl))). pose proof (tot_pos l (fun x Hx => H x (or_intror Hx))).
  rewrite advance_eq by (apply H; left; reflexivity). unfold add64 at 2. rewrite u64_small by lia. rewrite IH; [lia|intros; apply H; right; assumption|lia|lia].
Qed.
Lemma displacements_eq l : forall s d, (forall h, In h l -> shape_ok h) -> 0 <= s -> 0 <= d -> s + d + tot l < W -> map (fun x => add64 x d) (displacements s l) = starts (s + d) l.
Proof.
  induction l as [|h l IH]; intros s d H S0 D0 L; cbn [displacements map starts tot fold_right] in *; [reflexivity|]. fold (tot l) in *. pose proof (adv_pos h (H h (or_introl eq_refl))). pose proof (tot_pos l (fun x Hx => H x (or_intror Hx))).
  f_equal; [unfold add64; apply u64_small; lia|]. rewrite advance_eq by (apply H; left; reflexivity). unfold add64 at 2. rewrite u64_small by lia. rewrite IH; [f_equal; lia|intros; apply H; right; assumption|lia|lia|lia].
Qed.
Lemma starts_length l : forall s, length (starts s l) = length l.
Proof. induction l as [|h l IH]; intros s; cbn [starts length]; [reflexivity|]. rewrite IH. reflexivity. Qed.

Section Layout.
Context (big : bool) {D : Type} (u : user D) (g : grid) (y : geometry) (sel : Z -> list (Z * D)) (fl : flags).
Context (Hnp : 0 <= g_np g).
Notation np := (g_np g).
Notation words := (words big).

(** the user's datatypes: sizes fit, and several items only of named datatypes *)
Definition item_ok (e : Z * D) (r : Z) : Prop :=
  let h := u_shape u (fst e) r (-1) false (snd e) in
  shape_ok h /\ len (u_get u (fst e) r (-1) false (snd e)) = h_count h * h_size h /\ (h_named h = true \/ h_count h <= 1).
Context (Hi : forall r e, 0 <= r -> In e (sel r) -> item_ok e r).
(** the number of 8 byte numbers per cell in the cell list *)
Definition per_cell : Z := (if w_ids fl then 1 else 0) + (if w_offsets fl then 1 else 0).
Definition ntotal : Z := psum (number sel) np.
Definition nbytes : Z := psum (fun r => tot (shapes u sel r)) np.
(** the end of the file if the cell list starts at o *)
Definition data_begin (o : Z) : Z := o + 8 * per_cell * ntotal.
Definition file_end (o : Z) : Z := data_begin o + nbytes.

Lemma number_pos r : 0 <= number sel r. Proof. unfold number. lia. Qed.
Lemma ntotal_pos : 0 <= ntotal. Proof. apply psum_pos; [intros; apply number_pos|assumption]. Qed.
Lemma shapes_ok r : 0 <= r -> forall h, In h (shapes u sel r) -> shape_ok h.
Proof. intros R h H. unfold shapes in H. apply in_map_iff in H. destruct H as (e & <- & I). apply (Hi r e R I). Qed.
Lemma bytes_pos r : 0 <= r -> 0 <= tot (shapes u sel r). Proof. intros R. apply tot_pos, shapes_ok, R. Qed.
Lemma nbytes_pos : 0 <= nbytes. Proof. apply psum_pos; [apply bytes_pos|assumption]. Qed.
Lemma per_cell_range : 0 <= per_cell <= 2. Proof. unfold per_cell. destruct (w_ids fl), (w_offsets fl); lia. Qed.

(** a process's list of cells must have less than 2^31 numbers *)
Definition counts_fit : Prop := ntotal < 2 ^ 58 /\ forall r, 0 <= r < np -> number sel r < 2 ^ 30.
Section At.
Context (o : Z) (Ho : 0 <= o) (He : file_end o < 2 ^ 63) (Hn : counts_fit).

Lemma total_eq : total_number g sel = ntotal.
Proof.
  unfold total_number, ntotal. rewrite ranks_below. rewrite <- (Z.add_0_l (psum (number sel) np)). rewrite <- (fold_psum (number sel) (number sel) np 0); [|reflexivity|intros; apply number_pos|lia|assumption|rewrite W_val; destruct Hn as [Hn1 _]; unfold ntotal in Hn1; lia].
  generalize 0 as a. induction (below np) as [|x l IH]; intros a; cbn [map fold_left]; [reflexivity|]. apply IH.
Qed.
Definition Sl (r : Z) : Z := o + 8 * per_cell * psum (number sel) r.
Definition Sd (r : Z) : Z := data_begin o + psum (fun q => tot (shapes u sel q)) r.
Lemma Sl_np : Sl np = data_begin o. Proof. reflexivity. Qed.
Lemma Sd_0 : Sd 0 = data_begin o. Proof. unfold Sd. rewrite psum_0. lia. Qed.
Lemma psum_le r : 0 <= r <= np -> 0 <= psum (number sel) r <= ntotal.
Proof. intros R. split; [apply psum_pos; [intros; apply number_pos|lia]|]. apply psum_mono; [intros; apply number_pos|lia]. Qed.
Lemma bsum_le r : 0 <= r <= np -> 0 <= psum (fun q => tot (shapes u sel q)) r <= nbytes.
Proof. intros R. split; [apply psum_pos; [apply bytes_pos|lia]|]. apply psum_mono; [apply bytes_pos|lia]. Qed.

Lemma data_start_eq r : 0 <= r <= np -> data_start u g sel fl o r = Sd r.
Proof.
  intros R. unfold data_start. rewrite total_eq. pose proof ntotal_pos. pose proof (proj1 Hn). pose proof nbytes_pos. pose proof (bsum_le r R). unfold file_end, data_begin in He. pose proof per_cell_range as Hp.
  cbv zeta. match goal with |- fold_left _ _ ?c = _ => replace c with (data_begin o) end.
  2:{ symmetry. unfold add64, sub64, mul64, data_begin. assert (0 <= 8 * per_cell * ntotal) by nia. rewrite !(u64_small o), !(u64_small (2 * _)), !(u64_small (2 * ntotal * 8)), !(u64_small (ntotal * 8)) by (rewrite W_val; lia). rewrite !(u64_small (o + 2 * ntotal * 8)) by (rewrite W_val; lia).
    unfold per_cell in *. destruct (w_ids fl), (w_offsets fl); rewrite ?(u64_small (o + 2 * ntotal * 8 - ntotal * 8)) by (rewrite W_val; lia); rewrite ?u64_small by (rewrite W_val; lia); lia. }
  unfold Sd. assert (0 <= data_begin o) by (unfold data_begin; nia). apply fold_psum; [|intros; apply bytes_pos; assumption|lia|lia|rewrite W_val; unfold data_begin; lia].
  intros q Q. apply byte_total_eq; [apply shapes_ok; lia|]. pose proof (bsum_le (q + 1) ltac:(lia)) as B. rewrite psum_succ in B by lia. pose proof (bsum_le q ltac:(lia)). rewrite W_val. lia.
Qed.
Lemma disp_eq r : 0 <= r < np -> file_displacements u g sel fl o r = starts (Sd r) (shapes u sel r).
Proof.
  intros R. unfold file_displacements. rewrite data_start_eq by lia. pose proof (bsum_le (r + 1) ltac:(lia)) as B. rewrite psum_succ in B by lia. pose proof (bsum_le r ltac:(lia)). pose proof ntotal_pos. pose proof per_cell_range. unfold file_end, data_begin in He. unfold Sd, data_begin.
  rewrite displacements_eq; [f_equal; lia|apply shapes_ok; lia|lia|nia|rewrite W_val; lia].
Qed.
Lemma list_start_eq r : 0 <= r <= np -> list_start sel fl o r = Sl r.
Proof.
  intros R. unfold list_start, Sl. pose proof ntotal_pos. pose proof (proj1 Hn). pose proof nbytes_pos. pose proof (psum_le r R). pose proof per_cell_range. unfold file_end, data_begin in He. assert (0 <= 8 * per_cell * ntotal) by nia. rewrite u64_small by (rewrite W_val; lia).
  assert (forall q, 0 <= q -> psum (fun q => 8 * per_cell * number sel q) q = 8 * per_cell * psum (number sel) q) as Hs.
  { apply (up_ind (fun q => psum (fun q => 8 * per_cell * number sel q) q = 8 * per_cell * psum (number sel) q)); [rewrite !psum_0; lia|]. intros q Q IH. rewrite !psum_succ by assumption. rewrite IH. lia. }
  rewrite <- (Hs r) by lia. assert (8 * per_cell * psum (number sel) r <= 8 * per_cell * ntotal) by nia. rewrite <- (Hs r) in H5 by lia.
  apply fold_psum; [|intros q Q; pose proof (number_pos q); nia|lia|lia|rewrite W_val; lia].
  intros q Q. pose proof (psum_le (q + 1) ltac:(lia)) as B. rewrite psum_succ in B by lia. pose proof (psum_le q ltac:(lia)). pose proof (number_pos q). unfold per_cell, mul64.
  destruct (w_ids fl), (w_offsets fl); cbn [andb orb]; rewrite ?(u64_small (number sel q * 2)) by (rewrite W_val; lia); rewrite ?u64_small by (rewrite W_val; lia); lia.
Qed.
Lemma number_le r : 0 <= r < np -> 0 <= number sel r <= ntotal.
Proof. intros R. pose proof (psum_le (r + 1) ltac:(lia)) as B. rewrite psum_succ in B by lia. pose proof (psum_le r ltac:(lia)). pose proof (number_pos r). lia. Qed.
Lemma disp_length r : 0 <= r < np -> length (file_displacements u g sel fl o r) = length (sel r).
Proof. intros R. rewrite disp_eq, starts_length by assumption. unfold shapes. apply map_length. Qed.
Lemma list_words_length r : 0 <= r < np -> len (list_words u g sel fl o r) = per_cell * number sel r.
Proof.
  intros R. pose proof (disp_length r R) as E. unfold list_words, per_cell, number.
  destruct (w_ids fl), (w_offsets fl); cbn [andb]; rewrite ?map_length, ?E; cbn [length]; try lia.
  assert (forall (a b : list Z), length a = length b -> len (flat_map (fun e => [fst e; snd e]) (combine a b)) = 2 * len a) as K.
  { clear. induction a as [|x a IH]; intros [|z b] L; cbn [length combine flat_map app] in *; try lia. specialize (IH b ltac:(lia)). lia. }
  rewrite K by (rewrite map_length, E; reflexivity). rewrite map_length. lia.
Qed.
Lemma to_int_small v : 0 <= v < 2 ^ 31 -> to_int v = v.
Proof. intros H. unfold to_int. rewrite Z.mod_small by lia. cbn zeta. replace (v <? 2 ^ 31) with true by lia. reflexivity. Qed.
Lemma list_write_eq r : 0 <= r < np -> list_write big u g sel fl o r = [(Sl r, words (list_words u g sel fl o r))].
Proof.
  intros R. unfold list_write. rewrite list_start_eq by lia. pose proof (list_words_length r R). pose proof (number_pos r). pose proof (proj2 Hn r R). pose proof per_cell_range. rewrite to_int_small by nia. rewrite Nat2Z.id, firstn_all. reflexivity.
Qed.
Lemma counts_fine : counts_ok u g sel fl o = true.
Proof.
  unfold counts_ok. apply forallb_forall. intros r Hr. rewrite ranks_below in Hr. apply below_in in Hr. pose proof (list_words_length r Hr). pose proof (number_pos r). pose proof (proj2 Hn r Hr). pose proof per_cell_range. rewrite to_int_small by nia. lia.
Qed.
Lemma Sl_succ r : 0 <= r < np -> Sl (r + 1) = Sl r + len (words (list_words u g sel fl o r)).
Proof. intros R. unfold Sl. rewrite psum_succ by lia. rewrite words_length. pose proof (list_words_length r R). lia. Qed.
Lemma Sd_succ r : 0 <= r -> Sd (r + 1) = Sd r + tot (shapes u sel r).
Proof. intros R. unfold Sd. rewrite psum_succ by lia. lia. Qed.

(** the data writes of one process are in order *)
Lemma data_ordered r : 0 <= r < np -> ordered (Sd r) (data_writes u g sel fl o r) (Sd (r + 1)).
Proof.
  intros R. unfold data_writes. rewrite disp_eq by assumption. rewrite Sd_succ by lia. unfold shapes. assert (forall e, In e (sel r) -> item_ok e r) as K by (intros; apply Hi; [lia|assumption]). generalize (Sd r). clear - K.
  induction (sel r) as [|e l IH]; intros s; cbn [map starts combine ordered tot fold_right]; [lia|]. destruct (K e (or_introl eq_refl)) as (A & B & C). cbn zeta in *. set (h := u_shape u (fst e) r (-1) false (snd e)) in *.
  split; [cbn [fst]; lia|]. cbn [fst snd]. fold (tot (map (fun e => u_shape u (fst e) r (-1) false (snd e)) l)). eapply ordered_weak; [apply (IH (fun x Hx => K x (or_intror Hx)) (s + adv h))| |lia].
  rewrite B. destruct A as [A1 A2]. unfold adv. destruct (h_named h); [lia|]. destruct C as [C|C]; [discriminate|]. nia.
Qed.
Lemma lists_ordered : ordered o (flat_map (list_write big u g sel fl o) (ranks g)) (data_begin o).
Proof.
  rewrite ranks_below. replace o with (Sl 0) at 1 by (unfold Sl; rewrite psum_0; lia). rewrite <- Sl_np. apply chain_ordered; [assumption|]. intros r R. rewrite list_write_eq by assumption. rewrite Sl_succ by assumption. apply ordered_one; cbn [fst snd]; lia.
Qed.
Lemma datas_ordered : ordered (data_begin o) (flat_map (data_writes u g sel fl o) (ranks g)) (file_end o).
Proof.
  rewrite ranks_below. rewrite <- Sd_0. change (file_end o) with (Sd np). apply chain_ordered; [assumption|]. intros r R. apply data_ordered. assumption.
Qed.
End At.

(** *** Metadata *)
Lemma geometry_ordered m o : geometry_set m y -> ordered o (geometry_writes big y o) (o + geometry_size y).
Proof.
  destruct y as [|c|s]; cbn [geometry_set geometry_writes geometry_size]; intros H; cbn [ordered fst snd]; rewrite ?int_length, ?words_length; unfold no_geometry_size, cartesian_size, stretched_size, count_of.
  - lia.
  - destruct H as (A & B & _). rewrite A, B. lia.
  - cbn [length]. lia.
Qed.
Lemma info_ordered m o : geometry_set m y -> ordered o (info_writes big g y o) (o + info_size y).
Proof.
  intros H. unfold info_writes, info_size.
  apply (ordered_app _ _ (o + 8)); [apply ordered_one; cbn [fst snd]; rewrite ?words_length; cbn [length]; lia|].
  apply (ordered_app _ _ (o + 8 + mapping_size)); [unfold mapping_writes; cbn [ordered fst snd]; rewrite words_length, int_length; cbn [length]; unfold mapping_size; lia|].
  apply (ordered_app _ _ (o + 8 + mapping_size + 4)); [apply ordered_one; cbn [fst snd]; rewrite ?bytes_length; lia|].
  apply (ordered_app _ _ (o + 8 + mapping_size + 4 + topology_size)); [unfold topology_writes; apply ordered_one; cbn [fst snd length]; unfold topology_size; lia|].
  eapply ordered_weak; [apply (geometry_ordered m); assumption|lia|lia].
Qed.
Lemma geometry_size_pos : 0 <= geometry_size y.
Proof. destruct y; cbn; unfold no_geometry_size, cartesian_size, stretched_size, count_of; lia. Qed.

Definition list_begin (header : list Z) (o : Z) : Z := o + len header + (if w_info fl then info_size y + 8 else 0).
Lemma list_offset_eq header o : len header < 2 ^ 31 -> list_offset y fl header o = list_begin header o.
Proof. intros H. unfold list_offset, list_begin, info_start. rewrite to_int_small by lia. destruct (w_info fl); lia. Qed.
Lemma all_ordered m header o : geometry_set m y -> 0 <= o -> len header < 2 ^ 31 -> file_end (list_begin header o) < 2 ^ 63 -> counts_fit ->
  ordered o (all_writes big u g y sel fl header o) (file_end (list_begin header o)).
Proof.
  intros Hy O Hh He Hn. unfold all_writes. rewrite list_offset_eq by assumption. unfold info_start. rewrite to_int_small by lia. pose proof geometry_size_pos. unfold info_size in *. unfold mapping_size, topology_size in *.
  assert (0 <= list_begin header o) as Lb by (unfold list_begin, info_size, mapping_size, topology_size; destruct (w_info fl); lia).
  apply (ordered_app _ _ (o + len header)); [apply ordered_one; cbn [fst snd]; lia|].
  apply (ordered_app _ _ (list_begin header o)).
  - unfold list_begin, info_size, mapping_size, topology_size. destruct (w_info fl); [|cbn; lia].
    apply (ordered_app _ _ (o + len header + info_size y)); [apply (info_ordered m); assumption|]. unfold info_size, mapping_size, topology_size. apply ordered_one; cbn [fst snd]; rewrite ?words_length; cbn [length]; lia.
  - apply (ordered_app _ _ (data_begin (list_begin header o))); [apply lists_ordered; assumption|apply datas_ordered; assumption].
Qed.
End Layout.

(** ** C39 *)
(** what is written for a cell into the cell list *)
Definition listed (fl : flags) (c off : Z) : list Z :=
  (if w_ids fl then [c] else []) ++ (if w_offsets fl then [off] else []).
(** the metadata of a file with all of it *)
Definition info_bytes (big : bool) (g : grid) (y : geometry) (n : Z) : list Z :=
  words big [endianness] ++ mapping_bytes big (g_map g) ++ bytes_of big 4 (g_len g) ++ topology_bytes (g_topo g) ++ geometry_bytes big y ++ words big [n].

Lemma selected_inv {D} g (st : Z -> proc D) cells sel : selected g st cells = Done sel ->
  forall r, In r (ranks g) -> map fst (sel r) = cells r /\ forall e, In e (sel r) -> find (fst e) (s_data (p_store (st r))) = Some (snd e).
Proof.
  intros E r Ir. unfold selected, each in E. pose proof (collect_inv _ _ _ _ E r Ir) as K. cbn beta in K. apply mapM_inv in K. revert K. generalize (sel r). induction (cells r) as [|c l IH]; intros es K; inversion K as [|? e ? es' A B]; subst; [split; [reflexivity|intros e []]|].
  destruct (IH es' B) as [I1 I2]. apply bind_done in A. destruct A as (d & A & E1). injection E1 as <-. cbn [map fst]. split; [rewrite I1; reflexivity|]. intros x [<-|I]; [|auto]. cbn [fst snd]. unfold at_ in A. destruct (find c _) as [d'|]; [injection A as <-; reflexivity|discriminate].
Qed.

Section Entries.
Context (big : bool) {D : Type} (u : user D) (g : grid) (y : geometry) (sel : Z -> list (Z * D)) (fl : flags) (Hnp : 0 <= g_np g).
Context (Hi : forall r e, 0 <= r -> In e (sel r) -> item_ok u e r).
(** cell, offset and data of the cells of process r, data starting from s *)
Definition entries_of (s r : Z) : list (Z * Z * list Z) :=
  map (fun p => (fst (fst p), snd p, u_get u (fst (fst p)) r (-1) false (snd (fst p)))) (combine (sel r) (starts s (shapes u sel r))).
Lemma entries_of_writes s r : map (fun e => (snd (fst e), snd e)) (entries_of s r) = combine (starts s (shapes u sel r)) (map (fun e => u_get u (fst e) r (-1) false (snd e)) (sel r)).
Proof.
  unfold entries_of, shapes. rewrite map_map. revert s. induction (sel r) as [|e l IH]; intros s; cbn [map starts combine]; [reflexivity|]. rewrite IH. reflexivity.
Qed.
Lemma entries_of_cells s r : map (fun e => fst (fst e)) (entries_of s r) = map fst (sel r).
Proof.
  unfold entries_of, shapes. rewrite map_map. revert s. induction (sel r) as [|e l IH]; intros s; cbn [map starts combine]; [reflexivity|]. rewrite IH. reflexivity.
Qed.
Lemma entries_of_listed s r :
  (if w_ids fl && w_offsets fl then flat_map (fun e => [fst e; snd e]) (combine (map fst (sel r)) (starts s (shapes u sel r)))
   else if w_ids fl then map fst (sel r) else if w_offsets fl then starts s (shapes u sel r) else []) =
  flat_map (fun e => listed fl (fst (fst e)) (snd (fst e))) (entries_of s r).
Proof.
  unfold entries_of, shapes, listed. revert s. induction (sel r) as [|e l IH]; intros s; cbn [map starts combine flat_map]; [destruct (w_ids fl), (w_offsets fl); reflexivity|]. rewrite <- IH. destruct (w_ids fl), (w_offsets fl); reflexivity.
Qed.
Lemma entries_of_in s r e : In e (entries_of s r) -> exists x, In x (sel r) /\ fst (fst e) = fst x /\ snd e = u_get u (fst x) r (-1) false (snd x).
Proof.
  unfold entries_of. rewrite in_map_iff. intros ([x o] & <- & I). apply in_combine_l in I. exists x. auto.
Qed.
Definition entries (o : Z) : list (Z * Z * list Z) := flat_map (fun r => entries_of (Sd u g sel fl o r) r) (ranks g).
Lemma map_flat_map {A B C} (h : B -> C) (f : A -> list B) l : map h (flat_map f l) = flat_map (fun a => map h (f a)) l.
Proof. induction l as [|a l IH]; cbn [flat_map map]; [reflexivity|]. rewrite map_app, IH. reflexivity. Qed.
Lemma flat_map_flat_map {A B C} (h : B -> list C) (f : A -> list B) l : flat_map h (flat_map f l) = flat_map (fun a => flat_map h (f a)) l.
Proof. induction l as [|a l IH]; cbn [flat_map]; [reflexivity|]. rewrite flat_map_app, IH. reflexivity. Qed.
Lemma flat_map_eq {A B} (f h : A -> list B) l : (forall a, In a l -> f a = h a) -> flat_map f l = flat_map h l.
Proof. induction l as [|a l IH]; cbn [flat_map]; intros H; [reflexivity|]. rewrite (H a (or_introl eq_refl)), IH; [reflexivity|intros; apply H; right; assumption]. Qed.
Lemma words_app a b : words big (a ++ b) = words big a ++ words big b.
Proof. apply flat_map_app. Qed.

Lemma in_ranks r : In r (ranks g) <-> 0 <= r < g_np g. Proof. apply below_in. Qed.
Lemma entries_stored o f : 0 <= o -> file_end u g sel fl o < 2 ^ 63 -> counts_fit g sel ->
  (forall w, In w (flat_map (list_write big u g sel fl o) (ranks g) ++ flat_map (data_writes u g sel fl o) (ranks g)) -> stored f (fst w) (snd w)) ->
  stored f o (words big (flat_map (fun e => listed fl (fst (fst e)) (snd (fst e))) (entries o))) /\
  (forall e, In e (entries o) -> stored f (snd (fst e)) (snd e)).
Proof.
  intros O He Hn H. split.
  - assert (words big (flat_map (fun e => listed fl (fst (fst e)) (snd (fst e))) (entries o)) = flat_map (fun r => words big (list_words u g sel fl o r)) (below (g_np g))) as ->.
    { unfold entries. rewrite flat_map_flat_map. unfold words. rewrite flat_map_flat_map. apply flat_map_eq. intros r Ir. rewrite <- entries_of_listed. unfold list_words. rewrite disp_eq by (try assumption; apply in_ranks; assumption). reflexivity. }
    replace o with (Sl sel fl o 0) at 1 by (unfold Sl; rewrite psum_0; lia).
    apply (chain_stored f (Sl sel fl o)); [assumption|]. intros r R. split; [|apply Sl_succ; assumption].
    apply (H (Sl sel fl o r, words big (list_words u g sel fl o r))). apply in_app_iff. left. apply in_flat_map. exists r. split; [apply in_ranks; assumption|]. rewrite list_write_eq by assumption. left. reflexivity.
  - intros e Ie. apply (H (snd (fst e), snd e)). apply in_app_iff. right. unfold entries in Ie. apply in_flat_map in Ie. destruct Ie as (r & Ir & Ie). apply in_flat_map. exists r. split; [assumption|].
    unfold data_writes. rewrite disp_eq by (try assumption; apply in_ranks; assumption). rewrite <- entries_of_writes. apply (in_map (fun e => (snd (fst e), snd e))). assumption.
Qed.
Lemma entries_writes o : 0 <= o -> file_end u g sel fl o < 2 ^ 63 -> counts_fit g sel -> map (fun e => (snd (fst e), snd e)) (entries o) = flat_map (data_writes u g sel fl o) (ranks g).
Proof.
  intros O He Hn. unfold entries. rewrite map_flat_map. apply flat_map_eq. intros r Ir. unfold data_writes. rewrite disp_eq by (try assumption; apply in_ranks; assumption). apply entries_of_writes.
Qed.
Lemma entries_count o : len (entries o) = ntotal g sel.
Proof.
  unfold entries, ntotal, psum. rewrite ranks_below. induction (below (g_np g)) as [|r l IH]; cbn [flat_map fold_right length]; [reflexivity|]. rewrite app_length, <- IH. unfold number at 1. rewrite <- (map_length fst (sel r)), <- (entries_of_cells (Sd u g sel fl o r) r), map_length. lia.
Qed.

(** *** the metadata *)
Lemma info_stored m f o : geometry_set m y -> (forall w, In w (info_writes big g y o) -> stored f (fst w) (snd w)) ->
  stored f o (words big [endianness] ++ mapping_bytes big (g_map g) ++ bytes_of big 4 (g_len g) ++ topology_bytes (g_topo g) ++ geometry_bytes big y).
Proof.
  intros Hy H. assert (forall o' b, In (o', b) (info_writes big g y o) -> stored f o' b) as K by (intros o' b I; apply (H (o', b) I)). clear H. unfold info_writes, mapping_writes, topology_writes in K. cbn [app] in K.
  assert (forall o' b, In (o', b) (geometry_writes big y (o + 8 + mapping_size + 4 + topology_size)) -> stored f o' b) as Kg by (intros o' b I; apply K; do 5 right; exact I).
  rewrite !stored_app, words_length, mapping_bytes_size, bytes_length. cbn [length topology_bytes]. unfold mapping_size, topology_size in *.
  split; [apply K; left; f_equal; lia|]. split; [|split; [|split]].
  - unfold mapping_bytes. rewrite stored_app, words_length. cbn [length]. split; apply K; [right; left; f_equal; lia|do 2 right; left; f_equal; lia].
  - apply K. do 3 right. left. f_equal; lia.
  - apply K. do 4 right. left. f_equal; lia.
  - destruct y as [|c|s]; cbn [geometry_bytes geometry_writes geometry_set] in *.
    + apply Kg. left. f_equal; lia.
    + destruct Hy as (L1 & L2 & _). rewrite !stored_app, int_length, words_length, L1. split; [|split]; apply Kg; [left|right; left|right; right; left]; f_equal; lia.
    + rewrite !stored_app, int_length, !words_length. cbn [length]. unfold count_of in Kg. split; [|split; [|split; [|split]]]; apply Kg; [left|right; left|do 2 right; left|do 3 right; left|do 4 right; left]; f_equal; lia.
Qed.
End Entries.

Lemma collect_out {A} l (f : Z -> outcome A) base F : collect l f base = Done F -> forall r, ~ In r l -> F r = base r.
Proof.
  revert F. induction l as [|x l IH]; cbn [collect]; intros F E r N; [injection E as <-; reflexivity|]. apply bind_done in E. destruct E as (a & _ & E). apply bind_done in E. destruct E as (F0 & E0 & E). injection E as <-.
  cbn [In] in N. destruct (Z.eqb_spec r x) as [->|]; [tauto|]. apply (IH F0 E0). tauto.
Qed.
Lemma Forall2_map_same {A B C} (P : B -> C -> Prop) (f : A -> B) (h : A -> C) l : (forall a, In a l -> P (f a) (h a)) -> Forall2 P (map f l) (map h l).
Proof. induction l as [|a l IH]; cbn [map]; intros H; constructor; [apply H; left; reflexivity|]. apply IH. intros; apply H; right; assumption. Qed.
Lemma Forall2_flat_map {A B C} (P : B -> C -> Prop) (f : A -> list B) (h : A -> list C) l : (forall a, In a l -> Forall2 P (f a) (h a)) -> Forall2 P (flat_map f l) (flat_map h l).
Proof. induction l as [|a l IH]; cbn [flat_map]; intros H; [constructor|]. apply Forall2_app; [apply H; left; reflexivity|]. apply IH. intros; apply H; right; assumption. Qed.
Lemma psum_ext h h' n : (forall q, 0 <= q < n -> h q = h' q) -> psum h n = psum h' n.
Proof.
  intros H. unfold psum. assert (forall q, In q (below n) -> h q = h' q) as K by (intros q Q; apply H, below_in, Q). revert K. clear. induction (below n) as [|x l IH]; cbn [fold_right]; intros K; [reflexivity|]. rewrite (K x (or_introl eq_refl)), IH; [reflexivity|intros; apply K; right; assumption].
Qed.
Lemma number_gather {D} g (st : Z -> proc D) cells sel : selected g st cells = Done sel -> ntotal g sel = len (gather g cells).
Proof.
  intros E. unfold ntotal, gather, psum. rewrite ranks_below. assert (forall r, In r (below (g_np g)) -> number sel r = len (cells r)) as K.
  { intros r Ir. destruct (selected_inv _ _ _ _ E r Ir) as [<- _]. unfold number. rewrite map_length. reflexivity. }
  revert K. induction (below (g_np g)) as [|r l IH]; cbn [fold_right flat_map length]; intros K; [reflexivity|]. rewrite app_length, (K r (or_introl eq_refl)), IH by (intros; apply K; right; assumption). lia.
Qed.

(** Every cell is in the cell list once with the offset of its data; data is in the order of the
    list, without overlaps and after the list; nothing outside of the file's range is written.
    All of that in whatever order the processes' writes are made. *)
Theorem c39_cells_are_stored_once_without_overlap big {D} (u : user D) g y (st : Z -> proc D) cells fl header o sel :
  0 <= g_np g -> geometry_set (g_map g) y -> 0 <= o -> len header < 2 ^ 31 -> selected g st cells = Done sel ->
  (forall r c d, In r (ranks g) -> In c (cells r) -> find c (s_data (p_store (st r))) = Some d -> item_ok u (c, d) r) ->
  len (gather g cells) < 2 ^ 58 -> (forall r, In r (ranks g) -> len (cells r) < 2 ^ 30) -> file_end u g sel fl (list_begin y fl header o) < 2 ^ 63 ->
  exists writes (es : list (Z * Z * list Z)), save_grid_data big u g y st cells fl header o = Done (Some writes) /\
    Forall2 (fun e p => fst (fst e) = fst p /\ exists d, find (fst p) (s_data (p_store (st (snd p)))) = Some d /\ snd e = u_get u (fst p) (snd p) (-1) false d)
      es (flat_map (fun r => map (fun c => (c, r)) (cells r)) (ranks g)) /\
    let meta := header ++ (if w_info fl then info_bytes big g y (len es) else []) ++
                words big (flat_map (fun e => listed fl (fst (fst e)) (snd (fst e))) es) in
    let last := file_end u g sel fl (list_begin y fl header o) in
    ordered (o + len meta) (map (fun e => (snd (fst e), snd e)) es) last /\
    forall ws f, Permutation writes ws -> let f' := apply_writes ws f in
      stored f' o meta /\ (forall e, In e es -> stored f' (snd (fst e)) (snd e)) /\
      (forall p, p < o \/ last <= p -> f' p = f p).
Proof.
  intros Hnp Hy O Hh Hs Hi0 Hn1 Hn2 He. set (L := list_begin y fl header o) in *. pose proof (number_gather _ _ _ _ Hs) as En.
  assert (counts_fit g sel) as Hn. { split; [lia|]. intros r Hr. apply below_in in Hr. destruct (selected_inv _ _ _ _ Hs r Hr) as [M _]. specialize (Hn2 r Hr). rewrite <- M, map_length in Hn2. exact Hn2. }
  assert (forall r e, 0 <= r -> In e (sel r) -> item_ok u e r) as Hi.
  { intros r e R Ie. destruct (Z_lt_le_dec r (g_np g)) as [R'|R'].
    - assert (In r (ranks g)) as Ir by (apply below_in; lia). destruct (selected_inv _ _ _ _ Hs r Ir) as [M F]. specialize (F e Ie). destruct e as [c d]. apply Hi0; [assumption| |assumption]. rewrite <- M. apply (in_map fst _ _ Ie).
    - unfold selected, each in Hs. rewrite (collect_out _ _ _ _ Hs r) in Ie by (rewrite ranks_below, below_in; lia). destruct Ie. }
  pose proof (geometry_size_pos y) as Gy. assert (0 <= L) as HL. { unfold L, list_begin, info_size, mapping_size, topology_size. destruct (w_info fl); lia. }
  pose proof (all_ordered big u g y sel fl Hnp Hi (g_map g) header o Hy O Hh He Hn) as Ord. fold L in Ord.
  pose proof (entries_count u g sel fl L) as Ec.
  exists (all_writes big u g y sel fl header o), (entries u g sel fl L). split; [|split; [|cbn zeta; split]].
  - unfold save_grid_data. rewrite Hs. cbn [bind]. rewrite list_offset_eq by assumption. fold L. rewrite counts_fine by assumption. reflexivity.
  - unfold entries. apply Forall2_flat_map. intros r Ir. destruct (selected_inv _ _ _ _ Hs r Ir) as [M F]. rewrite <- M, map_map.
    generalize (Sd u g sel fl L r). unfold entries_of, shapes. revert F. generalize (sel r). clear. intros l F. induction l as [|e l IH]; intros s; cbn [map starts combine]; constructor.
    + cbn [fst snd]. split; [reflexivity|]. exists (snd e). split; [apply F; left; reflexivity|reflexivity].
    + apply IH. intros; apply F; right; assumption.
  - rewrite (entries_writes u g sel fl Hnp Hi) by assumption. eapply ordered_weak; [apply (datas_ordered u g sel fl Hnp Hi L HL He Hn)| |lia].
    assert (len (flat_map (fun e => listed fl (fst (fst e)) (snd (fst e))) (entries u g sel fl L)) = per_cell fl * ntotal g sel) as El.
    { rewrite <- Ec. generalize (entries u g sel fl L). clear. induction l as [|e l IH]; cbn [flat_map length]; [lia|]. rewrite app_length. assert (len (listed fl (fst (fst e)) (snd (fst e))) = per_cell fl) by (unfold listed, per_cell; destruct (w_ids fl), (w_offsets fl); reflexivity). lia. }
    rewrite !app_length, words_length. unfold data_begin. fold L. rewrite Nat2Z.inj_add, Nat2Z.inj_add, Nat2Z.inj_mul, El.
    assert (L = o + len header + len (if w_info fl then info_bytes big g y (len (entries u g sel fl L)) else [])) as EL; [|lia].
    unfold L at 1, list_begin, info_bytes, info_size. pose proof (geometry_bytes_size big (g_map g) y Hy) as Gs. pose proof (mapping_bytes_size big (g_map g)) as Ms. destruct (w_info fl); [|cbn [length]; lia].
    rewrite !app_length, !words_length, bytes_length. cbn [length topology_bytes]. unfold topology_size. lia.
  - intros ws f P. pose proof (ordered_apart _ _ _ Ord) as Ap. pose proof (apart_perm _ _ P Ap) as Ap'.
    assert (forall w, In w (all_writes big u g y sel fl header o) -> stored (apply_writes ws f) (fst w) (snd w)) as Hst by (intros w Iw; apply apply_stored; [assumption|apply (Permutation_in _ P Iw)]).
    assert (forall p, p < o \/ file_end u g sel fl L <= p -> apply_writes ws f p = f p) as Out.
    { intros p Hp. apply apply_other. intros w Iw. apply (Permutation_in _ (Permutation_sym P)) in Iw. destruct (ordered_in _ _ _ w Ord Iw). lia. }
    set (f' := apply_writes ws f) in *. clearbody f'. unfold all_writes in Hst. rewrite list_offset_eq in Hst by assumption. fold L in Hst. unfold info_start in Hst. rewrite to_int_small in Hst by lia.
    destruct (entries_stored big u g sel fl Hnp Hi L f' HL He Hn) as [St1 St2]. { intros w Iw. apply Hst. apply in_app_iff. right. apply in_app_iff. right. exact Iw. }
    split; [|split; assumption]. rewrite !stored_app. split; [|split].
    + apply (Hst (o, header)). left. reflexivity.
    + destruct (w_info fl) eqn:Wi; [|intros [|i] x Q; discriminate]. unfold info_bytes. rewrite !(app_assoc (words big [endianness])), !app_assoc, stored_app. rewrite <- !app_assoc.
      split; [apply (info_stored big g y (g_map g)); [assumption|]|].
      * intros w Iw. apply Hst. apply in_app_iff. right. apply in_app_iff. left. apply in_app_iff. left. assumption.
      * assert (len (words big [endianness] ++ mapping_bytes big (g_map g) ++ bytes_of big 4 (g_len g) ++ topology_bytes (g_topo g) ++ geometry_bytes big y) = info_size y) as ->.
        { rewrite !app_length, words_length, bytes_length. cbn [length topology_bytes]. pose proof (geometry_bytes_size big (g_map g) y Hy). pose proof (mapping_bytes_size big (g_map g)). unfold info_size, topology_size. lia. }
        rewrite Ec. rewrite <- (total_eq g sel Hnp Hn). apply (Hst (o + len header + info_size y, words big [total_number g sel])). apply in_app_iff. right. apply in_app_iff. left. apply in_app_iff. right. left. reflexivity.
    + assert (o + len header + len (if w_info fl then info_bytes big g y (len (entries u g sel fl L)) else []) = L) as ->; [|assumption].
      unfold L at 2, list_begin, info_bytes, info_size. pose proof (geometry_bytes_size big (g_map g) y Hy) as Gs. pose proof (mapping_bytes_size big (g_map g)) as Ms. destruct (w_info fl); [|cbn [length]; lia].
      rewrite !app_length, !words_length, bytes_length. cbn [length topology_bytes]. unfold topology_size. lia.
Qed.
