(** Correctness of update_neighbors_ and of the walk of find_neighbors_of on balanced meshes. *)
From Verif Require Import U64 MapModel MapSpec MapProofs MapFamily MapProps HoodModel MeshModel
  MeshSpec MeshBase HoodProps.
Open Scope Z_scope.

Definition sum3 (f : dim -> Z) : Z := f DX + f DY + f DZ.
Lemma sum3_upd f g k : (forall j, j <> k -> g j = f j) -> sum3 g = sum3 f + (g k - f k).
Proof.
  intros H. unfold sum3. destruct k; rewrite ?(H DX), ?(H DY), ?(H DZ) by discriminate; lia.
Qed.
Lemma sum3_le f b : (forall k, f k <= b) -> sum3 f <= 3 * b.
Proof. intros H. pose proof (H DX). pose proof (H DY). pose proof (H DZ). unfold sum3. lia. Qed.
Lemma sum3_nonneg f : (forall k, 0 <= f k) -> 0 <= sum3 f.
Proof. intros H. pose proof (H DX). pose proof (H DY). pose proof (H DZ). unfold sum3. lia. Qed.

(** unit step: the position searched for the neighbor of a box at p of size s *)
Definition front (p : idx) (s : Z) (k : dim) (pos : bool) : idx :=
  upd p k (get p k + (if pos then s else -1)).

(** the face offsets are in the neighborhood, and with an offset everything between it and 0 *)
Definition has_faces (H : hood) : Prop := forall k s, s = 1 \/ s = -1 -> In (upd vzero k s) H.
Definition box_closed (H : hood) (h : idx) : Prop :=
  forall g, (forall k, Z.min 0 (get h k) <= get g k <= Z.max 0 (get h k)) -> g = vzero \/ In g H.

Lemma default_faces n : 0 <= n -> has_faces (default_hood_of n).
Proof.
  intros Hn k s Hs. apply default_hood_in; [assumption|]. unfold in_default.
  destruct (Z.eqb_spec n 0) as [->|N]; [exists k, s; auto|]. split.
  - intros E. pose proof (f_equal (fun v => get v k) E) as E'. cbn beta in E'.
    rewrite get_upd_same, get_vzero in E'. lia.
  - intros j. destruct (dim_eq_dec j k) as [->|]; [rewrite get_upd_same; lia|].
    rewrite get_upd_other, get_vzero by assumption. lia.
Qed.
Lemma vzero_dec g : g = vzero \/ g <> vzero.
Proof.
  destruct g as [x y z]. destruct (Z.eq_dec x 0), (Z.eq_dec y 0), (Z.eq_dec z 0);
  try (left; subst; reflexivity); right; unfold vzero; congruence.
Qed.
Lemma default_box_closed n h : 0 <= n -> In h (default_hood_of n) -> box_closed (default_hood_of n) h.
Proof.
  intros Hn Hh g Hg. apply default_hood_in in Hh; [|assumption].
  destruct (vzero_dec g) as [|Nz]; [left; assumption|right].
  apply default_hood_in; [assumption|]. unfold in_default in *. destruct (Z.eqb_spec n 0) as [->|N].
  - destruct Hh as (k & s & Hs & ->). exists k, s. split; [assumption|].
    assert (forall j, j <> k -> get g j = 0) as Z0.
    { intros j Nj. specialize (Hg j). rewrite get_upd_other, get_vzero in Hg by assumption. lia. }
    assert (get g k = s) as E.
    { pose proof (Hg k) as Hk. rewrite get_upd_same in Hk.
      destruct (Z.eq_dec (get g k) 0) as [E0|]; [|lia]. exfalso. apply Nz. apply idx_ext. intros j.
      rewrite get_vzero. destruct (dim_eq_dec j k) as [->|]; auto. }
    apply idx_ext. intros j. destruct (dim_eq_dec j k) as [->|]; [rewrite get_upd_same; assumption|].
    rewrite get_upd_other, get_vzero by assumption. auto.
  - destruct Hh as [_ Hh]. split; [assumption|]. intros k. specialize (Hh k). specialize (Hg k). lia.
Qed.

Section Walk.
Context (m : mapping) (Hwf : wf m) (t : topo) (ex : Z -> bool) (Htile : tiling m ex).
Context (H : hood) (Hbal : balanced m t H ex) (Hfaces : has_faces H).
Notation d := (dims_of m).
Notation V := (leaf_valid m ex Htile).

(** *** update_neighbors_ *)
Lemma search_index_spec c k pos p : valid m c -> lands m t p (idx_of m c) ->
  let x := front p (len_of m c) k pos in
  let s := search_index m t (idx_of m c) (len_of m c) k pos in
  (reachable m t x -> lands m t x s) /\ (~ reachable m t x -> glen m k <= get s k).
Proof.
  intros Vc [Gc L] x s.
  pose proof (proj1 (in_grid_k m (idx_of m c)) Gc) as G.
  pose proof (cell_len_pos m Hwf c Vc) as Lp.
  pose proof (glen_pos m Hwf k) as Gp. pose proof (glen_lt_W m Hwf k) as GW.
  pose proof (cell_aligned m Hwf c k Vc) as Al. pose proof (cell_len_glen m Hwf c k Vc) as AG.
  pose proof (aligned_lt _ _ _ Lp Al AG (proj2 (G k))) as Fit.
  assert (get s k = if pos then
      (if get (idx_of m c) k + len_of m c =? glen m k then if per t k then 0 else error_index
       else get (idx_of m c) k + len_of m c)
    else if get (idx_of m c) k =? 0 then if per t k then glen m k - 1 else error_index
         else get (idx_of m c) k - 1) as Es.
  { unfold s, search_index. rewrite get_upd_same. rewrite glen64_eq by assumption. pose proof (G k).
    unfold sub64, add64. destruct pos.
    - rewrite (u64_small (glen m k - 1)) by lia. cbn zeta.
      destruct (Z.eqb_spec (get (idx_of m c) k + len_of m c) (glen m k)) as [E|E].
      + destruct (Z.ltb_spec (glen m k - 1) (len_of m c)); cbn [orb]; [reflexivity|].
        rewrite u64_small by lia. replace (glen m k - 1 - len_of m c <? get (idx_of m c) k) with true by lia.
        reflexivity.
      + replace (glen m k - 1 <? len_of m c) with false by lia. cbn [orb].
        rewrite u64_small by lia.
        replace (glen m k - 1 - len_of m c <? get (idx_of m c) k) with false by lia.
        apply u64_small. lia.
    - destruct (Z.eqb_spec (get (idx_of m c) k) 0).
      + destruct (per t k); [|reflexivity]. apply u64_small; lia.
      + apply u64_small; lia. }
  assert (forall j, j <> k -> get s j = get (idx_of m c) j /\ get x j = get p j) as Eo.
  { intros j N. unfold s, search_index, x, front. rewrite !get_upd_other by assumption. auto. }
  assert (get x k = get p k + (if pos then len_of m c else -1)) as Ex.
  { unfold x, front. apply get_upd_same. }
  pose proof (L k) as Lk.
  assert (error_index = W - 1) as EI by reflexivity.
  assert (reachable m t x -> per t k = true \/ 0 <= get x k < glen m k) as R1.
  { intros R. apply R. }
  assert (~ reachable m t x -> per t k = false /\ ~ (0 <= get x k < glen m k)) as R2.
  { intros NR. destruct (per t k) eqn:Pk.
    - exfalso. apply NR. intros j. destruct (dim_eq_dec j k) as [->|N]; [auto|].
      specialize (L j). specialize (G j). destruct (Eo j N) as [_ ->].
      destruct (per t j); [auto|right; rewrite L; exact G].
    - split; [reflexivity|]. intros B. apply NR. intros j. destruct (dim_eq_dec j k) as [->|N]; [auto|].
      specialize (L j). specialize (G j). destruct (Eo j N) as [_ ->].
      destruct (per t j); [auto|right; rewrite L; exact G]. }
  pose proof (G k) as Gk. split.
  - intros R. specialize (R1 R). clear R2. split.
    + apply in_grid_k. intros j. destruct (dim_eq_dec j k) as [->|N].
      * rewrite Es. destruct (per t k); destruct pos;
          destruct (Z.eqb_spec (get (idx_of m c) k + len_of m c) (glen m k));
          destruct (Z.eqb_spec (get (idx_of m c) k) 0);
          (try (destruct R1 as [R1|R1]; [discriminate R1|])); lia.
      * destruct (Eo j N) as [-> _]. apply G.
    + intros j. destruct (dim_eq_dec j k) as [->|N].
      * rewrite Es, Ex. destruct (per t k).
        -- destruct Lk as [n Hn]. rewrite Hn. destruct pos.
           ++ destruct (Z.eqb_spec (get (idx_of m c) k + len_of m c) (glen m k)); [exists (n + 1)|exists n]; lia.
           ++ destruct (Z.eqb_spec (get (idx_of m c) k) 0); [exists (n - 1)|exists n]; lia.
        -- destruct R1 as [R1|R1]; [discriminate R1|]. rewrite Ex, Lk in R1. rewrite Lk. destruct pos.
           ++ replace (get (idx_of m c) k + len_of m c =? glen m k) with false by lia. lia.
           ++ replace (get (idx_of m c) k =? 0) with false by lia. lia.
      * destruct (Eo j N) as [-> ->]. apply L.
  - intros R. destruct (R2 R) as [Pk B]. rewrite Pk in *. rewrite Es. rewrite Ex, Lk in B. destruct pos.
    + replace (get (idx_of m c) k + len_of m c =? glen m k) with true by lia. lia.
    + replace (get (idx_of m c) k =? 0) with true by lia. lia.
Qed.

(** offset at which the leaf n around unrolled point x is seen from a cell at p *)
Definition box_at (n : Z) (x : idx) : idx := vmap (fun k => rdown (len_of m n) (get x k)).

Lemma box_at_contains n x k : valid m n -> get (box_at n x) k <= get x k < get (box_at n x) k + len_of m n.
Proof. intros Hn. unfold box_at. rewrite get_vmap. apply rdown_le. apply cell_len_pos; assumption. Qed.

Lemma lands_shift c p n y : lands m t p (idx_of m c) -> lands m t y (idx_of m n) ->
  valid m c -> valid m n -> placed m t c n (vsub y p).
Proof.
  intros [Gc Lc] [Gn Ln] Vc Vn. split; [assumption|]. intros k. specialize (Lc k). specialize (Ln k).
  rewrite get_vadd, get_vsub. destruct (per t k).
  - destruct Lc as [a Ha], Ln as [b Hb]. exists (b - a). lia.
  - lia.
Qed.

(** any leaf around a point within the neighborhood region of a leaf obeys the 2:1 rule *)
Lemma near_level c p h x i n : ex c = true -> lands m t p (idx_of m c) -> In h H ->
  (forall k, get p k + get h k * len_of m c <= get x k < get p k + (get h k + 1) * len_of m c) ->
  lands m t x i -> ex n = true -> covers m n i ->
  Z.abs (lvl_of m c - lvl_of m n) <= 1.
Proof.
  intros Ec Lp Hh Hx Lx En Cn. apply Hbal; [assumption|assumption|].
  pose proof (lands_rdown m Hwf t x i n (V n En) Lx Cn) as Ly. fold (box_at n x) in Ly.
  exists h, (vsub (box_at n x) p). split; [assumption|]. split.
  - apply lands_shift; auto using V.
  - intros k. rewrite get_vsub. specialize (Hx k). pose proof (box_at_contains n x k (V n En)).
    unfold len_of in *. lia.
Qed.

Lemma face_neighbor_out c k pos p : ex c = true -> lands m t p (idx_of m c) ->
  ~ reachable m t (front p (len_of m c) k pos) -> face_neighbor ex m t c k pos = error_cell.
Proof.
  intros Ec Lp R. pose proof (search_index_spec c k pos p (V c Ec) Lp) as [_ S]. cbn zeta in S.
  unfold face_neighbor. apply (gec_out m Hwf) with (k := k). apply S, R.
Qed.

Lemma face_neighbor_in c k pos p i n : ex c = true -> lands m t p (idx_of m c) ->
  lands m t (front p (len_of m c) k pos) i -> ex n = true -> covers m n i ->
  face_neighbor ex m t c k pos = n /\ Z.abs (lvl_of m c - lvl_of m n) <= 1.
Proof.
  intros Ec Lp Lx En Cn. pose proof (search_index_spec c k pos p (V c Ec) Lp) as [S _]. cbn zeta in S.
  specialize (S (lands_reachable m t _ _ Lx)). pose proof (lands_unique m t _ _ _ Lx S) as Ei.
  pose proof (cell_len_pos m Hwf c (V c Ec)) as Lc.
  assert (Z.abs (lvl_of m c - lvl_of m n) <= 1) as Hl.
  { apply (near_level c p (upd vzero k (if pos then 1 else -1)) (front p (len_of m c) k pos) i n);
      try assumption.
    - apply Hfaces. destruct pos; auto.
    - intros j. unfold front. destruct (dim_eq_dec j k) as [->|N].
      + rewrite !get_upd_same. destruct pos; lia.
      + rewrite !get_upd_other, get_vzero by assumption. lia. }
  split; [|assumption]. unfold face_neighbor.
  pose proof (cell_level m Hwf c (V c Ec)). pose proof (cell_level m Hwf n (V n En)).
  unfold idx_of, len_of in *. rewrite <- Ei.
  rewrite (gec_in m Hwf ex Htile _ _ _ n); try assumption.
  - unfold lvl_of in *.
    replace ((if get_refinement_level m c =? 0 then 0 else get_refinement_level m c - 1) <=? get_refinement_level m n) with true
      by (destruct (get_refinement_level m c =? 0) eqn:?; lia).
    replace (get_refinement_level m n <=? (if get_refinement_level m c =? m_max m then m_max m else get_refinement_level m c + 1)) with true
      by (destruct (get_refinement_level m c =? m_max m) eqn:?; lia).
    reflexivity.
  - unfold lvl_of in *. destruct (get_refinement_level m c =? 0) eqn:?; lia.
  - unfold lvl_of in *. destruct (get_refinement_level m c =? m_max m) eqn:?; lia.
Qed.

(** two leaves that share an unrolled point are the same cell in the same place *)
Lemma same_box c p n q x : ex c = true -> ex n = true -> lands m t p (idx_of m c) -> lands m t q (idx_of m n) ->
  (forall k, get p k <= get x k < get p k + len_of m c) ->
  (forall k, get q k <= get x k < get q k + len_of m n) -> c = n /\ p = q.
Proof.
  intros Ec En Lp Lq Bc Bn.
  destruct (lands_in_box m Hwf t c p x (V c Ec) Lp Bc) as (i & Li & Ci).
  destruct (lands_in_box m Hwf t n q x (V n En) Lq Bn) as (j & Lj & Cj).
  pose proof (lands_unique m t _ _ _ Li Lj) as <-.
  pose proof (leaf_unique m Hwf ex Htile c n i Ec En Ci Cj) as <-. split; [reflexivity|].
  apply idx_ext. intros k. specialize (Bc k). specialize (Bn k).
  pose proof (lands_aligned m Hwf t p c k (V c Ec) Lp). pose proof (lands_aligned m Hwf t q c k (V c Ec) Lq).
  pose proof (cell_len_pos m Hwf c (V c Ec)).
  rewrite <- (rdown_unique (len_of m c) (get x k) (get p k)) by (assumption || lia).
  apply rdown_unique; (assumption || lia).
Qed.

Lemma len_ratio c n : valid m c -> valid m n ->
  (lvl_of m n = lvl_of m c -> len_of m n = len_of m c) /\
  (lvl_of m n = lvl_of m c - 1 -> len_of m n = 2 * len_of m c) /\
  (lvl_of m n = lvl_of m c + 1 -> len_of m c = 2 * len_of m n).
Proof.
  intros Vc Vn. rewrite !(cell_len m Hwf) by assumption.
  pose proof (cell_level m Hwf c Vc). pose proof (cell_level m Hwf n Vn).
  split; [intros ->; reflexivity|]. split; intros E; rewrite E in *.
  - rewrite <- pow2_dbl by lia. f_equal. lia.
  - rewrite <- pow2_dbl by lia. f_equal. lia.
Qed.

Lemma rdown_double s a : 0 < s -> (s | a) -> rdown (2 * s) a = a \/ rdown (2 * s) a = a - s.
Proof.
  intros Hs [q ->]. destruct (Z.Even_or_Odd q) as [[r ->]|[r ->]].
  - left. apply rdown_unique; [lia| |lia]. exists r. ring.
  - right. apply rdown_unique; [lia| |lia]. exists r. ring.
Qed.

(** *** adjust_offset gives the offset of the neighbor's unrolled box *)
Lemma adjust_offset_spec c p n i k pos off : ex c = true -> ex n = true ->
  lands m t p (idx_of m c) -> lands m t (front p (len_of m c) k pos) i -> covers m n i ->
  Z.abs (lvl_of m c - lvl_of m n) <= 1 ->
  adjust_offset m off c n k pos = vadd off (vsub (box_at n (front p (len_of m c) k pos)) p).
Proof.
  intros Ec En Lp Lx Cn Hl.
  pose proof (V c Ec) as Vc. pose proof (V n En) as Vn.
  pose proof (cell_len_pos m Hwf c Vc) as Pc. pose proof (cell_len_pos m Hwf n Vn) as Pn.
  destruct (len_ratio c n Vc Vn) as (R0 & R1 & R2).
  pose proof (cell_level m Hwf c Vc) as Lc. pose proof (cell_level m Hwf n Vn) as Ln.
  set (x := front p (len_of m c) k pos) in *.
  pose proof (lands_rdown m Hwf t x i n Vn Lx Cn) as Ly. fold (box_at n x) in Ly.
  assert (forall j, (len_of m c | get p j)) as Ap by (intros j; apply (lands_aligned m Hwf t); assumption).
  assert (get x k = get p k + (if pos then len_of m c else -1)) as Exk by apply get_upd_same.
  assert (forall j, j <> k -> get x j = get p j) as Exj by (intros; apply get_upd_other; assumption).
  assert (c <> n \/ p <> box_at n x) as Dif.
  { right. intros E. pose proof (box_at_contains n x k Vn) as B. rewrite <- E, Exk in B.
    assert (c = n \/ c <> n) as [Ecn|Ncn] by lia; [rewrite Ecn in *; destruct pos; lia|].
    apply Ncn. apply (same_box c p n p p Ec En Lp); [rewrite E; exact Ly| |].
    - intros j. lia. - intros j. lia. }
  (* no common point *)
  assert (forall y, ~ ((forall j, get p j <= get y j < get p j + len_of m c) /\
                       (forall j, get (box_at n x) j <= get y j < get (box_at n x) j + len_of m n))) as Sep.
  { intros y [Y1 Y2]. destruct (same_box c p n (box_at n x) y Ec En Lp Ly Y1 Y2). tauto. }
  apply idx_ext. intros j. rewrite get_vadd, get_vsub. unfold box_at. rewrite get_vmap.
  unfold adjust_offset. fold (len_of m c) (len_of m n).
  assert (lvl_of m n = lvl_of m c \/ lvl_of m n = lvl_of m c - 1 \/ lvl_of m n = lvl_of m c + 1) as [Q|[Q|Q]] by lia.
  - (* same size *)
    rewrite (R0 Q). rewrite Z.eqb_refl. destruct (dim_eq_dec j k) as [->|N].
    + rewrite get_upd_same, Exk. destruct pos.
      * rewrite rdown_self; [lia|assumption|]. apply Z.divide_add_r; [apply Ap|exists 1; lia].
      * rewrite (rdown_unique _ _ (get p k - len_of m c)); [lia|assumption| |lia].
        apply Z.divide_sub_r; [apply Ap|exists 1; lia].
    + rewrite get_upd_other, Exj by assumption. rewrite rdown_self by auto. lia.
  - (* neighbor is larger *)
    rewrite (R1 Q). replace (len_of m c =? 2 * len_of m c) with false by lia.
    replace (len_of m c <? 2 * len_of m c) with true by lia.
    assert (forall j, get (parent_offset m c) j = rdown (2 * len_of m c) (get p j) - get p j) as PO.
    { intros j'. rewrite (parent_offset_k m Hwf c j') by (assumption || lia).
      pose proof (lands_diff m Hwf t _ _ n j' Vn Lp) as D. rewrite (R1 Q) in D.
      replace (get p j') with (get (idx_of m c) j' + (get p j' - get (idx_of m c) j')) by lia.
      rewrite rdown_add by (assumption || lia). lia. }
    destruct (dim_eq_dec j k) as [->|N].
    + rewrite get_upd_same, get_vadd, PO, Exk.
      pose proof (rdown_double (len_of m c) (get p k) Pc (Ap k)) as RD.
      destruct pos.
      * (* p + s is aligned to 2 s *)
        assert (rdown (2 * len_of m c) (get p k) = get p k - len_of m c) as E.
        { destruct RD as [E|E]; [exfalso|exact E]. apply (Sep p). split; [intros; lia|]. intros j.
          unfold box_at. rewrite get_vmap, (R1 Q). destruct (dim_eq_dec j k) as [->|N].
          - rewrite Exk. rewrite (rdown_unique _ (get p k + len_of m c) (get p k)); [lia|lia| |lia].
            rewrite <- E at 1. apply rdown_divide; lia.
          - rewrite (Exj j N). apply rdown_le; lia. }
        rewrite E. rewrite rdown_self; [lia|lia|].
        pose proof (rdown_divide (2 * len_of m c) (get p k) ltac:(lia)) as D. rewrite E in D.
        replace (get p k + len_of m c) with (get p k - len_of m c + 2 * len_of m c) by lia.
        apply Z.divide_add_r; [assumption|exists 1; lia].
      * assert (rdown (2 * len_of m c) (get p k) = get p k) as E.
        { destruct RD as [E|E]; [exact E|exfalso]. apply (Sep p). split; [intros; lia|]. intros j.
          unfold box_at. rewrite get_vmap, (R1 Q). destruct (dim_eq_dec j k) as [->|N].
          - rewrite Exk. rewrite (rdown_unique _ (get p k + -1) (get p k - len_of m c)); [lia|lia| |lia].
            rewrite <- E at 1. apply rdown_divide; lia.
          - rewrite (Exj j N). apply rdown_le; lia. }
        rewrite E. rewrite (rdown_unique _ _ (get p k - 2 * len_of m c)); [lia|lia| |lia].
        apply Z.divide_sub_r; [|exists 1; lia]. rewrite <- E. apply rdown_divide; lia.
    + rewrite get_upd_other, get_vadd, PO, Exj by assumption. lia.
  - (* neighbor is smaller *)
    pose proof (R2 Q) as E2. set (s := len_of m n) in *.
    rewrite E2 in *. replace (2 * s =? s) with false by lia. replace (2 * s <? s) with false by lia.
    assert (forall j, get (parent_offset m n) j =
              rdown (2 * s) (rdown s (get x j)) - rdown s (get x j)) as PO.
    { intros j'. rewrite (parent_offset_k m Hwf n j') by (assumption || lia). fold s.
      pose proof (lands_diff m Hwf t _ _ c j' Vc Ly) as D. rewrite E2 in D.
      unfold box_at in D. rewrite get_vmap in D. fold s in D.
      replace (rdown s (get x j')) with (get (idx_of m n) j' + (rdown s (get x j') - get (idx_of m n) j')) by lia.
      rewrite rdown_add by (assumption || lia). lia. }
    destruct (dim_eq_dec j k) as [->|N].
    + rewrite get_upd_same, get_vsub, PO, Exk.
      rewrite rdown_rdown by (lia || (exists 2; lia)). destruct pos.
      * rewrite (rdown_self s); [|lia|].
        -- rewrite (rdown_self (2 * s)); [lia|lia|]. apply Z.divide_add_r; [apply Ap|exists 1; lia].
        -- apply Z.divide_add_r; [|exists 2; lia]. apply Z.divide_trans with (2 * s); [exists 2; lia|apply Ap].
      * rewrite (rdown_unique s _ (get p k - s)); [|lia| |lia].
        -- rewrite (rdown_unique (2 * s) _ (get p k - 2 * s)); [lia|lia| |lia].
           apply Z.divide_sub_r; [apply Ap|exists 1; lia].
        -- apply Z.divide_sub_r; [|exists 1; lia]. apply Z.divide_trans with (2 * s); [exists 2; lia|apply Ap].
    + rewrite get_upd_other, get_vsub, PO, Exj by assumption.
      rewrite rdown_rdown by (lia || (exists 2; lia)).
      rewrite (rdown_self s); [|lia|]; [rewrite (rdown_self (2 * s)); [lia|lia|apply Ap]|].
      apply Z.divide_trans with (2 * s); [exists 2; lia|apply Ap].
Qed.
End Walk.
