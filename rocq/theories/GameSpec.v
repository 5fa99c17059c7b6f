(** Conway's game of life on the cells of refinement level 0, and their neighbors. *)
From Verif Require Import U64 MapModel MapSpec MapProofs MapFamily MapProps HoodModel MeshModel
  MeshSpec MeshBase HoodProps.
From Coq Require Import Permutation.
Open Scope Z_scope.

(** ** Rules of the game, without cell ids, indices or processes *)
Section Rules.
(** lengths of the board and in which directions its ends are joined *)
Context (len : dim -> Z) (joined : dim -> bool).
(** whether a square is on the board, and which one it is when ends are joined *)
Definition on_board (i : idx) : bool := forallb (fun k => joined k || (0 <=? get i k) && (get i k <? len k)) [DX; DY; DZ].
Definition square (i : idx) : idx := vmap (fun k => if joined k then get i k mod len k else get i k).
Definition alive (a : idx -> bool) (i : idx) : bool := on_board i && a (square i).
(** the number of live squares at the given offsets *)
Definition around (U : hood) (a : idx -> bool) (i : idx) : Z := Z.of_nat (length (filter (fun h => alive a (vadd i h)) U)).
(** a square is alive on the next turn if it has three live neighbors, or two and is alive *)
Definition next (U : hood) (a : idx -> bool) (i : idx) : bool := (around U a i =? 3) || (around U a i =? 2) && a i.
Fixpoint game (U : hood) (n : nat) (a : idx -> bool) : idx -> bool := match n with O => a | S n => next U (game U n a) end.
End Rules.

(** position of a cell of level 0 in the documented numbering: from 1, x fastest *)
Definition position_of (m : mapping) (c : Z) : idx :=
  Idx ((c - 1) mod m_l0 m) ((c - 1) / m_l0 m mod m_l1 m) ((c - 1) / (m_l0 m * m_l1 m)).
Definition cell_at (m : mapping) (i : idx) : Z := 1 + ix i + iy i * m_l0 m + iz i * (m_l0 m * m_l1 m).
(** the size of a cell of level 0 in indices *)
Definition unit (m : mapping) : Z := 2 ^ m_max m.
Definition scaled (s : Z) (i : idx) : idx := vmap (fun k => get i k * s).

Lemma idx_dec (a b : idx) : {a = b} + {a <> b}.
Proof. decide equality; apply Z.eq_dec. Defined.
Lemma div_of_sum q r s : 0 <= r < s -> (q * s + r) / s = q.
Proof. intros H. rewrite Z.add_comm, Z.div_add by lia. rewrite Z.div_small by lia. lia. Qed.
Lemma mod_of_sum q r s : 0 <= r < s -> (q * s + r) mod s = r.
Proof. intros H. rewrite Z.add_comm, Z.mod_add by lia. apply Z.mod_small. lia. Qed.

Section Uniform.
Context (m : mapping) (Hwf : wf m) (t : topo).
Notation d := (dims_of m).
Definition in_board (i : idx) : Prop := forall k, 0 <= get i k < mlen m k.
Lemma mlen_pos k : 0 < mlen m k.
Proof. destruct Hwf as (A & B & C & _). destruct k; assumption. Qed.
Lemma unit_pos : 0 < unit m.
Proof. destruct Hwf as (_ & _ & _ & H & _). apply Z.pow_pos_nonneg; lia. Qed.
Lemma position_cell i : in_board i -> position_of m (cell_at m i) = i.
Proof.
  intros H. pose proof (H DX) as A. pose proof (H DY) as B. pose proof (H DZ) as C. pose proof (mlen_pos DX) as PX. pose proof (mlen_pos DY) as PY. cbn [get mlen] in *. unfold position_of, cell_at. destruct i as [x y z]. cbn [ix iy iz] in *.
  replace (1 + x + y * m_l0 m + z * (m_l0 m * m_l1 m) - 1) with ((z * m_l1 m + y) * m_l0 m + x) by ring.
  rewrite mod_of_sum, div_of_sum, mod_of_sum by lia. f_equal. rewrite <- Z.div_div by lia. rewrite div_of_sum, div_of_sum by lia. reflexivity.
Qed.
Lemma level0_cube i : in_board i -> in_dims d (Cube 0 (ix i) (iy i) (iz i)) /\ id_of d (Cube 0 (ix i) (iy i) (iz i)) = cell_at m i.
Proof.
  intros H. pose proof (H DX) as A. pose proof (H DY) as B. pose proof (H DZ) as C. cbn [get mlen] in *. destruct Hwf as (_ & _ & _ & HM & _). split.
  - unfold in_dims, dims_of. cbn [q_l q_x q_y q_z d0 d1 d2 dmax]. rewrite Z.pow_0_r, !Z.mul_1_r. lia.
  - unfold id_of, dims_of, before, cell_at. cbn [q_l q_x q_y q_z d0 d1 d2 dmax]. rewrite !Z.pow_0_r. rewrite !Z.mul_1_r. change ((1 - 1) / 7) with 0. lia.
Qed.
(** cells of level 0 are those at the positions of the board *)
Lemma level0 c : valid m c -> lvl_of m c = 0 -> in_board (position_of m c) /\ cell_at m (position_of m c) = c.
Proof.
  intros V L. destruct (cube_of_spec m Hwf c V) as [Q1 Q2]. pose proof (level_of_id m Hwf _ Q1) as Lq. rewrite Q2 in Lq. change (get_refinement_level m c) with (lvl_of m c) in Lq. rewrite L in Lq.
  destruct (cube_of m c) as [l a b e]. cbn [q_l] in Lq. subst l. pose proof Q1 as Q. unfold in_dims, dims_of in Q. cbn [q_l q_x q_y q_z d0 d1 d2 dmax] in Q. rewrite Z.pow_0_r, !Z.mul_1_r in Q.
  assert (in_board (Idx a b e)) as HB by (intros k; destruct k; cbn [get mlen ix iy iz]; lia). destruct (level0_cube _ HB) as [_ E]. cbn [ix iy iz] in E. rewrite E in Q2. rewrite <- Q2, (position_cell _ HB). auto.
Qed.
Lemma cell_facts i : in_board i -> valid m (cell_at m i) /\ lvl_of m (cell_at m i) = 0 /\ idx_of m (cell_at m i) = scaled (unit m) i /\ len_of m (cell_at m i) = unit m.
Proof.
  intros H. destruct (level0_cube i H) as [Q E]. rewrite <- E. split; [apply id_of_valid; assumption|]. split; [apply (level_of_id m Hwf _ Q)|]. split.
  - unfold idx_of. rewrite (get_indices_id m Hwf _ Q). unfold corner, side, scaled, unit, dims_of, vmap. cbn [q_l q_x q_y q_z dmax get]. rewrite Z.sub_0_r. reflexivity.
  - unfold len_of. rewrite (length_id m Hwf _ Q). unfold side, unit. cbn [q_l dims_of dmax]. rewrite Z.sub_0_r. reflexivity.
Qed.
Notation on_board := (on_board (mlen m) (per t)).
Notation square := (square (mlen m) (per t)).
Lemma on_board_iff i : on_board i = true <-> forall k, per t k = true \/ 0 <= get i k < mlen m k.
Proof.
  unfold GameSpec.on_board. cbn [forallb]. rewrite andb_true_r, !andb_true_iff, !orb_true_iff, !andb_true_iff. split.
  - intros (A & B & C) k. destruct k; [destruct A|destruct B|destruct C]; auto; right; lia.
  - intros H. split; [|split]; [destruct (H DX)|destruct (H DY)|destruct (H DZ)]; auto; right; split; lia.
Qed.
Lemma square_on_board i : on_board i = true -> in_board (square i).
Proof.
  intros H k. apply (proj1 (on_board_iff i)) with (k := k) in H. unfold GameSpec.square. rewrite get_vmap. pose proof (mlen_pos k). destruct (per t k) eqn:E; [apply Z.mod_pos_bound; lia|destruct H; [discriminate|lia]].
Qed.
(** The neighbor at an offset of a cell of level 0 among cells of level 0 is the cell at that offset. *)
Lemma nbr_level0 i j h o : in_board i -> in_board j ->
  nbr m t (cell_at m i) h (cell_at m j) o <-> on_board (vadd i h) = true /\ square (vadd i h) = j /\ o = scaled (unit m) h.
Proof.
  intros Hi Hj. destruct (cell_facts i Hi) as (_ & _ & Ei & Li). destruct (cell_facts j Hj) as (_ & _ & Ej & Lj). pose proof unit_pos as P.
  unfold nbr, placed, lands, meets. rewrite Ei, Ej, Li, Lj. split.
  - intros ((G & A) & B).
    assert (o = scaled (unit m) h) as ->.
    { apply idx_ext. intros k. unfold scaled in *. rewrite get_vmap. specialize (A k). specialize (B k). rewrite get_vadd, !get_vmap in A.
      assert (exists z, get o k = z * unit m) as (z & E).
      { destruct (per t k); [destruct A as (n & A)|]; unfold glen in *; fold (unit m) in *; [exists (get j k + n * mlen m k - get i k)|exists (get j k - get i k)]; lia. }
      rewrite E in *. f_equal. nia. }
    assert (forall k, if per t k then exists n, get i k + get h k = get j k + n * mlen m k else get i k + get h k = get j k) as A'.
    { intros k. specialize (A k). unfold scaled in A. rewrite get_vadd, !get_vmap in A. unfold glen in A. fold (unit m) in A. destruct (per t k); [destruct A as (n & A); exists n; nia|nia]. }
    split; [|split; [|reflexivity]].
    + apply on_board_iff. intros k. specialize (A' k). rewrite get_vadd. destruct (per t k); [auto|right]. rewrite A'. apply Hj.
    + apply idx_ext. intros k. unfold GameSpec.square. rewrite get_vmap, get_vadd. specialize (A' k). specialize (Hj k). destruct (per t k); [|assumption]. destruct A' as (n & ->). rewrite Z.mod_add by lia. apply Z.mod_small. lia.
  - intros (A & E & ->). split; [split|].
    + apply (in_grid_k m). intros k. unfold scaled. rewrite get_vmap. specialize (Hj k). unfold glen. fold (unit m). nia.
    + intros k. unfold scaled. rewrite get_vadd, !get_vmap. rewrite <- E. unfold GameSpec.square. rewrite get_vmap, get_vadd. apply (proj1 (on_board_iff _)) with (k := k) in A. unfold glen. fold (unit m).
      destruct (per t k) eqn:Ep; [|ring]. exists ((get i k + get h k) / mlen m k). pose proof (mlen_pos k) as L. pose proof (Z.div_mod (get i k + get h k) (mlen m k) ltac:(lia)) as Q. nia.
    + intros k. unfold scaled. rewrite get_vmap. split; nia.
Qed.
Lemma scaled_inj a b : scaled (unit m) a = scaled (unit m) b -> a = b.
Proof.
  intros E. apply idx_ext. intros k. apply (f_equal (fun v => get v k)) in E. unfold scaled in E. rewrite !get_vmap in E. pose proof unit_pos. nia.
Qed.
(** a list with one entry for each neighbor of a cell holds as many live cells as there are live squares around it *)
Lemma live_entries (U : hood) (ex : Z -> bool) (l : list (Z * idx)) (val : Z -> bool) c : NoDup U -> NoDup l -> ex c = true ->
  (forall y, ex y = true <-> valid m y /\ lvl_of m y = 0) ->
  (forall y o, In (y, o) l <-> ex y = true /\ exists h, In h U /\ nbr m t c h y o) ->
  Z.of_nat (length (filter (fun e => val (fst e)) l)) = around (mlen m) (per t) U (fun j => val (cell_at m j)) (position_of m c).
Proof.
  intros NU Nl Ec Hex Hl. unfold around. f_equal. apply Hex in Ec. destruct Ec as [Vc Lc]. destruct (level0 c Vc Lc) as [Bc Cc]. set (i := position_of m c) in *.
  set (entry := fun h => (cell_at m (square (vadd i h)), scaled (unit m) h)).
  rewrite <- (map_length entry (filter _ U)). apply Permutation_length, NoDup_Permutation.
  - apply NoDup_filter. assumption.
  - apply FinFun.Injective_map_NoDup; [|apply NoDup_filter; assumption]. intros a b E. apply (f_equal snd) in E. cbn [snd] in E. apply scaled_inj in E. assumption.
  - intros [y o]. rewrite filter_In, Hl, in_map_iff. cbn [fst]. split.
    + intros ((Ey & h & Ih & N) & V). apply Hex in Ey. destruct Ey as [Vy Ly]. destruct (level0 y Vy Ly) as [By Cy]. rewrite <- Cc, <- Cy in N. apply (nbr_level0 _ _ _ _ Bc By) in N. destruct N as (A & E & ->).
      exists h. split; [unfold entry; fold i in E; rewrite E, Cy; reflexivity|]. apply filter_In. split; [assumption|]. unfold alive. fold i in A, E. rewrite A, E, Cy. assumption.
    + intros (h & E & I). apply filter_In in I. destruct I as [Ih A]. unfold alive in A. apply andb_prop in A. destruct A as [A V]. unfold entry in E. injection E as <- <-. split; [|assumption].
      pose proof (square_on_board _ A) as B. destruct (cell_facts _ B) as (F1 & F2 & _). split; [apply Hex; auto|]. exists h. split; [assumption|]. rewrite <- Cc. apply (nbr_level0 _ _ _ _ Bc B). auto.
Qed.
End Uniform.
