(** C84: the equation of the parallel solver on a row of cells joined at its ends is the equation of the serial solver, so
    their exact solutions are the same: tests/poisson/poisson1d.cpp compares them in all three directions. *)
From Verif Require Import U64 MapModel MapSpec MapProofs MapFamily MapProps HoodModel MeshModel
  MeshSpec MeshBase HoodProps MeshWalk MeshFind MeshKids MeshItem MeshCheck MeshTo MeshNear MeshFace
  Sets RefineModel RefineGeo RefineInv RefineSpread RefineMerge RefineFold RefineExec RefineStop RefineNear
  BalanceModel RefineReqs Create Balance History HistProps CommitProps BalProps LoadCells HistExamples CommModel CommInv CommProps CommViews CommMore CommExamples Stages StageUpdate ProgramModel ProgramProps
  AdvectModel AdvectSum PoissonModel PoissonRef PoissonCache PoissonProps PoissonGeo PoissonRun PoissonCases.
From Verif Require SerialModel SerialProps.
From Coq Require Import QArith Qcanon.
Open Scope Z_scope.

(** ** A row of n cells *)
(** the grid has n cells in direction a and one in the others, as in poisson1d.cpp:172-205 *)
Definition row_of (m : mapping) (a : dim) (n : Z) : Prop := m_max m = 0 /\ mlen m a = n /\ forall j, j <> a -> mlen m j = 1.
Section Row.
Context (m : mapping) (t : topo) (nl : Z) (ex : Z -> bool) (Hm : mesh m t nl ex) (a : dim) (n : Z) (Hr : row_of m a n).
Notation faces := (faces_of m t ex).
Lemma Wf : wf m. Proof. apply Hm. Qed.
Lemma n_pos : 0 < n.
Proof. pose proof Wf as (H0 & H1 & H2 & _). destruct Hr as (_ & E & _). destruct a; cbn [mlen] in E; lia. Qed.
Lemma last_is : m_last m = n.
Proof.
  pose proof Wf as (_ & _ & _ & _ & _ & E). destruct Hr as (M & En & E1). rewrite E, M. change (0 + 1) with 1. rewrite (before_succ _ 0) by lia. rewrite before_0. unfold vol, dims_of. cbn.
  destruct a; cbn [mlen] in En; [pose proof (E1 DY ltac:(discriminate)); pose proof (E1 DZ ltac:(discriminate))|pose proof (E1 DX ltac:(discriminate)); pose proof (E1 DZ ltac:(discriminate))|pose proof (E1 DX ltac:(discriminate)); pose proof (E1 DY ltac:(discriminate))]; cbn [mlen] in *; nia.
Qed.
Lemma in_row c : ex c = true -> 1 <= c <= n /\ get (idx_of m c) a = c - 1 /\ (forall j, j <> a -> get (idx_of m c) j = 0) /\ len_of m c = 1 /\ lvl_of m c = 0.
Proof.
  intros E. pose proof (leaf_valid m ex (proj1 (proj2 (proj2 Hm))) c E) as V. pose proof (cell_level m Wf c V) as L. pose proof (cell_len m Wf c V) as Ln. pose proof Hr as (M & En & E1). assert (lvl_of m c = 0) as L0 by lia. rewrite L0, M in Ln. cbn in Ln.
  unfold valid in V. pose proof last_is as La. split; [lia|]. assert (get (idx_of m c) a = c - 1 /\ forall j, j <> a -> get (idx_of m c) j = 0) as [Ga Gj]; [|auto].
  unfold idx_of. rewrite (get_indices_cube m Wf c) by lia. destruct (cube_of_spec m Wf c) as [D I]; [lia|]. pose proof (cube_of_level m c) as Q. fold (lvl_of m c) in Q. rewrite L0 in Q.
  unfold id_of, in_dims, corner, side in *. rewrite Q in *. rewrite before_0 in I. unfold dims_of in *. cbn [d0 d1 d2 dmax ix iy iz get] in *. rewrite M in *. change (2 ^ (0 - 0)) with 1. change (2 ^ 0) with 1 in *. rewrite !Z.mul_1_r in *.
  destruct a; cbn [mlen get ix iy iz] in *; [pose proof (E1 DY ltac:(discriminate)) as A; pose proof (E1 DZ ltac:(discriminate)) as B|pose proof (E1 DX ltac:(discriminate)) as A; pose proof (E1 DZ ltac:(discriminate)) as B|pose proof (E1 DX ltac:(discriminate)) as A; pose proof (E1 DY ltac:(discriminate)) as B]; cbn [mlen] in A, B; rewrite A, B in *; (split; [nia|]); intros j Nj; destruct j; cbn [get ix iy iz]; first [contradiction|lia].
Qed.
Lemma ex_row c : 1 <= c <= n -> ex c = true.
Proof.
  intros L. assert (in_grid (dims_of m) (upd vzero a (c - 1))) as G.
  { apply in_grid_k. intros j. unfold glen. rewrite (proj1 Hr). destruct (dim_eq_dec j a) as [->|N]; [rewrite get_upd_same, (proj1 (proj2 Hr)); lia|rewrite get_upd_other, get_vzero, (proj2 (proj2 Hr) j N) by assumption; lia]. }
  destruct (leaf_at m ex (proj1 (proj2 (proj2 Hm))) _ G) as (c' & E & C). destruct (in_row c' E) as (L' & Ga & _ & Ln & _). pose proof (proj1 (covers_k m c' _) C a) as C0. clear C. rename C0 into C. rewrite get_upd_same, Ga, Ln in C. assert (c = c') as -> by lia. assumption.
Qed.
(** the cell after or before c *)
Definition beside (c : Z) (pos : bool) : Z := (if pos then c else c - 2) mod n + 1.
Lemma side_along c pos : ex c = true -> per t a = true -> on_side (faces c) a pos = [(beside c pos, dir_code a pos)].
Proof.
  intros E P. destruct (in_row c E) as (L & Ga & Gj & Ln & Lv). destruct (faces_spec m t nl ex Hm c E) as (_ & _ & F & S). specialize (S a pos). cbv zeta in S. pose proof n_pos as Np.
  destruct S as [[_ S]|[(y & S & _)|[S Q]]].
  - exfalso. apply S. intros j. destruct (dim_eq_dec j a) as [->|N]; [left; assumption|]. right. unfold front. rewrite get_upd_other, (Gj j N) by assumption. unfold glen. rewrite (proj1 Hr), (proj2 (proj2 Hr) j N). lia.
  - destruct (on_side (faces c) a pos) as [|[y' d] [|]] eqn:O; try discriminate. injection S as ->. assert (In (y, d) (on_side (faces c) a pos)) as I by (rewrite O; left; reflexivity). apply filter_In in I. destruct I as [I D]. cbn [snd] in D. apply Z.eqb_eq in D. subst d.
    f_equal. f_equal. apply F in I. destruct I as (Ey & k & pos' & D & o & [_ Pl] & K & _). apply dir_code_inj in D. destruct D as [<- <-]. destruct (in_row y Ey) as (Ly & Gy & _ & Lny & _). specialize (Pl a). rewrite P in Pl. destruct Pl as (z & Pl). rewrite get_vadd, Ga, Gy in Pl. unfold glen in Pl. rewrite (proj1 Hr), (proj1 (proj2 Hr)) in Pl. change (2 ^ 0) with 1 in Pl.
    unfold beside. rewrite Ln, Lny in K. assert ((if pos then c else c - 2) = y - 1 + z * n) as -> by (destruct pos; lia). rewrite Z.mod_add, Z.mod_small by lia. lia.
  - destruct (map fst (on_side (faces c) a pos)) as [|y r] eqn:O; [discriminate|]. specialize (Q y (or_introl eq_refl)). assert (In y (map fst (on_side (faces c) a pos))) as I by (rewrite O; left; reflexivity). apply in_map_iff in I. destruct I as ([y' d] & <- & I). apply filter_In in I. destruct I as [I _]. apply F in I. destruct I as [Ey _]. cbn [fst] in Q. destruct (in_row y' Ey) as (_ & _ & _ & _ & Ly). lia.
Qed.
Lemma side_across c k pos : ex c = true -> k <> a -> on_side (faces c) k pos = [] \/ on_side (faces c) k pos = [(c, dir_code k pos)].
Proof.
  intros E N. destruct (in_row c E) as (L & Ga & Gj & Ln & Lv). destruct (faces_spec m t nl ex Hm c E) as (_ & _ & F & S). specialize (S k pos). cbv zeta in S. pose proof n_pos as Np.
  destruct S as [[S _]|[(y & S & _)|[S Q]]].
  - left. destruct (on_side (faces c) k pos); [reflexivity|discriminate].
  - right. destruct (on_side (faces c) k pos) as [|[y' d] [|]] eqn:O; try discriminate. injection S as ->. assert (In (y, d) (on_side (faces c) k pos)) as I by (rewrite O; left; reflexivity). apply filter_In in I. destruct I as [I D]. cbn [snd] in D. apply Z.eqb_eq in D. subst d.
    f_equal. f_equal. apply F in I. destruct I as (Ey & k' & pos' & D & o & [_ Pl] & _ & J). apply dir_code_inj in D. destruct D as [<- <-]. destruct (in_row y Ey) as (Ly & Gy & _ & Lny & _). specialize (Pl a). specialize (J a (fun e => N (eq_sym e))). rewrite Ln, Lny in J. rewrite get_vadd, Ga, Gy in Pl. unfold glen in Pl. rewrite (proj1 Hr), (proj1 (proj2 Hr)) in Pl. change (2 ^ 0) with 1 in Pl.
    destruct (per t a); [|lia]. destruct Pl as (z & Pl). assert (z = 0) as -> by nia. lia.
  - destruct (map fst (on_side (faces c) k pos)) as [|y r] eqn:O; [discriminate|]. specialize (Q y (or_introl eq_refl)). assert (In y (map fst (on_side (faces c) k pos))) as I by (rewrite O; left; reflexivity). apply in_map_iff in I. destruct I as ([y' d] & <- & I). apply filter_In in I. destruct I as [I _]. apply F in I. destruct I as [Ey _]. cbn [fst] in Q. destruct (in_row y' Ey) as (_ & _ & _ & _ & Ly). lia.
Qed.
End Row.

(** ** The equation *)
Lemma two_is : two = (1 + 1)%Qc. Proof. apply Qc_is_canon. reflexivity. Qed.
Lemma halves h : (h / two + h / two = h)%Qc.
Proof. transitivity (h * (two * / two))%Qc; [unfold Qcdiv; rewrite two_is; ring|]. rewrite Qcmult_inv_r by discriminate. ring. Qed.
Lemma both_factors q h : (q <> 0 -> h <> 0 -> q / (h * (q * h)) = 1 / (h * h))%Qc.
Proof. intros. field. auto. Qed.
Lemma both_factors' q h : (q <> 0 -> h <> 0 -> - q / (- h * (q * h)) = 1 / (h * h))%Qc.
Proof. intros Hq Hh. assert (- h <> 0)%Qc as N by (intros Q; apply Hh; rewrite <- (Qcopp_involutive h), Q; reflexivity). field. repeat split; assumption. Qed.
Section Equation.
Context (d0 : pcell) (g : grid) (Hg : grid_ok g) (len : Z -> dim -> Qc) (Hlen : forall c k, (0 < len c k)%Qc).
Context (x : xstate (D := pcell)) (ex : Z -> bool) (v : values) (k : Z -> Z) (own cells skip : Z -> list Z) (S : setting d0 g x ex v k own cells skip).
Context (a : dim) (n : Z) (h : Qc) (Hr : row_of (g_map g) a n) (Hp : per (g_topo g) a = true) (Hh : forall c, ex c = true -> len c a = h) (Hk : forall c, ex c = true -> k c = solve_cell).
Notation faces := (faces_of (g_map g) (g_topo g) ex).
Lemma Hmesh : mesh (g_map g) (g_topo g) (g_len g) ex. Proof. apply (mesh_in d0 g Hg x ex); apply S. Qed.
Lemma face_ex c e : ex c = true -> In e (faces c) -> ex (fst e) = true.
Proof. intros E I. destruct e as [y d]. apply (faces_sym (g_map g) (g_topo g) (g_len g) ex Hmesh c y d E I). Qed.
Lemma all_used c : ex c = true -> nbrs g ex k c = faces c.
Proof.
  intros E. unfold nbrs. assert (forall l, (forall e, In e l -> In e (faces c)) -> filter (fun e => negb (k (fst e) =? skip_cell)) l = l) as F; [|apply F; auto].
  induction l as [|e l IH]; intros H; [reflexivity|]. cbn [filter]. rewrite (Hk (fst e)) by (apply (face_ex c); [assumption|apply H; left; reflexivity]). cbn. rewrite IH; [reflexivity|]. intros y I. apply H. right. assumption.
Qed.
(** in every cell the equation has the second difference along the row, whatever the lengths in the other directions *)
Theorem c84_parallel_operator f c : ex c = true ->
  A g len ex v k f c = ((f (beside n c true) - (1 + 1) * f c + f (beside n c false)) / (h * h))%Qc.
Proof.
  intros E. pose proof (side_along (g_map g) (g_topo g) (g_len g) ex Hmesh a n Hr c) as Sa. pose proof (side_across (g_map g) (g_topo g) (g_len g) ex Hmesh a n Hr c) as Sx.
  assert (forall pos, In (beside n c pos, dir_code a pos) (faces c)) as Ia by (intros pos; assert (In (beside n c pos, dir_code a pos) (on_side (faces c) a pos)) as I by (rewrite Sa by assumption; left; reflexivity); apply filter_In in I; apply I).
  assert (solved g ex k c) as Sc. { split; [apply Hk, E|]. exists (beside n c true), (dir_code a true). split; [apply Ia|]. rewrite (Hk (beside n c true)) by (apply (face_ex c (_, _) E (Ia true))). discriminate. }
  assert (clean g ex k c) as Cl. { intros y y' d I _ K. rewrite (Hk y) in K by (apply (face_ex c (_, _) E I)). discriminate. }
  destruct (c77_operator d0 g Hg len Hlen x ex v k own cells skip S f c E Sc Cl) as (Eq & None_ & _). rewrite Eq. rewrite (all_used c E) in *.
  assert (forall j pos, j <> a -> (face_factor len c (faces c) j pos * (mean f (on_side (faces c) j pos) - f c) = 0)%Qc) as X.
  { intros j pos N. destruct (Sx j pos E N) as [Q|Q]; [rewrite (None_ j pos Q)|rewrite Q; cbn [mean fst]]; ring. }
  assert (0 < h)%Qc as Ph by (rewrite <- (Hh c E); apply Hlen). assert (h <> 0)%Qc as Nh by (intros Q; rewrite Q in Ph; apply (Qclt_not_eq _ _ Ph); reflexivity).
  assert (two <> 0)%Qc as N2 by discriminate.
  assert (forall pos, offset len c (faces c) a pos = if pos then h else (- h)%Qc) as Of.
  { intros pos. rewrite offset_side, (Sa pos E Hp). cbn [fold_left fst]. rewrite (Hh c E), (Hh (beside n c pos)) by (apply (face_ex c (_, _) E (Ia pos))). rewrite halves. destruct pos; ring. }
  assert (forall pos, face_factor len c (faces c) a pos = (1 / (h * h))%Qc) as Ff.
  { intros pos. unfold face_factor, total_offset. rewrite exists_side, (Sa pos E Hp), !Of. assert (h - - h = two * h)%Qc as -> by (rewrite two_is; ring). destruct pos; [apply both_factors|apply both_factors']; assumption. }
  assert (forall pos, (face_factor len c (faces c) a pos * (mean f (on_side (faces c) a pos) - f c) = 1 / (h * h) * (f (beside n c pos) - f c))%Qc) as Y by (intros pos; rewrite Ff, (Sa pos E Hp); reflexivity).
  unfold over_sides. clear - X Y Nh. destruct a; rewrite !Y, !X by discriminate; field; assumption.
Qed.
(** Exact solutions of the parallel equation that vanish in the last cell are what the serial solver gives for the same
    right hand side: cell c is index c - 1. *)
Theorem c84_same_as_serial (f : Z -> Qc) s s' : SerialModel.obtained s -> SerialModel.solve s = SerialModel.Ok s' -> SerialModel.size s = Z.to_nat n -> SerialModel.dx s = h ->
  (forall c, ex c = true -> A g len ex v k f c = SerialModel.rhs s' (Z.to_nat (c - 1))) -> f n = 0%Qc ->
  forall c, ex c = true -> SerialModel.get_solution s' (Z.to_nat (c - 1)) = Some (f c).
Proof.
  intros O Es Sz Dx Eq Fn c Ec. assert (0 < n) as Np by (apply (n_pos (g_map g) (g_topo g) (g_len g) ex Hmesh a n Hr)).
  assert (SerialModel.is_initialized s = true) as I by (destruct (SerialModel.is_initialized s) eqn:Q; [reflexivity|apply SerialProps.c84_when_solve_works in Q; congruence]).
  destruct (SerialProps.c84_solves s O I) as (t & Et & Szt & _ & _ & _ & La & Ri). rewrite Es in Et. injection Et as <-. pose proof (SerialProps.obtained_ok s O I) as Ph. rewrite Dx in *. rewrite Sz in *.
  assert (h <> 0)%Qc as Nh by (intros Q; rewrite Q in Ph; apply (Qclt_not_eq _ _ Ph); reflexivity).
  set (N := Z.to_nat n) in *. set (u := fun i => f (Z.of_nat i + 1)).
  assert (SerialProps.solves_on_ring N h u (SerialModel.rhs s')) as Ru.
  { intros i L. assert (ex (Z.of_nat i + 1) = true) as Ei by (apply (ex_row (g_map g) (g_topo g) (g_len g) ex Hmesh a n Hr); lia). specialize (Eq _ Ei). replace (Z.to_nat (Z.of_nat i + 1 - 1)) with i in Eq by lia. rewrite <- Eq, (c84_parallel_operator f _ Ei).
    unfold u. assert (Z.of_nat ((i + 1) mod N) + 1 = beside n (Z.of_nat i + 1) true) as -> by (unfold beside; rewrite Nat2Z.inj_mod; unfold N; rewrite Z2Nat.id by lia; do 2 f_equal; lia).
    assert (Z.of_nat ((i + N - 1) mod N) + 1 = beside n (Z.of_nat i + 1) false) as ->; [|reflexivity].
    unfold beside. rewrite Nat2Z.inj_mod. unfold N in *. rewrite Z2Nat.id by lia. f_equal. replace (Z.of_nat (i + Z.to_nat n - 1)) with (Z.of_nat i + 1 - 2 + 1 * n) by lia. apply Z.mod_add. lia. }
  destruct (in_row (g_map g) (g_topo g) (g_len g) ex Hmesh a n Hr c Ec) as (L & _).
  assert (SerialModel.solution s' (Z.to_nat (c - 1)) = u (Z.to_nat (c - 1))) as E.
  { apply (SerialProps.c84_no_other_solution N h _ _ (SerialModel.rhs s') Nh Ri Ru); [|unfold N; lia]. rewrite La by (unfold N; lia). unfold u. replace (Z.of_nat (N - 1) + 1) with n by (unfold N; lia). symmetry. assumption. }
  unfold SerialModel.get_solution. rewrite Szt. rewrite (proj2 (Nat.ltb_lt _ _)) by (unfold N; lia). rewrite E. unfold u. do 2 f_equal. lia.
Qed.
End Equation.

(** ** Four cells along y on two processes, all directions periodic as in the program *)
Definition ring_y : grid := Grid (update_last_cell (Mapping 1 4 1 0 0)) (Topo true true true) 0 2.
Example ring_y_ok : grid_ok ring_y. Proof. apply grid_okb; vm_compute; reflexivity. Qed.
Definition all_four (r : Z) : list Z := [1; 2; 3; 4].
Definition charges : list (xstep (D := pcell)) := [XDo (Plain (Write 0 1 (plain 1 0 0 0))); XDo (Plain (Write 1 3 (plain (- (1)) 0 0 0)))].
Example c84_example_row : exists x w s s1 s2 s3, xreachable pz ring_y x /\ row_of (g_map ring_y) DY 4 /\ (forall c, the_ex x c = true -> the_kinds x all_four none c = solve_cell) /\
  call_solve ring_y lim 3 all_four none x = Some w /\ map (fun c => sol_of (Some w) (if c <? 3 then 0 else 1) c) [1; 2; 3; 4] = [Some (Q2Qc (- 1 # 2)); Some 0%Qc; Some (Q2Qc (1 # 2)); Some 0%Qc] /\
  SerialModel.initialize 4 1 = SerialModel.Ok s /\ SerialModel.set_rhs s 0 1 = SerialModel.Ok s1 /\ SerialModel.set_rhs s1 2 (- (1)) = SerialModel.Ok s2 /\ SerialModel.solve s2 = SerialModel.Ok s3 /\
  map (fun i => option_map this (SerialModel.get_solution s3 i)) [0; 1; 2; 3]%nat = [Some (- 1 # 2); Some 0; Some (1 # 2); Some 0]%Q.
Proof.
  destruct (xgo_holds pz ring_y charges (fun x => let w := call_solve ring_y lim 3 all_four none x in has_sol w 0 1 (Q2Qc (- 1 # 2)) && has_sol w 0 2 0%Qc && has_sol w 1 3 (Q2Qc (1 # 2)) && has_sol w 1 4 0%Qc)) as (x & R & B); [vm_compute; reflexivity|].
  cbv zeta in B. rewrite !andb_true_iff in B. destruct B as [[[B1 B2] B3] B4]. destruct (call_solve ring_y lim 3 all_four none x) as [w|] eqn:E; [|discriminate]. apply has_sol_eq in B1, B2, B3, B4.
  assert (row_of (g_map ring_y) DY 4) as Row by (split; [reflexivity|]; split; [reflexivity|]; intros [] N; [reflexivity|contradiction|reflexivity]).
  exists x, w. do 4 eexists. split; [assumption|]. split; [assumption|]. split.
  { intros c Ec. pose proof (c77_settings pz ring_y ring_y_ok x all_four none R) as [S _]. destruct (in_row _ _ _ _ (mesh_in pz ring_y ring_y_ok x (the_ex x) R (fun _ => eq_refl)) DY 4 Row c Ec) as (L & _).
    unfold the_kinds. unfold the_ex, exists_on in Ec. unfold owner_in. destruct (owner (x_st x) 0 c); [|discriminate]. assert (c = 1 \/ c = 2 \/ c = 3 \/ c = 4) as [->|[->|[->| ->]]] by lia; reflexivity. }
  split; [exact E|]. split; [cbn [map Z.ltb Z.compare Pos.compare Pos.compare_cont]; rewrite B1, B2, B3, B4; reflexivity|]. do 4 (split; [reflexivity|]). vm_compute. reflexivity.
Qed.
