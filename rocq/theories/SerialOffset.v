(** C84: the rest of tests/poisson/poisson1d.cpp: shifting a parallel solution to 0 in the last cell and comparing it with
    the serial one. *)
From Verif Require Import U64 MapModel MapSpec MapProofs MapFamily MapProps HoodModel MeshModel
  MeshSpec MeshBase HoodProps MeshWalk MeshFind MeshKids MeshItem MeshCheck MeshTo MeshNear MeshFace
  Sets RefineModel RefineGeo RefineInv RefineSpread RefineMerge RefineFold RefineExec RefineStop RefineNear
  BalanceModel RefineReqs Create Balance History HistProps CommitProps BalProps LoadCells HistExamples CommModel CommInv CommProps CommViews CommMore CommExamples Stages StageUpdate ProgramModel ProgramProps
  AdvectModel AdvectSum PoissonModel PoissonRef PoissonCache PoissonProps PoissonGeo PoissonRun PoissonCases SerialRing.
From Verif Require SerialModel SerialProps.
From Coq Require Import QArith Qcanon.
Open Scope Z_scope.

(** ** The code *)
Section Code.
(** ranks of processes, local_cells() of every process *)
Context (procs : list Z) (own : Z -> list Z).
(** process with the last cell: every process gives its rank if it has the cell, otherwise 0, and the sum is taken:
    poisson1d.cpp:94-99 *)
Definition proc_local (last r : Z) : Z := if mem last (own r) then r else 0.
Definition proc_with_last (last : Z) : Z := fold_left (fun a r => a + proc_local last r) procs 0.
(** value that a process would tell to others, None is abort(): poisson1d.cpp:102-112 *)
Definition to_tell (last : Z) (w : world) (r : Z) : option Qc :=
  if mem last (own r) then match w r last with Some d => Some (sol d) | None => None end else Some 0%Qc.
(** the loop over local cells: poisson1d.cpp:118-120 *)
Definition shifted (u : Qc) (cells : list Z) (s : memory) : memory :=
  fold_left (fun s c => match s c with Some d => put s c (set_sol d (sol d - u)%Qc) | None => s end) cells s.
(** offset_solution: poisson1d.cpp:88-122. None if some process aborts or the root of MPI_Bcast is not a process. *)
Definition offset_solution (last : Z) (w : world) : option world :=
  if forallb (fun r => match to_tell last w r with Some _ => true | None => false end) procs && mem (proc_with_last last) procs then
    match to_tell last w (proc_with_last last) with
    | Some u => Some (fun r => if mem r procs then shifted u (own r) (w r) else w r)
    | None => None
    end
  else None.
(** std::pow(fabs(.), p_of_norm) and std::pow(., 1 / p_of_norm) *)
Context (pw root : Qc -> Qc).
(** get_p_norm of one process before MPI_Allreduce: poisson1d.cpp:52-55; None is std::out_of_range from get_solution.
    grid.local_cells() always has data, [look] gives it. *)
Definition local_norm (ref : SerialModel.serial) (s : memory) (cells : list Z) : option Qc :=
  fold_left (fun a c => match a, SerialModel.get_solution ref (Z.to_nat (c - 1)) with
    | Some a, Some y => Some (a + pw (sol (look s c) - y))%Qc
    | _, _ => None end) cells (Some 0%Qc).
(** get_p_norm with the serial solver: poisson1d.cpp:47-62 *)
Definition get_p_norm (ref : SerialModel.serial) (w : world) : option Qc :=
  option_map root (fold_left (fun a r => match a, local_norm ref (w r) (own r) with Some a, Some b => Some (a + b)%Qc | _, _ => None end) procs (Some 0%Qc)).
End Code.

(** ** Shifting *)
Lemma mem_true c l : mem c l = true <-> In c l.
Proof. unfold mem. rewrite existsb_exists. split; [intros (y & I & E); apply Z.eqb_eq in E; subst; assumption|intros I; exists c; split; [assumption|apply Z.eqb_refl]]. Qed.
Lemma shifted_out u cells : forall s c, ~ In c cells -> shifted u cells s c = s c.
Proof.
  induction cells as [|b cells IH]; intros s c N; [reflexivity|]. unfold shifted in *. cbn [fold_left]. cbn [In] in N. rewrite IH by tauto. destruct (s b); [|reflexivity]. unfold put. destruct (c =? b) eqn:E; [|reflexivity]. apply Z.eqb_eq in E. subst. tauto.
Qed.
Lemma shifted_in u cells : NoDup cells -> forall s c, In c cells -> shifted u cells s c = option_map (fun d => set_sol d (sol d - u)%Qc) (s c).
Proof.
  induction cells as [|b cells IH]; intros D s c I; [destruct I|]. inversion D as [|? ? Nb D']; subst. unfold shifted in *. cbn [fold_left]. destruct I as [->|I].
  - change (shifted u cells (match s c with Some d => put s c (set_sol d (sol d - u)%Qc) | None => s end) c = option_map (fun d => set_sol d (sol d - u)%Qc) (s c)). rewrite shifted_out by assumption. destruct (s c) as [d|] eqn:E; [|rewrite E; reflexivity]. unfold put. rewrite Z.eqb_refl. reflexivity.
  - rewrite IH by assumption. f_equal. destruct (s b); [|reflexivity]. unfold put. destruct (c =? b) eqn:E; [|reflexivity]. apply Z.eqb_eq in E. subst. contradiction.
Qed.
Section Shift.
Context (procs : list Z) (own : Z -> list Z) (Hp : NoDup procs) (Hd : forall r, In r procs -> NoDup (own r)).
Context (H1 : forall r q c, In r procs -> In q procs -> In c (own r) -> In c (own q) -> r = q).
Lemma root_is last q : In q procs -> In last (own q) -> proc_with_last procs own last = q.
Proof.
  intros Iq Il. unfold proc_with_last. assert (forall l a, NoDup l -> (forall r, In r l -> In r procs) -> fold_left (fun a r => a + proc_local own last r) l a = a + if mem q l then q else 0) as F.
  { induction l as [|r l IH]; intros a D Sub; [cbn; lia|]. inversion D as [|? ? Nr D']; subst. cbn [fold_left]. rewrite IH by (assumption || (intros; apply Sub; right; assumption)). unfold proc_local. destruct (mem last (own r)) eqn:E.
    - apply mem_true in E. assert (r = q) as -> by (apply (H1 r q last); try assumption; apply Sub; left; reflexivity). assert (mem q (q :: l) = true) as -> by (apply mem_true; left; reflexivity). destruct (mem q l) eqn:M; [apply mem_true in M; contradiction|]. lia.
    - assert (mem q (r :: l) = mem q l) as ->; [|lia]. unfold mem. cbn [existsb]. destruct (q =? r) eqn:Q; [|reflexivity]. apply Z.eqb_eq in Q. subst. apply mem_true in Il. congruence. }
  rewrite F by auto. apply mem_true in Iq. rewrite Iq. lia.
Qed.
Lemma root_none last : (forall q, In q procs -> ~ In last (own q)) -> proc_with_last procs own last = 0.
Proof.
  intros N. unfold proc_with_last. assert (forall l, (forall r, In r l -> In r procs) -> fold_left (fun a r => a + proc_local own last r) l 0 = 0) as F; [|apply F; auto].
  induction l as [|r l IH]; intros Sub; [reflexivity|]. cbn [fold_left]. unfold proc_local at 2. destruct (mem last (own r)) eqn:E; [apply mem_true in E; destruct (N r (Sub r (or_introl eq_refl)) E)|]. apply IH. intros; apply Sub; right; assumption.
Qed.
(** The value of the process that has the last cell is taken away on all processes from all their cells and from nothing
    else; nobody aborts. *)
Theorem c84_offset last q d w : In q procs -> In last (own q) -> w q last = Some d ->
  exists w', offset_solution procs own last w = Some w' /\
    (forall r c e, In r procs -> In c (own r) -> w r c = Some e -> w' r c = Some (set_sol e (sol e - sol d)%Qc)) /\
    (forall r c, ~ In c (own r) -> w' r c = w r c) /\
    exists e, w' q last = Some e /\ sol e = 0%Qc.
Proof.
  intros Iq Il Ew. assert (forallb (fun r => match to_tell own last w r with Some _ => true | None => false end) procs = true) as Al.
  { apply forallb_forall. intros r Ir. unfold to_tell. destruct (mem last (own r)) eqn:E; [|reflexivity]. apply mem_true in E. rewrite (H1 r q last Ir Iq E Il), Ew. reflexivity. }
  assert (forall r c e, In r procs -> In c (own r) -> w r c = Some e -> (if mem r procs then shifted (sol d) (own r) (w r) else w r) c = Some (set_sol e (sol e - sol d)%Qc)) as Sh.
  { intros r c e Ir Ic E. rewrite (proj2 (mem_true r procs) Ir). rewrite (shifted_in _ _ (Hd r Ir) _ _ Ic), E. reflexivity. }
  eexists. split; [|split; [|split]].
  - unfold offset_solution. rewrite Al, (root_is last q Iq Il), (proj2 (mem_true q procs) Iq). cbn [andb]. unfold to_tell. rewrite (proj2 (mem_true last (own q)) Il), Ew. reflexivity.
  - exact Sh.
  - intros r c N. cbn beta. destruct (mem r procs); [apply shifted_out; assumption|reflexivity].
  - eexists. split; [apply (Sh q last d Iq Il Ew)|]. cbn [sol set_sol]. ring.
Qed.
(** if nobody has the cell the solution stays as it was *)
Theorem c84_offset_no_cell last w : In 0 procs -> (forall q, In q procs -> ~ In last (own q)) ->
  exists w', offset_solution procs own last w = Some w' /\ forall r c, w' r c = w r c.
Proof.
  intros I0 N. assert (forall r, In r procs -> to_tell own last w r = Some 0%Qc) as T. { intros r Ir. unfold to_tell. destruct (mem last (own r)) eqn:E; [apply mem_true in E; destruct (N r Ir E)|reflexivity]. }
  eexists. split.
  - unfold offset_solution. rewrite (proj2 (forallb_forall _ _)) by (intros r Ir; rewrite (T r Ir); reflexivity). rewrite (root_none last N), (proj2 (mem_true 0 procs) I0), (T 0 I0). reflexivity.
  - intros r c. cbn beta. destruct (mem r procs) eqn:M; [|reflexivity]. apply mem_true in M. destruct (in_dec Z.eq_dec c (own r)) as [I|I]; [|apply shifted_out; assumption]. rewrite (shifted_in _ _ (Hd r M) _ _ I). destruct (w r c) as [[]|]; [|reflexivity]. cbn. unfold set_sol. cbn. do 2 f_equal. ring.
Qed.

(** ** Norm *)
Context (pw root : Qc -> Qc) (Pw : forall a, (0 <= pw a)%Qc) (Pz : forall a, pw a = 0%Qc <-> a = 0%Qc) (Rz : forall a, root a = 0%Qc <-> a = 0%Qc).
Lemma sum_zero (a b : Qc) : (0 <= a -> 0 <= b -> a + b = 0 -> a = 0 /\ b = 0)%Qc.
Proof.
  intros Ha Hb E. assert (a = 0)%Qc as Z.
  { apply Qcle_antisym; [|assumption]. assert (a = - b)%Qc as -> by (transitivity (a + b - b)%Qc; [ring|rewrite E; ring]). apply Qcopp_le_compat in Hb. exact Hb. }
  split; [assumption|]. rewrite Z in E. transitivity (0 + b)%Qc; [ring|assumption].
Qed.
Lemma sum_nonneg (a b : Qc) : (0 <= a -> 0 <= b -> 0 <= a + b)%Qc.
Proof. intros Ha Hb. apply (Qcle_trans _ (0 + 0)); [apply Qcle_refl|]. apply Qcplus_le_compat; assumption. Qed.
Section One.
Context {X : Type} (F : X -> option Qc).
Definition step (a : option Qc) (y : X) : option Qc := match a, F y with Some a, Some b => Some (a + b)%Qc | _, _ => None end.
Lemma step_none l : fold_left step l None = None. Proof. induction l; [reflexivity|assumption]. Qed.
Lemma step_zero l : (forall y, In y l -> exists b, F y = Some b /\ (0 <= b)%Qc) -> forall a, (0 <= a)%Qc ->
  exists t, fold_left step l (Some a) = Some t /\ (0 <= t)%Qc /\ (t = 0%Qc <-> a = 0%Qc /\ forall y, In y l -> F y = Some 0%Qc).
Proof.
  induction l as [|y l IH]; intros H a Ha.
  - exists a. split; [reflexivity|]. split; [assumption|]. split; [intros; split; [assumption|intros ? []]|intros [? _]; assumption].
  - destruct (H y (or_introl eq_refl)) as (b & E & Pb). cbn [fold_left]. unfold step at 2. rewrite E. destruct (IH (fun z I => H z (or_intror I)) (a + b)%Qc (sum_nonneg a b Ha Pb)) as (t & Et & Pt & Zt). exists t. split; [assumption|]. split; [assumption|]. rewrite Zt. split.
    + intros [Zab R]. destruct (sum_zero a b Ha Pb Zab) as [-> ->]. split; [reflexivity|]. intros z [<-|I]; auto.
    + intros [-> R]. specialize (R y (or_introl eq_refl)) as Ry. rewrite E in Ry. injection Ry as ->. split; [ring|]. intros z I. apply R. right. assumption.
Qed.
End One.
(** The norm is 0 exactly when every cell has the value of the serial solver. *)
Theorem c84_norm ref w : (forall r c, In r procs -> In c (own r) -> 1 <= c <= Z.of_nat (SerialModel.size ref)) ->
  exists t, get_p_norm procs own pw root ref w = Some t /\
    (t = 0%Qc <-> forall r c, In r procs -> In c (own r) -> SerialModel.get_solution ref (Z.to_nat (c - 1)) = Some (sol (look (w r) c))).
Proof.
  intros In1. set (G := fun s c => match SerialModel.get_solution ref (Z.to_nat (c - 1)) with Some y => Some (pw (sol (look s c) - y)%Qc) | None => None end).
  assert (forall s l a, fold_left (fun a c => match a, SerialModel.get_solution ref (Z.to_nat (c - 1)) with Some a, Some y => Some (a + pw (sol (look s c) - y))%Qc | _, _ => None end) l a = fold_left (step (G s)) l a) as Gl.
  { intros s. induction l as [|c l IH]; intros a0; [reflexivity|]. cbn [fold_left]. rewrite IH. f_equal. unfold step, G. destruct a0, (SerialModel.get_solution ref (Z.to_nat (c - 1))); reflexivity. }
  assert (forall r, In r procs -> exists b, local_norm pw ref (w r) (own r) = Some b /\ (0 <= b)%Qc /\ (b = 0%Qc <-> forall c, In c (own r) -> SerialModel.get_solution ref (Z.to_nat (c - 1)) = Some (sol (look (w r) c)))) as Lo.
  { intros r Ir. assert (forall c, In c (own r) -> exists y, SerialModel.get_solution ref (Z.to_nat (c - 1)) = Some y) as Gs.
    { intros c Ic. specialize (In1 r c Ir Ic). unfold SerialModel.get_solution. rewrite (proj2 (Nat.ltb_lt _ _)) by lia. eexists. reflexivity. }
    destruct (step_zero (G (w r)) (own r)) with (a := 0%Qc) as (b & E & Pb & Zb); [intros c Ic; destruct (Gs c Ic) as (y & Ey); unfold G; rewrite Ey; eexists; split; [reflexivity|apply Pw]|apply Qcle_refl|].
    exists b. split; [unfold local_norm; rewrite Gl; assumption|]. split; [assumption|]. rewrite Zb. split.
    - intros [_ A] c Ic. specialize (A c Ic). unfold G in A. destruct (Gs c Ic) as (y & Ey). rewrite Ey in *. injection A as A. apply (proj1 (Pz _)) in A. f_equal. transitivity (y + (sol (look (w r) c) - y))%Qc; [rewrite A; ring|ring].
    - intros A. split; [reflexivity|]. intros c Ic. unfold G. rewrite (A c Ic). f_equal. apply Pz. ring. }
  destruct (step_zero (fun r => local_norm pw ref (w r) (own r)) procs) with (a := 0%Qc) as (t & E & Pt & Zt); [intros r Ir; destruct (Lo r Ir) as (b & Eb & Pb & _); exists b; auto|apply Qcle_refl|].
  exists (root t). split; [unfold get_p_norm; change (fold_left _ procs (Some 0%Qc)) with (fold_left (step (fun r => local_norm pw ref (w r) (own r))) procs (Some 0%Qc)); rewrite E; reflexivity|]. rewrite Rz, Zt. split.
  - intros [_ A] r c Ir Ic. destruct (Lo r Ir) as (b & Eb & _ & Zb). rewrite (A r Ir) in Eb. injection Eb as <-. apply (proj1 Zb eq_refl c Ic).
  - intros A. split; [reflexivity|]. intros r Ir. destruct (Lo r Ir) as (b & Eb & _ & Zb). rewrite Eb. f_equal. apply Zb. intros c Ic. apply (A r c Ir Ic).
Qed.
End Shift.

(** ** After shifting, every exact solution of the parallel equation is the serial one *)
Section Whole.
Context (d0 : pcell) (g : grid) (Hg : grid_ok g) (len : Z -> dim -> Qc) (Hlen : forall c k, (0 < len c k)%Qc).
Context (x : xstate (D := pcell)) (ex : Z -> bool) (v : values) (k : Z -> Z) (own cells skip : Z -> list Z) (S : setting d0 g x ex v k own cells skip).
Context (a : dim) (n : Z) (h : Qc) (Hr : row_of (g_map g) a n) (Hp : per (g_topo g) a = true) (Hh : forall c, ex c = true -> len c a = h) (Hk : forall c, ex c = true -> k c = solve_cell).
Theorem c84_offset_gives_serial (w : world) (f : Z -> Qc) s s' : SerialModel.obtained s -> SerialModel.solve s = SerialModel.Ok s' -> SerialModel.size s = Z.to_nat n -> SerialModel.dx s = h ->
  (forall r c, In r (ranks g) -> In c (own r) -> exists d, w r c = Some d /\ sol d = f c) ->
  (forall c, ex c = true -> A g len ex v k f c = SerialModel.rhs s' (Z.to_nat (c - 1))) ->
  exists w', offset_solution (ranks g) own n w = Some w' /\
    forall r c, In r (ranks g) -> In c (own r) -> exists d, w' r c = Some d /\ SerialModel.get_solution s' (Z.to_nat (c - 1)) = Some (sol d).
Proof.
  intros O Es Sz Dx W Eq. pose proof (mesh_in d0 g Hg x ex (set_reach _ _ _ _ _ _ _ _ _ S) (set_ex _ _ _ _ _ _ _ _ _ S)) as Hm.
  assert (forall r c, In r (ranks g) -> In c (own r) <-> owner_in x c = Some r) as Ow by (intros r c Ir; apply (own_owner d0 g Hg x ex v k own cells skip S r c); assumption).
  assert (ex n = true) as En by (apply (ex_row (g_map g) (g_topo g) (g_len g) ex Hm a n Hr); pose proof (n_pos (g_map g) (g_topo g) (g_len g) ex Hm a n Hr); lia).
  destruct (owner_in x n) as [q|] eqn:Eo; [|apply (ex_owner d0 g x ex v k own cells skip S n) in En; congruence].
  assert (In q (ranks g)) as Iq by (apply (owner_rank d0 g Hg x ex v k own cells skip S n q Eo)). pose proof (proj2 (Ow q n Iq) Eo) as Il. destruct (W q n Iq Il) as (d & Ed & Sd).
  assert (forall r, In r (ranks g) -> NoDup (own r)) as Nd by (intros r Ir; apply (set_own _ _ _ _ _ _ _ _ _ S r Ir)).
  assert (NoDup (ranks g)) as Nr by (unfold ranks; apply FinFun.Injective_map_NoDup; [intros i j; lia|apply seq_NoDup]).
  destruct (c84_offset (ranks g) own Nr Nd) with (last := n) (q := q) (d := d) (w := w) as (w' & Ew & Sh & _); [intros r r' c Ir Ir' I I'; apply (Ow r c Ir) in I; apply (Ow r' c Ir') in I'; congruence|assumption|assumption|assumption|].
  exists w'. split; [assumption|]. intros r c Ir Ic. destruct (W r c Ir Ic) as (e & Ee & Se). eexists. split; [apply (Sh r c e Ir Ic Ee)|]. cbn [sol set_sol]. rewrite Se, Sd.
  apply (c84_same_as_serial d0 g Hg len Hlen x ex v k own cells skip S a n h Hr Hp Hh Hk (fun c => (f c - f n)%Qc) s s' O Es Sz Dx); [|ring|apply (ex_owner d0 g x ex v k own cells skip S c); rewrite (proj1 (Ow r c Ir) Ic); discriminate].
  intros y Ey. rewrite <- (Eq y Ey). rewrite !(c84_parallel_operator d0 g Hg len Hlen x ex v k own cells skip S a n h Hr Hp Hh Hk _ y Ey). f_equal. ring.
Qed.
End Whole.

(** ** Four cells along y on two processes: the solution that is found has 1/2 in the last cell, which is taken away *)
Definition charges2 : list (xstep (D := pcell)) := [XDo (Plain (Write 0 2 (plain 1 0 0 0))); XDo (Plain (Write 1 4 (plain (- (1)) 0 0 0)))].
Example c84_example_offset : exists x w w' s s1 s2 s3, xreachable pz ring_y x /\ call_solve ring_y lim 3 all_four none x = Some w /\
  sol_of (Some w) 1 4 = Some (Q2Qc (1 # 2)) /\ offset_solution (ranks ring_y) (the_own ring_y x) 4 w = Some w' /\
  map (fun c => sol_of (Some w') (if c <? 3 then 0 else 1) c) [1; 2; 3; 4] = [Some (Q2Qc (- 1 # 2)); Some (Q2Qc (- 1 # 1)); Some (Q2Qc (- 1 # 2)); Some 0%Qc] /\
  SerialModel.initialize 4 1 = SerialModel.Ok s /\ SerialModel.set_rhs s 1 1 = SerialModel.Ok s1 /\ SerialModel.set_rhs s1 3 (- (1)) = SerialModel.Ok s2 /\ SerialModel.solve s2 = SerialModel.Ok s3 /\
  map (fun i => option_map this (SerialModel.get_solution s3 i)) [0; 1; 2; 3]%nat = [Some (- 1 # 2); Some (- 1 # 1); Some (- 1 # 2); Some 0]%Q.
Proof.
  destruct (xgo_holds pz ring_y charges2 (fun x => match call_solve ring_y lim 3 all_four none x with Some w => has_sol (Some w) 1 4 (Q2Qc (1 # 2)) &&
    (let w' := offset_solution (ranks ring_y) (the_own ring_y x) 4 w in has_sol w' 0 1 (Q2Qc (- 1 # 2)) && has_sol w' 0 2 (Q2Qc (- 1 # 1)) && has_sol w' 1 3 (Q2Qc (- 1 # 2)) && has_sol w' 1 4 0%Qc) | None => false end)) as (x & R & B); [vm_compute; reflexivity|].
  destruct (call_solve ring_y lim 3 all_four none x) as [w|] eqn:E; [|discriminate]. cbv zeta in B. rewrite !andb_true_iff in B. destruct B as (B0 & ((B1 & B2) & B3) & B4). destruct (offset_solution (ranks ring_y) (the_own ring_y x) 4 w) as [w'|] eqn:E'; [|discriminate]. apply has_sol_eq in B0, B1, B2, B3, B4.
  exists x, w, w'. do 4 eexists. split; [assumption|]. split; [assumption|]. split; [assumption|]. split; [exact E'|].
  split; [cbn [map Z.ltb Z.compare Pos.compare Pos.compare_cont]; rewrite B1, B2, B3, B4; reflexivity|]. do 4 (split; [reflexivity|]). vm_compute. reflexivity.
Qed.
