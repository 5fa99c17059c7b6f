(** C77: solving again with cache_is_up_to_date (poisson_solve.hpp:243-248, 263-265, 541-543) gives what solving with the
    caching step gives, however often the solver was called and whatever was written to the cells in between,
    as long as types and factors are left alone and the arguments stay the same. *)
From Verif Require Import U64 MapModel MapSpec MapProofs MapFamily MapProps HoodModel MeshModel
  MeshSpec MeshBase HoodProps MeshWalk MeshFind MeshKids MeshItem MeshCheck MeshTo MeshNear MeshFace
  Sets RefineModel RefineGeo RefineInv RefineSpread RefineMerge RefineFold RefineExec RefineStop RefineNear
  BalanceModel RefineReqs Create Balance History HistProps CommitProps BalProps LoadCells HistExamples CommModel CommInv CommProps CommViews CommMore CommExamples Stages StageUpdate ProgramModel ProgramProps
  AdvectModel AdvectSum PoissonModel PoissonRef PoissonCache PoissonProps PoissonGeo PoissonRun PoissonCases.
From Coq Require Import QArith Qcanon.
Open Scope Z_scope.

(** ** Definitions *)
Section Model.
Context (ranks : list Z) (owner : Z -> option Z) (own : Z -> list Z) (len : Z -> dim -> Qc) (faces : Z -> list (Z * Z)) (level : Z -> Z).
(** solve with its last argument; cell_info is a member of the solver that the caching step fills: poisson_solve.hpp:251-522 *)
Definition solve_flag (up_to_date : bool) (pw root : Qc -> Qc) (L : limits) (max_iterations : nat) (cells skip : Z -> list Z) (info_ : Z -> list info) (w : world) : option (world * (Z -> list info)) :=
  match (if up_to_date then Some (w, info_) else cache_system ranks owner own len faces level cells skip w) with
  | None => None
  | Some (w', infos) => Some (solve_cached ranks owner infos pw root L max_iterations w', infos)
  end.
(** solve_failsafe likewise: poisson_solve.hpp:531-634 *)
Definition failsafe_flag (up_to_date : bool) (stop : Qc) (max_iterations : nat) (cells skip : Z -> list Z) (info_ : Z -> list info) (w : world) : option (world * (Z -> list info) * option Qc) :=
  match (if up_to_date then Some (w, info_) else cache_system ranks owner own len faces level cells skip w) with
  | None => None
  | Some (w', infos) => match relaxations ranks owner infos stop max_iterations w' None with Some (u, a) => Some (u, infos, a) | None => None end
  end.
(** what the user may do to the data between calls: anything but to change factors or the types of own cells *)
Definition left_alone (w u : world) : Prop := forall r c, match w r c, u r c with
  | Some d, Some e => geo e = geo d /\ (owner c = Some r -> kind e = kind d)
  | None, None => True
  | _, _ => False end.
(** the solver was used with these arguments and then any number of times with the same or with the flag *)
Inductive used_with (cells skip : Z -> list Z) (first : world -> Prop) : world -> (Z -> list info) -> Prop :=
| first_use w w' i i' pw root M n : first w -> solve_flag false pw root M n cells skip i w = Some (w', i') -> used_with cells skip first w' i'
| first_failsafe w w' i i' a stop n : first w -> failsafe_flag false stop n cells skip i w = Some (w', i', a) -> used_with cells skip first w' i'
| written w i u : used_with cells skip first w i -> left_alone w u -> used_with cells skip first u i
| used_again w i w' i' b pw root M n : used_with cells skip first w i -> solve_flag b pw root M n cells skip i w = Some (w', i') -> used_with cells skip first w' i'
| failsafe_again w i w' i' a b stop n : used_with cells skip first w i -> failsafe_flag b stop n cells skip i w = Some (w', i', a) -> used_with cells skip first w' i'.
End Model.

(** ** Which copies there are does not change *)
Definition at_same (w u : world) : Prop := forall r c, u r c = None <-> w r c = None.
Lemma as_refl w : at_same w w. Proof. intros r c. reflexivity. Qed.
Lemma as_trans a b c : at_same a b -> at_same b c -> at_same a c. Proof. intros H H' r x. rewrite (H' r x). apply H. Qed.
Lemma as_sweep F infos w : at_same w (everywhere infos F w).
Proof.
  intros r. unfold everywhere, sweep. generalize (w r). induction (infos r) as [|i l IH]; intros s c; cbn [fold_left]; [reflexivity|].
  rewrite IH. destruct (s (fst i)) as [d|] eqn:E; [|reflexivity]. destruct (kind d =? solve_cell); [|reflexivity]. unfold put. destruct (Z.eqb_spec c (fst i)) as [->|]; [rewrite E; split; discriminate|reflexivity].
Qed.
Lemma as_exchange owner s w : at_same w (exchange owner s w).
Proof. intros r c. unfold exchange. destruct (w r c) as [d|]; [|reflexivity]. destruct (owner c) as [q|]; [|reflexivity]. destruct (q =? r); [reflexivity|]. destruct (w q c); split; discriminate. Qed.
Section Same.
Context (ranks : list Z) (owner : Z -> option Z) (infos : Z -> list info) (pw root : Qc -> Qc).
Lemma as_iteration M it q : match iteration ranks owner infos pw root M it q with Ended w => at_same (q_world q) w | Again q' => at_same (q_world q) (q_world q') end.
Proof.
  unfold iteration. cbv zeta. set (w1 := with_ap0 owner infos (q_world q)). assert (at_same (q_world q) w1) as A1 by (eapply as_trans; [apply as_exchange|apply as_sweep]).
  destruct (qeqb (dot_p ranks infos w1) 0%Qc); [assumption|]. set (al := (q_dot q / dot_p ranks infos w1)%Qc). set (w2 := with_sol infos al w1). assert (at_same (q_world q) w2) as A2 by (apply (as_trans _ w1); [assumption|apply as_sweep]).
  set (b := smaller _ _). set (w3 := if b then save infos w2 else w2). assert (at_same (q_world q) w3) as A3 by (unfold w3; destruct b; [apply (as_trans _ w2); [assumption|apply as_sweep]|assumption]).
  destruct (qle (residual ranks infos pw root w2) (stop_residual M) && (min_iterations M <=? it)); [assumption|]. match goal with |- match (if ?e then _ else _) with _ => _ end => destruct e end; [assumption|].
  set (w4 := with_r infos al w3). assert (at_same (q_world q) w4) as A4 by (apply (as_trans _ w3); [assumption|]; eapply as_trans; apply as_sweep).
  destruct (qeqb (q_dot q) 0%Qc); [assumption|]. cbn [q_world]. apply (as_trans _ w4); [assumption|apply as_sweep].
Qed.
Lemma as_iterations M n : forall it q, at_same (q_world q) (iterations ranks owner infos pw root M n it q).
Proof.
  induction n as [|n IH]; intros it q; cbn [iterations]; pose proof (as_iteration M it q) as K; destruct (iteration ranks owner infos pw root M it q) as [w|q']; try assumption. apply (as_trans _ (q_world q')); [assumption|apply IH].
Qed.
Lemma as_solve M n w : at_same w (solve_cached ranks owner infos pw root M n w).
Proof. unfold solve_cached, take_best. eapply as_trans; [|apply as_sweep]. eapply as_trans; [|apply as_iterations]. unfold started. cbv zeta. cbn [q_world]. eapply as_trans; [apply as_exchange|apply as_sweep]. Qed.
Lemma as_relax w w' a : relax ranks owner infos w = Some (w', a) -> at_same w w'.
Proof. unfold relax. cbv zeta. destruct (negb _); [discriminate|]. intros E. injection E as <- _. eapply as_trans; [apply as_exchange|]. eapply as_trans; apply as_sweep. Qed.
Lemma as_relaxations stop n : forall w a w' b, relaxations ranks owner infos stop n w a = Some (w', b) -> at_same w w'.
Proof.
  induction n as [|n IH]; intros w a w' b; cbn [relaxations]; [intros E; injection E as <- <-; apply as_refl|]. destruct (match a with None => true | Some a => negb (qle a stop) end); [|intros E; injection E as <- <-; apply as_refl].
  destruct (relax ranks owner infos w) as [[u x]|] eqn:R; [|discriminate]. intros E. apply (as_trans _ u); [apply (as_relax w u x R)|apply (IH _ _ _ _ E)].
Qed.
End Same.
Lemma as_mark local kd l : forall s s' : memory, mark local kd l (Some s) = Some s' -> forall c, s' c = None <-> s c = None.
Proof.
  induction l as [|a l IH]; intros s s' E c; [injection E as <-; reflexivity|]. unfold mark in E. cbn [fold_left] in E. fold (mark local kd l) in E. destruct (local a).
  - destruct (s a) as [d|] eqn:A.
    + rewrite (IH _ _ E c). unfold put. destruct (Z.eqb_spec c a) as [->|]; [rewrite A; split; discriminate|reflexivity].
    + exfalso. clear -E. unfold mark in E. induction l; cbn [fold_left] in E; [discriminate|apply IHl; assumption].
  - apply (IH _ _ E c).
Qed.
Lemma mark_none local kd l : mark local kd l None = None.
Proof. unfold mark. induction l as [|a l IH]; [reflexivity|exact IH]. Qed.
Lemma as_classify own cells skip (s s' : memory) : classify own cells skip s = Some s' -> forall c, s' c = None <-> s c = None.
Proof.
  unfold classify. cbv zeta. set (lo := fun c => mem c own). destruct (mark lo boundary_cell own (Some s)) as [s1|] eqn:E1; [|rewrite !mark_none; discriminate]. destruct (mark lo skip_cell skip (Some s1)) as [s2|] eqn:E2; [|rewrite mark_none; discriminate].
  intros E3 c. rewrite (as_mark _ _ _ _ _ E3 c), (as_mark _ _ _ _ _ E2 c). apply (as_mark _ _ _ _ _ E1 c).
Qed.
Lemma visit_none len faces level l : fold_left (visit len faces level) l None = None.
Proof. induction l as [|a l IH]; [reflexivity|exact IH]. Qed.
Lemma as_visit len faces level l : forall s is s' is', fold_left (visit len faces level) l (Some (s, is)) = Some (s', is') -> forall c, s' c = None <-> s c = None.
Proof.
  induction l as [|a l IH]; intros s is s' is' E c; cbn [fold_left] in E; [injection E as <- _; reflexivity|].
  destruct (visit len faces level (Some (s, is)) a) as [[s1 is1]|] eqn:V; [|rewrite visit_none in E; discriminate]. rewrite (IH _ _ _ _ E c). clear E IH. unfold visit in V. destruct (s a) as [d|] eqn:A; [|discriminate].
  destruct (kind d =? skip_cell); [injection V as <- _; reflexivity|]. destruct (usable s (kind d) (faces a)) as [[|e u]|]; [injection V as <- _|injection V as <- _|discriminate]; unfold put; (destruct (Z.eqb_spec c a) as [->|]; [rewrite A; split; discriminate|reflexivity]).
Qed.
Lemma all_of_at {A} l (f : Z -> option A) base h r : all_of l f base = Some h -> In r l -> f r = Some (h r).
Proof.
  revert h. induction l as [|a l IH]; intros h E I; [destruct I|]. cbn [all_of] in E. destruct (f a) as [y|] eqn:F; [|discriminate]. destruct (all_of l f base) as [h1|]; [|discriminate]. injection E as <-. cbv beta. destruct (Z.eqb_spec r a) as [->|N]; [assumption|]. destruct I as [I|I]; [congruence|]. apply (IH h1 eq_refl I).
Qed.
Lemma as_cache ranks owner own len faces level cells skip w w' is : cache_system ranks owner own len faces level cells skip w = Some (w', is) -> forall r c, In r ranks -> w' r c = None <-> w r c = None.
Proof.
  unfold cache_system. cbv zeta. destruct (all_of ranks _ w) as [w1|] eqn:E1; [|discriminate]. match goal with |- match ?e with _ => _ end = _ -> _ => destruct e as [a|] eqn:E2; [|discriminate] end. intros E. injection E as <- _. intros r c I. rewrite (as_exchange owner GEOMETRY (fun q => fst (a q)) r c). cbv beta.
  pose proof (all_of_at _ _ _ _ r E2 I) as V. cbv beta in V. destruct (a r) as [s' is'] eqn:Ar. cbn [fst]. unfold cache_cells in V. rewrite (as_visit _ _ _ _ _ _ _ _ V c), (as_exchange owner TYPE w1 r c).
  pose proof (all_of_at _ _ _ _ r E1 I) as V1. cbv beta in V1. apply (as_classify _ _ _ _ _ V1 c).
Qed.

(** ** The state between calls *)
Section System.
Context (ranks : list Z) (own : Z -> list Z) (owner : Z -> option Z).
Context (Nr : NoDup ranks) (No : forall r, In r ranks -> NoDup (own r)).
Context (Hown : forall r c, In r ranks -> In c (own r) <-> owner c = Some r) (Hrank : forall c r, owner c = Some r -> In r ranks).
Context (L : list Z) (NL : NoDup L) (L_in : forall c, In c L <-> owner c <> None).
Context (len : Z -> dim -> Qc) (faces : Z -> list (Z * Z)) (level : Z -> Z).
Context (Hsym : forall c n d, In c L -> In (n, d) (faces c) -> In n L /\ In (c, - d) (faces n)).
Context (k : Z -> Z) (cells skip : Z -> list Z) (Hk : forall c r, owner c = Some r -> k c = given (cells r) (skip r) c).
Notation links := (glinks faces level k).
Notation live := (glive faces k).
Notation cached v := (gcached len faces k L v).
Notation sync := (sync ranks owner links pr1).
Definition fit (w : world) (infos : Z -> list info) : Prop :=
  (forall r, In r ranks -> infos r = map (fun c => (c, links c)) (filter live (own r))) /\
  (forall r c e, owner c = Some r -> In e (faces c) -> w r (fst e) <> None) /\ exists v, sync w (cached v).
Lemma steady v v' : (forall c, owner c <> None -> geo (v' c) = geo (cached v c) /\ kind (v' c) = kind (cached v c)) -> forall c, cached v' c = v' c.
Proof.
  intros H c. pose proof (H c) as Hc. unfold gcached in *. destruct (mem c L) eqn:I; [|reflexivity]. apply mem_In, L_in in I. destruct (Hc I) as [G K]. clear Hc. destruct (live c); destruct (v' c); cbn in G, K |- *; unfold set_kind, set_geo in *; cbn in *; congruence.
Qed.
Lemma sync_ext w v v' : (forall c, v' c = v c) -> sync w v -> sync w v'.
Proof. intros H (A & B & C). split; [intros r c Ir O; rewrite H; apply A; assumption|]. split; [|assumption]. intros r c d Ir N E W. rewrite H. apply (B r c d); assumption. Qed.
Lemma sync_framed w v v' : same_frame L (cached v) v' -> sync w v' -> sync w (cached v').
Proof. intros F. apply sync_ext. apply (steady v). intros c _. pose proof (proj1 (F c)) as E. unfold fixed in E. split; congruence. Qed.
Lemma fit_hand w i : fit w i -> exists v, at_hand owner faces w (cached v) /\ sync w (cached v).
Proof. intros (_ & H & v & S). exists v. split; [|assumption]. split; [intros r c O; apply S; [apply (Hrank c r O)|assumption]|assumption]. Qed.
Lemma fit_cache w v : at_hand owner faces w v -> exists w' i, cache_system ranks owner own len faces level cells skip w = Some (w', i) /\ fit w' i /\ sync w' (cached v).
Proof.
  intros H. destruct (cache_sync ranks own owner No Hown Hrank L L_in len faces level Hsym k cells skip Hk w v H) as (w' & i & E & Hi & S). exists w', i. split; [assumption|]. split; [|assumption]. split; [assumption|]. split; [|exists v; assumption].
  intros r c e O I. rewrite (as_cache _ _ _ _ _ _ _ _ _ _ _ E r (fst e) (Hrank c r O)). apply (proj2 H r c e O I).
Qed.
Lemma fit_solved w i pw root M n : fit w i -> fit (solve_cached ranks owner i pw root M n w) i.
Proof.
  intros (Hi & H & v & S). split; [assumption|]. split; [intros r c e O I; rewrite (as_solve ranks owner i pw root M n w r (fst e)); apply (H r c e O I)|].
  destruct (solve_sync ranks own owner Nr No Hown Hrank links live i Hi pw root L NL L_in M n w _ (cached_exact owner L L_in len faces k v) S) as [S' _]. eexists. apply (sync_framed _ v); [|exact S']. apply frame_solve.
Qed.
Lemma fit_relaxed w i stop n w' a : fit w i -> relaxations ranks owner i stop n w None = Some (w', a) -> fit w' i.
Proof.
  intros (Hi & H & v & S) E. split; [assumption|]. split; [intros r c e O I; rewrite (as_relaxations ranks owner i stop n w None w' a E r (fst e)); apply (H r c e O I)|].
  pose proof (relaxations_sync ranks own owner Nr No Hown Hrank links live i Hi L NL L_in stop n w _ None (cached_exact owner L L_in len faces k v) S) as K. rewrite E in K. destruct (grelaxations L links stop n (cached v) None) as [[v' b]|] eqn:G; [|contradiction]. destruct K as (K & _). exists v'. apply (sync_framed _ v); [|exact K]. apply (frame_relaxations _ _ _ _ _ _ _ _ G).
Qed.
Lemma fit_written w i u : fit w i -> left_alone owner w u -> fit u i.
Proof.
  intros (Hi & H & v & A & B & C) Q. split; [assumption|]. assert (forall r c, u r c = None <-> w r c = None) as D. { intros r c. specialize (Q r c). destruct (w r c), (u r c); try contradiction; split; congruence. }
  split; [intros r c e O I; rewrite D; apply (H r c e O I)|]. set (v' := fun c => match owner c with Some r => look (u r) c | None => v c end).
  assert (forall r c, owner c = Some r -> u r c = Some (v' c) /\ geo (v' c) = geo (cached v c) /\ kind (v' c) = kind (cached v c)) as P.
  { intros r c O. specialize (Q r c). rewrite (A r c (Hrank c r O) O) in Q. unfold v'. rewrite O. unfold look. destruct (u r c) as [e|]; [|contradiction]. destruct Q as [Q1 Q2]. auto. }
  exists v'. assert (forall c, cached v' c = v' c) as F. { apply (steady v). intros c O. destruct (owner c) as [r|] eqn:E; [|contradiction]. apply (P r c E). }
  apply (sync_ext _ v'); [assumption|]. split; [intros r c _ O; apply P; assumption|]. split.
  - intros r c e Ir N E U. specialize (Q r c). rewrite U in Q. destruct (w r c) as [d|] eqn:W; [|contradiction]. pose proof (B r c d Ir N E W) as G. destruct (owner c) as [q|] eqn:O; [|contradiction]. unfold pr1 in *. destruct (P q c O) as (_ & -> & _). destruct Q as [-> _]. assumption.
  - intros r c l Ir O I. destruct (C r c l Ir O I) as [C1 C2]. split; [assumption|]. rewrite D. assumption.
Qed.
(** with and without the flag *)
Notation solve_flag b := (solve_flag ranks owner own len faces level b).
Notation failsafe_flag b := (failsafe_flag ranks owner own len faces level b).
Lemma fit_used w i (first : world -> Prop) : (forall w, first w -> exists v, at_hand owner faces w v) -> used_with ranks owner own len faces level cells skip first w i -> fit w i.
Proof.
  intros Hf. assert (forall w i, fit w i -> forall b i0 w' i', (b = true -> i0 = i) -> (if b then Some (w, i0) else cache_system ranks owner own len faces level cells skip w) = Some (w', i') -> fit w' i') as St.
  { intros w0 i0 F b i1 w' i' Hb E. destruct b; [rewrite (Hb eq_refl) in E; injection E as <- <-; assumption|]. destruct (fit_hand w0 i0 F) as (v & H & _). destruct (fit_cache w0 _ H) as (w1 & i2 & E1 & F1 & _). rewrite E1 in E. injection E as <- <-. assumption. }
  induction 1 as [w w' i i' pw root M n H E|w w' i i' a stop n H E|w i u _ IH Q|w i w' i' b pw root M n _ IH E|w i w' i' a b stop n _ IH E].
  - destruct (Hf w H) as (v & H'). destruct (fit_cache w v H') as (w1 & i1 & E1 & F1 & _). unfold PoissonAgain.solve_flag in E. rewrite E1 in E. injection E as <- <-. apply fit_solved. assumption.
  - destruct (Hf w H) as (v & H'). destruct (fit_cache w v H') as (w1 & i1 & E1 & F1 & _). unfold PoissonAgain.failsafe_flag in E. rewrite E1 in E. destruct (relaxations ranks owner i1 stop n w1 None) as [[u x]|] eqn:R; [|discriminate]. injection E as <- <- <-. apply (fit_relaxed _ _ _ _ _ _ F1 R).
  - apply (fit_written w i u IH Q).
  - unfold PoissonAgain.solve_flag in E. destruct (if b then _ else _) as [[w1 i1]|] eqn:E1; [|discriminate]. pose proof (St w i IH b i w1 i1 (fun _ => eq_refl) E1) as F1. injection E as <- <-. apply fit_solved. assumption.
  - unfold PoissonAgain.failsafe_flag in E. destruct (if b then _ else _) as [[w1 i1]|] eqn:E1; [|discriminate]. pose proof (St w i IH b i w1 i1 (fun _ => eq_refl) E1) as F1. destruct (relaxations ranks owner i1 stop n w1 None) as [[u x]|] eqn:R; [|discriminate]. injection E as <- <- <-. apply (fit_relaxed _ _ _ _ _ _ F1 R).
Qed.
Lemma flag_solve w i pw root M n : fit w i -> exists s s' i', solve_flag true pw root M n cells skip i w = Some (s, i) /\ solve_flag false pw root M n cells skip i w = Some (s', i') /\
  (forall r, In r ranks -> i' r = i r) /\ forall r c, owner c = Some r -> s r c = s' r c.
Proof.
  intros F. pose proof F as (Hi & H & v & S). destruct (fit_hand w i F) as (v0 & _). assert (at_hand owner faces w (cached v)) as A by (split; [intros r c O; apply S; [apply (Hrank c r O)|assumption]|assumption]).
  destruct (fit_cache w _ A) as (w1 & i1 & E & F1 & S1). unfold PoissonAgain.solve_flag. rewrite E. eexists _, _, _. split; [reflexivity|]. split; [reflexivity|]. split; [intros r Ir; rewrite (Hi r Ir); apply F1; assumption|].
  assert (forall c, cached (cached v) c = cached v c) as St by (apply (steady v); auto). assert (sync w1 (cached v)) as S2 by (apply (sync_ext w1 (cached (cached v))); [symmetry; apply St|assumption]).
  destruct (solve_sync ranks own owner Nr No Hown Hrank links live i Hi pw root L NL L_in M n w _ (cached_exact owner L L_in len faces k v) S) as [(R1 & _) _].
  destruct (solve_sync ranks own owner Nr No Hown Hrank links live i1 (proj1 F1) pw root L NL L_in M n w1 _ (cached_exact owner L L_in len faces k v) S2) as [(R2 & _) _].
  intros r c O. pose proof (Hrank c r O) as Ir. rewrite (R1 r c Ir O), (R2 r c Ir O). reflexivity.
Qed.
Lemma flag_failsafe w i stop n : fit w i ->
  match failsafe_flag true stop n cells skip i w, failsafe_flag false stop n cells skip i w with
  | Some (s, j, a), Some (s', j', a') => j = i /\ a = a' /\ (forall r, In r ranks -> j' r = i r) /\ forall r c, owner c = Some r -> s r c = s' r c
  | None, None => True
  | _, _ => False
  end.
Proof.
  intros F. pose proof F as (Hi & H & v & S). assert (at_hand owner faces w (cached v)) as A by (split; [intros r c O; apply S; [apply (Hrank c r O)|assumption]|assumption]).
  destruct (fit_cache w _ A) as (w1 & i1 & E & F1 & S1). unfold PoissonAgain.failsafe_flag. rewrite E.
  assert (forall c, cached (cached v) c = cached v c) as St by (apply (steady v); auto). assert (sync w1 (cached v)) as S2 by (apply (sync_ext w1 (cached (cached v))); [symmetry; apply St|assumption]).
  pose proof (relaxations_sync ranks own owner Nr No Hown Hrank links live i Hi L NL L_in stop n w _ None (cached_exact owner L L_in len faces k v) S) as R1.
  pose proof (relaxations_sync ranks own owner Nr No Hown Hrank links live i1 (proj1 F1) L NL L_in stop n w1 _ None (cached_exact owner L L_in len faces k v) S2) as R2.
  destruct (relaxations ranks owner i stop n w None) as [[s a]|], (relaxations ranks owner i1 stop n w1 None) as [[s' a']|], (grelaxations L links stop n (cached v) None) as [[u b]|]; try contradiction; [|exact I].
  destruct R1 as ((R1 & _) & _ & ->), R2 as ((R2 & _) & _ & ->). split; [reflexivity|]. split; [reflexivity|]. split; [intros r Ir; rewrite (Hi r Ir); apply F1; assumption|].
  intros r c O. pose proof (Hrank c r O) as Ir. rewrite (R1 r c Ir O), (R2 r c Ir O). reflexivity.
Qed.
End System.

(** ** On a grid *)
Section OnGrid.
Context (d0 : pcell) (g : grid) (Hg : grid_ok g) (len : Z -> dim -> Qc) (Hlen : forall c k, (0 < len c k)%Qc).
Context (x : xstate (D := pcell)) (ex : Z -> bool) (v : values) (k : Z -> Z) (own cells skip : Z -> list Z) (S : setting d0 g x ex v k own cells skip).
Notation rank r := (In r (ranks g)).
Notation faces := (faces_of (g_map g) (g_topo g) ex).
Notation level := (get_refinement_level (g_map g)).
Notation solve_flag b := (solve_flag (ranks g) (owner_in x) own len faces level b).
Notation failsafe_flag b := (failsafe_flag (ranks g) (owner_in x) own len faces level b).
Notation used := (used_with (ranks g) (owner_in x) own len faces level cells skip (shows_world g x)).
Lemma sym_faces c n d : In c (cells_of g ex) -> In (n, d) (faces c) -> In n (cells_of g ex) /\ In (c, - d) (faces n).
Proof.
  intros I J. apply (cells_of_in g ex c (Ht d0 g Hg x ex v k own cells skip S)) in I. destruct (faces_sym (g_map g) (g_topo g) (g_len g) ex (Hm d0 g Hg x ex v k own cells skip S) c n d I J) as [A B].
  split; [apply (cells_of_in g ex n (Ht d0 g Hg x ex v k own cells skip S))|]; assumption.
Qed.
Lemma used_fit w i : used w i -> fit (ranks g) own (owner_in x) (cells_of g ex) len faces level k w i.
Proof.
  apply (fit_used (ranks g) own (owner_in x) (ranks_NoDup g) (fun r Ir => proj1 (set_own _ _ _ _ _ _ _ _ _ S r Ir)) (own_owner d0 g Hg x ex v k own cells skip S) (owner_rank d0 g Hg x ex v k own cells skip S) (cells_of g ex) (cells_of_nodup g ex) (L_owner d0 g Hg x ex v k own cells skip S) len faces level sym_faces k cells skip (given_owner d0 g Hg x ex v k own cells skip S)).
  intros w0 H. exists v. apply (hand d0 g Hg x ex v k own cells skip S w0 H).
Qed.
(** solve(cells, grid, skip, true) succeeds and does to every cell what solve(cells, grid, skip) would do *)
Theorem c77_cache_up_to_date w i pw root M n : used w i ->
  exists s s' i', solve_flag true pw root M n cells skip i w = Some (s, i) /\ solve_flag false pw root M n cells skip i w = Some (s', i') /\
  (forall r, rank r -> i' r = i r) /\ forall r c, rank r -> owns x r r c -> s r c = s' r c.
Proof.
  intros U. destruct (flag_solve (ranks g) own (owner_in x) (ranks_NoDup g) (fun r Ir => proj1 (set_own _ _ _ _ _ _ _ _ _ S r Ir)) (own_owner d0 g Hg x ex v k own cells skip S) (owner_rank d0 g Hg x ex v k own cells skip S) (cells_of g ex) (cells_of_nodup g ex) (L_owner d0 g Hg x ex v k own cells skip S) len faces level sym_faces k cells skip (given_owner d0 g Hg x ex v k own cells skip S) w i pw root M n (used_fit w i U)) as (s & s' & i' & E & E' & H & P).
  exists s, s', i'. split; [assumption|]. split; [assumption|]. split; [assumption|]. intros r c Ir O. apply P. apply (owns_owner d0 g Hg x ex v k own cells skip S r c Ir). assumption.
Qed.
(** solve_failsafe likewise *)
Theorem c77_failsafe_cache_up_to_date w i stop n : used w i ->
  match failsafe_flag true stop n cells skip i w, failsafe_flag false stop n cells skip i w with
  | Some (s, j, a), Some (s', j', a') => j = i /\ a = a' /\ (forall r, rank r -> j' r = i r) /\ forall r c, rank r -> owns x r r c -> s r c = s' r c
  | None, None => True
  | _, _ => False
  end.
Proof.
  intros U. pose proof (flag_failsafe (ranks g) own (owner_in x) (ranks_NoDup g) (fun r Ir => proj1 (set_own _ _ _ _ _ _ _ _ _ S r Ir)) (own_owner d0 g Hg x ex v k own cells skip S) (owner_rank d0 g Hg x ex v k own cells skip S) (cells_of g ex) (cells_of_nodup g ex) (L_owner d0 g Hg x ex v k own cells skip S) len faces level sym_faces k cells skip (given_owner d0 g Hg x ex v k own cells skip S) w i stop n (used_fit w i U)) as K.
  destruct (failsafe_flag true stop n cells skip i w) as [[[s j] a]|], (failsafe_flag false stop n cells skip i w) as [[[s' j'] a']|]; try exact K. destruct K as (K1 & K2 & K3 & K4). split; [assumption|]. split; [assumption|]. split; [assumption|].
  intros r c Ir O. apply K4. apply (owns_owner d0 g Hg x ex v k own cells skip S r c Ir). assumption.
Qed.
End OnGrid.

(** ** Concrete runs *)
Notation flag_ g x b M n cells i w := (solve_flag (ranks g) (owner_in x) (the_own g x) one_len (faces_of (g_map g) (g_topo g) (the_ex x)) (get_refinement_level (g_map g)) b square identity M n cells none i w).
Definition no_info (r : Z) : list info := [].
(** the user sets the right end to f = 6 *)
Definition new_end (w : world) : world := fun r c => match w r c with Some d => Some (if (c =? 4) && (r =? 1) then set_sol d (zz 6) else if (c =? 2) || (c =? 3) then set_sol d 0 else d) | None => None end.
Definition has_end (w : world) (r c : Z) (q : Qc) : bool := has_sol (Some w) r c q.
Example c77_example_cache : exists x w i u j, xreachable pz four_cells x /\ flag_ four_cells x false lim 2 middle no_info (read x) = Some (w, i) /\
  used_with (ranks four_cells) (owner_in x) (the_own four_cells x) one_len (faces_of (g_map four_cells) (g_topo four_cells) (the_ex x)) (get_refinement_level (g_map four_cells)) middle none (shows_world four_cells x) (new_end w) i /\
  flag_ four_cells x true lim 2 middle i (new_end w) = Some (u, j) /\ sol_of (Some w) 1 3 = Some (zz 2) /\ sol_of (Some u) 1 3 = Some (zz 4).
Proof.
  destruct (xgo_holds pz four_cells ends (fun x => match flag_ four_cells x false lim 2 middle no_info (read x) with
    | Some (w, i) => has_end w 1 3 (zz 2) && match flag_ four_cells x true lim 2 middle i (new_end w) with Some (u, _) => has_end u 1 3 (zz 4) | None => false end | None => false end)) as (x & R & B); [vm_compute; reflexivity|].
  destruct (flag_ four_cells x false lim 2 middle no_info (read x)) as [[w i]|] eqn:E; [|discriminate]. apply andb_true_iff in B. destruct B as [B1 B2]. destruct (flag_ four_cells x true lim 2 middle i (new_end w)) as [[u j]|] eqn:E2; [|discriminate].
  exists x, w, i, u, j. split; [assumption|]. split; [assumption|]. split; [|split; [assumption|split; apply has_sol_eq; assumption]].
  apply (written _ _ _ _ _ _ _ _ _ w); [apply (first_use _ _ _ _ _ _ _ _ _ (read x) w no_info i square identity lim 2); [intros r c _ _; reflexivity|exact E]|].
  intros r c. unfold new_end. destruct (w r c) as [d|]; [|exact I]. destruct ((c =? 4) && (r =? 1)); [split; reflexivity|]. destruct ((c =? 2) || (c =? 3)); split; reflexivity.
Qed.
(** The documentation asks only that the grid and cells_to_skip have not changed (poisson_solve.hpp:243-248).  With other
    cells to solve the flag gives another result than the caching step: here cell 3 was solved before and is not to be
    solved any more, but its value is changed. *)
Definition second (r : Z) : list Z := [2].
Theorem c77_cache_with_other_cells_refuted : exists x w i u u' j j' r c d e, xreachable pz four_cells x /\ flag_ four_cells x false lim 2 middle no_info (read x) = Some (w, i) /\
  flag_ four_cells x true lim 2 second i (new_end w) = Some (u, j) /\ flag_ four_cells x false lim 2 second i (new_end w) = Some (u', j') /\ owner_in x c = Some r /\ ~ In c (second r) /\
  u r c = Some d /\ u' r c = Some e /\ sol d <> sol e.
Proof.
  destruct (xgo_holds pz four_cells ends (fun x => match flag_ four_cells x false lim 2 middle no_info (read x) with
    | Some (w, i) => match flag_ four_cells x true lim 2 second i (new_end w), flag_ four_cells x false lim 2 second i (new_end w) with
        | Some (u, _), Some (u', _) => match u 1 3, u' 1 3 with Some d, Some e => negb (Qc_eq_bool (sol d) (sol e)) | _, _ => false end | _, _ => false end
    | None => false end && eqo (owner_in x 3) (Some 1))) as (x & R & B); [vm_compute; reflexivity|].
  apply andb_true_iff in B. destruct B as [B O]. apply eqo_iff in O. destruct (flag_ four_cells x false lim 2 middle no_info (read x)) as [[w i]|] eqn:E; [|discriminate].
  destruct (flag_ four_cells x true lim 2 second i (new_end w)) as [[u j]|] eqn:E2; [|discriminate]. destruct (flag_ four_cells x false lim 2 second i (new_end w)) as [[u' j']|] eqn:E3; [|discriminate].
  destruct (u 1 3) as [d|] eqn:U; [|discriminate]. destruct (u' 1 3) as [e|] eqn:U'; [|discriminate]. exists x, w, i, u, u', j, j', 1, 3, d, e. repeat (split; [assumption|]).
  split; [intros [F|[]]; discriminate|]. split; [assumption|]. split; [assumption|]. apply q_neq, negb_true_iff, B.
Qed.
