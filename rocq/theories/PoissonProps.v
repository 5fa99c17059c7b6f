(** What the Poisson solver computes: facts about the reference of PoissonRef.v. *)
From Verif Require Import U64 MapModel MapSpec HoodModel MeshModel MeshFace Sets RefineModel CommModel Stages RefineFold AdvectModel AdvectSum PoissonModel PoissonRef PoissonCache.
From Coq Require Import QArith Qcanon Permutation.
Open Scope Z_scope.

(** ** Numbers *)
Lemma qeqb_spec a b : qeqb a b = true <-> a = b.
Proof. unfold qeqb. split; [apply Qc_eq_bool_correct|intros ->; unfold Qc_eq_bool; destruct (Qc_eq_dec b b); congruence]. Qed.
Lemma qle_spec a b : qle a b = true <-> (a <= b)%Qc.
Proof. unfold qle. rewrite Qle_bool_iff. reflexivity. Qed.
Lemma qle_not a b : qle a b = false <-> (b < a)%Qc.
Proof. rewrite <- Bool.not_true_iff_false, qle_spec. split; [apply Qcnot_le_lt|apply Qclt_not_le]. Qed.
Lemma two_pos : (0 < two)%Qc. Proof. reflexivity. Qed.
Lemma two_nz : two <> 0%Qc. Proof. discriminate. Qed.
Lemma four_nz : four <> 0%Qc. Proof. discriminate. Qed.

(** ** The operator *)
(** the matrix element between a cell and one of its neighbors *)
Definition weight (q : geom) (l : link) : Qc := shared (factor q (snd (fst l))) (snd l).
Definition A_at (q : geom) (ls : list link) (here : Qc) (f : Z -> Qc) : Qc := (g_scale q * here + qsum (map (fun l => weight q l * f (fst (fst l))) ls))%Qc.
Lemma A_dot_sum get ls s d : A_dot get ls s d = A_at (geo d) ls (get d) (fun n => get (s n)).
Proof. unfold A_dot, A_at. rewrite (fold_plus (fun l : link => (shared (factor (geo d) (snd (fst l))) (snd l) * get (s (fst (fst l))))%Qc)). reflexivity. Qed.
Lemma fold_minus {A} (f : A -> Qc) l : forall a, fold_left (fun a x => (a - f x)%Qc) l a = (a - qsum (map f l))%Qc.
Proof. induction l as [|x l IH]; intros a; cbn [fold_left map]; [rewrite qsum_nil; ring|]. rewrite IH, qsum_cons. ring. Qed.
Lemma first_sum ls s d : first_residual ls s d = (rhs d - A_at (geo d) ls (sol d) (fun n => sol (s n)))%Qc.
Proof. unfold first_residual, A_at. rewrite (fold_minus (fun l : link => (shared (factor (geo d) (snd (fst l))) (snd l) * sol (s (fst (fst l))))%Qc)). unfold weight, scale. ring. Qed.
Lemma qsum_ext {A} (f h : A -> Qc) l : (forall a, In a l -> f a = h a) -> qsum (map f l) = qsum (map h l).
Proof. intros H. f_equal. apply map_ext_in. assumption. Qed.
Lemma A_at_add q ls a b f h : A_at q ls (a + b)%Qc (fun n => (f n + h n)%Qc) = (A_at q ls a f + A_at q ls b h)%Qc.
Proof.
  unfold A_at. assert (qsum (map (fun l : link => (weight q l * (f (fst (fst l)) + h (fst (fst l))))%Qc) ls) = (qsum (map (fun l : link => weight q l * f (fst (fst l))) ls) + qsum (map (fun l : link => weight q l * h (fst (fst l))) ls))%Qc) as ->; [|ring].
  induction ls as [|l ls IH]; cbn [map]; [rewrite !qsum_nil; ring|]. rewrite !qsum_cons, IH. ring.
Qed.
Lemma A_at_scale q ls a b f : A_at q ls (a * b)%Qc (fun n => (a * f n)%Qc) = (a * A_at q ls b f)%Qc.
Proof.
  unfold A_at. assert (qsum (map (fun l : link => (weight q l * (a * f (fst (fst l))))%Qc) ls) = (a * qsum (map (fun l : link => weight q l * f (fst (fst l))) ls))%Qc) as ->; [|ring].
  induction ls as [|l ls IH]; cbn [map]; [rewrite !qsum_nil; ring|]. rewrite !qsum_cons, IH. ring.
Qed.
Lemma A_at_ext q ls a f h : (forall l, In l ls -> f (fst (fst l)) = h (fst (fst l))) -> A_at q ls a f = A_at q ls a h.
Proof. intros H. unfold A_at. f_equal. apply qsum_ext. intros l I. rewrite (H l I). reflexivity. Qed.

Lemma NoDup_map_on {A B} (f : A -> B) l : (forall a b, In a l -> In b l -> f a = f b -> a = b) -> NoDup l -> NoDup (map f l).
Proof.
  induction l as [|x l IH]; intros H N; cbn [map]; [constructor|]. apply NoDup_cons_iff in N. destruct N as [Nx N]. constructor.
  - intros I. apply in_map_iff in I. destruct I as (y & E & Iy). apply Nx. rewrite <- (H y x); [assumption|right; assumption|left; reflexivity|assumption].
  - apply IH; [|assumption]. intros a b Ia Ib. apply H; right; assumption.
Qed.

Section Ref.
Context (L : list Z) (links : Z -> list link) (pw root : Qc -> Qc).
Notation gsweep := (gsweep L links).
Notation solves v c := (In c L /\ kind (v c) = solve_cell).
(** A applied to a field of all cells *)
Definition A_of (v : values) (f : Z -> Qc) (c : Z) : Qc := A_at (geo (v c)) (links c) (f c) f.

Lemma active_iff (v : values) c : mem c L && is_solve (v c) = true <-> solves v c.
Proof. rewrite Bool.andb_true_iff, mem_In. unfold is_solve. rewrite Z.eqb_eq. reflexivity. Qed.
Lemma gsweep_in F (v : values) c : solves v c -> gsweep F v c = F (links c) v (v c).
Proof. intros H. unfold PoissonRef.gsweep. rewrite (proj2 (active_iff v c) H). reflexivity. Qed.
Lemma gsweep_out F (v : values) c : ~ solves v c -> gsweep F v c = v c.
Proof. intros H. unfold PoissonRef.gsweep. destruct (mem c L && is_solve (v c)) eqn:E; [|reflexivity]. apply active_iff in E. contradiction. Qed.
Lemma solves_dec (v : values) c : solves v c \/ ~ solves v c.
Proof. rewrite <- active_iff. destruct (mem c L && is_solve (v c)); [left; reflexivity|right; discriminate]. Qed.

(** *** What does not change *)
Definition fixed (d : pcell) : Qc * geom * Z := (rhs d, geo d, kind d).
Definition same_frame (v v' : values) : Prop := forall c, fixed (v' c) = fixed (v c) /\ (~ solves v c -> v' c = v c).
Lemma frame_refl v : same_frame v v. Proof. intros c. split; reflexivity. Qed.
Lemma frame_solves (v v' : values) c : same_frame v v' -> solves v' c <-> solves v c.
Proof. intros H. destruct (H c) as [E _]. unfold fixed in E. assert (kind (v' c) = kind (v c)) as -> by congruence. reflexivity. Qed.
Lemma frame_trans a b c : same_frame a b -> same_frame b c -> same_frame a c.
Proof. intros H H' x. split; [rewrite (proj1 (H' x)); apply H|]. intros N. rewrite (proj2 (H' x)); [apply H; assumption|]. rewrite (frame_solves a b x H). assumption. Qed.
Lemma frame_sweep F v : (forall ls s d, fixed (F ls s d) = fixed d) -> same_frame v (gsweep F v).
Proof. intros H c. split; [|intros N; apply gsweep_out; assumption]. unfold PoissonRef.gsweep. destruct (mem c L && is_solve (v c)); [apply H|reflexivity]. Qed.
Lemma frame_iteration M it q : match giteration L links pw root M it q with GEnded v => same_frame (gq_values q) v | GAgain q' => same_frame (gq_values q) (gq_values q') end.
Proof.
  unfold giteration. cbv zeta. assert (same_frame (gq_values q) (gap0 L links (gq_values q))) as F1 by (apply frame_sweep; reflexivity).
  set (v1 := gap0 L links (gq_values q)) in *. destruct (qeqb (gdot_p L v1) 0%Qc); [assumption|]. set (alpha := (gq_dot q / gdot_p L v1)%Qc).
  assert (same_frame (gq_values q) (gsol L links alpha v1)) as F2 by (apply (frame_trans _ v1); [assumption|apply frame_sweep; reflexivity]). set (v2 := gsol L links alpha v1) in *.
  set (b := smaller (gresidual L pw root v2) (gq_min q)). assert (same_frame (gq_values q) (if b then gsave L links v2 else v2)) as F3. { destruct b; [|assumption]. apply (frame_trans _ v2); [assumption|apply frame_sweep; reflexivity]. }
  set (v3 := if b then gsave L links v2 else v2) in *.
  destruct (_ && _); [assumption|]. destruct (_ && _); [assumption|].
  assert (same_frame (gq_values q) (gr L links alpha v3)) as F4. { apply (frame_trans _ v3); [assumption|]. eapply frame_trans; apply frame_sweep; reflexivity. }
  destruct (qeqb (gq_dot q) 0%Qc); [assumption|]. cbn [gq_values]. apply (frame_trans _ (gr L links alpha v3)); [assumption|apply frame_sweep; reflexivity].
Qed.
Lemma frame_iterations M n : forall it q, same_frame (gq_values q) (giterations L links pw root M n it q).
Proof.
  induction n as [|n IH]; intros it q; cbn [giterations]; pose proof (frame_iteration M it q) as K; destruct (giteration L links pw root M it q) as [v|q']; try assumption. apply (frame_trans _ (gq_values q')); [assumption|apply IH].
Qed.
Lemma frame_solve M n v : same_frame v (gsolve L links pw root M n v).
Proof. unfold gsolve. eapply frame_trans; [|apply frame_sweep; reflexivity]. eapply frame_trans; [|apply frame_iterations]. unfold gstarted. cbv zeta. cbn [gq_values]. apply frame_sweep. reflexivity. Qed.
Lemma frame_relax v v' a : grelax L links v = Some (v', a) -> same_frame v v'.
Proof. unfold grelax. destruct (gscales_ok L v); cbn [negb]; [|discriminate]. cbv zeta. intros E. injection E as <- <-. apply (frame_trans _ (gjacobi L links v)); apply frame_sweep; reflexivity. Qed.
Lemma frame_relaxations stop n : forall v a v' b, grelaxations L links stop n v a = Some (v', b) -> same_frame v v'.
Proof.
  induction n as [|n IH]; intros v a v' b; cbn [grelaxations]; [intros E; injection E as <- <-; apply frame_refl|]. destruct (match a with None => true | Some a => negb (qle a stop) end); [|intros E; injection E as <- <-; apply frame_refl].
  destruct (grelax L links v) as [[w x]|] eqn:R; [|discriminate]. intros E. apply (frame_trans _ w); [apply (frame_relax v w x R)|apply (IH _ _ _ _ E)].
Qed.

(** *** The residual of the iteration is the residual of the solution *)
(** at the start and after every iteration that did not end the loop *)
Inductive met (M : limits) (v : values) : Z -> ggoing -> Prop :=
| met_start : met M v 1 (gstarted L links v)
| met_next it q q' : met M v it q -> giteration L links pw root M it q = GAgain q' -> met M v (it + 1) q'.
Lemma met_frame M v it q : met M v it q -> same_frame v (gq_values q).
Proof.
  induction 1 as [|it q q' Q IH E]; [unfold gstarted; cbv zeta; cbn [gq_values]; apply frame_sweep; reflexivity|]. pose proof (frame_iteration M it q) as K. rewrite E in K. apply (frame_trans _ (gq_values q)); assumption.
Qed.
(** neighbors that are not solved have no search direction *)
Definition quiet (v : values) : Prop := forall c l, solves v c -> In l (links c) -> ~ solves v (fst (fst l)) -> p0 (v (fst (fst l))) = 0%Qc.
Lemma quiet_frame v v' : same_frame v v' -> quiet v -> quiet v'.
Proof. intros F Q c l S I N. rewrite (frame_solves v v' c F) in S. rewrite (frame_solves v v' _ F) in N. rewrite (proj2 (F _) N). apply (Q c l S I N). Qed.
Definition residual_true (v : values) : Prop := forall c, solves v c -> r0 (v c) = (rhs (v c) - A_of v (fun n => sol (v n)) c)%Qc.
(** the solution after the next iteration *)
Definition step_length (q : ggoing) : Qc := (gq_dot q / gdot_p L (gap0 L links (gq_values q)))%Qc.
Definition next_sol (q : ggoing) (c : Z) : Qc := (sol (gq_values q c) + step_length q * p0 (gq_values q c))%Qc.

(** one iteration that does not end, field by field, on cells that are solved *)
Lemma again M it q q' : giteration L links pw root M it q = GAgain q' ->
  gdot_p L (gap0 L links (gq_values q)) <> 0%Qc /\ gq_min q' = (if smaller (gresidual L pw root (gq_values q)) (gq_min q) then Some (gresidual L pw root (gq_values q)) else gq_min q) /\
  forall c, solves (gq_values q) c -> let d := gq_values q c in let d' := gq_values q' c in
    sol d' = next_sol q c /\ r0 d' = (r0 d - step_length q * A_of (gq_values q) (fun n => p0 (gq_values q n)) c)%Qc /\
    best d' = if smaller (gresidual L pw root (gq_values q)) (gq_min q) then next_sol q c else best d.
Proof.
  unfold giteration, step_length, next_sol. cbv zeta. set (v0 := gq_values q). set (v1 := gap0 L links v0). destruct (qeqb (gdot_p L v1) 0%Qc) eqn:Ed; [discriminate|].
  assert (gdot_p L v1 <> 0%Qc) as Nd by (intros E; apply qeqb_spec in E; congruence). fold (step_length q). set (alpha := step_length q). change (gq_dot q / gdot_p L v1)%Qc with alpha.
  set (v2 := gsol L links alpha v1).
  assert (forall c, kind (v2 c) = kind (v0 c) /\ r0 (v2 c) = r0 (v0 c)) as K2.
  { intros c. unfold v2, v1, gsol, gap0, PoissonRef.gsweep. destruct (mem c L); cbn [andb]; [|split; reflexivity]. destruct (is_solve (v0 c)) eqn:S; cbn; [change (is_solve (set_ap0 (v0 c) _)) with (is_solve (v0 c))|]; rewrite S; split; reflexivity. }
  assert (gresidual L pw root v2 = gresidual L pw root v0) as Er.
  { unfold gresidual. f_equal. rewrite (filter_ext (fun c => negb (kind (v2 c) =? skip_cell)) (fun c => negb (kind (v0 c) =? skip_cell))) by (intros c; rewrite (proj1 (K2 c)); reflexivity). apply qsum_ext. intros c _. rewrite (proj2 (K2 c)). reflexivity. }
  rewrite Er. set (b := smaller (gresidual L pw root v0) (gq_min q)). set (v3 := if b then gsave L links v2 else v2).
  destruct (_ && _); [discriminate|]. destruct (_ && _); [discriminate|]. destruct (qeqb (gq_dot q) 0%Qc); [discriminate|]. intros E. injection E as <-. split; [assumption|]. cbn [gq_min gq_values]. split; [reflexivity|].
  intros c S. assert (forall F (v : values), solves v c -> gsweep F v c = F (links c) v (v c)) as G by (intros; apply gsweep_in; assumption).
  assert (v1 c = set_ap0 (v0 c) (A_dot p0 (links c) v0 (v0 c))) as E1 by (unfold v1, gap0; rewrite G by assumption; reflexivity).
  assert (solves v1 c) as S1 by (rewrite E1; exact S).
  assert (v2 c = set_sol (v1 c) (sol (v1 c) + alpha * p0 (v1 c))%Qc) as E2 by (unfold v2, gsol; rewrite G by assumption; reflexivity).
  assert (solves v2 c) as S2 by (rewrite E2; exact S1).
  assert (v3 c = if b then set_best (v2 c) (sol (v2 c)) else v2 c) as E3 by (unfold v3, gsave; destruct b; [rewrite G by assumption|]; reflexivity).
  assert (solves v3 c) as S3 by (rewrite E3; destruct b; exact S2).
  unfold gp. rewrite G.
  - unfold gr. set (v4 := gsweep (fun _ _ d => set_r0 d (r0 d - alpha * ap0 d)%Qc) v3). assert (v4 c = set_r0 (v3 c) (r0 (v3 c) - alpha * ap0 (v3 c))%Qc) as E4 by (unfold v4; rewrite G by assumption; reflexivity).
    rewrite G by (rewrite E4; exact S3). rewrite E4. cbn [sol r0 best set_p set_r1 set_r0]. rewrite E3, E2, E1. unfold A_of. rewrite <- (A_dot_sum p0 (links c) v0 (v0 c)). destruct b; cbn [sol r0 best ap0 p0 set_best set_sol set_ap0]; (split; [reflexivity|]; split; reflexivity).
  - unfold gr. set (v4 := gsweep (fun _ _ d => set_r0 d (r0 d - alpha * ap0 d)%Qc) v3). assert (v4 c = set_r0 (v3 c) (r0 (v3 c) - alpha * ap0 (v3 c))%Qc) as E4 by (unfold v4; rewrite G by assumption; reflexivity).
    rewrite G by (rewrite E4; exact S3). rewrite E4. exact S3.
Qed.

Theorem residual_met M v it q : quiet v -> met M v it q -> residual_true (gq_values q).
Proof.
  intros Q H. induction H as [|it q q' H IH E].
  - unfold gstarted. cbv zeta. cbn [gq_values]. intros c S. assert (same_frame v (gfirst L links v)) as F by (apply frame_sweep; reflexivity). rewrite (frame_solves v _ c F) in S.
    assert (forall n, sol (gfirst L links v n) = sol (v n)) as Es. { intros n. unfold gfirst, PoissonRef.gsweep. destruct (mem n L && is_solve (v n)); reflexivity. }
    unfold A_of. rewrite (A_at_ext _ _ _ (fun n => sol (gfirst L links v n)) (fun n => sol (v n))) by (intros; apply Es). rewrite Es.
    assert (rhs (gfirst L links v c) = rhs (v c) /\ geo (gfirst L links v c) = geo (v c)) as [-> ->]. { destruct (F c) as [Ef _]. unfold fixed in Ef. split; congruence. }
    unfold gfirst. rewrite gsweep_in by assumption. cbn [r0 set_p set_r1 set_r0]. rewrite first_sum. reflexivity.
  - destruct (again M it q q' E) as (_ & _ & P). pose proof (frame_iteration M it q) as F. rewrite E in F. intros c S. rewrite (frame_solves _ _ c F) in S. destruct (P c S) as (Es & Er & _). cbv zeta in *. rewrite Er, (IH c S).
    assert (rhs (gq_values q' c) = rhs (gq_values q c) /\ geo (gq_values q' c) = geo (gq_values q c)) as [-> Eg]. { destruct (F c) as [Ef _]. unfold fixed in Ef. split; congruence. }
    unfold A_of. rewrite Eg, Es. set (a := step_length q).
    rewrite (A_at_ext _ _ (next_sol q c) (fun n => sol (gq_values q' n)) (fun n => (sol (gq_values q n) + a * p0 (gq_values q n))%Qc)).
    + unfold next_sol. fold a. rewrite A_at_add, A_at_scale. ring.
    + intros l I. destruct (solves_dec (gq_values q) (fst (fst l))) as [Sn|Nn].
      * destruct (P _ Sn) as (En & _). cbv zeta in En. rewrite En. reflexivity.
      * rewrite (proj2 (F _) Nn). assert (p0 (gq_values q (fst (fst l))) = 0%Qc) as ->; [|ring]. apply (quiet_frame v (gq_values q) (met_frame M v it q H) Q c l S I Nn).
Qed.

(** *** Which of the solutions is kept *)
Definition kept (v : values) (seen : list ggoing) (q : ggoing) : Prop :=
  (gq_min q = None /\ forall c, solves v c -> best (gq_values q c) = best (v c)) /\ seen = [] \/
  exists s, In s seen /\ gq_min q = Some (gresidual L pw root (gq_values s)) /\ (forall c, solves v c -> best (gq_values q c) = next_sol s c) /\
    forall s', In s' seen -> (gresidual L pw root (gq_values s) <= gresidual L pw root (gq_values s'))%Qc.
(** the iterations of a run, in order, except for one that ends with division by zero avoided *)
Inductive trace (M : limits) (v : values) : Z -> list ggoing -> ggoing -> Prop :=
| trace_start : trace M v 1 [] (gstarted L links v)
| trace_next it seen q q' : trace M v it seen q -> giteration L links pw root M it q = GAgain q' -> trace M v (it + 1) (seen ++ [q]) q'.
Lemma trace_met M v it seen q : trace M v it seen q -> met M v it q /\ forall s, In s seen -> exists i, met M v i s.
Proof.
  induction 1 as [|it seen q q' H [IH1 IH2] E]; [split; [constructor|intros s []]|]. split; [econstructor; eassumption|]. intros s I. apply in_app_or in I. destruct I as [I|[<-|[]]]; [apply IH2; assumption|eauto].
Qed.
Lemma smaller_min seen q (s : ggoing) : gq_min q = Some (gresidual L pw root (gq_values s)) -> (forall s', In s' seen -> (gresidual L pw root (gq_values s) <= gresidual L pw root (gq_values s'))%Qc) ->
  if smaller (gresidual L pw root (gq_values q)) (gq_min q) then forall s', In s' seen -> (gresidual L pw root (gq_values q) <= gresidual L pw root (gq_values s'))%Qc
  else (gresidual L pw root (gq_values s) <= gresidual L pw root (gq_values q))%Qc.
Proof.
  intros -> H. cbn [smaller]. destruct (qle (gresidual L pw root (gq_values s)) (gresidual L pw root (gq_values q))) eqn:E; cbn [negb]; [apply qle_spec; assumption|].
  apply qle_not in E. intros s' I. apply (Qcle_trans _ (gresidual L pw root (gq_values s))); [apply Qclt_le_weak; assumption|apply H; assumption].
Qed.
(** after looking at state q, with the next solution stored if the residual got smaller *)
Lemma kept_more v seen q (B : Z -> Qc) : kept v seen q ->
  (forall c, solves v c -> B c = if smaller (gresidual L pw root (gq_values q)) (gq_min q) then next_sol q c else best (gq_values q c)) ->
  exists s, In s (seen ++ [q]) /\ (if smaller (gresidual L pw root (gq_values q)) (gq_min q) then Some (gresidual L pw root (gq_values q)) else gq_min q) = Some (gresidual L pw root (gq_values s)) /\
    (forall c, solves v c -> B c = next_sol s c) /\ forall s', In s' (seen ++ [q]) -> (gresidual L pw root (gq_values s) <= gresidual L pw root (gq_values s'))%Qc.
Proof.
  intros [[[Em _] ->]|(s & Is & Em & Eb & Hm)] HB.
  - rewrite Em in *. cbn [smaller] in *. exists q. split; [left; reflexivity|]. split; [reflexivity|]. split; [assumption|]. intros s' [<-|[]]. apply Qcle_refl.
  - pose proof (smaller_min seen q s Em Hm) as K. destruct (smaller (gresidual L pw root (gq_values q)) (gq_min q)).
    + exists q. split; [apply in_or_app; right; left; reflexivity|]. split; [reflexivity|]. split; [assumption|]. intros s' I. apply in_app_or in I. destruct I as [I|[<-|[]]]; [apply K; assumption|apply Qcle_refl].
    + exists s. split; [apply in_or_app; left; assumption|]. split; [assumption|]. split; [intros c S; rewrite (HB c S); apply Eb; assumption|]. intros s' I. apply in_app_or in I. destruct I as [I|[<-|[]]]; [apply Hm; assumption|assumption].
Qed.
Lemma kept_trace M v it seen q : trace M v it seen q -> kept v seen q.
Proof.
  induction 1 as [|it seen q q' H IH E].
  - left. split; [|reflexivity]. split; [reflexivity|]. intros c S. unfold gstarted. cbv zeta. cbn [gq_values]. unfold gfirst. rewrite gsweep_in by assumption. reflexivity.
  - right. destruct (again M it q q' E) as (_ & Em & P). rewrite Em.
    apply (kept_more v seen q (fun c => best (gq_values q' c)) IH). intros c S. rewrite <- (frame_solves v (gq_values q) c) in S by (eapply met_frame; apply (proj1 (trace_met M v it seen q H))). apply (P c S).
Qed.
(** how an iteration ends *)
Lemma ended M it q v' : giteration L links pw root M it q = GEnded v' ->
  (gdot_p L (gap0 L links (gq_values q)) = 0%Qc /\ forall c, best (v' c) = best (gq_values q c)) \/
  (gdot_p L (gap0 L links (gq_values q)) <> 0%Qc /\ forall c, solves (gq_values q) c -> best (v' c) = if smaller (gresidual L pw root (gq_values q)) (gq_min q) then next_sol q c else best (gq_values q c)).
Proof.
  unfold giteration. cbv zeta. set (v0 := gq_values q). set (v1 := gap0 L links v0).
  assert (forall c, best (v1 c) = best (v0 c)) as B1. { intros c. unfold v1, gap0, PoissonRef.gsweep. destruct (mem c L && is_solve (v0 c)); reflexivity. }
  destruct (qeqb (gdot_p L v1) 0%Qc) eqn:Ed; [intros E; injection E as <-; left; split; [apply qeqb_spec; assumption|assumption]|].
  assert (gdot_p L v1 <> 0%Qc) as Nd by (intros E; apply qeqb_spec in E; congruence). change (gq_dot q / gdot_p L v1)%Qc with (step_length q). set (alpha := step_length q).
  set (v2 := gsol L links alpha v1).
  assert (forall c, kind (v2 c) = kind (v0 c) /\ r0 (v2 c) = r0 (v0 c)) as K2.
  { intros c. unfold v2, v1, gsol, gap0, PoissonRef.gsweep. destruct (mem c L); cbn [andb]; [|split; reflexivity]. destruct (is_solve (v0 c)) eqn:S; cbn; [change (is_solve (set_ap0 (v0 c) _)) with (is_solve (v0 c))|]; rewrite S; split; reflexivity. }
  assert (gresidual L pw root v2 = gresidual L pw root v0) as Er.
  { unfold gresidual. f_equal. rewrite (filter_ext (fun c => negb (kind (v2 c) =? skip_cell)) (fun c => negb (kind (v0 c) =? skip_cell))) by (intros c; rewrite (proj1 (K2 c)); reflexivity). apply qsum_ext. intros c _. rewrite (proj2 (K2 c)). reflexivity. }
  rewrite Er. set (b := smaller (gresidual L pw root v0) (gq_min q)). set (v3 := if b then gsave L links v2 else v2).
  assert (forall c, solves v0 c -> best (v3 c) = if b then next_sol q c else best (v0 c)) as B3.
  { intros c S. assert (v1 c = set_ap0 (v0 c) (A_dot p0 (links c) v0 (v0 c))) as E1 by (unfold v1, gap0; rewrite gsweep_in by assumption; reflexivity).
    assert (solves v1 c) as S1 by (rewrite E1; exact S).
    assert (v2 c = set_sol (v1 c) (sol (v1 c) + alpha * p0 (v1 c))%Qc) as E2 by (unfold v2, gsol; rewrite gsweep_in by assumption; reflexivity).
    assert (solves v2 c) as S2 by (rewrite E2; exact S1).
    unfold v3. destruct b; [unfold gsave; rewrite gsweep_in by assumption; rewrite E2, E1; reflexivity|rewrite E2, E1; reflexivity]. }
  intros E. right. split; [assumption|]. revert E. destruct (_ && _); [intros E; injection E as <-; assumption|]. destruct (_ && _); [intros E; injection E as <-; assumption|]. destruct (qeqb (gq_dot q) 0%Qc); [|discriminate]. intros E. injection E as <-.
  intros c S. rewrite <- (B3 c S). unfold gr, PoissonRef.gsweep. destruct (mem c L && is_solve (v3 c)) eqn:E3.
  - rewrite (proj1 (Bool.andb_true_iff _ _) E3 : mem c L = true /\ is_solve (v3 c) = true) || idtac. destruct (mem c L && is_solve _); reflexivity.
  - destruct (mem c L && is_solve _); reflexivity.
Qed.
Definition outcome_of (v v' : values) (M : limits) : Prop :=
  (forall c, solves v c -> sol (v' c) = best (v c)) \/
  exists it seen q s, trace M v it seen q /\ In s (seen ++ [q]) /\ (forall c, solves v c -> sol (v' c) = next_sol s c) /\
    forall s', In s' seen -> (gresidual L pw root (gq_values s) <= gresidual L pw root (gq_values s'))%Qc.
Lemma iterations_outcome M v n : forall it seen q, trace M v it seen q -> outcome_of v (gtake L links (giterations L links pw root M n it q)) M.
Proof.
  assert (forall a c, same_frame v a -> solves v c -> sol (gtake L links a c) = best (a c)) as T. { intros a c F S. unfold gtake. rewrite gsweep_in by (rewrite (frame_solves v a c F); assumption). reflexivity. }
  induction n as [|n IH]; intros it seen q H; cbn [giterations]; pose proof (frame_iteration M it q) as F; pose proof (met_frame M v it q (proj1 (trace_met M v it seen q H))) as F0; destruct (giteration L links pw root M it q) as [w|q'] eqn:E;
    try (apply (IH (it + 1) (seen ++ [q])); econstructor; eassumption).
  1,3: assert (same_frame v w) as Fw by (apply (frame_trans _ (gq_values q)); assumption); pose proof (kept_trace M v it seen q H) as K; destruct (ended M it q w E) as [[Z0 B]|[Nz B]].
  1,3: destruct K as [[[_ Eb] _]|(s & Is & _ & Eb & Hm)]; [left; intros c S; rewrite (T w c Fw S), B; apply Eb; assumption|right; exists it, seen, q, s; split; [assumption|]; split; [apply in_or_app; left; assumption|]; split; [intros c S; rewrite (T w c Fw S), B; apply Eb; assumption|assumption]].
  1,2: destruct (kept_more v seen q (fun c => best (w c)) K) as (s & Is & _ & Eb & Hm); [intros c S; apply B; rewrite (frame_solves v _ c F0); assumption|]; right; exists it, seen, q, s; split; [assumption|]; split; [assumption|]; split; [intros c S; rewrite (T w c Fw S); apply Eb; assumption|intros s' I; apply Hm, in_or_app; left; assumption].
  assert (same_frame v (gq_values q')) as Fw by (apply (frame_trans _ (gq_values q)); assumption).
  destruct (kept_trace M v (it + 1) (seen ++ [q]) q') as [[_ Q]|(s & Is & _ & Eb & Hm)]; [econstructor; eassumption|destruct seen; discriminate|].
  right. exists it, seen, q, s. split; [assumption|]. split; [assumption|]. split; [intros c S; rewrite (T _ c Fw S); apply Eb; assumption|intros s' I; apply Hm, in_or_app; left; assumption].
Qed.
Theorem solve_outcome M n v : outcome_of v (gsolve L links pw root M n v) M.
Proof. unfold gsolve. apply (iterations_outcome M v _ 1 [] _). constructor. Qed.

(** *** solve_failsafe *)
Lemma jacobi_sum ls s d : scale d <> 0%Qc -> jacobi ls s d = ((rhs d - (A_at (geo d) ls (sol d) (fun n => sol (s n)) - scale d * sol d)) / scale d)%Qc.
Proof.
  intros N. unfold jacobi, A_at. cbv zeta. rewrite (fold_plus (fun l : link => (- (1) / scale d * shared (factor (geo d) (snd (fst l))) (snd l) * sol (s (fst (fst l))))%Qc)).
  assert (qsum (map (fun l : link => (- (1) / scale d * shared (factor (geo d) (snd (fst l))) (snd l) * sol (s (fst (fst l))))%Qc) ls) = (- (1) / scale d * qsum (map (fun l => weight (geo d) l * sol (s (fst (fst l)))) ls))%Qc) as ->.
  { induction ls as [|l ls IH]; cbn [map]; [rewrite !qsum_nil; ring|]. rewrite !qsum_cons, IH. unfold weight. ring. }
  change (g_scale (geo d)) with (scale d). field. assumption.
Qed.
Definition defect (v : values) (c : Z) : Qc := (rhs (v c) - A_of v (fun n => sol (v n)) c)%Qc.
Theorem relax_step v v' a : grelax L links v = Some (v', a) ->
  (forall c, solves v c -> scale (v c) <> 0%Qc /\ sol (v' c) = (sol (v c) + defect v c / scale (v c))%Qc) /\
  a = qsum (map (fun c => absq (defect v c / scale (v c))%Qc) (filter (fun c => is_solve (v c)) L)).
Proof.
  unfold grelax. destruct (gscales_ok L v) eqn:G; cbn [negb]; [|discriminate]. cbv zeta. intros E. injection E as <- <-.
  assert (forall c, solves v c -> scale (v c) <> 0%Qc) as N.
  { intros c [I K]. unfold gscales_ok in G. rewrite forallb_forall in G. specialize (G c I). unfold is_solve in G. rewrite K in G. cbn in G. intros Z0. apply qeqb_spec in Z0. rewrite Z0 in G. discriminate. }
  assert (forall c, solves v c -> gjacobi L links v c = set_best (v c) (sol (v c) + defect v c / scale (v c))%Qc) as J.
  { intros c S. unfold gjacobi. rewrite gsweep_in by assumption. f_equal. rewrite jacobi_sum by (apply N; assumption). unfold defect, A_of. field. apply N. assumption. }
  split.
  - intros c S. split; [apply N; assumption|]. unfold gtake. rewrite gsweep_in by (rewrite (J c S); exact S). rewrite (J c S). reflexivity.
  - unfold gdot. assert (forall c, is_solve (gjacobi L links v c) = is_solve (v c)) as K. { intros c. unfold gjacobi, PoissonRef.gsweep. destruct (mem c L && is_solve (v c)); reflexivity. }
    rewrite (filter_ext _ _ (fun c => K c)). apply qsum_ext. intros c I. apply filter_In in I. destruct I as [I S]. rewrite J by (split; [assumption|apply Z.eqb_eq; exact S]). cbn [sol best set_best].
    unfold absq. assert (sol (v c) - (sol (v c) + defect v c / scale (v c)) = - (defect v c / scale (v c)))%Qc as -> by ring. set (y := (defect v c / scale (v c))%Qc).
    destruct (qle 0%Qc (- y)%Qc) eqn:A, (qle 0%Qc y) eqn:B; try reflexivity.
    + apply qle_spec in A, B. assert (y = 0%Qc) as ->; [|ring]. apply Qcle_antisym; [|assumption]. apply Qcopp_le_compat in A. rewrite Qcopp_involutive in A. exact A.
    + ring.
    + apply qle_not in A, B. exfalso. apply (Qclt_not_le _ _ B). apply Qclt_le_weak in A. apply Qcopp_le_compat in A. rewrite Qcopp_involutive in A. exact A.
Qed.
Lemma absq_nonneg a : (0 <= absq a)%Qc.
Proof. unfold absq. destruct (qle 0%Qc a) eqn:E; [apply qle_spec; assumption|]. apply qle_not, Qclt_le_weak, Qcopp_le_compat in E. exact E. Qed.
Lemma absq_zero a : absq a = 0%Qc <-> a = 0%Qc.
Proof. unfold absq. split; [|intros ->; reflexivity]. destruct (qle 0%Qc a); [auto|]. intros E. rewrite <- (Qcopp_involutive a), E. reflexivity. Qed.
Lemma qsum_nonneg l : (forall a, In a l -> (0 <= a)%Qc) -> (0 <= qsum l)%Qc /\ (qsum l = 0%Qc -> forall a, In a l -> a = 0%Qc).
Proof.
  induction l as [|a l IH]; intros H; [split; [rewrite qsum_nil; apply Qcle_refl|intros _ a []]|]. rewrite qsum_cons. destruct IH as [IH1 IH2]; [intros b I; apply H; right; assumption|]. pose proof (H a (or_introl eq_refl)) as Ha. split.
  - rewrite <- (Qcplus_0_l 0). apply Qcplus_le_compat; assumption.
  - intros E. assert (a = 0%Qc) as Ea. { apply Qcle_antisym; [|assumption]. rewrite <- E. rewrite <- (Qcplus_0_r a) at 1. apply Qcplus_le_compat; [apply Qcle_refl|assumption]. }
    intros b [<-|I]; [assumption|]. apply IH2; [|assumption]. rewrite Ea, Qcplus_0_l in E. assumption.
Qed.
(** an iteration without change means that the equation holds *)
Theorem relax_fixed v v' a : grelax L links v = Some (v', a) -> (a = 0%Qc <-> forall c, solves v c -> A_of v (fun n => sol (v n)) c = rhs (v c)).
Proof.
  intros E. destruct (relax_step v v' a E) as [P ->]. assert (forall c, solves v c -> absq (defect v c / scale (v c))%Qc = 0%Qc <-> A_of v (fun n => sol (v n)) c = rhs (v c)) as Q.
  { intros c S. destruct (P c S) as [N _]. rewrite absq_zero. split.
    - intros Z0. assert (defect v c = 0%Qc) as D0. { transitivity (defect v c / scale (v c) * scale (v c))%Qc; [field; assumption|]. rewrite Z0. ring. } unfold defect in D0. transitivity (rhs (v c) - (rhs (v c) - A_of v (fun n => sol (v n)) c))%Qc; [ring|]. rewrite D0. ring.
    - intros Ea. unfold defect. rewrite Ea. field. assumption. }
  split.
  - intros Z0 c S. apply (Q c S). destruct (qsum_nonneg (map (fun c => absq (defect v c / scale (v c))%Qc) (filter (fun c => is_solve (v c)) L))) as [_ H]; [intros b I; apply in_map_iff in I; destruct I as (y & <- & _); apply absq_nonneg|].
    apply (H Z0). apply in_map_iff. exists c. split; [reflexivity|]. apply filter_In. split; [apply S|]. apply Z.eqb_eq. apply S.
  - intros H. rewrite (qsum_ext _ (fun _ => 0%Qc)).
    + clear. induction (filter (fun c => is_solve (v c)) L) as [|c l IH]; cbn [map]; [apply qsum_nil|]. rewrite qsum_cons, IH. ring.
    + intros c I. apply filter_In in I. assert (solves v c) as S by (split; [apply I|apply Z.eqb_eq; apply I]). apply (Q c S), H, S.
Qed.

(** *** The transpose *)
(** same size of all neighbors, and neighbors of each other *)
Context (NL : NoDup L) (Nlinks : forall c, NoDup (links c)).
Definition even (v : values) : Prop := forall c l, In c L -> In l (links c) -> snd l = false /\ In (fst (fst l)) L /\ In (c, - snd (fst l), false) (links (fst (fst l))).
Definition At_of (v : values) (f : Z -> Qc) (c : Z) : Qc := (g_scale (geo (v c)) * f c + qsum (map (fun l : link => shared (factor (geo (v (fst (fst l)))) (- snd (fst l))) (snd l) * f (fst (fst l))) (links c)))%Qc.
Lemma At_dot_sum v c : At_dot (links c) v (v c) = At_of v (fun n => p1 (v n)) c.
Proof. unfold At_dot, At_of. rewrite (fold_plus (fun l : link => (shared (factor (geo (v (fst (fst l)))) (- snd (fst l))) (snd l) * p1 (v (fst (fst l))))%Qc)). reflexivity. Qed.
Notation pairs := (flat_map (fun c => map (pair c) (links c)) L).
Definition turned (e : Z * link) : Z * link := (fst (fst (snd e)), (fst e, - snd (fst (snd e)), snd (snd e))).
Lemma pairs_in e : In e pairs <-> In (fst e) L /\ In (snd e) (links (fst e)).
Proof.
  rewrite in_flat_map. split.
  - intros (c & I & J). apply in_map_iff in J. destruct J as (l & <- & J). split; assumption.
  - intros [I J]. exists (fst e). split; [assumption|]. apply in_map_iff. exists (snd e). split; [destruct e; reflexivity|assumption].
Qed.
Lemma pairs_turn v : even v -> Permutation pairs (map turned pairs).
Proof.
  intros Ev. assert (NoDup pairs) as N.
  { apply NoDup_flat; [assumption|intros c I; apply FinFun.Injective_map_NoDup; [intros a b Q; congruence|apply Nlinks]|]. intros a b e Ia Ib Ea Eb. apply in_map_iff in Ea, Eb. destruct Ea as (x & <- & _), Eb as (y & Q & _). congruence. }
  assert (forall e, In e pairs -> In (turned e) pairs /\ turned (turned e) = e) as T.
  { intros [c [[n d] b]] I. apply pairs_in in I. cbn [fst snd] in I. destruct I as [Ic Il]. destruct (Ev c (n, d, b) Ic Il) as (Eb & In' & Ib). cbn [fst snd] in *. subst b. split; [apply pairs_in; cbn; split; assumption|]. unfold turned. cbn [fst snd]. rewrite Z.opp_involutive. reflexivity. }
  apply NoDup_Permutation; [assumption| |].
  - apply NoDup_map_on; [|assumption]. intros a b Ia Ib Q. rewrite <- (proj2 (T a Ia)), <- (proj2 (T b Ib)), Q. reflexivity.
  - intros e. split.
    + intros I. apply in_map_iff. exists (turned e). destruct (T e I). auto.
    + intros I. apply in_map_iff in I. destruct I as (y & <- & I). apply (T y I).
Qed.
Theorem transpose v (x y : Z -> Qc) : even v -> qsum (map (fun c => y c * A_of v x c)%Qc L) = qsum (map (fun c => x c * At_of v y c)%Qc L).
Proof.
  intros Ev. unfold A_of, A_at, At_of.
  assert (forall (z u : Z -> Qc) (f : Z -> link -> Qc), qsum (map (fun c => z c * (g_scale (geo (v c)) * u c + qsum (map (fun l => f c l * u (fst (fst l))) (links c))))%Qc L) =
    (qsum (map (fun c => z c * g_scale (geo (v c)) * u c) L) + qsum (map (fun e => z (fst e) * f (fst e) (snd e) * u (fst (fst (snd e)))) pairs))%Qc) as K.
  { intros z u f. clear Ev NL Nlinks. rewrite qsum_flat. induction L as [|c l IH]; [cbn [map]; rewrite !qsum_nil; ring|]. cbn [map]. rewrite !qsum_cons, IH. rewrite map_map. cbn [fst snd].
    assert (qsum (map (fun l0 : link => (z c * f c l0 * u (fst (fst l0)))%Qc) (links c)) = (z c * qsum (map (fun l0 => f c l0 * u (fst (fst l0))) (links c)))%Qc) as ->; [|ring].
    induction (links c) as [|a r IHr]; cbn [map]; [rewrite !qsum_nil; ring|]. rewrite !qsum_cons, IHr. ring. }
  rewrite (K y x (fun c l => weight (geo (v c)) l)), (K x y (fun _ l => shared (factor (geo (v (fst (fst l)))) (- snd (fst l))) (snd l))).
  f_equal; [apply qsum_ext; intros c _; ring|]. rewrite (qsum_perm _ _ (Permutation_map _ (pairs_turn v Ev))). rewrite map_map. apply qsum_ext. intros [c [[n d] b]] I. unfold turned, weight. cbn [fst snd]. rewrite Z.opp_involutive || idtac. ring_simplify. ring.
Qed.
End Ref.
