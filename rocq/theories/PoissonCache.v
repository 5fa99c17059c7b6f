(** cache_system_info of the Poisson solver: which cells are solved, skipped or on a boundary, and which neighbors they use,
    does not depend on the order of cells, on their processes or on what was in their copies. *)
From Verif Require Import U64 MapModel MapSpec HoodModel MeshModel MeshFace Sets RefineModel CommModel Stages RefineFold AdvectModel AdvectSum PoissonModel PoissonRef.
From Coq Require Import QArith Qcanon Permutation.
Open Scope Z_scope.

(** ** Definitions *)
(** the type given to a cell *)
Definition given (cells skip : list Z) (c : Z) : Z := if mem c cells then solve_cell else if mem c skip then skip_cell else boundary_cell.
Section Reference.
Context (len : Z -> dim -> Qc) (faces : Z -> list (Z * Z)) (level : Z -> Z) (k : Z -> Z) (L : list Z).
(** cells that exchange values: neither is skipped and at least one is solved *)
Definition coupled (a b : Z) : bool := negb (a =? skip_cell) && negb (b =? skip_cell) && negb ((a =? boundary_cell) && (b =? boundary_cell)).
Definition used (c : Z) : list (Z * Z) := filter (fun e => coupled (k c) (k (fst e))) (faces c).
Definition glive (c : Z) : bool := match used c with [] => false | _ => true end.
Definition glinks (c : Z) : list link := map (fun e => (e, level c <? level (fst e))) (used c).
Definition gcached (v : values) : values := fun c =>
  if mem c L then (if glive c then set_kind (set_geo (v c) (factors len c (used c))) (k c) else set_kind (v c) skip_cell) else v c.
End Reference.

Lemma given_cases cells skip c : given cells skip c = solve_cell \/ given cells skip c = skip_cell \/ given cells skip c = boundary_cell.
Proof. unfold given. destruct (mem c cells); [tauto|]. destruct (mem c skip); tauto. Qed.

(** ** Types *)
Lemma mark_ok local kd l : forall s : memory, (forall c, local c = true -> s c <> None) ->
  exists s', mark local kd l (Some s) = Some s' /\ forall c, s' c = match s c with Some d => Some (if local c && mem c l then set_kind d kd else d) | None => None end.
Proof.
  induction l as [|a l IH]; intros s H.
  - exists s. split; [reflexivity|]. intros c. change (mem c []) with false. rewrite Bool.andb_false_r. destruct (s c); reflexivity.
  - unfold mark. cbn [fold_left]. destruct (local a) eqn:La.
    + pose proof (H a La) as Ha. destruct (s a) as [d|] eqn:Sa; [|contradiction]. destruct (IH (put s a (set_kind d kd))) as (s' & E & P).
      { intros c Lc. unfold put. destruct (c =? a); [discriminate|apply H; assumption]. }
      exists s'. split; [exact E|]. intros c. rewrite P, mem_cons. unfold put. destruct (Z.eqb_spec c a) as [->|]; [|reflexivity]. rewrite Sa, La. cbn [andb orb]. destruct (mem a l); reflexivity.
    + destruct (IH s H) as (s' & E & P). exists s'. split; [exact E|]. intros c. rewrite P, mem_cons. destruct (Z.eqb_spec c a) as [->|]; [|reflexivity]. rewrite La. reflexivity.
Qed.
Lemma classify_ok own cells skip (s : memory) : (forall c, In c own -> s c <> None) ->
  exists s', classify own cells skip s = Some s' /\ forall c, s' c = match s c with Some d => Some (if mem c own then set_kind d (given cells skip c) else d) | None => None end.
Proof.
  intros H. unfold classify. cbv zeta. set (local := fun c => mem c own).
  destruct (mark_ok local boundary_cell own s) as (s1 & E1 & P1). { intros c I. apply H, mem_In. assumption. }
  destruct (mark_ok local skip_cell skip s1) as (s2 & E2 & P2). { intros c I. rewrite P1. apply mem_In, H in I. destruct (s c); [discriminate|contradiction]. }
  destruct (mark_ok local solve_cell cells s2) as (s3 & E3 & P3). { intros c I. rewrite P2, P1. apply mem_In, H in I. destruct (s c); [discriminate|contradiction]. }
  exists s3. rewrite E1, E2. split; [assumption|]. intros c. rewrite P3, P2, P1. destruct (s c) as [d|]; [|reflexivity]. unfold local, given. destruct (mem c own); cbn [andb]; [|reflexivity]. destruct (mem c cells), (mem c skip); reflexivity.
Qed.

(** ** Neighbors *)
Section Cache.
Context (len : Z -> dim -> Qc) (faces : Z -> list (Z * Z)) (level : Z -> Z) (k : Z -> Z) (Hk : forall c, k c = solve_cell \/ k c = skip_cell \/ k c = boundary_cell).
Context (isl : Z -> Prop) (Hsym : forall c n d, isl c -> In (n, d) (faces c) -> isl n /\ In (c, - d) (faces n)).
Notation used := (used faces k).
Notation glive := (glive faces k).
Lemma coupled_sym a b : coupled a b = coupled b a.
Proof. unfold coupled. destruct (a =? skip_cell), (b =? skip_cell), (a =? boundary_cell), (b =? boundary_cell); reflexivity. Qed.
(** a cell without use for its neighbors is of no use to them *)
Lemma dead_uncoupled c n d : isl c -> In (n, d) (faces c) -> glive n = false -> coupled (k c) (k n) = false.
Proof.
  intros C I Q. destruct (Hsym c n d C I) as [_ I']. unfold PoissonCache.glive in Q. destruct (used n) as [|e r] eqn:U; [|discriminate].
  destruct (coupled (k c) (k n)) eqn:K; [|reflexivity]. assert (In (c, - d) (used n)) as J. { apply filter_In. split; [assumption|]. cbn [fst]. rewrite coupled_sym. assumption. } rewrite U in J. contradiction.
Qed.
Lemma usable_ok s c : isl c -> k c <> skip_cell ->
  forall l, (forall e, In e l -> In e (faces c)) -> (forall e, In e l -> exists d, s (fst e) = Some d /\ (kind d = k (fst e) \/ kind d = skip_cell /\ glive (fst e) = false)) ->
  usable s (k c) l = Some (filter (fun e => coupled (k c) (k (fst e))) l).
Proof.
  intros C Kc. induction l as [|[n d] l IH]; intros Hf Hs; [reflexivity|]. cbn [usable filter]. destruct (Hs (n, d) (or_introl eq_refl)) as (e & Se & Ke). cbn [fst] in Se, Ke. rewrite Se.
  rewrite IH; [|intros x I; apply Hf; right; assumption|intros x I; apply Hs; right; assumption]. f_equal. cbn [fst].
  assert (forall x, coupled (k c) x = negb ((x =? skip_cell) || ((k c =? boundary_cell) && (x =? boundary_cell)))) as Q. { intros x. unfold coupled. destruct (Z.eqb_spec (k c) skip_cell); [contradiction|]. destruct (x =? skip_cell), ((k c =? boundary_cell) && (x =? boundary_cell)); reflexivity. }
  destruct Ke as [-> | [-> G]].
  - rewrite Q. destruct ((k n =? skip_cell) || ((k c =? boundary_cell) && (k n =? boundary_cell))); reflexivity.
  - rewrite Z.eqb_refl. cbn [orb]. rewrite (dead_uncoupled c n d C (Hf _ (or_introl eq_refl)) G). reflexivity.
Qed.
(** the data of a cell after its visit *)
Definition after (d : pcell) (c : Z) : pcell := if glive c then set_geo d (factors len c (used c)) else set_kind d skip_cell.
Lemma dead_skip c : k c = skip_cell -> used c = [].
Proof. intros E. unfold PoissonCache.used. rewrite E. induction (faces c) as [|e l IH]; [reflexivity|]. cbn [filter]. assumption. Qed.
Lemma cache_cells_ok (s0 : memory) : forall own, (forall c, In c own -> isl c /\ (exists d, s0 c = Some d)) -> (forall c e, In c own -> In e (faces c) -> s0 (fst e) <> None) ->
  (forall n d, isl n -> s0 n = Some d -> kind d = k n) ->
  forall (rest done : list Z) (s : memory) is, own = done ++ rest -> NoDup own ->
    (forall c, s c = if mem c done then match s0 c with Some d => Some (after d c) | None => None end else s0 c) ->
    exists s', fold_left (visit len faces level) rest (Some (s, is)) = Some (s', is ++ map (fun c => (c, glinks faces level k c)) (filter glive rest)) /\
      forall c, s' c = if mem c own then match s0 c with Some d => Some (after d c) | None => None end else s0 c.
Proof.
  intros own Ho Hn Hs0. induction rest as [|c rest IH]; intros done s is E N Hs.
  - exists s. rewrite app_nil_r in E. subst own. cbn [fold_left filter map]. rewrite app_nil_r. split; [reflexivity|assumption].
  - cbn [fold_left filter]. assert (In c own) as Ic by (rewrite E; apply in_or_app; right; left; reflexivity). destruct (Ho c Ic) as (C & d & Sc).
    assert (mem c done = false) as Md. { apply mem_not. rewrite E in N. apply NoDup_remove_2 in N. intros J. apply N. apply in_or_app. left. assumption. }
    assert (s c = Some d) as Sd by (rewrite Hs, Md; assumption). pose proof (Hs0 c d C Sc) as Kd.
    unfold visit at 2. rewrite Sd, Kd.
    assert (own = (done ++ [c]) ++ rest) as E' by (rewrite <- app_assoc; exact E).
    assert (forall x, mem x (done ++ [c]) = mem x done || (x =? c)) as Mx. { intros x. unfold mem. rewrite existsb_app. cbn [existsb]. rewrite Bool.orb_false_r. reflexivity. }
    destruct (Z.eqb_spec (k c) skip_cell) as [Ks|Ks].
    + assert (glive c = false) as G by (unfold PoissonCache.glive; rewrite (dead_skip c Ks); reflexivity).
      rewrite G. apply (IH (done ++ [c])); [assumption|assumption|]. intros x. rewrite Hs, Mx. destruct (Z.eqb_spec x c) as [->|]; [|rewrite Bool.orb_false_r; reflexivity].
      rewrite Md. cbn [orb]. rewrite Sc. unfold after. rewrite G. f_equal. destruct d; cbn in Kd |- *. unfold set_kind; cbn. congruence.
    + rewrite (usable_ok s c C Ks (faces c)); [|auto|].
      * fold (used c).
        assert (forall d', d' = after d c -> forall x, put s c d' x = if mem x (done ++ [c]) then match s0 x with Some d => Some (after d x) | None => None end else s0 x) as Hp.
        { intros d' -> x. unfold put. rewrite Mx. destruct (Z.eqb_spec x c) as [->|]; [rewrite Bool.orb_true_r, Sc; reflexivity|]. rewrite Bool.orb_false_r. apply Hs. }
        destruct (used c) as [|e u] eqn:U.
        -- assert (glive c = false) as G by (unfold PoissonCache.glive; rewrite U; reflexivity). rewrite G. apply (IH (done ++ [c])); [assumption|assumption|]. apply Hp. unfold after, PoissonCache.glive. rewrite U. reflexivity.
        -- assert (glive c = true) as G by (unfold PoissonCache.glive; rewrite U; reflexivity). rewrite G. destruct (IH (done ++ [c]) (put s c (set_geo d (factors len c (e :: u)))) (is ++ [(c, map (fun e0 => (e0, level c <? level (fst e0))) (e :: u))])) as (s' & F & P); [assumption|assumption|apply Hp; unfold after, PoissonCache.glive; rewrite U; reflexivity|].
           exists s'. split; [|assumption]. cbn [map] in F |- *. rewrite F. f_equal. f_equal. rewrite <- app_assoc. cbn [app]. unfold glinks at 2. rewrite U. reflexivity.
      * intros e Ie. destruct (Hsym c (fst e) (snd e) C) as [Ce _]; [destruct e; assumption|]. pose proof (Hn c e Ic Ie) as Se. destruct (s0 (fst e)) as [b|] eqn:B; [|contradiction]. pose proof (Hs0 _ _ Ce B) as Kb.
        rewrite Hs, B. destruct (mem (fst e) done); eexists; (split; [reflexivity|]); [|left; assumption]. unfold after. destruct (glive (fst e)) eqn:G; [left; exact Kb|right; split; reflexivity].
Qed.
End Cache.

(** ** All processes *)
Lemma all_of_ok {A} l (f : Z -> option A) base h : (forall r, In r l -> f r = Some (h r)) -> exists a, all_of l f base = Some a /\ forall r, In r l -> a r = h r.
Proof.
  induction l as [|r l IH]; intros H; [exists base; split; [reflexivity|intros r []]|]. cbn [all_of]. destruct IH as (a & E & P); [intros q I; apply H; right; assumption|].
  rewrite (H r (or_introl eq_refl)), E. eexists. split; [reflexivity|]. intros q [<-|I]; cbv beta; [rewrite Z.eqb_refl; reflexivity|]. destruct (Z.eqb_spec q r) as [->|]; [reflexivity|apply P; assumption].
Qed.
Lemma all_of_ex {A} l (f : Z -> option A) base (P : Z -> A -> Prop) : (forall r, In r l -> exists a, f r = Some a /\ P r a) -> exists a, all_of l f base = Some a /\ forall r, In r l -> P r (a r).
Proof.
  induction l as [|r l IH]; intros H; [exists base; split; [reflexivity|intros r []]|]. cbn [all_of]. destruct IH as (a & E & Q); [intros q I; apply H; right; assumption|].
  destruct (H r (or_introl eq_refl)) as (b & Eb & Pb). rewrite Eb, E. eexists. split; [reflexivity|]. intros q [<-|I]; cbv beta; [rewrite Z.eqb_refl; assumption|]. destruct (Z.eqb_spec q r) as [->|]; [assumption|apply Q; assumption].
Qed.

Section System.
Context (ranks : list Z) (own : Z -> list Z) (owner : Z -> option Z).
Context (Nr : NoDup ranks) (No : forall r, In r ranks -> NoDup (own r)).
Context (Hown : forall r c, In r ranks -> In c (own r) <-> owner c = Some r) (Hrank : forall c r, owner c = Some r -> In r ranks).
Context (L : list Z) (NL : NoDup L) (L_in : forall c, In c L <-> owner c <> None).
Context (len : Z -> dim -> Qc) (faces : Z -> list (Z * Z)) (level : Z -> Z).
Context (Hsym : forall c n d, In c L -> In (n, d) (faces c) -> In n L /\ In (c, - d) (faces n)).
Context (pw root : Qc -> Qc).
(** the types given to cells by their processes *)
Context (k : Z -> Z) (cells skip : Z -> list Z) (Hk : forall c r, owner c = Some r -> k c = given (cells r) (skip r) c).
(** every process has its cells and copies of their neighbors *)
Definition at_hand (w : world) (v : values) : Prop :=
  (forall r c, owner c = Some r -> w r c = Some (v c)) /\ (forall r c e, owner c = Some r -> In e (faces c) -> w r (fst e) <> None).
Notation links := (glinks faces level k).
Notation live := (glive faces k).
Notation cached v := (gcached len faces k L v).
Lemma links_faces c l : In l (links c) -> In (fst l) (faces c).
Proof. unfold glinks. rewrite in_map_iff. intros (e & <- & I). apply filter_In in I. apply I. Qed.
Lemma cached_exact v : exact owner live (cached v).
Proof.
  intros c O. unfold gcached. rewrite (proj2 (mem_In c L) (proj2 (L_in c) O)). destruct (live c) eqn:G; [|reflexivity]. cbn [kind set_kind]. destruct (Z.eqb_spec (k c) skip_cell) as [E|]; [|reflexivity]. unfold glive in G. rewrite (dead_skip faces k c E) in G. discriminate.
Qed.
Theorem cache_sync w v : at_hand w v -> exists w' infos, cache_system ranks owner own len faces level cells skip w = Some (w', infos) /\
  (forall r, In r ranks -> infos r = map (fun c => (c, links c)) (filter live (own r))) /\ sync ranks owner links pr1 w' (cached v).
Proof.
  intros [A C]. unfold cache_system.
  set (typed := fun (r : Z) (s : memory) (s' : memory) => forall c, s' c = match s c with Some d => Some (if mem c (own r) then set_kind d (given (cells r) (skip r) c) else d) | None => None end).
  destruct (all_of_ex ranks (fun r => classify (own r) (cells r) (skip r) (w r)) w (fun r s' => typed r (w r) s')) as (w1 & E1 & P1).
  { intros r Ir. apply classify_ok. intros c I. apply (Hown r c Ir) in I. rewrite (A r c I). discriminate. }
  rewrite E1. set (w2 := exchange owner TYPE w1).
  assert (forall c, owner c = None -> In c L -> False) as OL by (intros c O I; apply L_in in I; contradiction).
  assert (forall r c, In r ranks -> w1 r c = match w r c with Some d => Some (if mem c (own r) then set_kind d (given (cells r) (skip r) c) else d) | None => None end) as Q1 by (intros r c Ir; apply P1; assumption).
  assert (forall r c, owner c = Some r -> w1 r c = Some (set_kind (v c) (k c))) as A1.
  { intros r c O. pose proof (Hrank c r O) as Ir. rewrite (Q1 r c Ir), (A r c O), (proj2 (mem_In c (own r)) (proj2 (Hown r c Ir) O)), (Hk c r O). reflexivity. }
  assert (forall r c, owner c = Some r -> w2 r c = Some (set_kind (v c) (k c))) as A2.
  { intros r c O. unfold w2, exchange. rewrite (A1 r c O), O, Z.eqb_refl. reflexivity. }
  assert (forall r c, In r ranks -> w r c <> None -> w2 r c <> None) as D2.
  { intros r c Ir H. unfold w2, exchange. rewrite (Q1 r c Ir). destruct (w r c) as [d|]; [|contradiction]. destruct (owner c) as [q|]; [|discriminate]. destruct (q =? r); [discriminate|]. destruct (w1 q c); discriminate. }
  assert (forall r c d, In r ranks -> owner c <> None -> w2 r c = Some d -> kind d = k c) as K2.
  { intros r c d Ir O H. destruct (owner c) as [q|] eqn:Oq; [|contradiction]. destruct (Z.eq_dec q r) as [->|Nq]; [rewrite (A2 r c Oq) in H; injection H as <-; reflexivity|].
    unfold w2, exchange in H. destruct (w1 r c) as [b|]; [|discriminate]. rewrite Oq in H. destruct (Z.eqb_spec q r); [contradiction|]. rewrite (A1 q c Oq) in H. injection H as <-. reflexivity. }
  set (done := fun (r : Z) (a : memory * list info) => snd a = map (fun c => (c, links c)) (filter live (own r)) /\ forall c, fst a c = if mem c (own r) then match w2 r c with Some d => Some (after len faces k d c) | None => None end else w2 r c).
  destruct (all_of_ex ranks (fun r => cache_cells len faces level (own r) (w2 r)) (fun r => (w2 r, [])) done) as (a & E2 & P2).
  { intros r Ir. destruct (cache_cells_ok len faces level k (fun c => In c L) Hsym (w2 r) (own r)) with (rest := own r) (done := @nil Z) (s := w2 r) (is := @nil info) as (s' & F & P).
    - intros c I. apply (Hown r c Ir) in I. split; [apply L_in; congruence|]. eexists. apply A2. assumption.
    - intros c e I Ie. apply (Hown r c Ir) in I. apply D2; [assumption|]. apply (C r c e I Ie).
    - intros n d In' H. apply (K2 r n d Ir); [apply L_in; assumption|assumption].
    - reflexivity.
    - apply No. assumption.
    - intros c. change (mem c []) with false. reflexivity.
    - exists (s', map (fun c => (c, links c)) (filter live (own r))). split; [exact F|]. split; [reflexivity|exact P]. }
  rewrite E2. eexists _, _. split; [reflexivity|]. split; [intros r Ir; apply (P2 r Ir)|].
  set (w3 := fun r => fst (a r)).
  assert (forall r c, owner c = Some r -> w3 r c = Some (cached v c)) as A3.
  { intros r c O. pose proof (Hrank c r O) as Ir. unfold w3. rewrite (proj2 (P2 r Ir)), (proj2 (mem_In c (own r)) (proj2 (Hown r c Ir) O)), (A2 r c O). unfold gcached, after. assert (In c L) as I by (apply L_in; congruence). rewrite (proj2 (mem_In c L) I). destruct (live c); reflexivity. }
  apply (exchange_sync ranks owner Hrank links (fun _ => tt) pr1); [intros d e _; reflexivity|]. split; [intros r c _ O; apply A3; assumption|]. split; [reflexivity|].
  intros r c l Ir O Il. apply links_faces in Il. assert (In c L) as I by (apply L_in; congruence). destruct (fst l) as [n d] eqn:El. destruct (Hsym c n d I Il) as [In' _]. split; [apply L_in; assumption|]. cbn [fst].
  unfold w3. rewrite (proj2 (P2 r Ir)). pose proof (D2 r n Ir (C r c (n, d) O Il)) as D. destruct (w2 r n); [|contradiction]. destruct (mem n (own r)); discriminate.
Qed.
(** ** The solver on any number of processes does what the reference does *)
Theorem solve_parallel M n w v : at_hand w v -> exists w', solve ranks owner own len faces level pw root M n cells skip w = Some w' /\
  forall r c, owner c = Some r -> w' r c = Some (gsolve L links pw root M n (cached v) c).
Proof.
  intros H. destruct (cache_sync w v H) as (w1 & infos & E & Hi & S). unfold solve. rewrite E. eexists. split; [reflexivity|]. intros r c O.
  destruct (solve_sync ranks own owner Nr No Hown Hrank links live infos Hi pw root L NL L_in M n w1 _ (cached_exact v) S) as [(S1 & _) _]. apply S1; [apply (Hrank c r O)|assumption].
Qed.
Theorem failsafe_parallel stop n w v : at_hand w v ->
  match solve_failsafe ranks owner own len faces level stop n cells skip w, grelaxations L links stop n (cached v) None with
  | Some (w', a), Some (v', b) => a = b /\ forall r c, owner c = Some r -> w' r c = Some (v' c)
  | None, None => True
  | _, _ => False
  end.
Proof.
  intros H. destruct (cache_sync w v H) as (w1 & infos & E & Hi & S). unfold solve_failsafe. rewrite E.
  pose proof (relaxations_sync ranks own owner Nr No Hown Hrank links live infos Hi L NL L_in stop n w1 _ None (cached_exact v) S) as K.
  destruct (relaxations ranks owner infos stop n w1 None) as [[w' a]|], (grelaxations L links stop n (cached v) None) as [[v' b]|]; try contradiction; [|exact I].
  destruct K as ((S1 & _) & _ & ->). split; [reflexivity|]. intros r c O. apply S1; [apply (Hrank c r O)|assumption].
Qed.
End System.
