(** The Poisson solver without processes: what the loops of PoissonModel.v do to the values of all cells together. *)
From Verif Require Import U64 MapModel MapSpec HoodModel MeshModel MeshFace Sets RefineModel CommModel Stages RefineFold AdvectModel AdvectSum PoissonModel.
From Coq Require Import QArith Qcanon Permutation.
Open Scope Z_scope.

Definition values : Type := Z -> pcell.
Definition is_solve (d : pcell) : bool := kind d =? solve_cell.

(** ** Definitions *)
Section Ref.
Context (L : list Z) (links : Z -> list link) (pw root : Qc -> Qc).
Notation solving v := (filter (fun c => is_solve (v c)) L).
Definition gsweep (F : list link -> (Z -> pcell) -> pcell -> pcell) (v : values) : values :=
  fun c => if mem c L && is_solve (v c) then F (links c) v (v c) else v c.
Definition gdot (f : pcell -> Qc) (v : values) : Qc := qsum (map (fun c => f (v c)) (solving v)).
Definition gresidual (v : values) : Qc := root (qsum (map (fun c => pw (r0 (v c))) (filter (fun c => negb (kind (v c) =? skip_cell)) L))).
Definition gfirst (v : values) : values := gsweep (fun ls s d => let a := first_residual ls s d in set_p (set_r1 (set_r0 d a) a) a a) v.
Definition gdot_r (v : values) : Qc := gdot (fun d => (r0 d * r1 d)%Qc) v.
Record ggoing := GGoing { gq_values : values; gq_dot : Qc; gq_min : option Qc }.
Inductive goutcome := GEnded (v : values) | GAgain (q : ggoing).
Definition gap0 (v : values) : values := gsweep (fun ls s d => set_ap0 d (A_dot p0 ls s d)) v.
Definition gdot_p (v : values) : Qc := gdot (fun d => (p1 d * ap0 d)%Qc) v.
Definition gsol (alpha : Qc) (v : values) : values := gsweep (fun _ _ d => set_sol d (sol d + alpha * p0 d)%Qc) v.
Definition gsave (v : values) : values := gsweep (fun _ _ d => set_best d (sol d)) v.
Definition gr (alpha : Qc) (v : values) : values :=
  gsweep (fun ls s d => set_r1 d (r1 d - alpha * At_dot ls s d)%Qc) (gsweep (fun _ _ d => set_r0 d (r0 d - alpha * ap0 d)%Qc) v).
Definition gp (beta : Qc) (v : values) : values := gsweep (fun _ _ d => set_p d (r0 d + beta * p0 d)%Qc (r1 d + beta * p1 d)%Qc) v.
Definition giteration (M : limits) (it : Z) (q : ggoing) : goutcome :=
  let v := gap0 (gq_values q) in
  let dp := gdot_p v in
  if qeqb dp 0%Qc then GEnded v else
  let alpha := (gq_dot q / dp)%Qc in
  let v := gsol alpha v in
  let res := gresidual v in
  let better := smaller res (gq_min q) in
  let v := if better then gsave v else v in
  let least := if better then Some res else gq_min q in
  let enough := min_iterations M <=? it in
  if qle res (stop_residual M) && enough then GEnded v else
  if match least with Some a => qle (increase M * a)%Qc res | None => false end && enough then GEnded v else
  let v := gr alpha v in
  if qeqb (gq_dot q) 0%Qc then GEnded v else
  let dot' := gdot_r v in
  GAgain (GGoing (gp (dot' / gq_dot q)%Qc v) dot' least).
Fixpoint giterations (M : limits) (n : nat) (it : Z) (q : ggoing) : values :=
  match giteration M it q with
  | GEnded v => v
  | GAgain q' => match n with O => gq_values q' | S k => giterations M k (it + 1) q' end
  end.
Definition gtake (v : values) : values := gsweep (fun _ _ d => set_sol d (best d)) v.
Definition gstarted (v : values) : ggoing := let v := gfirst v in GGoing v (gdot_r v) None.
Definition gsolve (M : limits) (max_iterations : nat) (v : values) : values := gtake (giterations M (pred max_iterations) 1 (gstarted v)).
Definition gjacobi (v : values) : values := gsweep (fun ls s d => set_best d (jacobi ls s d)) v.
Definition gscales_ok (v : values) : bool := forallb (fun c => negb (is_solve (v c)) || negb (qeqb (scale (v c)) 0%Qc)) L.
Definition grelax (v : values) : option (values * Qc) :=
  if negb (gscales_ok v) then None else
  let v := gjacobi v in Some (gtake v, gdot (fun d => absq (sol d - best d)%Qc) v).
Fixpoint grelaxations (stop : Qc) (n : nat) (v : values) (norm : option Qc) : option (values * option Qc) :=
  match n with
  | O => Some (v, norm)
  | S k => if match norm with None => true | Some a => negb (qle a stop) end
           then match grelax v with Some (v', a) => grelaxations stop k v' (Some a) | None => None end
           else Some (v, norm)
  end.
End Ref.

(** ** One process *)
Lemma look_some s n d : s n = Some d -> look s n = d. Proof. unfold look. intros ->. reflexivity. Qed.
Section Sweep.
Context {X : Type} (pr : pcell -> X) (F : list link -> (Z -> pcell) -> pcell -> pcell).
Context (Fext : forall ls s s' d, (forall l, In l ls -> pr (s (fst (fst l))) = pr (s' (fst (fst l)))) -> F ls s d = F ls s' d).
Context (Fpr : forall ls s d, pr (F ls s d) = pr d).
Context (links : Z -> list link).
Notation entries := (map (fun c => (c, links c))).
Lemma sweep_one l : forall s0 s, NoDup l -> (forall n, option_map pr (s n) = option_map pr (s0 n)) -> (forall c, In c l -> s c = s0 c) ->
  forall c, sweep F (entries l) s c =
    match s0 c with
    | Some d => if mem c l then (if is_solve d then Some (F (links c) (look s0) d) else Some d) else s c
    | None => s c
    end.
Proof.
  induction l as [|a l IH]; intros s0 s N P E c.
  - cbn [map sweep fold_left]. destruct (s0 c); reflexivity.
  - apply NoDup_cons_iff in N. destruct N as [Na N]. cbn [map]. unfold sweep. cbn [fold_left fst snd]. fold (sweep F (entries l)).
    assert (s a = s0 a) as Ea by (apply E; left; reflexivity).
    destruct (s a) as [d|] eqn:Sa.
    + fold (is_solve d). destruct (is_solve d) eqn:K.
      * change (fold_left _ (entries l) ?q c) with (sweep F (entries l) q c). rewrite (IH s0).
        -- rewrite mem_cons. unfold put. destruct (Z.eqb_spec c a) as [->|Nc]; cbn [orb].
           ++ rewrite <- Ea, (proj2 (mem_not a l) Na), K. f_equal. apply Fext. intros x _. specialize (P (fst (fst x))). unfold look. destruct (s (fst (fst x))), (s0 (fst (fst x))); cbn in P; congruence.
           ++ destruct (s0 c) as [e|] eqn:Sc; reflexivity.
        -- assumption.
        -- intros n. unfold put. destruct (Z.eqb_spec n a) as [->|]; [|apply P]. rewrite <- Ea. cbn [option_map]. rewrite Fpr. reflexivity.
        -- intros y Hy. unfold put. destruct (Z.eqb_spec y a) as [->|]; [contradiction|]. apply E. right. assumption.
      * change (fold_left _ (entries l) ?q c) with (sweep F (entries l) q c). rewrite (IH s0); [|assumption|assumption|intros y Hy; apply E; right; assumption].
        rewrite mem_cons. destruct (Z.eqb_spec c a) as [->|]; cbn [orb]; [|reflexivity]. rewrite <- Ea, (proj2 (mem_not a l) Na), K, Sa. reflexivity.
    + change (fold_left _ (entries l) ?q c) with (sweep F (entries l) q c). rewrite (IH s0); [|assumption|assumption|intros y Hy; apply E; right; assumption].
      rewrite mem_cons. destruct (Z.eqb_spec c a) as [->|]; cbn [orb]; [|reflexivity]. rewrite <- Ea, Sa. reflexivity.
Qed.
End Sweep.

(** ** All processes *)
Section Sync.
Context (ranks : list Z) (own : Z -> list Z) (owner : Z -> option Z).
Context (Nr : NoDup ranks) (No : forall r, In r ranks -> NoDup (own r)).
Context (Hown : forall r c, In r ranks -> In c (own r) <-> owner c = Some r) (Hrank : forall c r, owner c = Some r -> In r ranks).
Context (links : Z -> list link) (live : Z -> bool) (infos : Z -> list info).
Context (Hinfos : forall r, In r ranks -> infos r = map (fun c => (c, links c)) (filter live (own r))).
Context (pw root : Qc -> Qc).
(** all cells, in any order *)
Context (L : list Z) (NL : NoDup L) (L_in : forall c, In c L <-> owner c <> None).
Lemma parts_in c : In c (flat_map own ranks) <-> owner c <> None.
Proof using Hown Hrank.
  rewrite in_flat_map. split.
  - intros (r & Ir & I). apply (Hown r c Ir) in I. congruence.
  - intros O. destruct (owner c) as [r|] eqn:E; [|contradiction]. exists r. split; [apply (Hrank c r E)|]. apply Hown; [apply (Hrank c r E)|assumption].
Qed.
Lemma parts_perm : Permutation L (flat_map own ranks).
Proof using Nr No Hown Hrank NL L_in.
  apply NoDup_Permutation; [assumption| |intros c; rewrite L_in, parts_in; reflexivity].
  apply NoDup_flat; [assumption|assumption|]. intros r q c Ir Iq H H'. apply (Hown r c Ir) in H. apply (Hown q c Iq) in H'. congruence.
Qed.
Lemma L_mem c : mem c L = match owner c with Some _ => true | None => false end.
Proof using L_in. destruct (owner c) eqn:E; [apply mem_In|apply mem_not]; rewrite L_in; congruence. Qed.

(** own cells have the values v, copies have the same as far as pr goes, neighbors are at hand *)
Definition sync {X} (pr : pcell -> X) (w : world) (v : values) : Prop :=
  (forall r c, In r ranks -> owner c = Some r -> w r c = Some (v c)) /\
  (forall r c d, In r ranks -> owner c <> Some r -> owner c <> None -> w r c = Some d -> pr d = pr (v c)) /\
  (forall r c l, In r ranks -> owner c = Some r -> In l (links c) -> owner (fst (fst l)) <> None /\ w r (fst (fst l)) <> None).
(** every solve cell is in cell_info *)
Definition complete (v : values) : Prop := forall c, owner c <> None -> is_solve (v c) = true -> live c = true.

Lemma sync_weaken {X Y} (pr : pcell -> X) (pr' : pcell -> Y) w v : (forall a b, pr a = pr b -> pr' a = pr' b) -> sync pr w v -> sync pr' w v.
Proof. intros H (A & B & C). split; [assumption|]. split; [|assumption]. intros r c d Ir N E W. apply H. apply (B r c d); assumption. Qed.
Lemma exchange_sync {X Y} (pr : pcell -> X) (pr' : pcell -> Y) s w v : (forall d e, pr d = pr e -> pr' (absorbed s e d) = pr' e) -> sync pr w v -> sync pr' (exchange owner s w) v.
Proof.
  intros H (A & B & C). split; [|split].
  - intros r c Ir O. unfold exchange. rewrite (A r c Ir O), O, Z.eqb_refl. reflexivity.
  - intros r c d Ir N E W. unfold exchange in W. destruct (w r c) as [b|] eqn:Wc; [|discriminate]. destruct (owner c) as [q|] eqn:O; [|contradiction].
    destruct (Z.eqb_spec q r) as [->|Nq]; [congruence|]. rewrite (A q c (Hrank c q O) O) in W. injection W as <-. apply H. apply (B r c b); [assumption|congruence|congruence|assumption].
  - intros r c l Ir O Il. destruct (C r c l Ir O Il) as [C1 C2]. split; [assumption|]. unfold exchange. destruct (w r (fst (fst l))) as [b|]; [|contradiction].
    destruct (owner (fst (fst l))) as [q|]; [|discriminate]. destruct (q =? r); [discriminate|]. destruct (w q (fst (fst l))); discriminate.
Qed.
Lemma look_links {X} (pr : pcell -> X) w v r c l : sync pr w v -> In r ranks -> owner c = Some r -> In l (links c) -> pr (look (w r) (fst (fst l))) = pr (v (fst (fst l))).
Proof.
  intros (A & B & C) Ir O Il. destruct (C r c l Ir O Il) as [C1 C2]. destruct (w r (fst (fst l))) as [d|] eqn:E; [|contradiction]. rewrite (look_some _ _ d E).
  destruct (owner (fst (fst l))) as [q|] eqn:Q; [|contradiction]. destruct (Z.eq_dec q r) as [->|N]; [rewrite (A r _ Ir Q) in E; congruence|]. apply (B r _ d); [assumption|congruence|congruence|assumption].
Qed.
Lemma everywhere_sync {X} (pr : pcell -> X) F w v :
  (forall ls s s' d, (forall l, In l ls -> pr (s (fst (fst l))) = pr (s' (fst (fst l)))) -> F ls s d = F ls s' d) -> (forall ls s d, pr (F ls s d) = pr d) ->
  complete v -> sync pr w v -> sync pr (everywhere infos F w) (gsweep L links F v).
Proof.
  intros Fext Fpr Hc S. pose proof S as (A & B & C).
  assert (forall r c, In r ranks -> everywhere infos F w r c = match w r c with Some d => if mem c (filter live (own r)) then (if is_solve d then Some (F (links c) (look (w r)) d) else Some d) else Some d | None => None end) as Q.
  { intros r c Ir. unfold everywhere. rewrite (Hinfos r Ir). rewrite (sweep_one pr F Fext Fpr links _ (w r) (w r)); [|apply NoDup_filter, No; assumption|reflexivity|reflexivity].
    destruct (w r c); [|reflexivity]. destruct (mem c (filter live (own r))); reflexivity. }
  assert (forall c, gsweep L links F v c = match owner c with Some _ => if is_solve (v c) then F (links c) v (v c) else v c | None => v c end) as G.
  { intros c. unfold gsweep. rewrite L_mem. destruct (owner c); cbn [andb]; reflexivity. }
  assert (forall c, pr (gsweep L links F v c) = pr (v c)) as Gp.
  { intros c. rewrite G. destruct (owner c); [|reflexivity]. destruct (is_solve (v c)); [apply Fpr|reflexivity]. }
  split; [|split].
  - intros r c Ir O. rewrite (Q r c Ir), (A r c Ir O), G, O. destruct (is_solve (v c)) eqn:K.
    + assert (mem c (filter live (own r)) = true) as ->. { apply mem_In, filter_In. split; [apply Hown; assumption|]. apply Hc; [congruence|assumption]. }
      f_equal. apply Fext. intros l Il. apply (look_links pr w v r c l S Ir O Il).
    + destruct (mem c (filter live (own r))); reflexivity.
  - intros r c d Ir N E W. rewrite Gp. rewrite (Q r c Ir) in W. destruct (w r c) as [b|] eqn:Wc; [|discriminate].
    assert (pr b = pr (v c)) as <- by (apply (B r c b); assumption).
    destruct (mem c (filter live (own r))); [|congruence]. destruct (is_solve b); [|congruence]. injection W as <-. apply Fpr.
  - intros r c l Ir O Il. destruct (C r c l Ir O Il) as [C1 C2]. split; [assumption|]. rewrite (Q r _ Ir). destruct (w r (fst (fst l))) as [b|]; [|contradiction].
    destruct (mem (fst (fst l)) (filter live (own r))); [|discriminate]. destruct (is_solve b); discriminate.
Qed.

(** sums *)
Lemma filter_perm {A} (P : A -> bool) l l' : Permutation l l' -> Permutation (filter P l) (filter P l').
Proof. induction 1 as [|a l l' H IH|a b l|l l' l'' H IH H' IH']; cbn [filter]; [constructor|destruct (P a); [constructor|]; assumption|destruct (P a), (P b); try reflexivity; apply perm_swap|eapply perm_trans; eassumption]. Qed.
Lemma fold_plus {A} (f : A -> Qc) l : forall a, fold_left (fun a x => (a + f x)%Qc) l a = (a + qsum (map f l))%Qc.
Proof. induction l as [|x l IH]; intros a; cbn [fold_left map]; [rewrite qsum_nil; ring|]. rewrite IH, qsum_cons. ring. Qed.
Lemma all_sum_qsum f : all_sum ranks f = qsum (map f ranks).
Proof. unfold all_sum. rewrite fold_plus. ring. Qed.
Lemma summed_qsum f l (s : memory) : summed f l s = qsum (map (fun i => f (look s (fst i))) (filter (fun i => is_solve (look s (fst i))) l)).
Proof.
  unfold summed. assert (forall a, fold_left (fun a (i : info) => if kind (look s (fst i)) =? solve_cell then (a + f (look s (fst i)))%Qc else a) l a = (a + qsum (map (fun i => f (look s (fst i))) (filter (fun i => is_solve (look s (fst i))) l)))%Qc) as K.
  { induction l as [|i l IH]; intros a; cbn [fold_left filter map]; [rewrite qsum_nil; ring|]. rewrite IH. unfold is_solve at 2. destruct (kind (look s (fst i)) =? solve_cell); cbn [map]; [rewrite qsum_cons; ring|reflexivity]. }
  rewrite K. ring.
Qed.
Lemma look_own {X} (pr : pcell -> X) w v r c : sync pr w v -> In r ranks -> In c (own r) -> look (w r) c = v c.
Proof. intros (A & _) Ir Ic. apply look_some, A; [assumption|]. apply Hown; assumption. Qed.
Lemma map_flat_map {A B C} (f : B -> C) (h : A -> list B) l : map f (flat_map h l) = flat_map (fun a => map f (h a)) l.
Proof. induction l as [|a l IH]; cbn [flat_map]; [reflexivity|]. rewrite map_app, IH. reflexivity. Qed.
Lemma filter_flat_map {A B} (f : B -> bool) (h : A -> list B) l : filter f (flat_map h l) = flat_map (fun a => filter f (h a)) l.
Proof. induction l as [|a l IH]; cbn [flat_map]; [reflexivity|]. rewrite filter_app, IH. reflexivity. Qed.
Lemma dot_sync {X} (pr : pcell -> X) f w v : complete v -> sync pr w v -> dot ranks infos f w = gdot L f v.
Proof.
  intros Hc S. unfold dot, gdot. rewrite (qsum_perm _ _ (Permutation_map _ (filter_perm _ _ _ parts_perm))). rewrite all_sum_qsum, filter_flat_map, qsum_flat. f_equal. apply map_ext_in. intros r Ir. rewrite summed_qsum, (Hinfos r Ir).
  pose proof (fun c => look_own pr w v r c S Ir) as K. assert (forall c, In c (own r) -> is_solve (v c) = true -> live c = true) as Hl. { intros c I. apply Hc. apply (Hown r c Ir) in I. congruence. }
  clear S. revert K Hl. generalize (own r). intros l. induction l as [|c l IH]; intros K Hl; [reflexivity|]. cbn [filter].
  assert (forall x, In x l -> look (w r) x = v x) as K' by (intros x I; apply K; right; assumption). assert (forall x, In x l -> is_solve (v x) = true -> live x = true) as Hl' by (intros x I; apply Hl; right; assumption).
  specialize (IH K' Hl'). destruct (live c) eqn:E; cbn [map filter fst].
  - rewrite (K c (or_introl eq_refl)). destruct (is_solve (v c)); cbn [map fst]; [rewrite !qsum_cons, IH, (K c (or_introl eq_refl)); reflexivity|assumption].
  - destruct (is_solve (v c)) eqn:E'; [|assumption]. rewrite (Hl c (or_introl eq_refl) E') in E. discriminate.
Qed.
(** cell_info has exactly the cells that are not skipped *)
Definition exact (v : values) : Prop := forall c, owner c <> None -> live c = negb (kind (v c) =? skip_cell).
Lemma exact_complete v : exact v -> complete v.
Proof. intros H c O K. rewrite (H c O). unfold is_solve in K. apply Z.eqb_eq in K. rewrite K. reflexivity. Qed.
Lemma residual_sync {X} (pr : pcell -> X) w v : exact v -> sync pr w v -> residual ranks infos pw root w = gresidual L pw root v.
Proof.
  intros Hc S. unfold residual, gresidual. f_equal. rewrite (qsum_perm _ _ (Permutation_map _ (filter_perm _ _ _ parts_perm))). rewrite all_sum_qsum, filter_flat_map, qsum_flat. f_equal. apply map_ext_in. intros r Ir. rewrite (fold_plus (fun i : info => pw (r0 (look (w r) (fst i))))), (Hinfos r Ir).
  rewrite map_map. cbn [fst]. rewrite (filter_ext_in live (fun c => negb (kind (v c) =? skip_cell))) by (intros c I; apply Hc; apply (Hown r c Ir) in I; congruence).
  transitivity (qsum (map (fun c => pw (r0 (v c))) (filter (fun c => negb (kind (v c) =? skip_cell)) (own r)))); [|reflexivity]. rewrite Qcplus_0_l. f_equal. apply map_ext_in. intros c I. apply filter_In in I. rewrite (look_own pr w v r c S Ir (proj1 I)). reflexivity.
Qed.
Lemma scales_sync {X} (pr : pcell -> X) w v : complete v -> sync pr w v -> scales_ok ranks infos w = gscales_ok L v.
Proof.
  intros Hc S. apply Bool.eq_iff_eq_true. unfold scales_ok, gscales_ok. rewrite !forallb_forall. split.
  - intros H c I. apply L_in, parts_in, in_flat_map in I. destruct I as (r & Ir & I). destruct (is_solve (v c)) eqn:K; [|reflexivity]. cbn [negb orb].
    specialize (H r Ir). rewrite forallb_forall in H. specialize (H (c, links c)). rewrite (Hinfos r Ir) in H. cbn [fst] in H. rewrite (look_own pr w v r c S Ir I) in H. fold (is_solve (v c)) in H. rewrite K in H. apply H.
    apply in_map_iff. exists c. split; [reflexivity|]. apply filter_In. split; [assumption|]. apply Hc; [|assumption]. apply (Hown r c Ir) in I. congruence.
  - intros H r Ir. apply forallb_forall. intros i Ii. rewrite (Hinfos r Ir) in Ii. apply in_map_iff in Ii. destruct Ii as (c & <- & Ic). apply filter_In in Ic. cbn [fst]. rewrite (look_own pr w v r c S Ir (proj1 Ic)). apply H. apply L_in, parts_in, in_flat_map. exists r. tauto.
Qed.

(** kinds and factors do not change while solving *)
Lemma gsweep_keeps {X} (pr : pcell -> X) F v c : (forall ls s d, pr (F ls s d) = pr d) -> pr (gsweep L links F v c) = pr (v c).
Proof. intros H. unfold gsweep. destruct (mem c L && is_solve (v c)); [apply H|reflexivity]. Qed.
Lemma exact_sweep F v : (forall ls s d, kind (F ls s d) = kind d) -> exact v -> exact (gsweep L links F v).
Proof. intros H E c O. rewrite (gsweep_keeps kind F v c H). apply E. assumption. Qed.

Definition pr1 (d : pcell) := geo d.
Definition pr2 (d : pcell) := (geo d, p0 d, p1 d).
Definition pr3 (d : pcell) := (geo d, sol d).
Lemma weak2 a b : pr2 a = pr2 b -> pr1 a = pr1 b. Proof. unfold pr1, pr2. congruence. Qed.
Lemma weak3 a b : pr3 a = pr3 b -> pr1 a = pr1 b. Proof. unfold pr1, pr3. congruence. Qed.

Lemma fold_links_ext {A} (f h : A -> link -> A) ls : (forall a l, In l ls -> f a l = h a l) -> forall a, fold_left f ls a = fold_left h ls a.
Proof. induction ls as [|l ls IH]; intros H a; cbn [fold_left]; [reflexivity|]. rewrite (H a l (or_introl eq_refl)). apply IH. intros b x I. apply H. right. assumption. Qed.
Lemma A_dot_ext get ls s s' d : (forall l, In l ls -> get (s (fst (fst l))) = get (s' (fst (fst l)))) -> A_dot get ls s d = A_dot get ls s' d.
Proof. intros H. apply fold_links_ext. intros a l I. rewrite (H l I). reflexivity. Qed.
Lemma At_dot_ext ls s s' d : (forall l, In l ls -> geo (s (fst (fst l))) = geo (s' (fst (fst l))) /\ p1 (s (fst (fst l))) = p1 (s' (fst (fst l)))) -> At_dot ls s d = At_dot ls s' d.
Proof. intros H. apply fold_links_ext. intros a l I. destruct (H l I) as [-> ->]. reflexivity. Qed.
Lemma first_ext ls s s' d : (forall l, In l ls -> sol (s (fst (fst l))) = sol (s' (fst (fst l)))) -> first_residual ls s d = first_residual ls s' d.
Proof. intros H. apply fold_links_ext. intros a l I. rewrite (H l I). reflexivity. Qed.
Lemma jacobi_ext ls s s' d : (forall l, In l ls -> sol (s (fst (fst l))) = sol (s' (fst (fst l)))) -> jacobi ls s d = jacobi ls s' d.
Proof. intros H. apply fold_links_ext. intros a l I. rewrite (H l I). reflexivity. Qed.

Lemma first_sync w v : exact v -> sync pr1 w v -> sync pr1 (first_values owner infos w) (gfirst L links v) /\ exact (gfirst L links v).
Proof.
  intros E S. split; [|apply exact_sweep; [reflexivity|assumption]]. apply (sync_weaken pr3 pr1); [exact weak3|]. apply everywhere_sync; [|reflexivity|apply exact_complete; assumption|].
  - intros ls s s' d H. cbv zeta. rewrite (first_ext ls s s' d); [reflexivity|]. intros l I. specialize (H l I). unfold pr3 in H. congruence.
  - apply (exchange_sync pr1 pr3); [|assumption]. unfold pr1, pr3. intros d e Q. cbn. congruence.
Qed.
Lemma ap0_sync w v : exact v -> sync pr1 w v -> sync pr2 (with_ap0 owner infos w) (gap0 L links v) /\ exact (gap0 L links v).
Proof.
  intros E S. split; [|apply exact_sweep; [reflexivity|assumption]]. apply everywhere_sync; [|reflexivity|apply exact_complete; assumption|].
  - intros ls s s' d H. rewrite (A_dot_ext p0 ls s s' d); [reflexivity|]. intros l I. specialize (H l I). unfold pr2 in H. congruence.
  - apply (exchange_sync pr1 pr2); [|assumption]. unfold pr1, pr2. intros d e Q. cbn. congruence.
Qed.
Lemma sol_sync alpha w v : exact v -> sync pr2 w v -> sync pr2 (with_sol infos alpha w) (gsol L links alpha v) /\ exact (gsol L links alpha v).
Proof. intros E S. split; [|apply exact_sweep; [reflexivity|assumption]]. apply everywhere_sync; [reflexivity|reflexivity|apply exact_complete; assumption|assumption]. Qed.
Lemma save_sync w v : exact v -> sync pr2 w v -> sync pr2 (save infos w) (gsave L links v) /\ exact (gsave L links v).
Proof. intros E S. split; [|apply exact_sweep; [reflexivity|assumption]]. apply everywhere_sync; [reflexivity|reflexivity|apply exact_complete; assumption|assumption]. Qed.
Lemma r_sync alpha w v : exact v -> sync pr2 w v -> sync pr2 (with_r infos alpha w) (gr L links alpha v) /\ exact (gr L links alpha v).
Proof.
  intros E S. assert (exact (gsweep L links (fun _ _ d => set_r0 d (r0 d - alpha * ap0 d)%Qc) v)) as E1 by (apply exact_sweep; [reflexivity|assumption]). split; [|apply exact_sweep; [reflexivity|assumption]].
  apply everywhere_sync; [|reflexivity|apply exact_complete; assumption|].
  - intros ls s s' d H. rewrite (At_dot_ext ls s s' d); [reflexivity|]. intros l I. specialize (H l I). unfold pr2 in H. split; congruence.
  - apply everywhere_sync; [reflexivity|reflexivity|apply exact_complete; assumption|assumption].
Qed.
Lemma p_sync beta w v : exact v -> sync pr1 w v -> sync pr1 (with_p infos beta w) (gp L links beta v) /\ exact (gp L links beta v).
Proof. intros E S. split; [|apply exact_sweep; [reflexivity|assumption]]. apply everywhere_sync; [reflexivity|reflexivity|apply exact_complete; assumption|assumption]. Qed.
Lemma take_sync w v : exact v -> sync pr1 w v -> sync pr1 (take_best infos w) (gtake L links v) /\ exact (gtake L links v).
Proof. intros E S. split; [|apply exact_sweep; [reflexivity|assumption]]. apply everywhere_sync; [reflexivity|reflexivity|apply exact_complete; assumption|assumption]. Qed.

Definition same_going (q : going) (p : ggoing) : Prop := sync pr1 (q_world q) (gq_values p) /\ exact (gq_values p) /\ q_dot q = gq_dot p /\ q_min q = gq_min p.
Lemma iteration_sync M it q p : same_going q p ->
  match iteration ranks owner infos pw root M it q, giteration L links pw root M it p with
  | Ended w, GEnded v => sync pr1 w v /\ exact v
  | Again q', GAgain p' => same_going q' p'
  | _, _ => False
  end.
Proof.
  intros (S & E & Ed & Em). unfold iteration, giteration. cbv zeta. rewrite <- Ed, <- Em.
  destruct (ap0_sync _ _ E S) as [S1 E1].
  assert (dot_p ranks infos (with_ap0 owner infos (q_world q)) = gdot_p L (gap0 L links (gq_values p))) as -> by (apply (dot_sync pr2); [apply exact_complete|]; assumption).
  destruct (qeqb (gdot_p L (gap0 L links (gq_values p))) 0%Qc); [split; [apply (sync_weaken pr2 pr1); [exact weak2|assumption]|assumption]|].
  set (alpha := (q_dot q / gdot_p L (gap0 L links (gq_values p)))%Qc).
  destruct (sol_sync alpha _ _ E1 S1) as [S2 E2]. revert S2 E2. generalize (with_sol infos alpha (with_ap0 owner infos (q_world q))) as w2. generalize (gsol L links alpha (gap0 L links (gq_values p))) as v2. intros v2 w2 S2 E2.
  rewrite (residual_sync pr2 w2 v2 E2 S2). set (res := gresidual L pw root v2).
  assert (sync pr2 (if smaller res (q_min q) then save infos w2 else w2) (if smaller res (q_min q) then gsave L links v2 else v2) /\ exact (if smaller res (q_min q) then gsave L links v2 else v2)) as [S3 E3].
  { destruct (smaller res (q_min q)); [apply save_sync; assumption|split; assumption]. }
  revert S3 E3. generalize (if smaller res (q_min q) then save infos w2 else w2) as w3. generalize (if smaller res (q_min q) then gsave L links v2 else v2) as v3. intros v3 w3 S3 E3.
  assert (sync pr1 w3 v3 /\ exact v3) as D3 by (split; [apply (sync_weaken pr2 pr1); [exact weak2|assumption]|assumption]).
  destruct (qle res (stop_residual M) && (min_iterations M <=? it)); [assumption|].
  destruct (match (if smaller res (q_min q) then Some res else q_min q) with Some a => qle (increase M * a)%Qc res | None => false end && (min_iterations M <=? it)); [assumption|].
  destruct (r_sync alpha _ _ E3 S3) as [S4 E4]. assert (sync pr1 (with_r infos alpha w3) (gr L links alpha v3)) as S5 by (apply (sync_weaken pr2 pr1); [exact weak2|assumption]).
  destruct (qeqb (q_dot q) 0%Qc); [split; assumption|].
  assert (dot_r ranks infos (with_r infos alpha w3) = gdot_r L (gr L links alpha v3)) as -> by (apply (dot_sync pr2); [apply exact_complete|]; assumption).
  destruct (p_sync (gdot_r L (gr L links alpha v3) / q_dot q)%Qc _ _ E4 S5) as [S6 E6]. split; [assumption|]. split; [assumption|]. split; reflexivity.
Qed.
Lemma iterations_sync M n : forall it q p, same_going q p ->
  sync pr1 (iterations ranks owner infos pw root M n it q) (giterations L links pw root M n it p) /\ exact (giterations L links pw root M n it p).
Proof.
  induction n as [|n IH]; intros it q p S; cbn [iterations giterations]; pose proof (iteration_sync M it q p S) as K;
    destruct (iteration ranks owner infos pw root M it q) as [w|q'], (giteration L links pw root M it p) as [v|p']; try contradiction; try assumption.
  - destruct K as (K1 & K2 & _). split; assumption.
  - apply IH. assumption.
Qed.
Lemma solve_sync M n w v : exact v -> sync pr1 w v -> sync pr1 (solve_cached ranks owner infos pw root M n w) (gsolve L links pw root M n v) /\ exact (gsolve L links pw root M n v).
Proof.
  intros E S. unfold solve_cached, gsolve. destruct (first_sync w v E S) as [S1 E1].
  assert (same_going (started ranks owner infos w) (gstarted L links v)) as G.
  { unfold started, gstarted. cbv zeta. split; [assumption|]. split; [assumption|]. split; [|reflexivity]. apply (dot_sync pr1); [apply exact_complete|]; assumption. }
  destruct (iterations_sync M (pred n) 1 _ _ G) as [S2 E2]. apply take_sync; assumption.
Qed.
Lemma relax_sync w v : exact v -> sync pr1 w v ->
  match relax ranks owner infos w, grelax L links v with
  | Some (w', a), Some (v', b) => sync pr1 w' v' /\ exact v' /\ a = b
  | None, None => True
  | _, _ => False
  end.
Proof.
  intros E S. unfold relax, grelax. cbv zeta. assert (sync pr3 (exchange owner INIT w) v) as S1 by (apply (exchange_sync pr1 pr3); [unfold pr1, pr3; intros d e Q; cbn; congruence|assumption]).
  rewrite (scales_sync pr3 _ v (exact_complete v E) S1). destruct (gscales_ok L v); cbn [negb]; [|exact I].
  assert (sync pr3 (everywhere infos (fun ls s d => set_best d (jacobi ls s d)) (exchange owner INIT w)) (gjacobi L links v)) as S2.
  { apply everywhere_sync; [|reflexivity|apply exact_complete; assumption|assumption]. intros ls s s' d H. rewrite (jacobi_ext ls s s' d); [reflexivity|]. intros l I. specialize (H l I). unfold pr3 in H. congruence. }
  assert (exact (gjacobi L links v)) as E2 by (apply exact_sweep; [reflexivity|assumption]).
  destruct (take_sync _ _ E2 (sync_weaken pr3 pr1 _ _ weak3 S2)) as [S3 E3]. split; [exact S3|]. split; [assumption|]. apply (dot_sync pr3); [apply exact_complete|]; assumption.
Qed.
Lemma relaxations_sync stop n : forall w v a, exact v -> sync pr1 w v ->
  match relaxations ranks owner infos stop n w a, grelaxations L links stop n v a with
  | Some (w', b), Some (v', b') => sync pr1 w' v' /\ exact v' /\ b = b'
  | None, None => True
  | _, _ => False
  end.
Proof.
  induction n as [|n IH]; intros w v a E S; cbn [relaxations grelaxations]; [auto|]. destruct (match a with None => true | Some a => negb (qle a stop) end); [|auto].
  pose proof (relax_sync w v E S) as K. destruct (relax ranks owner infos w) as [[w' x]|], (grelax L links v) as [[v' y]|]; try contradiction; [|exact I]. destruct K as (K1 & K2 & ->). apply IH; assumption.
Qed.
End Sync.
