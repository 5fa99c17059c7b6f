(** Model of the checks that programs compiled with DEBUG make while cells are moved between
    processes, and C62: none of them ends the program.
    dccrg.hpp:3847-3861, 3896-3962, 4073-4126, 4136-4149, 4202-4229, 8513-8521, 8652-8659,
    8731-8738, 10794-10802, 11010-11017.

    [Threw] is an abort, an exit or an exception.  The checks 8581-8603 are in the branch where
    Zoltan fails and are not modelled. *)
From Verif Require Import U64 MapModel MapSpec MapProofs MapFamily MapProps HoodModel MeshModel
  MeshSpec MeshBase HoodProps MeshWalk MeshFind MeshKids MeshItem MeshCheck MeshTo MeshNear
  Sets RefineModel RefineGeo RefineInv RefineSpread RefineMerge RefineFold RefineExec RefineStop RefineNear
  BalanceModel RefineReqs Create Balance History HistProps BalProps CommModel CommInv CommProps CommViews LoadCells HistExamples CommMore CommExamples CopyProps DebugModel DebugProps DebugCommit DebugCommitProps.
Open Scope Z_scope.

Section Model.
Context {D : Type} (d0 : D) (g : grid).

(** cells inserted into a set one by one, none of which may be in it already *)
Fixpoint not_seen (seen l : list Z) : bool :=
  match l with [] => true | c :: r => negb (mem c seen) && not_seen (c :: seen) r end.
(** the part of a process' answer that is used, dccrg.hpp:8637-8648 and 8716-8727 *)
Definition answered (rank : Z) (pins l : list (Z * Z)) : list Z :=
  map fst (filter (fun e => negb (snd e =? rank) && negb (has (fst e) pins)) l).
(** the cells of pins among the [l] added or removed before *)
Definition of_pins (pins : list (Z * Z)) (l : list (Z * Z)) : list Z := filter (fun c => has c pins) (map snd l).

(** dccrg.hpp:8502-8523 with the check 8513-8521 *)
Definition pins_of_owners (st : Z -> proc D) (r : Z) : bool :=
  forallb (fun q => forallb (fun e => owned q (s_proc (p_store (st r))) (fst e)) (s_newpin (p_store (st q)))) (ranks g).
(** dccrg.hpp:8652-8659, 8731-8738 *)
Definition answers_once (r : Z) (pins : list (Z * Z)) (recv send : list (Z * Z)) (z : answer) : bool :=
  match z with
  | None => true
  | Some (imp, exp) => not_seen (of_pins pins recv) (answered r pins imp) && not_seen (of_pins pins send) (answered r pins exp)
  end.
(** dccrg.hpp:3896-3962 and 4077-4126 on one rank: added_cells and removed_cells are sets *)
Definition moves_ok (mv : Z -> moving (D := D)) (r : Z) : bool :=
  let removed q := addall (map snd (v_send (mv q))) [] in
  let added q := addall (map snd (v_recv (mv q))) [] in
  not_seen [] (gather g removed) && not_seen [] (gather g added) &&
  forallb (fun q => forallb (owned q (s_proc (v_store (mv r)))) (removed q)) (ranks g).

(** dccrg.hpp:3825-3962 *)
Definition initialize_balance_load_debug (st : Z -> proc D) (z : Z -> answer) : outcome (Z -> moving) :=
  do ok <- all_hold (fun r => do b <- verify_remote g r (st r); Done (b && verify_user_data g r (p_store (st r)))) (ranks g);
  if negb ok then Threw else
  do mv <- each g (fun r =>
    let s := p_store (st r) in
    let pins := update_pin_requests g st r in
    if negb (pins_of_owners st r) then Threw else
    do recv <- lb_receive r s pins (z r);
    do send <- lb_send r s pins (z r);
    if negb (answers_once r pins recv send (z r)) then Threw else
    Done (Moving (Store (s_proc s) (fold_left (fun f c => touch c d0 f) (map snd recv) (s_data s)) [] [] pins [] [])
            recv send)) (fun r => Moving (p_store (st r)) [] []);
  if forallb (moves_ok mv) (ranks g) then Done mv else Threw.
(** dccrg.hpp:3987-4020 with the checks 10794-10802 and 11010-11017 *)
Definition continue_balance_load_debug (mv : Z -> moving (D := D)) : outcome (Z -> moving (D := D)) :=
  if forallb (fun r => forallb (fun e => negb (fst e =? r)) (v_recv (mv r) ++ v_send (mv r))) (ranks g)
  then continue_balance_load g mv else Threw.
Fixpoint continues_debug (n : nat) (mv : Z -> moving (D := D)) : outcome (Z -> moving (D := D)) :=
  match n with O => Done mv | S k => do mv' <- continue_balance_load_debug mv; continues_debug k mv' end.
(** dccrg.hpp:4035-4238; [hs] are the neighborhoods *)
Definition finish_balance_load_debug (hs : hoods) (mv : Z -> moving (D := D)) : outcome (Z -> proc D) :=
  if negb (forallb (moves_ok mv) (ranks g)) then Threw else
  do mid <- each g (fun r =>
    let s := v_store (mv r) in
    do proc <- migrate g mv (s_proc s);
    Done (Proc no_requests (Caches [] [] [] [] []) (Store proc (s_data s) (s_refd s) (s_unrefd s) (s_pin s) (s_newpin s) (s_wt s))))
    (fun r => Proc no_requests (Caches [] [] [] [] []) (v_store (mv r)));
  do pins <- all_hold (fun r => pin_requests_succeeded (p_store (mid r))) (ranks g);
  if negb (holds_now (is_consistent g mid) && pins) then Threw else
  do st <- each g (fun r =>
    let s := p_store (mid r) in
    let s' := Store (s_proc s) (fold_left (fun f c => del c f) (map snd (v_send (mv r))) (s_data s))
                (s_refd s) (s_unrefd s) (s_pin s) (s_newpin s) (s_wt s) in
    do k <- rebuild g r s';
    Done (Proc no_requests k s')) (fun r => Proc no_requests (Caches [] [] [] [] []) (v_store (mv r)));
  do ok <- all_hold (fun r =>
    do v <- iterators g (XState st (fresh_copies d0 st) hs) default_neighborhood_id r;
    do a <- verify_neighbors g hs r (st r) v;
    do b <- verify_remote g r (st r);
    Done (a && b && verify_user_data g r (p_store (st r)))) (ranks g);
  if holds_now (is_consistent g st) && ok then Done st else Threw.
(** dccrg.hpp:1046-1064 is the case n = 1 *)
Definition balance_load_debug (hs : hoods) (n : nat) (st : Z -> proc D) (z : Z -> answer) : outcome (Z -> proc D) :=
  do a <- initialize_balance_load_debug st z;
  do b <- continues_debug n a;
  finish_balance_load_debug hs b.
End Model.

Section Props.
Context {D : Type} (d0 : D) (g : grid) (Hg : grid_ok g).
Notation m := (g_map g).

Lemma not_seen_ok l : forall seen, NoDup l -> (forall c, In c l -> ~ In c seen) -> not_seen seen l = true.
Proof.
  induction l as [|c l IH]; intros seen N S; [reflexivity|]. apply NoDup_cons_iff in N. destruct N as (Nc & N). cbn [not_seen].
  replace (mem c seen) with false by (symmetry; apply mem_not, S; left; reflexivity). cbn [negb andb]. apply IH; [assumption|]. intros x Hx [<-|Q]; [contradiction|]. apply (S x); [right|]; assumption.
Qed.
Lemma collect_ext {A} l (f f' : Z -> outcome A) base base' F : (forall r, In r l -> f' r = f r) -> collect l f base = Done F ->
  exists F', collect l f' base' = Done F' /\ forall r, In r l -> F' r = F r.
Proof.
  intros E C. destruct (collect_ok l f' base' (fun r a => a = F r)) as (F' & E' & P'); [|exists F'; split; [assumption|intros r Ir; apply P'; assumption]].
  intros r Ir. exists (F r). split; [|reflexivity]. rewrite (E r Ir). apply (collect_inv _ _ _ _ C). assumption.
Qed.
Lemma gather_NoDup (f : Z -> list Z) : (forall r, In r (ranks g) -> NoDup (f r)) ->
  (forall r q c, In r (ranks g) -> In q (ranks g) -> In c (f r) -> In c (f q) -> r = q) -> NoDup (gather g f).
Proof.
  intros N U. unfold gather. pose proof (ranks_NoDup g) as R. revert R N U. generalize (ranks g). induction l as [|r l IH]; intros R N U; cbn [flat_map]; [constructor|].
  apply NoDup_cons_iff in R. destruct R as (Nr & R). apply NoDup_app.
  - apply N. left. reflexivity.
  - apply IH; [assumption| |]; intros; [apply N; right; assumption|]. eapply U; try (right; eassumption); eassumption.
  - intros c Hc Q. apply in_flat_map in Q. destruct Q as (q & Iq & Q). apply Nr. rewrite (U r q c); auto; [left; reflexivity|right; assumption].
Qed.

Section One.
Context (own : Z -> option Z) (st : Z -> proc D) (Hgood : good g own st) (Hpins : pins_ok g own st)
  (z : Z -> answer) (dest : Z -> option Z) (Hz : answers_ok g own z dest).

Lemma moves_fine b mv : (forall r, In r (ranks g) -> moving_ok d0 g own st dest b r (mv r)) -> forallb (moves_ok g mv) (ranks g) = true.
Proof.
  intros Hmv. apply forallb_forall. intros r Ir. unfold moves_ok. cbv zeta. apply andb_true_iff. split; [apply andb_true_iff; split|].
  - apply not_seen_ok; [|intros c _ []]. apply gather_NoDup; [intros q Iq; apply addall_NoDup; constructor|].
    intros q q' c Iq Iq' Hc Hc'. rewrite addall_In in Hc, Hc'. destruct Hc as [Hc|[]], Hc' as [Hc'|[]]. apply in_map_iff in Hc, Hc'. destruct Hc as ((p1 & c1) & <- & Hc), Hc' as ((p2 & c2) & Ec & Hc'). cbn [snd] in *. subst c2.
    destruct (Hmv q Iq) as (_ & (_ & Hs) & _). destruct (Hmv q' Iq') as (_ & (_ & Hs') & _). apply Hs in Hc. apply Hs' in Hc'. destruct Hc as (O & _), Hc' as (O' & _). congruence.
  - apply not_seen_ok; [|intros c _ []]. apply gather_NoDup; [intros q Iq; apply addall_NoDup; constructor|].
    intros q q' c Iq Iq' Hc Hc'. rewrite addall_In in Hc, Hc'. destruct Hc as [Hc|[]], Hc' as [Hc'|[]]. apply in_map_iff in Hc, Hc'. destruct Hc as ((p1 & c1) & <- & Hc), Hc' as ((p2 & c2) & Ec & Hc'). cbn [snd] in *. subst c2.
    destruct (Hmv q Iq) as ((_ & Hs) & _). destruct (Hmv q' Iq') as ((_ & Hs') & _). apply Hs in Hc. apply Hs' in Hc'. destruct Hc as (_ & _ & O), Hc' as (_ & _ & O'). congruence.
  - apply forallb_forall. intros q Iq. apply forallb_forall. intros c Hc. rewrite addall_In in Hc. destruct Hc as [Hc|[]]. apply in_map_iff in Hc. destruct Hc as ((p1 & c1) & <- & Hc). cbn [snd].
    destruct (Hmv q Iq) as (_ & (_ & Hs) & _). apply Hs in Hc. destruct Hc as (O & _). destruct (Hmv r Ir) as (_ & _ & Ep & _). unfold owned. rewrite Ep, (proj1 (proj1 (proj2 Hgood r Ir)) c1), O. apply Z.eqb_refl.
Qed.
Lemma pins_fine r : In r (ranks g) -> pins_of_owners g st r = true.
Proof.
  intros Ir. apply forallb_forall. intros q Iq. apply forallb_forall. intros (c & v) Hc. cbn [fst]. destruct (proj2 Hpins q Iq) as (_ & P & _ & _ & N & _). apply In_find in Hc; [|assumption]. destruct (P c v Hc) as (O & _).
  unfold owned. rewrite (proj1 (proj1 (proj2 Hgood r Ir)) c), O. apply Z.eqb_refl.
Qed.
Lemma answered_ok r pins l seen : NoDup (map fst l) -> (forall c, In c seen -> has c pins = true) -> not_seen seen (answered r pins l) = true.
Proof.
  intros N S. apply not_seen_ok; [apply filter_snd_NoDup; assumption|]. intros c Hc Q. unfold answered in Hc. apply in_map_iff in Hc. destruct Hc as (e & <- & Hc). apply filter_In in Hc. destruct Hc as (_ & Hc). rewrite (S _ Q) in Hc. rewrite andb_false_r in Hc. discriminate.
Qed.
Lemma answers_fine r recv send : In r (ranks g) -> answers_once r (update_pin_requests g st r) recv send (z r) = true.
Proof.
  intros Ir. unfold answers_once. destruct (z r) as [[imp exp]|] eqn:E; [|reflexivity]. destruct Hz as (_ & [(Hn & _)|Ha]); [rewrite (Hn r Ir) in E; discriminate|]. destruct (Ha r Ir) as (i & e & E' & Ni & Ne & _). assert (i = imp /\ e = exp) as (-> & ->) by (split; congruence).
  apply andb_true_iff. split; apply answered_ok; try assumption; intros c Hc; unfold of_pins in Hc; apply filter_In in Hc; apply Hc.
Qed.
Lemma continues_fine k : forall b mv, (forall r, In r (ranks g) -> moving_ok d0 g own st dest b r (mv r)) -> continues_debug g k mv = continues g k mv.
Proof.
  induction k as [|k IH]; intros b mv Hmv; cbn [continues_debug continues]; [reflexivity|].
  assert (continue_balance_load_debug g mv = continue_balance_load g mv) as ->.
  { unfold continue_balance_load_debug. replace (forallb _ _) with true; [reflexivity|]. symmetry. apply forallb_forall. intros r Ir. apply forallb_forall. intros (q & c) Hq. cbn [fst]. destruct (Hmv r Ir) as ((_ & Hr) & (_ & Hs) & _).
    apply negb_true_iff, Z.eqb_neq. apply in_app_iff in Hq. destruct Hq as [Hq|Hq]; [apply Hr in Hq|apply Hs in Hq]; tauto. }
  destruct (continue_ok d0 g own st Hgood dest b mv Hmv) as (mv' & E & Hmv'). rewrite E. cbn [bind]. apply (IH true). assumption.
Qed.
End One.

Notation xreachable := (xreachable d0 g).
Theorem c62_balance_checks_hold x k z : xreachable x -> xallowed g x (Plain (LoadBalance k z)) ->
  balance_load_debug d0 g (x_hoods x) k (x_st x) z = balance_load d0 g k (x_st x) z.
Proof.
  intros Rx (dest & Hz). set (st := x_st x) in *. destruct (xreachable_inv d0 g Hg x Rx) as (own & (Hgood & Hpins) & _). fold st in Hgood, Hpins.
  assert (answers_ok g own z dest) as Hz'.
  { assert (forall c, owner st 0 c = own c) as Eo by (intros c; apply (proj1 (proj1 (proj2 Hgood 0 (rank0 g Hg))))). clear - Hz Eo. destruct Hz as (A & B). split.
    - intros c q Q. destruct (A c q Q) as (E & I). split; [|assumption]. unfold exo in *. rewrite Eo in E. assumption.
    - destruct B as [B|B]; [left; assumption|right]. intros r Ir. destruct (B r Ir) as (i & e & Ez & N1 & N2 & I1 & I2). exists i, e. split; [assumption|]. split; [assumption|]. split; [assumption|]. split; intros c q Nq; rewrite <- Eo; auto. }
  destruct (balance_load_ok d0 g Hg own st Hgood Hpins z dest Hz' k) as (res & Er & _).
  assert (xreachable (XState res (fresh_copies d0 res) (x_hoods x))) as Rx'.
  { apply (xreach_step d0 g x (Plain (LoadBalance k z))); [assumption|exists dest; assumption|]. cbn [xrun run]. fold st. rewrite Er. reflexivity. }
  pose proof Er as Eb. unfold balance_load_debug, balance_load in *.
  destruct (init_balance_ok d0 g Hg own st Hgood Hpins z dest Hz') as (mv0 & E0 & H0).
  assert (initialize_balance_load_debug d0 g st z = Done mv0) as ->.
  { unfold initialize_balance_load_debug. rewrite all_hold_ok by (intros r Ir; unfold st; rewrite (c62_boundary_verifies d0 g Hg x r Rx Ir), (c62_data_verifies d0 g Hg x r Rx Ir); reflexivity). cbn [bind negb].
    unfold initialize_balance_load, each in *. rewrite <- E0.
    match goal with |- context [collect _ ?ff ?bb] => rewrite (collect_same (ranks g) (fun r => do recv <- lb_receive r (p_store (st r)) (update_pin_requests g st r) (z r);
      do send <- lb_send r (p_store (st r)) (update_pin_requests g st r) (z r);
      Done (Moving (Store (s_proc (p_store (st r))) (fold_left (fun f c => touch c d0 f) (map snd recv) (s_data (p_store (st r)))) [] [] (update_pin_requests g st r) [] []) recv send)) ff bb) end.
    - rewrite E0. cbn [bind]. rewrite (moves_fine own st Hgood dest false mv0 H0). reflexivity.
    - intros r Ir. cbv zeta. rewrite (pins_fine own st Hgood Hpins r Ir). cbn [negb]. destruct (lb_receive r (p_store (st r)) (update_pin_requests g st r) (z r)) as [recv| |]; cbn [bind]; try reflexivity. destruct (lb_send r (p_store (st r)) (update_pin_requests g st r) (z r)) as [send| |]; cbn [bind]; try reflexivity.
      rewrite (answers_fine own st z dest Hz' r recv send Ir). reflexivity. }
  rewrite E0 in *. cbn [bind] in *. rewrite (continues_fine own st Hgood dest k false mv0 H0).
  destruct (continues_ok d0 g own st Hgood dest k false mv0 H0) as (mv & E1 & Hmv). rewrite E1 in *. cbn [bind] in *. rewrite Er.
  unfold finish_balance_load_debug. rewrite (moves_fine own st Hgood dest _ mv Hmv). cbn [negb].
  unfold finish_balance_load, each in *.
  match goal with |- context [collect _ ?f ?b] => destruct (collect_ok (ranks g) f b (fun r a => s_proc (p_store a) = s_proc (p_store (res r)) /\ s_pin (p_store a) = s_pin (p_store (res r)))) as (mid & Em & Pm) end.
  { intros r Ir. pose proof (collect_inv _ _ _ _ Er r Ir) as Rr. cbv zeta in Rr. apply bind_done in Rr. destruct Rr as (pr & Ep & Rr). apply bind_done in Rr. destruct Rr as (kk & Ek & Rr). injection Rr as <-. cbv zeta. rewrite Ep. cbn [bind]. eexists. split; [reflexivity|]. split; reflexivity. }
  rewrite Em. cbn [bind].
  assert (is_consistent g mid = Some true) as ->.
  { rewrite <- (c62_processes_are_consistent d0 g Hg _ Rx'). cbn [x_st]. unfold is_consistent.
    assert (forall r, In r (ranks g) -> sorted_cells (p_store (mid r)) = sorted_cells (p_store (res r)) /\ sorted_processes (p_store (mid r)) = sorted_processes (p_store (res r))) as S.
    { intros r Ir. unfold sorted_processes, sorted_cells. destruct (proj2 (Pm r Ir)) as (-> & _). auto. }
    destruct (S 0 (rank0 g Hg)) as (-> & ->). revert S. generalize (ranks g) at 1 2 3. induction l as [|r l IH]; intros S; cbn [fold_right]; [reflexivity|].
    destruct (S r (or_introl eq_refl)) as (-> & ->). rewrite IH by (intros q Iq; apply S; right; assumption). reflexivity. }
  rewrite all_hold_ok.
  2: { intros r Ir. pose proof (c62_pins_verify_after_balancing d0 g Hg st k z dest res r (xreachable_reachable d0 g x Rx) Hz) as V. unfold pin_requests_succeeded in *. destruct (proj2 (Pm r Ir)) as (-> & ->). apply V; [|assumption]. unfold balance_load. rewrite E0. cbn [bind]. rewrite E1. cbn [bind]. exact Er. }
  cbn [bind holds_now andb negb].
  assert (forall f', (forall r, In r (ranks g) -> f' r = Done (res r)) -> collect (ranks g) f' (fun r => Proc no_requests (Caches [] [] [] [] []) (v_store (mv r))) = Done res) as Cs.
  { intros f' Hf. rewrite <- Er. apply collect_same. intros r Ir. rewrite (Hf r Ir). symmetry. apply (collect_inv _ _ _ _ Er r Ir). }
  rewrite Cs.
  2: { intros r Ir. pose proof (collect_inv _ _ _ _ Er r Ir) as Rr. pose proof (proj1 (Pm r Ir)) as Mr. cbv zeta in Rr, Mr |- *. apply bind_done in Rr. destruct Rr as (pr & Ep & Rr). rewrite Ep in Mr. cbn [bind] in Mr. injection Mr as <-. cbn [p_store s_proc s_data s_refd s_unrefd s_pin s_newpin s_wt]. exact Rr. }
  cbn [bind]. rewrite all_hold_ok.
  - cbn [bind]. pose proof (c62_processes_are_consistent d0 g Hg _ Rx') as C. cbn [x_st] in C. rewrite C. reflexivity.
  - intros r Ir. destruct (c38_cells d0 g Hg _ default_neighborhood_id (g_hood g) r Rx' eq_refl Ir) as (v & Ev & _). rewrite Ev. cbn [bind].
    pose proof (c62_neighbor_lists_verify d0 g Hg _ _ r v Rx' Rx' Ir Ev) as A. pose proof (c62_boundary_verifies d0 g Hg _ r Rx' Ir) as B. pose proof (c62_data_verifies d0 g Hg _ r Rx' Ir) as C. cbn [x_st x_hoods] in A, B, C. rewrite A, B, C. reflexivity.
Qed.
End Props.
Print Assumptions c62_balance_checks_hold.

(** ** Moving cells of pins and of answers *)
Definition halves : list (@step Z) := map Do [Refine 0 1; Stop; Clear 0; Write 0 kid1 7; Pin 0 kid2 1].
Example c62_balance_example : holds (go 0 g2 halves) (fun st =>
  planb g2 st [(kid1, 1); (2, 0)] && holds (balance_load_debug 0 g2 [(4, [Idx 1 0 0])] 1 st (plan st [(kid1, 1); (2, 0)])) (fun st' =>
    eqo (owner st' 0 kid1) (Some 1) && eqo (owner st' 1 kid2) (Some 1) && eqo (owner st' 1 2) (Some 0) && eqo (find kid1 (s_data (p_store (st' 1)))) (Some 7))) = true.
Proof. vm_compute. reflexivity. Qed.
(** the checks notice a cell that two processes receive, a cell named twice, a cell sent by a
    process that does not own it, a pin of another process' cell and messages to the process itself *)
Example c62_balance_checks_notice : holds (go 0 g2 halves) (fun st =>
  let gives (z : Z -> answer) := throws (balance_load_debug 0 g2 [] 1 st z) in
  gives (fun r => Some (if r =? 1 then ([(kid1, 0); (kid1, 0)], []) else ([], [(kid1, 1)]))) &&
  gives (fun r => Some (if r =? 1 then ([], [(kid1, 0)]) else ([(kid1, 1)], []))) &&
  holds (initialize_balance_load 0 g2 st (fun _ => None)) (fun mv =>
    moves_ok g2 mv 0 && negb (moves_ok g2 (fun r => Moving (v_store (mv r)) [(0, 2)] []) 0) &&
    negb (moves_ok g2 (fun r => Moving (v_store (mv r)) [] (if r =? 0 then [(1, 2)] else [])) 0) &&
    throws (continue_balance_load_debug g2 (fun r => Moving (v_store (mv r)) [] [(r, 2)]))) &&
  pins_of_owners g2 st 0 && negb (pins_of_owners g2 (fun r => st (1 - r)) 0)) = true.
Proof. vm_compute. reflexivity. Qed.
