(** Updates between neighbors that transfer a part of the data. *)
From Verif Require Import U64 MapModel MapSpec MapProofs MapFamily MapProps HoodModel MeshModel
  MeshSpec MeshBase HoodProps Sets RefineModel RefineGeo RefineInv RefineFold RefineStop BalanceModel Create Balance
  History HistProps CommitProps BalProps CommModel CommInv CommProps Stages StageProps HistExamples CommExamples OverlapProps.
Open Scope Z_scope.

Section Updates.
Context {D : Type} (d0 : D) (g : grid) (Hg : grid_ok g).
Notation m := (g_map g).
Notation rank r := (In r (ranks g)).
Notation state := (xstate (D := D)).
Notation needs := (needs g).

Lemma lists_sent own (x : state) id U : xinv g own x -> hood_at g (x_hoods x) id = Some U -> exists rv sd,
  (forall A (k : (Z -> list (Z * Z)) -> (Z -> list (Z * Z)) -> outcome A),
    (do L <- each g (fun r => lists_of g (x_hoods x) id r (x_st x r)) (fun _ => None);
     do lists <- each g (fun r => match L r with Some l => Done l | None => Threw end) (fun _ => Lists [] [] [] []);
     do recv <- each g (fun r => recv_pairs r (p_store (x_st x r)) (lists r)) (fun _ => []);
     do send <- each g (fun r => send_pairs r (p_store (x_st x r)) (lists r)) (fun _ => []); k recv send) = k rv sd) /\
  (forall r, rank r -> NoDup (rv r) /\ forall q c, In (q, c) (rv r) <-> receives g U own r q c) /\
  forall r, rank r -> NoDup (sd r) /\ forall q c, In (q, c) (sd r) <-> receives g U own q r c.
Proof.
  intros ((Hgood & _) & Hc & Ho) Eh. pose proof Hgood as (Hw & Hr).
  destruct (each_ok g (fun r => lists_of g (x_hoods x) id r (x_st x r)) (fun _ => None) (fun r L => exists l, L = Some l /\ lists_spec g U own r l)) as (L & EL & PL).
  { intros r Ir. destruct (lists_of_ok g Hg own (x_st x) (x_hoods x) id r U Hgood Ho Ir Eh) as (l & El & Sl). eauto. }
  destruct (each_ok g (fun r => match L r with Some l => Done l | None => Threw end) (fun _ => Lists [] [] [] []) (lists_spec g U own)) as (ls & Els & Pls).
  { intros r Ir. destruct (PL r Ir) as (_ & l & -> & Sl). eauto. }
  destruct (each_ok g (fun r => recv_pairs r (p_store (x_st x r)) (ls r)) (fun _ => []) (fun r l => NoDup l /\ forall q c, In (q, c) l <-> receives g U own r q c)) as (rv & Erv & Prv).
  { intros r Ir. destruct (Hr r Ir) as (Hs & _). destruct (recv_pairs_ok g own r _ Hw Hs U (ls r) (proj2 (Pls r Ir))) as (l & El & Pl). eauto. }
  destruct (each_ok g (fun r => send_pairs r (p_store (x_st x r)) (ls r)) (fun _ => []) (fun r l => NoDup l /\ forall q c, In (q, c) l <-> receives g U own q r c)) as (sd & Esd & Psd).
  { intros r Ir. destruct (Hr r Ir) as (Hs & _). destruct (send_pairs_ok g own r _ Hw Hs U (ls r) (proj2 (Pls r Ir))) as (l & El & Pl). eauto. }
  exists rv, sd. split; [|split].
  - intros A k. rewrite EL. cbn [bind]. rewrite Els. cbn [bind]. rewrite Erv. cbn [bind]. rewrite Esd. cbn [bind]. reflexivity.
  - intros r Ir. apply (Prv r Ir).
  - intros r Ir. apply (Psd r Ir).
Qed.

Section One.
Context (ab : absorb (D := D)) (own : Z -> option Z) (x : state) (id : Z) (U : hood) (Hx : xinv g own x) (EU : hood_at g (x_hoods x) id = Some U).
Notation src rv r := (fun c => match own c with Some q => if mem c (listed q (rv r)) then Some q else None | None => None end).
Lemma src_iff rv r c q : rank r -> (NoDup (rv r) /\ forall q c, In (q, c) (rv r) <-> receives g U own r q c) -> src rv r c = Some q <-> receives g U own r q c.
Proof.
  intros Ir [_ P]. destruct (own c) as [w|] eqn:O.
  - destruct (mem c (listed w (rv r))) eqn:Em.
    + apply mem_In, listed_In, P in Em. split; [intros Q; injection Q as <-; assumption|]. intros (Q & _). congruence.
    + apply mem_not in Em. rewrite listed_In, P in Em. split; [discriminate|]. intros Q. exfalso. apply Em. assert (w = q) as -> by (destruct Q; congruence). assumption.
  - split; [discriminate|]. intros (Q & _). congruence.
Qed.
Lemma copy_there r q c : rank r -> receives g U own r q c -> exists b, find c (x_copies x r) = Some b.
Proof.
  intros Ir Q. destruct Hx as ((Hgood & _) & Hc & Ho). destruct (Hc r Ir) as [_ K]. apply has_find. apply K. apply (receives_remote g Hg own (x_st x) r q c U Hgood); [|assumption|assumption]. apply (hood_at_sub g (x_hoods x) id U Ho EU).
Qed.
Lemma owner_data r q c : receives g U own r q c -> rank q /\ exists v, find c (s_data (p_store (x_st x q))) = Some v.
Proof. intros (O & _). destruct Hx as (Hi & _). pose proof (proj2 (proj1 (proj1 Hi)) c q O) as Iq. split; [assumption|]. apply (data_local g own (x_st x) q c Hi Iq O). Qed.

Lemma peers_of : exists rv sd, (forall r, rank r -> NoDup (rv r) /\ forall q c, In (q, c) (rv r) <-> receives g U own r q c) /\
  update_with d0 g ab x id = (do copies <- each g (fun r => deliver_with d0 g ab r x sd rv) (x_copies x); Done (XState (x_st x) copies (x_hoods x))) /\
  update_copies g x id = (do copies <- each g (fun r => deliver g r x sd rv) (x_copies x); Done (match hood_lookup (x_hoods x) id with Some _ => true | None => false end, XState (x_st x) copies (x_hoods x))) /\
  forall r, rank r -> (forall q, rank q -> listed r (sd q) = listed q (rv r) /\ NoDup (listed r (sd q))) /\ (forall q c, rank q -> In c (listed r (sd q)) <-> src rv r c = Some q) /\ (forall c q, src rv r c = Some q -> rank q).
Proof.
  destruct (lists_sent own x id U Hx EU) as (rv & sd & Ek & Prv & Psd). exists rv, sd. split; [assumption|]. split; [apply Ek|]. split; [apply (Ek _ (fun recv send => do copies <- each g (fun r => deliver g r x send recv) (x_copies x); Done (match hood_lookup (x_hoods x) id with Some _ => true | None => false end, XState (x_st x) copies (x_hoods x))))|].
  intros r Ir. split; [|split].
  - intros q Iq. destruct (Psd q Iq) as (N1 & P1). destruct (Prv r Ir) as (N2 & P2). split; [|apply listed_NoDup'; assumption]. apply listed_same'; [assumption|assumption|]. intros k. rewrite P1, P2. reflexivity.
  - intros q c Iq. rewrite listed_In, (src_iff rv r c q Ir (Prv r Ir)). apply (proj2 (Psd q Iq)).
  - intros c q Q. apply (src_iff rv r c q Ir (Prv r Ir)) in Q. apply (owner_data r q c Q).
Qed.
Lemma update_with_inv x' : update_with d0 g ab x id = Done x' ->
  forall r q c v b, rank r -> receives g U own r q c -> find c (s_data (p_store (x_st x q))) = Some v -> find c (x_copies x r) = Some b -> exists u, ab c q r v b = Done u.
Proof.
  destruct peers_of as (rv & sd & Prv & -> & _ & HP). intros E r q c v b Ir Q V B. apply bind_done in E. destruct E as (cp & E & _). pose proof (collect_inv _ _ _ _ E r Ir) as Er. cbv beta in Er. destruct (HP r Ir) as (P1 & P2 & P3).
  destruct (receives_into_inv d0 _ _ _ (src rv r) (fun c q => ab c q r) (ranks g) P1 P2 (ranks_NoDup g) P3 _ _ Er c q (proj2 (src_iff rv r c q Ir (Prv r Ir)) Q)) as (v' & u & Ev & Eu). assert (v' = v) as -> by congruence. unfold held in Eu. rewrite B in Eu. eauto.
Qed.
Lemma update_with_ok : (forall r q c v b, rank r -> receives g U own r q c -> find c (s_data (p_store (x_st x q))) = Some v -> find c (x_copies x r) = Some b -> exists u, ab c q r v b = Done u) ->
  exists x', update_with d0 g ab x id = Done x' /\ x_st x' = x_st x /\ x_hoods x' = x_hoods x /\
  (exists b x0, update_copies g x id = Done (b, x0) /\ x_st x0 = x_st x /\ x_hoods x0 = x_hoods x /\ forall r, rank r -> keys (x_copies x' r) = keys (x_copies x0 r)) /\
  forall r c, rank r ->
    (forall q, receives g U own r q c -> exists v b u, find c (s_data (p_store (x_st x q))) = Some v /\ find c (x_copies x r) = Some b /\ ab c q r v b = Done u /\ find c (x_copies x' r) = Some u) /\
    ((forall q, ~ receives g U own r q c) -> find c (x_copies x' r) = find c (x_copies x r)).
Proof.
  intros H. destruct peers_of as (rv & sd & Prv & -> & Ep & HP).
  pose (val := fun r c => match own c with Some q => match find c (s_data (p_store (x_st x q))), find c (x_copies x r) with Some v, Some b => match ab c q r v b with Done u => u | _ => d0 end | _, _ => d0 end | None => d0 end).
  assert (forall r q c, rank r -> receives g U own r q c -> exists v b, find c (s_data (p_store (x_st x q))) = Some v /\ find c (x_copies x r) = Some b /\ ab c q r v b = Done (val r c)) as Hv.
  { intros r q c Ir Q. destruct (owner_data r q c Q) as (_ & v & V). destruct (copy_there r q c Ir Q) as (b & B). exists v, b. split; [assumption|]. split; [assumption|]. unfold val. rewrite (proj1 Q), V, B. destruct (H r q c v b Ir Q V B) as (u & ->). reflexivity. }
  destruct (each_ok g (fun r => deliver_with d0 g ab r x sd rv) (x_copies x) (fun r f => forall c, find c f = match src rv r c with Some _ => Some (val r c) | None => find c (x_copies x r) end)) as (cp & E & Pc).
  { intros r Ir. destruct (HP r Ir) as (P1 & P2 & P3). apply (receives_into_ok d0 (fun q => listed r (sd q)) (fun q => listed q (rv r)) (fun q => s_data (p_store (x_st x q))) (src rv r) (fun c q => ab c q r) (ranks g) P1 P2 (ranks_NoDup g) P3 (val r) (x_copies x r)).
    intros c q Q. apply (src_iff rv r c q Ir (Prv r Ir)) in Q. destruct (Hv r q c Ir Q) as (v & b & V & B & Eu). exists v. split; [assumption|]. unfold held. rewrite B. assumption. }
  rewrite E. cbn [bind]. eexists. split; [reflexivity|]. split; [reflexivity|]. split; [reflexivity|]. cbn [x_copies]. split.
  - destruct (update_ok g Hg own x id U Hx EU) as (x0 & E0 & S0 & H0 & _). eexists _, x0. split; [exact E0|]. split; [assumption|]. split; [assumption|]. intros r Ir. rewrite Ep in E0. apply bind_done in E0. destruct E0 as (cp0 & E0 & Q). injection Q as <-. cbn [x_copies].
    pose proof (collect_inv _ _ _ _ E r Ir) as Er. pose proof (collect_inv _ _ _ _ E0 r Ir) as Er0. cbv beta in Er, Er0.
    destruct (fetch_keys d0 (fun c q => ab c q r) (fun q => s_data (p_store (x_st x q))) (fun q => s_data (p_store (x_st x q))) (fun q => listed r (sd q)) (fun q => listed q (rv r)) (ranks g) _ _ (x_copies x r) (fun q _ => eq_refl) Er eq_refl) as (f & Ef & K). unfold deliver in Er0. rewrite K. f_equal. congruence.
  - intros r c Ir. destruct (Pc r Ir) as [_ P]. split.
    + intros q Q. destruct (Hv r q c Ir Q) as (v & b & V & B & Eu). exists v, b, (val r c). split; [assumption|]. split; [assumption|]. split; [assumption|]. rewrite P, (proj2 (src_iff rv r c q Ir (Prv r Ir)) Q). reflexivity.
    + intros Q. rewrite P. destruct (src rv r c) as [q|] eqn:S; [|reflexivity]. apply (src_iff rv r c q Ir (Prv r Ir)) in S. exfalso. apply (Q q S).
Qed.
End One.

(** an update ends well if and only if every message fits into the copy it goes to *)
Theorem c72_when_updates_succeed ab x id U : xreachable d0 g x -> hood_at g (x_hoods x) id = Some U ->
  (exists x', update_with d0 g ab x id = Done x') <->
  forall r q c v b, rank r -> needs U x r q c -> read x q c = Some v -> read x r c = Some b -> exists u, ab c q r v b = Done u.
Proof.
  intros R EU. destruct (xreachable_inv d0 g Hg x R) as (own & Hx). pose proof Hx as (Hi & _).
  assert (forall r q c, rank r -> receives g U own r q c -> (forall v, read x q c = Some v <-> find c (s_data (p_store (x_st x q))) = Some v) /\ (forall b, read x r c = Some b <-> find c (x_copies x r) = Some b)) as K.
  { intros r q c Ir Q. destruct (owner_data own x U Hx r q c Q) as (Iq & v & V). destruct (copy_there own x id U Hx EU r q c Ir Q) as (b & B). unfold read. rewrite V, B, (data_not_local g own (x_st x) r c Hi Ir); [split; intros; reflexivity|]. destruct Q as (O & N & _). congruence. }
  split.
  - intros (x' & E) r q c v b Ir N V B. apply (needs_iff g own U x r q c Hx Ir) in N. destruct (K r q c Ir N) as [K1 K2]. apply (update_with_inv ab own x id U Hx EU x' E r q c v b Ir N); [apply K1|apply K2]; assumption.
  - intros H. destruct (update_with_ok ab own x id U Hx EU) as (x' & E & _); [|eauto]. intros r q c v b Ir N V B. destruct (K r q c Ir N) as [K1 K2]. apply (H r q c v b Ir); [apply (needs_iff g own U x r q c Hx Ir); assumption|apply K1; assumption|apply K2; assumption].
Qed.
(** a copy becomes what the transfer makes of the owner's data and of the copy before *)
Theorem c72_update_parts ab x id U x' : xreachable d0 g x -> hood_at g (x_hoods x) id = Some U -> update_with d0 g ab x id = Done x' ->
  x_st x' = x_st x /\ x_hoods x' = x_hoods x /\ forall r c, rank r ->
    (forall q, needs U x r q c -> exists v b u, read x q c = Some v /\ read x r c = Some b /\ ab c q r v b = Done u /\ read x' r c = Some u) /\
    ((forall q, ~ needs U x r q c) -> read x' r c = read x r c).
Proof.
  intros R EU E. destruct (xreachable_inv d0 g Hg x R) as (own & Hx). pose proof Hx as (Hi & _).
  destruct (update_with_ok ab own x id U Hx EU (update_with_inv ab own x id U Hx EU x' E)) as (x1 & E1 & S1 & H1 & _ & P). assert (x1 = x') as -> by congruence. split; [assumption|]. split; [assumption|]. intros r c Ir. destruct (P r c Ir) as [P1 P2]. split.
  - intros q N. apply (needs_iff g own U x r q c Hx Ir) in N. destruct (P1 q N) as (v & b & u & V & B & Eu & F). exists v, b, u. unfold read. rewrite S1, V, (data_not_local g own (x_st x) r c Hi Ir), B, F; [auto|]. destruct N as (O & N & _). congruence.
  - intros N. unfold read. rewrite S1, P2; [reflexivity|]. intros q Q. apply (N q). apply (needs_iff g own U x r q c Hx Ir). assumption.
Qed.

(** the result is as after an ordinary update, then writing into copies *)
Lemma write_copies x r l : xreachable d0 g x -> rank r -> exists x1, xreachable d0 g x1 /\ x_st x1 = x_st x /\ x_hoods x1 = x_hoods x /\ x_copies x1 r = over l (x_copies x r) /\ forall q, q <> r -> x_copies x1 q = x_copies x q.
Proof.
  intros R Ir. induction l as [|[c v] l (x1 & R1 & S1 & H1 & E1 & O1)].
  - exists x. split; [assumption|]. split; [reflexivity|]. split; [reflexivity|]. split; [|reflexivity]. unfold over. rewrite <- (map_id (x_copies x r)) at 1. apply map_ext. intros []; reflexivity.
  - eexists. split; [apply (xreach_step d0 g x1 (WriteCopy r c v)); [assumption|assumption|reflexivity]|]. cbn [x_st x_hoods x_copies]. split; [assumption|]. split; [assumption|]. rewrite Z.eqb_refl. split; [rewrite over_cons, E1; reflexivity|].
    intros q N. destruct (Z.eqb_spec q r); [contradiction|]. apply O1. assumption.
Qed.
Theorem c72_updates_reach_ordinary_states ab x id U x' : xreachable d0 g x -> hood_at g (x_hoods x) id = Some U -> update_with d0 g ab x id = Done x' ->
  exists x1, xreachable d0 g x1 /\ x_st x1 = x_st x' /\ x_hoods x1 = x_hoods x' /\ forall r, rank r -> x_copies x1 r = x_copies x' r.
Proof.
  intros R EU E. destruct (xreachable_inv d0 g Hg x R) as (own & Hx).
  destruct (update_with_ok ab own x id U Hx EU (update_with_inv ab own x id U Hx EU x' E)) as (x2 & E2 & S2 & H2 & (b & x0 & E0 & S0 & H0 & K) & _). assert (x2 = x') as -> by congruence.
  assert (xreachable d0 g x0) as R0.
  { apply (xreach_step d0 g x (Update id)); [assumption| |cbn [xrun]; rewrite E0; reflexivity]. cbn [xallowed]. unfold hood_at in EU. destruct (Z.eqb_spec id default_neighborhood_id); [left; assumption|right; congruence]. }
  assert (forall r, rank r -> NoDup (keys (x_copies x0 r))) as Nd. { destruct (xreachable_inv d0 g Hg x0 R0) as (own0 & _ & Hc & _). intros r Ir. apply (Hc r Ir). }
  assert (forall qs, NoDup qs -> (forall q, In q qs -> rank q) -> exists x1, xreachable d0 g x1 /\ x_st x1 = x_st x0 /\ x_hoods x1 = x_hoods x0 /\ (forall r, In r qs -> x_copies x1 r = x_copies x' r) /\ forall r, ~ In r qs -> x_copies x1 r = x_copies x0 r) as G.
  { induction qs as [|q qs IH]; intros N Hq; [exists x0; split; [assumption|]; split; [reflexivity|]; split; [reflexivity|]; split; [intros r []|reflexivity]|]. apply NoDup_cons_iff in N. destruct N as [Nq N]. destruct IH as (x1 & R1 & S1 & H1 & E1 & O1); [assumption|intros p Hp; apply Hq; right; assumption|].
    pose proof (Hq q (or_introl eq_refl)) as Iq. destruct (write_copies x1 q (x_copies x' q) R1 Iq) as (x3 & R3 & S3 & H3 & E3 & O3). exists x3. split; [assumption|]. split; [congruence|]. split; [congruence|]. split.
    - intros r [<-|Hr]; [|rewrite O3 by (intros ->; contradiction); apply E1; assumption]. rewrite E3, (O1 q Nq). apply over_all; [apply K; assumption|apply Nd; assumption].
    - intros r Hr. rewrite O3 by (intros ->; apply Hr; left; reflexivity). apply O1. intros Q. apply Hr. right. assumption. }
  destruct (G (ranks g) (ranks_NoDup g)) as (x1 & R1 & S1 & H1 & E1 & _); [auto|]. exists x1. split; [assumption|]. split; [congruence|]. split; [congruence|]. assumption.
Qed.
End Updates.

(** ** Examples *)
(** cells 1, 2 on process 0 and 3, 4 on process 1; cells 1 and 4 change places *)
Definition swap : list (Z * Z) := [(1, 1); (4, 0)].
Definition lists0 : list (step (D := nat * list Z)) := [Do (Write 0 1 (2%nat, [7; 8])); Do (Write 0 2 (1%nat, [9])); Do (Write 1 4 (1%nat, [5]))].
Example c72_example : match go (0%nat, []) row lists0 with
  | Done st => planb row st swap = true /\
    match staged_balance (0%nat, []) row (sized 0) st (plan st swap) with
    | Done st' => data_of (st' 1) 1 = Some (2%nat, [7; 8]) /\ data_of (st' 0) 4 = Some (1%nat, [5]) /\ data_of (st' 0) 2 = Some (1%nat, [9]) /\ data_of (st' 0) 1 = None
    | _ => False end /\
    (* without making room in the second stage *)
    staged_balance (0%nat, []) row [Stage (fun _ _ x => x) (fun _ _ _ v b => Done (fst v, snd b)); Stage (fun _ _ x => x) (fun _ _ _ v b => do l <- fill (snd v) (snd b); Done (fst b, l))] st (plan st swap) = Threw
  | _ => False end.
Proof. vm_compute. repeat split. Qed.
(** the two halves of the data are sent in two stages, in between the sender changes what is not
    yet sent *)
Definition halves : list (stage (D := Z * Z)) :=
  [Stage (fun _ _ x => x) (fun _ _ _ v b => Done (fst v, snd b)); Stage (fun r c x => if r =? 0 then (fst x, snd x + 1) else x) (fun _ _ _ v b => Done (fst b, snd v))].
Example c72_parts_example : match go (0, 0) row [Do (Write 0 1 (1, 2)); Do (Write 0 2 (3, 4)); Do (Write 1 4 (5, 6))] with
  | Done st => match staged_balance (0, 0) row halves st (plan st swap) with
    | Done st' => data_of (st' 1) 1 = Some (1, 3) /\ data_of (st' 0) 2 = Some (3, 5) /\ data_of (st' 0) 4 = Some (5, 6)
    | _ => False end
  | _ => False end.
Proof. vm_compute. repeat split. Qed.
Example c72_update_example : match xgo (0, 0) row [XDo (Plain (Write 0 2 (1, 2))); XDo (Plain (Write 1 3 (3, 4))); XDo (WriteCopy 1 2 (8, 9))] with
  | Done x => match update_with (0, 0) row (fun c _ _ v b => Done (if c =? 2 then (fst v, snd b) else v)) x default_neighborhood_id with
    | Done x' => read x' 1 2 = Some (1, 9) /\ read x' 0 3 = Some (3, 4) /\ read x' 0 2 = Some (1, 2)
    | _ => False end
  | _ => False end.
Proof. vm_compute. repeat split. Qed.
Print Assumptions c72_updates_reach_ordinary_states.
Print Assumptions c72_stages_move_data.
Print Assumptions c72_stages_reach_ordinary_states.
Print Assumptions c72_length_then_items.
Print Assumptions c72_whole_messages.
