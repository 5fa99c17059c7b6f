(** C73: the game of life programs play the game of life, whatever the processes of cells and the order
    of messages. *)
From Verif Require Import U64 MapModel MapSpec MapProofs MapFamily MapProps HoodModel MeshModel
  MeshSpec MeshBase HoodProps MeshWalk MeshFind MeshKids MeshItem MeshCheck MeshTo MeshNear
  Sets RefineModel RefineGeo RefineInv RefineSpread RefineMerge RefineFold RefineExec RefineStop
  BalanceModel RefineReqs Create Balance History HistProps CommitProps BalProps LoadCells HistExamples CommModel CommInv CommProps CommMore CommExamples Async CommAsync CommViews CopyProps Overlap OverlapProps Rounds GameSpec GameModel.
From Coq Require Import Permutation.
Open Scope Z_scope.

Lemma NoDup_app_l {A} (a b : list A) : NoDup (a ++ b) -> NoDup a.
Proof.
  induction a as [|y a IH]; intros N; [constructor|]. cbn [app] in N. inversion N as [|? ? N1 N2]; subst. constructor; [|auto]. intros I. apply N1, in_app_iff. auto.
Qed.
Lemma NoDup_firstn {A} n (l : list A) : NoDup l -> NoDup (firstn n l).
Proof. intros N. rewrite <- (firstn_skipn n l) in N. apply NoDup_app_l in N. assumption. Qed.
Lemma filter_split_perm {A} (P : A -> bool) l : Permutation (filter P l ++ filter (fun x => negb (P x)) l) l.
Proof.
  induction l as [|a l IH]; [constructor|]. cbn [filter]. destruct (P a); cbn [negb app]; [constructor; assumption|]. rewrite <- Permutation_middle. constructor. assumption.
Qed.
Lemma filter_perm {A} (P : A -> bool) l l' : Permutation l l' -> Permutation (filter P l) (filter P l').
Proof.
  induction 1 as [|a l l' H IH|a b l|l l' l'' H IH H' IH']; cbn [filter]; [constructor| | |eapply perm_trans; eassumption].
  - destruct (P a); [constructor; assumption|assumption].
  - destruct (P a), (P b); try reflexivity. constructor.
Qed.
Lemma filter_map_swap {A B} (f : A -> B) (P : B -> bool) l : filter P (map f l) = map f (filter (fun a => P (f a)) l).
Proof. induction l as [|a l IH]; [reflexivity|]. cbn [map filter]. destruct (P (f a)); cbn [map]; rewrite IH; reflexivity. Qed.
Lemma live_some (val : Z -> Z) l : forall n, 0 <= n -> n + Z.of_nat (length l) < 2 ^ 32 ->
  live (map (fun c => Some (val c)) l) n = Some (n + Z.of_nat (length (filter (fun c => 0 <? val c) l))).
Proof.
  induction l as [|c l IH]; intros n Hn L; cbn [map live filter]; [f_equal; cbn [length]; lia|]. cbn [length] in L. destruct (0 <? val c).
  - rewrite Z.mod_small by lia. rewrite IH by lia. f_equal. cbn [length]. lia.
  - apply IH; lia.
Qed.

Section Game.
Context (g : grid) (Hg : grid_ok g).
Notation m := (g_map g).
Notation t := (g_topo g).
Notation rank r := (In r (ranks g)).
Notation U := (g_hood g).
Notation state := (xstate (D := Z * Z)).
Notation did := default_neighborhood_id.
Context (d0 : Z * Z) (x : state) (Rx : xreachable d0 g x) (Hlevel : forall c, exists_on (x_st x) 0 c = true -> lvl_of m c = 0).
Context (Hsmall : Z.of_nat (length U) < 2 ^ 32).
Notation op := (op (D := Z)).

Lemma Hwf : wf m. Proof. apply Hg. Qed.
Lemma default_hood : hood_at g (x_hoods x) did = Some U.
Proof. unfold hood_at. rewrite Z.eqb_refl. reflexivity. Qed.
(** all cells of level 0 exist, and no others *)
Lemma cells_exist r y : rank r -> exists_on (x_st x) r y = true <-> valid m y /\ lvl_of m y = 0.
Proof.
  intros Ir. destruct (xreachable_inv d0 g Hg x Rx) as (own & Hx). assert (forall q c, rank q -> exists_on (x_st x) q c = exo own c) as V by (intros q c Iq; apply (viewx g own _ q c (proj1 Hx) Iq)).
  assert (forall c, exists_on (x_st x) r c = true -> lvl_of m c = 0) as Hl by (intros c E; apply Hlevel; rewrite (V 0 c (rank0 g Hg)), <- (V r c Ir); assumption).
  pose proof (c18_cells_always_tile_the_grid d0 g Hg (x_st x) r (c25_histories_with_neighborhoods d0 g x Rx) Ir) as (Tv & Tc). split; [auto|]. intros (Vy & Ly).
  destruct (c01_id_to_indices_and_back m y Hwf Vy) as (_ & Gy & _).
  assert (exists i, in_grid (dims_of m) i /\ covers m y i) as (i & Gi & Cy).
  { exists (get_indices m y). split; [assumption|]. unfold covers. pose proof (unit_pos m Hwf) as P. destruct (level0 m Hwf y Vy Ly) as [By Ey]. destruct (cell_facts m Hwf _ By) as (_ & _ & _ & L). rewrite Ey in L. unfold len_of in L. rewrite L. lia. }
  destruct (Tc i Gi) as (c & (Ec & Cc) & _). destruct (c02_cells_of_a_level_tile_the_grid m 0 i Hwf) as (Q & _); [destruct Hwf as (_ & _ & _ & ? & _); lia|apply Gi|apply Gi|apply Gi|].
  destruct (Q Gi) as (c' & _ & Uq). assert (c' = c) as <- by (apply Uq; split; [apply Tv; assumption|]; split; [apply Hl; assumption|assumption]). assert (c' = y) as <- by (apply Uq; auto). assumption.
Qed.
Lemma owned_exists r q y : owns x r q y -> exists_on (x_st x) r y = true.
Proof. unfold owns, exists_on. intros ->. reflexivity. Qed.
Lemma owned_pos r q y : rank r -> owns x r q y -> 0 < y.
Proof. intros Ir O. apply owned_exists in O. apply (cells_exist r y Ir) in O. destruct O as [[V _] _]. lia. Qed.
Lemma owned_here r y : rank r -> has y (s_data (p_store (x_st x r))) = true <-> owns x r r y.
Proof.
  intros Ir. destruct (xreachable_inv d0 g Hg x Rx) as (own & Hx). unfold owns. rewrite (xview g own x r y Hx Ir). pose proof Hx as ((Hgood & _) & _). pose proof Hgood as (Hw & Hr). apply (proj2 (proj2 (proj2 (proj1 (Hr r Ir))))).
Qed.

(** ** What the program of a process works on *)
Record seen (p : Z) (v : views) : Prop := {
  s_iter : iterators g x did p = Done v;
  s_nodup : NoDup (map i_id (view_local v));
  s_local : forall c, In c (map i_id (view_local v)) <-> owns x p p c;
  s_inner : forall i, In i (view_inner v) -> owns x p p (i_id i) /\ ~ touches_remote g U x p (i_id i);
  s_split : view_local v = view_inner v ++ view_outer v;
  s_nbrs : forall i, In i (view_local v) -> NoDup (view_of v i) /\ forall y o, In (y, o) (view_of v i) <-> exists_on (x_st x) p y = true /\ exists h, In h U /\ nbr m t (i_id i) h y o }.
Lemma views_seen p : rank p -> exists v, seen p v.
Proof.
  intros Ip. destruct (c38_cells d0 g Hg x did U p Rx default_hood Ip) as (v & E & N & In_ & Out & Loc & Rem & S1 & S2 & A). exists v. rewrite S1, map_app in N. split; try assumption.
  - apply NoDup_app_l in N. assumption.
  - intros i I. apply In_. apply in_map. assumption.
  - intros i I. assert (In i (view_cells v)) as J by (rewrite S1; apply in_app_iff; auto). destruct (A i J) as (N1 & Q & _). split; [|assumption].
    unfold view_of, view_all, range in *. replace (i_first i + i_of i + i_both i + i_to i - i_first i)%nat with (i_of i + i_both i + i_to i)%nat in N1 by lia. replace (i_first i + i_of i + i_both i - i_first i)%nat with (i_of i + i_both i)%nat by lia.
    replace (i_of i + i_both i)%nat with (Nat.min (i_of i + i_both i) (i_of i + i_both i + i_to i)) by lia. rewrite <- firstn_firstn. apply NoDup_firstn. assumption.
Qed.

(** ** Values of cells after n turns *)
Context (first : Z -> Z).
Definition near (val : Z -> Z) (c : Z) : Z := around (mlen m) (per t) U (fun j => 0 <? val (cell_at m j)) (position_of m c).
Fixpoint val (n : nat) (c : Z) : Z :=
  match n with O => first c | S n => if near (val n) c =? 3 then 1 else if negb (near (val n) c =? 2) then 0 else val n c end.
Lemma val_game n : forall i, in_board m i -> (0 <? val n (cell_at m i)) = game (mlen m) (per t) U n (fun j => 0 <? first (cell_at m j)) i.
Proof.
  induction n as [|n IH]; intros i Hi; [reflexivity|]. cbn [val game]. unfold next. assert (near (val n) (cell_at m i) = around (mlen m) (per t) U (game (mlen m) (per t) U n (fun j => 0 <? first (cell_at m j))) i) as <-.
  { unfold near. rewrite (position_cell m Hwf i Hi). unfold around. do 2 f_equal. apply filter_ext_in. intros h _. unfold alive. destruct (on_board (mlen m) (per t) (vadd i h)) eqn:E; [|reflexivity]. cbn [andb]. apply IH. apply (square_on_board m Hwf t). assumption. }
  rewrite <- (IH i Hi). destruct (Z.eqb_spec (near (val n) (cell_at m i)) 3) as [E|E]; [reflexivity|]. destruct (Z.eqb_spec (near (val n) (cell_at m i)) 2); reflexivity.
Qed.

Context (one_each : bool).
Notation sends := (grid_sends g one_each x).
Notation recvs := (grid_recvs g one_each x).
Notation needs := (needs g).
Lemma needed_source p q c : rank p -> rank q -> needs U x p q c -> source recvs did p c = Some q.
Proof.
  intros Ip Iq N. pose proof N as N'. apply (received_needed d0 g Hg x Rx did U p q c default_hood Ip Iq) in N. destruct (cell_message g one_each (fun q => listed q (recv_list g x did p)) q c Iq N) as (tg & cs & I & J).
  destruct (source recvs did p c) as [q'|] eqn:E; [|destruct (source_none _ _ _ _ _ E I J)].
  apply source_some in E. destruct E as (tg' & cs' & I' & J'). pose proof (proj2 (messages_ports g one_each (fun q => listed q (recv_list g x did p))) _ I') as Iq'. cbn [fst] in Iq'.
  apply (message_cells g _ _ _ _ _ _ I') in J'. apply (received_needed d0 g Hg x Rx did U p q' c default_hood Ip Iq') in J'. destruct N' as (O & _), J' as (O' & _). unfold owns in *. congruence.
Qed.

Section Process.
Context (p : Z) (Ip : rank p) (v : views) (Sv : seen p v) (k : nat).
Notation data := (Z -> option Z)%type.
Definition holds (n : nat) (d : data) (c : Z) : Prop := d c = Some (val n c).
(** copies of the remote neighbors of own cells *)
Definition copied_ok (cop : data) : Prop := forall c q, needs U x p q c -> cop c = Some (val k c).
Lemma item_local i : In i (view_local v) -> owns x p p (i_id i) /\ 0 < i_id i.
Proof. intros I. assert (owns x p p (i_id i)) as O by (apply (s_local p v Sv), in_map, I). split; [assumption|]. apply (owned_pos p p _ Ip O). Qed.
Lemma counted (d cop : data) i : (forall c, owns x p p c -> holds k d c) -> copied_ok cop -> In i (view_local v) ->
  let ns := map fst (view_of v i) in let here c := has c (s_data (p_store (x_st x p))) in
  value (filter here ns) (filter (fun c => negb (here c)) ns) (fun a b => live (a ++ b) 0) d cop = Some (near (val k) (i_id i)).
Proof.
  intros Hd Hc I ns here. destruct (item_local i I) as [Oi _]. destruct (s_nbrs p v Sv i I) as [N Q].
  assert (forall y, In y ns -> exists_on (x_st x) p y = true /\ sees m t U (i_id i) y) as Hns.
  { intros y J. apply in_map_iff in J. destruct J as ([y' o] & <- & J). apply Q in J. destruct J as (E & h & Ih & B). split; [assumption|]. exists h, o. auto. }
  assert (map d (filter here ns) = map (fun c => Some (val k c)) (filter here ns)) as E1.
  { apply map_ext_in. intros y J. apply filter_In in J. destruct J as [_ J]. apply (Hd y). apply (owned_here p y Ip). assumption. }
  assert (map cop (filter (fun c => negb (here c)) ns) = map (fun c => Some (val k c)) (filter (fun c => negb (here c)) ns)) as E2.
  { apply map_ext_in. intros y J. apply filter_In in J. destruct J as [J B]. apply negb_true_iff in B. destruct (Hns y J) as [E S]. unfold exists_on in E. destruct (owner (x_st x) p y) as [q|] eqn:Oy; [|discriminate].
    apply (Hc y q). split; [assumption|]. split; [|exists (i_id i); auto]. intros ->. apply (owned_here p y Ip) in Oy. unfold here in B. congruence. }
  unfold value. rewrite E1, E2, <- map_app.
  pose proof (filter_split_perm here ns) as Pm.
  assert (ns = map fst (view_of v i)) as En by reflexivity.
  assert (Z.of_nat (length ns) <= Z.of_nat (length U)) as Ll.
  { unfold ns. rewrite map_length. pose proof (live_entries m Hwf t U (exists_on (x_st x) p) (view_of v i) (fun _ => true) (i_id i) (proj1 (proj2 (c11_default_neighborhood (g_len g) (proj1 (proj1 (proj2 Hg)))))) N (owned_exists _ _ _ Oi) (fun y => cells_exist p y Ip) Q) as L.
    assert (filter (fun _ : Z * idx => true) (view_of v i) = view_of v i) as F by (clear; induction (view_of v i) as [|a l IH]; [reflexivity|cbn [filter]; rewrite IH; reflexivity]). cbv beta in L. rewrite F in L. rewrite L. unfold around.
    apply inj_le. clear. induction U as [|a l IH]; [apply le_n|]. cbn [filter length]. destruct (alive _ _ _ _); cbn [length]; lia. }
  rewrite live_some; [|lia|rewrite (Permutation_length Pm); lia]. f_equal. rewrite Z.add_0_l. rewrite (Permutation_length (filter_perm (fun c => 0 <? val k c) _ _ Pm)). unfold ns. rewrite filter_map_swap, map_length.
  apply (live_entries m Hwf t U (exists_on (x_st x) p) (view_of v i) (fun c => 0 <? val k c) (i_id i) (proj1 (proj2 (c11_default_neighborhood (g_len g) (proj1 (proj1 (proj2 Hg)))))) N (owned_exists _ _ _ Oi) (fun y => cells_exist p y Ip) Q).
Qed.
(** counting for some of the cells *)
Lemma count_phase l (d cop : data) : NoDup (map i_id l) -> (forall i, In i l -> In i (view_local v)) -> (forall c, owns x p p c -> holds k d c) -> copied_ok cop -> exists d',
  (forall rest, advance (map (count x p v) l ++ rest) d cop = advance rest d' cop) /\
  (forall i, In i l -> d' (- i_id i) = Some (near (val k) (i_id i))) /\ (forall a, 0 <= a -> d' a = d a) /\ (forall i, In i (view_local v) -> ~ In (i_id i) (map i_id l) -> d' (- i_id i) = d (- i_id i)).
Proof.
  intros N Hl Hd Hc.
  destruct (advance_writes (fun i => - i_id i) (fun i => filter (fun c => has c (s_data (p_store (x_st x p)))) (map fst (view_of v i)))
    (fun i => filter (fun c => negb (has c (s_data (p_store (x_st x p))))) (map fst (view_of v i))) (fun _ a b => live (a ++ b) 0) l) with (d := d) (cop := cop) as (d' & A & B & C).
  - rewrite <- (map_map i_id Z.opp). apply FinFun.Injective_map_NoDup; [intros a b E; lia|assumption].
  - intros i j Ii Ij _ J. apply filter_In in J. destruct J as [J _]. apply in_map_iff in J. destruct J as ([y o] & E & J). cbn [fst] in E. subst y. apply (proj2 (s_nbrs p v Sv i (Hl i Ii))) in J. destruct J as [E _]. apply (cells_exist p _ Ip) in E. destruct E as [[E _] _]. destruct (item_local j (Hl j Ij)). lia.
  - exists d'. split; [exact A|]. split; [|split].
    + intros i I. rewrite (B i I). apply counted; auto.
    + intros a Ha. apply C. intros J. apply in_map_iff in J. destruct J as (i & E & I). destruct (item_local i (Hl i I)). lia.
    + intros i I Ni. apply C. intros J. apply in_map_iff in J. destruct J as (j & E & J). apply Ni. apply in_map_iff. exists j. split; [lia|assumption].
Qed.
(** applying the rules to some of the cells *)
Lemma rule_phase l (d cop : data) : NoDup (map i_id l) -> (forall i, In i l -> In i (view_local v)) ->
  (forall i, In i l -> holds k d (i_id i) /\ d (- i_id i) = Some (near (val k) (i_id i))) -> exists d',
  (forall rest, advance (map rule l ++ rest) d cop = advance rest d' cop) /\
  (forall i, In i l -> holds (S k) d' (i_id i)) /\ (forall a, ~ In a (map i_id l) -> d' a = d a).
Proof.
  intros N Hl Hd.
  destruct (advance_writes i_id (fun i => [i_id i; - i_id i]) (fun _ => []) (fun i a _ => match a with [Some a; Some n] => Some (if n =? 3 then 1 else if negb (n =? 2) then 0 else a) | _ => None end) l N) with (d := d) (cop := cop) as (d' & A & B & C).
  - intros i j Ii Ij Ne J. destruct (item_local i (Hl i Ii)), (item_local j (Hl j Ij)). destruct J as [J|[J|[]]]; lia.
  - exists d'. split; [exact A|]. split; [|assumption]. intros i I. unfold holds. rewrite (B i I). unfold value. cbn [map]. destruct (Hd i I) as [E1 E2]. unfold holds in E1. rewrite E1, E2. reflexivity.
Qed.
(** verification *)
Lemma verify_phase l (d cop : data) e : (forall i, In i l -> In i (view_local v)) -> (forall c, owns x p p c -> holds (S k) d c) -> d 0 = Some e -> exists d' e',
  (forall rest, advance (map (verify k) l ++ rest) d cop = advance rest d' cop) /\ d' 0 = Some e' /\ ((forall c, wrong k c (val (S k) c) = false) -> e' = e) /\ (forall a, a <> 0 -> d' a = d a).
Proof.
  revert d e. induction l as [|i l IH]; intros d e Hl Hd E.
  - exists d, e. split; [reflexivity|]. auto.
  - destruct (item_local i (Hl i (or_introl eq_refl))) as [Oi Pi].
    assert (value [0; i_id i] [] (fun a _ => match a with [Some e; Some w] => Some (if wrong k (i_id i) w then 1 else e) | _ => None end) d cop = Some (if wrong k (i_id i) (val (S k) (i_id i)) then 1 else e)) as V.
    { unfold value. cbn [map]. pose proof (Hd _ Oi) as Q. unfold holds in Q. rewrite Q, E. reflexivity. }
    destruct (IH (upd d 0 (Some (if wrong k (i_id i) (val (S k) (i_id i)) then 1 else e))) (if wrong k (i_id i) (val (S k) (i_id i)) then 1 else e)) as (d' & e' & A & B & C & F).
    + intros j J. apply Hl. right. assumption.
    + intros c O. unfold holds, upd. pose proof (owned_pos p p c Ip O). destruct (Z.eqb_spec c 0); [lia|]. apply Hd. assumption.
    + unfold upd. reflexivity.
    + exists d', e'. split; [intros rest; cbn [map app verify advance]; rewrite V; apply A|]. split; [assumption|]. split.
      * intros W. rewrite (C W), (W (i_id i)). reflexivity.
      * intros a Na. rewrite (F a Na). unfold upd. destruct (Z.eqb_spec a 0); [contradiction|reflexivity].
Qed.
End Process.

(** ** One turn *)
Notation data := (Z -> option Z)%type.
Definition right : Prop := forall k c, wrong k c (val (S k) c) = false.
Definition after (n : nat) (p : Z) (d : data) : Prop := (forall c, owns x p p c -> holds n d c) /\ exists e, d 0 = Some e /\ (right -> e = 0).
Notation careful := (careful (D := Z) sends recvs).
Record turn_ok (turn : state -> nat -> Z -> views -> list op) : Prop := { turn_is : forall p v k, rank p -> seen p v -> exists body,
  turn x k p v = Start did :: body /\ filter collective body = [WaitR; WaitS] /\
  (forall rest, (forall w, careful p rest [] w) -> careful p (body ++ rest) [did] false) /\
  (forall d cop, after k p d -> copied_ok p k cop -> exists d', (forall rest, advance (body ++ rest) d cop = advance rest d' cop) /\ after (S k) p d') }.

Lemma careful_computes p l rest busy w :
  (forall o, In o l -> exists c rs cs f, o = Compute c rs cs f /\ (forall id e, In id busy -> In e (sends id p) -> ~ In c (snd e)) /\ (cs = [] \/ w = true \/ busy = [])) ->
  careful p rest busy w -> careful p (l ++ rest) busy w.
Proof.
  induction l as [|o l IH]; intros H R; [assumption|]. cbn [app]. destruct (H o (or_introl eq_refl)) as (c & rs & cs & f & -> & A & B). cbn [Overlap.careful]. split; [assumption|]. split.
  - intros a Ia. destruct B as [->|[->| ->]]; [destruct Ia|left; reflexivity|right; intros id e []].
  - apply IH; [intros o' I; apply H; right; assumption|assumption].
Qed.
Lemma sent_cell p e c : rank p -> In e (sends did p) -> In c (snd e) -> owns x p p c /\ touches_remote g U x p c.
Proof.
  intros Ip I J. destruct e as [[q tg] cs]. cbn [snd] in J. pose proof (proj2 (messages_ports g one_each (fun q => listed q (send_list g x did p))) _ I) as Iq. cbn [fst] in Iq.
  apply (message_cells g _ _ _ _ _ _ I) in J. apply (sent_needed d0 g Hg x Rx did U p q c default_hood Ip Iq) in J. destruct J as (O & Nq & a & Oa & S).
  destruct (xreachable_inv d0 g Hg x Rx) as (own & Hx). unfold touches_remote, elsewhere, owns in *. rewrite (xview g own x q c Hx Iq) in O. rewrite (xview g own x q a Hx Iq) in Oa. rewrite (xview g own x p c Hx Ip). split; [assumption|]. exists a. split; [exists q; rewrite (xview g own x p _ Hx Ip); split; [assumption|congruence]|right; assumption].
Qed.
Section Turn.
Context (p : Z) (Ip : rank p) (v : views) (Sv : seen p v).
Lemma count_careful l rest busy w : (busy = [] \/ busy = [did]) -> (forall i, In i l -> In i (view_local v)) -> (w = true \/ busy = [] \/ forall i, In i l -> In i (view_inner v)) ->
  careful p rest busy w -> careful p (map (count x p v) l ++ rest) busy w.
Proof.
  intros Hb Hl Hw. apply careful_computes. intros o I. apply in_map_iff in I. destruct I as (i & <- & I). destruct (item_local p Ip v Sv i (Hl i I)) as [Oi Pi]. unfold count. do 4 eexists. split; [reflexivity|]. split.
  - intros id e Iid Ie J. assert (id = did) as -> by (destruct Hb as [->| ->]; [destruct Iid|destruct Iid as [<-|[]]; reflexivity]). destruct (sent_cell p e _ Ip Ie J) as [O _]. pose proof (owned_pos p p _ Ip O). lia.
  - destruct Hw as [->|[->|Hi]]; [auto|auto|left]. destruct (s_inner p v Sv i (Hi i I)) as [_ Nt].
    destruct (filter _ _) as [|y l'] eqn:E; [reflexivity|exfalso]. assert (In y (y :: l')) as J by (left; reflexivity). rewrite <- E in J. apply filter_In in J. destruct J as [J B]. apply negb_true_iff in B.
    apply in_map_iff in J. destruct J as ([y' o] & <- & J). cbn [fst] in B. apply (proj2 (s_nbrs p v Sv i (Hl i I))) in J. destruct J as (Ey & h & Ih & N). apply Nt. exists y'. split; [|left; exists h, o; auto].
    unfold exists_on in Ey. destruct (owner (x_st x) p y') as [q|] eqn:Oy; [|discriminate]. exists q. split; [assumption|]. intros ->. apply (owned_here p y' Ip) in Oy. congruence.
Qed.
Lemma rule_careful l rest busy w : (busy = [] \/ busy = [did]) -> (busy = [] \/ forall i, In i l -> In i (view_inner v)) -> careful p rest busy w -> careful p (map rule l ++ rest) busy w.
Proof.
  intros Hb Hl. apply careful_computes. intros o I. apply in_map_iff in I. destruct I as (i & <- & I). unfold rule. do 4 eexists. split; [reflexivity|]. split; [|auto].
  intros id e Iid Ie J. destruct Hl as [->|Hl]; [destruct Iid|]. assert (id = did) as -> by (destruct Hb as [->| ->]; [destruct Iid|destruct Iid as [<-|[]]; reflexivity]). destruct (sent_cell p e _ Ip Ie J) as [_ T]. apply (s_inner p v Sv i (Hl i I)). assumption.
Qed.
Lemma no_collective {A} (f : A -> op) (l : list A) : (forall a, collective (f a) = false) -> filter collective (map f l) = [].
Proof. intros H. induction l as [|a l IH]; [reflexivity|]. cbn [map filter]. rewrite (H a). assumption. Qed.
Lemma inner_local i : In i (view_inner v) -> In i (view_local v). Proof. intros I. rewrite (s_split p v Sv). apply in_app_iff. auto. Qed.
Lemma outer_local i : In i (view_outer v) -> In i (view_local v). Proof. intros I. rewrite (s_split p v Sv). apply in_app_iff. auto. Qed.
Lemma split_nodup : NoDup (map i_id (view_inner v)) /\ NoDup (map i_id (view_outer v)) /\ forall i j, In i (view_inner v) -> In j (view_outer v) -> i_id i <> i_id j.
Proof.
  pose proof (s_nodup p v Sv) as N. rewrite (s_split p v Sv), map_app in N. split; [apply NoDup_app_l in N; assumption|]. split.
  - clear Ip. induction (map i_id (view_inner v)) as [|a l IH]; [assumption|]. apply IH. inversion N; assumption.
  - intros i j I J E. pose proof (in_map i_id _ _ I) as Q. pose proof (in_map i_id _ _ J) as Q'. rewrite <- E in Q'. revert N Q Q'. generalize (map i_id (view_inner v)) (map i_id (view_outer v)) (i_id i). clear. intros l l' a N Q Q'.
    induction l as [|b l IH]; [destruct Q|]. cbn [app] in N. inversion N as [|? ? N1 N2]; subst. destruct Q as [->|Q]; [apply N1, in_app_iff; auto|auto].
Qed.
Lemma owned_item c : owns x p p c -> exists i, In i (view_local v) /\ i_id i = c.
Proof. intros O. apply (s_local p v Sv) in O. apply in_map_iff in O. destruct O as (i & E & I). eauto. Qed.
Lemma not_owned_item c : c <= 0 -> forall l, (forall i, In i l -> In i (view_local v)) -> ~ In c (map i_id l).
Proof. intros Hc l Hl J. apply in_map_iff in J. destruct J as (i & E & I). destruct (item_local p Ip v Sv i (Hl i I)). lia. Qed.
End Turn.

Lemma overlapped_ok : turn_ok turn_overlapped.
Proof.
  split. intros p v k Ip Sv. eexists. split; [reflexivity|]. pose proof (inner_local p v Sv) as IL. pose proof (outer_local p v Sv) as OL. destruct (split_nodup p v Sv) as (N1 & N2 & N3). split; [|split].
  - cbn [app]. rewrite filter_app, no_collective by reflexivity. cbn [app filter collective]. rewrite !filter_app, !no_collective by reflexivity. cbn [app filter collective]. rewrite no_collective by reflexivity. reflexivity.
  - intros rest Hr. rewrite <- ?app_assoc. apply (count_careful p Ip v Sv); auto. cbn [app Overlap.careful]. rewrite <- ?app_assoc. apply (count_careful p Ip v Sv); auto. apply (rule_careful p Ip v Sv); auto. cbn [app Overlap.careful]. split; [reflexivity|].
    apply (rule_careful p Ip v Sv); auto.
  - intros d cop (A & e & Ee & Er) Hc.
    destruct (count_phase p Ip v Sv k (view_inner v) d cop N1 IL A Hc) as (d1 & P1 & Q1 & K1 & _).
    assert (forall c, owns x p p c -> holds k d1 c) as A1 by (intros c O; unfold holds; rewrite K1 by (pose proof (owned_pos p p c Ip O); lia); apply A; assumption).
    destruct (count_phase p Ip v Sv k (view_outer v) d1 cop N2 OL A1 Hc) as (d2 & P2 & Q2 & K2 & M2).
    assert (forall c, owns x p p c -> holds k d2 c) as A2 by (intros c O; unfold holds; rewrite K2 by (pose proof (owned_pos p p c Ip O); lia); apply A1; assumption).
    assert (forall i, In i (view_inner v) -> ~ In (i_id i) (map i_id (view_outer v))) as N4 by (intros i I J; apply in_map_iff in J; destruct J as (j & E & J); apply (N3 i j I J); congruence).
    destruct (rule_phase p Ip v Sv k (view_inner v) d2 cop N1 IL) as (d3 & P3 & Q3 & K3).
    { intros i I. split; [apply A2, (item_local p Ip v Sv i (IL i I))|]. rewrite (M2 i (IL i I) (N4 i I)). apply Q1. assumption. }
    destruct (rule_phase p Ip v Sv k (view_outer v) d3 cop N2 OL) as (d4 & P4 & Q4 & K4).
    { intros i I. destruct (item_local p Ip v Sv i (OL i I)) as [O Pi]. assert (~ In (i_id i) (map i_id (view_inner v))) as Ni by (intros J; apply in_map_iff in J; destruct J as (j & E & J); apply (N3 j i J I E)). split.
      - unfold holds. rewrite (K3 _ Ni). apply A2. assumption.
      - rewrite (K3 (- i_id i)) by (apply (not_owned_item p Ip v Sv); [lia|assumption]). apply Q2. assumption. }
    exists d4. split; [|split].
    + intros rest. rewrite <- ?app_assoc, P1. cbn [app advance]. rewrite <- ?app_assoc, P2, P3. cbn [app advance]. apply P4.
    + intros c O. destruct (owned_item p v Sv c O) as (i & I & <-). rewrite (s_split p v Sv) in I. apply in_app_iff in I. destruct I as [I|I]; [|apply Q4; assumption]. unfold holds. rewrite (K4 _ (N4 i I)). apply Q3. assumption.
    + exists e. split; [|assumption]. rewrite (K4 0) by (apply (not_owned_item p Ip v Sv); [lia|assumption]). rewrite (K3 0) by (apply (not_owned_item p Ip v Sv); [lia|assumption]). rewrite K2, K1 by lia. assumption.
Qed.
Lemma with_output_ok : turn_ok turn_with_output.
Proof.
  split. intros p v k Ip Sv. eexists. split; [reflexivity|]. pose proof (inner_local p v Sv) as IL. pose proof (outer_local p v Sv) as OL. destruct (split_nodup p v Sv) as (N1 & N2 & N3). split; [|split].
  - cbn [app]. rewrite filter_app, no_collective by reflexivity. cbn [app filter collective]. rewrite !filter_app, !no_collective by reflexivity. reflexivity.
  - intros rest Hr. rewrite <- ?app_assoc. apply (count_careful p Ip v Sv); auto. cbn [app Overlap.careful]. split; [reflexivity|]. rewrite <- ?app_assoc. apply (count_careful p Ip v Sv); auto. apply (rule_careful p Ip v Sv); auto.
  - intros d cop (A & e & Ee & Er) Hc.
    destruct (count_phase p Ip v Sv k (view_inner v) d cop N1 IL A Hc) as (d1 & P1 & Q1 & K1 & _).
    assert (forall c, owns x p p c -> holds k d1 c) as A1 by (intros c O; unfold holds; rewrite K1 by (pose proof (owned_pos p p c Ip O); lia); apply A; assumption).
    destruct (count_phase p Ip v Sv k (view_outer v) d1 cop N2 OL A1 Hc) as (d2 & P2 & Q2 & K2 & M2).
    assert (forall c, owns x p p c -> holds k d2 c) as A2 by (intros c O; unfold holds; rewrite K2 by (pose proof (owned_pos p p c Ip O); lia); apply A1; assumption).
    destruct (rule_phase p Ip v Sv k (view_local v) d2 cop (s_nodup p v Sv) (fun i I => I)) as (d3 & P3 & Q3 & K3).
    { intros i I. split; [apply A2, (item_local p Ip v Sv i I)|]. pose proof I as I'. rewrite (s_split p v Sv) in I'. apply in_app_iff in I'. destruct I' as [I'|I']; [|apply Q2; assumption].
      rewrite (M2 i I); [apply Q1; assumption|]. intros J. apply in_map_iff in J. destruct J as (j & E & J). apply (N3 i j I' J). congruence. }
    exists d3. split; [|split].
    + intros rest. rewrite <- ?app_assoc, P1. cbn [app advance]. rewrite <- ?app_assoc, P2. apply P3.
    + intros c O. destruct (owned_item p v Sv c O) as (i & I & <-). apply Q3. assumption.
    + exists e. split; [|assumption]. rewrite (K3 0) by (apply (not_owned_item p Ip v Sv); [lia|auto]). rewrite K2, K1 by lia. assumption.
Qed.
Lemma simple_ok : turn_ok turn_simple.
Proof.
  split. intros p v k Ip Sv. eexists. split; [reflexivity|]. split; [|split].
  - cbn [app filter collective]. rewrite !filter_app, !no_collective by reflexivity. reflexivity.
  - intros rest Hr. cbn [app Overlap.careful]. split; [reflexivity|]. rewrite <- ?app_assoc. apply (count_careful p Ip v Sv); auto. apply (rule_careful p Ip v Sv); auto. apply careful_computes; [|apply Hr].
    intros o I. apply in_map_iff in I. destruct I as (i & <- & I). unfold verify. do 4 eexists. split; [reflexivity|]. split; [intros id e []|auto].
  - intros d cop (A & e & Ee & Er) Hc.
    destruct (count_phase p Ip v Sv k (view_local v) d cop (s_nodup p v Sv) (fun i I => I) A Hc) as (d1 & P1 & Q1 & K1 & _).
    assert (forall c, owns x p p c -> holds k d1 c) as A1 by (intros c O; unfold holds; rewrite K1 by (pose proof (owned_pos p p c Ip O); lia); apply A; assumption).
    destruct (rule_phase p Ip v Sv k (view_local v) d1 cop (s_nodup p v Sv) (fun i I => I)) as (d2 & P2 & Q2 & K2).
    { intros i I. split; [apply A1, (item_local p Ip v Sv i I)|]. apply Q1. assumption. }
    assert (forall c, owns x p p c -> holds (S k) d2 c) as A2 by (intros c O; destruct (owned_item p v Sv c O) as (i & I & <-); apply Q2; assumption).
    destruct (verify_phase p Ip v Sv k (view_local v) d2 cop e (fun i I => I) A2) as (d3 & e' & P3 & E3 & R3 & K3).
    { rewrite (K2 0) by (apply (not_owned_item p Ip v Sv); [lia|auto]). rewrite K1 by lia. assumption. }
    exists d3. split; [|split].
    + intros rest. cbn [app advance]. rewrite <- ?app_assoc, P1, P2. apply P3.
    + intros c O. unfold holds. rewrite K3 by (pose proof (owned_pos p p c Ip O); lia). apply A2. assumption.
    + exists e'. split; [assumption|]. intros Rt. rewrite (R3 (Rt k)). auto.
Qed.
End Game.
