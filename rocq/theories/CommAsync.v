(** Updates of remote neighbors as executions of messages: every interleaving of the transfers of
    any number of successive updates gives the copies computed by CommModel.update_copies. *)
From Verif Require Import U64 MapModel MapSpec MapProofs MapFamily MapProps HoodModel MeshModel
  MeshSpec MeshBase HoodProps MeshWalk MeshFind MeshKids MeshItem MeshCheck MeshTo MeshNear
  Sets RefineModel RefineGeo RefineInv RefineSpread RefineMerge RefineFold RefineExec RefineStop
  BalanceModel RefineReqs Create Balance History HistProps CommitProps BalProps LoadCells HistExamples CommModel CommInv CommProps CommMore CommExamples Async.
Open Scope Z_scope.

Section Async.
Context {D : Type} (d0 : D) (g : grid) (Hg : grid_ok g).
Notation m := (g_map g).
Notation t := (g_topo g).
Notation xreachable := (xreachable d0 g).
Notation rank r := (In r (ranks g)).
Notation state := (xstate (D := D)).
Notation hood_at := (hood_at g).
Notation needs := (needs g).
Notation data x p c := (find c (s_data (p_store (x_st x p)))).

(** the send and receive lists of a process *)
Definition send_list (x : state) (id p : Z) : list (Z * Z) :=
  match lists_of g (x_hoods x) id p (x_st x p) with
  | Done (Some L) => match send_pairs p (p_store (x_st x p)) L with Done l => l | _ => [] end
  | _ => []
  end.
Definition recv_list (x : state) (id p : Z) : list (Z * Z) :=
  match lists_of g (x_hoods x) id p (x_st x p) with
  | Done (Some L) => match recv_pairs p (p_store (x_st x p)) L with Done l => l | _ => [] end
  | _ => []
  end.
Lemma list_facts x id U r q : xreachable x -> hood_at (x_hoods x) id = Some U -> rank r -> rank q ->
  listed r (send_list x id q) = listed q (recv_list x id r) /\
  NoDup (listed q (recv_list x id r)) /\ (forall c, In c (listed q (recv_list x id r)) <-> needs U x r q c).
Proof.
  intros R EU Ir Iq. destruct (xreachable_inv d0 g Hg x R) as (own & Hx). pose proof Hx as ((Hgood & _) & _ & Ho). pose proof Hgood as (Hw & Hr).
  destruct (lists_of_ok g Hg own _ _ id r U Hgood Ho Ir EU) as (Lr & E1 & S1). destruct (lists_of_ok g Hg own _ _ id q U Hgood Ho Iq EU) as (Lq & E2 & S2).
  destruct (recv_pairs_ok g own r _ Hw (proj1 (Hr r Ir)) U Lr S1) as (ex & E3 & N3 & P3). destruct (send_pairs_ok g own q _ Hw (proj1 (Hr q Iq)) U Lq S2) as (sd & E4 & N4 & P4).
  unfold send_list, recv_list. rewrite E1, E2, E3, E4. split; [|split].
  - apply listed_same'; [assumption|assumption|]. intros k. rewrite P3, P4. reflexivity.
  - apply listed_NoDup'. assumption.
  - intros c. rewrite listed_In, P3. symmetry. apply (needs_iff g own); assumption.
Qed.

(** ** Messages *)

(** one message per cell with the tag of the cell: dccrg.hpp:10807-10886, 11020-11095 *)
Definition out_single (x : state) (id p : Z) : list ((Z * Z) * option D) :=
  flat_map (fun q => map (fun e => ((q, snd e), data x p (fst e))) (tagged (listed q (send_list x id p)))) (ranks g).
Definition inc_single (x : state) (id p : Z) : list (Z * Z) :=
  flat_map (fun q => map (fun e => (q, snd e)) (tagged (listed q (recv_list x id p)))) (ranks g).
(** one message per process with tag 0 and all cells in the order of the list:
    dccrg.hpp:10888-10980, 11097-11190 *)
Definition out_whole (x : state) (id p : Z) : list ((Z * Z) * list (option D)) :=
  flat_map (fun q => match listed q (send_list x id p) with [] => [] | l => [((q, 0), map (fun c => data x p c) l)] end) (ranks g).
Definition inc_whole (x : state) (id p : Z) : list (Z * Z) :=
  flat_map (fun q => match listed q (recv_list x id p) with [] => [] | _ => [(q, 0)] end) (ranks g).

(** the received data in the destinations given when the receives were posted *)
Definition arrived {V} (q t : Z) (r : list ((Z * Z) * V)) : option V :=
  option_map snd (List.find (fun e => if port_dec (fst e) (q, t) then true else false) r).
Definition stores_single (x : state) (id p : Z) (r : list ((Z * Z) * option D)) : list (Z * option D) :=
  flat_map (fun q => map (fun e => (fst e, match arrived q (snd e) r with Some v => v | None => None end)) (tagged (listed q (recv_list x id p)))) (ranks g).
Definition stores_whole (x : state) (id p : Z) (r : list ((Z * Z) * list (option D))) : list (Z * option D) :=
  flat_map (fun q => match arrived q 0 r with Some vs => combine (listed q (recv_list x id p)) vs | None => [] end) (ranks g).
Definition store_all (l : list (Z * option D)) (f : list (Z * D)) : list (Z * D) :=
  fold_left (fun f e => match snd e with Some v => put (fst e) v f | None => f end) l f.

Lemma store_all_ok l c : forall f, (forall e, In e l -> snd e <> None) ->
  (forall v, In (c, Some v) l -> (forall w, In (c, Some w) l -> w = v) -> find c (store_all l f) = Some v) /\
  (~ In c (map fst l) -> find c (store_all l f) = find c f).
Proof.
  induction l as [|[a [w|]] l IH]; intros f Hn; cbn [store_all fold_left snd fst map].
  - split; [intros v []|reflexivity].
  - fold (store_all l (put a w f)). destruct (IH (put a w f) ltac:(intros e He; apply Hn; right; assumption)) as [I1 I2]. split.
    + intros v I U. destruct (in_dec Z.eq_dec c (map fst l)) as [J|J].
      * apply in_map_iff in J. destruct J as ([c' o] & Ec & J). cbn [fst] in Ec. subst c'. destruct o as [u|]; [|exfalso; apply (Hn (c, None)); [right; assumption|reflexivity]].
        assert (u = v) as E by (apply U; right; assumption). subst u. apply I1; [assumption|]. intros w' Hw. apply U. right. assumption.
      * rewrite (I2 J). destruct I as [E|I]; [injection E as -> ->; rewrite find_put, Z.eqb_refl; reflexivity|]. exfalso. apply J. apply in_map_iff. exists (c, Some v). auto.
    + intros N. rewrite I2 by (intros Q; apply N; right; assumption). rewrite find_put. destruct (Z.eqb_spec c a) as [->|]; [|reflexivity]. exfalso. apply N. left. reflexivity.
  - exfalso. apply (Hn (a, None)); [left; reflexivity|reflexivity].
Qed.
Lemma arrived_In {V} (r : list ((Z * Z) * V)) q k v : NoDup (map fst r) -> In ((q, k), v) r -> arrived q k r = Some v.
Proof.
  intros N I. unfold arrived. destruct (List.find (fun e => if port_dec (fst e) (q, k) then true else false) r) as [[y w]|] eqn:F.
  - apply find_some in F. destruct F as [J F]. cbn [fst] in F. destruct (port_dec y (q, k)) as [E|]; [|discriminate]. subst y. cbn [option_map snd]. f_equal.
    clear - N I J. induction r as [|[z u] r IH]; [destruct I|]. cbn [map fst] in N. apply NoDup_cons_iff in N. destruct N as [N1 N2]. destruct I as [E|I], J as [E'|J].
    + congruence.
    + injection E as -> ->. exfalso. apply N1. apply in_map_iff. exists ((q, k), w). auto.
    + injection E' as -> ->. exfalso. apply N1. apply in_map_iff. exists ((q, k), v). auto.
    + apply IH; assumption.
  - exfalso. apply (find_none _ _ F) in I. cbn [fst] in I. destruct (port_dec (q, k) (q, k)); [discriminate|contradiction].
Qed.
Lemma in_tagged l c k : In (c, k) (tagged l) -> In c l.
Proof. unfold tagged. intros I. apply in_combine_l in I. assumption. Qed.
Lemma tagged_tags l : NoDup (map snd (tagged l)).
Proof.
  apply NoDup_nth_error. intros i j Li E. rewrite map_length in Li. destruct (nth_error (map snd (tagged l)) i) as [k|] eqn:Ei.
  - rewrite nth_error_map in Ei, E. destruct (nth_error (tagged l) i) as [[c k1]|] eqn:E1; [|discriminate]. destruct (nth_error (tagged l) j) as [[c' k2]|] eqn:E2; [|discriminate].
    cbn [option_map snd] in *. apply (c33_tags_differ l i j c c' k1 k2 E1 E2). congruence.
  - apply nth_error_None in Ei. rewrite map_length in Ei. lia.
Qed.
Lemma tagged_length l : length (tagged l) = length l.
Proof. unfold tagged. rewrite combine_length, map_length, seq_length. lia. Qed.
Lemma tagged_has l c : In c l -> exists k, In (c, k) (tagged l).
Proof.
  intros I. apply In_nth_error in I. destruct I as (i & E). assert (i < length (tagged l))%nat as L by (rewrite tagged_length; apply nth_error_Some; congruence).
  destruct (nth_error (tagged l) i) as [[c' k]|] eqn:E2; [|apply nth_error_None in E2; lia]. exists k. assert (c' = c) as <-; [|apply (nth_error_In _ _ E2)].
  clear L. unfold tagged in E2. revert E2. generalize (map (fun i : nat => Z.of_nat i + 1) (seq 0 (length l))). revert i E. induction l as [|a l IH]; intros [|i] E [|b l'] E2; try discriminate; cbn in *; [congruence|]. apply (IH i E l' E2).
Qed.
Lemma NoDup_app_disjoint {A} (a b : list A) : NoDup a -> NoDup b -> (forall x, In x a -> ~ In x b) -> NoDup (a ++ b).
Proof.
  intros Na Nb Dj. induction a as [|x a IH]; [assumption|]. inversion Na as [|? ? N1 N2]. subst. cbn [app]. constructor.
  - rewrite in_app_iff. intros [Q|Q]; [contradiction|]. apply (Dj x); [left; reflexivity|assumption].
  - apply IH; [assumption|]. intros y Iy. apply Dj. right. assumption.
Qed.
Lemma NoDup_ports {A} (F : Z -> list A) (h : Z -> A -> Z * Z) l : NoDup l -> (forall q e, fst (h q e) = q) -> (forall q, NoDup (map (h q) (F q))) ->
  NoDup (flat_map (fun q => map (h q) (F q)) l).
Proof.
  intros N Hh Hn. induction l as [|q l IH]; cbn [flat_map]; [constructor|]. inversion N as [|? ? N1 N2]. subst. apply NoDup_app_disjoint; [apply Hn|apply IH; assumption|].
  intros x I J. apply in_map_iff in I. destruct I as (e & <- & I). apply in_flat_map in J. destruct J as (q' & Iq & J). apply in_map_iff in J. destruct J as (e' & E & J).
  apply (f_equal fst) in E. rewrite !Hh in E. subst q'. contradiction.
Qed.
Lemma flat_map_map {A B C} (f : B -> C) (F : A -> list B) l : map f (flat_map F l) = flat_map (fun a => map f (F a)) l.
Proof. induction l as [|a l IH]; cbn [flat_map map]; [reflexivity|]. rewrite map_app, IH. reflexivity. Qed.

(** ** Successive updates: the grid of each, its neighborhood id and items *)
Context (rounds : nat) (X : nat -> state) (ids : nat -> Z) (Us : nat -> hood).
Context (HX : forall k, (k < rounds)%nat -> xreachable (X k) /\ hood_at (x_hoods (X k)) (ids k) = Some (Us k)).

Lemma needs_rank k p q c : (k < rounds)%nat -> rank p -> needs (Us k) (X k) p q c -> rank q /\ exists v, data (X k) q c = Some v.
Proof.
  intros Hk Ip N. destruct (HX k Hk) as [R EU]. destruct (xreachable_inv d0 g Hg _ R) as (own & Hx). pose proof Hx as ((Hgood & _) & _). pose proof Hgood as (Hw & Hr). apply (needs_iff g own _ _ p q c Hx Ip) in N. destruct N as (O & _).
  assert (rank q) as Iq by (apply (proj2 Hw c q O)). split; [assumption|]. apply has_find. apply (proj2 (proj2 (proj2 (proj1 (Hr q Iq))))). assumption.
Qed.

Lemma single_matching : matching (ranks g) rounds (fun p k => out_single (X k) (ids k) p) (fun p k => inc_single (X k) (ids k) p).
Proof.
  intros k Hk. destruct (HX k Hk) as [R EU]. unfold out_single, inc_single. split.
  - intros p Ip. split; [|split; [|split]].
    + rewrite flat_map_map. erewrite flat_map_ext; [apply (NoDup_ports (fun q => tagged (listed q (send_list (X k) (ids k) p))) (fun q e => (q, snd e)) (ranks g) (ranks_NoDup g))|].
      * reflexivity.
      * intros q. rewrite <- (map_map snd (fun k => (q, k))). apply FinFun.Injective_map_NoDup; [intros a b E; congruence|apply tagged_tags].
      * intros q. rewrite map_map. reflexivity.
    + apply (NoDup_ports (fun q => tagged (listed q (recv_list (X k) (ids k) p))) (fun q e => (q, snd e)) (ranks g) (ranks_NoDup g)); [reflexivity|].
      intros q. rewrite <- (map_map snd (fun k => (q, k))). apply FinFun.Injective_map_NoDup; [intros a b E; congruence|apply tagged_tags].
    + intros e He. apply in_flat_map in He. destruct He as (q & Iq & He). apply in_map_iff in He. destruct He as (y & <- & _). assumption.
    + intros e He. apply in_flat_map in He. destruct He as (q & Iq & He). apply in_map_iff in He. destruct He as (y & <- & _). assumption.
  - intros p q tg Ip Iq. destruct (list_facts (X k) (ids k) (Us k) q p R EU Iq Ip) as (Es & _). rewrite flat_map_map, !in_flat_map. split.
    + intros (q' & Iq' & J). rewrite map_map in J. apply in_map_iff in J. destruct J as (e & E & J). cbn [fst] in E. injection E as <- <-. exists p. split; [assumption|]. rewrite <- Es. apply in_map_iff. exists e. auto.
    + intros (p' & Ip' & J). apply in_map_iff in J. destruct J as (e & E & J). injection E as <- <-. exists q. split; [assumption|]. rewrite map_map. apply in_map_iff. exists e. cbn [fst]. rewrite Es. auto.
Qed.
Lemma whole_matching : matching (ranks g) rounds (fun p k => out_whole (X k) (ids k) p) (fun p k => inc_whole (X k) (ids k) p).
Proof.
  intros k Hk. destruct (HX k Hk) as [R EU]. unfold out_whole, inc_whole.
  assert (forall (F : Z -> list Z), NoDup (flat_map (fun q => match F q with [] => [] | _ => [(q, 0)] end) (ranks g))) as Nd.
  { intros F. rewrite (flat_map_ext _ (fun q => map (fun _ => (q, 0)) (match F q with [] => [] | _ => [tt] end))); [apply (NoDup_ports (fun q => match F q with [] => [] | _ => [tt] end) (fun q _ => (q, 0)) (ranks g) (ranks_NoDup g)); [reflexivity|]|].
    - intros q. destruct (F q); cbn [map]; [constructor|]. constructor; [intros []|constructor].
    - intros q. destruct (F q); reflexivity. }
  split.
  - intros p Ip. split; [|split; [apply Nd|split]].
    + rewrite flat_map_map. erewrite flat_map_ext; [apply (Nd (fun q => listed q (send_list (X k) (ids k) p)))|]. intros q. cbn beta. destruct (listed q (send_list (X k) (ids k) p)); reflexivity.
    + intros e He. apply in_flat_map in He. destruct He as (q & Iq & He). destruct (listed q (send_list (X k) (ids k) p)); [destruct He|]. destruct He as [<-|[]]. assumption.
    + intros e He. apply in_flat_map in He. destruct He as (q & Iq & He). destruct (listed q (recv_list (X k) (ids k) p)); [destruct He|]. destruct He as [<-|[]]. assumption.
  - intros p q tg Ip Iq. destruct (list_facts (X k) (ids k) (Us k) q p R EU Iq Ip) as (Es & _). rewrite flat_map_map, !in_flat_map. split.
    + intros (q' & Iq' & J). destruct (listed q' (send_list (X k) (ids k) p)) as [|c l] eqn:El; [destruct J|]. cbn [map fst] in J. destruct J as [J|[]]. injection J as -> <-. exists p. split; [assumption|]. rewrite <- Es, El. left. reflexivity.
    + intros (p' & Ip' & J). destruct (listed p' (recv_list (X k) (ids k) q)) as [|c l] eqn:El; [destruct J|]. destruct J as [J|[]]. injection J as -> <-. exists q. split; [assumption|]. rewrite Es, El. left. reflexivity.
Qed.

(** the copies after a round are those of the update *)
Lemma stored_ok k p l : (k < rounds)%nat -> rank p ->
  (forall c o, In (c, o) l -> exists q, needs (Us k) (X k) p q c /\ o = data (X k) q c) ->
  (forall q c, needs (Us k) (X k) p q c -> In c (map fst l)) ->
  exists b x', update_copies g (X k) (ids k) = Done (b, x') /\ forall c, find c (store_all l (x_copies (X k) p)) = find c (x_copies x' p).
Proof.
  intros Hk Ip A B. destruct (HX k Hk) as [R EU]. destruct (xreachable_inv d0 g Hg _ R) as (own & Hx). destruct (update_ok g Hg own (X k) (ids k) (Us k) Hx EU) as (x' & E & _ & _ & P).
  eexists _, x'. split; [exact E|]. intros c. destruct (P p Ip) as [_ Q]. destruct (Q c) as [Q1 Q2].
  destruct (store_all_ok l c (x_copies (X k) p)) as [S1 S2].
  { intros [c' o] I. cbn [snd]. destruct (A c' o I) as (q & N & ->). destruct (needs_rank k p q c' Hk Ip N) as (_ & v & ->). discriminate. }
  destruct (in_dec Z.eq_dec c (map fst l)) as [I|I].
  - apply in_map_iff in I. destruct I as ([c' o] & Ec & I). cbn [fst] in Ec. subst c'. destruct (A c o I) as (q & N & Eo). destruct (needs_rank k p q c Hk Ip N) as (_ & v & Ev). rewrite Ev in Eo. subst o.
    rewrite (S1 v I); [|].
    + rewrite (Q1 q); [symmetry; assumption|]. apply (proj1 (needs_iff g own _ _ p q c Hx Ip) N).
    + intros w Iw. destruct (A c (Some w) Iw) as (q' & N' & Ew). assert (q' = q) as ->; [|congruence]. destruct N as (O & _), N' as (O' & _). unfold owns in *. congruence.
  - rewrite (S2 I). rewrite Q2; [reflexivity|]. intros q N. apply I. apply (B q). apply (proj2 (needs_iff g own _ _ p q c Hx Ip) N).
Qed.

(** whatever the order of the messages, the data received in each update is that of the update *)
Theorem c34_any_order_single s p k r : execution (ranks g) rounds (fun p k => out_single (X k) (ids k) p) (fun p k => inc_single (X k) (ids k) p) s ->
  rank p -> nth_error (results (procs_at s p)) k = Some r ->
  exists b x', update_copies g (X k) (ids k) = Done (b, x') /\ forall c, find c (store_all (stores_single (X k) (ids k) p r) (x_copies (X k) p)) = find c (x_copies x' p).
Proof.
  intros Ex Ip Er. destruct (rounds_deliver _ _ _ _ single_matching s p k r Ex Ip Er) as (Hk & N & Kr & Vr). destruct (HX k Hk) as [R EU]. apply stored_ok; [assumption|assumption| |].
  - intros c o I. unfold stores_single in I. apply in_flat_map in I. destruct I as (q & Iq & I). apply in_map_iff in I. destruct I as ([c' tg] & E & I). cbn [fst snd] in E.
    destruct (list_facts (X k) (ids k) (Us k) p q R EU Ip Iq) as (Es & _ & Pn). injection E as -> <-. exists q. split; [apply Pn; apply in_tagged in I; assumption|].
    assert (In (q, tg) (map fst r)) as J by (apply Kr; unfold inc_single; apply in_flat_map; exists q; split; [assumption|]; apply in_map_iff; exists (c, tg); auto).
    apply in_map_iff in J. destruct J as ([[q' t'] v] & Ej & J). cbn [fst] in Ej. injection Ej as -> ->. rewrite (arrived_In r q tg v N J). apply Vr in J. unfold out_single in J. apply in_flat_map in J. destruct J as (p' & Ip' & J). apply in_map_iff in J. destruct J as ([c2 t2] & Ej & J). cbn [fst snd] in Ej. injection Ej as -> -> <-.
    rewrite Es in J. assert (c2 = c) as ->; [|reflexivity]. pose proof (tagged_tags (listed q (recv_list (X k) (ids k) p))) as Nt. clear - Nt I J. revert Nt I J. generalize (tagged (listed q (recv_list (X k) (ids k) p))). induction l as [|e l IH]; intros Nt I J; [destruct I|]. cbn [map] in Nt. apply NoDup_cons_iff in Nt. destruct Nt as [N1 N2].
    destruct I as [E|I], J as [E'|J]; [congruence| | |auto].
    + exfalso. apply N1. subst e. apply in_map_iff. exists (c2, tg). auto.
    + exfalso. apply N1. subst e. apply in_map_iff. exists (c, tg). auto.
  - intros q c Nd. destruct (needs_rank k p q c Hk Ip Nd) as (Iq & _). destruct (list_facts (X k) (ids k) (Us k) p q R EU Ip Iq) as (_ & _ & Pn). apply Pn in Nd. destruct (tagged_has _ _ Nd) as (tg & It).
    apply in_map_iff. exists (c, match arrived q tg r with Some v => v | None => None end). split; [reflexivity|]. unfold stores_single. apply in_flat_map. exists q. split; [assumption|]. apply in_map_iff. exists (c, tg). auto.
Qed.
Theorem c34_any_order_whole s p k r : execution (ranks g) rounds (fun p k => out_whole (X k) (ids k) p) (fun p k => inc_whole (X k) (ids k) p) s ->
  rank p -> nth_error (results (procs_at s p)) k = Some r ->
  exists b x', update_copies g (X k) (ids k) = Done (b, x') /\ forall c, find c (store_all (stores_whole (X k) (ids k) p r) (x_copies (X k) p)) = find c (x_copies x' p).
Proof.
  intros Ex Ip Er. destruct (rounds_deliver _ _ _ _ whole_matching s p k r Ex Ip Er) as (Hk & N & Kr & Vr). destruct (HX k Hk) as [R EU].
  assert (forall q vs, rank q -> In ((q, 0), vs) r -> vs = map (fun c => data (X k) q c) (listed q (recv_list (X k) (ids k) p))) as Vs.
  { intros q vs Iq J. apply Vr in J. unfold out_whole in J. apply in_flat_map in J. destruct J as (p' & Ip' & J). destruct (list_facts (X k) (ids k) (Us k) p q R EU Ip Iq) as (Es & _).
    destruct (listed p' (send_list (X k) (ids k) q)) as [|c l] eqn:El; [destruct J|]. destruct J as [J|[]]. injection J as -> <-. rewrite Es in El. rewrite El. reflexivity. }
  apply stored_ok; [assumption|assumption| |].
  - intros c o I. unfold stores_whole in I. apply in_flat_map in I. destruct I as (q & Iq & I). destruct (arrived q 0 r) as [vs|] eqn:A; [|destruct I]. unfold arrived in A.
    destruct (List.find (fun e => if port_dec (fst e) (q, 0) then true else false) r) as [[y w]|] eqn:F; [|discriminate]. apply find_some in F. destruct F as [J F]. cbn [fst] in F. destruct (port_dec y (q, 0)) as [E|]; [|discriminate]. subst y. cbn [option_map snd] in A. injection A as <-.
    rewrite (Vs q w Iq J) in I. destruct (list_facts (X k) (ids k) (Us k) p q R EU Ip Iq) as (_ & _ & Pn). exists q. split; [apply Pn; apply in_combine_l in I; assumption|].
    clear - I. revert I. generalize (listed q (recv_list (X k) (ids k) p)). induction l as [|a l IH]; cbn [map combine In]; [intros []|]. intros [E|I]; [congruence|auto].
  - intros q c Nd. destruct (needs_rank k p q c Hk Ip Nd) as (Iq & _). destruct (list_facts (X k) (ids k) (Us k) p q R EU Ip Iq) as (_ & _ & Pn). apply Pn in Nd.
    assert (In (q, 0) (map fst r)) as J. { apply Kr. unfold inc_whole. apply in_flat_map. exists q. split; [assumption|]. destruct (listed q (recv_list (X k) (ids k) p)); [destruct Nd|left; reflexivity]. }
    apply in_map_iff in J. destruct J as ([[q' t'] v] & Ej & J). cbn [fst] in Ej. injection Ej as -> ->. pose proof (Vs q v Iq J) as Ev.
    assert (In (c, data (X k) q c) (stores_whole (X k) (ids k) p r)) as I.
    { unfold stores_whole. apply in_flat_map. exists q. split; [assumption|]. rewrite (arrived_In r q 0 v N J), Ev. revert Nd. generalize (listed q (recv_list (X k) (ids k) p)). induction l as [|a l IH]; cbn [map combine In]; [intros []|]. intros [->|I]; auto. }
    apply in_map_iff. exists (c, data (X k) q c). auto.
Qed.
(** and every order of messages leads to the end of all updates *)
Theorem c34_updates_end : 
  (forall s, execution (ranks g) rounds (fun p k => out_single (X k) (ids k) p) (fun p k => inc_single (X k) (ids k) p) s ->
    (finished (ranks g) rounds s \/ exists s', step (ranks g) rounds (fun p k => out_single (X k) (ids k) p) (fun p k => inc_single (X k) (ids k) p) s s') /\
    exists s', execution (ranks g) rounds (fun p k => out_single (X k) (ids k) p) (fun p k => inc_single (X k) (ids k) p) s' /\ forall p, rank p -> length (results (procs_at s' p)) = rounds) /\
  (forall s, execution (ranks g) rounds (fun p k => out_whole (X k) (ids k) p) (fun p k => inc_whole (X k) (ids k) p) s ->
    (finished (ranks g) rounds s \/ exists s', step (ranks g) rounds (fun p k => out_whole (X k) (ids k) p) (fun p k => inc_whole (X k) (ids k) p) s s') /\
    exists s', execution (ranks g) rounds (fun p k => out_whole (X k) (ids k) p) (fun p k => inc_whole (X k) (ids k) p) s' /\ forall p, rank p -> length (results (procs_at s' p)) = rounds) /\
  (exists f : global (V := option D) -> nat, forall s s', step (ranks g) rounds (fun p k => out_single (X k) (ids k) p) (fun p k => inc_single (X k) (ids k) p) s s' -> (f s' < f s)%nat) /\
  (exists f : global (V := list (option D)) -> nat, forall s s', step (ranks g) rounds (fun p k => out_whole (X k) (ids k) p) (fun p k => inc_whole (X k) (ids k) p) s s' -> (f s' < f s)%nat).
Proof.
  split; [|split; [|split]].
  - intros s Ex. split; [apply (rounds_progress _ _ _ _ single_matching s Ex)|]. destruct (rounds_finish _ _ _ _ single_matching s (ranks_NoDup g) Ex) as (s' & E & _ & L). eauto.
  - intros s Ex. split; [apply (rounds_progress _ _ _ _ whole_matching s Ex)|]. destruct (rounds_finish _ _ _ _ whole_matching s (ranks_NoDup g) Ex) as (s' & E & _ & L). eauto.
  - eexists. intros s s' St. apply (rounds_terminate _ _ _ _ s s' (ranks_NoDup g) St).
  - eexists. intros s s' St. apply (rounds_terminate _ _ _ _ s s' (ranks_NoDup g) St).
Qed.
End Async.

(** two processes and two updates from a reachable state, with messages in both directions in the
    first, and an execution that reaches the end of both *)
Definition value_dec (a b : option Z) : {a = b} + {a <> b}.
Proof. decide equality. apply Z.eq_dec. Defined.
Definition message_dec (a b : (Z * Z) * option Z) : {a = b} + {a <> b}.
Proof. decide equality; [apply value_dec|apply port_dec]. Defined.
Definition whole_dec (a b : (Z * Z) * list (option Z)) : {a = b} + {a <> b}.
Proof. decide equality; [apply (list_eq_dec value_dec)|apply port_dec]. Defined.
Definition item_dec (a b : idx) : {a = b} + {a <> b}.
Proof. decide equality; apply Z.eq_dec. Defined.
Definition hood_dec (a b : option hood) : {a = b} + {a <> b}.
Proof. decide equality. apply (list_eq_dec item_dec). Defined.

Example c34_any_order_example : exists x s,
  let X := fun _ : nat => x in let ids := fun k : nat => match k with O => default_neighborhood_id | _ => 5 end in
  let Us := fun k : nat => match k with O => g_hood g2 | _ => one_way end in
  (forall k, (k < 2)%nat -> xreachable 0 g2 (X k) /\ hood_at g2 (x_hoods (X k)) (ids k) = Some (Us k)) /\
  out_single g2 x default_neighborhood_id 0 = [((1, 1), Some 17)] /\ inc_single g2 x default_neighborhood_id 1 = [(0, 1)] /\
  out_single g2 x default_neighborhood_id 1 = [((0, 1), Some 23)] /\
  out_whole g2 x default_neighborhood_id 1 = [((0, 0), [Some 23])] /\
  execution (ranks g2) 2 (fun p k => out_single g2 (X k) (ids k) p) (fun p k => inc_single g2 (X k) (ids k) p) s /\
  length (results (procs_at s 1)) = 2%nat.
Proof.
  destruct (xgo_holds 0 g2 start2 (fun x =>
    (if hood_dec (hood_at g2 (x_hoods x) 5) (Some one_way) then true else false) &&
    (if list_eq_dec message_dec (out_single g2 x default_neighborhood_id 0) [((1, 1), Some 17)] then true else false) &&
    (if list_eq_dec port_dec (inc_single g2 x default_neighborhood_id 1) [(0, 1)] then true else false) &&
    (if list_eq_dec message_dec (out_single g2 x default_neighborhood_id 1) [((0, 1), Some 23)] then true else false) &&
    (if list_eq_dec whole_dec (out_whole g2 x default_neighborhood_id 1) [((0, 0), [Some 23])] then true else false))) as (x & R & B); [vm_compute; reflexivity|].
  apply andb_prop in B. destruct B as [B B5]. apply andb_prop in B. destruct B as [B B4]. apply andb_prop in B. destruct B as [B B3]. apply andb_prop in B. destruct B as [B1 B2].
  destruct (hood_dec (hood_at g2 (x_hoods x) 5) (Some one_way)) as [E1|]; [|discriminate].
  destruct (list_eq_dec message_dec (out_single g2 x default_neighborhood_id 0) [((1, 1), Some 17)]) as [E2|]; [|discriminate].
  destruct (list_eq_dec port_dec (inc_single g2 x default_neighborhood_id 1) [(0, 1)]) as [E3|]; [|discriminate].
  destruct (list_eq_dec message_dec (out_single g2 x default_neighborhood_id 1) [((0, 1), Some 23)]) as [E4|]; [|discriminate].
  destruct (list_eq_dec whole_dec (out_whole g2 x default_neighborhood_id 1) [((0, 0), [Some 23])]) as [E5|]; [|discriminate].
  set (X := fun _ : nat => x). set (ids := fun k : nat => match k with O => default_neighborhood_id | _ => 5 end). set (Us := fun k : nat => match k with O => g_hood g2 | _ => one_way end).
  assert (forall k, (k < 2)%nat -> xreachable 0 g2 (X k) /\ hood_at g2 (x_hoods (X k)) (ids k) = Some (Us k)) as HX.
  { intros k Hk. split; [assumption|]. destruct k; [reflexivity|assumption]. }
  destruct (proj1 (c34_updates_end 0 g2 g2_ok 2 X ids Us HX) _ (exec_start _ _ _ _)) as (_ & s & Es & Ls).
  exists x, s. cbn zeta. split; [exact HX|]. split; [assumption|]. split; [assumption|]. split; [assumption|]. split; [assumption|]. split; [exact Es|]. apply Ls. vm_compute. auto.
Qed.
Print Assumptions c34_any_order_single.
Print Assumptions c34_any_order_whole.
Print Assumptions c34_updates_end.
