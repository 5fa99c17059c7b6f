(** stop_refining always succeeds; what it leaves behind. *)
From Verif Require Import U64 MapModel MapSpec MapProofs MapFamily MapProps HoodModel MeshModel
  MeshSpec MeshBase HoodProps MeshWalk MeshFind MeshKids MeshItem MeshCheck MeshTo MeshNear
  Sets RefineModel RefineGeo RefineInv RefineSpread RefineNear RefineMerge RefineFold RefineExec.
Open Scope Z_scope.

Section Stop.
Context {D : Type} (d0 : D) (g : grid) (Hg : grid_ok g).
Notation m := (g_map g).
Notation t := (g_topo g).
Notation n := (g_len g).
Notation H := (g_hood g).
Notation par := (get_parent m).

(** the first child of a cell: its lowest corner *)
Notation first p := (nth 0 (get_all_children m p) error_cell).
Notation data st r := (s_data (p_store (st r))).

(** how values attached to cells (pins, weights) follow a commit: children inherit the value of
    their parent, cells that disappear lose theirs *)
Definition handed (own own' : Z -> option Z) (st : Z -> proc D) (loc : Z -> Prop) (f f' : list (Z * Z)) : Prop :=
  (forall c, created g own st c -> loc (par c) ->
     find c f' = match find (par c) f with Some v => Some v | None => find c f end) /\
  (forall c, exo own c = true -> exo own' c = false -> loc c -> find c f' = None) /\
  (forall c, ~ (created g own st c /\ loc (par c)) -> (exo own c = true -> exo own' c = true) -> find c f' = find c f) /\
  (forall c, ~ (created g own st c /\ loc (par c)) -> find c f = None -> find c f' = None) /\
  (NoDup (keys f) -> NoDup (keys f')).

(** what a commit does, in terms of the states before and after it *)
Record committed (own : Z -> option Z) (st : Z -> proc D) (own' : Z -> option Z) (res : Z -> proc D * list Z) : Prop := Committed {
  cm_good : good g own' (fun r => fst (res r));
  cm_ex : forall c, exo own' c = true <-> after m (exo own) (all_refined g own st) (merged g own st) c;
  cm_kid : forall c, created g own st c -> own' c = own (par c);
  cm_par : forall p, merged g own st p -> own' p = own (first p);
  cm_keep : forall c, exo own c = true -> exo own' c = true -> own' c = own c;
  cm_new : forall r c, In r (ranks g) -> In c (snd (res r)) <-> created g own st c /\ own (par c) = Some r;
  cm_data : forall r c, In r (ranks g) -> own' c = Some r ->
    find c (s_data (p_store (fst (res r)))) = if exo own c then find c (data st r) else Some d0;
  cm_refd : forall r c v, In r (ranks g) -> find c (s_refd (p_store (fst (res r)))) = Some v <->
    all_refined g own st c /\ own c = Some r /\ find c (data st r) = Some v;
  cm_unrefd : forall r c v, In r (ranks g) -> find c (s_unrefd (p_store (fst (res r)))) = Some v <->
    removed g own st c /\ own' (par c) = Some r /\ exists q, own c = Some q /\ find c (data st q) = Some v;
  cm_pin : forall r, In r (ranks g) -> handed own own' st (fun _ => True) (s_pin (p_store (st r))) (s_pin (p_store (fst (res r))));
  cm_newpin : forall r, In r (ranks g) -> handed own own' st (fun _ => True) (s_newpin (p_store (st r))) (s_newpin (p_store (fst (res r))));
  cm_wt : forall r, In r (ranks g) -> handed own own' st (fun c => own c = Some r) (s_wt (p_store (st r))) (s_wt (p_store (fst (res r))));
  cm_req : forall r, In r (ranks g) -> exists noref, p_req (fst (res r)) = Reqs [] noref [] [] /\
    forall c, In c noref <-> all_protected g own st c }.

(** ** Keys stay unique *)
Lemma inherit_NoDup ch c (f : list (Z * Z)) : NoDup (keys f) -> NoDup (keys (inherit ch c f)).
Proof. intros N. unfold inherit. destruct (find c f); [apply del_NoDup, puts_NoDup; assumption|assumption]. Qed.
Lemma foldM_inv {A B} (P : B -> Prop) (f : B -> A -> outcome B) l : (forall b a b', P b -> f b a = Done b' -> P b') ->
  forall b b', P b -> foldM f l b = Done b' -> P b'.
Proof.
  intros F. induction l as [|a l IH]; cbn [foldM]; intros b b' Pb E; [injection E as <-; assumption|].
  apply bind_done in E. destruct E as (b1 & E1 & E). apply (IH b1); [|assumption]. apply (F b a); assumption.
Qed.
Lemma collect_inv {A} l (f : Z -> outcome A) base F : collect l f base = Done F -> forall r, In r l -> f r = Done (F r).
Proof.
  revert F. induction l as [|x l IH]; cbn [collect]; intros F E r; [intros []|].
  apply bind_done in E. destruct E as (a & Ea & E). apply bind_done in E. destruct E as (F0 & E0 & E). injection E as <-. intros Hr.
  destruct (Z.eqb_spec r x) as [->|N]; [assumption|]. apply (IH F0 E0). destruct Hr; [congruence|assumption].
Qed.
Definition nodup_pins (s0 s : store D) : Prop :=
  (NoDup (keys (s_pin s0)) -> NoDup (keys (s_pin s))) /\ (NoDup (keys (s_newpin s0)) -> NoDup (keys (s_newpin s))) /\
  (NoDup (keys (s_wt s0)) -> NoDup (keys (s_wt s))).
Lemma execute_local_nodup r tr tu s x : execute_local d0 g r tr tu s = Done x ->
  let '(s', _, _, _, _, _) := x in nodup_pins s s'.
Proof.
  unfold execute_local. intros E. apply bind_done in E. destruct E as ([s2 new] & E2 & E).
  apply bind_done in E. destruct E as ([[cp all] ps] & E3 & E). apply bind_done in E. destruct E as ([[s4 send] recv] & E4 & E). injection E as <-.
  assert (nodup_pins s s2) as N2.
  { refine (foldM_inv (fun x => nodup_pins s (fst x)) (refine_one d0 g r) tr _ _ _ _ E2); [|split; [auto|split; auto]].
    intros [s0 n0] c b' (A & B & C) Eb. unfold refine_one in Eb. apply bind_done in Eb. destruct Eb as (o & _ & Eb). apply bind_done in Eb. destruct Eb as (d & _ & Eb).
    destruct (_ || _) in Eb; [discriminate|]. injection Eb as <-. cbn [fst] in *. unfold nodup_pins. cbn [s_pin s_newpin s_wt].
    split; [intros; apply inherit_NoDup; auto|]. split; [intros; apply inherit_NoDup; auto|]. intros. destruct (_ =? _); [apply inherit_NoDup|]; auto. }
  refine (foldM_inv (fun x => nodup_pins s (fst (fst x))) (remove_one g r) all _ _ _ _ E4); [|exact N2].
  intros [[s0 se] re] c b' (A & B & C) Eb. unfold remove_one in Eb. apply bind_done in Eb. destruct Eb as (pp & _ & Eb). apply bind_done in Eb. destruct Eb as (pc & _ & Eb).
  assert (forall x y, nodup_pins s (Store x y (s_refd s0) (s_unrefd s0) (del c (s_pin s0)) (del c (s_newpin s0)) (del c (s_wt s0)))) as G.
  { intros x y. unfold nodup_pins. cbn [s_pin s_newpin s_wt fst] in *. split; [|split]; intros; apply del_NoDup; auto. }
  destruct (_ && _) in Eb; [apply bind_done in Eb; destruct Eb as (v & _ & Eb)|destruct (_ =? _) in Eb; [|destruct (_ =? _) in Eb]];
    injection Eb as <-; cbn [fst]; unfold nodup_pins; apply (G (s_proc s0) (s_data s0)).
Qed.
Lemma execute_nodup st tr tu noref res : execute_refines d0 g st tr tu noref = Done res ->
  forall r, In r (ranks g) -> nodup_pins (p_store (st r)) (p_store (fst (res r))).
Proof.
  unfold execute_refines, each. intros E r Ir. apply bind_done in E. destruct E as (loc & E1 & E).
  pose proof (collect_inv _ _ _ _ E1 r Ir) as L. pose proof (collect_inv _ _ _ _ E r Ir) as F. cbn beta in L, F.
  pose proof (execute_local_nodup _ _ _ _ _ L) as N. clear E E1.
  apply bind_done in F. destruct F as (s & Es & F). apply bind_done in F. destruct F as (k & _ & F). injection F as F. rewrite <- F. cbn [fst p_store].
  destruct (loc r) as [[[[[s' ?] ?] ?] ?] ?]. unfold execute_finish in Es. apply bind_done in Es. destruct Es as (u & _ & Es). apply bind_done in Es. destruct Es as (d & _ & Es). injection Es as <-.
  exact N.
Qed.

Lemma passed_handed own st own' tr tu (loc : Z -> bool) (locP : Z -> Prop) (f f' : list (Z * Z)) :
  (forall c, Rb tr c = true <-> all_refined g own st c) -> (forall c, Rk g tr c = true <-> created g own st c) ->
  (forall c, Rk g tr c = true -> exo own c = false /\ Rb tr c = false /\ Mk g tu c = false /\ Mb g tu c = false) ->
  (forall c, Mk g tu c = true -> exo own c = true /\ Rb tr c = false /\ Rk g tr c = false /\ Mb g tu c = false) ->
  (forall c, Rb tr c = true -> exo own c = true /\ Rk g tr c = false /\ Mk g tu c = false /\ Mb g tu c = false) ->
  (forall c, Mb g tu c = true -> exo own c = false /\ Rb tr c = false /\ Rk g tr c = false /\ Mk g tu c = false) ->
  own' = RefineExec.own' g own tr tu -> (forall c, loc c = true <-> locP c) ->
  passed g tr tu loc f f' -> (NoDup (keys f) -> NoDup (keys f')) -> handed own own' st locP f f'.
Proof.
  intros RbI RkI RkO MkO RbO MbO -> L P N. unfold handed, passed in *.
  assert (forall c, ~ (created g own st c /\ locP (par c)) -> Rk g tr c && loc (par c) = false) as NK.
  { intros c Q. apply not_true. intros E. apply andb_true_iff in E. destruct E as [E1 E2]. apply Q. split; [apply RkI, E1|apply L, E2]. }
  split; [|split; [|split; [|split; [|assumption]]]].
  - intros c C Lc. apply RkI in C. destruct (RkO c C) as (_ & A & B & _). rewrite P, A, B, C, (proj2 (L _) Lc). reflexivity.
  - intros c E E' Lc. rewrite P. destruct (Mk g tu c) eqn:E1; [reflexivity|]. unfold exo, RefineExec.own' in E'. rewrite E1 in E'. destruct (Rb tr c) eqn:E2; [rewrite (proj2 (L _) Lc); reflexivity|].
    exfalso. destruct (Rk g tr c) eqn:E3; [destruct (RkO c E3); congruence|]. destruct (Mb g tu c) eqn:E4; [destruct (MbO c E4); congruence|]. unfold exo in E. destruct (own c); discriminate.
  - intros c Q K. rewrite P, (NK c Q). destruct (Mk g tu c) eqn:E1.
    + destruct (MkO c E1) as (Ex & A & _). specialize (K Ex). unfold exo, RefineExec.own' in K. rewrite A, E1 in K. discriminate.
    + destruct (Rb tr c) eqn:E2; [|reflexivity]. destruct (RbO c E2) as (Ex & _). specialize (K Ex). unfold exo, RefineExec.own' in K. rewrite E2 in K. discriminate.
  - intros c Q K. rewrite P, (NK c Q), K. destruct (Mk g tu c); [reflexivity|]. destruct (_ && _); reflexivity.
Qed.

Lemma stop_refining_ok own st : good g own st -> exists own' res, stop_refining d0 g st = Done res /\ committed own st own' res.
Proof.
  intros Hgood. unfold stop_refining.
  destruct (override_refines_ok g Hg own st Hgood) as (x & Ex & Px). rewrite Ex. cbn [bind].
  destruct (induce_refines_ok g Hg own st Hgood (fun r => snd (x r))) as (tr & Et & Pt); [intros r c Ir; apply (Px r c Ir)|]. rewrite Et. cbn [bind].
  destruct (override_unrefines_ok g Hg own st Hgood tr Pt) as (tu & Eu & Pu). rewrite Eu. cbn [bind].
  pose proof (induce_refines_NoDup g st _ _ Et (override_refines_NoDup g st x Ex)) as Nt.
  set (own' := own' g own tr tu). exists own'.
  destruct (execute_refines_ok d0 g Hg own st Hgood tr tu (fun r => fst (x r)) Pt Nt Pu) as (res & Er & Gr & Fr). exists res. split; [assumption|].
  pose proof (execute_nodup _ _ _ _ _ Er) as Nd.
  fold own' in Gr.
  pose proof (Rb_iff g Hg own st tr Pt) as RbI. pose proof (Mb_iff g Hg own st tu Pu) as MbI.
  pose proof (Rk_iff g Hg own st Hgood tr Pt) as RkI. pose proof (Mk_iff g Hg own st Hgood tu Pu) as MkI.
  pose proof (Rb_only g Hg own st Hgood tr tu Pt Pu) as RbO. pose proof (Mb_only g Hg own st Hgood tr tu Pt Pu) as MbO.
  pose proof (Rk_only g Hg own st Hgood tr tu Pt Pu) as RkO. pose proof (Mk_only g Hg own st Hgood tr tu Pt Pu) as MkO.
  pose proof (exo_own' g Hg own st Hgood tr tu tr Pt Pu) as ExI.
  constructor.
  - exact Gr.
  - exact ExI.
  - intros c Q. apply RkI in Q. destruct (RkO c Q) as (_ & A & B & _). unfold own', RefineExec.own'. rewrite A, B, Q. reflexivity.
  - intros c Q. apply MbI in Q. destruct (MbO c Q) as (_ & A & B & C). unfold own', RefineExec.own'. rewrite A, B, C, Q. reflexivity.
  - intros c E E'. unfold own', exo, RefineExec.own' in E' |- *. destruct (Rb tr c); [discriminate|]. destruct (Mk g tu c); [discriminate|].
    destruct (Rk g tr c) eqn:E1; [destruct (RkO c E1); congruence|]. destruct (Mb g tu c) eqn:E2; [destruct (MbO c E2); congruence|]. reflexivity.
  - intros r c Ir. apply (Fr r Ir).
  - intros r c Ir O. destruct (Fr r Ir) as ((_ & Fd & _) & _). rewrite (Fd c O). clear Fd.
    destruct (Rk g tr c) eqn:E1; cbn [orb]; [destruct (RkO c E1) as (-> & _); reflexivity|]. destruct (Mb g tu c) eqn:E2; [destruct (MbO c E2) as (-> & _); reflexivity|].
    unfold own', RefineExec.own' in O. rewrite E1, E2 in O. destruct (Rb tr c); [discriminate|]. destruct (Mk g tu c); [discriminate|]. unfold exo. rewrite O. reflexivity.
  - intros r c v Ir. destruct (Fr r Ir) as ((_ & _ & F & _) & _). rewrite F, <- RbI. destruct (Rb tr c); cbn [andb].
    + destruct (ownr r own c) eqn:E; [apply ownr_iff in E; tauto|]. split; [discriminate|]. intros (_ & Q & _). apply ownr_iff in Q. congruence.
    + split; [discriminate|]. intros (Q & _). discriminate.
  - intros r c v Ir. destruct (Fr r Ir) as ((_ & _ & _ & F & _) & _). rewrite F, <- MkI. unfold unref_data. destruct (Mk g tu c); cbn [andb].
    + destruct (ownr r (RefineExec.own' g own tr tu) (par c)) eqn:E.
      * apply ownr_iff in E. split.
        -- destruct (own c) as [q|] eqn:Oq; [|discriminate]. intros Q. split; [reflexivity|]. split; [exact E|]. exists q. auto.
        -- intros (_ & _ & q & Oq & Q). rewrite Oq. exact Q.
      * split; [discriminate|]. intros (_ & Q & _). apply ownr_iff in Q. fold own' in E. congruence.
    + split; [discriminate|]. intros (Q & _). discriminate.
  - intros r Ir. destruct (Fr r Ir) as ((_ & _ & _ & _ & F & _) & _). apply (passed_handed own st own' tr tu (fun _ => true)); [assumption|assumption|assumption|assumption|assumption|assumption|reflexivity|split; auto|exact F|apply (Nd r Ir)].
  - intros r Ir. destruct (Fr r Ir) as ((_ & _ & _ & _ & _ & F & _) & _). apply (passed_handed own st own' tr tu (fun _ => true)); [assumption|assumption|assumption|assumption|assumption|assumption|reflexivity|split; auto|exact F|apply (Nd r Ir)].
  - intros r Ir. destruct (Fr r Ir) as ((_ & _ & _ & _ & _ & _ & F) & _). apply (passed_handed own st own' tr tu (ownr r own)); [assumption|assumption|assumption|assumption|assumption|assumption|reflexivity|intros c; apply ownr_iff|exact F|apply (Nd r Ir)].
  - intros r Ir. destruct (Fr r Ir) as (_ & Q & _). exists (fst (x r)). split; [exact Q|]. intros c. apply (Px r c Ir).
Qed.
End Stop.
