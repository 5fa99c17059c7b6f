(** C83: what propagate_particles does to every cell, for all particles, cells and processes. *)
From Verif Require Import U64 MapModel MapSpec HoodModel MeshModel Sets RefineModel CommModel Stages ParticleModel.
From Coq Require Import Permutation.
Open Scope Z_scope.

Section Props.
Context {P : Type} (drift wrap : P -> P) (place_of : P -> Z).
Context (wrapped : forall p, wrap (wrap p) = wrap p).
Notation push := (push place_of).
Notation scan := (scan wrap place_of).
Notation propagate := (propagate drift wrap place_of).
(** particles that a cell keeps and those that leave it: the one after a particle that leaves is passed by *)
Fixpoint kept (c : Z) (l : list P) : list P :=
  match l with
  | [] => []
  | p :: r => if place_of (wrap p) =? c then wrap p :: kept c r else match r with [] => [] | q :: r' => q :: kept c r' end
  end.
Fixpoint leaving (c : Z) (l : list P) : list P :=
  match l with
  | [] => []
  | p :: r => if place_of (wrap p) =? c then leaving c r else wrap p :: match r with [] => [] | q :: r' => leaving c r' end
  end.
Definition times (c : Z) (l : list Z) : nat := count_occ Z.eq_dec l c.
(** what a cell is given by item i, whose particles are l *)
Definition given_by (c : Z) (nbrs : list Z) (out : list P) : list P := flat_map (fun p => if place_of p =? c then repeat p (times c nbrs) else []) out.

Lemma two_ind {A} (Q : list A -> Prop) : Q [] -> (forall a l, Q l -> (forall b r, l = b :: r -> Q r) -> Q (a :: l)) -> forall l, Q l.
Proof. intros H0 H1 l. enough (Q l /\ forall b r, l = b :: r -> Q r) by tauto. induction l as [|a l [IH IH']]; [split; [assumption|discriminate]|]. split; [apply H1; assumption|]. intros b r E. injection E as <- <-. assumption. Qed.
Lemma leaving_wrapped c l : forall p, In p (leaving c l) -> wrap p = p /\ place_of p <> c.
Proof.
  induction l as [|a l IH IH'] using two_ind; [intros p []|]. intros p. cbn [leaving]. destruct (Z.eqb_spec (place_of (wrap a)) c) as [E|N]; [apply IH|]. intros [<-|I]; [split; [apply wrapped|assumption]|]. destruct l as [|b r]; [destruct I|]. apply (IH' b r eq_refl p I).
Qed.
Lemma lengths c l : (length (kept c l) + length (leaving c l) = length l)%nat.
Proof.
  induction l as [|a l IH IH'] using two_ind; [reflexivity|]. cbn [kept leaving]. destruct (place_of (wrap a) =? c); [cbn [length]; lia|]. destruct l as [|b r]; [reflexivity|]. specialize (IH' b r eq_refl). cbn [length]. lia.
Qed.
(** particles that others have put at the end stay *)
Definition inside (c : Z) (l : list P) : Prop := forall p, In p l -> wrap p = p /\ place_of p = c.
Lemma inside_kept c A : inside c A -> kept c A = A /\ leaving c A = [].
Proof.
  induction A as [|p A IH]; intros H; [split; reflexivity|]. destruct (H p (or_introl eq_refl)) as [E1 E2]. destruct IH as [K1 K2]; [intros q I; apply H; right; assumption|]. cbn [kept leaving]. rewrite E1, E2, Z.eqb_refl, K1, K2. split; reflexivity.
Qed.
Lemma kept_app c A : inside c A -> forall l, kept c (l ++ A) = kept c l ++ A /\ leaving c (l ++ A) = leaving c l.
Proof.
  intros H. induction l as [|a l IH IH'] using two_ind; [apply inside_kept; assumption|]. cbn [app kept leaving]. destruct (place_of (wrap a) =? c); [destruct IH as [-> ->]; split; reflexivity|].
  destruct l as [|b r]; [|destruct (IH' b r eq_refl) as [E1 E2]; cbn [app]; rewrite E1, E2; split; reflexivity].
  cbn [app]. destruct A as [|q A]; [split; reflexivity|]. destruct (inside_kept c A) as [-> ->]; [intros p I; apply H; right; assumption|]. split; reflexivity.
Qed.

(** ** One cell *)
(** s' is s with more particles at the ends of lists *)
Definition grown (s s' : pmemory P) (g : Z -> list P) : Prop :=
  forall c, match s c with None => s' c = None | Some d => s' c = Some (match g c with [] => d | _ => PData (Z.of_nat (length (particles d ++ g c))) (particles d ++ g c) end) end.
Lemma grown_trans s1 s2 s3 g h : grown s1 s2 g -> grown s2 s3 h -> grown s1 s3 (fun c => g c ++ h c).
Proof.
  intros A B c. specialize (A c). specialize (B c). destruct (s1 c) as [d|]; [|rewrite A in B; assumption]. rewrite A in B. rewrite B. f_equal. destruct (g c) as [|a u] eqn:G; [reflexivity|]. cbn [app]. destruct (h c) as [|b w]; [rewrite app_nil_r; reflexivity|]. cbn [particles]. rewrite <- !app_assoc. reflexivity.
Qed.
Lemma grown_ext s s' g h : (forall c, g c = h c) -> grown s s' g -> grown s s' h.
Proof. intros E A c. specialize (A c). rewrite <- E. assumption. Qed.
Lemma push_ok p nbrs : forall s : pmemory P, (In (place_of p) nbrs -> s (place_of p) <> None) ->
  exists s', push nbrs p (Some s) = Some s' /\ grown s s' (fun c => if place_of p =? c then repeat p (times c nbrs) else []).
Proof.
  induction nbrs as [|n nbrs IH]; intros s H.
  - exists s. split; [reflexivity|]. intros c. cbn [times count_occ repeat]. destruct (s c); [|reflexivity]. unfold times. cbn [count_occ repeat]. destruct (place_of p =? c); reflexivity.
  - unfold ParticleModel.push. cbn [fold_left]. fold (push nbrs p). destruct (Z.eqb_spec (place_of p) n) as [E|N].
    + subst n. specialize (H (or_introl eq_refl)). destruct (s (place_of p)) as [d|] eqn:S; [|contradiction]. destruct (IH (pput s (place_of p) (added d p))) as (s' & E & G).
      { intros _. unfold pput. rewrite Z.eqb_refl. discriminate. }
      exists s'. split; [exact E|].
      assert (grown s (pput s (place_of p) (added d p)) (fun c => if place_of p =? c then [p] else [])) as G0.
      { intros c. unfold pput. rewrite (Z.eqb_sym c). destruct (Z.eqb_spec (place_of p) c) as [<-|]; [rewrite S; reflexivity|]. destruct (s c); reflexivity. }
      apply (grown_ext _ _ (fun c => (if place_of p =? c then [p] else []) ++ (if place_of p =? c then repeat p (times c nbrs) else []))); [|apply (grown_trans _ _ _ _ _ G0 G)].
      intros c. destruct (Z.eqb_spec (place_of p) c) as [<-|]; [|reflexivity]. unfold times. cbn [count_occ]. destruct (Z.eq_dec (place_of p) (place_of p)); [reflexivity|contradiction].
    + destruct (IH s) as (s' & E & G); [intros I; apply H; right; assumption|]. exists s'. split; [exact E|]. apply (grown_ext _ _ (fun c => if place_of p =? c then repeat p (times c nbrs) else [])); [|assumption].
      intros c. destruct (Z.eqb_spec (place_of p) c) as [<-|]; [|reflexivity]. unfold times. cbn [count_occ]. destruct (Z.eq_dec n (place_of p)); [congruence|reflexivity].
Qed.
Lemma grown_some s s' g c : grown s s' g -> s c <> None -> s' c <> None.
Proof. intros G H. specialize (G c). destruct (s c); [rewrite G; discriminate|contradiction]. Qed.
Lemma scan_ok c nbrs l : forall s, (forall p, In p (leaving c l) -> In (place_of p) nbrs -> s (place_of p) <> None) ->
  exists s' b, scan c nbrs l s = Some (s', kept c l, b) /\ (b = false -> leaving c l = []) /\ grown s s' (fun y => given_by y nbrs (leaving c l)).
Proof.
  induction l as [|p l IH IH'] using two_ind; intros s H.
  - exists s, false. split; [reflexivity|]. split; [reflexivity|]. intros y. destruct (s y); reflexivity.
  - cbn [ParticleModel.scan]. cbn [kept leaving] in *. destruct (place_of (wrap p) =? c).
    + destruct (IH s H) as (s' & b & E & F & G). rewrite E. exists s', b. auto.
    + destruct (push_ok (wrap p) nbrs s (H _ (or_introl eq_refl))) as (s1 & E1 & G1). rewrite E1. destruct l as [|q r].
      * exists s1, true. split; [reflexivity|]. split; [discriminate|]. apply (grown_ext _ _ _ _) with (2 := G1). intros y. unfold given_by. cbn [flat_map]. rewrite app_nil_r. reflexivity.
      * destruct (IH' q r eq_refl s1) as (s2 & b & E2 & F & G2); [intros p' I J; apply (grown_some _ _ _ _ G1); apply (H p' (or_intror I) J)|]. rewrite E2. exists s2, true. split; [reflexivity|]. split; [discriminate|]. exact (grown_trans _ _ _ _ _ G1 G2).
Qed.
Lemma given_none y nbrs out : (forall p, In p out -> place_of p <> y) -> given_by y nbrs out = [].
Proof. intros H. unfold given_by. induction out as [|p out IH]; [reflexivity|]. cbn [flat_map]. destruct (Z.eqb_spec (place_of p) y) as [E|]; [destruct (H p (or_introl eq_refl) E)|]. apply IH. intros q I. apply H. right. assumption. Qed.
Lemma given_inside y nbrs c l : inside y (given_by y nbrs (leaving c l)).
Proof.
  intros p I. unfold given_by in I. apply in_flat_map in I. destruct I as (q & Iq & I). destruct (Z.eqb_spec (place_of q) y) as [E|]; [|destruct I]. apply repeat_spec in I. subst p. split; [apply (leaving_wrapped c l q Iq)|assumption].
Qed.

(** ** All cells of a process *)
Section Process.
Context (items : list pitem) (s0 : pmemory P) (ps : Z -> list P).
Notation ids := (map fst items).
Context (Ni : NoDup ids) (Hs : forall c, In c ids -> s0 c = Some (PData (Z.of_nat (length (ps c))) (ps c))).
Notation moved c := (map drift (ps c)).
(** no particle of a copy goes to a cell that the process does not have *)
Context (Hn : forall i p, In i items -> In p (leaving (fst i) (moved (fst i))) -> In (place_of p) (snd i) -> In (place_of p) ids).
Definition sized (l : list P) : pdata P := PData (Z.of_nat (length l)) l.
Lemma drift_ok : forall rest done s, items = done ++ rest -> (forall c, In c ids -> s c = Some (sized (if mem c (map fst done) then moved c else ps c))) ->
  exists s', fold_left (drift_cell drift) rest (Some s) = Some s' /\ forall c, In c ids -> s' c = Some (sized (moved c)).
Proof.
  induction rest as [|i rest IH]; intros done s E H.
  - exists s. split; [reflexivity|]. intros c I. rewrite (H c I). rewrite app_nil_r in E. subst done. rewrite (proj2 (mem_In c ids) I). reflexivity.
  - cbn [fold_left]. assert (In (fst i) ids) as I by (rewrite E, map_app; apply in_or_app; right; left; reflexivity).
    assert (mem (fst i) (map fst done) = false) as M. { apply mem_not. intros J. rewrite E, map_app in Ni. cbn [map] in Ni. apply NoDup_remove_2 in Ni. apply Ni. apply in_or_app. left. assumption. }
    unfold drift_cell at 2. rewrite (H _ I), M. apply (IH (done ++ [i])); [rewrite <- app_assoc; exact E|]. intros c Ic. unfold pput. rewrite map_app. unfold mem. rewrite existsb_app. cbn [existsb map]. fold (mem c (map fst done)). rewrite (Z.eqb_sym c (fst i)) || idtac.
    destruct (Z.eqb_spec (fst i) c) as [<-|Nc]; [rewrite ?Z.eqb_refl, ?Bool.orb_true_r; unfold sized; cbn [number particles]; rewrite map_length; reflexivity|]. rewrite ?(proj2 (Z.eqb_neq c (fst i))) by congruence. rewrite ?Bool.orb_false_r. apply (H c Ic).
Qed.
Definition gathered (c : Z) (l : list pitem) : list P := flat_map (fun i => given_by c (snd i) (leaving (fst i) (moved (fst i)))) l.
Lemma gathered_inside c l : inside c (gathered c l).
Proof. intros p I. unfold gathered in I. apply in_flat_map in I. destruct I as (i & _ & I). apply (given_inside c _ _ _ p I). Qed.
Lemma sort_ok : forall rest done s, items = done ++ rest -> (forall c, In c ids -> s c = Some (sized ((if mem c (map fst done) then kept c (moved c) else moved c) ++ gathered c done))) ->
  exists s', fold_left (sort_cell wrap place_of) rest (Some s) = Some s' /\ forall c, In c ids -> s' c = Some (sized (kept c (moved c) ++ gathered c items)).
Proof.
  induction rest as [|i rest IH]; intros done s E H.
  - exists s. split; [reflexivity|]. intros c I. rewrite (H c I). rewrite app_nil_r in E. subst done. rewrite (proj2 (mem_In c ids) I). reflexivity.
  - cbn [fold_left]. assert (In i items) as Ii by (rewrite E; apply in_or_app; right; left; reflexivity). assert (In (fst i) ids) as I by (apply in_map; assumption).
    assert (mem (fst i) (map fst done) = false) as M. { apply mem_not. intros J. rewrite E, map_app in Ni. cbn [map] in Ni. apply NoDup_remove_2 in Ni. apply Ni. apply in_or_app. left. assumption. }
    unfold sort_cell at 2. rewrite (H _ I), M. cbn [sized particles number]. set (c0 := fst i) in *. destruct (kept_app c0 (gathered c0 done) (gathered_inside c0 done) (moved c0)) as [K1 K2].
    destruct (scan_ok c0 (snd i) (moved c0 ++ gathered c0 done) s) as (s1 & b & E1 & F & G). { rewrite K2. intros p Ip In'. pose proof (Hn i p Ii Ip In') as J. rewrite (H _ J). discriminate. }
    rewrite E1. rewrite K1, K2 in *. apply (IH (done ++ [i])); [rewrite <- app_assoc; exact E|]. intros c Ic. unfold pput.
    assert (gathered c (done ++ [i]) = gathered c done ++ given_by c (snd i) (leaving c0 (moved c0))) as Eg by (unfold gathered; rewrite flat_map_app; cbn [flat_map]; rewrite app_nil_r; reflexivity). rewrite Eg.
    assert (mem c (map fst (done ++ [i])) = mem c (map fst done) || (c =? c0)) as -> by (rewrite map_app; unfold mem; rewrite existsb_app; cbn [existsb map]; rewrite Bool.orb_false_r; reflexivity).
    destruct (Z.eqb_spec c c0) as [->|Nc].
    + rewrite Bool.orb_true_r, (given_none c0 (snd i) (leaving c0 (moved c0))); [|intros p Ip; apply (leaving_wrapped c0 _ p Ip)]. rewrite app_nil_r. f_equal. unfold sized. destruct b; [reflexivity|]. f_equal. pose proof (lengths c0 (moved c0)) as Q. rewrite (F eq_refl) in Q. cbn [length] in Q. rewrite !app_length. lia.
    + rewrite Bool.orb_false_r. specialize (G c). rewrite (H c Ic) in G. rewrite G. f_equal. destruct (given_by c (snd i) (leaving c0 (moved c0))) as [|a u]; [rewrite app_nil_r; reflexivity|]. unfold sized. cbn [particles]. rewrite <- app_assoc. reflexivity.
Qed.
(** what every cell has after propagate_particles *)
Theorem propagate_ok : exists s', propagate items s0 = Some s' /\ forall c, In c ids -> s' c = Some (sized (kept c (moved c) ++ gathered c items)).
Proof.
  destruct (drift_ok items [] s0 eq_refl Hs) as (s1 & E1 & H1). destruct (sort_ok items [] s1 eq_refl) as (s2 & E2 & H2).
  - intros c I. rewrite (H1 c I). unfold gathered. cbn [flat_map]. rewrite app_nil_r. reflexivity.
  - exists s2. split; [|assumption]. transitivity (fold_left (sort_cell wrap place_of) items (Some s1)); [|exact E2]. unfold ParticleModel.propagate. f_equal. exact E1.
Qed.
(** ** When no particle is lost or made *)
Lemma flat_app_length {A B} (f h : A -> list B) l : length (flat_map (fun a => f a ++ h a) l) = (length (flat_map f l) + length (flat_map h l))%nat.
Proof. induction l as [|a l IH]; [reflexivity|]. cbn [flat_map]. rewrite !app_length, IH. lia. Qed.
Lemma once_length p nbrs l : NoDup l -> In (place_of p) l -> times (place_of p) nbrs = 1%nat -> length (flat_map (fun c => if place_of p =? c then repeat p (times c nbrs) else []) l) = 1%nat.
Proof.
  intros N I T. induction l as [|a l IH]; [destruct I|]. apply NoDup_cons_iff in N. destruct N as [Na N]. cbn [flat_map]. rewrite app_length. destruct (Z.eqb_spec (place_of p) a) as [<-|Ne].
  - rewrite T. cbn [repeat length]. replace (flat_map _ l) with (@nil P); [reflexivity|]. clear -Na. symmetry. induction l as [|b l IH]; [reflexivity|]. cbn [flat_map]. destruct (Z.eqb_spec (place_of p) b) as [<-|]; [destruct Na; left; reflexivity|]. apply IH. intros I. apply Na. right. assumption.
  - cbn [length]. apply IH; [assumption|]. destruct I as [I|I]; [congruence|assumption].
Qed.
Lemma out_length nbrs out l : NoDup l -> (forall p, In p out -> In (place_of p) l /\ times (place_of p) nbrs = 1%nat) -> length (flat_map (fun c => given_by c nbrs out) l) = length out.
Proof.
  intros N. induction out as [|p out IH]; intros H.
  - unfold given_by. cbn [flat_map]. clear. induction l as [|a l IHl]; [reflexivity|exact IHl].
  - change (fun c => given_by c nbrs (p :: out)) with (fun c => (if place_of p =? c then repeat p (times c nbrs) else []) ++ given_by c nbrs out). rewrite flat_app_length. destruct (H p (or_introl eq_refl)) as [H1 H2]. rewrite (once_length p nbrs l N H1 H2), IH; [reflexivity|]. intros q I. apply H. right. assumption.
Qed.
Theorem conserved : (forall i p, In i items -> In p (leaving (fst i) (moved (fst i))) -> times (place_of p) (snd i) = 1%nat) ->
  length (flat_map (fun c => kept c (moved c) ++ gathered c items) ids) = length (flat_map ps ids).
Proof.
  intros Ho. rewrite flat_app_length.
  assert (forall l, (forall i, In i l -> In i items) -> length (flat_map (fun c => gathered c l) ids) = length (flat_map (fun i => leaving (fst i) (moved (fst i))) l)) as G.
  { induction l as [|i l IH]; intros H.
    - unfold gathered. cbn [flat_map]. clear. induction ids as [|a l IH]; [reflexivity|exact IH].
    - change (fun c => gathered c (i :: l)) with (fun c => given_by c (snd i) (leaving (fst i) (moved (fst i))) ++ gathered c l). rewrite flat_app_length. cbn [flat_map]. rewrite app_length, IH by (intros j J; apply H; right; assumption). f_equal.
      apply out_length; [assumption|]. intros p I. pose proof (Ho i p (H i (or_introl eq_refl)) I) as T. split; [|assumption]. apply (Hn i p (H i (or_introl eq_refl)) I). apply (count_occ_In Z.eq_dec). unfold times in T. lia. }
  rewrite (G items (fun i I => I)). clear. induction items as [|i l IH]; [reflexivity|]. cbn [map flat_map]. rewrite !app_length. pose proof (lengths (fst i) (moved (fst i))) as Q. rewrite map_length in Q. lia.
Qed.
End Process.
(** ** When every particle ends up in the cell that it is inside of *)
Definition calm (c : Z) (l : list P) : Prop := forall u p q w, l = u ++ p :: q :: w -> place_of (wrap p) <> c -> place_of q = c.
Lemma calm_kept c l : calm c l -> forall p, In p (kept c l) -> place_of p = c.
Proof.
  induction l as [|a l IH IH'] using two_ind; intros H p; [intros []|]. cbn [kept]. destruct (Z.eqb_spec (place_of (wrap a)) c) as [E|E].
  - intros [<-|I]; [assumption|]. apply IH; [|assumption]. intros u p1 q w El. apply (H (a :: u) p1 q w). rewrite El. reflexivity.
  - destruct l as [|b r]; [intros []|]. intros [<-|I]; [apply (H [] a b r eq_refl E)|]. apply (IH' b r eq_refl); [|assumption]. intros u p1 q w El. apply (H (a :: b :: u) p1 q w). rewrite El. reflexivity.
Qed.
End Props.
