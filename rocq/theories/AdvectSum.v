(** Sums over the faces and cells of a grid. *)
From Verif Require Import U64 MapModel MapSpec MapProofs MapFamily MapProps HoodModel MeshModel
  MeshSpec MeshBase HoodProps MeshWalk MeshFind MeshKids MeshItem MeshCheck MeshTo MeshNear
  Sets RefineModel RefineGeo RefineInv BalanceModel Create History CommModel CommInv ProgramModel AdvectModel AdvectGeo.
From Coq Require Import QArith Qcanon Permutation.
Open Scope Z_scope.

Lemma qsum_cons x l : qsum (x :: l) = (x + qsum l)%Qc. Proof. reflexivity. Qed.
Lemma qsum_nil : qsum [] = 0%Qc. Proof. reflexivity. Qed.
Lemma qsum_app a b : qsum (a ++ b) = (qsum a + qsum b)%Qc.
Proof. induction a as [|x a IH]; cbn [app]; [rewrite qsum_nil; ring|]. rewrite !qsum_cons, IH. ring. Qed.
Lemma qsum_perm a b : Permutation a b -> qsum a = qsum b.
Proof. induction 1 as [|x a b H IH|x y a|a b c H IH H' IH']; rewrite ?qsum_cons; [reflexivity|rewrite IH; reflexivity|ring|congruence]. Qed.
Lemma qsum_opp {A} (f : A -> Qc) l : qsum (map (fun x => (- f x)%Qc) l) = (- qsum (map f l))%Qc.
Proof. induction l as [|x l IH]; cbn [map]; [reflexivity|]. rewrite !qsum_cons, IH. ring. Qed.
Lemma qsum_scale {A} q (f : A -> Qc) l : qsum (map (fun x => (q * f x)%Qc) l) = (q * qsum (map f l))%Qc.
Proof. induction l as [|x l IH]; cbn [map]; [rewrite qsum_nil; ring|]. rewrite !qsum_cons, IH. ring. Qed.
Lemma qsum_add {A} (f h : A -> Qc) l : qsum (map (fun x => (f x + h x)%Qc) l) = (qsum (map f l) + qsum (map h l))%Qc.
Proof. induction l as [|x l IH]; cbn [map]; [reflexivity|]. rewrite !qsum_cons, IH. ring. Qed.
Lemma qsum_flat {A B} (f : B -> Qc) (h : A -> list B) l : qsum (map f (flat_map h l)) = qsum (map (fun a => qsum (map f (h a))) l).
Proof. induction l as [|x l IH]; cbn [map flat_map]; [reflexivity|]. rewrite map_app, qsum_app, qsum_cons, IH. reflexivity. Qed.
Lemma qsum_filter {A} (f : A -> Qc) (P : A -> bool) l : (forall a, In a l -> P a = false -> f a = 0%Qc) -> qsum (map f (filter P l)) = qsum (map f l).
Proof.
  induction l as [|x l IH]; intros H; cbn [map filter]; [reflexivity|]. rewrite qsum_cons, <- IH by (intros a I; apply H; right; assumption). destruct (P x) eqn:E; cbn [map]; [apply qsum_cons|]. rewrite (H x (or_introl eq_refl) E). ring.
Qed.
Lemma twice_zero (s : Qc) : s = (- s)%Qc -> s = 0%Qc.
Proof.
  intros E. assert ((Q2Qc (2 # 1) * s)%Qc = 0%Qc) as K. { transitivity (s + s)%Qc; [|rewrite E at 2; ring]. replace (Q2Qc (2 # 1)) with (1 + 1)%Qc by (apply Qc_is_canon; reflexivity). ring. }
  apply Qcmult_integral in K. destruct K as [K|K]; [discriminate K|assumption].
Qed.

(** ** The flux does not depend on the side it is computed from *)
Lemma qmin_comm a b : qmin a b = qmin b a.
Proof.
  unfold qmin, qleb. destruct (Qle_bool a b) eqn:E, (Qle_bool b a) eqn:F; try reflexivity.
  - apply Qle_bool_iff in E, F. apply Qcle_antisym; assumption.
  - exfalso. assert (~ (a <= b)%Q) as N1 by (rewrite <- Qle_bool_iff; congruence). assert (~ (b <= a)%Q) as N2 by (rewrite <- Qle_bool_iff; congruence). apply Qnot_le_lt in N1. apply N2, Qlt_le_weak, N1.
Qed.
Lemma speed_comm a b k : face_speed a b k = face_speed b a k.
Proof. unfold face_speed. rewrite (Qcplus_comm (size a k * vel b k)), (Qcplus_comm (size a k)). reflexivity. Qed.
Lemma flow_flip dt a b k pos : flow dt a b k pos = flow dt b a k (negb pos).
Proof. unfold flow. rewrite (speed_comm b a), (qmin_comm (area b k)). destruct pos; reflexivity. Qed.

(** ** Every entry once *)
Lemma same_entry_iff a b : same_entry a b = true <-> a = b.
Proof.
  destruct a as [a [a1 a2 a3]], b as [b [b1 b2 b3]]. unfold same_entry. cbn [fst snd ix iy iz]. rewrite !andb_true_iff, !Z.eqb_eq. split.
  - intros (((-> & ->) & ->) & ->). reflexivity.
  - intros E. injection E as -> -> -> ->. auto.
Qed.
Notation repeated a l := (existsb (fun x => same_entry (fst a) (fst x)) l).
Lemma once_in l e : In e (once l) -> In e l.
Proof. induction l as [|a l IH]; cbn [once]; [auto|]. destruct (repeated a l); [right; auto|]. intros [->|I]; [left; reflexivity|right; auto]. Qed.
Lemma once_keys l k : In k (map fst (once l)) <-> In k (map fst l).
Proof.
  split; [intros I; apply in_map_iff in I; destruct I as (e & <- & I); apply in_map, once_in, I|].
  induction l as [|a l IH]; cbn [once map]; [auto|]. intros [<-|I].
  - destruct (repeated a l) eqn:E; [|left; reflexivity]. apply existsb_exists in E. destruct E as (b & I & E). apply same_entry_iff in E. apply IH. rewrite E. apply in_map, I.
  - destruct (repeated a l); [|right]; apply IH, I.
Qed.
Lemma once_nodup l : NoDup (map fst (once l)).
Proof.
  induction l as [|a l IH]; cbn [once map]; [constructor|]. destruct (repeated a l) eqn:E; [assumption|]. cbn [map]. constructor; [|assumption]. rewrite once_keys. intros I. apply in_map_iff in I. destruct I as (b & Eb & I).
  assert (repeated a l = true) as K by (apply existsb_exists; exists b; split; [assumption|apply same_entry_iff; auto]). congruence.
Qed.

Section Conserve.
Context (m : mapping) (Hwf : wf m) (t : topo) (ex : Z -> bool) (Htile : tiling m ex) (U : hood) (HU : has_faces U).
Context (dt : Qc) (val : Z -> fluid) (L : list Z) (E : Z -> list (Z * idx)).
Context (NL : NoDup L) (HL : forall c, In c L <-> ex c = true).
Context (NE : forall c, In c L -> NoDup (E c)) (HE : forall c y o, In c L -> In (y, o) (E c) <-> ex y = true /\ exists h, In h U /\ nbr m t c h y o).
Context (Hvol : forall c, In c L -> volume (val c) <> 0%Qc).
Notation entry := (Z * (Z * idx))%type.
Definition of_val (e : Z * idx) : seen fluid := (e, val (fst e)).
Definition term (e : entry) : Qc := (volume (val (fst e)) * gain m dt (fst e) (val (fst e)) (of_val (snd e)))%Qc.
Definition is_face (e : entry) : bool := match contact_of (len_of m (fst e)) (len_of m (fst (snd e))) (snd (snd e)) with Face _ _ => true | _ => false end.
Definition turn (e : entry) : entry := (fst (snd e), (fst e, vneg (snd (snd e)))).
Definition entries : list entry := flat_map (fun c => map (pair c) (E c)) L.
Lemma entries_in c y o : In (c, (y, o)) entries <-> ex c = true /\ ex y = true /\ exists h, In h U /\ nbr m t c h y o.
Proof.
  unfold entries. rewrite in_flat_map. split.
  - intros (c' & I & J). apply in_map_iff in J. destruct J as (e & Q & J). injection Q as -> ->. apply (HE c y o I) in J. apply HL in I. tauto.
  - intros (Ec & J). apply HL in Ec. exists c. split; [assumption|]. apply in_map. apply HE; assumption.
Qed.
Lemma NoDup_flat {A B} (f : A -> list B) l : NoDup l -> (forall a, In a l -> NoDup (f a)) -> (forall a a' b, In a l -> In a' l -> In b (f a) -> In b (f a') -> a = a') -> NoDup (flat_map f l).
Proof.
  induction l as [|a l IH]; intros N F D; cbn [flat_map]; [constructor|]. inversion N as [|? ? N1 N2]; subst. 
  assert (forall p q : list B, NoDup p -> NoDup q -> (forall b, In b p -> ~ In b q) -> NoDup (p ++ q)) as App.
  { clear. intros p q Np Nq H. induction p as [|b p IH]; [assumption|]. inversion Np; subst. cbn [app]. constructor; [rewrite in_app_iff; intros [I|I]; [contradiction|exact (H b (or_introl eq_refl) I)]|]. apply IH; [assumption|]. intros z I. apply H. right. assumption. }
  apply App; [apply F; left; reflexivity|apply IH; [assumption|intros; apply F; right; assumption|intros; eapply D; try right; eassumption]|].
  intros b I J. apply in_flat_map in J. destruct J as (a' & I' & J). assert (a = a') as <- by (eapply D; [left; reflexivity|right; exact I'|exact I|exact J]). contradiction.
Qed.
Lemma entries_nodup : NoDup entries.
Proof.
  apply NoDup_flat; [assumption| |].
  - intros c I. apply FinFun.Injective_map_NoDup; [intros a b Q; injection Q; auto|auto].
  - intros c c' e _ _ I J. apply in_map_iff in I, J. destruct I as (? & <- & _), J as (? & Q & _). injection Q; auto.
Qed.
Lemma faces_in e : In e (filter is_face entries) <-> In e entries /\ is_face e = true. Proof. apply filter_In. Qed.
Lemma turn_turn e : turn (turn e) = e. Proof. destruct e as [c [y o]]. unfold turn. cbn [fst snd]. rewrite vneg_vneg. reflexivity. Qed.
Lemma turn_face e : In e (filter is_face entries) -> In (turn e) (filter is_face entries) /\ term (turn e) = (- term e)%Qc.
Proof.
  intros I. apply filter_In in I. destruct I as [I Fe]. destruct e as [c [y o]]. apply entries_in in I. destruct I as (Ec & Ey & N).
  unfold is_face in Fe. cbn [fst snd] in Fe. destruct (contact_of (len_of m c) (len_of m y) o) as [| |k pos] eqn:K; try discriminate Fe. clear Fe.
  destruct (face_both m Hwf t ex Htile U c y o k pos HU Ec Ey N K) as [N' K']. split.
  - apply filter_In. split; [apply entries_in; auto|]. unfold is_face, turn. cbn [fst snd]. rewrite K'. reflexivity.
  - unfold term, turn, gain, of_val. cbn [fst snd]. change (get_cell_length_in_indices m) with (len_of m). rewrite K, K'. rewrite (flow_flip dt (val y) (val c) k (negb pos)). rewrite negb_involutive.
    pose proof (Hvol c (proj2 (HL c) Ec)) as Vc. pose proof (Hvol y (proj2 (HL y) Ey)) as Vy. destruct pos; cbn [negb]; field; auto.
Qed.
Lemma faces_cancel : qsum (map term entries) = 0%Qc.
Proof.
  rewrite <- (qsum_filter term is_face entries).
  - apply twice_zero. rewrite <- qsum_opp. transitivity (qsum (map term (map turn (filter is_face entries)))).
    + apply qsum_perm, Permutation_map. apply NoDup_Permutation; [apply NoDup_filter, entries_nodup| |].
      * apply FinFun.Injective_map_NoDup; [|apply NoDup_filter, entries_nodup]. intros a b Q. rewrite <- (turn_turn a), Q. apply turn_turn.
      * intros e. rewrite in_map_iff. split; [intros I; exists (turn e); split; [apply turn_turn|apply turn_face, I]|]. intros (e' & <- & I). apply turn_face, I.
    + rewrite map_map. f_equal. apply map_ext_in. intros e I. apply turn_face, I.
  - intros e _ Fe. unfold term, gain, of_val. cbn [fst snd]. unfold is_face in Fe. change (get_cell_length_in_indices m) with (len_of m). destruct (contact_of _ _ _); try discriminate Fe; ring.
Qed.
(** what flows out of cells flows into cells *)
Lemma gains_cancel : qsum (map (fun c => (volume (val c) * qsum (map (gain m dt c (val c)) (map of_val (E c))))%Qc) L) = 0%Qc.
Proof.
  rewrite <- faces_cancel. unfold entries. rewrite qsum_flat. f_equal. apply map_ext. intros c. rewrite !map_map. unfold term. cbn [fst snd]. rewrite qsum_scale. reflexivity.
Qed.
End Conserve.
