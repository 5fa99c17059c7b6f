(** Neighbors at an offset, numbers of transferred cells, and which neighborhoods have iterators. *)
From Verif Require Import U64 MapModel MapSpec MapProofs MapFamily MapProps HoodModel MeshModel
  MeshSpec MeshBase HoodProps MeshWalk MeshFind MeshKids MeshItem MeshCheck MeshTo MeshNear
  Sets RefineModel RefineGeo RefineInv RefineSpread RefineMerge RefineFold RefineExec RefineStop
  BalanceModel RefineReqs Create Balance History HistProps CommitProps BalProps CommModel CommInv CommProps.
Open Scope Z_scope.

(** ** Model *)
Section Counts.
Context {D : Type} (g : grid).
(** dccrg.hpp:5483-5533 *)
Definition get_number_of_update_send_cells (hs : hoods) (id rank : Z) (p : proc D) : outcome Z :=
  do L <- lists_of g hs id rank p;
  match L with
  | None => Done (W - 1)
  | Some L => do l <- send_pairs rank (p_store p) L; Done (transfer_count g l)
  end.
(** dccrg.hpp:5547-5590 *)
Definition get_number_of_update_receive_cells (hs : hoods) (id rank : Z) (p : proc D) : outcome Z :=
  do L <- lists_of g hs id rank p;
  match L with
  | None => Done (W - 1)
  | Some L => do l <- recv_pairs rank (p_store p) L; Done (transfer_count g l)
  end.
End Counts.

(** The maps from neighborhood id to iterators (dccrg.hpp:7574, 7617-7620) as the ids they
    contain; e_cells stands for cells_user and neighbors_user, which own the arrays that all
    other maps point into. *)
Record entries := Entries { e_hoods : hoods; e_cells : list Z; e_inner : list Z; e_outer : list Z; e_local : list Z; e_remote : list Z; e_all : list Z }.
Definition drop (id : Z) (l : list Z) : list Z := filter (fun j => negb (j =? id)) l.
Definition ins (id : Z) (l : list Z) : list Z := if mem id l then l else id :: l.
(** dccrg.hpp:11738-11770 *)
Definition refresh_user (id : Z) (e : entries) : entries :=
  Entries (e_hoods e) (ins id (drop id (e_cells e))) (ins id (drop id (e_inner e))) (ins id (drop id (e_outer e)))
    (ins id (drop id (e_local e))) (ins id (drop id (e_remote e))) (ins id (e_all e)).
Inductive entry_op := AddEntry (id : Z) (items : hood) | RemoveEntry (id : Z) | RefreshEntries.
Definition entry_step (n : Z) (e : entries) (o : entry_op) : entries :=
  match o with
  | AddEntry id items =>                                              (* 6546-6718 *)
    let (ok, hs) := add_neighborhood n (e_hoods e) id items in
    if ok then refresh_user id (Entries hs (e_cells e) (e_inner e) (e_outer e) (e_local e) (e_remote e) (e_all e)) else e
  | RemoveEntry id =>                                                 (* 6736-6765 *)
    if id =? default_neighborhood_id then e else
    Entries (remove_neighborhood (e_hoods e) id) (drop id (e_cells e)) (drop id (e_inner e)) (drop id (e_outer e))
      (drop id (e_local e)) (drop id (e_remote e)) (e_all e)
  | RefreshEntries => fold_left (fun e id => refresh_user id e) (map fst (e_hoods e)) e   (* 4198-4200, 10743-10745 *)
  end.
Definition entry_run (n : Z) (ops : list entry_op) : entries := fold_left (entry_step n) ops (Entries [] [] [] [] [] [] []).
(** the accessors of dccrg.hpp:7648-7772: iterators into an array that is still there, iterators
    into a destroyed array, or an exception *)
Inductive access := Usable | Dangling | Refused.
Definition access_with (ids : entries -> list Z) (e : entries) (id : Z) : access :=
  if id =? default_neighborhood_id then Usable else
  if mem id (ids e) then if mem id (e_cells e) then Usable else Dangling else Refused.
Definition inner_cells := access_with e_inner.
Definition outer_cells := access_with e_outer.
Definition local_cells := access_with e_local.
Definition remote_cells := access_with e_remote.
Definition all_cells := access_with e_all.

(** ** C53 *)
Lemma in_drop id l j : In j (drop id l) <-> In j l /\ j <> id.
Proof. unfold drop. rewrite filter_In, negb_true_iff, Z.eqb_neq. reflexivity. Qed.
Lemma in_ins id l j : In j (ins id l) <-> j = id \/ In j l.
Proof. unfold ins. destruct (mem id l) eqn:M; cbn [In]; [apply mem_In in M|]; firstorder (subst; auto). Qed.
Definition ids_exact (e : entries) (l : list Z) : Prop := forall id, In id l <-> hood_lookup (e_hoods e) id <> None.
Definition entries_inv (e : entries) : Prop :=
  hood_lookup (e_hoods e) default_neighborhood_id = None /\
  ids_exact e (e_cells e) /\ ids_exact e (e_inner e) /\ ids_exact e (e_outer e) /\ ids_exact e (e_local e) /\ ids_exact e (e_remote e) /\
  (forall id, hood_lookup (e_hoods e) id <> None -> In id (e_all e)).
Lemma in_hoods hs id : In id (map fst hs) <-> hood_lookup hs id <> None.
Proof. rewrite <- lookup_in_use, existsb_exists, in_map_iff. split; intros (p & A & B); exists p; [|rewrite Z.eqb_eq in B]; [split; [assumption|apply Z.eqb_eq; assumption]|auto]. Qed.
Lemma refresh_inv e id : entries_inv e -> hood_lookup (e_hoods e) id <> None -> entries_inv (refresh_user id e).
Proof.
  intros (Z0 & A & B & C & F & G & K) I.
  assert (forall l, ids_exact e l -> ids_exact (refresh_user id e) (ins id (drop id l))) as Q.
  { intros l E j. cbn [refresh_user e_hoods]. rewrite in_ins, in_drop, <- (E j). destruct (Z.eq_dec j id) as [Ej|]; [|tauto]. subst j. rewrite <- (E id) in I. tauto. }
  unfold entries_inv. cbn [refresh_user e_cells e_inner e_outer e_local e_remote e_all e_hoods].
  split; [assumption|]. do 5 (split; [apply Q; assumption|]). intros j Hj. rewrite in_ins. right. apply K. assumption.
Qed.
Lemma refreshes_inv l : forall e, entries_inv e -> (forall id, In id l -> hood_lookup (e_hoods e) id <> None) -> entries_inv (fold_left (fun e id => refresh_user id e) l e).
Proof.
  induction l as [|i l IH]; cbn [fold_left]; intros e H I; [assumption|]. apply IH; [apply refresh_inv; [assumption|apply I; left; reflexivity]|]. intros j Hj. cbn [refresh_user e_hoods]. apply I. right. assumption.
Qed.
Lemma entry_inv n ops : 0 <= n -> entries_inv (entry_run n ops).
Proof.
  intros Hn. unfold entry_run.
  assert (forall e, entries_inv e -> entries_inv (fold_left (entry_step n) ops e)) as Q.
  2: { apply Q. unfold entries_inv, ids_exact. cbn. split; [reflexivity|]. assert (forall id : Z, False <-> @None hood <> None) by (intros; split; [contradiction|congruence]). do 5 (split; [assumption|]). intros id N. congruence. }
  induction ops as [|o ops IH]; cbn [fold_left]; intros e H; [assumption|]. apply IH. clear IH. destruct o as [id items|id|]; cbn [entry_step].
  - pose proof (c12_add_neighborhood n (e_hoods e) id items Hn) as P. destruct (add_neighborhood n (e_hoods e) id items) as [ok hs]. destruct ok; [|assumption]. destruct P as (P1 & P2 & P3).
    destruct (P3 eq_refl) as [L O]. destruct (proj1 P1 eq_refl) as (N0 & N1 & _). destruct H as (Z0 & A & B & C & F & G & K).
    assert (forall l, ids_exact e l -> forall j, In j (ins id (drop id l)) <-> hood_lookup hs j <> None) as Q.
    { intros l E j. rewrite in_ins, in_drop, (E j). destruct (Z.eq_dec j id) as [Ej|Nj]; [subst j; rewrite L; split; [congruence|auto]|]. rewrite (O j Nj). tauto. }
    unfold entries_inv. cbn [refresh_user e_cells e_inner e_outer e_local e_remote e_all e_hoods].
    split; [rewrite O by congruence; assumption|]. do 5 (split; [unfold ids_exact; cbn [refresh_user e_hoods]; apply Q; assumption|]).
    intros j Hj. rewrite in_ins. destruct (Z.eq_dec j id) as [Ej|Nj]; [auto|]. right. apply K. rewrite <- (O j Nj). assumption.
  - destruct (Z.eqb_spec id default_neighborhood_id) as [Ed|Nd]; [assumption|]. destruct H as (Z0 & A & B & C & F & G & K).
    assert (forall j, hood_lookup (remove_neighborhood (e_hoods e) id) j = if j =? id then None else hood_lookup (e_hoods e) j) as R.
    { intros j. rewrite c12_remove_neighborhood. replace (id =? default_neighborhood_id) with false by lia. rewrite andb_true_r. reflexivity. }
    assert (forall l, ids_exact e l -> forall j, In j (drop id l) <-> hood_lookup (remove_neighborhood (e_hoods e) id) j <> None) as Q.
    { intros l E j. rewrite in_drop, R, (E j). destruct (Z.eqb_spec j id); [split; [tauto|congruence]|tauto]. }
    unfold entries_inv. cbn [e_cells e_inner e_outer e_local e_remote e_all e_hoods].
    split; [rewrite R; destruct (_ =? _); [reflexivity|assumption]|]. do 5 (split; [unfold ids_exact; cbn [e_hoods]; apply Q; assumption|]).
    intros j Hj. apply K. rewrite R in Hj. destruct (j =? id); [congruence|assumption].
  - apply refreshes_inv; [assumption|]. intros id. apply in_hoods.
Qed.

(** after any sequence of calls the iterators of existing neighborhoods can be used, and all but
    all_cells refuse other ids; the hoods are those of C12 *)
Theorem c53_iterator_access_partial n ops id : 0 <= n ->
  let e := entry_run n ops in
  (id = default_neighborhood_id \/ hood_lookup (e_hoods e) id <> None ->
    inner_cells e id = Usable /\ outer_cells e id = Usable /\ local_cells e id = Usable /\ remote_cells e id = Usable /\ all_cells e id = Usable) /\
  (id <> default_neighborhood_id -> hood_lookup (e_hoods e) id = None ->
    inner_cells e id = Refused /\ outer_cells e id = Refused /\ local_cells e id = Refused /\ remote_cells e id = Refused /\ all_cells e id <> Usable).
Proof.
  intros Hn e. destruct (entry_inv n ops Hn) as (Z0 & A & B & C & F & G & K). fold e in Z0, A, B, C, F, G, K.
  unfold inner_cells, outer_cells, local_cells, remote_cells, all_cells, access_with. split.
  - intros [E|E]; [subst id; rewrite Z.eqb_refl; auto|]. destruct (id =? default_neighborhood_id); [auto|].
    rewrite (proj2 (mem_In _ _) (proj2 (A id) E)), (proj2 (mem_In _ _) (proj2 (B id) E)), (proj2 (mem_In _ _) (proj2 (C id) E)), (proj2 (mem_In _ _) (proj2 (F id) E)), (proj2 (mem_In _ _) (proj2 (G id) E)), (proj2 (mem_In _ _) (K id E)). auto.
  - intros N E. replace (id =? default_neighborhood_id) with false by lia.
    assert (forall l, ids_exact e l -> mem id l = false) as Q by (intros l P; apply mem_not; intros I0; apply (P id) in I0; congruence).
    rewrite (Q (e_cells e)), (Q (e_inner e)), (Q (e_outer e)), (Q (e_local e)), (Q (e_remote e)) by assumption. do 4 (split; [reflexivity|]). destruct (mem id (e_all e)); discriminate.
Qed.
Print Assumptions c53_iterator_access_partial.
(** all_cells of a removed neighborhood gives iterators into a destroyed array *)
Theorem c53_all_cells_after_removal_refuted : exists n ops id, 0 <= n /\ id <> default_neighborhood_id /\ hood_lookup (e_hoods (entry_run n ops)) id = None /\ all_cells (entry_run n ops) id = Dangling.
Proof. exists 0, [AddEntry 7 [Idx 1 0 0]; RefreshEntries; RemoveEntry 7], 7. split; [lia|]. split; [discriminate|]. vm_compute. auto. Qed.
Example c53_example : let e := entry_run 1 [AddEntry 7 [Idx 1 0 0]; AddEntry 8 [Idx 1 1 1; Idx (-1) 0 0]; RemoveEntry 7; RefreshEntries] in
  map (local_cells e) [7; 8; 9; default_neighborhood_id] = [Refused; Usable; Refused; Usable].
Proof. vm_compute. reflexivity. Qed.

(** ** C54 *)
Section Props.
Context {D : Type} (d0 : D) (g : grid) (Hg : grid_ok g).
Notation m := (g_map g).
Notation t := (g_topo g).
Notation xreachable := (xreachable d0 g).
Notation rank r := (In r (ranks g)).
Notation state := (xstate (D := D)).
Notation hood_at := (hood_at g).
Notation owns := (owns (D := D)).
Notation needs := (needs g).

Definition sum (l : list Z) : Z := fold_right Z.add 0 l.
Lemma fold_add64 l : forall a, fold_left add64 l a mod W = (a + sum l) mod W.
Proof.
  pose proof W_pos. induction l as [|x l IH]; intros a; cbn [fold_left sum fold_right]; [f_equal; lia|]. rewrite IH. fold (sum l). unfold add64, u64. rewrite Z.add_mod_idemp_l by lia. f_equal. lia.
Qed.
Lemma fold_add64_range l : forall a, 0 <= a < W -> 0 <= fold_left add64 l a < W.
Proof. pose proof W_pos. induction l as [|x l IH]; intros a Ha; cbn [fold_left]; [assumption|]. apply IH. unfold add64, u64. apply Z.mod_pos_bound. lia. Qed.
Lemma sort_length l : length (sort l) = length l.
Proof.
  assert (forall x l, length (insert x l) = S (length l)) as I by (intros x k; induction k as [|y k IH]; cbn [insert length]; [reflexivity|]; destruct (x <=? y); cbn [length]; [reflexivity|rewrite IH; reflexivity]).
  induction l as [|x l IH]; cbn [sort fold_right length]; [reflexivity|]. rewrite I. f_equal. exact IH.
Qed.
Lemma sum_listed (rs : list Z) (l : list (Z * Z)) : NoDup rs -> (forall e, In e l -> In (fst e) rs) -> sum (map (fun q => Z.of_nat (length (listed q l))) rs) = Z.of_nat (length l).
Proof.
  intros N I.
  assert (forall e : Z * Z, sum (map (fun q => if fst e =? q then 1 else 0) rs) = if mem (fst e) rs then 1 else 0) as One.
  { intros e. clear I. induction rs as [|q rs IH]; [reflexivity|]. inversion N as [|? ? Nq N']. subst. cbn [map sum fold_right]. fold (sum (map (fun q => if fst e =? q then 1 else 0) rs)). rewrite (IH N').
    destruct (Z.eqb_spec (fst e) q) as [Eq|Nq'].
    - subst q. replace (mem (fst e) rs) with false by (symmetry; apply mem_not; assumption). unfold mem. cbn [existsb]. rewrite Z.eqb_refl. reflexivity.
    - unfold mem. cbn [existsb]. replace (fst e =? q) with false by lia. cbn [orb]. reflexivity. }
  induction l as [|e l IH].
  - assert (forall k : list Z, sum (map (fun q => Z.of_nat (length (listed q []))) k) = 0) as Z0 by (induction k as [|? k IHk]; [reflexivity|]; cbn [map sum fold_right]; fold (sum (map (fun q => Z.of_nat (length (listed q []))) k)); rewrite IHk; reflexivity). apply Z0.
  - assert (sum (map (fun q => Z.of_nat (length (listed q (e :: l)))) rs) = sum (map (fun q => Z.of_nat (length (listed q l))) rs) + sum (map (fun q => if fst e =? q then 1 else 0) rs)) as ->.
    { clear. induction rs as [|q rs IHr]; [reflexivity|]. cbn [map sum fold_right]. fold (sum (map (fun q => Z.of_nat (length (listed q (e :: l)))) rs)) (sum (map (fun q => Z.of_nat (length (listed q l))) rs)) (sum (map (fun q => if fst e =? q then 1 else 0) rs)). rewrite IHr.
      unfold listed. rewrite !sort_length. cbn [filter]. destruct (fst e =? q); cbn [map length]; lia. }
    rewrite IH by (intros; apply I; right; assumption). rewrite One. rewrite (proj2 (mem_In _ _) (I e (or_introl eq_refl))). cbn [length]. lia.
Qed.
Lemma transfer_count_eq l : (forall e, In e l -> In (fst e) (ranks g)) -> transfer_count g l = Z.of_nat (length l) mod W.
Proof.
  intros I. unfold transfer_count. rewrite <- (sum_listed (ranks g) l (ranks_NoDup g) I). rewrite <- (Z.add_0_l (sum _)), <- fold_add64. symmetry. apply Z.mod_small. apply fold_add64_range. pose proof W_pos. lia.
Qed.

(** the counts are the numbers of pairs of a peer and a cell it has to be sent, or of a peer and
    a cell needed from it; unknown neighborhoods give the largest number *)
Theorem c54_counts x id r : xreachable x -> rank r ->
  (forall U, hood_at (x_hoods x) id = Some U -> exists sends receives,
    NoDup sends /\ (forall q c, In (q, c) sends <-> rank q /\ needs U x q r c) /\
    NoDup receives /\ (forall q c, In (q, c) receives <-> needs U x r q c) /\
    get_number_of_update_send_cells g (x_hoods x) id r (x_st x r) = Done (Z.of_nat (length sends) mod 2 ^ 64) /\
    get_number_of_update_receive_cells g (x_hoods x) id r (x_st x r) = Done (Z.of_nat (length receives) mod 2 ^ 64)) /\
  (hood_at (x_hoods x) id = None ->
    get_number_of_update_send_cells g (x_hoods x) id r (x_st x r) = Done (2 ^ 64 - 1) /\
    get_number_of_update_receive_cells g (x_hoods x) id r (x_st x r) = Done (2 ^ 64 - 1)).
Proof.
  intros R Ir. destruct (xreachable_inv d0 g Hg x R) as (own & Hx). pose proof Hx as ((Hgood & _) & _ & Ho). pose proof Hgood as (Hw & Hr). unfold get_number_of_update_send_cells, get_number_of_update_receive_cells. split.
  - intros U EU. destruct (lists_of_ok g Hg own _ _ id r U Hgood Ho Ir EU) as (L & EL & SL).
    destruct (recv_pairs_ok g own r _ Hw (proj1 (Hr r Ir)) U L SL) as (rc & E3 & N3 & P3). destruct (send_pairs_ok g own r _ Hw (proj1 (Hr r Ir)) U L SL) as (sd & E4 & N4 & P4).
    assert (forall q c, own c = Some q -> rank q) as Own by (intros q c E; apply Hw in E; exact E).
    exists sd, rc. split; [assumption|]. split; [|split; [assumption|split]].
    + intros q c. rewrite P4. split.
      * intros Q. assert (rank q) as Iq by (destruct Q as (_ & _ & a & O & _); apply (Own q a O)). split; [assumption|]. apply (needs_iff g own); assumption.
      * intros [Iq Q]. apply (needs_iff g own U x q r c Hx Iq). assumption.
    + intros q c. rewrite P3. symmetry. apply (needs_iff g own); assumption.
    + rewrite EL. cbn [bind]. rewrite E3, E4. cbn [bind]. replace (2 ^ 64) with W by apply W_val. rewrite !transfer_count_eq; [auto| |].
      * intros [q c] Q. apply P3 in Q. destruct Q as (O & _). apply (Own q c O).
      * intros [q c] Q. apply P4 in Q. destruct Q as (_ & _ & a & O & _). apply (Own q a O).
  - intros E. rewrite (lists_of_none g (x_hoods x) id r (x_st x r) E). cbn [bind]. rewrite W_val. auto.
Qed.

(** ** C52 *)
Theorem c52_at_offset_partial x r c o : xreachable x -> rank r ->
  (owns x r r c -> o <> vzero -> no_overflow m t (len_of m c) o ->
    exists l, get_neighbors_of_at_offset g r (x_st x r) c o = Done l /\
    (forall y p, In (y, p) l <-> exists_on (x_st x) r y = true /\ (exists h, In h (g_hood g) /\ nbr m t c h y p) /\ lands m t (vadd (idx_of m c) (scaled o (len_of m c))) (idx_of m y)) /\
    (forall y, exists_on (x_st x) r y = true -> len_of m y = len_of m c -> In o (g_hood g) -> nbr m t c o y (scaled o (len_of m c)) -> In (y, scaled o (len_of m c)) l)) /\
  (~ owns x r r c \/ o = vzero -> get_neighbors_of_at_offset g r (x_st x r) c o = Done []).
Proof.
  intros R Ir. destruct (xreachable_inv d0 g Hg x R) as (own & Hx). pose proof Hx as (Hi & _ & Ho). pose proof Hi as (Hgood & _). pose proof Hgood as (Hw & Hr). destruct (Hr r Ir) as (Hs & Hk & _).
  assert (is_local r (p_store (x_st x r)) c = true <-> owns x r r c) as Loc.
  { unfold CommProps.owns, owner, is_local. destruct (find c (s_proc (p_store (x_st x r)))) as [q|]; [rewrite Z.eqb_eq; split; congruence|split; discriminate]. }
  assert (((ix o =? 0) && (iy o =? 0) && (iz o =? 0) = true) <-> o = vzero) as Zo.
  { rewrite !andb_true_iff, !Z.eqb_eq. split; [intros [[A B] C]; destruct o; cbn in *; subst; reflexivity|intros ->; auto]. }
  unfold get_neighbors_of_at_offset. split.
  - intros Oc No Fo. rewrite (proj2 Loc Oc). replace ((ix o =? 0) && (iy o =? 0) && (iz o =? 0)) with false by (symmetry; apply not_true_iff_false; rewrite Zo; assumption). cbn [negb orb].
    assert (exo own c = true) as Ec by (unfold exo; rewrite <- (xview g own x r c Hx Ir), Oc; reflexivity).
    destruct (default_lists_ok g Hg own r _ _ Hw Hs Hk) as ((A & _) & _). destruct (A c Ec) as (l & F & P). cbn [default_lists l_of] in F. unfold at_. rewrite F. cbn [bind].
    eexists. split; [reflexivity|].
    assert (forall y, exists_on (x_st x) r y = exo own y) as Ex by (intros y; unfold exists_on; rewrite (xview g own x r y Hx Ir); reflexivity).
    assert (wf m) as Wf by apply Hw. assert (forall y, exo own y = true -> valid m y) as Va by (intros y; apply Hw).
    destruct (ifn_item_spec m Wf t c o (Va c Ec) Fo) as [I1 I2]. cbn zeta in I1, I2.
    unfold indices_from_neighborhood. cbn [map flat_map]. rewrite app_nil_r. change (get_indices m c) with (idx_of m c). change (get_cell_length_in_indices m c) with (len_of m c).
    set (it := ifn_item m t (idx_of m c) (len_of m c) o) in *.
    match goal with |- (forall y p, In (y, p) ?L <-> _) /\ _ => assert (forall y p, In (y, p) L <-> exists_on (x_st x) r y = true /\ (exists h, In h (g_hood g) /\ nbr m t c h y p) /\ lands m t (vadd (idx_of m c) (scaled o (len_of m c))) (idx_of m y)) as K end.
    { intros y p. rewrite filter_In, P, Ex. cbn [fst]. rewrite !andb_true_iff, !Z.eqb_eq.
      assert (exo own y = true -> ((ix (get_indices m y) = ix it /\ iy (get_indices m y) = iy it) /\ iz (get_indices m y) = iz it) <-> lands m t (vadd (idx_of m c) (scaled o (len_of m c))) (idx_of m y)) as Q; [|tauto].
      intros Ey. pose proof (cell_in_grid m Wf y (Va y Ey)) as Gy. split.
      - intros [[X Y] Z0]. assert (idx_of m y = it) as E by (unfold idx_of; destruct (get_indices m y), it; cbn in *; subst; reflexivity).
        rewrite E. rewrite E in Gy.
        assert ((exists i, lands m t (vadd (idx_of m c) (scaled o (len_of m c))) i) \/ ~ (exists i, lands m t (vadd (idx_of m c) (scaled o (len_of m c))) i)) as [(i & Li)|N].
        { destruct (forallb (fun k => per t k || ((0 <=? get (vadd (idx_of m c) (scaled o (len_of m c))) k) && (get (vadd (idx_of m c) (scaled o (len_of m c))) k <? glen m k))) dims3) eqn:B.
          - left. apply lands_exists; [assumption|]. rewrite dims3_all in B. intros k. specialize (B k). destruct (per t k); [auto|right; cbn [orb] in B; lia].
          - right. intros (i & Gi & Li). apply not_true_iff_false in B. apply B. apply dims3_all. intros k. specialize (Li k). pose proof (proj1 (in_grid_k m i) Gi k). destruct (per t k); [reflexivity|]. rewrite Li. cbn [orb]. lia. }
        + rewrite (I1 i Li). assumption.
        + rewrite (I2 N) in Gy. exfalso. apply (proj1 (in_grid_k m _)) with (k := DX) in Gy. pose proof (glen_lt_W m Wf DX). revert Gy. unfold error_idx. cbn [get ix]. unfold error_index. lia.
      - intros Li. change (get_indices m y) with (idx_of m y). rewrite <- (I1 _ Li). auto. }
    split; [exact K|]. intros y Ey El Io Nb. apply K. split; [assumption|]. split; [exists o; auto|]. apply Nb.
  - intros Q. destruct (is_local r (p_store (x_st x r)) c) eqn:E; [|reflexivity]. destruct Q as [Q|Q]; [tauto|]. rewrite (proj2 Zo Q), orb_true_r. reflexivity.
Qed.
End Props.
Print Assumptions c54_counts.
Print Assumptions c52_at_offset_partial.
