(** C77: the Poisson solver of tests/poisson on grids of the library. *)
From Verif Require Import U64 MapModel MapSpec MapProofs MapFamily MapProps HoodModel MeshModel
  MeshSpec MeshBase HoodProps MeshWalk MeshFind MeshKids MeshItem MeshCheck MeshTo MeshNear MeshFace
  Sets RefineModel RefineGeo RefineInv RefineSpread RefineMerge RefineFold RefineExec RefineStop RefineNear
  BalanceModel RefineReqs Create Balance History HistProps CommitProps SaveLoad CommModel CommInv CommProps Stages StageUpdate ProgramModel ProgramProps
  AdvectModel AdvectSum PoissonModel PoissonRef PoissonCache PoissonProps PoissonGeo.
From Coq Require Import QArith Qcanon Permutation.
Open Scope Z_scope.

(** ** Faces *)
Section Faces.
Context (m : mapping) (t : topo).
(** get_face_neighbors_of *)
Definition faces_of (ex : Z -> bool) (c : Z) : list (Z * Z) := match get_face_neighbors_of ex m t c with Done l => l | _ => [] end.
Lemma faces_ext ex ex' c : (forall c, ex c = ex' c) -> get_face_neighbors_of ex m t c = get_face_neighbors_of ex' m t c.
Proof.
  intros He. unfold get_face_neighbors_of. rewrite (has_ext ex ex' He). destruct (negb (has_neighbors ex' m c)); [reflexivity|].
  assert (forall k pos, face_side ex m t c k pos = face_side ex' m t c k pos) as F. { intros k pos. unfold face_side. cbv zeta. destruct (face_dims k) as [a b]. rewrite !(face_ext ex ex' He), !(has_ext ex ex' He). reflexivity. }
  induction dirs as [|[[k pos] d] l IH]; cbn [face_sides]; [reflexivity|]. rewrite F, IH. reflexivity.
Qed.
Context (nl : Z) (ex : Z -> bool) (Hm : mesh m t nl ex).
Notation faces := (faces_of ex).
Lemma Hwf' : wf m. Proof. apply Hm. Qed.
Lemma valid_of c : ex c = true -> valid m c. Proof. apply leaf_valid. apply Hm. Qed.
Lemma faces_spec c : ex c = true -> get_face_neighbors_of ex m t c = Done (faces c) /\ NoDup (faces c) /\
  (forall n d, In (n, d) (faces c) <-> ex n = true /\ exists k pos, d = dir_code k pos /\ shares_face m t c n k pos) /\
  (forall k pos, let side := map fst (on_side (faces c) k pos) in
      (side = [] /\ ~ MeshBase.reachable m t (front (idx_of m c) (len_of m c) k pos)) \/ (exists n, side = [n] /\ lvl_of m n <= lvl_of m c) \/ (length side = 4%nat /\ forall n, In n side -> lvl_of m n = lvl_of m c + 1)).
Proof. intros E. destruct (c16_face_neighbors m t nl ex c Hm E) as (l & El & N & I & S). unfold faces_of. rewrite El. auto. Qed.
Lemma shares_back c n k pos : ex c = true -> ex n = true -> shares_face m t c n k pos -> shares_face m t n c k (negb pos).
Proof.
  intros Ec En (o & P & K & J). exists (vneg o). split.
  - unfold placed in *. apply (lands_back m Hwf' t (n) (c) o (valid_of n En) (valid_of c Ec)) in P. assert (vadd (idx_of m n) (vneg o) = vsub (idx_of m n) o) as ->; [|assumption]. apply idx_ext. intros j. rewrite get_vadd, get_vsub, get_vneg. lia.
  - split; [rewrite get_vneg; destruct pos; cbn [negb]; lia|]. intros j Nj. rewrite get_vneg. specialize (J j Nj). lia.
Qed.
Lemma faces_sym c n d : ex c = true -> In (n, d) (faces c) -> ex n = true /\ In (c, - d) (faces n).
Proof.
  intros Ec I. apply (proj1 (proj2 (proj2 (faces_spec c Ec)))) in I. destruct I as (En & k & pos & -> & S). split; [assumption|]. apply (proj1 (proj2 (proj2 (faces_spec n En)))). split; [assumption|]. exists k, (negb pos). split; [destruct k, pos; reflexivity|]. apply shares_back; assumption.
Qed.
Lemma faces_seen c n d : ex c = true -> In (n, d) (faces c) -> MeshSpec.sees m t (default_hood_of nl) c n.
Proof.
  intros Ec I. apply (proj1 (proj2 (proj2 (faces_spec c Ec)))) in I. destruct I as (En & k & pos & _ & o & P & K & J). pose proof (cell_len_pos m Hwf' c (valid_of c Ec)) as Lc. pose proof (cell_len_pos m Hwf' n (valid_of n En)) as Ln.
  exists (upd vzero k (if pos then 1 else -1)), o. split; [apply default_faces; [apply Hm|destruct pos; auto]|]. split; [assumption|]. intros j. destruct (dim_eq_dec j k) as [->|Nj].
  - rewrite get_upd_same. destruct pos; lia.
  - rewrite get_upd_other, get_vzero by assumption. specialize (J j Nj). lia.
Qed.
Lemma faces_directed c : ex c = true -> directed (faces c).
Proof. intros E [n d] I. apply (proj1 (proj2 (proj2 (faces_spec c E)))) in I. destruct I as (_ & k & pos & -> & _). exists k, pos. reflexivity. Qed.
Lemma faces_whole c : ex c = true -> whole (fun n => get_refinement_level m c <? get_refinement_level m n) (faces c).
Proof.
  intros E k pos. destruct (proj2 (proj2 (proj2 (faces_spec c E))) k pos) as [[S _]|[(n & S & Ln)|[S Ln]]]; cbv zeta in *.
  - left. destruct (on_side (faces c) k pos); [reflexivity|discriminate].
  - right. left. destruct (on_side (faces c) k pos) as [|e [|]]; try discriminate. exists e. split; [reflexivity|]. injection S as ->. unfold lvl_of in Ln. apply Z.ltb_ge. assumption.
  - right. right. rewrite map_length in S. split; [assumption|]. intros e I. specialize (Ln (fst e) (in_map fst _ _ I)). unfold lvl_of in Ln. apply Z.ltb_lt. lia.
Qed.
End Faces.

Section Run.
Context (d0 : pcell) (g : grid) (Hg : grid_ok g).
Notation m := (g_map g).
Notation t := (g_topo g).
Notation rank r := (In r (ranks g)).
Notation state := (xstate (D := pcell)).
Notation xreachable := (xreachable d0 g).
Notation level := (get_refinement_level m).
Notation faces := (faces_of m t).
Notation needs := (needs g (g_hood g)).
Notation dft := default_neighborhood_id.

(** w is what the program finds at grid[cell] on every process: its cells, and their neighbors on other processes *)
Definition shows_world (x : state) (w : world) : Prop := forall r c, rank r -> owns x r r c \/ (exists q, needs x r q c) -> w r c = read x r c.
(** the transfer with a member of Poisson_Cell::transfer_switch *)
Definition transferred (s : switch) : absorb (D := pcell) := fun _ _ _ v b => Done (absorbed s v b).
Definition owner_in (x : state) : Z -> option Z := owner (x_st x) 0.

Lemma at_rank own (x : state) : xinv g own x -> forall r c, rank r -> owner (x_st x) r c = owner_in x c /\ owner_in x c = own c.
Proof. intros Hx r c Ir. unfold owner_in. rewrite !(xview g own x _ c Hx) by (assumption || apply (HistProps.rank0 g Hg)). split; reflexivity. Qed.

(** an update of copies always works and does to the program's data what [exchange] says *)
Theorem c77_transfer_is_exchange s x w : xreachable x -> shows_world x w ->
  exists x', update_with d0 g (transferred s) x dft = Done x' /\ x_st x' = x_st x /\ x_hoods x' = x_hoods x /\ shows_world x' (exchange (owner_in x) s w).
Proof.
  intros R Sw. assert (hood_at g (x_hoods x) dft = Some (g_hood g)) as EU by reflexivity.
  destruct (proj2 (c72_when_updates_succeed d0 g Hg (transferred s) x dft (g_hood g) R EU)) as (x' & E); [intros; eexists; reflexivity|]. exists x'. split; [assumption|].
  destruct (c72_update_parts d0 g Hg (transferred s) x dft (g_hood g) x' R EU E) as (S1 & H1 & P). split; [assumption|]. split; [assumption|].
  destruct (xreachable_inv d0 g Hg x R) as (own & Hx).
  assert (forall q, In q (ranks g) -> forall c, owns x' q q c <-> owns x q q c) as Ow by (intros q Iq c; unfold owns; rewrite S1; reflexivity).
  assert (forall q r c, CommProps.needs g (g_hood g) x' r q c <-> needs x r q c) as Ne by (intros q r c; unfold CommProps.needs, owns; rewrite S1; reflexivity).
  intros r c Ir Q. destruct (P r c Ir) as [P1 P2]. unfold exchange. destruct (at_rank own x Hx r c Ir) as [Or Oc]. destruct Q as [Q|(q & Q)].
  - apply (Ow r Ir) in Q. rewrite (Sw r c Ir (or_introl Q)). unfold owns in Q. rewrite Or in Q. rewrite P2; [|intros q (N & Nq & _); unfold owns in N; congruence]. destruct (read x r c); [|reflexivity]. rewrite Q, Z.eqb_refl. reflexivity.
  - apply Ne in Q. destruct (P1 q Q) as (v & b & u & V & B & Eu & F). rewrite (Sw r c Ir (or_intror (ex_intro _ q Q))), B. pose proof Q as (Oq & Nq & _). unfold owns in Oq. rewrite Or in Oq. rewrite Oq. destruct (Z.eqb_spec q r); [contradiction|].
    assert (rank q) as Iq by (rewrite Oc in Oq; apply (proj2 (proj1 (proj1 (proj1 Hx))) c q Oq)).
    rewrite (Sw q c Iq); [|left; unfold owns; rewrite (proj1 (at_rank own x Hx q c Iq)); assumption]. rewrite V, F. unfold transferred in Eu. injection Eu as <-. reflexivity.
Qed.
(** writing to a cell of the process *)
Theorem c77_write_is_put x w r c v : xreachable x -> shows_world x w -> rank r -> owns x r r c ->
  exists x', xrun d0 g x (Plain (Write r c v)) = Done x' /\ xreachable x' /\ (forall y, owner_in x' y = owner_in x y) /\ x_hoods x' = x_hoods x /\ shows_world x' (fun q => if q =? r then put (w q) c v else w q).
Proof.
  intros R Sw Ir Oc. cbn [xrun run bind]. eexists. split; [reflexivity|].
  destruct (xreachable_inv d0 g Hg x R) as (own & Hx). pose proof Hx as (Hi & _).
  split; [apply (xreach_step d0 g x (Plain (Write r c v))); [assumption|exact Ir|reflexivity]|].
  assert (forall q y, owner (set_rank (x_st x) r (with_store (x_st x r) (write (p_store (x_st x r)) c v))) q y = owner (x_st x) q y) as Ow.
  { intros q y. unfold owner, set_rank. destruct (Z.eqb_spec q r) as [->|]; [|reflexivity]. reflexivity. }
  split; [intros y; apply (Ow 0 y)|]. split; [reflexivity|]. intros q y Iq Q. cbn [x_st] in *.
  assert (owns x q q y \/ exists p, needs x q p y) as Q'.
  { unfold CommProps.needs, owns in *. cbn [x_st] in Q. destruct Q as [Q|(p & A & B & a & C & D)]; [left; rewrite Ow in Q; assumption|right; exists p; rewrite Ow in A, C; eauto]. }
  unfold read. cbn [x_st x_copies]. unfold set_rank. destruct (Z.eqb_spec q r) as [->|Nq].
  - cbn [with_store p_store]. pose proof (Sw r y Ir Q') as Sy. unfold read in Sy. destruct (data_local g own (x_st x) r c Hi Ir) as (b & B); [rewrite <- (owner_eq g own (x_st x) r c Hi Ir); assumption|].
    rewrite SaveLoad.find_write. unfold put. destruct (Z.eqb_spec y c) as [->|Ny]; [rewrite B; reflexivity|exact Sy].
  - apply (Sw q y Iq Q').
Qed.

(** ** The system of equations *)
(** all cells in order of id *)
Definition cells_of (ex : Z -> bool) : list Z := filter ex (map Z.of_nat (seq 1 (Z.to_nat (m_last m)))).
(** The program runs in state x: ex are the existing cells, v their data, own the cells of the processes in any order,
    k the types that the arguments cells_to_solve and cells_to_skip of solve() give to the cells *)
Record setting (x : state) (ex : Z -> bool) (v : values) (k : Z -> Z) (own cells skip : Z -> list Z) : Prop := Setting {
  set_reach : xreachable x;
  set_ex : forall c, ex c = exists_on (x_st x) 0 c;
  set_data : forall c, ex c = true -> data_at x c = Some (v c);
  set_own : forall r, rank r -> NoDup (own r) /\ forall c, In c (own r) <-> owns x r r c;
  set_given : forall r c, rank r -> owns x r r c -> k c = given (cells r) (skip r) c }.
Lemma mesh_in x ex : xreachable x -> (forall c, ex c = exists_on (x_st x) 0 c) -> mesh m t (g_len g) ex.
Proof.
  intros R E. destruct (xreachable_inv d0 g Hg x R) as (own & Hx). pose proof Hx as (((Hw & _) & _) & _). apply (mesh_ext g (exo own)); [|apply Hw].
  intros c. rewrite E. symmetry. apply (ex_own g Hg own x c Hx).
Qed.
Lemma cells_of_in ex c : tiling m ex -> In c (cells_of ex) <-> ex c = true.
Proof.
  intros T. unfold cells_of. rewrite filter_In, in_map_iff. split; [tauto|]. intros E. split; [|assumption]. pose proof (leaf_valid m _ T c E) as V. unfold valid in V.
  exists (Z.to_nat c). split; [lia|]. apply in_seq. lia.
Qed.
Lemma cells_of_nodup ex : NoDup (cells_of ex).
Proof. apply NoDup_filter. apply FinFun.Injective_map_NoDup; [intros a b; lia|apply seq_NoDup]. Qed.

Section Setting.
Context (len : Z -> dim -> Qc) (Hlen : forall c k, (0 < len c k)%Qc) (pw root : Qc -> Qc).
Context (x : state) (ex : Z -> bool) (v : values) (k : Z -> Z) (own cells skip : Z -> list Z) (S : setting x ex v k own cells skip).
Notation L := (cells_of ex).
Notation links := (glinks (faces ex) level k).
Notation start := (gcached len (faces ex) k L v).
Lemma Hm : mesh m t (g_len g) ex. Proof. apply (mesh_in x); apply S. Qed.
Lemma Ht : tiling m ex. Proof. apply Hm. Qed.
Lemma owns_owner r c : rank r -> owns x r r c <-> owner_in x c = Some r.
Proof. intros Ir. destruct (xreachable_inv d0 g Hg x (set_reach _ _ _ _ _ _ _ S)) as (o & Hx). unfold owns. rewrite (proj1 (at_rank o x Hx r c Ir)). reflexivity. Qed.
Lemma owner_rank c r : owner_in x c = Some r -> rank r.
Proof. intros E. destruct (xreachable_inv d0 g Hg x (set_reach _ _ _ _ _ _ _ S)) as (o & Hx). rewrite (proj2 (at_rank o x Hx 0 c (HistProps.rank0 g Hg))) in E. apply (proj2 (proj1 (proj1 (proj1 Hx))) c r E). Qed.
Lemma ex_owner c : ex c = true <-> owner_in x c <> None.
Proof. rewrite (set_ex _ _ _ _ _ _ _ S). unfold exists_on, owner_in. destruct (owner (x_st x) 0 c); split; intros; congruence. Qed.
Lemma L_owner c : In c L <-> owner_in x c <> None.
Proof. rewrite (cells_of_in ex c Ht). apply ex_owner. Qed.
Lemma own_owner r c : rank r -> In c (own r) <-> owner_in x c = Some r.
Proof. intros Ir. rewrite (proj2 (set_own _ _ _ _ _ _ _ S r Ir) c). apply owns_owner. assumption. Qed.
Lemma given_owner c r : owner_in x c = Some r -> k c = given (cells r) (skip r) c.
Proof. intros O. pose proof (owner_rank c r O) as Ir. apply (set_given _ _ _ _ _ _ _ S r c Ir). apply (owns_owner r c Ir). assumption. Qed.
(** every process is given the same face neighbors *)
Theorem c77_faces_on_all_processes r c : rank r -> ex c = true -> get_face_neighbors_of (exists_on (x_st x) r) m t c = Done (faces ex c).
Proof.
  intros Ir E. destruct (xreachable_inv d0 g Hg x (set_reach _ _ _ _ _ _ _ S)) as (o & Hx). rewrite (faces_ext m t _ ex c).
  - apply (faces_spec m t (g_len g) ex Hm c E).
  - intros y. rewrite (set_ex _ _ _ _ _ _ _ S). unfold exists_on. rewrite (proj1 (at_rank o x Hx r y Ir)). reflexivity.
Qed.
Lemma hand w : shows_world x w -> at_hand (owner_in x) (faces ex) w v.
Proof.
  intros Sw. destruct (xreachable_inv d0 g Hg x (set_reach _ _ _ _ _ _ _ S)) as (o & Hx). pose proof Hx as (Hi & _). split.
  - intros r c O. pose proof (owner_rank c r O) as Ir. rewrite (Sw r c Ir (or_introl (proj2 (owns_owner r c Ir) O))). rewrite (proj2 (at_rank o x Hx 0 c (HistProps.rank0 g Hg))) in O. destruct (data_here g Hg o x c r Hx O) as (_ & u & Eu & Du).
    rewrite (set_data _ _ _ _ _ _ _ S c) in Du; [|rewrite (set_ex _ _ _ _ _ _ _ S); change (exists_on (x_st x) 0 c) with (ex_at x c); rewrite (ex_own g Hg o x c Hx); apply exo_some; eauto]. injection Du as ->. unfold read. rewrite Eu. reflexivity.
  - intros r c [n d] O I. cbn [fst]. pose proof (owner_rank c r O) as Ir. assert (ex c = true) as Ec by (apply ex_owner; congruence). pose proof (faces_sym m t (g_len g) ex Hm c n d Ec I) as [En _]. pose proof (faces_seen m t (g_len g) ex Hm c n d Ec I) as Se.
    destruct (owner_in x n) as [q|] eqn:Oq; [|apply ex_owner in En; contradiction]. pose proof (owner_rank n q Oq) as Iq. assert (owns x r q n) as On by (unfold owns; rewrite (proj1 (at_rank o x Hx r n Ir)); assumption).
    destruct (Z.eq_dec q r) as [->|Nq].
    + rewrite (Sw r n Ir (or_introl On)). rewrite (proj2 (at_rank o x Hx 0 n (HistProps.rank0 g Hg))) in Oq. destruct (data_here g Hg o x n r Hx Oq) as (_ & u & Eu & _). unfold read. rewrite Eu. discriminate.
    + assert (needs x r q n) as Ne. { split; [assumption|]. split; [assumption|]. exists c. split; [|assumption]. apply (owns_owner r c Ir). assumption. }
      rewrite (Sw r n Ir (or_intror (ex_intro _ q Ne))). pose proof Ne as Ne'. apply (needs_iff g o (g_hood g) x r q n Hx Ir) in Ne'. destruct (copy_there g Hg o x dft (g_hood g) Hx eq_refl r q n Ir Ne') as (b & B). unfold read. rewrite (data_not_local g o (x_st x) r n Hi Ir), B; [discriminate|]. destruct Ne' as (A & A' & _). congruence.
Qed.
(** solve() works on any number of processes and gives what the reference gives *)
Theorem c77_solve_on_all_processes M n w : shows_world x w ->
  exists w', solve (ranks g) (owner_in x) own len (faces ex) level pw root M n cells skip w = Some w' /\
  forall r c, rank r -> owns x r r c -> w' r c = Some (gsolve L links pw root M n start c).
Proof.
  intros Sw. destruct (solve_parallel (ranks g) own (owner_in x) (ranks_NoDup g) (fun r Ir => proj1 (set_own _ _ _ _ _ _ _ S r Ir)) own_owner owner_rank L (cells_of_nodup ex) L_owner len (faces ex) level) with (pw := pw) (root := root) (k := k) (cells := cells) (skip := skip) (M := M) (n := n) (w := w) (v := v) as (w' & E & P).
  - intros c n0 d I J. apply (cells_of_in ex c Ht) in I. destruct (faces_sym m t (g_len g) ex Hm c n0 d I J) as [A B]. split; [apply (cells_of_in ex n0 Ht)|]; assumption.
  - exact given_owner.
  - apply hand. assumption.
  - exists w'. split; [assumption|]. intros r c Ir O. apply P. apply (owns_owner r c Ir). assumption.
Qed.
(** solve_failsafe() likewise, and it never divides by zero *)
Notation solves u c := (In c L /\ kind (u c) = solve_cell).
Lemma ex_in c : In c L <-> ex c = true. Proof. apply (cells_of_in ex c Ht). Qed.
Lemma start_in c : ex c = true -> start c = if glive (faces ex) k c then set_kind (set_geo (v c) (factors len c (used (faces ex) k c))) (k c) else set_kind (v c) skip_cell.
Proof. intros E. unfold gcached. rewrite (proj2 (mem_In c L) (proj2 (ex_in c) E)). reflexivity. Qed.
Lemma k_cases c : ex c = true -> k c = solve_cell \/ k c = skip_cell \/ k c = boundary_cell.
Proof. intros E. destruct (owner_in x c) as [r|] eqn:O; [|apply ex_owner in E; contradiction]. rewrite (given_owner c r O). apply given_cases. Qed.
Lemma live_iff c : glive (faces ex) k c = true <-> exists n d, In (n, d) (faces ex c) /\ coupled (k c) (k n) = true.
Proof.
  unfold glive. destruct (used (faces ex) k c) as [|[n d] l] eqn:U.
  - split; [discriminate|]. intros (n & d & I & C). assert (In (n, d) (used (faces ex) k c)) as J by (unfold used; apply filter_In; split; [assumption|exact C]). rewrite U in J. destruct J.
  - split; [|reflexivity]. intros _. exists n, d. assert (In (n, d) (used (faces ex) k c)) as J by (rewrite U; left; reflexivity). unfold used in J. apply filter_In in J. exact J.
Qed.
(** cells of the three types *)
Definition solved c : Prop := k c = solve_cell /\ exists n d, In (n, d) (faces ex c) /\ k n <> skip_cell.
Definition bounding c : Prop := k c = boundary_cell /\ exists n d, In (n, d) (faces ex c) /\ k n = solve_cell.
Theorem c77_types c : ex c = true ->
  (kind (start c) = solve_cell <-> solved c) /\ (kind (start c) = boundary_cell <-> bounding c) /\ (kind (start c) = skip_cell <-> ~ solved c /\ ~ bounding c).
Proof.
  intros E. rewrite (start_in c E). pose proof (live_iff c) as Lv.
  assert (glive (faces ex) k c = true <-> solved c \/ bounding c) as Q.
  { rewrite Lv. unfold solved, bounding, coupled. split.
    - intros (n & d & I & C). pose proof (proj1 (faces_sym m t (g_len g) ex Hm c n d E I)) as En. apply Bool.andb_true_iff in C. destruct C as [C C3]. apply Bool.andb_true_iff in C. destruct C as [C1 C2]. apply Bool.negb_true_iff in C1, C2, C3. apply Z.eqb_neq in C1, C2.
      destruct (k_cases c E) as [Kc|[Kc|Kc]]; [left|contradiction|right]; (split; [assumption|]; exists n, d; split; [assumption|]); [assumption|]. destruct (k_cases n En) as [Kn|[Kn|Kn]]; [assumption|contradiction|]. rewrite Kc, Kn in C3. discriminate.
    - intros [(Kc & n & d & I & Kn)|(Kc & n & d & I & Kn)]; exists n, d; (split; [assumption|]); rewrite Kc; [|rewrite Kn; reflexivity]. apply Z.eqb_neq in Kn. rewrite Kn. reflexivity. }
  destruct (glive (faces ex) k c) eqn:G; cbn [kind set_kind].
  - assert (solved c \/ bounding c) as H by (apply Q; reflexivity). unfold solved, bounding, solve_cell, boundary_cell, skip_cell in *. destruct H as [(K & H)|(K & H)]; rewrite K.
    + split; [split; [auto|intros; reflexivity]|]. split; [split; [discriminate|intros [A _]; discriminate]|]. split; [discriminate|intros [A _]; exfalso; apply A; auto].
    + split; [split; [discriminate|intros [A _]; discriminate]|]. split; [split; [auto|intros; reflexivity]|]. split; [discriminate|intros [_ A]; exfalso; apply A; auto].
  - assert (~ solved c /\ ~ bounding c) as [N1 N2] by (split; intros H; enough (false = true) by discriminate; apply Q; auto). unfold solve_cell, boundary_cell, skip_cell in *. split; [split; [discriminate|contradiction]|]. split; [split; [discriminate|contradiction]|]. tauto.
Qed.
Lemma solves_start c : solves start c <-> ex c = true /\ solved c.
Proof. rewrite ex_in. split; intros [E K]; (split; [assumption|]); apply (c77_types c E); assumption. Qed.
Lemma used_solved c : k c = solve_cell -> used (faces ex) k c = filter (fun e => negb (k (fst e) =? skip_cell)) (faces ex c).
Proof. intros K. unfold used. apply filter_ext. intros e. unfold coupled. rewrite K. cbn [solve_cell skip_cell boundary_cell Z.eqb negb andb]. rewrite Bool.andb_true_r. reflexivity. Qed.
Lemma solved_geo c : ex c = true -> solved c -> geo (start c) = factors len c (used (faces ex) k c) /\ used (faces ex) k c <> [].
Proof.
  intros E (K & n & d & I & N). rewrite (start_in c E). assert (glive (faces ex) k c = true) as G. { apply live_iff. exists n, d. split; [assumption|]. unfold coupled. rewrite K. apply Z.eqb_neq in N. rewrite N. reflexivity. }
  rewrite G. split; [reflexivity|]. unfold glive in G. destruct (used (faces ex) k c); [discriminate|congruence].
Qed.
Lemma used_directed c : ex c = true -> directed (used (faces ex) k c).
Proof. intros E e I. unfold used in I. apply filter_In in I. apply (faces_directed m t (g_len g) ex Hm c E). apply I. Qed.
Lemma scale_nz c : ex c = true -> solved c -> (scale (start c) < 0)%Qc.
Proof. intros E Sc. destruct (solved_geo c E Sc) as [G N]. unfold scale. rewrite G. apply scale_negative; [assumption|apply used_directed; assumption|assumption]. Qed.
Lemma scales_ok u : same_frame L start u -> gscales_ok L u = true.
Proof.
  intros F. unfold gscales_ok. apply forallb_forall. intros c I. destruct (is_solve (u c)) eqn:K; [|reflexivity]. cbn [negb orb]. unfold is_solve in K. apply Z.eqb_eq in K.
  pose proof (proj1 (F c)) as E. unfold fixed in E. assert (geo (u c) = geo (start c) /\ kind (start c) = solve_cell) as [Eg Ek] by (split; congruence). apply (proj1 (solves_start c)) in Ek || (assert (ex c = true /\ solved c) as [Ec Sc] by (apply solves_start; split; assumption)).
  apply Bool.negb_true_iff. destruct (qeqb (scale (u c)) 0%Qc) eqn:Q; [|reflexivity]. apply qeqb_spec in Q. unfold scale in Q. rewrite Eg in Q. pose proof (scale_nz c Ec Sc) as H. unfold scale in H. rewrite Q in H. discriminate.
Qed.
Lemma relaxations_run stop n : forall u a, same_frame L start u -> exists u' b, grelaxations L links stop n u a = Some (u', b).
Proof.
  induction n as [|n IH]; intros u a F; cbn [grelaxations]; [eauto|]. destruct (match a with None => true | Some a => negb (qle a stop) end); [|eauto].
  destruct (grelax L links u) as [[u1 a1]|] eqn:E; [apply IH; apply (frame_trans L _ u); [assumption|apply (frame_relax L links u u1 a1 E)]|]. unfold grelax in E. rewrite (scales_ok u F) in E. discriminate.
Qed.
Theorem c77_failsafe_on_all_processes stop n w : shows_world x w ->
  exists w' a u, solve_failsafe (ranks g) (owner_in x) own len (faces ex) level stop n cells skip w = Some (w', a) /\
  grelaxations L links stop n start None = Some (u, a) /\ forall r c, rank r -> owns x r r c -> w' r c = Some (u c).
Proof.
  intros Sw. destruct (relaxations_run stop n start None (frame_refl L start)) as (u & a & Eu).
  pose proof (failsafe_parallel (ranks g) own (owner_in x) (ranks_NoDup g) (fun r Ir => proj1 (set_own _ _ _ _ _ _ _ S r Ir)) own_owner owner_rank L (cells_of_nodup ex) L_owner len (faces ex) level) as P.
  specialize (fun H => P H k cells skip given_owner stop n w v (hand w Sw)). cbv beta in P. rewrite Eu in P.
  destruct (solve_failsafe (ranks g) (owner_in x) own len (faces ex) level stop n cells skip w) as [[w' b]|].
  - destruct P as [-> P].
    + intros c n0 d I J. apply ex_in in I. destruct (faces_sym m t (g_len g) ex Hm c n0 d I J) as [A B]. split; [apply ex_in|]; assumption.
    + exists w', a, u. split; [reflexivity|]. split; [assumption|]. intros r c Ir O. apply P. apply (owns_owner r c Ir). assumption.
  - exfalso. apply P. intros c n0 d I J. apply ex_in in I. destruct (faces_sym m t (g_len g) ex Hm c n0 d I J) as [A B]. split; [apply ex_in|]; assumption.
Qed.

(** ** What solving changes: the right hand side stays, and so does everything in cells that are not solved *)
Definition untouched (d d' : pcell) : Prop := rhs d' = rhs d /\ sol d' = sol d /\ best d' = best d /\ p0 d' = p0 d /\ p1 d' = p1 d /\ r0 d' = r0 d /\ r1 d' = r1 d /\ ap0 d' = ap0 d.
Lemma start_untouched c : untouched (v c) (start c).
Proof. unfold gcached. destruct (mem c L); [destruct (glive (faces ex) k c)|]; unfold untouched; auto 10. Qed.
Lemma frame_user u c : same_frame L start u -> ex c = true -> rhs (u c) = rhs (v c) /\ (~ solved c -> untouched (v c) (u c)).
Proof.
  intros F E. destruct (F c) as [Fi Fo]. split; [unfold fixed in Fi; assert (rhs (u c) = rhs (start c)) as -> by congruence; apply start_untouched|]. intros N. rewrite Fo; [apply start_untouched|]. rewrite solves_start. tauto.
Qed.
Theorem c77_solve_leaves M n c : ex c = true -> let u := gsolve L links pw root M n start in rhs (u c) = rhs (v c) /\ (~ solved c -> untouched (v c) (u c)).
Proof. intros E. cbv zeta. apply frame_user; [apply frame_solve|assumption]. Qed.
Theorem c77_failsafe_leaves stop n c u a : ex c = true -> grelaxations L links stop n start None = Some (u, a) -> rhs (u c) = rhs (v c) /\ (~ solved c -> untouched (v c) (u c)).
Proof. intros E Q. apply frame_user; [apply (frame_relaxations L links stop n _ _ _ _ Q)|assumption]. Qed.

(** ** The operator *)
(** A applied to the values f of cells *)
Definition A (f : Z -> Qc) (c : Z) : Qc := A_of links start f c.
(** the neighbors of c in the equation of c *)
Definition nbrs (c : Z) : list (Z * Z) := filter (fun e => negb (k (fst e) =? skip_cell)) (faces ex c).
Definition smaller_than (c n : Z) : bool := level c <? level n.
Lemma A_row f c : ex c = true -> solved c -> A f c = A_at (factors len c (nbrs c)) (map (fun e => (e, smaller_than c (fst e))) (nbrs c)) (f c) f.
Proof. intros E Sc. unfold A, A_of. rewrite (proj1 (solved_geo c E Sc)). unfold glinks. rewrite (used_solved c (proj1 Sc)). reflexivity. Qed.
(** no side of c has both skipped and other neighbors *)
Definition clean (c : Z) : Prop := forall n n' d, In (n, d) (faces ex c) -> In (n', d) (faces ex c) -> k n = skip_cell -> k n' = skip_cell.
Lemma clean_whole c : ex c = true -> clean c -> whole (smaller_than c) (nbrs c).
Proof.
  intros E C kk pos. assert (on_side (nbrs c) kk pos = [] \/ on_side (nbrs c) kk pos = on_side (faces ex c) kk pos) as H.
  { unfold on_side, nbrs. rewrite filter_filter_and || idtac.
    assert (forall l, (forall e, In e l -> In e (faces ex c)) -> (forall e, In e l -> snd e = dir_code kk pos -> k (fst e) = skip_cell) \/ (forall e, In e l -> snd e = dir_code kk pos -> k (fst e) <> skip_cell) ->
      let f := filter (fun e => snd e =? dir_code kk pos) (filter (fun e => negb (k (fst e) =? skip_cell)) l) in f = [] \/ f = filter (fun e => snd e =? dir_code kk pos) l) as H.
    { cbv zeta. intros l Hl [Q|Q]; [left|right]; (induction l as [|e l IH]; [reflexivity|]); cbn [filter]; pose proof (IH (fun e I => Hl e (or_intror I)) (fun e I => Q e (or_intror I))) as IH'; pose proof (Q e (or_introl eq_refl)) as Qe.
      - destruct (Z.eqb_spec (k (fst e)) skip_cell); cbn [negb]; [assumption|]. cbn [filter]. destruct (Z.eqb_spec (snd e) (dir_code kk pos)); [tauto|assumption].
      - destruct (Z.eqb_spec (snd e) (dir_code kk pos)) as [D|D].
        + destruct (Z.eqb_spec (k (fst e)) skip_cell); [tauto|]. cbn [negb filter]. rewrite D, Z.eqb_refl, IH'. reflexivity.
        + destruct (Z.eqb_spec (k (fst e)) skip_cell); cbn [negb filter]; [assumption|]. destruct (Z.eqb_spec (snd e) (dir_code kk pos)); [contradiction|assumption]. }
    apply H; [auto|]. destruct (existsb (fun e => (snd e =? dir_code kk pos) && (k (fst e) =? skip_cell)) (faces ex c)) eqn:B.
    - left. apply existsb_exists in B. destruct B as ([n d] & I & B). apply Bool.andb_true_iff in B. destruct B as [D K]. apply Z.eqb_eq in D, K. cbn [fst snd] in *. intros [n' d'] I' D'. cbn [fst snd] in *. subst d d'. apply (C n n' _ I I' K).
    - right. intros e I D K. assert (existsb (fun e => (snd e =? dir_code kk pos) && (k (fst e) =? skip_cell)) (faces ex c) = true) as B'; [|congruence]. apply existsb_exists. exists e. split; [assumption|]. rewrite D, K, !Z.eqb_refl. reflexivity. }
  destruct H as [->| ->]; [left; reflexivity|]. apply (faces_whole m t (g_len g) ex Hm c E kk pos).
Qed.
Lemma nbrs_directed c : ex c = true -> directed (nbrs c).
Proof. intros E e I. unfold nbrs in I. apply filter_In in I. apply (faces_directed m t (g_len g) ex Hm c E). apply I. Qed.
(** on every side the difference to the mean of the neighbors there *)
Theorem c77_operator f c : ex c = true -> solved c -> clean c ->
  A f c = over_sides (fun k pos => face_factor len c (nbrs c) k pos * (mean f (on_side (nbrs c) k pos) - f c))%Qc /\
  (forall k pos, on_side (nbrs c) k pos = [] -> face_factor len c (nbrs c) k pos = 0%Qc) /\
  (forall k pos, on_side (nbrs c) k pos <> [] -> (0 < face_factor len c (nbrs c) k pos)%Qc).
Proof.
  intros E Sc C. split; [|split; intros; [apply face_factor_none|apply face_factor_pos]; assumption]. rewrite (A_row f c E Sc). apply (row_whole len (smaller_than c) c (nbrs c) (f c) f (nbrs_directed c E) (clean_whole c E C)).
Qed.
(** constants are solutions of the homogeneous equation, also on refined grids *)
Theorem c77_operator_of_constants a c : ex c = true -> solved c -> clean c -> A (fun _ => a) c = 0%Qc.
Proof. intros E Sc C. rewrite (A_row _ c E Sc). apply (row_constant len (smaller_than c) c (nbrs c) a (nbrs_directed c E) (clean_whole c E C)). Qed.
(** second derivatives of quadratic functions are exact where a cell has neighbors of the same size on both sides, also
    if lengths of cells vary (stretched geometry) *)
Theorem c77_operator_of_quadratics center a b e c : ex c = true -> solved c -> (forall j, straight len center c (nbrs c) j) -> (forall n d, In (n, d) (nbrs c) -> level n <= level c) ->
  A (quadratic center a b e) c = qsum (map (fun j => if both_sides (nbrs c) j then two * a j else 0)%Qc [DX; DY; DZ]).
Proof.
  intros E Sc St Le. rewrite (A_row _ c E Sc). apply (row_quadratic len Hlen (smaller_than c) center c (nbrs c) a b e (nbrs_directed c E) St).
  intros [n d] I. apply Z.ltb_ge. apply (Le n d I).
Qed.
(** ** The conjugate gradient iteration *)
(** what solve() does with the values between iterations *)
Notation at_iteration M it q := (met L links pw root M start it q).
Definition still_boundaries : Prop := forall c, ex c = true -> k c = boundary_cell -> p0 (v c) = 0%Qc.
Lemma quiet_start : still_boundaries -> quiet L links start.
Proof.
  intros Q c l Sc I N. apply solves_start in Sc. destruct Sc as [E Sc]. apply links_faces in I as If. destruct l as [[n d] b]. cbn [fst] in *. pose proof (faces_sym m t (g_len g) ex Hm c n d E If) as [En Ib].
  assert (In (n, d) (used (faces ex) k c)) as U. { unfold glinks in I. apply in_map_iff in I. destruct I as (e & Ee & I). injection Ee as -> <-. assumption. }
  rewrite (used_solved c (proj1 Sc)) in U. apply filter_In in U. destruct U as [_ U]. cbn [fst] in U. apply Bool.negb_true_iff, Z.eqb_neq in U. destruct (start_untouched n) as (_ & _ & _ & -> & _). apply Q; [assumption|].
  destruct (k_cases n En) as [K|[K|K]]; [|contradiction|assumption]. exfalso. apply N. apply solves_start. split; [assumption|]. split; [assumption|]. exists c, (- d). split; [assumption|]. rewrite (proj1 Sc). discriminate.
Qed.
(** r0 is the true residual of the solution *)
Theorem c77_residual_is_true M it q c : still_boundaries -> at_iteration M it q -> ex c = true -> solved c ->
  r0 (gq_values q c) = (rhs (v c) - A (fun n => sol (gq_values q n)) c)%Qc.
Proof.
  intros B H E Sc. pose proof (met_frame L links pw root M start it q H) as F. rewrite (residual_met L links pw root M start it q (quiet_start B) H c) by (rewrite (frame_solves L start _ c F); apply solves_start; auto).
  pose proof (proj1 (F c)) as Ef. unfold fixed in Ef. assert (rhs (gq_values q c) = rhs (start c) /\ geo (gq_values q c) = geo (start c)) as [-> Eg] by (split; congruence). rewrite (proj1 (start_untouched c)). unfold A, A_of. rewrite Eg. reflexivity.
Qed.
(** the solution kept is the one after the iteration that began with the smallest residual, or best_solution as it was *)
Theorem c77_kept_solution M n : let u := gsolve L links pw root M n start in
  (forall c, ex c = true -> solved c -> sol (u c) = best (v c)) \/
  exists it seen q s, trace L links pw root M start it seen q /\ In s (seen ++ [q]) /\ (forall c, ex c = true -> solved c -> sol (u c) = next_sol L links s c) /\
    forall s', In s' seen -> (gresidual L pw root (gq_values s) <= gresidual L pw root (gq_values s'))%Qc.
Proof.
  cbv zeta. destruct (solve_outcome L links pw root M n start) as [H|(it & seen & q & s & T & I & H & B)].
  - left. intros c E Sc. rewrite H by (apply solves_start; auto). apply start_untouched.
  - right. exists it, seen, q, s. split; [assumption|]. split; [assumption|]. split; [|assumption]. intros c E Sc. apply H, solves_start. auto.
Qed.
(** and what is left of the right hand side after it *)
Theorem c77_residual_left M it q c : still_boundaries -> at_iteration M it q -> ex c = true -> solved c ->
  (rhs (v c) - A (next_sol L links q) c = r0 (gq_values q c) - step_length L links q * A (fun n => p0 (gq_values q n)) c)%Qc.
Proof.
  intros B H E Sc. rewrite (c77_residual_is_true M it q c B H E Sc). unfold A, A_of, next_sol. rewrite A_at_add, A_at_scale. ring.
Qed.
(** on grids without refinement the iteration uses the transposed matrix for the second residual: for all fields f and h,
    the product of h and A f is that of f and At h *)
Definition At (f : Z -> Qc) (c : Z) : Qc := At_of links start f c.
Lemma glinks_nodup c : NoDup (links c).
Proof.
  unfold glinks. apply FinFun.Injective_map_NoDup; [intros a b Q; congruence|]. apply NoDup_filter. unfold faces_of. destruct (ex c) eqn:E.
  - destruct (c16_face_neighbors m t (g_len g) ex c Hm E) as (l & -> & N & _). assumption.
  - unfold get_face_neighbors_of. unfold has_neighbors. rewrite E, Bool.andb_false_r. constructor.
Qed.
Theorem c77_transposed f h : (forall c n d, ex c = true -> In (n, d) (faces ex c) -> level n = level c) ->
  qsum (map (fun c => h c * A f c)%Qc L) = qsum (map (fun c => f c * At h c)%Qc L).
Proof.
  intros Le. apply (transpose L links (cells_of_nodup ex) glinks_nodup start f h). intros c [[n d] b] I J. apply ex_in in I. unfold glinks in J. apply in_map_iff in J. destruct J as (e & Ee & J). injection Ee as -> <-. cbn [fst snd]. unfold used in J. apply filter_In in J. destruct J as [J C]. cbn [fst] in C.
  rewrite (Le c n d I J), Z.ltb_irrefl. split; [reflexivity|]. destruct (faces_sym m t (g_len g) ex Hm c n d I J) as [En Jb]. split; [apply ex_in; assumption|]. apply in_map_iff. exists (c, - d). split; [cbn [fst]; rewrite (Le c n d I J), Z.ltb_irrefl; reflexivity|]. unfold used. apply filter_In. split; [assumption|]. cbn [fst].
  unfold coupled in *. rewrite !Bool.andb_true_iff, !Bool.negb_true_iff in *. destruct C as [[C1 C2] C3]. split; [tauto|]. rewrite Bool.andb_comm. assumption.
Qed.
Theorem c77_second_sum u c : At_dot (links c) u (u c) = At_of links u (fun n => p1 (u n)) c.
Proof. apply At_dot_sum. Qed.
(** ** solve_failsafe *)
(** one step from values u reached by it *)
Notation relaxed u := (exists stop n a, grelaxations L links stop n start None = Some (u, a)).
Lemma relaxed_frame u : relaxed u -> same_frame L start u.
Proof. intros (stop & n & a & E). apply (frame_relaxations L links stop n _ _ _ _ E). Qed.
Lemma A_frame u f c : same_frame L start u -> A_of links u f c = A f c.
Proof. intros F. unfold A, A_of. pose proof (proj1 (F c)) as E. unfold fixed in E. assert (geo (u c) = geo (start c)) as -> by congruence. reflexivity. Qed.
Lemma frame_solved u c : same_frame L start u -> solves u c <-> ex c = true /\ solved c.
Proof. intros F. rewrite (frame_solves L start u c F). apply solves_start. Qed.
Theorem c77_failsafe_stops_at_solutions u u' a : relaxed u -> grelax L links u = Some (u', a) ->
  (a = 0%Qc <-> forall c, ex c = true -> solved c -> A (fun n => sol (u n)) c = rhs (v c)) /\
  ((forall c, ex c = true -> solved c -> A (fun n => sol (u n)) c = rhs (v c)) -> forall c, ex c = true -> solved c -> sol (u' c) = sol (u c)).
Proof.
  intros Ru E. pose proof (relaxed_frame u Ru) as F. assert (forall c, ex c = true -> rhs (u c) = rhs (v c)) as Er by (intros c Ec; exact (proj1 (frame_user u c F Ec))). split.
  - rewrite (relax_fixed L links u u' a E). split; intros H c.
    + intros Ec Sc. rewrite <- (A_frame u _ c F), <- (Er c Ec). apply H, (frame_solved u c F). auto.
    + intros Q. apply (frame_solved u c F) in Q. destruct Q as [Ec Sc]. rewrite (A_frame u _ c F), (Er c Ec). apply H; assumption.
  - intros H c Ec Sc. destruct (relax_step L links u u' a E) as [P _]. destruct (P c (proj2 (frame_solved u c F) (conj Ec Sc))) as [N ->]. unfold defect. rewrite (A_frame u _ c F), (H c Ec Sc), (Er c Ec). field. assumption.
Qed.
(** without sources the next value is between the smallest and largest values of the neighbors *)
Theorem c77_failsafe_between u u' a c lo hi : relaxed u -> grelax L links u = Some (u', a) -> ex c = true -> solved c -> clean c -> rhs (v c) = 0%Qc ->
  (forall n d, In (n, d) (nbrs c) -> lo <= sol (u n) /\ sol (u n) <= hi)%Qc -> (lo <= sol (u' c) /\ sol (u' c) <= hi)%Qc.
Proof.
  intros Ru E Ec Sc C Z0 B. pose proof (relaxed_frame u Ru) as F. destruct (relax_step L links u u' a E) as [P _]. destruct (P c (proj2 (frame_solved u c F) (conj Ec Sc))) as [N ->].
  unfold defect. rewrite (A_frame u _ c F), (proj1 (frame_user u c F Ec)), Z0, (A_row _ c Ec Sc). pose proof (proj1 (F c)) as Ef. unfold fixed in Ef. unfold scale. assert (geo (u c) = geo (start c)) as -> by congruence. destruct (solved_geo c Ec Sc) as [-> Nn]. rewrite (used_solved c (proj1 Sc)) in *.
  apply (row_bounds len Hlen (smaller_than c) c (nbrs c) (sol (u c)) (fun n => sol (u n)) lo hi (nbrs_directed c Ec) Nn (clean_whole c Ec C)). intros [n d] I. apply (B n d I).
Qed.
End Setting.
End Run.

(** ** The result does not depend on the number of processes, on the distribution of cells, on the order of cells or on
    old copies: two runs on the same cells with the same data and types *)
Theorem c77_same_on_any_processes (e e' : pcell) g g' (Hg : grid_ok g) (Hg' : grid_ok g') : g_map g = g_map g' -> g_topo g = g_topo g' ->
  forall len pw root x x' ex v k own own' cells cells' skip skip' w w' M n,
  setting e g x ex v k own cells skip -> setting e' g' x' ex v k own' cells' skip' -> shows_world g x w -> shows_world g' x' w' ->
  exists a a', solve (ranks g) (owner_in x) own len (faces_of (g_map g) (g_topo g) ex) (get_refinement_level (g_map g)) pw root M n cells skip w = Some a /\
    solve (ranks g') (owner_in x') own' len (faces_of (g_map g') (g_topo g') ex) (get_refinement_level (g_map g')) pw root M n cells' skip' w' = Some a' /\
    forall r r' c, In r (ranks g) -> owns x r r c -> In r' (ranks g') -> owns x' r' r' c -> a r c = a' r' c.
Proof.
  intros Em Et len pw root x x' ex v k own own' cells cells' skip skip' w w' M n S S' Sw Sw'.
  destruct (c77_solve_on_all_processes e g Hg len pw root x ex v k own cells skip S M n w Sw) as (a & E & P). destruct (c77_solve_on_all_processes e' g' Hg' len pw root x' ex v k own' cells' skip' S' M n w' Sw') as (a' & E' & P').
  exists a, a'. split; [assumption|]. split; [assumption|]. intros r r' c Ir O Ir' O'. rewrite (P r c Ir O), (P' r' c Ir' O'). unfold cells_of. rewrite Em, Et. reflexivity.
Qed.
Theorem c77_failsafe_same_on_any_processes (e e' : pcell) g g' (Hg : grid_ok g) (Hg' : grid_ok g') : g_map g = g_map g' -> g_topo g = g_topo g' ->
  forall len (Hlen : forall c k, (0 < len c k)%Qc) x x' ex v k own own' cells cells' skip skip' w w' stop n,
  setting e g x ex v k own cells skip -> setting e' g' x' ex v k own' cells' skip' -> shows_world g x w -> shows_world g' x' w' ->
  exists a a' b, solve_failsafe (ranks g) (owner_in x) own len (faces_of (g_map g) (g_topo g) ex) (get_refinement_level (g_map g)) stop n cells skip w = Some (a, b) /\
    solve_failsafe (ranks g') (owner_in x') own' len (faces_of (g_map g') (g_topo g') ex) (get_refinement_level (g_map g')) stop n cells' skip' w' = Some (a', b) /\
    forall r r' c, In r (ranks g) -> owns x r r c -> In r' (ranks g') -> owns x' r' r' c -> a r c = a' r' c.
Proof.
  intros Em Et len Hlen x x' ex v k own own' cells cells' skip skip' w w' stop n S S' Sw Sw'.
  destruct (c77_failsafe_on_all_processes e g Hg len Hlen x ex v k own cells skip S stop n w Sw) as (a & b & u & E & Eu & P). destruct (c77_failsafe_on_all_processes e' g' Hg' len Hlen x' ex v k own' cells' skip' S' stop n w' Sw') as (a' & b' & u' & E' & Eu' & P').
  unfold cells_of in Eu, Eu'. rewrite Em, Et in Eu. assert (u = u' /\ b = b') as [-> <-] by (split; congruence). exists a, a', b. split; [assumption|]. split; [assumption|]. intros r r' c Ir O Ir' O'. rewrite (P r c Ir O), (P' r' c Ir' O'). reflexivity.
Qed.
