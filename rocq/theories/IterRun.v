(** Additional items of tests/advection: whether a neighbor is local and the center of a cell.
    The former is right at all times; the latter is not after the geometry has been changed. *)
From Coq Require Import QArith.
From Verif Require Import U64 MapModel MapSpec HoodModel MeshModel Sets RefineModel RefineInv
  BalanceModel Create Balance History HistProps HistExamples CommModel CommInv CommProps CommViews GeoModel OverlapProps IterModel IterProps.
Open Scope Z_scope.

Section Marks.
(** with numbers of any kind *)
Context (A : arith) {D : Type} (d0 : D) (g : grid) (Hg : grid_ok g).
Notation m := (g_map g).

(** tests/advection/cell.hpp:153-162 *)
Definition local_mark {G : Type} (_ : G) (x : xstate (D := D)) (r _ _ : Z) (n : Z * idx) : bool := is_local r (p_store (x_st x r)) (fst n).
(** tests/advection/cell.hpp:164-173 *)
Definition center_mark (geo : cartesian A) (_ : xstate (D := D)) (_ c : Z) : dim -> num A := ca_center A m geo c.

Lemma advection_structural : structural center_mark (local_mark (G := cartesian A)).
Proof. split; [reflexivity|]. intros geo x x' r id c e (E & _). unfold local_mark, is_local. rewrite E. reflexivity. Qed.

(** is_local of neighbors tells at all times who owns them, even if the geometry is changed *)
Theorem c76_neighbors_are_local l c id r s i ns n p b : creached d0 g center_mark local_mark l c -> hood_at g (x_hoods (c_x c)) id <> None -> In r (ranks g) ->
  c_shown c id r = Some s -> In (i, ns) (sh_nbrs s) -> In (n, p, b) ns -> b = true <-> owner (x_st (c_x c)) r (fst n) = Some r.
Proof.
  intros R EU Ir Es Hi Hn. destruct (made_from d0 g Hg center_mark local_mark l c R id r EU Ir) as (s' & geo & x & E1 & E2 & _ & _ & (Sp & _) & _). assert (s' = s) as -> by congruence.
  unfold fresh in E2. apply bind_done in E2. destruct E2 as (v & _ & E2). injection E2 as <-. cbn [sh_nbrs] in Hi. apply in_map_iff in Hi. destruct Hi as (j & Ej & _). injection Ej as _ <-. apply in_map_iff in Hn. destruct Hn as (e & Ee & _). injection Ee as -> _ <-.
  unfold local_mark, is_local, owner. rewrite Sp. destruct (find (fst n) _) as [q|]; [|split; discriminate]. rewrite Z.eqb_eq. split; congruence.
Qed.
(** centers are right as long as the geometry is not changed after initialize *)
Theorem c76_centers l c id r s i p ctr : creached d0 g center_mark local_mark l c -> (forall geo, ~ In (SetGeometry geo) l) -> hood_at g (x_hoods (c_x c)) id <> None -> In r (ranks g) ->
  c_shown c id r = Some s -> In (i, p, ctr) (sh_cells s) -> ctr = ca_center A m (c_geo c) (i_id i).
Proof.
  intros R Ng EU Ir Es Hi. destruct (c76_iterators_current d0 g Hg center_mark local_mark l c id r advection_structural (or_introl Ng) R EU Ir) as (s' & Es' & F). assert (s' = s) as -> by congruence.
  unfold fresh in F. apply bind_done in F. destruct F as (v & _ & F). injection F as <-. cbn [sh_cells] in Hi. apply in_map_iff in Hi. destruct Hi as (j & Ej & _). injection Ej as -> _ <-. reflexivity.
Qed.
End Marks.

(** ** Cases *)
Definition geo1 : cartesian exact := Cartesian (A := exact) (fun _ => Some 0%Q) (fun _ => Some 1%Q).
Definition geo2 : cartesian exact := Cartesian (A := exact) (fun _ => Some 0%Q) (fun _ => Some (1 # 4)%Q).
Notation cm := (center_mark exact (D := Z) row).
Notation lm := (local_mark (D := Z) (G := cartesian exact)).
Fixpoint cgo (l : list (ccall (D := Z) (G := cartesian exact))) (c : cstate) : outcome cstate :=
  match l with [] => Done c | a :: l => do c' <- crun 0 row cm lm c a; cgo l c' end.
Fixpoint callow (l : list (ccall (D := Z) (G := cartesian exact))) (c : cstate (D := Z) (X := dim -> option Q) (N := bool)) : Prop :=
  match l with [] => True | a :: l => callowed row c a /\ forall c', crun 0 row cm lm c a = Done c' -> callow l c' end.
Lemma cgo_reached l : forall k c c', creached 0 row cm lm k c -> callow l c -> cgo l c = Done c' -> creached 0 row cm lm (k ++ l) c'.
Proof.
  induction l as [|a l IH]; intros k c c' R A E; cbn [cgo callow] in *; [injection E as <-; rewrite app_nil_r; assumption|]. apply bind_done in E. destruct E as (c1 & E1 & E). destruct A as [A1 A2].
  replace (k ++ a :: l) with ((k ++ [a]) ++ l) by (rewrite <- app_assoc; reflexivity). apply (IH _ c1); [apply creached_step with c; assumption|apply A2; assumption|assumption].
Qed.

Definition show (c : cstate (D := Z) (G := cartesian exact) (X := dim -> option Q) (N := bool)) (id r : Z) : list (Z * option place * option Q * list (Z * option place * bool)) :=
  match c_shown c id r with
  | Some s => map (fun e => (i_id (fst (fst (fst e))), snd (fst (fst e)), snd (fst e) DX, map (fun n => (fst (fst (fst n)), snd (fst n), snd n)) (snd (snd e)))) (combine (sh_cells s) (sh_nbrs s))
  | None => [] end.

Definition c0 : outcome cstate := cinitialize 0 row cm lm geo1.
(** cell 4, next to the copied cell 3, has no copy here *)
Example c76_example_shown : match c0 with Done c => show c default_neighborhood_id 0 | _ => [] end =
  [(1, Some Own, Some (1 # 2)%Q, [(2, Some Own, true)]);
   (2, Some Own, Some (3 # 2)%Q, [(1, Some Own, true); (3, Some Copied, false)]);
   (3, Some Copied, Some (5 # 2)%Q, [(2, Some Own, true); (4, None, false)])].
Proof. vm_compute. reflexivity. Qed.
(** the call histories of the theorems exist and are followed through moves of cells: after a
    user neighborhood has been added and cell 2 moved, process 0 has one cell and one copy *)
Definition l1 (c : cstate (D := Z) (G := cartesian exact) (X := dim -> option Q) (N := bool)) : list (ccall (D := Z) (G := cartesian exact)) :=
  [OnGrid (AddNeighborhood 7 [Idx 1 0 0]); OnGrid (Plain (Write 0 1 5));
   OnGrid (Plain (LoadBalance 1 (plan (x_st (c_x c)) [(2, 1)]))); OnGrid (Plain (Write 1 2 6)); OnGrid (Update default_neighborhood_id)].
Example c76_example_history : match c0 with Done c => callow (l1 c) c | _ => False end /\
  match c0 with Done c => match cgo (l1 c) c with Done c' =>
    show c' default_neighborhood_id 0 = [(1, Some Own, Some (1 # 2)%Q, [(2, Some Copied, false)]); (2, Some Copied, Some (3 # 2)%Q, [(1, Some Own, true); (3, None, false)])] /\
    show c' 7 0 = [(1, Some Own, Some (1 # 2)%Q, [(2, Some Copied, false)]); (2, Some Copied, Some (3 # 2)%Q, [(3, None, false); (1, Some Own, true)])] /\
    follow (c_x c') 0 2 Copied = Some 6 | _ => False end | _ => False end.
Proof.
  split.
  - destruct (c76_calls_succeed 0 row row_ok cm lm) as [Ci Cs]. assert (match c0 with Done c => planb row (x_st (c_x c)) [(2, 1)] | _ => false end = true) as K0 by (vm_compute; reflexivity). destruct c0 as [c| |] eqn:E; [|discriminate..].
    assert (creached 0 row cm lm [] c) as R by (apply creached_init with geo1; exact E). unfold l1. cbn [callow callowed xallowed].
    split; [exact I|]. intros c1 E1. split; [cbn [allowed]; vm_compute; tauto|]. intros c2 E2. split.
    { cbn [allowed]. exists (fun k => find k [(2, 1)]). assert (x_st (c_x c2) = set_rank (x_st (c_x c)) 0 (with_store (x_st (c_x c) 0) (write (p_store (x_st (c_x c) 0)) 1 5))) as Es.
      { cbn [crun] in E1, E2. apply bind_done in E1. destruct E1 as (x1 & E1 & F1). apply bind_done in F1. destruct F1 as (s1 & _ & F1). injection F1 as <-. apply bind_done in E2. destruct E2 as (x2 & E2 & F2). apply bind_done in F2. destruct F2 as (s2 & _ & F2). injection F2 as <-.
        cbn [c_x] in *. cbn [xrun run bind] in E1, E2. destruct (add_neighborhood _ _ _ _) as [[|] hs]; cbn [negb] in E1; [apply bind_done in E1; destruct E1 as (? & _ & E1)|]; injection E1 as <-; injection E2 as <-; reflexivity. }
      assert (forall k, owner (x_st (c_x c2)) 0 k = owner (x_st (c_x c)) 0 k) as Eo by (intros k; rewrite Es; reflexivity).
      apply (answers_ext row (owner (x_st (c_x c)) 0)); [intros k; symmetry; apply Eo|]. apply plan_ok, K0. }
    intros c3 E3. split; [cbn [allowed]; vm_compute; tauto|]. intros c4 E4. split; [left; reflexivity|]. intros c5 E5. exact I.
  - vm_compute. split; [reflexivity|]. split; reflexivity.
Qed.

(** after set_geometry the centers shown are those of the former geometry, until the next commit
    or load balancing (tests/advection/2d.cpp:173-200) *)
Theorem c76_center_after_set_geometry_refuted : ~ (forall (g : grid) (d0 : Z) l c id r s i p ctr, grid_ok g -> creached d0 g (center_mark exact (D := Z) g) local_mark l c ->
  hood_at g (x_hoods (c_x c)) id <> None -> In r (ranks g) -> c_shown c id r = Some s -> In (i, p, ctr) (sh_cells s) -> ctr DX = ca_center exact (g_map g) (c_geo c) (i_id i) DX).
Proof.
  intros Q. assert (match c0 with Done c => match c_shown c default_neighborhood_id 0 with Some s => match sh_cells s with (i, p, ctr) :: _ => ctr DX = Some (1 # 2)%Q /\ i_id i = 1 | _ => False end | _ => False end | _ => False end) as K by (vm_compute; split; reflexivity).
  destruct c0 as [c| |] eqn:E; [|contradiction..]. assert (creached 0 row cm lm [] c) as R by (apply creached_init with geo1; exact E). assert (creached 0 row cm lm ([] ++ [SetGeometry geo2]) (CState geo2 (c_x c) (c_shown c))) as R2 by (apply creached_step with c; [assumption|exact I|reflexivity]).
  destruct (c_shown c default_neighborhood_id 0) as [s|] eqn:Es; [|contradiction]. destruct (sh_cells s) as [|[[i p] ctr] rest] eqn:El; [contradiction|]. destruct K as [K1 K2].
  specialize (Q row 0 _ _ default_neighborhood_id 0 s i p ctr row_ok R2). cbn [c_x c_shown c_geo] in Q. rewrite K1, K2 in Q. assert (Some (1 # 2)%Q = ca_center exact (g_map row) geo2 1 DX) as F.
  { apply Q; [discriminate|vm_compute; tauto|assumption|rewrite El; left; reflexivity]. }
  vm_compute in F. discriminate.
Qed.
(** between initialize_balance_load and finish_balance_load data pointers of remote cells are
    not null although what they pointed to has been freed *)
Theorem c76_pointers_to_copies_while_balancing_refuted : ~ (forall (g : grid) (d0 : Z) (l : list (ccall (G := cartesian exact))) c id r s i p ctr z dest mv, grid_ok g -> creached d0 g (center_mark exact (D := Z) g) local_mark l c ->
  hood_at g (x_hoods (c_x c)) id <> None -> In r (ranks g) -> answers_ok g (owner (x_st (c_x c)) 0) z dest -> initialize_balance_load d0 g (x_st (c_x c)) z = Done mv ->
  c_shown c id r = Some s -> In (i, Some p, ctr) (sh_cells s) -> follow_moving mv r (i_id i) p <> None).
Proof.
  intros Q. assert (match c0 with Done c => match c_shown c default_neighborhood_id 0 with Some s => match sh_cells s with _ :: _ :: (i, p, ctr) :: _ => p = Some Copied | _ => False end | _ => False end | _ => False end) as K by (vm_compute; reflexivity).
  assert (match c0 with Done c => planb row (x_st (c_x c)) [(2, 1)] && match initialize_balance_load 0 row (x_st (c_x c)) (plan (x_st (c_x c)) [(2, 1)]) with Done _ => true | _ => false end | _ => false end = true) as Pl by (vm_compute; reflexivity).
  destruct c0 as [c| |] eqn:E; [|contradiction..]. assert (creached 0 row cm lm [] c) as R by (apply creached_init with geo1; exact E). apply andb_true_iff in Pl. destruct Pl as [Pl Pm]. destruct (initialize_balance_load 0 row (x_st (c_x c)) (plan (x_st (c_x c)) [(2, 1)])) as [mv| |] eqn:Em; [clear Pm|discriminate..].
  destruct (c_shown c default_neighborhood_id 0) as [s|] eqn:Es; [|contradiction]. destruct (sh_cells s) as [|e1 [|e2 [|[[i p] ctr] rest]]] eqn:El; try contradiction. subst p.
  apply (Q row 0 [] c default_neighborhood_id 0 s i Copied ctr (plan (x_st (c_x c)) [(2, 1)]) (fun k => find k [(2, 1)]) mv row_ok R); [discriminate|vm_compute; tauto|apply plan_ok; assumption|assumption|assumption|rewrite El; right; right; left; reflexivity|reflexivity].
Qed.
Print Assumptions c76_neighbors_are_local.
Print Assumptions c76_center_after_set_geometry_refuted.
Print Assumptions c76_pointers_to_copies_while_balancing_refuted.
