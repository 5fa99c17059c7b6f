(** C46: configuration and initialization of grids.  C47: hierarchical partitioning. *)
From Coq Require Import String.
From Verif Require Import U64 MapModel MapSpec MapProofs DblModel DblProps HoodModel Sets MeshModel MeshSpec MeshTo RefineModel RefineInv BalanceModel Balance Create History HistProps ConfigModel.
Open Scope Z_scope.

Section Config.
Context {D : Type} (d0 : D) (np : Z).
Notation config := (@config D).
Notation configure := (@configure D d0 np).
Notation configure_all := (@configure_all D d0 np).
Notation new_grid := (@new_grid D).

(** lengths accepted by the grid: dccrg_length.hpp *)
Definition accepted (given : lengths) : bool := fst (length_set (1, 1, 1) given).
Definition given_length (s : setting) : list lengths := match s with Set_length l => [l] | _ => [] end.
(** what a list of calls asks for *)
Definition asked_length (l : list setting) : option lengths := List.find accepted (flat_map given_length l).
Definition asked_topo (l : list setting) : topo :=
  fold_left (fun t s => match s with Set_periodic x y z => Topo x y z | _ => t end) l (Topo false false false).
Definition asked_neighborhood (l : list setting) : Z :=
  fold_left (fun n s => match s with Set_neighborhood k => k | _ => n end) l 1.
Definition lengths_of_map (m : mapping) : lengths := (m_l0 m, m_l1 m, m_l2 m).

Lemma accepted_any old given : fst (length_set old given) = accepted given.
Proof.
  unfold accepted, length_set. destruct given as [[a b] c]. destruct (_ || _); [reflexivity|]. destruct (dbl_max64 <? _); reflexivity.
Qed.
Lemma set_length_fst m given : fst (set_length m given) = accepted given.
Proof.
  unfold set_length. rewrite <- (accepted_any (m_l0 m, m_l1 m, m_l2 m)).
  destruct (length_set _ given) as [[] [[a b] c]]; reflexivity.
Qed.

(** one call *)
Lemma set_length_step (c : config) given :
  configure c (Set_length given) =
  if cf_mapped c then (false, c) else
  if accepted given then (true, Config (snd (set_length (cf_map c) given)) (cf_topo c) (cf_len c) true (cf_ready c) (cf_of c) (cf_cells c))
  else (false, c).
Proof.
  cbn [ConfigModel.configure]. unfold set_initial_length. destruct (cf_mapped c) eqn:Em; [reflexivity|].
  pose proof (set_length_fst (cf_map c) given) as F. pose proof (proj1 (c09_setters_atomic (cf_map c)) given) as At.
  destruct (set_length (cf_map c) given) as [ok m'] eqn:E. cbn [fst snd] in *. subst ok.
  destruct (accepted given); [reflexivity|]. rewrite (At eq_refl), <- Em. destruct c; reflexivity.
Qed.

(** setters that throw change nothing *)
Theorem c58_refused_settings_change_nothing (c : config) s :
  s <> Initialize -> fst (configure c s) = false -> snd (configure c s) = c.
Proof.
  intros N. destruct s as [g|l|x y z|n|]; try contradiction.
  - rewrite set_length_step. destruct (cf_mapped c); [reflexivity|]. destruct (accepted g); [discriminate|reflexivity].
  - cbn. unfold set_level. destruct (l <? 0); [discriminate|]. pose proof (proj1 (proj2 (c09_setters_atomic (cf_map c))) l) as At.
    destruct (set_maximum_refinement_level (cf_map c) l) as [ok m']. cbn [fst snd] in *. intros ->. rewrite (At eq_refl). destruct c; reflexivity.
  - discriminate.
  - discriminate.
Qed.

(** the state before initialize *)
Record before_init (l : list setting) (c : config) : Prop := Before {
  bi_ready : cf_ready c = false;
  bi_cells : cf_cells c = None;
  bi_of : cf_of c = [];
  bi_topo : cf_topo c = asked_topo l;
  bi_len : cf_len c = asked_neighborhood l;
  bi_mapped : cf_mapped c = match asked_length l with Some _ => true | None => false end;
  bi_length : lengths_of_map (cf_map c) = match asked_length l with Some g => g | None => (1, 1, 1) end
}.
Lemma fold_app {A B} (f : A -> B -> A) l b a : fold_left f (l ++ [b]) a = f (fold_left f l a) b.
Proof. rewrite fold_left_app. reflexivity. Qed.
Lemma asked_length_app l s : asked_length (l ++ [s]) =
  match asked_length l with Some g => Some g | None => match s with Set_length g => if accepted g then Some g else None | _ => None end end.
Proof.
  unfold asked_length. rewrite flat_map_app. cbn [flat_map]. rewrite app_nil_r.
  induction (flat_map given_length l) as [|x r IH]; cbn [app List.find]; [|destruct (accepted x); [reflexivity|exact IH]].
  destruct s; cbn; reflexivity.
Qed.
Lemma configure_all_app c l s : configure_all c (l ++ [s]) = snd (configure (configure_all c l) s).
Proof. revert c. induction l as [|x l IH]; intros c; cbn [app ConfigModel.configure_all]; [reflexivity|]. apply IH. Qed.
Lemma before_ok l : ~ In Initialize l -> before_init l (configure_all new_grid l).
Proof.
  induction l as [|s l IH] using rev_ind; intros N; [constructor; reflexivity|].
  assert (~ In Initialize l) as Nl by (intros H; apply N, in_or_app; auto). assert (s <> Initialize) as Ns by (intros ->; apply N, in_or_app; right; left; reflexivity).
  specialize (IH Nl). destruct IH as [R C O T L M G]. rewrite configure_all_app. set (c := configure_all new_grid l) in *.
  assert (asked_topo (l ++ [s]) = match s with Set_periodic x y z => Topo x y z | _ => asked_topo l end) as Et by (unfold asked_topo; rewrite fold_app; reflexivity).
  assert (asked_neighborhood (l ++ [s]) = match s with Set_neighborhood k => k | _ => asked_neighborhood l end) as En by (unfold asked_neighborhood; rewrite fold_app; reflexivity).
  pose proof (asked_length_app l s) as El.
  destruct s as [g|k|x y z|n|]; try contradiction.
  - rewrite set_length_step. rewrite M. destruct (asked_length l) as [g0|] eqn:E0.
    + cbn [snd]. constructor; try congruence; rewrite El; assumption.
    + destruct (accepted g) eqn:Ea; cbn [snd]; [|constructor; try congruence; rewrite El; assumption].
      constructor; cbn [cf_ready cf_cells cf_of cf_topo cf_len cf_mapped cf_map]; try congruence; rewrite El; [reflexivity|].
      pose proof (proj1 (proj2 (proj2 (c09_setters_atomic (cf_map c)))) g) as At. rewrite set_length_fst in At. specialize (At Ea). apply At.
  - assert (asked_length (l ++ [Set_level k]) = asked_length l) as El' by (rewrite El; destruct (asked_length l); reflexivity).
    assert (forall k, lengths_of_map (snd (set_maximum_refinement_level (cf_map c) k)) = lengths_of_map (cf_map c)) as Lm
      by (intros k'; unfold set_maximum_refinement_level; destruct (_ <=? _); reflexivity).
    cbn [ConfigModel.configure]. unfold set_level. pose proof (Lm k) as Lk.
    destruct (k <? 0); [|destruct (set_maximum_refinement_level (cf_map c) k) as [ok m']]; cbn [snd] in *;
    (constructor; cbn [cf_ready cf_cells cf_of cf_topo cf_len cf_mapped cf_map]; try congruence; rewrite El', ?Lm; try assumption; congruence).
  - assert (asked_length (l ++ [Set_periodic x y z]) = asked_length l) as El' by (rewrite El; destruct (asked_length l); reflexivity).
    constructor; cbn; try congruence; rewrite El'; assumption.
  - assert (asked_length (l ++ [Set_neighborhood n]) = asked_length l) as El' by (rewrite El; destruct (asked_length l); reflexivity).
    constructor; cbn; try congruence; rewrite El'; assumption.
Qed.

(** the first initialize after any calls uses the length that was accepted first, the latest
    periodicity and the latest neighborhood length; it throws without an accepted length *)
Theorem c58_initialize_uses_the_settings l :
  ~ In Initialize l ->
  let c := configure_all new_grid l in
  (asked_length l = None -> fst (configure c Initialize) = false) /\
  (forall given, asked_length l = Some given ->
     let g := Grid (cf_map c) (asked_topo l) (asked_neighborhood l) np in
     lengths_of_map (g_map g) = given /\
     (grid_ok g -> fst (configure c Initialize) = true /\
        let c' := snd (configure c Initialize) in
        cf_of c' = default_hood_of (asked_neighborhood l) /\
        exists st, cf_cells c' = Some (Done st) /\ initialize d0 g = Done st /\ reachable d0 g st)).
Proof.
  intros N. cbv zeta. destruct (before_ok l N) as [R C O T L M G]. set (c := configure_all new_grid l) in *.
  cbn [ConfigModel.configure]. unfold initialize_grid. rewrite R, M. split.
  - intros E. rewrite E. reflexivity.
  - intros given E. rewrite E in *. cbn [g_map negb]. split; [assumption|]. intros Hg. rewrite T, L.
    destruct (initialize_inv d0 _ Hg) as (st & Est & _). rewrite Est. cbn [fst snd cf_of cf_cells].
    split; [reflexivity|]. split; [rewrite O; reflexivity|]. exists st. split; [reflexivity|]. split; [reflexivity|]. constructor. assumption.
Qed.

(** initialize works at most once: whether or not it threw, it throws ever after and the cells
    are those of the first call *)
Theorem c46_initialize_works_once (c : config) l :
  let c1 := snd (configure c Initialize) in let c2 := configure_all c1 l in
  fst (configure c2 Initialize) = false /\ cf_cells c2 = cf_cells c1 /\ cf_of c2 = cf_of c1.
Proof.
  cbv zeta. set (c1 := snd (configure c Initialize)).
  assert (cf_ready c1 = true) as R1.
  { unfold c1. cbn. unfold initialize_grid. destruct (cf_ready c) eqn:R; [exact R|]. destruct (negb (cf_mapped c)); reflexivity. }
  assert (cf_ready (configure_all c1 l) = true /\ cf_cells (configure_all c1 l) = cf_cells c1 /\ cf_of (configure_all c1 l) = cf_of c1) as (R & E1 & E2).
  { induction l as [|s l IH] using rev_ind; [auto|]. rewrite configure_all_app. set (c2 := configure_all c1 l) in *. destruct IH as (R & E1 & E2).
    destruct s as [g|k|x y z|n|].
    - rewrite set_length_step. destruct (cf_mapped c2); [auto|]. destruct (accepted g); auto.
    - cbn. unfold set_level. destruct (k <? 0); [auto|]. destruct (set_maximum_refinement_level (cf_map c2) k); auto.
    - auto.
    - auto.
    - cbn. unfold initialize_grid. rewrite R. auto. }
  split; [|auto]. cbn. unfold initialize_grid. rewrite R. reflexivity.
Qed.

(** the length can be set once, before or after initialize *)
Theorem c58_length_is_set_once (c : config) given l given' :
  fst (configure c (Set_length given)) = true ->
  let c2 := configure_all (snd (configure c (Set_length given))) l in
  lengths_of_map (cf_map c2) = given /\ configure c2 (Set_length given') = (false, c2).
Proof.
  intros H. cbv zeta. rewrite set_length_step in *. destruct (cf_mapped c) eqn:Em; [discriminate|]. destruct (accepted given) eqn:Ea; [|discriminate].
  cbn [snd]. set (c1 := Config _ _ _ _ _ _ _) in *.
  pose proof (proj1 (proj2 (proj2 (c09_setters_atomic (cf_map c)))) given) as At. rewrite set_length_fst in At. destruct (At Ea) as [Eg _].
  assert (lengths_of_map (cf_map (configure_all c1 l)) = given /\ cf_mapped (configure_all c1 l) = true) as [E1 E2].
  { clear -Eg. induction l as [|s l IH] using rev_ind; [split; [exact Eg|reflexivity]|]. rewrite configure_all_app. set (c2 := configure_all c1 l) in *.
    destruct IH as [E1 E2]. destruct s as [g|k|x y z|n|].
    - rewrite set_length_step, E2. auto.
    - assert (forall k, lengths_of_map (snd (set_maximum_refinement_level (cf_map c2) k)) = lengths_of_map (cf_map c2)) as Lm
        by (intros k'; unfold set_maximum_refinement_level; destruct (_ <=? _); reflexivity).
      cbn. unfold set_level. pose proof (Lm k) as Lk. destruct (k <? 0); [split; [cbn; rewrite Lm|]; assumption|].
      destruct (set_maximum_refinement_level (cf_map c2) k); cbn in *. split; [congruence|assumption].
    - auto.
    - auto.
    - cbn. unfold initialize_grid. destruct (cf_ready c2); [auto|]. destruct (negb (cf_mapped c2)); auto. }
  split; [assumption|]. rewrite set_length_step, E2. reflexivity.
Qed.

(** the maximum refinement level: accepted exactly up to the largest possible one, which is used
    for negative levels; nothing else is changed by it *)
Theorem c58_maximum_refinement_level (c : config) l :
  let c' := snd (configure c (Set_level l)) in let possible := get_maximum_possible_refinement_level (cf_map c) in
  (fst (configure c (Set_level l)) = true <-> l <= possible \/ l < 0) /\
  m_max (cf_map c') = (if l <? 0 then possible else if l <=? possible then l else m_max (cf_map c)) /\
  lengths_of_map (cf_map c') = lengths_of_map (cf_map c) /\
  cf_topo c' = cf_topo c /\ cf_len c' = cf_len c /\ cf_cells c' = cf_cells c /\ cf_of c' = cf_of c.
Proof.
  cbv zeta. cbn [ConfigModel.configure]. unfold set_level, set_maximum_refinement_level.
  rewrite Z.leb_refl. destruct (Z.ltb_spec l 0); [cbn; intuition lia|].
  destruct (Z.leb_spec l (get_maximum_possible_refinement_level (cf_map c))); cbn; intuition (lia || discriminate).
Qed.

(** the documented order: length, then level, then the others, then initialize *)
Theorem c58_documented_order a b c lvl px py pz n :
  0 < a -> 0 < b -> 0 < c -> 0 <= lvl -> DblProps.total (a * b * c) lvl <= W - 2 ^ 13 -> 0 <= n < 2 ^ 32 -> 0 < np < 2 ^ 31 ->
  let calls := [Set_length (a, b, c); Set_level lvl; Set_periodic px py pz; Set_neighborhood n] in
  exists m, wf m /\ lengths_of_map m = (a, b, c) /\ m_max m = lvl /\
  (hood_fits m (Topo px py pz) (default_hood_of n) ->
   let g := Grid m (Topo px py pz) n np in
   exists st, initialize d0 g = Done st /\ reachable d0 g st /\
     cf_cells (configure_all new_grid (calls ++ [Initialize])) = Some (Done st) /\
     forall pre s post, calls ++ [Initialize] = pre ++ s :: post -> fst (configure (configure_all new_grid pre) s) = true).
Proof.
  intros Ha Hb Hc Hl Ht Hn Hp. cbv zeta.
  assert (a * b * c <= DblProps.total (a * b * c) lvl) as Hg.
  { unfold DblProps.total, before. assert (0 < a * b * c) by nia. assert (1 <= 8 ^ lvl) by (apply (Z.pow_le_mono_r 8 0 lvl); lia).
    rewrite Z.pow_add_r, Z.pow_1_r by lia.
    assert (1 <= (8 ^ lvl * 8 - 1) / 7) by (apply Z.div_le_lower_bound; lia). nia. }
  assert (a * b * c < W) as HW by (change (2 ^ 13) with 8192 in Ht; lia).
  set (m1 := snd (set_length default_mapping (a, b, c))).
  assert (accepted (a, b, c) = true) as Ac by (unfold accepted; rewrite c07_fitting_length_accepted by assumption; reflexivity).
  assert (set_length default_mapping (a, b, c) = (true, m1)) as E1.
  { unfold m1. rewrite (surjective_pairing (set_length default_mapping (a, b, c))) at 1. rewrite set_length_fst, Ac. reflexivity. }
  pose proof (proj1 (proj2 (proj2 (c09_setters_atomic default_mapping))) (a, b, c)) as At. rewrite E1 in At. cbn [fst snd] in At.
  destruct (At eq_refl) as [L1 _]. injection L1 as A1 B1 C1.
  assert (lvl <= get_maximum_possible_refinement_level m1) as Hle.
  { apply (c08_level_limit_partial m1 lvl); rewrite ?A1, ?B1, ?C1; assumption. }
  set (m2 := snd (set_maximum_refinement_level m1 lvl)).
  assert (set_maximum_refinement_level m1 lvl = (true, m2)) as E2.
  { unfold m2, set_maximum_refinement_level. replace (lvl <=? _) with true by lia. reflexivity. }
  pose proof (proj2 (proj2 (proj2 (c09_setters_atomic m1))) lvl) as At2. rewrite E2 in At2. cbn [fst snd] in At2.
  destruct (At2 eq_refl) as (L2 & M2 & _). injection L2 as A2 B2 C2.
  destruct (c09_length_then_level_partial default_mapping m1 m2 (a, b, c) lvl E1 E2 Hl) as [_ Hwf].
  rewrite A2, B2, C2, A1, B1, C1 in Hwf. specialize (Hwf Ha Hb Hc ltac:(change (2 ^ 13) with 8192 in Ht; lia)).
  exists m2. split; [assumption|]. split; [unfold lengths_of_map; congruence|]. split; [assumption|].
  intros Hf. set (g := Grid m2 (Topo px py pz) n np). assert (grid_ok g) as Hgk by (split; [assumption|]; cbn; auto).
  destruct (initialize_inv d0 g Hgk) as (st & Est & _). exists st. split; [assumption|]. split; [constructor; assumption|].
  assert (configure new_grid (Set_length (a, b, c)) = (true, Config m1 (Topo false false false) 1 true false [] None)) as S1.
  { rewrite set_length_step. cbn [cf_mapped new_grid ConfigModel.new_grid]. rewrite Ac. reflexivity. }
  set (c1 := Config m1 (Topo false false false) 1 true false [] None : config) in *.
  assert (configure c1 (Set_level lvl) = (true, Config m2 (Topo false false false) 1 true false [] None)) as S2.
  { cbn [ConfigModel.configure]. unfold set_level. replace (lvl <? 0) with false by lia. cbn [cf_map c1]. rewrite E2. reflexivity. }
  set (c2 := Config m2 (Topo false false false) 1 true false [] None : config) in *.
  set (c4 := Config m2 (Topo px py pz) n true false [] None : config).
  assert (configure c4 Initialize = (true, Config m2 (Topo px py pz) n true true (default_hood_of n) (Some (Done st)))) as S5.
  { cbn [ConfigModel.configure]. unfold initialize_grid, c4. cbn [cf_ready cf_mapped negb cf_map cf_topo cf_len cf_of]. fold g. rewrite Est. reflexivity. }
  split.
  - cbn [app ConfigModel.configure_all]. rewrite S1. cbn [snd]. rewrite S2. cbn [snd].
    change (snd (configure (snd (configure c2 (Set_periodic px py pz))) (Set_neighborhood n))) with c4. rewrite S5. reflexivity.
  - intros pre s post E.
    destruct pre as [|x1 pre]; [injection E as <- _; cbn [ConfigModel.configure_all]; rewrite S1; reflexivity|injection E as <- E].
    destruct pre as [|x2 pre]; [injection E as <- _; cbn [ConfigModel.configure_all]; rewrite S1; cbn [snd]; rewrite S2; reflexivity|injection E as <- E].
    destruct pre as [|x3 pre]; [injection E as <- _; reflexivity|injection E as <- E].
    destruct pre as [|x4 pre]; [injection E as <- _; reflexivity|injection E as <- E].
    destruct pre as [|x5 pre].
    + injection E as <- _. cbn [ConfigModel.configure_all]. rewrite S1. cbn [snd]. rewrite S2. cbn [snd].
      change (snd (configure (snd (configure c2 (Set_periodic px py pz))) (Set_neighborhood n))) with c4. rewrite S5. reflexivity.
    + injection E as <- E. destruct pre; discriminate.
Qed.
End Config.
Print Assumptions c58_refused_settings_change_nothing.
Print Assumptions c58_initialize_uses_the_settings.
Print Assumptions c46_initialize_works_once.
Print Assumptions c58_length_is_set_once.
Print Assumptions c58_maximum_refinement_level.
Print Assumptions c58_documented_order.

(** after a failed initialize the documented calls do not give a grid any more: for every
    continuation initialize throws and there are no cells *)
Theorem c46_retry_refuted {D} (d0 : D) np :
  exists l, fst (configure d0 np (configure_all d0 np new_grid []) Initialize) = false /\
    fst (configure d0 np (configure_all d0 np new_grid [Initialize]) (Set_length l)) = true /\
    forall rest, let c := configure_all d0 np new_grid (Initialize :: Set_length l :: rest) in
      fst (configure d0 np c Initialize) = false /\ cf_cells c = None.
Proof.
  exists (1, 1, 1). split; [reflexivity|]. split; [vm_compute; reflexivity|].
  intros rest. cbv zeta. pose proof (c46_initialize_works_once d0 np new_grid (Set_length (1, 1, 1) :: rest)) as (A & B & _). cbv zeta in A, B.
  split; [exact A|exact B].
Qed.
Print Assumptions c46_retry_refuted.

(** setters are not refused after initialize: level, periodicity and neighborhood length change
    while cells, lists and neighborhood remain those of the old settings *)
Theorem c46_settings_after_initialize_refuted {D} (d0 : D) :
  exists l, let c := configure_all d0 1 new_grid [Set_length (2, 1, 1); Initialize] in
    let c' := configure_all d0 1 c l in
    (exists st, cf_cells c = Some (Done st)) /\
    (forall pre s post, l = pre ++ s :: post -> fst (configure d0 1 (configure_all d0 1 c pre) s) = true) /\
    m_max (cf_map c') <> m_max (cf_map c) /\ cf_topo c' <> cf_topo c /\ cf_len c' <> cf_len c /\
    cf_cells c' = cf_cells c /\ cf_of c' = cf_of c.
Proof.
  exists [Set_level 1; Set_periodic true true true; Set_neighborhood 0]. cbv zeta.
  set (c := configure_all d0 1 new_grid _).
  assert (exists st, cf_cells c = Some (Done st)) as (st & E) by (eexists; vm_compute; reflexivity).
  assert (cf_map c = Mapping 2 1 1 0 2) as Em by (vm_compute; reflexivity).
  assert (cf_topo c = Topo false false false) as Et by (vm_compute; reflexivity). assert (cf_len c = 1) as Eh by (vm_compute; reflexivity).
  assert (configure d0 1 c (Set_level 1) = (true, Config (Mapping 2 1 1 1 18) (cf_topo c) (cf_len c) (cf_mapped c) (cf_ready c) (cf_of c) (cf_cells c))) as E1.
  { cbn [configure]. unfold set_level. rewrite Em. change (1 <? 0) with false. cbv iota.
    replace (set_maximum_refinement_level (Mapping 2 1 1 0 2) 1) with (true, Mapping 2 1 1 1 18) by (vm_compute; reflexivity). reflexivity. }
  split; [exists st; exact E|]. split.
  - intros pre s post Ep.
    destruct pre as [|? pre]; [injection Ep as <- _; cbn [configure_all]; rewrite E1; reflexivity|injection Ep as <- Ep].
    destruct pre as [|? pre]; [injection Ep as <- _; reflexivity|injection Ep as <- Ep].
    destruct pre as [|? pre]; [injection Ep as <- _; reflexivity|injection Ep as <- Ep]. destruct pre; discriminate.
  - cbn [configure_all]. rewrite E1. cbn [snd configure set_periodic set_neighborhood_length cf_map cf_topo cf_len cf_cells cf_of].
    rewrite Em, Et, Eh. cbn. repeat split; discriminate.
Qed.
Print Assumptions c46_settings_after_initialize_refuted.

(** a case of c58_documented_order and of c58_initialize_uses_the_settings *)
Example documented_order_case : 0 < 4 /\ 0 <= 2 /\ DblProps.total (4 * 3 * 1) 2 <= W - 2 ^ 13.
Proof. rewrite W_val. vm_compute. intuition discriminate. Qed.
Example settings_case :
  let l := [Set_length (0, 1, 1); Set_periodic true false false; Set_length (3, 2, 1); Set_length (9, 9, 9); Set_level 2; Set_level 50; Set_periodic false true false] in
  asked_length l = Some (3, 2, 1) /\ asked_topo l = Topo false true false /\ asked_neighborhood l = 1 /\
  cf_map (configure_all 0 4 new_grid l) = Mapping 3 2 1 2 438.
Proof. vm_compute. repeat split. Qed.

(** ** C47 *)

(** the parts numbers are digits of the rank *)
Definition rest_of (procs : list Z) (rank : Z) : Z := fold_left Z.modulo procs rank.
Fixpoint parts (procs : list Z) (rank : Z) : list Z :=
  match procs with [] => [] | n :: r => rank / n :: parts r (rank mod n) end.
Fixpoint weigh (procs ps : list Z) : Z :=
  match procs, ps with n :: r, p :: q => n * p + weigh r q | _, _ => 0 end.
Lemma part_loop_parts procs : forall k rank, (k < List.length procs)%nat -> part_loop procs k rank = nth k (parts procs rank) (-1).
Proof.
  induction procs as [|n r IH]; intros k rank H; [cbn in H; lia|]. destruct k; cbn [part_loop parts nth]; [reflexivity|].
  apply IH. cbn in H. lia.
Qed.
Lemma parts_length procs : forall rank, List.length (parts procs rank) = List.length procs.
Proof. induction procs as [|n r IH]; intros rank; cbn; [reflexivity|]. rewrite IH. reflexivity. Qed.
Lemma weigh_parts procs : forall rank, (forall n, In n procs -> 0 < n) -> rank = weigh procs (parts procs rank) + rest_of procs rank.
Proof.
  induction procs as [|n r IH]; intros rank H; [reflexivity|]. cbn [parts weigh]. unfold rest_of. cbn [fold_left]. fold (rest_of r (rank mod n)).
  assert (0 < n) by (apply H; left; reflexivity). pose proof (Z.div_mod rank n ltac:(lia)). rewrite <- Z.add_assoc, <- IH by (intros x Hx; apply H; right; exact Hx). lia.
Qed.
Lemma rest_bound procs : forall rank n, (forall x, In x procs -> 0 < x) -> 0 <= rank -> In n procs -> 0 <= rest_of procs rank < n.
Proof.
  induction procs as [|n0 r IH]; intros rank n H Hr Hn; [destruct Hn|]. unfold rest_of. cbn [fold_left]. fold (rest_of r (rank mod n0)).
  assert (0 < n0) by (apply H; left; reflexivity). pose proof (Z.mod_pos_bound rank n0 ltac:(lia)) as B.
  assert (forall q, 0 <= q -> 0 <= rest_of r q <= q) as Le.
  { clear -H. assert (forall x, In x r -> 0 < x) as Hr by (intros x Hx; apply H; right; exact Hx). clear H. induction r as [|a r IH]; intros q Hq; [cbn; lia|].
    unfold rest_of. cbn [fold_left]. fold (rest_of r (q mod a)). assert (0 < a) by (apply Hr; left; reflexivity).
    pose proof (Z.mod_pos_bound q a ltac:(lia)). pose proof (Z.mod_le q a Hq ltac:(lia)). specialize (IH (fun x Hx => Hr x (or_intror Hx)) (q mod a) ltac:(lia)). lia. }
  destruct Hn as [<-|Hn]; [specialize (Le (rank mod n0) ltac:(lia)); lia|]. apply IH; [intros x Hx; apply H; right; exact Hx|lia|assumption].
Qed.

(** levels that can be made by calls *)
Definition well_formed (p : partitioning) : Prop :=
  List.length (pt_options p) = List.length (pt_procs p) /\ (forall n, In n (pt_procs p) -> 0 < n) /\
  (forall o, In o (pt_options p) -> NoDup (map fst o) /\ forall name, In name (map fst o) -> reserved name = false).

Lemma in_remove_nth {A} (x : A) : forall n l, In x (remove_nth n l) -> In x l.
Proof.
  intros n l. unfold remove_nth. rewrite in_app_iff. intros [H|H].
  - rewrite <- (firstn_skipn n l). apply in_or_app. left. exact H.
  - rewrite <- (firstn_skipn (S n) l). apply in_or_app. right. exact H.
Qed.
Lemma remove_nth_length {A} n (l : list A) : (n < List.length l)%nat -> List.length (remove_nth n l) = (List.length l - 1)%nat.
Proof. intros H. unfold remove_nth. rewrite app_length, firstn_length, skipn_length. lia. Qed.
Lemma update_nth_length {A} n (f : A -> A) l : List.length (update_nth n f l) = List.length l.
Proof.
  unfold update_nth. destruct (nth_error l n) eqn:E; [|reflexivity]. assert (n < List.length l)%nat by (apply nth_error_Some; congruence).
  rewrite app_length, firstn_length. cbn [List.length]. rewrite skipn_length. lia.
Qed.
Lemma nth_error_update {A} n (f : A -> A) : forall l k, nth_error (update_nth n f l) k = if Nat.eqb k n then option_map f (nth_error l k) else nth_error l k.
Proof.
  intros l k. unfold update_nth. destruct (nth_error l n) as [x|] eqn:E.
  - assert (n < List.length l)%nat by (apply nth_error_Some; congruence).
    destruct (Nat.eqb_spec k n) as [->|N].
    + rewrite nth_error_app2 by (rewrite firstn_length; lia). rewrite firstn_length. replace (n - Nat.min n (List.length l))%nat with 0%nat by lia. rewrite E. reflexivity.
    + clear H. revert n k E N. induction l as [|a l IH]; intros n k E N; [destruct n; discriminate|].
      destruct n; destruct k; cbn [firstn skipn app nth_error]; [congruence|reflexivity|reflexivity|]. apply (IH n k E). congruence.
  - destruct (Nat.eqb_spec k n) as [->|N]; [rewrite E|]; reflexivity.
Qed.
Lemma nth_error_remove {A} n : forall (l : list A) k, nth_error (remove_nth n l) k = nth_error l (if (k <? n)%nat then k else S k).
Proof.
  induction n as [|n IH]; intros l k.
  - unfold remove_nth. cbn [firstn app]. destruct l; [destruct k; reflexivity|]. reflexivity.
  - destruct l as [|a l]; [unfold remove_nth; cbn [firstn skipn app]; destruct (k <? S n)%nat; destruct k; reflexivity|].
    unfold remove_nth in *. cbn [firstn skipn app]. destruct k; [reflexivity|]. cbn [nth_error]. rewrite IH. change (S k <? S n)%nat with (k <? n)%nat. destruct (k <? n)%nat; reflexivity.
Qed.
Lemma keys_erase name o : map fst (erase name o) = filter (fun n => negb (String.eqb n name)) (map fst o).
Proof. unfold erase. induction o as [|[n v] o IH]; cbn; [reflexivity|]. destruct (String.eqb n name); cbn; rewrite IH; reflexivity. Qed.
Lemma nodup_erase name o : NoDup (map fst o) -> NoDup (map fst (erase name o)).
Proof. intros H. rewrite keys_erase. apply NoDup_filter. assumption. Qed.
Lemma nodup_assign name v o : NoDup (map fst o) -> NoDup (map fst (assign name v o)).
Proof.
  intros H. cbn. constructor; [|apply nodup_erase; assumption]. rewrite keys_erase, filter_In, String.eqb_refl. intros [_ E]. discriminate.
Qed.
Lemma lookup_erase name n o : lookup n (erase name o) = if String.eqb n name then None else lookup n o.
Proof.
  induction o as [|[x v] o IH]; [destruct (String.eqb n name); reflexivity|]. cbn [erase filter fst]. fold (erase name o).
  destruct (String.eqb_spec x name) as [->|N]; cbn [negb].
  - rewrite IH. cbn [lookup]. destruct (String.eqb_spec n name) as [->|N']; [reflexivity|]. destruct (String.eqb_spec name n); [congruence|reflexivity].
  - cbn [lookup]. rewrite IH. destruct (String.eqb_spec x n) as [->|N']; [|reflexivity]. destruct (String.eqb_spec n name); [congruence|reflexivity].
Qed.
Lemma lookup_assign name v n o : lookup n (assign name v o) = if String.eqb n name then Some v else lookup n o.
Proof.
  unfold assign. cbn [lookup]. rewrite lookup_erase. destruct (String.eqb_spec name n) as [->|N]; [rewrite String.eqb_refl; reflexivity|].
  destruct (String.eqb_spec n name); [congruence|reflexivity].
Qed.
Lemma lookup_in n o : lookup n o <> None <-> In n (map fst o).
Proof.
  induction o as [|[x v] o IH]; cbn; [tauto|]. destruct (String.eqb_spec x n) as [->|N]; [split; [auto|discriminate]|]. rewrite IH. intuition congruence.
Qed.
Lemma wf_step p c : well_formed p -> well_formed (part_step p c).
Proof.
  intros (L & P & O). destruct c as [n|l|l name v|l name]; cbn [part_step].
  - unfold add_partitioning_level. destruct (Z.ltb_spec n 1); [exact (conj L (conj P O))|]. cbn [snd]. split; [|split]; cbn.
    + rewrite !app_length. cbn. lia.
    + intros x Hx. apply in_app_iff in Hx. destruct Hx as [Hx|[<-|[]]]; [auto|lia].
    + intros o Ho. apply in_app_iff in Ho. destruct Ho as [Ho|[<-|[]]]; [auto|]. split.
      * apply nodup_assign, nodup_assign. constructor.
      * intros x Hx. vm_compute in Hx. destruct Hx as [<-|[<-|[]]]; reflexivity.
  - unfold remove_partitioning_level. destruct (no_such_level p l) eqn:E; [exact (conj L (conj P O))|]. unfold no_such_level in E.
    split; [|split]; cbn.
    + rewrite !remove_nth_length by lia. lia.
    + intros x Hx. apply P. eapply in_remove_nth; exact Hx.
    + intros o Ho. apply O. eapply in_remove_nth; exact Ho.
  - unfold add_partitioning_option. destruct (no_such_level p l); [exact (conj L (conj P O))|]. destruct (reserved name) eqn:R; [exact (conj L (conj P O))|].
    cbn [snd]. split; [|split]; cbn [pt_options pt_procs]; [rewrite update_nth_length; exact L|exact P|].
    intros o Ho. apply In_nth_error in Ho. destruct Ho as (k & Hk). rewrite nth_error_update in Hk.
    destruct (Nat.eqb k (Z.to_nat l)); [|apply O; eapply nth_error_In; exact Hk].
    destruct (nth_error (pt_options p) k) as [o0|] eqn:Eo; [|discriminate]. injection Hk as <-. apply nth_error_In, O in Eo. destruct Eo as [N R0].
    split; [apply nodup_assign; assumption|]. intros x [<-|Hx]; [exact R|]. rewrite keys_erase in Hx. apply filter_In in Hx. apply R0. tauto.
  - unfold remove_partitioning_option. destruct (no_such_level p l); [exact (conj L (conj P O))|].
    split; [|split]; cbn [pt_options pt_procs]; [rewrite update_nth_length; exact L|exact P|].
    intros o Ho. apply In_nth_error in Ho. destruct Ho as (k & Hk). rewrite nth_error_update in Hk.
    destruct (Nat.eqb k (Z.to_nat l)); [|apply O; eapply nth_error_In; exact Hk].
    destruct (nth_error (pt_options p) k) as [o0|] eqn:Eo; [|discriminate]. injection Hk as <-. apply nth_error_In, O in Eo. destruct Eo as [N R0].
    split; [apply nodup_erase; assumption|]. intros x Hx. rewrite keys_erase in Hx. apply filter_In in Hx. apply R0. tauto.
Qed.
Lemma wf_run l : well_formed (part_run no_partitioning l).
Proof.
  induction l as [|c l IH] using rev_ind.
  - split; [reflexivity|split]; intros ? [].
  - unfold part_run. rewrite fold_left_app. cbn [fold_left]. apply wf_step, IH.
Qed.

(** ranks and part numbers: the rank is the sum of the part numbers times the numbers of
    processes plus a rest smaller than each of them, so that ranks with equal part numbers differ
    by less than the smallest number; with a level of one process per part they are equal *)
Theorem c47_part_numbers calls rank rank' :
  let p := part_run no_partitioning calls in let n := get_number_of_load_balancing_hierarchies p in
  0 <= rank -> 0 <= rank' ->
  (forall l, 0 <= l < n -> get_part_number p rank l = get_part_number p rank' l) ->
  (forall k, In k (pt_procs p) -> Z.abs (rank - rank') < k) /\ (In 1 (pt_procs p) -> rank = rank').
Proof.
  cbv zeta. destruct (wf_run calls) as (L & P & _). set (p := part_run no_partitioning calls) in *.
  intros H H' E. assert (parts (pt_procs p) rank = parts (pt_procs p) rank') as Ep.
  { apply nth_ext with (d := -1) (d' := -1); [rewrite !parts_length; reflexivity|]. intros k Hk. rewrite parts_length in Hk.
    specialize (E (Z.of_nat k)). unfold get_number_of_load_balancing_hierarchies, get_part_number, no_such_level in E.
    specialize (E ltac:(lia)). replace ((Z.of_nat k <? 0) || _) with false in E by lia. rewrite Nat2Z.id, !part_loop_parts in E by assumption. exact E. }
  assert (forall k, In k (pt_procs p) -> Z.abs (rank - rank') < k) as A.
  { intros k Hk. pose proof (weigh_parts (pt_procs p) rank P). pose proof (weigh_parts (pt_procs p) rank' P). rewrite <- Ep in *.
    pose proof (rest_bound (pt_procs p) rank k P H Hk). pose proof (rest_bound (pt_procs p) rank' k P H' Hk). lia. }
  split; [exact A|]. intros H1. specialize (A 1 H1). lia.
Qed.
Print Assumptions c47_part_numbers.

(** with numbers of processes that divide each other, processes of the same parts up to a level
    are exactly the blocks of that many consecutive ranks *)
Lemma parts_block procs : forall k rank rank', (forall n, In n procs -> 0 < n) -> 0 <= rank -> 0 <= rank' ->
  (forall i a b, nth_error procs i = Some a -> nth_error procs (S i) = Some b -> (b | a)) ->
  forall n, nth_error procs k = Some n ->
  ((forall i, (i <= k)%nat -> part_loop procs i rank = part_loop procs i rank') <-> rank / n = rank' / n).
Proof.
  induction procs as [|n0 r IH]; intros k rank rank' P H H' Dv n Hn; [destruct k; discriminate|].
  assert (0 < n0) as P0 by (apply P; left; reflexivity).
  destruct k as [|k].
  - injection Hn as <-. split; [intros E; exact (E 0%nat (Nat.le_refl _))|]. intros E i Hi. replace i with 0%nat by lia. exact E.
  - cbn in Hn. assert (0 < n) as Pn by (apply P; right; eapply nth_error_In; exact Hn).
    pose proof (Z.mod_pos_bound rank n0 P0). pose proof (Z.mod_pos_bound rank' n0 P0).
    specialize (IH k (rank mod n0) (rank' mod n0) (fun x Hx => P x (or_intror Hx)) ltac:(lia) ltac:(lia) (fun i a b => Dv (S i) a b) n Hn).
    assert (n | n0) as Dn.
    { clear -Dv Hn. revert n0 Dv k Hn. induction r as [|a r IH]; intros n0 Dv k Hn; [destruct k; discriminate|].
      assert (a | n0) as Da by (exact (Dv 0%nat n0 a eq_refl eq_refl)). destruct k; [injection Hn as <-; exact Da|].
      apply Z.divide_trans with a; [|exact Da]. apply (IH a (fun i => Dv (S i)) k Hn). }
    destruct Dn as [q Eq]. assert (0 < q) by nia.
    assert (forall x, x / n = q * (x / n0) + (x mod n0) / n) as Sp.
    { intros x. rewrite (Z.div_mod x n0) at 1 by lia. rewrite Eq at 1. replace (q * n * (x / n0) + x mod n0) with (x mod n0 + (q * (x / n0)) * n) by ring.
      rewrite Z.div_add by lia. lia. }
    split.
    + intros E. rewrite (Sp rank), (Sp rank').
      pose proof (E 0%nat ltac:(lia)) as E0. cbn in E0. rewrite E0. f_equal. apply IH. intros i Hi. exact (E (S i) ltac:(lia)).
    + intros E. assert (rank / n0 = rank' / n0) as E0.
      { rewrite Eq, (Z.mul_comm q n), <- !Z.div_div by lia. rewrite E. reflexivity. }
      intros [|i] Hi; [exact E0|]. apply IH; [|lia]. rewrite (Sp rank), (Sp rank'), E0 in E. lia.
Qed.
Theorem c59_parts_have_the_given_number_of_processes calls rank rank' level n :
  let p := part_run no_partitioning calls in
  0 <= rank -> 0 <= rank' -> 0 <= level -> nth_error (pt_procs p) (Z.to_nat level) = Some n ->
  (forall i a b, nth_error (pt_procs p) i = Some a -> nth_error (pt_procs p) (S i) = Some b -> (b | a)) ->
  ((forall l, 0 <= l <= level -> get_part_number p rank l = get_part_number p rank' l) <-> rank / n = rank' / n).
Proof.
  cbv zeta. destruct (wf_run calls) as (L & P & _). set (p := part_run no_partitioning calls) in *.
  intros H H' Hl Hn Dv. rewrite <- (parts_block (pt_procs p) (Z.to_nat level) rank rank' P H H' Dv n Hn).
  assert (Z.to_nat level < List.length (pt_procs p))%nat as Hk by (apply nth_error_Some; congruence).
  assert (forall l, 0 <= l <= level -> forall r, get_part_number p r l = part_loop (pt_procs p) (Z.to_nat l) r) as G.
  { intros l Hl' r. unfold get_part_number, no_such_level. replace ((l <? 0) || _) with false by lia. reflexivity. }
  split; intros E.
  - intros i Hi. specialize (E (Z.of_nat i) ltac:(lia)). rewrite !G, Nat2Z.id in E by lia. exact E.
  - intros l Hl'. rewrite !G by assumption. apply E. lia.
Qed.
Print Assumptions c59_parts_have_the_given_number_of_processes.

(** without a level of one process per part ranks are not determined by their part numbers *)
Theorem c47_part_numbers_refuted :
  exists calls rank rank', let p := part_run no_partitioning calls in
    rank <> rank' /\ 0 <= rank /\ 0 <= rank' /\ 0 < get_number_of_load_balancing_hierarchies p /\
    forall l, get_part_number p rank l = get_part_number p rank' l.
Proof.
  exists [Add_level 4; Add_level 2], 0, 1. cbv zeta. split; [lia|]. split; [lia|]. split; [lia|]. split; [vm_compute; reflexivity|].
  intros l. unfold get_part_number. destruct (no_such_level _ l) eqn:E; [reflexivity|]. unfold no_such_level in E. cbn in E.
  assert (l = 0 \/ l = 1) as [->| ->] by lia; vm_compute; reflexivity.
Qed.
Print Assumptions c47_part_numbers_refuted.

(** levels and options in all histories: [value] is what get_partitioning_option_value returns and
    [n] the number of levels *)
Theorem c59_levels_and_options calls :
  let p := part_run no_partitioning calls in let n := get_number_of_load_balancing_hierarchies p in
  (forall processes, 1 <= processes ->
     let p' := part_step p (Add_level processes) in
     get_number_of_load_balancing_hierarchies p' = n + 1 /\
     (forall l name, l <> n -> get_partitioning_option_value p' l name = get_partitioning_option_value p l name) /\
     (forall name, get_partitioning_option_value p' n name =
        if String.eqb name "LB_METHOD" then "HYPERGRAPH"%string else if String.eqb name "PHG_CUT_OBJECTIVE" then "CONNECTIVITY"%string else ""%string) /\
     nth_error (pt_procs p') (Z.to_nat n) = Some processes /\ firstn (Z.to_nat n) (pt_procs p') = pt_procs p) /\
  (forall processes, processes < 1 -> add_partitioning_level p processes = (false, p)) /\
  (forall l, let p' := part_step p (Remove_level l) in
     (~ 0 <= l < n -> p' = p) /\
     (0 <= l < n -> get_number_of_load_balancing_hierarchies p' = n - 1 /\
        (forall k name, get_partitioning_option_value p' k name = get_partitioning_option_value p (if k <? l then k else if k <? 0 then k else k + 1) name) /\
        (forall k, 0 <= k -> nth_error (pt_procs p') (Z.to_nat k) = nth_error (pt_procs p) (Z.to_nat (if k <? l then k else k + 1))))) /\
  (forall l name v, let p' := part_step p (Add_option l name v) in
     pt_procs p' = pt_procs p /\
     (reserved name = true \/ ~ 0 <= l < n -> p' = p) /\
     (reserved name = false -> 0 <= l < n -> forall k name', get_partitioning_option_value p' k name' =
        if (k =? l) && String.eqb name' name then v else get_partitioning_option_value p k name')) /\
  (forall l name, let p' := part_step p (Remove_option l name) in
     pt_procs p' = pt_procs p /\
     forall k name', get_partitioning_option_value p' k name' =
        if (k =? l) && String.eqb name' name then ""%string else get_partitioning_option_value p k name') /\
  (forall l, NoDup (get_partitioning_options p l)) /\
  (forall l name, get_partitioning_option_value p l name <> ""%string -> In name (get_partitioning_options p l)) /\
  (forall l name, In name (get_partitioning_options p l) -> 0 <= l < n /\ reserved name = false).
Proof.
  cbv zeta. destruct (wf_run calls) as (L & P & O). set (p := part_run no_partitioning calls) in *. unfold get_number_of_load_balancing_hierarchies.
  assert (forall q k name, List.length (pt_options q) = List.length (pt_procs q) ->
    get_partitioning_option_value q k name = match (if k <? 0 then None else nth_error (pt_options q) (Z.to_nat k)) with
      Some o => match lookup name o with Some v => v | None => EmptyString end | None => EmptyString end) as V.
  { intros q k name Lq. unfold get_partitioning_option_value, no_such_level. destruct (Z.ltb_spec k 0); cbn [orb]; [reflexivity|].
    destruct (Z.leb_spec (Z.of_nat (List.length (pt_procs q))) k).
    - replace (nth_error (pt_options q) (Z.to_nat k)) with (@None option_map_t); [reflexivity|]. symmetry. apply nth_error_None. lia.
    - destruct (nth_error (pt_options q) (Z.to_nat k)) as [o|] eqn:E; [|apply nth_error_None in E; lia].
      replace (nth (Z.to_nat k) (pt_options q) []) with o by (symmetry; apply nth_error_nth; exact E). reflexivity. }
  split; [|split; [|split; [|split; [|split; [|split; [|split]]]]]].
  - intros processes Hp. pose proof (wf_step p (Add_level processes) (conj L (conj P O))) as (L' & _).
    cbn [part_step] in *. unfold add_partitioning_level in *. replace (processes <? 1) with false in * by lia. cbn [snd pt_procs pt_options] in *.
    split; [rewrite app_length; cbn; lia|]. split; [|split; [|split]].
    + intros l name Hl. rewrite !V by assumption. destruct (Z.ltb_spec l 0); [reflexivity|]. cbn [pt_options].
      destruct (Nat.lt_ge_cases (Z.to_nat l) (List.length (pt_options p))) as [Hk|Hk]; [rewrite nth_error_app1 by assumption; reflexivity|].
      replace (nth_error (pt_options p) (Z.to_nat l)) with (@None option_map_t) by (symmetry; apply nth_error_None; assumption).
      replace (nth_error (pt_options p ++ [default_options]) (Z.to_nat l)) with (@None option_map_t); [reflexivity|]. symmetry. apply nth_error_None.
      rewrite app_length. cbn. lia.
    + intros name. rewrite V by assumption. replace (_ <? 0) with false by lia. cbn [pt_options]. rewrite Nat2Z.id, nth_error_app2 by lia.
      rewrite L, Nat.sub_diag. cbn [nth_error]. unfold default_options. rewrite !lookup_assign. cbn [lookup].
      destruct (String.eqb_spec name "PHG_CUT_OBJECTIVE") as [->|]; [reflexivity|]. destruct (String.eqb_spec name "LB_METHOD") as [->|]; reflexivity.
    + rewrite Nat2Z.id, nth_error_app2, Nat.sub_diag by lia. reflexivity.
    + rewrite Nat2Z.id, firstn_app, Nat.sub_diag, firstn_all. cbn. apply app_nil_r.
  - intros processes Hp. unfold add_partitioning_level. replace (processes <? 1) with true by lia. reflexivity.
  - intros l. pose proof (wf_step p (Remove_level l) (conj L (conj P O))) as (L' & _). cbn [part_step] in *. unfold remove_partitioning_level in *.
    destruct (no_such_level p l) eqn:E; unfold no_such_level in E; [split; [reflexivity|lia]|].
    split; [lia|]. intros Hl. cbn [pt_procs]. split; [rewrite remove_nth_length by lia; lia|]. split.
    + intros k name. rewrite !V by assumption. cbn [pt_options]. rewrite nth_error_remove.
      destruct (Z.ltb_spec k l); [|destruct (Z.ltb_spec k 0); [lia|]].
      * destruct (Z.ltb_spec k 0); [reflexivity|]. replace (Z.to_nat k <? Z.to_nat l)%nat with true by (symmetry; apply Nat.ltb_lt; lia). reflexivity.
      * replace (k + 1 <? 0) with false by lia. replace (Z.to_nat k <? Z.to_nat l)%nat with false by (symmetry; apply Nat.ltb_ge; lia).
        replace (Z.to_nat (k + 1)) with (S (Z.to_nat k)) by lia. reflexivity.
    + intros k Hk. rewrite nth_error_remove. destruct (Z.ltb_spec k l).
      * replace (Z.to_nat k <? Z.to_nat l)%nat with true by (symmetry; apply Nat.ltb_lt; lia). reflexivity.
      * replace (Z.to_nat k <? Z.to_nat l)%nat with false by (symmetry; apply Nat.ltb_ge; lia). f_equal. lia.
  - intros l name v. pose proof (wf_step p (Add_option l name v) (conj L (conj P O))) as (L' & _). cbn [part_step] in *. unfold add_partitioning_option in *.
    destruct (no_such_level p l) eqn:E; unfold no_such_level in E; [split; [reflexivity|split; [reflexivity|lia]]|].
    destruct (reserved name) eqn:R; [split; [reflexivity|split; [reflexivity|discriminate]]|]. cbn [snd pt_procs] in *. split; [reflexivity|]. split; [lia || intuition (discriminate || lia)|].
    intros _ Hl k name'. rewrite !V by assumption. cbn [pt_options]. rewrite nth_error_update.
    destruct (Z.eqb_spec k l) as [->|N]; cbn [andb].
    + rewrite Nat.eqb_refl. replace (l <? 0) with false by lia. destruct (nth_error (pt_options p) (Z.to_nat l)) as [o|] eqn:Eo; [|apply nth_error_None in Eo; lia].
      cbn [option_map]. rewrite lookup_assign. destruct (String.eqb name' name); reflexivity.
    + destruct (Z.ltb_spec k 0); [reflexivity|]. replace (Nat.eqb (Z.to_nat k) (Z.to_nat l)) with false by (symmetry; apply Nat.eqb_neq; lia). reflexivity.
  - intros l name. pose proof (wf_step p (Remove_option l name) (conj L (conj P O))) as (L' & _). cbn [part_step] in *. unfold remove_partitioning_option in *.
    destruct (no_such_level p l) eqn:E; unfold no_such_level in E.
    + split; [reflexivity|]. intros k name'. destruct (Z.eqb_spec k l) as [->|N]; [|reflexivity]. cbn [andb]. destruct (String.eqb name' name); [|reflexivity].
      unfold get_partitioning_option_value, no_such_level. rewrite E. reflexivity.
    + cbn [pt_procs] in *. split; [reflexivity|].
      intros k name'. rewrite !V by assumption. cbn [pt_options]. rewrite nth_error_update.
      destruct (Z.eqb_spec k l) as [->|N]; cbn [andb].
      * rewrite Nat.eqb_refl. replace (l <? 0) with false by lia. destruct (nth_error (pt_options p) (Z.to_nat l)) as [o|] eqn:Eo; [|apply nth_error_None in Eo; lia].
        cbn [option_map]. rewrite lookup_erase. destruct (String.eqb name' name); reflexivity.
      * destruct (Z.ltb_spec k 0); [reflexivity|]. replace (Nat.eqb (Z.to_nat k) (Z.to_nat l)) with false by (symmetry; apply Nat.eqb_neq; lia). reflexivity.
  - intros l. unfold get_partitioning_options. destruct (no_such_level p l) eqn:E; [constructor|]. unfold no_such_level in E. apply O, nth_In. lia.
  - intros l name. unfold get_partitioning_options, get_partitioning_option_value. destruct (no_such_level p l); [intros H; exfalso; apply H; reflexivity|].
    intros H. apply lookup_in. intros E. rewrite E in H. apply H. reflexivity.
  - intros l name. unfold get_partitioning_options. destruct (no_such_level p l) eqn:E; [intros []|]. unfold no_such_level in E. intros H. split; [lia|].
    refine (proj2 (O _ _) name H). apply nth_In. lia.
Qed.
Print Assumptions c59_levels_and_options.

(** Zoltan is given exactly the options of the level *)
Theorem c59_options_given_to_zoltan calls level name :
  let p := part_run no_partitioning calls in
  match set_partitioning_options p level with
  | Some o => 0 <= level < get_number_of_load_balancing_hierarchies p /\
      match lookup name o with Some v => get_partitioning_option_value p level name = v | None => get_partitioning_option_value p level name = ""%string end
  | None => ~ 0 <= level < get_number_of_load_balancing_hierarchies p
  end.
Proof.
  cbv zeta. destruct (wf_run calls) as (L & P & O). set (p := part_run no_partitioning calls) in *.
  unfold set_partitioning_options, get_partitioning_option_value, get_number_of_load_balancing_hierarchies.
  destruct (no_such_level p level) eqn:E; unfold no_such_level in E; [lia|].
  destruct (nth_error (pt_options p) (Z.to_nat level)) as [o|] eqn:Eo; [|apply nth_error_None in Eo; lia].
  split; [lia|]. replace (nth (Z.to_nat level) (pt_options p) []) with o by (symmetry; apply nth_error_nth; exact Eo). destruct (lookup name o); reflexivity.
Qed.
Print Assumptions c59_options_given_to_zoltan.

Example part_case : let p := part_run no_partitioning [Add_level 12; Add_level 0; Add_level 5; Add_level 4; Remove_level 1; Add_level 1; Add_option 1 "LB_METHOD" "RCB"; Remove_option 1 "PHG_CUT_OBJECTIVE"; Add_option 0 "RETURN_LISTS" "NONE"] in
  pt_procs p = [12; 4; 1] /\ map (get_part_number p 23) [0; 1; 2; 3] = [1; 2; 3; -1] /\
  get_partitioning_option_value p 1 "LB_METHOD" = "RCB"%string /\ get_partitioning_options p 1 = ["LB_METHOD"%string].
Proof. vm_compute. repeat split. Qed.
