(** How the advection program of /repo/tests/advection chooses the cells to refine and to unrefine:
    check_for_adaptation and the calls of adapt_grid in adapter.hpp.  Numbers are exact rationals. *)
From Verif Require Import U64 MapModel MapSpec MapProofs HoodModel MeshModel
  MeshSpec MeshBase HoodProps Sets RefineModel BalanceModel Create History CommModel CommInv CommProps CommViews ProgramModel AdvectModel.
From Coq Require Import QArith Qcanon Qcabs.
Open Scope Z_scope.

(** ** Relative differences *)
(** adapter.hpp:75-94.  Lengths are in indices, o is the offset of the neighbor: "skip non-face neighbors" *)
Definition level_with (cl nl : Z) (o : idx) (k i j : dim) : bool :=
  ((get o k =? cl) || (get o k =? - nl)) && ((get o i =? 0) && (get o j =? 0)).
Definition aligned (cl nl : Z) (o : idx) : bool :=
  level_with cl nl o DX DY DZ || level_with cl nl o DY DX DZ || level_with cl nl o DZ DX DY.
(** adapter.hpp:96-98.  Division by zero gives 0 here and infinity or NaN in the code. *)
Definition rel_diff (thr a b : Qc) : Qc := (Qcabs (a - b) / (qmin a b + thr))%Qc.
(** std::max returns the first argument unless it is smaller *)
Definition qltb (a b : Qc) : bool := negb (qleb b a).
Definition qmax (a b : Qc) : Qc := if qltb a b then b else a.
(** the member max_diff of cells *)
Definition diffs : Type := Z -> Qc.
Definition raise (s : diffs) (c : Z) (q : Qc) : diffs := fun y => if y =? c then qmax q (s c) else s y.
(** the body of the loop over neighbors, adapter.hpp:74-106.  None when a null pointer would be used. *)
Definition compare_one (m : mapping) (here : Z -> bool) (thr : Qc) (d : memory) (c : Z) (s : option diffs) (e : Z * idx) : option diffs :=
  match s with
  | None => None
  | Some s =>
    let n := fst e in
    if aligned (get_cell_length_in_indices m c) (get_cell_length_in_indices m n) (snd e) then
      match d c, d n with
      | Some a, Some b =>
        let q := rel_diff thr (rho a) (rho b) in
        let s1 := raise s c q in
        Some (if here n then raise s1 n q else s1)
      | _, _ => None
      end
    else Some s
  end.
(** adapter.hpp:65-107 for the local cells l; max_diff of cells starts with [old] *)
Definition differences (m : mapping) (here : Z -> bool) (thr : Qc) (d : memory) (v : views) (old : diffs) : option diffs :=
  fold_left (fun s i => fold_left (compare_one m here thr d (i_id i)) (view_of v i) s) (view_local v)
    (Some (fun c => if mem c (map i_id (view_local v)) then 0%Qc else old c)).

(** ** What to do with a cell *)
Inductive verdict := Up | Keep | Down.
(** adapter.hpp:112-117, 127-161 *)
Definition judge (inc sens : Qc) (level : Z) (diff : Qc) : verdict :=
  let refine_diff := (Q2Qc (inject_Z (level + 1)) * inc)%Qc in
  let unrefine_diff := (sens * refine_diff)%Qc in
  if qltb refine_diff diff then Up else if qleb unrefine_diff diff then Keep else Down.

(** ** The three sets *)
Record picks := Picks { to_refine : list Z; not_to_unrefine : list Z; to_unrefine : list Z }.
(** adapter.hpp:142-150, 163-171: no sibling is in the first two sets *)
Definition unclaimed (s : picks) (sib : list Z) : bool := negb (existsb (fun x => mem x (to_refine s) || mem x (not_to_unrefine s)) sib).
(** adapter.hpp:110-177 for one cell; None when abort() is called *)
Definition decide (m : mapping) (f : Z -> verdict) (s : option picks) (c : Z) : option picks :=
  match s with
  | None => None
  | Some s =>
    let sib := get_siblings m c in
    if hd error_cell sib =? error_cell then None
    else Some match f c with
    | Up => Picks (adds c (to_refine s)) (delall sib (not_to_unrefine s)) (delall sib (to_unrefine s))
    | Keep =>
      if unclaimed s sib && (0 <? get_refinement_level m c)
      then Picks (to_refine s) (adds c (not_to_unrefine s)) (delall sib (to_unrefine s)) else s
    | Down =>
      if unclaimed s sib && (0 <? get_refinement_level m c)
      then Picks (to_refine s) (not_to_unrefine s) (adds c (to_unrefine s)) else s
    end
  end.
Definition choose (m : mapping) (f : Z -> verdict) (l : list Z) : option picks := fold_left (decide m f) l (Some (Picks [] [] [])).

(** ** check_for_adaptation on process p: adapter.hpp:47-178 with the default neighborhood.
    [before] are the sets given to it, [old] the earlier values of max_diff. *)
Definition check_for_adaptation (g : grid) (x : xstate (D := fluid)) (inc thr sens : Qc) (p : Z) (old : diffs) (before : picks) : option picks :=
  let m := g_map g in
  if m_max m =? 0 then Some before
  else match iterators g x default_neighborhood_id p with
  | Done v =>
    match differences m (fun c => has c (s_data (p_store (x_st x p)))) thr (read x p) v old with
    | Some s => choose m (fun c => judge inc sens (get_refinement_level m c) (s c)) (map i_id (view_local v))
    | None => None
    end
  | _ => None
  end.
(** ** The requests of adapt_grid on process p: adapter.hpp:194-223.  The order of an unordered_set is unknown:
    this gives the calls in one order and theorems are about all orders. *)
Definition requests_of (g : grid) (p : Z) (s : picks) : list (call (D := fluid)) :=
  if m_max (g_map g) =? 0 then []
  else map (Refine p) (to_refine s) ++ map (DontUnrefine p) (not_to_unrefine s) ++ map (Unrefine p) (to_unrefine s).

(** ** The same as seen from one cell *)
(** the largest difference to a neighbor that counts *)
Definition steepest (m : mapping) (thr : Qc) (c : Z) (d : fluid) (ns : list (seen fluid)) : Qc :=
  fold_right (fun e q => if aligned (get_cell_length_in_indices m c) (get_cell_length_in_indices m (fst (fst e))) (snd (fst e))
    then qmax (rel_diff thr (rho d) (rho (snd e))) q else q) 0%Qc ns.
(** a criterion for [Adapt] of ProgramModel: every cell asks for itself *)
Definition want_of (v : verdict) : want := match v with Up => ToRefine | Keep => ToHold | Down => ToUnrefine end.
Definition criterion (m : mapping) (inc thr sens : Qc) (c : Z) (d : fluid) (ns : list (seen fluid)) : list want :=
  [want_of (judge inc sens (get_refinement_level m c) (steepest m thr c d ns))].
