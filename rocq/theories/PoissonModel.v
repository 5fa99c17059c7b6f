(** The solver of the Poisson equation in /repo/tests/poisson/poisson_solve.hpp: classification of cells,
    geometric factors, biconjugate gradient iteration and the iteration of solve_failsafe, on all processes.
    Definitions only.  Numbers are exact rationals: the rounding of doubles is not modelled.  Pointers to the data of
    cells are ids of cells, to be looked up in the memory of the process; that the pointers stay valid while the grid
    does not change is C76.  Output (verbose) is left out. *)
From Verif Require Import U64 MapModel MapSpec HoodModel MeshModel MeshFace Sets RefineModel CommModel Stages AdvectModel.
From Coq Require Import QArith Qcanon.
Open Scope Z_scope.

(** poisson_solve.hpp:70-83: scaling_factor, f_x_pos, f_x_neg, ..., f_z_neg *)
Record geom := Geom { g_scale : Qc; g_xp : Qc; g_xn : Qc; g_yp : Qc; g_yn : Qc; g_zp : Qc; g_zn : Qc }.
(** poisson_solve.hpp:47-86 *)
Record pcell := PCell { rhs : Qc; sol : Qc; best : Qc; p0 : Qc; p1 : Qc; r0 : Qc; r1 : Qc; ap0 : Qc; geo : geom; kind : Z }.
Definition scale (d : pcell) : Qc := g_scale (geo d).
(** poisson_solve.hpp:144-150 *)
Definition solve_cell : Z := 0.
Definition boundary_cell : Z := 1.
Definition skip_cell : Z := 2.

Definition set_kind (d : pcell) (k : Z) : pcell := PCell (rhs d) (sol d) (best d) (p0 d) (p1 d) (r0 d) (r1 d) (ap0 d) (geo d) k.
Definition set_geo (d : pcell) (q : geom) : pcell := PCell (rhs d) (sol d) (best d) (p0 d) (p1 d) (r0 d) (r1 d) (ap0 d) q (kind d).
Definition set_sol (d : pcell) (v : Qc) : pcell := PCell (rhs d) v (best d) (p0 d) (p1 d) (r0 d) (r1 d) (ap0 d) (geo d) (kind d).
Definition set_best (d : pcell) (v : Qc) : pcell := PCell (rhs d) (sol d) v (p0 d) (p1 d) (r0 d) (r1 d) (ap0 d) (geo d) (kind d).
Definition set_p (d : pcell) (u v : Qc) : pcell := PCell (rhs d) (sol d) (best d) u v (r0 d) (r1 d) (ap0 d) (geo d) (kind d).
Definition set_r0 (d : pcell) (v : Qc) : pcell := PCell (rhs d) (sol d) (best d) (p0 d) (p1 d) v (r1 d) (ap0 d) (geo d) (kind d).
Definition set_r1 (d : pcell) (v : Qc) : pcell := PCell (rhs d) (sol d) (best d) (p0 d) (p1 d) (r0 d) v (ap0 d) (geo d) (kind d).
Definition set_ap0 (d : pcell) (v : Qc) : pcell := PCell (rhs d) (sol d) (best d) (p0 d) (p1 d) (r0 d) (r1 d) v (geo d) (kind d).

(** ** Transfers: poisson_solve.hpp:88-140 *)
Inductive switch := SOLVING | GEOMETRY | INIT | TYPE.
(** what the receiver has after a message *)
Definition absorbed (s : switch) (from to : pcell) : pcell :=
  match s with
  | SOLVING => set_p to (p0 from) (p1 from)
  | GEOMETRY => set_geo to (geo from)
  | INIT => set_sol to (sol from)
  | TYPE => set_kind to (kind from)
  end.
(** the data that a process can reach with grid[cell] *)
Definition memory : Type := Z -> option pcell.
Definition put (s : memory) (c : Z) (d : pcell) : memory := fun y => if y =? c then Some d else s y.
Definition world : Type := Z -> memory.
(** update_copies_of_remote_neighbors as seen by the program: every copy receives from the process that has the cell.
    PoissonRun.v proves that the calls of the library do this. *)
Definition exchange (owner : Z -> option Z) (s : switch) (w : world) : world := fun r c =>
  match w r c, owner c with
  | Some d, Some q => if q =? r then Some d else match w q c with Some e => Some (absorbed s e d) | None => Some d end
  | x, _ => x
  end.

(** ** Factors *)
(** poisson_solve.hpp:303-330 and the same switch at 434-459, 576-601 and 1002-1027; abort() for other directions *)
Definition factor (q : geom) (dir : Z) : Qc :=
  if dir =? 1 then g_xp q else if dir =? -1 then g_xn q else if dir =? 2 then g_yp q else if dir =? -2 then g_yn q
  else if dir =? 3 then g_zp q else if dir =? -3 then g_zn q else 0%Qc.
Definition two : Qc := Q2Qc (2 # 1).
Definition four : Qc := Q2Qc (4 # 1).
(** poisson_solve.hpp:332-335, 461-464, 603-606, 1029-1033 *)
Definition shared (f : Qc) (finer : bool) : Qc := if finer then (f / four)%Qc else f.

Section Factors.
(** grid.geometry.get_length *)
Context (len : Z -> dim -> Qc).
Notation half c k := (len c k / two)%Qc.
(** neigh_pos_x_offset, ...: poisson_solve.hpp:710-762; the last neighbor of a direction decides *)
Definition offset (c : Z) (ns : list (Z * Z)) (k : dim) (pos : bool) : Qc :=
  fold_left (fun a e => if snd e =? dir_code k pos
      then (if pos then half c k + half (fst e) k else - (1) * (half c k + half (fst e) k))%Qc else a)
    ns (if pos then two * half c k else - two * half c k)%Qc.
(** poisson_solve.hpp:764-767 *)
Definition total_offset (c : Z) (ns : list (Z * Z)) (k : dim) : Qc := (offset c ns k true - offset c ns k false)%Qc.
(** poisson_solve.hpp:769-807 *)
Definition face_factor (c : Z) (ns : list (Z * Z)) (k : dim) (pos : bool) : Qc :=
  if existsb (fun e => snd e =? dir_code k pos) ns
  then (if pos then two / (offset c ns k pos * total_offset c ns k) else - two / (offset c ns k pos * total_offset c ns k))%Qc
  else 0%Qc.
(** set_scaling_factor: poisson_solve.hpp:690-819 *)
Definition factors (c : Z) (ns : list (Z * Z)) : geom :=
  let f := face_factor c ns in
  Geom (- f DX true - f DX false - f DY true - f DY false - f DZ true - f DZ false)%Qc
    (f DX true) (f DX false) (f DY true) (f DY false) (f DZ true) (f DZ false).
End Factors.

(** ** cache_system_info *)
(** cell_info: a cell with its neighbors, their directions and whether they are smaller (relative refinement level > 0) *)
Definition link : Type := Z * Z * bool.
Definition info : Type := Z * list link.

Section Cache.
Context (len : Z -> dim -> Qc) (faces : Z -> list (Z * Z)) (level : Z -> Z).
(** poisson_solve.hpp:836-878: local cells of the list get a type; abort() without data *)
Definition mark (local : Z -> bool) (k : Z) (l : list Z) (s : option memory) : option memory :=
  fold_left (fun s c => match s with
    | Some s => if local c then match s c with Some d => Some (put s c (set_kind d k)) | None => None end else Some s
    | None => None end) l s.
Definition classify (own : list Z) (cells skip : list Z) (s : memory) : option memory :=
  let local c := mem c own in
  mark local solve_cell cells (mark local skip_cell skip (mark local boundary_cell own (Some s))).
(** poisson_solve.hpp:903-934: the face neighbors that are used; abort() without data *)
Fixpoint usable (s : memory) (kc : Z) (l : list (Z * Z)) : option (list (Z * Z)) :=
  match l with
  | [] => Some []
  | (n, dir) :: r =>
    match s n with
    | None => None
    | Some e =>
      match usable s kc r with
      | None => None
      | Some u => Some (if (kind e =? skip_cell) || ((kc =? boundary_cell) && (kind e =? boundary_cell)) then u else (n, dir) :: u)
      end
    end
  end.
(** poisson_solve.hpp:886-967: one cell *)
Definition visit (a : option (memory * list info)) (c : Z) : option (memory * list info) :=
  match a with
  | None => None
  | Some (s, infos) =>
    match s c with
    | None => None
    | Some d =>
      if kind d =? skip_cell then Some (s, infos) else
      match usable s (kind d) (faces c) with
      | None => None
      | Some [] => Some (put s c (set_kind d skip_cell), infos)
      | Some ns => Some (put s c (set_geo d (factors len c ns)),
                         infos ++ [(c, map (fun e => (e, level c <? level (fst e))) ns)])
      end
    end
  end.
Definition cache_cells (own : list Z) (s : memory) : option (memory * list info) := fold_left visit own (Some (s, [])).
End Cache.

(** ** Loops over cell_info *)
(** a pointer stored in cell_info is not null: 888-894, 913-920 *)
Definition blank : pcell := PCell 0 0 0 0 0 0 0 0 (Geom 0 0 0 0 0 0 0) 0.
Definition look (s : memory) (n : Z) : pcell := match s n with Some d => d | None => blank end.
(** for (info: cell_info) { if (cell_type != SOLVE) continue; *info.first = F ... } *)
Definition sweep (F : list link -> (Z -> pcell) -> pcell -> pcell) (infos : list info) (s : memory) : memory :=
  fold_left (fun s i => match s (fst i) with
    | Some d => if kind d =? solve_cell then put s (fst i) (F (snd i) (look s) d) else s
    | None => s end) infos s.
(** sums over the solve cells of a process *)
Definition summed (f : pcell -> Qc) (infos : list info) (s : memory) : Qc :=
  fold_left (fun a i => if kind (look s (fst i)) =? solve_cell then (a + f (look s (fst i)))%Qc else a) infos 0%Qc.
(** poisson_solve.hpp:290-339: A . p0 *)
Definition A_dot (get : pcell -> Qc) (ls : list link) (s : Z -> pcell) (d : pcell) : Qc :=
  fold_left (fun a (l : link) => (a + shared (factor (geo d) (snd (fst l))) (snd l) * get (s (fst (fst l))))%Qc) ls (scale d * get d)%Qc.
(** poisson_solve.hpp:413-467: transpose(A) . p1, with the factor of the neighbor in the opposite direction *)
Definition At_dot (ls : list link) (s : Z -> pcell) (d : pcell) : Qc :=
  fold_left (fun a (l : link) => (a + shared (factor (geo (s (fst (fst l)))) (- snd (fst l))) (snd l) * p1 (s (fst (fst l))))%Qc) ls (scale d * p1 d)%Qc.
(** poisson_solve.hpp:986-1036 *)
Definition first_residual (ls : list link) (s : Z -> pcell) (d : pcell) : Qc :=
  fold_left (fun a (l : link) => (a - shared (factor (geo d) (snd (fst l))) (snd l) * sol (s (fst (fst l))))%Qc) ls (rhs d - scale d * sol d)%Qc.

Definition qeqb (a b : Qc) : bool := Qc_eq_bool a b.

Section Solve.
(** ranks of processes, which process has a cell, cell_info of every process *)
Context (ranks : list Z) (owner : Z -> option Z) (infos : Z -> list info).
(** std::pow(std::fabs(.), p_of_norm) and std::pow(., 1 / p_of_norm) *)
Context (pw root : Qc -> Qc).
Definition everywhere (F : list link -> (Z -> pcell) -> pcell -> pcell) (w : world) : world := fun r => sweep F (infos r) (w r).
(** MPI_Allreduce with MPI_SUM *)
Definition all_sum (f : Z -> Qc) : Qc := fold_left (fun a r => (a + f r)%Qc) ranks 0%Qc.
Definition dot (f : pcell -> Qc) (w : world) : Qc := all_sum (fun r => summed f (infos r) (w r)).
(** get_residual: poisson_solve.hpp:674-688; all cells of cell_info *)
Definition residual (w : world) : Qc :=
  root (all_sum (fun r => fold_left (fun a i => (a + pw (r0 (look (w r) (fst i))))%Qc) (infos r) 0%Qc)).

(** initialize_solver: poisson_solve.hpp:979-1054 *)
Definition first_values (w : world) : world :=
  everywhere (fun ls s d => let v := first_residual ls s d in set_p (set_r1 (set_r0 d v) v) v v) (exchange owner INIT w).
Definition dot_r (w : world) : Qc := dot (fun d => (r0 d * r1 d)%Qc) w.

(** stop_residual, stop_after_residual_increase, min_iterations *)
Record limits := Limits { stop_residual : Qc; increase : Qc; min_iterations : Z }.
(** dot_r_g and residual_min between iterations; None is std::numeric_limits<double>::max(), which is taken to be larger
    than any residual *)
Record going := Going { q_world : world; q_dot : Qc; q_min : option Qc }.
Inductive outcome := Ended (w : world) | Again (q : going).
Definition qle (a b : Qc) : bool := Qle_bool a b.
Definition smaller (a : Qc) (b : option Qc) : bool := match b with None => true | Some b => negb (qle b a) end.
(** the first part of an iteration, up to the new solution: poisson_solve.hpp:279-370 *)
Definition with_ap0 (w : world) : world := everywhere (fun ls s d => set_ap0 d (A_dot p0 ls s d)) (exchange owner SOLVING w).
Definition dot_p (w : world) : Qc := dot (fun d => (p1 d * ap0 d)%Qc) w.
Definition with_sol (alpha : Qc) (w : world) : world := everywhere (fun _ _ d => set_sol d (sol d + alpha * p0 d)%Qc) w.
Definition save (w : world) : world := everywhere (fun _ _ d => set_best d (sol d)) w.
Definition with_r (alpha : Qc) (w : world) : world :=
  everywhere (fun ls s d => set_r1 d (r1 d - alpha * At_dot ls s d)%Qc)
    (everywhere (fun _ _ d => set_r0 d (r0 d - alpha * ap0 d)%Qc) w).
Definition with_p (beta : Qc) (w : world) : world := everywhere (fun _ _ d => set_p d (r0 d + beta * p0 d)%Qc (r1 d + beta * p1 d)%Qc) w.
(** one iteration: poisson_solve.hpp:279-505 *)
Definition iteration (L : limits) (it : Z) (q : going) : outcome :=
  let w := with_ap0 (q_world q) in
  let dp := dot_p w in
  if qeqb dp 0%Qc then Ended w else
  let alpha := (q_dot q / dp)%Qc in
  let w := with_sol alpha w in
  let res := residual w in
  let better := smaller res (q_min q) in
  let w := if better then save w else w in
  let least := if better then Some res else q_min q in
  let enough := min_iterations L <=? it in
  if qle res (stop_residual L) && enough then Ended w else
  if match least with Some a => qle (increase L * a)%Qc res | None => false end && enough then Ended w else
  let w := with_r alpha w in
  if qeqb (q_dot q) 0%Qc then Ended w else
  let dot' := dot_r w in
  Again (Going (with_p (dot' / q_dot q)%Qc w) dot' least).
(** do ... while (iteration < max_iterations): [n] more iterations after this one *)
Fixpoint iterations (L : limits) (n : nat) (it : Z) (q : going) : world :=
  match iteration L it q with
  | Ended w => w
  | Again q' => match n with O => q_world q' | S k => iterations L k (it + 1) q' end
  end.
(** poisson_solve.hpp:514-519 *)
Definition take_best (w : world) : world := everywhere (fun _ _ d => set_sol d (best d)) w.
(** solve after cache_system_info: poisson_solve.hpp:267-519 *)
Definition started (w : world) : going := let w := first_values w in Going w (dot_r w) None.
Definition solve_cached (L : limits) (max_iterations : nat) (w : world) : world :=
  take_best (iterations L (pred max_iterations) 1 (started w)).

(** solve_failsafe: poisson_solve.hpp:551-626, one iteration; [None] is abort() at 564 *)
Definition jacobi (ls : list link) (s : Z -> pcell) (d : pcell) : Qc :=
  let inv := (- (1) / scale d)%Qc in
  fold_left (fun a (l : link) => (a + inv * shared (factor (geo d) (snd (fst l))) (snd l) * sol (s (fst (fst l))))%Qc) ls (- inv * rhs d)%Qc.
Definition scales_ok (w : world) : bool :=
  forallb (fun r => forallb (fun i => negb (kind (look (w r) (fst i)) =? solve_cell) || negb (qeqb (scale (look (w r) (fst i))) 0%Qc)) (infos r)) ranks.
(** std::fabs *)
Definition absq (a : Qc) : Qc := if qle 0%Qc a then a else (- a)%Qc.
Definition relax (w : world) : option (world * Qc) :=
  let w := exchange owner INIT w in
  if negb (scales_ok w) then None else
  let w := everywhere (fun ls s d => set_best d (jacobi ls s d)) w in
  let norm := dot (fun d => absq (sol d - best d)%Qc) w in
  Some (everywhere (fun _ _ d => set_sol d (best d)) w, norm).
Fixpoint relaxations (stop : Qc) (n : nat) (w : world) (norm : option Qc) : option (world * option Qc) :=
  match n with
  | O => Some (w, norm)
  | S k => if match norm with None => true | Some a => negb (qle a stop) end
           then match relax w with Some (w', a) => relaxations stop k w' (Some a) | None => None end
           else Some (w, norm)
  end.
End Solve.

(** cache_system_info on all processes: poisson_solve.hpp:822-971 *)
Section System.
Context (ranks : list Z) (owner : Z -> option Z) (own : Z -> list Z) (len : Z -> dim -> Qc) (faces : Z -> list (Z * Z)) (level : Z -> Z).
Fixpoint all_of {A} (l : list Z) (f : Z -> option A) (base : Z -> A) : option (Z -> A) :=
  match l with
  | [] => Some base
  | r :: rest => match f r, all_of rest f base with Some a, Some h => Some (fun x => if x =? r then a else h x) | _, _ => None end
  end.
Definition cache_system (cells skip : Z -> list Z) (w : world) : option (world * (Z -> list info)) :=
  match all_of ranks (fun r => classify (own r) (cells r) (skip r) (w r)) w with
  | None => None
  | Some w1 =>
    let w2 := exchange owner TYPE w1 in
    match all_of ranks (fun r => cache_cells len faces level (own r) (w2 r)) (fun r => (w2 r, [])) with
    | None => None
    | Some a => Some (exchange owner GEOMETRY (fun r => fst (a r)), fun r => snd (a r))
    end
  end.
(** solve: poisson_solve.hpp:251-522 *)
Definition solve (pw root : Qc -> Qc) (L : limits) (max_iterations : nat) (cells skip : Z -> list Z) (w : world) : option world :=
  match cache_system cells skip w with
  | None => None
  | Some (w', infos) => Some (solve_cached ranks owner infos pw root L max_iterations w')
  end.
(** solve_failsafe: poisson_solve.hpp:531-634 *)
Definition solve_failsafe (stop : Qc) (max_iterations : nat) (cells skip : Z -> list Z) (w : world) : option (world * option Qc) :=
  match cache_system cells skip w with
  | None => None
  | Some (w', infos) => relaxations ranks owner infos stop max_iterations w' None
  end.
End System.
