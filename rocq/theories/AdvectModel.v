(** The finite volume solver of /repo/tests/advection: fluxes through the faces of cells, their
    application, and the values of created and merged cells.  Numbers are exact rationals: the rounding of
    doubles is not modelled.  The member max_diff, which only decides which changes of the grid are requested, is in AdapterModel. *)
From Verif Require Import U64 MapModel MapSpec MapProofs MapFamily MapProps HoodModel MeshModel
  MeshSpec MeshBase HoodProps Sets RefineModel BalanceModel Create History CommModel CommInv ProgramModel.
From Coq Require Import QArith Qcanon.
Open Scope Z_scope.

(** ** cell.hpp:33-43 *)
Record fluid := Fluid { rho : Qc; vx : Qc; vy : Qc; vz : Qc; flux : Qc; lx : Qc; ly : Qc; lz : Qc }.
Definition vel (d : fluid) (k : dim) : Qc := match k with DX => vx d | DY => vy d | DZ => vz d end.
Definition size (d : fluid) (k : dim) : Qc := match k with DX => lx d | DY => ly d | DZ => lz d end.
(** solve.hpp:61-64, 133 *)
Definition volume (d : fluid) : Qc := (lx d * ly d * lz d)%Qc.
Definition add_flux (d : fluid) (q : Qc) : fluid := Fluid (rho d) (vx d) (vy d) (vz d) (flux d + q)%Qc (lx d) (ly d) (lz d).
(** solve.hpp:276-277 *)
Definition apply_flux (d : fluid) : fluid := Fluid (rho d + flux d)%Qc (vx d) (vy d) (vz d) 0%Qc (lx d) (ly d) (lz d).

(** ** Which neighbors share a face: solve.hpp:72-120.  Lengths are in indices, o is the offset of the neighbor. *)
Definition overlap (cl nl : Z) (o : idx) (k : dim) : bool := (get o k <? cl) && (- nl <? get o k).
(** overlaps and direction after one dimension; direction is None while it is 0 in the code *)
Definition look (cl nl : Z) (o : idx) (a : Z * option (dim * bool)) (k : dim) : Z * option (dim * bool) :=
  if overlap cl nl o k then (fst a + 1, snd a)
  else if get o k =? cl then (fst a, Some (k, true))
  else if get o k =? - nl then (fst a, Some (k, false)) else a.
Inductive contact := Apart | Inside | Face (k : dim) (pos : bool).
(** Apart: "continue"; Inside: abort() *)
Definition contact_of (cl nl : Z) (o : idx) : contact :=
  let a := fold_left (look cl nl o) [DX; DY; DZ] (0, None) in
  if fst a <? 2 then Apart else if 2 <? fst a then Inside
  else match snd a with None => Apart | Some (k, pos) => Face k pos end.

(** ** The flux through a face *)
(** solve.hpp:137-158 *)
Definition area (d : fluid) (k : dim) : Qc := match k with DX => (ly d * lz d)%Qc | DY => (lx d * lz d)%Qc | DZ => (lx d * ly d)%Qc end.
Definition qleb (a b : Qc) : bool := Qle_bool a b.
(** std::min returns the first argument unless the second is smaller *)
Definition qmin (a b : Qc) : Qc := if qleb a b then a else b.
(** solve.hpp:169-175 *)
Definition face_speed (a b : fluid) (k : dim) : Qc := ((size a k * vel b k + size b k * vel a k) / (size a k + size b k))%Qc.
(** solve.hpp:177-225: positive flux goes into positive direction *)
Definition flow (dt : Qc) (a b : fluid) (k : dim) (pos : bool) : Qc :=
  let v := face_speed a b k in
  let from := if pos then (if qleb 0%Qc v then a else b) else (if qleb 0%Qc v then b else a) in
  (rho from * dt * v * qmin (area a k) (area b k))%Qc.

(** ** calculate_fluxes on one process *)
(** what cell.data and neighbor.data point to: own cells and copies of remote cells *)
Definition memory : Type := Z -> option fluid.
Definition put (s : memory) (c : Z) (d : fluid) : memory := fun y => if y =? c then Some d else s y.
Definition add_to (s : memory) (c : Z) (q : Qc) : option memory := match s c with Some d => Some (put s c (add_flux d q)) | None => None end.

(** the body of the loop over neighbors: solve.hpp:71-235.  None when a null pointer would be used or abort() is called. *)
Definition meet (m : mapping) (here : Z -> bool) (dt : Qc) (c : Z) (s : option memory) (e : Z * idx) : option memory :=
  match s with
  | None => None
  | Some s =>
    let n := fst e in
    match contact_of (get_cell_length_in_indices m c) (get_cell_length_in_indices m n) (snd e) with
    | Apart => Some s
    | Inside => None
    | Face k pos =>
      if here n && negb pos then Some s
      else match s c, s n with
      | Some a, Some b =>
        let f := flow dt a b k pos in
        match add_to s c (if pos then - (f / volume a) else f / volume a)%Qc with
        | Some s1 => add_to s1 n (if pos then f / volume b else - (f / volume b))%Qc
        | None => None
        end
      | _, _ => None
      end
    end
  end.
(** calculate_fluxes: solve.hpp:44-266 for the cells of list l *)
Definition calculate (m : mapping) (here : Z -> bool) (dt : Qc) (v : views) (l : list cell_item) (s : option memory) : option memory :=
  fold_left (fun s i => fold_left (meet m here dt (i_id i)) (view_of v i) s) l s.
(** apply_fluxes: solve.hpp:272-279 *)
Definition apply_all (l : list cell_item) (s : option memory) : option memory :=
  fold_left (fun s i => match s with Some s => match s (i_id i) with Some d => Some (put s (i_id i) (apply_flux d)) | None => None end | None => None end) l s.
(** Receiving copies of remote cells between the two calls: cells of other processes are replaced by [new],
    which says what is in the copies after wait_remote_neighbor_copy_update_receives. *)
Definition receive (here : Z -> bool) (new : memory) (s : option memory) : option memory :=
  match s with Some s => Some (fun c => if here c then s c else new c) | None => None end.
(** One time step of one process: 2d.cpp:327-343, 390.  The order of sends does not matter for the process itself. *)
Definition time_step (m : mapping) (here : Z -> bool) (dt : Qc) (v : views) (new old : memory) : option memory :=
  apply_all (view_local v) (calculate m here dt v (view_outer v) (receive here new (calculate m here dt v (view_inner v) (Some old)))).

(** ** The same step as seen from one cell *)
(** what the flux through one neighbor adds to the density of cell c *)
Definition gain (m : mapping) (dt : Qc) (c : Z) (d : fluid) (e : seen fluid) : Qc :=
  match contact_of (get_cell_length_in_indices m c) (get_cell_length_in_indices m (fst (fst e))) (snd (fst e)) with
  | Face k pos => (if pos then - (flow dt d (snd e) k pos / volume d) else flow dt d (snd e) k pos / volume d)%Qc
  | _ => 0%Qc
  end.
Definition qsum (l : list Qc) : Qc := fold_right Qcplus 0%Qc l.
(** cell.neighbors_of has every neighbor with every offset once (C38), get_neighbors_of may repeat them (C14) *)
Definition same_entry (a b : Z * idx) : bool := (fst a =? fst b) && (ix (snd a) =? ix (snd b)) && (iy (snd a) =? iy (snd b)) && (iz (snd a) =? iz (snd b)).
Fixpoint once (l : list (seen fluid)) : list (seen fluid) :=
  match l with
  | [] => []
  | e :: r => if existsb (fun x => same_entry (fst e) (fst x)) r then once r else e :: once r
  end.
Definition advance (m : mapping) (dt : Qc) (c : Z) (d : fluid) (ns : list (seen fluid)) : fluid :=
  Fluid (rho d + flux d + qsum (map (gain m dt c d) (once ns)))%Qc (vx d) (vy d) (vz d) 0%Qc (lx d) (ly d) (lz d).

(** ** Values of new cells: adapter.hpp:229-314.  [shape c] gives the velocity and lengths of cell c. *)
Definition with_shape (shape : Z -> (Qc * Qc * Qc) * (Qc * Qc * Qc)) (c : Z) (r : Qc) : fluid :=
  let '((u, v, w), (a, b, e)) := shape c in Fluid r u v w 0%Qc a b e.
Definition child_value shape (c : Z) (parent : fluid) : fluid := with_shape shape c (rho parent).
Definition parent_value shape (c : Z) (kids : list fluid) : fluid :=
  with_shape shape c (fold_left (fun s k => (s + rho k / Q2Qc (8 # 1))%Qc) kids 0%Qc).

(** ** How much there is *)
Definition mass (d : fluid) : Qc := (volume d * rho d)%Qc.
