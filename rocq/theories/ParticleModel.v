(** The program /repo/tests/particles/simple.cpp: particles that move between cells, on one process at a time.
    Definitions only.  A particle is any type; its motion, get_real_coordinate of the geometry and get_existing_cell are
    functions of particles.  number_of_particles is a number without limit, in the code it is an unsigned int. *)
From Verif Require Import U64 MapModel MeshModel RefineModel CommModel Stages.
Open Scope Z_scope.

Section Model.
Context {P : Type} (drift wrap : P -> P) (place_of : P -> Z).
(** tests/particles/cell.hpp:34-41 *)
Record pdata := PData { number : Z; particles : list P }.
(** grid[cell] on a process: own cells and copies *)
Definition pmemory : Type := Z -> option pdata.
Definition pput (s : pmemory) (c : Z) (d : pdata) : pmemory := fun y => if y =? c then Some d else s y.
(** an item of all_cells() with the ids of its neighbors_of: C38 *)
Definition pitem : Type := Z * list Z.
(** simple.cpp:61-65: particle[0] += vx in local cells and copies; None: null pointer *)
Definition drift_cell (s : option pmemory) (i : pitem) : option pmemory :=
  match s with
  | None => None
  | Some s => match s (fst i) with Some d => Some (pput s (fst i) (PData (number d) (map drift (particles d)))) | None => None end
  end.
(** push_back and number_of_particles = particles.size() *)
Definition added (d : pdata) (p : P) : pdata := PData (Z.of_nat (length (particles d ++ [p]))) (particles d ++ [p]).
(** simple.cpp:84-90: to every item of neighbors_of with the id of the new cell; neighbor.data of a cell that the process
    does not have is a null pointer: None *)
Definition push (nbrs : list Z) (p : P) (s : option pmemory) : option pmemory :=
  fold_left (fun s n => match s with
    | None => None
    | Some s => if place_of p =? n then match s n with Some d => Some (pput s n (added d p)) | None => None end else Some s
    end) nbrs s.
(** simple.cpp:69-96: the particles of a cell from index i on, and whether any was erased.  After erase(begin() + i) the
    next particle is at i, so i++ passes it by.  The new cell is not this one, whose list is only changed by erase. *)
Fixpoint scan (c : Z) (nbrs : list Z) (l : list P) (s : pmemory) : option (pmemory * list P * bool) :=
  match l with
  | [] => Some (s, [], false)
  | p :: r =>
    let p' := wrap p in
    if place_of p' =? c then match scan c nbrs r s with Some (s', k, b) => Some (s', p' :: k, b) | None => None end
    else match push nbrs p' (Some s) with
      | None => None
      | Some s' => match r with
        | [] => Some (s', [], true)
        | q :: r' => match scan c nbrs r' s' with Some (s'', k, _) => Some (s'', q :: k, true) | None => None end
        end
      end
  end.
Definition sort_cell (s : option pmemory) (i : pitem) : option pmemory :=
  match s with
  | None => None
  | Some s => match s (fst i) with
    | None => None
    | Some d => match scan (fst i) (snd i) (particles d) s with
      | Some (s', k, b) => Some (pput s' (fst i) (PData (if b then Z.of_nat (length k) else number d) k))
      | None => None
      end
    end
  end.
(** propagate_particles: simple.cpp:52-98 *)
Definition propagate (items : list pitem) (s : pmemory) : option pmemory := fold_left sort_cell items (fold_left drift_cell items (Some s)).
(** all_cells() of the default neighborhood on a process *)
Definition items_of (v : views) : list pitem := map (fun i => (i_id i, map fst (view_of v i))) (view_cells v).
(** transfers: cell.hpp:50-77.  First number_of_particles *)
Definition numbers_sent (_ _ _ : Z) (v b : pdata) : outcome pdata := Done (PData (number v) (particles b)).
(** resize() of the copy, cell.hpp:81-84, called for all copies between the two updates (simple.cpp:285-294) *)
Definition resized (junk : P) (b : pdata) : list P :=
  firstn (Z.to_nat (number b)) (particles b) ++ repeat junk (Z.to_nat (number b) - length (particles b)).
(** then the particles into the resized copy: longer messages than the copy are an error of MPI, shorter ones leave the rest *)
Definition particles_sent (junk : P) (_ _ _ : Z) (v b : pdata) : outcome pdata :=
  if Z.of_nat (length (resized junk b)) <? Z.of_nat (length (particles v)) then Threw
  else Done (PData (number b) (particles v ++ skipn (length (particles v)) (resized junk b))).
End Model.
Arguments pdata : clear implicits.
Arguments pmemory : clear implicits.
