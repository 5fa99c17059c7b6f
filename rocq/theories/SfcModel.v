(** Model of the creation of level 0 cells along a space filling curve, the branch of
    create_level_0_cells that is compiled with USE_SFC.  Definitions only.

    The curve is sfc::Sfc<3, uint64_t> of another library.  It is a parameter [curve]: what
    get_indices returns for an index of the range cached last.  Asking for another index, and
    caching a range that is empty or not on the curve, is an error ([Threw]). *)
From Verif Require Import U64 MapModel HoodModel MeshModel Sets RefineModel BalanceModel.
Open Scope Z_scope.

(** dccrg.hpp:8212-8217; [total] is the size of the curve *)
Definition batch_size (total batches : Z) : Z :=
  if 0 <? total mod batches then 1 + total / batches else total / batches.
(** sfc::Sfc::cache_sfc_index_range(first, last) *)
Definition cache_range (total first last : Z) : outcome (Z * Z) :=
  if (first <=? last) && (last <? total) then Done (first, last) else Threw.
(** dccrg.hpp:8235-8245 *)
Definition recache (total batch i : Z) (cache : Z * Z) : outcome (Z * Z) :=
  if snd cache <? i then
    let last := add64 (snd cache) batch in
    cache_range total (snd cache) (if total <=? last then sub64 total 1 else last)
  else Done cache.
(** dccrg.hpp:8247: sfc::Sfc::get_indices *)
Definition curve_indices (curve : Z -> idx) (cache : Z * Z) (i : Z) : outcome idx :=
  if (fst cache <=? i) && (i <=? snd cache) then Done (curve i) else Threw.
(** dccrg.hpp:8249-8252 *)
Definition curve_cell (m : mapping) (i : idx) : Z :=
  let s := shl1 (m_max m) in get_cell_from_indices m (Idx (mul64 (ix i) s) (mul64 (iy i) s) (mul64 (iz i) s)) 0.

(** dccrg.hpp:8232-8260: k cells of one process from index [i] of the curve on; the assignments
    to cell_process in the order in which they are made, and the cached range *)
Fixpoint sfc_some (m : mapping) (curve : Z -> idx) (total batch : Z) (k : nat) (i : Z) (cache : Z * Z) (process : Z) : outcome (list (Z * Z) * (Z * Z)) :=
  match k with
  | O => Done ([], cache)
  | S k' =>
    do cache' <- recache total batch i cache;
    do x <- curve_indices curve cache' i;
    do r <- sfc_some m curve total batch k' (add64 i 1) cache' process;
    Done ((curve_cell m x, process) :: fst r, snd r)
  end.
(** dccrg.hpp:8223-8261; with the index reached *)
Fixpoint sfc_from (m : mapping) (curve : Z -> idx) (total batch np : Z) (processes : list Z) (i : Z) (cache : Z * Z) : outcome (list (Z * Z) * Z) :=
  match processes with
  | [] => Done ([], i)
  | p :: ps =>
    let k := cells_to_create total np p in
    do a <- sfc_some m curve total batch (Z.to_nat k) i cache p;
    do b <- sfc_from m curve total batch np ps (add64 i k) (snd a);
    Done (fst a ++ fst b, snd b)
  end.
(** dccrg.hpp:8144-8281; without batches it returns false, and initialize throws
    (dccrg.hpp:525-530); with another number of cells than the grid has it aborts *)
Definition sfc_cells (g : grid) (curve : Z -> idx) (batches : Z) : outcome (list (Z * Z)) :=
  let total := total_cells (g_map g) in
  if batches =? 0 then Threw else
  let batch := batch_size total batches in
  do cache <- cache_range total 0 (sub64 batch 1);
  do x <- sfc_from (g_map g) curve total batch (g_np g) (ranks g) 0 cache;
  if snd x =? total then Done (fst x) else Threw.

Section Model.
Context {D : Type} (d0 : D) (g : grid).

(** dccrg.hpp:8254-8257 on one process: an assignment to a cell that is already there replaces
    its process, cell_data[cell] makes the cell's data if it is not there *)
Definition sfc_store (cells : list (Z * Z)) (rank : Z) : store D :=
  Store (fold_left (fun f e => put (fst e) (snd e) f) cells [])
    (fold_left (fun f e => put (fst e) d0 f) (filter (fun e => snd e =? rank) cells) []) [] [] [] [] [].
(** dccrg.hpp:485-562, as [initialize] of BalanceModel *)
Definition initialize_sfc (curve : Z -> idx) (batches : Z) : outcome (Z -> proc D) :=
  do cells <- sfc_cells g curve batches;
  each g (fun r => do k <- rebuild g r (sfc_store cells r); Done (Proc no_requests k (sfc_store cells r)))
    (fun r => Proc no_requests (Caches [] [] [] [] []) (sfc_store cells r)).
End Model.

(** what is assumed of a curve: it visits every level 0 cell of the grid once, given by the cell's
    position in units of level 0 cells *)
Definition in_box (m : mapping) (i : idx) : Prop :=
  0 <= ix i < m_l0 m /\ 0 <= iy i < m_l1 m /\ 0 <= iz i < m_l2 m.
Definition space_filling (m : mapping) (curve : Z -> idx) : Prop :=
  let total := m_l0 m * m_l1 m * m_l2 m in
  (forall j, 0 <= j < total -> in_box m (curve j)) /\
  (forall j k, 0 <= j < total -> 0 <= k < total -> curve j = curve k -> j = k) /\
  forall i, in_box m i -> exists j, 0 <= j < total /\ curve j = i.
