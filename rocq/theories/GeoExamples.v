(** Geometries: cases that meet the hypotheses of the theorems in GeoProps and GeoStretch, and
    cases in which the code does not do what C42 - C45 and C57 say. *)
From Coq Require Import QArith Floats.SpecFloat Lqa.
From Verif Require Import U64 MapModel MapSpec MapProps HoodModel MeshSpec GeoModel GeoBase GeoProps GeoStretch.
Open Scope Z_scope.

(** 3 x 2 x 1 unrefined cells, two refinement levels *)
Definition geo_map : mapping := Mapping 3 2 1 2 (6 + 48 + 384).
Example geo_map_wf : wf geo_map. Proof. apply wfb_wf. vm_compute. reflexivity. Qed.
Definition three {X} (a b c : X) (k : dim) : X := match k with DX => a | DY => b | DZ => c end.
Definition geo_ca : cartesian exact := Cartesian (A := exact) (three (Some (- 1)) (Some (1 # 3)) (Some 0))%Q (three (Some (1 # 10)) (Some 2) (Some 5))%Q.
Example geo_ca_finite : finite geo_ca.
Proof. intros []; eexists _, _; (split; [reflexivity|split; reflexivity]). Qed.
Definition geo_st : coordinates exact := three [Some (- 1); Some 0; Some (1 # 2); Some 7]%Q [Some 0; Some 1; Some 10]%Q [Some 3; Some 4]%Q.
Example geo_st_regular : regular geo_map geo_st.
Proof.
  intros k. split; [destruct k; vm_compute; split; reflexivity|]. intros i Hi.
  assert (i = 0 \/ i = 1 \/ i = 2) as [->|[->| ->]] by (destruct k; cbn in Hi; lia); destruct k; cbn in Hi; try lia; vm_compute; reflexivity.
Qed.
Definition walls : topo := Topo false false false.
Definition around : topo := Topo true true true.
Definition at3 (a b c : Q) : dim -> option Q := three (Some a) (Some b) (Some c).

(** a coordinate inside, its cells of three levels, and their boxes *)
Definition geo_x : dim -> option Q := at3 (- (77 # 100)) (35 # 10) (49 # 10).
Example geo_x_inside : within (ca_start geo_ca) geo_x (ca_end exact geo_map geo_ca).
Proof. intros []; split; vm_compute; reflexivity. Qed.
Definition geo_cells : list Z := map (fun l => ca_cell exact geo_map walls geo_ca l geo_x) [0; 1; 2].
Example geo_x_cells : geo_cells = [6; 53; 424]. Proof. vm_compute. reflexivity. Qed.
Example geo_x_boxes c : In c [6; 53; 424] -> valid geo_map c /\ within (ca_min exact geo_map geo_ca c) geo_x (ca_max exact geo_map geo_ca c).
Proof.
  intros [<-|[<-|[<-|[]]]]; (split; [unfold valid; cbn; lia|intros []; split; vm_compute; reflexivity]).
Qed.
(** the same coordinate several grids away *)
Definition geo_far : dim -> option Q := at3 (- (77 # 100) - (9 # 10)) ((35 # 10) + 400) ((49 # 10) - 500).
Example geo_far_around : map (fun l => ca_cell exact geo_map around geo_ca l geo_far) [0; 1; 2] = geo_cells /\
  map (fun l => ca_cell exact geo_map walls geo_ca l geo_far) [0; 1; 2] = [0; 0; 0].
Proof. vm_compute. split; reflexivity. Qed.
Example geo_far_real : forall k, same (ca_real_coordinate exact geo_map around geo_ca geo_far k) (geo_x k).
Proof. intros []; split; vm_compute; reflexivity. Qed.

(** grid without geometry *)
Definition geo_n : dim -> option Q := at3 (25 # 10) (35 # 10) (- (1 # 8)).
Example geo_n_cells : map (fun l => no_cell exact geo_map around l geo_n) [0; 1; 2] = [6; 54; 425] /\
  no_cell exact geo_map walls 0 geo_n = error_cell.
Proof. vm_compute. split; reflexivity. Qed.

(** stretched grid *)
Definition geo_s : dim -> option Q := at3 (1 # 2) (3 # 2) (7 # 2).
Example geo_s_inside : within_upper (fun k => value (st_start exact geo_st k)) geo_s (fun k => value (st_end exact geo_map geo_st k)).
Proof. intros []; split; vm_compute; reflexivity. Qed.
Example geo_s_cells : map (fun l => st_cell exact geo_map geo_st 5 l geo_s) [0; 1; 2] = [Value 5; Value 22; Value 206].
Proof. vm_compute. reflexivity. Qed.
Example geo_s_outside : st_cell exact geo_map geo_st 5 1 (at3 8 (3 # 2) (7 # 2)) = Value error_cell.
Proof. vm_compute. reflexivity. Qed.

(** ** Where the code differs *)

(** C43: the coordinate at the end of the grid is in the closed box of the last cell, and
    get_real_coordinate returns it, but it has no cell, even in a periodic grid *)
Theorem c43_end_of_grid_refuted :
  exists m t g x c, wf m /\ finite g /\ valid m c /\ (forall k, per t k = true) /\
    within_closed (ca_min exact m g c) x (ca_max exact m g c) /\ (forall k, ca_real_coordinate exact m t g x k = x k) /\
    ca_cell exact m t g 0 x = error_cell.
Proof.
  exists geo_map, around, geo_ca, (at3 (- (7 # 10)) ((1 # 3) + 4) 5), 6.
  split; [apply geo_map_wf|]. split; [apply geo_ca_finite|]. split; [unfold valid; cbn; lia|].
  split; [intros []; reflexivity|]. split; [intros []; split; vm_compute; reflexivity|].
  split; [intros []; vm_compute; reflexivity|]. vm_compute. reflexivity.
Qed.
Print Assumptions c43_end_of_grid_refuted.

(** C45: in a periodic stretched grid coordinates one grid length away have no cell *)
Theorem c43_stretched_ignores_periodicity_refuted :
  exists m t s x y c, wf m /\ regular m s /\ (forall k, per t k = true) /\
    (forall k, exists z, st_real_coordinate exact m t s y k = Value z /\ same z (x k)) /\
    st_cell exact m s 5 0 x = Value c /\ valid m c /\ st_cell exact m s 5 0 y = Value error_cell.
Proof.
  exists geo_map, around, geo_st, geo_s, (at3 (17 # 2) (3 # 2) (7 # 2)), 5.
  split; [apply geo_map_wf|]. split; [apply geo_st_regular|]. split; [intros []; reflexivity|].
  split; [intros []; (eexists; split; [vm_compute; reflexivity|split; vm_compute; reflexivity])|].
  split; [vm_compute; reflexivity|]. split; [unfold valid; cbn; lia|vm_compute; reflexivity].
Qed.
Print Assumptions c43_stretched_ignores_periodicity_refuted.

(** C45: the geometry created before the length of the grid is set has coordinates for a grid of
    one cell; get_end and get_length then read outside of the coordinates *)
Theorem c45_coordinates_before_set_refuted :
  exists m m' k c, wf m /\ wf m' /\ valid m' c /\ m_max m = m_max m' /\
    let s := stretched_reset exact m in
    st_end exact m' s k = Outside /\ st_length exact m' s c k = Outside.
Proof.
  exists (Mapping 1 1 1 0 1), (Mapping 3 1 1 0 3), DX, 3.
  split; [apply wfb_wf; vm_compute; reflexivity|]. split; [apply wfb_wf; vm_compute; reflexivity|].
  split; [unfold valid; cbn; lia|]. split; [reflexivity|]. vm_compute. split; reflexivity.
Qed.
Print Assumptions c45_coordinates_before_set_refuted.

Lemma set_ok (A : arith) old given : all_dims (fun k => negb (le A (ca_length0 given k) (of_u64 A 0))) = true ->
  cartesian_set A old given = (true, given).
Proof. intros H. unfold cartesian_set. rewrite H. reflexivity. Qed.
(** C42 and C45: NaN passes the tests of set *)
Theorem c42_set_accepts_nan_refuted :
  exists old given k, cartesian_set exact old given = (true, given) /\ ca_length0 given k = nan exact /\
    cartesian_set binary64 (Cartesian (A := binary64) (fun _ => b64_of_Z 0) (fun _ => b64_of_Z 1))
      (Cartesian (A := binary64) (fun _ => b64_of_Z 0) (fun _ => S754_nan)) =
    (true, Cartesian (A := binary64) (fun _ => b64_of_Z 0) (fun _ => S754_nan)).
Proof.
  exists geo_ca, (Cartesian (A := exact) (fun _ => Some 0%Q) (fun _ => None)), DX.
  split; [reflexivity|]. split; [reflexivity|]. apply set_ok. vm_compute. reflexivity.
Qed.
Print Assumptions c42_set_accepts_nan_refuted.
Theorem c45_set_accepts_nan_refuted :
  exists m old given k, wf m /\ stretched_set exact m old given = (true, given) /\ In (nan exact) (given k) /\ ~ regular m given.
Proof.
  exists (Mapping 2 1 1 0 2), geo_st, (three [Some 1; None; Some 0] [Some 0; Some 1] [Some 0; Some 1])%Q, DX.
  split; [apply wfb_wf; vm_compute; reflexivity|]. split; [vm_compute; reflexivity|]. split; [right; left; reflexivity|].
  intros R. destruct (R DX) as [_ H]. specialize (H 0 ltac:(cbn; lia)). vm_compute in H. discriminate.
Qed.
Print Assumptions c45_set_accepts_nan_refuted.

(** C57: the index at the end of the grid is not outside for get_center(level, index), and an
    index inside of a larger cell gives a point that is not the center of that cell *)
Theorem c57_end_index_refuted :
  exists m g i k, wf m /\ finite g /\ ~ in_grid (dims_of m) i /\ get_cell_from_indices m i 0 = error_cell /\
    ca_center_at exact m g 0 i k <> nan exact /\ no_center_at exact m 0 i k <> nan exact.
Proof.
  exists geo_map, geo_ca, (Idx 12 0 0), DX. split; [apply geo_map_wf|]. split; [apply geo_ca_finite|].
  split; [unfold in_grid; cbn; lia|]. split; [vm_compute; reflexivity|]. split; discriminate.
Qed.
Print Assumptions c57_end_index_refuted.
Theorem c57_unaligned_index_refuted :
  exists m g i l k, wf m /\ finite g /\ in_grid (dims_of m) i /\
    let c := get_cell_from_indices m i l in
    valid m c /\ get_refinement_level m c = l /\
    ~ same (ca_center_at exact m g l i k) (ca_center exact m g c k) /\
    ~ same (no_center_at exact m l i k) (no_center exact m c k) /\
    exact_lt (ca_max exact m g c k) (ca_center_at exact m g l i k) = true.
Proof.
  exists geo_map, geo_ca, (Idx 3 0 0), 0, DX. split; [apply geo_map_wf|]. split; [apply geo_ca_finite|].
  split; [unfold in_grid; cbn; lia|]. cbv zeta.
  replace (get_cell_from_indices geo_map (Idx 3 0 0) 0) with 1 by (vm_compute; reflexivity).
  split; [unfold valid; cbn; lia|]. split; [vm_compute; reflexivity|].
  split; [intros [H _]; vm_compute in H; discriminate|]. split; [intros [H _]; vm_compute in H; discriminate|].
  vm_compute. reflexivity.
Qed.
Print Assumptions c57_unaligned_index_refuted.

(** ** Rounding: the same functions with 64 bit floating point numbers *)
(** a / b rounded to nearest *)
Definition dbl (a b : Z) : spec_float := SFdiv 53 1024 (b64_of_Z a) (b64_of_Z b).

(** C44: in a periodic grid of one cell of length 0.1 that starts at 0.1 the coordinate -0.4 is
    wrapped to 0.09999999999999998, which is outside of the grid and has no cell *)
Theorem c44_rounding_refuted :
  exists m t g x k, wf m /\ (forall k', per t k' = true) /\
    cartesian_set binary64 g g = (true, g) /\
    b64_lt (ca_real_coordinate binary64 m t g x k) (ca_start g k) = true /\
    ca_cell binary64 m t g 0 x = error_cell.
Proof.
  exists (Mapping 1 1 1 0 1), around, (Cartesian (A := binary64) (fun _ => dbl 1 10) (fun _ => dbl 1 10)), (fun _ => dbl (-4) 10), DX.
  split; [apply wfb_wf; vm_compute; reflexivity|]. split; [intros []; reflexivity|].
  split; [apply set_ok; vm_compute; reflexivity|]. split; vm_compute; reflexivity.
Qed.
Print Assumptions c44_rounding_refuted.

(** C43: coordinates inside of a grid that is not periodic can be without a cell: the grid is
    [-2, -0.6] and the coordinate the last floating point number before its end *)
Theorem c43_rounding_refuted :
  exists m t g x, wf m /\ cartesian_set binary64 g g = (true, g) /\
    (forall k, b64_le (ca_start g k) (x k) = true /\ b64_lt (x k) (ca_end binary64 m g k) = true) /\
    ca_cell binary64 m t g 0 x = error_cell.
Proof.
  exists (Mapping 1 1 1 0 1), walls, (Cartesian (A := binary64) (fun _ => b64_of_Z (-2)) (fun _ => dbl 14 10)),
    (fun _ => SFpred 53 1024 (SFadd 53 1024 (b64_of_Z (-2)) (dbl 14 10))).
  split; [apply wfb_wf; vm_compute; reflexivity|]. split; [apply set_ok; vm_compute; reflexivity|].
  split; [intros []; split; vm_compute; reflexivity|]. vm_compute. reflexivity.
Qed.
Print Assumptions c43_rounding_refuted.

(** C42: the boxes of two neighbors that are 0.1 long do not touch *)
Theorem c42_rounding_refuted :
  exists m g x, wf m /\ cartesian_set binary64 g g = (true, g) /\
    (forall k, b64_le (ca_start g k) (x k) = true /\ b64_lt (x k) (ca_end binary64 m g k) = true) /\
    forall c, valid m c -> ~ (b64_le (ca_min binary64 m g c DX) (x DX) = true /\ b64_lt (x DX) (ca_max binary64 m g c DX) = true).
Proof.
  exists (Mapping 2 1 1 0 2), (Cartesian (A := binary64) (fun _ => b64_of_Z 0) (fun _ => dbl 1 10)), (three (dbl 1 10) (b64_of_Z 0) (b64_of_Z 0)).
  split; [apply wfb_wf; vm_compute; reflexivity|]. split; [apply set_ok; vm_compute; reflexivity|].
  split; [intros []; split; vm_compute; reflexivity|].
  intros c Hc. assert (c = 1 \/ c = 2) as [->| ->] by (unfold valid in Hc; cbn in Hc; lia);
  intros [H1 H2]; vm_compute in H1, H2; discriminate.
Qed.
Print Assumptions c42_rounding_refuted.
