(** Decision procedures for the notions of MeshSpec.v, used to show that the theorems'
    hypotheses are met by concrete meshes. *)
From Verif Require Import U64 MapModel MapSpec MapProofs MapFamily MapProps HoodModel MeshModel
  MeshSpec MeshBase HoodProps MeshKids MeshItem.
Open Scope Z_scope.

Definition dims3 : list dim := [DX; DY; DZ].
Lemma dims3_all (P : dim -> bool) : forallb P dims3 = true <-> forall k, P k = true.
Proof.
  cbn. rewrite !andb_true_iff. split.
  - intros (?&?&?&_) k. destruct k; assumption.
  - intros Q. auto.
Qed.

(** one dimension of [nbr]: distance d, region at h * L, box of size s, grid length G *)
Definition nbr1 (p : bool) (G d L s h : Z) : bool :=
  if p then h * L <? d + ((h + 1) * L - d - 1) / G * G + s
  else (d <? (h + 1) * L) && (h * L <? d + s).
Definition shift1 (p : bool) (G d L h : Z) : Z :=
  if p then d + ((h + 1) * L - d - 1) / G * G else d.

Definition nbrb (m : mapping) (t : topo) (c n : Z) (h : idx) : bool :=
  forallb (fun k => nbr1 (per t k) (glen m k) (get (idx_of m n) k - get (idx_of m c) k) (len_of m c) (len_of m n) (get h k)) dims3.

Lemma nbrb_spec m t c n h : wf m -> valid m c -> valid m n ->
  nbrb m t c n h = true <-> exists o, nbr m t c h n o.
Proof.
  intros Hwf Vc Vn. unfold nbrb. rewrite dims3_all. split.
  - intros Q. exists (vmap (fun k => shift1 (per t k) (glen m k) (get (idx_of m n) k - get (idx_of m c) k) (len_of m c) (get h k))).
    split.
    + split; [apply cell_in_grid; assumption|]. intros k. rewrite get_vadd, get_vmap. unfold shift1. destruct (per t k).
      * eexists. instantiate (1 := _). rewrite Z.add_assoc.
        replace (get (idx_of m c) k + (get (idx_of m n) k - get (idx_of m c) k)) with (get (idx_of m n) k) by ring. reflexivity.
      * lia.
    + intros k. specialize (Q k). rewrite get_vmap. unfold nbr1, shift1 in *. destruct (per t k).
      * pose proof (glen_pos m Hwf k).
        set (a := (get h k + 1) * len_of m c - (get (idx_of m n) k - get (idx_of m c) k) - 1) in *.
        pose proof (Z.mul_div_le a (glen m k) ltac:(lia)). lia.
      * lia.
  - intros (o & [G P] & M) k. specialize (P k). specialize (M k). unfold nbr1. rewrite get_vadd in P. destruct (per t k).
    + destruct P as [a Ha]. pose proof (glen_pos m Hwf k) as PG.
      set (d := get (idx_of m n) k - get (idx_of m c) k) in *.
      assert (a <= ((get h k + 1) * len_of m c - d - 1) / glen m k) as Hq.
      { apply Z.div_le_lower_bound; [lia|]. lia. }
      pose proof (Z.mul_le_mono_nonneg_r _ _ (glen m k) ltac:(lia) Hq). lia.
    + lia.
Qed.

Definition seesb (m : mapping) (t : topo) (H : hood) (c n : Z) : bool := existsb (nbrb m t c n) H.
Lemma seesb_spec m t H c n : wf m -> valid m c -> valid m n -> seesb m t H c n = true <-> sees m t H c n.
Proof.
  intros Hwf Vc Vn. unfold seesb, sees. rewrite existsb_exists. split.
  - intros (h & Hh & Q). apply nbrb_spec in Q; try assumption. destruct Q as [o Q]. exists h, o. auto.
  - intros (h & o & Hh & Q). exists h. split; [assumption|]. apply nbrb_spec; try assumption. exists o. assumption.
Qed.

(** a finite mesh given by the list of its cells *)
Definition of_list (l : list Z) (c : Z) : bool := existsb (Z.eqb c) l.
Lemma of_list_in l c : of_list l c = true <-> In c l.
Proof.
  unfold of_list. rewrite existsb_exists. split.
  - intros (x & Hx & E). apply Z.eqb_eq in E. subst x. assumption.
  - intros Hc. exists c. split; [assumption|apply Z.eqb_refl].
Qed.

Definition upto (n : Z) : list Z := map Z.of_nat (seq 0 (Z.to_nat n)).
Lemma upto_in n a : 0 <= a < n <-> In a (upto n).
Proof.
  unfold upto. rewrite in_map_iff. split.
  - intros Ha. exists (Z.to_nat a). split; [lia|]. apply in_seq. lia.
  - intros (x & <- & Hx). apply in_seq in Hx. lia.
Qed.
Definition grid_points (m : mapping) : list idx :=
  flat_map (fun z => flat_map (fun y => map (fun x => Idx x y z) (upto (glen m DX))) (upto (glen m DY))) (upto (glen m DZ)).

Definition coversb (m : mapping) (i : idx) (c : Z) : bool :=
  forallb (fun k => (get (idx_of m c) k <=? get i k) && (get i k <? get (idx_of m c) k + len_of m c)) dims3.
Lemma coversb_spec m i c : coversb m i c = true <-> covers m c i.
Proof.
  unfold coversb. rewrite dims3_all, covers_k. split; intros Q k; specialize (Q k); lia.
Qed.

Definition tilingb (m : mapping) (l : list Z) : bool :=
  forallb (fun c => (1 <=? c) && (c <=? m_last m)) l &&
  forallb (fun i => match filter (coversb m i) l with [_] => true | _ => false end) (grid_points m).

Lemma tilingb_spec m l : tilingb m l = true -> tiling m (of_list l).
Proof.
  unfold tilingb. rewrite andb_true_iff, !forallb_forall. intros [A B]. split.
  - intros c Hc. apply of_list_in in Hc. specialize (A c Hc). unfold valid. lia.
  - intros i Gi. specialize (B i).
    assert (In i (grid_points m)) as Ii.
    { unfold grid_points. apply in_flat_map. exists (iz i). split; [apply upto_in, Gi|].
      apply in_flat_map. exists (iy i). split; [apply upto_in, Gi|].
      apply in_map_iff. exists (ix i). split; [destruct i; reflexivity|apply upto_in, Gi]. }
    specialize (B Ii). destruct (filter (coversb m i) l) as [|c [|? ?]] eqn:E; try discriminate B.
    assert (forall x, In x l -> covers m x i -> x = c) as U.
    { intros x Hx Cx. apply coversb_spec in Cx. assert (In x (filter (coversb m i) l)) as F by (apply filter_In; auto).
      rewrite E in F. destruct F as [F|[]]. congruence. }
    assert (In c (filter (coversb m i) l)) as F by (rewrite E; left; reflexivity).
    apply filter_In in F. destruct F as [F1 F2]. apply coversb_spec in F2.
    exists c. split; [split; [apply of_list_in; assumption|assumption]|].
    intros x [X1 X2]. apply of_list_in in X1. symmetry. apply U; assumption.
Qed.

Definition balancedb (m : mapping) (t : topo) (H : hood) (l : list Z) : bool :=
  forallb (fun c => forallb (fun n => negb (seesb m t H c n) || (Z.abs (lvl_of m c - lvl_of m n) <=? 1)) l) l.

Definition meshb (m : mapping) (t : topo) (n : Z) (l : list Z) : bool :=
  wfb m && (0 <=? n) && tilingb m l && balancedb m t (default_hood_of n) l.

Lemma meshb_mesh m t n l : meshb m t n l = true -> mesh m t n (of_list l).
Proof.
  unfold meshb. rewrite !andb_true_iff. intros [[[A B] C] D]. apply wfb_wf in A. apply tilingb_spec in C.
  unfold mesh. split; [assumption|]. split; [lia|]. split; [assumption|].
  intros c x Ec Ex Hs. unfold balancedb in D. rewrite forallb_forall in D.
  pose proof (proj1 C c Ec) as Vc. pose proof (proj1 C x Ex) as Vx.
  apply of_list_in in Ec, Ex. specialize (D c Ec). rewrite forallb_forall in D. specialize (D x Ex).
  apply seesb_spec in Hs; try assumption. rewrite Hs in D. cbn [negb orb] in D. lia.
Qed.

(** a mesh with cells of three sizes, periodic in x: 4 x 1 x 1 cells at level 0, cell 1 is
    refined and its child at the lower corner is refined again *)
Definition demo_map : mapping := Mapping 4 1 1 2 (before 4 3).
Definition demo_topo : topo := Topo true false false.
Definition demo_cells : list Z :=
  let k1 := get_all_children demo_map 2 in
  let k2 := get_all_children demo_map (hd 0 (tl k1)) in
  get_all_children demo_map 1 ++ (hd 0 k1 :: tl (tl k1)) ++ k2 ++ get_all_children demo_map 3 ++ [4].
Definition demo_ex : Z -> bool := of_list demo_cells.

Example demo_mesh : mesh demo_map demo_topo 0 demo_ex.
Proof. apply meshb_mesh. vm_compute. reflexivity. Qed.
Example demo_levels : map (lvl_of demo_map) demo_cells =
  repeat 1 15 ++ repeat 2 8 ++ repeat 1 8 ++ [0].
Proof. vm_compute. reflexivity. Qed.

(** the neighbors of cell 4: in +x direction the four children of 1 (through the periodic
    boundary), all eight are listed, in -x direction the children of 3; no others *)
Example c14_example :
  demo_ex 4 = true /\
  find_neighbors_of demo_ex demo_map demo_topo 4 (default_hood_of 0) =
  Done (combine (get_all_children demo_map 3) (map (vadd (Idx (-4) 0 0)) (corners 2)) ++
        combine (get_all_children demo_map 1) (map (vadd (Idx 4 0 0)) (corners 2))) /\
  (exists c, demo_ex c = true /\ lvl_of demo_map c = 2 /\ exists o n, In (n, o) (match find_neighbors_of demo_ex demo_map demo_topo c (default_hood_of 0) with Done l => l | _ => [] end) /\ lvl_of demo_map n = 1).
Proof.
  split; [vm_compute; reflexivity|]. split; [vm_compute; reflexivity|].
  exists (nth 15 demo_cells 0). split; [vm_compute; reflexivity|]. split; [vm_compute; reflexivity|].
  eexists. eexists. split; [vm_compute; left; reflexivity|vm_compute; reflexivity].
Qed.
