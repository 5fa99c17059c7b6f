(** Property C70: geometries in 64 bit floating point numbers without rounding. *)
From Coq Require Import QArith Qround Floats.SpecFloat Lqa.
From Verif Require Import U64 MapModel MapSpec MapProofs MapProps HoodModel MeshSpec MeshBase GeoModel GeoBase GeoProps GeoExamples FloatBase FloatDiv FloatGeo FloatCell.
Open Scope Z_scope.

(** comparisons of the program: x is in the box from lo to hi *)
Definition within64 (lo x hi : dim -> spec_float) : Prop := forall k, b64_le (lo k) (x k) = true /\ b64_lt (x k) (hi k) = true.
Definition within64_closed (lo x hi : dim -> spec_float) : Prop := forall k, b64_le (lo k) (x k) = true /\ b64_le (x k) (hi k) = true.
Definition doubles (x : dim -> spec_float) : Prop := forall k, double (x k).
Definition reals (x : dim -> spec_float) : dim -> option Q := fun k => real_of (x k).
(** two doubles stand for two numbers *)
Definition stands (lo hi : dim -> option Q) (lo' hi' : dim -> spec_float) : Prop :=
  forall k, exists p q, lo k = Some p /\ hi k = Some q /\ is (lo' k) p /\ is (hi' k) q.

Lemma is_double x q : is x q -> double x.
Proof. destruct x as [s| | |s p e]; try contradiction; [reflexivity|]. intros [B _]. exact B. Qed.
Lemma between a b x p q : is a p -> is b q -> double x ->
  (b64_le a x = true /\ b64_lt x b = true <-> exact_le (Some p) (real_of x) = true /\ exact_lt (real_of x) (Some q) = true) /\
  (b64_le a x = true /\ b64_le x b = true <-> exact_le (Some p) (real_of x) = true /\ exact_le (real_of x) (Some q) = true).
Proof.
  intros Ha Hb Dx. destruct (real_of x) as [r|] eqn:Er.
  - pose proof (real_is x r Dx Er) as Hx. cbn [exact_le exact_lt]. rewrite (b64_le_is a x p r Ha Hx), (b64_lt_is x b r q Hx Hb), (b64_le_is x b r q Hx Hb). tauto.
  - cbn [exact_le exact_lt]. destruct x as [s|s| |s n e]; try discriminate.
    + destruct a as [s1| | |s1 p1 e1]; try contradiction; destruct b as [s2| | |s2 p2 e2]; try contradiction; destruct s; cbn; split; split; intros [H1 H2]; discriminate.
    + assert (b64_le a S754_nan = false) as -> by (destruct a; reflexivity). split; split; intros [H1 H2]; discriminate.
Qed.
Lemma within_bridge lo hi lo' hi' x : stands lo hi lo' hi' -> doubles x ->
  (within64 lo' x hi' <-> within lo (reals x) hi) /\ (within64_closed lo' x hi' <-> within_closed lo (reals x) hi).
Proof.
  intros H Dx. assert (forall k, (b64_le (lo' k) (x k) = true /\ b64_lt (x k) (hi' k) = true <-> exact_le (lo k) (reals x k) = true /\ exact_lt (reals x k) (hi k) = true) /\
    (b64_le (lo' k) (x k) = true /\ b64_le (x k) (hi' k) = true <-> exact_le (lo k) (reals x k) = true /\ exact_le (reals x k) (hi k) = true)) as K.
  { intros k. destruct (H k) as (p & q & -> & -> & Ip & Iq). unfold reals. apply between; [assumption|assumption|apply Dx]. }
  split; split; intros I k; destruct (K k) as [K1 K2]; specialize (I k); tauto.
Qed.
Lemma uniq_iff (P Q : Z -> Prop) : (forall c, P c <-> Q c) -> (exists! c, P c) -> exists! c, Q c.
Proof. intros E (c & H & U). exists c. split; [apply E, H|]. intros c' H'. apply U, E, H'. Qed.

(** transfer of the statements of C42 *)
Section Tile.
Context (m : mapping) (start end_ : dim -> option Q) (lo hi : Z -> dim -> option Q) (start' end' : dim -> spec_float) (lo' hi' : Z -> dim -> spec_float).
Context (Hse : stands start end_ start' end') (Hbox : forall c, valid m c -> stands (lo c) (hi c) (lo' c) (hi' c)) (x : dim -> spec_float) (Hx : doubles x).
Context (Hwf : wf m).
Definition tiles64 : Prop :=
  (forall l, 0 <= l <= m_max m -> within64 start' x end' ->
     exists! c, valid m c /\ get_refinement_level m c = l /\ within64 (lo' c) x (hi' c)) /\
  (forall l, 0 <= l <= m_max m -> within64_closed start' x end' ->
     exists c, valid m c /\ get_refinement_level m c = l /\ within64_closed (lo' c) x (hi' c)) /\
  (forall c, valid m c -> within64 (lo' c) x (hi' c) -> within64 start' x end') /\
  (forall c, valid m c -> get_refinement_level m c < m_max m ->
     (within64 (lo' c) x (hi' c) -> exists! k, In k (get_all_children m c) /\ within64 (lo' k) x (hi' k)) /\
     (forall k, In k (get_all_children m c) -> within64 (lo' k) x (hi' k) -> within64 (lo' c) x (hi' c))) /\
  (forall ex, tiling m ex -> within64 start' x end' -> exists! c, ex c = true /\ within64 (lo' c) x (hi' c)).
Definition tiles : Prop :=
  (forall l, 0 <= l <= m_max m -> within start (reals x) end_ ->
     exists! c, valid m c /\ get_refinement_level m c = l /\ within (lo c) (reals x) (hi c)) /\
  (forall l, 0 <= l <= m_max m -> within_closed start (reals x) end_ ->
     exists c, valid m c /\ get_refinement_level m c = l /\ within_closed (lo c) (reals x) (hi c)) /\
  (forall c, valid m c -> within (lo c) (reals x) (hi c) -> within start (reals x) end_) /\
  (forall c, valid m c -> get_refinement_level m c < m_max m ->
     (within (lo c) (reals x) (hi c) -> exists! k, In k (get_all_children m c) /\ within (lo k) (reals x) (hi k)) /\
     (forall k, In k (get_all_children m c) -> within (lo k) (reals x) (hi k) -> within (lo c) (reals x) (hi c))) /\
  (forall ex, tiling m ex -> within start (reals x) end_ -> exists! c, ex c = true /\ within (lo c) (reals x) (hi c)).
Lemma tile_transfer : (forall c k, valid m c -> get_refinement_level m c < m_max m -> In k (get_all_children m c) -> valid m k) -> (forall ex c, tiling m ex -> ex c = true -> valid m c) -> tiles -> tiles64.
Proof.
  intros Hch Htil (A & B & C & D & E). destruct (within_bridge _ _ _ _ x Hse Hx) as [S1 S2].
  assert (forall c, valid m c -> (within64 (lo' c) x (hi' c) <-> within (lo c) (reals x) (hi c)) /\ (within64_closed (lo' c) x (hi' c) <-> within_closed (lo c) (reals x) (hi c))) as W by (intros c Hc; apply within_bridge; [apply Hbox, Hc|assumption]).
  split; [|split; [|split; [|split]]].
  - intros l Hl I. apply S1 in I. apply (uniq_iff (fun c => valid m c /\ get_refinement_level m c = l /\ within (lo c) (reals x) (hi c))); [|apply A; assumption]. intros c. split; intros (V & L & I'); (split; [assumption|split; [assumption|]]); apply (W c V); assumption.
  - intros l Hl I. apply S2 in I. destruct (B l Hl I) as (c & V & L & I'). exists c. split; [assumption|]. split; [assumption|]. apply (W c V), I'.
  - intros c V I. apply S1. apply (C c V). apply (W c V), I.
  - intros c V Hl. destruct (D c V Hl) as [D1 D2]. split.
    + intros I. apply (uniq_iff (fun k => In k (get_all_children m c) /\ within (lo k) (reals x) (hi k))); [|apply D1, (W c V), I].
      intros k. split; intros [Ik I']; (split; [assumption|]); apply (W k (Hch c k V Hl Ik)), I'.
    + intros k Ik I. apply (W c V). apply (D2 k Ik). apply (W k (Hch c k V Hl Ik)), I.
  - intros ex T I. apply S1 in I. apply (uniq_iff (fun c => ex c = true /\ within (lo c) (reals x) (hi c))); [|apply E; assumption].
    intros c. split; intros [Ec I']; (split; [assumption|]); apply (W c (Htil ex c T Ec)), I'.
Qed.
End Tile.

Lemma kids_valid m c k : wf m -> valid m c -> get_refinement_level m c < m_max m -> In k (get_all_children m c) -> valid m k.
Proof.
  intros Hwf V Hl Ik. destruct (c03_children m c Hwf V Hl) as (_ & _ & H & _). apply H, Ik.
Qed.

(** ** Cartesian geometry *)
Section Cart.
Context (m : mapping) (g : cartesian binary64) (Hwf : wf m) (Hg : dyadic m g).
Notation e := (exact_of g).
Lemma lats k : exists s h S L u, is (ca_start g k) s /\ is (ca_length0 g k) h /\ real_of (ca_start g k) = Some s /\ real_of (ca_length0 g k) = Some h /\
  lat u (Z.abs S) s /\ lat u L h /\ 0 < L /\ (Z.abs S + mlen m k * L) * 2 ^ (m_max m + 1) < 2 ^ 52 /\ m_max m - 1000 <= u <= 900.
Proof.
  destruct (params m g Hg k) as (s & h & S & L & u & Hs & Hh & Es & Eh & Qs & Qh & PL & HB & Hu). exists s, h, S, L, u.
  assert (lat u (Z.abs S) s) as Ls by exact (lat_eq _ _ _ _ (Qeq_sym _ _ Qs) (lat_dy S u)).
  assert (lat u L h) as Lh by (rewrite <- (Z.abs_eq L) at 1 by lia; exact (lat_eq _ _ _ _ (Qeq_sym _ _ Qh) (lat_dy L u))). tauto.
Qed.
Lemma ca_domain : stands (ca_start e) (ca_end exact m e) (ca_start g) (ca_end binary64 m g).
Proof.
  intros k. destruct (ends m g Hwf Hg k) as (s & h & b & S & L & u & Hs & Hh & Hb & Es & Eh & Ee & _). exists s, b. cbn [exact_of ca_start]. tauto.
Qed.
Lemma ca_box c : valid m c -> stands (ca_min exact m e c) (ca_max exact m e c) (ca_min binary64 m g c) (ca_max binary64 m g c).
Proof.
  intros Hc k. destruct (lats k) as (s & h & S & L & u & Hs & Hh & Es & Eh & Ls & Lh & PL & HB & Hu).
  destruct (min_max_is m g Hwf k s h S L u Hs Hh Es Eh Ls Lh PL HB Hu c Hc) as [A B].
  destruct (ca_min_eq m e Hwf (finite_of m g Hg) c k Hc) as (p & E & _). destruct (ca_max_eq m e Hwf (finite_of m g Hg) c k Hc) as (q & E' & _).
  rewrite E in A. rewrite E' in B. exists p, q. split; [assumption|]. split; [assumption|]. split; assumption.
Qed.
Lemma ca_tiles x : doubles x -> tiles64 m (ca_start g) (ca_end binary64 m g) (ca_min binary64 m g) (ca_max binary64 m g) x.
Proof.
  intros Dx. apply (tile_transfer m (ca_start e) (ca_end exact m e) (ca_min exact m e) (ca_max exact m e)).
  - apply ca_domain.
  - intros c Hc. apply ca_box, Hc.
  - assumption.
  - intros c k V Hl. apply (kids_valid m c k Hwf V Hl).
  - intros ex c [T _]. apply T.
  - apply (c42_cartesian_boxes_tile_the_domain m e (reals x) Hwf (finite_of m g Hg)).
Qed.
Lemma ca_found t c x : valid m c -> doubles x -> (forall k, unrounded (ca_start g k) (ca_end binary64 m g k) (per t k) (x k)) ->
  within64 (ca_min binary64 m g c) x (ca_max binary64 m g c) -> ca_cell binary64 m t g (get_refinement_level m c) x = c.
Proof.
  intros Hc Dx Hu I. rewrite (cell_same m t g Hwf Hg _ x Hu). fold (reals x). pose proof (finite_of m g Hg) as F.
  apply (within_bridge _ _ _ _ x (ca_box c Hc) Dx) in I. destruct (c43_cartesian_get_cell m t e Hwf F) as (_ & K & _). cbv zeta in K.
  pose proof (c42_cartesian_boxes_tile_the_domain m e (reals x) Hwf F) as (_ & _ & G & _). specialize (G c Hc I). apply K; [assumption| |].
  - apply inside_hits; [| |assumption]; intros k.
    + destruct (ca_start_eq m e F k) as [E _]. rewrite E. discriminate.
    + destruct (ca_end_eq m e Hwf F k) as [E _]. rewrite E. discriminate.
  - intros k. apply inside_not_upper; [|apply G].
    destruct (ca_start_eq m e F k) as [E Q], (ca_end_eq m e Hwf F k) as [E' Q']. rewrite E, E'. apply lt_iff.
    pose proof (glen_pos m Hwf k). pose proof (ca_inc m e Hwf F k 0 (glen m k) ltac:(lia) ltac:(lia) ltac:(lia)). lra.
Qed.
(** the start of the grid is zero: nothing is rounded for any coordinate in the grid *)
Lemma zero_start t x : (forall k, is (ca_start g k) 0) -> doubles x -> within64 (ca_start g) x (ca_end binary64 m g) -> forall k, unrounded (ca_start g k) (ca_end binary64 m g k) (per t k) (x k).
Proof.
  intros Z0 Dx I k. destruct (ca_domain k) as (p & b & Ep & Eb & Ip & Ib). apply (within_bridge _ _ _ _ x ca_domain Dx) in I. destruct (I k) as [I1 I2].
  rewrite Ep in I1. rewrite Eb in I2. unfold reals in I1, I2. destruct (real_of (x k)) as [q|] eqn:Ex; [|discriminate]. apply le_iff in I1. apply lt_iff in I2.
  pose proof (real_is _ _ (Dx k) Ex) as Ix. right. exists q, p, b. split; [assumption|]. split; [assumption|]. split; [assumption|]. left. split; [assumption|]. split; [lra|].
  apply (fits_eq q); [|apply (is_fits _ _ Ix)]. rewrite <- (is_unique _ _ _ (Z0 k) Ip). ring.
Qed.
Lemma ca_mid c k : valid m c -> exists q, ca_center exact m e c k = Some q /\ is (ca_center binary64 m g c k) q /\ exists s, is (ca_start g k) s /\ fits (q - s).
Proof.
  intros Hc. destruct (lats k) as (s & h & S & L & u & Hs & Hh & Es & Eh & Ls & Lh & PL & HB & Hu).
  destruct (center_is m g Hwf k s h S L u Hs Hh Es Eh Ls Lh PL HB Hu c Hc) as (q & Eq & Iq & Lq). exists q. split; [assumption|]. split; [assumption|]. exists s. split; [assumption|].
  destruct (cell_numbers m Hwf c Hc k) as (Hl & Hi & Hil & _ & _ & H21 & _ & Pm). set (i := get (get_indices m c) k) in *. set (l := get_refinement_level m c) in *.
  destruct (sizes m Hwf k S L PL) as (M1 & EM & Hm & _ & L1 & L2). set (M := 2 ^ m_max m) in *. rewrite EM in HB.
  assert (lat (u - m_max m - 1) (Z.abs S * (2 * M)) s) as Ls' by (apply (lat_w m Hwf k S L u PL); assumption).
  pose proof (lat_sub _ _ _ _ _ Lq Ls') as Ld. apply (lat_fits _ _ _ Ld); [|lia].
  assert (2 * i * L + 2 * (L * 2 ^ (m_max m - l)) <= mlen m k * L * (2 * M)) as Bi by nia.
  pose proof (Z.pow_pos_nonneg 2 (m_max m - l) ltac:(lia) ltac:(lia)) as P. assert (0 < L * 2 ^ (m_max m - l)) by (apply Z.mul_pos_pos; assumption). lia.
Qed.
Lemma ca_mid_within c : valid m c -> within64 (ca_min binary64 m g c) (ca_center binary64 m g c) (ca_max binary64 m g c).
Proof.
  intros Hc k. destruct (ca_box c Hc k) as (p & r & Ep & Er & Ip & Ir). destruct (ca_mid c k Hc) as (q & Eq & Iq & _).
  destruct (c42_cartesian_center_and_length m e c k Hwf (finite_of m g Hg) Hc) as (A & B & _). cbv zeta in A, B. rewrite Ep, Eq in A. rewrite Eq, Er in B.
  rewrite (b64_le_is _ _ _ _ Ip Iq), (b64_lt_is _ _ _ _ Iq Ir). split; [|exact B]. apply lt_iff in A. apply qle_iff. lra.
Qed.
End Cart.

(** Start, end, lengths, centers and corners of all cells, and the centers of levels and indices, are
    the numbers of exact arithmetic: nothing is rounded. *)
Theorem c70_cartesian_values m g :
  wf m -> dyadic m g ->
  let e := exact_of g in
  finite e /\
  (forall k, agree (ca_start e k) (ca_start g k) /\ agree (ca_end exact m e k) (ca_end binary64 m g k)) /\
  (forall c k, valid m c ->
     agree (ca_length exact m e c k) (ca_length binary64 m g c k) /\ agree (ca_center exact m e c k) (ca_center binary64 m g c k) /\
     agree (ca_min exact m e c k) (ca_min binary64 m g c k) /\ agree (ca_max exact m e c k) (ca_max binary64 m g c k)) /\
  (forall l i k, (forall k', 0 <= get i k') -> agree (ca_center_at exact m e l i k) (ca_center_at binary64 m g l i k)).
Proof.
  intros Hwf Hg. cbv zeta. split; [apply (finite_of m g Hg)|]. split; [|split].
  - intros k. destruct (lats m g Hg k) as (s & h & S & L & u & Hs & Hh & Es & Eh & Ls & Lh & PL & HB & Hu). split.
    + cbn [exact_of ca_start]. rewrite Es. exact Hs.
    + apply (end_is m g Hwf k s h S L u); assumption.
  - intros c k Hc. destruct (lats m g Hg k) as (s & h & S & L & u & Hs & Hh & Es & Eh & Ls & Lh & PL & HB & Hu). split; [|split].
    + destruct (length_is m g Hwf k h S L u Hh Eh Lh PL HB Hu c Hc) as (q & -> & I & _). exact I.
    + destruct (center_is m g Hwf k s h S L u Hs Hh Es Eh Ls Lh PL HB Hu c Hc) as (q & -> & I & _). exact I.
    + apply (min_max_is m g Hwf k s h S L u Hs Hh Es Eh Ls Lh PL HB Hu c Hc).
  - intros l i k Hi. destruct (lats m g Hg k) as (s & h & S & L & u & Hs & Hh & Es & Eh & Ls & Lh & PL & HB & Hu).
    apply (center_at_is m g Hwf k s h S L u Hs Hh Es Eh Ls Lh PL HB Hu l i Hi).
Qed.
Print Assumptions c70_cartesian_values.

(** C42 in doubles: every coordinate of the grid is in exactly one box of each level, boxes of children
    fill the box of their parent, and the boxes of existing cells tile the grid. *)
Theorem c70_cartesian_boxes_tile_the_domain m g x :
  wf m -> dyadic m g -> doubles x ->
  let start := ca_start g in let end_ := ca_end binary64 m g in
  let lo := ca_min binary64 m g in let hi := ca_max binary64 m g in
  (forall l, 0 <= l <= m_max m -> within64 start x end_ ->
     exists! c, valid m c /\ get_refinement_level m c = l /\ within64 (lo c) x (hi c)) /\
  (forall l, 0 <= l <= m_max m -> within64_closed start x end_ ->
     exists c, valid m c /\ get_refinement_level m c = l /\ within64_closed (lo c) x (hi c)) /\
  (forall c, valid m c -> within64 (lo c) x (hi c) -> within64 start x end_) /\
  (forall c, valid m c -> get_refinement_level m c < m_max m ->
     (within64 (lo c) x (hi c) -> exists! k, In k (get_all_children m c) /\ within64 (lo k) x (hi k)) /\
     (forall k, In k (get_all_children m c) -> within64 (lo k) x (hi k) -> within64 (lo c) x (hi c))) /\
  (forall ex, tiling m ex -> within64 start x end_ -> exists! c, ex c = true /\ within64 (lo c) x (hi c)).
Proof. intros Hwf Hg Dx. exact (ca_tiles m g Hwf Hg x Dx). Qed.
Print Assumptions c70_cartesian_boxes_tile_the_domain.

(** C43 in doubles: for coordinates whose distance from the start of the grid is a double, get_cell gives
    the cell of the level that the coordinate is in. When the grid starts at zero these are all coordinates. *)
Theorem c70_cartesian_get_cell m t g :
  wf m -> dyadic m g ->
  let start := ca_start g in let end_ := ca_end binary64 m g in
  let lo := ca_min binary64 m g in let hi := ca_max binary64 m g in
  let good x := doubles x /\ ((forall k, unrounded (start k) (end_ k) (per t k) (x k)) \/ (forall k, is (start k) 0) /\ within64 start x end_) in
  (forall l x, (forall k, unrounded (start k) (end_ k) (per t k) (x k)) -> ca_cell binary64 m t g l x = ca_cell exact m t (exact_of g) l (reals x)) /\
  (forall c x, valid m c -> good x -> within64 (lo c) x (hi c) -> ca_cell binary64 m t g (get_refinement_level m c) x = c) /\
  (forall l x, 0 <= l <= m_max m -> good x -> within64 start x end_ ->
     let c := ca_cell binary64 m t g l x in valid m c /\ get_refinement_level m c = l /\ within64 (lo c) x (hi c)) /\
  (forall c, valid m c -> ca_cell binary64 m t g (get_refinement_level m c) (ca_center binary64 m g c) = c).
Proof.
  intros Hwf Hg. cbv zeta. pose proof (finite_of m g Hg) as F.
  assert (forall c x, valid m c -> doubles x -> ((forall k, unrounded (ca_start g k) (ca_end binary64 m g k) (per t k) (x k)) \/ (forall k, is (ca_start g k) 0) /\ within64 (ca_start g) x (ca_end binary64 m g)) ->
    within64 (ca_min binary64 m g c) x (ca_max binary64 m g c) -> ca_cell binary64 m t g (get_refinement_level m c) x = c) as K.
  { intros c x Hc Dx [Hu|[Z0 I0]] I; (apply ca_found; [assumption|assumption|assumption|assumption| |assumption]); [assumption|]. apply zero_start; assumption. }
  split; [|split; [|split]].
  - intros l x Hu. apply cell_same; assumption.
  - intros c x Hc [Dx Hu]. apply K; assumption.
  - intros l x Hl [Dx Hu] I. destruct (ca_tiles m g Hwf Hg x Dx) as (T & _). destruct (T l Hl I) as (c & (Hc & Lc & Ic) & _).
    assert (ca_cell binary64 m t g l x = c) as -> by (rewrite <- Lc; apply K; assumption). auto.
  - intros c Hc. assert (doubles (ca_center binary64 m g c)) as Dx by (intros k; destruct (ca_mid m g Hwf Hg c k Hc) as (q & _ & Iq & _); apply (is_double _ q Iq)).
    pose proof (ca_mid_within m g Hwf Hg c Hc) as I. apply ca_found; try assumption. intros k.
    destruct (ca_tiles m g Hwf Hg _ Dx) as (_ & _ & T & _). specialize (T c Hc I). destruct (ca_domain m g Hwf Hg k) as (a & b & _ & _ & Ia & Ib). destruct (ca_mid m g Hwf Hg c k Hc) as (q & _ & Iq & s & Is & Fq).
    destruct (T k) as [T1 T2]. rewrite (b64_le_is _ _ _ _ Ia Iq) in T1. rewrite (b64_lt_is _ _ _ _ Iq Ib) in T2. apply qle_iff in T1. apply (lt_iff q b) in T2.
    right. exists q, s, b. split; [assumption|]. split; [assumption|]. split; [assumption|]. left. pose proof (is_unique _ _ _ Is Ia) as Q. split; [lra|]. split; [lra|]. assumption.
Qed.
Print Assumptions c70_cartesian_get_cell.

(** C44 in doubles: get_real_coordinate returns coordinates of the grid as they are, moves others by whole
    grid lengths exactly in periodic dimensions, and gives NaN otherwise. *)
Theorem c70_cartesian_real_coordinate m t g x k :
  wf m -> dyadic m g -> double (x k) ->
  let start := ca_start g k in let end_ := ca_end binary64 m g k in let y := ca_real_coordinate binary64 m t g x k in
  unrounded start end_ (per t k) (x k) ->
  (b64_le start (x k) = true -> b64_le (x k) end_ = true -> y = x k) /\
  (y = S754_nan <-> real_of (x k) = None \/ per t k = false /\ ~ (b64_le start (x k) = true /\ b64_le (x k) end_ = true)) /\
  (y <> S754_nan -> b64_le start y = true /\ b64_le y end_ = true /\
     exists n q a b, (n <> 0 -> per t k = true) /\ is (x k) q /\ is start a /\ is end_ b /\ is y (q - inject_Z n * (b - a))).
Proof.
  intros Hwf Hg Dx. cbv zeta. intros Hu. pose proof (finite_of m g Hg) as F. destruct (real_coordinate_same m t g Hwf Hg x k Hu) as [A B].
  destruct (c44_cartesian_real_coordinate m t (exact_of g) (reals x) k Hwf F) as (C1 & C2 & C3).
  change (fun k : dim => real_of (x k)) with (reals x) in A, B. destruct (ca_domain m g Hwf Hg k) as (a & b & Ea & Eb & Ia & Ib). rewrite Ea, Eb in *.
  pose proof (proj2 (between _ _ (x k) _ _ Ia Ib Dx)) as Bt. fold (reals x k) in Bt. change (real_of (x k)) with (reals x k).
  assert (ca_real_coordinate exact m t (exact_of g) (reals x) k = None <-> ca_real_coordinate binary64 m t g x k = S754_nan) as N.
  { destruct (ca_real_coordinate exact m t (exact_of g) (reals x) k) as [q|]; cbn [agree] in A; [|tauto]. split; [discriminate|]. intros E. rewrite E in A. contradiction. }
  split; [|split].
  - intros H1 H2. unfold ca_real_coordinate, real_coordinate. change (le binary64) with b64_le. rewrite H1, H2. reflexivity.
  - rewrite <- N, C2. tauto.
  - intros H. assert (ca_real_coordinate exact m t (exact_of g) (reals x) k <> None) as H' by (intros E; apply H, N, E). destruct (C3 H') as (L1 & L2 & n & Pn & Sn).
    destruct (ca_real_coordinate exact m t (exact_of g) (reals x) k) as [q|]; [|congruence]. cbn [agree] in A.
    rewrite (b64_le_is _ _ _ _ Ia A), (b64_le_is _ _ _ _ A Ib). split; [assumption|]. split; [assumption|].
    unfold shifted, reals in Sn. destruct (real_of (x k)) as [r|] eqn:Er; [|destruct Sn; discriminate]. cbn [lift2] in Sn. apply same_iff in Sn.
    exists n, r, a, b. split; [assumption|]. split; [apply real_is; assumption|]. split; [assumption|]. split; [assumption|]. apply (is_eq _ q); [assumption|]. rewrite Sn. reflexivity.
Qed.
Print Assumptions c70_cartesian_real_coordinate.

(** ** No geometry *)
Section No.
Context (m : mapping) (Hwf : wf m) (Hm : countable m).
Lemma no_domain : stands (no_start exact) (no_end exact m) (no_start binary64) (no_end binary64 m).
Proof.
  intros k. exists 0%Q, (inject_Z (mlen m k)). split; [reflexivity|]. split; [reflexivity|]. split; [apply no_start_is|apply no_end_is; assumption].
Qed.
Lemma no_box c : valid m c -> stands (no_min exact m c) (no_max exact m c) (no_min binary64 m c) (no_max binary64 m c).
Proof.
  intros Hc k. destruct (no_min_max_is m Hwf Hm k c Hc) as [A B].
  destruct (no_min_eq m Hwf c k Hc) as (p & E & _). destruct (no_max_eq m Hwf c k Hc) as (q & E' & _).
  rewrite E in A. rewrite E' in B. exists p, q. split; [assumption|]. split; [assumption|]. split; assumption.
Qed.
Lemma no_tiles x : doubles x -> tiles64 m (no_start binary64) (no_end binary64 m) (no_min binary64 m) (no_max binary64 m) x.
Proof.
  intros Dx. apply (tile_transfer m (no_start exact) (no_end exact m) (no_min exact m) (no_max exact m)).
  - apply no_domain.
  - intros c Hc. apply no_box, Hc.
  - assumption.
  - intros c k V Hl. apply (kids_valid m c k Hwf V Hl).
  - intros ex c [T _]. apply T.
  - apply (c42_no_geometry_boxes_tile_the_domain m (reals x) Hwf).
Qed.
Lemma no_inside t x : doubles x -> within64 (no_start binary64) x (no_end binary64 m) -> forall k, unrounded (no_start binary64 k) (no_end binary64 m k) (per t k) (x k).
Proof.
  intros Dx I k. apply (within_bridge _ _ _ _ x no_domain Dx) in I. destruct (I k) as [I1 I2]. unfold reals in I1, I2. destruct (real_of (x k)) as [q|] eqn:Ex; [|discriminate].
  apply le_iff in I1. apply lt_iff in I2. apply (no_unrounded m t Hwf Hm k (x k) q); [apply real_is; [apply Dx|assumption]|exact I1|apply Qlt_le_weak; exact I2].
Qed.
Lemma no_found t c x : valid m c -> doubles x -> within64 (no_min binary64 m c) x (no_max binary64 m c) -> no_cell binary64 m t (get_refinement_level m c) x = c.
Proof.
  intros Hc Dx I. destruct (no_tiles x Dx) as (_ & _ & G' & _). pose proof (G' c Hc I) as I0. rewrite (no_cell_same m t Hwf Hm _ x (no_inside t x Dx I0)). fold (reals x).
  apply (within_bridge _ _ _ _ x (no_box c Hc) Dx) in I. destruct (c43_no_geometry_get_cell m t Hwf) as (_ & K & _). cbv zeta in K.
  apply (within_bridge _ _ _ _ x no_domain Dx) in I0. apply K; [assumption| |].
  - apply inside_hits; [| |assumption]; intros k; discriminate.
  - intros k. apply inside_not_upper; [|apply I0]. apply lt_iff. apply (no_len_pos m Hwf k).
Qed.
Lemma no_mid_within c : valid m c -> doubles (no_center binary64 m c) /\ within64 (no_min binary64 m c) (no_center binary64 m c) (no_max binary64 m c).
Proof.
  intros Hc. split; intros k; destruct (no_center_is m Hwf Hm k c Hc) as (q & Eq & Iq & _); [apply (is_double _ _ Iq)|].
  destruct (no_box c Hc k) as (p & r & Ep & Er & Ip & Ir). destruct (c42_no_geometry_center_and_length m c k Hwf Hc) as (A & B & _). cbv zeta in A, B. rewrite Ep, Eq in A. rewrite Eq, Er in B.
  rewrite (b64_le_is _ _ _ _ Ip Iq), (b64_lt_is _ _ _ _ Iq Ir). split; [|exact B]. apply lt_iff in A. apply qle_iff. lra.
Qed.
End No.

Theorem c70_no_geometry_values m :
  wf m -> countable m ->
  (forall k, agree (no_start exact k) (no_start binary64 k) /\ agree (no_end exact m k) (no_end binary64 m k)) /\
  (forall c k, valid m c ->
     agree (no_length exact m c k) (no_length binary64 m c k) /\ agree (no_center exact m c k) (no_center binary64 m c k) /\
     agree (no_min exact m c k) (no_min binary64 m c k) /\ agree (no_max exact m c k) (no_max binary64 m c k)) /\
  (forall l i k, (forall k', 0 <= get i k') -> agree (no_center_at exact m l i k) (no_center_at binary64 m l i k)).
Proof.
  intros Hwf Hm. split; [|split].
  - intros k. split; [apply no_start_is|apply no_end_is; assumption].
  - intros c k Hc. split; [|split].
    + destruct (no_length_is m Hwf k c Hc) as (q & -> & I & _). exact I.
    + destruct (no_center_is m Hwf Hm k c Hc) as (q & -> & I & _). exact I.
    + apply no_min_max_is; assumption.
  - intros l i k Hi. apply no_center_at_is; assumption.
Qed.
Print Assumptions c70_no_geometry_values.

Theorem c70_no_geometry_boxes_tile_the_domain m x :
  wf m -> countable m -> doubles x ->
  let start := no_start binary64 in let end_ := no_end binary64 m in
  let lo := no_min binary64 m in let hi := no_max binary64 m in
  (forall l, 0 <= l <= m_max m -> within64 start x end_ ->
     exists! c, valid m c /\ get_refinement_level m c = l /\ within64 (lo c) x (hi c)) /\
  (forall l, 0 <= l <= m_max m -> within64_closed start x end_ ->
     exists c, valid m c /\ get_refinement_level m c = l /\ within64_closed (lo c) x (hi c)) /\
  (forall c, valid m c -> within64 (lo c) x (hi c) -> within64 start x end_) /\
  (forall c, valid m c -> get_refinement_level m c < m_max m ->
     (within64 (lo c) x (hi c) -> exists! k, In k (get_all_children m c) /\ within64 (lo k) x (hi k)) /\
     (forall k, In k (get_all_children m c) -> within64 (lo k) x (hi k) -> within64 (lo c) x (hi c))) /\
  (forall ex, tiling m ex -> within64 start x end_ -> exists! c, ex c = true /\ within64 (lo c) x (hi c)).
Proof. intros Hwf Hm Dx. exact (no_tiles m Hwf Hm x Dx). Qed.
Print Assumptions c70_no_geometry_boxes_tile_the_domain.

(** without geometry get_cell is right for every double of the grid *)
Theorem c70_no_geometry_get_cell m t :
  wf m -> countable m ->
  let start := no_start binary64 in let end_ := no_end binary64 m in
  let lo := no_min binary64 m in let hi := no_max binary64 m in
  (forall l x, (forall k, unrounded (start k) (end_ k) (per t k) (x k)) -> no_cell binary64 m t l x = no_cell exact m t l (reals x)) /\
  (forall c x, valid m c -> doubles x -> within64 (lo c) x (hi c) -> no_cell binary64 m t (get_refinement_level m c) x = c) /\
  (forall l x, 0 <= l <= m_max m -> doubles x -> within64 start x end_ ->
     let c := no_cell binary64 m t l x in valid m c /\ get_refinement_level m c = l /\ within64 (lo c) x (hi c)) /\
  (forall c, valid m c -> no_cell binary64 m t (get_refinement_level m c) (no_center binary64 m c) = c).
Proof.
  intros Hwf Hm. cbv zeta. split; [|split; [|split]].
  - intros l x Hu. apply no_cell_same; assumption.
  - intros c x Hc Dx. apply no_found; assumption.
  - intros l x Hl Dx I. destruct (no_tiles m Hwf Hm x Dx) as (T & _). destruct (T l Hl I) as (c & (Hc & Lc & Ic) & _).
    assert (no_cell binary64 m t l x = c) as -> by (rewrite <- Lc; apply no_found; assumption). auto.
  - intros c Hc. destruct (no_mid_within m Hwf Hm c Hc) as [Dx I]. apply no_found; assumption.
Qed.
Print Assumptions c70_no_geometry_get_cell.

(** ** Cases *)
(** 3 x 2 x 1 cells of 0.5 x 2 x 5 from -1.5, 0.25, 3 *)
Definition geo64 : cartesian binary64 := Cartesian (A := binary64) (three (dbl (-3) 2) (dbl 1 4) (dbl 3 1)) (three (dbl 1 2) (dbl 2 1) (dbl 5 1)).
Example geo64_dyadic : dyadic geo_map geo64.
Proof.
  intros []; [exists (-3), 1, (-1)|exists 1, 8, (-2)|exists 3, 5, 0];
  (split; [vm_compute; split; reflexivity|]; split; [vm_compute; split; reflexivity|]; split; [lia|]; split; [vm_compute; reflexivity|cbn; lia]).
Qed.
Example geo64_countable : countable geo_map.
Proof. intros []; vm_compute; reflexivity. Qed.
(** a coordinate of the grid and the same coordinate some grids away *)
Definition geo64_x : dim -> spec_float := three (dbl (-1) 8) (dbl 13 4) (dbl 29 4).
Definition geo64_far : dim -> spec_float := three (dbl (-97) 8) (dbl 413 4) (dbl (-71) 4).
Example geo64_x_double : doubles geo64_x /\ doubles geo64_far.
Proof. split; intros []; reflexivity. Qed.
Example geo64_x_inside : within64 (ca_start geo64) geo64_x (ca_end binary64 geo_map geo64).
Proof. intros []; split; vm_compute; reflexivity. Qed.
Lemma is_dyadic_aligned a b p x X S E w : is x (dy X w) -> is a (dy S w) -> is b (dy E w) -> Z.abs X + Z.abs S + Z.abs E < 2 ^ 51 -> -900 <= w <= 900 -> unrounded a b p x.
Proof.
  intros Ix Ia Ib H Hw. right. exists (dy X w), (dy S w), (dy E w). split; [assumption|]. split; [assumption|]. split; [assumption|]. right. right.
  exists w, X, S, E. split; [reflexivity|]. split; [reflexivity|]. split; [reflexivity|]. split; assumption.
Qed.
Example geo64_x_unrounded k : unrounded (ca_start geo64 k) (ca_end binary64 geo_map geo64 k) (per around k) (geo64_x k).
Proof.
  destruct k; [apply (is_dyadic_aligned _ _ _ _ (-1) (-12) 0 (-3))|apply (is_dyadic_aligned _ _ _ _ 13 1 17 (-2))|apply (is_dyadic_aligned _ _ _ _ 29 12 32 (-2))];
  solve [vm_compute; split; reflexivity | vm_compute; reflexivity | lia].
Qed.
Example geo64_far_unrounded k : unrounded (ca_start geo64 k) (ca_end binary64 geo_map geo64 k) (per around k) (geo64_far k).
Proof.
  destruct k; [apply (is_dyadic_aligned _ _ _ _ (-97) (-12) 0 (-3))|apply (is_dyadic_aligned _ _ _ _ 413 1 17 (-2))|apply (is_dyadic_aligned _ _ _ _ (-71) 12 32 (-2))];
  solve [vm_compute; split; reflexivity | vm_compute; reflexivity | lia].
Qed.
Example geo64_cells : map (fun l => ca_cell binary64 geo_map walls geo64 l geo64_x) [0; 1; 2] = [6; 54; 426] /\
  map (fun l => ca_cell binary64 geo_map around geo64 l geo64_far) [0; 1; 2] = [6; 54; 426] /\
  map (fun l => ca_cell binary64 geo_map walls geo64 l geo64_far) [0; 1; 2] = [0; 0; 0].
Proof. vm_compute. split; [|split]; reflexivity. Qed.

(** ** Where rounding begins *)
(** The conditions on the coordinate are needed: a coordinate just below zero in a grid from -2 to 2 is in the box of
    the first cell and get_cell gives the second one, and in a grid from -2 to 0 it has no cell. *)
Theorem c70_tiny_coordinate_refuted :
  exists m m' t g x, wf m /\ wf m' /\ dyadic m g /\ dyadic m' g /\ doubles x /\
    within64 (ca_min binary64 m g 1) x (ca_max binary64 m g 1) /\ ca_cell binary64 m t g 0 x = 2 /\
    within64 (ca_start g) x (ca_end binary64 m' g) /\ ca_cell binary64 m' t g 0 x = error_cell.
Proof.
  exists (Mapping 2 1 1 0 2), (Mapping 1 1 1 0 1), walls, (Cartesian (A := binary64) (three (dbl (-2) 1) (dbl 0 1) (dbl 0 1)) (fun _ => dbl 2 1)), (three (S754_finite true 4503599627370496 (-152)) (dbl 1 1) (dbl 1 1)).
  split; [apply wfb_wf; vm_compute; reflexivity|]. split; [apply wfb_wf; vm_compute; reflexivity|].
  split; [intros []; [exists (-2)|exists 0|exists 0]; exists 2, 0; (split; [vm_compute; try split; reflexivity|]; split; [vm_compute; split; reflexivity|]; split; [lia|]; split; [vm_compute; reflexivity|cbn; lia])|].
  split; [intros []; [exists (-2)|exists 0|exists 0]; exists 2, 0; (split; [vm_compute; try split; reflexivity|]; split; [vm_compute; split; reflexivity|]; split; [lia|]; split; [vm_compute; reflexivity|cbn; lia])|].
  split; [intros []; reflexivity|]. split; [intros []; split; vm_compute; reflexivity|]. split; [vm_compute; reflexivity|].
  split; [intros []; split; vm_compute; reflexivity|]. vm_compute. reflexivity.
Qed.
Print Assumptions c70_tiny_coordinate_refuted.
(** The condition on the size is needed: two cells of a grid of 2^60 cells have the same center. *)
Theorem c70_long_grid_refuted :
  exists m c c', wf m /\ valid m c /\ valid m c' /\ c <> c' /\ (forall k, no_center binary64 m c k = no_center binary64 m c' k) /\
    forall t, no_cell binary64 m t (get_refinement_level m c') (no_center binary64 m c') <> c'.
Proof.
  exists (Mapping (2 ^ 60) 1 1 0 (2 ^ 60)), (2 ^ 55 + 1), (2 ^ 55 + 2). split; [apply wfb_wf; vm_compute; reflexivity|].
  split; [unfold valid; cbn; lia|]. split; [unfold valid; cbn; lia|]. split; [lia|]. split; [intros []; vm_compute; reflexivity|].
  intros [[] [] []]; vm_compute; discriminate.
Qed.
Print Assumptions c70_long_grid_refuted.
