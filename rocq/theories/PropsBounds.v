(** C29, C30, C32: what Bounds promises about the solid.

    [solid3 g m s] and [solid2 g m s] describe the shapes that can be built with the
    constructors of the package, at any depth, with valid parameters; there is one rule
    per constructor.  The grade [g] says how strong the promise of Bounds is:
    - [Contain]: points with a negative value lie in Bounds;
    - [Axis]: moreover the value at a point is at least its signed distance to Bounds
      along each axis;
    - [Euclid]: moreover it is at least the signed Euclidean distance to Bounds.
    [m] is the value below which the promise holds; it starts at math.MaxFloat64 (the
    value of an empty shape) and shrinks by every offset. *)
From Coq Require Import Reals Lra Lia List Bool ZArith Classical.
From Verif Require Import Prelude Vec BoxModel MatrixModel PropsBox PropsMatrix SdfModel SdfLemmas PropsBool Trig
  Grades GradesOps GradesSweep GradesCopy GradesRest Distance PrimModel PrimCores PropsPrim.
Import ListNotations.
Local Open Scope R_scope.

Inductive solid3 : grade -> R -> sdf3 -> Prop :=
| B3_user g m s : dom3 g m s -> solid3 g m s
| B3_weaken g h m s : weaker g h = true -> solid3 g m s -> solid3 h m s
| B3_lower g m m' s : m' <= m -> solid3 g m s -> solid3 g m' s
(* form3/must3 *)
| B3_sphere r s m : must_sphere r = Ok s -> solid3 Euclid m s
| B3_box size round s m : must_box3 size round = Ok s ->
    round <= x3 size / 2 -> round <= y3 size / 2 -> round <= z3 size / 2 -> solid3 Euclid m s
| B3_box_any size round s m : must_box3 size round = Ok s -> solid3 Axis m s
| B3_cylinder h r round s m : must_cylinder h r round = Ok s -> solid3 Euclid m s
| B3_cone h r0 r1 round s m : must_cone h r0 r1 round = Ok s ->
    0 <= c_r0 (cone_of h r0 r1 round) -> 0 <= c_r1 (cone_of h r0 r1 round) -> solid3 Euclid m s
| B3_cone_any h r0 r1 round s m : must_cone h r0 r1 round = Ok s -> solid3 Axis m s
(* booleans *)
| B3_union g m l s : (forall x, In (Some x) l -> solid3 g m x) -> union3d l = Ok s -> solid3 g m s
| B3_difference g m s0 s1 s : solid3 g m s0 -> difference3d (Some s0) (Some s1) = Ok s -> solid3 g m s
| B3_intersect g m s0 s1 s : solid3 g m s0 -> intersect3d (Some s0) (Some s1) = Ok s -> solid3 g m s
| B3_cut g m s a n : solid3 g m s -> solid3 g m (cut3d s a n)
(* placement *)
| B3_transform g m s t : affine3 t -> det44 t <> 0 -> keeps3 g t -> solid3 g m s -> solid3 g m (transform3 s t)
| B3_scale g m s k : 0 < k -> solid3 g m s -> solid3 g (m * k) (scale_uniform3d s k)
| B3_array g m s n0 n1 n2 step : m <= max_float64 -> solid3 g m s -> solid3 g m (array3d s n0 n1 n2 step)
| B3_rotate_union g m s n step s' : g <> Axis -> m <= max_float64 -> affine3 step -> det44 step <> 0 ->
    (g = Euclid -> isometry3 (mul_pos3 step)) -> solid3 g m s -> rotate_union3d s n step = Ok s' -> solid3 g m s'
| B3_rotate_copy g m s n : g <> Axis -> m <= max_float64 -> solid3 g m s -> solid3 g m (rotate_copy3d s n)
| B3_line_of g m s p0 p1 pat s' : solid3 g m s -> line_of3d (Some s) p0 p1 pat = Ok s' -> solid3 g m s'
| B3_multi g m s ps s' : m <= max_float64 -> solid3 g m s -> multi3d (Some s) ps = Ok s' -> solid3 g m s'
| B3_orient g m s base ds s' : g <> Axis -> m <= max_float64 -> solid3 g m s -> orient3d (Some s) base ds = Ok s' -> solid3 g m s'
(* level sets *)
| B3_offset g m s d : (0 <= d \/ g = Axis) -> g <> Contain -> solid3 g m s -> solid3 g (m - d) (offset3d s d)
| B3_shell g m s t : g <> Contain -> m - t / 2 <= max_float64 -> 0 < m -> solid3 g m s -> solid3 g (m - t / 2) (shell3d s t)
| B3_elongate g m s h : solid3 g m s -> solid3 g m (elongate3d s h)
| B3_empty g m c : m <= max_float64 -> solid3 g m (empty3 c)
(* from profiles *)
| B3_extrude g m s h : g <> Euclid -> solid2 g m s -> solid3 g m (extrude3d s h)
| B3_extrude_rounded g m s h r s' : g <> Contain -> r <> 0 -> m - r <= max_float64 -> solid2 g m s ->
    extrude_rounded3d (Some s) h r = Ok s' -> solid3 g (m - r) s'
| B3_loft g m s0 s1 h r s' : g <> Contain -> m - r <= max_float64 -> solid2 g m s0 -> solid2 g m s1 ->
    loft3d (Some s0) (Some s1) h r = Ok s' -> solid3 g (m - r) s'
| B3_loft_sharp m s0 s1 h s' : 0 < m -> m <= max_float64 -> solid2 Contain m s0 -> solid2 Contain m s1 ->
    loft3d (Some s0) (Some s1) h 0 = Ok s' -> solid3 Contain m s'
| B3_scale_extrude m s h k : 0 < m -> 0 < h -> 0 < x2 k -> 0 < y2 k -> solid2 Contain m s ->
    solid3 Contain m (scale_extrude3d s h k)
| B3_twist m s h t : 0 < m -> solid2 Contain m s ->
    Rabs (x2 (min2 (bb2 s))) <= x2 (max2 (bb2 s)) -> Rabs (y2 (min2 (bb2 s))) <= y2 (max2 (bb2 s)) ->
    solid3 Contain m (twist_extrude3d s h t)
| B3_revolve_full g m s theta s' : m <= max_float64 -> (theta <= 0 \/ Rabs (theta - 2 * PI) < tolerance) ->
    solid2 g m s -> revolve3d (Some s) theta = Ok s' -> solid3 g m s'
| B3_revolve m s theta s' : 0 < m -> m <= max_float64 -> theta < 2 * PI \/ Rabs (theta - 2 * PI) < tolerance ->
    solid2 Contain m s -> revolve3d (Some s) theta = Ok s' -> solid3 Contain m s'
with solid2 : grade -> R -> sdf2 -> Prop :=
| B2_user g m s : dom2 g m s -> solid2 g m s
| B2_weaken g h m s : weaker g h = true -> solid2 g m s -> solid2 h m s
| B2_lower g m m' s : m' <= m -> solid2 g m s -> solid2 g m' s
(* form2/must2 *)
| B2_circle r s m : must_circle r = Ok s -> solid2 Euclid m s
| B2_box size round s m : must_box2 size round = Ok s -> 0 <= round ->
    round <= x2 size / 2 -> round <= y2 size / 2 -> solid2 Euclid m s
| B2_box_any size round s m : must_box2 size round = Ok s -> solid2 Axis m s
| B2_line l round s m : must_line l round = Ok s -> 0 <= l -> 0 <= round -> solid2 Euclid m s
| B2_line_any l round s m : must_line l round = Ok s -> solid2 Axis m s
(* booleans *)
| B2_union g m l s : (forall x, In (Some x) l -> solid2 g m x) -> union2d l = Ok s -> solid2 g m s
| B2_difference g m s0 s1 s : solid2 g m s0 -> difference2d (Some s0) (Some s1) = Ok s -> solid2 g m s
| B2_intersect g m s0 s1 s : solid2 g m s0 -> intersect2d (Some s0) (Some s1) = Ok s -> solid2 g m s
| B2_cut g m s a n : solid2 g m s -> solid2 g m (cut2d s a n)
(* placement *)
| B2_transform g m s t : affine2 t -> det33 t <> 0 -> keeps2 g t -> solid2 g m s -> solid2 g m (transform2d s t)
| B2_scale g m s k : 0 < k -> solid2 g m s -> solid2 g (m * k) (scale_uniform2d s k)
| B2_center g m s : solid2 g m s -> solid2 g m (center2d s)
| B2_center_scale g m s k : 0 < k -> solid2 g m s -> solid2 g (m * k) (center_and_scale2d s k)
| B2_array g m s n0 n1 step : m <= max_float64 -> solid2 g m s -> solid2 g m (array2d s n0 n1 step)
| B2_rotate_union g m s n step s' : g <> Axis -> m <= max_float64 -> affine2 step -> det33 step <> 0 ->
    (g = Euclid -> isometry2 (mul_pos2 step)) -> solid2 g m s -> rotate_union2d s n step = Ok s' -> solid2 g m s'
| B2_rotate_copy g m s n s' : g <> Axis -> solid2 g m s -> rotate_copy2d s n = Ok s' -> solid2 g m s'
| B2_line_of g m s p0 p1 pat s' : solid2 g m s -> line_of2d (Some s) p0 p1 pat = Ok s' -> solid2 g m s'
| B2_multi g m s ps s' : solid2 g m s -> multi2d (Some s) ps = Ok s' -> solid2 g m s'
(* level sets *)
| B2_offset g m s d : (0 <= d \/ g = Axis) -> g <> Contain -> solid2 g m s -> solid2 g (m - d) (offset2d s d)
| B2_elongate g m s h : solid2 g m s -> solid2 g m (elongate2d s h)
| B2_empty g m c : m <= max_float64 -> solid2 g m (empty2 c)
(* from solids *)
| B2_slice g m s a n s' : g <> Axis -> n <> zero3 -> solid3 g m s -> slice2d s a n = Ok s' -> solid2 g m s'.

(** *** Primitives with any accepted parameters *)
Lemma sdf_box3d_ge p s : Rabs (x3 p) - x3 s <= sdf_box3d p s /\ Rabs (y3 p) - y3 s <= sdf_box3d p s /\ Rabs (z3 p) - z3 s <= sdf_box3d p s.
Proof.
  unfold sdf_box3d, abs_elem3; cbn [sub3 x3 y3 z3].
  set (a := Rabs (x3 p) - x3 s). set (b := Rabs (y3 p) - y3 s). set (c := Rabs (z3 p) - z3 s).
  destruct (abs_le_norm3 (sub3 (V3 (Rabs (x3 p)) (Rabs (y3 p)) (Rabs (z3 p))) s)) as (N1 & N2 & N3). cbn [sub3 x3 y3 z3] in N1, N2, N3. fold a b c in N1, N2, N3.
  set (n := norm3 _) in *. clearbody n.
  destruct (hypot_ge a b) as (H1 & H2). destruct (hypot_ge a c) as (H3 & H4). destruct (hypot_ge b c) as (H5 & H6).
  set (ab := hypot a b) in *. set (ac := hypot a c) in *. set (bc := hypot b c) in *. clearbody a b c ab ac bc.
  pose proof (Rle_abs a). pose proof (Rle_abs b). pose proof (Rle_abs c).
  rcase; cbn [andb]; rmm; lra.
Qed.
Lemma sdf_box2d_ge p s : Rabs (x2 p) - x2 s <= sdf_box2d p s /\ Rabs (y2 p) - y2 s <= sdf_box2d p s.
Proof.
  unfold sdf_box2d, abs_elem2; cbn [sub2 x2 y2].
  set (a := Rabs (x2 p)). set (b := Rabs (y2 p)).
  destruct (abs_le_norm2 (sub2 (V2 a b) s)) as (N1 & N2). cbn [sub2 x2 y2] in N1, N2. set (n := norm2 _) in *. clearbody n a b.
  pose proof (Rle_abs (a - x2 s)). pose proof (Rle_abs (b - y2 s)). rcase; cbn [andb]; lra.
Qed.
Lemma axis_box3_any size round s m : must_box3 size round = Ok s -> dom3 Axis m s.
Proof.
  unfold must_box3. destruct (lte_zero3 size); [discriminate|]. destruct (Rltb round 0); [discriminate|]. intros E. inversion E. clear E.
  intros p _. cbn [G3 ev3 bb3]. destruct (sdf_box3d_ge p (sub3 (scale3 (1/2) size) (elem3 round))) as (X & Y & Z).
  set (v := sdf_box3d _ _) in *. clearbody v. unfold in3, grow3. cbn in X, Y, Z |- *. clear - X Y Z. rmm; lra.
Qed.
Lemma axis_box2_any size round s m : must_box2 size round = Ok s -> dom2 Axis m s.
Proof.
  unfold must_box2. intros E. inversion E. clear E. intros p _. cbn [G2 ev2 bb2].
  destruct (sdf_box2d_ge p (sub2 (scale2 (1/2) size) (elem2 round))) as (X & Y).
  set (v := sdf_box2d _ _) in *. clearbody v. unfold in2, grow2. cbn in X, Y |- *. clear - X Y. rmm; lra.
Qed.
Lemma axis_line_any l round s m : must_line l round = Ok s -> dom2 Axis m s.
Proof.
  unfold must_line. intros E. inversion E. clear E. intros p _. cbn [G2 ev2 bb2].
  unfold abs_elem2; cbn [x2 y2].
  destruct (abs_le_norm2 (sub2 (V2 (Rabs (x2 p)) (Rabs (y2 p))) (V2 (l / 2) 0))) as (N1 & N2). cbn [sub2 x2 y2] in N1, N2.
  set (n := norm2 _) in *. clearbody n. unfold in2, grow2; cbn. pose proof (Rabs_pos (y2 p)).
  pose proof (Rle_abs (Rabs (x2 p) - l / 2)). pose proof (Rle_abs (Rabs (y2 p) - 0)).
  destruct (Rleb (Rabs (x2 p)) (l / 2)) eqn:Q; [apply Rleb_true in Q|apply Rleb_false in Q].
  - set (a := l / 2) in *. clearbody a. clear N1 N2 H0 H1. revert H Q. unfold Rabs. destruct (Rcase_abs (x2 p)), (Rcase_abs (y2 p)); lra.
  - set (a := l / 2) in *. clearbody a. assert (A : Rabs (x2 p) <= a + n) by lra. assert (B : Rabs (y2 p) <= n) by lra.
    clear - A B. revert A B. unfold Rabs. destruct (Rcase_abs (x2 p)), (Rcase_abs (y2 p)); lra.
Qed.
Lemma axis_cone_any h r0 r1 round s m : must_cone h r0 r1 round = Ok s -> dom3 Axis m s.
Proof.
  intros E. destruct (C58_cone _ _ _ _ _ E) as (A & _). destruct (must_cone_ok _ _ _ _ _ E) as (H0 & R0 & R1 & ->). clear E.
  set (c := cone_of h r0 r1 round) in *. cbn zeta in *. cbn [ev3] in A.
  destruct (slope_of_cone h r0 r1 round H0 R0 R1) as (S & _ & _ & _ & Hh). fold c in S, Hh.
  intros p _. cbn [G3 ev3 bb3]. specialize (A p). set (v := cone_eval2 c (rho p)) in *. clearbody v.
  assert (B : forall q, rounded dist2 (left_of (c_r0 c) (c_h c) (c_u c)) round q ->
    Rabs (y2 q) <= h / 2 /\ x2 q <= Rmax (c_r0 c + round) (c_r1 c + round)).
  { intros q (k & K & D). pose proof (slope_max _ _ _ _ _ _ S K) as M. destruct K as (Ky & _).
    destruct (abs_le_norm2 (sub2 q k)) as (X & Y). fold (dist2 q k) in X, Y. cbn [sub2 x2 y2] in X, Y. rewrite Hh in Ky.
    split; [clear - Ky Y D; rmm; lra|clear - X M D; rmm; lra]. }
  set (r := Rmax (c_r0 c + round) (c_r1 c + round)) in *. clearbody r.
  assert (K : Rabs (z3 p) <= h / 2 + v /\ hypot (x3 p) (y3 p) <= r + v).
  { destruct A as (A1 & A2). destruct (Rle_or_lt 0 v) as [V|V].
    - destruct (A1 V) as ((q & Q & D) & _). destruct (B q Q) as (B1 & B2).
      destruct (abs_le_norm2 (sub2 (rho p) q)) as (X & Y). fold (dist2 (rho p) q) in X, Y. cbn [sub2 x2 y2] in X, Y.
      change (y2 (rho p)) with (z3 p) in Y. change (x2 (rho p)) with (hypot (x3 p) (y3 p)) in X.
      split; [clear - B1 Y D; rmm; lra|clear - B2 X D; rmm; lra].
    - destruct A2 as (I & _); [lra|].
      assert (T : forall dx dy, dx * dx + dy * dy = v * v -> Rabs (z3 p + dy) <= h / 2 /\ hypot (x3 p) (y3 p) + dx <= r).
      { intros dx dy Q. apply (B (V2 (hypot (x3 p) (y3 p) + dx) (z3 p + dy))). apply I.
        unfold dist2, norm2, norm2sq, dot2; cbn [sub2 x2 y2]. change (y2 (rho p)) with (z3 p). change (x2 (rho p)) with (hypot (x3 p) (y3 p)).
        match goal with |- sqrt ?e <= _ => replace e with (v * v) by (rewrite <- Q; ring) end.
        replace (v * v) with ((- v) * (- v)) by ring. rewrite sqrt_square; lra. }
      destruct (T 0 v) as (T1 & _); [ring|]. destruct (T 0 (- v)) as (T2 & _); [ring|]. destruct (T (- v) 0) as (_ & T3); [ring|].
      split; [clear - T1 T2 V; rmm; lra|lra]. }
  destruct K as (K1 & K2). destruct (hypot_ge (x3 p) (y3 p)) as (Hx & Hy). unfold in3, grow3; cbn [min3 max3 add3 sub3 elem3 x3 y3 z3].
  clear - K1 K2 Hx Hy. rmm; lra.
Qed.

Scheme solid3_mind := Induction for solid3 Sort Prop with solid2_mind := Induction for solid2 Sort Prop.
Combined Scheme solid_ind from solid3_mind, solid2_mind.
Lemma solids_dominate : (forall g m s, solid3 g m s -> dom3 g m s) /\ (forall g m s, solid2 g m s -> dom2 g m s).
Proof.
  apply solid_ind; intros; eauto using dom3_weaken, dom3_lower, dom2_weaken, dom2_lower.
  - eapply exact3_dom, C57_sphere; eauto.
  - eapply exact3_dom, C57_box3; eauto.
  - eapply axis_box3_any; eauto.
  - eapply exact3_dom, C58_cylinder; eauto.
  - eapply exact3_dom, C58_cone_exact; eauto.
  - eapply axis_cone_any; eauto.
  - eapply dom3_union; eauto.
  - eapply dom3_difference; eauto.
  - eapply dom3_intersect; eauto.
  - now apply dom3_cut.
  - now apply dom3_transform.
  - now apply dom3_scale.
  - now apply dom3_array.
  - eapply (dom3_rotate_union g m s n step); eauto.
  - now apply dom3_rotate_copy.
  - eapply dom3_line_of; eauto.
  - eapply (dom3_multi g m s ps); eauto.
  - eapply (dom3_orient g m s base ds); eauto.
  - now apply dom3_offset.
  - now apply dom3_shell.
  - now apply dom3_elongate.
  - now apply dom3_empty.
  - now apply dom3_extrude.
  - eapply (dom3_extrude_rounded g m s h r); eauto.
  - eapply (dom3_loft g m s0 s1 h r); eauto.
  - eapply (contain_loft m s0 s1 h); eauto.
  - now apply contain_scale_extrude.
  - now apply contain_twist.
  - eapply (dom3_revolve_full g m s s' theta); eauto.
  - eapply (contain_revolve m s s' theta); eauto.
  - eapply exact2_dom, C57_circle; eauto.
  - eapply exact2_dom, C57_box2; eauto.
  - eapply axis_box2_any; eauto.
  - eapply exact2_dom, C57_line; eauto.
  - eapply axis_line_any; eauto.
  - eapply dom2_union; eauto.
  - eapply dom2_difference; eauto.
  - eapply dom2_intersect; eauto.
  - now apply dom2_cut.
  - now apply dom2_transform.
  - now apply dom2_scale.
  - now apply dom2_center.
  - now apply dom2_center_and_scale.
  - now apply dom2_array.
  - eapply (dom2_rotate_union g m s n step); eauto.
  - eapply (dom2_rotate_copy g m s n); eauto.
  - eapply dom2_line_of; eauto.
  - eapply dom2_multi; eauto.
  - now apply dom2_offset.
  - now apply dom2_elongate.
  - now apply dom2_empty.
  - eapply (dom2_slice g m s a n); eauto.
Qed.

(** ** C29 *)
Theorem C29_bounds_contain_partial :
  (forall g m s p, solid3 g m s -> 0 < m -> ev3 s p < 0 -> in3 (bb3 s) p) /\
  (forall g m s p, solid2 g m s -> 0 < m -> ev2 s p < 0 -> in2 (bb2 s) p).
Proof.
  destruct solids_dominate as (D3 & D2). split; intros g m s p H M N.
  - eapply dom3_contain; eauto.
  - eapply dom2_contain; eauto.
Qed.

(** ** C30 *)
Lemma near_sdist {V} (d : V -> V -> R) (B : V -> Prop) p v D : d p p = 0 -> (forall q, 0 <= d p q) ->
  near d B p v -> sdist d B p D -> D <= v.
Proof.
  intros R0 P (N1 & N2) (S1 & S2). apply Rnot_lt_le. intros L.
  destruct (Rle_or_lt 0 v) as [V0|V0].
  - destruct (N1 V0) as (q & Q & E). destruct S1 as (_ & S1); [lra|]. specialize (S1 q Q). lra.
  - specialize (N2 V0). destruct (Rle_or_lt D 0) as [D0|D0].
    + destruct (S2 D0) as (_ & O). destruct (O (D - v)) as (q & Q & E); [lra|]. apply Q, N2. lra.
    + destruct S1 as (_ & S1); [lra|]. assert (B p) by (apply N2; rewrite R0; lra). specialize (S1 p H). lra.
Qed.
(** Grade [Euclid]: [D] below is the exact signed Euclidean distance to the bounding box. *)
Theorem C30_dominates_partial :
  (forall m s p D, solid3 Euclid m s -> ev3 s p < m -> sdist dist3 (in3 (bb3 s)) p D -> D <= ev3 s p) /\
  (forall m s p D, solid2 Euclid m s -> ev2 s p < m -> sdist dist2 (in2 (bb2 s)) p D -> D <= ev2 s p).
Proof.
  destruct solids_dominate as (D3 & D2). split; intros m s p D H M S.
  - eapply (near_sdist dist3 (in3 (bb3 s)) p); eauto using dist3_refl, dist3_nonneg. now apply (D3 Euclid m s H).
  - eapply (near_sdist dist2 (in2 (bb2 s)) p); eauto using dist2_refl, dist2_nonneg. now apply (D2 Euclid m s H).
Qed.
(** Offsets, shells and rounded extrusions then stay inside their Bounds. *)
Corollary C30_level_sets_partial m s d p : solid3 Euclid m s -> 0 <= d < m -> ev3 (offset3d s d) p < 0 -> in3 (bb3 (offset3d s d)) p.
Proof.
  intros H D N. destruct C29_bounds_contain_partial as (C & _). eapply (C Euclid (m - d)); [|lra|exact N].
  apply B3_offset; [left; lra|discriminate|exact H].
Qed.
(** A plain extrusion does not dominate the Euclidean distance to its box: off an edge its
    value is only the larger of the two distances. *)
Definition square : sdf2 := S2 (fun p => sdf_box2d p (sub2 (scale2 (1/2) (V2 2 2)) (elem2 0)) - 0)
  (Box2 (scale2 (-1) (scale2 (1/2) (V2 2 2))) (scale2 (1/2) (V2 2 2))).
Lemma square_ok : must_box2 (V2 2 2) 0 = Ok square.
Proof. reflexivity. Qed.
Lemma sqrt2_bounds : 14/10 < sqrt 2 < 15/10.
Proof. assert (S : sqrt 2 * sqrt 2 = 2) by (apply sqrt_sqrt; lra). pose proof (sqrt_pos 2). split; nra. Qed.
Theorem C30_extrude_refuted : exists s p D, solid2 Euclid max_float64 s /\
  sdist dist3 (in3 (bb3 (extrude3d s 2))) p D /\ ev3 (extrude3d s 2) p < D.
Proof.
  exists square, (V3 2 2 2), (norm3 (V3 1 1 1)). split; [|split].
  - eapply B2_box; [exact square_ok|lra|cbn; lra|cbn; lra].
  - pose proof (core_round3 _ _ 0 (V3 2 2 2) (core_cuboid (V3 1 1 1) ltac:(cbn; lra) ltac:(cbn; lra) ltac:(cbn; lra)) ltac:(lra)) as K.
    assert (E : sdf_box3d (V3 2 2 2) (V3 1 1 1) - 0 = norm3 (V3 1 1 1)).
    { unfold sdf_box3d, abs_elem3; cbn [x3 y3 z3 sub3]. rewrite !Rabs_right by lra. rewrite !(proj2 (Rltb_true 0 _)) by lra. cbn [andb].
      rewrite Rminus_0_r. f_equal. apply v3_ext; cbn; lra. }
    cbn beta in K. rewrite E in K. eapply sdist_ext; [|exact K]. intros q. split.
    + intros (c & (C1 & C2 & C3) & D). cbn [x3 y3 z3] in *.
      assert (Z : dist3 q c = 0) by (pose proof (dist3_nonneg q c); lra).
      destruct (abs_le_norm3 (sub3 q c)) as (X & Y & W). fold (dist3 q c) in X, Y, W. rewrite Z in X, Y, W. cbn [sub3 x3 y3 z3] in X, Y, W.
      unfold in3; cbn. clear - C1 C2 C3 X Y W. revert C1 C2 C3 X Y W. unfold Rabs.
      repeat match goal with |- context [Rcase_abs ?e] => destruct (Rcase_abs e) end; lra.
    + intros H. exists q. rewrite dist3_refl. split; [|lra]. revert H. unfold in3, cuboid; cbn. intros H. repeat split; apply Rabs_le; lra.
  - cbn [extrude3d ev3]. unfold extrude_eval, normal_extrude, xy; cbn [x3 y3 z3 square ev2]. unfold sdf_box2d, abs_elem2; cbn [sub2 scale2 elem2 x2 y2].
    rewrite !Rabs_right by lra. rewrite !(proj2 (Rltb_true 0 _)) by lra. cbn [andb].
    unfold norm3, norm3sq, dot3, norm2, norm2sq, dot2; cbn [x2 y2 x3 y3 z3 sub2 scale2 elem2].
    match goal with |- Rmax (sqrt ?e - 0) _ < _ => replace e with 2 by field end. replace (1 * 1 + 1 * 1 + 1 * 1) with 3 by ring.
    assert (sqrt 2 < sqrt 3) by (apply sqrt_lt_1; lra). pose proof sqrt2_bounds. rmm; lra.
Qed.
(** Consequence: turning a plain extrusion by 45 degrees and offsetting it leaves Bounds. *)
Theorem C29_offset_refuted : exists t p, isometry3 (mul_pos3 t) /\ affine3 t /\
  let s := offset3d (transform3 (extrude3d square 2) t) 1 in ev3 s p < 0 /\ ~ in3 (bb3 s) p.
Proof.
  set (t := rotate_x (PI / 4)). set (q := V3 0 (19/10) (19/10)). exists t, (mul_pos3 t q).
  assert (NZ : V3 1 0 0 <> zero3) by (intros H; inversion H; lra).
  destruct (C35_rotate3d (V3 1 0 0) NZ) as (I & _). destruct (I (PI / 4)) as (I1 & I2 & I3). fold (rotate_x (PI / 4)) in I1, I2, I3. fold t in I1, I2, I3.
  split; [exact I1|]. split; [exact I3|]. cbn zeta.
  destruct (C35_rotate_xyz (PI / 4) q) as (E & _). fold t in E.
  assert (SC : sin (PI / 4) = / sqrt 2 /\ cos (PI / 4) = / sqrt 2) by (rewrite sin_PI4, cos_PI4; unfold Rdiv; lra).
  destruct SC as (Sn & Cs). set (r := / sqrt 2) in *.
  assert (R : r * r = 1/2). { unfold r. rewrite <- Rinv_mult. rewrite sqrt_sqrt by lra. lra. }
  assert (R0 : 7/10 < r < 71/100).
  { assert (0 < r) by (unfold r; apply Rinv_0_lt_compat; pose proof sqrt2_bounds; lra). split; nra. }
  split.
  - cbn [offset3d ev3 transform3].
    destruct (placed3_inv t 1 q I3) as (P & _); [rewrite I2; lra|]. unfold placed3 in P. cbn [Nat.iter nat_rect] in P. rewrite P.
    cbn [extrude3d ev3]. unfold extrude_eval, normal_extrude, xy, q; cbn [x3 y3 z3 square ev2]. unfold sdf_box2d, abs_elem2; cbn [sub2 scale2 elem2 x2 y2].
    rewrite Rabs_R0, (Rabs_right (19/10)) by lra. rewrite (proj2 (Rltb_false 0 (0 - (1/2 * 2 - 0)))) by lra. cbn [andb].
    rewrite (proj2 (Rltb_true _ (19/10 - 0))) by lra. rmm; lra.
  - intros (_ & _ & (_ & H)). revert H. cbn [offset3d bb3 transform3]. rewrite new_box_grow3. rewrite E. cbn [z3 q grow3 max3 add3 elem3].
    assert (B : z3 (max3 (mul_box3 t (bb3 (extrude3d square 2)))) = 2 * r).
    { destruct (C35_rotate_xyz (PI / 4) (V3 0 1 0)) as (Ey & _). destruct (C35_rotate_xyz (PI / 4) (V3 0 0 1)) as (Ez & _).
      destruct (C35_rotate_xyz (PI / 4) (V3 1 0 0)) as (Ex & _). destruct (C35_rotate_xyz (PI / 4) zero3) as (E0 & _). fold t in Ex, Ey, Ez, E0.
      rewrite Sn, Cs in Ex, Ey, Ez, E0. cbn [x3 y3 z3 zero3] in Ex, Ey, Ez, E0. unfold mul_pos3 in Ex, Ey, Ez, E0. cbn [x3 y3 z3 zero3] in Ex, Ey, Ez, E0.
      pose proof (f_equal z3 Ex) as Zx. pose proof (f_equal z3 Ey) as Zy. pose proof (f_equal z3 Ez) as Zz. pose proof (f_equal z3 E0) as Z0. cbn [z3] in Zx, Zy, Zz, Z0.
      assert (A23 : a23 t = 0) by lra. assert (A20 : a20 t = 0) by lra. assert (A21 : a21 t = r) by lra. assert (A22 : a22 t = r) by lra.
      clearbody t. unfold mul_box3. cbn. rewrite A20, A21, A22, A23. clear - R0. rmm; lra. }
    rewrite B. rewrite Sn, Cs. unfold q. cbn [x3 y3 z3]. lra.
Qed.
(** Examples: a tree of constructors of each grade. *)
Example C29_example : exists s u p, must_cylinder 4 1 0 = Ok s /\ union3d [Some s; Some (transform3 s (rotate_x (PI / 2)))] = Ok u /\
  solid3 Euclid max_float64 u /\ ev3 u p < 0.
Proof.
  assert (E : exists s, must_cylinder 4 1 0 = Ok s).
  { unfold must_cylinder. rewrite (proj2 (Rleb_false 1 0)), (proj2 (Rltb_false 0 0)), (proj2 (Rltb_false 1 0)), (proj2 (Rltb_false 4 (2 * 0))) by lra. eauto. }
  destruct E as (s & E). exists s. eexists. exists zero3. split; [exact E|]. split; [reflexivity|].
  assert (NZ : V3 1 0 0 <> zero3) by (intros H; inversion H; lra).
  destruct (C35_rotate3d (V3 1 0 0) NZ) as (I & _). destruct (I (PI / 2)) as (I1 & I2 & I3).
  split.
  - eapply (B3_union Euclid max_float64 [Some s; Some (transform3 s (rotate_x (PI / 2)))]); [|reflexivity].
    intros x [H|[H|[]]]; inversion H; subst x.
    + eapply B3_cylinder; eauto.
    + apply B3_transform; [exact I3|fold (rotate_x (PI / 2)) in I2; rewrite I2; lra|exact I1|eapply B3_cylinder; eauto].
  - cbn [ev3 union_eval3 fold_left]. eapply Rle_lt_trans; [apply Rmin_l|].
    revert E. unfold must_cylinder. rewrite (proj2 (Rleb_false 1 0)), (proj2 (Rltb_false 0 0)), (proj2 (Rltb_false 1 0)), (proj2 (Rltb_false 4 (2 * 0))) by lra.
    intros E. inversion E. cbn [ev3 zero3 x3 y3 z3]. unfold hypot. replace (0 * 0 + 0 * 0) with 0 by ring. rewrite sqrt_0.
    unfold sdf_box2d, abs_elem2; cbn [sub2 x2 y2]. rewrite !Rabs_R0. rcase; cbn [andb]; lra.
Qed.
