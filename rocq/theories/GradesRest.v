(** Grades of slices, partial revolutions and lists of copies; the geometry of the
    slice frame and of the sector cut by a partial revolution. *)
From Coq Require Import Reals Lra Lia List Bool ZArith.
From Verif Require Import Prelude Vec BoxModel PropsBox MatrixModel PropsMatrix SdfModel PropsBool SdfLemmas Trig Grades GradesOps GradesSweep GradesCopy.
Import ListNotations.
Local Open Scope R_scope.
Local Opaque inverse44 inverse33 mul44 mul33 det44 det33.

(** ** The frame of a slice *)
Lemma nonzero_norm3 v : v <> zero3 -> 0 < norm3sq v.
Proof.
  intros H. destruct (Rle_or_lt (norm3sq v) 0) as [L|L]; [|exact L]. exfalso. apply H.
  unfold norm3sq, dot3 in L. apply v3_ext; cbn; nra.
Qed.
Lemma unit3_norm v : v <> zero3 -> dot3 (unit3 v) (unit3 v) = 1.
Proof.
  intros H. apply nonzero_norm3 in H. unfold unit3, dot3, scale3; cbn [x3 y3 z3].
  assert (N : norm3 v * norm3 v = norm3sq v) by (apply sqrt_sqrt; lra).
  assert (norm3 v <> 0) by (intros E; rewrite E in N; lra).
  transitivity (norm3sq v / (norm3 v * norm3 v)); [unfold norm3sq, dot3; field; auto|rewrite N; field; lra].
Qed.
Lemma unit3_scale v : exists k, unit3 v = scale3 k v.
Proof. exists (1 / norm3 v). unfold unit3. apply v3_ext; cbn; reflexivity. Qed.
Record orthonormal (u v n : v3) : Prop := {
  on_uu : dot3 u u = 1; on_vv : dot3 v v = 1; on_nn : dot3 n n = 1;
  on_uv : dot3 u v = 0; on_un : dot3 u n = 0; on_vn : dot3 v n = 0 }.
Lemma slice_u_spec n : n <> zero3 -> slice_u n <> zero3 /\ dot3 (slice_u n) n = 0.
Proof.
  intros H. unfold slice_u. rcase; (split; [intros K; injection K; intros; try lra|unfold dot3; cbn; try (rewrite ?e; ring); nra]).
Qed.
Lemma slice_frame_on n u v : n <> zero3 -> slice_frame n = (u, v) -> orthonormal u v (unit3 n).
Proof.
  intros H E. unfold slice_frame in E. inversion E. clear E.
  destruct (slice_u_spec n H) as (U & O). set (w := slice_u n) in *.
  assert (C : cross3 n w <> zero3).
  { intros K. apply nonzero_norm3 in U. apply nonzero_norm3 in H.
    assert (L : norm3sq (cross3 n w) = norm3sq n * norm3sq w - dot3 w n * dot3 w n) by (unfold norm3sq, dot3, cross3; cbn; ring).
    rewrite K, O in L. unfold norm3sq at 1, dot3, zero3 in L; cbn in L. nra. }
  destruct (unit3_scale w) as (kw & Ew). destruct (unit3_scale n) as (kn & En). destruct (unit3_scale (cross3 n w)) as (kc & Ec).
  constructor; try (now apply unit3_norm).
  - rewrite Ew, Ec. unfold dot3, scale3, cross3; cbn. ring.
  - rewrite Ew, En. transitivity (kw * kn * dot3 w n); [unfold dot3, scale3; cbn; ring|rewrite O; ring].
  - rewrite Ec, En. unfold dot3, scale3, cross3; cbn. ring.
Qed.
Lemma lagrange a b : norm3sq a * norm3sq b = dot3 a b * dot3 a b + norm3sq (cross3 a b).
Proof. unfold norm3sq, dot3, cross3; cbn. ring. Qed.
(** An orthonormal frame spans: a vector orthogonal to all three is zero. *)
Lemma on_zero u v n d : orthonormal u v n -> dot3 u d = 0 -> dot3 v d = 0 -> dot3 n d = 0 -> d = zero3.
Proof.
  intros [A B C D E F] U V N.
  pose proof (lagrange u v) as L1. unfold norm3sq in L1. rewrite A, B, D in L1.
  pose proof (lagrange (cross3 u v) n) as L2. unfold norm3sq at 2 in L2. rewrite C in L2.
  assert (X : cross3 (cross3 u v) n = zero3).
  { assert (G : cross3 (cross3 u v) n = sub3 (scale3 (dot3 u n) v) (scale3 (dot3 v n) u)) by (apply v3_ext; unfold dot3; cbn; ring).
    rewrite G, E, F. apply v3_ext; cbn; ring. }
  rewrite X in L2. unfold norm3sq in L2. replace (dot3 zero3 zero3) with 0 in L2 by (unfold dot3; cbn; ring).
  pose proof (lagrange (cross3 u v) d) as L3. unfold norm3sq in L3.
  assert (L1' : dot3 (cross3 u v) (cross3 u v) = 1) by (unfold norm3sq in L1; lra). rewrite L1' in L3.
  assert (X' : cross3 (cross3 u v) d = zero3).
  { assert (G : cross3 (cross3 u v) d = sub3 (scale3 (dot3 u d) v) (scale3 (dot3 v d) u)) by (apply v3_ext; unfold dot3; cbn; ring).
    rewrite G, U, V. apply v3_ext; cbn; ring. }
  rewrite X' in L3. replace (dot3 zero3 zero3) with 0 in L3 by (unfold dot3; cbn; ring).
  (* cross u v = t n with t = dot (cross u v) n, so dot (cross u v) d = t * dot n d = 0 *)
  assert (P : cross3 (cross3 u v) n = zero3 -> dot3 (cross3 u v) d * dot3 n n = dot3 (cross3 u v) n * dot3 n d).
  { clear. generalize (cross3 u v). intros c K. pose proof (f_equal x3 K) as K1. pose proof (f_equal y3 K) as K2. pose proof (f_equal z3 K) as K3.
    unfold cross3 in K1, K2, K3; cbn in K1, K2, K3. unfold dot3.
    transitivity ((x3 c * x3 n + y3 c * y3 n + z3 c * z3 n) * (x3 n * x3 d + y3 n * y3 d + z3 n * z3 d)
      + (y3 c * z3 n - z3 c * y3 n) * (y3 d * z3 n - z3 d * y3 n)
      + (z3 c * x3 n - x3 c * z3 n) * (z3 d * x3 n - x3 d * z3 n)
      + (x3 c * y3 n - y3 c * x3 n) * (x3 d * y3 n - y3 d * x3 n)); [ring|].
    rewrite K1, K2, K3. ring. }
  specialize (P X). rewrite C, N in P. rewrite Rmult_1_r, Rmult_0_r in P. rewrite P in L3.
  destruct (Req_dec (dot3 d d) 0) as [Z|Z]; [|exfalso; lra].
  unfold dot3 in Z. apply v3_ext; cbn; nra.
Qed.
Lemma on_span u v n w : orthonormal u v n ->
  w = add3 (add3 (scale3 (dot3 u w) u) (scale3 (dot3 v w) v)) (scale3 (dot3 n w) n).
Proof.
  intros O. pose proof O as [A B C D E F].
  set (r := add3 (add3 (scale3 (dot3 u w) u) (scale3 (dot3 v w) v)) (scale3 (dot3 n w) n)).
  assert (R : forall q, dot3 q r = dot3 u w * dot3 u q + dot3 v w * dot3 v q + dot3 n w * dot3 n q)
    by (intros q; unfold r, dot3; cbn; ring).
  assert (S : forall q a b, dot3 q (sub3 a b) = dot3 q a - dot3 q b) by (intros; unfold dot3; cbn; ring).
  assert (C3 : forall a b, dot3 a b = dot3 b a) by (intros; unfold dot3; ring).
  assert (Z : sub3 w r = zero3).
  { apply (on_zero u v n); auto; rewrite S, R.
    - rewrite A, (C3 v u), (C3 n u), D, E. ring.
    - rewrite B, D, (C3 n v), F. ring.
    - rewrite C, E, F. ring. }
  apply v3_ext; [apply (f_equal x3) in Z|apply (f_equal y3) in Z|apply (f_equal z3) in Z]; unfold sub3, zero3 in Z; cbn [x3 y3 z3] in Z; lra.
Qed.
(** The point of the cutting plane with plane coordinates [p], and the plane
    coordinates of a point. *)
Definition plane_at (a u v : v3) (p : v2) : v3 := add3 (add3 a (scale3 (x2 p) u)) (scale3 (y2 p) v).
Definition plane_xy (a u v : v3) (w : v3) : v2 := V2 (dot3 u (sub3 w a)) (dot3 v (sub3 w a)).
Lemma plane_xy_at a u v n p : orthonormal u v n -> plane_xy a u v (plane_at a u v p) = p.
Proof.
  intros [A B C D E F]. apply v2_ext; cbn [plane_xy x2 y2].
  - transitivity (x2 p * dot3 u u + y2 p * dot3 u v); [unfold plane_at, dot3; cbn; ring|rewrite A, D; ring].
  - transitivity (x2 p * dot3 u v + y2 p * dot3 v v); [unfold plane_at, dot3; cbn; ring|rewrite B, D; ring].
Qed.
Lemma plane_at_dist a u v n p q : orthonormal u v n -> dist3 (plane_at a u v p) (plane_at a u v q) = dist2 p q.
Proof.
  intros [A B C D E F]. unfold dist3, dist2, norm3, norm2. f_equal.
  set (d := sub2 p q). transitivity (x2 d * x2 d * dot3 u u + 2 * (x2 d * y2 d) * dot3 u v + y2 d * y2 d * dot3 v v).
  - unfold d, norm3sq, plane_at, dot3; cbn. ring.
  - rewrite A, B, D. unfold norm2sq, dot2. ring.
Qed.
Lemma plane_xy_dist a u v n w q : orthonormal u v n -> dist2 (plane_xy a u v w) (plane_xy a u v q) <= dist3 w q.
Proof.
  intros O. pose proof O as [A B C D E F]. unfold dist3, dist2, norm3, norm2. apply sqrt_le_1_alt.
  set (d := sub3 w q).
  assert (S : norm3sq d = dot3 u d * dot3 u d + dot3 v d * dot3 v d + dot3 n d * dot3 n d).
  { unfold norm3sq. rewrite (on_span u v n d O) at 2. unfold dot3; cbn. ring. }
  rewrite S. replace (norm2sq _) with (dot3 u d * dot3 u d + dot3 v d * dot3 v d) by (unfold norm2sq, dot2, plane_xy, d, dot3; cbn; ring).
  pose proof (Rle_0_sqr (dot3 n d)) as Q. unfold Rsqr in Q. lra.
Qed.
Lemma slice2d_ok s a n : n <> zero3 -> exists u v b, orthonormal u v (unit3 n) /\ slice_frame n = (u, v) /\
  slice2d s a n = Ok (S2 (fun p => ev3 s (plane_at a u v p)) b) /\
  (forall w, in3 (bb3 s) w -> in2 b (plane_xy a u v w)).
Proof.
  intros H. destruct (slice_frame n) as (u & v) eqn:E.
  pose proof (slice_frame_on n u v H E) as O. unfold slice2d. rewrite E. cbn [bind].
  set (f := fun w : v3 => let va := sub3 w a in let pa := sub3 va (scale3 (dot3 (unit3 n) va) (unit3 n)) in V2 (dot3 pa u) (dot3 pa v)).
  set (vec := map f _).
  assert (Ef : forall w, f w = plane_xy a u v w).
  { intros w. pose proof O as [A B C D P Q]. unfold f. set (va := sub3 w a). unfold plane_xy; cbn. fold va. f_equal.
    - transitivity (dot3 u va - dot3 (unit3 n) va * dot3 u (unit3 n)); [unfold dot3; cbn; ring|rewrite P; ring].
    - transitivity (dot3 v va - dot3 (unit3 n) va * dot3 v (unit3 n)); [unfold dot3; cbn; ring|rewrite Q; ring]. }
  destruct (set_min2 vec) as [mn| |] eqn:E1; try discriminate.
  destruct (set_max2 vec) as [mx| |] eqn:E2; try discriminate. cbn [bind].
  exists u, v, (Box2 mn mx). split; [exact O|]. split; [reflexivity|]. split; [reflexivity|].
  assert (V : forall w, In w (vertices3 (bb3 s)) -> le2 mn (plane_xy a u v w) /\ le2 (plane_xy a u v w) mx).
  { intros w W. rewrite <- Ef. split; [eapply set_min2_le|eapply set_max2_ge]; eauto; apply in_map, W. }
  intros w W.
  assert (L : forall k q, dot3 k (sub3 q a) = x3 k * x3 q + y3 k * y3 q + z3 k * z3 q - dot3 k a) by (intros; unfold dot3; cbn; ring).
  destruct (lin_vertices3 _ w (x3 u) (y3 u) (z3 u) W) as ((w0 & J0 & L0) & (w1 & J1 & L1)).
  destruct (lin_vertices3 _ w (x3 v) (y3 v) (z3 v) W) as ((w2 & J2 & L2) & (w3 & J3 & L3)).
  apply V in J0, J1, J2, J3. unfold le2, in2, plane_xy in *; cbn [x2 y2 min2 max2] in *. rewrite L in *. rewrite !L. rewrite !L in J0, J1, J2, J3. lra.
Qed.
Lemma dom2_slice g m s a n s' : g <> Axis -> n <> zero3 -> dom3 g m s -> slice2d s a n = Ok s' -> dom2 g m s'.
Proof.
  intros N H D E. destruct (slice2d_ok s a n H) as (u & v & b & O & _ & E' & B). rewrite E' in E. inversion E. clear E E'.
  intros p L. cbn [ev2 bb2] in *. specialize (D _ L). destruct g; [|congruence|]; cbn [G2 G3] in *.
  - destruct D as (D1 & D2). split; intros V.
    + destruct (D1 V) as (q & Q & Dq). exists (plane_xy a u v q). split; [auto|].
      pose proof (plane_xy_dist a u v (unit3 n) (plane_at a u v p) q O) as K. rewrite (plane_xy_at _ _ _ _ _ O) in K. lra.
    + intros q Dq. rewrite <- (plane_xy_at a u v _ q O). apply B, D2; auto. now rewrite (plane_at_dist _ _ _ _ _ _ O).
  - intros V. rewrite <- (plane_xy_at a u v _ p O). apply B, D, V.
Qed.

(** ** The sector of a partial revolution *)
Definition sector_fn (theta : R) (p : v2) : R :=
  let d := dot2 (V2 (- sin theta) (cos theta)) p in
  if Rltb theta PI then Rmax (- y2 p) d else Rmin (- y2 p) d.
Lemma polar_0_2pi p : exists t, 0 <= t < 2 * PI /\ x2 p = norm2 p * cos t /\ y2 p = norm2 p * sin t.
Proof.
  pose proof PI_RGT_0. pose proof (atan2_range (y2 p) (x2 p)) as A. destruct (atan2_polar (y2 p) (x2 p)) as (X & Y).
  rewrite norm2_hypot. set (t := atan2 (y2 p) (x2 p)) in *. destruct (Rle_or_lt 0 t).
  - exists t. split; [lra|auto].
  - exists (t + IZR 1 * (2 * PI)). destruct (cos_period_Z t 1) as (-> & ->). split; [lra|auto].
Qed.
Lemma sin_2PI_shift x : sin (x + 2 * PI) = sin x.
Proof. destruct (cos_period_Z x 1) as (_ & E). now rewrite Rmult_1_l in E. Qed.
Lemma sin_neg_window x : - (2 * PI) < x < PI -> (sin x < 0 <-> - PI < x < 0).
Proof.
  intros H. pose proof PI_RGT_0. split.
  - intros S. split; apply Rnot_le_lt; intros K.
    + destruct (Rle_lt_or_eq_dec _ _ K) as [K'|K'].
      * assert (0 < sin (x + 2 * PI)) by (apply sin_gt_0; lra). rewrite sin_2PI_shift in *. lra.
      * subst x. rewrite sin_neg, sin_PI in S. lra.
    + assert (0 <= sin x) by (apply sin_ge_0; lra). lra.
  - intros (A & B). rewrite <- (Ropp_involutive x), sin_neg. assert (0 < sin (- x)) by (apply sin_gt_0; lra). lra.
Qed.
Lemma sector_spec theta p : 0 < theta < 2 * PI ->
  (sector_fn theta p < 0 <-> 0 < norm2 p /\ exists t, 0 < t < theta /\ x2 p = norm2 p * cos t /\ y2 p = norm2 p * sin t).
Proof.
  intros T. pose proof PI_RGT_0 as HP. pose proof (norm2_nonneg p) as N.
  assert (K : forall t, x2 p = norm2 p * cos t -> y2 p = norm2 p * sin t ->
    dot2 (V2 (- sin theta) (cos theta)) p = norm2 p * sin (t - theta)).
  { intros t X Y. unfold dot2; cbn. rewrite X, Y, sin_minus. ring. }
  assert (W : forall t, 0 <= t < 2 * PI -> 0 < norm2 p -> x2 p = norm2 p * cos t -> y2 p = norm2 p * sin t ->
    (sector_fn theta p < 0 <-> 0 < t < theta)).
  { intros t R P X Y. unfold sector_fn. rewrite (K t X Y), Y. set (r := norm2 p) in *.
    assert (S1 : - (r * sin t) < 0 <-> 0 < t < PI).
    { split.
      - intros Q. assert (0 < sin t) by nra. split; apply Rnot_le_lt; intros M.
        + assert (E0 : t = 0) by lra. rewrite E0, sin_0 in *. lra.
        + assert (sin t <= 0) by (apply sin_le_0; lra). lra.
      - intros Q. assert (0 < sin t) by (apply sin_gt_0; lra). nra. }
    assert (S2 : r * sin (t - theta) < 0 <-> sin (t - theta) < 0) by (split; intros; nra).
    destruct (Rltb theta PI) eqn:B; [apply Rltb_true in B|apply Rltb_false in B].
    - assert (S3 : Rmax (- (r * sin t)) (r * sin (t - theta)) < 0 <-> 0 < t < PI /\ sin (t - theta) < 0).
      { rewrite <- S1, <- S2. split; [intros M|intros (M1 & M2)]; rmm; lra. }
      rewrite S3. split.
      + intros (M1 & M2). apply sin_neg_window in M2; lra.
      + intros M. split; [lra|]. apply sin_neg_window; lra.
    - assert (S3 : Rmin (- (r * sin t)) (r * sin (t - theta)) < 0 <-> 0 < t < PI \/ sin (t - theta) < 0).
      { rewrite <- S1, <- S2. split; [intros M|intros [M|M]]; rmm; lra. }
      rewrite S3. split.
      + intros [M|M]; [lra|]. destruct (Rlt_or_le (t - theta) PI) as [Q|Q]; [|lra]. apply sin_neg_window in M; lra.
      + intros M. destruct (Rlt_or_le t PI); [left; lra|]. right. apply sin_neg_window; lra. }
  split.
  - intros S. destruct (Rle_lt_or_eq_dec _ _ N) as [P|P].
    + split; [exact P|]. destruct (polar_0_2pi p) as (t & R & X & Y). exists t. split; [|auto]. now apply W.
    + exfalso. destruct (abs_le_norm2 p) as (A & B). rewrite <- P in A, B.
      assert (x2 p = 0 /\ y2 p = 0) as (X & Y) by (clear - A B; split; rmm; lra). revert S. unfold sector_fn, dot2; cbn. rewrite X, Y.
      rcase; rmm; lra.
  - intros (P & t & R & X & Y). apply (W t); auto. lra.
Qed.

(** ** Partial revolution *)
Definition rev_vset (theta : R) : list v2 :=
  [V2 0 0; V2 1 0; V2 (cos theta) (sin theta)]
  ++ (if Rltb ((1/2) * PI) theta then [V2 0 1] else [])
  ++ (if Rltb PI theta then [V2 (-1) 0] else [])
  ++ (if Rltb ((3/2) * PI) theta then [V2 0 (-1)] else []).
(** Every direction of the sector lies between two vectors of the set, on each axis. *)
Lemma rev_vset_bounds theta t a b : 0 < theta < 2 * PI -> 0 < t < theta ->
  set_min2 (rev_vset theta) = Ok a -> set_max2 (rev_vset theta) = Ok b ->
  x2 a <= cos t <= x2 b /\ y2 a <= sin t <= y2 b.
Proof.
  intros T H Ea Eb. pose proof PI_RGT_0 as HP.
  assert (F : forall w, In w (rev_vset theta) -> le2 a w /\ le2 w b)
    by (intros w I; split; [eapply set_min2_le|eapply set_max2_ge]; eauto).
  assert (F1 : le2 a (V2 1 0) /\ le2 (V2 1 0) b) by (apply F; cbn; auto).
  assert (F2 : le2 a (V2 (cos theta) (sin theta)) /\ le2 (V2 (cos theta) (sin theta)) b) by (apply F; cbn; auto).
  pose proof (COS_bound t) as C. pose proof (SIN_bound t) as S.
  unfold le2 in *; cbn [x2 y2] in *. split; split; try lra.
  - destruct (Rlt_or_le PI theta) as [P|P].
    + assert (G : le2 a (V2 (-1) 0) /\ le2 (V2 (-1) 0) b).
      { apply F. unfold rev_vset. rewrite (proj2 (Rltb_true PI theta) P). apply in_or_app. right. apply in_or_app. right. left. reflexivity. }
      unfold le2 in G; cbn [x2 y2] in G. lra.
    + assert (cos theta <= cos t) by (apply cos_decr_1; lra). lra.
  - destruct (Rlt_or_le ((3 / 2) * PI) theta) as [P|P].
    + assert (G : le2 a (V2 0 (-1)) /\ le2 (V2 0 (-1)) b).
      { apply F. unfold rev_vset. rewrite (proj2 (Rltb_true (3/2*PI) theta) P). repeat (apply in_or_app; right). left. reflexivity. }
      unfold le2 in G; cbn [x2 y2] in G. lra.
    + destruct (Rle_or_lt t PI).
      * assert (0 <= sin t) by (apply sin_ge_0; lra). lra.
      * assert (sin theta <= sin t); [|lra].
        replace (sin theta) with (- sin (theta - PI)) by (rewrite sin_minus, sin_PI, cos_PI; ring).
        replace (sin t) with (- sin (t - PI)) by (rewrite sin_minus, sin_PI, cos_PI; ring).
        apply Ropp_le_contravar. apply sin_incr_1; lra.
  - destruct (Rlt_or_le ((1 / 2) * PI) theta) as [P|P].
    + assert (G : le2 a (V2 0 1) /\ le2 (V2 0 1) b).
      { apply F. unfold rev_vset. rewrite (proj2 (Rltb_true (1/2*PI) theta) P). apply in_or_app. right. apply in_or_app. left. left. reflexivity. }
      unfold le2 in G; cbn [x2 y2] in G. lra.
    + assert (sin t <= sin theta) by (apply sin_incr_1; lra). lra.
Qed.
Lemma revolve_partial s theta : 0 < theta < 2 * PI -> tolerance <= Rabs (theta - 2 * PI) ->
  exists b, revolve3d (Some s) theta = Ok (S3 (fun p => Rmax (ev2 s (rho p)) (sector_fn theta (xy p))) b) /\
  (forall p, in2 (bb2 s) (rho p) -> sector_fn theta (xy p) < 0 -> in3 b p).
Proof.
  intros T Z. pose proof PI_RGT_0 as HP. unfold revolve3d.
  rewrite (proj2 (Rleb_false theta 0)) by lra. rewrite (proj2 (Rltb_false _ _) Z).
  rewrite (Rabs_right theta) by lra. rewrite (modR_small theta tau) by (unfold tau; lra).
  assert (NZ : Reqb theta 0 = false) by (apply Reqb_false; lra). rewrite NZ.
  fold (rev_vset theta). set (l := Rmax (Rabs (x2 (min2 (bb2 s)))) (Rabs (x2 (max2 (bb2 s))))).
  destruct (set_min2 (rev_vset theta)) as [mn| |] eqn:E1; try discriminate.
  destruct (set_max2 (rev_vset theta)) as [mx| |] eqn:E2; try discriminate. cbn [bind].
  eexists. split.
  - unfold revolve_eval. rewrite NZ. cbn [negb]. reflexivity.
  - intros p (X & Y) S. apply (sector_spec theta _ T) in S. destruct S as (P & t & Ht & Xt & Yt).
    destruct (rev_vset_bounds theta t mn mx T Ht E1 E2) as (Bx & By).
    change (norm2 (xy p)) with (x2 (rho p)) in *. change (x2 (xy p)) with (x3 p) in Xt. change (y2 (xy p)) with (y3 p) in Yt.
    set (r := x2 (rho p)) in *.
    assert (L : r <= l) by (unfold l; pose proof (Rmax_r (Rabs (x2 (min2 (bb2 s)))) (Rabs (x2 (max2 (bb2 s))))); pose proof (Rle_abs (x2 (max2 (bb2 s)))); lra).
    assert (V0 : le2 mn (V2 0 0) /\ le2 (V2 0 0) mx) by (split; [eapply set_min2_le|eapply set_max2_ge]; eauto; left; reflexivity).
    unfold le2 in V0; cbn [x2 y2] in V0.
    assert (Q : forall lo hi c, lo <= 0 -> 0 <= hi -> lo <= c <= hi -> l * lo <= r * c <= l * hi) by (clear - L P; intros; split; nra).
    unfold in3; cbn [min3 max3 x3 y3 z3 scale2 x2 y2]. rewrite Xt, Yt.
    split; [|split]; [apply Q; lra|apply Q; lra|exact Y].
Qed.
Lemma contain_revolve m s s' theta : 0 < m -> m <= max_float64 -> theta < 2 * PI \/ Rabs (theta - 2 * PI) < tolerance ->
  dom2 Contain m s -> revolve3d (Some s) theta = Ok s' -> dom3 Contain m s'.
Proof.
  intros M0 M T D E. destruct (Rlt_or_le (Rabs (theta - 2 * PI)) tolerance) as [K|K].
  { eapply dom3_revolve_full; eauto. }
  destruct (Rle_or_lt theta 0) as [Z|Z]; [eapply dom3_revolve_full; eauto|].
  destruct (revolve_partial s theta) as (b & E' & B); [lra|exact K|]. rewrite E' in E. inversion E. clear E E'.
  intros p L. cbn [ev3 bb3 G3] in *. intros V.
  assert (A : ev2 s (rho p) < 0 /\ sector_fn theta (xy p) < 0).
  { pose proof (Rmax_l (ev2 s (rho p)) (sector_fn theta (xy p))). pose proof (Rmax_r (ev2 s (rho p)) (sector_fn theta (xy p))). lra. }
  apply B; [|tauto]. apply (D (rho p)); lra.
Qed.

(** ** Lists of copies *)
Lemma line_of_in {A V} (place : V -> A) vadd dx pat : forall x y,
  In y (line_of_objs place vadd x dx pat) -> exists z, y = place z.
Proof.
  induction pat as [|c r IH]; cbn [line_of_objs]; intros x y I; [destruct I|].
  apply in_app_or in I. destruct I as [I|I]; [|eauto]. destruct (fst c); [|destruct I]. destruct I as [<- |[]]. eauto.
Qed.
Lemma dom3_line_of g m s p0 p1 pat s' : dom3 g m s -> line_of3d (Some s) p0 p1 pat = Ok s' -> dom3 g m s'.
Proof.
  intros D. unfold line_of3d. destruct pat as [|c r]; [discriminate|]. apply dom3_union.
  intros x I. apply line_of_in in I. destruct I as (z & E). inversion E. now apply dom3_translate.
Qed.
Lemma dom2_line_of g m s p0 p1 pat s' : dom2 g m s -> line_of2d (Some s) p0 p1 pat = Ok s' -> dom2 g m s'.
Proof.
  intros D. unfold line_of2d. destruct pat as [|c r]; [discriminate|].
  set (os := line_of_objs _ _ _ _ _).
  assert (A : forall x, In (Some x) os -> dom2 g m x).
  { intros x I. apply line_of_in in I. destruct I as (z & E). inversion E. now apply dom2_translate. }
  destruct os as [|[o|] [|b r']]; intros E; try (now apply (dom2_union g m) in E); try discriminate.
  inversion E. subst o. apply A. now left.
Qed.
Lemma dom3_multi g m s ps s' : m <= max_float64 -> dom3 g m s -> multi3d (Some s) ps = Ok s' -> dom3 g m s'.
Proof.
  intros M D. unfold multi3d. destruct ps as [|p r]; [intros E; inversion E; now apply dom3_empty|].
  apply dom3_union. intros x I. apply in_map_iff in I. destruct I as (z & E & _). inversion E. now apply dom3_translate.
Qed.
Lemma dom2_multi g m s ps s' : dom2 g m s -> multi2d (Some s) ps = Ok s' -> dom2 g m s'.
Proof.
  intros D. unfold multi2d. destruct ps as [|p r]; [discriminate|].
  apply dom2_union. intros x I. apply in_map_iff in I. destruct I as (z & E & _). inversion E. now apply dom2_translate.
Qed.
Local Transparent det44.
Lemma rotate_to_vec_rigid a b : affine3 (rotate_to_vec a b) /\ det44 (rotate_to_vec a b) <> 0 /\ isometry3 (mul_pos3 (rotate_to_vec a b)).
Proof.
  destruct (equal_within3 a zero3 sdf_epsilon) eqn:A;
  [|destruct (equal_within3 b zero3 sdf_epsilon) eqn:B;
  [|destruct (equal_within3 (scale3 (-1) (unit3 a)) (unit3 b) sdf_epsilon) eqn:O]].
  1,2: unfold rotate_to_vec; rewrite A, ?B; cbn [orb].
  1,2: split; [repeat split|split; [unfold det44, identity3d; cbn; lra|intros p q; now rewrite !identity_pos3]].
  - unfold rotate_to_vec; rewrite A, B; cbn [orb]. destruct (equal_within3 (unit3 a) (unit3 b) sdf_epsilon).
    + split; [repeat split|split; [unfold det44, identity3d; cbn; lra|intros p q; now rewrite !identity_pos3]].
    + rewrite O. split; [repeat split|split; [unfold det44; cbn; lra|]].
      intros p q. unfold dist3, norm3. f_equal. unfold norm3sq, dot3, mul_pos3, sub3; cbn. ring.
  - destruct (C36_rotate_to_vec_partial a b A B O) as (I & D & F & _). rewrite D. split; [exact F|]. split; [lra|exact I].
Qed.
Local Opaque det44.
Lemma dom3_orient g m s base ds s' : g <> Axis -> m <= max_float64 -> dom3 g m s -> orient3d (Some s) base ds = Ok s' -> dom3 g m s'.
Proof.
  intros N M D. unfold orient3d. destruct ds as [|p r]; [intros E; inversion E; now apply dom3_empty|].
  apply dom3_union. intros x I. apply in_map_iff in I. destruct I as (z & E & _). inversion E.
  destruct (rotate_to_vec_rigid base z) as (A & B & C). apply dom3_transform; auto.
  destruct g; cbn [keeps3]; [exact C|congruence|exact Logic.I].
Qed.
Lemma dom2_center g m s : dom2 g m s -> dom2 g m (center2d s).
Proof. apply dom2_translate. Qed.
Lemma dom2_center_and_scale g m s k : 0 < k -> dom2 g m s -> dom2 g (m * k) (center_and_scale2d s k).
Proof. intros K D. apply dom2_scale; auto. now apply dom2_translate. Qed.
