(** C91, C92: extrusion with rounded edges; centring a 2D field on its Bounds. *)
From Coq Require Import Reals Lra Lia List Bool ZArith.
From Verif Require Import Prelude Vec BoxModel MatrixModel PropsBox PropsMatrix SdfModel SdfLemmas PropsBool Trig
  Grades GradesOps GradesSweep Distance PrimModel PrimCores PropsPrim.
Import ListNotations.
Local Open Scope R_scope.

(** ** C91 *)
(** Where the constructor returns a rounded solid. *)
Lemma rounded_ok s height r s' : 0 < r -> 2 * r <= height -> extrude_rounded3d (Some s) height r = Ok s' ->
  (forall p, ev3 s' p = quad (ev2 s (V2 (x3 p) (y3 p))) (Rabs (z3 p) - (height / 2 - r)) - r) /\
  bb3 s' = Box3 (V3 (x2 (min2 (bb2 s)) - r) (y2 (min2 (bb2 s)) - r) (- (height / 2)))
                (V3 (x2 (max2 (bb2 s)) + r) (y2 (max2 (bb2 s)) + r) (height / 2)).
Proof.
  intros R H. unfold extrude_rounded3d. rewrite (proj2 (Reqb_false r 0)) by lra.
  rewrite (proj2 (Rleb_false height 0)) by lra. rewrite (proj2 (Rltb_false r 0)) by lra. rewrite (proj2 (Rltb_false height (2 * r))) by lra.
  intros E; inversion E; subst s'. cbn [ev3 bb3]. split; [intros p; reflexivity|].
  unfold sub3, add3, elem3; cbn. f_equal; apply v3_ext; cbn; field.
Qed.
(** Cross sections.  Up to the height where the edge starts, the section is the profile grown by
    [r]; above it the section shrinks along a quarter circle; nothing lies at or beyond half the
    height. *)
Theorem C91_sections s height r s' p : 0 < r -> 2 * r <= height -> extrude_rounded3d (Some s) height r = Ok s' ->
  let a := ev2 s (V2 (x3 p) (y3 p)) in
  let b := Rabs (z3 p) - (height / 2 - r) in
  (b <= 0 -> (ev3 s' p < 0 <-> a < r)) /\
  (0 < b -> (ev3 s' p < 0 <-> Rabs (z3 p) < height / 2 /\ a < sqrt (r * r - b * b))) /\
  (a < 0 -> (ev3 s' p < 0 <-> Rabs (z3 p) < height / 2)).
Proof.
  intros R H E a b. destruct (rounded_ok _ _ _ _ R H E) as (V & _). rewrite V. clear V. fold a b. clearbody a.
  assert (B : Rabs (z3 p) < height / 2 <-> b < r) by (unfold b; split; lra). rewrite B. clearbody b. clear B.
  unfold quad. split; [|split].
  - intros L. rewrite (proj2 (Rltb_false 0 b)) by lra. destruct (Rltb a 0) eqn:A; [apply Rltb_true in A|apply Rltb_false in A].
    + split; [lra|]. intros _. unfold Rmax. destruct (Rle_dec a b); lra.
    + lra.
  - intros L. rewrite (proj2 (Rltb_true 0 b)) by lra. destruct (Rltb a 0) eqn:A; [apply Rltb_true in A|apply Rltb_false in A].
    + split; [intros K; split; [lra|]|lra]. apply Rlt_le_trans with 0; [lra|apply sqrt_pos].
    + pose proof (hypot_sq a b) as Q. pose proof (hypot_nonneg a b) as N. pose proof (hypot_ge a b) as (_ & G). rewrite (Rabs_right b) in G by lra.
      split.
      * intros K. assert (b < r) by lra. split; [lra|]. apply Rsqr_incrst_0; [|lra|apply sqrt_pos]. unfold Rsqr at 2. rewrite sqrt_sqrt by nra. unfold Rsqr. nra.
      * intros (K & Q2). apply Rsqr_incrst_1 in Q2; [|lra|apply sqrt_pos]. unfold Rsqr at 2 in Q2. rewrite sqrt_sqrt in Q2 by nra. unfold Rsqr in Q2.
        assert (hypot a b < r); [|lra]. apply Rnot_le_lt. intros C. nra.
  - intros A. destruct (Rltb 0 b) eqn:L; [apply Rltb_true in L|apply Rltb_false in L]; rewrite (proj2 (Rltb_true a 0)) by lra.
    + lra.
    + split; [lra|]. intros _. unfold Rmax. destruct (Rle_dec a b); lra.
Qed.
(** For a profile that is the signed distance to a set [S], the solid is the set of points nearer
    than [r] to the straight core over [S], and the value outside the core is the distance to the
    core minus [r]. *)
Theorem C91_exact s S height r s' p : exact2 s S -> 0 < r -> 2 * r <= height -> extrude_rounded3d (Some s) height r = Ok s' ->
  let core q := S (V2 (x3 q) (y3 q)) /\ Rabs (z3 q) <= height / 2 - r in
  (ev3 s' p < 0 <-> exists q, core q /\ dist3 p q < r) /\
  (~ core p -> (exists q, core q /\ dist3 p q = ev3 s' p + r) /\ forall q, core q -> ev3 s' p + r <= dist3 p q).
Proof.
  intros (E & _) R H O core. destruct (rounded_ok _ _ _ _ R H O) as (V & _).
  set (h := height / 2 - r) in *. assert (H0 : 0 <= h) by (unfold h; lra).
  set (a := ev2 s (V2 (x3 p) (y3 p))). set (b := Rabs (z3 p) - h).
  specialize (V p). fold a b in V. clearbody h.
  assert (Ia : a <= 0 <-> S (V2 (x3 p) (y3 p))) by (apply (sdist_in dist2 dist2_refl), E).
  assert (P : forall q, dist3 p q * dist3 p q = dist2 (xy p) (xy q) * dist2 (xy p) (xy q) + (z3 p - z3 q) * (z3 p - z3 q)).
  { intros q. rewrite <- dist_prism. replace (V3 (x2 (xy q)) (y2 (xy q)) (z3 q)) with q by (apply v3_ext; reflexivity). reflexivity. }
  destruct (E (V2 (x3 p) (y3 p))) as (Eo & _). fold a in Eo.
  assert (Out : ~ core p -> (exists q, core q /\ dist3 p q = ev3 s' p + r) /\ forall q, core q -> ev3 s' p + r <= dist3 p q).
  { intros N. rewrite V. replace (quad a b - r + r) with (quad a b) by ring.
    set (zc := if Rle_dec (Rabs (z3 p)) h then z3 p else if Rle_dec 0 (z3 p) then h else - h).
    assert (Zc : Rabs zc <= h).
    { unfold zc. destruct (Rle_dec (Rabs (z3 p)) h); [auto|]. destruct (Rle_dec 0 (z3 p)); [rewrite Rabs_right by lra; lra|rewrite Rabs_Ropp, Rabs_right by lra; lra]. }
    assert (Zd : (z3 p - zc) * (z3 p - zc) = Rmax 0 b * Rmax 0 b).
    { unfold zc, b, Rmax. destruct (Rle_dec (Rabs (z3 p)) h), (Rle_dec 0 (Rabs (z3 p) - h)); try lra.
      - replace (Rabs (z3 p) - h) with 0 by lra. ring.
      - unfold Rabs. destruct (Rle_dec 0 (z3 p)), (Rcase_abs (z3 p)); try lra; try ring; nra. }
    assert (Zl : forall q, Rabs (z3 q) <= h -> Rmax 0 b * Rmax 0 b <= (z3 p - z3 q) * (z3 p - z3 q)).
    { intros q Q. unfold b, Rmax. destruct (Rle_dec 0 (Rabs (z3 p) - h)) as [L|L]; [|pose proof (Rle_0_sqr (z3 p - z3 q)) as Sq; unfold Rsqr in Sq; lra].
      assert (Qb : - h <= z3 q <= h) by (revert Q; unfold Rabs; destruct (Rcase_abs (z3 q)); lra).
      revert L. unfold Rabs. destruct (Rcase_abs (z3 p)); intros L; [replace ((z3 p - z3 q) * (z3 p - z3 q)) with ((z3 q - z3 p) * (z3 q - z3 p)) by ring|]; apply Rmult_le_compat; lra. }
    assert (Am : exists q2, S q2 /\ dist2 (xy p) q2 = Rmax 0 a).
    { destruct (Rle_dec 0 a) as [L|L].
      - destruct (Eo L) as ((q & Q & D) & F). exists q. split; [auto|]. specialize (F q Q). unfold Rmax. destruct (Rle_dec 0 a); [|lra].
        change (V2 (x3 p) (y3 p)) with (xy p) in *. lra.
      - exists (xy p). split; [apply Ia; lra|]. rewrite dist2_refl. unfold Rmax. destruct (Rle_dec 0 a); lra. }
    assert (Al : forall q2, S q2 -> Rmax 0 a <= dist2 (xy p) q2).
    { intros q2 Q. unfold Rmax. destruct (Rle_dec 0 a) as [L|L]; [now apply (proj2 (Eo L))|apply dist2_nonneg]. }
    assert (Qv : quad a b = sqrt (Rmax 0 a * Rmax 0 a + Rmax 0 b * Rmax 0 b)).
    { unfold quad. destruct (Rltb 0 b) eqn:L; [apply Rltb_true in L|apply Rltb_false in L];
      (destruct (Rltb a 0) eqn:A; [apply Rltb_true in A|apply Rltb_false in A]).
      - rewrite (Rmax_left 0 a), (Rmax_right 0 b) by lra. replace (0 * 0 + b * b) with (b * b) by ring. rewrite sqrt_square; lra.
      - rewrite (Rmax_right 0 a), (Rmax_right 0 b) by lra. reflexivity.
      - exfalso. apply N. split; [apply Ia; lra|unfold b in L; lra].
      - rewrite (Rmax_right 0 a), (Rmax_left 0 b) by lra. replace (a * a + 0 * 0) with (a * a) by ring. rewrite sqrt_square; lra. }
    rewrite Qv. split.
    - destruct Am as (q2 & Q & D). exists (V3 (x2 q2) (y2 q2) zc). split.
      + unfold core; cbn. split; [|exact Zc]. destruct q2; exact Q.
      + rewrite <- (sqrt_square (dist3 _ _)) by apply dist3_nonneg. f_equal. rewrite dist_prism, D, Zd. ring.
    - intros q (Q1 & Q2). rewrite <- (sqrt_square (dist3 p q)) by apply dist3_nonneg. apply sqrt_le_1_alt. rewrite P.
      specialize (Zl q Q2). specialize (Al _ Q1). change (V2 (x3 q) (y3 q)) with (xy q) in Al.
      pose proof (Rmax_l 0 a). nra. }
  split; [|exact Out].
  destruct (Rle_dec a 0) as [A|A]; [destruct (Rle_dec b 0) as [B|B]|].
  - split.
    + intros _. exists p. rewrite dist3_refl. split; [|lra]. split; [now apply Ia|unfold b in B; lra].
    + intros _. rewrite V. unfold quad. rewrite (proj2 (Rltb_false 0 b)) by lra. destruct (Rltb a 0); [unfold Rmax; destruct (Rle_dec a b)|]; lra.
  - assert (N : ~ core p) by (intros (_ & C); unfold b in B; lra). destruct (Out N) as ((q & Q & D) & F). split.
    + intros K. exists q. split; [auto|lra].
    + intros (q' & Q' & D'). specialize (F q' Q'). lra.
  - assert (N : ~ core p) by (intros (C & _); apply A, Ia, C). destruct (Out N) as ((q & Q & D) & F). split.
    + intros K. exists q. split; [auto|lra].
    + intros (q' & Q' & D'). specialize (F q' Q'). lra.
Qed.
(** Bounds; a zero radius is the plain extrusion; invalid sizes give a field that contains
    nothing; only a nil profile panics. *)
Theorem C91_bounds s height r s' : 0 < r -> 2 * r <= height -> extrude_rounded3d (Some s) height r = Ok s' ->
  bb3 s' = Box3 (V3 (x2 (min2 (bb2 s)) - r) (y2 (min2 (bb2 s)) - r) (- (height / 2)))
                (V3 (x2 (max2 (bb2 s)) + r) (y2 (max2 (bb2 s)) + r) (height / 2)).
Proof. intros R H E. apply (rounded_ok _ _ _ _ R H E). Qed.
Theorem C91_degenerate :
  (forall s height, extrude_rounded3d (Some s) height 0 = Ok (extrude3d s height)) /\
  (forall s height r, r <> 0 -> height <= 0 \/ r < 0 \/ height < 2 * r ->
     exists s', extrude_rounded3d (Some s) height r = Ok s' /\ forall p, ev3 s' p = max_float64) /\
  (forall s height r, 0 < r -> 2 * r <= height -> exists s', extrude_rounded3d (Some s) height r = Ok s') /\
  (forall sdf height r, extrude_rounded3d sdf height r = Panicked <-> sdf = None) /\
  (forall sdf height r, extrude_rounded3d sdf height r <> Err).
Proof.
  split; [|split; [|split; [|split]]].
  - intros. unfold extrude_rounded3d. rewrite (proj2 (Reqb_true 0 0)) by lra. reflexivity.
  - intros s height r N B. unfold extrude_rounded3d. rewrite (proj2 (Reqb_false r 0)) by lra.
    destruct (Rleb height 0) eqn:E1; [eexists; split; reflexivity|]. destruct (Rltb r 0) eqn:E2; [eexists; split; reflexivity|].
    apply Rleb_false in E1. apply Rltb_false in E2. rewrite (proj2 (Rltb_true height (2 * r))) by lra. eexists; split; reflexivity.
  - intros s height r R H. unfold extrude_rounded3d. rewrite (proj2 (Reqb_false r 0)) by lra.
    rewrite (proj2 (Rleb_false height 0)) by lra. rewrite (proj2 (Rltb_false r 0)) by lra. rewrite (proj2 (Rltb_false height (2 * r))) by lra. eexists; reflexivity.
  - intros [s|] height r; unfold extrude_rounded3d; destruct (Reqb r 0); try (split; congruence).
    destruct (Rleb height 0), (Rltb r 0), (Rltb height (2 * r)); split; congruence.
  - intros [s|] height r; unfold extrude_rounded3d; destruct (Reqb r 0); try congruence.
    destruct (Rleb height 0), (Rltb r 0), (Rltb height (2 * r)); congruence.
Qed.
(** A disc of radius 1 extruded to height 4 with edges of radius 1/2: the axis is inside up to just
    below height 2, the rim at the same height is outside. *)
Example C91_example : exists s s', must_circle 1 = Ok s /\ exact2 s (fun p => norm2 p <= 1) /\ 2 * (1/2) <= 4 /\
  extrude_rounded3d (Some s) 4 (1/2) = Ok s' /\ ev3 s' (V3 0 0 (19/10)) < 0 /\ 0 < ev3 s' (V3 (3/2) 0 (19/10)) /\
  ev3 s' (V3 (6/5) 0 0) < 0.
Proof.
  destruct (must_circle 1) as [s| |] eqn:M; [|revert M; unfold must_circle; destruct (Rltb 1 0); discriminate|
    exfalso; revert M; unfold must_circle; rewrite (proj2 (Rltb_false 1 0)) by lra; discriminate].
  destruct C91_degenerate as (_ & _ & T & _). destruct (T s 4 (1/2)) as (s' & E); [lra|lra|]. exists s, s'.
  assert (V : forall x, 0 <= x -> ev2 s (V2 x 0) = x - 1).
  { intros x X. revert M. unfold must_circle. rewrite (proj2 (Rltb_false 1 0)) by lra. intros K; inversion K. cbn [ev2].
    unfold norm2, norm2sq, dot2; cbn. replace (x * x + 0 * 0) with (x * x) by ring. rewrite sqrt_square by lra. reflexivity. }
  destruct (C91_sections s 4 (1/2) s' (V3 0 0 (19/10)) ltac:(lra) ltac:(lra) E) as (_ & _ & A).
  destruct (C91_sections s 4 (1/2) s' (V3 (6/5) 0 0) ltac:(lra) ltac:(lra) E) as (C & _).
  destruct (rounded_ok s 4 (1/2) s' ltac:(lra) ltac:(lra) E) as (W & _). cbn [x3 y3 z3] in *.
  split; [reflexivity|]. split; [now apply C57_circle|]. split; [lra|]. split; [exact E|].
  split; [apply A; [rewrite V by lra; lra|rewrite Rabs_right by lra; lra]|]. split.
  - rewrite W; cbn [x3 y3 z3]. rewrite V by lra. rewrite Rabs_right by lra. unfold quad.
    rewrite (proj2 (Rltb_true _ _)) by lra. rewrite (proj2 (Rltb_false _ _)) by lra.
    pose proof (hypot_nonneg (3/2 - 1) (19/10 - (4/2 - 1/2))) as N. pose proof (hypot_sq (3/2 - 1) (19/10 - (4/2 - 1/2))) as Q. nra.
  - apply C; [rewrite Rabs_right by lra; lra|rewrite V by lra; lra].
Qed.
(** ** C92 *)
Definition ctr2 (b : box2) : v2 := V2 ((x2 (min2 b) + x2 (max2 b)) / 2) ((y2 (min2 b) + y2 (max2 b)) / 2).
Lemma center2_ctr b : center2 b = ctr2 b.
Proof. unfold center2, ctr2, size2, add2, scale2, sub2. apply v2_ext; cbn; field. Qed.
Definition wid2 (b : box2) : v2 := V2 (x2 (max2 b) - x2 (min2 b)) (y2 (max2 b) - y2 (min2 b)).
Lemma center2d_box s : ok2 (bb2 s) ->
  bb2 (center2d s) = Box2 (scale2 (-1/2) (wid2 (bb2 s))) (scale2 (1/2) (wid2 (bb2 s))).
Proof.
  intros (A & B). unfold center2d, transform2d; cbn [bb2]. rewrite center2_ctr. destruct (bb2 s) as [[ax ay] [cx cy]]; cbn in A, B.
  unfold mul_box2, translate2d, ctr2, wid2, scale2, add2, min_elem2, max_elem2; cbn.
  f_equal; apply v2_ext; cbn; rmm; lra.
Qed.
Theorem C92_center s : ok2 (bb2 s) ->
  (forall p, ev2 (center2d s) (sub2 p (ctr2 (bb2 s))) = ev2 s p) /\
  ctr2 (bb2 (center2d s)) = V2 0 0 /\
  wid2 (bb2 (center2d s)) = wid2 (bb2 s) /\
  (forall p, in2 (bb2 (center2d s)) (sub2 p (ctr2 (bb2 s))) <-> in2 (bb2 s) p).
Proof.
  intros O. rewrite (center2d_box s O). split; [|split; [|split]].
  - intros p. unfold center2d. rewrite center2_ctr. set (c := ctr2 (bb2 s)). clearbody c.
    pose proof (proj1 (C33_transform2 s (translate2d (scale2 (-1) c)) ltac:(unfold affine2, translate2d; cbn; auto) ltac:(unfold det33, translate2d; cbn; lra)) p) as E.
    rewrite <- E. f_equal. unfold mul_pos2, translate2d, sub2, scale2. apply v2_ext; cbn; ring.
  - unfold ctr2, scale2; cbn. apply v2_ext; cbn; field.
  - unfold wid2, scale2; cbn. apply v2_ext; cbn; field.
  - intros p. unfold in2, ctr2, wid2, scale2, sub2; cbn. split; intros; lra.
Qed.
Theorem C92_center_and_scale s k : ok2 (bb2 s) -> 0 < k ->
  (forall p, ev2 (center_and_scale2d s k) (scale2 k (sub2 p (ctr2 (bb2 s)))) = k * ev2 s p) /\
  ctr2 (bb2 (center_and_scale2d s k)) = V2 0 0 /\
  wid2 (bb2 (center_and_scale2d s k)) = scale2 k (wid2 (bb2 s)) /\
  (forall p, in2 (bb2 (center_and_scale2d s k)) (scale2 k (sub2 p (ctr2 (bb2 s)))) <-> in2 (bb2 s) p).
Proof.
  intros O K. change (center_and_scale2d s k) with (scale_uniform2d (center2d s) k).
  destruct (C92_center s O) as (V & _).
  assert (Bx : bb2 (scale_uniform2d (center2d s) k) = Box2 (scale2 (- k / 2) (wid2 (bb2 s))) (scale2 (k / 2) (wid2 (bb2 s)))).
  { unfold scale_uniform2d; cbn [bb2]. rewrite (center2d_box s O). destruct O as (A & B). destruct (bb2 s) as [[ax ay] [cx cy]]; cbn in A, B.
    unfold mul_box2, scale2d, wid2, scale2, add2, min_elem2, max_elem2; cbn. f_equal; apply v2_ext; cbn; rmm; nra. }
  rewrite Bx. split; [|split; [|split]].
  - intros p. destruct (C38_scale_uniform_partial k K) as (_ & E & _). rewrite E, V. reflexivity.
  - unfold ctr2, scale2; cbn. apply v2_ext; cbn; field.
  - unfold wid2, scale2; cbn. apply v2_ext; cbn; field.
  - intros p. unfold in2, ctr2, wid2, scale2, sub2; cbn. split; intros (I1 & I2); split; nra.
Qed.
(** A unit square with one corner at (3, 5): its centre moves from (7/2, 11/2) to the origin, and
    doubling the size doubles the value. *)
Example C92_example : exists s : sdf2, ok2 (bb2 s) /\ ctr2 (bb2 s) = V2 (7/2) (11/2) /\
  ev2 (center2d s) (V2 0 0) = ev2 s (V2 (7/2) (11/2)) /\ ev2 (center_and_scale2d s 2) (V2 1 0) = 2 * ev2 s (V2 4 (11/2)).
Proof.
  exists (S2 (fun p => Rmax (Rabs (x2 p - 7/2)) (Rabs (y2 p - 11/2)) - 1/2) (Box2 (V2 3 5) (V2 4 6))). set (s := S2 _ _).
  assert (O : ok2 (bb2 s)) by (unfold ok2; cbn; lra).
  assert (C : ctr2 (bb2 s) = V2 (7/2) (11/2)) by (apply v2_ext; cbn; field).
  split; [exact O|]. split; [exact C|]. split.
  - rewrite <- (proj1 (C92_center s O)), C. f_equal. apply v2_ext; cbn; ring.
  - rewrite <- (proj1 (C92_center_and_scale s 2 O ltac:(lra))), C. f_equal. apply v2_ext; cbn; field.
Qed.
