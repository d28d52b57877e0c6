(** Properties C53, C54: box operations. *)
From Coq Require Import Reals List Bool Lra Psatz.
From Verif Require Import Prelude Vec BoxModel.
Import ListNotations.
Local Open Scope R_scope.

Ltac d3v := repeat match goal with p : v3 |- _ => destruct p | b : box3 |- _ => destruct b end; cbn in *.
Ltac d2v := repeat match goal with p : v2 |- _ => destruct p | b : box2 |- _ => destruct b end; cbn in *.

(** Non-empty box. *)
Definition ok3 (b : box3) : Prop :=
  x3 (min3 b) <= x3 (max3 b) /\ y3 (min3 b) <= y3 (max3 b) /\ z3 (min3 b) <= z3 (max3 b).
Definition ok2 (b : box2) : Prop := x2 (min2 b) <= x2 (max2 b) /\ y2 (min2 b) <= y2 (max2 b).
(** Box inclusion, componentwise. *)
Definition sub_box3 (a b : box3) : Prop := forall p, in3 a p -> in3 b p.
Definition sub_box2 (a b : box2) : Prop := forall p, in2 a p -> in2 b p.

Lemma ok3_corners a : ok3 a -> in3 a (min3 a) /\ in3 a (max3 a).
Proof. unfold ok3, in3. lra. Qed.
Lemma ok2_corners a : ok2 a -> in2 a (min2 a) /\ in2 a (max2 a).
Proof. unfold ok2, in2. lra. Qed.

(** ** C53 *)
(** Extend is the least box containing both, Include the least containing the
    box and the point. *)
Theorem C53_extend3 a b : sub_box3 a (extend3 a b) /\ sub_box3 b (extend3 a b) /\
  (ok3 a -> ok3 b -> forall c, sub_box3 a c -> sub_box3 b c -> sub_box3 (extend3 a b) c).
Proof.
  unfold sub_box3. split; [|split].
  1,2: intros p; unfold in3; d3v; rmm; lra.
  intros Ha Hb c H1 H2 p Hp.
  destruct (ok3_corners a Ha) as [A1 A2]. destruct (ok3_corners b Hb) as [B1 B2].
  apply H1 in A1, A2. apply H2 in B1, B2. revert A1 A2 B1 B2 Hp. clear.
  unfold in3. d3v. rmm; lra.
Qed.
Theorem C53_extend2 a b : sub_box2 a (extend2 a b) /\ sub_box2 b (extend2 a b) /\
  (ok2 a -> ok2 b -> forall c, sub_box2 a c -> sub_box2 b c -> sub_box2 (extend2 a b) c).
Proof.
  unfold sub_box2. split; [|split].
  1,2: intros p; unfold in2; d2v; rmm; lra.
  intros Ha Hb c H1 H2 p Hp.
  destruct (ok2_corners a Ha) as [A1 A2]. destruct (ok2_corners b Hb) as [B1 B2].
  apply H1 in A1, A2. apply H2 in B1, B2. revert A1 A2 B1 B2 Hp. clear.
  unfold in2. d2v. rmm; lra.
Qed.
Theorem C53_include3 a v : sub_box3 a (include3 a v) /\ in3 (include3 a v) v /\
  (ok3 a -> forall c, sub_box3 a c -> in3 c v -> sub_box3 (include3 a v) c).
Proof.
  unfold sub_box3. split; [|split].
  - intros p; unfold in3; d3v; rmm; lra.
  - unfold in3; d3v; rmm; lra.
  - intros Ha c H1 H2 p Hp. destruct (ok3_corners a Ha) as [A1 A2]. apply H1 in A1, A2.
    revert A1 A2 H2 Hp. clear. unfold in3. d3v. rmm; lra.
Qed.
Theorem C53_include2 a v : sub_box2 a (include2 a v) /\ in2 (include2 a v) v /\
  (ok2 a -> forall c, sub_box2 a c -> in2 c v -> sub_box2 (include2 a v) c).
Proof.
  unfold sub_box2. split; [|split].
  - intros p; unfold in2; d2v; rmm; lra.
  - unfold in2; d2v; rmm; lra.
  - intros Ha c H1 H2 p Hp. destruct (ok2_corners a Ha) as [A1 A2]. apply H1 in A1, A2.
    revert A1 A2 H2 Hp. clear. unfold in2. d2v. rmm; lra.
Qed.
(** Translate moves the box; Enlarge, ScaleAboutCenter and NewBox keep the centre
    and give the stated size; Contains decides membership. *)
Theorem C53_shape3 a v k c s :
  (forall p, in3 (box_translate3 a v) p <-> in3 a (sub3 p v)) /\
  center3 (enlarge3 a v) = center3 a /\ size3 (enlarge3 a v) = add3 (size3 a) v /\
  center3 (scale_about_center3 a k) = center3 a /\ size3 (scale_about_center3 a k) = scale3 k (size3 a) /\
  center3 (new_box3 c s) = c /\ size3 (new_box3 c s) = s /\
  min3 a = sub3 (center3 a) (scale3 (1/2) (size3 a)) /\
  max3 a = add3 (center3 a) (scale3 (1/2) (size3 a)) /\
  (forall p, contains3 a p = true <-> in3 a p).
Proof.
  repeat split; try (apply v3_ext; cbn; field).
  all: try solve [unfold in3 in *; d3v; lra].
  all: try solve [unfold contains3 in *; rewrite !andb_true_iff, !Rleb_true in H; lra].
  intros H. unfold contains3. rewrite !andb_true_iff, !Rleb_true. unfold in3 in H. lra.
Qed.
(** CenteredBox never is inverted, and Equals compares all six coordinates. *)
Theorem C53_centered3 c s a b tol :
  center3 (centered_box3 c s) = c /\ in3 (centered_box3 c s) c /\ size3 (centered_box3 c s) = V3 (Rmax (x3 s) 0) (Rmax (y3 s) 0) (Rmax (z3 s) 0) /\
  (box3_equals a b tol = true <-> Rabs (x3 (min3 a) - x3 (min3 b)) <= tol /\ Rabs (y3 (min3 a) - y3 (min3 b)) <= tol /\ Rabs (z3 (min3 a) - z3 (min3 b)) <= tol /\
     Rabs (x3 (max3 a) - x3 (max3 b)) <= tol /\ Rabs (y3 (max3 a) - y3 (max3 b)) <= tol /\ Rabs (z3 (max3 a) - z3 (max3 b)) <= tol).
Proof.
  split; [apply v3_ext; cbn; field|]. split; [|split].
  - unfold in3, centered_box3, new_box3, max_elem3. cbn. pose proof (Rmax_r (x3 s) 0). pose proof (Rmax_r (y3 s) 0). pose proof (Rmax_r (z3 s) 0). lra.
  - apply v3_ext; cbn; field.
  - unfold box3_equals, equal_within3. rewrite !andb_true_iff, !Rleb_true. tauto.
Qed.
Theorem C53_shape2 a v k c s :
  (forall p, in2 (box_translate2 a v) p <-> in2 a (sub2 p v)) /\
  center2 (enlarge2 a v) = center2 a /\ size2 (enlarge2 a v) = add2 (size2 a) v /\
  center2 (scale_about_center2 a k) = center2 a /\ size2 (scale_about_center2 a k) = scale2 k (size2 a) /\
  center2 (new_box2 c s) = c /\ size2 (new_box2 c s) = s /\
  min2 a = sub2 (center2 a) (scale2 (1/2) (size2 a)) /\
  max2 a = add2 (center2 a) (scale2 (1/2) (size2 a)) /\
  (forall p, contains2 a p = true <-> in2 a p).
Proof.
  repeat split; try (apply v2_ext; cbn; field).
  all: try solve [unfold in2 in *; d2v; lra].
  all: try solve [unfold contains2 in *; rewrite !andb_true_iff, !Rleb_true in H; lra].
  intros H. unfold contains2. rewrite !andb_true_iff, !Rleb_true. unfold in2 in H. lra.
Qed.
(** The componentwise helpers of internal/d3/vector.go and internal/d2/vector.go. *)
Theorem C53_vectors3 a b :
  (x3 a <= vmax3 a /\ y3 a <= vmax3 a /\ z3 a <= vmax3 a /\ (vmax3 a = x3 a \/ vmax3 a = y3 a \/ vmax3 a = z3 a)) /\
  (vmin3 a <= x3 a /\ vmin3 a <= y3 a /\ vmin3 a <= z3 a /\ (vmin3 a = x3 a \/ vmin3 a = y3 a \/ vmin3 a = z3 a)) /\
  (ltzero3 a = true <-> x3 a < 0 \/ y3 a < 0 \/ z3 a < 0) /\ (ltezero3 a = true <-> x3 a <= 0 \/ y3 a <= 0 \/ z3 a <= 0) /\
  (x3 b <> 0 -> y3 b <> 0 -> z3 b <> 0 -> mul_elem3 (div_elem3 a b) b = a) /\
  x3 (mul_elem3 a b) = x3 a * x3 b /\ y3 (mul_elem3 a b) = y3 a * y3 b /\ z3 (mul_elem3 a b) = z3 a * z3 b.
Proof.
  unfold vmax3, vmin3, ltzero3, ltezero3. rewrite !orb_true_iff, !Rltb_true, !Rleb_true.
  split; [rmm; lra|]. split; [rmm; lra|]. split; [tauto|]. split; [tauto|]. split; [|repeat split].
  intros X Y Z. apply v3_ext; cbn; field; assumption.
Qed.
Theorem C53_vectors2 a b :
  (x2 a <= vmax2 a /\ y2 a <= vmax2 a /\ (vmax2 a = x2 a \/ vmax2 a = y2 a)) /\
  (vmin2 a <= x2 a /\ vmin2 a <= y2 a /\ (vmin2 a = x2 a \/ vmin2 a = y2 a)) /\
  (ltzero2 a = true <-> x2 a < 0 \/ y2 a < 0) /\ (ltezero2 a = true <-> x2 a <= 0 \/ y2 a <= 0) /\
  (x2 b <> 0 -> y2 b <> 0 -> mul_elem2 (div_elem2 a b) b = a) /\ x2 (mul_elem2 a b) = x2 a * x2 b /\ y2 (mul_elem2 a b) = y2 a * y2 b.
Proof.
  unfold vmax2, vmin2, ltzero2, ltezero2. rewrite !orb_true_iff, !Rltb_true, !Rleb_true.
  split; [rmm; lra|]. split; [rmm; lra|]. split; [tauto|]. split; [tauto|]. split; [|split; reflexivity].
  intros X Y. apply v2_ext; cbn; field; assumption.
Qed.

(** The vertices are exactly the corners (each coordinate minimal or maximal) and
    their component-wise minimum and maximum give back the box. *)
Theorem C53_vertices3 a :
  (forall p, In p (vertices3 a) <->
     (x3 p = x3 (min3 a) \/ x3 p = x3 (max3 a)) /\ (y3 p = y3 (min3 a) \/ y3 p = y3 (max3 a)) /\
     (z3 p = z3 (min3 a) \/ z3 p = z3 (max3 a))) /\
  (ok3 a -> set_min3 (vertices3 a) = Ok (min3 a) /\ set_max3 (vertices3 a) = Ok (max3 a)).
Proof.
  split.
  - destruct a as [[a b c] [d e f]]. intros [x y z]; cbn. split.
    + intros [H|[H|[H|[H|[H|[H|[H|[H|[]]]]]]]]]; injection H; intros; subst; auto.
    + intros ([->| ->] & [->| ->] & [->| ->]); intuition.
  - unfold ok3. destruct a as [[a b c] [d e f]]; cbn. intros (H1 & H2 & H3).
    unfold min_elem3, max_elem3; cbn.
    split; f_equal; apply v3_ext; cbn;
      unfold Rmin, Rmax; repeat (destruct (Rle_dec _ _); try lra).
Qed.
Theorem C53_vertices2 a :
  (forall p, In p (vertices2 a) <->
     (x2 p = x2 (min2 a) \/ x2 p = x2 (max2 a)) /\ (y2 p = y2 (min2 a) \/ y2 p = y2 (max2 a))) /\
  (ok2 a -> set_min2 (vertices2 a) = Ok (min2 a) /\ set_max2 (vertices2 a) = Ok (max2 a)).
Proof.
  split.
  - destruct a as [[a b] [d e]]. intros [x y]; cbn. split.
    + intros [H|[H|[H|[H|[]]]]]; injection H; intros; subst; auto.
    + intros ([->| ->] & [->| ->]); intuition.
  - unfold ok2. destruct a as [[a b] [d e]]; cbn. intros (H1 & H2).
    unfold min_elem2, max_elem2; cbn.
    split; f_equal; apply v2_ext; cbn;
      unfold Rmin, Rmax; repeat (destruct (Rle_dec _ _); try lra).
Qed.

Example C53_nonvacuous : ok3 (Box3 (V3 0 0 0) (V3 1 2 3)) /\ ok2 (Box2 (V2 0 0) (V2 1 2)).
Proof. unfold ok3, ok2; cbn; lra. Qed.

(** ** C54 *)
(** [m] is the minimum / [M] the maximum of the squared distance from [p] to the
    points of the box. *)
Definition is_min_dist2_2 (b : box2) (p : v2) (m : R) : Prop :=
  (exists q, in2 b q /\ norm2sq (sub2 q p) = m) /\ (forall q, in2 b q -> m <= norm2sq (sub2 q p)).
Definition is_max_dist2_2 (b : box2) (p : v2) (m : R) : Prop :=
  (exists q, in2 b q /\ norm2sq (sub2 q p) = m) /\ (forall q, in2 b q -> norm2sq (sub2 q p) <= m).
Definition is_min_dist2_3 (b : box3) (p : v3) (m : R) : Prop :=
  (exists q, in3 b q /\ norm3sq (sub3 q p) = m) /\ (forall q, in3 b q -> m <= norm3sq (sub3 q p)).
Definition is_max_dist2_3 (b : box3) (p : v3) (m : R) : Prop :=
  (exists q, in3 b q /\ norm3sq (sub3 q p) = m) /\ (forall q, in3 b q -> norm3sq (sub3 q p) <= m).

(** One-dimensional squared distances to an interval. *)
Definition lo1 (a b : R) : R := if Rltb 0 a then a * a else if Rltb b 0 then b * b else 0.
Definition hi1 (a b : R) : R := Rmax (a * a) (b * b).
Lemma lo1_le a b t : a <= t <= b -> lo1 a b <= t * t.
Proof. unfold lo1. intros. rcase; nra. Qed.
Lemma hi1_ge a b t : a <= t <= b -> t * t <= hi1 a b.
Proof.
  unfold hi1. intros H. destruct (Rle_or_lt 0 t).
  - apply Rle_trans with (b * b); [nra|apply Rmax_r].
  - apply Rle_trans with (a * a); [nra|apply Rmax_l].
Qed.
Lemma lo1_at a b : a <= b -> exists t, a <= t <= b /\ lo1 a b = t * t.
Proof. unfold lo1. intros. rcase; [exists a|exists b|exists 0]; split; lra. Qed.
Lemma hi1_at a b : a <= b -> exists t, a <= t <= b /\ hi1 a b = t * t.
Proof. unfold hi1. intros. rmm; [exists b|exists a]; split; lra. Qed.
Lemma lo1_ends a b : a <= b -> ~ (a < 0 < b) -> lo1 a b = Rmin (a * a) (b * b).
Proof. unfold lo1. intros. rcase; rmm; nra. Qed.
Lemma lo1_within a b : a < 0 < b -> lo1 a b = 0.
Proof. unfold lo1. intros. rcase; lra. Qed.
Lemma sq_min_abs a b : Rmin (Rabs b) (Rabs a) * Rmin (Rabs b) (Rabs a) = Rmin (a * a) (b * b).
Proof. rmm; nra. Qed.

Lemma rmin_add4 a b c d : Rmin (Rmin (Rmin (a + c) (b + c)) (a + d)) (b + d) = Rmin a b + Rmin c d.
Proof. rmm; lra. Qed.
Lemma rmax_add4 a b c d : 0 <= a -> 0 <= b -> 0 <= c -> 0 <= d ->
  Rmax (Rmax (Rmax (Rmax 0 (a + c)) (b + c)) (a + d)) (b + d) = Rmax a b + Rmax c d.
Proof. intros. rmm; lra. Qed.

Lemma dist2_2_split a b c d p (q : v2) : in2 (Box2 (V2 a b) (V2 c d)) q ->
  a - x2 p <= x2 (sub2 q p) <= c - x2 p /\ b - y2 p <= y2 (sub2 q p) <= d - y2 p.
Proof. unfold in2; cbn. lra. Qed.

Lemma mmd2_value b p : ok2 b ->
  min_max_dist2_2 b p =
  (lo1 (x2 (min2 b) - x2 p) (x2 (max2 b) - x2 p) + lo1 (y2 (min2 b) - y2 p) (y2 (max2 b) - y2 p),
   hi1 (x2 (min2 b) - x2 p) (x2 (max2 b) - x2 p) + hi1 (y2 (min2 b) - y2 p) (y2 (max2 b) - y2 p)).
Proof.
  destruct b as [[a b] [c d]], p as [px py]. unfold ok2; cbn [min2 max2 x2 y2]. intros [H1 H2].
  unfold min_max_dist2_2, box_translate2, vertices2, add2, scale2; cbn [min2 max2 x2 y2 map minmax_fold fold_left].
  unfold norm2sq, dot2; cbn [x2 y2].
  replace (a + -1 * px) with (a - px) by ring. replace (b + -1 * py) with (b - py) by ring.
  replace (c + -1 * px) with (c - px) by ring. replace (d + -1 * py) with (d - py) by ring.
  assert (Hx : a - px <= c - px) by lra. assert (Hy : b - py <= d - py) by lra.
  revert Hx Hy. generalize (a - px) as A, (b - py) as B, (c - px) as C, (d - py) as D. clear.
  intros A B C D Hx Hy.
  assert (Hmx : Rmax (Rmax (Rmax (Rmax 0 (A * A + B * B)) (C * C + B * B)) (A * A + D * D)) (C * C + D * D) = hi1 A C + hi1 B D)
    by (unfold hi1; apply rmax_add4; nra).
  assert (Hmn : Rmin (Rmin (Rmin (A * A + B * B) (C * C + B * B)) (A * A + D * D)) (C * C + D * D)
     = Rmin (A * A) (C * C) + Rmin (B * B) (D * D)) by apply rmin_add4.
  rewrite Hmx, Hmn. clear Hmx Hmn. rewrite !sq_min_abs.
  assert (Hq : forall t, 0 <= t * t) by (intros; nra).
  assert (PA := Hq A). assert (PB := Hq B). assert (PC := Hq C). assert (PD := Hq D).
  assert (Px : 0 <= Rmin (A * A) (C * C)) by (rmm; lra).
  assert (Py : 0 <= Rmin (B * B) (D * D)) by (rmm; lra).
  destruct (Rltb A 0 && Rltb 0 C) eqn:WX; rewrite ?andb_true_iff, ?andb_false_iff, ?Rltb_true, ?Rltb_false in WX;
  destruct (Rltb B 0 && Rltb 0 D) eqn:WY; rewrite ?andb_true_iff, ?andb_false_iff, ?Rltb_true, ?Rltb_false in WY; cbn [andb];
  f_equal.
  - rewrite !lo1_within by lra. lra.
  - rewrite (lo1_within A C), (lo1_ends B D) by lra. rewrite Rmin_right; lra.
  - rewrite (lo1_within B D), (lo1_ends A C) by lra. rewrite Rmin_right; lra.
  - rewrite (lo1_ends B D), (lo1_ends A C) by lra. lra.
Qed.

(** 2D: both values are exact for every non-empty box and every point. *)
Theorem C54_minmaxdist2_2d b p : ok2 b ->
  is_min_dist2_2 b p (fst (min_max_dist2_2 b p)) /\ is_max_dist2_2 b p (snd (min_max_dist2_2 b p)).
Proof.
  intros Hok. rewrite mmd2_value by auto. cbn [fst snd].
  unfold ok2 in Hok. destruct b as [[a b] [c d]], p as [px py]; cbn in *.
  split; (split; [|intros q Hq; pose proof (dist2_2_split _ _ _ _ (V2 px py) _ Hq) as [D1 D2]; cbn [x2 y2] in D1, D2]).
  - destruct (lo1_at (a - px) (c - px)) as (s & Hs & ->); [lra|].
    destruct (lo1_at (b - py) (d - py)) as (t & Ht & ->); [lra|].
    exists (V2 (s + px) (t + py)). unfold in2, norm2sq, dot2; cbn. split; [lra|ring].
  - unfold norm2sq, dot2. apply Rplus_le_compat; now apply lo1_le.
  - destruct (hi1_at (a - px) (c - px)) as (s & Hs & ->); [lra|].
    destruct (hi1_at (b - py) (d - py)) as (t & Ht & ->); [lra|].
    exists (V2 (s + px) (t + py)). unfold in2, norm2sq, dot2; cbn. split; [lra|ring].
  - unfold norm2sq, dot2. apply Rplus_le_compat; now apply hi1_ge.
Qed.

(** 3D: the maximum is exact for every box.  The minimum is exact except when
    the point is within the box along exactly one axis (it is then in an edge
    region, and the code only looks at vertices and faces). *)
Lemma rmin_add8 a b c d e f :
  Rmin (Rmin (Rmin (Rmin (Rmin (Rmin (Rmin (a + c + e) (a + c + f)) (a + d + e)) (a + d + f)) (b + c + e)) (b + c + f)) (b + d + e)) (b + d + f)
  = Rmin a b + Rmin c d + Rmin e f.
Proof.
  apply Rle_antisym.
  - assert (Ha : Rmin a b = a \/ Rmin a b = b) by (rmm; auto).
    assert (Hc : Rmin c d = c \/ Rmin c d = d) by (rmm; auto).
    assert (He : Rmin e f = e \/ Rmin e f = f) by (rmm; auto).
    destruct Ha as [-> | ->], Hc as [-> | ->], He as [-> | ->];
    repeat match goal with |- Rmin ?x ?y <= ?z =>
       first [apply Rle_trans with y; [apply Rmin_r|lra] | apply Rle_trans with x; [apply Rmin_l|]] end; lra.
  - pose proof (Rmin_l a b). pose proof (Rmin_r a b). pose proof (Rmin_l c d). pose proof (Rmin_r c d).
    pose proof (Rmin_l e f). pose proof (Rmin_r e f).
    repeat apply Rmin_glb; lra.
Qed.
Lemma rmax_add8 a b c d e f : 0 <= a -> 0 <= b -> 0 <= c -> 0 <= d -> 0 <= e -> 0 <= f ->
  Rmax (Rmax (Rmax (Rmax (Rmax (Rmax (Rmax (Rmax 0 (a + c + e)) (a + c + f)) (a + d + e)) (a + d + f)) (b + c + e)) (b + c + f)) (b + d + e)) (b + d + f)
  = Rmax a b + Rmax c d + Rmax e f.
Proof.
  intros. apply Rle_antisym.
  - pose proof (Rmax_l a b). pose proof (Rmax_r a b). pose proof (Rmax_l c d). pose proof (Rmax_r c d).
    pose proof (Rmax_l e f). pose proof (Rmax_r e f).
    repeat apply Rmax_lub; lra.
  - assert (Ha : Rmax a b = a \/ Rmax a b = b) by (rmm; auto).
    assert (Hc : Rmax c d = c \/ Rmax c d = d) by (rmm; auto).
    assert (He : Rmax e f = e \/ Rmax e f = f) by (rmm; auto).
    destruct Ha as [-> | ->], Hc as [-> | ->], He as [-> | ->];
    repeat match goal with |- ?z <= Rmax ?x ?y =>
       first [apply Rle_trans with y; [lra|apply Rmax_r] | apply Rle_trans with x; [|apply Rmax_l]] end; lra.
Qed.

(** The point is strictly within the box's range along an axis. *)
Definition within1 (lo hi p : R) : Prop := lo < p < hi.
Definition edge_region (b : box3) (p : v3) : Prop :=
  let wx := within1 (x3 (min3 b)) (x3 (max3 b)) (x3 p) in
  let wy := within1 (y3 (min3 b)) (y3 (max3 b)) (y3 p) in
  let wz := within1 (z3 (min3 b)) (z3 (max3 b)) (z3 p) in
  (wx /\ ~ wy /\ ~ wz) \/ (wy /\ ~ wx /\ ~ wz) \/ (wz /\ ~ wx /\ ~ wy).

Lemma mmd3_value b p : ok3 b ->
  let lx := lo1 (x3 (min3 b) - x3 p) (x3 (max3 b) - x3 p) in
  let ly := lo1 (y3 (min3 b) - y3 p) (y3 (max3 b) - y3 p) in
  let lz := lo1 (z3 (min3 b) - z3 p) (z3 (max3 b) - z3 p) in
  let hx := hi1 (x3 (min3 b) - x3 p) (x3 (max3 b) - x3 p) in
  let hy := hi1 (y3 (min3 b) - y3 p) (y3 (max3 b) - y3 p) in
  let hz := hi1 (z3 (min3 b) - z3 p) (z3 (max3 b) - z3 p) in
  snd (min_max_dist2_3 b p) = hx + hy + hz /\
  lx + ly + lz <= fst (min_max_dist2_3 b p) /\
  (~ edge_region b p -> fst (min_max_dist2_3 b p) = lx + ly + lz).
Proof.
  destruct b as [[a b c] [d e f]], p as [px py pz]. unfold ok3, edge_region, within1; cbn [min3 max3 x3 y3 z3].
  intros (H1 & H2 & H3).
  unfold min_max_dist2_3, box_translate3, vertices3, add3, scale3; cbn [min3 max3 x3 y3 z3 map minmax_fold fold_left].
  unfold norm3sq, dot3; cbn [x3 y3 z3].
  replace (a + -1 * px) with (a - px) by ring. replace (b + -1 * py) with (b - py) by ring.
  replace (c + -1 * pz) with (c - pz) by ring. replace (d + -1 * px) with (d - px) by ring.
  replace (e + -1 * py) with (e - py) by ring. replace (f + -1 * pz) with (f - pz) by ring.
  assert (Hx : a - px <= d - px) by lra. assert (Hy : b - py <= e - py) by lra. assert (Hz : c - pz <= f - pz) by lra.
  assert (EX : (a < px < d) <-> (a - px < 0 < d - px)) by lra.
  assert (EY : (b < py < e) <-> (b - py < 0 < e - py)) by lra.
  assert (EZ : (c < pz < f) <-> (c - pz < 0 < f - pz)) by lra.
  rewrite EX, EY, EZ. clear EX EY EZ.
  revert Hx Hy Hz. generalize (a - px) as A, (b - py) as B, (c - pz) as C, (d - px) as D, (e - py) as E, (f - pz) as F.
  clear. intros A B C D E F Hx Hy Hz.
  assert (Hq : forall t, 0 <= t * t) by (intros; nra).
  rewrite rmax_add8 by apply Hq. rewrite rmin_add8. rewrite !sq_min_abs.
  assert (PA := Hq A). assert (PB := Hq B). assert (PC := Hq C).
  assert (PD := Hq D). assert (PE := Hq E). assert (PF := Hq F).
  assert (Px : 0 <= Rmin (A * A) (D * D)) by (apply Rmin_glb; lra).
  assert (Py : 0 <= Rmin (B * B) (E * E)) by (apply Rmin_glb; lra).
  assert (Pz : 0 <= Rmin (C * C) (F * F)) by (apply Rmin_glb; lra).
  assert (CX : (A < 0 < D /\ Rltb A 0 && Rltb 0 D = true /\ lo1 A D = 0) \/
               (~ (A < 0 < D) /\ Rltb A 0 && Rltb 0 D = false /\ lo1 A D = Rmin (A * A) (D * D))).
  { destruct (Rltb A 0 && Rltb 0 D) eqn:W; rewrite ?andb_true_iff, ?andb_false_iff, ?Rltb_true, ?Rltb_false in W.
    - left. repeat split; try tauto. now apply lo1_within.
    - right. repeat split; try lra. apply lo1_ends; lra. }
  assert (CY : (B < 0 < E /\ Rltb B 0 && Rltb 0 E = true /\ lo1 B E = 0) \/
               (~ (B < 0 < E) /\ Rltb B 0 && Rltb 0 E = false /\ lo1 B E = Rmin (B * B) (E * E))).
  { destruct (Rltb B 0 && Rltb 0 E) eqn:W; rewrite ?andb_true_iff, ?andb_false_iff, ?Rltb_true, ?Rltb_false in W.
    - left. repeat split; try tauto. now apply lo1_within.
    - right. repeat split; try lra. apply lo1_ends; lra. }
  assert (CZ : (C < 0 < F /\ Rltb C 0 && Rltb 0 F = true /\ lo1 C F = 0) \/
               (~ (C < 0 < F) /\ Rltb C 0 && Rltb 0 F = false /\ lo1 C F = Rmin (C * C) (F * F))).
  { destruct (Rltb C 0 && Rltb 0 F) eqn:W; rewrite ?andb_true_iff, ?andb_false_iff, ?Rltb_true, ?Rltb_false in W.
    - left. repeat split; try tauto. now apply lo1_within.
    - right. repeat split; try lra. apply lo1_ends; lra. }
  revert Px Py Pz CX CY CZ.
  generalize (Rmin (A * A) (D * D)) as X, (Rmin (B * B) (E * E)) as Y, (Rmin (C * C) (F * F)) as Z.
  intros X Y Z Px Py Pz CX CY CZ. fold (hi1 A D) (hi1 B E) (hi1 C F).
  destruct CX as [(QX & -> & ->)|(QX & -> & ->)], CY as [(QY & -> & ->)|(QY & -> & ->)],
           CZ as [(QZ & -> & ->)|(QZ & -> & ->)]; cbn [andb fst snd];
  (split; [reflexivity|]); (split; [|intros Hn]);
  try (rewrite ?Rmin_right by lra; lra); exfalso; apply Hn; tauto.
Qed.

Lemma box3_split (b : box3) p (q : v3) : in3 b q ->
  x3 (min3 b) - x3 p <= x3 (sub3 q p) <= x3 (max3 b) - x3 p /\
  y3 (min3 b) - y3 p <= y3 (sub3 q p) <= y3 (max3 b) - y3 p /\
  z3 (min3 b) - z3 p <= z3 (sub3 q p) <= z3 (max3 b) - z3 p.
Proof. unfold in3; cbn. lra. Qed.

Lemma lo_sum_min b p : ok3 b -> is_min_dist2_3 b p
  (lo1 (x3 (min3 b) - x3 p) (x3 (max3 b) - x3 p) + lo1 (y3 (min3 b) - y3 p) (y3 (max3 b) - y3 p) +
   lo1 (z3 (min3 b) - z3 p) (z3 (max3 b) - z3 p)).
Proof.
  intros (H1 & H2 & H3). split.
  - destruct (lo1_at (x3 (min3 b) - x3 p) (x3 (max3 b) - x3 p)) as (s & Hs & ->); [lra|].
    destruct (lo1_at (y3 (min3 b) - y3 p) (y3 (max3 b) - y3 p)) as (t & Ht & ->); [lra|].
    destruct (lo1_at (z3 (min3 b) - z3 p) (z3 (max3 b) - z3 p)) as (u & Hu & ->); [lra|].
    exists (V3 (s + x3 p) (t + y3 p) (u + z3 p)). unfold in3, norm3sq, dot3; cbn. split; [lra|ring].
  - intros q Hq. apply (box3_split b p) in Hq as (D1 & D2 & D3). unfold norm3sq, dot3.
    apply Rplus_le_compat; [apply Rplus_le_compat|]; now apply lo1_le.
Qed.

(** 3D: the maximum is exact for every non-empty box. *)
Theorem C54_maxdist2_3d b p : ok3 b -> is_max_dist2_3 b p (snd (min_max_dist2_3 b p)).
Proof.
  intros Hok. destruct (mmd3_value b p Hok) as (-> & _). destruct Hok as (H1 & H2 & H3). split.
  - destruct (hi1_at (x3 (min3 b) - x3 p) (x3 (max3 b) - x3 p)) as (s & Hs & ->); [lra|].
    destruct (hi1_at (y3 (min3 b) - y3 p) (y3 (max3 b) - y3 p)) as (t & Ht & ->); [lra|].
    destruct (hi1_at (z3 (min3 b) - z3 p) (z3 (max3 b) - z3 p)) as (u & Hu & ->); [lra|].
    exists (V3 (s + x3 p) (t + y3 p) (u + z3 p)). unfold in3, norm3sq, dot3; cbn. split; [lra|ring].
  - intros q Hq. apply (box3_split b p) in Hq as (D1 & D2 & D3). unfold norm3sq, dot3.
    apply Rplus_le_compat; [apply Rplus_le_compat|]; now apply hi1_ge.
Qed.

(** 3D minimum: exact unless the point is strictly within the box's range along
    exactly one axis; never below the true minimum.  Missing for the full
    claim: that case, where the code is wrong (see the refutation). *)
Theorem C54_mindist2_3d_partial b p : ok3 b ->
  (~ edge_region b p -> is_min_dist2_3 b p (fst (min_max_dist2_3 b p))) /\
  (forall m, is_min_dist2_3 b p m -> m <= fst (min_max_dist2_3 b p)).
Proof.
  intros Hok. destruct (mmd3_value b p Hok) as (_ & H1 & H2). pose proof (lo_sum_min b p Hok) as Hm. split.
  - intros Hn. rewrite (H2 Hn). exact Hm.
  - intros m Hmm. apply Rle_trans with (2 := H1).
    destruct Hm as [(q & Hq & <-) _]. now apply Hmm.
Qed.

(** Witness: the box [-2,2]x[0,1]x[0,1] and the point (0,-1,-1).  The nearest
    point is (0,0,0) at squared distance 2, the code reports 6. *)
Theorem C54_mindist2_3d_refuted :
  let b := Box3 (V3 (-2) 0 0) (V3 2 1 1) in let p := V3 0 (-1) (-1) in
  ok3 b /\ fst (min_max_dist2_3 b p) = 6 /\ is_min_dist2_3 b p 2.
Proof.
  cbv zeta. split; [unfold ok3; cbn; lra|]. split.
  - unfold min_max_dist2_3, box_translate3, vertices3, add3, scale3; cbn [min3 max3 x3 y3 z3 map minmax_fold fold_left].
    unfold norm3sq, dot3; cbn [x3 y3 z3].
    rewrite rmin_add8.
    replace (0 + -1 * -1) with 1 by ring.
    rewrite (proj2 (Rltb_true (-2 + -1 * 0) 0)) by lra.
    rewrite (proj2 (Rltb_true 0 (2 + -1 * 0))) by lra.
    rewrite (proj2 (Rltb_false 1 0)) by lra. cbn [andb fst].
    unfold Rmin; repeat (destruct (Rle_dec _ _); try lra).
  - pose proof (lo_sum_min (Box3 (V3 (-2) 0 0) (V3 2 1 1)) (V3 0 (-1) (-1))) as H.
    cbn [min3 max3 x3 y3 z3] in H.
    assert (E : lo1 (-2 - 0) (2 - 0) + lo1 (0 - -1) (1 - -1) + lo1 (0 - -1) (1 - -1) = 2)
      by (unfold lo1; rcase; lra).
    rewrite E in H. apply H. unfold ok3; cbn; lra.
Qed.
