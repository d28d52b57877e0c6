(** Real vectors and boxes (r2.Vec, r3.Vec, r2.Box, r3.Box of gonum, with float64
    idealised to R), with the lemmas used everywhere. *)
From Coq Require Import Reals Lra List Bool ZArith Psatz.
Import ListNotations.
Local Open Scope R_scope.

(** ** Comparisons as booleans *)
Definition Rltb (a b : R) : bool := if Rlt_dec a b then true else false.
Definition Rleb (a b : R) : bool := if Rle_dec a b then true else false.
Definition Reqb (a b : R) : bool := if Req_EM_T a b then true else false.
Lemma Rltb_true a b : Rltb a b = true <-> a < b.
Proof. unfold Rltb. destruct (Rlt_dec a b); split; auto; discriminate. Qed.
Lemma Rltb_false a b : Rltb a b = false <-> b <= a.
Proof. unfold Rltb. destruct (Rlt_dec a b); split; auto; try discriminate; lra. Qed.
Lemma Rleb_true a b : Rleb a b = true <-> a <= b.
Proof. unfold Rleb. destruct (Rle_dec a b); split; auto; discriminate. Qed.
Lemma Rleb_false a b : Rleb a b = false <-> b < a.
Proof. unfold Rleb. destruct (Rle_dec a b); split; auto; try discriminate; lra. Qed.
Lemma Reqb_true a b : Reqb a b = true <-> a = b.
Proof. unfold Reqb. destruct (Req_EM_T a b); split; auto; discriminate. Qed.
Lemma Reqb_false a b : Reqb a b = false <-> a <> b.
Proof. unfold Reqb. destruct (Req_EM_T a b); split; auto; try discriminate; contradiction. Qed.
Lemma Reqb_refl a : Reqb a a = true.
Proof. now apply Reqb_true. Qed.

(** Splits on every boolean comparison in the goal and hypotheses. *)
Ltac rcase :=
  repeat match goal with
  | |- context [Rltb ?a ?b] => let E := fresh "Lt" in destruct (Rltb a b) eqn:E;
        [apply Rltb_true in E | apply Rltb_false in E]
  | |- context [Rleb ?a ?b] => let E := fresh "Le" in destruct (Rleb a b) eqn:E;
        [apply Rleb_true in E | apply Rleb_false in E]
  | |- context [Reqb ?a ?b] => let E := fresh "Eq" in destruct (Reqb a b) eqn:E;
        [apply Reqb_true in E | apply Reqb_false in E]
  end.
(** Splits on Rmax, Rmin and Rabs. *)
Ltac rmm :=
  unfold Rmax, Rmin, Rabs in *;
  repeat match goal with
  | |- context [Rle_dec ?a ?b] => destruct (Rle_dec a b)
  | H : context [Rle_dec ?a ?b] |- _ => destruct (Rle_dec a b)
  | |- context [Rcase_abs ?a] => destruct (Rcase_abs a)
  | H : context [Rcase_abs ?a] |- _ => destruct (Rcase_abs a)
  end.

(** ** Plane vectors *)
Record v2 := V2 { x2 : R; y2 : R }.
Definition add2 (a b : v2) := V2 (x2 a + x2 b) (y2 a + y2 b).
Definition sub2 (a b : v2) := V2 (x2 a - x2 b) (y2 a - y2 b).
Definition scale2 (k : R) (a : v2) := V2 (k * x2 a) (k * y2 a).
Definition dot2 (a b : v2) := x2 a * x2 b + y2 a * y2 b.
Definition cross2 (a b : v2) := x2 a * y2 b - y2 a * x2 b.
Definition norm2sq (a : v2) := dot2 a a.
Definition norm2 (a : v2) := sqrt (norm2sq a).
Definition dist2 (a b : v2) := norm2 (sub2 a b).
Definition zero2 := V2 0 0.

Lemma v2_ext a b : x2 a = x2 b -> y2 a = y2 b -> a = b.
Proof. destruct a, b; cbn; congruence. Qed.

(** ** Space vectors *)
Record v3 := V3 { x3 : R; y3 : R; z3 : R }.
Definition add3 (a b : v3) := V3 (x3 a + x3 b) (y3 a + y3 b) (z3 a + z3 b).
Definition sub3 (a b : v3) := V3 (x3 a - x3 b) (y3 a - y3 b) (z3 a - z3 b).
Definition scale3 (k : R) (a : v3) := V3 (k * x3 a) (k * y3 a) (k * z3 a).
Definition dot3 (a b : v3) := x3 a * x3 b + y3 a * y3 b + z3 a * z3 b.
Definition cross3 (a b : v3) :=
  V3 (y3 a * z3 b - z3 a * y3 b) (z3 a * x3 b - x3 a * z3 b) (x3 a * y3 b - y3 a * x3 b).
Definition norm3sq (a : v3) := dot3 a a.
Definition norm3 (a : v3) := sqrt (norm3sq a).
Definition dist3 (a b : v3) := norm3 (sub3 a b).
Definition zero3 := V3 0 0 0.

Lemma v3_ext a b : x3 a = x3 b -> y3 a = y3 b -> z3 a = z3 b -> a = b.
Proof. destruct a, b; cbn; congruence. Qed.

(** ** Norms *)
Lemma norm2sq_nonneg a : 0 <= norm2sq a.
Proof. unfold norm2sq, dot2. nra. Qed.
Lemma norm3sq_nonneg a : 0 <= norm3sq a.
Proof. unfold norm3sq, dot3. nra. Qed.
Lemma norm2_nonneg a : 0 <= norm2 a.
Proof. apply sqrt_pos. Qed.
Lemma norm3_nonneg a : 0 <= norm3 a.
Proof. apply sqrt_pos. Qed.
Lemma norm2_sq a : norm2 a * norm2 a = norm2sq a.
Proof. apply sqrt_sqrt, norm2sq_nonneg. Qed.
Lemma norm3_sq a : norm3 a * norm3 a = norm3sq a.
Proof. apply sqrt_sqrt, norm3sq_nonneg. Qed.

(** [a <= b] from squares. *)
Lemma sq_le a b : 0 <= b -> a * a <= b * b -> a <= b.
Proof. intros Hb H. destruct (Rle_or_lt a b); auto. nra. Qed.
Lemma sq_lt a b : 0 <= b -> a * a < b * b -> a < b.
Proof. intros Hb H. destruct (Rlt_or_le a b); auto. nra. Qed.
Lemma sq_eq a b : 0 <= a -> 0 <= b -> a * a = b * b -> a = b.
Proof. intros. apply Rle_antisym; apply sq_le; lra. Qed.

Lemma sqrt_le_of a b : 0 <= b -> a <= b * b -> sqrt a <= b.
Proof.
  intros Hb H. rewrite <- (sqrt_square b) by auto. now apply sqrt_le_1_alt.
Qed.
Lemma sqrt_ge_of a b : 0 <= b -> b * b <= a -> b <= sqrt a.
Proof.
  intros Hb H. rewrite <- (sqrt_square b) by auto. now apply sqrt_le_1_alt.
Qed.
Lemma sqrt_lt_of a b : 0 <= a -> 0 < b -> a < b * b -> sqrt a < b.
Proof.
  intros Ha Hb H. rewrite <- (sqrt_square b) by lra. apply sqrt_lt_1_alt. lra.
Qed.
Lemma sqrt_gt_of a b : 0 <= b -> b * b < a -> b < sqrt a.
Proof.
  intros Hb H. rewrite <- (sqrt_square b) by lra. apply sqrt_lt_1_alt. nra.
Qed.

Lemma cauchy3 a b : dot3 a b <= norm3 a * norm3 b.
Proof.
  pose proof (norm3_nonneg a). pose proof (norm3_nonneg b).
  apply sq_le; [nra|].
  replace (norm3 a * norm3 b * (norm3 a * norm3 b)) with (norm3sq a * norm3sq b)
    by (rewrite <- !norm3_sq; ring).
  assert (0 <= norm3sq (cross3 a b)) by apply norm3sq_nonneg.
  unfold norm3sq, dot3, cross3 in *; cbn in *. nra.
Qed.
Lemma cauchy2 a b : dot2 a b <= norm2 a * norm2 b.
Proof.
  pose proof (norm2_nonneg a). pose proof (norm2_nonneg b).
  apply sq_le; [nra|].
  replace (norm2 a * norm2 b * (norm2 a * norm2 b)) with (norm2sq a * norm2sq b)
    by (rewrite <- !norm2_sq; ring).
  assert (0 <= cross2 a b * cross2 a b) by nra.
  unfold norm2sq, dot2, cross2 in *; cbn in *. nra.
Qed.

Lemma norm3_triangle a b : norm3 (add3 a b) <= norm3 a + norm3 b.
Proof.
  pose proof (norm3_nonneg a). pose proof (norm3_nonneg b).
  apply sq_le; [lra|]. pose proof (cauchy3 a b).
  rewrite norm3_sq.
  replace ((norm3 a + norm3 b) * (norm3 a + norm3 b)) with (norm3sq a + norm3sq b + 2 * (norm3 a * norm3 b))
    by (rewrite <- !norm3_sq; ring).
  unfold norm3sq, dot3, add3 in *; cbn in *. lra.
Qed.
Lemma norm2_triangle a b : norm2 (add2 a b) <= norm2 a + norm2 b.
Proof.
  pose proof (norm2_nonneg a). pose proof (norm2_nonneg b).
  apply sq_le; [lra|]. pose proof (cauchy2 a b).
  rewrite norm2_sq.
  replace ((norm2 a + norm2 b) * (norm2 a + norm2 b)) with (norm2sq a + norm2sq b + 2 * (norm2 a * norm2 b))
    by (rewrite <- !norm2_sq; ring).
  unfold norm2sq, dot2, add2 in *; cbn in *. lra.
Qed.

Lemma dist3_sym a b : dist3 a b = dist3 b a.
Proof. unfold dist3, norm3. f_equal. unfold norm3sq, dot3, sub3; cbn. ring. Qed.
Lemma dist2_sym a b : dist2 a b = dist2 b a.
Proof. unfold dist2, norm2. f_equal. unfold norm2sq, dot2, sub2; cbn. ring. Qed.
Lemma dist3_nonneg a b : 0 <= dist3 a b.
Proof. apply norm3_nonneg. Qed.
Lemma dist2_nonneg a b : 0 <= dist2 a b.
Proof. apply norm2_nonneg. Qed.
Lemma dist3_triangle a b c : dist3 a c <= dist3 a b + dist3 b c.
Proof.
  unfold dist3. replace (sub3 a c) with (add3 (sub3 a b) (sub3 b c)).
  - apply norm3_triangle.
  - apply v3_ext; cbn; ring.
Qed.
Lemma dist2_triangle a b c : dist2 a c <= dist2 a b + dist2 b c.
Proof.
  unfold dist2. replace (sub2 a c) with (add2 (sub2 a b) (sub2 b c)).
  - apply norm2_triangle.
  - apply v2_ext; cbn; ring.
Qed.
Lemma dist3_refl a : dist3 a a = 0.
Proof.
  unfold dist3, norm3. replace (norm3sq (sub3 a a)) with 0; [apply sqrt_0|].
  unfold norm3sq, dot3; cbn; ring.
Qed.
Lemma dist2_refl a : dist2 a a = 0.
Proof.
  unfold dist2, norm2. replace (norm2sq (sub2 a a)) with 0; [apply sqrt_0|].
  unfold norm2sq, dot2; cbn; ring.
Qed.
Lemma norm3_zero_iff a : norm3 a = 0 <-> a = zero3.
Proof.
  split.
  - intros H. pose proof (norm3_sq a) as E. rewrite H in E. unfold norm3sq, dot3 in E.
    apply v3_ext; cbn; nra.
  - intros ->. unfold norm3, norm3sq, dot3; cbn. replace (0 * 0 + 0 * 0 + 0 * 0) with 0 by ring. apply sqrt_0.
Qed.
Lemma norm2_zero_iff a : norm2 a = 0 <-> a = zero2.
Proof.
  split.
  - intros H. pose proof (norm2_sq a) as E. rewrite H in E. unfold norm2sq, dot2 in E.
    apply v2_ext; cbn; nra.
  - intros ->. unfold norm2, norm2sq, dot2; cbn. replace (0 * 0 + 0 * 0) with 0 by ring. apply sqrt_0.
Qed.
Lemma norm3_scale k a : norm3 (scale3 k a) = Rabs k * norm3 a.
Proof.
  pose proof (norm3_nonneg a). pose proof (Rabs_pos k).
  apply sq_eq; [apply norm3_nonneg|nra|].
  rewrite norm3_sq. replace (Rabs k * norm3 a * (Rabs k * norm3 a)) with (Rabs k * Rabs k * norm3sq a)
    by (rewrite <- norm3_sq; ring).
  rewrite <- Rabs_mult, (Rabs_right (k * k)) by nra.
  unfold norm3sq, dot3; cbn; ring.
Qed.
Lemma norm2_scale k a : norm2 (scale2 k a) = Rabs k * norm2 a.
Proof.
  pose proof (norm2_nonneg a). pose proof (Rabs_pos k).
  apply sq_eq; [apply norm2_nonneg|nra|].
  rewrite norm2_sq. replace (Rabs k * norm2 a * (Rabs k * norm2 a)) with (Rabs k * Rabs k * norm2sq a)
    by (rewrite <- norm2_sq; ring).
  rewrite <- Rabs_mult, (Rabs_right (k * k)) by nra.
  unfold norm2sq, dot2; cbn; ring.
Qed.
Lemma abs_le_norm3 a : Rabs (x3 a) <= norm3 a /\ Rabs (y3 a) <= norm3 a /\ Rabs (z3 a) <= norm3 a.
Proof.
  assert (E : forall t, t * t = Rabs t * Rabs t) by (intros; rewrite <- Rabs_mult, Rabs_right; nra).
  repeat split; apply sq_le; try apply norm3_nonneg; rewrite norm3_sq, <- E; unfold norm3sq, dot3; nra.
Qed.
Lemma abs_le_norm2 a : Rabs (x2 a) <= norm2 a /\ Rabs (y2 a) <= norm2 a.
Proof.
  assert (E : forall t, t * t = Rabs t * Rabs t) by (intros; rewrite <- Rabs_mult, Rabs_right; nra).
  repeat split; apply sq_le; try apply norm2_nonneg; rewrite norm2_sq, <- E; unfold norm2sq, dot2; nra.
Qed.
Lemma norm3_le_of a b : norm3sq a <= norm3sq b -> norm3 a <= norm3 b.
Proof. apply sqrt_le_1_alt. Qed.
Lemma norm2_le_of a b : norm2sq a <= norm2sq b -> norm2 a <= norm2 b.
Proof. apply sqrt_le_1_alt. Qed.

(** ** Boxes (r3.Box, r2.Box) *)
Record box3 := Box3 { min3 : v3; max3 : v3 }.
Record box2 := Box2 { min2 : v2; max2 : v2 }.
Definition in3 (b : box3) (p : v3) : Prop :=
  x3 (min3 b) <= x3 p <= x3 (max3 b) /\ y3 (min3 b) <= y3 p <= y3 (max3 b) /\
  z3 (min3 b) <= z3 p <= z3 (max3 b).
Definition in2 (b : box2) (p : v2) : Prop :=
  x2 (min2 b) <= x2 p <= x2 (max2 b) /\ y2 (min2 b) <= y2 p <= y2 (max2 b).

(** ** 1-Lipschitz functions *)
Definition lip3 (f : v3 -> R) : Prop := forall p q, Rabs (f p - f q) <= dist3 p q.
Definition lip2 (f : v2 -> R) : Prop := forall p q, Rabs (f p - f q) <= dist2 p q.
