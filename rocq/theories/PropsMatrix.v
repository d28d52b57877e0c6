(** C34-C37: matrix algebra, rotations, mirrors, rotateToVec and MulBox. *)
From Coq Require Import Reals Lra List Bool Psatz.
From Verif Require Import Prelude Vec BoxModel PropsBox MatrixModel.
Import ListNotations.
Local Open Scope R_scope.

Ltac mat := intros; repeat match goal with m : m44 |- _ => destruct m | m : m33 |- _ => destruct m | m : m22 |- _ => destruct m
  | v : v3 |- _ => destruct v | v : v2 |- _ => destruct v end.

Lemma m44_ext a b :
  a00 a = a00 b -> a01 a = a01 b -> a02 a = a02 b -> a03 a = a03 b ->
  a10 a = a10 b -> a11 a = a11 b -> a12 a = a12 b -> a13 a = a13 b ->
  a20 a = a20 b -> a21 a = a21 b -> a22 a = a22 b -> a23 a = a23 b ->
  a30 a = a30 b -> a31 a = a31 b -> a32 a = a32 b -> a33 a = a33 b -> a = b.
Proof. destruct a, b; cbn; intros; subst; reflexivity. Qed.
Lemma m33_ext a b :
  b00 a = b00 b -> b01 a = b01 b -> b02 a = b02 b ->
  b10 a = b10 b -> b11 a = b11 b -> b12 a = b12 b ->
  b20 a = b20 b -> b21 a = b21 b -> b22 a = b22 b -> a = b.
Proof. destruct a, b; cbn; intros; subst; reflexivity. Qed.
Lemma m22_ext a b :
  c00 a = c00 b -> c01 a = c01 b -> c10 a = c10 b -> c11 a = c11 b -> a = b.
Proof. destruct a, b; cbn; intros; subst; reflexivity. Qed.

(** ** Specification side *)
(** The last row of an affine matrix; every matrix the package builds has it. *)
Definition affine3 (a : m44) := a30 a = 0 /\ a31 a = 0 /\ a32 a = 0 /\ a33 a = 1.
Definition affine2 (a : m33) := b20 a = 0 /\ b21 a = 0 /\ b22 a = 1.

(** ** C34 *)
Theorem C34_inverse44 a : det44 a <> 0 ->
  mul44 a (inverse44 a) = identity3d /\ mul44 (inverse44 a) a = identity3d.
Proof.
  destruct a as [p00 p01 p02 p03 p10 p11 p12 p13 p20 p21 p22 p23 p30 p31 p32 p33]. intros H.
  unfold inverse44. remember (1 / det44 _) as d eqn:Hd.
  assert (K : det44 (M44 p00 p01 p02 p03 p10 p11 p12 p13 p20 p21 p22 p23 p30 p31 p32 p33) * d = 1)
    by (subst d; field; exact H).
  clear Hd H. unfold det44 in K. cbn [a00 a01 a02 a03 a10 a11 a12 a13 a20 a21 a22 a23 a30 a31 a32 a33] in K.
  split; apply m44_ext; unfold mul44, identity3d; cbn [a00 a01 a02 a03 a10 a11 a12 a13 a20 a21 a22 a23 a30 a31 a32 a33];
  match goal with |- _ = 0 => ring | |- _ = 1 => etransitivity; [|exact K]; ring end.
Qed.
Theorem C34_inverse33 a : det33 a <> 0 ->
  mul33 a (inverse33 a) = identity2d /\ mul33 (inverse33 a) a = identity2d.
Proof.
  destruct a as [p00 p01 p02 p10 p11 p12 p20 p21 p22]. intros H.
  unfold inverse33. remember (1 / det33 _) as d eqn:Hd.
  assert (K : det33 (M33 p00 p01 p02 p10 p11 p12 p20 p21 p22) * d = 1) by (subst d; field; exact H).
  clear Hd H. unfold det33 in K. cbn [b00 b01 b02 b10 b11 b12 b20 b21 b22] in K.
  unfold mul33, identity2d; cbn [b00 b01 b02 b10 b11 b12 b20 b21 b22].
  split; f_equal; first [ring | (rewrite <- K; ring)].
Qed.
Theorem C34_inverse22 a : det22 a <> 0 ->
  mul22 a (inverse22 a) = identity22 /\ mul22 (inverse22 a) a = identity22.
Proof.
  destruct a as [p00 p01 p10 p11]. intros H.
  unfold inverse22. remember (1 / det22 _) as d eqn:Hd.
  assert (K : det22 (M22 p00 p01 p10 p11) * d = 1) by (subst d; field; exact H).
  clear Hd H. unfold det22 in K. cbn [c00 c01 c10 c11] in K.
  unfold mul22, identity22; cbn [c00 c01 c10 c11].
  split; f_equal; first [ring | (rewrite <- K; ring)].
Qed.
Theorem C34_determinant :
  (forall a b, det44 (mul44 a b) = det44 a * det44 b) /\
  (forall a b, det33 (mul33 a b) = det33 a * det33 b) /\
  (forall a b, det22 (mul22 a b) = det22 a * det22 b) /\
  det44 identity3d = 1 /\ det33 identity2d = 1 /\ det22 identity22 = 1.
Proof.
  split; [intros; mat; unfold det44, mul44; cbn; ring|].
  split; [intros; mat; unfold det33, mul33; cbn; ring|].
  split; [intros; mat; unfold det22, mul22; cbn; ring|].
  split; [unfold det44; cbn; ring|]. split; [unfold det33; cbn; ring|]. unfold det22; cbn; ring.
Qed.
Theorem C34_monoid :
  (forall a b c, mul44 a (mul44 b c) = mul44 (mul44 a b) c) /\
  (forall a, mul44 a identity3d = a /\ mul44 identity3d a = a) /\
  (forall a b c, mul33 a (mul33 b c) = mul33 (mul33 a b) c) /\
  (forall a, mul33 a identity2d = a /\ mul33 identity2d a = a) /\
  (forall a b c, mul22 a (mul22 b c) = mul22 (mul22 a b) c) /\
  (forall a, mul22 a identity22 = a /\ mul22 identity22 a = a).
Proof.
  split; [intros; apply m44_ext; unfold mul44; cbn; ring|].
  split; [intros; split; apply m44_ext; unfold mul44; cbn; ring|].
  split; [intros; apply m33_ext; unfold mul33; cbn; ring|].
  split; [intros; split; apply m33_ext; unfold mul33; cbn; ring|].
  split; [intros; apply m22_ext; unfold mul22; cbn; ring|].
  intros; split; apply m22_ext; unfold mul22; cbn; ring.
Qed.
Lemma affine3_mul a b : affine3 a -> affine3 b -> affine3 (mul44 a b).
Proof.
  unfold affine3; intros (A & B & C & D) (E & F & G & H); cbn. rewrite A, B, C, D, E, F, G, H.
  split; [ring|]; split; [ring|]; split; ring.
Qed.
Lemma affine2_mul a b : affine2 a -> affine2 b -> affine2 (mul33 a b).
Proof.
  unfold affine2; intros (A & B & C) (E & F & G); cbn. rewrite A, B, C, E, F, G.
  split; [ring|]; split; ring.
Qed.
Lemma affine3_inverse a : affine3 a -> det44 a <> 0 -> affine3 (inverse44 a).
Proof.
  unfold affine3. destruct a; cbn. intros (-> & -> & -> & ->) H.
  split; [ring|]; split; [ring|]; split; [ring|].
  unfold det44 in *; cbn in *. field. intros K; apply H. etransitivity; [|exact K]. ring.
Qed.
Lemma affine2_inverse a : affine2 a -> det33 a <> 0 -> affine2 (inverse33 a).
Proof.
  unfold affine2. destruct a; cbn. intros (-> & -> & ->) H.
  split; [ring|]; split; [ring|].
  unfold det33 in *; cbn in *. field. intros K; apply H. etransitivity; [|exact K]. ring.
Qed.
(** The matrix product is composition of the maps. *)
Theorem C34_composition :
  (forall a b p, affine3 b -> mul_pos3 (mul44 a b) p = mul_pos3 a (mul_pos3 b p)) /\
  (forall a b p, affine2 b -> mul_pos2 (mul33 a b) p = mul_pos2 a (mul_pos2 b p)) /\
  (forall a b p, mul_pos22 (mul22 a b) p = mul_pos22 a (mul_pos22 b p)) /\
  (forall p, mul_pos3 identity3d p = p) /\ (forall p, mul_pos2 identity2d p = p) /\
  (forall p, mul_pos22 identity22 p = p) /\
  (forall a b, affine3 a -> affine3 b -> affine3 (mul44 a b)) /\
  (forall a b, affine2 a -> affine2 b -> affine2 (mul33 a b)) /\
  (forall a, affine3 a -> det44 a <> 0 -> affine3 (inverse44 a)) /\
  (forall a, affine2 a -> det33 a <> 0 -> affine2 (inverse33 a)).
Proof.
  split. { intros a b p (A & B & C & D). apply v3_ext; cbn; rewrite A, B, C, D; ring. }
  split. { intros a b p (A & B & C). apply v2_ext; cbn; rewrite A, B, C; ring. }
  split. { intros a b p. apply v2_ext; cbn; ring. }
  split. { intros p. apply v3_ext; cbn; ring. }
  split. { intros p. apply v2_ext; cbn; ring. }
  split. { intros p. apply v2_ext; cbn; ring. }
  split; [exact affine3_mul|]. split; [exact affine2_mul|].
  split; [exact affine3_inverse|]. exact affine2_inverse.
Qed.
(** The basic maps do what their names say. *)
Theorem C34_basic_maps :
  (forall v p, mul_pos3 (translate3d v) p = add3 p v /\ affine3 (translate3d v) /\ det44 (translate3d v) = 1) /\
  (forall v p, mul_pos2 (translate2d v) p = add2 p v /\ affine2 (translate2d v) /\ det33 (translate2d v) = 1) /\
  (forall v p, mul_pos3 (scale3d v) p = V3 (x3 v * x3 p) (y3 v * y3 p) (z3 v * z3 p) /\ affine3 (scale3d v) /\
     det44 (scale3d v) = x3 v * y3 v * z3 v) /\
  (forall v p, mul_pos2 (scale2d v) p = V2 (x2 v * x2 p) (y2 v * y2 p) /\ affine2 (scale2d v) /\
     det33 (scale2d v) = x2 v * y2 v).
Proof.
  unfold affine3, affine2.
  split. { intros; split; [apply v3_ext; cbn; ring|]. split; [now cbn|]. unfold det44; cbn; ring. }
  split. { intros; split; [apply v2_ext; cbn; ring|]. split; [now cbn|]. unfold det33; cbn; ring. }
  split. { intros; split; [apply v3_ext; cbn; ring|]. split; [now cbn|]. unfold det44; cbn; ring. }
  intros; split; [apply v2_ext; cbn; ring|]. split; [now cbn|]. unfold det33; cbn; ring.
Qed.
Example C34_example :
  let a := M44 2 1 0 5  0 1 3 (-1)  0 0 1 2  0 0 0 1 in
  affine3 a /\ det44 a = 2 /\ inverse44 a <> identity3d /\
  mul_pos3 (inverse44 a) (mul_pos3 a (V3 1 2 3)) = V3 1 2 3.
Proof.
  intros a. assert (D : det44 a = 2) by (unfold det44, a; cbn; lra).
  split; [unfold affine3; cbn; repeat split; reflexivity|]. split; [exact D|].
  split.
  - intros E. apply (f_equal a00) in E. unfold inverse44 in E. rewrite D in E. cbn in E. lra.
  - unfold inverse44. rewrite D. apply v3_ext; cbn; lra.
Qed.

(** ** C35 *)
(** A map of space that keeps all distances. *)
Definition isometry3 (f : v3 -> v3) := forall p q, dist3 (f p) (f q) = dist3 p q.
Definition isometry2 (f : v2 -> v2) := forall p q, dist2 (f p) (f q) = dist2 p q.

Lemma unit3_norm v : v <> zero3 -> norm3sq (unit3 v) = 1.
Proof.
  intros H. assert (N : norm3 v <> 0) by (intros E; apply H; now apply norm3_zero_iff).
  unfold unit3, norm3sq, dot3, scale3; cbn.
  replace (_ + _ + _) with ((norm3sq v) / (norm3 v * norm3 v)) by (unfold norm3sq, dot3; field; exact N).
  rewrite norm3_sq. field. rewrite <- norm3_sq. nra.
Qed.
Lemma unit2_norm v : v <> zero2 -> norm2sq (unit2 v) = 1.
Proof.
  intros H. assert (N : norm2 v <> 0) by (intros E; apply H; now apply norm2_zero_iff).
  unfold unit2, norm2sq, dot2, scale2; cbn.
  replace (_ + _) with ((norm2sq v) / (norm2 v * norm2 v)) by (unfold norm2sq, dot2; field; exact N).
  rewrite norm2_sq. field. rewrite <- norm2_sq. nra.
Qed.
Lemma unit3_idem v : norm3sq v = 1 -> unit3 v = v.
Proof.
  intros H. unfold unit3, norm3. rewrite H, sqrt_1. apply v3_ext; cbn; field.
Qed.
Lemma unit2_idem v : norm2sq v = 1 -> unit2 v = v.
Proof.
  intros H. unfold unit2, norm2. rewrite H, sqrt_1. apply v2_ext; cbn; field.
Qed.

(** Rodrigues' formula: the right-handed turn of p by the angle a about the unit axis u. *)
Definition turn (u : v3) (a : R) (p : v3) : v3 :=
  add3 (add3 (scale3 (cos a) p) (scale3 (sin a) (cross3 u p))) (scale3 ((1 - cos a) * dot3 u p) u).
Lemma rotate3d_turn v a p : v <> zero3 -> mul_pos3 (rotate3d v a) p = turn (unit3 v) a p.
Proof.
  intros H. unfold rotate3d, turn. generalize (unit3 v); intros u.
  unfold mul_pos3, add3, scale3, cross3, dot3; cbn. f_equal; ring.
Qed.
Lemma turn_sub u a p q : sub3 (turn u a p) (turn u a q) = turn u a (sub3 p q).
Proof. unfold turn, sub3, add3, scale3, cross3, dot3; cbn. apply v3_ext; cbn; ring. Qed.
Lemma sc1 a : sin a * sin a + cos a * cos a = 1.
Proof. pose proof (sin2_cos2 a) as H. unfold Rsqr in H. exact H. Qed.
Lemma turn_norm u a p : norm3sq u = 1 -> norm3sq (turn u a p) = norm3sq p.
Proof.
  intros H. pose proof (sc1 a) as S.
  replace (norm3sq (turn u a p)) with
    (cos a * cos a * norm3sq p + (sin a * sin a) * (norm3sq u * norm3sq p - dot3 u p * dot3 u p)
     + (1 - cos a) * (1 - cos a) * (dot3 u p * dot3 u p) * norm3sq u
     + 2 * cos a * (1 - cos a) * (dot3 u p * dot3 u p))
    by (unfold turn, norm3sq, dot3, cross3, add3, scale3; cbn; ring).
  rewrite H. replace (sin a * sin a) with (1 - cos a * cos a) by lra. ring.
Qed.
Lemma turn_isometry u a : norm3sq u = 1 -> isometry3 (turn u a).
Proof.
  intros H p q. unfold dist3, norm3. now rewrite turn_sub, turn_norm.
Qed.
Lemma turn_turn u a b p : norm3sq u = 1 -> turn u a (turn u b p) = turn u (a + b) p.
Proof.
  intros H. unfold turn at 3. rewrite cos_plus, sin_plus.
  set (ca := cos a); set (sa := sin a); set (cb := cos b); set (sb := sin b).
  transitivity (add3
    (add3 (add3 (scale3 (ca * cb - sa * sb) p) (scale3 (sa * cb + ca * sb) (cross3 u p)))
       (scale3 ((1 - (ca * cb - sa * sb)) * dot3 u p) u))
    (scale3 (norm3sq u - 1) (sub3 (scale3 ((1 - ca) * (1 - cb) * dot3 u p) u) (scale3 (sa * sb) p)))).
  - unfold turn, norm3sq, add3, sub3, scale3, cross3, dot3; cbn. fold ca sa cb sb. apply v3_ext; cbn; ring.
  - rewrite H. apply v3_ext; cbn; ring.
Qed.
Lemma rotate3d_affine v a : affine3 (rotate3d v a).
Proof. unfold affine3; cbn. auto. Qed.
Lemma rotate3d_det v a : v <> zero3 -> det44 (rotate3d v a) = 1.
Proof.
  intros H. pose proof (unit3_norm v H) as U. pose proof (sc1 a) as S.
  unfold rotate3d. revert U. generalize (unit3 v); intros u U.
  transitivity ((cos a + (1 - cos a) * norm3sq u) * (cos a * cos a + (sin a * sin a) * norm3sq u)).
  - unfold det44, norm3sq, dot3; cbn. ring.
  - rewrite U. replace (sin a * sin a) with (1 - cos a * cos a) by lra. ring.
Qed.
(** A linear map that agrees with the matrix at 0 and the unit vectors. *)
Lemma mul_pos3_inj a b : affine3 a -> affine3 b -> (forall p, mul_pos3 a p = mul_pos3 b p) -> a = b.
Proof.
  intros (A & B & C & D) (E & F & G & H) K.
  pose proof (K (V3 0 0 0)) as K0. pose proof (K (V3 1 0 0)) as K1.
  pose proof (K (V3 0 1 0)) as K2. pose proof (K (V3 0 0 1)) as K3.
  unfold mul_pos3 in *; cbn in *. inversion K0. inversion K1. inversion K2. inversion K3.
  apply m44_ext; try congruence; lra.
Qed.
Theorem C35_rotate3d v : v <> zero3 ->
  (forall a, isometry3 (mul_pos3 (rotate3d v a)) /\ det44 (rotate3d v a) = 1 /\
             affine3 (rotate3d v a)) /\
  (forall a k, mul_pos3 (rotate3d v a) (scale3 k v) = scale3 k v) /\
  (forall a p, dot3 v p = 0 ->
     mul_pos3 (rotate3d v a) p = add3 (scale3 (cos a) p) (scale3 (sin a) (cross3 (unit3 v) p))) /\
  (forall a b, mul44 (rotate3d v a) (rotate3d v b) = rotate3d v (a + b)) /\
  rotate3d v 0 = identity3d.
Proof.
  intros H. pose proof (unit3_norm v H) as U.
  split.
  { intros a. split; [|split; [now apply rotate3d_det|apply rotate3d_affine]].
    intros p q. rewrite !rotate3d_turn by auto. now apply turn_isometry. }
  split.
  { intros a k. rewrite rotate3d_turn by auto.
    assert (N : norm3 v <> 0) by (intros E; apply H; now apply norm3_zero_iff).
    assert (E : scale3 k v = scale3 (k * norm3 v) (unit3 v)) by (apply v3_ext; cbn; field; exact N).
    rewrite E. revert U. generalize (unit3 v) (k * norm3 v). intros u l U.
    transitivity (add3 (scale3 l u) (scale3 ((1 - cos a) * l * (norm3sq u - 1)) u)).
    - unfold turn, norm3sq, dot3; apply v3_ext; cbn; ring.
    - rewrite U. apply v3_ext; cbn; ring. }
  split.
  { intros a p E. rewrite rotate3d_turn by auto. unfold turn.
    replace (dot3 (unit3 v) p) with ((1 / norm3 v) * dot3 v p) by (unfold dot3; cbn; ring).
    rewrite E. apply v3_ext; cbn; ring. }
  split.
  { intros a b. apply mul_pos3_inj; [apply affine3_mul; apply rotate3d_affine|apply rotate3d_affine|].
    intros p. destruct C34_composition as (C & _). rewrite C by apply rotate3d_affine.
    rewrite !rotate3d_turn by auto. now apply turn_turn. }
  apply mul_pos3_inj; [apply rotate3d_affine|unfold affine3; cbn; auto|].
  intros p. rewrite rotate3d_turn by auto. unfold turn. rewrite cos_0, sin_0. apply v3_ext; cbn; ring.
Qed.
Lemma unit_ex : unit3 (V3 1 0 0) = V3 1 0 0.
Proof. apply unit3_idem. unfold norm3sq, dot3; cbn; ring. Qed.
Lemma unit_ey : unit3 (V3 0 1 0) = V3 0 1 0.
Proof. apply unit3_idem. unfold norm3sq, dot3; cbn; ring. Qed.
Lemma unit_ez : unit3 (V3 0 0 1) = V3 0 0 1.
Proof. apply unit3_idem. unfold norm3sq, dot3; cbn; ring. Qed.
Theorem C35_rotate_xyz a p :
  mul_pos3 (rotate_x a) p = V3 (x3 p) (cos a * y3 p - sin a * z3 p) (sin a * y3 p + cos a * z3 p) /\
  mul_pos3 (rotate_y a) p = V3 (cos a * x3 p + sin a * z3 p) (y3 p) (cos a * z3 p - sin a * x3 p) /\
  mul_pos3 (rotate_z a) p = V3 (cos a * x3 p - sin a * y3 p) (sin a * x3 p + cos a * y3 p) (z3 p).
Proof.
  unfold rotate_x, rotate_y, rotate_z, rotate3d. rewrite unit_ex, unit_ey, unit_ez.
  split; [|split]; apply v3_ext; cbn; ring.
Qed.
Theorem C35_rotate2d :
  (forall a, isometry2 (mul_pos2 (rotate2d a)) /\ isometry2 (mul_pos22 (rotate22 a)) /\
             det33 (rotate2d a) = 1 /\ det22 (rotate22 a) = 1 /\ affine2 (rotate2d a)) /\
  (forall a p, mul_pos2 (rotate2d a) p = mul_pos22 (rotate22 a) p /\
     mul_pos2 (rotate2d a) p = V2 (cos a * x2 p - sin a * y2 p) (sin a * x2 p + cos a * y2 p)) /\
  (forall a b, mul33 (rotate2d a) (rotate2d b) = rotate2d (a + b) /\
               mul22 (rotate22 a) (rotate22 b) = rotate22 (a + b)) /\
  rotate2d 0 = identity2d /\ rotate22 0 = identity22.
Proof.
  assert (I : forall a, isometry2 (mul_pos22 (rotate22 a))).
  { intros a p q. unfold dist2, norm2. f_equal. pose proof (sc1 a) as S.
    transitivity ((sin a * sin a + cos a * cos a) * norm2sq (sub2 p q)).
    - unfold norm2sq, dot2; cbn; ring.
    - rewrite S; ring. }
  assert (E : forall a p, mul_pos2 (rotate2d a) p = mul_pos22 (rotate22 a) p) by (intros; apply v2_ext; cbn; ring).
  split.
  { intros a. pose proof (sc1 a) as S. split; [intros p q; rewrite !E; apply I|].
    split; [apply I|]. split; [unfold det33; cbn; lra|]. split; [unfold det22; cbn; lra|].
    unfold affine2; cbn; auto. }
  split. { intros; split; [apply E|]. apply v2_ext; cbn; ring. }
  split. { intros; split; [apply m33_ext|apply m22_ext]; cbn; rewrite ?cos_plus, ?sin_plus; ring. }
  unfold rotate2d, rotate22. rewrite cos_0, sin_0, Ropp_0. split; reflexivity.
Qed.
Theorem C35_mirrors :
  (forall m, In m [mirror_xy; mirror_xz; mirror_yz; mirror_xeqy] ->
     isometry3 (mul_pos3 m) /\ det44 m = -1 /\ mul44 m m = identity3d /\ affine3 m) /\
  (forall m, In m [mirror_x; mirror_y] ->
     isometry2 (mul_pos2 m) /\ det33 m = -1 /\ mul33 m m = identity2d /\ affine2 m) /\
  (forall p, mul_pos3 mirror_xy p = V3 (x3 p) (y3 p) (- z3 p)) /\
  (forall p, mul_pos3 mirror_xz p = V3 (x3 p) (- y3 p) (z3 p)) /\
  (forall p, mul_pos3 mirror_yz p = V3 (- x3 p) (y3 p) (z3 p)) /\
  (forall p, mul_pos3 mirror_xeqy p = V3 (y3 p) (x3 p) (z3 p)) /\
  (forall p, mul_pos2 mirror_x p = V2 (x2 p) (- y2 p)) /\
  (forall p, mul_pos2 mirror_y p = V2 (- x2 p) (y2 p)).
Proof.
  split.
  { intros m [<- | [<- | [<- | [<- | []]]]];
    (split; [intros p q; unfold dist3, norm3; f_equal; unfold norm3sq, dot3; cbn; ring|];
     split; [unfold det44; cbn; ring|]; split; [apply m44_ext; cbn; ring|]; unfold affine3; cbn; auto). }
  split.
  { intros m [<- | [<- | []]];
    (split; [intros p q; unfold dist2, norm2; f_equal; unfold norm2sq, dot2; cbn; ring|];
     split; [unfold det33; cbn; ring|]; split; [apply m33_ext; cbn; ring|]; unfold affine2; cbn; auto). }
  split; [intros; apply v3_ext; cbn; ring|]. split; [intros; apply v3_ext; cbn; ring|].
  split; [intros; apply v3_ext; cbn; ring|]. split; [intros; apply v3_ext; cbn; ring|].
  split; intros; apply v2_ext; cbn; ring.
Qed.
(** A quarter turn about z takes the x direction to the y direction. *)
Example C35_example : V3 0 0 2 <> zero3 /\ dot3 (V3 0 0 2) (V3 3 0 0) = 0 /\
  mul_pos3 (rotate3d (V3 0 0 2) (PI / 2)) (V3 3 0 5) = V3 0 3 5.
Proof.
  assert (H : V3 0 0 2 <> zero3) by (intros E; apply (f_equal z3) in E; cbn in E; lra).
  split; [exact H|]. split; [unfold dot3; cbn; ring|].
  rewrite rotate3d_turn by exact H.
  replace (unit3 (V3 0 0 2)) with (V3 0 0 1).
  - unfold turn. rewrite cos_PI2, sin_PI2. unfold cross3, dot3. apply v3_ext; cbn; ring.
  - unfold unit3, norm3, norm3sq, dot3; cbn. replace (0 * 0 + 0 * 0 + 2 * 2) with (2 * 2) by ring.
    rewrite sqrt_square by lra. apply v3_ext; cbn; field.
Qed.

(** ** C36 *)
Lemma equal_within3_true a b t : equal_within3 a b t = true <->
  Rabs (x3 a - x3 b) <= t /\ Rabs (y3 a - y3 b) <= t /\ Rabs (z3 a - z3 b) <= t.
Proof. unfold equal_within3. rewrite !andb_true_iff, !Rleb_true. tauto. Qed.
Lemma sdf_epsilon_pos : 0 < sdf_epsilon.
Proof. unfold sdf_epsilon. apply Rinv_0_lt_compat. apply pow_lt; lra. Qed.
Lemma sdf_epsilon_lt1 : sdf_epsilon < 1.
Proof. unfold sdf_epsilon. lra. Qed.
(** The general case of the code on unit vectors. *)
Lemma rtv_general a b : norm3sq a = 1 -> norm3sq b = 1 -> 1 + dot3 a b <> 0 ->
  let vx := skew (cross3 a b) in
  let k := 1 / (1 + dot3 a b) in
  let m := add33 (add33 vx identity2d) (mul_scalar33 k (mul33 vx vx)) in
  let r := M44 (b00 m) (b01 m) (b02 m) 0 (b10 m) (b11 m) (b12 m) 0 (b20 m) (b21 m) (b22 m) 0 0 0 0 1 in
  mul_pos3 r a = b /\ isometry3 (mul_pos3 r) /\ det44 r = 1.
Proof.
  intros A B N vx k m r.
  set (v := cross3 a b) in *. set (c := dot3 a b) in *.
  assert (K : k * (1 + c) = 1) by (unfold k; field; exact N).
  assert (V : norm3sq v = (1 - c) * (1 + c)).
  { transitivity (norm3sq a * norm3sq b - c * c); [unfold v, c, norm3sq, dot3, cross3; cbn; ring|].
    rewrite A, B; ring. }
  assert (KV : k * norm3sq v = 1 - c) by (rewrite V; transitivity ((1 - c) * (k * (1 + c))); [ring|rewrite K; ring]).
  assert (act : forall p, mul_pos3 r p = add3 (add3 (cross3 v p) p) (scale3 k (cross3 v (cross3 v p)))).
  { intros p. unfold r, m, vx, mul_pos3, add33, mul_scalar33, mul33, skew, identity2d, add3, scale3, cross3; cbn.
    f_equal; ring. }
  split; [|split].
  - rewrite act.
    (* v x a = b - c a, v x b = c b - a *)
    assert (Ea : cross3 v a = sub3 b (scale3 c a)).
    { transitivity (sub3 (scale3 (norm3sq a) b) (scale3 c a)); [unfold v, c, norm3sq, dot3, cross3; apply v3_ext; cbn; ring|].
      rewrite A. apply v3_ext; cbn; ring. }
    assert (Eb : cross3 v b = sub3 (scale3 c b) a).
    { transitivity (sub3 (scale3 c b) (scale3 (norm3sq b) a)); [unfold v, c, norm3sq, dot3, cross3; apply v3_ext; cbn; ring|].
      rewrite B. apply v3_ext; cbn; ring. }
    rewrite Ea.
    replace (cross3 v (sub3 b (scale3 c a))) with (sub3 (cross3 v b) (scale3 c (cross3 v a)))
      by (unfold cross3; apply v3_ext; cbn; ring).
    rewrite Ea, Eb.
    transitivity (add3 (add3 b (scale3 (1 - c) a)) (scale3 (k * (1 + c)) (scale3 (c - 1) a))).
    + apply v3_ext; cbn; ring.
    + rewrite K. apply v3_ext; cbn; ring.
  - intros p q. unfold dist3, norm3. f_equal.
    transitivity (norm3sq (mul_pos3 r (sub3 p q))).
    { f_equal. rewrite !act. unfold cross3; apply v3_ext; cbn; ring. }
    rewrite act. generalize (sub3 p q). intros w.
    transitivity (norm3sq w + norm3sq (cross3 v w) * (1 - 2 * k + k * (k * norm3sq v))).
    + clearbody k v. clear - k v w. destruct v, w. unfold norm3sq, dot3, cross3; cbn; ring.
    + rewrite KV. replace (1 - 2 * k + k * (1 - c)) with (1 - k * (1 + c)) by ring. rewrite K. ring.
  - transitivity ((1 - k * norm3sq v) * (1 - k * norm3sq v) + norm3sq v).
    + assert (E : r = M44 (1 - k * (y3 v * y3 v + z3 v * z3 v)) (- z3 v + k * (x3 v * y3 v)) (y3 v + k * (x3 v * z3 v)) 0
                  (z3 v + k * (x3 v * y3 v)) (1 - k * (x3 v * x3 v + z3 v * z3 v)) (- x3 v + k * (y3 v * z3 v)) 0
                  (- y3 v + k * (x3 v * z3 v)) (x3 v + k * (y3 v * z3 v)) (1 - k * (x3 v * x3 v + y3 v * y3 v)) 0
                  0 0 0 1).
      { unfold r, m, vx, add33, mul_scalar33, mul33, skew, identity2d. clearbody v k. cbn. f_equal; ring. }
      rewrite E. clearbody v k. clear - v k. destruct v as [x y z].
      unfold det44, norm3sq, dot3; cbn. ring.
    + rewrite KV, V. ring.
Qed.
Lemma unit_opposite_dot a b : norm3sq a = 1 -> norm3sq b = 1 -> 1 + dot3 a b = 0 -> scale3 (-1) a = b.
Proof.
  intros A B E.
  assert (H : norm3sq (add3 a b) = 0).
  { transitivity (norm3sq a + norm3sq b + 2 * dot3 a b); [unfold norm3sq, dot3; cbn; ring|]. lra. }
  assert (Z : add3 a b = zero3).
  { apply norm3_zero_iff. unfold norm3. now rewrite H, sqrt_0. }
  inversion Z. apply v3_ext; cbn; lra.
Qed.
(** The full statement fails (below): what holds is that the matrix is a rotation
    onto the direction of b outside the two windows of width epsilon in which the
    code takes a shortcut, and inside the window of (almost) equal directions the
    result is the identity, which is off by at most epsilon per coordinate. *)
Theorem C36_rotate_to_vec_partial a b :
  equal_within3 a zero3 sdf_epsilon = false -> equal_within3 b zero3 sdf_epsilon = false ->
  equal_within3 (scale3 (-1) (unit3 a)) (unit3 b) sdf_epsilon = false ->
  isometry3 (mul_pos3 (rotate_to_vec a b)) /\ det44 (rotate_to_vec a b) = 1 /\ affine3 (rotate_to_vec a b) /\
  mul_pos3 (rotate_to_vec a b) zero3 = zero3 /\
  equal_within3 (mul_pos3 (rotate_to_vec a b) (unit3 a)) (unit3 b) sdf_epsilon = true /\
  (unit3 a = unit3 b \/ equal_within3 (unit3 a) (unit3 b) sdf_epsilon = false ->
     mul_pos3 (rotate_to_vec a b) (unit3 a) = unit3 b).
Proof.
  intros Ha Hb Ho.
  assert (P : forall v, equal_within3 v zero3 sdf_epsilon = false -> v <> zero3).
  { intros v E ->. assert (equal_within3 zero3 zero3 sdf_epsilon = true); [|congruence].
    apply equal_within3_true. cbn. rewrite !Rminus_0_r, Rabs_R0. pose proof sdf_epsilon_pos. lra. }
  pose proof (unit3_norm a (P a Ha)) as Ua. pose proof (unit3_norm b (P b Hb)) as Ub.
  assert (N : 1 + dot3 (unit3 a) (unit3 b) <> 0).
  { intros E. rewrite (unit_opposite_dot _ _ Ua Ub E) in Ho.
    assert (equal_within3 (unit3 b) (unit3 b) sdf_epsilon = true); [|congruence].
    apply equal_within3_true. rewrite !Rminus_eq_0, Rabs_R0. pose proof sdf_epsilon_pos. lra. }
  pose proof (rtv_general _ _ Ua Ub N) as G. cbv zeta in G.
  unfold rotate_to_vec. rewrite Ha, Hb, Ho. cbn [orb].
  assert (Z : forall x, Rabs (x - x) <= sdf_epsilon).
  { intros x. rewrite Rminus_eq_0, Rabs_R0. pose proof sdf_epsilon_pos. lra. }
  destruct (equal_within3 (unit3 a) (unit3 b) sdf_epsilon) eqn:E.
  - assert (I : forall p, mul_pos3 identity3d p = p) by (intros; apply v3_ext; cbn; ring).
    split; [intros p q; now rewrite !I|]. split; [unfold det44; cbn; ring|].
    split; [unfold affine3; cbn; auto|]. rewrite !I. split; [reflexivity|]. split; [exact E|].
    intros [K|K]; [exact K|congruence].
  - destruct G as (G1 & G2 & G3). split; [exact G2|]. split; [exact G3|].
    split; [unfold affine3; cbn; auto|]. split; [apply v3_ext; cbn; ring|].
    rewrite G1. split; [apply equal_within3_true; auto|]. auto.
Qed.
(** Opposite vectors: the code returns the point reflection, determinant -1, not a
    rotation. *)
Theorem C36_opposite_refuted :
  exists a b, a <> zero3 /\ b <> zero3 /\ det44 (rotate_to_vec a b) = -1 /\
    forall v t, v <> zero3 -> rotate_to_vec a b <> rotate3d v t.
Proof.
  exists (V3 1 0 0), (V3 (-1) 0 0).
  split; [intros E; apply (f_equal x3) in E; cbn in E; lra|].
  split; [intros E; apply (f_equal x3) in E; cbn in E; lra|].
  assert (U2 : unit3 (V3 (-1) 0 0) = V3 (-1) 0 0) by (apply unit3_idem; unfold norm3sq, dot3; cbn; ring).
  assert (Eps : sdf_epsilon < 1).
  { exact sdf_epsilon_lt1. }
  assert (D : rotate_to_vec (V3 1 0 0) (V3 (-1) 0 0) = M44 (-1) 0 0 0  0 (-1) 0 0  0 0 (-1) 0  0 0 0 1).
  { unfold rotate_to_vec. rewrite unit_ex, U2.
    assert (F : forall a b, Rabs (x3 a - x3 b) >= 1 -> equal_within3 a b sdf_epsilon = false).
    { intros a b H. destruct (equal_within3 a b sdf_epsilon) eqn:E; auto. apply equal_within3_true in E. lra. }
    rewrite (F (V3 1 0 0) zero3), (F (V3 (-1) 0 0) zero3), (F (V3 1 0 0) (V3 (-1) 0 0)); cbn [orb x3 zero3].
    - replace (equal_within3 _ _ _) with true; [reflexivity|]. symmetry. apply equal_within3_true. cbn.
      pose proof sdf_epsilon_pos. rmm; lra.
    - rmm; lra.
    - rmm; lra.
    - rmm; lra. }
  rewrite D. split; [unfold det44; cbn; ring|].
  intros v t Hv E. pose proof (rotate3d_det v t Hv) as R. rewrite <- E in R. unfold det44 in R; cbn in R. lra.
Qed.
Example C36_example : rotate_to_vec (V3 1 0 0) (V3 0 2 0) <> identity3d /\
  mul_pos3 (rotate_to_vec (V3 1 0 0) (V3 0 2 0)) (V3 1 0 0) = V3 0 1 0.
Proof.
  assert (U2 : unit3 (V3 0 2 0) = V3 0 1 0).
  { unfold unit3, norm3, norm3sq, dot3; cbn. replace (0 * 0 + 2 * 2 + 0 * 0) with (2 * 2) by ring.
    rewrite sqrt_square by lra. apply v3_ext; cbn; field. }
  assert (Eps : sdf_epsilon < 1).
  { exact sdf_epsilon_lt1. }
  assert (F : forall a b, Rabs (x3 a - x3 b) >= 1 -> equal_within3 a b sdf_epsilon = false).
  { intros a b H. destruct (equal_within3 a b sdf_epsilon) eqn:E; auto. apply equal_within3_true in E. lra. }
  assert (F' : forall a b, Rabs (y3 a - y3 b) >= 1 -> equal_within3 a b sdf_epsilon = false).
  { intros a b H. destruct (equal_within3 a b sdf_epsilon) eqn:E; auto. apply equal_within3_true in E. lra. }
  assert (M : mul_pos3 (rotate_to_vec (V3 1 0 0) (V3 0 2 0)) (V3 1 0 0) = V3 0 1 0).
  { enough (E : mul_pos3 (rotate_to_vec (V3 1 0 0) (V3 0 2 0)) (unit3 (V3 1 0 0)) = unit3 (V3 0 2 0))
      by (now rewrite unit_ex, U2 in E).
    apply C36_rotate_to_vec_partial; rewrite ?unit_ex, ?U2.
    - apply F; cbn; rmm; lra.
    - apply F'; cbn; rmm; lra.
    - apply F; cbn; rmm; lra.
    - right. apply F; cbn; rmm; lra. }
  split; [|exact M]. intros E. rewrite E in M. apply (f_equal x3) in M. cbn in M. lra.
Qed.

(** ** C37 *)
(** Interval arithmetic of one row. *)
Lemma row_lo k a b t : a <= t <= b -> Rmin (a * k) (b * k) <= k * t <= Rmax (a * k) (b * k).
Proof. intros. destruct (Rle_or_lt 0 k); rmm; split; nra. Qed.
Theorem C37_mulbox3 a b : ok3 b ->
  ok3 (mul_box3 a b) /\
  (forall p, in3 b p -> in3 (mul_box3 a b) (mul_pos3 a p)) /\
  (forall c, (forall p, in3 b p -> in3 c (mul_pos3 a p)) -> sub_box3 (mul_box3 a b) c).
Proof.
  intros H.
  assert (In : forall p, in3 b p -> in3 (mul_box3 a b) (mul_pos3 a p)).
  { intros p (X & Y & Z).
    unfold in3, mul_box3, min_elem3, max_elem3, add3, scale3, mul_pos3; cbn.
    repeat match goal with |- context [?r * x3 p] => 
      lazymatch goal with _ : Rmin (_ * r) _ <= r * x3 p <= _ |- _ => fail | _ => pose proof (row_lo r _ _ _ X) end end.
    repeat match goal with |- context [?r * y3 p] => 
      lazymatch goal with _ : Rmin (_ * r) _ <= r * y3 p <= _ |- _ => fail | _ => pose proof (row_lo r _ _ _ Y) end end.
    repeat match goal with |- context [?r * z3 p] => 
      lazymatch goal with _ : Rmin (_ * r) _ <= r * z3 p <= _ |- _ => fail | _ => pose proof (row_lo r _ _ _ Z) end end.
    split; [lra|]. split; lra. }
  split; [|split; [exact In|]].
  - destruct (ok3_corners b H) as (C1 & _). pose proof (In _ C1) as (X & Y & Z). unfold ok3. lra.
  - intros c Hc.
    (* each face of the box is touched by the image of a corner *)
    assert (W : forall p, in3 b p -> in3 c (mul_pos3 a p)) by exact Hc.
    destruct b as [[lx ly lz] [hx hy hz]]. unfold ok3 in H; cbn in H. destruct H as (Hx & Hy & Hz).
    assert (Corner : forall x y z, (x = lx \/ x = hx) -> (y = ly \/ y = hy) -> (z = lz \/ z = hz) ->
              in3 c (mul_pos3 a (V3 x y z))).
    { intros x y z X Y Z. apply W. unfold in3; cbn. repeat split; destruct X, Y, Z; subst; lra. }
    assert (Lo : forall r, exists x, (x = lx \/ x = hx) /\ r * x = Rmin (lx * r) (hx * r)).
    { intros r. unfold Rmin. destruct (Rle_dec (lx * r) (hx * r)); [exists lx|exists hx]; split; auto; ring. }
    assert (Lo' : forall r, exists x, (x = ly \/ x = hy) /\ r * x = Rmin (ly * r) (hy * r)).
    { intros r. unfold Rmin. destruct (Rle_dec (ly * r) (hy * r)); [exists ly|exists hy]; split; auto; ring. }
    assert (Lo'' : forall r, exists x, (x = lz \/ x = hz) /\ r * x = Rmin (lz * r) (hz * r)).
    { intros r. unfold Rmin. destruct (Rle_dec (lz * r) (hz * r)); [exists lz|exists hz]; split; auto; ring. }
    assert (Hi : forall r, exists x, (x = lx \/ x = hx) /\ r * x = Rmax (lx * r) (hx * r)).
    { intros r. unfold Rmax. destruct (Rle_dec (lx * r) (hx * r)); [exists hx|exists lx]; split; auto; ring. }
    assert (Hi' : forall r, exists x, (x = ly \/ x = hy) /\ r * x = Rmax (ly * r) (hy * r)).
    { intros r. unfold Rmax. destruct (Rle_dec (ly * r) (hy * r)); [exists hy|exists ly]; split; auto; ring. }
    assert (Hi'' : forall r, exists x, (x = lz \/ x = hz) /\ r * x = Rmax (lz * r) (hz * r)).
    { intros r. unfold Rmax. destruct (Rle_dec (lz * r) (hz * r)); [exists hz|exists lz]; split; auto; ring. }
    unfold sub_box3. intros p Hp. unfold in3, mul_box3, min_elem3, max_elem3, add3, scale3 in Hp; cbn in Hp.
    destruct Hp as ((A1 & A2) & (A3 & A4) & (A5 & A6)).
    assert (T : forall r1 r2 r3, exists q, in3 c (mul_pos3 a q) /\
              r1 * x3 q = Rmin (lx * r1) (hx * r1) /\ r2 * y3 q = Rmin (ly * r2) (hy * r2) /\ r3 * z3 q = Rmin (lz * r3) (hz * r3)).
    { intros r1 r2 r3. destruct (Lo r1) as (x & ? & ?), (Lo' r2) as (y & ? & ?), (Lo'' r3) as (z & ? & ?).
      exists (V3 x y z). split; [now apply Corner|]. cbn. auto. }
    assert (T' : forall r1 r2 r3, exists q, in3 c (mul_pos3 a q) /\
              r1 * x3 q = Rmax (lx * r1) (hx * r1) /\ r2 * y3 q = Rmax (ly * r2) (hy * r2) /\ r3 * z3 q = Rmax (lz * r3) (hz * r3)).
    { intros r1 r2 r3. destruct (Hi r1) as (x & ? & ?), (Hi' r2) as (y & ? & ?), (Hi'' r3) as (z & ? & ?).
      exists (V3 x y z). split; [now apply Corner|]. cbn. auto. }
    destruct (T (a00 a) (a01 a) (a02 a)) as (q1 & (B1 & _ & _) & E1 & E2 & E3).
    destruct (T (a10 a) (a11 a) (a12 a)) as (q2 & (_ & B2 & _) & E4 & E5 & E6).
    destruct (T (a20 a) (a21 a) (a22 a)) as (q3 & (_ & _ & B3) & E7 & E8 & E9).
    destruct (T' (a00 a) (a01 a) (a02 a)) as (q4 & (B4 & _ & _) & F1 & F2 & F3).
    destruct (T' (a10 a) (a11 a) (a12 a)) as (q5 & (_ & B5 & _) & F4 & F5 & F6).
    destruct (T' (a20 a) (a21 a) (a22 a)) as (q6 & (_ & _ & B6) & F7 & F8 & F9).
    unfold mul_pos3 in *; cbn [x3 y3 z3] in *. unfold in3. lra.
Qed.
Theorem C37_mulbox2 a b : ok2 b ->
  ok2 (mul_box2 a b) /\
  (forall p, in2 b p -> in2 (mul_box2 a b) (mul_pos2 a p)) /\
  (forall c, (forall p, in2 b p -> in2 c (mul_pos2 a p)) -> sub_box2 (mul_box2 a b) c).
Proof.
  intros H.
  assert (In : forall p, in2 b p -> in2 (mul_box2 a b) (mul_pos2 a p)).
  { intros p (X & Y).
    unfold in2, mul_box2, min_elem2, max_elem2, add2, scale2, mul_pos2; cbn.
    pose proof (row_lo (b00 a) _ _ _ X). pose proof (row_lo (b10 a) _ _ _ X).
    pose proof (row_lo (b01 a) _ _ _ Y). pose proof (row_lo (b11 a) _ _ _ Y). lra. }
  split; [|split; [exact In|]].
  - destruct (ok2_corners b H) as (C1 & _). pose proof (In _ C1) as (X & Y). unfold ok2. lra.
  - intros c Hc.
    destruct b as [[lx ly] [hx hy]]. unfold ok2 in H; cbn in H. destruct H as (Hx & Hy).
    assert (Corner : forall x y, (x = lx \/ x = hx) -> (y = ly \/ y = hy) -> in2 c (mul_pos2 a (V2 x y))).
    { intros x y X Y. apply Hc. unfold in2; cbn. destruct X, Y; subst; lra. }
    assert (Lo : forall r, exists x, (x = lx \/ x = hx) /\ r * x = Rmin (lx * r) (hx * r)).
    { intros r. unfold Rmin. destruct (Rle_dec (lx * r) (hx * r)); [exists lx|exists hx]; split; auto; ring. }
    assert (Lo' : forall r, exists x, (x = ly \/ x = hy) /\ r * x = Rmin (ly * r) (hy * r)).
    { intros r. unfold Rmin. destruct (Rle_dec (ly * r) (hy * r)); [exists ly|exists hy]; split; auto; ring. }
    assert (Hi : forall r, exists x, (x = lx \/ x = hx) /\ r * x = Rmax (lx * r) (hx * r)).
    { intros r. unfold Rmax. destruct (Rle_dec (lx * r) (hx * r)); [exists hx|exists lx]; split; auto; ring. }
    assert (Hi' : forall r, exists x, (x = ly \/ x = hy) /\ r * x = Rmax (ly * r) (hy * r)).
    { intros r. unfold Rmax. destruct (Rle_dec (ly * r) (hy * r)); [exists hy|exists ly]; split; auto; ring. }
    unfold sub_box2. intros p Hp. unfold in2, mul_box2, min_elem2, max_elem2, add2, scale2 in Hp; cbn in Hp.
    destruct Hp as ((A1 & A2) & (A3 & A4)).
    destruct (Lo (b00 a)) as (u1 & ? & U1), (Lo' (b01 a)) as (u2 & ? & U2),
             (Lo (b10 a)) as (u3 & ? & U3), (Lo' (b11 a)) as (u4 & ? & U4).
    destruct (Hi (b00 a)) as (w1 & ? & W1), (Hi' (b01 a)) as (w2 & ? & W2),
             (Hi (b10 a)) as (w3 & ? & W3), (Hi' (b11 a)) as (w4 & ? & W4).
    assert (B1 : in2 c (mul_pos2 a (V2 u1 u2))) by now apply Corner.
    assert (B2 : in2 c (mul_pos2 a (V2 u3 u4))) by now apply Corner.
    assert (B3 : in2 c (mul_pos2 a (V2 w1 w2))) by now apply Corner.
    assert (B4 : in2 c (mul_pos2 a (V2 w3 w4))) by now apply Corner.
    unfold in2, mul_pos2 in *; cbn [x2 y2] in *. lra.
Qed.
Example C37_example : ok3 (Box3 (V3 0 0 0) (V3 1 2 3)) /\
  mul_box3 (mul44 (translate3d (V3 5 0 0)) mirror_yz) (Box3 (V3 0 0 0) (V3 1 2 3)) = Box3 (V3 4 0 0) (V3 5 2 3).
Proof.
  split; [unfold ok3; cbn; lra|].
  unfold mul_box3; cbn. unfold min_elem3, max_elem3, add3, scale3; cbn.
  f_equal; f_equal; rmm; lra.
Qed.
