(** d3.Transform (C74) and canalisTransform (C73). *)
From Coq Require Import Reals Lra Psatz List Bool.
From Verif Require Import Prelude Vec BoxModel MatrixModel PropsMatrix TransformModel PropsUtil.
Import ListNotations.
Local Open Scope R_scope.

(** The homogeneous coordinate a transform gives to v, and what "affine" means. *)
Definition t_w (t : transform) (v : v3) : R :=
  match t with T _ _ _ _ _ _ _ _ _ _ _ _ x30 x31 x32 d33 => x30 * x3 v + x31 * y3 v + x32 * z3 v + d33 + 1 end.
Definition affine_t (t : transform) : Prop :=
  match t with T _ _ _ _ _ _ _ _ _ _ _ _ x30 x31 x32 d33 => x30 = 0 /\ x31 = 0 /\ x32 = 0 /\ d33 = 0 end.

Lemma affine_w t v : affine_t t -> t_w t v = 1.
Proof. destruct t as [td00 tx01 tx02 tx03 tx10 td11 tx12 tx13 tx20 tx21 td22 tx23 tx30 tx31 tx32 td33]. cbn [affine_t t_w]. intros (-> & -> & -> & ->). ring. Qed.
Lemma transform_eqb_eq t b : transform_eqb t b = true <-> t = b.
Proof.
  destruct t as [td00 tx01 tx02 tx03 tx10 td11 tx12 tx13 tx20 tx21 td22 tx23 tx30 tx31 tx32 td33], b as [bd00 bx01 bx02 bx03 bx10 bd11 bx12 bx13 bx20 bx21 bd22 bx23 bx30 bx31 bx32 bd33]. cbn [transform_eqb]. rewrite !andb_true_iff, !Reqb_true. split.
  - intros H. decompose [and] H. subst. reflexivity.
  - intros H. injection H. intros. subst. repeat split; reflexivity.
Qed.
(** The product as a raw matrix product, without the shortcuts. *)
Definition raw_mul (t b : transform) : transform :=
  match t, b with T d00 x01 x02 x03 x10 d11 x12 x13 x20 x21 d22 x23 x30 x31 x32 d33, T e00 y01 y02 y03 y10 e11 y12 y13 y20 y21 e22 y23 y30 y31 y32 e33 =>
    let x00 := d00 + 1 in let x11 := d11 + 1 in let x22 := d22 + 1 in let x33 := d33 + 1 in
    let y00 := e00 + 1 in let y11 := e11 + 1 in let y22 := e22 + 1 in let y33 := e33 + 1 in
    T (x00 * y00 + x01 * y10 + x02 * y20 + x03 * y30 - 1) (x00 * y01 + x01 * y11 + x02 * y21 + x03 * y31) (x00 * y02 + x01 * y12 + x02 * y22 + x03 * y32) (x00 * y03 + x01 * y13 + x02 * y23 + x03 * y33)
      (x10 * y00 + x11 * y10 + x12 * y20 + x13 * y30) (x10 * y01 + x11 * y11 + x12 * y21 + x13 * y31 - 1) (x10 * y02 + x11 * y12 + x12 * y22 + x13 * y32) (x10 * y03 + x11 * y13 + x12 * y23 + x13 * y33)
      (x20 * y00 + x21 * y10 + x22 * y20 + x23 * y30) (x20 * y01 + x21 * y11 + x22 * y21 + x23 * y31) (x20 * y02 + x21 * y12 + x22 * y22 + x23 * y32 - 1) (x20 * y03 + x21 * y13 + x22 * y23 + x23 * y33)
      (x30 * y00 + x31 * y10 + x32 * y20 + x33 * y30) (x30 * y01 + x31 * y11 + x32 * y21 + x33 * y31) (x30 * y02 + x31 * y12 + x32 * y22 + x33 * y32) (x30 * y03 + x31 * y13 + x32 * y23 + x33 * y33 - 1)
  end.
Lemma T_ext d00 x01 x02 x03 x10 d11 x12 x13 x20 x21 d22 x23 x30 x31 x32 d33 e00 y01 y02 y03 y10 e11 y12 y13 y20 y21 e22 y23 y30 y31 y32 e33 :
  d00 = e00 -> x01 = y01 -> x02 = y02 -> x03 = y03 -> x10 = y10 -> d11 = e11 -> x12 = y12 -> x13 = y13 -> x20 = y20 -> x21 = y21 -> d22 = e22 -> x23 = y23 ->
  x30 = y30 -> x31 = y31 -> x32 = y32 -> d33 = e33 ->
  T d00 x01 x02 x03 x10 d11 x12 x13 x20 x21 d22 x23 x30 x31 x32 d33 = T e00 y01 y02 y03 y10 e11 y12 y13 y20 y21 e22 y23 y30 y31 y32 e33.
Proof. now intros -> -> -> -> -> -> -> -> -> -> -> -> -> -> -> ->. Qed.
Lemma mul_raw t b : t_mul t b = raw_mul t b.
Proof.
  unfold t_mul. destruct (transform_eqb t t_id) eqn:E.
  { apply transform_eqb_eq in E. subst t. destruct b as [bd00 bx01 bx02 bx03 bx10 bd11 bx12 bx13 bx20 bx21 bd22 bx23 bx30 bx31 bx32 bd33]. cbn [raw_mul t_id]. apply T_ext; ring. }
  destruct (transform_eqb b t_id) eqn:E2.
  { apply transform_eqb_eq in E2. subst b. destruct t as [td00 tx01 tx02 tx03 tx10 td11 tx12 tx13 tx20 tx21 td22 tx23 tx30 tx31 tx32 td33]. cbn [raw_mul t_id]. apply T_ext; ring. }
  destruct t as [td00 tx01 tx02 tx03 tx10 td11 tx12 tx13 tx20 tx21 td22 tx23 tx30 tx31 tx32 td33], b as [bd00 bx01 bx02 bx03 bx10 bd11 bx12 bx13 bx20 bx21 bd22 bx23 bx30 bx31 bx32 bd33]. reflexivity.
Qed.
Theorem C74_identity t v : t_apply t_id v = v /\ t_mul t_id t = t /\ t_mul t t_id = t /\ t_inv t_id = t_id /\ affine_t t_id /\ t_det t_id = 1.
Proof.
  split; [unfold t_apply, t_id; apply v3_ext; cbn [x3 y3 z3]; field|]. split.
  { rewrite mul_raw. destruct t as [td00 tx01 tx02 tx03 tx10 td11 tx12 tx13 tx20 tx21 td22 tx23 tx30 tx31 tx32 td33]. cbn [raw_mul t_id]. apply T_ext; ring. }
  split. { rewrite mul_raw. destruct t as [td00 tx01 tx02 tx03 tx10 td11 tx12 tx13 tx20 tx21 td22 tx23 tx30 tx31 tx32 td33]. cbn [raw_mul t_id]. apply T_ext; ring. }
  split. { unfold t_inv. replace (transform_eqb t_id t_id) with true by (symmetry; now apply transform_eqb_eq). reflexivity. }
  split; [cbn; repeat split|]. cbn. ring.
Qed.
(** Mul composes wherever the homogeneous coordinates are non-zero; in particular for all affine transforms. *)
Theorem C74_mul a b v : t_w b v <> 0 -> t_w (t_mul a b) v <> 0 -> t_apply (t_mul a b) v = t_apply a (t_apply b v).
Proof.
  rewrite mul_raw. destruct a as [ad00 ax01 ax02 ax03 ax10 ad11 ax12 ax13 ax20 ax21 ad22 ax23 ax30 ax31 ax32 ad33], b as [bd00 bx01 bx02 bx03 bx10 bd11 bx12 bx13 bx20 bx21 bd22 bx23 bx30 bx31 bx32 bd33], v as [vx vy vz]. cbn [raw_mul t_w t_apply x3 y3 z3]. intros W1 W2.
  apply v3_ext; cbn [x3 y3 z3]; field;
  (split; [exact W1|]); match goal with |- ?e <> 0 => match type of W2 with ?f <> 0 => replace e with f by ring; exact W2 end end.
Qed.
Theorem C74_mul_affine a b v : affine_t a -> affine_t b -> affine_t (t_mul a b) /\ t_apply (t_mul a b) v = t_apply a (t_apply b v).
Proof.
  intros A B. assert (AB : affine_t (t_mul a b)).
  { rewrite mul_raw. destruct a as [ad00 ax01 ax02 ax03 ax10 ad11 ax12 ax13 ax20 ax21 ad22 ax23 ax30 ax31 ax32 ad33], b as [bd00 bx01 bx02 bx03 bx10 bd11 bx12 bx13 bx20 bx21 bd22 bx23 bx30 bx31 bx32 bd33]. cbn [affine_t raw_mul] in *. destruct A as (-> & -> & -> & ->), B as (-> & -> & -> & ->). repeat split; ring. }
  split; [exact AB|]. apply C74_mul; rewrite affine_w; (assumption || lra).
Qed.
Theorem C74_mul_assoc a b c : t_mul (t_mul a b) c = t_mul a (t_mul b c).
Proof. rewrite !mul_raw. destruct a as [ad00 ax01 ax02 ax03 ax10 ad11 ax12 ax13 ax20 ax21 ad22 ax23 ax30 ax31 ax32 ad33], b as [bd00 bx01 bx02 bx03 bx10 bd11 bx12 bx13 bx20 bx21 bd22 bx23 bx30 bx31 bx32 bd33], c as [cd00 cx01 cx02 cx03 cx10 cd11 cx12 cx13 cx20 cx21 cd22 cx23 cx30 cx31 cx32 cd33]. cbn [raw_mul]. apply T_ext; ring. Qed.
(** Inverse *)
Lemma inv_raw t : 1 / 10 ^ 16 <= Rabs (t_det t) -> raw_mul t (t_inv t) = t_id /\ raw_mul (t_inv t) t = t_id.
Proof.
  intros D. unfold t_inv. destruct (transform_eqb t t_id) eqn:E.
  { apply transform_eqb_eq in E. subst t. cbn [raw_mul t_id]. split; apply T_ext; ring. }
  cbv zeta. destruct (Rltb_spec (Rabs (t_det t)) (1 / 10 ^ 16)) as [L|L]; [lra|]. clear L.
  assert (NZ : t_det t <> 0). { intros Z. rewrite Z, Rabs_R0 in D. assert (0 < 1 / 10 ^ 16) by (apply Rdiv_lt_0_compat; [lra|apply pow_lt; lra]). lra. }
  clear D E. assert (DD : t_det t * (1 / t_det t) = 1) by (field; exact NZ). set (d := 1 / t_det t) in *. clearbody d. clear NZ.
  destruct t as [td00 tx01 tx02 tx03 tx10 td11 tx12 tx13 tx20 tx21 td22 tx23 tx30 tx31 tx32 td33]. cbn [t_det] in DD. cbn [raw_mul t_id]. cbv zeta in DD |- *.
  match type of DD with ?e = 1 => set (dd := e) in DD end.
  split; apply T_ext;
  first [ match goal with |- ?e - 1 = 0 => replace e with dd by (unfold dd; ring); rewrite DD; ring end | ring ].
Qed.
Theorem C74_inv t : 1 / 10 ^ 16 <= Rabs (t_det t) ->
  t_mul t (t_inv t) = t_id /\ t_mul (t_inv t) t = t_id /\
  (affine_t t -> affine_t (t_inv t) /\ forall v, t_apply (t_inv t) (t_apply t v) = v /\ t_apply t (t_apply (t_inv t) v) = v).
Proof.
  intros D. rewrite !mul_raw. destruct (inv_raw t D) as [R1 R2]. split; [exact R1|]. split; [exact R2|]. intros A.
  assert (AI : affine_t (t_inv t)).
  { destruct t as [td00 tx01 tx02 tx03 tx10 td11 tx12 tx13 tx20 tx21 td22 tx23 tx30 tx31 tx32 td33], (t_inv _) as [i00 i01 i02 i03 i10 i11 i12 i13 i20 i21 i22 i23 i30 i31 i32 i33]. cbn [affine_t raw_mul t_id] in *. cbv zeta in *.
    destruct A as (-> & -> & -> & ->). injection R1. intros. repeat split; lra. }
  split; [exact AI|]. intros v. rewrite <- !mul_raw in R1, R2.
  rewrite <- (proj2 (C74_mul_affine (t_inv t) t v AI A)), <- (proj2 (C74_mul_affine t (t_inv t) v A AI)), R1, R2.
  split; apply (C74_identity t_id v).
Qed.
Theorem C74_singular t : Rabs (t_det t) < 1 / 10 ^ 16 -> t_inv t = t_zero.
Proof.
  intros D. unfold t_inv. destruct (transform_eqb t t_id) eqn:E.
  { apply transform_eqb_eq in E. subst t. rewrite (proj2 (proj2 (proj2 (proj2 (proj2 (C74_identity t_id zero3)))))) in D. rewrite Rabs_R1 in D.
    assert (1 / 10 ^ 16 <= 1); [|lra]. apply (Rmult_le_reg_r (10 ^ 16)); [apply pow_lt; lra|]. unfold Rdiv. rewrite Rmult_assoc, Rinv_l by (apply pow_nonzero; lra).
    assert (1 <= 10 ^ 16) by (apply pow_R1_Rle; lra). lra. }
  cbv zeta. destruct (Rltb_spec (Rabs (t_det t)) (1 / 10 ^ 16)); [reflexivity|lra].
Qed.
(** Slices *)
Theorem C74_slice :
  (forall t, length (slice_copy t) = 16%nat /\ new_transform (Some (slice_copy t)) = Ok t) /\
  (forall l, length l = 16%nat <-> exists t, new_transform (Some l) = Ok t /\ slice_copy t = l) /\
  (forall l, length l <> 16%nat <-> new_transform (Some l) = Panicked) /\ new_transform None = Ok t_zero /\ (forall t, t_mul t_zero t = t_zero).
Proof.
  split. { intros t. destruct t as [td00 tx01 tx02 tx03 tx10 td11 tx12 tx13 tx20 tx21 td22 tx23 tx30 tx31 tx32 td33]. split; [reflexivity|]. cbn [slice_copy new_transform]. f_equal. apply T_ext; ring. }
  assert (S : forall l : list R, length l = 16%nat -> exists a0 a1 a2 a3 a4 a5 a6 a7 a8 a9 a10 a11 a12 a13 a14 a15, l = [a0; a1; a2; a3; a4; a5; a6; a7; a8; a9; a10; a11; a12; a13; a14; a15]).
  { intros l H. do 16 (destruct l as [|? l]; [discriminate|]). destruct l; [|discriminate]. repeat eexists. }
  assert (P : forall l, length l <> 16%nat -> new_transform (Some l) = Panicked).
  { intros l H. do 16 (destruct l as [|? l]; [reflexivity|]). destruct l as [|? l]; [exfalso; now apply H|reflexivity]. }
  split.
  { intros l. split.
    - intros H. apply S in H. destruct H as (a0 & a1 & a2 & a3 & a4 & a5 & a6 & a7 & a8 & a9 & a10 & a11 & a12 & a13 & a14 & a15 & ->).
      eexists. split; [reflexivity|]. cbn [slice_copy]. repeat (apply f_equal2; [ring|]). reflexivity.
    - intros (t & _ & <-). now destruct t as [td00 tx01 tx02 tx03 tx10 td11 tx12 tx13 tx20 tx21 td22 tx23 tx30 tx31 tx32 td33]. }
  split.
  { intros l. split; [apply P|]. intros H Q. apply S in Q. destruct Q as (a0 & a1 & a2 & a3 & a4 & a5 & a6 & a7 & a8 & a9 & a10 & a11 & a12 & a13 & a14 & a15 & ->). discriminate. }
  split; [reflexivity|]. intros t. rewrite mul_raw. destruct t as [td00 tx01 tx02 tx03 tx10 td11 tx12 tx13 tx20 tx21 td22 tx23 tx30 tx31 tx32 td33]. unfold t_zero. cbn [raw_mul]. apply T_ext; ring.
Qed.
(** Rotation by a quaternion, from the quaternion product: the vector part of q v q*. *)
Definition qmul (a b : quat) : quat :=
  Quat (q_re a * q_re b - q_i a * q_i b - q_j a * q_j b - q_k a * q_k b)
       (q_re a * q_i b + q_i a * q_re b + q_j a * q_k b - q_k a * q_j b)
       (q_re a * q_j b - q_i a * q_k b + q_j a * q_re b + q_k a * q_i b)
       (q_re a * q_k b + q_i a * q_j b - q_j a * q_i b + q_k a * q_re b).
Definition qconj (a : quat) : quat := Quat (q_re a) (- q_i a) (- q_j a) (- q_k a).
Definition qrotate (q : quat) (v : v3) : v3 :=
  let r := qmul (qmul q (Quat 0 (x3 v) (y3 v) (z3 v))) (qconj q) in V3 (q_i r) (q_j r) (q_k r).
Theorem C74_compose pos sc q v : q_re q * q_re q + q_i q * q_i q + q_j q * q_j q + q_k q * q_k q = 1 ->
  affine_t (compose_transform pos sc q) /\
  t_apply (compose_transform pos sc q) v = add3 pos (qrotate q (mul_elem3 sc v)).
Proof.
  intros U. split; [cbn; repeat split|]. unfold compose_transform, t_apply, add3, qrotate, qmul, qconj, mul_elem3. cbn [x3 y3 z3 q_re q_i q_j q_k].
  destruct q as [r i j k], v as [vx vy vz], sc as [sx sy sz], pos as [px py pz]. cbn [x3 y3 z3 q_re q_i q_j q_k] in *.
  assert (E : r * r = 1 - i * i - j * j - k * k) by lra.
  apply v3_ext; cbn [x3 y3 z3];
  match goal with |- ?a * (1 / ?b) = _ => replace b with 1 by ring; replace (a * (1 / 1)) with a by field end; ring [E].
Qed.
Theorem C74_compose_identity : compose_transform zero3 (V3 1 1 1) (Quat 0 0 0 0) = t_id.
Proof. unfold compose_transform, t_id, zero3. cbn [x3 y3 z3 q_re q_i q_j q_k]. apply T_ext; ring. Qed.
(** Translate post-composes a translation. *)
Theorem C74_translate t d v : affine_t t -> affine_t (t_translate t d) /\ t_apply (t_translate t d) v = add3 (t_apply t v) d.
Proof.
  destruct t as [td00 tx01 tx02 tx03 tx10 td11 tx12 tx13 tx20 tx21 td22 tx23 tx30 tx31 tx32 td33]. cbn [affine_t t_translate]. intros (-> & -> & -> & ->). split; [repeat split|]. unfold t_apply, add3. apply v3_ext; cbn [x3 y3 z3]; field.
Qed.
(** Scale about the zero vector pre-composes the scaling. *)
Theorem C74_scale_partial t f v : affine_t t -> affine_t (t_scale t zero3 f) /\ t_apply (t_scale t zero3 f) v = t_apply t (mul_elem3 f v).
Proof.
  intros A. unfold t_scale. cbn [zero3 x3 y3 z3]. rewrite Reqb_refl. cbn [andb]. destruct t as [td00 tx01 tx02 tx03 tx10 td11 tx12 tx13 tx20 tx21 td22 tx23 tx30 tx31 tx32 td33]. cbn [affine_t t_scale0] in *. destruct A as (-> & -> & -> & ->).
  split; [repeat split; ring|]. unfold t_apply, mul_elem3. apply v3_ext; cbn [x3 y3 z3]; field.
Qed.
(** Missing from the full statement: for a non-zero origin the result ignores the origin ... *)
Theorem C74_scale_ignores_origin t o f : t_scale t o f = t_scale t zero3 f.
Proof.
  unfold t_scale. cbn [zero3 x3 y3 z3]. rewrite Reqb_refl. cbn [andb]. destruct (_ && _)%bool; [reflexivity|].
  destruct t as [td00 tx01 tx02 tx03 tx10 td11 tx12 tx13 tx20 tx21 td22 tx23 tx30 tx31 tx32 td33]. cbn [t_translate t_scale0]. apply T_ext; unfold scale3; cbn [x3 y3 z3]; ring.
Qed.
(** ... so scaling the identity by 2 about (1,0,0) moves (1,0,0), which must stay fixed. *)
Theorem C74_scale_refuted : t_apply (t_scale t_id (V3 1 0 0) (V3 2 2 2)) (V3 1 0 0) = V3 2 0 0.
Proof.
  rewrite C74_scale_ignores_origin, (proj2 (C74_scale_partial t_id (V3 2 2 2) (V3 1 0 0) ltac:(cbn; repeat split))).
  rewrite (proj1 (C74_identity t_id _)). unfold mul_elem3. apply v3_ext; cbn [x3 y3 z3]; ring.
Qed.
Theorem C74_transpose a b : t_transpose (t_transpose a) = a /\ t_transpose (t_mul a b) = t_mul (t_transpose b) (t_transpose a) /\ t_det (t_transpose a) = t_det a.
Proof.
  rewrite !mul_raw. destruct a as [ad00 ax01 ax02 ax03 ax10 ad11 ax12 ax13 ax20 ax21 ad22 ax23 ax30 ax31 ax32 ad33], b as [bd00 bx01 bx02 bx03 bx10 bd11 bx12 bx13 bx20 bx21 bd22 bx23 bx30 bx31 bx32 bd33]. split; [reflexivity|]. split; [cbn [t_transpose raw_mul]; apply T_ext; ring|]. cbn [t_transpose t_det]. ring.
Qed.
Example C74_example :
  let t := T 1 0 0 5 0 0 0 0 0 0 0 0 0 0 0 0 in
  1 / 10 ^ 16 <= Rabs (t_det t) /\ affine_t t /\ t_apply t (V3 1 2 3) = V3 7 2 3 /\ t_apply (t_inv t) (V3 7 2 3) = V3 1 2 3.
Proof.
  cbv zeta. assert (D : t_det (T 1 0 0 5 0 0 0 0 0 0 0 0 0 0 0 0) = 2) by (cbn; ring).
  assert (B : 1 / 10 ^ 16 <= Rabs (t_det (T 1 0 0 5 0 0 0 0 0 0 0 0 0 0 0 0))).
  { rewrite D, Rabs_right by lra. apply (Rmult_le_reg_r (10 ^ 16)); [apply pow_lt; lra|]. unfold Rdiv. rewrite Rmult_assoc, Rinv_l by (apply pow_nonzero; lra).
    assert (1 <= 10 ^ 16) by (apply pow_R1_Rle; lra). lra. }
  assert (A : affine_t (T 1 0 0 5 0 0 0 0 0 0 0 0 0 0 0 0)) by (cbn; repeat split).
  assert (E : t_apply (T 1 0 0 5 0 0 0 0 0 0 0 0 0 0 0 0) (V3 1 2 3) = V3 7 2 3) by (unfold t_apply; apply v3_ext; cbn [x3 y3 z3]; field).
  split; [exact B|]. split; [exact A|]. split; [exact E|]. rewrite <- E. apply (C74_inv _ B). exact A.
Qed.

(** ** C73 *)
Definition non_degenerate (a b c : v3) : Prop := cross3 (sub3 b a) (sub3 c a) <> zero3.
Lemma dot3_comm a b : dot3 a b = dot3 b a.
Proof. unfold dot3. ring. Qed.
Lemma sub3_zero a b : sub3 a b = zero3 -> a = b.
Proof. destruct a, b. unfold sub3, zero3. cbn. intros Q. injection Q as Q1 Q2 Q3. apply v3_ext; cbn; lra. Qed.
Lemma canalis_frame t0 t1 t2 : non_degenerate t0 t1 t2 ->
  exists xc yc zc a b c, norm3sq xc = 1 /\ norm3sq yc = 1 /\ norm3sq zc = 1 /\ dot3 xc yc = 0 /\ dot3 xc zc = 0 /\ dot3 yc zc = 0 /\ zc = cross3 xc yc /\
    0 < a /\ sub3 t1 t0 = scale3 a xc /\ 0 < c /\ sub3 t2 t0 = add3 (scale3 b xc) (scale3 c yc) /\
    affine_t (canalis t0 t1 t2) /\
    t_det (canalis t0 t1 t2) = 1 /\
    forall p, t_apply (canalis t0 t1 t2) p = V3 (dot3 xc (sub3 p t0)) (dot3 yc (sub3 p t0)) (dot3 zc (sub3 p t0)).
Proof.
  intros ND. set (u2 := sub3 t1 t0). set (u3 := sub3 t2 t0).
  assert (N2 : u2 <> zero3). { intros Q. apply ND. fold u2. rewrite Q. unfold cross3, zero3. apply v3_ext; cbn [x3 y3 z3]; ring. }
  set (xc := unit3 u2). assert (X1 : norm3sq xc = 1) by (now apply unit3_norm).
  assert (P2 : 0 < norm3 u2). { destruct (Req_dec (norm3 u2) 0) as [Q|Q]; [exfalso; apply N2; now apply norm3_zero_iff|]. pose proof (sqrt_pos (norm3sq u2)). unfold norm3 in *. lra. }
  assert (U2 : u2 = scale3 (norm3 u2) xc) by (unfold xc, unit3, scale3; apply v3_ext; cbn [x3 y3 z3]; field; lra).
  set (w := sub3 u3 (scale3 (dot3 xc u3) xc)).
  assert (NW : w <> zero3).
  { intros Q. apply ND. fold u2 u3. assert (U3 : u3 = scale3 (dot3 xc u3) xc).
    { apply sub3_zero. exact Q. }
    rewrite U3, U2. unfold cross3, scale3, zero3. apply v3_ext; cbn [x3 y3 z3]; ring. }
  set (yc := unit3 w). assert (Y1 : norm3sq yc = 1) by (now apply unit3_norm).
  assert (PW : 0 < norm3 w). { destruct (Req_dec (norm3 w) 0) as [Q|Q]; [exfalso; apply NW; now apply norm3_zero_iff|]. pose proof (sqrt_pos (norm3sq w)). unfold norm3 in *. lra. }
  assert (W : w = scale3 (norm3 w) yc) by (unfold yc, unit3, scale3; apply v3_ext; cbn [x3 y3 z3]; field; lra).
  assert (XW : dot3 xc w = 0).
  { unfold w. transitivity (dot3 xc u3 * (1 - norm3sq xc)); [unfold dot3 at 1, norm3sq, sub3, scale3; cbn [x3 y3 z3]; unfold dot3; ring|rewrite X1; ring]. }
  assert (XY : dot3 xc yc = 0). { assert (M : norm3 w * dot3 xc yc = 0). { transitivity (dot3 xc (scale3 (norm3 w) yc)); [unfold dot3, scale3; cbn [x3 y3 z3]; ring|]. rewrite <- W. exact XW. } nra. }
  set (zc := cross3 xc yc).
  assert (XZ : dot3 xc zc = 0) by (unfold zc, dot3, cross3; cbn [x3 y3 z3]; ring).
  assert (YZ : dot3 yc zc = 0) by (unfold zc, dot3, cross3; cbn [x3 y3 z3]; ring).
  assert (Z1 : norm3sq zc = 1).
  { transitivity (norm3sq xc * norm3sq yc - dot3 xc yc * dot3 xc yc); [unfold zc, norm3sq, dot3, cross3; cbn [x3 y3 z3]; ring|rewrite X1, Y1, XY; ring]. }
  exists xc, yc, zc, (norm3 u2), (dot3 xc u3), (norm3 w).
  do 6 (split; [assumption|]). split; [reflexivity|]. split; [exact P2|]. split; [exact U2|]. split; [exact PW|].
  split. { rewrite <- W. unfold w, add3, sub3, scale3. apply v3_ext; cbn [x3 y3 z3]; ring. }
  unfold canalis. cbv zeta. fold u2 u3. fold xc. fold w. fold yc. fold zc.
  assert (D : x3 xc * (y3 yc * z3 zc - z3 yc * y3 zc) - y3 xc * (x3 yc * z3 zc - z3 yc * x3 zc) + z3 xc * (x3 yc * y3 zc - y3 yc * x3 zc) = 1).
  { rewrite <- Z1. unfold zc, norm3sq, dot3, cross3. cbn [x3 y3 z3]. ring. }
  clearbody zc yc xc. split; [cbn; repeat split; ring|]. split.
  { etransitivity; [|exact D]. cbn [t_translate t_det]. ring. }
  intros p. cbn [t_translate]. unfold t_apply, scale3, dot3, sub3. apply v3_ext; cbn [x3 y3 z3]; field.
Qed.
Theorem C73_canalis t0 t1 t2 : non_degenerate t0 t1 t2 ->
  let t := canalis t0 t1 t2 in
  (forall p q, dist3 (t_apply t p) (t_apply t q) = dist3 p q) /\ t_det t = 1 /\
  t_apply t t0 = zero3 /\
  (exists a, 0 < a /\ a = dist3 t0 t1 /\ t_apply t t1 = V3 a 0 0) /\
  (exists b c, 0 < c /\ t_apply t t2 = V3 b c 0) /\
  (forall p, t_apply (t_inv t) (t_apply t p) = p /\ t_apply t (t_apply (t_inv t) p) = p).
Proof.
  intros ND t. destruct (canalis_frame t0 t1 t2 ND) as (xc & yc & zc & a & b & c & X1 & Y1 & Z1 & XY & XZ & YZ & ZC & A & U2 & C & U3 & AF & DT & AP). fold t in AF, DT, AP.
  assert (PD : forall v, norm3sq (V3 (dot3 xc v) (dot3 yc v) (dot3 zc v)) = norm3sq v).
  { intros v. transitivity (dot3 xc v * dot3 xc v + dot3 yc v * dot3 yc v + dot3 zc v * dot3 zc v); [unfold norm3sq; reflexivity|].
    (* Lagrange: |v|^2 = (x.v)^2 + (y.v)^2 + ((x cross y).v)^2 for orthonormal x, y *)
    subst zc. clear - X1 Y1 XY. destruct xc as [a b c], yc as [d e f], v as [p q r]. unfold norm3sq, dot3, cross3 in *. cbn [x3 y3 z3] in *.
    transitivity ((p * p + q * q + r * r) * ((a * a + b * b + c * c) * (d * d + e * e + f * f) - (a * d + b * e + c * f) * (a * d + b * e + c * f))
      + (a * p + b * q + c * r) * (a * p + b * q + c * r) * (1 - (d * d + e * e + f * f))
      + (d * p + e * q + f * r) * (d * p + e * q + f * r) * (1 - (a * a + b * b + c * c))
      + 2 * (a * p + b * q + c * r) * (d * p + e * q + f * r) * (a * d + b * e + c * f)); [ring|]. rewrite X1, Y1, XY. ring. }
  split.
  { intros p q. rewrite !AP. unfold dist3, norm3. apply (f_equal sqrt). rewrite <- (PD (sub3 p q)). unfold norm3sq, dot3, sub3. cbn [x3 y3 z3]. ring. }
  split; [exact DT|]. split.
  { rewrite AP. unfold dot3, sub3, zero3. apply v3_ext; cbn [x3 y3 z3]; ring. }
  split.
  { exists a. split; [exact A|]. split.
    - unfold dist3, norm3. replace (norm3sq (sub3 t0 t1)) with (a * a); [now rewrite sqrt_square by lra|].
      transitivity (norm3sq (sub3 t1 t0)); [|unfold norm3sq, dot3, sub3; cbn [x3 y3 z3]; ring]. rewrite U2.
      transitivity (a * a * norm3sq xc); [rewrite X1; ring|]. unfold norm3sq, dot3, scale3. cbn [x3 y3 z3]. ring.
    - rewrite AP, U2. apply v3_ext; cbn [x3 y3 z3].
      + transitivity (a * norm3sq xc); [unfold norm3sq, dot3, scale3; cbn [x3 y3 z3]; ring|rewrite X1; ring].
      + transitivity (a * dot3 xc yc); [unfold dot3, scale3; cbn [x3 y3 z3]; ring|rewrite XY; ring].
      + transitivity (a * dot3 xc zc); [unfold dot3, scale3; cbn [x3 y3 z3]; ring|rewrite XZ; ring]. }
  split.
  { exists b, c. split; [exact C|]. rewrite AP, U3. apply v3_ext; cbn [x3 y3 z3].
    - transitivity (b * norm3sq xc + c * dot3 xc yc); [unfold norm3sq, dot3, scale3, add3; cbn [x3 y3 z3]; ring|rewrite X1, XY; ring].
    - transitivity (b * dot3 xc yc + c * norm3sq yc); [unfold norm3sq, dot3, scale3, add3; cbn [x3 y3 z3]; ring|rewrite Y1, XY; ring].
    - transitivity (b * dot3 xc zc + c * dot3 yc zc); [unfold dot3, scale3, add3; cbn [x3 y3 z3]; ring|rewrite XZ, YZ; ring]. }
  apply C74_inv; [|exact AF]. rewrite DT, Rabs_R1. apply (Rmult_le_reg_r (10 ^ 16)); [apply pow_lt; lra|]. unfold Rdiv. rewrite Rmult_assoc, Rinv_l by (apply pow_nonzero; lra).
  assert (1 <= 10 ^ 16) by (apply pow_R1_Rle; lra). lra.
Qed.
Example C73_example : non_degenerate (V3 1 1 1) (V3 4 1 5) (V3 0 3 1).
Proof. intros Q. unfold cross3, sub3, zero3 in Q. cbn [x3 y3 z3] in Q. injection Q as Q1 Q2 Q3. lra. Qed.
