(** C85: d2.Transform.  C86: numerical normals and differential operators.  C87: vector helpers. *)
From Coq Require Import Reals Lra Lia List Bool Arith ZArith Psatz.
From Verif Require Import Prelude Vec BoxModel SdfModel MatrixModel TransformModel UtilModel OctreeModel OmeshModel Trig PropsBox PropsMatrix PropsUtil MiscModel.
Import ListNotations.
Local Open Scope R_scope.

(** ** C85 *)
Lemma is_identity_true t : is_identity t = true <-> t = identityT.
Proof.
  unfold is_identity, data9, identityT. destruct t as [a b c d e f g h i]. cbn [forallb b00 b01 b02 b10 b11 b12 b20 b21 b22]. rewrite !andb_true_iff, !Reqb_true. split.
  - intros (-> & -> & -> & -> & -> & -> & -> & -> & -> & _). reflexivity.
  - intros H. injection H. intros. subst. repeat split.
Qed.
Lemma not_identity t : t <> identityT -> is_identity t = false.
Proof. intros H. destruct (is_identity t) eqn:E; [|reflexivity]. apply is_identity_true in E. contradiction. Qed.
(** A transform whose last row is (0, 0, 1): a linear map and a translation. *)
Definition affine_t2 (t : m33) : Prop := b20 t = 0 /\ b21 t = 0 /\ b22 t = 1.
Lemma affine_not_id t : affine_t2 t -> t <> identityT.
Proof. intros (_ & _ & H) ->. cbn in H. lra. Qed.
(** ApplyPos is the map that the entries describe, except that the zero transform is the identity map; Mul is
    composition, Add and Scale act entry by entry, TransformIdentity is the identity map on points and boxes. *)
Theorem C85_maps_partial :
  (forall p, apply_pos identityT p = p) /\ (forall b, apply_box identityT b = b) /\
  (forall t p, t <> identityT -> apply_pos t p = mul_pos2 t p) /\
  (forall a b p, affine_t2 a -> affine_t2 b -> affine_t2 (mul_t2 a b) /\ apply_pos (mul_t2 a b) p = apply_pos a (apply_pos b p)) /\
  (forall a b c, mul_t2 (mul_t2 a b) c = mul_t2 a (mul_t2 b c)) /\
  (forall a b i j x y, at2 a i j = Ok x -> at2 b i j = Ok y -> at2 (add_t2 a b) i j = Ok (x + y) /\ forall k, at2 (scale_t2 a k) i j = Ok (x * k)).
Proof.
  assert (ID : is_identity identityT = true) by now apply is_identity_true.
  split; [intros p; unfold apply_pos; now rewrite ID|]. split; [intros b; unfold apply_box; now rewrite ID|].
  assert (AP : forall t p, t <> identityT -> apply_pos t p = mul_pos2 t p) by (intros t p H; unfold apply_pos; now rewrite (not_identity t H)).
  split; [exact AP|]. split; [|split].
  - intros a b p A B. assert (AB : affine_t2 (mul_t2 a b)) by (destruct A as (A0 & A1 & A2), B as (B0 & B1 & B2); unfold affine_t2, mul_t2; cbn; rewrite A0, A1, A2, B0, B1, B2; lra).
    split; [exact AB|]. rewrite !AP by now apply affine_not_id. destruct B as (B0 & B1 & B2). unfold mul_pos2, mul_t2. cbn. rewrite B0, B1, B2. f_equal; ring.
  - intros a b c. unfold mul_t2. cbn. f_equal; ring.
  - intros a b i j x y X Y. unfold at2 in *. set (n := (i * 3 + j)%nat) in *. clearbody n. destruct a, b. do 9 (destruct n as [|n]; [cbn in *; injection X as <-; injection Y as <-; split; reflexivity|]). destruct n; discriminate.
Qed.
(** ApplyBox is the smallest box that encloses the image of the box. *)
Theorem C85_box a b : ok2 b -> ok2 (apply_box a b) /\ (forall p, in2 b p -> in2 (apply_box a b) (apply_pos a p)) /\ forall c, (forall p, in2 b p -> in2 c (apply_pos a p)) -> sub_box2 (apply_box a b) c.
Proof.
  intros OK. destruct (is_identity a) eqn:E.
  - unfold apply_box, apply_pos. rewrite E. split; [exact OK|]. split; [auto|]. intros c H p P. now apply H.
  - assert (BE : apply_box a b = mul_box2 a b) by (unfold apply_box, mul_box2; rewrite E; unfold add2; cbn; f_equal; f_equal; ring). rewrite BE. destruct (C37_mulbox2 a b OK) as (H1 & H2 & H3). unfold apply_pos. rewrite E. split; [exact H1|]. split; [exact H2|exact H3].
Qed.
(** NewTransform keeps the nine numbers in rows, nil gives the identity, and any other length panics; Set changes one entry. *)
Theorem C85_entries :
  (forall l t, new_transform2 (Some l) = Ok t -> forall i j, (i < 3)%nat -> (j < 3)%nat -> at2 t i j = match nth_error l (3 * i + j) with Some v => Ok v | None => Panicked end) /\
  (forall l, (exists t, new_transform2 (Some l) = Ok t) <-> length l = 9%nat) /\ new_transform2 None = Ok identityT /\
  (forall t i j v, (i < 3)%nat -> (j < 3)%nat -> exists t', set2 t i j v = Ok t' /\ forall i' j', (i' < 3)%nat -> (j' < 3)%nat -> at2 t' i' j' = if (i =? i')%nat && (j =? j')%nat then Ok v else at2 t i' j').
Proof.
  split; [|split; [|split; [reflexivity|]]].
  - intros l t E i j I J. do 9 (destruct l as [|? l]; [discriminate|]). destruct l; [|discriminate]. injection E as <-. unfold at2, data9. cbn [b00 b01 b02 b10 b11 b12 b20 b21 b22]. now rewrite (Nat.mul_comm i 3).
  - intros l. split.
    + intros (t & E). do 9 (destruct l as [|? l]; [discriminate|]). destruct l; [reflexivity|discriminate].
    + intros L. do 9 (destruct l as [|? l]; [discriminate|]). destruct l; [|discriminate]. eexists. reflexivity.
  - intros t i j v I J. destruct t. do 3 (destruct i as [|i]; [do 3 (destruct j as [|j]; [eexists; split; [reflexivity|]; intros i' j' I' J'; do 3 (destruct i' as [|i']; [do 3 (destruct j' as [|j']; [reflexivity|]); lia|]); lia|]); lia|]). lia.
Qed.
(** TransformIdentity is not neutral for Mul, and no transform has a determinant or an inverse. *)
Theorem C85_identity_refuted t : mul_t2 identityT t = identityT /\ mul_t2 t identityT = identityT /\ (t <> identityT -> exists p, apply_pos (mul_t2 identityT t) p <> apply_pos t p \/ (forall q, apply_pos t q = q)).
Proof.
  assert (Z1 : mul_t2 identityT t = identityT) by (unfold mul_t2, identityT; cbn; f_equal; ring). assert (Z2 : mul_t2 t identityT = identityT) by (unfold mul_t2, identityT; cbn; f_equal; ring).
  split; [exact Z1|]. split; [exact Z2|]. intros NE. rewrite Z1. destruct (C85_maps_partial) as (I & _ & A & _).
  destruct (Req_dec (b02 t) 0) as [C0|C0]; [destruct (Req_dec (b12 t) 0) as [C1|C1]; [destruct (Req_dec (b00 t) 1) as [C2|C2]; [destruct (Req_dec (b10 t) 0) as [C3|C3]; [destruct (Req_dec (b01 t) 0) as [C4|C4]; [destruct (Req_dec (b11 t) 1) as [C5|C5]|]|]|]|]|].
  - exists zero2. right. intros [x y]. rewrite A by exact NE. unfold mul_pos2. cbn. rewrite C0, C1, C2, C3, C4, C5. f_equal; ring.
  - exists (V2 0 1). left. rewrite I, A by exact NE. unfold mul_pos2. cbn. intros H. injection H. lra.
  - exists (V2 0 1). left. rewrite I, A by exact NE. unfold mul_pos2. cbn. intros H. injection H. lra.
  - exists (V2 1 0). left. rewrite I, A by exact NE. unfold mul_pos2. cbn. intros H. injection H. lra.
  - exists (V2 1 0). left. rewrite I, A by exact NE. unfold mul_pos2. cbn. intros H. injection H. lra.
  - exists (V2 0 0). left. rewrite I, A by exact NE. unfold mul_pos2. cbn. intros H. injection H. lra.
  - exists (V2 0 0). left. rewrite I, A by exact NE. unfold mul_pos2. cbn. intros H. injection H. lra.
Qed.
Theorem C85_inverse_refuted t : determinant t = Panicked /\ inverse_t2 t = Panicked.
Proof. assert (D : determinant t = Panicked) by reflexivity. split; [exact D|]. unfold inverse_t2. now rewrite D. Qed.
(** A turn by a right angle followed by a move. *)
Example C85_example : affine_t2 (M33 0 (-1) 5 1 0 7 0 0 1) /\ apply_pos (mul_t2 (M33 1 0 2 0 1 3 0 0 1) (M33 0 (-1) 5 1 0 7 0 0 1)) (V2 1 2) = V2 5 11 /\ ok2 (Box2 (V2 0 0) (V2 1 2)).
Proof.
  destruct C85_maps_partial as (_ & _ & A & M & _). split; [repeat split|]. split; [|unfold ok2; cbn; lra].
  rewrite (proj2 (M (M33 1 0 2 0 1 3 0 0 1) (M33 0 (-1) 5 1 0 7 0 0 1) (V2 1 2) ltac:(repeat split) ltac:(repeat split))). rewrite !A by (apply affine_not_id; repeat split). unfold mul_pos2. cbn. f_equal; ring.
Qed.

(** ** C86 *)
Lemma normal3_gradient f p eps : normal3 f p eps = if Reqb (norm3 (gradient p eps f)) 0 then None else Some (unit3 (gradient p eps f)).
Proof. reflexivity. Qed.
Lemma unit3_norm v : norm3 v <> 0 -> norm3 (unit3 v) = 1.
Proof. intros H. unfold unit3. rewrite norm3_scale. assert (0 <= norm3 v) by apply sqrt_pos. rewrite Rabs_right; [field; exact H|]. apply Rle_ge. unfold Rdiv. rewrite Rmult_1_l. left. apply Rinv_0_lt_compat. lra. Qed.
Lemma unit2_norm v : norm2 v <> 0 -> norm2 (unit2 v) = 1.
Proof. intros H. unfold unit2. rewrite norm2_scale. assert (0 <= norm2 v) by apply sqrt_pos. rewrite Rabs_right; [field; exact H|]. apply Rle_ge. unfold Rdiv. rewrite Rmult_1_l. left. apply Rinv_0_lt_compat. lra. Qed.
(** A normal has length one; on a half space it is the normal of the plane, wherever and with whatever step it is taken. *)
Theorem C86_normal3 f p eps : (forall n, normal3 f p eps = Some n -> norm3 n = 1) /\
  forall n h, 0 < eps -> norm3 n = 1 -> (forall q, f q = dot3 n q - h) -> normal3 f p eps = Some n.
Proof.
  split.
  - intros n. rewrite normal3_gradient. destruct (Reqb_spec (norm3 (gradient p eps f)) 0) as [Z|Z]; [discriminate|]. intros H. injection H as <-. now apply unit3_norm.
  - intros n h E N F. rewrite normal3_gradient. assert (G : gradient p eps f = scale3 (2 * eps) n) by (unfold gradient; rewrite !F; unfold dot3, add3, scale3; cbn; f_equal; ring). rewrite G.
    assert (NG : norm3 (scale3 (2 * eps) n) = 2 * eps) by (rewrite norm3_scale, N, Rabs_right; lra). rewrite NG. rewrite (proj2 (Reqb_false _ _)) by lra. f_equal. unfold unit3. rewrite NG. unfold scale3. destruct n as [a b c]. cbn. f_equal; field; lra.
Qed.
Theorem C86_normal2 f p eps : (forall n, normal2 f p eps = Some n -> norm2 n = 1) /\
  forall n h, 0 < eps -> norm2 n = 1 -> (forall q, f q = dot2 n q - h) -> normal2 f p eps = Some n.
Proof.
  unfold normal2. set (g := V2 _ _). split.
  - intros n. destruct (Reqb_spec (norm2 g) 0) as [Z|Z]; [discriminate|]. intros H. injection H as <-. now apply unit2_norm.
  - intros n h E N F. assert (G : g = scale2 (2 * eps) n) by (unfold g; rewrite !F; unfold dot2, add2, scale2; cbn; f_equal; ring). clearbody g. subst g.
    assert (NG : norm2 (scale2 (2 * eps) n) = 2 * eps) by (rewrite norm2_scale, N, Rabs_right; lra). rewrite NG. rewrite (proj2 (Reqb_false _ _)) by lra. f_equal. unfold unit2. rewrite NG. unfold scale2. destruct n as [a b]. cbn. f_equal; field; lra.
Qed.
(** The central difference tends to the derivative. *)
Lemma central_difference (g : R -> R) a : derivable_pt_lim g 0 a -> forall e, 0 < e -> exists d, 0 < d /\ forall h, 0 < h < d -> Rabs ((g h - g (- h)) / (2 * h) - a) < e.
Proof.
  intros D e E. destruct (D e E) as (d & L). exists d. split; [apply cond_pos|]. intros h (H0 & H1).
  assert (A1 := L h ltac:(lra) ltac:(rewrite Rabs_right; lra)). assert (A2 := L (- h) ltac:(lra) ltac:(rewrite Rabs_Ropp, Rabs_right; lra)). rewrite Rplus_0_l in A1, A2.
  replace ((g h - g (- h)) / (2 * h) - a) with (1 / 2 * (((g h - g 0) / h - a) + ((g (- h) - g 0) / - h - a))) by (field; lra).
  rewrite Rabs_mult, (Rabs_right (1 / 2)) by lra. pose proof (Rabs_triang ((g h - g 0) / h - a) ((g (- h) - g 0) / - h - a)). lra.
Qed.
(** For a field with partial derivatives, gradient (not divided by twice the step) tends to them; for a field that
    changes no faster than the distance, its components are at most twice the step. *)
Theorem C86_gradient f p a b c :
  derivable_pt_lim (fun t => f (add3 p (V3 t 0 0))) 0 a -> derivable_pt_lim (fun t => f (add3 p (V3 0 t 0))) 0 b -> derivable_pt_lim (fun t => f (add3 p (V3 0 0 t))) 0 c ->
  forall e, 0 < e -> exists d, 0 < d /\ forall tol, 0 < tol < d -> let g := gradient p tol f in
    Rabs (x3 g / (2 * tol) - a) < e /\ Rabs (y3 g / (2 * tol) - b) < e /\ Rabs (z3 g / (2 * tol) - c) < e.
Proof.
  intros DA DB DC e E. destruct (central_difference _ _ DA e E) as (d1 & P1 & L1). destruct (central_difference _ _ DB e E) as (d2 & P2 & L2). destruct (central_difference _ _ DC e E) as (d3 & P3 & L3).
  exists (Rmin d1 (Rmin d2 d3)). split; [rmm; lra|]. intros tol T. assert (T1 : tol < d1 /\ tol < d2 /\ tol < d3) by (revert T; rmm; lra). cbv zeta. unfold gradient. cbn [x3 y3 z3]. split; [|split]; [apply L1|apply L2|apply L3]; lra.
Qed.
Theorem C86_lipschitz f p tol : (forall u v, Rabs (f u - f v) <= dist3 u v) -> 0 <= tol -> let g := gradient p tol f in Rabs (x3 g) <= 2 * tol /\ Rabs (y3 g) <= 2 * tol /\ Rabs (z3 g) <= 2 * tol.
Proof.
  intros L T. cbv zeta. assert (N : forall u v, norm3sq (sub3 u v) = (2 * tol) * (2 * tol) -> Rabs (f u - f v) <= 2 * tol) by (intros u v H; eapply Rle_trans; [apply L|]; unfold dist3, norm3; rewrite H, sqrt_square; lra).
  unfold gradient. cbn [x3 y3 z3]. split; [|split]; apply N; unfold norm3sq, dot3, sub3, add3; cbn; ring.
Qed.
(** divergence of a linear field is its trace times twice the step. *)
Theorem C86_divergence_linear p tol f a : (forall q, f q = mul_pos3 a q) -> divergence p tol f = 2 * tol * (a00 a + a11 a + a22 a).
Proof. intros F. unfold divergence. rewrite !F. unfold mul_pos3, sub3, add3. cbn. ring. Qed.
(** laplacian is 0 for every field, because the inner gradient is taken at the outer point; for the squared distance
    from the origin the divergence of the gradient is not. *)
Theorem C86_laplacian_refuted : (forall p tol f, laplacian p tol f = 0) /\
  forall p tol, 0 < tol -> divergence p tol (fun v => gradient v tol norm3sq) = 24 * (tol * tol) /\ 24 * (tol * tol) <> 0.
Proof.
  split.
  - intros p tol f. unfold laplacian, divergence, sub3. cbn. ring.
  - intros p tol T. split; [|nra]. unfold divergence, gradient, norm3sq, dot3, sub3, add3. cbn. ring.
Qed.
Example C86_example : norm3 (V3 (3/5) 0 (4/5)) = 1 /\ normal3 (fun q => dot3 (V3 (3/5) 0 (4/5)) q - 2) (V3 1 2 3) (1/1000) = Some (V3 (3/5) 0 (4/5)) /\ derivable_pt_lim (fun t => norm3sq (add3 zero3 (V3 t 0 0))) 0 0.
Proof.
  assert (N : norm3 (V3 (3/5) 0 (4/5)) = 1). { unfold norm3. replace (norm3sq (V3 (3/5) 0 (4/5))) with (1 * 1) by (unfold norm3sq, dot3; cbn; field). apply sqrt_square. lra. }
  split; [exact N|]. split.
  - apply (proj2 (C86_normal3 _ (V3 1 2 3) (1/1000)) _ 2); [lra|exact N|reflexivity].
  - intros e E. exists (mkposreal e E). intros h H L. unfold norm3sq, dot3, add3, zero3. cbn. cbn in L. replace (_ / h - 0) with h by (field; exact H). exact L.
Qed.

(** ** C87 *)
Lemma truncR_spec x : (0 <= x -> IZR (truncR x) <= x < IZR (truncR x) + 1) /\ (x < 0 -> IZR (truncR x) - 1 < x <= IZR (truncR x)).
Proof.
  unfold truncR. split; intros H; [rewrite (proj2 (Rltb_false x 0)) by lra|rewrite (proj2 (Rltb_true x 0)), opp_IZR by lra]; [pose proof (base_Int_part x)|pose proof (base_Int_part (- x))]; lra.
Qed.
Lemma truncR_IZR n : truncR (IZR n) = n.
Proof.
  destruct (truncR_spec (IZR n)) as (P & Q). destruct (Rle_lt_dec 0 (IZR n)) as [H|H].
  - destruct (P H) as (A & B). apply le_IZR in A. rewrite <- plus_IZR in B. apply lt_IZR in B. lia.
  - destruct (Q H) as (A & B). apply le_IZR in B. rewrite <- minus_IZR in A. apply lt_IZR in A. lia.
Qed.
(** Conversions: integers survive the round trip; a float is moved towards zero by less than one. *)
Theorem C87_conversions :
  (forall a, r3_to_i (r3_from_i a) = a) /\ (forall a, r2_to_i (r2_from_i a) = a) /\ (forall a, v3i_to_v3 a = r3_from_i a) /\
  (forall v, let w := r3_from_i (r3_to_i v) in Rabs (x3 w) <= Rabs (x3 v) < Rabs (x3 w) + 1 /\ Rabs (y3 w) <= Rabs (y3 v) < Rabs (y3 w) + 1 /\ Rabs (z3 w) <= Rabs (z3 v) < Rabs (z3 w) + 1 /\ 0 <= x3 v * x3 w /\ 0 <= y3 v * y3 w /\ 0 <= z3 v * z3 w) /\
  (forall v, let w := r2_from_i (r2_to_i v) in Rabs (x2 w) <= Rabs (x2 v) < Rabs (x2 w) + 1 /\ Rabs (y2 w) <= Rabs (y2 v) < Rabs (y2 w) + 1 /\ 0 <= x2 v * x2 w /\ 0 <= y2 v * y2 w).
Proof.
  assert (T : forall x, Rabs (IZR (truncR x)) <= Rabs x < Rabs (IZR (truncR x)) + 1 /\ 0 <= x * IZR (truncR x)).
  { intros x. destruct (truncR_spec x) as (P & Q). destruct (Rle_lt_dec 0 x) as [H|H].
    - destruct (P H) as (A & B). assert (Z0 : 0 <= IZR (truncR x)). { apply (IZR_le 0). assert (-1 < truncR x)%Z; [|lia]. apply lt_IZR. lra. } rewrite !Rabs_right by lra. split; [lra|nra].
    - destruct (Q H) as (A & B). assert (Z0 : IZR (truncR x) <= 0). { apply (IZR_le _ 0). assert (truncR x < 1)%Z; [|lia]. apply lt_IZR. lra. } rewrite !Rabs_left1 by lra. split; [lra|nra]. }
  split; [intros [a b c]; unfold r3_to_i, r3_from_i; cbn; now rewrite !truncR_IZR|]. split; [intros [a b]; unfold r2_to_i, r2_from_i; cbn; now rewrite !truncR_IZR|]. split; [reflexivity|]. split.
  - intros v. cbv zeta. unfold r3_from_i, r3_to_i. cbn [x3 y3 z3 vx vy vz]. pose proof (T (x3 v)). pose proof (T (y3 v)). pose proof (T (z3 v)). tauto.
  - intros v. cbv zeta. unfold r2_from_i, r2_to_i. cbn [x2 y2 ux uy]. pose proof (T (x2 v)). pose proof (T (y2 v)). tauto.
Qed.
(** Integer vectors: adding and subtracting a scalar undo each other and agree with the real vectors. *)
Theorem C87_integers a b u v n :
  v3i_sub_scalar (v3i_add_scalar a n) n = a /\ v3i_add_scalar (v3i_sub_scalar a n) n = a /\ v3i_to_v3 (v3i_add a b) = add3 (v3i_to_v3 a) (v3i_to_v3 b) /\
  v3i_to_v3 (v3i_add_scalar a n) = add3 (v3i_to_v3 a) (elem3 (IZR n)) /\ v3i_to_v3 (v3i_sub_scalar a n) = sub3 (v3i_to_v3 a) (elem3 (IZR n)) /\
  v2i_sub_scalar (v2i_add_scalar u n) n = u /\ v2i_add_scalar (v2i_sub_scalar u n) n = u /\ r2_from_i (v2i_add u v) = add2 (r2_from_i u) (r2_from_i v) /\
  r2_from_i (v2i_add_scalar u n) = add2 (r2_from_i u) (elem2 (IZR n)) /\ r2_from_i (v2i_sub_scalar u n) = sub2 (r2_from_i u) (elem2 (IZR n)).
Proof.
  destruct a as [a1 a2 a3], b as [d1 d2 d3], u as [u1 u2], v as [w1 w2]. unfold v3i_sub_scalar, v3i_add_scalar, v3i_to_v3, v3i_add, v2i_sub_scalar, v2i_add_scalar, v2i_add, r2_from_i, add3, sub3, elem3, add2, sub2, elem2. cbn [vx vy vz ux uy x3 y3 z3 x2 y2]. rewrite ?plus_IZR, ?minus_IZR.
  repeat split; f_equal; lia.
Qed.
(** sign, ceiling and clamping. *)
Theorem C87_scalars x a b c d :
  sign x * Rabs x = x /\ (sign x = 1 <-> 0 < x) /\ (sign x = -1 <-> x < 0) /\ (sign x = 0 <-> x = 0) /\
  (exists n, ceilR x = IZR n) /\ x <= ceilR x < x + 1 /\
  (x3 a <= x3 b -> y3 a <= y3 b -> z3 a <= z3 b -> forall v, in3 (Box3 a b) (clamp3 v a b) /\ (in3 (Box3 a b) v -> clamp3 v a b = v) /\ forall w, in3 (Box3 a b) w -> dist3 v (clamp3 v a b) <= dist3 v w) /\
  (x2 c <= x2 d -> y2 c <= y2 d -> forall v, in2 (Box2 c d) (clamp2 v c d) /\ (in2 (Box2 c d) v -> clamp2 v c d = v) /\ forall w, in2 (Box2 c d) w -> dist2 v (clamp2 v c d) <= dist2 v w).
Proof.
  assert (CL : forall x a b w, a <= b -> a <= w <= b -> (x - clampR x a b) * (x - clampR x a b) <= (x - w) * (x - w)) by
    (intros y a1 b1 w H W; unfold clampR; destruct (Rle_lt_dec y a1) as [L|L]; [rewrite (Rmax_right y a1), Rmin_right by lra; assert (0 <= (w - a1) * (w - y + (a1 - y))) by (apply Rmult_le_pos; lra); lra|];
     rewrite (Rmax_left y a1) by lra; destruct (Rle_lt_dec y b1) as [M|M]; [rewrite Rmin_right by lra; replace ((y - y) * (y - y)) with 0 by ring; apply Rle_0_sqr|rewrite Rmin_left by lra; assert (0 <= (b1 - w) * (y - w + (y - b1))) by (apply Rmult_le_pos; lra); lra]).
  split; [unfold sign; destruct (Rltb_spec x 0); [rewrite Rabs_left by lra; lra|]; destruct (Rltb_spec 0 x); [rewrite Rabs_right by lra; lra|]; lra|].
  assert (SG : (x < 0 /\ sign x = -1) \/ (x = 0 /\ sign x = 0) \/ (0 < x /\ sign x = 1)) by (unfold sign; destruct (Rltb_spec x 0); [left; auto|]; destruct (Rltb_spec 0 x); [right; right; auto|right; left; split; [lra|reflexivity]]).
  split; [destruct SG as [(? & ?)|[(? & ?)|(? & ?)]]; split; intros; lra|]. split; [destruct SG as [(? & ?)|[(? & ?)|(? & ?)]]; split; intros; lra|]. split; [destruct SG as [(? & ?)|[(? & ?)|(? & ?)]]; split; intros; lra|]. split; [unfold ceilR, floorR; eexists; rewrite <- opp_IZR; reflexivity|]. split; [unfold ceilR, floorR; pose proof (base_Int_part (- x)); lra|]. split.
  - intros HX HY HZ v. split; [unfold in3, clamp3, clampR; cbn; repeat split; rmm; lra|]. split.
    + intros (I1 & I2 & I3). cbn in I1, I2, I3. destruct v as [v1 v2 v3]. unfold clamp3, clampR. cbn in *. f_equal; rmm; lra.
    + intros w (W1 & W2 & W3). cbn in W1, W2, W3. apply sqrt_le_1_alt. unfold norm3sq, dot3, sub3, clamp3. cbn. pose proof (CL (x3 v) _ _ _ HX W1). pose proof (CL (y3 v) _ _ _ HY W2). pose proof (CL (z3 v) _ _ _ HZ W3). lra.
  - intros HX HY v. split; [unfold in2, clamp2, clampR; cbn; repeat split; rmm; lra|]. split.
    + intros (I1 & I2). cbn in I1, I2. destruct v as [v1 v2]. unfold clamp2, clampR. cbn in *. f_equal; rmm; lra.
    + intros w (W1 & W2). cbn in W1, W2. apply sqrt_le_1_alt. unfold norm2sq, dot2, sub2, clamp2. cbn. pose proof (CL (x2 v) _ _ _ HX W1). pose proof (CL (y2 v) _ _ _ HY W2). lra.
Qed.
(** Polar coordinates: the round trip from the plane is exact; from polar coordinates it is for positive radii and
    angles in the principal range. *)
Theorem C87_ceil : (forall a, exists n, ceil3 a = r3_from_i n /\ x3 a <= x3 (ceil3 a) < x3 a + 1 /\ y3 a <= y3 (ceil3 a) < y3 a + 1 /\ z3 a <= z3 (ceil3 a) < z3 a + 1) /\
  (forall a, exists n, ceil2 a = r2_from_i n /\ x2 a <= x2 (ceil2 a) < x2 a + 1 /\ y2 a <= y2 (ceil2 a) < y2 a + 1).
Proof.
  assert (G : forall x, exists n, ceilR x = IZR n /\ x <= ceilR x < x + 1) by (intros x; destruct (C87_scalars x zero3 zero3 zero2 zero2) as (_ & _ & _ & _ & (n & E) & B & _); now exists n).
  split.
  - intros [a b c]. destruct (G a) as (i & E1 & B1), (G b) as (j & E2 & B2), (G c) as (k & E3 & B3). exists (V3I i j k). unfold ceil3, r3_from_i. cbn [x3 y3 z3 vx vy vz]. rewrite E1, E2, E3 in *. auto.
  - intros [a b]. destruct (G a) as (i & E1 & B1), (G b) as (j & E2 & B2). exists (V2I i j). unfold ceil2, r2_from_i. cbn [x2 y2 ux uy]. rewrite E1, E2 in *. auto.
Qed.
Theorem C87_polar : (forall v, let '(r, t) := cartesian_to_polar v in polar_to_cartesian r t = v /\ 0 <= r /\ - PI < t <= PI) /\
  (forall r t, 0 < r -> - PI < t <= PI -> cartesian_to_polar (polar_to_cartesian r t) = (r, t)).
Proof.
  split.
  - intros v. unfold cartesian_to_polar, polar_to_cartesian. rewrite norm2_hypot. destruct (atan2_polar (y2 v) (x2 v)) as (A & B). split; [rewrite <- A, <- B; now destruct v|]. split; [apply hypot_nonneg|apply atan2_range].
  - intros r t H0 T. unfold cartesian_to_polar, polar_to_cartesian. rewrite norm2_hypot. cbn [x2 y2]. rewrite hypot_polar by lra. now rewrite atan2_unique.
Qed.
Lemma all_within_true tol a b : length a = length b -> (all_within tol a b = true <-> forall i x y, nth_error a i = Some x -> nth_error b i = Some y -> Rabs (x - y) < tol).
Proof.
  unfold all_within. revert b. induction a as [|x a IH]; intros [|y b] L; try discriminate; cbn [combine forallb]; [split; [intros _ [|i] ? ?; discriminate|reflexivity]|]. injection L as L. rewrite andb_true_iff, (IH b L), Rltb_true. cbn [fst snd]. split.
  - intros (H0 & H) [|i] u v U V; [injection U as <-; injection V as <-; exact H0|exact (H i u v U V)].
  - intros H. split; [exact (H 0%nat x y eq_refl eq_refl)|]. intros i u v U V. exact (H (S i) u v U V).
Qed.
(** The matrix comparisons compare all entries. *)
Theorem C87_equals tol :
  (forall a b, m44_equals a b tol = true <-> Forall (fun f => Rabs (f a - f b) < tol) [a00; a01; a02; a03; a10; a11; a12; a13; a20; a21; a22; a23; a30; a31; a32; a33]) /\
  (forall a b, m33_equals a b tol = true <-> Forall (fun f => Rabs (f a - f b) < tol) [b00; b01; b02; b10; b11; b12; b20; b21; b22]) /\
  (forall a b, m22_equals a b tol = true <-> Forall (fun f => Rabs (f a - f b) < tol) [c00; c01; c10; c11]) /\
  (forall a b, t_equals a b tol = true <-> all_within tol (slice_copy a) (slice_copy b) = true) /\
  (forall l m, length l = length m -> (all_within tol l m = true <-> forall i x y, nth_error l i = Some x -> nth_error m i = Some y -> Rabs (x - y) < tol)).
Proof.
  split; [|split; [|split; [|split; [|exact (all_within_true tol)]]]]; intros a b.
  1-3: unfold m44_equals, m33_equals, m22_equals, all_within, entries44, data9, entries22; cbn [combine forallb fst snd]; rewrite ?andb_true_iff, ?Rltb_true, ?Forall_cons_iff; intuition auto.
  destruct a as [d00 x01 x02 x03 x10 d11 x12 x13 x20 x21 d22 x23 x30 x31 x32 d33], b as [e00 y01 y02 y03 y10 e11 y12 y13 y20 y21 e22 y23 y30 y31 y32 e33]. unfold t_equals, all_within, entries_t, slice_copy. cbn [combine forallb fst snd a00 a01 a02 a03 a10 a11 a12 a13 a20 a21 a22 a23 a30 a31 a32 a33].
  replace (d00 + 1 - (e00 + 1)) with (d00 - e00) by ring. replace (d11 + 1 - (e11 + 1)) with (d11 - e11) by ring. replace (d22 + 1 - (e22 + 1)) with (d22 - e22) by ring. replace (d33 + 1 - (e33 + 1)) with (d33 - e33) by ring. reflexivity.
Qed.
(** Random points lie in the box, and RandomSet returns as many as asked for; mulVertices transforms every vertex in place. *)
Theorem C87_sets :
  (forall b r s t, ok3 b -> 0 <= r < 1 -> 0 <= s < 1 -> 0 <= t < 1 -> in3 b (random3 b r s t)) /\
  (forall b r s, ok2 b -> 0 <= r < 1 -> 0 <= s < 1 -> in2 b (random2 b r s)) /\
  (forall b rs, ok3 b -> Forall (fun e => let '(r, s, t) := e in 0 <= r < 1 /\ 0 <= s < 1 /\ 0 <= t < 1) rs -> length (random_set3 b rs) = length rs /\ Forall (in3 b) (random_set3 b rs)) /\
  (forall v a i p, nth_error v i = Some p -> nth_error (mul_vertices3 v a) i = Some (mul_pos3 a p)) /\ (forall v a, length (mul_vertices3 v a) = length v) /\
  (forall v a i p, nth_error v i = Some p -> nth_error (mul_vertices2 v a) i = Some (mul_pos2 a p)) /\ (forall v a, length (mul_vertices2 v a) = length v).
Proof.
  assert (RR : forall a b r, a <= b -> 0 <= r < 1 -> a <= random_range a b r <= b) by (intros a b r H H1; unfold random_range; nra).
  assert (R3 : forall b r s t, ok3 b -> 0 <= r < 1 -> 0 <= s < 1 -> 0 <= t < 1 -> in3 b (random3 b r s t)) by (intros b r s t (X & Y & Z) H1 H2 H3; unfold in3, random3; cbn; repeat split; now apply RR).
  split; [exact R3|]. split; [intros b r s (X & Y) H1 H2; unfold in2, random2; cbn; repeat split; now apply RR|]. split.
  - intros b rs OK F. unfold random_set3. split; [apply map_length|]. rewrite Forall_map. eapply Forall_impl; [|exact F]. intros [[r s] t] (H1 & H2 & H3). now apply R3.
  - unfold mul_vertices3, mul_vertices2. split; [intros v a i p N; now rewrite nth_error_map, N|]. split; [intros; apply map_length|]. split; [intros v a i p N; now rewrite nth_error_map, N|intros; apply map_length].
Qed.
Example C87_example : r3_to_i (V3 (5/2) (-5/2) 0) = V3I 2 (-2) 0 /\ m22_equals (M22 1 2 3 4) (M22 1 2 3 (4 + 1/10)) (1/5) = true /\ ok3 (Box3 (V3 0 0 0) (V3 1 2 3)).
Proof.
  split; [|split].
  - unfold r3_to_i. cbn [x3 y3 z3]. f_equal.
    + destruct (truncR_spec (5/2)) as (P & _). destruct (P ltac:(lra)) as (A & B). assert (truncR (5/2) < 3)%Z by (apply lt_IZR; lra). assert (1 < truncR (5/2))%Z by (apply lt_IZR; lra). lia.
    + destruct (truncR_spec (-5/2)) as (_ & Q). destruct (Q ltac:(lra)) as (A & B). assert (truncR (-5/2) < -1)%Z by (apply lt_IZR; lra). assert (-3 < truncR (-5/2))%Z by (apply lt_IZR; lra). lia.
    + exact (truncR_IZR 0).
  - apply (proj1 (proj2 (proj2 (C87_equals (1/5))))). apply Forall_forall. intros f I. cbn in I. repeat destruct I as [<-|I]; try contradiction; cbn; unfold Rabs; destruct (Rcase_abs _); lra.
  - unfold ok3. cbn. lra.
Qed.
