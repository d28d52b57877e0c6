(** C44-C48: arrays, rotated copies, elongation, cuts, slices, placed copies. *)
From Coq Require Import Reals Lra Lia List Bool ZArith.
From Verif Require Import Prelude Vec BoxModel MatrixModel PropsBox PropsMatrix SdfModel SdfLemmas PropsBool Trig
  Grades GradesOps GradesSweep GradesCopy GradesRest Distance PrimModel PrimCores PropsPrim BlendModel PropsUnion2 PropsSweep.
Import ListNotations.
Local Open Scope R_scope.

(** ** C44: arrays *)
Lemma INR_of_Z j : (0 <= j)%Z -> INR (Z.to_nat j) = IZR j.
Proof. intros J. rewrite INR_IZR_INZ, Z2Nat.id by lia. reflexivity. Qed.
Theorem C44_array3 s n0 n1 n2 step p :
  (ev3 (array3d s n0 n1 n2 step) p < 0 <->
    exists j k l, (0 <= j < n0)%Z /\ (0 <= k < n1)%Z /\ (0 <= l < n2)%Z /\
      ev3 s (V3 (x3 p - IZR j * x3 step) (y3 p - IZR k * y3 step) (z3 p - IZR l * z3 step)) < 0) /\
  ((forall q, ev3 s q < 0 -> in3 (bb3 s) q) -> ev3 (array3d s n0 n1 n2 step) p < 0 -> in3 (bb3 (array3d s n0 n1 n2 step)) p).
Proof.
  pose proof max_float64_pos as M. split.
  - unfold array3d, array3d_min. destruct ((n0 <=? 0) || (n1 <=? 0) || (n2 <=? 0))%Z eqn:N.
    + cbn [ev3 empty3_from empty3]. split; [lra|]. intros (j & k & l & J & K & L & _). rewrite !orb_true_iff, !Z.leb_le in N. lia.
    + cbn [ev3]. rewrite array3_eval_fold. rewrite (proj1 (fold_max_sign _ _)). split.
      * intros (o & O & V). apply in_offsets3 in O. destruct O as (j & k & l & J & K & L & ->).
        exists (Z.of_nat j), (Z.of_nat k), (Z.of_nat l). rewrite <- !INR_IZR_INZ. split; [lia|]. split; [lia|]. split; [lia|exact V].
      * intros (j & k & l & J & K & L & V). eexists. split; [apply in_offsets3; exists (Z.to_nat j), (Z.to_nat k), (Z.to_nat l); split; [lia|]; split; [lia|]; split; [lia|reflexivity]|].
        rewrite !INR_of_Z by lia. exact V.
  - intros D. apply (dom3_contain Contain max_float64); [|exact M]. apply dom3_array; [lra|]. apply dom3_contain_iff; auto.
Qed.
Theorem C44_array2 s n0 n1 step p :
  (ev2 (array2d s n0 n1 step) p < 0 <->
    exists j k, (0 <= j < n0)%Z /\ (0 <= k < n1)%Z /\
      ev2 s (V2 (x2 p - IZR j * x2 step) (y2 p - IZR k * y2 step)) < 0) /\
  ((forall q, ev2 s q < 0 -> in2 (bb2 s) q) -> ev2 (array2d s n0 n1 step) p < 0 -> in2 (bb2 (array2d s n0 n1 step)) p).
Proof.
  pose proof max_float64_pos as M. split.
  - unfold array2d, array2d_min. destruct ((n0 <=? 0) || (n1 <=? 0))%Z eqn:N.
    + cbn [ev2 empty2_from empty2]. split; [lra|]. intros (j & k & J & K & _). rewrite !orb_true_iff, !Z.leb_le in N. lia.
    + cbn [ev2]. rewrite array2_eval_fold. rewrite (proj1 (fold_max_sign _ _)). split.
      * intros (o & O & V). apply in_offsets2 in O. destruct O as (j & k & J & K & ->).
        exists (Z.of_nat j), (Z.of_nat k). rewrite <- !INR_IZR_INZ. split; [lia|]. split; [lia|exact V].
      * intros (j & k & J & K & V). eexists. split; [apply in_offsets2; exists (Z.to_nat j), (Z.to_nat k); split; [lia|]; split; [lia|reflexivity]|].
        rewrite !INR_of_Z by lia. exact V.
  - intros D. apply (dom2_contain Contain max_float64); [|exact M]. apply dom2_array; [lra|]. apply dom2_contain_iff; auto.
Qed.
(** ** C44: rotated unions.  The copies are the images of the shape under 0, 1, ..., n-1
    applications of the step. *)
Theorem C44_rotate_union3 s n step s' p : affine3 step -> det44 step <> 0 -> rotate_union3d s n step = Ok s' ->
  (ev3 s' p < 0 <-> exists i q, (Z.of_nat i < n)%Z /\ p = Nat.iter i (mul_pos3 step) q /\ ev3 s q < 0) /\
  ((forall q, ev3 s q < 0 -> in3 (bb3 s) q) -> ev3 s' p < 0 -> in3 (bb3 s') p).
Proof.
  intros A D E. pose proof max_float64_pos as M. split.
  - destruct (Z.leb_spec n 0) as [N|N].
    + unfold rotate_union3d, rotate_union3d_min in E. rewrite (proj2 (Z.leb_le n 0) N) in E. inversion E. cbn [ev3 empty3_from empty3].
      split; [lra|]. intros (i & q & I & _). lia.
    + destruct (rotate_union3d_ok s n step s' N E) as (b & -> & _). cbn [ev3]. rewrite ru_eval3_fold by (now apply affine3_inverse).
      rewrite (proj1 (fold_max_sign _ _)). split.
      * intros (i & I & V). rewrite identity_pos3 in V. apply in_seq in I. exists i. eexists. split; [lia|]. split; [|exact V].
        symmetry. apply (placed3_inv step i p A D).
      * intros (i & q & I & P & V). exists i. split; [apply in_seq; lia|]. rewrite identity_pos3, P. change (Nat.iter i (mul_pos3 step) q) with (placed3 step i q).
        destruct (placed3_inv step i q A D) as (R & _). rewrite R. exact V.
  - intros C V. revert V. apply (dom3_contain Contain max_float64); [|exact M]. eapply dom3_rotate_union; eauto; try discriminate; try lra.
    apply dom3_contain_iff; auto.
Qed.
Theorem C44_rotate_union2 s n step s' p : affine2 step -> det33 step <> 0 -> rotate_union2d s n step = Ok s' ->
  (ev2 s' p < 0 <-> exists i q, (Z.of_nat i < n)%Z /\ p = Nat.iter i (mul_pos2 step) q /\ ev2 s q < 0) /\
  ((forall q, ev2 s q < 0 -> in2 (bb2 s) q) -> ev2 s' p < 0 -> in2 (bb2 s') p).
Proof.
  intros A D E. pose proof max_float64_pos as M. split.
  - destruct (Z.leb_spec n 0) as [N|N].
    + unfold rotate_union2d, rotate_union2d_min in E. rewrite (proj2 (Z.leb_le n 0) N) in E. inversion E. cbn [ev2 empty2_from empty2].
      split; [lra|]. intros (i & q & I & _). lia.
    + destruct (rotate_union2d_ok s n step s' N E) as (b & -> & _). cbn [ev2]. rewrite ru_eval2_fold by (now apply affine2_inverse).
      rewrite (proj1 (fold_max_sign _ _)). split.
      * intros (i & I & V). rewrite identity_pos2 in V. apply in_seq in I. exists i. eexists. split; [lia|]. split; [|exact V].
        symmetry. apply (placed2_inv step i p A D).
      * intros (i & q & I & P & V). exists i. split; [apply in_seq; lia|]. rewrite identity_pos2, P. change (Nat.iter i (mul_pos2 step) q) with (placed2 step i q).
        destruct (placed2_inv step i q A D) as (R & _). rewrite R. exact V.
  - intros C V. revert V. apply (dom2_contain Contain max_float64); [|exact M]. eapply dom2_rotate_union; eauto; try discriminate; try lra.
    apply dom2_contain_iff; auto.
Qed.
Theorem C44_rotate_union_defined s2 s3 n step2 step3 :
  (exists s', rotate_union3d s3 n step3 = Ok s') /\ (exists s', rotate_union2d s2 n step2 = Ok s').
Proof.
  split.
  - unfold rotate_union3d, rotate_union3d_min. destruct (n <=? 0)%Z; [eauto|]. cbn [vertices3 bind].
    match goal with |- context [ru_box3 ?n ?st ?v ?a ?b] => destruct (ru_box3_ok st n v a b) as (bb & E) end; [discriminate|]. rewrite E. cbn [bind]. eauto.
  - unfold rotate_union2d, rotate_union2d_min. destruct (n <=? 0)%Z; [eauto|]. cbn [vertices2 bind].
    match goal with |- context [ru_box2 ?n ?st ?v ?a ?b] => destruct (ru_box2_ok st n v a b) as (bb & E) end; [discriminate|]. rewrite E. cbn [bind]. eauto.
Qed.
(** ** C44: rotated copies *)
(** The points of the sector of half-angle pi/n about the x axis. *)
Definition in_sector (n : Z) (q : v2) : Prop :=
  exists r t, 0 <= r /\ - PI / IZR n <= t < PI / IZR n /\ x2 q = r * cos t /\ y2 q = r * sin t.
Lemma saw_tooth_unique x t m y : 0 < t -> x = IZR m * t + y -> - t / 2 <= y < t / 2 -> saw_tooth x t = y.
Proof.
  intros T E Y. destruct (saw_tooth_spec x t T) as ((k & K) & S). rewrite K in *. subst x.
  assert (D : (m - k)%Z = 0%Z).
  { assert (-1 < IZR (m - k) < 1).
    { rewrite minus_IZR. split; apply (Rmult_lt_reg_r t); try lra; lra. }
    destruct H as (H1 & H2). apply lt_IZR in H1, H2. lia. }
  assert (m = k) by lia. subst k. ring.
Qed.
Lemma wrap_angle a : exists j, - PI < a - IZR j * (2 * PI) <= PI.
Proof.
  pose proof PI_RGT_0 as P. set (x := (PI - a) / (2 * PI)). exists (- Int_part x)%Z. destruct (base_Int_part x) as (A & B). rewrite opp_IZR.
  assert (E : x * (2 * PI) = PI - a) by (unfold x; field; lra). nra.
Qed.
Lemma rot_period a k p : rot (a + IZR k * (2 * PI)) p = rot a p.
Proof. unfold rot. destruct (cos_period_Z a k) as (-> & ->). reflexivity. Qed.
Lemma fold_sector_inside n p : (0 < n)%Z -> exists k, (0 <= k < n)%Z /\ p = rot (IZR k * (2 * PI / IZR n)) (fold_sector (tau / IZR n) p) /\ in_sector n (fold_sector (tau / IZR n) p).
Proof.
  intros N. pose proof (tau_div_pos n N) as T. assert (Nr : 0 < IZR n) by (apply IZR_lt in N; lra). set (th := tau / IZR n) in *.
  assert (TN : IZR n * th = 2 * PI) by (unfold th, tau; field; lra).
  destruct (fold_sector_rot th p T) as (m & E). exists (m mod n)%Z. split; [apply Z.mod_pos_bound; lia|]. split.
  - rewrite E. change (2 * PI / IZR n) with th. rewrite rot_sum. rewrite (Z.div_mod m n) at 2 by lia.
    rewrite plus_IZR, mult_IZR. rewrite <- (rot_period _ (m / n)). rewrite <- TN.
    match goal with |- _ = rot ?e _ => replace e with 0 by ring end. symmetry; apply rot_0.
  - destruct (saw_tooth_spec (atan2 (y2 p) (x2 p)) th T) as (_ & S).
    exists (norm2 p), (saw_tooth (atan2 (y2 p) (x2 p)) th). split; [apply norm2_nonneg|]. split; [|split; reflexivity].
    replace (- PI / IZR n) with (- th / 2) by (unfold th, tau; field; lra). replace (PI / IZR n) with (th / 2) by (unfold th, tau; field; lra). exact S.
Qed.
Lemma fold_sector_turn n k q : (0 < n)%Z -> in_sector n q -> fold_sector (tau / IZR n) (rot (IZR k * (2 * PI / IZR n)) q) = q.
Proof.
  intros N (r & t & R & Tt & X & Y). pose proof (tau_div_pos n N) as T. assert (Nr : 0 < IZR n) by (apply IZR_lt in N; lra).
  change (2 * PI / IZR n) with (tau / IZR n). set (th := tau / IZR n) in *.
  assert (TN : IZR n * th = 2 * PI) by (unfold th, tau; field; lra).
  replace (- PI / IZR n) with (- th / 2) in Tt by (unfold th, tau; field; lra). replace (PI / IZR n) with (th / 2) in Tt by (unfold th, tau; field; lra).
  assert (Q : q = polar_to_xy r t) by (apply v2_ext; cbn; auto). rewrite Q at 1. rewrite rot_polar. unfold fold_sector.
  assert (Nm : norm2 (polar_to_xy r (IZR k * th + t)) = r) by (rewrite norm2_hypot; cbn [x2 y2 polar_to_xy]; now apply hypot_polar).
  rewrite Nm. destruct (Req_dec r 0) as [Z|Z].
  - rewrite Q, Z. apply v2_ext; cbn; ring.
  - destruct (wrap_angle (IZR k * th + t)) as (j & J). set (a := IZR k * th + t - IZR j * (2 * PI)) in *.
    assert (At : atan2 (y2 (polar_to_xy r (IZR k * th + t))) (x2 (polar_to_xy r (IZR k * th + t))) = a).
    { cbn [x2 y2 polar_to_xy]. replace (IZR k * th + t) with (a + IZR j * (2 * PI)) by (unfold a; ring).
      destruct (cos_period_Z a j) as (-> & ->). apply atan2_unique; [lra|exact J]. }
    rewrite At. rewrite (saw_tooth_unique a th (k - j * n)%Z t T); [now rewrite Q| |exact Tt].
    rewrite minus_IZR, mult_IZR. unfold a. rewrite <- TN. ring.
Qed.
Theorem C44_rotate_copy3 s n p : 
  (ev3 (rotate_copy3d s n) p < 0 <->
   exists k q, (0 <= k < n)%Z /\ in_sector n (xy q) /\ ev3 s q < 0 /\
     let a := IZR k * (2 * PI / IZR n) in
     x3 p = cos a * x3 q - sin a * y3 q /\ y3 p = sin a * x3 q + cos a * y3 q /\ z3 p = z3 q) /\
  ((forall q, ev3 s q < 0 -> in3 (bb3 s) q) -> ev3 (rotate_copy3d s n) p < 0 -> in3 (bb3 (rotate_copy3d s n)) p).
Proof.
  pose proof max_float64_pos as M. split.
  - unfold rotate_copy3d. destruct (Z.leb_spec n 0) as [N|N].
    + cbn [ev3 empty3_from empty3]. split; [lra|]. intros (k & q & K & _). lia.
    + cbn [ev3]. cbn zeta. split.
      * intros V. destruct (fold_sector_inside n (xy p) N) as (k & K & E & S). set (w := fold_sector (tau / IZR n) (xy p)) in *.
        exists k, (V3 (x2 w) (y2 w) (z3 p)). split; [exact K|]. split; [|split; [exact V|]].
        { replace (xy (V3 (x2 w) (y2 w) (z3 p))) with w by (apply v2_ext; reflexivity). exact S. }
        cbn [x3 y3 z3]. split; [exact (f_equal x2 E)|]. split; [exact (f_equal y2 E)|reflexivity].
      * intros (k & q & K & S & V & X & Y & Z). assert (E : xy p = rot (IZR k * (2 * PI / IZR n)) (xy q)) by (apply v2_ext; cbn; auto).
        rewrite E, (fold_sector_turn n k (xy q) N S). rewrite Z. replace (V3 (x2 (xy q)) (y2 (xy q)) (z3 q)) with q by (apply v3_ext; reflexivity). exact V.
  - intros D. apply (dom3_contain Contain max_float64); [|exact M]. apply dom3_rotate_copy; try discriminate; try lra. apply dom3_contain_iff; auto.
Qed.
Theorem C44_rotate_copy2 s n :
  ((n <= 0)%Z -> rotate_copy2d s n = Panicked) /\
  forall s', rotate_copy2d s n = Ok s' -> forall p,
  (ev2 s' p < 0 <->
   exists k q, (0 <= k < n)%Z /\ in_sector n q /\ ev2 s q < 0 /\
     let a := IZR k * (2 * PI / IZR n) in
     x2 p = cos a * x2 q - sin a * y2 q /\ y2 p = sin a * x2 q + cos a * y2 q) /\
  ((forall q, ev2 s q < 0 -> in2 (bb2 s) q) -> ev2 s' p < 0 -> in2 (bb2 s') p).
Proof.
  split; [intros N; unfold rotate_copy2d; now rewrite (proj2 (Z.leb_le n 0) N)|]. intros s' E p. split.
  - unfold rotate_copy2d in E. destruct (Z.leb_spec n 0) as [N|N]; [discriminate|]. inversion E. clear E H0. cbn [ev2].
    change (2 * PI / IZR n) with (tau / IZR n) at 1. cbn zeta. split.
    + intros V. destruct (fold_sector_inside n p N) as (k & K & E & S). set (w := fold_sector (tau / IZR n) p) in *.
      exists k, w. split; [exact K|]. split; [exact S|]. split; [exact V|]. split; [exact (f_equal x2 E)|exact (f_equal y2 E)].
    + intros (k & q & K & S & V & X & Y). assert (E : p = rot (IZR k * (2 * PI / IZR n)) q) by (apply v2_ext; cbn; auto).
      rewrite E, (fold_sector_turn n k q N S). exact V.
  - intros D. apply (dom2_contain Contain 1); [|lra]. eapply dom2_rotate_copy; eauto; try discriminate. apply dom2_contain_iff; [lra|auto].
Qed.
Example C44_example : exists c s', must_circle (1/4) = Ok c /\
  rotate_copy2d (transform2d c (translate2d (V2 1 0))) 4 = Ok s' /\ ev2 s' (V2 0 1) < 0 /\ 0 <= ev2 s' (V2 1 1) /\
  ev2 (array2d c 3 2 (V2 1 1)) (V2 2 1) < 0.
Proof.
  unfold must_circle. rewrite (proj2 (Rltb_false (1/4) 0)) by lra. set (c := S2 _ _).
  set (s := transform2d c (translate2d (V2 1 0))).
  assert (Es : forall q, ev2 s q = norm2 (V2 (x2 q - 1) (y2 q)) - 1/4).
  { intros q. unfold s. rewrite ev_transform2. unfold c; cbn [ev2]. f_equal. f_equal. unfold mul_pos2, inverse33, det33, translate2d.
    apply v2_ext; cbn [x2 y2 b00 b01 b02 b10 b11 b12 b20 b21 b22]; field. }
  assert (N0 : norm2 (V2 0 0) = 0) by (unfold norm2, norm2sq, dot2; cbn [x2 y2]; match goal with |- sqrt ?e = 0 => replace e with 0 by ring end; apply sqrt_0).
  pose proof PI_RGT_0 as P. eexists c, _. split; [reflexivity|]. split; [reflexivity|].
  assert (E : rotate_copy2d s 4 = Ok (S2 (fun p => ev2 s (fold_sector (2 * PI / IZR 4) p)) (Box2 (scale2 (-1) (V2 (rc_rmax (map norm2 (vertices2 (bb2 s)))) (rc_rmax (map norm2 (vertices2 (bb2 s)))))) (V2 (rc_rmax (map norm2 (vertices2 (bb2 s)))) (rc_rmax (map norm2 (vertices2 (bb2 s)))))))) by reflexivity.
  destruct (C44_rotate_copy2 s 4) as (_ & H). specialize (H _ E). clear E. split; [|split].
  - apply H. exists 1%Z, (V2 1 0). split; [lia|]. split; [|split].
    + exists 1, 0. rewrite cos_0, sin_0. cbn [x2 y2]. lra.
    + rewrite Es. cbn [x2 y2]. replace (1 - 1) with 0 by ring. rewrite N0. lra.
    + cbn zeta. replace (1 * (2 * PI / 4)) with (PI / 2) by lra. rewrite cos_PI2, sin_PI2. cbn. lra.
  - apply Rnot_lt_le. intros V. apply (proj1 (H _)) in V. destruct V as (k & q & _ & _ & V & X & Y). rewrite Es in V. cbn [x2 y2] in X, Y.
    set (a := IZR k * (2 * PI / 4)) in *. clearbody a.
    assert (Q : x2 q * x2 q + y2 q * y2 q = 2).
    { pose proof (sin2_cos2 a) as T. unfold Rsqr in T. transitivity ((sin a * sin a + cos a * cos a) * (x2 q * x2 q + y2 q * y2 q)); [rewrite T; ring|].
      transitivity ((cos a * x2 q - sin a * y2 q) * (cos a * x2 q - sin a * y2 q) + (sin a * x2 q + cos a * y2 q) * (sin a * x2 q + cos a * y2 q)); [ring|].
      rewrite <- X, <- Y. ring. }
    assert (W : (x2 q - 1) * (x2 q - 1) + y2 q * y2 q < 1/16).
    { apply Rnot_le_lt. intros C. apply sqrt_le_1_alt in C. replace (1/16) with (Rsqr (1/4)) in C by (unfold Rsqr; lra). rewrite sqrt_Rsqr in C by lra.
      unfold norm2, norm2sq, dot2 in V; cbn [x2 y2] in V. lra. }
    nra.
  - apply C44_array2. exists 2%Z, 1%Z. split; [lia|]. split; [lia|]. unfold c; cbn [ev2 x2 y2].
    replace (2 - 2 * 1) with 0 by ring. replace (1 - 1 * 1) with 0 by ring. rewrite N0. lra.
Qed.

(** ** C45 *)
(** Remove up to [d] of displacement from a coordinate, towards 0. *)
Definition shrink (d x : R) : R := if Rle_dec (Rabs x) d then 0 else if Rlt_dec 0 x then x - d else x + d.
Lemma clamp_shrink x h : x - clampR x (-1 / 2 * Rabs h) (1 / 2 * Rabs h) = shrink (Rabs h / 2) x.
Proof.
  unfold clampR, shrink. pose proof (Rabs_pos h). set (k := Rabs h) in *. clearbody k.
  destruct (Rle_dec (Rabs x) (k / 2)) as [L|L]; [revert L; rmm; lra|]. destruct (Rlt_dec 0 x); revert L; rmm; lra.
Qed.
Theorem C45_elongate3 s h p :
  (ev3 (elongate3d s h) p < 0 <->
   ev3 s (V3 (shrink (Rabs (x3 h) / 2) (x3 p)) (shrink (Rabs (y3 h) / 2) (y3 p)) (shrink (Rabs (z3 h) / 2) (z3 p))) < 0) /\
  ((forall q, ev3 s q < 0 -> in3 (bb3 s) q) -> ev3 (elongate3d s h) p < 0 -> in3 (bb3 (elongate3d s h)) p).
Proof.
  split.
  - unfold elongate3d, sub3, clamp3, scale3, abs3. cbn [ev3 x3 y3 z3]. rewrite !clamp_shrink. tauto.
  - intros D. apply (dom3_contain Contain 1); [|lra]. apply dom3_elongate. apply dom3_contain_iff; [lra|auto].
Qed.
(** What Elongate2D does instead: it translates by h/2. *)
Theorem C45_elongate2_partial s h p :
  ev2 (elongate2d s h) p = ev2 s (V2 (x2 p - Rabs (x2 h) / 2) (y2 p - Rabs (y2 h) / 2)) /\
  ((forall q, ev2 s q < 0 -> in2 (bb2 s) q) -> ev2 (elongate2d s h) p < 0 -> in2 (bb2 (elongate2d s h)) p).
Proof.
  split.
  - unfold elongate2d, sub2, clamp2, scale2, abs2. cbn [ev2 x2 y2]. unfold clampR. f_equal. f_equal; rmm; lra.
  - intros D. apply (dom2_contain Contain 1); [|lra]. apply dom2_elongate. apply dom2_contain_iff; [lra|auto].
Qed.
Theorem C45_elongate2_refuted : exists s h p, must_circle 1 = Ok s /\
  ev2 s (V2 (shrink (Rabs (x2 h) / 2) (x2 p)) (shrink (Rabs (y2 h) / 2) (y2 p))) < 0 /\ 0 < ev2 (elongate2d s h) p.
Proof.
  unfold must_circle. rewrite (proj2 (Rltb_false 1 0)) by lra. eexists _, (V2 4 0), (V2 (-2) 0). split; [reflexivity|]. split.
  - cbn [ev2 x2 y2]. unfold shrink. rewrite (Rabs_right 4), Rabs_R0, (Rabs_left (-2)) by lra.
    destruct (Rle_dec (- -2) (4 / 2)); [|lra]. destruct (Rle_dec 0 (0 / 2)); [|lra].
    unfold norm2, norm2sq, dot2; cbn [x2 y2]. match goal with |- sqrt ?e - 1 < 0 => assert (sqrt e < 1); [|lra]; apply sqrt_lt_of; lra end.
  - rewrite (proj1 (C45_elongate2_partial _ _ _)). cbn [ev2 x2 y2]. rewrite (Rabs_right 4), Rabs_R0 by lra.
    unfold norm2, norm2sq, dot2; cbn [x2 y2]. match goal with |- 0 < sqrt ?e - 1 => replace e with (Rsqr 4) by (unfold Rsqr; field) end. rewrite sqrt_Rsqr; lra.
Qed.
Example C45_example : exists s, must_sphere 1 = Ok s /\ ev3 (elongate3d s (V3 4 0 0)) (V3 (-2) 0 0) < 0.
Proof.
  unfold must_sphere. rewrite (proj2 (Rleb_false 1 0)) by lra. eexists. split; [reflexivity|]. apply C45_elongate3. cbn [ev3 x3 y3 z3].
  unfold shrink. rewrite (Rabs_right 4), Rabs_R0, (Rabs_left (-2)) by lra. destruct (Rle_dec (- -2) (4 / 2)); [|lra]. destruct (Rle_dec 0 (0 / 2)); [|lra].
  unfold norm3, norm3sq, dot3; cbn [x3 y3 z3]. match goal with |- sqrt ?e - 1 < 0 => assert (sqrt e < 1); [|lra]; apply sqrt_lt_of; lra end.
Qed.

(** ** C46 *)
Lemma dot_unit3_pos n w : n <> zero3 -> (0 < dot3 (unit3 n) w <-> 0 < dot3 n w).
Proof.
  intros N. pose proof (nonzero_norm3 n N) as Q. unfold unit3. destruct (Reqb (norm3 n) 0) eqn:Z.
  { apply Reqb_true in Z. exfalso. unfold norm3 in Z. apply sqrt_eq_0 in Z; lra. }
  assert (K : 0 < 1 / norm3 n). { apply Rdiv_lt_0_compat; [lra|]. unfold norm3. apply sqrt_lt_R0. exact Q. }
  assert (E : dot3 (scale3 (1 / norm3 n) n) w = 1 / norm3 n * dot3 n w) by (unfold dot3; cbn; ring). rewrite E. split; intros H; nra.
Qed.
Theorem C46_cut3 s a n p : n <> zero3 ->
  (ev3 (cut3d s a n) p < 0 <-> ev3 s p < 0 /\ 0 < dot3 n (sub3 p a)).
Proof.
  intros N. cbn [cut3d ev3]. rewrite Rmax_neg. replace (dot3 (scale3 (-1) (unit3 n)) (sub3 p a)) with (- dot3 (unit3 n) (sub3 p a)) by (unfold dot3; cbn; ring).
  rewrite <- (dot_unit3_pos n (sub3 p a) N). split; intros (A & B); split; lra.
Qed.
Theorem C46_cut2 s a v p : v <> zero2 ->
  (ev2 (cut2d s a v) p < 0 <-> ev2 s p < 0 /\ x2 v * (y2 p - y2 a) - y2 v * (x2 p - x2 a) < 0).
Proof.
  intros N. cbn [cut2d ev2]. rewrite Rmax_neg.
  assert (Q : 0 < norm2sq v).
  { pose proof (norm2sq_nonneg v). destruct (Req_dec (norm2sq v) 0) as [Z|Z]; [|lra]. exfalso. apply N. unfold norm2sq, dot2 in Z. apply v2_ext; cbn; nra. }
  unfold unit2. destruct (Reqb (norm2 v) 0) eqn:Z.
  { apply Reqb_true in Z. exfalso. unfold norm2 in Z. apply sqrt_eq_0 in Z; lra. }
  assert (K : 0 < 1 / norm2 v). { apply Rdiv_lt_0_compat; [lra|]. unfold norm2. apply sqrt_lt_R0. exact Q. }
  set (k := 1 / norm2 v) in *. clearbody k. unfold dot2; cbn [x2 y2 scale2 sub2].
  replace (- (k * y2 v) * (x2 p - x2 a) + k * x2 v * (y2 p - y2 a)) with (k * (x2 v * (y2 p - y2 a) - y2 v * (x2 p - x2 a))) by ring.
  split; intros (A & B); split; auto; nra.
Qed.
Example C46_example : exists s c, must_sphere 1 = Ok s /\ must_circle 1 = Ok c /\
  ev3 (cut3d s zero3 (V3 0 0 2)) (V3 0 0 (1/2)) < 0 /\ 0 <= ev3 (cut3d s zero3 (V3 0 0 2)) (V3 0 0 (-1/2)) /\
  ev2 (cut2d c zero2 (V2 0 3)) (V2 (1/2) 0) < 0.
Proof.
  unfold must_sphere, must_circle. rewrite (proj2 (Rleb_false 1 0)), (proj2 (Rltb_false 1 0)) by lra. eexists _, _. split; [reflexivity|]. split; [reflexivity|].
  assert (NZ : V3 0 0 2 <> zero3) by (intros H; inversion H; lra). assert (NZ2 : V2 0 3 <> zero2) by (intros H; inversion H; lra).
  split; [|split].
  - apply (C46_cut3 _ _ _ _ NZ). split; [|unfold dot3; cbn; lra]. cbn [ev3]. unfold norm3, norm3sq, dot3; cbn [x3 y3 z3].
    match goal with |- sqrt ?e - 1 < 0 => assert (sqrt e < 1); [|lra]; apply sqrt_lt_of; lra end.
  - apply Rnot_lt_le. intros V. apply (C46_cut3 _ _ _ _ NZ) in V. destruct V as (_ & V). unfold dot3 in V; cbn in V; lra.
  - apply (C46_cut2 _ _ _ _ NZ2). cbn [ev2 x2 y2]. split; [|cbn; lra]. unfold norm2, norm2sq, dot2; cbn [x2 y2].
    match goal with |- sqrt ?e - 1 < 0 => assert (sqrt e < 1); [|lra]; apply sqrt_lt_of; lra end.
Qed.

(** ** C47 *)
Theorem C47_slice s a n : n <> zero3 -> exists u v s', slice2d s a n = Ok s' /\
  dot3 u u = 1 /\ dot3 v v = 1 /\ dot3 u v = 0 /\ dot3 u n = 0 /\ dot3 v n = 0 /\
  (forall p, ev2 s' p = ev3 s (add3 a (add3 (scale3 (x2 p) u) (scale3 (y2 p) v)))) /\
  (forall w, dot3 n (sub3 w a) = 0 -> exists p, w = add3 a (add3 (scale3 (x2 p) u) (scale3 (y2 p) v))) /\
  ((forall q, ev3 s q < 0 -> in3 (bb3 s) q) -> forall p, ev2 s' p < 0 -> in2 (bb2 s') p).
Proof.
  intros N. destruct (slice2d_ok s a n N) as (u & v & b & O & _ & E & B). exists u, v. eexists. split; [exact E|].
  pose proof O as [O1 O2 O3 O4 O5 O6].
  pose proof (nonzero_norm3 n N) as Q. assert (L : 0 < norm3 n) by (unfold norm3; apply sqrt_lt_R0; exact Q).
  assert (U : n = scale3 (norm3 n) (unit3 n)).
  { unfold unit3. destruct (Reqb (norm3 n) 0) eqn:Z; [apply Reqb_true in Z; lra|]. apply v3_ext; cbn; field; lra. }
  assert (D : forall w, dot3 w n = norm3 n * dot3 w (unit3 n)).
  { intros w. rewrite U at 1. unfold dot3; cbn. ring. }
  split; [exact O1|]. split; [exact O2|]. split; [exact O4|]. split; [rewrite D, O5; ring|]. split; [rewrite D, O6; ring|]. split; [|split].
  - intros p. cbn [ev2]. f_equal. unfold plane_at. apply v3_ext; cbn; ring.
  - intros w W. exists (plane_xy a u v w). pose proof (on_span u v (unit3 n) (sub3 w a) O) as S.
    assert (W' : dot3 (unit3 n) (sub3 w a) = 0).
    { assert (C : norm3 n * dot3 (sub3 w a) (unit3 n) = 0) by (rewrite <- D; rewrite <- W; unfold dot3; ring).
      apply Rmult_integral in C. destruct C as [C|C]; [lra|]. rewrite <- C. unfold dot3; ring. }
    rewrite W' in S. apply v3_ext; [apply (f_equal x3) in S|apply (f_equal y3) in S|apply (f_equal z3) in S]; cbn in S |- *; lra.
  - intros C p V. eapply (dom2_contain Contain 1); [|lra|exact V]. eapply (dom2_slice Contain 1 s a n); [discriminate|exact N| |exact E].
    apply dom3_contain_iff; [lra|exact C].
Qed.
Example C47_example : exists s s', must_sphere 1 = Ok s /\ slice2d s (V3 0 0 (1/2)) (V3 1 2 3) = Ok s' /\ ev2 s' zero2 < 0.
Proof.
  unfold must_sphere. rewrite (proj2 (Rleb_false 1 0)) by lra. set (s := S3 _ _).
  destruct (C47_slice s (V3 0 0 (1/2)) (V3 1 2 3)) as (u & v & s' & E & _ & _ & _ & _ & _ & V & _); [intros H; inversion H; lra|].
  exists s, s'. split; [reflexivity|]. split; [exact E|]. rewrite V. unfold s; cbn [ev3 zero2 x2 y2].
  match goal with |- norm3 ?w - 1 < 0 => replace w with (V3 0 0 (1/2)) by (apply v3_ext; cbn; ring) end.
  unfold norm3, norm3sq, dot3; cbn [x3 y3 z3]. match goal with |- sqrt ?e - 1 < 0 => assert (sqrt e < 1); [|lra]; apply sqrt_lt_of; lra end.
Qed.

(** ** C48 *)
Lemma ev_placed3 s v p : ev3 (transform3 s (translate3d v)) p = ev3 s (sub3 p v).
Proof.
  destruct (translate3_keeps Contain v) as (A & D & _). rewrite ev_transform3. f_equal.
  replace p with (mul_pos3 (translate3d v) (sub3 p v)) at 1 by (unfold mul_pos3, translate3d; apply v3_ext; cbn; ring).
  apply inv_pos3; auto.
Qed.
Lemma ev_placed2 s v p : ev2 (transform2d s (translate2d v)) p = ev2 s (sub2 p v).
Proof.
  destruct (translate2_keeps Contain v) as (A & D & _). rewrite ev_transform2. f_equal.
  replace p with (mul_pos2 (translate2d v) (sub2 p v)) at 1 by (unfold mul_pos2, translate2d; apply v2_ext; cbn; ring).
  apply inv_pos2; auto.
Qed.
(** The copies of a line: one per 'x' rune, moved on by one step per rune. *)
Lemma line_of_objs_spec {A V} (place : V -> A) vadd dx pat : forall x y,
  In y (line_of_objs place vadd x dx pat) <->
  exists i w, nth_error pat i = Some (true, w) /\ y = place (Nat.iter i (fun z => vadd z dx) x).
Proof.
  induction pat as [|(b, w0) r IH]; intros x y; cbn [line_of_objs fst].
  - split; [intros []|]. intros (i & w & N & _). destruct i; discriminate.
  - rewrite in_app_iff, IH. split.
    + intros [I|(i & w & N & E)].
      * destruct b; [|destruct I]. destruct I as [<- |[]]. exists 0%nat, w0. split; reflexivity.
      * exists (S i), w. split; [exact N|]. rewrite E. f_equal. exact (iter_swap (fun z => vadd z dx) i x).
    + intros (i & w & N & E). destruct i as [|i].
      * left. cbn in N. inversion N. subst b w0. left. symmetry. exact E.
      * right. exists i, w. split; [exact N|]. rewrite E. f_equal. symmetry. exact (iter_swap (fun z => vadd z dx) i x).
Qed.
Definition copies (pat : pattern) : nat := length (filter fst pat).
Lemma line_of_objs_length {A V} (place : V -> A) vadd dx pat : forall x, length (line_of_objs place vadd x dx pat) = copies pat.
Proof.
  unfold copies. induction pat as [|(b, w) r IH]; intros x; cbn [line_of_objs filter fst]; [reflexivity|].
  rewrite app_length, IH. destruct b; reflexivity.
Qed.
Lemma line_of_objs_some {A V} (place : V -> A) vadd dx pat x : ~ In None (line_of_objs (fun v => Some (place v)) vadd x dx pat).
Proof. intros I. apply line_of_objs_spec in I. destruct I as (i & w & _ & E). discriminate. Qed.
Lemma iter_add3 i x dx : Nat.iter i (fun z => add3 z dx) x = add3 x (scale3 (INR i) dx).
Proof.
  induction i as [|i IH]; [apply v3_ext; cbn; ring|]. rewrite iter_S, IH, S_INR. apply v3_ext; cbn; ring.
Qed.
Lemma iter_add2 i x dx : Nat.iter i (fun z => add2 z dx) x = add2 x (scale2 (INR i) dx).
Proof.
  induction i as [|i IH]; [apply v2_ext; cbn; ring|]. rewrite iter_S, IH, S_INR. apply v2_ext; cbn; ring.
Qed.
Definition ascii (pat : pattern) : Prop := forall c, In c pat -> snd c = 1%nat.
Lemma ascii_len pat : ascii pat -> byte_len pat = length pat.
Proof.
  induction pat as [|c r IH]; intros A; [reflexivity|]. cbn [byte_len fold_right length]. fold (byte_len r).
  rewrite IH by (intros x X; apply A; now right). rewrite (A c) by now left. reflexivity.
Qed.
(** [at_x pat i]: the i-th byte of the (ASCII) pattern is an 'x'. *)
Definition at_x (pat : pattern) (i : nat) : Prop := exists w, nth_error pat i = Some (true, w).
Theorem C48_line3_partial s p0 p1 pat : 
  ((2 <= copies pat)%nat <-> exists s', line_of3d (Some s) p0 p1 pat = Ok s') /\
  forall s', ascii pat -> line_of3d (Some s) p0 p1 pat = Ok s' -> forall p,
    ev3 s' p < 0 <-> exists i, at_x pat i /\ ev3 s (sub3 p (add3 p0 (scale3 (INR i / INR (length pat)) (sub3 p1 p0)))) < 0.
Proof.
  split.
  - unfold line_of3d. destruct pat as [|c r]; [cbn; split; [lia|intros (s' & E); discriminate]|]. set (pat := c :: r).
    set (os := line_of_objs _ _ _ _ _). assert (L : length os = copies pat) by apply line_of_objs_length.
    assert (NN : ~ In None os) by apply line_of_objs_some. destruct (C27_union_panics os) as (P & Q). split.
    + intros G. destruct (union3d os) as [s'| |] eqn:E; [eauto|congruence|]. destruct (proj1 P eq_refl); [lia|tauto].
    + intros (s' & E). apply Nat.nlt_ge. intros G. assert (X : union3d os = Panicked) by (apply P; left; lia). congruence.
  - intros s' A E p. unfold line_of3d in E. destruct pat as [|c r]; [discriminate|]. set (pat := c :: r) in *.
    apply C27_union in E. destruct E as (ss & Eo & _ & H). destruct (H p) as (_ & I & _). rewrite I. clear I H.
    rewrite (ascii_len pat A) in Eo.
    assert (K : forall i, Nat.iter i (fun z => add3 z (scale3 (1 / INR (length pat)) (sub3 p1 p0))) p0 = add3 p0 (scale3 (INR i / INR (length pat)) (sub3 p1 p0))).
    { intros i. rewrite iter_add3. unfold Rdiv. apply v3_ext; cbn; ring. }
    split.
    + intros (x & X & V). assert (J : In (Some x) (map Some ss)) by (now apply in_map). rewrite <- Eo in J. apply line_of_objs_spec in J.
      destruct J as (i & w & N & Ex). inversion Ex as [Ex']. rewrite Ex', K, ev_placed3 in V. exists i. split; [exists w; exact N|exact V].
    + intros (i & (w & N) & V).
      assert (J : In (Some (transform3 s (translate3d (add3 p0 (scale3 (INR i / INR (length pat)) (sub3 p1 p0)))))) (map Some ss)).
      { rewrite <- Eo. apply line_of_objs_spec. exists i, w. split; [exact N|]. now rewrite K. }
      apply in_map_iff in J. destruct J as (x & Ex & X). inversion Ex as [Ex']. exists x. split; [exact X|]. rewrite Ex', ev_placed3. exact V.
Qed.
Lemma union2d_ok l s : union2d l = Ok s -> exists a r, l = map Some (a :: r) /\ (1 <= length r)%nat /\ s = S2 (union_eval2 Rmin (a :: r)) (union_box2 a (a :: r)).
Proof.
  unfold union2d, union2d_min. destruct (Nat.leb_spec (length l) 1) as [L|L]; [discriminate|]. destruct (all_some l) as [ss|] eqn:E; [|discriminate].
  apply all_some_spec in E. subst l. rewrite map_length in L. destruct ss as [|a r]; [discriminate|]. intros E. inversion E. cbn in L. exists a, r. split; [reflexivity|]. split; [lia|reflexivity].
Qed.
Lemma union2d_panics l : union2d l = Panicked <-> (length l < 2)%nat \/ In None l.
Proof.
  unfold union2d, union2d_min. destruct (Nat.leb_spec (length l) 1) as [L|L]; [split; [intros _; left; lia|reflexivity]|].
  destruct (all_some l) as [ss|] eqn:E.
  - assert (N : ~ In None l) by (intros I; apply all_some_none in I; congruence). apply all_some_spec in E. subst l. rewrite map_length in L.
    destruct ss; cbn in L; [lia|]. split; [discriminate|]. intros [K|K]; [rewrite map_length in K; cbn in K; lia|tauto].
  - apply all_some_none in E. tauto.
Qed.
Lemma union2d_no_err l : union2d l <> Err.
Proof. unfold union2d, union2d_min. destruct (length l <=? 1)%nat; [discriminate|]. destruct (all_some l) as [[|]|]; discriminate. Qed.
Lemma union2d_inside l s p : union2d l = Ok s -> (forall x, In (Some x) l -> ev2 x p < 0 -> in2 (bb2 x) p) ->
  (ev2 s p < 0 <-> exists x, In (Some x) l /\ ev2 x p < 0).
Proof.
  intros E C. apply union2d_ok in E. destruct E as (a & r & -> & _ & ->). cbn [ev2].
  rewrite C49_inside_partial; [|discriminate|intros x X; apply C; now apply in_map].
  split; intros (x & X & V); exists x; split; auto; [now apply in_map|]. apply in_map_iff in X. destruct X as (y & Ey & Y). inversion Ey. now subst.
Qed.
Lemma contain_placed2 s v : (forall q, ev2 s q < 0 -> in2 (bb2 s) q) -> forall q, ev2 (transform2d s (translate2d v)) q < 0 -> in2 (bb2 (transform2d s (translate2d v))) q.
Proof.
  intros D q V. eapply (dom2_contain Contain 1); [|lra|exact V]. apply dom2_translate. apply dom2_contain_iff; [lra|exact D].
Qed.
Theorem C48_line2_partial s p0 p1 pat : 
  ((1 <= copies pat)%nat <-> exists s', line_of2d (Some s) p0 p1 pat = Ok s') /\
  forall s', (forall q, ev2 s q < 0 -> in2 (bb2 s) q) -> ascii pat -> line_of2d (Some s) p0 p1 pat = Ok s' -> forall p,
    ev2 s' p < 0 <-> exists i, at_x pat i /\ ev2 s (sub2 p (add2 p0 (scale2 (INR i / INR (length pat)) (sub2 p1 p0)))) < 0.
Proof.
  split.
  - unfold line_of2d. destruct pat as [|c r]; [cbn; split; [lia|intros (s' & E); discriminate]|]. set (pat := c :: r).
    set (os := line_of_objs _ _ _ _ _). assert (L : length os = copies pat) by apply line_of_objs_length.
    assert (NN : ~ In None os) by apply line_of_objs_some. pose proof (union2d_panics os) as P. pose proof (union2d_no_err os) as Q.
    assert (B : (2 <= length os)%nat -> exists s', union2d os = Ok s').
    { intros G. destruct (union2d os) as [s'| |] eqn:E; [eauto|congruence|]. destruct (proj1 P eq_refl); [lia|tauto]. }
    rewrite <- L. clearbody os. clear L pat. destruct os as [|[o|] [|o2 os]]; cbn [length] in *.
    + split; [lia|]. intros (s' & E). rewrite (proj2 P) in E by (left; lia). discriminate.
    + split; [eauto|lia].
    + split; [intros _; apply B; lia|lia].
    + exfalso. apply NN. now left.
    + exfalso. apply NN. now left.
  - intros s' C A E p. unfold line_of2d in E. destruct pat as [|c r]; [discriminate|]. set (pat := c :: r) in *.
    rewrite (ascii_len pat A) in E. set (dx := scale2 (1 / INR (length pat)) (sub2 p1 p0)) in *.
    assert (K : forall i, Nat.iter i (fun z => add2 z dx) p0 = add2 p0 (scale2 (INR i / INR (length pat)) (sub2 p1 p0))).
    { intros i. rewrite iter_add2. unfold dx, Rdiv. apply v2_ext; cbn; ring. }
    set (os := line_of_objs _ _ _ _ _) in E.
    assert (H : ev2 s' p < 0 <-> exists x, In (Some x) os /\ ev2 x p < 0).
    { assert (U : union2d os = Ok s' -> (ev2 s' p < 0 <-> exists x, In (Some x) os /\ ev2 x p < 0)).
      { intros U. apply union2d_inside; [exact U|]. intros x X V. apply line_of_objs_spec in X. destruct X as (i & w & _ & Ex). injection Ex as ->. now apply contain_placed2. }
      destruct os as [|[o|] [|o2 os']]; auto. inversion E. subst s'.
      split; [intros V; exists o; split; [now left|exact V]|]. intros (x & [X|[]] & V). inversion X. now subst. }
    rewrite H. split.
    + intros (x & X & V). apply line_of_objs_spec in X. destruct X as (i & w & N & Ex). inversion Ex as [Ex']. rewrite Ex', K, ev_placed2 in V. exists i. split; [exists w; exact N|exact V].
    + intros (i & (w & N) & V). eexists. split; [apply line_of_objs_spec; exists i, w; split; [exact N|reflexivity]|]. rewrite K, ev_placed2. exact V.
Qed.
Theorem C48_multi_partial :
  (forall s ps s', ps <> [] -> multi3d (Some s) ps = Ok s' -> forall p, ev3 s' p < 0 <-> exists v, In v ps /\ ev3 s (sub3 p v) < 0) /\
  (forall s, multi3d (Some s) [] = Ok (empty3_from s)) /\
  (forall s ps, (2 <= length ps)%nat -> exists s', multi3d (Some s) ps = Ok s') /\
  (forall s ps s', (forall q, ev2 s q < 0 -> in2 (bb2 s) q) -> multi2d (Some s) ps = Ok s' -> forall p, ev2 s' p < 0 <-> exists v, In v ps /\ ev2 s (sub2 p v) < 0) /\
  (forall s ps, (2 <= length ps)%nat -> exists s', multi2d (Some s) ps = Ok s').
Proof.
  split; [|split; [reflexivity|split; [|split]]].
  - intros s ps s' NE E p. unfold multi3d in E. destruct ps as [|v0 ps]; [congruence|]. set (vs := v0 :: ps) in *.
    apply C27_union in E. destruct E as (ss & Eo & _ & H). destruct (H p) as (_ & I & _). rewrite I. clear I H. split.
    + intros (x & X & V). assert (J : In (Some x) (map Some ss)) by (now apply in_map). rewrite <- Eo in J. apply in_map_iff in J.
      destruct J as (v & Ev & J). inversion Ev as [Ex']. rewrite <- Ex', ev_placed3 in V. exists v. auto.
    + intros (v & J & V). assert (X : In (Some (transform3 s (translate3d v))) (map Some ss)) by (rewrite <- Eo; apply in_map_iff; eauto).
      apply in_map_iff in X. destruct X as (x & Ex & X). inversion Ex. exists x. split; [exact X|]. subst x. rewrite ev_placed3. exact V.
  - intros s ps L. unfold multi3d. destruct ps as [|v0 ps]; [cbn in L; lia|]. set (os := map _ _). destruct (C27_union_panics os) as (P & Q).
    destruct (union3d os) as [s'| |] eqn:E; [eauto|congruence|]. destruct (proj1 P eq_refl) as [G|G]; unfold os in G; [rewrite map_length in G; lia|].
    apply in_map_iff in G. destruct G as (v & Ev & _). discriminate.
  - intros s ps s' C E p. unfold multi2d in E. destruct ps as [|v0 ps]; [discriminate|]. set (vs := v0 :: ps) in *.
    rewrite (union2d_inside _ _ p E).
    + split.
      * intros (x & X & V). apply in_map_iff in X. destruct X as (v & Ev & J). inversion Ev as [Ex']. rewrite <- Ex', ev_placed2 in V. exists v. auto.
      * intros (v & J & V). eexists. split; [apply in_map_iff; exists v; split; [reflexivity|exact J]|]. rewrite ev_placed2. exact V.
    + intros x X V. apply in_map_iff in X. destruct X as (v & Ev & _). injection Ev as <-. now apply contain_placed2.
  - intros s ps L. unfold multi2d. destruct ps as [|v0 ps]; [cbn in L; lia|]. set (os := map _ _). pose proof (union2d_panics os) as P. pose proof (union2d_no_err os) as Q.
    destruct (union2d os) as [s'| |] eqn:E; [eauto|congruence|]. destruct (proj1 P eq_refl) as [G|G]; unfold os in G; [rewrite map_length in G; lia|].
    apply in_map_iff in G. destruct G as (v & Ev & _). discriminate.
Qed.
Theorem C48_orient_partial :
  (forall s base ds s', ds <> [] -> orient3d (Some s) base ds = Ok s' -> forall p,
    ev3 s' p < 0 <-> exists d q, In d ds /\ p = mul_pos3 (rotate_to_vec base d) q /\ ev3 s q < 0) /\
  (forall s base, orient3d (Some s) base [] = Ok (empty3_from s)) /\
  (forall s base ds, (2 <= length ds)%nat -> exists s', orient3d (Some s) base ds = Ok s').
Proof.
  split; [|split; [reflexivity|]].
  - intros s base ds s' NE E p. unfold orient3d in E. destruct ds as [|v0 ps]; [congruence|]. set (vs := v0 :: ps) in *.
    apply C27_union in E. destruct E as (ss & Eo & _ & H). destruct (H p) as (_ & I & _). rewrite I. clear I H. split.
    + intros (x & X & V). assert (J : In (Some x) (map Some ss)) by (now apply in_map). rewrite <- Eo in J. apply in_map_iff in J.
      destruct J as (d & Ed & J). inversion Ed as [Ex']. rewrite <- Ex', ev_transform3 in V. exists d. eexists. split; [exact J|]. split; [|exact V].
      symmetry. destruct (rotate_to_vec_rigid base d) as (A & D & _). apply inv_pos3; auto.
    + intros (d & q & J & P & V). assert (X : In (Some (transform3 s (rotate_to_vec base d))) (map Some ss)) by (rewrite <- Eo; apply in_map_iff; eauto).
      apply in_map_iff in X. destruct X as (x & Ex & X). inversion Ex. exists x. split; [exact X|]. subst x. rewrite ev_transform3, P.
      destruct (rotate_to_vec_rigid base d) as (A & D & _). destruct (inv_pos3 (rotate_to_vec base d) q A D) as (R & _). rewrite R. exact V.
  - intros s base ds L. unfold orient3d. destruct ds as [|v0 ps]; [cbn in L; lia|]. set (os := map _ _). destruct (C27_union_panics os) as (P & Q).
    destruct (union3d os) as [s'| |] eqn:E; [eauto|congruence|]. destruct (proj1 P eq_refl) as [G|G]; unfold os in G; [rewrite map_length in G; lia|].
    apply in_map_iff in G. destruct G as (v & Ev & _). discriminate.
Qed.
(** One copy: every one of these except LineOf2D panics, for every shape and position. *)
Theorem C48_single_refuted s3 s2 p0 p1 base v3' v2' : 
  line_of3d (Some s3) p0 p1 [(true, 1%nat)] = Panicked /\ multi3d (Some s3) [v3'] = Panicked /\
  orient3d (Some s3) base [v3'] = Panicked /\ multi2d (Some s2) [v2'] = Panicked.
Proof. repeat split; reflexivity. Qed.
(** A non-ASCII rune counts once for the position and by its bytes for the step: "éx" from
    (0,0) to (3,0) puts the copy at (1,0), not at byte position 2. *)
Theorem C48_unicode_refuted : exists c s', must_circle (1/2) = Ok c /\
  line_of2d (Some c) zero2 (V2 3 0) [(false, 2%nat); (true, 1%nat)] = Ok s' /\
  ev2 s' (V2 1 0) < 0 /\ 0 < ev2 s' (V2 2 0).
Proof.
  unfold must_circle. rewrite (proj2 (Rltb_false (1/2) 0)) by lra. eexists _, _. split; [reflexivity|]. split; [reflexivity|].
  rewrite !ev_placed2. cbn [ev2]. 
  assert (E : forall x, norm2 (sub2 (V2 x 0) (add2 zero2 (scale2 (1 / INR (byte_len [(false, 2%nat); (true, 1%nat)])) (sub2 (V2 3 0) zero2)))) = Rabs (x - 1)).
  { intros x. cbn [byte_len fold_right snd Nat.add INR]. unfold norm2, norm2sq, dot2; cbn [x2 y2 sub2 add2 scale2 zero2].
    match goal with |- sqrt ?e = _ => replace e with (Rsqr (x - 1)) by (unfold Rsqr; field) end. apply sqrt_Rsqr_abs. }
  rewrite !E. split; [rewrite Rabs_right; lra|rewrite Rabs_right; lra].
Qed.
Example C48_example : exists c s', must_circle (1/2) = Ok c /\
  line_of2d (Some c) zero2 (V2 3 0) [(true, 1%nat); (false, 1%nat); (true, 1%nat)] = Ok s' /\ ev2 s' (V2 2 0) < 0 /\ 0 <= ev2 s' (V2 1 0).
Proof.
  destruct (must_circle (1/2)) as [c| |] eqn:E; [|unfold must_circle in E; rewrite (proj2 (Rltb_false (1/2) 0)) in E by lra; discriminate..].
  pose proof (C57_circle _ _ E) as (_ & B). 
  assert (Ec : forall p, ev2 c p = norm2 p - 1/2) by (unfold must_circle in E; rewrite (proj2 (Rltb_false (1/2) 0)) in E by lra; inversion E; reflexivity).
  set (pat := [(true, 1%nat); (false, 1%nat); (true, 1%nat)]). destruct (C48_line2_partial c zero2 (V2 3 0) pat) as (D & H).
  destruct (proj1 D) as (s' & Es); [cbn; lia|]. exists c, s'. split; [reflexivity|]. split; [exact Es|].
  assert (C : forall q, ev2 c q < 0 -> in2 (bb2 c) q) by (intros q V; apply B; rewrite Ec in V; lra).
  assert (A : ascii pat) by (intros x [<- |[<- |[<- |[]]]]; reflexivity).
  assert (L : INR (length pat) = 3) by (cbn; lra). specialize (H s' C A Es). rewrite L in H.
  assert (Nx : forall x i, norm2 (sub2 (V2 x 0) (add2 zero2 (scale2 (i / 3) (sub2 (V2 3 0) zero2)))) = Rabs (x - i)).
  { intros x i. unfold norm2, norm2sq, dot2; cbn [x2 y2 sub2 add2 scale2 zero2].
    match goal with |- sqrt ?e = _ => replace e with (Rsqr (x - i)) by (unfold Rsqr; field) end. apply sqrt_Rsqr_abs. }
  split.
  - apply H. exists 2%nat. split; [exists 1%nat; reflexivity|]. rewrite Ec, Nx. cbn [INR]. rewrite Rabs_right; lra.
  - apply Rnot_lt_le. intros V. apply H in V. destruct V as (i & (w & N) & V). rewrite Ec, Nx in V.
    destruct i as [|[|[|i]]]; cbn in N; try discriminate; cbn [INR] in V; [rewrite Rabs_right in V; lra|rewrite Rabs_left in V; lra|destruct i; discriminate].
Qed.
