(** C39-C43, C51, C52: extrusions, revolution, level sets, loft. *)
From Coq Require Import Reals Lra Lia List Bool ZArith Floats.SpecFloat.
From Verif Require Import Prelude Vec BoxModel MatrixModel PropsBox PropsMatrix SdfModel SdfLemmas PropsBool Trig
  Grades GradesOps GradesSweep GradesCopy GradesRest Distance PrimModel PrimCores PropsPrim McRealModel.
Import ListNotations.
Local Open Scope R_scope.

Lemma Rmax_neg a b : Rmax a b < 0 <-> a < 0 /\ b < 0.
Proof. split; [intros H|intros (H & K)]; rmm; lra. Qed.
Lemma Rabs_lt_iff a h : Rabs a - h < 0 <-> - h < a < h.
Proof. split; [intros H|intros (H & K)]; rmm; lra. Qed.

(** ** C39 *)
Theorem C39_extrude s h p :
  (ev3 (extrude3d s h) p < 0 <-> ev2 s (V2 (x3 p) (y3 p)) < 0 /\ Rabs (z3 p) < h / 2) /\
  (0 < ev3 (extrude3d s h) p <-> 0 < ev2 s (V2 (x3 p) (y3 p)) \/ h / 2 < Rabs (z3 p)).
Proof.
  cbn [ev3 extrude3d]. unfold extrude_eval, normal_extrude, xy. set (a := ev2 s _). split.
  - rewrite Rmax_neg. split; intros (A & B); split; lra.
  - split; [intros H|intros [H|H]]; revert H; clear; unfold Rmax; destruct (Rle_dec _ _); lra.
Qed.
Example C39_example : exists s, must_circle 1 = Ok s /\ ev3 (extrude3d s 4) (V3 0 0 1) < 0 /\ 0 < ev3 (extrude3d s 4) (V3 0 0 3).
Proof.
  unfold must_circle. rewrite (proj2 (Rltb_false 1 0)) by lra. eexists. split; [reflexivity|].
  assert (N : norm2 (V2 0 0) = 0) by (now apply norm2_zero_iff).
  split; apply C39_extrude; cbn [ev2 x3 y3 z3]; rewrite N.
  - split; [lra|]. rewrite Rabs_right; lra.
  - right. rewrite Rabs_right; lra.
Qed.

(** ** C40 *)
(** The profile coordinate factor at height z: 1 at the bottom, 1/scale at the top,
    linear in between. *)
Definition lerp (a b t : R) : R := (1 - t) * a + t * b.
Theorem C40_interpolates s h scale p : 0 < h -> x2 scale <> 0 -> y2 scale <> 0 ->
  let t := z3 p / h + 1/2 in
  ev3 (scale_extrude3d s h scale) p =
  Rmax (ev2 s (V2 (x3 p * lerp 1 (/ x2 scale) t) (y3 p * lerp 1 (/ y2 scale) t))) (Rabs (z3 p) - h / 2).
Proof.
  intros H X Y t. cbn [ev3 scale_extrude3d]. unfold extrude_eval. f_equal. f_equal. unfold scale_extrude, lerp, t.
  apply v2_ext; cbn; field; lra.
Qed.
Theorem C40_faces s h scale x y : 0 < h -> 0 < x2 scale -> 0 < y2 scale ->
  ev3 (scale_extrude3d s h scale) (V3 x y (- (h / 2))) = Rmax (ev2 s (V2 x y)) 0 /\
  ev3 (scale_extrude3d s h scale) (V3 (x2 scale * x) (y2 scale * y) (h / 2)) = Rmax (ev2 s (V2 x y)) 0.
Proof.
  intros H X Y. rewrite !C40_interpolates by lra. cbn [x3 y3 z3]. split; f_equal.
  - f_equal. unfold lerp. apply v2_ext; cbn; field; lra.
  - rewrite Rabs_left; lra.
  - f_equal. unfold lerp. apply v2_ext; cbn; field; lra.
  - rewrite Rabs_right; lra.
Qed.
Theorem C40_bounds s h scale p : 0 < h -> 0 < x2 scale -> 0 < y2 scale ->
  (forall q, ev2 s q < 0 -> in2 (bb2 s) q) ->
  ev3 (scale_extrude3d s h scale) p < 0 -> in3 (bb3 (scale_extrude3d s h scale)) p.
Proof.
  intros H X Y D V. eapply (dom3_contain Contain 1); [|lra|exact V]. apply contain_scale_extrude; auto; try lra.
  apply dom2_contain_iff; [lra|exact D].
Qed.
Example C40_example : exists s, must_circle 1 = Ok s /\ ev3 (scale_extrude3d s 2 (V2 3 2)) (V3 (5/2) 0 (99/100)) < 0.
Proof.
  unfold must_circle. rewrite (proj2 (Rltb_false 1 0)) by lra. eexists. split; [reflexivity|].
  rewrite C40_interpolates by (cbn; lra). cbn [x3 y3 z3 x2 y2 ev2]. apply Rmax_neg. split; [|rewrite Rabs_right; lra].
  unfold lerp, norm2, norm2sq, dot2; cbn [x2 y2].
  match goal with |- sqrt ?e - 1 < 0 => assert (sqrt e < 1); [|lra]; apply sqrt_lt_of; lra end.
Qed.

(** ** C41 *)
Theorem C41_twist_zero s h p : h <> 0 -> ev3 (twist_extrude3d s h 0) p = ev3 (extrude3d s h) p.
Proof.
  intros H. cbn [ev3 twist_extrude3d extrude3d]. unfold extrude_eval. f_equal. f_equal. unfold twist_extrude, normal_extrude.
  replace (z3 p * (0 / h)) with 0 by (field; exact H). unfold mul_pos22, rotate22. cbn. rewrite cos_0, sin_0. apply v2_ext; cbn; ring.
Qed.
(** Cross-sections: the point of the section at height z obtained by turning a profile point
    by -z twist/height (clockwise for positive twist, seen from above) has that profile
    point's value. *)
Theorem C41_twist_section s h twist q z : h <> 0 ->
  let t := z * twist / h in
  let r := V2 (cos (- t) * x2 q - sin (- t) * y2 q) (sin (- t) * x2 q + cos (- t) * y2 q) in
  ev3 (twist_extrude3d s h twist) (V3 (x2 r) (y2 r) z) = Rmax (ev2 s q) (Rabs z - h / 2).
Proof.
  intros H t r. cbn [ev3 twist_extrude3d]. unfold extrude_eval. cbn [z3]. f_equal. f_equal. unfold twist_extrude. cbn [z3].
  replace (z * (twist / h)) with t by (unfold t; field; exact H).
  change r with (rot (- t) q). transitivity (rot t (rot (- t) q)); [|apply rot_inv].
  unfold mul_pos22, rotate22, rot, xy; cbn. apply v2_ext; cbn; ring.
Qed.
(** ScaleTwistExtrude3D with twist 0 and scale (1,1) is not Extrude3D (operator precedence
    in the slope): it is exactly when the height is 1. *)
Theorem C41_scale_twist_refuted : exists s p, must_circle (11/10) = Ok s /\
  ev3 (extrude3d s 2) p < 0 /\ 0 < ev3 (scale_twist_extrude3d s 2 0 (V2 1 1)) p.
Proof.
  unfold must_circle. rewrite (proj2 (Rltb_false (11/10) 0)) by lra. eexists _, (V3 1 0 (1/2)). split; [reflexivity|].
  assert (N : forall a, 0 <= a -> norm2 (V2 a 0) = a).
  { intros a A. unfold norm2, norm2sq, dot2; cbn [x2 y2]. replace (a * a + 0 * 0) with (Rsqr a) by (unfold Rsqr; ring). now apply sqrt_Rsqr. }
  split.
  - apply C39_extrude. cbn [ev2 x3 y3 z3]. rewrite N by lra. split; [lra|rewrite Rabs_right; lra].
  - cbn [ev3 scale_twist_extrude3d ev2]. unfold extrude_eval. eapply Rlt_le_trans; [|apply Rmax_l]. cbn [ev2].
    replace (scale_twist_extrude 2 0 (V2 1 1) (V3 1 0 (1/2))) with (V2 (5/4) 0); [rewrite N; lra|].
    unfold scale_twist_extrude, mul_pos22, rotate22. cbn. replace (1 / 2 * (0 / 2)) with 0 by field. rewrite cos_0, sin_0. apply v2_ext; cbn; field.
Qed.
Theorem C41_scale_twist_partial s p : ev3 (scale_twist_extrude3d s 1 0 (V2 1 1)) p = ev3 (extrude3d s 1) p.
Proof.
  cbn [ev3 scale_twist_extrude3d extrude3d]. unfold extrude_eval. f_equal. f_equal. unfold scale_twist_extrude, normal_extrude, mul_pos22, rotate22.
  cbn. replace (z3 p * (0 / 1)) with 0 by field. rewrite cos_0, sin_0. apply v2_ext; cbn; field.
Qed.

(** ** C42 *)
(** Contained when Max is the corner of the profile box farthest from the axis. *)
Theorem C42_twist_partial s h twist p : (forall q, ev2 s q < 0 -> in2 (bb2 s) q) ->
  Rabs (x2 (min2 (bb2 s))) <= x2 (max2 (bb2 s)) -> Rabs (y2 (min2 (bb2 s))) <= y2 (max2 (bb2 s)) ->
  ev3 (twist_extrude3d s h twist) p < 0 -> in3 (bb3 (twist_extrude3d s h twist)) p.
Proof.
  intros D X Y V. eapply (dom3_contain Contain 1); [|lra|exact V]. apply contain_twist; auto; try lra.
  apply dom2_contain_iff; [lra|exact D].
Qed.
Theorem C42_twist_refuted : exists s c p, must_circle 1 = Ok c /\ s = transform2d c (translate2d (V2 (-1) 0)) /\
  ev3 (twist_extrude3d s 2 0) p < 0 /\ ~ in3 (bb3 (twist_extrude3d s 2 0)) p.
Proof.
  unfold must_circle. rewrite (proj2 (Rltb_false 1 0)) by lra. set (c := S2 _ _).
  set (s := transform2d c (translate2d (V2 (-1) 0))).
  exists s, c, (V3 (-19/10) 0 0). split; [reflexivity|]. split; [reflexivity|]. split.
  - rewrite C41_twist_zero by lra. apply C39_extrude. cbn [x3 y3 z3]. split; [|rewrite Rabs_R0; lra].
    unfold s. rewrite ev_transform2. unfold c; cbn [ev2].
    assert (E : mul_pos2 (inverse33 (translate2d (V2 (-1) 0))) (V2 (-19/10) 0) = V2 (-9/10) 0).
    { destruct C34_basic_maps as (_ & T & _).
      destruct (T (V2 (-1) 0) (V2 (-9/10) 0)) as (M & A & D). 
      replace (V2 (-19/10) 0) with (mul_pos2 (translate2d (V2 (-1) 0)) (V2 (-9/10) 0)) by (rewrite M; apply v2_ext; cbn; lra).
      apply inv_pos2; [exact A|rewrite D; lra]. }
    rewrite E. unfold norm2, norm2sq, dot2; cbn [x2 y2].
    match goal with |- sqrt ?e - 1 < 0 => assert (sqrt e < 1); [|lra]; apply sqrt_lt_of; lra end.
  - intros ((H & _) & _). cbn [bb3 twist_extrude3d min3 x3] in H.
    assert (B : max2 (bb2 s) = V2 0 1).
    { unfold s, transform2d, c; cbn [bb2]. unfold mul_box2; cbn. apply v2_ext; cbn; rmm; lra. }
    rewrite B in H. replace (norm2 (V2 0 1)) with 1 in H; [lra|].
    unfold norm2, norm2sq, dot2; cbn. replace (_ + _) with 1 by ring. symmetry; apply sqrt_1.
Qed.
Theorem C42_scale_twist_refuted : exists s p, must_circle 1 = Ok s /\
  ev3 (scale_twist_extrude3d s 4 0 (V2 1 1)) p < 0 /\ ~ in3 (bb3 (scale_twist_extrude3d s 4 0 (V2 1 1))) p.
Proof.
  unfold must_circle. rewrite (proj2 (Rltb_false 1 0)) by lra. set (s := S2 _ _). exists s, (V3 10 0 (-13/10)). split; [reflexivity|].
  assert (N : forall a, norm2 (V2 a 0) = Rabs a).
  { intros a. unfold norm2, norm2sq, dot2; cbn [x2 y2]. replace (a * a + 0 * 0) with (Rsqr a) by (unfold Rsqr; ring). apply sqrt_Rsqr_abs. }
  split.
  - cbn [ev3 scale_twist_extrude3d]. unfold extrude_eval. apply Rmax_neg. split; [|cbn [z3]; rewrite Rabs_left; lra].
    replace (scale_twist_extrude 4 0 (V2 1 1) (V3 10 0 (-13/10))) with (V2 (1/4) 0).
    { unfold s; cbn [ev2]. rewrite N, Rabs_right; lra. }
    unfold scale_twist_extrude, mul_pos22, rotate22. cbn. replace (-13 / 10 * (0 / 4)) with 0 by field. rewrite cos_0, sin_0. apply v2_ext; cbn; field.
  - intros ((_ & H) & _). cbn [bb3 scale_twist_extrude3d max3 x3] in H.
    assert (B : norm2 (max2 (scaled_box (bb2 s) (V2 1 1))) <= 2).
    { unfold norm2. apply sqrt_le_of; [lra|]. unfold norm2sq, dot2, s, scaled_box, extend2; cbn. rmm; lra. }
    lra.
Qed.

(** ** C43 *)
(** A turn of theta: the polar angle of the point is strictly between 0 and theta. *)
Definition in_turn (theta : R) (p : v3) : Prop :=
  0 < sqrt (x3 p * x3 p + y3 p * y3 p) /\
  exists t, 0 < t < theta /\ x3 p = sqrt (x3 p * x3 p + y3 p * y3 p) * cos t /\ y3 p = sqrt (x3 p * x3 p + y3 p * y3 p) * sin t.
Lemma revolve_full s theta : 0 < theta -> Rabs (theta - 2 * PI) < tolerance ->
  exists b, revolve3d (Some s) theta = Ok (S3 (fun p => Rmax (ev2 s (rho p)) (ev2 s (rho p))) b).
Proof.
  intros T K. unfold revolve3d. rewrite (proj2 (Rleb_false theta 0)) by lra. rewrite (proj2 (Rltb_true _ _) K).
  rewrite Rabs_R0, (modR_small 0 tau) by (unfold tau; pose proof PI_RGT_0; lra). rewrite Reqb_refl. cbn [set_min2 set_max2 bind].
  eexists. unfold revolve_eval. rewrite Reqb_refl. cbn [negb]. reflexivity.
Qed.
Theorem C43_revolve_partial s theta :
  (theta <= 0 -> revolve3d (Some s) theta = Ok (empty3 zero3)) /\
  (forall s', Rabs (theta - 2 * PI) < tolerance -> revolve3d (Some s) theta = Ok s' ->
     forall p, ev3 s' p < 0 <-> ev2 s (V2 (sqrt (x3 p * x3 p + y3 p * y3 p)) (z3 p)) < 0) /\
  (forall s', 0 < theta < 2 * PI -> tolerance <= Rabs (theta - 2 * PI) -> revolve3d (Some s) theta = Ok s' ->
     forall p, ev3 s' p < 0 <-> ev2 s (V2 (sqrt (x3 p * x3 p + y3 p * y3 p)) (z3 p)) < 0 /\ in_turn theta p) /\
  revolve3d None theta = Panicked.
Proof.
  pose proof PI_RGT_0 as HP. assert (TP : tolerance < 1) by (unfold tolerance; rewrite <- Rinv_1; apply Rinv_lt_contravar; cbn; lra).
  assert (P3 : 3 < PI) by (pose proof PI2_3_2; unfold PI2 in *; lra).
  split; [|split; [|split]].
  - intros T. unfold revolve3d. now rewrite (proj2 (Rleb_true theta 0) T).
  - intros s' K E p. destruct (revolve_full s theta) as (b & F); [clear - K TP P3; rmm; lra|exact K|]. rewrite F in E. inversion E. cbn [ev3].
    fold (rho p). rewrite Rmax_neg. tauto.
  - intros s' T K E p. destruct (revolve_partial s theta T K) as (b & F & _). rewrite F in E. inversion E. cbn [ev3]. fold (rho p).
    rewrite Rmax_neg. rewrite (sector_spec theta (xy p) T). reflexivity.
  - reflexivity.
Qed.
Theorem C43_bounds_partial s theta s' p : theta < 2 * PI \/ Rabs (theta - 2 * PI) < tolerance ->
  (forall q, ev2 s q < 0 -> in2 (bb2 s) q) -> revolve3d (Some s) theta = Ok s' -> ev3 s' p < 0 -> in3 (bb3 s') p.
Proof.
  intros T D E V. eapply (dom3_contain Contain (Rmin 1 max_float64)); [|apply Rmin_pos; [lra|apply max_float64_pos]|exact V].
  pose proof max_float64_pos as M.
  eapply contain_revolve; [| |exact T| |exact E].
  - apply Rmin_pos; lra.
  - apply Rmin_r.
  - apply dom2_contain_iff; [apply Rmin_pos; lra|exact D].
Qed.
(** Angles beyond a full turn: two turns give the full solid with a flat Bounds, and one and
    a half turns give only half the solid. *)
Lemma mod_4PI : modR (Rabs (4 * PI)) tau = 0.
Proof.
  pose proof PI_RGT_0. rewrite Rabs_right by lra. replace (4 * PI) with (0 + IZR 2 * tau) by (unfold tau; lra).
  rewrite modR_shift by (unfold tau; lra). apply modR_small. unfold tau; lra.
Qed.
Lemma mod_3PI : modR (Rabs (3 * PI)) tau = PI.
Proof.
  pose proof PI_RGT_0. rewrite Rabs_right by lra. replace (3 * PI) with (PI + IZR 1 * tau) by (unfold tau; lra).
  rewrite modR_shift by (unfold tau; lra). apply modR_small. unfold tau; lra.
Qed.
Theorem C43_two_turns_refuted : exists s s' p, must_circle 1 = Ok s /\ revolve3d (Some s) (4 * PI) = Ok s' /\
  ev3 s' p < 0 /\ ~ in3 (bb3 s') p.
Proof.
  pose proof PI_RGT_0 as HP. assert (P3 : 3 < PI) by (pose proof PI2_3_2; unfold PI2 in *; lra).
  assert (TP : tolerance < 1) by (unfold tolerance; rewrite <- Rinv_1; apply Rinv_lt_contravar; cbn; lra).
  unfold must_circle. rewrite (proj2 (Rltb_false 1 0)) by lra. set (s := S2 _ _).
  unfold revolve3d. rewrite (proj2 (Rleb_false (4 * PI) 0)) by lra. rewrite (proj2 (Rltb_false (Rabs (4 * PI - 2 * PI)) tolerance)) by (rewrite Rabs_right; lra).
  rewrite mod_4PI. rewrite (proj2 (Reqb_false (4 * PI) 0)) by lra.
  rewrite (proj2 (Rltb_false (1/2 * PI) 0)), (proj2 (Rltb_false PI 0)), (proj2 (Rltb_false (3/2 * PI) 0)) by lra. cbn [app].
  rewrite cos_0, sin_0. cbn [set_min2 set_max2 bind fold_left].
  eexists s, _, (V3 0 (1/2) 0). split; [reflexivity|]. split; [reflexivity|]. split.
  - cbn [ev3]. unfold revolve_eval. rewrite Reqb_refl. cbn [negb x3 y3 z3]. apply Rmax_neg.
    assert (Q : ev2 s (V2 (sqrt (0 * 0 + 1 / 2 * (1 / 2))) 0) < 0); [|tauto].
    unfold s; cbn [ev2]. replace (0 * 0 + 1 / 2 * (1 / 2)) with (Rsqr (1/2)) by (unfold Rsqr; ring). rewrite sqrt_Rsqr by lra.
    unfold norm2, norm2sq, dot2; cbn [x2 y2]. match goal with |- sqrt ?e - 1 < 0 => assert (sqrt e < 1); [|lra]; apply sqrt_lt_of; lra end.
  - intros (_ & (_ & H) & _). revert H. cbn. rmm; lra.
Qed.
Theorem C43_wrap_refuted : exists s s' p, must_circle 1 = Ok s /\ revolve3d (Some s) (3 * PI) = Ok s' /\
  in_turn (3 * PI) p /\ ev2 s (V2 (sqrt (x3 p * x3 p + y3 p * y3 p)) (z3 p)) < 0 /\ 0 < ev3 s' p.
Proof.
  pose proof PI_RGT_0 as HP. assert (P3 : 3 < PI) by (pose proof PI2_3_2; unfold PI2 in *; lra).
  assert (TP : tolerance < 1) by (unfold tolerance; rewrite <- Rinv_1; apply Rinv_lt_contravar; cbn; lra).
  unfold must_circle. rewrite (proj2 (Rltb_false 1 0)) by lra. set (s := S2 _ _).
  unfold revolve3d. rewrite (proj2 (Rleb_false (3 * PI) 0)) by lra. rewrite (proj2 (Rltb_false (Rabs (3 * PI - 2 * PI)) tolerance)) by (rewrite Rabs_right; lra).
  rewrite mod_3PI. rewrite (proj2 (Reqb_false (3 * PI) 0)) by lra.
  rewrite (proj2 (Rltb_true (1/2 * PI) PI)), (proj2 (Rltb_false PI PI)), (proj2 (Rltb_false (3/2 * PI) PI)) by lra. cbn [app].
  cbn [set_min2 set_max2 bind fold_left].
  assert (Q : sqrt (0 * 0 + -1 / 2 * (-1 / 2)) = 1/2).
  { replace (0 * 0 + -1 / 2 * (-1 / 2)) with (Rsqr (1/2)) by (unfold Rsqr; field). apply sqrt_Rsqr; lra. }
  eexists s, _, (V3 0 (-1/2) 0). split; [reflexivity|]. split; [reflexivity|]. cbn [x3 y3 z3]. rewrite Q. split; [|split].
  - unfold in_turn. cbn [x3 y3]. rewrite Q. split; [lra|]. exists (3 * (PI / 2)). split; [lra|]. rewrite cos_3PI2, sin_3PI2. lra.
  - unfold s; cbn [ev2]. unfold norm2, norm2sq, dot2; cbn [x2 y2].
    match goal with |- sqrt ?e - 1 < 0 => assert (sqrt e < 1); [|lra]; apply sqrt_lt_of; lra end.
  - cbn [ev3]. unfold revolve_eval. rewrite (proj2 (Reqb_false PI 0)) by lra. cbn [negb]. rewrite (proj2 (Rltb_false PI PI)) by lra.
    eapply Rlt_le_trans; [|apply Rmax_r]. cbn [y3]. unfold dot2; cbn. rewrite cos_PI, sin_PI. apply Rmin_pos; lra.
Qed.
Example C43_example : exists s s', must_circle 1 = Ok s /\ revolve3d (Some s) PI = Ok s' /\ ev3 s' (V3 0 (1/2) 0) < 0 /\ 0 <= ev3 s' (V3 0 (-1/2) 0).
Proof.
  pose proof PI_RGT_0 as HP. assert (P3 : 3 < PI) by (pose proof PI2_3_2; unfold PI2 in *; lra).
  assert (TP : tolerance < 1) by (unfold tolerance; rewrite <- Rinv_1; apply Rinv_lt_contravar; cbn; lra).
  unfold must_circle. rewrite (proj2 (Rltb_false 1 0)) by lra. set (s := S2 _ _). exists s.
  destruct (revolve_partial s PI) as (b & E & _); [lra|rewrite Rabs_left; lra|]. eexists. split; [reflexivity|]. split; [exact E|].
  cbn [ev3]. unfold sector_fn, rho, xy, dot2. cbn [x2 y2 x3 y3 z3]. rewrite (proj2 (Rltb_false PI PI)), sin_PI, cos_PI by lra. split.
  - apply Rmax_neg. split; [|apply Rmin_case; lra].
    replace (0 * 0 + 1 / 2 * (1 / 2)) with (Rsqr (1/2)) by (unfold Rsqr; ring). rewrite sqrt_Rsqr by lra.
    unfold s; cbn [ev2]. unfold norm2, norm2sq, dot2; cbn [x2 y2]. match goal with |- sqrt ?e - 1 < 0 => assert (sqrt e < 1); [|lra]; apply sqrt_lt_of; lra end.
  - eapply Rle_trans; [|apply Rmax_r]. apply Rmin_glb; lra.
Qed.

(** ** C51 *)
Theorem C51_levels :
  (forall s d p, ev3 (offset3d s d) p < 0 <-> ev3 s p < d) /\
  (forall s d p, ev2 (offset2d s d) p < 0 <-> ev2 s p < d) /\
  (forall s t p, 0 < t -> (ev3 (shell3d s t) p < 0 <-> Rabs (ev3 s p) < t / 2)) /\
  (forall s t, t <= 0 -> shell3d s t = empty3 (center3 (bb3 s)) /\ forall p, 0 < ev3 (shell3d s t) p).
Proof.
  split; [|split; [|split]].
  - intros. cbn [ev3 offset3d]. lra.
  - intros. cbn [ev2 offset2d]. lra.
  - intros s t p T. unfold shell3d. rewrite (proj2 (Rleb_false t 0)) by auto. cbn [ev3]. lra.
  - intros s t T. unfold shell3d. rewrite (proj2 (Rleb_true t 0)) by auto. split; [reflexivity|]. intros p. apply max_float64_pos.
Qed.
(** For exact fields: the offset is the set of points closer than d, and the shell the points
    closer than t/2 to the boundary. *)
Theorem C51_exact s S d p : exact3 s S -> 0 < d ->
  (ev3 (offset3d s d) p < 0 <-> exists q, S q /\ dist3 p q < d).
Proof.
  intros (E & _) D. rewrite (proj1 C51_levels). destruct (E p) as (E1 & E2). split.
  - intros L. destruct (Rle_or_lt 0 (ev3 s p)) as [V|V].
    + destruct (E1 V) as ((q & Q & Dq) & _). exists q. split; [auto|lra].
    + exists p. rewrite dist3_refl. split; [|lra]. apply E2; [lra|]. rewrite dist3_refl. lra.
  - intros (q & Q & Dq). destruct (Rle_or_lt 0 (ev3 s p)) as [V|V]; [|lra]. destruct (E1 V) as (_ & L). specialize (L q Q). lra.
Qed.
(** A Lipschitz field that changes sign between two points vanishes on the segment. *)
Lemma lip3_zero f p q : lip3 f -> f p < 0 -> 0 < f q -> exists z, f z = 0 /\ dist3 p z <= dist3 p q.
Proof.
  intros L A B. set (g := fun t => f (add3 p (scale3 t (sub3 q p)))). set (D := dist3 p q).
  assert (DD : forall t u, dist3 (add3 p (scale3 t (sub3 q p))) (add3 p (scale3 u (sub3 q p))) = Rabs (t - u) * D).
  { intros t u. unfold D, dist3. replace (sub3 (add3 p (scale3 t (sub3 q p))) (add3 p (scale3 u (sub3 q p)))) with (scale3 (u - t) (sub3 p q)) by (apply v3_ext; cbn; ring).
    rewrite norm3_scale. f_equal. apply Rabs_minus_sym. }
  assert (D0 : 0 <= D) by apply dist3_nonneg.
  assert (C : continuity g).
  { intros t e E. exists (e / (D + 1)). split; [apply Rdiv_lt_0_compat; lra|]. intros u (_ & U). cbn in U |- *. unfold R_dist in *.
    unfold g. eapply Rle_lt_trans; [apply L|]. rewrite DD.
    apply Rle_lt_trans with (e / (D + 1) * D); [apply Rmult_le_compat_r; lra|].
    replace (e / (D + 1) * D) with (e - e / (D + 1)) by (field; lra). assert (0 < e / (D + 1)) by (apply Rdiv_lt_0_compat; lra). lra. }
  destruct (IVT g 0 1 C) as (t & T & Z); [lra| | |].
  - unfold g. replace (add3 p (scale3 0 (sub3 q p))) with p by (apply v3_ext; cbn; ring). exact A.
  - unfold g. replace (add3 p (scale3 1 (sub3 q p))) with q by (apply v3_ext; cbn; ring). exact B.
  - exists (add3 p (scale3 t (sub3 q p))). split; [exact Z|].
    replace p with (add3 p (scale3 0 (sub3 q p))) at 1 by (apply v3_ext; cbn; ring). rewrite DD. fold D.
    replace (0 - t) with (- t) by ring. rewrite Rabs_Ropp, Rabs_right by lra. nra.
Qed.
Theorem C51_shell_exact s S t p : exact3 s S -> 0 < t ->
  (ev3 (shell3d s t) p < 0 <-> exists q, ev3 s q = 0 /\ dist3 p q < t / 2).
Proof.
  intros X T. pose proof (exact3_lip s S X) as L. destruct X as (E & _). destruct C51_levels as (_ & _ & H & _). rewrite (H s t p T). clear H. split.
  - intros V. destruct (E p) as (E1 & E2). destruct (Rle_or_lt 0 (ev3 s p)) as [P|P].
    + rewrite Rabs_right in V by lra. destruct (E1 P) as ((q & Q & Dq) & _). exists q. split; [|lra].
      assert (ev3 s q <= 0).
      { destruct (Rle_or_lt (ev3 s q) 0) as [|N]; [assumption|]. destruct (E q) as (F & _). destruct (F (Rlt_le _ _ N)) as (_ & F2). specialize (F2 q Q). rewrite dist3_refl in F2. lra. }
      pose proof (L p q). revert H0. unfold Rabs. destruct Rcase_abs; lra.
    + rewrite Rabs_left in V by lra. destruct (E2 (Rlt_le _ _ P)) as (_ & F). destruct (F (t / 2 + ev3 s p)) as (q & Q & Dq); [lra|].
      assert (N : 0 < ev3 s q).
      { apply Rnot_le_lt. intros C. apply Q. destruct (E q) as (_ & F2). apply (F2 C). rewrite dist3_refl. lra. }
      destruct (lip3_zero (ev3 s) p q L P N) as (z & Z & Dz). exists z. split; [exact Z|lra].
  - intros (q & Q & D). pose proof (L p q) as K. rewrite Q, Rminus_0_r in K. lra.
Qed.
Example C51_example : exists s, must_sphere 1 = Ok s /\ ev3 (offset3d s 1) (V3 (3/2) 0 0) < 0 /\ 0 < ev3 (shell3d s (1/2)) zero3.
Proof.
  unfold must_sphere. rewrite (proj2 (Rleb_false 1 0)) by lra. eexists. split; [reflexivity|]. split.
  - apply C51_levels. cbn [ev3]. unfold norm3, norm3sq, dot3; cbn [x3 y3 z3].
    match goal with |- sqrt ?e - 1 < 1 => assert (sqrt e < 2); [|lra]; apply sqrt_lt_of; lra end.
  - unfold shell3d. rewrite (proj2 (Rleb_false (1/2) 0)) by lra. cbn [ev3].
    replace (norm3 zero3) with 0 by (symmetry; now apply norm3_zero_iff). rewrite Rabs_left; lra.
Qed.

(** ** C52 *)
Definition accepted_loft (height round : R) : Prop := 0 < height /\ 0 <= round /\ 2 * round < height.
Lemma loft3d_ok s0 s1 height round : 0 < height -> 0 <= round -> 2 * round <= height ->
  exists b, loft3d (Some s0) (Some s1) height round = Ok (S3 (loft_eval s0 s1 (height / 2 - round) round) b).
Proof.
  intros H R L. unfold loft3d. rewrite (proj2 (Rleb_false height 0)), (proj2 (Rltb_false round 0)), (proj2 (Rltb_false height (2 * round))) by lra.
  eexists. reflexivity.
Qed.
(** Sections: at height z of the un-rounded part the solid is the linear blend of the two
    profile fields at level [round]; without rounding the faces themselves are excluded. *)
Theorem C52_sections_partial s0 s1 height round s' p : accepted_loft height round ->
  loft3d (Some s0) (Some s1) height round = Ok s' -> Rabs (z3 p) <= height / 2 - round ->
  (ev3 s' p < 0 <->
     let k := (z3 p + (height / 2 - round)) / (height - 2 * round) in
     (1 - k) * ev2 s0 (V2 (x3 p) (y3 p)) + k * ev2 s1 (V2 (x3 p) (y3 p)) < round /\ (round = 0 -> Rabs (z3 p) < height / 2)).
Proof.
  intros (H & R & L) E Z. destruct (loft3d_ok s0 s1 height round H R (Rlt_le _ _ L)) as (b & F). rewrite F in E. inversion E. clear F E H1 s'.
  cbn [ev3]. unfold loft_eval. rewrite round_combine_quad. cbn zeta. fold (xy p).
  set (a0 := ev2 s0 (xy p)). set (a1 := ev2 s1 (xy p)). set (h := height / 2 - round) in *.
  assert (Hh : 0 < h) by (unfold h; lra).
  assert (K : 1 / 2 * z3 p / h + 1 / 2 = (z3 p + h) / (height - 2 * round)).
  { replace (height - 2 * round) with (2 * h) by (unfold h; lra). field. lra. }
  rewrite K. set (k := (z3 p + h) / (height - 2 * round)) in *.
  assert (K1 : 0 <= k <= 1).
  { assert (ZB : - h <= z3 p <= h) by (clear - Z; revert Z; rmm; lra). unfold k. replace (height - 2 * round) with (2 * h) by (unfold h; lra).
    split; apply (Rmult_le_reg_r (2 * h)); try lra; unfold Rdiv; rewrite Rmult_assoc, Rinv_l by lra; lra. }
  unfold clamp. rewrite (proj2 (Rltb_false k 0)), (proj2 (Rltb_false 1 k)) by lra. unfold mix.
  replace (a0 + k * (a1 - a0)) with ((1 - k) * a0 + k * a1) by ring. set (a := (1 - k) * a0 + k * a1). unfold quad.
  rewrite (proj2 (Rltb_false 0 (Rabs (z3 p) - h))) by lra. assert (RZ : round = 0 -> h = height / 2) by (unfold h; lra). clearbody a h. clear - R Z RZ Hh.
  destruct (Rltb a 0) eqn:A; [apply Rltb_true in A|apply Rltb_false in A].
  - split.
    + intros V. split; [lra|]. intros R0. specialize (RZ R0). revert V. unfold Rmax. destruct Rle_dec; lra.
    + intros (V & W). destruct (Req_dec round 0) as [R0|R0]; [specialize (RZ R0); specialize (W R0)|]; unfold Rmax; destruct Rle_dec; lra.
  - split; [intros V; split; [lra|intros; lra]|intros (V & _); lra].
Qed.
(** The bottom and top of the un-rounded part are the two profiles, and every other accepted or
    rejected argument is defined. *)
Theorem C52_faces_partial s0 s1 height round s' x y : accepted_loft height round -> 0 < round ->
  loft3d (Some s0) (Some s1) height round = Ok s' ->
  (ev3 s' (V3 x y (- (height / 2 - round))) < 0 <-> ev2 s0 (V2 x y) < round) /\
  (ev3 s' (V3 x y (height / 2 - round)) < 0 <-> ev2 s1 (V2 x y) < round).
Proof.
  intros A R E. pose proof A as (H & R0 & L). split.
  - rewrite (C52_sections_partial s0 s1 height round s' _ A E) by (cbn [z3]; rewrite Rabs_Ropp, Rabs_right; lra). cbn [x3 y3 z3].
    replace (- (height / 2 - round) + (height / 2 - round)) with 0 by ring. unfold Rdiv. rewrite Rmult_0_l. cbn zeta.
    split; [intros (V & _); lra|intros V; split; [lra|lra]].
  - rewrite (C52_sections_partial s0 s1 height round s' _ A E) by (cbn [z3]; rewrite Rabs_right; lra). cbn [x3 y3 z3].
    replace ((height / 2 - round + (height / 2 - round)) / (height - 2 * round)) with 1 by (field; lra). cbn zeta.
    split; [intros (V & _); lra|intros V; split; [lra|lra]].
Qed.
Theorem C52_degenerate_partial s0 s1 height round : height <= 0 \/ round < 0 \/ height < 2 * round ->
  loft3d (Some s0) (Some s1) height round = Ok (empty3 zero3) /\ loft3d None (Some s1) height round = Panicked /\ loft3d (Some s0) None height round = Panicked.
Proof.
  intros D. split; [|split; reflexivity]. unfold loft3d. destruct (Rleb height 0) eqn:A; [reflexivity|]. apply Rleb_false in A.
  destruct (Rltb round 0) eqn:B; [reflexivity|]. apply Rltb_false in B. rewrite (proj2 (Rltb_true height (2 * round))) by lra. reflexivity.
Qed.
Theorem C52_bounds_partial s0 s1 height s' p :
  (forall q, ev2 s0 q < 0 -> in2 (bb2 s0) q) -> (forall q, ev2 s1 q < 0 -> in2 (bb2 s1) q) ->
  loft3d (Some s0) (Some s1) height 0 = Ok s' -> ev3 s' p < 0 -> in3 (bb3 s') p.
Proof.
  intros D0 D1 E V. pose proof max_float64_pos as M. eapply (dom3_contain Contain max_float64); [|exact M|exact V].
  eapply (contain_loft max_float64 s0 s1 height s' M (Rle_refl _)); [| |exact E]; apply dom2_contain_iff; assumption.
Qed.
(** With rounding the profiles' fields must not grow slower than distance: a stretched circle
    (a plain non-uniform Transform2D) escapes the Bounds. *)
Theorem C52_bounds_refuted : exists c s s' p, must_circle 1 = Ok c /\ s = transform2d c (scale2d (V2 10 1)) /\
  (forall q, ev2 s q < 0 -> in2 (bb2 s) q) /\
  loft3d (Some s) (Some s) 4 1 = Ok s' /\ ev3 s' p < 0 /\ ~ in3 (bb3 s') p.
Proof.
  unfold must_circle. rewrite (proj2 (Rltb_false 1 0)) by lra. eexists _, _, _, (V3 14 0 0). split; [reflexivity|]. split; [reflexivity|].
  assert (I : forall q, mul_pos2 (inverse33 (scale2d (V2 10 1))) q = V2 (x2 q / 10) (y2 q)).
  { intros q. unfold mul_pos2, inverse33, det33, scale2d. apply v2_ext; cbn [x2 y2 b00 b01 b02 b10 b11 b12 b20 b21 b22]; field. }
  split; [|split; [|split]].
  - intros q. cbn [transform2d ev2 bb2]. rewrite I. intros V.
    assert (Q : x2 q / 10 * (x2 q / 10) + y2 q * y2 q < 1).
    { unfold norm2, norm2sq, dot2 in V; cbn [x2 y2] in V. apply Rnot_le_lt. intros C. apply sqrt_le_1_alt in C. rewrite sqrt_1 in C. lra. }
    assert (X : -1 <= x2 q / 10 <= 1) by (split; nra). assert (Y : -1 <= y2 q <= 1) by (split; nra).
    unfold in2. cbn. clear - X Y. split; rmm; lra.
  - unfold loft3d. rewrite (proj2 (Rleb_false 4 0)), (proj2 (Rltb_false 1 0)), (proj2 (Rltb_false 4 (2 * 1))) by lra. reflexivity.
  - cbn [ev3]. unfold loft_eval, xy. cbn [x3 y3 z3 transform2d ev2]. rewrite I. cbn [x2 y2].
    assert (N : norm2 (V2 (14 / 10) 0) = 14 / 10).
    { unfold norm2, norm2sq, dot2; cbn [x2 y2]. replace (14 / 10 * (14 / 10) + 0 * 0) with (Rsqr (14/10)) by (unfold Rsqr; ring). apply sqrt_Rsqr; lra. }
    rewrite N, round_combine_quad. unfold mix. match goal with |- context [clamp ?x 0 1] => set (k := clamp x 0 1) end. clearbody k.
    replace (14 / 10 - 1 + k * (14 / 10 - 1 - (14 / 10 - 1))) with (4 / 10) by field. unfold quad.
    rewrite Rabs_R0, (proj2 (Rltb_false 0 (0 - (4 / 2 - 1)))), (proj2 (Rltb_false (4 / 10) 0)) by lra. lra.
  - intros ((_ & H) & _). revert H. cbn. clear. rmm; lra.
Qed.
(** The accepted height = 2 round: the float evaluation at z = 0 (every operation in binary64). *)
Definition clamp_f (x a b : spec_float) : spec_float := if SFltb x a then a else if SFltb b x then b else x.
Definition half_f : spec_float := S754_finite false 4503599627370496 (-53).
Definition one_f : spec_float := S754_finite false 4503599627370496 (-52).
Definition two_f : spec_float := S754_finite false 4503599627370496 (-51).
(** sdf3.go:306-336 with [a0], [a1] the two profile values. *)
Definition loft_eval_f (a0 a1 z h round : spec_float) : spec_float :=
  let k := clamp_f (fadd (fdiv (fmul half_f z) h) half_f) (S754_zero false) one_f in
  let a := fadd a0 (fmul k (fsub a1 a0)) in
  let b := fsub (SFabs z) h in
  let d := if SFltb (S754_zero false) b then (if SFltb a (S754_zero false) then b else SFsqrt 53 1024 (fadd (fmul a a) (fmul b b)))
           else (if SFltb a (S754_zero false) then (if SFltb a b then b else a) else a) in
  fsub d round.
Theorem C52_nan_refuted :
  fsub (fdiv two_f two_f) one_f = S754_zero false /\
  SFltb two_f (fmul two_f one_f) = false /\
  forall a0 a1 round, loft_eval_f a0 a1 (S754_zero false) (S754_zero false) round = S754_nan.
Proof.
  split; [vm_compute; reflexivity|]. split; [vm_compute; reflexivity|]. intros a0 a1 round. unfold loft_eval_f.
  replace (fadd (fdiv (fmul half_f (S754_zero false)) (S754_zero false)) half_f) with S754_nan by (vm_compute; reflexivity).
  replace (clamp_f S754_nan (S754_zero false) one_f) with S754_nan by (vm_compute; reflexivity).
  assert (M : forall y, fmul S754_nan y = S754_nan) by (intros []; reflexivity). rewrite M.
  assert (A : forall y, fadd y S754_nan = S754_nan) by (intros []; reflexivity). rewrite A.
  replace (fsub (SFabs (S754_zero false)) (S754_zero false)) with (S754_zero false) by (vm_compute; reflexivity).
  cbn. destruct round; reflexivity.
Qed.
Example C52_example : exists c0 c1 s', must_circle 2 = Ok c0 /\ must_circle 1 = Ok c1 /\ loft3d (Some c0) (Some c1) 4 0 = Ok s' /\
  ev3 s' (V3 (7/4) 0 (-3/2)) < 0 /\ 0 <= ev3 s' (V3 (7/4) 0 (3/2)).
Proof.
  unfold must_circle. rewrite (proj2 (Rltb_false 2 0)), (proj2 (Rltb_false 1 0)) by lra. set (c0 := S2 _ _). set (c1 := S2 _ _).
  assert (A : accepted_loft 4 0) by (unfold accepted_loft; lra).
  destruct (loft3d_ok c0 c1 4 0) as (b & F); try lra. exists c0, c1. eexists. split; [reflexivity|]. split; [reflexivity|]. split; [exact F|].
  assert (N : norm2 (V2 (7 / 4) 0) = 7 / 4).
  { unfold norm2, norm2sq, dot2; cbn [x2 y2]. replace (7 / 4 * (7 / 4) + 0 * 0) with (Rsqr (7/4)) by (unfold Rsqr; ring). apply sqrt_Rsqr; lra. }
  split.
  - apply (C52_sections_partial c0 c1 4 0 _ _ A F); cbn [x3 y3 z3]; [rewrite Rabs_left; lra|]. cbn zeta. unfold c0, c1; cbn [ev2]. rewrite N.
    split; [lra|]. intros _. rewrite Rabs_left; lra.
  - apply Rnot_lt_le. intros V. apply (C52_sections_partial c0 c1 4 0 _ _ A F) in V; cbn [x3 y3 z3] in *; [|rewrite Rabs_right; lra]. destruct V as (V & _).
    unfold c0, c1 in V; cbn [ev2] in V. rewrite N in V. lra.
Qed.
