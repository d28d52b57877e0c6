(** C105: the width across flats of hexagonal heads. *)
From Coq Require Import String Reals Lra Psatz Lia List Bool ZArith.
From Verif Require Import Prelude Vec BoxModel MatrixModel PropsBox PropsMatrix SdfModel SdfLemmas PropsBool PropsCopies Trig PropsUtil PrimModel
  PolyModel PropsPoly ObjModel PropsForm PropsThread PropsThreadShape PropsConvex PropsParts.
Import ListNotations.
Local Open Scope R_scope.

Local Transparent max_float64.
Lemma max_float64_e200 : 10 ^ 100 * 10 ^ 100 <= max_float64.
Proof.
  rewrite <- pow_add. replace (100 + 100)%nat with 200%nat by lia. apply Rle_trans with ((2 ^ 4) ^ 200); [apply pow_incr; simpl; lra|]. rewrite <- pow_mult. replace (4 * 200)%nat with 800%nat by lia.
  apply Rle_trans with (2 ^ 1023); [apply Rle_pow; [lra|lia]|]. unfold max_float64. assert (0 < / 2 ^ 52 <= 1) by (split; [apply Rinv_0_lt_compat, pow_lt; lra|rewrite <- Rinv_1; apply Rinv_le_contravar; [lra|apply pow_R1_Rle; lra]]).
  assert (0 < 2 ^ 1023) by (apply pow_lt; lra). set (x := 2 ^ 1023) in *. set (y := / 2 ^ 52) in *. clearbody x y. nra.
Qed.
Local Opaque max_float64.
(** the directions of the six flats *)
Definition flat_dir (i : nat) : v2 := V2 (cos ((INR i + 1/2) * (PI / 3))) (sin ((INR i + 1/2) * (PI / 3))).
Lemma flat_unit i : norm2 (flat_dir i) = 1.
Proof. unfold norm2, norm2sq, dot2, flat_dir. cbn [x2 y2]. transitivity (sqrt 1); [|apply sqrt_1]. f_equal. pose proof (sin2_cos2 ((INR i + 1/2) * (PI / 3))) as H. unfold Rsqr in H. lra. Qed.
Lemma dot_le_norm a b : norm2 b = 1 -> dot2 a b <= norm2 a.
Proof.
  intros B. destruct (Rle_dec (dot2 a b) 0) as [N|N]; [pose proof (norm2_nonneg a); lra|].
  apply Rnot_le_lt in N. rewrite <- (sqrt_square (dot2 a b)) by lra. apply sqrt_le_1_alt.
  assert (S : norm2sq b = 1). { unfold norm2 in B. rewrite <- (sqrt_sqrt (norm2sq b)); [rewrite B; ring|]. unfold norm2sq, dot2. nra. }
  clear - S. unfold norm2sq, dot2 in *. destruct a as [a1 a2], b as [b1 b2]. cbn [x2 y2] in *. pose proof (Rle_0_sqr (a1 * b2 - a2 * b1)) as Q. unfold Rsqr in Q.
  assert ((a1 * a1 + a2 * a2) = (a1 * a1 + a2 * a2) * (b1 * b1 + b2 * b2)) by (rewrite S; ring). lra.
Qed.
(** the distance of a flat from the axis *)
Definition flat_dist (r : R) : R := 92/100 * r * cos (PI / 6) + 8/100 * r.
Lemma hex_flat r w i : 0 < r -> (i < 6)%nat ->
  (forall p, (exists q, in_hexagon (92/100 * r) q /\ dist2 p q < 8/100 * r) -> dot2 p (flat_dir i) < flat_dist r) /\
  (0 <= w < flat_dist r -> exists q, in_hexagon (92/100 * r) q /\ dist2 (scale2 w (flat_dir i)) q < 8/100 * r).
Proof.
  intros R0 I. pose proof (flat_unit i) as U. split.
  - intros p (q & H & D). specialize (H i I). unfold flat_dist.
    assert (E : dot2 p (flat_dir i) = dot2 (sub2 p q) (flat_dir i) + dot2 q (flat_dir i)) by (unfold dot2, sub2; cbn; ring). rewrite E.
    pose proof (dot_le_norm (sub2 p q) (flat_dir i) U) as L. unfold dist2 in D. unfold dot2 at 2, flat_dir at 2 3. cbn [x2 y2]. lra.
  - intros (W0 & W1). set (a := 92/100 * r * cos (PI / 6)) in *. assert (A0 : 0 < a). { unfold a. rewrite cos_PI6. pose proof s3_pos. nra. }
    assert (IN : forall v, 0 <= v <= a -> in_hexagon (92/100 * r) (scale2 v (flat_dir i))).
    { intros v V j J. unfold scale2, flat_dir. cbn [x2 y2]. fold a. set (s := (INR i + 1/2) * (PI / 3)). set (t := (INR j + 1/2) * (PI / 3)).
      replace (v * cos s * cos t + v * sin s * sin t) with (v * cos (s - t)) by (rewrite cos_minus; ring). pose proof (COS_bound (s - t)). nra. }
    unfold flat_dist in W1. fold a in W1. destruct (Rle_dec w a) as [L|L].
    + exists (scale2 w (flat_dir i)). split; [apply IN; lra|]. unfold dist2. replace (sub2 _ _) with (V2 0 0) by (apply v2_ext; cbn; ring). unfold norm2, norm2sq, dot2. cbn. rewrite !Rmult_0_l, Rplus_0_l, sqrt_0. lra.
    + exists (scale2 a (flat_dir i)). split; [apply IN; lra|]. unfold dist2. replace (sub2 _ _) with (scale2 (w - a) (flat_dir i)) by (apply v2_ext; cbn; ring).
      replace (norm2 (scale2 (w - a) (flat_dir i))) with (w - a); [lra|]. symmetry. transitivity (sqrt ((w - a) * (w - a))); [|apply sqrt_square; lra]. unfold norm2. f_equal. 
      assert (norm2sq (flat_dir i) = 1) as U2. { unfold norm2 in U. rewrite <- (sqrt_sqrt (norm2sq (flat_dir i))); [rewrite U; ring|]. unfold norm2sq, dot2. nra. }
      clear - U2. revert U2. generalize (flat_dir i). intros n U2. unfold norm2sq, dot2, scale2 in *. cbn [x2 y2]. transitivity ((w - a) * (w - a) * (x2 n * x2 n + y2 n * y2 n)); [ring|]. rewrite U2. ring.
Qed.
(** The head of a thread with width across flats F: its flats are at F/2 times 0.92 + 0.16/sqrt 3 from the axis, in all six directions *)
Definition widened : R := 92/100 + 16/100 / sqrt 3.
Lemma flat_widened t : flat_dist (hex_radius t) = tp_hexf2f t / 2 * widened.
Proof. unfold flat_dist, hex_radius, widened. replace (30 * PI / 180) with (PI / 6) by field. rewrite cos_PI6. pose proof s3_pos. field. lra. Qed.
Lemma widened_range : 1012/1000 < widened < 1013/1000.
Proof.
  unfold widened. pose proof s3_pos as P. pose proof s3_sq as Q. assert (B : 173205/100000 < sqrt 3 < 173206/100000) by (split; nra).
  assert (D : 16/100 / sqrt 3 = 16/100 * / sqrt 3) by reflexivity. assert (I : / sqrt 3 * sqrt 3 = 1) by (apply Rinv_l; lra). set (v := / sqrt 3) in *. rewrite D. assert (0 < v) by (apply Rinv_0_lt_compat; lra). split; nra.
Qed.
Lemma head_tolerance t : 1 / 100000 <= tp_hexf2f t -> 0 < hex_radius t /\ tolerance < 92/100 * hex_radius t * sin (PI / 3) /\ hex_radius t <= tp_hexf2f t.
Proof.
  intros F. pose proof s3_pos as P. pose proof s3_sq as Q. assert (B : 173205/100000 < sqrt 3 < 173206/100000) by (split; nra).
  assert (H : hex_radius t * sqrt 3 = tp_hexf2f t). { unfold hex_radius. replace (30 * PI / 180) with (PI / 6) by field. rewrite cos_PI6. field. lra. }
  assert (H0 : 0 < hex_radius t) by nra. rewrite sin_PI3. unfold tolerance. simpl pow. repeat split; nra.
Qed.
Theorem C105_width_partial t round top bottom s : 1 / 100000 <= tp_hexf2f t <= 10 ^ 100 -> rounded_sides round = Some (top, bottom) ->
  hex_head (hex_radius t) (hex_height t) round = Ok s -> forall i, (i < 6)%nat -> let n := flat_dir i in
  (forall p, ev3 s p < 0 -> x3 p * x2 n + y3 p * y2 n < tp_hexf2f t / 2 * widened) /\
  (forall w, 0 <= w < tp_hexf2f t / 2 * widened -> ev3 s (V3 (w * x2 n) (w * y2 n) 0) < 0).
Proof.
  intros (F0 & F1) RS E i I n. destruct (head_tolerance t F0) as (R0 & T & RF). set (r := hex_radius t) in *.
  assert (M : (8/100 * r) * (8/100 * r) <= max_float64).
  { apply Rle_trans with (10 ^ 100 * 10 ^ 100); [nra|]. apply max_float64_e200. }
  pose proof (fun p => C97_hex_head r (hex_height t) round top bottom s p R0 T M RS E) as IN. rewrite <- flat_widened. fold r. split.
  - intros p N. apply IN in N. destruct N as (N & _). exact (proj1 (hex_flat r 0 i R0 I) (V2 (x3 p) (y3 p)) N).
  - intros w W. apply IN. unfold in_hex_head. cbv zeta. cbn [x3 y3 z3]. split; [exact (proj2 (hex_flat r w i R0 I) W)|].
    assert (HH : hex_height t = 10/12 * r) by (unfold hex_height; fold r; lra). rewrite HH, Rabs_R0. split; [lra|].
    assert (WB : 0 <= w <= 878/1000 * r). { unfold flat_dist in W. rewrite cos_PI6 in W. pose proof s3_pos. pose proof s3_sq. assert (sqrt 3 < 17321/10000) by nra. nra. }
    set (zo := sqrt _ - _). assert (Z : 9/10 * r <= zo <= 96/100 * r).
    { unfold zo. rewrite cos_PI6. pose proof s3_sq as Q. replace (16 / 10 * r * (16 / 10 * r) - r * (sqrt 3 / 2) * (r * (sqrt 3 / 2))) with (181/100 * (r * r)) by (replace (r * (sqrt 3 / 2) * (r * (sqrt 3 / 2))) with (r * r * (sqrt 3 * sqrt 3) / 4) by field; rewrite Q; field).
      assert (G : 132/100 * r <= sqrt (181/100 * (r * r)) <= 137/100 * r).
      { split; [rewrite <- (sqrt_square (132/100 * r)) by lra|rewrite <- (sqrt_square (137/100 * r)) by lra]; apply sqrt_le_1_alt; nra. }
      lra. }
    assert (NB : forall z, -(96/100 * r) <= z <= 96/100 * r -> norm3 (V3 (w * x2 n) (w * y2 n) z) < 16/10 * r).
    { intros z Hz. rewrite <- (sqrt_square (16/10 * r)) by lra. apply sqrt_lt_1_alt. unfold norm3sq, dot3. cbn [x3 y3 z3].
      assert (UN : x2 n * x2 n + y2 n * y2 n = 1). { pose proof (sin2_cos2 ((INR i + 1/2) * (PI / 3))) as H. unfold Rsqr in H. unfold n, flat_dir. cbn [x2 y2]. lra. }
      replace (w * x2 n * (w * x2 n) + w * y2 n * (w * y2 n) + z * z) with (w * w * (x2 n * x2 n + y2 n * y2 n) + z * z) by ring. rewrite UN. split; nra. }
    split; intros _; apply NB; lra.
Qed.
(** so no head has the width across flats of its thread *)
Theorem C105_width_refuted t round top bottom s : 1 / 100000 <= tp_hexf2f t <= 10 ^ 100 -> rounded_sides round = Some (top, bottom) ->
  hex_head (hex_radius t) (hex_height t) round = Ok s -> exists p, ev3 s p < 0 /\ x3 p = 0 /\ 101/100 * (tp_hexf2f t / 2) < y3 p.
Proof.
  intros F RS E. destruct (C105_width_partial t round top bottom s F RS E 1 ltac:(lia)) as (_ & H). pose proof widened_range as W.
  exists (V3 (1011/1000 * (tp_hexf2f t / 2) * x2 (flat_dir 1)) (1011/1000 * (tp_hexf2f t / 2) * y2 (flat_dir 1)) 0). split; [apply H; nra|].
  assert (A : (INR 1 + 1/2) * (PI / 3) = PI / 2) by (cbn [INR]; field). unfold flat_dir. cbn [x2 y2 x3 y3]. rewrite A, cos_PI2, sin_PI2. split; [ring|lra].
Qed.
(** the head of a bolt *)
Theorem C105_bolt_refuted k t prof s : bolt k = Ok s -> bo_thread k = Some t -> bo_style k = NutHex -> th_thread t = Ok prof ->
  1 / 100000 <= tp_hexf2f (th_params t) <= 10 ^ 100 ->
  let hr := hex_radius (th_params t) in let tl := bo_total k - bo_shank k in
  let R := y2 (max2 (bb2 prof)) + tl / 2 * tan (tp_taper (th_params t)) in let c := R * (1/2) * sqrt (1/2) in
  0 < R -> c < tl -> PolyModel.tolerance < tl ->
  exists p, ev3 s p < 0 /\ x3 p = 0 /\ z3 p = 0 /\ 101/100 * (tp_hexf2f (th_params t) / 2) < y3 p.
Proof.
  cbv zeta. intros E ET ST PR F R0 C TL. destruct (head_tolerance _ (proj1 F)) as (H0 & T & RF).
  assert (M : (8/100 * hex_radius (th_params t)) * (8/100 * hex_radius (th_params t)) <= max_float64).
  { apply Rle_trans with (10 ^ 100 * 10 ^ 100); [destruct F; nra|]. apply max_float64_e200. }
  assert (T4 : PolyModel.tolerance < hex_radius (th_params t) / 4).
  { pose proof s3_pos as P. pose proof s3_sq as Q. assert (B : 173205/100000 < sqrt 3 < 173206/100000) by (split; nra).
    assert (H : hex_radius (th_params t) * sqrt 3 = tp_hexf2f (th_params t)). { unfold hex_radius. replace (30 * PI / 180) with (PI / 6) by field. rewrite cos_PI6. field. lra. }
    destruct F. unfold tolerance. simpl pow. nra. }
  destruct (C97_bolt k t prof s E ET PR T4 M R0 C TL) as (sc & _ & IN).
  destruct (hex_head_ok (hex_radius (th_params t)) (hex_height (th_params t)) "b" H0) as (hd & EH).
  destruct (C105_width_partial _ "b" false true hd F eq_refl EH 1 ltac:(lia)) as (_ & H). pose proof widened_range as W. set (f := tp_hexf2f (th_params t)) in *.
  assert (A : (INR 1 + 1/2) * (PI / 3) = PI / 2) by (cbn [INR]; field).
  exists (V3 0 (1011/1000 * (f / 2)) 0). cbn [x3 y3 z3]. split; [|repeat split; destruct F; lra]. apply IN. left. rewrite ST. cbn [in_bolt_head].
  specialize (H (1011/1000 * (f / 2)) ltac:(destruct F; nra)). unfold flat_dir in H. cbn [x2 y2] in H. rewrite A, cos_PI2, sin_PI2 in H. rewrite Rmult_0_r, Rmult_1_r in H.
  now apply (C97_hex_head (hex_radius (th_params t)) _ "b" false true hd _ H0 T M eq_refl EH).
Qed.
(** Example: the head of an M16 bolt is wider than its 24 mm *)
Example C105_example : exists s, hex_head (hex_radius (th_params (iso 16 2 true))) (hex_height (th_params (iso 16 2 true))) "b" = Ok s /\ tp_hexf2f (th_params (iso 16 2 true)) = 24 /\
  exists p, ev3 s p < 0 /\ x3 p = 0 /\ 12 + 12/100 < y3 p.
Proof.
  assert (F : tp_hexf2f (th_params (iso 16 2 true)) = 24).
  { change (tp_hexf2f (th_params (iso 16 2 true))) with (metricf2f (16/2)). unfold metricf2f, est_f2f. cbn [metric_table rev app]. rewrite (proj2 (Rltb_false _ 1)) by (rewrite Rabs_left1; lra). rewrite (proj2 (Rltb_false (16/2) _)), (proj2 (Rltb_false (16/2) _)), (proj2 (Rltb_false (16/2) _)) by lra. cbn [find].
    repeat (match goal with |- context [Rltb ?a ?b] => destruct (Rltb_spec a b) end; try lra). }
  destruct (head_tolerance (th_params (iso 16 2 true)) ltac:(rewrite F; lra)) as (H0 & _). destruct (hex_head_ok (hex_radius (th_params (iso 16 2 true))) (hex_height (th_params (iso 16 2 true))) "b" H0) as (s & E).
  exists s. split; [exact E|]. split; [exact F|]. destruct (C105_width_refuted _ "b" false true s ltac:(rewrite F; split; [lra|apply Rle_trans with (10 ^ 2); [simpl; lra|apply Rle_pow; [lra|lia]]]) eq_refl E) as (p & P1 & P2 & P3). exists p. rewrite F in P3. repeat split; try assumption. lra.
Qed.
