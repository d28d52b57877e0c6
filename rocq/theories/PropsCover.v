(** C109: the sensor cover of examples/adz-sensor-cover. *)
From Coq Require Import String Reals Lra Psatz Lia List Bool ZArith.
From Verif Require Import Prelude Vec BoxModel MatrixModel PropsBox PropsMatrix SdfModel SdfLemmas PropsBool PropsCopies Trig PropsUtil PrimModel PropsPrim
  PolyModel ObjModel UtilModel MiscModel PropsForm PropsThread PropsParts ExampleModel.
Import ListNotations.
Local Open Scope R_scope.

(** ** Signs of rounded boxes and cylinders *)
Definition past (x a : R) : R := Rmax 0 (Rabs x - a).
Lemma sqrt_lt_k n k : 0 <= n -> 0 < k -> sqrt n - k < 0 <-> n < k * k.
Proof.
  intros N K. pose proof (sqrt_sqrt n N) as Q. pose proof (sqrt_pos n) as P. split; intros H; [nra|]. apply Rnot_le_lt. intros L. nra.
Qed.
Lemma sqrt_le_k n k : 0 <= n -> 0 < k -> sqrt n - k <= 0 <-> n <= k * k.
Proof.
  intros N K. pose proof (sqrt_sqrt n N) as Q. pose proof (sqrt_pos n) as P. split; intros H; [nra|]. apply Rnot_lt_le. intros L. nra.
Qed.
Lemma box3d_rounded p s k : 0 < k -> sdf_box3d p s - k < 0 <-> past (x3 p) (x3 s) * past (x3 p) (x3 s) + past (y3 p) (y3 s) * past (y3 p) (y3 s) + past (z3 p) (z3 s) * past (z3 p) (z3 s) < k * k.
Proof.
  intros K. unfold sdf_box3d, past, abs_elem3, sub3. cbn [x3 y3 z3]. set (u := Rabs (x3 p) - x3 s). set (v := Rabs (y3 p) - y3 s). set (w := Rabs (z3 p) - z3 s).
  assert (MP : forall x, 0 < x -> Rmax 0 x = x) by (intros; apply Rmax_right; lra). assert (MN : forall x, x <= 0 -> Rmax 0 x = 0) by (intros; apply Rmax_left; lra).
  destruct (Rltb_spec 0 u) as [U|U], (Rltb_spec 0 v) as [W|W], (Rltb_spec 0 w) as [X|X]; cbn [andb]; rewrite ?(MP u U), ?(MN u U), ?(MP v W), ?(MN v W), ?(MP w X), ?(MN w X).
  - unfold norm3, norm3sq, dot3. cbn [x3 y3 z3]. rewrite sqrt_lt_k by nra. lra.
  - unfold hypot. rewrite sqrt_lt_k by nra. lra.
  - unfold hypot. rewrite sqrt_lt_k by nra. lra.
  - split; nra.
  - unfold hypot. rewrite sqrt_lt_k by nra. lra.
  - split; nra.
  - split; nra.
  - assert (Rmax w (Rmax u v) <= 0) by (repeat apply Rmax_lub; lra). split; nra.
Qed.
Lemma box2d_rounded_le a b r h k : 0 <= a -> 0 < k -> sdf_box2d (V2 a b) (V2 r h) - k <= 0 <-> Rmax 0 (a - r) * Rmax 0 (a - r) + Rmax 0 (Rabs b - h) * Rmax 0 (Rabs b - h) <= k * k.
Proof.
  intros A K. unfold sdf_box2d. cbv zeta. unfold abs_elem2, sub2. cbn [x2 y2]. rewrite (Rabs_right a) by lra. set (u := a - r). set (w := Rabs b - h).
  assert (MP : forall x, 0 < x -> Rmax 0 x = x) by (intros; apply Rmax_right; lra). assert (MN : forall x, x <= 0 -> Rmax 0 x = 0) by (intros; apply Rmax_left; lra).
  destruct (Rltb_spec 0 u) as [U|U], (Rltb_spec 0 w) as [W|W]; cbn [andb]; rewrite ?(MP u U), ?(MN u U), ?(MP w W), ?(MN w W).
  - unfold norm2, norm2sq, dot2. cbn [x2 y2]. rewrite sqrt_le_k by nra. lra.
  - rewrite (proj2 (Rltb_false _ _)) by (unfold u, w in *; lra). split; nra.
  - rewrite (proj2 (Rltb_true _ _)) by (unfold u, w in *; lra). split; nra.
  - destruct (Rltb_spec (h - r) (Rabs b - a)); unfold u, w in *; split; nra.
Qed.
Definition in_rounded_cylinder_closed (h r k : R) (p : v3) : Prop :=
  let a := Rmax 0 (hypot (x3 p) (y3 p) - (r - k)) in let b := Rmax 0 (Rabs (z3 p) - (h / 2 - k)) in a * a + b * b <= k * k.
Lemma rounded_cylinder_le h r k s p : must_cylinder h r k = Ok s -> 0 < k -> ev3 s p <= 0 <-> in_rounded_cylinder_closed h r k p.
Proof.
  unfold must_cylinder. destruct (Rleb_spec r 0); [discriminate|]. destruct (Rltb_spec k 0); [discriminate|]. destruct (Rltb_spec r k); [discriminate|]. destruct (Rltb_spec h (2 * k)); [discriminate|]. intros E K. injection E as <-. cbn [ev3].
  apply box2d_rounded_le; [apply hypot_nonneg|exact K].
Qed.

(** ** C109 *)
(** up by h *)
Definition lift (h : R) (p : v3) : v3 := V3 (x3 p) (y3 p) (z3 p + h).
(** the outside of the half that holds the connector: a box of 17.8 by 17.8 by 3.5 rounded to 0.55 *)
Definition in_connector_shell (q : v3) : Prop :=
  past (x3 q) (835/100) * past (x3 q) (835/100) + past (y3 q) (835/100) * past (y3 q) (835/100) + past (z3 q) (12/10) * past (z3 q) (12/10) < 55/100 * (55/100).
(** its cavity *)
Definition in_connector_cavity (q : v3) : Prop := Rabs (x3 q) <= 80484/10000 /\ Rabs (y3 q) <= 80484/10000 /\ Rabs (z3 q - 1/4) <= 3/2.
(** the half that holds the sensor, and its cavity, the rim of which is rounded to 1.1 *)
Definition in_sensor_shell (q : v3) : Prop := in_rounded_cylinder (35/10) (126/10) (55/100) (lift (35/10) q).
Definition in_sensor_cavity (q : v3) : Prop := in_rounded_cylinder_closed 3 (119845/10000) (11/10) (lift (375/100) q).
Definition in_pin_hole (q : v3) : Prop := Rabs (x3 q) <= 5 /\ Rabs (y3 q) <= 5 /\ -44/10 <= z3 q <= 0.
Theorem C109_solid : exists s, sensor_cover = Ok s /\ forall q, ev3 s (scale3 (1003/1000) q) < 0 <->
  ((in_connector_shell q /\ ~ in_connector_cavity q) \/ (in_sensor_shell q /\ ~ in_sensor_cavity q)) /\ ~ in_pin_hole q.
Proof.
  unfold sensor_cover. cbv zeta. replace (2 * (55/100) / 2) with (55/100) by field. replace (2 * (55/100)) with (11/10) by field. replace (156/10 + 11/10 * 2) with (178/10) by field. replace (1/2 + 3) with (35/10) by field. replace (3 + 1/2) with (35/10) by field. replace (23/2 + 11/10) with (126/10) by field. replace (55/100 * 2) with (11/10) by field. replace (4 * (11/10)) with (44/10) by field.
  assert (B1 : exists b, must_box3 (V3 (178/10) (178/10) (35/10)) (55/100) = Ok b) by (unfold must_box3, lte_zero3; cbn [x3 y3 z3]; bcases; try lra; eexists; reflexivity). destruct B1 as (b1 & B1). rewrite B1. cbn [bind].
  unfold internal_dim_scale at 1, PLA at 1. rewrite (proj2 (Rleb_false _ _)) by lra. cbn [bind]. replace (156/10 * (3/1000 + 1) + 45/100) with (160968/10000) by field.
  assert (B2 : exists b, must_box3 (V3 (160968/10000) (160968/10000) 3) 0 = Ok b) by (unfold must_box3, lte_zero3; cbn [x3 y3 z3]; bcases; try lra; eexists; reflexivity). destruct B2 as (b2 & B2). rewrite B2. cbn [bind].
  rewrite transform3_ok. cbn [bind difference3d difference3d_max].
  assert (C1 : exists b, must_cylinder (35/10) (126/10) (55/100) = Ok b) by (unfold must_cylinder; bcases; try lra; eexists; reflexivity). destruct C1 as (c1 & C1). rewrite C1. cbn [bind].
  unfold internal_dim_scale at 1, PLA at 1. rewrite (proj2 (Rleb_false _ _)) by lra. cbn [bind]. replace (23/2 * (3/1000 + 1) + 45/100) with (119845/10000) by field.
  assert (C2 : exists b, must_cylinder 3 (119845/10000) (11/10) = Ok b) by (unfold must_cylinder; bcases; try lra; eexists; reflexivity). destruct C2 as (c2 & C2). rewrite C2. cbn [bind].
  rewrite transform3_ok. cbn [bind difference3d difference3d_max]. rewrite transform3_ok. cbn [bind]. rewrite union2s. cbn [bind].
  assert (B3 : exists b, must_box3 (V3 10 10 (44/10)) 0 = Ok b) by (unfold must_box3, lte_zero3; cbn [x3 y3 z3]; bcases; try lra; eexists; reflexivity). destruct B3 as (b3 & B3). rewrite B3. cbn [bind].
  rewrite transform3_ok. cbn [bind difference3d difference3d_max]. eexists. split; [reflexivity|]. intros q. unfold mat_scale, PLA. cbn [ev3 scale_uniform3d]. replace (scale3 (1 / (1 + 3/1000)) (scale3 (1003/1000) q)) with q by (apply v3_ext; cbn; field).
  match goal with |- ?e * ?k < 0 <-> _ => assert (K : e * k < 0 <-> e < 0) by (split; lra); rewrite K; clear K end.
  cbn [ev3 diff3_max union_eval3 fold_left]. rewrite !ev_placed3. cbn [ev3 diff3_max]. rewrite !ev_placed3. rewrite !Rmax_neg_iff, Rmin_neg_iff, !Rmax_neg_iff.
  assert (N : forall e (P : Prop), (e <= 0 <-> P) -> (- e < 0 <-> ~ P)) by (intros e P H; rewrite <- H; lra).
  rewrite (N _ _ (proj2 (box3_sign _ _ _ _ _ B2))), (N _ _ (proj2 (box3_sign _ _ _ _ _ B3))), (N _ _ (rounded_cylinder_le _ _ _ _ _ C2 ltac:(lra))), (C97_rounded_cylinder _ _ _ _ _ C1 ltac:(lra)).
  assert (S1 : ev3 b1 q < 0 <-> in_connector_shell q).
  { unfold must_box3, lte_zero3 in B1. cbn [x3 y3 z3] in B1. revert B1. bcases; try discriminate; intros B1; injection B1 as <-. cbn [ev3]. rewrite box3d_rounded by lra. unfold in_connector_shell. cbn [x3 y3 z3 sub3 scale3 elem3].
    replace (1 / 2 * (178 / 10) - 55 / 100) with (835/100) by field. replace (1 / 2 * (35 / 10) - 55 / 100) with (12/10) by field. reflexivity. }
  rewrite S1. cbn [x3 y3 z3 sub3]. unfold in_connector_cavity, in_pin_hole, in_sensor_shell, in_sensor_cavity. rewrite !Rminus_0_r.
  replace (sub3 q (V3 0 0 (- (35/10)))) with (lift (35/10) q) by (apply v3_ext; unfold lift; cbn; lra). replace (sub3 (lift (35/10) q) (V3 0 0 (-1/4))) with (lift (375/100) q) by (apply v3_ext; unfold lift; cbn; lra).
  replace (160968/10000/2) with (80484/10000) by field. replace (10/2) with 5 by field. replace (44/10/2) with (22/10) by field. replace (-2 * (11/10)) with (-(22/10)) by field.
  assert (Z : Rabs (z3 q - - (22/10)) <= 22/10 <-> -44/10 <= z3 q <= 0). { split; [intros H|intros H; apply Rabs_le; lra]. pose proof (Rle_abs (z3 q - - (22/10))). pose proof (Rle_abs (- (z3 q - - (22/10)))) as H'. rewrite Rabs_Ropp in H'. lra. }
  rewrite Z. tauto.
Qed.
(** The pins of the connector reach the sensor: the square column of 10 by 10 is free at every height; and the connector fits *)
Theorem C109_free_partial s : sensor_cover = Ok s -> forall q,
  (Rabs (x3 q) <= 5 -> Rabs (y3 q) <= 5 -> ~ ev3 s (scale3 (1003/1000) q) < 0) /\
  (Rabs (x3 q) <= 78/10 -> Rabs (y3 q) <= 78/10 -> -125/100 <= z3 q -> ~ ev3 s (scale3 (1003/1000) q) < 0) /\
  (hypot (x3 q) (y3 q) <= 1088/100 -> z3 q <= -225/100 -> ~ ev3 s (scale3 (1003/1000) q) < 0).
Proof.
  intros E q. destruct C109_solid as (s' & E' & M). rewrite E in E'. injection E' as <-. specialize (M q).
  assert (SH : in_connector_shell q -> Rabs (z3 q) < 175/100).
  { unfold in_connector_shell, past. intros H. pose proof (Rmax_l 0 (Rabs (x3 q) - 835/100)). pose proof (Rmax_l 0 (Rabs (y3 q) - 835/100)). pose proof (Rmax_r 0 (Rabs (z3 q) - 12/10)). pose proof (Rmax_l 0 (Rabs (z3 q) - 12/10)). set (a := Rmax _ _) in *. set (b := Rmax 0 (_ - 835/100)) in *. set (c := Rmax 0 (_ - 12/10)) in *. clearbody a b c. assert (c < 55/100) by nra. lra. }
  assert (SS : in_sensor_shell q -> - 525/100 < z3 q < -175/100).
  { unfold in_sensor_shell. intros H. destruct (rounded_extent (35/10) (126/10) (55/100) (lift (35/10) q) ltac:(lra) ltac:(lra)) as (H' & _). apply H' in H. cbn [z3 lift] in H. destruct H as (_ & H). apply Rabs_def2 in H. lra. }
  assert (CV : hypot (x3 q) (y3 q) <= 1088/100 -> -525/100 <= z3 q <= -225/100 -> in_sensor_cavity q).
  { unfold in_sensor_cavity, in_rounded_cylinder_closed. cbn [x3 y3 z3 lift]. intros H Z. rewrite Rmax_left by lra. assert (B : Rabs (z3 q + 375/100) - (3 / 2 - 11/10) <= 11/10) by (assert (Rabs (z3 q + 375/100) <= 15/10) by (apply Rabs_le; lra); lra). set (b := Rabs _ - _) in *. clearbody b. unfold Rmax. destruct (Rle_dec 0 b); nra. }
  assert (ZA : Rabs (z3 q) < 175/100 -> -175/100 < z3 q < 175/100) by (intros H; apply Rabs_def2 in H; lra).
  split; [|split].
  - intros X Y N. apply M in N. destruct N as (N & NP). unfold in_pin_hole in NP.
    assert (HR : hypot (x3 q) (y3 q) <= 1088/100). { unfold hypot. rewrite <- (sqrt_square (1088/100)) by lra. apply sqrt_le_1_alt. assert (Q : forall x, Rabs x <= 5 -> x * x <= 25). { intros x H. pose proof (Rle_abs x). pose proof (Rle_abs (- x)) as H'. rewrite Rabs_Ropp in H'. nra. } pose proof (Q _ X). pose proof (Q _ Y). lra. }
    destruct N as [(A & B)|(A & B)].
    + apply SH, ZA in A. apply B. unfold in_connector_cavity. split; [lra|]. split; [lra|]. apply Rabs_le. destruct (Rle_dec (z3 q) 0); [|lra]. exfalso. apply NP. repeat split; lra.
    + apply SS in A. apply B. apply CV; [exact HR|]. destruct (Rle_dec (-44/10) (z3 q)); [|lra]. exfalso. apply NP. repeat split; lra.
  - intros X Y Z N. apply M in N. destruct N as ([(A & B)|(A & B)] & _).
    + apply SH, ZA in A. apply B. unfold in_connector_cavity. split; [lra|]. split; [lra|]. apply Rabs_le. lra.
    + apply SS in A. lra.
  - intros H Z N. apply M in N. destruct N as ([(A & B)|(A & B)] & _).
    + apply SH, ZA in A. lra.
    + apply SS in A. apply B. apply CV; [exact H|lra].
Qed.
(** The sensor itself, 23 mm in diameter, cannot be inserted: the rounding of the cavity leaves a lip at its mouth *)
Theorem C109_sensor_refuted : exists s p, sensor_cover = Ok s /\ hypot (x3 p) (y3 p) < 23/2 /\ z3 p < -225/100 /\ ev3 s p < 0.
Proof.
  destruct C109_solid as (s & E & M). exists s, (scale3 (1003/1000) (V3 (114/10) 0 (-52/10))). split; [exact E|]. cbn [x3 y3 z3 scale3]. split; [|split; [lra|]].
  - unfold hypot. rewrite <- (sqrt_square (23/2)) by lra. apply sqrt_lt_1_alt. lra.
  - apply M. split; [right|unfold in_pin_hole; cbn [x3]; rewrite Rabs_pos_eq; lra].
    assert (H : hypot (114/10) 0 = 114/10) by (unfold hypot; replace (114/10 * (114/10) + 0 * 0) with (114/10 * (114/10)) by ring; apply sqrt_square; lra). split.
    + unfold in_sensor_shell. apply rounded_extent; [lra|lra|cbn [x3 y3 lift]; rewrite H; lra|cbn [z3 lift]; rewrite Rabs_left1; lra].
    + unfold in_sensor_cavity, in_rounded_cylinder_closed. cbn [x3 y3 z3 lift]. rewrite H. rewrite (Rabs_left1 (-52/10 + 375/100)) by lra. rewrite !Rmax_right by lra. lra.
Qed.
Example C109_example : exists s, sensor_cover = Ok s /\ (forall z, ~ ev3 s (V3 0 0 z) < 0) /\ ev3 s (scale3 (1003/1000) (V3 9 0 (-2))) < 0.
Proof.
  destruct C109_solid as (s & E & M). exists s. split; [exact E|]. split.
  - intros z. replace (V3 0 0 z) with (scale3 (1003/1000) (V3 0 0 (z * (1000/1003)))) by (apply v3_ext; cbn; field). apply (proj1 (C109_free_partial s E (V3 0 0 (z * (1000/1003))))); cbn [x3 y3]; rewrite Rabs_R0; lra.
  - apply M. assert (H : hypot 9 0 = 9) by (unfold hypot; replace (9 * 9 + 0 * 0) with (9 * 9) by ring; apply sqrt_square; lra). split; [right|unfold in_pin_hole; cbn [x3]; rewrite Rabs_pos_eq; lra]. split.
    + unfold in_sensor_shell. apply rounded_extent; [lra|lra|cbn [x3 y3 lift]; rewrite H; lra|cbn [z3 lift]; rewrite Rabs_pos_eq; lra].
    + unfold in_sensor_cavity, in_rounded_cylinder_closed. cbn [x3 y3 z3 lift]. rewrite H. rewrite (Rabs_pos_eq (-2 + 375/100)) by lra. rewrite Rmax_left by lra. rewrite Rmax_right by lra. lra.
Qed.
