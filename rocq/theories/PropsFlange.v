(** C110: the pipe flange of examples/npt-flange. *)
From Coq Require Import String Reals Lra Psatz Lia List Bool ZArith.
From Verif Require Import Prelude Vec BoxModel MatrixModel PropsBox PropsMatrix SdfModel SdfLemmas PropsBool BlendModel PropsBlend PropsCopies Trig PropsUtil PrimModel PropsPrim
  PolyModel ObjModel UtilModel MiscModel PropsForm PropsThread PropsThreadShape PropsParts PropsBoards ExampleModel.
Import ListNotations.
Local Open Scope R_scope.

Definition flange_npt : npt := Npt (21/25) 14 (112/127).
Lemma flange_hex : 4242/10000 < hex_height (th_params (npt_threader flange_npt)) < 4244/10000 /\ 509/1000 < hex_radius (th_params (npt_threader flange_npt)) < 510/1000.
Proof.
  assert (F : tp_hexf2f (th_params (npt_threader flange_npt)) = 112/127). { unfold npt_threader, flange_npt. cbn [npt_d npt_tpi npt_f2f th_params tp_hexf2f]. rewrite (proj2 (Rltb_true _ _)) by lra. reflexivity. }
  assert (H : hex_radius (th_params (npt_threader flange_npt)) * sqrt 3 = 112/127). { unfold hex_radius. rewrite F. replace (30 * PI / 180) with (PI / 6) by field. rewrite cos_PI6. pose proof s3_pos. field. lra. }
  unfold hex_height. set (r := hex_radius _) in *. pose proof s3_pos as S0. pose proof s3_sq as S1. assert (B : 173205/100000 < sqrt 3 < 173206/100000) by (split; nra). clearbody r. split; split; nra.
Qed.
Lemma cylinder_low h r k s p : must_cylinder h r k = Ok s -> Rabs (z3 p) - h / 2 <= ev3 s p /\ hypot (x3 p) (y3 p) - r <= ev3 s p.
Proof.
  unfold must_cylinder. bcases; try discriminate. intros E. injection E as <-. cbn [ev3]. destruct (box2d_low (V2 (hypot (x3 p) (y3 p)) (z3 p)) (V2 (r - k) (h / 2 - k))) as (A & B). cbn [x2 y2] in A, B. rewrite hypot_abs in A. lra.
Qed.
Lemma cylinder_built h r k : 0 < r -> 0 <= k <= r -> 2 * k <= h -> exists s, must_cylinder h r k = Ok s.
Proof. intros R0 K H. unfold must_cylinder. bcases; try lra. eexists; reflexivity. Qed.
Lemma flange_ok : exists s nt body th fl ho, flange = Ok s /\ nut (NutP (Some (npt_threader flange_npt)) NutCircular 0) = Ok nt /\
  (let t := th_params (npt_threader flange_npt) in must_cylinder (hex_height t) (hex_radius t * (11/10)) 0 = Ok body /\ screw (hex_height t) (Some (npt_threader flange_npt)) = Ok th) /\
  must_cylinder flange_h (60 / (254/10) / 2) (flange_h / 8) = Ok fl /\ must_cylinder (4 * flange_h) (15/10 / 2 / 2) 0 = Ok ho /\
  (forall q, ev3 nt q = Rmax (ev3 body q) (- ev3 th q)) /\
  forall q, ev3 s (scale3 (254/10) q) = Rmax (min_poly 2 (2/10) (ev3 nt (V3 (x3 q / (103/100)) (y3 q / (103/100)) (z3 q))) (ev3 fl (V3 (x3 q) (y3 q) (z3 q + 9 / (254/10))))) (- ev3 ho q) * (254/10).
Proof.
  destruct flange_hex as (HH & HR).
  assert (EN : set_from_nominal (Npt 0 0 0) (1/2) = Ok flange_npt).
  { pose proof (C67_npt_sizes (Npt 0 0 0) (1/2)) as F. do 3 (apply Forall_inv_tail in F). apply Forall_inv in F. apply F. rewrite Rminus_eq_0, Rabs_R0. lra. }
  destruct (C67_npt_thread _ _ _ EN) as (prof & TP & _).
  assert (NU : exists nt, nut (NutP (Some (npt_threader flange_npt)) NutCircular 0) = Ok nt).
  { apply (proj2 (proj1 (C66_nut_partial _))). exists (npt_threader flange_npt), prof. cbn [nu_thread nu_tolerance nu_style]. split; [reflexivity|]. split; [lra|]. split; [apply hex_radius_pos; lra|]. split; [discriminate|exact TP]. }
  destruct NU as (nt & NU). pose proof NU as NU'. unfold nut in NU'. cbn [nu_thread nu_tolerance nu_style] in NU'. rewrite (proj2 (Rltb_false 0 0)) in NU' by lra. cbv zeta in NU'. rewrite (proj2 (Rleb_false _ 0)), (proj2 (Rleb_false _ 0)) in NU' by lra. cbn [orb] in NU'.
  apply bind_ok in NU'. destruct NU' as (body & EB & NU'). apply bind_ok in NU'. destruct NU' as (th & ET & NU'). injection NU' as NU'.
  assert (FH : flange_h = 70/254) by (unfold flange_h; field).
  destruct (cylinder_built flange_h (60 / (254/10) / 2) (flange_h / 8)) as (fl & FL); [lra|rewrite FH; lra|rewrite FH; lra|].
  destruct (cylinder_built (4 * flange_h) (15/10/2/2) 0) as (ho & HO); [lra|lra|rewrite FH; lra|].
  unfold flange. rewrite EN. cbv zeta. rewrite NU. cbn [or_panic bind]. rewrite transform3_ok. cbn [bind]. rewrite FL. cbn [bind]. rewrite transform3_ok. cbn [bind union3d_min length Nat.ltb Nat.leb all_some]. rewrite HO. cbn [bind difference3d difference3d_max].
  eexists. exists nt, body, th, fl, ho. split; [reflexivity|]. split; [reflexivity|]. split; [split; [exact EB|exact ET]|]. split; [reflexivity|]. split; [reflexivity|]. split; [intros q; rewrite <- NU'; reflexivity|].
  intros q. cbn [ev3 scale_uniform3d]. replace (scale3 (1 / (254/10)) (scale3 (254/10) q)) with q by (apply v3_ext; cbn; field). f_equal. cbn [ev3 diff3_max union_eval3 fold_left]. do 2 f_equal.
  - destruct C34_basic_maps as (_ & _ & SC & _). set (m := scale3d _). destruct (SC (V3 (103/100) (103/100) 1) (V3 (x3 q / (103/100)) (y3 q / (103/100)) (z3 q))) as (MP & AF & DT). fold m in MP, AF, DT. cbn [x3 y3 z3] in MP, DT.
    destruct (C33_transform3 nt m AF ltac:(rewrite DT; lra)) as (T & _). rewrite <- (T (V3 (x3 q / (103/100)) (y3 q / (103/100)) (z3 q))). f_equal. rewrite MP. apply v3_ext; cbn; field.
  - rewrite ev_placed3. f_equal. apply v3_ext; cbn; field.
Qed.
(** The bore of 3/4 inch is free along the whole axis *)
Theorem C110_bore : exists s, flange = Ok s /\ forall p, hypot (x3 p) (y3 p) <= 9525/1000 -> ~ ev3 s p < 0.
Proof.
  destruct flange_ok as (s & nt & body & th & fl & ho & E & _ & (EB & _) & FL & HO & NV & V). exists s. split; [exact E|]. intros p H. apply Rle_not_lt.
  set (q := scale3 (10/254) p). assert (Q : p = scale3 (254/10) q) by (unfold q; apply v3_ext; cbn; field). rewrite Q in H |- *. clearbody q. clear Q p. rewrite V. apply Rmult_le_pos; [|lra].
  assert (HQ : hypot (x3 q) (y3 q) <= 375/1000).
  { cbn [x3 y3 scale3] in H. unfold hypot in H |- *. replace (254/10 * x3 q * (254/10 * x3 q) + 254/10 * y3 q * (254/10 * y3 q)) with (254/10 * (254/10) * (x3 q * x3 q + y3 q * y3 q)) in H by ring. rewrite sqrt_mult_alt, sqrt_square in H by lra. lra. }
  assert (FH : flange_h = 70/254) by (unfold flange_h; field). destruct flange_hex as (HH & _). destruct (Rle_dec (Rabs (z3 q)) (140/254)) as [Z|Z].
  - eapply Rle_trans; [|apply Rmax_r]. assert (ev3 ho q <= 0); [|lra]. apply (cylinder_sign _ _ _ q HO). rewrite FH. split; lra.
  - apply Rnot_le_lt in Z. eapply Rle_trans; [|apply Rmax_l]. set (a := ev3 nt _). set (b := ev3 fl _).
    assert (A : 5/100 <= a). { unfold a. rewrite NV. eapply Rle_trans; [|apply Rmax_l]. destruct (cylinder_low _ _ _ _ (V3 (x3 q / (103/100)) (y3 q / (103/100)) (z3 q)) EB) as (L & _). cbn [z3] in L. lra. }
    assert (B : 5/100 <= b). { unfold b. destruct (cylinder_low _ _ _ _ (V3 (x3 q) (y3 q) (z3 q + 9 / (254/10))) FL) as (L & _). cbn [z3] in L. eapply Rle_trans; [|exact L]. rewrite FH. assert (Rabs (z3 q) - 90/254 <= Rabs (z3 q + 9 / (254/10))); [|lra].
      pose proof (Rabs_triang_inv (z3 q) (- (9 / (254/10)))) as T. rewrite Rabs_Ropp in T. rewrite (Rabs_pos_eq (9 / (254/10))) in T by lra. replace (z3 q - - (9 / (254/10))) with (z3 q + 9 / (254/10)) in T by ring. lra. }
    clearbody a b. pose proof (blend_low (2/10) a b ltac:(lra)) as (BL & _). revert BL. unfold Rmin. destruct (Rle_dec a b); intros; lra.
Qed.
(** The flange is a disc of 60 mm, 7 mm thick up to its rounding *)
Theorem C110_disc : exists s, flange = Ok s /\ forall p, 9525/1000 < hypot (x3 p) (y3 p) < 29 -> Rabs (z3 p + 9) < 35/10 -> ev3 s p < 0.
Proof.
  destruct flange_ok as (s & nt & body & th & fl & ho & E & _ & _ & FL & HO & _ & V). exists s. split; [exact E|]. intros p H Z.
  set (q := scale3 (10/254) p). assert (Q : p = scale3 (254/10) q) by (unfold q; apply v3_ext; cbn; field). rewrite Q in H, Z |- *. clearbody q. clear Q p. rewrite V.
  assert (HQ : 375/1000 < hypot (x3 q) (y3 q) < 290/254).
  { cbn [x3 y3 scale3] in H. unfold hypot in H |- *. replace (254/10 * x3 q * (254/10 * x3 q) + 254/10 * y3 q * (254/10 * y3 q)) with (254/10 * (254/10) * (x3 q * x3 q + y3 q * y3 q)) in H by ring. rewrite sqrt_mult_alt, sqrt_square in H by lra. lra. }
  cbn [z3 scale3] in Z. replace (254/10 * z3 q + 9) with (254/10 * (z3 q + 9 / (254/10))) in Z by field. rewrite Rabs_mult, (Rabs_pos_eq (254/10)) in Z by lra.
  assert (FH : flange_h = 70/254) by (unfold flange_h; field).
  assert (N : Rmax (min_poly 2 (2/10) (ev3 nt (V3 (x3 q / (103/100)) (y3 q / (103/100)) (z3 q))) (ev3 fl (V3 (x3 q) (y3 q) (z3 q + 9 / (254/10))))) (- ev3 ho q) < 0); [|lra].
  apply Rmax_lub_lt.
  - set (a := ev3 nt _). set (b := ev3 fl _). assert (B : b < 0).
    { unfold b. apply (C97_rounded_cylinder _ _ _ _ _ FL); [rewrite FH; lra|]. apply rounded_extent; [rewrite FH; lra|rewrite FH; lra|cbn [x3 y3]; rewrite FH; lra|cbn [z3]; rewrite FH; lra]. }
    pose proof (blend_low (2/10) a b ltac:(lra)) as (_ & BL). pose proof (Rmin_r a b). lra.
  - destruct (cylinder_low _ _ _ _ q HO) as (_ & L). lra.
Qed.
(** The socket is not the 18 mm long that the constant tlen says: nothing of the part is more than 12.3 mm above the flange *)
Theorem C110_length_refuted : exists s, flange = Ok s /\ forall p, ev3 s p < 0 -> z3 p - (-9 + 35/10) < 123/10.
Proof.
  destruct flange_ok as (s & nt & body & th & fl & ho & E & _ & (EB & _) & FL & HO & NV & V). exists s. split; [exact E|]. intros p H.
  set (q := scale3 (10/254) p). assert (Q : p = scale3 (254/10) q) by (unfold q; apply v3_ext; cbn; field). rewrite Q in H |- *. clearbody q. clear Q p. rewrite V in H. apply Rnot_le_lt. intros Z. cbn [z3 scale3] in Z. revert H. apply Rle_not_lt. apply Rmult_le_pos; [|lra].
  assert (FH : flange_h = 70/254) by (unfold flange_h; field). destruct flange_hex as (HH & _). pose proof (Rle_abs (z3 q)).
  eapply Rle_trans; [|apply Rmax_l]. set (a := ev3 nt _). set (b := ev3 fl _).
  assert (A : 5/100 <= a). { unfold a. rewrite NV. eapply Rle_trans; [|apply Rmax_l]. destruct (cylinder_low _ _ _ _ (V3 (x3 q / (103/100)) (y3 q / (103/100)) (z3 q)) EB) as (L & _). cbn [z3] in L. lra. }
  assert (B : 5/100 <= b). { unfold b. destruct (cylinder_low _ _ _ _ (V3 (x3 q) (y3 q) (z3 q + 9 / (254/10))) FL) as (L & _). cbn [z3] in L. eapply Rle_trans; [|exact L]. rewrite FH. pose proof (Rle_abs (z3 q + 9 / (254/10))). lra. }
  clearbody a b. pose proof (blend_low (2/10) a b ltac:(lra)) as (BL & _). revert BL. unfold Rmin. destruct (Rle_dec a b); intros; lra.
Qed.
Example C110_example : exists s, flange = Ok s /\ (forall z, ~ ev3 s (V3 9 0 z) < 0) /\ ev3 s (V3 20 0 (-9)) < 0.
Proof.
  assert (HY : forall x, 0 <= x -> hypot x 0 = x) by (intros x X; unfold hypot; replace (x * x + 0 * 0) with (x * x) by ring; now apply sqrt_square).
  destruct C110_bore as (s & E & B). destruct C110_disc as (s' & E' & D). rewrite E in E'. injection E' as <-. exists s. split; [exact E|]. split.
  - intros z. apply B. cbn [x3 y3]. rewrite HY; lra.
  - apply D; cbn [x3 y3 z3]; [rewrite HY; lra|]. replace (-9 + 9) with 0 by ring. rewrite Rabs_R0. lra.
Qed.
