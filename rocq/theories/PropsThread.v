(** C65 (screws), C66 (bolts and nuts) and C67 (thread tables). *)
From Coq Require Import String Reals Lra Lia List Bool ZArith.
From Verif Require Import Prelude Vec BoxModel MatrixModel PropsBox PropsMatrix SdfModel SdfLemmas PropsBool Trig
  Grades GradesOps GradesSweep GradesCopy GradesRest Distance PrimModel PrimCores PropsPrim BlendModel PropsBlend PropsUnion2
  PropsLip PropsCopies PropsUtil PolyModel PropsPoly PropsBuilder ObjModel PropsForm.
Import ListNotations.
Local Open Scope R_scope.

(** ** C65 *)
Lemma saw_shift x k period : period <> 0 -> saw_tooth (x + IZR k * period) period = saw_tooth x period.
Proof.
  intros P. unfold saw_tooth. replace ((x + IZR k * period + period / 2) / period) with ((x + period / 2) / period + IZR k) by (field; exact P).
  set (t := (x + period / 2) / period). replace (floorR (t + IZR k)) with (floorR t + IZR k); [ring|].
  symmetry. destruct (floorR_int t) as (j & J). pose proof (floorR_spec t) as S. rewrite J in S |- *. rewrite <- plus_IZR. apply floorR_unique. rewrite plus_IZR. lra.
Qed.
Lemma saw_mod x period : period <> 0 -> exists k, saw_tooth x period = x + IZR k * period.
Proof.
  intros P. unfold saw_tooth. destruct (floorR_int ((x + period / 2) / period)) as (j & J). rewrite J. exists (- j)%Z. rewrite opp_IZR. field. exact P.
Qed.
Lemma saw_range x period : 0 < period -> - (period / 2) <= saw_tooth x period < period / 2.
Proof.
  intros P. unfold saw_tooth. pose proof (floorR_spec ((x + period / 2) / period)) as S. set (t := (x + period / 2) / period) in *. split; nra.
Qed.
(** An angle of a point off the axis is atan2 up to whole turns. *)
Lemma cos_sin_turns a b : cos a = cos b -> sin a = sin b -> exists k, a = b + IZR k * (2 * PI).
Proof.
  intros C S. pose proof PI_RGT_0 as P.
  assert (N : forall x, exists k, - PI < x + IZR k * (2 * PI) <= PI).
  { intros x. set (t := (PI - x) / (2 * PI)). pose proof (floorR_spec t) as F. destruct (floorR_int t) as (k & K). rewrite K in F. exists k.
    assert (E : x = PI - t * (2 * PI)) by (unfold t; field; lra). rewrite E. split; nra. }
  destruct (N a) as (i & I). destruct (N b) as (j & J). destruct (cos_period_Z a i) as (Ca & Sa). destruct (cos_period_Z b j) as (Cb & Sb).
  assert (E : a + IZR i * (2 * PI) = b + IZR j * (2 * PI)) by (apply sin_cos_eq; try assumption; congruence).
  exists (j - i)%Z. rewrite minus_IZR. lra.
Qed.
Lemma atan2_angle r a : 0 < r -> exists k, atan2 (r * sin a) (r * cos a) = a + IZR k * (2 * PI).
Proof.
  intros R. destruct (atan2_polar (r * sin a) (r * cos a)) as (X & Y). rewrite hypot_polar in X, Y by lra.
  apply cos_sin_turns; [apply (Rmult_eq_reg_l r); [now rewrite <- X|lra]|apply (Rmult_eq_reg_l r); [now rewrite <- Y|lra]].
Qed.
Lemma screw_x_angle pitch starts p r a : pitch <> 0 -> 0 < r -> x3 p = r * cos a -> y3 p = r * sin a ->
  screw_x pitch (- pitch * IZR starts) p = saw_tooth (z3 p - pitch * IZR starts * a / (2 * PI)) pitch.
Proof.
  intros P R X Y. unfold screw_x. rewrite X, Y. destruct (atan2_angle r a R) as (k & ->). pose proof PI_RGT_0.
  replace (z3 p + - pitch * IZR starts * (a + IZR k * (2 * PI)) / (2 * PI)) with (z3 p - pitch * IZR starts * a / (2 * PI) + IZR (- (starts * k)) * pitch).
  - apply saw_shift. exact P.
  - rewrite opp_IZR, mult_IZR. field. lra.
Qed.
(** Turn a point about the z axis by [a] and lift it by [h]. *)
Definition turn (a h : R) (p : v3) : v3 := V3 (cos a * x3 p - sin a * y3 p) (sin a * x3 p + cos a * y3 p) (z3 p + h).
Lemma turn_polar a h p : p <> V3 0 0 (z3 p) -> exists r b, 0 < r /\ x3 p = r * cos b /\ y3 p = r * sin b /\ x3 (turn a h p) = r * cos (a + b) /\ y3 (turn a h p) = r * sin (a + b).
Proof.
  intros N. destruct (atan2_polar (y3 p) (x3 p)) as (X & Y). set (r := hypot (x3 p) (y3 p)) in *. set (b := atan2 (y3 p) (x3 p)) in *. exists r, b.
  assert (R : 0 < r). { pose proof (hypot_nonneg (x3 p) (y3 p)) as Q. fold r in Q. destruct (Req_dec r 0) as [Z|Z]; [|lra]. exfalso. apply N. apply hypot_zero in Z. destruct Z as (Z1 & Z2). destruct p as [px py pz]. cbn [x3 y3 z3] in Z1, Z2 |- *. now rewrite Z1, Z2. }
  split; [exact R|]. split; [exact X|]. split; [exact Y|]. cbn [turn x3 y3]. rewrite cos_plus, sin_plus. clearbody r b. rewrite X, Y. split; ring.
Qed.
(** The helical structure: the field of a screw is the profile at (X, Y), cut to the length, where
    Y is the distance from the axis (plus the taper term) and X is the height above the helix
    through the point, reduced to one pitch period.  X is unchanged by a whole number of pitches
    along the axis, in particular by one lead, and by turning while advancing in proportion. *)
Theorem C65_helical len th s : screw len (Some th) = Ok s ->
  let pitch := tp_pitch (th_params th) in let lead := pitch * IZR (tp_starts (th_params th)) in let taper := tp_taper (th_params th) in
  pitch <> 0 ->
  exists t X, th_thread th = Ok t /\
    (forall p, ev3 s p = Rmax (ev2 t (V2 (X p) (hypot (x3 p) (y3 p) + z3 p * atan taper))) (Rabs (z3 p) - len / 2)) /\
    (forall p r a, 0 < r -> x3 p = r * cos a -> y3 p = r * sin a -> exists k, X p = z3 p - lead * a / (2 * PI) + IZR k * pitch) /\
    (0 < pitch -> forall p, - (pitch / 2) <= X p < pitch / 2) /\
    (forall p k, X (V3 (x3 p) (y3 p) (z3 p + IZR k * pitch)) = X p) /\
    (forall p, X (V3 (x3 p) (y3 p) (z3 p + lead)) = X p) /\
    (forall p a, p <> V3 0 0 (z3 p) -> X (turn a (lead * a / (2 * PI)) p) = X p).
Proof.
  unfold screw. destruct (Rleb_spec len 0) as [L|L]; [discriminate|]. intros E. cbv zeta. set (ps := th_params th) in *. intros P. apply bind_ok in E. destruct E as (t & Et & E). cbv zeta in E. injection E as <-.
  exists t, (screw_x (tp_pitch ps) (- tp_pitch ps * IZR (tp_starts ps))). split; [exact Et|]. cbn [ev3].
  assert (SH : forall p k, screw_x (tp_pitch ps) (- tp_pitch ps * IZR (tp_starts ps)) (V3 (x3 p) (y3 p) (z3 p + IZR k * tp_pitch ps)) = screw_x (tp_pitch ps) (- tp_pitch ps * IZR (tp_starts ps)) p).
  { intros p k. unfold screw_x. cbn [x3 y3 z3]. match goal with |- _ = saw_tooth ?x _ => rewrite <- (saw_shift x k) by exact P end. f_equal. ring. }
  split; [|split; [|split; [|split; [exact SH|split]]]].
  - intros p. unfold screw_eval, screw_y, hypot. destruct (Reqb_spec (tp_taper ps) 0) as [Z|Z]; cbn [negb]; [|reflexivity]. rewrite Z, atan_0, Rmult_0_r, Rplus_0_r. reflexivity.
  - intros p r a R X Y. rewrite (screw_x_angle _ _ p r a P R X Y). apply saw_mod. exact P.
  - intros PP p. now apply saw_range.
  - intros p. rewrite <- (SH p (tp_starts ps)). f_equal. f_equal. ring.
  - intros p a N. pose proof PI_RGT_0. destruct (turn_polar a (tp_pitch ps * IZR (tp_starts ps) * a / (2 * PI)) p N) as (r & b & R & X & Y & X' & Y').
    rewrite (screw_x_angle _ _ _ r (a + b) P R X' Y'), (screw_x_angle _ _ p r b P R X Y). cbn [turn z3]. f_equal. field. lra.
Qed.
(** For a cylindrical thread the solid between the end planes is therefore unchanged by the screw motion. *)
Theorem C65_screw_motion len th s p a : screw len (Some th) = Ok s -> tp_taper (th_params th) = 0 -> tp_pitch (th_params th) <> 0 -> p <> V3 0 0 (z3 p) ->
  let q := turn a (tp_pitch (th_params th) * IZR (tp_starts (th_params th)) * a / (2 * PI)) p in
  Rabs (z3 p) < len / 2 -> Rabs (z3 q) < len / 2 -> (ev3 s p < 0 <-> ev3 s q < 0).
Proof.
  intros E T P N q Zp Zq. destruct (C65_helical len th s E P) as (t & X & _ & V & _ & _ & _ & _ & H). rewrite T, atan_0 in V. rewrite !V, !Rmult_0_r, !Rplus_0_r. specialize (H p a N). fold q in H. rewrite H.
  assert (HY : hypot (x3 q) (y3 q) = hypot (x3 p) (y3 p)).
  { unfold hypot. f_equal. cbn [q turn x3 y3]. pose proof (sin2_cos2 a) as S. unfold Rsqr in S. nra. }
  rewrite HY. rewrite !Rmax_neg_iff. lra.
Qed.
Lemma tan_gt t : 0 < t < PI / 2 -> t < tan t.
Proof.
  intros T. destruct (MVT_cor2 (fun x => tan x - x) (fun x => 1 + tan x ^ 2 - 1) 0 t) as (c & E & C); [lra| |].
  - intros c C. apply derivable_pt_lim_minus; [|apply derivable_pt_lim_id]. pose proof PI_RGT_0. assert (B : - PI / 2 < c < PI / 2) by (split; lra). apply (derive_pt_eq_1 _ _ _ (derivable_pt_tan c B)). exact (derive_pt_tan c B).
  - rewrite tan_0 in E. assert (Q : 0 < tan c) by (apply tan_gt_0; lra). cbv beta in E. assert (0 < tan c ^ 2 * t) by (apply Rmult_lt_0_compat; [apply pow_lt; exact Q|lra]). nra.
Qed.
Lemma atan_lt_tan t : 0 < t < PI / 2 -> atan t < t < tan t.
Proof.
  intros T. split; [|now apply tan_gt]. assert (A : 0 < atan t) by (rewrite <- atan_0; apply atan_increasing; lra). pose proof (atan_bound t) as B.
  pose proof (tan_gt (atan t) ltac:(lra)) as G. rewrite tan_atan in G. exact G.
Qed.
(** The solid stays inside Bounds when the profile does and the taper angle is in [0, 90 degrees). *)
Theorem C65_bounds_partial len th s t : screw len (Some th) = Ok s -> th_thread th = Ok t -> (forall q, ev2 t q < 0 -> in2 (bb2 t) q) ->
  0 <= tp_taper (th_params th) < PI / 2 -> forall p, ev3 s p < 0 -> in3 (bb3 s) p.
Proof.
  unfold screw. destruct (Rleb_spec len 0) as [L|L]; [discriminate|]. intros E Et C T p. rewrite Et in E. cbn [bind] in E. injection E as <-. set (ps := th_params th) in *. cbn [ev3 bb3].
  unfold screw_eval. rewrite Rmax_neg_iff. intros (A & B). apply C in A. destruct A as (_ & A). cbn [x2 y2] in A. set (m := y2 (max2 (bb2 t))) in *.
  destruct (hypot_ge (x3 p) (y3 p)) as (HX & HY). unfold screw_y in A. fold (hypot (x3 p) (y3 p)) in A. set (h := hypot (x3 p) (y3 p)) in *.
  assert (Z : - (len / 2) < z3 p < len / 2) by (apply Rabs_def2 in B || (assert (Rabs (z3 p) < len / 2) as B' by lra; apply Rabs_def2 in B'); lra).
  assert (K : h <= m + len / 2 * tan (tp_taper ps)).
  { destruct (Reqb_spec (tp_taper ps) 0) as [Q|Q]; cbn [negb] in A; [rewrite Q, tan_0; lra|]. pose proof (atan_lt_tan (tp_taper ps) ltac:(lra)) as (A1 & A2).
    assert (0 < atan (tp_taper ps)) by (rewrite <- atan_0; apply atan_increasing; lra). nra. }
  unfold in3. cbn [min3 max3 x3 y3 z3]. clearbody h. revert HX HY. rmm; lra.
Qed.
(** A negative taper angle: Bounds shrinks although the solid grows. *)
Definition rod (taper : R) : threader :=
  Threader (must_box2 (V2 2 2) 0) (TParams 1 1 1 taper 10).
Theorem C65_negative_taper_refuted : exists s p, screw 2 (Some (rod (- (PI / 4)))) = Ok s /\ (forall t q, th_thread (rod (- (PI / 4))) = Ok t -> ev2 t q < 0 -> in2 (bb2 t) q) /\ ev3 s p < 0 /\ ~ in3 (bb3 s) p.
Proof.
  unfold screw. rewrite (proj2 (Rleb_false 2 0)) by lra. cbn [rod th_thread th_params must_box2 bind]. eexists. exists (V3 (1/2) 0 0). split; [reflexivity|]. split; [|split].
  - intros t q E. injection E as <-. cbn [ev2 bb2]. intros L. assert (L' : sdf_box2d q (sub2 (scale2 (1/2) (V2 2 2)) (elem2 0)) < 0) by lra. apply box2d_sign in L'; cbn in *; try lra.
    destruct L' as (A & B). apply Rabs_def2 in A, B. unfold in2; cbn. lra.
  - cbn [ev3]. unfold screw_eval. rewrite Rmax_neg_iff. cbn [z3 ev2 tp_pitch tp_starts tp_taper]. rewrite Rabs_R0. split; [|lra]. match goal with |- sdf_box2d ?q ?s - 0 < 0 => assert (Q : sdf_box2d q s < 0); [|lra] end.
    apply box2d_sign; cbn [x2 y2 sub2 scale2 elem2]; try lra. unfold screw_y. cbn [x3 y3 z3]. split.
    + unfold screw_x. match goal with |- context [saw_tooth ?a 1] => pose proof (saw_range a 1 ltac:(lra)) as SR; set (u := saw_tooth a 1) in * end. apply Rabs_def1; lra.
    + replace (1 / 2 * (1 / 2) + 0 * 0) with (Rsqr (1/2)) by (unfold Rsqr; lra). rewrite sqrt_Rsqr by lra. rewrite Rmult_0_l, Rplus_0_r. destruct (negb _); rewrite Rabs_right; lra.
  - unfold in3. cbn [bb3 bb2 min3 max3 min2 max2 x3 y3 z3 scale2 x2 y2 tp_taper]. rewrite tan_neg, tan_PI4. lra.
Qed.
(** The cone of a tapered thread: the profile height y is reached at distance y - z * atan(taper)
    from the axis, so its slope is atan(taper), which is not the tangent of the taper angle. *)
Theorem C65_taper_slope_refuted len th s : screw len (Some th) = Ok s -> tp_pitch (th_params th) <> 0 -> 0 < tp_taper (th_params th) < PI / 2 ->
  exists slope t X, slope < tan (tp_taper (th_params th)) /\ th_thread th = Ok t /\
    forall p, ev3 s p = Rmax (ev2 t (V2 (X p) (hypot (x3 p) (y3 p) + z3 p * slope))) (Rabs (z3 p) - len / 2).
Proof.
  intros E P T. destruct (C65_helical len th s E P) as (t & X & Et & V & _). exists (atan (tp_taper (th_params th))), t, X. split; [pose proof (atan_lt_tan _ T); lra|]. split; [exact Et|exact V].
Qed.
(** Screw itself: an error for exactly these inputs, never a panic of its own. *)
Theorem C65_defined len th : (screw len th = Err <-> th = None \/ len <= 0 \/ exists t, th = Some t /\ th_thread t = Err) /\
  (screw len th = Panicked <-> 0 < len /\ exists t, th = Some t /\ th_thread t = Panicked).
Proof.
  unfold screw. destruct th as [t|]; [|split; split; try discriminate; [tauto|tauto|intros (_ & t & Q & _); discriminate]].
  destruct (Rleb_spec len 0) as [L|L]; [split; split; try discriminate; [tauto|tauto|intros (Q & _); lra]|].
  destruct (th_thread t) as [x| |] eqn:E; cbn [bind]; (split; split; try discriminate).
  - intros [Q|[Q|(u & Q & V)]]; [discriminate|lra|]. injection Q as <-. congruence.
  - intros (_ & u & Q & V). injection Q as <-. congruence.
  - intros _. right. right. eauto.
  - reflexivity.
  - intros (_ & u & Q & V). injection Q as <-. congruence.
  - intros [Q|[Q|(u & Q & V)]]; [discriminate|lra|]. injection Q as <-. congruence.
  - intros _. eauto.
  - reflexivity.
Qed.
(** The profiles of every built-in thread type are polygons for all dimensions: Thread() returns
    neither an error nor a panic. *)
Theorem C65_profiles : forall d p, 
  (forall ext, exists t, th_thread (iso d p ext) = Ok t) /\ (forall ext, exists t, th_thread (uts d p ext) = Ok t) /\
  (exists t, th_thread (acme d p) = Ok t) /\ (exists t, th_thread (ansi_buttress d p) = Ok t) /\ (exists t, th_thread (plastic_buttress d p) = Ok t) /\
  (forall f, exists t, th_thread (npt_threader (Npt d p f)) = Ok t) /\ forall k starts, exists t, th_thread (knurl_threader k starts) = Ok t.
Proof.
  assert (I : forall d p ext, exists t, iso_profile d p ext = Ok t).
  { intros d p ext. unfold iso_profile. cbv zeta. destruct ext; (apply built_ok; [cbn; lia|]); intros x m J M; cbn in J;
      repeat (destruct J as [<-|J]; [cbn in M; repeat (destruct M as [<-|M]; [cbn; lia|]); destruct M|]); destruct J. }
  intros d p. split; [intros ext; apply I|]. split; [intros ext; apply I|].
  split; [|split; [|split; [|split]]].
  - cbn [th_thread acme]. apply built_ok; [cbn; lia|]. intros x m J M. cbn in J. repeat (destruct J as [<-|J]; [destruct M|]); destruct J.
  - cbn [th_thread ansi_buttress buttress]. apply built_ok; [cbn; lia|]. intros x m J M. cbn in J. repeat (destruct J as [<-|J]; [cbn in M; repeat (destruct M as [<-|M]; [cbn; lia|]); destruct M|]); destruct J.
  - cbn [th_thread plastic_buttress buttress]. apply built_ok; [cbn; lia|]. intros x m J M. cbn in J. repeat (destruct J as [<-|J]; [cbn in M; repeat (destruct M as [<-|M]; [cbn; lia|]); destruct M|]); destruct J.
  - intros f. apply I.
  - intros k starts. cbn [th_thread knurl_threader]. rewrite vertices_of_plain by (intros x J; cbn in J; repeat (destruct J as [<-|J]; [reflexivity|]); destruct J). eexists. reflexivity.
Qed.
Lemma iso_ok d p ext : exists t, th_thread (iso d p ext) = Ok t.
Proof. exact (proj1 (C65_profiles d p) ext). Qed.
Example C65_example : exists s, screw 10 (Some (iso 8 (5/4) true)) = Ok s /\ tp_pitch (th_params (iso 8 (5/4) true)) <> 0 /\ V3 1 0 2 <> V3 0 0 2.
Proof.
  destruct (iso_ok 8 (5/4) true) as (t & E). unfold screw. rewrite (proj2 (Rleb_false 10 0)) by lra. rewrite E. cbn [bind]. eexists. split; [reflexivity|]. cbn. split; [lra|]. intros Q. injection Q. lra.
Qed.

(** ** C66 *)
Lemma cos30 : 0 < cos (30 * PI / 180).
Proof. replace (30 * PI / 180) with (PI / 6) by field. rewrite cos_PI6. assert (0 < sqrt 3) by (apply sqrt_lt_R0; lra). lra. Qed.
Lemma hex_radius_pos t : 0 < hex_radius t <-> 0 < tp_hexf2f t.
Proof.
  unfold hex_radius. pose proof cos30. assert (0 < / (2 * cos (30 * PI / 180))) by (apply Rinv_0_lt_compat; lra). unfold Rdiv. split; intros; nra.
Qed.
Lemma hex_height_pos t : 0 < hex_height t <-> 0 < tp_hexf2f t.
Proof. rewrite <- hex_radius_pos. unfold hex_height. split; intros; lra. Qed.
Lemma nagon6_ok r : exists vs s, form_nagon 6 r = Ok vs /\ form_polygon vs = Ok s.
Proof. unfold form_nagon. cbn. eexists. eexists. split; reflexivity. Qed.
Lemma hex_head_ok r h round : 0 < r -> exists s, hex_head r h round = Ok s.
Proof.
  intros R. unfold hex_head. destruct (nagon6_ok (r - r * (8/100))) as (vs & s & E & F). cbv zeta. rewrite E. cbn [bind]. rewrite F. cbn [bind].
  destruct (String.eqb round ""); [eexists; reflexivity|]. unfold form_sphere, must_sphere. rewrite (proj2 (Rleb_false _ _)) by lra. cbn [recovered bind].
  destruct (String.eqb round "t" || String.eqb round "tb"); cbn [bind transform3d intersect3d intersect3d_max]; destruct (String.eqb round "b" || String.eqb round "tb"); cbn [bind transform3d intersect3d intersect3d_max]; eexists; reflexivity.
Qed.
Lemma knurl_profile_ok k n : exists t, th_thread (knurl_threader k n) = Ok t.
Proof. destruct (C65_profiles 0 0) as (_ & _ & _ & _ & _ & _ & H). apply H. Qed.
Lemma knurl_ok k : 0 < kn_length k -> 0 < kn_radius k -> 0 < kn_pitch k -> 0 < kn_height k -> 0 <= kn_theta k < 90 * PI / 180 -> exists s, knurl k = Ok s.
Proof.
  intros. unfold knurl. rewrite (proj2 (Rleb_false (kn_length k) 0)), (proj2 (Rleb_false (kn_radius k) 0)), (proj2 (Rleb_false (kn_pitch k) 0)), (proj2 (Rleb_false (kn_height k) 0)),
    (proj2 (Rltb_false (kn_theta k) 0)), (proj2 (Rleb_false (90 * PI / 180) (kn_theta k))) by lra. cbv zeta.
  unfold screw. rewrite (proj2 (Rleb_false (kn_length k) 0)) by lra.
  destruct (knurl_profile_ok k (Int_part (2 * PI * kn_radius k * tan (kn_theta k) / kn_pitch k))) as (t & ->).
  destruct (knurl_profile_ok k (Int_part (2 * PI * kn_radius k * tan (kn_theta k) / kn_pitch k) * -1)%Z) as (t' & ->). cbn [bind intersect3d intersect3d_max]. eexists. reflexivity.
Qed.
(** Knurl and KnurledHead: exactly when they return. *)
Theorem C66_knurl k : ((exists s, knurl k = Ok s) <-> 0 < kn_length k /\ 0 < kn_radius k /\ 0 < kn_pitch k /\ 0 < kn_height k /\ 0 <= kn_theta k < PI / 2) /\ knurl k <> Err.
Proof.
  assert (Q : 90 * PI / 180 = PI / 2) by field. split; [split|].
  - intros (s & E). unfold knurl in E. rewrite Q in E. revert E. bcases; try discriminate. intros _. lra.
  - intros (A & B & C & D & T). apply knurl_ok; try assumption. rewrite Q. exact T.
  - assert (D : forall a, knurl k = a -> (a = Err -> False)); [|intros E; now apply (D _ E)]. intros a E N. subst a.
    unfold knurl in N. revert N. repeat (match goal with |- context [if ?c then _ else _] => destruct c eqn:? end; [discriminate|]). cbv zeta.
    unfold screw. match goal with H : Rleb (kn_length k) 0 = false |- _ => rewrite H end.
    destruct (knurl_profile_ok k (Int_part (2 * PI * kn_radius k * tan (kn_theta k) / kn_pitch k))) as (t & ->).
    destruct (knurl_profile_ok k (Int_part (2 * PI * kn_radius k * tan (kn_theta k) / kn_pitch k) * -1)%Z) as (t' & ->). cbn. discriminate.
Qed.
Lemma knurled_head_ok r : 0 < r -> exists s, knurled_head r (2 * r * (5 / 12)) (r * (1/4)) = Ok s.
Proof.
  intros R. unfold knurled_head. cbv zeta.
  assert (F : floorR ((2 * r * (5 / 12) - r * (5/100)) / (r * (1/4))) = 3).
  { replace ((2 * r * (5 / 12) - r * (5/100)) / (r * (1/4))) with (47 / 15) by (field; lra). rewrite (floorR_unique (47/15) 3); [reflexivity|]. lra. }
  rewrite F. pose proof PI_RGT_0.
  destruct (knurl_ok (KnurlP (r * (1/4) * 3) r (r * (1/4)) (r * (1/4) * (3/10)) (45 * PI / 180))) as (k & ->); cbn; try lra.
  cbn [bind]. unfold form_cylinder, must_cylinder. rewrite (proj2 (Rleb_false r 0)), (proj2 (Rltb_false (r * (5/100)) 0)), (proj2 (Rltb_false r (r * (5/100)))), (proj2 (Rltb_false (2 * r * (5 / 12)) (2 * (r * (5/100))))) by lra.
  cbv zeta. unfold recovered. cbn [bind]. eexists. reflexivity.
Qed.
Lemma chamfer_ok s kb kt : exists s', chamfered_cylinder (Some s) kb kt = Ok s'.
Proof. destruct (C62_chamfered s kb kt) as (s' & E & _). eauto. Qed.
Lemma cyl_round_ok h r d : (exists s, must_cylinder h r d = Ok s) <-> 0 < r /\ 0 <= d <= r /\ 2 * d <= h.
Proof. unfold must_cylinder. bcases; split; intros X; try lra; try (destruct X; discriminate); eexists; reflexivity. Qed.
Lemma head_ok st t : 0 < tp_hexf2f t -> st = NutHex \/ st = NutKnurl ->
  exists s, match st with
            | NutHex => drop_err (hex_head (hex_radius t) (hex_height t) "b")
            | NutKnurl => drop_err (knurled_head (hex_radius t) (hex_height t) (hex_radius t * (1/4)))
            | _ => Err end = Ok (Some s).
Proof.
  intros P. apply hex_radius_pos in P. intros [-> | ->].
  - destruct (hex_head_ok (hex_radius t) (hex_height t) "b" P) as (s & ->). exists s. reflexivity.
  - unfold hex_height. destruct (knurled_head_ok (hex_radius t) P) as (s & ->). exists s. reflexivity.
Qed.
(** What Bolt accepts: the parameter checks of lines 22-33 have no effect. *)
Definition shank_ok (k : bolt_params) (t : threader) : Prop :=
  let hh := hex_height (th_params t) in
  hh * (8/100) <= tp_radius (th_params t) /\ 2 * (hh * (8/100)) <= bo_shank k + hh / 2.
Definition style_ok (st : nut_style) : Prop := st = NutHex \/ st = NutKnurl.
Lemma rleb_pos t : 0 < tp_hexf2f t -> Rleb (hex_radius t) 0 || Rleb (hex_height t) 0 = false.
Proof. intros P. rewrite (proj2 (Rleb_false (hex_radius t) 0)), (proj2 (Rleb_false (hex_height t) 0)); [reflexivity|now apply hex_height_pos|now apply hex_radius_pos]. Qed.
Theorem C66_bolt_outcome k :
  ((exists s, bolt k = Ok s) <-> exists t p, bo_thread k = Some t /\ 0 < tp_hexf2f (th_params t) /\ style_ok (bo_style k) /\ shank_ok k t /\ bo_shank k < bo_total k /\ th_thread t = Ok p) /\
  (bolt k = Err <-> exists t, bo_thread k = Some t /\ (tp_hexf2f (th_params t) <= 0 \/ ~ style_ok (bo_style k) \/ shank_ok k t /\ bo_shank k < bo_total k /\ th_thread t = Err)).
Proof.
  destruct (bo_thread k) as [t|] eqn:T; [|split; split; unfold bolt; rewrite T; [intros (s & E); discriminate|intros (t & p & E & _); discriminate|discriminate|intros (t & E & _); discriminate]].
  destruct (Rle_dec (tp_hexf2f (th_params t)) 0) as [H|H].
  { assert (E : bolt k = Err). { unfold bolt. rewrite T. cbv zeta. replace (Rleb (hex_radius (th_params t)) 0) with true; [reflexivity|]. symmetry. apply Rleb_true. destruct (Rle_dec (hex_radius (th_params t)) 0) as [|Q]; [assumption|]. assert (Q' : 0 < hex_radius (th_params t)) by lra. apply hex_radius_pos in Q'. lra. }
    rewrite E. split; split; [intros (s & Q); discriminate|intros (t' & p & Q & P & _); injection Q as <-; lra|intros _; exists t; tauto|reflexivity]. }
  assert (P : 0 < tp_hexf2f (th_params t)) by lra. pose proof (proj2 (hex_height_pos _) P) as HP.
  assert (SD : style_ok (bo_style k) \/ ~ style_ok (bo_style k)) by (unfold style_ok; destruct (bo_style k); try tauto; right; intros [Q|Q]; discriminate).
  destruct SD as [SD|SD].
  2:{ assert (E : bolt k = Err). { unfold bolt. rewrite T. cbv zeta. rewrite rleb_pos by exact P. unfold style_ok in SD. destruct (bo_style k); try reflexivity; exfalso; tauto. }
      rewrite E. split; split; [intros (s & Q); discriminate|intros (t' & p & _ & _ & Q & _); tauto|intros _; exists t; tauto|reflexivity]. }
  destruct (head_ok (bo_style k) (th_params t) P SD) as (hd & HD).
  unfold bolt. rewrite T. cbv zeta. rewrite rleb_pos by exact P. rewrite HD. cbn [bind].
  pose proof (cyl_round_ok (bo_shank k + hex_height (th_params t) / 2) (tp_radius (th_params t)) (hex_height (th_params t) * (8/100))) as CR.
  pose proof (cylinder_no_err (bo_shank k + hex_height (th_params t) / 2) (tp_radius (th_params t)) (hex_height (th_params t) * (8/100))) as NE.
  set (hh := hex_height (th_params t)) in *. destruct (must_cylinder _ _ _) as [c| |] eqn:EC; [|congruence|].
  2:{ cbn [bind]. assert (SO : ~ shank_ok k t). { unfold shank_ok. fold hh. intros (Q1 & Q2). destruct (proj2 CR) as (s & Q); [lra|discriminate]. }
      split; split; [intros (s & Q); discriminate|intros (t' & p & Q & _ & _ & Q' & _); injection Q as <-; tauto|discriminate|].
      intros (t' & Q & [Q'|[Q'|(Q' & _)]]); injection Q as <-; [lra|tauto|tauto]. }
  cbn [bind]. rewrite transform3_ok. cbn [bind]. assert (SO : shank_ok k t). { unfold shank_ok. fold hh. destruct (proj1 CR) as (A & B & C); [eauto|]. lra. }
  destruct (Rltb_spec (bo_total k - bo_shank k) 0) as [L|L].
  { rewrite (proj2 (Reqb_true 0 0)) by lra. cbn. split; split; [intros (s & Q); discriminate|intros (t' & p & _ & _ & _ & _ & Q & _); lra|discriminate|].
    intros (t' & Q & [Q'|[Q'|(_ & Q' & _)]]); injection Q as <-; [lra|tauto|lra]. }
  destruct (Reqb_spec (bo_total k - bo_shank k) 0) as [Z|Z].
  { cbn. split; split; [intros (s & Q); discriminate|intros (t' & p & _ & _ & _ & _ & Q & _); lra|discriminate|].
    intros (t' & Q & [Q'|[Q'|(_ & Q' & _)]]); injection Q as <-; [lra|tauto|lra]. }
  cbn [negb]. unfold screw. rewrite (proj2 (Rleb_false (bo_total k - bo_shank k) 0)) by lra. destruct (th_thread t) as [pr| |] eqn:ET; cbn [bind].
  - match goal with |- context [chamfered_cylinder (Some ?s) 0 (1/2)] => destruct (chamfer_ok s 0 (1/2)) as (ch & ->) end. cbn [bind]. rewrite transform3_ok. cbn [bind].
    split; split; [intros _; exists t, pr; split; [reflexivity|]; split; [exact P|]; split; [exact SD|]; split; [exact SO|]; split; [lra|exact ET]|intros _; eexists; reflexivity|discriminate|].
    intros (t' & Q & [Q'|[Q'|(_ & _ & Q')]]); injection Q as <-; [lra|tauto|congruence].
  - split; split; [intros (s & Q); discriminate|intros (t' & p & Q & _ & _ & _ & _ & Q'); injection Q as <-; congruence|intros _; exists t; split; [reflexivity|]; right; right; split; [exact SO|split; [lra|exact ET]]|reflexivity].
  - split; split; [intros (s & Q); discriminate|intros (t' & p & Q & _ & _ & _ & _ & Q'); injection Q as <-; congruence|discriminate|].
    intros (t' & Q & [Q'|[Q'|(_ & _ & Q')]]); injection Q as <-; [lra|tauto|congruence].
Qed.
(** Bolt refuses none of the parameter sets its own switch calls invalid. *)
Theorem C66_bolt_nil_refuted st tol tot sh : bolt (BoltP None st tol tot sh) = Panicked.
Proof. reflexivity. Qed.
Theorem C66_bolt_lengths_refuted k t : bo_thread k = Some t -> 0 < tp_hexf2f (th_params t) -> style_ok (bo_style k) -> bo_total k <= bo_shank k -> bolt k = Panicked.
Proof.
  intros T P S L. destruct (C66_bolt_outcome k) as (A & B). destruct (bolt k) as [s| |]; [|exfalso|reflexivity].
  - exfalso. destruct (proj1 A) as (t' & p & _ & _ & _ & _ & Q & _); [eauto|lra].
  - destruct (proj1 B eq_refl) as (t' & Q & [Q'|[Q'|(_ & Q' & _)]]); rewrite T in Q; injection Q as <-; [lra|tauto|lra].
Qed.
(** Tolerance has no influence on the result of Bolt, negative or not. *)
Theorem C66_bolt_tolerance_refuted t st tol tol' tot sh : bolt (BoltP t st tol tot sh) = bolt (BoltP t st tol' tot sh).
Proof. reflexivity. Qed.
Lemma find_some_in {A} (f : A -> bool) l x : find f l = Some x -> In x l.
Proof. intros H. apply find_some in H. tauto. Qed.
Lemma metric_min r : 175/100 <= metricf2f r <= 95.
Proof.
  unfold metricf2f. destruct (find _ _) eqn:E; [|cbn; lra]. apply find_some_in in E. cbn in E. repeat (destruct E as [<-|E]; [lra|]). destruct E.
Qed.
Lemma m16_ok st sh tol tot : style_ok st -> - 1 <= sh < tot -> exists s, bolt (BoltP (Some (iso 16 2 true)) st tol tot sh) = Ok s.
Proof.
  intros S L. apply C66_bolt_outcome. destruct (iso_ok 16 2 true) as (t & E). exists (iso 16 2 true), t. cbn [bo_thread bo_style bo_shank bo_total]. split; [reflexivity|].
  assert (F : metricf2f (16/2) = 24). { unfold metricf2f, est_f2f. cbn [metric_table rev app]. rewrite (proj2 (Rltb_false _ 1)) by (rewrite Rabs_left1; lra). rewrite (proj2 (Rltb_false (16/2) _)), (proj2 (Rltb_false (16/2) _)), (proj2 (Rltb_false (16/2) _)) by lra. cbn [find].
    repeat (match goal with |- context [Rltb ?a ?b] => destruct (Rltb_spec a b) end; try lra). }
  assert (HF : tp_hexf2f (th_params (iso 16 2 true)) = 24) by exact F. assert (HR : tp_radius (th_params (iso 16 2 true)) = 8) by (cbn; lra).
  split; [lra|]. split; [exact S|]. split; [|split; [lra|exact E]]. unfold shank_ok. cbn [bo_shank]. rewrite HR.
  assert (HH : 10 <= hex_height (th_params (iso 16 2 true)) <= 12).
  { unfold hex_height, hex_radius. rewrite HF. replace (30 * PI / 180) with (PI / 6) by field. rewrite cos_PI6. replace (2 * (24 / (2 * (sqrt 3 / 2))) * (5 / 12)) with (20 / sqrt 3) by (field; pose proof (sqrt_lt_R0 3); lra).
    assert (Q : 0 < sqrt 3) by (apply sqrt_lt_R0; lra). pose proof (sqrt_sqrt 3 ltac:(lra)) as SS. assert (5/3 <= sqrt 3 <= 2) by (split; nra). split; apply (Rmult_le_reg_r (sqrt 3)); try exact Q; field_simplify; lra. }
  lra.
Qed.
Theorem C66_bolt_accepts_invalid_refuted : (exists s, bolt (BoltP (Some (iso 16 2 true)) NutHex (-1) 30 10) = Ok s) /\ (exists s, bolt (BoltP (Some (iso 16 2 true)) NutKnurl 0 30 (-1)) = Ok s) /\
  exists s, bolt (BoltP (Some (iso 16 2 true)) NutHex 0 (-1/4) (-1/2)) = Ok s.
Proof. split; [|split]; apply m16_ok; try (unfold style_ok; tauto); lra. Qed.
(** Very small threads: the shank rounding exceeds the radius and Bolt panics instead of returning an error. *)
Theorem C66_bolt_tiny_refuted t k : bo_thread k = Some t -> style_ok (bo_style k) -> 0 < tp_hexf2f (th_params t) -> tp_radius (th_params t) < hex_height (th_params t) * (8/100) -> bolt k = Panicked.
Proof.
  intros T S P R. destruct (C66_bolt_outcome k) as (A & B). destruct (bolt k) as [s| |]; [|exfalso|reflexivity].
  - exfalso. destruct (proj1 A) as (t' & p & Q & _ & _ & (Q' & _) & _); [eauto|]. rewrite T in Q. injection Q as <-. lra.
  - destruct (proj1 B eq_refl) as (t' & Q & [Q'|[Q'|((Q' & _) & _)]]); rewrite T in Q; injection Q as <-; [lra|tauto|lra].
Qed.
(** Nut: exactly when it returns a solid, and what the solid is; all other cases are errors,
    except a panic of the thread profile itself. *)
Theorem C66_nut_partial k :
  ((exists s, nut k = Ok s) <-> exists t p, nu_thread k = Some t /\ 0 <= nu_tolerance k /\ 0 < tp_hexf2f (th_params t) /\ nu_style k <> NutOther /\ th_thread t = Ok p) /\
  (nut k = Panicked -> exists t, nu_thread k = Some t /\ th_thread t = Panicked) /\
  (forall s, nut k = Ok s -> exists t body thread, nu_thread k = Some t /\ screw (hex_height (th_params t)) (Some t) = Ok thread /\ bb3 s = bb3 body /\ forall p, ev3 s p < 0 <-> ev3 body p < 0 /\ 0 < ev3 thread p).
Proof.
  destruct (nu_thread k) as [t|] eqn:T; [|split; [split|split]; unfold nut; rewrite T; [intros (s & E); discriminate|intros (t & p & E & _); discriminate|discriminate|discriminate]].
  unfold nut. rewrite T. destruct (Rltb_spec (nu_tolerance k) 0) as [L|L].
  { split; [split|split]; [intros (s & E); discriminate|intros (t' & p & _ & Q & _); lra|discriminate|discriminate]. }
  cbv zeta. destruct (Rle_dec (tp_hexf2f (th_params t)) 0) as [H|H].
  { replace (Rleb (hex_radius (th_params t)) 0) with true. 2:{ symmetry. apply Rleb_true. destruct (Rle_dec (hex_radius (th_params t)) 0) as [|Q]; [assumption|]. assert (Q' : 0 < hex_radius (th_params t)) by lra. apply hex_radius_pos in Q'. lra. }
    cbn [orb]. split; [split|split]; [intros (s & E); discriminate|intros (t' & p & Q & _ & Q' & _); injection Q as <-; lra|discriminate|discriminate]. }
  assert (P : 0 < tp_hexf2f (th_params t)) by lra. rewrite rleb_pos by exact P. pose proof (proj2 (hex_radius_pos _) P) as RP. pose proof (proj2 (hex_height_pos _) P) as HP.
  assert (B : (nu_style k = NutOther /\ match nu_style k with NutHex => hex_head (hex_radius (th_params t)) (hex_height (th_params t)) "tb" | NutKnurl => knurled_head (hex_radius (th_params t)) (hex_height (th_params t)) (hex_radius (th_params t) * (1/4)) | NutCircular => must_cylinder (hex_height (th_params t)) (hex_radius (th_params t) * (11/10)) 0 | NutOther => Err end = Err) \/
     nu_style k <> NutOther /\ exists b, match nu_style k with NutHex => hex_head (hex_radius (th_params t)) (hex_height (th_params t)) "tb" | NutKnurl => knurled_head (hex_radius (th_params t)) (hex_height (th_params t)) (hex_radius (th_params t) * (1/4)) | NutCircular => must_cylinder (hex_height (th_params t)) (hex_radius (th_params t) * (11/10)) 0 | NutOther => Err end = Ok b).
  { destruct (nu_style k); [right|right|right|left; auto]; (split; [discriminate|]).
    - apply cylinder_ok. lra.
    - now apply hex_head_ok.
    - unfold hex_height. now apply knurled_head_ok. }
  destruct B as [(O & ->)|(O & b & ->)]; cbn [bind].
  { split; [split|split]; [intros (s & E); discriminate|intros (t' & p & _ & _ & _ & Q & _); tauto|discriminate|discriminate]. }
  assert (SC : (exists x pr, screw (hex_height (th_params t)) (Some t) = Ok x /\ th_thread t = Ok pr) \/ screw (hex_height (th_params t)) (Some t) = Err /\ th_thread t = Err \/ screw (hex_height (th_params t)) (Some t) = Panicked /\ th_thread t = Panicked).
  { unfold screw. rewrite (proj2 (Rleb_false (hex_height (th_params t)) 0)) by lra. destruct (th_thread t) as [pr| |]; cbn [bind]; [left; eexists; exists pr; split; reflexivity|right; left; auto|right; right; auto]. }
  destruct SC as [(x & pr & ES & ET)|[(ES & ET)|(ES & ET)]]; rewrite ES; cbn [bind].
  - split; [split|split]; [intros _; exists t, pr; repeat split; assumption|intros _; eexists; reflexivity|discriminate|].
    intros s E. cbn [difference3d difference3d_max] in E. injection E as <-. exists t, b, x. split; [reflexivity|]. split; [exact ES|]. split; [reflexivity|]. intros p. cbn [diff3_max ev3]. rewrite Rmax_neg_iff. lra.
  - split; [split|split]; [intros (s & E); discriminate|intros (t' & p & Q & _ & _ & _ & Q'); injection Q as <-; congruence|discriminate|discriminate].
  - split; [split|split]; [intros (s & E); discriminate|intros (t' & p & Q & _ & _ & _ & Q'); injection Q as <-; congruence|eauto|discriminate].
Qed.
Theorem C66_nut_tolerance_refuted t st tol tol' : 0 <= tol -> 0 <= tol' -> nut (NutP t st tol) = nut (NutP t st tol').
Proof. intros A B. unfold nut. cbn. rewrite (proj2 (Rltb_false tol 0)), (proj2 (Rltb_false tol' 0)) by lra. reflexivity. Qed.
Example C66_example : exists s, nut (NutP (Some (iso 16 2 false)) NutHex (1/10)) = Ok s.
Proof.
  apply C66_nut_partial. destruct (iso_ok 16 2 false) as (t & E). exists (iso 16 2 false), t. cbn [nu_thread nu_tolerance nu_style]. split; [reflexivity|]. split; [lra|]. split; [|split; [discriminate|exact E]].
  pose proof (metric_min (16/2)). cbn [th_params iso tp_hexf2f basic_params]. lra.
Qed.

(** ** C67 *)
Theorem C67_npt n nominal : set_from_nominal n nominal <> Panicked /\
  (forall m, set_from_nominal n nominal = Ok m <-> exists size, In (size, m) npt_table /\ Rabs (size - nominal) < 1/32) /\
  (set_from_nominal n nominal = Err <-> forall size m, In (size, m) npt_table -> 1/32 <= Rabs (size - nominal)) /\
  (forall s1 m1 s2 m2, In (s1, m1) npt_table -> In (s2, m2) npt_table -> Rabs (s1 - nominal) < 1/32 -> Rabs (s2 - nominal) < 1/32 -> (s1, m1) = (s2, m2)).
Proof.
  assert (U : forall s1 m1 s2 m2, In (s1, m1) npt_table -> In (s2, m2) npt_table -> Rabs (s1 - nominal) < 1/32 -> Rabs (s2 - nominal) < 1/32 -> (s1, m1) = (s2, m2)).
  { intros s1 m1 s2 m2 I J A B. apply Rabs_def2 in A, B. cbn in I, J.
    repeat (destruct I as [I|I]; [injection I as <- <-; repeat (destruct J as [J|J]; [injection J as <- <-; try reflexivity; exfalso; lra|]); destruct J|]). destruct I. }
  unfold set_from_nominal. destruct (find (fun a => Rltb (Rabs (fst a - nominal)) (1/32)) npt_table) as [[sz m]|] eqn:E.
  - apply find_some in E. cbn [fst] in E. destruct E as (I & D). apply Rltb_true in D. split; [discriminate|]. split; [|split; [split; [discriminate|]|exact U]].
    + intros m'. cbn [snd]. split; [intros Q; injection Q as <-; eauto|]. intros (s' & I' & D'). pose proof (U _ _ _ _ I I' D D') as Q. injection Q as _ <-. reflexivity.
    + intros N. specialize (N _ _ I). lra.
  - assert (N : forall size m, In (size, m) npt_table -> 1/32 <= Rabs (size - nominal)). { intros s m I. pose proof (find_none _ _ E _ I) as Q. cbn [fst] in Q. now apply Rltb_false in Q. }
    split; [discriminate|]. split; [|split; [split; [intros _; exact N|reflexivity]|exact U]]. intros m. split; [discriminate|]. intros (s & I & D). specialize (N _ _ I). lra.
Qed.
(** What the selected row gives: the outside diameter, turns per inch and flat-to-flat size of the
    thread it builds. *)
Theorem C67_npt_thread n nominal m : set_from_nominal n nominal = Ok m -> exists t, th_thread (npt_threader m) = Ok t /\
  tp_radius (th_params (npt_threader m)) = npt_d m / 2 /\ tp_pitch (th_params (npt_threader m)) = 1 / npt_tpi m /\ tp_hexf2f (th_params (npt_threader m)) = npt_f2f m /\
  0 < npt_d m /\ 0 < npt_tpi m /\ 0 < npt_f2f m /\ 0 < tp_taper (th_params (npt_threader m)) < PI / 2.
Proof.
  intros E. apply C67_npt in E. destruct E as (size & I & _). destruct m as [d p f]. destruct (C65_profiles d p) as (_ & _ & _ & _ & _ & H & _). destruct (H f) as (t & Et). exists t. split; [exact Et|].
  cbn [th_params npt_threader tp_radius tp_pitch tp_hexf2f tp_taper basic_params]. assert (0 < atan (1/32)) by (rewrite <- atan_0; apply atan_increasing; lra). pose proof (atan_bound (1/32)) as AB.
  cbn in I. repeat (destruct I as [I|I]; [injection I as <- <- <- <-; cbn; repeat split; try lra; try (apply Rmult_lt_0_compat; [lra|apply Rinv_0_lt_compat; lra]); try (rewrite (proj2 (Rltb_true _ _)) by lra; lra)|]). destruct I.
Qed.
(** The metric lookup: the largest table value below the estimate (less 1/100), or the smallest
    table value if there is none. *)
Theorem C67_metric r : let e := est_f2f r - 1/100 in
  In (metricf2f r) metric_table /\ 175/100 <= metricf2f r /\
  (175/100 < e -> metricf2f r < e /\ forall v, In v metric_table -> v < e -> v <= metricf2f r) /\
  (e <= 175/100 -> metricf2f r = 175/100).
Proof.
  cbv zeta. set (e := est_f2f r - 1/100). pose proof (metric_min r) as MM. unfold metricf2f in *. fold e in MM |- *. cbn [metric_table rev app find] in *.
  repeat (match goal with |- context [Rltb ?a e] => destruct (Rltb_spec a e) end; [split; [cbn; tauto|]; split; [lra|]; split; [intros _; split; [lra|]; intros v V W; cbn in V; repeat (destruct V as [<-|V]; [lra|]); destruct V|intros Q; lra]|]).
  cbn [hd]. split; [cbn; tauto|]. split; [lra|]. split; [intros Q; lra|reflexivity].
Qed.
(** The tabulated sizes in inches: nominal size, outside diameter, turns per inch, flat to flat distance. *)
Theorem C67_npt_sizes n x : 
  Forall (fun row => let '(size, d, tpi, f2f) := row in Rabs (x - size) < 1/32 -> set_from_nominal n x = Ok (Npt d tpi f2f))
    [(1/8, 81/200, 27, 56/127); (1/4, 27/50, 18, 157/254); (3/8, 27/40, 18, 175/254); (1/2, 21/25, 14, 112/127); (3/4, 21/20, 14, 269/254); (1, 263/200, 23/2, 351/254);
     (5/4, 83/50, 23/2, 445/254); (3/2, 19/10, 23/2, 2); (2, 19/8, 23/2, 5/2); (5/2, 23/8, 8, 3); (3, 7/2, 8, 7/2); (4, 9/2, 8, 1173/254)].
Proof.
  destruct (C67_npt n x) as (_ & H & _).
  repeat (apply Forall_cons; [intros A; apply H; match type of A with Rabs (x - ?z) < _ => exists z end; (split; [|rewrite Rabs_minus_sym; exact A]); unfold npt_table; cbn [map];
    repeat first [left; solve [repeat first [lra | f_equal]]|right]|]). apply Forall_nil.
Qed.
(** The estimate the metric lookup starts from, by radius; M56 has its own. *)
Theorem C67_metric_estimate r e :
  (27 < r < 29 /\ e = 86) \/ (r < 6/10 /\ e = 32/10 * r) \/ (6/10 <= r < 19/10 /\ e = 45/10 * r) \/ (19/10 <= r < 21/10 /\ e = 4 * r) \/ (21/10 <= r /\ ~ 27 < r < 29 /\ e = 35/10 * r) ->
  let sizes := [7/4; 2; 16/5; 4; 5; 6; 7; 8; 10; 13; 17; 19; 24; 30; 36; 46; 55; 65; 75; 85; 95] in
  In (metricf2f r) sizes /\
  (7/4 < e - 1/100 -> metricf2f r < e - 1/100 /\ forall v, In v sizes -> v < e - 1/100 -> v <= metricf2f r) /\
  (e - 1/100 <= 7/4 -> metricf2f r = 7/4).
Proof.
  intros C sizes. assert (E : est_f2f r = e).
  { unfold est_f2f. destruct (Rltb_spec (Rabs (r - 56/2)) 1) as [A|A].
    - apply Rabs_def2 in A. lra.
    - assert (N : ~ 27 < r < 29) by (intros N; assert (Rabs (r - 56/2) < 1) by (apply Rabs_def1; lra); lra). destruct (Rltb_spec r (12/10/2)), (Rltb_spec r (38/10/2)), (Rltb_spec r (42/10/2)); lra. }
  destruct (C67_metric r) as (I & _ & G & L). rewrite E in G, L.
  assert (T : sizes = metric_table) by (unfold sizes, metric_table; repeat (f_equal; try lra)). rewrite T. split; [exact I|]. split; [intros Q; apply G; lra|intros Q; rewrite L by lra; lra].
Qed.
Example C67_m56 : metricf2f (56/2) = 85 /\ metricf2f (10/2) = 17 /\ forall n, set_from_nominal n (51/100) = Ok (Npt (21/25) 14 (112/127)).
Proof.
  split; [|split].
  - destruct (C67_metric_estimate (56/2) 86) as (I & G & _); [lra|]. destruct G as (A & B); [lra|]. assert (85 <= metricf2f (56/2)) by (apply B; [cbn; tauto|lra]). cbn in I. repeat (destruct I as [I|I]; [rewrite <- I in *; lra|]). destruct I.
  - destruct (C67_metric_estimate (10/2) (35/10 * (10/2))) as (I & G & _); [lra|]. destruct G as (A & B); [lra|]. assert (17 <= metricf2f (10/2)) by (apply B; [cbn; tauto|lra]). cbn in I. repeat (destruct I as [I|I]; [rewrite <- I in *; lra|]). destruct I.
  - intros n. pose proof (C67_npt_sizes n (51/100)) as F. do 3 apply Forall_inv_tail in F. apply Forall_inv in F. apply F. rewrite Rabs_pos_eq; lra.
Qed.
Example C67_example n : (exists m, set_from_nominal n (52/100) = Ok m) /\ set_from_nominal n (3/5) = Err /\ metricf2f 4 = 13.
Proof.
  split; [|split].
  - eexists. apply C67_npt. exists (1/2). split; [cbn; tauto|]. rewrite Rabs_left1; lra.
  - apply C67_npt. intros size m I. cbn in I. repeat (destruct I as [I|I]; [injection I as <- <-; unfold Rabs; destruct (Rcase_abs _); lra|]). destruct I.
  - unfold metricf2f, est_f2f. rewrite (proj2 (Rltb_false _ 1)) by (rewrite Rabs_left1; lra). rewrite (proj2 (Rltb_false 4 _)), (proj2 (Rltb_false 4 _)), (proj2 (Rltb_false 4 _)) by lra. cbn [metric_table rev app find].
    repeat (match goal with |- context [Rltb ?a ?b] => destruct (Rltb_spec a b) end; try lra).
Qed.
