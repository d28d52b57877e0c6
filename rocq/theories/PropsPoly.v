(** Polygon (C59) and Nagon (C61). *)
From Coq Require Import Reals Lra Psatz List Bool ZArith Lia Ranalysis5 Floats.SpecFloat.
From Verif Require Import Prelude Vec BoxModel MatrixModel SdfModel PolyModel Trig PropsMatrix PropsBool PropsBox PropsUtil SdfLemmas Grades GradesCopy PropsUnion2 McRealModel.
Import ListNotations.
Local Open Scope R_scope.

(** ** What the statements are about *)
Definition on_seg (a b q : v2) : Prop := exists t, 0 <= t <= 1 /\ q = add2 a (scale2 t (sub2 b a)).
Definition consecutive (l : list v2) (a b : v2) : Prop := exists l1 l2, l = l1 ++ a :: b :: l2.
(** The closed polyline through the vertices. *)
Definition on_polyline (vs : list v2) (q : v2) : Prop :=
  exists a b, consecutive (vs ++ [hd zero2 vs]) a b /\ on_seg a b q.
(** The signed angle under which p sees the segment from a to b. *)
Definition seen_angle (p a b : v2) : R := atan2 (cross2 (sub2 a p) (sub2 b p)) (dot2 (sub2 a p) (sub2 b p)).
Fixpoint angle_sum (p : v2) (l : list v2) : R :=
  match l with
  | a :: ((b :: _) as r) => seen_angle p a b + angle_sum p r
  | _ => 0
  end.
(** Winding number of the closed polyline around p (meant for p off the polyline). *)
Definition winding (vs : list v2) (p : v2) : R := angle_sum p (vs ++ [hd zero2 vs]) / (2 * PI).
(** Inputs the code treats as a closed loop: neighbours differ, and the first and last vertex
    are equal or further apart than the tolerance. *)
Definition loop_ok (vs : list v2) : Prop :=
  (forall a b, consecutive vs a b -> a <> b) /\
  (last vs zero2 = hd zero2 vs \/ tolerance < Rabs (x2 (hd zero2 vs) - x2 (last vs zero2)) \/ tolerance < Rabs (y2 (hd zero2 vs) - y2 (last vs zero2))).

(** ** Distance to one segment *)
Definition seg_d2 (p a b : v2) : R :=
  let pa := sub2 p a in let vec := unit2 (sub2 b a) in
  let t := dot2 pa vec in let dn := dot2 pa (V2 (y2 vec) (- x2 vec)) in
  if Rltb t 0 then norm2sq pa else if Rltb (norm2 (sub2 b a)) t then norm2sq (sub2 p b) else dn * dn.
Definition seg_wn (p a b : v2) : Z :=
  let dn := dot2 (sub2 p a) (V2 (y2 (unit2 (sub2 b a))) (- x2 (unit2 (sub2 b a)))) in
  if Rleb (y2 a) (y2 p) then if Rltb (y2 p) (y2 b) then if Rltb dn 0 then 1%Z else 0%Z else 0%Z
  else if Rleb (y2 b) (y2 p) then if Rltb 0 dn then (-1)%Z else 0%Z else 0%Z.
Lemma norm2_pos v : v <> zero2 -> 0 < norm2 v.
Proof.
  intros N. pose proof (norm2_nonneg v) as P. destruct (Req_dec (norm2 v) 0) as [Q|Q]; [|lra]. exfalso. apply N.
  pose proof (norm2_sq v) as S. rewrite Q in S. unfold norm2sq, dot2 in S. apply v2_ext; cbn; nra.
Qed.
Lemma sub2_zero a b : sub2 a b = zero2 -> a = b.
Proof. destruct a, b. unfold sub2, zero2. cbn. intros Q. injection Q as Q1 Q2. apply v2_ext; cbn; lra. Qed.
(** Frame of a segment: b = a + L u with |u| = 1. *)
Lemma seg_frame a b : a <> b -> let L := norm2 (sub2 b a) in let u := unit2 (sub2 b a) in
  0 < L /\ x2 u * x2 u + y2 u * y2 u = 1 /\ x2 b = x2 a + L * x2 u /\ y2 b = y2 a + L * y2 u.
Proof.
  intros N L u. assert (P : 0 < L) by (apply norm2_pos; intros Q; apply N; symmetry; now apply sub2_zero).
  assert (E : sub2 b a = scale2 L u) by (unfold u, L, unit2, scale2; apply v2_ext; cbn [x2 y2]; field; exact (Rgt_not_eq _ _ P)).
  split; [exact P|]. split.
  - pose proof (norm2_sq (sub2 b a)) as S. fold L in S. rewrite E in S. unfold norm2sq, dot2, scale2 in S. cbn [x2 y2] in S.
    apply (Rmult_eq_reg_l (L * L)); [|nra]. lra.
  - clearbody L u. destruct a as [ax ay], b as [bx by_], u as [ux uy]. unfold sub2, scale2 in E. cbn [x2 y2] in *. injection E as E1 E2. split; lra.
Qed.
Lemma seg_spec p a b : a <> b ->
  (exists q, on_seg a b q /\ norm2sq (sub2 p q) = seg_d2 p a b) /\ (forall q, on_seg a b q -> seg_d2 p a b <= norm2sq (sub2 p q)).
Proof.
  intros N. destruct (seg_frame a b N) as (P & U & BX & BY). unfold seg_d2. cbv zeta. set (L := norm2 (sub2 b a)) in *. set (u := unit2 (sub2 b a)) in *. clearbody L u.
  destruct p as [px py], a as [ax ay], b as [bx by_], u as [ux uy]. cbn [x2 y2] in *. subst bx by_.
  unfold on_seg, norm2sq, dot2, add2, scale2, sub2. cbn [x2 y2].
  set (t := (px - ax) * ux + (py - ay) * uy). set (dn := (px - ax) * uy + (py - ay) * - ux).
  assert (Q : forall k, (px - (ax + k * ux)) * (px - (ax + k * ux)) + (py - (ay + k * uy)) * (py - (ay + k * uy)) = (t - k) * (t - k) + dn * dn).
  { intros k. unfold t, dn.
    assert (U' : ux * ux = 1 - uy * uy) by lra. ring [U']. }
  assert (QA : (px - ax) * (px - ax) + (py - ay) * (py - ay) = t * t + dn * dn). { specialize (Q 0). rewrite !Rmult_0_l, !Rplus_0_r, !Rminus_0_r in Q. exact Q. }
  assert (SEG : forall q, (exists s, 0 <= s <= 1 /\ q = V2 (ax + s * (ax + L * ux - ax)) (ay + s * (ay + L * uy - ay))) ->
     exists k, 0 <= k <= L /\ (px - x2 q) * (px - x2 q) + (py - y2 q) * (py - y2 q) = (t - k) * (t - k) + dn * dn).
  { intros q (s & S & ->). exists (s * L). split; [nra|]. rewrite <- Q. cbn [x2 y2]. replace (ax + L * ux - ax) with (L * ux) by ring. replace (ay + L * uy - ay) with (L * uy) by ring. ring. }
  clearbody t dn. destruct (Rltb_spec t 0) as [T|T]; [|destruct (Rltb_spec L t) as [T2|T2]].
  - split.
    + exists (V2 ax ay). split; [exists 0; split; [lra|apply v2_ext; cbn [x2 y2]; ring]|cbn [x2 y2]; exact QA || reflexivity].
    + intros q S. destruct (SEG q S) as (k & K & E). rewrite E, QA. nra.
  - split.
    + exists (V2 (ax + L * ux) (ay + L * uy)). split; [exists 1; split; [lra|apply v2_ext; cbn [x2 y2]; ring]|reflexivity].
    + intros q S. destruct (SEG q S) as (k & K & E). rewrite E, Q. nra.
  - split.
    + exists (V2 (ax + t * ux) (ay + t * uy)). split.
      * exists (t / L). split.
        { split; [apply Rmult_le_pos; [lra|left; now apply Rinv_0_lt_compat]|]. apply (Rmult_le_reg_r L); [lra|]. replace (t / L * L) with t by (field; lra). lra. }
        apply v2_ext; cbn [x2 y2]; field; lra.
      * cbn [x2 y2]. rewrite Q. ring.
    + intros q S. destruct (SEG q S) as (k & K & E). rewrite E. pose proof (Rle_0_sqr (t - k)) as SQ. unfold Rsqr in SQ. set (dn2 := dn * dn). lra.
Qed.

(** ** The loop *)
Lemma poly_edges_cons a b r : poly_edges (a :: b :: r) = (a, b) :: poly_edges (b :: r).
Proof. reflexivity. Qed.
Lemma in_edges l a b : In (a, b) (poly_edges l) <-> consecutive l a b.
Proof.
  split.
  - revert a b. induction l as [|c l IH]; intros a b I; [contradiction|]. destruct l as [|d r]; [contradiction|]. rewrite poly_edges_cons in I. destruct I as [E|I].
    + injection E as -> ->. exists [], r. reflexivity.
    + destruct (IH a b I) as (l1 & l2 & ->). exists (c :: l1), l2. reflexivity.
  - intros (l1 & l2 & ->). induction l1 as [|c l1 IH]; [left; reflexivity|]. cbn [app]. destruct (l1 ++ a :: b :: l2) as [|d r] eqn:E; [now destruct l1|].
    rewrite poly_edges_cons. right. exact IH.
Qed.
Definition sumZ (l : list Z) : Z := fold_right Z.add 0%Z l.
Lemma poly_fold p : forall l dd wn,
  fst (fold_left (poly_step p) (poly_edges l) (dd, wn, sub2 p (hd zero2 l))) =
  (fold_left (fun acc e => Rmin acc (seg_d2 p (fst e) (snd e))) (poly_edges l) dd, (wn + sumZ (map (fun e => seg_wn p (fst e) (snd e)) (poly_edges l)))%Z).
Proof.
  induction l as [|a l IH]; intros dd wn; [cbn; f_equal; lia|]. destruct l as [|b r]; [cbn; f_equal; lia|].
  rewrite poly_edges_cons. cbn [fold_left map sumZ fold_right fst snd hd].
  assert (E : poly_step p (dd, wn, sub2 p a) (a, b) = (Rmin dd (seg_d2 p a b), (wn + seg_wn p a b)%Z, sub2 p b)).
  { unfold poly_step, seg_d2, seg_wn. cbv zeta. f_equal. f_equal.
    - destruct (Rltb _ 0); [reflexivity|]. destruct (Rltb _ _); reflexivity.
    - destruct (Rleb (y2 a) (y2 p)); [destruct (Rltb (y2 p) (y2 b)); [|lia]; destruct (Rltb _ 0); lia|].
      destruct (Rleb (y2 b) (y2 p)); [|lia]. destruct (Rltb 0 _); lia. }
  rewrite E. specialize (IH (Rmin dd (seg_d2 p a b)) (wn + seg_wn p a b)%Z). cbn [hd] in IH. rewrite IH. f_equal. unfold sumZ. lia.
Qed.
Definition loop_wn (l : list v2) (p : v2) : Z := sumZ (map (fun e => seg_wn p (fst e) (snd e)) (poly_edges l)).
Definition loop_d2 (l : list v2) (p : v2) : R := fold_left (fun acc e => Rmin acc (seg_d2 p (fst e) (snd e))) (poly_edges l) max_float64.
Lemma poly_eval_eq l p : poly_eval l p = if (loop_wn l p =? 0)%Z then sqrt (loop_d2 l p) else - sqrt (loop_d2 l p).
Proof.
  unfold poly_eval. pose proof (poly_fold p l max_float64 0%Z) as F. destruct (fold_left (poly_step p) _ _) as [[dd wn] q]. cbn [fst] in F. injection F as -> ->.
  reflexivity.
Qed.
(** ** Distance to the whole loop *)
Lemma seg_d2_nonneg p a b : 0 <= seg_d2 p a b.
Proof. unfold seg_d2. cbv zeta. destruct (Rltb _ _); [apply norm2sq_nonneg|]. destruct (Rltb _ _); [apply norm2sq_nonneg|]. apply Rle_0_sqr. Qed.
Definition on_edges (l : list v2) (q : v2) : Prop := exists a b, consecutive l a b /\ on_seg a b q.
Lemma loop_d2_spec l p : (forall a b, consecutive l a b -> a <> b) -> (exists q, on_edges l q /\ norm2sq (sub2 p q) <= max_float64) ->
  (exists q, on_edges l q /\ norm2sq (sub2 p q) = loop_d2 l p) /\ forall q, on_edges l q -> loop_d2 l p <= norm2sq (sub2 p q).
Proof.
  intros D (q0 & (a0 & b0 & C0 & S0) & M). unfold loop_d2.
  destruct (fold_min_le (fun e => seg_d2 p (fst e) (snd e)) (poly_edges l) max_float64) as (L & K).
  assert (LB : forall q, on_edges l q -> fold_left (fun acc e => Rmin acc (seg_d2 p (fst e) (snd e))) (poly_edges l) max_float64 <= norm2sq (sub2 p q)).
  { intros q (a & b & C & S). apply (Rle_trans _ (seg_d2 p a b)); [apply (K (a, b)); now apply in_edges|]. now apply (seg_spec p a b (D a b C)). }
  split; [|exact LB].
  destruct (fold_min_att (fun e => seg_d2 p (fst e) (snd e)) (poly_edges l) max_float64) as [E|([a b] & I & E)].
  - exists q0. split; [exists a0, b0; now split|]. rewrite E. apply Rle_antisym; [exact M|]. rewrite <- E. apply LB. exists a0, b0. now split.
  - apply in_edges in I. destruct (proj1 (seg_spec p a b (D a b I))) as (q & S & Q). exists q. split; [exists a, b; now split|]. rewrite E. exact Q.
Qed.

(** ** The winding number *)
(** Polar angle in (0, 2 pi]. *)
Definition theta (v : v2) : R := let t := atan2 (y2 v) (x2 v) in if Rltb 0 t then t else t + 2 * PI.
Lemma theta_range v : 0 < theta v <= 2 * PI.
Proof. unfold theta. pose proof (atan2_range (y2 v) (x2 v)). pose proof PI_RGT_0. destruct (Rltb_spec 0 (atan2 (y2 v) (x2 v))); lra. Qed.
Lemma theta_polar v : x2 v = norm2 v * cos (theta v) /\ y2 v = norm2 v * sin (theta v).
Proof.
  rewrite norm2_hypot. unfold theta. destruct (atan2_polar (y2 v) (x2 v)) as (A & B). destruct (Rltb 0 _); [now split|].
  pose proof (cos_period_Z (atan2 (y2 v) (x2 v)) 1) as (C & S). rewrite Rmult_1_l in C, S. rewrite C, S. now split.
Qed.
Lemma theta_half v : v <> zero2 -> (y2 v <= 0 <-> PI <= theta v).
Proof.
  intros N. pose proof (norm2_pos v N) as P. destruct (theta_polar v) as (_ & Y). pose proof (theta_range v) as TR. pose proof PI_RGT_0 as PP. split; intros H.
  - apply Rnot_lt_le. intros L. assert (0 < sin (theta v)) by (apply sin_gt_0; lra). rewrite Y in H. nra.
  - rewrite Y. assert (sin (theta v) <= 0) by (apply sin_le_0; lra). nra.
Qed.
Lemma sin_cos_period a b : sin a = sin b -> cos a = cos b -> exists k, a = b + IZR k * (2 * PI).
Proof.
  intros S C. pose proof PI_RGT_0. set (x := (a + PI) / (2 * PI)). set (y := (b + PI) / (2 * PI)).
  (* reduce both to [-pi, pi) reflected to (-pi, pi] *)
  assert (red : forall t, exists k, - PI < t - IZR k * (2 * PI) <= PI).
  { intros t. exists (- Int_part ((PI - t) / (2 * PI)))%Z. pose proof (base_Int_part ((PI - t) / (2 * PI))) as [B1 B2]. rewrite opp_IZR.
    set (m := IZR (Int_part ((PI - t) / (2 * PI)))) in *. assert (E : (PI - t) / (2 * PI) * (2 * PI) = PI - t) by (field; lra).
    set (w := (PI - t) / (2 * PI)) in *. clearbody m w. split; nra. }
  destruct (red a) as (ka & Ra), (red b) as (kb & Rb). exists (ka - kb)%Z. rewrite minus_IZR.
  pose proof (cos_period_Z a (- ka)) as (Ca & Sa). pose proof (cos_period_Z b (- kb)) as (Cb & Sb). rewrite opp_IZR in *.
  assert (Q : a - IZR ka * (2 * PI) = b - IZR kb * (2 * PI)).
  { apply sin_cos_eq; [exact Ra|exact Rb| |].
    - replace (a - IZR ka * (2 * PI)) with (a + - IZR ka * (2 * PI)) by ring. replace (b - IZR kb * (2 * PI)) with (b + - IZR kb * (2 * PI)) by ring. congruence.
    - replace (a - IZR ka * (2 * PI)) with (a + - IZR ka * (2 * PI)) by ring. replace (b - IZR kb * (2 * PI)) with (b + - IZR kb * (2 * PI)) by ring. congruence. }
  lra.
Qed.
(** The seen angle is the difference of the polar angles, up to full turns. *)
Lemma angle_theta a b : a <> zero2 -> b <> zero2 -> exists k, theta b - theta a = atan2 (cross2 a b) (dot2 a b) + IZR k * (2 * PI).
Proof.
  intros A B. pose proof (norm2_pos a A) as PA. pose proof (norm2_pos b B) as PB. destruct (theta_polar a) as (XA & YA), (theta_polar b) as (XB & YB).
  set (r := norm2 a * norm2 b). assert (P : 0 < r) by (unfold r; nra).
  assert (C : cross2 a b = r * sin (theta b - theta a)) by (unfold cross2, r; rewrite XA, YA, XB, YB, sin_minus; ring).
  assert (D : dot2 a b = r * cos (theta b - theta a)) by (unfold dot2, r; rewrite XA, YA, XB, YB, cos_minus; ring).
  rewrite C, D. destruct (atan2_polar (r * sin (theta b - theta a)) (r * cos (theta b - theta a))) as (Q1 & Q2). rewrite hypot_polar in Q1, Q2 by lra.
  apply Rmult_eq_reg_l in Q1, Q2; try lra. now apply sin_cos_period.
Qed.
Lemma on_seg_cross p a b : a <> zero2 -> b <> zero2 -> p = zero2 -> ~ on_seg a b p -> cross2 a b = 0 -> 0 < dot2 a b.
Proof.
  intros A B -> N C. apply Rnot_le_lt. intros D. apply N. destruct a as [ax ay], b as [bx by_]. unfold cross2, dot2 in *. cbn [x2 y2] in *.
  assert (NA : 0 < ax * ax + ay * ay). { assert (ax <> 0 \/ ay <> 0). { destruct (Req_dec ax 0); [|tauto]. right. intros E. apply A. apply v2_ext; cbn; assumption. } nra. }
  assert (NB : 0 < bx * bx + by_ * by_). { assert (bx <> 0 \/ by_ <> 0). { destruct (Req_dec bx 0); [|tauto]. right. intros E. apply B. apply v2_ext; cbn; assumption. } nra. }
  set (n := ax * ax + ay * ay - (ax * bx + ay * by_)). assert (PN : 0 < n) by (unfold n; lra).
  exists ((ax * ax + ay * ay) / n). split.
  - split; [apply Rmult_le_pos; [lra|left; now apply Rinv_0_lt_compat]|]. apply (Rmult_le_reg_r n); [exact PN|]. replace (_ / n * n) with (ax * ax + ay * ay) by (field; lra). unfold n. lra.
  - unfold add2, scale2, sub2, zero2. cbn [x2 y2]. apply v2_ext; cbn [x2 y2]; apply (Rmult_eq_reg_r n); try lra.
    + replace ((ax + (ax * ax + ay * ay) / n * (bx - ax)) * n) with (ax * n + (ax * ax + ay * ay) * (bx - ax)) by (field; lra). unfold n. transitivity (- ay * (ax * by_ - ay * bx)); [rewrite C; ring|ring].
    + replace ((ay + (ax * ax + ay * ay) / n * (by_ - ay)) * n) with (ay * n + (ax * ax + ay * ay) * (by_ - ay)) by (field; lra). unfold n. transitivity (ax * (ax * by_ - ay * bx)); [rewrite C; ring|ring].
Qed.
Lemma atan2_sign y x : (0 < y -> 0 < atan2 y x < PI) /\ (y < 0 -> - PI < atan2 y x < 0) /\ (y = 0 -> 0 < x -> atan2 y x = 0).
Proof.
  destruct (atan2_polar y x) as (X & Y). pose proof (atan2_range y x) as R. pose proof (hypot_nonneg x y) as H. pose proof PI_RGT_0.
  split; [|split].
  - intros P. assert (S : 0 < sin (atan2 y x)) by nra. split.
    + apply Rnot_le_lt. intros L. assert (sin (atan2 y x) <= 0); [|lra].
      rewrite <- (Ropp_involutive (atan2 y x)), sin_neg. assert (0 <= sin (- atan2 y x)) by (apply sin_ge_0; lra). lra.
    + destruct (Req_dec (atan2 y x) PI) as [E|E]; [|lra]. rewrite E, sin_PI in S. lra.
  - intros P. assert (S : sin (atan2 y x) < 0) by nra. split; [lra|]. apply Rnot_le_lt. intros L. assert (0 <= sin (atan2 y x)) by (apply sin_ge_0; lra). lra.
  - intros E P. unfold atan2. subst y. destruct (Reqb_spec (hypot x 0) 0) as [Z|Z]; [reflexivity|]. destruct (Rleb_spec 0 0); [|lra].
    assert (HX : hypot x 0 = x). { unfold hypot. replace (x * x + 0 * 0) with (x * x) by ring. apply sqrt_square. lra. }
    rewrite HX. replace (x / x) with 1 by (field; lra). apply acos_1.
Qed.
(** The code's crossing test, as a sign of the cross product. *)
Lemma dn_cross p a b : a <> b -> exists k, 0 < k /\
  dot2 (sub2 p a) (V2 (y2 (unit2 (sub2 b a))) (- x2 (unit2 (sub2 b a)))) = - k * cross2 (sub2 a p) (sub2 b p).
Proof.
  intros N. destruct (seg_frame a b N) as (P & _ & BX & BY). set (L := norm2 (sub2 b a)) in *. set (u := unit2 (sub2 b a)) in *. clearbody L u.
  exists (/ L). split; [now apply Rinv_0_lt_compat|]. unfold dot2, cross2, sub2. cbn [x2 y2]. rewrite BX, BY. field. lra.
Qed.
(** One edge: polar angle difference = seen angle minus a full turn per counted crossing. *)
Lemma edge_turn p a b : a <> b -> ~ on_seg a b p ->
  theta (sub2 b p) - theta (sub2 a p) = seen_angle p a b - IZR (seg_wn p a b) * (2 * PI).
Proof.
  intros N O. assert (A : sub2 a p <> zero2). { intros Q. apply sub2_zero in Q. subst p. apply O. exists 0. split; [lra|]. apply v2_ext; cbn; ring. }
  assert (B : sub2 b p <> zero2). { intros Q. apply sub2_zero in Q. subst p. apply O. exists 1. split; [lra|]. apply v2_ext; cbn; ring. }
  destruct (angle_theta _ _ A B) as (k & K). fold (seen_angle p a b) in K.
  pose proof (theta_range (sub2 a p)) as RA. pose proof (theta_range (sub2 b p)) as RB. pose proof (theta_half _ A) as HA. pose proof (theta_half _ B) as HB. cbn [sub2 y2] in HA, HB.
  destruct (dn_cross p a b N) as (m & PM & DN). pose proof PI_RGT_0 as PP.
  destruct (atan2_sign (cross2 (sub2 a p) (sub2 b p)) (dot2 (sub2 a p) (sub2 b p))) as (S1 & S2 & S3). fold (seen_angle p a b) in S1, S2, S3.
  assert (Z0 : cross2 (sub2 a p) (sub2 b p) = 0 -> seen_angle p a b = 0).
  { intros C. apply S3; [exact C|]. apply (on_seg_cross zero2); [exact A|exact B|reflexivity| |exact C]. intros (t & T & Q). apply O. exists t. split; [exact T|].
    clear - Q. destruct p as [px py], a as [ax ay], b as [bx by_]. unfold zero2, add2, scale2, sub2 in *. cbn [x2 y2] in *. injection Q as Q1 Q2. apply v2_ext; cbn [x2 y2]; lra. }
  assert (AB : - PI < seen_angle p a b < PI). { destruct (Rtotal_order (cross2 (sub2 a p) (sub2 b p)) 0) as [C|[C|C]]; [specialize (S2 C)|specialize (Z0 C)|specialize (S1 C)]; lra. }
  assert (IK : forall z, -2 * PI < IZR (k - z) * (2 * PI) < 2 * PI -> k = z).
  { intros z Hz. assert (-1 < IZR (k - z) < 1) by (split; nra). assert (D : (-1 < k - z < 1)%Z) by (split; apply lt_IZR; lra). lia. }
  cut (k = - seg_wn p a b)%Z. { intros ->. rewrite K, opp_IZR. ring. }
  apply IK. rewrite minus_IZR, opp_IZR. unfold seg_wn. rewrite DN.
  destruct (Rleb_spec (y2 a) (y2 p)) as [YA|YA]; [destruct (Rltb_spec (y2 p) (y2 b)) as [YB|YB]|destruct (Rleb_spec (y2 b) (y2 p)) as [YB|YB]].
  - assert (TA : PI <= theta (sub2 a p)) by (apply HA; cbn; lra). assert (TB : theta (sub2 b p) < PI) by (apply Rnot_le_lt; intros Q; apply HB in Q; cbn in Q; lra).
    destruct (Rltb_spec (- m * cross2 (sub2 a p) (sub2 b p)) 0) as [C|C].
    + assert (C' : 0 < cross2 (sub2 a p) (sub2 b p)) by nra. specialize (S1 C'). lra.
    + assert (C' : cross2 (sub2 a p) (sub2 b p) <= 0) by nra. destruct (Req_dec (cross2 (sub2 a p) (sub2 b p)) 0) as [E|E]; [specialize (Z0 E)|assert (C2 : cross2 (sub2 a p) (sub2 b p) < 0) by lra; specialize (S2 C2)]; lra.
  - assert (TA : PI <= theta (sub2 a p)) by (apply HA; cbn; lra). assert (TB : PI <= theta (sub2 b p)) by (apply HB; cbn; lra). lra.
  - assert (TA : theta (sub2 a p) < PI) by (apply Rnot_le_lt; intros Q; apply HA in Q; cbn in Q; lra). assert (TB : PI <= theta (sub2 b p)) by (apply HB; cbn; lra).
    destruct (Rltb_spec 0 (- m * cross2 (sub2 a p) (sub2 b p))) as [C|C].
    + assert (C' : cross2 (sub2 a p) (sub2 b p) < 0) by nra. specialize (S2 C'). lra.
    + assert (C' : 0 <= cross2 (sub2 a p) (sub2 b p)) by nra. destruct (Req_dec (cross2 (sub2 a p) (sub2 b p)) 0) as [E|E]; [specialize (Z0 E)|assert (C2 : 0 < cross2 (sub2 a p) (sub2 b p)) by lra; specialize (S1 C2)]; lra.
  - assert (TA : theta (sub2 a p) < PI) by (apply Rnot_le_lt; intros Q; apply HA in Q; cbn in Q; lra). assert (TB : theta (sub2 b p) < PI) by (apply Rnot_le_lt; intros Q; apply HB in Q; cbn in Q; lra). lra.
Qed.
(** ** The whole loop *)
Lemma consecutive_cons c l a b : consecutive l a b -> consecutive (c :: l) a b.
Proof. intros (l1 & l2 & ->). exists (c :: l1), l2. reflexivity. Qed.
Lemma last_cons {A} (a b : A) r d : last (a :: b :: r) d = last (b :: r) d.
Proof. reflexivity. Qed.
Lemma turn_sum p : forall l, (forall a b, consecutive l a b -> a <> b) -> ~ on_edges l p -> l <> [] ->
  theta (sub2 (last l zero2) p) - theta (sub2 (hd zero2 l) p) = angle_sum p l - IZR (loop_wn l p) * (2 * PI).
Proof.
  induction l as [|a l IH]; intros D O N; [congruence|]. destruct l as [|b r]; [cbn; ring|].
  assert (C : consecutive (a :: b :: r) a b) by (exists [], r; reflexivity).
  assert (E : theta (sub2 b p) - theta (sub2 a p) = seen_angle p a b - IZR (seg_wn p a b) * (2 * PI)).
  { apply edge_turn; [now apply D|]. intros S. apply O. exists a, b. now split. }
  assert (I : theta (sub2 (last (b :: r) zero2) p) - theta (sub2 b p) = angle_sum p (b :: r) - IZR (loop_wn (b :: r) p) * (2 * PI)).
  { apply IH; [intros; apply D; now apply consecutive_cons| |discriminate]. intros (c & d & Q & S). apply O. exists c, d. split; [now apply consecutive_cons|exact S]. }
  rewrite last_cons. cbn [hd]. change (angle_sum p (a :: b :: r)) with (seen_angle p a b + angle_sum p (b :: r)).
  assert (W : loop_wn (a :: b :: r) p = (seg_wn p a b + loop_wn (b :: r) p)%Z) by (unfold loop_wn; rewrite poly_edges_cons; reflexivity).
  rewrite W, plus_IZR. lra.
Qed.
Lemma angle_sum_snoc p l z : l <> [] -> angle_sum p (l ++ [z]) = angle_sum p l + seen_angle p (last l zero2) z.
Proof.
  induction l as [|a l IH]; intros N; [congruence|]. destruct l as [|b r]; [cbn; ring|]. specialize (IH ltac:(discriminate)). rewrite last_cons.
  change ((a :: b :: r) ++ [z]) with (a :: b :: (r ++ [z])). change (angle_sum p (a :: b :: r ++ [z])) with (seen_angle p a b + angle_sum p ((b :: r) ++ [z])). rewrite IH.
  change (angle_sum p (a :: b :: r)) with (seen_angle p a b + angle_sum p (b :: r)). ring.
Qed.
Lemma seen_self p a : a <> p -> seen_angle p a a = 0.
Proof.
  intros N. unfold seen_angle. apply atan2_sign; [unfold cross2; ring|]. assert (Q : sub2 a p <> zero2) by (intros Q; apply N; now apply sub2_zero).
  pose proof (norm2_pos _ Q) as P. rewrite <- (sqrt_sqrt (dot2 _ _)); [|apply norm2sq_nonneg]. fold (norm2sq (sub2 a p)). fold (norm2 (sub2 a p)). nra.
Qed.
Lemma consecutive_app l m a b : consecutive l a b -> consecutive (l ++ m) a b.
Proof. intros (l1 & l2 & ->). exists l1, (l2 ++ m). rewrite <- app_assoc. reflexivity. Qed.
Lemma consecutive_snoc l z a b : l <> [] -> consecutive (l ++ [z]) a b -> consecutive l a b \/ (a = last l zero2 /\ b = z).
Proof.
  induction l as [|c l IH]; intros N C; [congruence|]. rewrite <- in_edges in C. destruct l as [|d r].
  - cbn in C. destruct C as [E|[]]. injection E as -> ->. right. now split.
  - change ((c :: d :: r) ++ [z]) with (c :: d :: (r ++ [z])) in C. rewrite poly_edges_cons in C. destruct C as [E|C].
    + injection E as -> ->. left. exists [], r. reflexivity.
    + change (d :: r ++ [z]) with ((d :: r) ++ [z]) in C. apply in_edges in C. destruct (IH ltac:(discriminate) C) as [H|H]; [left; now apply consecutive_cons|right; exact H].
Qed.
Lemma snoc_consecutive l z : l <> [] -> consecutive (l ++ [z]) (last l zero2) z.
Proof.
  intros N. destruct (exists_last N) as (l1 & y & ->). rewrite last_last, <- app_assoc. now exists l1, [].
Qed.
(** What [close_loop] gives on acceptable input: a chain without repeated neighbours from the
    first vertex back to it, with the same points and the same winding as the closed polyline. *)
Lemma last_default {A} (l : list A) d e : l <> [] -> last l d = last l e.
Proof. induction l as [|a l IH]; [congruence|]. intros _. destruct l as [|b r]; [reflexivity|]. rewrite !last_cons. apply IH. discriminate. Qed.
Lemma seg_point a q : on_seg a a q -> q = a.
Proof. intros (t & _ & ->). destruct a as [ax ay]. unfold add2, scale2, sub2. apply v2_ext; cbn [x2 y2]; ring. Qed.
Lemma on_seg_end a b : on_seg a b b.
Proof. exists 1. split; [lra|]. unfold add2, scale2, sub2. apply v2_ext; cbn [x2 y2]; ring. Qed.
Lemma on_seg_start a b : on_seg a b a.
Proof. exists 0. split; [lra|]. unfold add2, scale2, sub2. apply v2_ext; cbn [x2 y2]; ring. Qed.
Lemma last_edge l : (2 <= length l)%nat -> exists a, consecutive l a (last l zero2).
Proof.
  induction l as [|a l IH]; cbn [length]; [lia|]. destruct l as [|b r]; cbn [length]; [lia|]. intros _. rewrite last_cons.
  destruct r as [|c r]; [exists a, [], []; reflexivity|]. destruct IH as (d & C); [cbn; lia|]. exists d. now apply consecutive_cons.
Qed.
Lemma tol_pos : 0 < tolerance.
Proof. unfold tolerance. apply Rmult_lt_0_compat; [lra|]. apply Rinv_0_lt_compat. apply pow_lt. lra. Qed.
Lemma equal_within2_iff a b t : equal_within2 a b t = true <-> Rabs (x2 a - x2 b) <= t /\ Rabs (y2 a - y2 b) <= t.
Proof.
  unfold equal_within2. rewrite andb_true_iff. destruct (Rleb_spec (Rabs (x2 a - x2 b)) t), (Rleb_spec (Rabs (y2 a - y2 b)) t); split; intros (A & B); try congruence; try lra; split; (reflexivity || lra).
Qed.
Lemma close_loop_ok a l : (2 <= length (a :: l))%nat -> loop_ok (a :: l) ->
  let cl := close_loop a (a :: l) in
  (forall c d, consecutive cl c d -> c <> d) /\ last cl zero2 = a /\ hd zero2 cl = a /\ cl <> [] /\
  (forall q, on_edges cl q <-> on_polyline (a :: l) q) /\
  (forall p, ~ on_polyline (a :: l) p -> angle_sum p cl = angle_sum p ((a :: l) ++ [a])) /\
  (forall v, In v cl <-> In v (a :: l)).
Proof.
  intros N (D & O) cl. assert (NE : a :: l <> []) by discriminate. unfold cl, close_loop. rewrite (last_default (a :: l) a zero2) by exact NE.
  destruct (equal_within2 a (last (a :: l) zero2) tolerance) eqn:E.
  - apply equal_within2_iff in E. destruct E as (E1 & E2). cbn [hd] in O. assert (L : last (a :: l) zero2 = a) by (destruct O as [O|[O|O]]; [exact O|lra|lra]).
    split; [exact D|]. split; [exact L|]. split; [reflexivity|]. split; [exact NE|].
    assert (OE : forall q, on_edges (a :: l) q <-> on_polyline (a :: l) q).
    { intros q. split.
      - intros (c & d & C & S). exists c, d. split; [now apply consecutive_app|exact S].
      - intros (c & d & C & S). apply consecutive_snoc in C; [|exact NE]. destruct C as [C|(-> & ->)]; [exists c, d; now split|].
        cbn [hd] in S. rewrite L in S. apply seg_point in S. subst q. destruct (last_edge _ N) as (c & C). rewrite L in C. exists c, a. split; [exact C|]. apply on_seg_end. }
    split; [exact OE|]. split; [|reflexivity].
    intros p P. rewrite angle_sum_snoc by exact NE. rewrite L, seen_self; [ring|]. intros ->. apply P. apply OE. destruct (last_edge _ N) as (c & C). rewrite L in C. exists c, p. split; [exact C|]. apply on_seg_end.
  - assert (L : last (a :: l) zero2 <> a).
    { intros L. assert (equal_within2 a (last (a :: l) zero2) tolerance = true) by (apply equal_within2_iff; rewrite L; pose proof tol_pos; rewrite !Rminus_eq_0, Rabs_R0; lra). congruence. }
    split; [|split; [apply last_last|]].
    + intros c d C. apply consecutive_snoc in C; [|exact NE]. destruct C as [C|(-> & ->)]; [now apply D|exact L].
    + split; [reflexivity|]. split; [discriminate|]. split; [reflexivity|]. split; [reflexivity|].
      intros v. rewrite in_app_iff. cbn [In]. tauto.
Qed.
Lemma winding_turn a l p : (2 <= length (a :: l))%nat -> loop_ok (a :: l) -> ~ on_polyline (a :: l) p ->
  winding (a :: l) p = IZR (loop_wn (close_loop a (a :: l)) p).
Proof.
  intros N OK P. destruct (close_loop_ok a l N OK) as (D & L & H0 & NE & OE & AS & _). pose proof PI_RGT_0 as PP.
  unfold winding. cbn [hd]. rewrite <- (AS p P). pose proof (turn_sum p _ D ltac:(rewrite OE; exact P) NE) as T. rewrite L, H0 in T.
  assert (A : angle_sum p (close_loop a (a :: l)) = IZR (loop_wn (close_loop a (a :: l)) p) * (2 * PI)) by lra. rewrite A. field. lra.
Qed.
Lemma loop_d2_zero l p : (forall a b, consecutive l a b -> a <> b) -> (loop_d2 l p = 0 <-> on_edges l p) /\ 0 <= loop_d2 l p.
Proof.
  intros D. assert (Z : forall v, norm2sq v = 0 -> v = zero2).
  { intros [vx vy] Q. unfold norm2sq, dot2 in Q. cbn [x2 y2] in Q. apply v2_ext; cbn; nra. }
  unfold loop_d2. destruct (fold_min_le (fun e => seg_d2 p (fst e) (snd e)) (poly_edges l) max_float64) as (L & K). pose proof max_float64_pos as MP.
  assert (NN : 0 <= fold_left (fun acc e => Rmin acc (seg_d2 p (fst e) (snd e))) (poly_edges l) max_float64).
  { destruct (fold_min_att (fun e => seg_d2 p (fst e) (snd e)) (poly_edges l) max_float64) as [E|([a b] & I & E)]; rewrite E; [lra|apply seg_d2_nonneg]. }
  split; [|exact NN]. split.
  - intros Q. destruct (fold_min_att (fun e => seg_d2 p (fst e) (snd e)) (poly_edges l) max_float64) as [E|([a b] & I & E)]; [lra|].
    apply in_edges in I. destruct (seg_spec p a b (D a b I)) as ((q & S & E2) & _). cbn [fst snd] in E. rewrite <- E2, Q in E. symmetry in E. apply Z in E. apply sub2_zero in E. subst q. exists a, b. now split.
  - intros (a & b & C & S). apply Rle_antisym; [|exact NN]. eapply Rle_trans; [apply (K (a, b)); now apply in_edges|]. cbn [fst snd].
    eapply Rle_trans; [apply (seg_spec p a b (D a b C)), S|]. unfold norm2sq, dot2, sub2. cbn [x2 y2]. rewrite !Rminus_eq_0. lra.
Qed.
(** The specification: distance to the closed polyline, negative exactly where the winding
    number is not zero. *)
Definition dist_to (P : v2 -> Prop) (p : v2) (d : R) : Prop :=
  0 <= d /\ (exists q, P q /\ norm2 (sub2 p q) = d) /\ (forall q, P q -> d <= norm2 (sub2 p q)).
Theorem C59_exact_partial vs s : polygon vs = Ok s -> loop_ok vs ->
  (forall p, (exists q, on_polyline vs q /\ norm2sq (sub2 p q) <= max_float64) -> dist_to (on_polyline vs) p (Rabs (ev2 s p))) /\
  (forall p, ev2 s p < 0 <-> ~ on_polyline vs p /\ winding vs p <> 0) /\
  (forall p, ev2 s p = 0 <-> on_polyline vs p).
Proof.
  destruct vs as [|a [|b [|c r]]]; cbn [polygon]; try discriminate. intros E OK. injection E as <-. set (vs := a :: b :: c :: r) in *. cbn [ev2].
  assert (N : (2 <= length vs)%nat) by (cbn; lia). destruct (close_loop_ok a (b :: c :: r) N OK) as (D & L & H0 & NE & OE & AS & _). fold vs in D, L, H0, NE, OE, AS.
  set (cl := close_loop a vs) in *. assert (AB : forall p, Rabs (poly_eval cl p) = sqrt (loop_d2 cl p)).
  { intros p. rewrite poly_eval_eq. destruct (_ =? _)%Z; [|rewrite Rabs_Ropp]; apply Rabs_pos_eq, sqrt_pos. }
  split; [|split].
  - intros p (q & Q & M). rewrite AB. split; [apply sqrt_pos|]. destruct (loop_d2_spec cl p D) as ((q1 & Q1 & E1) & LB); [exists q; split; [now apply OE|exact M]|]. split.
    + exists q1. split; [now apply OE|]. unfold norm2. now rewrite E1.
    + intros q2 Q2. unfold norm2. apply sqrt_le_1_alt. apply LB. now apply OE.
  - intros p. destruct (loop_d2_zero cl p D) as (Z & NN). rewrite poly_eval_eq. pose proof (sqrt_pos (loop_d2 cl p)) as SP. split.
    + intros NEG. assert (P : ~ on_polyline vs p).
      { intros P. apply OE, Z in P. rewrite P, sqrt_0 in NEG. destruct (_ =? _)%Z; lra. }
      split; [exact P|]. unfold vs. rewrite winding_turn by assumption. fold vs. fold cl. destruct (Z.eqb_spec (loop_wn cl p) 0) as [W|W]; [lra|]. intros Q. apply eq_IZR in Q. lia.
    + intros (P & W). unfold vs in W. rewrite winding_turn in W by assumption. fold vs in W. fold cl in W.
      destruct (Z.eqb_spec (loop_wn cl p) 0) as [W2|W2]; [rewrite W2 in W; lra|]. assert (0 < loop_d2 cl p). { destruct NN as [NN|NN]; [exact NN|]. exfalso. apply P, OE, Z. now symmetry. }
      pose proof (sqrt_lt_R0 _ H). lra.
  - intros p. destruct (loop_d2_zero cl p D) as (Z & NN). rewrite <- OE, <- Z, poly_eval_eq. split.
    + intros Q. apply sqrt_eq_0; [exact NN|]. destruct (_ =? _)%Z; lra.
    + intros ->. rewrite sqrt_0. destruct (_ =? _)%Z; lra.
Qed.
Theorem C59_winding_integer vs : (3 <= length vs)%nat -> loop_ok vs -> forall p, ~ on_polyline vs p -> exists k, winding vs p = IZR k.
Proof. destruct vs as [|a l]; cbn [length]; [lia|]. intros N OK p P. eexists. apply winding_turn; [cbn; lia|exact OK|exact P]. Qed.

(** ** Bounds *)
Lemma fold_min2_le l : forall a, le2 (fold_left min_elem2 l a) a /\ forall w, In w l -> le2 (fold_left min_elem2 l a) w.
Proof.
  induction l as [|x r IH]; cbn [fold_left In]; intros a; [split; [unfold le2; lra|intros w []]|].
  destruct (IH (min_elem2 a x)) as (A & B).
  assert (M : le2 (min_elem2 a x) a /\ le2 (min_elem2 a x) x) by (unfold le2, min_elem2; cbn [x2 y2]; repeat split; auto using Rmin_l, Rmin_r).
  unfold le2 in *. split; [lra|]. intros w [->|I]; [lra|]. now apply B.
Qed.
Lemma fold_max2_le l : forall a, le2 a (fold_left max_elem2 l a) /\ forall w, In w l -> le2 w (fold_left max_elem2 l a).
Proof.
  induction l as [|x r IH]; cbn [fold_left In]; intros a; [split; [unfold le2; lra|intros w []]|].
  destruct (IH (max_elem2 a x)) as (A & B).
  assert (M : le2 a (max_elem2 a x) /\ le2 x (max_elem2 a x)) by (unfold le2, max_elem2; cbn [x2 y2]; repeat split; auto using Rmax_l, Rmax_r).
  unfold le2 in *. split; [lra|]. intros w [->|I]; [lra|]. now apply B.
Qed.
Lemma edges_fst l v : l <> [] -> In v l -> In v (map fst (poly_edges l)) \/ v = last l zero2.
Proof.
  induction l as [|a l IH]; [congruence|]. intros _. destruct l as [|b r]; [intros [->|[]]; right; reflexivity|].
  rewrite poly_edges_cons, last_cons. cbn [map fst In]. intros [->|I]; [left; left; reflexivity|]. destruct (IH ltac:(discriminate) I) as [H|H]; [left; right; exact H|right; exact H].
Qed.
Lemma poly_box_in l v : l <> [] -> last l zero2 = hd zero2 l -> In v l -> in2 (poly_box l) v.
Proof.
  intros NE LH I. unfold poly_box, vset_min, vset_max, in2. cbn [min2 max2].
  destruct (fold_min2_le (map fst (poly_edges l)) (hd zero2 l)) as (A & B). destruct (fold_max2_le (map fst (poly_edges l)) (hd zero2 l)) as (C & D).
  destruct (edges_fst l v NE I) as [F|F].
  - specialize (B v F). specialize (D v F). unfold le2 in *. lra.
  - rewrite F, LH. unfold le2 in *. lra.
Qed.
Lemma sumZ_zero l : (forall z, In z l -> z = 0%Z) -> sumZ l = 0%Z.
Proof. induction l as [|a l IH]; intros H; [reflexivity|]. change (a + sumZ l = 0)%Z. rewrite (H a) by now left. rewrite IH; [reflexivity|]. intros z I. apply H. now right. Qed.
Definition below (p a : v2) : Z := if Rleb (y2 a) (y2 p) then 1%Z else 0%Z.
Lemma wn_left l p : (forall a b, consecutive l a b -> a <> b) -> (forall v, In v l -> x2 p < x2 v) -> l <> [] ->
  loop_wn l p = (below p (hd zero2 l) - below p (last l zero2))%Z.
Proof.
  induction l as [|a l IH]; [congruence|]. intros D X _. destruct l as [|b r]; [cbn; lia|].
  assert (I : loop_wn (b :: r) p = (below p b - below p (last (b :: r) zero2))%Z).
  { apply IH; [intros; apply D; now apply consecutive_cons|intros; apply X; now right|discriminate]. }
  assert (W : loop_wn (a :: b :: r) p = (seg_wn p a b + loop_wn (b :: r) p)%Z) by (unfold loop_wn; rewrite poly_edges_cons; reflexivity).
  rewrite W, I, last_cons. cbn [hd].
  assert (E : seg_wn p a b = (below p a - below p b)%Z); [|lia].
  destruct (dn_cross p a b) as (k & K & DN); [apply D; exists [], r; reflexivity|]. unfold seg_wn, below. cbv zeta. rewrite DN. clear DN.
  pose proof (X a ltac:(now left)) as XA. pose proof (X b ltac:(right; now left)) as XB. unfold cross2, sub2. cbn [x2 y2].
  destruct (Rleb_spec (y2 a) (y2 p)) as [A|A], (Rltb_spec (y2 p) (y2 b)) as [B|B], (Rleb_spec (y2 b) (y2 p)) as [B'|B']; try lra; try reflexivity.
  - match goal with |- context [Rltb ?e 0] => assert (e < 0); [|destruct (Rltb_spec e 0); [reflexivity|lra]] end.
    assert (0 < (x2 a - x2 p) * (y2 b - y2 p) - (y2 a - y2 p) * (x2 b - x2 p)) by nra. nra.
  - match goal with |- context [Rltb 0 ?e] => assert (0 < e); [|destruct (Rltb_spec 0 e); [reflexivity|lra]] end.
    assert ((x2 a - x2 p) * (y2 b - y2 p) - (y2 a - y2 p) * (x2 b - x2 p) < 0) by nra. nra.
Qed.
Lemma wn_in_box l p : (forall a b, consecutive l a b -> a <> b) -> l <> [] -> last l zero2 = hd zero2 l -> loop_wn l p <> 0%Z -> in2 (poly_box l) p.
Proof.
  intros D NE LH W.
  assert (V : forall a b, consecutive l a b -> In a l /\ In b l).
  { intros a b (l1 & l2 & ->). split; apply in_or_app; right; [now left|right; now left]. }
  assert (E : exists a b, consecutive l a b /\ seg_wn p a b <> 0%Z).
  { apply Classical_Prop.NNPP. intros H. apply W. apply sumZ_zero. intros z I. apply in_map_iff in I. destruct I as ([a b] & <- & I). cbn [fst snd].
    apply in_edges in I. destruct (Z.eq_dec (seg_wn p a b) 0) as [Q|Q]; [exact Q|]. exfalso. apply H. exists a, b. now split. }
  assert (Y : y2 (min2 (poly_box l)) <= y2 p <= y2 (max2 (poly_box l))).
  { destruct E as (a & b & C & S). destruct (V a b C) as (IA & IB). pose proof (poly_box_in l a NE LH IA) as BA. pose proof (poly_box_in l b NE LH IB) as BB. unfold in2 in *.
    unfold seg_wn in S. cbv zeta in S. destruct (Rleb_spec (y2 a) (y2 p)); [destruct (Rltb_spec (y2 p) (y2 b)); [lra|congruence]|]. destruct (Rleb_spec (y2 b) (y2 p)); [lra|congruence]. }
  split; [|exact Y]. split.
  - apply Rnot_lt_le. intros X. apply W. rewrite wn_left; [rewrite LH; lia|exact D| |exact NE]. intros v I. pose proof (poly_box_in l v NE LH I) as B. unfold in2 in B. lra.
  - apply Rnot_lt_le. intros X. destruct E as (a & b & C & S). destruct (V a b C) as (IA & IB). pose proof (poly_box_in l a NE LH IA) as BA. pose proof (poly_box_in l b NE LH IB) as BB. unfold in2 in *.
    apply S. destruct (dn_cross p a b (D a b C)) as (k & K & DN). unfold seg_wn. cbv zeta. rewrite DN. unfold cross2, sub2. cbn [x2 y2].
    destruct (Rleb_spec (y2 a) (y2 p)) as [A|A].
    + destruct (Rltb_spec (y2 p) (y2 b)) as [B|B]; [|reflexivity]. match goal with |- context [Rltb ?e 0] => assert (0 < e); [|destruct (Rltb_spec e 0); [lra|reflexivity]] end.
      assert ((x2 a - x2 p) * (y2 b - y2 p) - (y2 a - y2 p) * (x2 b - x2 p) < 0) by nra. nra.
    + destruct (Rleb_spec (y2 b) (y2 p)) as [B|B]; [|reflexivity]. match goal with |- context [Rltb 0 ?e] => assert (e < 0); [|destruct (Rltb_spec 0 e); [lra|reflexivity]] end.
      assert (0 < (x2 a - x2 p) * (y2 b - y2 p) - (y2 a - y2 p) * (x2 b - x2 p)) by nra. nra.
Qed.
Lemma box_convex2 b p q r : in2 b p -> in2 b q -> on_seg p q r -> in2 b r.
Proof. unfold in2. intros A B (t & T & ->). unfold add2, scale2, sub2. cbn [x2 y2]. repeat split; nra. Qed.
Theorem C59_bounds_partial vs s : polygon vs = Ok s -> loop_ok vs -> forall p, ev2 s p <= 0 -> in2 (bb2 s) p.
Proof.
  destruct vs as [|a [|b [|c r]]]; cbn [polygon]; try discriminate. intros E OK. injection E as <-. set (vs := a :: b :: c :: r) in *. cbn [ev2 bb2].
  assert (N : (2 <= length vs)%nat) by (cbn; lia). destruct (close_loop_ok a (b :: c :: r) N OK) as (D & L & H0 & NE & OE & AS & _). fold vs in D, L, H0, NE, OE, AS.
  set (cl := close_loop a vs) in *. intros p P. destruct (loop_d2_zero cl p D) as (Z & NN). rewrite poly_eval_eq in P.
  destruct (Z.eqb_spec (loop_wn cl p) 0) as [W|W].
  - assert (Q : loop_d2 cl p = 0) by (pose proof (sqrt_pos (loop_d2 cl p)); apply sqrt_eq_0; [exact NN|lra]). apply Z in Q. destruct Q as (u & v & C & S).
    destruct C as (l1 & l2 & C). apply (box_convex2 _ u v); [| |exact S]; (apply poly_box_in; [exact NE|congruence|rewrite C; apply in_or_app; right]); [now left|right; now left].
  - apply wn_in_box; [exact D|exact NE|congruence|exact W].
Qed.

(** ** The field is 1-Lipschitz *)
Lemma seen_half p a b : ~ on_seg a b p ->
  let u := sub2 a p in let v := sub2 b p in let K := norm2 u * norm2 v + dot2 u v in
  0 < K /\ seen_angle p a b = 2 * atan (cross2 u v / K).
Proof.
  intros O u v K. assert (A : u <> zero2). { intros Q. apply sub2_zero in Q. subst p. apply O, on_seg_start. }
  assert (B : v <> zero2). { intros Q. apply sub2_zero in Q. subst p. apply O, on_seg_end. }
  pose proof (norm2_pos u A) as PU. pose proof (norm2_pos v B) as PV. unfold seen_angle. fold u v. set (f := atan2 (cross2 u v) (dot2 u v)).
  set (r := norm2 u * norm2 v) in *. assert (PR : 0 < r) by (unfold r; nra).
  assert (HY : hypot (dot2 u v) (cross2 u v) = r).
  { unfold hypot. replace (_ + _) with ((norm2 u * norm2 u) * (norm2 v * norm2 v)). 2: { pose proof (norm2_sq u) as SU. pose proof (norm2_sq v) as SV. rewrite SU, SV. unfold norm2sq, dot2, cross2. ring. }
    replace (norm2 u * norm2 u * (norm2 v * norm2 v)) with (r * r) by (unfold r; ring). apply sqrt_square. lra. }
  destruct (atan2_polar (cross2 u v) (dot2 u v)) as (D & C). rewrite HY in D, C. fold f in D, C.
  pose proof (atan2_range (cross2 u v) (dot2 u v)) as FR. fold f in FR. pose proof PI_RGT_0 as PP.
  assert (FP : f < PI).
  { destruct FR as (_ & [FR|FR]); [exact FR|]. exfalso. assert (C0 : cross2 u v = 0) by (rewrite C, FR, sin_PI; ring).
    assert (D0 : dot2 u v = - r) by (rewrite D, FR, cos_PI; ring).
    assert (0 < dot2 u v); [|lra]. apply (on_seg_cross zero2); try assumption; [reflexivity|].
    intros (t & T & E). apply O. exists t. split; [exact T|]. destruct a as [ax ay], b as [bx by_], p as [px py]. unfold u, v, sub2, add2, scale2, zero2 in *. cbn [x2 y2] in *. injection E as E1 E2. apply v2_ext; cbn [x2 y2]; lra. }
  set (h := f / 2). assert (FH : f = 2 * h) by (unfold h; field). assert (CH : 0 < cos h) by (apply cos_gt_0; unfold h; lra).
  assert (KE : K = r * (2 * cos h * cos h)). { unfold K. rewrite D, FH, cos_2a_cos. ring. }
  split; [rewrite KE; assert (0 < cos h * cos h) by nra; nra|].
  rewrite KE, C, FH, sin_2a. replace (r * (2 * sin h * cos h) / (r * (2 * cos h * cos h))) with (tan h) by (unfold tan; field; lra). rewrite atan_tan; [reflexivity|]. unfold h. lra.
Qed.
Lemma ct_const c x : continuity_pt (fun _ => c) x.
Proof. apply continuity_pt_const. intros a b. reflexivity. Qed.
Lemma ct_id x : continuity_pt (fun t => t) x.
Proof. apply derivable_continuous_pt. apply derivable_pt_id. Qed.
Lemma ct_plus f g x : continuity_pt f x -> continuity_pt g x -> continuity_pt (fun t => f t + g t) x.
Proof. exact (continuity_pt_plus f g x). Qed.
Lemma ct_minus f g x : continuity_pt f x -> continuity_pt g x -> continuity_pt (fun t => f t - g t) x.
Proof. exact (continuity_pt_minus f g x). Qed.
Lemma ct_mult f g x : continuity_pt f x -> continuity_pt g x -> continuity_pt (fun t => f t * g t) x.
Proof. exact (continuity_pt_mult f g x). Qed.
Lemma ct_div f g x : continuity_pt f x -> continuity_pt g x -> g x <> 0 -> continuity_pt (fun t => f t / g t) x.
Proof. exact (continuity_pt_div f g x). Qed.
Lemma ct_sqrt f x : continuity_pt f x -> 0 <= f x -> continuity_pt (fun t => sqrt (f t)) x.
Proof. intros F N. apply (continuity_pt_comp f sqrt x F). now apply continuity_pt_sqrt. Qed.
Lemma ct_atan f x : continuity_pt f x -> continuity_pt (fun t => atan (f t)) x.
Proof. intros F. apply (continuity_pt_comp f atan x F). apply derivable_continuous_pt, derivable_pt_atan. Qed.
Definition along (p q : v2) (t : R) : v2 := add2 p (scale2 t (sub2 q p)).
Definition half_sum (l : list v2) (p : v2) : R :=
  fold_right Rplus 0 (map (fun e => let u := sub2 (fst e) p in let v := sub2 (snd e) p in 2 * atan (cross2 u v / (norm2 u * norm2 v + dot2 u v))) (poly_edges l)).
Lemma half_sum_eq l p : ~ on_edges l p -> half_sum l p = angle_sum p l.
Proof.
  induction l as [|a l IH]; intros O; [reflexivity|]. destruct l as [|b r]; [reflexivity|]. unfold half_sum. rewrite poly_edges_cons. cbn [map fold_right fst snd].
  change (angle_sum p (a :: b :: r)) with (seen_angle p a b + angle_sum p (b :: r)).
  destruct (seen_half p a b) as (_ & E); [intros S; apply O; exists a, b; split; [exists [], r; reflexivity|exact S]|]. rewrite E. f_equal. apply IH.
  intros (c & d & C & S). apply O. exists c, d. split; [now apply consecutive_cons|exact S].
Qed.
Lemma half_sum_cont l p q x : ~ on_edges l (along p q x) -> continuity_pt (fun t => half_sum l (along p q t)) x.
Proof.
  induction l as [|a l IH]; intros O; [exact (ct_const 0 x)|]. destruct l as [|b r]; [exact (ct_const 0 x)|]. unfold half_sum. rewrite poly_edges_cons. cbn [map fold_right fst snd]. apply ct_plus.
  - destruct (seen_half (along p q x) a b) as (K & _); [intros S; apply O; exists a, b; split; [exists [], r; reflexivity|exact S]|].
    apply ct_mult; [apply ct_const|]. apply ct_atan. apply ct_div; [| |lra]; clear;
    destruct p as [px py], q as [qx qy], a as [ax ay], b as [bx by_]; unfold norm2, norm2sq, cross2, dot2, along, add2, scale2, sub2; cbn [x2 y2];
    repeat first [apply ct_minus|apply ct_plus|apply ct_mult|apply ct_sqrt|apply ct_const|apply ct_id]; cbv beta; apply Rplus_le_le_0_compat; apply Rle_0_sqr.
  - apply IH. intros (c & d & C & S). apply O. exists c, d. split; [now apply consecutive_cons|exact S].
Qed.
Lemma integer_valued f : (forall t, 0 <= t <= 1 -> continuity_pt f t) -> (forall t, 0 <= t <= 1 -> exists k, f t = IZR k) -> f 0 = f 1.
Proof.
  assert (ONE : forall g, (forall t, 0 <= t <= 1 -> continuity_pt g t) -> (forall t, 0 <= t <= 1 -> exists k, g t = IZR k) -> g 0 < g 1 -> False).
  { intros g C I L. destruct (I 0 ltac:(lra)) as (m & M). destruct (I 1 ltac:(lra)) as (n & N).
    assert (MN : (m + 1 <= n)%Z). { rewrite M, N in L. apply lt_IZR in L. lia. } apply IZR_le in MN. rewrite plus_IZR in MN.
    destruct (IVT_interv (fun t => g t - (IZR m + / 2)) 0 1) as (z & Z & E); [|lra|lra|lra|].
    - intros t T. apply ct_minus; [now apply C|apply ct_const].
    - destruct (I z Z) as (k & K). rewrite K in E. assert (Q : IZR (2 * k - 2 * m - 1) = 0) by (rewrite !minus_IZR, !mult_IZR; lra). apply eq_IZR in Q. lia. }
  intros C I. destruct (Rtotal_order (f 0) (f 1)) as [L|[E|L]]; [exfalso; now apply (ONE f)|exact E|exfalso].
  apply (ONE (fun t => 0 - f t)); [intros; apply ct_minus; [apply ct_const|now apply C]| |lra]. intros t T. destruct (I t T) as (k & K). exists (- k)%Z. rewrite K, opp_IZR. ring.
Qed.
Lemma wn_along l p q : (forall a b, consecutive l a b -> a <> b) -> l <> [] -> last l zero2 = hd zero2 l ->
  (forall z, on_seg p q z -> ~ on_edges l z) -> loop_wn l p = loop_wn l q.
Proof.
  intros D NE LH O. pose proof PI_RGT_0 as PP. set (f := fun t => half_sum l (along p q t) / (2 * PI)).
  assert (V : forall t, 0 <= t <= 1 -> f t = IZR (loop_wn l (along p q t))).
  { intros t T. assert (Q : ~ on_edges l (along p q t)) by (apply O; exists t; now split). unfold f. rewrite half_sum_eq by exact Q.
    pose proof (turn_sum _ l D Q NE) as E. rewrite LH in E. assert (A : angle_sum (along p q t) l = IZR (loop_wn l (along p q t)) * (2 * PI)) by lra. rewrite A. field. lra. }
  assert (F : f 0 = f 1).
  { apply integer_valued.
    - intros t T. apply ct_div; [|apply ct_const|lra]. apply half_sum_cont. apply O. exists t. now split.
    - intros t T. eexists. now apply V. }
  rewrite !V in F by lra. apply eq_IZR in F. replace (along p q 0) with p in F by (unfold along, add2, scale2, sub2; apply v2_ext; cbn [x2 y2]; ring). replace (along p q 1) with q in F by (unfold along, add2, scale2, sub2; apply v2_ext; cbn [x2 y2]; ring). exact F.
Qed.
Lemma loop_d2_le l p z : (forall a b, consecutive l a b -> a <> b) -> on_edges l z -> sqrt (loop_d2 l p) <= dist2 p z.
Proof.
  intros D (a & b & C & S). unfold dist2, norm2. apply sqrt_le_1_alt. unfold loop_d2.
  destruct (fold_min_le (fun e => seg_d2 p (fst e) (snd e)) (poly_edges l) max_float64) as (_ & K).
  eapply Rle_trans; [apply (K (a, b)); now apply in_edges|]. now apply (seg_spec p a b (D a b C)).
Qed.
Lemma loop_dist_lip l p q : (forall a b, consecutive l a b -> a <> b) -> sqrt (loop_d2 l p) <= sqrt (loop_d2 l q) + dist2 p q.
Proof.
  intros D. destruct (fold_min_att (fun e => seg_d2 q (fst e) (snd e)) (poly_edges l) max_float64) as [E|([a b] & I & E)].
  - fold (loop_d2 l q) in E. assert (L : loop_d2 l p <= loop_d2 l q). { rewrite E. unfold loop_d2. apply (fold_min_le (fun e => seg_d2 p (fst e) (snd e)) (poly_edges l) max_float64). }
    apply sqrt_le_1_alt in L. pose proof (dist2_nonneg p q). lra.
  - fold (loop_d2 l q) in E. apply in_edges in I. destruct (seg_spec q a b (D a b I)) as ((z & S & Q) & _). cbn [fst snd] in E. rewrite <- Q in E.
    assert (Z : on_edges l z) by (exists a, b; now split). pose proof (loop_d2_le l p z D Z) as L. pose proof (dist2_triangle p q z) as T.
    rewrite E. fold (norm2 (sub2 q z)). fold (dist2 q z). lra.
Qed.
Lemma dist_seg p q z : on_seg p q z -> dist2 p z + dist2 q z = dist2 p q.
Proof.
  intros (t & T & ->). unfold dist2. replace (sub2 p _) with (scale2 (- t) (sub2 q p)) by (apply v2_ext; cbn; ring).
  replace (sub2 q (add2 p (scale2 t (sub2 q p)))) with (scale2 (1 - t) (sub2 q p)) by (apply v2_ext; cbn; ring). rewrite !norm2_scale, Rabs_Ropp, !Rabs_pos_eq by lra.
  change (norm2 (sub2 q p)) with (dist2 q p). rewrite dist2_sym. change (norm2 (sub2 p q)) with (dist2 p q). ring.
Qed.
Lemma poly_eval_lip l : (forall a b, consecutive l a b -> a <> b) -> l <> [] -> last l zero2 = hd zero2 l -> lip2 (poly_eval l).
Proof.
  intros D NE LH. assert (X : forall p q, loop_wn l p <> loop_wn l q -> sqrt (loop_d2 l p) + sqrt (loop_d2 l q) <= dist2 p q).
  { intros p q W. assert (E : exists z, on_seg p q z /\ on_edges l z).
    { apply Classical_Prop.NNPP. intros N. apply W, wn_along; try assumption. intros z S Z. apply N. exists z. now split. }
    destruct E as (z & S & Z). rewrite <- (dist_seg p q z S). pose proof (loop_d2_le l p z D Z). pose proof (loop_d2_le l q z D Z). lra. }
  intros p q. rewrite !poly_eval_eq. pose proof (sqrt_pos (loop_d2 l p)). pose proof (sqrt_pos (loop_d2 l q)).
  pose proof (loop_dist_lip l p q D) as L1. pose proof (loop_dist_lip l q p D) as L2. rewrite (dist2_sym q p) in L2. specialize (X p q).
  destruct (Z.eqb_spec (loop_wn l p) 0) as [P|P], (Z.eqb_spec (loop_wn l q) 0) as [Q|Q].
  - apply Rabs_le. lra.
  - specialize (X ltac:(congruence)). apply Rabs_le. lra.
  - specialize (X ltac:(congruence)). apply Rabs_le. lra.
  - apply Rabs_le. lra.
Qed.
Theorem C59_lipschitz_partial vs s : polygon vs = Ok s -> loop_ok vs -> lip2 (ev2 s).
Proof.
  destruct vs as [|a [|b [|c r]]]; cbn [polygon]; try discriminate. intros E OK. injection E as <-. cbn [ev2].
  destruct (close_loop_ok a (b :: c :: r) ltac:(cbn; lia) OK) as (D & L & H0 & NE & _). apply poly_eval_lip; [exact D|exact NE|congruence].
Qed.
(** Below the square root of MaxFloat64 the value is at least the signed distance to Bounds: a point with value v >= 0 has a point of the box
    within v, and a point with value v < 0 lies in the box together with everything within -v. *)
Theorem C59_dominates_partial vs s : polygon vs = Ok s -> loop_ok vs -> forall p, ev2 s p < sqrt max_float64 ->
  (0 <= ev2 s p -> exists q, in2 (bb2 s) q /\ dist2 p q <= ev2 s p) /\ (ev2 s p < 0 -> forall q, dist2 p q <= - ev2 s p -> in2 (bb2 s) q).
Proof.
  intros E OK p P. split.
  - intros V. pose proof (C59_bounds_partial vs s E OK) as BB. revert E OK P V BB. destruct vs as [|a [|b [|c r]]]; cbn [polygon]; try discriminate. intros E OK. injection E as <-. set (vs := a :: b :: c :: r) in *. cbn [ev2 bb2].
    assert (N : (2 <= length vs)%nat) by (cbn; lia). destruct (close_loop_ok a (b :: c :: r) N OK) as (D & L & H0 & NE & OE & AS & _). fold vs in D, L, H0, NE, OE, AS. set (cl := close_loop a vs) in *. clearbody cl.
    intros P V BB. pose proof (sqrt_pos (loop_d2 cl p)) as SP. destruct (loop_d2_zero cl p D) as (Z & NN).
    assert (Q : sqrt (loop_d2 cl p) <= poly_eval cl p /\ loop_d2 cl p <> max_float64).
    { rewrite poly_eval_eq in *. destruct (_ =? 0)%Z; (split; [lra|]); intros Q; rewrite Q in *; [lra|]. assert (S0 : sqrt max_float64 = 0) by lra. lra. }
    destruct Q as (Q & NM). destruct (fold_min_att (fun e => seg_d2 p (fst e) (snd e)) (poly_edges cl) max_float64) as [A|([u v] & I & A)]; [now contradiction NM|].
    change (loop_d2 cl p = seg_d2 p u v) in A. apply in_edges in I. destruct (proj1 (seg_spec p u v (D u v I))) as (q & S & QE). exists q. split.
    + assert (EQ : on_edges cl q) by (exists u, v; now split). apply BB. rewrite poly_eval_eq. destruct (loop_d2_zero cl q D) as (Z' & _). rewrite (proj2 Z' EQ), sqrt_0. destruct (_ =? 0)%Z; lra.
    + unfold dist2, norm2. rewrite QE, <- A. exact Q.
  - intros V q Dq. apply (C59_bounds_partial vs s E OK). pose proof (C59_lipschitz_partial vs s E OK q p) as L. rewrite dist2_sym in L. pose proof (Rle_abs (ev2 s q - ev2 s p)). lra.
Qed.
Theorem C59_defined vs : (exists s, polygon vs = Ok s) <-> (3 <= length vs)%nat.
Proof.
  destruct vs as [|a [|b [|c r]]]; cbn [polygon length]; (split; [intros (s & E); try discriminate; lia|intros N; try lia]). eexists. reflexivity.
Qed.

(** ** What the code gets wrong *)
(** A first and a last vertex closer than the tolerance but not equal: the loop stays open.
    The triangle (0,0), (1,0), (0,1e-9) contains the point (-1, 5e-10), outside its Bounds and
    not surrounded by the polyline. *)
Theorem C59_gap_refuted : let vs := [V2 0 0; V2 1 0; V2 0 tolerance] in let p := V2 (-1) (tolerance / 2) in
  exists s, polygon vs = Ok s /\ (forall a b, consecutive vs a b -> a <> b) /\ last vs zero2 <> hd zero2 vs /\
    ev2 s p < 0 /\ ~ in2 (bb2 s) p /\ (forall q, on_polyline vs q -> 0 <= x2 q).
Proof.
  intros vs p. pose proof tol_pos as TP. exists (S2 (poly_eval vs) (poly_box vs)).
  assert (EQ : equal_within2 (V2 0 0) (last [V2 0 0; V2 1 0; V2 0 tolerance] (V2 0 0)) tolerance = true).
  { apply equal_within2_iff. cbn [last x2 y2]. replace (0 - 0) with 0 by ring. replace (0 - tolerance) with (- tolerance) by ring. rewrite Rabs_R0, Rabs_Ropp, Rabs_pos_eq by lra. lra. }
  split; [unfold vs, polygon, close_loop; rewrite EQ; reflexivity|]. cbn [ev2 bb2]. assert (D : forall a b, consecutive vs a b -> a <> b).
  { intros a b C. apply in_edges in C. cbn in C. destruct C as [E|[E|[]]]; injection E as <- <-; intros Q; injection Q; lra. }
  split; [exact D|]. split; [cbn; intros Q; injection Q; lra|]. split; [|split].
  - rewrite poly_eval_eq. assert (W : loop_wn vs p = 1%Z).
    { unfold loop_wn, vs, poly_edges, seg_wn. cbn [combine tl map sumZ fold_right fst snd]. cbv zeta.
      destruct (dn_cross p (V2 1 0) (V2 0 tolerance)) as (k & K & DN); [intros Q; injection Q; lra|]. rewrite DN. unfold cross2, sub2, p. cbn [x2 y2].
      destruct (Rleb_spec 0 (tolerance / 2)); [|lra]. destruct (Rltb_spec (tolerance / 2) 0); [lra|]. destruct (Rltb_spec (tolerance / 2) tolerance); [|lra].
      match goal with |- context [Rltb (- k * ?e) 0] => assert (0 < e) by nra; destruct (Rltb_spec (- k * e) 0); [reflexivity|nra] end. }
    rewrite W. cbn [Z.eqb]. destruct (loop_d2_zero vs p D) as (Z & NN). assert (P : 0 < loop_d2 vs p).
    { destruct NN as [NN|NN]; [exact NN|]. exfalso. symmetry in NN. apply Z in NN. destruct NN as (a & b & C & (t & T & E)). apply in_edges in C. cbn in C.
      destruct C as [C|[C|[]]]; injection C as <- <-; unfold add2, scale2, sub2, p in E; cbn [x2 y2] in E; injection E as E1 E2; lra. }
    pose proof (sqrt_lt_R0 _ P). lra.
  - unfold in2, poly_box, vs, p, vset_min, poly_edges. unfold min_elem2. cbn [combine tl map fst hd fold_left min2 max2 x2 y2]. rewrite (Rmin_left 0 0), (Rmin_left 0 1) by lra. intros ((Q & _) & _). lra.
  - intros q (a & b & C & (t & T & ->)). apply in_edges in C. cbn in C. destruct C as [C|[C|[C|[]]]]; injection C as <- <-; unfold add2, scale2, sub2; cbn [x2 y2]; lra.
Qed.

(** ** Example: the unit square satisfies the hypotheses, with winding number 1 inside. *)
Example C59_example : let vs := [V2 0 0; V2 1 0; V2 1 1; V2 0 1] in loop_ok vs /\
  exists s, polygon vs = Ok s /\ ev2 s (V2 (1/2) (1/2)) < 0 /\ winding vs (V2 (1/2) (1/2)) = 1 /\ Rabs (ev2 s (V2 (1/2) (1/2))) <= 1/2.
Proof.
  intros vs. assert (TL : tolerance < 1).
  { unfold tolerance. apply (Rmult_lt_reg_r (10 ^ 9)); [lra|]. replace (1 / 10 ^ 9 * 10 ^ 9) with 1 by (field; lra). lra. }
  assert (OK : loop_ok vs).
  { split.
    - intros a b C. apply in_edges in C. cbn in C. destruct C as [C|[C|[C|[]]]]; injection C as <- <-; intros Q; injection Q; lra.
    - right. right. cbn [hd last vs y2]. rewrite Rabs_minus_sym, Rminus_0_r, Rabs_pos_eq by lra. exact TL. }
  split; [exact OK|]. destruct (proj2 (C59_defined vs) ltac:(cbn; lia)) as (s & S). exists s. split; [exact S|].
  set (p := V2 (1/2) (1/2)). assert (NP : ~ on_polyline vs p).
  { intros (a & b & C & (t & T & E)). apply in_edges in C. cbn in C. destruct C as [C|[C|[C|[C|[]]]]]; injection C as <- <-; unfold add2, scale2, sub2, p in E; cbn [x2 y2] in E; injection E; lra. }
  destruct (close_loop_ok (V2 0 0) [V2 1 0; V2 1 1; V2 0 1] ltac:(cbn; lia) OK) as (D & L & H0 & NE & _). fold vs in D, L, H0, NE.
  assert (CL : close_loop (V2 0 0) vs = vs ++ [V2 0 0]).
  { unfold close_loop. destruct (equal_within2 _ _ _) eqn:E; [|reflexivity]. exfalso. apply equal_within2_iff in E. cbn [last vs x2 y2] in E. rewrite (Rabs_minus_sym 0 1), (Rminus_0_r 1), (Rabs_pos_eq 1) in E by lra. lra. }
  assert (W : winding vs p = 1).
  { unfold vs. rewrite winding_turn; [|cbn; lia|exact OK|exact NP]. fold vs. rewrite CL. f_equal. rewrite CL in D.
    unfold loop_wn, vs, poly_edges, seg_wn. cbn [app combine tl map sumZ fold_right fst snd]. cbv zeta.
    destruct (dn_cross p (V2 1 0) (V2 1 1)) as (k & K & DN); [intros Q; injection Q; lra|]. rewrite DN. destruct (dn_cross p (V2 0 1) (V2 0 0)) as (k' & K' & DN'); [intros Q; injection Q; lra|]. rewrite DN'. unfold cross2, sub2, p. cbn [x2 y2].
    destruct (Rleb_spec 0 (1/2)); [|lra]. destruct (Rltb_spec (1/2) 0); [lra|]. destruct (Rltb_spec (1/2) 1); [|lra]. destruct (Rleb_spec 1 (1/2)); [lra|].
    match goal with |- context [Rltb (- k * ?e) 0] => destruct (Rltb_spec (- k * e) 0); [|nra] end. match goal with |- context [Rltb 0 (- k' * ?e)] => destruct (Rltb_spec 0 (- k' * e)); [nra|] end. reflexivity. }
  destruct (C59_exact_partial vs s S OK) as (A & B & _). split; [apply B; split; [exact NP|rewrite W; lra]|]. split; [exact W|].
  assert (Q : on_polyline vs (V2 (1/2) 0)). { exists (V2 0 0), (V2 1 0). split; [exists [], [V2 1 1; V2 0 1; V2 0 0]; reflexivity|]. exists (1/2). split; [lra|]. apply v2_ext; cbn; lra. }
  pose proof max_float64_big as MB. destruct (A p) as (_ & _ & LB).
  { exists (V2 (1/2) 0). split; [exact Q|]. unfold norm2sq, dot2, sub2, p. cbn [x2 y2]. lra. }
  specialize (LB _ Q). unfold norm2, norm2sq, dot2, sub2, p in LB. cbn [x2 y2] in LB.
  replace ((1/2 - 1/2) * (1/2 - 1/2) + (1/2 - 0) * (1/2 - 0)) with (1/2 * (1/2)) in LB by field. rewrite sqrt_square in LB by lra. exact LB.
Qed.

(** ** A repeated vertex: the value is NaN everywhere *)
Definition nneg (f : spec_float) : Prop := match f with S754_infinity true | S754_finite true _ _ => False | _ => True end.
Lemma round_aux_nneg m e l : nneg (binary_round_aux 53 1024 false m e l).
Proof.
  unfold binary_round_aux. destruct (shr_fexp 53 1024 m e l) as [mrs e']. destruct (shr_fexp 53 1024 _ e' loc_Exact) as [mrs' e'']. destruct (shr_m mrs'); cbn; try exact I. destruct (_ <=? _)%Z; exact I.
Qed.
Lemma fmul_self_nneg x : nneg (fmul x x).
Proof. unfold fmul. destruct x as [s|s| |s m e]; cbn [SFmul]; try (destruct s; exact I); [exact I|]. rewrite xorb_nilpotent. apply round_aux_nneg. Qed.
Lemma fadd_nneg x y : nneg x -> nneg y -> nneg (fadd x y).
Proof.
  unfold fadd. destruct x as [s|s| |s m e], y as [s'|s'| |s' m' e']; cbn [SFadd nneg]; try tauto; intros A B.
  - destruct s, s'; exact I.
  - destruct s, s'; tauto.
  - destruct s, s'; try tauto. unfold binary_normalize. cbn [cond_Zopp]. rewrite <- Pos2Z.inj_add. unfold binary_round.
    match goal with |- context [shl_align ?a ?b ?c] => destruct (shl_align a b c) as [mz ez] end. apply round_aux_nneg.
Qed.
Lemma fmin_nan_l y : nneg y -> fmin S754_nan y = S754_nan.
Proof. destruct y as [s|[]| |[] m e]; cbn; tauto. Qed.
Lemma fmin_nan_r x : nneg x -> fmin x S754_nan = S754_nan.
Proof. destruct x as [s|[]| |[] m e]; cbn; tauto. Qed.
Lemma fmin_nneg x y : nneg x -> nneg y -> nneg (fmin x y).
Proof. destruct x as [sx|[]| |[] m e], y as [sy|[]| |[] m' e']; cbn [nneg fmin]; try tauto; intros _ _; try (destruct sx); try exact I; destruct (SFltb _ _); exact I. Qed.
Definition ffinite (f : spec_float) : Prop := match f with S754_zero _ | S754_finite _ _ _ => True | _ => False end.
Lemma fsub_self x : ffinite x -> SFeqb (fsub x x) (S754_zero false) = true.
Proof.
  unfold fsub. destruct x as [s|s| |s m e]; cbn [ffinite SFsub]; try tauto; intros _; [destruct s; reflexivity|]. unfold SFadd. cbn [SFopp].
  match goal with |- context [binary_normalize _ _ ?z _ _] => replace z with 0%Z; [reflexivity|] end. destruct s; cbn [cond_Zopp negb]; lia.
Qed.
Lemma fmul_nan_r x : fmul x S754_nan = S754_nan.
Proof. destruct x; reflexivity. Qed.
Lemma fpoly_step_nneg hypot p dd e : nneg dd -> nneg (fpoly_step hypot p dd e).
Proof.
  intros D. destruct e as [a b]. unfold fpoly_step. cbv zeta. destruct (SFltb _ _); [|destruct (SFltb _ _)]; apply fmin_nneg; try exact D; try apply fmul_self_nneg; apply fadd_nneg; apply fmul_self_nneg.
Qed.
Lemma fpoly_step_nan hypot p e : fpoly_step hypot p S754_nan e = S754_nan.
Proof.
  destruct e as [a b]. unfold fpoly_step. cbv zeta. destruct (SFltb _ _); [|destruct (SFltb _ _)]; apply fmin_nan_l; try apply fmul_self_nneg; apply fadd_nneg; apply fmul_self_nneg.
Qed.
Theorem C59_repeated_refuted hypot (l1 : list fv2) (a : fv2) (l2 : list fv2) (p : fv2) : ffinite (fst a) -> ffinite (snd a) -> fpoly_dd hypot (l1 ++ a :: a :: l2) p = S754_nan.
Proof.
  intros F1 F2. unfold fpoly_dd.
  assert (E : exists e1 e2, combine (l1 ++ a :: a :: l2) (tl (l1 ++ a :: a :: l2)) = e1 ++ (a, a) :: e2).
  { induction l1 as [|c l1 IH]; [exists [], (combine (a :: l2) l2); reflexivity|]. destruct IH as (e1 & e2 & E). destruct l1 as [|d l1]; [exists [(c, a)], (combine (a :: l2) l2); reflexivity|].
    exists ((c, d) :: e1), e2. cbn [app combine tl]. cbn [app tl] in E. cbn [app]. f_equal. exact E. }
  destruct E as (e1 & e2 & ->). rewrite fold_left_app. cbn [fold_left].
  assert (N : forall es dd, nneg dd -> nneg (fold_left (fpoly_step hypot p) es dd)) by (induction es as [|e es IH]; cbn [fold_left]; intros dd D; [exact D|apply IH, fpoly_step_nneg, D]).
  specialize (N e1 (S754_finite false 9007199254740991 971) I). set (dd := fold_left _ e1 _) in *. clearbody dd.
  assert (S : fpoly_step hypot p dd (a, a) = S754_nan).
  { unfold fpoly_step, funit2, fsub2. cbn [fst snd]. rewrite !fsub_self by assumption. cbn [andb]. cbn [fst snd SFopp]. unfold fdot2. cbn [fst snd]. rewrite !fmul_nan_r.
    assert (A : fadd S754_nan S754_nan = S754_nan) by reflexivity. rewrite A. change (SFltb S754_nan (S754_zero false)) with false. cbv iota.
    match goal with |- context [SFltb ?u S754_nan] => assert (Q : SFltb u S754_nan = false) by (destruct u as [| | | ]; reflexivity); rewrite Q end. cbv iota. now apply fmin_nan_r. }
  rewrite S. induction e2 as [|e e2 IH]; [reflexivity|]. cbn [fold_left]. rewrite fpoly_step_nan. exact IH.
Qed.

(** ** Nagon *)
Definition isum2 (l : list v2) : v2 := fold_right add2 zero2 l.
Lemma iterate_length {A} (f : A -> A) n x : length (iterate f n x) = n.
Proof. revert x. induction n as [|n IH]; intros x; cbn; [reflexivity|]. now rewrite IH. Qed.
Lemma iterate_nth {A} (f : A -> A) n : forall x i, (i < n)%nat -> nth_error (iterate f n x) i = Some (Nat.iter i f x).
Proof. induction n as [|n IH]; intros x i I; [lia|]. destruct i as [|i]; cbn [iterate nth_error]; [reflexivity|]. rewrite IH by lia. rewrite iter_swap. reflexivity. Qed.
Lemma rotate_iter t i v : Nat.iter i (mul_pos22 (rotate22 t)) v = mul_pos22 (rotate22 (INR i * t)) v.
Proof.
  induction i as [|i IH].
  - cbn [Nat.iter nat_rect INR]. unfold mul_pos22, rotate22. cbn. rewrite Rmult_0_l, cos_0, sin_0. apply v2_ext; cbn; ring.
  - rewrite iter_S, IH, S_INR. replace ((INR i + 1) * t) with (t + INR i * t) by ring. unfold mul_pos22, rotate22. cbn. rewrite cos_plus, sin_plus. apply v2_ext; cbn; ring.
Qed.
(** sum of the rotated copies, times (R - 1), telescopes *)
Lemma iterate_sum t : forall n v, let S := isum2 (iterate (mul_pos22 (rotate22 t)) n v) in
  sub2 (mul_pos22 (rotate22 t) S) S = sub2 (Nat.iter n (mul_pos22 (rotate22 t)) v) v.
Proof.
  induction n as [|n IH]; intros v S.
  - unfold S. cbn. unfold mul_pos22, rotate22, sub2, zero2. cbn. apply v2_ext; cbn; ring.
  - unfold S. cbn [iterate isum2 fold_right]. fold (isum2 (iterate (mul_pos22 (rotate22 t)) n (mul_pos22 (rotate22 t) v))). specialize (IH (mul_pos22 (rotate22 t) v)). cbv zeta in IH.
    rewrite iter_swap in IH. rewrite iter_S. set (W := isum2 _) in *. set (Z := mul_pos22 (rotate22 t) (Nat.iter n _ v)) in *. clearbody W Z.
    destruct W as [wx wy], Z as [zx zy], v as [vx vy]. unfold mul_pos22, rotate22, sub2, add2 in *. cbn in *. injection IH as E1 E2. apply v2_ext; cbn; lra.
Qed.
Theorem C61_nagon n r : (3 <= n)%Z ->
  Z.of_nat (length (nagon n r)) = n /\
  (forall i, (i < Z.to_nat n)%nat -> nth_error (nagon n r) i = Some (V2 (r * cos (INR i * (2 * PI / IZR n))) (r * sin (INR i * (2 * PI / IZR n))))) /\
  (forall v, In v (nagon n r) -> norm2 v = Rabs r) /\
  nth_error (nagon n r) 0 = Some (V2 r 0) /\
  isum2 (nagon n r) = zero2.
Proof.
  intros N. unfold nagon. destruct (Z.ltb_spec n 3); [lia|]. set (t := 2 * PI / IZR n).
  assert (G : forall i, (i < Z.to_nat n)%nat -> nth_error (iterate (mul_pos22 (rotate22 t)) (Z.to_nat n) (V2 r 0)) i = Some (V2 (r * cos (INR i * t)) (r * sin (INR i * t)))).
  { intros i I. rewrite iterate_nth by exact I. rewrite rotate_iter. f_equal. unfold mul_pos22, rotate22. cbn. apply v2_ext; cbn; ring. }
  assert (LEN : length (iterate (mul_pos22 (rotate22 t)) (Z.to_nat n) (V2 r 0)) = Z.to_nat n) by apply iterate_length.
  split; [rewrite LEN; lia|]. split; [exact G|]. split; [|split].
  - intros v I. apply In_nth_error in I. destruct I as (i & E). assert (L : (i < Z.to_nat n)%nat) by (rewrite <- LEN; apply nth_error_Some; congruence).
    rewrite G in E by exact L. injection E as <-. unfold norm2, norm2sq, dot2. cbn [x2 y2]. pose proof (sin2_cos2 (INR i * t)) as SC. unfold Rsqr in SC.
    replace (_ + _) with (r * r) by nra. apply sqrt_Rsqr_abs.
  - rewrite G by lia. cbn [INR]. rewrite Rmult_0_l, cos_0, sin_0. f_equal. apply v2_ext; cbn; ring.
  - pose proof (iterate_sum t (Z.to_nat n) (V2 r 0)) as E. cbv zeta in E. rewrite rotate_iter in E. assert (IN : INR (Z.to_nat n) = IZR n) by (rewrite INR_IZR_INZ, Z2Nat.id by lia; reflexivity).
    assert (NP : 3 <= IZR n) by (apply IZR_le; exact N). assert (T : INR (Z.to_nat n) * t = 2 * PI) by (rewrite IN; unfold t; field; lra). rewrite T in E.
    set (S := isum2 _) in *. clearbody S. destruct S as [sx sy]. unfold mul_pos22, rotate22, sub2, zero2 in *. cbn in E. rewrite cos_2PI, sin_2PI in E. injection E as E1 E2. ring_simplify in E1. ring_simplify in E2.
    pose proof PI_RGT_0 as PP. assert (TP : 0 < t < PI).
    { unfold t. split; [apply Rmult_lt_0_compat; [lra|apply Rinv_0_lt_compat; lra]|]. apply (Rmult_lt_reg_r (IZR n)); [lra|]. replace (2 * PI / IZR n * IZR n) with (2 * PI) by (field; lra). nra. }
    assert (SP : 0 < sin t) by (apply sin_gt_0; lra). pose proof (sin2_cos2 t) as SC. unfold Rsqr in SC. set (c := cos t) in *. set (s := sin t) in *. clearbody c s. clear - SP SC E1 E2.
    assert (Q : 0 < (c - 1) * (c - 1) + s * s) by nra. apply v2_ext; cbn; apply (Rmult_eq_reg_l ((c - 1) * (c - 1) + s * s)); try lra.
    + transitivity ((c - 1) * ((c - 1) * sx - s * sy) + s * (s * sx + (c - 1) * sy)); [ring|]. replace ((c - 1) * sx - s * sy) with 0 by lra. replace (s * sx + (c - 1) * sy) with 0 by lra. ring.
    + transitivity ((c - 1) * (s * sx + (c - 1) * sy) - s * ((c - 1) * sx - s * sy)); [ring|]. replace ((c - 1) * sx - s * sy) with 0 by lra. replace (s * sx + (c - 1) * sy) with 0 by lra. ring.
Qed.
Theorem C61_small n r : (n < 3)%Z -> nagon n r = [].
Proof. intros N. unfold nagon. destruct (Z.ltb_spec n 3); [reflexivity|lia]. Qed.
Example C61_example : (3 <= 6)%Z /\ length (nagon 6 2) = 6%nat /\ isum2 (nagon 6 2) = zero2.
Proof. split; [lia|]. destruct (C61_nagon 6 2) as (A & _ & _ & _ & E); [lia|]. split; [lia|exact E]. Qed.
