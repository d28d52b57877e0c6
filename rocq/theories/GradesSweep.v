(** Grades of extrusions, lofts, revolutions, rotated copies and slices. *)
From Coq Require Import Reals Lra Lia List Bool ZArith.
From Verif Require Import Prelude Vec BoxModel PropsBox MatrixModel PropsMatrix SdfModel PropsBool SdfLemmas Trig Grades GradesOps.
Import ListNotations.
Local Open Scope R_scope.

(** ** Extrusions *)
Definition prism (b : box2) (h : R) : box3 :=
  Box3 (V3 (x2 (min2 b)) (y2 (min2 b)) (- h)) (V3 (x2 (max2 b)) (y2 (max2 b)) h).
Lemma bb_extrude s height : bb3 (extrude3d s height) = prism (bb2 s) (height / 2).
Proof. reflexivity. Qed.
Lemma dom3_extrude g m s height : g <> Euclid -> dom2 g m s -> dom3 g m (extrude3d s height).
Proof.
  intros N D p L. rewrite bb_extrude. cbn [extrude3d ev3] in *. unfold extrude_eval, normal_extrude in *.
  set (a := ev2 s (xy p)) in *. set (b := Rabs (z3 p) - height / 2) in *.
  assert (A : a < m) by (pose proof (Rmax_l a b); lra). specialize (D _ A). fold a in D.
  pose proof (Rmax_l a b). pose proof (Rmax_r a b).
  assert (Z : - (height / 2) - Rmax a b <= z3 p <= height / 2 + Rmax a b).
  { assert (Rabs (z3 p) <= height / 2 + Rmax a b) by (unfold b in *; lra). revert H1. unfold Rabs. destruct (Rcase_abs _); lra. }
  destruct g; [congruence| |]; cbn [G2 G3] in *.
  - unfold in2, in3, grow2, grow3, prism in *; cbn in *. lra.
  - intros V. assert (D' : in2 (bb2 s) (xy p)) by (apply D; lra). unfold in2, in3, prism in *; cbn in *. lra.
Qed.
(** The rounded combination is the signed distance to a quadrant in (a, b). *)
Definition quad (a b : R) : R := if Rltb 0 b then (if Rltb a 0 then b else hypot a b) else (if Rltb a 0 then Rmax a b else a).
Lemma round_combine_quad a b r : round_combine a b r = quad a b - r.
Proof. reflexivity. Qed.
Lemma quad_ge a b : a <= quad a b /\ b <= quad a b.
Proof.
  unfold quad. destruct (hypot_ge a b) as (A & B). rcase; try (rmm; lra).
Qed.
Lemma dist_prism p q2 z : dist3 p (V3 (x2 q2) (y2 q2) z) * dist3 p (V3 (x2 q2) (y2 q2) z) =
  dist2 (xy p) q2 * dist2 (xy p) q2 + (z3 p - z) * (z3 p - z).
Proof.
  unfold dist3, dist2. rewrite norm3_sq, norm2_sq. unfold norm3sq, norm2sq, dot3, dot2; cbn. ring.
Qed.
Lemma G3_quad g b p a h : 0 <= h -> g <> Contain -> G2 g b (xy p) a -> G3 g (prism b h) p (quad a (Rabs (z3 p) - h)).
Proof.
  intros H N D. set (c := Rabs (z3 p) - h).
  destruct (quad_ge a c) as (Qa & Qc).
  destruct g; [| |congruence]; cbn [G2 G3] in *.
  - pose proof (near2_axis _ _ _ D) as Ax. destruct D as (D1 & D2).
    assert (Bx : forall q, in2 b q -> forall z, - h <= z <= h -> in3 (prism b h) (V3 (x2 q) (y2 q) z)).
    { unfold in2, in3, prism; cbn. intros; lra. }
    set (zc := if Rle_dec 0 (z3 p) then h else - h).
    assert (Zc : - h <= zc <= h) by (unfold zc; destruct (Rle_dec _ _); lra).
    assert (Zd : 0 <= c -> (z3 p - zc) * (z3 p - zc) = c * c).
    { intros C. unfold zc, c in *. revert C. unfold Rabs. destruct (Rle_dec 0 (z3 p)), (Rcase_abs (z3 p)); intros; nra. }
    unfold quad. destruct (Rltb 0 c) eqn:C; [apply Rltb_true in C|apply Rltb_false in C].
    + split; intros W; [|exfalso; revert W; destruct (Rltb a 0); pose proof (hypot_nonneg a c); lra].
      destruct (Rltb a 0) eqn:A; [apply Rltb_true in A|apply Rltb_false in A].
      * exists (V3 (x2 (xy p)) (y2 (xy p)) zc). split; [apply Bx; auto; apply (D2 A); rewrite dist2_refl; lra|].
        apply sq_le; [lra|]. rewrite dist_prism, dist2_refl, Zd by lra. lra.
      * destruct (D1 A) as (q & Q & E). exists (V3 (x2 q) (y2 q) zc). split; [now apply Bx|].
        apply sq_le; [lra|]. rewrite dist_prism, Zd, hypot_sq by lra. pose proof (dist2_nonneg (xy p) q). nra.
    + assert (Zp : - h <= z3 p <= h) by (unfold c in C; revert C; unfold Rabs; destruct (Rcase_abs _); lra).
      destruct (Rltb a 0) eqn:A; [apply Rltb_true in A|apply Rltb_false in A].
      * split; intros W.
        -- exists p. rewrite dist3_refl. split; [|lra].
           replace p with (V3 (x2 (xy p)) (y2 (xy p)) (z3 p)) by (apply v3_ext; reflexivity).
           apply Bx; auto. apply (D2 A). rewrite dist2_refl. lra.
        -- intros q E. replace q with (V3 (x2 (xy q)) (y2 (xy q)) (z3 q)) in * by (apply v3_ext; reflexivity).
           set (qq := xy q) in *. set (qz := z3 q) in *. clearbody qq qz.
           assert (S1 : Rmax a c <= 0) by lra. pose proof (Rmax_l a c). pose proof (Rmax_r a c).
           pose proof (dist3_nonneg p (V3 (x2 qq) (y2 qq) qz)).
           assert (E2 : dist3 p (V3 (x2 qq) (y2 qq) qz) * dist3 p (V3 (x2 qq) (y2 qq) qz) <= (- Rmax a c) * (- Rmax a c)) by nra.
           rewrite dist_prism in E2. apply Bx.
           ++ apply (D2 A). apply sq_le; [lra|]. apply Rle_trans with (- Rmax a c * - Rmax a c).
              ** pose proof (Rle_0_sqr (z3 p - qz)) as Sq. unfold Rsqr in Sq. eapply Rle_trans; [|exact E2]. clear - Sq. lra.
              ** apply Rmult_le_compat; lra.
           ++ assert (Dz : Rabs (z3 p - qz) <= - Rmax a c).
              { apply sq_le; [lra|]. rewrite <- Rabs_mult, Rabs_right by apply Rle_ge, Rle_0_sqr.
                eapply Rle_trans; [|exact E2]. pose proof (Rle_0_sqr (dist2 (xy p) qq)) as Sq. unfold Rsqr in Sq. clear - Sq. lra. }
              assert (Cc : Rabs (z3 p) - h <= Rmax a c) by (fold c; lra).
              clear - Dz Cc. unfold Rabs in *. destruct (Rcase_abs (z3 p)), (Rcase_abs (z3 p - qz)); lra.
      * split; intros W; [|lra]. destruct (D1 A) as (q & Q & E). exists (V3 (x2 q) (y2 q) (z3 p)). split; [now apply Bx|].
        apply sq_le; [lra|]. rewrite dist_prism. pose proof (dist2_nonneg (xy p) q). nra.
  - unfold in2, in3, grow2, grow3, prism in *; cbn in *.
    assert (Rabs (z3 p) <= h + quad a c) by (unfold c in *; lra).
    assert (- h - quad a c <= z3 p <= h + quad a c) by (revert H0; unfold Rabs; destruct (Rcase_abs (z3 p)); lra). lra.
Qed.
Lemma grow_prism b h r : grow3 (prism b h) r =
  Box3 (sub3 (V3 (x2 (min2 b)) (y2 (min2 b)) (- h)) (elem3 r)) (add3 (V3 (x2 (max2 b)) (y2 (max2 b)) h) (elem3 r)).
Proof. reflexivity. Qed.
Lemma dom3_extrude_rounded g m s height r s' : g <> Contain -> r <> 0 -> m - r <= max_float64 ->
  dom2 g m s -> extrude_rounded3d (Some s) height r = Ok s' -> dom3 g (m - r) s'.
Proof.
  intros N R0 M D. unfold extrude_rounded3d. rewrite (proj2 (Reqb_false r 0) R0).
  destruct (Rleb height 0) eqn:H1; [intros E; inversion E; now apply dom3_empty|].
  destruct (Rltb r 0) eqn:H2; [intros E; inversion E; now apply dom3_empty|].
  destruct (Rltb height (2 * r)) eqn:H3; [intros E; inversion E; now apply dom3_empty|].
  apply Rleb_false in H1. apply Rltb_false in H2, H3.
  intros E. inversion E. intros p L. cbn [ev3] in *. rewrite round_combine_quad in *.
  change (G3 g (grow3 (prism (bb2 s) (height / 2 - r)) r) p (quad (ev2 s (xy p)) (Rabs (z3 p) - (height / 2 - r)) - r)).
  apply G3_offset; auto. apply G3_quad; [lra|auto|]. apply D.
  pose proof (quad_ge (ev2 s (xy p)) (Rabs (z3 p) - (height / 2 - r))). lra.
Qed.
Lemma clamp_range x a b : a <= b -> a <= clamp x a b <= b.
Proof. unfold clamp. intros. rcase; lra. Qed.
Lemma dom3_loft g m s0 s1 height r s' : g <> Contain -> m - r <= max_float64 ->
  dom2 g m s0 -> dom2 g m s1 -> loft3d (Some s0) (Some s1) height r = Ok s' -> dom3 g (m - r) s'.
Proof.
  intros N M D0 D1. unfold loft3d.
  destruct (Rleb height 0) eqn:H1; [intros E; inversion E; now apply dom3_empty|].
  destruct (Rltb r 0) eqn:H2; [intros E; inversion E; now apply dom3_empty|].
  destruct (Rltb height (2 * r)) eqn:H3; [intros E; inversion E; now apply dom3_empty|].
  apply Rleb_false in H1. apply Rltb_false in H2, H3.
  intros E. inversion E. intros p L. cbn [ev3] in *. match goal with |- G3 g ?b _ _ => change b with (grow3 (prism (extend2 (bb2 s0) (bb2 s1)) (height / 2 - r)) r) end. unfold loft_eval in *. rewrite round_combine_quad in *.
  set (h := height / 2 - r) in *. set (k := clamp _ 0 1) in *.
  assert (K : 0 <= k <= 1) by (apply clamp_range; lra).
  set (e0 := ev2 s0 (xy p)) in *. set (e1 := ev2 s1 (xy p)) in *. set (a := mix e0 e1 k) in *.
  destruct (quad_ge a (Rabs (z3 p) - h)) as (Qa & _).
  apply G3_offset; auto. apply G3_quad; [unfold h; lra|auto|].
  assert (Am : e0 <= a \/ e1 <= a).
  { unfold a, mix. destruct (Rle_or_lt e0 e1); [left|right]; nra. }
  destruct Am as [Am|Am].
  - eapply G2_mono; [apply extend2_l|exact Am|]. apply D0. fold e0. lra.
  - eapply G2_mono; [apply extend2_r|exact Am|]. apply D1. fold e1. lra.
Qed.
(** Without rounding containment is enough. *)
Lemma quad_neg a b : quad a b < 0 -> a < 0 /\ b < 0.
Proof. intros H. pose proof (quad_ge a b). lra. Qed.
Lemma contain_loft m s0 s1 height s' : 0 < m -> m <= max_float64 ->
  dom2 Contain m s0 -> dom2 Contain m s1 -> loft3d (Some s0) (Some s1) height 0 = Ok s' -> dom3 Contain m s'.
Proof.
  intros P M D0 D1. unfold loft3d.
  destruct (Rleb height 0) eqn:H1; [intros E; inversion E; now apply dom3_empty|].
  destruct (Rltb 0 0) eqn:H2; [intros E; inversion E; now apply dom3_empty|].
  destruct (Rltb height (2 * 0)) eqn:H3; [intros E; inversion E; now apply dom3_empty|].
  apply Rleb_false in H1.
  intros E. inversion E. intros p L V. cbn [ev3] in *. match goal with |- in3 ?b _ => change b with (grow3 (prism (extend2 (bb2 s0) (bb2 s1)) (height / 2 - 0)) 0) end. unfold loft_eval in *. rewrite round_combine_quad in *.
  set (h := height / 2 - 0) in *. set (k := clamp _ 0 1) in *.
  assert (K : 0 <= k <= 1) by (apply clamp_range; lra).
  set (e0 := ev2 s0 (xy p)) in *. set (e1 := ev2 s1 (xy p)) in *. set (a := mix e0 e1 k) in *.
  assert (Q : a < 0 /\ Rabs (z3 p) - h < 0) by (apply quad_neg; lra).
  assert (Am : e0 < 0 \/ e1 < 0).
  { assert (a < 0) by tauto. unfold a, mix in H. destruct (Rlt_or_le e0 0); [auto|]. destruct (Rlt_or_le e1 0); [auto|]. nra. }
  assert (B : in2 (extend2 (bb2 s0) (bb2 s1)) (xy p)).
  { destruct Am as [Am|Am].
    - eapply box_le2_in; [apply extend2_l|]. apply D0; [fold e0; lra|exact Am].
    - eapply box_le2_in; [apply extend2_r|]. apply D1; [fold e1; lra|exact Am]. }
  unfold in2, in3, grow3, prism in *; cbn in *.
  assert (- h <= z3 p <= h) by (destruct Q as (_ & Q); revert Q; unfold Rabs; destruct (Rcase_abs _); lra). lra.
Qed.
(** Scaled extrusion: the profile point is the point times a factor between 1 and
    1/scale on each axis. *)
Lemma scaled_axis lo hi s z h q x :
  0 < s -> 0 < h -> - (h / 2) <= z <= h / 2 -> q = x * (1 / s / 2 + 1/2 + z * ((1 / s - 1) / h)) -> lo <= q <= hi ->
  Rmin lo (lo * s) <= x <= Rmax hi (hi * s).
Proof.
  intros S H Z E B. set (w := z / h + 1/2). assert (W : 0 <= w <= 1).
  { unfold w. assert (Zh : z = z / h * h) by (field; lra). split; nra. }
  assert (T : 1 / s / 2 + 1/2 + z * ((1 / s - 1) / h) = (1 - w) + w * / s) by (unfold w; field; lra).
  rewrite T in E. set (t := (1 - w) + w * / s) in *.
  assert (I : 0 < / s) by now apply Rinv_0_lt_compat.
  assert (Tp : 0 < t) by (unfold t; destruct (Req_dec w 0) as [-> |]; nra).
  set (u := / t). assert (U : 0 < u) by now apply Rinv_0_lt_compat.
  assert (Ut : u * t = 1) by (unfold u; field; lra).
  assert (X : x = q * u) by (rewrite E, Rmult_assoc, (Rmult_comm t u), Ut; ring).
  assert (Is : / s * s = 1) by (field; lra).
  assert (Ts : t * s = (1 - w) * s + w) by (unfold t; rewrite Rmult_plus_distr_r, (Rmult_assoc w), Is; ring).
  assert (Ub : (u <= 1 /\ s <= u) \/ (1 <= u /\ u <= s)).
  { assert (Us : u * ((1 - w) * s + w) = s) by (rewrite <- Ts, <- Rmult_assoc, Ut; ring).
    destruct (Rle_or_lt s 1) as [L|L]; [left|right]; split.
    - assert (s <= (1 - w) * s + w) by nra. apply Rmult_le_reg_r with ((1 - w) * s + w); nra.
    - assert ((1 - w) * s + w <= 1) by nra. nra.
    - assert ((1 - w) * s + w <= s) by nra. apply Rmult_le_reg_r with ((1 - w) * s + w); nra.
    - assert (1 <= (1 - w) * s + w) by nra. nra. }
  rewrite X.
  assert (A : forall a b, Rmin a b <= a /\ Rmin a b <= b /\ a <= Rmax a b /\ b <= Rmax a b).
  { intros; rmm; lra. }
  destruct (A lo (lo * s)) as (A1 & A2 & _). destruct (A hi (hi * s)) as (_ & _ & A3 & A4).
  split.
  - apply Rle_trans with (lo * u); [|nra]. destruct (Rle_or_lt 0 lo); destruct Ub; nra.
  - apply Rle_trans with (hi * u); [nra|]. destruct (Rle_or_lt 0 hi); destruct Ub; nra.
Qed.
Lemma contain_scale_extrude m s height scale : 0 < m -> 0 < height -> 0 < x2 scale -> 0 < y2 scale ->
  dom2 Contain m s -> dom3 Contain m (scale_extrude3d s height scale).
Proof.
  intros M H Sx Sy D p L V. cbn [scale_extrude3d ev3 bb3] in *. unfold extrude_eval in V.
  set (q := scale_extrude height scale p) in *.
  pose proof (Rmax_l (ev2 s q) (Rabs (z3 p) - height / 2)). pose proof (Rmax_r (ev2 s q) (Rabs (z3 p) - height / 2)).
  assert (Z : - (height / 2) <= z3 p <= height / 2).
  { assert (Zn : Rabs (z3 p) - height / 2 < 0) by lra. clear - Zn. unfold Rabs in Zn. destruct (Rcase_abs (z3 p)); lra. }
  assert (B : in2 (bb2 s) q) by (apply D; lra). destruct B as (Bx & By).
  pose proof (scaled_axis _ _ (x2 scale) (z3 p) height (x2 q) (x3 p) Sx H Z eq_refl Bx).
  pose proof (scaled_axis _ _ (y2 scale) (z3 p) height (y2 q) (y3 p) Sy H Z eq_refl By).
  unfold in3, scaled_box, extend2; cbn. auto.
Qed.
(** Twisted extrusion: contained when the box corner Max is the farthest corner. *)
Lemma contain_twist m s height twist : 0 < m -> dom2 Contain m s ->
  Rabs (x2 (min2 (bb2 s))) <= x2 (max2 (bb2 s)) -> Rabs (y2 (min2 (bb2 s))) <= y2 (max2 (bb2 s)) ->
  dom3 Contain m (twist_extrude3d s height twist).
Proof.
  intros M D X Y p L V. cbn [twist_extrude3d ev3 bb3] in *. unfold extrude_eval in V.
  set (q := twist_extrude height twist p) in *.
  pose proof (Rmax_l (ev2 s q) (Rabs (z3 p) - height / 2)). pose proof (Rmax_r (ev2 s q) (Rabs (z3 p) - height / 2)).
  assert (Z : - (height / 2) <= z3 p <= height / 2).
  { assert (Zn : Rabs (z3 p) - height / 2 < 0) by lra. clear - Zn. unfold Rabs in Zn. destruct (Rcase_abs (z3 p)); lra. }
  assert (B : in2 (bb2 s) q) by (apply D; lra). destruct B as (Bx & By).
  assert (N : norm2 (xy p) = norm2 q).
  { unfold q, twist_extrude. set (t := z3 p * (twist / height)).
    replace (mul_pos22 (rotate22 t) (xy p)) with (rot t (xy p)) by (apply v2_ext; cbn; ring). now rewrite rot_norm. }
  assert (N2 : norm2 q <= norm2 (max2 (bb2 s))).
  { apply norm2_le_of. unfold norm2sq, dot2.
    assert (F : forall lo hi t, Rabs lo <= hi -> lo <= t <= hi -> t * t <= hi * hi) by (intros lo hi t; clear; rmm; nra).
    pose proof (F _ _ _ X Bx). pose proof (F _ _ _ Y By). lra. }
  destruct (abs_le_norm2 (xy p)) as (Ax & Ay). rewrite N in Ax, Ay. cbn [xy x2 y2] in Ax, Ay.
  set (l := norm2 (max2 (bb2 s))) in *.
  assert (A : forall t, Rabs t <= norm2 q -> - l <= t <= l) by (intros t; unfold Rabs; destruct (Rcase_abs t); lra).
  pose proof (A _ Ax). pose proof (A _ Ay). unfold in3; cbn. lra.
Qed.

(** ** Full revolution *)
Definition rho (p : v3) : v2 := V2 (sqrt (x3 p * x3 p + y3 p * y3 p)) (z3 p).
Lemma rho_sq p : x2 (rho p) * x2 (rho p) = x3 p * x3 p + y3 p * y3 p.
Proof. cbn. apply sqrt_sqrt. nra. Qed.
Lemma rho_nonneg p : 0 <= x2 (rho p).
Proof. apply sqrt_pos. Qed.
Lemma rho_contracts p q : dist2 (rho p) (rho q) <= dist3 p q.
Proof.
  apply sq_le; [apply dist3_nonneg|]. unfold dist2, dist3. rewrite norm2_sq, norm3_sq.
  pose proof (rho_sq p). pose proof (rho_sq q). pose proof (rho_nonneg p). pose proof (rho_nonneg q).
  unfold norm2sq, norm3sq, dot2, dot3, sub2, sub3; cbn [x2 y2 x3 y3 z3].
  change (y2 (rho p)) with (z3 p). change (y2 (rho q)) with (z3 q).
  set (a := x2 (rho p)) in *. set (b := x2 (rho q)) in *.
  assert (C : x3 p * x3 q + y3 p * y3 q <= a * b).
  { apply sq_le; [nra|]. replace (a * b * (a * b)) with ((a * a) * (b * b)) by ring. rewrite H, H0.
    clear. pose proof (Rle_0_sqr (x3 p * y3 q - y3 p * x3 q)) as Sq. unfold Rsqr in Sq. lra. }
  clearbody a b. lra.
Qed.
Definition rev_box (b : box2) : box3 :=
  let l := Rmax (Rabs (x2 (min2 b))) (Rabs (x2 (max2 b))) in
  Box3 (V3 (- l) (- l) (y2 (min2 b))) (V3 l l (y2 (max2 b))).
Lemma rev_in b p : in2 b (rho p) -> in3 (rev_box b) p.
Proof.
  intros ((_ & X) & Y). pose proof (rho_sq p) as S. pose proof (rho_nonneg p).
  set (r := x2 (rho p)) in *. set (l := Rmax (Rabs (x2 (min2 b))) (Rabs (x2 (max2 b)))).
  assert (L : r <= l) by (unfold l; pose proof (Rmax_r (Rabs (x2 (min2 b))) (Rabs (x2 (max2 b)))); pose proof (Rle_abs (x2 (max2 b))); lra).
  cbn in Y. unfold in3, rev_box; cbn. fold l.
  split; [|split; [|exact Y]]; split; nra.
Qed.
Lemma rev_lift (p : v3) (q : v2) : exists w, dist3 p w = dist2 (rho p) q /\ z3 w = y2 q /\ x2 (rho w) = Rabs (x2 q).
Proof.
  pose proof (rho_sq p) as S. pose proof (rho_nonneg p) as N. set (r := x2 (rho p)) in *.
  destruct (Req_dec r 0) as [Z|Z].
  - assert (x3 p = 0 /\ y3 p = 0) as (X & Y) by (split; nra). exists (V3 (x2 q) 0 (y2 q)). split; [|split; [reflexivity|]].
    + unfold dist3, dist2, norm3, norm2. f_equal. unfold norm3sq, norm2sq, dot3, dot2, sub3, sub2; cbn [x2 y2 x3 y3 z3].
      fold r. change (y2 (rho p)) with (z3 p). rewrite X, Y, Z. ring.
    + cbn. rewrite <- sqrt_Rsqr_abs. f_equal. unfold Rsqr. ring.
  - set (k := x2 q / r). assert (K : k * r = x2 q) by (unfold k; field; auto).
    exists (V3 (k * x3 p) (k * y3 p) (y2 q)). split; [|split; [reflexivity|]].
    + unfold dist3, dist2, norm3, norm2. f_equal. unfold norm3sq, norm2sq, dot3, dot2, sub3, sub2; cbn [x2 y2 x3 y3 z3].
      fold r. change (y2 (rho p)) with (z3 p). rewrite <- K.
      replace ((r - k * r) * (r - k * r)) with ((1 - k) * (1 - k) * (r * r)) by ring. rewrite S. ring.
    + cbn. rewrite <- sqrt_Rsqr_abs. f_equal. unfold Rsqr. rewrite <- K.
      replace (k * r * (k * r)) with (k * k * (r * r)) by ring. rewrite S. ring.
Qed.
Lemma G3_revolve g b p v : G2 g b (rho p) v -> G3 g (rev_box b) p v.
Proof.
  destruct g; cbn [G2 G3].
  - intros (H1 & H2). split; intros W.
    + destruct (H1 W) as (q & Q & D). destruct (rev_lift p q) as (w & Dw & Zw & Rw). exists w. split; [|lra].
      pose proof (rho_sq w) as S. pose proof (rho_nonneg w). rewrite Rw in *. destruct Q as (Qx & Qy).
      set (l := Rmax (Rabs (x2 (min2 b))) (Rabs (x2 (max2 b)))).
      assert (L : Rabs (x2 q) <= l) by (unfold l; rmm; lra).
      unfold in3, rev_box; cbn. fold l. rewrite Zw. pose proof (Rabs_pos (x2 q)). split; [|split; [|exact Qy]]; split; nra.
    + intros q D. apply rev_in, H2; auto. pose proof (rho_contracts p q). lra.
  - intros ((_ & X) & Y). pose proof (rho_sq p) as S. pose proof (rho_nonneg p).
    set (r := x2 (rho p)) in *. set (l := Rmax (Rabs (x2 (min2 b))) (Rabs (x2 (max2 b)))).
    cbn [grow2 min2 max2 add2 sub2 elem2 x2 y2] in X, Y. change (y2 (rho p)) with (z3 p) in Y. fold r in X.
    assert (L : r <= l + v) by (unfold l; pose proof (Rmax_r (Rabs (x2 (min2 b))) (Rabs (x2 (max2 b)))); pose proof (Rle_abs (x2 (max2 b))); lra).
    unfold in3, rev_box, grow3; cbn. fold l. split; [|split; [|exact Y]]; split; nra.
  - intros H N. now apply rev_in, H.
Qed.
Lemma rev_eval_ge s theta norm p : ev2 s (rho p) <= revolve_eval s theta norm p.
Proof. unfold revolve_eval. apply Rmax_l. Qed.
Lemma dom3_revolve_full g m s s' theta : m <= max_float64 -> (theta <= 0 \/ Rabs (theta - 2 * PI) < tolerance) ->
  dom2 g m s -> revolve3d (Some s) theta = Ok s' -> dom3 g m s'.
Proof.
  intros M T D. unfold revolve3d.
  destruct (Rleb theta 0) eqn:Z; [intros E; inversion E; now apply dom3_empty|]. apply Rleb_false in Z.
  destruct T as [T|T]; [lra|]. rewrite (proj2 (Rltb_true _ _) T). rewrite Reqb_refl.
  cbn [bind set_min2 set_max2 fold_left]. intros E. inversion E. clear E. intros p L.
  set (l := Rmax (Rabs (x2 (min2 (bb2 s)))) (Rabs (x2 (max2 (bb2 s))))).
  match goal with |- G3 _ ?b _ _ => replace b with (rev_box (bb2 s)) end.
  2:{ unfold rev_box. cbn [bb3]. fold l. f_equal; apply v3_ext; cbn; fold l; rewrite ?Rmin_right, ?Rmax_left by lra; ring. }
  cbn [ev3] in *. eapply G3_mono; [apply box_le3_refl|apply rev_eval_ge|]. apply G3_revolve, D.
  pose proof (rev_eval_ge s (modR (Rabs 0) tau) (V2 (- sin (modR (Rabs 0) tau)) (cos (modR (Rabs 0) tau))) p). lra.
Qed.
