(** Polar coordinates, math.Atan2, sawTooth and math.Mod of the model. *)
From Coq Require Import Reals Lra Lia ZArith Bool.
From Verif Require Import Prelude Vec BoxModel MatrixModel SdfModel.
Local Open Scope R_scope.

Lemma hypot_nonneg a b : 0 <= hypot a b.
Proof. apply sqrt_pos. Qed.
Lemma hypot_sq a b : hypot a b * hypot a b = a * a + b * b.
Proof. apply sqrt_sqrt. nra. Qed.
Lemma hypot_zero a b : hypot a b = 0 -> a = 0 /\ b = 0.
Proof. intros H. pose proof (hypot_sq a b) as E. rewrite H in E. split; nra. Qed.
Lemma hypot_ge a b : Rabs a <= hypot a b /\ Rabs b <= hypot a b.
Proof.
  pose proof (hypot_nonneg a b). pose proof (hypot_sq a b).
  split; apply sq_le; auto; rewrite <- Rabs_mult, Rabs_right; nra.
Qed.
Lemma hypot_polar r t : 0 <= r -> hypot (r * cos t) (r * sin t) = r.
Proof.
  intros H. unfold hypot. replace (_ + _) with (r * r * (Rsqr (sin t) + Rsqr (cos t))) by (unfold Rsqr; ring).
  rewrite sin2_cos2, Rmult_1_r. now apply sqrt_square.
Qed.
Lemma norm2_hypot p : norm2 p = hypot (x2 p) (y2 p).
Proof. reflexivity. Qed.

Lemma atan2_range y x : - PI < atan2 y x <= PI.
Proof.
  pose proof PI_RGT_0. unfold atan2. rcase; try lra.
  - pose proof (acos_bound (x / hypot x y)). lra.
  - pose proof (acos_bound (x / hypot x y)). split; [|lra].
    assert (acos (x / hypot x y) <> PI); [|lra]. intros E.
    assert (P : 0 < hypot x y) by (pose proof (hypot_nonneg x y); lra).
    pose proof (hypot_sq x y) as S.
    assert (B : -1 <= x / hypot x y <= 1).
    { destruct (hypot_ge x y) as (A & _). split.
      - apply Rmult_le_reg_r with (hypot x y); auto. replace (x / hypot x y * hypot x y) with x by (field; lra). rmm; lra.
      - apply Rmult_le_reg_r with (hypot x y); auto. replace (x / hypot x y * hypot x y) with x by (field; lra). rmm; lra. }
    apply (f_equal cos) in E. rewrite cos_acos in E by auto. rewrite cos_PI in E.
    assert (X : x = - hypot x y). { apply (f_equal (fun t => t * hypot x y)) in E. replace (x / hypot x y * hypot x y) with x in E by (field; lra). lra. }
    nra.
Qed.
Lemma atan2_polar y x : x = hypot x y * cos (atan2 y x) /\ y = hypot x y * sin (atan2 y x).
Proof.
  unfold atan2. destruct (Reqb (hypot x y) 0) eqn:Z.
  - apply Reqb_true in Z. destruct (hypot_zero _ _ Z) as (-> & ->). rewrite Z. lra.
  - apply Reqb_false in Z. assert (P : 0 < hypot x y) by (pose proof (hypot_nonneg x y); lra).
    pose proof (hypot_sq x y) as S.
    assert (B : -1 <= x / hypot x y <= 1).
    { destruct (hypot_ge x y) as (A & _). split.
      - apply Rmult_le_reg_r with (hypot x y); auto. replace (x / hypot x y * hypot x y) with x by (field; lra). rmm; lra.
      - apply Rmult_le_reg_r with (hypot x y); auto. replace (x / hypot x y * hypot x y) with x by (field; lra). rmm; lra. }
    assert (C : cos (acos (x / hypot x y)) = x / hypot x y) by now apply cos_acos.
    assert (Si : hypot x y * sin (acos (x / hypot x y)) = Rabs y).
    { rewrite sin_acos by auto. apply sq_eq.
      - apply Rmult_le_pos; [lra|apply sqrt_pos].
      - apply Rabs_pos.
      - rewrite <- Rabs_mult, (Rabs_right (y * y)) by nra.
        replace (hypot x y * _ * _) with (hypot x y * hypot x y * (sqrt (1 - (x / hypot x y)²) * sqrt (1 - (x / hypot x y)²))) by ring.
        rewrite sqrt_sqrt.
        + unfold Rsqr. replace (_ * (1 - _)) with (hypot x y * hypot x y - x * x) by (field; lra). lra.
        + unfold Rsqr. nra. }
    destruct (Rleb 0 y) eqn:Y; [apply Rleb_true in Y|apply Rleb_false in Y].
    + rewrite C, Si. split; [field; lra|]. rmm; lra.
    + rewrite cos_neg, sin_neg, C. split; [field; lra|]. revert Si. rmm; lra.
Qed.
Lemma sin_cos_eq a b : - PI < a <= PI -> - PI < b <= PI -> sin a = sin b -> cos a = cos b -> a = b.
Proof.
  intros Ha Hb S C.
  assert (D : sin (a - b) = 0) by (rewrite sin_minus, S, C; ring).
  assert (E : cos (a - b) = 1).
  { rewrite cos_minus, S, C. pose proof (sin2_cos2 b). unfold Rsqr in *. lra. }
  pose proof PI_RGT_0.
  destruct (Rtotal_order a b) as [L|[L|L]]; auto; exfalso.
  - assert (0 < b - a < 2 * PI) by lra.
    assert (sin (b - a) = 0) by (replace (b - a) with (- (a - b)) by ring; rewrite sin_neg; lra).
    destruct (Rtotal_order (b - a) PI) as [K|[K|K]].
    + pose proof (sin_gt_0 (b - a)). lra.
    + replace (a - b) with (- PI) in E by lra. rewrite cos_neg, cos_PI in E. lra.
    + pose proof (sin_lt_0 (b - a)). lra.
  - destruct (Rtotal_order (a - b) PI) as [K|[K|K]].
    + pose proof (sin_gt_0 (a - b)). lra.
    + rewrite K, cos_PI in E. lra.
    + pose proof (sin_lt_0 (a - b)). lra.
Qed.
Lemma atan2_unique r t : 0 < r -> - PI < t <= PI -> atan2 (r * sin t) (r * cos t) = t.
Proof.
  intros R T. destruct (atan2_polar (r * sin t) (r * cos t)) as (A & B).
  rewrite hypot_polar in A, B by lra. apply Rmult_eq_reg_l in A, B; try lra.
  apply sin_cos_eq; auto. apply atan2_range.
Qed.

(** ** Floor, sawTooth, Mod *)
Lemma floorR_spec x : floorR x <= x < floorR x + 1.
Proof. unfold floorR. pose proof (base_Int_part x). lra. Qed.
Lemma floorR_int x : exists k, floorR x = IZR k.
Proof. exists (Int_part x). reflexivity. Qed.
Lemma floorR_unique x k : IZR k <= x < IZR k + 1 -> floorR x = IZR k.
Proof.
  intros H. unfold floorR. f_equal. pose proof (base_Int_part x) as (A & B).
  assert (IZR (Int_part x) < IZR (k + 1)) by (rewrite plus_IZR; lra).
  assert (IZR k < IZR (Int_part x + 1)) by (rewrite plus_IZR; lra).
  apply lt_IZR in H0, H1. lia.
Qed.
Lemma saw_tooth_spec x t : 0 < t ->
  (exists k, saw_tooth x t = x - IZR k * t) /\ - t / 2 <= saw_tooth x t < t / 2.
Proof.
  intros T. unfold saw_tooth. set (q := (x + t / 2) / t).
  assert (E : t * q = x + t / 2) by (unfold q; field; lra).
  destruct (floorR_int q) as (k & K). pose proof (floorR_spec q) as (A & B). rewrite K in *. split.
  - exists k. rewrite Rmult_minus_distr_l, E. lra.
  - split; nra.
Qed.
Lemma modR_small x y : 0 <= x < y -> modR x y = x.
Proof.
  intros H. unfold modR. rewrite (floorR_unique (x / y) 0); [ring|]. split.
  - apply Rmult_le_pos; [lra|]. apply Rlt_le, Rinv_0_lt_compat. lra.
  - replace (0 + 1) with (y / y) by (field; lra). apply Rmult_lt_compat_r; [apply Rinv_0_lt_compat; lra|lra].
Qed.
Lemma modR_shift x y k : 0 < y -> modR (x + IZR k * y) y = modR x y.
Proof.
  intros Y. unfold modR. replace ((x + IZR k * y) / y) with (x / y + IZR k) by (field; lra).
  destruct (floorR_int (x / y)) as (j & J). pose proof (floorR_spec (x / y)).
  rewrite (floorR_unique (x / y + IZR k) (j + k)); [rewrite J, plus_IZR; ring|]. rewrite plus_IZR. lra.
Qed.
Lemma cos_period_Z x k : cos (x + IZR k * (2 * PI)) = cos x /\ sin (x + IZR k * (2 * PI)) = sin x.
Proof.
  destruct (Z_le_gt_dec 0 k) as [K|K].
  - replace (IZR k) with (INR (Z.to_nat k)) by (rewrite INR_IZR_INZ; f_equal; lia).
    replace (x + INR (Z.to_nat k) * (2 * PI)) with (x + 2 * INR (Z.to_nat k) * PI) by ring.
    split; [apply cos_period|apply sin_period].
  - set (y := x + IZR k * (2 * PI)).
    replace x with (y + 2 * INR (Z.to_nat (- k)) * PI).
    + now rewrite cos_period, sin_period.
    + rewrite INR_IZR_INZ, Z2Nat.id, opp_IZR by lia. unfold y. ring.
Qed.

(** ** Rotation of the plane *)
Definition rot (t : R) (p : v2) : v2 := V2 (cos t * x2 p - sin t * y2 p) (sin t * x2 p + cos t * y2 p).
Lemma rot_sum a b p : rot a (rot b p) = rot (a + b) p.
Proof. unfold rot. cbn. rewrite cos_plus, sin_plus. f_equal; ring. Qed.
Lemma rot_0 p : rot 0 p = p.
Proof. unfold rot. rewrite cos_0, sin_0. apply v2_ext; cbn; ring. Qed.
Lemma rot_inv a p : rot a (rot (- a) p) = p.
Proof. rewrite rot_sum. replace (a + - a) with 0 by ring. apply rot_0. Qed.
Lemma rot_inv' a p : rot (- a) (rot a p) = p.
Proof. rewrite rot_sum. replace (- a + a) with 0 by ring. apply rot_0. Qed.
Lemma rot_norm a p : norm2 (rot a p) = norm2 p.
Proof.
  unfold norm2. f_equal. unfold norm2sq, dot2, rot; cbn. pose proof (sin2_cos2 a) as S. unfold Rsqr in S.
  etransitivity; [|apply Rmult_1_l]. rewrite <- S. ring.
Qed.
Lemma rot_sub a p q : sub2 (rot a p) (rot a q) = rot a (sub2 p q).
Proof. unfold rot. apply v2_ext; cbn; ring. Qed.
Lemma rot_dist a p q : dist2 (rot a p) (rot a q) = dist2 p q.
Proof. unfold dist2. rewrite rot_sub. apply rot_norm. Qed.
Lemma rot_polar a r t : rot a (polar_to_xy r t) = polar_to_xy r (a + t).
Proof. unfold rot, polar_to_xy. apply v2_ext; cbn; rewrite ?cos_plus, ?sin_plus; ring. Qed.
(** Folding into a sector rotates by a multiple of the sector angle. *)
Lemma fold_sector_rot t p : 0 < t -> exists k, fold_sector t p = rot (- (IZR k * t)) p.
Proof.
  intros T. destruct (saw_tooth_spec (atan2 (y2 p) (x2 p)) t T) as ((k & K) & _).
  exists k. unfold fold_sector. rewrite K.
  destruct (atan2_polar (y2 p) (x2 p)) as (A & B).
  assert (E : p = polar_to_xy (norm2 p) (atan2 (y2 p) (x2 p))) by (apply v2_ext; cbn; rewrite norm2_hypot; auto).
  transitivity (rot (- (IZR k * t)) (polar_to_xy (norm2 p) (atan2 (y2 p) (x2 p)))); [|f_equal; now symmetry].
  rewrite rot_polar. f_equal. ring.
Qed.
