(** C50 blending functions, C32 blended unions and Bounds, C76 blends keep fields
    1-Lipschitz. *)
From Coq Require Import Reals Lra Lia List Bool ZArith.
From Verif Require Import Prelude Vec BoxModel MatrixModel PropsBox PropsMatrix SdfModel SdfLemmas PropsBool Trig
  Grades GradesOps GradesSweep GradesCopy GradesRest Distance PrimModel PrimCores PropsPrim PropsBounds BlendModel.
Import ListNotations.
Local Open Scope R_scope.
Local Open Scope bool_scope.

(** ** C50 *)
Lemma pow_unit h n : 0 <= h <= 1 -> 0 <= h ^ n <= 1.
Proof. intros H. induction n as [|n IH]; cbn [pow]; [lra|]. nra. Qed.
Lemma pow_S_le h n : 0 <= h <= 1 -> h ^ S n <= h.
Proof. intros H. pose proof (pow_unit h n H). cbn [pow]. nra. Qed.
Lemma pow_lip x y n : 0 <= y <= x -> x <= 1 -> 0 <= x ^ n - y ^ n <= INR n * (x - y).
Proof.
  intros Y X. induction n as [|n IH]; [cbn; lra|]. pose proof (pow_unit x n ltac:(lra)). pose proof (pow_unit y n ltac:(lra)).
  rewrite S_INR. cbn [pow]. replace (x * x ^ n - y * y ^ n) with (x * (x ^ n - y ^ n) + (x - y) * y ^ n) by ring.
  assert (0 <= x * (x ^ n - y ^ n)) by (apply Rmult_le_pos; lra).
  assert (x * (x ^ n - y ^ n) <= 1 * (x ^ n - y ^ n)) by (apply Rmult_le_compat_r; lra).
  assert (0 <= (x - y) * y ^ n) by (apply Rmult_le_pos; lra).
  assert ((x - y) * y ^ n <= (x - y) * 1) by (apply Rmult_le_compat_l; lra). lra.
Qed.
Definition mix_h (k d : R) : R := Rmax (k - d) 0 / k.
Lemma mix_h_range k d : 0 < k -> 0 <= d -> 0 <= mix_h k d <= 1.
Proof.
  intros K D. unfold mix_h. assert (0 <= Rmax (k - d) 0 <= k) by (rmm; lra).
  split; [apply Rmult_le_pos; [lra|left; now apply Rinv_0_lt_compat]|].
  apply Rmult_le_reg_r with k; [auto|]. replace (Rmax (k - d) 0 / k * k) with (Rmax (k - d) 0) by (field; lra). lra.
Qed.
Lemma mix_h_zero k d : k <= d -> mix_h k d = 0.
Proof. intros D. unfold mix_h. rewrite Rmax_right by lra. unfold Rdiv. ring. Qed.
Lemma mix_h_lip k d e : 0 < k -> 0 <= d <= e -> 0 <= mix_h k d - mix_h k e <= (e - d) / k.
Proof.
  intros K D. unfold mix_h. replace (Rmax (k - d) 0 / k - Rmax (k - e) 0 / k) with ((Rmax (k - d) 0 - Rmax (k - e) 0) / k) by (field; lra).
  assert (0 <= Rmax (k - d) 0 - Rmax (k - e) 0 <= e - d) by (rmm; lra).
  split; [apply Rmult_le_pos; [lra|left; now apply Rinv_0_lt_compat]|].
  apply Rmult_le_compat_r; [left; now apply Rinv_0_lt_compat|lra].
Qed.
(** The general formula, also for n = 2 and n = 3. *)
Theorem C50_special_cases k a b n : (2 <= n)%Z -> 0 < k -> min_poly n k a b = min_poly_gen (Z.to_nat n) k a b.
Proof.
  intros N K. unfold min_poly. rewrite (proj2 (Z.ltb_ge n 0)) by lia. rewrite (proj2 (Rleb_false k 0)) by auto. cbn [orb].
  rewrite (proj2 (Z.eqb_neq n 0)), (proj2 (Z.eqb_neq n 1)) by lia.
  destruct (Z.eqb_spec n 2) as [->|]; [|destruct (Z.eqb_spec n 3) as [->|]; [|reflexivity]].
  - unfold min_quad, min_poly_gen. change (Z.to_nat 2) with 2%nat. cbn [INR pow]. field. lra.
  - unfold min_cubic, min_poly_gen. change (Z.to_nat 3) with 3%nat. cbn [INR pow]. field. lra.
Qed.
Theorem C50_min_poly k a b n : (1 <= n)%Z -> 0 < k ->
  min_poly n k a b = min_poly n k b a /\
  Rmin a b - k / (2 * IZR n) <= min_poly n k a b <= Rmin a b /\
  (k <= Rabs (a - b) -> min_poly n k a b = Rmin a b).
Proof.
  intros N K. destruct (Z.eq_dec n 1) as [->|].
  { unfold min_poly. rewrite (proj2 (Rleb_false k 0)) by auto. cbn. split; [apply Rmin_comm|]. split; [|auto].
    assert (0 < k / (2 * 1)) by (unfold Rdiv; apply Rmult_lt_0_compat; [auto|apply Rinv_0_lt_compat; lra]). lra. }
  rewrite !C50_special_cases by (auto; lia). unfold min_poly_gen. fold (mix_h k (Rabs (a - b))) (mix_h k (Rabs (b - a))).
  assert (I : INR (Z.to_nat n) = IZR n) by (rewrite INR_IZR_INZ, Z2Nat.id by lia; reflexivity).
  assert (P : 0 < IZR n) by (apply IZR_lt; lia).
  split; [|split].
  - rewrite (Rabs_minus_sym a b), (Rmin_comm a b). reflexivity.
  - pose proof (mix_h_range k (Rabs (a - b)) K (Rabs_pos _)) as H. pose proof (pow_unit _ (Z.to_nat n) H) as Q.
    set (h := mix_h k (Rabs (a - b)) ^ Z.to_nat n) in *. rewrite I.
    replace (h * k * (1/2 / IZR n)) with (h * (k / (2 * IZR n))) by (field; lra).
    assert (0 < k / (2 * IZR n)) by (unfold Rdiv; apply Rmult_lt_0_compat; [auto|apply Rinv_0_lt_compat; lra]). nra.
  - intros D. rewrite mix_h_zero by auto. replace (0 ^ Z.to_nat n) with 0; [ring|]. symmetry. apply pow_i. lia.
Qed.
(** n = 0, the chamfer: symmetric and at most the minimum, ... *)
Theorem C50_chamfer_partial k a b : 0 < k ->
  min_poly 0 k a b = min_poly 0 k b a /\ min_poly 0 k a b <= Rmin a b /\
  (k <= Rabs (a - b) -> 0 <= Rmin a b -> min_poly 0 k a b = Rmin a b).
Proof.
  intros K. unfold min_poly. cbn [Z.ltb Z.compare Z.eqb Pos.eqb]. rewrite (proj2 (Rleb_false k 0)) by auto. cbn [orb].
  assert (S : sqrt (1/2) * sqrt (1/2) = 1/2) by (apply sqrt_sqrt; lra). pose proof (sqrt_pos (1/2)) as P. set (s := sqrt (1/2)) in *. clearbody s.
  split; [|split].
  - rewrite (Rmin_comm a b). f_equal. ring.
  - apply Rmin_l.
  - intros D Q. apply Rmin_left. assert (s >= 1/2) by nra.
    assert (a - k + b >= 2 * Rmin a b) by (revert D; rmm; lra). set (m := Rmin a b) in *. clearbody m. nra.
Qed.
(** ... but below the surface it differs from the minimum however far apart the arguments. *)
Theorem C50_chamfer_refuted k : 0 < k -> exists a b, k <= Rabs (a - b) /\ min_poly 0 k a b < Rmin a b.
Proof.
  intros K. exists (-1), (k - 1). split; [rewrite Rabs_left; lra|]. unfold min_poly. cbn [Z.ltb Z.compare Z.eqb Pos.eqb].
  rewrite (proj2 (Rleb_false k 0)) by auto. cbn [orb].
  assert (S : sqrt (1/2) * sqrt (1/2) = 1/2) by (apply sqrt_sqrt; lra). pose proof (sqrt_pos (1/2)) as P. set (s := sqrt (1/2)) in *. clearbody s.
  assert (s > 1/2) by nra. rewrite (Rmin_left (-1) (k - 1)) by lra.
  eapply Rle_lt_trans; [apply Rmin_r|]. replace (-1 - k + (k - 1)) with (-2) by ring. nra.
Qed.
(** MaxPoly is the dual of MinPoly for n >= 2; *)
Theorem C50_max_poly_partial k a b n : (2 <= n)%Z -> 0 < k -> max_poly n k a b = Some (- min_poly n k (- a) (- b)).
Proof.
  intros N K. rewrite C50_special_cases by auto. unfold max_poly, min_poly_gen.
  rewrite (proj2 (Z.ltb_ge n 0)) by lia. rewrite (proj2 (Rleb_false k 0)) by auto. cbn [orb].
  rewrite (proj2 (Z.eqb_neq n 0)) by lia. do 3 f_equal. do 4 f_equal. replace (- a - - b) with (b - a) by ring. reflexivity.
Qed.
(** with n = 1 it is not math.Max but adds up to k/2, and with n = 0 it is never finite. *)
Theorem C50_max_poly_refuted k : 0 < k ->
  (exists a b v, max_poly 1 k a b = Some v /\ v <> - min_poly 1 k (- a) (- b) /\ v = Rmax a b + k / 2) /\
  (forall a b, max_poly 0 k a b = None).
Proof.
  intros K. split.
  - exists 0, 0. unfold max_poly, min_poly. cbn [Z.ltb Z.compare Z.eqb Pos.eqb]. rewrite (proj2 (Rleb_false k 0)) by auto. cbn [orb].
    eexists. split; [reflexivity|]. change (Z.to_nat 1) with 1%nat. cbn [pow INR].
    rewrite Ropp_0, Rminus_0_r, Rabs_R0, Rminus_0_r. rewrite (Rmin_left 0 0), (Rmax_left 0 0), (Rmax_left k 0) by lra.
    split; [|field; lra]. replace (- (0 - k / k * 1 * k * (1 / 2 / 1))) with (k / 2) by (field; lra). intros Q. lra.
  - intros a b. unfold max_poly. cbn [Z.ltb Z.compare Z.eqb Pos.eqb]. now rewrite (proj2 (Rleb_false k 0)) by auto.
Qed.
Theorem C50_min_round k a b :
  min_round k a b = min_round k b a /\ min_round k a b <= Rmin a b /\ (k <= a \/ k <= b -> min_round k a b = Rmin a b).
Proof.
  unfold min_round.
  assert (N : forall x y, norm2 (V2 x y) = norm2 (V2 y x)) by (intros; unfold norm2, norm2sq, dot2; cbn; f_equal; ring).
  split; [|split].
  - rewrite (N (Rmax (k - a) 0)), (Rmin_comm a b). reflexivity.
  - destruct (abs_le_norm2 (V2 (Rmax (k - a) 0) (Rmax (k - b) 0))) as (X & Y). cbn [x2 y2] in X, Y. set (n := norm2 _) in *. clearbody n. rmm; lra.
  - intros [H|H].
    + rewrite (Rmax_right (k - a) 0) by lra. replace (norm2 (V2 0 (Rmax (k - b) 0))) with (Rmax (k - b) 0).
      * rmm; lra.
      * unfold norm2, norm2sq, dot2; cbn. rewrite Rmult_0_l, Rplus_0_l, sqrt_square by (apply Rmax_r). reflexivity.
    + rewrite (Rmax_right (k - b) 0) by lra. replace (norm2 (V2 (Rmax (k - a) 0) 0)) with (Rmax (k - a) 0).
      * rmm; lra.
      * unfold norm2, norm2sq, dot2; cbn. rewrite Rmult_0_l, Rplus_0_r, sqrt_square by (apply Rmax_r). reflexivity.
Qed.
Theorem C50_min_exp k a b : 0 < k ->
  min_exp k a b = min_exp k b a /\ Rmin a b - ln 2 / k <= min_exp k a b < Rmin a b.
Proof.
  intros K. unfold min_exp. split; [now rewrite Rplus_comm|].
  set (m := Rmin a b).
  assert (B : exp (- k * m) < exp (- k * a) + exp (- k * b) <= 2 * exp (- k * m)).
  { assert (M : forall x y, x <= y -> exp (- k * y) <= exp (- k * x)).
    { intros x y L. destruct L as [L| ->]; [left; apply exp_increasing; nra|lra]. }
    unfold m, Rmin. pose proof (exp_pos (- k * a)). pose proof (exp_pos (- k * b)).
    destruct (Rle_dec a b) as [L|L]; [pose proof (M a b L)|pose proof (M b a ltac:(lra))]; lra. }
  set (S := exp (- k * a) + exp (- k * b)) in *. pose proof (exp_pos (- k * m)) as P.
  assert (L1 : - k * m < ln S) by (rewrite <- (ln_exp (- k * m)); apply ln_increasing; lra).
  assert (L2 : ln S <= ln 2 + - k * m).
  { rewrite <- (ln_exp (- k * m)) at 1. rewrite <- ln_mult by lra.
    destruct (proj2 B) as [Q|Q]; [left; apply ln_increasing; lra|right; now rewrite Q]. }
  assert (I : 0 < / k) by (now apply Rinv_0_lt_compat).
  assert (E1 : m - ln 2 / k = (- (ln 2 + - k * m)) * / k) by (field; lra). assert (E2 : m = (- (- k * m)) * / k) by (field; lra).
  unfold Rdiv at 2 3. split.
  - rewrite E1. apply Rmult_le_compat_r; lra.
  - rewrite E2 at 1. apply Rmult_lt_compat_r; lra.
Qed.
Example C50_example : min_poly 2 4 1 2 = 1 - 9/16 /\ min_poly 5 1 (-3) 7 = -3 /\ min_round 1 0 0 = 1 - sqrt 2.
Proof.
  split; [|split].
  - rewrite C50_special_cases by (auto; lia || lra). unfold min_poly_gen. change (Z.to_nat 2) with 2%nat. cbn [INR pow].
    rewrite Rmin_left by lra. rewrite (Rabs_left (1 - 2)) by lra. rewrite Rmax_left by lra. field.
  - destruct (C50_min_poly 1 (-3) 7 5) as (_ & _ & H); [lia|lra|]. rewrite H; [apply Rmin_left; lra|]. rewrite Rabs_left; lra.
  - unfold min_round. rewrite (Rmin_left 0 0), (Rmax_left (1 - 0) 0), (Rmax_left 1 0) by lra. unfold norm2, norm2sq, dot2; cbn [x2 y2]. do 2 f_equal. ring.
Qed.

(** ** C32: every polynomial blend radius lets the union of a sphere with itself bulge out
    of its Bounds. *)
Theorem C32_blend_bounds_refuted k n : 0 < k -> (2 <= n)%Z -> exists s u p,
  must_sphere 1 = Ok s /\ union3d_min (min_poly n k) [Some s; Some s] = Ok u /\ ev3 u p < 0 /\ ~ in3 (bb3 u) p.
Proof.
  intros K N. set (e := k / (4 * IZR n)).
  assert (P : 0 < IZR n) by (apply IZR_lt; lia).
  assert (E : 0 < e) by (unfold e, Rdiv; apply Rmult_lt_0_compat; [auto|apply Rinv_0_lt_compat; lra]).
  unfold must_sphere. rewrite (proj2 (Rleb_false 1 0)) by lra. eexists _, _, (V3 (1 + e) 0 0).
  split; [reflexivity|]. split; [reflexivity|]. split.
  - cbn [ev3 union_eval3 fold_left]. rewrite C50_special_cases by auto. unfold min_poly_gen. rewrite Rmin_left by lra.
    replace (_ - _ - (_ - _)) with 0 by ring. rewrite Rabs_R0, Rminus_0_r, Rmax_left by lra.
    replace (norm3 (V3 (1 + e) 0 0)) with (1 + e).
    2:{ unfold norm3, norm3sq, dot3; cbn [x3 y3 z3]. replace ((1 + e) * (1 + e) + 0 * 0 + 0 * 0) with ((1 + e) * (1 + e)) by ring. rewrite sqrt_square; lra. }
    replace (k / k) with 1 by (field; lra). rewrite pow1, INR_IZR_INZ, Z2Nat.id by lia.
    replace (1 * k * (1/2 / IZR n)) with (2 * e) by (unfold e; field; lra). lra.
  - intros ((_ & H) & _). revert H. cbn. rmm; lra.
Qed.
(** With plain math.Min the union respects Bounds (part of C29), and so does any blend that
    never goes below the minimum. *)
Theorem C32_plain_partial mn g m l s : (forall a b, Rmin a b <= mn a b) ->
  (forall x, In (Some x) l -> dom3 g m x) -> union3d_min mn l = Ok s -> dom3 g m s.
Proof.
  intros M H U. unfold union3d_min in U. destruct (length l <? 2)%nat eqn:L; [discriminate|].
  destruct (all_some l) as [ss|] eqn:A; [|discriminate]. destruct ss as [|a ss]; [discriminate|]. inversion U. clear U.
  assert (X : exists s', union3d l = Ok s') by (unfold union3d, union3d_min; rewrite L, A; eauto).
  destruct X as (s' & X). pose proof (dom3_union g m l s' H X) as D. revert X. unfold union3d, union3d_min. rewrite L, A. intros X. inversion X. subst s'. clear X.
  eapply dom3_ge; [|  |exact D]; [reflexivity|]. intros p. cbn [ev3 union_eval3].
  assert (F : forall r d e, d <= e -> fold_left (fun d x => Rmin d (ev3 x p)) r d <= fold_left (fun d x => mn d (ev3 x p)) r e).
  { intros r. induction r as [|x r IH]; intros d e De; cbn [fold_left]; [auto|]. apply IH.
    eapply Rle_trans; [|apply M]. clear - De. rmm; lra. }
  apply F. lra.
Qed.

(** How far a blended union can bulge: a blend that goes at most e below the minimum keeps
    a union of N operands inside Bounds grown by (N - 1) e on every side; for MinPoly
    e = k/(2n) (C50_min_poly), for MinExp e = ln 2 / k (C50_min_exp). *)
Theorem C32_blend_grown_partial mn e g m l s p : 0 <= e -> (forall a b, Rmin a b - e <= mn a b) -> g <> Contain ->
  (forall x, In (Some x) l -> dom3 g m x) -> union3d_min mn l = Ok s -> INR (length l - 1) * e < m ->
  ev3 s p < 0 -> in3 (grow3 (bb3 s) (INR (length l - 1) * e)) p.
Proof.
  intros He M G H U Hm N. destruct (union3d_min_ok mn l s U) as (a & b & r & El & Es).
  set (ss := a :: b :: r) in *.
  assert (F : forall r d, exists x, (x = d \/ exists y, In y r /\ x = ev3 y p) /\ x - INR (length r) * e <= fold_left (fun d x => mn d (ev3 x p)) r d).
  { clear - M He. intros r. induction r as [|x r IH]; intros d; [exists d; cbn; split; [auto|lra]|].
    cbn [fold_left length]. rewrite S_INR. destruct (IH (mn d (ev3 x p))) as (v & V & L). destruct V as [->|(y & Y & ->)].
    - specialize (M d (ev3 x p)). unfold Rmin in M. destruct (Rle_dec d (ev3 x p)); [exists d|exists (ev3 x p)]; (split; [|lra]).
      + now left. + right. exists x. cbn; auto.
    - exists (ev3 y p). split; [right; exists y; cbn; auto|lra]. }
  assert (X : exists x, In x ss /\ ev3 x p - INR (length l - 1) * e <= ev3 s p).
  { subst s. cbn [ev3]. unfold ss, union_eval3. destruct (F (b :: r) (ev3 a p)) as (v & V & L).
    rewrite El, map_length. change (length ss) with (S (length (b :: r))). rewrite Nat.sub_succ, Nat.sub_0_r.
    destruct V as [->|(y & Y & ->)]; [exists a|exists y]; cbn [In]; auto. }
  destruct X as (x & X & L). set (k := INR (length l - 1) * e) in *. clearbody k.
  assert (D : dom3 g m x) by (apply H; rewrite El; apply in_map; exact X).
  assert (Q : in3 (grow3 (bb3 x) (ev3 x p)) p).
  { specialize (D p ltac:(lra)). destruct g; cbn [G3] in D; [now apply near3_axis|exact D|congruence]. }
  assert (B : box_le3 (bb3 x) (bb3 s)) by (subst s; apply (union_box3_le (bb3 a) ss); auto).
  revert Q B L N. unfold in3, box_le3, grow3. cbn. clear. intros. lra.
Qed.

(** ** C76: polynomial blends of 1-Lipschitz fields are 1-Lipschitz. *)
(** A blend that does not spread values apart, and what it does to a union. *)
Definition nonspreading (f : R -> R -> R) : Prop :=
  forall a b a' b' r, Rabs (a - a') <= r -> Rabs (b - b') <= r -> Rabs (f a b - f a' b') <= r.
Lemma min_poly_mono k n a b a' b' : (1 <= n)%Z -> 0 < k -> a <= a' -> b <= b' -> min_poly n k a b <= min_poly n k a' b'.
Proof.
  intros N K. destruct (Z.eq_dec n 1) as [->|].
  { intros A B. unfold min_poly. cbn [Z.ltb Z.compare Z.eqb Pos.eqb]. rewrite (proj2 (Rleb_false k 0)) by auto. cbn. rmm; lra. }
  assert (P : 0 < IZR n) by (apply IZR_lt; lia).
  assert (I : INR (Z.to_nat n) = IZR n) by (rewrite INR_IZR_INZ, Z2Nat.id by lia; reflexivity).
  (* the dip at distance d *)
  set (g := fun d => mix_h k d ^ Z.to_nat n * k * (1/2 / INR (Z.to_nat n))).
  assert (G : forall d e, 0 <= d <= e -> 0 <= g d - g e <= (e - d) / 2).
  { intros d e D. pose proof (mix_h_lip k d e K D) as L. pose proof (mix_h_range k d K ltac:(lra)) as R1. pose proof (mix_h_range k e K ltac:(lra)) as R2.
    destruct (pow_lip (mix_h k d) (mix_h k e) (Z.to_nat n)) as (P1 & P2); [lra|lra|]. unfold g. rewrite I in *.
    set (x := mix_h k d) in *. set (y := mix_h k e) in *. set (X := x ^ Z.to_nat n) in *. set (Y := y ^ Z.to_nat n) in *.
    replace (X * k * (1/2 / IZR n) - Y * k * (1/2 / IZR n)) with ((X - Y) * (k / (2 * IZR n))) by (field; lra).
    assert (Q : 0 < k / (2 * IZR n)) by (unfold Rdiv; apply Rmult_lt_0_compat; [auto|apply Rinv_0_lt_compat; lra]).
    split; [apply Rmult_le_pos; lra|].
    apply Rle_trans with (IZR n * ((e - d) / k) * (k / (2 * IZR n))).
    - apply Rmult_le_compat_r; [lra|]. eapply Rle_trans; [apply P2|]. apply Rmult_le_compat_l; lra.
    - right. field. lra. }
  assert (F : forall a b, min_poly n k a b = Rmin a b - g (Rabs (a - b))).
  { intros x y. rewrite C50_special_cases by (auto; lia). reflexivity. }
  assert (One : forall a b c, a <= c -> Rmin a b - g (Rabs (a - b)) <= Rmin c b - g (Rabs (c - b))).
  { intros x y z L. destruct (Rle_or_lt z y) as [Z|Z].
    - rewrite !Rmin_left by lra. rewrite (Rabs_left1 (x - y)), (Rabs_left1 (z - y)) by lra.
      destruct (G (- (z - y)) (- (x - y))); lra.
    - destruct (Rle_or_lt y x) as [Y|Y].
      + rewrite !Rmin_right by lra. rewrite !Rabs_right by lra. destruct (G (x - y) (z - y)); lra.
      + rewrite (Rmin_left x y), (Rmin_right z y) by lra. rewrite (Rabs_left (x - y)), (Rabs_right (z - y)) by lra.
        destruct (G 0 (- (x - y))); [lra|]. destruct (G 0 (z - y)); lra. }
  intros A B. rewrite !F. eapply Rle_trans; [apply (One a b a' A)|].
  rewrite (Rmin_comm a' b), (Rmin_comm a' b'), (Rabs_minus_sym a' b), (Rabs_minus_sym a' b'). now apply One.
Qed.
Lemma min_poly_shift k n a b t : (1 <= n)%Z -> 0 < k -> min_poly n k (a + t) (b + t) = min_poly n k a b + t.
Proof.
  intros N K. destruct (Z.eq_dec n 1) as [->|].
  { unfold min_poly. cbn [Z.ltb Z.compare Z.eqb Pos.eqb]. rewrite (proj2 (Rleb_false k 0)) by auto. cbn. rmm; lra. }
  rewrite !C50_special_cases by (auto; lia). unfold min_poly_gen. replace (a + t - (b + t)) with (a - b) by ring.
  replace (Rmin (a + t) (b + t)) with (Rmin a b + t) by (rmm; lra). ring.
Qed.
Theorem C76_min_poly k n : (1 <= n)%Z -> 0 < k -> nonspreading (min_poly n k).
Proof.
  intros N K a b a' b' r A B. apply Rabs_le.
  assert (A' : a' - r <= a <= a' + r) by (clear - A; rmm; lra). assert (B' : b' - r <= b <= b' + r) by (clear - B; rmm; lra).
  assert (L : min_poly n k (a' + - r) (b' + - r) <= min_poly n k a b) by (apply min_poly_mono; auto; lra).
  assert (U : min_poly n k a b <= min_poly n k (a' + r) (b' + r)) by (apply min_poly_mono; auto; lra).
  rewrite min_poly_shift in L, U by auto. lra.
Qed.
Lemma nonspreading_min : nonspreading Rmin.
Proof. intros a b a' b' r A B. revert A B. rmm; lra. Qed.
Lemma nonspreading_dual f : nonspreading f -> nonspreading (fun a b => - f (- a) (- b)).
Proof.
  intros F a b a' b' r A B. replace (- f (- a) (- b) - - f (- a') (- b')) with (- (f (- a) (- b) - f (- a') (- b'))) by ring.
  rewrite Rabs_Ropp. apply F; [replace (- a - - a') with (- (a - a')) by ring|replace (- b - - b') with (- (b - b')) by ring]; now rewrite Rabs_Ropp.
Qed.
Theorem C76_union mn l s : nonspreading mn -> (forall x, In (Some x) l -> lip3 (ev3 x)) -> union3d_min mn l = Ok s -> lip3 (ev3 s).
Proof.
  intros M H U. unfold union3d_min in U. destruct (length l <? 2)%nat; [discriminate|].
  destruct (all_some l) as [ss|] eqn:A; [|discriminate].
  assert (I : forall x, In x ss -> In (Some x) l).
  { clear - A. revert ss A. induction l as [|[y|] l IH]; cbn; intros ss A x X; [inversion A; subst; destruct X| |discriminate].
    destruct (all_some l) as [t|]; [|discriminate]. inversion A. subst ss. destruct X as [->|X]; [now left|right; eauto]. }
  destruct ss as [|a ss]; [discriminate|]. inversion U. clear U. intros p q. cbn [ev3 union_eval3].
  assert (F : forall r d e, (forall x, In x r -> In x (a :: ss)) -> Rabs (d - e) <= dist3 p q ->
    Rabs (fold_left (fun d x => mn d (ev3 x p)) r d - fold_left (fun d x => mn d (ev3 x q)) r e) <= dist3 p q).
  { intros r. induction r as [|x r IH]; intros d e S D; cbn [fold_left]; [auto|]. apply IH; [intros; apply S; now right|].
    apply M; [auto|]. apply H, I, S. now left. }
  apply F; [intros; now right|]. apply H, I. now left.
Qed.
Theorem C76_difference_intersection mx s0 s1 : nonspreading mx -> lip3 (ev3 s0) -> lip3 (ev3 s1) ->
  lip3 (ev3 (diff3_max mx s0 s1)) /\ lip3 (ev3 (inter3_max mx s0 s1)).
Proof.
  intros M A B. split; intros p q; cbn [diff3_max inter3_max ev3]; apply M; auto.
  replace (- ev3 s1 p - - ev3 s1 q) with (- (ev3 s1 p - ev3 s1 q)) by ring. rewrite Rabs_Ropp. auto.
Qed.
(** MinRound and the chamfer spread values by up to the square root of two. *)
Theorem C76_round_chamfer_refuted : ~ nonspreading (min_round 1) /\ ~ nonspreading (min_poly 0 1).
Proof.
  assert (S : sqrt 2 * sqrt 2 = 2) by (apply sqrt_sqrt; lra). assert (P := sqrt_pos 2).
  split; intros H.
  - specialize (H 0 0 1 1 1). unfold min_round in H. rewrite (Rmin_left 0 0), (Rmin_left 1 1), (Rmax_left (1 - 0) 0), (Rmax_left 1 0) in H by lra.
    replace (1 - 1) with 0 in H by ring. rewrite (Rmax_left 0 0), (Rmax_left 1 1) in H by lra.
    replace (norm2 (V2 (1 - 0) (1 - 0))) with (sqrt 2) in H by (unfold norm2, norm2sq, dot2; cbn [x2 y2]; f_equal; ring).
    replace (norm2 (V2 0 0)) with 0 in H by (unfold norm2, norm2sq, dot2; cbn [x2 y2]; replace (0 * 0 + 0 * 0) with 0 by ring; now rewrite sqrt_0).
    assert (Q : Rabs (0 - 1) <= 1) by (rewrite Rabs_left; lra). specialize (H Q Q). set (t := sqrt 2) in *. clearbody t.
    assert (1 < t) by nra. rewrite Rabs_left in H by lra. lra.
  - specialize (H (-2) (-2) (-1) (-1) 1). unfold min_poly in H. cbn [Z.ltb Z.compare Z.eqb Pos.eqb] in H. rewrite (proj2 (Rleb_false 1 0)) in H by lra. cbn [orb] in H.
    assert (S2 : sqrt (1/2) * sqrt (1/2) = 1/2) by (apply sqrt_sqrt; lra). pose proof (sqrt_pos (1/2)) as P2. set (s := sqrt (1/2)) in *. clearbody s.
    assert (B : 7/10 < s < 71/100) by (split; nra).
    rewrite (Rmin_left (-2) (-2)), (Rmin_left (-1) (-1)) in H by lra. rewrite !Rmin_right in H by nra.
    assert (Q : Rabs (-2 - -1) <= 1) by (rewrite Rabs_left; lra). specialize (H Q Q). rewrite Rabs_left in H by nra. nra.
Qed.
