(** C31: compositions of 1-Lipschitz shapes are 1-Lipschitz. *)
From Coq Require Import Reals Lra Lia List Bool ZArith.
From Verif Require Import Prelude Vec BoxModel MatrixModel PropsBox PropsMatrix SdfModel SdfLemmas PropsBool Trig
  Grades GradesOps GradesSweep GradesCopy GradesRest Distance PrimModel PrimCores PropsPrim BlendModel PropsBlend PropsUnion2.
Import ListNotations.
Local Open Scope R_scope.

Lemma nonspreading_max : nonspreading Rmax.
Proof. intros a b a' b' r A B. revert A B. rmm; lra. Qed.
Lemma lip3_max f g : lip3 f -> lip3 g -> lip3 (fun p => Rmax (f p) (g p)).
Proof. intros F G p q. apply nonspreading_max; auto. Qed.
Lemma lip2_max f g : lip2 f -> lip2 g -> lip2 (fun p => Rmax (f p) (g p)).
Proof. intros F G p q. apply nonspreading_max; auto. Qed.
Lemma lip3_min f g : lip3 f -> lip3 g -> lip3 (fun p => Rmin (f p) (g p)).
Proof. intros F G p q. apply nonspreading_min; auto. Qed.
Lemma lip3_const c : lip3 (fun _ => c).
Proof. intros p q. rewrite Rminus_diag_eq, Rabs_R0 by reflexivity. apply dist3_nonneg. Qed.
Lemma lip2_const c : lip2 (fun _ => c).
Proof. intros p q. rewrite Rminus_diag_eq, Rabs_R0 by reflexivity. apply dist2_nonneg. Qed.
Lemma lip3_plane n a : norm3sq n = 1 -> lip3 (fun p => dot3 n (sub3 p a)).
Proof.
  intros N p q. replace (_ - _) with (dot3 n (sub3 p q)) by (unfold dot3; cbn; ring).
  assert (N1 : norm3 n = 1) by (unfold norm3; rewrite N; apply sqrt_1).
  pose proof (cauchy3 n (sub3 p q)) as A. pose proof (cauchy3 n (sub3 q p)) as B. rewrite N1, Rmult_1_l in A, B.
  fold (dist3 p q) in A. fold (dist3 q p) in B. rewrite dist3_sym in B.
  apply Rabs_le. replace (dot3 n (sub3 q p)) with (- dot3 n (sub3 p q)) in B by (unfold dot3; cbn; ring). lra.
Qed.
Lemma lip2_plane n a : norm2sq n = 1 -> lip2 (fun p => dot2 n (sub2 p a)).
Proof.
  intros N p q. replace (_ - _) with (dot2 n (sub2 p q)) by (unfold dot2; cbn; ring).
  assert (N1 : norm2 n = 1) by (unfold norm2; rewrite N; apply sqrt_1).
  pose proof (cauchy2 n (sub2 p q)) as A. pose proof (cauchy2 n (sub2 q p)) as B. rewrite N1, Rmult_1_l in A, B.
  fold (dist2 p q) in A. fold (dist2 q p) in B. rewrite dist2_sym in B.
  apply Rabs_le. replace (dot2 n (sub2 q p)) with (- dot2 n (sub2 p q)) in B by (unfold dot2; cbn; ring). lra.
Qed.
(** ** Booleans, cuts, levels *)
Lemma lip3_cut s a n : n <> zero3 -> lip3 (ev3 s) -> lip3 (ev3 (cut3d s a n)).
Proof.
  intros N L. apply lip3_max; [|exact L]. apply lip3_plane. pose proof (PropsMatrix.unit3_norm n N) as U.
  etransitivity; [|exact U]. unfold norm3sq, dot3; cbn; ring.
Qed.
Lemma lip2_cut s a v : v <> zero2 -> lip2 (ev2 s) -> lip2 (ev2 (cut2d s a v)).
Proof.
  intros N L. apply lip2_max; [|exact L]. apply lip2_plane. pose proof (unit2_norm v N) as U.
  etransitivity; [|exact U]. unfold norm2sq, dot2; cbn; ring.
Qed.
Lemma lip3_diff mx s0 s1 s : nonspreading mx -> lip3 (ev3 s0) -> lip3 (ev3 s1) -> difference3d_max mx (Some s0) (Some s1) = Ok s -> lip3 (ev3 s).
Proof. intros M A B E. inversion E. now apply C76_difference_intersection. Qed.
Lemma lip3_inter mx s0 s1 s : nonspreading mx -> lip3 (ev3 s0) -> lip3 (ev3 s1) -> intersect3d_max mx (Some s0) (Some s1) = Ok s -> lip3 (ev3 s).
Proof. intros M A B E. inversion E. now apply C76_difference_intersection. Qed.
Lemma lip2_diff mx s0 s1 s : nonspreading mx -> lip2 (ev2 s0) -> lip2 (ev2 s1) -> difference2d_max mx (Some s0) (Some s1) = Ok s -> lip2 (ev2 s).
Proof.
  intros M A B E. inversion E. intros p q; cbn [diff2_max ev2]; apply M; auto.
  replace (- ev2 s1 p - - ev2 s1 q) with (- (ev2 s1 p - ev2 s1 q)) by ring. rewrite Rabs_Ropp. auto.
Qed.
Lemma lip2_inter mx s0 s1 s : nonspreading mx -> lip2 (ev2 s0) -> lip2 (ev2 s1) -> intersect2d_max mx (Some s0) (Some s1) = Ok s -> lip2 (ev2 s).
Proof. intros M A B E. inversion E. intros p q; cbn [inter2_max ev2]; apply M; auto. Qed.
Lemma lip3_offset s d : lip3 (ev3 s) -> lip3 (ev3 (offset3d s d)).
Proof. intros L p q. cbn [ev3 offset3d]. replace (_ - _ - _) with (ev3 s p - ev3 s q) by ring. auto. Qed.
Lemma lip2_offset s d : lip2 (ev2 s) -> lip2 (ev2 (offset2d s d)).
Proof. intros L p q. cbn [ev2 offset2d]. replace (_ - _ - _) with (ev2 s p - ev2 s q) by ring. auto. Qed.
Lemma lip3_shell s t : lip3 (ev3 s) -> lip3 (ev3 (shell3d s t)).
Proof.
  intros L. unfold shell3d. destruct (Rleb t 0); [exact (lip3_const max_float64)|]. intros p q. cbn [ev3]. specialize (L p q).
  set (a := ev3 s p) in *. set (b := ev3 s q) in *. clearbody a b. revert L. rmm; lra.
Qed.
(** ** Domain maps that bring points no farther apart *)
Lemma lip3_map f (g : v3 -> v3) : lip3 f -> (forall p q, dist3 (g p) (g q) <= dist3 p q) -> lip3 (fun p => f (g p)).
Proof. intros L G p q. eapply Rle_trans; [apply L|apply G]. Qed.
Lemma lip2_map f (g : v2 -> v2) : lip2 f -> (forall p q, dist2 (g p) (g q) <= dist2 p q) -> lip2 (fun p => f (g p)).
Proof. intros L G p q. eapply Rle_trans; [apply L|apply G]. Qed.
Lemma lip23_map f (g : v3 -> v2) : lip2 f -> (forall p q, dist2 (g p) (g q) <= dist3 p q) -> lip3 (fun p => f (g p)).
Proof. intros L G p q. eapply Rle_trans; [apply L|apply G]. Qed.
Lemma unclamp a b x y : a <= b -> Rabs (x - clampR x a b - (y - clampR y a b)) <= Rabs (x - y).
Proof. unfold clampR. intros. rmm; lra. Qed.
Lemma lip3_elongate s h : lip3 (ev3 s) -> lip3 (ev3 (elongate3d s h)).
Proof.
  intros L. cbn [ev3 elongate3d]. apply (lip3_map (ev3 s)); [exact L|]. intros p q. apply norm3_le_of. unfold norm3sq, dot3.
  cbn [x3 y3 z3 sub3 clamp3 scale3 abs3].
  pose proof (Rabs_pos (x3 h)). pose proof (Rabs_pos (y3 h)). pose proof (Rabs_pos (z3 h)).
  apply Rplus_le_compat; [apply Rplus_le_compat|]; apply sq_abs_le, unclamp; lra.
Qed.
Lemma lip2_elongate s h : lip2 (ev2 s) -> lip2 (ev2 (elongate2d s h)).
Proof.
  intros L. cbn [ev2 elongate2d]. apply (lip2_map (ev2 s)); [exact L|]. intros p q. apply norm2_le_of. unfold norm2sq, dot2.
  cbn [x2 y2 sub2 clamp2 scale2 abs2].
  apply Rplus_le_compat; apply sq_abs_le, unclamp; lra.
Qed.
Definition iso3 (m : m44) := affine3 m /\ det44 m <> 0 /\ isometry3 (mul_pos3 m).
Definition iso2 (m : m33) := affine2 m /\ det33 m <> 0 /\ isometry2 (mul_pos2 m).
Lemma iso3_inv m : iso3 m -> isometry3 (mul_pos3 (inverse44 m)).
Proof. intros (A & D & I) p q. rewrite <- (I (mul_pos3 (inverse44 m) p)). now rewrite !(proj2 (inv_pos3 m _ A D)). Qed.
Lemma iso2_inv m : iso2 m -> isometry2 (mul_pos2 (inverse33 m)).
Proof. intros (A & D & I) p q. rewrite <- (I (mul_pos2 (inverse33 m) p)). now rewrite !(proj2 (inv_pos2 m _ A D)). Qed.
Lemma lip3_transform s m : iso3 m -> lip3 (ev3 s) -> lip3 (ev3 (transform3 s m)).
Proof. intros I L. apply (lip3_map (ev3 s)); [exact L|]. intros p q. rewrite (iso3_inv m I). lra. Qed.
Lemma lip2_transform s m : iso2 m -> lip2 (ev2 s) -> lip2 (ev2 (transform2d s m)).
Proof. intros I L. apply (lip2_map (ev2 s)); [exact L|]. intros p q. rewrite (iso2_inv m I). lra. Qed.
Lemma iso3_translate v : iso3 (translate3d v).
Proof. destruct (translate3_keeps Euclid v) as (A & D & K). split; [exact A|]. split; [exact D|exact K]. Qed.
Lemma iso2_translate v : iso2 (translate2d v).
Proof. destruct (translate2_keeps Euclid v) as (A & D & K). split; [exact A|]. split; [exact D|exact K]. Qed.
Lemma lip3_scale s k : k <> 0 -> lip3 (ev3 s) -> lip3 (ev3 (scale_uniform3d s k)).
Proof.
  intros K L p q. cbn [ev3 scale_uniform3d]. rewrite <- Rmult_minus_distr_r, Rabs_mult.
  pose proof (L (scale3 (1 / k) p) (scale3 (1 / k) q)) as H.
  assert (E : dist3 (scale3 (1 / k) p) (scale3 (1 / k) q) * Rabs k = dist3 p q).
  { unfold dist3. rewrite <- Rmult_comm, <- norm3_scale. f_equal. apply v3_ext; cbn; field; exact K. }
  rewrite <- E. apply Rmult_le_compat_r; [apply Rabs_pos|exact H].
Qed.
Lemma lip2_scale s k : k <> 0 -> lip2 (ev2 s) -> lip2 (ev2 (scale_uniform2d s k)).
Proof.
  intros K L p q. cbn [ev2 scale_uniform2d]. rewrite <- Rmult_minus_distr_r, Rabs_mult.
  pose proof (L (scale2 (1 / k) p) (scale2 (1 / k) q)) as H.
  assert (E : dist2 (scale2 (1 / k) p) (scale2 (1 / k) q) * Rabs k = dist2 p q).
  { unfold dist2. rewrite <- Rmult_comm, <- norm2_scale. f_equal. apply v2_ext; cbn; field; exact K. }
  rewrite <- E. apply Rmult_le_compat_r; [apply Rabs_pos|exact H].
Qed.
(** ** Copies *)
Lemma fold_lip {A} (mn : R -> R -> R) (f g : A -> R) r l : nonspreading mn -> (forall x, In x l -> Rabs (f x - g x) <= r) ->
  forall d e, Rabs (d - e) <= r -> Rabs (fold_left (fun d x => mn d (f x)) l d - fold_left (fun d x => mn d (g x)) l e) <= r.
Proof.
  intros M. induction l as [|x l IH]; intros H d e D; cbn [fold_left]; [exact D|]. apply IH; [intros; apply H; now right|].
  apply M; [exact D|]. apply H. now left.
Qed.
Lemma dist3_shift p q o : dist3 (sub3 p o) (sub3 q o) = dist3 p q.
Proof. unfold dist3. f_equal. apply v3_ext; cbn; ring. Qed.
Lemma dist2_shift p q o : dist2 (sub2 p o) (sub2 q o) = dist2 p q.
Proof. unfold dist2. f_equal. apply v2_ext; cbn; ring. Qed.
Lemma lip3_array mn s n0 n1 n2 st : nonspreading mn -> lip3 (ev3 s) -> lip3 (ev3 (array3d_min mn s n0 n1 n2 st)).
Proof.
  intros M L. unfold array3d_min. destruct (_ || _)%bool; [exact (lip3_const max_float64)|]. intros p q. cbn [ev3]. rewrite !array3_eval_fold.
  apply fold_lip; [exact M| |rewrite Rminus_diag_eq, Rabs_R0 by reflexivity; apply dist3_nonneg].
  intros o _. rewrite <- (dist3_shift p q o). apply L.
Qed.
Lemma lip2_array mn s n0 n1 st : nonspreading mn -> lip2 (ev2 s) -> lip2 (ev2 (array2d_min mn s n0 n1 st)).
Proof.
  intros M L. unfold array2d_min. destruct (_ || _)%bool; [exact (lip2_const max_float64)|]. intros p q. cbn [ev2]. rewrite !array2_eval_fold.
  apply fold_lip; [exact M| |rewrite Rminus_diag_eq, Rabs_R0 by reflexivity; apply dist2_nonneg].
  intros o _. rewrite <- (dist2_shift p q o). apply L.
Qed.
Lemma lip3_rotate_union mn s n st s' : nonspreading mn -> iso3 st -> lip3 (ev3 s) -> rotate_union3d_min mn s n st = Ok s' -> lip3 (ev3 s').
Proof.
  intros M I L. unfold rotate_union3d_min. destruct (n <=? 0)%Z; [intros E; inversion E; exact (lip3_const max_float64)|]. cbn [vertices3 bind].
  match goal with |- context [ru_box3 ?n ?st ?v ?a ?b] => destruct (ru_box3_ok st n v a b) as (bb & E) end; [discriminate|].
  rewrite E. cbn [bind]. intros H. inversion H. intros p q. cbn [ev3]. destruct I as (A & D & I).
  rewrite !ru_eval3_fold by (now apply affine3_inverse). apply fold_lip; [exact M| |rewrite Rminus_diag_eq, Rabs_R0 by reflexivity; apply dist3_nonneg].
  intros i _. rewrite !identity_pos3. rewrite <- (placed3_isometry (inverse44 st) i) by (apply iso3_inv; split; auto). apply L.
Qed.
Lemma lip2_rotate_union mn s n st s' : nonspreading mn -> iso2 st -> lip2 (ev2 s) -> rotate_union2d_min mn s n st = Ok s' -> lip2 (ev2 s').
Proof.
  intros M I L. unfold rotate_union2d_min. destruct (n <=? 0)%Z; [intros E; inversion E; exact (lip2_const max_float64)|]. cbn [vertices2 bind].
  match goal with |- context [ru_box2 ?n ?st ?v ?a ?b] => destruct (ru_box2_ok st n v a b) as (bb & E) end; [discriminate|].
  rewrite E. cbn [bind]. intros H. inversion H. intros p q. cbn [ev2]. destruct I as (A & D & I).
  rewrite !ru_eval2_fold by (now apply affine2_inverse). apply fold_lip; [exact M| |rewrite Rminus_diag_eq, Rabs_R0 by reflexivity; apply dist2_nonneg].
  intros i _. rewrite !identity_pos2. rewrite <- (placed2_isometry (inverse33 st) i) by (apply iso2_inv; split; auto). apply L.
Qed.
Lemma lip3_line_of s p0 p1 pat s' : lip3 (ev3 s) -> line_of3d (Some s) p0 p1 pat = Ok s' -> lip3 (ev3 s').
Proof.
  intros L. unfold line_of3d. destruct pat as [|c r]; [discriminate|]. apply C76_union; [apply nonspreading_min|].
  intros x I. apply line_of_in in I. destruct I as (z & E). inversion E. apply lip3_transform; [apply iso3_translate|exact L].
Qed.
Lemma lip3_multi s ps s' : lip3 (ev3 s) -> multi3d (Some s) ps = Ok s' -> lip3 (ev3 s').
Proof.
  intros L. unfold multi3d. destruct ps as [|c r]; [intros E; inversion E; exact (lip3_const max_float64)|]. apply C76_union; [apply nonspreading_min|].
  intros x I. apply in_map_iff in I. destruct I as (z & E & _). inversion E. apply lip3_transform; [apply iso3_translate|exact L].
Qed.
Lemma lip3_orient s base ds s' : lip3 (ev3 s) -> orient3d (Some s) base ds = Ok s' -> lip3 (ev3 s').
Proof.
  intros L. unfold orient3d. destruct ds as [|c r]; [intros E; inversion E; exact (lip3_const max_float64)|]. apply C76_union; [apply nonspreading_min|].
  intros x I. apply in_map_iff in I. destruct I as (z & E & _). inversion E. apply lip3_transform; [apply rotate_to_vec_rigid|exact L].
Qed.
(** ** Sweeps and sections *)
Lemma xy_contracts p q : dist2 (xy p) (xy q) <= dist3 p q.
Proof.
  unfold dist2, dist3, norm2, norm3. apply sqrt_le_1_alt. unfold norm2sq, norm3sq, dot2, dot3; cbn.
  pose proof (Rle_0_sqr (z3 p - z3 q)) as Z. unfold Rsqr in Z. lra.
Qed.
Lemma lip3_height h : lip3 (fun p => Rabs (z3 p) - h).
Proof.
  intros p q. destruct (abs_le_norm3 (sub3 p q)) as (_ & _ & Z). fold (dist3 p q) in Z. cbn [z3 sub3] in Z. revert Z. clear. rmm; lra.
Qed.
Lemma lip3_extrude s h : lip2 (ev2 s) -> lip3 (ev3 (extrude3d s h)).
Proof. intros L. apply lip3_max; [|apply lip3_height]. apply (lip23_map (ev2 s)); [exact L|apply xy_contracts]. Qed.
(** The corner combination is the exact distance to a quadrant. *)
Lemma quad_sdist p : sdist dist2 (fun q => x2 q <= 0 /\ y2 q <= 0) p (quad (x2 p) (y2 p)).
Proof.
  destruct p as [a b]. cbn [x2 y2]. unfold quad.
  assert (DX : forall q, a - x2 q <= dist2 (V2 a b) q) by (intros q; destruct (abs_le_norm2 (sub2 (V2 a b) q)) as (X & _); cbn in X; fold (dist2 (V2 a b) q) in X; revert X; clear; unfold dist2; rmm; lra).
  assert (DY : forall q, b - y2 q <= dist2 (V2 a b) q) by (intros q; destruct (abs_le_norm2 (sub2 (V2 a b) q)) as (_ & X); cbn in X; fold (dist2 (V2 a b) q) in X; revert X; clear; unfold dist2; rmm; lra).
  assert (DX' : forall q, x2 q - a <= dist2 (V2 a b) q) by (intros q; destruct (abs_le_norm2 (sub2 (V2 a b) q)) as (X & _); cbn in X; fold (dist2 (V2 a b) q) in X; revert X; clear; unfold dist2; rmm; lra).
  assert (DY' : forall q, y2 q - b <= dist2 (V2 a b) q) by (intros q; destruct (abs_le_norm2 (sub2 (V2 a b) q)) as (_ & X); cbn in X; fold (dist2 (V2 a b) q) in X; revert X; clear; unfold dist2; rmm; lra).
  assert (HX : forall t, dist2 (V2 a b) (V2 t b) = Rabs (a - t)).
  { intros t. unfold dist2, norm2, norm2sq, dot2; cbn. replace (_ + _) with (Rsqr (a - t)) by (unfold Rsqr; ring). apply sqrt_Rsqr_abs. }
  assert (HY : forall t, dist2 (V2 a b) (V2 a t) = Rabs (b - t)).
  { intros t. unfold dist2, norm2, norm2sq, dot2; cbn. replace (_ + _) with (Rsqr (b - t)) by (unfold Rsqr; ring). apply sqrt_Rsqr_abs. }
  destruct (Rltb 0 b) eqn:B; [apply Rltb_true in B|apply Rltb_false in B]; (destruct (Rltb a 0) eqn:A; [apply Rltb_true in A|apply Rltb_false in A]).
  - split; intros V; [|lra]. split; [exists (V2 a 0); cbn [x2 y2]; split; [lra|rewrite HY, Rabs_right; lra]|].
    intros q (X & Y). specialize (DY q). lra.
  - assert (P : 0 < hypot a b) by (unfold hypot; apply sqrt_lt_R0; nra).
    split; intros V; [|lra]. split.
    + exists zero2. cbn [x2 y2 zero2]. split; [lra|]. unfold hypot, dist2, norm2, norm2sq, dot2; cbn. apply sqrt_le_1_alt. nra.
    + intros q (X & Y). unfold hypot, dist2, norm2, norm2sq, dot2; cbn. apply sqrt_le_1_alt. nra.
  - assert (M : a <= Rmax a b /\ b <= Rmax a b /\ (Rmax a b = a \/ Rmax a b = b)) by (clear; rmm; lra). set (m := Rmax a b) in *. clearbody m.
    split; intros V.
    + split; [exists (V2 a b); cbn [x2 y2]; split; [lra|rewrite dist2_refl; exact V]|]. intros q _. pose proof (dist2_nonneg (V2 a b) q). lra.
    + split.
      * intros q Q. specialize (DX' q). specialize (DY' q). lra.
      * intros e He. destruct M as (_ & _ & [M|M]).
        -- exists (V2 (e / 2) b). cbn [x2 y2]. split; [lra|]. rewrite HX, Rabs_left by lra. lra.
        -- exists (V2 a (e / 2)). cbn [x2 y2]. split; [lra|]. rewrite HY, Rabs_left by lra. lra.
  - split; intros V.
    + split; [exists (V2 0 b); cbn [x2 y2]; split; [lra|rewrite HX, Rabs_right; lra]|].
      intros q (X & Y). specialize (DX q). lra.
    + assert (a = 0) by lra. subst a. split.
      * intros q Q. specialize (DX' q). specialize (DY' q). lra.
      * intros e He. exists (V2 (e / 2) b). cbn [x2 y2]. split; [lra|]. rewrite HX, Rabs_left by lra. lra.
Qed.
Lemma quad_lip p q : Rabs (quad (x2 p) (y2 p) - quad (x2 q) (y2 q)) <= dist2 p q.
Proof. apply (sdist_lip2 _ (fun p => quad (x2 p) (y2 p)) quad_sdist). Qed.
Lemma lip3_quad s h : lip2 (ev2 s) -> lip3 (fun p => quad (ev2 s (xy p)) (Rabs (z3 p) - h)).
Proof.
  intros L p q. eapply Rle_trans; [apply (quad_lip (V2 (ev2 s (xy p)) (Rabs (z3 p) - h)) (V2 (ev2 s (xy q)) (Rabs (z3 q) - h)))|].
  unfold dist2, dist3, norm2, norm3. apply sqrt_le_1_alt. unfold norm2sq, norm3sq, dot2, dot3; cbn [x2 y2 x3 y3 z3 sub2 sub3].
  specialize (L (xy p) (xy q)).
  assert (A : (ev2 s (xy p) - ev2 s (xy q)) * (ev2 s (xy p) - ev2 s (xy q)) <= dist2 (xy p) (xy q) * dist2 (xy p) (xy q)).
  { apply sq_abs_le. rewrite (Rabs_right (dist2 _ _)); [exact L|apply Rle_ge, dist2_nonneg]. }
  assert (B : (Rabs (z3 p) - h - (Rabs (z3 q) - h)) * (Rabs (z3 p) - h - (Rabs (z3 q) - h)) <= (z3 p - z3 q) * (z3 p - z3 q)).
  { apply sq_abs_le. clear. rmm; lra. }
  unfold dist2 in A. rewrite norm2_sq in A. unfold norm2sq, dot2 in A. cbn [x2 y2 sub2 xy] in A. lra.
Qed.
Lemma lip3_extrude_rounded s h r s' : lip2 (ev2 s) -> extrude_rounded3d (Some s) h r = Ok s' -> lip3 (ev3 s').
Proof.
  intros L. unfold extrude_rounded3d. destruct (Reqb r 0); [intros E; inversion E; now apply lip3_extrude|].
  destruct (Rleb h 0); [intros E; inversion E; exact (lip3_const max_float64)|]. destruct (Rltb r 0); [intros E; inversion E; exact (lip3_const max_float64)|].
  destruct (Rltb h (2 * r)); intros E; inversion E; [exact (lip3_const max_float64)|]. intros p q. cbn [ev3]. rewrite !round_combine_quad.
  replace (_ - _ - _) with (quad (ev2 s (xy p)) (Rabs (z3 p) - (h / 2 - r)) - quad (ev2 s (xy q)) (Rabs (z3 q) - (h / 2 - r))) by ring.
  apply (lip3_quad s _ L).
Qed.
Lemma lip3_revolve s th s' : lip2 (ev2 s) -> revolve3d (Some s) th = Ok s' -> lip3 (ev3 s').
Proof.
  intros L. unfold revolve3d. destruct (Rleb th 0); [intros E; inversion E; exact (lip3_const max_float64)|].
  match goal with |- context [modR (Rabs ?t) tau] => set (theta := t) end. set (st := modR (Rabs theta) tau).
  match goal with |- context [set_min2 ?v] => destruct (set_min2 v) as [mn| |]; try discriminate; destruct (set_max2 v) as [mx| |]; try discriminate end.
  cbn [bind]. intros E. inversion E. cbn [ev3]. clear E H0.
  assert (A : lip3 (fun p => ev2 s (rho p))) by (apply (lip23_map (ev2 s)); [exact L|apply rho_contracts]).
  assert (Y : lip3 (fun p => - y3 p)).
  { intros p q. destruct (abs_le_norm3 (sub3 p q)) as (_ & Y & _). fold (dist3 p q) in Y. cbn [y3 sub3] in Y. revert Y. clear. rmm; lra. }
  assert (N : lip3 (fun p => dot2 (V2 (- sin st) (cos st)) (xy p))).
  { assert (P : lip2 (fun p => dot2 (V2 (- sin st) (cos st)) (sub2 p zero2))).
    { apply lip2_plane. unfold norm2sq, dot2; cbn. pose proof (sc1 st). lra. }
    pose proof (lip23_map _ xy P xy_contracts) as Q. intros p q. specialize (Q p q). cbn beta in Q.
    replace (sub2 (xy p) zero2) with (xy p) in Q by (apply v2_ext; cbn; ring).
    replace (sub2 (xy q) zero2) with (xy q) in Q by (apply v2_ext; cbn; ring). exact Q. }
  unfold revolve_eval. destruct (negb (Reqb st 0)).
  - destruct (Rltb st PI).
    + exact (lip3_max _ _ A (lip3_max _ _ Y N)).
    + exact (lip3_max _ _ A (lip3_min _ _ Y N)).
  - exact (lip3_max _ _ A A).
Qed.
Lemma lip2_slice s a n s' : n <> zero3 -> lip3 (ev3 s) -> slice2d s a n = Ok s' -> lip2 (ev2 s').
Proof.
  intros N L E. destruct (slice2d_ok s a n N) as (u & v & b & O & _ & S & _). rewrite S in E. inversion E. intros p q. cbn [ev2].
  rewrite <- (plane_at_dist a u v _ p q O). apply L.
Qed.

(** ** Union2D and the 2D lists of copies, for honest members (C49) *)
Lemma honest_dom s : honest s -> forall m, dom2 Euclid m s.
Proof. intros [N _ _] m p _. exact (N p). Qed.
Lemma honest_union l s : (forall x, In (Some x) l -> honest x) -> union2d l = Ok s -> honest s.
Proof.
  intros H U. pose proof U as U'. apply union2d_ok in U'. destruct U' as (a & b & r & El & Es).
  assert (I : forall x, In x (a :: b :: r) -> honest x) by (intros x X; apply H; rewrite El; now apply in_map).
  assert (Lp : lip2 (ev2 s)).
  { subst s. intros p q. cbn [ev2]. rewrite !C49_culling_partial by (discriminate || exact I). unfold union_eval2_slow.
    apply fold_lip; [apply nonspreading_min| |apply I; now left]. intros x X. apply I. now right. }
  split; [|exact Lp|].
  - intros p. assert (D : dom2 Euclid (ev2 s p + 1) s) by (eapply dom2_union; [intros x X; apply honest_dom, H, X|exact U]). apply D. lra.
  - destruct (I a (or_introl eq_refl)) as [_ _ (q & Bq & Eq)]. exists q. subst s. cbn [ev2 bb2]. split.
    + eapply box_le2_in; [|exact Bq]. apply (union_box2_le (bb2 a) (a :: b :: r)). left. now left.
    + rewrite C49_culling_partial by (discriminate || exact I). unfold union_eval2_slow.
      assert (F : forall l d, fold_left (fun d x => Rmin d (ev2 x q)) l d <= d).
      { clear. induction l as [|x l IH]; intros d; cbn [fold_left]; [lra|]. eapply Rle_trans; [apply IH|apply Rmin_l]. }
      eapply Rle_trans; [apply F|exact Eq].
Qed.
Lemma honest_transform s m : iso2 m -> honest s -> honest (transform2d s m).
Proof.
  intros I H. pose proof I as (A & D & K). split.
  - intros p. assert (X : dom2 Euclid (ev2 (transform2d s m) p + 1) (transform2d s m)) by (apply dom2_transform; auto; now apply honest_dom).
    apply X. lra.
  - apply lip2_transform; [exact I|apply H].
  - destruct H as [_ _ (q & Bq & Eq)]. exists (mul_pos2 m q). rewrite ev_transform2, (proj1 (inv_pos2 m q A D)). split; [|exact Eq].
    cbn [bb2 transform2d]. apply C37_mulbox2; [|exact Bq]. eapply ok2_of; eauto.
Qed.
Lemma honest_multi s ps s' : honest s -> multi2d (Some s) ps = Ok s' -> honest s'.
Proof.
  intros H. unfold multi2d. destruct ps as [|c r]; [discriminate|]. apply honest_union.
  intros x I. apply in_map_iff in I. destruct I as (z & E & _). inversion E. apply honest_transform; [apply iso2_translate|exact H].
Qed.
Lemma honest_line_of s p0 p1 pat s' : honest s -> line_of2d (Some s) p0 p1 pat = Ok s' -> honest s'.
Proof.
  intros H. unfold line_of2d. destruct pat as [|c r]; [discriminate|].
  set (os := line_of_objs _ _ _ _ _).
  assert (Ho : forall x, In (Some x) os -> honest x).
  { intros x I. apply line_of_in in I. destruct I as (z & E). inversion E. apply honest_transform; [apply iso2_translate|exact H]. }
  clearbody os. destruct os as [|[o|] [|o' os]]; intros E; try (eapply honest_union; [exact Ho|exact E]).
  inversion E. subst. apply Ho. now left.
Qed.

(** ** Compositions of any depth *)
Inductive fld3 : sdf3 -> Prop :=
| f3_leaf s : lip3 (ev3 s) -> fld3 s
| f3_union mn l s : nonspreading mn -> (forall x, In (Some x) l -> fld3 x) -> union3d_min mn l = Ok s -> fld3 s
| f3_diff mx s0 s1 s : nonspreading mx -> fld3 s0 -> fld3 s1 -> difference3d_max mx (Some s0) (Some s1) = Ok s -> fld3 s
| f3_inter mx s0 s1 s : nonspreading mx -> fld3 s0 -> fld3 s1 -> intersect3d_max mx (Some s0) (Some s1) = Ok s -> fld3 s
| f3_cut s a n : n <> zero3 -> fld3 s -> fld3 (cut3d s a n)
| f3_offset s d : fld3 s -> fld3 (offset3d s d)
| f3_shell s t : fld3 s -> fld3 (shell3d s t)
| f3_elongate s h : fld3 s -> fld3 (elongate3d s h)
| f3_transform s m s' : iso3 m -> fld3 s -> transform3d (Some s) m = Ok s' -> fld3 s'
| f3_scale s k : k <> 0 -> fld3 s -> fld3 (scale_uniform3d s k)
| f3_array mn s n0 n1 n2 st : nonspreading mn -> fld3 s -> fld3 (array3d_min mn s n0 n1 n2 st)
| f3_rotate mn s n st s' : nonspreading mn -> iso3 st -> fld3 s -> rotate_union3d_min mn s n st = Ok s' -> fld3 s'
| f3_line s p0 p1 pat s' : fld3 s -> line_of3d (Some s) p0 p1 pat = Ok s' -> fld3 s'
| f3_multi s ps s' : fld3 s -> multi3d (Some s) ps = Ok s' -> fld3 s'
| f3_orient s base ds s' : fld3 s -> orient3d (Some s) base ds = Ok s' -> fld3 s'
| f3_extrude s h : fld2 s -> fld3 (extrude3d s h)
| f3_rounded s h r s' : fld2 s -> extrude_rounded3d (Some s) h r = Ok s' -> fld3 s'
| f3_revolve s th s' : fld2 s -> revolve3d (Some s) th = Ok s' -> fld3 s'
with fld2 : sdf2 -> Prop :=
| f2_leaf s : lip2 (ev2 s) -> fld2 s
| f2_union l s : (forall x, In (Some x) l -> honest x) -> union2d l = Ok s -> fld2 s
| f2_diff mx s0 s1 s : nonspreading mx -> fld2 s0 -> fld2 s1 -> difference2d_max mx (Some s0) (Some s1) = Ok s -> fld2 s
| f2_inter mx s0 s1 s : nonspreading mx -> fld2 s0 -> fld2 s1 -> intersect2d_max mx (Some s0) (Some s1) = Ok s -> fld2 s
| f2_cut s a v : v <> zero2 -> fld2 s -> fld2 (cut2d s a v)
| f2_offset s d : fld2 s -> fld2 (offset2d s d)
| f2_elongate s h : fld2 s -> fld2 (elongate2d s h)
| f2_transform s m : iso2 m -> fld2 s -> fld2 (transform2d s m)
| f2_scale s k : k <> 0 -> fld2 s -> fld2 (scale_uniform2d s k)
| f2_center s : fld2 s -> fld2 (center2d s)
| f2_center_scale s k : k <> 0 -> fld2 s -> fld2 (center_and_scale2d s k)
| f2_array mn s n0 n1 st : nonspreading mn -> fld2 s -> fld2 (array2d_min mn s n0 n1 st)
| f2_rotate mn s n st s' : nonspreading mn -> iso2 st -> fld2 s -> rotate_union2d_min mn s n st = Ok s' -> fld2 s'
| f2_multi s ps s' : honest s -> multi2d (Some s) ps = Ok s' -> fld2 s'
| f2_line s p0 p1 pat s' : honest s -> line_of2d (Some s) p0 p1 pat = Ok s' -> fld2 s'
| f2_slice s a n s' : n <> zero3 -> fld3 s -> slice2d s a n = Ok s' -> fld2 s'.
Scheme fld3_mut := Induction for fld3 Sort Prop with fld2_mut := Induction for fld2 Sort Prop.
Combined Scheme fld_mutind from fld3_mut, fld2_mut.
Theorem C31_lipschitz_partial : (forall s, fld3 s -> lip3 (ev3 s)) /\ (forall s, fld2 s -> lip2 (ev2 s)).
Proof.
  apply (fld_mutind (fun s _ => lip3 (ev3 s)) (fun s _ => lip2 (ev2 s))); intros.
  - assumption.
  - eapply C76_union; eauto.
  - eapply lip3_diff; [| | |eassumption]; assumption.
  - eapply lip3_inter; [| | |eassumption]; assumption.
  - now apply lip3_cut.
  - now apply lip3_offset.
  - now apply lip3_shell.
  - now apply lip3_elongate.
  - match goal with H : transform3d _ _ = Ok _ |- _ => inversion H end. now apply lip3_transform.
  - now apply lip3_scale.
  - now apply lip3_array.
  - eapply lip3_rotate_union; [| | |eassumption]; assumption.
  - eapply lip3_line_of; [|eassumption]; assumption.
  - eapply lip3_multi; [|eassumption]; assumption.
  - eapply lip3_orient; [|eassumption]; assumption.
  - now apply lip3_extrude.
  - eapply lip3_extrude_rounded; [|eassumption]; assumption.
  - eapply lip3_revolve; [|eassumption]; assumption.
  - assumption.
  - apply (honest_union l s); assumption.
  - eapply lip2_diff; [| | |eassumption]; assumption.
  - eapply lip2_inter; [| | |eassumption]; assumption.
  - now apply lip2_cut.
  - now apply lip2_offset.
  - now apply lip2_elongate.
  - now apply lip2_transform.
  - now apply lip2_scale.
  - apply lip2_transform; [apply iso2_translate|assumption].
  - apply lip2_scale; [assumption|]. apply lip2_transform; [apply iso2_translate|assumption].
  - now apply lip2_array.
  - eapply lip2_rotate_union; [| | |eassumption]; assumption.
  - eapply honest_multi; eauto.
  - eapply honest_line_of; eauto.
  - eapply lip2_slice; eauto.
Qed.
(** Not for Union2D of arbitrary 1-Lipschitz members: the culling jumps. *)
Theorem C31_union2d_refuted : exists a b s, lip2 (ev2 a) /\ lip2 (ev2 b) /\ union2d [Some a; Some b] = Ok s /\ ~ lip2 (ev2 s).
Proof.
  destruct C49_empty_refuted as (a & b & s & U & Eb & Ea & E & _). exists a, b, s.
  assert (La : lip2 (ev2 a)) by (eapply exact2_lip, C57_circle, Ea). split; [exact La|]. split; [subst b; exact (lip2_const max_float64)|].
  split; [exact U|]. intros L.
  (* at the origin only the circle counts *)
  unfold must_circle in Ea. rewrite (proj2 (Rltb_false 1 0)) in Ea by lra. inversion Ea. subst b.
  assert (E0 : ev2 s zero2 = norm2 zero2 - 1).
  { inversion U. subst a. cbn [ev2]. unfold union_eval2. cbn [map]. rewrite !mmd2_value by (unfold ok2; cbn; lra).
    cbn [bb2 empty2 min2 max2 x2 y2 zero2 scale2].
    set (lo := lo1 _ _ + lo1 _ _). set (hi := hi1 _ _ + hi1 _ _). set (lo' := lo1 _ _ + lo1 _ _). set (hi' := hi1 _ _ + hi1 _ _).
    assert (L0 : lo = 0) by (unfold lo, lo1; rcase; rmm; lra). assert (Hh : hi = 2) by (unfold hi, hi1; rmm; lra).
    assert (L' : lo' = 25) by (unfold lo', lo1; rcase; rmm; lra). clearbody lo hi lo' hi'. subst lo hi lo'.
    cbn [least_index fst snd]. rewrite (proj2 (Rltb_true (-1) 0)) by lra. cbn [orb].
    rewrite (proj2 (Rltb_false 0 0)), (proj2 (Rltb_false 25 0)) by lra. cbn [orb nth combine union2_loop Nat.eqb ev2].
    unfold overlap. cbn [fst snd]. rewrite (proj2 (Rleb_false 25 2)) by lra. reflexivity. }
  assert (N0 : norm2 zero2 = 0) by (now apply norm2_zero_iff).
  specialize (L (V2 5 0) zero2). rewrite E, E0, N0 in L.
  assert (D : dist2 (V2 5 0) zero2 = 5).
  { unfold dist2, norm2, norm2sq, dot2; cbn. replace (_ + _) with (Rsqr 5) by (unfold Rsqr; ring). apply sqrt_Rsqr; lra. }
  pose proof max_float64_big. rewrite D, Rabs_right in L; lra.
Qed.
Example C31_example : exists s0 s, must_circle 1 = Ok s0 /\ fld3 s /\ difference3d_max Rmax (Some (cut3d (offset3d (extrude3d s0 4) 1) zero3 (V3 1 1 1))) (Some (scale_uniform3d (extrude3d s0 2) (-3))) = Ok s.
Proof.
  unfold must_circle. rewrite (proj2 (Rltb_false 1 0)) by lra. eexists _, _. split; [reflexivity|]. split; [|reflexivity].
  set (s0 := S2 _ _). assert (C : fld2 s0).
  { constructor. eapply exact2_lip, (C57_circle 1). unfold must_circle. rewrite (proj2 (Rltb_false 1 0)) by lra. reflexivity. }
  eapply f3_diff; [apply nonspreading_max| | |reflexivity].
  - apply f3_cut; [intros Q; inversion Q; lra|]. apply f3_offset, f3_extrude, C.
  - apply f3_scale; [lra|]. apply f3_extrude, C.
Qed.
