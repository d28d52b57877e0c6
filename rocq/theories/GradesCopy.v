(** Grades of rotated copies, rotated unions, slices, partial revolutions and
    lists of copies. *)
From Coq Require Import Reals Lra Lia List Bool ZArith.
From Verif Require Import Prelude Vec BoxModel PropsBox MatrixModel PropsMatrix SdfModel PropsBool SdfLemmas Trig Grades GradesOps GradesSweep.
Import ListNotations.
Local Open Scope R_scope.

(** ** Linear functionals over a box *)
Lemma lin_axis k lo hi x : lo <= x <= hi ->
  (exists e, (e = lo \/ e = hi) /\ k * e <= k * x) /\ (exists e, (e = lo \/ e = hi) /\ k * x <= k * e).
Proof.
  intros H. destruct (Rle_or_lt 0 k).
  - split; [exists lo|exists hi]; split; auto; nra.
  - split; [exists hi|exists lo]; split; auto; nra.
Qed.
Lemma lin_vertices3 b p k l m : in3 b p ->
  (exists w, In w (vertices3 b) /\ k * x3 w + l * y3 w + m * z3 w <= k * x3 p + l * y3 p + m * z3 p) /\
  (exists w, In w (vertices3 b) /\ k * x3 p + l * y3 p + m * z3 p <= k * x3 w + l * y3 w + m * z3 w).
Proof.
  intros (X & Y & Z).
  destruct (lin_axis k _ _ _ X) as ((x0 & Ix0 & Lx0) & (x1 & Ix1 & Lx1)).
  destruct (lin_axis l _ _ _ Y) as ((y0 & Iy0 & Ly0) & (y1 & Iy1 & Ly1)).
  destruct (lin_axis m _ _ _ Z) as ((z0 & Iz0 & Lz0) & (z1 & Iz1 & Lz1)).
  split.
  - exists (V3 x0 y0 z0). split; [apply C53_vertices3; auto|cbn; lra].
  - exists (V3 x1 y1 z1). split; [apply C53_vertices3; auto|cbn; lra].
Qed.
Lemma lin_vertices2 b p k l : in2 b p ->
  (exists w, In w (vertices2 b) /\ k * x2 w + l * y2 w <= k * x2 p + l * y2 p) /\
  (exists w, In w (vertices2 b) /\ k * x2 p + l * y2 p <= k * x2 w + l * y2 w).
Proof.
  intros (X & Y).
  destruct (lin_axis k _ _ _ X) as ((x0 & Ix0 & Lx0) & (x1 & Ix1 & Lx1)).
  destruct (lin_axis l _ _ _ Y) as ((y0 & Iy0 & Ly0) & (y1 & Iy1 & Ly1)).
  split.
  - exists (V2 x0 y0). split; [apply C53_vertices2; auto|cbn; lra].
  - exists (V2 x1 y1). split; [apply C53_vertices2; auto|cbn; lra].
Qed.
Lemma vertices_image3 b c m p : (forall w, In w (vertices3 b) -> in3 c (mul_pos3 m w)) -> in3 b p -> in3 c (mul_pos3 m p).
Proof.
  intros H I.
  destruct (lin_vertices3 b p (a00 m) (a01 m) (a02 m) I) as ((w0 & J0 & L0) & (w1 & J1 & L1)).
  destruct (lin_vertices3 b p (a10 m) (a11 m) (a12 m) I) as ((w2 & J2 & L2) & (w3 & J3 & L3)).
  destruct (lin_vertices3 b p (a20 m) (a21 m) (a22 m) I) as ((w4 & J4 & L4) & (w5 & J5 & L5)).
  apply H in J0, J1, J2, J3, J4, J5. unfold in3, mul_pos3 in *; cbn in *. lra.
Qed.
Lemma vertices_image2 b c m p : (forall w, In w (vertices2 b) -> in2 c (mul_pos2 m w)) -> in2 b p -> in2 c (mul_pos2 m p).
Proof.
  intros H I.
  destruct (lin_vertices2 b p (b00 m) (b01 m) I) as ((w0 & J0 & L0) & (w1 & J1 & L1)).
  destruct (lin_vertices2 b p (b10 m) (b11 m) I) as ((w2 & J2 & L2) & (w3 & J3 & L3)).
  apply H in J0, J1, J2, J3. unfold in2, mul_pos2 in *; cbn in *. lra.
Qed.

(** ** Set.Min and Set.Max *)
Definition le3 (a b : v3) := x3 a <= x3 b /\ y3 a <= y3 b /\ z3 a <= z3 b.
Definition le2 (a b : v2) := x2 a <= x2 b /\ y2 a <= y2 b.
Lemma fold_min3_le l : forall a, le3 (fold_left min_elem3 l a) a /\ forall w, In w l -> le3 (fold_left min_elem3 l a) w.
Proof.
  induction l as [|x r IH]; cbn [fold_left In]; intros a.
  - split; [unfold le3; lra|intros w []].
  - destruct (IH (min_elem3 a x)) as (A & B).
    assert (C : le3 (min_elem3 a x) a /\ le3 (min_elem3 a x) x) by (unfold le3, min_elem3; cbn; rmm; lra).
    unfold le3 in *. split; [lra|]. intros w [<- |I]; [lra|auto].
Qed.
Lemma fold_max3_ge l : forall a, le3 a (fold_left max_elem3 l a) /\ forall w, In w l -> le3 w (fold_left max_elem3 l a).
Proof.
  induction l as [|x r IH]; cbn [fold_left In]; intros a.
  - split; [unfold le3; lra|intros w []].
  - destruct (IH (max_elem3 a x)) as (A & B).
    assert (C : le3 a (max_elem3 a x) /\ le3 x (max_elem3 a x)) by (unfold le3, max_elem3; cbn; rmm; lra).
    unfold le3 in *. split; [lra|]. intros w [<- |I]; [lra|auto].
Qed.
Lemma fold_min2_le l : forall a, le2 (fold_left min_elem2 l a) a /\ forall w, In w l -> le2 (fold_left min_elem2 l a) w.
Proof.
  induction l as [|x r IH]; cbn [fold_left In]; intros a.
  - split; [unfold le2; lra|intros w []].
  - destruct (IH (min_elem2 a x)) as (A & B).
    assert (C : le2 (min_elem2 a x) a /\ le2 (min_elem2 a x) x) by (unfold le2, min_elem2; cbn; rmm; lra).
    unfold le2 in *. split; [lra|]. intros w [<- |I]; [lra|auto].
Qed.
Lemma fold_max2_ge l : forall a, le2 a (fold_left max_elem2 l a) /\ forall w, In w l -> le2 w (fold_left max_elem2 l a).
Proof.
  induction l as [|x r IH]; cbn [fold_left In]; intros a.
  - split; [unfold le2; lra|intros w []].
  - destruct (IH (max_elem2 a x)) as (A & B).
    assert (C : le2 a (max_elem2 a x) /\ le2 x (max_elem2 a x)) by (unfold le2, max_elem2; cbn; rmm; lra).
    unfold le2 in *. split; [lra|]. intros w [<- |I]; [lra|auto].
Qed.
Lemma set_min3_le l a w : set_min3 l = Ok a -> In w l -> le3 a w.
Proof. destruct l as [|x r]; [discriminate|]. intros E. inversion E. destruct (fold_min3_le r x) as (A & B). intros [<- |I]; auto. Qed.
Lemma set_max3_ge l a w : set_max3 l = Ok a -> In w l -> le3 w a.
Proof. destruct l as [|x r]; [discriminate|]. intros E. inversion E. destruct (fold_max3_ge r x) as (A & B). intros [<- |I]; auto. Qed.
Lemma set_min2_le l a w : set_min2 l = Ok a -> In w l -> le2 a w.
Proof. destruct l as [|x r]; [discriminate|]. intros E. inversion E. destruct (fold_min2_le r x) as (A & B). intros [<- |I]; auto. Qed.
Lemma set_max2_ge l a w : set_max2 l = Ok a -> In w l -> le2 w a.
Proof. destruct l as [|x r]; [discriminate|]. intros E. inversion E. destruct (fold_max2_ge r x) as (A & B). intros [<- |I]; auto. Qed.
Lemma le_box3 a w b : le3 a w -> le3 w b -> in3 (Box3 a b) w.
Proof. unfold le3, in3; cbn. lra. Qed.
Lemma le_box2 a w b : le2 a w -> le2 w b -> in2 (Box2 a b) w.
Proof. unfold le2, in2; cbn. lra. Qed.

(** ** Rotated unions *)
Local Opaque inverse44 inverse33 mul44 mul33 det44 det33.
Lemma ru_box3_spec step n : forall v mn mx b, v <> [] -> ru_box3 n step v mn mx = Ok b ->
  box_le3 (Box3 mn mx) b /\ forall i w, (i < n)%nat -> In w v -> in3 b (placed3 step i w).
Proof.
  induction n as [|n IH]; cbn [ru_box3]; intros v mn mx b V H.
  - inversion H. split; [apply box_le3_refl|intros; lia].
  - destruct (set_min3 v) as [a| |] eqn:Ea; try discriminate.
    destruct (set_max3 v) as [c| |] eqn:Ec; try discriminate. cbn [bind] in H.
    apply IH in H; [|destruct v; [congruence|discriminate]]. destruct H as (H1 & H2).
    assert (M : forall a b, Rmin a b <= a /\ Rmin a b <= b /\ a <= Rmax a b /\ b <= Rmax a b) by (intros; rmm; lra).
    split.
    + eapply box_le3_trans; [|exact H1]. unfold box_le3, min_elem3, max_elem3; cbn [min3 max3 x3 y3 z3].
      split; (split; [|split]); apply M.
    + intros i w Hi I. destruct i as [|i].
      * eapply box_le3_in; [exact H1|]. cbn [placed3 Nat.iter].
        pose proof (set_min3_le _ _ _ Ea I) as (A1 & A2 & A3). pose proof (set_max3_ge _ _ _ Ec I) as (B1 & B2 & B3).
        apply le_box3; unfold le3, min_elem3, max_elem3; cbn [x3 y3 z3].
        -- split; [|split]; eapply Rle_trans; try eassumption; apply M.
        -- split; [|split]; eapply Rle_trans; try eassumption; apply M.
      * replace (placed3 step (S i) w) with (placed3 step i (mul_pos3 step w)) by (unfold placed3; apply (iter_swap (mul_pos3 step))).
        apply H2; [lia|]. now apply in_map.
Qed.
Lemma ru_box3_ok step n : forall v mn mx, v <> [] -> exists b, ru_box3 n step v mn mx = Ok b.
Proof.
  induction n as [|n IH]; cbn [ru_box3]; intros v mn mx V; [eauto|].
  destruct v as [|a v]; [congruence|]. cbn [set_min3 set_max3 bind]. apply IH. discriminate.
Qed.
Lemma ru_box2_spec step n : forall v mn mx b, v <> [] -> ru_box2 n step v mn mx = Ok b ->
  box_le2 (Box2 mn mx) b /\ forall i w, (i < n)%nat -> In w v -> in2 b (placed2 step i w).
Proof.
  induction n as [|n IH]; cbn [ru_box2]; intros v mn mx b V H.
  - inversion H. split; [apply box_le2_refl|intros; lia].
  - destruct (set_min2 v) as [a| |] eqn:Ea; try discriminate.
    destruct (set_max2 v) as [c| |] eqn:Ec; try discriminate. cbn [bind] in H.
    apply IH in H; [|destruct v; [congruence|discriminate]]. destruct H as (H1 & H2).
    assert (M : forall a b, Rmin a b <= a /\ Rmin a b <= b /\ a <= Rmax a b /\ b <= Rmax a b) by (intros; rmm; lra).
    assert (M' : forall a b, Rmin (Rmin a b) b <= a /\ Rmin (Rmin a b) b <= b) by (intros; rmm; lra).
    split.
    + eapply box_le2_trans; [|exact H1]. unfold box_le2, min_elem2, max_elem2; cbn [min2 max2 x2 y2].
      split; split; first [apply M'|apply M].
    + intros i w Hi I. destruct i as [|i].
      * eapply box_le2_in; [exact H1|]. cbn [placed2 Nat.iter].
        pose proof (set_min2_le _ _ _ Ea I) as (A1 & A2). pose proof (set_max2_ge _ _ _ Ec I) as (B1 & B2).
        apply le_box2; unfold le2, min_elem2, max_elem2; cbn [x2 y2].
        -- split; eapply Rle_trans; try eassumption; apply M'.
        -- split; eapply Rle_trans; try eassumption; apply M.
      * replace (placed2 step (S i) w) with (placed2 step i (mul_pos2 step w)) by (unfold placed2; apply (iter_swap (mul_pos2 step))).
        apply H2; [lia|]. now apply in_map.
Qed.
Lemma ru_box2_ok step n : forall v mn mx, v <> [] -> exists b, ru_box2 n step v mn mx = Ok b.
Proof.
  induction n as [|n IH]; cbn [ru_box2]; intros v mn mx V; [eauto|].
  destruct v as [|a v]; [congruence|]. cbn [set_min2 set_max2 bind]. apply IH. discriminate.
Qed.
(** Powers of the step as matrices. *)
Fixpoint mpow3 (m : m44) (i : nat) : m44 := match i with O => identity3d | S k => mul44 m (mpow3 m k) end.
Fixpoint mpow2 (m : m33) (i : nat) : m33 := match i with O => identity2d | S k => mul33 m (mpow2 m k) end.
Lemma affine3_mul a b : affine3 a -> affine3 b -> affine3 (mul44 a b).
Proof. intros (A & B & C & D) (E & F & G & H). Local Transparent mul44. unfold affine3, mul44; cbn. rewrite A, B, C, D, E, F, G, H. lra. Qed.
Lemma affine2_mul a b : affine2 a -> affine2 b -> affine2 (mul33 a b).
Proof. intros (A & B & C) (E & F & G). Local Transparent mul33. unfold affine2, mul33; cbn. rewrite A, B, C, E, F, G. lra. Qed.
Local Opaque mul44 mul33.
Lemma mpow3_placed m i : affine3 m -> affine3 (mpow3 m i) /\ forall p, mul_pos3 (mpow3 m i) p = placed3 m i p.
Proof.
  intros A. induction i as [|i (IA & IH)]; cbn [mpow3].
  - split; [unfold affine3; cbn; auto|]. intros p. cbn [placed3 Nat.iter]. apply v3_ext; cbn; ring.
  - split; [now apply affine3_mul|]. intros p. destruct C34_composition as (C & _). rewrite (C m _ p IA), IH. reflexivity.
Qed.
Lemma mpow2_placed m i : affine2 m -> affine2 (mpow2 m i) /\ forall p, mul_pos2 (mpow2 m i) p = placed2 m i p.
Proof.
  intros A. induction i as [|i (IA & IH)]; cbn [mpow2].
  - split; [unfold affine2; cbn; auto|]. intros p. cbn [placed2 Nat.iter]. apply v2_ext; cbn; ring.
  - split; [now apply affine2_mul|]. intros p. destruct C34_composition as (_ & C & _). rewrite (C m _ p IA), IH. reflexivity.
Qed.
Lemma identity_pos3 p : mul_pos3 identity3d p = p.
Proof. apply v3_ext; cbn; ring. Qed.
Lemma identity_pos2 p : mul_pos2 identity2d p = p.
Proof. apply v2_ext; cbn; ring. Qed.
Lemma placed3_isometry m i : isometry3 (mul_pos3 m) -> isometry3 (placed3 m i).
Proof.
  intros I. induction i; intros p q; [reflexivity|]. unfold placed3 in *. rewrite !iter_S, I. apply IHi.
Qed.
Lemma placed2_isometry m i : isometry2 (mul_pos2 m) -> isometry2 (placed2 m i).
Proof.
  intros I. induction i; intros p q; [reflexivity|]. unfold placed2 in *. rewrite !iter_S, I. apply IHi.
Qed.
Lemma rotate_union3d_ok s n step s' : (0 < n)%Z -> rotate_union3d s n step = Ok s' -> exists b,
  s' = S3 (fun p => ru_eval3 Rmin s (Z.to_nat n) (inverse44 step) identity3d p max_float64) b /\
  (affine3 step -> forall i q, (i < Z.to_nat n)%nat -> in3 (bb3 s) q -> in3 b (placed3 step i q)).
Proof.
  intros P. unfold rotate_union3d, rotate_union3d_min. rewrite (proj2 (Z.leb_gt n 0) P). cbn [vertices3 bind].
  match goal with |- context [ru_box3 ?n ?st ?v ?a ?b] => destruct (ru_box3_ok st n v a b) as (bb & E) end; [discriminate|].
  rewrite E. cbn [bind]. intros H. inversion H. exists bb. split; [reflexivity|].
  intros A i q Hi Q. apply ru_box3_spec in E; [|discriminate]. destruct E as (_ & E).
  destruct (mpow3_placed step i A) as (_ & M). rewrite <- M. apply (vertices_image3 (bb3 s)); [|exact Q].
  intros w W. rewrite M. apply E; auto.
Qed.
Lemma rotate_union2d_ok s n step s' : (0 < n)%Z -> rotate_union2d s n step = Ok s' -> exists b,
  s' = S2 (fun p => ru_eval2 Rmin s (Z.to_nat n) (inverse33 step) identity2d p max_float64) b /\
  (affine2 step -> forall i q, (i < Z.to_nat n)%nat -> in2 (bb2 s) q -> in2 b (placed2 step i q)).
Proof.
  intros P. unfold rotate_union2d, rotate_union2d_min. rewrite (proj2 (Z.leb_gt n 0) P). cbn [vertices2 bind].
  match goal with |- context [ru_box2 ?n ?st ?v ?a ?b] => destruct (ru_box2_ok st n v a b) as (bb & E) end; [discriminate|].
  rewrite E. cbn [bind]. intros H. inversion H. exists bb. split; [reflexivity|].
  intros A i q Hi Q. apply ru_box2_spec in E; [|discriminate]. destruct E as (_ & E).
  destruct (mpow2_placed step i A) as (_ & M). rewrite <- M. apply (vertices_image2 (bb2 s)); [|exact Q].
  intros w W. rewrite M. apply E; auto.
Qed.
Lemma dom3_rotate_union g m s n step s' : g <> Axis -> m <= max_float64 ->
  affine3 step -> det44 step <> 0 -> (g = Euclid -> isometry3 (mul_pos3 step)) ->
  dom3 g m s -> rotate_union3d s n step = Ok s' -> dom3 g m s'.
Proof.
  intros N M A D I H E. destruct (Z_lt_le_dec 0 n) as [P|P].
  2:{ unfold rotate_union3d, rotate_union3d_min in E. rewrite (proj2 (Z.leb_le n 0) P) in E. inversion E. now apply dom3_empty. }
  destruct (rotate_union3d_ok _ _ _ _ P E) as (b & -> & B). specialize (B A). intros p L. cbn [ev3 bb3] in *.
  assert (Ai : affine3 (inverse44 step)) by now apply affine3_inverse.
  rewrite ru_eval3_fold in * by exact Ai.
  destruct (fold_min_att (fun i => ev3 s (mul_pos3 identity3d (placed3 (inverse44 step) i p))) (seq 0 (Z.to_nat n)) max_float64) as [F|(i & Ii & F)].
  { rewrite F in L. lra. }
  rewrite F in *. clear F. rewrite identity_pos3 in *. apply in_seq in Ii.
  set (q := placed3 (inverse44 step) i p) in *.
  assert (Q : p = placed3 step i q) by (unfold q; now rewrite (proj2 (placed3_inv step i p A D))).
  specialize (H q L). rewrite Q. destruct g; [|congruence|]; cbn [G3] in *.
  - revert H. apply near_move with (finv := placed3 (inverse44 step) i).
    + now apply placed3_isometry, I.
    + intros x. apply (placed3_inv step i x A D).
    + intros x X. apply B; [lia|auto].
  - intros V. apply B; [lia|auto].
Qed.
Lemma dom2_rotate_union g m s n step s' : g <> Axis -> m <= max_float64 ->
  affine2 step -> det33 step <> 0 -> (g = Euclid -> isometry2 (mul_pos2 step)) ->
  dom2 g m s -> rotate_union2d s n step = Ok s' -> dom2 g m s'.
Proof.
  intros N M A D I H E. destruct (Z_lt_le_dec 0 n) as [P|P].
  2:{ unfold rotate_union2d, rotate_union2d_min in E. rewrite (proj2 (Z.leb_le n 0) P) in E. inversion E. now apply dom2_empty. }
  destruct (rotate_union2d_ok _ _ _ _ P E) as (b & -> & B). specialize (B A). intros p L. cbn [ev2 bb2] in *.
  assert (Ai : affine2 (inverse33 step)) by now apply affine2_inverse.
  rewrite ru_eval2_fold in * by exact Ai.
  destruct (fold_min_att (fun i => ev2 s (mul_pos2 identity2d (placed2 (inverse33 step) i p))) (seq 0 (Z.to_nat n)) max_float64) as [F|(i & Ii & F)].
  { rewrite F in L. lra. }
  rewrite F in *. clear F. rewrite identity_pos2 in *. apply in_seq in Ii.
  set (q := placed2 (inverse33 step) i p) in *.
  assert (Q : p = placed2 step i q) by (unfold q; now rewrite (proj2 (placed2_inv step i p A D))).
  specialize (H q L). rewrite Q. destruct g; [|congruence|]; cbn [G2] in *.
  - revert H. apply near_move with (finv := placed2 (inverse33 step) i).
    + now apply placed2_isometry, I.
    + intros x. apply (placed2_inv step i x A D).
    + intros x X. apply B; [lia|auto].
  - intros V. apply B; [lia|auto].
Qed.

(** ** Rotated copies *)
Lemma rc_rmax_ge l : forall r0, (forall x, In x l -> x <= fold_left (fun r l => if Rltb r l then l else r) l r0) /\
  r0 <= fold_left (fun r l => if Rltb r l then l else r) l r0.
Proof.
  induction l as [|x l IH]; cbn [fold_left In]; intros r0; [split; [intros y []|lra]|].
  destruct (IH (if Rltb r0 x then x else r0)) as (A & B).
  assert (C : r0 <= (if Rltb r0 x then x else r0) /\ x <= (if Rltb r0 x then x else r0)) by (rcase; lra).
  split; [|lra]. intros y [<- |I]; [lra|auto].
Qed.
Lemma sq_vertex lo hi x : lo <= x <= hi -> exists e, (e = lo \/ e = hi) /\ x * x <= e * e.
Proof. intros H. destruct (Rle_or_lt 0 x); [exists hi|exists lo]; split; auto; nra. Qed.
Lemma rc_in3 b p : in3 b p -> hypot (x3 p) (y3 p) <= rc_rmax (map (fun v => hypot (x3 v) (y3 v)) (vertices3 b)).
Proof.
  intros (X & Y & Z). destruct (sq_vertex _ _ _ X) as (ex & Ix & Lx). destruct (sq_vertex _ _ _ Y) as (ey & Iy & Ly).
  apply Rle_trans with (hypot ex ey); [apply sqrt_le_1_alt; lra|].
  apply (rc_rmax_ge _ 0). apply in_map_iff. exists (V3 ex ey (z3 (min3 b))). split; [reflexivity|].
  apply C53_vertices3; cbn; auto.
Qed.
Lemma rc_in2 b p : in2 b p -> norm2 p <= rc_rmax (map norm2 (vertices2 b)).
Proof.
  intros (X & Y). destruct (sq_vertex _ _ _ X) as (ex & Ix & Lx). destruct (sq_vertex _ _ _ Y) as (ey & Iy & Ly).
  apply Rle_trans with (norm2 (V2 ex ey)); [apply norm2_le_of; unfold norm2sq, dot2; cbn; lra|].
  apply (rc_rmax_ge _ 0). apply in_map_iff. exists (V2 ex ey). split; [reflexivity|].
  apply C53_vertices2; cbn; auto.
Qed.
Definition rotz (t : R) (p : v3) : v3 := V3 (x2 (rot t (xy p))) (y2 (rot t (xy p))) (z3 p).
Lemma rotz_xy t p : xy (rotz t p) = rot t (xy p).
Proof. reflexivity. Qed.
Lemma rotz_inv t p : rotz t (rotz (- t) p) = p.
Proof. unfold rotz at 1. rewrite rotz_xy, rot_inv. apply v3_ext; reflexivity. Qed.
Lemma rotz_dist t p q : dist3 (rotz t p) (rotz t q) = dist3 p q.
Proof.
  apply sq_eq; [apply dist3_nonneg|apply dist3_nonneg|].
  replace q with (V3 (x2 (xy q)) (y2 (xy q)) (z3 q)) at 3 4 by (apply v3_ext; reflexivity).
  unfold rotz at 2 4. rewrite !dist_prism, rotz_xy, rot_dist. reflexivity.
Qed.
Lemma tau_div_pos n : (0 < n)%Z -> 0 < tau / IZR n.
Proof. intros H. apply IZR_lt in H. pose proof PI_RGT_0. unfold tau. apply Rmult_lt_0_compat; [lra|apply Rinv_0_lt_compat; lra]. Qed.
Lemma dom3_rotate_copy g m s n : g <> Axis -> m <= max_float64 -> dom3 g m s -> dom3 g m (rotate_copy3d s n).
Proof.
  intros N M D. unfold rotate_copy3d. destruct (Z.leb_spec n 0) as [K|K]; [now apply dom3_empty|].
  set (r := rc_rmax _). intros p L. cbn [ev3 bb3] in *.
  destruct (fold_sector_rot (tau / IZR n) (xy p) (tau_div_pos n K)) as (k & E). rewrite E in *.
  set (t := IZR k * (tau / IZR n)) in *. change (V3 (x2 (rot (- t) (xy p))) (y2 (rot (- t) (xy p))) (z3 p)) with (rotz (- t) p) in *. set (q := rotz (- t) p) in *.
  assert (Q : p = rotz t q) by (unfold q; now rewrite rotz_inv).
  assert (S : forall x, in3 (bb3 s) x -> in3 (Box3 (V3 (- r) (- r) (z3 (min3 (bb3 s)))) (V3 r r (z3 (max3 (bb3 s))))) (rotz t x)).
  { intros x X. pose proof (rc_in3 _ _ X) as H. fold r in H. destruct (abs_le_norm2 (rot t (xy x))) as (A & B).
    rewrite rot_norm in A, B. rewrite norm2_hypot in A, B. cbn [xy x2 y2] in A, B.
    assert (F : forall y, Rabs y <= hypot (x3 x) (y3 x) -> - r <= y <= r) by (intros y; unfold Rabs; destruct (Rcase_abs y); lra).
    apply F in A, B. destruct X as (_ & _ & Z). unfold in3, rotz; cbn [min3 max3 x3 y3 z3]. auto. }
  specialize (D q L). rewrite Q. destruct g; [|congruence|]; cbn [G3] in *.
  - revert D. apply near_move with (finv := rotz (- t)).
    + apply rotz_dist.
    + apply rotz_inv.
    + exact S.
  - intros V. apply S, D, V.
Qed.
Lemma dom2_rotate_copy g m s n s' : g <> Axis -> dom2 g m s -> rotate_copy2d s n = Ok s' -> dom2 g m s'.
Proof.
  intros N D. unfold rotate_copy2d. destruct (Z.leb_spec n 0) as [K|K]; [discriminate|].
  set (r := rc_rmax _). intros E'. inversion E'. clear E'. intros p L. cbn [ev2 bb2] in *.
  change (2 * PI / IZR n) with (tau / IZR n) in *.
  destruct (fold_sector_rot (tau / IZR n) p (tau_div_pos n K)) as (k & E). rewrite E in *.
  set (t := IZR k * (tau / IZR n)) in *. set (q := rot (- t) p) in *.
  assert (Q : p = rot t q) by (unfold q; now rewrite rot_inv).
  assert (S : forall x, in2 (bb2 s) x -> in2 (Box2 (scale2 (-1) (V2 r r)) (V2 r r)) (rot t x)).
  { intros x X. pose proof (rc_in2 _ _ X) as H. fold r in H. destruct (abs_le_norm2 (rot t x)) as (A & B).
    rewrite rot_norm in A, B.
    assert (F : forall y, Rabs y <= norm2 x -> -1 * r <= y <= r) by (intros y; unfold Rabs; destruct (Rcase_abs y); lra).
    apply F in A, B. unfold in2; cbn [min2 max2 x2 y2 scale2]. auto. }
  specialize (D q L). rewrite Q. destruct g; [|congruence|]; cbn [G2] in *.
  - revert D. apply near_move with (finv := rot (- t)).
    + apply rot_dist.
    + apply rot_inv.
    + exact S.
  - intros V. apply S, D, V.
Qed.
