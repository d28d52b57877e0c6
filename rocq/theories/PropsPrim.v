(** Properties C57, C58 and C62: the primitive shapes return exact distances to the
    stated solids, and the checked constructors turn panics into errors. *)
From Coq Require Import Reals Lra List Bool.
From Verif Require Import Prelude Vec BoxModel MatrixModel SdfModel Trig Grades GradesOps GradesSweep Distance PrimModel PrimCores.
Import ListNotations.
Local Open Scope R_scope.

(** ** C57 *)
(** A shape is exact for a solid: the value is the signed distance to it, the
    solid lies in Bounds. *)
Definition exact3 (s : sdf3) (S : v3 -> Prop) : Prop :=
  (forall p, sdist dist3 S p (ev3 s p)) /\ forall p, S p -> in3 (bb3 s) p.
Definition exact2 (s : sdf2) (S : v2 -> Prop) : Prop :=
  (forall p, sdist dist2 S p (ev2 s p)) /\ forall p, S p -> in2 (bb2 s) p.
(** Consequences: 1-Lipschitz, and the strongest grade of Bounds. *)
Lemma exact3_lip s S : exact3 s S -> lip3 (ev3 s).
Proof. intros (H & _). eapply sdist_lip3. eauto. Qed.
Lemma exact2_lip s S : exact2 s S -> lip2 (ev2 s).
Proof. intros (H & _). eapply sdist_lip2. eauto. Qed.
Lemma exact3_dom s S m : exact3 s S -> dom3 Euclid m s.
Proof. intros (H & B) p _. cbn [G3]. eapply sdist_near; eauto. Qed.
Lemma exact2_dom s S m : exact2 s S -> dom2 Euclid m s.
Proof. intros (H & B) p _. cbn [G2]. eapply sdist_near; eauto. Qed.
Lemma sdist_ext {V} (d : V -> V -> R) (S T : V -> Prop) p v : (forall q, S q <-> T q) -> sdist d S p v -> sdist d T p v.
Proof.
  intros E (H1 & H2). split; intros L.
  - destruct (H1 L) as ((q & Q & D) & N). split; [exists q; split; [now apply E|auto]|]. intros x X. now apply N, E.
  - destruct (H2 L) as (I & N). split; [intros q Q; now apply E, I|]. intros e He. destruct (N e He) as (q & Q & D). exists q. split; [now rewrite <- E|auto].
Qed.
(** The rounded rectangle and cuboid: points within [r] of the inset box. *)
Definition round_rect (size : v2) (r : R) : v2 -> Prop := rounded dist2 (rect (sub2 (scale2 (1/2) size) (elem2 r))) r.
Definition round_cuboid (size : v3) (r : R) : v3 -> Prop := rounded dist3 (cuboid (sub3 (scale3 (1/2) size) (elem3 r))) r.
Lemma rounded3_axis C r p : rounded dist3 C r p -> exists c, C c /\ Rabs (x3 p - x3 c) <= r /\ Rabs (y3 p - y3 c) <= r /\ Rabs (z3 p - z3 c) <= r.
Proof.
  intros (c & Cc & D). exists c. destruct (abs_le_norm3 (sub3 p c)) as (X & Y & Z). fold (dist3 p c) in X, Y, Z. cbn [sub3 x3 y3 z3] in X, Y, Z.
  split; [auto|]. lra.
Qed.
Lemma rounded2_axis C r p : rounded dist2 C r p -> exists c, C c /\ Rabs (x2 p - x2 c) <= r /\ Rabs (y2 p - y2 c) <= r.
Proof.
  intros (c & Cc & D). exists c. destruct (abs_le_norm2 (sub2 p c)) as (X & Y). fold (dist2 p c) in X, Y. cbn [sub2 x2 y2] in X, Y.
  split; [auto|]. lra.
Qed.
Lemma abs_sum a c s r : Rabs c <= s -> Rabs (a - c) <= r -> - (s + r) <= a <= s + r.
Proof. intros; rmm; lra. Qed.
Theorem C57_sphere radius s : must_sphere radius = Ok s -> exact3 s (fun p => norm3 p <= radius).
Proof.
  unfold must_sphere. destruct (Rleb radius 0) eqn:R; [discriminate|]. apply Rleb_false in R. intros E. inversion E. split; cbn [ev3 bb3].
  - intros p. eapply sdist_ext; [|apply (core_round3 _ _ radius p core_point3); lra].
    intros q. assert (Z : dist3 q zero3 = norm3 q) by (unfold dist3; f_equal; apply v3_ext; cbn; ring).
    split; [intros (c & -> & L); rewrite <- Z; exact L|intros L; exists zero3; split; [reflexivity|rewrite Z; exact L]].
  - intros p L. destruct (abs_le_norm3 p) as (X & Y & Z). unfold in3; cbn.
    assert (F : forall a, Rabs a <= norm3 p -> -1 * radius <= a <= radius) by (intros a; unfold Rabs; destruct (Rcase_abs a); lra). auto.
Qed.
Theorem C57_circle radius s : must_circle radius = Ok s -> exact2 s (fun p => norm2 p <= radius).
Proof.
  unfold must_circle. destruct (Rltb radius 0) eqn:R; [discriminate|]. apply Rltb_false in R. intros E. inversion E. split; cbn [ev2 bb2].
  - intros p. eapply sdist_ext; [|apply (core_round2 _ _ radius p core_point2); lra].
    intros q. assert (Z : dist2 q zero2 = norm2 q) by (unfold dist2; f_equal; apply v2_ext; cbn; ring).
    split; [intros (c & -> & L); rewrite <- Z; exact L|intros L; exists zero2; split; [reflexivity|rewrite Z; exact L]].
  - intros p L. destruct (abs_le_norm2 p) as (X & Y). unfold in2; cbn.
    assert (F : forall a, Rabs a <= norm2 p -> -1 * radius <= a <= radius) by (intros a; unfold Rabs; destruct (Rcase_abs a); lra). auto.
Qed.
(** Rounding may not exceed half the size on any axis; must3.Box does not check this. *)
Theorem C57_box3 size round s : must_box3 size round = Ok s ->
  round <= x3 size / 2 -> round <= y3 size / 2 -> round <= z3 size / 2 -> exact3 s (round_cuboid size round).
Proof.
  unfold must_box3. destruct (lte_zero3 size); [discriminate|]. destruct (Rltb round 0) eqn:R; [discriminate|]. apply Rltb_false in R.
  intros E X Y Z. inversion E. clear E. split; cbn [ev3 bb3].
  - intros p. refine (core_round3 _ _ round p (core_cuboid (sub3 (scale3 (1/2) size) (elem3 round)) _ _ _) R); cbn; lra.
  - intros p H. apply rounded3_axis in H. destruct H as (c & (Cx & Cy & Cz) & Px & Py & Pz). cbn in Cx, Cy, Cz.
    pose proof (abs_sum _ _ _ _ Cx Px). pose proof (abs_sum _ _ _ _ Cy Py). pose proof (abs_sum _ _ _ _ Cz Pz).
    unfold in3; cbn. lra.
Qed.
Theorem C57_box2 size round s : must_box2 size round = Ok s -> 0 <= round ->
  round <= x2 size / 2 -> round <= y2 size / 2 -> exact2 s (round_rect size round).
Proof.
  unfold must_box2. intros E R X Y. inversion E. clear E. split; cbn [ev2 bb2].
  - intros p. refine (core_round2 _ _ round p (core_rect (sub2 (scale2 (1/2) size) (elem2 round)) _ _) R); cbn; lra.
  - intros p H. apply rounded2_axis in H. destruct H as (c & (Cx & Cy) & Px & Py). cbn in Cx, Cy.
    pose proof (abs_sum _ _ _ _ Cx Px). pose proof (abs_sum _ _ _ _ Cy Py).
    unfold in2; cbn. lra.
Qed.
(** The line: points within [round] of the segment from (-l/2, 0) to (l/2, 0). *)
Definition segment (l : R) (p : v2) : Prop := - (l / 2) <= x2 p <= l / 2 /\ y2 p = 0.
Lemma line_val l p : 0 <= l -> (if Rleb (Rabs (x2 p)) l then Rabs (y2 p) else norm2 (sub2 (abs_elem2 p) (V2 l 0))) = sdf_box2d p (V2 l 0).
Proof.
  intros L. unfold sdf_box2d, abs_elem2, sub2; cbn [x2 y2]. pose proof (Rabs_pos (y2 p)). set (ax := Rabs (x2 p)) in *. set (ay := Rabs (y2 p)) in *.
  destruct (Rleb ax l) eqn:B; [apply Rleb_true in B|apply Rleb_false in B].
  - rewrite (proj2 (Rltb_false 0 (ax - l))) by lra. cbn [andb]. destruct (Rltb (0 - l) (ay - ax)) eqn:C; [apply Rltb_true in C|apply Rltb_false in C]; lra.
  - rewrite (proj2 (Rltb_true 0 (ax - l))) by lra. cbn [andb]. destruct (Rltb 0 (ay - 0)) eqn:C; [reflexivity|]. apply Rltb_false in C.
    rewrite (proj2 (Rltb_false _ _)) by lra. unfold norm2, norm2sq, dot2; cbn [x2 y2].
    replace (ay - 0) with 0 by lra. replace (_ + 0 * 0) with ((ax - l) * (ax - l)) by ring. apply sqrt_square. lra.
Qed.
Theorem C57_line l round s : must_line l round = Ok s -> 0 <= l -> 0 <= round -> exact2 s (rounded dist2 (segment l) round).
Proof.
  unfold must_line. intros E L R. inversion E. clear E.
  assert (Eq : forall c, rect (V2 (l / 2) 0) c <-> segment l c).
  { intros c. unfold rect, segment; cbn [x2 y2]. split; intros (A & B); split; rmm; lra. }
  split; cbn [ev2 bb2].
  - intros p. eapply sdist_ext.
    2:{ pose proof (core_round2 _ _ round p (core_rect (V2 (l / 2) 0) ltac:(cbn; lra) ltac:(cbn; lra)) R) as K. cbn beta in K.
        rewrite <- line_val in K by lra. unfold abs_elem2 in *; cbn [x2 y2] in *.
        destruct (Rleb (Rabs (x2 p)) (l / 2)); exact K. }
    intros q. unfold rounded. split; intros (c & C & D); exists c; (split; [now apply Eq|auto]).
  - intros p H. apply rounded2_axis in H. destruct H as (c & C & Px & Py). apply Eq in C. destruct C as (Cx & Cy). cbn in Cx, Cy.
    pose proof (abs_sum _ _ _ _ Cx Px). pose proof (abs_sum _ _ _ _ Cy Py). unfold in2; cbn. lra.
Qed.
(** With a rounding larger than half the size, which must3.Box accepts, the field is
    not an exact distance: the unit cube with rounding 1 has value below 66/100 at
    (1,0,0), but no point with a non-positive value is closer than 79/100. *)
Theorem C57_overround_refuted : exists s, must_box3 (V3 1 1 1) 1 = Ok s /\ forall S, ~ exact3 s S.
Proof.
  unfold must_box3, lte_zero3; cbn [x3 y3 z3]. rewrite (proj2 (Rleb_false 1 0)) by lra. cbn [orb].
  rewrite (proj2 (Rltb_false 1 0)) by lra. eexists. split; [reflexivity|]. intros S (H & _). cbn [ev3 bb3] in H.
  set (i := sub3 (scale3 (1/2) (V3 1 1 1)) (elem3 1)) in *.
  assert (V : forall p, sdf_box3d p i = sqrt ((Rabs (x3 p) + 1/2) * (Rabs (x3 p) + 1/2) + (Rabs (y3 p) + 1/2) * (Rabs (y3 p) + 1/2) + (Rabs (z3 p) + 1/2) * (Rabs (z3 p) + 1/2))).
  { intros p. unfold sdf_box3d, i, abs_elem3; cbn [x3 y3 z3 sub3 scale3 elem3].
    pose proof (Rabs_pos (x3 p)). pose proof (Rabs_pos (y3 p)). pose proof (Rabs_pos (z3 p)).
    rewrite !(proj2 (Rltb_true 0 _)) by lra. cbn [andb]. unfold norm3, norm3sq, dot3; cbn [x3 y3 z3]. apply (f_equal sqrt). cbn [sub3 scale3 elem3 x3 y3 z3]. field. }
  destruct (H (V3 1 0 0)) as (H1 & _). rewrite V in H1. cbn [x3 y3 z3] in H1. rewrite Rabs_R0, Rabs_R1 in H1.
  set (w := sqrt _) in H1. assert (W : w * w = 11/4) by (unfold w; rewrite sqrt_sqrt; lra). assert (W0 : 0 <= w) by apply sqrt_pos.
  assert (W1 : w < 166/100) by nra. assert (W2 : 1 < w) by nra.
  destruct H1 as ((q & Q & D) & _); [lra|].
  apply (sdist_in dist3 dist3_refl S q _ (H q)) in Q. rewrite V in Q.
  set (u := sqrt _) in Q. set (ax := Rabs (x3 q)) in *. set (ay := Rabs (y3 q)) in *. set (az := Rabs (z3 q)) in *.
  assert (0 <= ax /\ 0 <= ay /\ 0 <= az) as (Ax & Ay & Az) by (unfold ax, ay, az; split; [|split]; apply Rabs_pos).
  assert (U : u * u = (ax + 1/2) * (ax + 1/2) + (ay + 1/2) * (ay + 1/2) + (az + 1/2) * (az + 1/2)) by (unfold u; rewrite sqrt_sqrt; nra).
  assert (U0 : 0 <= u) by apply sqrt_pos.
  assert (ax < 21/100) by nra.
  destruct (abs_le_norm3 (sub3 (V3 1 0 0) q)) as (X & _). fold (dist3 (V3 1 0 0) q) in X. cbn [sub3 x3] in X.
  assert (Rabs (1 - x3 q) >= 79/100) by (unfold ax in *; rmm; lra). lra.
Qed.
Example C57_example : exists s, must_box3 (V3 4 6 8) 1 = Ok s /\ exact3 s (round_cuboid (V3 4 6 8) 1) /\
  ev3 s (V3 3 3 4) = sqrt 6 - 1.
Proof.
  assert (E : exists s, must_box3 (V3 4 6 8) 1 = Ok s).
  { unfold must_box3, lte_zero3; cbn [x3 y3 z3]. rewrite !(proj2 (Rleb_false _ 0)) by lra. cbn [orb].
    rewrite (proj2 (Rltb_false 1 0)) by lra. eauto. }
  destruct E as (s & E). exists s. split; [exact E|]. split; [apply C57_box3; auto; cbn; lra|].
  unfold must_box3, lte_zero3 in E; cbn [x3 y3 z3] in E. rewrite !(proj2 (Rleb_false _ 0)) in E by lra. cbn [orb] in E.
  rewrite (proj2 (Rltb_false 1 0)) in E by lra. inversion E. cbn [ev3]. unfold sdf_box3d, abs_elem3; cbn [x3 y3 z3 sub3 scale3 elem3].
  rewrite !(Rabs_right) by lra. rewrite !(proj2 (Rltb_true 0 _)) by lra. cbn [andb]. unfold norm3, norm3sq, dot3; cbn [x3 y3 z3 sub3 scale3 elem3].
  apply (f_equal (fun v => sqrt v - 1)). field.
Qed.

(** ** C58 *)
(** The cylinder core of radius [r] and half height [h]. *)
Definition cyl (r h : R) (p : v3) : Prop := hypot (x3 p) (y3 p) <= r /\ Rabs (z3 p) <= h.
Lemma rect_rho r h p : rect (V2 r h) (rho p) <-> cyl r h p.
Proof.
  unfold rect, cyl. cbn [x2 y2]. change (y2 (rho p)) with (z3 p). change (x2 (rho p)) with (hypot (x3 p) (y3 p)).
  rewrite (Rabs_right (hypot _ _)) by apply Rle_ge, hypot_nonneg. reflexivity.
Qed.
Theorem C58_cylinder height radius round s : must_cylinder height radius round = Ok s ->
  exact3 s (rounded dist3 (cyl (radius - round) (height / 2 - round)) round).
Proof.
  unfold must_cylinder. destruct (Rleb radius 0) eqn:R; [discriminate|]. apply Rleb_false in R.
  destruct (Rltb round 0) eqn:R1; [discriminate|]. apply Rltb_false in R1.
  destruct (Rltb radius round) eqn:R2; [discriminate|]. apply Rltb_false in R2.
  destruct (Rltb height (2 * round)) eqn:R3; [discriminate|]. apply Rltb_false in R3.
  intros E. inversion E. clear E.
  assert (K : core dist3 (fun p => rect (V2 (radius - round) (height / 2 - round)) (rho p)) (fun p => sdf_box2d (rho p) (V2 (radius - round) (height / 2 - round)))).
  { apply (core_revolve _ (fun q => sdf_box2d q (V2 (radius - round) (height / 2 - round)))).
    - apply core_rect; cbn; lra.
    - intros c (Cx & Cy). split; cbn [mirror x2 y2]; [rewrite Rabs_Ropp|]; auto. }
  split; cbn [ev3 bb3].
  - intros p. eapply sdist_ext; [|exact (core_round3 _ _ round p K R1)].
    intros q. unfold rounded. split; intros (c & C & D); exists c; (split; [now apply rect_rho|auto]).
  - intros p H. apply rounded3_axis in H. destruct H as (c & (Cr & Cz) & Px & Py & Pz).
    destruct (hypot_ge (x3 c) (y3 c)) as (A & B).
    pose proof (abs_sum _ _ _ _ (Rle_trans _ _ _ A Cr) Px). pose proof (abs_sum _ _ _ _ (Rle_trans _ _ _ B Cr) Py). pose proof (abs_sum _ _ _ _ Cz Pz).
    unfold in3; cbn. lra.
Qed.
(** The capsule: points within [radius] of the axis segment. *)
Theorem C58_capsule height radius s : form_capsule height radius = Ok s ->
  exact3 s (fun p => exists z, - (height / 2 - radius) <= z <= height / 2 - radius /\ dist3 p (V3 0 0 z) <= radius).
Proof.
  unfold form_capsule, form_cylinder. destruct (must_cylinder height radius radius) as [s'| |] eqn:E; try discriminate. cbn [recovered]. intros Q. inversion Q. subst s'.
  destruct (C58_cylinder _ _ _ _ E) as (H & B).
  assert (Eq : forall p, rounded dist3 (cyl (radius - radius) (height / 2 - radius)) radius p <->
    (exists z, - (height / 2 - radius) <= z <= height / 2 - radius /\ dist3 p (V3 0 0 z) <= radius)).
  { intros p. split.
    - intros (c & (Cr & Cz) & D). exists (z3 c). split; [clear - Cz; rmm; lra|].
      assert (Z : hypot (x3 c) (y3 c) = 0) by (pose proof (hypot_nonneg (x3 c) (y3 c)); lra). apply hypot_zero in Z. destruct Z as (X & Y).
      replace (V3 0 0 (z3 c)) with c by (apply v3_ext; cbn; auto). exact D.
    - intros (z & Z & D). exists (V3 0 0 z). split; [|exact D]. split; cbn [x3 y3 z3].
      + unfold hypot. replace (0 * 0 + 0 * 0) with 0 by ring. rewrite sqrt_0. lra.
      + rmm; lra. }
  split.
  - intros p. eapply sdist_ext; [exact Eq|apply H].
  - intros p P. now apply B, Eq.
Qed.

(** *** The truncated cone *)
(** In (radius, z) coordinates the core is the trapezoid between z = -h and z = h with
    half width [a] at the bottom and [b] at the top; [u] is the direction of the slope.
    [left_of] is the same region without its mirror image: everything left of the slope. *)
Record slope (a b h l : R) (u : v2) : Prop := {
  sl_h : 0 <= h; sl_uy : 0 < y2 u; sl_unit : dot2 u u = 1;
  sl_lx : l * x2 u = b - a; sl_ly : l * y2 u = 2 * h }.
Definition left_of (a h : R) (u : v2) (p : v2) : Prop :=
  Rabs (y2 p) <= h /\ (x2 p - a) * y2 u - (y2 p + h) * x2 u <= 0.
Definition trapezoid (a h : R) (u : v2) (p : v2) : Prop := left_of a h u (V2 (Rabs (x2 p)) (y2 p)).
Definition cone_E (a b h l : R) (u : v2) (p : v2) : R := cone_eval2 (Cone a b h 0 u (V2 (y2 u) (- x2 u)) l) p.
Definition cone_D (a b h l : R) (u : v2) (p : v2) : R := cone_E a b h l u (V2 (Rabs (x2 p)) (y2 p)).
(** [D] is a signed distance from [p] along the outer normal [n] of a supporting line
    through [c]. *)
Definition supported (C : v2 -> Prop) (p : v2) (D : R) : Prop := exists c n,
  (0 <= D -> C c) /\ dot2 n n = 1 /\ (forall c', C c' -> dot2 n (sub2 c' c) <= 0) /\ p = add2 c (scale2 D n).
Lemma half_least (C : v2 -> Prop) c n D c' : dot2 n n = 1 -> (forall c', C c' -> dot2 n (sub2 c' c) <= 0) ->
  C c' -> D <= dist2 (add2 c (scale2 D n)) c'.
Proof.
  intros U N H. specialize (N c' H).
  pose proof (cauchy2 n (sub2 (add2 c (scale2 D n)) c')) as K. fold (dist2 (add2 c (scale2 D n)) c') in K.
  assert (N1 : norm2 n = 1) by (unfold norm2, norm2sq; rewrite U; apply sqrt_1). rewrite N1, Rmult_1_l in K.
  replace (dot2 n (sub2 (add2 c (scale2 D n)) c')) with (D * dot2 n n - dot2 n (sub2 c' c)) in K by (unfold dot2; cbn; ring).
  rewrite U in K. lra.
Qed.
Lemma line_dist c n s t : dot2 n n = 1 -> dist2 (add2 c (scale2 s n)) (add2 c (scale2 t n)) = Rabs (t - s).
Proof.
  intros U. rewrite dist2_sym. unfold dist2. replace (sub2 _ _) with (scale2 (t - s) n) by (apply v2_ext; cbn; ring).
  assert (N1 : norm2 n = 1) by (unfold norm2, norm2sq; rewrite U; apply sqrt_1). rewrite norm2_scale, N1. ring.
Qed.
Lemma core_of_supports_all (C : v2 -> Prop) (D : v2 -> R) : (forall p, supported C p (D p)) ->
  (forall p q, D p < 0 -> dist2 p q <= - D p -> C q) -> core dist2 C D.
Proof.
  intros H I. constructor.
  - intros p L. destruct (H p) as (c & n & Cc & U & N & E). exists c. split; [auto|].
    replace c with (add2 c (scale2 0 n)) at 1 by (apply v2_ext; cbn; ring). rewrite E at 1. rewrite line_dist by auto.
    rewrite Rabs_left1; lra.
  - intros p c' Cc'. destruct (H p) as (c & n & Cc & U & N & E). rewrite E at 2. eapply half_least; eauto.
  - intros p q L K. destruct (Rle_lt_or_eq_dec _ _ L) as [L'|L']; [eauto|].
    destruct (H p) as (c & n & Cc & U & N & E). rewrite L' in *.
    assert (p = c) by (rewrite E; apply v2_ext; cbn; ring). subst c.
    assert (D0 : dist2 p q = 0) by (pose proof (dist2_nonneg p q); lra).
    assert (q = p).
    { unfold dist2 in D0. apply norm2_zero_iff in D0. pose proof (f_equal x2 D0) as X. pose proof (f_equal y2 D0) as Y. cbn in X, Y. apply v2_ext; lra. }
    subst q. apply Cc. lra.
  - intros p t T L. destruct (H p) as (c & n & Cc & U & N & E). exists (add2 c (scale2 t n)). split.
    * rewrite E at 1. rewrite line_dist by auto. rewrite Rabs_right; lra.
    * intros c' Cc'. eapply half_least; eauto.
Qed.
(** A set with a supported distance at every point of the right half plane, symmetric
    about the axis, is a core. *)
Lemma core_of_supports (C : v2 -> Prop) (D : v2 -> R) : (forall c, C c -> C (mirror c)) -> (forall p, D (mirror p) = D p) ->
  (forall p, 0 <= x2 p -> supported C p (D p)) ->
  (forall p q, 0 <= x2 p -> D p < 0 -> dist2 p q <= - D p -> C q) -> core dist2 C D.
Proof.
  intros M S H I.
  assert (W : forall P : v2 -> Prop, (forall p, P (mirror p) -> P p) -> (forall p, 0 <= x2 p -> P p) -> forall p, P p).
  { intros P PM PP p. destruct (Rle_or_lt 0 (x2 p)); [auto|]. apply PM, PP. cbn. lra. }
  constructor.
  - refine (W _ _ _).
    + intros p Q L. rewrite <- S in L. destruct (Q L) as (c & Cc & E). exists (mirror c). split; [auto|].
      rewrite <- S, <- E, <- mirror_dist, mirror_mirror. reflexivity.
    + intros p P L. destruct (H p P) as (c & n & Cc & U & N & E). exists c. split; [auto|].
      replace c with (add2 c (scale2 0 n)) at 1 by (apply v2_ext; cbn; ring). rewrite E at 1. rewrite line_dist by auto.
      rewrite Rabs_left1; lra.
  - refine (W _ _ _).
    + intros p Q c Cc. rewrite <- S, <- (mirror_dist p c). auto.
    + intros p P c' Cc'. destruct (H p P) as (c & n & Cc & U & N & E). rewrite E at 2. eapply half_least; eauto.
  - refine (W _ _ _).
    + intros p Q q L K. rewrite <- S in L, K. rewrite <- (mirror_dist p q) in K. specialize (Q _ L K). apply M in Q. now rewrite mirror_mirror in Q.
    + intros p P q L K. destruct (Rle_lt_or_eq_dec _ _ L) as [L'|L']; [eauto|].
      destruct (H p P) as (c & n & Cc & U & N & E). rewrite L' in *.
      assert (p = c) by (rewrite E; apply v2_ext; cbn; ring). subst c.
      assert (D0 : dist2 p q = 0) by (pose proof (dist2_nonneg p q); lra).
      assert (q = p).
      { unfold dist2 in D0. apply norm2_zero_iff in D0. pose proof (f_equal x2 D0) as X. pose proof (f_equal y2 D0) as Y. cbn in X, Y. apply v2_ext; lra. }
      subst q. apply Cc. lra.
  - refine (W _ _ _).
    + intros p Q t T L. rewrite <- S in L. destruct (Q t T L) as (q & E & A). exists (mirror q). split.
      * rewrite <- S, <- E, <- mirror_dist, mirror_mirror. reflexivity.
      * intros c Cc. rewrite <- mirror_dist, mirror_mirror. auto.
    + intros p P t T L. destruct (H p P) as (c & n & Cc & U & N & E). exists (add2 c (scale2 t n)). split.
      * rewrite E at 1. rewrite line_dist by auto. rewrite Rabs_right; lra.
      * intros c' Cc'. eapply half_least; eauto.
Qed.
(** Every point has a supporting line, and its foot is on the right of the axis for points
    on the right when the two widths are not negative. *)
Lemma cone_support a b h l u p : slope a b h l u -> exists c n,
  (0 <= cone_E a b h l u p -> left_of a h u c /\ (0 <= a -> 0 <= b -> 0 <= x2 p -> 0 <= x2 c)) /\ dot2 n n = 1 /\
  (forall c', left_of a h u c' -> dot2 n (sub2 c' c) <= 0) /\ p = add2 c (scale2 (cone_E a b h l u p) n).
Proof.
  intros [Hh Uy UU Lx Ly].
  set (n := V2 (y2 u) (- x2 u)).
  assert (NN : dot2 n n = 1) by (unfold n, dot2 in *; cbn; lra).
  assert (UU' : x2 u * x2 u + y2 u * y2 u = 1) by exact UU.
  assert (L0 : 0 <= l) by nra.
  (* the slope function seen from the top vertex *)
  assert (Top : forall x y, (x - a) * y2 u - (y + h) * x2 u = (x - b) * y2 u - (y - h) * x2 u) by (intros; nra).
  assert (Slope : forall c, left_of a h u c -> (x2 c - a) * y2 u - (y2 c + h) * x2 u <= 0).
  { intros c (_ & C). exact C. }
  (* outer normals of the four kinds of boundary *)
  assert (NTop : forall x c, left_of a h u c -> dot2 (V2 0 1) (sub2 c (V2 x h)) <= 0).
  { intros x c (C & _). unfold dot2; cbn. clear - C. rmm; lra. }
  assert (NBot : forall x c, left_of a h u c -> dot2 (V2 0 (-1)) (sub2 c (V2 x (- h))) <= 0).
  { intros x c (C & _). unfold dot2; cbn. clear - C. rmm; lra. }
  assert (NSlope : forall t c, left_of a h u c -> dot2 n (sub2 c (add2 (V2 a (- h)) (scale2 t u))) <= 0).
  { intros t c C. apply Slope in C. unfold n, dot2; cbn. nra. }
  unfold cone_E, cone_eval2; cbn [c_r0 c_r1 c_h c_round c_u c_n c_l]. fold n. rewrite ?Rminus_0_r.
  set (v := sub2 p (V2 a (- h))). set (ds := dot2 v n). set (t := dot2 v u).
  assert (Eds : ds = (x2 p - a) * y2 u - (y2 p + h) * x2 u) by (unfold ds, v, n, dot2; cbn; ring).
  assert (Et : t = (x2 p - a) * x2 u + (y2 p + h) * y2 u) by (unfold t, v, dot2; cbn; ring).
  assert (Eds' : ds = (x2 p - b) * y2 u - (y2 p - h) * x2 u) by (rewrite Eds; apply Top).
  assert (Etl : t - l = (x2 p - b) * x2 u + (y2 p - h) * y2 u) by (rewrite Et; nra).
  assert (Pv : p = add2 (V2 a (- h)) v) by (apply v2_ext; unfold v; cbn; ring).
  assert (Dec : p = add2 (add2 (V2 a (- h)) (scale2 t u)) (scale2 ds n)).
  { rewrite Eds, Et. apply v2_ext; unfold n; cbn [add2 scale2 x2 y2].
    - transitivity (a + (x2 p - a) * (x2 u * x2 u + y2 u * y2 u)); [rewrite UU'; ring|ring].
    - transitivity (- h + (y2 p + h) * (x2 u * x2 u + y2 u * y2 u)); [rewrite UU'; ring|ring]. }
  destruct (Rleb h (y2 p) && Rleb (x2 p) b) eqn:R1.
  { apply andb_true_iff in R1. rewrite !Rleb_true in R1. destruct R1 as (Y & X).
    exists (V2 (x2 p) h), (V2 0 1). split; [|split; [|split]].
    - intros _. split; [split; cbn [x2 y2]; [rewrite Rabs_right; lra|rewrite Top; clear - X Uy; nra]|auto].
    - unfold dot2; cbn; ring.
    - intros c C. now apply NTop.
    - apply v2_ext; cbn; ring. }
  destruct (Rleb (y2 p) (- h) && Rleb (x2 p) a) eqn:R2.
  { apply andb_true_iff in R2. rewrite !Rleb_true in R2. destruct R2 as (Y & X).
    exists (V2 (x2 p) (- h)), (V2 0 (-1)). split; [|split; [|split]].
    - intros _. split; [split; cbn [x2 y2]; [rewrite Rabs_Ropp, Rabs_right; lra|clear - X Uy; nra]|auto].
    - unfold dot2; cbn; ring.
    - intros c C. now apply NBot.
    - apply v2_ext; cbn; ring. }
  apply andb_false_iff in R1, R2. rewrite !Rleb_false in R1, R2.
  destruct (Rltb ds 0 && Rltb (Rabs (y2 p)) h) eqn:R3.
  { apply andb_true_iff in R3. rewrite !Rltb_true in R3. destruct R3 as (Sd & Y).
    unfold Rmin. destruct (Rle_dec (- ds) (h - Rabs (y2 p))) as [K|K].
    - rewrite Ropp_involutive. exists (add2 (V2 a (- h)) (scale2 t u)), n. split; [lra|]. split; [exact NN|]. split; [|exact Dec].
      intros c C. now apply NSlope.
    - destruct (Rle_or_lt 0 (y2 p)) as [Q|Q].
      + exists (V2 (x2 p) h), (V2 0 1). split; [lra|]. split; [unfold dot2; cbn; ring|]. split; [intros c C; now apply NTop|].
        rewrite (Rabs_right (y2 p)) by lra. apply v2_ext; cbn; ring.
      + exists (V2 (x2 p) (- h)), (V2 0 (-1)). split; [lra|]. split; [unfold dot2; cbn; ring|]. split; [intros c C; now apply NBot|].
        rewrite (Rabs_left (y2 p)) by lra. apply v2_ext; cbn; ring. }
  apply andb_false_iff in R3. rewrite !Rltb_false in R3.
  (* a point behind the slope line but past an end is past that end along the slope *)
  assert (Behind : ds < 0 -> t < 0 \/ l < t).
  { intros Sd. destruct R3 as [R3|R3]; [lra|]. destruct (Rle_or_lt 0 (y2 p)) as [Q|Q].
    - rewrite Rabs_right in R3 by lra. destruct R1 as [R1|R1]; [lra|]. right.
      assert (U1 : 0 < (x2 p - b) * y2 u) by (apply Rmult_lt_0_compat; lra).
      assert (U2 : 0 < (y2 p - h) * x2 u) by lra. assert (U3 : 0 < x2 u) by (clear - U2 R3; nra).
      assert (U4 : 0 < (x2 p - b) * x2 u) by (apply Rmult_lt_0_compat; lra).
      assert (U5 : 0 <= (y2 p - h) * y2 u) by (apply Rmult_le_pos; lra). lra.
    - rewrite Rabs_left in R3 by lra. destruct R2 as [R2|R2]; [lra|]. left.
      assert (U1 : 0 < (x2 p - a) * y2 u) by (apply Rmult_lt_0_compat; lra).
      assert (U2 : 0 < (y2 p + h) * x2 u) by lra. assert (U3 : x2 u < 0) by (clear - U2 R3; nra).
      assert (U4 : (x2 p - a) * x2 u < 0) by (clear - U3 R2; nra).
      assert (U5 : (y2 p + h) * y2 u <= 0) by (clear - R3 Uy; nra). lra. }
  destruct (Rleb 0 t && Rleb t l) eqn:R4.
  { apply andb_true_iff in R4. rewrite !Rleb_true in R4. destruct R4 as (T0 & T1).
    exists (add2 (V2 a (- h)) (scale2 t u)), n. split; [|split; [exact NN|split; [|exact Dec]]].
    - intros _. assert (Cx : 0 <= a -> 0 <= b -> 0 <= a + t * x2 u).
      { intros Ha Hb. destruct (Rle_or_lt 0 (x2 u)); [assert (0 <= t * x2 u) by (apply Rmult_le_pos; lra); lra|].
        assert (l * x2 u <= t * x2 u) by (clear - T1 H; nra). lra. }
      split; [split|]; cbn [add2 scale2 x2 y2]; auto.
      + assert (0 <= t * y2 u) by (apply Rmult_le_pos; lra). assert (t * y2 u <= l * y2 u) by (clear - T1 Uy; nra).
        apply Rabs_le. lra.
      + right. ring.
    - intros c C. now apply NSlope. }
  apply andb_false_iff in R4. rewrite !Rleb_false in R4.
  destruct (Rltb t 0) eqn:R5.
  { apply Rltb_true in R5.
    assert (Vx : 0 <= x2 p - a).
    { destruct R2 as [R2|R2]; [|lra]. destruct (Rle_or_lt 0 ds) as [Sd|Sd].
      - apply Rnot_lt_le. intros Q. assert (U1 : (x2 p - a) * y2 u < 0) by (clear - Q Uy; nra).
        assert (U2 : (y2 p + h) * x2 u < 0) by lra. assert (U3 : x2 u < 0) by (clear - U2 R2; nra).
        assert (U4 : 0 < (x2 p - a) * x2 u) by (clear - U3 Q; nra). assert (U5 : 0 < (y2 p + h) * y2 u) by (apply Rmult_lt_0_compat; lra). lra.
      - exfalso. destruct R3 as [R3|R3]; [lra|]. assert (Y : h <= y2 p) by (clear - R3 R2; rmm; lra).
        destruct R1 as [R1|R1]; [lra|].
        assert (U1 : 0 < (x2 p - b) * y2 u) by (apply Rmult_lt_0_compat; lra).
        assert (U2 : 0 < (y2 p - h) * x2 u) by lra. assert (U3 : 0 < x2 u) by (clear - U2 Y; nra).
        assert (U4 : 0 < (x2 p - b) * x2 u) by (apply Rmult_lt_0_compat; lra).
        assert (U5 : 0 <= (y2 p - h) * y2 u) by (apply Rmult_le_pos; lra). lra. }
    assert (NV : norm2 v <> 0). { intros Z. apply norm2_zero_iff in Z. assert (t = 0); [|lra]. unfold t. rewrite Z. unfold dot2; cbn; ring. }
    exists (V2 a (- h)), (scale2 (/ norm2 v) v). split; [|split; [|split]].
    - intros _. split; [split; cbn [x2 y2]; [rewrite Rabs_Ropp, Rabs_right; lra|right; ring]|auto].
    - transitivity (/ norm2 v * / norm2 v * norm2sq v); [unfold norm2sq, dot2; cbn; ring|]. rewrite <- norm2_sq. field. auto.
    - intros c C. pose proof (Slope c C) as Sc. destruct C as (Cy & _).
      assert (Cy' : 0 <= y2 c + h) by (clear - Cy; rmm; lra).
      assert (K : dot2 v (sub2 c (V2 a (- h))) <= 0).
      { assert (K : y2 u * dot2 v (sub2 c (V2 a (- h))) <= 0).
        { assert (E1 : y2 u * dot2 v (sub2 c (V2 a (- h))) = (x2 p - a) * ((x2 c - a) * y2 u) + (y2 p + h) * y2 u * (y2 c + h)) by (unfold v, dot2; cbn; ring).
          assert (E2 : (x2 p - a) * ((x2 c - a) * y2 u) <= (x2 p - a) * ((y2 c + h) * x2 u)) by (apply Rmult_le_compat_l; lra).
          assert (E3 : (y2 c + h) * t <= 0) by (clear - R5 Cy'; nra). rewrite Et in E3. clear - E1 E2 E3. lra. }
        clear - K Uy. apply Rnot_lt_le. intros Q. assert (0 < y2 u * dot2 v (sub2 c (V2 a (- h)))) by (apply Rmult_lt_0_compat; auto). lra. }
      replace (dot2 _ _) with (/ norm2 v * dot2 v (sub2 c (V2 a (- h)))) by (unfold dot2; cbn; ring).
      assert (0 < / norm2 v) by (apply Rinv_0_lt_compat; pose proof (norm2_nonneg v); lra). clear - H K. nra.
    - rewrite Pv at 1. f_equal. apply v2_ext; cbn; field; auto. }
  apply Rltb_false in R5. destruct R4 as [R4|R4]; [lra|].
  set (w := sub2 p (V2 b h)).
  assert (Wx : 0 <= x2 p - b).
  { destruct R1 as [R1|R1]; [|lra]. destruct (Rle_or_lt 0 ds) as [Sd|Sd].
    - apply Rnot_lt_le. intros Q. assert (U1 : (x2 p - b) * y2 u < 0) by (clear - Q Uy; nra).
      assert (U2 : (y2 p - h) * x2 u < 0) by lra. assert (U3 : 0 < x2 u) by (clear - U2 R1; nra).
      assert (U4 : (x2 p - b) * x2 u < 0) by (clear - U3 Q; nra). assert (U5 : (y2 p - h) * y2 u < 0) by (clear - R1 Uy; nra). lra.
    - exfalso. destruct R3 as [R3|R3]; [lra|]. assert (Y : y2 p <= - h) by (clear - R3 R1; rmm; lra).
      destruct R2 as [R2|R2]; [lra|].
      assert (U1 : 0 < (x2 p - a) * y2 u) by (apply Rmult_lt_0_compat; lra).
      assert (U2 : 0 < (y2 p + h) * x2 u) by lra. assert (U3 : x2 u < 0) by (clear - U2 Y; nra).
      assert (U4 : (x2 p - a) * x2 u < 0) by (clear - U3 R2; nra).
      assert (U5 : (y2 p + h) * y2 u <= 0) by (clear - Y Uy; nra). lra. }
  assert (NW : norm2 w <> 0).
  { intros Z. apply norm2_zero_iff in Z. pose proof (f_equal x2 Z) as Z1. pose proof (f_equal y2 Z) as Z2. cbn in Z1, Z2. rewrite Z1, Z2 in Etl. lra. }
  exists (V2 b h), (scale2 (/ norm2 w) w). split; [|split; [|split]].
  + intros _. split; [split; cbn [x2 y2]; [rewrite Rabs_right; lra|rewrite Top; right; ring]|auto].
  + transitivity (/ norm2 w * / norm2 w * norm2sq w); [unfold norm2sq, dot2; cbn; ring|]. rewrite <- norm2_sq. field. auto.
  + intros c C. pose proof (Slope c C) as Sc. rewrite Top in Sc. destruct C as (Cy & _).
    assert (Cy' : y2 c - h <= 0) by (clear - Cy; rmm; lra).
    assert (K : dot2 w (sub2 c (V2 b h)) <= 0).
    { assert (K : y2 u * dot2 w (sub2 c (V2 b h)) <= 0).
      { assert (E1 : y2 u * dot2 w (sub2 c (V2 b h)) = (x2 p - b) * ((x2 c - b) * y2 u) + (y2 p - h) * y2 u * (y2 c - h)) by (unfold w, dot2; cbn; ring).
        assert (E2 : (x2 p - b) * ((x2 c - b) * y2 u) <= (x2 p - b) * ((y2 c - h) * x2 u)) by (apply Rmult_le_compat_l; lra).
        assert (E3 : (y2 c - h) * (t - l) <= 0) by (clear - R4 Cy'; nra). rewrite Etl in E3. clear - E1 E2 E3. lra. }
      clear - K Uy. apply Rnot_lt_le. intros Q. assert (0 < y2 u * dot2 w (sub2 c (V2 b h))) by (apply Rmult_lt_0_compat; auto). lra. }
    replace (dot2 _ _) with (/ norm2 w * dot2 w (sub2 c (V2 b h))) by (unfold dot2; cbn; ring).
    assert (0 < / norm2 w) by (apply Rinv_0_lt_compat; pose proof (norm2_nonneg w); lra). clear - H K. nra.
  + apply v2_ext; cbn; field; auto.
Qed.
(** The ball whose radius is the depth lies inside. *)
Lemma cone_depth a b h l u p q : slope a b h l u -> cone_E a b h l u p < 0 -> dist2 p q <= - cone_E a b h l u p -> left_of a h u q.
Proof.
  intros [Hh Uy UU Lx Ly] N D.
  set (n := V2 (y2 u) (- x2 u)).
  assert (NN : dot2 n n = 1) by (unfold n, dot2 in *; cbn; lra).
  assert (UU' : x2 u * x2 u + y2 u * y2 u = 1) by exact UU.
  assert (L0 : 0 <= l) by nra.
  assert (Top : forall x y, (x - a) * y2 u - (y + h) * x2 u = (x - b) * y2 u - (y - h) * x2 u) by (intros; nra).
  unfold cone_E, cone_eval2 in *; cbn [c_r0 c_r1 c_h c_round c_u c_n c_l] in *. fold n in N, D. rewrite ?Rminus_0_r in *.
  set (v := sub2 p (V2 a (- h))) in *. set (ds := dot2 v n) in *. set (t := dot2 v u) in *.
  destruct (Rleb h (y2 p) && Rleb (x2 p) b) eqn:R1.
  { apply andb_true_iff in R1. rewrite !Rleb_true in R1. lra. }
  destruct (Rleb (y2 p) (- h) && Rleb (x2 p) a) eqn:R2.
  { apply andb_true_iff in R2. rewrite !Rleb_true in R2. lra. }
  destruct (Rltb ds 0 && Rltb (Rabs (y2 p)) h) eqn:R3.
  { clear R1 R2. set (m := Rmin (- ds) (h - Rabs (y2 p))) in *. rewrite Ropp_involutive in D.
    assert (M : m <= - ds /\ m <= h - Rabs (y2 p)) by (unfold m; split; [apply Rmin_l|apply Rmin_r]).
    destruct (abs_le_norm2 (sub2 p q)) as (_ & B). fold (dist2 p q) in B. cbn [sub2 y2] in B.
    split; [clear - B D M; rmm; lra|].
    pose proof (cauchy2 n (sub2 q p)) as C. change (norm2 (sub2 q p)) with (dist2 q p) in C. rewrite dist2_sym in C.
    assert (N1 : norm2 n = 1) by (unfold norm2, norm2sq; rewrite NN; apply sqrt_1). rewrite N1, Rmult_1_l in C.
    assert (E : dot2 n (sub2 q p) = ((x2 q - a) * y2 u - (y2 q + h) * x2 u) - ds) by (unfold ds, v, n, dot2; cbn; ring).
    lra. }
  exfalso. destruct (Rleb 0 t && Rleb t l) eqn:R4.
  + apply andb_false_iff in R1, R2, R3. rewrite !Rleb_false in R1, R2. rewrite !Rltb_false in R3. apply andb_true_iff in R4. rewrite !Rleb_true in R4.
    assert (Eds : ds = (x2 p - a) * y2 u - (y2 p + h) * x2 u) by (unfold ds, v, n, dot2; cbn; ring).
    assert (Et : t = (x2 p - a) * x2 u + (y2 p + h) * y2 u) by (unfold t, v, dot2; cbn; ring).
    assert (Eds' : ds = (x2 p - b) * y2 u - (y2 p - h) * x2 u) by (rewrite Eds; apply Top).
    assert (Etl : t - l = (x2 p - b) * x2 u + (y2 p - h) * y2 u) by (rewrite Et; nra).
    destruct R3 as [R3|R3]; [lra|]. destruct (Rle_or_lt 0 (y2 p)) as [Q|Q].
    * rewrite Rabs_right in R3 by lra. destruct R1 as [R1|R1]; [lra|].
      assert (U1 : 0 < (x2 p - b) * y2 u) by (apply Rmult_lt_0_compat; lra).
      assert (U2 : 0 < (y2 p - h) * x2 u) by lra. assert (U3 : 0 < x2 u) by (clear - U2 R3; nra).
      assert (U4 : 0 < (x2 p - b) * x2 u) by (apply Rmult_lt_0_compat; lra).
      assert (U5 : 0 <= (y2 p - h) * y2 u) by (apply Rmult_le_pos; lra). lra.
    * rewrite Rabs_left in R3 by lra. destruct R2 as [R2|R2]; [lra|].
      assert (U1 : 0 < (x2 p - a) * y2 u) by (apply Rmult_lt_0_compat; lra).
      assert (U2 : 0 < (y2 p + h) * x2 u) by lra. assert (U3 : x2 u < 0) by (clear - U2 R3; nra).
      assert (U4 : (x2 p - a) * x2 u < 0) by (clear - U3 R2; nra).
      assert (U5 : (y2 p + h) * y2 u <= 0) by (clear - R3 Uy; nra). lra.
  + destruct (Rltb t 0); [pose proof (norm2_nonneg v); lra|]. pose proof (norm2_nonneg (sub2 p (V2 b h))). lra.
Qed.
Lemma core_left_of a b h l u : slope a b h l u -> core dist2 (left_of a h u) (cone_E a b h l u).
Proof.
  intros S. apply core_of_supports_all.
  - intros p. destruct (cone_support a b h l u p S) as (c & n & F & U & N & E). exists c, n. split; [|auto]. intros L. now apply F.
  - intros p q. now apply cone_depth.
Qed.
Lemma core_trapezoid a b h l u : slope a b h l u -> 0 <= a -> 0 <= b -> core dist2 (trapezoid a h u) (cone_D a b h l u).
Proof.
  intros S Ha Hb. pose proof (sl_uy _ _ _ _ _ S) as Uy.
  assert (Fold : forall p, 0 <= x2 p -> V2 (Rabs (x2 p)) (y2 p) = p) by (intros p P; apply v2_ext; cbn; auto; apply Rabs_right; lra).
  apply core_of_supports.
  - intros c C. unfold trapezoid in *. cbn [mirror x2 y2]. now rewrite Rabs_Ropp.
  - intros p. unfold cone_D. cbn [mirror x2 y2]. now rewrite Rabs_Ropp.
  - intros p P. unfold cone_D. rewrite Fold by auto.
    destruct (cone_support a b h l u p S) as (c & n & F & U & N & E). exists c, n. split; [|split; [auto|split; [|auto]]].
    + intros L. destruct (F L) as (F1 & F2). unfold trapezoid. rewrite Fold; auto.
    + intros c' (C1 & C2). apply N. cbn [x2 y2] in C1, C2. split; [auto|]. pose proof (Rle_abs (x2 c')). nra.
  - intros p q P. unfold cone_D. rewrite Fold by auto. intros N D. unfold trapezoid. apply (cone_depth a b h l u p _ S N).
    eapply Rle_trans; [|exact D]. unfold dist2. apply norm2_le_of. unfold norm2sq, dot2, sub2; cbn [x2 y2].
    assert ((x2 p - Rabs (x2 q)) * (x2 p - Rabs (x2 q)) <= (x2 p - x2 q) * (x2 p - x2 q)); [|lra].
    unfold Rabs. destruct (Rcase_abs (x2 q)); [|lra]. clear - P r. nra.
Qed.
Lemma cone_round s : forall p, cone_eval2 s p = cone_eval2 (Cone (c_r0 s) (c_r1 s) (c_h s) 0 (c_u s) (c_n s) (c_l s)) p - c_round s.
Proof.
  intros p. unfold cone_eval2; cbn [c_r0 c_r1 c_h c_round c_u c_n c_l].
  repeat match goal with |- context [if ?b then _ else _] => destruct b end; ring.
Qed.
Lemma slope_of_cone height r0 r1 round : 0 < height -> 0 <= round -> 2 * round <= height ->
  let s := cone_of height r0 r1 round in
  slope (c_r0 s) (c_r1 s) (c_h s) (c_l s) (c_u s) /\ c_n s = V2 (y2 (c_u s)) (- x2 (c_u s)) /\
  x2 (c_u s) * height = y2 (c_u s) * (r1 - r0) /\
  y2 (c_u s) * (c_r0 s - r0) = - (1 - x2 (c_u s)) * round /\ c_h s = height / 2 - round.
Proof.
  intros H R0 R1. cbn [cone_of c_r0 c_r1 c_h c_l c_u c_n].
  set (W := sub2 (V2 r1 (height / 2)) (V2 r0 (- height / 2))).
  assert (Wx : x2 W = r1 - r0) by reflexivity. assert (Wy : y2 W = height) by (unfold W; cbn; field).
  set (L := norm2 W).
  assert (L2 : L * L = x2 W * x2 W + y2 W * y2 W) by (unfold L; rewrite norm2_sq; unfold norm2sq, dot2; ring).
  assert (L1 : 0 < L).
  { assert (0 <= L) by apply norm2_nonneg. assert (L <> 0); [|lra]. intros Z. rewrite Z, Wy in L2. nra. }
  assert (Ux : x2 (unit2 W) = (r1 - r0) / L) by (unfold unit2; cbn [scale2 x2]; fold L; rewrite Wx; field; lra).
  assert (Uy : y2 (unit2 W) = height / L) by (unfold unit2; cbn [scale2 y2]; fold L; rewrite Wy; field; lra).
  set (u := unit2 W) in *. cbn [x2 y2].
  assert (Uy0 : 0 < y2 u) by (rewrite Uy; apply Rdiv_lt_0_compat; lra).
  set (s0 := r0 - (1 + - x2 u) * (round / y2 u)). set (s1 := r1 - (1 - - x2 u) * (round / y2 u)).
  set (k := 1 - 2 * round / height).
  assert (K : 0 <= k). { unfold k. apply Rmult_le_reg_r with height; [auto|]. replace ((1 - 2 * round / height) * height) with (height - 2 * round) by (field; lra). lra. }
  assert (S : s1 - s0 = k * (r1 - r0)) by (unfold s1, s0, k; rewrite Ux, Uy; field; lra).
  assert (Hh : height / 2 - round - - (height / 2 - round) = k * height) by (unfold k; field; lra).
  assert (Ln : norm2 (sub2 (V2 s1 (height / 2 - round)) (V2 s0 (- (height / 2 - round)))) = k * L).
  { replace (sub2 (V2 s1 (height / 2 - round)) (V2 s0 (- (height / 2 - round)))) with (scale2 k W).
    - rewrite norm2_scale, Rabs_right by lra. reflexivity.
    - apply v2_ext; cbn [scale2 sub2 x2 y2]; [change (x2 W) with (r1 - r0); lra|]. rewrite Wy. symmetry. exact Hh. }
  rewrite Ln.
  assert (Lu : L * x2 u = r1 - r0) by (rewrite Ux; field; lra). assert (Lv : L * y2 u = height) by (rewrite Uy; field; lra).
  split; [|split; [reflexivity|split; [|split; [|reflexivity]]]].
  - constructor.
    + lra.
    + exact Uy0.
    + unfold dot2. rewrite Ux, Uy. transitivity ((x2 W * x2 W + y2 W * y2 W) / (L * L)); [rewrite Wx, Wy; field; lra|]. rewrite <- L2. field. lra.
    + rewrite S, <- Lu. ring.
    + replace (2 * (height / 2 - round)) with (k * height) by lra. rewrite <- Lv. ring.
  - rewrite <- Lu, <- Lv. ring.
  - unfold s0. field. lra.
Qed.
Lemma slope_max a b h l u c : slope a b h l u -> left_of a h u c -> x2 c <= Rmax a b.
Proof.
  intros [Hh Uy UU Lx Ly] (Y & S). assert (Yb : - h <= y2 c <= h) by (clear - Y; rmm; lra).
  assert (x2 c <= a \/ x2 c <= b); [|rmm; lra].
  destruct (Rle_or_lt 0 (x2 u)) as [U|U].
  - right. assert ((y2 c + h) * x2 u <= 2 * h * x2 u) by (apply Rmult_le_compat_r; lra).
    rewrite <- Ly in H. assert (l * y2 u * x2 u = (b - a) * y2 u) by (rewrite <- Lx; ring).
    assert ((x2 c - b) * y2 u <= 0) by lra. clear - H1 Uy. nra.
  - left. assert ((y2 c + h) * x2 u <= 0) by (clear - Yb U; nra). assert ((x2 c - a) * y2 u <= 0) by lra. clear - H0 Uy. nra.
Qed.
(** The frustum: at a fraction [t] of the height the radius is the interpolated one. *)
Definition frustum (a b h : R) (p : v3) : Prop :=
  exists t, 0 <= t <= 1 /\ z3 p = - h + 2 * h * t /\ hypot (x3 p) (y3 p) <= a + t * (b - a).
Lemma trapezoid_frustum a b h l u p : slope a b h l u -> (left_of a h u (rho p) <-> frustum a b h p).
Proof.
  intros [Hh Uy UU Lx Ly]. unfold left_of, frustum. change (y2 (rho p)) with (z3 p). change (x2 (rho p)) with (hypot (x3 p) (y3 p)).
  set (r := hypot (x3 p) (y3 p)). clearbody r. set (z := z3 p). clearbody z. split.
  - intros (Z & S). destruct (Req_dec h 0) as [->|N].
    + exists 0. split; [lra|]. split; [clear - Z; rmm; lra|].
      assert (z = 0) by (clear - Z; rmm; lra). subst z. assert ((r - a) * y2 u <= 0) by lra. clear - H Uy. nra.
    + exists ((z + h) / (2 * h)). assert (Zb : - h <= z <= h) by (clear - Z; rmm; lra).
      assert (E : 2 * h * ((z + h) / (2 * h)) = z + h) by (field; lra).
      split; [split|split].
      * apply Rmult_le_reg_l with (2 * h); [lra|]. rewrite E. lra.
      * apply Rmult_le_reg_l with (2 * h); [lra|]. rewrite E. lra.
      * rewrite E. ring.
      * set (t := (z + h) / (2 * h)) in *. rewrite <- E, <- Ly in S. rewrite <- Lx.
        assert ((r - a - t * (l * x2 u)) * y2 u <= 0) by lra. clear - H Uy. nra.
  - intros (t & T & -> & S). split; [apply Rabs_le; clear - T Hh; nra|].
    replace (- h + 2 * h * t + h) with (t * (2 * h)) by ring. rewrite <- Ly, <- Lx in *.
    replace ((r - a) * y2 u - t * (l * y2 u) * x2 u) with ((r - (a + t * (l * x2 u))) * y2 u) by ring. clear - S Uy. nra.
Qed.
Lemma must_cone_ok height r0 r1 round s : must_cone height r0 r1 round = Ok s ->
  0 < height /\ 0 <= round /\ 2 * round <= height /\
  s = let c := cone_of height r0 r1 round in let r := Rmax (c_r0 c + round) (c_r1 c + round) in
      S3 (fun p => cone_eval2 c (rho p)) (Box3 (V3 (- r) (- r) (- height / 2)) (V3 r r (height / 2))).
Proof.
  unfold must_cone. destruct (Rleb height 0) eqn:H0; [discriminate|]. apply Rleb_false in H0.
  destruct (Rltb round 0) eqn:R0; [discriminate|]. apply Rltb_false in R0.
  destruct (Rltb height (2 * round)) eqn:R1; [discriminate|]. apply Rltb_false in R1.
  intros E. split; [auto|]. split; [auto|]. split; [auto|]. exact (eq_sym (f_equal (fun r => match r with Ok x => x | _ => s end) E)).
Qed.
(** Every cone the constructor accepts: its value is the signed distance in the
    (radius, z) half plane to the rounded region under the slope, it is 1-Lipschitz and its
    solid lies in Bounds. *)
Theorem C58_cone height r0 r1 round s : must_cone height r0 r1 round = Ok s ->
  let c := cone_of height r0 r1 round in
  (forall p, sdist dist2 (rounded dist2 (left_of (c_r0 c) (c_h c) (c_u c)) round) (rho p) (ev3 s p)) /\
  lip3 (ev3 s) /\ (forall p, ev3 s p <= 0 -> in3 (bb3 s) p).
Proof.
  intros E. destruct (must_cone_ok _ _ _ _ _ E) as (H0 & R0 & R1 & ->). clear E. cbn [ev3 bb3]. set (c := cone_of height r0 r1 round).
  destruct (slope_of_cone height r0 r1 round H0 R0 R1) as (S & Nn & _ & _ & Hh). fold c in S, Nn, Hh.
  assert (A : forall q, sdist dist2 (rounded dist2 (left_of (c_r0 c) (c_h c) (c_u c)) round) q (cone_eval2 c q)).
  { intros q. rewrite cone_round, Nn. apply (core_round2 _ _ round q (core_left_of _ _ _ _ _ S) R0). }
  split; [intros p; apply A|]. split.
  - intros p q. eapply Rle_trans; [apply (sdist_lip2 _ _ A)|]. apply rho_contracts.
  - intros p P. apply (sdist_in dist2 dist2_refl _ _ _ (A (rho p))) in P.
    destruct P as (k & K & D). pose proof (slope_max _ _ _ _ _ _ S K) as M. destruct K as (Ky & _).
    destruct (abs_le_norm2 (sub2 (rho p) k)) as (X & Y). fold (dist2 (rho p) k) in X, Y. cbn [sub2 x2 y2] in X, Y.
    change (y2 (rho p)) with (z3 p) in Y. change (x2 (rho p)) with (hypot (x3 p) (y3 p)) in X.
    destruct (hypot_ge (x3 p) (y3 p)) as (Hx & Hy).
    assert (Z : Rabs (z3 p) <= height / 2) by (rewrite Hh in Ky; clear - Ky Y D; rmm; lra).
    assert (Rr : hypot (x3 p) (y3 p) <= Rmax (c_r0 c + round) (c_r1 c + round)) by (clear - X M D; rmm; lra).
    set (rr := Rmax (c_r0 c + round) (c_r1 c + round)) in *. clearbody rr. unfold in3; cbn [min3 max3 x3 y3 z3]. clear - Z Rr Hx Hy. rmm; lra.
Qed.
(** Rounding that fits (the inset radii are not negative): the exact distance to the
    frustum with the inset radii rolled by a ball of radius [round]. *)
Theorem C58_cone_exact height r0 r1 round s : must_cone height r0 r1 round = Ok s ->
  let c := cone_of height r0 r1 round in 0 <= c_r0 c -> 0 <= c_r1 c ->
  exact3 s (rounded dist3 (frustum (c_r0 c) (c_r1 c) (height / 2 - round)) round).
Proof.
  intros E c A B. destruct (C58_cone _ _ _ _ _ E) as (_ & _ & I). destruct (must_cone_ok _ _ _ _ _ E) as (H0 & R0 & R1 & ->). clear E. fold c in I |- *. cbn zeta in I |- *.
  destruct (slope_of_cone height r0 r1 round H0 R0 R1) as (S & Nn & _ & _ & Hh). fold c in S, Nn, Hh.
  assert (K : core dist3 (fun p => trapezoid (c_r0 c) (c_h c) (c_u c) (rho p)) (fun p => cone_D (c_r0 c) (c_r1 c) (c_h c) (c_l c) (c_u c) (rho p))).
  { apply (core_revolve (trapezoid (c_r0 c) (c_h c) (c_u c)) (cone_D (c_r0 c) (c_r1 c) (c_h c) (c_l c) (c_u c))).
    - now apply core_trapezoid.
    - intros q Q. unfold trapezoid in *. cbn [mirror x2 y2]. now rewrite Rabs_Ropp. }
  assert (Fold : forall p, V2 (Rabs (x2 (rho p))) (y2 (rho p)) = rho p).
  { intros p. apply v2_ext; cbn [x2 y2]; [|reflexivity]. apply Rabs_right, Rle_ge, rho_nonneg. }
  assert (X : forall p, sdist dist3 (rounded dist3 (frustum (c_r0 c) (c_r1 c) (height / 2 - round)) round) p (cone_eval2 c (rho p))).
  { intros p. eapply sdist_ext; [|pose proof (core_round3 _ _ round p K R0) as Q; cbn beta in Q].
    2:{ unfold cone_D in Q. rewrite Fold in Q. rewrite cone_round, Nn. exact Q. }
    intros q. unfold rounded. split; intros (k & Ck & D); exists k; (split; [|auto]).
    - rewrite <- Hh. eapply (trapezoid_frustum _ _ _ _ _ k S). unfold trapezoid in Ck. now rewrite Fold in Ck.
    - unfold trapezoid. rewrite Fold. rewrite <- Hh in Ck. now apply (trapezoid_frustum _ _ _ _ _ k S). }
  split; cbn [ev3 bb3]; [exact X|].
  intros p P. apply (I p). cbn [ev3]. apply (sdist_in dist3 dist3_refl _ _ _ (X p)). exact P.
Qed.
(** The rounded cone never sticks out of the sharp one with the given radii. *)
Theorem C58_cone_in_sharp height r0 r1 round s p : must_cone height r0 r1 round = Ok s -> ev3 s p <= 0 ->
  frustum r0 r1 (height / 2) p.
Proof.
  intros E P. destruct (C58_cone _ _ _ _ _ E) as (A & _ & _). apply (sdist_in dist2 dist2_refl _ _ _ (A p)) in P. clear A.
  destruct (must_cone_ok _ _ _ _ _ E) as (H0 & R0 & R1 & _). clear E. destruct P as (k & (Ky & Ks) & D).
  set (c := cone_of height r0 r1 round) in *.
  destruct (slope_of_cone height r0 r1 round H0 R0 R1) as (S & _ & T1 & T2 & Hh). fold c in S, T1, T2, Hh.
  destruct S as [_ Uy UU _ _]. set (u := c_u c) in *. clearbody u. set (s0 := c_r0 c) in *. clearbody s0. rewrite Hh in *. clear Hh. clearbody c.
  destruct (abs_le_norm2 (sub2 (rho p) k)) as (_ & Y). fold (dist2 (rho p) k) in Y. cbn [sub2 x2 y2] in Y. change (y2 (rho p)) with (z3 p) in Y.
  assert (Zb : Rabs (z3 p) <= height / 2) by (clear - Ky Y D; rmm; lra).
  pose proof (cauchy2 (V2 (y2 u) (- x2 u)) (sub2 (rho p) k)) as C. fold (dist2 (rho p) k) in C.
  assert (N1 : norm2 (V2 (y2 u) (- x2 u)) = 1).
  { unfold norm2, norm2sq, dot2 in *; cbn [x2 y2]. replace (y2 u * y2 u + - x2 u * - x2 u) with 1 by lra. apply sqrt_1. }
  rewrite N1, Rmult_1_l in C. unfold dot2 in C. cbn [sub2 x2 y2] in C.
  change (y2 (rho p)) with (z3 p) in C. change (x2 (rho p)) with (hypot (x3 p) (y3 p)) in C. set (r := hypot (x3 p) (y3 p)) in *.
  exists ((z3 p + height / 2) / height).
  assert (Et : height * ((z3 p + height / 2) / height) = z3 p + height / 2) by (field; lra).
  set (t := (z3 p + height / 2) / height) in *. clearbody t.
  assert (Zc : - (height / 2) <= z3 p <= height / 2) by (clear - Zb; rmm; lra).
  split; [split; (apply Rmult_le_reg_l with height; [auto|]; lra)|]. split; [lra|]. fold r.
  assert (Q : (r - r0 - t * (r1 - r0)) * y2 u <= 0).
  { replace ((r - r0 - t * (r1 - r0)) * y2 u) with (r * y2 u - r0 * y2 u - t * (y2 u * (r1 - r0))) by ring. rewrite <- T1.
    replace (t * (x2 u * height)) with (x2 u * (z3 p + height / 2)) by (rewrite <- Et; ring). lra. }
  clear - Q Uy. nra.
Qed.
Example C58_cone_example : exists s, must_cone 8 9 3 1 = Ok s /\
  exact3 s (rounded dist3 (frustum 7 (5/2) (8 / 2 - 1)) 1) /\ ev3 s (V3 0 0 5) = 1.
Proof.
  assert (W : norm2 (sub2 (V2 3 (8 / 2)) (V2 9 (Ropp 8 / 2))) = 10).
  { unfold norm2, norm2sq, dot2; cbn [sub2 x2 y2]. replace ((3 - 9) * (3 - 9) + (8 / 2 - Ropp 8 / 2) * (8 / 2 - Ropp 8 / 2)) with (10 * 10) by field. apply sqrt_square. lra. }
  assert (E0 : c_r0 (cone_of 8 9 3 1) = 7) by (unfold cone_of, unit2; cbn [c_r0 c_r1]; rewrite W; cbn; field).
  assert (E1 : c_r1 (cone_of 8 9 3 1) = 5/2) by (unfold cone_of, unit2; cbn [c_r0 c_r1]; rewrite W; cbn; field).
  assert (E : exists s, must_cone 8 9 3 1 = Ok s).
  { unfold must_cone. rewrite (proj2 (Rleb_false 8 0)), (proj2 (Rltb_false 1 0)), (proj2 (Rltb_false 8 (2 * 1))) by lra. eauto. }
  destruct E as (s & E). exists s. split; [exact E|]. split.
  - pose proof (C58_cone_exact _ _ _ _ _ E) as H. cbn zeta in H. rewrite E0, E1 in H. apply H; lra.
  - revert E. unfold must_cone. rewrite (proj2 (Rleb_false 8 0)), (proj2 (Rltb_false 1 0)), (proj2 (Rltb_false 8 (2 * 1))) by lra.
    intros E. inversion E. cbn [ev3]. unfold cone_eval2. rewrite E1. cbn [cone_of c_h c_round x2 y2 x3 y3 z3].
    unfold hypot. replace (0 * 0 + 0 * 0) with 0 by ring. rewrite sqrt_0.
    rewrite (proj2 (Rleb_true (8 / 2 - 1) 5)), (proj2 (Rleb_true 0 (5/2))) by lra. cbn [andb]. lra.
Qed.
