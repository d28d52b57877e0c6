(** Cores of the primitive shapes: box, rectangle, segment, and cores of
    revolution. *)
From Coq Require Import Reals Lra List Bool.
From Verif Require Import Prelude Vec BoxModel MatrixModel SdfModel Trig Grades GradesSweep Distance PrimModel.
Import ListNotations.
Local Open Scope R_scope.

(** ** One axis *)
Definition sat (s p : R) : R := Rmax (- s) (Rmin s p).
Lemma sat_in s p : 0 <= s -> Rabs (sat s p) <= s.
Proof. unfold sat. intros. rmm; lra. Qed.
Lemma sat_out s p : 0 <= s -> 0 < Rabs p - s -> Rabs (p - sat s p) = Rabs p - s.
Proof. unfold sat. intros. rmm; lra. Qed.
Lemma sat_id s p : Rabs p - s <= 0 -> sat s p = p.
Proof. unfold sat. intros. rmm; lra. Qed.
Lemma sat_away s p k c : 0 <= s -> 1 <= k -> Rabs c <= s -> Rabs (k * (p - sat s p)) <= Rabs (sat s p + k * (p - sat s p) - c).
Proof.
  intros S K C. destruct (Rle_or_lt (Rabs p) s) as [L|L].
  - rewrite (sat_id s p) by lra. replace (k * (p - p)) with 0 by ring. rewrite Rabs_R0. apply Rabs_pos.
  - destruct (Rle_or_lt 0 p) as [P|P].
    + rewrite (Rabs_right p) in L by lra. assert (E : sat s p = s) by (unfold sat; rmm; lra). rewrite E.
      assert (0 <= k * (p - s)) by (apply Rmult_le_pos; lra). assert (c <= s) by (clear - C; rmm; lra).
      rewrite !Rabs_right by lra. lra.
    + rewrite (Rabs_left p) in L by lra. assert (E : sat s p = - s) by (unfold sat; rmm; lra). rewrite E.
      assert (k * (p - - s) <= 0) by (clear - K L P; nra). assert (- s <= c) by (clear - C; rmm; lra).
      rewrite !Rabs_left1 by lra. lra.
Qed.
Lemma sq_abs_le a b : Rabs a <= Rabs b -> a * a <= b * b.
Proof. intros H. pose proof (Rsqr_le_abs_1 a b H) as K. unfold Rsqr in K. exact K. Qed.
Definition push (s p t : R) : R := if Rltb p 0 then - (s + t) else s + t.
Lemma push_dist s p t : 0 <= t -> Rabs p <= s -> Rabs (p - push s p t) = t - (Rabs p - s).
Proof. unfold push. intros. rcase; rmm; lra. Qed.
Lemma push_away s p t c : 0 <= t -> Rabs c <= s -> t <= Rabs (push s p t - c).
Proof. unfold push. intros. rcase; rmm; lra. Qed.

(** ** The rectangle *)
Definition rect (s : v2) (p : v2) : Prop := Rabs (x2 p) <= x2 s /\ Rabs (y2 p) <= y2 s.
Definition sat2 (s p : v2) : v2 := V2 (sat (x2 s) (x2 p)) (sat (y2 s) (y2 p)).
Lemma box2d_outside p s : 0 < Rabs (x2 p) - x2 s \/ 0 < Rabs (y2 p) - y2 s -> 0 <= x2 s -> 0 <= y2 s ->
  sdf_box2d p s = dist2 p (sat2 s p) /\ 0 < sdf_box2d p s.
Proof.
  intros O Sx Sy.
  assert (E : sdf_box2d p s = dist2 p (sat2 s p)).
  { unfold sdf_box2d, abs_elem2, sub2; cbn [x2 y2].
    assert (Z : forall a b, dist2 p (sat2 s p) = sqrt (a * a + b * b) \/ (Rabs a <> Rabs (x2 p - sat (x2 s) (x2 p)) \/ Rabs b <> Rabs (y2 p - sat (y2 s) (y2 p)))).
    { intros a b. destruct (Req_dec (Rabs a) (Rabs (x2 p - sat (x2 s) (x2 p)))) as [A|A]; [|auto].
      destruct (Req_dec (Rabs b) (Rabs (y2 p - sat (y2 s) (y2 p)))) as [B|B]; [|auto]. left.
      unfold dist2, norm2, norm2sq, dot2, sub2, sat2; cbn [x2 y2]. f_equal.
      assert (F : forall u w, Rabs u = Rabs w -> u * u = w * w).
      { intros u w H. pose proof (f_equal (fun x => x * x) H) as K. cbn in K. rewrite <- !Rabs_mult in K.
        rewrite !Rabs_right in K by (apply Rle_ge, Rle_0_sqr). exact K. }
      rewrite (F _ _ A), (F _ _ B). reflexivity. }
    set (dx := Rabs (x2 p) - x2 s) in *. set (dy := Rabs (y2 p) - y2 s) in *.
    assert (X : 0 < dx -> Rabs (x2 p - sat (x2 s) (x2 p)) = dx) by (intros; apply sat_out; auto).
    assert (Y : 0 < dy -> Rabs (y2 p - sat (y2 s) (y2 p)) = dy) by (intros; apply sat_out; auto).
    assert (X' : dx <= 0 -> Rabs (x2 p - sat (x2 s) (x2 p)) = 0) by (intros; rewrite sat_id by auto; rewrite Rminus_diag_eq by reflexivity; apply Rabs_R0).
    assert (Y' : dy <= 0 -> Rabs (y2 p - sat (y2 s) (y2 p)) = 0) by (intros; rewrite sat_id by auto; rewrite Rminus_diag_eq by reflexivity; apply Rabs_R0).
    destruct (Rltb 0 dx) eqn:Bx; [apply Rltb_true in Bx|apply Rltb_false in Bx];
    (destruct (Rltb 0 dy) eqn:By; [apply Rltb_true in By|apply Rltb_false in By]); cbn [andb].
    - destruct (Z dx dy) as [K|[K|K]].
      + rewrite K. unfold norm2, norm2sq, dot2; cbn [x2 y2]. reflexivity.
      + rewrite X, Rabs_right in K by lra. lra.
      + rewrite Y, Rabs_right in K by lra. lra.
    - rewrite (proj2 (Rltb_false _ _)) by (unfold dx, dy in *; lra).
      destruct (Z dx 0) as [K|[K|K]].
      + rewrite K. replace (dx * dx + 0 * 0) with (dx * dx) by ring. rewrite sqrt_square; lra.
      + rewrite X, Rabs_right in K by lra. lra.
      + rewrite Y', Rabs_R0 in K by lra. lra.
    - rewrite (proj2 (Rltb_true _ _)) by (unfold dx, dy in *; lra).
      destruct (Z 0 dy) as [K|[K|K]].
      + rewrite K. replace (0 * 0 + dy * dy) with (dy * dy) by ring. rewrite sqrt_square; lra.
      + rewrite X', Rabs_R0 in K by lra. lra.
      + rewrite Y, Rabs_right in K by lra. lra.
    - lra. }
  split; [exact E|]. rewrite E.
  destruct (abs_le_norm2 (sub2 p (sat2 s p))) as (A & B). fold (dist2 p (sat2 s p)) in A, B. cbn [sub2 sat2 x2 y2] in A, B.
  destruct O as [O|O]; [rewrite sat_out in A by auto|rewrite sat_out in B by auto]; lra.
Qed.
Lemma box2d_inside p s : Rabs (x2 p) - x2 s <= 0 -> Rabs (y2 p) - y2 s <= 0 ->
  sdf_box2d p s = Rmax (Rabs (x2 p) - x2 s) (Rabs (y2 p) - y2 s).
Proof.
  intros X Y. unfold sdf_box2d, abs_elem2, sub2; cbn [x2 y2].
  rewrite (proj2 (Rltb_false 0 (Rabs (x2 p) - x2 s))) by lra. cbn [andb].
  destruct (Rltb (y2 s - x2 s) (Rabs (y2 p) - Rabs (x2 p))) eqn:B; [apply Rltb_true in B|apply Rltb_false in B].
  - rewrite Rmax_right; lra.
  - rewrite Rmax_left; lra.
Qed.
Lemma dist2_abs_ge a b u w : Rabs u <= Rabs (x2 a - x2 b) -> Rabs w <= Rabs (y2 a - y2 b) -> sqrt (u * u + w * w) <= dist2 a b.
Proof.
  intros U W. apply sq_abs_le in U, W. unfold dist2, norm2. apply sqrt_le_1_alt.
  unfold norm2sq, dot2, sub2; cbn [x2 y2]. lra.
Qed.
Lemma core_rect s : 0 <= x2 s -> 0 <= y2 s -> core dist2 (rect s) (fun p => sdf_box2d p s).
Proof.
  intros Sx Sy.
  assert (Cases : forall p, (0 < Rabs (x2 p) - x2 s \/ 0 < Rabs (y2 p) - y2 s) \/ (Rabs (x2 p) - x2 s <= 0 /\ Rabs (y2 p) - y2 s <= 0)) by (intros; lra).
  assert (Sat : forall p, rect s (sat2 s p)) by (intros p; split; cbn; apply sat_in; auto).
  assert (Least : forall p c, rect s c -> dist2 p (sat2 s p) <= dist2 p c).
  { intros p c (Cx & Cy). unfold dist2 at 1, norm2, norm2sq, dot2, sub2, sat2; cbn [x2 y2].
    apply dist2_abs_ge.
    - pose proof (sat_away (x2 s) (x2 p) 1 (x2 c) Sx (Rle_refl 1) Cx) as K. replace (sat _ _ + _ - _) with (x2 p - x2 c) in K by ring. now rewrite Rmult_1_l in K.
    - pose proof (sat_away (y2 s) (y2 p) 1 (y2 c) Sy (Rle_refl 1) Cy) as K. replace (sat _ _ + _ - _) with (y2 p - y2 c) in K by ring. now rewrite Rmult_1_l in K. }
  constructor.
  - intros p H. destruct (Cases p) as [O|(X & Y)].
    + exists (sat2 s p). destruct (box2d_outside p s O Sx Sy) as (E & _). auto.
    + rewrite (box2d_inside p s X Y) in *. exists p. rewrite dist2_refl. split; [split; lra|]. clear - H X Y. rmm; lra.
  - intros p c C. destruct (Cases p) as [O|(X & Y)].
    + destruct (box2d_outside p s O Sx Sy) as (E & _). rewrite E. auto.
    + rewrite (box2d_inside p s X Y). pose proof (dist2_nonneg p c). clear - X Y H. rmm; lra.
  - intros p q H D. destruct (Cases p) as [O|(X & Y)].
    + destruct (box2d_outside p s O Sx Sy). lra.
    + rewrite (box2d_inside p s X Y) in D. destruct (abs_le_norm2 (sub2 p q)) as (A & B). fold (dist2 p q) in A, B. cbn [sub2 x2 y2] in A, B.
      set (m := Rmax _ _) in D. assert (M : Rabs (x2 p) - x2 s <= m /\ Rabs (y2 p) - y2 s <= m) by (unfold m; split; [apply Rmax_l|apply Rmax_r]).
      assert (T : forall a b, Rabs b <= Rabs a + Rabs (a - b)) by (intros; rmm; lra).
      pose proof (T (x2 p) (x2 q)). pose proof (T (y2 p) (y2 q)). split; lra.
  - intros p t T L. destruct (Cases p) as [O|(X & Y)].
    + destruct (box2d_outside p s O Sx Sy) as (E & P). set (D := sdf_box2d p s) in *.
      set (k := t / D). assert (K : k * D = t) by (unfold k; field; lra). assert (K1 : 1 <= k) by (clear - K P L; nra).
      exists (add2 (sat2 s p) (scale2 k (sub2 p (sat2 s p)))). split.
      * rewrite dist2_sym. unfold dist2. replace (sub2 _ p) with (scale2 (k - 1) (sub2 p (sat2 s p))) by (apply v2_ext; cbn; ring).
        rewrite norm2_scale. fold (dist2 p (sat2 s p)). rewrite <- E, Rabs_right by lra. lra.
      * intros c (Cx & Cy). rewrite <- K.
        replace (k * D) with (norm2 (scale2 k (sub2 p (sat2 s p)))) by (rewrite norm2_scale; fold (dist2 p (sat2 s p)); rewrite <- E, Rabs_right by lra; reflexivity).
        unfold norm2 at 1, norm2sq, dot2, scale2, sub2, sat2; cbn [x2 y2]. apply dist2_abs_ge; cbn [add2 scale2 sub2 sat2 x2 y2]; now apply sat_away.
    + rewrite (box2d_inside p s X Y) in *. destruct (Rle_or_lt (Rabs (y2 p) - y2 s) (Rabs (x2 p) - x2 s)) as [M|M].
      * rewrite Rmax_left by lra. exists (V2 (push (x2 s) (x2 p) t) (y2 p)). split.
        -- unfold dist2, norm2, norm2sq, dot2, sub2; cbn [x2 y2]. replace (_ + _) with (Rsqr (x2 p - push (x2 s) (x2 p) t)) by (unfold Rsqr; ring).
           rewrite sqrt_Rsqr_abs. apply push_dist; lra.
        -- intros c (Cx & _). destruct (abs_le_norm2 (sub2 (V2 (push (x2 s) (x2 p) t) (y2 p)) c)) as (A & _). 
           eapply Rle_trans; [apply (push_away (x2 s) (x2 p) t (x2 c) T Cx)|exact A].
      * rewrite Rmax_right by lra. exists (V2 (x2 p) (push (y2 s) (y2 p) t)). split.
        -- unfold dist2, norm2, norm2sq, dot2, sub2; cbn [x2 y2]. replace (_ + _) with (Rsqr (y2 p - push (y2 s) (y2 p) t)) by (unfold Rsqr; ring).
           rewrite sqrt_Rsqr_abs. apply push_dist; lra.
        -- intros c (_ & Cy). destruct (abs_le_norm2 (sub2 (V2 (x2 p) (push (y2 s) (y2 p) t)) c)) as (_ & A). 
           eapply Rle_trans; [apply (push_away (y2 s) (y2 p) t (y2 c) T Cy)|exact A].
Qed.

(** ** The cuboid *)
Definition cuboid (s : v3) (p : v3) : Prop := Rabs (x3 p) <= x3 s /\ Rabs (y3 p) <= y3 s /\ Rabs (z3 p) <= z3 s.
Definition sat3 (s p : v3) : v3 := V3 (sat (x3 s) (x3 p)) (sat (y3 s) (y3 p)) (sat (z3 s) (z3 p)).
Lemma sq_of_abs u w : Rabs u = w -> u * u = w * w.
Proof. intros <-. rewrite <- Rabs_mult. rewrite Rabs_right; [reflexivity|apply Rle_ge, Rle_0_sqr]. Qed.
Lemma box3d_outside p s : 0 < Rabs (x3 p) - x3 s \/ 0 < Rabs (y3 p) - y3 s \/ 0 < Rabs (z3 p) - z3 s ->
  0 <= x3 s -> 0 <= y3 s -> 0 <= z3 s -> sdf_box3d p s = dist3 p (sat3 s p) /\ 0 < sdf_box3d p s.
Proof.
  intros O Sx Sy Sz.
  assert (E : sdf_box3d p s = dist3 p (sat3 s p)).
  { unfold sdf_box3d, abs_elem3, sub3; cbn [x3 y3 z3].
    set (ex := x3 p - sat (x3 s) (x3 p)). set (ey := y3 p - sat (y3 s) (y3 p)). set (ez := z3 p - sat (z3 s) (z3 p)).
    assert (Z : dist3 p (sat3 s p) = sqrt (ex * ex + ey * ey + ez * ez)) by reflexivity. rewrite Z. clear Z.
    set (dx := Rabs (x3 p) - x3 s) in *. set (dy := Rabs (y3 p) - y3 s) in *. set (dz := Rabs (z3 p) - z3 s) in *.
    assert (X : ex * ex = (if Rltb 0 dx then dx * dx else 0)).
    { destruct (Rltb 0 dx) eqn:B; [apply Rltb_true in B|apply Rltb_false in B]; unfold ex.
      - apply sq_of_abs, sat_out; auto.
      - rewrite sat_id by auto. ring. }
    assert (Y : ey * ey = (if Rltb 0 dy then dy * dy else 0)).
    { destruct (Rltb 0 dy) eqn:B; [apply Rltb_true in B|apply Rltb_false in B]; unfold ey.
      - apply sq_of_abs, sat_out; auto.
      - rewrite sat_id by auto. ring. }
    assert (W : ez * ez = (if Rltb 0 dz then dz * dz else 0)).
    { destruct (Rltb 0 dz) eqn:B; [apply Rltb_true in B|apply Rltb_false in B]; unfold ez.
      - apply sq_of_abs, sat_out; auto.
      - rewrite sat_id by auto. ring. }
    rewrite X, Y, W. unfold hypot, norm3, norm3sq, dot3; cbn [x3 y3 z3].
    destruct (Rltb 0 dx) eqn:Bx; [apply Rltb_true in Bx|apply Rltb_false in Bx];
    (destruct (Rltb 0 dy) eqn:By; [apply Rltb_true in By|apply Rltb_false in By]);
    (destruct (Rltb 0 dz) eqn:Bz; [apply Rltb_true in Bz|apply Rltb_false in Bz]); cbn [andb]; try reflexivity;
    try (f_equal; ring); try (symmetry; match goal with |- _ = ?a => replace (_ + _ + _) with (a * a) by ring end; apply sqrt_square; lra).
    lra. }
  split; [exact E|]. rewrite E.
  destruct (abs_le_norm3 (sub3 p (sat3 s p))) as (A & B & C). fold (dist3 p (sat3 s p)) in A, B, C. cbn [sub3 sat3 x3 y3 z3] in A, B, C.
  destruct O as [O|[O|O]]; [rewrite sat_out in A by auto|rewrite sat_out in B by auto|rewrite sat_out in C by auto]; lra.
Qed.
Lemma box3d_inside p s : Rabs (x3 p) - x3 s <= 0 -> Rabs (y3 p) - y3 s <= 0 -> Rabs (z3 p) - z3 s <= 0 ->
  sdf_box3d p s = Rmax (Rabs (z3 p) - z3 s) (Rmax (Rabs (x3 p) - x3 s) (Rabs (y3 p) - y3 s)).
Proof.
  intros X Y Z. unfold sdf_box3d, abs_elem3, sub3; cbn [x3 y3 z3].
  apply Rltb_false in X, Y, Z. rewrite X, Y, Z. reflexivity.
Qed.
Lemma dist3_abs_ge a b u v w : Rabs u <= Rabs (x3 a - x3 b) -> Rabs v <= Rabs (y3 a - y3 b) -> Rabs w <= Rabs (z3 a - z3 b) ->
  sqrt (u * u + v * v + w * w) <= dist3 a b.
Proof.
  intros U V W. apply sq_abs_le in U, V, W. unfold dist3, norm3. apply sqrt_le_1_alt.
  unfold norm3sq, dot3, sub3; cbn [x3 y3 z3]. lra.
Qed.
Lemma core_cuboid s : 0 <= x3 s -> 0 <= y3 s -> 0 <= z3 s -> core dist3 (cuboid s) (fun p => sdf_box3d p s).
Proof.
  intros Sx Sy Sz.
  assert (Cases : forall p, (0 < Rabs (x3 p) - x3 s \/ 0 < Rabs (y3 p) - y3 s \/ 0 < Rabs (z3 p) - z3 s) \/
    (Rabs (x3 p) - x3 s <= 0 /\ Rabs (y3 p) - y3 s <= 0 /\ Rabs (z3 p) - z3 s <= 0)) by (intros; lra).
  assert (Sat : forall p, cuboid s (sat3 s p)) by (intros p; unfold cuboid; cbn; auto using sat_in).
  assert (One : forall s p c, 0 <= s -> Rabs c <= s -> Rabs (p - sat s p) <= Rabs (p - c)).
  { intros s' p c S C. pose proof (sat_away s' p 1 c S (Rle_refl 1) C) as K. replace (sat _ _ + _ - _) with (p - c) in K by ring. now rewrite Rmult_1_l in K. }
  assert (Least : forall p c, cuboid s c -> dist3 p (sat3 s p) <= dist3 p c).
  { intros p c (Cx & Cy & Cz). unfold dist3 at 1, norm3, norm3sq, dot3, sub3, sat3; cbn [x3 y3 z3]. apply dist3_abs_ge; auto. }
  constructor.
  - intros p H. destruct (Cases p) as [O|(X & Y & Z)].
    + exists (sat3 s p). destruct (box3d_outside p s O Sx Sy Sz) as (E & _). auto.
    + rewrite (box3d_inside p s X Y Z) in *. exists p. rewrite dist3_refl. split; [unfold cuboid; lra|]. clear - H X Y Z.
      set (a := Rabs (x3 p) - x3 s) in *. set (b := Rabs (y3 p) - y3 s) in *. set (c := Rabs (z3 p) - z3 s) in *. clearbody a b c. rmm; lra.
  - intros p c C. destruct (Cases p) as [O|(X & Y & Z)].
    + destruct (box3d_outside p s O Sx Sy Sz) as (E & _). rewrite E. auto.
    + rewrite (box3d_inside p s X Y Z). pose proof (dist3_nonneg p c). clear - X Y Z H.
      set (a := Rabs (x3 p) - x3 s) in *. set (b := Rabs (y3 p) - y3 s) in *. set (e := Rabs (z3 p) - z3 s) in *. clearbody a b e. rmm; lra.
  - intros p q H D. destruct (Cases p) as [O|(X & Y & Z)].
    + destruct (box3d_outside p s O Sx Sy Sz). lra.
    + rewrite (box3d_inside p s X Y Z) in D. destruct (abs_le_norm3 (sub3 p q)) as (A & B & C). fold (dist3 p q) in A, B, C. cbn [sub3 x3 y3 z3] in A, B, C.
      set (m := Rmax _ _) in D. assert (M : Rabs (x3 p) - x3 s <= m /\ Rabs (y3 p) - y3 s <= m /\ Rabs (z3 p) - z3 s <= m).
      { unfold m. clear. set (a := Rabs (x3 p) - x3 s) in *. set (b := Rabs (y3 p) - y3 s) in *. set (e := Rabs (z3 p) - z3 s) in *. clearbody a b e. rmm; lra. }
      assert (T : forall a b, Rabs b <= Rabs a + Rabs (a - b)) by (intros; rmm; lra).
      pose proof (T (x3 p) (x3 q)). pose proof (T (y3 p) (y3 q)). pose proof (T (z3 p) (z3 q)). unfold cuboid. lra.
  - intros p t T L. destruct (Cases p) as [O|(X & Y & Z)].
    + destruct (box3d_outside p s O Sx Sy Sz) as (E & P). set (D := sdf_box3d p s) in *.
      set (k := t / D). assert (K : k * D = t) by (unfold k; field; lra). assert (K1 : 1 <= k) by (clear - K P L; nra).
      exists (add3 (sat3 s p) (scale3 k (sub3 p (sat3 s p)))). split.
      * rewrite dist3_sym. unfold dist3. replace (sub3 _ p) with (scale3 (k - 1) (sub3 p (sat3 s p))) by (apply v3_ext; cbn; ring).
        rewrite norm3_scale. fold (dist3 p (sat3 s p)). rewrite <- E, Rabs_right by lra. lra.
      * intros c (Cx & Cy & Cz). rewrite <- K.
        replace (k * D) with (norm3 (scale3 k (sub3 p (sat3 s p)))) by (rewrite norm3_scale; fold (dist3 p (sat3 s p)); rewrite <- E, Rabs_right by lra; reflexivity).
        unfold norm3 at 1, norm3sq, dot3, scale3, sub3, sat3; cbn [x3 y3 z3]. apply dist3_abs_ge; cbn [add3 scale3 sub3 sat3 x3 y3 z3]; now apply sat_away.
    + rewrite (box3d_inside p s X Y Z) in *.
      assert (Ax : forall q m s' a, dist3 p q = Rabs (a - push s' a t) -> Rabs a <= s' -> m = Rabs a - s' ->
         (forall c, cuboid s c -> t <= dist3 q c) -> exists q, dist3 p q = t - m /\ forall c, cuboid s c -> t <= dist3 q c).
      { intros q m s' a Q A M C. exists q. rewrite Q, push_dist, M by auto. auto. }
      set (m := Rmax _ _).
      assert (M : m = Rabs (x3 p) - x3 s \/ m = Rabs (y3 p) - y3 s \/ m = Rabs (z3 p) - z3 s).
      { unfold m. clear. unfold Rmax. destruct (Rle_dec (Rabs (x3 p) - x3 s) (Rabs (y3 p) - y3 s)); match goal with |- context [if ?d then _ else _] => destruct d end; auto. }
      destruct M as [M|[M|M]].
      * apply (Ax (V3 (push (x3 s) (x3 p) t) (y3 p) (z3 p)) m (x3 s) (x3 p)); auto; [|lra|].
        -- unfold dist3, norm3, norm3sq, dot3, sub3; cbn [x3 y3 z3]. rewrite <- sqrt_Rsqr_abs. f_equal. unfold Rsqr. ring.
        -- intros c (Cx & _). destruct (abs_le_norm3 (sub3 (V3 (push (x3 s) (x3 p) t) (y3 p) (z3 p)) c)) as (A & _). 
           eapply Rle_trans; [apply (push_away (x3 s) (x3 p) t (x3 c) T Cx)|exact A].
      * apply (Ax (V3 (x3 p) (push (y3 s) (y3 p) t) (z3 p)) m (y3 s) (y3 p)); auto; [|lra|].
        -- unfold dist3, norm3, norm3sq, dot3, sub3; cbn [x3 y3 z3]. rewrite <- sqrt_Rsqr_abs. f_equal. unfold Rsqr. ring.
        -- intros c (_ & Cy & _). destruct (abs_le_norm3 (sub3 (V3 (x3 p) (push (y3 s) (y3 p) t) (z3 p)) c)) as (_ & A & _). 
           eapply Rle_trans; [apply (push_away (y3 s) (y3 p) t (y3 c) T Cy)|exact A].
      * apply (Ax (V3 (x3 p) (y3 p) (push (z3 s) (z3 p) t)) m (z3 s) (z3 p)); auto; [|lra|].
        -- unfold dist3, norm3, norm3sq, dot3, sub3; cbn [x3 y3 z3]. rewrite <- sqrt_Rsqr_abs. f_equal. unfold Rsqr. ring.
        -- intros c (_ & _ & Cz). destruct (abs_le_norm3 (sub3 (V3 (x3 p) (y3 p) (push (z3 s) (z3 p) t)) c)) as (_ & _ & A). 
           eapply Rle_trans; [apply (push_away (z3 s) (z3 p) t (z3 c) T Cz)|exact A].
Qed.

(** ** Cores of revolution *)
Definition mirror (p : v2) : v2 := V2 (- x2 p) (y2 p).
Lemma mirror_dist p q : dist2 (mirror p) (mirror q) = dist2 p q.
Proof. unfold dist2, norm2. f_equal. unfold norm2sq, dot2, mirror, sub2; cbn. ring. Qed.
Lemma mirror_mirror p : mirror (mirror p) = p.
Proof. apply v2_ext; cbn; ring. Qed.
Lemma core_revolve C D : core dist2 C D -> (forall c, C c -> C (mirror c)) ->
  core dist3 (fun p => C (rho p)) (fun p => D (rho p)).
Proof.
  intros K M.
  assert (Ab : forall c w, y2 w = y2 c -> x2 w = Rabs (x2 c) -> w = c \/ w = mirror c).
  { intros c w Y X. unfold Rabs in X. destruct (Rcase_abs (x2 c)); [right|left]; apply v2_ext; cbn; auto. }
  constructor.
  - intros p H. destruct (core_near _ _ _ K (rho p) H) as (c & Cc & E). destruct (rev_lift p c) as (w & Dw & Zw & Rw).
    exists w. split; [|lra]. destruct (Ab c (rho w) Zw Rw) as [-> | ->]; auto.
  - intros p c Cc. pose proof (core_least _ _ _ K (rho p) (rho c) Cc). pose proof (rho_contracts p c). lra.
  - intros p q H Q. apply (core_depth _ _ _ K (rho p)); auto. pose proof (rho_contracts p q). lra.
  - intros p t T L. destruct (core_away _ _ _ K (rho p) t T L) as (q & Q & A). destruct (rev_lift p q) as (w & Dw & Zw & Rw).
    exists w. split; [lra|]. intros c Cc. pose proof (rho_contracts w c).
    enough (t <= dist2 (rho w) (rho c)) by lra. destruct (Ab q (rho w) Zw Rw) as [-> | ->]; [auto|].
    rewrite <- (mirror_mirror (rho c)), mirror_dist. auto.
Qed.
