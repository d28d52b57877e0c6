(** C70: the closest point on a triangle in the plane. *)
From Coq Require Import Reals Lra Lia List Bool Arith Psatz.
From Verif Require Import Prelude Vec SdfModel PropsUtil PropsUnion2 Tri2Model.
Import ListNotations.
Local Open Scope R_scope.

(** ** Specification *)
(** Twice the signed area: positive for a counterclockwise triangle. *)
Definition area2 (t : triangle2) : R := let '(a, b, c) := t in cross2 (sub2 b a) (sub2 c a).
Definition in_tri2 (t : triangle2) (w : v2) : Prop :=
  let '(a, b, c) := t in exists s u, 0 <= s /\ 0 <= u /\ s + u <= 1 /\ w = add2 a (add2 (scale2 s (sub2 b a)) (scale2 u (sub2 c a))).
Definition on_seg (l0 l1 w : v2) : Prop := exists t, 0 <= t <= 1 /\ w = add2 l0 (scale2 t (sub2 l1 l0)).
Definition corner2 (t : triangle2) (k : nat) : v2 := let '(a, b, c) := t in nth k [a; b; c] a.
Definition edge2 (t : triangle2) (k : nat) : v2 * v2 := let '(a, b, c) := t in nth k [(a, b); (b, c); (c, a)] (a, b).

(** ** One edge *)
Definition cr (p l0 l1 : v2) : R := cross2 (sub2 l1 l0) (sub2 p l0).
Lemma edge_eq_perp p l0 l1 q : edge_equation p q (add2 q (V2 (- y2 (sub2 l1 l0)) (x2 (sub2 l1 l0)))) = dot2 (sub2 p q) (sub2 l1 l0).
Proof. unfold edge_equation, dot2, sub2, add2. cbn [x2 y2]. ring. Qed.
Lemma norm2sq_pos l0 l1 : l0 <> l1 -> 0 < norm2sq (sub2 l1 l0).
Proof.
  intros N. destruct l0 as [a b], l1 as [c d]. unfold norm2sq, dot2, sub2. cbn [x2 y2]. destruct (Req_dec a c) as [->|A]; [destruct (Req_dec b d) as [->|B]; [now exfalso|pose proof (Rsqr_pos_lt (d - b) ltac:(lra))]|pose proof (Rsqr_pos_lt (c - a) ltac:(lra)); pose proof (Rle_0_sqr (d - b))]; unfold Rsqr in *; lra.
Qed.
(** The three regions of distToLine; in the middle one the vector is minus the unsigned distance times the
    left normal. *)
Lemma line_regions p l0 l1 v k : l0 <> l1 -> dist_to_line p l0 l1 = (v, k) ->
  (k = 0%nat /\ 0 < dot2 (sub2 p l1) (sub2 l1 l0) /\ sub2 p v = l1) \/
  (k = 1%nat /\ dot2 (sub2 p l0) (sub2 l1 l0) < 0 /\ sub2 p v = l0) \/
  (k = 2%nat /\ 0 <= dot2 (sub2 p l0) (sub2 l1 l0) <= norm2sq (sub2 l1 l0) /\
    v = scale2 (- (Rabs (cr p l0 l1) / norm2sq (sub2 l1 l0))) (V2 (- y2 (sub2 l1 l0)) (x2 (sub2 l1 l0)))).
Proof.
  intros N. pose proof (norm2sq_pos l0 l1 N) as L. unfold dist_to_line. cbv zeta. rewrite !edge_eq_perp.
  assert (DD : dot2 (sub2 p l0) (sub2 l1 l0) = dot2 (sub2 p l1) (sub2 l1 l0) + norm2sq (sub2 l1 l0)) by (unfold norm2sq, dot2, sub2; cbn [x2 y2]; ring).
  destruct (Rltb_spec 0 (dot2 (sub2 p l1) (sub2 l1 l0))) as [A|A].
  { intros E. injection E as <- <-. left. split; [reflexivity|]. split; [exact A|]. unfold sub2. destruct p, l1. cbn. f_equal; ring. }
  destruct (Rltb_spec (dot2 (sub2 p l0) (sub2 l1 l0)) 0) as [B|B].
  { intros E. injection E as <- <-. right. left. split; [reflexivity|]. split; [exact B|]. unfold sub2. destruct p, l0. cbn. f_equal; ring. }
  intros E. apply pair_equal_spec in E. destruct E as (<- & <-). right. right. split; [reflexivity|]. split; [lra|]. unfold dist_to_line_infinite.
  replace ((x2 l1 - x2 l0) * (y2 l0 - y2 p) - (x2 l0 - x2 p) * (y2 l1 - y2 l0)) with (- cr p l0 l1) by (unfold cr, cross2, sub2; cbn [x2 y2]; ring). rewrite Rabs_Ropp.
  replace ((x2 l1 - x2 l0) * (x2 l1 - x2 l0) + (y2 l1 - y2 l0) * (y2 l1 - y2 l0)) with (norm2sq (sub2 l1 l0)) by (unfold norm2sq, dot2, sub2; cbn [x2 y2]; ring).
  unfold norm2. replace (norm2sq (V2 (- y2 (sub2 l1 l0)) (x2 (sub2 l1 l0)))) with (norm2sq (sub2 l1 l0)) by (unfold norm2sq, dot2; cbn [x2 y2]; ring).
  assert (SQ : sqrt (norm2sq (sub2 l1 l0)) * sqrt (norm2sq (sub2 l1 l0)) = norm2sq (sub2 l1 l0)) by (apply sqrt_sqrt; lra). assert (SP : 0 < sqrt (norm2sq (sub2 l1 l0))) by (apply sqrt_lt_R0; lra).
  replace (Rabs (cr p l0 l1) / norm2sq (sub2 l1 l0)) with (Rabs (cr p l0 l1) / (sqrt (norm2sq (sub2 l1 l0)) * sqrt (norm2sq (sub2 l1 l0)))) by (rewrite SQ; reflexivity).
  set (r := sqrt _) in *. clearbody r. unfold scale2. cbn [x2 y2]. f_equal; field; lra.
Qed.
(** Norm: the exact distance to the segment, attained at a point of it. *)
Lemma line_dist p l0 l1 v k : l0 <> l1 -> dist_to_line p l0 l1 = (v, k) ->
  (forall w, on_seg l0 l1 w -> norm2sq v <= norm2sq (sub2 p w)) /\
  exists q, on_seg l0 l1 q /\ norm2sq (sub2 p q) = norm2sq v /\
    (k = 2%nat -> dot2 (sub2 p q) (sub2 l1 l0) = 0 /\ (cr p l0 l1 <= 0 -> sub2 p v = q) /\ (0 <= cr p l0 l1 -> sub2 p v = sub2 (scale2 2 p) q)) /\
    (k = 0%nat -> q = l1 /\ sub2 p v = l1) /\ (k = 1%nat -> q = l0 /\ sub2 p v = l0).
Proof.
  intros N E. pose proof (norm2sq_pos l0 l1 N) as L. destruct (line_regions _ _ _ _ _ N E) as [(K & D & V)|[(K & D & V)|(K & D & V)]].
  - assert (VV : v = sub2 p l1) by (rewrite <- V; unfold sub2; destruct p, v; cbn; f_equal; ring). split.
    + intros w (t & T & ->). rewrite VV. assert (Q : norm2sq (sub2 p (add2 l0 (scale2 t (sub2 l1 l0)))) = norm2sq (sub2 p l1) + 2 * (1 - t) * dot2 (sub2 p l1) (sub2 l1 l0) + (1 - t) * (1 - t) * norm2sq (sub2 l1 l0)) by (unfold norm2sq, dot2, sub2, add2, scale2; cbn [x2 y2]; ring). rewrite Q. pose proof (Rmult_le_pos (1 - t) (dot2 (sub2 p l1) (sub2 l1 l0)) ltac:(lra) ltac:(lra)). pose proof (Rmult_le_pos _ _ (Rle_0_sqr (1 - t)) (Rlt_le _ _ L)). unfold Rsqr in *. lra.
    + exists l1. split; [exists 1; split; [lra|]; unfold add2, scale2, sub2; destruct l0, l1; cbn; f_equal; ring|]. split; [now rewrite VV|]. rewrite K. repeat split; try discriminate. exact V.
  - assert (VV : v = sub2 p l0) by (rewrite <- V; unfold sub2; destruct p, v; cbn; f_equal; ring). split.
    + intros w (t & T & ->). rewrite VV. assert (Q : norm2sq (sub2 p (add2 l0 (scale2 t (sub2 l1 l0)))) = norm2sq (sub2 p l0) - 2 * t * dot2 (sub2 p l0) (sub2 l1 l0) + t * t * norm2sq (sub2 l1 l0)) by (unfold norm2sq, dot2, sub2, add2, scale2; cbn [x2 y2]; ring). rewrite Q. pose proof (Rmult_le_pos t (- dot2 (sub2 p l0) (sub2 l1 l0)) ltac:(lra) ltac:(lra)). pose proof (Rmult_le_pos _ _ (Rle_0_sqr t) (Rlt_le _ _ L)). unfold Rsqr in *. lra.
    + exists l0. split; [exists 0; split; [lra|]; unfold add2, scale2, sub2; destruct l0, l1; cbn; f_equal; ring|]. split; [now rewrite VV|]. rewrite K. repeat split; try discriminate. exact V.
  - set (tau := dot2 (sub2 p l0) (sub2 l1 l0) / norm2sq (sub2 l1 l0)). set (q := add2 l0 (scale2 tau (sub2 l1 l0))).
    assert (TT : 0 <= tau <= 1) by (unfold tau; split; [apply Rmult_le_pos; [lra|left; now apply Rinv_0_lt_compat]|apply (Rmult_le_reg_r (norm2sq (sub2 l1 l0))); [lra|]; unfold Rdiv; rewrite Rmult_assoc, Rinv_l by lra; lra]).
    assert (PQ : sub2 p q = scale2 (cr p l0 l1 / norm2sq (sub2 l1 l0)) (V2 (- y2 (sub2 l1 l0)) (x2 (sub2 l1 l0)))).
    { unfold q, tau, cr. unfold norm2sq in *. unfold dot2, cross2, sub2, add2, scale2 in *. cbn [x2 y2] in *. f_equal; field; lra. }
    assert (NV : norm2sq (sub2 p q) = norm2sq v).
    { rewrite PQ, V. unfold norm2sq, dot2, scale2. cbn [x2 y2]. assert (RA : Rabs (cr p l0 l1) * Rabs (cr p l0 l1) = cr p l0 l1 * cr p l0 l1) by (unfold Rabs; destruct (Rcase_abs _); ring). set (n := x2 (sub2 l1 l0) * x2 (sub2 l1 l0) + y2 (sub2 l1 l0) * y2 (sub2 l1 l0)) in *. unfold norm2sq, dot2 in L. fold n in L. clearbody n.
      transitivity ((cr p l0 l1 * cr p l0 l1) / (n * n) * (y2 (sub2 l1 l0) * y2 (sub2 l1 l0) + x2 (sub2 l1 l0) * x2 (sub2 l1 l0))); [field; lra|]. rewrite <- RA. field. lra. }
    assert (OR : dot2 (sub2 p q) (sub2 l1 l0) = 0) by (rewrite PQ; unfold dot2, scale2; cbn [x2 y2]; ring).
    split.
    + intros w (t & T & ->). rewrite <- NV. assert (Q : norm2sq (sub2 p (add2 l0 (scale2 t (sub2 l1 l0)))) = norm2sq (sub2 p q) + 2 * (tau - t) * dot2 (sub2 p q) (sub2 l1 l0) + (tau - t) * (tau - t) * norm2sq (sub2 l1 l0)) by (unfold q, norm2sq, dot2, sub2, add2, scale2; cbn [x2 y2]; ring). rewrite Q, OR. pose proof (Rmult_le_pos _ _ (Rle_0_sqr (tau - t)) (Rlt_le _ _ L)). unfold Rsqr in *. lra.
    + exists q. split; [exists tau; split; [lra|reflexivity]|]. split; [exact NV|]. split; [intros _; split; [exact OR|]|split; intros; rewrite K in *; discriminate].
      split; intros S.
      * rewrite V. replace (- (Rabs (cr p l0 l1) / norm2sq (sub2 l1 l0))) with (cr p l0 l1 / norm2sq (sub2 l1 l0)) by (rewrite Rabs_left1 by exact S; field; lra). rewrite <- PQ. unfold sub2. destruct p, q. cbn. f_equal; ring.
      * rewrite V. replace (- (Rabs (cr p l0 l1) / norm2sq (sub2 l1 l0))) with (- (cr p l0 l1 / norm2sq (sub2 l1 l0))) by (rewrite Rabs_right by lra; reflexivity).
        assert (E2 : forall k u, scale2 (- k) u = scale2 (-1) (scale2 k u)) by (intros; unfold scale2; cbn; f_equal; ring). rewrite E2, <- PQ. unfold sub2, scale2. destruct p, q. cbn. f_equal; ring.
Qed.

(** ** The triangle *)
Lemma norm2sq_nonneg v : 0 <= norm2sq v.
Proof. unfold norm2sq, dot2. pose proof (Rle_0_sqr (x2 v)). pose proof (Rle_0_sqr (y2 v)). unfold Rsqr in *. lra. Qed.
Lemma area_corners a b c : area2 (a, b, c) <> 0 -> a <> b /\ b <> c /\ c <> a.
Proof. intros A. repeat split; intros ->; apply A; unfold area2, cross2, sub2; cbn; ring. Qed.
Lemma cr_sum a b c p : cr p a b + cr p b c + cr p c a = area2 (a, b, c).
Proof. unfold cr, area2, cross2, sub2. cbn [x2 y2]. ring. Qed.
Lemma in_tri2_iff a b c w : area2 (a, b, c) <> 0 -> in_tri2 (a, b, c) w <-> 0 <= cr w a b / area2 (a, b, c) /\ 0 <= cr w b c / area2 (a, b, c) /\ 0 <= cr w c a / area2 (a, b, c).
Proof.
  intros A. pose proof (cr_sum a b c w) as S. set (D := area2 (a, b, c)) in *. assert (S1 : cr w a b / D + cr w b c / D + cr w c a / D = 1) by (unfold Rdiv; rewrite <- !Rmult_plus_distr_r, S; apply Rinv_r; exact A). split.
  - intros (s & u & P1 & P2 & P3 & E). assert (E1 : cr w a b = u * D) by (rewrite E; unfold D, cr, area2, cross2, sub2, add2, scale2; cbn [x2 y2]; ring). assert (E2 : cr w c a = s * D) by (rewrite E; unfold D, cr, area2, cross2, sub2, add2, scale2; cbn [x2 y2]; ring).
    assert (Q1 : cr w a b / D = u) by (rewrite E1; field; exact A). assert (Q2 : cr w c a / D = s) by (rewrite E2; field; exact A). lra.
  - intros (P1 & P2 & P3). exists (cr w c a / D), (cr w a b / D). repeat split; try lra. destruct a as [a1 a2], b as [b1 b2], c as [c1 c2], w as [w1 w2]. unfold add2, scale2, sub2. cbn [x2 y2].
    assert (X : D * w1 = D * a1 + cr (V2 w1 w2) (V2 c1 c2) (V2 a1 a2) * (b1 - a1) + cr (V2 w1 w2) (V2 a1 a2) (V2 b1 b2) * (c1 - a1)) by (unfold D, cr, area2, cross2, sub2; cbn [x2 y2]; ring).
    assert (Y : D * w2 = D * a2 + cr (V2 w1 w2) (V2 c1 c2) (V2 a1 a2) * (b2 - a2) + cr (V2 w1 w2) (V2 a1 a2) (V2 b1 b2) * (c2 - a2)) by (unfold D, cr, area2, cross2, sub2; cbn [x2 y2]; ring).
    f_equal; [apply (Rmult_eq_reg_l D); [rewrite X; field; exact A|exact A]|apply (Rmult_eq_reg_l D); [rewrite Y; field; exact A|exact A]].
Qed.
Lemma div_sign x d : d <> 0 -> 0 <= x / d <-> 0 <= x * d.
Proof.
  intros N. assert (P : 0 < d * d) by (pose proof (Rsqr_pos_lt d N); unfold Rsqr in *; lra). split; intros H.
  - replace (x * d) with (x / d * (d * d)) by (field; exact N). apply Rmult_le_pos; lra.
  - replace (x / d) with (x * d * / (d * d)) by (field; exact N). apply Rmult_le_pos; [lra|left; now apply Rinv_0_lt_compat].
Qed.
(** inTriangle decides membership, whatever the orientation. *)
Lemma in_triangle2_iff t p : area2 t <> 0 -> in_triangle2 p t = true <-> in_tri2 t p.
Proof.
  destruct t as [[a b] c]. intros A. rewrite in_tri2_iff by exact A. unfold in_triangle2. cbv zeta.
  assert (E : forall l0 l1, d2_sign p l0 l1 = cr p l0 l1) by (intros; unfold d2_sign, cr, cross2, sub2; cbn [x2 y2]; ring). rewrite !E. rewrite !div_sign by exact A. pose proof (cr_sum a b c p) as S. rewrite <- S in *. clear S E. set (u := cr p a b) in *. set (v := cr p b c) in *. set (w := cr p c a) in *. clearbody u v w.
  destruct (Rltb_spec u 0), (Rltb_spec v 0), (Rltb_spec w 0), (Rltb_spec 0 u), (Rltb_spec 0 v), (Rltb_spec 0 w); cbn; try lra; split; intros G; try discriminate; try reflexivity; try (repeat split; nra); exfalso; destruct G as (G1 & G2 & G3); destruct (Rtotal_order 0 (u + v + w)) as [Z|[Z|Z]]; try lra; nra.
Qed.
(** A path from outside crosses the boundary. *)
Lemma cross_time x1 x2 x3 y1 y2 y3 : 0 <= y1 -> 0 <= y2 -> 0 <= y3 -> x1 < 0 \/ x2 < 0 \/ x3 < 0 ->
  exists t, 0 <= t <= 1 /\ 0 <= x1 + t * (y1 - x1) /\ 0 <= x2 + t * (y2 - x2) /\ 0 <= x3 + t * (y3 - x3) /\ (x1 + t * (y1 - x1) = 0 \/ x2 + t * (y2 - x2) = 0 \/ x3 + t * (y3 - x3) = 0).
Proof.
  intros P1 P2 P3 N.
  assert (T : forall x y, 0 <= y -> exists u, 0 <= u <= 1 /\ (forall t, u <= t <= 1 -> 0 <= x + t * (y - x)) /\ (x < 0 -> 0 < u /\ x + u * (y - x) = 0) /\ (0 <= x -> u = 0)).
  { intros x y Y. destruct (Rlt_or_le x 0) as [X|X].
    - exists (- x / (y - x)). assert (D : 0 < / (y - x)) by (apply Rinv_0_lt_compat; lra). assert (U : - x / (y - x) * (y - x) = - x) by (field; lra). assert (U0 : 0 < - x / (y - x)) by (apply Rmult_lt_0_compat; lra). set (u := - x / (y - x)) in *. clearbody u.
      assert (U1 : u <= 1) by nra. split; [lra|]. split; [intros t T; nra|]. split; [intros _; split; lra|lra].
    - exists 0. split; [lra|]. split; [intros t T; nra|]. split; [lra|auto]. }
  destruct (T x1 y1 P1) as (u1 & U1 & A1 & B1 & C1), (T x2 y2 P2) as (u2 & U2 & A2 & B2 & C2), (T x3 y3 P3) as (u3 & U3 & A3 & B3 & C3). clear T.
  exists (Rmax u1 (Rmax u2 u3)). set (t := Rmax u1 (Rmax u2 u3)). assert (M1 : u1 <= t) by apply Rmax_l. assert (M2 : u2 <= t) by (eapply Rle_trans; [apply (Rmax_l u2 u3)|apply Rmax_r]). assert (M3 : u3 <= t) by (eapply Rle_trans; [apply (Rmax_r u2 u3)|apply Rmax_r]).
  assert (MM : t = u1 \/ t = u2 \/ t = u3) by (unfold t, Rmax; repeat destruct (Rle_dec _ _); auto). assert (T1 : t <= 1) by (destruct MM as [Q|[Q|Q]]; rewrite Q; lra). assert (T0 : 0 < t) by (destruct N as [N|[N|N]]; [specialize (B1 N)|specialize (B2 N)|specialize (B3 N)]; lra). clearbody t.
  split; [lra|]. split; [apply A1; lra|]. split; [apply A2; lra|]. split; [apply A3; lra|].
  destruct MM as [E|[E|E]]; [left|right; left|right; right]; [destruct (Rlt_or_le x1 0) as [X|X]; [rewrite E; apply B1, X|specialize (C1 X); lra]|destruct (Rlt_or_le x2 0) as [X|X]; [rewrite E; apply B2, X|specialize (C2 X); lra]|destruct (Rlt_or_le x3 0) as [X|X]; [rewrite E; apply B3, X|specialize (C3 X); lra]].
Qed.
Lemma seg_of_zero a b c w : area2 (a, b, c) <> 0 -> in_tri2 (a, b, c) w -> cr w a b = 0 -> on_seg a b w.
Proof.
  intros A (s & u & P1 & P2 & P3 & E) Z. assert (U : u * area2 (a, b, c) = 0) by (rewrite <- Z, E; unfold cr, area2, cross2, sub2, add2, scale2; cbn [x2 y2]; ring). assert (U0 : u = 0) by (destruct (Rmult_integral _ _ U); [assumption|contradiction]). subst u. exists s. split; [lra|]. rewrite E. unfold add2, scale2, sub2. cbn. f_equal; ring.
Qed.
Lemma area_rot a b c : area2 (b, c, a) = area2 (a, b, c).
Proof. unfold area2, cross2, sub2. cbn. ring. Qed.
Lemma in_tri2_rot a b c w : in_tri2 (a, b, c) w -> in_tri2 (b, c, a) w.
Proof. intros (s & u & P1 & P2 & P3 & E). exists u, (1 - s - u). repeat split; try lra. rewrite E. unfold add2, scale2, sub2. cbn. f_equal; ring. Qed.
Lemma crossing a b c p w : area2 (a, b, c) <> 0 -> ~ in_tri2 (a, b, c) p -> in_tri2 (a, b, c) w ->
  exists e, (on_seg a b e \/ on_seg b c e \/ on_seg c a e) /\ norm2sq (sub2 p e) <= norm2sq (sub2 p w).
Proof.
  intros A NP W. pose proof W as W0. rewrite in_tri2_iff in NP, W by exact A. set (D := area2 (a, b, c)) in *. destruct W as (W1 & W2 & W3).
  assert (NN : cr p a b / D < 0 \/ cr p b c / D < 0 \/ cr p c a / D < 0) by (destruct (Rlt_or_le (cr p a b / D) 0); [auto|]; destruct (Rlt_or_le (cr p b c / D) 0); [auto|]; destruct (Rlt_or_le (cr p c a / D) 0); [auto|]; exfalso; apply NP; auto).
  destruct (cross_time _ _ _ _ _ _ W1 W2 W3 NN) as (t & T & Z1 & Z2 & Z3 & Z). set (e := add2 p (scale2 t (sub2 w p))).
  assert (CE : forall l0 l1, cr e l0 l1 / D = cr p l0 l1 / D + t * (cr w l0 l1 / D - cr p l0 l1 / D)) by (intros; unfold e, cr, cross2, sub2, add2, scale2; cbn [x2 y2]; field; exact A).
  rewrite <- !CE in *. assert (IE : in_tri2 (a, b, c) e) by (apply in_tri2_iff; [exact A|auto]). exists e. split.
  - assert (ZD : forall x, x / D = 0 -> x = 0) by (intros x H; replace x with (x / D * D) by (field; exact A); rewrite H; ring). destruct Z as [Z|[Z|Z]]; apply ZD in Z.
    + left. now apply (seg_of_zero a b c).
    + right. left. apply (seg_of_zero b c a); [rewrite area_rot; exact A|now apply in_tri2_rot|exact Z].
    + right. right. apply (seg_of_zero c a b); [rewrite (area_rot b c a), (area_rot a b c); exact A|now do 2 apply in_tri2_rot|exact Z].
  - replace (norm2sq (sub2 p e)) with (t * t * norm2sq (sub2 p w)) by (unfold e, norm2sq, dot2, sub2, add2, scale2; cbn [x2 y2]; ring). pose proof (norm2sq_nonneg (sub2 p w)) as NN2. assert (TT : t * t <= 1) by nra. set (n := norm2sq (sub2 p w)) in *. clearbody n. clear - NN2 TT. nra.
Qed.
(** A nearest point on an edge, at a right angle, is seen from the outer side. *)
Lemma outer_side a b c p q : area2 (a, b, c) <> 0 -> ~ in_tri2 (a, b, c) p -> on_seg a b q -> dot2 (sub2 p q) (sub2 b a) = 0 -> (forall w, in_tri2 (a, b, c) w -> norm2sq (sub2 p q) <= norm2sq (sub2 p w)) -> cr p a b * area2 (a, b, c) < 0.
Proof.
  intros A NP (t & T & E) O M. destruct (area_corners _ _ _ A) as (NAB & _). pose proof (norm2sq_pos a b NAB) as L. destruct (Rlt_or_le (cr p a b * area2 (a, b, c)) 0) as [H|H]; [exact H|exfalso].
  assert (Q : in_tri2 (a, b, c) q) by (exists t, 0; repeat split; try lra; rewrite E; unfold add2, scale2, sub2; cbn; f_equal; ring).
  assert (PQ : sub2 p q = scale2 (cr p a b / norm2sq (sub2 b a)) (V2 (- y2 (sub2 b a)) (x2 (sub2 b a)))).
  { assert (C : cr p a b = cross2 (sub2 b a) (sub2 p q)) by (rewrite E; unfold cr, cross2, sub2, add2, scale2; cbn [x2 y2]; ring). rewrite C. clear M E. set (d := sub2 p q) in *. set (e := sub2 b a) in *. clearbody d e. destruct d as [d1 d2], e as [e1 e2]. unfold dot2, norm2sq, dot2, cross2, scale2 in *. cbn [x2 y2] in *. f_equal.
    - apply (Rmult_eq_reg_r (e1 * e1 + e2 * e2)); [|lra]. transitivity (e1 * (d1 * e1 + d2 * e2) - (e1 * d2 - e2 * d1) * e2); [ring|]. rewrite O. field. lra.
    - apply (Rmult_eq_reg_r (e1 * e1 + e2 * e2)); [|lra]. transitivity (e2 * (d1 * e1 + d2 * e2) + (e1 * d2 - e2 * d1) * e1); [ring|]. rewrite O. field. lra. }
  set (m := dot2 (sub2 p q) (sub2 c q)). assert (ME : m = cr p a b * area2 (a, b, c) / norm2sq (sub2 b a)) by (unfold m; rewrite PQ, E; unfold area2, cross2, dot2, scale2, sub2, add2; cbn [x2 y2]; unfold norm2sq, dot2, sub2 in *; cbn [x2 y2] in *; field; lra).
  assert (MP : 0 <= m) by (rewrite ME; apply Rmult_le_pos; [exact H|left; now apply Rinv_0_lt_compat]).
  assert (NC : forall eps, 0 <= eps <= 1 -> norm2sq (sub2 p q) <= norm2sq (sub2 p q) - 2 * eps * m + eps * eps * norm2sq (sub2 c q)).
  { intros eps EP. assert (I : in_tri2 (a, b, c) (add2 q (scale2 eps (sub2 c q)))) by (exists (t - eps * t), eps; repeat split; try nra; rewrite E; unfold add2, scale2, sub2; cbn; f_equal; ring). specialize (M _ I).
    replace (norm2sq (sub2 p (add2 q (scale2 eps (sub2 c q))))) with (norm2sq (sub2 p q) - 2 * eps * m + eps * eps * norm2sq (sub2 c q)) in M by (unfold m, norm2sq, dot2, sub2, add2, scale2; cbn [x2 y2]; ring). exact M. }
  destruct (Req_dec m 0) as [M0|M0].
  - (* p is on the line of the edge, so p = q *) assert (C0 : cr p a b = 0). { rewrite M0 in ME. assert (X : cr p a b * area2 (a, b, c) = 0) by (replace (cr p a b * area2 (a, b, c)) with (cr p a b * area2 (a, b, c) / norm2sq (sub2 b a) * norm2sq (sub2 b a)) by (field; lra); rewrite <- ME; ring). destruct (Rmult_integral _ _ X); [assumption|contradiction]. }
    apply NP. replace p with q; [exact Q|]. rewrite C0 in PQ. unfold Rdiv in PQ. rewrite Rmult_0_l in PQ. unfold scale2, sub2 in PQ. cbn [x2 y2] in PQ. destruct p as [p1 p2], q as [q1 q2]. cbn [x2 y2] in PQ. injection PQ as X Y. f_equal; lra.
  - set (n := norm2sq (sub2 c q)) in *. assert (NN : 0 <= n) by apply norm2sq_nonneg. clearbody n m. destruct (Rle_or_lt n m) as [C|C].
    + specialize (NC 1 ltac:(lra)). lra.
    + assert (NP0 : 0 < / n) by (apply Rinv_0_lt_compat; lra). assert (EN : m / n * n = m) by (field; lra). assert (E0 : 0 <= m / n) by (apply Rmult_le_pos; lra). set (eps := m / n) in *. clearbody eps. specialize (NC eps ltac:(split; [lra|nra])). assert (eps > 0) by nra. nra.
Qed.
Lemma loop_result p edges : forall cur mn pt ft, fold_left (edge_step p) edges cur = (mn, pt, ft) ->
  mn <= fst (fst cur) /\ (forall j l0 l1 v k, In (j, (l0, l1)) edges -> dist_to_line p l0 l1 = (v, k) -> mn <= norm2sq v) /\
  ((mn, pt, ft) = cur \/ exists j l0 l1 v k, In (j, (l0, l1)) edges /\ dist_to_line p l0 l1 = (v, k) /\ mn = norm2sq v /\ pt = sub2 p v /\ ft = if (k <? 2)%nat then FV ((j + k) mod 3) else FE (j mod 3)).
Proof.
  induction edges as [|[j [l0 l1]] edges IH]; intros [[m0 p0] f0] mn pt ft E; cbn [fold_left] in E.
  - injection E as <- <- <-. cbn. split; [lra|]. split; [intros ? ? ? ? ? []|left; reflexivity].
  - specialize (IH _ _ _ _ E). clear E. unfold edge_step in IH. destruct (dist_to_line p l0 l1) as [v k] eqn:D. destruct IH as (A & B & C). destruct (Rltb_spec (norm2sq v) m0) as [L|L]; cbn [fst] in A.
    + split; [cbn; lra|]. split.
      * intros j' l0' l1' v' k' [I|I] D'; [injection I as <- <- <-; rewrite D in D'; injection D' as <- <-; lra|eapply B; eauto].
      * right. destruct C as [C|(j' & l0' & l1' & v' & k' & I & Q)]; [injection C as -> -> ->; exists j, l0, l1, v, k; repeat split; auto; now left|exists j', l0', l1', v', k'; split; [now right|exact Q]].
    + split; [cbn; lra|]. split.
      * intros j' l0' l1' v' k' [I|I] D'; [injection I as <- <- <-; rewrite D in D'; injection D' as <- <-; lra|eapply B; eauto].
      * destruct C as [C|(j' & l0' & l1' & v' & k' & I & Q)]; [left; exact C|right; exists j', l0', l1', v', k'; split; [now right|exact Q]].
Qed.
Lemma on_seg_tri t j w : (j < 3)%nat -> on_seg (fst (edge2 t j)) (snd (edge2 t j)) w -> in_tri2 t w.
Proof.
  destruct t as [[a b] c]. intros J (u & U & ->). destruct j as [|[|[|j]]]; [| | |lia]; cbn [edge2 nth fst snd].
  - exists u, 0. repeat split; try lra. unfold add2, scale2, sub2. cbn. f_equal; ring.
  - exists (1 - u), u. repeat split; try lra. unfold add2, scale2, sub2. cbn. f_equal; ring.
  - exists 0, (1 - u). repeat split; try lra. unfold add2, scale2, sub2. cbn. f_equal; ring.
Qed.
Lemma closest_core t p : area2 t <> 0 -> ~ in_tri2 t p -> (exists w, in_tri2 t w /\ norm2sq (sub2 p w) < max_float64) ->
  exists j k q, (j < 3)%nat /\ on_seg (fst (edge2 t j)) (snd (edge2 t j)) q /\ (forall w, in_tri2 t w -> norm2sq (sub2 p q) <= norm2sq (sub2 p w)) /\
   snd (closest2 p t) = (if (k <? 2)%nat then FV ((j + k) mod 3) else FE j) /\
   ((k = 0%nat /\ q = corner2 t ((j + 1) mod 3) /\ fst (closest2 p t) = q) \/ (k = 1%nat /\ q = corner2 t j /\ fst (closest2 p t) = q) \/
    (k = 2%nat /\ dot2 (sub2 p q) (sub2 (snd (edge2 t j)) (fst (edge2 t j))) = 0 /\ (0 < area2 t -> fst (closest2 p t) = q) /\ (area2 t < 0 -> fst (closest2 p t) = sub2 (scale2 2 p) q))).
Proof.
  intros A NP (w0 & W0 & L0). unfold closest2. destruct (in_triangle2 p t) eqn:IT; [apply in_triangle2_iff in IT; [contradiction|exact A]|]. clear IT. destruct t as [[a b] c].
  destruct (area_corners _ _ _ A) as (NAB & NBC & NCA). destruct (fold_left _ _ _) as [[mn pt] ft] eqn:F. cbn [fst snd]. destruct (loop_result _ _ _ _ _ _ F) as (M0 & M1 & M2). cbn [fst] in M0. clear F.
  assert (NR : forall w, in_tri2 (a, b, c) w -> mn <= norm2sq (sub2 p w)).
  { intros w W. destruct (crossing a b c p w A NP W) as (e & E & L). eapply Rle_trans; [|exact L]. destruct E as [E|[E|E]].
    - destruct (dist_to_line p a b) as [v k] eqn:D. eapply Rle_trans; [eapply (M1 0%nat); [cbn; auto|exact D]|]. now apply (line_dist p a b v k NAB D).
    - destruct (dist_to_line p b c) as [v k] eqn:D. eapply Rle_trans; [eapply (M1 1%nat); [cbn; auto|exact D]|]. now apply (line_dist p b c v k NBC D).
    - destruct (dist_to_line p c a) as [v k] eqn:D. eapply Rle_trans; [eapply (M1 2%nat); [cbn; auto|exact D]|]. now apply (line_dist p c a v k NCA D). }
  destruct M2 as [M2|(j & l0 & l1 & v & k & I & D & -> & -> & ->)]; [exfalso; injection M2 as -> _ _; specialize (NR w0 W0); lra|].
  assert (EJ : (j < 3)%nat /\ edge2 (a, b, c) j = (l0, l1) /\ l0 <> l1 /\ l0 = corner2 (a, b, c) j /\ l1 = corner2 (a, b, c) ((j + 1) mod 3) /\ exists d, area2 (l0, l1, d) = area2 (a, b, c) /\ forall w, in_tri2 (l0, l1, d) w <-> in_tri2 (a, b, c) w).
  { destruct I as [I|[I|[I|[]]]]; injection I as <- <- <-; (split; [lia|]; split; [reflexivity|]; split; [assumption|]; split; [reflexivity|]; split; [reflexivity|]).
    - exists c. split; [reflexivity|reflexivity].
    - exists a. split; [apply area_rot|]. intros w. split; intros H; [now do 2 apply in_tri2_rot|now apply in_tri2_rot].
    - exists b. split; [rewrite (area_rot b c a), (area_rot a b c); reflexivity|]. intros w. split; intros H; [now apply in_tri2_rot|now do 2 apply in_tri2_rot]. }
  destruct EJ as (J & EE & NE & L0' & L1' & d & AD & TD). destruct (line_dist p l0 l1 v k NE D) as (_ & q & Q & QN & K2 & K0 & K1). exists j, k, q. rewrite EE. cbn [fst snd]. split; [exact J|]. split; [exact Q|].
  assert (NQ : forall w, in_tri2 (a, b, c) w -> norm2sq (sub2 p q) <= norm2sq (sub2 p w)) by (intros w W; rewrite QN; now apply NR). split; [exact NQ|]. split; [rewrite (Nat.mod_small j 3) by lia; reflexivity|].
  destruct (line_regions p l0 l1 v k NE D) as [(K & _)|[(K & _)|(K & _)]].
  - left. destruct (K0 K) as (Q0 & V0). split; [exact K|]. split; [congruence|congruence].
  - right. left. destruct (K1 K) as (Q0 & V0). split; [exact K|]. split; [congruence|congruence].
  - right. right. destruct (K2 K) as (O & S1 & S2). split; [exact K|].
    assert (OS : cr p l0 l1 * area2 (a, b, c) < 0) by (rewrite <- AD; apply (outer_side l0 l1 d p q); [rewrite AD; exact A|rewrite TD; exact NP|exact Q|exact O|intros w W; apply NQ; now apply TD]).
    split; [exact O|]. split; intros AA; [apply S1|apply S2]; nra.
Qed.

(** ** Theorems *)
(** Counterclockwise triangles: the point is the closest point of the triangle; the face label means the point
    is in the triangle, an edge label names an edge that holds the closest point, which is then the foot of the
    perpendicular; with a vertex label the closest point is a corner (not the labelled one). *)
Theorem C70_closest_partial t p : 0 < area2 t -> (exists w, in_tri2 t w /\ norm2sq (sub2 p w) < max_float64) ->
  let '(q, f) := closest2 p t in
  in_tri2 t q /\ (forall w, in_tri2 t w -> dist2 p q <= dist2 p w) /\
  match f with
  | FFace => q = p
  | FE j => (j < 3)%nat /\ on_seg (fst (edge2 t j)) (snd (edge2 t j)) q /\ dot2 (sub2 p q) (sub2 (snd (edge2 t j)) (fst (edge2 t j))) = 0
  | FV k => (k < 3)%nat /\ exists m, (m < 3)%nat /\ q = corner2 t m /\ k <> m
  end /\ (f = FFace <-> in_tri2 t p).
Proof.
  intros A B. destruct (in_triangle2 p t) eqn:IT.
  - unfold closest2. rewrite IT. apply in_triangle2_iff in IT; [|lra]. split; [exact IT|]. split; [|split; [reflexivity|tauto]]. intros w W. unfold dist2 at 1, norm2, norm2sq, dot2, sub2. cbn [x2 y2]. replace (_ + _) with 0 by ring. rewrite sqrt_0. apply sqrt_pos.
  - assert (NP : ~ in_tri2 t p) by (intros H; apply in_triangle2_iff in H; [congruence|lra]). destruct (closest_core t p ltac:(lra) NP B) as (j & k & q & J & S & M & SF & C). destruct (closest2 p t) as [q' f]. cbn [fst snd] in *.
    assert (QQ : q' = q) by (destruct C as [(_ & _ & C)|[(_ & _ & C)|(_ & _ & C & _)]]; auto). subst q'. split; [now apply (on_seg_tri t j)|]. split; [intros w W; apply sqrt_le_1_alt; now apply M|].
    rewrite SF. destruct C as [(-> & Q & _)|[(-> & Q & _)|(-> & O & _)]]; cbn [Nat.ltb Nat.leb].
    + split; [split; [apply Nat.mod_upper_bound; lia|]; exists ((j + 1) mod 3)%nat; split; [apply Nat.mod_upper_bound; lia|]; split; [exact Q|]; destruct j as [|[|[|j]]]; cbn; lia|]. split; [discriminate|tauto].
    + split; [split; [apply Nat.mod_upper_bound; lia|]; exists j; split; [exact J|]; split; [exact Q|]; destruct j as [|[|[|j]]]; cbn; lia|]. split; [discriminate|tauto].
    + split; [auto|]. split; [discriminate|tauto].
Qed.
(** The vertex labels are always wrong: the closest point is then a corner, but never the labelled one. *)
Theorem C70_vertex_label_refuted t p k : area2 t <> 0 -> (exists w, in_tri2 t w /\ norm2sq (sub2 p w) < max_float64) -> snd (closest2 p t) = FV k -> (exists m, (m < 3)%nat /\ fst (closest2 p t) = corner2 t m) /\ fst (closest2 p t) <> corner2 t k.
Proof.
  intros A B E. assert (NP : ~ in_tri2 t p) by (intros H; apply in_triangle2_iff in H; [|exact A]; unfold closest2 in E; rewrite H in E; discriminate).
  destruct (closest_core t p A NP B) as (j & k' & q & J & _ & _ & SF & C). rewrite SF in E. destruct t as [[a b] c]. destruct (area_corners _ _ _ A) as (NAB & NBC & NCA).
  destruct C as [(-> & Q & V)|[(-> & Q & V)|(-> & _)]]; cbn [Nat.ltb Nat.leb] in E; try discriminate; injection E as <-; rewrite V, Q; (split; [eexists; split; [|reflexivity]; destruct j as [|[|[|j]]]; cbn; lia|]); destruct j as [|[|[|j]]]; cbn; try lia; auto.
Qed.
(** Clockwise triangles: when the closest point is inside an edge, the returned point is its mirror image
    through the query point, which is outside the triangle. *)
Theorem C70_clockwise_refuted t p j : area2 t < 0 -> (exists w, in_tri2 t w /\ norm2sq (sub2 p w) < max_float64) -> snd (closest2 p t) = FE j -> ~ in_tri2 t (fst (closest2 p t)).
Proof.
  intros A B E I. assert (NP : ~ in_tri2 t p) by (intros H; apply in_triangle2_iff in H; [|lra]; unfold closest2 in E; rewrite H in E; discriminate).
  destruct (closest_core t p ltac:(lra) NP B) as (j' & k & q & J & S & M & SF & C). rewrite SF in E. destruct C as [(-> & _)|[(-> & _)|(-> & _ & _ & C)]]; cbn [Nat.ltb Nat.leb] in E; try discriminate. specialize (C A). rewrite C in I.
  apply NP. apply on_seg_tri in S; [|exact J]. destruct t as [[a b] c]. destruct S as (s & u & S1 & S2 & S3 & SE), I as (s' & u' & I1 & I2 & I3 & IE). exists ((s + s') / 2), ((u + u') / 2). repeat split; try lra.
  destruct p as [p1 p2], q as [q1 q2]. unfold add2, scale2, sub2 in *. cbn [x2 y2] in *. injection SE as X Y. injection IE as X' Y'. f_equal; lra.
Qed.
(** The hypotheses are met, and each kind of label occurs. *)
Example C70_example : 0 < area2 (V2 0 0, V2 1 0, V2 0 1) /\ snd (closest2 (V2 (1/2) (-1)) (V2 0 0, V2 1 0, V2 0 1)) = FE 0 /\ snd (closest2 (V2 3 (-1)) (V2 0 0, V2 1 0, V2 0 1)) = FV 0 /\
  fst (closest2 (V2 3 (-1)) (V2 0 0, V2 1 0, V2 0 1)) = V2 1 0 /\ area2 (V2 0 0, V2 0 1, V2 1 0) < 0 /\ snd (closest2 (V2 (-1) (1/2)) (V2 0 0, V2 0 1, V2 1 0)) = FE 0.
Proof.
  pose proof max_float64_big as MB. unfold area2, cross2, sub2. cbn [x2 y2]. split; [lra|].
  assert (LT : forall x y, x < y -> Rltb x y = true) by (intros; now apply Rltb_true). assert (LF : forall x y, y <= x -> Rltb x y = false) by (intros; now apply Rltb_false).
  assert (FIRST : forall p t v k, area2 t <> 0 -> ~ in_tri2 t p -> dist_to_line p (fst (edge2 t 0)) (snd (edge2 t 0)) = (v, k) -> norm2sq v < max_float64 -> (forall w, in_tri2 t w -> norm2sq v <= norm2sq (sub2 p w)) -> closest2 p t = (sub2 p v, if (k <? 2)%nat then FV (k mod 3) else FE 0)).
  { intros p [[a b] c] v k A NP D L M. unfold closest2. destruct (in_triangle2 p (a, b, c)) eqn:IT; [apply in_triangle2_iff in IT; [contradiction|exact A]|]. destruct (area_corners _ _ _ A) as (NAB & NBC & NCA). cbn [edge2 nth fst snd] in D. cbn [fold_left]. unfold edge_step. rewrite D. rewrite (LT _ _ L).
    destruct (dist_to_line p b c) as [v1 k1] eqn:D1. destruct (line_dist _ _ _ _ _ NBC D1) as (_ & q1 & Q1 & E1 & _). rewrite (LF (norm2sq v1)) by (rewrite <- E1; apply M; apply (on_seg_tri (a, b, c) 1); [lia|exact Q1]).
    destruct (dist_to_line p c a) as [v2 k2] eqn:D2. destruct (line_dist _ _ _ _ _ NCA D2) as (_ & q2 & Q2 & E2 & _). rewrite (LF (norm2sq v2)) by (rewrite <- E2; apply M; apply (on_seg_tri (a, b, c) 2); [lia|exact Q2]).
    reflexivity. }
  split; [|split; [|split; [|split; [lra|]]]].
  - rewrite (FIRST _ _ (V2 0 (-1)) 2%nat); [reflexivity| | | | |].
    + unfold area2, cross2, sub2; cbn; lra.
    + intros (s & u & S & U & SU & E). unfold add2, scale2, sub2 in E. cbn in E. injection E as X Y. lra.
    + cbn [edge2 nth fst snd]. unfold dist_to_line. cbv zeta. rewrite !edge_eq_perp. unfold dot2, sub2. cbn [x2 y2]. rewrite (LF 0), (LF _ 0) by lra. f_equal. unfold dist_to_line_infinite, norm2, norm2sq, dot2. cbn [x2 y2].
      replace ((1 - 0) * (1 - 0) + (0 - 0) * (0 - 0)) with 1 by ring. replace (- (0 - 0) * - (0 - 0) + (1 - 0) * (1 - 0)) with 1 by ring. rewrite sqrt_1. rewrite Rabs_right by lra. unfold scale2. cbn [x2 y2]. f_equal; field.
    + unfold norm2sq, dot2. cbn. lra.
    + intros w (s & u & S & U & SU & ->). match goal with |- _ <= ?e => replace e with ((1/2 - s) * (1/2 - s) + (-1 - u) * (-1 - u)) by (unfold norm2sq, dot2, sub2, add2, scale2; cbn; ring) end. unfold norm2sq, dot2. cbn. pose proof (Rle_0_sqr (1/2 - s)). pose proof (Rle_0_sqr (-1 - u)). unfold Rsqr in *. nra.
  - rewrite (FIRST _ _ (V2 2 (-1)) 0%nat); [reflexivity| | | | |].
    + unfold area2, cross2, sub2; cbn; lra.
    + intros (s & u & S & U & SU & E). unfold add2, scale2, sub2 in E. cbn in E. injection E as X Y. lra.
    + cbn [edge2 nth fst snd]. unfold dist_to_line. cbv zeta. rewrite !edge_eq_perp. unfold dot2, sub2. cbn [x2 y2]. rewrite (LT 0) by lra. f_equal. f_equal; lra.
    + unfold norm2sq, dot2. cbn. lra.
    + intros w (s & u & S & U & SU & ->). match goal with |- _ <= ?e => replace e with ((3 - s) * (3 - s) + (-1 - u) * (-1 - u)) by (unfold norm2sq, dot2, sub2, add2, scale2; cbn; ring) end. unfold norm2sq, dot2. cbn. pose proof (Rle_0_sqr (3 - s)). pose proof (Rle_0_sqr (-1 - u)). unfold Rsqr in *. nra.
  - rewrite (FIRST _ _ (V2 2 (-1)) 0%nat); [cbn [fst]; unfold sub2; cbn [x2 y2]; f_equal; lra| | | | |].
    + unfold area2, cross2, sub2; cbn; lra.
    + intros (s & u & S & U & SU & E). unfold add2, scale2, sub2 in E. cbn in E. injection E as X Y. lra.
    + cbn [edge2 nth fst snd]. unfold dist_to_line. cbv zeta. rewrite !edge_eq_perp. unfold dot2, sub2. cbn [x2 y2]. rewrite (LT 0) by lra. f_equal. f_equal; lra.
    + unfold norm2sq, dot2. cbn. lra.
    + intros w (s & u & S & U & SU & ->). match goal with |- _ <= ?e => replace e with ((3 - s) * (3 - s) + (-1 - u) * (-1 - u)) by (unfold norm2sq, dot2, sub2, add2, scale2; cbn; ring) end. unfold norm2sq, dot2. cbn. pose proof (Rle_0_sqr (3 - s)). pose proof (Rle_0_sqr (-1 - u)). unfold Rsqr in *. nra.
  - rewrite (FIRST _ _ (V2 1 0) 2%nat); [reflexivity| | | | |].
    + unfold area2, cross2, sub2; cbn; lra.
    + intros (s & u & S & U & SU & E). unfold add2, scale2, sub2 in E. cbn in E. injection E as X Y. lra.
    + cbn [edge2 nth fst snd]. unfold dist_to_line. cbv zeta. rewrite !edge_eq_perp. unfold dot2, sub2. cbn [x2 y2]. rewrite (LF 0), (LF _ 0) by lra. f_equal. unfold dist_to_line_infinite, norm2, norm2sq, dot2. cbn [x2 y2].
      replace ((0 - 0) * (0 - 0) + (1 - 0) * (1 - 0)) with 1 by ring. replace (- (1 - 0) * - (1 - 0) + (0 - 0) * (0 - 0)) with 1 by ring. rewrite sqrt_1. rewrite Rabs_left by lra. unfold scale2. cbn [x2 y2]. f_equal; field.
    + unfold norm2sq, dot2. cbn. lra.
    + intros w (s & u & S & U & SU & ->). match goal with |- _ <= ?e => replace e with ((-1 - u) * (-1 - u) + (1/2 - s) * (1/2 - s)) by (unfold norm2sq, dot2, sub2, add2, scale2; cbn; ring) end. unfold norm2sq, dot2. cbn. pose proof (Rle_0_sqr (-1 - u)). pose proof (Rle_0_sqr (1/2 - s)). unfold Rsqr in *. nra.
Qed.
