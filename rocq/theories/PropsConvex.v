(** C96: the polygons through the vertices of a convex loop. *)
From Coq Require Import Reals Lra Psatz List Bool ZArith Lia.
From Verif Require Import Prelude Vec BoxModel MatrixModel SdfModel PolyModel Trig PropsMatrix PropsBool PropsUtil SdfLemmas Grades PropsPoly.
Import ListNotations.
Local Open Scope R_scope.

(** ** Seen from outside a half plane, the angles telescope *)
Definition dir (n w : v2) : R := atan2 (cross2 n w) (dot2 n w).
Lemma dir_facts n w : 0 < dot2 n w -> - (PI / 2) < dir n w < PI / 2 /\ 0 < hypot (dot2 n w) (cross2 n w) /\
  dot2 n w = hypot (dot2 n w) (cross2 n w) * cos (dir n w) /\ cross2 n w = hypot (dot2 n w) (cross2 n w) * sin (dir n w).
Proof.
  intros P. destruct (atan2_polar (cross2 n w) (dot2 n w)) as (A & B). pose proof (atan2_range (cross2 n w) (dot2 n w)) as R. fold (dir n w) in *.
  pose proof (hypot_nonneg (dot2 n w) (cross2 n w)) as H. set (h := hypot _ _) in *. clearbody h. pose proof PI_RGT_0 as PP.
  assert (HP : 0 < h) by (destruct H as [H|H]; [exact H|subst h; lra]). assert (C : 0 < cos (dir n w)) by nra. split; [|auto]. split; apply Rnot_le_lt; intros L.
  - assert (cos (- dir n w) <= 0) by (apply cos_le_0; lra). rewrite cos_neg in *. lra.
  - assert (cos (dir n w) <= 0) by (apply cos_le_0; lra). lra.
Qed.
Lemma seen_dir n p a b : 0 < dot2 n (sub2 a p) -> 0 < dot2 n (sub2 b p) -> seen_angle p a b = dir n (sub2 b p) - dir n (sub2 a p).
Proof.
  intros A B. destruct (dir_facts n _ A) as (RA & HA & DA & CA). destruct (dir_facts n _ B) as (RB & HB & DB & CB). unfold seen_angle. set (u := sub2 a p) in *. set (v := sub2 b p) in *. clearbody u v.
  assert (NP : 0 < norm2sq n). { unfold norm2sq. destruct n as [nx ny], u as [ux uy]. unfold dot2 in *. cbn [x2 y2] in *. assert (nx <> 0 \/ ny <> 0) as [?|?] by (destruct (Req_dec nx 0); [right; intros ->; subst nx; lra|now left]); nra. }
  set (hu := hypot (dot2 n u) (cross2 n u)) in *. set (hv := hypot (dot2 n v) (cross2 n v)) in *. clearbody hu hv. set (fu := dir n u) in *. set (fv := dir n v) in *. clearbody fu fv.
  assert (E1 : dot2 u v = hu * hv / norm2sq n * cos (fv - fu)).
  { rewrite cos_minus. apply (Rmult_eq_reg_l (norm2sq n)); [|lra]. transitivity (dot2 n u * dot2 n v + cross2 n u * cross2 n v); [unfold norm2sq, dot2, cross2; ring|]. rewrite DA, CA, DB, CB. field. lra. }
  assert (E2 : cross2 u v = hu * hv / norm2sq n * sin (fv - fu)).
  { rewrite sin_minus. apply (Rmult_eq_reg_l (norm2sq n)); [|lra]. transitivity (dot2 n u * cross2 n v - cross2 n u * dot2 n v); [unfold norm2sq, dot2, cross2; ring|]. rewrite DA, CA, DB, CB. field. lra. }
  rewrite E1, E2. apply atan2_unique; [|lra]. apply Rmult_lt_0_compat; [now apply Rmult_lt_0_compat|now apply Rinv_0_lt_compat].
Qed.
Lemma angle_sum_dir n p : forall l, l <> [] -> (forall v, In v l -> 0 < dot2 n (sub2 v p)) -> angle_sum p l = dir n (sub2 (last l zero2) p) - dir n (sub2 (hd zero2 l) p).
Proof.
  induction l as [|a l IH]; intros NE H; [congruence|]. destruct l as [|b r]; [cbn; ring|]. rewrite last_cons. change (angle_sum p (a :: b :: r)) with (seen_angle p a b + angle_sum p (b :: r)).
  rewrite IH by (try discriminate; intros v I; apply H; now right). rewrite (seen_dir n) by (apply H; cbn; auto). cbn [hd]. ring.
Qed.
Lemma last_in {A} (l : list A) d : l <> [] -> In (last l d) l.
Proof. induction l as [|a l IH]; [congruence|]. intros _. destruct l as [|b r]; [now left|]. right. apply IH. discriminate. Qed.
(** A loop all of whose vertices lie on one side of a line through p does not wind around p. *)
Lemma winding_half n p vs : vs <> [] -> (forall v, In v vs -> 0 < dot2 n (sub2 v p)) -> winding vs p = 0.
Proof.
  intros NE H. unfold winding. rewrite (angle_sum_dir n).
  - rewrite last_last. destruct vs as [|a vs]; [congruence|]. cbn [hd app]. unfold Rdiv. ring.
  - destruct vs; discriminate.
  - intros v I. apply in_app_iff in I. destruct I as [I|[<-|[]]]; apply H; [exact I|]. destruct vs; [congruence|now left].
Qed.
(** ** Seen from inside, all turn the same way *)
Lemma angle_sum_sign sg p : forall l, sg * sg = 1 -> (forall a b, consecutive l a b -> 0 <= sg * seen_angle p a b) -> 0 <= sg * angle_sum p l.
Proof.
  intros l SG. induction l as [|a l IH]; intros H; [cbn; lra|]. destruct l as [|b r]; [cbn; lra|]. change (angle_sum p (a :: b :: r)) with (seen_angle p a b + angle_sum p (b :: r)).
  pose proof (H a b ltac:(now exists [], r)). assert (0 <= sg * angle_sum p (b :: r)) by (apply IH; intros; apply H; now apply consecutive_cons). lra.
Qed.
Lemma angle_sum_pos sg p a b r : sg * sg = 1 -> (forall c d, consecutive (a :: b :: r) c d -> 0 <= sg * seen_angle p c d) -> 0 < sg * seen_angle p a b -> 0 < sg * angle_sum p (a :: b :: r).
Proof.
  intros SG H P. change (angle_sum p (a :: b :: r)) with (seen_angle p a b + angle_sum p (b :: r)). assert (0 <= sg * angle_sum p (b :: r)) by (apply angle_sum_sign; [exact SG|]; intros; apply H; now apply consecutive_cons). lra.
Qed.
Lemma same2 a b : norm2sq (sub2 a b) = 0 -> a = b.
Proof. destruct a as [ax ay], b as [bx by_]. unfold norm2sq, dot2, sub2. cbn. intros Z. apply Rplus_sqr_eq_0 in Z. apply v2_ext; cbn; lra. Qed.
Lemma cross_shift a b p : cross2 (sub2 a p) (sub2 b p) = cross2 (sub2 b a) (sub2 p a).
Proof. unfold cross2, sub2. cbn. ring. Qed.
(** The point is strictly to the left (1) or to the right (-1) of every edge. *)
Definition all_edges (sg : R) (vs : list v2) (p : v2) : Prop :=
  forall a b, consecutive (vs ++ [hd zero2 vs]) a b -> a <> b -> 0 < sg * cross2 (sub2 b a) (sub2 p a).
(** No vertex lies strictly on the other side of an edge. *)
Definition convex_loop (sg : R) (vs : list v2) : Prop :=
  forall a b v, consecutive (vs ++ [hd zero2 vs]) a b -> In v vs -> 0 <= sg * cross2 (sub2 b a) (sub2 v a).
(** For a convex loop of vertices, counter-clockwise (sg = 1) or clockwise (sg = -1), the inside of Polygon is
    exactly the intersection of the open half planes of its edges. *)
Theorem C96_convex sg vs s : sg = 1 \/ sg = -1 -> polygon vs = Ok s -> loop_ok vs -> convex_loop sg vs -> forall p, ev2 s p < 0 <-> all_edges sg vs p.
Proof.
  intros SG0 E OK CV. assert (SG : sg * sg = 1) by (destruct SG0; subst; lra). destruct (C59_exact_partial vs s E OK) as (_ & NEG & ZERO). pose proof (C59_lipschitz_partial vs s E OK) as LIP.
  assert (N : (3 <= length vs)%nat) by (apply C59_defined; eauto). assert (NE : vs <> []) by (intros ->; cbn in N; lia).
  (* strictly on the wrong side of an edge: outside *)
  assert (OUT : forall p a b, consecutive (vs ++ [hd zero2 vs]) a b -> sg * cross2 (sub2 b a) (sub2 p a) < 0 -> ~ ev2 s p < 0).
  { intros p a b C X I. apply NEG in I. destruct I as (_ & I). apply I. apply (winding_half (scale2 sg (V2 (- y2 (sub2 b a)) (x2 (sub2 b a))))); [exact NE|]. intros v V. pose proof (CV a b v C V) as K.
    unfold cross2, dot2, scale2, sub2 in *. cbn [x2 y2] in *. lra. }
  intros p. split.
  - intros I a b C D. apply Rnot_le_lt. intros L.
    (* move p a little to the wrong side *)
    set (e := - ev2 s p). assert (EP : 0 < e) by (unfold e; lra). set (d := sub2 b a). assert (DP : 0 < norm2 d) by (apply norm2_pos; intros Q; apply D; symmetry; now apply sub2_zero).
    set (q := add2 p (scale2 (sg * (e / 2 / norm2 d)) (V2 (y2 d) (- x2 d)))).
    assert (DIST : dist2 q p = e / 2).
    { unfold dist2, norm2. replace (norm2sq (sub2 q p)) with ((e / 2) * (e / 2)); [apply sqrt_square; lra|]. pose proof (norm2_sq d) as Q. unfold q, norm2sq, dot2, sub2, add2, scale2 in *. cbn [x2 y2] in *. set (nd := norm2 d) in *. clearbody nd. set (dx := x2 d) in *. set (dy := y2 d) in *. clearbody dx dy. clear - SG Q DP.
      transitivity ((sg * sg) * (e / 2 / nd) * (e / 2 / nd) * (nd * nd)); [rewrite SG; field; lra|]. rewrite Q. ring. }
    assert (IQ : ev2 s q < 0). { pose proof (LIP q p) as K. rewrite DIST in K. apply Rabs_def2b in K || idtac. assert (ev2 s q - ev2 s p <= e / 2) by (pose proof (Rle_abs (ev2 s q - ev2 s p)); lra). unfold e in *. lra. }
    apply (OUT q a b C); [|exact IQ]. fold d. fold d in L. assert (Q : sg * cross2 d (sub2 q a) = sg * cross2 d (sub2 p a) - (e / 2 / norm2 d) * (norm2 d * norm2 d)).
    { rewrite norm2_sq. unfold q, norm2sq, cross2, dot2, sub2, add2, scale2. cbn [x2 y2]. set (dx := x2 d). set (dy := y2 d). clearbody dx dy. set (k := e / 2 / norm2 d). clearbody k. transitivity (sg * (dx * (y2 p - y2 a) - dy * (x2 p - x2 a)) - sg * sg * k * (dx * dx + dy * dy)); [ring|]. rewrite SG. ring. }
    rewrite Q. assert (0 < e / 2 / norm2 d * (norm2 d * norm2 d)); [|lra]. repeat apply Rmult_lt_0_compat; try lra. now apply Rinv_0_lt_compat.
  - intros ALL. apply NEG.
    assert (NSEG : forall a b, consecutive (vs ++ [hd zero2 vs]) a b -> a <> b -> ~ on_seg a b p).
    { intros a b C D (t & T & ->). pose proof (ALL a b C D) as K. unfold cross2, sub2, add2, scale2 in K. cbn [x2 y2] in K. ring_simplify in K. lra. }
    destruct vs as [|a0 [|b0 [|c0 r0]]]; cbn [length] in N; try lia. set (vs := a0 :: b0 :: c0 :: r0) in *.
    assert (C0 : consecutive (vs ++ [hd zero2 vs]) a0 b0) by (exists [], (c0 :: r0 ++ [a0]); reflexivity).
    assert (C1 : consecutive vs a0 b0) by (exists [], (c0 :: r0); reflexivity). assert (D0 : a0 <> b0) by (apply (proj1 OK); exact C1).
    assert (NA : a0 <> p) by (intros ->; apply (NSEG p b0 C0 D0); apply on_seg_start).
    assert (OFF : ~ on_polyline vs p).
    { intros (a & b & C & S). destruct (Req_dec (norm2sq (sub2 b a)) 0) as [Z|Z].
      - assert (a = b) by (symmetry; now apply same2). subst b. apply seg_point in S. subst a.
        apply consecutive_snoc in C; [|exact NE]. destruct C as [C|(C & C')]; [exact (proj1 OK _ _ C eq_refl)|]. cbn [hd vs] in C'. congruence.
      - apply (NSEG a b C); [|exact S]. intros ->. apply Z. unfold norm2sq, dot2, sub2. cbn. ring. }
    split; [exact OFF|]. unfold winding. change (vs ++ [hd zero2 vs]) with (a0 :: b0 :: (c0 :: r0 ++ [a0])) in *.
    assert (SEEN : forall a b, consecutive (a0 :: b0 :: (c0 :: r0 ++ [a0])) a b -> a <> b -> 0 < sg * seen_angle p a b).
    { intros a b C D. pose proof (ALL a b C D) as K. unfold seen_angle. rewrite cross_shift. destruct (atan2_sign (cross2 (sub2 b a) (sub2 p a)) (dot2 (sub2 a p) (sub2 b p))) as (P1 & P2 & _). destruct SG0; subst sg; [specialize (P1 ltac:(lra)); lra|specialize (P2 ltac:(lra)); lra]. }
    assert (POS : 0 < sg * angle_sum p (a0 :: b0 :: (c0 :: r0 ++ [a0]))).
    { apply angle_sum_pos; [exact SG| |now apply SEEN]. intros c d C. destruct (Req_dec (norm2sq (sub2 d c)) 0) as [Z|Z].
      - assert (c = d) by (symmetry; now apply same2). subst d. rewrite seen_self; [lra|]. intros ->. apply OFF. exists p, p. split; [exact C|apply on_seg_start].
      - left. apply SEEN; [exact C|]. intros ->. apply Z. unfold norm2sq, dot2, sub2. cbn. ring. }
    intros Z. assert (PP := PI_RGT_0). assert (angle_sum p (a0 :: b0 :: (c0 :: r0 ++ [a0])) = 0); [|nra]. apply (Rmult_eq_reg_r (/ (2 * PI))); [|apply Rinv_neq_0_compat; lra]. unfold Rdiv in Z. rewrite Z. ring.
Qed.
(** With the edges themselves: the closed half planes, provided that the loop has an inside at all. *)
Definition all_edges_closed (sg : R) (vs : list v2) (p : v2) : Prop :=
  forall a b, consecutive (vs ++ [hd zero2 vs]) a b -> 0 <= sg * cross2 (sub2 b a) (sub2 p a).
Lemma consecutive_in l a b : consecutive l a b -> In a l /\ In b l.
Proof. intros (l1 & l2 & ->). split; apply in_app_iff; right; cbn; auto. Qed.
Lemma loop_in vs v : vs <> [] -> In v (vs ++ [hd zero2 vs]) -> In v vs.
Proof. intros N I. apply in_app_iff in I. destruct I as [I|[<-|[]]]; [exact I|]. destruct vs; [congruence|now left]. Qed.
Theorem C96_closed sg vs s c : sg = 1 \/ sg = -1 -> polygon vs = Ok s -> loop_ok vs -> convex_loop sg vs -> all_edges sg vs c -> forall p, ev2 s p <= 0 <-> all_edges_closed sg vs p.
Proof.
  intros SG E OK CV IC p. pose proof (C96_convex sg vs s SG E OK CV) as OPEN. destruct (C59_exact_partial vs s E OK) as (_ & _ & ZERO). pose proof (C59_lipschitz_partial vs s E OK) as LIP.
  assert (N : (3 <= length vs)%nat) by (apply C59_defined; eauto). assert (NE : vs <> []) by (intros ->; cbn in N; lia). split.
  - intros [L|Z] a b C.
    + destruct (Req_dec (norm2sq (sub2 b a)) 0) as [Q|Q]; [apply same2 in Q; subst b; unfold cross2, sub2; cbn; right; ring|]. left. apply OPEN; [exact L|exact C|]. intros ->. apply Q. unfold norm2sq, dot2, sub2. cbn. ring.
    + apply ZERO in Z. destruct Z as (u & w & C' & t & T & ->). apply consecutive_in in C'. destruct C' as (U & W). apply loop_in in U, W; try exact NE. pose proof (CV a b u C U) as KU. pose proof (CV a b w C W) as KW.
      replace (sg * cross2 (sub2 b a) (sub2 (add2 u (scale2 t (sub2 w u))) a)) with ((1 - t) * (sg * cross2 (sub2 b a) (sub2 u a)) + t * (sg * cross2 (sub2 b a) (sub2 w a))) by (unfold cross2, sub2, add2, scale2; cbn; ring). nra.
  - intros CL. apply Rnot_lt_le. intros PO. set (e := ev2 s p) in *. set (D := dist2 c p). assert (DP : 0 <= D) by apply norm2_nonneg. set (l := Rmin 1 (e / (1 + D))). assert (Q : 0 < e / (1 + D)) by (apply Rdiv_lt_0_compat; lra).
    assert (LP : 0 < l <= 1) by (unfold l; rmm; lra). assert (LD : l * D <= e). { assert (l <= e / (1 + D)) by (unfold l; apply Rmin_r). assert (e / (1 + D) * (1 + D) = e) by (field; lra). nra. }
    set (q := add2 p (scale2 l (sub2 c p))). assert (IQ : ev2 s q < 0).
    { apply OPEN. intros a b C NQ. pose proof (CL a b C) as K. pose proof (IC a b C NQ) as K'. replace (sg * cross2 (sub2 b a) (sub2 q a)) with ((1 - l) * (sg * cross2 (sub2 b a) (sub2 p a)) + l * (sg * cross2 (sub2 b a) (sub2 c a))) by (unfold q, cross2, sub2, add2, scale2; cbn; ring). clear - LP K K'. nra. }
    assert (DQ : dist2 q p = l * D). { unfold D, dist2. replace (sub2 q p) with (scale2 l (sub2 c p)) by (unfold q, sub2, add2, scale2; apply v2_ext; cbn; ring). unfold norm2. replace (norm2sq (scale2 l (sub2 c p))) with (l * l * norm2sq (sub2 c p)) by (unfold norm2sq, dot2, scale2; cbn; ring). rewrite sqrt_mult_alt by nra. rewrite sqrt_square by lra. reflexivity. }
    pose proof (LIP p q) as K. rewrite dist2_sym, DQ in K. pose proof (Rle_abs (ev2 s p - ev2 s q)). fold e in K, H. lra.
Qed.

(** Offset2D of a polygon, convex or not: the points nearer to it than the offset. *)
Theorem C96_offset vs s c : polygon vs = Ok s -> loop_ok vs -> 0 < c -> c * c <= max_float64 ->
  forall p, ev2 (offset2d s c) p < 0 <-> exists q, ev2 s q <= 0 /\ dist2 p q < c.
Proof.
  intros E OK C M p. pose proof (C59_lipschitz_partial vs s E OK) as LIP. destruct (C59_exact_partial vs s E OK) as (_ & _ & ZERO). cbn [offset2d ev2]. split.
  - intros L. destruct (Rle_dec (ev2 s p) 0) as [I|I].
    + exists p. split; [exact I|]. unfold dist2. replace (norm2 (sub2 p p)) with 0; [exact C|]. unfold norm2. replace (norm2sq (sub2 p p)) with 0 by (unfold norm2sq, dot2, sub2; cbn; ring). now rewrite sqrt_0.
    + destruct vs as [|v0 [|v1 [|v2' r]]]; cbn [polygon] in E; try discriminate. injection E as <-. set (vs := v0 :: v1 :: v2' :: r) in *. cbn [ev2] in *.
      destruct (close_loop_ok v0 (v1 :: v2' :: r) ltac:(cbn; lia) OK) as (D & _ & _ & _ & OE & _). fold vs in D, OE. set (cl := close_loop v0 vs) in *.
      assert (V : poly_eval cl p = sqrt (loop_d2 cl p)). { rewrite poly_eval_eq in I |- *. destruct (_ =? _)%Z; [reflexivity|]. exfalso. apply I. pose proof (sqrt_pos (loop_d2 cl p)). lra. }
      rewrite V in L. assert (LL : loop_d2 cl p < c * c). { destruct (loop_d2_zero cl p D) as (_ & NN). rewrite <- (sqrt_sqrt _ NN). pose proof (sqrt_pos (loop_d2 cl p)). nra. }
      unfold loop_d2 in LL. destruct (fold_min_att (fun e => seg_d2 p (fst e) (snd e)) (poly_edges cl) max_float64) as [Q|([a b] & J & Q)]; [lra|]. apply in_edges in J. destruct (proj1 (seg_spec p a b (D a b J))) as (q & SQ & N). cbn [fst snd] in Q. rewrite Q in LL.
      exists q. split; [right; apply ZERO, OE; exists a, b; now split|]. unfold dist2, norm2. rewrite N. rewrite <- (sqrt_square c) by lra. apply sqrt_lt_1_alt. split; [|exact LL]. rewrite <- N. unfold norm2sq, dot2. nra.
  - intros (q & I & Q). pose proof (LIP p q) as K. pose proof (Rle_abs (ev2 s p - ev2 s q)). lra.
Qed.
(** ** Regular polygons *)
Lemma consecutive_nth l a b : consecutive l a b -> exists i, nth_error l i = Some a /\ nth_error l (S i) = Some b.
Proof. intros (l1 & l2 & ->). exists (length l1). split; [rewrite nth_error_app2, Nat.sub_diag by lia; reflexivity|]. rewrite nth_error_app2 by lia. replace (S (length l1) - length l1)%nat with 1%nat by lia. reflexivity. Qed.
Lemma nth_consecutive l i a b : nth_error l i = Some a -> nth_error l (S i) = Some b -> consecutive l a b.
Proof. revert i. induction l as [|c l IH]; intros [|i] A B; try discriminate. - cbn in A. injection A as ->. destruct l as [|d l]; [discriminate|]. cbn in B. injection B as ->. now exists [], l. - apply consecutive_cons. now apply (IH i). Qed.
(** Point on the circle, and the cross products with a chord of angle t. *)
Definition on_circle (r x : R) : v2 := V2 (r * cos x) (r * sin x).
Lemma chord_side r x t p : cross2 (sub2 (on_circle r (x + t)) (on_circle r x)) (sub2 p (on_circle r x)) = 2 * r * sin (t / 2) * (r * cos (t / 2) - (x2 p * cos (x + t / 2) + y2 p * sin (x + t / 2))).
Proof.
  set (h := t / 2). assert (TH : t = h + h) by (unfold h; field). set (m := x + h). assert (X1 : x + t = m + h) by (unfold m; rewrite TH; ring). rewrite X1. assert (X0 : x = m - h) by (unfold m; ring).
  unfold on_circle, cross2, sub2. cbn [x2 y2]. rewrite X0 at 1 2 3 4. rewrite cos_plus, sin_plus, cos_minus, sin_minus. pose proof (sin2_cos2 m) as S1. unfold Rsqr in S1. set (cm := cos m) in *. set (sm := sin m) in *. set (ch := cos h). set (sh := sin h). clearbody cm sm ch sh.
  assert (S1' : sm * sm = 1 - cm * cm) by lra. ring [S1'].
Qed.
Lemma cos_far h x : 0 < h <= PI -> h <= Rabs x <= 2 * PI - h -> cos x <= cos h.
Proof.
  intros H X. assert (C : cos x = cos (Rabs x)) by (unfold Rabs; destruct (Rcase_abs x); [now rewrite cos_neg|reflexivity]). rewrite C. set (y := Rabs x) in *. clearbody y. clear C. destruct (Rle_lt_dec y PI) as [L|L].
  - apply cos_decr_1; lra.
  - replace (cos y) with (cos (2 * PI - y)); [apply cos_decr_1; lra|]. rewrite cos_minus, cos_2PI, sin_2PI. ring.
Qed.
Section Nagon.
  Context (n : Z) (r : R) (N3 : (3 <= n)%Z) (RP : 0 < r).
  Let t : R := 2 * PI / IZR n.
  Let vs : list v2 := nagon n r.
  Let NP : 3 <= IZR n. Proof. apply IZR_le. exact N3. Qed.
  Let TN : t * IZR n = 2 * PI. Proof. unfold t. field. pose proof NP. lra. Qed.
  Let TP : 0 < t. Proof. unfold t. apply Rdiv_lt_0_compat; [pose proof PI_RGT_0; lra|pose proof NP; lra]. Qed.
  Let TH : t / 2 < PI / 2. Proof. pose proof TN. pose proof NP. pose proof PI_RGT_0. pose proof TP. nra. Qed.
  Lemma nagon_loop i : (i <= Z.to_nat n)%nat -> nth_error (vs ++ [hd zero2 vs]) i = Some (on_circle r (INR i * t)).
  Proof.
    intros I. destruct (C61_nagon n r N3) as (LEN & NTH & _ & N0 & _). fold vs in LEN, NTH, N0. assert (LE : length vs = Z.to_nat n) by lia. destruct (Nat.eq_dec i (Z.to_nat n)) as [->|NI].
    - rewrite nth_error_app2 by lia. rewrite LE, Nat.sub_diag. cbn [nth_error]. f_equal. assert (IN : INR (Z.to_nat n) = IZR n) by (rewrite INR_IZR_INZ, Z2Nat.id by lia; reflexivity). rewrite IN. replace (IZR n * t) with (2 * PI) by (pose proof TN; lra).
      unfold on_circle. rewrite cos_2PI, sin_2PI, Rmult_1_r, Rmult_0_r. destruct vs as [|v r']; [discriminate|]. cbn in N0. now injection N0 as ->.
    - rewrite nth_error_app1 by lia. rewrite NTH by lia. reflexivity.
  Qed.
  Lemma nagon_edge a b : consecutive (vs ++ [hd zero2 vs]) a b -> exists i, (i < Z.to_nat n)%nat /\ a = on_circle r (INR i * t) /\ b = on_circle r (INR i * t + t).
  Proof.
    intros C. apply consecutive_nth in C. destruct C as (i & A & B). assert (L : (S i < length (vs ++ [hd zero2 vs]))%nat) by (apply nth_error_Some; congruence). rewrite app_length in L. cbn [length] in L.
    destruct (C61_nagon n r N3) as (LEN & _). fold vs in LEN. assert (I : (i < Z.to_nat n)%nat) by lia. rewrite nagon_loop in A, B by lia. injection A as <-. assert (EB : b = on_circle r (INR (S i) * t)) by congruence. exists i. split; [exact I|]. split; [reflexivity|]. rewrite EB, S_INR. f_equal. ring.
  Qed.
  Lemma nagon_convex : convex_loop 1 vs.
  Proof.
    intros a b v C V. destruct (nagon_edge a b C) as (i & I & -> & ->). apply In_nth_error in V. destruct V as (j & J). destruct (C61_nagon n r N3) as (LEN & NTH & _). fold vs in LEN, NTH. assert (LJ : (j < Z.to_nat n)%nat) by (assert (j < length vs)%nat by (apply nth_error_Some; congruence); lia).
    rewrite NTH in J by exact LJ. injection J as <-. rewrite chord_side. cbn [x2 y2]. pose proof TH. pose proof TP as TP. pose proof PI_RGT_0 as PP. assert (SP : 0 < sin (t / 2)) by (apply sin_gt_0; lra).
    fold t. assert (D : r * cos (INR j * t) * cos (INR i * t + t / 2) + r * sin (INR j * t) * sin (INR i * t + t / 2) = r * cos ((INR j - INR i - 1/2) * t)).
    { replace ((INR j - INR i - 1/2) * t) with (INR j * t - (INR i * t + t / 2)) by field. rewrite cos_minus. ring. }
    rewrite D. assert (K : cos ((INR j - INR i - 1/2) * t) <= cos (t / 2)).
    { apply cos_far; [lra|]. rewrite Rabs_mult, (Rabs_pos_eq t) by lra. assert (IB : INR i + 1 <= IZR n) by (rewrite <- S_INR, INR_IZR_INZ; apply IZR_le; lia). assert (JB : INR j + 1 <= IZR n) by (rewrite <- S_INR, INR_IZR_INZ; apply IZR_le; lia). pose proof (pos_INR i). pose proof (pos_INR j). pose proof TN.
      assert (M : 1/2 <= Rabs (INR j - INR i - 1/2) <= IZR n - 1/2).
      { split; [|unfold Rabs; destruct (Rcase_abs _); lra]. destruct (le_lt_dec j i) as [L|L]; [apply le_INR in L; unfold Rabs; destruct (Rcase_abs _); lra|]. apply lt_le_S, le_INR in L. rewrite S_INR in L. unfold Rabs; destruct (Rcase_abs _); lra. }
      set (m := Rabs _) in *. clearbody m. split; nra. }
    rewrite Rmult_1_l. apply Rmult_le_pos; [|nra]. apply Rmult_le_pos; lra.
  Qed.
  Lemma nagon_half p a b i : a = on_circle r (INR i * t) -> b = on_circle r (INR i * t + t) ->
    (0 < 1 * cross2 (sub2 b a) (sub2 p a) <-> x2 p * cos ((INR i + 1/2) * t) + y2 p * sin ((INR i + 1/2) * t) < r * cos (PI / IZR n)) /\
    (0 <= 1 * cross2 (sub2 b a) (sub2 p a) <-> x2 p * cos ((INR i + 1/2) * t) + y2 p * sin ((INR i + 1/2) * t) <= r * cos (PI / IZR n)).
  Proof.
    intros -> ->. rewrite chord_side. pose proof TH. pose proof TP as TP'. pose proof PI_RGT_0 as PP. assert (SP : 0 < sin (t / 2)) by (apply sin_gt_0; lra). replace ((INR i + 1/2) * t) with (INR i * t + t / 2) by field.
    assert (T2 : t / 2 = PI / IZR n) by (unfold t; pose proof NP; field; lra). rewrite <- T2. set (w := r * cos (t / 2)). set (u := _ + _). assert (Q : 0 < 2 * r * sin (t / 2)) by (apply Rmult_lt_0_compat; lra). set (k := 2 * r * sin (t / 2)) in *. clearbody k w u. clear - Q. split; split; intros; nra.
  Qed.
  Lemma nagon_ne i : on_circle r (INR i * t) <> on_circle r (INR i * t + t).
  Proof.
    intros E. destruct (nagon_half (V2 (2 * r * cos ((INR i + 1/2) * t)) (2 * r * sin ((INR i + 1/2) * t))) _ _ i eq_refl eq_refl) as (_ & H). rewrite <- E in H. cbn [x2 y2] in H. destruct H as (H & _).
    assert (K : 0 <= 1 * cross2 (sub2 (on_circle r (INR i * t)) (on_circle r (INR i * t))) (sub2 (V2 (2 * r * cos ((INR i + 1/2) * t)) (2 * r * sin ((INR i + 1/2) * t))) (on_circle r (INR i * t)))) by (unfold cross2, sub2; cbn; right; ring). specialize (H K).
    pose proof (sin2_cos2 ((INR i + 1/2) * t)) as SC. unfold Rsqr in SC. pose proof (COS_bound (PI / IZR n)). set (c := cos _) in *. set (s := sin _) in *. set (k := cos (PI / IZR n)) in *. clearbody c s k. clear - H SC RP H0. nra.
  Qed.
  Lemma nagon_sin : 0 < sin t.
  Proof. pose proof TH. pose proof TP. apply sin_gt_0; lra. Qed.
  (** first and last vertex further apart than the tolerance *)
  Lemma nagon_ok : tolerance < r * sin t -> loop_ok vs.
  Proof.
    intros T. split.
    - intros a b C. apply (consecutive_app _ [hd zero2 vs]) in C. destruct (nagon_edge a b C) as (i & _ & -> & ->). apply nagon_ne.
    - right. right. destruct (C61_nagon n r N3) as (LEN & NTH & _ & N0 & _). fold vs in LEN, NTH, N0. assert (H0 : hd zero2 vs = V2 r 0) by (destruct vs as [|v r']; [discriminate|]; cbn in N0; now injection N0 as ->).
      assert (HL : last vs zero2 = on_circle r (INR (Z.to_nat n - 1) * t)). { assert (NE : vs <> []) by (intros Q; rewrite Q in LEN; cbn in LEN; lia). destruct (exists_last NE) as (l & z & Q). rewrite Q, last_last. rewrite Q, app_length in LEN. cbn [length] in LEN. assert (K : nth_error vs (length l) = Some z) by (rewrite Q, nth_error_app2, Nat.sub_diag by lia; reflexivity). rewrite NTH in K by lia. injection K as <-. unfold on_circle. replace (Z.to_nat n - 1)%nat with (length l) by lia. reflexivity. }
      rewrite H0, HL. cbn [y2 on_circle]. rewrite minus_INR by lia. assert (IN : INR (Z.to_nat n) = IZR n) by (rewrite INR_IZR_INZ, Z2Nat.id by lia; reflexivity). rewrite IN. replace ((IZR n - INR 1) * t) with (2 * PI - t) by (cbn [INR]; pose proof TN; lra).
      rewrite sin_minus, sin_2PI, cos_2PI. replace (0 - r * (0 * cos t - 1 * sin t)) with (r * sin t) by ring. pose proof nagon_sin. rewrite Rabs_pos_eq by nra. exact T.
  Qed.
  Lemma nagon_center : all_edges 1 vs zero2.
  Proof.
    intros a b C _. destruct (nagon_edge a b C) as (i & _ & -> & ->). apply (proj1 (nagon_half zero2 _ _ i eq_refl eq_refl)). cbn. pose proof TH. pose proof TP. assert (T2 : t / 2 = PI / IZR n) by (unfold t; pose proof NP; field; lra). rewrite <- T2. assert (0 < cos (t / 2)) by (apply cos_gt_0; lra). nra.
  Qed.
  Lemma nagon_defined : exists s, polygon vs = Ok s.
  Proof. apply C59_defined. destruct (C61_nagon n r N3) as (LEN & _). fold vs in LEN. lia. Qed.
  Lemma nagon_sign s p : tolerance < r * sin t -> polygon vs = Ok s ->
    (ev2 s p < 0 <-> forall i, (i < Z.to_nat n)%nat -> x2 p * cos ((INR i + 1/2) * t) + y2 p * sin ((INR i + 1/2) * t) < r * cos (PI / IZR n)) /\
    (ev2 s p <= 0 <-> forall i, (i < Z.to_nat n)%nat -> x2 p * cos ((INR i + 1/2) * t) + y2 p * sin ((INR i + 1/2) * t) <= r * cos (PI / IZR n)).
  Proof.
    intros T E. pose proof (nagon_ok T) as OK. rewrite (C96_convex 1 vs s (or_introl eq_refl) E OK nagon_convex p), (C96_closed 1 vs s zero2 (or_introl eq_refl) E OK nagon_convex nagon_center p). split; split.
    - intros H i I. apply (proj1 (nagon_half p _ _ i eq_refl eq_refl)). apply H; [|apply nagon_ne]. apply (nth_consecutive _ i); [apply nagon_loop; lia|]. rewrite nagon_loop by lia. f_equal. rewrite S_INR. f_equal. ring.
    - intros H a b C _. destruct (nagon_edge a b C) as (i & I & -> & ->). apply (proj1 (nagon_half p _ _ i eq_refl eq_refl)). now apply H.
    - intros H i I. apply (proj2 (nagon_half p _ _ i eq_refl eq_refl)). apply H. apply (nth_consecutive _ i); [apply nagon_loop; lia|]. rewrite nagon_loop by lia. f_equal. rewrite S_INR. f_equal. ring.
    - intros H a b C. destruct (nagon_edge a b C) as (i & I & -> & ->). apply (proj2 (nagon_half p _ _ i eq_refl eq_refl)). now apply H.
  Qed.
End Nagon.
(** Polygon on the vertices of Nagon(n, r): the points whose distance from the centre, measured along the normal of
    each of the n edges, is below the inner radius r cos(pi/n). *)
Theorem C96_nagon n r : (3 <= n)%Z -> tolerance < r * sin (2 * PI / IZR n) -> 0 < r -> exists s, polygon (nagon n r) = Ok s /\ forall p,
  (ev2 s p < 0 <-> forall i, (i < Z.to_nat n)%nat -> x2 p * cos ((INR i + 1/2) * (2 * PI / IZR n)) + y2 p * sin ((INR i + 1/2) * (2 * PI / IZR n)) < r * cos (PI / IZR n)) /\
  (ev2 s p <= 0 <-> forall i, (i < Z.to_nat n)%nat -> x2 p * cos ((INR i + 1/2) * (2 * PI / IZR n)) + y2 p * sin ((INR i + 1/2) * (2 * PI / IZR n)) <= r * cos (PI / IZR n)).
Proof. intros N T P. destruct (nagon_defined n r N) as (s & E). exists s. split; [exact E|]. intros p. now apply nagon_sign. Qed.

(** ** Examples: a right triangle and a hexagon *)
Lemma consecutive_step x y l a b : consecutive (x :: y :: l) a b -> (a = x /\ b = y) \/ consecutive (y :: l) a b.
Proof. intros (l1 & l2 & E). destruct l1 as [|c l1]; cbn in E; [injection E as -> -> _; left; auto|injection E as _ E; right; exists l1, l2; exact E]. Qed.
Lemma consecutive_one x a b : ~ consecutive [x] a b.
Proof. intros (l1 & l2 & E). destruct l1 as [|? [|? ?]]; discriminate. Qed.
Example C96_example : (let vs := [V2 0 0; V2 2 0; V2 0 1] in loop_ok vs /\ convex_loop 1 vs /\ all_edges 1 vs (V2 (1/2) (1/2)) /\ ~ all_edges 1 vs (V2 1 1)) /\
  (3 <= 6)%Z /\ tolerance < 2 * sin (2 * PI / IZR 6) /\ 0 < 2.
Proof.
  split.
  - cbv zeta. split; [|split; [|split]].
    + split; [|right; right; cbn; unfold tolerance; rewrite Rabs_left; lra]. intros a b C. do 2 (apply consecutive_step in C; destruct C as [[-> ->]|C]; [intros Q; injection Q; lra|]). now apply consecutive_one in C.
    + intros a b v C V. cbn in C, V. do 3 (apply consecutive_step in C; destruct C as [[-> ->]|C]; [destruct V as [<-|[<-|[<-|[]]]]; unfold cross2, sub2; cbn; lra|]). now apply consecutive_one in C.
    + intros a b C _. cbn in C. do 3 (apply consecutive_step in C; destruct C as [[-> ->]|C]; [unfold cross2, sub2; cbn; lra|]). now apply consecutive_one in C.
    + intros H. assert (K : 0 < 1 * cross2 (sub2 (V2 0 1) (V2 2 0)) (sub2 (V2 1 1) (V2 2 0))). { apply H; [exists [V2 0 0], [V2 0 0]; reflexivity|]. intros Q. injection Q. lra. } unfold cross2, sub2 in K. cbn in K. lra.
  - split; [lia|]. split; [|lra]. replace (2 * PI / 6) with (PI / 3) by field. rewrite sin_PI3. assert (1 < sqrt 3) by (rewrite <- sqrt_1 at 1; apply sqrt_lt_1; lra). unfold tolerance. lra.
Qed.
