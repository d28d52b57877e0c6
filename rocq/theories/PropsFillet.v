(** The polygon builder (C60): where the smoothed corners lie, and what the calls do. *)
From Coq Require Import Reals Lra Psatz List Bool ZArith Lia.
From Verif Require Import Prelude Vec BoxModel MatrixModel SdfModel PolyModel Trig PropsMatrix PropsBool PropsBox PropsUtil SdfLemmas PropsPoly PropsBuilder.
Import ListNotations.
Local Open Scope R_scope.

(** ** Specification *)
(** Neighbours of vertex [i] among [n], round the corner if the polygon is closed. *)
Definition nx (closed : bool) (n i : nat) : option nat := if (Datatypes.S i <? n)%nat then Some (Datatypes.S i) else if closed then Some 0%nat else None.
Definition px (closed : bool) (n i : nat) : option nat := match i with O => if closed then Some (n - 1)%nat else None | Datatypes.S k => Some k end.
Definition at_ (L : list pvertex) (i : nat) : v2 := pv_pos (nth i L (pv_at zero2)).
(** [pts] rounds the corner [v] between [a] and [b]: [f]+1 points evenly spaced on an arc (less
    than a half turn) of radius [r] that touches both edges at distance [d] from the corner. *)
Definition fillet (v a b : v2) (r : R) (f : Z) (pts : list pvertex) (d : R) : Prop :=
  let p0 := add2 v (scale2 d (unit2 (sub2 a v))) in let p1 := add2 v (scale2 d (unit2 (sub2 b v))) in
  0 < d /\ exists c t,
    length pts = Z.to_nat (f + 1) /\
    (forall j, (j < Z.to_nat (f + 1))%nat -> nth_error pts j = Some (pv_at (add2 c (rot (INR j * t) (sub2 p0 c))))) /\
    norm2 (sub2 p0 c) = r /\ add2 c (rot (IZR f * t) (sub2 p0 c)) = p1 /\
    dot2 (sub2 p0 c) (sub2 a v) = 0 /\ dot2 (sub2 p1 c) (sub2 b v) = 0 /\ Rabs (IZR f * t) < PI.
(** Every vertex to be smoothed has a positive radius and is a proper corner, and its fillet would
    not use up a whole edge exactly (the code would then divide zero by zero next to it). *)
Definition regular (closed : bool) (L : list pvertex) : Prop :=
  forall k v i j, nth_error L k = Some v -> pv_type v = PvSmooth -> px closed (length L) k = Some i -> nx closed (length L) k = Some j ->
    0 < pv_radius v /\ cross2 (sub2 (at_ L i) (pv_pos v)) (sub2 (at_ L j) (pv_pos v)) <> 0 /\
    forall pts d, fillet (pv_pos v) (at_ L i) (at_ L j) (pv_radius v) (pv_facets v) pts d ->
      d <> norm2 (sub2 (at_ L i) (pv_pos v)) /\ d <> norm2 (sub2 (at_ L j) (pv_pos v)).

(** ** One corner *)
Lemma unit_ne e : e <> zero2 -> norm2sq (unit2 e) = 1 /\ e = scale2 (norm2 e) (unit2 e) /\ 0 < norm2 e.
Proof.
  intros N. pose proof (norm2_pos _ N) as P. assert (E : e = scale2 (norm2 e) (unit2 e)) by (unfold unit2, scale2; apply v2_ext; cbn [x2 y2]; field; lra).
  split; [|split; assumption]. pose proof (norm2_sq e) as Q. set (n := norm2 e) in *. set (u := unit2 e) in *. rewrite E in Q. unfold norm2sq, dot2, scale2 in *. cbn [x2 y2] in Q.
  apply (Rmult_eq_reg_l (n * n)); [|nra]. lra.
Qed.
Lemma norm2_scale k e : 0 <= k -> norm2 (scale2 k e) = k * norm2 e.
Proof.
  intros K. unfold norm2. replace (norm2sq (scale2 k e)) with ((k * k) * norm2sq e) by (unfold norm2sq, dot2, scale2; cbn; ring).
  rewrite sqrt_mult by (try nra; unfold norm2sq, dot2; nra). rewrite sqrt_square by lra. reflexivity.
Qed.
Lemma unit_scale k e : 0 < k -> unit2 (scale2 k e) = unit2 e.
Proof.
  intros K. unfold unit2. rewrite norm2_scale by lra. destruct (Req_dec (norm2 e) 0) as [Z|Z].
  - apply norm2_zero_iff in Z. subst e. unfold scale2, zero2; apply v2_ext; cbn; ring.
  - unfold scale2; apply v2_ext; cbn; field; split; lra.
Qed.
Lemma cross_ne a b : cross2 a b <> 0 -> a <> zero2 /\ b <> zero2.
Proof. intros C. split; intros ->; apply C; unfold cross2, zero2; cbn; ring. Qed.
(** The tangent length is determined by the corner. *)
Lemma fillet_len v a b r f pts d : cross2 (sub2 a v) (sub2 b v) <> 0 -> fillet v a b r f pts d ->
  let k := dot2 (unit2 (sub2 a v)) (unit2 (sub2 b v)) in k < 1 /\ d * d * (1 - k) = r * r * (1 + k).
Proof.
  intros C (D & c & t & _ & _ & N & E & T0 & T1 & _). destruct (cross_ne _ _ C) as (A & B).
  destruct (unit_ne _ A) as (U0 & E0 & P0). destruct (unit_ne _ B) as (U1 & E1 & P1). cbn zeta.
  assert (NW : norm2sq (sub2 (add2 v (scale2 d (unit2 (sub2 b v)))) c) = r * r).
  { rewrite <- E. rewrite <- N. rewrite norm2_sq. set (w := sub2 (add2 v (scale2 d (unit2 (sub2 a v)))) c). set (g := IZR f * t).
    replace (sub2 (add2 c (rot g w)) c) with (rot g w) by (unfold sub2, add2; apply v2_ext; cbn; ring).
    pose proof (sin2_cos2 g) as S. unfold Rsqr in S. unfold norm2sq, dot2, rot; cbn [x2 y2].
    transitivity ((sin g * sin g + cos g * cos g) * (x2 w * x2 w + y2 w * y2 w)); [ring|rewrite S; ring]. }
  assert (NV : norm2sq (sub2 (add2 v (scale2 d (unit2 (sub2 a v)))) c) = r * r) by (rewrite <- N, norm2_sq; reflexivity).
  set (n0 := norm2 (sub2 a v)) in *. set (u0 := unit2 (sub2 a v)) in *. set (n1 := norm2 (sub2 b v)) in *. set (u1 := unit2 (sub2 b v)) in *.
  clearbody n0 n1 u0 u1. rewrite E0 in T0. rewrite E1 in T1. rewrite E0, E1 in C. clear E0 E1 A B E N. destruct u0 as [a0 b0], u1 as [a1 b1], v as [vx vy], c as [cx cy].
  unfold norm2sq, dot2, cross2, scale2, sub2, add2 in *. cbn [x2 y2] in *.
  set (wx := vx + d * a0 - cx) in *. set (wy := vy + d * b0 - cy) in *.
  assert (X1 : vx + d * a1 - cx = wx - d * (a0 - a1)) by (unfold wx; ring). assert (Y1 : vy + d * b1 - cy = wy - d * (b0 - b1)) by (unfold wy; ring).
  rewrite X1, Y1 in T1, NW. clearbody wx wy. clear X1 Y1 vx vy cx cy.
  assert (O0 : wx * a0 + wy * b0 = 0) by (apply (Rmult_eq_reg_l n0); lra). assert (O1 : (wx - d * (a0 - a1)) * a1 + (wy - d * (b0 - b1)) * b1 = 0) by (apply (Rmult_eq_reg_l n1); lra).
  set (k := a0 * a1 + b0 * b1). set (X := a0 * b1 - b0 * a1).
  assert (KX : k * k + X * X = 1) by (transitivity ((a0 * a0 + b0 * b0) * (a1 * a1 + b1 * b1)); [unfold k, X; ring|rewrite U0, U1; ring]).
  assert (XN : X <> 0) by (intros Z; apply C; transitivity (n0 * n1 * X); [unfold X; ring|rewrite Z; ring]).
  assert (XX : 0 < X * X) by nra. assert (KR : k < 1) by nra. split; [exact KR|].
  set (al := wy * a0 - wx * b0). assert (AL : al * al = r * r) by (transitivity ((wx * wx + wy * wy) * (a0 * a0 + b0 * b0) - (wx * a0 + wy * b0) * (wx * a0 + wy * b0)); [unfold al; ring|rewrite NV, U0, O0; ring]).
  assert (AX : al * X = - d * (1 - k)).
  { assert (WX : wx = - al * b0) by (transitivity (wx * (a0 * a0 + b0 * b0)); [rewrite U0; ring|]; transitivity ((wx * a0 + wy * b0) * a0 - al * b0); [unfold al; ring|rewrite O0; ring]).
    assert (WY : wy = al * a0) by (transitivity (wy * (a0 * a0 + b0 * b0)); [rewrite U0; ring|]; transitivity ((wx * a0 + wy * b0) * b0 + al * a0); [unfold al; ring|rewrite O0; ring]).
    clearbody al. rewrite WX, WY in O1. unfold X, k. transitivity (- d * (1 - k)); [|unfold k; ring].
    replace ((- al * b0 - d * (a0 - a1)) * a1 + (al * a0 - d * (b0 - b1)) * b1) with (al * X - d * (k - (a1 * a1 + b1 * b1))) in O1 by (unfold X, k; ring).
    rewrite U1 in O1. unfold X in O1. lra. }
  apply (Rmult_eq_reg_r (1 - k)); [|lra]. transitivity ((al * X) * (al * X)); [rewrite AX; ring|]. transitivity ((al * al) * (X * X)); [ring|].
  rewrite AL. replace (X * X) with ((1 - k) * (1 + k)) by lra. ring.
Qed.
Lemma fillet_unique v a b r f f' pts pts' d d' : cross2 (sub2 a v) (sub2 b v) <> 0 -> fillet v a b r f pts d -> fillet v a b r f' pts' d' -> d = d'.
Proof.
  intros C A B. destruct (fillet_len _ _ _ _ _ _ _ C A) as (K & E1). destruct (fillet_len _ _ _ _ _ _ _ C B) as (_ & E2).
  destruct A as (P1 & _), B as (P2 & _). set (k := dot2 _ _) in *. clearbody k.
  assert (d * d = d' * d') by (apply (Rmult_eq_reg_r (1 - k)); lra). nra.
Qed.
(** The code's points and tangent length depend on the neighbours only through the directions. *)
Definition sp_d (u0 u1 : v2) (r : R) : R := r / tan (acos (dot2 u0 u1) / 2).
Definition sp_pts (v u0 u1 : v2) (r : R) (f : Z) : list pvertex :=
  let theta := acos (dot2 u0 u1) in
  let c := add2 v (scale2 (r / sin (theta / 2)) (unit2 (add2 u0 u1))) in
  map (fun rv => pv_at (add2 c rv)) (iterate (mul_pos22 (rotate22 (sign (cross2 u1 u0) * (PI - theta) / IZR f))) (Z.to_nat (f + 1)) (sub2 (add2 v (scale2 (sp_d u0 u1 r) u0)) c)).
Lemma smooth_points_eq v a b r f : smooth_points v a b r f =
  let u0 := unit2 (sub2 a v) in let u1 := unit2 (sub2 b v) in
  if Rltb (norm2 (sub2 a v)) (sp_d u0 u1 r) || Rltb (norm2 (sub2 b v)) (sp_d u0 u1 r) then None else Some (sp_pts v u0 u1 r f).
Proof. reflexivity. Qed.
Lemma sp_fillet v a b r f : cross2 (sub2 a v) (sub2 b v) <> 0 -> 0 < r -> (1 <= f)%Z ->
  fillet v a b r f (sp_pts v (unit2 (sub2 a v)) (unit2 (sub2 b v)) r f) (sp_d (unit2 (sub2 a v)) (unit2 (sub2 b v)) r).
Proof.
  intros C R F. destruct (cross_ne _ _ C) as (A & B). destruct (unit_ne _ A) as (U0 & E0 & P0). destruct (unit_ne _ B) as (U1 & E1 & P1).
  set (u0 := unit2 (sub2 a v)) in *. set (u1 := unit2 (sub2 b v)) in *. set (D := sp_d u0 u1 r). set (K := 1 + Rabs D). assert (KP : 0 < K) by (unfold K; pose proof (Rabs_pos D); lra).
  set (a' := add2 v (scale2 K u0)). set (b' := add2 v (scale2 K u1)).
  assert (SA : sub2 a' v = scale2 (K / norm2 (sub2 a v)) (sub2 a v)) by (unfold a'; rewrite E0 at 2; unfold sub2, add2, scale2; apply v2_ext; cbn [x2 y2]; field; apply Rgt_not_eq; exact P0).
  assert (SB : sub2 b' v = scale2 (K / norm2 (sub2 b v)) (sub2 b v)) by (unfold b'; rewrite E1 at 2; unfold sub2, add2, scale2; apply v2_ext; cbn [x2 y2]; field; apply Rgt_not_eq; exact P1).
  assert (QA : 0 < K / norm2 (sub2 a v)) by (apply Rdiv_lt_0_compat; lra). assert (QB : 0 < K / norm2 (sub2 b v)) by (apply Rdiv_lt_0_compat; lra).
  assert (UA : unit2 (sub2 a' v) = u0) by (rewrite SA; now apply unit_scale). assert (UB : unit2 (sub2 b' v) = u1) by (rewrite SB; now apply unit_scale).
  assert (NA : norm2 (sub2 a' v) = K) by (rewrite SA, norm2_scale by lra; field; lra). assert (NB : norm2 (sub2 b' v) = K) by (rewrite SB, norm2_scale by lra; field; lra).
  assert (CX : cross2 (sub2 a' v) (sub2 b' v) <> 0).
  { rewrite SA, SB. set (ka := K / norm2 (sub2 a v)) in *. set (kb := K / norm2 (sub2 b v)) in *. replace (cross2 _ _) with (ka * kb * cross2 (sub2 a v) (sub2 b v)) by (unfold cross2, scale2; cbn [x2 y2]; ring).
    apply Rmult_integral_contrapositive_currified; [apply Rmult_integral_contrapositive_currified; lra|exact C]. }
  assert (E : smooth_points v a' b' r f = Some (sp_pts v u0 u1 r f)).
  { rewrite smooth_points_eq. cbn zeta. rewrite UA, UB, NA, NB. fold D. assert (D <= K) by (unfold K; pose proof (Rle_abs D); lra). rewrite (proj2 (Rltb_false K D)) by lra. reflexivity. }
  destruct (C60_smooth_geometry v a' b' r f _ CX R F E) as (c & t & d & G). cbn zeta in G. rewrite UA, UB in G. destruct G as (G1 & _ & _ & G2 & G3 & G4 & G5 & G6 & G7 & G8).
  assert (DD : d = D).
  { specialize (G3 0%nat ltac:(lia)). unfold sp_pts in G3. cbn zeta in G3. fold D in G3. rewrite nth_iterate_rot in G3 by lia.
    set (c' := add2 v (scale2 (r / sin _) _)) in G3. clearbody c'. clear - G3 U0. clearbody D. clearbody u0. cbn [INR] in G3. rewrite !Rmult_0_l in G3. unfold rot in G3. rewrite cos_0, sin_0 in G3.
    unfold add2, sub2, scale2 in G3. cbn [x2 y2] in G3. injection G3 as X Y.
    assert (X' : d * x2 u0 = D * x2 u0) by lra. assert (Y' : d * y2 u0 = D * y2 u0) by lra. unfold norm2sq, dot2 in U0. transitivity (d * x2 u0 * x2 u0 + d * y2 u0 * y2 u0); [replace d with (d * 1) at 1 by ring; rewrite <- U0; ring|rewrite X', Y'; replace D with (D * 1) at 3 by ring; rewrite <- U0; ring]. }
  subst d. unfold fillet. cbn zeta. fold u0 u1. split; [exact G1|]. exists c, t. split; [exact G2|]. split; [exact G3|]. split; [exact G4|]. split; [exact G5|].
  split; [|split; [|exact G8]].
  - rewrite SA in G6. apply (Rmult_eq_reg_l (K / norm2 (sub2 a v))); [|lra]. rewrite Rmult_0_r, <- G6. unfold dot2, scale2; cbn [x2 y2]. ring.
  - rewrite SB in G7. apply (Rmult_eq_reg_l (K / norm2 (sub2 b v))); [|lra]. rewrite Rmult_0_r, <- G7. unfold dot2, scale2; cbn [x2 y2]. ring.
Qed.
Lemma fillet_first v a b r f pts d : (1 <= f)%Z -> fillet v a b r f pts d -> exists w, hd_error pts = Some w /\ pv_pos w = add2 v (scale2 d (unit2 (sub2 a v))).
Proof.
  intros F (_ & c & t & L & N & _). specialize (N 0%nat ltac:(lia)). destruct pts as [|w r0]; [discriminate|]. injection N as ->. eexists. split; [reflexivity|].
  cbn [pv_pos pv_at INR]. rewrite Rmult_0_l. unfold rot. rewrite cos_0, sin_0. unfold add2, sub2; apply v2_ext; cbn; ring.
Qed.
Lemma fillet_last v a b r f pts d : (1 <= f)%Z -> fillet v a b r f pts d -> exists w, nth_error pts (length pts - 1) = Some w /\ pv_pos w = add2 v (scale2 d (unit2 (sub2 b v))).
Proof.
  intros F (_ & c & t & L & N & _ & E & _). specialize (N (length pts - 1)%nat ltac:(lia)). eexists. split; [exact N|]. cbn [pv_pos pv_at]. rewrite <- E.
  replace (INR (length pts - 1)) with (IZR f); [reflexivity|]. rewrite L. rewrite INR_IZR_INZ. f_equal. lia.
Qed.
Lemma fillet_normal v a b r f pts d w : (1 <= f)%Z -> fillet v a b r f pts d -> In w pts -> pv_type w = PvNormal.
Proof.
  intros F (_ & c & t & L & N & _) I. apply In_nth_error in I. destruct I as (j & J). assert (J2 : (j < length pts)%nat) by (apply nth_error_Some; congruence). rewrite N in J by lia. injection J as <-. reflexivity.
Qed.

(** ** Blocks of points, one for each vertex *)
Lemma flat_nth (blk : nat -> list pvertex) : forall n s i v, nth_error (flat_map blk (seq s n)) i = Some v ->
  exists k i', (k < n)%nat /\ i = (length (flat_map blk (seq s k)) + i')%nat /\ nth_error (blk (s + k)%nat) i' = Some v.
Proof.
  induction n as [|n IH]; intros s i v E; cbn [seq flat_map] in E; [destruct i; discriminate|].
  destruct (Nat.lt_ge_cases i (length (blk s))) as [L|L].
  - rewrite nth_error_app1 in E by exact L. exists 0%nat, i. cbn. rewrite Nat.add_0_r. repeat split; [lia|exact E].
  - rewrite nth_error_app2 in E by exact L. destruct (IH _ _ _ E) as (k & i' & K & I & V). exists (Datatypes.S k), i'. split; [lia|]. split; [cbn [seq flat_map]; rewrite app_length; lia|].
    replace (s + Datatypes.S k)%nat with (Datatypes.S s + k)%nat by lia. exact V.
Qed.
Lemma flat_split (blk : nat -> list pvertex) n k : (k < n)%nat ->
  flat_map blk (seq 0 n) = flat_map blk (seq 0 k) ++ blk k ++ flat_map blk (seq (Datatypes.S k) (n - Datatypes.S k)).
Proof.
  intros K. replace n with (k + Datatypes.S (n - Datatypes.S k))%nat at 1 by lia. rewrite seq_app, flat_map_app. cbn [seq flat_map]. rewrite Nat.add_0_l. reflexivity.
Qed.
Lemma flat_ext (f g : nat -> list pvertex) l : (forall i, In i l -> f i = g i) -> flat_map f l = flat_map g l.
Proof. induction l as [|a l IH]; intros H; cbn; [reflexivity|]. rewrite (H a) by now left. f_equal. apply IH. intros; apply H; now right. Qed.
Lemma hd_app {A} (a b : list A) : a <> [] -> hd_error (a ++ b) = hd_error a.
Proof. destruct a; [easy|reflexivity]. Qed.
Lemma last_app_nth {A} (a b : list A) : b <> [] -> nth_error (a ++ b) (length (a ++ b) - 1) = nth_error b (length b - 1).
Proof. intros N. destruct b as [|x b]; [easy|]. rewrite app_length. cbn [length]. rewrite nth_error_app2 by lia. f_equal. lia. Qed.
Lemma flat_next closed (blk : nat -> list pvertex) n k v : (k < n)%nat -> (forall j, (j < n)%nat -> blk j <> []) -> blk k = [v] ->
  next_vertex closed (flat_map blk (seq 0 n)) (length (flat_map blk (seq 0 k))) = match nx closed n k with Some j => hd_error (blk j) | None => None end.
Proof.
  intros K NE B. unfold next_vertex, nx. rewrite (flat_split blk n k K), B. set (pre := flat_map blk (seq 0 k)). set (post := flat_map blk _).
  rewrite !app_length. cbn [length]. destruct (Nat.ltb_spec (Datatypes.S k) n) as [L|L].
  - assert (P : post = blk (Datatypes.S k) ++ flat_map blk (seq (Datatypes.S (Datatypes.S k)) (n - Datatypes.S (Datatypes.S k)))).
    { unfold post. replace (n - Datatypes.S k)%nat with (Datatypes.S (n - Datatypes.S (Datatypes.S k))) by lia. reflexivity. }
    assert (PL : (0 < length post)%nat). { rewrite P, app_length. specialize (NE (Datatypes.S k) L). destruct (blk (Datatypes.S k)); [easy|cbn; lia]. }
    destruct (Nat.eqb_spec (length pre) (length pre + (1 + length post) - 1)) as [Q|Q]; [lia|].
    rewrite nth_error_app2 by lia. replace (length pre + 1 - length pre)%nat with 1%nat by lia. cbn [app nth_error].
    rewrite P. destruct (blk (Datatypes.S k)) as [|x r] eqn:BX; [exfalso; revert BX; now apply NE|reflexivity].
  - assert (P : post = []) by (unfold post; replace (n - Datatypes.S k)%nat with 0%nat by lia; reflexivity). rewrite P. cbn [length].
    rewrite (proj2 (Nat.eqb_eq _ _)) by lia. destruct closed; [|reflexivity]. unfold pre. destruct k as [|k'].
    + cbn. rewrite B. reflexivity.
    + cbn [seq flat_map]. rewrite <- app_assoc. rewrite hd_app by (apply NE; lia). reflexivity.
Qed.
Lemma flat_prev closed (blk : nat -> list pvertex) n k v : (k < n)%nat -> (forall j, (j < n)%nat -> blk j <> []) -> blk k = [v] ->
  prev_vertex closed (flat_map blk (seq 0 n)) (length (flat_map blk (seq 0 k))) = match px closed n k with Some j => nth_error (blk j) (length (blk j) - 1) | None => None end.
Proof.
  intros K NE B. destruct k as [|k'].
  - cbn [seq flat_map length prev_vertex px]. destruct closed; [|reflexivity].
    replace n with (n - 1 + 1)%nat at 1 2 by lia. rewrite seq_app, flat_map_app. cbn [seq flat_map]. rewrite app_nil_r, Nat.add_0_l. apply last_app_nth, NE. lia.
  - cbn [px]. assert (S1 : seq 0 (Datatypes.S k') = seq 0 k' ++ [k']) by (rewrite seq_S; reflexivity).
    assert (NK : blk k' <> []) by (apply NE; lia). set (pre := flat_map blk (seq 0 (Datatypes.S k'))).
    assert (PE : pre = flat_map blk (seq 0 k') ++ blk k') by (unfold pre; rewrite S1, flat_map_app; cbn [flat_map]; rewrite app_nil_r; reflexivity).
    assert (PL : (0 < length pre)%nat) by (rewrite PE, app_length; destruct (blk k'); [easy|cbn; lia]).
    replace (length pre) with (Datatypes.S (length pre - 1)) by lia. cbn [prev_vertex].
    rewrite (flat_split blk n (Datatypes.S k') K). fold pre. rewrite nth_error_app1 by lia. rewrite PE. apply last_app_nth, NK.
Qed.
Lemma px_nx closed n k q : (k < n)%nat -> nx closed n k = Some q -> (q < n)%nat /\ px closed n q = Some k.
Proof.
  unfold nx. intros K. destruct (Nat.ltb_spec (Datatypes.S k) n) as [L|L]; [intros E; injection E as <-; split; [exact L|reflexivity]|].
  destruct closed; [|discriminate]. intros E; injection E as <-. split; [lia|]. cbn. f_equal. lia.
Qed.
Lemma nx_px closed n k p : (k < n)%nat -> px closed n k = Some p -> (p < n)%nat /\ nx closed n p = Some k.
Proof.
  unfold nx, px. intros K. destruct k as [|k']; [destruct closed; [|discriminate]|]; intros E; injection E as <-.
  - split; [lia|]. destruct (Nat.ltb_spec (Datatypes.S (n - 1)) n) as [L|L]; [lia|reflexivity].
  - split; [lia|]. destruct (Nat.ltb_spec (Datatypes.S k') n) as [L|L]; [reflexivity|lia].
Qed.

(** ** The state of the smoothing loop *)
Definition blocks (closed : bool) (L : list pvertex) (blk : nat -> list pvertex) (dd : nat -> R) : Prop :=
  (forall i v, nth_error L i = Some v -> (dd i = 0 /\ blk i = [v]) \/
    (pv_type v = PvSmooth /\ exists p q, px closed (length L) i = Some p /\ nx closed (length L) i = Some q /\
      fillet (pv_pos v) (at_ L p) (at_ L q) (pv_radius v) (pv_facets v) (blk i) (dd i))) /\
  (forall i j, (i < length L)%nat -> nx closed (length L) i = Some j -> dd i + dd j <= norm2 (sub2 (at_ L j) (at_ L i))).
Lemma at_nth L i v : nth_error L i = Some v -> at_ L i = pv_pos v.
Proof. intros E. unfold at_. now rewrite (nth_error_nth _ _ _ E). Qed.
Lemma norm2_flip a b : norm2 (sub2 a b) = norm2 (sub2 b a).
Proof. unfold norm2. f_equal. unfold norm2sq, dot2, sub2; cbn; ring. Qed.
Lemma unit_flip a b : unit2 (sub2 b a) = scale2 (-1) (unit2 (sub2 a b)).
Proof. unfold unit2. rewrite (norm2_flip b a). unfold scale2, sub2; apply v2_ext; cbn; ring. Qed.
Lemma shrunk v e d : sub2 e v <> zero2 -> d < norm2 (sub2 e v) ->
  let w := add2 e (scale2 d (unit2 (sub2 v e))) in
  norm2 (sub2 w v) = norm2 (sub2 e v) - d /\ unit2 (sub2 w v) = unit2 (sub2 e v).
Proof.
  intros N D w. destruct (unit_ne _ N) as (U & E & P). set (n := norm2 (sub2 e v)) in *.
  assert (W : sub2 w v = scale2 ((n - d) / n) (sub2 e v)).
  { unfold w. rewrite unit_flip. set (u := unit2 (sub2 e v)) in *. replace (sub2 (add2 e (scale2 d (scale2 (-1) u))) v) with (sub2 (sub2 e v) (scale2 d u)) by (unfold sub2, add2, scale2; apply v2_ext; cbn; ring).
    rewrite E. unfold sub2, scale2. apply v2_ext; cbn [x2 y2]; field; lra. }
  assert (0 < (n - d) / n) by (apply Rdiv_lt_0_compat; lra). rewrite W, norm2_scale, unit_scale by lra. fold n. split; [field; lra|reflexivity].
Qed.
Section Step.
Context (closed : bool) (L : list pvertex) (REG : regular closed L) (FO : facets_ok L).
Notation n := (length L).
Lemma blocks_ne blk dd : blocks closed L blk dd -> forall j, (j < n)%nat -> blk j <> [].
Proof.
  intros (A & _) j J. destruct (nth_error L j) as [v|] eqn:E; [|apply nth_error_None in E; lia]. destruct (A j v E) as [(_ & ->)|(T & p & q & _ & _ & F)]; [discriminate|].
  assert (Fv : (1 <= pv_facets v)%Z) by (apply FO; [now apply nth_error_In in E|congruence]). destruct F as (_ & c & t & LE & _). intros Z. rewrite Z in LE. cbn in LE. lia.
Qed.
Lemma blocks_dd blk dd : blocks closed L blk dd -> forall j, (j < n)%nat -> 0 <= dd j.
Proof.
  intros (A & _) j J. destruct (nth_error L j) as [v|] eqn:E; [|apply nth_error_None in E; lia]. destruct (A j v E) as [(-> & _)|(T & p & q & _ & _ & F)]; [lra|]. destruct F as (F & _). lra.
Qed.
Lemma nbr_next blk dd k v q : blocks closed L blk dd -> nth_error L k = Some v -> nx closed n k = Some q -> dd k = 0 -> sub2 (at_ L q) (pv_pos v) <> zero2 ->
  exists w, hd_error (blk q) = Some w /\ norm2 (sub2 (pv_pos w) (pv_pos v)) = norm2 (sub2 (at_ L q) (pv_pos v)) - dd q /\ unit2 (sub2 (pv_pos w) (pv_pos v)) = unit2 (sub2 (at_ L q) (pv_pos v)).
Proof.
  intros (A & B) E Q D N. assert (K : (k < n)%nat) by (apply nth_error_Some; congruence). destruct (px_nx _ _ _ _ K Q) as (QN & PQ).
  destruct (nth_error L q) as [vq|] eqn:EQ; [|apply nth_error_None in EQ; lia]. rewrite (at_nth _ _ _ EQ) in *. specialize (B k q K Q). rewrite D, (at_nth _ _ _ E), (at_nth _ _ _ EQ) in B.
  destruct (A q vq EQ) as [(D0 & ->)|(T & p' & q' & P' & Q' & F)].
  - exists vq. rewrite D0. split; [reflexivity|]. split; [lra|reflexivity].
  - rewrite P' in PQ. injection PQ as ->. destruct (REG q vq k q' EQ T P' Q') as (_ & _ & ND). destruct (ND _ _ F) as (ND1 & _). rewrite (at_nth _ _ _ E) in *.
    assert (Fv : (1 <= pv_facets vq)%Z) by (apply FO; [now apply nth_error_In in EQ|congruence]).
    destruct (fillet_first _ _ _ _ _ _ _ Fv F) as (w & H1 & H2). exists w. split; [exact H1|]. rewrite H2. rewrite norm2_flip in ND1. apply shrunk; [exact N|lra].
Qed.
Lemma nbr_prev blk dd k v p : blocks closed L blk dd -> nth_error L k = Some v -> px closed n k = Some p -> dd k = 0 -> sub2 (at_ L p) (pv_pos v) <> zero2 ->
  exists w, nth_error (blk p) (length (blk p) - 1) = Some w /\ norm2 (sub2 (pv_pos w) (pv_pos v)) = norm2 (sub2 (at_ L p) (pv_pos v)) - dd p /\ unit2 (sub2 (pv_pos w) (pv_pos v)) = unit2 (sub2 (at_ L p) (pv_pos v)).
Proof.
  intros (A & B) E Q D N. assert (K : (k < n)%nat) by (apply nth_error_Some; congruence). destruct (nx_px _ _ _ _ K Q) as (QN & PQ).
  destruct (nth_error L p) as [vq|] eqn:EQ; [|apply nth_error_None in EQ; lia]. rewrite (at_nth _ _ _ EQ) in *. specialize (B p k QN PQ). rewrite D, (at_nth _ _ _ E), (at_nth _ _ _ EQ) in B.
  destruct (A p vq EQ) as [(D0 & ->)|(T & p' & q' & P' & Q' & F)].
  - exists vq. rewrite D0. split; [reflexivity|]. split; [lra|reflexivity].
  - rewrite Q' in PQ. injection PQ as ->. destruct (REG p vq p' k EQ T P' Q') as (_ & _ & ND). destruct (ND _ _ F) as (_ & ND1). rewrite (at_nth _ _ _ E) in *.
    assert (Fv : (1 <= pv_facets vq)%Z) by (apply FO; [now apply nth_error_In in EQ|congruence]).
    destruct (fillet_last _ _ _ _ _ _ _ Fv F) as (w & H1 & H2). exists w. split; [exact H1|]. rewrite H2. rewrite norm2_flip in B. rewrite norm2_flip in ND1. apply shrunk; [exact N|lra].
Qed.
(** A vertex of the list that is still to be smoothed is the only point of its block. *)
Lemma smooth_block blk dd i v : blocks closed L blk dd -> nth_error (flat_map blk (seq 0 n)) i = Some v -> pv_type v = PvSmooth ->
  exists k, nth_error L k = Some v /\ i = length (flat_map blk (seq 0 k)) /\ blk k = [v] /\ dd k = 0.
Proof.
  intros (A & _) E T. destruct (flat_nth blk n 0%nat i v E) as (k & i' & K & I & V). rewrite Nat.add_0_l in V.
  destruct (nth_error L k) as [vk|] eqn:EK; [|apply nth_error_None in EK; lia]. destruct (A k vk EK) as [(D & B)|(T' & p & q & _ & _ & F)].
  - rewrite B in V. destruct i' as [|i']; [|destruct i'; discriminate]. injection V as <-. exists k. repeat split; [exact EK|lia|exact B|exact D].
  - exfalso. assert (Fv : (1 <= pv_facets vk)%Z) by (apply FO; [now apply nth_error_In in EK|congruence]). apply nth_error_In in V. rewrite (fillet_normal _ _ _ _ _ _ _ _ Fv F V) in T. discriminate.
Qed.
(** The test the code makes, in terms of the original polygon. *)
Lemma smooth_test blk dd k v : blocks closed L blk dd -> nth_error L k = Some v -> pv_type v = PvSmooth -> blk k = [v] -> dd k = 0 ->
  match px closed n k, nx closed n k with
  | Some p, Some q => exists wp wn,
      prev_vertex closed (flat_map blk (seq 0 n)) (length (flat_map blk (seq 0 k))) = Some wp /\
      next_vertex closed (flat_map blk (seq 0 n)) (length (flat_map blk (seq 0 k))) = Some wn /\
      let a := at_ L p in let b := at_ L q in let x := pv_pos v in
      let d := sp_d (unit2 (sub2 a x)) (unit2 (sub2 b x)) (pv_radius v) in
      smooth_points x (pv_pos wp) (pv_pos wn) (pv_radius v) (pv_facets v) =
        if Rltb (norm2 (sub2 a x) - dd p) d || Rltb (norm2 (sub2 b x) - dd q) d then None
        else Some (sp_pts x (unit2 (sub2 a x)) (unit2 (sub2 b x)) (pv_radius v) (pv_facets v))
  | _, _ => next_vertex closed (flat_map blk (seq 0 n)) (length (flat_map blk (seq 0 k))) = None \/
            prev_vertex closed (flat_map blk (seq 0 n)) (length (flat_map blk (seq 0 k))) = None
  end.
Proof.
  intros I E T B D. assert (K : (k < n)%nat) by (apply nth_error_Some; congruence). pose proof (blocks_ne _ _ I) as NE.
  rewrite (flat_next closed blk n k v K NE B), (flat_prev closed blk n k v K NE B).
  destruct (px closed n k) as [p|] eqn:P; [|right; reflexivity]. destruct (nx closed n k) as [q|] eqn:Q; [|left; reflexivity].
  destruct (REG k v p q E T P Q) as (_ & C & _). destruct (cross_ne _ _ C) as (N0 & N1).
  destruct (nbr_prev _ _ _ _ _ I E P D N0) as (wp & H1 & H2 & H3). destruct (nbr_next _ _ _ _ _ I E Q D N1) as (wn & H4 & H5 & H6).
  exists wp, wn. split; [exact H1|]. split; [exact H4|]. cbn zeta. rewrite smooth_points_eq. cbn zeta. rewrite H2, H3, H5, H6. reflexivity.
Qed.
Lemma blocks_step blk dd i c l' : blocks closed L blk dd -> smooth_vertex closed (flat_map blk (seq 0 n)) i = Ok (c, l') ->
  exists blk' dd', blocks closed L blk' dd' /\ l' = flat_map blk' (seq 0 n).
Proof.
  intros I. unfold smooth_vertex. destruct (nth_error _ i) as [v|] eqn:E; [|discriminate]. assert (KEEP : Ok (false, flat_map blk (seq 0 n)) = Ok (c, l') -> exists blk' dd', blocks closed L blk' dd' /\ l' = flat_map blk' (seq 0 n)).
  { intros Q. injection Q as _ <-. now exists blk, dd. }
  destruct (pv_type v) eqn:T; try exact KEEP. destruct (smooth_block _ _ _ _ I E T) as (k & EK & -> & B & D). pose proof (smooth_test _ _ _ _ I EK T B D) as ST.
  assert (K : (k < n)%nat) by (apply nth_error_Some; congruence).
  destruct (px closed n k) as [p|] eqn:P, (nx closed n k) as [q|] eqn:Q; try (destruct ST as [-> | ->]; [exact KEEP|destruct (next_vertex _ _ _); exact KEEP]).
  destruct ST as (wp & wn & -> & -> & ->). destruct (REG k v p q EK T P Q) as (R & C & _). assert (Fv : (1 <= pv_facets v)%Z) by (apply FO; [now apply nth_error_In in EK|congruence]).
  pose proof (sp_fillet _ _ _ _ _ C R Fv) as FI. set (d := sp_d _ _ _) in *. set (pts := sp_pts _ _ _ _ _) in *.
  destruct (Rltb_spec (norm2 (sub2 (at_ L p) (pv_pos v)) - dd p) d) as [L0|L0]; [exact KEEP|]. destruct (Rltb_spec (norm2 (sub2 (at_ L q) (pv_pos v)) - dd q) d) as [L1|L1]; [exact KEEP|]. cbn [orb].
  destruct (Z.ltb_spec (pv_facets v + 1) 0); [lia|]. intros O. assert (LE : forall (x y : bool * list pvertex), Ok x = Ok y -> snd y = snd x) by (intros ? ? W; now injection W as ->). apply LE in O. cbn [snd] in O. rewrite O. clear KEEP O LE.
  exists (fun j => if (j =? k)%nat then pts else blk j), (fun j => if (j =? k)%nat then d else dd j). destruct I as (IA & IB).
  destruct (px_nx _ _ _ _ K Q) as (QN & PQ). destruct (nx_px _ _ _ _ K P) as (PN & QP).
  assert (QK : q <> k). { intros ->. apply C. rewrite (at_nth _ _ _ EK). unfold cross2, sub2; cbn; ring. }
  split; [split|].
  - intros j w EJ. destruct (Nat.eqb_spec j k) as [->|NK]; [|now apply IA]. rewrite EK in EJ. injection EJ as <-. right. split; [exact T|]. exists p, q. split; [exact P|]. split; [exact Q|exact FI].
  - intros j j' J EJ. destruct (Nat.eqb_spec j k) as [->|NK].
    + rewrite Q in EJ. injection EJ as <-. destruct (Nat.eqb_spec q k); [contradiction|]. rewrite (at_nth _ _ _ EK). lra.
    + destruct (Nat.eqb_spec j' k) as [->|NK']; [|now apply IB]. destruct (px_nx _ _ _ _ J EJ) as (_ & PJ). rewrite P in PJ. injection PJ as <-.
      rewrite (at_nth _ _ _ EK), norm2_flip. lra.
  - rewrite (flat_split blk n k K), B. cbn [app]. rewrite firstn_exact. rewrite skipn_succ. rewrite (flat_split (fun j => if (j =? k)%nat then pts else blk j) n k K), Nat.eqb_refl. f_equal; [|f_equal].
    + apply flat_ext. intros j J. apply in_seq in J. destruct (Nat.eqb_spec j k); [lia|reflexivity].
    + apply flat_ext. intros j J. apply in_seq in J. destruct (Nat.eqb_spec j k); [lia|reflexivity].
Qed.
End Step.

(** ** The theorems *)
(** Every corner to be smoothed is replaced by a fillet of the radius asked for, tangent to the
    edges of the polygon as given, and fillets on the same edge do not overlap.  A corner is left
    as it is only if it is an end of an open polygon or its fillet would not fit in what its
    neighbours' fillets leave of the edges. *)
Theorem C60_fillets_partial b l : b_list b = Some l -> facets_ok l -> first_ok (b_closed b) l ->
  let L := expand_arcs (b_closed b) (abs_from (if b_closed b then last_pos l else None) l) in
  regular (b_closed b) L ->
  exists fuel blk dd, (forall k, (fuel <= k)%nat -> vertices k b = Some (Ok (answer b (flat_map blk (seq 0 (length L)))))) /\
    (forall i v, nth_error L i = Some v ->
      (dd i = 0 /\ blk i = [v] /\ (pv_type v = PvSmooth -> forall p q, px (b_closed b) (length L) i = Some p -> nx (b_closed b) (length L) i = Some q ->
         forall pts d, fillet (pv_pos v) (at_ L p) (at_ L q) (pv_radius v) (pv_facets v) pts d ->
           norm2 (sub2 (at_ L p) (pv_pos v)) - dd p < d \/ norm2 (sub2 (at_ L q) (pv_pos v)) - dd q < d)) \/
      (pv_type v = PvSmooth /\ exists p q, px (b_closed b) (length L) i = Some p /\ nx (b_closed b) (length L) i = Some q /\
        fillet (pv_pos v) (at_ L p) (at_ L q) (pv_radius v) (pv_facets v) (blk i) (dd i))) /\
    (forall i j, (i < length L)%nat -> nx (b_closed b) (length L) i = Some j -> dd i + dd j <= norm2 (sub2 (at_ L j) (at_ L i))).
Proof.
  destruct b as [c rv bl]. cbn [b_list b_closed]. intros -> F FO. set (l1 := abs_from (if c then last_pos l else None) l).
  assert (F1 : facets_ok l1) by now apply abs_facets. set (fa := Datatypes.S (arc_count l1)).
  destruct (passes_terminate (arc_vertex c) arc_count (arc_measure c) fa l1 ltac:(unfold fa; lia)) as (r1 & E1).
  destruct (arcs_done c fa l1 r1 F1 E1) as (-> & F2 & NA). set (L := expand_arcs c l1) in *. set (fs := Datatypes.S (smooth_count L)).
  destruct (passes_terminate (smooth_vertex c) smooth_count (smooth_measure c) fs L ltac:(unfold fs; lia)) as (r2 & E2). cbn zeta. intros REG.
  destruct (passes_run (smooth_vertex c) (fun x => facets_ok x /\ exists blk dd, blocks c L blk dd /\ x = flat_map blk (seq 0 (length L))) (fun _ _ => True)) with (fuel := fs) (l := L) (r := r2)
    as (la & lb & -> & (PA & _) & (PB & blk & dd & BL & BE) & _ & PS); [easy|easy| | |exact E2|].
  - intros x i (FX & blk & dd & BL & ->) I. destruct (smooth_step c _ i FX I) as (ch & x' & E & FX' & _ & LE & _). exists ch, x'. split; [exact E|]. split; [|split; [exact Logic.I|exact LE]].
    split; [exact FX'|]. destruct (blocks_step c L REG F2 _ _ _ _ _ BL E) as (blk' & dd' & B1 & B2). exists blk', dd'. now split.
  - split; [exact F2|]. exists (fun i => match nth_error L i with Some v => [v] | None => [] end), (fun _ => 0). split; [split|].
    + intros i v E. left. now rewrite E.
    + intros i j _ _. pose proof (norm2_nonneg (sub2 (at_ L j) (at_ L i))). lra.
    + clear. induction L as [|a L IH] using rev_ind; [reflexivity|]. rewrite app_length. cbn [length]. rewrite Nat.add_1_r, seq_S, flat_map_app. cbn [flat_map Nat.add]. rewrite nth_error_app2, Nat.sub_diag by lia. cbn [nth_error app]. f_equal.
      rewrite IH at 1. apply flat_ext. intros i I. apply in_seq in I. rewrite nth_error_app1 by lia. reflexivity.
  - exists (fa + fs)%nat, blk, dd. split; [|split].
    + intros k K. unfold vertices, fixups, answer. cbn [b_list b_closed b_reverse]. rewrite rel_done by exact FO. fold l1. rewrite (passes_mono _ _ _ _ E1) by lia. rewrite (passes_mono _ _ _ _ E2) by lia. rewrite BE. reflexivity.
    + apply smooth_pass_false in PS; [|exact PA|intros i I; apply in_seq in I; lia]. destruct PS as (-> & _ & CS). subst la. destruct BL as (BA & BB). intros i v E. destruct (BA i v E) as [(D & B)|R]; [|now right]. left. split; [exact D|]. split; [exact B|].
      intros T p q P Q pts d FI. pose proof (smooth_test c L REG F2 blk dd i v (conj BA BB) E T B D) as ST. rewrite P, Q in ST. destruct ST as (wp & wn & W1 & W2 & W3). cbn zeta in W3.
      assert (K : (i < length L)%nat) by (apply nth_error_Some; congruence).
      assert (NV : nth_error (flat_map blk (seq 0 (length L))) (length (flat_map blk (seq 0 i))) = Some v).
      { rewrite (flat_split blk _ i K), B. rewrite nth_error_app2, Nat.sub_diag by lia. reflexivity. }
      assert (IN : In (length (flat_map blk (seq 0 i))) (seq 0 (length (flat_map blk (seq 0 (length L)))))) by (apply in_seq; split; [lia|]; apply nth_error_Some; rewrite NV; discriminate).
      destruct (CS _ v IN NV T) as [N|[N|(vn & vp & N1 & N2 & N3)]]; [congruence|congruence|].
      rewrite W1 in N2. injection N2 as <-. rewrite W2 in N1. injection N1 as <-. rewrite N3 in W3.
      destruct (REG i v p q E T P Q) as (RP & C & _). assert (Fv : (1 <= pv_facets v)%Z) by (apply F2; [now apply nth_error_In in E|congruence]).
      rewrite (fillet_unique _ _ _ _ _ _ _ _ _ _ C FI (sp_fillet _ _ _ _ _ C RP Fv)).
      destruct (Rltb_spec (norm2 (sub2 (at_ L p) (pv_pos v)) - dd p) (sp_d (unit2 (sub2 (at_ L p) (pv_pos v))) (unit2 (sub2 (at_ L q) (pv_pos v))) (pv_radius v))); [now left|].
      destruct (Rltb_spec (norm2 (sub2 (at_ L q) (pv_pos v)) - dd q) (sp_d (unit2 (sub2 (at_ L p) (pv_pos v))) (unit2 (sub2 (at_ L q) (pv_pos v))) (pv_radius v))); [now right|]. discriminate.
    + exact (proj2 BL).
Qed.
(** What the calls record. *)
Theorem C60_calls k b :
  (forall x mods, exists w, apply_op k b (OAdd x mods) = Some (Ok (Builder (b_closed b) (b_reverse b) (Some (match b_list b with Some l => l | None => [] end ++ [w])))) /\
     ((forall m, In m mods -> m <> MRel) -> pv_rel w = false) /\ (In MRel mods -> pv_rel w = true) /\ ((forall m, In m mods -> m <> MPolar) -> pv_pos w = x)) /\
  (forall l v, b_list b = Some (l ++ [v]) -> apply_op k b ODrop = Some (Ok (Builder (b_closed b) (b_reverse b) (Some l)))) /\
  ((b_list b = None \/ b_list b = Some []) -> apply_op k b ODrop = Some Panicked) /\
  (exists c, apply_op k b OClose = Some (Ok c) /\ b_closed c = true /\ b_reverse c = b_reverse b /\ b_list c = b_list b) /\
  (exists c, apply_op k b OReverse = Some (Ok c) /\ b_closed c = b_closed b /\ b_reverse c = true /\ b_list c = b_list b).
Proof.
  split; [|split; [|split; [|split]]].
  - intros x mods. exists (fold_left apply_mod mods (pv_at x)). split; [reflexivity|].
    assert (G : forall mods v, ((forall m, In m mods -> m <> MRel) -> pv_rel (fold_left apply_mod mods v) = pv_rel v) /\ (In MRel mods \/ pv_rel v = true -> pv_rel (fold_left apply_mod mods v) = true) /\
      ((forall m, In m mods -> m <> MPolar) -> pv_pos (fold_left apply_mod mods v) = pv_pos v)).
    { clear. induction mods as [|m mods IH]; intros v; cbn [fold_left].
      - split; [reflexivity|]. split; [intros [[]|H]; exact H|reflexivity].
      - destruct (IH (apply_mod v m)) as (A & B & C). split; [|split].
        + intros H. rewrite A by (intros; apply H; now right). specialize (H m ltac:(now left)). destruct m; cbn; try congruence; try (destruct (_ && _)%bool); try destruct (negb _); reflexivity.
        + intros H. apply B. destruct H as [[->|H]|H]; [right; reflexivity|now left|right]. destruct m; cbn; try reflexivity; try exact H; try (destruct (_ && _)%bool); try destruct (negb _); exact H.
        + intros H. rewrite C by (intros; apply H; now right). specialize (H m ltac:(now left)). destruct m; cbn; try congruence; try (destruct (_ && _)%bool); try destruct (negb _); reflexivity. }
    destruct (G mods (pv_at x)) as (A & B & C). split; [exact A|]. split; [intros H; apply B; now left|exact C].
  - intros l v E. unfold apply_op. rewrite E. destruct (l ++ [v]) as [|w r] eqn:Q; [destruct l; discriminate|]. rewrite <- Q, removelast_last. reflexivity.
  - intros [E|E]; unfold apply_op; rewrite E; reflexivity.
  - eexists. split; [reflexivity|]. repeat split.
  - eexists. split; [reflexivity|]. repeat split.
Qed.
(** What the modifiers record: each one changes just its own part of the vertex. *)
Theorem C60_modifiers v :
  apply_mod v MRel = PV true (pv_type v) (pv_pos v) (pv_facets v) (pv_radius v) /\
  (forall r t, pv_pos v = V2 r t -> apply_mod v MPolar = PV (pv_rel v) (pv_type v) (V2 (r * cos t) (r * sin t)) (pv_facets v) (pv_radius v)) /\
  (forall r f, r <> 0 -> f <> 0%Z -> apply_mod v (MSmooth r f) = PV (pv_rel v) PvSmooth (pv_pos v) f r) /\
  (forall r f, r <> 0 -> f <> 0%Z -> apply_mod v (MArc r f) = PV (pv_rel v) PvArc (pv_pos v) f r) /\
  (forall r f, r = 0 \/ f = 0%Z -> apply_mod v (MSmooth r f) = v /\ apply_mod v (MArc r f) = v) /\
  (forall s, s <> 0 -> exists r, r * r = s * s / 2 /\ 0 < r * s /\ apply_mod v (MChamfer s) = PV (pv_rel v) PvSmooth (pv_pos v) 1 r) /\
  apply_mod v (MChamfer 0) = v.
Proof.
  assert (H2 : sqrt_half * sqrt_half = 1 / 2) by (apply sqrt_sqrt; lra). assert (HP : 0 < sqrt_half) by (apply sqrt_lt_R0; lra).
  split; [reflexivity|]. split; [intros r t E; cbn; rewrite E; reflexivity|]. split; [|split; [|split; [|split]]].
  - intros r f R F. cbn. destruct (Reqb_spec r 0); [contradiction|]. destruct (Z.eqb_spec f 0); [contradiction|]. reflexivity.
  - intros r f R F. cbn. destruct (Reqb_spec r 0); [contradiction|]. destruct (Z.eqb_spec f 0); [contradiction|]. reflexivity.
  - intros r f H. cbn. destruct (Reqb_spec r 0); [split; reflexivity|]. destruct (Z.eqb_spec f 0); [split; reflexivity|]. tauto.
  - intros s N. exists (s * sqrt_half). split; [transitivity (s * s * (sqrt_half * sqrt_half)); [ring|rewrite H2; field]|]. split.
    + replace (s * sqrt_half * s) with (s * s * sqrt_half) by ring. apply Rmult_lt_0_compat; nra.
    + cbn. destruct (Reqb_spec s 0); [contradiction|reflexivity].
  - cbn. destruct (Reqb_spec 0 0); [reflexivity|contradiction].
Qed.
(** A chamfer of size [s] at a right angle cuts the corner with one edge of length [s]. *)
Theorem C60_chamfer v a b s pts d : a <> v -> b <> v -> dot2 (sub2 a v) (sub2 b v) = 0 -> 0 < s ->
  let w := apply_mod (pv_at v) (MChamfer s) in
  fillet (pv_pos w) a b (pv_radius w) (pv_facets w) pts d -> exists p q, pts = [p; q] /\ norm2 (sub2 (pv_pos q) (pv_pos p)) = s.
Proof.
  intros A B O P w. destruct (C60_modifiers (pv_at v)) as (_ & _ & _ & _ & _ & H & _). destruct (H s ltac:(lra)) as (r & R1 & R2 & E). unfold w. rewrite E. cbn [pv_pos pv_radius pv_facets pv_at]. clear H E w. intros FI.
  assert (NA : sub2 a v <> zero2) by (intros Z; apply A; destruct a, v; unfold sub2, zero2 in Z; cbn in Z; injection Z as Z1 Z2; f_equal; lra).
  assert (NB : sub2 b v <> zero2) by (intros Z; apply B; destruct b, v; unfold sub2, zero2 in Z; cbn in Z; injection Z as Z1 Z2; f_equal; lra).
  destruct (unit_ne _ NA) as (U0 & E0 & P0). destruct (unit_ne _ NB) as (U1 & E1 & P1).
  assert (K : dot2 (unit2 (sub2 a v)) (unit2 (sub2 b v)) = 0).
  { unfold unit2. unfold dot2 in *. unfold scale2. cbn [x2 y2] in *. transitivity (/ norm2 (sub2 a v) * / norm2 (sub2 b v) * (x2 (sub2 a v) * x2 (sub2 b v) + y2 (sub2 a v) * y2 (sub2 b v))); [field; split; lra|rewrite O; ring]. }
  assert (C : cross2 (sub2 a v) (sub2 b v) <> 0).
  { intros Z. pose proof (norm2_sq (sub2 a v)) as Qa. pose proof (norm2_sq (sub2 b v)) as Qb. clear - Z O Qa Qb P0 P1. set (na := norm2 (sub2 a v)) in *. set (nb := norm2 (sub2 b v)) in *. clearbody na nb.
    unfold norm2sq, cross2, dot2 in *. destruct (sub2 a v) as [x y], (sub2 b v) as [x' y']. cbn [x2 y2] in *.
    assert ((na * na) * (nb * nb) = 0). { rewrite Qa, Qb. transitivity ((x * x' + y * y') * (x * x' + y * y') + (x * y' - y * x') * (x * y' - y * x')); [ring|]. rewrite O, Z. ring. }
    assert (0 < na * na * (nb * nb)) by (apply Rmult_lt_0_compat; nra). lra. }
  destruct (fillet_len _ _ _ _ _ _ _ C FI) as (_ & D). rewrite K in D.
  assert (ONE : (1 <= 1)%Z) by lia. destruct (fillet_first _ _ _ _ _ _ _ ONE FI) as (p & F1 & F2). destruct (fillet_last _ _ _ _ _ _ _ ONE FI) as (q & G1 & G2).
  destruct FI as (DP & c0 & t0 & LE & _). change (Z.to_nat (1 + 1)) with 2%nat in LE. destruct pts as [|p' [|q' [|? ?]]]; try discriminate. cbn in F1, G1. injection F1 as <-. injection G1 as <-. exists p', q'. split; [reflexivity|].
  rewrite F2, G2. set (u := unit2 (sub2 a v)) in *. set (u' := unit2 (sub2 b v)) in *. clearbody u u'.
  assert (N : norm2sq (sub2 (add2 v (scale2 d u')) (add2 v (scale2 d u))) = s * s).
  { transitivity (d * d * (norm2sq u + norm2sq u' - 2 * dot2 u u')); [unfold norm2sq, dot2, sub2, add2, scale2; cbn; ring|]. rewrite U0, U1, K. lra. }
  unfold norm2. rewrite N. apply sqrt_square. lra.
Qed.
(** A closed square with two rounded corners on one edge, and its hypotheses. *)
Example C60_fillets_example :
  let l := [pv_at (V2 0 0); PV false PvSmooth (V2 10 0) 3 1; PV false PvSmooth (V2 10 10) 5 2; pv_at (V2 0 10)] in
  facets_ok l /\ first_ok true l /\ expand_arcs true (abs_from (last_pos l) l) = l /\ regular true l.
Proof.
  intros l. split; [|split; [|split]].
  - intros v I T. cbn in I. destruct I as [<-|[<-|[<-|[<-|[]]]]]; cbn in *; try congruence; lia.
  - unfold first_ok; cbn. try (intros; reflexivity). try tauto.
  - reflexivity.
  - assert (SQ : forall v a b r f pts d, cross2 (sub2 a v) (sub2 b v) <> 0 -> dot2 (sub2 a v) (sub2 b v) = 0 -> fillet v a b r f pts d -> d * d = r * r).
    { intros v a b r f pts d C O FI. destruct (fillet_len _ _ _ _ _ _ _ C FI) as (_ & D). cbn zeta in D. destruct (cross_ne _ _ C) as (NA & NB). pose proof (norm2_pos _ NA). pose proof (norm2_pos _ NB).
      replace (dot2 (unit2 (sub2 a v)) (unit2 (sub2 b v))) with (/ norm2 (sub2 a v) * / norm2 (sub2 b v) * dot2 (sub2 a v) (sub2 b v)) in D by (unfold unit2, dot2, scale2; cbn [x2 y2]; field; split; lra). rewrite O in D. lra. }
    intros k v i j E T P Q. destruct k as [|[|[|[|k]]]]; cbn in E; try (injection E as <-; cbn in T); try discriminate; [| |destruct k; discriminate].
    all: cbn in P, Q; injection P as <-; injection Q as <-; split; [cbn; lra|]; split; [unfold cross2, sub2; cbn; lra|].
    all: intros pts d FI; assert (D := FI); apply SQ in D; [|unfold cross2, sub2; cbn; lra|unfold dot2, sub2; cbn; lra]; cbn [pv_radius] in D.
    all: split; intros ->; match type of D with norm2 ?e * _ = _ => pose proof (norm2_sq e) as N end; rewrite N in D; unfold norm2sq, dot2, sub2 in D; cbn in D; lra.
Qed.
Example C60_chamfer_example : let w := apply_mod (pv_at zero2) (MChamfer 2) in exists pts d, fillet (pv_pos w) (V2 5 0) (V2 0 5) (pv_radius w) (pv_facets w) pts d.
Proof.
  intros w. destruct (C60_modifiers (pv_at zero2)) as (_ & _ & _ & _ & _ & H & _). destruct (H 2 ltac:(lra)) as (r & R1 & R2 & E). unfold w. rewrite E. cbn [pv_pos pv_radius pv_facets pv_at].
  eexists _, _. apply sp_fillet; [unfold cross2, sub2, zero2; cbn; lra|nra|lia].
Qed.
