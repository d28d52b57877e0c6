(** C81, C82: imported meshes (ImportModel): distances to triangles, signs, shared vertices and pseudo normals. *)
From Coq Require Import Reals Lra Lia List Bool Arith ZArith Psatz.
From Verif Require Import Prelude Vec BoxModel SdfModel MatrixModel PropsUtil PropsUnion2 TransformModel PropsTransform BihModel PropsTri PropsBih PropsBihSign PropsOmesh Tri2Model PropsTri2 ImportModel.
Import ListNotations.
Local Open Scope R_scope.

(** ** One triangle *)
Lemma canalis_coords a b c : non_degenerate a b c -> exists L : v3 -> v3,
  (forall p, t_apply (canalis a b c) p = L (sub3 p a)) /\
  (forall u v, L (add3 u v) = add3 (L u) (L v)) /\ (forall k u, L (scale3 k u) = scale3 k (L u)) /\ (forall u v, dot3 (L u) (L v) = dot3 u v) /\
  (exists x, 0 < x /\ L (sub3 b a) = V3 x 0 0) /\ (exists x y, 0 < y /\ L (sub3 c a) = V3 x y 0) /\
  (forall p, t_apply (t_inv (canalis a b c)) (L (sub3 p a)) = p).
Proof.
  intros ND. destruct (C73_canalis a b c ND) as (_ & _ & T0 & (x & X & _ & T1) & (x' & y & Y & T2) & IV).
  destruct (canalis_frame a b c ND) as (xc & yc & zc & _ & _ & _ & X1 & Y1 & Z1 & XY & XZ & YZ & ZC & _ & _ & _ & _ & _ & _ & AP).
  exists (fun v => V3 (dot3 xc v) (dot3 yc v) (dot3 zc v)).
  assert (PD : forall v, norm3sq (V3 (dot3 xc v) (dot3 yc v) (dot3 zc v)) = norm3sq v).
  { intros v. subst zc. clear - X1 Y1 XY. destruct xc as [a b c], yc as [d e f], v as [p q r]. unfold norm3sq, dot3, cross3 in *. cbn [x3 y3 z3] in *.
    transitivity ((p * p + q * q + r * r) * ((a * a + b * b + c * c) * (d * d + e * e + f * f) - (a * d + b * e + c * f) * (a * d + b * e + c * f))
      + (a * p + b * q + c * r) * (a * p + b * q + c * r) * (1 - (d * d + e * e + f * f))
      + (d * p + e * q + f * r) * (d * p + e * q + f * r) * (1 - (a * a + b * b + c * c))
      + 2 * (a * p + b * q + c * r) * (d * p + e * q + f * r) * (a * d + b * e + c * f)); [ring|]. rewrite X1, Y1, XY. ring. }
  split; [exact AP|]. split; [intros u v; unfold add3, dot3; cbn [x3 y3 z3]; f_equal; ring|]. split; [intros k u; unfold scale3, dot3; cbn [x3 y3 z3]; f_equal; ring|].
  split.
  { intros u v. pose proof (PD (add3 u v)) as P1. pose proof (PD (sub3 u v)) as P2. unfold norm3sq, dot3, add3, sub3 in *. cbn [x3 y3 z3] in *. lra. }
  split; [exists x; split; [exact X|]; rewrite <- T1, AP; reflexivity|]. split; [exists x', y; split; [exact Y|]; rewrite <- T2, AP; reflexivity|].
  intros p. rewrite <- AP. apply IV.
Qed.
(** What one call of Distance finds. *)
Definition tri_edge (x : triangle) (j : nat) : v3 * v3 := (tcorner x j, tcorner x (j + 1)).
Definition on_seg3 (a b w : v3) : Prop := exists t, 0 <= t <= 1 /\ w = add3 a (scale3 t (sub3 b a)).
Definition feature_ok (x : triangle) (p w : v3) (f : feature) : Prop :=
  match f with
  | FFace => forall u v, in_triangle x u -> in_triangle x v -> dot3 (sub3 p w) (sub3 u v) = 0
  | FE j => (j < 3)%nat /\ on_seg3 (tcorner x j) (tcorner x (j + 1)) w /\ dot3 (sub3 p w) (sub3 (tcorner x (j + 1)) (tcorner x j)) = 0
  | FV k => (k < 3)%nat /\ exists m, (m < 3)%nat /\ w = tcorner x m /\ k <> m
  end.
Lemma tri_distance_spec vs t a b c p : non_degenerate a b c -> mt_triangle vs t = (a, b, c) -> mt_t t = canalis a b c -> mt_inv t = t_inv (canalis a b c) ->
  (exists w, in_tri a b c w /\ dist3 p w < sqrt max_float64) ->
  let '(d, f, w) := tri_distance vs t p in
  in_tri a b c w /\ d = dist3 p w * dist3 p w /\ (forall w', in_tri a b c w' -> dist3 p w <= dist3 p w') /\ feature_ok (a, b, c) p w f.
Proof.
  intros ND MT TT TI (w0 & W0 & D0). destruct (canalis_coords a b c ND) as (L & AP & LA & LS & LD & (x & X & LB) & (x' & y & Y & LC) & IV).
  unfold tri_distance. rewrite MT, TT, TI. rewrite !AP.
  assert (LSUB : forall u v, L (sub3 u v) = sub3 (L u) (L v)) by (intros u v; replace (sub3 u v) with (add3 u (scale3 (-1) v)) by (unfold add3, sub3, scale3; destruct u, v; cbn; f_equal; ring); rewrite LA, LS; unfold add3, sub3, scale3; destruct (L u), (L v); cbn; f_equal; ring).
  assert (L0 : L (sub3 a a) = zero3) by (rewrite LSUB; unfold sub3, zero3; f_equal; ring). rewrite L0, LB, LC. unfold lower at 2 3 4. cbn [x3 y3 z3 zero3].
  set (lp := L (sub3 p a)). set (t2 := (V2 0 0, V2 x 0, V2 x' y)).
  assert (AR : 0 < area2 t2) by (unfold area2, t2, cross2, sub2; cbn [x2 y2]; nra).
  (* the plane of the triangle and the plane z = 0 *)
  assert (UP : forall w, in_tri a b c w -> exists q, L (sub3 w a) = V3 (x2 q) (y2 q) 0 /\ in_tri2 t2 q).
  { intros w (s & u & S1 & U1 & SU & ->). exists (add2 (V2 0 0) (add2 (scale2 s (sub2 (V2 x 0) (V2 0 0))) (scale2 u (sub2 (V2 x' y) (V2 0 0))))). split; [|exists s, u; repeat split; assumption].
    replace (sub3 (add3 a (add3 (scale3 s (sub3 b a)) (scale3 u (sub3 c a)))) a) with (add3 (scale3 s (sub3 b a)) (scale3 u (sub3 c a))) by (unfold sub3, add3, scale3; cbn; f_equal; ring). rewrite LA, !LS, LB, LC. unfold add3, scale3, add2, scale2, sub2. cbn [x2 y2 x3 y3 z3]. f_equal; ring. }
  assert (DOWN : forall q, in_tri2 t2 q -> let w := t_apply (t_inv (canalis a b c)) (V3 (x2 q) (y2 q) 0) in in_tri a b c w /\ L (sub3 w a) = V3 (x2 q) (y2 q) 0).
  { intros q (s & u & S1 & U1 & SU & ->). set (w := add3 a (add3 (scale3 s (sub3 b a)) (scale3 u (sub3 c a)))).
    assert (LW : L (sub3 w a) = V3 (x2 (add2 (V2 0 0) (add2 (scale2 s (sub2 (V2 x 0) (V2 0 0))) (scale2 u (sub2 (V2 x' y) (V2 0 0)))))) (y2 (add2 (V2 0 0) (add2 (scale2 s (sub2 (V2 x 0) (V2 0 0))) (scale2 u (sub2 (V2 x' y) (V2 0 0)))))) 0).
    { unfold w. replace (sub3 (add3 a (add3 (scale3 s (sub3 b a)) (scale3 u (sub3 c a)))) a) with (add3 (scale3 s (sub3 b a)) (scale3 u (sub3 c a))) by (unfold sub3, add3, scale3; cbn; f_equal; ring). rewrite LA, !LS, LB, LC. unfold add3, scale3, add2, scale2, sub2. cbn [x2 y2 x3 y3 z3]. f_equal; ring. }
    cbv zeta. rewrite <- LW, IV. split; [exists s, u; repeat split; assumption|reflexivity]. }
  assert (DT : forall w q, L (sub3 w a) = V3 (x2 q) (y2 q) 0 -> norm3sq (sub3 p w) = norm2sq (sub2 (lower lp) q) + z3 lp * z3 lp).
  { intros w q E. unfold norm3sq. rewrite <- LD. replace (sub3 p w) with (sub3 (sub3 p a) (sub3 w a)) by (unfold sub3; cbn; f_equal; ring). rewrite LSUB, E. fold lp. unfold norm2sq, dot2, dot3, sub2, sub3, lower. cbn [x2 y2 x3 y3 z3]. ring. }
  assert (D3 : forall w, dist3 p w = sqrt (norm3sq (sub3 p w))) by reflexivity.
  assert (EX : exists w, in_tri2 t2 w /\ norm2sq (sub2 (lower lp) w) < max_float64).
  { destruct (UP w0 W0) as (q & E & Q). exists q. split; [exact Q|]. rewrite D3 in D0. apply sqrt_lt_0_alt in D0. rewrite (DT _ _ E) in D0. nra. }
  pose proof (C70_closest_partial t2 (lower lp) AR EX) as H. destruct (closest2 (lower lp) t2) as [q f]. destruct H as (Q & M & FO & FI).
  destruct (DOWN q Q) as (W & LW). cbv zeta. set (w := t_apply (t_inv (canalis a b c)) (V3 (x2 q) (y2 q) 0)) in *. clearbody w.
  assert (N0 : forall v, 0 <= norm3sq v) by (intros v; unfold norm3sq, dot3; nra).
  split; [exact W|]. split; [rewrite D3, sqrt_sqrt by apply N0; reflexivity|]. split.
  { intros w' W'. destruct (UP w' W') as (q' & E' & Q'). specialize (M q' Q'). unfold dist2, norm2 in M. apply sqrt_le_0 in M; [|unfold norm2sq, dot2; nra|unfold norm2sq, dot2; nra]. rewrite !D3. apply sqrt_le_1_alt. rewrite (DT _ _ LW), (DT _ _ E'). lra. }
  assert (DD : forall w' q' u v qu qv, L (sub3 w' a) = V3 (x2 q') (y2 q') 0 -> L (sub3 u a) = V3 (x2 qu) (y2 qu) 0 -> L (sub3 v a) = V3 (x2 qv) (y2 qv) 0 -> dot3 (sub3 p w') (sub3 u v) = dot2 (sub2 (lower lp) q') (sub2 qu qv)).
  { intros w' q' u v qu qv E1 E2 E3. rewrite <- LD. replace (sub3 p w') with (sub3 (sub3 p a) (sub3 w' a)) by (unfold sub3; cbn; f_equal; ring). replace (sub3 u v) with (sub3 (sub3 u a) (sub3 v a)) by (unfold sub3; cbn; f_equal; ring). rewrite (LSUB (sub3 p a)), (LSUB (sub3 u a)), E1, E2, E3. fold lp. unfold dot2, dot3, sub2, sub3, lower. cbn [x2 y2 x3 y3 z3]. ring. }
  assert (CN : forall k, (k < 3)%nat -> L (sub3 (tcorner (a, b, c) k) a) = V3 (x2 (corner2 t2 k)) (y2 (corner2 t2 k)) 0).
  { intros k K. destruct k as [|[|[|k]]]; [| | |lia]; cbn [tcorner corner2 t2 nth Nat.modulo Nat.divmod fst snd Nat.sub]; [exact L0|exact LB|exact LC]. }
  assert (EQ : forall u v, L (sub3 u a) = L (sub3 v a) -> u = v) by (intros u v E; rewrite <- (IV u), <- (IV v), E; reflexivity).
  destruct f as [k|j|]; cbn [feature_ok].
  - destruct FO as (K & m & MM & QC & KM). split; [exact K|]. exists m. split; [exact MM|]. split; [|exact KM]. apply EQ. rewrite LW, CN by exact MM. now rewrite QC.
  - destruct FO as (J & (s & S1 & QS) & O).
    assert (EJ : edge2 t2 j = (corner2 t2 j, corner2 t2 ((j + 1) mod 3))) by (destruct j as [|[|[|j]]]; [reflexivity|reflexivity|reflexivity|lia]). rewrite EJ in QS, O. cbn [fst snd] in QS, O.
    assert (TM : tcorner (a, b, c) (j + 1) = tcorner (a, b, c) ((j + 1) mod 3)) by (unfold tcorner; now rewrite Nat.mod_mod by lia). rewrite TM. assert (J1 : ((j + 1) mod 3 < 3)%nat) by (apply Nat.mod_upper_bound; lia).
    split; [exact J|]. split.
    + exists s. split; [exact S1|]. apply EQ. replace (sub3 (add3 (tcorner (a, b, c) j) (scale3 s (sub3 (tcorner (a, b, c) ((j + 1) mod 3)) (tcorner (a, b, c) j)))) a) with (add3 (sub3 (tcorner (a, b, c) j) a) (scale3 s (sub3 (sub3 (tcorner (a, b, c) ((j + 1) mod 3)) a) (sub3 (tcorner (a, b, c) j) a)))) by (unfold sub3, add3, scale3; cbn [x3 y3 z3]; f_equal; ring).
      rewrite LA, LS, (LSUB (sub3 _ a)), !CN, LW, QS by assumption. unfold add3, scale3, sub3, add2, scale2, sub2. cbn [x2 y2 x3 y3 z3]. f_equal; ring.
    + rewrite (DD _ _ _ _ _ _ LW (CN _ J1) (CN _ J)). exact O.
  - intros u v U V. destruct (UP u U) as (qu & E1 & _), (UP v V) as (qv & E2 & _). rewrite (DD _ _ _ _ _ _ LW E1 E2), FO. unfold dot2, sub2. cbn [x2 y2]. ring.
Qed.

(** ** Building the mesh *)
(** The cache holds exactly the positions of the vertices, each under its cell. *)
Definition vcache_ok (tol : R) (ps : list v3) (c : cache) : Prop := forall k i, lookup k c = Some i <-> exists v, nth_error ps i = Some v /\ vkey tol v = k.
Definition get_n (vs : list pvert) (i : nat) : v3 := match nth_error vs i with Some v => pv_n v | None => zero3 end.
Lemma add3_zero u : add3 u zero3 = u.
Proof. destruct u. unfold add3, zero3. cbn. f_equal; ring. Qed.
Lemma add3_zero_l u : add3 zero3 u = u.
Proof. destruct u. unfold add3, zero3. cbn. f_equal; ring. Qed.
Lemma add3_assoc u v w : add3 (add3 u v) w = add3 u (add3 v w).
Proof. unfold add3. cbn. f_equal; ring. Qed.
Lemma set_pos vs i n : map pv_v (set_nth vs i (PVert (pv_v (nth i vs (PVert zero3 zero3))) n)) = map pv_v vs.
Proof. revert i. induction vs as [|v vs IH]; intros [|i]; cbn; [reflexivity|reflexivity|reflexivity|]. f_equal. apply IH. Qed.
Lemma corner_ok tol x vs c is j : vcache_ok tol (map pv_v vs) c ->
  exists vs' c' i u ext, imp_corner tol x (vs, c, is) j = (vs', c', is ++ [i]) /\ vcache_ok tol (map pv_v vs') c' /\
  map pv_v vs' = map pv_v vs ++ ext /\ incl ext [tcorner x j] /\
  nth_error (map pv_v vs') i = Some u /\ vkey tol u = vkey tol (tcorner x j) /\
  forall m, get_n vs' m = add3 (get_n vs m) (if (i =? m)%nat then scale3 (corner_angle x j) (face_norm x) else zero3).
Proof.
  intros C. unfold imp_corner. set (q := tcorner x j). set (dn := scale3 (corner_angle x j) (face_norm x)).
  assert (GN : forall vs0 i v0 m, nth_error vs0 i = Some v0 -> get_n (set_nth vs0 i (PVert (pv_v v0) (add3 (pv_n v0) dn))) m = add3 (get_n vs0 m) (if (i =? m)%nat then dn else zero3)).
  { intros vs0 i v0 m N. unfold get_n. pose proof (set_nth_error vs0 i (PVert (pv_v v0) (add3 (pv_n v0) dn)) m) as H. rewrite H. destruct (Nat.eqb_spec m i) as [->|NE].
    - rewrite Nat.eqb_refl. assert (LL : (i <? length vs0)%nat = true) by (apply Nat.ltb_lt, nth_error_Some; congruence). rewrite LL, N. reflexivity.
    - destruct (Nat.eqb_spec i m) as [E|_]; [congruence|]. now rewrite add3_zero. }
  destruct (lookup (vkey tol q) c) as [i|] eqn:E.
  - pose proof E as E'. apply C in E. destruct E as (u & U & K). rewrite nth_error_map in U. destruct (nth_error vs i) as [v0|] eqn:N; [|discriminate]. cbn in U. injection U as <-.
    rewrite (nth_error_nth vs i (PVert zero3 zero3) N). exists (set_nth vs i (PVert (pv_v v0) (add3 (pv_n v0) dn))), c, i, (pv_v v0), [].
    assert (SP : map pv_v (set_nth vs i (PVert (pv_v v0) (add3 (pv_n v0) dn))) = map pv_v vs) by (rewrite <- (nth_error_nth vs i (PVert zero3 zero3) N) at 1; apply set_pos). rewrite SP.
    split; [reflexivity|]. split; [exact C|]. split; [now rewrite app_nil_r|]. split; [intros ? []|]. split; [rewrite nth_error_map, N; reflexivity|]. split; [exact K|]. intros m. now apply GN.
  - set (vs1 := vs ++ [PVert q zero3]). assert (N : nth_error vs1 (length vs) = Some (PVert q zero3)) by (unfold vs1; rewrite nth_error_app2, Nat.sub_diag; [reflexivity|lia]). rewrite (nth_error_nth _ _ (PVert zero3 zero3) N).
    exists (set_nth vs1 (length vs) (PVert q (add3 zero3 dn))), ((vkey tol q, length vs) :: c), (length vs), q, [q].
    assert (SP : map pv_v (set_nth vs1 (length vs) (PVert q (add3 zero3 dn))) = map pv_v vs ++ [q]). { transitivity (map pv_v vs1); [|unfold vs1; now rewrite map_app]. change q with (pv_v (PVert q zero3)) at 1. rewrite <- (nth_error_nth _ _ (PVert zero3 zero3) N) at 1. apply set_pos. } rewrite SP.
    split; [reflexivity|]. split.
    { intros k i. cbn [lookup]. destruct (key_eqb (vkey tol q) k) eqn:KE.
      - apply key_eqb_eq in KE. subst k. split.
        + intros H. injection H as <-. exists q. rewrite nth_error_app2, map_length, Nat.sub_diag by (rewrite map_length; lia). split; reflexivity.
        + intros (v & V & K). destruct (Nat.lt_ge_cases i (length (map pv_v vs))) as [LI|LI]; [|rewrite map_length in LI; f_equal; assert (i < length (map pv_v vs ++ [q]))%nat by (apply nth_error_Some; congruence); rewrite app_length, map_length in H; cbn in H; lia].
          rewrite nth_error_app1 in V by exact LI. assert (lookup (vkey tol q) c = Some i) by (apply C; eauto). congruence.
      - rewrite (C k i). split; intros (v & V & K).
        + exists v. split; [|exact K]. rewrite nth_error_app1; [exact V|]. apply nth_error_Some. congruence.
        + exists v. split; [|exact K]. destruct (Nat.lt_ge_cases i (length (map pv_v vs))) as [LI|LI]; [now rewrite nth_error_app1 in V by exact LI|]. rewrite nth_error_app2 in V by exact LI. destruct (i - _)%nat as [|n]; cbn in V; [injection V as <-; exfalso; assert (T : key_eqb (vkey tol q) k = true) by (apply key_eqb_eq; exact K); congruence|destruct n; discriminate]. }
    split; [reflexivity|]. split; [apply incl_refl|]. split; [rewrite nth_error_app2, map_length, Nat.sub_diag by (rewrite map_length; lia); reflexivity|]. split; [reflexivity|].
    intros m. etransitivity; [exact (GN vs1 (length vs) (PVert q zero3) m N)|]. f_equal. unfold get_n, vs1. destruct (Nat.lt_ge_cases m (length vs)) as [LM|LM]; [now rewrite nth_error_app1 by exact LM|].
    rewrite nth_error_app2 by exact LM. assert (NN : nth_error vs m = None) by now apply nth_error_None. rewrite NN. destruct (m - length vs)%nat as [|[|n]]; reflexivity.
Qed.

(** The specification of the pseudo normals: sums over the triangles and their corners or sides. *)
Definition sum3 (l : list v3) : v3 := fold_right add3 zero3 l.
Definition corner_parts (idx : nat) (e : triangle * mtri) : list v3 :=
  map (fun j => if (vert_at (mt_verts (snd e)) j =? idx)%nat then scale3 (corner_angle (fst e) j) (face_norm (fst e)) else zero3) [0; 1; 2]%nat.
Definition side_parts (ed : nat * nat) (e : triangle * mtri) : list v3 :=
  map (fun j => if edge_eqb (edge_key (vert_at (mt_verts (snd e)) j) (vert_at (mt_verts (snd e)) (j + 1))) ed then scale3 PI (face_norm (fst e)) else zero3) [0; 1; 2]%nat.
Lemma sum3_app l m : sum3 (l ++ m) = add3 (sum3 l) (sum3 m).
Proof. unfold sum3. induction l as [|v l IH]; cbn [app fold_right]; [now rewrite add3_zero_l|]. now rewrite IH, add3_assoc. Qed.
(** A mesh triangle stands for a triangle of the model: it has its geometry, and vertices in the cells of its corners. *)
Definition stands_for (tol : R) (ps : list v3) (x : triangle) (t : mtri) : Prop :=
  mt_c t = centroid x /\ mt_n t = scale3 (2 * PI) (face_norm x) /\ mt_t t = canalis (tcorner x 0) (tcorner x 1) (tcorner x 2) /\ mt_inv t = t_inv (mt_t t) /\
  forall j, (j < 3)%nat -> exists u, nth_error ps (vert_at (mt_verts t) j) = Some u /\ vkey tol u = vkey tol (tcorner x j).
Record built (tol : R) (done : list triangle) (vs : list pvert) (c : cache) (ts : list mtri) (em : emap) : Prop := Built {
  bl_cache : vcache_ok tol (map pv_v vs) c;
  bl_pos : incl (map pv_v vs) (flat_map corners done);
  bl_tris : Forall2 (stands_for tol (map pv_v vs)) done ts;
  bl_n : forall idx, get_n vs idx = sum3 (flat_map (corner_parts idx) (combine done ts));
  bl_e : forall ed, edge_get em ed = sum3 (flat_map (side_parts ed) (combine done ts)) }.
Lemma edge_eqb_eq a b : edge_eqb a b = true <-> a = b.
Proof. destruct a, b. unfold edge_eqb. cbn. rewrite andb_true_iff, !Nat.eqb_eq. split; [intros (-> & ->); reflexivity|intros E; injection E; auto]. Qed.
Lemma imp_edge_get x m e ed : edge_get (imp_edge x m e) ed = add3 (edge_get m ed) (if edge_eqb e ed then scale3 PI (face_norm x) else zero3).
Proof. unfold imp_edge. cbn [edge_get]. destruct (edge_eqb e ed) eqn:E; [|now rewrite add3_zero]. apply edge_eqb_eq in E. now subst. Qed.
Lemma combine_app {A B} (l : list A) (l' : list A) (m : list B) m' : length l = length m -> combine (l ++ l') (m ++ m') = combine l m ++ combine l' m'.
Proof. revert m. induction l as [|a l IH]; intros [|b m] E; cbn in *; try discriminate; [reflexivity|]. f_equal. apply IH. lia. Qed.
Lemma f2_impl {A B} (P Q : A -> B -> Prop) l m : (forall a b, P a b -> Q a b) -> Forall2 P l m -> Forall2 Q l m.
Proof. induction 2; constructor; auto. Qed.
Lemma tri_built tol done vs c ts em x : built tol done vs c ts em ->
  let '(vs', c', ts', em') := imp_triangle tol (vs, c, ts, em) x in built tol (done ++ [x]) vs' c' ts' em'.
Proof.
  intros [BC BP BT BN BE]. destruct x as [[p q] r] eqn:EX. rewrite <- EX. unfold imp_triangle. rewrite EX. rewrite <- EX. cbn [fold_left].
  destruct (corner_ok tol x vs c [] 0 BC) as (v1 & c1 & i & u1 & e1 & R1 & C1 & P1 & I1 & N1 & K1 & G1). rewrite R1.
  destruct (corner_ok tol x v1 c1 ([] ++ [i]) 1 C1) as (v2' & c2 & j & u2 & e2 & R2 & C2 & P2 & I2 & N2 & K2 & G2). rewrite R2.
  destruct (corner_ok tol x v2' c2 (([] ++ [i]) ++ [j]) 2 C2) as (v3' & c3 & k & u3 & e3 & R3 & C3 & P3 & I3 & N3 & K3 & G3). rewrite R3. cbn [app nth].
  set (t := MTri _ _ _ _ _). assert (LD : length done = length ts) by (clear - BT; induction BT; cbn; congruence).
  assert (PE : map pv_v v3' = map pv_v vs ++ (e1 ++ e2 ++ e3)) by (rewrite P3, P2, P1, !app_assoc; reflexivity).
  assert (EXT : forall m u, nth_error (map pv_v vs) m = Some u -> nth_error (map pv_v v3') m = Some u) by (intros m u H; rewrite PE, nth_error_app1; [exact H|]; apply nth_error_Some; congruence).
  assert (CX : corners x = [tcorner x 0; tcorner x 1; tcorner x 2]) by (subst x; reflexivity).
  assert (FM : flat_map corners (done ++ [x]) = flat_map corners done ++ corners x) by (rewrite flat_map_app; cbn; now rewrite app_nil_r).
  constructor.
  - exact C3.
  - rewrite FM, PE. intros u U. apply in_app_or in U. apply in_or_app. destruct U as [U|U]; [left; now apply BP|right]. rewrite CX. apply in_app_or in U. destruct U as [U|U]; [apply I1 in U; destruct U as [<-|[]]; cbn; auto|]. apply in_app_or in U. destruct U as [U|U]; [apply I2 in U|apply I3 in U]; destruct U as [<-|[]]; cbn; auto.
  - apply Forall2_app.
    + eapply f2_impl; [|exact BT]. intros y ty (S1 & S2 & S3 & S4 & S5). repeat split; try assumption. intros m M. destruct (S5 m M) as (u & U & K). exists u. split; [now apply EXT|exact K].
    + constructor; [|constructor]. split; [reflexivity|]. split; [reflexivity|]. split; [unfold t; subst x; reflexivity|]. split; [reflexivity|]. intros m M. destruct m as [|[|[|m]]]; [| | |lia].
      * exists u1. split; [|exact K1]. change (nth_error (map pv_v v3') i = Some u1). rewrite P3, P2, <- app_assoc, nth_error_app1; [exact N1|]. apply nth_error_Some. congruence.
      * exists u2. split; [|exact K2]. change (nth_error (map pv_v v3') j = Some u2). rewrite P3, nth_error_app1; [exact N2|]. apply nth_error_Some. congruence.
      * exists u3. split; [exact N3|exact K3].
  - intros idx. rewrite combine_app, flat_map_app, sum3_app by exact LD. rewrite <- BN, G3, G2, G1. cbn [combine flat_map corner_parts map app fst snd sum3 fold_right]. rewrite !add3_assoc, !add3_zero. reflexivity.
  - intros ed. rewrite combine_app, flat_map_app, sum3_app by exact LD. rewrite <- BE. cbn [fold_left]. rewrite !imp_edge_get. cbn [combine flat_map side_parts map app fst snd sum3 fold_right]. rewrite !add3_assoc, !add3_zero. reflexivity.
Qed.
Lemma import_built model tol m : import_v1 model tol = Ok m -> exists t c, used_tol model tol = Ok t /\ built t model (im_verts m) c (im_tris m) (im_edges m) /\ im_bb m = model_box model.
Proof.
  intros E. unfold import_v1 in E. destruct (used_tol model tol) as [t| |]; cbn [bind] in E; try discriminate. exists t.
  assert (G : forall ts0 done vs c ts em, built t done vs c ts em -> let '(vs', c', ts', em') := fold_left (imp_triangle t) ts0 (vs, c, ts, em) in built t (done ++ ts0) vs' c' ts' em').
  { induction ts0 as [|x ts0 IH]; intros done vs c ts em B; cbn [fold_left]; [now rewrite app_nil_r|]. pose proof (tri_built t done vs c ts em x B) as B1. destruct (imp_triangle t (vs, c, ts, em) x) as [[[vs1 c1] ts1] em1]. specialize (IH _ _ _ _ _ B1). destruct (fold_left _ _ _) as [[[vs2 c2] ts2] em2]. now rewrite <- app_assoc in IH. }
  specialize (G model [] [] [] [] []). destruct (fold_left _ _ _) as [[[vs c] ts] em]. injection E as <-. exists c. split; [reflexivity|]. split; [|reflexivity]. apply G. constructor; cbn.
  - intros k i. split; [discriminate|]. intros (v & V & _). destruct i; discriminate.
  - apply incl_refl.
  - constructor.
  - intros idx. destruct idx; reflexivity.
  - reflexivity.
Qed.

(** ** Vertices and their normals, in terms of the model alone *)
Definition v3_eqb (u v : v3) : bool := Reqb (x3 u) (x3 v) && Reqb (y3 u) (y3 v) && Reqb (z3 u) (z3 v).
Lemma v3_eqb_eq u v : v3_eqb u v = true <-> u = v.
Proof. destruct u, v. unfold v3_eqb. cbn. rewrite !andb_true_iff, !Reqb_true. split; [intros ((-> & ->) & ->); reflexivity|intros E; injection E; auto]. Qed.
(** The normal of a vertex: the face normals of the triangles that have a corner there, each weighted with the angle of that corner. *)
Definition vertex_normal (model : list triangle) (v : v3) : v3 :=
  sum3 (flat_map (fun x => map (fun j => if v3_eqb (tcorner x j) v then scale3 (corner_angle x j) (face_norm x) else zero3) [0; 1; 2]%nat) model).
(** The normal of a side: the face normals of the triangles that have it, in either direction, each weighted with pi. *)
Definition side_eqb (p q a b : v3) : bool := (v3_eqb p a && v3_eqb q b) || (v3_eqb p b && v3_eqb q a).
Definition side_normal (model : list triangle) (a b : v3) : v3 :=
  sum3 (flat_map (fun x => map (fun j => if side_eqb (tcorner x j) (tcorner x (j + 1)) a b then scale3 PI (face_norm x) else zero3) [0; 1; 2]%nat) model).
Lemma vkey_close t u v : 0 < t -> vkey t u = vkey t v -> Rabs (x3 u - x3 v) < 2 * t /\ Rabs (y3 u - y3 v) < 2 * t /\ Rabs (z3 u - z3 v) < 2 * t.
Proof.
  intros T E. unfold vkey in E. injection E as X Y Z. assert (G : forall a b, truncZ (1 / t * a) = truncZ (1 / t * b) -> Rabs (a - b) < 2 * t).
  { intros a b H. apply trunc_close in H. replace (a - b) with ((1 / t * a - 1 / t * b) * t) by (field; lra). rewrite Rabs_mult, (Rabs_right t) by lra. nra. }
  auto.
Qed.
Lemma tcorner_in x j : In (tcorner x j) (corners x).
Proof. destruct x as [[a b] c]. unfold tcorner. pose proof (Nat.mod_upper_bound j 3 ltac:(lia)). destruct (j mod 3) as [|[|[|n]]]; cbn; auto. lia. Qed.
Lemma tcorner_model model x j : In x model -> In (tcorner x j) (flat_map corners model).
Proof. intros I. apply in_flat_map. exists x. split; [exact I|apply tcorner_in]. Qed.
Lemma tcorner_mod x j : tcorner x (j mod 3) = tcorner x j.
Proof. destruct x as [[a b] c]. unfold tcorner. now rewrite Nat.mod_mod. Qed.
Lemma vert_at_mod t j : vert_at t (j mod 3) = vert_at t j.
Proof. destruct t as [[a b] c]. unfold vert_at. now rewrite Nat.mod_mod. Qed.
Section apart.
  Variables (t : R) (model : list triangle) (vs : list pvert) (c : cache) (ts : list mtri) (em : emap).
  Hypothesis (TP : 0 < t) (AP : apart (2 * t) model) (BL : built t model vs c ts em).
  Lemma apart_key u v : In u (flat_map corners model) -> In v (flat_map corners model) -> vkey t u = vkey t v -> u = v.
  Proof. intros U V E. destruct (vkey_close t u v TP E) as (X & Y & Z). destruct (AP u v U V) as [H|[H|[H|H]]]; [exact H|lra|lra|lra]. Qed.
  Lemma apart_pos x y : In (x, y) (combine model ts) -> forall j, nth_error (map pv_v vs) (vert_at (mt_verts y) j) = Some (tcorner x j).
  Proof.
    intros I j. assert (F : In x model /\ stands_for t (map pv_v vs) x y). { destruct BL as [_ _ F _ _]. clear - F I. induction F as [|x' y' l m S F IH]; [destruct I|]. destruct I as [E|I]; [injection E as -> ->; split; [now left|exact S]|]. destruct (IH I). split; [now right|assumption]. }
    destruct F as (IX & (_ & _ & _ & _ & S)). rewrite <- vert_at_mod, <- tcorner_mod. destruct (S (j mod 3)%nat ltac:(apply Nat.mod_upper_bound; lia)) as (u & U & K). rewrite U. f_equal. apply apart_key; [|now apply tcorner_model|exact K]. apply (bl_pos _ _ _ _ _ _ BL). now apply nth_error_In in U.
  Qed.
  Lemma apart_index x y x' y' j k : In (x, y) (combine model ts) -> In (x', y') (combine model ts) -> (vert_at (mt_verts y) j =? vert_at (mt_verts y') k)%nat = v3_eqb (tcorner x j) (tcorner x' k).
  Proof.
    intros I I'. pose proof (apart_pos x y I j) as P. pose proof (apart_pos x' y' I' k) as P'. apply eq_true_iff_eq. rewrite Nat.eqb_eq, v3_eqb_eq. split.
    - intros E. rewrite E in P. congruence.
    - intros E. rewrite <- E in P'. pose proof (bl_cache _ _ _ _ _ _ BL (vkey t (tcorner x j))) as C. assert (L1 := proj2 (C _) (ex_intro _ _ (conj P eq_refl))). assert (L2 := proj2 (C _) (ex_intro _ _ (conj P' eq_refl))). congruence.
  Qed.
  Lemma sum_ext {A B} (f : A -> list v3) (g : B -> list v3) (h : B -> A) l : (forall e, In e l -> g e = f (h e)) -> sum3 (flat_map g l) = sum3 (flat_map f (map h l)).
  Proof. induction l as [|e l IH]; intros H; cbn [flat_map map]; [reflexivity|]. rewrite !sum3_app, (H e (or_introl eq_refl)), IH by (intros; apply H; now right). reflexivity. Qed.
  Lemma map_fst_combine : map fst (combine model ts) = model.
  Proof. destruct BL as [_ _ F _ _]. clear - F. induction F; cbn; congruence. Qed.
  Lemma apart_vertex x y j : In (x, y) (combine model ts) -> nth (vert_at (mt_verts y) j) vs (PVert zero3 zero3) = PVert (tcorner x j) (vertex_normal model (tcorner x j)).
  Proof.
    intros I. pose proof (apart_pos x y I j) as P. rewrite nth_error_map in P. destruct (nth_error vs (vert_at (mt_verts y) j)) as [v|] eqn:N; [|discriminate]. injection P as P. rewrite (nth_error_nth _ _ _ N).
    pose proof (bl_n _ _ _ _ _ _ BL (vert_at (mt_verts y) j)) as G. unfold get_n in G. rewrite N in G. destruct v as [vp vn]. cbn [pv_v pv_n] in *. subst vp vn. f_equal. unfold vertex_normal. rewrite <- map_fst_combine at 2. apply sum_ext.
    intros [x' y'] I'. unfold corner_parts. apply map_ext. intros k. cbn [fst snd]. now rewrite (apart_index x' y' x y k j I' I).
  Qed.
  Lemma edge_key_eq a b a' b' : edge_eqb (edge_key a b) (edge_key a' b') = ((a =? a') && (b =? b') || (a =? b') && (b =? a'))%nat.
  Proof.
    apply eq_true_iff_eq. rewrite edge_eqb_eq, orb_true_iff, !andb_true_iff, !Nat.eqb_eq. unfold edge_key. destruct (Nat.ltb_spec b a), (Nat.ltb_spec b' a'); split; intros H1; try (injection H1 as <- <-; auto); destruct H1 as [(-> & ->)|(-> & ->)]; try reflexivity; try lia; f_equal; lia.
  Qed.
  Lemma apart_edge x y j k : In (x, y) (combine model ts) -> edge_get em (edge_key (vert_at (mt_verts y) j) (vert_at (mt_verts y) k)) = side_normal model (tcorner x j) (tcorner x k).
  Proof.
    intros I. rewrite (bl_e _ _ _ _ _ _ BL). unfold side_normal. rewrite <- map_fst_combine at 2. apply sum_ext. intros [x' y'] I'. unfold side_parts. apply map_ext. intros m. cbn [fst snd]. rewrite edge_key_eq. unfold side_eqb. rewrite !(fun a b => apart_index x' y' x y a b I' I). reflexivity.
  Qed.
  Lemma apart_tri x y : In (x, y) (combine model ts) -> mt_triangle vs y = x.
  Proof.
    intros I. pose proof (apart_vertex x y 0 I) as A0. pose proof (apart_vertex x y 1 I) as A1. pose proof (apart_vertex x y 2 I) as A2. destruct x as [[a b] d], y as [mc [[i j] k] mn mt mi]. unfold mt_triangle. cbn [mt_verts] in *. unfold vert_at in *. cbn [Nat.modulo Nat.divmod fst snd Nat.sub nth] in *. rewrite A0, A1, A2. reflexivity.
  Qed.
End apart.

(** ** Angles and sides *)
Definition tri_ok (x : triangle) : Prop := tri_normal x <> zero3.
Lemma norm3_pos v : v <> zero3 -> 0 < norm3 v.
Proof.
  intros NZ. apply sqrt_lt_R0. destruct v as [a b c]. unfold norm3sq, dot3. cbn [x3 y3 z3].
  destruct (Req_dec a 0) as [E1|E1]; [destruct (Req_dec b 0) as [E2|E2]; [destruct (Req_dec c 0) as [E3|E3]; [exfalso; apply NZ; subst; reflexivity|]|]|]; nra.
Qed.
Lemma face_side x : tri_ok x -> exists k, 0 < k /\ face_norm x = scale3 k (tri_normal x).
Proof.
  intros H. destruct x as [[a b] c]. exists (1 / norm3 (tri_normal (a, b, c))). pose proof (norm3_pos _ H) as N. split; [apply Rdiv_lt_0_compat; lra|]. reflexivity.
Qed.
Lemma tcorner_normal x j : cross3 (sub3 (tcorner x j) (tcorner x (j + 1))) (sub3 (tcorner x j) (tcorner x (j + 2))) = tri_normal x.
Proof.
  destruct x as [[a b] c]. rewrite <- (tcorner_mod _ j), <- (tcorner_mod _ (j + 1)), <- (tcorner_mod _ (j + 2)).
  rewrite <- (Nat.add_mod_idemp_l j 1), <- (Nat.add_mod_idemp_l j 2) by lia. pose proof (Nat.mod_upper_bound j 3 ltac:(lia)). destruct (j mod 3) as [|[|[|n]]]; [| | |lia]; cbn; unfold cross3, sub3, tri_normal; cbn; unfold cross3, sub3; cbn; f_equal; ring.
Qed.
Lemma corner_angle_pos x j : tri_ok x -> 0 < corner_angle x j.
Proof.
  intros H. unfold corner_angle. set (u := sub3 (tcorner x j) (tcorner x (j + 1))). set (v := sub3 (tcorner x j) (tcorner x (j + 2))). unfold tri_ok in H.
  assert (H' : cross3 u v <> zero3) by (unfold u, v; now rewrite tcorner_normal). clearbody u v. clear H x j. rename H' into H.
  assert (U : u <> zero3) by (intros ->; apply H; unfold cross3, zero3; cbn; f_equal; ring). assert (V : v <> zero3) by (intros ->; apply H; unfold cross3, zero3; cbn; f_equal; ring).
  pose proof (norm3_pos _ H) as NC. apply norm3_pos in U. apply norm3_pos in V. unfold norm3 in NC. assert (P : 0 < norm3sq (cross3 u v)). { destruct (Rle_lt_dec (norm3sq (cross3 u v)) 0) as [L|L]; [|exact L]. rewrite (sqrt_neg_0 _ L) in NC. lra. }
  assert (LG : norm3sq (cross3 u v) = norm3sq u * norm3sq v - dot3 u v * dot3 u v) by (unfold norm3sq, dot3, cross3; cbn; ring).
  assert (SU : norm3 u * norm3 u = norm3sq u) by (apply sqrt_sqrt; unfold norm3sq, dot3; nra). assert (SV : norm3 v * norm3 v = norm3sq v) by (apply sqrt_sqrt; unfold norm3sq, dot3; nra).
  assert (UV : 0 < norm3 u * norm3 v) by now apply Rmult_lt_0_compat. assert (Q : (dot3 u v) * (dot3 u v) < (norm3 u * norm3 v) * (norm3 u * norm3 v)) by nra.
  assert (C1 : -1 <= cos3 u v < 1). { unfold cos3. set (d := dot3 u v) in *. set (n := norm3 u * norm3 v) in *. clearbody d n. assert (E : d = d / n * n) by (field; lra). set (e := d / n) in *. clearbody e. subst d. assert (e * e < 1) by (apply Rmult_lt_reg_r with (n * n); [nra|lra]). split; nra. }
  destruct (acos_bound (cos3 u v)) as (A & _). destruct A as [A|A]; [exact A|]. exfalso. pose proof (cos_acos (cos3 u v) ltac:(lra)) as CA. rewrite <- A, cos_0 in CA. lra.
Qed.
Lemma tcorner_tri x j : in_triangle x (tcorner x j).
Proof.
  destruct x as [[a b] c]. rewrite <- tcorner_mod. pose proof (Nat.mod_upper_bound j 3 ltac:(lia)). destruct (j mod 3) as [|[|[|n]]]; [| | |lia].
  - exists 0, 0. repeat split; try lra. unfold tcorner, add3, scale3, sub3. destruct a; cbn. f_equal; ring.
  - exists 1, 0. repeat split; try lra. unfold tcorner, add3, scale3, sub3. destruct b; cbn. f_equal; ring.
  - exists 0, 1. repeat split; try lra. unfold tcorner, add3, scale3, sub3. destruct c; cbn. f_equal; ring.
Qed.
Lemma plane_side' x w p : in_triangle x w -> dot3 (tri_normal x) (sub3 p w) = side_of x p.
Proof. destruct x as [[a b] c]. apply plane_side. Qed.
Lemma seg_plane x u v w p : in_triangle x u -> in_triangle x v -> on_seg3 u v w -> dot3 (tri_normal x) (sub3 p w) = side_of x p.
Proof.
  intros U V (k & _ & ->). rewrite <- (plane_side' x u p U). pose proof (plane_side' x u zero3 U) as P1. pose proof (plane_side' x v zero3 V) as P2. revert P1 P2. destruct (tri_normal x) as [n1 n2 n3], p as [p1 p2 p3'], u as [u1 u2 u3], v as [v1 v2' v3']. generalize (side_of x zero3). unfold dot3, sub3, add3, scale3, zero3. cbn [x3 y3 z3]. intros r P1 P2. assert (Q : n1 * (v1 - u1) + n2 * (v2' - u2) + n3 * (v3' - u3) = 0) by lra. transitivity (n1 * (p1 - u1) + n2 * (p2 - u2) + n3 * (p3' - u3) - k * (n1 * (v1 - u1) + n2 * (v2' - u2) + n3 * (v3' - u3))); [ring|rewrite Q; ring].
Qed.
Lemma dot3_scale k u v : dot3 (scale3 k u) v = k * dot3 u v.
Proof. unfold dot3, scale3. cbn. ring. Qed.
Lemma dot3_add u v w : dot3 (add3 u v) w = dot3 u w + dot3 v w.
Proof. unfold dot3, add3. cbn. ring. Qed.
Lemma dot3_zero v : dot3 zero3 v = 0.
Proof. unfold dot3, zero3. cbn. ring. Qed.
Lemma sum_sign s u l : (forall v, In v l -> 0 <= s * dot3 v u) -> (exists v, In v l /\ 0 < s * dot3 v u) -> 0 < s * dot3 (sum3 l) u.
Proof.
  intros A (v & I & P). assert (B : forall l', (forall v, In v l' -> 0 <= s * dot3 v u) -> 0 <= s * dot3 (sum3 l') u).
  { unfold sum3. induction l' as [|v' l' IH]; intros H; cbn [fold_right]; [rewrite dot3_zero; lra|]. rewrite dot3_add. pose proof (H v' (or_introl eq_refl)). specialize (IH (fun z Hz => H z (or_intror Hz))). lra. }
  apply in_split in I. destruct I as (l1 & l2 & ->). rewrite sum3_app. change (sum3 (v :: l2)) with (add3 v (sum3 l2)). rewrite !dot3_add.
  pose proof (B l1 (fun z Hz => A z (in_or_app _ _ _ (or_introl Hz)))). assert (0 <= s * dot3 (sum3 l2) u) by (apply B; intros z Hz; apply A, in_or_app; right; now right). lra.
Qed.
(** ** C81: the value *)
Definition near (x : triangle) (p : v3) : Prop := exists w, in_triangle x w /\ dist3 p w < sqrt max_float64.
(** The number whose sign is given to the distance. *)
Definition signed_by (model : list triangle) (x : triangle) (f : feature) (w p : v3) : R :=
  match f with
  | FFace => side_of x p
  | FE j => dot3 (side_normal model (tcorner x j) (tcorner x (j + 1))) (sub3 p w)
  | FV k => dot3 (vertex_normal model (tcorner x k)) (sub3 p (tcorner x k))
  end.
Lemma combine_nth model ts i (x : triangle) (y : mtri) : nth_error model i = Some x -> nth_error ts i = Some y -> In (x, y) (combine model ts).
Proof. revert model ts. induction i as [|i IH]; intros [|a model] [|b ts] E F; try discriminate; cbn in *; [injection E as ->; injection F as ->; now left|right; now apply IH]. Qed.
Lemma combine_stands tol ps model ts (x : triangle) (y : mtri) : Forall2 (stands_for tol ps) model ts -> In (x, y) (combine model ts) -> stands_for tol ps x y.
Proof. induction 1 as [|a b l m S F IH]; cbn; [tauto|]. intros [E|I]; [injection E as -> ->; exact S|auto]. Qed.
Theorem C81_value_partial model tol m t i x p : import_v1 model tol = Ok m -> used_tol model tol = Ok t -> apart (2 * t) model -> nth_error model i = Some x -> tri_ok x -> near x p ->
  exists v w f, imp_eval m i p = Ok v /\ in_triangle x w /\ (forall w', in_triangle x w' -> dist3 p w <= dist3 p w') /\ feature_ok x p w f /\
    (0 <= signed_by model x f w p -> v = dist3 p w) /\ (signed_by model x f w p < 0 -> v = - dist3 p w).
Proof.
  intros E T A N OK NR. destruct (import_built _ _ _ E) as (t' & c & T' & B & BX). rewrite T in T'. injection T' as <-. pose proof (used_tol_pos _ _ _ T) as TP.
  assert (Y : exists y, nth_error (im_tris m) i = Some y). { pose proof (bl_tris _ _ _ _ _ _ B) as F. assert (LL : length model = length (im_tris m)) by (clear - F; induction F; cbn; congruence). assert (L : (i < length (im_tris m))%nat) by (rewrite <- LL; apply nth_error_Some; congruence). destruct (nth_error (im_tris m) i) as [y|] eqn:Y; [eauto|]. apply nth_error_None in Y. lia. }
  destruct Y as (y & Y). pose proof (combine_nth _ _ _ _ _ N Y) as I. pose proof (combine_stands _ _ _ _ _ _ (bl_tris _ _ _ _ _ _ B) I) as (_ & SN & ST & SI & _).
  pose proof (apart_tri _ _ _ _ _ _ TP A B x y I) as MT. destruct x as [[a b] d]. cbn [tcorner Nat.modulo Nat.divmod fst snd Nat.sub nth] in ST.
  unfold imp_eval. rewrite Y. pose proof (tri_distance_spec (im_verts m) y a b d p OK MT ST ltac:(now rewrite SI, ST) NR) as S. destruct (tri_distance (im_verts m) y p) as [[dd f] w]. destruct S as (W & DD & MN & FO).
  exists (copy_sign m y f w p (sqrt dd)), w, f. split; [reflexivity|]. split; [exact W|]. split; [exact MN|]. split; [exact FO|].
  assert (SD : Rabs (sqrt dd) = dist3 p w). { rewrite DD. assert (0 <= dist3 p w) by apply sqrt_pos. rewrite sqrt_square by assumption. now apply Rabs_right, Rle_ge. }
  assert (SG : exists k, 0 < k /\ copy_sign m y f w p (sqrt dd) = copysign (sqrt dd) (k * signed_by model (a, b, d) f w p)).
  { unfold copy_sign. destruct f as [k|j|]; unfold signed_by.
    - exists 1. split; [lra|]. rewrite (apart_vertex _ _ _ _ _ _ TP A B _ _ k I). cbn [pv_v pv_n]. now rewrite Rmult_1_l.
    - exists 1. split; [lra|]. rewrite (apart_edge _ _ _ _ _ _ TP A B _ _ j (j + 1) I). now rewrite Rmult_1_l.
    - destruct (face_side _ OK) as (k & K & FS). exists (2 * PI * k). split; [pose proof PI_RGT_0; nra|]. rewrite SN, FS, !dot3_scale, (plane_side' (a, b, d) w p W). f_equal. ring. }
  destruct SG as (k & K & ->). unfold copysign. rewrite SD. split; intros H.
  - rewrite (proj2 (Rltb_false _ _)); [reflexivity|]. nra.
  - rewrite (proj2 (Rltb_true _ _)); [reflexivity|]. nra.
Qed.
(** A point strictly behind the planes of all triangles, such as an interior point of a closed convex mesh with
    outward normals, gets a negative value, and one strictly in front of all of them (the other orientation) a positive
    one, whichever triangle the search returns. *)
Theorem C81_convex s model tol m t i x p : import_v1 model tol = Ok m -> used_tol model tol = Ok t -> apart (2 * t) model -> Forall tri_ok model -> nth_error model i = Some x -> near x p ->
  (forall x', In x' model -> 0 < s * side_of x' p) -> exists v, imp_eval m i p = Ok v /\ 0 < s * v /\ (exists w, in_triangle x w /\ Rabs v = dist3 p w) /\ forall w, in_triangle x w -> Rabs v <= dist3 p w.
Proof.
  intros E T A OKS N NR S. assert (IX : In x model) by now apply nth_error_In in N. assert (OK : forall x', In x' model -> tri_ok x') by now apply Forall_forall. destruct (C81_value_partial _ _ _ _ _ _ p E T A N (OK x IX) NR) as (v & w & f & EV & W & MN & FO & SP & SM). exists v. split; [exact EV|].
  assert (SG : 0 < s * signed_by model x f w p).
  { destruct f as [k|j|]; cbn [signed_by feature_ok] in *; [| |now apply S].
    - unfold vertex_normal. apply sum_sign.
      + intros n I. apply in_flat_map in I. destruct I as (x' & I' & I). apply in_map_iff in I. destruct I as (j & <- & _). destruct (v3_eqb (tcorner x' j) (tcorner x k)) eqn:EQ; [|rewrite dot3_zero; lra]. apply v3_eqb_eq in EQ. rewrite <- EQ. destruct (face_side x' (OK x' I')) as (q & Q & ->). rewrite !dot3_scale, (plane_side' x' _ p (tcorner_tri x' j)). pose proof (corner_angle_pos x' j (OK x' I')). pose proof (S x' I'). assert (0 < corner_angle x' j * q) by now apply Rmult_lt_0_compat. nra.
      + destruct FO as (K & _). exists (scale3 (corner_angle x k) (face_norm x)). split.
        * apply in_flat_map. exists x. split; [exact IX|]. apply in_map_iff. exists k. rewrite (proj2 (v3_eqb_eq _ _) eq_refl). split; [reflexivity|]. destruct k as [|[|[|k]]]; cbn; auto; lia.
        * destruct (face_side x (OK x IX)) as (q & Q & ->). rewrite !dot3_scale, (plane_side' x _ p (tcorner_tri x k)). pose proof (corner_angle_pos x k (OK x IX)). pose proof (S x IX). assert (0 < corner_angle x k * q) by now apply Rmult_lt_0_compat. nra.
    - destruct FO as (J & SEG & _). assert (SS : forall x' k, side_eqb (tcorner x' k) (tcorner x' (k + 1)) (tcorner x j) (tcorner x (j + 1)) = true -> dot3 (tri_normal x') (sub3 p w) = side_of x' p).
      { intros x' k EQ. unfold side_eqb in EQ. apply orb_true_iff in EQ. rewrite !andb_true_iff, !v3_eqb_eq in EQ. destruct EQ as [(E1 & E2)|(E1 & E2)]; eapply seg_plane; try exact SEG; rewrite <- ?E1, <- ?E2; apply tcorner_tri. }
      unfold side_normal. apply sum_sign.
      + intros n I. apply in_flat_map in I. destruct I as (x' & I' & I). apply in_map_iff in I. destruct I as (k & <- & _). destruct (side_eqb _ _ _ _) eqn:EQ; [|rewrite dot3_zero; lra]. apply SS in EQ. destruct (face_side x' (OK x' I')) as (q & Q & ->). rewrite !dot3_scale, EQ. pose proof PI_RGT_0. pose proof (S x' I'). assert (0 < PI * q) by now apply Rmult_lt_0_compat. nra.
      + exists (scale3 PI (face_norm x)). assert (SR : side_eqb (tcorner x j) (tcorner x (j + 1)) (tcorner x j) (tcorner x (j + 1)) = true) by (unfold side_eqb; now rewrite !(proj2 (v3_eqb_eq _ _) eq_refl)). split.
        * apply in_flat_map. exists x. split; [exact IX|]. apply in_map_iff. exists j. rewrite SR. split; [reflexivity|]. destruct j as [|[|[|j]]]; cbn; auto; lia.
        * destruct (face_side x (OK x IX)) as (q & Q & ->). rewrite !dot3_scale, (SS x j SR). pose proof PI_RGT_0. pose proof (S x IX). assert (0 < PI * q) by now apply Rmult_lt_0_compat. nra. }
  assert (DP : 0 < dist3 p w). { destruct (Rle_lt_or_eq_dec 0 (dist3 p w) (sqrt_pos _)) as [D|D]; [exact D|]. exfalso. pose proof (S x IX) as S1. rewrite <- (plane_side' x w p W) in S1. assert (Z : norm3 (sub3 p w) = 0) by (symmetry; exact D). destruct (v3_eqb (sub3 p w) zero3) eqn:EQ; [apply v3_eqb_eq in EQ; rewrite EQ in S1; unfold dot3, zero3 in S1; cbn in S1; lra|]. assert (NZ : sub3 p w <> zero3) by (intros H; apply v3_eqb_eq in H; congruence). apply norm3_pos in NZ. lra. }
  set (g := signed_by model x f w p) in *. clearbody g. destruct (Rle_lt_dec 0 g) as [L|L]; [rewrite (SP L)|rewrite (SM L)]; (split; [nra|]); rewrite ?Rabs_Ropp; rewrite Rabs_right by lra; (split; [exists w; split; [exact W|reflexivity]|exact MN]).
Qed.
(** If the search returns a triangle whose squared distance is least, the size of the value is the distance to the mesh. *)
Theorem C81_nearest_partial model tol m t i y p : import_v1 model tol = Ok m -> used_tol model tol = Ok t -> apart (2 * t) model -> Forall tri_ok model -> (forall x, In x model -> near x p) ->
  nth_error (im_tris m) i = Some y -> (forall y', In y' (im_tris m) -> fst (fst (tri_distance (im_verts m) y p)) <= fst (fst (tri_distance (im_verts m) y' p))) ->
  exists v x w, imp_eval m i p = Ok v /\ In x model /\ in_triangle x w /\ Rabs v = dist3 p w /\ forall x' w', In x' model -> in_triangle x' w' -> Rabs v <= dist3 p w'.
Proof.
  intros E T A OKS NR Y LE. assert (OK : forall x', In x' model -> tri_ok x') by now apply Forall_forall. destruct (import_built _ _ _ E) as (t' & c & T' & B & BX). rewrite T in T'. injection T' as <-. pose proof (used_tol_pos _ _ _ T) as TP.
  assert (D : forall x0 y0, In (x0, y0) (combine model (im_tris m)) -> In x0 model -> exists w, in_triangle x0 w /\ fst (fst (tri_distance (im_verts m) y0 p)) = dist3 p w * dist3 p w /\ forall w', in_triangle x0 w' -> dist3 p w <= dist3 p w').
  { intros [[a b] d] y0 I IX. pose proof (combine_stands _ _ _ _ _ _ (bl_tris _ _ _ _ _ _ B) I) as (_ & _ & ST & SI & _). pose proof (apart_tri _ _ _ _ _ _ TP A B _ _ I) as MT. cbn [tcorner Nat.modulo Nat.divmod fst snd Nat.sub nth] in ST.
    pose proof (tri_distance_spec (im_verts m) y0 a b d p (OK _ IX) MT ST ltac:(now rewrite SI, ST) (NR _ IX)) as S. destruct (tri_distance (im_verts m) y0 p) as [[dd f] w]. destruct S as (W & DD & MN & _). exists w. auto. }
  pose proof (bl_tris _ _ _ _ _ _ B) as F. assert (LL : length model = length (im_tris m)) by (clear - F; induction F; cbn; congruence).
  assert (X : exists x, nth_error model i = Some x). { assert (L : (i < length model)%nat) by (rewrite LL; apply nth_error_Some; congruence). destruct (nth_error model i) as [x|] eqn:X; [eauto|]. apply nth_error_None in X. lia. }
  destruct X as (x & X). pose proof (nth_error_In _ _ X) as IX. destruct (C81_value_partial _ _ _ _ _ _ p E T A X (OK x IX) (NR x IX)) as (v & w & f & EV & W & MN & _ & SP & SM).
  assert (AV : Rabs v = dist3 p w). { assert (0 <= dist3 p w) by apply sqrt_pos. destruct (Rle_lt_dec 0 (signed_by model x f w p)) as [L|L]; [rewrite (SP L)|rewrite (SM L), Rabs_Ropp]; now apply Rabs_right, Rle_ge. }
  exists v, x, w. split; [exact EV|]. split; [exact IX|]. split; [exact W|]. split; [exact AV|]. intros x' w' IX' W'. apply In_nth_error in IX'. destruct IX' as (i' & X'). pose proof (nth_error_In _ _ X') as IX'.
  assert (Y' : exists y', nth_error (im_tris m) i' = Some y'). { assert (L : (i' < length (im_tris m))%nat) by (rewrite <- LL; apply nth_error_Some; congruence). destruct (nth_error (im_tris m) i') as [z|] eqn:Z; [eauto|]. apply nth_error_None in Z. lia. }
  destruct Y' as (y' & Y'). destruct (D x y (combine_nth _ _ _ _ _ X Y) IX) as (u & U & DU & MU). destruct (D x' y' (combine_nth _ _ _ _ _ X' Y') IX') as (u' & U' & DU' & MU'). pose proof (LE y' (nth_error_In _ _ Y')) as L. rewrite DU, DU' in L. rewrite AV.
  eapply Rle_trans; [apply MN; exact U|]. eapply Rle_trans; [|apply MU'; exact W']. assert (0 <= dist3 p u) by apply sqrt_pos. assert (0 <= dist3 p u') by apply sqrt_pos. destruct (Rle_lt_dec (dist3 p u) (dist3 p u')); [assumption|]. nra.
Qed.
(** *** A closed convex mesh: the corner of the unit cube, with outward normals *)
Lemma grow_box a b c d e f u v w : grow (Box3 (V3 a b c) (V3 d e f)) (V3 u v w) = Box3 (V3 (Rmin a u) (Rmin b v) (Rmin c w)) (V3 (Rmax d u) (Rmax e v) (Rmax f w)).
Proof. reflexivity. Qed.
Ltac lit_box := unfold model_box, far_box; cbn [flat_map corners app fold_left]; pose proof max_float64_big;
  repeat (rewrite grow_box; repeat (match goal with |- context [Rmin ?a ?b] => first [rewrite (Rmin_left a b) by lra|rewrite (Rmin_right a b) by lra] end); repeat (match goal with |- context [Rmax ?a ?b] => first [rewrite (Rmax_left a b) by lra|rewrite (Rmax_right a b) by lra] end)); try reflexivity.
Definition vO := V3 0 0 0. Definition vX := V3 1 0 0. Definition vY := V3 0 1 0. Definition vZ := V3 0 0 1.
Definition corner_mesh : list triangle := [(vX, vO, vY); (vO, vZ, vY); (vO, vX, vZ); (vX, vY, vZ)].
Lemma corner_mesh_tol : used_tol corner_mesh (1/100) = Ok (1/100).
Proof.
  unfold used_tol. change (match corner_mesh with [] => Err | _ => ?k end) with k.
  assert (S : 1 <= sqrt (max_side corner_mesh)).
  { rewrite <- sqrt_1. apply sqrt_le_1_alt. unfold max_side, corner_mesh. cbn [flat_map sides app fold_left]. eapply Rle_trans; [|apply Rmax_r]. unfold norm3sq, dot3, sub3. cbn [x3 y3 z3 vX vZ vY vO]. lra. }
  assert (B : model_box corner_mesh = Box3 (V3 0 0 0) (V3 1 1 1)).
  { unfold corner_mesh, vO, vX, vY, vZ. lit_box. }
  rewrite B. rewrite (proj2 (Rltb_false _ _)) by lra. rewrite (proj2 (Reqb_false (1/100) 0)) by lra. cbv zeta. rewrite (proj2 (Reqb_false (1/100) 0)) by lra. unfold sub3. cbn [x3 y3 z3 min3 max3].
  assert (D : Rmax (1 - 0) (Rmax (1 - 0) (1 - 0)) = 1) by (rmm; lra). rewrite D.
  assert (T : truncZ (1 / (1 / 100) + 1 / 1000000000000) = 100%Z).
  { unfold truncZ. rewrite (proj2 (Rleb_true _ _)) by lra. symmetry. apply Int_part_spec. lra. }
  rewrite T. reflexivity.
Qed.
Lemma corner_mesh_apart : apart (2 * (1/100)) corner_mesh.
Proof.
  intros u v U V. cbn in U, V. repeat destruct U as [<-|U]; try contradiction; repeat destruct V as [<-|V]; try contradiction; try (left; reflexivity); right; unfold vO, vX, vY, vZ; cbn [x3 y3 z3]; rewrite ?Rminus_0_r, ?Rminus_0_l, ?Rminus_diag_eq, ?Rabs_Ropp, ?Rabs_R0, ?Rabs_R1 by reflexivity; lra.
Qed.
Lemma corner_mesh_import : exists m, import_v1 corner_mesh (1/100) = Ok m.
Proof. unfold import_v1. rewrite corner_mesh_tol. cbn [bind]. destruct (fold_left _ _ _) as [[[? ?] ?] ?]. eauto. Qed.
Lemma corner_mesh_ok : Forall tri_ok corner_mesh.
Proof. unfold corner_mesh. repeat constructor; unfold tri_ok, tri_normal, cross3, sub3, zero3; cbn; intros H; injection H; lra. Qed.
Lemma corner_mesh_near x p : In x corner_mesh -> norm3 p <= 2 -> near x p.
Proof.
  intros I N. exists (tcorner x 0). split; [apply tcorner_tri|]. apply Rle_lt_trans with 4; [|apply Rlt_le_trans with (sqrt (30 * 30)); [rewrite sqrt_square; lra|apply sqrt_le_1_alt; pose proof max_float64_big; lra]].
  assert (NS : norm3sq p <= 4) by (unfold norm3 in N; assert (P : 0 <= norm3sq p) by (unfold norm3sq, dot3; nra); pose proof (sqrt_sqrt _ P) as Q1; pose proof (sqrt_pos (norm3sq p)) as Q2; rewrite <- Q1; generalize dependent (sqrt (norm3sq p)); intros; nra).
  unfold dist3, norm3. replace 4 with (sqrt (4 * 4)) by (rewrite sqrt_square; lra). apply sqrt_le_1_alt.
  assert (BB : -2 <= x3 p <= 2 /\ -2 <= y3 p <= 2 /\ -2 <= z3 p <= 2). { destruct p as [a b c]. unfold norm3sq, dot3 in NS. cbn [x3 y3 z3] in *. pose proof (Rle_0_sqr a). pose proof (Rle_0_sqr b). pose proof (Rle_0_sqr c). unfold Rsqr in *. repeat split; nra. }
  destruct BB as (BX & BY & BZ). unfold norm3sq, dot3, sub3 in *. destruct p as [a b c]. cbn in I. repeat destruct I as [<-|I]; try contradiction; cbn in *; lra.
Qed.
Example C81_example : exists m, import_v1 corner_mesh (1/100) = Ok m /\ forall i, (i < 4)%nat -> exists v, imp_eval m i (V3 (1/8) (1/8) (1/8)) = Ok v /\ v < 0.
Proof.
  destruct corner_mesh_import as (m & E). exists m. split; [exact E|]. intros i I. destruct (nth_error corner_mesh i) as [x|] eqn:N; [|apply nth_error_None in N; cbn in N; lia].
  assert (P : norm3 (V3 (1/8) (1/8) (1/8)) <= 2). { unfold norm3. replace 2 with (sqrt (2 * 2)) by (rewrite sqrt_square; lra). apply sqrt_le_1_alt. unfold norm3sq, dot3. cbn. lra. }
  destruct (C81_convex (-1) _ _ _ _ _ _ (V3 (1/8) (1/8) (1/8)) E corner_mesh_tol corner_mesh_apart corner_mesh_ok N (corner_mesh_near _ _ (nth_error_In _ _ N) P)) as (v & V & S & _); [|exists v; split; [exact V|lra]].
  intros x' I'. cbn in I'. repeat destruct I' as [<-|I']; try contradiction; unfold side_of, tri_normal, dot3, cross3, sub3; cbn; lra.
Qed.
(** The sign is wrong next to a vertex.  (2, 0, 0) is outside the corner of the cube and its nearest point is the
    vertex (1, 0, 0), but closestOnTriangle2 names another vertex (C70), whose normal and position then decide:
    the value is -1 for every nearest triangle. *)
Lemma norm3_lit v r : 0 <= r -> norm3sq v = r * r -> norm3 v = r.
Proof. intros P E. unfold norm3. now rewrite E, sqrt_square. Qed.
Lemma add3_lit a b c d e f : add3 (V3 a b c) (V3 d e f) = V3 (a + d) (b + e) (c + f).
Proof. reflexivity. Qed.
Lemma scale3_lit k a b c : scale3 k (V3 a b c) = V3 (k * a) (k * b) (k * c).
Proof. reflexivity. Qed.
Lemma corner_normals : exists a : R, 0 < a < PI / 2 / sqrt 3 /\
  vertex_normal corner_mesh vO = V3 (- (PI / 2)) (- (PI / 2)) (- (PI / 2)) /\
  vertex_normal corner_mesh vY = V3 (a - PI / 4) a (a - PI / 4) /\ vertex_normal corner_mesh vZ = V3 (a - PI / 4) (a - PI / 4) a.
Proof.
  assert (S2 : 0 < sqrt 2) by (apply sqrt_lt_R0; lra). assert (S3 : 0 < sqrt 3) by (apply sqrt_lt_R0; lra). assert (Q2 : sqrt 2 * sqrt 2 = 2) by (apply sqrt_sqrt; lra). assert (Q3 : sqrt 3 * sqrt 3 = 3) by (apply sqrt_sqrt; lra).
  assert (AH : 0 < acos (1/2) < PI / 2).
  { assert (C : cos (acos (1/2)) = 1/2) by (apply cos_acos; lra). destruct (acos_bound (1/2)) as (A & B). split.
    - destruct A as [A|A]; [exact A|]. rewrite <- A, cos_0 in C. lra.
    - destruct (Rlt_le_dec (acos (1/2)) (PI / 2)) as [L|L]; [exact L|]. assert (cos (acos (1/2)) <= 0) by (apply cos_le_0; lra). lra. }
  exists (acos (1/2) / sqrt 3). split; [split; [apply Rdiv_lt_0_compat; lra|unfold Rdiv at 1 2; apply Rmult_lt_compat_r; [now apply Rinv_0_lt_compat|lra]]|].
  assert (U1 : norm3 (V3 0 0 (-1)) = 1) by (apply norm3_lit; [lra|unfold norm3sq, dot3; cbn; ring]).
  assert (U2 : norm3 (V3 (-1) 0 0) = 1) by (apply norm3_lit; [lra|unfold norm3sq, dot3; cbn; ring]).
  assert (U3 : norm3 (V3 0 (-1) 0) = 1) by (apply norm3_lit; [lra|unfold norm3sq, dot3; cbn; ring]).
  assert (U4 : norm3 (V3 1 1 1) = sqrt 3) by (apply norm3_lit; [lra|rewrite Q3; unfold norm3sq, dot3; cbn; ring]).
  assert (F0 : face_norm (vX, vO, vY) = V3 0 0 (-1)). { unfold face_norm. replace (cross3 _ _) with (V3 0 0 (-1)) by (unfold cross3, sub3; cbn; f_equal; ring). unfold unit3. rewrite U1. unfold scale3. cbn. f_equal; field. }
  assert (F1 : face_norm (vO, vZ, vY) = V3 (-1) 0 0). { unfold face_norm. replace (cross3 _ _) with (V3 (-1) 0 0) by (unfold cross3, sub3; cbn; f_equal; ring). unfold unit3. rewrite U2. unfold scale3. cbn. f_equal; field. }
  assert (F2 : face_norm (vO, vX, vZ) = V3 0 (-1) 0). { unfold face_norm. replace (cross3 _ _) with (V3 0 (-1) 0) by (unfold cross3, sub3; cbn; f_equal; ring). unfold unit3. rewrite U3. unfold scale3. cbn. f_equal; field. }
  assert (F3 : face_norm (vX, vY, vZ) = V3 (/ sqrt 3) (/ sqrt 3) (/ sqrt 3)). { unfold face_norm. replace (cross3 _ _) with (V3 1 1 1) by (unfold cross3, sub3; cbn; f_equal; ring). unfold unit3. rewrite U4. unfold scale3. cbn. f_equal; field; lra. }
  (* the angles *)
  assert (AR : forall u v, dot3 u v = 0 -> acos (cos3 u v) = PI / 2) by (intros u v E; unfold cos3; rewrite E; replace (0 / (norm3 u * norm3 v)) with 0 by (unfold Rdiv; ring); apply acos_0).
  assert (A4 : forall u v, norm3sq u = 1 -> norm3sq v = 2 -> dot3 u v = 1 -> acos (cos3 u v) = PI / 4) by (intros u v Eu Ev E; unfold cos3; rewrite E, (norm3_lit u 1), (norm3_lit v (sqrt 2)), Rmult_1_l by lra; replace (1 / sqrt 2) with (/ sqrt 2) by (field; lra); apply acos_inv_sqrt2).
  assert (A4' : forall u v, norm3sq u = 2 -> norm3sq v = 1 -> dot3 u v = 1 -> acos (cos3 u v) = PI / 4) by (intros u v Eu Ev E; unfold cos3; rewrite E, (norm3_lit v 1), (norm3_lit u (sqrt 2)), Rmult_1_r by lra; replace (1 / sqrt 2) with (/ sqrt 2) by (field; lra); apply acos_inv_sqrt2).
  assert (A3 : forall u v, norm3sq u = 2 -> norm3sq v = 2 -> dot3 u v = 1 -> acos (cos3 u v) = acos (1/2)) by (intros u v Eu Ev E; unfold cos3; rewrite E, (norm3_lit v (sqrt 2)), (norm3_lit u (sqrt 2)), Q2 by lra; reflexivity).
  assert (YY : v3_eqb vY vY = true) by now apply v3_eqb_eq. assert (ZZ : v3_eqb vZ vZ = true) by now apply v3_eqb_eq. assert (OO : v3_eqb vO vO = true) by now apply v3_eqb_eq.
  assert (NE : forall u v, u <> v -> v3_eqb u v = false) by (intros u v D; destruct (v3_eqb u v) eqn:E; [apply v3_eqb_eq in E; contradiction|reflexivity]).
  assert (XO : v3_eqb vX vO = false) by (apply NE; intros H; injection H; lra). assert (YO : v3_eqb vY vO = false) by (apply NE; intros H; injection H; lra). assert (ZO : v3_eqb vZ vO = false) by (apply NE; intros H; injection H; lra).
  assert (XY : v3_eqb vX vY = false) by (apply NE; intros H; injection H; lra). assert (OY : v3_eqb vO vY = false) by (apply NE; intros H; injection H; lra). assert (ZY : v3_eqb vZ vY = false) by (apply NE; intros H; injection H; lra).
  assert (XZ : v3_eqb vX vZ = false) by (apply NE; intros H; injection H; lra). assert (OZ : v3_eqb vO vZ = false) by (apply NE; intros H; injection H; lra). assert (YZ : v3_eqb vY vZ = false) by (apply NE; intros H; injection H; lra).
  unfold vertex_normal, corner_mesh. cbn [flat_map map app]. rewrite F0, F1, F2, F3. unfold corner_angle. cbn [Nat.add tcorner Nat.modulo Nat.divmod fst snd Nat.sub nth].
  rewrite XO, YO, ZO, XY, OY, ZY, XZ, OZ, YZ, YY, ZZ, OO. unfold sum3. cbn [fold_right].
  split; [|split].
  - rewrite !(AR (sub3 vO _) (sub3 vO _)) by (unfold dot3, sub3; cbn; ring). unfold zero3. rewrite !scale3_lit. repeat rewrite add3_lit. f_equal; field.
  - rewrite (A3 (sub3 vY vZ) (sub3 vY vX)) by (unfold norm3sq, dot3, sub3; cbn; ring). rewrite (A4' (sub3 vY vX) (sub3 vY vO)) by (unfold norm3sq, dot3, sub3; cbn; ring). rewrite (A4 (sub3 vY vO) (sub3 vY vZ)) by (unfold norm3sq, dot3, sub3; cbn; ring). unfold zero3. rewrite !scale3_lit. repeat rewrite add3_lit. f_equal; field; lra.
  - rewrite (A3 (sub3 vZ vX) (sub3 vZ vY)) by (unfold norm3sq, dot3, sub3; cbn; ring). rewrite (A4' (sub3 vZ vY) (sub3 vZ vO)) by (unfold norm3sq, dot3, sub3; cbn; ring). rewrite (A4 (sub3 vZ vO) (sub3 vZ vX)) by (unfold norm3sq, dot3, sub3; cbn; ring). unfold zero3. rewrite !scale3_lit. repeat rewrite add3_lit. f_equal; field; lra.
Qed.
Theorem C81_vertex_refuted : exists m, import_v1 corner_mesh (1/100) = Ok m /\
  (forall x w, In x corner_mesh -> in_triangle x w -> 1 <= dist3 (V3 2 0 0) w) /\ side_of (vX, vY, vZ) (V3 2 0 0) = 1 /\
  forall i x, nth_error corner_mesh i = Some x -> in_triangle x vX -> imp_eval m i (V3 2 0 0) = Ok (-1).
Proof.
  destruct corner_mesh_import as (m & E). exists m. split; [exact E|]. assert (FAR : forall x w, In x corner_mesh -> in_triangle x w -> x3 w <= 1).
  { intros x w I W. cbn in I. repeat destruct I as [<-|I]; try contradiction; destruct W as (s & k & S & K & SK & ->); cbn; lra. }
  split; [|split].
  - intros x w I W. pose proof (FAR x w I W). unfold dist3, norm3. rewrite <- sqrt_1. apply sqrt_le_1_alt. unfold norm3sq, dot3, sub3. cbn [x3 y3 z3]. nra.
  - unfold side_of, tri_normal, dot3, cross3, sub3. cbn. ring.
  - intros i x N IX. pose proof (nth_error_In _ _ N) as I. assert (OK : tri_ok x) by (revert I; apply Forall_forall, corner_mesh_ok).
    assert (NP : norm3 (V3 2 0 0) <= 2) by (rewrite (norm3_lit _ 2); [lra|lra|unfold norm3sq, dot3; cbn; ring]).
    destruct (C81_value_partial _ _ _ _ _ _ (V3 2 0 0) E corner_mesh_tol corner_mesh_apart N OK (corner_mesh_near _ _ I NP)) as (v & w & f & EV & W & MN & FO & _ & SM). rewrite EV. f_equal.
    assert (WX : w = vX).
    { pose proof (MN vX IX) as L. pose proof (FAR x w I W) as W1. unfold dist3, norm3 in L. apply sqrt_le_0 in L; [|unfold norm3sq, dot3; nra|unfold norm3sq, dot3; nra]. destruct w as [a b c]. unfold norm3sq, dot3, sub3, vX in *. cbn [x3 y3 z3] in *. assert (a = 1) by nra. subst a. assert (b = 0) by nra. assert (c = 0) by nra. subst. reflexivity. }
    subst w. assert (D1 : dist3 (V3 2 0 0) vX = 1) by (apply norm3_lit; [lra|unfold norm3sq, dot3, sub3; cbn; ring]). rewrite D1 in SM. replace (-1) with (- (1)) by lra. apply SM. clear SM EV E.
    destruct corner_normals as (a & A & NO & NY & NZ). pose proof PI_RGT_0 as PP. pose proof PI_4 as P4.
    assert (A1 : a < PI / 3). { assert (S3 : 3 / 2 < sqrt 3) by (rewrite <- (sqrt_square (3/2)) by lra; apply sqrt_lt_1_alt; lra). eapply Rlt_le_trans; [apply A|]. apply Rmult_le_reg_r with (sqrt 3); [lra|]. unfold Rdiv at 1. rewrite Rmult_assoc, Rinv_l by lra. nra. }
    cbn in I. destruct I as [<-|[<-|[<-|[<-|[]]]]].
    + destruct f as [k|j|]; cbn [feature_ok signed_by] in *.
      * destruct FO as (K & n & NN & WN & KN). destruct k as [|[|[|k]]]; [| | |lia]; cbn [tcorner Nat.modulo Nat.divmod fst snd Nat.sub nth].
        -- destruct n as [|[|[|n]]]; [congruence| | |lia]; exfalso; cbn in WN; injection WN; lra.
        -- rewrite NO. unfold dot3, sub3. cbn. lra.
        -- rewrite NY. unfold dot3, sub3. cbn. lra.
      * exfalso. destruct FO as (J & (s & S & SE) & PE). destruct j as [|[|[|j]]]; [| | |lia]; cbn in SE, PE; unfold dot3, sub3, add3, scale3, vX, vO, vY in *; cbn in SE, PE; injection SE; intros; lra.
      * exfalso. specialize (FO vX vO (tcorner_tri (vX, vO, vY) 0) (tcorner_tri (vX, vO, vY) 1)). unfold dot3, sub3 in FO. cbn in FO. lra.
    + exfalso. destruct IX as (s & k & S & K & SK & H). unfold add3, scale3, sub3 in H. cbn in H. injection H. intros. lra.
    + destruct f as [k|j|]; cbn [feature_ok signed_by] in *.
      * destruct FO as (K & n & NN & WN & KN). destruct k as [|[|[|k]]]; [| | |lia]; cbn [tcorner Nat.modulo Nat.divmod fst snd Nat.sub nth].
        -- rewrite NO. unfold dot3, sub3. cbn. lra.
        -- destruct n as [|[|[|n]]]; [|congruence| |lia]; exfalso; cbn in WN; injection WN; lra.
        -- rewrite NZ. unfold dot3, sub3. cbn. lra.
      * exfalso. destruct FO as (J & (s & S & SE) & PE). destruct j as [|[|[|j]]]; [| | |lia]; cbn in SE, PE; unfold dot3, sub3, add3, scale3, vX, vO, vZ in *; cbn in SE, PE; injection SE; intros; lra.
      * exfalso. specialize (FO vX vO (tcorner_tri (vO, vX, vZ) 1) (tcorner_tri (vO, vX, vZ) 0)). unfold dot3, sub3 in FO. cbn in FO. lra.
    + destruct f as [k|j|]; cbn [feature_ok signed_by] in *.
      * destruct FO as (K & n & NN & WN & KN). destruct k as [|[|[|k]]]; [| | |lia]; cbn [tcorner Nat.modulo Nat.divmod fst snd Nat.sub nth].
        -- destruct n as [|[|[|n]]]; [congruence| | |lia]; exfalso; cbn in WN; injection WN; lra.
        -- rewrite NY. unfold dot3, sub3. cbn. lra.
        -- rewrite NZ. unfold dot3, sub3. cbn. lra.
      * exfalso. destruct FO as (J & (s & S & SE) & PE). destruct j as [|[|[|j]]]; [| | |lia]; cbn in SE, PE; unfold dot3, sub3, add3, scale3, vX, vZ, vY in *; cbn in SE, PE; injection SE; intros; lra.
      * exfalso. specialize (FO vX vY (tcorner_tri (vX, vY, vZ) 0) (tcorner_tri (vX, vY, vZ) 1)). unfold dot3, sub3 in FO. cbn in FO. lra.
Qed.
(** ** C82: vertices, normals and bounds of the imported mesh *)
Lemma nth_pair model tol m i x y t : import_v1 model tol = Ok m -> used_tol model tol = Ok t -> nth_error model i = Some x -> nth_error (im_tris m) i = Some y ->
  exists c, built t model (im_verts m) c (im_tris m) (im_edges m) /\ In (x, y) (combine model (im_tris m)).
Proof. intros E T X Y. destruct (import_built _ _ _ E) as (t' & c & T' & B & _). rewrite T in T'. injection T' as <-. exists c. split; [exact B|]. now apply combine_nth with i. Qed.
(** Every model is imported triangle by triangle; equal corners get the same vertex; a corner and its vertex, which is
    itself a corner of the model, differ by less than twice the tolerance in each coordinate. *)
Theorem C82_vertices_partial model tol m t : import_v1 model tol = Ok m -> used_tol model tol = Ok t ->
  length (im_tris m) = length model /\
  (forall i x y, nth_error model i = Some x -> nth_error (im_tris m) i = Some y -> mt_c y = centroid x /\ mt_n y = scale3 (2 * PI) (face_norm x) /\
     forall j, (j < 3)%nat -> exists v, nth_error (im_verts m) (vert_at (mt_verts y) j) = Some v /\ In (pv_v v) (flat_map corners model) /\
       Rabs (x3 (pv_v v) - x3 (tcorner x j)) < 2 * t /\ Rabs (y3 (pv_v v) - y3 (tcorner x j)) < 2 * t /\ Rabs (z3 (pv_v v) - z3 (tcorner x j)) < 2 * t) /\
  (forall i x y i' x' y' j j', nth_error model i = Some x -> nth_error (im_tris m) i = Some y -> nth_error model i' = Some x' -> nth_error (im_tris m) i' = Some y' -> (j < 3)%nat -> (j' < 3)%nat ->
     tcorner x j = tcorner x' j' -> vert_at (mt_verts y) j = vert_at (mt_verts y') j') /\
  (forall i j v w, nth_error (im_verts m) i = Some v -> nth_error (im_verts m) j = Some w -> pv_v v = pv_v w -> i = j).
Proof.
  intros E T. pose proof (used_tol_pos _ _ _ T) as TP. destruct (import_built _ _ _ E) as (t' & c & T' & B & _). rewrite T in T'. injection T' as <-. destruct B as [BC BP BT BN BE].
  assert (CI : forall i j u w, nth_error (map pv_v (im_verts m)) i = Some u -> nth_error (map pv_v (im_verts m)) j = Some w -> vkey t u = vkey t w -> i = j).
  { intros i j u w U W K. assert (L1 := proj2 (BC (vkey t w) i) (ex_intro _ _ (conj U K))). assert (L2 := proj2 (BC (vkey t w) j) (ex_intro _ _ (conj W eq_refl))). congruence. }
  split; [clear - BT; induction BT; cbn; congruence|]. split; [|split].
  - intros i x y X Y. pose proof (combine_stands _ _ _ _ _ _ BT (combine_nth _ _ _ _ _ X Y)) as (S1 & S2 & _ & _ & S). split; [exact S1|]. split; [exact S2|]. intros j J. destruct (S j J) as (u & U & K). pose proof U as U'. rewrite nth_error_map in U. destruct (nth_error (im_verts m) _) as [v|]; [|discriminate]. injection U as <-. exists v. split; [reflexivity|]. split; [apply BP; now apply nth_error_In in U'|]. now apply vkey_close.
  - intros i x y i' x' y' j j' X Y X' Y' J J' EQ. pose proof (combine_stands _ _ _ _ _ _ BT (combine_nth _ _ _ _ _ X Y)) as (_ & _ & _ & _ & S). pose proof (combine_stands _ _ _ _ _ _ BT (combine_nth _ _ _ _ _ X' Y')) as (_ & _ & _ & _ & S'). destruct (S j J) as (u & U & K). destruct (S' j' J') as (u' & U' & K'). apply (CI _ _ u u' U U'). congruence.
  - intros i j v w V W EQ. apply (CI i j (pv_v v) (pv_v w)); [rewrite nth_error_map, V; reflexivity|rewrite nth_error_map, W; reflexivity|congruence].
Qed.
(** When distinct corners are two tolerances apart, every vertex is the corner itself, corners share a vertex exactly
    when they are equal, and the normals are the angle-weighted sums of the face normals around the vertex and the
    sums over the triangles of a side. *)
Theorem C82_normals_partial model tol m t : import_v1 model tol = Ok m -> used_tol model tol = Ok t -> apart (2 * t) model ->
  forall i x y j, nth_error model i = Some x -> nth_error (im_tris m) i = Some y ->
  nth_error (im_verts m) (vert_at (mt_verts y) j) = Some (PVert (tcorner x j) (vertex_normal model (tcorner x j))) /\
  edge_get (im_edges m) (edge_key (vert_at (mt_verts y) j) (vert_at (mt_verts y) (j + 1))) = side_normal model (tcorner x j) (tcorner x (j + 1)) /\
  forall i' x' y' j', nth_error model i' = Some x' -> nth_error (im_tris m) i' = Some y' -> (vert_at (mt_verts y) j = vert_at (mt_verts y') j' <-> tcorner x j = tcorner x' j').
Proof.
  intros E T A i x y j X Y. pose proof (used_tol_pos _ _ _ T) as TP. destruct (nth_pair _ _ _ _ _ _ _ E T X Y) as (c & B & I). split; [|split].
  - pose proof (apart_pos _ _ _ _ _ _ TP A B _ _ I j) as P. rewrite nth_error_map in P. destruct (nth_error (im_verts m) _) as [v|] eqn:N; [|discriminate]. rewrite <- (apart_vertex _ _ _ _ _ _ TP A B _ _ j I). now rewrite (nth_error_nth _ _ _ N).
  - exact (apart_edge _ _ _ _ _ _ TP A B _ _ j (j + 1) I).
  - intros i' x' y' j' X' Y'. rewrite <- Nat.eqb_eq, <- v3_eqb_eq. rewrite (apart_index _ _ _ _ _ _ TP A B _ _ _ _ j j' I (combine_nth _ _ _ _ _ X' Y')). reflexivity.
Qed.
(** The weights of the vertex normals are the angles of the triangle at the corner, between 0 and pi: their cosine
    is the scalar product of the unit vectors to the two other corners. *)
Theorem C82_angles x j : tri_ok x -> 0 < corner_angle x j < PI /\
  cos (corner_angle x j) * (dist3 (tcorner x (j + 1)) (tcorner x j) * dist3 (tcorner x (j + 2)) (tcorner x j)) = dot3 (sub3 (tcorner x (j + 1)) (tcorner x j)) (sub3 (tcorner x (j + 2)) (tcorner x j)).
Proof.
  intros H. rewrite (dist3_sym (tcorner x (j + 1))), (dist3_sym (tcorner x (j + 2))).
  assert (DD : dot3 (sub3 (tcorner x (j + 1)) (tcorner x j)) (sub3 (tcorner x (j + 2)) (tcorner x j)) = dot3 (sub3 (tcorner x j) (tcorner x (j + 1))) (sub3 (tcorner x j) (tcorner x (j + 2)))) by (unfold dot3, sub3; cbn; ring). rewrite DD. clear DD.
  pose proof (corner_angle_pos x j H) as CP. unfold corner_angle, dist3 in *. set (u := sub3 (tcorner x j) (tcorner x (j + 1))) in *. set (v := sub3 (tcorner x j) (tcorner x (j + 2))) in *. unfold tri_ok in H.
  assert (H' : cross3 u v <> zero3) by (unfold u, v; now rewrite tcorner_normal). clearbody u v. clear H x j. rename H' into H.
  assert (U : u <> zero3) by (intros ->; apply H; unfold cross3, zero3; cbn; f_equal; ring). assert (V : v <> zero3) by (intros ->; apply H; unfold cross3, zero3; cbn; f_equal; ring).
  pose proof (norm3_pos _ H) as NC. apply norm3_pos in U. apply norm3_pos in V. unfold norm3 in NC. assert (P : 0 < norm3sq (cross3 u v)). { destruct (Rle_lt_dec (norm3sq (cross3 u v)) 0) as [L|L]; [|exact L]. rewrite (sqrt_neg_0 _ L) in NC. lra. }
  assert (LG : norm3sq (cross3 u v) = norm3sq u * norm3sq v - dot3 u v * dot3 u v) by (unfold norm3sq, dot3, cross3; cbn; ring).
  assert (SU : norm3 u * norm3 u = norm3sq u) by (apply sqrt_sqrt; unfold norm3sq, dot3; nra). assert (SV : norm3 v * norm3 v = norm3sq v) by (apply sqrt_sqrt; unfold norm3sq, dot3; nra).
  assert (UV : 0 < norm3 u * norm3 v) by now apply Rmult_lt_0_compat. assert (Q : (dot3 u v) * (dot3 u v) < (norm3 u * norm3 v) * (norm3 u * norm3 v)) by nra.
  assert (C1 : -1 < cos3 u v < 1). { unfold cos3. set (d := dot3 u v) in *. set (n := norm3 u * norm3 v) in *. clearbody d n. assert (E : d = d / n * n) by (field; lra). set (e := d / n) in *. clearbody e. subst d. assert (e * e < 1) by (apply Rmult_lt_reg_r with (n * n); [nra|lra]). split; nra. }
  pose proof (cos_acos (cos3 u v) ltac:(lra)) as CA. split.
  - split; [exact CP|]. destruct (acos_bound (cos3 u v)) as (_ & [A|A]); [exact A|]. exfalso. rewrite A, cos_PI in CA. lra.
  - rewrite CA. unfold cos3. field. split; lra.
Qed.
(** Bounds: the smallest box that contains the model. *)
Theorem C82_bounds model tol m : import_v1 model tol = Ok m -> (forall v, In v (flat_map corners model) -> in3 (Box3 (V3 (- max_float64) (- max_float64) (- max_float64)) (V3 max_float64 max_float64 max_float64)) v) ->
  (forall x w, In x model -> in_triangle x w -> in3 (im_bounds m) w) /\
  (forall f, In f [x3; y3; z3] -> (exists v, In v (flat_map corners model) /\ f v = f (min3 (im_bounds m))) /\ (exists v, In v (flat_map corners model) /\ f v = f (max3 (im_bounds m)))).
Proof.
  intros E FIN. destruct (import_built _ _ _ E) as (t & c & T & B & BX). unfold im_bounds. rewrite BX. assert (IC : forall v, In v (flat_map corners model) -> in3 (model_box model) v) by (intros v V; apply grow_all; now right). split.
  - intros [[a b] d] w I W. apply (in_tri_box _ a b d); [| | |exact W]; apply IC, in_flat_map; exists (a, b, d); (split; [exact I|cbn; auto]).
  - exact (model_box_tight _ _ _ T FIN).
Qed.
(** Not all nearby corners share a vertex: however small [e] is, two corners [e] apart on either side of a cell
    boundary stay two vertices, although the tolerance is 1/100. *)
Definition split_corners (e : R) : list triangle := [(vO, vX, vY); (vO, vY, V3 (1 - e) 0 0)].
Lemma split_tol e : 0 < e < 1/100 -> used_tol (split_corners e) (1/100) = Ok (1/100).
Proof.
  intros P. unfold used_tol. change (match split_corners e with [] => Err | _ => ?k end) with k.
  assert (S : 99/100 <= sqrt (max_side (split_corners e))).
  { rewrite <- (sqrt_square (99/100)) by lra. apply sqrt_le_1_alt. unfold max_side, split_corners. cbn [flat_map sides app fold_left]. eapply Rle_trans; [|apply Rmax_r]. unfold norm3sq, dot3, sub3. cbn [x3 y3 z3 vX vY vO]. nra. }
  assert (B : model_box (split_corners e) = Box3 (V3 0 0 0) (V3 1 1 0)) by (unfold split_corners, vO, vX, vY; lit_box).
  rewrite B. rewrite (proj2 (Rltb_false _ _)) by lra. rewrite (proj2 (Reqb_false (1/100) 0)) by lra. cbv zeta. rewrite (proj2 (Reqb_false (1/100) 0)) by lra. unfold sub3. cbn [x3 y3 z3 min3 max3].
  assert (D : Rmax (1 - 0) (Rmax (1 - 0) (0 - 0)) = 1) by (rmm; lra). rewrite D. rewrite (truncZ_pos 100) by (try lia; lra). reflexivity.
Qed.
Theorem C82_split_refuted e : 0 < e < 1/100 -> exists m y0 y1, import_v1 (split_corners e) (1/100) = Ok m /\ dist3 (tcorner (vO, vX, vY) 1) (tcorner (vO, vY, V3 (1 - e) 0 0) 2) = e /\
  nth_error (im_tris m) 0 = Some y0 /\ nth_error (im_tris m) 1 = Some y1 /\ vert_at (mt_verts y0) 1 <> vert_at (mt_verts y1) 2.
Proof.
  intros P. assert (E : exists m, import_v1 (split_corners e) (1/100) = Ok m) by (unfold import_v1; rewrite split_tol by exact P; cbn [bind]; destruct (fold_left _ _ _) as [[[? ?] ?] ?]; eauto). destruct E as (m & E).
  destruct (import_built _ _ _ E) as (t & c & T & [BC _ BT _ _] & _). rewrite split_tol in T by exact P. injection T as <-. unfold split_corners in BT at 1. inversion BT as [|? y0 ? ts0 S0 BT1 Q1 Q2]. subst. inversion BT1 as [|? y1 ? ts1 S1 BT2 Q3 Q4]. subst. exists m, y0, y1. split; [exact E|]. split.
  - apply norm3_lit; [lra|]. unfold norm3sq, dot3, sub3. cbn. ring.
  - rewrite <- Q2. split; [reflexivity|]. split; [reflexivity|]. destruct S0 as (_ & _ & _ & _ & S0). destruct S1 as (_ & _ & _ & _ & S1). destruct (S0 1%nat ltac:(lia)) as (u & U & K). destruct (S1 2%nat ltac:(lia)) as (u' & U' & K'). intros H. rewrite H in U. rewrite U in U'. injection U' as <-. rewrite K in K'. cbn [tcorner Nat.modulo Nat.divmod fst snd Nat.sub nth] in K'. unfold vkey, vX in K'. cbn [x3 y3 z3] in K'. injection K' as KX.
    rewrite (truncZ_pos 100) in KX by (try lia; lra). rewrite (truncZ_pos 99) in KX by (try lia; split; nra). discriminate.
Qed.
(** And corners farther apart than the tolerance may be merged: around zero, two corners 1.8 tolerances apart. *)
Definition merged_corners : list triangle := [(V3 (9/1000) 0 0, vX, vY); (V3 (-9/1000) 0 0, vY, V3 (-1) 0 0)].
Lemma merged_tol : used_tol merged_corners (1/100) = Ok (1/100).
Proof.
  unfold used_tol. change (match merged_corners with [] => Err | _ => ?k end) with k.
  assert (S : 99/100 <= sqrt (max_side merged_corners)).
  { rewrite <- (sqrt_square (99/100)) by lra. apply sqrt_le_1_alt. unfold max_side, merged_corners. cbn [flat_map sides app fold_left]. eapply Rle_trans; [|apply Rmax_r]. unfold norm3sq, dot3, sub3. cbn [x3 y3 z3 vX vY vO]. lra. }
  assert (B : model_box merged_corners = Box3 (V3 (-1) 0 0) (V3 1 1 0)) by (unfold merged_corners, vX, vY; lit_box).
  rewrite B. rewrite (proj2 (Rltb_false _ _)) by lra. rewrite (proj2 (Reqb_false (1/100) 0)) by lra. cbv zeta. rewrite (proj2 (Reqb_false (1/100) 0)) by lra. unfold sub3. cbn [x3 y3 z3 min3 max3].
  assert (D : Rmax (1 - -1) (Rmax (1 - 0) (0 - 0)) = 2) by (rmm; lra). rewrite D. rewrite (truncZ_pos 200) by (try lia; lra). reflexivity.
Qed.
Theorem C82_merge_refuted : exists m y0 y1, import_v1 merged_corners (1/100) = Ok m /\ nth_error (im_tris m) 0 = Some y0 /\ nth_error (im_tris m) 1 = Some y1 /\
  vert_at (mt_verts y0) 0 = vert_at (mt_verts y1) 0.
Proof.
  assert (E : exists m, import_v1 merged_corners (1/100) = Ok m) by (unfold import_v1; rewrite merged_tol; cbn [bind]; destruct (fold_left _ _ _) as [[[? ?] ?] ?]; eauto). destruct E as (m & E).
  destruct (import_built _ _ _ E) as (t & c & T & [BC _ BT _ _] & _). rewrite merged_tol in T. injection T as <-. unfold merged_corners in BT at 1. inversion BT as [|? y0 ? ts0 S0 BT1 Q1 Q2]. subst. inversion BT1 as [|? y1 ? ts1 S1 BT2 Q3 Q4]. subst. exists m, y0, y1. split; [exact E|].
  rewrite <- Q2. split; [reflexivity|]. split; [reflexivity|]. destruct S0 as (_ & _ & _ & _ & S0). destruct S1 as (_ & _ & _ & _ & S1). destruct (S0 0%nat ltac:(lia)) as (u & U & K). destruct (S1 0%nat ltac:(lia)) as (u' & U' & K').
  assert (KK : vkey (1/100) u = vkey (1/100) u'). { rewrite K, K'. cbn [tcorner Nat.modulo Nat.divmod fst snd Nat.sub nth]. unfold vkey. cbn [x3 y3 z3]. rewrite (truncZ_pos 0 (1 / (1/100) * (9/1000))) by (try lia; lra). rewrite (truncZ_neg 0 (1 / (1/100) * (-9/1000))) by (try lia; lra). reflexivity. }
  assert (L1 := proj2 (BC (vkey (1/100) u') _) (ex_intro _ _ (conj U KK))). assert (L2 := proj2 (BC (vkey (1/100) u') _) (ex_intro _ _ (conj U' eq_refl))). congruence.
Qed.
Example C82_example : exists m, import_v1 corner_mesh (1/100) = Ok m /\ length (im_tris m) = 4%nat /\ forall y, nth_error (im_tris m) 0 = Some y ->
  nth_error (im_verts m) (vert_at (mt_verts y) 1) = Some (PVert vO (V3 (- (PI / 2)) (- (PI / 2)) (- (PI / 2)))).
Proof.
  destruct corner_mesh_import as (m & E). exists m. split; [exact E|]. destruct (C82_vertices_partial _ _ _ _ E corner_mesh_tol) as (L & _). split; [exact L|]. intros y Y. destruct (C82_normals_partial _ _ _ _ E corner_mesh_tol corner_mesh_apart 0 (vX, vO, vY) y 1 eq_refl Y) as (H & _). rewrite H. destruct corner_normals as (a & _ & NO & _). cbn [tcorner Nat.modulo Nat.divmod fst snd Nat.sub nth]. now rewrite NO.
Qed.
