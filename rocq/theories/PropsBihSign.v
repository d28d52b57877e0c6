(** C78: the sign of an imported mesh. *)
From Coq Require Import Reals Lra Lia List Bool ZArith Psatz Permutation Arith.
From Verif Require Import Prelude Vec BoxModel SdfModel PropsUtil PropsForm PropsUnion2 BihModel PropsTri PropsBih.
Import ListNotations.
Local Open Scope R_scope.

(** The normal of a triangle (right-hand rule, not normalised) and the open half space it points into. *)
Definition tri_normal (x : triangle) : v3 := let '(a, b, c) := x in cross3 (sub3 b a) (sub3 c a).
Definition side_of (x : triangle) (p : v3) : R := let '(a, _, _) := x in dot3 (tri_normal x) (sub3 p a).

Lemma plane_side a b c w p : in_tri a b c w -> dot3 (tri_normal (a, b, c)) (sub3 p w) = side_of (a, b, c) p.
Proof.
  intros (s & t & _ & _ & _ & ->). unfold side_of, tri_normal, dot3, cross3, sub3, add3, scale3. cbn [x3 y3 z3]. ring.
Qed.
(** The value is positive exactly when the query point is in front of (or on) the plane of one nearest
    triangle that has area; which of several nearest triangles decides is left to the search order. *)
Theorem C78_sign_partial srt model tol b : permutes srt -> import_v2 srt model tol = Ok b ->
  exists t tris, used_tol model tol = Ok t /\ Forall2 (merged t model) model tris /\ forall target,
    bih_eval b target = max_float64 \/
    exists x w, In x tris /\ ~ blind_for target x /\ in_triangle x w /\ (forall x' w', In x' tris -> ~ blind_for target x' -> in_triangle x' w' -> dist3 target w <= dist3 target w') /\
      (tri_normal x <> zero3 /\ 0 <= side_of x target -> bih_eval b target = dist3 target w) /\
      (tri_normal x = zero3 \/ side_of x target < 0 -> bih_eval b target = - dist3 target w).
Proof.
  intros P E. destruct (import_covers _ _ _ _ P E) as (t & m & T & F & PM & C & _). exists t, (map (tri_of (bih_verts b)) m). split; [exact T|]. split; [exact F|]. intros target.
  pose proof (nearest_improved _ _ _ target _ _ _ _ _ C (max_float64, zero3, None)) as (A & B & D). unfold bih_eval.
  destruct (nearest (bih_verts b) (bih_mesh b) (bih_nodes b) target (S (length (bih_mesh b))) 0 (bih_box b) (max_float64, zero3, None)) as [[d v] o] eqn:EN. unfold best_sq in *. cbn [fst snd] in *.
  destruct D as [D|(i & y & v0 & I & N & TD & D)]; [injection D as -> -> ->; left; reflexivity|]. injection D as -> -> ->. right.
  destruct (C69_closest_partial target (tri_a (bih_verts b) y) (tri_b (bih_verts b) y) (tri_c (bih_verts b) y)) as [(_ & Q)|(NB & v' & w & Q & W & Vw & _)]; unfold tri_dist in TD; rewrite Q in TD; [discriminate|]. injection TD as ->.
  exists (tri_of (bih_verts b) y), w. split; [apply in_map; apply (Permutation_in _ PM); now apply nth_error_In in N|]. split; [exact NB|]. split; [exact W|].
  cbv zeta. pose proof (nth_error_nth _ _ (O, O, O) N : @nth (nat * nat * nat) i (bih_mesh b) (O, O, O) = y) as NN. unfold tri in NN |- *. rewrite NN. assert (SD : dot3 (cross3 (sub3 (tri_b (bih_verts b) y) (tri_a (bih_verts b) y)) (sub3 (tri_c (bih_verts b) y) (tri_a (bih_verts b) y))) v0 = side_of (tri_of (bih_verts b) y) target) by (rewrite Vw; apply (plane_side _ _ _ w target W)). rewrite SD.
  change (cross3 (sub3 (tri_b (bih_verts b) y) (tri_a (bih_verts b) y)) (sub3 (tri_c (bih_verts b) y) (tri_a (bih_verts b) y))) with (tri_normal (tri_of (bih_verts b) y)). assert (DV : sqrt (norm3sq v0) = dist3 target w) by (rewrite Vw; reflexivity). rewrite DV.
  split; [|split].
  - intros x' w' I' NB' W'. apply in_map_iff in I'. destruct I' as (y' & <- & I'). destruct (C69_closest_partial target (tri_a (bih_verts b) y') (tri_b (bih_verts b) y') (tri_c (bih_verts b) y')) as [(B' & _)|(_ & v1 & w1 & Q1 & _ & _ & M1)]; [contradiction|].
    apply (Permutation_in _ (Permutation_sym PM)) in I'. apply In_nth_error in I'. destruct I' as (j & J). specialize (B j y' v1 ltac:(split; [lia|apply nth_error_Some; congruence]) J Q1). rewrite <- DV. eapply Rle_trans; [apply sqrt_le_1_alt; exact B|]. apply M1. exact W'.
  - intros (NZ & S). rewrite (proj2 (Rleb_true _ _) S). rewrite (proj2 (Rltb_true _ _)); [reflexivity|]. apply sqrt_lt_R0. unfold norm3sq, dot3. destruct (tri_normal (tri_of (bih_verts b) y)) as [n1 n2 n3]. cbn [x3 y3 z3].
    destruct (Req_dec n1 0) as [E1|E1]; [destruct (Req_dec n2 0) as [E2|E2]; [destruct (Req_dec n3 0) as [E3|E3]; [exfalso; apply NZ; subst; reflexivity|]|]|]; nra.
  - intros [Z|S]; [|rewrite (proj2 (Rleb_false _ _) S), andb_false_r; reflexivity]. rewrite Z. replace (Rltb 0 (norm3 zero3)) with false; [reflexivity|]. symmetry. apply Rltb_false. unfold norm3, norm3sq, dot3, zero3. cbn. replace (0 * 0 + 0 * 0 + 0 * 0) with 0 by ring. rewrite sqrt_0. lra.
Qed.
(** Inside: a point strictly behind every triangle (strictly inside, for a closed convex mesh with outward
    normals) is never given a positive distance. *)
Theorem C78_inside_partial srt model tol b t target : permutes srt -> import_v2 srt model tol = Ok b -> used_tol model tol = Ok t -> apart (2 * t) model ->
  (forall x, In x model -> side_of x target < 0) -> bih_eval b target = max_float64 \/ bih_eval b target < 0.
Proof.
  intros P E T A B. destruct (C78_sign_partial _ _ _ _ P E) as (t' & tris & T' & F & N). rewrite T in T'. injection T' as <-. apply merged_same in F; [|exact (used_tol_pos _ _ _ T)|exact A|apply incl_refl]. subst tris.
  destruct (N target) as [V|(x & w & I & _ & W & _ & _ & V)]; [left; exact V|right]. rewrite V by (right; auto). specialize (B x I). destruct x as [[a b0] c]. cbn [in_triangle] in W.
  assert (D : 0 < dist3 target w); [|lra]. apply sqrt_lt_R0. rewrite <- (plane_side _ _ _ _ _ W) in B. unfold norm3sq, dot3 in *. set (n := tri_normal (a, b0, c)) in *. clearbody n. destruct (sub3 target w) as [d1 d2 d3]. cbn [x3 y3 z3] in *.
  destruct (Req_dec d1 0) as [E1|E1]; [destruct (Req_dec d2 0) as [E2|E2]; [destruct (Req_dec d3 0) as [E3|E3]; [exfalso; subst; lra|]|]|]; nra.
Qed.
(** Outside is not always positive.  A tetrahedron with outward triangles, whose edge from (0,-1,0) to (0,1,0)
    is sharp: the point (1,0,2) is outside, nearest to that edge, and the lower triangle comes first. *)
Definition wedge : list triangle :=
  let A := V3 0 (-1) 0 in let B := V3 0 1 0 in let C := V3 (-4) 0 1 in let D := V3 (-4) 0 (-1) in [(B, A, D); (A, B, C); (A, C, D); (B, D, C)].
Lemma wedge_tol : used_tol wedge (1/100) = Ok (1/100).
Proof.
  pose proof max_float64_big as M. unfold used_tol. cbv zeta.
  assert (S : 1 <= sqrt (max_side wedge)).
  { rewrite <- sqrt_1. apply sqrt_le_1_alt. unfold max_side, wedge. cbn [flat_map sides app fold_left]. eapply Rle_trans; [|apply Rmax_r]. unfold norm3sq, dot3, sub3. cbn [x3 y3 z3]. lra. }
  assert (B : model_box wedge = Box3 (V3 (-4) (-1) (-1)) (V3 0 1 1)).
  { unfold model_box, wedge, far_box. cbn [flat_map corners app]. repeat (cbn [fold_left]; unfold grow at 1; cbn [x3 y3 z3 min3 max3]; repeat match goal with |- context [Rmin ?a ?b] => (rewrite (Rmin_left a b) by lra) || (rewrite (Rmin_right a b) by lra) | |- context [Rmax ?a ?b] => (rewrite (Rmax_left a b) by lra) || (rewrite (Rmax_right a b) by lra) end). reflexivity. }
  unfold wedge at 1. rewrite (proj2 (Rltb_false _ _)) by lra. rewrite !(proj2 (Reqb_false (1/100) 0)) by lra. rewrite B. unfold sub3. cbn [x3 y3 z3 min3 max3].
  assert (D : Rmax (0 - -4) (Rmax (1 - -1) (1 - -1)) = 4) by (rmm; lra). rewrite D. rewrite (truncZ_pos 400) by (try lia; lra). reflexivity.
Qed.
Definition wedge_verts : list v3 := [V3 0 1 0; V3 0 (-1) 0; V3 (-4) 0 (-1); V3 (-4) 0 1].
Definition wedge_mesh : list tri := [(0, 1, 2); (1, 0, 3); (1, 3, 2); (0, 2, 3)]%nat.
Lemma wedge_merge : merge (1/100) wedge = (wedge_verts, wedge_mesh).
Proof.
  assert (Z0 : truncZ ((0 + 1/2 * (1/100)) / (1/100)) = 0%Z) by (apply truncZ_pos; [lia|lra]). assert (Z1 : truncZ ((1 + 1/2 * (1/100)) / (1/100)) = 100%Z) by (apply truncZ_pos; [lia|lra]).
  assert (Zn : truncZ ((-1 + 1/2 * (1/100)) / (1/100)) = (-99)%Z) by (apply (truncZ_neg 99); [lia|lra|lra]). assert (Z4 : truncZ ((-4 + 1/2 * (1/100)) / (1/100)) = (-399)%Z) by (apply (truncZ_neg 399); [lia|lra|lra]).
  unfold merge, wedge. cbn [fold_left add_triangle]. unfold add_triangle, add_vertex, cell. cbn [x3 y3 z3]. rewrite !Z0, !Z1, !Zn, !Z4. reflexivity.
Qed.
Definition wedge_bih : bih := Bih wedge_verts wedge_mesh [NLeaf 0 4] (model_box wedge).
Lemma wedge_import srt : import_v2 srt wedge (1/100) = Ok wedge_bih.
Proof. unfold import_v2. rewrite wedge_tol. cbn [bind]. rewrite wedge_merge. reflexivity. Qed.
(** Every point of the wedge is at least sqrt 5 away from (1,0,2). *)
Lemma wedge_far i t w : nth_error wedge_mesh i = Some t -> in_tri (tri_a wedge_verts t) (tri_b wedge_verts t) (tri_c wedge_verts t) w -> 5 <= norm3sq (sub3 (V3 1 0 2) w) /\ (norm3sq (sub3 (V3 1 0 2) w) <= 5 -> w = V3 0 0 0).
Proof.
  intros N (s & u & S & U & SU & ->). assert (Q : forall x y z, 4 * z <= - x -> x <= 0 -> 5 <= norm3sq (sub3 (V3 1 0 2) (V3 x y z)) /\ (norm3sq (sub3 (V3 1 0 2) (V3 x y z)) <= 5 -> V3 x y z = V3 0 0 0)).
  { intros x y z L X. unfold norm3sq, dot3, sub3. cbn [x3 y3 z3]. pose proof (Rle_0_sqr x). pose proof (Rle_0_sqr y). pose proof (Rle_0_sqr z). unfold Rsqr in *. split; [nra|]. intros H2. assert (x = 0) by nra. subst x. assert (z = 0) by nra. subst z. assert (y = 0) by nra. now subst y. }
  destruct i as [|[|[|[|i]]]]; cbn in N; try (destruct i; discriminate); injection N as <-; unfold tri_a, tri_b, tri_c, vt, wedge_verts, add3, scale3, sub3; cbn [nth x3 y3 z3]; apply Q; lra.
Qed.
Lemma leaf_stay vs mesh target d v o l : (forall i t v', In i l -> nth_error mesh i = Some t -> tri_dist vs target t = Some v' -> d <= norm3sq v') -> fold_left (leaf_step vs mesh target) l (d, v, o) = (d, v, o).
Proof.
  induction l as [|i l IH]; intros H; cbn [fold_left]; [reflexivity|]. replace (leaf_step vs mesh target (d, v, o) i) with (d, v, o); [apply IH; intros; eapply H; eauto; now right|]. unfold leaf_step. destruct (nth_error mesh i) as [t|] eqn:E; [|reflexivity]. fold (tri_dist vs target t). destruct (tri_dist vs target t) as [v'|] eqn:D; [|reflexivity].
  unfold best_sq. cbn [fst]. rewrite (proj2 (Rltb_false _ _)); [reflexivity|]. apply (H i t); auto. now left.
Qed.
Theorem C78_outside_refuted srt : import_v2 srt wedge (1/100) = Ok wedge_bih /\ apart (2 * (1/100)) wedge /\
  (forall x v, In x wedge -> In v (flat_map corners wedge) -> side_of x v <= 0) /\ (exists x, In x wedge /\ 0 < side_of x (V3 1 0 2)) /\ bih_eval wedge_bih (V3 1 0 2) = - sqrt 5.
Proof.
  split; [apply wedge_import|]. split; [|split; [|split]].
  - intros u v U V. unfold wedge in U, V. cbn in U, V.
    assert (CU : In u [V3 0 1 0; V3 0 (-1) 0; V3 (-4) 0 (-1); V3 (-4) 0 1]) by (cbn; intuition). assert (CV : In v [V3 0 1 0; V3 0 (-1) 0; V3 (-4) 0 (-1); V3 (-4) 0 1]) by (cbn; intuition). clear U V.
    destruct CU as [<-|[<-|[<-|[<-|[]]]]], CV as [<-|[<-|[<-|[<-|[]]]]]; cbn [x3 y3 z3]; auto; right; unfold Rabs; repeat destruct (Rcase_abs _); lra.
  - intros x v X V. assert (CV : In v [V3 0 1 0; V3 0 (-1) 0; V3 (-4) 0 (-1); V3 (-4) 0 1]) by (unfold wedge in V; cbn in V |- *; intuition). clear V. unfold wedge in X. cbn zeta in X.
    destruct X as [<-|[<-|[<-|[<-|[]]]]], CV as [<-|[<-|[<-|[<-|[]]]]]; unfold side_of, tri_normal, dot3, cross3, sub3; cbn [x3 y3 z3]; lra.
  - exists (V3 0 (-1) 0, V3 0 1 0, V3 (-4) 0 1). split; [cbn; auto|]. unfold side_of, tri_normal, dot3, cross3, sub3; cbn [x3 y3 z3]; lra.
  - pose proof max_float64_big as M. unfold bih_eval, wedge_bih. cbn [bih_verts bih_mesh bih_nodes bih_box length wedge_mesh nearest nth_error Nat.sub seq]. fold wedge_mesh. cbn [fold_left].
    assert (L0 : leaf_step wedge_verts wedge_mesh (V3 1 0 2) (max_float64, zero3, None) 0 = (5, V3 1 0 2, Some O)).
    { unfold leaf_step. cbn [nth_error wedge_mesh]. destruct (C69_closest_partial (V3 1 0 2) (tri_a wedge_verts (0, 1, 2)%nat) (tri_b wedge_verts (0, 1, 2)%nat) (tri_c wedge_verts (0, 1, 2)%nat)) as [((NB & _) & _)|(_ & v & w & Q & W & Vw & MN)].
      { exfalso. revert NB. unfold tri_a, tri_b, tri_c, vt, wedge_verts, dot3, sub3. cbn [nth x3 y3 z3]. lra. }
      rewrite Q. destruct (wedge_far 0 _ w eq_refl W) as (F1 & F2). assert (O : w = V3 0 0 0).
      { apply F2. assert (I0 : in_tri (tri_a wedge_verts (0, 1, 2)%nat) (tri_b wedge_verts (0, 1, 2)%nat) (tri_c wedge_verts (0, 1, 2)%nat) (V3 0 0 0)) by (exists (1/2), 0; unfold tri_a, tri_b, tri_c, vt, wedge_verts, add3, scale3, sub3; cbn [nth x3 y3 z3]; repeat split; try lra; f_equal; lra).
        specialize (MN _ I0). rewrite Vw in MN. unfold norm3, dist3, norm3 in MN. apply sqrt_le_0 in MN; [|unfold norm3sq, dot3; nra|unfold norm3sq, dot3; nra]. eapply Rle_trans; [exact MN|]. unfold norm3sq, dot3, sub3. cbn [x3 y3 z3]. lra. }
      subst w. assert (V1 : v = V3 1 0 2) by (rewrite Vw; unfold sub3; cbn [x3 y3 z3]; f_equal; lra). assert (N5 : norm3sq v = 5) by (rewrite V1; unfold norm3sq, dot3; cbn [x3 y3 z3]; lra). unfold best_sq. cbn [fst]. rewrite N5, V1. rewrite (proj2 (Rltb_true _ _)) by lra. reflexivity. }
    rewrite L0. change (leaf_step wedge_verts wedge_mesh (V3 1 0 2) (leaf_step wedge_verts wedge_mesh (V3 1 0 2) (leaf_step wedge_verts wedge_mesh (V3 1 0 2) (5, V3 1 0 2, Some 0%nat) 1) 2) 3) with (fold_left (leaf_step wedge_verts wedge_mesh (V3 1 0 2)) [1; 2; 3]%nat (5, V3 1 0 2, Some O)).
    rewrite leaf_stay.
    + cbn [nth wedge_mesh]. rewrite (proj2 (Rleb_false _ _)); [rewrite andb_false_r; reflexivity|]. unfold tri_a, tri_b, tri_c, vt, wedge_verts, dot3, cross3, sub3. cbn [nth x3 y3 z3]. lra.
    + intros i t v' _ N D. unfold tri_dist in D. destruct (C69_closest_partial (V3 1 0 2) (tri_a wedge_verts t) (tri_b wedge_verts t) (tri_c wedge_verts t)) as [(_ & Q)|(_ & v & w & Q & W & Vw & _)]; rewrite Q in D; [discriminate|]. injection D as ->. rewrite Vw. apply (wedge_far i t w N W).
Qed.
(** The inside theorem applies at (-1,0,0), strictly inside the wedge. *)
Example C78_example srt : permutes srt -> bih_eval wedge_bih (V3 (-1) 0 0) = max_float64 \/ bih_eval wedge_bih (V3 (-1) 0 0) < 0.
Proof.
  intros P. destruct (C78_outside_refuted srt) as (E & A & _). apply (C78_inside_partial srt wedge (1/100) wedge_bih (1/100)); [exact P|exact E|exact wedge_tol|exact A|].
  intros x X. unfold wedge in X. cbn zeta in X. destruct X as [<-|[<-|[<-|[<-|[]]]]]; unfold side_of, tri_normal, dot3, cross3, sub3; cbn [x3 y3 z3]; lra.
Qed.
