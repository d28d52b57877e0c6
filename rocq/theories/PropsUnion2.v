(** C49: the bounding-box culling of Union2D. *)
From Coq Require Import Reals Lra Lia List Bool ZArith.
From Verif Require Import Prelude Vec BoxModel MatrixModel PropsBox PropsMatrix SdfModel SdfLemmas PropsBool Trig
  Grades GradesOps GradesSweep GradesCopy GradesRest Distance PrimModel PrimCores PropsPrim BlendModel.
Import ListNotations.
Local Open Scope R_scope.

(** A member for which culling is safe: the value is at least the signed distance to its
    Bounds, it is 1-Lipschitz, and Bounds holds some point of the shape. *)
Record honest (s : sdf2) : Prop := {
  ho_near : forall p, near dist2 (in2 (bb2 s)) p (ev2 s p);
  ho_lip : lip2 (ev2 s);
  ho_point : exists q, in2 (bb2 s) q /\ ev2 s q <= 0 }.

Lemma least_index_shape vs : forall i best bi pre full, full = pre ++ vs -> length pre = i ->
  (forall v, In v full -> 0 <= fst v) ->
  (best < 0 /\ pre = [] \/ 0 <= best /\ (bi < i)%nat /\ fst (nth bi full (0, 0)) = best /\ forall v, In v pre -> best <= fst v) ->
  vs <> [] \/ 0 <= best ->
  let k := least_index i best bi vs in (k < length full)%nat /\ forall v, In v full -> fst (nth k full (0, 0)) <= fst v.
Proof.
  induction vs as [|v r IH]; intros i best bi pre full E L P H N; cbn [least_index].
  - rewrite app_nil_r in E. subst full. destruct N as [N|N]; [congruence|]. destruct H as [(H & _)|(_ & H1 & H2 & H3)]; [lra|].
    split; [lia|]. intros v V. rewrite H2. auto.
  - assert (Nv : nth i full (0, 0) = v) by (rewrite E, app_nth2, L, Nat.sub_diag by lia; reflexivity).
    assert (E' : full = (pre ++ [v]) ++ r) by (rewrite <- app_assoc; exact E).
    assert (L' : length (pre ++ [v]) = S i) by (rewrite app_length; cbn; lia).
    assert (V0 : 0 <= fst v) by (apply P; rewrite E; apply in_or_app; cbn; auto).
    destruct (Rltb best 0 || Rltb (fst v) best) eqn:Q.
    + apply (IH (S i) (fst v) i (pre ++ [v]) full E' L' P); [right|right; exact V0].
      split; [exact V0|]. split; [lia|]. split; [now rewrite Nv|].
      intros w W. apply in_app_or in W. destruct W as [W|[->|[]]]; [|lra].
      destruct H as [(_ & ->)|(B0 & _ & _ & H3)]; [destruct W|]. specialize (H3 w W). apply orb_true_iff in Q. rewrite !Rltb_true in Q. lra.
    + apply orb_false_iff in Q. rewrite !Rltb_false in Q. destruct H as [(H & _)|(B0 & H1 & H2 & H3)]; [lra|].
      apply (IH (S i) best bi (pre ++ [v]) full E' L' P); [right|right; lra].
      split; [lra|]. split; [lia|]. split; [exact H2|]. intros w W. apply in_app_or in W. destruct W as [W|[->|[]]]; [auto|lra].
Qed.
Lemma loop_le p mi vm l : forall i d s v k, nth_error l k = Some (s, v) -> ((i + k =? mi)%nat || overlap vm v) = true ->
  union2_loop Rmin p mi vm i l d <= ev2 s p.
Proof.
  assert (Acc : forall l i y, union2_loop Rmin p mi vm i l (Some y) <= y).
  { intros l0. induction l0 as [|(s, v) r IH]; intros i y; cbn [union2_loop]; [lra|].
    destruct (_ || _); [|apply IH]. eapply Rle_trans; [apply IH|]. apply Rmin_l. }
  induction l as [|(s0, v0) r IH]; intros i d s v k N K; [destruct k; discriminate|]. cbn [union2_loop]. destruct k as [|k].
  - cbn in N. inversion N. subst s0 v0. rewrite Nat.add_0_r in K. rewrite K. eapply Rle_trans; [apply Acc|]. destruct d; [apply Rmin_r|lra].
  - cbn in N. replace (i + S k)%nat with (S i + k)%nat in K by lia. destruct ((i =? mi)%nat || overlap vm v0); exact (IH (S i) _ s v k N K).
Qed.
Lemma honest_ok s : honest s -> ok2 (bb2 s).
Proof. intros [_ _ (q & Q & _)]. eapply ok2_of; eauto. Qed.
Theorem C49_culling_partial ss p : ss <> [] -> (forall s, In s ss -> honest s) ->
  union_eval2 Rmin ss p = union_eval2_slow Rmin ss p.
Proof.
  intros NE H. destruct ss as [|a l]; [congruence|]. set (ss := a :: l) in *.
  (* the slow value is the least of all *)
  assert (Slow : (exists x, In x ss /\ ev2 x p = union_eval2_slow Rmin ss p) /\ forall x, In x ss -> union_eval2_slow Rmin ss p <= ev2 x p).
  { unfold ss, union_eval2_slow. clear. revert a. 
    assert (G : forall l d, ((fold_left (fun d x => Rmin d (ev2 x p)) l d = d \/ exists x, In x l /\ ev2 x p = fold_left (fun d x => Rmin d (ev2 x p)) l d) /\
      fold_left (fun d x => Rmin d (ev2 x p)) l d <= d /\ forall x, In x l -> fold_left (fun d x => Rmin d (ev2 x p)) l d <= ev2 x p)).
    { clear. induction l as [|x l IH]; intros d; cbn [fold_left]; [split; [auto|split; [lra|intros x []]]|].
      destruct (IH (Rmin d (ev2 x p))) as (A & B & C). split; [|split].
      - destruct A as [A|(y & Y & A)]; [|right; exists y; cbn; auto]. rewrite A. unfold Rmin. destruct (Rle_dec d (ev2 x p)); [auto|right; exists x; cbn; auto].
      - eapply Rle_trans; [exact B|apply Rmin_l].
      - intros y [->|Y]; [|auto]. eapply Rle_trans; [exact B|apply Rmin_r]. }
    intros a. destruct (G l (ev2 a p)) as (A & B & C). split.
    - destruct A as [A|(x & X & A)]; [exists a|exists x]; cbn; auto.
    - intros x [<-|X]; auto. }
  destruct Slow as ((x & X & Ex) & Least).
  destruct (union_eval2_att a l p) as (y & Y & Ey). fold ss in Y, Ey.
  apply Rle_antisym; [|rewrite <- Ey; auto]. rewrite <- Ex.
  (* the chosen member is kept; a culled member is farther than it *)
  unfold union_eval2. set (vs := map (fun s => min_max_dist2_2 (bb2 s) p) ss). set (mi := least_index 0 (-1) 0 vs).
  assert (V : forall s, In s ss -> is_min_dist2_2 (bb2 s) p (fst (min_max_dist2_2 (bb2 s) p)) /\ is_max_dist2_2 (bb2 s) p (snd (min_max_dist2_2 (bb2 s) p))).
  { intros s S. apply C54_minmaxdist2_2d, honest_ok, H, S. }
  assert (Pos : forall v, In v vs -> 0 <= fst v).
  { intros v I. apply in_map_iff in I. destruct I as (s & <- & S). destruct (V s S) as ((_ & _) & _). 
    destruct (V s S) as (((q & _ & E) & _) & _). rewrite <- E. apply norm2sq_nonneg. }
  destruct (least_index_shape vs 0 (-1) 0 [] vs eq_refl eq_refl Pos) as (Lt & Min); [left; split; [lra|reflexivity]|left; discriminate|]. fold mi in Lt, Min.
  assert (Ls : length vs = length ss) by apply map_length. rewrite Ls in Lt.
  destruct (nth_error ss mi) as [sm|] eqn:Nm; [|apply nth_error_None in Nm; lia].
  assert (Sm : In sm ss) by (eapply nth_error_In; eauto).
  set (vm := nth mi vs (0, 0)).
  assert (Evm : vm = min_max_dist2_2 (bb2 sm) p).
  { unfold vm, vs. erewrite nth_indep by (rewrite map_length; exact Lt). rewrite (map_nth (fun s => min_max_dist2_2 (bb2 s) p) ss a). f_equal. f_equal. now apply nth_error_nth. }
  assert (Comb : forall k s, nth_error ss k = Some s -> nth_error (combine ss vs) k = Some (s, min_max_dist2_2 (bb2 s) p)).
  { unfold vs. generalize ss. clear. intros ss. induction ss as [|t ss IH]; intros k s N; [destruct k; discriminate|].
    destruct k; cbn in *; [now inversion N|auto]. }
  assert (KM : union2_loop Rmin p mi vm 0 (combine ss vs) None <= ev2 sm p).
  { eapply (loop_le p mi vm (combine ss vs) 0 None sm _ mi); [apply Comb, Nm|]. rewrite Nat.add_0_l, Nat.eqb_refl. reflexivity. }
  destruct (In_nth_error ss x X) as (k & Nk).
  destruct ((0 + k =? mi)%nat || overlap vm (min_max_dist2_2 (bb2 x) p)) eqn:Q.
  { eapply loop_le; [apply Comb, Nk|exact Q]. }
  eapply Rle_trans; [exact KM|]. apply orb_false_iff in Q. destruct Q as (_ & Q). unfold overlap in Q.
  assert (Far : snd vm < fst (min_max_dist2_2 (bb2 x) p)).
  { apply andb_false_iff in Q. rewrite !Rleb_false in Q. destruct Q as [Q|Q]; [exact Q|].
    exfalso. assert (M : fst vm <= fst (min_max_dist2_2 (bb2 x) p)) by (apply Min; apply in_map_iff; eauto).
    destruct (V x X) as (((q & Bq & Eq) & _) & (_ & Mx)). specialize (Mx q Bq). rewrite Eq in Mx. lra. }
  destruct (V x X) as ((_ & Mn) & _). destruct (V sm Sm) as (_ & (_ & Mx)). rewrite Evm in Far.
  destruct (H sm Sm) as [_ Lip (q & Bq & Eq)]. specialize (Mx q Bq).
  assert (U : ev2 sm p <= norm2 (sub2 q p)).
  { pose proof (Lip p q) as L. unfold dist2 in L. change (norm2 (sub2 p q)) with (dist2 p q) in L. rewrite dist2_sym in L. unfold dist2 in L. revert L. clear - Eq. rmm; lra. }
  destruct (ho_near x (H x X) p) as (N1 & N2).
  assert (Pp : 0 <= ev2 x p).
  { apply Rnot_lt_le. intros L. assert (B : in2 (bb2 x) p) by (apply N2; [auto|rewrite dist2_refl; lra]). specialize (Mn p B).
    replace (sub2 p p) with zero2 in Mn by (apply v2_ext; cbn; ring). replace (norm2sq zero2) with 0 in Mn by (unfold norm2sq, dot2; cbn; ring).
    assert (0 <= norm2sq (sub2 q p)) by apply norm2sq_nonneg. lra. }
  destruct (N1 Pp) as (w & Bw & Dw). specialize (Mn w Bw). rewrite dist2_sym in Dw. unfold dist2 in Dw.
  assert (S : norm2 (sub2 q p) <= norm2 (sub2 w p)) by (apply norm2_le_of; lra). lra.
Qed.

(** Membership needs much less than the value: it is enough that the Bounds of every member
    contains the member's own points. *)
Lemma minmax_fold_pos l : (forall x, In x l -> 0 <= x) -> 0 <= fst (minmax_fold l) /\ 0 <= snd (minmax_fold l).
Proof.
  destruct l as [|d r]; intros H; unfold minmax_fold; [cbn; lra|].
  assert (G : forall r a b, (forall x, In x r -> 0 <= x) -> 0 <= a -> 0 <= b ->
    let m := fold_left (fun '(mn, mx) e => (Rmin mn e, Rmax mx e)) r (a, b) in 0 <= fst m /\ 0 <= snd m).
  { clear. induction r as [|x r IH]; intros a b H A B; cbn [fold_left fst snd]; [auto|].
    assert (0 <= x) by (apply H; cbn; auto). apply IH; [intros; apply H; cbn; auto|rmm; lra|rmm; lra]. }
  apply G; [intros; apply H; cbn; auto|apply H; cbn; auto|]. assert (0 <= d) by (apply H; cbn; auto). rmm; lra.
Qed.
Lemma minmax_pos b p : 0 <= fst (min_max_dist2_2 b p) /\ 0 <= snd (min_max_dist2_2 b p).
Proof.
  unfold min_max_dist2_2. set (a := box_translate2 b (scale2 (-1) p)).
  destruct (minmax_fold_pos (map norm2sq (vertices2 a))) as (P & Q).
  { intros x X. apply in_map_iff in X. destruct X as (w & <- & _). apply norm2sq_nonneg. }
  destruct (minmax_fold (map norm2sq (vertices2 a))) as (mn, mx). cbn [fst snd] in *.
  cbv beta zeta.
  repeat match goal with |- context [if ?c then _ else _] => destruct c end; cbn [fst snd]; split; auto; try lra;
    repeat apply Rmin_glb; auto; apply Rle_0_sqr.
Qed.
Theorem C49_inside_partial ss p : ss <> [] -> (forall s, In s ss -> ev2 s p < 0 -> in2 (bb2 s) p) ->
  (union_eval2 Rmin ss p < 0 <-> exists s, In s ss /\ ev2 s p < 0).
Proof.
  intros NE H. destruct ss as [|a l]; [congruence|]. set (ss := a :: l) in *. split.
  { intros V. destruct (union_eval2_att a l p) as (y & Y & Ey). fold ss in Y, Ey. exists y. split; [exact Y|lra]. }
  intros (x & X & Vx). eapply Rle_lt_trans; [|exact Vx].
  unfold union_eval2. set (vs := map (fun s => min_max_dist2_2 (bb2 s) p) ss). set (mi := least_index 0 (-1) 0 vs).
  assert (Pos : forall v, In v vs -> 0 <= fst v /\ 0 <= snd v).
  { intros v I. apply in_map_iff in I. destruct I as (s & <- & _). apply minmax_pos. }
  destruct (least_index_shape vs 0 (-1) 0 [] vs eq_refl eq_refl (fun v I => proj1 (Pos v I))) as (Lt & Min); [left; split; [lra|reflexivity]|left; discriminate|]. fold mi in Lt, Min.
  set (vm := nth mi vs (0, 0)) in *. assert (Im : In vm vs) by (apply nth_In, Lt).
  destruct (In_nth_error ss x X) as (k & Nk).
  assert (Comb : forall k s, nth_error ss k = Some s -> nth_error (combine ss vs) k = Some (s, min_max_dist2_2 (bb2 s) p)).
  { unfold vs. generalize ss. clear. intros ss. induction ss as [|t ss IH]; intros k s N; [destruct k; discriminate|].
    destruct k; cbn in *; [now inversion N|auto]. }
  eapply loop_le; [apply Comb, Nk|]. apply orb_true_iff. right. unfold overlap.
  pose proof (H x X Vx) as B. destruct (C54_minmaxdist2_2d (bb2 x) p) as ((_ & Mn) & _); [eapply ok2_of; eauto|]. specialize (Mn p B).
  replace (sub2 p p) with zero2 in Mn by (apply v2_ext; cbn; ring). replace (norm2sq zero2) with 0 in Mn by (unfold norm2sq, dot2; cbn; ring).
  assert (Ix : In (min_max_dist2_2 (bb2 x) p) vs) by (apply in_map_iff; eauto).
  pose proof (Min _ Ix). pose proof (Pos _ Ix). pose proof (Pos _ Im). apply andb_true_iff. rewrite !Rleb_true. lra.
Qed.

(** Every exact non-empty shape is honest; so are placed circles, boxes, lines. *)
Lemma exact2_honest s S : exact2 s S -> (exists q, S q) -> honest s.
Proof.
  intros E (q & Q). split.
  - intros p. destruct E as (D & B). eapply sdist_near; eauto.
  - eapply exact2_lip; eauto.
  - exists q. destruct E as (D & B). split; [auto|]. destruct (D q) as (D1 & _). destruct (Rle_or_lt (ev2 s q) 0) as [L|L]; [exact L|].
    destruct D1 as (_ & N); [lra|]. specialize (N q Q). rewrite dist2_refl in N. exact N.
Qed.
Definition disc (c : v2) (r : R) : sdf2 := S2 (fun p => norm2 (sub2 p c) - r) (Box2 (sub2 c (V2 r r)) (add2 c (V2 r r))).
Lemma disc_exact c r : 0 <= r -> exact2 (disc c r) (fun p => norm2 (sub2 p c) <= r).
Proof.
  intros Hr. split.
  - intros p. cbn [ev2 disc]. destruct (C57_circle r (S2 (fun p => norm2 p - r) (Box2 (scale2 (-1) (V2 r r)) (V2 r r)))) as (D & _).
    { unfold must_circle. rewrite (proj2 (Rltb_false r 0)) by lra. reflexivity. }
    specialize (D (sub2 p c)). cbn [ev2] in D. destruct D as (D1 & D2).
    assert (T : forall a b, dist2 (sub2 a c) b = dist2 a (add2 b c)) by (intros; unfold dist2; f_equal; apply v2_ext; cbn; ring).
    assert (U : forall b, sub2 (add2 b c) c = b) by (intros; apply v2_ext; cbn; ring).
    assert (W : forall b, add2 (sub2 b c) c = b) by (intros; apply v2_ext; cbn; ring).
    split; intros L.
    + destruct (D1 L) as ((q & Q & D) & N). split.
      * exists (add2 q c). rewrite U, <- T. split; [exact Q|exact D].
      * intros q' Q'. specialize (N (sub2 q' c) Q'). rewrite T, W in N. exact N.
    + destruct (D2 L) as (I & N). split.
      * intros q Q. apply I. rewrite T, W. exact Q.
      * intros e He. destruct (N e He) as (q & Q & D). exists (add2 q c). rewrite U, <- T. split; [exact Q|exact D].
  - intros p L. destruct (abs_le_norm2 (sub2 p c)) as (X & Y). unfold in2; cbn in *. revert X Y L. clear. rmm; lra.
Qed.
Example C49_example : exists ss : list sdf2, length ss = 3%nat /\ (forall s, In s ss -> honest s) /\ overlap (min_max_dist2_2 (bb2 (nth 0 ss (disc zero2 1))) zero2) (min_max_dist2_2 (bb2 (nth 1 ss (disc zero2 1))) zero2) = false.
Proof.
  exists [disc zero2 1; disc (V2 10 0) 1; disc (V2 1 0) 2]. split; [reflexivity|]. split.
  - intros s S. cbn in S. assert (H : forall c r, 0 <= r -> honest (disc c r)).
    { intros c r Hr. eapply exact2_honest; [apply disc_exact, Hr|]. exists c. replace (sub2 c c) with zero2 by (apply v2_ext; cbn; ring).
      replace (norm2 zero2) with 0; [lra|]. unfold norm2, norm2sq, dot2; cbn. rewrite !Rmult_0_l, Rplus_0_l, sqrt_0. reflexivity. }
    destruct S as [<-|[<-|[<-|[]]]]; apply H; lra.
  - cbn [nth]. rewrite !mmd2_value by (unfold ok2; cbn; lra). unfold overlap. cbn [fst snd]. apply andb_false_iff. left. apply Rleb_false. cbn. unfold lo1, hi1. rcase; rmm; lra.
Qed.

Local Transparent max_float64.
Lemma max_float64_big : 1000 < max_float64.
Proof.
  unfold max_float64. assert (1 <= 2 ^ 1013) by (apply pow_R1_Rle; lra). replace 1023%nat with (10 + 1013)%nat by reflexivity. rewrite pow_add.
    assert (/ 2 ^ 52 <= 1) by (rewrite <- Rinv_1; apply Rinv_le_contravar; [lra|apply pow_R1_Rle; lra]). set (t := 2 ^ 1013) in *. set (u := / 2 ^ 52) in *. clearbody t u. cbn [pow]. nra.
Qed.
Global Opaque max_float64.
(** Not for every list of shapes.  A member whose Bounds is not where its values come from
    (the documented Empty2 at a point) hides the others: at (5,0) the union reports the
    empty shape's value although the disc is 4 away. *)
Lemma hi_lo_point c p : c = p -> min_max_dist2_2 (Box2 c c) p = (0, 0).
Proof.
  intros ->. rewrite mmd2_value by (unfold ok2; cbn; lra). cbn [min2 max2]. unfold lo1, hi1. rcase; try lra; f_equal; rmm; nra.
Qed.
Theorem C49_empty_refuted : exists a b s, union2d [Some a; Some b] = Ok s /\ b = empty2 (V2 5 0) /\ must_circle 1 = Ok a /\ ev2 s (V2 5 0) = max_float64 /\ union_eval2_slow Rmin [a; b] (V2 5 0) = 4.
Proof.
  set (a := S2 (fun p => norm2 p - 1) (Box2 (scale2 (-1) (V2 1 1)) (V2 1 1))).
  exists a, (empty2 (V2 5 0)), (S2 (union_eval2 Rmin [a; empty2 (V2 5 0)]) (union_box2 a [a; empty2 (V2 5 0)])).
  assert (N5 : norm2 (V2 5 0) = 5).
  { unfold norm2, norm2sq, dot2; cbn [x2 y2]. replace (5 * 5 + 0 * 0) with (Rsqr 5) by (unfold Rsqr; ring). apply sqrt_Rsqr; lra. }
  assert (Big : 4 < max_float64).
  { pose proof max_float64_big. lra. }
  split; [reflexivity|]. split; [reflexivity|]. split; [unfold must_circle; rewrite (proj2 (Rltb_false 1 0)) by lra; reflexivity|]. split.
  - cbn [ev2]. unfold union_eval2. cbn [map].
    replace (min_max_dist2_2 (bb2 (empty2 (V2 5 0))) (V2 5 0)) with (0, 0) by (symmetry; cbn [bb2 empty2]; apply hi_lo_point; reflexivity).
    rewrite mmd2_value by (unfold ok2, a; cbn; lra).
    set (lo := lo1 _ _ + lo1 _ _). set (hi := hi1 _ _ + hi1 _ _).
    assert (L : lo = 16) by (unfold lo, a, lo1; cbn; rcase; rmm; lra).
    clearbody hi. rewrite L. cbn [least_index fst snd].
    rewrite (proj2 (Rltb_true (-1) 0)) by lra. cbn [orb]. rewrite (proj2 (Rltb_true 0 16)) by lra. rewrite orb_true_r.
    cbn [nth combine union2_loop Nat.eqb orb]. unfold overlap. cbn [fst snd]. rewrite (proj2 (Rleb_false 16 0)) by lra. reflexivity.
  - unfold union_eval2_slow, a. cbn [fold_left ev2 empty2]. rewrite N5. rewrite Rmin_left; lra.
Qed.
(** With a blending minimum set the culled evaluation also differs: two discs 10 apart
    blended over a distance of 20. *)
Theorem C49_blend_refuted : exists ss p, (forall s, In s ss -> honest s) /\ union_eval2 (fun a b => min_poly 2 20 a b) ss p = -1 /\ union_eval2_slow (fun a b => min_poly 2 20 a b) ss p = - (9/4).
Proof.
  exists [disc zero2 1; disc (V2 10 0) 1], zero2.
  assert (N0 : norm2 (sub2 zero2 zero2) = 0) by (unfold norm2, norm2sq, dot2; cbn; match goal with |- sqrt ?e = 0 => replace e with 0 by ring end; apply sqrt_0).
  assert (N10 : norm2 (sub2 zero2 (V2 10 0)) = 10).
  { unfold norm2, norm2sq, dot2; cbn [x2 y2 sub2 zero2]. replace (_ + _) with (Rsqr 10) by (unfold Rsqr; ring). apply sqrt_Rsqr; lra. }
  split; [|split].
  - intros s S. cbn in S. assert (H : forall c, honest (disc c 1)).
    { intros c. eapply exact2_honest; [apply disc_exact; lra|]. exists c. replace (sub2 c c) with (sub2 zero2 zero2) by (apply v2_ext; cbn; ring). rewrite N0; lra. }
    destruct S as [<-|[<-|[]]]; apply H.
  - unfold union_eval2. cbn [map]. rewrite !mmd2_value by (unfold ok2; cbn; lra). cbn [bb2 disc min2 max2 sub2 add2 zero2 x2 y2].
    set (lo := lo1 _ _ + lo1 _ _). set (hi := hi1 _ _ + hi1 _ _). set (lo' := lo1 _ _ + lo1 _ _). set (hi' := hi1 _ _ + hi1 _ _).
    assert (L : lo = 0) by (unfold lo, lo1; rcase; rmm; lra). assert (Hh : hi = 2) by (unfold hi, hi1; rcase; rmm; lra).
    assert (L' : lo' = 81) by (unfold lo', lo1; rcase; rmm; lra). clearbody lo hi lo' hi'. subst lo hi lo'.
    cbn [least_index fst snd]. rewrite (proj2 (Rltb_true (-1) 0)) by lra. cbn [orb].
    rewrite (proj2 (Rltb_false 0 0)), (proj2 (Rltb_false 81 0)) by lra. cbn [orb nth combine union2_loop Nat.eqb ev2 disc].
    unfold overlap. cbn [fst snd]. rewrite (proj2 (Rleb_false 81 2)) by lra. cbn [andb]. rewrite N0. lra.
  - unfold union_eval2_slow. cbn [fold_left ev2 disc]. rewrite N0, N10. unfold min_poly, min_quad. cbn [Z.ltb Z.compare Z.eqb Pos.eqb orb].
    rewrite (proj2 (Rleb_false 20 0)) by lra. rmm; lra.
Qed.
