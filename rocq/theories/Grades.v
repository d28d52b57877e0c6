(** How well the Bounds of a shape bound its distance field.

    Three grades, each for the values below a limit [m] (shapes whose minimum
    starts from math.MaxFloat64 say nothing above it):
    - Euclid: the value is at least the signed Euclidean distance to the box;
    - Axis: the point lies in the box grown on every side by the value;
    - Contain: points with a negative value lie in the box.
    The lemmas follow one grade through the constructors of sdf3.go and sdf2.go. *)
From Coq Require Import Reals Lra Lia List Bool ZArith.
From Verif Require Import Prelude Vec BoxModel PropsBox MatrixModel PropsMatrix SdfModel PropsBool SdfLemmas.
Import ListNotations.
Local Open Scope R_scope.

Inductive grade := Euclid | Axis | Contain.

(** [v] is at least the signed distance from [p] to the set [B]. *)
Definition near {V} (d : V -> V -> R) (B : V -> Prop) (p : V) (v : R) : Prop :=
  (0 <= v -> exists q, B q /\ d p q <= v) /\ (v < 0 -> forall q, d p q <= - v -> B q).

Definition grow3 (b : box3) (r : R) : box3 := Box3 (sub3 (min3 b) (elem3 r)) (add3 (max3 b) (elem3 r)).
Definition grow2 (b : box2) (r : R) : box2 := Box2 (sub2 (min2 b) (elem2 r)) (add2 (max2 b) (elem2 r)).
Definition G3 (g : grade) (b : box3) (p : v3) (v : R) : Prop :=
  match g with
  | Euclid => near dist3 (in3 b) p v
  | Axis => in3 (grow3 b v) p
  | Contain => v < 0 -> in3 b p
  end.
Definition G2 (g : grade) (b : box2) (p : v2) (v : R) : Prop :=
  match g with
  | Euclid => near dist2 (in2 b) p v
  | Axis => in2 (grow2 b v) p
  | Contain => v < 0 -> in2 b p
  end.
Definition dom3 (g : grade) (m : R) (s : sdf3) : Prop := forall p, ev3 s p < m -> G3 g (bb3 s) p (ev3 s p).
Definition dom2 (g : grade) (m : R) (s : sdf2) : Prop := forall p, ev2 s p < m -> G2 g (bb2 s) p (ev2 s p).

(** ** Basic facts *)
Lemma near_mono {V} (d : V -> V -> R) (B C : V -> Prop) p v w :
  d p p = 0 -> (forall q, 0 <= d p q) -> (forall q, B q -> C q) -> v <= w -> near d B p v -> near d C p w.
Proof.
  intros Z N S L (H1 & H2). split; intros W.
  - destruct (Rle_or_lt 0 v) as [K|K].
    + destruct (H1 K) as (q & I & D). exists q. split; [auto|lra].
    + exists p. split; [apply S, H2; lra|lra].
  - intros q D. apply S, H2; lra.
Qed.
Definition box_le3 (a b : box3) :=
  (x3 (min3 b) <= x3 (min3 a) /\ y3 (min3 b) <= y3 (min3 a) /\ z3 (min3 b) <= z3 (min3 a)) /\
  (x3 (max3 a) <= x3 (max3 b) /\ y3 (max3 a) <= y3 (max3 b) /\ z3 (max3 a) <= z3 (max3 b)).
Definition box_le2 (a b : box2) :=
  (x2 (min2 b) <= x2 (min2 a) /\ y2 (min2 b) <= y2 (min2 a)) /\
  (x2 (max2 a) <= x2 (max2 b) /\ y2 (max2 a) <= y2 (max2 b)).
Lemma box_le3_in a b p : box_le3 a b -> in3 a p -> in3 b p.
Proof. unfold box_le3, in3. lra. Qed.
Lemma box_le2_in a b p : box_le2 a b -> in2 a p -> in2 b p.
Proof. unfold box_le2, in2. lra. Qed.
Lemma box_le3_refl a : box_le3 a a.
Proof. unfold box_le3. lra. Qed.
Lemma box_le2_refl a : box_le2 a a.
Proof. unfold box_le2. lra. Qed.
Lemma box_le3_trans a b c : box_le3 a b -> box_le3 b c -> box_le3 a c.
Proof. unfold box_le3. lra. Qed.
Lemma box_le2_trans a b c : box_le2 a b -> box_le2 b c -> box_le2 a c.
Proof. unfold box_le2. lra. Qed.

Lemma G3_mono g a b p v w : box_le3 a b -> v <= w -> G3 g a p v -> G3 g b p w.
Proof.
  intros L W H. destruct g; cbn [G3] in *.
  - eapply near_mono; [apply dist3_refl|apply dist3_nonneg| |exact W|exact H]. intros q. now apply box_le3_in.
  - unfold box_le3, in3, grow3 in *; cbn in *. lra.
  - intros N. eapply box_le3_in; [exact L|]. apply H. lra.
Qed.
Lemma G2_mono g a b p v w : box_le2 a b -> v <= w -> G2 g a p v -> G2 g b p w.
Proof.
  intros L W H. destruct g; cbn [G2] in *.
  - eapply near_mono; [apply dist2_refl|apply dist2_nonneg| |exact W|exact H]. intros q. now apply box_le2_in.
  - unfold box_le2, in2, grow2 in *; cbn in *. lra.
  - intros N. eapply box_le2_in; [exact L|]. apply H. lra.
Qed.
Lemma near3_axis b p v : near dist3 (in3 b) p v -> in3 (grow3 b v) p.
Proof.
  intros (H1 & H2). destruct (Rle_or_lt 0 v) as [K|K].
  - destruct (H1 K) as (q & I & D). unfold dist3 in D.
    destruct (abs_le_norm3 (sub3 p q)) as (A & B & C). cbn in A, B, C.
    unfold in3, grow3 in *; cbn. rmm; lra.
  - assert (X : forall q, norm3 q = - v -> in3 b (add3 p q)).
    { intros q E. apply H2; auto. unfold dist3. replace (sub3 p (add3 p q)) with (scale3 (-1) q) by (apply v3_ext; cbn; ring).
      rewrite norm3_scale, E. rmm; lra. }
    assert (N : forall a, norm3 (V3 a 0 0) = Rabs a /\ norm3 (V3 0 a 0) = Rabs a /\ norm3 (V3 0 0 a) = Rabs a).
    { intros a. unfold norm3, norm3sq, dot3; cbn. rewrite <- !sqrt_Rsqr_abs. unfold Rsqr.
      split; [|split]; f_equal; ring. }
    assert (Av : Rabs v = - v) by (rmm; lra).
    assert (Av' : Rabs (- v) = - v) by (rewrite Rabs_Ropp; exact Av).
    destruct (N v) as (N1 & N2 & N3). destruct (N (- v)) as (N4 & N5 & N6). rewrite Av in N1, N2, N3. rewrite Av' in N4, N5, N6.
    apply X in N1, N2, N3, N4, N5, N6. unfold in3, grow3 in *; cbn in *. lra.
Qed.
Lemma near2_axis b p v : near dist2 (in2 b) p v -> in2 (grow2 b v) p.
Proof.
  intros (H1 & H2). destruct (Rle_or_lt 0 v) as [K|K].
  - destruct (H1 K) as (q & I & D). unfold dist2 in D.
    destruct (abs_le_norm2 (sub2 p q)) as (A & B). cbn in A, B.
    unfold in2, grow2 in *; cbn. rmm; lra.
  - assert (X : forall q, norm2 q = - v -> in2 b (add2 p q)).
    { intros q E. apply H2; auto. unfold dist2. replace (sub2 p (add2 p q)) with (scale2 (-1) q) by (apply v2_ext; cbn; ring).
      rewrite norm2_scale, E. rmm; lra. }
    assert (N : forall a, norm2 (V2 a 0) = Rabs a /\ norm2 (V2 0 a) = Rabs a).
    { intros a. unfold norm2, norm2sq, dot2; cbn. rewrite <- !sqrt_Rsqr_abs. unfold Rsqr.
      split; f_equal; ring. }
    assert (Av : Rabs v = - v) by (rmm; lra).
    assert (Av' : Rabs (- v) = - v) by (rewrite Rabs_Ropp; exact Av).
    destruct (N v) as (N1 & N2). destruct (N (- v)) as (N4 & N5). rewrite Av in N1, N2. rewrite Av' in N4, N5.
    apply X in N1, N2, N4, N5. unfold in2, grow2 in *; cbn in *. lra.
Qed.
Lemma axis3_contain b p v : in3 (grow3 b v) p -> v < 0 -> in3 b p.
Proof. unfold in3, grow3; cbn. lra. Qed.
Lemma axis2_contain b p v : in2 (grow2 b v) p -> v < 0 -> in2 b p.
Proof. unfold in2, grow2; cbn. lra. Qed.
Lemma G3_contain g b p v : G3 g b p v -> v < 0 -> in3 b p.
Proof.
  destruct g; cbn [G3]; intros H N; auto.
  - apply (proj2 H N p). rewrite dist3_refl. lra.
  - eapply axis3_contain; eauto.
Qed.
Lemma G2_contain g b p v : G2 g b p v -> v < 0 -> in2 b p.
Proof.
  destruct g; cbn [G2]; intros H N; auto.
  - apply (proj2 H N p). rewrite dist2_refl. lra.
  - eapply axis2_contain; eauto.
Qed.
(** Euclid implies Axis implies Contain. *)
Definition weaker (g h : grade) : bool :=
  match g, h with Euclid, _ | Axis, Axis | Axis, Contain | Contain, Contain => true | _, _ => false end.
Lemma G3_weaken g h b p v : weaker g h = true -> G3 g b p v -> G3 h b p v.
Proof.
  destruct g, h; cbn [weaker]; try discriminate; intros _ H; auto.
  - now apply near3_axis.
  - intros N. apply (G3_contain Euclid b p v H N).
  - intros N. now apply (G3_contain Axis b p v).
Qed.
Lemma G2_weaken g h b p v : weaker g h = true -> G2 g b p v -> G2 h b p v.
Proof.
  destruct g, h; cbn [weaker]; try discriminate; intros _ H; auto.
  - now apply near2_axis.
  - intros N. apply (G2_contain Euclid b p v H N).
  - intros N. now apply (G2_contain Axis b p v).
Qed.
Lemma dom3_weaken g h m s : weaker g h = true -> dom3 g m s -> dom3 h m s.
Proof. intros W H p L. eapply G3_weaken; eauto. Qed.
Lemma dom2_weaken g h m s : weaker g h = true -> dom2 g m s -> dom2 h m s.
Proof. intros W H p L. eapply G2_weaken; eauto. Qed.
Lemma dom3_contain g m s p : dom3 g m s -> 0 < m -> ev3 s p < 0 -> in3 (bb3 s) p.
Proof. intros H M N. eapply G3_contain; [apply H; lra|exact N]. Qed.
Lemma dom2_contain g m s p : dom2 g m s -> 0 < m -> ev2 s p < 0 -> in2 (bb2 s) p.
Proof. intros H M N. eapply G2_contain; [apply H; lra|exact N]. Qed.
Lemma dom3_lower g m m' s : m' <= m -> dom3 g m s -> dom3 g m' s.
Proof. intros L H p K. apply H. lra. Qed.
Lemma dom2_lower g m m' s : m' <= m -> dom2 g m s -> dom2 g m' s.
Proof. intros L H p K. apply H. lra. Qed.
(** For the Contain grade the limit does not matter. *)
Lemma dom3_contain_iff m s : 0 < m -> dom3 Contain m s <-> forall p, ev3 s p < 0 -> in3 (bb3 s) p.
Proof. intros M. split; intros H p L; [apply (H p); lra|intros N; auto]. Qed.
Lemma dom2_contain_iff m s : 0 < m -> dom2 Contain m s <-> forall p, ev2 s p < 0 -> in2 (bb2 s) p.
Proof. intros M. split; intros H p L; [apply (H p); lra|intros N; auto]. Qed.

(** Moving point and box together. *)
Lemma near_move {V} (d : V -> V -> R) (f : V -> V) (finv : V -> V) (B C : V -> Prop) p v :
  (forall a b, d (f a) (f b) = d a b) -> (forall a, f (finv a) = a) -> (forall q, B q -> C (f q)) ->
  near d B p v -> near d C (f p) v.
Proof.
  intros I F S (H1 & H2). split; intros W.
  - destruct (H1 W) as (q & Q & D). exists (f q). split; [auto|]. now rewrite I.
  - intros q D. rewrite <- (F q). apply S, H2; auto. rewrite <- I, F. exact D.
Qed.
Lemma G3_translate g b p c v : G3 g b p v -> G3 g (box_translate3 b c) (add3 p c) v.
Proof.
  destruct g; cbn [G3]; intros H.
  - revert H. apply near_move with (f := fun q => add3 q c) (finv := fun q => sub3 q c).
    + intros a e. unfold dist3. f_equal. apply v3_ext; cbn; ring.
    + intros a. apply v3_ext; cbn; ring.
    + intros q. unfold in3; cbn. lra.
  - unfold in3, grow3 in *; cbn in *. lra.
  - intros N. specialize (H N). unfold in3 in *; cbn in *. lra.
Qed.
Lemma G2_translate g b p c v : G2 g b p v -> G2 g (box_translate2 b c) (add2 p c) v.
Proof.
  destruct g; cbn [G2]; intros H.
  - revert H. apply near_move with (f := fun q => add2 q c) (finv := fun q => sub2 q c).
    + intros a e. unfold dist2. f_equal. apply v2_ext; cbn; ring.
    + intros a. apply v2_ext; cbn; ring.
    + intros q. unfold in2; cbn. lra.
  - unfold in2, grow2 in *; cbn in *. lra.
  - intros N. specialize (H N). unfold in2 in *; cbn in *. lra.
Qed.

(** Growing the set by [r] lowers the distance by [r]. *)
Lemma near_grow3 b p v r : 0 <= r -> near dist3 (in3 b) p v -> near dist3 (in3 (grow3 b r)) p (v - r).
Proof.
  intros R0 (H1 & H2).
  assert (In : forall q q', in3 b q -> dist3 q q' <= r -> in3 (grow3 b r) q').
  { intros q q' I D. unfold dist3 in D. destruct (abs_le_norm3 (sub3 q q')) as (A & B & C). cbn in A, B, C.
    unfold in3, grow3 in *; cbn. rmm; lra. }
  split; intros W.
  - destruct H1 as (q & I & D); [lra|]. destruct (Rle_or_lt (dist3 p q) r) as [K|K].
    + exists p. rewrite dist3_refl. split; [|lra]. apply (In q); [auto|]. now rewrite dist3_sym.
    + set (k := r / dist3 p q). assert (Dp : 0 < dist3 p q) by lra.
      assert (k0 : 0 <= k) by (unfold k; apply Rmult_le_pos; [lra|apply Rlt_le, Rinv_0_lt_compat; lra]).
      assert (Ek : k * dist3 p q = r) by (unfold k; field; lra).
      assert (k1 : k <= 1) by nra.
      exists (add3 q (scale3 k (sub3 p q))). split.
      * apply (In q); auto. unfold dist3. replace (sub3 _ _) with (scale3 (- k) (sub3 p q)) by (apply v3_ext; cbn; ring).
        rewrite norm3_scale, Rabs_Ropp, Rabs_right by lra. fold (dist3 p q). lra.
      * unfold dist3. replace (sub3 p _) with (scale3 (1 - k) (sub3 p q)) by (apply v3_ext; cbn; ring).
        rewrite norm3_scale, Rabs_right by lra. fold (dist3 p q). nra.
  - intros q D. destruct (Rle_or_lt 0 v) as [K|K].
    + destruct H1 as (q0 & I & D0); [lra|]. apply (In q0); [auto|].
      pose proof (dist3_triangle q0 p q). rewrite (dist3_sym q0 p) in *. lra.
    + set (k := (- v) / (r - v)).
      assert (k0 : 0 <= k) by (unfold k; apply Rmult_le_pos; [lra|apply Rlt_le, Rinv_0_lt_compat; lra]).
      assert (Ek : k * (r - v) = - v) by (unfold k; field; lra).
      assert (k1 : k <= 1) by nra.
      apply (In (add3 p (scale3 k (sub3 q p)))).
      * apply H2; auto. unfold dist3. replace (sub3 _ _) with (scale3 k (sub3 p q)) by (apply v3_ext; cbn; ring).
        rewrite norm3_scale, Rabs_right by lra. fold (dist3 p q). nra.
      * unfold dist3. replace (sub3 _ _) with (scale3 (1 - k) (sub3 p q)) by (apply v3_ext; cbn; ring).
        rewrite norm3_scale, Rabs_right by lra. fold (dist3 p q). nra.
Qed.
Lemma near_grow2 b p v r : 0 <= r -> near dist2 (in2 b) p v -> near dist2 (in2 (grow2 b r)) p (v - r).
Proof.
  intros R0 (H1 & H2).
  assert (In : forall q q', in2 b q -> dist2 q q' <= r -> in2 (grow2 b r) q').
  { intros q q' I D. unfold dist2 in D. destruct (abs_le_norm2 (sub2 q q')) as (A & B). cbn in A, B.
    unfold in2, grow2 in *; cbn. rmm; lra. }
  split; intros W.
  - destruct H1 as (q & I & D); [lra|]. destruct (Rle_or_lt (dist2 p q) r) as [K|K].
    + exists p. rewrite dist2_refl. split; [|lra]. apply (In q); [auto|]. now rewrite dist2_sym.
    + set (k := r / dist2 p q). assert (Dp : 0 < dist2 p q) by lra.
      assert (k0 : 0 <= k) by (unfold k; apply Rmult_le_pos; [lra|apply Rlt_le, Rinv_0_lt_compat; lra]).
      assert (Ek : k * dist2 p q = r) by (unfold k; field; lra).
      assert (k1 : k <= 1) by nra.
      exists (add2 q (scale2 k (sub2 p q))). split.
      * apply (In q); auto. unfold dist2. replace (sub2 _ _) with (scale2 (- k) (sub2 p q)) by (apply v2_ext; cbn; ring).
        rewrite norm2_scale, Rabs_Ropp, Rabs_right by lra. fold (dist2 p q). lra.
      * unfold dist2. replace (sub2 p _) with (scale2 (1 - k) (sub2 p q)) by (apply v2_ext; cbn; ring).
        rewrite norm2_scale, Rabs_right by lra. fold (dist2 p q). nra.
  - intros q D. destruct (Rle_or_lt 0 v) as [K|K].
    + destruct H1 as (q0 & I & D0); [lra|]. apply (In q0); [auto|].
      pose proof (dist2_triangle q0 p q). rewrite (dist2_sym q0 p) in *. lra.
    + set (k := (- v) / (r - v)).
      assert (k0 : 0 <= k) by (unfold k; apply Rmult_le_pos; [lra|apply Rlt_le, Rinv_0_lt_compat; lra]).
      assert (Ek : k * (r - v) = - v) by (unfold k; field; lra).
      assert (k1 : k <= 1) by nra.
      apply (In (add2 p (scale2 k (sub2 q p)))).
      * apply H2; auto. unfold dist2. replace (sub2 _ _) with (scale2 k (sub2 p q)) by (apply v2_ext; cbn; ring).
        rewrite norm2_scale, Rabs_right by lra. fold (dist2 p q). nra.
      * unfold dist2. replace (sub2 _ _) with (scale2 (1 - k) (sub2 p q)) by (apply v2_ext; cbn; ring).
        rewrite norm2_scale, Rabs_right by lra. fold (dist2 p q). nra.
Qed.
