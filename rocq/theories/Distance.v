(** Exact signed distance to a closed solid, in a space whose points can be joined
    by segments, and the distance to a core grown by a rounding radius. *)
From Coq Require Import Reals Lra List Bool.
From Verif Require Import Prelude Vec Grades.
Local Open Scope R_scope.

(** [v] is the signed distance from [p] to the solid [S]: outside, the least
    distance to a point of [S], attained; inside, minus the radius of the largest
    ball around [p] inside [S]. *)
Definition sdist {V} (d : V -> V -> R) (S : V -> Prop) (p : V) (v : R) : Prop :=
  (0 <= v -> (exists q, S q /\ d p q <= v) /\ forall q, S q -> v <= d p q) /\
  (v <= 0 -> (forall q, d p q <= - v -> S q) /\ forall e, 0 < e -> exists q, ~ S q /\ d p q < - v + e).

(** [D] measures a core set: distance outside, depth inside, and every point can
    be moved straight away from the core. *)
Record core {V} (d : V -> V -> R) (C : V -> Prop) (D : V -> R) : Prop := {
  core_near : forall p, 0 <= D p -> exists c, C c /\ d p c = D p;
  core_least : forall p c, C c -> D p <= d p c;
  core_depth : forall p q, D p <= 0 -> d p q <= - D p -> C q;
  core_away : forall p t, 0 <= t -> D p <= t -> exists q, d p q = t - D p /\ forall c, C c -> t <= d q c }.
Definition rounded {V} (d : V -> V -> R) (C : V -> Prop) (r : R) (p : V) : Prop := exists c, C c /\ d p c <= r.

Section Metric.
Context {V : Type} (d : V -> V -> R).
Hypothesis d_refl : forall p, d p p = 0.
Hypothesis d_sym : forall p q, d p q = d q p.
Hypothesis d_nonneg : forall p q, 0 <= d p q.
Hypothesis d_tri : forall p q r, d p r <= d p q + d q r.
Hypothesis d_seg : forall p q t, 0 <= t <= d p q -> exists x, d p x = t /\ d x q = d p q - t.

Lemma core_round C D r p : core d C D -> 0 <= r -> sdist d (rounded d C r) p (D p - r).
Proof.
  intros K R. split; intros H.
  - destruct (core_near _ _ _ K p) as (c & Cc & E); [lra|]. split.
    + destruct (d_seg p c (D p - r)) as (x & X1 & X2); [lra|]. exists x. split; [exists c; split; [auto|lra]|lra].
    + intros q (c' & Cc' & L). pose proof (core_least _ _ _ K p c' Cc'). pose proof (d_tri p q c'). lra.
  - split.
    + intros q Q. destruct (Rle_or_lt 0 (D p)) as [P|P].
      * destruct (core_near _ _ _ K p P) as (c & Cc & E). exists c. split; [auto|].
        pose proof (d_tri q p c). rewrite (d_sym q p) in *. lra.
      * destruct (Rle_or_lt (d p q) (- D p)) as [L|L].
        -- exists q. split; [apply (core_depth _ _ _ K p q); lra|]. rewrite d_refl. lra.
        -- destruct (d_seg p q (- D p)) as (x & X1 & X2); [lra|]. exists x.
           split; [apply (core_depth _ _ _ K p x); lra|]. rewrite d_sym. lra.
    + intros e He. destruct (core_away _ _ _ K p (r + e / 2)) as (q & Q & L); [lra|lra|].
      exists q. split; [|lra]. intros (c & Cc & B). specialize (L c Cc). lra.
Qed.
Lemma sdist_in S p v : sdist d S p v -> (v <= 0 <-> S p).
Proof.
  intros (H1 & H2). split.
  - intros L. apply (H2 L). rewrite d_refl. lra.
  - intros I. apply Rnot_lt_le. intros L. destruct H1 as (_ & H1); [lra|]. specialize (H1 p I). rewrite d_refl in H1. lra.
Qed.
(** The signed distance is determined by the solid. *)
Lemma sdist_unique S p v w : sdist d S p v -> sdist d S p w -> v = w.
Proof.
  intros A B. pose proof (sdist_in _ _ _ A) as IA. pose proof (sdist_in _ _ _ B) as IB. destruct A as (A1 & A2), B as (B1 & B2).
  destruct (Rle_or_lt v 0) as [L|L].
  - assert (W : w <= 0) by tauto. destruct (A2 L) as (A3 & A4). destruct (B2 W) as (B3 & B4).
    apply Rle_antisym; apply Rnot_lt_le; intros K.
    + destruct (A4 (v - w)) as (q & Q & D); [lra|]. apply Q, B3. lra.
    + destruct (B4 (w - v)) as (q & Q & D); [lra|]. apply Q, A3. lra.
  - assert (W : 0 < w) by (apply Rnot_le_lt; intros K; apply IB, IA in K; lra).
    destruct A1 as ((a & Sa & Da) & A1); [lra|]. destruct B1 as ((b & Sb & Db) & B1); [lra|].
    specialize (A1 b Sb). specialize (B1 a Sa). lra.
Qed.
Lemma sdist_near S (B : V -> Prop) p v : sdist d S p v -> (forall q, S q -> B q) -> near d B p v.
Proof.
  intros (H1 & H2) I. split; intros L.
  - destruct (H1 L) as ((q & Q & D) & _). eauto.
  - intros q Q. apply I. now apply H2; [lra|].
Qed.
Lemma sdist_lip_le S f p q : (forall p, sdist d S p (f p)) -> f q - f p <= d p q.
Proof.
  intros H. destruct (H p) as (P1 & P2). destruct (H q) as (Q1 & Q2).
  destruct (Rle_or_lt 0 (f p)) as [A|A].
  - destruct (P1 A) as ((c & Sc & Dc) & _). destruct (Rle_or_lt 0 (f q)) as [B|B]; [|pose proof (d_nonneg p q); lra].
    destruct (Q1 B) as (_ & L). specialize (L c Sc). pose proof (d_tri q p c). rewrite (d_sym q p) in *. lra.
  - destruct P2 as (P2 & P3); [lra|]. destruct (Rle_or_lt (f q) 0) as [B|B].
    + destruct (Q2 B) as (_ & Q3). apply Rnot_lt_le. intros K.
      destruct (Q3 (f q - f p - d p q)) as (x & X & L); [lra|]. apply X, P2. pose proof (d_tri p q x). lra.
    + destruct Q1 as (_ & Q1); [lra|]. apply Rnot_lt_le. intros K.
      destruct (Rle_or_lt (d p q) (- f p)) as [M|M].
      * specialize (Q1 q (P2 q M)). rewrite d_refl in Q1. lra.
      * destruct (d_seg p q (- f p)) as (x & X1 & X2); [lra|].
        assert (Sx : S x) by (apply P2; lra). specialize (Q1 x Sx). rewrite d_sym in Q1. lra.
Qed.
End Metric.

Lemma seg3 p q t : 0 <= t <= dist3 p q -> exists x, dist3 p x = t /\ dist3 x q = dist3 p q - t.
Proof.
  intros T. destruct (Req_dec (dist3 p q) 0) as [Z|Z].
  - exists p. rewrite dist3_refl. split; lra.
  - set (k := t / dist3 p q). assert (K : k * dist3 p q = t) by (unfold k; field; auto).
    assert (0 <= k <= 1) by (pose proof (dist3_nonneg p q); split; nra).
    exists (add3 p (scale3 k (sub3 q p))). split.
    + rewrite dist3_sym. unfold dist3. replace (sub3 _ p) with (scale3 k (sub3 q p)) by (apply v3_ext; cbn; ring).
      rewrite norm3_scale. change (norm3 (sub3 q p)) with (dist3 q p). rewrite dist3_sym, Rabs_right by lra. exact K.
    + rewrite dist3_sym. unfold dist3. replace (sub3 q _) with (scale3 (1 - k) (sub3 q p)) by (apply v3_ext; cbn; ring).
      rewrite norm3_scale. change (norm3 (sub3 q p)) with (dist3 q p). change (norm3 (sub3 p q)) with (dist3 p q).
      rewrite (dist3_sym q p), Rabs_right by lra. lra.
Qed.
Lemma seg2 p q t : 0 <= t <= dist2 p q -> exists x, dist2 p x = t /\ dist2 x q = dist2 p q - t.
Proof.
  intros T. destruct (Req_dec (dist2 p q) 0) as [Z|Z].
  - exists p. rewrite dist2_refl. split; lra.
  - set (k := t / dist2 p q). assert (K : k * dist2 p q = t) by (unfold k; field; auto).
    assert (0 <= k <= 1) by (pose proof (dist2_nonneg p q); split; nra).
    exists (add2 p (scale2 k (sub2 q p))). split.
    + rewrite dist2_sym. unfold dist2. replace (sub2 _ p) with (scale2 k (sub2 q p)) by (apply v2_ext; cbn; ring).
      rewrite norm2_scale. change (norm2 (sub2 q p)) with (dist2 q p). rewrite dist2_sym, Rabs_right by lra. exact K.
    + rewrite dist2_sym. unfold dist2. replace (sub2 q _) with (scale2 (1 - k) (sub2 q p)) by (apply v2_ext; cbn; ring).
      rewrite norm2_scale. change (norm2 (sub2 q p)) with (dist2 q p). change (norm2 (sub2 p q)) with (dist2 p q).
      rewrite (dist2_sym q p), Rabs_right by lra. lra.
Qed.
Lemma core_round3 C D r p : core dist3 C D -> 0 <= r -> sdist dist3 (rounded dist3 C r) p (D p - r).
Proof. apply core_round; auto using dist3_refl, dist3_sym, dist3_nonneg, dist3_triangle, seg3. Qed.
Lemma core_round2 C D r p : core dist2 C D -> 0 <= r -> sdist dist2 (rounded dist2 C r) p (D p - r).
Proof. apply core_round; auto using dist2_refl, dist2_sym, dist2_nonneg, dist2_triangle, seg2. Qed.
Lemma sdist_lip3 S f : (forall p, sdist dist3 S p (f p)) -> lip3 f.
Proof.
  intros H p q. assert (L : forall p q, f q - f p <= dist3 p q).
  { intros a b. apply (sdist_lip_le dist3) with (S := S); auto using dist3_refl, dist3_sym, dist3_nonneg, dist3_triangle, seg3. }
  pose proof (L p q). pose proof (L q p). rewrite (dist3_sym q p) in *. unfold Rabs. destruct (Rcase_abs _); lra.
Qed.
Lemma sdist_lip2 S f : (forall p, sdist dist2 S p (f p)) -> lip2 f.
Proof.
  intros H p q. assert (L : forall p q, f q - f p <= dist2 p q).
  { intros a b. apply (sdist_lip_le dist2) with (S := S); auto using dist2_refl, dist2_sym, dist2_nonneg, dist2_triangle, seg2. }
  pose proof (L p q). pose proof (L q p). rewrite (dist2_sym q p) in *. unfold Rabs. destruct (Rcase_abs _); lra.
Qed.

(** ** Cores *)
(** A single point. *)
Lemma core_point3 : core dist3 (fun c => c = zero3) norm3.
Proof.
  assert (Z : forall p, dist3 p zero3 = norm3 p) by (intros p; unfold dist3; f_equal; apply v3_ext; cbn; ring).
  constructor.
  - intros p _. exists zero3. auto.
  - intros p c ->. rewrite Z. lra.
  - intros p q H D. pose proof (norm3_nonneg p). assert (E : norm3 p = 0) by lra. apply norm3_zero_iff in E. subst p.
    rewrite dist3_sym, Z in D. apply norm3_zero_iff. pose proof (norm3_nonneg q). lra.
  - intros p t T L. destruct (Req_dec (norm3 p) 0) as [N|N].
    + exists (V3 t 0 0). assert (E : norm3 (V3 t 0 0) = t).
      { unfold norm3, norm3sq, dot3; cbn. replace (_ + _) with (t * t) by ring. now apply sqrt_square. }
      split; [|intros c ->; rewrite Z; lra]. apply norm3_zero_iff in N. subst p. rewrite dist3_sym, Z, E.
      rewrite (proj2 (norm3_zero_iff zero3)) by reflexivity. lra.
    + pose proof (norm3_nonneg p). set (k := t / norm3 p). assert (K : k * norm3 p = t) by (unfold k; field; auto).
      assert (1 <= k) by nra. exists (scale3 k p). split.
      * rewrite dist3_sym. unfold dist3. replace (sub3 (scale3 k p) p) with (scale3 (k - 1) p) by (apply v3_ext; cbn; ring).
        rewrite norm3_scale, Rabs_right; lra.
      * intros c ->. rewrite Z, norm3_scale, Rabs_right; lra.
Qed.
Lemma core_point2 : core dist2 (fun c => c = zero2) norm2.
Proof.
  assert (Z : forall p, dist2 p zero2 = norm2 p) by (intros p; unfold dist2; f_equal; apply v2_ext; cbn; ring).
  constructor.
  - intros p _. exists zero2. auto.
  - intros p c ->. rewrite Z. lra.
  - intros p q H D. pose proof (norm2_nonneg p). assert (E : norm2 p = 0) by lra. apply norm2_zero_iff in E. subst p.
    rewrite dist2_sym, Z in D. apply norm2_zero_iff. pose proof (norm2_nonneg q). lra.
  - intros p t T L. destruct (Req_dec (norm2 p) 0) as [N|N].
    + exists (V2 t 0). assert (E : norm2 (V2 t 0) = t).
      { unfold norm2, norm2sq, dot2; cbn. replace (_ + _) with (t * t) by ring. now apply sqrt_square. }
      split; [|intros c ->; rewrite Z; lra]. apply norm2_zero_iff in N. subst p. rewrite dist2_sym, Z, E.
      rewrite (proj2 (norm2_zero_iff zero2)) by reflexivity. lra.
    + pose proof (norm2_nonneg p). set (k := t / norm2 p). assert (K : k * norm2 p = t) by (unfold k; field; auto).
      assert (1 <= k) by nra. exists (scale2 k p). split.
      * rewrite dist2_sym. unfold dist2. replace (sub2 (scale2 k p) p) with (scale2 (k - 1) p) by (apply v2_ext; cbn; ring).
        rewrite norm2_scale, Rabs_right; lra.
      * intros c ->. rewrite Z, norm2_scale, Rabs_right; lra.
Qed.
