(** Properties C06, C07, C13, C14 and C88 of the rendered triangles themselves:
    what the octree renderer streams, in terms of the field and the grid. *)
From Coq Require Import Reals List Permutation Bool ZArith Lia Lra Psatz.
From Verif Require Import Prelude OctreeModel OctreeSpec OctreeProofs OctreeGrid PropsOctree.
From Verif Require Import McTables McModel McSpec McProofs Vec BoxModel McRealModel PropsMc OctreeR PropsSampling.
Import ListNotations.
Local Open Scope R_scope.

(** ** The vertices of the triangles of a cell (C14) *)
(** [i] and [j] are the ends of a cell edge, [i] below the iso value, [j] not;
    [P] is the point at fraction [t] from [i] to [j]. *)
Definition cell_edge (i j : nat) : Prop := (i < 8)%nat /\ (j < 8)%nat /\
  let '(a, b, c) := corner i in let '(d, e, f) := corner j in (Z.abs (a - d) + Z.abs (b - e) + Z.abs (c - f) = 1)%Z.
Definition on_crossing (p : nat -> v3) (v : nat -> R) (x : R) (P : v3) (i j : nat) (t : R) : Prop :=
  cell_edge i j /\ v i < x <= v j /\ 0 <= t <= 1 /\ P = add3 (p i) (scale3 t (sub3 (p j) (p i))).

Definition in_out (neg : nat -> bool) (e : nat) : nat * nat :=
  let '(a, b) := edge_ends e in if neg a then (a, b) else (b, a).

Lemma edge_is_cell_edge neg e : (e < 12)%nat -> cell_edge (fst (in_out neg e)) (snd (in_out neg e)).
Proof.
  intros H. unfold in_out. do 12 (destruct e as [|e]; [cbn; destruct (neg _); cbn; unfold cell_edge; cbn; lia|]). lia.
Qed.

Lemma vertex_at p v x e : (e < 12)%nat -> sign_change (fun i => Rltb (v i) x) e ->
  let '(i, j) := in_out (fun i => Rltb (v i) x) e in
  let P := mc_interpolate x (p (fst (edge_ends e))) (p (snd (edge_ends e))) (v (fst (edge_ends e))) (v (snd (edge_ends e))) in
  exists t, on_crossing p v x P i j t /\ Rabs (v i + t * (v j - v i) - x) < mc_epsilon /\
    ((Rabs (x - v i) < mc_epsilon \/ Rabs (x - v j) < mc_epsilon) \/ 0 < t < 1) .
Proof.
  intros He Hs. pose proof (edge_is_cell_edge (fun i => Rltb (v i) x) e He) as Hc.
  unfold in_out in *. unfold sign_change in Hs. destruct (edge_ends e) as [a b]. cbn [fst snd].
  destruct (Rltb (v a) x) eqn:Ea; cbn [fst snd] in Hc.
  - apply Rltb_true in Ea. destruct (Rltb (v b) x) eqn:Eb; [congruence|]. apply Rltb_false in Eb.
    destruct (C14_interpolation x (p a) (p b) (v a) (v b) ltac:(lra)) as [(t & Ht & E & Hx) _]. change (/ 1000000000000) with mc_epsilon in Hx.
    exists t. split; [split; [exact Hc|split; [lra|split; [exact Ht|exact E]]]|]. split; [exact Hx|].
    destruct (Rlt_or_le (Rabs (x - v a)) mc_epsilon); [left; left; assumption|].
    destruct (Rlt_or_le (Rabs (x - v b)) mc_epsilon); [left; right; assumption|]. right.
    destruct (Req_dec t 0) as [->|]; [exfalso; rewrite Rmult_0_l, Rplus_0_r in Hx; rewrite <- Rabs_Ropp in Hx; replace (- (v a - x)) with (x - v a) in Hx by ring; lra|].
    destruct (Req_dec t 1) as [->|]; [exfalso; replace (v a + 1 * (v b - v a) - x) with (- (x - v b)) in Hx by ring; rewrite Rabs_Ropp in Hx; lra|]. lra.
  - apply Rltb_false in Ea. destruct (Rltb (v b) x) eqn:Eb; [|congruence]. apply Rltb_true in Eb.
    destruct (C14_interpolation x (p b) (p a) (v b) (v a) ltac:(lra)) as [(t & Ht & E & Hx) Sw]. change (/ 1000000000000) with mc_epsilon in Hx.
    exists t. rewrite <- Sw. split; [split; [exact Hc|split; [lra|split; [exact Ht|exact E]]]|]. split; [exact Hx|].
    destruct (Rlt_or_le (Rabs (x - v a)) mc_epsilon); [left; right; assumption|].
    destruct (Rlt_or_le (Rabs (x - v b)) mc_epsilon); [left; left; assumption|]. right.
    destruct (Req_dec t 0) as [->|]; [exfalso; rewrite Rmult_0_l, Rplus_0_r in Hx; rewrite <- Rabs_Ropp in Hx; replace (- (v b - x)) with (x - v b) in Hx by ring; lra|].
    destruct (Req_dec t 1) as [->|]; [exfalso; replace (v b + 1 * (v a - v b) - x) with (- (x - v a)) in Hx by ring; rewrite Rabs_Ropp in Hx; lra|]. lra.
Qed.

Lemma triangle_edges degen p v x A B C : In (A, B, C) (mc_triangles degen p v x) ->
  exists a b c, In (a, b, c) (mc_edge_triangles (mc_index (fun i => Rltb (v i) x))) /\
    let pt e := mc_interpolate x (p (fst (edge_ends e))) (p (snd (edge_ends e))) (v (fst (edge_ends e))) (v (snd (edge_ends e))) in
    A = pt a /\ B = pt b /\ C = pt c.
Proof.
  intros H. rewrite C11_triangles in H. apply filter_In in H as [H _]. apply in_map_iff in H as ([[a b] c] & E & H).
  exists a, b, c. split; [exact H|]. injection E as <- <- <-. auto.
Qed.

(** C14: every vertex of every triangle made for a cell is on a cell edge from a
    corner below the iso value to one that is not, at the point where the linear
    interpolation of the two values is the iso value up to 1e-12. *)
Theorem C14_triangles degen p v x A B C : In (A, B, C) (mc_triangles degen p v x) ->
  forall P, P = A \/ P = B \/ P = C ->
  exists i j t, on_crossing p v x P i j t /\ Rabs (v i + t * (v j - v i) - x) < / 1000000000000.
Proof.
  change (/ 1000000000000) with mc_epsilon.
  intros H P HP. destruct (triangle_edges _ _ _ _ _ _ _ H) as (a & b & c & Hin & -> & -> & ->).
  destruct (C11_tables v x) as (_ & HT & _). specialize (HT _ _ _ Hin).
  destruct HT as (La & Lb & Lc & _ & _ & _ & Sa & Sb & Sc).
  destruct HP as [->|[->| ->]].
  - pose proof (vertex_at p v x a La Sa) as Q. destruct (in_out _ a) as [i j]. destruct Q as (t & Q1 & Q2 & _). now exists i, j, t.
  - pose proof (vertex_at p v x b Lb Sb) as Q. destruct (in_out _ b) as [i j]. destruct Q as (t & Q1 & Q2 & _). now exists i, j, t.
  - pose proof (vertex_at p v x c Lc Sc) as Q. destruct (in_out _ c) as [i j]. destruct Q as (t & Q1 & Q2 & _). now exists i, j, t.
Qed.

(** ** Orientation of the real triangles (C13) *)
Definition corner3 (i : nat) : v3 := let '(a, b, c) := corner i in V3 (IZR a) (IZR b) (IZR c).
Definition z3v (a : gpoint) : v3 := let '(x, y, z) := a in V3 (IZR x) (IZR y) (IZR z).
Definition outwardness (A B C g : v3) : R := dot3 (cross3 (sub3 B A) (sub3 C A)) g.

Lemma zdot_real A B C g : outwardness (z3v A) (z3v B) (z3v C) (z3v g) = IZR (zdot (zcross (zsub B A) (zsub C A)) g).
Proof.
  destruct A as [[? ?] ?], B as [[? ?] ?], C as [[? ?] ?], g as [[? ?] ?]. unfold outwardness, dot3, cross3, z3v, zdot, zcross, zsub; cbn.
  rewrite !plus_IZR, !mult_IZR, !minus_IZR, !mult_IZR, !minus_IZR. ring.
Qed.

Definition lerp (p q : v3) (t : R) : v3 := add3 p (scale3 t (sub3 q p)).
(** The dot product is affine in each of the three vertex positions. *)
Lemma outwardness_affine I1 O1 I2 O2 I3 O3 g t1 t2 t3 :
  let F A B C := outwardness A B C g in
  F (lerp I1 O1 t1) (lerp I2 O2 t2) (lerp I3 O3 t3) =
    (1 - t1) * (1 - t2) * (1 - t3) * F I1 I2 I3 + (1 - t1) * (1 - t2) * t3 * F I1 I2 O3 +
    (1 - t1) * t2 * (1 - t3) * F I1 O2 I3 + (1 - t1) * t2 * t3 * F I1 O2 O3 +
    t1 * (1 - t2) * (1 - t3) * F O1 I2 I3 + t1 * (1 - t2) * t3 * F O1 I2 O3 +
    t1 * t2 * (1 - t3) * F O1 O2 I3 + t1 * t2 * t3 * F O1 O2 O3.
Proof.
  intros F. unfold F, outwardness, lerp, dot3, cross3. destruct I1, O1, I2, O2, I3, O3, g; cbn. ring.
Qed.

Definition ends (neg : nat -> bool) (e : nat) : list gpoint := [inside_end neg e; outside_end neg e].
Lemma C13_extremes_check : all_patterns (fun idx => let neg := Nat.testbit idx in
  forallb (fun '(a, b, c) =>
    let out e := zsub (outside_end neg e) (inside_end neg e) in
    let g := padd (out a) (padd (out b) (out c)) in
    let F A B C := zdot (zcross (zsub B A) (zsub C A)) g in
    forallb (fun A => forallb (fun B => forallb (fun C => Z.leb 0 (F A B C)) (ends neg c)) (ends neg b)) (ends neg a) &&
    existsb (fun A => existsb (fun B => existsb (fun C => Z.ltb 0 (F A B C)) (ends neg c)) (ends neg b)) (ends neg a))
    (mc_edge_triangles idx)) = true.
Proof. vm_compute. reflexivity. Qed.

Lemma in_out_ends neg e : z3v (inside_end neg e) = corner3 (fst (in_out neg e)) /\ z3v (outside_end neg e) = corner3 (snd (in_out neg e)).
Proof. unfold inside_end, outside_end, in_out. destruct (edge_ends e) as [a b]. destruct (neg a); split; reflexivity. Qed.

Lemma in_out_ext neg neg' e : (e < 12)%nat -> (forall i, (i < 8)%nat -> neg i = neg' i) -> in_out neg e = in_out neg' e.
Proof. intros He H. unfold in_out. destruct (edge_ends_lt e He) as [Ha _]. destruct (edge_ends e) as [a b]. cbn in Ha. now rewrite H. Qed.

Lemma out_real neg e : z3v (zsub (outside_end neg e) (inside_end neg e)) = sub3 (corner3 (snd (in_out neg e))) (corner3 (fst (in_out neg e))).
Proof.
  destruct (in_out_ends neg e) as [<- <-]. destruct (inside_end neg e) as [[? ?] ?], (outside_end neg e) as [[? ?] ?]. unfold z3v, zsub, sub3; cbn. now rewrite !minus_IZR.
Qed.
Lemma padd_real a b : z3v (padd a b) = add3 (z3v a) (z3v b).
Proof. destruct a as [[? ?] ?], b as [[? ?] ?]. unfold z3v, padd, add3; cbn. now rewrite !plus_IZR. Qed.

(** For every triangle of every pattern, wherever its vertices are on their cell
    edges. *)
Lemma outward_unit neg a b c : In (a, b, c) (mc_edge_triangles (mc_index neg)) ->
  (a < 12)%nat -> (b < 12)%nat -> (c < 12)%nat ->
  let I e := corner3 (fst (in_out neg e)) in let O e := corner3 (snd (in_out neg e)) in
  let g := add3 (sub3 (O a) (I a)) (add3 (sub3 (O b) (I b)) (sub3 (O c) (I c))) in
  forall t1 t2 t3, 0 <= t1 <= 1 -> 0 <= t2 <= 1 -> 0 <= t3 <= 1 ->
  let F := outwardness (lerp (I a) (O a) t1) (lerp (I b) (O b) t2) (lerp (I c) (O c) t3) g in
  0 <= F /\ (0 < t1 < 1 -> 0 < t2 < 1 -> 0 < t3 < 1 -> 0 < F).
Proof.
  intros Hin La Lb Lc I O g t1 t2 t3 T1 T2 T3 F.
  destruct (mc_index_bits neg) as (idx & Hlt & E & Hb). rewrite E in Hin.
  pose proof (all_patterns_ok _ C13_extremes_check idx Hlt) as H. cbv beta zeta in H.
  rewrite forallb_forall in H. specialize (H _ Hin). cbv beta iota in H. apply andb_true_iff in H as [H1 H2].
  set (ng := Nat.testbit idx) in *.
  assert (Ea : in_out neg a = in_out ng a) by (apply in_out_ext; [exact La|intros; symmetry; auto]).
  assert (Eb : in_out neg b = in_out ng b) by (apply in_out_ext; [exact Lb|intros; symmetry; auto]).
  assert (Ec : in_out neg c = in_out ng c) by (apply in_out_ext; [exact Lc|intros; symmetry; auto]).
  set (gz := padd (zsub (outside_end ng a) (inside_end ng a)) (padd (zsub (outside_end ng b) (inside_end ng b)) (zsub (outside_end ng c) (inside_end ng c)))) in *.
  assert (Eg : g = z3v gz). { unfold gz, g, I, O. rewrite !padd_real, !out_real, Ea, Eb, Ec. reflexivity. }
  assert (KI : forall e, in_out neg e = in_out ng e -> I e = z3v (inside_end ng e) /\ O e = z3v (outside_end ng e)).
  { intros e Ee. unfold I, O. rewrite Ee. destruct (in_out_ends ng e) as [-> ->]. auto. }
  destruct (KI a Ea) as [Ia Oa], (KI b Eb) as [Ib Ob], (KI c Ec) as [Ic Oc].
  assert (Hge : forall A B C, In A (ends ng a) -> In B (ends ng b) -> In C (ends ng c) -> 0 <= outwardness (z3v A) (z3v B) (z3v C) g).
  { intros A B C HA HB HC. rewrite Eg, zdot_real. apply IZR_le. apply Z.leb_le.
    rewrite forallb_forall in H1. specialize (H1 _ HA). rewrite forallb_forall in H1. specialize (H1 _ HB). rewrite forallb_forall in H1. exact (H1 _ HC). }
  assert (Hgt : exists A B C, In A (ends ng a) /\ In B (ends ng b) /\ In C (ends ng c) /\ 0 < outwardness (z3v A) (z3v B) (z3v C) g).
  { apply existsb_exists in H2 as (A & HA & H2). apply existsb_exists in H2 as (B & HB & H2). apply existsb_exists in H2 as (C & HC & H2).
    exists A, B, C. split; [exact HA|]. split; [exact HB|]. split; [exact HC|]. rewrite Eg, zdot_real. apply IZR_lt. now apply Z.ltb_lt. }
  assert (i1 : In (inside_end ng a) (ends ng a)) by (left; reflexivity). assert (o1 : In (outside_end ng a) (ends ng a)) by (right; left; reflexivity).
  assert (i2 : In (inside_end ng b) (ends ng b)) by (left; reflexivity). assert (o2 : In (outside_end ng b) (ends ng b)) by (right; left; reflexivity).
  assert (i3 : In (inside_end ng c) (ends ng c)) by (left; reflexivity). assert (o3 : In (outside_end ng c) (ends ng c)) by (right; left; reflexivity).
  unfold F. rewrite outwardness_affine, Ia, Oa, Ib, Ob, Ic, Oc.
  pose proof (Hge _ _ _ i1 i2 i3) as K1. pose proof (Hge _ _ _ i1 i2 o3) as K2. pose proof (Hge _ _ _ i1 o2 i3) as K3. pose proof (Hge _ _ _ i1 o2 o3) as K4.
  pose proof (Hge _ _ _ o1 i2 i3) as K5. pose proof (Hge _ _ _ o1 i2 o3) as K6. pose proof (Hge _ _ _ o1 o2 i3) as K7. pose proof (Hge _ _ _ o1 o2 o3) as K8.
  destruct Hgt as (A & B & C & [<-|[<-|[]]] & [<-|[<-|[]]] & [<-|[<-|[]]] & Hp);
  (set (f1 := outwardness _ _ _ g) in K1; set (f2 := outwardness _ _ _ g) in K2; set (f3 := outwardness _ _ _ g) in K3; set (f4 := outwardness _ _ _ g) in K4;
   set (f5 := outwardness _ _ _ g) in K5; set (f6 := outwardness _ _ _ g) in K6; set (f7 := outwardness _ _ _ g) in K7; set (f8 := outwardness _ _ _ g) in K8;
   fold f1 f2 f3 f4 f5 f6 f7 f8 in Hp |- *; clearbody f1 f2 f3 f4 f5 f6 f7 f8;
   assert (W : forall a b c d, 0 <= a -> 0 <= b -> 0 <= c -> 0 <= d -> 0 <= a * b * c * d) by (intros; repeat apply Rmult_le_pos; assumption);
   assert (W' : forall a b c d, 0 < a -> 0 < b -> 0 < c -> 0 < d -> 0 < a * b * c * d) by (intros; repeat apply Rmult_lt_0_compat; assumption);
   pose proof (W (1 - t1) (1 - t2) (1 - t3) f1 ltac:(lra) ltac:(lra) ltac:(lra) K1);
   pose proof (W (1 - t1) (1 - t2) t3 f2 ltac:(lra) ltac:(lra) ltac:(lra) K2);
   pose proof (W (1 - t1) t2 (1 - t3) f3 ltac:(lra) ltac:(lra) ltac:(lra) K3);
   pose proof (W (1 - t1) t2 t3 f4 ltac:(lra) ltac:(lra) ltac:(lra) K4);
   pose proof (W t1 (1 - t2) (1 - t3) f5 ltac:(lra) ltac:(lra) ltac:(lra) K5);
   pose proof (W t1 (1 - t2) t3 f6 ltac:(lra) ltac:(lra) ltac:(lra) K6);
   pose proof (W t1 t2 (1 - t3) f7 ltac:(lra) ltac:(lra) ltac:(lra) K7);
   pose proof (W t1 t2 t3 f8 ltac:(lra) ltac:(lra) ltac:(lra) K8);
   (split; [lra|]; intros P1 P2 P3;
    match type of Hp with
    | 0 < f1 => pose proof (W' (1 - t1) (1 - t2) (1 - t3) f1 ltac:(lra) ltac:(lra) ltac:(lra) Hp)
    | 0 < f2 => pose proof (W' (1 - t1) (1 - t2) t3 f2 ltac:(lra) ltac:(lra) ltac:(lra) Hp)
    | 0 < f3 => pose proof (W' (1 - t1) t2 (1 - t3) f3 ltac:(lra) ltac:(lra) ltac:(lra) Hp)
    | 0 < f4 => pose proof (W' (1 - t1) t2 t3 f4 ltac:(lra) ltac:(lra) ltac:(lra) Hp)
    | 0 < f5 => pose proof (W' t1 (1 - t2) (1 - t3) f5 ltac:(lra) ltac:(lra) ltac:(lra) Hp)
    | 0 < f6 => pose proof (W' t1 (1 - t2) t3 f6 ltac:(lra) ltac:(lra) ltac:(lra) Hp)
    | 0 < f7 => pose proof (W' t1 t2 (1 - t3) f7 ltac:(lra) ltac:(lra) ltac:(lra) Hp)
    | 0 < f8 => pose proof (W' t1 t2 t3 f8 ltac:(lra) ltac:(lra) ltac:(lra) Hp)
    end; lra)).
Qed.

(** C13: for a cube-shaped cell of side [s] at [o], every triangle made for it
    (vertices where mcInterpolate puts them) has its three vertices on cell edges
    from corners [i] below the iso value to corners [j] that are not, and its
    normal (B-A) x (C-A) does not point against the sum of those three
    directions; it points along it when no vertex is at a corner of the cell. *)
Theorem C13_triangle_outward degen o s v x A B C : 0 < s ->
  let p i := add3 o (scale3 s (corner3 i)) in
  In (A, B, C) (mc_triangles degen p v x) ->
  exists i1 j1 t1 i2 j2 t2 i3 j3 t3,
    on_crossing p v x A i1 j1 t1 /\ on_crossing p v x B i2 j2 t2 /\ on_crossing p v x C i3 j3 t3 /\
    let out := add3 (sub3 (p j1) (p i1)) (add3 (sub3 (p j2) (p i2)) (sub3 (p j3) (p i3))) in
    0 <= dot3 (cross3 (sub3 B A) (sub3 C A)) out /\
    ((forall i, A <> p i) -> (forall i, B <> p i) -> (forall i, C <> p i) -> 0 < dot3 (cross3 (sub3 B A) (sub3 C A)) out).
Proof.
  intros Hs p H. destruct (triangle_edges _ _ _ _ _ _ _ H) as (a & b & c & Hin & -> & -> & ->).
  destruct (C11_tables v x) as (_ & HT & _). specialize (HT _ _ _ Hin).
  destruct HT as (La & Lb & Lc & _ & _ & _ & Sa & Sb & Sc).
  pose proof (outward_unit (fun i => Rltb (v i) x) a b c Hin La Lb Lc) as HO. cbv beta zeta in HO.
  pose proof (vertex_at p v x a La Sa) as Qa. pose proof (vertex_at p v x b Lb Sb) as Qb. pose proof (vertex_at p v x c Lc Sc) as Qc.
  revert HO Qa Qb Qc. generalize (in_out (fun i => Rltb (v i) x) a) (in_out (fun i => Rltb (v i) x) b) (in_out (fun i => Rltb (v i) x) c).
  intros [i1 j1] [i2 j2] [i3 j3].
  intros HO Qa Qb Qc. cbn [fst snd] in HO.
  set (A := mc_interpolate x (p (fst (edge_ends a))) _ _ _) in *. set (B := mc_interpolate x (p (fst (edge_ends b))) _ _ _) in *. set (C := mc_interpolate x (p (fst (edge_ends c))) _ _ _) in *.
  clearbody A B C.
  destruct Qa as (t1 & Q1 & _), Qb as (t2 & Q2 & _), Qc as (t3 & Q3 & _).
  exists i1, j1, t1, i2, j2, t2, i3, j3, t3. split; [exact Q1|]. split; [exact Q2|]. split; [exact Q3|].
  destruct Q1 as (_ & _ & T1 & ->), Q2 as (_ & _ & T2 & ->), Q3 as (_ & _ & T3 & ->).
  specialize (HO t1 t2 t3 T1 T2 T3). destruct HO as [HO1 HO2]. cbv zeta.
  set (g := add3 (sub3 (corner3 j1) (corner3 i1)) (add3 (sub3 (corner3 j2) (corner3 i2)) (sub3 (corner3 j3) (corner3 i3)))) in *.
  assert (E : dot3 (cross3 (sub3 (add3 (p i2) (scale3 t2 (sub3 (p j2) (p i2)))) (add3 (p i1) (scale3 t1 (sub3 (p j1) (p i1)))))
      (sub3 (add3 (p i3) (scale3 t3 (sub3 (p j3) (p i3)))) (add3 (p i1) (scale3 t1 (sub3 (p j1) (p i1))))))
      (add3 (sub3 (p j1) (p i1)) (add3 (sub3 (p j2) (p i2)) (sub3 (p j3) (p i3))))
    = s * s * s * outwardness (lerp (corner3 i1) (corner3 j1) t1) (lerp (corner3 i2) (corner3 j2) t2) (lerp (corner3 i3) (corner3 j3) t3) g).
  { unfold g, p, outwardness, lerp, dot3, cross3. destruct (corner3 i1), (corner3 j1), (corner3 i2), (corner3 j2), (corner3 i3), (corner3 j3), o. cbn. ring. }
  assert (S3 : 0 < s * s * s) by (repeat apply Rmult_lt_0_compat; assumption).
  rewrite E. split; [apply Rmult_le_pos; [lra|exact HO1]|].
  assert (K : forall i j t, (forall i', add3 (p i) (scale3 t (sub3 (p j) (p i))) <> p i') -> 0 <= t <= 1 -> 0 < t < 1).
  { intros i j t N T. destruct (Req_dec t 0) as [->|].
    - exfalso. apply (N i). destruct (p i), (p j). apply v3_ext; cbn; ring.
    - destruct (Req_dec t 1) as [->|]; [|lra]. exfalso. apply (N j). destruct (p i), (p j). apply v3_ext; cbn; ring. }
  intros N1 N2 N3. apply Rmult_lt_0_compat; [exact S3|]. apply HO2; eauto.
Qed.

(** ** The whole stream (C06, C07) *)
(** Corner [c] of cell (i, j, k) of the uniform grid of cubes of side [s] whose
    lowest corner is [o]. *)
Definition grid_corner (o : v3) (s : R) (i j k c : nat) : v3 :=
  add3 o (scale3 s (add3 (V3 (INR i) (INR j) (INR k)) (corner3 c))).
(** Marching cubes on each of the N x N x N cells. *)
Definition uniform_mesh degen (f : v3 -> R) (o : v3) (s : R) (N : nat) : list (v3 * v3 * v3) :=
  flat_map (fun i => flat_map (fun j => flat_map (fun k =>
    mc_triangles degen (grid_corner o s i j k) (fun c => f (grid_corner o s i j k c)) 0) (seq 0 N)) (seq 0 N)) (seq 0 N).

Lemma flat_map_map {A B C} (g : A -> B) (h : B -> list C) l : flat_map h (map g l) = flat_map (fun x => h (g x)) l.
Proof. induction l; cbn; [reflexivity|]. now rewrite IHl. Qed.
Lemma flat_map_flat {A B C} (g : A -> list B) (h : B -> list C) l : flat_map h (flat_map g l) = flat_map (fun x => flat_map h (g x)) l.
Proof. induction l; cbn; [reflexivity|]. now rewrite flat_map_app, IHl. Qed.

Lemma mc_triangles_ext degen p p' v v' x : (forall i, p i = p' i) -> (forall i, v i = v' i) -> mc_triangles degen p v x = mc_triangles degen p' v' x.
Proof.
  intros H1 H2. rewrite !C11_triangles.
  assert (E : mc_index (fun i => Rltb (v i) x) = mc_index (fun i => Rltb (v' i) x)) by (unfold mc_index; cbn; now rewrite !H2).
  rewrite E. f_equal. apply map_ext. intros [[a b] c]. cbv beta iota zeta. now rewrite !H1, !H2.
Qed.

Lemma leaves_uniform degen f o r N :
  flat_map (leaf degen f o r) (cells (V3I 0 0 0) N) = uniform_mesh degen f o (2 * r) N.
Proof.
  unfold cells, uniform_mesh, evens. cbn [vx vy vz]. rewrite flat_map_flat, flat_map_map. apply flat_map_ext. intros i.
  rewrite flat_map_flat, flat_map_map. apply flat_map_ext. intros j. rewrite !flat_map_map. apply flat_map_ext. intros k.
  unfold leaf.
  assert (E : forall c, grid_pos o r (leaf_corner (V3I (0 + 2 * Z.of_nat i) (0 + 2 * Z.of_nat j) (0 + 2 * Z.of_nat k)) c) = grid_corner o (2 * r) i j k c).
  { intros c. unfold grid_pos, grid_corner, leaf_corner, corner3, to_v3. destruct (corner c) as [[x y] z]. cbn [v3i_add vx vy vz].
    rewrite !INR_IZR_INZ, !Z.add_0_l. apply v3_ext; cbn [x3 y3 z3 add3 scale3]; rewrite !plus_IZR, !mult_IZR; ring. }
  apply mc_triangles_ext; intros c; now rewrite E.
Qed.

Lemma octree_wf f o degen : (2 <= o_levels o)%nat -> wf_env (octree_env degen f o).
Proof.
  intros H. split; [|cbn; lia]. intros v. cbn [e_leaf octree_env]. unfold leaf.
  rewrite C11_triangles. eapply Nat.le_trans; [apply filter_length|]. rewrite map_length.
  apply (C11_tables (fun i => f (grid_pos (o_origin o) (o_res o) (leaf_corner v i))) 0).
Qed.

(** C06, end to end: for a 1-Lipschitz field without exact ties, whatever the
    buffers, the concurrency and the schedule, the triangles streamed up to
    io.EOF are, as a multiset, those of marching cubes on the full uniform grid
    that starts at the lowest corner of the bounds enlarged by 1%, with cubes of
    side (longest enlarged side) / meshCells, N >= meshCells of them per axis. *)
Theorem C06_stream f bounds m degen conc : 
  lip3 f -> 0 < vmax3 (size3 bounds) -> (2 <= m <= 2 ^ 61)%Z ->
  exists o, new_octree bounds m = Ok o /\ (~ tie f o ->
    exists N, IZR m <= INR N < 2 * IZR m /\
    forall st ts dst sched st' dst' n, let E := octree_env degen f o in
    reachable E conc st ts ->
    read_triangles (E := E) st dst sched = Returned st' dst' n true ->
    Permutation (ts ++ firstn n dst')
      (uniform_mesh degen f (min3 (scale_about_center3 bounds (101/100))) ((101/100) * vmax3 (size3 bounds) / IZR m) N)).
Proof.
  intros Hf Hl Hm. destruct (C07_grid bounds m Hm Hl) as (o & k & Ho & Horg & Hlev & Hres & Hcells & Hroot).
  exists o. split; [exact Ho|]. intros Ht. exists (2 ^ k)%nat. split; [rewrite pow_INR; exact Hcells|].
  intros st ts dst sched st' dst' n E Hr Hc.
  assert (Hmr : 2 <= IZR m) by (change 2 with (IZR 2); apply IZR_le; lia).
  assert (Hrp : 0 < o_res o).
  { assert (0 < 101 / 100 * vmax3 (size3 bounds) / IZR m) by (apply Rdiv_lt_0_compat; lra). lra. }
  pose proof (C01_exactly_once E conc st ts dst sched st' dst' n (octree_wf f o degen ltac:(lia)) Hr Hc) as Hperm.
  eapply Permutation_trans; [exact Hperm|]. unfold E. rewrite C06_full_grid by assumption. rewrite leaves_uniform, Hlev, Horg, Hres.
  replace (S (S k) - 1 - 1)%nat with k by lia. apply Permutation_refl.
Qed.

(** C07: the constructor panics for fewer than 2 and for more than 2^61 cells. *)
Theorem C07_limits bounds m : 0 < vmax3 (size3 bounds) ->
  ((m < 2)%Z \/ (2 ^ 61 < m)%Z -> new_octree bounds m = Panicked) /\
  ((2 <= m <= 2 ^ 61)%Z -> exists o, new_octree bounds m = Ok o).
Proof.
  intros Hl. 
  assert (Hbl : vmax3 (size3 (scale_about_center3 bounds (101/100))) = (101/100) * vmax3 (size3 bounds)).
  { unfold vmax3, scale_about_center3, new_box3, size3, sub3, add3, scale3; cbn. rmm; lra. }
  assert (K : (2 <= m)%Z -> exists k, new_octree bounds m = (if (64 <=? S k)%nat then Panicked else Ok (OParams (min3 (scale_about_center3 bounds (101/100))) (1 / 2 * (101 / 100 * vmax3 (size3 bounds)) / IZR m) (S k)))
     /\ (1 <= k)%nat /\ 2 * IZR m <= 2 ^ k /\ 2 ^ (k - 1) < 2 * IZR m).
  { intros Hm. assert (Hmr : 2 <= IZR m) by (change 2 with (IZR 2); apply IZR_le; lia).
    unfold new_octree. rewrite Hbl. replace (m <? 2)%Z with false by (symmetry; apply Z.ltb_ge; lia).
    assert (Hratio : 101 / 100 * vmax3 (size3 bounds) / (1 / 2 * (101 / 100 * vmax3 (size3 bounds)) / IZR m) = 2 * IZR m) by (field; lra).
    rewrite Hratio. destruct (ceil_log2 (2 * IZR m)) as (k & -> & Hk & Hk1 & Hk2); [lra|].
    exists k. replace (Z.to_nat (Z.of_nat k + 1)) with (S k) by lia. auto. }
  assert (P62 : 2 ^ 62 = IZR (2 * 2 ^ 61)) by (cbn; lra).
  split.
  - intros [H|H]; [unfold new_octree; now replace (m <? 2)%Z with true by (symmetry; apply Z.ltb_lt; lia)|].
    destruct (K ltac:(lia)) as (k & -> & Hk & Hk1 & Hk2).
    replace (64 <=? S k)%nat with true; [reflexivity|]. symmetry. apply Nat.leb_le.
    destruct (le_lt_dec 63 k) as [|L]; [lia|]. exfalso.
    assert (2 ^ k <= 2 ^ 62) by (apply Rle_pow; [lra|lia]).
    assert (IZR (2 * 2 ^ 61) < IZR (2 * m)) by (apply IZR_lt; lia). rewrite mult_IZR in *. rewrite mult_IZR in H1. lra.
  - intros H. destruct (K ltac:(lia)) as (k & -> & Hk & Hk1 & Hk2).
    replace (64 <=? S k)%nat with false; [eauto|]. symmetry. apply Nat.leb_gt.
    destruct (le_lt_dec 63 k) as [L|]; [|lia]. exfalso.
    assert (2 ^ 62 <= 2 ^ (k - 1)) by (apply Rle_pow; [lra|lia]).
    assert (IZR (2 * m) <= IZR (2 * 2 ^ 61)) by (apply IZR_le; lia). rewrite mult_IZR in H1. lra.
Qed.
(** The finest cells are the cubes of that side on a grid from the root's corner, and these are
    the positions at which the model is evaluated. *)
Theorem C07_cells bounds m o : 0 < vmax3 (size3 bounds) -> new_octree bounds m = Ok o ->
  let side := (101/100) * vmax3 (size3 bounds) / IZR m in
  let n := Z.of_nat (2 ^ (o_levels o - 1 - 1)) in
  forall v, In v (cells (V3I 0 0 0) (2 ^ (o_levels o - 1 - 1))) <-> exists i j k, (0 <= i < n)%Z /\ (0 <= j < n)%Z /\ (0 <= k < n)%Z /\ v = V3I (2 * i) (2 * j) (2 * k) /\
    forall q, let '(a, b, c) := corner q in
      grid_pos (o_origin o) (o_res o) (leaf_corner v q) = add3 (o_origin o) (V3 (side * IZR (i + a)) (side * IZR (j + b)) (side * IZR (k + c))).
Proof.
  intros P E side n v. assert (M : (2 <= m <= 2 ^ 61)%Z).
  { destruct (C07_limits bounds m P) as (A & _). destruct (Z.lt_ge_cases m 2) as [Q|Q]; [rewrite A in E by (now left); discriminate|]. destruct (Z.lt_ge_cases (2 ^ 61) m) as [Q'|Q']; [rewrite A in E by (now right); discriminate|]. lia. }
  destruct (C07_grid bounds m M P) as (o' & n' & E' & _ & _ & RS & _). rewrite E in E'. injection E' as <-. fold side in RS.
  assert (EV : forall z N, In z (evens 0 N) <-> exists i, (0 <= i < Z.of_nat N)%Z /\ z = (2 * i)%Z).
  { intros z N. unfold evens. rewrite in_map_iff. split.
    - intros (x & <- & I). apply in_seq in I. exists (Z.of_nat x). split; lia.
    - intros (i & I & ->). exists (Z.to_nat i). split; [lia|]. apply in_seq. lia. }
  split.
  - intros I. unfold cells in I. cbn [vx vy vz] in I. apply in_flat_map in I. destruct I as (x & X & I). apply in_flat_map in I. destruct I as (y & Y & I). apply in_map_iff in I. destruct I as (z & <- & I).
    apply EV in X, Y, I. destruct X as (i & I1 & ->). destruct Y as (j & J1 & ->). destruct I as (k & K1 & ->). exists i, j, k. repeat split; try apply I1; try apply J1; try apply K1.
    intros q. unfold leaf_corner. destruct (corner q) as [[a b] c]. unfold grid_pos, to_v3, add3, scale3, v3i_add. cbn [vx vy vz x3 y3 z3]. rewrite <- RS, !plus_IZR, !mult_IZR. f_equal; ring.
  - intros (i & j & k & I & J & K & -> & _). unfold cells. cbn [vx vy vz]. apply in_flat_map. exists (2 * i)%Z. split; [apply EV; eauto|]. apply in_flat_map. exists (2 * j)%Z. split; [apply EV; eauto|]. apply in_map_iff. exists (2 * k)%Z. split; [reflexivity|apply EV; eauto].
Qed.

(** ** C88: accuracy of the rendered mesh *)
Lemma dist_lerp p q t u : dist3 (lerp p q t) (lerp p q u) = Rabs (t - u) * dist3 q p.
Proof. unfold dist3. rewrite <- norm3_scale. f_equal. unfold lerp. destruct p, q. apply v3_ext; cbn; ring. Qed.
Lemma lerp_0 p q : lerp p q 0 = p.
Proof. unfold lerp. destruct p, q. apply v3_ext; cbn; ring. Qed.
Lemma lerp_1 p q : lerp p q 1 = q.
Proof. unfold lerp. destruct p, q. apply v3_ext; cbn; ring. Qed.

(** A field that is continuous (1-Lipschitz) vanishes between a negative and a
    non-negative point. *)
Lemma zero_between f p q : lip3 f -> f p < 0 <= f q -> exists t, 0 <= t <= 1 /\ f (lerp p q t) = 0.
Proof.
  intros Hf [Hp [Hq|Hq]]; [|exists 1; rewrite lerp_1; split; [lra|auto]].
  assert (Hc : continuity (fun t => f (lerp p q t))).
  { intros t. unfold continuity_pt, continue_in, limit1_in, limit_in. intros eps He.
    pose proof (norm3_nonneg (sub3 q p)) as Hn. fold (dist3 q p) in Hn.
    exists (eps / (dist3 q p + 1)). split; [apply Rdiv_lt_0_compat; lra|].
    intros u [_ Hu]. unfold dist in *. cbn [R_met R_dist Base] in *. unfold R_dist in *. cbn in Hu |- *. unfold R_dist in *.
    eapply Rle_lt_trans; [apply Hf|]. rewrite dist_lerp.
    apply Rle_lt_trans with (Rabs (u - t) * (dist3 q p + 1)); [pose proof (Rabs_pos (u - t)); nra|].
    apply Rmult_lt_compat_r with (r := dist3 q p + 1) in Hu; [|lra]. unfold Rdiv in Hu. rewrite Rmult_assoc, Rinv_l, Rmult_1_r in Hu by lra. exact Hu. }
  destruct (IVT (fun t => f (lerp p q t)) 0 1 Hc ltac:(lra)) as (t & Ht & E); cbv beta.
  - now rewrite lerp_0.
  - now rewrite lerp_1.
  - exists t. auto.
Qed.

Lemma in_uniform degen f o s N t : In t (uniform_mesh degen f o s N) <->
  exists i j k, (i < N)%nat /\ (j < N)%nat /\ (k < N)%nat /\
    In t (mc_triangles degen (grid_corner o s i j k) (fun c => f (grid_corner o s i j k c)) 0).
Proof.
  unfold uniform_mesh. split.
  - intros H. apply in_flat_map in H as (i & Hi & H). apply in_flat_map in H as (j & Hj & H). apply in_flat_map in H as (k & Hk & H).
    apply in_seq in Hi, Hj, Hk. exists i, j, k. repeat split; try lia. exact H.
  - intros (i & j & k & Hi & Hj & Hk & H). apply in_flat_map. exists i. split; [apply in_seq; lia|].
    apply in_flat_map. exists j. split; [apply in_seq; lia|]. apply in_flat_map. exists k. split; [apply in_seq; lia|exact H].
Qed.

Lemma edge_length o s i j k a b : 0 < s -> cell_edge a b -> dist3 (grid_corner o s i j k b) (grid_corner o s i j k a) = s.
Proof.
  intros Hs (Ha & Hb & H). unfold dist3, norm3.
  apply sq_eq; [apply sqrt_pos|lra|]. rewrite sqrt_sqrt by apply norm3sq_nonneg.
  unfold grid_corner, corner3. destruct (corner a) as [[a1 a2] a3], (corner b) as [[b1 b2] b3].
  unfold norm3sq, dot3. cbn [sub3 add3 scale3 x3 y3 z3].
  assert (D : ((b1 - a1) * (b1 - a1) + (b2 - a2) * (b2 - a2) + (b3 - a3) * (b3 - a3) = 1)%Z).
  { assert (Q : forall d, (Z.abs d = 0 \/ Z.abs d = 1 -> d * d = Z.abs d)%Z) by (intros; nia).
    rewrite (Q (b1 - a1)%Z), (Q (b2 - a2)%Z), (Q (b3 - a3)%Z) by lia. lia. }
  assert (D' : (IZR b1 - IZR a1) * (IZR b1 - IZR a1) + (IZR b2 - IZR a2) * (IZR b2 - IZR a2) + (IZR b3 - IZR a3) * (IZR b3 - IZR a3) = 1)
    by (rewrite <- !minus_IZR, <- !mult_IZR, <- !plus_IZR; now f_equal).
  transitivity (s * s * 1); [|ring]. rewrite <- D'. ring.
Qed.

Lemma abs_bounds x y : Rabs x <= y -> - y <= x <= y.
Proof. intros H. pose proof (Rle_abs x). pose proof (Rle_abs (- x)). rewrite Rabs_Ropp in *. lra. Qed.

(** Vertices: the value of the field at a vertex is at most half a cell side
    (plus the tolerance 1e-12 of the interpolation), and the surface crosses the
    cell edge the vertex is on. *)
Theorem C88_vertices f degen o s N A B C P : lip3 f -> 0 < s ->
  In (A, B, C) (uniform_mesh degen f o s N) -> P = A \/ P = B \/ P = C ->
  Rabs (f P) < s / 2 + / 1000000000000 /\
  exists Q, f Q = 0 /\ dist3 P Q <= s.
Proof.
  change (/ 1000000000000) with mc_epsilon.
  intros Hf Hs H HP. apply in_uniform in H as (i & j & k & _ & _ & _ & H).
  destruct (C14_triangles _ _ _ _ _ _ _ H P HP) as (a & b & t & (Hc & Hv & Ht & E) & Hx). change (/ 1000000000000) with mc_epsilon in Hx.
  pose proof (edge_length o s i j k a b Hs Hc) as HL.
  set (p := grid_corner o s i j k) in *. fold (lerp (p a) (p b) t) in E. subst P. clearbody p.
  assert (D1 : Rabs (f (lerp (p a) (p b) t) - f (p a)) <= t * s).
  { eapply Rle_trans; [apply Hf|]. rewrite <- (lerp_0 (p a) (p b)) at 2. rewrite dist_lerp, HL, Rminus_0_r, (Rabs_right t); lra. }
  assert (D2 : Rabs (f (lerp (p a) (p b) t) - f (p b)) <= (1 - t) * s).
  { eapply Rle_trans; [apply Hf|]. rewrite <- (lerp_1 (p a) (p b)) at 2. rewrite dist_lerp, HL, <- Rabs_Ropp, (Rabs_right (- (t - 1))); lra. }
  split.
  - set (w := f (lerp (p a) (p b) t)) in *. clearbody w. set (u := f (p a)) in *. set (v := f (p b)) in *. clearbody u v. clear HL Hf H HP Hc.
    assert (Q : t * (1 - t) <= 1 / 4) by (pose proof (Rle_0_sqr (t - 1 / 2)) as Q; unfold Rsqr in Q; lra).
    assert (K1 : w - u <= t * s /\ - (t * s) <= w - u) by (apply abs_bounds in D1; lra).
    assert (K2 : w - v <= (1 - t) * s /\ - ((1 - t) * s) <= w - v) by (apply abs_bounds in D2; lra).
    assert (K3 : u + t * (v - u) < mc_epsilon /\ - mc_epsilon < u + t * (v - u)) by (rewrite Rminus_0_r in Hx; apply Rabs_def2 in Hx; lra).
    assert (M1 : (1 - t) * (w - u) <= (1 - t) * (t * s)) by (apply Rmult_le_compat_l; lra).
    assert (M2 : t * (w - v) <= t * ((1 - t) * s)) by (apply Rmult_le_compat_l; lra).
    assert (M3 : (1 - t) * (- (t * s)) <= (1 - t) * (w - u)) by (apply Rmult_le_compat_l; lra).
    assert (M4 : t * (- ((1 - t) * s)) <= t * (w - v)) by (apply Rmult_le_compat_l; lra).
    assert (M5 : t * (1 - t) * s <= s / 4) by (apply Rmult_le_compat_r with (r := s) in Q; lra).
    apply Rabs_def1; lra.
  - destruct (zero_between f (p a) (p b) Hf Hv) as (u & Hu & Eu). exists (lerp (p a) (p b) u). split; [exact Eu|].
    rewrite dist_lerp, HL. assert (Rabs (t - u) <= 1) by (split_Rabs; lra). nra.
Qed.

(** Every corner of a triangle is in its cell. *)
Lemma corner_range i : (0 <= x3 (corner3 i) <= 1) /\ (0 <= y3 (corner3 i) <= 1) /\ (0 <= z3 (corner3 i) <= 1).
Proof. do 7 (destruct i as [|i]; [cbn; lra|]). cbn; lra. Qed.

Definition in_cell (o : v3) (s : R) (i j k : nat) (P : v3) : Prop :=
  (x3 o + s * INR i <= x3 P <= x3 o + s * INR i + s) /\ (y3 o + s * INR j <= y3 P <= y3 o + s * INR j + s) /\ (z3 o + s * INR k <= z3 P <= z3 o + s * INR k + s).
Lemma corner_in_cell o s i j k c : 0 < s -> in_cell o s i j k (grid_corner o s i j k c).
Proof.
  intros Hs. unfold in_cell, grid_corner. destruct (corner_range c) as (H1 & H2 & H3). cbn [x3 y3 z3 add3 scale3].
  destruct (corner3 c) as [a b d]. cbn in *. repeat split; nra.
Qed.
Lemma lerp_in_cell o s i j k p q t : in_cell o s i j k p -> in_cell o s i j k q -> 0 <= t <= 1 -> in_cell o s i j k (lerp p q t).
Proof.
  unfold in_cell, lerp. intros (P1 & P2 & P3) (Q1 & Q2 & Q3) Ht. cbn [x3 y3 z3 add3 scale3 sub3].
  assert (K : forall a b u v, a <= u <= b -> a <= v <= b -> a <= u + t * (v - u) <= b) by (intros; split; nra).
  split; [|split]; apply K; assumption.
Qed.
Lemma cell_diagonal o s i j k P Q : 0 < s -> in_cell o s i j k P -> in_cell o s i j k Q -> dist3 P Q <= sqrt 3 * s.
Proof.
  unfold in_cell, dist3. intros Hs (P1 & P2 & P3) (Q1 & Q2 & Q3). pose proof (sqrt_pos 3) as S3.
  apply sq_le; [nra|]. rewrite norm3_sq. replace (sqrt 3 * s * (sqrt 3 * s)) with (sqrt 3 * sqrt 3 * (s * s)) by ring.
  rewrite sqrt_sqrt by lra. unfold norm3sq, dot3. cbn [sub3 x3 y3 z3].
  assert (K : forall a u v, a <= u <= a + s -> a <= v <= a + s -> (u - v) * (u - v) <= s * s) by (intros; nra).
  pose proof (K _ _ _ P1 Q1). pose proof (K _ _ _ P2 Q2). pose proof (K _ _ _ P3 Q3). lra.
Qed.

(** Points: every point of every triangle is within one cell diagonal of the
    surface, and of the value zero. *)
Theorem C88_points f degen o s N A B C a b c : lip3 f -> 0 < s ->
  In (A, B, C) (uniform_mesh degen f o s N) -> 0 <= a -> 0 <= b -> 0 <= c -> a + b + c = 1 ->
  let Y := add3 (scale3 a A) (add3 (scale3 b B) (scale3 c C)) in
  Rabs (f Y) <= sqrt 3 * s /\ exists Q, f Q = 0 /\ dist3 Y Q <= sqrt 3 * s.
Proof.
  intros Hf Hs H Ha Hb Hc Habc Y. apply in_uniform in H as (i & j & k & _ & _ & _ & H).
  pose proof (C14_triangles _ _ _ _ _ _ _ H) as HV.
  assert (HC : forall P, P = A \/ P = B \/ P = C -> in_cell o s i j k P).
  { intros P HP. destruct (HV P HP) as (u & v & t & (_ & _ & Ht & ->) & _). apply lerp_in_cell; auto using corner_in_cell. }
  pose proof (HC A ltac:(auto)) as CA. pose proof (HC B ltac:(auto)) as CB. pose proof (HC C ltac:(auto)) as CC.
  assert (CY : in_cell o s i j k Y).
  { unfold in_cell in *. unfold Y. cbn [x3 y3 z3 add3 scale3]. destruct CA as (A1 & A2 & A3), CB as (B1 & B2 & B3), CC as (C1 & C2 & C3).
    assert (K : forall l h u v w, l <= u <= h -> l <= v <= h -> l <= w <= h -> l <= a * u + (b * v + c * w) <= h).
    { intros l h u v w [? ?] [? ?] [? ?].
      assert (a * l <= a * u) by (apply Rmult_le_compat_l; lra). assert (b * l <= b * v) by (apply Rmult_le_compat_l; lra). assert (c * l <= c * w) by (apply Rmult_le_compat_l; lra).
      assert (a * u <= a * h) by (apply Rmult_le_compat_l; lra). assert (b * v <= b * h) by (apply Rmult_le_compat_l; lra). assert (c * w <= c * h) by (apply Rmult_le_compat_l; lra).
      assert (El : (a + b + c) * l = l) by (rewrite Habc; ring). assert (Eh : (a + b + c) * h = h) by (rewrite Habc; ring). lra. }
    split; [|split]; apply K; assumption. }
  destruct (HV A ltac:(auto)) as (u & v & t & (_ & Hv & _) & _).
  set (p := grid_corner o s i j k) in *.
  pose proof (cell_diagonal o s i j k Y (p u) Hs CY (corner_in_cell o s i j k u Hs)) as Du.
  pose proof (cell_diagonal o s i j k Y (p v) Hs CY (corner_in_cell o s i j k v Hs)) as Dv.
  pose proof (Hf Y (p u)) as Fu. pose proof (Hf Y (p v)) as Fv. split.
  - apply abs_bounds in Fu, Fv. apply Rabs_le. lra.
  - destruct (Rlt_or_le (f Y) 0) as [HY|HY].
    + destruct (zero_between f Y (p v) Hf ltac:(lra)) as (r & Hr & Er). exists (lerp Y (p v) r). split; [exact Er|].
      rewrite <- (lerp_0 Y (p v)) at 1. rewrite dist_lerp, (dist3_sym (p v)). assert (Rabs (0 - r) <= 1) by (split_Rabs; lra).
      pose proof (Rabs_pos (0 - r)). pose proof (norm3_nonneg (sub3 Y (p v))) as Q. fold (dist3 Y (p v)) in Q. nra.
    + destruct (zero_between f (p u) Y Hf ltac:(lra)) as (r & Hr & Er). exists (lerp (p u) Y r). split; [exact Er|].
      rewrite <- (lerp_1 (p u) Y) at 1. rewrite dist_lerp. assert (Rabs (1 - r) <= 1) by (split_Rabs; lra).
      pose proof (Rabs_pos (1 - r)). pose proof (norm3_nonneg (sub3 Y (p u))) as Q. fold (dist3 Y (p u)) in Q. nra.
Qed.

Lemma cell_edge_table a b : cell_edge a b -> exists e, (e < 12)%nat /\ (edge_ends e = (a, b) \/ edge_ends e = (b, a)).
Proof.
  intros (Ha & Hb & H).
  assert (K : forallb (fun a => forallb (fun b =>
     negb (let '(x, y, z) := corner a in let '(d, e, f) := corner b in (Z.abs (x - d) + Z.abs (y - e) + Z.abs (z - f) =? 1)%Z) ||
     existsb (fun e => (Nat.eqb (fst (edge_ends e)) a && Nat.eqb (snd (edge_ends e)) b) || (Nat.eqb (fst (edge_ends e)) b && Nat.eqb (snd (edge_ends e)) a)) (seq 0 12)) (seq 0 8)) (seq 0 8) = true) by (vm_compute; reflexivity).
  rewrite forallb_forall in K. specialize (K a ltac:(apply in_seq; lia)). rewrite forallb_forall in K. specialize (K b ltac:(apply in_seq; lia)).
  apply orb_true_iff in K as [K|K].
  - exfalso. destruct (corner a) as [[x y] z], (corner b) as [[d e] f]. apply negb_true_iff, Z.eqb_neq in K. lia.
  - apply existsb_exists in K as (e & He & K). apply in_seq in He. exists e. split; [lia|].
    rewrite orb_true_iff, !andb_true_iff, !Nat.eqb_eq in K. destruct (edge_ends e) as [x y]. cbn in K. destruct K as [[-> ->]|[-> ->]]; auto.
Qed.

(** Nothing sampled is lost: wherever two neighbouring grid points are on
    different sides of the surface, a triangle of that cell has a vertex on the
    edge between them (unless a triangle of the cell is dropped as degenerate). *)
Theorem C88_complete f degen o s N i j k a b : (i < N)%nat -> (j < N)%nat -> (k < N)%nat ->
  let p := grid_corner o s i j k in
  cell_edge a b -> f (p a) < 0 <= f (p b) ->
  (forall t, In t (mc_triangles (fun _ => false) p (fun c => f (p c)) 0) -> degen t = false) ->
  exists A B C P t, In (A, B, C) (uniform_mesh degen f o s N) /\ (P = A \/ P = B \/ P = C) /\
    on_crossing p (fun c => f (p c)) 0 P a b t /\ Rabs (f (p a) + t * (f (p b) - f (p a))) < / 1000000000000.
Proof.
  change (/ 1000000000000) with mc_epsilon.
  intros Hi Hj Hk p He Hv Hd. destruct (cell_edge_table a b He) as (e & Le & Ee).
  set (v := fun c => f (p c)) in *.
  assert (Sc : sign_change (fun i => Rltb (v i) 0) e).
  { unfold sign_change. assert (Ra : Rltb (v a) 0 = true) by (apply Rltb_true; unfold v; lra). assert (Rb : Rltb (v b) 0 = false) by (apply Rltb_false; unfold v; lra).
    destruct Ee as [-> | ->]; rewrite Ra, Rb; discriminate. }
  destruct (C11_tables v 0) as (H1 & _ & _). destruct (H1 e Le) as [_ [H2 _]]. destruct (H2 Sc) as (x & y & z & Hin & Hxyz).
  pose proof (vertex_at p v 0 e Le Sc) as Q.
  assert (IO : in_out (fun i => Rltb (v i) 0) e = (a, b)).
  { unfold in_out. assert (Ra : Rltb (v a) 0 = true) by (apply Rltb_true; unfold v; lra). assert (Rb : Rltb (v b) 0 = false) by (apply Rltb_false; unfold v; lra).
    destruct Ee as [-> | ->]; now rewrite ?Ra, ?Rb. }
  rewrite IO in Q. destruct Q as (t & Q1 & Q2 & _).
  set (pt e := mc_interpolate 0 (p (fst (edge_ends e))) (p (snd (edge_ends e))) (v (fst (edge_ends e))) (v (snd (edge_ends e)))) in *.
  exists (pt x), (pt y), (pt z), (pt e), t. split; [|split; [|split]].
  - apply in_uniform. exists i, j, k. split; [exact Hi|]. split; [exact Hj|]. split; [exact Hk|]. fold p. fold v.
    assert (In0 : forall dg, (dg (pt x, pt y, pt z) = false) -> In (pt x, pt y, pt z) (mc_triangles dg p v 0)).
    { intros dg Hdg. rewrite C11_triangles. apply filter_In. split; [|now rewrite Hdg]. apply in_map_iff. exists (x, y, z). split; [reflexivity|exact Hin]. }
    apply In0. apply Hd. apply In0. reflexivity.
  - destruct Hxyz as [->|[->| ->]]; auto.
  - exact Q1.
  - rewrite Rminus_0_r in Q2. exact Q2.
Qed.

(** The unit ball, rendered with meshCells = 2, meets the hypotheses; a grid
    corner inside and one outside. *)
Example C88_example :
  let o := V3 (-101/100) (-101/100) (-101/100) in
  lip3 unit_ball /\ cell_edge 6 7 /\
  unit_ball (grid_corner o (101/100) 0 0 0 6) < 0 <= unit_ball (grid_corner o (101/100) 0 0 0 7).
Proof.
  cbv zeta. split; [|split; [|split]].
  - apply C16_nonvacuous.
  - unfold cell_edge; cbn. lia.
  - unfold unit_ball, dist3, norm3. match goal with |- sqrt ?x - 1 < 0 => replace x with 0 end; [rewrite sqrt_0; lra|].
    unfold norm3sq, dot3, grid_corner, corner3; cbn. field.
  - unfold unit_ball, dist3, norm3. match goal with |- 0 <= sqrt ?x - 1 => replace x with (101/100 * (101/100)) end; [rewrite sqrt_square; lra|].
    unfold norm3sq, dot3, grid_corner, corner3; cbn. field.
Qed.

(** ** Solids that are not missed *)
Definition grid_point (o : v3) (s : R) (a b c : nat) : v3 := add3 o (scale3 s (V3 (INR a) (INR b) (INR c))).

Lemma nearest_index r N : 0 <= r <= INR N -> exists i, (i <= N)%nat /\ Rabs (r - INR i) <= 1 / 2.
Proof.
  induction N as [|N IH].
  - intros H. cbn in H. exists 0%nat. split; [lia|]. cbn. apply Rabs_le. lra.
  - intros H. destruct (Rle_or_lt r (INR N)) as [L|L].
    + destruct (IH ltac:(lra)) as (i & Hi & D). exists i. split; [lia|exact D].
    + rewrite S_INR in H. destruct (Rle_or_lt r (INR N + 1 / 2)).
      * exists N. split; [lia|]. apply Rabs_le. lra.
      * exists (S N). split; [lia|]. rewrite S_INR. apply Rabs_le. lra.
Qed.

Lemma walk (g : nat -> R) a N : (a <= N)%nat -> g a < 0 -> 0 <= g N -> exists i, (a <= i < N)%nat /\ g i < 0 <= g (S i).
Proof.
  intros Ha Hg HN. induction N as [|N IH].
  - assert (a = 0)%nat by lia. subst. lra.
  - destruct (Nat.eq_dec a (S N)) as [->|]; [lra|].
    destruct (Rlt_or_le (g N) 0) as [L|L].
    + exists N. split; [lia|lra].
    + destruct (IH ltac:(lia) L) as (i & Hi & H). exists i. split; [lia|exact H].
Qed.

(** If the field is not negative on the boundary of the grid and some point of
    the grid is inside by more than half a cell diagonal, the mesh has a vertex
    within half a cell of the line through that point along x. *)
Lemma uniform_found f degen o s N X : lip3 f -> 0 < s ->
  (forall a b c, (a <= N)%nat -> (b <= N)%nat -> (c <= N)%nat -> (a = 0 \/ a = N \/ b = 0 \/ b = N \/ c = 0 \/ c = N)%nat -> 0 <= f (grid_point o s a b c)) ->
  in3 (Box3 o (add3 o (elem3 (s * INR N)))) X -> f X < - (sqrt 3 / 2 * s) ->
  (forall t, In t (uniform_mesh (fun _ => false) f o s N) -> degen t = false) ->
  exists A B C P, In (A, B, C) (uniform_mesh degen f o s N) /\ (P = A \/ P = B \/ P = C) /\
    x3 X <= x3 P + s / 2 /\ Rabs (y3 P - y3 X) <= s / 2 /\ Rabs (z3 P - z3 X) <= s / 2.
Proof.
  intros Hf Hs Hb HX HfX Hd.
  assert (Hidx : forall c0 x0, c0 <= x0 <= c0 + s * INR N -> exists i, (i <= N)%nat /\ Rabs (c0 + s * INR i - x0) <= s / 2).
  { intros c0 x0 H. destruct (nearest_index ((x0 - c0) / s) N) as (i & Hi & D).
    - split; [apply Rmult_le_reg_r with s; [lra|]; unfold Rdiv; rewrite Rmult_assoc, Rinv_l by lra; lra|].
      apply Rmult_le_reg_r with s; [lra|]. unfold Rdiv. rewrite Rmult_assoc, Rinv_l by lra. lra.
    - exists i. split; [exact Hi|]. replace (c0 + s * INR i - x0) with (- (s * ((x0 - c0) / s - INR i))) by (field; lra).
      rewrite Rabs_Ropp, Rabs_mult, (Rabs_right s) by lra. nra. }
  unfold in3 in HX. cbn in HX. destruct HX as (X1 & X2 & X3).
  destruct (Hidx (x3 o) (x3 X) ltac:(lra)) as (a & La & Da). destruct (Hidx (y3 o) (y3 X) ltac:(lra)) as (b & Lb & Db). destruct (Hidx (z3 o) (z3 X) ltac:(lra)) as (c & Lc & Dc).
  assert (HD : dist3 (grid_point o s a b c) X <= sqrt 3 / 2 * s).
  { pose proof (sqrt_pos 3). unfold dist3. apply sq_le; [nra|]. rewrite norm3_sq.
    replace (sqrt 3 / 2 * s * (sqrt 3 / 2 * s)) with (sqrt 3 * sqrt 3 * (s / 2 * (s / 2))) by field. rewrite sqrt_sqrt by lra.
    unfold norm3sq, dot3, grid_point. cbn [sub3 add3 scale3 x3 y3 z3].
    assert (K : forall d, Rabs d <= s / 2 -> d * d <= s / 2 * (s / 2)) by (intros d D; apply abs_bounds in D; nra).
    pose proof (K _ Da). pose proof (K _ Db). pose proof (K _ Dc). lra. }
  assert (Hneg : f (grid_point o s a b c) < 0). { pose proof (Hf (grid_point o s a b c) X) as F. apply abs_bounds in F. lra. }
  assert (Hin : (0 < a < N /\ 0 < b < N /\ 0 < c < N)%nat).
  { pose proof (Hb a b c La Lb Lc) as Q. repeat split; match goal with |- (?u < ?v)%nat => destruct (le_lt_dec v u); [exfalso; assert (0 <= f (grid_point o s a b c)) by (apply Q; lia); lra|assumption] end. }
  destruct (walk (fun i => f (grid_point o s i b c)) a N La Hneg) as (i & Hi & Hs1 & Hs2); [apply Hb; lia|].
  assert (E0 : grid_corner o s i b c 0 = grid_point o s i b c) by (unfold grid_corner, grid_point, corner3; apply v3_ext; cbn; ring).
  assert (E1 : grid_corner o s i b c 1 = grid_point o s (S i) b c) by (unfold grid_corner, grid_point, corner3; apply v3_ext; cbn [corner x3 y3 z3 add3 scale3]; rewrite ?S_INR; ring).
  destruct (C88_complete f degen o s N i b c 0 1) as (A & B & C & P & t & H1 & H2 & (_ & _ & Ht & EP) & _); try lia.
  - unfold cell_edge; cbn. lia.
  - rewrite E0, E1. lra.
  - intros t Ht. apply Hd. apply in_uniform. exists i, b, c. repeat split; try lia. exact Ht.
  - exists A, B, C, P. split; [exact H1|]. split; [exact H2|]. rewrite EP, E0, E1. unfold grid_point. cbn [x3 y3 z3 add3 scale3 sub3]. rewrite S_INR.
    split; [|split].
    + assert (INR a <= INR i) by (apply le_INR; lia). apply abs_bounds in Da. nra.
    + replace (y3 o + s * INR b + t * (y3 o + s * INR b - (y3 o + s * INR b)) - y3 X) with (y3 o + s * INR b - y3 X) by ring. exact Db.
    + replace (z3 o + s * INR c + t * (z3 o + s * INR c - (z3 o + s * INR c)) - z3 X) with (z3 o + s * INR c - z3 X) by ring. exact Dc.
Qed.

(** End to end: a solid inside its bounds that contains a ball of more than half
    a cell diagonal around X is never rendered as an empty stream. *)
Theorem C88_not_missed f bounds m degen conc X : let s := (101/100) * vmax3 (size3 bounds) / IZR m in
  lip3 f -> (forall p, f p < 0 -> in3 bounds p) -> 0 < vmax3 (size3 bounds) -> (2 <= m <= 2 ^ 61)%Z ->
  f X < - (sqrt 3 / 2 * s) ->
  exists o, new_octree bounds m = Ok o /\ (~ tie f o -> (forall t, degen t = false) ->
    forall st ts dst sched st' dst' n, let E := octree_env degen f o in
    reachable E conc st ts -> read_triangles (E := E) st dst sched = Returned st' dst' n true ->
    exists A B C P, In (A, B, C) (ts ++ firstn n dst') /\ (P = A \/ P = B \/ P = C) /\
      x3 X <= x3 P + s / 2 /\ Rabs (y3 P - y3 X) <= s / 2 /\ Rabs (z3 P - z3 X) <= s / 2).
Proof.
  intros s Hf Hb Hl Hm HX. destruct (C07_grid bounds m Hm Hl) as (o & k & Ho & Horg & Hlev & Hres & Hcells & Hroot).
  exists o. split; [exact Ho|]. intros Ht Hdg st ts dst sched st' dst' n E Hr Hc.
  assert (Hmr : 2 <= IZR m) by (change 2 with (IZR 2); apply IZR_le; lia).
  assert (Hs : 0 < s) by (apply Rdiv_lt_0_compat; lra). fold s in Hres.
  assert (Hrp : 0 < o_res o) by lra.
  pose proof (C01_exactly_once E conc st ts dst sched st' dst' n (octree_wf f o degen ltac:(lia)) Hr Hc) as Hperm.
  assert (EU : surface_triangles E = uniform_mesh degen f (o_origin o) s (2 ^ (S (S k) - 1 - 1)))
    by (unfold E; rewrite C06_full_grid by assumption; rewrite leaves_uniform, Hlev, Hres; reflexivity).
  rewrite EU in Hperm.
  replace (S (S k) - 1 - 1)%nat with k in Hperm by lia.
  pose proof (sqrt_pos 3) as S3.
  assert (HX0 : f X < 0) by nra. pose proof (Hb X HX0) as HXb.
  destruct Hroot as [R1 R2].
  destruct (uniform_found f degen (o_origin o) s (2 ^ k) X Hf Hs) as (A & B & C & P & H1 & H2 & H3).
  - intros a b c La Lb Lc Hbd. destruct (Rle_or_lt 0 (f (grid_point (o_origin o) s a b c))) as [|Hneg]; [assumption|]. exfalso.
    pose proof (neg_strict f bounds _ Hf Hb Hneg) as Hst. apply Hb in Hneg. destruct (R2 _ Hneg) as [_ R3].
    assert (Hsz : 0 < x3 (size3 bounds) /\ 0 < y3 (size3 bounds) /\ 0 < z3 (size3 bounds)) by (unfold size3; cbn; lra).
    destruct R3 as (R4 & R5 & R6). specialize (R4 ltac:(tauto)). specialize (R5 ltac:(tauto)). specialize (R6 ltac:(tauto)).
    rewrite Hres in R4, R5, R6. unfold grid_point, elem3 in R4, R5, R6. cbn [x3 y3 z3 add3 scale3 min3 max3] in R4, R5, R6.
    assert (EN : INR (2 ^ k) = 2 ^ k) by (rewrite pow_INR; reflexivity).
    destruct Hbd as [->|[->|[->|[->|[->| ->]]]]]; rewrite ?EN in *; cbn [INR] in *; lra.
  - destruct (R2 _ HXb) as [HXbb _]. apply R1 in HXbb. rewrite Hres in HXbb.
    replace (s * INR (2 ^ k)) with (2 ^ k * s) by (rewrite pow_INR; change (INR 2) with 2; ring). exact HXbb.
  - exact HX.
  - auto.
  - exists A, B, C, P. split; [|auto]. eapply Permutation_in; [apply Permutation_sym; exact Hperm|exact H1].
Qed.

(** The unit ball with meshCells = 2: the centre is inside by more than half a
    cell diagonal; and there are triangles (C13, C14). *)
Example C88_example_ball :
  let b := Box3 (V3 (-1) (-1) (-1)) (V3 1 1 1) in
  vmax3 (size3 b) = 2 /\ unit_ball zero3 < - (sqrt 3 / 2 * ((101/100) * vmax3 (size3 b) / 2)).
Proof.
  cbv zeta. assert (Hv : vmax3 (size3 (Box3 (V3 (-1) (-1) (-1)) (V3 1 1 1))) = 2) by (unfold vmax3; cbn; rmm; lra).
  split; [exact Hv|]. rewrite Hv. unfold unit_ball. replace (dist3 zero3 zero3) with 0.
  - assert (sqrt 3 < 19 / 10) by (apply Rsqr_incrst_0; [rewrite Rsqr_sqrt by lra; unfold Rsqr; lra|apply sqrt_pos|lra]). lra.
  - unfold dist3, norm3. replace (norm3sq (sub3 zero3 zero3)) with 0 by (unfold norm3sq, dot3; cbn; ring). now rewrite sqrt_0.
Qed.
Example C13_example :
  let o := V3 (-101/100) (-101/100) (-101/100) in
  exists A B C, In (A, B, C) (mc_triangles (fun _ => false) (fun i => add3 o (scale3 (101/100) (corner3 i))) (fun i => unit_ball (add3 o (scale3 (101/100) (corner3 i)))) 0).
Proof.
  intros o. destruct C88_example as (_ & He & Hv). fold o in Hv.
  destruct (C88_complete unit_ball (fun _ => false) o (101/100) 1 0 0 0 6 7) as (A & B & C & P & t & H & _); auto.
  apply in_uniform in H as (i & j & k & Hi & Hj & Hk & H). assert (i = 0 /\ j = 0 /\ k = 0)%nat as (-> & -> & ->) by lia.
  exists A, B, C. erewrite mc_triangles_ext; [exact H| |]; intros c; [|cbv beta; f_equal];
    unfold grid_corner; (replace (add3 (V3 (INR 0) (INR 0) (INR 0)) (corner3 c)) with (corner3 c); [reflexivity|]);
    destruct (corner3 c); apply v3_ext; cbn; ring.
Qed.
