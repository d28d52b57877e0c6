(** C99: Evaluate in float64 stays within an explicit distance of Evaluate in real numbers. *)
From Coq Require Import List Bool ZArith Lia Floats.SpecFloat Reals Lra Psatz.
From Verif Require PropsForm PolyModel PropsPoly.
From Verif Require Import Prelude Vec BoxModel MatrixModel SdfModel PrimModel Trig Grades GradesSweep Distance PropsMatrix PropsBool PropsTransform PropsBlend PropsLip SdfLemmas FloatBoolModel FloatRound FloatShapeModel FloatNear PropsFloatSign FloatTrack FloatInv FloatRules FloatCopies FloatBoundsModel FloatPolyModel FloatPoly.
Import ListNotations.
Local Open Scope R_scope.

(** ** Solids as expressions: the calls a program makes, with their float64 arguments.
    A placement has the matrix as stored in memory and the exact rotation or reflection it stands for. *)
Inductive prof :=
| PCircle (r : spec_float)
| PBox (size : fv2) (round : spec_float)
| PPoly (vertices : list fv2)
| POffset (a : prof) (d : spec_float)
| PDiff (a b : prof)
| PInter (a b : prof).
Inductive part :=
| TSphere (r : spec_float)
| TBox (size : fv3) (round : spec_float)
| TCylinder (height radius round : spec_float)
| TExtrude (a : prof) (h : spec_float)
| TRevolve (a : prof)
| TOffset (a : part) (d : spec_float)
| TShell (a : part) (t : spec_float)
| TUnion (a b : part) (l : parts)
| TDiff (a b : part)
| TInter (a b : part)
| TMove (a : part) (fm : mat spec_float) (m : m44)
| TCut (a : part) (p n : fv3)
| TElongate (a : part) (h : fv3)
| TScale (a : part) (k : spec_float)
| TArray (a : part) (n0 n1 n2 : nat) (step : fv3)
with parts := PNil | PCons (a : part) (l : parts).
Scheme part_mut := Induction for part Sort Prop with parts_mut := Induction for parts Sort Prop.
Combined Scheme part_mutind from part_mut, parts_mut.

(** what Evaluate computes *)
Fixpoint feval2 (e : prof) : fv2 -> spec_float :=
  match e with
  | PCircle r => fcircle gnrm2 r
  | PBox s r => fbox2 gnrm2 s r
  | PPoly l => fpolygon l
  | POffset a d => foffset (feval2 a) d
  | PDiff a b => fun p => fdiff (feval2 a p) (feval2 b p)
  | PInter a b => fun p => finter (feval2 a p) (feval2 b p)
  end.
Fixpoint feval3 (e : part) : fv3 -> spec_float :=
  match e with
  | TSphere r => fsphere gnrm3 r
  | TBox s r => fbox3 ghyp gnrm3 s r
  | TCylinder h r k => fcylinder ghyp gnrm2 h r k
  | TExtrude a h => fextrude (feval2 a) h
  | TRevolve a => frevolve (feval2 a)
  | TOffset a d => foffset (feval3 a) d
  | TShell a t => fshell (feval3 a) t
  | TUnion a b l => fun p => funion (feval3 a p) (feval3 b p :: fevals l p)
  | TDiff a b => fun p => fdiff (feval3 a p) (feval3 b p)
  | TInter a b => fun p => finter (feval3 a p) (feval3 b p)
  | TMove a fm m => ftransform3d (feval3 a) fm
  | TCut a q n => fcut3d (feval3 a) q n
  | TElongate a h => felongate (feval3 a) h
  | TScale a k => fscale_uniform (feval3 a) k
  | TArray a n0 n1 n2 st => farray3 (feval3 a) n0 n1 n2 st
  end
with fevals (l : parts) (p : fv3) : list spec_float := match l with PNil => [] | PCons a l => feval3 a p :: fevals l p end.

(** the same calls in the real-number model *)
Fixpoint build2 (e : prof) : res sdf2 :=
  match e with
  | PCircle r => must_circle (FR r)
  | PBox s r => must_box2 (FR2 s) (FR r)
  | PPoly l => PolyModel.polygon (map FR2 l)
  | POffset a d => do s <- build2 a; Ok (offset2d s (FR d))
  | PDiff a b => do s <- build2 a; do t <- build2 b; difference2d (Some s) (Some t)
  | PInter a b => do s <- build2 a; do t <- build2 b; intersect2d (Some s) (Some t)
  end.
Fixpoint build3 (e : part) : res sdf3 :=
  match e with
  | TSphere r => must_sphere (FR r)
  | TBox s r => must_box3 (FR3 s) (FR r)
  | TCylinder h r k => must_cylinder (FR h) (FR r) (FR k)
  | TExtrude a h => do s <- build2 a; Ok (extrude3d s (FR h))
  | TRevolve a => do s <- build2 a; revolve3d (Some s) (2 * PI)
  | TOffset a d => do s <- build3 a; Ok (offset3d s (FR d))
  | TShell a t => do s <- build3 a; Ok (shell3d s (FR t))
  | TUnion a b l => do s <- build3 a; do t <- build3 b; do r <- builds l; union3d (Some s :: Some t :: map Some r)
  | TDiff a b => do s <- build3 a; do t <- build3 b; difference3d (Some s) (Some t)
  | TInter a b => do s <- build3 a; do t <- build3 b; intersect3d (Some s) (Some t)
  | TMove a fm m => do s <- build3 a; transform3d (Some s) m
  | TCut a q n => do s <- build3 a; Ok (cut3d s (FR3 q) (FR3 n))
  | TElongate a h => do s <- build3 a; Ok (elongate3d s (FR3 h))
  | TScale a k => do s <- build3 a; Ok (scale_uniform3d s (FR k))
  | TArray a n0 n1 n2 st => do s <- build3 a; Ok (array3d s (Z.of_nat n0) (Z.of_nat n1) (Z.of_nat n2) (FR3 st))
  end
with builds (l : parts) : res (list sdf3) := match l with PNil => Ok [] | PCons a l => do s <- build3 a; do r <- builds l; Ok (s :: r) end.

(** ** The bound.  [mag e * S] bounds the value and [err e * 2^-53 * S] the error, if S bounds the arguments and the points. *)
Fixpoint mag2 (e : prof) : R :=
  match e with PCircle _ | PBox _ _ => 9 | PPoly _ => 3 | POffset a _ => mag2 a + 1 | PDiff a b | PInter a b => Rmax (mag2 a) (mag2 b) end.
Fixpoint err2 (e : prof) : R :=
  match e with PCircle _ | PBox _ _ => 130 | PPoly _ => 400 | POffset a _ => err2 a + mag2 a + 2 | PDiff a b | PInter a b => Rmax (err2 a) (err2 b) end.
Fixpoint mag (e : part) : R :=
  match e with
  | TSphere _ | TBox _ _ | TCylinder _ _ _ => 9
  | TExtrude a _ => Rmax (mag2 a) 2
  | TRevolve a => mag2 a + 1
  | TOffset a _ | TShell a _ | TMove a _ _ | TElongate a _ | TArray a _ _ _ _ => mag a + 1
  | TUnion a b l => Rmax (mag a) (Rmax (mag b) (mags l))
  | TDiff a b | TInter a b => Rmax (mag a) (mag b)
  | TCut a _ _ => Rmax 6 (mag a)
  | TScale a k => Rabs (FR k) * (mag a + 1)
  end
with mags (l : parts) : R := match l with PNil => 0 | PCons a l => Rmax (mag a) (mags l) end.
Fixpoint err (e : part) : R :=
  match e with
  | TSphere _ | TBox _ _ | TCylinder _ _ _ => 130
  | TExtrude a _ => Rmax (err2 a) 5
  | TRevolve a => err2 a + 7
  | TOffset a _ => err a + mag a + 2
  | TShell a _ => err a + mag a + 4
  | TUnion a b l => Rmax (err a) (Rmax (err b) (errs l))
  | TDiff a b | TInter a b => Rmax (err a) (err b)
  | TMove a _ _ => err a + 5200
  | TCut a _ _ => Rmax 300 (err a)
  | TElongate a _ => err a + 10
  | TScale a k => Rabs (FR k) * (err a + mag a + 12) + 1
  | TArray a _ _ _ _ => err a + 14
  end
with errs (l : parts) : R := match l with PNil => 0 | PCons a l => Rmax (err a) (errs l) end.

(** The conditions for points within [B] of the origin: the arguments are finite numbers of magnitude at most [S], the points that reach the operands
    stay within [S], and the accumulated bounds stay below 1000 and 10^6. *)
Fixpoint fits2 (S : R) (e : prof) (B : R) : Prop :=
  match e with
  | PCircle r => B <= S /\ num r /\ Rabs (FR r) <= S
  | PBox s r => B <= S /\ at2 S s /\ num r /\ Rabs (FR r) <= S
  | PPoly l => B <= S /\ loop_fits S l
  | POffset a d => fits2 S a B /\ num d /\ Rabs (FR d) <= S /\ small (mag2 a) (err2 a)
  | PDiff a b | PInter a b => fits2 S a B /\ fits2 S b B
  end.
Fixpoint fits (S : R) (e : part) (B : R) : Prop :=
  match e with
  | TSphere r => B <= S /\ num r /\ Rabs (FR r) <= S
  | TBox s r => B <= S /\ at3 S s /\ num r /\ Rabs (FR r) <= S
  | TCylinder h r k => B <= S /\ num h /\ num r /\ num k /\ Rabs (FR h) <= S /\ Rabs (FR r) <= S /\ Rabs (FR k) <= S
  | TExtrude a h => fits2 S a B /\ B <= S /\ num h /\ Rabs (FR h) <= S
  | TRevolve a => fits2 S a (1.0001 * B) /\ scale_ok B /\ B <= S
  | TOffset a d => fits S a B /\ num d /\ Rabs (FR d) <= S /\ small (mag a) (err a)
  | TShell a t => fits S a B /\ num t /\ 0 < FR t <= S /\ small (mag a) (err a)
  | TUnion a b l => fits S a B /\ fits S b B /\ fitss S l B
  | TDiff a b | TInter a b => fits S a B /\ fits S b B
  | TMove a fm m => let B' := B + norm3 (trans m) in fits S a (1.0001 * B') /\ iso3 m /\ stored B' fm m /\ scale_ok B' /\ B' <= S
  | TCut a q n => fits S a B /\ B <= S /\ at3 S q /\ valid3 n /\ fin3 n /\ scale_ok (norm3 (FR3 n))
  | TElongate a h => fits S a B /\ B <= S /\ at3 S h
  | TScale a k => let c := Rabs (FR k) in
      fits S a (1.0001 * (B / c)) /\ num k /\ / 1000000 <= c <= 1000000 /\ scale_ok (B / c) /\ B / c <= S /\ c * (mag a + 2) <= 1000000 /\ small (mag a) (err a)
  | TArray a n0 n1 n2 st => let B' := B + span n0 n1 n2 (FR3 st) in
      fits S a (1.0001 * B') /\ valid3 st /\ fin3 st /\ scale_ok B' /\ B' <= S /\
      (0 < Z.of_nat n0 < 2 ^ 63)%Z /\ (0 < Z.of_nat n1 < 2 ^ 63)%Z /\ (0 < Z.of_nat n2 < 2 ^ 63)%Z /\ small (mag a) (err a)
  end
with fitss (S : R) (l : parts) (B : R) : Prop := match l with PNil => True | PCons a l => fits S a B /\ fitss S l B end.

(** ** Leaves *)
Lemma lip3_sphere r : lip3 (fun p => norm3 p - r).
Proof.
  intros p q. replace (norm3 p - r - (norm3 q - r)) with (norm3 p - norm3 q) by ring. pose proof (norm_near p q (dist3 p q) (Rle_refl _)). pose proof (norm_near q p (dist3 q p) (Rle_refl _)) as H'. rewrite dist3_sym in H'. apply Rabs_iff. lra.
Qed.
Lemma lip3_box s r : lip3 (fun p => sdf_box3d p s - r).
Proof.
  intros p q. rewrite !bx3_box. replace (_ - r - (_ - r)) with (bx3 (sub3 (abs_elem3 p) s) - bx3 (sub3 (abs_elem3 q) s)) by ring. eapply Rle_trans; [apply bx3_lip|].
  unfold dist3, norm3. apply sqrt_le_1_alt. unfold norm3sq, dot3. destruct p as [a b c], q as [a' b' c']. cbn [abs_elem3 sub3 x3 y3 z3].
  assert (G : forall x y z, (Rabs x - z - (Rabs y - z)) * (Rabs x - z - (Rabs y - z)) <= (x - y) * (x - y)) by (intros x y z; unfold Rabs; destruct (Rcase_abs x), (Rcase_abs y); nra).
  pose proof (G a a' (x3 s)). pose proof (G b b' (y3 s)). pose proof (G c c' (z3 s)). lra.
Qed.
Lemma lip2_box s r : lip2 (fun p => sdf_box2d p s - r).
Proof.
  intros p q. rewrite !quad_box. replace (_ - r - (_ - r)) with (quad (Rabs (x2 p) - x2 s) (Rabs (y2 p) - y2 s) - quad (Rabs (x2 q) - x2 s) (Rabs (y2 q) - y2 s)) by ring.
  eapply Rle_trans; [apply (quad_lip (V2 _ _) (V2 _ _))|]. unfold dist2, norm2. apply sqrt_le_1_alt. unfold norm2sq, dot2. destruct p as [a b], q as [a' b']. cbn [sub2 x2 y2].
  assert (G : forall x y z, (Rabs x - z - (Rabs y - z)) * (Rabs x - z - (Rabs y - z)) <= (x - y) * (x - y)) by (intros x y z; unfold Rabs; destruct (Rcase_abs x), (Rcase_abs y); nra).
  pose proof (G a a' (x2 s)). pose proof (G b b' (y2 s)). lra.
Qed.
Lemma lip2_circle r : lip2 (fun p => norm2 p - r).
Proof.
  intros p q. replace (norm2 p - r - (norm2 q - r)) with (norm2 p - norm2 q) by ring. pose proof (dist2_le p q (dist2 p q) (Rle_refl _)). pose proof (dist2_le q p (dist2 q p) (Rle_refl _)) as H'. rewrite dist2_sym in H'. apply Rabs_iff. lra.
Qed.
Lemma lip3_cylinder a b r : lip3 (fun p => sdf_box2d (V2 (hypot (x3 p) (y3 p)) (z3 p)) (V2 a b) - r).
Proof.
  apply (lip23_map (fun q => sdf_box2d q (V2 a b) - r) (fun p => V2 (hypot (x3 p) (y3 p)) (z3 p))); [apply lip2_box|].
  intros p q. unfold dist2, dist3, norm2, norm3. apply sqrt_le_1_alt. unfold norm2sq, norm3sq, dot2, dot3. cbn [sub2 sub3 x2 y2 x3 y3 z3].
  set (u := hypot (x3 p) (y3 p)). set (v := hypot (x3 q) (y3 q)). assert (U : u * u = x3 p * x3 p + y3 p * y3 p) by apply hypot_sq. assert (W : v * v = x3 q * x3 q + y3 q * y3 q) by apply hypot_sq.
  assert (U0 : 0 <= u) by apply hypot_nonneg. assert (W0 : 0 <= v) by apply hypot_nonneg. clearbody u v.
  assert (C : x3 p * x3 q + y3 p * y3 q <= u * v).
  { apply Rnot_lt_le. intros G. assert (u * v * (u * v) < (x3 p * x3 q + y3 p * y3 q) * (x3 p * x3 q + y3 p * y3 q)) by (apply Rmult_le_0_lt_compat; nra).
    replace (u * v * (u * v)) with ((u * u) * (v * v)) in H by ring. rewrite U, W in H. pose proof (Rle_0_sqr (x3 p * y3 q - y3 p * x3 q)). unfold Rsqr in *. nra. }
  nra.
Qed.
Lemma tracks_ext S B F f g V E : (forall p, f p = g p) -> tracks3 S B F f V E -> tracks3 S B F g V E.
Proof. intros H T p P. rewrite <- H. exact (T p P). Qed.
Lemma tracks_up S B F f V E V' E' : scale_ok S -> V <= V' -> E <= E' -> tracks3 S B F f V E -> tracks3 S B F f V' E'.
Proof.
  intros K HV HE T p P. destruct (T p P) as (N & A). destruct (scale_facts S K) as (S0 & W0 & _). split; [eapply near_weak; [exact N|nra]|nra].
Qed.
Lemma ball3_near B S p : B <= S -> ball3 B p -> at3 S p.
Proof. intros H P. apply (ball3_at B) in P. destruct P as (A & C & D1 & D2 & D3). split; [exact A|]. split; [exact C|]. repeat split; lra. Qed.
Lemma ball2_near B S p : B <= S -> ball2 B p -> at2 S p.
Proof. intros H P. apply (ball2_at B) in P. destruct P as (A & C & D1 & D2). split; [exact A|]. split; [exact C|]. split; lra. Qed.

(** ** Profiles *)
Lemma prof_tracks S : scale_ok S -> forall e B s, fits2 S e B -> build2 e = Ok s -> lip2 (ev2 s) /\ tracks2 S B (feval2 e) (ev2 s) (mag2 e) (err2 e).
Proof.
  intros K. induction e as [r|sz r|l|a IHa d|a IHa b IHb|a IHa b IHb]; intros B s H E; cbn [fits2 build2 feval2 mag2 err2] in *.
  - destruct H as (BS & N & A). unfold must_circle in E. destruct (Rltb (FR r) 0); [discriminate|]. inversion E. cbn [ev2]. split; [apply lip2_circle|]. intros p P. apply (circle_near r p S); auto. now apply (ball2_near B).
  - destruct H as (BS & C & N & A). inversion E. cbn [ev2]. split; [apply lip2_box|]. intros p P. apply (box2_near sz r p S); auto. now apply (ball2_near B).
  - destruct H as (BS & C). split; [apply (PropsPoly.C59_lipschitz_partial _ _ E), (polygon_loop S l s K C E)|]. intros p P. apply (polygon_tracks S l s p); auto. now apply (ball2_near B).
  - destruct H as (H & N & A & Sm). destruct (build2 a) as [s'| |]; try discriminate. cbn [bind] in E. inversion E. destruct (IHa B s' H eq_refl) as (L & T). split; [now apply lip2_offset|]. cbn [ev2 offset2d]. now apply offset2_rule.
  - destruct H as (Ha & Hb). destruct (build2 a) as [s1| |]; try discriminate. destruct (build2 b) as [s2| |]; try discriminate. cbn [bind] in E. destruct (IHa B s1 Ha eq_refl) as (L1 & T1). destruct (IHb B s2 Hb eq_refl) as (L2 & T2).
    split; [eapply lip2_diff; [apply nonspreading_max| | |exact E]; auto|]. inversion E. cbn [ev2 diff2_max]. now apply diff2_rule.
  - destruct H as (Ha & Hb). destruct (build2 a) as [s1| |]; try discriminate. destruct (build2 b) as [s2| |]; try discriminate. cbn [bind] in E. destruct (IHa B s1 Ha eq_refl) as (L1 & T1). destruct (IHb B s2 Hb eq_refl) as (L2 & T2).
    split; [eapply lip2_inter; [apply nonspreading_max| | |exact E]; auto|]. inversion E. cbn [ev2 inter2_max]. now apply inter2_rule.
Qed.

(** ** Solids *)
Definition good (S : R) (e : part) : Prop := forall B s, fits S e B -> build3 e = Ok s -> lip3 (ev3 s) /\ tracks3 S B (feval3 e) (ev3 s) (mag e) (err e).
Definition goods (S : R) (l : parts) : Prop := forall B r, fitss S l B -> builds l = Ok r ->
  (forall x, In x r -> lip3 (ev3 x)) /\ forall p, ball3 B p -> Forall2 (fun x s => fnear x (ev3 s (FR3 p)) (errs l * (u53 * S)) /\ Rabs (ev3 s (FR3 p)) <= mags l * S) (fevals l p) r.
Lemma Forall2_imp {A B} (P Q : A -> B -> Prop) l l' : (forall x y, P x y -> Q x y) -> Forall2 P l l' -> Forall2 Q l l'.
Proof. intros H F. induction F; constructor; auto. Qed.
Lemma union_near w M xs ss q : Forall2 (fun x s => fnear x (ev3 s q) w /\ Rabs (ev3 s q) <= M) xs ss -> forall x a, fnear x a w -> Rabs a <= M ->
  fnear (fold_left go_min xs x) (fold_left (fun d s => Rmin d (ev3 s q)) ss a) w /\ Rabs (fold_left (fun d s => Rmin d (ev3 s q)) ss a) <= M.
Proof.
  induction 1 as [|x s xs ss (N & A) H IH]; intros y a Ny Ay; cbn [fold_left]; [auto|]. apply IH; [now apply near_min|]. unfold Rmin. destruct (Rle_dec a (ev3 s q)); auto.
Qed.
Theorem C99_evaluate S : scale_ok S -> (forall e, good S e) /\ (forall l, goods S l).
Proof.
  intros K. destruct (scale_facts S K) as (S0 & W0 & _). apply part_mutind; unfold good, goods.
  - intros r B s (BS & N & A) E. cbn [build3] in E. unfold must_sphere in E. destruct (Rleb (FR r) 0); [discriminate|]. inversion E. cbn [ev3 feval3 mag err]. split; [apply lip3_sphere|].
    intros p P. destruct (sphere_near r p S (ball3_near B S p BS P) N A K) as (T1 & T2). split; [exact T1|lra].
  - intros sz r B s (BS & C & N & A) E. cbn [build3] in E. unfold must_box3 in E. destruct (lte_zero3 (FR3 sz)); [discriminate|]. destruct (Rltb (FR r) 0); [discriminate|]. inversion E. cbn [ev3 feval3 mag err]. split; [apply lip3_box|].
    intros p P. destruct (box3_near sz r p S (ball3_near B S p BS P) C N A K) as (T1 & T2). split; [exact T1|lra].
  - intros h r k B s (BS & N1 & N2 & N3 & A1 & A2 & A3) E. cbn [build3] in E. unfold must_cylinder in E. destruct (Rleb (FR r) 0); [discriminate|]. destruct (Rltb (FR k) 0); [discriminate|]. destruct (Rltb (FR r) (FR k)); [discriminate|]. destruct (Rltb (FR h) (2 * FR k)); [discriminate|].
    inversion E. cbn [ev3 feval3 mag err]. split; [apply lip3_cylinder|]. intros p P. exact (cylinder_near h r k p S (ball3_near B S p BS P) N1 N2 N3 A1 A2 A3 K).
  - intros a h B s (H & BS & N & A) E. cbn [build3] in E. destruct (build2 a) as [t| |] eqn:Ea; try discriminate. cbn [bind] in E. inversion E. destruct (prof_tracks S K a B t H Ea) as (L & T). split; [now apply lip3_extrude|].
    cbn [feval3 mag err]. exact (extrude_rule S K B (feval2 a) (ev2 t) (mag2 a) (err2 a) h T BS N A).
  - intros a B s (H & KB & BS) E. cbn [build3] in E. destruct (build2 a) as [t| |] eqn:Ea; try discriminate. cbn [bind] in E. destruct (prof_tracks S K a (1.0001 * B) t H Ea) as (L & T). split; [eapply lip3_revolve; [exact L|exact E]|].
    cbn [feval3 mag err]. destruct (PropsForm.revolve_full t) as (s' & E' & Q). rewrite E in E'. inversion E'. subst s'. eapply tracks_ext; [|exact (revolve_rule S B (feval2 a) (ev2 t) (mag2 a) (err2 a) K KB BS T L)].
    intros p. cbv beta. rewrite Q. apply Rmax_left. apply Rle_refl.
  - intros a IH d B s (H & N & A & Sm) E. cbn [build3] in E. destruct (build3 a) as [t| |] eqn:Ea; try discriminate. cbn [bind] in E. inversion E. destruct (IH B t H eq_refl) as (L & T). split; [now apply lip3_offset|]. cbn [feval3 mag err ev3 offset3d]. now apply offset_rule.
  - intros a IH d B s (H & N & (A0 & A) & Sm) E. cbn [build3] in E. destruct (build3 a) as [t| |] eqn:Ea; try discriminate. cbn [bind] in E. inversion E. destruct (IH B t H eq_refl) as (L & T). split; [now apply lip3_shell|]. cbn [feval3 mag err].
    unfold shell3d. destruct (Rleb (FR d) 0) eqn:Q; [apply Rleb_true in Q; lra|]. cbn [ev3]. apply shell_rule; auto. apply Rabs_iff. lra.
  - intros a IHa b IHb l IHl B s (Ha & Hb & Hl) E. cbn [build3] in E. destruct (build3 a) as [sa| |] eqn:Ea; try discriminate. destruct (build3 b) as [sb| |] eqn:Eb; try discriminate. destruct (builds l) as [r| |] eqn:El; try discriminate. cbn [bind] in E.
    destruct (IHa B sa Ha eq_refl) as (La & Ta). destruct (IHb B sb Hb eq_refl) as (Lb & Tb). destruct (IHl B r Hl eq_refl) as (Lr & Tr).
    split.
    + eapply C76_union; [apply nonspreading_min| |exact E]. intros x [I|[I|I]]; [inversion I; subst; auto|inversion I; subst; auto|]. apply in_map_iff in I as (y & I & J). inversion I. subst. auto.
    + assert (Ev : forall q, ev3 s q = fold_left (fun d x => Rmin d (ev3 x q)) (sb :: r) (ev3 sa q)).
      { intros q. unfold union3d, union3d_min in E. cbn [length Nat.ltb Nat.leb all_some] in E. assert (Am : all_some (map Some r) = Some r) by (clear; induction r as [|x r IH]; cbn; [auto|now rewrite IH]). rewrite Am in E. inversion E. reflexivity. }
      intros p P. rewrite Ev. cbn [feval3 mag err]. destruct (Ta p P) as (Na & Aa). destruct (Tb p P) as (Nb & Ab). specialize (Tr p P).
      set (M := Rmax (mag a) (Rmax (mag b) (mags l))). set (W := Rmax (err a) (Rmax (err b) (errs l))).
      assert (M1 : mag a <= M) by apply Rmax_l. assert (M2 : mag b <= M) by (eapply Rle_trans; [apply Rmax_l|apply Rmax_r]). assert (M3 : mags l <= M) by (eapply Rle_trans; [apply Rmax_r|apply Rmax_r]).
      assert (W1 : err a <= W) by apply Rmax_l. assert (W2 : err b <= W) by (eapply Rle_trans; [apply Rmax_l|apply Rmax_r]). assert (W3 : errs l <= W) by (eapply Rle_trans; [apply Rmax_r|apply Rmax_r]).
      clearbody M W. unfold funion. apply union_near.
      * constructor; [split; [eapply near_weak; [exact Nb|nra]|nra]|]. eapply Forall2_imp; [|exact Tr]. cbv beta. intros x y (N & A). split; [eapply near_weak; [exact N|nra]|nra].
      * eapply near_weak; [exact Na|nra].
      * nra.
  - intros a IHa b IHb B s (Ha & Hb) E. cbn [build3] in E. destruct (build3 a) as [sa| |] eqn:Ea; try discriminate. destruct (build3 b) as [sb| |] eqn:Eb; try discriminate. cbn [bind] in E.
    destruct (IHa B sa Ha eq_refl) as (La & Ta). destruct (IHb B sb Hb eq_refl) as (Lb & Tb). split; [eapply lip3_diff; [apply nonspreading_max| | |exact E]; auto|]. inversion E. cbn [ev3 diff3_max feval3 mag err]. now apply diff_rule.
  - intros a IHa b IHb B s (Ha & Hb) E. cbn [build3] in E. destruct (build3 a) as [sa| |] eqn:Ea; try discriminate. destruct (build3 b) as [sb| |] eqn:Eb; try discriminate. cbn [bind] in E.
    destruct (IHa B sa Ha eq_refl) as (La & Ta). destruct (IHb B sb Hb eq_refl) as (Lb & Tb). split; [eapply lip3_inter; [apply nonspreading_max| | |exact E]; auto|]. inversion E. cbn [ev3 inter3_max feval3 mag err]. now apply inter_rule.
  - intros a IH fm m B s (H & I & St & KB & BS) E. cbn [build3] in E. destruct (build3 a) as [t| |] eqn:Ea; try discriminate. cbn [bind] in E. inversion E. destruct (IH _ t H eq_refl) as (L & T). split; [now apply lip3_transform|]. cbn [feval3 mag err].
    exact (transform_rule S K B (feval3 a) (ev3 t) (mag a) (err a) fm m T L I KB St BS).
  - intros a IH q n B s (H & BS & Aq & Vn & Fn & Kn) E. cbn [build3] in E. destruct (build3 a) as [t| |] eqn:Ea; try discriminate. cbn [bind] in E. inversion E. destruct (IH _ t H eq_refl) as (L & T). split.
    + apply lip3_cut; [|exact L]. intros Z. rewrite Z in Kn. destruct (scale_facts _ Kn) as (Z0 & _). unfold norm3, norm3sq, dot3, zero3 in Z0. cbn [x3 y3 z3] in Z0. rewrite !Rmult_0_r, !Rplus_0_r, sqrt_0 in Z0. lra.
    + cbn [feval3 mag err]. exact (cut_rule S K B (feval3 a) (ev3 t) (mag a) (err a) q n T BS Aq Vn Fn Kn).
  - intros a IH h B s (H & BS & Ah) E. cbn [build3] in E. destruct (build3 a) as [t| |] eqn:Ea; try discriminate. cbn [bind] in E. inversion E. destruct (IH _ t H eq_refl) as (L & T). split; [now apply lip3_elongate|]. cbn [feval3 mag err].
    exact (elongate_rule S K B (feval3 a) (ev3 t) (mag a) (err a) h T L BS Ah).
  - intros a IH k B s (H & N & C & KB & BS & CV & Sm) E. cbn [build3] in E. destruct (build3 a) as [t| |] eqn:Ea; try discriminate. cbn [bind] in E. inversion E. destruct (IH _ t H eq_refl) as (L & T). split.
    + apply lip3_scale; [|exact L]. intros Z. rewrite Z, Rabs_R0 in C. lra.
    + cbn [feval3 mag err]. exact (scale_rule S K B (feval3 a) (ev3 t) (mag a) (err a) k Sm T L N C KB BS CV).
  - intros a IH n0 n1 n2 st B s (H & Vs & Fs & KB & BS & N0 & N1 & N2 & Sm) E. cbn [build3] in E. destruct (build3 a) as [t| |] eqn:Ea; try discriminate. cbn [bind] in E. inversion E. destruct (IH _ t H eq_refl) as (L & T). split.
    + apply lip3_array; [apply nonspreading_min|exact L].
    + cbn [feval3 mag err]. unfold array3d, array3d_min. destruct (Z.of_nat n0 <=? 0)%Z eqn:Q0; [apply Z.leb_le in Q0; lia|]. destruct (Z.of_nat n1 <=? 0)%Z eqn:Q1; [apply Z.leb_le in Q1; lia|]. destruct (Z.of_nat n2 <=? 0)%Z eqn:Q2; [apply Z.leb_le in Q2; lia|].
      cbn [orb ev3]. rewrite !Nat2Z.id. exact (array_rule S B (feval3 a) t (mag a) (err a) n0 n1 n2 st K KB BS Vs Fs N0 N1 N2 Sm T L).
  - intros B r _ E. inversion E. split; [intros x []|]. intros p P. constructor.
  - intros a IHa l IHl B r (Ha & Hl) E. cbn [builds] in E. destruct (build3 a) as [sa| |] eqn:Ea; try discriminate. destruct (builds l) as [r'| |] eqn:El; try discriminate. cbn [bind] in E. inversion E. subst.
    destruct (IHa B sa Ha eq_refl) as (La & Ta). destruct (IHl B r' Hl eq_refl) as (Lr & Tr). split; [intros x [->|I]; auto|]. intros p P. destruct (Ta p P) as (Na & Aa). specialize (Tr p P). cbn [fevals errs mags].
    pose proof (Rmax_l (mag a) (mags l)). pose proof (Rmax_r (mag a) (mags l)). pose proof (Rmax_l (err a) (errs l)). pose proof (Rmax_r (err a) (errs l)). set (M := Rmax (mag a) (mags l)) in *. set (W := Rmax (err a) (errs l)) in *. clearbody M W.
    constructor; [split; [eapply near_weak; [exact Na|nra]|nra]|]. eapply Forall2_imp; [|exact Tr]. cbv beta. intros x y (N & A). split; [eapply near_weak; [exact N|nra]|nra].
Qed.

(** Evaluate never returns NaN or an infinity, and is within [err e * 2^-53 * S] of the exact value. *)
Theorem C99_error S e B s p : scale_ok S -> fits S e B -> build3 e = Ok s -> valid3 p -> fin3 p -> norm3 (FR3 p) <= B ->
  fin (feval3 e p) = true /\ Rabs (FR (feval3 e p) - ev3 s (FR3 p)) <= err e * (u53 * S).
Proof.
  intros K H E V F N. destruct (C99_evaluate S K) as (G & _). destruct (G e B s H E) as (_ & T). destruct (T p (conj V (conj F N))) as ((A & _ & C) & _). split; [exact A|exact C].
Qed.
(** A point is put on the wrong side only if it is that close to the surface. *)
Theorem C99_sign S e B s p : scale_ok S -> fits S e B -> build3 e = Ok s -> valid3 p -> fin3 p -> norm3 (FR3 p) <= B ->
  (ev3 s (FR3 p) < - (err e * (u53 * S)) -> SFltb (feval3 e p) fzero = true) /\
  (err e * (u53 * S) < ev3 s (FR3 p) -> SFltb fzero (feval3 e p) = true).
Proof.
  intros K H E V F N. destruct (C99_evaluate S K) as (G & _). destruct (G e B s H E) as (_ & T). destruct (T p (conj V (conj F N))) as ((A & W & C) & _). apply Rabs_iff in C.
  split; intros Q.
  - apply ltb_FR; auto; [reflexivity|]. change (FR fzero) with 0. lra.
  - apply ltb_FR; auto; [reflexivity|]. change (FR fzero) with 0. lra.
Qed.
(** the matrices of Translate3D are stored exactly *)
Theorem C99_translate S v : valid3 v -> fin3 v -> scale_ok S -> iso3 (translate3d (FR3 v)) /\ stored S (ftranslate3d v) (translate3d (FR3 v)).
Proof.
  intros (V1 & V2 & V3') (F1 & F2 & F3) K. destruct (scale_facts S K) as (S0 & W0 & _). pose proof u53_pos as U0. split; [apply iso3_translate|].
  assert (E1 : fnear f1 1 (16 * u53)) by (destruct f1_ok; rewrite <- FR_f1; eapply near_weak; [now apply near_exact|lra]).
  assert (E0 : fnear fzero 0 (16 * u53)) by (eapply near_weak; [exact (near_exact fzero eq_refl eq_refl)|lra]).
  assert (Ev : forall x, fin x = true -> valid x -> fnear x (FR x) (16 * (u53 * S))) by (intros x A B; eapply near_weak; [now apply near_exact|lra]).
  assert (N0 : num fzero /\ FR fzero = 0) by (split; [split; reflexivity|reflexivity]). assert (N1 : num f1 /\ FR f1 = 1) by (split; [exact f1_ok|exact FR_f1]).
  unfold stored, ftranslate3d, translate3d. cbn [x00 x01 x02 x03 x10 x11 x12 x13 x20 x21 x22 x23 x30 x31 x32 x33 a00 a01 a02 a03 a10 a11 a12 a13 a20 a21 a22 a23 FR3 x3 y3 z3].
  refine (conj (conj E1 (conj E0 E0)) (conj (conj E0 (conj E1 E0)) (conj (conj E0 (conj E0 E1)) (conj (conj (Ev _ F1 V1) (conj (Ev _ F2 V2) (Ev _ F3 V3'))) (conj N0 (conj N0 (conj N0 N1))))))).
Qed.

(** The start value of the minima over copies is the largest float64. *)
Theorem C93_start : FR fmax64 = max_float64 /\ (forall x, valid x -> fin x = true -> FR x <= FR fmax64) /\ fcopies [] = fmax64.
Proof.
  destruct maxfloat_ok as (_ & _ & M). split; [exact M|]. split; [|reflexivity]. intros x V F. pose proof (small_max x V) as H. apply Rabs_iff in H.
  assert (E : FR fmax64 = fmaxR); [|lra]. unfold fmax64, fmaxR. cbn [FR]. replace (bpow 1024) with (bpow 53 * bpow 971) by (rewrite <- bpow_add; reflexivity). rewrite (bpow_Z 53) by lia. set (y := bpow 971). clearbody y.
  replace (2 ^ 53)%Z with 9007199254740992%Z by reflexivity. lra.
Qed.

(** ** Example: a plate with a ball moved by (5, 0, 2), a row of bores and a cut, at points within 30 of the origin *)
Definition k2 : spec_float := S754_finite false 4503599627370496 (-51).
Definition k3 : spec_float := S754_finite false 6755399441055744 (-51).
Definition k5 : spec_float := S754_finite false 5629499534213120 (-50).
Definition k20 : spec_float := S754_finite false 5629499534213120 (-48).
Lemma k_ok : (num f1 /\ FR f1 = 1) /\ (num k2 /\ FR k2 = 2) /\ (num k3 /\ FR k3 = 3) /\ (num k5 /\ FR k5 = 5) /\ (num k20 /\ FR k20 = 20) /\ (num fzero /\ FR fzero = 0).
Proof.
  assert (E : forall k, (0 <= k)%Z -> bpow (- k) = / IZR (2 ^ k)) by (intros k Hk; rewrite bpow_opp, bpow_Z by lia; reflexivity).
  assert (E1 : bpow (-51) = / 2251799813685248) by exact (E 51%Z ltac:(lia)). assert (E2 : bpow (-50) = / 1125899906842624) by exact (E 50%Z ltac:(lia)). assert (E3 : bpow (-48) = / 281474976710656) by exact (E 48%Z ltac:(lia)).
  repeat split; try apply f1_ok; try apply FR_f1; try reflexivity; unfold FR, k2, k3, k5, k20; rewrite ?E1, ?E2, ?E3; lra.
Qed.
Definition demo : part :=
  TCut (TDiff (TUnion (TBox (FV3 k20 k20 k2) fzero) (TMove (TSphere k3) (ftranslate3d (FV3 k5 fzero k2)) (translate3d (FR3 (FV3 k5 fzero k2)))) PNil)
              (TArray (TCylinder k5 f1 fzero) 3 1 1 (FV3 k3 fzero fzero)))
       (FV3 fzero fzero fzero) (FV3 k2 f1 fzero).
Lemma scale_small x : 1 <= x <= 1000000 -> scale_ok x.
Proof.
  intros H. split.
  - apply Rle_trans with (bpow 0); [apply bpow_le; lia|]. unfold bpow. cbn [powerRZ]. lra.
  - apply Rle_trans with (bpow 20); [rewrite bpow_Z by lia; eapply Rle_trans; [apply H|]; apply IZR_le; cbn; lia|apply bpow_le; lia].
Qed.
Example C99_example : fits 100 demo 30 /\ (exists s, build3 demo = Ok s) /\ err demo = 5330 /\
  forall s p, build3 demo = Ok s -> valid3 p -> fin3 p -> norm3 (FR3 p) <= 30 -> Rabs (FR (feval3 demo p) - ev3 s (FR3 p)) <= / 1000000000.
Proof.
  destruct k_ok as ((N1 & R1) & (N2 & R2) & (N3 & R3) & (N5 & R5) & (N20 & R20) & (N0 & R0)).
  assert (K : scale_ok 100) by (apply scale_small; lra).
  assert (Nt : norm3 (trans (translate3d (FR3 (FV3 k5 fzero k2)))) <= 6).
  { unfold trans, translate3d, FR3. cbn [a03 a13 a23 x3 y3 z3 f3x f3y f3z]. rewrite R5, R0, R2. unfold norm3, norm3sq, dot3. cbn [x3 y3 z3]. rewrite <- (sqrt_square 6) by lra. apply sqrt_le_1_alt. lra. }
  assert (Nt0 : 0 <= norm3 (trans (translate3d (FR3 (FV3 k5 fzero k2))))) by apply sqrt_pos.
  assert (Ns : span 3 1 1 (FR3 (FV3 k3 fzero fzero)) = 9).
  { unfold span, FR3. cbn [x3 y3 z3 f3x f3y f3z INR]. rewrite R3, R0. unfold norm3, norm3sq, dot3. cbn [x3 y3 z3]. replace (_ + _ + _) with (9 * 9) by ring. apply sqrt_square. lra. }
  assert (Nn : norm3 (FR3 (FV3 k2 f1 fzero)) >= 1 /\ norm3 (FR3 (FV3 k2 f1 fzero)) <= 100).
  { unfold FR3, norm3, norm3sq, dot3. cbn [x3 y3 z3 f3x f3y f3z]. rewrite R2, R1, R0. split; [apply Rle_ge; apply Rle_trans with (sqrt 1); [rewrite sqrt_1; lra|apply sqrt_le_1_alt; lra]|]. rewrite <- (sqrt_square 100) by lra. apply sqrt_le_1_alt. lra. }
  assert (A : forall x c, FR x = c -> 0 <= c <= 100 -> Rabs (FR x) <= 100) by (intros x c -> H; rewrite Rabs_right; lra).
  assert (V3' : forall x y z, num x -> num y -> num z -> valid3 (FV3 x y z) /\ fin3 (FV3 x y z)) by (intros x y z (a & b) (c & d) (e & f); split; repeat split; assumption).
  assert (F : fits 100 demo 30).
  { unfold demo. cbn [fits fitss]. rewrite Ns. set (T := norm3 (trans _)) in *.
    split; [|split; [lra|split; [|destruct (V3' k2 f1 fzero N2 N1 N0) as (X & Y); split; [exact X|split; [exact Y|apply scale_small; lra]]]]].
    - split; [split; [|split; [|exact I]]|].
      + split; [lra|]. split; [|split; [exact N0|apply (A _ 0); auto; lra]]. destruct (V3' k20 k20 k2 N20 N20 N2) as (X & Y). split; [exact X|]. split; [exact Y|]. cbn [f3x f3y f3z]. split; [apply (A _ 20); auto; lra|]. split; [apply (A _ 20); auto; lra|apply (A _ 2); auto; lra].
      + destruct (V3' k5 fzero k2 N5 N0 N2) as (X & Y). destruct (C99_translate (30 + T) (FV3 k5 fzero k2) X Y ltac:(apply scale_small; lra)) as (I & St).
        split; [split; [lra|split; [exact N3|apply (A _ 3); auto; lra]]|]. split; [exact I|]. split; [exact St|]. split; [apply scale_small; lra|lra].
      + destruct (V3' k3 fzero fzero N3 N0 N0) as (X & Y). cbn [mag err]. split; [split; [lra|]; split; [exact N5|]; split; [exact N1|]; split; [exact N0|]; split; [apply (A _ 5); auto; lra|]; split; [apply (A _ 1); auto; lra|apply (A _ 0); auto; lra]|].
        split; [exact X|]. split; [exact Y|]. split; [apply scale_small; lra|]. split; [lra|]. split; [lia|]. split; [lia|]. split; [lia|]. split; lra.
    - destruct (V3' fzero fzero fzero N0 N0 N0) as (X & Y). split; [exact X|]. split; [exact Y|]. cbn [f3x f3y f3z]. split; [apply (A _ 0); auto; lra|]. split; apply (A _ 0); auto; lra. }
  assert (Er : err demo = 5330). { unfold demo. cbn [err errs]. unfold Rmax. repeat destruct Rle_dec; lra. }
  split; [exact F|]. split.
  - unfold demo. cbn [build3 builds]. unfold must_box3, must_sphere, must_cylinder, lte_zero3. cbn [FR3 f3x f3y f3z x3 y3 z3]. rewrite R20, R2, R3, R5, R1, R0.
    repeat match goal with |- context [Rleb ?a ?b] => replace (Rleb a b) with false by (symmetry; apply Rleb_false; lra) end.
    repeat match goal with |- context [Rltb ?a ?b] => replace (Rltb a b) with false by (symmetry; apply Rltb_false; lra) end. cbn. eexists. reflexivity.
  - split; [exact Er|]. intros s p E V Fp N. destruct (C99_error 100 demo 30 s p K F E V Fp N) as (_ & D). eapply Rle_trans; [exact D|]. rewrite Er. pose proof u53_small. lra.
Qed.
