(** C103: Bounds in float64 stays within an explicit distance of Bounds in real numbers, and rendering a solid from its own float64 Bounds. *)
From Coq Require Import List Bool ZArith Lia Floats.SpecFloat Reals Lra Psatz.
From Verif Require PolyModel PropsPoly.
From Verif Require Import Prelude Vec BoxModel MatrixModel SdfModel PrimModel Trig Grades GradesOps GradesSweep Distance PropsMatrix PropsBool PropsTransform PropsBounds PropsLip SdfLemmas FloatBoolModel FloatRound FloatShapeModel FloatNear PropsFloatSign FloatTrack FloatInv FloatRules FloatCopies FloatPolyModel FloatPoly PropsFloatTrack OctreeModel OctreeSpec OctreeGrid PropsOctree OctreeR McTables McModel McSpec McProofs McRealModel PropsSampling PropsMc PropsSurface FloatRenderModel FloatRender PropsFloatRender FloatSetup PropsFloatSetup FloatBoundsModel FloatBounds.
Import ListNotations.
Local Open Scope R_scope.

(** what Bounds returns; Difference and Intersect return the box of their first operand (sdf3.go:482, 554, sdf2.go:475, 531), Cut3D that of its operand (589),
    Union3D extends the first box by every box (432-436), Transform3D maps it with MulBox (362) *)
Fixpoint fbounds2 (e : prof) : fbox2d :=
  match e with
  | PCircle r => fbounds_circle r
  | PBox s _ => fbounds_box2 s
  | PPoly l => fbounds_polygon l
  | POffset a d => fbounds_offset2 (fbounds2 a) d
  | PDiff a _ | PInter a _ => fbounds2 a
  end.
Fixpoint fbounds3 (e : part) : fbox3d :=
  match e with
  | TSphere r => fbounds_sphere r
  | TBox s _ => fbounds_box3 s
  | TCylinder h r _ => fbounds_cylinder h r
  | TExtrude a h => fbounds_extrude (fbounds2 a) h
  | TRevolve a => fbounds_revolve (fbounds2 a)
  | TOffset a d => fbounds_offset3 (fbounds3 a) d
  | TShell a t => fbounds_shell (fbounds3 a) t
  | TUnion a b l => fold_left fextend3 (fbounds3 a :: fbounds3 b :: fboundss l) (fbounds3 a)
  | TDiff a _ | TInter a _ | TCut a _ _ => fbounds3 a
  | TMove a fm _ => fmul_box3 fm (fbounds3 a)
  | TElongate a h => fbounds_elongate (fbounds3 a) h
  | TScale a k => fbounds_scale (fbounds3 a) k
  | TArray a n0 n1 n2 st => fbounds_array (fbounds3 a) n0 n1 n2 st
  end
with fboundss (l : parts) : list fbox3d := match l with PNil => [] | PCons a l => fbounds3 a :: fboundss l end.

(** [bmag e * S] bounds the coordinates, [berr e * 2^-53 * S] their errors *)
Fixpoint bmag2 (e : prof) : R := match e with PCircle _ | PBox _ _ | PPoly _ => 1 | POffset a _ => bmag2 a + 1 | PDiff a _ | PInter a _ => bmag2 a end.
Fixpoint berr2 (e : prof) : R := match e with PCircle _ | PBox _ _ | PPoly _ => 8 | POffset a _ => berr2 a + 20 * bmag2 a + 60 | PDiff a _ | PInter a _ => berr2 a end.
Fixpoint bmag (e : part) : R :=
  match e with
  | TSphere _ | TBox _ _ | TCylinder _ _ _ => 1
  | TExtrude a _ => Rmax (bmag2 a) 1
  | TRevolve a => bmag2 a
  | TOffset a _ | TShell a _ | TElongate a _ | TArray a _ _ _ _ => bmag a + 1
  | TUnion a b l => Rmax (bmag a) (Rmax (bmag b) (bmags l))
  | TDiff a _ | TInter a _ | TCut a _ _ => bmag a
  | TMove a _ _ => 3 * bmag a + 1
  | TScale a k => Rabs (FR k) * bmag a
  end
with bmags (l : parts) : R := match l with PNil => 0 | PCons a l => Rmax (bmag a) (bmags l) end.
Fixpoint berr (e : part) : R :=
  match e with
  | TSphere _ | TBox _ _ | TCylinder _ _ _ => 8
  | TExtrude a _ => Rmax (berr2 a) 8
  | TRevolve a => berr2 a + bmag2 a + 2
  | TOffset a _ => berr a + 20 * bmag a + 60
  | TShell a _ | TElongate a _ => berr a + bmag a + 5
  | TUnion a b l => Rmax (berr a) (Rmax (berr b) (berrs l))
  | TDiff a _ | TInter a _ | TCut a _ _ => berr a
  | TMove a _ _ => 3 * berr a + 57 * bmag a + 76
  | TScale a k => Rabs (FR k) * (berr a + 4 * bmag a) + 9
  | TArray a _ _ _ _ => berr a + bmag a + 6
  end
with berrs (l : parts) : R := match l with PNil => 0 | PCons a l => Rmax (berr a) (berrs l) end.
(** the accumulated bounds stay below 1000 and 10^6 *)
Fixpoint fitsb2 (e : prof) : Prop := match e with PCircle _ | PBox _ _ | PPoly _ => True | POffset a _ => fitsb2 a /\ small (bmag2 a) (berr2 a) | PDiff a _ | PInter a _ => fitsb2 a end.
Fixpoint fitsb (e : part) : Prop :=
  match e with
  | TSphere _ | TBox _ _ | TCylinder _ _ _ => True
  | TExtrude a _ => fitsb2 a
  | TRevolve a => fitsb2 a /\ small (bmag2 a) (berr2 a)
  | TOffset a _ | TShell a _ | TElongate a _ | TArray a _ _ _ _ | TMove a _ _ => fitsb a /\ small (bmag a) (berr a)
  | TUnion a b l => fitsb a /\ fitsb b /\ fitsbs l
  | TDiff a _ | TInter a _ | TCut a _ _ => fitsb a
  | TScale a k => fitsb a /\ small (bmag a) (berr a) /\ small (Rabs (FR k) * bmag a) (Rabs (FR k) * berr a)
  end
with fitsbs (l : parts) : Prop := match l with PNil => True | PCons a l => fitsb a /\ fitsbs l end.

Lemma small_okb M E : small M E -> okb M E.
Proof. intros (A & B). split; lra. Qed.
Lemma box3_eq a b c d e f a' b' c' d' e' f' : a = a' -> b = b' -> c = c' -> d = d' -> e = e' -> f = f' -> Box3 (V3 a b c) (V3 d e f) = Box3 (V3 a' b' c') (V3 d' e' f').
Proof. intros; subst; reflexivity. Qed.
Lemma nr_eq S M E x z z' : nr S M E x z -> z = z' -> nr S M E x z'.
Proof. intros H <-. exact H. Qed.

Lemma prof_bounds S : scale_ok S -> forall e B s, fits2 S e B -> build2 e = Ok s -> fitsb2 e -> nb2 S (bmag2 e) (berr2 e) (fbounds2 e) (bb2 s).
Proof.
  intros K. induction e as [r|sz r|l|a IHa d|a IHa b _|a IHa b _]; intros B s H Eq Fb; cbn [fits2 build2 fbounds2 bmag2 berr2 fitsb2] in *.
  - destruct H as (_ & N & A). unfold must_circle in Eq. destruct (Rltb (FR r) 0); [discriminate|]. inversion Eq. cbn [bb2]. pose proof (nr_num S r N A) as Nr.
    destruct (neg_near2 S K 1 0 r r (V2 (FR r) (FR r)) ltac:(split; lra) Nr Nr) as ((A1 & A2) & (A3 & A4)). split; split; (eapply nr_weak; [exact K|eassumption|lra|lra]).
  - destruct H as (_ & (Nx & Ny & Ax & Ay) & _). inversion Eq. cbn [bb2]. pose proof (nr_hnum S K _ Nx Ax) as Hx. pose proof (nr_hnum S K _ Ny Ay) as Hy.
    unfold fbounds_box2, fscale2 at 2 3. destruct (neg_near2 S K (/ 2) 2.5 _ _ (scale2 (1 / 2) (FR2 sz)) ltac:(split; lra) (nr_eq S (/ 2) 2.5 _ _ (x2 (scale2 (1 / 2) (FR2 sz))) Hx ltac:(cbn [x2 scale2 FR2]; lra)) (nr_eq S (/ 2) 2.5 _ _ (y2 (scale2 (1 / 2) (FR2 sz))) Hy ltac:(cbn [y2 scale2 FR2]; lra))) as ((A1 & A2) & (A3 & A4)).
    split; split; (eapply nr_weak; [exact K|eassumption|lra|lra]).
  - destruct H as (_ & C). destruct (polygon_box S l s K C Eq) as ((N1 & N2 & A1 & A2) & E1 & (N3 & N4 & A3 & A4) & E2). unfold nb2. rewrite <- E1, <- E2. cbn [FR2 x2 y2].
    split; split; (eapply nr_weak; [exact K|apply nr_num; assumption|lra|lra]).
  - destruct H as (H & N & A & Sm). destruct Fb as (Fb & Sb). destruct (build2 a) as [s'| |]; try discriminate. cbn [bind] in Eq. inversion Eq. destruct (IHa B s' H eq_refl Fb) as ((A1 & A2) & (A3 & A4)).
    destruct (nr_offset S K _ _ _ _ _ _ d (small_okb _ _ Sb) (proj2 (proj1 Sb)) A1 A3 N A) as (X1 & X2). destruct (nr_offset S K _ _ _ _ _ _ d (small_okb _ _ Sb) (proj2 (proj1 Sb)) A2 A4 N A) as (Y1 & Y2).
    split; split; (eapply nr_eq; [eassumption|]); unfold offset2d, new_box2, center2, size2; cbn [bb2 min2 max2 x2 y2 sub2 add2 scale2 elem2]; field.
  - destruct H as (Ha & Hb). destruct (build2 a) as [s1| |]; try discriminate. destruct (build2 b) as [s2| |]; try discriminate. inversion Eq. cbn [bb2]. exact (IHa B s1 Ha eq_refl Fb).
  - destruct H as (Ha & Hb). destruct (build2 a) as [s1| |]; try discriminate. destruct (build2 b) as [s2| |]; try discriminate. inversion Eq. cbn [bb2]. exact (IHa B s1 Ha eq_refl Fb).
Qed.

Lemma box_of M E S b lo hi : nr S M E (f3x (fst b)) (x3 lo) -> nr S M E (f3y (fst b)) (y3 lo) -> nr S M E (f3z (fst b)) (z3 lo) ->
  nr S M E (f3x (snd b)) (x3 hi) -> nr S M E (f3y (snd b)) (y3 hi) -> nr S M E (f3z (snd b)) (z3 hi) -> nb3 S M E b (Box3 lo hi).
Proof. intros. split; (split; [|split]); assumption. Qed.
Lemma sphere_bounds S r : scale_ok S -> num r -> Rabs (FR r) <= S -> nb3 S 1 8 (fbounds_sphere r) (Box3 (scale3 (-1) (V3 (FR r) (FR r) (FR r))) (V3 (FR r) (FR r) (FR r))).
Proof.
  intros K N A. pose proof (nr_num S r N A) as Nr. apply (nb3_weak S K 1 (0 + 1 + 2)); [|lra|lra]. apply (neg_near S K 1 0 r r r (V3 (FR r) (FR r) (FR r))); auto. split; lra.
Qed.
Lemma box_bounds S sz : scale_ok S -> at3 S sz -> nb3 S 1 8 (fbounds_box3 sz) (Box3 (scale3 (-1) (scale3 (1 / 2) (FR3 sz))) (scale3 (1 / 2) (FR3 sz))).
Proof.
  intros K ((Vx & Vy & Vz) & (Fx & Fy & Fz) & Ax & Ay & Az). apply (nb3_weak S K (/ 2) (2.5 + / 2 + 2)); [|lra|lra].
  apply (neg_near S K (/ 2) 2.5 _ _ _ (scale3 (1 / 2) (FR3 sz))); [split; lra| | |]; (eapply nr_eq; [apply nr_hnum; [exact K|split; assumption|assumption]|]); cbn [x3 y3 z3 scale3 FR3]; lra.
Qed.
Lemma cylinder_bounds S h r : scale_ok S -> num h -> num r -> Rabs (FR h) <= S -> Rabs (FR r) <= S ->
  nb3 S 1 8 (fbounds_cylinder h r) (Box3 (scale3 (-1) (V3 (FR r) (FR r) (FR h / 2))) (V3 (FR r) (FR r) (FR h / 2))).
Proof.
  intros K Nh Nr Ah Ar. apply (nb3_weak S K 1 (2.5 + 1 + 2)); [|lra|lra]. pose proof (nr_num S r Nr Ar) as N1.
  apply (neg_near S K 1 2.5 _ _ _ (V3 (FR r) (FR r) (FR h / 2))); [split; lra| | |]; cbn [x3 y3 z3]; [eapply nr_weak; [exact K|exact N1|lra|lra]|eapply nr_weak; [exact K|exact N1|lra|lra]|].
  eapply nr_eq; [eapply nr_weak; [exact K|apply nr_hnum; [exact K|exact Nh|exact Ah]|lra|lra]|lra].
Qed.
Lemma revolve_bb s t : revolve3d (Some s) (2 * PI) = Ok t ->
  let l := Rmax (Rabs (x2 (min2 (bb2 s)))) (Rabs (x2 (max2 (bb2 s)))) in bb3 t = Box3 (V3 (l * -1) (l * -1) (y2 (min2 (bb2 s)))) (V3 (l * 1) (l * 1) (y2 (max2 (bb2 s)))).
Proof.
  unfold revolve3d. rewrite (proj2 (Rleb_false (2 * PI) 0)) by (pose proof PI_RGT_0; lra). replace (2 * PI - 2 * PI) with 0 by ring. rewrite Rabs_R0.
  rewrite (proj2 (Rltb_true 0 tolerance)) by (unfold tolerance; lra). rewrite (proj2 (Reqb_true 0 0)) by reflexivity. cbn [set_min2 set_max2 fold_left bind min_elem2 max_elem2 x2 y2]. intros E. inversion E. cbn [bb3].
  rewrite (Rmin_right 1 (-1)), (Rmax_left 1 (-1)) by lra. reflexivity.
Qed.
Lemma revolve_bounds S M E b bb : scale_ok S -> small M E -> nb2 S M E b bb ->
  let l := Rmax (Rabs (x2 (min2 bb))) (Rabs (x2 (max2 bb))) in nb3 S M (E + M + 2) (fbounds_revolve b) (Box3 (V3 (l * -1) (l * -1) (y2 (min2 bb))) (V3 (l * 1) (l * 1) (y2 (max2 bb)))).
Proof.
  intros K Sm ((A1 & A2) & (A3 & A4)) l. pose proof (small_okb _ _ Sm) as O. destruct Sm as (Sm1 & Sm2).
  assert (Nl : nr S M E (go_max (SFabs (f2x (fst b))) (SFabs (f2x (snd b)))) l) by (apply nr_max; apply nr_abs; assumption).
  assert (M1 : go_min f1 fm1 = fm1) by (vm_compute; reflexivity). assert (M2 : go_max f1 fm1 = f1) by (vm_compute; reflexivity).
  set (fl := go_max (SFabs (f2x (fst b))) (SFabs (f2x (snd b)))) in *.
  destruct (nr_mul S K 1 0 M E fm1 (-1) fl l m1_near) as (_ & Lm); try lra; auto; [rewrite Rabs_left; lra|].
  destruct (nr_mul S K 1 0 M E f1 1 fl l one_near) as (_ & Lp); try lra; auto; [rewrite Rabs_right; lra|].
  unfold fbounds_revolve. apply box_of; cbn [fst snd fscale2 fmin_elem2 fmax_elem2 f2x f2y f3x f3y f3z x3 y3 z3]; rewrite ?M1, ?M2;
    [eapply nr_weak; [exact K|exact Lm|lra|lra]|eapply nr_weak; [exact K|exact Lm|lra|lra]|eapply nr_weak; [exact K|exact A2|lra|lra]|eapply nr_weak; [exact K|exact Lp|lra|lra]|eapply nr_weak; [exact K|exact Lp|lra|lra]|eapply nr_weak; [exact K|exact A4|lra|lra]].
Qed.
Lemma offset_bounds S M E b s d : scale_ok S -> small M E -> num d -> Rabs (FR d) <= S -> nb3 S M E b (bb3 s) -> nb3 S (M + 1) (E + 20 * M + 60) (fbounds_offset3 b d) (bb3 (offset3d s (FR d))).
Proof.
  intros K Sm N A ((A1 & A2 & A3) & (A4 & A5 & A6)). pose proof (small_okb _ _ Sm) as O. pose proof (proj2 (proj1 Sm)) as M3.
  destruct (nr_offset S K _ _ _ _ _ _ d O M3 A1 A4 N A) as (X1 & X2). destruct (nr_offset S K _ _ _ _ _ _ d O M3 A2 A5 N A) as (Y1 & Y2). destruct (nr_offset S K _ _ _ _ _ _ d O M3 A3 A6 N A) as (Z1 & Z2).
  unfold offset3d. cbn [bb3]. apply box_of; (eapply nr_eq; [eassumption|]); unfold center3, size3; cbn [x3 y3 z3 sub3 add3 scale3 elem3]; field.
Qed.
Lemma shell_bounds S M E b s t : scale_ok S -> small M E -> num t -> 0 < FR t <= S -> nb3 S M E b (bb3 s) -> nb3 S (M + 1) (E + M + 5) (fbounds_shell b t) (bb3 (shell3d s (FR t))).
Proof.
  intros K Sm N A ((A1 & A2 & A3) & (A4 & A5 & A6)). pose proof (small_okb _ _ Sm) as O. destruct Sm as (Sm1 & Sm2). assert (At : Rabs (FR t) <= S) by (rewrite Rabs_right; lra). pose proof (nr_hnum S K t N At) as H.
  assert (Os : okb (/ 2) 2.5) by (split; lra). unfold shell3d. rewrite (proj2 (Rleb_false (FR t) 0)) by lra. cbn [bb3]. unfold enlarge3. 
  apply box_of; cbn [x3 y3 z3 sub3 add3 scale3]; (eapply nr_eq; [eapply nr_weak; [exact K|(apply (nr_sub S K M E (/ 2) 2.5) || apply (nr_add S K M E (/ 2) 2.5)); [eassumption|exact H|exact O|exact Os]|lra|lra]|lra]).
Qed.
Lemma elongate_bounds S M E b s h : scale_ok S -> small M E -> at3 S h -> nb3 S M E b (bb3 s) -> nb3 S (M + 1) (E + M + 5) (fbounds_elongate b h) (bb3 (elongate3d s (FR3 h))).
Proof.
  intros K Sm ((Vx & Vy & Vz) & (Fx & Fy & Fz) & Ax & Ay & Az) N. pose proof (small_okb _ _ Sm) as O. destruct Sm as (Sm1 & Sm2).
  assert (G : forall x, valid x -> fin x = true -> Rabs (FR x) <= S -> nr S (/ 2) 2.5 (fmul fhalf (SFabs x)) (1 / 2 * Rabs (FR x)) /\ nr S (/ 2) 2.5 (fmul (SFopp fhalf) (SFabs x)) (-1 / 2 * Rabs (FR x))).
  { intros x V F A. pose proof (nr_abs S _ _ _ _ (nr_num S x (conj F V) A)) as Na. split.
    - eapply nr_eq; [eapply nr_weak; [exact K|apply (nr_half S K 1 0 _ _ Na ltac:(split; lra))|lra|lra]|lra].
    - destruct (nr_mul S K (/ 2) 0 1 0 (SFopp fhalf) (- / 2) (SFabs x) (Rabs (FR x)) (near_opp _ _ _ half_near)) as (H & _); try lra; auto; [rewrite Rabs_left; lra|split; lra|]. eapply nr_eq; [eapply nr_weak; [exact K|exact H|lra|lra]|lra]. }
  destruct (G _ Vx Fx Ax) as (Px & Qx). destruct (G _ Vy Fy Ay) as (Py & Qy). destruct (G _ Vz Fz Az) as (Pz & Qz).
  apply (nb3_weak S K (M + / 2) (E + 2.5 + M + / 2 + 1)); [|lra|lra]. unfold elongate3d. cbn [bb3]. apply extend_near; (apply translate_near; [exact K|exact O|split; lra|exact N| | |]); assumption.
Qed.

Lemma array_factor n s S : (0 < Z.of_nat n < 2 ^ 63)%Z -> num s -> Rabs (INR n * FR s) <= S -> scale_ok S -> nr S 1 4 (fmul s (fofZ (Z.of_nat n - 1))) (FR s * IZR (Z.of_nat n - 1)).
Proof.
  intros Hn (Fs & Vs) A K. destruct (scale_facts S K) as (S0 & W0 & Et & M & Sm). pose proof u53_pos as U0. pose proof u53_small as U1. pose proof (Rabs_pos (FR s)) as Ps.
  set (j := (n - 1)%nat). replace (Z.of_nat n - 1)%Z with (Z.of_nat j) by (unfold j; lia). rewrite <- INR_IZR_INZ. pose proof (fofZ_near j ltac:(unfold j; lia)) as N. pose proof (pos_INR j) as P. assert (Lj : INR j <= INR n) by (apply le_INR; unfold j; lia).
  assert (Aj : INR j * Rabs (FR s) <= S). { rewrite Rabs_mult, (Rabs_right (INR n)) in A by (apply Rle_ge, pos_INR). eapply Rle_trans; [|exact A]. apply Rmult_le_compat_r; lra. }
  set (q := INR j * Rabs (FR s)) in *. assert (Q0 : 0 <= q) by (unfold q; nra). assert (Uq : 0 <= u53 * q <= u53 * S) by (split; [nra|apply Rmult_le_compat_l; lra]).
  assert (Eq : Rabs (FR s * INR j) = q) by (rewrite Rabs_mult, (Rabs_right (INR j)) by lra; unfold q; ring). split; [|rewrite Eq; lra].
  assert (Eu : Rabs (FR s) * (u53 * INR j) = u53 * q) by (unfold q; ring).
  eapply near_weak; [apply (near_mul _ _ _ _ _ _ (2 * S) (near_exact s Fs Vs) N)|]; rewrite ?Eq, ?Eu, ?Rmult_0_l; lra.
Qed.
Lemma array_bounds S M E b s n0 n1 n2 st : scale_ok S -> small M E -> valid3 st -> fin3 st -> span n0 n1 n2 (FR3 st) <= S ->
  (0 < Z.of_nat n0 < 2 ^ 63)%Z -> (0 < Z.of_nat n1 < 2 ^ 63)%Z -> (0 < Z.of_nat n2 < 2 ^ 63)%Z ->
  nb3 S M E b (bb3 s) -> nb3 S (M + 1) (E + M + 6) (fbounds_array b n0 n1 n2 st) (bb3 (array3d s (Z.of_nat n0) (Z.of_nat n1) (Z.of_nat n2) (FR3 st))).
Proof.
  intros K Sm (Vx & Vy & Vz) (Fx & Fy & Fz) Sp H0 H1 H2 N. pose proof (small_okb _ _ Sm) as O. destruct Sm as (Sm1 & Sm2).
  destruct (comp_le (V3 (INR n0 * x3 (FR3 st)) (INR n1 * y3 (FR3 st)) (INR n2 * z3 (FR3 st)))) as (Cx & Cy & Cz). fold (span n0 n1 n2 (FR3 st)) in Cx, Cy, Cz. cbn [x3 y3 z3 FR3] in Cx, Cy, Cz.
  pose proof (array_factor n0 (f3x st) S H0 (conj Fx Vx) (Rle_trans _ _ _ Cx Sp) K) as Nx. pose proof (array_factor n1 (f3y st) S H1 (conj Fy Vy) (Rle_trans _ _ _ Cy Sp) K) as Ny. pose proof (array_factor n2 (f3z st) S H2 (conj Fz Vz) (Rle_trans _ _ _ Cz Sp) K) as Nz.
  unfold array3d, array3d_min. replace ((Z.of_nat n0 <=? 0) || (Z.of_nat n1 <=? 0) || (Z.of_nat n2 <=? 0))%Z with false by (symmetry; rewrite !Bool.orb_false_iff, !Z.leb_gt; lia). cbn [bb3].
  apply extend_near; [apply (nb3_weak S K M E); [exact N|lra|lra]|]. apply (nb3_weak S K (M + 1) (E + 4 + M + 1 + 1)); [|lra|lra]. apply translate_near; [exact K|exact O|split; lra|exact N|exact Nx|exact Ny|exact Nz].
Qed.
Lemma move_bounds S M E b s fm m B : scale_ok S -> small M E -> iso3 m -> stored B fm m -> norm3 (trans m) <= S -> B <= S -> nb3 S M E b (bb3 s) ->
  nb3 S (3 * M + 1) (3 * E + 57 * M + 76) (fmul_box3 fm b) (bb3 (transform3 s m)).
Proof.
  intros K (Sm1 & Sm2) I ((R00 & R01 & R02) & (R10 & R11 & R12) & (R20 & R21 & R22) & (T0 & T1 & T2) & _) HT HB ((A1 & A2 & A3) & (A4 & A5 & A6)).
  destruct (iso_entries m (proj2 (proj2 I))) as (I00 & I01 & I02 & I10 & I11 & I12 & I20 & I21 & I22). destruct (comp_le (trans m)) as (C0 & C1 & C2). unfold trans at 1 in C0. unfold trans at 1 in C1. unfold trans at 1 in C2. cbn [x3 y3 z3] in C0, C1, C2.
  assert (WB : u53 * B <= u53 * S) by (apply Rmult_le_compat_l; [pose proof u53_pos; lra|exact HB]).
  assert (T : forall x z, fnear x z (16 * (u53 * B)) -> Rabs z <= norm3 (trans m) -> nr S 1 16 x z) by (intros x z Hx Hz; split; [eapply near_weak; [exact Hx|lra]|lra]).
  pose proof (fun k1 k2 k3 t c1 c2 c3 c4 N1 N2 N3 Nt B1 B2 B3 => axis_mul S K M E 1 1 1 16 16 16 k1 k2 k3 t c1 c2 c3 c4 1 16 _ _ _ _ _ _ _ _ _ _ _ _ N1 N2 N3 Nt B1 B2 B3 ltac:(lra) ltac:(lra) ltac:(lra) ltac:(lra) ltac:(lra) ltac:(lra) ltac:(lra) ltac:(lra) ltac:(lra) ltac:(lra) ltac:(lra) ltac:(lra) ltac:(lra) ltac:(lra) ltac:(lra) ltac:(lra) A1 A4 A2 A5 A3 A6) as G.
  cbv zeta in G. destruct (G _ _ _ _ _ _ _ _ R00 R01 R02 (T _ _ T0 C0) I00 I01 I02) as (X1 & X2). destruct (G _ _ _ _ _ _ _ _ R10 R11 R12 (T _ _ T1 C1) I10 I11 I12) as (Y1 & Y2). destruct (G _ _ _ _ _ _ _ _ R20 R21 R22 (T _ _ T2 C2) I20 I21 I22) as (Z1 & Z2).
  unfold transform3. cbn [bb3]. unfold mul_box3. apply box_of; cbn [x3 y3 z3 add3 min_elem3 max_elem3 scale3]; (eapply nr_weak; [exact K|eassumption|lra|lra]).
Qed.
Lemma scale_bounds S M E b s k : scale_ok S -> small M E -> num k -> let c := Rabs (FR k) in c <= 1000000 -> small (c * M) (c * E) -> nb3 S M E b (bb3 s) ->
  nb3 S (c * M) (c * (E + 4 * M) + 9) (fbounds_scale b k) (bb3 (scale_uniform3d s (FR k))).
Proof.
  intros K (Sm1 & Sm2) (Fk & Vk) c Hc (Sk1 & Sk2) ((A1 & A2 & A3) & (A4 & A5 & A6)). pose proof (Rabs_pos (FR k)) as C0. fold c in C0.
  assert (Nk : fnear k (FR k) (0 * u53)) by (rewrite Rmult_0_l; now apply near_exact). assert (Nz : fnear fzero 0 (0 * u53)) by (rewrite Rmult_0_l; apply (near_exact fzero); reflexivity).
  assert (Rz : Rabs 0 <= 0) by (rewrite Rabs_R0; lra). assert (Tz : nr S 0 0 fzero 0) by (split; [rewrite Rmult_0_l; apply (near_exact fzero); reflexivity|rewrite Rabs_R0; lra]). pose proof (Rle_refl c) as Rc. unfold c in Rc at 1.
  destruct (axis_mul S K M E c 0 0 0 0 0 k fzero fzero fzero _ _ _ _ 0 0 _ _ _ _ _ _ _ _ _ _ _ _ Nk Nz Nz Tz Rc Rz Rz ltac:(lra) ltac:(lra) ltac:(lra) ltac:(lra) ltac:(lra) ltac:(lra) ltac:(lra) ltac:(lra) ltac:(lra) ltac:(lra) ltac:(lra) ltac:(lra) ltac:(lra) ltac:(lra) ltac:(lra) ltac:(lra) A1 A4 A2 A5 A3 A6) as (X1 & X2).
  destruct (axis_mul S K M E 0 c 0 0 0 0 fzero k fzero fzero _ _ _ _ 0 0 _ _ _ _ _ _ _ _ _ _ _ _ Nz Nk Nz Tz Rz Rc Rz ltac:(lra) ltac:(lra) ltac:(lra) ltac:(lra) ltac:(lra) ltac:(lra) ltac:(lra) ltac:(lra) ltac:(lra) ltac:(lra) ltac:(lra) ltac:(lra) ltac:(lra) ltac:(lra) ltac:(lra) ltac:(lra) A1 A4 A2 A5 A3 A6) as (Y1 & Y2).
  destruct (axis_mul S K M E 0 0 c 0 0 0 fzero fzero k fzero _ _ _ _ 0 0 _ _ _ _ _ _ _ _ _ _ _ _ Nz Nz Nk Tz Rz Rz Rc ltac:(lra) ltac:(lra) ltac:(lra) ltac:(lra) ltac:(lra) ltac:(lra) ltac:(lra) ltac:(lra) ltac:(lra) ltac:(lra) ltac:(lra) ltac:(lra) ltac:(lra) ltac:(lra) ltac:(lra) ltac:(lra) A1 A4 A2 A5 A3 A6) as (Z1 & Z2).
  unfold scale_uniform3d. cbn [bb3]. unfold mul_box3, scale3d. apply box_of; cbn [x3 y3 z3 add3 min_elem3 max_elem3 scale3 a00 a01 a02 a03 a10 a11 a12 a13 a20 a21 a22 a23]; (eapply nr_weak; [exact K|eassumption|lra|lra]).
Qed.
Lemma extends_near S M E bs ss : Forall2 (fun b s => nb3 S M E b (bb3 s)) bs ss -> forall b bb, nb3 S M E b bb -> nb3 S M E (fold_left fextend3 bs b) (fold_left (fun c x => extend3 c (bb3 x)) ss bb).
Proof. induction 1 as [|b s bs ss H F IH]; intros x xx N; cbn [fold_left]; [exact N|]. apply IH. now apply extend_near. Qed.

Definition goodb (S : R) (e : part) : Prop := forall B s, 0 <= B -> fits S e B -> build3 e = Ok s -> fitsb e -> nb3 S (bmag e) (berr e) (fbounds3 e) (bb3 s).
Definition goodbs (S : R) (l : parts) : Prop := forall B r, 0 <= B -> fitss S l B -> builds l = Ok r -> fitsbs l -> Forall2 (fun b s => nb3 S (bmags l) (berrs l) b (bb3 s)) (fboundss l) r.
Theorem C103_bounds S : scale_ok S -> (forall e, goodb S e) /\ (forall l, goodbs S l).
Proof.
  intros K. apply part_mutind; unfold goodb, goodbs; cbn [fits fitss build3 builds fitsb fitsbs bmag bmags berr berrs fbounds3 fboundss].
  - intros r B s PB (_ & N & A) Eq _. unfold must_sphere in Eq. destruct (Rleb (FR r) 0); [discriminate|]. inversion Eq. cbn [bb3]. now apply sphere_bounds.
  - intros sz r B s PB (_ & A & _) Eq _. unfold must_box3 in Eq. destruct (lte_zero3 (FR3 sz)); [discriminate|]. destruct (Rltb (FR r) 0); [discriminate|]. inversion Eq. cbn [bb3]. now apply box_bounds.
  - intros h r k B s PB (_ & Nh & Nr & Nk & Ah & Ar & Ak) Eq _. unfold must_cylinder in Eq. repeat (match type of Eq with (if ?c then _ else _) = _ => destruct c; [discriminate|] end). inversion Eq. cbn [bb3]. now apply cylinder_bounds.
  - intros a h B s PB (Ha & BS & N & A) Eq Fb. destruct (build2 a) as [s'| |] eqn:Ea; try discriminate. cbn [bind] in Eq. inversion Eq. destruct (prof_bounds S K a B s' Ha Ea Fb) as ((A1 & A2) & (A3 & A4)).
    pose proof (nr_hnum S K h N A) as Nh. assert (M1 : bmag2 a <= Rmax (bmag2 a) 1) by apply Rmax_l. assert (M2 : 1 <= Rmax (bmag2 a) 1) by apply Rmax_r. assert (E1 : berr2 a <= Rmax (berr2 a) 8) by apply Rmax_l. assert (E2 : 8 <= Rmax (berr2 a) 8) by apply Rmax_r.
    unfold extrude3d, fbounds_extrude. cbn [bb3]. apply box_of; cbn [fst snd f3x f3y f3z x3 y3 z3];
      [eapply nr_weak; [exact K|exact A1|lra|lra]|eapply nr_weak; [exact K|exact A2|lra|lra]| |eapply nr_weak; [exact K|exact A3|lra|lra]|eapply nr_weak; [exact K|exact A4|lra|lra]|].
    + apply nr_opp. eapply nr_eq; [eapply nr_weak; [exact K|exact Nh|lra|lra]|lra].
    + eapply nr_eq; [eapply nr_weak; [exact K|exact Nh|lra|lra]|lra].
  - intros a B s PB (Ha & KB & BS) Eq (Fb & Sb). destruct (build2 a) as [s'| |] eqn:Ea; try discriminate. cbn [bind] in Eq. rewrite (revolve_bb s' s Eq). apply revolve_bounds; auto. now apply (prof_bounds S K a (1.0001 * B)).
  - intros a IH d B s PB (Ha & N & A & _) Eq (Fb & Sb). destruct (build3 a) as [s'| |]; try discriminate. cbn [bind] in Eq. inversion Eq. apply offset_bounds; auto. now apply (IH B).
  - intros a IH t B s PB (Ha & N & A & _) Eq (Fb & Sb). destruct (build3 a) as [s'| |]; try discriminate. cbn [bind] in Eq. inversion Eq. apply shell_bounds; auto. now apply (IH B).
  - intros a IHa b IHb l IHl B s PB (Ha & Hb & Hl) Eq (Fa & Fb & Fl). destruct (build3 a) as [s1| |]; try discriminate. cbn [bind] in Eq. destruct (build3 b) as [s2| |]; try discriminate. cbn [bind] in Eq. destruct (builds l) as [r| |]; try discriminate. cbn [bind] in Eq.
    specialize (IHa B s1 PB Ha eq_refl Fa). specialize (IHb B s2 PB Hb eq_refl Fb). specialize (IHl B r PB Hl eq_refl Fl).
    unfold union3d, union3d_min in Eq. cbn [length Nat.ltb Nat.leb] in Eq. replace (all_some (Some s1 :: Some s2 :: map Some r)) with (Some (s1 :: s2 :: r)) in Eq by (symmetry; apply all_some_spec; reflexivity). inversion Eq. cbn [bb3].
    set (M := Rmax (bmag a) (Rmax (bmag b) (bmags l))). set (E := Rmax (berr a) (Rmax (berr b) (berrs l))).
    assert (M1 : bmag a <= M) by apply Rmax_l. assert (M2 : bmag b <= M) by (eapply Rle_trans; [apply Rmax_l|apply Rmax_r]). assert (M3 : bmags l <= M) by (eapply Rle_trans; [apply Rmax_r|apply Rmax_r]).
    assert (E1 : berr a <= E) by apply Rmax_l. assert (E2 : berr b <= E) by (eapply Rle_trans; [apply Rmax_l|apply Rmax_r]). assert (E3 : berrs l <= E) by (eapply Rle_trans; [apply Rmax_r|apply Rmax_r]).
    assert (Na : nb3 S M E (fbounds3 a) (bb3 s1)) by (eapply nb3_weak; [exact K|exact IHa|exact M1|exact E1]).
    unfold union_box3. apply extends_near; [|exact Na]. constructor; [exact Na|]. constructor; [eapply nb3_weak; [exact K|exact IHb|exact M2|exact E2]|]. eapply Forall2_imp; [|exact IHl]. intros x y H. cbn beta in *. eapply nb3_weak; [exact K|exact H|exact M3|exact E3].
  - intros a IHa b _ B s PB (Ha & Hb) Eq Fb. destruct (build3 a) as [s1| |]; try discriminate. cbn [bind] in Eq. destruct (build3 b) as [s2| |]; try discriminate. inversion Eq. exact (IHa B s1 PB Ha eq_refl Fb).
  - intros a IHa b _ B s PB (Ha & Hb) Eq Fb. destruct (build3 a) as [s1| |]; try discriminate. cbn [bind] in Eq. destruct (build3 b) as [s2| |]; try discriminate. inversion Eq. exact (IHa B s1 PB Ha eq_refl Fb).
  - intros a IHa fm m B s PB (Ha & I & St & KB & BS) Eq (Fb & Sb). destruct (build3 a) as [s'| |]; try discriminate. cbn [bind] in Eq. inversion Eq. apply (move_bounds S _ _ _ _ fm m (B + norm3 (trans m))); auto; [|apply (IHa (1.0001 * (B + norm3 (trans m)))); auto; pose proof (norm3_pos' (trans m)); lra].
    pose proof (norm3_pos' (trans m)). lra.
  - intros a IHa q n B s PB (Ha & _) Eq Fb. destruct (build3 a) as [s'| |]; try discriminate. cbn [bind] in Eq. inversion Eq. exact (IHa B s' PB Ha eq_refl Fb).
  - intros a IHa h B s PB (Ha & _ & At) Eq (Fb & Sb). destruct (build3 a) as [s'| |]; try discriminate. cbn [bind] in Eq. inversion Eq. apply elongate_bounds; auto. now apply (IHa B).
  - intros a IHa k B s PB (Ha & N & Hk & KB & BS & _) Eq (Fb & Sb & Sk). destruct (build3 a) as [s'| |]; try discriminate. cbn [bind] in Eq. inversion Eq. apply scale_bounds; auto; [lra|]. apply (IHa (1.0001 * (B / Rabs (FR k)))); auto. assert (0 <= B / Rabs (FR k)) by (apply Rmult_le_pos; [exact PB|left; apply Rinv_0_lt_compat; lra]). lra.
  - intros a IHa n0 n1 n2 st B s PB (Ha & V & F & KB & BS & H0 & H1 & H2 & _) Eq (Fb & Sb). destruct (build3 a) as [s'| |]; try discriminate. cbn [bind] in Eq. inversion Eq. apply array_bounds; auto; [|apply (IHa (1.0001 * (B + span n0 n1 n2 (FR3 st)))); auto; pose proof (norm3_pos' (V3 (INR n0 * x3 (FR3 st)) (INR n1 * y3 (FR3 st)) (INR n2 * z3 (FR3 st)))); unfold span; lra].
    unfold span in BS |- *. lra.
  - intros B r _ _ Eq _. inversion Eq. constructor.
  - intros a IHa l IHl B r PB (Ha & Hl) Eq (Fa & Fl). destruct (build3 a) as [s'| |]; try discriminate. cbn [bind] in Eq. destruct (builds l) as [r'| |]; try discriminate. cbn [bind] in Eq. inversion Eq.
    constructor; [eapply nb3_weak; [exact K|now apply (IHa B)|apply Rmax_l|apply Rmax_l]|]. eapply Forall2_imp; [|now apply (IHl B r')]. intros x y H. cbn beta in *. eapply nb3_weak; [exact K|exact H|apply Rmax_r|apply Rmax_r].
Qed.

(** ** Bounds contains the solid, when C29 says so for the operations of the part.
    [sound g m e]: the conditions of C29 on the constructor calls, for the promise [g] and values below [m]. *)
Fixpoint sound2 (g : grade) (m : R) (e : prof) : Prop :=
  match e with
  | PCircle _ => True
  | PPoly l => m <= sqrt max_float64 /\ PropsPoly.loop_ok (map FR2 l)
  | PBox s r => g = Euclid -> 0 <= FR r /\ FR r <= x2 (FR2 s) / 2 /\ FR r <= y2 (FR2 s) / 2
  | POffset a d => exists g', weaker g' g = true /\ (0 <= FR d \/ g' = Axis) /\ g' <> Contain /\ sound2 g' (m + FR d) a
  | PDiff a _ | PInter a _ => sound2 g m a
  end.
Fixpoint sound (g : grade) (m : R) (e : part) : Prop :=
  match e with
  | TSphere _ | TCylinder _ _ _ => True
  | TBox s r => g = Euclid -> FR r <= x3 (FR3 s) / 2 /\ FR r <= y3 (FR3 s) / 2 /\ FR r <= z3 (FR3 s) / 2
  | TExtrude a _ => g <> Euclid /\ sound2 g m a
  | TRevolve a => m <= max_float64 /\ sound2 g m a
  | TOffset a d => exists g', weaker g' g = true /\ (0 <= FR d \/ g' = Axis) /\ g' <> Contain /\ sound g' (m + FR d) a
  | TShell a t => exists g', weaker g' g = true /\ g' <> Contain /\ m <= max_float64 /\ 0 < m + FR t / 2 /\ sound g' (m + FR t / 2) a
  | TUnion a b l => sound g m a /\ sound g m b /\ sounds g m l
  | TDiff a _ | TInter a _ | TCut a _ _ | TElongate a _ => sound g m a
  | TMove a _ t => keeps3 g t /\ sound g m a
  | TScale a k => 0 < FR k /\ sound g (m / FR k) a
  | TArray a _ _ _ _ => m <= max_float64 /\ sound g m a
  end
with sounds (g : grade) (m : R) (l : parts) : Prop := match l with PNil => True | PCons a l => sound g m a /\ sounds g m l end.

Lemma weaker_axis g : g <> Euclid -> weaker Axis g = true.
Proof. destruct g; try reflexivity. intros H. now contradiction H. Qed.
Lemma prof_solid e : forall g m s, sound2 g m e -> build2 e = Ok s -> solid2 g m s.
Proof.
  induction e as [r|sz r|l|a IHa d|a IHa b _|a IHa b _]; intros g m s H Eq; cbn [sound2 build2] in *.
  - apply (B2_weaken Euclid); [reflexivity|]. now apply (B2_circle (FR r)).
  - destruct g; [destruct (H eq_refl) as (H1 & H2 & H3); now apply (B2_box (FR2 sz) (FR r))| |]; (apply (B2_weaken Axis); [reflexivity|]); now apply (B2_box_any (FR2 sz) (FR r)).
  - destruct H as (M & OK). apply (B2_weaken Euclid); [destruct g; reflexivity|]. apply (B2_lower Euclid (sqrt max_float64)); [exact M|]. apply B2_user. intros p P. exact (PropsPoly.C59_dominates_partial _ s Eq OK p P).
  - destruct H as (g' & W & Hd & Hg & H). destruct (build2 a) as [s'| |]; try discriminate. cbn [bind] in Eq. inversion Eq. apply (B2_weaken g'); [exact W|]. replace m with (m + FR d - FR d) by ring. apply B2_offset; auto.
  - destruct (build2 a) as [s1| |]; try discriminate. cbn [bind] in Eq. destruct (build2 b) as [s2| |]; try discriminate. cbn [bind] in Eq. eapply B2_difference; [|exact Eq]. auto.
  - destruct (build2 a) as [s1| |]; try discriminate. cbn [bind] in Eq. destruct (build2 b) as [s2| |]; try discriminate. cbn [bind] in Eq. eapply B2_intersect; [|exact Eq]. auto.
Qed.
(** the condition on the calls gives the C29 promise *)
Theorem C103_promise : (forall e S B g m s, fits S e B -> sound g m e -> build3 e = Ok s -> solid3 g m s) /\
  (forall l S B g m r, fitss S l B -> sounds g m l -> builds l = Ok r -> forall x, In x r -> solid3 g m x).
Proof.
  apply part_mutind; cbn [sound sounds build3 builds fits fitss].
  - intros r S B g m s _ _ Eq. apply (B3_weaken Euclid); [reflexivity|]. now apply (B3_sphere (FR r)).
  - intros sz r S B g m s _ H Eq. destruct g; [destruct (H eq_refl) as (H1 & H2 & H3); now apply (B3_box (FR3 sz) (FR r))| |]; (apply (B3_weaken Axis); [reflexivity|]); now apply (B3_box_any (FR3 sz) (FR r)).
  - intros h r k S B g m s _ _ Eq. apply (B3_weaken Euclid); [reflexivity|]. now apply (B3_cylinder (FR h) (FR r) (FR k)).
  - intros a h S B g m s _ (Hg & H) Eq. destruct (build2 a) as [s'| |] eqn:Ea; try discriminate. cbn [bind] in Eq. inversion Eq. apply B3_extrude; [exact Hg|]. now apply (prof_solid a).
  - intros a S B g m s _ (Hm & H) Eq. destruct (build2 a) as [s'| |] eqn:Ea; try discriminate. cbn [bind] in Eq. eapply B3_revolve_full; [exact Hm| |now apply (prof_solid a g m s')|exact Eq].
    right. replace (2 * PI - 2 * PI) with 0 by ring. rewrite Rabs_R0. unfold tolerance. lra.
  - intros a IH d S B g m s (F & _) (g' & W & Hd & Hg & H) Eq. destruct (build3 a) as [s'| |]; try discriminate. cbn [bind] in Eq. inversion Eq. apply (B3_weaken g'); [exact W|]. replace m with (m + FR d - FR d) by ring. apply B3_offset; eauto.
  - intros a IH t S B g m s (F & _) (g' & W & Hg & Hm & Hp & H) Eq. destruct (build3 a) as [s'| |]; try discriminate. cbn [bind] in Eq. inversion Eq. apply (B3_weaken g'); [exact W|].
    replace m with (m + FR t / 2 - FR t / 2) by ring. apply B3_shell; eauto. lra.
  - intros a IHa b IHb l IHl S B g m s (Fa & Fb & Fl) (Ha & Hb & Hl) Eq. destruct (build3 a) as [s1| |]; try discriminate. cbn [bind] in Eq. destruct (build3 b) as [s2| |]; try discriminate. cbn [bind] in Eq. destruct (builds l) as [r| |]; try discriminate. cbn [bind] in Eq.
    eapply B3_union; [|exact Eq]. intros x [E|[E|E]]; [injection E as <-; eauto|injection E as <-; eauto|]. apply in_map_iff in E. destruct E as (y & E & Hy). injection E as <-. eauto.
  - intros a IHa b _ S B g m s (Fa & _) H Eq. destruct (build3 a) as [s1| |]; try discriminate. cbn [bind] in Eq. destruct (build3 b) as [s2| |]; try discriminate. cbn [bind] in Eq. eapply B3_difference; [|exact Eq]. eauto.
  - intros a IHa b _ S B g m s (Fa & _) H Eq. destruct (build3 a) as [s1| |]; try discriminate. cbn [bind] in Eq. destruct (build3 b) as [s2| |]; try discriminate. cbn [bind] in Eq. eapply B3_intersect; [|exact Eq]. eauto.
  - intros a IHa fm t S B g m s (Fa & (Af & Dt & _) & _) (Hk & H) Eq. destruct (build3 a) as [s'| |]; try discriminate. cbn [bind] in Eq. inversion Eq. apply B3_transform; eauto.
  - intros a IHa q n S B g m s (Fa & _) H Eq. destruct (build3 a) as [s'| |]; try discriminate. cbn [bind] in Eq. inversion Eq. apply B3_cut; eauto.
  - intros a IHa h S B g m s (Fa & _) H Eq. destruct (build3 a) as [s'| |]; try discriminate. cbn [bind] in Eq. inversion Eq. apply B3_elongate; eauto.
  - intros a IHa k S B g m s (Fa & _) (Hk & H) Eq. destruct (build3 a) as [s'| |]; try discriminate. cbn [bind] in Eq. inversion Eq. replace m with (m / FR k * FR k) by (field; lra). apply B3_scale; eauto.
  - intros a IHa n0 n1 n2 st S B g m s (Fa & _) (Hm & H) Eq. destruct (build3 a) as [s'| |]; try discriminate. cbn [bind] in Eq. inversion Eq. apply B3_array; eauto.
  - intros S B g m r _ _ Eq x Hx. inversion Eq. subst r. destruct Hx.
  - intros a IHa l IHl S B g m r (Fa & Fl) (Ha & Hl) Eq x Hx. destruct (build3 a) as [s'| |]; try discriminate. cbn [bind] in Eq. destruct (builds l) as [r'| |]; try discriminate. cbn [bind] in Eq. inversion Eq. subst r. destruct Hx as [<-|Hx]; eauto.
Qed.

(** ** Rendering a part from its own Bounds *)
(** the errors of the corners are below 0.3 % of the sides *)
Definition precise (S : R) (e : part) : Prop :=
  let b := fbounds3 e in let d := berr e * (u53 * S) in
  d <= 0.003 * (FR (f3x (snd b)) - FR (f3x (fst b))) /\ d <= 0.003 * (FR (f3y (snd b)) - FR (f3y (fst b))) /\ d <= 0.003 * (FR (f3z (snd b)) - FR (f3z (fst b))).
(** all conditions: on the calls ([fits], [sound]), the range of the numbers, the box and the number of cells *)
Record renderable (S B X : R) (lg : spec_float -> spec_float) (e : part) (s : sdf3) (m : Z) : Prop := {
  rd_S : scale_ok S; rd_fits : fits S e B; rd_build : build3 e = Ok s; rd_small : small (mag e) (err e); rd_fitsb : fitsb e;
  rd_sound : exists g mx, 0 < mx /\ sound g mx e;
  rd_log : good_log2 lg; rd_box : solid_box (fbounds3 e) X; rd_precise : precise S e; rd_cells : (2 <= m <= 2 ^ 40)%Z; rd_B : 1.0001 * (11 * X) <= B; rd_BS : B <= S }.
(** outside the float64 Bounds, grown by 0.3 %, the distance is not negative *)
Theorem C103_contains S B X lg e s m : renderable S B X lg e s m -> forall p, ~ in_fbox (fbounds3 e) p -> 0 <= ev3 s p.
Proof.
  intros [K Hf Hb _ Fb (g & mx & Pm & Sd) _ SB (P1 & P2 & P3) _ HB _] p Hp. apply Rnot_lt_le. intros Neg. apply Hp. clear Hp.
  destruct (proj1 C29_bounds_contain_partial g mx s p (proj1 C103_promise e S B g mx s Hf Sd Hb) Pm Neg) as (L1 & L2 & L3).
  assert (PB : 0 <= B). { destruct SB as [(X1 & _) _ _ _ _ _]. pose proof (bpow_pos (-320)). lra. }
  destruct (proj1 (C103_bounds S K) e B s PB Hf Hb Fb) as ((((_ & _ & A1) & _) & ((_ & _ & A2) & _) & ((_ & _ & A3) & _)) & (((_ & _ & B1) & _) & ((_ & _ & B2) & _) & ((_ & _ & B3) & _))).
  unfold in_fbox. cbv zeta in *. apply Rabs_iff in A1, A2, A3, B1, B2, B3. lra.
Qed.
(** the renderer starts, and every triangle it delivers lies near the surface *)
Theorem C103_vertices S B X lg e s m degen : renderable S B X lg e s m ->
  exists o r k, fnew_octree lg (fbounds3 e) m = Ok (o, r, Datatypes.S k) /\
    let E := foctree_env degen (feval3 e) o r (Datatypes.S k) in
    forall conc st ts dst sched st' dst' n, reachable E conc st ts -> read_triangles (E := E) st dst sched = Returned st' dst' n true ->
    forall A B0 C P, In (A, B0, C) (ts ++ firstn n dst') -> P = A \/ P = B0 \/ P = C ->
    valid3 P /\ fin3 P /\ Rabs (ev3 s (FR3 P)) <= 1.0101 * longest (fbounds3 e) / (2 * IZR m) + / 1000000000000 + (err e + 100) * (u53 * S).
Proof.
  change (/ 1000000000000) with mc_epsilon. intros H. pose proof (C103_contains _ _ _ _ _ _ _ H) as Out. destruct H. now apply (C102_vertices S B lg e s (fbounds3 e) m X degen). Qed.
(** and the surface is closed up to rounding, if no corner of the cells is at the surface within the evaluation error and no triangle is dropped as degenerate *)
Theorem C103_closed_partial S B X lg e s m degen : renderable S B X lg e s m ->
  exists o r k, fnew_octree lg (fbounds3 e) m = Ok (o, r, Datatypes.S k) /\
    let E := foctree_env degen (feval3 e) o r (Datatypes.S k) in
    (forall g, in_side (2 ^ Z.of_nat k) (dbl g) -> (err e + 20) * (u53 * S) < Rabs (ev3 s (grid_pos (FR3 o) (FR r) (dbl g)))) ->
    (forall v t, In v (cells (V3I 0 0 0) (2 ^ (k - 1))) -> In t (fleaf (fun _ => false) (feval3 e) o r v) -> degen t = false) ->
    forall conc st ts dst sched st' dst' n, reachable E conc st ts -> read_triangles (E := E) st dst sched = Returned st' dst' n true ->
    forall A B0, In (A, B0) (mesh_dirs (ts ++ firstn n dst')) -> exists A' B', In (B', A') (mesh_dirs (ts ++ firstn n dst')) /\ dist3 (FR3 A) (FR3 A') <= 120 * (u53 * S) /\ dist3 (FR3 B0) (FR3 B') <= 120 * (u53 * S).
Proof. intros H. pose proof (C103_contains _ _ _ _ _ _ _ H) as Out. destruct H. now apply (C102_closed_partial S B lg e s (fbounds3 e) m X degen). Qed.

(** *** Example: the plate with a bore, rendered from its own Bounds with 100 cells *)
Example plate_bounds : fbounds3 plate = plate_box.
Proof. reflexivity. Qed.
Example C103_example : exists s, renderable 1000 120 10 trunc_log2 plate s 100 /\ longest (fbounds3 plate) = 20 /\ err plate = 130.
Proof.
  destruct plate_ok as (s & K & Ft & Eb & Ge & SB & Sm & Er & Lg). exists s. rewrite plate_bounds. split; [|now split]. destruct k_ok as ((N1 & R1) & (N2 & R2) & (N3 & R3) & (N5 & R5) & (N20 & R20) & (N0 & R0)). destruct k10_ok as (_ & R10).
  constructor; [exact K|exact Ft|exact Eb|exact Sm|exact I| |exact trunc_log2_good|rewrite plate_bounds; exact SB| |split; [lia|discriminate]|lra|lra].
  - exists Euclid, 1. split; [lra|]. cbn [sound plate FR3 f3x f3y f3z x3 y3 z3]. intros _. rewrite R20, R2, R0. lra.
  - unfold precise. rewrite plate_bounds. cbv zeta. unfold plate_box, plate. cbn [berr fst snd f3x f3y f3z]. rewrite !FR_opp, R10, R1. pose proof u53_small as U. lra.
Qed.

(** *** Example: an extruded triangle of height 2, rendered from its own Bounds with 100 cells *)
Definition wedge : part := TExtrude (PPoly [FV2 (SFopp k10) (SFopp k10); FV2 k10 (SFopp k10); FV2 (SFopp k10) k10]) k2.
Example wedge_bounds : fbounds3 wedge = plate_box.
Proof. reflexivity. Qed.
Lemma wedge_fits : loop_fits 1000 [FV2 (SFopp k10) (SFopp k10); FV2 k10 (SFopp k10); FV2 (SFopp k10) k10].
Proof.
  destruct k10_ok as ((F10 & V10) & R10). assert (K : scale_ok 1000) by (apply scale_small; lra). destruct (tiny_S 1000 K) as (_ & _ & _ & T & _).
  assert (R' : FR (SFopp k10) = -10) by (rewrite FR_opp, R10; reflexivity).
  assert (A : at2 1000 (FV2 (SFopp k10) (SFopp k10)) /\ at2 1000 (FV2 k10 (SFopp k10)) /\ at2 1000 (FV2 (SFopp k10) k10)).
  { unfold at2. cbn [f2x f2y]. rewrite R', R10. assert (X : Rabs 10 <= 1000 /\ Rabs (-10) <= 1000) by (split; apply Rabs_le; lra). destruct X as (X1 & X2). repeat split; (reflexivity || assumption). }
  assert (L20 : bpow (-300) * 1000 <= Rabs (10 - -10) /\ bpow (-300) * 1000 <= Rabs (-10 - 10) /\ 2 * PolyModel.tolerance < Rabs (-10 - 10)).
  { replace (Rabs (10 - -10)) with 20 by (rewrite Rabs_pos_eq; lra). replace (Rabs (-10 - 10)) with 20 by (rewrite Rabs_minus_sym, Rabs_pos_eq; lra). unfold PolyModel.tolerance. simpl pow. repeat split; lra. }
  destruct A as (A1 & A2 & A3), L20 as (L1 & L2 & L3). split; [|split].
  - exact (Forall_cons _ A1 (Forall_cons _ A2 (Forall_cons _ A3 (Forall_nil _)))).
  - constructor; [|constructor; [|constructor]]; unfold edge_ok; cbn [fst snd f2x f2y]; rewrite ?R', ?R10; [right; split; [reflexivity|exact L1]|left; exact L1].
  - right. cbn [hd last f2x f2y]. split; [unfold edge_ok; cbn [f2x f2y]; left|right]; rewrite R', R10; assumption.
Qed.
Example C103_polygon_example : exists s, renderable 1000 120 10 trunc_log2 wedge s 100 /\ longest (fbounds3 wedge) = 20 /\ err wedge = 400.
Proof.
  destruct plate_ok as (_ & K & _ & _ & _ & SB & _ & _ & Lg). destruct k_ok as ((N1 & R1) & (N2 & R2) & _). destruct k10_ok as (_ & R10). pose proof u53_small as U.
  destruct (PropsPoly.C59_defined (map FR2 [FV2 (SFopp k10) (SFopp k10); FV2 k10 (SFopp k10); FV2 (SFopp k10) k10])) as (_ & D). destruct (D ltac:(cbn; lia)) as (s & Es).
  exists (extrude3d s (FR k2)). rewrite wedge_bounds. assert (Er : err wedge = 400) by (unfold wedge; cbn [err err2]; rewrite Rmax_left; lra). split; [|now split].
  constructor; [exact K| | | |exact I| |exact trunc_log2_good|rewrite wedge_bounds; exact SB| |split; [lia|discriminate]|lra|lra].
  - unfold wedge. cbn [fits fits2]. split; [split; [lra|exact wedge_fits]|]. split; [lra|]. split; [exact N2|]. rewrite R2, Rabs_pos_eq; lra.
  - unfold wedge. cbn [build3 build2]. rewrite Es. reflexivity.
  - unfold small. rewrite Er. unfold wedge. cbn [mag mag2]. rewrite Rmax_left by lra. lra.
  - exists Axis, 1. split; [lra|]. unfold wedge. cbn [sound sound2]. split; [discriminate|]. split; [|exact (polygon_loop 1000 _ s K wedge_fits Es)].
    rewrite <- sqrt_1. apply sqrt_le_1_alt. rewrite <- (proj1 C93_start). apply Rle_trans with (FR f1); [lra|]. apply (proj1 (proj2 C93_start)); apply N1.
  - unfold precise. rewrite wedge_bounds. cbv zeta. unfold plate_box, wedge. cbn [berr berr2 fst snd f3x f3y f3z]. rewrite Rmax_left by lra. rewrite !FR_opp, R10, R1. lra.
Qed.
