(** C112: the point of the triangle found in float64 is the closest one, up to rounding, unless a step underflows. *)
From Coq Require Import List Bool ZArith Lia Reals Lra Psatz Floats.SpecFloat.
From Verif Require Import Prelude Vec SdfModel BihModel PropsTri FloatBoolModel FloatRound FloatShapeModel FloatRenderModel FloatNear FloatTrack PropsFloatSign FloatTriModel PropsFloatTri.
Import ListNotations.
Local Open Scope R_scope.

(** ** Convex quadratics on the triangle of parameters *)
Section Quad.
Variables A00 A01 A11 B0 B1 C : R.
Hypothesis PSD : forall x y, 0 <= A00 * x * x + 2 * A01 * x * y + A11 * y * y.
Definition Qd (s t : R) : R := C + 2 * B0 * s + 2 * B1 * t + A00 * s * s + 2 * A01 * s * t + A11 * t * t.
Definition Fd (s t : R) : R := A00 * s + A01 * t + B0.
Definition Gd (s t : R) : R := A01 * s + A11 * t + B1.
Lemma grad s t s' t' : Qd s t + 2 * (Fd s t * (s' - s)) + 2 * (Gd s t * (t' - t)) <= Qd s' t'.
Proof. pose proof (PSD (s' - s) (t' - t)). replace (Qd s' t') with (Qd s t + 2 * (Fd s t * (s' - s)) + 2 * (Gd s t * (t' - t)) + (A00 * (s' - s) * (s' - s) + 2 * A01 * (s' - s) * (t' - t) + A11 * (t' - t) * (t' - t))) by (unfold Qd, Fd, Gd; ring). lra. Qed.
Lemma prod_ge x y e : - e <= x <= e -> -1 <= y <= 1 -> - e <= x * y.
Proof. intros H K. destruct (Rle_dec 0 y). - assert (- e * y <= x * y) by (apply Rmult_le_compat_r; lra). assert (e * y <= e * 1) by (apply Rmult_le_compat_l; lra). lra. - assert (e * y <= x * y) by (replace (e * y) with (- (e * - y)) by ring; replace (x * y) with (- (x * - y)) by ring; apply Ropp_le_contravar, Rmult_le_compat_r; lra). assert (e * - y <= e * 1) by (apply Rmult_le_compat_l; lra). lra. Qed.
Lemma prod_up x y e : 0 <= e -> - e <= x -> 0 <= y <= 1 -> - e <= x * y.
Proof. intros E H K. assert (- e * y <= x * y) by (apply Rmult_le_compat_r; lra). assert (e * y <= e * 1) by (apply Rmult_le_compat_l; lra). lra. Qed.
Lemma prod_dn x y e : 0 <= e -> x <= e -> -1 <= y <= 0 -> - e <= x * y.
Proof. intros E H K. replace (x * y) with (- x * - y) by ring. apply prod_up; lra. Qed.
Lemma from_lo sl tl e s t : 0 <= e -> - e <= Fd sl tl <= e -> 0 <= sl <= 1 -> 0 <= tl <= 1 -> 0 <= s <= 1 -> 0 <= t <= 1 -> (- e <= Gd sl tl /\ tl <= t \/ Gd sl tl <= e /\ t <= tl) -> Qd sl tl <= Qd s t + 4 * e.
Proof.
  intros E0 HF Hs Ht Hs' Ht' HG. pose proof (grad sl tl s t). pose proof (prod_ge (Fd sl tl) (s - sl) e HF ltac:(lra)).
  assert (- e <= Gd sl tl * (t - tl)) by (destruct HG as [(G & T)|(G & T)]; [apply prod_up|apply prod_dn]; lra). lra.
Qed.
Lemma out_interior sl tl sh th ss tt e e2 : 0 <= e -> 0 <= e2 -> - e <= Fd sl tl <= e -> - e <= Fd sh th <= e -> 0 <= sl <= 1 -> 0 <= sh <= 1 -> 0 <= tl <= 1 -> 0 <= th <= 1 ->
  Gd sl tl <= e -> - e <= Gd sh th -> (forall x, 0 <= x <= 1 -> Qd ss tt <= Qd ((1 - x) * sl + x * sh) ((1 - x) * tl + x * th) + e2) ->
  forall s t, 0 <= s -> 0 <= t -> s + t <= 1 -> Qd ss tt <= Qd s t + 4 * e + e2.
Proof.
  intros E0 E2 F0 F1 Sl Sh Tl Th G0 G1 H s t Hs Ht Hst.
  assert (H0 : Qd ss tt <= Qd sl tl + e2). { specialize (H 0 ltac:(lra)). replace ((1 - 0) * sl + 0 * sh) with sl in H by ring. replace ((1 - 0) * tl + 0 * th) with tl in H by ring. exact H. }
  assert (H1 : Qd ss tt <= Qd sh th + e2). { specialize (H 1 ltac:(lra)). replace ((1 - 1) * sl + 1 * sh) with sh in H by ring. replace ((1 - 1) * tl + 1 * th) with th in H by ring. exact H. }
  destruct (Rle_dec t tl) as [T|T]; [pose proof (from_lo sl tl e s t E0 F0 Sl Tl ltac:(lra) ltac:(lra) ltac:(right; lra)); lra|].
  destruct (Rle_dec th t) as [T'|T']; [pose proof (from_lo sh th e s t E0 F1 Sh Th ltac:(lra) ltac:(lra) ltac:(left; lra)); lra|].
  assert (D : 0 < th - tl) by lra. set (x := (t - tl) / (th - tl)). assert (X : 0 <= x <= 1). { unfold x. split; [apply Rmult_le_pos; [lra|left; apply Rinv_0_lt_compat; lra]|]. apply (Rmult_le_reg_r (th - tl)); [lra|]. unfold Rdiv. rewrite Rmult_assoc, Rinv_l by lra. lra. }
  assert (ET : (1 - x) * tl + x * th = t) by (unfold x; field; lra). specialize (H x X). rewrite ET in H. set (sx := (1 - x) * sl + x * sh) in *.
  assert (SX : 0 <= sx <= 1). { unfold sx. split; [apply Rplus_le_le_0_compat; apply Rmult_le_pos; lra|]. assert ((1 - x) * sl <= (1 - x) * 1) by (apply Rmult_le_compat_l; lra). assert (x * sh <= x * 1) by (apply Rmult_le_compat_l; lra). lra. }
  assert (FX : - e <= Fd sx t <= e). { replace (Fd sx t) with ((1 - x) * Fd sl tl + x * Fd sh th) by (rewrite <- ET; unfold sx, Fd; ring). assert ((1 - x) * - e <= (1 - x) * Fd sl tl <= (1 - x) * e) by (split; apply Rmult_le_compat_l; lra). assert (x * - e <= x * Fd sh th <= x * e) by (split; apply Rmult_le_compat_l; lra). lra. }
  pose proof (grad sx t s t) as GR. pose proof (prod_ge (Fd sx t) (s - sx) e FX ltac:(lra)). replace (Gd sx t * (t - t)) with 0 in GR by ring. lra.
Qed.
(** the edges s = 0 and s + t = 1 *)
Lemma cover02 e s t : 0 <= e -> - e <= Fd 0 t -> 0 <= s <= 1 -> Qd 0 t <= Qd s t + 2 * e.
Proof. intros E0 H Hs. pose proof (grad 0 t s t) as GR. replace (Gd 0 t * (t - t)) with 0 in GR by ring. pose proof (prod_up (Fd 0 t) (s - 0) e E0 H ltac:(lra)). lra. Qed.
Lemma cover12 e s t : 0 <= e -> Fd (1 - t) t <= e -> 0 <= s -> 0 <= t -> s + t <= 1 -> Qd (1 - t) t <= Qd s t + 2 * e.
Proof. intros E0 H Hs Ht Hst. pose proof (grad (1 - t) t s t) as GR. replace (Gd (1 - t) t * (t - t)) with 0 in GR by ring. pose proof (prod_dn (Fd (1 - t) t) (s - (1 - t)) e E0 H ltac:(lra)). lra. Qed.
Lemma lin_ge x y a b z e : a <= z <= b -> - e <= x + y * a -> - e <= x + y * b -> - e <= x + y * z.
Proof. intros H Ha Hb. destruct (Rle_dec 0 y). - assert (y * a <= y * z) by (apply Rmult_le_compat_l; lra). lra. - assert (- y * z <= - y * b) by (apply Rmult_le_compat_l; lra). lra. Qed.
Lemma line02 a b t e : a <= t <= b -> - e <= Fd 0 a -> - e <= Fd 0 b -> - e <= Fd 0 t.
Proof. intros H Ha Hb. pose proof (lin_ge B0 A01 a b t e H) as L. unfold Fd in *. lra. Qed.
Lemma line12 a b t e : a <= t <= b -> Fd (1 - a) a <= e -> Fd (1 - b) b <= e -> Fd (1 - t) t <= e.
Proof. intros H Ha Hb. pose proof (lin_ge (- (B0 + A00)) (- (A01 - A00)) a b t e H) as L. unfold Fd in *. lra. Qed.
End Quad.

(** ** Quotients and products *)
Lemma share_res x y M : num x -> num y -> Rabs (FR x) <= M -> Rabs (FR y) <= M -> 2 * M <= bpow 1000 -> (FR y <= 0 <= FR x \/ FR x <= 0 <= FR y) -> FR x <> FR y ->
  Rabs (FR x + (FR y - FR x) * FR (fdiv x (fsub x y))) <= 5 * (u53 * M).
Proof.
  intros Nx Ny Lx Ly HM HS NE. destruct (share x y M Nx Ny Lx Ly HM HS NE) as (Nq & Q). pose proof Nx as (F1 & W1). pose proof Ny as (F2 & W2). pose proof u_small as (U0 & U1).
  destruct (sub_fin x y M M Nx Ny Lx Ly ltac:(lra)) as ((Fd' & Wd) & _). destruct (fsub_spec x y F1 F2 W1 W2) as (Cs & Rl & P1 & P2 & _). specialize (Rl Fd').
  assert (NZ : FR (fsub x y) <> 0).
  { destruct (Rtotal_order (FR x - FR y) 0) as [L|[L|L]]; [|lra|].
    - specialize (P2 L). apply (signed_lt (fsub x y)) in P2. apply (ltb_FR (fsub x y) (S754_zero false)) in P2; [cbn in P2; lra|exact Fd'|reflexivity|exact Wd|reflexivity].
    - specialize (P1 L). apply (signed_lt (fsub x y)) in P1. apply (ltb_FR (S754_zero false) (fsub x y)) in P1; [cbn in P1; lra|reflexivity|exact Fd'|reflexivity|exact Wd]. }
  assert (RA : (0 <= FR x <= FR (fsub x y) \/ FR (fsub x y) <= FR x <= 0)).
  { destruct HS as [H|H]; [left; split; [lra|]; destruct (correct_ge _ _ x Cs W1 F1) as (G & _); [lra|exact (G Fd')]|right; split; [|lra]; destruct (correct_le _ _ x Cs W1 F1) as (G & _); [lra|exact (G Fd')]]. }
  set (d := fsub x y) in *. pose proof (fdiv_spec x d F1 Fd' W1 Wd NZ) as CD.
  assert (Z : 0 <= FR x / FR d <= 1).
  { destruct RA as [H|H].
    - split; [apply Rmult_le_pos; [lra|left; apply Rinv_0_lt_compat; lra]|]. apply (Rmult_le_reg_r (FR d)); [lra|]. unfold Rdiv. rewrite Rmult_assoc, Rinv_l by lra. lra.
    - replace (FR x / FR d) with (- FR x / - FR d) by (field; lra). split; [apply Rmult_le_pos; [lra|left; apply Rinv_0_lt_compat; lra]|]. apply (Rmult_le_reg_r (- FR d)); [lra|]. unfold Rdiv. rewrite Rmult_assoc, Rinv_l by lra. lra. }
  pose proof big_max. destruct (correct_err _ _ 1 CD) as (_ & _ & Er); [rewrite Rabs_right; lra|lra|lra|]. set (q := FR (fdiv x d)) in *. clearbody q.
  assert (EZ : FR d * (FR x / FR d) = FR x) by (field; lra). set (z := FR x / FR d) in *. clearbody z. pose proof (Rabs_triang (FR x) (- FR y)) as TR. rewrite Rabs_Ropp in TR.
  set (xx := FR x) in *. set (yy := FR y) in *. set (e := FR d) in *. clearbody xx yy e. assert (XY : Rabs (xx - yy) <= 2 * M) by (unfold Rminus; lra). pose proof (Rabs_pos (xx - yy)).
  assert (U2 : u53 * Rabs (xx - yy) <= u53 * (2 * M)) by (apply Rmult_le_compat_l; lra). assert (MP : 0 <= u53 * M) by (apply Rmult_le_pos; lra).
  assert (LE : Rabs e <= 3 * M). { pose proof (Rabs_triang (e - (xx - yy)) (xx - yy)) as T. replace (e - (xx - yy) + (xx - yy)) with e in T by ring. assert (u53 * (2 * M) <= / 2 * (2 * M)) by (apply Rmult_le_compat_r; lra). lra. }
  assert (EQ : xx + (yy - xx) * q = - (e * (q - z)) + (e - (xx - yy)) * q) by (rewrite <- EZ at 1; ring). rewrite EQ.
  eapply Rle_trans; [apply Rabs_triang|]. rewrite Rabs_Ropp, !Rabs_mult, (Rabs_right q) by lra.
  assert (Rabs (e - (xx - yy)) * q <= Rabs (e - (xx - yy)) * 1) by (apply Rmult_le_compat_l; [apply Rabs_pos|lra]). pose proof (Rabs_pos (q - z)). pose proof (Rabs_pos e). assert (Rabs e * Rabs (q - z) <= 3 * M * (u53 * 1)) by (apply Rmult_le_compat; lra). lra.
Qed.
Lemma small_prod d g : num d -> num g -> num (fmul d g) -> (FR (fmul d g) < 0 -> FR d * FR g < 0) /\ (0 < FR (fmul d g) -> 0 < FR d * FR g) /\ (0 <= FR (fmul d g) -> - eta <= FR d * FR g) /\ (FR (fmul d g) <= 0 -> FR d * FR g <= eta).
Proof.
  intros (F1 & V1) (F2 & V2) (F & V). pose proof (fmul_spec d g F1 F2 V1 V2) as CC. pose proof CC as (_ & _ & _ & Er & _). specialize (Er F). pose proof u_small as (U0 & U1). pose proof eta_pos. set (z := FR d * FR g) in *. clearbody z.
  assert (UZ : forall a, 0 <= a -> a <= u53 * a -> a = 0). { intros a A0 A1. assert (u53 * a <= / 2 * a) by (apply Rmult_le_compat_r; lra). lra. }
  split; [|split; [|split]]; intros K.
  - apply Rnot_le_lt. intros L. destruct (correct_ge _ _ f0 CC eq_refl eq_refl) as (G & _); [change (FR f0) with 0; lra|]. specialize (G F). change (FR f0) with 0 in G. lra.
  - apply Rnot_le_lt. intros L. destruct (correct_le _ _ f0 CC eq_refl eq_refl) as (G & _); [change (FR f0) with 0; lra|]. specialize (G F). change (FR f0) with 0 in G. lra.
  - apply Rnot_lt_le. intros L. destruct Er as [Er|Er]; apply Rabs_iff in Er; [|lra]. rewrite Rabs_left in Er by lra. pose proof (UZ (- z) ltac:(lra) ltac:(lra)). lra.
  - apply Rnot_lt_le. intros L. destruct Er as [Er|Er]; apply Rabs_iff in Er; [|lra]. rewrite Rabs_right in Er by lra. pose proof (UZ z ltac:(lra) ltac:(lra)). lra.
Qed.
Lemma mix_near o z x y : num o -> num z -> num x -> num y -> 0 <= FR o <= 1 -> 0 <= FR z <= 1 -> 0 <= FR x <= 1 -> 0 <= FR y <= 1 -> Rabs (FR o - (1 - FR z)) <= u53 ->
  Rabs (FR (fadd (fmul o x) (fmul z y)) - ((1 - FR z) * FR x + FR z * FR y)) <= 5 * u53.
Proof.
  intros No Nz Nx Ny O Z X Y OE. pose proof u_small as (U0 & U1). destruct f1_num as ((F1 & V1) & E1). pose proof big_max.
  assert (M : forall k x, num k -> num x -> 0 <= FR k <= 1 -> 0 <= FR x <= 1 -> num (fmul k x) /\ 0 <= FR (fmul k x) <= 1 /\ Rabs (FR (fmul k x) - FR k * FR x) <= u53).
  { intros k w (Fk & Vk) (Fx & Vx) K W. pose proof (fmul_spec k w Fk Fx Vk Vx) as CC. assert (KX : 0 <= FR k * FR w <= 1) by nra. destruct (correct_err _ _ 1 CC) as (Fi & V & Er); [rewrite Rabs_right; lra|lra|lra|]. split; [split; assumption|].
    destruct (correct_ge _ _ f0 CC eq_refl eq_refl) as (G & _); [cbn; lra|]. destruct (correct_le _ _ f1 CC V1 F1) as (L & _); [rewrite E1; lra|]. specialize (G Fi). specialize (L Fi). change (FR f0) with 0 in G. rewrite E1 in L. split; [lra|lra]. }
  destruct (M o x No Nx O X) as ((Fa & Va) & A & Ae). destruct (M z y Nz Ny Z Y) as ((Fb & Vb) & B & Be). destruct (fadd_spec _ _ Fa Fb Va Vb) as (CC & _). destruct (correct_err _ _ 2 CC) as (_ & _ & Er); [rewrite Rabs_right; lra|lra|lra|].
  assert (OX : - u53 <= (FR o - (1 - FR z)) * FR x <= u53). { apply Rabs_iff in OE. assert (- u53 * FR x <= (FR o - (1 - FR z)) * FR x <= u53 * FR x) by (split; apply Rmult_le_compat_r; lra). assert (u53 * FR x <= u53 * 1) by (apply Rmult_le_compat_l; lra). lra. }
  apply Rabs_iff in Ae, Be, Er. apply Rabs_iff. lra.
Qed.

(** ** The search with rounded coefficients *)
(** the step whose sign the code relies on, by branch of bih.go:119-194: dt1, or the second parameter of p1 *)
Definition step_ok (a00 a01 b0 : spec_float) : Prop :=
  let f10 := fadd b0 a00 in
  let f01 := fadd b0 a01 in
  let p1 := fsub f1 (fdiv f01 (fsub f01 f10)) in
  let p0 := fdiv b0 (fsub b0 f01) in
  if SFleb f0 b0 then (if SFltb f0 f01 then True else bpow (-500) <= FR (fsub p1 p0))
  else if SFleb f01 f0 then (if SFleb f10 f0 then True else bpow (-500) <= FR p1)
  else if SFleb f10 f0 then FR (fsub p1 p0) <= - bpow (-500)
  else bpow (-500) <= FR p0.
Section Near.
Variables a00 a01 a11 b0 b1 : spec_float.
Variables A00 A01 A11 B0 B1 C X : R.
Hypothesis PSD : forall x y, 0 <= A00 * x * x + 2 * A01 * x * y + A11 * y * y.
Hypothesis X0 : bpow (-400) <= X.
Hypothesis XM : 1000000 * (X + 1) <= bpow 1000.
Hypothesis N00 : fnear a00 A00 (70 * (u53 * X)).
Hypothesis N01 : fnear a01 A01 (70 * (u53 * X)).
Hypothesis N11 : fnear a11 A11 (70 * (u53 * X)).
Hypothesis NB0 : fnear b0 B0 (70 * (u53 * X)).
Hypothesis NB1 : fnear b1 B1 (70 * (u53 * X)).
Hypothesis L00 : Rabs A00 <= 12 * X.
Hypothesis L01 : Rabs A01 <= 12 * X.
Hypothesis L11 : Rabs A11 <= 12 * X.
Hypothesis LB0 : Rabs B0 <= 12 * X.
Hypothesis LB1 : Rabs B1 <= 12 * X.
Let Q := Qd A00 A01 A11 B0 B1 C.
Let F := Fd A00 A01 B0.
Let G := Gd A01 A11 B1.
Let e := u53 * X.
Hypothesis E02 : fst (fmin_edge02 a11 b1) = f0 /\ forall r, 0 <= r <= 1 -> Q 0 (FR (snd (fmin_edge02 a11 b1))) <= Q 0 r + 400 * e.
Let p12 := fmin_edge12 a01 a11 b1 (fadd b0 a00) (fadd b0 a01).
Hypothesis E12 : 0 <= FR (snd p12) <= 1 /\ Rabs (FR (fst p12) - (1 - FR (snd p12))) <= u53 /\ forall r, 0 <= r <= 1 -> Q (1 - FR (snd p12)) (FR (snd p12)) <= Q (1 - r) r + 3000 * e.
Lemma XP : 0 < X.
Proof. pose proof (bpow_pos (-400)). lra. Qed.
Lemma eP : 0 < e <= / 1000000000000000 * X.
Proof. pose proof XP. pose proof u_small. unfold e. split; [apply Rmult_lt_0_compat; lra|apply Rmult_le_compat_r; lra]. Qed.
Lemma XMf : 1000000 * X <= fmaxR.
Proof. pose proof huge. pose proof XP. lra. Qed.
Lemma eta_step : eta * bpow 500 <= e.
Proof. unfold eta, e. rewrite <- bpow_add. apply Rle_trans with (u53 * bpow (-400)); [unfold u53; rewrite <- bpow_add; apply bpow_le; lia|apply Rmult_le_compat_l; [left; apply u53_pos|exact X0]]. Qed.
Lemma eta_e : eta <= e.
Proof. apply Rle_trans with (eta * bpow 500); [|apply eta_step]. rewrite <- (Rmult_1_r eta) at 1. apply Rmult_le_compat_l; [left; apply eta_pos|]. rewrite <- bpow_0. apply bpow_le. lia. Qed.
Lemma val70 x z : fnear x z (70 * (u53 * X)) -> Rabs z <= 12 * X -> num x /\ Rabs (FR x) <= 13 * X /\ z - 70 * e <= FR x <= z + 70 * e.
Proof. intros N L. pose proof (near_num _ _ _ N). pose proof (near_val _ _ _ N) as V. fold e in V. pose proof eP. pose proof XP. apply Rabs_iff in L. split; [assumption|]. split; [apply Rabs_iff; lra|exact V]. Qed.
Lemma sum_near12 x y z w : fnear x z (70 * (u53 * X)) -> fnear y w (70 * (u53 * X)) -> Rabs z <= 12 * X -> Rabs w <= 12 * X -> num (fadd x y) /\ Rabs (FR (fadd x y)) <= 26 * X /\ z + w - 170 * e <= FR (fadd x y) <= z + w + 170 * e.
Proof.
  intros N N' L L'. pose proof eP. pose proof XP. pose proof XMf. apply Rabs_iff in L, L'. fold e in N, N'. pose proof (near_add _ _ _ _ _ _ (25 * X) N N' ltac:(assert (Rabs (z + w) <= 24 * X) by (apply Rabs_iff; lra); lra) ltac:(lra)) as S.
  pose proof (near_num _ _ _ S). apply near_val in S. replace (u53 * (25 * X)) with (25 * e) in S by (unfold e; ring). split; [assumption|]. split; [apply Rabs_iff; lra|lra].
Qed.
Lemma mul_near70 a z q : fnear a z (70 * (u53 * X)) -> Rabs z <= 12 * X -> num q -> 0 <= FR q <= 1 -> fnear (fmul a q) (z * FR q) (85 * e) /\ Rabs (z * FR q) <= 12 * X.
Proof.
  intros N L (Fq & Vq) Hq. pose proof eP. pose proof XP. pose proof XMf. fold e in N. pose proof (Rabs_pos z). pose proof eta_e.
  assert (K : Rabs (z * FR q) <= 12 * X). { rewrite Rabs_mult, (Rabs_right (FR q)) by lra. assert (Rabs z * FR q <= Rabs z * 1) by (apply Rmult_le_compat_l; lra). lra. }
  split; [|exact K]. assert (K2 : 70 * e * FR q <= 70 * e * 1) by (apply Rmult_le_compat_l; lra). eapply near_weak; [apply (near_mul _ _ _ _ _ _ (13 * X) N (near_exact q Fq Vq)); [rewrite (Rabs_right (FR q)) by lra; lra|lra]|]. rewrite (Rabs_right (FR q)) by lra. replace (u53 * (13 * X)) with (13 * e) by (unfold e; ring). lra.
Qed.
Lemma G1_near a z q : fnear a z (70 * (u53 * X)) -> Rabs z <= 12 * X -> num q -> 0 <= FR q <= 1 -> fnear (fadd (fmul a q) b1) (z * FR q + B1) (400 * e) /\ Rabs (z * FR q + B1) <= 37 * X.
Proof.
  intros N L Nq Hq. destruct (mul_near70 a z q N L Nq Hq) as (M & K). pose proof eP. pose proof XP. pose proof XMf. assert (NB := NB1). fold e in NB. assert (LB := LB1). apply Rabs_iff in K, LB. assert (R : Rabs (z * FR q + B1) <= 24 * X) by (apply Rabs_iff; lra). split; [|lra].
  eapply near_weak; [apply (near_add _ _ _ _ _ _ (25 * X) M NB); lra|]. replace (u53 * (25 * X)) with (25 * e) by (unfold e; ring). lra.
Qed.
Lemma G2_near r w : num r -> 0 <= FR r <= 1 -> num w -> 0 <= FR w <= 1 -> fnear (fadd (fadd (fmul a01 r) (fmul a11 w)) b1) (A01 * FR r + A11 * FR w + B1) (400 * e) /\ Rabs (A01 * FR r + A11 * FR w + B1) <= 37 * X.
Proof.
  intros Nr Hr Nw Hw. destruct (mul_near70 a01 A01 r N01 L01 Nr Hr) as (M & K). destruct (mul_near70 a11 A11 w N11 L11 Nw Hw) as (M' & K'). pose proof eP. pose proof XP. pose proof XMf. assert (NB := NB1). fold e in NB. assert (LB := LB1). apply Rabs_iff in K, K', LB.
  pose proof (near_add _ _ _ _ _ _ (25 * X) M M' ltac:(assert (Rabs (A01 * FR r + A11 * FR w) <= 24 * X) by (apply Rabs_iff; lra); lra) ltac:(lra)) as S. assert (R : Rabs (A01 * FR r + A11 * FR w + B1) <= 36 * X) by (apply Rabs_iff; lra). split; [|lra].
  replace (u53 * (25 * X)) with (25 * e) in S by (unfold e; ring). eapply near_weak; [apply (near_add _ _ _ _ _ _ (37 * X) S NB); lra|]. replace (u53 * (37 * X)) with (37 * e) by (unfold e; ring). lra.
Qed.
(** a product of a step and a derivative: its value, and what its sign says *)
Lemma h_near d D g z : fnear d D u53 -> -1 <= D <= 1 -> fnear g z (400 * e) -> Rabs z <= 37 * X -> fnear (fmul d g) (D * z) (500 * e) /\ Rabs (FR (fmul d g)) <= 40 * X.
Proof.
  intros Nd HD Ng L. pose proof eP. pose proof XP. pose proof XMf. pose proof (Rabs_pos z). pose proof eta_e. pose proof u_small as (U0 & U1). assert (HA : Rabs D <= 1) by (apply Rabs_iff; lra). pose proof (Rabs_pos D).
  assert (K : Rabs (D * z) <= 37 * X). { rewrite Rabs_mult. assert (Rabs D * Rabs z <= 1 * Rabs z) by (apply Rmult_le_compat_r; lra). lra. }
  assert (K1 : u53 * Rabs z <= u53 * (37 * X)) by (apply Rmult_le_compat_l; lra). assert (K2 : Rabs D * (400 * e) <= 1 * (400 * e)) by (apply Rmult_le_compat_r; lra). assert (K3 : u53 * (400 * e) <= / 1000 * (400 * e)) by (apply Rmult_le_compat_r; lra). replace (u53 * (37 * X)) with (37 * e) in K1 by (unfold e; ring).
  assert (N : fnear (fmul d g) (D * z) (500 * e)). { eapply near_weak; [apply (near_mul _ _ _ _ _ _ (39 * X) Nd Ng); lra|]. replace (u53 * (39 * X)) with (39 * e) by (unfold e; ring). lra. }
  split; [exact N|]. apply near_val in N. apply Rabs_iff in K. apply Rabs_iff. lra.
Qed.
Lemma sign_pos d g z : num d -> bpow (-500) <= FR d -> fnear g z (400 * e) -> num (fmul d g) ->
  (FR (fmul d g) < 0 -> z <= 401 * e) /\ (0 < FR (fmul d g) -> - (401 * e) <= z) /\ (0 <= FR (fmul d g) -> - (401 * e) <= z) /\ (FR (fmul d g) <= 0 -> z <= 401 * e).
Proof.
  intros Nd Hd Ng Nh. destruct (small_prod d g Nd (near_num _ _ _ Ng) Nh) as (S1 & S2 & S3 & S4). apply near_val in Ng. pose proof (bpow_pos (-500)) as BP. pose proof eP. pose proof eta_step as ES. pose proof eta_pos.
  assert (BB : bpow (-500) * bpow 500 = 1) by (rewrite <- bpow_add; apply bpow_0).
  assert (K : forall y, FR d * y <= eta -> y <= e). { intros y Hy. destruct (Rle_dec y 0); [lra|]. apply Rle_trans with (eta * bpow 500); [|exact ES]. replace y with (bpow (-500) * bpow 500 * y) by (rewrite BB; ring). replace (bpow (-500) * bpow 500 * y) with (bpow (-500) * y * bpow 500) by ring. apply Rmult_le_compat_r; [left; apply bpow_pos|]. apply Rle_trans with (FR d * y); [apply Rmult_le_compat_r; lra|exact Hy]. }
  split; [|split; [|split]]; intros H'.
  - specialize (S1 H'). pose proof (K (FR g) ltac:(lra)). lra.
  - specialize (S2 H'). pose proof (K (- FR g) ltac:(lra)). lra.
  - specialize (S3 H'). pose proof (K (- FR g) ltac:(lra)). lra.
  - specialize (S4 H'). pose proof (K (FR g) ltac:(lra)). lra.
Qed.
Lemma sign_neg d g z : num d -> FR d <= - bpow (-500) -> fnear g z (400 * e) -> num (fmul d g) ->
  (FR (fmul d g) < 0 -> - (401 * e) <= z) /\ (0 < FR (fmul d g) -> z <= 401 * e) /\ (0 <= FR (fmul d g) -> z <= 401 * e) /\ (FR (fmul d g) <= 0 -> - (401 * e) <= z).
Proof.
  intros Nd Hd Ng Nh. destruct (small_prod d g Nd (near_num _ _ _ Ng) Nh) as (S1 & S2 & S3 & S4). apply near_val in Ng. pose proof (bpow_pos (-500)) as BP. pose proof eP. pose proof eta_step as ES. pose proof eta_pos.
  assert (BB : bpow (-500) * bpow 500 = 1) by (rewrite <- bpow_add; apply bpow_0).
  assert (K : forall y, - FR d * y <= eta -> y <= e). { intros y Hy. destruct (Rle_dec y 0); [lra|]. apply Rle_trans with (eta * bpow 500); [|exact ES]. replace y with (bpow (-500) * bpow 500 * y) by (rewrite BB; ring). replace (bpow (-500) * bpow 500 * y) with (bpow (-500) * y * bpow 500) by ring. apply Rmult_le_compat_r; [left; apply bpow_pos|]. apply Rle_trans with (- FR d * y); [apply Rmult_le_compat_r; lra|exact Hy]. }
  split; [|split; [|split]]; intros H'.
  - specialize (S1 H'). pose proof (K (- FR g) ltac:(lra)). lra.
  - specialize (S2 H'). pose proof (K (FR g) ltac:(lra)). lra.
  - specialize (S3 H'). pose proof (K (FR g) ltac:(lra)). lra.
  - specialize (S4 H'). pose proof (K (- FR g) ltac:(lra)). lra.
Qed.
(** the minimum along the segment between the two zeros of the first derivative *)
Lemma segment_near p0 p1 h0 h1 : unit_ok p0 -> unit_ok p1 -> fnear h0 ((FR (snd p1) - FR (snd p0)) * G (FR (fst p0)) (FR (snd p0))) (500 * e) -> fnear h1 ((FR (snd p1) - FR (snd p0)) * G (FR (fst p1)) (FR (snd p1))) (500 * e) ->
  Rabs (FR h0) <= 40 * X -> Rabs (FR h1) <= 40 * X -> FR h0 < 0 -> 0 < FR h1 ->
  - (400 * e) <= F (FR (fst p0)) (FR (snd p0)) <= 400 * e -> - (400 * e) <= F (FR (fst p1)) (FR (snd p1)) <= 400 * e ->
  forall x, 0 <= x <= 1 -> Q (FR (fst (fmin_interior p0 h0 p1 h1))) (FR (snd (fmin_interior p0 h0 p1 h1))) <= Q ((1 - x) * FR (fst p0) + x * FR (fst p1)) ((1 - x) * FR (snd p0) + x * FR (snd p1)) + 4000 * e.
Proof.
  intros ((A1 & A2 & A3 & A4 & A5) & A6 & A7) ((D1 & D2 & D3 & D4 & D5) & D6 & D7) H0 H1 LH0 LH1 P0 P1 F0 F1 x Hx. pose proof eP. pose proof XP. pose proof XMf. pose proof u_small as (U0 & U1). pose proof huge.
  pose proof (near_num _ _ _ H0) as Nh0. pose proof (near_num _ _ _ H1) as Nh1. apply near_val in H0, H1. assert (HM : 2 * (40 * X) <= bpow 1000) by lra.
  destruct (share h0 h1 (40 * X) Nh0 Nh1 LH0 LH1 HM ltac:(lra) ltac:(lra)) as (Nz & Z). pose proof (share_res h0 h1 (40 * X) Nh0 Nh1 LH0 LH1 HM ltac:(lra) ltac:(lra)) as R.
  unfold fmin_interior. cbv zeta. cbn [fst snd]. change BihModel.f1 with f1. change McRealModel.fadd with fadd. change McRealModel.fsub with fsub. change McRealModel.fdiv with fdiv. change McRealModel.fmul with fmul.
  set (z := fdiv h0 (fsub h0 h1)) in *. destruct (one_minus z Nz Z) as (No & O & OE). pose proof (mix_near (fsub f1 z) z (fst p0) (fst p1) No Nz A1 D1 O Z ltac:(lra) ltac:(lra) OE) as MS. pose proof (mix_near (fsub f1 z) z (snd p0) (snd p1) No Nz A2 D2 O Z ltac:(lra) ltac:(lra) OE) as MT.
  set (s' := FR (fadd (fmul (fsub f1 z) (fst p0)) (fmul z (fst p1)))) in *. set (t' := FR (fadd (fmul (fsub f1 z) (snd p0)) (fmul z (snd p1)))) in *.
  set (s0 := FR (fst p0)) in *. set (t0 := FR (snd p0)) in *. set (s1 := FR (fst p1)) in *. set (t1 := FR (snd p1)) in *. set (k := FR z) in *. set (x0 := FR h0) in *. set (x1 := FR h1) in *. clearbody s' t' s0 t0 s1 t1 k x0 x1. clear No O OE A1 A2 D1 D2.
  replace (5 * (u53 * (40 * X))) with (200 * e) in R by (unfold e; ring). apply Rabs_iff in R, MS, MT.
  set (sk := (1 - k) * s0 + k * s1) in *. set (tk := (1 - k) * t0 + k * t1) in *.
  assert (SK : 0 <= sk <= 1). { unfold sk. split; [apply Rplus_le_le_0_compat; apply Rmult_le_pos; lra|]. assert ((1 - k) * s0 <= (1 - k) * 1) by (apply Rmult_le_compat_l; lra). assert (k * s1 <= k * 1) by (apply Rmult_le_compat_l; lra). lra. }
  assert (TK : 0 <= tk <= 1). { unfold tk. split; [apply Rplus_le_le_0_compat; apply Rmult_le_pos; lra|]. assert ((1 - k) * t0 <= (1 - k) * 1) by (apply Rmult_le_compat_l; lra). assert (k * t1 <= k * 1) by (apply Rmult_le_compat_l; lra). lra. }
  assert (FK : - (400 * e) <= F sk tk <= 400 * e). { replace (F sk tk) with ((1 - k) * F s0 t0 + k * F s1 t1) by (unfold sk, tk, F, Fd; ring). assert ((1 - k) * - (400 * e) <= (1 - k) * F s0 t0 <= (1 - k) * (400 * e)) by (split; apply Rmult_le_compat_l; lra). assert (k * - (400 * e) <= k * F s1 t1 <= k * (400 * e)) by (split; apply Rmult_le_compat_l; lra). lra. }
  assert (GK : - (700 * e) <= (t1 - t0) * G sk tk <= 700 * e).
  { replace ((t1 - t0) * G sk tk) with ((1 - k) * ((t1 - t0) * G s0 t0) + k * ((t1 - t0) * G s1 t1)) by (unfold sk, tk, G, Gd; ring). set (g0 := (t1 - t0) * G s0 t0) in *. set (g1 := (t1 - t0) * G s1 t1) in *. clearbody g0 g1.
    assert ((1 - k) * (x0 - 500 * e) <= (1 - k) * g0 <= (1 - k) * (x0 + 500 * e)) by (split; apply Rmult_le_compat_l; lra). assert (k * (x1 - 500 * e) <= k * g1 <= k * (x1 + 500 * e)) by (split; apply Rmult_le_compat_l; lra). lra. }
  assert (Q1 : Q sk tk <= Q ((1 - x) * s0 + x * s1) ((1 - x) * t0 + x * t1) + 2200 * e).
  { pose proof (grad A00 A01 A11 B0 B1 C PSD sk tk ((1 - x) * s0 + x * s1) ((1 - x) * t0 + x * t1)) as GR. fold Q F G in GR. replace ((1 - x) * s0 + x * s1 - sk) with ((x - k) * (s1 - s0)) in GR by (unfold sk; ring). replace ((1 - x) * t0 + x * t1 - tk) with ((x - k) * (t1 - t0)) in GR by (unfold tk; ring).
    replace (G sk tk * ((x - k) * (t1 - t0))) with ((t1 - t0) * G sk tk * (x - k)) in GR by ring. pose proof (prod_ge _ (x - k) _ GK ltac:(lra)) as K1.
    assert (K3 : -1 <= (x - k) * (s1 - s0) <= 1). { apply Rabs_iff. rewrite Rabs_mult. pose proof (Rabs_pos (x - k)). pose proof (Rabs_pos (s1 - s0)). assert (Rabs (x - k) <= 1) by (apply Rabs_iff; lra). assert (Rabs (s1 - s0) <= 1) by (apply Rabs_iff; lra). assert (Rabs (x - k) * Rabs (s1 - s0) <= 1 * 1) by (apply Rmult_le_compat; lra). lra. }
    pose proof (prod_ge _ _ _ FK K3) as K2. lra. }
  assert (Q2 : Q s' t' <= Q sk tk + 1000 * e).
  { pose proof (grad A00 A01 A11 B0 B1 C PSD s' t' sk tk) as GR. fold Q F G in GR.
    assert (BD : forall a b c, Rabs a <= 12 * X -> Rabs b <= 12 * X -> Rabs c <= 12 * X -> forall m, -1 <= m <= 1 -> - (50 * (X * 1)) <= (a * s' + b * t' + c) * m).
    { intros a b c La Lb Lc m Hm. pose proof (Rabs_pos a). pose proof (Rabs_pos b). assert (S' : 0 <= Rabs s' <= 3 / 2) by (split; [apply Rabs_pos|apply Rabs_iff; lra]). assert (T' : 0 <= Rabs t' <= 3 / 2) by (split; [apply Rabs_pos|apply Rabs_iff; lra]).
      apply prod_ge; [|exact Hm]. apply Rabs_iff. eapply Rle_trans; [apply Rabs_triang|]. assert (T1 := Rabs_triang (a * s') (b * t')). rewrite !Rabs_mult in T1. assert (Rabs a * Rabs s' <= 12 * X * (3 / 2)) by (apply Rmult_le_compat; lra). assert (Rabs b * Rabs t' <= 12 * X * (3 / 2)) by (apply Rmult_le_compat; lra). lra. }
    assert (KS : - (250 * e) <= F s' t' * (sk - s')). { replace (F s' t' * (sk - s')) with ((A00 * s' + A01 * t' + B0) * ((sk - s') / (5 * u53)) * (5 * u53)) by (unfold F, Fd; field; lra). apply Rle_trans with (- (50 * (X * 1)) * (5 * u53)); [unfold e; lra|]. apply Rmult_le_compat_r; [lra|]. apply BD; auto. split; [apply (Rmult_le_reg_r (5 * u53))|apply (Rmult_le_reg_r (5 * u53))]; try lra; unfold Rdiv; rewrite Rmult_assoc, Rinv_l by lra; lra. }
    assert (KT : - (250 * e) <= G s' t' * (tk - t')). { replace (G s' t' * (tk - t')) with ((A01 * s' + A11 * t' + B1) * ((tk - t') / (5 * u53)) * (5 * u53)) by (unfold G, Gd; field; lra). apply Rle_trans with (- (50 * (X * 1)) * (5 * u53)); [unfold e; lra|]. apply Rmult_le_compat_r; [lra|]. apply BD; auto. split; [apply (Rmult_le_reg_r (5 * u53))|apply (Rmult_le_reg_r (5 * u53))]; try lra; unfold Rdiv; rewrite Rmult_assoc, Rinv_l by lra; lra. }
    lra. }
  lra.
Qed.
(** the edges of the triangle *)
Lemma any_bound a b c s t : Rabs a <= 12 * X -> Rabs b <= 12 * X -> Rabs c <= 12 * X -> 0 <= s <= 3 / 2 -> 0 <= t <= 3 / 2 -> Rabs (a * s + b * t + c) <= 50 * X.
Proof.
  intros La Lb Lc Hs Ht. pose proof XP. pose proof (Rabs_pos a). pose proof (Rabs_pos b). pose proof (Rabs_triang (a * s + b * t) c). assert (T1 := Rabs_triang (a * s) (b * t)). rewrite !Rabs_mult, (Rabs_right s), (Rabs_right t) in T1 by lra.
  assert (Rabs a * s <= 12 * X * (3 / 2)) by (apply Rmult_le_compat; lra). assert (Rabs b * t <= 12 * X * (3 / 2)) by (apply Rmult_le_compat; lra). lra.
Qed.
Lemma slide s s' t : 0 <= s <= 3 / 2 -> 0 <= t <= 3 / 2 -> Rabs (s' - s) <= u53 -> Q s t <= Q s' t + 100 * e.
Proof.
  intros Hs Ht D. pose proof (grad A00 A01 A11 B0 B1 C PSD s t s' t) as GR. fold Q F G in GR. replace (G s t * (t - t)) with 0 in GR by ring. pose proof (any_bound A00 A01 B0 s t L00 L01 LB0 Hs Ht) as K. change (A00 * s + A01 * t + B0) with (F s t) in K.
  assert (K2 : Rabs (F s t * (s' - s)) <= 50 * X * u53) by (rewrite Rabs_mult; apply Rmult_le_compat; auto using Rabs_pos). apply Rabs_iff in K2. unfold e. lra.
Qed.
Lemma fin02 r : 0 <= r <= 1 -> Q (FR (fst (fmin_edge02 a11 b1))) (FR (snd (fmin_edge02 a11 b1))) <= Q 0 r + 400 * e.
Proof. intros Hr. destruct E02 as (E & H). rewrite E. change (FR f0) with 0. exact (H r Hr). Qed.
Lemma fin12 r : 0 <= r <= 1 -> Q (FR (fst p12)) (FR (snd p12)) <= Q (1 - r) r + 3100 * e.
Proof.
  intros Hr. destruct E12 as (T & D & H). specialize (H r Hr). pose proof u_small as (U0 & U1). assert (D' := D). apply Rabs_iff in D'.
  destruct (val70 _ _ N01 L01) as (M01 & K01 & _). destruct (val70 _ _ N11 L11) as (M11 & K11 & _). destruct (val70 _ _ NB1 LB1) as (MB1 & KB1 & _). destruct (sum_near12 _ _ _ _ NB0 N00 LB0 L00) as (M10 & K10 & _). destruct (sum_near12 _ _ _ _ NB0 N01 LB0 L01) as (M01' & K01' & _). pose proof XP.
  destruct (edge12_ok a01 a11 b1 (fadd b0 a00) (fadd b0 a01) (13 * X) M01 M11 MB1 M10 M01' K01 K11 KB1 ltac:(lra) ltac:(lra) ltac:(lra)) as ((_ & _ & P & _) & _). fold p12 in P.
  pose proof (slide (FR (fst p12)) (1 - FR (snd p12)) (FR (snd p12)) ltac:(lra) ltac:(lra) ltac:(rewrite Rabs_minus_sym; exact D)). lra.
Qed.
Lemma zero02 : (FR (fadd b0 a01) <= 0 <= FR b0 \/ FR b0 <= 0 <= FR (fadd b0 a01)) -> FR b0 <> FR (fadd b0 a01) -> let q := fdiv b0 (fsub b0 (fadd b0 a01)) in num q /\ 0 <= FR q <= 1 /\ - (400 * e) <= F 0 (FR q) <= 400 * e.
Proof.
  intros HS NE. cbv zeta. destruct (val70 _ _ NB0 LB0) as (M0 & K0 & V0). destruct (sum_near12 _ _ _ _ NB0 N01 LB0 L01) as (M1 & K1 & V1). pose proof XP. pose proof eP. pose proof huge.
  destruct (share b0 (fadd b0 a01) (26 * X) M0 M1 ltac:(lra) K1 ltac:(lra) HS NE) as (Nq & Hq). pose proof (share_res b0 (fadd b0 a01) (26 * X) M0 M1 ltac:(lra) K1 ltac:(lra) HS NE) as R. split; [exact Nq|]. split; [exact Hq|].
  replace (5 * (u53 * (26 * X))) with (130 * e) in R by (unfold e; ring). apply Rabs_iff in R. set (q := FR (fdiv b0 (fsub b0 (fadd b0 a01)))) in *. set (x := FR b0) in *. set (y := FR (fadd b0 a01)) in *. clearbody q x y.
  unfold F, Fd. replace (A00 * 0 + A01 * q + B0) with ((1 - q) * B0 + q * (B0 + A01)) by ring. assert ((1 - q) * (x - 70 * e) <= (1 - q) * B0 <= (1 - q) * (x + 70 * e)) by (split; apply Rmult_le_compat_l; lra). assert (q * (y - 170 * e) <= q * (B0 + A01) <= q * (y + 170 * e)) by (split; apply Rmult_le_compat_l; lra).
  assert (q * e <= 1 * e) by (apply Rmult_le_compat_r; lra). assert (0 <= q * e) by (apply Rmult_le_pos; lra). lra.
Qed.
Lemma zero01 : FR b0 <= 0 -> 0 < FR (fadd b0 a00) -> let q := fdiv b0 (fsub b0 (fadd b0 a00)) in num q /\ 0 <= FR q <= 1 /\ - (400 * e) <= F (FR q) 0 <= 400 * e.
Proof.
  intros HS NE. cbv zeta. destruct (val70 _ _ NB0 LB0) as (M0 & K0 & V0). destruct (sum_near12 _ _ _ _ NB0 N00 LB0 L00) as (M1 & K1 & V1). pose proof XP. pose proof eP. pose proof huge.
  destruct (share b0 (fadd b0 a00) (26 * X) M0 M1 ltac:(lra) K1 ltac:(lra) ltac:(lra) ltac:(lra)) as (Nq & Hq). pose proof (share_res b0 (fadd b0 a00) (26 * X) M0 M1 ltac:(lra) K1 ltac:(lra) ltac:(lra) ltac:(lra)) as R. split; [exact Nq|]. split; [exact Hq|].
  replace (5 * (u53 * (26 * X))) with (130 * e) in R by (unfold e; ring). apply Rabs_iff in R. set (q := FR (fdiv b0 (fsub b0 (fadd b0 a00)))) in *. set (x := FR b0) in *. set (y := FR (fadd b0 a00)) in *. clearbody q x y.
  unfold F, Fd. replace (A00 * q + A01 * 0 + B0) with ((1 - q) * B0 + q * (B0 + A00)) by ring. assert ((1 - q) * (x - 70 * e) <= (1 - q) * B0 <= (1 - q) * (x + 70 * e)) by (split; apply Rmult_le_compat_l; lra). assert (q * (y - 170 * e) <= q * (B0 + A00) <= q * (y + 170 * e)) by (split; apply Rmult_le_compat_l; lra).
  assert (q * e <= 1 * e) by (apply Rmult_le_compat_r; lra). assert (0 <= q * e) by (apply Rmult_le_pos; lra). lra.
Qed.
Lemma zero12 : (FR (fadd b0 a01) <= 0 <= FR (fadd b0 a00) \/ FR (fadd b0 a00) <= 0 <= FR (fadd b0 a01)) -> FR (fadd b0 a01) <> FR (fadd b0 a00) -> let r := fdiv (fadd b0 a01) (fsub (fadd b0 a01) (fadd b0 a00)) in let w := fsub f1 r in
  num r /\ 0 <= FR r <= 1 /\ num w /\ 0 <= FR w <= 1 /\ Rabs (FR r - (1 - FR w)) <= u53 /\ - (400 * e) <= F (FR r) (FR w) <= 400 * e /\ - (420 * e) <= F (1 - FR w) (FR w) <= 420 * e.
Proof.
  intros HS NE. cbv zeta. destruct (sum_near12 _ _ _ _ NB0 N00 LB0 L00) as (M0 & K0 & V0). destruct (sum_near12 _ _ _ _ NB0 N01 LB0 L01) as (M1 & K1 & V1). pose proof XP. pose proof eP. pose proof huge. pose proof u_small as (U0 & U1).
  destruct (share _ _ (26 * X) M1 M0 K1 K0 ltac:(lra) ltac:(tauto) NE) as (Nr & Hr). pose proof (share_res _ _ (26 * X) M1 M0 K1 K0 ltac:(lra) ltac:(tauto) NE) as R. split; [exact Nr|]. split; [exact Hr|].
  set (rr := fdiv (fadd b0 a01) (fsub (fadd b0 a01) (fadd b0 a00))) in *. destruct (one_minus rr Nr Hr) as (Nw & Hw & WE). split; [exact Nw|]. split; [exact Hw|].
  replace (5 * (u53 * (26 * X))) with (130 * e) in R by (unfold e; ring). apply Rabs_iff in R. set (w := FR (fsub f1 rr)) in *. set (r := FR rr) in *. set (y := FR (fadd b0 a01)) in *. set (x := FR (fadd b0 a00)) in *. clearbody r w x y. apply Rabs_iff in WE.
  split; [apply Rabs_iff; lra|].
  assert (SM : forall a m, Rabs a <= 12 * X -> - u53 <= m <= u53 -> - (12 * e) <= a * m <= 12 * e). { intros a m La Hm. apply Rabs_iff. rewrite Rabs_mult. apply Rle_trans with (12 * X * u53); [apply Rmult_le_compat; auto using Rabs_pos; apply Rabs_iff; lra|unfold e; lra]. }
  pose proof (SM A01 (w - (1 - r)) L01 ltac:(lra)) as S1. pose proof (SM A00 (1 - w - r) L00 ltac:(lra)) as S2.
  assert (K : - (320 * e) <= F r w <= 320 * e).
  { unfold F, Fd. replace (A00 * r + A01 * w + B0) with (r * (B0 + A00) + (1 - r) * (B0 + A01) + A01 * (w - (1 - r))) by ring. assert ((1 - r) * (y - 170 * e) <= (1 - r) * (B0 + A01) <= (1 - r) * (y + 170 * e)) by (split; apply Rmult_le_compat_l; lra). assert (r * (x - 170 * e) <= r * (B0 + A00) <= r * (x + 170 * e)) by (split; apply Rmult_le_compat_l; lra). lra. }
  split; [lra|]. replace (F (1 - w) w) with (F r w + A00 * (1 - w - r)) by (unfold F, Fd; ring). lra.
Qed.
(** the code between the zeros on the edges 02 and 12 *)
Definition half02 : spec_float * spec_float :=
  let f10 := fadd b0 a00 in
  let f01 := fadd b0 a01 in
  let p0 := (f0, fdiv b0 (fsub b0 f01)) in
  let p10 := fdiv f01 (fsub f01 f10) in
  let p1 := (p10, fsub f1 p10) in
  let dt1 := fsub (snd p1) (snd p0) in
  let h0 := fmul dt1 (fadd (fmul a11 (snd p0)) b1) in
  if SFleb f0 h0 then fmin_edge02 a11 b1
  else
    let h1 := fmul dt1 (fadd (fadd (fmul a01 (fst p1)) (fmul a11 (snd p1))) b1) in
    if SFleb h1 f0 then p12
    else fmin_interior p0 h0 p1 h1.
Ltac lean := try clearbody p12; try clearbody Q; try clearbody F; try clearbody G; try clearbody e; repeat match goal with H : context [bpow _] |- _ => clear H | H : context [fmaxR] |- _ => clear H | H : context [fnear _ _ _] |- _ => clear H | H : Rabs _ <= _ |- _ => clear H end; lra.
Lemma half_near : (FR (fadd b0 a01) <= 0 <= FR b0 \/ FR b0 <= 0 <= FR (fadd b0 a01)) -> FR b0 <> FR (fadd b0 a01) ->
  (FR (fadd b0 a01) <= 0 <= FR (fadd b0 a00) \/ FR (fadd b0 a00) <= 0 <= FR (fadd b0 a01)) -> FR (fadd b0 a01) <> FR (fadd b0 a00) ->
  (let d := FR (fsub (fsub f1 (fdiv (fadd b0 a01) (fsub (fadd b0 a01) (fadd b0 a00)))) (fdiv b0 (fsub b0 (fadd b0 a01)))) in
   bpow (-500) <= d /\ 0 <= FR b0 /\ FR (fadd b0 a01) <= 0 \/ d <= - bpow (-500) /\ 0 <= FR (fadd b0 a01) /\ FR (fadd b0 a00) <= 0) ->
  forall s t, 0 <= s -> 0 <= t -> s + t <= 1 -> Q (FR (fst half02)) (FR (snd half02)) <= Q s t + 8000 * e.
Proof.
  intros S1 D1 S2 D2 ST s t Hs Ht Hst. cbv zeta in ST. destruct (zero02 S1 D1) as (Nq & Hq & Fq). destruct (zero12 S2 D2) as (Nr & Hr & Nw & Hw & WE & Fr & Fw).
  destruct (val70 _ _ NB0 LB0) as (M0 & _ & V0). destruct (sum_near12 _ _ _ _ NB0 N01 LB0 L01) as (M1 & _ & V1). destruct (sum_near12 _ _ _ _ NB0 N00 LB0 L00) as (M2 & _ & V2).
  unfold half02. cbv zeta. cbn [fst snd].
  set (q := fdiv b0 (fsub b0 (fadd b0 a01))) in *. set (r := fdiv (fadd b0 a01) (fsub (fadd b0 a01) (fadd b0 a00))) in *. set (w := fsub f1 r) in *. pose proof (share_pair r Nr Hr) as SPr. change (fsub f1 r) with w in SPr. clearbody w. clearbody q r.
  pose proof XP as I0. pose proof eP as I1. pose proof XMf as I2. pose proof huge as I3. pose proof u_small as (U0 & U1).
  assert (ND : fnear (fsub w q) (FR w - FR q) u53). { eapply near_weak; [apply (near_sub w q _ _ 0 0 1 (near_exact w (proj1 Nw) (proj2 Nw)) (near_exact q (proj1 Nq) (proj2 Nq)))|lra]; [assert (Rabs (FR w - FR q) <= 1) by (apply Rabs_iff; lra); lra|pose proof big_max; lra]. }
  destruct (G1_near a11 A11 q N11 L11 Nq Hq) as (NG0 & LG0). destruct (G2_near r w Nr Hr Nw Hw) as (NG1 & LG1).
  destruct (h_near _ _ _ _ ND ltac:(lean) NG0 LG0) as (NH0 & LH0). destruct (h_near _ _ _ _ ND ltac:(lean) NG1 LG1) as (NH1 & LH1).
  pose proof (near_num _ _ _ NH0) as Nh0. pose proof (near_num _ _ _ NH1) as Nh1. pose proof (near_num _ _ _ ND) as Nd.
  assert (EG0 : A11 * FR q + B1 = G 0 (FR q)) by (unfold G, Gd; ring). assert (EG1 : A01 * FR r + A11 * FR w + B1 = G (FR r) (FR w)) by (unfold G, Gd; ring).
  rewrite EG0 in *. rewrite EG1 in *. pose proof (fun K => sign_pos _ _ _ Nd K NG0 Nh0) as SP0. pose proof (fun K => sign_pos _ _ _ Nd K NG1 Nh1) as SP1. pose proof (fun K => sign_neg _ _ _ Nd K NG0 Nh0) as SN0. pose proof (fun K => sign_neg _ _ _ Nd K NG1 Nh1) as SN1. clear EG0 EG1 NG0 NG1 LG0 LG1 ND.
  set (h0 := fmul (fsub w q) (fadd (fmul a11 q) b1)) in *. set (h1 := fmul (fsub w q) (fadd (fadd (fmul a01 r) (fmul a11 w)) b1)) in *. clearbody h0 h1. set (dd := fsub w q) in *. clearbody dd.
  assert (FROM0 : forall k, (- (500 * e) <= G 0 (FR q) /\ FR q <= t \/ G 0 (FR q) <= 500 * e /\ t <= FR q) -> k <= Q 0 (FR q) + 400 * e -> k <= Q s t + 8000 * e).
  { intros k HG Hk. pose proof (from_lo A00 A01 A11 B0 B1 C PSD 0 (FR q) (500 * e) s t ltac:(lean)) as FL. fold Q F G in FL. specialize (FL ltac:(lean) ltac:(lean) Hq ltac:(lean) ltac:(lean) HG). lean. }
  assert (FROM1 : forall k, (- (500 * e) <= G (FR r) (FR w) /\ FR w <= t \/ G (FR r) (FR w) <= 500 * e /\ t <= FR w) -> k <= Q (1 - FR w) (FR w) + 3100 * e -> k <= Q s t + 8000 * e).
  { intros k HG Hk. pose proof (from_lo A00 A01 A11 B0 B1 C PSD (FR r) (FR w) (500 * e) s t ltac:(lean)) as FL. fold Q F G in FL. specialize (FL ltac:(lean) Hr Hw ltac:(lean) ltac:(lean) HG). pose proof (slide (1 - FR w) (FR r) (FR w) ltac:(lean) ltac:(lean) WE). lean. }
  pose proof (fin02 (FR q) Hq) as X02. pose proof (fin02 t ltac:(lean)) as Y02. pose proof (fin12 (FR w) Hw) as X12. pose proof (fin12 t ltac:(lean)) as Y12.
  assert (C02 : - (500 * e) <= F 0 t -> Q 0 t <= Q s t + 1000 * e). { intros H'. pose proof (cover02 A00 A01 A11 B0 B1 C PSD (500 * e) s t ltac:(lean) H' ltac:(lean)) as K. fold Q in K. lean. }
  assert (C12 : F (1 - t) t <= 500 * e -> Q (1 - t) t <= Q s t + 1000 * e). { intros H'. pose proof (cover12 A00 A01 A11 B0 B1 C PSD (500 * e) s t ltac:(lean) H' Hs Ht Hst) as K. fold Q in K. lean. }
  assert (F00 : F 0 0 = B0) by (unfold F, Fd; ring). assert (F01 : F 0 1 = B0 + A01) by (unfold F, Fd; ring). assert (F10 : F (1 - 0) 0 = B0 + A00) by (unfold F, Fd; ring). assert (F11 : F (1 - 1) 1 = B0 + A01) by (unfold F, Fd; ring).
  destruct ST as [(Sd & P0 & P1)|(Sd & P0 & P1)].
  - destruct (SP0 Sd) as (Z1 & Z2 & Z3 & Z4). destruct (SP1 Sd) as (W1 & W2 & W3 & W4).
    destruct (le0_cases _ Nh0) as [(-> & H0)|(-> & H0)].
    { specialize (Z3 H0). destruct (Rle_dec (FR q) t) as [T|T]; [apply FROM0; [left; lean|exact X02]|]. pose proof (line02 A00 A01 B0 0 (FR q) t (500 * e) ltac:(lean)) as L. fold F in L. specialize (C02 (L ltac:(lean) ltac:(lean))). lean. }
    destruct (ge0_cases _ Nh1) as [(-> & H1)|(-> & H1)].
    { specialize (W4 H1). destruct (Rle_dec t (FR w)) as [T|T]; [apply FROM1; [right; lean|exact X12]|]. pose proof (line12 A00 A01 B0 (FR w) 1 t (500 * e) ltac:(lean)) as L. fold F in L. specialize (C12 (L ltac:(lean) ltac:(lean))). lean. }
    specialize (Z1 H0). specialize (W2 H1).
    pose proof (segment_near (f0, q) (r, w) h0 h1 (snd_pair q Nq Hq) SPr) as SG. cbn [fst snd] in SG. change (FR f0) with 0 in SG. specialize (SG NH0 NH1 LH0 LH1 H0 H1 Fq Fr).
    pose proof (out_interior A00 A01 A11 B0 B1 C PSD 0 (FR q) (FR r) (FR w) (FR (fst (fmin_interior (f0, q) h0 (r, w) h1))) (FR (snd (fmin_interior (f0, q) h0 (r, w) h1))) (500 * e) (4000 * e) ltac:(lean) ltac:(lean)) as OI. fold Q F G in OI. specialize (OI ltac:(lean) ltac:(lean) ltac:(lean) Hr Hq Hw ltac:(lean) ltac:(lean) SG s t Hs Ht Hst). lean.
  - destruct (SN0 Sd) as (Z1 & Z2 & Z3 & Z4). destruct (SN1 Sd) as (W1 & W2 & W3 & W4).
    destruct (le0_cases _ Nh0) as [(-> & H0)|(-> & H0)].
    { specialize (Z3 H0). destruct (Rle_dec t (FR q)) as [T|T]; [apply FROM0; [right; lean|exact X02]|]. pose proof (line02 A00 A01 B0 (FR q) 1 t (500 * e) ltac:(lean)) as L. fold F in L. specialize (C02 (L ltac:(lean) ltac:(lean))). lean. }
    destruct (ge0_cases _ Nh1) as [(-> & H1)|(-> & H1)].
    { specialize (W4 H1). destruct (Rle_dec (FR w) t) as [T|T]; [apply FROM1; [left; lean|exact X12]|]. pose proof (line12 A00 A01 B0 0 (FR w) t (500 * e) ltac:(lean)) as L. fold F in L. specialize (C12 (L ltac:(lean) ltac:(lean))). lean. }
    specialize (Z1 H0). specialize (W2 H1).
    pose proof (segment_near (f0, q) (r, w) h0 h1 (snd_pair q Nq Hq) SPr) as SG. cbn [fst snd] in SG. change (FR f0) with 0 in SG. specialize (SG NH0 NH1 LH0 LH1 H0 H1 Fq Fr).
    pose proof (out_interior A00 A01 A11 B0 B1 C PSD (FR r) (FR w) 0 (FR q) (FR (fst (fmin_interior (f0, q) h0 (r, w) h1))) (FR (snd (fmin_interior (f0, q) h0 (r, w) h1))) (500 * e) (4000 * e) ltac:(lean) ltac:(lean)) as OI. fold Q F G in OI.
    assert (SG' : forall x, 0 <= x <= 1 -> Q (FR (fst (fmin_interior (f0, q) h0 (r, w) h1))) (FR (snd (fmin_interior (f0, q) h0 (r, w) h1))) <= Q ((1 - x) * FR r + x * 0) ((1 - x) * FR w + x * FR q) + 4000 * e).
    { intros x Hx. specialize (SG (1 - x) ltac:(lean)). replace ((1 - (1 - x)) * 0 + (1 - x) * FR r) with ((1 - x) * FR r + x * 0) in SG by ring. replace ((1 - (1 - x)) * FR q + (1 - x) * FR w) with ((1 - x) * FR w + x * FR q) in SG by ring. exact SG. }
    specialize (OI ltac:(lean) ltac:(lean) Hr ltac:(lean) Hw Hq ltac:(lean) ltac:(lean) SG' s t Hs Ht Hst). lean.
Qed.
Lemma exact_u x : num x -> fnear x (FR x - 0) u53.
Proof. intros (Fx & Vx). rewrite Rminus_0_r. eapply near_weak; [apply near_exact; assumption|left; apply u53_pos]. Qed.
Lemma param_near : 0 <= FR a00 -> ~ (FR b0 = 0 /\ FR a01 = 0) -> step_ok a00 a01 b0 ->
  forall s t, 0 <= s -> 0 <= t -> s + t <= 1 -> Q (FR (fst (ftri_param a00 a01 a11 b0 b1))) (FR (snd (ftri_param a00 a01 a11 b0 b1))) <= Q s t + 8000 * e.
Proof.
  intros P00 NZ ST s t Hs Ht Hst. unfold step_ok in ST. cbv zeta in ST. pose proof XP as I0. pose proof eP as I1. pose proof XMf as I2. pose proof huge as I3. pose proof u_small as (U0 & U1).
  destruct (val70 _ _ NB0 LB0) as (M0 & K0 & V0). destruct (val70 _ _ N01 L01) as (M01 & K01 & _). destruct (val70 _ _ N00 L00) as (M00 & _ & _). destruct (sum_near12 _ _ _ _ NB0 N01 LB0 L01) as (M1 & K1 & V1). destruct (sum_near12 _ _ _ _ NB0 N00 LB0 L00) as (M2 & K2 & V2).
  pose proof (add_zero b0 a01 M0 M01) as AZ.
  assert (G10 : FR b0 <= FR (fadd b0 a00)). { pose proof M0 as (F1 & W1). pose proof M00 as (F2 & W2). destruct (fadd_spec b0 a00 F1 F2 W1 W2) as (CC & _). destruct (correct_ge _ _ b0 CC W1 F1) as (K & _); [lean|]. exact (K (proj1 M2)). }
  pose proof (fin02 t ltac:(lean)) as Y02. pose proof (fin12 t ltac:(lean)) as Y12.
  assert (C02 : - (500 * e) <= F 0 t -> Q 0 t <= Q s t + 1000 * e). { intros H'. pose proof (cover02 A00 A01 A11 B0 B1 C PSD (500 * e) s t ltac:(lean) H' ltac:(lean)) as K. fold Q in K. lean. }
  assert (C12 : F (1 - t) t <= 500 * e -> Q (1 - t) t <= Q s t + 1000 * e). { intros H'. pose proof (cover12 A00 A01 A11 B0 B1 C PSD (500 * e) s t ltac:(lean) H' Hs Ht Hst) as K. fold Q in K. lean. }
  assert (F00 : F 0 0 = B0) by (unfold F, Fd; ring). assert (F01 : F 0 1 = B0 + A01) by (unfold F, Fd; ring). assert (F10 : F (1 - 0) 0 = B0 + A00) by (unfold F, Fd; ring). assert (F11 : F (1 - 1) 1 = B0 + A01) by (unfold F, Fd; ring).
  unfold ftri_param, ftri_param_first. cbv zeta. change BihModel.f0 with f0 in *. change BihModel.f1 with f1 in *. change McRealModel.fadd with fadd in *. change McRealModel.fdiv with fdiv in *. change McRealModel.fsub with fsub in *. change McRealModel.fmul with fmul in *.
  assert (HN := half_near). unfold half02 in HN. cbv zeta in HN.
  destruct (le0_cases _ M0) as [(R1 & P0)|(R1 & P0)]; rewrite R1 in *.
  { destruct (lt0_cases _ M1) as [(R2 & P1)|(R2 & P1)]; rewrite R2 in *.
    - pose proof (line02 A00 A01 B0 0 1 t (500 * e) ltac:(lean)) as L. fold F in L. specialize (C02 (L ltac:(lean) ltac:(lean))). lean.
    - apply HN; auto; try lean.
      + intros E. apply NZ. split; [lean|]. apply AZ; auto; lean.
      + intros E. apply NZ. split; [lean|]. apply AZ; auto; lean. }
  destruct (ge0_cases _ M1) as [(R2 & P1)|(R2 & P1)]; rewrite R2 in *.
  - destruct (ge0_cases _ M2) as [(R3 & P2)|(R3 & P2)]; rewrite R3 in *.
    { pose proof (line12 A00 A01 B0 0 1 t (500 * e) ltac:(lean)) as L. fold F in L. specialize (C12 (L ltac:(lean) ltac:(lean))). fold p12. lean. }
    destruct (zero01 ltac:(lean) P2) as (Nq & Hq & Fq). destruct (zero12 ltac:(left; lean) ltac:(lean)) as (Nr & Hr & Nw & Hw & WE & Fr & Fw). cbn [fst snd] in *.
    set (q := fdiv b0 (fsub b0 (fadd b0 a00))) in *. set (r := fdiv (fadd b0 a01) (fsub (fadd b0 a01) (fadd b0 a00))) in *. set (w := fsub f1 r) in *. pose proof (share_pair r Nr Hr) as SPr. change (fsub f1 r) with w in SPr. clearbody w. clearbody q r.
    destruct (G1_near a01 A01 q N01 L01 Nq Hq) as (NG0 & LG0). destruct (G2_near r w Nr Hr Nw Hw) as (NG1 & LG1). pose proof (exact_u w Nw) as ND.
    destruct (h_near _ _ _ _ ND ltac:(lean) NG0 LG0) as (NH0 & LH0). destruct (h_near _ _ _ _ ND ltac:(lean) NG1 LG1) as (NH1 & LH1). pose proof (near_num _ _ _ NH0) as Nh0. pose proof (near_num _ _ _ NH1) as Nh1.
    assert (EG0 : A01 * FR q + B1 = G (FR q) 0) by (unfold G, Gd; ring). assert (EG1 : A01 * FR r + A11 * FR w + B1 = G (FR r) (FR w)) by (unfold G, Gd; ring). rewrite EG0 in *. rewrite EG1 in *.
    destruct (sign_pos _ _ _ Nw ST NG0 Nh0) as (Z1 & Z2 & Z3 & Z4). destruct (sign_pos _ _ _ Nw ST NG1 Nh1) as (W1 & W2 & W3 & W4).
    set (h0 := fmul w (fadd (fmul a01 q) b1)) in *. set (h1 := fmul w (fadd (fadd (fmul a01 r) (fmul a11 w)) b1)) in *. clearbody h0 h1.
    destruct (le0_cases _ Nh0) as [(-> & H0)|(-> & H0)].
    { cbn [fst snd]. change (FR f0) with 0. pose proof (from_lo A00 A01 A11 B0 B1 C PSD (FR q) 0 (500 * e) s t ltac:(lean)) as FL. fold Q F G in FL. specialize (FL ltac:(lean) Hq ltac:(lean) ltac:(lean) ltac:(lean) ltac:(left; specialize (Z3 H0); lean)). lean. }
    destruct (ge0_cases _ Nh1) as [(-> & H1)|(-> & H1)].
    { fold p12. destruct (Rle_dec t (FR w)) as [T|T].
      - pose proof (from_lo A00 A01 A11 B0 B1 C PSD (FR r) (FR w) (500 * e) s t ltac:(lean)) as FL. fold Q F G in FL. specialize (FL ltac:(lean) Hr Hw ltac:(lean) ltac:(lean) ltac:(right; specialize (W4 H1); lean)). pose proof (slide (1 - FR w) (FR r) (FR w) ltac:(lean) ltac:(lean) WE). pose proof (fin12 (FR w) Hw). lean.
      - pose proof (line12 A00 A01 B0 (FR w) 1 t (500 * e) ltac:(lean)) as L. fold F in L. specialize (C12 (L ltac:(lean) ltac:(lean))). lean. }
    specialize (Z1 H0). specialize (W2 H1).
    pose proof (segment_near (q, f0) (r, w) h0 h1 (fst_pair q Nq Hq) SPr) as SG. cbn [fst snd] in SG. change (FR f0) with 0 in SG. specialize (SG NH0 NH1 LH0 LH1 H0 H1 Fq Fr).
    pose proof (out_interior A00 A01 A11 B0 B1 C PSD (FR q) 0 (FR r) (FR w) (FR (fst (fmin_interior (q, f0) h0 (r, w) h1))) (FR (snd (fmin_interior (q, f0) h0 (r, w) h1))) (500 * e) (4000 * e) ltac:(lean) ltac:(lean)) as OI. fold Q F G in OI. specialize (OI ltac:(lean) ltac:(lean) Hq Hr ltac:(lean) Hw ltac:(lean) ltac:(lean) SG s t Hs Ht Hst). lean.
  - destruct (ge0_cases _ M2) as [(R3 & P2)|(R3 & P2)]; rewrite R3 in *.
    { apply HN; auto; try lean. right. split; [exact ST|lean]. }
    destruct (zero01 ltac:(lean) P2) as (Nq & Hq & Fq). destruct (zero02 ltac:(right; lean) ltac:(lean)) as (Nr & Hr & Fr). cbn [fst snd] in *.
    set (q := fdiv b0 (fsub b0 (fadd b0 a00))) in *. set (r := fdiv b0 (fsub b0 (fadd b0 a01))) in *. clearbody q r.
    destruct (G1_near a01 A01 q N01 L01 Nq Hq) as (NG0 & LG0). destruct (G1_near a11 A11 r N11 L11 Nr Hr) as (NG1 & LG1). pose proof (exact_u r Nr) as ND.
    destruct (h_near _ _ _ _ ND ltac:(lean) NG0 LG0) as (NH0 & LH0). destruct (h_near _ _ _ _ ND ltac:(lean) NG1 LG1) as (NH1 & LH1). pose proof (near_num _ _ _ NH0) as Nh0. pose proof (near_num _ _ _ NH1) as Nh1.
    assert (EG0 : A01 * FR q + B1 = G (FR q) 0) by (unfold G, Gd; ring). assert (EG1 : A11 * FR r + B1 = G 0 (FR r)) by (unfold G, Gd; ring). rewrite EG0 in *. rewrite EG1 in *.
    destruct (sign_pos _ _ _ Nr ST NG0 Nh0) as (Z1 & Z2 & Z3 & Z4). destruct (sign_pos _ _ _ Nr ST NG1 Nh1) as (W1 & W2 & W3 & W4).
    set (h0 := fmul r (fadd (fmul a01 q) b1)) in *. set (h1 := fmul r (fadd (fmul a11 r) b1)) in *. clearbody h0 h1.
    destruct (le0_cases _ Nh0) as [(-> & H0)|(-> & H0)].
    { cbn [fst snd]. change (FR f0) with 0. pose proof (from_lo A00 A01 A11 B0 B1 C PSD (FR q) 0 (500 * e) s t ltac:(lean)) as FL. fold Q F G in FL. specialize (FL ltac:(lean) Hq ltac:(lean) ltac:(lean) ltac:(lean) ltac:(left; specialize (Z3 H0); lean)). lean. }
    destruct (ge0_cases _ Nh1) as [(-> & H1)|(-> & H1)].
    { destruct (Rle_dec t (FR r)) as [T|T].
      - pose proof (from_lo A00 A01 A11 B0 B1 C PSD 0 (FR r) (500 * e) s t ltac:(lean)) as FL. fold Q F G in FL. specialize (FL ltac:(lean) ltac:(lean) Hr ltac:(lean) ltac:(lean) ltac:(right; specialize (W4 H1); lean)). pose proof (fin02 (FR r) Hr). lean.
      - pose proof (line02 A00 A01 B0 (FR r) 1 t (500 * e) ltac:(lean)) as L. fold F in L. specialize (C02 (L ltac:(lean) ltac:(lean))). lean. }
    specialize (Z1 H0). specialize (W2 H1).
    pose proof (segment_near (q, f0) (f0, r) h0 h1 (fst_pair q Nq Hq) (snd_pair r Nr Hr)) as SG. cbn [fst snd] in SG. change (FR f0) with 0 in SG. specialize (SG NH0 NH1 LH0 LH1 H0 H1 Fq Fr).
    pose proof (out_interior A00 A01 A11 B0 B1 C PSD (FR q) 0 0 (FR r) (FR (fst (fmin_interior (q, f0) h0 (f0, r) h1))) (FR (snd (fmin_interior (q, f0) h0 (f0, r) h1))) (500 * e) (4000 * e) ltac:(lean) ltac:(lean)) as OI. fold Q F G in OI. specialize (OI ltac:(lean) ltac:(lean) Hq ltac:(lean) ltac:(lean) Hr ltac:(lean) ltac:(lean) SG s t Hs Ht Hst). lean.
Qed.
End Near.

(** ** The distance *)
Lemma sq_near r v S : fnear r v (26 * (u53 * S)) -> Rabs v <= 5 * S -> 0 < S -> FR r * FR r <= v * v + 300 * (u53 * (S * S)).
Proof.
  intros N L SP. apply near_val in N. pose proof u_small as (U0 & U1). assert (US : 0 < u53 * S <= / 1000000000000000 * S) by (split; [apply Rmult_lt_0_compat; lra|apply Rmult_le_compat_r; lra]). apply Rabs_iff in L.
  replace (FR r * FR r) with (v * v + (FR r - v) * (FR r + v)) by ring. assert (K : Rabs ((FR r - v) * (FR r + v)) <= 26 * (u53 * S) * (11 * S)) by (rewrite Rabs_mult; apply Rmult_le_compat; auto using Rabs_pos; apply Rabs_iff; lra). apply Rabs_iff in K. replace (300 * (u53 * (S * S))) with (300 * (u53 * S) * S) by ring.
  assert (0 <= u53 * S * S) by (apply Rmult_le_pos; lra). lra.
Qed.
(** C112: if neither the failing case nor an underflow of the step occurs, no point of the triangle is nearer than the vector returned is long, up to rounding. *)
Theorem C112_closest_partial : forall S target a b c, bpow (-200) <= S <= bpow 400 -> at3 S target -> at3 S a -> at3 S b -> at3 S c -> ~ no_param target a b c ->
  step_ok (fdot3 (fsub3 b a) (fsub3 b a)) (fdot3 (fsub3 b a) (fsub3 c a)) (SFopp (fdot3 (fsub3 target a) (fsub3 b a))) ->
  forall w, in_tri (FR3 a) (FR3 b) (FR3 c) w -> norm3sq (FR3 (fmin_dist_tri target a b c)) <= norm3sq (sub3 (FR3 target) w) + 9000 * (u53 * (S * S)).
Proof.
  intros S target a b c HS Ht Ha Hb Hc NP ST w (s & t & Ps & Pt & Pst & ->). assert (HS5 : bpow (-511) <= S <= bpow 400) by (split; [eapply Rle_trans; [apply (bpow_le (-511) (-200)); lia|lra]|lra]). assert (HS' : bpow (-1022) <= S <= bpow 400) by (split; [eapply Rle_trans; [apply (bpow_le (-1022) (-200)); lia|lra]|lra]).
  destruct (range_ok S HS') as (SP & SM & S2 & SA & SB). pose proof u_small as (U0 & U1). pose proof huge as HG.
  destruct (sub3_near target a S Ht Ha ltac:(lra)) as (Nd & Ld). destruct (sub3_near b a S Hb Ha ltac:(lra)) as (N0 & L0). destruct (sub3_near c a S Hc Ha ltac:(lra)) as (N1 & L1).
  destruct (dot_near _ _ _ _ S N0 N0 L0 L0 HS5) as (D00 & B00). destruct (dot_near _ _ _ _ S N0 N1 L0 L1 HS5) as (D01 & B01). destruct (dot_near _ _ _ _ S N1 N1 L1 L1 HS5) as (D11 & B11). destruct (dot_near _ _ _ _ S Nd N0 Ld L0 HS5) as (Db0 & Bb0). destruct (dot_near _ _ _ _ S Nd N1 Ld L1 HS5) as (Db1 & Bb1).
  assert (Nb0 := near_num _ _ _ Db0). assert (Nn01 := near_num _ _ _ D01). apply near_opp in Db0, Db1. rewrite <- Rabs_Ropp in Bb0, Bb1. clear Nd N0 N1 Ld L0 L1.
  pose proof (C112_edge_ac S target a c HS5 Ht Ha Hc) as EAC. pose proof (C112_edge_bc S target a b c HS5 Ht Ha Hb Hc) as EBC. cbv zeta in EAC, EBC.
  pose proof (dot_pos _ _ (sub3_at _ _ S Hb Ha S2) ltac:(lra) SA) as P00.
  set (T := FR3 target) in *. set (a' := FR3 a) in *. set (b' := FR3 b) in *. set (c' := FR3 c) in *.
  assert (QE : forall k m, sq_at T a' b' c' k m = Qd (dot3 (sub3 b' a') (sub3 b' a')) (dot3 (sub3 b' a') (sub3 c' a')) (dot3 (sub3 c' a') (sub3 c' a')) (- dot3 (sub3 T a') (sub3 b' a')) (- dot3 (sub3 T a') (sub3 c' a')) (norm3sq (sub3 T a')) k m) by (intros k m; unfold sq_at, Qd, norm3sq, dot3, sub3, add3, scale3; cbn [x3 y3 z3]; ring).
  assert (PSD : forall x y, 0 <= dot3 (sub3 b' a') (sub3 b' a') * x * x + 2 * dot3 (sub3 b' a') (sub3 c' a') * x * y + dot3 (sub3 c' a') (sub3 c' a') * y * y). { intros x y. match goal with |- 0 <= ?g => replace g with (norm3sq (add3 (scale3 x (sub3 b' a')) (scale3 y (sub3 c' a')))) by (unfold norm3sq, dot3, sub3, add3, scale3; cbn [x3 y3 z3]; ring) end. apply norm3sq_nonneg. }
  assert (NPF : forall q, ~ (FR (SFopp (fdot3 (fsub3 target a) (fsub3 b a))) = 0 /\ FR (fdot3 (fsub3 b a) (fsub3 c a)) = 0) \/ q = 0). { intros q. left. intros (Z0 & Z1). apply NP. rewrite FR_opp in Z0. split; apply eqb0; auto. lra. }
  assert (SS : bpow (-400) <= S * S). { change (-400)%Z with (-200 + -200)%Z. rewrite bpow_add. pose proof (bpow_pos (-200)). apply Rmult_le_compat; lra. }
  assert (SX : 1000000 * (S * S + 1) <= bpow 1000). { assert (B8 : S * S <= bpow 800) by (change 800%Z with (400 + 400)%Z; rewrite bpow_add; apply Rmult_le_compat; lra). assert (B1 : 1 <= bpow 800) by (rewrite <- bpow_0; apply bpow_le; lia). assert (B10 : 2097152 * bpow 800 <= bpow 1000). { replace 2097152 with (bpow 21) by (rewrite bpow_Z by lia; reflexivity). rewrite <- bpow_add. apply bpow_le. lia. } lra. }
  assert (E02 : fst (fmin_edge02 (fdot3 (fsub3 c a) (fsub3 c a)) (SFopp (fdot3 (fsub3 target a) (fsub3 c a)))) = f0 /\ forall r, 0 <= r <= 1 -> Qd (dot3 (sub3 b' a') (sub3 b' a')) (dot3 (sub3 b' a') (sub3 c' a')) (dot3 (sub3 c' a') (sub3 c' a')) (- dot3 (sub3 T a') (sub3 b' a')) (- dot3 (sub3 T a') (sub3 c' a')) (norm3sq (sub3 T a')) 0 (FR (snd (fmin_edge02 (fdot3 (fsub3 c a) (fsub3 c a)) (SFopp (fdot3 (fsub3 target a) (fsub3 c a)))))) <= Qd (dot3 (sub3 b' a') (sub3 b' a')) (dot3 (sub3 b' a') (sub3 c' a')) (dot3 (sub3 c' a') (sub3 c' a')) (- dot3 (sub3 T a') (sub3 b' a')) (- dot3 (sub3 T a') (sub3 c' a')) (norm3sq (sub3 T a')) 0 r + 400 * (u53 * (S * S))).
  { destruct EAC as (E1 & _ & E2). split; [exact E1|]. intros r Hr. specialize (E2 b' r Hr). rewrite !QE in E2. exact E2. }
  assert (E12 := EBC). destruct E12 as (E1 & E2 & E3). assert (E3' : forall r, 0 <= r <= 1 -> _) by (intros r Hr; pose proof (E3 r Hr) as K; rewrite !QE in K; exact K).
  destruct (NPF 1) as [NPF'|NPF']; [|lra].
  pose proof (param_near _ _ _ _ _ _ _ _ _ _ (norm3sq (sub3 T a')) (S * S) PSD SS SX D00 D01 D11 Db0 Db1 B00 B01 B11 Bb0 Bb1 E02 (conj E1 (conj E2 E3')) P00 NPF' ST s t Ps Pt Pst) as PN. rewrite <- !QE in PN.
  assert (OP : forall x L, num x -> Rabs (FR x) <= L -> num (SFopp x) /\ Rabs (FR (SFopp x)) <= L). { intros x L (F & V) H. split; [split; [rewrite fin_opp; exact F|apply opp_valid, V]|rewrite FR_opp, Rabs_Ropp; exact H]. }
  pose proof (sub3_at _ _ S Ht Ha S2) as Ad. pose proof (sub3_at _ _ S Hb Ha S2) as A0. pose proof (sub3_at _ _ S Hc Ha S2) as A1.
  destruct (dot_fin _ _ _ A0 A0 ltac:(lra) SA) as (N00 & L00). destruct (dot_fin _ _ _ A0 A1 ltac:(lra) SA) as (N01 & L01). destruct (dot_fin _ _ _ A1 A1 ltac:(lra) SA) as (N11 & L11). destruct (dot_fin _ _ _ Ad A0 ltac:(lra) SA) as (Mb0 & Lb0). destruct (dot_fin _ _ _ Ad A1 ltac:(lra) SA) as (Mb1 & Lb1).
  destruct (OP _ _ Mb0 Lb0) as (Mb0' & Kb0). destruct (OP _ _ Mb1 Lb1) as (Mb1' & Kb1). pose proof (Rle_0_sqr (4 * S)) as SQ. unfold Rsqr in SQ.
  pose proof (ftri_param_ok _ _ _ _ _ (30 * (4 * S * (4 * S) + 1)) N00 N01 N11 Mb0' Mb1' L00 L01 L11 Kb0 Kb1 ltac:(lra) ltac:(lra) P00 NPF') as P.
  unfold fmin_dist_tri. cbv zeta. match type of P with pair_ok _ ?x => set (pp := x) in * end. clearbody pp. clear - PN P Ht Ha Hb Hc HS' SP SM U0 U1. destruct pp as [p q]. cbn [fst snd] in *.
  apply at3_num in Ht, Ha, Hb, Hc. destruct Ht as ((T1 & T2 & T3) & T4 & T5 & T6). destruct Ha as ((A1 & A2 & A3) & A4 & A5 & A6). destruct Hb as ((B1 & B2 & B3) & B4 & B5 & B6). destruct Hc as ((C1 & C2 & C3) & C4 & C5 & C6).
  assert (PQ : FR p + FR q <= 1 + / 100) by (destruct P as (_ & _ & _ & _ & P3); cbn [fst snd] in P3; lra).
  assert (CO : forall t0 x y z, num t0 -> num x -> num y -> num z -> Rabs (FR t0) <= S -> Rabs (FR x) <= S -> Rabs (FR y) <= S -> Rabs (FR z) <= S ->
    let r := fsub t0 (fadd x (fadd (fmul p (fsub y x)) (fmul q (fsub z x)))) in let v := FR t0 - (FR x + (FR p * (FR y - FR x) + FR q * (FR z - FR x))) in FR r * FR r <= v * v + 300 * (u53 * (S * S))).
  { intros t0 x y z N1 N2 N3 N4 L1 L2 L3 L4. cbv zeta. destruct (coord_raw t0 x y z p q S N1 N2 N3 N4 L1 L2 L3 L4 (proj1 HS') SM P) as (CN & CB). apply sq_near; [exact CN| |exact SP]. assert ((FR p + FR q) * (2 * S) <= (1 + / 100) * (2 * S)) by (apply Rmult_le_compat_r; lra). apply Rabs_iff in L1, L2, CB. apply Rabs_iff. lra. }
  pose proof (CO _ _ _ _ T1 A1 B1 C1 T4 A4 B4 C4) as K1. pose proof (CO _ _ _ _ T2 A2 B2 C2 T5 A5 B5 C5) as K2. pose proof (CO _ _ _ _ T3 A3 B3 C3 T6 A6 B6 C6) as K3. cbv zeta in K1, K2, K3.
  unfold sq_at in PN. unfold norm3sq, dot3 in *. unfold T, a', b', c' in *. unfold fsub3, fadd3, fscale3, add3, scale3, sub3, FR3 in *. cbn [f3x f3y f3z x3 y3 z3] in *.
  match type of K1 with ?l <= ?v * ?v + _ => set (l1 := l) in *; set (v1 := v) in * end. match type of K2 with ?l <= ?v * ?v + _ => set (l2 := l) in *; set (v2 := v) in * end. match type of K3 with ?l <= ?v * ?v + _ => set (l3 := l) in *; set (v3 := v) in * end.
  set (m1 := v1 * v1) in *. set (m2 := v2 * v2) in *. set (m3 := v3 * v3) in *. match goal with |- _ <= ?x + _ => set (rhs := x) in * end. set (ee := u53 * (S * S)) in *. assert (EE : 0 <= ee) by (unfold ee; apply Rmult_le_pos; [lra|apply Rle_0_sqr]). clearbody l1 l2 l3 m1 m2 m3 rhs ee. clear - K1 K2 K3 PN EE. lra.
Qed.
(** The target 2^-1074 beside the edge from a, at half the height of the triangle: the product h0 underflows, and the
    corner a is returned although the diagonal is nearer. *)
Theorem C112_closest_refuted : exists target a b c w, at3 1 target /\ at3 1 a /\ at3 1 b /\ at3 1 c /\ ~ no_param target a b c /\ in_tri (FR3 a) (FR3 b) (FR3 c) w /\
  norm3sq (FR3 (fmin_dist_tri target a b c)) = 1 / 4 /\ norm3sq (sub3 (FR3 target) w) <= 1 / 8.
Proof.
  set (z := S754_zero false). set (one := S754_finite false 4503599627370496 (-52)). set (tiny := S754_finite false 1 (-1074)). set (half := S754_finite false 4503599627370496 (-53)).
  assert (E1 : FR one = 1) by exact FR_f1. assert (EH : FR half = 1 / 2). { unfold half, FR. replace (bpow (-53)) with (bpow (-52) / 2) by (change (-53)%Z with (-52 - 1)%Z; rewrite bpow_sub, bpow_1; reflexivity). unfold one, FR in E1. lra. }
  assert (ET : 0 < FR tiny <= 1 / 4). { unfold tiny, FR. pose proof (bpow_pos (-1074)). pose proof (bpow_le (-1074) (-2) ltac:(lia)) as L. assert (B2 : bpow (-2) = / 4) by (replace (bpow (-2)) with (/ bpow 2) by (symmetry; apply (bpow_opp 2)); rewrite bpow_Z by lia; reflexivity). lra. }
  assert (EZ : FR z = 0) by reflexivity.
  exists (FV3 tiny half z), (FV3 z z z), (FV3 one z z), (FV3 one one z), (V3 (1 / 4) (1 / 4) 0).
  assert (AT : forall x y w, (x = z \/ x = one \/ x = tiny \/ x = half) -> (y = z \/ y = one \/ y = tiny \/ y = half) -> (w = z \/ w = one \/ w = tiny \/ w = half) -> at3 1 (FV3 x y w)).
  { assert (K : forall x, (x = z \/ x = one \/ x = tiny \/ x = half) -> valid x /\ fin x = true /\ Rabs (FR x) <= 1) by (intros x [->|[->|[->| ->]]]; (split; [reflexivity|split; [reflexivity|]]); rewrite Rabs_right; lra).
    intros x y w Hx Hy Hw. apply K in Hx, Hy, Hw. unfold at3, valid3, fin3. cbn [f3x f3y f3z]. tauto. }
  split; [apply AT; tauto|]. split; [apply AT; tauto|]. split; [apply AT; tauto|]. split; [apply AT; tauto|].
  split; [intros (H & _); vm_compute in H; discriminate|]. split.
  - exists 0, (1 / 4). unfold FR3. cbn [f3x f3y f3z]. rewrite E1, EZ. repeat (split; [lra|]). apply v3_ext; unfold add3, scale3, sub3; cbn [x3 y3 z3]; lra.
  - replace (fmin_dist_tri (FV3 tiny half z) (FV3 z z z) (FV3 one z z) (FV3 one one z)) with (FV3 z half z) by (vm_compute; reflexivity). unfold FR3, norm3sq, dot3, sub3. cbn [f3x f3y f3z x3 y3 z3]. rewrite EH, EZ. split; [lra|nra].
Qed.
(** The hypotheses are met by the point 3 above a right triangle with legs of 4. *)
Example C112_closest_example :
  let z k := (if (k =? 0)%Z then S754_zero false else S754_finite false (Z.to_pos (k * 2 ^ (52 - Z.log2 k))) (Z.log2 k - 52)) in
  let p x y w := FV3 (z x) (z y) (z w) in
  bpow (-200) <= 4 <= bpow 400 /\
  step_ok (fdot3 (fsub3 (p 4 0 0)%Z (p 0 0 0)%Z) (fsub3 (p 4 0 0)%Z (p 0 0 0)%Z)) (fdot3 (fsub3 (p 4 0 0)%Z (p 0 0 0)%Z) (fsub3 (p 0 4 0)%Z (p 0 0 0)%Z)) (SFopp (fdot3 (fsub3 (p 1 1 3)%Z (p 0 0 0)%Z) (fsub3 (p 4 0 0)%Z (p 0 0 0)%Z))).
Proof.
  cbv zeta. assert (B2 : bpow 2 = 4) by (rewrite bpow_Z by lia; reflexivity). split; [rewrite <- B2; split; apply bpow_le; lia|].
  match goal with |- step_ok ?x ?y ?w => let x' := eval vm_compute in x in let y' := eval vm_compute in y in let w' := eval vm_compute in w in replace x with x' by (vm_compute; reflexivity); replace y with y' by (vm_compute; reflexivity); replace w with w' by (vm_compute; reflexivity) end.
  unfold step_ok. cbv zeta. match goal with |- if ?c then _ else _ => let c' := eval vm_compute in c in replace c with c' by (vm_compute; reflexivity) end. cbv iota. match goal with |- if ?c then _ else _ => let c' := eval vm_compute in c in replace c with c' by (vm_compute; reflexivity) end. cbv iota. match goal with |- if ?c then _ else _ => let c' := eval vm_compute in c in replace c with c' by (vm_compute; reflexivity) | _ => idtac end. cbv iota.
  match goal with |- _ <= FR ?x => let x' := eval vm_compute in x in replace x with x' by (vm_compute; reflexivity) end. unfold FR. match goal with |- _ <= _ * (IZR (Zpos ?m) * bpow ?k) => pose proof (bpow_le (-500) k ltac:(lia)); pose proof (bpow_pos k); assert (1 <= IZR (Zpos m)) by (apply (IZR_le 1); lia); assert (1 * bpow k <= IZR (Zpos m) * bpow k) by (apply Rmult_le_compat_r; lra); lra end.
Qed.
