(** C112: the closest point of a triangle computed in float64 is on the triangle. *)
From Coq Require Import List Bool ZArith Lia Reals Lra Psatz Floats.SpecFloat.
From Verif Require Import Prelude Vec SdfModel BihModel PropsTri FloatBoolModel FloatRound FloatShapeModel FloatRenderModel FloatNear FloatTrack PropsFloatSign FloatTriModel.
Import ListNotations.
Local Open Scope R_scope.

(** ** Single operations *)
Lemma f0_num : num f0 /\ FR f0 = 0.
Proof. split; [split; reflexivity|reflexivity]. Qed.
Lemma f1_num : num f1 /\ FR f1 = 1.
Proof. split; [split; reflexivity|exact FR_f1]. Qed.
Lemma huge : bpow 1000 <= fmaxR.
Proof. unfold fmaxR. pose proof (bpow_le 1000 1023 ltac:(lia)). pose proof (bpow_le 971 1023 ltac:(lia)). replace (bpow 1024) with (2 * bpow 1023) by (rewrite <- bpow_1, <- bpow_add; reflexivity). lra. Qed.
Lemma u_small : 0 < u53 <= / 1000000000000000.
Proof. split; [apply u53_pos|apply u53_small]. Qed.
Lemma sum_fin y z : sum_spec y z -> Rabs z <= bpow 1000 -> num y /\ Rabs (FR y) <= 2 * Rabs z.
Proof.
  intros ((V & _ & Fi & _) & Rl & _) H. pose proof huge. specialize (Fi ltac:(lra)). split; [split; assumption|]. specialize (Rl Fi). pose proof u_small as (U0 & U1). pose proof (Rabs_pos z).
  pose proof (Rabs_triang (FR y - z) z) as T. replace (FR y - z + z) with (FR y) in T by ring. nra.
Qed.
Lemma add_fin x y A B : num x -> num y -> Rabs (FR x) <= A -> Rabs (FR y) <= B -> A + B <= bpow 1000 -> num (fadd x y) /\ Rabs (FR (fadd x y)) <= 2 * (A + B).
Proof.
  intros (F1 & V1) (F2 & V2) HA HB H. pose proof (Rabs_triang (FR x) (FR y)). destruct (sum_fin _ _ (fadd_spec x y F1 F2 V1 V2) ltac:(lra)) as (N & L). split; [exact N|lra].
Qed.
Lemma sub_fin x y A B : num x -> num y -> Rabs (FR x) <= A -> Rabs (FR y) <= B -> A + B <= bpow 1000 -> num (fsub x y) /\ Rabs (FR (fsub x y)) <= 2 * (A + B).
Proof.
  intros (F1 & V1) (F2 & V2) HA HB H. pose proof (Rabs_triang (FR x) (- FR y)) as T. rewrite Rabs_Ropp in T. destruct (sum_fin _ _ (fsub_spec x y F1 F2 V1 V2)) as (N & L); [unfold Rminus; lra|]. split; [exact N|unfold Rminus in *; lra].
Qed.
Lemma mul_fin x y A B : num x -> num y -> Rabs (FR x) <= A -> Rabs (FR y) <= B -> A * B <= bpow 1000 -> num (fmul x y) /\ Rabs (FR (fmul x y)) <= 2 * (A * B) + 1.
Proof.
  intros (F1 & V1) (F2 & V2) HA HB H. destruct (fmul_spec x y F1 F2 V1 V2) as (V & _ & Fi & Er & _). pose proof huge. pose proof (Rabs_pos (FR x)). pose proof (Rabs_pos (FR y)).
  assert (L : Rabs (FR x * FR y) <= A * B) by (rewrite Rabs_mult; apply Rmult_le_compat; lra). specialize (Fi ltac:(lra)). split; [split; assumption|]. pose proof u_small as (U0 & U1). pose proof u_eta. pose proof (Rabs_pos (FR x * FR y)).
  pose proof (Rabs_triang (FR (fmul x y) - FR x * FR y) (FR x * FR y)) as T. replace (FR (fmul x y) - FR x * FR y + FR x * FR y) with (FR (fmul x y)) in T by ring. destruct (Er Fi); nra.
Qed.
(** a quotient between 0 and 1 *)
Lemma ratio x y : num x -> num y -> (0 <= FR x <= FR y \/ FR y <= FR x <= 0) -> FR y <> 0 -> num (fdiv x y) /\ 0 <= FR (fdiv x y) <= 1.
Proof.
  intros (F1 & V1) (F2 & V2) H NZ. pose proof (fdiv_spec x y F1 F2 V1 V2 NZ) as C.
  assert (Q : 0 <= FR x / FR y <= 1).
  { destruct H as [H|H].
    - assert (0 < FR y) by lra. split; [apply Rmult_le_pos; [lra|left; apply Rinv_0_lt_compat; lra]|]. apply (Rmult_le_reg_r (FR y)); [lra|]. unfold Rdiv. rewrite Rmult_assoc, Rinv_l by lra. lra.
    - assert (FR y < 0) by lra. replace (FR x / FR y) with (- FR x / - FR y) by (field; lra). split; [apply Rmult_le_pos; [lra|left; apply Rinv_0_lt_compat; lra]|]. apply (Rmult_le_reg_r (- FR y)); [lra|]. unfold Rdiv. rewrite Rmult_assoc, Rinv_l by lra. lra. }
  pose proof big_max. destruct (correct_err _ _ 1 C) as (Fi & V & _); [rewrite Rabs_right; lra|lra|lra|]. split; [split; assumption|].
  destruct (correct_ge _ _ f0 C eq_refl eq_refl) as (G & _); [cbn; lra|]. destruct (correct_le _ _ f1 C eq_refl eq_refl) as (L & _); [change (FR f1) with (FR FloatShapeModel.f1); rewrite FR_f1; lra|].
  specialize (G Fi). specialize (L Fi). change (FR f0) with 0 in G. change (FR f1) with (FR FloatShapeModel.f1) in L. rewrite FR_f1 in L. lra.
Qed.
(** the ratio x / (x - y) of numbers of opposite signs *)
Lemma share x y A : num x -> num y -> Rabs (FR x) <= A -> Rabs (FR y) <= A -> 2 * A <= bpow 1000 -> (FR y <= 0 <= FR x \/ FR x <= 0 <= FR y) -> FR x <> FR y ->
  num (fdiv x (fsub x y)) /\ 0 <= FR (fdiv x (fsub x y)) <= 1.
Proof.
  intros Nx Ny Ax Ay H S NE. destruct (sub_fin x y A A Nx Ny Ax Ay ltac:(lra)) as (Nd & _). assert (Nx' := Nx). assert (Ny' := Ny). destruct Nx' as (F1 & V1). destruct Ny' as (F2 & V2). pose proof (fsub_spec x y F1 F2 V1 V2) as (C & _ & P1 & P2 & _).
  pose proof Nd as (Fd & Vd). apply ratio; [exact Nx|exact Nd| |].
  - destruct S as [S|S]; [left|right].
    + split; [lra|]. destruct (correct_ge _ _ x C V1 F1) as (G & _); [lra|]. exact (G Fd).
    + split; [|lra]. destruct (correct_le _ _ x C V1 F1) as (G & _); [lra|]. exact (G Fd).
  - destruct S as [S|S].
    + assert (SG : signed (fsub x y) false) by (apply P1; lra). apply (signed_lt (fsub x y)) in SG. apply (ltb_FR (S754_zero false) (fsub x y)) in SG; [cbn in SG; lra|reflexivity|exact Fd|reflexivity|exact Vd].
    + assert (SG : signed (fsub x y) true) by (apply P2; lra). apply (signed_lt (fsub x y)) in SG. apply (ltb_FR (fsub x y) (S754_zero false)) in SG; [cbn in SG; lra|exact Fd|reflexivity|exact Vd|reflexivity].
Qed.
Lemma one_minus p : num p -> 0 <= FR p <= 1 -> num (fsub f1 p) /\ 0 <= FR (fsub f1 p) <= 1 /\ Rabs (FR (fsub f1 p) - (1 - FR p)) <= u53.
Proof.
  intros (F & V) H. destruct f1_num as ((F1 & V1) & E1). destruct (fsub_spec f1 p F1 F V1 V) as (C & _). rewrite E1 in C. pose proof big_max. destruct (correct_err _ _ 1 C) as (Fi & Vd & Er); [rewrite Rabs_right; lra|lra|lra|]. split; [split; assumption|]. split; [|lra].
  destruct (correct_ge _ _ f0 C eq_refl eq_refl) as (G & _); [cbn; lra|]. destruct (correct_le _ _ f1 C V1 F1) as (L & _); [rewrite E1; lra|]. specialize (G Fi). specialize (L Fi). change (FR f0) with 0 in G. rewrite E1 in L. lra.
Qed.
(** ** The parameters *)
Definition pair_ok (c : R) (p : spec_float * spec_float) : Prop :=
  num (fst p) /\ num (snd p) /\ 0 <= FR (fst p) /\ 0 <= FR (snd p) /\ FR (fst p) + FR (snd p) <= 1 + c * u53.
Definition unit_ok (p : spec_float * spec_float) : Prop := pair_ok 1 p /\ FR (fst p) <= 1 /\ FR (snd p) <= 1.
Lemma pair_weak c d p : c <= d -> pair_ok c p -> pair_ok d p.
Proof. intros H (A & B & C & D & E). repeat (split; [assumption|]). pose proof u53_pos. nra. Qed.
Lemma leb0 x : num x -> (SFleb f0 x = true <-> 0 <= FR x) /\ (SFleb x f0 = true <-> FR x <= 0) /\ (SFltb f0 x = true <-> 0 < FR x).
Proof. intros (F & V). pose proof (leb_FR f0 x eq_refl F eq_refl V). pose proof (leb_FR x f0 F eq_refl V eq_refl). pose proof (ltb_FR f0 x eq_refl F eq_refl V). change (FR f0) with 0 in *. tauto. Qed.
Lemma le0_cases x : num x -> (SFleb f0 x = true /\ 0 <= FR x) \/ (SFleb f0 x = false /\ FR x < 0).
Proof. intros N. destruct (leb0 x N) as (A & _). destruct (SFleb f0 x); [left|right]; (split; [reflexivity|]); [tauto|]. apply Rnot_le_lt. intros L. apply A in L. discriminate. Qed.
Lemma ge0_cases x : num x -> (SFleb x f0 = true /\ FR x <= 0) \/ (SFleb x f0 = false /\ 0 < FR x).
Proof. intros N. destruct (leb0 x N) as (_ & A & _). destruct (SFleb x f0); [left|right]; (split; [reflexivity|]); [tauto|]. apply Rnot_le_lt. intros L. apply A in L. discriminate. Qed.
Lemma lt0_cases x : num x -> (SFltb f0 x = true /\ 0 < FR x) \/ (SFltb f0 x = false /\ FR x <= 0).
Proof. intros N. destruct (leb0 x N) as (_ & _ & A). destruct (SFltb f0 x); [left|right]; (split; [reflexivity|]); [tauto|]. apply Rnot_lt_le. intros L. apply A in L. discriminate. Qed.
Ltac unit := repeat match goal with |- _ /\ _ => split end; (assumption || lra).
Lemma edge02_ok a11 b1 A : num a11 -> num b1 -> Rabs (FR a11) <= A -> Rabs (FR b1) <= A -> 2 * A <= bpow 1000 -> unit_ok (fmin_edge02 a11 b1).
Proof.
  intros Na Nb La Lb H. destruct f0_num as (N0 & E0). destruct f1_num as (N1 & E1). pose proof u53_pos. unfold fmin_edge02, unit_ok, pair_ok. cbn [fst snd]. 
  change BihModel.f0 with f0. change BihModel.f1 with f1. change McRealModel.fadd with fadd. change McRealModel.fdiv with fdiv. destruct (le0_cases b1 Nb) as [(-> & B)|(-> & B)]; [rewrite E0; unit|].
  destruct (add_fin a11 b1 A A Na Nb La Lb ltac:(lra)) as (Ns & _). destruct (ge0_cases _ Ns) as [(-> & S)|(-> & S)]; [rewrite E0, E1; unit|].
  pose proof Na as (F1 & V1). pose proof Nb as (F2 & V2). destruct (fadd_spec a11 b1 F1 F2 V1 V2) as (C & _).
  assert (P : 0 < FR a11 + FR b1). { apply Rnot_le_lt. intros L. destruct (correct_le _ _ f0 C eq_refl eq_refl) as (G & _); [change (FR f0) with 0; exact L|]. specialize (G (proj1 Ns)). change (FR f0) with 0 in G. lra. }
  assert (No : num (SFopp b1)) by (split; [rewrite fin_opp; exact F2|apply opp_valid, V2]). destruct (ratio (SFopp b1) a11 No Na) as (Nq & Q); [left; rewrite FR_opp; lra|lra|]. rewrite E0. unit.
Qed.
Lemma edge12_ok a01 a11 b1 f10 f01 A : num a01 -> num a11 -> num b1 -> num f10 -> num f01 -> Rabs (FR a01) <= A -> Rabs (FR a11) <= A -> Rabs (FR b1) <= A -> Rabs (FR f10) <= 4 * A -> Rabs (FR f01) <= 4 * A -> 100 * A <= bpow 1000 ->
  unit_ok (fmin_edge12 a01 a11 b1 f10 f01).
Proof.
  intros N01 N11 Nb Nf Ng L01 L11 Lb Lf Lg H. destruct f0_num as (N0 & E0). destruct f1_num as (N1 & E1). pose proof (Rabs_pos (FR b1)) as PA. pose proof u53_pos. unfold fmin_edge12. cbv zeta. change BihModel.f0 with f0. change BihModel.f1 with f1. change McRealModel.fadd with fadd. change McRealModel.fsub with fsub. change McRealModel.fdiv with fdiv.
  destruct (add_fin a01 b1 A A N01 Nb L01 Lb ltac:(lra)) as (Ns & Ls). destruct (sub_fin _ f10 (4 * A) (4 * A) Ns Nf ltac:(lra) Lf ltac:(lra)) as (Nh & Lh).
  destruct (add_fin a11 b1 A A N11 Nb L11 Lb ltac:(lra)) as (Nt & Lt). destruct (sub_fin _ f01 (4 * A) (4 * A) Nt Ng ltac:(lra) Lg ltac:(lra)) as (Nk & Lk).
  set (h0 := fsub (fadd a01 b1) f10) in *. set (h1 := fsub (fadd a11 b1) f01) in *.
  assert (T : forall t, num t -> 0 <= FR t <= 1 -> unit_ok (fsub f1 t, t)).
  { intros t Nt' Ht. destruct (one_minus t Nt' Ht) as (A1 & A2 & A3). unfold unit_ok, pair_ok. cbn [fst snd]. pose proof (Rle_abs (FR (fsub f1 t) - (1 - FR t))). unit. }
  destruct (le0_cases h0 Nh) as [(-> & B)|(-> & B)]; [apply T; [exact N0|rewrite E0; lra]|]. destruct (ge0_cases h1 Nk) as [(-> & S)|(-> & S)]; [apply T; [exact N1|rewrite E1; lra]|].
  destruct (share h0 h1 (16 * A) Nh Nk ltac:(lra) ltac:(lra) ltac:(lra)) as (Nq & Q); [right; lra|lra|]. apply T; assumption.
Qed.
Lemma interior_ok p0 h0 p1 h1 A : unit_ok p0 -> unit_ok p1 -> num h0 -> num h1 -> Rabs (FR h0) <= A -> Rabs (FR h1) <= A -> 2 * A <= bpow 1000 -> FR h0 < 0 -> 0 < FR h1 -> pair_ok 12 (fmin_interior p0 h0 p1 h1).
Proof.
  intros ((A1 & A2 & A3 & A4 & A5) & A6 & A7) ((B1 & B2 & B3 & B4 & B5) & B6 & B7) N0 N1 L0 L1 H H0 H1. unfold fmin_interior. cbv zeta. change BihModel.f0 with f0. change BihModel.f1 with f1. change McRealModel.fadd with fadd. change McRealModel.fsub with fsub. change McRealModel.fdiv with fdiv. change McRealModel.fmul with fmul.
  destruct (share h0 h1 A N0 N1 L0 L1 H) as (Nz & Z); [right; lra|lra|]. set (z := fdiv h0 (fsub h0 h1)) in *. destruct (one_minus z Nz Z) as (No & O & Oe). set (o := fsub f1 z) in *. clearbody z o.
  pose proof u_small as (U0 & U1).
  assert (M : forall k x, num k -> num x -> 0 <= FR k <= 1 -> 0 <= FR x <= 1 -> num (fmul k x) /\ 0 <= FR (fmul k x) <= 1 /\ Rabs (FR (fmul k x) - FR k * FR x) <= u53).
  { intros k x (Fk & Vk) (Fx & Vx) K X. pose proof (fmul_spec k x Fk Fx Vk Vx) as C. pose proof big_max. assert (KX : 0 <= FR k * FR x <= 1) by nra. destruct (correct_err _ _ 1 C) as (Fi & V & Er); [rewrite Rabs_right; lra|lra|lra|]. split; [split; assumption|].
    destruct (correct_ge _ _ f0 C eq_refl eq_refl) as (G & _); [cbn; lra|]. destruct f1_num as ((F1 & V1) & E1). destruct (correct_le _ _ f1 C V1 F1) as (L & _); [rewrite E1; lra|]. specialize (G Fi). specialize (L Fi). change (FR f0) with 0 in G. rewrite E1 in L. split; [lra|lra]. }
  assert (D : forall x y, num x -> num y -> 0 <= FR x <= 1 -> 0 <= FR y <= 1 -> num (fadd x y) /\ 0 <= FR (fadd x y) /\ Rabs (FR (fadd x y) - (FR x + FR y)) <= 2 * u53).
  { intros x y (Fx & Vx) (Fy & Vy) X Y. destruct (fadd_spec x y Fx Fy Vx Vy) as (C & _). pose proof big_max. destruct (correct_err _ _ 2 C) as (Fi & V & Er); [rewrite Rabs_right; lra|lra|lra|]. split; [split; assumption|].
    destruct (correct_ge _ _ f0 C eq_refl eq_refl) as (G & _); [cbn; lra|]. specialize (G Fi). change (FR f0) with 0 in G. split; [lra|lra]. }
  destruct (M o (fst p0) No A1 O ltac:(lra)) as (X1 & X2 & X3). destruct (M z (fst p1) Nz B1 Z ltac:(lra)) as (Y1 & Y2 & Y3). destruct (M o (snd p0) No A2 O ltac:(lra)) as (V1 & V2 & V3). destruct (M z (snd p1) Nz B2 Z ltac:(lra)) as (W1 & W2 & W3).
  destruct (D _ _ X1 Y1 X2 Y2) as (S1 & S2 & S3). destruct (D _ _ V1 W1 V2 W2) as (T1 & T2 & T3). unfold pair_ok. cbn [fst snd]. repeat (split; [assumption|]).
  set (a := FR (fmul o (fst p0))) in *. set (b := FR (fmul z (fst p1))) in *. set (c := FR (fmul o (snd p0))) in *. set (d := FR (fmul z (snd p1))) in *. set (s := FR (fadd (fmul o (fst p0)) (fmul z (fst p1)))) in *. set (t := FR (fadd (fmul o (snd p0)) (fmul z (snd p1)))) in *.
  clearbody a b c d s t. pose proof (Rle_abs (a - FR o * FR (fst p0))). pose proof (Rle_abs (b - FR z * FR (fst p1))). pose proof (Rle_abs (c - FR o * FR (snd p0))). pose proof (Rle_abs (d - FR z * FR (snd p1))). pose proof (Rle_abs (s - (a + b))). pose proof (Rle_abs (t - (c + d))). pose proof (Rle_abs (FR o - (1 - FR z))).
  assert (FR o * (FR (fst p0) + FR (snd p0)) <= FR o * (1 + u53)) by (apply Rmult_le_compat_l; lra). assert (FR z * (FR (fst p1) + FR (snd p1)) <= FR z * (1 + u53)) by (apply Rmult_le_compat_l; lra).
  assert ((FR o + FR z) * (1 + u53) <= (1 + u53) * (1 + u53)) by (apply Rmult_le_compat_r; lra). assert ((1 + u53) * (1 + u53) <= 1 + 3 * u53) by (assert (u53 * u53 <= u53 * 1) by (apply Rmult_le_compat_l; lra); lra). lra.
Qed.

Lemma zero_of x : num x -> FR x = 0 -> exists s, x = S754_zero s.
Proof.
  intros (F & V) E. destruct x as [s|s| |s m e]; try discriminate; [now exists s|]. exfalso. unfold FR in E.
  pose proof (bpow_pos e) as P. assert (M : 0 < IZR (Zpos m)) by (apply (IZR_lt 0); lia). assert (0 < IZR (Zpos m) * bpow e) by (apply Rmult_lt_0_compat; assumption). destruct s; lra.
Qed.
Lemma h0_fin d a p b A : num d -> num a -> num p -> num b -> Rabs (FR d) <= 4 -> Rabs (FR a) <= A -> 0 <= FR p <= 1 -> Rabs (FR b) <= A -> 1 <= A -> 1000 * A <= bpow 1000 ->
  num (fmul d (fadd (fmul a p) b)) /\ Rabs (FR (fmul d (fadd (fmul a p) b))) <= 300 * A.
Proof.
  intros Nd Na Np Nb Ld La Lp Lb A1 H. destruct (mul_fin a p A 1 Na Np La) as (N1 & L1); [rewrite Rabs_right; lra|lra|]. destruct (add_fin _ b (3 * A) A N1 Nb ltac:(lra) Lb ltac:(lra)) as (N2 & L2).
  destruct (mul_fin d _ 4 (8 * A) Nd N2 Ld ltac:(lra) ltac:(lra)) as (N3 & L3). split; [exact N3|lra].
Qed.
Lemma h1_fin d a p a' p' b A : num d -> num a -> num p -> num a' -> num p' -> num b -> Rabs (FR d) <= 4 -> Rabs (FR a) <= A -> 0 <= FR p <= 1 -> Rabs (FR a') <= A -> 0 <= FR p' <= 1 -> Rabs (FR b) <= A -> 1 <= A -> 1000 * A <= bpow 1000 ->
  num (fmul d (fadd (fadd (fmul a p) (fmul a' p')) b)) /\ Rabs (FR (fmul d (fadd (fadd (fmul a p) (fmul a' p')) b))) <= 300 * A.
Proof.
  intros Nd Na Np Na' Np' Nb Ld La Lp La' Lp' Lb A1 H. destruct (mul_fin a p A 1 Na Np La) as (N1 & L1); [rewrite Rabs_right; lra|lra|]. destruct (mul_fin a' p' A 1 Na' Np' La') as (N1' & L1'); [rewrite Rabs_right; lra|lra|].
  destruct (add_fin _ _ (3 * A) (3 * A) N1 N1' ltac:(lra) ltac:(lra) ltac:(lra)) as (N2 & L2). destruct (add_fin _ b (12 * A) A N2 Nb ltac:(lra) Lb ltac:(lra)) as (N3 & L3).
  destruct (mul_fin d _ 4 (26 * A) Nd N3 Ld ltac:(lra) ltac:(lra)) as (N4 & L4). split; [exact N4|lra].
Qed.
Lemma add_zero b0 a01 : num b0 -> num a01 -> FR b0 = 0 -> FR (fadd b0 a01) = 0 -> num (fadd b0 a01) -> FR a01 = 0.
Proof.
  intros (F1 & V1) (F2 & V2) E0 E (Fi & _). destruct (fadd_spec b0 a01 F1 F2 V1 V2) as (_ & Rl & _). specialize (Rl Fi). rewrite E, E0 in Rl. replace (0 - (0 + FR a01)) with (- FR a01) in Rl by ring. rewrite Rabs_Ropp, Rplus_0_l in Rl. pose proof u_small as (U0 & U1). pose proof (Rabs_pos (FR a01)).
  assert (u53 * Rabs (FR a01) <= / 2 * Rabs (FR a01)) by (apply Rmult_le_compat_r; lra). destruct (Req_dec (FR a01) 0) as [E1|E1]; [exact E1|apply Rabs_pos_lt in E1; lra].
Qed.
Lemma share_pair q : num q -> 0 <= FR q <= 1 -> unit_ok (q, fsub f1 q).
Proof.
  intros Nq Q. destruct (one_minus q Nq Q) as (A1 & A2 & A3). pose proof (Rle_abs (FR (fsub f1 q) - (1 - FR q))). pose proof u53_pos. unfold unit_ok, pair_ok. cbn [fst snd]. unit.
Qed.
Lemma snd_pair q : num q -> 0 <= FR q <= 1 -> unit_ok (f0, q).
Proof. intros Nq Q. destruct f0_num as (N0 & E0). pose proof u53_pos. unfold unit_ok, pair_ok. cbn [fst snd]. rewrite E0. unit. Qed.
Lemma fst_pair q : num q -> 0 <= FR q <= 1 -> unit_ok (q, f0).
Proof. intros Nq Q. destruct f0_num as (N0 & E0). pose proof u53_pos. unfold unit_ok, pair_ok. cbn [fst snd]. rewrite E0. unit. Qed.
Lemma unit_pair p : unit_ok p -> pair_ok 12 p.
Proof. intros (H & _). exact (pair_weak 1 12 p ltac:(lra) H). Qed.
(** the two branches with the ends on the edges 02 and 12 *)
Lemma branch02 a01 a11 b1 f00 f10 f01 A :
  num a01 -> num a11 -> num b1 -> num f00 -> num f10 -> num f01 ->
  Rabs (FR a01) <= A -> Rabs (FR a11) <= A -> Rabs (FR b1) <= A -> Rabs (FR f00) <= 4 * A -> Rabs (FR f10) <= 4 * A -> Rabs (FR f01) <= 4 * A -> 1 <= A -> 1000 * A <= bpow 1000 ->
  (FR f01 <= 0 <= FR f00 \/ FR f00 <= 0 <= FR f01) -> (FR f01 <= 0 <= FR f10 \/ FR f10 <= 0 <= FR f01) -> FR f00 <> FR f01 -> FR f01 <> FR f10 ->
  pair_ok 12 (let p0 := (f0, fdiv f00 (fsub f00 f01)) in
    let p10 := fdiv f01 (fsub f01 f10) in
    let p1 := (p10, fsub f1 p10) in
    let dt1 := fsub (snd p1) (snd p0) in
    let h0 := fmul dt1 (fadd (fmul a11 (snd p0)) b1) in
    if SFleb f0 h0 then fmin_edge02 a11 b1
    else
      let h1 := fmul dt1 (fadd (fadd (fmul a01 (fst p1)) (fmul a11 (snd p1))) b1) in
      if SFleb h1 f0 then fmin_edge12 a01 a11 b1 f10 f01
      else fmin_interior p0 h0 p1 h1).
Proof.
  intros N01 N11 Nb Nf00 Nf10 Nf01 L01 L11 Lb Lf00 Lf10 Lf01 A1 H S1 S2 D1 D2. cbv zeta. cbn [fst snd].
  destruct (share f00 f01 (4 * A) Nf00 Nf01 Lf00 Lf01 ltac:(lra)) as (Nq & Q); [tauto|exact D1|]. destruct (share f01 f10 (4 * A) Nf01 Nf10 Lf01 Lf10 ltac:(lra)) as (Nr & R'); [tauto|exact D2|].
  set (q := fdiv f00 (fsub f00 f01)) in *. set (r := fdiv f01 (fsub f01 f10)) in *. clearbody q r. destruct (one_minus r Nr R') as (Nt & T & _).
  destruct (sub_fin (fsub f1 r) q 1 1 Nt Nq) as (Nd & Ld); [rewrite Rabs_right; lra|rewrite Rabs_right; lra|lra|].
  destruct (h0_fin (fsub (fsub f1 r) q) a11 q b1 A Nd N11 Nq Nb ltac:(lra) L11 Q Lb A1 H) as (Nh0 & Lh0).
  destruct (h1_fin (fsub (fsub f1 r) q) a01 r a11 (fsub f1 r) b1 A Nd N01 Nr N11 Nt Nb ltac:(lra) L01 R' L11 T Lb A1 H) as (Nh1 & Lh1).
  destruct (le0_cases _ Nh0) as [(-> & B0)|(-> & B0)]; [apply unit_pair, (edge02_ok a11 b1 A); auto; lra|].
  destruct (ge0_cases _ Nh1) as [(-> & B1)|(-> & B1)]; [apply unit_pair, (edge12_ok a01 a11 b1 f10 f01 A); auto; lra|].
  apply (interior_ok _ _ _ _ (300 * A)); auto; [apply snd_pair|apply share_pair|lra]; assumption.
Qed.
Lemma ftri_param_ok a00 a01 a11 b0 b1 A :
  num a00 -> num a01 -> num a11 -> num b0 -> num b1 -> Rabs (FR a00) <= A -> Rabs (FR a01) <= A -> Rabs (FR a11) <= A -> Rabs (FR b0) <= A -> Rabs (FR b1) <= A -> 1 <= A -> 1000 * A <= bpow 1000 ->
  0 <= FR a00 -> ~ (FR b0 = 0 /\ FR a01 = 0) -> pair_ok 12 (ftri_param a00 a01 a11 b0 b1).
Proof.
  intros N00 N01 N11 Nb0 Nb1 L00 L01 L11 Lb0 Lb1 A1 H P00 NZ. unfold ftri_param, ftri_param_first.
  change BihModel.f0 with f0. change BihModel.f1 with f1. change McRealModel.fadd with fadd. change McRealModel.fdiv with fdiv. change McRealModel.fsub with fsub. change McRealModel.fmul with fmul.
  destruct (add_fin b0 a00 A A Nb0 N00 Lb0 L00 ltac:(lra)) as (Nf10 & Lf10). destruct (add_fin b0 a01 A A Nb0 N01 Lb0 L01 ltac:(lra)) as (Nf01 & Lf01).
  pose proof (add_zero b0 a01 Nb0 N01) as AZ.
  assert (G10 : FR b0 <= FR (fadd b0 a00)). { pose proof Nb0 as (F1 & V1). pose proof N00 as (F2 & V2). destruct (fadd_spec b0 a00 F1 F2 V1 V2) as (C & _). destruct (correct_ge _ _ b0 C V1 F1) as (G & _); [lra|]. exact (G (proj1 Nf10)). }
  set (f10 := fadd b0 a00) in *. set (f01 := fadd b0 a01) in *. clearbody f10 f01.
  assert (E12 : pair_ok 12 (fmin_edge12 a01 a11 b1 f10 f01)) by (apply unit_pair, (edge12_ok a01 a11 b1 f10 f01 A); auto; lra).
  assert (E02 : pair_ok 12 (fmin_edge02 a11 b1)) by (apply unit_pair, (edge02_ok a11 b1 A); auto; lra).
  pose proof (Rabs_pos (FR b0)).
  destruct (le0_cases _ Nb0) as [(-> & B0)|(-> & B0)].
  { destruct (lt0_cases _ Nf01) as [(-> & B1)|(-> & B1)]; [exact E02|]. apply (branch02 a01 a11 b1 b0 f10 f01 A); auto; try lra.
    - intros E. apply NZ. split; [lra|]. apply AZ; auto; lra.
    - intros E. apply NZ. split; [lra|]. apply AZ; auto; lra. }
  destruct (ge0_cases _ Nf01) as [(-> & B1)|(-> & B1)].
  - destruct (ge0_cases _ Nf10) as [(-> & B2)|(-> & B2)]; [exact E12|]. cbv zeta. cbn [fst snd].
    destruct (share b0 f10 (4 * A) Nb0 Nf10 ltac:(lra) ltac:(lra) ltac:(lra)) as (Nq & Q); [lra|lra|]. destruct (share f01 f10 (4 * A) Nf01 Nf10 ltac:(lra) ltac:(lra) ltac:(lra)) as (Nr & R'); [lra|lra|].
    set (q := fdiv b0 (fsub b0 f10)) in *. set (r := fdiv f01 (fsub f01 f10)) in *. clearbody q r. destruct (one_minus r Nr R') as (Nt & T & _).
    assert (Lt : Rabs (FR (fsub f1 r)) <= 4) by (rewrite Rabs_right; lra).
    destruct (h0_fin (fsub f1 r) a01 q b1 A Nt N01 Nq Nb1 Lt L01 Q Lb1 A1 H) as (Nh0 & Lh0).
    destruct (h1_fin (fsub f1 r) a01 r a11 (fsub f1 r) b1 A Nt N01 Nr N11 Nt Nb1 Lt L01 R' L11 T Lb1 A1 H) as (Nh1 & Lh1).
    destruct (le0_cases _ Nh0) as [(-> & C0)|(-> & C0)]; [apply unit_pair, fst_pair; auto|]. destruct (ge0_cases _ Nh1) as [(-> & C1)|(-> & C1)]; [exact E12|].
    apply (interior_ok _ _ _ _ (300 * A)); auto; [apply fst_pair|apply share_pair|lra]; assumption.
  - destruct (ge0_cases _ Nf10) as [(-> & B2)|(-> & B2)]; [apply (branch02 a01 a11 b1 b0 f10 f01 A); auto; lra|]. cbv zeta. cbn [fst snd].
    destruct (share b0 f10 (4 * A) Nb0 Nf10 ltac:(lra) ltac:(lra) ltac:(lra)) as (Nq & Q); [lra|lra|]. destruct (share b0 f01 (4 * A) Nb0 Nf01 ltac:(lra) ltac:(lra) ltac:(lra)) as (Nr & R'); [lra|lra|].
    set (q := fdiv b0 (fsub b0 f10)) in *. set (r := fdiv b0 (fsub b0 f01)) in *. clearbody q r.
    assert (Lt : Rabs (FR r) <= 4) by (rewrite Rabs_right; lra).
    destruct (h0_fin r a01 q b1 A Nr N01 Nq Nb1 Lt L01 Q Lb1 A1 H) as (Nh0 & Lh0). destruct (h0_fin r a11 r b1 A Nr N11 Nr Nb1 Lt L11 R' Lb1 A1 H) as (Nh1 & Lh1).
    destruct (le0_cases _ Nh0) as [(-> & C0)|(-> & C0)]; [apply unit_pair, fst_pair; auto|]. destruct (ge0_cases _ Nh1) as [(-> & C1)|(-> & C1)]; [exact E02|].
    apply (interior_ok _ _ _ _ (300 * A)); auto; [apply fst_pair|apply snd_pair|lra]; assumption.
Qed.

(** ** The closest point *)
Lemma coord_raw t a b c s r S : num t -> num a -> num b -> num c -> Rabs (FR t) <= S -> Rabs (FR a) <= S -> Rabs (FR b) <= S -> Rabs (FR c) <= S -> bpow (-1022) <= S -> 5 * S <= fmaxR -> pair_ok 12 (s, r) ->
  fnear (fsub t (fadd a (fadd (fmul s (fsub b a)) (fmul r (fsub c a)))))
        (FR t - (FR a + (FR s * (FR b - FR a) + FR r * (FR c - FR a)))) (26 * (u53 * S)) /\
  Rabs (FR s * (FR b - FR a) + FR r * (FR c - FR a)) <= (FR s + FR r) * (2 * S).
Proof.
  intros (Ft & Vt) (Fa & Va) (Fb & Vb) (Fc & Vc) Lt La Lb Lc S0 SM ((Fs & Vs) & (Fr & Vr) & P1 & P2 & P3). cbn [fst snd] in *. pose proof u_small as (U0 & U1).
  assert (SP : 0 < S) by (pose proof (bpow_pos (-1022)); lra).
  assert (ET : eta <= u53 * S). { unfold eta, u53. change (-1075)%Z with (-53 + -1022)%Z. rewrite bpow_add. apply Rmult_le_compat_l; [left; apply bpow_pos|exact S0]. }
  assert (US : 0 < u53 * S <= / 1000000000000000 * S) by (split; [apply Rmult_lt_0_compat; lra|apply Rmult_le_compat_r; lra]).
  assert (UU : 12 * u53 <= / 100) by lra.
  apply Rabs_iff in Lt, La, Lb, Lc.
  pose proof (near_exact t Ft Vt) as Xt. pose proof (near_exact a Fa Va) as Xa. pose proof (near_exact b Fb Vb) as Xb. pose proof (near_exact c Fc Vc) as Xc. pose proof (near_exact s Fs Vs) as Xs. pose proof (near_exact r Fr Vr) as Xr.
  set (x := FR t) in *. set (xa := FR a) in *. set (xb := FR b) in *. set (xc := FR c) in *. set (p := FR s) in *. set (q := FR r) in *.
  assert (B0 : Rabs (xb - xa) <= 2 * S) by (apply Rabs_iff; lra). assert (B1 : Rabs (xc - xa) <= 2 * S) by (apply Rabs_iff; lra).
  pose proof (near_sub _ _ _ _ _ _ (2 * S) Xb Xa ltac:(lra) ltac:(lra)) as E0. pose proof (near_sub _ _ _ _ _ _ (2 * S) Xc Xa ltac:(lra) ltac:(lra)) as E1.
  assert (M : forall k e d, fnear k (FR k) 0 -> 0 <= FR k <= 1 + 12 * u53 -> Rabs d <= 2 * S -> fnear e d (0 + 0 + u53 * (2 * S)) -> fnear (fmul k e) (FR k * d) (7 * (u53 * S))).
  { intros k e d Xk Lk Ld Xe. pose proof (Rabs_pos d) as Pd. assert (K1 : Rabs (FR k) = FR k) by (apply Rabs_right; lra).
    assert (K2 : FR k * Rabs d <= (1 + / 100) * (2 * S)) by (apply Rmult_le_compat; lra). assert (K3 : FR k * (u53 * S) <= (1 + / 100) * (u53 * S)) by (apply Rmult_le_compat_r; lra).
    eapply near_weak; [apply (near_mul k e (FR k) d 0 _ (3 * S) Xk Xe); [rewrite Rabs_mult, K1; lra|lra]|]. rewrite K1. lra. }
  pose proof (M s _ _ Xs ltac:(fold p; lra) B0 E0) as M0. pose proof (M r _ _ Xr ltac:(fold q; lra) B1 E1) as M1. fold p in M0. fold q in M1.
  assert (Q0 : Rabs (p * (xb - xa) + q * (xc - xa)) <= (p + q) * (2 * S)).
  { eapply Rle_trans; [apply Rabs_triang|]. rewrite !Rabs_mult, (Rabs_right p), (Rabs_right q) by lra. assert (p * Rabs (xb - xa) <= p * (2 * S)) by (apply Rmult_le_compat_l; lra). assert (q * Rabs (xc - xa) <= q * (2 * S)) by (apply Rmult_le_compat_l; lra). lra. }
  assert (Q1 : (p + q) * (2 * S) <= (1 + / 100) * (2 * S)) by (apply Rmult_le_compat_r; lra).
  pose proof (near_add _ _ _ _ _ _ (3 * S) M0 M1 ltac:(lra) ltac:(lra)) as A0.
  set (w := p * (xb - xa) + q * (xc - xa)) in *. assert (W := Q0). apply Rabs_iff in W.
  pose proof (near_add _ _ _ _ _ _ (4 * S) Xa A0 ltac:(assert (Rabs (xa + w) <= 3 * S + / 50 * S) by (apply Rabs_iff; lra); lra) ltac:(lra)) as A2.
  pose proof (near_sub _ _ _ _ _ _ (5 * S) Xt A2 ltac:(assert (Rabs (x - (xa + w)) <= 4 * S + / 50 * S) by (apply Rabs_iff; lra); lra) ltac:(lra)) as A3.
  split; [|exact Q0]. eapply near_weak; [exact A3|lra].
Qed.
Lemma coord_near t a b c s r S : num t -> num a -> num b -> num c -> Rabs (FR t) <= S -> Rabs (FR a) <= S -> Rabs (FR b) <= S -> Rabs (FR c) <= S -> bpow (-1022) <= S -> 5 * S <= fmaxR -> pair_ok 12 (s, r) ->
  fnear (fsub t (fadd a (fadd (fmul s (fsub b a)) (fmul r (fsub c a)))))
        (FR t - (FR a + (FR s / (1 + 12 * u53) * (FR b - FR a) + FR r / (1 + 12 * u53) * (FR c - FR a)))) (50 * u53 * S).
Proof.
  intros Ht Ha Hb Hc Lt La Lb Lc S0 SM P. destruct (coord_raw t a b c s r S Ht Ha Hb Hc Lt La Lb Lc S0 SM P) as (A3 & Q0). destruct P as (_ & _ & P1 & P2 & P3). cbn [fst snd] in *. pose proof u_small as (U0 & U1).
  assert (SP : 0 < S) by (pose proof (bpow_pos (-1022)); lra). assert (US : 0 < u53 * S) by (apply Rmult_lt_0_compat; lra).
  set (x := FR t) in *. set (xa := FR a) in *. set (xb := FR b) in *. set (xc := FR c) in *. set (p := FR s) in *. set (q := FR r) in *. set (w := p * (xb - xa) + q * (xc - xa)) in *.
  assert (I : 0 < / (1 + 12 * u53) <= 1). { split; [apply Rinv_0_lt_compat; lra|]. rewrite <- Rinv_1 at 2. apply Rinv_le_contravar; lra. }
  assert (D : w - (p / (1 + 12 * u53) * (xb - xa) + q / (1 + 12 * u53) * (xc - xa)) = w * (12 * u53 * / (1 + 12 * u53))) by (unfold w; field; lra).
  eapply near_weak; [apply (near_shift _ _ _ _ (24 * (u53 * S)) A3)|lra].
  replace (x - (xa + w) - (x - (xa + (p / (1 + 12 * u53) * (xb - xa) + q / (1 + 12 * u53) * (xc - xa))))) with (- (w - (p / (1 + 12 * u53) * (xb - xa) + q / (1 + 12 * u53) * (xc - xa)))) by ring.
  rewrite Rabs_Ropp, D, Rabs_mult, (Rabs_right (12 * u53 * / (1 + 12 * u53))) by (apply Rle_ge; apply Rmult_le_pos; lra).
  assert (K : (p + q) * / (1 + 12 * u53) <= 1). { apply (Rmult_le_reg_r (1 + 12 * u53)); [lra|]. rewrite Rmult_assoc, Rinv_l by lra. lra. }
  assert (K0 : Rabs w * (12 * u53 * / (1 + 12 * u53)) <= (p + q) * (2 * S) * (12 * u53 * / (1 + 12 * u53))) by (apply Rmult_le_compat_r; [apply Rmult_le_pos; lra|exact Q0]).
  replace ((p + q) * (2 * S) * (12 * u53 * / (1 + 12 * u53))) with ((p + q) * / (1 + 12 * u53) * (24 * (u53 * S))) in K0 by ring.
  assert ((p + q) * / (1 + 12 * u53) * (24 * (u53 * S)) <= 1 * (24 * (u53 * S))) by (apply Rmult_le_compat_r; lra). lra.
Qed.
(** ** Dot products *)
Lemma at3_num B p : at3 B p -> (num (f3x p) /\ num (f3y p) /\ num (f3z p)) /\ Rabs (FR (f3x p)) <= B /\ Rabs (FR (f3y p)) <= B /\ Rabs (FR (f3z p)) <= B.
Proof. intros ((A & B' & C) & (D & E & F) & G & H & I). unfold num. tauto. Qed.
Lemma dot_fin p q B : at3 B p -> at3 B q -> 0 <= B -> 400 * (B * B + 1) <= bpow 1000 -> num (fdot3 p q) /\ Rabs (FR (fdot3 p q)) <= 30 * (B * B + 1).
Proof.
  intros Hp Hq B0 H. apply at3_num in Hp, Hq. destruct Hp as ((A1 & A2 & A3) & A4 & A5 & A6). destruct Hq as ((C1 & C2 & C3) & C4 & C5 & C6). assert (BB : 0 <= B * B) by (apply Rmult_le_pos; lra).
  destruct (mul_fin _ _ B B A1 C1 A4 C4 ltac:(lra)) as (N1 & L1). destruct (mul_fin _ _ B B A2 C2 A5 C5 ltac:(lra)) as (N2 & L2). destruct (mul_fin _ _ B B A3 C3 A6 C6 ltac:(lra)) as (N3 & L3).
  destruct (add_fin _ _ _ _ N1 N2 L1 L2 ltac:(lra)) as (N4 & L4). destruct (add_fin _ _ _ _ N4 N3 L4 L3 ltac:(lra)) as (N5 & L5). split; [exact N5|]. unfold fdot3. lra.
Qed.
Lemma sub3_at p q B : at3 B p -> at3 B q -> 2 * B <= bpow 1000 -> at3 (4 * B) (fsub3 p q).
Proof.
  intros Hp Hq H. apply at3_num in Hp, Hq. destruct Hp as ((A1 & A2 & A3) & A4 & A5 & A6). destruct Hq as ((C1 & C2 & C3) & C4 & C5 & C6).
  destruct (sub_fin _ _ B B A1 C1 A4 C4 ltac:(lra)) as ((M1 & N1) & L1). destruct (sub_fin _ _ B B A2 C2 A5 C5 ltac:(lra)) as ((M2 & N2) & L2). destruct (sub_fin _ _ B B A3 C3 A6 C6 ltac:(lra)) as ((M3 & N3) & L3).
  unfold at3, valid3, fin3, fsub3. cbn [f3x f3y f3z]. repeat split; try assumption; lra.
Qed.
Lemma dot_pos p B : at3 B p -> 0 <= B -> 400 * (B * B + 1) <= bpow 1000 -> 0 <= FR (fdot3 p p).
Proof.
  intros Hp B0 H. destruct (dot_fin p p B Hp Hp B0 H) as ((Fd & _) & _). apply at3_num in Hp. destruct Hp as ((A1 & A2 & A3) & A4 & A5 & A6). assert (BB : 0 <= B * B) by (apply Rmult_le_pos; lra).
  destruct (mul_fin _ _ B B A1 A1 A4 A4 ltac:(lra)) as (N1 & L1). destruct (mul_fin _ _ B B A2 A2 A5 A5 ltac:(lra)) as (N2 & L2). destruct (mul_fin _ _ B B A3 A3 A6 A6 ltac:(lra)) as (N3 & L3).
  destruct (add_fin _ _ _ _ N1 N2 L1 L2 ltac:(lra)) as (N4 & L4).
  assert (SQ : forall x, num x -> num (fmul x x) -> 0 <= FR (fmul x x)). { intros x (F & V) (F' & _). destruct (correct_ge _ _ f0 (fmul_spec x x F F V V) eq_refl eq_refl) as (G & _); [change (FR f0) with 0; apply Rle_0_sqr|]. specialize (G F'). exact G. }
  assert (AD : forall x y, num x -> num y -> fin (fadd x y) = true -> 0 <= FR x -> 0 <= FR y -> 0 <= FR (fadd x y)). { intros x y (F & V) (F' & V') Fi X Y. destruct (fadd_spec x y F F' V V') as (C & _). destruct (correct_ge _ _ f0 C eq_refl eq_refl) as (G & _); [change (FR f0) with 0; lra|]. specialize (G Fi). exact G. }
  unfold fdot3 in *. apply AD; [exact N4|exact N3|exact Fd| |apply SQ; assumption]. apply AD; [exact N1|exact N2|apply N4|apply SQ; assumption|apply SQ; assumption].
Qed.
(** ** The statements *)
(** both dot products of the failing case, as computed *)
Definition no_param (target a b c : fv3) : Prop :=
  SFeqb (fdot3 (fsub3 target a) (fsub3 b a)) f0 = true /\ SFeqb (fdot3 (fsub3 b a) (fsub3 c a)) f0 = true.
Lemma eqb0 x : num x -> FR x = 0 -> SFeqb x f0 = true.
Proof. intros N E. destruct (zero_of x N E) as (s & ->). reflexivity. Qed.
Lemma eqb0_inv x : SFeqb x f0 = true -> exists s, x = S754_zero s.
Proof. destruct x as [s|[]| |[] m e]; [intros _; now exists s|discriminate..]. Qed.
Lemma range_ok S : bpow (-1022) <= S <= bpow 400 -> 0 < S /\ 5 * S <= fmaxR /\ 2 * S <= bpow 1000 /\ 400 * (4 * S * (4 * S) + 1) <= bpow 1000 /\ 1000 * (30 * (4 * S * (4 * S) + 1)) <= bpow 1000.
Proof.
  intros (L & U). pose proof (bpow_pos (-1022)). assert (SP : 0 < S) by lra. pose proof huge as HG. assert (B8 : S * S <= bpow 800) by (change 800%Z with (400 + 400)%Z; rewrite bpow_add; apply Rmult_le_compat; lra). pose proof (bpow_le 400 800 ltac:(lia)) as B4.
  assert (B1 : 1 <= bpow 800) by (rewrite <- bpow_0; apply bpow_le; lia). assert (B10 : 1048576 * bpow 800 <= bpow 1000). { replace 1048576 with (bpow 20) by (rewrite bpow_Z by lia; reflexivity). rewrite <- bpow_add. apply bpow_le. lia. }
  repeat split; lra.
Qed.

(** C112: unless both dot products vanish, the vector returned leads to the target from a point of the triangle. *)
Theorem C112_point : forall S target a b c, bpow (-1022) <= S <= bpow 400 -> at3 S target -> at3 S a -> at3 S b -> at3 S c -> ~ no_param target a b c ->
  exists w, in_tri (FR3 a) (FR3 b) (FR3 c) w /\
    fnear (f3x (fmin_dist_tri target a b c)) (FR (f3x target) - x3 w) (50 * u53 * S) /\
    fnear (f3y (fmin_dist_tri target a b c)) (FR (f3y target) - y3 w) (50 * u53 * S) /\
    fnear (f3z (fmin_dist_tri target a b c)) (FR (f3z target) - z3 w) (50 * u53 * S).
Proof.
  intros S target a b c HS Ht Ha Hb Hc NP. destruct (range_ok S HS) as (SP & SM & S2 & SA & SB). unfold fmin_dist_tri. cbv zeta. unfold no_param in NP.
  pose proof (sub3_at _ _ S Ht Ha S2) as Dd. pose proof (sub3_at _ _ S Hb Ha S2) as D0. pose proof (sub3_at _ _ S Hc Ha S2) as D1.
  destruct (dot_fin _ _ _ D0 D0 ltac:(lra) SA) as (N00 & L00). destruct (dot_fin _ _ _ D0 D1 ltac:(lra) SA) as (N01 & L01). destruct (dot_fin _ _ _ D1 D1 ltac:(lra) SA) as (N11 & L11). destruct (dot_fin _ _ _ Dd D0 ltac:(lra) SA) as (Nb0 & Lb0). destruct (dot_fin _ _ _ Dd D1 ltac:(lra) SA) as (Nb1 & Lb1).
  assert (OP : forall x L, num x -> Rabs (FR x) <= L -> num (SFopp x) /\ Rabs (FR (SFopp x)) <= L). { intros x L (F & V) H. split; [split; [rewrite fin_opp; exact F|apply opp_valid, V]|rewrite FR_opp, Rabs_Ropp; exact H]. }
  destruct (OP _ _ Nb0 Lb0) as (Mb0 & Kb0). destruct (OP _ _ Nb1 Lb1) as (Mb1 & Kb1).
  assert (P : pair_ok 12 (ftri_param (fdot3 (fsub3 b a) (fsub3 b a)) (fdot3 (fsub3 b a) (fsub3 c a)) (fdot3 (fsub3 c a) (fsub3 c a)) (SFopp (fdot3 (fsub3 target a) (fsub3 b a))) (SFopp (fdot3 (fsub3 target a) (fsub3 c a))))).
  { pose proof (Rle_0_sqr (4 * S)) as SQ. unfold Rsqr in SQ. apply (ftri_param_ok _ _ _ _ _ (30 * (4 * S * (4 * S) + 1))); auto; [lra|exact (dot_pos _ _ D0 ltac:(lra) SA)|]. intros (Z0 & Z1). apply NP. rewrite FR_opp in Z0. split; apply eqb0; auto. lra. }
  match type of P with pair_ok _ ?x => set (pp := x) in * end. clearbody pp. destruct pp as [s r]. cbn [fst snd]. apply at3_num in Ht, Ha, Hb, Hc. destruct Ht as ((T1 & T2 & T3) & T4 & T5 & T6). destruct Ha as ((A1 & A2 & A3) & A4 & A5 & A6). destruct Hb as ((B1 & B2 & B3) & B4 & B5 & B6). destruct Hc as ((C1 & C2 & C3) & C4 & C5 & C6).
  pose proof u_small as (U0 & U1). assert (K : 0 < / (1 + 12 * u53)) by (apply Rinv_0_lt_compat; lra). assert (P' := P). destruct P' as (_ & _ & P1 & P2 & P3). cbn [fst snd] in *.
  exists (add3 (FR3 a) (add3 (scale3 (FR s / (1 + 12 * u53)) (sub3 (FR3 b) (FR3 a))) (scale3 (FR r / (1 + 12 * u53)) (sub3 (FR3 c) (FR3 a))))). split.
  - exists (FR s / (1 + 12 * u53)), (FR r / (1 + 12 * u53)). split; [apply Rmult_le_pos; lra|]. split; [apply Rmult_le_pos; lra|]. split; [|reflexivity].
    apply (Rmult_le_reg_r (1 + 12 * u53)); [lra|]. replace ((FR s / (1 + 12 * u53) + FR r / (1 + 12 * u53)) * (1 + 12 * u53)) with (FR s + FR r) by (field; lra). lra.
  - unfold fsub3, fadd3, fscale3, add3, scale3, sub3, FR3. cbn [f3x f3y f3z x3 y3 z3]. split; [|split]; apply coord_near; auto; apply HS.
Qed.
(** so the reported distance is at most the rounding below the true one *)
Theorem C112_distance : forall S target a b c, bpow (-1022) <= S <= bpow 400 -> at3 S target -> at3 S a -> at3 S b -> at3 S c -> ~ no_param target a b c ->
  exists w, in_tri (FR3 a) (FR3 b) (FR3 c) w /\ Rabs (norm3 (FR3 (fmin_dist_tri target a b c)) - dist3 (FR3 target) w) <= 100 * u53 * S.
Proof.
  intros S target a b c HS Ht Ha Hb Hc NP. destruct (C112_point S target a b c HS Ht Ha Hb Hc NP) as (w & W & (_ & _ & X) & (_ & _ & Y) & (_ & _ & Z')). exists w. split; [exact W|]. set (r := fmin_dist_tri target a b c) in *. clearbody r.
  set (d := sub3 (FR3 r) (sub3 (FR3 target) w)). assert (D : norm3 d <= 100 * u53 * S). { replace (100 * u53 * S) with (2 * (50 * u53 * S)) by ring. apply norm3_bound; assumption. }
  assert (E1 : FR3 r = add3 d (sub3 (FR3 target) w)) by (apply v3_ext; unfold d, add3, sub3; cbn [x3 y3 z3]; ring). assert (E2 : sub3 (FR3 target) w = add3 (scale3 (-1) d) (FR3 r)) by (apply v3_ext; unfold d, add3, sub3, scale3; cbn [x3 y3 z3]; ring).
  pose proof (norm3_triangle d (sub3 (FR3 target) w)) as T1. rewrite <- E1 in T1. pose proof (norm3_triangle (scale3 (-1) d) (FR3 r)) as T2. rewrite <- E2 in T2. rewrite norm3_scale, Rabs_left in T2 by lra. unfold dist3. apply Rabs_iff. lra.
Qed.
Lemma nan_sub x : fsub x S754_nan = S754_nan.
Proof. destruct x as [[]|[]| |]; reflexivity. Qed.
Lemma nan_add x : fadd x S754_nan = S754_nan.
Proof. destruct x as [[]|[]| |]; reflexivity. Qed.
Lemma nan_mul x : fmul x S754_nan = S754_nan.
Proof. destruct x as [[]|[]| |]; reflexivity. Qed.
Lemma nan_leb x : SFleb x S754_nan = false.
Proof. destruct x as [[]|[]| |[] ? ?]; reflexivity. Qed.
(** when both vanish nothing comes out but NaN *)
Theorem C112_nan : forall target a b c, no_param target a b c -> fmin_dist_tri target a b c = FV3 S754_nan S754_nan S754_nan.
Proof.
  intros target a b c (H0 & H1). unfold fmin_dist_tri. cbv zeta. apply eqb0_inv in H0, H1. destruct H0 as (s & ->). destruct H1 as (s' & ->).
  assert (P : forall x y z, ftri_param x (S754_zero s') y (SFopp (S754_zero s)) z = (S754_nan, S754_nan)).
  { intros x y z. unfold ftri_param. replace (SFleb f0 (SFopp (S754_zero s))) with true by (destruct s; reflexivity). unfold ftri_param_first.
    assert (Z01 : exists k, fadd (SFopp (S754_zero s)) (S754_zero s') = S754_zero k) by (destruct s, s'; eexists; reflexivity). destruct Z01 as (k & Z01). change McRealModel.fadd with fadd. change McRealModel.fdiv with fdiv. change McRealModel.fsub with fsub. change McRealModel.fmul with fmul. change BihModel.f0 with f0. change BihModel.f1 with f1. rewrite Z01.
    replace (SFltb f0 (S754_zero k)) with false by (destruct k; reflexivity). replace (fdiv (SFopp (S754_zero s)) (fsub (SFopp (S754_zero s)) (S754_zero k))) with S754_nan by (destruct s, k; reflexivity).
    cbn [fst snd]. rewrite nan_sub. change (fmul S754_nan) with (fun _ : spec_float => S754_nan). cbv beta. rewrite nan_leb. change (SFleb S754_nan f0) with false. cbv iota. reflexivity. }
  rewrite P. cbn [fst snd]. unfold fsub3, fadd3, fscale3. cbn [f3x f3y f3z]. change (fmul S754_nan) with (fun _ : spec_float => S754_nan). cbv beta. change (fadd S754_nan S754_nan) with S754_nan. rewrite !nan_add, !nan_sub. reflexivity.
Qed.
(** in particular a triangle whose first two corners coincide is ignored from everywhere *)
Theorem C112_collapsed : forall S target a c, bpow (-1022) <= S <= bpow 400 -> at3 S target -> at3 S a -> at3 S c -> fmin_dist_tri target a a c = FV3 S754_nan S754_nan S754_nan.
Proof.
  intros S target a c HS Ht Ha Hc. destruct (range_ok S HS) as (SP & SM & S2 & SA & SB). apply C112_nan.
  pose proof (sub3_at _ _ S Ht Ha S2) as Dd. pose proof (sub3_at _ _ S Ha Ha S2) as D0. pose proof (sub3_at _ _ S Hc Ha S2) as D1.
  assert (Z0 : FR (f3x (fsub3 a a)) = 0 /\ FR (f3y (fsub3 a a)) = 0 /\ FR (f3z (fsub3 a a)) = 0).
  { apply at3_num in Ha, D0. destruct Ha as (((F1 & V1) & (F2 & V2) & (F3 & V3')) & _). destruct D0 as (((G1 & _) & (G2 & _) & (G3 & _)) & _). unfold fsub3 in *. cbn [f3x f3y f3z] in *.
    assert (Q : forall x, fin x = true -> valid x -> fin (fsub x x) = true -> FR (fsub x x) = 0). { intros x F V G. destruct (fsub_spec x x F F V V) as (_ & Rl & _). specialize (Rl G). replace (FR x - FR x) with 0 in Rl by ring. rewrite Rabs_R0, Rmult_0_r, Rminus_0_r in Rl. pose proof (Rabs_pos (FR (fsub x x))). destruct (Req_dec (FR (fsub x x)) 0) as [E|E]; [exact E|apply Rabs_pos_lt in E; lra]. }
    auto. }
  apply at3_num in Dd, D0, D1. destruct Dd as ((X1 & X2 & X3) & _). destruct D0 as ((Y1 & Y2 & Y3) & _). destruct D1 as ((W1 & W2 & W3) & _). destruct Z0 as (E1 & E2 & E3).
  apply zero_of in E1, E2, E3; auto. destruct E1 as (s1 & E1). destruct E2 as (s2 & E2). destruct E3 as (s3 & E3).
  assert (M0 : forall x s, num x -> exists k, fmul x (S754_zero s) = S754_zero k) by (intros x s (F & _); destruct x; try discriminate; eexists; reflexivity).
  assert (M1 : forall x s, num x -> exists k, fmul (S754_zero s) x = S754_zero k) by (intros x s (F & _); destruct x; try discriminate; eexists; reflexivity).
  assert (AD : forall s t u, SFeqb (fadd (fadd (S754_zero s) (S754_zero t)) (S754_zero u)) f0 = true) by (intros [] [] []; reflexivity).
  unfold no_param, fdot3. rewrite E1, E2, E3. split.
  - destruct (M0 _ s1 X1) as (k1 & ->). destruct (M0 _ s2 X2) as (k2 & ->). destruct (M0 _ s3 X3) as (k3 & ->). apply AD.
  - destruct (M1 _ s1 W1) as (k1 & ->). destruct (M1 _ s2 W2) as (k2 & ->). destruct (M1 _ s3 W3) as (k3 & ->). apply AD.
Qed.
(** A point 3 above the inside of a right triangle with legs of 4, and the same for the numbers the code fails on. *)
Example C112_example :
  let z k := (if (k =? 0)%Z then S754_zero false else S754_finite false (Z.to_pos (k * 2 ^ (52 - Z.log2 k))) (Z.log2 k - 52)) in
  let p x y w := FV3 (z x) (z y) (z w) in
  at3 4 (p 1 1 3)%Z /\ at3 4 (p 0 0 0)%Z /\ at3 4 (p 4 0 0)%Z /\ at3 4 (p 0 4 0)%Z /\ ~ no_param (p 1 1 3)%Z (p 0 0 0)%Z (p 4 0 0)%Z (p 0 4 0)%Z /\
  fmin_dist_tri (p 1 1 3)%Z (p 0 0 0)%Z (p 4 0 0)%Z (p 0 4 0)%Z = p 0%Z 0%Z 3%Z /\
  no_param (p 0 1 3)%Z (p 0 0 0)%Z (p 4 0 0)%Z (p 0 4 0)%Z.
Proof.
  cbv zeta.
  assert (AT : forall x y w, fin x = true -> fin y = true -> fin w = true -> valid x -> valid y -> valid w -> SFleb x (S754_finite false 4503599627370496 (-50)) = true -> SFleb y (S754_finite false 4503599627370496 (-50)) = true -> SFleb w (S754_finite false 4503599627370496 (-50)) = true -> 0 <= FR x -> 0 <= FR y -> 0 <= FR w -> at3 4 (FV3 x y w)).
  { assert (E4 : FR (S754_finite false 4503599627370496 (-50)) = 4) by (unfold FR; replace (bpow (-50)) with (/ bpow 50) by (symmetry; apply (bpow_opp 50)); rewrite bpow_Z by lia; change (2 ^ 50)%Z with 1125899906842624%Z; lra).
    intros x y w F1 F2 F3 V1 V2 V3' L1 L2 L3 P1 P2 P3. apply leb_FR in L1; [|assumption|reflexivity|assumption|reflexivity]. apply leb_FR in L2; [|assumption|reflexivity|assumption|reflexivity]. apply leb_FR in L3; [|assumption|reflexivity|assumption|reflexivity]. rewrite E4 in *.
    unfold at3, valid3, fin3. cbn [f3x f3y f3z]. repeat split; try assumption; rewrite Rabs_right; lra. }
  assert (PZ : forall m e, 0 <= FR (S754_finite false m e)) by (intros m e; unfold FR; pose proof (bpow_pos e); assert (0 < IZR (Zpos m)) by (apply (IZR_lt 0); lia); rewrite Rmult_1_l; apply Rmult_le_pos; lra).
  split; [apply AT; try reflexivity; apply PZ|]. split; [apply AT; try reflexivity; cbn; lra|]. split; [apply AT; try reflexivity; try apply PZ; cbn; lra|]. split; [apply AT; try reflexivity; try apply PZ; cbn; lra|].
  split; [intros (H & _); vm_compute in H; discriminate|]. split; [vm_compute; reflexivity|split; vm_compute; reflexivity].
Qed.

(** ** The edges *)
(** the squared distance from the target to the point with the given parameters *)
Definition sq_at (target a b c : v3) (s t : R) : R := norm3sq (sub3 target (add3 a (add3 (scale3 s (sub3 b a)) (scale3 t (sub3 c a))))).
Lemma sub_near_at t a S : num t -> num a -> Rabs (FR t) <= S -> Rabs (FR a) <= S -> 2 * S <= fmaxR -> fnear (fsub t a) (FR t - FR a) (2 * (u53 * S)) /\ Rabs (FR t - FR a) <= 2 * S.
Proof.
  intros (F1 & V1) (F2 & V2) L1 L2 M. apply Rabs_iff in L1, L2. assert (B : Rabs (FR t - FR a) <= 2 * S) by (apply Rabs_iff; lra). split; [|exact B].
  eapply near_weak; [apply (near_sub _ _ _ _ 0 0 (2 * S) (near_exact t F1 V1) (near_exact a F2 V2)); lra|lra].
Qed.
Definition near3 (p : fv3) (z : v3) (E : R) : Prop := fnear (f3x p) (x3 z) E /\ fnear (f3y p) (y3 z) E /\ fnear (f3z p) (z3 z) E.
Definition le3 (z : v3) (B : R) : Prop := Rabs (x3 z) <= B /\ Rabs (y3 z) <= B /\ Rabs (z3 z) <= B.
Lemma sub3_near p q S : at3 S p -> at3 S q -> 2 * S <= fmaxR -> near3 (fsub3 p q) (sub3 (FR3 p) (FR3 q)) (2 * (u53 * S)) /\ le3 (sub3 (FR3 p) (FR3 q)) (2 * S).
Proof.
  intros Hp Hq M. apply at3_num in Hp, Hq. destruct Hp as ((A1 & A2 & A3) & A4 & A5 & A6). destruct Hq as ((C1 & C2 & C3) & C4 & C5 & C6).
  destruct (sub_near_at _ _ S A1 C1 A4 C4 M). destruct (sub_near_at _ _ S A2 C2 A5 C5 M). destruct (sub_near_at _ _ S A3 C3 A6 C6 M). unfold near3, le3, fsub3, sub3, FR3. cbn [f3x f3y f3z x3 y3 z3]. tauto.
Qed.
Lemma dot_near p q z w S : near3 p z (2 * (u53 * S)) -> near3 q w (2 * (u53 * S)) -> le3 z (2 * S) -> le3 w (2 * S) -> bpow (-511) <= S <= bpow 400 ->
  fnear (fdot3 p q) (dot3 z w) (70 * (u53 * (S * S))) /\ Rabs (dot3 z w) <= 12 * (S * S).
Proof.
  intros (P1 & P2 & P3) (Q1 & Q2 & Q3) (Z1 & Z2 & Z3) (W1 & W2 & W3) HS. destruct (range_ok S) as (SP & _ & _ & SA & _); [split; [|lra]; eapply Rle_trans; [apply (bpow_le (-1022) (-511)); lia|lra]|]. pose proof u_small as (U0 & U1). pose proof huge as HG.
  assert (SS : 0 < S * S) by (apply Rmult_lt_0_compat; lra). assert (MX : 20 * (S * S) <= fmaxR) by lra.
  assert (ET : eta <= u53 * (S * S)). { unfold eta, u53. change (-1075)%Z with (-53 + (-511 + -511))%Z. rewrite !bpow_add. apply Rmult_le_compat_l; [left; apply bpow_pos|]. pose proof (bpow_pos (-511)). apply Rmult_le_compat; lra. }
  assert (US : 0 < u53 * (S * S) <= / 1000000000000000 * (S * S)) by (split; [apply Rmult_lt_0_compat; lra|apply Rmult_le_compat_r; lra]).
  assert (UU : u53 * (u53 * (S * S)) <= / 1000 * (u53 * (S * S))) by (apply Rmult_le_compat_r; lra).
  assert (M : forall x y a b, fnear x a (2 * (u53 * S)) -> fnear y b (2 * (u53 * S)) -> Rabs a <= 2 * S -> Rabs b <= 2 * S -> fnear (fmul x y) (a * b) (15 * (u53 * (S * S))) /\ Rabs (a * b) <= 4 * (S * S)).
  { intros x y a b Xx Xy La Lb. pose proof (Rabs_pos a). pose proof (Rabs_pos b). assert (AB : Rabs (a * b) <= 4 * (S * S)) by (rewrite Rabs_mult; replace (4 * (S * S)) with ((2 * S) * (2 * S)) by ring; apply Rmult_le_compat; lra). split; [|exact AB].
    assert (US1 : 0 < u53 * S) by (apply Rmult_lt_0_compat; lra).
    assert (K1 : 2 * (u53 * S) * Rabs b <= 2 * (u53 * S) * (2 * S)) by (apply Rmult_le_compat_l; lra). assert (K2 : Rabs a * (2 * (u53 * S)) <= 2 * S * (2 * (u53 * S))) by (apply Rmult_le_compat_r; lra).
    assert (K : 2 * (u53 * S) * Rabs b + Rabs a * (2 * (u53 * S)) + 2 * (u53 * S) * (2 * (u53 * S)) <= 9 * (u53 * (S * S))).
    { replace (2 * (u53 * S) * (2 * (u53 * S))) with (4 * (u53 * (u53 * (S * S)))) by ring. replace (2 * (u53 * S) * (2 * S)) with (4 * (u53 * (S * S))) in K1 by ring. replace (2 * S * (2 * (u53 * S))) with (4 * (u53 * (S * S))) in K2 by ring. lra. }
    eapply near_weak; [apply (near_mul x y a b _ _ (5 * (S * S)) Xx Xy); lra|]. lra. }
  destruct (M _ _ _ _ P1 Q1 Z1 W1) as (M1 & B1). destruct (M _ _ _ _ P2 Q2 Z2 W2) as (M2 & B2). destruct (M _ _ _ _ P3 Q3 Z3 W3) as (M3 & B3). clear M.
  assert (B1' := B1). assert (B2' := B2). assert (B3' := B3). apply Rabs_iff in B1', B2', B3'.
  pose proof (near_add _ _ _ _ _ _ (9 * (S * S)) M1 M2 ltac:(assert (Rabs (x3 z * x3 w + y3 z * y3 w) <= 8 * (S * S)) by (apply Rabs_iff; lra); lra) ltac:(lra)) as A1.
  pose proof (near_add _ _ _ _ _ _ (13 * (S * S)) A1 M3 ltac:(assert (Rabs (x3 z * x3 w + y3 z * y3 w + z3 z * z3 w) <= 12 * (S * S)) by (apply Rabs_iff; lra); lra) ltac:(lra)) as A2.
  unfold fdot3, dot3. split; [eapply near_weak; [exact A2|lra]|apply Rabs_iff; lra].
Qed.
(** along an edge the squared distance is a convex quadratic *)
Lemma quad_min g A t e : 0 <= A -> 0 <= t <= 1 -> 0 <= e -> (t = 0 /\ - e <= g \/ t = 1 /\ g + A <= e \/ - e <= g + A * t <= e) -> forall r, 0 <= r <= 1 -> 2 * g * t + A * (t * t) <= 2 * g * r + A * (r * r) + 2 * e.
Proof.
  intros HA Ht He H r Hr. assert (SQ : 0 <= A * ((t - r) * (t - r))) by (apply Rmult_le_pos; [exact HA|apply Rle_0_sqr]).
  assert (K : (t - r) * (g + A * t) <= e).
  { destruct H as [(-> & G)|[(-> & G)|G]]; [nra|nra|]. destruct (Rle_dec 0 (t - r)).
    - apply Rle_trans with ((t - r) * e); [apply Rmult_le_compat_l; lra|]. assert ((t - r) * e <= 1 * e) by (apply Rmult_le_compat_r; lra). lra.
    - replace ((t - r) * (g + A * t)) with ((r - t) * (- (g + A * t))) by ring. apply Rle_trans with ((r - t) * e); [apply Rmult_le_compat_l; lra|]. assert ((r - t) * e <= 1 * e) by (apply Rmult_le_compat_r; lra). lra. }
  replace (2 * g * t + A * (t * t)) with (2 * g * r + A * (r * r) + (2 * ((t - r) * (g + A * t)) - A * ((t - r) * (t - r)))) by ring. lra.
Qed.
Lemma near_val x z E : fnear x z E -> z - E <= FR x <= z + E.
Proof. intros (_ & _ & H). apply Rabs_iff in H. lra. Qed.
Lemma near_num x z E : fnear x z E -> num x.
Proof. intros (A & B & _). split; assumption. Qed.
(** C112: on the edge from a to c the parameter found is that of the nearest point, up to rounding. *)
Theorem C112_edge_ac : forall S target a c, bpow (-511) <= S <= bpow 400 -> at3 S target -> at3 S a -> at3 S c ->
  let e1 := fsub3 c a in let p := fmin_edge02 (fdot3 e1 e1) (SFopp (fdot3 (fsub3 target a) e1)) in
  fst p = f0 /\ 0 <= FR (snd p) <= 1 /\
  forall b r, 0 <= r <= 1 -> sq_at (FR3 target) (FR3 a) b (FR3 c) 0 (FR (snd p)) <= sq_at (FR3 target) (FR3 a) b (FR3 c) 0 r + 400 * (u53 * (S * S)).
Proof.
  intros S target a c HS Ht Ha Hc. cbv zeta. assert (HS' : bpow (-1022) <= S <= bpow 400) by (split; [eapply Rle_trans; [apply (bpow_le (-1022) (-511)); lia|lra]|lra]). destruct (range_ok S HS') as (SP & SM & S2 & SA & SB). pose proof u_small as (U0 & U1). pose proof huge as HG.
  assert (SS : 0 < S * S) by (apply Rmult_lt_0_compat; lra). assert (US : 0 < u53 * (S * S) <= / 1000000000000000 * (S * S)) by (split; [apply Rmult_lt_0_compat; lra|apply Rmult_le_compat_r; lra]).
  destruct (sub3_near target a S Ht Ha ltac:(lra)) as (Nd & Ld). destruct (sub3_near c a S Hc Ha ltac:(lra)) as (N1 & L1).
  destruct (dot_near _ _ _ _ S N1 N1 L1 L1 HS) as (D11 & B11). destruct (dot_near _ _ _ _ S Nd N1 Ld L1 HS) as (Db & Bb). apply near_opp in Db.
  set (A := dot3 (sub3 (FR3 c) (FR3 a)) (sub3 (FR3 c) (FR3 a))) in *. set (g := - dot3 (sub3 (FR3 target) (FR3 a)) (sub3 (FR3 c) (FR3 a))) in *.
  assert (PA : 0 <= A) by (apply norm3sq_nonneg). set (a11 := fdot3 (fsub3 c a) (fsub3 c a)) in *. set (b1 := SFopp (fdot3 (fsub3 target a) (fsub3 c a))) in *.
  pose proof (near_num _ _ _ D11) as Na. pose proof (near_num _ _ _ Db) as Nb. pose proof (near_val _ _ _ D11) as Va. pose proof (near_val _ _ _ Db) as Vb. apply Rabs_iff in B11, Bb.
  assert (La : Rabs (FR a11) <= 20 * (S * S)) by (apply Rabs_iff; lra). assert (Lb : Rabs (FR b1) <= 20 * (S * S)) by (apply Rabs_iff; unfold g in *; lra).
  destruct (edge02_ok a11 b1 (20 * (S * S)) Na Nb La Lb ltac:(lra)) as ((_ & _ & _ & T0 & _) & _ & T1). split; [reflexivity|]. split; [lra|].
  assert (C : let t := FR (snd (fmin_edge02 a11 b1)) in t = 0 /\ - (160 * (u53 * (S * S))) <= g \/ t = 1 /\ g + A <= 160 * (u53 * (S * S)) \/ - (160 * (u53 * (S * S))) <= g + A * t <= 160 * (u53 * (S * S))).
  { revert T0 T1. unfold fmin_edge02. cbn [snd]. change BihModel.f0 with f0. change BihModel.f1 with f1. change McRealModel.fadd with fadd. change McRealModel.fdiv with fdiv. intros T0 T1. cbv zeta in *.
    destruct (le0_cases b1 Nb) as [(R1 & B)|(R1 & B)]; rewrite R1 in *; [left; split; [reflexivity|lra]|]. destruct (add_fin a11 b1 _ _ Na Nb La Lb ltac:(lra)) as (Ns & _).
    pose proof Na as (F1 & V1). pose proof Nb as (F2 & V2). destruct (fadd_spec a11 b1 F1 F2 V1 V2) as (C & _ & CP & _).
    destruct (ge0_cases _ Ns) as [(R2 & B')|(R2 & B')]; rewrite R2 in *.
    - right; left. split; [apply f1_num|]. assert (FR a11 + FR b1 <= 0). { apply Rnot_lt_le. intros P. specialize (CP P). apply (signed_lt (fadd a11 b1)) in CP. apply (ltb_FR (S754_zero false) (fadd a11 b1)) in CP; [cbn in CP; lra|reflexivity|apply Ns|reflexivity|apply Ns]. } lra.
    - right; right. assert (P : 0 < FR a11 + FR b1). { apply Rnot_le_lt. intros L. destruct (correct_le _ _ f0 C eq_refl eq_refl) as (G & _); [change (FR f0) with 0; exact L|]. specialize (G (proj1 Ns)). change (FR f0) with 0 in G. lra. }
      assert (No : num (SFopp b1)) by (split; [rewrite fin_opp; exact F2|apply opp_valid, V2]). assert (NZ : FR a11 <> 0) by lra. pose proof (fdiv_spec (SFopp b1) a11 (proj1 No) F1 (proj2 No) V1 NZ) as CD. rewrite FR_opp in CD.
      assert (Q : 0 <= - FR b1 / FR a11 <= 1). { split; [apply Rmult_le_pos; [lra|left; apply Rinv_0_lt_compat; lra]|]. apply (Rmult_le_reg_r (FR a11)); [lra|]. unfold Rdiv. rewrite Rmult_assoc, Rinv_l by lra. lra. }
      pose proof big_max. destruct (correct_err _ _ 1 CD) as (_ & _ & Er); [rewrite Rabs_right; lra|lra|lra|]. apply Rabs_iff in Er. set (t := FR (fdiv (SFopp b1) a11)) in *. clearbody t.
      assert (E1 : FR a11 * (- FR b1 / FR a11) = - FR b1) by (field; lra). set (z := - FR b1 / FR a11) in *. clearbody z.
      assert (E2 : - (u53 * FR a11) <= FR a11 * (t - z) <= u53 * FR a11). { split; [replace (- (u53 * FR a11)) with (FR a11 * (- u53)) by ring|rewrite (Rmult_comm u53)]; apply Rmult_le_compat_l; lra. }
      assert (E3 : u53 * FR a11 <= u53 * (13 * (S * S))) by (apply Rmult_le_compat_l; lra).
      assert (E4 : - (70 * (u53 * (S * S))) <= (A - FR a11) * t <= 70 * (u53 * (S * S))). { assert (- (70 * (u53 * (S * S))) * t <= (A - FR a11) * t <= 70 * (u53 * (S * S)) * t) by (split; apply Rmult_le_compat_r; lra). assert (70 * (u53 * (S * S)) * t <= 70 * (u53 * (S * S)) * 1) by (apply Rmult_le_compat_l; lra). lra. }
      replace (g + A * t) with ((g - FR b1) + (A - FR a11) * t + (FR b1 + FR a11 * z) + FR a11 * (t - z)) by ring. lra. }
  cbv zeta in C. intros b r Hr. set (t := FR (snd (fmin_edge02 a11 b1))) in *. clearbody t. pose proof (quad_min g A t (160 * (u53 * (S * S))) PA (conj T0 T1) ltac:(lra) C r Hr) as QM.
  assert (QE : forall k, sq_at (FR3 target) (FR3 a) b (FR3 c) 0 k = norm3sq (sub3 (FR3 target) (FR3 a)) + (2 * g * k + A * (k * k))) by (intros k; unfold sq_at, g, A, norm3sq, dot3, sub3, add3, scale3; cbn [x3 y3 z3]; ring). rewrite !QE. lra.
Qed.
(** and on the edge from b to c *)
Theorem C112_edge_bc : forall S target a b c, bpow (-511) <= S <= bpow 400 -> at3 S target -> at3 S a -> at3 S b -> at3 S c ->
  let e0 := fsub3 b a in let e1 := fsub3 c a in let diff := fsub3 target a in let b0 := SFopp (fdot3 diff e0) in
  let p := fmin_edge12 (fdot3 e0 e1) (fdot3 e1 e1) (SFopp (fdot3 diff e1)) (fadd b0 (fdot3 e0 e0)) (fadd b0 (fdot3 e0 e1)) in
  0 <= FR (snd p) <= 1 /\ Rabs (FR (fst p) - (1 - FR (snd p))) <= u53 /\
  forall r, 0 <= r <= 1 -> sq_at (FR3 target) (FR3 a) (FR3 b) (FR3 c) (1 - FR (snd p)) (FR (snd p)) <= sq_at (FR3 target) (FR3 a) (FR3 b) (FR3 c) (1 - r) r + 3000 * (u53 * (S * S)).
Proof.
  intros S target a b c HS Ht Ha Hb Hc. cbv zeta. assert (HS' : bpow (-1022) <= S <= bpow 400) by (split; [eapply Rle_trans; [apply (bpow_le (-1022) (-511)); lia|lra]|lra]). destruct (range_ok S HS') as (SP & SM & S2 & SA & SB). pose proof u_small as (U0 & U1). pose proof huge as HG.
  assert (SS : 0 < S * S) by (apply Rmult_lt_0_compat; lra). assert (US : 0 < u53 * (S * S) <= / 1000000000000000 * (S * S)) by (split; [apply Rmult_lt_0_compat; lra|apply Rmult_le_compat_r; lra]).
  destruct (sub3_near target a S Ht Ha ltac:(lra)) as (Nd & Ld). destruct (sub3_near b a S Hb Ha ltac:(lra)) as (N0 & L0). destruct (sub3_near c a S Hc Ha ltac:(lra)) as (N1 & L1).
  destruct (dot_near _ _ _ _ S N0 N0 L0 L0 HS) as (D00 & B00). destruct (dot_near _ _ _ _ S N0 N1 L0 L1 HS) as (D01 & B01). destruct (dot_near _ _ _ _ S N1 N1 L1 L1 HS) as (D11 & B11). destruct (dot_near _ _ _ _ S Nd N0 Ld L0 HS) as (Db0 & Bb0). destruct (dot_near _ _ _ _ S Nd N1 Ld L1 HS) as (Db1 & Bb1). apply near_opp in Db0, Db1.
  clear Nd N0 N1 Ld L0 L1.
  set (A00 := dot3 (sub3 (FR3 b) (FR3 a)) (sub3 (FR3 b) (FR3 a))) in *. set (A01 := dot3 (sub3 (FR3 b) (FR3 a)) (sub3 (FR3 c) (FR3 a))) in *. set (A11 := dot3 (sub3 (FR3 c) (FR3 a)) (sub3 (FR3 c) (FR3 a))) in *.
  set (G0 := dot3 (sub3 (FR3 target) (FR3 a)) (sub3 (FR3 b) (FR3 a))) in *. set (G1 := dot3 (sub3 (FR3 target) (FR3 a)) (sub3 (FR3 c) (FR3 a))) in *.
  assert (QE : forall k, sq_at (FR3 target) (FR3 a) (FR3 b) (FR3 c) (1 - k) k = norm3sq (sub3 (FR3 target) (FR3 b)) + (2 * (A01 - G1 + G0 - A00) * k + (A11 - 2 * A01 + A00) * (k * k))) by (intros k; unfold sq_at, A00, A01, A11, G0, G1, norm3sq, dot3, sub3, add3, scale3; cbn [x3 y3 z3]; ring).
  assert (PA : 0 <= A11 - 2 * A01 + A00). { replace (A11 - 2 * A01 + A00) with (norm3sq (sub3 (FR3 c) (FR3 b))) by (unfold A00, A01, A11, norm3sq, dot3, sub3; cbn [x3 y3 z3]; ring). apply norm3sq_nonneg. }
  set (a00 := fdot3 (fsub3 b a) (fsub3 b a)) in *. set (a01 := fdot3 (fsub3 b a) (fsub3 c a)) in *. set (a11 := fdot3 (fsub3 c a) (fsub3 c a)) in *. set (b0 := SFopp (fdot3 (fsub3 target a) (fsub3 b a))) in *. set (b1 := SFopp (fdot3 (fsub3 target a) (fsub3 c a))) in *.
  clearbody a00 a01 a11 b0 b1 A00 A01 A11 G0 G1. apply Rabs_iff in B00, B01, B11, Bb0, Bb1. assert (MX : 100 * (S * S) <= fmaxR) by lra.
  pose proof (near_add _ _ _ _ _ _ (25 * (S * S)) Db0 D00 ltac:(assert (Rabs (- G0 + A00) <= 24 * (S * S)) by (apply Rabs_iff; lra); lra) ltac:(lra)) as F10.
  pose proof (near_add _ _ _ _ _ _ (25 * (S * S)) Db0 D01 ltac:(assert (Rabs (- G0 + A01) <= 24 * (S * S)) by (apply Rabs_iff; lra); lra) ltac:(lra)) as F01.
  pose proof (near_add _ _ _ _ _ _ (25 * (S * S)) D01 Db1 ltac:(assert (Rabs (A01 + - G1) <= 24 * (S * S)) by (apply Rabs_iff; lra); lra) ltac:(lra)) as K0.
  pose proof (near_add _ _ _ _ _ _ (25 * (S * S)) D11 Db1 ltac:(assert (Rabs (A11 + - G1) <= 24 * (S * S)) by (apply Rabs_iff; lra); lra) ltac:(lra)) as K1.
  pose proof (near_sub _ _ _ _ _ _ (49 * (S * S)) K0 F10 ltac:(assert (Rabs (A01 + - G1 - (- G0 + A00)) <= 48 * (S * S)) by (apply Rabs_iff; lra); lra) ltac:(lra)) as H0.
  pose proof (near_sub _ _ _ _ _ _ (49 * (S * S)) K1 F01 ltac:(assert (Rabs (A11 + - G1 - (- G0 + A01)) <= 48 * (S * S)) by (apply Rabs_iff; lra); lra) ltac:(lra)) as H1.
  eapply near_weak with (E' := 380 * (u53 * (S * S))) in H0; [|lra]. eapply near_weak with (E' := 380 * (u53 * (S * S))) in H1; [|lra].
  unfold fmin_edge12. cbn [fst snd]. change BihModel.f0 with f0. change BihModel.f1 with f1. change McRealModel.fadd with fadd. change McRealModel.fdiv with fdiv. change McRealModel.fsub with fsub. cbv zeta. cbn [fst snd].
  set (h0 := fsub (fadd a01 b1) (fadd b0 a00)) in *. set (h1 := fsub (fadd a11 b1) (fadd b0 a01)) in *. clearbody h0 h1. pose proof (near_num _ _ _ H0) as Nh0. pose proof (near_num _ _ _ H1) as Nh1. apply near_val in H0, H1.
  set (g := A01 - G1 + G0 - A00) in *. set (A := A11 - 2 * A01 + A00) in *. assert (V0 : g - 380 * (u53 * (S * S)) <= FR h0 <= g + 380 * (u53 * (S * S))) by (unfold g; lra). assert (V1 : g + A - 380 * (u53 * (S * S)) <= FR h1 <= g + A + 380 * (u53 * (S * S))) by (unfold g, A; lra).
  assert (R0 : Rabs (FR h0) <= 49 * (S * S)) by (apply Rabs_iff; unfold g in *; lra). assert (R1 : Rabs (FR h1) <= 49 * (S * S)) by (apply Rabs_iff; unfold g, A in *; lra). clearbody g A. clear H0 H1.
  set (t := if SFleb f0 h0 then f0 else if SFleb h1 f0 then f1 else fdiv h0 (fsub h0 h1)).
  assert (T : num t /\ 0 <= FR t <= 1 /\ (FR t = 0 /\ - (1400 * (u53 * (S * S))) <= g \/ FR t = 1 /\ g + A <= 1400 * (u53 * (S * S)) \/ - (1400 * (u53 * (S * S))) <= g + A * FR t <= 1400 * (u53 * (S * S)))).
  { unfold t. destruct f0_num as (M0 & E0). destruct f1_num as (M1 & E1). destruct (le0_cases h0 Nh0) as [(-> & B)|(-> & B)]; [rewrite E0; split; [exact M0|split; [lra|left; lra]]|]. destruct (ge0_cases h1 Nh1) as [(-> & B')|(-> & B')]; [rewrite E1; split; [exact M1|split; [lra|right; left; lra]]|].
    destruct (share h0 h1 (49 * (S * S)) Nh0 Nh1 R0 R1 ltac:(lra)) as (Nq & Q); [lra|lra|]. split; [exact Nq|]. split; [exact Q|]. right; right.
    pose proof Nh0 as (F1 & W1). pose proof Nh1 as (F2 & W2). destruct (sub_fin h0 h1 _ _ Nh0 Nh1 R0 R1 ltac:(lra)) as ((Fd & Wd) & _). destruct (fsub_spec h0 h1 F1 F2 W1 W2) as (Cs & Rl & _). specialize (Rl Fd). destruct (correct_le _ _ h0 Cs W1 F1) as (Gd & _); [lra|]. specialize (Gd Fd).
    set (d := fsub h0 h1) in *. pose proof (fdiv_spec h0 d F1 Fd W1 Wd ltac:(lra)) as CD.
    assert (Z : 0 <= FR h0 / FR d <= 1). { replace (FR h0 / FR d) with (- FR h0 / - FR d) by (field; lra). split; [apply Rmult_le_pos; [lra|left; apply Rinv_0_lt_compat; lra]|]. apply (Rmult_le_reg_r (- FR d)); [lra|]. unfold Rdiv. rewrite Rmult_assoc, Rinv_l by lra. lra. }
    pose proof big_max. destruct (correct_err _ _ 1 CD) as (_ & _ & Er); [rewrite Rabs_right; lra|lra|lra|]. apply Rabs_iff in Er. set (q := FR (fdiv h0 d)) in *. clearbody q.
    assert (EZ : FR d * (FR h0 / FR d) = FR h0) by (field; lra). set (z := FR h0 / FR d) in *. clearbody z. rewrite (Rabs_left (FR h0 - FR h1)) in Rl by lra. apply Rabs_iff in Rl. apply Rabs_iff in R0, R1.
    set (x := FR h0) in *. set (y := FR h1) in *. set (e := FR d) in *. clearbody x y e.
    assert (DE : - (98 * (u53 * (S * S))) <= e - (x - y) <= 98 * (u53 * (S * S))). { assert (u53 * - (x - y) <= u53 * (98 * (S * S))) by (apply Rmult_le_compat_l; lra). lra. }
    assert (E2 : - (100 * (u53 * (S * S))) <= e * (q - z) <= 100 * (u53 * (S * S))). { assert (- (- e * u53) <= e * (q - z) <= - e * u53) by (split; [replace (- (- e * u53)) with (- e * - u53) by ring; replace (e * (q - z)) with (- e * - (q - z)) by ring|replace (e * (q - z)) with (- e * - (q - z)) by ring]; apply Rmult_le_compat_l; lra). assert (- e * u53 <= 99 * (S * S) * u53) by (apply Rmult_le_compat_r; lra). lra. }
    assert (E3 : - (900 * (u53 * (S * S))) <= (A + e) * q <= 900 * (u53 * (S * S))). { assert (- (900 * (u53 * (S * S))) * q <= (A + e) * q <= 900 * (u53 * (S * S)) * q) by (split; apply Rmult_le_compat_r; lra). assert (900 * (u53 * (S * S)) * q <= 900 * (u53 * (S * S)) * 1) by (apply Rmult_le_compat_l; lra). lra. }
    replace (g + A * q) with ((g - x) + (A + e) * q + (x - e * z) - e * (q - z)) by ring. lra. }
  clearbody t. destruct T as (Nt & T01 & C). destruct (one_minus t Nt T01) as (_ & _ & OE). split; [exact T01|]. split; [exact OE|]. intros r Hr.
  pose proof (quad_min g A (FR t) (1400 * (u53 * (S * S))) PA T01 ltac:(lra) C r Hr) as QM. rewrite !QE. lra.
Qed.
