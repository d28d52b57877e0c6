(** Error calculus for binary64: a float near a real number, through the operations. *)
From Coq Require Import List Bool ZArith Lia Reals Lra Psatz Floats.SpecFloat.
From Verif Require Import Prelude Vec SdfModel FloatBoolModel FloatRound FloatShapeModel.
Import ListNotations.
Local Open Scope R_scope.

(** [fnear x z E]: the float [x] is a finite number and differs from the real [z] by at most [E]. *)
Definition fnear (x : spec_float) (z E : R) : Prop := fin x = true /\ valid x /\ Rabs (FR x - z) <= E.
Lemma Rabs_iff a b : Rabs a <= b <-> - b <= a <= b.
Proof. unfold Rabs. destruct (Rcase_abs a); lra. Qed.
Lemma near_exact x : fin x = true -> valid x -> fnear x (FR x) 0.
Proof. intros A B. split; [auto|split; [auto|]]. rewrite Rminus_diag_eq, Rabs_R0 by reflexivity. lra. Qed.
Lemma near_weak x z E E' : fnear x z E -> E <= E' -> fnear x z E'.
Proof. intros (A & B & C) L. split; [auto|split; [auto|lra]]. Qed.
Lemma near_shift x z z' E E' : fnear x z E -> Rabs (z - z') <= E' -> fnear x z' (E + E').
Proof. intros (A & B & C) L. split; [auto|split; [auto|]]. apply Rabs_iff in C, L. apply Rabs_iff. lra. Qed.
Lemma near_pos x z E : fnear x z E -> 0 <= E.
Proof. intros (_ & _ & H). pose proof (Rabs_pos (FR x - z)). lra. Qed.
Lemma near_mag x z E : fnear x z E -> Rabs (FR x) <= Rabs z + E.
Proof. intros (_ & _ & H). pose proof (Rabs_triang (FR x - z) z). replace (FR x - z + z) with (FR x) in * by ring. lra. Qed.
Lemma u53_small : u53 <= / 1000000000000000.
Proof.
  unfold u53. change (-53)%Z with (- (53))%Z. rewrite bpow_opp. apply Rinv_le_contravar; [lra|]. rewrite bpow_Z by lia. apply IZR_le. cbn. lia.
Qed.
Lemma sum_near y z a E V : sum_spec y z -> Rabs (z - a) <= E -> Rabs a + E <= V -> V <= fmaxR -> fnear y a (E + u53 * V).
Proof.
  intros (C & Rl & _) D B M. pose proof u53_pos as U. assert (Z : Rabs z <= V). { pose proof (Rabs_triang (z - a) a). replace (z - a + a) with z in * by ring. lra. }
  destruct C as (Va & N & Fi & _). specialize (Fi ltac:(lra)). split; [exact Fi|]. split; [exact Va|]. specialize (Rl Fi).
  pose proof (Rabs_triang (FR y - z) (z - a)) as T. replace (FR y - z + (z - a)) with (FR y - a) in T by ring.
  assert (u53 * Rabs z <= u53 * V) by (apply Rmult_le_compat_l; lra). lra.
Qed.
Lemma near_sub x y a b Ea Eb V : fnear x a Ea -> fnear y b Eb -> Rabs (a - b) + (Ea + Eb) <= V -> V <= fmaxR -> fnear (fsub x y) (a - b) (Ea + Eb + u53 * V).
Proof.
  intros (F1 & V1 & H1) (F2 & V2 & H2) B M. apply (sum_near _ (FR x - FR y)); auto; [now apply fsub_spec|].
  apply Rabs_iff in H1, H2. apply Rabs_iff. lra.
Qed.
Lemma near_add x y a b Ea Eb V : fnear x a Ea -> fnear y b Eb -> Rabs (a + b) + (Ea + Eb) <= V -> V <= fmaxR -> fnear (fadd x y) (a + b) (Ea + Eb + u53 * V).
Proof.
  intros (F1 & V1 & H1) (F2 & V2 & H2) B M. apply (sum_near _ (FR x + FR y)); auto; [now apply fadd_spec|].
  apply Rabs_iff in H1, H2. apply Rabs_iff. lra.
Qed.
Lemma correct_near y z a E V : correct y z -> Rabs (z - a) <= E -> Rabs a + E <= V -> V <= fmaxR -> fnear y a (E + u53 * V + eta).
Proof.
  intros C D B M. pose proof u53_pos as U. pose proof eta_pos as U2. assert (Z : Rabs z <= V). { pose proof (Rabs_triang (z - a) a). replace (z - a + a) with z in * by ring. lra. }
  destruct C as (Va & N & Fi & Er & _). specialize (Fi ltac:(lra)). split; [exact Fi|]. split; [exact Va|]. specialize (Er Fi).
  pose proof (Rabs_triang (FR y - z) (z - a)) as T. replace (FR y - z + (z - a)) with (FR y - a) in T by ring.
  pose proof (Rabs_pos z). assert (0 <= u53 * V) by (apply Rmult_le_pos; lra). assert (u53 * Rabs z <= u53 * V) by (apply Rmult_le_compat_l; lra). lra.
Qed.
Lemma mul_dev x y a b Ea Eb : Rabs (x - a) <= Ea -> Rabs (y - b) <= Eb -> Rabs (x * y - a * b) <= Ea * Rabs b + Rabs a * Eb + Ea * Eb.
Proof.
  intros A B. replace (x * y - a * b) with ((x - a) * b + (a * (y - b) + (x - a) * (y - b))) by ring.
  pose proof (Rabs_pos (x - a)). pose proof (Rabs_pos (y - b)). pose proof (Rabs_pos a). pose proof (Rabs_pos b).
  eapply Rle_trans; [apply Rabs_triang|]. rewrite Rplus_assoc. apply Rplus_le_compat; [rewrite Rabs_mult; nra|].
  eapply Rle_trans; [apply Rabs_triang|]. rewrite !Rabs_mult. nra.
Qed.
Lemma near_mul x y a b Ea Eb V : fnear x a Ea -> fnear y b Eb -> Rabs (a * b) + (Ea * Rabs b + Rabs a * Eb + Ea * Eb) <= V -> V <= fmaxR ->
  fnear (fmul x y) (a * b) (Ea * Rabs b + Rabs a * Eb + Ea * Eb + u53 * V + eta).
Proof.
  intros (F1 & V1 & H1) (F2 & V2 & H2) B M. apply (correct_near _ (FR x * FR y)); auto; [now apply fmul_spec|]. now apply mul_dev.
Qed.
Lemma near_opp x z E : fnear x z E -> fnear (SFopp x) (- z) E.
Proof. intros (A & B & C). split; [now rewrite fin_opp|]. split; [now apply opp_valid|]. rewrite FR_opp. replace (- FR x - - z) with (- (FR x - z)) by ring. now rewrite Rabs_Ropp. Qed.
Lemma near_abs x z E : fnear x z E -> fnear (SFabs x) (Rabs z) E.
Proof.
  intros (A & B & C). split; [now rewrite fin_abs|]. split; [now apply abs_valid|]. rewrite FR_abs.
  apply Rle_trans with (2 := C). apply Rabs_triang_inv2.
Qed.
Lemma FR_eqb x y : fin x = true -> fin y = true -> valid x -> valid y -> SFeqb x y = true -> FR x = FR y.
Proof. intros A B C D H. destruct (compare_FR x y A B C D) as (c & E & F). unfold SFeqb in H. rewrite E in H. destruct c; try discriminate. exact F. Qed.
Lemma FR_min x y : fin x = true -> fin y = true -> valid x -> valid y -> fin (go_min x y) = true /\ valid (go_min x y) /\ FR (go_min x y) = Rmin (FR x) (FR y).
Proof.
  intros A B C D. unfold go_min. assert (NI : is_ninf x || is_ninf y = false) by (destruct x, y; try discriminate; reflexivity).
  assert (NN : is_nan x || is_nan y = false) by (destruct x, y; try discriminate; reflexivity). rewrite NI, NN.
  destruct (is_zero x && SFeqb x y) eqn:E.
  - apply andb_prop in E. destruct E as (_ & E). apply FR_eqb in E; auto. destruct (signbit x); (split; [auto|split; [auto|]]); rewrite E; unfold Rmin; destruct (Rle_dec _ _); lra.
  - destruct (SFltb x y) eqn:L; (split; [auto|split; [auto|]]).
    + apply ltb_FR in L; auto. rewrite Rmin_left; lra.
    + rewrite Rmin_right; auto. destruct (Rle_lt_dec (FR y) (FR x)) as [|G]; auto. apply ltb_FR in G; auto. congruence.
Qed.
Lemma FR_max x y : fin x = true -> fin y = true -> valid x -> valid y -> fin (go_max x y) = true /\ valid (go_max x y) /\ FR (go_max x y) = Rmax (FR x) (FR y).
Proof.
  intros A B C D. unfold go_max. assert (NI : is_pinf x || is_pinf y = false) by (destruct x, y; try discriminate; reflexivity).
  assert (NN : is_nan x || is_nan y = false) by (destruct x, y; try discriminate; reflexivity). rewrite NI, NN.
  destruct (is_zero x && SFeqb x y) eqn:E.
  - apply andb_prop in E. destruct E as (_ & E). apply FR_eqb in E; auto. destruct (signbit x); (split; [auto|split; [auto|]]); rewrite E; unfold Rmax; destruct (Rle_dec _ _); lra.
  - destruct (SFltb y x) eqn:L; (split; [auto|split; [auto|]]).
    + apply ltb_FR in L; auto. rewrite Rmax_left; lra.
    + rewrite Rmax_right; auto. destruct (Rle_lt_dec (FR x) (FR y)) as [|G]; auto. apply ltb_FR in G; auto. congruence.
Qed.
Lemma near_min x y a b E : fnear x a E -> fnear y b E -> fnear (go_min x y) (Rmin a b) E.
Proof.
  intros (A & B & C) (A' & B' & C'). destruct (FR_min x y A A' B B') as (F & V & W). split; [auto|split; [auto|]]. rewrite W.
  apply Rabs_iff in C, C'. apply Rabs_iff. unfold Rmin. destruct (Rle_dec _ _), (Rle_dec _ _); lra.
Qed.
Lemma near_max x y a b E : fnear x a E -> fnear y b E -> fnear (go_max x y) (Rmax a b) E.
Proof.
  intros (A & B & C) (A' & B' & C'). destruct (FR_max x y A A' B B') as (F & V & W). split; [auto|split; [auto|]]. rewrite W.
  apply Rabs_iff in C, C'. apply Rabs_iff. unfold Rmax. destruct (Rle_dec _ _), (Rle_dec _ _); lra.
Qed.

(** ** math.Hypot *)
Lemma FR_f1 : FR f1 = 1.
Proof. unfold f1. rewrite FR_sg. cbn [sg]. change (Zpos 4503599627370496) with (2 ^ 52)%Z. rewrite <- bpow_Z, <- bpow_add by lia. reflexivity. Qed.
Lemma f1_ok : fin f1 = true /\ valid f1.
Proof. split; reflexivity. Qed.
Lemma u_eta : eta <= u53.
Proof. apply bpow_le. lia. Qed.
Lemma big_max : 4 <= fmaxR.
Proof.
  unfold fmaxR. replace (bpow 1024) with (2 * bpow 1023) by (rewrite <- bpow_1, <- bpow_add; reflexivity). pose proof (bpow_le 971 1023 ltac:(lia)).
  pose proof (bpow_le 2 1023 ltac:(lia)) as H2. rewrite (bpow_Z 2) in H2 by lia. change (2 ^ 2)%Z with 4%Z in H2. lra.
Qed.
Lemma correct_err y z B : correct y z -> Rabs z <= B -> 1 <= B -> B <= fmaxR -> fin y = true /\ valid y /\ Rabs (FR y - z) <= u53 * B.
Proof.
  intros (V & N & Fi & Er & _) H L M. specialize (Fi ltac:(lra)). split; [auto|]. split; [auto|]. pose proof u_eta. pose proof u53_pos. pose proof (Rabs_pos z).
  destruct (Er Fi) as [E|E]; nra.
Qed.
(** the square root of [1 + t * t] for [t] between 0 and 1 *)
Lemma hyp_factor q p : fin q = true -> fin p = true -> valid q -> valid p -> 0 <= FR q <= FR p -> 0 < FR p ->
  let s := fsqrt (fadd f1 (fmul (fdiv q p) (fdiv q p))) in
  fin s = true /\ valid s /\ 1 <= FR s <= 2 /\ Rabs (FR s - sqrt (1 + (FR q / FR p) * (FR q / FR p))) <= 4 * u53.
Proof.
  intros Fq Fp Vq Vp O P s. set (r := FR q / FR p). assert (R1 : 0 <= r <= 1).
  { unfold r. split; [apply Rmult_le_pos; [lra|left; now apply Rinv_0_lt_compat]|]. apply Rmult_le_reg_r with (FR p); auto. unfold Rdiv. rewrite Rmult_assoc, Rinv_l by lra. lra. }
  pose proof big_max as BM. pose proof u53_pos as U. pose proof u53_small as US. destruct f1_ok as (F1 & V1).
  pose proof (fdiv_spec q p Fq Fp Vq Vp ltac:(lra)) as Cd. fold r in Cd. destruct (correct_err _ _ 1 Cd ltac:(rewrite Rabs_right; lra) ltac:(lra) ltac:(lra)) as (Fd & Vd & Ed).
  destruct (correct_le _ _ f1 Cd V1 F1 ltac:(rewrite FR_f1; lra)) as (Ld & _). specialize (Ld Fd). rewrite FR_f1 in Ld.
  destruct (correct_ge _ _ fzero Cd eq_refl eq_refl ltac:(cbn; lra)) as (Gd & _). specialize (Gd Fd). cbn [FR fzero] in Gd.
  set (t := fdiv q p) in *. pose proof (fmul_spec t t Fd Fd Vd Vd) as Cm. set (T := FR t) in *.
  destruct (correct_err _ _ 1 Cm ltac:(rewrite Rabs_right; nra) ltac:(lra) ltac:(lra)) as (Fm & Vm & Em).
  destruct (correct_le _ _ f1 Cm V1 F1 ltac:(rewrite FR_f1; nra)) as (Lm & _). specialize (Lm Fm). rewrite FR_f1 in Lm.
  destruct (correct_ge _ _ fzero Cm eq_refl eq_refl ltac:(cbn; nra)) as (Gm & _). specialize (Gm Fm). cbn [FR fzero] in Gm.
  set (w := fmul t t) in *. pose proof (fadd_spec f1 w F1 Fm V1 Vm) as (Ca & _). rewrite FR_f1 in Ca. set (W := FR w) in *.
  destruct (correct_err _ _ 2 Ca ltac:(rewrite Rabs_right; lra) ltac:(lra) ltac:(lra)) as (Fa & Va & Ea).
  destruct (correct_ge _ _ f1 Ca V1 F1 ltac:(rewrite FR_f1; lra)) as (Ga & _). specialize (Ga Fa). rewrite FR_f1 in Ga.
  set (v := fadd f1 w) in *. set (Vv := FR v) in *.
  assert (Q0 : 1 <= sqrt Vv) by (rewrite <- sqrt_1; apply sqrt_le_1; lra).
  pose proof (sqrt_sqrt Vv ltac:(lra)) as Q1. assert (Q2 : sqrt Vv <= 3 / 2) by (apply Rabs_iff in Ea; nra).
  pose proof (fsqrt_spec v Fa Va ltac:(fold Vv; lra)) as Cs. fold Vv in Cs.
  destruct (correct_err _ _ (3 / 2) Cs ltac:(rewrite Rabs_right; lra) ltac:(lra) ltac:(lra)) as (Fs & Vs & Es).
  destruct (correct_ge _ _ f1 Cs V1 F1 ltac:(rewrite FR_f1; lra)) as (Gs & _). specialize (Gs Fs). rewrite FR_f1 in Gs. fold s in Fs, Vs, Es, Gs.
  split; [exact Fs|]. split; [exact Vs|]. apply Rabs_iff in Es. split; [lra|].
  assert (Q3 : Rabs (Vv - (1 + r * r)) <= 5 * u53).
  { apply Rabs_iff in Ed, Em, Ea. apply Rabs_iff. assert (- (2 * u53) <= T * T - r * r <= 2 * u53) by nra. lra. }
  set (X := 1 + r * r) in *. assert (X1 : 1 <= X) by (unfold X; nra). assert (X2 : 1 <= sqrt X) by (rewrite <- sqrt_1; apply sqrt_le_1; lra).
  pose proof (sqrt_sqrt X ltac:(lra)) as X3.
  assert (Q4 : Rabs (sqrt Vv - sqrt X) <= 5 / 2 * u53).
  { apply Rabs_iff in Q3. apply Rabs_iff. split; nra. }
  apply Rabs_iff in Q4. apply Rabs_iff. lra.
Qed.
Lemma hypot_scale p q : 0 < p -> hypot p q = p * sqrt (1 + (q / p) * (q / p)).
Proof.
  intros H. unfold hypot. replace (p * p + q * q) with ((p * p) * (1 + q / p * (q / p))) by (field; lra).
  rewrite sqrt_mult by nra. rewrite sqrt_square by lra. reflexivity.
Qed.
Lemma hypot_abs a b : hypot (Rabs a) (Rabs b) = hypot a b.
Proof. unfold hypot. f_equal. pose proof (Rsqr_abs a). pose proof (Rsqr_abs b). unfold Rsqr in *. lra. Qed.
Lemma hypot_sym a b : hypot a b = hypot b a.
Proof. unfold hypot. f_equal. ring. Qed.
Lemma hypot_le a b M : Rabs a <= M -> Rabs b <= M -> hypot a b <= 2 * M.
Proof.
  intros A B. pose proof (Rabs_pos a). rewrite <- hypot_abs. unfold hypot. rewrite <- (sqrt_square (2 * M)) by lra. apply sqrt_le_1; pose proof (Rabs_pos b); nra.
Qed.
Lemma hypot_lower a b : Rabs a <= hypot a b /\ Rabs b <= hypot a b.
Proof.
  unfold hypot. split; rewrite <- sqrt_Rsqr_abs; apply sqrt_le_1; unfold Rsqr; nra.
Qed.
(** math.Hypot is finite, at least as large as both arguments and within 6 units of 2^-53 of the exact value. *)
Lemma ghyp_near a b M : fin a = true -> fin b = true -> valid a -> valid b -> Rabs (FR a) <= M -> Rabs (FR b) <= M -> 4 * M <= fmaxR ->
  fnear (ghyp a b) (hypot (FR a) (FR b)) (6 * u53 * M + eta) /\ Rabs (FR a) <= FR (ghyp a b) /\ Rabs (FR b) <= FR (ghyp a b).
Proof.
  intros Fa Fb Va Vb Ba Bb MM. pose proof u53_pos as U. pose proof u53_small as US. pose proof eta_pos as Et. unfold ghyp.
  assert (Fa' : fin (SFabs a) = true) by now rewrite fin_abs. assert (Fb' : fin (SFabs b) = true) by now rewrite fin_abs.
  assert (Va' : valid (SFabs a)) by now apply abs_valid. assert (Vb' : valid (SFabs b)) by now apply abs_valid.
  rewrite <- hypot_abs. rewrite <- FR_abs in *. rewrite <- (FR_abs b) in *. 
  assert (Na : 0 <= FR (SFabs a)) by (rewrite FR_abs; apply Rabs_pos). assert (Nb : 0 <= FR (SFabs b)) by (rewrite FR_abs; apply Rabs_pos).
  set (p1 := SFabs a) in *. set (q1 := SFabs b) in *. clearbody p1 q1. clear a b Fa Fb Va Vb.
  assert (I1 : is_inf p1 || is_inf q1 = false) by (destruct p1, q1; try discriminate; reflexivity).
  assert (I2 : is_nan p1 || is_nan q1 = false) by (destruct p1, q1; try discriminate; reflexivity). rewrite I1, I2.
  set (p := if SFltb p1 q1 then q1 else p1). set (q := if SFltb p1 q1 then p1 else q1).
  assert (PQ : fin p = true /\ fin q = true /\ valid p /\ valid q /\ 0 <= FR q <= FR p /\ FR p <= M /\ hypot (FR p1) (FR q1) = hypot (FR p) (FR q) /\ FR p1 <= FR p /\ FR q1 <= FR p).
  { unfold p, q. destruct (SFltb p1 q1) eqn:L.
    - apply ltb_FR in L; auto. repeat split; auto; try lra. apply hypot_sym.
    - assert (FR q1 <= FR p1). { destruct (Rle_lt_dec (FR q1) (FR p1)) as [|G]; auto. apply ltb_FR in G; auto. congruence. } repeat split; auto; lra. }
  destruct PQ as (Fp & Fq & Vp & Vq & O & Bp & -> & G1 & G2). clearbody p q.
  destruct (SFeqb p fzero) eqn:Z.
  - apply FR_eqb in Z; auto; try reflexivity. cbn [FR fzero] in *. assert (FR q = 0) by lra. split; [|lra].
    split; [reflexivity|]. split; [reflexivity|]. rewrite Z, H. unfold hypot. replace (0 * 0 + 0 * 0) with 0 by ring. rewrite sqrt_0. change (FR fzero) with 0. rewrite Rminus_0_r, Rabs_R0.
    assert (0 <= M) by lra. nra.
  - assert (P : 0 < FR p).
    { destruct (Req_dec (FR p) 0) as [E|E]; [|lra]. exfalso. destruct p as [s|s| |s m e]; try discriminate. rewrite FR_sg in E. pose proof (bpow_pos e).
      assert (0 < IZR (Zpos m)) by (apply IZR_lt; lia). destruct s; cbn in E; nra. }
    destruct (hyp_factor q p Fq Fp Vq Vp O P) as (Fs & Vs & Bs & Es). set (s := fsqrt _) in *. rewrite hypot_scale by auto.
    set (X := sqrt (1 + FR q / FR p * (FR q / FR p))) in *. clearbody X. pose proof (fmul_spec p s Fp Fs Vp Vs) as Cm.
    assert (Fm : fnear (fmul p s) (FR p * FR s) (0 + u53 * (2 * M) + eta)).
    { apply (correct_near _ (FR p * FR s)); auto; [rewrite Rminus_diag_eq, Rabs_R0 by reflexivity; lra|rewrite Rabs_right; nra|nra]. }
    destruct (correct_ge _ _ p Cm Vp Fp ltac:(nra)) as (Gm & _). destruct Fm as (Fm & Vm & Em). specialize (Gm Fm). split; [|lra].
    split; [exact Fm|]. split; [exact Vm|]. apply Rabs_iff in Em, Es. apply Rabs_iff. nra.
Qed.
(** For all numbers, infinities and NaN included. *)
Lemma ghyp_sign a b : valid a -> valid b -> valid (ghyp a b) /\ SFltb (ghyp a b) fzero = false /\
  (SFltb fzero (SFabs a) = true \/ SFltb fzero (SFabs b) = true -> is_nan a = false -> is_nan b = false -> SFltb fzero (ghyp a b) = true).
Proof.
  intros Va Vb. unfold ghyp. assert (Va' : valid (SFabs a)) by now apply abs_valid. assert (Vb' : valid (SFabs b)) by now apply abs_valid.
  assert (Na : is_nan (SFabs a) = is_nan a) by (destruct a; reflexivity). assert (Nb : is_nan (SFabs b) = is_nan b) by (destruct b; reflexivity).
  assert (Pa : 0 <= FR (SFabs a)) by (rewrite FR_abs; apply Rabs_pos). assert (Pb : 0 <= FR (SFabs b)) by (rewrite FR_abs; apply Rabs_pos).
  rewrite <- Na, <- Nb. set (p1 := SFabs a) in *. set (q1 := SFabs b) in *. clearbody p1 q1. clear a b Va Vb Na Nb.
  destruct (is_inf p1 || is_inf q1) eqn:I1; [repeat split; reflexivity|].
  destruct (is_nan p1 || is_nan q1) eqn:I2; [split; [reflexivity|split; [reflexivity|]]; intros _ E F; rewrite E, F in I2; discriminate|].
  assert (Fp1 : fin p1 = true) by (destruct p1, q1; try discriminate; reflexivity). assert (Fq1 : fin q1 = true) by (destruct p1, q1; try discriminate; reflexivity).
  set (p := if SFltb p1 q1 then q1 else p1). set (q := if SFltb p1 q1 then p1 else q1).
  assert (PQ : fin p = true /\ fin q = true /\ valid p /\ valid q /\ 0 <= FR q <= FR p /\ FR p1 <= FR p /\ FR q1 <= FR p).
  { unfold p, q. destruct (SFltb p1 q1) eqn:L.
    - apply ltb_FR in L; auto. repeat split; auto; lra.
    - assert (FR q1 <= FR p1). { destruct (Rle_lt_dec (FR q1) (FR p1)) as [|G]; auto. apply ltb_FR in G; auto. congruence. } repeat split; auto; lra. }
  destruct PQ as (Fp & Fq & Vp & Vq & O & G1 & G2). clearbody p q. assert (Z0 : fin fzero = true /\ valid fzero) by (split; reflexivity). destruct Z0 as (Fz & Vz).
  destruct (SFeqb p fzero) eqn:Z.
  - apply FR_eqb in Z; auto. split; [reflexivity|]. split; [reflexivity|]. intros [H|H] _ _; apply ltb_FR in H; auto; change (FR fzero) with 0 in *; lra.
  - assert (P : 0 < FR p).
    { destruct (Req_dec (FR p) 0) as [E|E]; [|lra]. exfalso. destruct p as [s|s| |s m e]; try discriminate. rewrite FR_sg in E. pose proof (bpow_pos e).
      assert (0 < IZR (Zpos m)) by (apply IZR_lt; lia). destruct s; cbn in E; nra. }
    destruct (hyp_factor q p Fq Fp Vq Vp O P) as (Fs & Vs & Bs & Es). set (s := fsqrt _) in *.
    pose proof (fmul_spec p s Fp Fs Vp Vs) as Cm. destruct (correct_ge _ _ p Cm Vp Fp ltac:(nra)) as (_ & Gm).
    destruct Cm as (Vm & _). set (y := fmul p s) in *. clearbody y. split; [exact Vm|].
    assert (Py : SFltb fzero y = true).
    { destruct (fin y) eqn:Fy; [apply leb_FR in Gm; auto; apply ltb_FR; auto; change (FR fzero) with 0; lra|].
      destruct y as [t|[]| |t m e]; try discriminate; [|reflexivity|destruct p; discriminate Gm]. exfalso. destruct p as [?|?| |[] ? ?]; try discriminate. }
    split; [|auto]. destruct y as [t|[]| |[] m e]; try reflexivity; discriminate.
Qed.
