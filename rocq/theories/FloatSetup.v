(** NewOctreeRenderer in float64: representable numbers, the enlarged bounding box, the resolution and the number of levels. *)
From Coq Require Import List Bool ZArith Lia Floats.SpecFloat Reals Lra Psatz.
From Verif Require Import Prelude Vec BoxModel Distance FloatBoolModel FloatRound FloatShapeModel FloatNear PropsFloatSign FloatTrack FloatCopies OctreeModel OctreeR PropsSampling FloatRenderModel FloatRender.
Import ListNotations.
Local Open Scope R_scope.
Local Notation fadd := FloatRound.fadd.
Local Notation fsub := FloatRound.fsub.
Local Notation fmul := FloatRound.fmul.
Local Notation fdiv := FloatRound.fdiv.

(** ** Representable numbers *)
Lemma repr_int m e : (0 < m < 2 ^ 53)%Z -> (-1074 <= e <= 971)%Z -> exists x, num x /\ FR x = IZR m * bpow e.
Proof.
  intros (M0 & M1) He. destruct m as [|p|p]; try lia. pose proof (digits_pos p) as (D1 & D2). set (dg := Zpos (digits2_pos p)) in *.
  assert (Dg : (0 < dg <= 53)%Z). { split; [unfold dg; lia|]. destruct (Z.le_gt_cases dg 53) as [H|H]; [exact H|]. assert (2 ^ 53 <= 2 ^ (dg - 1))%Z by (apply Z.pow_le_mono_r; lia). lia. }
  set (e' := Z.max (e - (53 - dg)) (-1074)). set (sh := (e - e')%Z). assert (Sh : (0 <= sh)%Z) by (unfold sh, e'; lia). assert (P2 : (0 < 2 ^ sh)%Z) by (apply Z.pow_pos_nonneg; lia).
  destruct (Zpos p * 2 ^ sh)%Z as [|q|q] eqn:Eq; try nia.
  assert (Dq : Zpos (digits2_pos q) = (dg + sh)%Z). { apply digits_unique. rewrite <- Eq. replace (dg + sh - 1)%Z with ((dg - 1) + sh)%Z by lia. rewrite !Z.pow_add_r by lia. nia. }
  exists (S754_finite false q e'). split; [split; [reflexivity|]|].
  - unfold valid. cbn [valid_binary]. apply bounded_intro; [|unfold e'; lia]. rewrite fx_eq, Dq. unfold sh, e'. lia.
  - cbn [FR]. rewrite <- Eq, mult_IZR. replace (IZR (2 ^ sh)) with (bpow sh) by (now rewrite bpow_Z). replace (bpow e) with (bpow sh * bpow e') by (rewrite <- bpow_add; f_equal; unfold sh; lia). ring.
Qed.
Lemma exact_of y z : correct y z -> (exists x, num x /\ FR x = z) -> num y /\ FR y = z.
Proof.
  intros C (w & (Fw & Vw) & E). assert (Fy : fin y = true) by (destruct C as (_ & _ & C & _); apply C; rewrite <- E; now apply small_max).
  destruct (correct_le y z w C Vw Fw ltac:(lra)) as (L & _). destruct (correct_ge y z w C Vw Fw ltac:(lra)) as (G & _). destruct C as (V & _). split; [split; assumption|]. specialize (L Fy). specialize (G Fy). lra.
Qed.
(** division by a power of two *)
Lemma repr_scale x j : num x -> bpow (-450) <= FR x -> (-100 <= j <= 0)%Z -> exists y, num y /\ FR y = FR x * bpow j.
Proof.
  intros (Fx & Vx) L Hj. pose proof (bpow_pos (-450)) as B0. destruct (fin_cases x Fx) as [(s & ->)|(s & m & e & ->)]; [cbn [FR] in L; lra|]. cbn [FR] in *.
  unfold valid in Vx. cbn [valid_binary] in Vx. apply bounded_elim in Vx as (_ & B2 & B3 & _). assert (Pm : 0 < IZR (Zpos m)) by (apply IZR_lt; lia). pose proof (bpow_pos e) as Pe.
  destruct s; [assert (0 < IZR (Zpos m) * bpow e) by (apply Rmult_lt_0_compat; lra); lra|]. rewrite Rmult_1_l in *.
  assert (Le : (-450 < 53 + e)%Z). { apply bpow_lt_inv. eapply Rle_lt_trans; [exact L|]. rewrite bpow_add. apply Rmult_lt_compat_r; [exact Pe|]. rewrite bpow_Z by lia. now apply IZR_lt. }
  destruct (repr_int (Zpos m) (e + j)) as (y & Ny & Ey); [lia|lia|]. exists y. split; [exact Ny|]. rewrite Ey, bpow_add. ring.
Qed.
Lemma fofZ_exact z : (0 < z < 2 ^ 53)%Z -> num (fofZ z) /\ FR (fofZ z) = IZR z.
Proof.
  intros H. destruct (normalize_spec z 0 ltac:(lia)) as (C & _). replace (IZR z * bpow 0) with (IZR z) in C by (unfold bpow; cbn [powerRZ]; ring).
  apply (exact_of _ _ C). destruct (repr_int z 0 H ltac:(lia)) as (x & Nx & Ex). exists x. split; [exact Nx|]. rewrite Ex. unfold bpow. cbn [powerRZ]. ring.
Qed.

(** ** One axis of the enlarged box *)
Lemma f101_ok : num f101 /\ Rabs (FR f101 - 1.01) <= / 9000000000000000.
Proof.
  split; [split; reflexivity|]. unfold f101, FR. change (-52)%Z with (- (52))%Z. rewrite bpow_opp, bpow_Z by lia. change (2 ^ 52)%Z with 4503599627370496%Z. apply Rabs_iff. lra.
Qed.
Lemma axis_near a b X : num a -> num b -> Rabs (FR a) <= X -> Rabs (FR b) <= X -> scale_ok X ->
  let d := FR b - FR a in let w := u53 * X in
  let size := fsub b a in let c := fadd a (fmul fhalf size) in let h := fmul fhalf (fmul f101 size) in let lo := fsub c h in let hi := fadd c h in
  fnear lo (FR a + d / 2 - 1.01 * d / 2) (20 * w) /\ fnear hi (FR a + d / 2 + 1.01 * d / 2) (20 * w) /\ fnear (fsub hi lo) (1.01 * d) (50 * w).
Proof.
  intros (Fa & Va) (Fb & Vb) Aa Ab K d w size c h lo hi. destruct (scale_facts X K) as (X0 & W0 & Et & M & Sm). pose proof u53_pos as U0. pose proof u53_small as U1. fold w in W0, Et, Sm.
  assert (Uw : forall k, u53 * (k * X) = k * w) by (intros k; unfold w; ring). apply Rabs_iff in Aa, Ab. assert (Ad : Rabs d <= 2 * X) by (apply Rabs_iff; unfold d; lra). pose proof Ad as Ad'. apply Rabs_iff in Ad'. pose proof (Rabs_pos d) as Pd.
  destruct fhalf_num as (Fh & Vh). pose proof (near_exact fhalf Fh Vh) as Nh. rewrite FR_half in Nh. destruct f101_ok as ((F1 & V1) & D1). assert (N1 : fnear f101 1.01 (/ 9000000000000000)) by (split; [exact F1|split; [exact V1|exact D1]]).
  assert (Rh : Rabs (/ 2) = / 2) by (apply Rabs_right; lra). assert (R1 : Rabs 1.01 = 1.01) by (apply Rabs_right; lra).
  assert (Ns : fnear size d (3 * w)). { eapply near_weak; [apply (near_sub b a (FR b) (FR a) 0 0 (3 * X) (near_exact b Fb Vb) (near_exact a Fa Va))|]; [fold d; lra|lra|]. rewrite Uw. lra. }
  assert (Nhs : fnear (fmul fhalf size) (/ 2 * d) (4 * w)).
  { eapply near_weak; [apply (near_mul _ _ _ _ _ _ (1.5 * X) Nh Ns)|]; rewrite ?Rabs_mult, ?Rh, ?Rmult_0_l, ?Uw; lra. }
  assert (Nc : fnear c (FR a + / 2 * d) (6 * w)).
  { eapply near_weak; [apply (near_add _ _ _ _ _ _ (1.5 * X) (near_exact a Fa Va) Nhs)|]; rewrite ?Uw; [|lra|lra]. assert (Rabs (FR a + / 2 * d) <= X) by (apply Rabs_iff; unfold d; lra). lra. }
  assert (N1s : fnear (fmul f101 size) (1.01 * d) (9 * w)).
  { assert (Us : / 9000000000000000 <= 9 / 8 * u53) by (unfold u53; change (-53)%Z with (- (53))%Z; rewrite bpow_opp, bpow_Z by lia; change (2 ^ 53)%Z with 9007199254740992%Z; lra).
    assert (Xs : / 9000000000000000 * Rabs d <= 9 / 4 * w). { apply Rle_trans with (9 / 8 * u53 * (2 * X)); [apply Rmult_le_compat; lra|unfold w; lra]. }
    eapply near_weak; [apply (near_mul _ _ _ _ _ _ (2.1 * X) N1 Ns)|]; rewrite ?Rabs_mult, ?R1, ?Uw; [idtac|lra|idtac]; set (q := / 9000000000000000 * Rabs d) in *; lra. }
  assert (Nhh : fnear h (/ 2 * (1.01 * d)) (8 * w)).
  { eapply near_weak; [apply (near_mul _ _ _ _ _ _ (1.5 * X) Nh N1s)|]; rewrite ?Rabs_mult, ?Rh, ?R1, ?Rmult_0_l, ?Uw; lra. }
  assert (Nlo : fnear lo (FR a + / 2 * d - / 2 * (1.01 * d)) (16 * w)).
  { eapply near_weak; [apply (near_sub _ _ _ _ _ _ (1.5 * X) Nc Nhh)|]; rewrite ?Uw; [|lra|lra]. assert (Rabs (FR a + / 2 * d - / 2 * (1.01 * d)) <= 1.1 * X) by (apply Rabs_iff; unfold d; lra). lra. }
  assert (Nhi : fnear hi (FR a + / 2 * d + / 2 * (1.01 * d)) (16 * w)).
  { eapply near_weak; [apply (near_add _ _ _ _ _ _ (1.5 * X) Nc Nhh)|]; rewrite ?Uw; [|lra|lra]. assert (Rabs (FR a + / 2 * d + / 2 * (1.01 * d)) <= 1.1 * X) by (apply Rabs_iff; unfold d; lra). lra. }
  split; [|split].
  - replace (FR a + d / 2 - 1.01 * d / 2) with (FR a + / 2 * d - / 2 * (1.01 * d)) by lra. eapply near_weak; [exact Nlo|lra].
  - replace (FR a + d / 2 + 1.01 * d / 2) with (FR a + / 2 * d + / 2 * (1.01 * d)) by lra. eapply near_weak; [exact Nhi|lra].
  - replace (1.01 * d) with (FR a + / 2 * d + / 2 * (1.01 * d) - (FR a + / 2 * d - / 2 * (1.01 * d))) by lra. eapply near_weak; [apply (near_sub _ _ _ _ _ _ (2.5 * X) Nhi Nlo)|]; rewrite ?Uw; [|lra|lra].
    replace (FR a + / 2 * d + / 2 * (1.01 * d) - (FR a + / 2 * d - / 2 * (1.01 * d))) with (1.01 * d) by lra. rewrite Rabs_mult, R1. lra.
Qed.

(** ** The number of levels *)
Lemma fceil_spec x k : num x -> IZR k - 1 < FR x <= IZR k -> fceil x = k.
Proof.
  intros (Fx & _) (L & U). destruct (fin_cases x Fx) as [(s & ->)|(s & m & e & ->)]; cbn [FR fceil] in *.
  - assert (k < 1)%Z by (apply lt_IZR; lra). assert (0 <= k)%Z by (apply le_IZR; lra). lia.
  - set (z := if s then Zneg m else Zpos m). assert (Ez : (if s then -1 else 1) * (IZR (Zpos m) * bpow e) = IZR z * bpow e). { unfold z. destruct s; [change (Zneg m) with (- Zpos m)%Z; rewrite opp_IZR|]; ring. }
    rewrite Ez in L, U. destruct (Z.leb_spec 0 e) as [He|He].
    + rewrite bpow_Z, <- mult_IZR in L, U by lia. rewrite <- minus_IZR in L. apply lt_IZR in L. apply le_IZR in U. lia.
    + assert (P : (0 < 2 ^ (- e))%Z) by (apply Z.pow_pos_nonneg; lia). replace e with (- - e)%Z in L, U by lia. rewrite bpow_opp, bpow_Z in L, U by lia. set (q := (2 ^ (- e))%Z) in *. assert (Pq : 0 < IZR q) by (now apply IZR_lt).
      assert (U' : (z <= k * q)%Z). { apply le_IZR. rewrite mult_IZR. apply Rmult_le_reg_r with (/ IZR q); [now apply Rinv_0_lt_compat|]. rewrite Rmult_assoc, Rinv_r by lra. lra. }
      assert (L' : ((k - 1) * q < z)%Z). { apply lt_IZR. rewrite mult_IZR, minus_IZR. apply Rmult_lt_reg_r with (/ IZR q); [now apply Rinv_0_lt_compat|]. rewrite Rmult_assoc, Rinv_r by lra. lra. }
      assert (D : (- z / q = - k)%Z); [|lia]. symmetry. apply (Z.div_unique _ _ _ (- z + k * q)%Z); [left; lia|ring].
Qed.
Lemma ln_lower y : 0 < y -> 1 - / y <= ln y.
Proof. intros H. pose proof (Rinv_0_lt_compat y H) as I. pose proof (exp_ineq1_le (- ln y)) as E. rewrite exp_Ropp, exp_ln in E by lra. lra. Qed.
Lemma ln_upper y : 0 < y -> ln y <= y - 1.
Proof. intros H. pose proof (exp_ineq1_le (ln y)) as E. rewrite exp_ln in E by lra. lra. Qed.
Lemma ln2_range : 0 < ln 2 <= 1.
Proof. split; [rewrite <- ln_1; apply ln_increasing; lra|]. pose proof (ln_upper 2). lra. Qed.
(** What is used of math.Log2: an absolute error of at most 2^-45 for arguments up to 2^60, and exactness on powers of two
    (Go: frac, exp := Frexp(x); if frac == 0.5 the result is exp - 1, otherwise Log(frac)*(1/Ln2) + exp). *)
Definition good_log2 (lg : spec_float -> spec_float) : Prop :=
  (forall x, num x -> 1 <= FR x <= bpow 60 -> num (lg x) /\ Rabs (FR (lg x) - log2R (FR x)) <= bpow (-45)) /\
  (forall x j, num x -> (0 <= j <= 60)%Z -> FR x = bpow j -> num (lg x) /\ FR (lg x) = IZR j).
Lemma log2_bpow j : (0 <= j)%Z -> log2R (bpow j) = IZR j.
Proof. intros H. rewrite bpow_Z by exact H. rewrite <- (Z2Nat.id j H) at 1. rewrite <- pow_IZR, log2_pow, INR_IZR_INZ, Z2Nat.id by exact H. reflexivity. Qed.
Lemma log2_quot x j : 0 < x -> (0 <= j)%Z -> log2R x = IZR j + ln (x / bpow j) / ln 2.
Proof.
  intros H Hj. rewrite <- (log2_bpow j Hj). unfold log2R. pose proof ln2_range. pose proof (bpow_pos j) as B. replace (ln x) with (ln (bpow j) + ln (x / bpow j)); [field; lra|]. rewrite <- ln_mult; [|exact B|apply Rdiv_lt_0_compat; assumption]. f_equal. field. lra.
Qed.
(** between two consecutive powers of two *)
Lemma log2_between x j : (0 <= j <= 42)%Z -> bpow j + / 2 <= x -> x <= 2 * bpow j - / 2 -> IZR j + bpow (-44) <= log2R x <= IZR j + 1 - bpow (-44).
Proof.
  intros Hj L U. pose proof (bpow_pos j) as B. assert (Bj : bpow j <= bpow 42) by (apply bpow_le; lia). assert (B1 : 1 <= bpow j) by (replace 1 with (bpow 0) by reflexivity; apply bpow_le; lia). pose proof ln2_range as (G0 & G1).
  assert (E42 : bpow 42 = 4398046511104) by (rewrite bpow_Z by lia; reflexivity). assert (E44 : bpow (-44) = / 17592186044416) by (change (-44)%Z with (- (44))%Z; rewrite bpow_opp, bpow_Z by lia; reflexivity).
  assert (Ib : / 4398046511104 <= / bpow j) by (apply Rinv_le_contravar; lra).
  split.
  - rewrite (log2_quot x j) by (lra || lia). set (y := x / bpow j). assert (Y : 1 + / 2 * / bpow j <= y). { unfold y. apply Rmult_le_reg_r with (bpow j); [exact B|]. unfold Rdiv. rewrite !Rmult_assoc, Rinv_l, Rmult_1_r by lra. rewrite Rmult_plus_distr_r, Rmult_assoc, Rinv_l by lra. lra. }
    assert (Y2 : y <= 2). { unfold y. apply Rmult_le_reg_r with (bpow j); [exact B|]. unfold Rdiv. rewrite !Rmult_assoc, Rinv_l, Rmult_1_r by lra. lra. }
    pose proof (ln_lower y ltac:(lra)) as Ly. assert (Y3 : bpow (-44) <= 1 - / y).
    { assert (Iy : / y <= 1 - bpow (-44)); [|lra]. apply Rmult_le_reg_r with y; [lra|]. rewrite Rinv_l by lra. rewrite E44. nra. }
    assert (bpow (-44) <= ln y / ln 2); [|lra]. apply Rle_trans with (ln y); [lra|]. apply Rmult_le_reg_r with (ln 2); [exact G0|]. unfold Rdiv. rewrite Rmult_assoc, Rinv_l by lra. pose proof (bpow_pos (-44)). nra.
  - replace (IZR j + 1) with (IZR (j + 1)) by (now rewrite plus_IZR). rewrite (log2_quot x (j + 1)) by (lra || lia). assert (B2 : bpow (j + 1) = 2 * bpow j) by (rewrite bpow_add, bpow_1; ring). rewrite B2.
    set (y := x / (2 * bpow j)). assert (Y : y <= 1 - / 4 * / bpow j). { unfold y. apply Rmult_le_reg_r with (2 * bpow j); [lra|]. unfold Rdiv. rewrite !Rmult_assoc, Rinv_l, Rmult_1_r by lra. replace ((1 - / 4 * / bpow j) * (2 * bpow j)) with (2 * bpow j - / 2) by (field; lra). lra. }
    assert (Y0 : 0 < y) by (unfold y; apply Rdiv_lt_0_compat; lra). pose proof (ln_upper y Y0) as Ly. assert (ln y <= - bpow (-44)) by lra.
    assert (ln y / ln 2 <= - bpow (-44)); [|lra]. apply Rmult_le_reg_r with (ln 2); [exact G0|]. unfold Rdiv. rewrite Rmult_assoc, Rinv_l by lra. pose proof (bpow_pos (-44)). nra.
Qed.
Lemma pos_rel y z : correct y z -> bpow (-600) <= z <= bpow 600 -> num y /\ Rabs (FR y - z) <= u53 * z.
Proof.
  intros C (L & U). pose proof (bpow_pos (-600)). assert (Fy : fin y = true). { destruct C as (_ & _ & C & _). apply C. rewrite Rabs_right by lra. eapply Rle_trans; [exact U|]. unfold fmaxR. pose proof (bpow_le 971 1023 ltac:(lia)). pose proof (bpow_le 600 1023 ltac:(lia)). replace (bpow 1024) with (2 * bpow 1023) by (change 1024%Z with (1 + 1023)%Z; rewrite bpow_add, bpow_1; ring). lra. }
  destruct C as (V & _ & _ & R & _). split; [split; assumption|]. destruct (R Fy) as [D|D]; [rewrite (Rabs_right z) in D by lra; exact D|]. eapply Rle_trans; [exact D|]. unfold eta, u53. apply Rle_trans with (bpow (-53) * bpow (-600)); [rewrite <- bpow_add; apply bpow_le; lia|]. apply Rmult_le_compat_l; [left; apply bpow_pos|exact L].
Qed.
Lemma levels_spec lg L m : good_log2 lg -> num L -> bpow (-430) <= FR L <= bpow 430 -> (2 <= m <= 2 ^ 40)%Z ->
  let r := fdiv (fmul fhalf L) (fofZ m) in let K := Z.log2_up (2 * m) in
  num r /\ 0 < FR r /\ Rabs (2 * IZR m * FR r - FR L) <= u53 * FR L /\ fceil (lg (fdiv L r)) = K /\ (2 <= K <= 41)%Z /\ (2 ^ (K - 1) < 2 * m <= 2 ^ K)%Z.
Proof.
  intros (G1 & G2) NL (L1 & L2) Hm r K. pose proof (Z.log2_up_spec (2 * m) ltac:(lia)) as Sp. fold K in Sp. rewrite <- Z.sub_1_r in Sp. pose proof u53_pos as U0. pose proof u53_small as U1. pose proof (bpow_pos (-430)) as B0.
  assert (HK : (2 <= K <= 41)%Z). { split; [apply (Z.log2_up_le_mono 4 (2 * m)); lia|change 41%Z with (Z.log2_up (2 * 2 ^ 40)); apply Z.log2_up_le_mono; lia]. }
  assert (Nh : num (fmul fhalf L) /\ FR (fmul fhalf L) = FR L * bpow (-1)).
  { destruct fhalf_num as (Fh & Vh), NL as (FL & VL). pose proof (fmul_spec fhalf L Fh FL Vh VL) as C. rewrite FR_half in C. replace (/ 2 * FR L) with (FR L * bpow (-1)) in C by (change (-1)%Z with (- (1))%Z; rewrite bpow_opp, bpow_1; lra).
    apply (exact_of _ _ C). apply repr_scale; [split; assumption| |lia]. eapply Rle_trans; [|exact L1]. apply bpow_le. lia. }
  destruct Nh as ((Fh & Vh) & Eh). destruct (fofZ_exact m) as ((Fm & Vm) & Em); [split; [lia|]; apply Z.le_lt_trans with (2 ^ 40)%Z; [lia|reflexivity]|].
  assert (M0 : 2 <= IZR m) by (apply IZR_le; lia). assert (M1 : IZR m <= bpow 40) by (rewrite bpow_Z by lia; apply IZR_le; lia).
  pose proof (fdiv_spec _ _ Fh Fm Vh Vm ltac:(lra)) as Cr. fold r in Cr. rewrite Eh, Em in Cr. set (v := FR L * bpow (-1) / IZR m) in *.
  assert (Ev : v = FR L * (bpow (-1) * / IZR m)) by (unfold v; field; lra). assert (B1 : bpow (-1) = / 2) by (change (-1)%Z with (- (1))%Z; rewrite bpow_opp, bpow_1; reflexivity).
  assert (V0 : 2 * IZR m * v = FR L) by (unfold v; rewrite B1; field; lra).
  assert (Vr : bpow (-471) <= v <= bpow 430).
  { split.
    - apply Rmult_le_reg_l with (2 * IZR m); [lra|]. rewrite V0. apply Rle_trans with (bpow 41 * bpow (-471)); [apply Rmult_le_compat_r; [left; apply bpow_pos|]; replace (bpow 41) with (2 * bpow 40) by (change 41%Z with (1 + 40)%Z; rewrite bpow_add, bpow_1; ring); lra|]. rewrite <- bpow_add. exact L1.
    - apply Rmult_le_reg_l with (2 * IZR m); [lra|]. rewrite V0. pose proof (bpow_pos 430). nra. }
  destruct (pos_rel _ _ Cr) as (Nr & Dr); [split; [eapply Rle_trans; [|apply Vr]; apply bpow_le; lia|eapply Rle_trans; [apply Vr|]; apply bpow_le; lia]|]. pose proof (bpow_pos (-471)) as B2.
  assert (Uv : 0 < u53 * v <= / 1000000000000000 * v) by (split; [nra|apply Rmult_le_compat_r; lra]). pose proof Dr as Dr'. apply Rabs_iff in Dr'. assert (R0 : 0 < FR r) by lra.
  split; [exact Nr|]. split; [exact R0|]. split; [rewrite <- V0 at 1; replace (2 * IZR m * FR r - 2 * IZR m * v) with (2 * IZR m * (FR r - v)) by ring; rewrite Rabs_mult, (Rabs_right (2 * IZR m)) by lra; rewrite <- V0; replace (u53 * (2 * IZR m * v)) with (2 * IZR m * (u53 * v)) by ring; apply Rmult_le_compat_l; lra|].
  split; [|split; [exact HK|exact Sp]]. destruct NL as (FL & VL), Nr as (Fr & Vr').
  pose proof (fdiv_spec L r FL Fr VL Vr' ltac:(lra)) as Cq. set (q := fdiv L r) in *. set (t := FR L / FR r) in *. assert (T0 : t * FR r = FR L) by (unfold t; field; lra).
  assert (Tm : Rabs (t - 2 * IZR m) <= / 8 * IZR m * / bpow 40).
  { assert (X : (t - 2 * IZR m) * FR r = 2 * IZR m * (v - FR r)) by (rewrite Rmult_minus_distr_r, T0, <- V0; ring).
    assert (Y : Rabs (t - 2 * IZR m) * FR r <= 2 * IZR m * (u53 * v)). { rewrite <- (Rabs_right (FR r)) at 1 by lra. rewrite <- Rabs_mult, X, Rabs_mult, (Rabs_right (2 * IZR m)) by lra. apply Rmult_le_compat_l; [lra|]. now rewrite Rabs_minus_sym. }
    apply Rmult_le_reg_r with (FR r); [exact R0|]. eapply Rle_trans; [exact Y|]. assert (E : u53 * 8192 = / bpow 40) by (unfold u53; change 8192 with (IZR (2 ^ 13)); rewrite <- bpow_Z, <- bpow_add, <- bpow_opp by lia; reflexivity).
    rewrite <- E. replace (/ 8 * IZR m * (u53 * 8192) * FR r) with (IZR m * (1024 * (u53 * FR r))) by field. replace (2 * IZR m * (u53 * v)) with (IZR m * (2 * (u53 * v))) by ring. apply Rmult_le_compat_l; [lra|]. assert (u53 * v <= 2 * (u53 * FR r)) by nra. nra. }
  assert (T1 : Rabs (t - 2 * IZR m) <= / 8). { eapply Rle_trans; [exact Tm|]. pose proof (bpow_pos 40). apply Rmult_le_reg_r with (bpow 40); [lra|]. rewrite Rmult_assoc, Rinv_l by lra. lra. }
  apply Rabs_iff in T1. assert (B41 : 2 * bpow 40 = bpow 41) by (change 41%Z with (1 + 40)%Z; rewrite bpow_add, bpow_1; ring). assert (B42 : bpow 42 = 2 * bpow 41) by (change 42%Z with (1 + 41)%Z; rewrite bpow_add, bpow_1; ring). assert (B3 : 1 <= bpow 41) by (replace 1 with (bpow 0) by reflexivity; apply bpow_le; lia).
  assert (Tb : 3 <= t <= bpow 42) by lra.
  destruct (pos_rel _ _ Cq) as (Nq & Dq); [split; [apply Rle_trans with (bpow 0); [apply bpow_le; lia|unfold bpow; cbn [powerRZ]; lra]|eapply Rle_trans; [apply Tb|apply bpow_le; lia]]|].
  assert (Dq' : Rabs (FR q - t) <= / 8). { eapply Rle_trans; [exact Dq|]. apply Rle_trans with (u53 * bpow 42); [apply Rmult_le_compat_l; lra|]. unfold u53. rewrite <- bpow_add. apply Rle_trans with (bpow (-3)); [apply bpow_le; lia|]. change (-3)%Z with (- (3))%Z. rewrite bpow_opp, bpow_Z by lia. change (2 ^ 3)%Z with 8%Z. lra. }
  apply Rabs_iff in Dq'. destruct (Z.eq_dec (2 * m) (2 ^ K)) as [Ep|Np].
  - assert (Ek : 2 * IZR m = bpow K) by (rewrite bpow_Z, <- Ep, mult_IZR by lia; reflexivity). assert (Evk : v = FR L * bpow (- K)). { rewrite bpow_opp, <- Ek. unfold v. rewrite B1. field. lra. }
    destruct (exact_of _ _ Cr) as (_ & Er). { rewrite Evk. apply repr_scale; [split; assumption| |lia]. eapply Rle_trans; [|exact L1]. apply bpow_le. lia. }
    assert (Et : t = bpow K) by (unfold t; rewrite Er, <- V0, Ek; field; lra). destruct (exact_of _ _ Cq) as (_ & Eq).
    { rewrite Et. destruct (repr_int 1 K ltac:(lia) ltac:(lia)) as (x & Nx & Ex). exists x. split; [exact Nx|]. rewrite Ex. ring. }
    destruct (G2 q K Nq ltac:(lia)) as (Nl & El); [rewrite Eq; exact Et|]. apply fceil_spec; [exact Nl|]. rewrite El. lra.
  - assert (Hj : (0 <= K - 1 <= 42)%Z) by lia. assert (I1 : bpow (K - 1) + 1 <= 2 * IZR m) by (rewrite bpow_Z by lia; rewrite <- mult_IZR, <- plus_IZR; apply IZR_le; lia).
    assert (I2 : 2 * IZR m <= 2 * bpow (K - 1) - 1). { replace (2 * bpow (K - 1)) with (bpow K) by (replace K with (1 + (K - 1))%Z at 1 by lia; rewrite bpow_add, bpow_1; ring). rewrite bpow_Z by lia. rewrite <- mult_IZR, <- minus_IZR. apply IZR_le. lia. }
    destruct (log2_between (FR q) (K - 1) Hj ltac:(lra) ltac:(lra)) as (Q1 & Q2). destruct (G1 q Nq) as (Nl & Dl); [split; [lra|]; apply Rle_trans with (2 * bpow 42); [lra|]; replace (2 * bpow 42) with (bpow 43) by (change 43%Z with (1 + 42)%Z; rewrite bpow_add, bpow_1; ring); apply bpow_le; lia|].
    apply Rabs_iff in Dl. apply fceil_spec; [exact Nl|]. rewrite minus_IZR in Q1, Q2. assert (bpow (-45) < bpow (-44)) by (apply bpow_lt; lia). lra.
Qed.
