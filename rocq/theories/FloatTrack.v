(** The binary64 program follows the real-number model: one rule per shape and operation. *)
From Coq Require Import List Bool ZArith Lia Reals Lra Psatz Floats.SpecFloat.
From Verif Require Import Prelude Vec BoxModel MatrixModel PropsMatrix SdfModel SdfLemmas PrimModel PrimCores Trig Grades GradesSweep Distance PropsLip
  FloatBoolModel PropsFloatBool FloatRound FloatShapeModel FloatNear PropsFloatSign.
Import ListNotations.
Local Open Scope R_scope.

(** ** Scales *)
Definition scale_ok (S : R) : Prop := bpow (-400) <= S <= bpow 400.
Lemma scale_facts S : scale_ok S -> 0 < S /\ 0 < u53 * S /\ eta <= u53 * S /\ 1000000 * S <= fmaxR /\ u53 * S <= / 1000000000000000 * S.
Proof.
  intros (A & B). pose proof (bpow_pos (-400)). pose proof u53_pos. pose proof u53_small. split; [lra|]. split; [nra|]. split; [|split; [|nra]].
  - unfold eta, u53. apply Rle_trans with (bpow (-53) * bpow (-400)); [rewrite <- bpow_add; apply bpow_le; lia|]. apply Rmult_le_compat_l; [pose proof (bpow_pos (-53)); lra|lra].
  - unfold fmaxR. assert (1000000 <= bpow 20) by (rewrite bpow_Z by lia; apply IZR_le; cbn; lia).
    assert (E : bpow 20 * bpow 400 = bpow 420) by (rewrite <- bpow_add; reflexivity). pose proof (bpow_pos 400).
    pose proof (bpow_le 420 971 ltac:(lia)). replace (bpow 1024) with (bpow 53 * bpow 971) by (rewrite <- bpow_add; reflexivity).
    assert (4 <= bpow 53) by (rewrite bpow_Z by lia; apply IZR_le; cbn; lia).
    assert (1000000 * S <= bpow 20 * bpow 400) by (apply Rmult_le_compat; lra). pose proof (bpow_pos 971). assert (4 * bpow 971 <= bpow 53 * bpow 971) by (apply Rmult_le_compat_r; lra). lra.
Qed.

(** ** Norms *)
Lemma hypot_dev a b c d : Rabs (hypot a b - hypot c d) <= Rabs (a - c) + Rabs (b - d).
Proof.
  assert (T : forall a b c d, hypot a b <= hypot c d + (Rabs (a - c) + Rabs (b - d))).
  { clear. intros a b c d. pose proof (hypot_nonneg a b) as N1. pose proof (hypot_nonneg c d) as N2. pose proof (hypot_sq a b) as Q1. pose proof (hypot_sq c d) as Q2.
    destruct (hypot_ge c d) as (G1 & G2). pose proof (Rabs_pos (a - c)). pose proof (Rabs_pos (b - d)).
    pose proof (Rsqr_abs (a - c)) as E1. pose proof (Rsqr_abs (b - d)) as E2. unfold Rsqr in E1, E2.
    assert (P1 : (a - c) * c <= Rabs (a - c) * hypot c d). { pose proof (Rle_abs ((a - c) * c)). rewrite Rabs_mult in *. nra. }
    assert (P2 : (b - d) * d <= Rabs (b - d) * hypot c d). { pose proof (Rle_abs ((b - d) * d)). rewrite Rabs_mult in *. nra. }
    set (h := hypot a b) in *. set (k := hypot c d) in *. set (x := Rabs (a - c)) in *. set (y := Rabs (b - d)) in *. clearbody h k x y.
    assert (h * h <= (k + (x + y)) * (k + (x + y))) by nra. nra. }
  apply Rabs_iff. pose proof (T a b c d). pose proof (T c d a b). rewrite (Rabs_minus_sym c), (Rabs_minus_sym d) in *. lra.
Qed.
Lemma near_hyp x y a b Ea Eb M : fnear x a Ea -> fnear y b Eb -> Rabs a + Ea <= M -> Rabs b + Eb <= M -> 4 * M <= fmaxR ->
  fnear (ghyp x y) (hypot a b) (6 * u53 * M + eta + (Ea + Eb)).
Proof.
  intros H1 H2 A B M4. pose proof (near_mag _ _ _ H1). pose proof (near_mag _ _ _ H2). destruct H1 as (F1 & V1 & D1), H2 as (F2 & V2 & D2).
  destruct (ghyp_near x y M F1 F2 V1 V2 ltac:(lra) ltac:(lra) M4) as (N & _). eapply near_shift; [exact N|]. eapply Rle_trans; [apply hypot_dev|]. lra.
Qed.
Lemma norm3_hypot a b c : norm3 (V3 a b c) = hypot a (hypot b c).
Proof. unfold norm3, norm3sq, dot3. cbn [x3 y3 z3]. unfold hypot at 1. rewrite hypot_sq. f_equal. ring. Qed.
Lemma norm3_bound p M : Rabs (x3 p) <= M -> Rabs (y3 p) <= M -> Rabs (z3 p) <= M -> norm3 p <= 2 * M.
Proof.
  intros A B C. pose proof (Rabs_pos (x3 p)). unfold norm3. rewrite <- (sqrt_square (2 * M)) by lra. apply sqrt_le_1_alt. unfold norm3sq, dot3.
  apply Rabs_iff in A, B, C. nra.
Qed.
Lemma norm3_pos' p : 0 <= norm3 p.
Proof. apply sqrt_pos. Qed.

(** ** The box functions depend on the differences only, and are 1-Lipschitz in them *)
Definition bx3 (d : v3) : R :=
  if Rltb 0 (x3 d) && Rltb 0 (y3 d) && Rltb 0 (z3 d) then norm3 d
  else if Rltb 0 (x3 d) && Rltb 0 (y3 d) then hypot (x3 d) (y3 d)
  else if Rltb 0 (x3 d) && Rltb 0 (z3 d) then hypot (x3 d) (z3 d)
  else if Rltb 0 (y3 d) && Rltb 0 (z3 d) then hypot (y3 d) (z3 d)
  else if Rltb 0 (x3 d) then x3 d
  else if Rltb 0 (y3 d) then y3 d
  else if Rltb 0 (z3 d) then z3 d
  else Rmax (z3 d) (Rmax (x3 d) (y3 d)).
Lemma bx3_lip d e : Rabs (bx3 d - bx3 e) <= dist3 d e.
Proof.
  set (K := Rabs (x3 d) + Rabs (y3 d) + Rabs (z3 d) + Rabs (x3 e) + Rabs (y3 e) + Rabs (z3 e)).
  pose proof (Rabs_pos (x3 d)). pose proof (Rabs_pos (y3 d)). pose proof (Rabs_pos (z3 d)). pose proof (Rabs_pos (x3 e)). pose proof (Rabs_pos (y3 e)). pose proof (Rabs_pos (z3 e)).
  assert (K0 : 0 <= K) by (unfold K; lra).
  assert (E : forall w, Rabs (x3 w) <= K -> Rabs (y3 w) <= K -> Rabs (z3 w) <= K -> bx3 w = sdf_box3d (add3 w (V3 K K K)) (V3 K K K)).
  { intros w A B C. unfold sdf_box3d. replace (sub3 (abs_elem3 (add3 w (V3 K K K))) (V3 K K K)) with w; [reflexivity|].
    apply Rabs_iff in A, B, C. apply v3_ext; cbn; rewrite Rabs_right by lra; ring. }
  rewrite !E by (unfold K; lra).
  pose proof (core_cuboid (V3 K K K) K0 K0 K0) as Co.
  assert (L : lip3 (fun p => sdf_box3d p (V3 K K K))).
  { intros p q. assert (G : forall p, sdist dist3 (Distance.rounded dist3 (cuboid (V3 K K K)) 0) p (sdf_box3d p (V3 K K K) - 0)) by (intros p'; apply (core_round3 _ _ 0 p' Co); lra).
    pose proof (sdist_lip3 _ _ G p q) as H'. cbn beta in H'. rewrite !Rminus_0_r in H'. exact H'. }
  pose proof (L (add3 d (V3 K K K)) (add3 e (V3 K K K))) as H'. cbn beta in H'. eapply Rle_trans; [exact H'|]. right. unfold dist3. f_equal. apply v3_ext; cbn; ring.
Qed.
Lemma bx3_box p s : sdf_box3d p s = bx3 (sub3 (abs_elem3 p) s).
Proof. reflexivity. Qed.
Lemma quad_box p s : sdf_box2d p s = quad (Rabs (x2 p) - x2 s) (Rabs (y2 p) - y2 s).
Proof.
  unfold sdf_box2d, quad. cbn [abs_elem2 sub2 x2 y2]. rewrite norm2_hypot. cbn [x2 y2].
  set (a := Rabs (x2 p)). set (b := Rabs (y2 p)).
  assert (H0 : forall t, 0 <= t -> hypot 0 t = t) by (intros t T; unfold hypot; replace (0 * 0 + t * t) with (t * t) by ring; now apply sqrt_square).
  destruct (Rltb 0 (a - x2 s)) eqn:E1; destruct (Rltb 0 (b - y2 s)) eqn:E2; cbn [andb]; rewrite ?Rltb_true, ?Rltb_false in *.
  - destruct (Rltb (a - x2 s) 0) eqn:E3; [apply Rltb_true in E3; lra|reflexivity].
  - destruct (Rltb (a - x2 s) 0) eqn:E3; [apply Rltb_true in E3; lra|]. destruct (Rltb (y2 s - x2 s) (b - a)) eqn:E4; [apply Rltb_true in E4; lra|reflexivity].
  - destruct (Rltb (y2 s - x2 s) (b - a)) eqn:E4; [apply Rltb_true in E4|apply Rltb_false in E4; lra].
    destruct (Rltb (a - x2 s) 0) eqn:E3; [reflexivity|]. apply Rltb_false in E3. replace (a - x2 s) with 0 by lra. rewrite H0; lra.
  - destruct (Rltb (y2 s - x2 s) (b - a)) eqn:E4; [apply Rltb_true in E4|apply Rltb_false in E4]; (destruct (Rltb (a - x2 s) 0) eqn:E3; [|apply Rltb_false in E3]).
    + rewrite Rmax_right; lra.
    + lra.
    + rewrite Rmax_left; lra.
    + reflexivity.
Qed.
Lemma quad_bound a b M : Rabs a <= M -> Rabs b <= M -> Rabs (quad a b) <= 2 * M.
Proof.
  intros A B. pose proof (Rabs_pos a). pose proof (hypot_le a b M A B). pose proof (hypot_nonneg a b). unfold quad. apply Rabs_iff in A, B. apply Rabs_iff.
  destruct (Rltb 0 b), (Rltb a 0); try lra. unfold Rmax; destruct (Rle_dec _ _); lra.
Qed.
Lemma bx3_bound d M : Rabs (x3 d) <= M -> Rabs (y3 d) <= M -> Rabs (z3 d) <= M -> Rabs (bx3 d) <= 2 * M.
Proof.
  intros A B C. pose proof (Rabs_pos (x3 d)). pose proof (norm3_bound d M A B C). pose proof (norm3_pos' d).
  pose proof (hypot_le _ _ M A B). pose proof (hypot_le _ _ M A C). pose proof (hypot_le _ _ M B C).
  pose proof (hypot_nonneg (x3 d) (y3 d)). pose proof (hypot_nonneg (x3 d) (z3 d)). pose proof (hypot_nonneg (y3 d) (z3 d)).
  unfold bx3. apply Rabs_iff in A, B, C. apply Rabs_iff.
  destruct (Rltb 0 (x3 d)), (Rltb 0 (y3 d)), (Rltb 0 (z3 d)); cbn [andb]; try lra. unfold Rmax; repeat destruct (Rle_dec _ _); lra.
Qed.

(** ** Points *)
Definition at3 (B : R) (p : fv3) : Prop :=
  valid3 p /\ fin3 p /\ Rabs (FR (f3x p)) <= B /\ Rabs (FR (f3y p)) <= B /\ Rabs (FR (f3z p)) <= B.
Definition num (x : spec_float) : Prop := fin x = true /\ valid x.
Definition at2 (B : R) (p : fv2) : Prop := num (f2x p) /\ num (f2y p) /\ Rabs (FR (f2x p)) <= B /\ Rabs (FR (f2y p)) <= B.
Definition FR2 (p : fv2) : v2 := V2 (FR (f2x p)) (FR (f2y p)).
Lemma num_near x : num x -> fnear x (FR x) 0.
Proof. intros (A & B). now apply near_exact. Qed.
Lemma gt_zero x : num x -> fgt x fzero = Rltb 0 (FR x).
Proof. intros (A & B). unfold fgt. apply Rltb_ltb. rewrite ltb_FR by (auto; reflexivity). reflexivity. Qed.
Lemma FR_half : FR fhalf = / 2.
Proof.
  unfold fhalf. rewrite FR_sg. cbn [sg]. change (Zpos 4503599627370496) with (2 ^ 52)%Z. rewrite <- bpow_Z, <- bpow_add by lia.
  change (52 + -53)%Z with (- (1))%Z. rewrite bpow_opp, bpow_1. reflexivity.
Qed.
Lemma near_half s S : num s -> Rabs (FR s) <= S -> scale_ok S -> fnear (fmul fhalf s) (FR s / 2) (2 * (u53 * S)).
Proof.
  intros (F & V) B K. destruct (scale_facts S K) as (S0 & W0 & Et & M & Sm). rewrite <- (Rmult_1_l (FR s / 2)). replace (1 * (FR s / 2)) with (FR fhalf * FR s) by (rewrite FR_half; field).
  eapply near_weak; [apply (correct_near _ (FR fhalf * FR s) _ 0 S)|].
  - apply fmul_spec; auto; reflexivity.
  - rewrite Rminus_diag_eq, Rabs_R0 by reflexivity. lra.
  - rewrite FR_half. apply Rabs_iff in B. assert (Rabs (/ 2 * FR s) <= S) by (apply Rabs_iff; lra). lra.
  - lra.
  - lra.
Qed.
Ltac abs_lra := repeat match goal with H : Rabs _ <= _ |- _ => apply Rabs_iff in H end; repeat match goal with |- context [Rabs ?a] => let H := fresh in pose proof (Rabs_iff a) as H; destruct (Rle_dec 0 a) as [?|?]; [rewrite (Rabs_right a) by lra|rewrite (Rabs_left a) by lra]; clear H end; lra.
Lemma near_diff x y a b Ea Eb c S : fnear x a Ea -> fnear y b Eb -> Rabs a + Rabs b + (Ea + Eb) <= c * S -> scale_ok S -> c <= 1000000 ->
  fnear (fsub x y) (a - b) (Ea + Eb + c * (u53 * S)).
Proof.
  intros H1 H2 B K C. destruct (scale_facts S K) as (S0 & W0 & Et & M & Sm). replace (c * (u53 * S)) with (u53 * (c * S)) by ring.
  apply near_sub; auto.
  - assert (Rabs (a - b) <= Rabs a + Rabs b) by (pose proof (Rabs_triang a (- b)); rewrite Rabs_Ropp in *; unfold Rminus; lra). lra.
  - nra.
Qed.

(** ** Boxes *)
Definition fbx3 (d : fv3) : spec_float :=
    if fgt (f3x d) fzero && fgt (f3y d) fzero && fgt (f3z d) fzero then gnrm3 d
    else if fgt (f3x d) fzero && fgt (f3y d) fzero then ghyp (f3x d) (f3y d)
    else if fgt (f3x d) fzero && fgt (f3z d) fzero then ghyp (f3x d) (f3z d)
    else if fgt (f3y d) fzero && fgt (f3z d) fzero then ghyp (f3y d) (f3z d)
    else if fgt (f3x d) fzero then f3x d
    else if fgt (f3y d) fzero then f3y d
    else if fgt (f3z d) fzero then f3z d
    else fmaxc3 d.
Lemma gnrm3_near d S : at3 S d -> scale_ok S -> fnear (gnrm3 d) (norm3 (FR3 d)) (26 * (u53 * S)).
Proof.
  intros ((U1 & U2 & U3) & (F1 & F2 & F3) & B1 & B2 & B3) K. destruct (scale_facts S K) as (S0 & W0 & Et & M & Sm).
  unfold gnrm3, FR3. rewrite norm3_hypot.
  assert (N : fnear (ghyp (f3y d) (f3z d)) (hypot (FR (f3y d)) (FR (f3z d))) (6 * u53 * S + eta + (0 + 0))) by (apply near_hyp; try (apply near_exact; auto); lra).
  pose proof (hypot_le _ _ S B2 B3) as L. pose proof (hypot_nonneg (FR (f3y d)) (FR (f3z d))) as L0.
  eapply near_weak; [eapply (near_hyp _ _ _ _ 0 _ (3 * S)); [now apply near_exact|exact N| | |]|]; try lra.
  rewrite Rabs_right by lra. lra.
Qed.
Lemma fbx3_near d S : at3 (4 * S) d -> scale_ok S -> fnear (fbx3 d) (bx3 (FR3 d)) (104 * (u53 * S)).
Proof.
  intros A K. destruct (scale_facts S K) as (S0 & W0 & Et & M & Sm). pose proof A as ((U1 & U2 & U3) & (F1 & F2 & F3) & B1 & B2 & B3).
  unfold fbx3, bx3. cbn [FR3 x3 y3 z3]. rewrite !gt_zero by (split; auto).
  assert (H : forall a b, num a -> num b -> Rabs (FR a) <= 4 * S -> Rabs (FR b) <= 4 * S -> fnear (ghyp a b) (hypot (FR a) (FR b)) (104 * (u53 * S))).
  { intros a b Na Nb Ba Bb. eapply near_weak; [eapply (near_hyp _ _ _ _ 0 0 (4 * S)); [now apply num_near|now apply num_near| | |]|]; lra. }
  assert (Q : forall a, num a -> fnear a (FR a) (104 * (u53 * S))) by (intros a Na; eapply near_weak; [now apply num_near|lra]).
  assert (N1 : num (f3x d)) by (split; auto). assert (N2 : num (f3y d)) by (split; auto). assert (N3 : num (f3z d)) by (split; auto).
  destruct (Rltb 0 (FR (f3x d))), (Rltb 0 (FR (f3y d))), (Rltb 0 (FR (f3z d))); cbn [andb]; auto.
  - unfold gnrm3, FR3. rewrite norm3_hypot. assert (N : fnear (ghyp (f3y d) (f3z d)) (hypot (FR (f3y d)) (FR (f3z d))) (6 * u53 * (4 * S) + eta + (0 + 0))) by (apply near_hyp; try (apply near_exact; auto); lra).
    pose proof (hypot_le _ _ (4 * S) B2 B3) as L. pose proof (hypot_nonneg (FR (f3y d)) (FR (f3z d))) as L0.
    eapply near_weak; [eapply (near_hyp _ _ _ _ 0 _ (9 * S)); [now apply near_exact|exact N| | |]|]; try lra. rewrite Rabs_right by lra. lra.
  - unfold fmaxc3. apply near_max; [now apply Q|]. apply near_max; now apply Q.
Qed.
Lemma dist3_dev a b D : Rabs (x3 a - x3 b) <= D -> Rabs (y3 a - y3 b) <= D -> Rabs (z3 a - z3 b) <= D -> dist3 a b <= 2 * D.
Proof. intros. unfold dist3. apply norm3_bound; assumption. Qed.
Lemma dist2_dev a b D E : Rabs (x2 a - x2 b) <= D -> Rabs (y2 a - y2 b) <= E -> dist2 a b <= D + E.
Proof.
  intros A B. unfold dist2. rewrite norm2_hypot. cbn [sub2 x2 y2]. pose proof (hypot_dev (x2 a - x2 b) (y2 a - y2 b) 0 0) as H.
  replace (hypot 0 0) with 0 in H by (unfold hypot; replace (0 * 0 + 0 * 0) with 0 by ring; now rewrite sqrt_0). rewrite !Rminus_0_r in H.
  pose proof (hypot_nonneg (x2 a - x2 b) (y2 a - y2 b)). rewrite Rabs_right in H by lra. lra.
Qed.
Lemma near_num x z E : fnear x z E -> num x.
Proof. intros (A & B & _). now split. Qed.
Lemma box3_near size round p S : at3 S p -> at3 S size -> num round -> Rabs (FR round) <= S -> scale_ok S ->
  fnear (fbox3 ghyp gnrm3 size round p) (sdf_box3d (FR3 p) (sub3 (scale3 (1/2) (FR3 size)) (elem3 (FR round))) - FR round) (130 * (u53 * S)) /\
  Rabs (sdf_box3d (FR3 p) (sub3 (scale3 (1/2) (FR3 size)) (elem3 (FR round))) - FR round) <= 6 * S.
Proof.
  intros ((U1 & U2 & U3) & (F1 & F2 & F3) & B1 & B2 & B3) ((U1' & U2' & U3') & (F1' & F2' & F3') & B1' & B2' & B3') (Fr & Vr) Br K.
  destruct (scale_facts S K) as (S0 & W0 & Et & M & Sm).
  assert (G : forall a s, num a -> num s -> Rabs (FR a) <= S -> Rabs (FR s) <= S ->
     fnear (fsub (SFabs a) (fsub (fmul fhalf s) round)) (Rabs (FR a) - (FR s / 2 - FR round)) (7 * (u53 * S)) /\ Rabs (Rabs (FR a) - (FR s / 2 - FR round)) <= 5 / 2 * S).
  { intros a s Na Ns Ba Bs. pose proof (near_half s S Ns Bs K) as N1.
    assert (Hs : Rabs (FR s / 2) <= S / 2) by (apply Rabs_iff in Bs; apply Rabs_iff; lra).
    assert (N2 : fnear (fsub (fmul fhalf s) round) (FR s / 2 - FR round) (2 * (u53 * S) + 0 + 2 * (u53 * S))) by (apply near_diff; auto; [now apply near_exact|lra|lra]).
    assert (Hd : Rabs (FR s / 2 - FR round) <= 3 / 2 * S) by (apply Rabs_iff in Hs, Br; apply Rabs_iff; lra). split.
    - eapply near_weak; [eapply (near_diff _ _ _ _ 0 _ 3 S); [apply near_abs; now apply num_near|exact N2| |auto|lra]|]; [rewrite Rabs_Rabsolu; lra|lra].
    - pose proof (Rabs_pos (FR a)). apply Rabs_iff in Hd. apply Rabs_iff. lra. }
  destruct (G (f3x p) (f3x size) (conj F1 U1) (conj F1' U1') B1 B1') as (N1 & L1). destruct (G (f3y p) (f3y size) (conj F2 U2) (conj F2' U2') B2 B2') as (N2 & L2). destruct (G (f3z p) (f3z size) (conj F3 U3) (conj F3' U3') B3 B3') as (N3 & L3).
  set (d := fsub3 (fabs3 p) (fsub3 (fscale3 fhalf size) (FV3 round round round))).
  set (D := sub3 (abs_elem3 (FR3 p)) (sub3 (scale3 (1 / 2) (FR3 size)) (elem3 (FR round)))).
  assert (ED : D = V3 (Rabs (FR (f3x p)) - (FR (f3x size) / 2 - FR round)) (Rabs (FR (f3y p)) - (FR (f3y size) / 2 - FR round)) (Rabs (FR (f3z p)) - (FR (f3z size) / 2 - FR round))).
  { apply v3_ext; cbn; field. }
  change (fbox3 ghyp gnrm3 size round p) with (fsub (fbx3 d) round). rewrite bx3_box. fold D.
  assert (Ad : at3 (4 * S) d).
  { pose proof (near_mag _ _ _ N1). pose proof (near_mag _ _ _ N2). pose proof (near_mag _ _ _ N3). destruct (near_num _ _ _ N1), (near_num _ _ _ N2), (near_num _ _ _ N3).
    split; [repeat split; assumption|]. split; [repeat split; assumption|]. unfold d. cbn [fsub3 fabs3 fscale3 f3x f3y f3z]. lra. }
  assert (Nb : fnear (fbx3 d) (bx3 D) (104 * (u53 * S) + 14 * (u53 * S))).
  { eapply near_shift; [apply fbx3_near; auto|]. eapply Rle_trans; [apply bx3_lip|]. replace (14 * (u53 * S)) with (2 * (7 * (u53 * S))) by ring.
    rewrite ED. destruct N1 as (_ & _ & N1), N2 as (_ & _ & N2), N3 as (_ & _ & N3). apply dist3_dev; cbn [x3 y3 z3 FR3]; assumption. }
  assert (Bb : Rabs (bx3 D) <= 5 * S). { replace (5 * S) with (2 * (5 / 2 * S)) by field. rewrite ED. apply bx3_bound; cbn [x3 y3 z3]; assumption. }
  split.
  - eapply near_weak; [eapply (near_diff _ _ _ _ _ 0 7 S); [exact Nb|now apply near_exact| |auto|lra]|]; lra.
  - apply Rabs_iff in Bb, Br. apply Rabs_iff. lra.
Qed.
Lemma sphere_near r p S : at3 S p -> num r -> Rabs (FR r) <= S -> scale_ok S ->
  fnear (fsphere gnrm3 r p) (norm3 (FR3 p) - FR r) (130 * (u53 * S)) /\ Rabs (norm3 (FR3 p) - FR r) <= 6 * S.
Proof.
  intros A N B K. destruct (scale_facts S K) as (S0 & W0 & Et & M & Sm). pose proof (gnrm3_near p S A K) as G.
  destruct A as (_ & _ & B1 & B2 & B3). pose proof (norm3_bound (FR3 p) S B1 B2 B3) as L. pose proof (norm3_pos' (FR3 p)) as L0. split.
  - unfold fsphere. eapply near_weak; [eapply (near_diff _ _ _ _ _ 0 4 S); [exact G|now apply num_near| |auto|lra]|]; [rewrite (Rabs_right (norm3 _)) by lra; lra|lra].
  - apply Rabs_iff in B. apply Rabs_iff. lra.
Qed.
Lemma quad_max a b : ~ (0 < a /\ 0 < b) -> quad a b = Rmax a b.
Proof.
  intros H. unfold quad. destruct (Rltb 0 b) eqn:E1, (Rltb a 0) eqn:E2; rewrite ?Rltb_true, ?Rltb_false in *.
  - rewrite Rmax_right; lra.
  - assert (a = 0) by (destruct (Rle_lt_dec a 0); [lra|exfalso; apply H; lra]). subst. unfold hypot. replace (0 * 0 + b * b) with (b * b) by ring. rewrite sqrt_square, Rmax_right; lra.
  - reflexivity.
  - rewrite Rmax_left; lra.
Qed.
Lemma gt_diff x y : num x -> num y -> fgt (fsub x y) fzero = Rltb 0 (FR x - FR y).
Proof.
  intros (A & B) (C & D). change (fgt (fsub x y) fzero) with (pos (fsub x y)). destruct (C98_difference x y B D) as (_ & -> & _).
  apply Rltb_ltb. rewrite ltb_FR by auto. lra.
Qed.
Lemma gnrm2_near a b Ea Eb c S : fnear a (FR a) Ea -> forall z1 z2 b', b' = b -> fnear a z1 Ea -> fnear b' z2 Eb -> Rabs z1 + Ea <= c * S -> Rabs z2 + Eb <= c * S -> scale_ok S -> c <= 1000 ->
  fnear (gnrm2 (FV2 a b)) (hypot z1 z2) ((6 * c + 1) * (u53 * S) + (Ea + Eb)).
Proof.
  intros _ z1 z2 b' -> H1 H2 B1 B2 K C. destruct (scale_facts S K) as (S0 & W0 & Et & M & Sm). unfold gnrm2. cbn [f2x f2y].
  eapply near_weak; [eapply (near_hyp _ _ _ _ Ea Eb (c * S)); eauto; nra|]. nra.
Qed.
Lemma box2d_near px py sx sy S : num px -> num py -> num sx -> num sy -> Rabs (FR px) <= 3 * S -> Rabs (FR py) <= 3 * S -> Rabs (FR sx) <= 3 * S -> Rabs (FR sy) <= 3 * S -> scale_ok S ->
  fnear (fsdf_box2d gnrm2 (FV2 px py) (FV2 sx sy)) (quad (Rabs (FR px) - FR sx) (Rabs (FR py) - FR sy)) (60 * (u53 * S)).
Proof.
  intros N1 N2 N3 N4 B1 B2 B3 B4 K. destruct (scale_facts S K) as (S0 & W0 & Et & M & Sm). unfold fsdf_box2d, fsub2, fabs2. cbn [f2x f2y].
  assert (A1 : num (SFabs px)) by (destruct N1; split; [now rewrite fin_abs|now apply abs_valid]). assert (A2 : num (SFabs py)) by (destruct N2; split; [now rewrite fin_abs|now apply abs_valid]).
  rewrite !gt_diff by auto. rewrite <- (FR_abs px), <- (FR_abs py) in *.
  assert (P1 : 0 <= FR (SFabs px)) by (rewrite FR_abs; apply Rabs_pos). assert (P2 : 0 <= FR (SFabs py)) by (rewrite FR_abs; apply Rabs_pos).
  set (qx := SFabs px) in *. set (qy := SFabs py) in *. clearbody qx qy. clear N1 N2 px py.
  apply num_near in A1, A2, N3, N4.
  assert (D1 : fnear (fsub qx sx) (FR qx - FR sx) (0 + 0 + 6 * (u53 * S))) by (apply near_diff; auto; try lra; rewrite (Rabs_right (FR qx)) by lra; lra).
  assert (D2 : fnear (fsub qy sy) (FR qy - FR sy) (0 + 0 + 6 * (u53 * S))) by (apply near_diff; auto; try lra; rewrite (Rabs_right (FR qy)) by lra; lra).
  assert (D3 : fnear (fsub qy qx) (FR qy - FR qx) (0 + 0 + 6 * (u53 * S))) by (apply near_diff; auto; try lra; rewrite (Rabs_right (FR qy)), (Rabs_right (FR qx)) by lra; lra).
  assert (D4 : fnear (fsub sy sx) (FR sy - FR sx) (0 + 0 + 6 * (u53 * S))) by (apply near_diff; auto; try lra).
  assert (M1 : Rabs (FR qx - FR sx) <= 6 * S) by (apply Rabs_iff in B3; apply Rabs_iff; lra). assert (M2 : Rabs (FR qy - FR sy) <= 6 * S) by (apply Rabs_iff in B4; apply Rabs_iff; lra).
  destruct (Rltb 0 (FR qx - FR sx) && Rltb 0 (FR qy - FR sy)) eqn:E.
  - apply andb_prop in E. destruct E as (E1 & E2). rewrite Rltb_true in *. unfold quad. destruct (Rltb 0 (FR qy - FR sy)) eqn:E3; [|apply Rltb_false in E3; lra].
    destruct (Rltb (FR qx - FR sx) 0) eqn:E4; [apply Rltb_true in E4; lra|]. unfold gnrm2. cbn [f2x f2y].
    eapply near_weak; [eapply (near_hyp _ _ _ _ _ _ (7 * S)); [exact D1|exact D2| | |]|]; lra.
  - rewrite quad_max. 2:{ intros (Q1 & Q2). apply Rltb_true in Q1, Q2. rewrite Q1, Q2 in E. discriminate. }
    destruct (near_num _ _ _ D3) as (F3 & V3'). destruct (near_num _ _ _ D4) as (F4 & V4').
    unfold fgt. destruct (SFltb (fsub sy sx) (fsub qy qx)) eqn:L.
    + apply ltb_FR in L; auto. destruct D3 as (_ & _ & D3), D4 as (_ & _ & D4). apply Rabs_iff in D3, D4.
      eapply near_weak; [eapply near_shift; [exact D2|]|]; [apply Rabs_iff; instantiate (1 := 12 * (u53 * S)); unfold Rmax; destruct (Rle_dec _ _); lra|lra].
    + assert (L' : FR (fsub qy qx) <= FR (fsub sy sx)). { destruct (Rle_lt_dec (FR (fsub qy qx)) (FR (fsub sy sx))) as [|Q]; auto. apply ltb_FR in Q; auto. congruence. }
      destruct D3 as (_ & _ & D3), D4 as (_ & _ & D4). apply Rabs_iff in D3, D4.
      eapply near_weak; [eapply near_shift; [exact D1|]|]; [apply Rabs_iff; instantiate (1 := 12 * (u53 * S)); unfold Rmax; destruct (Rle_dec _ _); lra|lra].
Qed.
Lemma quad_dev a b c d E F : Rabs (a - c) <= E -> Rabs (b - d) <= F -> Rabs (quad a b - quad c d) <= E + F.
Proof. intros A B. eapply Rle_trans; [apply (quad_lip (V2 a b) (V2 c d))|]. apply dist2_dev; assumption. Qed.
(** from computed arguments *)
Lemma box2d_near' px py sx sy a b c d E1 E2 E3 E4 S : fnear px a E1 -> fnear py b E2 -> fnear sx c E3 -> fnear sy d E4 ->
  Rabs a + E1 <= 3 * S -> Rabs b + E2 <= 3 * S -> Rabs c + E3 <= 3 * S -> Rabs d + E4 <= 3 * S -> scale_ok S ->
  fnear (fsdf_box2d gnrm2 (FV2 px py) (FV2 sx sy)) (quad (Rabs a - c) (Rabs b - d)) (60 * (u53 * S) + (E1 + E3 + (E2 + E4))).
Proof.
  intros N1 N2 N3 N4 B1 B2 B3 B4 K. pose proof (near_mag _ _ _ N1). pose proof (near_mag _ _ _ N2). pose proof (near_mag _ _ _ N3). pose proof (near_mag _ _ _ N4).
  eapply near_shift; [apply box2d_near; try (eapply near_num; eassumption); auto; lra|].
  destruct N1 as (_ & _ & N1), N2 as (_ & _ & N2), N3 as (_ & _ & N3), N4 as (_ & _ & N4).
  apply quad_dev.
  - pose proof (Rabs_triang_inv2 (FR px) a) as T. assert (T' : Rabs (Rabs (FR px) - Rabs a) <= E1) by lra. apply Rabs_iff in T', N3. apply Rabs_iff. lra.
  - pose proof (Rabs_triang_inv2 (FR py) b) as T. assert (T' : Rabs (Rabs (FR py) - Rabs b) <= E2) by lra. apply Rabs_iff in T', N4. apply Rabs_iff. lra.
Qed.
Lemma cylinder_near height radius round p S : at3 S p -> num height -> num radius -> num round ->
  Rabs (FR height) <= S -> Rabs (FR radius) <= S -> Rabs (FR round) <= S -> scale_ok S ->
  let v := sdf_box2d (V2 (hypot (x3 (FR3 p)) (y3 (FR3 p))) (z3 (FR3 p))) (V2 (FR radius - FR round) (FR height / 2 - FR round)) - FR round in
  fnear (fcylinder ghyp gnrm2 height radius round p) v (130 * (u53 * S)) /\ Rabs v <= 9 * S.
Proof.
  intros ((U1 & U2 & U3) & (F1 & F2 & F3) & B1 & B2 & B3) Nh Nr No Bh Br Bo K. destruct (scale_facts S K) as (S0 & W0 & Et & M & Sm). cbn zeta. rewrite quad_box. cbn [x2 y2 FR3 x3 y3 z3].
  assert (H1 : fnear (ghyp (f3x p) (f3y p)) (hypot (FR (f3x p)) (FR (f3y p))) (6 * u53 * S + eta + (0 + 0))) by (apply near_hyp; try (apply near_exact; auto); lra).
  pose proof (hypot_le _ _ S B1 B2) as L. pose proof (hypot_nonneg (FR (f3x p)) (FR (f3y p))) as L0.
  assert (H2 : fnear (fsub radius round) (FR radius - FR round) (0 + 0 + 2 * (u53 * S))) by (apply near_diff; auto; try (now apply num_near); lra).
  pose proof (near_half height S Nh Bh K) as Hh. assert (Hs : Rabs (FR height / 2) <= S / 2) by (apply Rabs_iff in Bh; apply Rabs_iff; lra).
  assert (H3 : fnear (fsub (fmul fhalf height) round) (FR height / 2 - FR round) (2 * (u53 * S) + 0 + 2 * (u53 * S))) by (apply near_diff; auto; [now apply num_near|lra|lra]).
  assert (G2 : Rabs (FR radius - FR round) <= 2 * S) by (apply Rabs_iff in Br, Bo; apply Rabs_iff; lra).
  assert (G3 : Rabs (FR height / 2 - FR round) <= 3 / 2 * S) by (apply Rabs_iff in Hs, Bo; apply Rabs_iff; lra).
  assert (Nz : fnear (f3z p) (FR (f3z p)) 0) by now apply near_exact.
  assert (Q : fnear (fsdf_box2d gnrm2 (FV2 (ghyp (f3x p) (f3y p)) (f3z p)) (FV2 (fsub radius round) (fsub (fmul fhalf height) round)))
     (quad (Rabs (hypot (FR (f3x p)) (FR (f3y p))) - (FR radius - FR round)) (Rabs (FR (f3z p)) - (FR height / 2 - FR round))) (80 * (u53 * S))).
  { eapply near_weak; [eapply box2d_near'; [exact H1|exact Nz|exact H2|exact H3| | | | |exact K]|]; try lra. rewrite Rabs_right by lra. lra. }
  set (v := quad _ _) in *. assert (Bv : Rabs v <= 8 * S).
  { replace (8 * S) with (2 * (4 * S)) by ring. apply quad_bound; apply Rabs_iff; pose proof (Rabs_pos (FR (f3z p))); rewrite ?(Rabs_right (hypot _ _)) by lra; apply Rabs_iff in G2, G3; lra. }
  clearbody v. split.
  - unfold fcylinder. eapply near_weak; [eapply (near_diff _ _ _ _ _ 0 10 S); [exact Q|now apply num_near| |auto|lra]|]; lra.
  - apply Rabs_iff in Bv, Bo. apply Rabs_iff. lra.
Qed.
Lemma circle_near r p S : at2 S p -> num r -> Rabs (FR r) <= S -> scale_ok S ->
  fnear (fcircle gnrm2 r p) (norm2 (FR2 p) - FR r) (130 * (u53 * S)) /\ Rabs (norm2 (FR2 p) - FR r) <= 9 * S.
Proof.
  intros (N1 & N2 & B1 & B2) N B K. destruct (scale_facts S K) as (S0 & W0 & Et & M & Sm). rewrite norm2_hypot. cbn [FR2 x2 y2].
  assert (H1 : fnear (gnrm2 p) (hypot (FR (f2x p)) (FR (f2y p))) (6 * u53 * S + eta + (0 + 0))) by (apply near_hyp; try (now apply num_near); lra).
  pose proof (hypot_le _ _ S B1 B2) as L. pose proof (hypot_nonneg (FR (f2x p)) (FR (f2y p))) as L0. split.
  - unfold fcircle. eapply near_weak; [eapply (near_diff _ _ _ _ _ 0 4 S); [exact H1|now apply num_near| |auto|lra]|]; [rewrite (Rabs_right (hypot _ _)) by lra; lra|lra].
  - apply Rabs_iff in B. apply Rabs_iff. lra.
Qed.
Lemma box2_near size round p S : at2 S p -> at2 S size -> num round -> Rabs (FR round) <= S -> scale_ok S ->
  let v := sdf_box2d (FR2 p) (sub2 (scale2 (1/2) (FR2 size)) (elem2 (FR round))) - FR round in
  fnear (fbox2 gnrm2 size round p) v (130 * (u53 * S)) /\ Rabs v <= 9 * S.
Proof.
  intros (N1 & N2 & B1 & B2) (M1 & M2 & C1 & C2) No Bo K. destruct (scale_facts S K) as (S0 & W0 & Et & M & Sm). cbn zeta. rewrite quad_box. cbn [FR2 x2 y2 sub2 scale2 elem2].
  replace (1 / 2 * FR (f2x size)) with (FR (f2x size) / 2) by field. replace (1 / 2 * FR (f2y size)) with (FR (f2y size) / 2) by field.
  assert (G : forall s, num s -> Rabs (FR s) <= S -> fnear (fsub (fmul fhalf s) round) (FR s / 2 - FR round) (4 * (u53 * S)) /\ Rabs (FR s / 2 - FR round) <= 3 / 2 * S).
  { intros s Ns Bs. pose proof (near_half s S Ns Bs K) as Hh. assert (Hs : Rabs (FR s / 2) <= S / 2) by (apply Rabs_iff in Bs; apply Rabs_iff; lra). split.
    - eapply near_weak; [eapply (near_diff _ _ _ _ _ 0 2 S); [exact Hh|now apply num_near| |auto|lra]|]; lra.
    - apply Rabs_iff in Hs, Bo. apply Rabs_iff. lra. }
  destruct (G _ M1 C1) as (G1 & G1'). destruct (G _ M2 C2) as (G2 & G2').
  assert (Q : fnear (fsdf_box2d gnrm2 p (fsub2 (fscale2 fhalf size) (FV2 round round))) (quad (Rabs (FR (f2x p)) - (FR (f2x size) / 2 - FR round)) (Rabs (FR (f2y p)) - (FR (f2y size) / 2 - FR round))) (68 * (u53 * S))).
  { destruct p as [px py]. eapply near_weak; [eapply box2d_near'; [apply num_near; exact N1|apply num_near; exact N2|exact G1|exact G2| | | | |exact K]|]; cbn [f2x f2y] in *; lra. }
  set (v := quad _ _) in *. assert (Bv : Rabs v <= 8 * S).
  { replace (8 * S) with (2 * (4 * S)) by ring. pose proof (Rabs_pos (FR (f2x p))). pose proof (Rabs_pos (FR (f2y p))). apply Rabs_iff in G1', G2'. apply quad_bound; apply Rabs_iff; lra. }
  clearbody v. split.
  - unfold fbox2. eapply near_weak; [eapply (near_diff _ _ _ _ _ 0 10 S); [exact Q|now apply num_near| |auto|lra]|]; lra.
  - apply Rabs_iff in Bv, Bo. apply Rabs_iff. lra.
Qed.
