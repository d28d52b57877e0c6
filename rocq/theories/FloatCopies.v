(** How far float64 Evaluate can be from the real-number Evaluate: revolutions and arrays. *)
From Coq Require Import List Bool ZArith Lia Floats.SpecFloat Reals Lra Psatz.
From Verif Require Import Prelude Vec BoxModel MatrixModel SdfModel PrimModel Distance Trig PropsMatrix PropsBool PropsTransform PropsLip SdfLemmas FloatBoolModel FloatRound FloatShapeModel FloatNear PropsFloatSign FloatTrack FloatInv FloatRules.
Import ListNotations.
Local Open Scope R_scope.

(** the radius of a full revolution *)
Lemma radius_near x y B : num x -> num y -> hypot (FR x) (FR y) <= B -> scale_ok B ->
  fnear (fsqrt (fadd (fmul x x) (fmul y y))) (hypot (FR x) (FR y)) (7 * (u53 * B)).
Proof.
  intros (Fx & Vx) (Fy & Vy) Bd K. destruct (scale_facts B K) as (S0 & W0 & Et & M & Sm). pose proof u53_pos as U0. pose proof u53_small as U1. pose proof eta_pos as H0.
  set (r := hypot (FR x) (FR y)) in *. assert (R0 : 0 <= r) by apply hypot_nonneg. assert (Rq : r * r = FR x * FR x + FR y * FR y) by apply hypot_sq. clearbody r.
  set (a := FR x * FR x) in *. set (b := FR y * FR y) in *. assert (A0 : 0 <= a) by (unfold a; nra). assert (B0 : 0 <= b) by (unfold b; nra).
  assert (Big : 100 * (B * B) <= fmaxR).
  { destruct K as (_ & K). set (c := bpow 400) in *; apply Rle_trans with (100 * (c * c)); [assert (B * B <= c * c) by (apply Rmult_le_compat; lra); lra|clear K; subst c]. rewrite <- bpow_add. apply Rle_trans with (bpow 900).
    - replace (bpow 900) with (bpow 100 * bpow (400 + 400)) by (rewrite <- bpow_add; reflexivity). apply Rmult_le_compat_r; [left; apply bpow_pos|]. rewrite bpow_Z by lia. apply IZR_le. cbn. lia.
    - unfold fmaxR. pose proof (bpow_le 971 1023 ltac:(lia)). pose proof (bpow_le 900 1023 ltac:(lia)). replace (bpow 1024) with (2 * bpow 1023) by (change 1024%Z with (1 + 1023)%Z; rewrite bpow_add, bpow_1; ring). lra. }
  assert (Rb : r * r <= B * B) by (apply Rmult_le_compat; lra).
  assert (N1 : fnear (fmul x x) a (u53 * a + eta)). { eapply near_weak; [apply (correct_near _ a a 0 a (fmul_spec x x Fx Fx Vx Vx))|]; try lra; [rewrite Rminus_diag_eq, Rabs_R0 by reflexivity; lra|rewrite Rabs_right; lra]. }
  assert (N2 : fnear (fmul y y) b (u53 * b + eta)). { eapply near_weak; [apply (correct_near _ b b 0 b (fmul_spec y y Fy Fy Vy Vy))|]; try lra; [rewrite Rminus_diag_eq, Rabs_R0 by reflexivity; lra|rewrite Rabs_right; lra]. }
  pose proof (near_num _ _ _ N1) as (G1 & W1). pose proof (near_num _ _ _ N2) as (G2 & W2).
  assert (P1 : 0 <= FR (fmul x x)) by (destruct (correct_ge _ _ fzero (fmul_spec x x Fx Fx Vx Vx) eq_refl eq_refl) as (Q & _); [exact A0|apply Q; exact G1]).
  assert (P2 : 0 <= FR (fmul y y)) by (destruct (correct_ge _ _ fzero (fmul_spec y y Fy Fy Vy Vy) eq_refl eq_refl) as (Q & _); [exact B0|apply Q; exact G2]).
  assert (Eu : 3 * eta <= (u53 * B) * (u53 * B)).
  { destruct K as (K & _). apply Rle_trans with ((u53 * bpow (-400)) * (u53 * bpow (-400))); [|apply Rmult_le_compat; try (apply Rmult_le_pos; [lra|left; apply bpow_pos]); apply Rmult_le_compat_l; lra].
    unfold u53, eta. rewrite <- !bpow_add. apply Rle_trans with (bpow 2 * bpow (-1075)); [apply Rmult_le_compat_r; [left; apply bpow_pos|change 2%Z with (1 + 1)%Z; rewrite bpow_add, bpow_1; lra]|]. rewrite <- bpow_add. apply bpow_le. lia. }
  assert (Et' : 3 * eta <= B * B) by nra.
  assert (Uu : u53 * (a + b) <= / 1000000 * (B * B)) by (rewrite <- Rq; nra).
  assert (N3 : fnear (fadd (fmul x x) (fmul y y)) (a + b) (5 / 2 * (u53 * (r * r)) + 3 * eta)).
  { rewrite Rq. eapply near_weak; [apply (near_add _ _ _ _ _ _ (a + b + (u53 * (a + b) + 2 * eta)) N1 N2)|]; [rewrite Rabs_right; lra|lra|]. set (q := u53 * (a + b)) in *. assert (0 <= q) by (unfold q; nra). assert (u53 * q <= / 10 * q) by nra. assert (u53 * (2 * eta) <= / 10 * eta) by nra. replace (u53 * (a + b + (q + 2 * eta))) with (q + u53 * q + u53 * (2 * eta)) by (unfold q; ring). assert (q = u53 * a + u53 * b) by (unfold q; ring). lra. }
  pose proof (near_num _ _ _ N3) as (G3 & W3). set (z := fadd (fmul x x) (fmul y y)) in *.
  assert (P3 : 0 <= FR z) by (destruct (fadd_spec _ _ G1 G2 W1 W2) as (Cr & _); destruct (correct_ge _ _ fzero Cr eq_refl eq_refl) as (Q & _); [change (FR fzero) with 0; lra|apply Q; exact G3]).
  clearbody z. destruct N3 as (_ & _ & D3). rewrite <- Rq in D3. apply Rabs_iff in D3. set (w := u53 * B) in *. set (t := sqrt (FR z)).
  assert (T0 : 0 <= t) by apply sqrt_pos. assert (Tq : t * t = FR z) by now apply sqrt_sqrt.
  assert (Ur : u53 * r <= w) by (unfold w; apply Rmult_le_compat_l; lra). assert (Ur0 : 0 <= u53 * r) by nra.
  assert (Up : t <= r + 5 / 2 * (u53 * r) + w). { apply Rnot_lt_le. intros Q. assert ((r + 5 / 2 * (u53 * r) + w) * (r + 5 / 2 * (u53 * r) + w) < t * t) by nra. assert (0 <= (u53 * r) * (u53 * r)) by nra. assert (0 <= r * w) by nra. assert (0 <= u53 * r * w) by nra. nra. }
  assert (Lo : r - 5 / 2 * (u53 * r) - w <= t).
  { apply Rnot_lt_le. intros Q. set (A := r - 5 / 2 * (u53 * r)) in *. assert (Aw : w < A) by lra. assert (t * t <= (A - w) * (A - w)) by nra. assert ((A - w) * (A - w) <= A * A - w * w) by nra.
    assert (A * A <= r * r - 5 / 2 * (u53 * (r * r))). { unfold A. assert (u53 * r * (u53 * r) <= / 10 * (u53 * r * r)) by nra. nra. } nra. }
  eapply near_weak; [apply (correct_near _ t r (7 / 2 * w) (2 * B) (fsqrt_spec z G3 W3 P3))|].
  - apply Rabs_iff. lra.
  - rewrite Rabs_right by lra. unfold w in *. lra.
  - lra.
  - replace (u53 * (2 * B)) with (2 * w) by (unfold w; ring). lra.
Qed.
Lemma dist2_le a b E : dist2 a b <= E -> norm2 a <= norm2 b + E.
Proof.
  intros H. assert (Z : forall v, dist2 v zero2 = norm2 v) by (intros [p q]; unfold dist2, sub2, zero2; cbn; do 2 f_equal; ring).
  rewrite <- (Z a), <- (Z b). pose proof (dist2_triangle a b zero2). lra.
Qed.
Lemma revolve_rule S B F f V E : scale_ok S -> scale_ok B -> B <= S -> tracks2 S (1.0001 * B) F f V E -> lip2 f ->
  tracks3 S B (frevolve F) (fun p => Rmax (f (V2 (sqrt (x3 p * x3 p + y3 p * y3 p)) (z3 p))) (f (V2 (sqrt (x3 p * x3 p + y3 p * y3 p)) (z3 p)))) (V + 1) (E + 7).
Proof.
  intros K KB BS T L p P. pose proof (ball3_at B p P) as ((P1 & P2 & P3) & (F1 & F2 & F3) & B1 & B2 & B3). destruct (scale_facts S K) as (S0 & W0 & Et & M & Sm). destruct (scale_facts B KB) as (Sb & Wb & Eb & Mb & Sm').
  assert (Hb : hypot (FR (f3x p)) (FR (f3y p)) <= B). { destruct P as (_ & _ & P). eapply Rle_trans; [|exact P]. unfold hypot, norm3, norm3sq, dot3, FR3. cbn [x3 y3 z3]. apply sqrt_le_1_alt. nra. }
  pose proof (radius_near _ _ B (conj F1 P1) (conj F2 P2) Hb KB) as N. unfold frevolve. cbn [FR3 x3 y3 z3]. set (x := fsqrt _) in *. fold (hypot (FR (f3x p)) (FR (f3y p))). set (r := hypot (FR (f3x p)) (FR (f3y p))) in *.
  assert (D : dist2 (V2 (FR x) (FR (f3z p))) (V2 r (FR (f3z p))) <= 7 * (u53 * B)).
  { eapply Rle_trans; [apply (dist2_dev _ _ (7 * (u53 * B)) 0); cbn [x2 y2]|lra]; [apply N|rewrite Rminus_diag_eq, Rabs_R0 by reflexivity; lra]. }
  assert (Q : ball2 (1.0001 * B) (FV2 x (f3z p))).
  { split; [now apply near_num in N|]. split; [now split|]. apply dist2_le in D. unfold FR2. cbn [f2x f2y]. assert (norm2 (V2 r (FR (f3z p))) <= B).
    { destruct P as (_ & _ & P). eapply Rle_trans; [|exact P]. unfold norm2, norm3, norm2sq, norm3sq, dot2, dot3, FR3. cbn [x2 y2 x3 y3 z3]. apply sqrt_le_1_alt. unfold r. rewrite hypot_sq. lra. }
    lra. }
  destruct (T _ Q) as (Nf & A). unfold FR2 in Nf, A. cbn [f2x f2y] in Nf, A. pose proof (L (V2 (FR x) (FR (f3z p))) (V2 r (FR (f3z p)))) as Lp.
  assert (Wb' : u53 * B <= u53 * S) by (apply Rmult_le_compat_l; [pose proof u53_pos; lra|lra]).
  assert (N' : fnear (F (FV2 x (f3z p))) (f (V2 r (FR (f3z p)))) ((E + 7) * (u53 * S))). { rewrite Rmult_plus_distr_r. eapply near_shift; [exact Nf|lra]. }
  split; [now apply near_max|]. rewrite Rmax_left by lra. assert (Lq : Rabs (f (V2 (FR x) (FR (f3z p))) - f (V2 r (FR (f3z p)))) <= S) by lra. apply Rabs_iff in A, Lq. apply Rabs_iff. lra.
Qed.
(** the integers of the loops of Array3D *)
Lemma fofZ_near j : (Z.of_nat j < 2 ^ 63)%Z -> fnear (fofZ (Z.of_nat j)) (INR j) (u53 * INR j).
Proof.
  intros H. destruct (normalize_spec (Z.of_nat j) 0 ltac:(lia)) as (C & D & _). fold (fofZ (Z.of_nat j)) in C, D.
  replace (IZR (Z.of_nat j) * bpow 0) with (INR j) in C, D by (rewrite INR_IZR_INZ; unfold bpow; cbn [powerRZ]; ring).
  pose proof (pos_INR j) as P. assert (B : INR j <= bpow 63). { rewrite INR_IZR_INZ, bpow_Z by lia. apply IZR_le. lia. }
  assert (M : INR j + 0 <= fmaxR). { unfold fmaxR. pose proof (bpow_le 971 1023 ltac:(lia)). pose proof (bpow_le 63 971 ltac:(lia)). pose proof (bpow_pos 971). replace (bpow 1024) with (2 * bpow 1023) by (change 1024%Z with (1 + 1023)%Z; rewrite bpow_add, bpow_1; ring). lra. }
  destruct (correct_near _ (INR j) (INR j) 0 (INR j + 0) C) as (F & V & _); [rewrite Rminus_diag_eq, Rabs_R0 by reflexivity; lra|rewrite Rabs_right; lra|exact M|].
  split; [exact F|]. split; [exact V|]. specialize (D F). rewrite (Rabs_right (INR j)) in D by lra. exact D.
Qed.
Definition span (n0 n1 n2 : nat) (step : v3) : R := norm3 (V3 (INR n0 * x3 step) (INR n1 * y3 step) (INR n2 * z3 step)).
Lemma offset_near j n s p C S : (j < n)%nat -> (Z.of_nat n < 2 ^ 63)%Z -> num s -> num p -> Rabs (INR n * FR s) <= C -> Rabs (FR p) <= S - C -> scale_ok S ->
  fnear (fsub p (fmul (fofZ (Z.of_nat j)) s)) (FR p - INR j * FR s) (7 * (u53 * S)).
Proof.
  intros Hj Hn (Fs & Vs) (Fp & Vp) A Bp K. destruct (scale_facts S K) as (S0 & W0 & Et & M & Sm). pose proof u53_pos as U0. pose proof u53_small as U1.
  pose proof (fofZ_near j ltac:(lia)) as N. pose proof (pos_INR j) as P. assert (Lj : INR j <= INR n) by (apply le_INR; lia). pose proof (Rabs_pos (FR s)) as Ps. pose proof (Rabs_pos (FR p)) as Pp.
  assert (Aj : INR j * Rabs (FR s) <= C). { rewrite Rabs_mult, (Rabs_right (INR n)) in A by (apply Rle_ge, pos_INR). eapply Rle_trans; [|exact A]. apply Rmult_le_compat_r; lra. }
  set (q := INR j * Rabs (FR s)) in *. assert (Q0 : 0 <= q) by (unfold q; nra). assert (Uq : 0 <= u53 * q <= u53 * S) by (split; [nra|apply Rmult_le_compat_l; lra]).
  assert (Nm : fnear (fmul (fofZ (Z.of_nat j)) s) (INR j * FR s) (4 * (u53 * S))).
  { eapply near_weak; [apply (near_mul _ _ _ _ _ _ (2 * S) N (near_exact s Fs Vs))|].
    - rewrite Rabs_mult, (Rabs_right (INR j)) by lra. fold q. replace (u53 * INR j * Rabs (FR s)) with (u53 * q) by (unfold q; ring). rewrite !Rmult_0_r. lra.
    - lra.
    - replace (u53 * INR j * Rabs (FR s)) with (u53 * q) by (unfold q; ring). lra. }
  eapply near_weak; [apply (near_diff _ _ _ _ _ _ 2 S (near_exact p Fp Vp) Nm)|]; [rewrite Rabs_mult, (Rabs_right (INR j)) by lra; fold q; lra|exact K|lra|lra].
Qed.
Definition idx (n0 n1 n2 : nat) : list (nat * nat * nat) := flat_map (fun j => flat_map (fun k => map (fun l => (j, k, l)) (seq 0 n2)) (seq 0 n1)) (seq 0 n0).
Lemma in_idx n0 n1 n2 j k l : In (j, k, l) (idx n0 n1 n2) -> (j < n0 /\ k < n1 /\ l < n2)%nat.
Proof.
  intros H. apply in_flat_map in H as (a & Ha & H). apply in_flat_map in H as (b & Hb & H). apply in_map_iff in H as (c & E & Hc). injection E as -> -> ->. apply in_seq in Ha, Hb, Hc. lia.
Qed.
Lemma idx_fold {D} (g : D -> nat -> nat -> nat -> D) n0 n1 n2 d :
  fold_left (fun d j => fold_left (fun d k => fold_left (fun d l => g d j k l) (seq 0 n2) d) (seq 0 n1) d) (seq 0 n0) d = fold_left (fun d t => g d (fst (fst t)) (snd (fst t)) (snd t)) (idx n0 n1 n2) d.
Proof.
  unfold idx. rewrite fold_left_flat_map. apply fold_left_ext_in. intros d' j. rewrite fold_left_flat_map. apply fold_left_ext_in. intros d'' k. now rewrite fold_left_map.
Qed.
Lemma maxfloat_ok : fin fmaxfloat = true /\ valid fmaxfloat /\ FR fmaxfloat = max_float64.
Proof.
  split; [reflexivity|]. split; [vm_compute; auto|]. Local Transparent max_float64. unfold max_float64, fmaxfloat, fmax64. cbn [FR]. Local Opaque max_float64.
  replace (2 ^ 1023) with (bpow 1023) by (unfold bpow; rewrite pow_powerRZ; reflexivity). replace (2 ^ 52) with (bpow 52) by (unfold bpow; rewrite pow_powerRZ; reflexivity).
  change 1023%Z with (52 + 971)%Z. rewrite bpow_add. pose proof (bpow_pos 52). set (x := bpow 971). assert (E : bpow 52 = IZR (2 ^ 52)) by (apply bpow_Z; lia). cbn [Z.pow Z.pow_pos Pos.iter Z.mul Pos.mul] in E. 
  cbn [sg]. rewrite E. clearbody x. field.
Qed.
Lemma array_rule S B F s V E n0 n1 n2 step : let C := span n0 n1 n2 (FR3 step) in scale_ok S -> scale_ok (B + C) -> B + C <= S -> valid3 step -> fin3 step ->
  (0 < Z.of_nat n0 < 2 ^ 63)%Z -> (0 < Z.of_nat n1 < 2 ^ 63)%Z -> (0 < Z.of_nat n2 < 2 ^ 63)%Z -> small V E ->
  tracks3 S (1.0001 * (B + C)) F (ev3 s) V E -> lip3 (ev3 s) ->
  tracks3 S B (farray3 F n0 n1 n2 step) (array3_eval Rmin s n0 n1 n2 (FR3 step)) (V + 1) (E + 14).
Proof.
  intros C K KB BS (Vs1 & Vs2 & Vs3) (Fs1 & Fs2 & Fs3) H0 H1 H2 Sv T L p P. pose proof (ball3_at B p P) as ((P1 & P2 & P3) & (F1 & F2 & F3) & B1 & B2 & B3).
  destruct (scale_facts S K) as (S0 & W0 & Et & M & Sm). destruct (scale_facts (B + C) KB) as (Sb & Wb & Eb & Mb & Sm'). pose proof u53_pos as U0.
  assert (Wl : u53 * (B + C) <= u53 * S) by (apply Rmult_le_compat_l; lra).
  destruct (comp_le (V3 (INR n0 * FR (f3x step)) (INR n1 * FR (f3y step)) (INR n2 * FR (f3z step)))) as (C1 & C2 & C3). cbn [x3 y3 z3] in C1, C2, C3. fold (span n0 n1 n2 (FR3 step)) in C1, C2, C3.
  change (span n0 n1 n2 (FR3 step)) with C in C1, C2, C3.
  assert (Elt : forall j k l, (j < n0)%nat -> (k < n1)%nat -> (l < n2)%nat ->
    let q := fsub3 p (FV3 (fmul (fofZ (Z.of_nat j)) (f3x step)) (fmul (fofZ (Z.of_nat k)) (f3y step)) (fmul (fofZ (Z.of_nat l)) (f3z step))) in
    let r := sub3 (FR3 p) (V3 (INR j * x3 (FR3 step)) (INR k * y3 (FR3 step)) (INR l * z3 (FR3 step))) in
    fnear (F q) (ev3 s r) ((E + 14) * (u53 * S)) /\ Rabs (ev3 s r) <= (V + 1) * S).
  { intros j k l Hj Hk Hl q r.
    assert (N1 : fnear (f3x q) (x3 r) (7 * (u53 * (B + C)))) by (apply (offset_near j n0 _ _ C); [lia|lia|now split|now split|exact C1|lra|exact KB]).
    assert (N2 : fnear (f3y q) (y3 r) (7 * (u53 * (B + C)))) by (apply (offset_near k n1 _ _ C); [lia|lia|now split|now split|exact C2|lra|exact KB]).
    assert (N3 : fnear (f3z q) (z3 r) (7 * (u53 * (B + C)))) by (apply (offset_near l n2 _ _ C); [lia|lia|now split|now split|exact C3|lra|exact KB]).
    assert (Nr : norm3 r <= B + C).
    { destruct P as (_ & _ & P). assert (Tri : norm3 r <= norm3 (FR3 p) + norm3 (V3 (INR j * x3 (FR3 step)) (INR k * y3 (FR3 step)) (INR l * z3 (FR3 step)))).
      { unfold r. set (o := V3 (INR j * _) _ _). assert (Z0 : forall v, dist3 v zero3 = norm3 v) by (intros [a b c]; unfold dist3, sub3, zero3; cbn; do 2 f_equal; ring). pose proof (dist3_triangle (FR3 p) zero3 o) as Tr. rewrite (dist3_sym zero3 o), !Z0 in Tr. exact Tr. }
      assert (Lo : norm3 (V3 (INR j * x3 (FR3 step)) (INR k * y3 (FR3 step)) (INR l * z3 (FR3 step))) <= C).
      { unfold C, span, norm3, norm3sq, dot3. cbn [x3 y3 z3]. apply sqrt_le_1_alt. assert (G : forall a b x, (a < b)%nat -> INR a * x * (INR a * x) <= INR b * x * (INR b * x)).
        { intros a b x Hab. pose proof (pos_INR a). assert (INR a <= INR b) by (apply le_INR; lia). replace (INR a * x * (INR a * x)) with (INR a * INR a * (x * x)) by ring. replace (INR b * x * (INR b * x)) with (INR b * INR b * (x * x)) by ring. apply Rmult_le_compat_r; [nra|]. apply Rmult_le_compat; lra. }
        pose proof (G j n0 (FR (f3x step)) Hj). pose proof (G k n1 (FR (f3y step)) Hk). pose proof (G l n2 (FR (f3z step)) Hl). cbn [FR3 x3 y3 z3]. lra. }
      lra. }
    clearbody q r. assert (D : dist3 (FR3 q) r <= 14 * (u53 * (B + C))).
    { eapply Rle_trans; [apply (dist_comp _ _ (7 * (u53 * (B + C)))); cbn [FR3 x3 y3 z3]; [apply N1|apply N2|apply N3]|lra]. }
    assert (Q : ball3 (1.0001 * (B + C)) q). { split; [repeat split; [apply N1|apply N2|apply N3]|]. split; [repeat split; [apply N1|apply N2|apply N3]|]. apply norm_near in D. lra. }
    destruct (T _ Q) as (Nf & A). pose proof (L (FR3 q) r) as Lp. split.
    - rewrite Rmult_plus_distr_r. eapply near_shift; [exact Nf|lra].
    - assert (Lq : Rabs (ev3 s (FR3 q) - ev3 s r) <= S) by lra. apply Rabs_iff in A, Lq. apply Rabs_iff. lra. }
  unfold farray3, array3_eval. rewrite (idx_fold (fun d j k l => go_min d (F (fsub3 p (FV3 (fmul (fofZ (Z.of_nat j)) (f3x step)) (fmul (fofZ (Z.of_nat k)) (f3y step)) (fmul (fofZ (Z.of_nat l)) (f3z step))))))).
  rewrite (idx_fold (fun d j k l => Rmin d (ev3 s (sub3 (FR3 p) (V3 (INR j * x3 (FR3 step)) (INR k * y3 (FR3 step)) (INR l * z3 (FR3 step))))))).
  set (gf := fun t : nat * nat * nat => F (fsub3 p (FV3 (fmul (fofZ (Z.of_nat (fst (fst t)))) (f3x step)) (fmul (fofZ (Z.of_nat (snd (fst t)))) (f3y step)) (fmul (fofZ (Z.of_nat (snd t))) (f3z step))))).
  set (gr := fun t : nat * nat * nat => ev3 s (sub3 (FR3 p) (V3 (INR (fst (fst t)) * x3 (FR3 step)) (INR (snd (fst t)) * y3 (FR3 step)) (INR (snd t) * z3 (FR3 step))))).
  change (fnear (fold_left (fun d t => go_min d (gf t)) (idx n0 n1 n2) fmaxfloat) (fold_left (fun d t => Rmin d (gr t)) (idx n0 n1 n2) max_float64) ((E + 14) * (u53 * S)) /\
    Rabs (fold_left (fun d t => Rmin d (gr t)) (idx n0 n1 n2) max_float64) <= (V + 1) * S).
  assert (All : Forall (fun t => fnear (gf t) (gr t) ((E + 14) * (u53 * S)) /\ Rabs (gr t) <= (V + 1) * S) (idx n0 n1 n2)).
  { apply Forall_forall. intros [[j k] l] I. apply in_idx in I as (Ij & Ik & Il). exact (Elt j k l Ij Ik Il). }
  clearbody gf gr. clear Elt.
  assert (Ne : exists t l, idx n0 n1 n2 = t :: l). { destruct n0, n1, n2; try lia. cbn. eauto. }
  destruct Ne as (t & l & Eq). rewrite Eq in *. clear Eq. inversion All as [|? ? (Nt & At) All']. subst. clear All. cbn [fold_left].
  destruct maxfloat_ok as (Mf & Mv & Mr).
  assert (Start : fnear (go_min fmaxfloat (gf t)) (Rmin max_float64 (gr t)) ((E + 14) * (u53 * S))).
  { apply near_min; [|exact Nt]. eapply near_weak; [rewrite <- Mr; apply near_exact; auto|]. apply (near_pos _ _ _ Nt). }
  assert (SA : Rabs (Rmin max_float64 (gr t)) <= (V + 1) * S).
  { apply Rabs_iff in At. apply Rabs_iff. assert (0 <= max_float64) by (rewrite <- Mr; unfold fmaxfloat, fmax64; cbn [FR]; pose proof (bpow_pos 971); set (y := bpow 971) in *; clearbody y; lra). unfold Rmin. destruct (Rle_dec max_float64 (gr t)); lra. }
  revert Start SA. generalize (go_min fmaxfloat (gf t)) (Rmin max_float64 (gr t)). clear - All'. induction All' as [|a l (Na & Aa) H IH]; intros x z Nx Az; [split; [exact Nx|exact Az]|]. cbn [fold_left]. apply IH.
  - now apply near_min.
  - unfold Rmin. destruct (Rle_dec z (gr a)); auto.
Qed.
