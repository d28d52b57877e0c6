(** How far float64 Evaluate can be from the real-number Evaluate: one rule for each operation. *)
From Coq Require Import List Bool ZArith Lia Floats.SpecFloat Reals Lra Psatz.
From Verif Require Import Prelude Vec BoxModel MatrixModel SdfModel PrimModel Distance PropsMatrix PropsBool PropsTransform PropsLip SdfLemmas FloatBoolModel FloatRound FloatShapeModel FloatNear PropsFloatSign FloatTrack FloatInv.
Import ListNotations.
Local Open Scope R_scope.

(** [tracks3 S B F f V E]: at every point of the ball of radius [B], [F] is a finite number within [E] units of [f] and [f] is at most [V * S];
    the unit is [u53 * S] with u53 = 2^-53. *)
Definition tracks3 (S B : R) (F : fv3 -> spec_float) (f : v3 -> R) (V E : R) : Prop :=
  forall p, ball3 B p -> fnear (F p) (f (FR3 p)) (E * (u53 * S)) /\ Rabs (f (FR3 p)) <= V * S.
Definition ball2 (B : R) (p : fv2) : Prop := num (f2x p) /\ num (f2y p) /\ norm2 (FR2 p) <= B.
Definition tracks2 (S B : R) (F : fv2 -> spec_float) (f : v2 -> R) (V E : R) : Prop :=
  forall p, ball2 B p -> fnear (F p) (f (FR2 p)) (E * (u53 * S)) /\ Rabs (f (FR2 p)) <= V * S.
Definition small (V E : R) : Prop := 0 <= V <= 1000 /\ 0 <= E <= 1000000.
Lemma small_unit S V E : scale_ok S -> small V E -> 0 <= E * (u53 * S) <= / 100000000 * S.
Proof. intros K (_ & E1). destruct (scale_facts S K) as (S0 & W0 & Et & M & Sm). split; [nra|]. apply Rle_trans with (1000000 * (u53 * S)); nra. Qed.
Lemma comp2_le v : Rabs (x2 v) <= norm2 v /\ Rabs (y2 v) <= norm2 v.
Proof. destruct v as [a b]. unfold norm2, norm2sq, dot2. cbn [x2 y2]. split; (rewrite <- sqrt_Rsqr_abs; apply sqrt_le_1_alt; unfold Rsqr; nra). Qed.
Lemma ball2_at B p : ball2 B p -> at2 B p.
Proof. intros (N1 & N2 & N). destruct (comp2_le (FR2 p)) as (C1 & C2). unfold FR2 in *. cbn [x2 y2] in *. repeat split; try apply N1; try apply N2; lra. Qed.

Section Rules.
  Context (S : R) (K : scale_ok S).
  Local Notation w := (u53 * S).
  Lemma val_near a V E : small V E -> Rabs a <= V * S -> Rabs a + E * w <= (V + / 100000000) * S.
  Proof. intros H A. pose proof (small_unit S V E K H). lra. Qed.
  Lemma offset_near x a V E d : small V E -> fnear x a (E * w) -> Rabs a <= V * S -> num d -> Rabs (FR d) <= S ->
    fnear (fsub x d) (a - FR d) ((E + V + 2) * w) /\ Rabs (a - FR d) <= (V + 1) * S.
  Proof.
    intros H N A Nd Bd. pose proof (val_near a V E H A) as Q. destruct (scale_facts S K) as (S0 & W0 & Et & M & Sm). split.
    - eapply near_weak; [apply (near_diff x d a (FR d) (E * w) 0 (V + 2) S); [exact N|now apply num_near| |exact K|destruct H; lra]|]; lra.
    - apply Rabs_iff in A, Bd. apply Rabs_iff. lra.
  Qed.
  Lemma shell_near x a V E t : small V E -> fnear x a (E * w) -> Rabs a <= V * S -> num t -> Rabs (FR t) <= S ->
    fnear (fsub (SFabs x) (fmul fhalf t)) (Rabs a - FR t / 2) ((E + V + 4) * w) /\ Rabs (Rabs a - FR t / 2) <= (V + 1) * S.
  Proof.
    intros H N A Nd Bd. pose proof (val_near a V E H A) as Q. destruct (scale_facts S K) as (S0 & W0 & Et & M & Sm). pose proof (near_half t S Nd Bd K) as Hh.
    assert (Hs : Rabs (FR t / 2) <= S / 2) by (apply Rabs_iff in Bd; apply Rabs_iff; lra). split.
    - eapply near_weak; [apply (near_diff (SFabs x) (fmul fhalf t) (Rabs a) (FR t / 2) (E * w) (2 * w) (V + 2) S); [now apply near_abs|exact Hh| |exact K|destruct H; lra]|]; [rewrite Rabs_Rabsolu; lra|lra].
    - pose proof (Rabs_pos a). apply Rabs_iff in Hs. apply Rabs_iff. lra.
  Qed.
  Lemma near_up x a E E' : fnear x a (E * w) -> E <= E' -> fnear x a (E' * w).
  Proof. intros N L. destruct (scale_facts S K) as (S0 & W0 & Et & M & Sm). eapply near_weak; [exact N|]. nra. Qed.
  Lemma bound_up a V V' : Rabs a <= V * S -> V <= V' -> Rabs a <= V' * S.
  Proof. intros A L. destruct (scale_facts S K) as (S0 & W0 & Et & M & Sm). nra. Qed.
  Lemma max_near x y a b V V' E E' : fnear x a (E * w) -> fnear y b (E' * w) -> Rabs a <= V * S -> Rabs b <= V' * S ->
    fnear (go_max x y) (Rmax a b) (Rmax E E' * w) /\ Rabs (Rmax a b) <= Rmax V V' * S.
  Proof.
    intros N N' A A'. split; [apply near_max; eapply near_up; eauto using Rmax_l, Rmax_r|].
    unfold Rmax at 1. destruct (Rle_dec a b); eapply bound_up; eauto using Rmax_l, Rmax_r.
  Qed.
  Lemma min_near x y a b V V' E E' : fnear x a (E * w) -> fnear y b (E' * w) -> Rabs a <= V * S -> Rabs b <= V' * S ->
    fnear (go_min x y) (Rmin a b) (Rmax E E' * w) /\ Rabs (Rmin a b) <= Rmax V V' * S.
  Proof.
    intros N N' A A'. split; [apply near_min; eapply near_up; eauto using Rmax_l, Rmax_r|].
    unfold Rmin. destruct (Rle_dec a b); eapply bound_up; eauto using Rmax_l, Rmax_r.
  Qed.
  (** evaluation at a computed point *)
  Lemma map_rule B B' F f G g V E D : tracks3 S B' F f V E -> lip3 f -> 0 <= D <= 1000000 ->
    (forall p, ball3 B p -> ball3 B' (G p) /\ dist3 (FR3 (G p)) (g (FR3 p)) <= D * w) ->
    tracks3 S B (fun p => F (G p)) (fun p => f (g p)) (V + 1) (E + D).
  Proof.
    intros T L HD H p P. destruct (H p P) as (Q & Di). destruct (T _ Q) as (N & A). pose proof (L (FR3 (G p)) (g (FR3 p))) as Lp.
    destruct (scale_facts S K) as (S0 & W0 & Et & M & Sm). split.
    - rewrite Rmult_plus_distr_r. eapply near_shift; [exact N|lra].
    - assert (Dw : D * w <= S) by (apply Rle_trans with (1000000 * w); nra). assert (Lq : Rabs (f (FR3 (G p)) - f (g (FR3 p))) <= S) by lra. apply Rabs_iff in A, Lq. apply Rabs_iff. lra.
  Qed.
  Lemma offset_rule B F f V E d : small V E -> tracks3 S B F f V E -> num d -> Rabs (FR d) <= S -> tracks3 S B (foffset F d) (fun p => f p - FR d) (V + 1) (E + V + 2).
  Proof. intros H T N A p P. destruct (T p P). now apply offset_near. Qed.
  Lemma offset2_rule B F f V E d : small V E -> tracks2 S B F f V E -> num d -> Rabs (FR d) <= S -> tracks2 S B (foffset F d) (fun p => f p - FR d) (V + 1) (E + V + 2).
  Proof. intros H T N A p P. destruct (T p P). now apply offset_near. Qed.
  Lemma shell_rule B F f V E t : small V E -> tracks3 S B F f V E -> num t -> Rabs (FR t) <= S -> tracks3 S B (fshell F t) (fun p => Rabs (f p) - 1/2 * FR t) (V + 1) (E + V + 4).
  Proof. intros H T N A p P. destruct (T p P). replace (1 / 2 * FR t) with (FR t / 2) by field. now apply shell_near. Qed.
  Lemma diff_rule B F f V E G g V' E' : tracks3 S B F f V E -> tracks3 S B G g V' E' -> tracks3 S B (fun p => fdiff (F p) (G p)) (fun p => Rmax (f p) (- g p)) (Rmax V V') (Rmax E E').
  Proof. intros T T' p P. destruct (T p P), (T' p P). apply max_near; auto; [now apply near_opp|now rewrite Rabs_Ropp]. Qed.
  Lemma inter_rule B F f V E G g V' E' : tracks3 S B F f V E -> tracks3 S B G g V' E' -> tracks3 S B (fun p => finter (F p) (G p)) (fun p => Rmax (f p) (g p)) (Rmax V V') (Rmax E E').
  Proof. intros T T' p P. destruct (T p P), (T' p P). now apply max_near. Qed.
  Lemma diff2_rule B F f V E G g V' E' : tracks2 S B F f V E -> tracks2 S B G g V' E' -> tracks2 S B (fun p => fdiff (F p) (G p)) (fun p => Rmax (f p) (- g p)) (Rmax V V') (Rmax E E').
  Proof. intros T T' p P. destruct (T p P), (T' p P). apply max_near; auto; [now apply near_opp|now rewrite Rabs_Ropp]. Qed.
  Lemma inter2_rule B F f V E G g V' E' : tracks2 S B F f V E -> tracks2 S B G g V' E' -> tracks2 S B (fun p => finter (F p) (G p)) (fun p => Rmax (f p) (g p)) (Rmax V V') (Rmax E E').
  Proof. intros T T' p P. destruct (T p P), (T' p P). now apply max_near. Qed.
  Lemma extrude_rule B F f V E h : tracks2 S B F f V E -> B <= S -> num h -> Rabs (FR h) <= S ->
    tracks3 S B (fextrude F h) (fun p => Rmax (f (V2 (x3 p) (y3 p))) (Rabs (z3 p) - FR h / 2)) (Rmax V 2) (Rmax E 5).
  Proof.
    intros T BS Nh Bh p P. pose proof (ball3_at B p P) as ((U1 & U2 & U3) & (F1 & F2 & F3) & B1 & B2 & B3). destruct (scale_facts S K) as (S0 & W0 & Et & M & Sm).
    assert (P2 : ball2 B (FV2 (f3x p) (f3y p))).
    { repeat split; auto. destruct P as (_ & _ & P). eapply Rle_trans; [|exact P]. unfold norm2, norm3, norm2sq, norm3sq, dot2, dot3, FR2, FR3. cbn [f2x f2y x2 y2 x3 y3 z3]. apply sqrt_le_1_alt. nra. }
    destruct (T _ P2) as (N & A). pose proof (near_half h S Nh Bh K) as Hh. assert (Hs : Rabs (FR h / 2) <= S / 2) by (apply Rabs_iff in Bh; apply Rabs_iff; lra).
    assert (Nz : fnear (SFabs (f3z p)) (Rabs (FR (f3z p))) 0) by (apply near_abs, near_exact; auto).
    apply max_near; [exact N| |exact A|].
    - eapply near_weak; [apply (near_diff _ _ _ _ 0 (2 * w) 2 S Nz Hh); [rewrite Rabs_Rabsolu; lra|exact K|lra]|]. lra.
    - cbn [FR3 z3]. pose proof (Rabs_pos (FR (f3z p))). apply Rabs_iff in Hs. apply Rabs_iff. lra.
  Qed.
  Lemma union_rule B p : ball3 B p -> forall Fs fs (V E : R), Forall2 (fun (F : fv3 -> spec_float) (f : v3 -> R) => fnear (F p) (f (FR3 p)) (E * w) /\ Rabs (f (FR3 p)) <= V * S) Fs fs ->
    forall x a, fnear x a (E * w) -> Rabs a <= V * S ->
    fnear (funion x (map (fun F => F p) Fs)) (fold_left (fun d f => Rmin d (f (FR3 p))) fs a) (E * w) /\ Rabs (fold_left (fun d f => Rmin d (f (FR3 p))) fs a) <= V * S.
  Proof.
    intros P Fs fs V E H. induction H as [|F f Fs fs (N & A) H IH]; intros x a Nx Ax; [now split|]. cbn [map fold_left]. unfold funion in *. cbn [fold_left]. apply IH.
    - now apply near_min.
    - unfold Rmin. destruct (Rle_dec a (f (FR3 p))); auto.
  Qed.
  Lemma transform_rule B F f V E fm m : tracks3 S (1.0001 * (B + norm3 (trans m))) F f V E -> lip3 f -> iso3 m -> scale_ok (B + norm3 (trans m)) -> stored (B + norm3 (trans m)) fm m -> B + norm3 (trans m) <= S ->
    tracks3 S B (ftransform3d F fm) (fun p => f (mul_pos3 (inverse44 m) p)) (V + 1) (E + 5200).
  Proof.
    intros T L I K' St BS. apply (map_rule B (1.0001 * (B + norm3 (trans m))) F f (fmul_pos3 (frows (finverse44 fm))) (mul_pos3 (inverse44 m)) V E 5200 T L); [lra|].
    intros p P. destruct (move_near B fm m p I K' St P) as (D & Q). split; [exact Q|]. eapply Rle_trans; [exact D|]. pose proof u53_pos. nra.
  Qed.
  (** a unit normal *)
  Lemma unit_near n : let z := norm3 (FR3 n) in valid3 n -> fin3 n -> scale_ok z ->
    sem S (BD false 1 40) (f3x (fscale3 (SFopp f1) (funit3 n))) (- 1 * (1 / z * FR (f3x n))) /\
    sem S (BD false 1 40) (f3y (fscale3 (SFopp f1) (funit3 n))) (- 1 * (1 / z * FR (f3y n))) /\
    sem S (BD false 1 40) (f3z (fscale3 (SFopp f1) (funit3 n))) (- 1 * (1 / z * FR (f3z n))).
  Proof.
    intros z Vn Fn Kz. assert (A : at3 z n) by (apply ball3_at; split; [auto|]; split; [auto|]; unfold z; lra).
    destruct (scale_facts z Kz) as (Z0 & W0 & Et & M & Sm). pose proof (gnrm3_near n z A Kz) as G. fold z in G. pose proof u53_pos as U0. pose proof u53_small as U1.
    assert (NZ : (SFeqb (f3x n) fzero && SFeqb (f3y n) fzero && SFeqb (f3z n) fzero) = false).
    { destruct (SFeqb (f3x n) fzero) eqn:E1; [|reflexivity]. destruct (SFeqb (f3y n) fzero) eqn:E2; [|reflexivity]. destruct (SFeqb (f3z n) fzero) eqn:E3; [|reflexivity]. exfalso.
      destruct Vn as (V1 & V2' & V3'), Fn as (F1 & F2 & F3). apply FR_eqb in E1, E2, E3; auto; try reflexivity. change (FR fzero) with 0 in *.
      unfold z, FR3, norm3, norm3sq, dot3 in Z0. cbn [x3 y3 z3] in Z0. rewrite E1, E2, E3 in Z0. replace (0 * 0 + 0 * 0 + 0 * 0) with 0 in Z0 by ring. rewrite sqrt_0 in Z0. lra. }
    unfold funit3. rewrite NZ. unfold fscale3. cbn [f3x f3y f3z].
    pose proof (near_num _ _ _ G) as (Fg & Vg). destruct G as (_ & _ & G). set (N := gnrm3 n) in *. clearbody N.
    assert (Gz : 26 * (u53 * z) <= / 1000000 * z) by lra. apply Rabs_iff in G. assert (N0 : (1 - / 1000000) * z <= FR N) by lra.
    assert (Kz' : scale_ok (/ z)). { destruct Kz as (L & H). split; [change (-400)%Z with (- (400))%Z|change 400%Z with (- (-400))%Z]; rewrite bpow_opp; apply Rinv_le_contravar; auto; apply bpow_pos. }
    destruct (scale_facts _ Kz') as (Y0 & X0 & Et' & M' & Sm').
    assert (I : fnear (fdiv f1 N) (1 / z) (30 * (u53 * / z))).
    { assert (Dv : Rabs (FR f1 / FR N - 1 / z) <= 27 * (u53 * / z)).
      { rewrite FR_f1. replace (1 / FR N - 1 / z) with ((z - FR N) * / FR N * / z) by (field; lra). rewrite Rabs_mult, (Rabs_right (/ z)) by lra.
        replace (27 * (u53 * / z)) with (27 * u53 * / z) by ring. apply Rmult_le_compat_r; [lra|]. rewrite Rabs_mult, (Rabs_right (/ FR N)) by (apply Rle_ge, Rlt_le, Rinv_0_lt_compat; nra).
        apply Rmult_le_reg_r with (FR N); [nra|]. rewrite Rmult_assoc, Rinv_l, Rmult_1_r by nra. apply Rle_trans with (26 * (u53 * z)); [apply Rabs_iff; lra|].
        apply Rle_trans with (27 * u53 * ((1 - / 1000000) * z)); [|apply Rmult_le_compat_l; [lra|exact N0]]. replace (27 * u53 * ((1 - / 1000000) * z)) with (27 * (1 - / 1000000) * (u53 * z)) by ring. apply Rmult_le_compat_r; lra. }
      eapply near_weak; [apply (correct_near _ (FR f1 / FR N) _ (27 * (u53 * / z)) (/ z * 2)); [apply fdiv_spec; auto; try apply f1_ok; nra|exact Dv| |lra]|].
      - unfold Rdiv. rewrite Rmult_1_l, Rabs_right by lra. lra.
      - lra. }
    assert (C : forall x, num x -> Rabs (FR x) <= z -> sem S (BD false 1 40) (fmul (SFopp f1) (fmul (fdiv f1 N) x)) (- 1 * (1 / z * FR x))).
    { intros x Nx Bx. assert (Bq : Rabs (1 / z * FR x) <= 1). { unfold Rdiv. rewrite Rmult_1_l, Rabs_mult, (Rabs_right (/ z)) by lra. apply Rmult_le_reg_l with z; auto. rewrite <- Rmult_assoc, Rinv_r, Rmult_1_l by lra. lra. }
      assert (Q : fnear (fmul (fdiv f1 N) x) (1 / z * FR x) (33 * u53)).
      { assert (Bi : Rabs (1 / z) = / z) by (unfold Rdiv; rewrite Rmult_1_l, Rabs_right; lra). assert (Ez : 30 * (u53 * / z) * Rabs (FR x) <= 30 * u53). { replace (30 * u53) with (30 * (u53 * / z) * z) by (field; lra). apply Rmult_le_compat_l; auto. nra. }
        eapply near_weak; [apply (near_mul _ _ _ _ _ _ (3 / 2) I (num_near x Nx))|].
        - lra.
        - destruct (scale_facts 1 scale_1) as (_ & _ & _ & M1 & _). lra.
        - pose proof u_eta. lra. }
      assert (Q' : sem S (BD false 1 33) (fmul (fdiv f1 N) x) (1 / z * FR x)) by (cbn [sem sc]; split; [lia|]; split; [lia|]; rewrite !Rmult_1_r; split; [exact Q|exact Bq]).
      assert (O : sem S (BD false 1 0) (SFopp f1) (- 1)). { cbn [sem sc]. split; [lia|]. split; [lia|]. rewrite !Rmult_1_r, Rmult_0_l. split; [|rewrite Rabs_left; lra]. replace (- 1) with (- FR f1) by (rewrite FR_f1; ring). apply near_opp, near_exact; apply f1_ok. }
      destruct (bmul_sem S (BD false 1 0) (BD false 1 33) (BD false 1 37) _ _ _ _ K eq_refl O Q') as (_ & _ & R1 & R2). cbn [sc] in R1, R2. cbn [sem sc]. split; [lia|]. split; [lia|]. split; [|exact R2]. eapply near_weak; [exact R1|]. lra. }
    destruct A as ((V1 & V2' & V3') & (F1 & F2 & F3) & B1 & B2 & B3). split; [|split]; apply C; auto; now split.
  Qed.
  Lemma cut_rule B F f V E a n : tracks3 S B F f V E -> B <= S -> at3 S a -> valid3 n -> fin3 n -> scale_ok (norm3 (FR3 n)) ->
    tracks3 S B (fcut3d F a n) (fun p => Rmax (dot3 (scale3 (-1) (unit3 (FR3 n))) (sub3 p (FR3 a))) (f p)) (Rmax 6 V) (Rmax 300 E).
  Proof.
    intros T BS Aa Vn Fn Kz p P. destruct (T p P) as (N & A). destruct (unit_near n Vn Fn Kz) as (U1 & U2 & U3).
    destruct (ball3_at B p P) as ((P1 & P2 & P3) & (F1 & F2 & F3) & B1 & B2 & B3). destruct Aa as ((A1 & A2 & A3) & (G1 & G2 & G3) & C1 & C2 & C3). destruct (scale_facts S K) as (S0 & W0 & Et & M & Sm).
    assert (D : forall x y, fin x = true -> valid x -> Rabs (FR x) <= B -> fin y = true -> valid y -> Rabs (FR y) <= S -> sem S (BD true 2 3) (fsub x y) (FR x - FR y)).
    { intros x y Fx Vx Bx Fy Vy By. cbn [sem sc]. split; [lia|]. split; [lia|]. split; [|apply Rabs_iff in Bx, By; apply Rabs_iff; lra].
      eapply near_weak; [apply (near_diff x y _ _ 0 0 2 S (near_exact x Fx Vx) (near_exact y Fy Vy)); [lra|exact K|lra]|]. lra. }
    pose proof (D _ _ F1 P1 B1 G1 A1 C1) as D1. pose proof (D _ _ F2 P2 B2 G2 A2 C2) as D2. pose proof (D _ _ F3 P3 B3 G3 A3 C3) as D3.
    unfold fcut3d, fcut. set (q := fscale3 (SFopp f1) (funit3 n)) in *. clearbody q.
    pose proof (bmul_sem S (BD false 1 40) (BD true 2 3) (BD true 2 88) _ _ _ _ K eq_refl U1 D1) as M1. pose proof (bmul_sem S (BD false 1 40) (BD true 2 3) (BD true 2 88) _ _ _ _ K eq_refl U2 D2) as M2. pose proof (bmul_sem S (BD false 1 40) (BD true 2 3) (BD true 2 88) _ _ _ _ K eq_refl U3 D3) as M3.
    destruct (badd_sem S (BD true 2 88) (BD true 2 88) (BD true 4 181) _ _ _ _ K eq_refl M1 M2) as (S1 & _). destruct (badd_sem S (BD true 4 181) (BD true 2 88) (BD true 6 276) _ _ _ _ K eq_refl S1 M3) as (S2 & _). clear M1 M2 M3 S1 D1 D2 D3 U1 U2 U3.
    destruct S2 as (_ & _ & S2 & S3).
    assert (Eq : dot3 (scale3 (-1) (unit3 (FR3 n))) (sub3 (FR3 p) (FR3 a)) = - 1 * (1 / norm3 (FR3 n) * FR (f3x n)) * (FR (f3x p) - FR (f3x a)) + - 1 * (1 / norm3 (FR3 n) * FR (f3y n)) * (FR (f3y p) - FR (f3y a)) + - 1 * (1 / norm3 (FR3 n) * FR (f3z n)) * (FR (f3z p) - FR (f3z a))) by reflexivity.
    cbn [sc] in S2, S3. rewrite <- Eq in S2, S3. apply max_near; auto. eapply near_up; [exact S2|]. lra.
  Qed.
  (** elongation: the point moves towards the origin *)
  Lemma toward c x h : num x -> num h -> Rabs (FR x) <= S -> Rabs (FR h) <= S -> c = fclamp x (fmul (SFopp fhalf) (SFabs h)) (fmul fhalf (SFabs h)) ->
    fnear (fsub x c) (FR x - clampR (FR x) (-1/2 * Rabs (FR h)) (1/2 * Rabs (FR h))) (5 * w) /\ Rabs (FR (fsub x c)) <= Rabs (FR x).
  Proof.
    intros Nx Nh Bx Bh ->. destruct (scale_facts S K) as (S0 & W0 & Et & M & Sm).
    assert (Na : num (SFabs h)) by (destruct Nh; split; [now rewrite fin_abs|now apply abs_valid]).
    assert (Ba : Rabs (FR (SFabs h)) <= S) by (rewrite FR_abs, Rabs_Rabsolu; auto).
    assert (Hp : fnear (fmul fhalf (SFabs h)) (FR (SFabs h) / 2) (2 * w)) by (apply near_half; auto).
    assert (Pp : 0 <= FR (fmul fhalf (SFabs h))).
    { pose proof (near_num _ _ _ Hp) as (Fp & Vp). destruct Na as (Fa & Va). assert (Cc : correct (fmul fhalf (SFabs h)) (FR fhalf * FR (SFabs h))) by (apply fmul_spec; auto; reflexivity).
      destruct (correct_ge _ _ fzero Cc eq_refl eq_refl) as (Q & _); [|apply Q; exact Fp]. change (FR fzero) with 0. rewrite FR_half, FR_abs. pose proof (Rabs_pos (FR h)). lra. }
    assert (Hn : fnear (fmul (SFopp fhalf) (SFabs h)) (- (FR (SFabs h) / 2)) (2 * w) /\ FR (fmul (SFopp fhalf) (SFabs h)) <= 0).
    { destruct Na as (Fa & Va). assert (Cc : correct (fmul (SFopp fhalf) (SFabs h)) (FR (SFopp fhalf) * FR (SFabs h))) by (apply fmul_spec; auto; reflexivity).
      rewrite FR_opp, FR_half in Cc. assert (Hn : fnear (fmul (SFopp fhalf) (SFabs h)) (- (FR (SFabs h) / 2)) (2 * w)).
      { eapply near_weak; [apply (correct_near _ _ _ 0 S Cc)|]; try lra; [|rewrite Rabs_Ropp; unfold Rdiv; rewrite Rabs_mult, (Rabs_right (/ 2)) by lra; pose proof (Rabs_pos (FR (SFabs h))); lra].
        match goal with |- Rabs ?z <= 0 => replace z with 0 by field end. rewrite Rabs_R0. lra. }
      split; [exact Hn|]. pose proof (near_num _ _ _ Hn) as (Fq & _). destruct (correct_le _ _ fzero Cc eq_refl eq_refl) as (Q & _); [|apply Q; exact Fq].
      change (FR fzero) with 0. rewrite FR_abs. pose proof (Rabs_pos (FR h)). lra. }
    destruct Hn as (Hn & En). pose proof (near_num _ _ _ Hp) as (Fp & Vp). pose proof (near_num _ _ _ Hn) as (Fn & Vn). destruct Nx as (Fx & Vx).
    set (p := fmul fhalf (SFabs h)) in *. set (n := fmul (SFopp fhalf) (SFabs h)) in *. clearbody p n. rewrite FR_abs in Hp, Hn.
    unfold fclamp. destruct (FR_max x n Fx Fn Vx Vn) as (F1 & V1 & E1). destruct (FR_min p (go_max x n) Fp F1 Vp V1) as (F2 & W2 & E2). rewrite E1 in E2.
    set (c := go_min p (go_max x n)) in *. clearbody c. destruct Hp as (_ & _ & Dp), Hn as (_ & _ & Dn). clear F1 V1 E1.
    assert (Dc : Rabs (FR c - clampR (FR x) (-1/2 * Rabs (FR h)) (1/2 * Rabs (FR h))) <= 2 * w).
    { rewrite E2. unfold clampR. apply Rabs_iff in Dp, Dn. apply Rabs_iff. unfold Rmin, Rmax. repeat destruct (Rle_dec _ _); lra. }
    assert (Rc : 0 <= FR x - FR c <= FR x \/ FR x <= FR x - FR c <= 0).
    { rewrite E2. unfold Rmin, Rmax. repeat destruct (Rle_dec _ _); lra. }
    assert (Bc : Rabs (FR c) <= S). { apply Rabs_iff in Bx. apply Rabs_iff. lra. }
    split.
    - assert (Nd : fnear (fsub x c) (FR x - FR c) (0 + 0 + 2 * w)) by (apply near_diff; auto using near_exact; try lra).
      eapply near_weak; [eapply near_shift; [exact Nd|]|]; [|instantiate (1 := 2 * w); lra]. apply Rabs_iff in Dc. apply Rabs_iff. lra.
    - assert (Fs : fin (fsub x c) = true). { assert (Nd : fnear (fsub x c) (FR x - FR c) (0 + 0 + 2 * w)) by (apply near_diff; auto using near_exact; lra). apply Nd. }
      destruct (fsub_spec x c Fx F2 Vx W2) as (Cr & _). destruct Rc as [Rc|Rc].
      + destruct (correct_le _ _ x Cr Vx Fx ltac:(lra)) as (Q1 & _). destruct (correct_ge _ _ fzero Cr eq_refl eq_refl) as (Q2 & _); [change (FR fzero) with 0; lra|].
        specialize (Q1 Fs). specialize (Q2 Fs). change (FR fzero) with 0 in Q2. rewrite !Rabs_right; lra.
      + destruct (correct_ge _ _ x Cr Vx Fx ltac:(lra)) as (Q1 & _). destruct (correct_le _ _ fzero Cr eq_refl eq_refl) as (Q2 & _); [change (FR fzero) with 0; lra|].
        specialize (Q1 Fs). specialize (Q2 Fs). change (FR fzero) with 0 in Q2. rewrite !Rabs_left1; lra.
  Qed.
  Lemma abs_sq a b : Rabs a <= Rabs b -> a * a <= b * b.
  Proof. intros H. unfold Rabs in H. destruct (Rcase_abs a), (Rcase_abs b); nra. Qed.
  Lemma elongate_rule B F f V E h : tracks3 S B F f V E -> lip3 f -> B <= S -> at3 S h ->
    tracks3 S B (felongate F h) (fun p => f (sub3 p (clamp3 p (scale3 (-1/2) (abs3 (FR3 h))) (scale3 (1/2) (abs3 (FR3 h)))))) (V + 1) (E + 10).
  Proof.
    intros T L BS ((H1 & H2 & H3) & (G1 & G2 & G3) & C1 & C2 & C3).
    apply (map_rule B B F f (fun p => fsub3 p (fclamp3 p (fscale3 (SFopp fhalf) (fabs3 h)) (fscale3 fhalf (fabs3 h)))) (fun p => sub3 p (clamp3 p (scale3 (-1/2) (abs3 (FR3 h))) (scale3 (1/2) (abs3 (FR3 h))))) V E 10 T L); [lra|].
    intros p P. pose proof (ball3_at B p P) as ((P1 & P2 & P3) & (F1 & F2 & F3) & B1 & B2 & B3).
    destruct (toward _ (f3x p) (f3x h) (conj F1 P1) (conj G1 H1) ltac:(lra) C1 eq_refl) as (N1 & L1). destruct (toward _ (f3y p) (f3y h) (conj F2 P2) (conj G2 H2) ltac:(lra) C2 eq_refl) as (N2 & L2).
    destruct (toward _ (f3z p) (f3z h) (conj F3 P3) (conj G3 H3) ltac:(lra) C3 eq_refl) as (N3 & L3).
    assert (Q1 := near_num _ _ _ N1). assert (Q2 := near_num _ _ _ N2). assert (Q3 := near_num _ _ _ N3). destruct Q1 as (X1 & Y1), Q2 as (X2 & Y2), Q3 as (X3 & Y3). split.
    - split; [exact (conj Y1 (conj Y2 Y3))|]. split; [exact (conj X1 (conj X2 X3))|]. destruct P as (_ & _ & P). eapply Rle_trans; [|exact P]. unfold norm3, norm3sq, dot3. apply sqrt_le_1_alt. cbn [FR3 x3 y3 z3 fsub3 f3x f3y f3z fclamp3 fscale3 fabs3].
      apply abs_sq in L1, L2, L3. unfold FR3, fsub3, fclamp3, fscale3, fabs3. cbn [x3 y3 z3 f3x f3y f3z]. lra.
    - replace (10 * w) with (2 * (5 * w)) by ring. apply dist_comp; [destruct N1 as (_ & _ & Q)|destruct N2 as (_ & _ & Q)|destruct N3 as (_ & _ & Q)]; exact Q.
  Qed.
  (** uniform scaling by [k] *)
  Lemma scale_rule B F f V E k : let c := Rabs (FR k) in small V E -> tracks3 S (1.0001 * (B / c)) F f V E -> lip3 f -> num k -> / 1000000 <= c <= 1000000 -> scale_ok (B / c) -> B / c <= S -> c * (V + 2) <= 1000000 ->
    tracks3 S B (fscale_uniform F k) (fun p => f (scale3 (1 / FR k) p) * FR k) (c * (V + 1)) (c * (E + V + 12) + 1).
  Proof.
    intros c Sv T L (Fk & Vk) Bk Kb BS CV p P. destruct (scale_facts S K) as (S0 & W0 & Et & M & Sm). destruct (scale_facts _ Kb) as (B0 & Wb & Eb & Mb & Sb). pose proof u53_pos as U0. pose proof u53_small as U1.
    assert (Nk : FR k <> 0) by (intros Q; unfold c in Bk; rewrite Q, Rabs_R0 in Bk; lra). assert (C0 : 0 < c) by lra.
    assert (Ic : Rabs (1 / FR k) = / c) by (unfold Rdiv; rewrite Rmult_1_l, Rabs_inv; reflexivity). assert (Ci : 0 < / c) by (apply Rinv_0_lt_compat; lra).
    assert (Ci2 : / 1000000 <= / c <= 1000000) by (split; [apply Rinv_le_contravar; lra|rewrite <- (Rinv_inv 1000000); apply Rinv_le_contravar; lra]).
    assert (I : fnear (fdiv f1 k) (1 / FR k) (2 * (u53 * / c))).
    { pose proof big_max. eapply near_weak; [apply (correct_near _ (FR f1 / FR k) _ 0 (/ c)); [apply fdiv_spec; auto; apply f1_ok| | |]|].
      - rewrite FR_f1, Rminus_diag_eq, Rabs_R0 by reflexivity. lra.
      - rewrite Ic. lra.
      - destruct (scale_facts 1 scale_1) as (_ & _ & _ & M1 & _). lra.
      - assert (eta <= u53 * / 1000000). { destruct (scale_facts (/ 1000000)) as (_ & _ & Q & _ & _); [|exact Q]. split.
          - apply Rle_trans with (bpow (-20)); [apply bpow_le; lia|]. change (-20)%Z with (- (20))%Z. rewrite bpow_opp, (bpow_Z 20) by lia. apply Rinv_le_contravar; [lra|]. apply IZR_le. cbn. lia.
          - apply Rle_trans with (bpow 0); [cbn; lra|apply bpow_le; lia]. }
        assert (u53 * / 1000000 <= u53 * / c) by (apply Rmult_le_compat_l; lra). lra. }
    pose proof (ball3_at B p P) as ((P1 & P2 & P3) & (F1 & F2 & F3) & B1 & B2 & B3). assert (Bp : 0 <= B) by (pose proof (Rabs_pos (FR (f3x p))); lra).
    set (b := B / c) in *. assert (Eb' : B = b * c) by (unfold b; field; lra). clearbody b. subst B.
    assert (Q : forall x, fin x = true -> valid x -> Rabs (FR x) <= b * c -> fnear (fmul (fdiv f1 k) x) (1 / FR k * FR x) (5 * (u53 * b))).
    { intros x Fx Vx Bx. assert (Ab : Rabs (1 / FR k * FR x) <= b). { rewrite Rabs_mult, Ic. apply Rmult_le_reg_l with c; auto. rewrite <- Rmult_assoc, Rinv_r, Rmult_1_l by lra. lra. }
      assert (Ez : 2 * (u53 * / c) * Rabs (FR x) <= 2 * (u53 * b)). { replace (2 * (u53 * b)) with (2 * (u53 * / c) * (b * c)) by (field; lra). apply Rmult_le_compat_l; auto. nra. }
      eapply near_weak; [apply (near_mul _ _ _ _ _ _ (3 / 2 * b) I (near_exact x Fx Vx))|]; lra. }
    pose proof (Q _ F1 P1 B1) as N1. pose proof (Q _ F2 P2 B2) as N2. pose proof (Q _ F3 P3 B3) as N3.
    set (q := fscale3 (fdiv f1 k) p).
    assert (D : dist3 (FR3 q) (scale3 (1 / FR k) (FR3 p)) <= 2 * (5 * (u53 * b))) by (apply dist_comp; [destruct N1 as (_ & _ & Z)|destruct N2 as (_ & _ & Z)|destruct N3 as (_ & _ & Z)]; exact Z).
    assert (Bq : ball3 (1.0001 * b) q).
    { apply near_num in N1, N2, N3. destruct N1 as (X1 & Y1), N2 as (X2 & Y2), N3 as (X3 & Y3). split; [exact (conj Y1 (conj Y2 Y3))|]. split; [exact (conj X1 (conj X2 X3))|].
      apply norm_near in D. assert (Ns : norm3 (scale3 (1 / FR k) (FR3 p)) <= b).
      { unfold norm3. replace (norm3sq (scale3 (1 / FR k) (FR3 p))) with ((1 / FR k) * (1 / FR k) * norm3sq (FR3 p)) by (unfold norm3sq, dot3, scale3; cbn [x3 y3 z3]; ring).
        rewrite sqrt_mult_alt by nra. fold (norm3 (FR3 p)). replace (sqrt (1 / FR k * (1 / FR k))) with (/ c) by (rewrite <- Ic, <- sqrt_Rsqr_abs; reflexivity). destruct P as (_ & _ & P).
        apply Rmult_le_reg_l with c; auto. rewrite <- Rmult_assoc, Rinv_r, Rmult_1_l by lra. lra. }
      lra. }
    destruct (T q Bq) as (N & A). pose proof (L (FR3 q) (scale3 (1 / FR k) (FR3 p))) as Lp. assert (Wb' : u53 * b <= w) by (apply Rmult_le_compat_l; lra).
    assert (N' : fnear (F q) (f (scale3 (1 / FR k) (FR3 p))) ((E + 10) * w)). { rewrite Rmult_plus_distr_r. eapply near_shift; [exact N|lra]. }
    assert (A' : Rabs (f (scale3 (1 / FR k) (FR3 p))) <= (V + 1) * S). { assert (Lq : Rabs (f (FR3 q) - f (scale3 (1 / FR k) (FR3 p))) <= S) by lra. apply Rabs_iff in A, Lq. apply Rabs_iff. lra. }
    set (v := f (scale3 (1 / FR k) (FR3 p))) in *. unfold fscale_uniform. fold q. clearbody v. set (x := F q) in *. clearbody x. split.
    - assert (Ew : 0 <= (E + 10) * w <= / 1000000 * S) by (destruct Sv as (? & ? & ?); split; [nra|]; apply Rle_trans with (1000010 * w); [apply Rmult_le_compat_r; lra|lra]).
      eapply near_weak; [apply (near_mul x k v (FR k) ((E + 10) * w) 0 (c * (V + 2) * S) N' (near_exact k Fk Vk))|].
      + fold c. rewrite Rabs_mult. fold c. pose proof (Rabs_pos v). apply Rle_trans with (c * (Rabs v + / 1000000 * S)); [|rewrite Rmult_assoc; apply Rmult_le_compat_l; lra].
        assert ((E + 10) * w * c <= / 1000000 * S * c) by (apply Rmult_le_compat_r; lra). lra.
      + apply Rle_trans with (1000000 * S); [apply Rmult_le_compat_r; lra|lra].
      + fold c. replace (u53 * (c * (V + 2) * S)) with (c * (V + 2) * w) by ring. lra.
    - rewrite Rabs_mult. fold c. replace (c * (V + 1) * S) with ((V + 1) * S * c) by ring. apply Rmult_le_compat_r; lra.
  Qed.
End Rules.
