(** How far a polygon's float64 Evaluate can be from the real-number one. *)
From Coq Require Import List Bool ZArith Lia Floats.SpecFloat Reals Lra Psatz.
From Verif Require Import Prelude Vec BoxModel MatrixModel SdfModel PrimModel Trig Distance PropsBool SdfLemmas FloatBoolModel FloatRound FloatShapeModel FloatNear PropsFloatSign FloatTrack FloatRules FloatCopies FloatBoundsModel FloatPolyModel.
From Verif Require PolyModel PropsPoly.
Import ListNotations.
Local Open Scope R_scope.

(** ** Relative errors.  [rl x X c h]: the float [x] is within [c] relative units of 2^-53 plus [h] of [X]. *)
Definition rl (x : spec_float) (X c h : R) : Prop := num x /\ Rabs (FR x - X) <= c * u53 * Rabs X + h.
Lemma rl_num x : num x -> rl x (FR x) 0 0.
Proof. intros N. split; [exact N|]. rewrite Rminus_diag_eq, Rabs_R0 by reflexivity. lra. Qed.
Lemma rl_weak x X c h d k : rl x X c h -> c <= d -> h <= k -> rl x X d k.
Proof. intros (N & A) C D. split; [exact N|]. pose proof (Rabs_pos X). pose proof u53_pos. assert (c * u53 * Rabs X <= d * u53 * Rabs X) by (apply Rmult_le_compat_r; [lra|nra]). lra. Qed.
Lemma rl_opp x X c h : rl x X c h -> rl (SFopp x) (- X) c h.
Proof. intros ((F & V) & A). split; [split; [now rewrite fin_opp|now apply opp_valid]|]. rewrite FR_opp, Rabs_Ropp. replace (- FR x - - X) with (- (FR x - X)) by ring. now rewrite Rabs_Ropp. Qed.
Lemma rl_diff x y : num x -> num y -> Rabs (FR x - FR y) <= fmaxR -> rl (fsub x y) (FR x - FR y) 1 0.
Proof.
  intros (F & V) (G & W) B. destruct (fsub_spec x y F G V W) as ((V' & _ & Fi & _) & Re & _). specialize (Fi B). split; [now split|]. specialize (Re Fi). lra.
Qed.
Lemma rl_prod x y X Y c d k : rl x X c 0 -> rl y Y d k -> 0 <= c <= 100 -> 0 <= d <= 100 -> 0 <= k -> 2 * (Rabs X * Rabs Y) + 2 * (k * Rabs X) <= fmaxR ->
  rl (fmul x y) (X * Y) (c + d + 2) (2 * (k * Rabs X) + eta).
Proof.
  intros ((F & V) & A) ((G & W) & B) C D K M. pose proof (fmul_spec x y F G V W) as Co. pose proof u53_pos as U. pose proof u53_small as Us. pose proof eta_pos as Et.
  assert (Q : Rabs (FR x * FR y - X * Y) <= (c + d + 1 / 2) * u53 * (Rabs X * Rabs Y) + 3 / 2 * (k * Rabs X)).
  { replace (FR x * FR y - X * Y) with ((FR x - X) * FR y + X * (FR y - Y)) by ring. eapply Rle_trans; [apply Rabs_triang|]. rewrite !Rabs_mult.
    assert (By : Rabs (FR y) <= Rabs Y * (1 + d * u53) + k). { pose proof (Rabs_triang (FR y - Y) Y) as T. replace (FR y - Y + Y) with (FR y) in T by ring. lra. }
    pose proof (Rabs_pos X) as PX. pose proof (Rabs_pos Y) as PY. set (ax := Rabs X) in *. set (ay := Rabs Y) in *. set (e1 := Rabs (FR x - X)) in *. set (e2 := Rabs (FR y - Y)) in *. set (b := Rabs (FR y)) in *.
    assert (0 <= e1) by apply Rabs_pos. assert (0 <= b) by apply Rabs_pos. clearbody ax ay e1 e2 b.
    assert (H1 : e1 * b <= c * u53 * ax * (ay * (1 + d * u53) + k)) by (apply Rmult_le_compat; lra).
    assert (H2 : ax * e2 <= ax * (d * u53 * ay + k)) by (apply Rmult_le_compat_l; lra).
    assert (H3 : c * u53 * (d * u53) <= 1 / 2 * u53) by (assert (c * d <= 10000) by nra; assert (0 <= c * d) by nra; nra).
    assert (H4 : c * u53 <= 1 / 2) by nra.
    assert (P1 : 0 <= ax * ay) by nra. assert (P2 : 0 <= ax * k) by nra.
    assert (H5 : c * u53 * (d * u53) * (ax * ay) <= 1 / 2 * u53 * (ax * ay)) by (apply Rmult_le_compat_r; lra).
    assert (H6 : c * u53 * (ax * k) <= 1 / 2 * (ax * k)) by (apply Rmult_le_compat_r; lra). lra. }
  assert (Bz : Rabs (FR x * FR y) <= 3 / 2 * (Rabs X * Rabs Y) + 3 / 2 * (k * Rabs X)).
  { pose proof (Rabs_triang (FR x * FR y - X * Y) (X * Y)) as T. replace (FR x * FR y - X * Y + X * Y) with (FR x * FR y) in T by ring. rewrite (Rabs_mult X Y) in T.
    assert ((c + d + 1 / 2) * u53 <= 1 / 2) by nra. pose proof (Rabs_pos X). pose proof (Rabs_pos Y). assert (0 <= Rabs X * Rabs Y) by nra.
    assert ((c + d + 1 / 2) * u53 * (Rabs X * Rabs Y) <= 1 / 2 * (Rabs X * Rabs Y)) by (apply Rmult_le_compat_r; lra). lra. }
  pose proof (Rabs_pos X). pose proof (Rabs_pos Y). assert (P1 : 0 <= Rabs X * Rabs Y) by nra. assert (P2 : 0 <= k * Rabs X) by nra.
  destruct Co as (V' & _ & Fi & Er & _). specialize (Fi ltac:(lra)). split; [now split|]. rewrite (Rabs_mult X Y). set (P := Rabs X * Rabs Y) in *. set (T := k * Rabs X) in *.
  assert (u53 * Rabs (FR x * FR y) <= u53 * (3 / 2 * P + 3 / 2 * T)) by (apply Rmult_le_compat_l; lra). assert (u53 * T <= / 1000 * T) by nra.
  pose proof (Rabs_triang (FR (fmul x y) - FR x * FR y) (FR x * FR y - X * Y)) as T'. replace (FR (fmul x y) - FR x * FR y + (FR x * FR y - X * Y)) with (FR (fmul x y) - X * Y) in T' by ring.
  clearbody P T. destruct (Er Fi) as [E|E]; nra.
Qed.
(** the sum of two floats, given their errors *)
Lemma sum_err x y X Y e f : num x -> num y -> Rabs (FR x - X) <= e -> Rabs (FR y - Y) <= f -> Rabs (X + Y) + (e + f) <= fmaxR ->
  num (fadd x y) /\ Rabs (FR (fadd x y) - (X + Y)) <= e + f + u53 * (Rabs (X + Y) + (e + f)) /\
  (FR (fadd x y) < 0 <-> FR x + FR y < 0) /\ (0 < FR (fadd x y) <-> 0 < FR x + FR y).
Proof.
  intros (F & V) (G & W) A B M. destruct (fadd_spec x y F G V W) as ((V' & _ & Fi & _) & Re & Sp & Sn & Sz).
  assert (Q : Rabs (FR x + FR y - (X + Y)) <= e + f). { replace (FR x + FR y - (X + Y)) with ((FR x - X) + (FR y - Y)) by ring. eapply Rle_trans; [apply Rabs_triang|]. lra. }
  assert (T : Rabs (FR x + FR y) <= Rabs (X + Y) + (e + f)). { pose proof (Rabs_triang (FR x + FR y - (X + Y)) (X + Y)) as T. replace (FR x + FR y - (X + Y) + (X + Y)) with (FR x + FR y) in T by ring. lra. }
  specialize (Fi ltac:(lra)). specialize (Re Fi). pose proof u53_pos. split; [now split|]. split.
  { pose proof (Rabs_triang (FR (fadd x y) - (FR x + FR y)) (FR x + FR y - (X + Y))) as T'. replace (FR (fadd x y) - (FR x + FR y) + (FR x + FR y - (X + Y))) with (FR (fadd x y) - (X + Y)) in T' by ring.
    assert (u53 * Rabs (FR x + FR y) <= u53 * (Rabs (X + Y) + (e + f))) by (apply Rmult_le_compat_l; lra). lra. }
  pose proof (signed_lt (fadd x y)) as (S1 & S2).
  assert (L1 : SFltb (fadd x y) (S754_zero false) = true <-> FR (fadd x y) < 0) by (rewrite ltb_FR by (auto; reflexivity); reflexivity).
  assert (L2 : SFltb (S754_zero false) (fadd x y) = true <-> 0 < FR (fadd x y)) by (rewrite ltb_FR by (auto; reflexivity); reflexivity).
  destruct (Rtotal_order (FR x + FR y) 0) as [O|[O|O]].
  - specialize (Sn O). apply S1, L1 in Sn. split; split; intros; lra.
  - destruct (Sz O) as (s & E). rewrite E. cbn [FR]. split; split; intros; lra.
  - specialize (Sp O). apply S2, L2 in Sp. split; split; intros; lra.
Qed.
(** square roots of nearby numbers *)
Lemma sqrt_near q Q c h : 0 <= q -> 0 <= Q -> 0 <= h -> 0 <= c <= 1 -> Rabs (q - Q) <= c * Q + h * h -> Rabs (sqrt q - sqrt Q) <= c * sqrt Q + h.
Proof.
  intros A B H C D. pose proof (sqrt_pos q) as P. pose proof (sqrt_pos Q) as P'. pose proof (sqrt_sqrt q A) as E. pose proof (sqrt_sqrt Q B) as E'.
  rewrite <- E, <- E' in D. set (r := sqrt q) in *. set (s := sqrt Q) in *. clearbody r s. clear E E' A B. apply Rabs_iff in D. apply Rabs_iff. split.
  - destruct (Rle_lt_dec (s * (1 - c) - h) 0) as [L|L]; [lra|]. assert (s * (1 - c) - h <= r); [|lra].
    apply Rnot_lt_le. intros X. assert (X2 : r * r < (s * (1 - c) - h) * (s * (1 - c) - h)) by nra.
    assert (Y : h * h <= s * (1 - c) * h) by nra. assert (c * c * (s * s) <= c * (s * s)) by (assert (0 <= s * s) by nra; nra). nra.
  - assert (r <= s * (1 + c) + h); [|lra]. apply Rnot_lt_le. intros X. assert (X2 : (s * (1 + c) + h) * (s * (1 + c) + h) < r * r) by (assert (0 <= s * (1 + c) + h) by nra; nra).
    assert (0 <= s * (1 + c) * h) by (apply Rmult_le_pos; nra). assert (0 <= c * (s * s)) by nra. nra.
Qed.

(** ** One edge *)
(** The edge from [a] to [b] is not much shorter than the arguments and the points, and neither is its height, unless it is zero. *)
Definition edge_ok (S : R) (a b : fv2) : Prop :=
  bpow (-300) * S <= Rabs (FR (f2y b) - FR (f2y a)) \/
  (FR (f2y b) = FR (f2y a) /\ bpow (-300) * S <= Rabs (FR (f2x b) - FR (f2x a))).
Lemma big_S S c : scale_ok S -> 0 <= c <= 1000000 -> c * S <= fmaxR.
Proof. intros K C. destruct (scale_facts S K) as (S0 & _ & _ & M & _). nra. Qed.
Lemma tiny_S S : scale_ok S -> eta * bpow 200 <= bpow (-300) * S * u53 /\ bpow (-536) <= u53 * S * / 1000 /\ eta * (2 + 10 * S) <= bpow (-400) * (u53 * S) /\ bpow (-300) <= / 1000 /\ bpow (-400) <= / 1000 * bpow (-300).
Proof.
  intros (A & B). pose proof u53_pos. pose proof (bpow_pos (-400)). pose proof (bpow_pos 800). pose proof (bpow_pos (-300)).
  assert (T : 1000 <= bpow 10) by (rewrite bpow_Z by lia; apply IZR_le; cbn; lia).
  assert (I : bpow (-10) <= / 1000) by (change (-10)%Z with (- (10))%Z; rewrite bpow_opp; apply Rinv_le_contravar; lra).
  split; [|split; [|split; [|split]]].
  - apply Rle_trans with (bpow (-300) * bpow (-400) * u53); [unfold eta, u53; rewrite <- !bpow_add; apply bpow_le; lia|]. apply Rmult_le_compat_r; [lra|]. apply Rmult_le_compat_l; lra.
  - apply Rle_trans with (u53 * bpow (-400) * bpow (-10)); [unfold u53; rewrite <- !bpow_add; apply bpow_le; lia|]. apply Rmult_le_compat; [apply Rmult_le_pos; lra|left; apply bpow_pos|apply Rmult_le_compat_l; lra|exact I].
  - assert (E1 : eta <= bpow (-410) * (u53 * S)).
    { apply Rle_trans with (bpow (-410) * (u53 * bpow (-400))); [unfold eta, u53; rewrite <- !bpow_add; apply bpow_le; lia|]. apply Rmult_le_compat_l; [left; apply bpow_pos|]. apply Rmult_le_compat_l; lra. }
    assert (E2 : eta <= bpow (-410) * u53) by (unfold eta, u53; rewrite <- !bpow_add; apply bpow_le; lia). pose proof (bpow_pos (-410)). pose proof eta_pos.
    assert (E3 : bpow (-400) = bpow (-410) * bpow 10) by (rewrite <- bpow_add; reflexivity). rewrite E3. set (q := bpow (-410)) in *. clearbody q.
    assert (E4 : 12 * (q * (u53 * S)) <= q * bpow 10 * (u53 * S)). { assert (0 <= q * (u53 * S)) by (apply Rmult_le_pos; nra). nra. }
    assert (E5 : eta * S <= q * u53 * S) by (apply Rmult_le_compat_r; lra). lra.
  - apply Rle_trans with (bpow (-10)); [apply bpow_le; lia|exact I].
  - replace (bpow (-400)) with (bpow (-100) * bpow (-300)) by (rewrite <- bpow_add; reflexivity). apply Rmult_le_compat_r; [lra|]. apply Rle_trans with (bpow (-10)); [apply bpow_le; lia|exact I].
Qed.
Lemma edge_len S a b : scale_ok S -> at2 S a -> at2 S b -> edge_ok S a b ->
  let L := norm2 (sub2 (FR2 b) (FR2 a)) in bpow (-300) * S <= L <= 3 * S /\ 0 < L.
Proof.
  intros K (_ & _ & A1 & A2) (_ & _ & B1 & B2) E L. destruct (scale_facts S K) as (S0 & _). pose proof (bpow_pos (-300)) as P.
  unfold L. rewrite norm2_hypot. cbn [sub2 FR2 x2 y2]. set (X := FR (f2x b) - FR (f2x a)) in *. set (Y := FR (f2y b) - FR (f2y a)) in *.
  destruct (hypot_lower X Y) as (G1 & G2). assert (Q : bpow (-300) * S <= hypot X Y) by (destruct E as [E|(_ & E)]; unfold X, Y in *; lra).
  assert (0 < bpow (-300) * S) by nra. split; [|lra]. split; [exact Q|].
  pose proof (hypot_nonneg X Y) as N. pose proof (hypot_sq X Y) as Sq. apply Rabs_iff in A1, A2, B1, B2.
  assert (X * X <= 4 * (S * S)) by (unfold X; nra). assert (Y * Y <= 4 * (S * S)) by (unfold Y; nra). nra.
Qed.
Lemma edge_vec S a b : scale_ok S -> at2 S a -> at2 S b -> edge_ok S a b ->
  let L := norm2 (sub2 (FR2 b) (FR2 a)) in let u := unit2 (sub2 (FR2 b) (FR2 a)) in
  num (gnrm2 (fsub2 b a)) /\ Rabs (FR (gnrm2 (fsub2 b a)) - L) <= 9 * u53 * L /\
  rl (f2x (funit2 (fsub2 b a))) (x2 u) 14 eta /\ rl (f2y (funit2 (fsub2 b a))) (y2 u) 14 eta.
Proof.
  intros K Ha Hb E L u. destruct (edge_len S a b K Ha Hb E) as ((L1 & L2) & L0). fold L in L0, L1, L2. destruct Ha as (Na & Ma & A1 & A2), Hb as (Nb & Mb & B1 & B2).
  destruct (scale_facts S K) as (S0 & W0 & Et & M & Sm). destruct (tiny_S S K) as (T1 & _). pose proof u53_pos as U. pose proof u53_small as Us. pose proof eta_pos as Ep.
  assert (X1 : Rabs (FR (f2x b) - FR (f2x a)) <= 2 * S) by (apply Rabs_iff in A1, B1; apply Rabs_iff; lra).
  assert (Y1 : Rabs (FR (f2y b) - FR (f2y a)) <= 2 * S) by (apply Rabs_iff in A2, B2; apply Rabs_iff; lra).
  pose proof (rl_diff _ _ Nb Na ltac:(lra)) as Rx. pose proof (rl_diff _ _ Mb Ma ltac:(lra)) as Ry.
  assert (EL : L = hypot (FR (f2x b) - FR (f2x a)) (FR (f2y b) - FR (f2y a))) by (unfold L; rewrite norm2_hypot; reflexivity).
  assert (Eu : u = V2 (1 / L * (FR (f2x b) - FR (f2x a))) (1 / L * (FR (f2y b) - FR (f2y a)))) by reflexivity.
  set (X := FR (f2x b) - FR (f2x a)) in *. set (Y := FR (f2y b) - FR (f2y a)) in *. unfold fsub2, gnrm2. cbn [f2x f2y]. set (lx := fsub (f2x b) (f2x a)) in *. set (ly := fsub (f2y b) (f2y a)) in *.
  destruct (hypot_lower X Y) as (G1 & G2). rewrite <- EL in G1, G2.
  assert (NZ : SFeqb lx fzero && SFeqb ly fzero = false).
  { destruct (SFeqb lx fzero) eqn:Q1; [|reflexivity]. destruct (SFeqb ly fzero) eqn:Q2; [|reflexivity]. exfalso. destruct Rx as ((F1 & V1) & Dx), Ry as ((F2 & V2) & Dy).
    apply FR_eqb in Q1; auto; [|reflexivity]. apply FR_eqb in Q2; auto; [|reflexivity]. cbn [FR fzero] in Q1, Q2. rewrite Q1 in Dx. rewrite Q2 in Dy. rewrite Rminus_0_l, Rabs_Ropp in Dx, Dy.
    pose proof (Rabs_pos X). pose proof (Rabs_pos Y). assert (X0 : Rabs X = 0) by nra. assert (Y0 : Rabs Y = 0) by nra. pose proof (bpow_pos (-300)). assert (0 < bpow (-300) * S) by nra.
    destruct E as [E|(_ & E)]; unfold X, Y in *; lra. }
  destruct Rx as ((F1 & V1) & Dx), Ry as ((F2 & V2) & Dy).
  assert (Hd : Rabs (hypot (FR lx) (FR ly) - L) <= 2 * u53 * L) by (rewrite EL at 1; eapply Rle_trans; [apply hypot_dev|]; nra).
  destruct (hypot_lower (FR lx) (FR ly)) as (H1 & H2). apply Rabs_iff in Hd. assert (BM : 4 * ((1 + 2 * u53) * L) <= fmaxR) by nra.
  destruct (ghyp_near lx ly ((1 + 2 * u53) * L) F1 F2 V1 V2 ltac:(lra) ltac:(lra) BM) as ((Fl & Vl & Dl) & _).
  assert (Et2 : eta <= / 10 * (u53 * L)).
  { assert (1000 <= bpow 200) by (apply Rle_trans with (bpow 10); [rewrite bpow_Z by lia; apply IZR_le; cbn; lia|apply bpow_le; lia]).
    assert (eta * bpow 200 <= u53 * L) by (eapply Rle_trans; [exact T1|]; rewrite Rmult_comm; apply Rmult_le_compat_l; lra). nra. }
  assert (D9 : Rabs (FR (ghyp lx ly) - L) <= 9 * u53 * L). { apply Rabs_iff in Dl. apply Rabs_iff. assert (u53 * (u53 * L) <= / 1000 * (u53 * L)) by (apply Rmult_le_compat_r; nra). lra. }
  split; [now split|]. split; [exact D9|]. unfold funit2. cbn [f2x f2y]. rewrite NZ. unfold gnrm2. cbn [f2x f2y fscale2]. rewrite Eu. cbn [x2 y2]. set (len := ghyp lx ly) in *. clearbody len.
  assert (Q9 : 9 * u53 * L <= / 1000 * L) by nra. assert (PL : 999 / 1000 * L <= FR len) by (apply Rabs_iff in D9; lra).
  pose proof (fdiv_spec f1 len (proj1 f1_ok) Fl (proj2 f1_ok) Vl ltac:(nra)) as (Vk & _ & Fk & Ek & _). rewrite FR_f1 in Fk, Ek.
  assert (IL : 0 < / L) by now apply Rinv_0_lt_compat. assert (IL1 : L * / L = 1) by (apply Rinv_r; lra). assert (Il : 0 < / FR len) by (apply Rinv_0_lt_compat; lra). assert (Il1 : FR len * / FR len = 1) by (apply Rinv_r; lra).
  assert (IB : / FR len <= 1001 / 999 * / L). { apply (Rmult_le_reg_r (FR len)); [lra|]. rewrite Rinv_l by lra. apply (Rmult_le_reg_r L); [lra|]. replace (1001 / 999 * / L * FR len * L) with (1001 / 999 * FR len) by (field; lra). lra. }
  unfold Rdiv in Fk, Ek. rewrite Rmult_1_l in Fk, Ek. rewrite (Rabs_right (/ FR len)) in Fk, Ek by lra.
  assert (BIG : / L <= bpow 700).
  { rewrite <- (Rinv_inv (bpow 700)). apply Rinv_le_contravar; [apply Rinv_0_lt_compat, bpow_pos|]. rewrite <- bpow_opp. destruct K as (K1 & _).
    apply Rle_trans with (bpow (-300) * bpow (-400)); [rewrite <- bpow_add; apply bpow_le; lia|]. pose proof (bpow_pos (-300)). nra. }
  assert (FIN : fin (fdiv f1 len) = true).
  { apply Fk. apply Rle_trans with (2 * bpow 700); [nra|]. unfold fmaxR. replace (bpow 1024) with (bpow 53 * bpow 971) by (rewrite <- bpow_add; reflexivity).
    assert (4 <= bpow 53) by (rewrite bpow_Z by lia; apply IZR_le; cbn; lia). pose proof (bpow_le 700 971 ltac:(lia)). pose proof (bpow_pos 971). nra. }
  specialize (Ek FIN).
  assert (SMALL : eta <= u53 * / L).
  { apply (Rmult_le_reg_r L); [lra|]. replace (u53 * / L * L) with u53 by (field; lra). destruct K as (_ & K2). apply Rle_trans with (eta * (bpow 2 * bpow 400)).
    - apply Rmult_le_compat_l; [lra|]. assert (bpow 2 = 4) by (rewrite bpow_Z by lia; reflexivity). rewrite H. pose proof (bpow_pos 400). lra.
    - unfold eta, u53. rewrite <- !bpow_add. apply bpow_le. lia. }
  assert (Dk : Rabs (FR (fdiv f1 len) - / L) <= 11 * u53 * / L).
  { assert (Di : Rabs (/ FR len - / L) <= 9.5 * u53 * / L).
    { replace (/ FR len - / L) with ((L - FR len) * (/ FR len * / L)) by (field; lra). rewrite Rabs_mult, (Rabs_right (/ FR len * / L)) by nra. rewrite Rabs_minus_sym in D9.
      apply Rle_trans with (9 * u53 * L * (/ FR len * / L)); [apply Rmult_le_compat_r; [nra|rewrite Rabs_minus_sym; rewrite Rabs_minus_sym in D9; exact D9]|].
      replace (9 * u53 * L * (/ FR len * / L)) with (9 * u53 * / FR len) by (field; lra). nra. }
    assert (Dr : Rabs (FR (fdiv f1 len) - / FR len) <= 1.01 * u53 * / L) by (destruct Ek as [Ek|Ek]; nra).
    apply Rabs_iff in Di, Dr. apply Rabs_iff. nra. }
  assert (Rk : rl (fdiv f1 len) (/ L) 11 0) by (split; [now split|]; rewrite (Rabs_right (/ L)) by lra; lra).
  assert (GO : forall z Zr, rl z Zr 1 0 -> Rabs Zr <= L -> rl (fmul (fdiv f1 len) z) (1 / L * Zr) 14 eta).
  { intros z Zr Rz Bz. unfold Rdiv. rewrite Rmult_1_l. eapply rl_weak; [eapply (rl_prod _ _ _ _ 11 1 0); [exact Rk|exact Rz|lra|lra|lra|]|lra|lra].
    rewrite (Rabs_right (/ L)) by lra. assert (/ L * Rabs Zr <= 1) by (rewrite <- (Rinv_l L) by lra; apply Rmult_le_compat_l; lra). pose proof big_max. lra. }
  split; apply GO; try assumption; split; try (split; assumption); assumption.
Qed.

(** the vector from the vertex [a] to [p] *)
Lemma from_vertex S p a : scale_ok S -> at2 S p -> at2 S a -> let q := sub2 (FR2 p) (FR2 a) in
  rl (f2x (fsub2 p a)) (x2 q) 1 0 /\ rl (f2y (fsub2 p a)) (y2 q) 1 0 /\ Rabs (x2 q) <= 2 * S /\ Rabs (y2 q) <= 2 * S /\ norm2 q <= 3 * S.
Proof.
  intros K (Np & Mp & P1 & P2) (Na & Ma & A1 & A2) q. destruct (scale_facts S K) as (S0 & W0 & Et & M & Sm). unfold q. cbn [sub2 FR2 x2 y2 fsub2 f2x f2y].
  assert (X1 : Rabs (FR (f2x p) - FR (f2x a)) <= 2 * S) by (apply Rabs_iff in P1, A1; apply Rabs_iff; lra).
  assert (Y1 : Rabs (FR (f2y p) - FR (f2y a)) <= 2 * S) by (apply Rabs_iff in P2, A2; apply Rabs_iff; lra).
  split; [apply rl_diff; auto; lra|]. split; [apply rl_diff; auto; lra|]. split; [exact X1|]. split; [exact Y1|]. rewrite norm2_hypot. cbn [sub2 FR2 x2 y2].
  set (X := FR (f2x p) - FR (f2x a)) in *. set (Y := FR (f2y p) - FR (f2y a)) in *. clearbody X Y. pose proof (hypot_nonneg X Y) as N. pose proof (hypot_sq X Y) as Sq. apply Rabs_iff in X1, Y1.
  assert (X * X <= 4 * (S * S)) by nra. assert (Y * Y <= 4 * (S * S)) by nra. nra.
Qed.
Lemma unit_le a b : 0 < norm2 (sub2 b a) -> let u := unit2 (sub2 b a) in Rabs (x2 u) <= 1 /\ Rabs (y2 u) <= 1 /\ x2 u * x2 u + y2 u * y2 u = 1.
Proof.
  intros P u. assert (N : a <> b). { intros ->. assert (E : norm2 (sub2 b b) = 0) by (rewrite norm2_hypot; destruct b as [bx by_]; cbn [sub2 x2 y2]; unfold hypot; rewrite !Rminus_diag_eq by reflexivity; rewrite Rmult_0_l, Rplus_0_l; apply sqrt_0). lra. }
  destruct (PropsPoly.seg_frame a b N) as (_ & U & _). fold u in U. clearbody u. split; [|split; [|exact U]]; apply Rabs_iff; nra.
Qed.
(** the dot product of that vector with a computed unit vector *)
Lemma dot_near S q X Y x y v w : scale_ok S -> rl (f2x q) X 1 0 -> rl (f2y q) Y 1 0 -> Rabs X <= 2 * S -> Rabs Y <= 2 * S -> hypot X Y <= 3 * S ->
  rl v x 14 eta -> rl w y 14 eta -> Rabs x <= 1 -> Rabs y <= 1 -> x * x + y * y = 1 ->
  num (fdot2 q (FV2 v w)) /\ Rabs (FR (fdot2 q (FV2 v w)) - (X * x + Y * y)) <= 72 * (u53 * S) /\
  exists m, (FR (fdot2 q (FV2 v w)) < 0 <-> m < 0) /\ (0 < FR (fdot2 q (FV2 v w)) <-> 0 < m) /\
    Rabs (m - (X * x + Y * y)) <= 17 * u53 * (Rabs X * Rabs x + Rabs Y * Rabs y) + bpow (-400) * (u53 * S).
Proof.
  intros K Hx Hy BX BY BH Hv Hw Bx By U. destruct (scale_facts S K) as (S0 & W0 & Et & M & Sm). destruct (tiny_S S K) as (_ & _ & T3 & T4 & T5). pose proof u53_pos as Up. pose proof u53_small as Us. pose proof eta_pos as Ep.
  assert (Es0 : 0 < eta * S) by nra. assert (Es : eta * S <= S). { assert (eta <= 1) by (pose proof u_eta; lra). nra. }
  pose proof (Rabs_pos X) as PX. pose proof (Rabs_pos Y) as PY. pose proof (Rabs_pos x) as Px. pose proof (Rabs_pos y) as Py.
  assert (A1 : rl (fmul (f2x q) v) (X * x) 17 (2 * (eta * Rabs X) + eta)) by (eapply rl_weak; [eapply (rl_prod _ _ _ _ 1 14 eta); [exact Hx|exact Hv|lra|lra|lra|]|lra|lra]; nra).
  assert (A2 : rl (fmul (f2y q) w) (Y * y) 17 (2 * (eta * Rabs Y) + eta)) by (eapply rl_weak; [eapply (rl_prod _ _ _ _ 1 14 eta); [exact Hy|exact Hw|lra|lra|lra|]|lra|lra]; nra).
  destruct A1 as (N1 & D1), A2 as (N2 & D2). rewrite !Rabs_mult in D1, D2.
  assert (Q1 : Rabs X * Rabs x <= 2 * S) by nra. assert (Q2 : Rabs Y * Rabs y <= 2 * S) by nra.
  assert (Q3 : eta * Rabs X <= 2 * (eta * S)) by nra. assert (Q4 : eta * Rabs Y <= 2 * (eta * S)) by nra.
  assert (T6 : bpow (-400) * (u53 * S) <= / 1000 * (u53 * S)) by (apply Rmult_le_compat_r; [lra|pose proof (bpow_pos (-300)); lra]).
  assert (Q5 : u53 * (Rabs X * Rabs x) <= 2 * (u53 * S)) by nra. assert (Q6 : u53 * (Rabs Y * Rabs y) <= 2 * (u53 * S)) by nra.
  assert (E1 : Rabs (FR (fmul (f2x q) v) - X * x) <= 34.1 * (u53 * S)) by lra. assert (E2 : Rabs (FR (fmul (f2y q) w) - Y * y) <= 34.1 * (u53 * S)) by lra.
  assert (BT : Rabs (X * x + Y * y) <= 3 * S).
  { pose proof (hypot_nonneg X Y). pose proof (hypot_sq X Y) as Sq. assert ((X * x + Y * y) * (X * x + Y * y) <= hypot X Y * hypot X Y). { rewrite Sq. assert (0 <= (X * y - Y * x) * (X * y - Y * x)) by apply Rle_0_sqr. nra. }
    apply Rle_trans with (hypot X Y); [|exact BH]. apply Rabs_iff. nra. }
  destruct (sum_err _ _ _ _ _ _ N1 N2 E1 E2 ltac:(lra)) as (N & D & C1 & C2). unfold fdot2. cbn [f2x f2y]. split; [exact N|]. split.
  - eapply Rle_trans; [exact D|]. assert (u53 * (Rabs (X * x + Y * y) + (34.1 * (u53 * S) + 34.1 * (u53 * S))) <= u53 * (3.1 * S)) by (apply Rmult_le_compat_l; lra). lra.
  - exists (FR (fmul (f2x q) v) + FR (fmul (f2y q) w)). split; [exact C1|]. split; [exact C2|]. apply Rabs_iff in D1, D2. apply Rabs_iff. lra.
Qed.
Lemma sq_S S : scale_ok S -> 100 * (S * S) <= fmaxR.
Proof.
  intros (A & B). pose proof (bpow_pos (-400)). apply Rle_trans with (100 * (bpow 400 * bpow 400)); [nra|]. rewrite <- bpow_add. unfold fmaxR. replace (bpow 1024) with (bpow 53 * bpow 971) by (rewrite <- bpow_add; reflexivity).
  assert (1000 <= bpow 53) by (rewrite bpow_Z by lia; apply IZR_le; cbn; lia). pose proof (bpow_le (400 + 400) 971 ltac:(lia)). pose proof (bpow_pos 971). nra.
Qed.
Lemma tiny_sq : bpow (-536) * bpow (-536) = 8 * eta.
Proof. unfold eta. rewrite <- bpow_add. change (-536 + -536)%Z with (3 + -1075)%Z. rewrite bpow_add. rewrite (bpow_Z 3) by lia. reflexivity. Qed.
Lemma square_nonneg x : num x -> fin (fmul x x) = true -> 0 <= FR (fmul x x).
Proof.
  intros (F & V) G. destruct (correct_ge _ _ fzero (fmul_spec x x F F V V) eq_refl eq_refl ltac:(cbn [FR fzero]; apply Rle_0_sqr)) as (H & _). exact (H G).
Qed.
Lemma norm_sq_near S q X Y : scale_ok S -> rl (f2x q) X 1 0 -> rl (f2y q) Y 1 0 -> Rabs X <= 2 * S -> Rabs Y <= 2 * S -> hypot X Y <= 3 * S ->
  num (fdot2 q q) /\ 0 <= FR (fdot2 q q) /\ Rabs (sqrt (FR (fdot2 q q)) - hypot X Y) <= 20 * (u53 * S).
Proof.
  intros K Hx Hy BX BY BH. destruct (scale_facts S K) as (S0 & W0 & Et & M & Sm). destruct (tiny_S S K) as (_ & T2 & _). pose proof (sq_S S K) as M2. pose proof u53_pos as Up. pose proof u53_small as Us. pose proof eta_pos as Ep.
  pose proof (Rabs_pos X) as PX. pose proof (Rabs_pos Y) as PY.
  assert (A1 : rl (fmul (f2x q) (f2x q)) (X * X) 4 eta) by (eapply rl_weak; [eapply (rl_prod _ _ _ _ 1 1 0); [exact Hx|exact Hx|lra|lra|lra|]|lra|lra]; nra).
  assert (A2 : rl (fmul (f2y q) (f2y q)) (Y * Y) 4 eta) by (eapply rl_weak; [eapply (rl_prod _ _ _ _ 1 1 0); [exact Hy|exact Hy|lra|lra|lra|]|lra|lra]; nra).
  destruct A1 as (N1 & D1), A2 as (N2 & D2). pose proof (square_nonneg _ (proj1 Hx) (proj1 N1)) as P1. pose proof (square_nonneg _ (proj1 Hy) (proj1 N2)) as P2.
  rewrite (Rabs_right (X * X)) in D1 by nra. rewrite (Rabs_right (Y * Y)) in D2 by nra. pose proof (hypot_sq X Y) as Sq. pose proof (hypot_nonneg X Y) as HN.
  set (Q := X * X + Y * Y) in *. assert (Q0 : 0 <= Q) by (unfold Q; nra). assert (Q9 : Q <= 9 * (S * S)) by nra. assert (uQ : u53 * Q <= / 1000 * Q) by nra. assert (uQ0 : 0 <= u53 * Q) by nra.
  assert (EB : eta <= S * S). { destruct K as (K1 & _). apply Rle_trans with (bpow (-400) * bpow (-400)); [unfold eta; rewrite <- bpow_add; apply bpow_le; lia|]. pose proof (bpow_pos (-400)). nra. }
  assert (AQ : Rabs Q = Q) by (apply Rabs_right; lra).
  destruct (sum_err _ _ _ _ _ _ N1 N2 D1 D2) as (N & D & C1 & _).
  { fold Q. rewrite AQ. unfold Q in *. lra. }
  fold Q in D. rewrite AQ in D. unfold fdot2. set (z := fadd _ _) in *. split; [exact N|].
  assert (Z0 : 0 <= FR z) by (apply Rnot_lt_le; intros C; apply C1 in C; lra). split; [exact Z0|].
  assert (DD : Rabs (FR z - Q) <= 6 * u53 * Q + bpow (-536) * bpow (-536)).
  { rewrite tiny_sq. eapply Rle_trans; [exact D|]. replace (4 * u53 * (X * X) + eta + (4 * u53 * (Y * Y) + eta)) with (4 * (u53 * Q) + 2 * eta) by (unfold Q; ring).
    assert (u53 * (Q + (4 * (u53 * Q) + 2 * eta)) <= u53 * Q + 4 * (u53 * (/ 1000 * Q)) + 2 * eta) by nra. lra. }
  assert (HQ : hypot X Y = sqrt Q) by reflexivity. rewrite HQ. eapply Rle_trans; [apply (sqrt_near (FR z) Q (6 * u53) (bpow (-536))); auto; [pose proof (bpow_pos (-536)); lra|nra]|]. rewrite <- HQ.
  assert (6 * u53 * hypot X Y <= 18 * (u53 * S)) by nra. lra.
Qed.
Lemma square_near S n z : scale_ok S -> num n -> Rabs (FR n - z) <= 72 * (u53 * S) -> Rabs z <= 3 * S ->
  num (fmul n n) /\ 0 <= FR (fmul n n) /\ Rabs (sqrt (FR (fmul n n)) - Rabs z) <= 76 * (u53 * S).
Proof.
  intros K (F & V) D B. destruct (scale_facts S K) as (S0 & W0 & Et & M & Sm). destruct (tiny_S S K) as (_ & T2 & _). pose proof (sq_S S K) as M2. pose proof u53_pos as Up. pose proof u53_small as Us. pose proof eta_pos as Ep.
  assert (Bn : Rabs (FR n) <= 3.1 * S). { pose proof (Rabs_triang (FR n - z) z) as T. replace (FR n - z + z) with (FR n) in T by ring. lra. }
  assert (Sn : FR n * FR n = Rabs (FR n) * Rabs (FR n)) by (pose proof (Rsqr_abs (FR n)) as E; unfold Rsqr in E; exact E). pose proof (Rabs_pos (FR n)) as Pn.
  destruct (fmul_spec n n F F V V) as (V' & _ & Fi & Er & _). rewrite (Rabs_right (FR n * FR n)) in Fi, Er by nra. specialize (Fi ltac:(nra)). specialize (Er Fi).
  split; [now split|]. pose proof (square_nonneg n (conj F V) Fi) as P. split; [exact P|].
  assert (Q : Rabs (FR (fmul n n) - FR n * FR n) <= u53 * (FR n * FR n) + bpow (-536) * bpow (-536)) by (rewrite tiny_sq; destruct Er as [Er|Er]; nra).
  apply sqrt_near in Q; [|exact P|nra|pose proof (bpow_pos (-536)); lra|lra].
  rewrite Sn, sqrt_square in Q by exact Pn. assert (u53 * Rabs (FR n) <= 3.1 * (u53 * S)) by nra.
  pose proof (Rabs_triang_inv2 (FR n) z) as T. apply Rabs_iff in Q. assert (T' : Rabs (Rabs (FR n) - Rabs z) <= 72 * (u53 * S)) by lra. apply Rabs_iff in T'. apply Rabs_iff. lra.
Qed.

(** what one segment adds to the two running values *)
Definition fseg_d2 (p a b : fv2) : spec_float :=
  let pa := fsub2 p a in let vec := funit2 (fsub2 b a) in
  let t := fdot2 pa vec in let dn := fdot2 pa (FV2 (f2y vec) (SFopp (f2x vec))) in
  if SFltb t fzero then fdot2 pa pa else if fgt t (gnrm2 (fsub2 b a)) then fdot2 (fsub2 p b) (fsub2 p b) else fmul dn dn.
Definition fseg_wn (p a b : fv2) : Z :=
  let vec := funit2 (fsub2 b a) in let dn := fdot2 (fsub2 p a) (FV2 (f2y vec) (SFopp (f2x vec))) in
  if SFleb (f2y a) (f2y p) then if fgt (f2y b) (f2y p) then if SFltb dn fzero then 1%Z else 0%Z else 0%Z
  else if SFleb (f2y b) (f2y p) then if fgt dn fzero then (-1)%Z else 0%Z else 0%Z.
Lemma fpoly_fold p : forall l dd wn,
  fst (fold_left (fpoly_step p) (fpoly_edges l) (dd, wn, fsub2 p (hd (FV2 fzero fzero) l))) =
  (fold_left (fun acc e => go_min acc (fseg_d2 p (fst e) (snd e))) (fpoly_edges l) dd, (wn + PropsPoly.sumZ (map (fun e => fseg_wn p (fst e) (snd e)) (fpoly_edges l)))%Z).
Proof.
  induction l as [|a l IH]; intros dd wn; [cbn; f_equal; lia|]. destruct l as [|b r]; [cbn; f_equal; lia|].
  change (fpoly_edges (a :: b :: r)) with ((a, b) :: fpoly_edges (b :: r)). cbn [fold_left map PropsPoly.sumZ fold_right fst snd hd].
  assert (E : fpoly_step p (dd, wn, fsub2 p a) (a, b) = (go_min dd (fseg_d2 p a b), (wn + fseg_wn p a b)%Z, fsub2 p b)).
  { unfold fpoly_step, fseg_d2, fseg_wn. cbv zeta. f_equal. f_equal.
    - destruct (SFltb _ _); [reflexivity|]. destruct (fgt _ _); reflexivity.
    - destruct (SFleb (f2y a) (f2y p)); [destruct (fgt (f2y b) (f2y p)); [|lia]; destruct (SFltb _ _); lia|].
      destruct (SFleb (f2y b) (f2y p)); [|lia]. destruct (fgt _ _); lia. }
  rewrite E. specialize (IH (go_min dd (fseg_d2 p a b)) (wn + fseg_wn p a b)%Z). cbn [hd] in IH. rewrite IH. f_equal. unfold PropsPoly.sumZ. lia.
Qed.
Lemma hyp_eq a b c d : a * a + b * b = c * c + d * d -> hypot a b = hypot c d.
Proof. intros E. unfold hypot. now rewrite E. Qed.
(** the distance to the segment in the frame of the segment *)
Lemma seg_dev p a b : a <> b -> let q := sub2 p a in let L := norm2 (sub2 b a) in let u := unit2 (sub2 b a) in
  let T := x2 q * x2 u + y2 q * y2 u in let N := x2 q * y2 u + y2 q * - x2 u in
  norm2 q = hypot N T /\ norm2 (sub2 p b) = hypot N (T - L) /\
  sqrt (PropsPoly.seg_d2 p a b) = hypot N (if Rltb T 0 then T else if Rltb L T then T - L else 0).
Proof.
  intros Ne q L u T N. destruct (PropsPoly.seg_frame a b Ne) as (P & U & BX & BY). fold L u in P, U, BX, BY.
  assert (E1 : norm2 q = hypot N T).
  { rewrite norm2_hypot. apply hyp_eq. unfold N, T. transitivity ((x2 q * x2 q + y2 q * y2 q) * (x2 u * x2 u + y2 u * y2 u)); [rewrite U; ring|ring]. }
  assert (E2 : norm2 (sub2 p b) = hypot N (T - L)).
  { rewrite norm2_hypot. apply hyp_eq. unfold N, T, q. cbn [sub2 x2 y2]. rewrite BX, BY. set (X := x2 p - x2 a). set (Y := y2 p - y2 a).
    replace (x2 p - (x2 a + L * x2 u)) with (X - L * x2 u) by (unfold X; ring). replace (y2 p - (y2 a + L * y2 u)) with (Y - L * y2 u) by (unfold Y; ring).
    clearbody X Y L u. transitivity ((X * X + Y * Y) * (x2 u * x2 u + y2 u * y2 u) - 2 * L * (X * x2 u + Y * y2 u) + L * L * (x2 u * x2 u + y2 u * y2 u)); rewrite ?U; ring_simplify; [nra|].
    replace (x2 u ^ 2 + y2 u ^ 2) with 1 by lra. nra. }
  split; [exact E1|]. split; [exact E2|]. unfold PropsPoly.seg_d2. cbv zeta. unfold dot2. fold q L u. cbn [x2 y2]. fold T N.
  destruct (Rltb T 0); [exact E1|]. destruct (Rltb L T); [exact E2|]. unfold hypot. f_equal. ring.
Qed.
(** the sign test of a crossing edge can only be wrong next to the edge *)
Lemma seg_cross S p a b : scale_ok S -> at2 S p -> at2 S a -> at2 S b -> edge_ok S a b ->
  fseg_wn p a b = PropsPoly.seg_wn (FR2 p) (FR2 a) (FR2 b) \/ sqrt (PropsPoly.seg_d2 (FR2 p) (FR2 a) (FR2 b)) <= 90 * (u53 * S).
Proof.
  intros K Hp Ha Hb Ed. destruct (scale_facts S K) as (S0 & W0 & Et & M & Sm). destruct (tiny_S S K) as (_ & _ & _ & T4 & T5). pose proof u53_pos as Up.
  destruct (edge_len S a b K Ha Hb Ed) as ((L1 & L2) & L0). destruct (edge_vec S a b K Ha Hb Ed) as (_ & _ & Rx & Ry). destruct (from_vertex S p a K Hp Ha) as (Qx & Qy & BX & BY & BH).
  destruct (unit_le (FR2 a) (FR2 b) L0) as (Ux & Uy & UU). pose proof Hp as (Np & Mp & _ & _). pose proof Ha as (Na & Ma & _ & _). pose proof Hb as (Nb & Mb & _ & _).
  assert (Ne : FR2 a <> FR2 b). { intros E. rewrite E in L0. assert (Z : norm2 (sub2 (FR2 b) (FR2 b)) = 0) by (rewrite norm2_hypot; cbn [sub2 x2 y2 FR2]; unfold hypot; rewrite !Rminus_diag_eq by reflexivity; rewrite Rmult_0_l, Rplus_0_l; apply sqrt_0). lra. }
  destruct (PropsPoly.seg_frame _ _ Ne) as (_ & _ & BXe & BYe). rewrite norm2_hypot in BH.
  pose proof (dot_near S (fsub2 p a) _ _ _ _ _ _ K Qx Qy BX BY BH Ry (rl_opp _ _ _ _ Rx) Uy ltac:(rewrite Rabs_Ropp; exact Ux) ltac:(lra)) as (Nn & _ & (m & C1 & C2 & Dm)).
  unfold fseg_wn, PropsPoly.seg_wn. cbv zeta. set (dn := fdot2 _ _) in *. unfold dot2. cbn [x2 y2]. set (L := norm2 (sub2 (FR2 b) (FR2 a))) in *. set (u := unit2 (sub2 (FR2 b) (FR2 a))) in *.
  set (q := sub2 (FR2 p) (FR2 a)) in *. set (N := x2 q * y2 u + y2 q * - x2 u) in *.
  assert (La : SFleb (f2y a) (f2y p) = Rleb (y2 (FR2 a)) (y2 (FR2 p))).
  { destruct Ma, Mp. destruct (Rleb (y2 (FR2 a)) (y2 (FR2 p))) eqn:E; [apply Rleb_true in E; now apply leb_FR|]. destruct (SFleb (f2y a) (f2y p)) eqn:E'; [|reflexivity]. apply leb_FR in E'; auto. apply Rleb_false in E. cbn [FR2 y2] in E. lra. }
  assert (Lb : SFleb (f2y b) (f2y p) = Rleb (y2 (FR2 b)) (y2 (FR2 p))).
  { destruct Mb, Mp. destruct (Rleb (y2 (FR2 b)) (y2 (FR2 p))) eqn:E; [apply Rleb_true in E; now apply leb_FR|]. destruct (SFleb (f2y b) (f2y p)) eqn:E'; [|reflexivity]. apply leb_FR in E'; auto. apply Rleb_false in E. cbn [FR2 y2] in E. lra. }
  assert (Gb : fgt (f2y b) (f2y p) = Rltb (y2 (FR2 p)) (y2 (FR2 b))) by (unfold fgt; apply Rltb_ltb; destruct Mb, Mp; rewrite ltb_FR by auto; reflexivity).
  assert (Gn : SFltb dn fzero = Rltb (FR dn) 0) by (apply Rltb_ltb; destruct Nn; rewrite ltb_FR by (auto; reflexivity); reflexivity).
  assert (Gp : fgt dn fzero = Rltb 0 (FR dn)) by (now apply gt_zero).
  rewrite La, Lb, Gb, Gn, Gp.
  assert (CORE : (FR2 a).(y2) <= (FR2 p).(y2) <= (FR2 b).(y2) \/ (FR2 b).(y2) <= (FR2 p).(y2) <= (FR2 a).(y2) -> (FR dn < 0 /\ 0 <= N) \/ (0 < FR dn /\ N <= 0) \/ (FR dn <= 0 /\ 0 < N) \/ (0 <= FR dn /\ N < 0) ->
    y2 (FR2 a) <> y2 (FR2 b) -> sqrt (PropsPoly.seg_d2 (FR2 p) (FR2 a) (FR2 b)) <= 90 * (u53 * S)).
  { intros Hc Hs Hh.
    assert (Yl : y2 (FR2 b) - y2 (FR2 a) = L * y2 u) by lra. assert (Yh : bpow (-300) * S <= Rabs (L * y2 u)).
    { rewrite <- Yl. destruct Ed as [Ed|(Ed & _)]; [exact Ed|]. exfalso. apply Hh. cbn [FR2 y2]. symmetry. exact Ed. }
    assert (Y0 : y2 u <> 0) by (intros Z; rewrite Z, Rmult_0_r in Yl; lra). assert (PY : 0 < Rabs (y2 u)) by now apply Rabs_pos_lt.
    rewrite Rabs_mult, (Rabs_right L) in Yh by lra. pose proof (bpow_pos (-300)) as P3.
    assert (Yt : bpow (-400) <= Rabs (y2 u)). { assert (L * Rabs (y2 u) <= 3 * S * Rabs (y2 u)) by (apply Rmult_le_compat_r; lra). assert (bpow (-300) <= 3 * Rabs (y2 u)) by (apply (Rmult_le_reg_r S); lra). lra. }
    assert (Yq : Rabs (y2 q) <= L * Rabs (y2 u)).
    { rewrite <- (Rabs_right L) by lra. rewrite <- Rabs_mult, <- Yl. unfold q. cbn [sub2 y2]. destruct Hc as [Hc|Hc].
      - rewrite !Rabs_right by lra. lra.
      - rewrite (Rabs_left1 (y2 (FR2 p) - y2 (FR2 a))), (Rabs_left1 (y2 (FR2 b) - y2 (FR2 a))) by lra. lra. }
    assert (BN : Rabs N <= 86 * (u53 * S) * Rabs (y2 u)).
    { apply Rle_trans with (Rabs (m - N)).
      - destruct Hs as [(A1 & A2)|[(A1 & A2)|[(A1 & A2)|(A1 & A2)]]].
        + apply C1 in A1. rewrite (Rabs_right N), (Rabs_left (m - N)) by lra. lra.
        + apply C2 in A1. rewrite (Rabs_left1 N), (Rabs_right (m - N)) by lra. lra.
        + assert (m <= 0) by (apply Rnot_lt_le; intros Q; apply C2 in Q; lra). rewrite (Rabs_right N), (Rabs_left (m - N)) by lra. lra.
        + assert (0 <= m) by (apply Rnot_lt_le; intros Q; apply C1 in Q; lra). rewrite (Rabs_left1 N), (Rabs_right (m - N)) by lra. lra.
      - eapply Rle_trans; [exact Dm|]. rewrite Rabs_Ropp. pose proof (Rabs_pos (x2 q)). pose proof (Rabs_pos (x2 u)). pose proof (Rabs_pos (y2 q)).
        assert (Rabs (x2 q) * Rabs (y2 u) <= 2 * S * Rabs (y2 u)) by (apply Rmult_le_compat_r; lra).
        assert (Rabs (y2 q) * Rabs (x2 u) <= 3 * S * Rabs (y2 u)).
        { apply Rle_trans with (L * Rabs (y2 u) * 1); [apply Rmult_le_compat; lra|]. rewrite Rmult_1_r. apply Rmult_le_compat_r; lra. }
        assert (17 * u53 * (Rabs (x2 q) * Rabs (y2 u) + Rabs (y2 q) * Rabs (x2 u)) <= 17 * u53 * (5 * S * Rabs (y2 u))) by (apply Rmult_le_compat_l; lra).
        assert (bpow (-400) * (u53 * S) <= Rabs (y2 u) * (u53 * S)) by (apply Rmult_le_compat_r; lra). lra. }
    set (s := y2 q / (L * y2 u)). assert (Ly0 : L * y2 u <> 0) by (apply Rmult_integral_contrapositive_currified; lra).
    assert (Es : s * (L * y2 u) = y2 q) by (unfold s; field; split; [exact Y0|lra]).
    assert (Sr : 0 <= s <= 1).
    { rewrite <- Yl in Es, Ly0. assert (Eq : y2 q = y2 (FR2 p) - y2 (FR2 a)) by reflexivity. rewrite Eq in Es. clear - Es Ly0 Hc. destruct Hc as [Hc|Hc]; nra. }
    destruct (PropsPoly.seg_spec (FR2 p) (FR2 a) (FR2 b) Ne) as (_ & LB). specialize (LB (add2 (FR2 a) (scale2 s (sub2 (FR2 b) (FR2 a)))) (ex_intro _ s (conj Sr eq_refl))).
    assert (H90 : 0 <= 90 * (u53 * S)) by lra. rewrite <- (sqrt_square (90 * (u53 * S)) H90). apply sqrt_le_1_alt. eapply Rle_trans; [exact LB|].
    unfold norm2sq, dot2. cbn [sub2 add2 scale2 x2 y2]. rewrite BXe, BYe.
    replace (y2 (FR2 p) - (y2 (FR2 a) + s * (y2 (FR2 a) + L * y2 u - y2 (FR2 a)))) with 0.
    2:{ replace (s * (y2 (FR2 a) + L * y2 u - y2 (FR2 a))) with (s * (L * y2 u)) by ring. rewrite Es. unfold q. cbn [sub2 y2]. ring. }
    replace (x2 (FR2 p) - (x2 (FR2 a) + s * (x2 (FR2 a) + L * x2 u - x2 (FR2 a)))) with (N / y2 u).
    2:{ unfold N, s, q. cbn [sub2 x2 y2]. field. split; [exact Y0|lra]. }
    assert (Bd : Rabs (N / y2 u) <= 86 * (u53 * S)). { unfold Rdiv. rewrite Rabs_mult, Rabs_inv. apply (Rmult_le_reg_r (Rabs (y2 u))); [exact PY|]. rewrite Rmult_assoc, Rinv_l by lra. lra. }
    apply Rabs_iff in Bd. set (z := N / y2 u) in *. set (w := u53 * S) in *. clearbody z w. clear - Bd W0. nra. }
  destruct (Rleb (y2 (FR2 a)) (y2 (FR2 p))) eqn:E1.
  - destruct (Rltb (y2 (FR2 p)) (y2 (FR2 b))) eqn:E2; [|left; reflexivity]. apply Rleb_true in E1. apply Rltb_true in E2. destruct (Rltb (FR dn) 0) eqn:E3, (Rltb N 0) eqn:E4; try (left; reflexivity); right; apply CORE; rewrite ?Rltb_true, ?Rltb_false in *; try lra.
  - destruct (Rleb (y2 (FR2 b)) (y2 (FR2 p))) eqn:E2; [|left; reflexivity]. apply Rleb_false in E1. apply Rleb_true in E2. destruct (Rltb 0 (FR dn)) eqn:E3, (Rltb 0 N) eqn:E4; try (left; reflexivity); right; apply CORE; rewrite ?Rltb_true, ?Rltb_false in *; try lra.
Qed.
Lemma hyp_step N x y : Rabs (hypot N x - hypot N y) <= Rabs (x - y).
Proof. eapply Rle_trans; [apply hypot_dev|]. rewrite Rminus_diag_eq, Rabs_R0 by reflexivity. lra. Qed.
Lemma seg_near S p a b : scale_ok S -> at2 S p -> at2 S a -> at2 S b -> edge_ok S a b ->
  num (fseg_d2 p a b) /\ 0 <= FR (fseg_d2 p a b) /\ Rabs (sqrt (FR (fseg_d2 p a b)) - sqrt (PropsPoly.seg_d2 (FR2 p) (FR2 a) (FR2 b))) <= 190 * (u53 * S) /\
  sqrt (PropsPoly.seg_d2 (FR2 p) (FR2 a) (FR2 b)) <= 3 * S.
Proof.
  intros K Hp Ha Hb Ed. destruct (scale_facts S K) as (S0 & W0 & Et & M & Sm). pose proof u53_pos as Up.
  destruct (edge_len S a b K Ha Hb Ed) as ((L1 & L2) & L0). destruct (edge_vec S a b K Ha Hb Ed) as (Nl & Dl & Rx & Ry). destruct (from_vertex S p a K Hp Ha) as (Qx & Qy & BX & BY & BH).
  destruct (from_vertex S p b K Hp Hb) as (Zx & Zy & CX & CY & CH).
  destruct (unit_le (FR2 a) (FR2 b) L0) as (Ux & Uy & UU).
  assert (Ne : FR2 a <> FR2 b). { intros E. rewrite E in L0. assert (Z : norm2 (sub2 (FR2 b) (FR2 b)) = 0) by (rewrite norm2_hypot; cbn [sub2 x2 y2 FR2]; unfold hypot; rewrite !Rminus_diag_eq by reflexivity; rewrite Rmult_0_l, Rplus_0_l; apply sqrt_0). lra. }
  destruct (seg_dev (FR2 p) (FR2 a) (FR2 b) Ne) as (E1 & E2 & E3). rewrite E3. rewrite norm2_hypot in BH, CH.
  destruct (dot_near S (fsub2 p a) _ _ _ _ _ _ K Qx Qy BX BY BH Ry (rl_opp _ _ _ _ Rx) Uy ltac:(rewrite Rabs_Ropp; exact Ux) ltac:(lra)) as (Nn & Dn & _).
  destruct (dot_near S (fsub2 p a) _ _ _ _ _ _ K Qx Qy BX BY BH Rx Ry Ux Uy UU) as (Nt & Dt & _).
  destruct (norm_sq_near S _ _ _ K Qx Qy BX BY BH) as (NA & PA & DA). destruct (norm_sq_near S _ _ _ K Zx Zy CX CY CH) as (NB & PB & DB).
  rewrite <- norm2_hypot in DA, DB, BH, CH. rewrite E1 in DA, BH. rewrite E2 in DB, CH.
  unfold fseg_d2. cbv zeta. assert (EV : FV2 (f2x (funit2 (fsub2 b a))) (f2y (funit2 (fsub2 b a))) = funit2 (fsub2 b a)) by now destruct (funit2 (fsub2 b a)).
  rewrite EV in Nt, Dt. set (t := fdot2 (fsub2 p a) (funit2 (fsub2 b a))) in *. set (dn := fdot2 (fsub2 p a) (FV2 _ _)) in *. set (len := gnrm2 (fsub2 b a)) in *.
  set (qa := fdot2 (fsub2 p a) (fsub2 p a)) in *. set (qb := fdot2 (fsub2 p b) (fsub2 p b)) in *. cbv zeta in *.
  set (L := norm2 (sub2 (FR2 b) (FR2 a))) in *. set (u := unit2 (sub2 (FR2 b) (FR2 a))) in *. set (q := sub2 (FR2 p) (FR2 a)) in *.
  set (T := x2 q * x2 u + y2 q * y2 u) in *. set (N := x2 q * y2 u + y2 q * - x2 u) in *.
  assert (BN : Rabs N <= 3 * S) by (destruct (hypot_lower N T); lra). destruct (square_near S dn N K Nn Dn BN) as (NC & PC & DC).
  assert (Dl' : Rabs (FR len - L) <= 27 * (u53 * S)) by (eapply Rle_trans; [exact Dl|]; nra).
  assert (Gt : SFltb t fzero = Rltb (FR t) 0) by (apply Rltb_ltb; destruct Nt; rewrite ltb_FR by (auto; reflexivity); reflexivity).
  assert (Gl : fgt t len = Rltb (FR len) (FR t)) by (unfold fgt; apply Rltb_ltb; destruct Nt, Nl; rewrite ltb_FR by auto; reflexivity).
  rewrite Gt, Gl. apply Rabs_iff in Dt, Dl'. set (w := u53 * S) in *.
  clearbody t dn len qa qb T N L w. clear - NA PA DA NB PB DB NC PC DC Dt Dl' BH CH BN L0 W0.
  set (dev := if Rltb T 0 then T else if Rltb L T then T - L else 0).
  assert (BD : hypot N dev <= 3 * S).
  { unfold dev. destruct (Rltb T 0); [exact BH|]. destruct (Rltb L T); [exact CH|]. assert (E : hypot N 0 = Rabs N) by (unfold hypot; rewrite Rmult_0_l, Rplus_0_r; apply sqrt_Rsqr_abs). rewrite E. exact BN. }
  destruct (Rltb (FR t) 0) eqn:G1; [|destruct (Rltb (FR len) (FR t)) eqn:G2].
  - apply Rltb_true in G1. split; [exact NA|]. split; [exact PA|]. split; [|exact BD].
    assert (Q : Rabs (T - dev) <= 80 * w) by (unfold dev; destruct (Rltb T 0) eqn:Z; [rewrite Rminus_diag_eq, Rabs_R0 by reflexivity; lra|]; apply Rltb_false in Z; destruct (Rltb L T) eqn:Z2; rewrite ?Rltb_true, ?Rltb_false in *; apply Rabs_iff; lra).
    pose proof (hyp_step N T dev) as H. apply Rabs_iff in DA. assert (H' : Rabs (hypot N T - hypot N dev) <= 80 * w) by lra. apply Rabs_iff in H'. apply Rabs_iff. lra.
  - apply Rltb_false in G1. apply Rltb_true in G2. split; [exact NB|]. split; [exact PB|]. split; [|exact BD].
    assert (Q : Rabs (T - L - dev) <= 170 * w) by (unfold dev; destruct (Rltb T 0) eqn:Z; [|destruct (Rltb L T) eqn:Z2]; rewrite ?Rltb_true, ?Rltb_false in *; apply Rabs_iff; lra).
    pose proof (hyp_step N (T - L) dev) as H. apply Rabs_iff in DB. assert (H' : Rabs (hypot N (T - L) - hypot N dev) <= 170 * w) by lra. apply Rabs_iff in H'. apply Rabs_iff. lra.
  - apply Rltb_false in G1, G2. split; [exact NC|]. split; [exact PC|]. split; [|exact BD].
    assert (Q : Rabs (0 - dev) <= 100 * w) by (unfold dev; destruct (Rltb T 0) eqn:Z; [|destruct (Rltb L T) eqn:Z2]; rewrite ?Rltb_true, ?Rltb_false in *; apply Rabs_iff; lra).
    assert (E : hypot N 0 = Rabs N) by (unfold hypot; rewrite Rmult_0_l, Rplus_0_r; apply sqrt_Rsqr_abs). rewrite <- E in DC.
    pose proof (hyp_step N 0 dev) as H. apply Rabs_iff in DC. assert (H' : Rabs (hypot N 0 - hypot N dev) <= 100 * w) by lra. apply Rabs_iff in H'. apply Rabs_iff. lra.
Qed.

(** ** The whole loop *)
Definition FR22 (e : fv2 * fv2) : v2 * v2 := (FR2 (fst e), FR2 (snd e)).
Definition seg_ok (S : R) (e : fv2 * fv2) : Prop := at2 S (fst e) /\ at2 S (snd e) /\ edge_ok S (fst e) (snd e).
Lemma edges_map l : PolyModel.poly_edges (map FR2 l) = map FR22 (fpoly_edges l).
Proof. unfold PolyModel.poly_edges, fpoly_edges. induction l as [|a [|b r] IH]; try reflexivity. cbn [map combine tl] in *. f_equal. exact IH. Qed.
Lemma sqrt_min a b : 0 <= a -> 0 <= b -> sqrt (Rmin a b) = Rmin (sqrt a) (sqrt b).
Proof.
  intros A B. unfold Rmin. destruct (Rle_dec a b) as [L|L].
  - destruct (Rle_dec (sqrt a) (sqrt b)) as [|N]; [reflexivity|]. exfalso. apply N. now apply sqrt_le_1.
  - destruct (Rle_dec (sqrt a) (sqrt b)) as [N|]; [|reflexivity]. apply Rle_antisym; [apply sqrt_le_1; lra|exact N].
Qed.
Lemma min_close a b c d E : Rabs (a - c) <= E -> Rabs (b - d) <= E -> Rabs (Rmin a b - Rmin c d) <= E.
Proof. intros A B. apply Rabs_iff in A, B. apply Rabs_iff. unfold Rmin. destruct (Rle_dec a b), (Rle_dec c d); lra. Qed.
Lemma loop_dist S p : scale_ok S -> at2 S p -> forall es, Forall (seg_ok S) es -> forall x D, num x -> 0 <= FR x -> 0 <= D -> Rabs (sqrt (FR x) - sqrt D) <= 190 * (u53 * S) ->
  let y := fold_left (fun acc e => go_min acc (fseg_d2 p (fst e) (snd e))) es x in
  let F := fold_left (fun acc e => Rmin acc (PropsPoly.seg_d2 (FR2 p) (fst e) (snd e))) (map FR22 es) D in
  num y /\ 0 <= FR y /\ 0 <= F /\ Rabs (sqrt (FR y) - sqrt F) <= 190 * (u53 * S) /\ (es <> [] -> sqrt F <= 3 * S).
Proof.
  intros K Hp es. induction es as [|[a b] es IH]; intros Ok x D Nx Px PD Q; cbn [fold_left map]; [repeat split; try apply Nx; auto; contradiction|].
  inversion Ok as [|? ? (Ha & Hb & He) Ok']; subst. cbn [fst snd FR22] in *. destruct (seg_near S p a b K Hp Ha Hb He) as (Ns & Ps & Ds & Bs). pose proof (PropsPoly.seg_d2_nonneg (FR2 p) (FR2 a) (FR2 b)) as P2.
  destruct Nx as (Fx & Vx). destruct Ns as (Fs & Vs). destruct (FR_min x (fseg_d2 p a b) Fx Fs Vx Vs) as (Fm & Vm & Em).
  assert (Pm : 0 <= FR (go_min x (fseg_d2 p a b))) by (rewrite Em; unfold Rmin; destruct (Rle_dec _ _); lra).
  assert (PM : 0 <= Rmin D (PropsPoly.seg_d2 (FR2 p) (FR2 a) (FR2 b))) by (unfold Rmin; destruct (Rle_dec _ _); lra).
  assert (QM : Rabs (sqrt (FR (go_min x (fseg_d2 p a b))) - sqrt (Rmin D (PropsPoly.seg_d2 (FR2 p) (FR2 a) (FR2 b)))) <= 190 * (u53 * S)) by (rewrite Em, !sqrt_min by auto; now apply min_close).
  destruct (IH Ok' _ _ (conj Fm Vm) Pm PM QM) as (A1 & A2 & A3 & A4 & _). cbv zeta in *. split; [exact A1|]. split; [exact A2|]. split; [exact A3|]. split; [exact A4|]. intros _.
  apply Rle_trans with (sqrt (Rmin D (PropsPoly.seg_d2 (FR2 p) (FR2 a) (FR2 b)))); [apply sqrt_le_1; auto; apply fold_min_le|]. rewrite sqrt_min by auto. eapply Rle_trans; [apply Rmin_r|exact Bs].
Qed.
Lemma loop_sign S p : scale_ok S -> at2 S p -> forall es, Forall (seg_ok S) es ->
  PropsPoly.sumZ (map (fun e => fseg_wn p (fst e) (snd e)) es) = PropsPoly.sumZ (map (fun e => PropsPoly.seg_wn (FR2 p) (fst e) (snd e)) (map FR22 es)) \/
  exists e, In e (map FR22 es) /\ sqrt (PropsPoly.seg_d2 (FR2 p) (fst e) (snd e)) <= 90 * (u53 * S).
Proof.
  intros K Hp es Ok. induction Ok as [|[a b] es (Ha & Hb & He) Ok IH]; [now left|]. cbn [map PropsPoly.sumZ fold_right fst snd FR22] in *.
  destruct (seg_cross S p a b K Hp Ha Hb He) as [E|E].
  - destruct IH as [IH|(e & I & D)]; [left|right; exists e; split; [now right|exact D]]. rewrite E. unfold PropsPoly.sumZ in IH. rewrite IH. reflexivity.
  - right. exists (FR2 a, FR2 b). split; [now left|exact E].
Qed.
Lemma FR_fmax64 : FR fmax64 = max_float64.
Proof. apply maxfloat_ok. Qed.
Theorem poly_near S l p : scale_ok S -> at2 S p -> Forall (seg_ok S) (fpoly_edges l) -> fpoly_edges l <> [] ->
  fnear (fpoly_eval l p) (PolyModel.poly_eval (map FR2 l) (FR2 p)) (400 * (u53 * S)) /\ Rabs (PolyModel.poly_eval (map FR2 l) (FR2 p)) <= 3 * S.
Proof.
  intros K Hp Ok NE. destruct (scale_facts S K) as (S0 & W0 & Et & M & Sm). pose proof u53_pos as Up. rewrite PropsPoly.poly_eval_eq. unfold fpoly_eval.
  pose proof (fpoly_fold p l fmax64 0%Z) as F. destruct (fold_left (fpoly_step p) _ _) as [[dd wn] q]. cbn [fst] in F. injection F as Ed Ew.
  assert (M0 : 0 <= max_float64) by (rewrite <- FR_fmax64; unfold fmax64; rewrite FR_sg; cbn [sg]; apply Rmult_le_pos; [apply IZR_le; lia|left; apply bpow_pos]).
  destruct (loop_dist S p K Hp (fpoly_edges l) Ok fmax64 max_float64) as (Nd & Pd & PF & Q & B); [now split| | | |].
  { rewrite FR_fmax64. exact M0. } { exact M0. } { rewrite FR_fmax64, Rminus_diag_eq, Rabs_R0 by reflexivity. lra. }
  cbv zeta in *. rewrite <- Ed in Nd, Pd, Q. specialize (B NE).
  unfold PropsPoly.loop_wn, PropsPoly.loop_d2. rewrite edges_map. set (F := fold_left _ (map FR22 _) max_float64) in *.
  pose proof (fsqrt_spec dd (proj1 Nd) (proj2 Nd) Pd) as (Vs & _ & Fs & Es & _). pose proof (sqrt_pos (FR dd)) as Ps. rewrite (Rabs_right (sqrt (FR dd))) in Fs, Es by lra. apply Rabs_iff in Q.
  specialize (Fs ltac:(lra)). specialize (Es Fs).
  assert (D : Rabs (FR (fsqrt dd) - sqrt F) <= 195 * (u53 * S)). { assert (u53 * sqrt (FR dd) <= 3.5 * (u53 * S)) by nra. assert (E : Rabs (FR (fsqrt dd) - sqrt (FR dd)) <= 3.5 * (u53 * S)) by (destruct Es; lra). apply Rabs_iff in E. apply Rabs_iff. lra. }
  pose proof (sqrt_pos F) as PS. split.
  2:{ destruct (_ =? 0)%Z; rewrite ?Rabs_Ropp, Rabs_right by lra; lra. }
  assert (NEAR : wn = PropsPoly.sumZ (map (fun e => PropsPoly.seg_wn (FR2 p) (fst e) (snd e)) (map FR22 (fpoly_edges l))) \/ sqrt F <= 90 * (u53 * S)).
  { destruct (loop_sign S p K Hp (fpoly_edges l) Ok) as [E|(e & I & E)]; [left; rewrite Ew, E; lia|right]. apply Rle_trans with (sqrt (PropsPoly.seg_d2 (FR2 p) (fst e) (snd e))); [|exact E].
    apply sqrt_le_1; [exact PF|apply PropsPoly.seg_d2_nonneg|]. unfold F. now apply (proj2 (fold_min_le (fun e => PropsPoly.seg_d2 (FR2 p) (fst e) (snd e)) (map FR22 (fpoly_edges l)) max_float64)). }
  assert (NS : fnear (fsqrt dd) (sqrt F) (195 * (u53 * S))) by (split; [exact Fs|]; split; [exact Vs|exact D]).
  destruct NEAR as [->|SM].
  - destruct (_ =? 0)%Z; [|apply near_opp]; (eapply near_weak; [exact NS|lra]).
  - apply Rabs_iff in D. destruct (wn =? 0)%Z, (_ =? 0)%Z.
    + eapply near_weak; [exact NS|lra].
    + eapply near_weak; [eapply near_shift; [exact NS|]|]. instantiate (1 := 180 * (u53 * S)). apply Rabs_iff. lra. lra.
    + eapply near_weak; [eapply near_shift; [apply near_opp; exact NS|]|]. instantiate (1 := 180 * (u53 * S)). apply Rabs_iff. lra. lra.
    + apply near_opp. eapply near_weak; [exact NS|lra].
Qed.

(** ** Polygon *)
(** The vertices are finite numbers of magnitude at most [S], the edges are long enough, and it is clear whether the loop is closed:
    the last vertex is the first, or differs from it by more than twice the tolerance in one coordinate. *)
Definition loop_fits (S : R) (vs : list fv2) : Prop :=
  Forall (at2 S) vs /\ Forall (fun e => edge_ok S (fst e) (snd e)) (combine vs (tl vs)) /\
  let a := hd (FV2 fzero fzero) vs in let z := last vs (FV2 fzero fzero) in
  FR2 z = FR2 a \/
  (edge_ok S z a /\ (2 * PolyModel.tolerance < Rabs (FR (f2x a) - FR (f2x z)) \/ 2 * PolyModel.tolerance < Rabs (FR (f2y a) - FR (f2y z)))).
Lemma tol_near : num ftolerance /\ PolyModel.tolerance <= FR ftolerance <= 3 / 2 * PolyModel.tolerance.
Proof.
  split; [now split|]. unfold ftolerance, PolyModel.tolerance. rewrite FR_sg. cbn [sg]. change (-82)%Z with (- (82))%Z. rewrite bpow_opp, (bpow_Z 82) by lia. change (2 ^ 82)%Z with 4835703278458516698824704%Z.
  replace (10 ^ 9) with 1000000000 by (simpl; lra). split.
  - apply (Rmult_le_reg_r 4835703278458516698824704); [lra|]. rewrite Rmult_assoc, Rinv_l by lra. lra.
  - apply (Rmult_le_reg_r 4835703278458516698824704); [lra|]. rewrite Rmult_assoc, Rinv_l by lra. lra.
Qed.
Lemma leb_tol S x y : scale_ok S -> num x -> num y -> Rabs (FR x) <= S -> Rabs (FR y) <= S ->
  (FR x = FR y -> SFleb (SFabs (fsub x y)) ftolerance = true) /\ (2 * PolyModel.tolerance < Rabs (FR x - FR y) -> SFleb (SFabs (fsub x y)) ftolerance = false).
Proof.
  intros K Nx Ny Bx By. destruct (scale_facts S K) as (S0 & W0 & Et & M & Sm). destruct tol_near as ((Ft & Vt) & T1 & T2). pose proof u53_pos. pose proof u53_small.
  assert (B : Rabs (FR x - FR y) <= fmaxR) by (apply Rabs_iff in Bx, By; apply Rabs_iff; lra). destruct (rl_diff x y Nx Ny B) as ((F & V) & D).
  assert (Fa : fin (SFabs (fsub x y)) = true) by now rewrite fin_abs. assert (Va : valid (SFabs (fsub x y))) by now apply abs_valid.
  assert (TP : 0 < PolyModel.tolerance) by apply PropsPoly.tol_pos. split.
  - intros E. apply leb_FR; auto. rewrite FR_abs. rewrite E, (Rminus_diag_eq (FR y) (FR y)), Rabs_R0, Rminus_0_r in D by reflexivity. lra.
  - intros E. destruct (SFleb _ _) eqn:Q; [|reflexivity]. apply leb_FR in Q; auto. rewrite FR_abs in Q. pose proof (Rabs_triang_inv (FR x - FR y) (FR (fsub x y))) as T. rewrite Rabs_minus_sym in D. nra.
Qed.
Lemma last_map (l : list fv2) d : last (map FR2 l) (FR2 d) = FR2 (last l d).
Proof. induction l as [|a [|b r] IH]; try reflexivity. exact IH. Qed.
Lemma last_in {A} (l : list A) d : l <> [] -> In (last l d) l.
Proof. induction l as [|a [|b r] IH]; [contradiction|intros _; now left|intros _; right; apply IH; discriminate]. Qed.
Lemma last_dflt {A} (l : list A) d e : l <> [] -> last l d = last l e.
Proof. induction l as [|a [|b r] IH]; [contradiction|reflexivity|intros _; apply IH; discriminate]. Qed.
Lemma edges_snoc (P : fv2 * fv2 -> Prop) a l c d : Forall P (fpoly_edges (a :: l)) -> P (last (a :: l) d, c) -> Forall P (fpoly_edges ((a :: l) ++ [c])).
Proof.
  revert a. induction l as [|b l IH]; intros a F H; [constructor; [exact H|constructor]|]. change (fpoly_edges ((a :: b :: l) ++ [c])) with ((a, b) :: fpoly_edges ((b :: l) ++ [c])).
  change (fpoly_edges (a :: b :: l)) with ((a, b) :: fpoly_edges (b :: l)) in F. inversion F; subst. constructor; auto.
Qed.
Lemma close_map S a l : scale_ok S -> loop_fits S (a :: l) ->
  map FR2 (fclose_loop a (a :: l)) = PolyModel.close_loop (FR2 a) (map FR2 (a :: l)) /\ Forall (seg_ok S) (fpoly_edges (fclose_loop a (a :: l))) /\
  PropsPoly.loop_ok (map FR2 (a :: l)).
Proof.
  intros K (Fa & Fe & C). cbv zeta in C. cbn [hd] in C. rewrite (last_dflt (a :: l) _ a) in C by discriminate. set (vs := a :: l) in *.
  assert (Ia : at2 S a) by now inversion Fa. assert (Iz : at2 S (last vs a)) by (rewrite Forall_forall in Fa; apply Fa, last_in; discriminate).
  assert (EN : forall x y, at2 S x -> at2 S y -> edge_ok S x y -> FR2 x <> FR2 y).
  { intros x y Hx Hy He E. destruct (edge_len S x y K Hx Hy He) as (_ & P). rewrite E in P. rewrite norm2_hypot in P. cbn [sub2 x2 y2 FR2] in P. unfold hypot in P. rewrite !Rminus_diag_eq, Rmult_0_l, Rplus_0_l, sqrt_0 in P by reflexivity. lra. }
  assert (SEG : Forall (seg_ok S) (fpoly_edges vs)).
  { unfold fpoly_edges. rewrite Forall_forall in *. intros [x y] I. split; [|split; [|now apply (Fe (x, y))]].
    - apply Fa. now apply in_combine_l in I.
    - apply Fa. apply in_combine_r in I. unfold vs in I. cbn [tl] in I. right. exact I. }
  split; [|split].
  - unfold fclose_loop, PolyModel.close_loop. rewrite last_map. unfold fequal_within2, PolyModel.equal_within2. cbn [FR2 x2 y2].
    destruct Ia as (N1 & N2 & B1 & B2), Iz as (M1 & M2 & C1 & C2). destruct (leb_tol S _ _ K N1 M1 B1 C1) as (X1 & X2). destruct (leb_tol S _ _ K N2 M2 B2 C2) as (Y1 & Y2). pose proof PropsPoly.tol_pos as TP.
    destruct C as [E|(_ & C)].
    + pose proof (f_equal x2 E) as E1. pose proof (f_equal y2 E) as E2. cbn [FR2 x2 y2] in E1, E2. rewrite X1, Y1 by (symmetry; assumption). rewrite <- E1, <- E2, !Rminus_diag_eq, Rabs_R0 by reflexivity. assert (Z : Rleb 0 PolyModel.tolerance = true) by (apply Rleb_true; lra). rewrite Z. reflexivity.
    + assert (W : SFleb (SFabs (fsub (f2x a) (f2x (last vs a)))) ftolerance && SFleb (SFabs (fsub (f2y a) (f2y (last vs a)))) ftolerance = false) by (destruct C as [C|C]; [rewrite (X2 C); reflexivity|rewrite (Y2 C); apply andb_false_r]).
      assert (W' : Rleb (Rabs (FR (f2x a) - FR (f2x (last vs a)))) PolyModel.tolerance && Rleb (Rabs (FR (f2y a) - FR (f2y (last vs a)))) PolyModel.tolerance = false).
      { destruct C as [C|C]; [|rewrite andb_comm]; (match goal with |- Rleb ?u ?v && _ = _ => assert (Z : Rleb u v = false) by (apply Rleb_false; lra); rewrite Z; reflexivity end). }
      rewrite W, W'. now rewrite map_app.
  - unfold fclose_loop. destruct (fequal_within2 a (last vs a) ftolerance) eqn:Q; [exact SEG|].
    assert (E : edge_ok S (last vs a) a).
    { destruct C as [E|(E & _)]; [|exact E]. exfalso. pose proof (f_equal x2 E) as E1. pose proof (f_equal y2 E) as E2. cbn [FR2 x2 y2] in E1, E2. destruct Ia as (N1 & N2 & B1 & B2), Iz as (M1 & M2 & C1 & C2). destruct (leb_tol S _ _ K N1 M1 B1 C1) as (X1 & _). destruct (leb_tol S _ _ K N2 M2 B2 C2) as (Y1 & _).
      unfold fequal_within2 in Q. rewrite X1, Y1 in Q by (symmetry; assumption). discriminate. }
    assert (H : seg_ok S (last vs a, a)) by (repeat split; try apply Iz; try apply Ia; exact E). now apply (edges_snoc _ a l a a).
  - split.
    + intros x y I. apply PropsPoly.in_edges in I. rewrite edges_map in I. apply in_map_iff in I. destruct I as ([u v] & E & I). injection E as <- <-. rewrite Forall_forall in SEG. destruct (SEG _ I) as (H1 & H2 & H3). now apply EN.
    + change zero2 with (FR2 (FV2 fzero fzero)). rewrite last_map, (last_dflt vs _ a) by discriminate. assert (HD : forall d, hd d (map FR2 vs) = FR2 a) by reflexivity. rewrite HD. cbn [FR2 x2 y2]. pose proof PropsPoly.tol_pos. destruct C as [E|(_ & [C|C])]; [left; exact E|right; left; lra|right; right; lra].
Qed.

Lemma polygon_tracks S vs s p : scale_ok S -> loop_fits S vs -> PolyModel.polygon (map FR2 vs) = Ok s -> at2 S p ->
  fnear (fpolygon vs p) (ev2 s (FR2 p)) (400 * (u53 * S)) /\ Rabs (ev2 s (FR2 p)) <= 3 * S.
Proof.
  intros K Fi E Hp. destruct vs as [|a [|b [|c r]]]; try discriminate. cbn [map PolyModel.polygon] in E. inversion E. clear E. destruct (close_map S a (b :: c :: r) K Fi) as (Q & G & _).
  cbn [ev2]. unfold fpolygon. cbn [hd]. change (FR2 a :: FR2 b :: FR2 c :: map FR2 r) with (map FR2 (a :: b :: c :: r)). rewrite <- Q. apply poly_near; auto.
  unfold fclose_loop. destruct (fequal_within2 _ _ _); discriminate.
Qed.
Lemma polygon_loop S vs s : scale_ok S -> loop_fits S vs -> PolyModel.polygon (map FR2 vs) = Ok s -> PropsPoly.loop_ok (map FR2 vs).
Proof. intros K Fi E. destruct vs as [|a l]; [discriminate|]. now apply (close_map S a l K Fi). Qed.
(** Bounds: minima and maxima are exact *)
Lemma fold_box S l : Forall (at2 S) l -> forall c, at2 S c ->
  (at2 S (fold_left fmin_elem2 l c) /\ FR2 (fold_left fmin_elem2 l c) = fold_left min_elem2 (map FR2 l) (FR2 c)) /\
  (at2 S (fold_left fmax_elem2 l c) /\ FR2 (fold_left fmax_elem2 l c) = fold_left max_elem2 (map FR2 l) (FR2 c)).
Proof.
  intros F. induction F as [|a l (A1 & A2 & A3 & A4) F IH]; intros c Hc; [split; split; auto|]. cbn [fold_left map]. destruct Hc as (C1 & C2 & C3 & C4).
  destruct A1 as (F1 & V1), A2 as (F2 & V2), C1 as (G1 & W1), C2 as (G2 & W2).
  destruct (FR_min _ _ G1 F1 W1 V1) as (M1 & M2 & M3). destruct (FR_min _ _ G2 F2 W2 V2) as (M4 & M5 & M6). destruct (FR_max _ _ G1 F1 W1 V1) as (X1 & X2 & X3). destruct (FR_max _ _ G2 F2 W2 V2) as (X4 & X5 & X6).
  assert (Em : FR2 (fmin_elem2 c a) = min_elem2 (FR2 c) (FR2 a)) by (unfold FR2, fmin_elem2, min_elem2; cbn [f2x f2y x2 y2]; now rewrite M3, M6).
  assert (Ex : FR2 (fmax_elem2 c a) = max_elem2 (FR2 c) (FR2 a)) by (unfold FR2, fmax_elem2, max_elem2; cbn [f2x f2y x2 y2]; now rewrite X3, X6).
  rewrite <- Em, <- Ex. split; apply IH; unfold at2, fmin_elem2, fmax_elem2, num; cbn [f2x f2y]; rewrite ?M3, ?M6, ?X3, ?X6; repeat split; auto; unfold Rmin, Rmax; destruct (Rle_dec _ _); assumption.
Qed.
Lemma polygon_box S vs s : scale_ok S -> loop_fits S vs -> PolyModel.polygon (map FR2 vs) = Ok s ->
  at2 S (fst (fbounds_polygon vs)) /\ FR2 (fst (fbounds_polygon vs)) = min2 (bb2 s) /\ at2 S (snd (fbounds_polygon vs)) /\ FR2 (snd (fbounds_polygon vs)) = max2 (bb2 s).
Proof.
  intros K Fi E. destruct vs as [|a [|b [|c r]]]; try discriminate. cbn [map PolyModel.polygon] in E. inversion E. clear E. destruct (close_map S a (b :: c :: r) K Fi) as (Q & G & _).
  change (FR2 a :: FR2 b :: FR2 c :: map FR2 r) with (map FR2 (a :: b :: c :: r)). rewrite <- Q. unfold fbounds_polygon. cbn [hd].
  assert (H : hd (FV2 fzero fzero) (fclose_loop a (a :: b :: c :: r)) = a) by (unfold fclose_loop; destruct (fequal_within2 _ _ _); reflexivity).
  set (l := fclose_loop a (a :: b :: c :: r)) in *. unfold fpoly_box, PolyModel.poly_box, vset_min, vset_max. cbn [fst snd bb2 min2 max2]. rewrite H.
  assert (H' : hd zero2 (map FR2 l) = FR2 a) by (unfold l, fclose_loop; destruct (fequal_within2 _ _ _); reflexivity). rewrite H', edges_map, map_map.
  replace (map (fun x => fst (FR22 x)) (fpoly_edges l)) with (map FR2 (map fst (fpoly_edges l))) by (rewrite map_map; reflexivity).
  assert (Fv : Forall (at2 S) (map fst (fpoly_edges l))) by (rewrite Forall_forall in *; intros v I; apply in_map_iff in I; destruct I as (e & <- & I); now apply (G e)).
  assert (Ia : at2 S a) by (destruct Fi as (F & _); now inversion F). destruct (fold_box S _ Fv a Ia) as ((A1 & A2) & (A3 & A4)). auto.
Qed.
