(** Bounds in float64 and in real numbers: one rule per operation. *)
From Coq Require Import List Bool ZArith Lia Floats.SpecFloat Reals Lra Psatz.
From Verif Require Import Prelude Vec BoxModel MatrixModel SdfModel PrimModel FloatBoolModel FloatRound FloatShapeModel FloatNear PropsFloatSign FloatTrack FloatInv FloatRules FloatCopies FloatRenderModel FloatBoundsModel.
Import ListNotations.
Local Open Scope R_scope.

(** [x] stands for the number [z] of magnitude at most [M * S], with an error of [E] units of [2^-53 * S] *)
Definition nr (S M E : R) (x : spec_float) (z : R) : Prop := fnear x z (E * (u53 * S)) /\ Rabs z <= M * S.
Definition okb (M E : R) : Prop := 0 <= M <= 3000 /\ 0 <= E <= 4000000.
Section Rules.
  Context (S : R) (K : scale_ok S).
  Notation nr := (nr S).
  Lemma nr_weak M E M' E' x z : nr M E x z -> M <= M' -> E <= E' -> nr M' E' x z.
  Proof. intros (N & A) HM HE. destruct (scale_facts S K) as (S0 & W0 & _). split; [eapply near_weak; [exact N|nra]|nra]. Qed.
  Lemma nr_num x : num x -> Rabs (FR x) <= S -> nr 1 0 x (FR x).
  Proof. intros (F & V) A. split; [rewrite Rmult_0_l; now apply near_exact|lra]. Qed.
  Lemma nr_opp M E x z : nr M E x z -> nr M E (SFopp x) (- z).
  Proof. intros (N & A). split; [now apply near_opp|now rewrite Rabs_Ropp]. Qed.
  Lemma nr_abs M E x z : nr M E x z -> nr M E (SFabs x) (Rabs z).
  Proof. intros (N & A). split; [now apply near_abs|now rewrite Rabs_Rabsolu]. Qed.
  Lemma Rabs_min a b c : Rabs a <= c -> Rabs b <= c -> Rabs (Rmin a b) <= c.
  Proof. intros. unfold Rmin. now destruct Rle_dec. Qed.
  Lemma Rabs_max a b c : Rabs a <= c -> Rabs b <= c -> Rabs (Rmax a b) <= c.
  Proof. intros. unfold Rmax. now destruct Rle_dec. Qed.
  Lemma nr_min M E x y a b : nr M E x a -> nr M E y b -> nr M E (go_min x y) (Rmin a b).
  Proof. intros (N & A) (N' & A'). split; [now apply near_min|now apply Rabs_min]. Qed.
  Lemma nr_max M E x y a b : nr M E x a -> nr M E y b -> nr M E (go_max x y) (Rmax a b).
  Proof. intros (N & A) (N' & A'). split; [now apply near_max|now apply Rabs_max]. Qed.
  Lemma unit_small E : 0 <= E <= 4000000 -> 0 <= E * (u53 * S) <= / 100000000 * S.
  Proof. intros H. destruct (scale_facts S K) as (S0 & W0 & Et & M & Sm). nra. Qed.
  Lemma nr_sum M1 E1 M2 E2 x y a b : nr M1 E1 x a -> nr M2 E2 y b -> okb M1 E1 -> okb M2 E2 ->
    nr (M1 + M2) (E1 + E2 + M1 + M2 + 1) (fadd x y) (a + b) /\ nr (M1 + M2) (E1 + E2 + M1 + M2 + 1) (fsub x y) (a - b).
  Proof.
    intros (N1 & A1) (N2 & A2) (OM1 & OE1) (OM2 & OE2). destruct (scale_facts S K) as (S0 & W0 & Et & Mx & Sm). pose proof (unit_small E1 OE1) as U1. pose proof (unit_small E2 OE2) as U2.
    assert (H : (M1 + M2) * S <= 6000 * S) by (apply Rmult_le_compat_r; lra). rewrite Rmult_plus_distr_r in H.
    apply Rabs_iff in A1, A2. assert (V : Rabs (a + b) <= (M1 + M2) * S /\ Rabs (a - b) <= (M1 + M2) * S) by (split; apply Rabs_iff; lra). destruct V as (V1 & V2).
    split; (split; [|assumption]).
    - eapply near_weak; [apply (near_add x y a b _ _ ((M1 + M2 + 1) * S) N1 N2); lra|]. apply Req_le. ring.
    - eapply near_weak; [apply (near_sub x y a b _ _ ((M1 + M2 + 1) * S) N1 N2); lra|]. apply Req_le. ring.
  Qed.
  Lemma nr_add M1 E1 M2 E2 x y a b : nr M1 E1 x a -> nr M2 E2 y b -> okb M1 E1 -> okb M2 E2 -> nr (M1 + M2) (E1 + E2 + M1 + M2 + 1) (fadd x y) (a + b).
  Proof. intros. now apply nr_sum. Qed.
  Lemma nr_sub M1 E1 M2 E2 x y a b : nr M1 E1 x a -> nr M2 E2 y b -> okb M1 E1 -> okb M2 E2 -> nr (M1 + M2) (E1 + E2 + M1 + M2 + 1) (fsub x y) (a - b).
  Proof. intros. now apply nr_sum. Qed.
  (** a factor [c] of magnitude at most [C], known up to [e] roundings *)
  Lemma nr_mul C e M E k c x a : fnear k c (e * u53) -> Rabs c <= C -> 0 <= C <= 1000000 -> 0 <= e <= 20 -> okb M E -> C * M <= 3000 -> C * E <= 1000000000 -> nr M E x a ->
    nr (C * M) (C * E + C * M + e * (M + 1) + 2) (fmul k x) (c * a) /\ nr (C * M) (C * E + C * M + e * (M + 1) + 2) (fmul x k) (a * c).
  Proof.
    intros Nk Ac HC He (OM & OE) CM CE (N & A). destruct (scale_facts S K) as (S0 & W0 & Et & Mx & Sm). pose proof u53_pos as U0. pose proof u53_small as U1.
    pose proof (Rabs_pos c) as Pc. pose proof (Rabs_pos a) as Pa. set (w := u53 * S) in *.
    assert (Aca : Rabs c * Rabs a <= C * M * S). { apply Rle_trans with (C * (M * S)); [apply Rmult_le_compat; lra|lra]. }
    assert (D1 : e * u53 * Rabs a <= e * M * w). { apply Rle_trans with (e * u53 * (M * S)); [apply Rmult_le_compat_l; nra|unfold w; lra]. }
    assert (D2 : Rabs c * (E * w) <= C * E * w). { rewrite Rmult_assoc. apply Rmult_le_compat_r; nra. }
    assert (Ue : u53 * E <= 1) by nra. assert (D3 : e * u53 * (E * w) <= e * w). { replace (e * u53 * (E * w)) with ((u53 * E) * (e * w)) by ring. assert (0 <= e * w) by nra. nra. }
    assert (P1 : 0 <= e * M) by nra. assert (eM : e * M <= 60000) by nra.
    assert (D4 : e * M * w + C * E * w + e * w <= S). { apply Rle_trans with ((60000 + 1000000000 + 20) * w); [nra|]. nra. }
    assert (D5 : 0 <= C * M) by nra. assert (V1 : C * M * S <= 3000 * S) by (apply Rmult_le_compat_r; lra).
    assert (Uw : u53 * ((C * M + 1) * S) = (C * M + 1) * w) by (unfold w; ring).
    split; (split; [|rewrite Rabs_mult; nra]).
    - eapply near_weak; [apply (near_mul k x c a _ _ ((C * M + 1) * S) Nk N)|]; rewrite ?Rabs_mult, ?Uw; fold w; lra.
    - eapply near_weak; [apply (near_mul x k a c _ _ ((C * M + 1) * S) N Nk)|]; rewrite ?Rabs_mult, ?Uw; fold w; lra.
  Qed.
  Lemma half_near : fnear fhalf (/ 2) (0 * u53).
  Proof. rewrite Rmult_0_l, <- FR_half. apply near_exact; reflexivity. Qed.
  Lemma one_near : fnear f1 1 (0 * u53).
  Proof. rewrite Rmult_0_l, <- FR_f1. apply near_exact; reflexivity. Qed.
  Lemma m1_near : fnear fm1 (-1) (0 * u53).
  Proof. replace (-1) with (- (1)) by ring. apply near_opp, one_near. Qed.
  Lemma nr_half M E x a : nr M E x a -> okb M E -> nr (M / 2) (E / 2 + M / 2 + 2) (fmul fhalf x) (/ 2 * a).
  Proof.
    intros N O. destruct O as (O1 & O2). destruct (nr_mul (/ 2) 0 M E fhalf (/ 2) x a half_near) as (H & _); try lra; auto; [rewrite Rabs_right; lra|split; lra|]. eapply nr_weak; [exact H|lra|lra].
  Qed.
  Lemma nr_neg M E x a : nr M E x a -> okb M E -> nr M (E + M + 2) (fmul fm1 x) (-1 * a).
  Proof.
    intros N O. destruct O as (O1 & O2). destruct (nr_mul 1 0 M E fm1 (-1) x a m1_near) as (H & _); try lra; auto; [rewrite Rabs_left; lra|split; lra|]. eapply nr_weak; [exact H|lra|lra].
  Qed.
  Lemma nr_shift M E M' D x a b : nr M E x a -> Rabs (a - b) <= D * (u53 * S) -> Rabs b <= M' * S -> nr M' (E + D) x b.
  Proof. intros (N & A) H B. split; [|exact B]. rewrite Rmult_plus_distr_r. now apply (near_shift x a). Qed.
  (** the number itself *)
  Lemma nr_self M E x z : okb M E -> nr M E x z -> nr (M + 1) 0 x (FR x) /\ Rabs (FR x - z) <= E * (u53 * S).
  Proof.
    intros (O1 & O2) ((F & V & D) & A). split; [|exact D]. split; [rewrite Rmult_0_l; now apply near_exact|]. pose proof (unit_small E O2) as U. apply Rabs_iff in D, A. apply Rabs_iff. destruct (scale_facts S K) as (S0 & _). lra.
  Qed.

  (** one axis of Offset3D: the size of the operand's box, its centre, the new box *)
  Lemma nr_offset M E lo hi a b d : okb M E -> M <= 1000 -> nr M E lo a -> nr M E hi b -> num d -> Rabs (FR d) <= S ->
    let size := fsub hi lo in let c := fadd lo (fmul fhalf size) in let h := fmul fhalf (fadd size (fmul f2 d)) in
    nr (M + 1) (E + 20 * M + 60) (fsub c h) (a - FR d) /\ nr (M + 1) (E + 20 * M + 60) (fadd c h) (b + FR d).
  Proof.
    intros O M5 Na Nb Nd Ad. cbv zeta. destruct (nr_self M E lo a O Na) as (Na' & Da). destruct (nr_self M E hi b O Nb) as (Nb' & Db). set (x := FR lo) in *. set (y := FR hi) in *.
    destruct O as (O1 & O2). assert (O0 : okb (M + 1) 0) by (split; lra).
    pose proof (nr_sub _ _ _ _ _ _ _ _ Nb' Na' O0 O0) as Ns.
    assert (Os : okb (M + 1 + (M + 1)) (0 + 0 + (M + 1) + (M + 1) + 1)) by (split; lra).
    pose proof (nr_half _ _ _ _ Ns Os) as Nh. pose proof (nr_add _ _ _ _ _ _ _ _ Na' Nh O0 ltac:(split; lra)) as Nc.
    pose proof (nr_num d Nd Ad) as Nd'. assert (F2 : fnear f2 2 (0 * u53)). { rewrite Rmult_0_l. replace 2 with (FR f2); [apply near_exact; reflexivity|]. unfold f2, FR. change (-51)%Z with (- (51))%Z. rewrite bpow_opp, bpow_Z by lia. change (2 ^ 51)%Z with 2251799813685248%Z. lra. }
    destruct (nr_mul 2 0 1 0 f2 2 d (FR d) F2) as (N2 & _); try lra; auto; [rewrite Rabs_right; lra|split; lra|].
    pose proof (nr_add _ _ _ _ _ _ _ _ Ns N2 Os ltac:(split; lra)) as Nt.
    pose proof (nr_half _ _ _ _ Nt ltac:(split; lra)) as Nk.
    destruct (scale_facts S K) as (S0 & W0 & _). destruct Na as (_ & Aa), Nb as (_ & Ab).
    split.
    - pose proof (nr_sub _ _ _ _ _ _ _ _ Nc Nk ltac:(split; lra) ltac:(split; lra)) as N. eapply nr_weak; [eapply (nr_shift _ _ (M + 1) E _ _ (a - FR d) N)| |]; [|apply Rabs_iff in Aa, Ad; apply Rabs_iff; lra|lra|lra].
      replace (x + / 2 * (y - x) - / 2 * (y - x + 2 * FR d) - (a - FR d)) with (x - a) by field. exact Da.
    - pose proof (nr_add _ _ _ _ _ _ _ _ Nc Nk ltac:(split; lra) ltac:(split; lra)) as N. eapply nr_weak; [eapply (nr_shift _ _ (M + 1) E _ _ (b + FR d) N)| |]; [|apply Rabs_iff in Ab, Ad; apply Rabs_iff; lra|lra|lra].
      replace (x + / 2 * (y - x) + / 2 * (y - x + 2 * FR d) - (b + FR d)) with (y - b) by field. exact Db.
  Qed.

  (** boxes *)
  Definition nb3 (M E : R) (b : fbox3d) (bb : box3) : Prop :=
    (nr M E (f3x (fst b)) (x3 (min3 bb)) /\ nr M E (f3y (fst b)) (y3 (min3 bb)) /\ nr M E (f3z (fst b)) (z3 (min3 bb))) /\
    (nr M E (f3x (snd b)) (x3 (max3 bb)) /\ nr M E (f3y (snd b)) (y3 (max3 bb)) /\ nr M E (f3z (snd b)) (z3 (max3 bb))).
  Definition nb2 (M E : R) (b : fbox2d) (bb : box2) : Prop :=
    (nr M E (f2x (fst b)) (x2 (min2 bb)) /\ nr M E (f2y (fst b)) (y2 (min2 bb))) /\ (nr M E (f2x (snd b)) (x2 (max2 bb)) /\ nr M E (f2y (snd b)) (y2 (max2 bb))).
  Lemma nb3_weak M E M' E' b bb : nb3 M E b bb -> M <= M' -> E <= E' -> nb3 M' E' b bb.
  Proof. intros ((A & B & C) & (D & F & G)) HM HE. split; (split; [|split]); eapply nr_weak; eassumption. Qed.
  Lemma extend_near M E a b aa bb : nb3 M E a aa -> nb3 M E b bb -> nb3 M E (fextend3 a b) (extend3 aa bb).
  Proof.
    intros ((A & B & C) & (D & F & G)) ((A' & B' & C') & (D' & F' & G')). split; (split; [|split]); (apply nr_min || apply nr_max); assumption.
  Qed.
  Lemma translate_near M E M' E' b bb vx vy vz v : okb M E -> okb M' E' -> nb3 M E b bb -> nr M' E' vx (x3 v) -> nr M' E' vy (y3 v) -> nr M' E' vz (z3 v) ->
    nb3 (M + M') (E + E' + M + M' + 1) (ftranslate_box3 b (FV3 vx vy vz)) (box_translate3 bb v).
  Proof.
    intros O O' ((A & B & C) & (D & F & G)) X Y Z'. split; (split; [|split]); apply nr_add; assumption.
  Qed.
  Lemma neg_near M E x y z p : okb M E -> nr M E x (x3 p) -> nr M E y (y3 p) -> nr M E z (z3 p) -> nb3 M (E + M + 2) (fscale3 fm1 (FV3 x y z), FV3 x y z) (Box3 (scale3 (-1) p) p).
  Proof.
    intros O X Y Z'. destruct O as (O1 & O2). split; (split; [|split]); cbn [fst snd fscale3 scale3 f3x f3y f3z x3 y3 z3 min3 max3]; try (apply nr_neg; [assumption|split; lra]); (eapply nr_weak; [eassumption|lra|lra]).
  Qed.
  Lemma neg_near2 M E x y p : okb M E -> nr M E x (x2 p) -> nr M E y (y2 p) -> nb2 M (E + M + 2) (fscale2 fm1 (FV2 x y), FV2 x y) (Box2 (scale2 (-1) p) p).
  Proof.
    intros O X Y. destruct O as (O1 & O2). split; split; cbn [fst snd fscale2 scale2 f2x f2y x2 y2 min2 max2]; try (apply nr_neg; [assumption|split; lra]); (eapply nr_weak; [eassumption|lra|lra]).
  Qed.
  Lemma nr_hnum x : num x -> Rabs (FR x) <= S -> nr (/ 2) 2.5 (fmul fhalf x) (/ 2 * FR x).
  Proof. intros N A. eapply nr_weak; [apply (nr_half 1 0); [now apply nr_num|split; lra]|lra|lra]. Qed.

  (** MulBox: one coordinate *)
  Lemma axis_mul M E C1 C2 C3 e1 e2 e3 (k1 k2 k3 t : spec_float) c1 c2 c3 c4 Mt Et xa xb ya yb za zb ra rb sa sb qa qb :
    fnear k1 c1 (e1 * u53) -> fnear k2 c2 (e2 * u53) -> fnear k3 c3 (e3 * u53) -> nr Mt Et t c4 -> Rabs c1 <= C1 -> Rabs c2 <= C2 -> Rabs c3 <= C3 ->
    0 <= C1 <= 1000000 -> 0 <= C2 <= 1000000 -> 0 <= C3 <= 1000000 -> 0 <= e1 <= 16 -> 0 <= e2 <= 16 -> 0 <= e3 <= 16 -> 0 <= Mt <= 1 -> 0 <= Et <= 16 -> 0 <= M <= 1000 -> 0 <= E <= 1000000 ->
    0 <= C1 * M <= 1000 -> 0 <= C2 * M <= 1000 -> 0 <= C3 * M <= 1000 -> 0 <= C1 * E <= 1000000 -> 0 <= C2 * E <= 1000000 -> 0 <= C3 * E <= 1000000 ->
    nr M E xa ra -> nr M E xb rb -> nr M E ya sa -> nr M E yb sb -> nr M E za qa -> nr M E zb qb ->
    let M' := C1 * M + (C2 * M + (C3 * M + Mt)) in
    let E' := C1 * E + C2 * E + C3 * E + 2 * (C1 * M) + 3 * (C2 * M) + 4 * (C3 * M) + 3 * Mt + (e1 + e2 + e3) * (M + 1) + 9 + Et in
    nr M' E' (fadd (go_min (fmul xa k1) (fmul xb k1)) (fadd (go_min (fmul ya k2) (fmul yb k2)) (fadd (go_min (fmul za k3) (fmul zb k3)) t)))
       (Rmin (ra * c1) (rb * c1) + (Rmin (sa * c2) (sb * c2) + (Rmin (qa * c3) (qb * c3) + c4))) /\
    nr M' E' (fadd (go_max (fmul xa k1) (fmul xb k1)) (fadd (go_max (fmul ya k2) (fmul yb k2)) (fadd (go_max (fmul za k3) (fmul zb k3)) t)))
       (Rmax (ra * c1) (rb * c1) + (Rmax (sa * c2) (sb * c2) + (Rmax (qa * c3) (qb * c3) + c4))).
  Proof.
    intros N1 N2 N3 Nt A1 A2 A3 B1 B2 B3 H1 H2 H3 HMt HEt HM HE M1 M2 M3 E1 E2 E3 Xa Xb Ya Yb Za Zb M' E'.
    assert (O : okb M E) by (split; lra).
    assert (P1 : 0 <= e1 * (M + 1) <= 20000) by (split; [apply Rmult_le_pos; lra|]; apply Rle_trans with (16 * 1001); [apply Rmult_le_compat; lra|lra]).
    assert (P2 : 0 <= e2 * (M + 1) <= 20000) by (split; [apply Rmult_le_pos; lra|]; apply Rle_trans with (16 * 1001); [apply Rmult_le_compat; lra|lra]).
    assert (P3 : 0 <= e3 * (M + 1) <= 20000) by (split; [apply Rmult_le_pos; lra|]; apply Rle_trans with (16 * 1001); [apply Rmult_le_compat; lra|lra]).
    pose proof (proj2 (nr_mul C1 e1 M E _ _ _ _ N1 A1 B1 ltac:(lra) O ltac:(lra) ltac:(lra) Xa)) as Xa'. pose proof (proj2 (nr_mul C1 e1 M E _ _ _ _ N1 A1 B1 ltac:(lra) O ltac:(lra) ltac:(lra) Xb)) as Xb'.
    pose proof (proj2 (nr_mul C2 e2 M E _ _ _ _ N2 A2 B2 ltac:(lra) O ltac:(lra) ltac:(lra) Ya)) as Ya'. pose proof (proj2 (nr_mul C2 e2 M E _ _ _ _ N2 A2 B2 ltac:(lra) O ltac:(lra) ltac:(lra) Yb)) as Yb'.
    pose proof (proj2 (nr_mul C3 e3 M E _ _ _ _ N3 A3 B3 ltac:(lra) O ltac:(lra) ltac:(lra) Za)) as Za'. pose proof (proj2 (nr_mul C3 e3 M E _ _ _ _ N3 A3 B3 ltac:(lra) O ltac:(lra) ltac:(lra) Zb)) as Zb'.
    assert (G : forall x y z a b c, nr (C1 * M) (C1 * E + C1 * M + e1 * (M + 1) + 2) x a -> nr (C2 * M) (C2 * E + C2 * M + e2 * (M + 1) + 2) y b -> nr (C3 * M) (C3 * E + C3 * M + e3 * (M + 1) + 2) z c ->
      nr M' E' (fadd x (fadd y (fadd z t))) (a + (b + (c + c4)))).
    { intros x y z a b c X Y W. pose proof (nr_add _ _ _ _ _ _ _ _ W Nt ltac:(split; lra) ltac:(split; lra)) as W'.
      pose proof (nr_add _ _ _ _ _ _ _ _ Y W' ltac:(split; lra) ltac:(split; lra)) as Y'. pose proof (nr_add _ _ _ _ _ _ _ _ X Y' ltac:(split; lra) ltac:(split; lra)) as X'.
      eapply nr_weak; [exact X'| |]; unfold M', E'; lra. }
    split; apply G; (apply nr_min || apply nr_max); assumption.
  Qed.
End Rules.
