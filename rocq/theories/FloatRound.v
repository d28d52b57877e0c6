(** The rounding of the [SpecFloat] operations of the standard library (binary64: precision 53,
    largest exponent 1024), proved correct from their definitions: the value of a sum, difference,
    product, quotient and square root is the exact real result up to half a unit in the last place. *)
From Coq Require Import List Bool ZArith Lia Reals Lra Floats.SpecFloat.
Import ListNotations.
Local Open Scope R_scope.

(** ** Powers of two *)
Definition bpow (e : Z) : R := powerRZ 2 e.
Lemma bpow_pos e : 0 < bpow e.
Proof. apply powerRZ_lt. lra. Qed.
Lemma bpow_add a b : bpow (a + b) = bpow a * bpow b.
Proof. apply powerRZ_add. lra. Qed.
Lemma bpow_nat n : bpow (Z.of_nat n) = 2 ^ n.
Proof. unfold bpow. symmetry. apply pow_powerRZ. Qed.
Lemma bpow_Z n : (0 <= n)%Z -> bpow n = IZR (2 ^ n).
Proof. intros H. rewrite <- (Z2Nat.id n) by auto. rewrite bpow_nat. apply (pow_IZR 2). Qed.
Lemma bpow_0 : bpow 0 = 1.
Proof. reflexivity. Qed.
Lemma bpow_1 : bpow 1 = 2.
Proof. apply powerRZ_1. Qed.
Lemma bpow_opp a : bpow (- a) = / bpow a.
Proof. unfold bpow. apply powerRZ_neg'. Qed.
Lemma bpow_sub a b : bpow (a - b) = bpow a / bpow b.
Proof. unfold Zminus, Rdiv. now rewrite bpow_add, bpow_opp. Qed.
Lemma bpow_le a b : (a <= b)%Z -> bpow a <= bpow b.
Proof.
  intros H. replace b with (a + (b - a))%Z by lia. rewrite bpow_add, (bpow_Z (b - a)) by lia.
  pose proof (bpow_pos a). assert (1 <= IZR (2 ^ (b - a))). { apply IZR_le. assert (0 < 2 ^ (b-a))%Z by (apply Z.pow_pos_nonneg; lia). lia. }
  nra.
Qed.
Lemma bpow_lt a b : (a < b)%Z -> bpow a < bpow b.
Proof. intros H. pose proof (bpow_le (a + 1) b ltac:(lia)) as L. rewrite bpow_add, bpow_1 in L. pose proof (bpow_pos a). lra. Qed.
Lemma bpow_lt_inv a b : bpow a < bpow b -> (a < b)%Z.
Proof. intros H. destruct (Z.lt_ge_cases a b) as [L|L]; auto. apply bpow_le in L. lra. Qed.

(** ** Numbers of binary digits *)
Lemma digits_pos p : (2 ^ (Zpos (digits2_pos p) - 1) <= Zpos p < 2 ^ Zpos (digits2_pos p))%Z.
Proof.
  induction p as [p IH|p IH|]; cbn [digits2_pos]; [| |cbn; lia].
  all: rewrite Pos2Z.inj_succ; set (d := Zpos (digits2_pos p)) in *; assert (0 < d)%Z by (subst d; lia); clearbody d;
    replace (Z.succ d - 1)%Z with (Z.succ (d - 1)) by lia; rewrite (Z.pow_succ_r 2 d), (Z.pow_succ_r 2 (d - 1)) by lia.
  all: generalize dependent (2 ^ d)%Z; generalize (2 ^ (d - 1))%Z; intros; lia.
Qed.
Lemma digits_unique p d : (2 ^ (d - 1) <= Zpos p < 2 ^ d)%Z -> Zpos (digits2_pos p) = d.
Proof.
  intros H. pose proof (digits_pos p) as D. assert (0 <= d)%Z. { destruct (Z.neg_nonneg_cases d); auto. rewrite (Z.pow_neg_r 2 d) in H by auto. lia. }
  destruct (Z.lt_trichotomy (Zpos (digits2_pos p)) d) as [L|[L|L]]; auto; exfalso.
  - assert (2 ^ Zpos (digits2_pos p) <= 2 ^ (d - 1))%Z by (apply Z.pow_le_mono_r; lia). lia.
  - assert (2 ^ d <= 2 ^ (Zpos (digits2_pos p) - 1))%Z by (apply Z.pow_le_mono_r; lia). lia.
Qed.

(** ** Where a real number lies with respect to an integer *)
Definition inb (m : Z) (l : location) (x : R) : Prop :=
  match l with
  | loc_Exact => x = IZR m
  | loc_Inexact c => IZR m < x < IZR m + 1 /\ match c with Lt => x < IZR m + /2 | Eq => x = IZR m + /2 | Gt => IZR m + /2 < x end
  end.
Definition rinb (r : shr_record) (x : R) : Prop := (0 <= shr_m r)%Z /\ inb (shr_m r) (loc_of_shr_record r) x.
Lemma shr_1_inb r x : rinb r x -> rinb (shr_1 r) (x / 2) /\ shr_m (shr_1 r) = (shr_m r / 2)%Z.
Proof.
  destruct r as [m rr s]. unfold rinb. cbn [shr_m]. intros (M & H).
  destruct m as [|[p|p|]|p]; cbn [shr_1]; try lia.
  - destruct rr, s; cbn [shr_m orb loc_of_shr_record inb] in *; split; try reflexivity; split; try lia; try lra.
  - assert (E : IZR (Zpos p~1) = 2 * IZR (Zpos p) + 1) by (rewrite Pos2Z.inj_xI, plus_IZR, mult_IZR; reflexivity). 
    split; [|cbn [shr_m]; rewrite Pos2Z.inj_xI; symmetry; rewrite Z.mul_comm, Z.div_add_l by lia; cbn; lia].
    destruct rr, s; cbn [shr_m orb loc_of_shr_record inb] in *; rewrite E in H; (split; [lia|]); try lra.
  - assert (E : IZR (Zpos p~0) = 2 * IZR (Zpos p)) by (rewrite Pos2Z.inj_xO, mult_IZR; reflexivity).
    split; [|cbn [shr_m]; rewrite Pos2Z.inj_xO; symmetry; rewrite Z.mul_comm, Z.div_mul by lia; reflexivity].
    destruct rr, s; cbn [shr_m orb loc_of_shr_record inb] in *; rewrite E in H; (split; [lia|]); try lra.
  - destruct rr, s; cbn [shr_m orb loc_of_shr_record inb] in *; split; try reflexivity; split; try lia; try lra.
Qed.
Lemma iter_plus {A} (f : A -> A) a b x : Nat.iter (a + b) f x = Nat.iter a f (Nat.iter b f x).
Proof. induction a as [|a IH]; cbn; [reflexivity|]. f_equal. exact IH. Qed.
Lemma iter_pos_nat {A} (f : A -> A) n : forall x, iter_pos f n x = Nat.iter (Pos.to_nat n) f x.
Proof.
  induction n as [n IH|n IH|]; intros x; cbn [iter_pos].
  - rewrite !IH, Pos2Nat.inj_xI. replace (S (2 * Pos.to_nat n)) with (Pos.to_nat n + (Pos.to_nat n + 1))%nat by lia.
    rewrite !iter_plus. reflexivity.
  - rewrite !IH, Pos2Nat.inj_xO. replace (2 * Pos.to_nat n)%nat with (Pos.to_nat n + Pos.to_nat n)%nat by lia.
    rewrite !iter_plus. reflexivity.
  - reflexivity.
Qed.
Lemma shr_n_inb n : forall r x, rinb r x -> rinb (Nat.iter n shr_1 r) (x / 2 ^ n) /\ shr_m (Nat.iter n shr_1 r) = (shr_m r / 2 ^ Z.of_nat n)%Z.
Proof.
  induction n as [|n IH]; intros r x H.
  - cbn [Nat.iter nat_rect pow Z.of_nat]. rewrite Z.pow_0_r, Z.div_1_r. split; [|reflexivity]. replace (x / 1) with x by lra. exact H.
  - destruct (IH r x H) as (A & B). change (Nat.iter (S n) shr_1 r) with (shr_1 (Nat.iter n shr_1 r)). destruct (shr_1_inb _ _ A) as (C & D).
    split; [|rewrite D, B, Nat2Z.inj_succ, Z.pow_succ_r, Z.div_div, Z.mul_comm; auto; try lia; apply Z.pow_pos_nonneg; lia].
    replace (x / 2 ^ S n) with (x / 2 ^ n / 2); [exact C|]. cbn [pow]. field. apply pow_nonzero. lra.
Qed.
Lemma record_of_loc m l : loc_of_shr_record (shr_record_of_loc m l) = l /\ shr_m (shr_record_of_loc m l) = m.
Proof. destruct l as [|[]]; split; reflexivity. Qed.
Lemma shr_inb m l e n x : (0 <= n)%Z -> (0 <= m)%Z -> inb m l (x / bpow e) ->
  let r := shr (shr_record_of_loc m l) e n in
  rinb (fst r) (x / bpow (e + n)) /\ snd r = (e + n)%Z /\ shr_m (fst r) = (m / 2 ^ n)%Z.
Proof.
  intros N M H. destruct (record_of_loc m l) as (E1 & E2).
  assert (I : rinb (shr_record_of_loc m l) (x / bpow e)) by (unfold rinb; now rewrite E1, E2).
  destruct n as [|p|p]; try lia; cbn [shr fst snd].
  - rewrite Z.add_0_r, Z.pow_0_r, Z.div_1_r, E2. auto.
  - rewrite iter_pos_nat. destruct (shr_n_inb (Pos.to_nat p) _ _ I) as (A & B). split; [|split; [reflexivity|]].
    + rewrite bpow_add, <- (positive_nat_Z p), bpow_nat. replace (x / (bpow e * 2 ^ Pos.to_nat p)) with (x / bpow e / 2 ^ Pos.to_nat p); [exact A|].
      field. split; [apply pow_nonzero; lra|]. pose proof (bpow_pos e); lra.
    + rewrite B, E2, positive_nat_Z. reflexivity.
Qed.
Lemma rne_near m l x : inb m l x -> Rabs (IZR (round_nearest_even m l) - x) <= /2 /\ (m <= round_nearest_even m l <= m + 1)%Z /\
  (l = loc_Exact -> round_nearest_even m l = m).
Proof.
  intros H. destruct l as [|[]]; cbn [round_nearest_even inb] in *.
  - split; [subst; rewrite Rminus_diag_eq, Rabs_R0 by reflexivity; lra|]. split; [lia|auto].
  - destruct (Z.even m); rewrite ?plus_IZR; (split; [apply Rabs_le; lra|]); (split; [lia|discriminate]).
  - split; [apply Rabs_le; lra|]. split; [lia|discriminate].
  - rewrite plus_IZR. split; [apply Rabs_le; lra|]. split; [lia|discriminate].
Qed.

(** ** The rounding step *)
Notation fx := (fexp 53 1024).
Lemma fx_eq e : fx e = Z.max (e - 53) (-1074).
Proof. reflexivity. Qed.
Lemma digits_Z m : (0 <= m)%Z -> (0 <= Zdigits2 m)%Z /\ (m < 2 ^ Zdigits2 m)%Z /\ ((0 < m)%Z -> (0 < Zdigits2 m)%Z /\ (2 ^ (Zdigits2 m - 1) <= m)%Z).
Proof.
  intros H. destruct m as [|p|p]; try lia; cbn [Zdigits2].
  - cbn. lia.
  - pose proof (digits_pos p). split; [lia|]. split; [lia|]. intros _. split; lia.
Qed.
Lemma shr_none r e n : (n <= 0)%Z -> shr r e n = (r, e).
Proof. intros H. destruct n; try lia; reflexivity. Qed.

(** [rounded x r f]: the integer [r] at exponent [f] is a rounding of the non-negative real [x]. *)
Definition rounded (x : R) (r f : Z) : Prop :=
  (0 <= r <= 2 ^ 53)%Z /\ (-1074 <= f)%Z /\ Rabs (IZR r * bpow f - x) <= bpow f / 2 /\
  (f = (-1074)%Z \/ bpow (f + 52) <= x) /\ (f = (-1074)%Z \/ (2 ^ 52 <= r)%Z).
(** what a float [y] with sign [s] says about it *)
Definition represents (y : spec_float) (s : bool) (r f : Z) : Prop :=
  match y with
  | S754_zero s' => s' = s /\ r = 0%Z
  | S754_finite s' m e => s' = s /\ bounded 53 1024 m e = true /\ IZR (Zpos m) * bpow e = IZR r * bpow f
  | S754_infinity s' => s' = s /\ bpow 1024 <= IZR r * bpow f
  | S754_nan => False
  end.
Lemma bounded_intro m e : fx (Zpos (digits2_pos m) + e) = e -> (e <= 971)%Z -> bounded 53 1024 m e = true.
Proof.
  intros A B. unfold bounded, canonical_mantissa. rewrite A. apply andb_true_intro. split; [apply Zeq_is_eq_bool; reflexivity|].
  apply Z.leb_le. exact B.
Qed.
Lemma bounded_elim m e : bounded 53 1024 m e = true ->
  fx (Zpos (digits2_pos m) + e) = e /\ (-1074 <= e <= 971)%Z /\ (Zpos m < 2 ^ 53)%Z /\ (e = (-1074)%Z \/ (2 ^ 52 <= Zpos m)%Z).
Proof.
  intros H. unfold bounded in H. apply andb_prop in H. destruct H as (A & B). apply Zeq_bool_eq in A. apply Z.leb_le in B.
  split; [exact A|]. pose proof (digits_pos m) as D. rewrite fx_eq in A. split; [lia|].
  assert (D53 : (Zpos (digits2_pos m) <= 53)%Z) by lia.
  assert ((2 ^ Zpos (digits2_pos m) <= 2 ^ 53)%Z) by (apply Z.pow_le_mono_r; lia). split; [lia|].
  destruct (Z.eq_dec e (-1074)); [now left|]. right. replace (Zpos (digits2_pos m)) with 53%Z in D by lia. apply D.
Qed.
Lemma round_aux s m e l x : (0 <= m)%Z -> inb m l (x / bpow e) -> (e <= fx (Zdigits2 m + e))%Z ->
  let f := fx (Zdigits2 m + e) in
  exists r, rounded x r f /\ represents (binary_round_aux 53 1024 s m e l) s r f /\
    ((0 < m / 2 ^ (f - e))%Z -> (0 < r)%Z) /\ (l = loc_Exact -> f = e -> r = m).
Proof.
  intros M I F f. subst f. set (d := Zdigits2 m) in *. set (f := fx (d + e)) in *.
  destruct (digits_Z m M) as (D0 & D1 & D2). fold d in D0, D1, D2.
  assert (Ef : f = Z.max (d + e - 53) (-1074)) by reflexivity.
  destruct (shr_inb m l e (f - e) x ltac:(lia) M I) as (A & B & C).
  replace (e + (f - e))%Z with f in * by lia.
  unfold binary_round_aux. unfold shr_fexp at 1. fold d. fold f. destruct (shr (shr_record_of_loc m l) e (f - e)) as [mrs e'] eqn:Es. cbn [fst snd] in *. subst e'.
  destruct A as (A0 & A1). set (m1 := shr_m mrs) in *.
  assert (M1 : (m1 < 2 ^ 53)%Z).
  { rewrite C. apply Z.div_lt_upper_bound; [apply Z.pow_pos_nonneg; lia|]. rewrite <- Z.pow_add_r by lia.
    assert (2 ^ d <= 2 ^ (f - e + 53))%Z by (apply Z.pow_le_mono_r; lia). lia. }
  assert (M2 : f = (-1074)%Z \/ (2 ^ 52 <= m1)%Z /\ bpow (f + 52) <= x).
  { destruct (Z.eq_dec f (-1074)) as [E|E]; [now left|right]. assert (Ef' : f = (d + e - 53)%Z) by lia. assert (d53 : (53 <= d)%Z) by lia.
    assert (mp : (0 < m)%Z). { destruct (Z.eq_dec m 0) as [->|]; [|lia]. cbn in d. lia. }
    destruct (D2 mp) as (_ & D3). split.
    - rewrite C. apply Z.div_le_lower_bound; [apply Z.pow_pos_nonneg; lia|]. rewrite <- Z.pow_add_r by lia. replace (f - e + 52)%Z with (d - 1)%Z by lia. exact D3.
    - assert (L : IZR m <= x / bpow e). { clear - I. destruct l as [|c]; cbn in I; [rewrite I; lra|lra]. }
      apply IZR_le in D3. rewrite <- bpow_Z in D3 by lia. replace (f + 52)%Z with (d - 1 + e)%Z by lia. rewrite bpow_add.
      pose proof (bpow_pos e). replace x with (x / bpow e * bpow e) by (field; lra). apply Rmult_le_compat_r; lra. }
  set (l1 := loc_of_shr_record mrs) in *. destruct (rne_near m1 l1 _ A1) as (R1 & R2 & R3). set (r := round_nearest_even m1 l1) in *.
  exists r.
  assert (Q : rounded x r f).
  { split; [lia|]. split; [lia|]. split; [|split; [destruct M2 as [M2|(_ & M2)]; auto|destruct M2 as [M2|(M2 & _)]; [auto|right; lia]]].
    pose proof (bpow_pos f) as P. replace (IZR r * bpow f - x) with ((IZR r - x / bpow f) * bpow f) by (field; lra).
    rewrite Rabs_mult, (Rabs_right (bpow f)) by lra. nra. }
  split; [exact Q|]. split; [|split; [intros; lia|]].
  2:{ intros -> E. unfold r. unfold l1, m1. unfold f in *. rewrite E in Es. rewrite Z.sub_diag in Es. cbn in Es. injection Es as <-. reflexivity. }
  unfold shr_fexp. destruct (Z.eq_dec r 0) as [E0|E0].
  { rewrite E0. rewrite shr_none by (cbn [Zdigits2]; rewrite fx_eq; lia). cbn. auto. }
  destruct r as [|p|p] eqn:Er; try lia. cbn [Zdigits2].
  destruct (Z.eq_dec (Zpos p) (2 ^ 53)) as [E53|E53].
  - assert (Ep : p = (2 ^ 53)%positive) by (change (2 ^ 53)%Z with (Zpos (2 ^ 53)) in E53; congruence). 
    assert (Ed : Zpos (digits2_pos p) = 54%Z) by (rewrite Ep; reflexivity). rewrite Ed.
    replace (fx (54 + f) - f)%Z with 1%Z by (rewrite fx_eq; lia). cbn [shr iter_pos shr_record_of_loc].
    rewrite Ep. change (2 ^ 53)%positive with (xO (2 ^ 52)). cbn [shr_1 orb shr_m].
    assert (Ev : IZR (Zpos (2 ^ 52)) * bpow (f + 1) = IZR (Zpos (xO (2 ^ 52))) * bpow f) by (rewrite bpow_add, bpow_1, (Pos2Z.inj_xO (2^52)), mult_IZR; ring).
    destruct (Z.leb_spec (f + 1) (1024 - 53)) as [L|L]; cbn [represents].
    + split; [reflexivity|]. split; [|exact Ev]. apply bounded_intro; [|lia]. change (Zpos (digits2_pos (2 ^ 52))) with 53%Z. rewrite fx_eq; lia.
    + split; [reflexivity|]. change (Zpos (xO (2 ^ 52))) with (2 ^ 53)%Z. rewrite <- (bpow_Z 53) by lia. rewrite <- bpow_add. apply bpow_le. lia.
  - assert (Dp : (Zpos (digits2_pos p) <= 53)%Z).
    { destruct (Z.le_gt_cases (Zpos (digits2_pos p)) 53) as [|G]; auto. pose proof (digits_pos p) as D.
      assert (2 ^ 53 <= 2 ^ (Zpos (digits2_pos p) - 1))%Z by (apply Z.pow_le_mono_r; lia). lia. }
    assert (Can : fx (Zpos (digits2_pos p) + f) = f).
    { rewrite fx_eq. destruct M2 as [M2|(M2 & _)]; [lia|]. assert (Zpos (digits2_pos p) = 53%Z); [|lia]. apply digits_unique. change (2 ^ (53 - 1))%Z with (2 ^ 52)%Z. lia. }
    rewrite Can, Z.sub_diag. cbn [shr shr_record_of_loc shr_m].
    destruct (Z.leb_spec f (1024 - 53)) as [L|L]; cbn [represents].
    + split; [reflexivity|]. split; [apply bounded_intro; [exact Can|lia]|reflexivity].
    + split; [reflexivity|]. destruct M2 as [M2|(M2 & _)]; [lia|].
      apply Rle_trans with (IZR (2 ^ 52) * bpow f).
      * rewrite <- (bpow_Z 52) by lia. rewrite <- bpow_add. apply bpow_le. lia.
      * apply Rmult_le_compat_r; [pose proof (bpow_pos f); lra|]. apply IZR_le. lia.
Qed.

(** ** The real number that a float stands for *)
Definition FR (x : spec_float) : R :=
  match x with S754_finite s m e => (if s then -1 else 1) * (IZR (Zpos m) * bpow e) | _ => 0 end.
Definition fin (x : spec_float) : bool := match x with S754_zero _ | S754_finite _ _ _ => true | _ => false end.
Definition valid (x : spec_float) : Prop := valid_binary 53 1024 x = true.
(** half a unit in the last place of 1, and the half of the smallest positive number *)
Definition u53 : R := bpow (-53).
Definition eta : R := bpow (-1075).
Definition fmaxR : R := bpow 1024 - bpow 971.

Lemma FR_range x : valid x -> Rabs (FR x) < bpow 1024.
Proof.
  intros V. destruct x as [s|s| |s m e]; cbn [FR]; try (rewrite Rabs_R0; apply bpow_pos).
  apply bounded_elim in V. destruct V as (_ & E & M & _).
  rewrite Rabs_mult. replace (Rabs (if s then -1 else 1)) with 1 by (destruct s; [rewrite Rabs_left|rewrite Rabs_right]; lra).
  rewrite Rmult_1_l. pose proof (bpow_pos e). rewrite Rabs_right by (apply Rle_ge, Rmult_le_pos; [apply IZR_le; lia|lra]).
  apply IZR_lt in M. rewrite <- bpow_Z in M by lia. apply Rlt_le_trans with (bpow 53 * bpow e); [nra|]. rewrite <- bpow_add. apply bpow_le. lia.
Qed.

Definition sg (s : bool) (x : R) : R := if s then - x else x.
(** [nearest y z]: no binary64 number is nearer to [z]. *)
Definition nearest (y : spec_float) (z : R) : Prop := forall w, valid w -> fin w = true -> Rabs (FR y - z) <= Rabs (FR w - z).
(** [correct y z]: the float [y] is [z] rounded: never NaN; infinite only if [z] is larger than the
    largest number in magnitude; otherwise a nearest number, and so within half a unit in the last place. *)
Definition correct (y : spec_float) (z : R) : Prop :=
  valid y /\ y <> S754_nan /\ (Rabs z <= fmaxR -> fin y = true) /\
  (fin y = true -> Rabs (FR y - z) <= u53 * Rabs z \/ Rabs (FR y - z) <= eta) /\
  (fin y = true -> nearest y z) /\ (forall s, y = S754_infinity s -> fmaxR < sg s z).
Lemma FR_sg s m e : FR (S754_finite s m e) = sg s (IZR (Zpos m) * bpow e).
Proof. destruct s; cbn; ring. Qed.
Lemma fin_cases x : fin x = true -> (exists s, x = S754_zero s) \/ (exists s m e, x = S754_finite s m e).
Proof. destruct x; try discriminate; eauto 6. Qed.
Lemma rounded_nearest x r f w : 0 <= x -> rounded x r f -> valid w -> fin w = true -> Rabs (IZR r * bpow f - x) <= Rabs (FR w - x).
Proof.
  intros X (R0 & F & E & D & _) V Fw. pose proof (bpow_pos f) as Pf.
  assert (G : forall k, Rabs (IZR r * bpow f - x) <= Rabs (IZR k * bpow f - x)).
  { intros k. destruct (Z.eq_dec k r) as [->|N]; [lra|]. assert (1 <= Rabs (IZR k - IZR r)) by (rewrite <- minus_IZR, <- abs_IZR; apply IZR_le; lia).
    assert (bpow f <= Rabs (IZR k * bpow f - IZR r * bpow f)) by (rewrite <- Rmult_minus_distr_r, Rabs_mult, (Rabs_right (bpow f)) by lra; nra).
    pose proof (Rabs_triang (IZR k * bpow f - x) (x - IZR r * bpow f)) as T. replace (IZR k * bpow f - x + (x - IZR r * bpow f)) with (IZR k * bpow f - IZR r * bpow f) in T by ring.
    rewrite (Rabs_minus_sym x) in T. lra. }
  destruct (fin_cases w Fw) as [(s & ->)|(s & m & e & ->)].
  - cbn [FR]. replace 0 with (IZR 0 * bpow f) by ring. apply G.
  - rewrite FR_sg. apply bounded_elim in V. destruct V as (_ & Be & Bm & _). destruct (Z.le_gt_cases f e) as [L|L].
    + replace (sg s (IZR (Zpos m) * bpow e)) with (IZR ((if s then -1 else 1) * (Zpos m * 2 ^ (e - f))) * bpow f); [apply G|].
      rewrite !mult_IZR, <- (bpow_Z (e - f)) by lia. rewrite (Rmult_assoc _ _ (bpow f)), (Rmult_assoc (IZR (Zpos m))), <- bpow_add. replace (e - f + f)%Z with e by lia.
      destruct s; cbn [sg]; ring.
    + destruct D as [D|D]; [lia|]. apply IZR_lt in Bm. rewrite <- bpow_Z in Bm by lia. pose proof (bpow_pos e) as Pe.
      assert (W : IZR (Zpos m) * bpow e < bpow (f + 52)).
      { apply Rlt_le_trans with (bpow 53 * bpow e); [nra|]. rewrite <- bpow_add. apply bpow_le. lia. }
      specialize (G (2 ^ 52)%Z). rewrite <- bpow_Z, <- bpow_add in G by lia. rewrite (Z.add_comm 52) in G. apply Rle_trans with (1 := G).
      assert (0 < IZR (Zpos m) * bpow e) by (apply Rmult_lt_0_compat; [apply IZR_lt; lia|auto]).
      rewrite !Rabs_left1 by (destruct s; cbn; lra). destruct s; cbn; lra.
Qed.
Lemma represents_correct y s r f x : 0 <= x -> rounded x r f -> represents y s r f -> correct y (sg s x).
Proof.
  intros X Q H. assert (V : valid y) by (destruct y; cbn in *; try reflexivity; destruct H as (_ & H & _); exact H).
  assert (N : y <> S754_nan) by (destruct y; cbn in *; congruence || contradiction).
  split; [exact V|]. split; [exact N|].
  assert (As : Rabs (sg s x) = x) by (destruct s; cbn; rewrite ?Rabs_Ropp; apply Rabs_right; lra). rewrite As.
  assert (Ag : forall z, Rabs (sg s z) = Rabs z) by (intros z; destruct s; cbn; [apply Rabs_Ropp|reflexivity]).
  assert (Er : fin y = true -> FR y = sg s (IZR r * bpow f)).
  { destruct y as [s'|s'| |s' m e]; cbn in *; try discriminate; try contradiction; intros _.
    - destruct H as (_ & ->). destruct s; cbn; ring.
    - destruct H as (-> & _ & ->). destruct s; cbn; ring. }
  assert (Inf : forall s', y = S754_infinity s' -> s' = s /\ fmaxR < x).
  { intros s' ->. destruct H as (-> & H). split; [reflexivity|]. destruct Q as (R0 & F & E & D & D').
    destruct (Rlt_le_dec fmaxR x) as [|B]; auto. exfalso. unfold fmaxR in B.
    assert (E' : IZR r * bpow f - x <= bpow f / 2) by (revert E; unfold Rabs; destruct (Rcase_abs _); lra).
    assert (Hf : (971 <= f)%Z).
    { destruct (Z.le_gt_cases 971 f) as [|G]; auto. exfalso. assert (IZR r * bpow f <= bpow 53 * bpow f).
      { apply Rmult_le_compat_r; [pose proof (bpow_pos f); lra|]. rewrite bpow_Z by lia. apply IZR_le. lia. }
      rewrite <- bpow_add in H0. assert (bpow (53 + f) < bpow 1024) by (apply bpow_lt; lia). lra. }
    destruct (Z.eq_dec f 971) as [->|].
    + pose proof (bpow_pos 971). lra.
    + destruct D as [D|D]; [lia|]. assert (bpow 1024 <= bpow (f + 52)) by (apply bpow_le; lia). pose proof (bpow_pos 971). lra. }
  split; [|split; [|split]].
  - intros B. destruct y as [s'|s'| |s' m e]; try reflexivity; [|contradiction]. destruct (Inf s' eq_refl). lra.
  - intros Fy. rewrite Er by auto. replace (sg s (IZR r * bpow f) - sg s x) with (sg s (IZR r * bpow f - x)) by (destruct s; cbn; ring). rewrite Ag.
    destruct Q as (R0 & F & E & D & D'). destruct D as [->|D].
    + right. unfold eta. assert (E2 : bpow (-1074) = 2 * bpow (-1075)) by (rewrite <- bpow_1, <- bpow_add; reflexivity). lra.
    + left. apply Rle_trans with (bpow f / 2); [exact E|]. unfold u53. replace (bpow f / 2) with (bpow (-53) * bpow (f + 52)).
      * apply Rmult_le_compat_l; [pose proof (bpow_pos (-53)); lra|exact D].
      * rewrite <- bpow_add. replace (-53 + (f + 52))%Z with (f - 1)%Z by lia. rewrite bpow_sub, bpow_1. reflexivity.
  - intros Fy w Vw Fw. rewrite Er by auto. replace (sg s (IZR r * bpow f) - sg s x) with (sg s (IZR r * bpow f - x)) by (destruct s; cbn; ring). rewrite Ag.
    assert (Ew : exists w', valid w' /\ fin w' = true /\ FR w' = sg s (FR w)).
    { destruct s; [|exists w; auto]. exists (SFopp w). destruct w as [t|t| |t m e]; try discriminate; cbn [SFopp]; repeat split; auto; cbn [FR sg]; try ring. destruct t; cbn; ring. }
    destruct Ew as (w' & Vw' & Fw' & Ew). replace (FR w - sg s x) with (sg s (FR w' - x)) by (rewrite Ew; destruct s; cbn; ring). rewrite Ag.
    now apply rounded_nearest.
  - intros s' E. destruct (Inf s' E) as (-> & I). destruct s; cbn; lra.
Qed.

(** ** Addition, subtraction *)
Lemma shl_align_val m e e' : IZR (Zpos (fst (shl_align m e e'))) * bpow (snd (shl_align m e e')) = IZR (Zpos m) * bpow e /\
  snd (shl_align m e e') = Z.min e e'.
Proof.
  unfold shl_align. destruct (e' - e)%Z as [|p|p] eqn:E; cbn [fst snd]; try (split; [reflexivity|lia]).
  split; [|lia]. rewrite shift_pos_correct, mult_IZR. change (Z.pow_pos 2 p) with (2 ^ Zpos p)%Z. rewrite <- bpow_Z by lia.
  replace e with (Zpos p + e')%Z by lia. rewrite bpow_add. ring.
Qed.
Lemma round_int s m e : exists r f, rounded (IZR (Zpos m) * bpow e) r f /\ represents (binary_round 53 1024 s m e) s r f /\
  ((-1074 <= e)%Z -> (0 < r)%Z /\ (f = (-1074)%Z -> IZR r * bpow f = IZR (Zpos m) * bpow e)).
Proof.
  unfold binary_round. destruct (shl_align_val m e (fx (Zpos (digits2_pos m) + e))) as (A & B).
  destruct (shl_align m e (fx (Zpos (digits2_pos m) + e))) as [mz ez] eqn:E. cbn [fst snd] in *.
  pose proof (bpow_pos ez) as P.
  assert (I : inb (Zpos mz) loc_Exact (IZR (Zpos m) * bpow e / bpow ez)) by (cbn [inb]; rewrite <- A; field; lra).
  assert (D : (Zpos (digits2_pos mz) + ez = Zpos (digits2_pos m) + e)%Z).
  { unfold shl_align in E. destruct (fx (Zpos (digits2_pos m) + e) - e)%Z as [|p|p] eqn:Ep; injection E as <- <-; try lia.
    replace (fx (Zpos (digits2_pos m) + e)) with (e - Zpos p)%Z by lia. enough (Zpos (digits2_pos (shift_pos p m)) = Zpos (digits2_pos m) + Zpos p)%Z by lia.
    apply digits_unique. rewrite shift_pos_correct. change (Z.pow_pos 2 p) with (2 ^ Zpos p)%Z. pose proof (digits_pos m) as Dm.
    replace (Zpos (digits2_pos m) + Zpos p - 1)%Z with (Zpos p + (Zpos (digits2_pos m) - 1))%Z by lia.
    rewrite Z.add_comm, !Z.pow_add_r by lia. assert (0 < 2 ^ Zpos p)%Z by (apply Z.pow_pos_nonneg; lia). nia. }
  destruct (round_aux s (Zpos mz) ez loc_Exact _ ltac:(lia) I) as (r & R1 & R2 & R3 & R4).
  { cbn [Zdigits2]. rewrite D. lia. }
  cbn [Zdigits2] in *. rewrite D in *. set (f := fx (Zpos (digits2_pos m) + e)) in *.
  exists r, f. split; [exact R1|]. split; [exact R2|]. intros L.
  pose proof (fx_eq (Zpos (digits2_pos m) + e)) as Ef. fold f in Ef.
  split.
  - apply R3. rewrite B. pose proof (digits_pos mz) as Dm. rewrite <- B. apply Z.div_str_pos. split; [apply Z.pow_pos_nonneg; lia|].
    apply Z.le_trans with (2 ^ (Zpos (digits2_pos mz) - 1))%Z; [|lia]. apply Z.pow_le_mono_r; lia.
  - intros F. assert (ez = f) by lia. rewrite R4 by auto. rewrite <- A. congruence.
Qed.
(** strictly positive ([s = false]) or strictly negative ([s = true]), infinities included *)
Definition signed (y : spec_float) (s : bool) : Prop :=
  match y with S754_finite s' _ _ | S754_infinity s' => s' = s | _ => False end.
Definition relative (y : spec_float) (z : R) : Prop := fin y = true -> Rabs (FR y - z) <= u53 * Rabs z.
Lemma u53_pos : 0 < u53.
Proof. apply bpow_pos. Qed.
Lemma eta_pos : 0 < eta.
Proof. apply bpow_pos. Qed.
Lemma round_signed s m e : (-1074 <= e)%Z -> let y := binary_round 53 1024 s m e in let z := sg s (IZR (Zpos m) * bpow e) in
  correct y z /\ relative y z /\ signed y s.
Proof.
  intros L y z. destruct (round_int s m e) as (r & f & A & B & C). destruct (C L) as (C1 & C2). fold y in B.
  assert (X : 0 <= IZR (Zpos m) * bpow e) by (apply Rmult_le_pos; [apply IZR_le; lia|pose proof (bpow_pos e); lra]).
  pose proof (represents_correct y s r f _ X A B) as K. fold z in K. split; [exact K|]. split.
  - intros F. destruct K as (_ & _ & _ & K). destruct A as (A1 & A2 & A3 & A4 & A5).
    assert (Er : FR y = sg s (IZR r * bpow f)).
    { destruct y as [s'|s'| |s' m' e']; cbn in *; try discriminate.
      - destruct B as (_ & ->). lia.
      - destruct B as (-> & _ & ->). destruct s; cbn; ring. }
    destruct A4 as [A4|A4].
    + rewrite Er, C2 by auto. fold z. rewrite Rminus_diag_eq, Rabs_R0 by reflexivity. apply Rmult_le_pos; [pose proof u53_pos; lra|apply Rabs_pos].
    + rewrite Er. unfold z. replace (sg s (IZR r * bpow f) - sg s (IZR (Zpos m) * bpow e)) with (sg s (IZR r * bpow f - IZR (Zpos m) * bpow e)) by (destruct s; cbn; ring).
      assert (Ag : forall z, Rabs (sg s z) = Rabs z) by (intros t; destruct s; cbn; [apply Rabs_Ropp|reflexivity]). rewrite !Ag.
      rewrite (Rabs_right (IZR (Zpos m) * bpow e)) by lra. apply Rle_trans with (bpow f / 2); [exact A3|].
      unfold u53. replace (bpow f / 2) with (bpow (-53) * bpow (f + 52)).
      * apply Rmult_le_compat_l; [pose proof (bpow_pos (-53)); lra|exact A4].
      * rewrite <- bpow_add. replace (-53 + (f + 52))%Z with (f - 1)%Z by lia. rewrite bpow_sub, bpow_1. reflexivity.
  - destruct y as [s'|s'| |s' m' e']; cbn in *; try tauto. lia.
Qed.
Lemma correct_id x : fin x = true -> valid x -> correct x (FR x) /\ relative x (FR x).
Proof.
  intros F V. assert (E : Rabs (FR x - FR x) <= u53 * Rabs (FR x)).
  { rewrite Rminus_diag_eq, Rabs_R0 by reflexivity. apply Rmult_le_pos; [pose proof u53_pos; lra|apply Rabs_pos]. }
  split; [|intros _; exact E]. split; [exact V|]. split; [destruct x; discriminate|]. split; [auto|]. split; [auto|]. split.
  - intros _ w _ _. rewrite (Rminus_diag_eq (FR x)), Rabs_R0 by reflexivity. apply Rabs_pos.
  - intros s ->. discriminate.
Qed.
Lemma correct_0 s : correct (S754_zero s) 0 /\ relative (S754_zero s) 0.
Proof. apply (correct_id (S754_zero s)); reflexivity. Qed.
Lemma normalize_spec k e : (-1074 <= e)%Z -> let y := binary_normalize 53 1024 k e false in let z := IZR k * bpow e in
  correct y z /\ relative y z /\ ((0 < k)%Z -> signed y false) /\ ((k < 0)%Z -> signed y true) /\ (k = 0%Z -> y = S754_zero false).
Proof.
  intros L. destruct k as [|p|p]; cbn [binary_normalize].
  - cbn zeta. rewrite Rmult_0_l. destruct (correct_0 false) as (A & B). repeat split; auto; try apply A; try lia.
  - destruct (round_signed false p e L) as (A & B & C). cbn [sg] in A, B. split; [exact A|]. split; [exact B|]. repeat split; auto; lia.
  - destruct (round_signed true p e L) as (A & B & C). cbn [sg] in A, B. replace (IZR (Zneg p) * bpow e) with (- (IZR (Zpos p) * bpow e)) by (rewrite <- Pos2Z.opp_pos, opp_IZR; ring).
    split; [exact A|]. split; [exact B|]. repeat split; auto; lia.
Qed.
Lemma cond_sg s k : IZR (cond_Zopp s k) = sg s (IZR k).
Proof. destruct s; cbn; [apply opp_IZR|reflexivity]. Qed.

(** The sum and the difference of two finite numbers have the sign of the exact one, zero included,
    and a relative error of at most 2^-53, even for subnormal results; they are finite unless the exact
    result exceeds the largest float. *)
Definition sum_spec (y : spec_float) (z : R) : Prop :=
  correct y z /\ relative y z /\ (0 < z -> signed y false) /\ (z < 0 -> signed y true) /\ (z = 0 -> exists s, y = S754_zero s).
Lemma id_spec x : fin x = true -> valid x -> sum_spec x (FR x).
Proof.
  intros F V. destruct (correct_id x F V) as (A & B). split; [exact A|]. split; [exact B|].
  destruct (fin_cases x F) as [(s & ->)|(s & m & e & ->)].
  - cbn. repeat split; intros; try lra. eauto.
  - rewrite FR_sg. pose proof (bpow_pos e). assert (0 < IZR (Zpos m)) by (apply IZR_lt; lia).
    assert (0 < IZR (Zpos m) * bpow e) by nra. destruct s; cbn; repeat split; intros; try lra.
Qed.
Lemma opp_valid x : valid x -> valid (SFopp x).
Proof. destruct x; auto. Qed.
Lemma abs_valid x : valid x -> valid (SFabs x).
Proof. destruct x; auto. Qed.
Lemma fin_opp x : fin (SFopp x) = fin x.
Proof. destruct x; reflexivity. Qed.
Lemma fin_abs x : fin (SFabs x) = fin x.
Proof. destruct x; reflexivity. Qed.
Lemma FR_opp x : FR (SFopp x) = - FR x.
Proof. destruct x as [s|s| |s m e]; cbn; try ring. destruct s; cbn; ring. Qed.
Lemma FR_abs x : FR (SFabs x) = Rabs (FR x).
Proof.
  destruct x as [s|s| |s m e]; try (cbn; now rewrite Rabs_R0). cbn [SFabs]. rewrite !FR_sg. cbn [sg].
  assert (0 < IZR (Zpos m) * bpow e) by (apply Rmult_lt_0_compat; [apply IZR_lt; lia|apply bpow_pos]).
  destruct s; cbn; [rewrite Rabs_Ropp|]; rewrite Rabs_right; lra.
Qed.
Lemma aligned_sum sx mx ex sy my ey (op : Z -> Z -> Z) (rop : R -> R -> R) :
  (forall a b, IZR (op a b) = rop (IZR a) (IZR b)) -> (forall a b k, rop a b * k = rop (a * k) (b * k)) ->
  valid (S754_finite sx mx ex) -> valid (S754_finite sy my ey) ->
  let ez := Z.min ex ey in
  sum_spec (binary_normalize 53 1024 (op (cond_Zopp sx (Zpos (fst (shl_align mx ex ez)))) (cond_Zopp sy (Zpos (fst (shl_align my ey ez))))) ez false)
    (rop (FR (S754_finite sx mx ex)) (FR (S754_finite sy my ey))).
Proof.
  intros O1 O2 Vx Vy ez. apply bounded_elim in Vx, Vy. destruct Vx as (_ & Bx & _), Vy as (_ & By & _).
  destruct (shl_align_val mx ex ez) as (A & A'). destruct (shl_align_val my ey ez) as (B & B').
  replace (Z.min ex ez) with ez in A' by lia. replace (Z.min ey ez) with ez in B' by lia. rewrite A' in A. rewrite B' in B.
  set (k := op _ _).
  assert (E : rop (FR (S754_finite sx mx ex)) (FR (S754_finite sy my ey)) = IZR k * bpow ez).
  { unfold k. rewrite O1, O2, !FR_sg, !cond_sg. rewrite <- A, <- B. destruct sx, sy; cbn [sg]; f_equal; ring. }
  rewrite E. destruct (normalize_spec k ez ltac:(lia)) as (C & D & P & Q & W). pose proof (bpow_pos ez) as Pz.
  split; [exact C|]. split; [exact D|]. split; [|split].
  - intros H. apply P. apply lt_IZR. nra.
  - intros H. apply Q. apply lt_IZR. nra.
  - intros H. exists false. apply W. apply eq_IZR. nra.
Qed.
Definition fsub := SFsub 53 1024.
Definition fadd := SFadd 53 1024.
Definition fmul := SFmul 53 1024.
Lemma fsub_spec x y : fin x = true -> fin y = true -> valid x -> valid y -> sum_spec (fsub x y) (FR x - FR y).
Proof.
  intros Fx Fy Vx Vy. destruct (fin_cases x Fx) as [(sx & ->)|(sx & mx & ex & ->)], (fin_cases y Fy) as [(sy & ->)|(sy & my & ey & ->)]; cbn [fsub SFsub].
  - replace (FR (S754_zero sx) - FR (S754_zero sy)) with 0 by (cbn; ring).
    assert (H : exists s, (if eqb sx (negb sy) then S754_zero sx else S754_zero false) = S754_zero s) by (destruct (eqb _ _); eauto). destruct H as (s & H).
    unfold fsub, SFsub. rewrite H. change 0 with (FR (S754_zero s)). apply id_spec; reflexivity.
  - replace (FR (S754_zero sx) - FR (S754_finite sy my ey)) with (FR (S754_finite (negb sy) my ey)) by (rewrite !FR_sg; cbn [FR]; destruct sy; cbn; ring).
    apply id_spec; auto.
  - replace (FR (S754_finite sx mx ex) - FR (S754_zero sy)) with (FR (S754_finite sx mx ex)) by (cbn [FR]; ring). apply id_spec; auto.
  - apply (aligned_sum sx mx ex sy my ey Zminus Rminus); auto; intros; [apply minus_IZR|ring].
Qed.
Lemma fadd_spec x y : fin x = true -> fin y = true -> valid x -> valid y -> sum_spec (fadd x y) (FR x + FR y).
Proof.
  intros Fx Fy Vx Vy. destruct (fin_cases x Fx) as [(sx & ->)|(sx & mx & ex & ->)], (fin_cases y Fy) as [(sy & ->)|(sy & my & ey & ->)]; cbn [fadd SFadd].
  - replace (FR (S754_zero sx) + FR (S754_zero sy)) with 0 by (cbn; ring).
    assert (H : exists s, (if eqb sx sy then S754_zero sx else S754_zero false) = S754_zero s) by (destruct (eqb _ _); eauto). destruct H as (s & H).
    unfold fadd, SFadd. rewrite H. change 0 with (FR (S754_zero s)). apply id_spec; reflexivity.
  - replace (FR (S754_zero sx) + FR (S754_finite sy my ey)) with (FR (S754_finite sy my ey)) by (cbn [FR]; ring). apply id_spec; auto.
  - replace (FR (S754_finite sx mx ex) + FR (S754_zero sy)) with (FR (S754_finite sx mx ex)) by (cbn [FR]; ring). apply id_spec; auto.
  - apply (aligned_sum sx mx ex sy my ey Zplus Rplus); auto; intros; [apply plus_IZR|ring].
Qed.
(** ** Multiplication: additionally an absolute error of at most 2^-1075 when the result is subnormal. *)
Lemma fmul_spec x y : fin x = true -> fin y = true -> valid x -> valid y -> correct (fmul x y) (FR x * FR y).
Proof.
  intros Fx Fy Vx Vy. destruct (fin_cases x Fx) as [(sx & ->)|(sx & mx & ex & ->)], (fin_cases y Fy) as [(sy & ->)|(sy & my & ey & ->)].
  - replace (FR (S754_zero sx) * FR (S754_zero sy)) with 0 by (cbn; ring). apply correct_0.
  - replace (FR (S754_zero sx) * FR (S754_finite sy my ey)) with 0 by (cbn [FR]; ring). apply correct_0.
  - replace (FR (S754_finite sx mx ex) * FR (S754_zero sy)) with 0 by (cbn [FR]; ring). apply correct_0.
  - unfold fmul, SFmul. pose proof (bpow_pos ex) as Px. pose proof (bpow_pos ey) as Py.
    apply bounded_elim in Vx, Vy. destruct Vx as (_ & Bx & _ & Cx), Vy as (_ & By & _ & Cy).
    assert (E : FR (S754_finite sx mx ex) * FR (S754_finite sy my ey) = sg (xorb sx sy) (IZR (Zpos (mx * my)) * bpow (ex + ey))).
    { rewrite !FR_sg, Pos2Z.inj_mul, mult_IZR, bpow_add. destruct sx, sy; cbn; ring. }
    rewrite E. destruct (round_aux (xorb sx sy) (Zpos (mx * my)) (ex + ey) loc_Exact (IZR (Zpos (mx * my)) * bpow (ex + ey))) as (r & R1 & R2 & _).
    + lia.
    + cbn [inb]. field. apply Rgt_not_eq, bpow_pos.
    + cbn [Zdigits2]. rewrite fx_eq. destruct (Z.le_gt_cases 53 (Zpos (digits2_pos (mx * my)))) as [|G]; [lia|].
      assert (Sm : (Zpos (mx * my) < 2 ^ 52)%Z). { pose proof (digits_pos (mx * my)) as D. assert (2 ^ Zpos (digits2_pos (mx * my)) <= 2 ^ 52)%Z by (apply Z.pow_le_mono_r; lia). lia. }
      rewrite Pos2Z.inj_mul in Sm. destruct Cx as [->|Cx]; [|nia]. lia.
    + eapply represents_correct; eauto. apply Rmult_le_pos; [apply IZR_le; lia|apply Rlt_le, bpow_pos].
Qed.

(** ** Comparisons are those of the real numbers *)
Lemma cmp_pos m1 e1 m2 e2 : valid (S754_finite false m1 e1) -> valid (S754_finite false m2 e2) -> (e1 < e2)%Z ->
  IZR (Zpos m1) * bpow e1 < IZR (Zpos m2) * bpow e2.
Proof.
  intros V1 V2 L. apply bounded_elim in V1, V2. destruct V1 as (_ & B1 & M1 & _), V2 as (_ & B2 & _ & C2).
  destruct C2 as [C2|C2]; [lia|]. apply IZR_lt in M1. apply IZR_le in C2. rewrite <- bpow_Z in M1, C2 by lia.
  pose proof (bpow_pos e1). pose proof (bpow_pos e2).
  apply Rlt_le_trans with (bpow 53 * bpow e1); [nra|]. apply Rle_trans with (bpow 52 * bpow e2); [|nra].
  rewrite <- !bpow_add. apply bpow_le. lia.
Qed.
Definition cmpR (a b : R) (c : comparison) : Prop := match c with Lt => a < b | Eq => a = b | Gt => b < a end.
Lemma compare_FR x y : fin x = true -> fin y = true -> valid x -> valid y -> exists c, SFcompare x y = Some c /\ cmpR (FR x) (FR y) c.
Proof.
  assert (P : forall m e, 0 < IZR (Zpos m) * bpow e) by (intros m e; apply Rmult_lt_0_compat; [apply IZR_lt; lia|apply bpow_pos]).
  intros Fx Fy Vx Vy. destruct (fin_cases x Fx) as [(sx & ->)|(sx & mx & ex & ->)], (fin_cases y Fy) as [(sy & ->)|(sy & my & ey & ->)]; cbn [SFcompare].
  - exists Eq. split; [reflexivity|]. reflexivity.
  - pose proof (P my ey). rewrite FR_sg. destruct sy; eexists; (split; [reflexivity|]); cbn; lra.
  - pose proof (P mx ex). rewrite FR_sg. destruct sx; eexists; (split; [reflexivity|]); cbn; lra.
  - pose proof (P my ey). pose proof (P mx ex). rewrite !FR_sg.
    assert (T : forall c, Z.compare ex ey = c -> match c with Lt => IZR (Zpos mx) * bpow ex < IZR (Zpos my) * bpow ey
        | Gt => IZR (Zpos my) * bpow ey < IZR (Zpos mx) * bpow ex | Eq => ex = ey end).
    { intros c <-. destruct (Z.compare_spec ex ey); auto; [now apply (cmp_pos mx ex my ey)|now apply (cmp_pos my ey mx ex)]. }
    assert (M : forall c, Pcompare mx my Eq = c -> cmpR (IZR (Zpos mx)) (IZR (Zpos my)) c).
    { intros c <-. change (Pcompare mx my Eq) with (Pos.compare mx my). destruct (Pos.compare_spec mx my); cbn; [subst; reflexivity|apply IZR_lt; lia|apply IZR_lt; lia]. }
    specialize (T _ eq_refl). specialize (M _ eq_refl). pose proof (bpow_pos ex) as Pe.
    destruct sx, sy; cbn [sg]; eexists; (split; [reflexivity|]); cbn [cmpR]; try lra;
    destruct (Z.compare ex ey); cbn [cmpR]; try lra; rewrite <- T in *; destruct (Pcompare mx my Eq); cbn [cmpR CompOpp] in *; try nra; rewrite M; reflexivity.
Qed.
Lemma ltb_FR x y : fin x = true -> fin y = true -> valid x -> valid y -> (SFltb x y = true <-> FR x < FR y).
Proof.
  intros Fx Fy Vx Vy. destruct (compare_FR x y Fx Fy Vx Vy) as (c & E & H). unfold SFltb. rewrite E. destruct c; cbn in H; split; intros; try lra; try discriminate; auto.
Qed.
Lemma leb_FR x y : fin x = true -> fin y = true -> valid x -> valid y -> (SFleb x y = true <-> FR x <= FR y).
Proof.
  intros Fx Fy Vx Vy. destruct (compare_FR x y Fx Fy Vx Vy) as (c & E & H). unfold SFleb. rewrite E. destruct c; cbn in H; split; intros; try lra; try discriminate; auto.
Qed.
Lemma signed_lt y : (signed y true <-> SFltb y (S754_zero false) = true) /\ (signed y false <-> SFltb (S754_zero false) y = true).
Proof. destruct y as [[]|[]| |[] m e]; cbn; split; split; auto; try discriminate; try contradiction. Qed.
(** For all binary64 numbers, infinities and NaN included: [x - y < 0] is the same test as [x < y],
    and [x - y > 0] the same as [x > y]. *)
Theorem sub_test x y : valid x -> valid y ->
  SFltb (fsub x y) (S754_zero false) = SFltb x y /\ SFltb (S754_zero false) (fsub x y) = SFltb y x.
Proof.
  intros Vx Vy. destruct (fin x) eqn:Fx; [destruct (fin y) eqn:Fy|].
  - destruct (fsub_spec x y Fx Fy Vx Vy) as (_ & _ & P & N & Z0). pose proof (ltb_FR x y Fx Fy Vx Vy) as A. pose proof (ltb_FR y x Fy Fx Vy Vx) as B.
    destruct (signed_lt (fsub x y)) as (S1 & S2). destruct (Rtotal_order (FR x) (FR y)) as [L|[L|L]].
    + rewrite (proj2 A L). split; [apply S1; apply N; lra|]. destruct (SFltb y x) eqn:E; [pose proof (proj1 B eq_refl); lra|].
      assert (Q : signed (fsub x y) true) by (apply N; lra). destruct (fsub x y) as [[]|[]| |[] ? ?]; cbn in *; try discriminate; try contradiction; reflexivity.
    + destruct (Z0 ltac:(lra)) as (s & ->). destruct (SFltb x y) eqn:E1; [pose proof (proj1 A eq_refl); lra|]. destruct (SFltb y x) eqn:E2; [pose proof (proj1 B eq_refl); lra|].
      split; reflexivity.
    + rewrite (proj2 B L). split; [|apply S2; apply P; lra]. destruct (SFltb x y) eqn:E; [pose proof (proj1 A eq_refl); lra|].
      assert (Q : signed (fsub x y) false) by (apply P; lra). destruct (fsub x y) as [[]|[]| |[] ? ?]; cbn in *; try discriminate; try contradiction; reflexivity.
  - destruct x as [sx|sx| |sx mx ex], y as [sy|[]| |sy my ey]; try discriminate; split; reflexivity.
  - destruct x as [sx|[]| |sx mx ex], y as [sy|[]| |sy my ey]; try discriminate; split; reflexivity.
Qed.

(** ** Exact results: a representable result is not changed by rounding *)
Lemma rounded_exact w r f : valid w -> fin w = true -> rounded (Rabs (FR w)) r f -> IZR r * bpow f = Rabs (FR w).
Proof.
  intros V F (R0 & Ef & E & D & _). destruct (fin_cases w F) as [(s & ->)|(s & m & e & ->)].
  - cbn [FR] in *. rewrite Rabs_R0 in *. pose proof (bpow_pos f) as P. assert (r = 0%Z); [|subst; ring].
    destruct (Z.eq_dec r 0); auto. exfalso. assert (1 <= IZR r) by (apply IZR_le; lia).
    rewrite Rminus_0_r, Rabs_right in E by nra. nra.
  - assert (P : 0 < IZR (Zpos m) * bpow e) by (apply Rmult_lt_0_compat; [apply IZR_lt; lia|apply bpow_pos]).
    assert (A : Rabs (FR (S754_finite s m e)) = IZR (Zpos m) * bpow e) by (rewrite FR_sg; destruct s; cbn; [rewrite Rabs_Ropp|]; apply Rabs_right; lra).
    rewrite A in *. apply bounded_elim in V. destruct V as (_ & Be & Bm & _).
    assert (L : (f <= e)%Z).
    { destruct D as [->|D]; [lia|]. destruct (Z.le_gt_cases f e) as [|G]; auto. exfalso.
      apply IZR_lt in Bm. rewrite <- bpow_Z in Bm by lia. pose proof (bpow_pos e).
      assert (IZR (Zpos m) * bpow e < bpow 53 * bpow e) by nra. rewrite <- bpow_add in H0. assert (bpow (53 + e) <= bpow (f + 52)) by (apply bpow_le; lia). lra. }
    assert (Ek : IZR (Zpos m) * bpow e = IZR (Zpos m * 2 ^ (e - f)) * bpow f).
    { rewrite mult_IZR, <- bpow_Z by lia. rewrite Rmult_assoc, <- bpow_add. do 2 f_equal. lia. }
    rewrite Ek in *. set (k := (Zpos m * 2 ^ (e - f))%Z) in *. f_equal. f_equal. pose proof (bpow_pos f) as Pf.
    rewrite <- Rmult_minus_distr_r, Rabs_mult, (Rabs_right (bpow f)) in E by lra.
    assert (E2 : Rabs (IZR r - IZR k) <= / 2) by nra. rewrite <- minus_IZR, <- abs_IZR in E2.
    assert (Z.abs (r - k) < 1)%Z by (apply lt_IZR; lra). lia.
Qed.
Lemma represents_FR y s r f : fin y = true -> represents y s r f -> FR y = sg s (IZR r * bpow f).
Proof.
  intros F B. destruct y as [s'|s'| |s' m' e']; try discriminate; cbn [represents] in B.
  - destruct B as (_ & ->). cbn. destruct s; cbn; ring.
  - destruct B as (-> & _ & B). rewrite FR_sg, B. reflexivity.
Qed.
Lemma small_max w : valid w -> Rabs (FR w) <= fmaxR.
Proof.
  intros V. destruct w as [s|s| |s m e]; try (cbn [FR]; rewrite Rabs_R0; unfold fmaxR; pose proof (bpow_lt 971 1024 ltac:(lia)); lra).
  rewrite FR_sg. assert (P : 0 < IZR (Zpos m) * bpow e) by (apply Rmult_lt_0_compat; [apply IZR_lt; lia|apply bpow_pos]).
  assert (A : Rabs (sg s (IZR (Zpos m) * bpow e)) = IZR (Zpos m) * bpow e) by (destruct s; cbn; [rewrite Rabs_Ropp|]; apply Rabs_right; lra). rewrite A.
  apply bounded_elim in V. destruct V as (_ & Be & Bm & _). assert (M : (Zpos m <= 2 ^ 53 - 1)%Z) by lia. apply IZR_le in M. rewrite minus_IZR, <- bpow_Z in M by lia.
  unfold fmaxR. replace (bpow 1024) with (bpow 53 * bpow 971) by (rewrite <- bpow_add; reflexivity).
  pose proof (bpow_le e 971 ltac:(lia)). pose proof (bpow_pos e). pose proof (bpow_le 0 53 ltac:(lia)). rewrite bpow_0 in *. nra.
Qed.
(** If the exact product is a binary64 number then it is the result. *)
Lemma fmul_exact x y w : fin x = true -> fin y = true -> valid x -> valid y -> fin w = true -> valid w -> FR x * FR y = FR w ->
  fin (fmul x y) = true /\ FR (fmul x y) = FR w.
Proof.
  intros Fx Fy Vx Vy Fw Vw E. destruct (fmul_spec x y Fx Fy Vx Vy) as (_ & _ & Q & _).
  assert (F : fin (fmul x y) = true) by (apply Q; rewrite E; now apply small_max). split; [exact F|].
  destruct (fin_cases x Fx) as [(sx & ->)|(sx & mx & ex & ->)]; [rewrite <- E; cbn [FR]; rewrite Rmult_0_l; destruct (fin_cases y Fy) as [(sy & ->)|(sy & my & ey & ->)]; reflexivity|].
  destruct (fin_cases y Fy) as [(sy & ->)|(sy & my & ey & ->)]; [rewrite <- E; cbn [FR]; rewrite Rmult_0_r; reflexivity|].
  pose proof (bpow_pos ex) as Px. pose proof (bpow_pos ey) as Py.
  apply bounded_elim in Vx, Vy. destruct Vx as (_ & Bx & _ & Cx), Vy as (_ & By & _ & Cy).
  assert (E' : FR (S754_finite sx mx ex) * FR (S754_finite sy my ey) = sg (xorb sx sy) (IZR (Zpos (mx * my)) * bpow (ex + ey))).
  { rewrite !FR_sg, Pos2Z.inj_mul, mult_IZR, bpow_add. destruct sx, sy; cbn; ring. }
  assert (P : 0 < IZR (Zpos (mx * my)) * bpow (ex + ey)) by (apply Rmult_lt_0_compat; [apply IZR_lt; lia|apply bpow_pos]).
  destruct (round_aux (xorb sx sy) (Zpos (mx * my)) (ex + ey) loc_Exact (IZR (Zpos (mx * my)) * bpow (ex + ey))) as (r & R1 & R2 & _).
  + lia.
  + cbn [inb]. field. apply Rgt_not_eq, bpow_pos.
  + cbn [Zdigits2]. rewrite fx_eq. destruct (Z.le_gt_cases 53 (Zpos (digits2_pos (mx * my)))) as [|G]; [lia|].
    assert (Sm : (Zpos (mx * my) < 2 ^ 52)%Z). { pose proof (digits_pos (mx * my)) as D. assert (2 ^ Zpos (digits2_pos (mx * my)) <= 2 ^ 52)%Z by (apply Z.pow_le_mono_r; lia). lia. }
    rewrite Pos2Z.inj_mul in Sm. destruct Cx as [->|Cx]; [|nia]. lia.
  + rewrite (represents_FR _ _ _ _ F R2). rewrite E' in E.
    assert (Aw : Rabs (FR w) = IZR (Zpos (mx * my)) * bpow (ex + ey)) by (rewrite <- E; destruct (xorb sx sy); cbn; [rewrite Rabs_Ropp|]; apply Rabs_right; lra).
    rewrite <- Aw in R1. rewrite (rounded_exact w _ _ Vw Fw R1), Aw. exact E.
Qed.

(** ** Order: rounding does not cross a binary64 number *)
Lemma correct_le y z w : correct y z -> valid w -> fin w = true -> z <= FR w -> (fin y = true -> FR y <= FR w) /\ SFleb y w = true.
Proof.
  intros (V & N & _ & _ & Nr & I) Vw Fw L.
  assert (G : fin y = true -> FR y <= FR w).
  { intros F. specialize (Nr F w Vw Fw). rewrite (Rabs_right (FR w - z)) in Nr by lra. revert Nr. unfold Rabs. destruct (Rcase_abs _); lra. }
  split; [exact G|]. destruct (fin y) eqn:F; [apply leb_FR; auto|]. destruct y as [s|s| |s m e]; try discriminate; try congruence.
  specialize (I s eq_refl). destruct s; [destruct w; reflexivity||discriminate|]. cbn [sg] in I. pose proof (small_max w Vw) as B. pose proof (Rle_abs (FR w)). lra.
Qed.
Lemma correct_ge y z w : correct y z -> valid w -> fin w = true -> FR w <= z -> (fin y = true -> FR w <= FR y) /\ SFleb w y = true.
Proof.
  intros (V & N & _ & _ & Nr & I) Vw Fw L.
  assert (G : fin y = true -> FR w <= FR y).
  { intros F. specialize (Nr F w Vw Fw). rewrite (Rabs_left1 (FR w - z)) in Nr by lra. revert Nr. unfold Rabs. destruct (Rcase_abs _); lra. }
  split; [exact G|]. destruct (fin y) eqn:F; [apply leb_FR; auto|]. destruct y as [s|s| |s m e]; try discriminate; try congruence.
  specialize (I s eq_refl). destruct s; [|destruct w as [[]|[]| |[] ? ?]; reflexivity||discriminate]. cbn [sg] in I. pose proof (small_max w Vw) as B. pose proof (Rle_abs (- FR w)). rewrite Rabs_Ropp in *. lra.
Qed.

(** ** Division *)
Definition fdiv := SFdiv 53 1024.
Definition fsqrt := SFsqrt 53 1024.
Lemma new_location_inb q r n : (0 <= r < n)%Z -> inb q (new_location n r) (IZR q + IZR r / IZR n).
Proof.
  intros H. assert (P : 0 < IZR n) by (apply IZR_lt; lia).
  assert (C : forall k, r = k -> IZR k / IZR n * IZR n = IZR k) by (intros; field; lra).
  unfold new_location. destruct (Z.eq_dec r 0) as [->|N].
  { unfold new_location_even, new_location_odd. destruct (Z.even n); cbn [Zeq_bool Z.compare inb]; field; lra. }
  assert (B : 0 < IZR r / IZR n < 1).
  { split; [apply Rdiv_lt_0_compat; auto; apply IZR_lt; lia|]. apply Rmult_lt_reg_r with (IZR n); auto. rewrite (C r) by auto. rewrite Rmult_1_l. apply IZR_lt. lia. }
  assert (L : (2 * r < n)%Z -> IZR r / IZR n < / 2) by (intros E; apply Rmult_lt_reg_r with (IZR n); auto; rewrite (C r) by auto; apply IZR_lt in E; rewrite mult_IZR in E; lra).
  assert (G : (n < 2 * r)%Z -> / 2 < IZR r / IZR n) by (intros E; apply Rmult_lt_reg_r with (IZR n); auto; rewrite (C r) by auto; apply IZR_lt in E; rewrite mult_IZR in E; lra).
  assert (Q : (2 * r = n)%Z -> IZR r / IZR n = / 2) by (intros E; rewrite <- E, mult_IZR; field; apply not_0_IZR; auto).
  assert (Z0 : Zeq_bool r 0 = false) by (destruct (Zeq_bool r 0) eqn:E; auto; apply Zeq_bool_eq in E; contradiction).
  destruct (Z.even n) eqn:Ev; [unfold new_location_even|unfold new_location_odd]; rewrite Z0; cbn [inb]; (split; [lra|]).
  - destruct (Z.compare_spec (2 * r) n) as [E|E|E]; [specialize (Q E)|specialize (L E)|specialize (G E)]; lra.
  - assert (Od : (2 * r <> n)%Z) by (intros E; rewrite <- E, Z.even_mul in Ev; discriminate).
    destruct (Z.compare_spec (2 * r + 1) n) as [E|E|E]; [specialize (L ltac:(lia))|specialize (L ltac:(lia))|specialize (G ltac:(lia))]; lra.
Qed.
Lemma digits_ge m k : (0 <= k)%Z -> (2 ^ k <= m)%Z -> (k + 1 <= Zdigits2 m)%Z.
Proof.
  intros K H. assert (0 < 2 ^ k)%Z by (apply Z.pow_pos_nonneg; lia). destruct (digits_Z m ltac:(lia)) as (A & B & _).
  destruct (Z.le_gt_cases (k + 1) (Zdigits2 m)) as [|G]; auto. exfalso.
  assert (2 ^ Zdigits2 m <= 2 ^ k)%Z by (apply Z.pow_le_mono_r; lia). lia.
Qed.
Lemma fx_mono a b : (a <= b)%Z -> (fx a <= fx b)%Z.
Proof. rewrite !fx_eq. lia. Qed.
Lemma fdiv_spec x y : fin x = true -> fin y = true -> valid x -> valid y -> FR y <> 0 -> correct (fdiv x y) (FR x / FR y).
Proof.
  intros Fx Fy Vx Vy Ny. destruct (fin_cases y Fy) as [(sy & ->)|(sy & my & ey & ->)]; [cbn in Ny; lra|].
  destruct (fin_cases x Fx) as [(sx & ->)|(sx & mx & ex & ->)].
  - replace (FR (S754_zero sx) / FR (S754_finite sy my ey)) with 0 by (change (FR (S754_zero sx)) with 0; unfold Rdiv; ring). apply correct_0.
  - unfold fdiv, SFdiv, SFdiv_core_binary. cbn [Zdigits2].
    pose proof (digits_pos mx) as Dx. pose proof (digits_pos my) as Dy. set (d1 := Zpos (digits2_pos mx)) in *. set (d2 := Zpos (digits2_pos my)) in *.
    change (fexp 53 1024) with fx. set (D := (d1 + ex - (d2 + ey))%Z). set (e' := Z.min (fx D) (ex - ey)). set (s := (ex - ey - e')%Z).
    assert (Hs : (0 <= s)%Z) by lia.
    assert (Em : match s with 0%Z => Zpos mx | Zpos _ => Z.shiftl (Zpos mx) s | Zneg _ => 0%Z end = (Zpos mx * 2 ^ s)%Z).
    { destruct s; [cbn; lia|now apply Z.shiftl_mul_pow2|lia]. }
    rewrite Em. set (m' := (Zpos mx * 2 ^ s)%Z). destruct (Z.div_eucl m' (Zpos my)) as [q r] eqn:Ed.
    pose proof (Z_div_mod m' (Zpos my) ltac:(lia)) as Hd. rewrite Ed in Hd. destruct Hd as (Hq & Hr).
    assert (P2 : (0 < 2 ^ s)%Z) by (apply Z.pow_pos_nonneg; lia).
    assert (q0 : (0 <= q)%Z) by nia. set (z := IZR (Zpos mx) * bpow ex / (IZR (Zpos my) * bpow ey)).
    pose proof (bpow_pos ex). pose proof (bpow_pos ey). assert (Pm : 0 < IZR (Zpos my)) by (apply IZR_lt; lia). assert (Pmx : 0 < IZR (Zpos mx)) by (apply IZR_lt; lia).
    assert (Ez : FR (S754_finite sx mx ex) / FR (S754_finite sy my ey) = sg (xorb sx sy) z).
    { rewrite !FR_sg. unfold z. destruct sx, sy; cbn; field; lra. }
    rewrite Ez. assert (I : inb q (new_location (Zpos my) r) (z / bpow e')).
    { replace (z / bpow e') with (IZR q + IZR r / IZR (Zpos my)); [now apply new_location_inb|].
      apply Rmult_eq_reg_r with (IZR (Zpos my)); [|lra]. replace ((IZR q + IZR r / IZR (Zpos my)) * IZR (Zpos my)) with (IZR (Zpos my * q + r)) by (rewrite plus_IZR, mult_IZR; field; lra).
      rewrite <- Hq. unfold m', z. rewrite mult_IZR, <- bpow_Z by lia. unfold s. rewrite !bpow_sub. field. repeat split; try lra; apply Rgt_not_eq, bpow_pos. }
    destruct (round_aux (xorb sx sy) q e' _ z q0 I) as (r' & R1 & R2 & _).
    { apply Z.le_trans with (fx D); [lia|]. apply fx_mono. destruct (Z.le_gt_cases (d1 + s - d2) 0) as [G|G].
      - destruct (digits_Z q q0). lia.
      - pose proof (digits_ge q (d1 + s - d2 - 1) ltac:(lia)) as K. enough (2 ^ (d1 + s - d2 - 1) <= q)%Z by lia.
        apply Z.lt_succ_r. apply Z.mul_lt_mono_pos_l with (2 ^ d2)%Z; [apply Z.pow_pos_nonneg; lia|].
        rewrite <- Z.pow_add_r by lia. replace (d2 + (d1 + s - d2 - 1))%Z with (d1 - 1 + s)%Z by lia. rewrite Z.pow_add_r by lia.
        apply Z.le_lt_trans with m'; [unfold m'; nia|]. nia. }
    eapply represents_correct; eauto. unfold z. apply Rlt_le. apply Rdiv_lt_0_compat; apply Rmult_lt_0_compat; auto.
Qed.

(** ** Square root *)
Lemma fsqrt_spec x : fin x = true -> valid x -> 0 <= FR x -> correct (fsqrt x) (sqrt (FR x)).
Proof.
  intros Fx Vx Nx. destruct (fin_cases x Fx) as [(sx & ->)|(sx & mx & ex & ->)].
  - cbn [FR]. rewrite sqrt_0. apply correct_0.
  - pose proof (bpow_pos ex) as Pe. assert (Pmx : 0 < IZR (Zpos mx)) by (apply IZR_lt; lia).
    destruct sx; [exfalso; rewrite FR_sg in Nx; cbn in Nx; nra|].
    unfold fsqrt, SFsqrt, SFsqrt_core_binary. cbn [Zdigits2]. pose proof (digits_pos mx) as Dx. set (d := Zpos (digits2_pos mx)) in *.
    change (fexp 53 1024) with fx. set (D := Z.div2 (d + ex + 1)). set (e' := Z.min (fx D) (Z.div2 ex)). set (s := (ex - 2 * e')%Z).
    pose proof (Z.div2_odd ex) as Hd. pose proof (Z.div2_odd (d + ex + 1)) as HD. fold D in HD.
    assert (0 <= Z.b2z (Z.odd ex) <= 1)%Z by (destruct (Z.odd ex); cbn; lia). assert (0 <= Z.b2z (Z.odd (d + ex + 1)) <= 1)%Z by (destruct (Z.odd (d + ex + 1)); cbn; lia).
    assert (Hs : (0 <= s)%Z) by lia.
    assert (Em : match s with 0%Z => Zpos mx | Zpos _ => Z.shiftl (Zpos mx) s | Zneg _ => 0%Z end = (Zpos mx * 2 ^ s)%Z).
    { destruct s; [cbn; lia|now apply Z.shiftl_mul_pow2|lia]. }
    rewrite Em. set (m' := (Zpos mx * 2 ^ s)%Z). assert (P2 : (0 < 2 ^ s)%Z) by (apply Z.pow_pos_nonneg; lia).
    destruct (Z.sqrtrem m') as [q r] eqn:Eq. pose proof (Z.sqrtrem_spec m' ltac:(unfold m'; nia)) as Hq. rewrite Eq in Hq. destruct Hq as (Hq & Hr).
    assert (q0 : (0 <= q)%Z) by lia. rewrite FR_sg. cbn [sg]. set (z := sqrt (IZR (Zpos mx) * bpow ex)).
    assert (Qs : IZR m' = (z / bpow e') * (z / bpow e')).
    { unfold z. pose proof (bpow_pos e') as Pe'. replace (sqrt (IZR (Zpos mx) * bpow ex) / bpow e' * (sqrt (IZR (Zpos mx) * bpow ex) / bpow e')) with (sqrt (IZR (Zpos mx) * bpow ex) * sqrt (IZR (Zpos mx) * bpow ex) / (bpow e' * bpow e')) by (field; lra).
      rewrite sqrt_sqrt by nra. unfold m'. rewrite mult_IZR, <- bpow_Z by lia. unfold s. rewrite bpow_sub. replace (2 * e')%Z with (e' + e')%Z by lia. rewrite bpow_add. field. lra. }
    assert (Pz : 0 <= z / bpow e') by (apply Rmult_le_pos; [apply sqrt_pos|left; apply Rinv_0_lt_compat, bpow_pos]).
    remember (z / bpow e') as t eqn:Ht. rewrite Hq, plus_IZR, mult_IZR in Qs. assert (q0' : 0 <= IZR q) by (apply IZR_le; lia). assert (r0 : 0 <= IZR r) by (apply IZR_le; lia).
    assert (I : inb q (if Zeq_bool r 0 then loc_Exact else loc_Inexact (if (r <=? q)%Z then Lt else Gt)) t).
    { destruct (Zeq_bool r 0) eqn:E0.
      - apply Zeq_bool_eq in E0. subst r. cbn [inb]. nra.
      - assert (r <> 0%Z) by (intros ->; discriminate). assert (1 <= IZR r) by (apply IZR_le; lia). assert (IZR r <= 2 * IZR q) by (rewrite <- mult_IZR; apply IZR_le; lia).
        cbn [inb]. split; [split; nra|]. destruct (Z.leb_spec r q) as [L|L].
        + apply IZR_le in L. nra.
        + assert (IZR q + 1 <= IZR r) by (rewrite <- plus_IZR; apply IZR_le; lia). nra. }
    rewrite Ht in I.
    destruct (round_aux false q e' _ z q0 I) as (r' & R1 & R2 & _).
    { apply Z.le_trans with (fx D); [lia|]. apply fx_mono. pose proof (digits_ge q (D - e' - 1)) as K.
      destruct (Z.le_gt_cases (D - e' - 1) 0) as [G|G]; [|].
      - assert (1 <= m')%Z by (unfold m'; nia). assert (1 <= q)%Z by nia. pose proof (digits_ge q 0 ltac:(lia) ltac:(cbn; lia)). lia.
      - enough (2 ^ (D - e' - 1) <= q)%Z by lia. destruct (Z.le_gt_cases (2 ^ (D - e' - 1)) q) as [|L]; auto. exfalso. set (k := (D - e' - 1)%Z) in *.
        assert (B1 : (2 ^ (k + k) <= 2 ^ (d - 1 + s))%Z) by (apply Z.pow_le_mono_r; lia). rewrite !Z.pow_add_r in B1 by lia.
        assert (B2 : (2 ^ (d - 1) * 2 ^ s <= m')%Z) by (unfold m'; nia). nia. }
    eapply (represents_correct _ false); eauto. unfold z. apply sqrt_pos.
Qed.
