(** Rounding to binary32 (Go's float32): the same development as in [FloatRound] for 24 binary digits and exponents up to 128. *)
From Coq Require Import ZArith Reals Lra Lia Bool Floats.SpecFloat.
From Verif Require Import Prelude FloatRound.
Local Open Scope R_scope.

Notation fx_32 := (fexp 24 128).
Lemma fx_eq_32 e : fx_32 e = Z.max (e - 24) (-149).
Proof. reflexivity. Qed.
(** [rounded_32 x r f]: the integer [r] at exponent [f] is a rounding of the non-negative real [x]. *)
Definition rounded_32 (x : R) (r f : Z) : Prop :=
  (0 <= r <= 2 ^ 24)%Z /\ (-149 <= f)%Z /\ Rabs (IZR r * bpow f - x) <= bpow f / 2 /\
  (f = (-149)%Z \/ bpow (f + 23) <= x) /\ (f = (-149)%Z \/ (2 ^ 23 <= r)%Z).
(** what a float [y] with sign [s] says about it *)
Definition represents_32 (y : spec_float) (s : bool) (r f : Z) : Prop :=
  match y with
  | S754_zero s' => s' = s /\ r = 0%Z
  | S754_finite s' m e => s' = s /\ bounded 24 128 m e = true /\ IZR (Zpos m) * bpow e = IZR r * bpow f
  | S754_infinity s' => s' = s /\ bpow 128 <= IZR r * bpow f
  | S754_nan => False
  end.
Lemma bounded_intro_32 m e : fx_32 (Zpos (digits2_pos m) + e) = e -> (e <= 104)%Z -> bounded 24 128 m e = true.
Proof.
  intros A B. unfold bounded, canonical_mantissa. rewrite A. apply andb_true_intro. split; [apply Zeq_is_eq_bool; reflexivity|].
  apply Z.leb_le. exact B.
Qed.
Lemma bounded_elim_32 m e : bounded 24 128 m e = true ->
  fx_32 (Zpos (digits2_pos m) + e) = e /\ (-149 <= e <= 104)%Z /\ (Zpos m < 2 ^ 24)%Z /\ (e = (-149)%Z \/ (2 ^ 23 <= Zpos m)%Z).
Proof.
  intros H. unfold bounded in H. apply andb_prop in H. destruct H as (A & B). apply Zeq_bool_eq in A. apply Z.leb_le in B.
  split; [exact A|]. pose proof (digits_pos m) as D. rewrite fx_eq_32 in A. split; [lia|].
  assert (D53 : (Zpos (digits2_pos m) <= 24)%Z) by lia.
  assert ((2 ^ Zpos (digits2_pos m) <= 2 ^ 24)%Z) by (apply Z.pow_le_mono_r; lia). split; [lia|].
  destruct (Z.eq_dec e (-149)); [now left|]. right. replace (Zpos (digits2_pos m)) with 24%Z in D by lia. apply D.
Qed.
Lemma round_aux_32 s m e l x : (0 <= m)%Z -> inb m l (x / bpow e) -> (e <= fx_32 (Zdigits2 m + e))%Z ->
  let f := fx_32 (Zdigits2 m + e) in
  exists r, rounded_32 x r f /\ represents_32 (binary_round_aux 24 128 s m e l) s r f /\
    ((0 < m / 2 ^ (f - e))%Z -> (0 < r)%Z) /\ (l = loc_Exact -> f = e -> r = m).
Proof.
  intros M I F f. subst f. set (d := Zdigits2 m) in *. set (f := fx_32 (d + e)) in *.
  destruct (digits_Z m M) as (D0 & D1 & D2). fold d in D0, D1, D2.
  assert (Ef : f = Z.max (d + e - 24) (-149)) by reflexivity.
  destruct (shr_inb m l e (f - e) x ltac:(lia) M I) as (A & B & C).
  replace (e + (f - e))%Z with f in * by lia.
  unfold binary_round_aux. unfold shr_fexp at 1. fold d. fold f. destruct (shr (shr_record_of_loc m l) e (f - e)) as [mrs e'] eqn:Es. cbn [fst snd] in *. subst e'.
  destruct A as (A0 & A1). set (m1 := shr_m mrs) in *.
  assert (M1 : (m1 < 2 ^ 24)%Z).
  { rewrite C. apply Z.div_lt_upper_bound; [apply Z.pow_pos_nonneg; lia|]. rewrite <- Z.pow_add_r by lia.
    assert (2 ^ d <= 2 ^ (f - e + 24))%Z by (apply Z.pow_le_mono_r; lia). lia. }
  assert (M2 : f = (-149)%Z \/ (2 ^ 23 <= m1)%Z /\ bpow (f + 23) <= x).
  { destruct (Z.eq_dec f (-149)) as [E|E]; [now left|right]. assert (Ef' : f = (d + e - 24)%Z) by lia. assert (d53 : (24 <= d)%Z) by lia.
    assert (mp : (0 < m)%Z). { destruct (Z.eq_dec m 0) as [->|]; [|lia]. cbn in d. lia. }
    destruct (D2 mp) as (_ & D3). split.
    - rewrite C. apply Z.div_le_lower_bound; [apply Z.pow_pos_nonneg; lia|]. rewrite <- Z.pow_add_r by lia. replace (f - e + 23)%Z with (d - 1)%Z by lia. exact D3.
    - assert (L : IZR m <= x / bpow e). { clear - I. destruct l as [|c]; cbn in I; [rewrite I; lra|lra]. }
      apply IZR_le in D3. rewrite <- bpow_Z in D3 by lia. replace (f + 23)%Z with (d - 1 + e)%Z by lia. rewrite bpow_add.
      pose proof (bpow_pos e). replace x with (x / bpow e * bpow e) by (field; lra). apply Rmult_le_compat_r; lra. }
  set (l1 := loc_of_shr_record mrs) in *. destruct (rne_near m1 l1 _ A1) as (R1 & R2 & R3). set (r := round_nearest_even m1 l1) in *.
  exists r.
  assert (Q : rounded_32 x r f).
  { split; [lia|]. split; [lia|]. split; [|split; [destruct M2 as [M2|(_ & M2)]; auto|destruct M2 as [M2|(M2 & _)]; [auto|right; lia]]].
    pose proof (bpow_pos f) as P. replace (IZR r * bpow f - x) with ((IZR r - x / bpow f) * bpow f) by (field; lra).
    rewrite Rabs_mult, (Rabs_right (bpow f)) by lra. nra. }
  split; [exact Q|]. split; [|split; [intros; lia|]].
  2:{ intros -> E. unfold r. unfold l1, m1. unfold f in *. rewrite E in Es. rewrite Z.sub_diag in Es. cbn in Es. injection Es as <-. reflexivity. }
  unfold shr_fexp. destruct (Z.eq_dec r 0) as [E0|E0].
  { rewrite E0. rewrite shr_none by (cbn [Zdigits2]; rewrite fx_eq_32; lia). cbn. auto. }
  destruct r as [|p|p] eqn:Er; try lia. cbn [Zdigits2].
  destruct (Z.eq_dec (Zpos p) (2 ^ 24)) as [E53|E53].
  - assert (Ep : p = (2 ^ 24)%positive) by (change (2 ^ 24)%Z with (Zpos (2 ^ 24)) in E53; congruence). 
    assert (Ed : Zpos (digits2_pos p) = 25%Z) by (rewrite Ep; reflexivity). rewrite Ed.
    replace (fx_32 (25 + f) - f)%Z with 1%Z by (rewrite fx_eq_32; lia). cbn [shr iter_pos shr_record_of_loc].
    rewrite Ep. change (2 ^ 24)%positive with (xO (2 ^ 23)). cbn [shr_1 orb shr_m].
    assert (Ev : IZR (Zpos (2 ^ 23)) * bpow (f + 1) = IZR (Zpos (xO (2 ^ 23))) * bpow f) by (rewrite bpow_add, bpow_1, (Pos2Z.inj_xO (2^23)), mult_IZR; ring).
    destruct (Z.leb_spec (f + 1) (128 - 24)) as [L|L]; cbn [represents_32].
    + split; [reflexivity|]. split; [|exact Ev]. apply bounded_intro_32; [|lia]. change (Zpos (digits2_pos (2 ^ 23))) with 24%Z. rewrite fx_eq_32; lia.
    + split; [reflexivity|]. change (Zpos (xO (2 ^ 23))) with (2 ^ 24)%Z. rewrite <- (bpow_Z 24) by lia. rewrite <- bpow_add. apply bpow_le. lia.
  - assert (Dp : (Zpos (digits2_pos p) <= 24)%Z).
    { destruct (Z.le_gt_cases (Zpos (digits2_pos p)) 24) as [|G]; auto. pose proof (digits_pos p) as D.
      assert (2 ^ 24 <= 2 ^ (Zpos (digits2_pos p) - 1))%Z by (apply Z.pow_le_mono_r; lia). lia. }
    assert (Can : fx_32 (Zpos (digits2_pos p) + f) = f).
    { rewrite fx_eq_32. destruct M2 as [M2|(M2 & _)]; [lia|]. assert (Zpos (digits2_pos p) = 24%Z); [|lia]. apply digits_unique. change (2 ^ (24 - 1))%Z with (2 ^ 23)%Z. lia. }
    rewrite Can, Z.sub_diag. cbn [shr shr_record_of_loc shr_m].
    destruct (Z.leb_spec f (128 - 24)) as [L|L]; cbn [represents_32].
    + split; [reflexivity|]. split; [apply bounded_intro_32; [exact Can|lia]|reflexivity].
    + split; [reflexivity|]. destruct M2 as [M2|(M2 & _)]; [lia|].
      apply Rle_trans with (IZR (2 ^ 23) * bpow f).
      * rewrite <- (bpow_Z 23) by lia. rewrite <- bpow_add. apply bpow_le. lia.
      * apply Rmult_le_compat_r; [pose proof (bpow_pos f); lra|]. apply IZR_le. lia.
Qed.

Definition fmaxR_32 : R := bpow 128 - bpow 104.


Definition valid_32 (x : spec_float) : Prop := valid_binary 24 128 x = true.
(** [nearest_32 y z]: no float32 number is nearer to [z]. *)
Definition nearest_32 (y : spec_float) (z : R) : Prop := forall w, valid_32 w -> fin w = true -> Rabs (FR y - z) <= Rabs (FR w - z).
(** [correct_32 y z]: the float [y] is [z] rounded: never NaN; infinite only if [z] is larger than the
    largest number in magnitude; otherwise a nearest number, and so within half a unit in the last place. *)
Definition correct_32 (y : spec_float) (z : R) : Prop :=
  valid_32 y /\ y <> S754_nan /\ (Rabs z <= fmaxR_32 -> fin y = true) /\
  (fin y = true -> Rabs (FR y - z) <= bpow (-24) * Rabs z \/ Rabs (FR y - z) <= bpow (-150)) /\
  (fin y = true -> nearest_32 y z) /\ (forall s, y = S754_infinity s -> fmaxR_32 < sg s z).
Lemma rounded_nearest_32 x r f w : 0 <= x -> rounded_32 x r f -> valid_32 w -> fin w = true -> Rabs (IZR r * bpow f - x) <= Rabs (FR w - x).
Proof.
  intros X (R0 & F & E & D & _) V Fw. pose proof (bpow_pos f) as Pf.
  assert (G : forall k, Rabs (IZR r * bpow f - x) <= Rabs (IZR k * bpow f - x)).
  { intros k. destruct (Z.eq_dec k r) as [->|N]; [lra|]. assert (1 <= Rabs (IZR k - IZR r)) by (rewrite <- minus_IZR, <- abs_IZR; apply IZR_le; lia).
    assert (bpow f <= Rabs (IZR k * bpow f - IZR r * bpow f)) by (rewrite <- Rmult_minus_distr_r, Rabs_mult, (Rabs_right (bpow f)) by lra; nra).
    pose proof (Rabs_triang (IZR k * bpow f - x) (x - IZR r * bpow f)) as T. replace (IZR k * bpow f - x + (x - IZR r * bpow f)) with (IZR k * bpow f - IZR r * bpow f) in T by ring.
    rewrite (Rabs_minus_sym x) in T. lra. }
  destruct (fin_cases w Fw) as [(s & ->)|(s & m & e & ->)].
  - cbn [FR]. replace 0 with (IZR 0 * bpow f) by ring. apply G.
  - rewrite FR_sg. apply bounded_elim_32 in V. destruct V as (_ & Be & Bm & _). destruct (Z.le_gt_cases f e) as [L|L].
    + replace (sg s (IZR (Zpos m) * bpow e)) with (IZR ((if s then -1 else 1) * (Zpos m * 2 ^ (e - f))) * bpow f); [apply G|].
      rewrite !mult_IZR, <- (bpow_Z (e - f)) by lia. rewrite (Rmult_assoc _ _ (bpow f)), (Rmult_assoc (IZR (Zpos m))), <- bpow_add. replace (e - f + f)%Z with e by lia.
      destruct s; cbn [sg]; ring.
    + destruct D as [D|D]; [lia|]. apply IZR_lt in Bm. rewrite <- bpow_Z in Bm by lia. pose proof (bpow_pos e) as Pe.
      assert (W : IZR (Zpos m) * bpow e < bpow (f + 23)).
      { apply Rlt_le_trans with (bpow 24 * bpow e); [nra|]. rewrite <- bpow_add. apply bpow_le. lia. }
      specialize (G (2 ^ 23)%Z). rewrite <- bpow_Z, <- bpow_add in G by lia. rewrite (Z.add_comm 23) in G. apply Rle_trans with (1 := G).
      assert (0 < IZR (Zpos m) * bpow e) by (apply Rmult_lt_0_compat; [apply IZR_lt; lia|auto]).
      rewrite !Rabs_left1 by (destruct s; cbn; lra). destruct s; cbn; lra.
Qed.
Lemma represents_correct_32 y s r f x : 0 <= x -> rounded_32 x r f -> represents_32 y s r f -> correct_32 y (sg s x).
Proof.
  intros X Q H. assert (V : valid_32 y) by (destruct y; cbn in *; try reflexivity; destruct H as (_ & H & _); exact H).
  assert (N : y <> S754_nan) by (destruct y; cbn in *; congruence || contradiction).
  split; [exact V|]. split; [exact N|].
  assert (As : Rabs (sg s x) = x) by (destruct s; cbn; rewrite ?Rabs_Ropp; apply Rabs_right; lra). rewrite As.
  assert (Ag : forall z, Rabs (sg s z) = Rabs z) by (intros z; destruct s; cbn; [apply Rabs_Ropp|reflexivity]).
  assert (Er : fin y = true -> FR y = sg s (IZR r * bpow f)).
  { destruct y as [s'|s'| |s' m e]; cbn in *; try discriminate; try contradiction; intros _.
    - destruct H as (_ & ->). destruct s; cbn; ring.
    - destruct H as (-> & _ & ->). destruct s; cbn; ring. }
  assert (Inf : forall s', y = S754_infinity s' -> s' = s /\ fmaxR_32 < x).
  { intros s' ->. destruct H as (-> & H). split; [reflexivity|]. destruct Q as (R0 & F & E & D & D').
    destruct (Rlt_le_dec fmaxR_32 x) as [|B]; auto. exfalso. unfold fmaxR_32 in B.
    assert (E' : IZR r * bpow f - x <= bpow f / 2) by (revert E; unfold Rabs; destruct (Rcase_abs _); lra).
    assert (Hf : (104 <= f)%Z).
    { destruct (Z.le_gt_cases 104 f) as [|G]; auto. exfalso. assert (IZR r * bpow f <= bpow 24 * bpow f).
      { apply Rmult_le_compat_r; [pose proof (bpow_pos f); lra|]. rewrite bpow_Z by lia. apply IZR_le. lia. }
      rewrite <- bpow_add in H0. assert (bpow (24 + f) < bpow 128) by (apply bpow_lt; lia). lra. }
    destruct (Z.eq_dec f 104) as [->|].
    + pose proof (bpow_pos 104). lra.
    + destruct D as [D|D]; [lia|]. assert (bpow 128 <= bpow (f + 23)) by (apply bpow_le; lia). pose proof (bpow_pos 104). lra. }
  split; [|split; [|split]].
  - intros B. destruct y as [s'|s'| |s' m e]; try reflexivity; [|contradiction]. destruct (Inf s' eq_refl). lra.
  - intros Fy. rewrite Er by auto. replace (sg s (IZR r * bpow f) - sg s x) with (sg s (IZR r * bpow f - x)) by (destruct s; cbn; ring). rewrite Ag.
    destruct Q as (R0 & F & E & D & D'). destruct D as [->|D].
    + right.  assert (E2 : bpow (-149) = 2 * bpow (-150)) by (rewrite <- bpow_1, <- bpow_add; reflexivity). lra.
    + left. apply Rle_trans with (bpow f / 2); [exact E|].  replace (bpow f / 2) with (bpow (-24) * bpow (f + 23)).
      * apply Rmult_le_compat_l; [pose proof (bpow_pos (-24)); lra|exact D].
      * rewrite <- bpow_add. replace (-24 + (f + 23))%Z with (f - 1)%Z by lia. rewrite bpow_sub, bpow_1. reflexivity.
  - intros Fy w Vw Fw. rewrite Er by auto. replace (sg s (IZR r * bpow f) - sg s x) with (sg s (IZR r * bpow f - x)) by (destruct s; cbn; ring). rewrite Ag.
    assert (Ew : exists w', valid_32 w' /\ fin w' = true /\ FR w' = sg s (FR w)).
    { destruct s; [|exists w; auto]. exists (SFopp w). destruct w as [t|t| |t m e]; try discriminate; cbn [SFopp]; repeat split; auto; cbn [FR sg]; try ring. destruct t; cbn; ring. }
    destruct Ew as (w' & Vw' & Fw' & Ew). replace (FR w - sg s x) with (sg s (FR w' - x)) by (rewrite Ew; destruct s; cbn; ring). rewrite Ag.
    now apply rounded_nearest_32.
  - intros s' E. destruct (Inf s' E) as (-> & I). destruct s; cbn; lra.
Qed.

Lemma round_int_32 s m e : exists r f, rounded_32 (IZR (Zpos m) * bpow e) r f /\ represents_32 (binary_round 24 128 s m e) s r f /\
  ((-149 <= e)%Z -> (0 < r)%Z /\ (f = (-149)%Z -> IZR r * bpow f = IZR (Zpos m) * bpow e)).
Proof.
  unfold binary_round. destruct (shl_align_val m e (fx_32 (Zpos (digits2_pos m) + e))) as (A & B).
  destruct (shl_align m e (fx_32 (Zpos (digits2_pos m) + e))) as [mz ez] eqn:E. cbn [fst snd] in *.
  pose proof (bpow_pos ez) as P.
  assert (I : inb (Zpos mz) loc_Exact (IZR (Zpos m) * bpow e / bpow ez)) by (cbn [inb]; rewrite <- A; field; lra).
  assert (D : (Zpos (digits2_pos mz) + ez = Zpos (digits2_pos m) + e)%Z).
  { unfold shl_align in E. destruct (fx_32 (Zpos (digits2_pos m) + e) - e)%Z as [|p|p] eqn:Ep; injection E as <- <-; try lia.
    replace (fx_32 (Zpos (digits2_pos m) + e)) with (e - Zpos p)%Z by lia. enough (Zpos (digits2_pos (shift_pos p m)) = Zpos (digits2_pos m) + Zpos p)%Z by lia.
    apply digits_unique. rewrite shift_pos_correct. change (Z.pow_pos 2 p) with (2 ^ Zpos p)%Z. pose proof (digits_pos m) as Dm.
    replace (Zpos (digits2_pos m) + Zpos p - 1)%Z with (Zpos p + (Zpos (digits2_pos m) - 1))%Z by lia.
    rewrite Z.add_comm, !Z.pow_add_r by lia. assert (0 < 2 ^ Zpos p)%Z by (apply Z.pow_pos_nonneg; lia). nia. }
  destruct (round_aux_32 s (Zpos mz) ez loc_Exact _ ltac:(lia) I) as (r & R1 & R2 & R3 & R4).
  { cbn [Zdigits2]. rewrite D. lia. }
  cbn [Zdigits2] in *. rewrite D in *. set (f := fx_32 (Zpos (digits2_pos m) + e)) in *.
  exists r, f. split; [exact R1|]. split; [exact R2|]. intros L.
  pose proof (fx_eq_32 (Zpos (digits2_pos m) + e)) as Ef. fold f in Ef.
  split.
  - apply R3. rewrite B. pose proof (digits_pos mz) as Dm. rewrite <- B. apply Z.div_str_pos. split; [apply Z.pow_pos_nonneg; lia|].
    apply Z.le_trans with (2 ^ (Zpos (digits2_pos mz) - 1))%Z; [|lia]. apply Z.pow_le_mono_r; lia.
  - intros F. assert (ez = f) by lia. rewrite R4 by auto. rewrite <- A. congruence.
Qed.
