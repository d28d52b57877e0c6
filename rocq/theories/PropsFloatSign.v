(** Membership computed in binary64 is exact: rounding never moves a point across the surface of
    the shapes whose value is a difference.  C98. *)
From Coq Require Import List Bool ZArith Lia Reals Lra Floats.SpecFloat.
From Verif Require Import Prelude Vec SdfModel FloatBoolModel PropsFloatBool FloatRound FloatShapeModel FloatNear.
Import ListNotations.
Local Open Scope R_scope.

(** *** C98: differences *)
(** For all binary64 numbers, infinities, zeros, subnormals and NaN included, and in spite of rounding
    and overflow, [x - y] is negative exactly if [x < y] and positive exactly if [x > y]; for finite
    numbers this order is that of the real numbers they stand for. *)
Theorem C98_difference x y : valid x -> valid y ->
  neg (fsub x y) = SFltb x y /\ pos (fsub x y) = SFltb y x /\
  (fin x = true -> fin y = true -> (SFltb x y = true <-> FR x < FR y)).
Proof. intros Vx Vy. destruct (sub_test x y Vx Vy). split; [auto|]. split; [auto|]. intros. now apply ltb_FR. Qed.

Lemma neg_max a b : neg (go_max a b) = neg a && neg b.
Proof.
  destruct (is_nan a) eqn:Na; [|destruct (is_nan b) eqn:Nb].
  - destruct a; try discriminate. destruct b as [[]|[]| |[] m e]; reflexivity.
  - destruct b; try discriminate. destruct a as [[]|[]| |[] m e]; reflexivity.
  - pose proof (sgn_max a b Na Nb) as H. unfold sgn in H.
    assert (forall x, neg x = true -> pos x = false) by (intros x; destruct x as [[]|[]| |[] m e]; discriminate || reflexivity).
    destruct (neg (go_max a b)), (neg a), (neg b), (pos (go_max a b)), (pos a), (pos b); try reflexivity; try discriminate H.
Qed.

(** *** C98: offset, shell, sphere, circle, extrusion *)
Theorem C98_offset {P} (F : P -> spec_float) d p : valid (F p) -> valid d -> neg (foffset F d p) = SFltb (F p) d.
Proof. intros A B. apply C98_difference; auto. Qed.
Lemma fmul_valid x y : valid x -> valid y -> valid (fmul x y).
Proof.
  intros Vx Vy. destruct (fin x) eqn:Fx; [destruct (fin y) eqn:Fy|].
  - apply (fmul_spec x y Fx Fy Vx Vy).
  - destruct x, y; try discriminate; reflexivity.
  - destruct x, y; try discriminate; reflexivity.
Qed.
Lemma fsub_valid x y : valid x -> valid y -> valid (fsub x y).
Proof.
  intros Vx Vy. destruct (fin x) eqn:Fx; [destruct (fin y) eqn:Fy|].
  - apply (fsub_spec x y Fx Fy Vx Vy).
  - destruct x as [s|s| |s m e], y as [t|t| |t m' e']; try discriminate; try reflexivity; exact Vx.
  - destruct x as [s|[]| |s m e], y as [t|[]| |t m' e']; try discriminate; try reflexivity; exact Vx.
Qed.
Lemma fadd_valid x y : valid x -> valid y -> valid (fadd x y).
Proof.
  intros Vx Vy. destruct (fin x) eqn:Fx; [destruct (fin y) eqn:Fy|].
  - apply (fadd_spec x y Fx Fy Vx Vy).
  - destruct x as [s|s| |s m e], y as [t|t| |t m' e']; try discriminate; try reflexivity; exact Vx.
  - destruct x as [s|[]| |s m e], y as [t|[]| |t m' e']; try discriminate; try reflexivity; exact Vx.
Qed.
Lemma fhalf_valid : valid fhalf.
Proof. reflexivity. Qed.
(** Half of a number of magnitude at least 2^-1021 (and of 0) is exact. *)
Lemma half_exact x : fin x = true -> valid x -> FR x = 0 \/ bpow (-1021) <= Rabs (FR x) -> fin (fmul fhalf x) = true /\ FR (fmul fhalf x) = FR x / 2.
Proof.
  intros F V H. assert (H2 : FR fhalf = / 2).
  { unfold fhalf. rewrite FR_sg. cbn [sg]. change (Zpos 4503599627370496) with (2 ^ 52)%Z. rewrite <- bpow_Z, <- bpow_add by lia.
    change (52 + -53)%Z with (-1)%Z. change (-1)%Z with (- (1))%Z. rewrite bpow_opp, bpow_1. reflexivity. }
  destruct (fin_cases x F) as [(s & ->)|(s & m & e & ->)].
  - cbn. split; [reflexivity|lra].
  - destruct H as [H|H].
    { exfalso. rewrite FR_sg in H. assert (0 < IZR (Zpos m) * bpow e) by (apply Rmult_lt_0_compat; [apply IZR_lt; lia|apply bpow_pos]). destruct s; cbn in H; lra. }
    pose proof (bounded_elim m e V) as (C & Be & Bm & M52).
    assert (P : 0 < IZR (Zpos m) * bpow e) by (apply Rmult_lt_0_compat; [apply IZR_lt; lia|apply bpow_pos]).
    assert (He : (-1073 <= e)%Z).
    { destruct (Z.le_gt_cases (-1073) e) as [|G]; auto. exfalso. assert (Ae : Rabs (FR (S754_finite s m e)) = IZR (Zpos m) * bpow e) by (rewrite FR_sg; destruct s; cbn; [rewrite Rabs_Ropp|]; apply Rabs_right; lra).
      rewrite Ae in H. apply IZR_lt in Bm. rewrite <- bpow_Z in Bm by lia. replace e with (-1074)%Z in * by lia. pose proof (bpow_pos (-1074)).
      assert (IZR (Zpos m) * bpow (-1074) < bpow 53 * bpow (-1074)) by nra. rewrite <- bpow_add in *. change (53 + -1074)%Z with (-1021)%Z in *. lra. }
    assert (M : (2 ^ 52 <= Zpos m)%Z) by (destruct M52; [lia|auto]).
    assert (V' : valid (S754_finite s m (e - 1))).
    { apply bounded_intro; [|lia]. assert (Zpos (digits2_pos m) = 53%Z) as -> by (apply digits_unique; change (2 ^ (53 - 1))%Z with (2 ^ 52)%Z; lia). rewrite fx_eq; lia. }
    assert (Ew : FR (S754_finite s m (e - 1)) = FR (S754_finite s m e) / 2) by (rewrite !FR_sg, bpow_sub, bpow_1; destruct s; cbn; field).
    destruct (fmul_exact fhalf (S754_finite s m e) (S754_finite s m (e - 1))) as (A & B); auto; try reflexivity.
    + rewrite Ew, H2. lra.
    + split; [exact A|]. rewrite B. exact Ew.
Qed.
Theorem C98_shell {P} (F : P -> spec_float) t p : valid (F p) -> valid t ->
  neg (fshell F t p) = SFltb (SFabs (F p)) (fmul fhalf t).
Proof. intros A B. apply C98_difference; [now apply abs_valid|now apply fmul_valid]. Qed.
Theorem C98_sphere nrm3 r p : valid (nrm3 p) -> valid r -> neg (fsphere nrm3 r p) = SFltb (nrm3 p) r.
Proof. intros A B. apply C98_difference; auto. Qed.
Theorem C98_circle nrm2 r p : valid (nrm2 p) -> valid r -> neg (fcircle nrm2 r p) = SFltb (nrm2 p) r.
Proof. intros A B. apply C98_difference; auto. Qed.
Theorem C98_extrude F h p : valid (F (FV2 (f3x p) (f3y p))) -> valid (f3z p) -> valid h ->
  neg (fextrude F h p) = neg (F (FV2 (f3x p) (f3y p))) && SFltb (SFabs (f3z p)) (fmul fhalf h).
Proof.
  intros A B C. unfold fextrude. rewrite neg_max. f_equal. apply C98_difference; [now apply abs_valid|now apply fmul_valid].
Qed.

(** *** C98: boxes *)
Definition valid3 (p : fv3) : Prop := valid (f3x p) /\ valid (f3y p) /\ valid (f3z p).
Definition fin3 (p : fv3) : Prop := fin (f3x p) = true /\ fin (f3y p) = true /\ fin (f3z p) = true.
Lemma neg_sub_zero x : neg (fsub x fzero) = neg x.
Proof. destruct x as [[]|[]| |[] m e]; reflexivity. Qed.
Lemma lt_sub_zero x s : SFltb x (fsub s fzero) = SFltb x s.
Proof. destruct s as [[]|[]| |[] m e], x as [[]|[]| |[] m' e']; reflexivity. Qed.
Lemma pos_not_neg x : pos x = true -> neg x = false.
Proof. destruct x as [[]|[]| |[] m e]; discriminate || reflexivity. Qed.
(** Box without rounding: whatever the point (NaN and infinities included), Evaluate is negative exactly
    if each coordinate is, in magnitude, less than the half size; the only assumption on math.Hypot and
    r3.Norm is that they do not return negative numbers. *)
Theorem C98_box hyp nrm3 size p : (forall a b, valid a -> valid b -> neg (hyp a b) = false) -> (forall d, valid3 d -> neg (nrm3 d) = false) -> valid3 size -> valid3 p ->
  neg (fbox3 hyp nrm3 size fzero p) =
    SFltb (SFabs (f3x p)) (fmul fhalf (f3x size)) && SFltb (SFabs (f3y p)) (fmul fhalf (f3y size)) && SFltb (SFabs (f3z p)) (fmul fhalf (f3z size)).
Proof.
  intros Hh Hn (S1 & S2 & S3) (P1 & P2 & P3). unfold fbox3. rewrite neg_sub_zero. unfold fsdf_box3d. cbn [fsub3 fabs3 fscale3 f3x f3y f3z].
  set (dx := fsub (SFabs (f3x p)) _). set (dy := fsub (SFabs (f3y p)) _). set (dz := fsub (SFabs (f3z p)) _).
  assert (Z0 : valid fzero) by reflexivity.
  assert (Vd : forall a s, valid a -> valid s -> valid (fsub (SFabs a) (fsub (fmul fhalf s) fzero))) by (intros; apply fsub_valid; [now apply abs_valid|apply fsub_valid; auto; now apply fmul_valid]).
  pose proof (Vd _ _ P1 S1 : valid dx) as D1. pose proof (Vd _ _ P2 S2 : valid dy) as D2. pose proof (Vd _ _ P3 S3 : valid dz) as D3.
  assert (G : forall a s, valid a -> valid s -> let d := fsub (SFabs a) (fsub (fmul fhalf s) fzero) in neg d = SFltb (SFabs a) (fmul fhalf s)).
  { intros a s A B d. unfold d. rewrite <- (lt_sub_zero (SFabs a) (fmul fhalf s)).
    apply C98_difference; [now apply abs_valid|apply fsub_valid; auto; now apply fmul_valid]. }
  rewrite <- (G _ _ P1 S1), <- (G _ _ P2 S2), <- (G _ _ P3 S3). cbn zeta. fold dx dy dz.
  change (fgt dx fzero) with (pos dx). change (fgt dy fzero) with (pos dy). change (fgt dz fzero) with (pos dz).
  destruct (pos dx) eqn:Ex; [|destruct (pos dy) eqn:Ey; [|destruct (pos dz) eqn:Ez]]; cbn [andb].
  - rewrite (pos_not_neg _ Ex). cbn [andb]. destruct (pos dy); cbn [andb].
    + destruct (pos dz); [apply Hn; repeat split; assumption|now apply Hh].
    + destruct (pos dz); [now apply Hh|]. now apply pos_not_neg.
  - rewrite (pos_not_neg _ Ey), andb_false_r. cbn [andb]. destruct (pos dz); [now apply Hh|]. now apply pos_not_neg.
  - rewrite (pos_not_neg _ Ez), andb_false_r. reflexivity.
  - unfold fmaxc3. cbn [fsub3 fabs3 fscale3 f3x f3y f3z]. fold dx dy dz. rewrite !neg_max. destruct (neg dx), (neg dy), (neg dz); reflexivity.
Qed.
Definition normal_size (s : spec_float) : Prop := fin s = true /\ valid s /\ bpow (-1021) <= Rabs (FR s).
(** In terms of real numbers: the test is exact. *)
Corollary C98_box_exact hyp nrm3 size p : (forall a b, valid a -> valid b -> neg (hyp a b) = false) -> (forall d, valid3 d -> neg (nrm3 d) = false) ->
  normal_size (f3x size) -> normal_size (f3y size) -> normal_size (f3z size) -> valid3 p -> fin3 p ->
  (neg (fbox3 hyp nrm3 size fzero p) = true <->
    2 * Rabs (FR (f3x p)) < FR (f3x size) /\ 2 * Rabs (FR (f3y p)) < FR (f3y size) /\ 2 * Rabs (FR (f3z p)) < FR (f3z size)).
Proof.
  intros Hh Hn (A1 & B1 & C1) (A2 & B2 & C2) (A3 & B3 & C3) V (P1 & P2 & P3). rewrite C98_box by (auto; split; auto). destruct V as (V1 & V2 & V3).
  assert (G : forall a s, fin a = true -> valid a -> fin s = true -> valid s -> bpow (-1021) <= Rabs (FR s) -> (SFltb (SFabs a) (fmul fhalf s) = true <-> 2 * Rabs (FR a) < FR s)).
  { intros a s Fa Va Fs Vs Ns. destruct (half_exact s Fs Vs (or_intror Ns)) as (D & E).
    rewrite ltb_FR; [|now rewrite fin_abs|auto|now apply abs_valid|now apply fmul_valid]. rewrite FR_abs, E. lra. }
  rewrite !andb_true_iff, !G by auto. tauto.
Qed.

(** The sign of a box at a finite point: -1 strictly inside, 1 strictly outside, 0 on the surface. *)
Definition box_sgn (size p : v3) : Z :=
  if Rltb (2 * Rabs (x3 p)) (x3 size) && Rltb (2 * Rabs (y3 p)) (y3 size) && Rltb (2 * Rabs (z3 p)) (z3 size) then -1
  else if Rltb (x3 size) (2 * Rabs (x3 p)) || Rltb (y3 size) (2 * Rabs (y3 p)) || Rltb (z3 size) (2 * Rabs (z3 p)) then 1 else 0.
Definition FR3 (p : fv3) : v3 := V3 (FR (f3x p)) (FR (f3y p)) (FR (f3z p)).
(** what is assumed of math.Hypot and r3.Norm: positive for positive arguments, never NaN for numbers *)
Definition hyp_pos (hyp : spec_float -> spec_float -> spec_float) : Prop := forall a b, valid a -> valid b -> pos a = true -> pos b = true -> pos (hyp a b) = true.
Definition nrm_pos (nrm : fv3 -> spec_float) : Prop := forall d, valid3 d -> pos (f3x d) = true -> pos (f3y d) = true -> pos (f3z d) = true -> pos (nrm d) = true.
Lemma pos_nan x : pos x = true -> is_nan x = false.
Proof. destruct x; auto; discriminate. Qed.
Lemma sub_not_nan x y : fin x = true -> fin y = true -> valid x -> valid y -> is_nan (fsub x y) = false.
Proof. intros A B C D. destruct (fsub_spec x y A B C D) as ((_ & N & _) & _). destruct (fsub x y); auto; congruence. Qed.
Lemma sgn_sub_zero x : sgn (fsub x fzero) = sgn x /\ is_nan (fsub x fzero) = is_nan x.
Proof. destruct x as [[]|[]| |[] m e]; split; reflexivity. Qed.
Lemma Rltb_ltb a s a' s' : (SFltb a s = true <-> a' < s') -> SFltb a s = Rltb a' s'.
Proof. intros H. destruct (SFltb a s) eqn:E; symmetry; [apply Rltb_true; tauto|]. destruct (Rltb a' s') eqn:E2; auto. apply Rltb_true in E2. apply H in E2. discriminate. Qed.
Theorem C98_box_sign hyp nrm3 size p : hyp_pos hyp -> nrm_pos nrm3 ->
  normal_size (f3x size) -> normal_size (f3y size) -> normal_size (f3z size) -> valid3 p -> fin3 p ->
  is_nan (fbox3 hyp nrm3 size fzero p) = false /\ sgn (fbox3 hyp nrm3 size fzero p) = box_sgn (FR3 size) (FR3 p).
Proof.
  intros Hh Hn (A1 & B1 & C1) (A2 & B2 & C2) (A3 & B3 & C3) (V1 & V2 & V3) (P1 & P2 & P3).
  unfold fbox3. destruct (sgn_sub_zero (fsdf_box3d hyp nrm3 p (fsub3 (fscale3 fhalf size) (FV3 fzero fzero fzero)))) as (-> & ->).
  unfold fsdf_box3d. cbn [fsub3 fabs3 fscale3 f3x f3y f3z].
  set (dx := fsub (SFabs (f3x p)) _). set (dy := fsub (SFabs (f3y p)) _). set (dz := fsub (SFabs (f3z p)) _).
  assert (G : forall a s, fin a = true -> valid a -> fin s = true -> valid s -> bpow (-1021) <= Rabs (FR s) ->
    let d := fsub (SFabs a) (fsub (fmul fhalf s) fzero) in is_nan d = false /\ neg d = Rltb (2 * Rabs (FR a)) (FR s) /\ pos d = Rltb (FR s) (2 * Rabs (FR a))).
  { intros a s Fa Va Fs Vs Ns d. destruct (half_exact s Fs Vs (or_intror Ns)) as (D & E).
    assert (Vh : valid (fmul fhalf s)) by now apply fmul_valid.
    assert (Z0 : fin (fsub (fmul fhalf s) fzero) = true /\ FR (fsub (fmul fhalf s) fzero) = FR s / 2).
    { rewrite <- E. destruct (fmul fhalf s) as [[]|[]| |t m e]; try discriminate; split; reflexivity. }
    destruct Z0 as (Z1 & Z2). assert (Vz : valid (fsub (fmul fhalf s) fzero)) by now apply fsub_valid.
    assert (Fa' : fin (SFabs a) = true) by now rewrite fin_abs. assert (Va' : valid (SFabs a)) by now apply abs_valid.
    split; [now apply sub_not_nan|]. destruct (C98_difference (SFabs a) _ Va' Vz) as (T1 & T2 & _).
    split; unfold d; [rewrite T1|rewrite T2]; apply Rltb_ltb; rewrite ltb_FR, ?FR_abs, ?Z2 by auto; lra. }
  assert (Vd : forall a s, valid a -> valid s -> valid (fsub (SFabs a) (fsub (fmul fhalf s) fzero))) by (intros; apply fsub_valid; [now apply abs_valid|apply fsub_valid; [now apply fmul_valid|reflexivity]]).
  pose proof (Vd _ _ V1 B1 : valid dx) as D1. pose proof (Vd _ _ V2 B2 : valid dy) as D2. pose proof (Vd _ _ V3 B3 : valid dz) as D3.
  destruct (G _ _ P1 V1 A1 B1 C1) as (N1 & L1 & M1). destruct (G _ _ P2 V2 A2 B2 C2) as (N2 & L2 & M2). destruct (G _ _ P3 V3 A3 B3 C3) as (N3 & L3 & M3).
  fold dx in N1, L1, M1. fold dy in N2, L2, M2. fold dz in N3, L3, M3.
  unfold box_sgn. cbn [FR3 x3 y3 z3]. rewrite <- L1, <- L2, <- L3, <- M1, <- M2, <- M3.
  change (fgt dx fzero) with (pos dx). change (fgt dy fzero) with (pos dy). change (fgt dz fzero) with (pos dz).
  assert (Sp : forall x, pos x = true -> is_nan x = false /\ sgn x = 1%Z) by (intros x H; split; [now apply pos_nan|unfold sgn; now rewrite (pos_not_neg _ H), H]).
  destruct (pos dx) eqn:Ex; [|destruct (pos dy) eqn:Ey; [|destruct (pos dz) eqn:Ez]]; cbn [andb orb].
  - rewrite (pos_not_neg _ Ex). cbn [andb]. destruct (pos dy) eqn:Ey; cbn [andb].
    + destruct (pos dz) eqn:Ez; apply Sp; [apply Hn; repeat split; assumption|apply Hh; auto].
    + destruct (pos dz) eqn:Ez; apply Sp; [apply Hh; auto|auto].
  - rewrite (pos_not_neg _ Ey), andb_false_r. cbn [andb]. destruct (pos dz) eqn:Ez; apply Sp; [apply Hh; auto|auto].
  - rewrite (pos_not_neg _ Ez), andb_false_r. apply Sp. exact Ez.
  - unfold fmaxc3. cbn [fsub3 fabs3 fscale3 f3x f3y f3z]. fold dx dy dz. split; [now repeat apply nan_max|].
    rewrite !sgn_max by (auto; now apply nan_max). unfold sgn. rewrite Ex, Ey, Ez. destruct (neg dx), (neg dy), (neg dz); reflexivity.
Qed.

(** *** C98: every Boolean combination of boxes *)
(** Nested binary unions compute what Union3D computes for a list: [fold_left go_min]. *)
Inductive solid := SBox (size : fv3) | SUnion (a b : solid) | SDiff (a b : solid) | SInter (a b : solid).
Fixpoint all_sizes (t : solid) : Prop :=
  match t with
  | SBox s => normal_size (f3x s) /\ normal_size (f3y s) /\ normal_size (f3z s)
  | SUnion a b | SDiff a b | SInter a b => all_sizes a /\ all_sizes b
  end.
Fixpoint to_tree hyp nrm3 (t : solid) : tree fv3 :=
  match t with
  | SBox s => Leaf (fbox3 hyp nrm3 s fzero)
  | SUnion a b => Union (to_tree hyp nrm3 a) (FCons (to_tree hyp nrm3 b) FNil)
  | SDiff a b => Diff (to_tree hyp nrm3 a) (to_tree hyp nrm3 b)
  | SInter a b => Inter (to_tree hyp nrm3 a) (to_tree hyp nrm3 b)
  end.
(** what the solid is, in real geometry: sign -1 inside, 0 on the boundary, 1 outside *)
Fixpoint real_sgn (t : solid) (p : v3) : Z :=
  match t with
  | SBox s => box_sgn (FR3 s) p
  | SUnion a b => Z.min (real_sgn a p) (real_sgn b p)
  | SDiff a b => Z.max (real_sgn a p) (- real_sgn b p)
  | SInter a b => Z.max (real_sgn a p) (real_sgn b p)
  end.
Theorem C98_solid hyp nrm3 t p : hyp_pos hyp -> nrm_pos nrm3 -> all_sizes t -> valid3 p -> fin3 p ->
  is_nan (feval (to_tree hyp nrm3 t) p) = false /\ sgn (feval (to_tree hyp nrm3 t) p) = real_sgn t (FR3 p).
Proof.
  intros Hh Hn. induction t as [s|a IHa b IHb|a IHa b IHb|a IHa b IHb]; cbn [all_sizes to_tree feval fevals real_sgn]; intros A V F.
  - destruct A as (A & B & C). now apply C98_box_sign.
  - destruct A as (A & B), (IHa A V F) as (N1 & S1), (IHb B V F) as (N2 & S2). cbn [funion fold_left]. unfold funion. cbn [fold_left].
    split; [now apply nan_min|]. rewrite sgn_min, S1, S2; auto.
  - destruct A as (A & B), (IHa A V F) as (N1 & S1), (IHb B V F) as (N2 & S2). unfold fdiff.
    split; [apply nan_max; auto; now rewrite nan_opp|]. rewrite sgn_max, sgn_opp, S1, S2; auto. now rewrite nan_opp.
  - destruct A as (A & B), (IHa A V F) as (N1 & S1), (IHb B V F) as (N2 & S2). unfold finter.
    split; [now apply nan_max|]. rewrite sgn_max, S1, S2; auto.
Qed.
(** math.Hypot and r3.Norm as published satisfy the assumptions, so nothing is assumed of them. *)
Lemma abs_pos x : pos x = true -> SFltb fzero (SFabs x) = true /\ is_nan x = false.
Proof. destruct x as [[]|[]| |[] m e]; try discriminate; intros _; split; reflexivity. Qed.
Lemma go_hyp_pos : hyp_pos ghyp.
Proof. intros a b Va Vb A B. destruct (abs_pos a A), (abs_pos b B). apply ghyp_sign; auto. Qed.
Lemma go_nrm_pos : nrm_pos gnrm3.
Proof.
  intros d (V1 & V2 & V3) A B C. unfold gnrm3. apply go_hyp_pos; auto; [now apply ghyp_sign|]. now apply go_hyp_pos.
Qed.
Theorem C98_solid_go t p : all_sizes t -> valid3 p -> fin3 p ->
  is_nan (feval (to_tree ghyp gnrm3 t) p) = false /\ sgn (feval (to_tree ghyp gnrm3 t) p) = real_sgn t (FR3 p).
Proof. apply C98_solid; [apply go_hyp_pos|apply go_nrm_pos]. Qed.
Theorem C98_box_go size p : valid3 size -> valid3 p ->
  neg (fbox3 ghyp gnrm3 size fzero p) =
    SFltb (SFabs (f3x p)) (fmul fhalf (f3x size)) && SFltb (SFabs (f3y p)) (fmul fhalf (f3y size)) && SFltb (SFabs (f3z p)) (fmul fhalf (f3z size)).
Proof.
  apply C98_box; [intros a b A B; now apply ghyp_sign|]. intros d (A & B & C). unfold gnrm3. apply ghyp_sign; auto. now apply ghyp_sign.
Qed.
(** The hypotheses can be met: a cube of side 2 with a bar of 1 x 1 x 4 removed, at three points. *)
Definition fl (m : positive) (e : Z) : spec_float := S754_finite false m e.
Definition f_one := fl 4503599627370496 (-52).
Definition f_two := fl 4503599627370496 (-51).
Definition f_four := fl 4503599627370496 (-50).
Lemma normal_fl e : (-1073 <= e <= 971)%Z -> normal_size (fl 4503599627370496 e).
Proof.
  intros H. split; [reflexivity|]. split.
  - apply bounded_intro; [|lia]. change (Zpos (digits2_pos 4503599627370496)) with 53%Z. rewrite fx_eq; lia.
  - unfold fl. rewrite FR_sg. cbn [sg]. change (Zpos 4503599627370496) with (2 ^ 52)%Z. rewrite <- bpow_Z, <- bpow_add by lia.
    rewrite Rabs_right by (left; apply bpow_pos). apply bpow_le. lia.
Qed.
Example C98_example :
  let hyp := ghyp in let nrm3 := gnrm3 in
  let t := SDiff (SBox (FV3 f_two f_two f_two)) (SBox (FV3 f_one f_one f_four)) in
  hyp_pos hyp /\ nrm_pos nrm3 /\ all_sizes t /\
  sgn (feval (to_tree hyp nrm3 t) (FV3 fzero fzero fzero)) = 1%Z /\
  sgn (feval (to_tree hyp nrm3 t) (FV3 fhalf fzero fzero)) = 0%Z /\
  sgn (feval (to_tree hyp nrm3 t) (FV3 (fl 4503599627370497 (-53)) fzero fzero)) = (-1)%Z /\
  sgn (feval (to_tree hyp nrm3 t) (FV3 f_one fzero f_one)) = 0%Z.
Proof.
  cbn zeta. split; [apply go_hyp_pos|]. split; [apply go_nrm_pos|].
  split; [cbn; repeat split; apply normal_fl; lia|]. repeat split; vm_compute; reflexivity.
Qed.
