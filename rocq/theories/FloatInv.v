(** The float64 inverse of a rigid transform is close to its real inverse: a bound on the rounding errors of
    polynomial programs, computed from the program, and its use for m44.Inverse and MulPosition. *)
From Coq Require Import List Bool ZArith Lia Floats.SpecFloat Reals Lra Psatz.
From Verif Require Import Prelude Vec BoxModel MatrixModel SdfModel Distance PropsMatrix PropsBool PropsTransform PropsLip FloatBoolModel FloatRound FloatShapeModel FloatNear PropsFloatSign FloatTrack.
Import ListNotations.
Local Open Scope R_scope.

Inductive ex := EV (i : nat) | EA (a b : ex) | ES (a b : ex) | EM (a b : ex).
Fixpoint ev_f (r : nat -> spec_float) (e : ex) : spec_float :=
  match e with EV i => r i | EA a b => fadd (ev_f r a) (ev_f r b) | ES a b => fsub (ev_f r a) (ev_f r b) | EM a b => fmul (ev_f r a) (ev_f r b) end.
Fixpoint ev_r (r : nat -> R) (e : ex) : R :=
  match e with EV i => r i | EA a b => ev_r r a + ev_r r b | ES a b => ev_r r a - ev_r r b | EM a b => ev_r r a * ev_r r b end.
(** a bound: zero, or magnitude [m] and error [e] in units of [S] (degree true) or of 1 *)
Inductive bd := BZ | BD (d : bool) (m e : Z).
Definition sc (S : R) (d : bool) : R := if d then S else 1.
Definition sem (S : R) (b : bd) (x : spec_float) (z : R) : Prop :=
  match b with
  | BZ => num x /\ FR x = 0 /\ z = 0
  | BD d m e => (0 <= m <= 900)%Z /\ (0 <= e <= 1000000)%Z /\ fnear x z (IZR e * (u53 * sc S d)) /\ Rabs z <= IZR m * sc S d
  end.
Definition mk (d : bool) (m e : Z) : option bd := if (m <=? 900)%Z && (e <=? 1000000)%Z then Some (BD d m e) else None.
Definition bmul (a b : bd) : option bd :=
  match a, b with
  | BZ, _ => Some BZ
  | _, BZ => Some BZ
  | BD d1 m1 e1, BD d2 m2 e2 => if d1 && d2 then None else mk (d1 || d2) (m1 * m2) (e1 * m2 + m1 * e2 + m1 * m2 + 3)
  end.
Definition badd (a b : bd) : option bd :=
  match a, b with
  | BZ, BZ => Some BZ
  | BZ, BD d m e => mk d m (e + m + 1)
  | BD d m e, BZ => mk d m (e + m + 1)
  | BD d1 m1 e1, BD d2 m2 e2 => if eqb d1 d2 then mk d1 (m1 + m2) (e1 + e2 + m1 + m2 + 1) else None
  end.
Definition obind {A B} (x : option A) (f : A -> option B) : option B := match x with Some a => f a | None => None end.
Fixpoint an (g : nat -> bd) (e : ex) : option bd :=
  match e with
  | EV i => Some (g i)
  | EA a b => obind (an g a) (fun x => obind (an g b) (fun y => badd x y))
  | ES a b => obind (an g a) (fun x => obind (an g b) (fun y => badd x y))
  | EM a b => obind (an g a) (fun x => obind (an g b) (fun y => bmul x y))
  end.
Lemma scale_1 : scale_ok 1.
Proof. unfold scale_ok. change 1 with (bpow 0) at 1 2. split; apply bpow_le; lia. Qed.
Lemma sc_ok S d : scale_ok S -> scale_ok (sc S d).
Proof. destruct d; cbn; auto using scale_1. Qed.
Lemma mk_some d m e b : mk d m e = Some b -> b = BD d m e /\ (m <= 900)%Z /\ (e <= 1000000)%Z.
Proof. unfold mk. destruct (_ && _) eqn:E; [|discriminate]. intros [= <-]. apply andb_prop in E. destruct E as (A & B). apply Z.leb_le in A, B. auto. Qed.
Lemma num_zero x : num x -> FR x = 0 -> fnear x 0 0.
Proof. intros (A & B) Z. split; [auto|]. split; [auto|]. rewrite Z, Rminus_0_r, Rabs_R0. lra. Qed.
Lemma badd_near S x y a b d m1 e1 m2 e2 : scale_ok S -> (0 <= m1 <= 900)%Z -> (0 <= m2 <= 900)%Z -> (0 <= e1 <= 1000000)%Z -> (0 <= e2 <= 1000000)%Z ->
  fnear x a (IZR e1 * (u53 * sc S d)) -> fnear y b (IZR e2 * (u53 * sc S d)) -> Rabs a <= IZR m1 * sc S d -> Rabs b <= IZR m2 * sc S d ->
  fnear (fadd x y) (a + b) (IZR (e1 + e2 + m1 + m2 + 1) * (u53 * sc S d)) /\ fnear (fsub x y) (a - b) (IZR (e1 + e2 + m1 + m2 + 1) * (u53 * sc S d)) /\
  Rabs (a + b) <= IZR (m1 + m2) * sc S d /\ Rabs (a - b) <= IZR (m1 + m2) * sc S d.
Proof.
  intros K M1 M2 E1 E2 N1 N2 A B. pose proof (sc_ok S d K) as K'. set (s := sc S d) in *. clearbody s. destruct (scale_facts s K') as (S0 & W0 & Et & M & Sm).
  rewrite !plus_IZR. assert (G : 0 <= IZR m1 <= 900 /\ 0 <= IZR m2 <= 900 /\ 0 <= IZR e1 <= 1000000 /\ 0 <= IZR e2 <= 1000000) by (repeat split; apply IZR_le; lia).
  destruct G as (G1 & G2 & G3 & G4). set (w := u53 * s) in *. set (V := (IZR m1 + IZR m2 + 1) * s).
  assert (Q1 : IZR e1 * w + IZR e2 * w <= s) by nra.
  assert (Bs : Rabs (a + b) <= (IZR m1 + IZR m2) * s /\ Rabs (a - b) <= (IZR m1 + IZR m2) * s) by (apply Rabs_iff in A, B; split; apply Rabs_iff; lra).
  assert (VM : V <= fmaxR) by (unfold V; nra). assert (U : u53 * V = (IZR m1 + IZR m2 + 1) * w) by (unfold V, w; ring).
  split; [|split; [|exact Bs]].
  - eapply near_weak; [eapply (near_add _ _ _ _ _ _ V); [exact N1|exact N2|unfold V; lra|exact VM]|]. rewrite U. lra.
  - eapply near_weak; [eapply (near_sub _ _ _ _ _ _ V); [exact N1|exact N2|unfold V; lra|exact VM]|]. rewrite U. lra.
Qed.
Lemma bmul_near S x y a b d1 d2 m1 e1 m2 e2 : scale_ok S -> d1 && d2 = false -> (0 <= m1 <= 900)%Z -> (0 <= m2 <= 900)%Z -> (m1 * m2 <= 900)%Z -> (0 <= e1 <= 1000000)%Z -> (0 <= e2 <= 1000000)%Z ->
  fnear x a (IZR e1 * (u53 * sc S d1)) -> fnear y b (IZR e2 * (u53 * sc S d2)) -> Rabs a <= IZR m1 * sc S d1 -> Rabs b <= IZR m2 * sc S d2 ->
  fnear (fmul x y) (a * b) (IZR (e1 * m2 + m1 * e2 + m1 * m2 + 3) * (u53 * sc S (d1 || d2))) /\ Rabs (a * b) <= IZR (m1 * m2) * sc S (d1 || d2).
Proof.
  intros K D M1 M2 M3 E1 E2 N1 N2 A B. assert (Hs : sc S (d1 || d2) = sc S d1 * sc S d2) by (destruct d1, d2; try discriminate; cbn; ring).
  pose proof (scale_facts _ (sc_ok S d1 K)) as (S1 & _ & _ & _ & _). pose proof (scale_facts _ (sc_ok S d2 K)) as (S2 & _ & _ & _ & _).
  pose proof (sc_ok S (d1 || d2) K) as K'. destruct (scale_facts _ K') as (S0 & W0 & Et & M & Sm). rewrite Hs in *. set (s1 := sc S d1) in *. set (s2 := sc S d2) in *. clearbody s1 s2. clear K K' D Hs.
  assert (IZR (m1 * m2) <= 900) as M3' by (apply IZR_le; lia).
  rewrite !plus_IZR, !mult_IZR in *. assert (G : 0 <= IZR m1 <= 900 /\ 0 <= IZR m2 <= 900 /\ 0 <= IZR e1 <= 1000000 /\ 0 <= IZR e2 <= 1000000) by (repeat split; apply IZR_le; lia).
  destruct G as (G1 & G2 & G3 & G4). clear M1 M2 M3 E1 E2. set (i1 := IZR m1) in *. set (i2 := IZR m2) in *. set (k1 := IZR e1) in *. set (k2 := IZR e2) in *. clearbody i1 i2 k1 k2. clear m1 m2 e1 e2.
  pose proof u53_pos as U0. pose proof u53_small as U1. pose proof (Rabs_pos a) as Pa. pose proof (Rabs_pos b) as Pb.
  assert (AB : Rabs (a * b) <= i1 * i2 * (s1 * s2)). { rewrite Rabs_mult. replace (i1 * i2 * (s1 * s2)) with ((i1 * s1) * (i2 * s2)) by ring. apply Rmult_le_compat; auto. }
  split; [|exact AB]. set (s := s1 * s2) in *. set (Er := k1 * (u53 * s1) * Rabs b + Rabs a * (k2 * (u53 * s2)) + k1 * (u53 * s1) * (k2 * (u53 * s2))).
  assert (T1 : k1 * (u53 * s1) * Rabs b <= k1 * i2 * (u53 * s)). { replace (k1 * i2 * (u53 * s)) with (k1 * (u53 * s1) * (i2 * s2)) by (unfold s; ring). apply Rmult_le_compat_l; auto. apply Rmult_le_pos; nra. }
  assert (T2 : Rabs a * (k2 * (u53 * s2)) <= i1 * k2 * (u53 * s)). { replace (i1 * k2 * (u53 * s)) with ((i1 * s1) * (k2 * (u53 * s2))) by (unfold s; ring). apply Rmult_le_compat_r; auto. apply Rmult_le_pos; nra. }
  assert (T3 : k1 * (u53 * s1) * (k2 * (u53 * s2)) <= 1 * (u53 * s)). { replace (k1 * (u53 * s1) * (k2 * (u53 * s2))) with ((k1 * k2 * u53) * (u53 * s)) by (unfold s; ring). apply Rmult_le_compat_r; [lra|]. assert (k1 * k2 <= 1000000000000) by nra. nra. }
  assert (T : Er <= (k1 * i2 + i1 * k2 + 1) * (u53 * s)) by (unfold Er; lra).
  assert (P1 : 0 <= k1 * i2 <= 900000000) by nra. assert (P2 : 0 <= i1 * k2 <= 900000000) by nra.
  assert (Ts : Er <= s). { eapply Rle_trans; [exact T|]. eapply Rle_trans; [apply Rmult_le_compat_r; [lra|]; instantiate (1 := 2000000000); lra|]. lra. }
  set (V := (i1 * i2 + 1) * s). assert (VM : V <= fmaxR). { unfold V. assert (V <= 901 * s) by (unfold V; apply Rmult_le_compat_r; lra). unfold V in *. lra. }
  eapply near_weak; [eapply (near_mul _ _ _ _ _ _ V); [exact N1|exact N2| |exact VM]|].
  - fold Er. unfold V. lra.
  - fold Er. replace (u53 * V) with ((i1 * i2 + 1) * (u53 * s)) by (unfold V; ring). lra.
Qed.

Lemma sum_zero x y : num x -> num y -> FR x = 0 -> FR y = 0 -> sem 1 BZ (fadd x y) 0 /\ sem 1 BZ (fsub x y) 0.
Proof.
  intros (A & B) (C & D) X Y. split.
  - destruct (fadd_spec x y A C B D) as (_ & _ & _ & _ & Z). destruct Z as (s & ->); [lra|]. now repeat split.
  - destruct (fsub_spec x y A C B D) as (_ & _ & _ & _ & Z). destruct Z as (s & ->); [lra|]. now repeat split.
Qed.
Lemma mul_zero x y : num x -> num y -> FR x * FR y = 0 -> num (fmul x y) /\ FR (fmul x y) = 0.
Proof.
  intros (A & B) (C & D) Z. pose proof (fmul_spec x y A C B D) as (V & N & F & E & Nr & _). rewrite Z in *.
  assert (Fi : fin (fmul x y) = true) by (apply F; rewrite Rabs_R0; pose proof (small_max fzero eq_refl) as Q; cbn in Q; rewrite Rabs_R0 in Q; exact Q).
  split; [now split|]. specialize (Nr Fi fzero eq_refl eq_refl). cbn in Nr. rewrite !Rminus_0_r, Rabs_R0 in Nr. apply Rabs_iff in Nr. lra.
Qed.
Lemma sem_num S b x z : sem S b x z -> num x.
Proof. destruct b; cbn; [tauto|]. intros (_ & _ & H & _). now apply near_num in H. Qed.
Lemma badd_sem S a b c x y p q : scale_ok S -> badd a b = Some c -> sem S a x p -> sem S b y q -> sem S c (fadd x y) (p + q) /\ sem S c (fsub x y) (p - q).
Proof.
  intros K H A B. destruct a as [|d1 m1 e1], b as [|d2 m2 e2]; cbn [badd] in H.
  - injection H as <-. destruct A as (A & A1 & ->), B as (B & B1 & ->). rewrite Rplus_0_r, Rminus_0_r. now apply sum_zero.
  - destruct A as (A & A1 & ->). pose proof B as (M & E & N & Bo). apply mk_some in H. destruct H as (-> & L1 & L2).
    destruct (badd_near S x y 0 q d2 0 0 m2 e2) as (Q1 & Q2 & Q3 & Q4); auto; try lia; [rewrite Rmult_0_l; now apply num_zero|rewrite Rabs_R0; lra|].
    replace (0 + e2 + 0 + m2 + 1)%Z with (e2 + m2 + 1)%Z in * by lia. cbn [sem]. repeat match goal with |- _ /\ _ => split end; try lia; auto.
  - destruct B as (B & B1 & ->). pose proof A as (M & E & N & Bo). apply mk_some in H. destruct H as (-> & L1 & L2).
    destruct (badd_near S x y p 0 d1 m1 e1 0 0) as (Q1 & Q2 & Q3 & Q4); auto; try lia; [rewrite Rmult_0_l; now apply num_zero|rewrite Rabs_R0; lra|].
    replace (e1 + 0 + m1 + 0 + 1)%Z with (e1 + m1 + 1)%Z in * by lia. replace (m1 + 0)%Z with m1 in * by lia. cbn [sem]. repeat match goal with |- _ /\ _ => split end; try lia; auto.
  - destruct (eqb d1 d2) eqn:D; [|discriminate]. apply eqb_prop in D. subst d2. apply mk_some in H. destruct H as (-> & L1 & L2).
    destruct A as (M & E & N & Bo), B as (M' & E' & N' & Bo'). destruct (badd_near S x y p q d1 m1 e1 m2 e2) as (Q1 & Q2 & Q3 & Q4); auto.
    cbn [sem]. repeat match goal with |- _ /\ _ => split end; try lia; auto.
Qed.
Lemma bmul_sem S a b c x y p q : scale_ok S -> bmul a b = Some c -> sem S a x p -> sem S b y q -> sem S c (fmul x y) (p * q).
Proof.
  intros K H A B. destruct a as [|d1 m1 e1]; [|destruct b as [|d2 m2 e2]]; cbn [bmul] in H.
  - injection H as <-. pose proof (sem_num _ _ _ _ B) as Ny. destruct A as (A & A1 & ->). destruct (mul_zero x y A Ny) as (Q1 & Q2); [rewrite A1; ring|]. cbn. split; [auto|]. split; [auto|ring].
  - injection H as <-. pose proof (sem_num _ _ _ _ A) as Nx. destruct B as (B & B1 & ->). destruct (mul_zero x y Nx B) as (Q1 & Q2); [rewrite B1; ring|]. cbn. split; [auto|]. split; [auto|ring].
  - destruct (d1 && d2) eqn:D; [discriminate|]. apply mk_some in H. destruct H as (-> & L1 & L2).
    destruct A as (M & E & N & Bo), B as (M' & E' & N' & Bo'). destruct (bmul_near S x y p q d1 d2 m1 e1 m2 e2) as (Q1 & Q2); auto.
    cbn [sem]. repeat match goal with |- _ /\ _ => split end; try nia; auto.
Qed.
Theorem an_sound S g rf rr e : scale_ok S -> (forall i, sem S (g i) (rf i) (rr i)) -> forall b, an g e = Some b -> sem S b (ev_f rf e) (ev_r rr e).
Proof.
  intros K G. induction e as [i|a IHa b IHb|a IHa b IHb|a IHa b IHb]; intros c H; cbn [an] in H; [injection H as <-; apply G| | |];
    (destruct (an g a) as [xa|]; [|discriminate]; destruct (an g b) as [xb|]; [|discriminate]; cbn [obind] in H; cbn [ev_f ev_r]).
  - eapply badd_sem; eauto.
  - eapply badd_sem; eauto.
  - eapply bmul_sem; eauto.
Qed.

(** ** the matrix programs *)
Definition syms : mat ex := Mat (EV 0) (EV 1) (EV 2) (EV 3) (EV 4) (EV 5) (EV 6) (EV 7) (EV 8) (EV 9) (EV 10) (EV 11) (EV 12) (EV 13) (EV 14) (EV 15).
Definition at_ {A} (m : mat A) (i : nat) : A :=
  match i with 0 => x00 m | 1 => x01 m | 2 => x02 m | 3 => x03 m | 4 => x10 m | 5 => x11 m | 6 => x12 m | 7 => x13 m
             | 8 => x20 m | 9 => x21 m | 10 => x22 m | 11 => x23 m | 12 => x30 m | 13 => x31 m | 14 => x32 m | _ => x33 m end%nat.
Definition rmat (m : m44) : mat R := Mat (a00 m) (a01 m) (a02 m) (a03 m) (a10 m) (a11 m) (a12 m) (a13 m) (a20 m) (a21 m) (a22 m) (a23 m) (a30 m) (a31 m) (a32 m) (a33 m).
Definition env0 (i : nat) : bd :=
  match i with 3 | 7 | 11 => BD true 1 16 | 12 | 13 | 14 => BZ | 0 | 1 | 2 | 4 | 5 | 6 | 8 | 9 | 10 => BD false 1 16 | _ => BD false 1 0 end%nat.
Ltac fields := cbn [x00 x01 x02 x03 x10 x11 x12 x13 x20 x21 x22 x23 x30 x31 x32 x33].
Lemma det_f m : fdet44 m = ev_f (at_ m) (gdet EA ES EM syms).
Proof. unfold fdet44, gdet, syms. fields. cbn [ev_f at_]. reflexivity. Qed.
Lemma det_r m : det44 m = ev_r (at_ (rmat m)) (gdet EA ES EM syms).
Proof. unfold det44, gdet, syms. fields. cbn [ev_r at_]. unfold rmat. fields. reflexivity. Qed.
Lemma cof_f m : gcof fadd fsub fmul m = gmap (ev_f (at_ m)) (gcof EA ES EM syms).
Proof. unfold gcof, gmap, syms. fields. cbn [ev_f at_]. reflexivity. Qed.
Lemma inv_r m : rmat (inverse44 m) = gmap (fun e => ev_r (at_ (rmat m)) e * (1 / det44 m)) (gcof EA ES EM syms).
Proof.
  unfold inverse44. set (d := 1 / det44 m). unfold gcof, gmap, syms. fields. cbn [ev_r at_]. unfold rmat at 1. cbn [a00 a01 a02 a03 a10 a11 a12 a13 a20 a21 a22 a23 a30 a31 a32 a33].
  unfold rmat. fields. reflexivity.
Qed.
Lemma det_an : an env0 (gdet EA ES EM syms) = Some (BD false 6 475).
Proof. vm_compute. reflexivity. Qed.
Lemma cof_an : gmap (an env0) (gcof EA ES EM syms) = Mat (Some (BD false 2 85)) (Some (BD false 2 85)) (Some (BD false 2 85)) (Some (BD true 6 361))
  (Some (BD false 2 85)) (Some (BD false 2 85)) (Some (BD false 2 85)) (Some (BD true 6 361))
  (Some (BD false 2 85)) (Some (BD false 2 85)) (Some (BD false 2 85)) (Some (BD true 6 361)) (Some BZ) (Some BZ) (Some BZ) (Some (BD false 6 361)).
Proof. vm_compute. reflexivity. Qed.

(** ** rigid transforms *)
Lemma dist_sq p q p' q' : dist3 p q = dist3 p' q' -> norm3sq (sub3 p q) = norm3sq (sub3 p' q').
Proof.
  unfold dist3, norm3. intros E. assert (P : forall v, 0 <= norm3sq v) by (intros [a b c]; unfold norm3sq, dot3; cbn; nra).
  rewrite <- (sqrt_sqrt (norm3sq (sub3 p q))), <- (sqrt_sqrt (norm3sq (sub3 p' q'))) by auto. now rewrite E.
Qed.
Lemma iso_gram m : isometry3 (mul_pos3 m) ->
  a00 m * a00 m + a10 m * a10 m + a20 m * a20 m = 1 /\ a01 m * a01 m + a11 m * a11 m + a21 m * a21 m = 1 /\ a02 m * a02 m + a12 m * a12 m + a22 m * a22 m = 1 /\
  a00 m * a01 m + a10 m * a11 m + a20 m * a21 m = 0 /\ a00 m * a02 m + a10 m * a12 m + a20 m * a22 m = 0 /\ a01 m * a02 m + a11 m * a12 m + a21 m * a22 m = 0.
Proof.
  intros I. pose proof (dist_sq _ _ _ _ (I (V3 1 0 0) zero3)) as H1. pose proof (dist_sq _ _ _ _ (I (V3 0 1 0) zero3)) as H2. pose proof (dist_sq _ _ _ _ (I (V3 0 0 1) zero3)) as H3.
  pose proof (dist_sq _ _ _ _ (I (V3 1 0 0) (V3 0 1 0))) as H4. pose proof (dist_sq _ _ _ _ (I (V3 1 0 0) (V3 0 0 1))) as H5. pose proof (dist_sq _ _ _ _ (I (V3 0 1 0) (V3 0 0 1))) as H6.
  unfold norm3sq, dot3, sub3, mul_pos3, zero3 in *. cbn [x3 y3 z3] in *.
  assert (G1 : a00 m * a00 m + a10 m * a10 m + a20 m * a20 m = 1) by lra. assert (G2 : a01 m * a01 m + a11 m * a11 m + a21 m * a21 m = 1) by lra. assert (G3 : a02 m * a02 m + a12 m * a12 m + a22 m * a22 m = 1) by lra.
  repeat split; auto; lra.
Qed.
Lemma sq_le1 a : a * a <= 1 -> Rabs a <= 1.
Proof. intros H. apply Rabs_iff. nra. Qed.
Lemma iso_entries m : isometry3 (mul_pos3 m) -> Rabs (a00 m) <= 1 /\ Rabs (a01 m) <= 1 /\ Rabs (a02 m) <= 1 /\ Rabs (a10 m) <= 1 /\ Rabs (a11 m) <= 1 /\ Rabs (a12 m) <= 1 /\ Rabs (a20 m) <= 1 /\ Rabs (a21 m) <= 1 /\ Rabs (a22 m) <= 1.
Proof. intros I. destruct (iso_gram m I) as (A & B & C & _). repeat split; apply sq_le1; nra. Qed.
Lemma iso_det m : iso3 m -> det44 m * det44 m = 1.
Proof.
  intros ((A0 & A1 & A2 & A3) & _ & I). destruct (iso_gram m I) as (G1 & G2 & G3 & G4 & G5 & G6). destruct m as [m00 m01 m02 m03 m10 m11 m12 m13 m20 m21 m22 m23 m30 m31 m32 m33].
  cbn [a00 a01 a02 a03 a10 a11 a12 a13 a20 a21 a22 a23 a30 a31 a32 a33] in *. subst. unfold det44. cbn [a00 a01 a02 a03 a10 a11 a12 a13 a20 a21 a22 a23 a30 a31 a32 a33].
  set (p := m00 * m00 + m10 * m10 + m20 * m20) in G1. set (q := m01 * m01 + m11 * m11 + m21 * m21) in G2. set (r := m02 * m02 + m12 * m12 + m22 * m22) in G3.
  set (x := m00 * m01 + m10 * m11 + m20 * m21) in G4. set (y := m00 * m02 + m10 * m12 + m20 * m22) in G5. set (z := m01 * m02 + m11 * m12 + m21 * m22) in G6.
  transitivity (p * (q * r - z * z) - x * (x * r - z * y) + y * (x * z - q * y)); [|rewrite G1, G2, G3, G4, G5, G6; ring].
  unfold p, q, r, x, y, z. ring.
Qed.
Lemma iso_trans m : iso3 m -> norm3 (V3 (a03 (inverse44 m)) (a13 (inverse44 m)) (a23 (inverse44 m))) = norm3 (V3 (a03 m) (a13 m) (a23 m)).
Proof.
  intros I. pose proof (iso3_inv m I) as J. destruct I as (A & D & I). pose proof (J zero3 (mul_pos3 m zero3)) as H. rewrite (proj1 (inv_pos3 m zero3 A D)) in H.
  replace (V3 (a03 (inverse44 m)) (a13 (inverse44 m)) (a23 (inverse44 m))) with (sub3 (mul_pos3 (inverse44 m) zero3) zero3) by (unfold mul_pos3, sub3, zero3; cbn [x3 y3 z3]; f_equal; ring).
  fold (dist3 (mul_pos3 (inverse44 m) zero3) zero3). rewrite H, dist3_sym. unfold dist3. f_equal. unfold mul_pos3, sub3, zero3. cbn [x3 y3 z3]. f_equal; ring.
Qed.
Lemma iso_norm m p : iso3 m -> norm3 (mul_pos3 (inverse44 m) p) <= norm3 p + norm3 (V3 (a03 m) (a13 m) (a23 m)).
Proof.
  intros I. pose proof (iso3_inv m I p (mul_pos3 m zero3)) as H. destruct I as (A & D & I). rewrite (proj1 (inv_pos3 m zero3 A D)) in H.
  assert (E : forall v, dist3 v zero3 = norm3 v) by (intros [a b c]; unfold dist3, sub3, zero3; cbn; do 2 f_equal; ring).
  rewrite E in H. rewrite H. eapply Rle_trans; [apply (dist3_triangle p zero3)|]. rewrite E, (dist3_sym zero3), E. apply Rplus_le_compat_l. right. f_equal. unfold mul_pos3, zero3. cbn [x3 y3 z3]. f_equal; ring.
Qed.
(** what is stored for a rigid transform: its entries up to a few roundings, the last row exactly *)
Definition stored (S : R) (fm : mat spec_float) (m : m44) : Prop :=
  (fnear (x00 fm) (a00 m) (16 * u53) /\ fnear (x01 fm) (a01 m) (16 * u53) /\ fnear (x02 fm) (a02 m) (16 * u53)) /\
  (fnear (x10 fm) (a10 m) (16 * u53) /\ fnear (x11 fm) (a11 m) (16 * u53) /\ fnear (x12 fm) (a12 m) (16 * u53)) /\
  (fnear (x20 fm) (a20 m) (16 * u53) /\ fnear (x21 fm) (a21 m) (16 * u53) /\ fnear (x22 fm) (a22 m) (16 * u53)) /\
  (fnear (x03 fm) (a03 m) (16 * (u53 * S)) /\ fnear (x13 fm) (a13 m) (16 * (u53 * S)) /\ fnear (x23 fm) (a23 m) (16 * (u53 * S))) /\
  (num (x30 fm) /\ FR (x30 fm) = 0) /\ (num (x31 fm) /\ FR (x31 fm) = 0) /\ (num (x32 fm) /\ FR (x32 fm) = 0) /\ (num (x33 fm) /\ FR (x33 fm) = 1).
Definition trans (m : m44) : v3 := V3 (a03 m) (a13 m) (a23 m).
Lemma comp_le v : Rabs (x3 v) <= norm3 v /\ Rabs (y3 v) <= norm3 v /\ Rabs (z3 v) <= norm3 v.
Proof.
  destruct v as [a b c]. unfold norm3, norm3sq, dot3. cbn [x3 y3 z3].
  repeat split; (rewrite <- sqrt_Rsqr_abs; apply sqrt_le_1_alt; unfold Rsqr; nra).
Qed.
Lemma stored_sem S fm m : scale_ok S -> iso3 m -> stored S fm m -> norm3 (trans m) <= S -> forall i, sem S (env0 i) (at_ fm i) (at_ (rmat m) i).
Proof.
  intros K ((A0 & A1 & A2 & A3) & _ & I) ((H1 & H2 & H3) & (H4 & H5 & H6) & (H7 & H8 & H9) & (T1 & T2 & T3) & (N0 & Z0) & (N1 & Z1) & (N2 & Z2) & (N3 & Z3)) T i.
  destruct (iso_entries m I) as (E1 & E2 & E3 & E4 & E5 & E6 & E7 & E8 & E9). destruct (comp_le (trans m)) as (C1 & C2 & C3). cbn [trans x3 y3 z3] in *.
  assert (R0 : forall x z, fnear x z (16 * u53) -> Rabs z <= 1 -> sem S (BD false 1 16) x z).
  { intros x z Q B. cbn [sem sc]. split; [lia|]. split; [lia|]. rewrite !Rmult_1_r. auto. }
  assert (R1 : forall x z, fnear x z (16 * (u53 * S)) -> Rabs z <= norm3 (trans m) -> sem S (BD true 1 16) x z).
  { intros x z Q B. cbn [sem sc]. split; [lia|]. split; [lia|]. split; auto. lra. }
  assert (R3 : sem S (BD false 1 0) (x33 fm) (a33 m)).
  { cbn [sem sc]. split; [lia|]. split; [lia|]. rewrite A3. split; [|rewrite Rabs_R1; lra]. rewrite Rmult_0_l. destruct N3. split; [auto|]. split; [auto|]. rewrite Z3, Rminus_diag_eq, Rabs_R0 by reflexivity. lra. }
  do 16 (destruct i as [|i]; [cbn [env0 at_ rmat]; try (apply R0; assumption); try (apply R1; assumption); try exact R3; cbn [sem x30 x31 x32]; auto|]). exact R3.
Qed.
Lemma near_inv x z e : (0 <= e <= 1000)%Z -> fnear x z (IZR e * u53) -> z * z = 1 -> fnear (fdiv f1 x) (1 / z) (IZR (e + 4) * u53) /\ Rabs (1 / z) = 1.
Proof.
  intros E N Z. assert (E' : 0 <= IZR e <= 1000) by (split; apply IZR_le; lia). pose proof u53_pos as U0. pose proof u53_small as U1. pose proof u_eta as U2.
  assert (Az : Rabs z = 1) by (unfold Rabs; destruct (Rcase_abs z); nra). assert (Nz : z <> 0) by (intros ->; rewrite Rmult_0_l in Z; lra).
  pose proof (near_num _ _ _ N) as (Fx & Vx). destruct N as (_ & _ & D).
  assert (D1 : IZR e * u53 <= / 1000000) by nra. assert (X : 1 - / 1000000 <= Rabs (FR x)). { pose proof (Rabs_triang (FR x) (z - FR x)) as T. replace (FR x + (z - FR x)) with z in T by ring. rewrite (Rabs_minus_sym z) in T. lra. }
  assert (Nx : FR x <> 0) by (intros Q; rewrite Q, Rabs_R0 in X; lra).
  assert (Dv : Rabs (FR f1 / FR x - 1 / z) <= (IZR e + 1) * u53).
  { rewrite FR_f1. replace (1 / FR x - 1 / z) with ((z - FR x) * / FR x * / z) by (field; auto). rewrite !Rabs_mult, !Rabs_inv, Az, Rinv_1, Rmult_1_r, (Rabs_minus_sym z).
    apply Rmult_le_reg_r with (Rabs (FR x)); [lra|]. rewrite Rmult_assoc, Rinv_l, Rmult_1_r by lra. eapply Rle_trans; [exact D|]. apply Rle_trans with ((IZR e + 1) * u53 * (1 - / 1000000)); [|apply Rmult_le_compat_l; [nra|exact X]].
    assert (Q : (IZR e + 1) * / 1000000 <= 1) by lra. replace ((IZR e + 1) * u53 * (1 - / 1000000)) with ((IZR e + 1 - (IZR e + 1) * / 1000000) * u53) by ring. apply Rmult_le_compat_r; lra. }
  assert (Ai : Rabs (1 / z) = 1) by (unfold Rdiv; rewrite Rmult_1_l, Rabs_inv, Az; lra). split; [|exact Ai].
  eapply near_weak; [apply (correct_near _ (FR f1 / FR x) _ ((IZR e + 1) * u53) 2); [apply fdiv_spec; auto; apply f1_ok|exact Dv|rewrite Ai; nra|]|].
  - pose proof big_max. destruct (scale_facts 1 scale_1) as (_ & _ & _ & M & _). lra.
  - rewrite plus_IZR. nra.
Qed.
Lemma tighten S d m m' e x z : sem S (BD d m e) x z -> (0 <= m' <= 900)%Z -> Rabs z <= IZR m' * sc S d -> sem S (BD d m' e) x z.
Proof. intros (A & B & C & D) E F. repeat match goal with |- sem _ _ _ _ => cbn [sem] | |- _ /\ _ => split end; auto; try lia. Qed.
Lemma inverse_near S fm m : scale_ok S -> iso3 m -> stored S fm m -> norm3 (trans m) <= S ->
  let f := finverse44 fm in let r := inverse44 m in
  sem S (BD false 1 568) (x00 f) (a00 r) /\ sem S (BD false 1 568) (x01 f) (a01 r) /\ sem S (BD false 1 568) (x02 f) (a02 r) /\ sem S (BD true 1 844) (x03 f) (a03 r) /\
  sem S (BD false 1 568) (x10 f) (a10 r) /\ sem S (BD false 1 568) (x11 f) (a11 r) /\ sem S (BD false 1 568) (x12 f) (a12 r) /\ sem S (BD true 1 844) (x13 f) (a13 r) /\
  sem S (BD false 1 568) (x20 f) (a20 r) /\ sem S (BD false 1 568) (x21 f) (a21 r) /\ sem S (BD false 1 568) (x22 f) (a22 r) /\ sem S (BD true 1 844) (x23 f) (a23 r).
Proof.
  intros K I St T. pose proof (stored_sem S fm m K I St T) as G.
  pose proof (an_sound S env0 _ _ (gdet EA ES EM syms) K G _ det_an) as Dn. rewrite <- det_f, <- det_r in Dn.
  pose proof (iso_det m I) as D1. destruct Dn as (_ & _ & Dn & _). cbn [sc] in Dn. rewrite Rmult_1_r in Dn.
  destruct (near_inv _ _ 475 ltac:(lia) Dn D1) as (Iv & Ia). change (475 + 4)%Z with 479%Z in Iv.
  assert (Ds : sem S (BD false 1 479) (fdiv f1 (fdet44 fm)) (1 / det44 m)). { cbn [sem sc]. split; [lia|]. split; [lia|]. rewrite !Rmult_1_r. split; [exact Iv|lra]. }
  destruct (iso_entries (inverse44 m) (iso3_inv m I)) as (E1 & E2 & E3 & E4 & E5 & E6 & E7 & E8 & E9).
  destruct (comp_le (trans (inverse44 m))) as (C1 & C2 & C3). unfold trans in C1, C2, C3. rewrite (iso_trans m I) in C1, C2, C3. fold (trans m) in C1, C2, C3. cbn [x3 y3 z3] in C1, C2, C3.
  assert (Z : forall c e d k, an env0 c = Some (BD d k e) -> (0 <= e <= 1000)%Z -> Rabs (ev_r (at_ (rmat m)) c * (1 / det44 m)) <= sc S d ->
    sem S (BD d 1 (e + 483)) (fmul (ev_f (at_ fm) c) (fdiv f1 (fdet44 fm))) (ev_r (at_ (rmat m)) c * (1 / det44 m))).
  { intros c e d k H Ee B. pose proof (an_sound S env0 _ _ c K G _ H) as Q. rewrite Rabs_mult, Ia, Rmult_1_r in B.
    apply (tighten _ _ _ 1) in Q; [|lia|rewrite Rmult_1_l; exact B].
    refine (bmul_sem S (BD d 1 e) (BD false 1 479) _ _ _ _ _ K _ Q Ds). cbn [bmul]. rewrite andb_false_r, orb_false_r. unfold mk.
    replace (e * 1 + 1 * 479 + 1 * 1 + 3)%Z with (e + 483)%Z by lia. replace (_ && _) with true; [reflexivity|]. symmetry. apply andb_true_intro. split; apply Z.leb_le; lia. }
  cbn zeta. pose proof (inv_r m) as Ir. unfold finverse44. rewrite cof_f. pose proof cof_an as Ca.
  set (cc := gcof EA ES EM syms) in *. clearbody cc. destruct cc as [c00 c01 c02 c03 c10 c11 c12 c13 c20 c21 c22 c23 c30 c31 c32 c33].
  unfold gmap in *. cbn [x00 x01 x02 x03 x10 x11 x12 x13 x20 x21 x22 x23 x30 x31 x32 x33] in *. unfold rmat at 1 in Ir. set (r := inverse44 m) in *. clearbody r.
  injection Ir as I00 I01 I02 I03 I10 I11 I12 I13 I20 I21 I22 I23 _ _ _ _. injection Ca as K00 K01 K02 K03 K10 K11 K12 K13 K20 K21 K22 K23 _ _ _ _.
  rewrite I00 in E1. rewrite I01 in E2. rewrite I02 in E3. rewrite I10 in E4. rewrite I11 in E5. rewrite I12 in E6. rewrite I20 in E7. rewrite I21 in E8. rewrite I22 in E9. rewrite I03 in C1. rewrite I13 in C2. rewrite I23 in C3.
  rewrite I00, I01, I02, I03, I10, I11, I12, I13, I20, I21, I22, I23.
  change 568%Z with (85 + 483)%Z. change 844%Z with (361 + 483)%Z.
  repeat match goal with |- _ /\ _ => split end; (eapply Z; [eassumption|lia|cbn [sc]; lra]).
Qed.
(** the row of a point map *)
Definition rowx : ex := EA (EA (EA (EM (EV 0) (EV 4)) (EM (EV 1) (EV 5))) (EM (EV 2) (EV 6))) (EV 3).
Definition envr (i : nat) : bd := match i with 0 | 1 | 2 => BD false 1 568 | 3 => BD true 1 844 | _ => BD true 1 0 end%nat.
Lemma row_an : an envr rowx = Some (BD true 4 2572).
Proof. vm_compute. reflexivity. Qed.
Definition ball3 (B : R) (p : fv3) : Prop := valid3 p /\ fin3 p /\ norm3 (FR3 p) <= B.
Lemma ball3_at B p : ball3 B p -> at3 B p.
Proof. intros (V & F & N). destruct (comp_le (FR3 p)) as (C1 & C2 & C3). unfold FR3 in *. cbn [x3 y3 z3] in *. repeat split; try apply V; try apply F; lra. Qed.
Lemma row_near S r0 r1 r2 r3 z0 z1 z2 z3 p : scale_ok S -> sem S (BD false 1 568) r0 z0 -> sem S (BD false 1 568) r1 z1 -> sem S (BD false 1 568) r2 z2 -> sem S (BD true 1 844) r3 z3 -> at3 S p ->
  fnear (frow_mul (FRow r0 r1 r2 r3) p) (z0 * FR (f3x p) + z1 * FR (f3y p) + z2 * FR (f3z p) + z3) (2572 * (u53 * S)).
Proof.
  intros K H0 H1 H2 H3 ((V1 & W2 & W3) & (F1 & F2 & F3) & B1 & B2 & B3).
  set (rf := fun i : nat => match i with 0 => r0 | 1 => r1 | 2 => r2 | 3 => r3 | 4 => f3x p | 5 => f3y p | _ => f3z p end%nat).
  set (rr := fun i : nat => match i with 0 => z0 | 1 => z1 | 2 => z2 | 3 => z3 | 4 => FR (f3x p) | 5 => FR (f3y p) | _ => FR (f3z p) end%nat).
  assert (X : forall x, fin x = true -> valid x -> Rabs (FR x) <= S -> sem S (BD true 1 0) x (FR x)).
  { intros x A B C. cbn [sem sc]. split; [lia|]. split; [lia|]. rewrite Rmult_0_l, Rmult_1_l. split; [now apply near_exact|exact C]. }
  assert (G : forall i, sem S (envr i) (rf i) (rr i)). { intros i. do 6 (destruct i as [|i]; [cbn [envr]; unfold rf, rr; auto|]). cbn [envr]. unfold rf, rr. auto. }
  pose proof (an_sound S envr rf rr rowx K G _ row_an) as (_ & _ & Q & _). exact Q.
Qed.
Lemma dist_comp p q D : Rabs (x3 p - x3 q) <= D -> Rabs (y3 p - y3 q) <= D -> Rabs (z3 p - z3 q) <= D -> dist3 p q <= 2 * D.
Proof.
  intros A B C. assert (D0 : 0 <= D) by (pose proof (Rabs_pos (x3 p - x3 q)); lra). apply Rabs_iff in A, B, C. unfold dist3, norm3. rewrite <- (sqrt_square (2 * D)) by lra. apply sqrt_le_1_alt.
  unfold norm3sq, dot3, sub3. cbn [x3 y3 z3]. nra.
Qed.
Lemma norm_near p q D : dist3 p q <= D -> norm3 p <= norm3 q + D.
Proof.
  intros H. assert (E : forall v, dist3 v zero3 = norm3 v) by (intros [a b c]; unfold dist3, sub3, zero3; cbn; do 2 f_equal; ring).
  rewrite <- (E p), <- (E q). pose proof (dist3_triangle p q zero3). lra.
Qed.
(** the float64 image of a point under the stored inverse *)
Lemma move_near B fm m p : iso3 m -> let T := norm3 (trans m) in scale_ok (B + T) -> stored (B + T) fm m -> ball3 B p ->
  let q := fmul_pos3 (frows (finverse44 fm)) p in
  dist3 (FR3 q) (mul_pos3 (inverse44 m) (FR3 p)) <= 5200 * (u53 * (B + T)) /\ ball3 (1.0001 * (B + T)) q.
Proof.
  intros I T K St P q. pose proof (ball3_at _ _ P) as A. assert (T0 : 0 <= T) by apply norm3_pos'. assert (B0 : 0 <= B) by (destruct P as (_ & _ & P); pose proof (norm3_pos' (FR3 p)); lra).
  destruct (scale_facts _ K) as (S0 & W0 & Et & M & Sm).
  destruct (inverse_near (B + T) fm m K I St ltac:(fold T; lra)) as (H0 & H1 & H2 & H3 & H4 & H5 & H6 & H7 & H8 & H9 & H10 & H11).
  set (g := finverse44 fm) in *. clearbody g.
  assert (A' : at3 (B + T) p) by (destruct A as (V & F & A1 & A2 & A3); repeat split; try apply V; try apply F; lra).
  pose proof (row_near _ _ _ _ _ _ _ _ _ p K H0 H1 H2 H3 A') as N1. pose proof (row_near _ _ _ _ _ _ _ _ _ p K H4 H5 H6 H7 A') as N2. pose proof (row_near _ _ _ _ _ _ _ _ _ p K H8 H9 H10 H11 A') as N3.
  assert (D : dist3 (FR3 q) (mul_pos3 (inverse44 m) (FR3 p)) <= 2 * (2572 * (u53 * (B + T)))).
  { apply dist_comp; [destruct N1 as (_ & _ & Q)|destruct N2 as (_ & _ & Q)|destruct N3 as (_ & _ & Q)]; exact Q. }
  split; [lra|]. apply near_num in N1, N2, N3. destruct N1 as (R1 & R2), N2 as (R3 & R4), N3 as (R5 & R6). split; [exact (conj R2 (conj R4 R6))|]. split; [exact (conj R1 (conj R3 R5))|].
  apply norm_near in D. pose proof (iso_norm m (FR3 p) I) as L. fold (trans m) in L. fold T in L. destruct P as (_ & _ & P). lra.
Qed.
