(** Membership in a rectangle computed in binary64: never wrong strictly inside or strictly outside, wrong on the
    upper and lower side.  C114. *)
From Coq Require Import List Bool ZArith Lia Reals Lra Psatz Floats.SpecFloat.
From Verif Require Import Prelude Vec SdfModel FloatBoolModel PropsFloatBool FloatRound FloatShapeModel FloatNear FloatTrack PropsFloatSign FloatRenderModel FloatSetup.
Import ListNotations.
Local Open Scope R_scope.
Local Notation fsub := FloatRound.fsub.
Local Notation fmul := FloatRound.fmul.

(** ** Rounded differences keep a strict order *)
Lemma nearest_opp f x : nearest f x -> nearest (SFopp f) (- x).
Proof.
  intros N w V F. specialize (N (SFopp w) (opp_valid w V) ltac:(now rewrite fin_opp)). rewrite !FR_opp in *.
  replace (- FR f - - x) with (- (FR f - x)) by ring. replace (- FR w - x) with (- (FR w - - x)) in N by ring. rewrite Rabs_Ropp. rewrite Rabs_Ropp in N. exact N.
Qed.
(** Of two floats the larger is larger by a unit in the last place of the smaller. *)
Lemma float_gap lo hi : num lo -> num hi -> 0 < FR lo < FR hi -> exists n e, FR lo = IZR n * bpow e /\ (0 < n < 2 ^ 53)%Z /\ (-1074 <= e <= 971)%Z /\ IZR (n + 1) * bpow e <= FR hi /\ FR hi < bpow 1024.
Proof.
  intros (Fl & Vl) (Fh & Vh) (P & L). pose proof (FR_range hi Vh) as RH. rewrite Rabs_right in RH by lra.
  destruct (fin_cases lo Fl) as [(s & ->)|(s & m & e & ->)]; [cbn in P; lra|]. destruct (fin_cases hi Fh) as [(t & ->)|(t & k & g & ->)]; [change (FR (S754_zero t)) with 0 in L; lra|].
  assert (Pm : 0 < IZR (Zpos m)) by (apply IZR_lt; lia). assert (Pk : 0 < IZR (Zpos k)) by (apply IZR_lt; lia). pose proof (bpow_pos e) as Pe. pose proof (bpow_pos g) as Pg.
  assert (Q1 : 0 < IZR (Zpos m) * bpow e) by nra. assert (Q2 : 0 < IZR (Zpos k) * bpow g) by nra.
  destruct s; [rewrite FR_sg in P; cbn [sg] in P; lra|]. destruct t; [rewrite (FR_sg true) in L; cbn [sg] in L; lra|].
  rewrite !FR_sg in *. cbn [sg] in *. exists (Zpos m), e. destruct (bounded_elim m e Vl) as (_ & Be & Bm & _). split; [reflexivity|]. split; [lia|]. split; [lia|]. split; [|exact RH].
  destruct (Z.lt_ge_cases g e) as [G|G]; [pose proof (cmp_pos k g m e Vh Vl G); lra|].
  assert (E : IZR (Zpos k) * bpow g = IZR (Zpos k * 2 ^ (g - e)) * bpow e) by (rewrite mult_IZR, <- bpow_Z by lia; rewrite Rmult_assoc, <- bpow_add; do 2 f_equal; lia).
  rewrite E in L |- *. apply Rmult_lt_reg_r in L; [|exact Pe]. apply lt_IZR in L. apply Rmult_le_compat_r; [lra|]. apply IZR_le. lia.
Qed.
Lemma grid_repr k e top : (0 <= k <= 2 ^ 53)%Z -> (-1074 <= e <= 971)%Z -> IZR k * bpow e <= top -> top < bpow 1024 -> exists w, num w /\ FR w = IZR k * bpow e.
Proof.
  intros K E T B. destruct (Z.eq_dec k 0) as [->|K0]; [exists fzero; split; [split; reflexivity|cbn; ring]|].
  destruct (Z.eq_dec k (2 ^ 53)) as [->|K1]; [|apply repr_int; lia].
  assert (e < 971)%Z. { rewrite <- bpow_Z in T by lia. rewrite <- bpow_add in T. assert (bpow (53 + e) < bpow 1024) as H by lra. apply bpow_lt_inv in H. lia. }
  destruct (repr_int (2 ^ 52) (e + 1)) as (w & Nw & Ew); [lia|lia|]. exists w. split; [exact Nw|]. rewrite Ew, bpow_add, bpow_1. change (2 ^ 53)%Z with (2 ^ 52 * 2)%Z. rewrite mult_IZR. ring.
Qed.
Lemma nearest_strict f g lo hi c1 c2 : num lo -> num hi -> 0 <= c2 < c1 -> c1 <= FR lo -> FR lo < FR hi ->
  nearest f (FR lo - c1) -> nearest g (FR hi - c2) -> FR f < FR g.
Proof.
  intros Nl Nh C C1 L NF NG. destruct (float_gap lo hi Nl Nh ltac:(lra)) as (n & e & En & Hn & He & Hi & Top). pose proof (bpow_pos e) as Pe. set (w := bpow e) in *.
  set (x := FR lo - c1) in *. set (y := FR hi - c2) in *.
  assert (XY : x + w < y) by (unfold x, y; rewrite plus_IZR in Hi; lra).
  set (j := Int_part (x / w)). assert (J : IZR j * w <= x < IZR (j + 1) * w).
  { destruct (base_Int_part (x / w)) as (I1 & I2). fold j in I1, I2. assert (E : x = x / w * w) by (field; lra). rewrite plus_IZR. split; [rewrite E; apply Rmult_le_compat_r; lra|]. rewrite E at 1. apply Rmult_lt_compat_r; lra. }
  assert (J0 : (0 <= j)%Z). { apply Z.lt_succ_r. apply lt_IZR. unfold Z.succ. apply (Rmult_lt_reg_r w); [exact Pe|]. assert (0 <= x) by (unfold x; lra). lra. }
  assert (J1 : (j < n)%Z). { apply lt_IZR. apply (Rmult_lt_reg_r w); [exact Pe|]. unfold x in J. lra. }
  assert (RP : forall k, (0 <= k <= n + 1)%Z -> exists v, num v /\ FR v = IZR k * w).
  { intros k K. apply (grid_repr k e (FR hi)); [lia|exact He| |exact Top]. apply Rle_trans with (IZR (n + 1) * bpow e); [|exact Hi]. apply Rmult_le_compat_r; [now apply Rlt_le|]. apply IZR_le. lia. }
  destruct (RP j ltac:(lia)) as (v0 & (F0 & V0) & E0). destruct (RP (j + 1)%Z ltac:(lia)) as (v1 & (F1 & V1) & E1). destruct (RP (j + 2)%Z ltac:(lia)) as (v2 & (F2 & V2) & E2).
  pose proof (NF v0 V0 F0) as A0. pose proof (NF v1 V1 F1) as A1. pose proof (NG v1 V1 F1) as B1. pose proof (NG v2 V2 F2) as B2. rewrite E0 in A0. rewrite E1 in A1, B1. rewrite E2 in B2.
  rewrite !plus_IZR in *. set (jw := IZR j * w) in *. replace ((IZR j + 1) * w) with (jw + w) in * by (unfold jw; ring). replace ((IZR j + 2) * w) with (jw + 2 * w) in * by (unfold jw; ring).
  clearbody jw x y w. clear - Pe XY J A0 A1 B1 B2.
  destruct (Rlt_dec (FR f) (FR g)) as [H|H]; [exact H|exfalso]. revert A0 A1 B1 B2. unfold Rabs. repeat destruct (Rcase_abs _); lra.
Qed.
(** For coordinates beside the rectangle: the comparison of the code is strict. *)
Lemma beside_lt px py sx sy : num px -> num py -> num sx -> num sy -> 0 <= FR px < FR sx -> 0 <= FR sy < FR py -> SFltb (fsub sy sx) (fsub py px) = true.
Proof.
  intros (Fpx & Vpx) (Fpy & Vpy) (Fsx & Vsx) (Fsy & Vsy) X Y.
  destruct (fsub_spec sy sx Fsy Fsx Vsy Vsx) as ((Vk & _ & Fk & _ & Nk & _) & _). destruct (fsub_spec py px Fpy Fpx Vpy Vpx) as ((Vd & _ & Fd & _ & Nd & _) & _).
  pose proof (small_max sy Vsy) as M1. pose proof (small_max sx Vsx) as M2. pose proof (small_max py Vpy) as M3. pose proof (small_max px Vpx) as M4. rewrite Rabs_right in M1, M2, M3, M4 by lra.
  specialize (Fk ltac:(apply Rabs_le; lra)). specialize (Fd ltac:(apply Rabs_le; lra)). specialize (Nk Fk). specialize (Nd Fd).
  apply ltb_FR; auto. destruct (Rle_dec (FR sx) (FR sy)) as [H|H].
  - apply (nearest_strict _ _ sy py (FR sx) (FR px)); try split; auto; lra.
  - destruct (Rle_dec (FR py) (FR px)) as [K|K].
    + apply nearest_opp in Nk, Nd. enough (FR (SFopp (fsub py px)) < FR (SFopp (fsub sy sx))) as G by (rewrite !FR_opp in G; lra).
      apply (nearest_strict _ _ px sx (FR py) (FR sy)); try (split; assumption); try lra; [replace (FR px - FR py) with (- (FR py - FR px)) by ring; exact Nd|replace (FR sx - FR sy) with (- (FR sy - FR sx)) by ring; exact Nk].
    + assert (A : neg (fsub sy sx) = true) by (rewrite (proj1 (C98_difference sy sx Vsy Vsx)); apply ltb_FR; auto; lra).
      assert (B : pos (fsub py px) = true) by (rewrite (proj1 (proj2 (C98_difference py px Vpy Vpx))); apply ltb_FR; auto; lra).
      apply ltb_FR in A; auto; try reflexivity. apply ltb_FR in B; auto; try reflexivity. change (FR zero) with 0 in *. lra.
Qed.
(** and beyond the other sides it fails *)
Lemma beyond_not px py sx sy : num px -> num py -> num sx -> num sy -> 0 <= FR px -> 0 <= FR sx -> 0 <= FR py -> 0 <= FR sy ->
  FR py - FR px < FR sy - FR sx -> SFltb (fsub sy sx) (fsub py px) = false.
Proof.
  intros (Fpx & Vpx) (Fpy & Vpy) (Fsx & Vsx) (Fsy & Vsy) P1 P2 P3 P4 X.
  destruct (fsub_spec sy sx Fsy Fsx Vsy Vsx) as ((Vk & _ & Fk & _ & Nk & _) & _). destruct (fsub_spec py px Fpy Fpx Vpy Vpx) as ((Vd & _ & Fd & _ & Nd & _) & _).
  pose proof (small_max sy Vsy) as M1. pose proof (small_max sx Vsx) as M2. pose proof (small_max py Vpy) as M3. pose proof (small_max px Vpx) as M4. rewrite Rabs_right in M1, M2, M3, M4 by lra.
  specialize (Fk ltac:(apply Rabs_le; lra)). specialize (Fd ltac:(apply Rabs_le; lra)). specialize (Nk Fk). specialize (Nd Fd).
  destruct (SFltb _ _) eqn:E; [|reflexivity]. exfalso. apply ltb_FR in E; auto.
  pose proof (Nk (fsub py px) Vd Fd) as A. pose proof (Nd (fsub sy sx) Vk Fk) as B. revert A B E X. generalize (FR (fsub sy sx)), (FR (fsub py px)), (FR sy - FR sx), (FR py - FR px). clear.
  intros k d x y. unfold Rabs. repeat destruct (Rcase_abs _); lra.
Qed.

(** ** The two dimensional box distance *)
Definition nrm2_pos (nrm : fv2 -> spec_float) : Prop := forall d, valid (f2x d) -> valid (f2y d) -> pos (f2x d) = true -> pos (f2y d) = true -> pos (nrm d) = true.
Lemma sgn_pos x : pos x = true -> sgn x = 1%Z.
Proof. intros H. unfold sgn. now rewrite (pos_not_neg _ H), H. Qed.
Lemma sgn_diff a s : num a -> num s -> 0 <= FR a -> 0 <= FR s ->
  valid (fsub a s) /\ is_nan (fsub a s) = false /\
  (FR a < FR s -> pos (fsub a s) = false /\ sgn (fsub a s) = (-1)%Z) /\ (FR a = FR s -> pos (fsub a s) = false /\ sgn (fsub a s) = 0%Z) /\ (FR s < FR a -> pos (fsub a s) = true /\ sgn (fsub a s) = 1%Z).
Proof.
  intros (Fa & Va) (Fs & Vs) A S0. split; [now apply fsub_valid|]. split; [now apply sub_not_nan|].
  destruct (C98_difference a s Va Vs) as (N & P & _). pose proof (ltb_FR a s Fa Fs Va Vs) as I1. pose proof (ltb_FR s a Fs Fa Vs Va) as I2. unfold sgn. rewrite N, P.
  repeat match goal with |- _ /\ _ => split end; intros H.
  - rewrite (proj2 I1 H). destruct (SFltb s a); [pose proof (proj1 I2 eq_refl); lra|]. split; reflexivity.
  - destruct (SFltb s a); [pose proof (proj1 I2 eq_refl); lra|]. destruct (SFltb a s); [pose proof (proj1 I1 eq_refl); lra|]. split; reflexivity.
  - rewrite (proj2 I2 H). destruct (SFltb a s); [pose proof (proj1 I1 eq_refl); lra|]. split; reflexivity.
Qed.
Lemma box2d_sign nrm p s : nrm2_pos nrm -> num (f2x p) -> num (f2y p) -> num (f2x s) -> num (f2y s) -> 0 < FR (f2x s) -> 0 < FR (f2y s) ->
  let a := Rabs (FR (f2x p)) in let b := Rabs (FR (f2y p)) in let v := fsdf_box2d nrm p s in
  is_nan v = false /\
  (a < FR (f2x s) -> b < FR (f2y s) -> sgn v = (-1)%Z) /\
  (FR (f2x s) < a \/ a < FR (f2x s) /\ FR (f2y s) < b -> sgn v = 1%Z) /\
  (a = FR (f2x s) -> b <= FR (f2y s) -> sgn v = 0%Z) /\
  (a = FR (f2x s) -> FR (f2y s) < b -> sgn v = 0%Z \/ sgn v = 1%Z) /\
  (a < FR (f2x s) -> b = FR (f2y s) -> sgn v = 0%Z \/ sgn v = (-1)%Z).
Proof.
  intros HN (Fx & Vx) (Fy & Vy) Sx Sy X0 Y0 a b v. destruct p as [px py], s as [sx sy]. cbn [f2x f2y] in *.
  assert (Nx : num (SFabs px)) by (split; [now rewrite fin_abs|now apply abs_valid]). assert (Ny : num (SFabs py)) by (split; [now rewrite fin_abs|now apply abs_valid]).
  assert (Ex : FR (SFabs px) = a) by apply FR_abs. assert (Ey : FR (SFabs py) = b) by apply FR_abs. assert (A0 : 0 <= a) by apply Rabs_pos. assert (B0 : 0 <= b) by apply Rabs_pos.
  destruct (sgn_diff (SFabs px) sx Nx Sx) as (Vdx & Ndx & Lx & Qx & Gx); [lra|lra|]. destruct (sgn_diff (SFabs py) sy Ny Sy) as (Vdy & Ndy & Ly & Qy & Gy); [lra|lra|].
  rewrite Ex in *. rewrite Ey in *. pose proof (HN (FV2 (fsub (SFabs px) sx) (fsub (SFabs py) sy)) Vdx Vdy) as HP. cbn [f2x f2y] in HP.
  assert (BE : a < FR sx -> FR sy < b -> fgt (fsub (SFabs py) (SFabs px)) (fsub sy sx) = true).
  { intros. apply beside_lt; auto; rewrite ?Ex, ?Ey; lra. }
  assert (BN : b - a < FR sy - FR sx -> fgt (fsub (SFabs py) (SFabs px)) (fsub sy sx) = false).
  { intros. apply beyond_not; auto; rewrite ?Ex, ?Ey; lra. }
  unfold v, fsdf_box2d, fsub2, fabs2. cbn [f2x f2y].
  change (fgt (fsub (SFabs px) sx) fzero) with (pos (fsub (SFabs px) sx)). change (fgt (fsub (SFabs py) sy) fzero) with (pos (fsub (SFabs py) sy)).
  set (dx := fsub (SFabs px) sx) in *. set (dy := fsub (SFabs py) sy) in *. set (t := fgt (fsub (SFabs py) (SFabs px)) (fsub sy sx)) in *. clearbody dx dy t. clear v Ex Ey.
  destruct (Rtotal_order a (FR sx)) as [Cx|[Cx|Cx]], (Rtotal_order b (FR sy)) as [Cy|[Cy|Cy]].
  - destruct (Lx Cx) as (-> & Tx), (Ly Cy) as (-> & Ty). cbn [andb]. destruct t; repeat match goal with |- _ /\ _ => split end; intros; auto; lra.
  - destruct (Lx Cx) as (-> & Tx), (Qy Cy) as (-> & Ty). cbn [andb]. destruct t; repeat match goal with |- _ /\ _ => split end; intros; auto; lra.
  - destruct (Lx Cx) as (-> & Tx), (Gy Cy) as (-> & Ty). cbn [andb]. rewrite BE by auto. repeat match goal with |- _ /\ _ => split end; intros; auto; lra.
  - destruct (Qx Cx) as (-> & Tx), (Ly Cy) as (-> & Ty). cbn [andb]. rewrite BN by lra. repeat match goal with |- _ /\ _ => split end; intros; auto; lra.
  - destruct (Qx Cx) as (-> & Tx), (Qy Cy) as (-> & Ty). cbn [andb]. destruct t; repeat match goal with |- _ /\ _ => split end; intros; auto; lra.
  - destruct (Qx Cx) as (-> & Tx), (Gy Cy) as (-> & Ty). cbn [andb]. destruct t; repeat match goal with |- _ /\ _ => split end; intros; auto; lra.
  - destruct (Gx Cx) as (-> & Tx), (Ly Cy) as (-> & Ty). cbn [andb]. rewrite BN by lra. repeat match goal with |- _ /\ _ => split end; intros; auto; lra.
  - destruct (Gx Cx) as (-> & Tx), (Qy Cy) as (-> & Ty). cbn [andb]. rewrite BN by lra. repeat match goal with |- _ /\ _ => split end; intros; auto; lra.
  - destruct (Gx Cx) as (Px & Tx), (Gy Cy) as (Py & Ty). rewrite Px, Py. cbn [andb]. specialize (HP Px Py). repeat match goal with |- _ /\ _ => split end; intros; try lra; [now apply pos_nan|now apply sgn_pos].
Qed.

(** ** C114 *)
Definition FR2 (p : fv2) : v2 := V2 (FR (f2x p)) (FR (f2y p)).
(** The sign of a rectangle at a finite point: -1 strictly inside, 1 strictly outside, 0 on the boundary. *)
Definition rect_sgn (size p : v2) : Z :=
  if Rltb (2 * Rabs (x2 p)) (x2 size) && Rltb (2 * Rabs (y2 p)) (y2 size) then -1
  else if Rltb (x2 size) (2 * Rabs (x2 p)) || Rltb (y2 size) (2 * Rabs (y2 p)) then 1 else 0.
Lemma go_nrm2_pos : nrm2_pos gnrm2.
Proof. intros d A B C D. now apply go_hyp_pos. Qed.
(** half of a size, less a rounding of zero *)
Lemma half_size s : normal_size s -> num (fsub (fmul fhalf s) fzero) /\ FR (fsub (fmul fhalf s) fzero) = FR s / 2.
Proof.
  intros (F & V & N). destruct (half_exact s F V (or_intror N)) as (D & E). assert (Vh : valid (fmul fhalf s)) by now apply fmul_valid.
  rewrite <- E. split; [split; [|apply fsub_valid; [exact Vh|reflexivity]]|]; destruct (fmul fhalf s) as [[]|[]| |t m e]; try discriminate; reflexivity.
Qed.
(** What holds of the computed sign at every finite point: it is that of the rectangle, except on the lower and
    upper side, where it may be -1 instead of 0, and on the lines of the left and right side beyond the corners,
    where it may be 0 instead of 1.  So a point strictly inside is never taken as outside or on the boundary, and a
    point strictly outside is never taken as inside. *)
Theorem C114_sign_partial size p : normal_size (f2x size) -> normal_size (f2y size) -> 0 < FR (f2x size) -> 0 < FR (f2y size) -> num (f2x p) -> num (f2y p) ->
  is_nan (fbox2 gnrm2 size fzero p) = false /\
  (sgn (fbox2 gnrm2 size fzero p) = rect_sgn (FR2 size) (FR2 p) \/
   sgn (fbox2 gnrm2 size fzero p) = (-1)%Z /\ 2 * Rabs (FR (f2y p)) = FR (f2y size) /\ 2 * Rabs (FR (f2x p)) < FR (f2x size) \/
   sgn (fbox2 gnrm2 size fzero p) = 0%Z /\ 2 * Rabs (FR (f2x p)) = FR (f2x size) /\ FR (f2y size) < 2 * Rabs (FR (f2y p))).
Proof.
  intros Sx Sy X0 Y0 Px Py. unfold fbox2. destruct (sgn_sub_zero (fsdf_box2d gnrm2 p (fsub2 (fscale2 fhalf size) (FV2 fzero fzero)))) as (-> & ->).
  destruct size as [w h], p as [x y]. cbn [f2x f2y] in *. destruct (half_size w Sx) as (Nw & Ew), (half_size h Sy) as (Nh & Eh). unfold fsub2, fscale2. cbn [f2x f2y].
  destruct (box2d_sign gnrm2 (FV2 x y) (FV2 (fsub (fmul fhalf w) fzero) (fsub (fmul fhalf h) fzero)) go_nrm2_pos Px Py Nw Nh) as (NN & In & Out & Zx & Ox & Zy); cbn [f2x f2y] in *; [lra|lra|].
  rewrite Ew, Eh in *. split; [exact NN|]. set (v := sgn _) in *. clearbody v. set (a := Rabs (FR x)) in *. set (b := Rabs (FR y)) in *. unfold rect_sgn, FR2. cbn [x2 y2 f2x f2y]. fold a b. clearbody a b.
  destruct (Rltb (2 * a) (FR w)) eqn:L1; [apply Rltb_true in L1|apply Rltb_false in L1]; (destruct (Rltb (2 * b) (FR h)) eqn:L2; [apply Rltb_true in L2|apply Rltb_false in L2]); cbn [andb];
    [left; apply In; lra| | |];
    (destruct (Rltb (FR w) (2 * a)) eqn:L3; [apply Rltb_true in L3|apply Rltb_false in L3]); (destruct (Rltb (FR h) (2 * b)) eqn:L4; [apply Rltb_true in L4|apply Rltb_false in L4]); cbn [orb]; try lra;
    try (left; apply Out; lra); try (left; apply Zx; lra).
  - destruct Zy as [->| ->]; [lra|lra|now left|right; left; repeat split; lra].
  - destruct Ox as [->| ->]; [lra|lra|right; right; repeat split; lra|now left].
Qed.
Corollary C114_membership_partial size p : normal_size (f2x size) -> normal_size (f2y size) -> 0 < FR (f2x size) -> 0 < FR (f2y size) -> num (f2x p) -> num (f2y p) ->
  (2 * Rabs (FR (f2x p)) < FR (f2x size) -> 2 * Rabs (FR (f2y p)) < FR (f2y size) -> neg (fbox2 gnrm2 size fzero p) = true) /\
  (FR (f2x size) < 2 * Rabs (FR (f2x p)) \/ FR (f2y size) < 2 * Rabs (FR (f2y p)) -> neg (fbox2 gnrm2 size fzero p) = false).
Proof.
  intros Sx Sy X0 Y0 Px Py. destruct (C114_sign_partial size p Sx Sy X0 Y0 Px Py) as (_ & D). unfold rect_sgn, FR2 in D. cbn [x2 y2] in D.
  assert (SG : forall v, (sgn v = (-1)%Z -> neg v = true) /\ (sgn v = 0%Z \/ sgn v = 1%Z -> neg v = false)) by (intros v; unfold sgn; destruct (neg v), (pos v); split; intros; auto; lia).
  destruct (SG (fbox2 gnrm2 size fzero p)) as (S1 & S2). split; intros H.
  - intros K. apply S1. destruct D as [D|[(D & _)|(_ & D & _)]]; [|exact D|lra]. rewrite D. now rewrite (proj2 (Rltb_true _ _) H), (proj2 (Rltb_true _ _) K).
  - apply S2. destruct D as [D|[(_ & D & E)|(D & _)]]; [|lra|now left]. right. rewrite D.
    destruct H as [H|H]; [replace (Rltb (2 * Rabs (FR (f2x p))) (FR (f2x size))) with false by (symmetry; apply Rltb_false; lra); now rewrite (proj2 (Rltb_true _ _) H)|].
    replace (Rltb (2 * Rabs (FR (f2y p))) (FR (f2y size))) with false by (symmetry; apply Rltb_false; lra). rewrite andb_false_r, (proj2 (Rltb_true _ _) H). now rewrite orb_true_r.
Qed.
(** The same computation serves the cylinder, of which the first coordinate is the computed distance from the axis. *)
Theorem C114_cylinder_partial height radius p : normal_size height -> 0 < FR height -> num radius -> 0 < FR radius -> num (f3z p) -> num (ghyp (f3x p) (f3y p)) ->
  let d := Rabs (FR (ghyp (f3x p) (f3y p))) in let v := fcylinder ghyp gnrm2 height radius fzero p in
  is_nan v = false /\
  (d < FR radius -> 2 * Rabs (FR (f3z p)) < FR height -> sgn v = (-1)%Z) /\
  (FR radius < d \/ d < FR radius /\ FR height < 2 * Rabs (FR (f3z p)) -> sgn v = 1%Z) /\
  (d = FR radius -> 2 * Rabs (FR (f3z p)) <= FR height -> sgn v = 0%Z) /\
  (d = FR radius -> FR height < 2 * Rabs (FR (f3z p)) -> sgn v = 0%Z \/ sgn v = 1%Z) /\
  (d < FR radius -> 2 * Rabs (FR (f3z p)) = FR height -> sgn v = 0%Z \/ sgn v = (-1)%Z).
Proof.
  intros Sh H0 (Fr & Vr) R0 Pz Nd d v. unfold v, fcylinder. destruct (sgn_sub_zero (fsdf_box2d gnrm2 (FV2 (ghyp (f3x p) (f3y p)) (f3z p)) (FV2 (fsub radius fzero) (fsub (fmul fhalf height) fzero)))) as (-> & ->).
  destruct (half_size height Sh) as (Nh & Eh). assert (Nr : num (fsub radius fzero) /\ FR (fsub radius fzero) = FR radius).
  { split; [split; [|apply fsub_valid; [exact Vr|reflexivity]]|]; destruct radius as [[]|[]| |t m e]; try discriminate; reflexivity. }
  destruct Nr as (Nr & Er).
  destruct (box2d_sign gnrm2 (FV2 (ghyp (f3x p) (f3y p)) (f3z p)) (FV2 (fsub radius fzero) (fsub (fmul fhalf height) fzero)) go_nrm2_pos Nd Pz Nr Nh) as (NN & In & Out & Zx & Ox & Zy); cbn [f2x f2y] in *; [lra|lra|].
  rewrite Er, Eh in *. fold d in In, Out, Zx, Ox, Zy. clearbody d. clear - NN In Out Zx Ox Zy. repeat match goal with |- _ /\ _ => split end; intros; auto.
  - apply In; lra.
  - apply Out; lra.
  - apply Zx; lra.
  - apply Ox; lra.
  - apply Zy; lra.
Qed.
(** In terms of the true distance from the axis: right except within the error of math.Hypot of the side wall, and on
    the planes of the two ends. *)
Corollary C114_cylinder_solid_partial height radius p M : normal_size height -> 0 < FR height -> num radius -> 0 < FR radius -> num (f3x p) -> num (f3y p) -> num (f3z p) ->
  Rabs (FR (f3x p)) <= M -> Rabs (FR (f3y p)) <= M -> 4 * M <= fmaxR ->
  let d := hypot (FR (f3x p)) (FR (f3y p)) in let e := 6 * u53 * M + eta in let v := fcylinder ghyp gnrm2 height radius fzero p in
  (d < FR radius - e -> 2 * Rabs (FR (f3z p)) < FR height -> sgn v = (-1)%Z) /\
  (FR radius + e < d -> sgn v = 1%Z) /\
  (d < FR radius - e -> FR height < 2 * Rabs (FR (f3z p)) -> sgn v = 1%Z) /\
  (FR height < 2 * Rabs (FR (f3z p)) -> neg v = false).
Proof.
  intros Sh H0 Nr R0 (Fx & Vx) (Fy & Vy) Pz B1 B2 B3 d e v. destruct (ghyp_near _ _ M Fx Fy Vx Vy B1 B2 B3) as ((Fh & Vh & Eh) & L1 & _).
  fold d e in Eh. assert (H : Rabs (FR (ghyp (f3x p) (f3y p))) = FR (ghyp (f3x p) (f3y p))) by (apply Rabs_right; pose proof (Rabs_pos (FR (f3x p))); lra).
  destruct (C114_cylinder_partial height radius p Sh H0 Nr R0 Pz (conj Fh Vh)) as (_ & In & Out & Zx & Ox & _). fold v in In, Out, Zx, Ox. rewrite H in *. apply Rabs_iff in Eh.
  set (h := FR (ghyp (f3x p) (f3y p))) in *. clearbody h d e v. clear - Eh In Out Zx Ox. repeat match goal with |- _ /\ _ => split end; intros.
  - apply In; lra.
  - apply Out; lra.
  - apply Out; lra.
  - assert (SG : sgn v = 0%Z \/ sgn v = 1%Z) by (destruct (Rtotal_order h (FR radius)) as [C|[C|C]]; [right; apply Out; lra|apply Ox; lra|right; apply Out; lra]).
    revert SG. unfold sgn. destruct (neg v); [|reflexivity]. intros [SG|SG]; discriminate.
Qed.
(** Every Boolean combination of rectangles, and the plate extruded from it: the sign is right at every finite point
    that is on none of the exceptional segments and lines of a rectangle. *)
Inductive drawing := RRect (size : fv2) | RUnion (a b : drawing) | RDiff (a b : drawing) | RInter (a b : drawing).
Fixpoint rects (t : drawing) : list fv2 := match t with RRect s => [s] | RUnion a b | RDiff a b | RInter a b => rects a ++ rects b end.
Fixpoint draw (t : drawing) : tree fv2 :=
  match t with
  | RRect s => Leaf (fbox2 gnrm2 s fzero)
  | RUnion a b => Union (draw a) (FCons (draw b) FNil)
  | RDiff a b => Diff (draw a) (draw b)
  | RInter a b => Inter (draw a) (draw b)
  end.
Fixpoint drawing_sgn (t : drawing) (p : v2) : Z :=
  match t with
  | RRect s => rect_sgn (FR2 s) p
  | RUnion a b => Z.min (drawing_sgn a p) (drawing_sgn b p)
  | RDiff a b => Z.max (drawing_sgn a p) (- drawing_sgn b p)
  | RInter a b => Z.max (drawing_sgn a p) (drawing_sgn b p)
  end.
Definition rect_ok (s : fv2) : Prop := normal_size (f2x s) /\ normal_size (f2y s) /\ 0 < FR (f2x s) /\ 0 < FR (f2y s).
Definition exceptional (s p : v2) : Prop := 2 * Rabs (y2 p) = y2 s /\ 2 * Rabs (x2 p) < x2 s \/ 2 * Rabs (x2 p) = x2 s /\ y2 s < 2 * Rabs (y2 p).
Theorem C114_drawing_partial t p : num (f2x p) -> num (f2y p) -> (forall s, In s (rects t) -> rect_ok s /\ ~ exceptional (FR2 s) (FR2 p)) ->
  is_nan (feval (draw t) p) = false /\ sgn (feval (draw t) p) = drawing_sgn t (FR2 p).
Proof.
  intros Px Py. induction t as [s|a IHa b IHb|a IHa b IHb|a IHa b IHb]; cbn [rects draw feval fevals drawing_sgn]; intros A.
  - destruct (A s (or_introl eq_refl)) as ((S1 & S2 & S3 & S4) & NE). destruct (C114_sign_partial s p S1 S2 S3 S4 Px Py) as (N & [D|[(_ & D)|(_ & D)]]); [auto|exfalso; apply NE; left; exact D|exfalso; apply NE; right; exact D].
  - destruct (IHa (fun s i => A s (in_or_app _ _ _ (or_introl i)))) as (N1 & S1), (IHb (fun s i => A s (in_or_app _ _ _ (or_intror i)))) as (N2 & S2). unfold funion. cbn [fold_left].
    split; [now apply nan_min|]. rewrite sgn_min, S1, S2; auto.
  - destruct (IHa (fun s i => A s (in_or_app _ _ _ (or_introl i)))) as (N1 & S1), (IHb (fun s i => A s (in_or_app _ _ _ (or_intror i)))) as (N2 & S2). unfold fdiff.
    split; [apply nan_max; auto; now rewrite nan_opp|]. rewrite sgn_max, sgn_opp, S1, S2; auto. now rewrite nan_opp.
  - destruct (IHa (fun s i => A s (in_or_app _ _ _ (or_introl i)))) as (N1 & S1), (IHb (fun s i => A s (in_or_app _ _ _ (or_intror i)))) as (N2 & S2). unfold finter.
    split; [now apply nan_max|]. rewrite sgn_max, S1, S2; auto.
Qed.
Theorem C114_plate_partial t height p : num (f3x p) -> num (f3y p) -> num (f3z p) -> normal_size height -> 0 < FR height ->
  (forall s, In s (rects t) -> rect_ok s /\ ~ exceptional (FR2 s) (V2 (FR (f3x p)) (FR (f3y p)))) ->
  let v := fextrude (feval (draw t)) height p in let inside := drawing_sgn t (V2 (FR (f3x p)) (FR (f3y p))) in
  is_nan v = false /\
  (sgn v = (-1)%Z <-> inside = (-1)%Z /\ 2 * Rabs (FR (f3z p)) < FR height) /\
  (sgn v = 1%Z <-> inside = 1%Z \/ FR height < 2 * Rabs (FR (f3z p))).
Proof.
  intros Px Py (Fz & Vz) (Fh & Vh & Nh) H0 A v inside. destruct (C114_drawing_partial t (FV2 (f3x p) (f3y p)) Px Py A) as (N & E). destruct (half_exact height Fh Vh (or_intror Nh)) as (D1 & D2).
  destruct (sgn_diff (SFabs (f3z p)) (fmul fhalf height)) as (_ & Nz & Lz & Qz & Gz); [split; [now rewrite fin_abs|now apply abs_valid]|split; [exact D1|now apply fmul_valid]|rewrite FR_abs; apply Rabs_pos|lra|].
  unfold v, fextrude. change (drawing_sgn t (FR2 (FV2 (f3x p) (f3y p)))) with inside in E. rewrite FR_abs, D2 in *. split; [now apply nan_max|]. rewrite sgn_max, E by auto.
  assert (R : (inside = -1 \/ inside = 0 \/ inside = 1)%Z) .
  { rewrite <- E. generalize (feval (draw t) (FV2 (f3x p) (f3y p))). intros x. unfold sgn. destruct (neg x); [now left|]. destruct (pos x); [right; now right|right; now left]. }
  clear E A. set (z := sgn (fsub (SFabs (f3z p)) (fmul fhalf height))) in *. clearbody z inside. set (q := Rabs (FR (f3z p))) in *. clearbody q. clear - Lz Qz Gz R.
  destruct (Rtotal_order q (FR height / 2)) as [C|[C|C]]; [destruct (Lz C) as (_ & ->)|destruct (Qz C) as (_ & ->)|destruct (Gz C) as (_ & ->)]; destruct R as [->|[->| ->]]; cbn; split; split; intros; try discriminate; try (now left); try (right; lra); try (split; [reflexivity|lra]); try reflexivity;
    try (destruct H as [H|H]; [discriminate|lra]); try (destruct H as (H & H'); first [discriminate | lra]).
Qed.
(** The two exceptions occur: a point in the middle of the upper half of the upper side of the rectangle 2 x 2^61
    evaluates to a negative number, and a point just above the corner of the rectangle 2048 x 2 evaluates to zero. *)
Definition f_2048 := fl 4503599627370496 (-41).
Definition f_1024 := fl 4503599627370496 (-42).
Definition f_tall := fl 4503599627370496 9.
Definition f_top := fl 4503599627370496 8.
Definition f_above := fl 4503599627370497 (-52).
Theorem C114_refuted :
  ~ (forall size p, normal_size (f2x size) -> normal_size (f2y size) -> 0 < FR (f2x size) -> 0 < FR (f2y size) -> num (f2x p) -> num (f2y p) ->
     sgn (fbox2 gnrm2 size fzero p) = rect_sgn (FR2 size) (FR2 p)) /\
  (let size := FV2 f_two f_tall in let p := FV2 fhalf f_top in sgn (fbox2 gnrm2 size fzero p) = (-1)%Z /\ rect_sgn (FR2 size) (FR2 p) = 0%Z) /\
  (let size := FV2 f_2048 f_two in let p := FV2 f_1024 f_above in sgn (fbox2 gnrm2 size fzero p) = 0%Z /\ rect_sgn (FR2 size) (FR2 p) = 1%Z).
Proof.
  assert (P52 : forall e, FR (fl 4503599627370496 e) = bpow (52 + e)).
  { intros e. unfold fl. rewrite FR_sg. cbn [sg]. change (Zpos 4503599627370496) with (2 ^ 52)%Z. now rewrite <- bpow_Z, <- bpow_add by lia. }
  assert (E2 : FR f_two = 2) by (unfold f_two; rewrite P52; apply bpow_1).
  assert (Eh : FR fhalf = / 2) by (change fhalf with (fl 4503599627370496 (-53)); rewrite P52; change (52 + -53)%Z with (- (1))%Z; now rewrite bpow_opp, bpow_1).
  assert (Et : FR f_tall = 2 * FR f_top) by (unfold f_tall, f_top; rewrite !P52; change (52 + 9)%Z with (1 + 60)%Z; rewrite bpow_add, bpow_1; reflexivity).
  assert (Ep : 0 < FR f_top) by (unfold f_top; rewrite P52; apply bpow_pos).
  assert (Ea : 1 < FR f_above).
  { unfold f_above, fl. rewrite FR_sg. cbn [sg]. change (Zpos 4503599627370497) with (2 ^ 52 + 1)%Z. rewrite plus_IZR, <- bpow_Z by lia. rewrite Rmult_plus_distr_r, <- bpow_add. change (52 + -52)%Z with 0%Z. rewrite bpow_0. pose proof (bpow_pos (-52)). lra. }
  assert (E1 : FR f_2048 = 2 * FR f_1024) by (unfold f_2048, f_1024; rewrite !P52; change (52 + -41)%Z with (1 + 10)%Z; rewrite bpow_add, bpow_1; reflexivity).
  assert (E0 : 0 < FR f_1024) by (unfold f_1024; rewrite P52; apply bpow_pos).
  assert (A : (let size := FV2 f_two f_tall in let p := FV2 fhalf f_top in sgn (fbox2 gnrm2 size fzero p) = (-1)%Z /\ rect_sgn (FR2 size) (FR2 p) = 0%Z)).
  { split; [vm_compute; reflexivity|]. unfold rect_sgn, FR2. cbn [f2x f2y x2 y2]. rewrite Et, Eh, E2, !Rabs_right by lra.
    replace (Rltb (2 * FR f_top) (2 * FR f_top)) with false by (symmetry; apply Rltb_false; lra). replace (Rltb 2 (2 * / 2)) with false by (symmetry; apply Rltb_false; lra). now rewrite andb_false_r. }
  split; [|split; [exact A|]].
  - intros H. destruct A as (A & B). specialize (H (FV2 f_two f_tall) (FV2 fhalf f_top)). cbn zeta in *. cbn [f2x f2y] in H. rewrite A, B in H.
    enough (-1 = 0)%Z by lia. apply H; [apply normal_fl; lia|apply normal_fl; lia|lra|lra|split; reflexivity|split; reflexivity].
  - split; [vm_compute; reflexivity|]. unfold rect_sgn, FR2. cbn [f2x f2y x2 y2]. rewrite E1, E2, !Rabs_right by lra.
    replace (Rltb (2 * FR f_1024) (2 * FR f_1024)) with false by (symmetry; apply Rltb_false; lra). replace (Rltb 2 (2 * FR f_above)) with true by (symmetry; apply Rltb_true; lra). cbn [andb]. now rewrite orb_true_r.
Qed.
(** The hypotheses can be met: the rectangle 2048 x 2 inside, on the right side, and to the right. *)
Example C114_example :
  let size := FV2 f_2048 f_two in
  normal_size (f2x size) /\ normal_size (f2y size) /\ num f_1024 /\ num fhalf /\ num f_2048 /\
  sgn (fbox2 gnrm2 size fzero (FV2 fhalf fhalf)) = (-1)%Z /\ sgn (fbox2 gnrm2 size fzero (FV2 f_1024 fhalf)) = 0%Z /\ sgn (fbox2 gnrm2 size fzero (FV2 f_2048 fhalf)) = 1%Z.
Proof.
  cbn zeta. split; [apply normal_fl; lia|]. split; [apply normal_fl; lia|]. repeat split; vm_compute; reflexivity.
Qed.
(** A plate 2048 x 2 with a square hole of 1 x 1, of height 2, at a point of the plate and a point of the hole. *)
Example C114_drawing_example :
  let t := RDiff (RRect (FV2 f_2048 f_two)) (RRect (FV2 f_one f_one)) in
  sgn (fextrude (feval (draw t)) f_two (FV3 f_two fzero fhalf)) = (-1)%Z /\ sgn (fextrude (feval (draw t)) f_two (FV3 fzero fzero fhalf)) = 1%Z /\
  (forall s, In s (rects t) -> rect_ok s /\ ~ exceptional (FR2 s) (V2 (FR f_two) (FR fzero))).
Proof.
  cbn zeta. split; [vm_compute; reflexivity|]. split; [vm_compute; reflexivity|].
  assert (P52 : forall e, FR (fl 4503599627370496 e) = bpow (52 + e)).
  { intros e. unfold fl. rewrite FR_sg. cbn [sg]. change (Zpos 4503599627370496) with (2 ^ 52)%Z. now rewrite <- bpow_Z, <- bpow_add by lia. }
  assert (E2 : FR f_two = 2) by (unfold f_two; rewrite P52; apply bpow_1). assert (E1 : FR f_one = 1) by (unfold f_one; rewrite P52; apply bpow_0).
  assert (E3 : FR f_2048 = 2048) by (unfold f_2048; rewrite P52; change (52 + -41)%Z with 11%Z; rewrite bpow_Z by lia; reflexivity).
  intros s [<-|[<-|[]]]; (split; [split; [apply normal_fl; lia|split; [apply normal_fl; lia|cbn [f2x f2y]; lra]]|]); unfold exceptional, FR2; cbn [x2 y2 f2x f2y]; rewrite ?E1, ?E2, ?E3; change (FR fzero) with 0; rewrite Rabs_R0, Rabs_right by lra; lra.
Qed.
