(** C102: NewOctreeRenderer computing in float64, and the renderer started on a solid. *)
From Coq Require Import List Permutation Bool ZArith NArith Lia Floats.SpecFloat Reals Lra Psatz.
From Verif Require Import Prelude Vec BoxModel MatrixModel SdfModel PrimModel Distance PropsBounds PropsMatrix PropsTransform PropsLip SdfLemmas FloatBoolModel FloatRound FloatShapeModel FloatNear PropsFloatSign FloatTrack FloatInv FloatRules FloatCopies PropsFloatTrack
  OctreeModel OctreeSpec OctreeGrid PropsOctree OctreeR McTables McModel McSpec McProofs McRealModel PropsSampling PropsMc PropsSurface FloatRenderModel FloatRender PropsFloatRender FloatSetup.
Import ListNotations.
Local Open Scope R_scope.

(** The bounding box: finite corners of magnitude at most [X], with no side shorter than X / 2^30. *)
Record solid_box (b : fv3 * fv3) (X : R) : Prop := {
  sb_X : bpow (-320) <= X <= bpow 320; sb_lo : at3 X (fst b); sb_hi : at3 X (snd b);
  sb_x : X * bpow (-30) <= FR (f3x (snd b)) - FR (f3x (fst b));
  sb_y : X * bpow (-30) <= FR (f3y (snd b)) - FR (f3y (fst b));
  sb_z : X * bpow (-30) <= FR (f3z (snd b)) - FR (f3z (fst b)) }.
(** the box grown by 0.3 % of its sides *)
Definition in_fbox (b : fv3 * fv3) (p : v3) : Prop :=
  let inside lo hi x := let d := 0.003 * (FR hi - FR lo) in FR lo - d <= x <= FR hi + d in
  inside (f3x (fst b)) (f3x (snd b)) (x3 p) /\ inside (f3y (fst b)) (f3y (snd b)) (y3 p) /\ inside (f3z (fst b)) (f3z (snd b)) (z3 p).
(** the longest side *)
Definition longest (b : fv3 * fv3) : R :=
  Rmax (FR (f3z (snd b)) - FR (f3z (fst b))) (Rmax (FR (f3x (snd b)) - FR (f3x (fst b))) (FR (f3y (snd b)) - FR (f3y (fst b)))).

Lemma Rmax_scale k a b : 0 <= k -> Rmax (k * a) (k * b) = k * Rmax a b.
Proof. intros H. unfold Rmax. destruct (Rle_dec a b), (Rle_dec (k * a) (k * b)); auto; nra. Qed.

Ltac bl := apply bpow_le; apply Z.leb_le; reflexivity.
Lemma bpow_2 : bpow 2 = 4. Proof. rewrite bpow_Z by lia. reflexivity. Qed.
Lemma bpow_4 : bpow 4 = 16. Proof. rewrite bpow_Z by lia. reflexivity. Qed.
(** The origin is below the box by 0.4 % of its size on each axis, the root cube reaches 0.4 % beyond it, the cells (of side 2 r) cut the longest side,
    enlarged by 1 %, into meshCells pieces up to 10^-5 of it, and the number of cells along an edge of the root cube is the power of two next to meshCells. *)
Theorem C102_setup lg b m X : good_log2 lg -> solid_box b X -> (2 <= m <= 2 ^ 40)%Z ->
  exists o r k, fnew_octree lg b m = Ok (o, r, S k) /\ (2 <= k <= 41)%nat /\ (2 ^ (Z.of_nat k - 1) < 2 * m <= 2 ^ Z.of_nat k)%Z /\ setup o r (2 ^ Z.of_nat k) (11 * X) /\
    Rabs (2 * IZR m * FR r - 1.01 * longest b) <= / 100000 * longest b /\
    (let side lo hi z := let d := FR hi - FR lo in FR z <= FR lo - 0.004 * d /\ FR hi + 0.004 * d <= FR z + FR r * IZR (2 ^ Z.of_nat k) in
     side (f3x (fst b)) (f3x (snd b)) (f3x o) /\ side (f3y (fst b)) (f3y (snd b)) (f3y o) /\ side (f3z (fst b)) (f3z (snd b)) (f3z o)).
Proof.
  intros GL SB Hm. destruct b as [lo hi]. assert (M1 : IZR m <= bpow 40) by (rewrite bpow_Z by lia; apply IZR_le; lia). destruct SB as [(X1 & X2) Blo Bhi Sx Sy Sz]. cbn [fst snd] in *.
  assert (K : scale_ok X) by (split; [eapply Rle_trans; [|exact X1]; bl|eapply Rle_trans; [exact X2|]; bl]). destruct (scale_facts X K) as (X0 & W0 & Et & M & Sm). pose proof u53_pos as U0. pose proof u53_small as U1.
  destruct Blo as ((Vl1 & Vl2 & Vl3) & (Fl1 & Fl2 & Fl3) & Al1 & Al2 & Al3), Bhi as ((Vh1 & Vh2 & Vh3) & (Fh1 & Fh2 & Fh3) & Ah1 & Ah2 & Ah3).
  set (w := u53 * X) in *.
  destruct (axis_near (f3x lo) (f3x hi) X (conj Fl1 Vl1) (conj Fh1 Vh1) Al1 Ah1 K) as (Lx & Hx & Zx). destruct (axis_near (f3y lo) (f3y hi) X (conj Fl2 Vl2) (conj Fh2 Vh2) Al2 Ah2 K) as (Ly & Hy & Zy). destruct (axis_near (f3z lo) (f3z hi) X (conj Fl3 Vl3) (conj Fh3 Vh3) Al3 Ah3 K) as (Lz & Hz & Zz).
  cbv zeta in Lx, Hx, Zx, Ly, Hy, Zy, Lz, Hz, Zz. fold w in Lx, Hx, Zx, Ly, Hy, Zy, Lz, Hz, Zz. unfold longest. cbn [fst snd].
  set (dx := FR (f3x hi) - FR (f3x lo)) in *. set (dy := FR (f3y hi) - FR (f3y lo)) in *. set (dz := FR (f3z hi) - FR (f3z lo)) in *. set (D := Rmax dz (Rmax dx dy)).
  assert (Dd : dx <= D /\ dy <= D /\ dz <= D) by (unfold D, Rmax; repeat destruct Rle_dec; lra). destruct Dd as (Ddx & Ddy & Ddz).
  apply Rabs_iff in Al1, Al2, Al3, Ah1, Ah2, Ah3. assert (D2 : D <= 2 * X) by (unfold D, Rmax; repeat destruct Rle_dec; unfold dx, dy, dz; lra).
  assert (E30 : bpow (-30) = / 1073741824) by (change (-30)%Z with (- (30))%Z; rewrite bpow_opp, bpow_Z by lia; reflexivity).
  assert (Wd : w <= / 8000000 * (X * bpow (-30))). { unfold w, u53. rewrite E30. change (-53)%Z with (- (53))%Z. rewrite bpow_opp, bpow_Z by lia. change (2 ^ 53)%Z with 9007199254740992%Z. lra. }
  set (s0 := X * bpow (-30)) in *. assert (S0 : 0 < s0) by (unfold s0; apply Rmult_lt_0_compat; [exact X0|apply bpow_pos]).
  set (bb := fscale_about_center (lo, hi) f101). set (L := fmaxc3 (fsize3 bb)).
  assert (NL : fnear L (1.01 * D) (50 * w)). { unfold D. rewrite <- !Rmax_scale by lra. unfold L, fmaxc3. apply near_max; [exact Zz|]. apply near_max; [exact Zx|exact Zy]. }
  pose proof NL as (FL & VL & DL). apply Rabs_iff in DL.
  assert (RL : bpow (-430) <= FR L <= bpow 430).
  { split; [apply Rle_trans with s0; [|lra]; unfold s0; apply Rle_trans with (bpow (-320) * bpow (-30)); [rewrite <- bpow_add; bl|apply Rmult_le_compat_r; [left; apply bpow_pos|exact X1]]|].
    apply Rle_trans with (4 * bpow 320); [lra|]. rewrite <- bpow_2. rewrite <- bpow_add. bl. }
  destruct (levels_spec lg L m GL (conj FL VL) RL Hm) as (Nr & R0 & Dr & Ec & HK & Sp). set (r := FloatRound.fdiv (FloatRound.fmul fhalf L) (fofZ m)) in *. set (k := Z.to_nat (Z.log2_up (2 * m))).
  assert (Ek : Z.of_nat k = Z.log2_up (2 * m)) by (unfold k; rewrite Z2Nat.id; lia). rewrite <- Ek in HK, Sp, Ec. apply Rabs_iff in Dr.
  assert (Lu : 0 < u53 * FR L <= / 1000000000000000 * FR L) by (split; [apply Rmult_lt_0_compat; lra|apply Rmult_le_compat_r; lra]).
  assert (M2 : 2 <= IZR m) by (apply IZR_le; lia). set (n := IZR (2 ^ Z.of_nat k)).
  assert (Nn : 2 * IZR m <= n <= 4 * IZR m). { unfold n. split; [rewrite <- mult_IZR; apply IZR_le; clear - Sp; lia|]. replace (Z.of_nat k) with (1 + (Z.of_nat k - 1))%Z by (clear; lia). rewrite Z.pow_add_r by (clear - HK; lia). rewrite mult_IZR. change (IZR (2 ^ 1)) with 2. assert (IZR (2 ^ (Z.of_nat k - 1)) <= 2 * IZR m) by (rewrite <- mult_IZR; apply IZR_le; clear - Sp; lia). lra. }
  assert (Rn : 2 * IZR m * FR r <= FR r * n <= 2 * (2 * IZR m * FR r)) by nra.
  assert (P63 : (0 < 2 ^ Z.of_nat k < 2 ^ 63)%Z) by (clear - HK; split; [apply Z.pow_pos_nonneg; lia|apply Z.pow_lt_mono_r; lia]). assert (K41 : (2 <= k <= 41)%nat) by (clear - HK; lia).
  exists (fst bb), r, k. split; [|split; [exact K41|split; [exact Sp|split; [|split]]]].
  - unfold fnew_octree. replace (m <? 2)%Z with false by (symmetry; apply Z.ltb_ge; clear - Hm; lia). fold bb. cbv zeta. fold L. change (McRealModel.fdiv (McRealModel.fmul fhalf L) (fofZ m)) with r || idtac. fold r.
    replace (Z.to_nat (fceil (lg (FloatRound.fdiv L r)) + 1)) with (S k) by (rewrite Ec; clear; lia). replace (64 <=? S k)%nat with false by (symmetry; apply Nat.leb_gt; clear - K41; lia). reflexivity.
  - destruct Lx as (Fx & Vx & Dx), Ly as (Fy & Vy & Dy), Lz as (Fz & Vz & Dz). apply Rabs_iff in Dx, Dy, Dz. constructor.
    + repeat split; assumption.
    + repeat split; assumption.
    + exact Nr.
    + split.
      * assert (Q : s0 <= 4 * bpow 40 * FR r). { assert (2 * IZR m * FR r <= 2 * bpow 40 * FR r) by (apply Rmult_le_compat_r; lra). lra. }
        apply Rmult_le_reg_l with (4 * bpow 40); [pose proof (bpow_pos 40); lra|]. eapply Rle_trans; [|exact Q]. rewrite <- bpow_2. rewrite <- !bpow_add. unfold s0. apply Rle_trans with (bpow (-320) * bpow (-30)); [rewrite <- bpow_add; bl|]. apply Rmult_le_compat_r; [left; apply bpow_pos|exact X1].
      * apply Rle_trans with (4 * bpow 320); [nra|]. rewrite <- bpow_2. rewrite <- bpow_add. bl.
    + exact P63.
    + split; [eapply Rle_trans; [|apply Rle_trans with (1 * X); [rewrite Rmult_1_l; exact X1|lra]]; bl|]. apply Rle_trans with (16 * bpow 320); [lra|]. rewrite <- bpow_4. rewrite <- bpow_add. bl.
    + assert (No : norm3 (FR3 (fst bb)) <= 2 * (1.02 * X)).
      { assert (dx <= 2 * X /\ dy <= 2 * X /\ dz <= 2 * X) by lra. apply norm3_bound; unfold FR3; cbn [x3 y3 z3]; unfold bb, fscale_about_center, fnew_box, fcenter3, fsize3, fadd3, fsub3, fscale3; cbn [fst snd f3x f3y f3z]; apply Rabs_iff; lra. }
      fold n. lra.
  - apply Rabs_iff. lra.
  - cbv zeta. fold dx dy dz n. destruct Lx as (_ & _ & Dx), Ly as (_ & _ & Dy), Lz as (_ & _ & Dz). apply Rabs_iff in Dx, Dy, Dz.
    assert (G : forall d z a h, s0 <= d -> d <= D -> h = a + d -> - (20 * w) <= z - (a + d / 2 - 1.01 * d / 2) <= 20 * w -> z <= a - 0.004 * d /\ h + 0.004 * d <= z + FR r * n) by (intros d z a h Hd1 Hd2 -> Hz'; split; lra).
    unfold bb, fscale_about_center, fnew_box, fcenter3, fsize3, fadd3, fsub3, fscale3; cbn [fst snd f3x f3y f3z].
    split; [apply G; [exact Sx|exact Ddx|unfold dx; ring|exact Dx]|]. split; [apply G; [exact Sy|exact Ddy|unfold dy; ring|exact Dy]|apply G; [exact Sz|exact Ddz|unfold dz; ring|exact Dz]].
Qed.

(** NewOctreeRenderer panics exactly for fewer than two cells (in the range of the theorem). *)
Theorem C102_few lg b m : (m < 2)%Z -> fnew_octree lg b m = Panicked.
Proof. intros H. unfold fnew_octree. replace (m <? 2)%Z with true; [reflexivity|]. symmetry. now apply Z.ltb_lt. Qed.

(** ** The renderer started on a solid of C99 *)
(** The situation of C100 holds, and the surface does not reach the boundary of the root cube, if the distance function is not negative outside the box grown by 0.3 %. *)
Theorem C102_scene S B lg e s b m X : scale_ok S -> fits S e B -> build3 e = Ok s -> small (mag e) (err e) -> good_log2 lg -> solid_box b X -> (2 <= m <= 2 ^ 40)%Z ->
  1.0001 * (11 * X) <= B -> B <= S -> (forall p, ~ in_fbox b p -> 0 <= ev3 s p) ->
  exists o r k, fnew_octree lg b m = Ok (o, r, Datatypes.S k) /\ scene S B (11 * X) (mag e) (err e) (feval3 e) (ev3 s) o r k /\
    Rabs (2 * IZR m * FR r - 1.01 * longest b) <= / 100000 * longest b /\
    (forall x y z, let N := Z.of_nat (2 ^ (k - 1)) in (0 <= x <= N)%Z -> (0 <= y <= N)%Z -> (0 <= z <= N)%Z -> (x = 0 \/ x = N \/ y = 0 \/ y = N \/ z = 0 \/ z = N)%Z -> 0 <= ev3 s (grid_pos (FR3 o) (FR r) (dbl (x, y, z)))).
Proof.
  intros K Hf Hb Hs GL SB Hm HT HB Out. destruct (C102_setup lg b m X GL SB Hm) as (o & r & k & E & Hk & Sp & SU & Cs & (Bx & By & Bz)). exists o, r, k. split; [exact E|]. split; [now apply C100_solids; auto; lia|]. split; [exact Cs|].
  intros x y z N Hx Hy Hz Hbd. apply Out. intros (Ix & Iy & Iz). destruct SB as [(X1 & _) _ _ Sx Sy Sz]. pose proof (bpow_pos (-320)) as P1. pose proof (bpow_pos (-30)) as P2. assert (P3 : 0 < X * bpow (-30)) by (apply Rmult_lt_0_compat; lra).
  assert (N2 : (2 ^ Z.of_nat k = 2 * N)%Z). { unfold N. rewrite Nat2Z.inj_pow. change (Z.of_nat 2) with 2%Z. rewrite <- Z.pow_succ_r by lia. f_equal. lia. }
  rewrite N2 in Bx, By, Bz. unfold grid_pos, dbl, to_v3, FR3 in Ix, Iy, Iz. cbn [add3 scale3 x3 y3 z3 vx vy vz] in Ix, Iy, Iz. destruct Bx as (Bx1 & Bx2), By as (By1 & By2), Bz as (Bz1 & Bz2).
  destruct Hbd as [->|[->|[->|[->|[->| ->]]]]]; rewrite ?Z.mul_0_r, ?Rmult_0_r, ?Rplus_0_r in *; lra.
Qed.
(** From the bounding box to the triangles: rendering a solid with NewOctreeRenderer gives, up to rounding, a closed surface. *)
Theorem C102_closed_partial S B lg e s b m X degen : scale_ok S -> fits S e B -> build3 e = Ok s -> small (mag e) (err e) -> good_log2 lg -> solid_box b X -> (2 <= m <= 2 ^ 40)%Z ->
  1.0001 * (11 * X) <= B -> B <= S -> (forall p, ~ in_fbox b p -> 0 <= ev3 s p) ->
  exists o r k, fnew_octree lg b m = Ok (o, r, Datatypes.S k) /\
    let E := foctree_env degen (feval3 e) o r (Datatypes.S k) in
    (forall g, in_side (2 ^ Z.of_nat k) (dbl g) -> (err e + 20) * (u53 * S) < Rabs (ev3 s (grid_pos (FR3 o) (FR r) (dbl g)))) ->
    (forall v t, In v (cells (V3I 0 0 0) (2 ^ (k - 1))) -> In t (fleaf (fun _ => false) (feval3 e) o r v) -> degen t = false) ->
    forall conc st ts dst sched st' dst' n, reachable E conc st ts -> read_triangles (E := E) st dst sched = Returned st' dst' n true ->
    forall A B0, In (A, B0) (mesh_dirs (ts ++ firstn n dst')) -> exists A' B', In (B', A') (mesh_dirs (ts ++ firstn n dst')) /\ dist3 (FR3 A) (FR3 A') <= 120 * (u53 * S) /\ dist3 (FR3 B0) (FR3 B') <= 120 * (u53 * S).
Proof.
  intros K Hf Hb Hs GL SB Hm HT HB Out. destruct (C102_scene S B lg e s b m X K Hf Hb Hs GL SB Hm HT HB Out) as (o & r & k & E & SC & _ & Bd). exists o, r, k. split; [exact E|].
  intros En Mg Dg conc st ts dst sched st' dst' n Hr Hc. exact (proj2 (proj2 (proj2 (C101_closed_partial S B (11 * X) _ _ _ _ o r k SC degen conc st ts dst sched st' dst' n Hr Hc Mg Bd Dg)))).
Qed.
(** Every delivered vertex is within half a cell, 1e-12 and the evaluation error of the surface: with meshCells = m the half cell is the longest side, enlarged by 1 % (up to 10^-5 of it), over 2 m. *)
Theorem C102_vertices S B lg e s b m X degen : scale_ok S -> fits S e B -> build3 e = Ok s -> small (mag e) (err e) -> good_log2 lg -> solid_box b X -> (2 <= m <= 2 ^ 40)%Z ->
  1.0001 * (11 * X) <= B -> B <= S -> (forall p, ~ in_fbox b p -> 0 <= ev3 s p) ->
  exists o r k, fnew_octree lg b m = Ok (o, r, Datatypes.S k) /\
    let E := foctree_env degen (feval3 e) o r (Datatypes.S k) in
    forall conc st ts dst sched st' dst' n, reachable E conc st ts -> read_triangles (E := E) st dst sched = Returned st' dst' n true ->
    forall A B0 C P, In (A, B0, C) (ts ++ firstn n dst') -> P = A \/ P = B0 \/ P = C ->
    valid3 P /\ fin3 P /\ Rabs (ev3 s (FR3 P)) <= 1.0101 * longest b / (2 * IZR m) + / 1000000000000 + (err e + 100) * (u53 * S).
Proof.
  change (/ 1000000000000) with mc_epsilon.
  intros K Hf Hb Hs GL SB Hm HT HB Out. destruct (C102_scene S B lg e s b m X K Hf Hb Hs GL SB Hm HT HB Out) as (o & r & k & E & SC & Cs & _). exists o, r, k. split; [exact E|].
  intros En conc st ts dst sched st' dst' n Hr Hc A B0 C P Hin HP. destruct (C100_vertices S B (11 * X) _ _ _ _ o r k SC degen conc st ts dst sched st' dst' n A B0 C P Hr Hc Hin HP) as (V & F & D & _). change (/ 1000000000000) with mc_epsilon in D. split; [exact V|]. split; [exact F|]. eapply Rle_trans; [exact D|].
  assert (M2 : 2 <= IZR m) by (apply IZR_le; lia). assert (R1 : FR r <= 1.0101 * longest b / (2 * IZR m)); [|lra]. apply Rmult_le_reg_l with (2 * IZR m); [lra|]. replace (2 * IZR m * (1.0101 * longest b / (2 * IZR m))) with (1.0101 * longest b) by (field; lra).
  destruct SB as [(X1 & _) _ _ Sx _ _]. pose proof (bpow_pos (-320)) as P1. assert (P3 : 0 < X * bpow (-30)) by (apply Rmult_lt_0_compat; [lra|apply bpow_pos]). assert (0 < longest b) by (unfold longest; eapply Rlt_le_trans; [exact P3|]; eapply Rle_trans; [exact Sx|]; eapply Rle_trans; [apply Rmax_l|apply Rmax_r]).
  apply Rabs_iff in Cs. lra.
Qed.

(** ** Example *)
(** a logarithm as required: the exact one truncated to 46 binary places *)
Definition trunc_log2 (x : spec_float) : spec_float := binary_normalize 53 1024 (Int_part (log2R (FR x) * bpow 46)) (-46) false.
Lemma trunc_log2_good : good_log2 trunc_log2.
Proof.
  assert (E46 : bpow 46 * bpow (-46) = 1) by (rewrite <- bpow_add; reflexivity). pose proof (bpow_pos 46) as P46. pose proof (bpow_pos (-46)) as Pm.
  assert (Rp : forall z, (0 <= z <= 60 * 2 ^ 46)%Z -> num (binary_normalize 53 1024 z (-46) false) /\ FR (binary_normalize 53 1024 z (-46) false) = IZR z * bpow (-46)).
  { intros z Hz. destruct (normalize_spec z (-46) ltac:(lia)) as (C & _ & _ & _ & Z0). apply (exact_of _ _ C). destruct (Z.eq_dec z 0) as [->|Hn]; [exists fzero; split; [split; reflexivity|cbn [FR]; now rewrite Rmult_0_l]|].
    apply repr_int; [split; [lia|]; apply Z.le_lt_trans with (60 * 2 ^ 46)%Z; [lia|reflexivity]|lia]. }
  split.
  - intros x Nx (H1 & H2). assert (L0 : 0 <= log2R (FR x)) by (change 0 with (IZR 0); rewrite <- (log2_bpow 0) by lia; apply log2_le; [apply bpow_pos|unfold bpow; cbn [powerRZ]; lra]). assert (L1 : log2R (FR x) <= 60) by (rewrite <- (log2_bpow 60) by lia; apply log2_le; lra).
    unfold trunc_log2. set (t := log2R (FR x)) in *. set (z := Int_part (t * bpow 46)). destruct (base_Int_part (t * bpow 46)) as (I1 & I2). fold z in I1, I2. assert (T0 : 0 <= t * bpow 46 <= 60 * bpow 46) by nra.
    assert (Hz : (0 <= z <= 60 * 2 ^ 46)%Z). { split; [assert (-1 < z)%Z; [apply lt_IZR; lra|lia]|]. apply le_IZR. rewrite mult_IZR, <- bpow_Z by lia. lra. }
    destruct (Rp z Hz) as (Nz & Ez). split; [exact Nz|]. rewrite Ez. assert (Q : IZR z * bpow (-46) - t = (IZR z - t * bpow 46) * bpow (-46)) by (rewrite Rmult_minus_distr_r, Rmult_assoc, E46; ring). rewrite Q.
    rewrite Rabs_mult, (Rabs_right (bpow (-46))) by lra. apply Rle_trans with (1 * bpow (-46)); [apply Rmult_le_compat_r; [lra|]; apply Rabs_iff; lra|]. rewrite Rmult_1_l. apply bpow_le. lia.
  - intros x j Nx Hj Ex. unfold trunc_log2. rewrite Ex, log2_bpow by lia. replace (Int_part (IZR j * bpow 46)) with (j * 2 ^ 46)%Z.
    + destruct (Rp (j * 2 ^ 46)%Z) as (Nz & Ez); [nia|]. split; [exact Nz|]. rewrite Ez, mult_IZR, <- bpow_Z by lia. rewrite Rmult_assoc, E46. ring.
    + symmetry. rewrite bpow_Z, <- mult_IZR by lia. set (q := (j * 2 ^ 46)%Z). destruct (base_Int_part (IZR q)) as (I1 & I2). assert (Int_part (IZR q) <= q)%Z by (now apply le_IZR). assert (q - 1 < Int_part (IZR q))%Z by (apply lt_IZR; rewrite minus_IZR; lra). lia.
Qed.
(** the plate with a bore: 20 x 20 x 2, bore of radius 3 *)
Definition plate : part := TDiff (TBox (FV3 k20 k20 k2) fzero) (TCylinder k5 k3 fzero).
Definition k10 : spec_float := S754_finite false 5629499534213120 (-49).
Definition plate_box : fv3 * fv3 := (FV3 (SFopp k10) (SFopp k10) (SFopp f1), FV3 k10 k10 f1).
Lemma k10_ok : num k10 /\ FR k10 = 10.
Proof. split; [split; reflexivity|]. unfold FR, k10. change (-49)%Z with (- (49))%Z. rewrite bpow_opp, bpow_Z by lia. change (2 ^ 49)%Z with 562949953421312%Z. lra. Qed.
Lemma plate_ok : exists s, scale_ok 1000 /\ fits 1000 plate 120 /\ build3 plate = Ok s /\ (forall p, sdf_box3d p (V3 10 10 1) <= ev3 s p) /\ solid_box plate_box 10 /\
  small (mag plate) (err plate) /\ err plate = 130 /\ longest plate_box = 20.
Proof.
  destruct k_ok as ((N1 & R1) & (N2 & R2) & (N3 & R3) & (N5 & R5) & (N20 & R20) & (N0 & R0)).
  destruct k10_ok as ((F10 & V10) & R10).
  assert (K : scale_ok 1000) by (apply scale_small; lra). pose proof u53_small as U.
  assert (A : forall x c, FR x = c -> 0 <= c <= 1000 -> Rabs (FR x) <= 1000) by (intros x c -> H; rewrite Rabs_right; lra).
  assert (Ft : fits 1000 plate 120).
  { unfold plate. cbn [fits]. destruct N20 as (f20 & v20), N2 as (f2 & v2'). split; [split; [lra|]; split; [|split; [exact N0|apply (A _ 0); auto; lra]]|].
    - split; [repeat split; assumption|]. split; [repeat split; assumption|]. cbn [f3x f3y f3z]. split; [apply (A _ 20); auto; lra|]. split; [apply (A _ 20); auto; lra|apply (A _ 2); auto; lra].
    - split; [lra|]. split; [exact N5|]. split; [exact N3|]. split; [exact N0|]. split; [apply (A _ 5); auto; lra|]. split; [apply (A _ 3); auto; lra|apply (A _ 0); auto; lra]. }
  assert (Bd : exists s, build3 plate = Ok s /\ forall p, sdf_box3d p (V3 10 10 1) <= ev3 s p).
  { unfold plate. cbn [build3]. unfold must_box3, must_cylinder, lte_zero3. cbn [FR3 f3x f3y f3z x3 y3 z3]. rewrite R20, R2, R3, R5, R0.
    repeat match goal with |- context [Rleb ?a ?b] => replace (Rleb a b) with false by (symmetry; apply Rleb_false; lra) end.
    repeat match goal with |- context [Rltb ?a ?b] => replace (Rltb a b) with false by (symmetry; apply Rltb_false; lra) end. cbn [orb andb bind difference3d difference3d_max]. eexists. split; [reflexivity|]. intros p. cbn [ev3 diff3_max].
    eapply Rle_trans; [|apply Rmax_l]. apply Req_le. rewrite Rminus_0_r. f_equal. apply v3_ext; unfold sub3, scale3, elem3; cbn [x3 y3 z3 FR3 f3x f3y f3z]; rewrite ?R20, ?R2; lra. }
  destruct Bd as (s & Eb & Ge).
  assert (SB : solid_box plate_box 10).
  { assert (P30 : bpow (-30) <= / 1000) by (apply Rle_trans with (bpow (-10)); [apply bpow_le; lia|]; change (-10)%Z with (- (10))%Z; rewrite bpow_opp, bpow_Z by lia; change (2 ^ 10)%Z with 1024%Z; lra).
    assert (A1 : at3 10 (snd plate_box)) by (unfold plate_box; cbn [snd]; destruct N1 as (f1' & v1'); split; [repeat split; assumption|]; split; [repeat split; assumption|]; cbn [f3x f3y f3z]; rewrite R10, R1; repeat split; apply Rabs_iff; lra).
    assert (A0 : at3 10 (fst plate_box)) by (unfold plate_box; cbn [fst]; destruct N1 as (f1' & v1'); split; [repeat split; apply opp_valid; assumption|]; split; [repeat split; rewrite fin_opp; assumption|]; cbn [f3x f3y f3z]; rewrite !FR_opp, R10, R1; repeat split; apply Rabs_iff; lra).
    constructor; [split; [apply Rle_trans with (bpow 0); [apply bpow_le; lia|unfold bpow; cbn [powerRZ]; lra]|apply Rle_trans with (bpow 4); [rewrite bpow_Z by lia; change (2 ^ 4)%Z with 16%Z; lra|apply bpow_le; lia]]|exact A0|exact A1| | |];
      unfold plate_box; cbn [fst snd f3x f3y f3z]; rewrite FR_opp, ?R10, ?R1; lra. }
  assert (Er : mag plate = 9 /\ err plate = 130) by (unfold plate; cbn [mag err]; unfold Rmax; split; repeat destruct Rle_dec; lra). destruct Er as (Em & Er).
  assert (Sm : small (mag plate) (err plate)) by (rewrite Em, Er; unfold small; lra).
  assert (Lg : longest plate_box = 20) by (unfold longest, plate_box; cbn [fst snd f3x f3y f3z]; rewrite !FR_opp, R10, R1; unfold Rmax; repeat destruct Rle_dec; lra).
  exists s. exact (conj K (conj Ft (conj Eb (conj Ge (conj SB (conj Sm (conj Er Lg))))))).
Qed.
Example C102_example : exists s o r k, build3 plate = Ok s /\ fnew_octree trunc_log2 plate_box 100 = Ok (o, r, Datatypes.S k) /\ k = 8%nat /\ Rabs (FR r - 0.101) <= 0.00001 /\
  forall conc st ts dst sched st' dst' n, let E := foctree_env (fun _ => false) (feval3 plate) o r (Datatypes.S k) in
  reachable E conc st ts -> read_triangles (E := E) st dst sched = Returned st' dst' n true ->
  forall A B0 C P, In (A, B0, C) (ts ++ firstn n dst') -> P = A \/ P = B0 \/ P = C -> Rabs (ev3 s (FR3 P)) <= 0.102.
Proof.
  destruct plate_ok as (s & K & Ft & Eb & Ge & SB & Sm & Er & Lg). destruct k_ok as ((N1 & R1) & _). destruct k10_ok as ((F10 & V10) & R10). pose proof u53_small as U.
  assert (Out : forall p, ~ in_fbox plate_box p -> 0 <= ev3 s p).
  { intros p Hp. eapply Rle_trans; [|apply Ge]. destruct (sdf_box3d_ge p (V3 10 10 1)) as (Gx & Gy & Gz). cbn [x3 y3 z3] in Gx, Gy, Gz. apply Rnot_lt_le. intros Neg. apply Hp. unfold in_fbox, plate_box. cbv zeta. cbn [fst snd f3x f3y f3z]. rewrite !FR_opp, R10, R1.
    assert (Ax : Rabs (x3 p) <= 10) by lra. assert (Ay : Rabs (y3 p) <= 10) by lra. assert (Az : Rabs (z3 p) <= 1) by lra. apply Rabs_iff in Ax, Ay, Az. lra. }
  destruct (C102_setup trunc_log2 plate_box 100 10 trunc_log2_good SB ltac:(split; [lia|discriminate])) as (o & r & k & E & Hk & Sp & SU & Cs & _). rewrite Lg in Cs. apply Rabs_iff in Cs.
  assert (k8 : k = 8%nat).
  { destruct (Nat.lt_trichotomy k 8) as [H|[H|H]]; [|exact H|]; exfalso.
    - assert (2 ^ Z.of_nat k <= 2 ^ 7)%Z by (apply Z.pow_le_mono_r; lia). change (2 ^ 7)%Z with 128%Z in *. lia.
    - assert (2 ^ 8 <= 2 ^ (Z.of_nat k - 1))%Z by (apply Z.pow_le_mono_r; lia). change (2 ^ 8)%Z with 256%Z in *. lia. }
  exists s, o, r, k. split; [exact Eb|]. split; [exact E|]. split; [exact k8|]. split; [apply Rabs_iff; lra|].
  destruct (C102_vertices 1000 120 trunc_log2 plate s plate_box 100 10 (fun _ => false) K Ft Eb Sm trunc_log2_good SB ltac:(split; [lia|discriminate]) ltac:(lra) ltac:(lra) Out) as (o' & r' & k' & E' & H). rewrite E in E'. injection E' as <- <- <-.
  intros conc st ts dst sched st' dst' n En Hr Hc A' B0 C P Hin HP. destruct (H conc st ts dst sched st' dst' n Hr Hc A' B0 C P Hin HP) as (_ & _ & D). eapply Rle_trans; [exact D|]. rewrite Lg, Er. unfold mc_epsilon. lra.
Qed.
