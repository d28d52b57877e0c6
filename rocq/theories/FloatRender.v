(** How far the renderer's float64 geometry can be from exact geometry: grid points, half diagonals, interpolated vertices. *)
From Coq Require Import List Bool ZArith Lia Floats.SpecFloat Reals Lra Psatz.
From Verif Require Import Prelude Vec BoxModel MatrixModel SdfModel PrimModel Distance PropsMatrix PropsTransform PropsLip SdfLemmas FloatBoolModel FloatRound FloatShapeModel FloatNear PropsFloatSign FloatTrack FloatInv FloatRules FloatCopies
  OctreeModel OctreeSpec OctreeGrid OctreeR McModel McSpec McRealModel PropsSampling PropsMc PropsSurface FloatRenderModel.
Import ListNotations.
Local Open Scope R_scope.
Local Notation fadd := FloatRound.fadd.
Local Notation fsub := FloatRound.fsub.
Local Notation fmul := FloatRound.fmul.
Local Notation fdiv := FloatRound.fdiv.

Lemma fofZ_near_Z z : (0 <= z < 2 ^ 63)%Z -> fnear (fofZ z) (IZR z) (u53 * IZR z).
Proof. intros H. pose proof (fofZ_near (Z.to_nat z)) as G. rewrite INR_IZR_INZ, Z2Nat.id in G by lia. apply G. lia. Qed.

(** one coordinate of a grid point *)
Lemma coord_near z o r n T : (0 <= z <= n)%Z -> (n < 2 ^ 63)%Z -> num o -> num r -> 0 < FR r -> Rabs (FR o) + FR r * IZR n <= T -> scale_ok T ->
  fnear (fadd o (fmul r (fofZ z))) (FR o + FR r * IZR z) (7 * (u53 * T)).
Proof.
  intros Hz Hn (Fo & Vo) (Fr & Vr) R0 A K. destruct (scale_facts T K) as (S0 & W0 & Et & M & Sm). pose proof u53_pos as U0. pose proof u53_small as U1.
  pose proof (fofZ_near_Z z ltac:(lia)) as N. assert (P : 0 <= IZR z <= IZR n) by (split; apply IZR_le; lia). pose proof (Rabs_pos (FR o)) as Po.
  set (q := FR r * IZR z). assert (Q : 0 <= q <= FR r * IZR n) by (unfold q; split; [nra|apply Rmult_le_compat_l; lra]).
  assert (Uq : 0 <= u53 * q <= u53 * T) by (split; [nra|apply Rmult_le_compat_l; lra]).
  assert (Nm : fnear (fmul r (fofZ z)) q (4 * (u53 * T))).
  { eapply near_weak; [apply (near_mul _ _ _ _ _ _ (2 * T) (near_exact r Fr Vr) N)|].
    - rewrite (Rabs_right (FR r)) by lra. rewrite (Rabs_right (FR r * IZR z)) by (apply Rle_ge; apply Q). fold q. replace (FR r * (u53 * IZR z)) with (u53 * q) by (unfold q; ring). rewrite !Rmult_0_l. lra.
    - lra.
    - rewrite (Rabs_right (FR r)) by lra. replace (FR r * (u53 * IZR z)) with (u53 * q) by (unfold q; ring). rewrite !Rmult_0_l. lra. }
  eapply near_weak; [apply (near_add _ _ _ _ _ _ (2 * T) (near_exact o Fo Vo) Nm)|]; [|lra|lra].
  pose proof (Rabs_triang (FR o) q). rewrite (Rabs_right q) in H by lra. lra.
Qed.

(** grid points of the root cube of side [n] *)
Definition in_side (n : Z) (v : v3i) : Prop := (0 <= vx v <= n)%Z /\ (0 <= vy v <= n)%Z /\ (0 <= vz v <= n)%Z.
(** the origin and the resolution are finite float64 numbers and the root cube lies within [T] of the coordinate origin *)
Record setup (o : fv3) (r : spec_float) (n : Z) (T : R) : Prop := {
  su_v : valid3 o; su_f : fin3 o; su_r : num r; su_pos : scale_ok (FR r); su_n : (0 < n < 2 ^ 63)%Z; su_T : scale_ok T;
  su_in : norm3 (FR3 o) + 2 * FR r * IZR n <= T }.
Lemma norm3_tri a b : norm3 (add3 a b) <= norm3 a + norm3 b.
Proof.
  pose proof (dist3_triangle (add3 a b) a zero3) as H. unfold dist3 in H. replace (sub3 (add3 a b) zero3) with (add3 a b) in H by (apply v3_ext; cbn; ring). replace (sub3 (add3 a b) a) with b in H by (apply v3_ext; cbn; ring). replace (sub3 a zero3) with a in H by (apply v3_ext; cbn; ring). lra.
Qed.
Lemma res_pos o r n T : setup o r n T -> 0 < FR r /\ FR r * IZR n <= T / 2 /\ norm3 (FR3 o) <= T.
Proof.
  intros [_ _ _ P N K I]. destruct (scale_facts _ P) as (P0 & _). pose proof (norm3_pos' (FR3 o)) as Q. assert (0 < IZR n) by (apply IZR_lt; lia).
  split; [exact P0|]. split; [lra|]. nra.
Qed.
Lemma ideal_norm o r n T v : setup o r n T -> in_side n v -> norm3 (grid_pos (FR3 o) (FR r) v) <= T.
Proof.
  intros H (X & Y & Z0). destruct (res_pos _ _ _ _ H) as (R0 & _ & _). destruct H as [_ _ _ _ N _ I]. unfold grid_pos. eapply Rle_trans; [apply norm3_tri|].
  rewrite norm3_scale, Rabs_right by lra. assert (Q : norm3 (to_v3 v) <= 2 * IZR n).
  { apply norm3_bound; unfold to_v3; cbn [x3 y3 z3]; rewrite Rabs_right; try (apply IZR_le; lia); apply Rle_ge, IZR_le; lia. }
  assert (FR r * norm3 (to_v3 v) <= FR r * (2 * IZR n)) by (apply Rmult_le_compat_l; lra). lra.
Qed.
Lemma grid_near o r n T v : setup o r n T -> in_side n v -> let p := fgrid_pos o r v in
  dist3 (FR3 p) (grid_pos (FR3 o) (FR r) v) <= 14 * (u53 * T) /\ ball3 (1.0001 * T) p.
Proof.
  intros H Iv p. pose proof (ideal_norm _ _ _ _ v H Iv) as Q. destruct Iv as (X & Y & Z0). destruct (res_pos _ _ _ _ H) as (R0 & R1 & R2). destruct H as [(V1 & V2 & V3') (F1 & F2 & F3) Nr _ N K I].
  destruct (scale_facts T K) as (S0 & W0 & Et & M & Sm). destruct (comp_le (FR3 o)) as (C1 & C2 & C3). unfold FR3 in C1, C2, C3. cbn [x3 y3 z3] in C1, C2, C3. fold (FR3 o) in C1, C2, C3.
  assert (N1 : 0 < IZR n) by (apply IZR_lt; lia). assert (Rn : 0 < FR r * IZR n) by nra.
  pose proof (coord_near (vx v) (f3x o) r n T X ltac:(lia) (conj F1 V1) Nr R0 ltac:(lra) K) as (A1 & B1 & D1).
  pose proof (coord_near (vy v) (f3y o) r n T Y ltac:(lia) (conj F2 V2) Nr R0 ltac:(lra) K) as (A2 & B2 & D2).
  pose proof (coord_near (vz v) (f3z o) r n T Z0 ltac:(lia) (conj F3 V3') Nr R0 ltac:(lra) K) as (A3 & B3 & D3).
  assert (D : dist3 (FR3 p) (grid_pos (FR3 o) (FR r) v) <= 2 * (7 * (u53 * T))) by (apply dist3_dev; assumption).
  split; [lra|]. split; [repeat split; assumption|]. split; [repeat split; assumption|].
  pose proof (norm_near _ _ _ D). lra.
Qed.

(** the table of half diagonals *)
Lemma sqrt_dev a b s E : 0 <= a -> 0 < s -> s * s <= b -> Rabs (a - b) <= E * s -> Rabs (sqrt a - sqrt b) <= E.
Proof.
  intros A S0 B D. assert (B0 : s <= sqrt b) by (rewrite <- (sqrt_square s) by lra; apply sqrt_le_1_alt; lra). pose proof (sqrt_pos a) as A0.
  assert (Q1 : sqrt a * sqrt a = a) by (now apply sqrt_sqrt). assert (Q2 : sqrt b * sqrt b = b) by (apply sqrt_sqrt; nra). set (x := sqrt a) in *. set (y := sqrt b) in *. clearbody x y. subst a b.
  replace (x * x - y * y) with ((x - y) * (x + y)) in D by ring. rewrite Rabs_mult, (Rabs_right (x + y)) in D by lra. pose proof (Rabs_pos (x - y)). apply Rmult_le_reg_r with s; [lra|]. nra.
Qed.
Lemma fthree_ok : num fthree /\ FR fthree = 3.
Proof.
  split; [split; reflexivity|]. unfold fthree, FR. change (-51)%Z with (- (51))%Z. rewrite bpow_opp, bpow_Z by lia. change (2 ^ 51)%Z with 2251799813685248%Z. lra.
Qed.
Lemma fhalf_num : num fhalf.
Proof. split; reflexivity. Qed.
Lemma pow_IZR' i : 2 ^ i = IZR (2 ^ Z.of_nat i).
Proof. now rewrite pow_IZR. Qed.
Lemma hdiag_near o r n T i : setup o r n T -> (2 ^ Z.of_nat i <= n)%Z -> fnear (fhdiag r i) (hdiag (FR r) i) (6 * (u53 * T)).
Proof.
  intros H Hi. destruct (res_pos _ _ _ _ H) as (R0 & R1 & _). destruct H as [_ _ (Fr & Vr) Kr N K I]. destruct (scale_facts T K) as (S0 & W0 & Et & M & Sm). pose proof u53_pos as U0. pose proof u53_small as U1. pose proof eta_pos as H0.
  assert (P2 : (0 < 2 ^ Z.of_nat i)%Z) by (apply Z.pow_pos_nonneg; lia). set (z := (2 ^ Z.of_nat i)%Z) in *. pose proof (fofZ_near_Z z ltac:(lia)) as Nz.
  assert (Z1 : 1 <= IZR z <= IZR n) by (split; apply IZR_le; lia). set (s := IZR z * FR r). assert (S1 : FR r <= s <= T / 2) by (unfold s; split; [nra|]; assert (IZR z * FR r <= FR r * IZR n) by nra; lra).
  assert (Ks : eta <= u53 * u53 * s /\ eta <= u53 * u53 * (s * s)).
  { destruct Kr as (Kr & _). pose proof (bpow_pos (-400)) as B0. assert (Q : bpow (-400) <= s) by lra. unfold eta, u53. rewrite <- bpow_add. split.
    - apply Rle_trans with (bpow (-53 + -53) * bpow (-400)); [rewrite <- bpow_add; apply bpow_le; lia|]. apply Rmult_le_compat_l; [left; apply bpow_pos|lra].
    - apply Rle_trans with (bpow (-53 + -53) * (bpow (-400) * bpow (-400))); [rewrite <- !bpow_add; apply bpow_le; lia|]. apply Rmult_le_compat_l; [left; apply bpow_pos|]. apply Rmult_le_compat; lra. }
  assert (Big : 100 * (s * s) <= fmaxR).
  { destruct K as (_ & K). set (c := bpow 400) in *. apply Rle_trans with (100 * (c * c)); [assert (s * s <= c * c) by (apply Rmult_le_compat; lra); lra|]. subst c. rewrite <- bpow_add. apply Rle_trans with (bpow 900).
    - replace (bpow 900) with (bpow 100 * bpow (400 + 400)) by (rewrite <- bpow_add; reflexivity). apply Rmult_le_compat_r; [left; apply bpow_pos|]. rewrite bpow_Z by lia. apply IZR_le. cbn. lia.
    - unfold fmaxR. pose proof (bpow_le 971 1023 ltac:(lia)). pose proof (bpow_le 900 1023 ltac:(lia)). replace (bpow 1024) with (2 * bpow 1023) by (change 1024%Z with (1 + 1023)%Z; rewrite bpow_add, bpow_1; ring). lra. }
  destruct Ks as (Ks1 & Ks2). set (us := u53 * s). assert (Us : 0 < us <= u53 * T / 2) by (unfold us; split; [nra|]; assert (u53 * s <= u53 * (T / 2)) by (apply Rmult_le_compat_l; lra); lra).
  assert (Uu : u53 * us <= / 1000000000000000 * us) by (apply Rmult_le_compat_r; lra). assert (Ks1' : eta <= u53 * us) by (unfold us; lra).
  assert (R3 : Rabs 3 = 3) by (apply Rabs_right; lra). assert (Rs : Rabs s = s) by (apply Rabs_right; lra).
  assert (N1 : fnear (fmul (fofZ z) r) s (3 * us)).
  { eapply near_weak; [apply (near_mul _ _ _ _ _ _ (1.5 * s) Nz (near_exact r Fr Vr))|].
    - rewrite (Rabs_right (FR r)) by lra. fold s. rewrite Rs. replace (u53 * IZR z * FR r) with us by (unfold us, s; ring). rewrite !Rmult_0_r. unfold us. nra.
    - lra.
    - rewrite (Rabs_right (FR r)) by lra. replace (u53 * IZR z * FR r) with us by (unfold us, s; ring). rewrite !Rmult_0_r. replace (u53 * (1.5 * s)) with (1.5 * us) by (unfold us; ring). lra. }
  assert (Lus : us <= / 1000000000000000 * s) by (unfold us; apply Rmult_le_compat_r; lra).
  destruct fthree_ok as ((F3 & W3) & E3).
  assert (N2 : fnear (fmul fthree (fmul (fofZ z) r)) (3 * s) (13 * us)).
  { pose proof (near_exact fthree F3 W3) as X. rewrite E3 in X. eapply near_weak; [apply (near_mul _ _ _ _ _ _ (3.5 * s) X N1)|].
    - rewrite Rabs_mult, R3, Rs, !Rmult_0_l. lra.
    - lra.
    - rewrite R3, !Rmult_0_l. replace (u53 * (3.5 * s)) with (3.5 * us) by (unfold us; ring). lra. }
  set (q := us * s). assert (Q : 0 < q) by (unfold q; apply Rmult_lt_0_compat; lra).
  assert (Lq : us * us <= / 1000000000000000 * q) by (unfold q; replace (/ 1000000000000000 * (us * s)) with (us * (/ 1000000000000000 * s)) by ring; apply Rmult_le_compat_l; lra).
  assert (Lq2 : q <= / 1000000000000000 * (s * s)) by (unfold q; rewrite <- Rmult_assoc; apply Rmult_le_compat_r; lra).
  assert (Kq : eta <= / 1000000000000000 * q) by (eapply Rle_trans; [exact Ks2|]; unfold q, us; replace (u53 * u53 * (s * s)) with (u53 * (u53 * s * s)) by ring; apply Rmult_le_compat_r; [|lra]; fold us q; lra).
  assert (N3 : fnear (fmul (fmul fthree (fmul (fofZ z) r)) (fmul (fofZ z) r)) (3 * s * s) (27 * q)).
  { eapply near_weak; [apply (near_mul _ _ _ _ _ _ (4 * (s * s)) N2 N1)|].
    - rewrite !Rabs_mult, R3, Rs. replace (13 * us * s + 3 * s * (3 * us) + 13 * us * (3 * us)) with (22 * q + 39 * (us * us)) by (unfold q; ring). nra.
    - lra.
    - rewrite Rabs_mult, R3, Rs. replace (13 * us * s + 3 * s * (3 * us) + 13 * us * (3 * us) + u53 * (4 * (s * s)) + eta) with (26 * q + 39 * (us * us) + eta) by (unfold q, us; ring). lra. }
  unfold fhdiag. fold z. cbv zeta. set (x := fmul (fmul fthree (fmul (fofZ z) r)) (fmul (fofZ z) r)) in *. pose proof N3 as (Fx & Vx & Dx). clearbody x. assert (X0 : 0 <= FR x) by (apply Rabs_iff in Dx; nra).
  pose proof (fsqrt_spec x Fx Vx X0) as Sq.
  assert (D4 : Rabs (sqrt (FR x) - sqrt (3 * s * s)) <= 16 * us).
  { apply (sqrt_dev _ _ (1.7 * s)); [exact X0|lra|nra|]. eapply Rle_trans; [exact Dx|]. unfold q. nra. }
  assert (Sb : 0 <= sqrt (3 * s * s) <= 1.74 * s) by (split; [apply sqrt_pos|rewrite <- (sqrt_square (1.74 * s)) by lra; apply sqrt_le_1_alt; nra]).
  assert (N4 : fnear (fsqrt x) (sqrt (3 * s * s)) (18 * us)).
  { eapply near_weak; [apply (correct_near _ _ _ (16 * us) (1.8 * s) Sq D4)|]; [rewrite Rabs_right by lra; lra|lra|]. replace (u53 * (1.8 * s)) with (1.8 * us) by (unfold us; ring). lra. }
  destruct fhalf_num as (Fh & Vh). pose proof (near_exact fhalf Fh Vh) as Xh. rewrite FR_half in Xh.
  assert (E : hdiag (FR r) i = / 2 * sqrt (3 * s * s)).
  { unfold hdiag. replace (2 ^ i * FR r) with s by (unfold s, z; now rewrite pow_IZR'). lra. }
  rewrite E. eapply near_weak; [apply (near_mul _ _ _ _ _ _ s Xh N4)|].
  - rewrite Rabs_mult, (Rabs_right (/ 2)), (Rabs_right (sqrt _)) by lra. rewrite !Rmult_0_l. lra.
  - lra.
  - rewrite (Rabs_right (/ 2)), (Rabs_right (sqrt _)) by lra. rewrite !Rmult_0_l. fold us. lra.
Qed.

(** ** Pruning *)
(** the points of a cube *)
Definition in_real_cube (o : v3) (r : R) (c : cube) (q : v3) : Prop :=
  let s := IZR (2 ^ Z.of_nat (c_lev c)) in
  (x3 o + r * IZR (vx (c_org c)) <= x3 q <= x3 o + r * (IZR (vx (c_org c)) + s)) /\
  (y3 o + r * IZR (vy (c_org c)) <= y3 q <= y3 o + r * (IZR (vy (c_org c)) + s)) /\
  (z3 o + r * IZR (vz (c_org c)) <= z3 q <= z3 o + r * (IZR (vz (c_org c)) + s)).
Lemma center_far o r c q : 0 < r -> (1 <= c_lev c)%nat -> in_real_cube o r c q -> dist3 (grid_pos o r (cube_center c)) q <= hdiag r (c_lev c).
Proof.
  intros Hr Hl (Hx & Hy & Hz). rewrite hdiag_pow by auto. set (h := (2 ^ Z.of_nat (c_lev c - 1))%Z) in *.
  assert (Hh : (2 ^ Z.of_nat (c_lev c) = 2 * h)%Z) by (unfold h; rewrite <- Z.pow_succ_r by lia; f_equal; lia). rewrite Hh, mult_IZR in Hx, Hy, Hz.
  assert (Hhr : 0 < IZR h) by (apply IZR_lt; apply Z.pow_pos_nonneg; lia). assert (Hs3 : sqrt 3 * sqrt 3 = 3) by (apply sqrt_sqrt; lra). pose proof (sqrt_pos 3).
  unfold dist3. apply sqrt_le_of; [apply Rmult_le_pos; [apply Rmult_le_pos; lra|lra]|].
  replace (r * sqrt 3 * IZR h * (r * sqrt 3 * IZR h)) with (sqrt 3 * sqrt 3 * ((r * IZR h) * (r * IZR h))) by ring. rewrite Hs3.
  unfold norm3sq, dot3, grid_pos, cube_center, to_v3. cbn [add3 scale3 sub3 x3 y3 z3 vx vy vz v3i_add]. fold h. rewrite !plus_IZR.
  assert (G : forall a u w, a + r * u <= w <= a + r * (u + 2 * IZR h) -> (a + r * (u + IZR h) - w) * (a + r * (u + IZR h) - w) <= (r * IZR h) * (r * IZR h)).
  { intros a u w (H1 & H2). set (k := r * IZR h) in *. replace (r * (u + IZR h)) with (r * u + k) by (unfold k; ring). replace (r * (u + 2 * IZR h)) with (r * u + 2 * k) in H2 by (unfold k; ring). nra. }
  pose proof (G _ _ _ Hx). pose proof (G _ _ _ Hy). pose proof (G _ _ _ Hz). lra.
Qed.
(** a cube inside the root cube of side [n] *)
Definition in_root (n : Z) (c : cube) : Prop := (1 <= c_lev c)%nat /\
  let s := (2 ^ Z.of_nat (c_lev c))%Z in
  (0 <= vx (c_org c) /\ vx (c_org c) + s <= n)%Z /\ (0 <= vy (c_org c) /\ vy (c_org c) + s <= n)%Z /\ (0 <= vz (c_org c) /\ vz (c_org c) + s <= n)%Z.
Lemma center_side n c : in_root n c -> in_side n (cube_center c) /\ (2 ^ Z.of_nat (c_lev c) <= n)%Z.
Proof.
  intros (L & X & Y & Z0). unfold in_side, cube_center. cbn [v3i_add vx vy vz]. assert (Hh : (2 ^ Z.of_nat (c_lev c) = 2 * 2 ^ Z.of_nat (c_lev c - 1))%Z) by (rewrite <- Z.pow_succ_r by lia; f_equal; lia).
  assert (0 < 2 ^ Z.of_nat (c_lev c - 1))%Z by (apply Z.pow_pos_nonneg; lia). rewrite Hh in *. lia.
Qed.
Lemma ancestor_root k v l : (1 <= l)%nat -> (l <= k)%nat -> In v (cells (V3I 0 0 0) (2 ^ (k - 1))) -> in_root (2 ^ Z.of_nat k) (ancestor v l).
Proof.
  intros H1 H2 H. unfold cells in H. apply in_flat_map in H as (x & Hx & H). apply in_flat_map in H as (y & Hy & H). apply in_map_iff in H as (z & <- & Hz). cbn [vx vy vz] in *.
  assert (G : forall u, In u (evens 0 (2 ^ (k - 1))) -> (0 <= u / 2 ^ Z.of_nat l * 2 ^ Z.of_nat l /\ u / 2 ^ Z.of_nat l * 2 ^ Z.of_nat l + 2 ^ Z.of_nat l <= 2 ^ Z.of_nat k)%Z).
  { intros u Hu. apply In_evens in Hu as (i & Hi & ->). assert (P : (0 < 2 ^ Z.of_nat l)%Z) by (apply Z.pow_pos_nonneg; lia). rewrite Z.add_0_l. set (w := (2 * Z.of_nat i)%Z).
    assert (W : (0 <= w < 2 ^ Z.of_nat k)%Z). { unfold w. split; [lia|]. replace (Z.of_nat k) with (Z.succ (Z.of_nat (k - 1))) by lia. rewrite Z.pow_succ_r by lia. apply Nat2Z.inj_lt in Hi. rewrite Nat2Z.inj_pow in Hi. change (Z.of_nat 2) with 2%Z in Hi. lia. }
    assert (Ek : (2 ^ Z.of_nat k = 2 ^ Z.of_nat l * 2 ^ Z.of_nat (k - l))%Z) by (rewrite <- Z.pow_add_r by lia; f_equal; lia). split; [apply Z.mul_nonneg_nonneg; [apply Z.div_pos; lia|lia]|].
    assert (D : (w / 2 ^ Z.of_nat l < 2 ^ Z.of_nat (k - l))%Z) by (apply Z.div_lt_upper_bound; lia). rewrite Ek. nia. }
  unfold in_root, ancestor. cbn [c_lev c_org vx vy vz]. repeat split; auto; now apply G.
Qed.
(** a cell's points are points of the cubes around it *)
Lemma cell_in_ancestor o r v l q : 0 < r -> (1 <= l)%nat -> is_cell v -> in_real_cube o r (Cube v 1) q -> in_real_cube o r (ancestor v l) q.
Proof.
  intros Hr Hl (X & Y & Z0) (Qx & Qy & Qz). unfold in_real_cube, ancestor. cbn [c_lev c_org vx vy vz] in *. change (2 ^ Z.of_nat 1)%Z with 2%Z in *.
  assert (G : forall z a w, (z mod 2 = 0)%Z -> a + r * IZR z <= w <= a + r * (IZR z + 2) -> a + r * IZR (z / 2 ^ Z.of_nat l * 2 ^ Z.of_nat l) <= w <= a + r * (IZR (z / 2 ^ Z.of_nat l * 2 ^ Z.of_nat l) + IZR (2 ^ Z.of_nat l))).
  { intros z a w E (H1 & H2). pose proof (even_in_block z l Hl E) as (B1 & B2). apply IZR_le in B1, B2. rewrite !plus_IZR in B2. set (u := IZR (z / 2 ^ Z.of_nat l * 2 ^ Z.of_nat l)) in *. set (k := IZR (2 ^ Z.of_nat l)) in *. clearbody u k. split; nra. }
  split; [|split]; apply G; assumption.
Qed.

Section Render.
  Context (S B T V W : R) (F : fv3 -> spec_float) (f : v3 -> R) (o : fv3) (r : spec_float) (n : Z).
  Context (K : scale_ok S) (L : lip3 f) (TR : tracks3 S B F f V W) (SU : setup o r n T) (BT : 1.0001 * T <= B) (BS : B <= S).
  Local Notation w := (u53 * S).
  Local Notation O := (FR3 o).
  Local Notation rr := (FR r).

  Lemma wT : 0 < u53 * T <= w.
  Proof. destruct SU as [_ _ _ _ _ KT _]. destruct (scale_facts T KT) as (T0 & W0 & _). split; [exact W0|]. pose proof u53_pos. apply Rmult_le_compat_l; lra. Qed.
  Lemma W_pos : 0 <= W.
  Proof.
    destruct SU as [_ _ _ _ N _ _]. destruct (grid_near o r n T (V3I 0 0 0) SU) as (_ & Bl); [repeat split; cbn; lia|]. destruct Bl as (b1 & b2 & b3). destruct (TR (fgrid_pos o r (V3I 0 0 0))) as (A & _); [split; [exact b1|split; [exact b2|lra]]|].
    apply near_pos in A. destruct (scale_facts S K) as (_ & W0 & _). nra.
  Qed.
  Lemma sample_ball v : in_side n v -> ball3 B (fgrid_pos o r v).
  Proof. intros H. destruct (grid_near o r n T v SU H) as (_ & (a & b & c)). split; [exact a|split; [exact b|lra]]. Qed.
  Lemma sample_near v : in_side n v -> fnear (F (fgrid_pos o r v)) (f (grid_pos O rr v)) ((W + 14) * w).
  Proof.
    intros H. destruct (grid_near o r n T v SU H) as (D & _). destruct (TR _ (sample_ball v H)) as (A & _). pose proof (L (FR3 (fgrid_pos o r v)) (grid_pos O rr v)) as Lp. pose proof wT as (W1 & W2).
    replace ((W + 14) * w) with (W * w + 14 * w) by ring. eapply near_shift; [exact A|]. lra.
  Qed.
  Lemma pruned_sign c : in_root n c -> fis_empty F o r c = true ->
    (forall q, in_real_cube O rr c q -> - ((W + 20) * w) <= f q) \/ (forall q, in_real_cube O rr c q -> f q <= (W + 20) * w).
  Proof.
    intros I E. destruct (res_pos _ _ _ _ SU) as (R0 & _). destruct (center_side n c I) as (Cs & Ls). destruct I as (Lc & _). pose proof (sample_near _ Cs) as Nc. pose proof (hdiag_near o r n T (c_lev c) SU Ls) as Nh. pose proof wT as (W1 & W2).
    unfold fis_empty in E. pose proof (near_abs _ _ _ Nc) as (Fa & Va & Da). destruct Nh as (Fh & Vh & Dh). rewrite leb_FR in E by auto. apply Rabs_iff in Da, Dh.
    set (y := f (grid_pos O rr (cube_center c))) in *. assert (G : hdiag rr (c_lev c) - (W + 20) * w <= Rabs y) by lra.
    destruct (Rle_or_lt 0 y) as [P|P].
    - left. intros q Q. pose proof (center_far _ _ _ _ R0 Lc Q) as D. pose proof (L (grid_pos O rr (cube_center c)) q) as Lq. fold y in Lq. rewrite Rabs_right in G by lra. apply Rabs_iff in Lq. lra.
    - right. intros q Q. pose proof (center_far _ _ _ _ R0 Lc Q) as D. pose proof (L (grid_pos O rr (cube_center c)) q) as Lq. fold y in Lq. rewrite Rabs_left in G by lra. apply Rabs_iff in Lq. lra.
  Qed.
  Lemma kept_cell degen k v p q : n = (2 ^ Z.of_nat k)%Z -> In v (cells (V3I 0 0 0) (2 ^ (k - 1))) ->
    in_real_cube O rr (Cube v 1) p -> in_real_cube O rr (Cube v 1) q -> f p < - ((W + 20) * w) -> (W + 20) * w < f q ->
    kept (foctree_env degen F o r (Datatypes.S k)) k v = true.
  Proof.
    intros En Hv Hp Hq Fp Fq. destruct (res_pos _ _ _ _ SU) as (R0 & _). unfold kept. apply forallb_forall. intros l Hl. apply in_seq in Hl. apply negb_true_iff. cbn [foctree_env e_empty].
    destruct (fis_empty F o r (ancestor v l)) eqn:E; [exfalso|reflexivity]. assert (C : is_cell v).
    { unfold cells in Hv. apply in_flat_map in Hv as (x & Hx & Hv). apply in_flat_map in Hv as (y & Hy & Hv). apply in_map_iff in Hv as (z & <- & Hz). cbn [vx vy vz] in *. repeat split; eapply evens_mod2; eassumption. }
    assert (I : in_root n (ancestor v l)) by (rewrite En; apply ancestor_root; [lia|lia|exact Hv]).
    pose proof (cell_in_ancestor _ _ _ l _ R0 ltac:(lia) C Hp) as Ap. pose proof (cell_in_ancestor _ _ _ l _ R0 ltac:(lia) C Hq) as Aq.
    destruct (pruned_sign _ I E) as [Q|Q]; [specialize (Q _ Ap)|specialize (Q _ Aq)]; lra.
  Qed.
End Render.

(** ** Interpolation *)
Lemma FR_neg x : num x -> num (fsub fzero x) /\ FR (fsub fzero x) = - FR x.
Proof.
  intros (Fx & Vx). destruct (fsub_spec fzero x eq_refl Fx eq_refl Vx) as ((Cv & _ & Cf & _ & Cn & _) & _). change (FR fzero) with 0 in *. rewrite Rminus_0_l in *.
  pose proof (small_max x Vx) as M. specialize (Cf ltac:(rewrite Rabs_Ropp; exact M)). split; [split; assumption|].
  specialize (Cn Cf (SFopp x) (opp_valid x Vx)). rewrite fin_opp, FR_opp in Cn. specialize (Cn Fx). rewrite (Rminus_diag_eq (- FR x) (- FR x) eq_refl), Rabs_R0 in Cn.
  pose proof (Rabs_pos (FR (fsub fzero x) - - FR x)). apply Rminus_diag_uniq. destruct (Req_dec (FR (fsub fzero x) - - FR x) 0) as [E|E]; [exact E|]. pose proof (Rabs_no_R0 _ E). lra.
Qed.
Lemma fmc_epsilon_ok : num fmc_epsilon /\ 0 < FR fmc_epsilon <= mc_epsilon.
Proof.
  split; [split; reflexivity|]. unfold fmc_epsilon, mc_epsilon, FR. change (-92)%Z with (- (92))%Z. rewrite bpow_opp, bpow_Z by lia. change (2 ^ 92)%Z with 4951760157141521099596496896%Z. lra.
Qed.
Lemma close_spec x : num x -> SFltb (SFabs (fsub fzero x)) fmc_epsilon = true -> Rabs (FR x) < mc_epsilon.
Proof.
  intros N H. destruct (FR_neg x N) as ((Fn & Vn) & E). destruct fmc_epsilon_ok as ((Fe & Ve) & _ & Le). rewrite ltb_FR in H; [|now rewrite fin_abs|exact Fe|now apply abs_valid|exact Ve]. rewrite FR_abs, E, Rabs_Ropp in H. lra.
Qed.
Lemma mix_near t ts a b T : num a -> num b -> Rabs (FR a) <= 2 * T -> Rabs (FR b) <= 2 * T -> fnear t ts (4 * u53) -> 0 <= ts <= 1 -> scale_ok T ->
  fnear (fmix t a b) (FR a + ts * (FR b - FR a)) (30 * (u53 * T)).
Proof.
  intros (Fa & Va) (Fb & Vb) A B Nt Ht K. destruct (scale_facts T K) as (T0 & W0 & Et & M & Sm). pose proof u53_pos as U0. pose proof u53_small as U1.
  assert (D0 : Rabs (FR b - FR a) <= 4 * T) by (apply Rabs_iff in A, B; apply Rabs_iff; lra).
  assert (N1 : fnear (fsub b a) (FR b - FR a) (4 * (u53 * T))).
  { eapply near_weak; [apply (near_sub _ _ _ _ _ _ (4 * T) (near_exact b Fb Vb) (near_exact a Fa Va))|]; lra. }
  set (d := FR b - FR a) in *. pose proof (Rabs_pos d) as Pd.
  assert (Ud : u53 * Rabs d <= 4 * (u53 * T)) by (replace (4 * (u53 * T)) with (u53 * (4 * T)) by ring; apply Rmult_le_compat_l; lra).
  assert (Ut : ts * (4 * (u53 * T)) <= 4 * (u53 * T)) by (apply Rle_trans with (1 * (4 * (u53 * T))); [apply Rmult_le_compat_r; lra|lra]).
  assert (Ut0 : 0 <= ts * (4 * (u53 * T))) by (apply Rmult_le_pos; lra).
  assert (Uu : u53 * (u53 * T) <= / 1000000000000000 * (u53 * T)) by (apply Rmult_le_compat_r; lra).
  assert (Uu0 : 0 <= u53 * (u53 * T)) by (apply Rmult_le_pos; lra).
  assert (Ud0 : 0 <= u53 * Rabs d) by (apply Rmult_le_pos; lra).
  assert (Td : Rabs (ts * d) <= 4 * T) by (rewrite Rabs_mult, (Rabs_right ts) by lra; apply Rle_trans with (1 * Rabs d); [apply Rmult_le_compat_r; lra|lra]).
  assert (N2 : fnear (fmul t (fsub b a)) (ts * d) (27 * (u53 * T))).
  { eapply near_weak; [apply (near_mul _ _ _ _ _ _ (5 * T) Nt N1)|].
    - rewrite (Rabs_right ts) by lra. replace (4 * u53 * Rabs d + ts * (4 * (u53 * T)) + 4 * u53 * (4 * (u53 * T))) with (4 * (u53 * Rabs d) + ts * (4 * (u53 * T)) + 16 * (u53 * (u53 * T))) by ring. lra.
    - lra.
    - rewrite (Rabs_right ts) by lra. replace (4 * u53 * Rabs d + ts * (4 * (u53 * T)) + 4 * u53 * (4 * (u53 * T)) + u53 * (5 * T) + eta) with (4 * (u53 * Rabs d) + ts * (4 * (u53 * T)) + 16 * (u53 * (u53 * T)) + 5 * (u53 * T) + eta) by ring.  lra. }
  unfold fmix. eapply near_weak; [apply (near_add _ _ _ _ _ _ (3 * T) (near_exact a Fa Va) N2)|]; [|lra|lra].
  replace (FR a + ts * d) with ((1 - ts) * FR a + ts * FR b) by (unfold d; ring). assert (Rabs ((1 - ts) * FR a + ts * FR b) <= 2 * T) by (apply Rabs_iff in A, B; apply Rabs_iff; split; nra). lra.
Qed.
(** the parameter of the crossing *)
Lemma param_near a b M : num a -> num b -> Rabs (FR a) <= M -> Rabs (FR b) <= M -> 4 * M <= fmaxR -> FR a < 0 < FR b \/ FR b < 0 < FR a ->
  fnear (fdiv (fsub fzero a) (fsub b a)) (- FR a / (FR b - FR a)) (4 * u53) /\ 0 <= - FR a / (FR b - FR a) <= 1.
Proof.
  intros Na (Fb & Vb) A B M4 Sg. destruct (FR_neg a Na) as ((Fn & Vn) & E). destruct Na as (Fa & Va). pose proof u53_pos as U0. pose proof u53_small as U1. pose proof u_eta as Ue. pose proof eta_pos as E0.
  destruct (fsub_spec b a Fb Fa Vb Va) as ((Cv & _ & Cf & _) & Rl & _). set (D := FR b - FR a) in *. assert (DM : Rabs D <= fmaxR) by (apply Rabs_iff in A, B; apply Rabs_iff; unfold D; lra).
  specialize (Cf DM). specialize (Rl Cf). set (d := FR (fsub b a)) in *. assert (D0 : D <> 0) by (unfold D; lra). pose proof (Rabs_pos_lt D D0) as Dp.
  assert (d0 : d <> 0). { intros Z0. rewrite Z0, Rminus_0_l, Rabs_Ropp in Rl. nra. }
  assert (Ht : 0 <= - FR a / D <= 1).
  { destruct Sg as [Sg|Sg].
    - assert (0 < D) by (unfold D; lra). split; [apply Rmult_le_pos; [lra|left; now apply Rinv_0_lt_compat]|]. apply Rmult_le_reg_r with D; [lra|]. unfold Rdiv. rewrite Rmult_assoc, Rinv_l by lra. unfold D. lra.
    - assert (D < 0) by (unfold D; lra). replace (- FR a / D) with (FR a / - D) by (field; lra). split; [apply Rmult_le_pos; [lra|left; apply Rinv_0_lt_compat; lra]|]. apply Rmult_le_reg_r with (- D); [lra|]. unfold Rdiv. rewrite Rmult_assoc, Rinv_l by lra. unfold D. lra. }
  split; [|exact Ht]. pose proof (fdiv_spec _ (fsub b a) Fn Cf Vn Cv d0) as C. fold d in C. rewrite E in C. set (t := - FR a / D) in *.
  assert (Q : - FR a / d - t = t * ((D - d) / d)) by (unfold t; field; auto).
  assert (R1 : Rabs ((D - d) / d) <= 1.5 * u53).
  { unfold Rdiv. rewrite Rabs_mult, Rabs_inv. assert (P : Rabs D <= 1.0001 * Rabs d). { pose proof (Rabs_triang (D - d) d) as X. replace (D - d + d) with D in X by ring. rewrite Rabs_minus_sym in X. nra. }
    assert (0 < Rabs d) by (now apply Rabs_pos_lt). rewrite Rabs_minus_sym. apply Rmult_le_reg_r with (Rabs d); [lra|]. rewrite Rmult_assoc, Rinv_l by lra. nra. }
  assert (R2 : Rabs (- FR a / d - t) <= 1.5 * u53). { rewrite Q, Rabs_mult, (Rabs_right t) by lra. pose proof (Rabs_pos ((D - d) / d)). apply Rle_trans with (1 * Rabs ((D - d) / d)); [apply Rmult_le_compat_r; lra|lra]. }
  eapply near_weak; [apply (correct_near _ _ t (1.5 * u53) 1.1 C R2)|]; [rewrite Rabs_right by lra; lra|pose proof big_max; lra|lra].
Qed.
Lemma lerp_dev a b a' b' t D : 0 <= t <= 1 -> dist3 a a' <= D -> dist3 b b' <= D -> dist3 (lerp a b t) (lerp a' b' t) <= D.
Proof.
  intros Ht H1 H2. unfold dist3 in *. replace (sub3 (lerp a b t) (lerp a' b' t)) with (add3 (scale3 (1 - t) (sub3 a a')) (scale3 t (sub3 b b'))) by (unfold lerp; destruct a, b, a', b'; apply v3_ext; cbn; ring).
  eapply Rle_trans; [apply norm3_tri|]. rewrite !norm3_scale, !Rabs_right by lra. nra.
Qed.
(** the value of a 1-Lipschitz function at the point where the linear interpolation of its approximate end values vanishes *)
Lemma value_mid f a b t va vb e eps s : lip3 f -> 0 <= t <= 1 -> Rabs (f a - va) <= e -> Rabs (f b - vb) <= e -> Rabs (va + t * (vb - va)) <= eps -> dist3 b a = s -> Rabs (f (lerp a b t)) <= s / 2 + e + eps.
Proof.
  intros L Ht A B C D. pose proof (L (lerp a b t) (lerp a b 0)) as L0. pose proof (L (lerp a b t) (lerp a b 1)) as L1. rewrite dist_lerp, D in L0, L1. rewrite lerp_0 in L0. rewrite lerp_1 in L1.
  rewrite Rminus_0_r, (Rabs_right t) in L0 by lra. rewrite (Rabs_left1 (t - 1)) in L1 by lra. assert (S0 : 0 <= s) by (rewrite <- D; apply norm3_pos'). apply Rabs_iff in L0, L1, A, B, C. apply Rabs_iff.
  set (y := f (lerp a b t)) in *. assert (P : (1 - t) * (t * s) + t * ((1 - t) * s) <= s / 2) by (pose proof (Rmult_le_pos _ _ (Rle_0_sqr (1 - 2 * t)) S0) as Q; unfold Rsqr in Q; lra).
  assert (Y : y = (1 - t) * y + t * y) by ring. assert (1 - t >= 0) by lra.
  assert (U1 : (1 - t) * y <= (1 - t) * (va + e + t * s)) by (apply Rmult_le_compat_l; lra). assert (U2 : t * y <= t * (vb + e + (1 - t) * s)) by (apply Rmult_le_compat_l; lra).
  assert (U3 : (1 - t) * (va - e - t * s) <= (1 - t) * y) by (apply Rmult_le_compat_l; lra). assert (U4 : t * (vb - e - (1 - t) * s) <= t * y) by (apply Rmult_le_compat_l; lra).
  split; lra.
Qed.
Lemma ltb_zero x : num x -> (SFltb x fzero = true <-> FR x < 0).
Proof. intros (A & B). rewrite ltb_FR by (auto; reflexivity). reflexivity. Qed.
(** where mcInterpolate puts the vertex between ends with values [x] and [y] *)
Definition cross_t (x y : R) : R :=
  let close z := Rltb (Rabs z) (FR fmc_epsilon) in
  if close x && negb (close y) then 0 else if close y && negb (close x) then 1 else if close x && close y then / 2 else - x / (y - x).
Lemma cross_t_swap x y : x <> y -> cross_t y x = 1 - cross_t x y.
Proof. intros H. unfold cross_t. destruct (Rltb (Rabs x) _), (Rltb (Rabs y) _); cbn [andb negb]; try lra. field. lra. Qed.
Lemma close_is x : num x -> SFltb (SFabs (fsub fzero x)) fmc_epsilon = Rltb (Rabs (FR x)) (FR fmc_epsilon).
Proof.
  intros N. destruct (FR_neg x N) as ((Fn & Vn) & E). destruct fmc_epsilon_ok as ((Fe & Ve) & _). apply Rltb_ltb. rewrite ltb_FR; [|now rewrite fin_abs|exact Fe|now apply abs_valid|exact Ve]. rewrite FR_abs, E, Rabs_Ropp. reflexivity.
Qed.
Lemma interp_near a b va vb T M : ball3 (1.0001 * T) a -> ball3 (1.0001 * T) b -> num va -> num vb -> Rabs (FR va) <= M -> Rabs (FR vb) <= M -> 4 * M <= fmaxR -> scale_ok T ->
  SFltb va fzero <> SFltb vb fzero -> let P := fmc_interpolate fzero a b va vb in
  let t := cross_t (FR va) (FR vb) in 0 <= t <= 1 /\ valid3 P /\ fin3 P /\ dist3 (FR3 P) (lerp (FR3 a) (FR3 b) t) <= 60 * (u53 * T) /\ Rabs (FR va + t * (FR vb - FR va)) <= mc_epsilon.
Proof.
  intros Ba Bb Na Nb Ma Mb M4 K Sg P t. destruct (scale_facts T K) as (T0 & W0 & _). destruct fmc_epsilon_ok as ((Fe & Ve) & E0 & E1). pose proof u53_pos as U0.
  pose proof (ball3_at _ _ Ba) as ((Va1 & Va2 & Va3) & (Fa1 & Fa2 & Fa3) & Aa1 & Aa2 & Aa3). pose proof (ball3_at _ _ Bb) as ((Vb1 & Vb2 & Vb3) & (Fb1 & Fb2 & Fb3) & Ab1 & Ab2 & Ab3).
  assert (Mix : forall t ts, fnear t ts (4 * u53) -> 0 <= ts <= 1 -> let Q := FV3 (fmix t (f3x a) (f3x b)) (fmix t (f3y a) (f3y b)) (fmix t (f3z a) (f3z b)) in valid3 Q /\ fin3 Q /\ dist3 (FR3 Q) (lerp (FR3 a) (FR3 b) ts) <= 60 * (u53 * T)).
  { intros t0 ts Nt Ht Q. destruct (mix_near t0 ts (f3x a) (f3x b) T) as (A1 & B1 & D1); [split; auto|split; auto|lra|lra|exact Nt|exact Ht|exact K|].
    destruct (mix_near t0 ts (f3y a) (f3y b) T) as (A2 & B2 & D2); [split; auto|split; auto|lra|lra|exact Nt|exact Ht|exact K|].
    destruct (mix_near t0 ts (f3z a) (f3z b) T) as (A3 & B3 & D3); [split; auto|split; auto|lra|lra|exact Nt|exact Ht|exact K|].
    split; [repeat split; assumption|]. split; [repeat split; assumption|]. replace (60 * (u53 * T)) with (2 * (30 * (u53 * T))) by ring. apply dist3_dev; assumption. }
  pose proof (ltb_zero va Na) as La. pose proof (ltb_zero vb Nb) as Lb.
  assert (Z0 : forall p, dist3 p p = 0) by (intros p; unfold dist3; replace (sub3 p p) with zero3 by (apply v3_ext; cbn; ring); unfold norm3, norm3sq, dot3, zero3; cbn [x3 y3 z3]; rewrite !Rmult_0_r, !Rplus_0_r; apply sqrt_0).
  unfold t, cross_t. rewrite <- !close_is by assumption. unfold P, fmc_interpolate. destruct (SFltb (SFabs (fsub fzero va)) fmc_epsilon) eqn:C1, (SFltb (SFabs (fsub fzero vb)) fmc_epsilon) eqn:C2; cbn [andb negb].
  - apply close_spec in C1, C2; auto. destruct fhalf_num as (Fh & Vh). pose proof (near_exact fhalf Fh Vh) as Xh. rewrite FR_half in Xh.
    destruct (Mix fhalf (/ 2)) as (A & B & C); [eapply near_weak; [exact Xh|lra]|lra|]. split; [lra|]. split; [exact A|]. split; [exact B|]. split; [exact C|]. apply Rabs_def2 in C1, C2. apply Rabs_iff. lra.
  - apply close_spec in C1; auto. split; [lra|]. destruct Ba as (b1 & b2 & _). split; [exact b1|]. split; [exact b2|]. rewrite lerp_0, Z0. split; [lra|]. rewrite Rmult_0_l, Rplus_0_r. lra.
  - apply close_spec in C2; auto. split; [lra|]. destruct Bb as (b1 & b2 & _). split; [exact b1|]. split; [exact b2|]. rewrite lerp_1, Z0. split; [lra|]. rewrite Rmult_1_l. replace (FR va + (FR vb - FR va)) with (FR vb) by ring. lra.
  - assert (Nz : forall x, num x -> SFltb (SFabs (fsub fzero x)) fmc_epsilon = false -> FR x <> 0).
    { intros x N H Z1. destruct (FR_neg x N) as ((Fn & Vn) & E). assert (SFltb (SFabs (fsub fzero x)) fmc_epsilon = true); [|congruence]. rewrite ltb_FR; [|now rewrite fin_abs|exact Fe|now apply abs_valid|exact Ve]. rewrite FR_abs, E, Z1, Ropp_0, Rabs_R0. exact E0. }
    pose proof (Nz _ Na C1) as Za. pose proof (Nz _ Nb C2) as Zb.
    assert (Sg' : FR va < 0 < FR vb \/ FR vb < 0 < FR va).
    { destruct (SFltb va fzero), (SFltb vb fzero); try congruence; [left|right]; (split; [tauto|]); [assert (~ FR vb < 0) by (intros X; apply Lb in X; discriminate)|assert (~ FR va < 0) by (intros X; apply La in X; discriminate)]; lra. }
    destruct (param_near va vb M Na Nb Ma Mb M4 Sg') as (Nt & Ht). destruct (Mix _ _ Nt Ht) as (A & B & C). split; [exact Ht|]. split; [exact A|]. split; [exact B|]. split; [exact C|].
    replace (FR va + - FR va / (FR vb - FR va) * (FR vb - FR va)) with 0 by (field; lra). rewrite Rabs_R0. lra.
Qed.
