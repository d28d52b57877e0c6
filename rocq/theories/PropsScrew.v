(** C95: the solid a straight screw cuts out of a built-in profile (thread.go:51-110 with iso.go, uts.go, acme.go, ansibuttress.go and plasticbuttress.go). *)
From Coq Require Import String Reals Lra Psatz Lia List Bool ZArith.
From Verif Require Import Prelude Vec BoxModel MatrixModel PropsBox PropsMatrix SdfModel SdfLemmas PropsBool Trig PropsUtil
  PolyModel PropsPoly PropsBuilder PropsFillet ObjModel PropsForm PropsThread PropsProfile PropsThreadShape.
Import ListNotations.
Local Open Scope R_scope.

(** The solid between the planes z = -len/2 and z = len/2 is the profile swept along the helix. *)
Lemma screw_inside len th s t p : screw len (Some th) = Ok s -> th_thread th = Ok t -> tp_pitch (th_params th) = p -> tp_taper (th_params th) = 0 -> 0 < p ->
  exists X, (forall q, ev3 s q < 0 <-> ev2 t (V2 (X q) (hypot (x3 q) (y3 q))) < 0 /\ Rabs (z3 q) < len / 2) /\ (forall q, - (p / 2) <= X q < p / 2) /\
    forall r a z n u, 0 < r -> z - p * IZR (tp_starts (th_params th)) * a / (2 * PI) = IZR n * p + u -> - (p / 2) <= u < p / 2 -> X (V3 (r * cos a) (r * sin a) z) = u.
Proof.
  intros E T EP TP PP. destruct (C65_helical len th s E) as (t' & X & T' & V & H & B & _); [lra|]. assert (t' = t) as -> by congruence. exists X. rewrite EP in *. split; [|split].
  - intros q. rewrite V, TP, atan_0, Rmult_0_r, Rplus_0_r, Rmax_neg_iff. split; intros (A & C); split; lra.
  - apply B. exact PP.
  - intros r a z n u R Z U. destruct (H (V3 (r * cos a) (r * sin a) z) r a R eq_refl eq_refl) as (k & K). cbn [z3] in K. pose proof (B PP (V3 (r * cos a) (r * sin a) z)) as BX. set (x := X _) in *. clearbody x.
    assert (D : x = u + IZR (n + k) * p) by (rewrite plus_IZR; lra). assert (Q : (n + k = 0)%Z).
    { assert (N1 : (-1 < n + k)%Z) by (apply lt_IZR; nra). assert (N2 : (n + k < 1)%Z) by (apply lt_IZR; nra). lia. }
    rewrite D, Q. ring.
Qed.
Lemma hypot_polar r a : 0 < r -> hypot (r * cos a) (r * sin a) = r.
Proof. intros R. unfold hypot. pose proof (sin2_cos2 a) as S. unfold Rsqr in S. transitivity (sqrt (r * r)); [f_equal; transitivity (r * r * (sin a * sin a + cos a * cos a)); [ring|rewrite S; ring]|apply sqrt_square; lra]. Qed.
Lemma dist_below x y cx cy r : y < cy - r -> 0 < r -> r < norm2 (sub2 (V2 x y) (V2 cx cy)).
Proof.
  intros H R. pose proof (norm2_sq (sub2 (V2 x y) (V2 cx cy))) as Q. pose proof (norm2_nonneg (sub2 (V2 x y) (V2 cx cy))) as N. set (n := norm2 _) in *. unfold norm2sq, dot2, sub2 in Q. cbn [x2 y2] in Q. clearbody n. assert (A : r * r < (y - cy) * (y - cy)) by nra. pose proof (Rle_0_sqr (x - cx)) as C. unfold Rsqr in C. destruct (Rlt_dec r n) as [L|L]; [exact L|]. assert (n * n <= r * r) by nra. lra.
Qed.
Lemma dist_above x y cx cy r : cy + r < y -> 0 < r -> r < norm2 (sub2 (V2 x y) (V2 cx cy)).
Proof.
  intros H R. pose proof (norm2_sq (sub2 (V2 x y) (V2 cx cy))) as Q. pose proof (norm2_nonneg (sub2 (V2 x y) (V2 cx cy))) as N. set (n := norm2 _) in *. unfold norm2sq, dot2, sub2 in Q. cbn [x2 y2] in Q. clearbody n. assert (A : r * r < (y - cy) * (y - cy)) by nra. pose proof (Rle_0_sqr (x - cx)) as C. unfold Rsqr in C. destruct (Rlt_dec r n) as [L|L]; [exact L|]. assert (n * n <= r * r) by nra. lra.
Qed.

(** ** ISO, external *)
(** Nothing at or beyond the major radius; everything off the axis nearer to it than the root; over each crest, P/8 wide along the helix, the
    material reaches the major radius; half a pitch away it stops at the root. *)
Theorem C95_iso_external len d p s : screw len (Some (iso d p true)) = Ok s -> 0 < p -> tolerance < 2 * p -> let h := sqrt 3 / 2 * p in 7 / 8 * h < d / 2 ->
  (forall q, d / 2 <= hypot (x3 q) (y3 q) -> ~ ev3 s q < 0) /\
  (forall q, 0 < hypot (x3 q) (y3 q) < d / 2 - 17 / 24 * h -> Rabs (z3 q) < len / 2 -> ev3 s q < 0) /\
  (forall r a z n, 0 < r -> Rabs (z - p * a / (2 * PI) - IZR n * p) <= p / 16 -> (ev3 s (V3 (r * cos a) (r * sin a) z) < 0 <-> r < d / 2 /\ Rabs z < len / 2)) /\
  (forall r a z n, 0 < r -> z - p * a / (2 * PI) = IZR n * p + p / 2 -> d / 2 - (13 / 24 + cos (deg 12) / 6) * h < r -> ~ ev3 s (V3 (r * cos a) (r * sin a) z) < 0).
Proof.
  intros E P TOL h DEEP. destruct (C94_iso_external d p P TOL DEEP) as (t & T & R). fold h in R. assert (HP : 0 < h) by (unfold h; pose proof s3_pos; nra). pose proof s3_pos as S3.
  destruct (screw_inside len (iso d p true) s t p E T eq_refl eq_refl P) as (X & V & B & H). cbn [th_params iso basic_params tp_starts] in H.
  assert (BA : forall q, Rabs (X q) <= p / 2) by (intros q; specialize (B q); apply Rabs_le; lra).
  split; [|split; [|split]].
  - intros q Q I. apply V in I. destruct I as (I & _). destruct (R (X q) (hypot (x3 q) (y3 q))) as (_ & R1 & R2 & R3 & _). specialize (BA q). set (a := Rabs (X q)) in *. set (y := hypot _ _) in *.
    destruct (Rle_dec a (p / 16)) as [A1|A1]; [apply R1 in I; lra|]. destruct (Rle_dec a (3 / 8 * p)) as [A2|A2]; [apply R2 in I; [|lra]; clearbody a y; nra|]. revert I. apply R3; lra.
  - intros q Q Z. apply V. split; [|exact Z]. destruct (R (X q) (hypot (x3 q) (y3 q))) as (_ & R1 & R2 & R3 & _). specialize (BA q). set (a := Rabs (X q)) in *. set (y := hypot _ _) in *.
    destruct (Rle_dec a (p / 16)) as [A1|A1]; [apply R1; lra|]. destruct (Rle_dec a (3 / 8 * p)) as [A2|A2]; [apply R2; [lra|]; split; [lra|]; unfold h in *; clearbody a y; nra|].
    apply R3; [lra|lra|]. apply dist_below; lra.
  - intros r a z n RP Z. apply abs_le_inv in Z. rewrite V. cbn [x3 y3 z3]. rewrite hypot_polar by exact RP. rewrite (H r a z n (z - p * a / (2 * PI) - IZR n * p)); [|exact RP|unfold Rdiv; ring|lra].
    destruct (R (z - p * a / (2 * PI) - IZR n * p) r) as (_ & R1 & _). rewrite R1 by (apply Rabs_le; exact Z). split; intros (A & C); split; lra.
  - intros r a z n RP Z RR I. rewrite V in I. cbn [x3 y3 z3] in I. rewrite hypot_polar in I by exact RP. rewrite (H r a z (n + 1)%Z (- (p / 2))) in I; [|exact RP|rewrite plus_IZR; unfold Rdiv in *; lra|lra].
    destruct I as (I & _). revert I. destruct (R (- (p / 2)) r) as (_ & _ & _ & R3 & _). rewrite Rabs_Ropp, Rabs_pos_eq in R3 by lra. specialize (R3 ltac:(lra)). destruct R3 as (_ & R3 & R4).
    destruct (Rle_dec (d / 2 - 13 / 24 * h) r) as [Q|Q]; [now apply R4|]. apply R3. unfold sub2; cbn [x2 y2]. replace (p / 2 - p / 2) with 0 by ring.
    match goal with |- norm2 ?v < _ => pose proof (norm2_sq v) as W; pose proof (norm2_nonneg v) as N; set (nn := norm2 v) in * end. unfold norm2sq, dot2 in W. cbn [x2 y2] in W. set (c := cos (deg 12)) in *. clearbody nn c. nra.
Qed.
(** ** ISO, internal: the solid to be subtracted from a nut *)
Theorem C95_iso_internal len d p s : screw len (Some (iso d p false)) = Ok s -> 0 < p -> tolerance < 2 * p -> let h := sqrt 3 / 2 * p in 7 / 8 * h < d / 2 ->
  (forall q, d / 2 + h / 24 < hypot (x3 q) (y3 q) -> ~ ev3 s q < 0) /\
  (forall q, 0 < hypot (x3 q) (y3 q) < d / 2 - 5 / 8 * h -> Rabs (z3 q) < len / 2 -> ev3 s q < 0) /\
  (forall r a z n, 0 < r -> Rabs (z - p * a / (2 * PI) - IZR n * p) <= p / 16 -> r <= d / 2 - h / 24 -> (ev3 s (V3 (r * cos a) (r * sin a) z) < 0 <-> Rabs z < len / 2)) /\
  (forall r a z n, 0 < r -> Rabs (z - p * a / (2 * PI) - IZR n * p - p / 2) <= p / 8 -> d / 2 - 5 / 8 * h <= r -> ~ ev3 s (V3 (r * cos a) (r * sin a) z) < 0).
Proof.
  intros E P TOL h DEEP. destruct (C94_iso_internal d p P TOL DEEP) as (t & T & R). fold h in R. assert (HP : 0 < h) by (unfold h; pose proof s3_pos; nra). pose proof s3_pos as S3. pose proof s3_sq as S4.
  destruct (screw_inside len (iso d p false) s t p E T eq_refl eq_refl P) as (X & V & B & H). cbn [th_params iso basic_params tp_starts] in H.
  assert (BA : forall q, Rabs (X q) <= p / 2) by (intros q; specialize (B q); apply Rabs_le; lra).
  split; [|split; [|split]].
  - intros q Q I. apply V in I. destruct I as (I & _). destruct (R (X q) (hypot (x3 q) (y3 q))) as (_ & R1 & R2 & R3). specialize (BA q). set (a := Rabs (X q)) in *. set (y := hypot _ _) in *.
    destruct (Rle_dec a (p / 16)) as [A1|A1]; [revert I; destruct (R1 A1) as (R1' & _); apply R1'; [lra|]; apply dist_above; lra|]. destruct (Rle_dec a (3 / 8 * p)) as [A2|A2]; [apply R2 in I; [|lra]; unfold h in *; clearbody a y; nra|]. apply R3 in I; lra.
  - intros q Q Z. apply V. split; [|exact Z]. destruct (R (X q) (hypot (x3 q) (y3 q))) as (_ & R1 & R2 & R3). specialize (BA q). set (a := Rabs (X q)) in *. set (y := hypot _ _) in *.
    destruct (Rle_dec a (p / 16)) as [A1|A1]; [apply R1; lra|]. destruct (Rle_dec a (3 / 8 * p)) as [A2|A2]; [apply R2; [lra|]; split; [lra|]; unfold h in *; clearbody a y; nra|]. apply R3; lra.
  - intros r a z n RP Z RR. apply abs_le_inv in Z. rewrite V. cbn [x3 y3 z3]. rewrite hypot_polar by exact RP. rewrite (H r a z n (z - p * a / (2 * PI) - IZR n * p)); [|exact RP|unfold Rdiv; ring|lra].
    destruct (R (z - p * a / (2 * PI) - IZR n * p) r) as (_ & R1 & _). split; [tauto|]. intros ZL. split; [|exact ZL]. apply R1; [apply Rabs_le; exact Z|lra].
  - intros r a z n RP Z RR I. apply abs_le_inv in Z. rewrite V in I. cbn [x3 y3 z3] in I. rewrite hypot_polar in I by exact RP. set (u := z - p * a / (2 * PI) - IZR n * p - p / 2) in *.
    assert (HU : exists v, X (V3 (r * cos a) (r * sin a) z) = v /\ 3 / 8 * p <= Rabs v <= p / 2).
    { destruct (Rlt_dec u 0) as [L|L].
      - exists (u + p / 2). split; [apply (H r a z n); [exact RP|unfold u, Rdiv; ring|lra]|]. rewrite Rabs_pos_eq by lra. lra.
      - exists (u - p / 2). split; [apply (H r a z (n + 1)%Z); [exact RP|rewrite plus_IZR; unfold u, Rdiv; lra|lra]|]. rewrite Rabs_left by lra. lra. }
    destruct HU as (v & HU & VB). rewrite HU in I. destruct I as (I & _). destruct (R v r) as (_ & _ & _ & R3). apply R3 in I; lra.
Qed.
(** ** Acme *)
Theorem C95_acme len d p s : screw len (Some (acme d p)) = Ok s -> 0 < p -> tolerance < d -> p / 2 < d / 2 -> let k := tan (deg (29 / 2)) in
  (forall q, d / 2 <= hypot (x3 q) (y3 q) -> ~ ev3 s q < 0) /\
  (forall q, 0 < hypot (x3 q) (y3 q) < d / 2 - p / 2 -> Rabs (z3 q) < len / 2 -> ev3 s q < 0) /\
  (forall r a z n, 0 < r -> Rabs (z - p * a / (2 * PI) - IZR n * p) <= p / 4 - p / 4 * k -> (ev3 s (V3 (r * cos a) (r * sin a) z) < 0 <-> r < d / 2 /\ Rabs z < len / 2)) /\
  (forall r a z n, 0 < r -> Rabs (z - p * a / (2 * PI) - IZR n * p - p / 2) <= p / 4 - p / 4 * k -> d / 2 - p / 2 <= r -> ~ ev3 s (V3 (r * cos a) (r * sin a) z) < 0).
Proof.
  intros E P TOL DEEP k. destruct (C94_acme d p P TOL DEEP) as (t & T & R). fold k in R. pose proof (tan_small (29 / 2) ltac:(lra)) as K. fold k in K.
  destruct (screw_inside len (acme d p) s t p E T eq_refl eq_refl P) as (X & V & B & H). cbn [th_params acme basic_params tp_starts] in H.
  assert (BA : forall q, Rabs (X q) <= p / 2) by (intros q; specialize (B q); apply Rabs_le; lra). assert (KP : 0 < p / 4 * k < p / 4) by (split; nra).
  assert (SL : forall a, p / 4 - p / 4 * k <= a <= p / 4 + p / 4 * k -> 0 <= (a - (p / 4 - p / 4 * k)) / k <= p / 2).
  { intros a A. split; [apply Rmult_le_pos; [lra|left; apply Rinv_0_lt_compat; lra]|]. apply (Rmult_le_reg_r k); [lra|]. unfold Rdiv at 1. rewrite Rmult_assoc, Rinv_l, Rmult_1_r by lra. nra. }
  split; [|split; [|split]].
  - intros q Q I. apply V in I. destruct I as (I & _). destruct (R (X q) (hypot (x3 q) (y3 q))) as (_ & R1 & R2 & R3). specialize (BA q). set (a := Rabs (X q)) in *. set (y := hypot _ _) in *.
    destruct (Rle_dec a (p / 4 - p / 4 * k)) as [A1|A1]; [apply R1 in I; lra|]. destruct (Rle_dec a (p / 4 + p / 4 * k)) as [A2|A2]; [|apply R3 in I; lra]. apply R2 in I; [|lra]. specialize (SL a ltac:(lra)). lra.
  - intros q Q Z. apply V. split; [|exact Z]. destruct (R (X q) (hypot (x3 q) (y3 q))) as (_ & R1 & R2 & R3). specialize (BA q). set (a := Rabs (X q)) in *. set (y := hypot _ _) in *.
    destruct (Rle_dec a (p / 4 - p / 4 * k)) as [A1|A1]; [apply R1; lra|]. destruct (Rle_dec a (p / 4 + p / 4 * k)) as [A2|A2]; [|apply R3; lra]. apply R2; [lra|]. specialize (SL a ltac:(lra)). lra.
  - intros r a z n RP Z. apply abs_le_inv in Z. rewrite V. cbn [x3 y3 z3]. rewrite hypot_polar by exact RP. rewrite (H r a z n (z - p * a / (2 * PI) - IZR n * p)); [|exact RP|unfold Rdiv; ring|lra].
    destruct (R (z - p * a / (2 * PI) - IZR n * p) r) as (_ & R1 & _). rewrite R1 by (apply Rabs_le; exact Z). split; intros (A & C); split; lra.
  - intros r a z n RP Z RR I. apply abs_le_inv in Z. rewrite V in I. cbn [x3 y3 z3] in I. rewrite hypot_polar in I by exact RP. set (u := z - p * a / (2 * PI) - IZR n * p - p / 2) in *.
    assert (HU : exists v, X (V3 (r * cos a) (r * sin a) z) = v /\ p / 4 + p / 4 * k <= Rabs v <= p / 2).
    { destruct (Rlt_dec u 0) as [L|L].
      - exists (u + p / 2). split; [apply (H r a z n); [exact RP|unfold u, Rdiv; ring|lra]|]. rewrite Rabs_pos_eq by lra. lra.
      - exists (u - p / 2). split; [apply (H r a z (n + 1)%Z); [exact RP|rewrite plus_IZR; unfold u, Rdiv; lra|lra]|]. rewrite Rabs_left by lra. lra. }
    destruct HU as (v & HU & VB). rewrite HU in I. destruct I as (I & _). destruct (R v r) as (_ & _ & _ & R3). apply R3 in I; lra.
Qed.
(** ** The buttress threads *)
Lemma root_ratio : 1 < cos (deg 19) / sin (deg 26) < 242 / 100.
Proof.
  pose proof (b_center 0 0 1) as Q. cbv zeta in Q. apply (f_equal y2) in Q. unfold bc in Q. cbn [y2] in Q. pose proof (tan_small 7 ltac:(lra)) as K. destruct (bw (tan (deg 7)) K) as (_ & W & _). destruct half as (_ & _ & S & S0).
  set (k := tan (deg 7)) in *. set (w := sqrt (1 + k * k)) in *. set (c := cos (deg 19) / sin (deg 26)). assert (E : c = (sqrt 2 + w) / (1 + k)) by (unfold c, Rdiv in *; lra). rewrite E. assert (B : 141 / 100 < sqrt 2 < 142 / 100) by (split; nra). clearbody w k. clear Q E.
  split; apply (Rmult_lt_reg_r (1 + k)); try lra; unfold Rdiv; rewrite (Rmult_assoc (sqrt 2 + w)), Rinv_l, Rmult_1_r by lra; nra.
Qed.
(** The crest of width h0/2 - 3P/10 on the 45 degree side of the groove, h0 = P / (1 + tan 7). *)
Theorem C95_ansi_buttress len d p s : screw len (Some (ansi_buttress d p)) = Ok s -> 0 < p -> tolerance < 2 * p ->
  let h0 := p / (1 + tan (deg 7)) in let h := 3 / 10 * p + 1 / 2 * h0 in h < d / 2 ->
  (forall q, d / 2 <= hypot (x3 q) (y3 q) -> ~ ev3 s q < 0) /\
  (forall q, 0 < hypot (x3 q) (y3 q) < d / 2 - h -> Rabs (z3 q) < len / 2 -> ev3 s q < 0) /\
  (forall r a z n, 0 < r -> - (p / 2) <= z - p * a / (2 * PI) - IZR n * p <= - (p / 2) + (h0 / 2 - 3 / 10 * p) -> (ev3 s (V3 (r * cos a) (r * sin a) z) < 0 <-> r < d / 2 /\ Rabs z < len / 2)).
Proof.
  intros E P TOL h0 h DEEP. destruct (C94_ansi_buttress d p P TOL DEEP) as (t & T & R). cbv zeta in R. fold h0 in R. fold h in R. set (k := tan (deg 7)) in *. set (xr := h0 - p / 2) in *. set (rr := 714 / 10000 * p) in *. set (l := rr / tan (deg 26)) in *.
  destruct R as (_ & R1 & R2 & R3 & R4). pose proof (tan_small 7 ltac:(lra)) as K. fold k in K. pose proof root_ratio as RR. assert (HQ : h0 * (1 + k) = p) by (unfold h0; field; lra). assert (H0 : p / 2 < h0 < p) by (clear - HQ K P; split; nra).
  assert (CY : d / 2 - h + rr * cos (deg 19) / sin (deg 26) = d / 2 - h + rr * (cos (deg 19) / sin (deg 26))) by (unfold Rdiv; ring). rewrite CY in R4. set (c := cos (deg 19) / sin (deg 26)) in *. set (cx := xr - _ / sin (deg 26)) in *. clearbody c cx. clear CY.
  assert (RP : 0 < rr) by (unfold rr; lra). assert (RC : rr < rr * c) by (clear - RP RR; nra). assert (RD : rr * c < 242 / 100 * rr) by (clear - RP RR; nra).
  destruct (screw_inside len (ansi_buttress d p) s t p E T eq_refl eq_refl P) as (X & V & B & H). cbn [th_params ansi_buttress buttress basic_params tp_starts] in H.
  split; [|split].
  - intros q Q I. apply V in I. destruct I as (I & _). specialize (B q). set (x := X q) in *. set (y := hypot _ _) in *.
    destruct (Rle_dec x (xr - h)) as [A1|A1]; [apply R1 in I; lra|]. destruct (Rle_dec (xr + h * k) x) as [A2|A2]; [apply R1 in I; lra|].
    destruct (Rle_dec x (xr - l * sin (deg 45))) as [A3|A3]; [apply R3 in I; lra|]. destruct (Rle_dec (xr + l * sin (deg 7)) x) as [A4|A4]; [apply R2 in I; [|lra]; clear - I A2 Q K; nra|].
    destruct (R4 x y ltac:(lra)) as (_ & _ & _ & R5). revert I. apply R5; [unfold h, rr in *; lra|]. apply dist_above; unfold h, rr in *; lra.
  - intros q Q Z. apply V. split; [|exact Z]. specialize (B q). set (x := X q) in *. set (y := hypot _ _) in *.
    destruct (Rle_dec x (xr - h)) as [A1|A1]; [apply R1; unfold h in *; lra|]. destruct (Rle_dec (xr + h * k) x) as [A2|A2]; [apply R1; unfold h in *; lra|].
    assert (L0 : 0 < l). { unfold l. apply Rdiv_lt_0_compat; [exact RP|]. apply tan_small. lra. } pose proof seven as S7. destruct half as (S45 & _ & _ & Q2). assert (S45' : 0 < sin (deg 45)) by (rewrite S45; apply Rinv_0_lt_compat; lra).
    assert (LS : 0 < l * sin (deg 45) /\ 0 < l * sin (deg 7)) by (split; apply Rmult_lt_0_compat; lra).
    destruct (Rle_dec x (xr - l * sin (deg 45))) as [A3|A3]; [apply R3; lra|]. destruct (Rle_dec (xr + l * sin (deg 7)) x) as [A4|A4]; [apply R2; [lra|]; split; [lra|]; clear - A4 Q K LS; nra|].
    destruct (R4 x y ltac:(lra)) as (R5 & _). apply R5; [lra|]. apply dist_below; lra.
  - intros r a z n RP0 Z. rewrite V. cbn [x3 y3 z3]. rewrite hypot_polar by exact RP0. assert (LT : h0 / 2 - 3 / 10 * p < p / 2) by lra. rewrite (H r a z n (z - p * a / (2 * PI) - IZR n * p)); [|exact RP0|unfold Rdiv; ring|lra].
    rewrite R1 by (left; unfold xr, h; lra). split; intros (A & C); split; lra.
Qed.
Theorem C95_plastic_buttress len d p s : screw len (Some (plastic_buttress d p)) = Ok s -> 0 < p -> tolerance < 2 * p ->
  let h0 := p / (1 + tan (deg 7)) in let h := 3 / 10 * p + 1 / 2 * h0 in h < d / 2 ->
  (forall q, d / 2 <= hypot (x3 q) (y3 q) -> ~ ev3 s q < 0) /\
  (forall q, 0 < hypot (x3 q) (y3 q) < d / 2 - h -> Rabs (z3 q) < len / 2 -> ev3 s q < 0) /\
  (forall r a z n, 0 < r -> - (p / 2) <= z - p * a / (2 * PI) - IZR n * p <= - (p / 2) + (h0 / 2 - 3 / 10 * p - 15 / 100 * p * (sqrt 2 - 1)) -> (ev3 s (V3 (r * cos a) (r * sin a) z) < 0 <-> r < d / 2 /\ Rabs z < len / 2)).
Proof.
  intros E P TOL h0 h DEEP. destruct (C94_plastic_buttress d p P TOL DEEP) as (t & T & R). cbv zeta in R. fold h0 in R. fold h in R. set (k := tan (deg 7)) in *. set (xr := h0 - p / 2) in *. set (rr := 15 / 100 * p) in *. set (l := rr / tan (deg 26)) in *. set (r1 := 5 / 100 * p) in *. set (l1 := r1 * _) in *. set (l3 := rr * (sqrt 2 - 1)) in *.
  destruct R as (_ & R1 & R2 & R3 & R4 & RA & RB). pose proof (tan_small 7 ltac:(lra)) as K. fold k in K. pose proof root_ratio as RR. assert (HQ : h0 * (1 + k) = p) by (unfold h0; field; lra). assert (H0 : p / 2 < h0 < p) by (clear - HQ K P; split; nra).
  assert (CY : d / 2 - h + rr * cos (deg 19) / sin (deg 26) = d / 2 - h + rr * (cos (deg 19) / sin (deg 26))) by (unfold Rdiv; ring). rewrite CY in R4. set (c := cos (deg 19) / sin (deg 26)) in *. set (cx := xr - _ / sin (deg 26)) in *. clearbody c cx. clear CY.
  assert (RP : 0 < rr) by (unfold rr; lra). assert (RC : rr < rr * c) by (clear - RP RR; nra). assert (RD : rr * c < 242 / 100 * rr) by (clear - RP RR; nra). assert (RP1 : 0 < r1) by (unfold r1; lra).
  assert (L0 : 0 < l). { unfold l. apply Rdiv_lt_0_compat; [exact RP|]. apply tan_small. lra. } pose proof seven as S7. destruct half as (S45 & _ & S22 & Q2). assert (S45' : 0 < sin (deg 45)) by (rewrite S45; apply Rinv_0_lt_compat; lra).
  assert (LS : 0 < l * sin (deg 45) /\ 0 < l * sin (deg 7)) by (split; apply Rmult_lt_0_compat; lra).
  assert (L3 : 0 < l3) by (unfold l3; apply Rmult_lt_0_compat; [exact RP|clear - S22 Q2; nra]). assert (L1 : 0 < l1). { unfold l1. apply Rmult_lt_0_compat; [exact RP1|]. apply Rdiv_lt_0_compat; [|apply S7]. destruct S7 as (S7 & C7 & Q7). clear - S7 C7 Q7. nra. }
  assert (LS1 : 0 < l1 * sin (deg 7)) by (apply Rmult_lt_0_compat; [exact L1|apply S7]). assert (LS3 : 0 < l3 * sin (deg 45)) by (apply Rmult_lt_0_compat; assumption).
  clearbody l l1 l3.
  destruct (screw_inside len (plastic_buttress d p) s t p E T eq_refl eq_refl P) as (X & V & B & H). cbn [th_params plastic_buttress buttress basic_params tp_starts] in H.
  assert (SIDE : forall x y u v r, v - r <= y - 2 * r -> 0 < r -> x <> u -> r < norm2 (sub2 (V2 x y) (V2 u v))).
  { intros x y u v r Y R0 N. pose proof (norm2_sq (sub2 (V2 x y) (V2 u v))) as W. pose proof (norm2_nonneg (sub2 (V2 x y) (V2 u v))) as N0. set (nn := norm2 _) in *. unfold norm2sq, dot2, sub2 in W. cbn [x2 y2] in W. clearbody nn.
    assert (r * r <= (y - v) * (y - v)) by nra. assert (0 < (x - u) * (x - u)) by (assert (x - u <> 0) by lra; nra). destruct (Rlt_dec r nn) as [L|L]; [exact L|]. assert (nn * nn <= r * r) by nra. lra. }
  split; [|split].
  - intros q Q I. apply V in I. destruct I as (I & _). specialize (B q). set (x := X q) in *. set (y := hypot _ _) in *.
    destruct (Rle_dec x (xr - h - l3)) as [A1|A1]; [apply R1 in I; lra|]. destruct (Rle_dec (xr + h * k + l1) x) as [A2|A2]; [apply R1 in I; lra|].
    destruct (Rle_dec x (xr - h + l3 * sin (deg 45))) as [A5|A5]. { destruct (RB x y ltac:(lra)) as (R5 & _). revert I. apply R5; [lra|]. apply SIDE; lra. }
    destruct (Rle_dec (xr + h * k - l1 * sin (deg 7)) x) as [A6|A6]. { destruct (RA x y ltac:(lra)) as (R5 & _). revert I. apply R5; [lra|]. apply SIDE; lra. }
    destruct (Rle_dec x (xr - l * sin (deg 45))) as [A3|A3]; [apply R3 in I; lra|]. destruct (Rle_dec (xr + l * sin (deg 7)) x) as [A4|A4]; [apply R2 in I; [|lra]; assert (x < xr + h * k) by lra; clear - I H1 Q K; nra|].
    destruct (R4 x y ltac:(lra)) as (_ & _ & _ & R5). revert I. apply R5; [unfold h, rr in *; lra|]. apply dist_above; unfold h, rr in *; lra.
  - intros q Q Z. apply V. split; [|exact Z]. specialize (B q). set (x := X q) in *. set (y := hypot _ _) in *.
    destruct (Rle_dec x (xr - h - l3)) as [A1|A1]; [apply R1; unfold h in *; lra|]. destruct (Rle_dec (xr + h * k + l1) x) as [A2|A2]; [apply R1; unfold h in *; lra|].
    destruct (Rle_dec x (xr - h + l3 * sin (deg 45))) as [A5|A5]. { destruct (RB x y ltac:(lra)) as (_ & _ & _ & R5). apply R5; [unfold h, rr in *; lra|]. apply dist_below; unfold h, rr in *; lra. }
    destruct (Rle_dec (xr + h * k - l1 * sin (deg 7)) x) as [A6|A6]. { destruct (RA x y ltac:(lra)) as (_ & _ & _ & R5). apply R5; [unfold h, r1 in *; lra|]. apply dist_below; unfold h, r1 in *; lra. }
    destruct (Rle_dec x (xr - l * sin (deg 45))) as [A3|A3]; [apply R3; lra|]. destruct (Rle_dec (xr + l * sin (deg 7)) x) as [A4|A4]; [apply R2; [lra|]; split; [lra|]; clear - A4 Q K LS; nra|].
    destruct (R4 x y ltac:(lra)) as (R5 & _). apply R5; [lra|]. apply dist_below; lra.
  - intros r a z n RP0 Z. rewrite V. cbn [x3 y3 z3]. rewrite hypot_polar by exact RP0.
    rewrite (H r a z n (z - p * a / (2 * PI) - IZR n * p)); [|exact RP0|unfold Rdiv; ring|split; lra]. rewrite R1 by (left; unfold xr, h; lra). split; intros (A & C); split; lra.
Qed.
(** ** The axis *)
(** Every straight screw whose profile's material lies above the x axis - all the built-in ones - reports the points of its own axis as not inside. *)
Theorem C95_axis_refuted len th s t z : screw len (Some th) = Ok s -> th_thread th = Ok t -> tp_taper (th_params th) = 0 -> tp_pitch (th_params th) <> 0 ->
  (forall x y, ev2 t (V2 x y) < 0 -> 0 < y) -> ~ ev3 s (V3 0 0 z) < 0.
Proof.
  intros E T TP P U I. destruct (C65_helical len th s E P) as (t' & X & T' & V & _). assert (t' = t) as -> by congruence. rewrite V, TP, atan_0, Rmax_neg_iff in I. cbn [x3 y3 z3] in I.
  destruct I as (I & _). apply U in I. unfold hypot in I. replace (0 * 0 + 0 * 0) with 0 in I by ring. rewrite sqrt_0 in I. lra.
Qed.
Theorem C95_axis_profiles d p t : 0 < p -> tolerance < 2 * p -> tolerance < d -> 8 / 10 * p < d / 2 ->
  (exists ext, th_thread (iso d p ext) = Ok t) \/ th_thread (acme d p) = Ok t \/ th_thread (ansi_buttress d p) = Ok t \/ th_thread (plastic_buttress d p) = Ok t ->
  forall x y, ev2 t (V2 x y) < 0 -> 0 < y.
Proof.
  intros P TOL TOL' DEEP C x y I. destruct (Rlt_dec 0 y) as [Y|Y]; [exact Y|exfalso]. revert I. apply Rnot_lt_le in Y.
  assert (S3 : sqrt 3 < 18 / 10) by (pose proof s3_sq; pose proof s3_pos; nra). assert (D1 : 7 / 8 * (sqrt 3 / 2 * p) < d / 2) by nra.
  assert (D2 : 3 / 10 * p + 1 / 2 * (p / (1 + tan (deg 7))) < d / 2). { pose proof (tan_small 7 ltac:(lra)) as K. assert (HQ : p / (1 + tan (deg 7)) * (1 + tan (deg 7)) = p) by (field; lra). set (h0 := p / _) in *. assert (h0 < p) by (clear - HQ K P; nra). lra. }
  destruct C as [([] & C)|[C|[C|C]]].
  - destruct (C94_iso_external d p P TOL D1) as (t' & T & R). assert (t' = t) as <- by congruence. exact (proj1 (R x y) (or_intror Y)).
  - destruct (C94_iso_internal d p P TOL D1) as (t' & T & R). assert (t' = t) as <- by congruence. exact (proj1 (R x y) (or_intror Y)).
  - destruct (C94_acme d p P TOL') as (t' & T & R); [lra|]. assert (t' = t) as <- by congruence. exact (proj1 (R x y) (or_intror Y)).
  - destruct (C94_ansi_buttress d p P TOL D2) as (t' & T & R & _). assert (t' = t) as <- by congruence. exact (R x y (or_intror Y)).
  - destruct (C94_plastic_buttress d p P TOL D2) as (t' & T & R & _). assert (t' = t) as <- by congruence. exact (R x y (or_intror Y)).
Qed.
(** An M10x1.5 screw, 20 long: material at radius 4.9 on the crest, none at radius 5, none on the axis, material next to it. *)
Example C95_m10 : exists s, screw 20 (Some (iso 10 (3 / 2) true)) = Ok s /\ ev3 s (V3 (49 / 10) 0 0) < 0 /\ ~ ev3 s (V3 5 0 0) < 0 /\ ~ ev3 s (V3 0 0 0) < 0 /\ ev3 s (V3 1 0 0) < 0.
Proof.
  pose proof tol_small as TS. assert (S3 : sqrt 3 < 18 / 10) by (pose proof s3_sq; pose proof s3_pos; nra).
  destruct (C94_iso_external 10 (3 / 2) ltac:(lra) ltac:(lra) ltac:(lra)) as (t & T & _).
  assert (E : exists s, screw 20 (Some (iso 10 (3 / 2) true)) = Ok s). { destruct (screw 20 (Some (iso 10 (3 / 2) true))) as [s| |] eqn:E; [eauto| |]; destruct (C65_defined 20 (Some (iso 10 (3 / 2) true))) as (A & B).
    - apply A in E. destruct E as [E|[E|(t' & E & F)]]; [discriminate|lra|]. injection E as <-. congruence.
    - apply B in E. destruct E as (_ & t' & E & F). injection E as <-. congruence. }
  destruct E as (s & E). exists s. split; [exact E|]. destruct (C95_iso_external 20 10 (3 / 2) s E ltac:(lra) ltac:(lra) ltac:(lra)) as (A & B & C & _).
  assert (HY : forall r, 0 < r -> hypot r 0 = r) by (intros r R; pose proof (hypot_polar r 0 R) as Q; rewrite cos_0, sin_0, Rmult_1_r, Rmult_0_r in Q; exact Q).
  split; [|split; [|split]].
  - specialize (C (49 / 10) 0 0 0%Z ltac:(lra)). rewrite cos_0, sin_0, Rmult_1_r, !Rmult_0_r in C. apply C.
    + replace (0 - 0 / (2 * PI) - 0 * (3 / 2)) with 0 by (field; pose proof PI_RGT_0; lra). rewrite Rabs_R0. lra.
    + rewrite Rabs_R0. lra.
  - apply A. cbn [x3 y3]. rewrite HY by lra. lra.
  - apply (C95_axis_refuted 20 (iso 10 (3 / 2) true) s t 0 E T); [reflexivity|cbn; lra|]. apply (C95_axis_profiles 10 (3 / 2) t); [lra|lra|lra|lra|]. left. now exists true.
  - apply B; cbn [x3 y3 z3]; [rewrite HY by lra; lra|rewrite Rabs_R0; lra].
Qed.
