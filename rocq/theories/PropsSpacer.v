(** C106: the spacers of examples/metric-spacers. *)
From Coq Require Import String Reals Lra Psatz Lia List Bool ZArith.
From Verif Require Import Prelude Vec BoxModel MatrixModel PropsBox PropsMatrix SdfModel SdfLemmas PropsBool PropsCopies Trig PropsUtil PrimModel
  PolyModel PropsPoly ObjModel UtilModel MiscModel PropsForm PropsThread PropsThreadShape PropsConvex PropsParts PropsHex ExampleModel.
Import ListNotations.
Local Open Scope R_scope.

(** ** Discs and corners of the rounded hexagon *)
Lemma norm2_scale_pos k v : 0 <= k -> norm2 (scale2 k v) = k * norm2 v.
Proof.
  intros K. unfold norm2. replace (norm2sq (scale2 k v)) with (k * k * norm2sq v) by (unfold norm2sq, dot2, scale2; cbn; ring).
  rewrite sqrt_mult_alt by nra. now rewrite sqrt_square.
Qed.
Lemma hex_disc r p : 0 < r -> norm2 p < flat_dist r -> exists q, in_hexagon (92/100 * r) q /\ dist2 p q < 8/100 * r.
Proof.
  intros R0 N. pose proof (norm2_nonneg p) as N0. set (a := 92/100 * r * cos (PI / 6)) in *. assert (A0 : 0 < a) by (unfold a; rewrite cos_PI6; pose proof s3_pos; nra).
  unfold flat_dist in N. fold a in N.
  assert (IN : forall q, norm2 q <= a -> in_hexagon (92/100 * r) q).
  { intros q Q j J. fold a. pose proof (dot_le_norm q (flat_dir j) (flat_unit j)) as L. unfold dot2, flat_dir in L. cbn [x2 y2] in L. lra. }
  destruct (Rle_dec (norm2 p) a) as [L|L].
  - exists p. split; [now apply IN|]. unfold dist2. replace (sub2 p p) with (V2 0 0) by (apply v2_ext; cbn; ring). unfold norm2, norm2sq, dot2. cbn. rewrite !Rmult_0_l, Rplus_0_l, sqrt_0. lra.
  - apply Rnot_le_lt in L. set (k := a / norm2 p). assert (K : 0 < k < 1). { unfold k. split; [apply Rdiv_lt_0_compat; lra|]. apply Rmult_lt_reg_r with (norm2 p); [lra|]. unfold Rdiv. rewrite Rmult_assoc, Rinv_l; lra. }
    assert (KN : k * norm2 p = a) by (unfold k; field; lra). exists (scale2 k p). split; [apply IN; rewrite norm2_scale_pos; lra|].
    unfold dist2. replace (sub2 p (scale2 k p)) with (scale2 (1 - k) p) by (apply v2_ext; cbn; ring). rewrite norm2_scale_pos by lra. lra.
Qed.
(** a point of the hexagon lies in one of the twelve right triangles between the axis, a flat and a corner *)
Lemma hex_corner c q : 0 < c -> in_hexagon c q -> norm2sq q <= c * c.
Proof.
  intros C H. assert (E : cos (PI / 6) = sqrt 3 / 2) by apply cos_PI6. pose proof s3_pos as S0. pose proof s3_sq as S1.
  pose proof (H 0%nat ltac:(lia)) as H0. pose proof (H 1%nat ltac:(lia)) as H1. pose proof (H 2%nat ltac:(lia)) as H2. pose proof (H 3%nat ltac:(lia)) as H3. pose proof (H 4%nat ltac:(lia)) as H4. pose proof (H 5%nat ltac:(lia)) as H5. clear H.
  cbn [INR] in *. rewrite E in *.
  replace ((0 + 1 / 2) * (PI / 3)) with (PI / 6) in H0 by field. replace ((1 + 1 / 2) * (PI / 3)) with (PI / 2) in H1 by field. replace ((1 + 1 + 1 / 2) * (PI / 3)) with (PI - PI / 6) in H2 by field.
  replace ((1 + 1 + 1 + 1 / 2) * (PI / 3)) with (PI / 6 + PI) in H3 by field. replace ((1 + 1 + 1 + 1 + 1 / 2) * (PI / 3)) with (PI / 2 + PI) in H4 by field. replace ((1 + 1 + 1 + 1 + 1 + 1 / 2) * (PI / 3)) with (- (PI / 6) + 2 * INR 1 * PI) in H5 by (cbn [INR]; field).
  rewrite cos_period, sin_period, cos_neg, sin_neg in H5. rewrite !neg_cos, !neg_sin in *. rewrite <- Rtrigo_facts.cos_pi_minus in H2 || idtac.
  rewrite ?cos_minus, ?sin_minus, ?cos_PI, ?sin_PI in H2. rewrite ?cos_PI6, ?sin_PI6, ?cos_PI2, ?sin_PI2 in *.
  unfold norm2sq, dot2. set (x := x2 q) in *. set (y := y2 q) in *. set (s := sqrt 3) in *. clearbody x y s. clear E.
  assert (G : forall x y, 0 <= x -> 0 <= y -> x * (s / 2) + y * (1/2) <= c * (s / 2) -> y <= c * (s / 2) -> x * x + y * y <= c * c).
  { clear - S0 S1 C. intros x y X Y A B. assert (A' : x <= c - y / s). { apply Rmult_le_reg_r with s; [lra|]. unfold Rdiv. rewrite Rmult_minus_distr_r, Rmult_assoc, Rinv_l by lra. nra. }
    set (u := y / s) in *. assert (U : y = u * s) by (unfold u; field; lra). assert (0 <= u) by (unfold u; apply Rmult_le_pos; [lra|left; now apply Rinv_0_lt_compat]). clearbody u. subst y. assert (u <= c / 2) by nra.
    replace (u * s * (u * s)) with (u * u * (s * s)) by ring. rewrite S1. nra. }
  destruct (Rle_dec 0 x) as [X|X], (Rle_dec 0 y) as [Y|Y].
  - apply G; lra.
  - replace (y * y) with ((- y) * (- y)) by ring. apply G; lra.
  - replace (x * x) with ((- x) * (- x)) by ring. apply G; lra.
  - replace (y * y) with ((- y) * (- y)) by ring. replace (x * x) with ((- x) * (- x)) by ring. apply G; lra.
Qed.
Lemma hex_reach r p : 0 < r -> (exists q, in_hexagon (92/100 * r) q /\ dist2 p q < 8/100 * r) -> norm2 p < r.
Proof.
  intros R0 (q & H & D). pose proof (hex_corner (92/100 * r) q ltac:(lra) H) as Q.
  assert (NQ : norm2 q <= 92/100 * r). { rewrite <- (sqrt_square (92/100 * r)) by lra. now apply sqrt_le_1_alt. }
  unfold dist2 in D. pose proof (norm2_triangle (sub2 p q) q) as T. replace (add2 (sub2 p q) q) with p in T by (apply v2_ext; cbn; ring). lra.
Qed.

(** ** One spacer *)
(** the bore and the nominal width across flats, Material PLA: 0.3% shrinkage, 0.45 pull shrinkage *)
Definition spacer_bore (d : R) : R := d * (103/100) * (1003/1000) + 45/100.
Definition spacer_flats (d w : R) : Prop := exists n : Z, w = IZR n - 15/100 /\ spacer_bore d * (14/10) <= IZR n < spacer_bore d * (14/10) + 1.
Lemma spacer_flats_ceil d : spacer_flats d (ceilR (spacer_bore d * (14/10)) - 15/100).
Proof. unfold spacer_flats. set (x := spacer_bore d * (14/10)). exists (- Int_part (- x))%Z. unfold ceilR, floorR. rewrite opp_IZR. split; [reflexivity|]. pose proof (base_Int_part (- x)). lra. Qed.
Lemma spacer_radius w : hex_radius_from_ftf w * sqrt 3 = w.
Proof. unfold hex_radius_from_ftf. replace (30 * PI / 180) with (PI / 6) by field. rewrite cos_PI6. pose proof s3_pos. field. lra. Qed.
Lemma spacer_parts d h : 0 < d -> 0 <= h -> exists w hx b s, spacer_flats d w /\ hex_head (hex_radius_from_ftf w) h "" = Ok hx /\ must_cylinder h (spacer_bore d / 2) 0 = Ok b /\
  difference3d (Some hx) (Some b) = Ok s /\ spacer_sdf PLA d h = Ok s /\ 0 < hex_radius_from_ftf w.
Proof.
  intros D H. unfold spacer_sdf, internal_dim_scale, PLA. rewrite (proj2 (Rleb_false _ _)) by lra. cbn [bind].
  replace (d * (1 + 3 / 100) * (3 / 1000 + 1) + 45 / 100) with (spacer_bore d) by (unfold spacer_bore; field).
  pose proof (spacer_flats_ceil d) as F. set (w := ceilR _ - _) in *. clearbody w. exists w.
  assert (W : 0 < w) by (destruct F as (n & -> & N); unfold spacer_bore in N; lra).
  assert (R0 : 0 < hex_radius_from_ftf w) by (pose proof (spacer_radius w); pose proof s3_pos; nra).
  destruct (hex_head_ok _ h "" R0) as (hx & E). destruct (proj2 (cylinder_ok h (spacer_bore d / 2))) as (b & B); [unfold spacer_bore; lra|].
  exists hx, b. rewrite E. cbn [bind]. unfold form_cylinder. rewrite B. cbn [recovered bind]. eexists. do 3 (split; [first [exact F|reflexivity]|]). split; [reflexivity|]. split; [reflexivity|exact R0].
Qed.
Lemma bound_e200 r : 0 < r <= 10 ^ 101 -> 8/100 * r * (8/100 * r) <= max_float64.
Proof. intros R0. apply Rle_trans with (10 ^ 100 * 10 ^ 100); [|apply max_float64_e200]. replace (10 ^ 101) with (10 * 10 ^ 100) in R0 by (cbn [pow]; ring). set (t := 10 ^ 100) in *. clearbody t. nra. Qed.
(** The solid: the rounded hexagonal prism less the bore *)
Theorem C106_spacer d h : 0 < d <= 10 ^ 100 -> 0 < h -> exists s w, spacer_sdf PLA d h = Ok s /\ spacer_flats d w /\
  forall p, ev3 s p < 0 <-> in_hex_head (w / sqrt 3) h false false p /\ spacer_bore d / 2 < hypot (x3 p) (y3 p).
Proof.
  intros D H. destruct (spacer_parts d h ltac:(lra) ltac:(lra)) as (w & hx & b & s & F & E & B & DF & S & R0). exists s, w. split; [exact S|]. split; [exact F|]. intros p.
  destruct (C27_difference (Some hx) (Some b)) as (_ & _ & G). destruct (G s DF) as (s0 & s1 & E0 & E1 & G'). injection E0 as <-. injection E1 as <-. rewrite (proj1 (G' p)). clear G G'.
  pose proof (spacer_radius w) as RW. pose proof s3_pos as S0. pose proof s3_sq as S1. assert (WR : w / sqrt 3 = hex_radius_from_ftf w) by (rewrite <- RW at 1; field; lra). rewrite WR. set (r := hex_radius_from_ftf w) in *. clearbody r.
  assert (SB : 173/100 < sqrt 3 < 174/100) by (split; nra). assert (W : 4/10 < w < 2 * 10 ^ 100 + 10). { destruct F as (n & -> & N). unfold spacer_bore in N. lra. }
  assert (T1 : 10 <= 10 ^ 100) by (apply Rle_trans with (10 ^ 1); [lra|apply Rle_pow; [lra|lia]]).
  rewrite <- (C97_hex_head r h "" false false hx p R0); [| |apply bound_e200|reflexivity|exact E].
  - destruct (cylinder_sign _ _ _ p B) as (_ & C1). split; intros (X & Y); (split; [exact X|]).
    + apply Rnot_le_lt. intros L. assert (ev3 b p <= 0); [|lra]. apply C1. split; [lra|].
      rewrite (C97_hex_head r h "" false false hx p R0) in X; [| |apply bound_e200|reflexivity|exact E]; [left; apply X| |].
      * rewrite sin_PI3. unfold tolerance. simpl pow. set (t := 10 ^ 100) in *. clearbody t. nra.
      * replace (10 ^ 101) with (10 * 10 ^ 100) by (cbn [pow]; ring). set (t := 10 ^ 100) in *. clearbody t. nra.
    + apply Rnot_le_lt. intros L. apply C1 in L. lra.
  - rewrite sin_PI3. unfold tolerance. simpl pow. set (t := 10 ^ 100) in *. clearbody t. nra.
  - replace (10 ^ 101) with (10 * 10 ^ 100) by (cbn [pow]; ring). set (t := 10 ^ 100) in *. clearbody t. nra.
Qed.
(** The screw passes, and there is material all around it *)
Theorem C106_fit d h s : 0 < d <= 10 ^ 100 -> 0 < h -> spacer_sdf PLA d h = Ok s -> forall p, let rho := hypot (x3 p) (y3 p) in
  (rho <= d / 2 + 2/10 -> ~ ev3 s p < 0) /\
  (Rabs (z3 p) < h / 2 -> spacer_bore d / 2 < rho <= spacer_bore d * (7/10) - 75/1000 -> ev3 s p < 0) /\
  spacer_bore d / 2 < spacer_bore d * (7/10) - 75/1000 /\
  (ev3 s p < 0 -> Rabs (z3 p) < h / 2 /\ rho < (spacer_bore d * (14/10) + 85/100) / sqrt 3).
Proof.
  intros D H S p rho. destruct (C106_spacer d h D H) as (s' & w & S' & F & M). rewrite S in S'. injection S' as <-. specialize (M p). fold rho in M.
  destruct F as (n & Wn & N). pose proof s3_pos as S0. pose proof s3_sq as S1. assert (SB : 173/100 < sqrt 3 < 174/100) by (split; nra). set (b := spacer_bore d) in *. assert (Bd : b = d * (103/100) * (1003/1000) + 45/100) by reflexivity. clearbody b.
  assert (R0 : 0 < w / sqrt 3) by (apply Rdiv_lt_0_compat; lra).
  assert (HN : rho = norm2 (V2 (x3 p) (y3 p))) by reflexivity. clearbody rho. split; [|split; [|split]].
  - intros L N'. apply M in N'. lra.
  - intros Z RH. apply M. split; [|lra]. unfold in_hex_head. split; [|split; [exact Z|split; discriminate]]. apply hex_disc; [exact R0|]. rewrite <- HN.
    replace (flat_dist (w / sqrt 3)) with (w / 2 * widened) by (unfold flat_dist, widened; rewrite cos_PI6; field; lra). pose proof widened_range. nra.
  - lra.
  - intros I. apply M in I. destruct I as ((I & Z & _) & _). split; [exact Z|]. apply hex_reach in I; [|exact R0]. rewrite <- HN in I. eapply Rlt_le_trans; [exact I|]. unfold Rdiv. apply Rmult_le_compat_r; [left; now apply Rinv_0_lt_compat|lra].
Qed.
(** a spacer for a screw of diameter 0 or less cannot be built *)
Theorem C106_panics d h : d <= 0 -> spacer_sdf PLA d h = Panicked.
Proof. intros D. unfold spacer_sdf, internal_dim_scale, PLA. rewrite (proj2 (Rleb_true _ _)) by lra. reflexivity. Qed.

(** ** The row *)
Definition row_x (l : list (R * R)) (i : nat) : R := 3 * fold_right (fun d a => fst d + a) 0 (firstn i l).
Definition spacer_input (x : R * R) : Prop := 0 < fst x <= 10 ^ 100 /\ 0 < snd x.
Lemma row_built l : Forall spacer_input l -> forall x, exists ss, spacer_row PLA x l = Ok ss /\ length ss = length l /\
  forall i d, nth_error l i = Some d -> exists s, spacer_sdf PLA (fst d) (snd d) = Ok s /\ nth_error ss i = Some (transform3 s (translate3d (V3 (x + row_x l i) 0 0))).
Proof.
  induction 1 as [|[d h] l (D & H) L IH]; intros x; cbn [spacer_row].
  - exists []. split; [reflexivity|]. split; [reflexivity|]. intros [|i] d E; discriminate.
  - cbn [fst snd] in D, H. destruct (C106_spacer d h D H) as (s & w & S & _). rewrite S. cbn [or_panic bind]. rewrite transform3_ok. cbn [bind].
    destruct (IH (x + d * 3)) as (ss & E & LE & NT). rewrite E. cbn [bind]. eexists. split; [reflexivity|]. split; [cbn; lia|].
    intros [|i] e N; cbn [nth_error] in *.
    + injection N as <-. exists s. split; [exact S|]. unfold row_x. cbn [firstn fold_right]. do 4 f_equal. ring.
    + destruct (NT i e N) as (s' & S' & N'). exists s'. split; [exact S'|]. rewrite N'. do 4 f_equal. unfold row_x. cbn [firstn fold_right fst]. ring.
Qed.
Theorem C106_row l : Forall spacer_input l -> (2 <= length l)%nat -> exists s, spacers l = Ok s /\
  forall p, ev3 s p < 0 <-> exists i d h si, nth_error l i = Some (d, h) /\ spacer_sdf PLA d h = Ok si /\ ev3 si (V3 (x3 p - row_x l i) (y3 p) (z3 p)) < 0.
Proof.
  intros F L. destruct (row_built l F 0) as (ss & E & LE & NT). unfold spacers. rewrite E. cbn [bind].
  destruct (union3d (map Some ss)) as [s| |] eqn:U.
  - exists s. split; [reflexivity|]. intros p. destruct (C27_union _ _ U) as (ss' & ES & _ & M). apply map_some_inj in ES. subst ss'. destruct (M p) as (_ & -> & _).
    assert (PL : forall si i, ev3 (transform3 si (translate3d (V3 (0 + row_x l i) 0 0))) p = ev3 si (V3 (x3 p - row_x l i) (y3 p) (z3 p))) by (intros; rewrite ev_placed3; f_equal; apply v3_ext; cbn; ring).
    split.
    + intros (x & I & N). apply In_nth_error in I. destruct I as (i & I). destruct (nth_error l i) as [[d h]|] eqn:EI; [|apply nth_error_None in EI; assert (i < length ss)%nat by (apply nth_error_Some; congruence); lia].
      destruct (NT i _ EI) as (si & SI & NI). rewrite I in NI. injection NI as ->. rewrite PL in N. exists i, d, h, si. auto.
    + intros (i & d & h & si & EI & SI & N). destruct (NT i _ EI) as (s' & S' & NI). cbn [fst snd] in S'. rewrite SI in S'. injection S' as <-. eexists. split; [eapply nth_error_In; exact NI|]. now rewrite PL.
  - destruct (C27_union_panics (map Some ss)) as (_ & N). congruence.
  - destruct (C27_union_panics (map Some ss)) as (N & _). apply N in U. rewrite map_length in U. destruct U as [U|U]; [lia|]. apply in_map_iff in U. destruct U as (x & X & _). discriminate.
Qed.
(** The spacers are separate when no screw is more than 5/2 times the previous one, less 9/4 *)
Definition gentle (l : list (R * R)) : Prop := forall i a b, nth_error l i = Some a -> nth_error l (S i) = Some b -> fst b <= 5/2 * fst a - 9/4.
Definition reach (d : R) : R := (spacer_bore d * (14/10) + 85/100) / sqrt 3.
Lemma row_step l i a : nth_error l i = Some a -> row_x l (S i) = row_x l i + 3 * fst a.
Proof.
  revert i. induction l as [|x l IH]; intros [|i] E; cbn [nth_error] in E; try discriminate.
  - injection E as ->. unfold row_x. cbn. ring.
  - apply IH in E. unfold row_x in *. cbn [firstn fold_right] in *. lra.
Qed.
Lemma reach_sep a b : 0 < a -> b <= 5/2 * a - 9/4 -> reach a + reach b <= 3 * a.
Proof.
  intros A B. unfold reach, spacer_bore. pose proof s3_pos as S0. pose proof s3_sq as S1. assert (SB : 173205/100000 < sqrt 3) by nra.
  apply Rmult_le_reg_r with (sqrt 3); [lra|]. rewrite Rmult_plus_distr_r. unfold Rdiv. rewrite !(Rmult_assoc _ (/ sqrt 3)), Rinv_l by lra. nra.
Qed.
Lemma row_apart l : Forall spacer_input l -> gentle l -> forall k i a b, nth_error l i = Some a -> nth_error l (i + S k) = Some b -> row_x l i + reach (fst a) <= row_x l (i + S k) - reach (fst b).
Proof.
  intros F G. assert (RP : forall i a, nth_error l i = Some a -> 0 < fst a /\ 0 < reach (fst a)).
  { intros i a E. apply nth_error_In in E. rewrite Forall_forall in F. destruct (F a E) as (A & _). split; [lra|]. unfold reach, spacer_bore. apply Rdiv_lt_0_compat; [lra|apply s3_pos]. }
  induction k as [|k IH]; intros i a b A B.
  - replace (i + 1)%nat with (S i) in * by lia. rewrite (row_step l i a A). pose proof (reach_sep (fst a) (fst b) (proj1 (RP i a A)) (G i a b A B)). lra.
  - replace (i + S (S k))%nat with (S (i + S k)) in * by lia. destruct (nth_error l (i + S k)) as [c|] eqn:C.
    + specialize (IH i a c A C). rewrite (row_step l _ c C). pose proof (reach_sep (fst c) (fst b) (proj1 (RP _ c C)) (G _ c b C B)). pose proof (RP _ c C). lra.
    + apply nth_error_None in C. assert (S (i + S k) < length l)%nat by (apply nth_error_Some; congruence). lia.
Qed.
Theorem C106_apart l i j d h e g si sj p : Forall spacer_input l -> gentle l -> (i < j)%nat -> nth_error l i = Some (d, h) -> nth_error l j = Some (e, g) ->
  spacer_sdf PLA d h = Ok si -> spacer_sdf PLA e g = Ok sj ->
  ~ (ev3 si (V3 (x3 p - row_x l i) (y3 p) (z3 p)) < 0 /\ ev3 sj (V3 (x3 p - row_x l j) (y3 p) (z3 p)) < 0).
Proof.
  intros F G IJ I J SI SJ (A & B). replace j with (i + S (j - S i))%nat in * by lia. pose proof (row_apart l F G _ _ _ _ I J) as L. cbn [fst] in L. rewrite Forall_forall in F.
  destruct (F _ (nth_error_In _ _ I)) as (D & H). destruct (F _ (nth_error_In _ _ J)) as (E & K). cbn [fst snd] in *.
  apply (C106_fit d h si D H SI) in A. apply (C106_fit e g sj E K SJ) in B. destruct A as (_ & A), B as (_ & B). cbn [x3 y3] in A, B. fold (reach d) in A. fold (reach e) in B.
  assert (X : forall x y, Rabs x <= hypot x y). { intros x y. unfold hypot. rewrite <- sqrt_Rsqr_abs. apply sqrt_le_1_alt. unfold Rsqr. nra. }
  pose proof (X (x3 p - row_x l i) (y3 p)) as XA. pose proof (X (x3 p - row_x l (i + S (j - S i))) (y3 p)) as XB.
  apply Rabs_le_between in XA || idtac. assert (Q1 : x3 p - row_x l i < reach d) by (pose proof (Rle_abs (x3 p - row_x l i)); lra). assert (Q2 : - (x3 p - row_x l (i + S (j - S i))) < reach e) by (pose proof (Rle_abs (- (x3 p - row_x l (i + S (j - S i))))) as Q; rewrite Rabs_Ropp in Q; lra). lra.
Qed.
(** Example: the table of the program *)
Example C106_example : Forall spacer_input spacer_table /\ gentle spacer_table /\ exists s, spacers spacer_table = Ok s /\ ~ ev3 s (V3 0 0 0) < 0 /\ ev3 s (V3 2 0 0) < 0 /\ row_x spacer_table 5 = 72 /\ ev3 s (V3 (72 + 9) 0 4) < 0.
Proof.
  assert (T1 : 100 <= 10 ^ 100) by (apply Rle_trans with (10 ^ 2); [lra|apply Rle_pow; [lra|lia]]).
  assert (F : Forall spacer_input spacer_table) by (unfold spacer_table; repeat (apply Forall_cons; [unfold spacer_input; cbn [fst snd]; lra|]); apply Forall_nil).
  assert (G : gentle spacer_table). { intros i a b. do 6 (destruct i as [|i]; [cbn; intros A B; try discriminate; injection A as <-; injection B as <-; cbn [fst]; lra|]). destruct i; discriminate. }
  split; [exact F|]. split; [exact G|]. destruct (C106_row _ F ltac:(cbn; lia)) as (s & E & M). exists s. split; [exact E|].
  assert (AT : forall i d h, nth_error spacer_table i = Some (d, h) -> exists si, spacer_sdf PLA d h = Ok si /\ 0 < d <= 10 ^ 100 /\ 0 < h).
  { intros i d h I. rewrite Forall_forall in F. destruct (F _ (nth_error_In _ _ I)) as (D & H). cbn [fst snd] in *. destruct (C106_spacer d h D H) as (si & _ & S & _). eauto. }
  assert (HY : forall x, 0 <= x -> hypot x 0 = x) by (intros x X; unfold hypot; replace (x * x + 0 * 0) with (x * x) by ring; now apply sqrt_square).
  assert (R5 : row_x spacer_table 5 = 72) by (unfold row_x; cbn; ring).
  assert (IN : forall i d h q, nth_error spacer_table i = Some (d, h) -> Rabs (z3 q) < h / 2 -> y3 q = 0 -> spacer_bore d / 2 < x3 q - row_x spacer_table i <= spacer_bore d * (7/10) - 75/1000 -> 0 < d -> ev3 s q < 0).
  { intros i d h q I Z Y X D0. apply M. destruct (AT i d h I) as (si & SI & D & H). exists i, d, h, si. split; [exact I|]. split; [exact SI|]. apply (C106_fit d h si D H SI); cbn [x3 y3 z3]; [exact Z|]. rewrite Y, HY; [exact X|]. unfold spacer_bore in X. lra. }
  split; [|split; [|split; [exact R5|]]].
  - intros N. apply M in N. destruct N as (i & d & h & si & I & SI & N). cbn [x3 y3 z3] in N. destruct (AT i d h I) as (_ & _ & D & H). destruct (Nat.eq_dec i 0) as [->|NZ].
    + apply (proj1 (C106_fit d h si D H SI _)) in N; [exact N|]. cbn [x3 y3]. unfold row_x. cbn [firstn fold_right]. replace (0 - 3 * 0) with 0 by ring. rewrite HY; lra.
    + destruct (AT 0%nat 3 7 eq_refl) as (s0 & S0 & D0 & H0). apply (C106_fit d h si D H SI) in N. cbn [x3 y3] in N. fold (reach d) in N. destruct N as (_ & N).
      pose proof (row_apart _ F G (i - 1) 0 (3, 7) (d, h) eq_refl ltac:(replace (0 + S (i - 1))%nat with i by lia; exact I)) as L. replace (0 + S (i - 1))%nat with i in L by lia. cbn [fst] in L.
      assert (RX0 : row_x spacer_table 0 = 0) by (unfold row_x; cbn; ring). rewrite RX0 in L. assert (0 < reach 3) by (unfold reach, spacer_bore; apply Rdiv_lt_0_compat; [lra|apply s3_pos]).
      assert (row_x spacer_table i <= hypot (0 - row_x spacer_table i) 0). { unfold hypot. replace ((0 - row_x spacer_table i) * (0 - row_x spacer_table i) + 0 * 0) with (Rsqr (row_x spacer_table i)) by (unfold Rsqr; ring). rewrite sqrt_Rsqr_abs. apply Rle_abs. } lra.
  - apply (IN 0%nat 3 7); cbn [x3 y3 z3]; [reflexivity|rewrite Rabs_R0; lra|reflexivity| |lra]. unfold row_x, spacer_bore. cbn [firstn fold_right]. lra.
  - apply (IN 5%nat 16 10); cbn [x3 y3 z3]; [reflexivity|rewrite Rabs_pos_eq; lra|reflexivity| |lra]. rewrite R5. unfold spacer_bore. lra.
Qed.
