(** C94: the shapes of the thread profiles. *)
From Coq Require Import String Reals Lra Psatz Lia List Bool ZArith.
From Verif Require Import Prelude Vec BoxModel MatrixModel PropsBox PropsMatrix SdfModel SdfLemmas PropsBool Trig PropsUtil
  PolyModel PropsPoly PropsBuilder PropsFillet ObjModel PropsForm PropsThread PropsProfile.
Import ListNotations.
Local Open Scope R_scope.

(** ** A corner between two edges of known directions *)
Lemma unit_of e n w : w = scale2 n e -> 0 < n -> norm2sq e = 1 -> unit2 w = e /\ norm2 w = n.
Proof.
  intros -> N U. assert (NE : norm2 e = 1) by (unfold norm2; rewrite U; apply sqrt_1). rewrite unit_scale by exact N. rewrite norm2_scale by lra. rewrite NE. split; [|ring].
  unfold unit2. rewrite NE. unfold scale2; apply v2_ext; cbn; field.
Qed.
Lemma corner v a b r f e0 e1 n0 n1 dv c0 : sub2 a v = scale2 n0 e0 -> sub2 b v = scale2 n1 e1 -> 0 < n0 -> 0 < n1 -> norm2sq e0 = 1 -> norm2sq e1 = 1 -> cross2 e0 e1 <> 0 ->
  0 < r -> (1 <= f)%Z -> 0 < dv -> dv * dv * (1 - dot2 e0 e1) = r * r * (1 + dot2 e0 e1) -> dot2 (sub2 c0 v) e0 = dv -> dot2 (sub2 c0 v) e1 = dv ->
  cross2 (sub2 a v) (sub2 b v) <> 0 /\ norm2 (sub2 a v) = n0 /\ norm2 (sub2 b v) = n1 /\
  forall pts d, fillet v a b r f pts d -> d = dv /\ exists t, Rabs (IZR f * t) < PI /\ sin (IZR f * t) = - cross2 e0 e1 /\ cos (IZR f * t) = - dot2 e0 e1 /\
    hd zero2 (map pv_pos pts) = add2 v (scale2 dv e0) /\ last (map pv_pos pts) zero2 = add2 v (scale2 dv e1) /\
    (x2 e1 < 0 < x2 e0 -> arc_facts (map pv_pos pts) c0 r t).
Proof.
  intros E0 E1 N0 N1 U0 U1 X RP F DP DE C1 C2. destruct (unit_of _ _ _ E0 N0 U0) as (A0 & B0). destruct (unit_of _ _ _ E1 N1 U1) as (A1 & B1).
  assert (CR : cross2 (sub2 a v) (sub2 b v) <> 0). { rewrite E0, E1. replace (cross2 (scale2 n0 e0) (scale2 n1 e1)) with (n0 * n1 * cross2 e0 e1) by (unfold cross2, scale2; cbn; ring). apply Rmult_integral_contrapositive_currified; [apply Rmult_integral_contrapositive_currified; lra|exact X]. }
  split; [exact CR|]. split; [exact B0|]. split; [exact B1|]. intros pts d FI. pose proof (fillet_len _ _ _ _ _ _ _ CR FI) as (K & DD). pose proof (fillet_shape _ _ _ _ _ _ _ CR RP F FI) as G. cbn zeta in *. rewrite A0, A1 in *.
  assert (D : d = dv). { assert (0 < d) by apply FI. assert (d * d = dv * dv) by (apply (Rmult_eq_reg_r (1 - dot2 e0 e1)); lra). nra. } subst d. split; [reflexivity|].
  destruct G as (c & t & LN & HD & LS & CI & CH & G1 & G2 & TA & ST & CT & LW). exists t. split; [exact TA|]. split; [exact ST|]. split; [exact CT|]. split; [exact HD|]. split; [exact LS|]. intros XE.
  assert (CC : c = c0).
  { destruct c as [cx cy], c0 as [kx ky], v as [vx vy], e0 as [ax ay], e1 as [bx by_]. unfold dot2, sub2, cross2 in *. cbn [x2 y2] in *.
    assert (Q0 : (cx - kx) * ax + (cy - ky) * ay = 0) by lra. assert (Q1 : (cx - kx) * bx + (cy - ky) * by_ = 0) by lra.
    assert (Z0 : (cx - kx) * (ax * by_ - ay * bx) = 0) by (transitivity (((cx - kx) * ax + (cy - ky) * ay) * by_ - ((cx - kx) * bx + (cy - ky) * by_) * ay); [ring|rewrite Q0, Q1; ring]).
    assert (Z1 : (cy - ky) * (ax * by_ - ay * bx) = 0) by (transitivity (((cx - kx) * bx + (cy - ky) * by_) * ax - ((cx - kx) * ax + (cy - ky) * ay) * bx); [ring|rewrite Q0, Q1; ring]).
    apply Rmult_integral in Z0, Z1. f_equal; tauto || (destruct Z0, Z1; lra). }
  subst c. split; [|split; [rewrite map_length, LN; lia|split; [exact CI|exact CH]]]. apply LW.
  assert (x2 (sub2 a v) = n0 * x2 e0) by (rewrite E0; reflexivity). assert (x2 (sub2 b v) = n1 * x2 e1) by (rewrite E1; reflexivity). cbn in *. nra.
Qed.
Lemma pos_iff K e c : 0 < K -> c = K * e -> (0 < c <-> 0 < e).
Proof. intros P ->. split; intros H; nra. Qed.

(** ** The 60 degree profiles *)
Lemma s3_sq : sqrt 3 * sqrt 3 = 3.
Proof. apply sqrt_sqrt. lra. Qed.
Lemma s3_pos : 0 < sqrt 3.
Proof. apply sqrt_lt_R0. lra. Qed.
Lemma thirty : 30 * PI / 180 = PI / 6.
Proof. field. Qed.
Lemma iso_h p : p / (2 * tan (30 * PI / 180)) = sqrt 3 / 2 * p.
Proof. rewrite thirty, tan_PI6. pose proof s3_pos. pose proof s3_sq. field. lra. Qed.
Lemma iso_root p : p / 8 / cos (30 * PI / 180) = sqrt 3 / 12 * p.
Proof. rewrite thirty, cos_PI6. pose proof s3_pos. pose proof s3_sq as Q. apply (Rmult_eq_reg_r (sqrt 3)); [|lra]. transitivity (p / 4); [field; lra|]. replace (sqrt 3 / 12 * p * sqrt 3) with (sqrt 3 * sqrt 3 * p / 12) by field. rewrite Q. field. Qed.
Lemma iso_crest p : p / 16 / cos (30 * PI / 180) = sqrt 3 / 24 * p.
Proof. rewrite thirty, cos_PI6. pose proof s3_pos. pose proof s3_sq as Q. apply (Rmult_eq_reg_r (sqrt 3)); [|lra]. transitivity (p / 8); [field; lra|]. replace (sqrt 3 / 24 * p * sqrt 3) with (sqrt 3 * sqrt 3 * p / 24) by field. rewrite Q. field. Qed.
Lemma turn_120 t : Rabs (5 * t) < PI -> sin (5 * t) = - (sqrt 3 / 2) -> cos (5 * t) = - (1 / 2) -> t = - (2 * PI / 15).
Proof.
  intros A S C. apply Rabs_def2 in A. pose proof PI_RGT_0. assert (E : 5 * t = - (2 * (PI / 3))); [|lra].
  apply sin_cos_eq; try lra; [rewrite S, sin_neg, sin_2PI3; reflexivity|rewrite C, cos_neg, cos_2PI3; lra].
Qed.
Lemma turn_120' t : Rabs (5 * t) < PI -> sin (5 * t) = sqrt 3 / 2 -> cos (5 * t) = - (1 / 2) -> t = 2 * PI / 15.
Proof.
  intros A S C. apply Rabs_def2 in A. pose proof PI_RGT_0. assert (E : 5 * t = 2 * (PI / 3)); [|lra].
  apply sin_cos_eq; try lra; [rewrite S, sin_2PI3; reflexivity|rewrite C, cos_2PI3; lra].
Qed.
Lemma cos_12 : sqrt 3 / 2 < cos (PI / 15).
Proof. rewrite <- cos_PI6. pose proof PI_RGT_0. apply cos_decreasing_1; lra. Qed.
Lemma circle_low F c r t q : arc_facts F c r t -> 0 < r -> In q F -> y2 c - r <= y2 q.
Proof.
  intros (_ & _ & CI & _) R I. specialize (CI _ I). unfold norm2sq, dot2, sub2 in CI. cbn [x2 y2] in CI. apply Rnot_lt_le. intros L. assert (r * r < (y2 c - y2 q) * (y2 c - y2 q)) by (apply Rmult_le_0_lt_compat; lra). pose proof (Rle_0_sqr (x2 q - x2 c)) as Q. unfold Rsqr in Q. lra.
Qed.
Lemma abs_le_inv x a : Rabs x <= a -> - a <= x <= a.
Proof. intros H. unfold Rabs in H. destruct (Rcase_abs x); lra. Qed.

Section External.
Context (rad p : R) (P : 0 < p) (DEEP : 7 / 8 * (sqrt 3 / 2 * p) < rad) (TOL : tolerance < 2 * p).
Let h := sqrt 3 / 2 * p.
Let r0 := rad - 7 / 8 * h.
Let root := sqrt 3 / 12 * p.
Let l := [(V2 p 0, []); (V2 p (r0 + h), []); (V2 (p/2) r0, [MSmooth root 5]); (V2 (1 / 16 * p) rad, []);
      (V2 (- (1 / 16 * p)) rad, []); (V2 (- p / 2) r0, [MSmooth root 5]); (V2 (- p) (r0 + h), []); (V2 (- p) 0, [])].
Let cr := V2 (p / 2) (r0 + h / 3).
Let cl := V2 (- p / 2) (r0 + h / 3).
Lemma ext_root : 0 < root.
Proof. unfold root. pose proof s3_pos. nra. Qed.
Lemma ext_h : 0 < h.
Proof. unfold h. pose proof s3_pos. nra. Qed.
Lemma ext_pts : pts_of l = [pv_at (V2 p 0); pv_at (V2 p (r0 + h)); PV false PvSmooth (V2 (p/2) r0) 5 root; pv_at (V2 (1 / 16 * p) rad);
      pv_at (V2 (- (1 / 16 * p)) rad); PV false PvSmooth (V2 (- p / 2) r0) 5 root; pv_at (V2 (- p) (r0 + h)); pv_at (V2 (- p) 0)].
Proof. pose proof ext_root as Q. unfold pts_of, l. cbn [map fst snd fold_left apply_mod]. destruct (Reqb_spec root 0) as [E|E]; [lra|]. reflexivity. Qed.
Lemma ext_right : let v := V2 (p / 2) r0 in let a := V2 p (r0 + h) in let b := V2 (1 / 16 * p) rad in
  cross2 (sub2 a v) (sub2 b v) <> 0 /\ norm2 (sub2 a v) = p /\ norm2 (sub2 b v) = 7 / 8 * p /\
  forall pts d, fillet v a b root 5 pts d -> d = p / 4 /\ hd zero2 (map pv_pos pts) = V2 (5 / 8 * p) (r0 + h / 4) /\ last (map pv_pos pts) zero2 = V2 (3 / 8 * p) (r0 + h / 4) /\
    arc_facts (map pv_pos pts) cr root (- (2 * PI / 15)).
Proof.
  intros v a b. pose proof s3_pos as S0. pose proof s3_sq as S1. pose proof ext_root as RP.
  destruct (corner v a b root 5 (V2 (1/2) (sqrt 3 / 2)) (V2 (- (1/2)) (sqrt 3 / 2)) p (7 / 8 * p) (p / 4) cr) as (A & B & C & D); try lra; try lia.
  - unfold a, v, sub2, scale2, h; apply v2_ext; cbn [x2 y2]; field.
  - unfold b, v, sub2, scale2, r0, h; apply v2_ext; cbn [x2 y2]; field.
  - unfold norm2sq, dot2; cbn [x2 y2]. nra.
  - unfold norm2sq, dot2; cbn [x2 y2]. nra.
  - unfold cross2; cbn [x2 y2]. nra.
  - unfold dot2, root; cbn [x2 y2]. nra.
  - unfold cr, v, h, dot2, sub2; cbn [x2 y2]. nra.
  - unfold cr, v, h, dot2, sub2; cbn [x2 y2]. nra.
  - split; [exact A|]. split; [exact B|]. split; [exact C|]. intros pts d F. destruct (D pts d F) as (E & t & T1 & T2 & T3 & H & L & AF). split; [exact E|].
    assert (T : t = - (2 * PI / 15)) by (apply turn_120; [exact T1|rewrite T2; unfold cross2; cbn [x2 y2]; field|rewrite T3; unfold dot2; cbn [x2 y2]; nra]).
    split; [rewrite H; unfold v, add2, scale2, h; apply v2_ext; cbn [x2 y2]; field|]. split; [rewrite L; unfold v, add2, scale2, h; apply v2_ext; cbn [x2 y2]; field|]. rewrite <- T. apply AF. cbn [x2]. lra.
Qed.
Lemma ext_left : let v := V2 (- p / 2) r0 in let a := V2 (- (1 / 16 * p)) rad in let b := V2 (- p) (r0 + h) in
  cross2 (sub2 a v) (sub2 b v) <> 0 /\ norm2 (sub2 a v) = 7 / 8 * p /\ norm2 (sub2 b v) = p /\
  forall pts d, fillet v a b root 5 pts d -> d = p / 4 /\ hd zero2 (map pv_pos pts) = V2 (- (3 / 8 * p)) (r0 + h / 4) /\ last (map pv_pos pts) zero2 = V2 (- (5 / 8 * p)) (r0 + h / 4) /\
    arc_facts (map pv_pos pts) cl root (- (2 * PI / 15)).
Proof.
  intros v a b. pose proof s3_pos as S0. pose proof s3_sq as S1. pose proof ext_root as RP.
  destruct (corner v a b root 5 (V2 (1/2) (sqrt 3 / 2)) (V2 (- (1/2)) (sqrt 3 / 2)) (7 / 8 * p) p (p / 4) cl) as (A & B & C & D); try lra; try lia.
  - unfold a, v, sub2, scale2, r0, h; apply v2_ext; cbn [x2 y2]; field.
  - unfold b, v, sub2, scale2, h; apply v2_ext; cbn [x2 y2]; field.
  - unfold norm2sq, dot2; cbn [x2 y2]. nra.
  - unfold norm2sq, dot2; cbn [x2 y2]. nra.
  - unfold cross2; cbn [x2 y2]. nra.
  - unfold dot2, root; cbn [x2 y2]. nra.
  - unfold cl, v, h, dot2, sub2; cbn [x2 y2]. nra.
  - unfold cl, v, h, dot2, sub2; cbn [x2 y2]. nra.
  - split; [exact A|]. split; [exact B|]. split; [exact C|]. intros pts d F. destruct (D pts d F) as (E & t & T1 & T2 & T3 & H & L & AF). split; [exact E|].
    assert (T : t = - (2 * PI / 15)) by (apply turn_120; [exact T1|rewrite T2; unfold cross2; cbn [x2 y2]; field|rewrite T3; unfold dot2; cbn [x2 y2]; nra]).
    split; [rewrite H; unfold v, add2, scale2, h; apply v2_ext; cbn [x2 y2]; field|]. split; [rewrite L; unfold v, add2, scale2, h; apply v2_ext; cbn [x2 y2]; field|]. rewrite <- T. apply AF. cbn [x2]. lra.
Qed.
Lemma ext_tame x m : In x l -> In m (snd x) -> tame_mod m.
Proof. unfold l. intros I J. repeat (destruct I as [<-|I]; [cbn [snd] in J; try (destruct J); subst; cbn; lia || (cbn in *; tauto)|]). destruct I. Qed.
Lemma ext_regular : regular false (pts_of l).
Proof.
  rewrite ext_pts. destruct ext_right as (A1 & A2 & A3 & A4). destruct ext_left as (B1 & B2 & B3 & B4). pose proof ext_root as RP. intros k v i j E T I J.
  destruct k as [|[|[|[|[|[|[|[|k]]]]]]]]; cbn in E; try (injection E as <-; discriminate); [| |destruct k; discriminate].
  - injection E as <-. cbn in I, J. injection I as <-. injection J as <-. unfold at_. cbn [nth pv_pos pv_at pv_radius pv_facets]. split; [exact RP|]. split; [exact A1|]. intros pts d F. rewrite A2, A3. destruct (A4 _ _ F) as (-> & _). lra.
  - injection E as <-. cbn in I, J. injection I as <-. injection J as <-. unfold at_. cbn [nth pv_pos pv_at pv_radius pv_facets]. split; [exact RP|]. split; [exact B1|]. intros pts d F. rewrite B2, B3. destruct (B4 _ _ F) as (-> & _). lra.
Qed.
Lemma ext_vertices : exists F2 F5, vertices_of l = Ok (outline (V2 p (r0 + h) :: F2 ++ V2 (1 / 16 * p) rad :: V2 (- (1 / 16 * p)) rad :: F5 ++ [V2 (- p) (r0 + h)])) /\
  hd zero2 F2 = V2 (5 / 8 * p) (r0 + h / 4) /\ last F2 zero2 = V2 (3 / 8 * p) (r0 + h / 4) /\ arc_facts F2 cr root (- (2 * PI / 15)) /\
  hd zero2 F5 = V2 (- (3 / 8 * p)) (r0 + h / 4) /\ last F5 zero2 = V2 (- (5 / 8 * p)) (r0 + h / 4) /\ arc_facts F5 cl root (- (2 * PI / 15)).
Proof.
  destruct (built_fillets l ext_tame ext_regular) as (blk & dd & V & B). rewrite ext_pts in V, B. cbn [length] in *.
  assert (B0 := B 0%nat _ eq_refl). assert (B1 := B 1%nat _ eq_refl). assert (B2 := B 2%nat _ eq_refl). assert (B3 := B 3%nat _ eq_refl). assert (B4 := B 4%nat _ eq_refl). assert (B5 := B 5%nat _ eq_refl). assert (B6 := B 6%nat _ eq_refl). assert (B7 := B 7%nat _ eq_refl). clear B.
  destruct B0 as [(_ & B0 & _)|(Q & _)]; [|discriminate]. destruct B1 as [(D1 & B1 & _)|(Q & _)]; [|discriminate]. destruct B3 as [(D3 & B3 & _)|(Q & _)]; [|discriminate]. destruct B4 as [(D4 & B4 & _)|(Q & _)]; [|discriminate]. destruct B6 as [(D6 & B6 & _)|(Q & _)]; [|discriminate]. destruct B7 as [(_ & B7 & _)|(Q & _)]; [|discriminate].
  destruct ext_right as (X1 & X2 & X3 & X4). destruct ext_left as (Y1 & Y2 & Y3 & Y4). pose proof ext_root as RP.
  assert (G2 : fillet (V2 (p / 2) r0) (V2 p (r0 + h)) (V2 (1 / 16 * p) rad) root 5 (blk 2%nat) (dd 2%nat)).
  { destruct B2 as [(_ & _ & K)|(_ & i & j & I & J & F)].
    - exfalso. pose proof (sp_fillet (V2 (p / 2) r0) (V2 p (r0 + h)) (V2 (1 / 16 * p) rad) root 5 X1 RP ltac:(lia)) as F. specialize (K eq_refl 1%nat 3%nat eq_refl eq_refl _ _ F). destruct (X4 _ _ F) as (E & _). unfold at_ in K. cbn [nth pv_pos pv_at] in K. rewrite X2, X3, D1, D3, E in K. lra.
    - cbn in I, J. injection I as <-. injection J as <-. exact F. }
  assert (G5 : fillet (V2 (- p / 2) r0) (V2 (- (1 / 16 * p)) rad) (V2 (- p) (r0 + h)) root 5 (blk 5%nat) (dd 5%nat)).
  { destruct B5 as [(_ & _ & K)|(_ & i & j & I & J & F)].
    - exfalso. pose proof (sp_fillet (V2 (- p / 2) r0) (V2 (- (1 / 16 * p)) rad) (V2 (- p) (r0 + h)) root 5 Y1 RP ltac:(lia)) as F. specialize (K eq_refl 4%nat 6%nat eq_refl eq_refl _ _ F). destruct (Y4 _ _ F) as (E & _). unfold at_ in K. cbn [nth pv_pos pv_at] in K. rewrite Y2, Y3, D4, D6, E in K. lra.
    - cbn in I, J. injection I as <-. injection J as <-. exact F. }
  destruct (X4 _ _ G2) as (_ & X5 & X6 & X7). destruct (Y4 _ _ G5) as (_ & Y5 & Y6 & Y7). exists (map pv_pos (blk 2%nat)), (map pv_pos (blk 5%nat)). split; [|repeat (split; [assumption|]); assumption].
  rewrite V. f_equal. cbn [seq flat_map]. rewrite B0, B1, B3, B4, B6, B7. unfold outline. cbn [hd x2]. rewrite !map_app. cbn [map pv_pos pv_at app]. f_equal. f_equal. rewrite <- app_assoc. f_equal. cbn [app]. f_equal. f_equal. rewrite <- app_assoc. f_equal. cbn [app]. f_equal. f_equal. f_equal.
  assert (Q : forall (A : list v2) z d0, last (A ++ [z]) d0 = z) by (intros; apply last_snoc). f_equal. symmetry.
  replace (last _ zero2) with (V2 (- p) (r0 + h)); [reflexivity|]. symmetry. set (F2 := map pv_pos (blk 2%nat)). set (F5 := map pv_pos (blk 5%nat)).
  replace (V2 p (r0 + h) :: F2 ++ V2 (1 / 16 * p) rad :: V2 (- (1 / 16 * p)) rad :: F5 ++ [V2 (- p) (r0 + h)]) with ((V2 p (r0 + h) :: F2 ++ V2 (1 / 16 * p) rad :: V2 (- (1 / 16 * p)) rad :: F5) ++ [V2 (- p) (r0 + h)]) by (cbn; rewrite <- app_assoc; reflexivity). apply Q.
Qed.
Lemma ext_region : exists s, built_polygon l = Ok s /\ forall x y, let a := Rabs x in let ins := ev2 s (V2 x y) < 0 in
  (p <= a \/ y <= 0 -> ~ ins) /\
  (a <= p / 16 -> (ins <-> 0 < y < rad)) /\
  (p / 16 <= a <= 3 / 8 * p -> (ins <-> 0 < y < rad - sqrt 3 * (a - p / 16))) /\
  (3 / 8 * p <= a <= 5 / 8 * p -> let c := rad - 13 / 24 * h in let D := norm2 (sub2 (V2 a y) (V2 (p / 2) c)) in
     (0 < y <= c -> h / 6 < D -> ins) /\ (D < h / 6 * cos (PI / 15) -> ~ ins) /\ (c <= y -> ~ ins)) /\
  (5 / 8 * p <= a < p -> (ins <-> 0 < y < rad + h / 8 - sqrt 3 * (p - a))).
Proof.
  destruct ext_vertices as (F2 & F5 & V & H2 & L2 & A2 & H5 & L5 & A5). set (top := V2 p (r0 + h) :: F2 ++ _) in V. pose proof s3_pos as S0. pose proof s3_sq as S1. pose proof ext_root as RP. pose proof ext_h as HP.
  assert (N2 : F2 <> []) by (destruct A2 as (_ & Q & _); destruct F2; [cbn in Q; lia|discriminate]). assert (N5 : F5 <> []) by (destruct A5 as (_ & Q & _); destruct F5; [cbn in Q; lia|discriminate]).
  assert (TE : top = [V2 p (r0 + h)] ++ F2 ++ [V2 (1 / 16 * p) rad; V2 (- (1 / 16 * p)) rad] ++ F5 ++ [V2 (- p) (r0 + h)]) by reflexivity. clearbody top.
  set (M := [V2 (1 / 16 * p) rad; V2 (- (1 / 16 * p)) rad]) in *. set (TL := F5 ++ [V2 (- p) (r0 + h)]) in *.
  assert (NT : TL <> []) by (unfold TL; destruct F5; discriminate). assert (NM : M <> []) by discriminate.
  assert (HT : hd zero2 TL = hd zero2 F5) by (unfold TL; destruct F5; [congruence|reflexivity]).
  assert (LTL : leftward TL). { apply leftward_app; [apply A5|apply leftward_one|exact N5|discriminate|]. rewrite L5. cbn [hd x2]. lra. }
  assert (LM : leftward (M ++ TL)). { apply leftward_app; [|exact LTL|exact NM|exact NT|]. - intros a b C. apply consecutive_nth in C. destruct C as ([|[|[|j]]] & C1 & C2); cbn in C1, C2; try discriminate. injection C1 as <-. injection C2 as <-. cbn [x2]. lra. - rewrite HT, H5. cbn [last M x2]. lra. }
  assert (L2M : leftward (F2 ++ M ++ TL)). { apply leftward_app; [apply A2|exact LM|exact N2|discriminate|]. rewrite L2. cbn [hd M app x2]. lra. }
  assert (HF : hd zero2 (F2 ++ M ++ TL) = hd zero2 F2) by (destruct F2; [congruence|reflexivity]).
  assert (LW : leftward top). { rewrite TE. apply leftward_app; [apply leftward_one|exact L2M|discriminate|destruct F2; discriminate|]. rewrite HF, H2. cbn [last x2]. lra. }
  assert (HD : hd zero2 top = V2 p (r0 + h)) by (rewrite TE; reflexivity).
  assert (LS : last top zero2 = V2 (- p) (r0 + h)). { rewrite TE. unfold TL. rewrite !app_assoc. apply last_snoc. }
  assert (UP : forall v, In v top -> 0 < y2 v).
  { assert (Y0 : 0 < r0) by (unfold r0, h; lra). intros v I. rewrite TE in I. unfold M, TL in I. rewrite !in_app_iff in I. cbn [In] in I.
    assert (QC : y2 cr - root = r0 + h / 6 /\ y2 cl - root = r0 + h / 6) by (unfold cr, cl, root, h; cbn [y2]; split; field). destruct QC as (QC1 & QC2).
    destruct I as [[<-|[]]|[I|[[<-|[<-|[]]]|[I|[<-|[]]]]]]; cbn [y2]; try lra; try (unfold r0 in Y0; lra).
    - pose proof (circle_low _ _ _ _ _ A2 RP I). lra.
    - pose proof (circle_low _ _ _ _ _ A5 RP I). lra. }
  assert (T2 : (2 <= length top)%nat) by (rewrite TE, !app_length; cbn; lia).
  assert (NP : (3 <= length (outline top))%nat) by (unfold outline; cbn [length]; rewrite app_length; cbn; lia). apply polygon_ok in NP. destruct NP as (s & PS).
  exists s. split; [unfold built_polygon; rewrite V; exact PS|]. intros x y a ins.
  assert (IN : ins <-> under top (V2 x y)). { unfold ins. apply graph_inside; try assumption. rewrite HD, LS. cbn [x2]. lra. }
  assert (EDGE : forall u v, consecutive top u v -> x2 v <= x <= x2 u -> - p < x < p -> (ins <-> 0 < y /\ 0 < cross2 (sub2 u (V2 x y)) (sub2 v (V2 x y)))).
  { intros u v C X XX. rewrite IN. apply under_at; [exact LW|exact C|exact X|]. rewrite HD, LS. cbn [x2]. exact XX. }
  assert (C1 : consecutive top (V2 p (r0 + h)) (hd zero2 F2)) by (rewrite TE; destruct F2 as [|z F2]; [congruence|]; exists [], (F2 ++ M ++ TL); reflexivity).
  assert (C2 : consecutive top (last F2 zero2) (V2 (1 / 16 * p) rad)). { rewrite TE. destruct (exists_last N2) as (F & z & E). rewrite E, last_snoc. exists ([V2 p (r0 + h)] ++ F), (V2 (- (1 / 16 * p)) rad :: TL). unfold M. cbn [app]. rewrite <- !app_assoc. reflexivity. }
  assert (C3 : consecutive top (V2 (1 / 16 * p) rad) (V2 (- (1 / 16 * p)) rad)). { rewrite TE. exists ([V2 p (r0 + h)] ++ F2), TL. unfold M. cbn [app]. reflexivity. }
  assert (C4 : consecutive top (V2 (- (1 / 16 * p)) rad) (hd zero2 F5)). { rewrite TE. unfold TL. destruct F5 as [|z F5]; [congruence|]. exists ([V2 p (r0 + h)] ++ F2 ++ [V2 (1 / 16 * p) rad]), (F5 ++ [V2 (- p) (r0 + h)]). unfold M. cbn [app hd]. rewrite <- !app_assoc. reflexivity. }
  assert (C5 : consecutive top (last F5 zero2) (V2 (- p) (r0 + h))). { rewrite TE. unfold TL. destruct (exists_last N5) as (F & z & E). rewrite E, last_snoc. exists ([V2 p (r0 + h)] ++ F2 ++ M ++ F), []. cbn [app]. rewrite <- !app_assoc. reflexivity. }
  assert (S2 : forall u v, consecutive F2 u v -> consecutive top u v) by (intros u v C; rewrite TE; apply consecutive_r, consecutive_l, C).
  assert (S5 : forall u v, consecutive F5 u v -> consecutive top u v) by (intros u v C; rewrite TE; do 3 apply consecutive_r; apply consecutive_l, C).
  rewrite H2 in C1. rewrite L2 in C2. rewrite H5 in C4. rewrite L5 in C5. clear V TE PS UP T2 HF L2M LM LTL HT NT NM. clearbody M TL ins.
  assert (CY : rad - 13 / 24 * h = r0 + h / 3) by (unfold r0; field). assert (RT : h / 6 = root) by (unfold root, h; field).
  pose proof cos_12 as C12. assert (C12' : p / 8 < root * cos (PI / 15)) by (apply (Rle_lt_trans _ (root * (sqrt 3 / 2))); [unfold root; right; transitivity (sqrt 3 * sqrt 3 * p / 24); [rewrite S1; field|field]|now apply Rmult_lt_compat_l]). pose proof PI_RGT_0 as PP.
  assert (CT : cos (- (2 * PI / 15) / 2) = cos (PI / 15)) by (replace (- (2 * PI / 15) / 2) with (- (PI / 15)) by field; apply cos_neg).
  assert (TR : - PI < - (2 * PI / 15) < 0) by lra. assert (CP : 0 < r0 + h / 3) by (unfold r0, h in *; lra).
  unfold a. split; [|split; [|split; [|split]]].
  - intros X U. apply IN in U. destruct U as (U0 & U & _). rewrite HD, LS in U. cbn [x2 y2] in U, U0. assert (Rabs x < p) by (apply Rabs_def1; lra). lra.
  - intros X. rewrite (EDGE _ _ C3); [|cbn [x2]; split; apply abs_le_inv in X; lra|apply abs_le_inv in X; lra].
    assert (0 < 1 / 8 * p) by lra. rewrite (pos_iff (1 / 8 * p) (rad - y) (cross2 (sub2 _ _) (sub2 _ _))); [|assumption|unfold cross2, sub2; cbn [x2 y2]; field]. lra.
  - intros X. destruct (Rle_dec 0 x) as [PX|PX].
    + rewrite Rabs_pos_eq in * by exact PX. rewrite (EDGE _ _ C2); [|cbn [x2]; lra|lra]. rewrite (pos_iff (5 / 16 * p) (rad - sqrt 3 * (x - p / 16) - y) (cross2 (sub2 _ _) (sub2 _ _))); [lra|lra|]. unfold cross2, sub2, r0, h; cbn [x2 y2]. field.
    + rewrite Rabs_left in * by lra. rewrite (EDGE _ _ C4); [|cbn [x2]; lra|lra]. rewrite (pos_iff (5 / 16 * p) (rad - sqrt 3 * (- x - p / 16) - y) (cross2 (sub2 _ _) (sub2 _ _))); [lra|lra|]. unfold cross2, sub2, r0, h; cbn [x2 y2]. field.
  - cbn zeta. rewrite CY, RT, <- CT. intros X. destruct (Rle_dec 0 x) as [PX|PX].
    + rewrite Rabs_pos_eq in * by exact PX. destruct (valley_zone top F2 cr root _ (V2 x y) LW S2 A2 RP TR) as (Z1 & Z2 & Z3); [rewrite H2, L2; cbn [x2]; lra|rewrite HD, LS; cbn [x2]; lra|].
      cbn [x2 y2 cr] in Z1, Z2, Z3. rewrite IN. split; [exact Z1|]. split; [exact Z2|]. intros Y. apply Z3; [exact Y| |exact CP]. rewrite CT. apply Rabs_def1; lra.
    + rewrite Rabs_left in * by lra. destruct (valley_zone top F5 cl root _ (V2 x y) LW S5 A5 RP TR) as (Z1 & Z2 & Z3); [rewrite H5, L5; cbn [x2]; lra|rewrite HD, LS; cbn [x2]; lra|].
      assert (E : norm2 (sub2 (V2 (- x) y) (V2 (p / 2) (r0 + h / 3))) = norm2 (sub2 (V2 x y) cl)) by (unfold norm2, norm2sq, dot2, sub2, cl; cbn [x2 y2]; f_equal; field). rewrite E.
      cbn [x2 y2 cl] in Z1, Z2, Z3. rewrite IN. split; [exact Z1|]. split; [exact Z2|]. intros Y. apply Z3; [exact Y| |exact CP]. rewrite CT. apply Rabs_def1; lra.
  - intros X. destruct (Rle_dec 0 x) as [PX|PX].
    + rewrite Rabs_pos_eq in * by exact PX. rewrite (EDGE _ _ C1); [|cbn [x2]; lra|lra]. rewrite (pos_iff (3 / 8 * p) (rad + h / 8 - sqrt 3 * (p - x) - y) (cross2 (sub2 _ _) (sub2 _ _))); [lra|lra|]. unfold cross2, sub2, r0, h; cbn [x2 y2]. field.
    + rewrite Rabs_left in * by lra. rewrite (EDGE _ _ C5); [|cbn [x2]; lra|lra]. rewrite (pos_iff (3 / 8 * p) (rad + h / 8 - sqrt 3 * (p - - x) - y) (cross2 (sub2 _ _) (sub2 _ _))); [lra|lra|]. unfold cross2, sub2, r0, h; cbn [x2 y2]. field.
Qed.
End External.

Section Internal.
Context (rad p : R) (P : 0 < p) (DEEP : 7 / 8 * (sqrt 3 / 2 * p) < rad) (TOL : tolerance < 2 * p).
Let h := sqrt 3 / 2 * p.
Let r0 := rad - 7 / 8 * h.
Let minor := r0 + 1 / 4 * h.
Let crest := sqrt 3 / 24 * p.
Let xo := 1 / 8 * p.
Let l := [(V2 p 0, []); (V2 p minor, []); (V2 (p/2 - xo) minor, []); (V2 0 (r0 + h), [MSmooth crest 5]);
      (V2 (- p / 2 + xo) minor, []); (V2 (- p) minor, []); (V2 (- p) 0, [])].
Let c := V2 0 (r0 + 5 / 6 * h).
Lemma int_crest : 0 < crest.
Proof. unfold crest. pose proof s3_pos. nra. Qed.
Lemma int_h : 0 < h.
Proof. unfold h. pose proof s3_pos. nra. Qed.
Lemma int_pts : pts_of l = [pv_at (V2 p 0); pv_at (V2 p minor); pv_at (V2 (p/2 - xo) minor); PV false PvSmooth (V2 0 (r0 + h)) 5 crest;
      pv_at (V2 (- p / 2 + xo) minor); pv_at (V2 (- p) minor); pv_at (V2 (- p) 0)].
Proof. pose proof int_crest as Q. unfold pts_of, l. cbn [map fst snd fold_left apply_mod]. destruct (Reqb_spec crest 0) as [E|E]; [lra|]. reflexivity. Qed.
Lemma int_corner : let v := V2 0 (r0 + h) in let a := V2 (p/2 - xo) minor in let b := V2 (- p / 2 + xo) minor in
  cross2 (sub2 a v) (sub2 b v) <> 0 /\ norm2 (sub2 a v) = 3 / 4 * p /\ norm2 (sub2 b v) = 3 / 4 * p /\
  forall pts d, fillet v a b crest 5 pts d -> d = p / 8 /\ hd zero2 (map pv_pos pts) = V2 (1 / 16 * p) (r0 + 7 / 8 * h) /\ last (map pv_pos pts) zero2 = V2 (- (1 / 16 * p)) (r0 + 7 / 8 * h) /\
    arc_facts (map pv_pos pts) c crest (2 * PI / 15).
Proof.
  intros v a b. pose proof s3_pos as S0. pose proof s3_sq as S1. pose proof int_crest as RP.
  destruct (corner v a b crest 5 (V2 (1/2) (- (sqrt 3 / 2))) (V2 (- (1/2)) (- (sqrt 3 / 2))) (3 / 4 * p) (3 / 4 * p) (p / 8) c) as (A & B & C & D); try lra; try lia.
  - unfold a, v, sub2, scale2, minor, xo, h; apply v2_ext; cbn [x2 y2]; field.
  - unfold b, v, sub2, scale2, minor, xo, h; apply v2_ext; cbn [x2 y2]; field.
  - unfold norm2sq, dot2; cbn [x2 y2]. nra.
  - unfold norm2sq, dot2; cbn [x2 y2]. nra.
  - unfold cross2; cbn [x2 y2]. nra.
  - unfold dot2, crest; cbn [x2 y2]. nra.
  - unfold c, v, h, dot2, sub2; cbn [x2 y2]. nra.
  - unfold c, v, h, dot2, sub2; cbn [x2 y2]. nra.
  - split; [exact A|]. split; [exact B|]. split; [exact C|]. intros pts d F. destruct (D pts d F) as (E & t & T1 & T2 & T3 & H & L & AF). split; [exact E|].
    assert (T : t = 2 * PI / 15) by (apply turn_120'; [exact T1|rewrite T2; unfold cross2; cbn [x2 y2]; field|rewrite T3; unfold dot2; cbn [x2 y2]; nra]).
    split; [rewrite H; unfold v, add2, scale2, h; apply v2_ext; cbn [x2 y2]; field|]. split; [rewrite L; unfold v, add2, scale2, h; apply v2_ext; cbn [x2 y2]; field|]. rewrite <- T. apply AF. cbn [x2]. lra.
Qed.
Lemma int_tame x m : In x l -> In m (snd x) -> tame_mod m.
Proof. unfold l. intros I J. repeat (destruct I as [<-|I]; [cbn [snd] in J; try (destruct J); subst; cbn; lia || (cbn in *; tauto)|]). destruct I. Qed.
Lemma int_regular : regular false (pts_of l).
Proof.
  rewrite int_pts. destruct int_corner as (A1 & A2 & A3 & A4). pose proof int_crest as RP. intros k v i j E T I J.
  destruct k as [|[|[|[|[|[|[|k]]]]]]]; cbn in E; try (injection E as <-; discriminate); [|destruct k; discriminate].
  injection E as <-. cbn in I, J. injection I as <-. injection J as <-. unfold at_. cbn [nth pv_pos pv_at pv_radius pv_facets]. split; [exact RP|]. split; [exact A1|]. intros pts d F. rewrite A2, A3. destruct (A4 _ _ F) as (-> & _). lra.
Qed.
Lemma int_vertices : exists F, vertices_of l = Ok (outline ([V2 p minor; V2 (p/2 - xo) minor] ++ F ++ [V2 (- p / 2 + xo) minor; V2 (- p) minor])) /\
  hd zero2 F = V2 (1 / 16 * p) (r0 + 7 / 8 * h) /\ last F zero2 = V2 (- (1 / 16 * p)) (r0 + 7 / 8 * h) /\ arc_facts F c crest (2 * PI / 15).
Proof.
  destruct (built_fillets l int_tame int_regular) as (blk & dd & V & B). rewrite int_pts in V, B. cbn [length] in *.
  assert (B0 := B 0%nat _ eq_refl). assert (B1 := B 1%nat _ eq_refl). assert (B2 := B 2%nat _ eq_refl). assert (B3 := B 3%nat _ eq_refl). assert (B4 := B 4%nat _ eq_refl). assert (B5 := B 5%nat _ eq_refl). assert (B6 := B 6%nat _ eq_refl). clear B.
  destruct B0 as [(_ & B0 & _)|(Q & _)]; [|discriminate]. destruct B1 as [(D1 & B1 & _)|(Q & _)]; [|discriminate]. destruct B2 as [(D2 & B2 & _)|(Q & _)]; [|discriminate]. destruct B4 as [(D4 & B4 & _)|(Q & _)]; [|discriminate]. destruct B5 as [(D5 & B5 & _)|(Q & _)]; [|discriminate]. destruct B6 as [(_ & B6 & _)|(Q & _)]; [|discriminate].
  destruct int_corner as (X1 & X2 & X3 & X4). pose proof int_crest as RP.
  assert (G : fillet (V2 0 (r0 + h)) (V2 (p/2 - xo) minor) (V2 (- p / 2 + xo) minor) crest 5 (blk 3%nat) (dd 3%nat)).
  { destruct B3 as [(_ & _ & K)|(_ & i & j & I & J & F)].
    - exfalso. pose proof (sp_fillet (V2 0 (r0 + h)) (V2 (p/2 - xo) minor) (V2 (- p / 2 + xo) minor) crest 5 X1 RP ltac:(lia)) as F. specialize (K eq_refl 2%nat 4%nat eq_refl eq_refl _ _ F). destruct (X4 _ _ F) as (E & _). unfold at_ in K. cbn [nth pv_pos pv_at] in K. rewrite X2, X3, D2, D4, E in K. lra.
    - cbn in I, J. injection I as <-. injection J as <-. exact F. }
  destruct (X4 _ _ G) as (_ & X5 & X6 & X7). exists (map pv_pos (blk 3%nat)). split; [|repeat (split; [assumption|]); assumption].
  rewrite V. f_equal. cbn [seq flat_map]. rewrite B0, B1, B2, B4, B5, B6. unfold outline. rewrite !map_app. cbn [hd x2 app]. cbn [map pv_pos pv_at app]. do 3 f_equal. set (F := map pv_pos (blk 3%nat)). rewrite <- app_assoc. f_equal. cbn [app]. do 3 f_equal. f_equal.
  change (- p = x2 (last (([V2 p minor; V2 (p/2 - xo) minor] ++ F ++ [V2 (- p / 2 + xo) minor; V2 (- p) minor])) zero2)).
  replace ([V2 p minor; V2 (p/2 - xo) minor] ++ F ++ [V2 (- p / 2 + xo) minor; V2 (- p) minor]) with (([V2 p minor; V2 (p/2 - xo) minor] ++ F ++ [V2 (- p / 2 + xo) minor]) ++ [V2 (- p) minor]) by (rewrite <- !app_assoc; reflexivity). rewrite last_snoc. reflexivity.
Qed.
Lemma int_region : exists s, built_polygon l = Ok s /\ forall x y, let a := Rabs x in let ins := ev2 s (V2 x y) < 0 in
  (p <= a \/ y <= 0 -> ~ ins) /\
  (a <= p / 16 -> let k := rad - h / 24 in let D := norm2 (sub2 (V2 x y) (V2 0 k)) in
     (k <= y -> h / 12 < D -> ~ ins) /\ (0 < y -> D < h / 12 * cos (PI / 15) -> ins) /\ (0 < y <= k -> ins)) /\
  (p / 16 <= a <= 3 / 8 * p -> (ins <-> 0 < y < rad + h / 8 - sqrt 3 * a)) /\
  (3 / 8 * p <= a < p -> (ins <-> 0 < y < rad - 5 / 8 * h)).
Proof.
  destruct int_vertices as (F & V & H1 & L1 & A1). set (top := [V2 p minor; V2 (p/2 - xo) minor] ++ F ++ _) in V. pose proof s3_pos as S0. pose proof s3_sq as S1. pose proof int_crest as RP. pose proof int_h as HP.
  assert (NF : F <> []) by (destruct A1 as (_ & Q & _); destruct F; [cbn in Q; lia|discriminate]).
  assert (TE : top = [V2 p minor; V2 (p/2 - xo) minor] ++ F ++ [V2 (- p / 2 + xo) minor; V2 (- p) minor]) by reflexivity. clearbody top.
  assert (two : forall u v, x2 v < x2 u -> leftward [u; v]). { intros u v Q a b C. apply consecutive_nth in C. destruct C as ([|[|[|j]]] & K1 & K2); cbn in K1, K2; try discriminate. injection K1 as <-. injection K2 as <-. exact Q. }
  assert (LFT : leftward (F ++ [V2 (- p / 2 + xo) minor; V2 (- p) minor])). { apply leftward_app; [apply A1|apply two; unfold xo; cbn [x2]; lra|exact NF|discriminate|]. rewrite L1. unfold xo; cbn [hd x2]. lra. }
  assert (HF : hd zero2 (F ++ [V2 (- p / 2 + xo) minor; V2 (- p) minor]) = hd zero2 F) by (destruct F; [congruence|reflexivity]).
  assert (LW : leftward top). { rewrite TE. apply leftward_app; [apply two; unfold xo; cbn [x2]; lra|exact LFT|discriminate|destruct F; discriminate|]. rewrite HF, H1. unfold xo; cbn [last x2]. lra. }
  assert (HD : hd zero2 top = V2 p minor) by (rewrite TE; reflexivity).
  assert (LS : last top zero2 = V2 (- p) minor). { rewrite TE. replace ([V2 p minor; V2 (p/2 - xo) minor] ++ F ++ [V2 (- p / 2 + xo) minor; V2 (- p) minor]) with (([V2 p minor; V2 (p/2 - xo) minor] ++ F ++ [V2 (- p / 2 + xo) minor]) ++ [V2 (- p) minor]) by (rewrite <- !app_assoc; reflexivity). apply last_snoc. }
  assert (Y0 : 0 < r0) by (unfold r0, h; lra).
  assert (UP : forall v, In v top -> 0 < y2 v).
  { intros v I. rewrite TE in I. rewrite !in_app_iff in I. cbn [In] in I. assert (QC : y2 c - crest = r0 + 3 / 4 * h) by (unfold c, crest, h; cbn [y2]; field).
    destruct I as [[<-|[<-|[]]]|[I|[<-|[<-|[]]]]]; cbn [y2]; try (unfold minor; lra). pose proof (circle_low _ _ _ _ _ A1 RP I). lra. }
  assert (T2 : (2 <= length top)%nat) by (rewrite TE, !app_length; cbn; lia).
  assert (NP : (3 <= length (outline top))%nat) by (unfold outline; cbn [length]; rewrite app_length; cbn; lia). apply polygon_ok in NP. destruct NP as (s & PS).
  exists s. split; [unfold built_polygon; rewrite V; exact PS|]. intros x y a ins.
  assert (IN : ins <-> under top (V2 x y)). { unfold ins. apply graph_inside; try assumption. rewrite HD, LS. cbn [x2]. lra. }
  assert (EDGE : forall u v, consecutive top u v -> x2 v <= x <= x2 u -> - p < x < p -> (ins <-> 0 < y /\ 0 < cross2 (sub2 u (V2 x y)) (sub2 v (V2 x y)))).
  { intros u v C X XX. rewrite IN. apply under_at; [exact LW|exact C|exact X|]. rewrite HD, LS. cbn [x2]. exact XX. }
  assert (C1 : consecutive top (V2 p minor) (V2 (p/2 - xo) minor)) by (rewrite TE; exists [], (F ++ [V2 (- p / 2 + xo) minor; V2 (- p) minor]); reflexivity).
  assert (C2 : consecutive top (V2 (p/2 - xo) minor) (hd zero2 F)) by (rewrite TE; destruct F as [|z F]; [congruence|]; exists [V2 p minor], (F ++ [V2 (- p / 2 + xo) minor; V2 (- p) minor]); reflexivity).
  assert (C3 : consecutive top (last F zero2) (V2 (- p / 2 + xo) minor)). { rewrite TE. destruct (exists_last NF) as (G & z & E). rewrite E, last_snoc. exists ([V2 p minor; V2 (p/2 - xo) minor] ++ G), [V2 (- p) minor]. cbn [app]. rewrite <- !app_assoc. reflexivity. }
  assert (C4 : consecutive top (V2 (- p / 2 + xo) minor) (V2 (- p) minor)). { rewrite TE. exists ([V2 p minor; V2 (p/2 - xo) minor] ++ F), []. rewrite <- app_assoc. reflexivity. }
  assert (SF : forall u v, consecutive F u v -> consecutive top u v) by (intros u v C; rewrite TE; apply consecutive_r, consecutive_l, C).
  rewrite H1 in C2. rewrite L1 in C3. clear V TE PS UP T2 HF LFT two. clearbody ins.
  assert (CY : rad - h / 24 = r0 + 5 / 6 * h) by (unfold r0; field). assert (RT : h / 12 = crest) by (unfold crest, h; field).
  pose proof cos_12 as C12. assert (C12' : p / 16 < crest * cos (PI / 15)) by (apply (Rle_lt_trans _ (crest * (sqrt 3 / 2))); [unfold crest; right; transitivity (sqrt 3 * sqrt 3 * p / 48); [rewrite S1; field|field]|now apply Rmult_lt_compat_l]). pose proof PI_RGT_0 as PP.
  assert (CT : cos (2 * PI / 15 / 2) = cos (PI / 15)) by (f_equal; field).
  assert (TR : 0 < 2 * PI / 15 < PI) by lra. assert (CP : 0 < r0 + 5 / 6 * h) by lra.
  unfold a. split; [|split; [|split]].
  - intros X U. apply IN in U. destruct U as (U0 & U & _). rewrite HD, LS in U. cbn [x2 y2] in U, U0. assert (Rabs x < p) by (apply Rabs_def1; lra). lra.
  - cbn zeta. rewrite CY, RT, <- CT. intros X. apply abs_le_inv in X. destruct (peak_zone top F c crest _ (V2 x y) LW SF A1 RP TR) as (Z1 & Z2 & Z3); [rewrite H1, L1; cbn [x2]; lra|rewrite HD, LS; cbn [x2]; lra|].
    cbn [x2 y2 c] in Z1, Z2, Z3. rewrite IN. split; [exact Z1|]. split; [exact Z2|]. intros Y. apply Z3; [exact Y|]. rewrite CT. apply Rabs_def1; lra.
  - intros X. destruct (Rle_dec 0 x) as [PX|PX].
    + rewrite Rabs_pos_eq in * by exact PX. rewrite (EDGE _ _ C2); [|unfold xo; cbn [x2]; lra|lra]. rewrite (pos_iff (5 / 16 * p) (rad + h / 8 - sqrt 3 * x - y) (cross2 (sub2 _ _) (sub2 _ _))); [lra|lra|]. unfold cross2, sub2, minor, xo, r0, h; cbn [x2 y2]. field.
    + rewrite Rabs_left in * by lra. rewrite (EDGE _ _ C3); [|unfold xo; cbn [x2]; lra|lra]. rewrite (pos_iff (5 / 16 * p) (rad + h / 8 - sqrt 3 * (- x) - y) (cross2 (sub2 _ _) (sub2 _ _))); [lra|lra|]. unfold cross2, sub2, minor, xo, r0, h; cbn [x2 y2]. field.
  - intros X. destruct (Rle_dec 0 x) as [PX|PX].
    + rewrite Rabs_pos_eq in * by exact PX. rewrite (EDGE _ _ C1); [|unfold xo; cbn [x2]; lra|lra]. rewrite (pos_iff (5 / 8 * p) (rad - 5 / 8 * h - y) (cross2 (sub2 _ _) (sub2 _ _))); [lra|lra|]. unfold cross2, sub2, minor, xo, r0, h; cbn [x2 y2]. field.
    + rewrite Rabs_left in * by lra. rewrite (EDGE _ _ C4); [|unfold xo; cbn [x2]; lra|lra]. rewrite (pos_iff (5 / 8 * p) (rad - 5 / 8 * h - y) (cross2 (sub2 _ _) (sub2 _ _))); [lra|lra|]. unfold cross2, sub2, minor, xo, r0, h; cbn [x2 y2]. field.
Qed.
End Internal.

Section Acme.
Context (rad p k : R) (P : 0 < p) (K : 0 < k < 1) (FAT : p / 4 + p / 4 * k < rad) (DEEP : p / 2 < rad) (TOL : tolerance < 2 * rad).
Let h := rad - 1 / 2 * p.
Let delta := 1 / 4 * p * k.
Let x0 := 1 / 4 * p - delta.
Let x1 := 1 / 4 * p + delta.
Let l : list (v2 * list vmod) := [(V2 rad 0, []); (V2 rad h, []); (V2 x1 h, []); (V2 x0 rad, []); (V2 (- x0) rad, []); (V2 (- x1) h, []); (V2 (- rad) h, []); (V2 (- rad) 0, [])].
Lemma acme_region : exists s, built_polygon l = Ok s /\ forall x y, let a := Rabs x in let ins := ev2 s (V2 x y) < 0 in
  (rad <= a \/ y <= 0 -> ~ ins) /\
  (a <= x0 -> (ins <-> 0 < y < rad)) /\
  (x0 <= a <= x1 -> (ins <-> 0 < y < rad - (a - x0) / k)) /\
  (x1 <= a < rad -> (ins <-> 0 < y < rad - p / 2)).
Proof.
  assert (X0 : 0 < x0) by (unfold x0, delta; nra). assert (DD : 0 < delta) by (unfold delta; nra). assert (X1 : x0 < x1) by (unfold x0, x1; lra). assert (XR : x1 < rad) by (unfold x1, delta; lra). assert (HP : 0 < h) by (unfold h; lra).
  set (top := [V2 rad h; V2 x1 h; V2 x0 rad; V2 (- x0) rad; V2 (- x1) h; V2 (- rad) h]).
  assert (V : vertices_of l = Ok (outline top)). { rewrite vertices_of_plain; [reflexivity|]. intros z I. unfold l in I. cbn [In] in I. repeat (destruct I as [<-|I]; [reflexivity|]). destruct I. }
  assert (CS : forall u v, consecutive top u v -> (u = V2 rad h /\ v = V2 x1 h) \/ (u = V2 x1 h /\ v = V2 x0 rad) \/ (u = V2 x0 rad /\ v = V2 (- x0) rad) \/ (u = V2 (- x0) rad /\ v = V2 (- x1) h) \/ (u = V2 (- x1) h /\ v = V2 (- rad) h)).
  { intros u v C. apply consecutive_nth in C. unfold top in C. destruct C as ([|[|[|[|[|[|j]]]]]] & E1 & E2); cbn in E1, E2; try discriminate; try (destruct j; discriminate); injection E1 as <-; injection E2 as <-; tauto. }
  assert (LW : leftward top). { intros u v C. apply CS in C. decompose [or and] C; subst; cbn [x2]; lra. }
  assert (HD : hd zero2 top = V2 rad h) by reflexivity. assert (LS : last top zero2 = V2 (- rad) h) by reflexivity.
  assert (UP : forall v, In v top -> 0 < y2 v). { intros v I. unfold top in I. cbn [In] in I. decompose [or] I; subst; cbn [y2]; try lra. }
  assert (C1 : consecutive top (V2 rad h) (V2 x1 h)) by (eexists [], _; reflexivity). assert (C2 : consecutive top (V2 x1 h) (V2 x0 rad)) by (eexists [_], _; reflexivity).
  assert (C3 : consecutive top (V2 x0 rad) (V2 (- x0) rad)) by (eexists [_; _], _; reflexivity). assert (C4 : consecutive top (V2 (- x0) rad) (V2 (- x1) h)) by (eexists [_; _; _], _; reflexivity). assert (C5 : consecutive top (V2 (- x1) h) (V2 (- rad) h)) by (eexists [_; _; _; _], _; reflexivity).
  assert (T2 : (2 <= length top)%nat) by (cbn; lia). assert (NP : (3 <= length (outline top))%nat) by (cbn; lia). apply polygon_ok in NP. destruct NP as (s & PS). clearbody top.
  exists s. split; [unfold built_polygon; rewrite V; exact PS|]. intros x y a ins.
  assert (IN : ins <-> under top (V2 x y)). { unfold ins. apply graph_inside; try assumption. rewrite HD, LS. cbn [x2]. lra. }
  assert (EDGE : forall u v, consecutive top u v -> x2 v <= x <= x2 u -> - rad < x < rad -> (ins <-> 0 < y /\ 0 < cross2 (sub2 u (V2 x y)) (sub2 v (V2 x y)))).
  { intros u v C X XX. rewrite IN. apply under_at; [exact LW|exact C|exact X|]. rewrite HD, LS. cbn [x2]. exact XX. }
  unfold a. split; [|split; [|split]].
  - intros X U. apply IN in U. destruct U as (U0 & U & _). rewrite HD, LS in U. cbn [x2 y2] in U, U0. assert (Rabs x < rad) by (apply Rabs_def1; lra). lra.
  - intros X. apply abs_le_inv in X. rewrite (EDGE _ _ C3); [|cbn [x2]; lra|lra]. rewrite (pos_iff (2 * x0) (rad - y) (cross2 (sub2 _ _) (sub2 _ _))); [lra|lra|]. unfold cross2, sub2; cbn [x2 y2]. ring.
  - intros X. destruct (Rle_dec 0 x) as [PX|PX].
    + rewrite Rabs_pos_eq in * by exact PX. rewrite (EDGE _ _ C2); [|cbn [x2]; lra|lra]. rewrite (pos_iff (x1 - x0) (rad - (x - x0) / k - y) (cross2 (sub2 _ _) (sub2 _ _))); [lra|lra|]. unfold cross2, sub2, x0, x1, delta, h; cbn [x2 y2]. field. lra.
    + rewrite Rabs_left in * by lra. rewrite (EDGE _ _ C4); [|cbn [x2]; lra|lra]. rewrite (pos_iff (x1 - x0) (rad - (- x - x0) / k - y) (cross2 (sub2 _ _) (sub2 _ _))); [lra|lra|]. unfold cross2, sub2, x0, x1, delta, h; cbn [x2 y2]. field. lra.
  - intros X. destruct (Rle_dec 0 x) as [PX|PX].
    + rewrite Rabs_pos_eq in * by exact PX. rewrite (EDGE _ _ C1); [|cbn [x2]; lra|lra]. rewrite (pos_iff (rad - x1) (rad - p / 2 - y) (cross2 (sub2 _ _) (sub2 _ _))); [lra|lra|]. unfold cross2, sub2, h; cbn [x2 y2]. field.
    + rewrite Rabs_left in * by lra. rewrite (EDGE _ _ C5); [|cbn [x2]; lra|lra]. rewrite (pos_iff (rad - x1) (rad - p / 2 - y) (cross2 (sub2 _ _) (sub2 _ _))); [lra|lra|]. unfold cross2, sub2, h; cbn [x2 y2]. field.
Qed.
End Acme.

(** ** The buttress profiles *)
Section Buttress.
Context (rad p k : R) (P : 0 < p) (K : 0 < k < 1) (DEEP : 3 / 10 * p + 1 / 2 * (p / (1 + k)) < rad) (TOL : tolerance < 2 * p).
Let h0 := p / (1 + k).
Let h1 := 3 / 10 * p + 1 / 2 * h0.
Let w := sqrt (1 + k * k).
Let s2 := sqrt 2.
Let xr := h0 - p / 2.
Let yr := rad - h1.
Let vr := V2 (xr + h1 * k) rad.
Let vm := V2 xr yr.
Let vl := V2 (xr - h1) rad.
Definition blist (m1 m2 m3 : list vmod) : list (v2 * list vmod) := [(V2 p 0, []); (V2 p rad, []); (vr, m1); (vm, m2); (vl, m3); (V2 (- p) rad, []); (V2 (- p) 0, [])].
Lemma bw : w * w = 1 + k * k /\ 1 < w < 1 + k /\ w < s2.
Proof.
  assert (Q : w * w = 1 + k * k) by (apply sqrt_sqrt; nra). assert (0 <= w) by apply sqrt_pos. split; [exact Q|]. split; [split; nra|]. apply sqrt_lt_1_alt. nra.
Qed.
Lemma bs : s2 * s2 = 2 /\ 141 / 100 < s2 < 142 / 100.
Proof. assert (Q : s2 * s2 = 2) by (apply sqrt_sqrt; lra). assert (0 <= s2) by apply sqrt_pos. split; [exact Q|]. split; nra. Qed.
Lemma bh : h0 * (1 + k) = p /\ 1 / 2 * p < h0 < p /\ 55 / 100 * p < h1 < 8 / 10 * p /\ 0 < yr /\ - (1 / 20) * p < h0 - h1 < 2 / 10 * p.
Proof.
  assert (Q : h0 * (1 + k) = p) by (unfold h0; field; lra). assert (A : 1 / 2 * p < h0 < p) by (split; nra). split; [exact Q|]. split; [exact A|]. split; [unfold h1; lra|]. split; [unfold yr, h1, h0; lra|]. unfold h1. lra.
Qed.
(** The three corners. *)
Let e0 := V2 (k / w) (1 / w).
Let e1 := V2 (- (1 / s2)) (1 / s2).
Definition bd (r : R) : R := r * (w * s2 + 1 - k) / (1 + k).
Definition bc (r : R) : v2 := V2 (xr + r * (k * s2 - w) / (1 + k)) (yr + r * (s2 + w) / (1 + k)).
Lemma be0 : norm2sq e0 = 1.
Proof. destruct bw as (W & (W0 & _) & _). unfold norm2sq, dot2, e0; cbn [x2 y2]. transitivity ((1 + k * k) / (w * w)); [field; lra|]. rewrite W. field. nra. Qed.
Lemma be1 : norm2sq e1 = 1.
Proof. destruct bs as (S & S0). unfold norm2sq, dot2, e1; cbn [x2 y2]. transitivity (2 / (s2 * s2)); [field; lra|]. rewrite S. field. Qed.
Lemma mid_corner r : 0 < r -> cross2 (sub2 vr vm) (sub2 vl vm) <> 0 /\ norm2 (sub2 vr vm) = h1 * w /\ norm2 (sub2 vl vm) = h1 * s2 /\
  forall pts d, fillet vm vr vl r 5 pts d -> d = bd r /\ exists t, Rabs (5 * t) < PI /\ sin (5 * t) = - cross2 e0 e1 /\ cos (5 * t) = - dot2 e0 e1 /\
    hd zero2 (map pv_pos pts) = add2 vm (scale2 (bd r) e0) /\ last (map pv_pos pts) zero2 = add2 vm (scale2 (bd r) e1) /\ arc_facts (map pv_pos pts) (bc r) r t.
Proof.
  intros RP. destruct bw as (W & (W0 & W1) & W2). destruct bs as (S & S0). destruct bh as (H0 & H1 & H2 & H3 & _).
  destruct (corner vm vr vl r 5 e0 e1 (h1 * w) (h1 * s2) (bd r) (bc r)) as (A & B & C & D); try lia; try exact be0; try exact be1; try assumption.
  - unfold vr, vm, sub2, scale2, e0, yr; apply v2_ext; cbn [x2 y2]; field; lra.
  - unfold vl, vm, sub2, scale2, e1, yr; apply v2_ext; cbn [x2 y2]; field; lra.
  - apply Rmult_lt_0_compat; lra.
  - apply Rmult_lt_0_compat; lra.
  - unfold cross2, e0, e1; cbn [x2 y2]. replace (k / w * (1 / s2) - 1 / w * - (1 / s2)) with ((1 + k) / (w * s2)) by (field; lra). apply Rgt_not_eq. apply Rdiv_lt_0_compat; nra.
  - unfold bd. apply Rdiv_lt_0_compat; [|lra]. apply Rmult_lt_0_compat; [exact RP|nra].
  - unfold bd, dot2, e0, e1; cbn [x2 y2]. set (D := w * s2). assert (DP : 0 < D) by (unfold D; nra). assert (DD : D * D = 2 * (1 + k * k)) by (unfold D; transitivity ((w * w) * (s2 * s2)); [ring|rewrite W, S; ring]).
    replace (k / w * - (1 / s2) + 1 / w * (1 / s2)) with ((1 - k) / D) by (unfold D; field; lra).
    apply (Rmult_eq_reg_r (D * ((1 + k) * (1 + k)))); [|nra]. transitivity (r * r * ((D + 1 - k) * (D + 1 - k) * (D - (1 - k)))); [field; split; lra|]. transitivity (r * r * ((D + (1 - k)) * ((1 + k) * (1 + k)))); [|field; lra]. f_equal.
    transitivity ((D + (1 - k)) * (D * D - (1 - k) * (1 - k))); [ring|]. rewrite DD. ring.
  - unfold bd, bc, dot2, sub2, vm, e0; cbn [x2 y2]. replace ((xr + r * (k * s2 - w) / (1 + k) - xr) * (k / w) + (yr + r * (s2 + w) / (1 + k) - yr) * (1 / w)) with (r / ((1 + k) * w) * ((1 + k * k) * s2 + w * (1 - k))) by (field; lra). rewrite <- W. field. lra.
  - unfold bd, bc, dot2, sub2, vm, e1; cbn [x2 y2]. replace ((xr + r * (k * s2 - w) / (1 + k) - xr) * - (1 / s2) + (yr + r * (s2 + w) / (1 + k) - yr) * (1 / s2)) with (r / ((1 + k) * s2) * (s2 * (1 - k) + 2 * w)) by (field; lra). rewrite <- S. field. lra.
  - split; [exact A|]. split; [exact B|]. split; [exact C|]. intros pts d F. destruct (D pts d F) as (E & t & T1 & T2 & T3 & H & L & AF). split; [exact E|]. exists t. split; [exact T1|]. split; [exact T2|]. split; [exact T3|]. split; [exact H|]. split; [exact L|]. apply AF.
    unfold e0, e1; cbn [x2]. split; [|apply Rdiv_lt_0_compat; lra]. assert (0 < 1 / s2) by (apply Rdiv_lt_0_compat; lra). lra.
Qed.
Lemma right_corner r : 0 < r -> cross2 (sub2 (V2 p rad) vr) (sub2 vm vr) <> 0 /\ norm2 (sub2 (V2 p rad) vr) = p - x2 vr /\ norm2 (sub2 vm vr) = h1 * w /\
  forall pts d, fillet vr (V2 p rad) vm r 5 pts d -> d = r * (w - k) /\ exists t, Rabs (5 * t) < PI /\ sin (5 * t) = 1 / w /\ cos (5 * t) = k / w /\
    hd zero2 (map pv_pos pts) = V2 (x2 vr + r * (w - k)) rad /\ last (map pv_pos pts) zero2 = sub2 vr (scale2 (r * (w - k)) e0) /\
    arc_facts (map pv_pos pts) (V2 (x2 vr + r * (w - k)) (rad - r)) r t.
Proof.
  intros RP. destruct bw as (W & (W0 & W1) & W2). destruct bs as (S & S0). destruct bh as (H0 & H1 & H2 & H3 & H4).
  assert (XV : x2 vr < p). { unfold vr, xr; cbn [x2]. replace (h0 - p / 2 + h1 * k) with (h0 * (1 + k) - p / 2 - (h0 - h1) * k) by ring. rewrite H0. nra. }
  destruct (corner vr (V2 p rad) vm r 5 (V2 1 0) (scale2 (-1) e0) (p - x2 vr) (h1 * w) (r * (w - k)) (V2 (x2 vr + r * (w - k)) (rad - r))) as (A & B & C & D); try lia; try assumption; try lra.
  - unfold sub2, scale2, vr; apply v2_ext; cbn [x2 y2]; field.
  - unfold vr, vm, sub2, scale2, e0, yr; apply v2_ext; cbn [x2 y2]; field; lra.
  - apply Rmult_lt_0_compat; lra.
  - unfold norm2sq, dot2; cbn. ring.
  - rewrite <- be0. unfold norm2sq, dot2, scale2; cbn [x2 y2]. ring.
  - unfold cross2, scale2, e0; cbn [x2 y2]. replace (1 * (-1 * (1 / w)) - 0 * (-1 * (k / w))) with (- (1 / w)) by (field; lra). assert (0 < 1 / w) by (apply Rdiv_lt_0_compat; lra). lra.
  - apply Rmult_lt_0_compat; [lra|nra].
  - unfold dot2, scale2, e0; cbn [x2 y2]. apply (Rmult_eq_reg_r w); [|lra]. transitivity (r * r * ((w - k) * (w - k) * (w + k))); [field; lra|]. transitivity (r * r * (w - k)); [|field; lra]. f_equal.
    transitivity ((w - k) * (w * w - k * k)); [ring|]. rewrite W. ring.
  - unfold dot2, sub2, vr; cbn [x2 y2]. ring.
  - unfold dot2, sub2, scale2, e0, vr; cbn [x2 y2]. apply (Rmult_eq_reg_r w); [|lra]. transitivity (r * (1 + k * k - w * k)); [field; lra|]. rewrite <- W. ring.
  - split; [exact A|]. split; [exact B|]. split; [exact C|]. intros pts d F. destruct (D pts d F) as (E & t & T1 & T2 & T3 & H & L & AF). split; [exact E|]. exists t. split; [exact T1|]. split; [rewrite T2; unfold cross2, scale2, e0; cbn [x2 y2]; field; lra|].
    split; [rewrite T3; unfold dot2, scale2, e0; cbn [x2 y2]; field; lra|]. split; [rewrite H; unfold add2, scale2, vr; apply v2_ext; cbn [x2 y2]; ring|]. split; [rewrite L; unfold add2, sub2, scale2; apply v2_ext; cbn [x2 y2]; ring|]. apply AF.
    unfold scale2, e0; cbn [x2]. assert (0 < k / w) by (apply Rdiv_lt_0_compat; lra). lra.
Qed.
Lemma left_corner r : 0 < r -> cross2 (sub2 vm vl) (sub2 (V2 (- p) rad) vl) <> 0 /\ norm2 (sub2 vm vl) = h1 * s2 /\ norm2 (sub2 (V2 (- p) rad) vl) = x2 vl + p /\
  forall pts d, fillet vl vm (V2 (- p) rad) r 5 pts d -> d = r * (s2 - 1) /\ exists t, Rabs (5 * t) < PI /\ sin (5 * t) = 1 / s2 /\ cos (5 * t) = 1 / s2 /\
    hd zero2 (map pv_pos pts) = sub2 vl (scale2 (r * (s2 - 1)) e1) /\ last (map pv_pos pts) zero2 = V2 (x2 vl - r * (s2 - 1)) rad /\
    arc_facts (map pv_pos pts) (V2 (x2 vl - r * (s2 - 1)) (rad - r)) r t.
Proof.
  intros RP. destruct bw as (W & (W0 & W1) & W2). destruct bs as (S & S0). destruct bh as (H0 & H1 & H2 & H3 & H4).
  assert (XV : - p < x2 vl) by (unfold vl, xr; cbn [x2]; lra).
  destruct (corner vl vm (V2 (- p) rad) r 5 (scale2 (-1) e1) (V2 (-1) 0) (h1 * s2) (x2 vl + p) (r * (s2 - 1)) (V2 (x2 vl - r * (s2 - 1)) (rad - r))) as (A & B & C & D); try lia; try assumption; try lra.
  - unfold vl, vm, sub2, scale2, e1, yr; apply v2_ext; cbn [x2 y2]; field; lra.
  - unfold sub2, scale2, vl; apply v2_ext; cbn [x2 y2]; field.
  - apply Rmult_lt_0_compat; lra.
  - rewrite <- be1. unfold norm2sq, dot2, scale2; cbn [x2 y2]. ring.
  - unfold norm2sq, dot2; cbn. ring.
  - unfold cross2, scale2, e1; cbn [x2 y2]. replace (-1 * - (1 / s2) * 0 - -1 * (1 / s2) * -1) with (- (1 / s2)) by (field; lra). assert (0 < 1 / s2) by (apply Rdiv_lt_0_compat; lra). lra.
  - apply Rmult_lt_0_compat; lra.
  - unfold dot2, scale2, e1; cbn [x2 y2]. apply (Rmult_eq_reg_r s2); [|lra]. transitivity (r * r * ((s2 - 1) * (s2 - 1) * (s2 + 1))); [field; lra|]. transitivity (r * r * (s2 - 1)); [|field; lra]. f_equal.
    transitivity ((s2 - 1) * (s2 * s2 - 1)); [ring|]. rewrite S. ring.
  - unfold dot2, sub2, scale2, e1, vl; cbn [x2 y2]. apply (Rmult_eq_reg_r s2); [|lra]. transitivity (r * (2 - s2)); [field; lra|]. rewrite <- S. ring.
  - unfold dot2, sub2, vl; cbn [x2 y2]. ring.
  - split; [exact A|]. split; [exact B|]. split; [exact C|]. intros pts d F. destruct (D pts d F) as (E & t & T1 & T2 & T3 & H & L & AF). split; [exact E|]. exists t. split; [exact T1|]. split; [rewrite T2; unfold cross2, scale2, e1; cbn [x2 y2]; field; lra|].
    split; [rewrite T3; unfold dot2, scale2, e1; cbn [x2 y2]; field; lra|]. split; [rewrite H; unfold add2, sub2, scale2; apply v2_ext; cbn [x2 y2]; ring|]. split; [rewrite L; unfold add2, scale2, vl; apply v2_ext; cbn [x2 y2]; ring|]. apply AF.
    unfold scale2, e1; cbn [x2]. assert (0 < 1 / s2) by (apply Rdiv_lt_0_compat; lra). lra.
Qed.
Lemma bd_bounds r : 0 < r -> 0 < bd r < 3 * r.
Proof.
  intros R. destruct bw as (W & (W0 & W1) & W2). destruct bs as (S & S0). unfold bd. split; [apply Rdiv_lt_0_compat; [apply Rmult_lt_0_compat; [exact R|nra]|lra]|].
  apply (Rmult_lt_reg_r (1 + k)); [lra|]. unfold Rdiv. rewrite Rmult_assoc, Rinv_l, Rmult_1_r by lra. assert (w * s2 < 2) by nra. nra.
Qed.
Lemma bx : x2 vr < 6 / 10 * p /\ - (56 / 100) * p < x2 vl.
Proof.
  destruct bh as (H0 & H1 & H2 & H3 & H4). unfold vr, vl, xr; cbn [x2]. split; [|lra].
  replace (h0 - p / 2 + h1 * k) with (h0 * (1 + k) - p / 2 - (h0 - h1) * k) by ring. rewrite H0. nra.
Qed.
(** The outline above the x axis. *)
Definition btop (F2 F3 F4 : list v2) : list v2 := V2 p rad :: F2 ++ F3 ++ F4 ++ [V2 (- p) rad].
Lemma last_btop F2 F3 F4 : last (btop F2 F3 F4) zero2 = V2 (- p) rad.
Proof. unfold btop. replace (V2 p rad :: F2 ++ F3 ++ F4 ++ [V2 (- p) rad]) with ((V2 p rad :: F2 ++ F3 ++ F4) ++ [V2 (- p) rad]) by (cbn [app]; rewrite <- !app_assoc; reflexivity). apply last_snoc. Qed.
Definition mid_arc (r : R) (F : list v2) (t : R) : Prop := Rabs (5 * t) < PI /\ sin (5 * t) = - cross2 e0 e1 /\ cos (5 * t) = - dot2 e0 e1 /\
    hd zero2 F = add2 vm (scale2 (bd r) e0) /\ last F zero2 = add2 vm (scale2 (bd r) e1) /\ arc_facts F (bc r) r t.
Definition right_arc (r : R) (F : list v2) (t : R) : Prop := Rabs (5 * t) < PI /\ sin (5 * t) = 1 / w /\ cos (5 * t) = k / w /\
    hd zero2 F = V2 (x2 vr + r * (w - k)) rad /\ last F zero2 = sub2 vr (scale2 (r * (w - k)) e0) /\
    arc_facts F (V2 (x2 vr + r * (w - k)) (rad - r)) r t.
Definition left_arc (r : R) (F : list v2) (t : R) : Prop := Rabs (5 * t) < PI /\ sin (5 * t) = 1 / s2 /\ cos (5 * t) = 1 / s2 /\
    hd zero2 F = sub2 vl (scale2 (r * (s2 - 1)) e1) /\ last F zero2 = V2 (x2 vl - r * (s2 - 1)) rad /\
    arc_facts F (V2 (x2 vl - r * (s2 - 1)) (rad - r)) r t.
Lemma blist_tame m1 m2 m3 x m : (forall m, In m (m1 ++ m2 ++ m3) -> tame_mod m) -> In x (blist m1 m2 m3) -> In m (snd x) -> tame_mod m.
Proof. unfold blist. intros T I J. repeat (destruct I as [<-|I]; [cbn [snd] in J; first [destruct J; fail|apply T; rewrite !in_app_iff; tauto]|]). destruct I. Qed.
Lemma smooth_pts r : 0 < r -> Reqb r 0 = false.
Proof. intros R. destruct (Reqb_spec r 0); [lra|reflexivity]. Qed.
(** One rounded corner. *)
Lemma one_vertices r : 0 < r <= 15 / 100 * p -> exists F t, vertices_of (blist [] [MSmooth r 5] []) = Ok (outline (btop [vr] F [vl])) /\ mid_arc r F t.
Proof.
  intros (RP & RM). destruct bw as (W & (W0 & W1) & W2). destruct bs as (S & S0). destruct bh as (H0 & H1 & H2 & H3 & H4). destruct (bd_bounds r RP) as (B1 & B2). destruct (mid_corner r RP) as (X1 & X2 & X3 & X4).
  assert (LW0 : 55 / 100 * p < h1 * w) by (clear - H2 W0; nra). assert (LS0 : 55 / 100 * p < h1 * s2) by (clear - H2 S0; nra). remember (h1 * w) as N1 eqn:EN1. remember (h1 * s2) as N2 eqn:EN2.
  assert (PT : pts_of (blist [] [MSmooth r 5] []) = [pv_at (V2 p 0); pv_at (V2 p rad); pv_at vr; PV false PvSmooth vm 5 r; pv_at vl; pv_at (V2 (- p) rad); pv_at (V2 (- p) 0)]) by (unfold pts_of, blist; cbn [map fst snd fold_left apply_mod]; rewrite (smooth_pts r RP); reflexivity).
  assert (RG : regular false (pts_of (blist [] [MSmooth r 5] []))).
  { rewrite PT. intros j v i q E T I J. destruct j as [|[|[|[|[|[|[|j]]]]]]]; cbn in E; try (injection E as <-; discriminate); [|destruct j; discriminate].
    injection E as <-. cbn in I, J. injection I as <-. injection J as <-. unfold at_. cbn [nth pv_pos pv_at pv_radius pv_facets]. split; [exact RP|]. split; [exact X1|]. intros pts d F. rewrite X2, X3. destruct (X4 _ _ F) as (-> & _). lra. }
  destruct (built_fillets (blist [] [MSmooth r 5] [])) as (blk & dd & V & B); [|exact RG|].
  { intros x m. apply blist_tame. intros m0 [<-|[]]. cbn. lia. }
  rewrite PT in V, B. cbn [length] in *.
  assert (B0' := B 0%nat _ eq_refl). assert (B1' := B 1%nat _ eq_refl). assert (B2' := B 2%nat _ eq_refl). assert (B3' := B 3%nat _ eq_refl). assert (B4' := B 4%nat _ eq_refl). assert (B5' := B 5%nat _ eq_refl). assert (B6' := B 6%nat _ eq_refl). clear B.
  destruct B0' as [(_ & B0 & _)|(Q & _)]; [|discriminate]. destruct B1' as [(D1 & B1' & _)|(Q & _)]; [|discriminate]. destruct B2' as [(D2 & B2' & _)|(Q & _)]; [|discriminate]. destruct B4' as [(D4 & B4' & _)|(Q & _)]; [|discriminate]. destruct B5' as [(D5 & B5' & _)|(Q & _)]; [|discriminate]. destruct B6' as [(_ & B6' & _)|(Q & _)]; [|discriminate].
  assert (G : fillet vm vr vl r 5 (blk 3%nat) (dd 3%nat)).
  { destruct B3' as [(_ & _ & Q)|(_ & i & j & I & J & F)].
    - exfalso. pose proof (sp_fillet vm vr vl r 5 X1 RP ltac:(lia)) as F. specialize (Q eq_refl 2%nat 4%nat eq_refl eq_refl _ _ F). destruct (X4 _ _ F) as (E & _). unfold at_ in Q. cbn [nth pv_pos pv_at] in Q. rewrite X2, X3, D2, D4, E in Q. destruct Q; lra.
    - cbn in I, J. injection I as <-. injection J as <-. exact F. }
  destruct (X4 _ _ G) as (_ & t & X5). exists (map pv_pos (blk 3%nat)), t. split; [|exact X5].
  rewrite V. f_equal. cbn [seq flat_map]. rewrite B0, B1', B2', B4', B5', B6'. unfold outline. rewrite last_btop, !map_app. cbn [hd x2 app btop]. cbn [map pv_pos pv_at app]. do 3 f_equal. rewrite <- app_assoc. reflexivity.
Qed.
(** Three rounded corners. *)
Lemma three_vertices r1 r2 r3 : 0 < r1 <= 5 / 100 * p -> 0 < r2 <= 15 / 100 * p -> 0 < r3 <= 15 / 100 * p ->
  exists F2 F3 F4 t2 t3 t4, vertices_of (blist [MSmooth r1 5] [MSmooth r2 5] [MSmooth r3 5]) = Ok (outline (btop F2 F3 F4)) /\ right_arc r1 F2 t2 /\ mid_arc r2 F3 t3 /\ left_arc r3 F4 t4.
Proof.
  intros (RP1 & RM1) (RP2 & RM2) (RP3 & RM3). destruct bw as (W & (W0 & W1) & W2). destruct bs as (S & S0). destruct bh as (H0 & H1 & H2 & H3 & H4). destruct bx as (H5 & H6). destruct (bd_bounds r2 RP2) as (B1 & B2).
  destruct (right_corner r1 RP1) as (X1 & X2 & X3 & X4). destruct (mid_corner r2 RP2) as (Y1 & Y2 & Y3 & Y4). destruct (left_corner r3 RP3) as (Z1 & Z2 & Z3 & Z4).
  set (M1 := [MSmooth r1 5]). set (M2 := [MSmooth r2 5]). set (M3 := [MSmooth r3 5]).
  assert (PT : pts_of (blist M1 M2 M3) = [pv_at (V2 p 0); pv_at (V2 p rad); PV false PvSmooth vr 5 r1; PV false PvSmooth vm 5 r2; PV false PvSmooth vl 5 r3; pv_at (V2 (- p) rad); pv_at (V2 (- p) 0)]) by (unfold pts_of, blist, M1, M2, M3; cbn [map fst snd fold_left apply_mod]; rewrite (smooth_pts r1 RP1), (smooth_pts r2 RP2), (smooth_pts r3 RP3); reflexivity).
  assert (Q1 : 0 < r1 * (w - k) <= 5 / 100 * p) by (clear - RP1 RM1 W0 W1 K P; split; nra). assert (Q3 : 0 < r3 * (s2 - 1) <= 7 / 100 * p) by (clear - RP3 RM3 S0 P; split; nra).
  assert (LW0 : 55 / 100 * p < h1 * w) by (clear - H2 W0; nra). assert (LS0 : 55 / 100 * p < h1 * s2) by (clear - H2 S0; nra).
  remember (r1 * (w - k)) as d1 eqn:ED1. remember (r3 * (s2 - 1)) as d3 eqn:ED3. remember (h1 * w) as N1 eqn:EN1. remember (h1 * s2) as N2 eqn:EN2. remember (bd r2) as d2 eqn:ED2.
  assert (RG : regular false (pts_of (blist M1 M2 M3))).
  { rewrite PT. intros j v i q E T I J. destruct j as [|[|[|[|[|[|[|j]]]]]]]; cbn in E; try (injection E as <-; discriminate); [| | |destruct j; discriminate];
      injection E as <-; cbn in I, J; injection I as <-; injection J as <-; unfold at_; cbn [nth pv_pos pv_at pv_radius pv_facets]; (split; [assumption|]); (split; [assumption|]); intros pts d F.
    - rewrite X2, X3. destruct (X4 _ _ F) as (-> & _). lra.
    - rewrite Y2, Y3. destruct (Y4 _ _ F) as (-> & _). lra.
    - rewrite Z2, Z3. destruct (Z4 _ _ F) as (-> & _). lra. }
  destruct (built_fillets (blist M1 M2 M3)) as (blk & dd & V & B); [|exact RG|].
  { intros x m. apply blist_tame. intros m0 [<-|[<-|[<-|[]]]]; cbn; lia. }
  rewrite PT in V, B. cbn [length] in *.
  assert (B0' := B 0%nat _ eq_refl). assert (B1' := B 1%nat _ eq_refl). assert (B2' := B 2%nat _ eq_refl). assert (B3' := B 3%nat _ eq_refl). assert (B4' := B 4%nat _ eq_refl). assert (B5' := B 5%nat _ eq_refl). assert (B6' := B 6%nat _ eq_refl). clear B.
  destruct B0' as [(_ & B0 & _)|(Q & _)]; [|discriminate]. destruct B1' as [(D1 & B1' & _)|(Q & _)]; [|discriminate]. destruct B5' as [(D5 & B5' & _)|(Q & _)]; [|discriminate]. destruct B6' as [(_ & B6' & _)|(Q & _)]; [|discriminate].
  pose proof (sp_fillet vr (V2 p rad) vm r1 5 X1 RP1 ltac:(lia)) as S1. pose proof (sp_fillet vm vr vl r2 5 Y1 RP2 ltac:(lia)) as S2'. pose proof (sp_fillet vl vm (V2 (- p) rad) r3 5 Z1 RP3 ltac:(lia)) as S3.
  cbn [pv_pos pv_radius pv_facets] in B2', B3', B4'.
  assert (E2 : dd 2%nat <= 5 / 100 * p). { destruct B2' as [(E & _)|(_ & i & j & I & J & F)]; [lra|]. cbn in I, J. injection I as <-. injection J as <-. destruct (X4 _ _ F) as (E & _). lra. }
  assert (E3 : dd 3%nat <= d2). { destruct B3' as [(E & _)|(_ & i & j & I & J & F)]; [lra|]. cbn in I, J. injection I as <-. injection J as <-. destruct (Y4 _ _ F) as (E & _). lra. }
  assert (E4 : dd 4%nat <= 7 / 100 * p). { destruct B4' as [(E & _)|(_ & i & j & I & J & F)]; [lra|]. cbn in I, J. injection I as <-. injection J as <-. destruct (Z4 _ _ F) as (E & _). lra. }
  assert (G2 : fillet vr (V2 p rad) vm r1 5 (blk 2%nat) (dd 2%nat)).
  { destruct B2' as [(_ & _ & Q)|(_ & i & j & I & J & F)].
    - exfalso. specialize (Q eq_refl 1%nat 3%nat eq_refl eq_refl _ _ S1). destruct (X4 _ _ S1) as (E & _). unfold at_ in Q. cbn [nth pv_pos pv_at] in Q. rewrite X2, X3, D1, E in Q. destruct Q; lra.
    - cbn in I, J. injection I as <-. injection J as <-. exact F. }
  assert (G3 : fillet vm vr vl r2 5 (blk 3%nat) (dd 3%nat)).
  { destruct B3' as [(_ & _ & Q)|(_ & i & j & I & J & F)].
    - exfalso. specialize (Q eq_refl 2%nat 4%nat eq_refl eq_refl _ _ S2'). destruct (Y4 _ _ S2') as (E & _). unfold at_ in Q. cbn [nth pv_pos pv_at] in Q. rewrite Y2, Y3, E in Q. destruct Q; lra.
    - cbn in I, J. injection I as <-. injection J as <-. exact F. }
  assert (G4 : fillet vl vm (V2 (- p) rad) r3 5 (blk 4%nat) (dd 4%nat)).
  { destruct B4' as [(_ & _ & Q)|(_ & i & j & I & J & F)].
    - exfalso. specialize (Q eq_refl 3%nat 5%nat eq_refl eq_refl _ _ S3). destruct (Z4 _ _ S3) as (E & _). unfold at_ in Q. cbn [nth pv_pos pv_at] in Q. rewrite Z2, Z3, D5, E in Q. destruct Q; lra.
    - cbn in I, J. injection I as <-. injection J as <-. exact F. }
  destruct (X4 _ _ G2) as (_ & t2 & K2). destruct (Y4 _ _ G3) as (_ & t3 & K3). destruct (Z4 _ _ G4) as (_ & t4 & K4).
  exists (map pv_pos (blk 2%nat)), (map pv_pos (blk 3%nat)), (map pv_pos (blk 4%nat)), t2, t3, t4. split; [|unfold right_arc, mid_arc, left_arc; rewrite <- ED1, <- ED2, <- ED3; split; [exact K2|split; [exact K3|exact K4]]].
  rewrite V. f_equal. cbn [seq flat_map]. rewrite B0, B1', B5', B6'. unfold outline. rewrite last_btop, !map_app. cbn [hd x2 app btop]. cbn [map pv_pos pv_at app]. do 2 f_equal. rewrite <- !app_assoc. reflexivity.
Qed.
Lemma leftward_two u v : x2 v < x2 u -> leftward [u; v].
Proof. intros Q a b C. apply consecutive_nth in C. destruct C as ([|[|[|j]]] & K1 & K2); cbn in K1, K2; try discriminate. injection K1 as <-. injection K2 as <-. exact Q. Qed.
Lemma hd_app_ne (l m : list v2) : l <> [] -> hd zero2 (l ++ m) = hd zero2 l.
Proof. destruct l; [congruence|reflexivity]. Qed.
Lemma last_app_ne (l m : list v2) : m <> [] -> last (l ++ m) zero2 = last m zero2.
Proof. intros N. destruct (exists_last N) as (m' & z & ->). rewrite app_assoc, !last_snoc. reflexivity. Qed.
Lemma consecutive_join (l m : list v2) : l <> [] -> m <> [] -> consecutive (l ++ m) (last l zero2) (hd zero2 m).
Proof. intros N M. destruct (exists_last N) as (l' & z & ->). destruct m as [|a m]; [congruence|]. rewrite last_snoc. exists l', m. rewrite <- app_assoc. reflexivity. Qed.
Lemma b_region F2 F3 F4 r t d1 d3 : 0 < r <= 15 / 100 * p -> 0 <= d1 <= 5 / 100 * p -> 0 <= d3 <= 7 / 100 * p -> mid_arc r F3 t -> - PI < t < 0 ->
  leftward F2 -> F2 <> [] -> hd zero2 F2 = V2 (x2 vr + d1) rad -> last F2 zero2 = sub2 vr (scale2 d1 e0) -> (forall q, In q F2 -> 0 < y2 q) ->
  leftward F4 -> F4 <> [] -> hd zero2 F4 = sub2 vl (scale2 d3 e1) -> last F4 zero2 = V2 (x2 vl - d3) rad -> (forall q, In q F4 -> 0 < y2 q) ->
  let top := btop F2 F3 F4 in exists s, polygon (outline top) = Ok s /\ leftward top /\ (forall q, ev2 s q < 0 <-> under top q) /\
    (forall u v, consecutive F2 u v -> consecutive top u v) /\ (forall u v, consecutive F4 u v -> consecutive top u v) /\
    forall x y, let ins := ev2 s (V2 x y) < 0 in
      (p <= Rabs x \/ y <= 0 -> ~ ins) /\
      (x2 vr + d1 <= x < p -> (ins <-> 0 < y < rad)) /\
      (xr + bd r * (k / w) <= x <= x2 vr - d1 * (k / w) -> (ins <-> 0 < y /\ k * (y - yr) < x - xr)) /\
      (xr - bd r / s2 <= x <= xr + bd r * (k / w) -> let D := norm2 (sub2 (V2 x y) (bc r)) in
         (0 < y <= y2 (bc r) -> r < D -> ins) /\ (D < r * cos (t / 2) -> ~ ins) /\ (y2 (bc r) <= y -> Rabs (x - x2 (bc r)) < r * cos (t / 2) -> ~ ins) /\ (y2 (bc r) <= y -> r < D -> ~ ins)) /\
      (x2 vl + d3 / s2 <= x <= xr - bd r / s2 -> (ins <-> 0 < y /\ y - yr < xr - x)) /\
      (- p < x <= x2 vl - d3 -> (ins <-> 0 < y < rad)).
Proof.
  intros (RP & RM) D1 D3 (T1 & T2 & T3 & H3 & L3 & A3) TS LF2 N2 HD2 LS2 U2 LF4 N4 HD4 LS4 U4 top.
  destruct bw as (W & (W0 & W1) & W2). destruct bs as (S & S0). destruct bh as (B0 & B1 & B2 & B3 & B4). destruct bx as (B5 & B6). destruct (bd_bounds r RP) as (B7 & B8).
  assert (N3 : F3 <> []) by (destruct A3 as (_ & Q & _); destruct F3; [cbn in Q; lia|discriminate]).
  assert (W3 : 0 < / w < 1) by (split; [apply Rinv_0_lt_compat; lra|rewrite <- Rinv_1; apply Rinv_lt_contravar; lra]).
  assert (S3 : 0 < / s2 < 1) by (split; [apply Rinv_0_lt_compat; lra|rewrite <- Rinv_1; apply Rinv_lt_contravar; lra]).
  assert (W4 : k / w * w = k) by (field; lra).
  assert (X3h : x2 (hd zero2 F3) = xr + bd r * (k / w)) by (rewrite H3; reflexivity). assert (X3l : x2 (last F3 zero2) = xr - bd r / s2) by (rewrite L3; unfold add2, scale2, vm, e1; cbn [x2]; field; lra).
  assert (X2h : x2 (hd zero2 F2) = x2 vr + d1) by (rewrite HD2; reflexivity). assert (X2l : x2 (last F2 zero2) = x2 vr - d1 * (k / w)) by (rewrite LS2; reflexivity).
  assert (X4h : x2 (hd zero2 F4) = x2 vl + d3 / s2) by (rewrite HD4; unfold sub2, scale2, e1; cbn [x2]; field; lra). assert (X4l : x2 (last F4 zero2) = x2 vl - d3) by (rewrite LS4; reflexivity).
  assert (LEN0 : 0 < h1 * w - d1 - bd r) by (clear - B2 W0 D1 B8 RM B1 P; nra). assert (LEN1 : 0 < h1 * s2 - d3 - bd r) by (clear - B2 S0 D3 B8 RM B1 P; nra).
  assert (KW : 0 < k / w < 1) by (unfold Rdiv; split; [apply Rmult_lt_0_compat; lra|nra]).
  assert (VRE : x2 vr = xr + h1 * w * (k / w)) by (unfold vr; cbn [x2]; field; lra). assert (VLE : x2 vl = xr - h1 * s2 * / s2) by (unfold vl; cbn [x2]; field; lra).
  assert (G1 : xr + bd r * (k / w) < x2 vr - d1 * (k / w)) by (rewrite VRE; clear - LEN0 KW; nra).
  assert (G2 : x2 vl + d3 / s2 < xr - bd r / s2) by (rewrite VLE; unfold Rdiv; clear - LEN1 S3; nra).
  assert (G3 : 0 <= d1 * (k / w) /\ 0 <= d3 / s2 /\ 0 < bd r * (k / w) /\ 0 < bd r / s2) by (unfold Rdiv in *; clear - D1 D3 B7 KW S3; repeat split; nra).
  assert (LT4 : leftward (F4 ++ [V2 (- p) rad])) by (apply leftward_app; [exact LF4|apply leftward_one|exact N4|discriminate|]; rewrite X4l; cbn [hd x2]; lra).
  assert (LT3 : leftward (F3 ++ F4 ++ [V2 (- p) rad])). { apply leftward_app; [apply A3|exact LT4|exact N3|destruct F4; discriminate|]. rewrite (hd_app_ne F4) by exact N4. rewrite X4h, X3l. exact G2. }
  assert (LT2 : leftward (F2 ++ F3 ++ F4 ++ [V2 (- p) rad])). { apply leftward_app; [exact LF2|exact LT3|exact N2|destruct F3; [congruence|discriminate]|]. rewrite (hd_app_ne F3) by exact N3. rewrite X3h, X2l. exact G1. }
  assert (TE : top = [V2 p rad] ++ F2 ++ F3 ++ F4 ++ [V2 (- p) rad]) by reflexivity.
  assert (LW : leftward top). { rewrite TE. apply leftward_app; [apply leftward_one|exact LT2|discriminate|destruct F2; [congruence|discriminate]|]. rewrite (hd_app_ne F2) by exact N2. rewrite X2h. cbn [last x2]. lra. }
  assert (HD : hd zero2 top = V2 p rad) by reflexivity. assert (LS : last top zero2 = V2 (- p) rad) by apply last_btop.
  assert (CY : y2 (bc r) = yr + r * (s2 + w) / (1 + k)) by reflexivity.
  assert (CLOW : yr < y2 (bc r) - r). { rewrite CY. assert (r < r * (s2 + w) / (1 + k)); [|lra]. apply (Rmult_lt_reg_r (1 + k)); [lra|]. unfold Rdiv. rewrite Rmult_assoc, Rinv_l, Rmult_1_r by lra. clear - RP S0 W0 K. nra. }
  assert (UP : forall v, In v top -> 0 < y2 v).
  { intros v I. rewrite TE, !in_app_iff in I. cbn [In] in I. assert (RR : 0 < rad) by (unfold yr in B3; lra). destruct I as [[<-|[]]|[I|[I|[I|[<-|[]]]]]]; cbn [y2]; try lra; [now apply U2| |now apply U4]. pose proof (circle_low _ _ _ _ _ A3 RP I). lra. }
  assert (L2 : (2 <= length top)%nat) by (rewrite TE, !app_length; cbn; lia).
  assert (NP : (3 <= length (outline top))%nat) by (unfold outline; cbn [length]; rewrite app_length; cbn; lia). apply polygon_ok in NP. destruct NP as (s & PS).
  assert (IN : forall q, ev2 s q < 0 <-> under top q). { intros q. apply graph_inside; try assumption. rewrite HD, LS. cbn [x2]. lra. }
  assert (C2 : forall u v, consecutive F2 u v -> consecutive top u v) by (intros u v C; rewrite TE; apply consecutive_r, consecutive_l, C).
  assert (C4 : forall u v, consecutive F4 u v -> consecutive top u v) by (intros u v C; rewrite TE; do 3 apply consecutive_r; apply consecutive_l, C).
  assert (C3 : forall u v, consecutive F3 u v -> consecutive top u v) by (intros u v C; rewrite TE; do 2 apply consecutive_r; apply consecutive_l, C).
  assert (J1 : consecutive top (V2 p rad) (hd zero2 F2)). { rewrite TE. rewrite <- (hd_app_ne F2 (F3 ++ F4 ++ [V2 (- p) rad])) by exact N2. apply (consecutive_join [V2 p rad]); [discriminate|destruct F2; [congruence|discriminate]]. }
  assert (J2 : consecutive top (last F2 zero2) (hd zero2 F3)). { rewrite TE. apply consecutive_r. rewrite <- (hd_app_ne F3 (F4 ++ [V2 (- p) rad])) by exact N3. apply consecutive_join; [exact N2|destruct F3; [congruence|discriminate]]. }
  assert (J3 : consecutive top (last F3 zero2) (hd zero2 F4)). { rewrite TE. do 2 apply consecutive_r. rewrite <- (hd_app_ne F4 [V2 (- p) rad]) by exact N4. apply consecutive_join; [exact N3|destruct F4; discriminate]. }
  assert (J4 : consecutive top (last F4 zero2) (V2 (- p) rad)). { rewrite TE. do 3 apply consecutive_r. apply (consecutive_join F4 [V2 (- p) rad]); [exact N4|discriminate]. }
  clearbody top. exists s. split; [exact PS|]. split; [exact LW|]. split; [exact IN|]. split; [exact C2|]. split; [exact C4|]. intros x y ins.
  assert (EDGE : forall u v, consecutive top u v -> x2 v <= x <= x2 u -> - p < x < p -> (ins <-> 0 < y /\ 0 < cross2 (sub2 u (V2 x y)) (sub2 v (V2 x y)))).
  { intros u v C X XX. unfold ins. rewrite IN. apply under_at; [exact LW|exact C|exact X|]. rewrite HD, LS. cbn [x2]. exact XX. }
  assert (INS : ins <-> under top (V2 x y)) by apply IN. clearbody ins. clear IN PS UP TE LT2 LT3 LT4 U2 U4 L2 C2 C4.
  assert (RNG : - p < x2 vl - d3 /\ x2 vr + d1 < p) by lra.
  split; [|split; [|split; [|split; [|split]]]].
  - intros O U. apply INS in U. destruct U as (U & V & _). rewrite HD, LS in V. cbn [x2 y2] in U, V. assert (Rabs x < p) by (apply Rabs_def1; lra). lra.
  - intros X. rewrite (EDGE _ _ J1); [|rewrite X2h; cbn [x2]; lra|lra]. rewrite HD2. rewrite (pos_iff (p - x2 vr - d1) (rad - y) (cross2 (sub2 _ _) (sub2 _ _))); [lra|lra|]. unfold cross2, sub2; cbn [x2 y2]. ring.
  - intros X. rewrite (EDGE _ _ J2); [|rewrite X2l, X3h; lra|lra]. rewrite LS2, H3. rewrite (pos_iff ((h1 * w - d1 - bd r) * / w) ((x - xr) - k * (y - yr)) (cross2 (sub2 _ _) (sub2 _ _))); [lra|apply Rmult_lt_0_compat; lra|].
    unfold cross2, sub2, add2, scale2, vr, vm, e0; cbn [x2 y2]. replace rad with (yr + h1) by (unfold yr; ring). field. lra.
  - cbn zeta. intros X. destruct (valley_zone top F3 (bc r) r t (V2 x y) LW C3 A3 RP TS) as (Z1 & Z2 & Z3); [rewrite X3h, X3l; cbn [x2]; lra|rewrite HD, LS; cbn [x2]; lra|]. rewrite INS. cbn [x2 y2] in Z1, Z2, Z3. split; [exact Z1|]. split; [exact Z2|]. split; [intros Y1 Y2; apply Z3; [exact Y1|exact Y2|lra]|]. intros Y1 Y2. destruct (arc_far top F3 (bc r) r t (V2 x y) LW C3 A3 RP) as (_ & Z4); [rewrite X3h, X3l; cbn [x2]; lra|rewrite HD, LS; cbn [x2]; lra|exact Y2|]. apply Z4. exact Y1.
  - intros X. rewrite (EDGE _ _ J3); [|rewrite X3l, X4h; lra|lra]. rewrite L3, HD4. rewrite (pos_iff ((h1 * s2 - d3 - bd r) * / s2) ((xr - x) - (y - yr)) (cross2 (sub2 _ _) (sub2 _ _))); [lra|apply Rmult_lt_0_compat; lra|].
    unfold cross2, sub2, add2, scale2, vl, vm, e1; cbn [x2 y2]. replace rad with (yr + h1) by (unfold yr; ring). field. lra.
  - intros X. rewrite (EDGE _ _ J4); [|rewrite X4l; cbn [x2]; lra|lra]. rewrite LS4. rewrite (pos_iff (x2 vl - d3 + p) (rad - y) (cross2 (sub2 _ _) (sub2 _ _))); [lra|lra|]. unfold cross2, sub2; cbn [x2 y2]. ring.
Qed.
End Buttress.

(** ** The profiles *)
Definition deg (a : R) : R := a * PI / 180.
(** A rounded root: outside the faceted circle below its centre is material, inside is not. *)
Definition rounded_root (ins : R -> R -> Prop) (cx cy r al lo hi : R) : Prop := forall x y, lo <= x <= hi ->
  let D := norm2 (sub2 (V2 x y) (V2 cx cy)) in
  (0 < y <= cy -> r < D -> ins x y) /\ (D < r * cos al -> ~ ins x y) /\ (cy <= y -> Rabs (x - cx) < r * cos al -> ~ ins x y) /\ (cy <= y -> r < D -> ~ ins x y).
(** A rounded crest. *)
Definition rounded_crest (ins : R -> R -> Prop) (cx cy r al lo hi : R) : Prop := forall x y, lo <= x <= hi ->
  let D := norm2 (sub2 (V2 x y) (V2 cx cy)) in
  (cy <= y -> r < D -> ~ ins x y) /\ (0 < y -> D < r * cos al -> ins x y) /\ (0 < y <= cy -> Rabs (x - cx) < r * cos al -> ins x y) /\ (0 < y <= cy -> r < D -> ins x y).

(** Between [-P, P] the ISO external profile is the material below crests of width P/8 at the major radius, flanks at 30 degrees to the
    radial direction and 5-facet roots of radius H/6. *)
Theorem C94_iso_external d p : 0 < p -> tolerance < 2 * p -> let h := sqrt 3 / 2 * p in let rad := d / 2 in 7 / 8 * h < rad ->
  exists s, th_thread (iso d p true) = Ok s /\ forall x y, let a := Rabs x in let ins := ev2 s (V2 x y) < 0 in
  (p <= a \/ y <= 0 -> ~ ins) /\
  (a <= p / 16 -> (ins <-> 0 < y < rad)) /\
  (p / 16 <= a <= 3 / 8 * p -> (ins <-> 0 < y < rad - sqrt 3 * (a - p / 16))) /\
  (3 / 8 * p <= a <= 5 / 8 * p -> let c := rad - 13 / 24 * h in let D := norm2 (sub2 (V2 a y) (V2 (p / 2) c)) in
     (0 < y <= c -> h / 6 < D -> ins) /\ (D < h / 6 * cos (deg 12) -> ~ ins) /\ (c <= y -> ~ ins)) /\
  (5 / 8 * p <= a < p -> (ins <-> 0 < y < rad + h / 8 - sqrt 3 * (p - a))).
Proof.
  intros P TOL h rad DEEP. unfold iso, iso_profile; cbn [th_thread]. rewrite iso_h, iso_root. replace (deg 12) with (PI / 15) by (unfold deg; field). exact (ext_region rad p P DEEP TOL).
Qed.
(** The internal profile: flat at the minor radius over a width of P/4 on either side of the groove, flanks at 30 degrees, and a 5-facet groove bottom of radius H/12 at the major radius. *)
Theorem C94_iso_internal d p : 0 < p -> tolerance < 2 * p -> let h := sqrt 3 / 2 * p in let rad := d / 2 in 7 / 8 * h < rad ->
  exists s, th_thread (iso d p false) = Ok s /\ forall x y, let a := Rabs x in let ins := ev2 s (V2 x y) < 0 in
  (p <= a \/ y <= 0 -> ~ ins) /\
  (a <= p / 16 -> let k := rad - h / 24 in let D := norm2 (sub2 (V2 x y) (V2 0 k)) in
     (k <= y -> h / 12 < D -> ~ ins) /\ (0 < y -> D < h / 12 * cos (deg 12) -> ins) /\ (0 < y <= k -> ins)) /\
  (p / 16 <= a <= 3 / 8 * p -> (ins <-> 0 < y < rad + h / 8 - sqrt 3 * a)) /\
  (3 / 8 * p <= a < p -> (ins <-> 0 < y < rad - 5 / 8 * h)).
Proof.
  intros P TOL h rad DEEP. unfold iso, iso_profile; cbn [th_thread]. rewrite iso_h, iso_crest. replace (deg 12) with (PI / 15) by (unfold deg; field). exact (int_region rad p P DEEP TOL).
Qed.
Lemma tan_small a : 0 < a < 45 -> 0 < tan (deg a) < 1.
Proof.
  intros A. unfold deg. pose proof PI_RGT_0 as PP. split.
  - apply tan_gt_0; nra.
  - rewrite <- tan_PI4. apply tan_increasing; nra.
Qed.
(** The Acme profile: crests and roots flat, flanks at 14.5 degrees, P/2 deep, over [-radius, radius]. *)
Theorem C94_acme d p : 0 < p -> tolerance < d -> let rad := d / 2 in let k := tan (deg (29 / 2)) in p / 2 < rad ->
  let x0 := p / 4 - p / 4 * k in let x1 := p / 4 + p / 4 * k in
  exists s, th_thread (acme d p) = Ok s /\ forall x y, let a := Rabs x in let ins := ev2 s (V2 x y) < 0 in
  (rad <= a \/ y <= 0 -> ~ ins) /\
  (a <= x0 -> (ins <-> 0 < y < rad)) /\
  (x0 <= a <= x1 -> (ins <-> 0 < y < rad - (a - x0) / k)) /\
  (x1 <= a < rad -> (ins <-> 0 < y < rad - p / 2)).
Proof.
  intros P TOL rad k DEEP x0 x1. destruct (tan_small (29 / 2) ltac:(lra)) as (K0 & K1). fold k in K0, K1.
  assert (E0 : x0 = 1 / 4 * p - 1 / 4 * p * k) by (unfold x0; field). assert (E1 : x1 = 1 / 4 * p + 1 / 4 * p * k) by (unfold x1; field).
  destruct (acme_region rad p k P (conj K0 K1)) as (s & S & R); [nra|exact DEEP|unfold rad; lra|].
  exists s. split; [exact S|]. intros x y. rewrite E0, E1. exact (R x y).
Qed.
(** The buttress outline in terms of angles. *)
Lemma seven : 0 < sin (deg 7) /\ 0 < cos (deg 7) /\ sin (deg 7) * sin (deg 7) + cos (deg 7) * cos (deg 7) = 1.
Proof.
  pose proof PI_RGT_0. split; [apply sin_gt_0; unfold deg; lra|]. split; [apply cos_gt_0; unfold deg; lra|]. pose proof (sin2_cos2 (deg 7)) as Q. unfold Rsqr in Q. exact Q.
Qed.
Lemma w7 : sqrt (1 + tan (deg 7) * tan (deg 7)) = 1 / cos (deg 7).
Proof.
  destruct seven as (S & C & Q). assert (P : 0 < 1 / cos (deg 7)) by (apply Rdiv_lt_0_compat; lra). rewrite <- (sqrt_square (1 / cos (deg 7))) by lra. f_equal. unfold tan.
  transitivity ((sin (deg 7) * sin (deg 7) + cos (deg 7) * cos (deg 7)) / (cos (deg 7) * cos (deg 7))); [field; lra|]. rewrite Q. field. lra.
Qed.
Lemma half : sin (deg 45) = / sqrt 2 /\ cos (deg 45) = / sqrt 2 /\ sqrt 2 * sqrt 2 = 2 /\ 0 < sqrt 2.
Proof.
  replace (deg 45) with (PI / 4) by (unfold deg; field). rewrite sin_PI4, cos_PI4. split; [unfold Rdiv; ring|]. split; [unfold Rdiv; ring|]. split; [apply sqrt_sqrt; lra|apply sqrt_lt_R0; lra].
Qed.
Lemma angle_52 : sin (deg 52) = (sin (deg 7) + cos (deg 7)) / sqrt 2 /\ cos (deg 52) = (cos (deg 7) - sin (deg 7)) / sqrt 2.
Proof.
  replace (deg 52) with (deg 45 + deg 7) by (unfold deg; field). destruct half as (H1 & H2 & _). rewrite sin_plus, cos_plus, H1, H2. unfold Rdiv. split; ring.
Qed.
Lemma angle_26 : 0 < sin (deg 26) /\ 0 < cos (deg 26) /\ sin (deg 52) = 2 * sin (deg 26) * cos (deg 26) /\ cos (deg 52) = 2 * (cos (deg 26) * cos (deg 26)) - 1.
Proof.
  pose proof PI_RGT_0. split; [apply sin_gt_0; unfold deg; lra|]. split; [apply cos_gt_0; unfold deg; lra|]. replace (deg 52) with (2 * deg 26) by (unfold deg; field). rewrite sin_2a, cos_2a_cos. split; ring.
Qed.
Lemma b_tangent r : bd (tan (deg 7)) r = r / tan (deg 26).
Proof.
  unfold bd. rewrite w7. destruct seven as (S & C & _). destruct half as (_ & _ & H & H0). destruct angle_26 as (A1 & A2 & A3 & A4). destruct angle_52 as (B1 & B2). unfold tan. set (s := sin (deg 7)) in *. set (c := cos (deg 7)) in *. set (q := sqrt 2) in *.
  assert (N : s + c <> 0) by lra. transitivity (r * (1 + (c - s) / q) / ((s + c) / q)); [|].
  - transitivity (r * (q + c - s) / (s + c)); field; repeat split; lra.
  - rewrite <- B1, <- B2, A3, A4. field. repeat split; lra.
Qed.
Lemma b_center rad p r : let k := tan (deg 7) in let h0 := p / (1 + k) in
  bc rad p k r = V2 (h0 - p / 2 - r * sin (deg 19) / sin (deg 26)) (rad - (3 / 10 * p + 1 / 2 * h0) + r * cos (deg 19) / sin (deg 26)).
Proof.
  intros k h0. unfold bc. rewrite (w7 : sqrt (1 + k * k) = 1 / cos (deg 7)). fold h0. destruct seven as (S & C & _). destruct half as (_ & H2 & H & H0). destruct angle_26 as (A1 & A2 & A3 & A4). destruct angle_52 as (B1 & B2).
  assert (F1 : cos (deg 7) + cos (deg 45) = 2 * cos (deg 26) * cos (deg 19)) by (rewrite form1; replace ((deg 7 - deg 45) / 2) with (- deg 19) by (unfold deg; field); replace ((deg 7 + deg 45) / 2) with (deg 26) by (unfold deg; field); rewrite cos_neg; ring).
  assert (F2 : sin (deg 7) - sin (deg 45) = - (2 * cos (deg 26) * sin (deg 19))) by (rewrite form4; replace ((deg 7 - deg 45) / 2) with (- deg 19) by (unfold deg; field); replace ((deg 7 + deg 45) / 2) with (deg 26) by (unfold deg; field); rewrite sin_neg; ring).
  destruct half as (H1 & _). rewrite H2 in F1. rewrite H1 in F2. rewrite A3 in B1. unfold k, tan. set (s := sin (deg 7)) in *. set (c := cos (deg 7)) in *. set (q := sqrt 2) in *.
  assert (SC : s + c = q * (2 * sin (deg 26) * cos (deg 26))) by (rewrite B1; field; lra).
  apply v2_ext; cbn [x2 y2].
  - match goal with |- _ + ?u = _ => replace u with (- (r * sin (deg 19) / sin (deg 26))); [unfold Rdiv; ring|symmetry] end. transitivity (r * (q * (s - / q)) / (s + c)); [field; repeat split; lra|]. rewrite F2, SC. field. repeat split; lra.
  - f_equal. transitivity (r * (q * (c + / q)) / (s + c)); [field; repeat split; lra|]. rewrite F1, SC. field. repeat split; lra.
Qed.
Lemma turn_of t a : Rabs (5 * t) < PI -> -180 < a < 180 -> sin (5 * t) = sin (deg a) -> cos (5 * t) = cos (deg a) -> t = deg (a / 5).
Proof. intros A B S C. apply Rabs_def2 in A. pose proof PI_RGT_0. assert (E : 5 * t = deg a) by (apply sin_cos_eq; try assumption; unfold deg; nra). unfold deg in *. lra. Qed.
Lemma mid_turn rad p r F t : mid_arc rad p (tan (deg 7)) r F t -> t = deg (- (128 / 5)).
Proof.
  intros (A & S & C & _). replace (- (128 / 5)) with (-128 / 5) by field. destruct seven as (S7 & C7 & _). destruct half as (_ & _ & H & H0). destruct angle_52 as (B1 & B2). rewrite w7 in S, C.
  assert (E : deg (-128) = - (PI - deg 52)) by (unfold deg; field).
  apply turn_of; [exact A|lra| |]; rewrite E.
  - rewrite sin_neg, sin_PI_x, B1, S. unfold cross2; cbn [x2 y2]. unfold tan. field. lra.
  - rewrite cos_neg. unfold Rminus. rewrite cos_plus, cos_PI, sin_PI, cos_neg, B2, C. unfold dot2; cbn [x2 y2]. unfold tan. field. lra.
Qed.
Lemma right_turn rad p r F t : right_arc rad p (tan (deg 7)) r F t -> t = deg (83 / 5).
Proof.
  intros (A & S & C & _). destruct seven as (S7 & C7 & _). rewrite w7 in S, C. assert (E : deg 83 = PI / 2 - deg 7) by (unfold deg; field).
  apply turn_of; [exact A|lra| |]; rewrite E; [rewrite sin_shift, S; field; lra|rewrite cos_shift, C; unfold tan; field; lra].
Qed.
Lemma left_turn rad p r F t : left_arc rad p (tan (deg 7)) r F t -> t = deg (45 / 5).
Proof.
  intros (A & S & C & _). destruct half as (H1 & H2 & _). apply turn_of; [exact A|lra| |]; [rewrite H1, S; unfold Rdiv; ring|rewrite H2, C; unfold Rdiv; ring].
Qed.
Lemma blist_model d p m1 m2 m3 : th_thread (buttress d p m1 m2 m3) = built_polygon (blist (d / 2) p (tan (deg 7)) m1 m2 m3).
Proof.
  unfold buttress, blist; cbn [th_thread]. fold (deg 7). replace (45 * PI / 180) with (PI / 4) by field. rewrite tan_PI4. set (k := tan (deg 7)). assert (K : 0 < k) by (apply tan_small; lra). clearbody k.
  replace (6 / 10 / 2 * p) with (3 / 10 * p) by field. set (h1 := 3 / 10 * p + 1 / 2 * (p / (1 + k))). f_equal. do 3 f_equal; [f_equal; f_equal; field; lra|]. f_equal; [f_equal; f_equal; ring|]. f_equal. f_equal. f_equal. ring.
Qed.
(** The ANSI buttress profile: flat crests at the major radius, a 7 degree and a 45 degree flank meeting at the theoretical root (xr, R - H), the root
    rounded with a 5-facet arc of radius 0.0714 P tangent to both flanks. *)
Theorem C94_ansi_buttress d p : 0 < p -> tolerance < 2 * p ->
  let rad := d / 2 in let k := tan (deg 7) in let h0 := p / (1 + k) in let h := 3 / 10 * p + 1 / 2 * h0 in h < rad ->
  let xr := h0 - p / 2 in let yr := rad - h in let r := 714 / 10000 * p in let l := r / tan (deg 26) in
  exists s, th_thread (ansi_buttress d p) = Ok s /\ let ins x y := ev2 s (V2 x y) < 0 in
    (forall x y, p <= Rabs x \/ y <= 0 -> ~ ins x y) /\
    (forall x y, - p < x <= xr - h \/ xr + h * k <= x < p -> (ins x y <-> 0 < y < rad)) /\
    (forall x y, xr + l * sin (deg 7) <= x <= xr + h * k -> (ins x y <-> 0 < y /\ k * (y - yr) < x - xr)) /\
    (forall x y, xr - h <= x <= xr - l * sin (deg 45) -> (ins x y <-> 0 < y /\ y - yr < xr - x)) /\
    rounded_root ins (xr - r * sin (deg 19) / sin (deg 26)) (yr + r * cos (deg 19) / sin (deg 26)) r (deg (64 / 5)) (xr - l * sin (deg 45)) (xr + l * sin (deg 7)).
Proof.
  intros P TOL rad k h0 h DEEP xr yr r l. pose proof (tan_small 7 ltac:(lra)) as K. fold k in K. assert (RP : 0 < r <= 15 / 100 * p) by (unfold r; lra).
  destruct (one_vertices rad p k P K DEEP r RP) as (F & t & V & A). pose proof (mid_turn _ _ _ _ _ A) as T. pose proof PI_RGT_0 as PP. destruct seven as (S7 & C7 & _). destruct half as (H45 & _ & _ & Q2).
  assert (RAD : 0 < rad). { assert (0 < h0) by (unfold h0; apply Rdiv_lt_0_compat; lra). unfold h in DEEP. lra. }
  assert (Z : 0 <= 0 <= 5 / 100 * p) by lra. assert (Z' : 0 <= 0 <= 7 / 100 * p) by lra.
  destruct (b_region rad p k P K DEEP TOL [V2 (xr + h * k) rad] F [V2 (xr - h) rad] r t 0 0 RP Z Z' A) as (s & PS & _ & IN & _ & _ & R).
  - rewrite T. unfold deg. lra.
  - apply leftward_one.
  - discriminate.
  - cbn [hd]. apply v2_ext; cbn [x2 y2]; [unfold xr, h, h0; ring|reflexivity].
  - cbn [last]. apply v2_ext; cbn; [unfold xr, h, h0; ring|ring].
  - intros q [<-|[]]. exact RAD.
  - apply leftward_one.
  - discriminate.
  - cbn [hd]. apply v2_ext; cbn; [unfold xr, h, h0; ring|ring].
  - cbn [last]. apply v2_ext; cbn [x2 y2]; [unfold xr, h, h0; ring|reflexivity].
  - intros q [<-|[]]. exact RAD.
  - exists s. split.
    { change (th_thread (ansi_buttress d p)) with (th_thread (buttress d p [] [MSmooth r 5] [])). rewrite blist_model. fold rad k. unfold built_polygon. rewrite V. exact PS. }
    intros ins. assert (KW : k / sqrt (1 + k * k) = sin (deg 7)) by (unfold k; rewrite w7; unfold tan; field; lra).
    assert (EB : bd k r = l) by apply b_tangent. assert (EC : bc rad p k r = V2 (xr - r * sin (deg 19) / sin (deg 26)) (yr + r * cos (deg 19) / sin (deg 26))) by apply b_center.
    assert (ES : l / sqrt 2 = l * sin (deg 45)) by (rewrite H45; reflexivity). assert (ET : cos (t / 2) = cos (deg (64 / 5))) by (rewrite T, <- cos_neg; f_equal; unfold deg; field).
    rewrite KW, EB, EC, ET, ES in R. cbn [x2 y2] in R. fold xr in R. fold h0 in R. fold h in R. fold xr yr in R.
    assert (Z0 : 0 / sqrt 2 = 0) by (unfold Rdiv; ring). rewrite Rmult_0_l, Z0, !Rminus_0_r, !Rplus_0_r in R.
    split; [intros x y; apply R|]. split; [intros x y [X|X]; destruct (R x y) as (_ & R1 & _ & _ & _ & R5); [apply R5|apply R1]; exact X|]. split; [intros x y; apply R|]. split; [intros x y; apply R|].
    intros x y X. apply R. exact X.
Qed.
(** The plastic buttress profile: the same flanks, with 5-facet arcs of radius 0.15 P at the root, 0.05 P at the crest of the 7 degree flank and
    0.15 P at the crest of the 45 degree flank. *)
Theorem C94_plastic_buttress d p : 0 < p -> tolerance < 2 * p ->
  let rad := d / 2 in let k := tan (deg 7) in let h0 := p / (1 + k) in let h := 3 / 10 * p + 1 / 2 * h0 in h < rad ->
  let xr := h0 - p / 2 in let yr := rad - h in let r := 15 / 100 * p in let l := r / tan (deg 26) in
  let r1 := 5 / 100 * p in let l1 := r1 * ((1 - sin (deg 7)) / cos (deg 7)) in let l3 := r * (sqrt 2 - 1) in
  exists s, th_thread (plastic_buttress d p) = Ok s /\ let ins x y := ev2 s (V2 x y) < 0 in
    (forall x y, p <= Rabs x \/ y <= 0 -> ~ ins x y) /\
    (forall x y, - p < x <= xr - h - l3 \/ xr + h * k + l1 <= x < p -> (ins x y <-> 0 < y < rad)) /\
    (forall x y, xr + l * sin (deg 7) <= x <= xr + h * k - l1 * sin (deg 7) -> (ins x y <-> 0 < y /\ k * (y - yr) < x - xr)) /\
    (forall x y, xr - h + l3 * sin (deg 45) <= x <= xr - l * sin (deg 45) -> (ins x y <-> 0 < y /\ y - yr < xr - x)) /\
    rounded_root ins (xr - r * sin (deg 19) / sin (deg 26)) (yr + r * cos (deg 19) / sin (deg 26)) r (deg (64 / 5)) (xr - l * sin (deg 45)) (xr + l * sin (deg 7)) /\
    rounded_crest ins (xr + h * k + l1) (rad - r1) r1 (deg (83 / 10)) (xr + h * k - l1 * sin (deg 7)) (xr + h * k + l1) /\
    rounded_crest ins (xr - h - l3) (rad - r) r (deg (9 / 2)) (xr - h - l3) (xr - h + l3 * sin (deg 45)).
Proof.
  intros P TOL rad k h0 h DEEP xr yr r l r1 l1 l3. pose proof (tan_small 7 ltac:(lra)) as K. fold k in K. assert (RP : 0 < r <= 15 / 100 * p) by (unfold r; lra). assert (RP1 : 0 < r1 <= 5 / 100 * p) by (unfold r1; lra).
  destruct (three_vertices rad p k P K DEEP r1 r r RP1 RP RP) as (F2 & F3 & F4 & t2 & t3 & t4 & V & A2 & A3 & A4). pose proof (right_turn _ _ _ _ _ A2) as T2. pose proof (mid_turn _ _ _ _ _ A3) as T3. pose proof (left_turn _ _ _ _ _ A4) as T4. pose proof PI_RGT_0 as PP.
  destruct seven as (S7 & C7 & SC7). destruct half as (H45 & _ & _ & Q2). assert (QB : 141 / 100 < sqrt 2 < 142 / 100) by (pose proof (sqrt_sqrt 2 ltac:(lra)); split; nra).
  assert (RAD : 55 / 100 * p < rad). { assert (1 / 2 * p < h0). { assert (HQ : h0 * (1 + k) = p) by (unfold h0; field; lra). clear - HQ K P. nra. } unfold h in DEEP. lra. }
  assert (EW : sqrt (1 + k * k) = 1 / cos (deg 7)) by apply w7. assert (KW : k / sqrt (1 + k * k) = sin (deg 7)) by (rewrite EW; unfold k, tan; field; lra).
  assert (E1 : r1 * (sqrt (1 + k * k) - k) = l1) by (rewrite EW; unfold l1, k, tan; field; lra).
  destruct A2 as (_ & _ & _ & HD2 & LS2 & AF2). destruct A4 as (_ & _ & _ & HD4 & LS4 & AF4). cbn [x2] in HD2, AF2, LS4, AF4. rewrite E1 in HD2, LS2, AF2. fold l3 in HD4, LS4, AF4.
  assert (C7' : cos (deg 7) <= 1) by apply COS_bound. assert (S7' : sin (deg 7) < 1) by nra.
  assert (QL : 0 < (1 - sin (deg 7)) / cos (deg 7) <= 1). { split; [apply Rdiv_lt_0_compat; lra|]. apply (Rmult_le_reg_r (cos (deg 7))); [exact C7|]. unfold Rdiv. rewrite Rmult_assoc, Rinv_l by lra. nra. }
  assert (Z : 0 <= l1 <= 5 / 100 * p) by (unfold l1; clear - RP1 QL; nra). assert (Z' : 0 <= l3 <= 7 / 100 * p) by (unfold l3; clear - RP QB P; nra).
  assert (TS : - PI < t3 < 0) by (rewrite T3; unfold deg; lra).
  destruct (b_region rad p k P K DEEP TOL F2 F3 F4 r t3 l1 l3 RP Z Z' A3 TS) as (s & PS & LW & IN & C2 & C4 & R); try assumption.
  - apply AF2.
  - destruct AF2 as (_ & Q & _); destruct F2; [cbn in Q; lia|discriminate].
  - intros q I. pose proof (circle_low _ _ _ _ _ AF2 (proj1 RP1) I) as Q. cbn [y2] in Q. unfold r1 in Q. lra.
  - apply AF4.
  - destruct AF4 as (_ & Q & _); destruct F4; [cbn in Q; lia|discriminate].
  - intros q I. pose proof (circle_low _ _ _ _ _ AF4 (proj1 RP) I) as Q. cbn [y2] in Q. unfold r in Q. lra.
  - exists s. split.
    { change (th_thread (plastic_buttress d p)) with (th_thread (buttress d p [MSmooth r1 5] [MSmooth r 5] [MSmooth r 5])). rewrite blist_model. fold rad k. unfold built_polygon. rewrite V. exact PS. }
    intros ins. assert (EB : bd k r = l) by apply b_tangent. assert (EC : bc rad p k r = V2 (xr - r * sin (deg 19) / sin (deg 26)) (yr + r * cos (deg 19) / sin (deg 26))) by apply b_center.
    assert (ES : forall z, z / sqrt 2 = z * sin (deg 45)) by (intros z; rewrite H45; reflexivity). assert (ET : cos (t3 / 2) = cos (deg (64 / 5))) by (rewrite T3, <- cos_neg; f_equal; unfold deg; field).
    assert (ET2 : cos (t2 / 2) = cos (deg (83 / 10))) by (rewrite T2; f_equal; unfold deg; field). assert (ET4 : cos (t4 / 2) = cos (deg (9 / 2))) by (rewrite T4; f_equal; unfold deg; field).
    rewrite KW, EB, EC, ET, !ES in R. cbn [x2 y2] in R. fold xr in R. fold h0 in R. fold h in R. fold xr yr in R.
    assert (TP2 : 0 < t2 < PI) by (rewrite T2; unfold deg; lra). assert (TP4 : 0 < t4 < PI) by (rewrite T4; unfold deg; lra).
    destruct (bx rad p k P K DEEP) as (BX1 & BX2). cbn [x2] in BX1, BX2. fold h0 in BX1, BX2. fold h xr in BX1, BX2.
    assert (HQ : h0 * (1 + k) = p) by (unfold h0; field; lra). assert (XQ : 0 < xr < p / 2) by (unfold xr; clear - HQ K P; split; nra). assert (HH : 0 < h) by (unfold h; unfold xr in XQ; lra). assert (HK : 0 < h * k) by (apply Rmult_lt_0_compat; lra).
    assert (LQ1 : 0 <= l1 * sin (deg 7) <= l1) by (clear - Z S7 S7'; split; nra). assert (S45 : 0 < sin (deg 45) < 1) by (rewrite H45; split; [apply Rinv_0_lt_compat; lra|rewrite <- Rinv_1; apply Rinv_lt_contravar; lra]). assert (LQ3 : 0 <= l3 * sin (deg 45) <= l3) by (clear - Z' S45; split; nra).
    split; [intros x y; apply R|]. split; [intros x y [X|X]; destruct (R x y) as (_ & R1 & _ & _ & _ & R5); [apply R5|apply R1]; exact X|]. split; [intros x y; apply R|]. split; [intros x y; apply R|].
    split; [intros x y X; apply R; exact X|]. split.
    + intros x y X. pose proof (arc_far _ F2 _ r1 t2 (V2 x y) LW C2 AF2 (proj1 RP1)) as FAR. destruct (peak_zone _ F2 _ r1 t2 (V2 x y) LW C2 AF2 (proj1 RP1) TP2) as (Z1 & Z2 & Z3).
      * rewrite HD2, LS2. unfold sub2, scale2; cbn [x2]. rewrite KW. unfold xr, h, h0 in X. exact X.
      * cbn [x2]. unfold btop; cbn [hd x2]. fold (btop rad p F2 F3 F4). rewrite last_btop. cbn [x2]. lra.
      * rewrite ET2 in Z2, Z3. cbn [x2 y2] in Z1, Z2, Z3. unfold ins. rewrite IN. split; [exact Z1|]. split; [exact Z2|]. split; [exact Z3|]. intros Y1 Y2. apply FAR; [rewrite HD2, LS2; unfold sub2, scale2; cbn [x2]; rewrite KW; unfold xr, h, h0 in X; exact X|cbn [x2]; unfold btop; cbn [hd x2]; fold (btop rad p F2 F3 F4); rewrite last_btop; cbn [x2]; lra|exact Y2|exact Y1].
    + intros x y X. pose proof (arc_far _ F4 _ r t4 (V2 x y) LW C4 AF4 (proj1 RP)) as FAR. destruct (peak_zone _ F4 _ r t4 (V2 x y) LW C4 AF4 (proj1 RP) TP4) as (Z1 & Z2 & Z3).
      * rewrite HD4, LS4. unfold sub2, scale2; cbn [x2]. rewrite H45 in X. unfold xr, h, h0 in X. lra.
      * cbn [x2]. unfold btop; cbn [hd x2]. fold (btop rad p F2 F3 F4). rewrite last_btop. cbn [x2]. lra.
      * rewrite ET4 in Z2, Z3. cbn [x2 y2] in Z1, Z2, Z3. unfold ins. rewrite IN. split; [exact Z1|]. split; [exact Z2|]. split; [exact Z3|]. intros Y1 Y2. apply FAR; [rewrite HD4, LS4; unfold sub2, scale2; cbn [x2]; rewrite H45 in X; unfold xr, h, h0 in X; lra|cbn [x2]; unfold btop; cbn [hd x2]; fold (btop rad p F2 F3 F4); rewrite last_btop; cbn [x2]; lra|exact Y2|exact Y1].
Qed.
(** A unified thread with n threads per inch has the ISO profile of pitch 1/n; so does an NPT thread, always the internal one. *)
Theorem C94_inch_threads d n f ext : th_thread (uts d n ext) = th_thread (iso d (1 / n) ext) /\ th_thread (npt_threader (Npt d n f)) = th_thread (iso d (1 / n) false).
Proof. split; reflexivity. Qed.

Lemma tol_small : tolerance < 1 / 1000.
Proof. unfold tolerance. lra. Qed.
(** M10x1.5: the crest reaches the radius 5 over |x| <= 1.5/16 and nothing is left at x = P/2 above the root circle's centre. *)
Example C94_m10 : exists s, th_thread (iso 10 (3 / 2) true) = Ok s /\ ev2 s (V2 0 (499 / 100)) < 0 /\ ~ ev2 s (V2 0 5) < 0 /\ ~ ev2 s (V2 (3 / 4) (48 / 10)) < 0 /\ ev2 s (V2 (3 / 4) 4) < 0.
Proof.
  pose proof tol_small as T. pose proof s3_pos as S0. pose proof s3_sq as S1. assert (S2 : sqrt 3 < 18 / 10) by nra.
  destruct (C94_iso_external 10 (3 / 2) ltac:(lra) ltac:(lra) ltac:(lra)) as (s & E & R). exists s. split; [exact E|].
  destruct (R 0 (499 / 100)) as (_ & A & _). destruct (R 0 5) as (_ & B & _). destruct (R (3 / 4) (48 / 10)) as (_ & _ & _ & C & _). destruct (R (3 / 4) 4) as (_ & _ & _ & D & _). rewrite Rabs_R0 in A, B. rewrite Rabs_pos_eq in C, D by lra.
  split; [apply A; lra|]. split; [rewrite B by lra; lra|]. assert (S3 : 17 / 10 < sqrt 3) by nra. split; [apply C; lra|]. apply D; [lra|lra|].
  unfold sub2; cbn [x2 y2]. replace (3 / 4 - 3 / 2 / 2) with 0 by field. match goal with |- _ < norm2 ?v => pose proof (norm2_sq v) as Q; pose proof (norm2_nonneg v) as N; set (n := norm2 v) in * end. unfold norm2sq, dot2 in Q. cbn [x2 y2] in Q. clearbody n. nra.
Qed.
Example C94_internal_m10 : exists s, th_thread (iso 10 (3 / 2) false) = Ok s /\ ev2 s (V2 0 (49 / 10)) < 0 /\ ~ ev2 s (V2 (7 / 10) (49 / 10)) < 0.
Proof.
  pose proof tol_small as T. pose proof s3_pos as S0. pose proof s3_sq as S1. assert (S2 : 17 / 10 < sqrt 3 < 18 / 10) by (split; nra).
  destruct (C94_iso_internal 10 (3 / 2) ltac:(lra) ltac:(lra) ltac:(lra)) as (s & E & R). exists s. split; [exact E|].
  destruct (R 0 (49 / 10)) as (_ & A & _). destruct (R (7 / 10) (49 / 10)) as (_ & _ & _ & B). rewrite Rabs_R0 in A. rewrite Rabs_pos_eq in B by lra. split; [apply A; lra|]. rewrite B by lra. lra.
Qed.
Example C94_acme_10 : exists s, th_thread (acme 10 2) = Ok s /\ ev2 s (V2 0 (49 / 10)) < 0 /\ ~ ev2 s (V2 2 4) < 0 /\ ev2 s (V2 2 (39 / 10)) < 0.
Proof.
  pose proof tol_small as T. pose proof (tan_small (29 / 2) ltac:(lra)) as K.
  destruct (C94_acme 10 2 ltac:(lra) ltac:(lra) ltac:(lra)) as (s & E & R). exists s. split; [exact E|].
  destruct (R 0 (49 / 10)) as (_ & A & _). destruct (R 2 4) as (_ & _ & _ & B). destruct (R 2 (39 / 10)) as (_ & _ & _ & C). rewrite Rabs_R0 in A. rewrite Rabs_pos_eq in B, C by lra.
  split; [apply A; lra|]. split; [rewrite B by lra; lra|]. apply C; lra.
Qed.
Example C94_buttress_10 : exists s s', th_thread (ansi_buttress 10 2) = Ok s /\ th_thread (plastic_buttress 10 2) = Ok s' /\ ev2 s (V2 (-19 / 10) (49 / 10)) < 0 /\ ev2 s' (V2 (-19 / 10) (49 / 10)) < 0.
Proof.
  pose proof tol_small as T. pose proof (tan_small 7 ltac:(lra)) as K. assert (HQ : 2 / (1 + tan (deg 7)) * (1 + tan (deg 7)) = 2) by (field; lra). assert (H0 : 1 < 2 / (1 + tan (deg 7)) < 2) by (split; nra).
  destruct (C94_ansi_buttress 10 2 ltac:(lra) ltac:(lra) ltac:(lra)) as (s & E & _ & A & _). destruct (C94_plastic_buttress 10 2 ltac:(lra) ltac:(lra) ltac:(lra)) as (s' & E' & _ & A' & _).
  exists s, s'. split; [exact E|]. split; [exact E'|]. assert (Q : sqrt 2 < 15 / 10) by (pose proof (sqrt_sqrt 2 ltac:(lra)); pose proof (sqrt_pos 2); nra). split; [apply A; lra|apply A'; lra].
Qed.
