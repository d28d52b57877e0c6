(** C107: the board spacer of examples/pcb-spacer. C108: the board support of examples/pcb-support. *)
From Coq Require Import String Reals Lra Psatz Lia List Bool ZArith.
From Verif Require Import Prelude Vec BoxModel MatrixModel PropsBox PropsMatrix SdfModel SdfLemmas PropsBool BlendModel PropsBlend PropsUnion2 PropsCopies Trig PropsUtil PrimModel PropsPrim PropsLip
  ObjModel UtilModel MiscModel PropsForm ExampleModel.
Import ListNotations.
Local Open Scope R_scope.

(** ** Values of panels, cylinders and standoffs *)
Lemma panel_value k s p : 0 < pp_hole k -> Forall ascii (patterns k) -> panel2 k = Ok s -> exists s0, must_box2 (pp_size k) (pp_corner k) = Ok s0 /\
  (exists c, hole_centre k c /\ ev2 s p = Rmax (ev2 s0 p) (pp_hole k / 2 - dist2 p c)) /\ forall c, hole_centre k c -> pp_hole k / 2 - dist2 p c <= ev2 s p.
Proof.
  intros H F E. eexists. split; [reflexivity|]. set (s0 := S2 _ _).
  unfold panel2 in E. unfold must_box2 in E. cbn [bind] in E. fold s0 in E. rewrite (proj2 (Rleb_false _ _)) in E by lra. pose proof (circle_ok _ H) as C. rewrite C in E. cbn [bind] in E.
  match type of C with _ = Ok ?h => set (hole := h) in * end. set (tl := V2 (- (1/2) * _ + _) (1/2 * _ - _)) in E. set (tr := V2 (1/2 * _ - _) (1/2 * _ - _)) in E. set (br := V2 (1/2 * _ - _) (- (1/2) * _ + _)) in E. set (bl := V2 (- (1/2) * _ + _) (- (1/2) * _ + _)) in E.
  assert (Hh : honest hole) by (apply (circle_honest _ _ C); lra).
  unfold patterns in F. inversion_clear F as [|? ? P0 F']. inversion_clear F' as [|? ? P1 F]. inversion_clear F as [|? ? P2 F']. inversion_clear F' as [|? ? P3 _].
  apply bind_ok in E. destruct E as (h0 & E0 & E). apply bind_ok in E. destruct E as (h1 & E1 & E). apply bind_ok in E. destruct E as (h2 & E2 & E). apply bind_ok in E. destruct E as (h3 & E3 & E).
  apply bind_ok in E. destruct E as (u & Eu & E). injection E as <-.
  destruct (line2_least _ _ _ _ _ p Hh P0 E0) as ((c0 & M0 & V0) & G0). destruct (line2_least _ _ _ _ _ p Hh P1 E1) as ((c1 & M1 & V1) & G1).
  destruct (line2_least _ _ _ _ _ p Hh P2 E2) as ((c2 & M2 & V2') & G2). destruct (line2_least _ _ _ _ _ p Hh P3 E3) as ((c3 & M3 & V3') & G3).
  assert (Hu : forall x, In (Some x) [Some h0; Some h1; Some h2; Some h3] -> honest x).
  { intros x [Q|[Q|[Q|[Q|[]]]]]; injection Q as <-; eapply honest_line_of; eauto. }
  destruct (union2_least _ _ p Hu Eu) as ((x & Ix & Vx) & Gx).
  assert (HC : forall c, hole_centre k c <-> marked tl tr (pp_pt k) c \/ marked tr br (pp_pr k) c \/ marked br bl (pp_pb k) c \/ marked bl tl (pp_pl k) c).
  { intros c. unfold hole_centre, tl, tr, br, bl. cbv zeta.
    replace (- (x2 (pp_size k) / 2) + pp_ml k) with (- (1/2) * x2 (pp_size k) + pp_ml k) by field. replace (x2 (pp_size k) / 2 - pp_mr k) with (1/2 * x2 (pp_size k) - pp_mr k) by field.
    replace (- (y2 (pp_size k) / 2) + pp_mb k) with (- (1/2) * y2 (pp_size k) + pp_mb k) by field. replace (y2 (pp_size k) / 2 - pp_mt k) with (1/2 * y2 (pp_size k) - pp_mt k) by field. tauto. }
  assert (Low : forall c, hole_centre k c -> ev2 u p <= ev2 hole (sub2 p c)).
  { intros c Hc. apply HC in Hc. destruct Hc as [Hc|[Hc|[Hc|Hc]]]; [specialize (G0 c Hc); pose proof (Gx h0 ltac:(now left))|specialize (G1 c Hc); pose proof (Gx h1 ltac:(now right; left))
      |specialize (G2 c Hc); pose proof (Gx h2 ltac:(now right; right; left))|specialize (G3 c Hc); pose proof (Gx h3 ltac:(now right; right; right; left))]; lra. }
  assert (Att : exists c, hole_centre k c /\ ev2 hole (sub2 p c) = ev2 u p).
  { destruct Ix as [Q|[Q|[Q|[Q|[]]]]]; injection Q as <-; [exists c0|exists c1|exists c2|exists c3]; (split; [apply HC; tauto|lra]). }
  assert (HV : forall c, ev2 hole (sub2 p c) = dist2 p c - 1/2 * pp_hole k) by reflexivity.
  cbn [ev2 diff2_max]. split.
  - destruct Att as (c & Hc & V). exists c. split; [exact Hc|]. f_equal. rewrite HV in V. lra.
  - intros c Hc. specialize (Low c Hc). rewrite HV in Low. eapply Rle_trans; [|apply Rmax_r]. lra.
Qed.
Lemma box2d_low p s : Rabs (x2 p) - x2 s <= sdf_box2d p s /\ Rabs (y2 p) - y2 s <= sdf_box2d p s.
Proof.
  unfold sdf_box2d, abs_elem2, sub2; cbn [x2 y2]. set (a := Rabs (x2 p)). set (b := Rabs (y2 p)).
  destruct (Rltb_spec 0 (a - x2 s)); destruct (Rltb_spec 0 (b - y2 s)); cbn [andb]; [|destruct (Rltb_spec (y2 s - x2 s) (b - a)); lra ..].
  unfold norm2, norm2sq, dot2. cbn [x2 y2]. set (u := a - x2 s) in *. set (v := b - y2 s) in *. split; [rewrite <- (sqrt_square u) at 1 by lra|rewrite <- (sqrt_square v) at 1 by lra]; apply sqrt_le_1_alt; nra.
Qed.
Lemma box2d_max p s : Rabs (x2 p) <= x2 s \/ Rabs (y2 p) <= y2 s -> sdf_box2d p s = Rmax (Rabs (x2 p) - x2 s) (Rabs (y2 p) - y2 s).
Proof.
  intros H. unfold sdf_box2d, abs_elem2, sub2; cbn [x2 y2]. set (a := Rabs (x2 p)) in *. set (b := Rabs (y2 p)) in *. unfold Rmax.
  destruct (Rltb_spec 0 (a - x2 s)); destruct (Rltb_spec 0 (b - y2 s)); cbn [andb]; destruct (Rltb_spec (y2 s - x2 s) (b - a)); destruct (Rle_dec (a - x2 s) (b - y2 s)); lra.
Qed.
Lemma cylinder_value h r s : must_cylinder h r 0 = Ok s -> forall p, ev3 s p = sdf_box2d (V2 (hypot (x3 p) (y3 p)) (z3 p)) (V2 r (h / 2)).
Proof. unfold must_cylinder. bcases; try discriminate. intros E p. injection E as <-. cbn [ev3]. rewrite !Rminus_0_r. reflexivity. Qed.
Lemma hypot_abs x y : Rabs (hypot x y) = hypot x y.
Proof. apply Rabs_pos_eq, sqrt_pos. Qed.
(** the value of a standoff without webs is at least these three numbers, and at most the last two where they apply *)
Lemma standoff_value k s : (st_webs k <= 0)%Z -> 0 < st_hole_depth k -> 0 < st_hole_diameter k -> standoff k = Ok s -> forall p, let rho := hypot (x3 p) (y3 p) in
  let zo := (st_height k - st_hole_depth k) / 2 in
  rho - st_diameter k / 2 <= ev3 s p /\ Rabs (z3 p) - st_height k / 2 <= ev3 s p /\
  (rho <= st_hole_diameter k / 2 -> Rmin (st_hole_diameter k / 2 - rho) (st_hole_depth k / 2 - Rabs (z3 p - zo)) <= ev3 s p) /\
  (rho <= st_diameter k / 2 -> Rabs (z3 p) <= st_height k / 2 -> ev3 s p <= Rmax (Rmax (rho - st_diameter k / 2) (Rabs (z3 p) - st_height k / 2)) (st_hole_diameter k / 2 - rho)).
Proof.
  intros W HD HR E p rho zo. unfold standoff in E. rewrite (proj2 (Z.ltb_ge _ _) W) in E. apply bind_ok in E. destruct E as (pl & EP & E). cbn [bind] in E.
  unfold pillar_hole in E. destruct (Reqb_spec (st_hole_diameter k) 0) as [X|_]; [lra|]. destruct (Reqb_spec (st_hole_depth k) 0) as [X|_]; [lra|]. cbn [orb] in E.
  apply bind_ok in E. destruct E as (ho & EH & E). apply bind_ok in EH. destruct EH as (cy & EC & EH). rewrite transform3_ok in EH. cbn [bind] in EH. injection EH as <-.
  rewrite (proj2 (Rleb_true _ _)) in E by lra. injection E as <-. cbn [ev3 diff3_max]. rewrite ev_placed3. pose proof (cylinder_value _ _ _ EP p) as VP. rewrite (cylinder_value _ _ _ EC). cbn [x3 y3 z3 sub3]. rewrite !Rminus_0_r, VP. fold rho. unfold pillar in EP.
  replace (Rabs (st_hole_depth k)) with (st_hole_depth k) by (symmetry; apply Rabs_pos_eq; lra). replace (1/2 * (st_height k - st_hole_depth k)) with zo by (unfold zo; field). replace (1/2 * st_hole_diameter k) with (st_hole_diameter k / 2) by field. replace (1/2 * st_diameter k) with (st_diameter k / 2) by field.
  assert (HA : Rabs rho = rho) by apply hypot_abs. set (A := sdf_box2d (V2 rho (z3 p)) (V2 (st_diameter k / 2) (st_height k / 2))). set (B := sdf_box2d (V2 rho (z3 p - zo)) (V2 (st_hole_diameter k / 2) (st_hole_depth k / 2))).
  destruct (box2d_low (V2 rho (z3 p)) (V2 (st_diameter k / 2) (st_height k / 2))) as (A1 & A2). fold A in A1, A2. cbn [x2 y2] in A1, A2. rewrite HA in A1.
  pose proof (Rmax_l A (- B)) as M1. pose proof (Rmax_r A (- B)) as M2. repeat split; try lra.
  - intros L. assert (EB : B = Rmax (rho - st_hole_diameter k / 2) (Rabs (z3 p - zo) - st_hole_depth k / 2)) by (unfold B; rewrite box2d_max; cbn [x2 y2]; rewrite HA; [reflexivity|left; exact L]).
    eapply Rle_trans; [|exact M2]. rewrite EB. unfold Rmin, Rmax. destruct (Rle_dec _ _), (Rle_dec (rho - st_hole_diameter k / 2) _); lra.
  - intros L1 L2. assert (EA : A = Rmax (rho - st_diameter k / 2) (Rabs (z3 p) - st_height k / 2)) by (unfold A; rewrite box2d_max; cbn [x2 y2]; rewrite HA; [reflexivity|left; exact L1]).
    rewrite <- EA. destruct (box2d_low (V2 rho (z3 p - zo)) (V2 (st_hole_diameter k / 2) (st_hole_depth k / 2))) as (B1 & _). fold B in B1. cbn [x2 y2] in B1. rewrite HA in B1. apply Rmax_lub; [apply Rmax_l|]. eapply Rle_trans; [|apply Rmax_r]. lra.
Qed.

(** ** Blends *)
Lemma blend_low k a b : 0 < k -> Rmin a b - k / 4 <= min_poly 2 k a b <= Rmin a b.
Proof. intros K. destruct (C50_min_poly k a b 2 ltac:(lia) K) as (_ & H & _). replace (k / 4) with (k / (2 * 2)) by field. exact H. Qed.
Lemma blend_far k a b : 0 < k -> k <= Rabs (a - b) -> min_poly 2 k a b = Rmin a b.
Proof. intros K H. now apply C50_min_poly; [lia| |]. Qed.
Lemma blend_half k a b : 0 < k -> min_poly 2 k a b <= (a + b) / 2 - k / 4.
Proof.
  intros K. unfold min_poly. cbn [Z.ltb Z.compare Z.eqb Pos.eqb]. rewrite (proj2 (Rleb_false k 0)) by lra. cbn [orb]. unfold min_quad. set (d := Rabs (a - b)). assert (D : 0 <= d) by apply Rabs_pos.
  assert (M : Rmin a b = (a + b) / 2 - d / 2). { unfold d, Rmin. destruct (Rle_dec a b); [rewrite Rabs_left1|rewrite Rabs_pos_eq]; lra. } rewrite M. clearbody d. unfold Rmax. destruct (Rle_dec (k - d) 0) as [L|L].
  - replace (0 / k * (0 / k) * k * (1 / 4)) with 0 by (field; lra). lra.
  - replace ((k - d) / k * ((k - d) / k) * k * (1 / 4)) with (k / 4 - d / 2 + d * d * / k / 4) by (field; lra). assert (0 < / k) by (now apply Rinv_0_lt_compat). nra.
Qed.

(** ** C107 *)
Definition board_corners : list v2 := [V2 (45/10) (45/10); V2 (45/10) (955/10); V2 (955/10) (955/10); V2 (955/10) (45/10)].
Definition axis_dist (c : v2) (p : v3) : R := hypot (x3 p - x2 c) (y3 p - y2 c).
Definition board_panel : panel_params := PanelP (V2 100 100) (4 * (12/10)) (4462/1000) (45/10) (45/10) (45/10) (45/10) pat_x pat_x pat_x pat_x 0.
Definition board_stand (hole : R) : standoff_params := StandP 7 (hole * 2) (7 + 24/10) (hole * (1003/1000) + 45/100) 0 0 0 0.
Lemma pat_x_facts : has_x pat_x /\ ascii pat_x /\ forall a b c, marked a b pat_x c <-> c = a.
Proof.
  split; [exists 0%nat, 1%nat; reflexivity|]. split; [intros c [<-|[]]; reflexivity|]. intros a b c. unfold marked, at_x. split.
  - intros (i & (w & N) & ->). destruct i as [|i]; [|destruct i; discriminate]. cbn. unfold Rdiv. rewrite Rmult_0_l. apply v2_ext; cbn; ring.
  - intros ->. exists 0%nat. split; [exists 1%nat; reflexivity|]. cbn. unfold Rdiv. rewrite Rmult_0_l. apply v2_ext; cbn; ring.
Qed.
Lemma board_panel_ok : exists pan, panel2 board_panel = Ok pan /\
  forall q, (forall c, In c board_corners -> 2231/1000 - dist2 q (sub2 c (V2 50 50)) <= ev2 pan q) /\
    exists c, In c board_corners /\ ev2 pan q = Rmax (sdf_box2d q (V2 (452/10) (452/10)) - 48/10) (2231/1000 - dist2 q (sub2 c (V2 50 50))).
Proof.
  destruct pat_x_facts as (HX & HA & MK). destruct (C63_panel_partial board_panel) as (sz & _ & _ & P). specialize (P ltac:(cbn; lra)). destruct P as ((_ & D) & _).
  destruct D as (pan & E); [repeat apply Forall_cons; try exact HX; apply Forall_nil|]. exists pan. split; [exact E|]. intros q.
  destruct (panel_value board_panel pan q ltac:(cbn; lra)) as (s0 & E0 & (c & Hc & V) & G); [repeat apply Forall_cons; try exact HA; apply Forall_nil|exact E|].
  assert (HC : forall c, hole_centre board_panel c <-> exists c', In c' board_corners /\ c = sub2 c' (V2 50 50)).
  { clear. destruct pat_x_facts as (_ & _ & MK). intros c. unfold hole_centre. cbv zeta. unfold board_panel. cbn [pp_size pp_mt pp_mr pp_mb pp_ml pp_pt pp_pr pp_pb pp_pl x2 y2]. rewrite !MK. split.
    - intros [->|[->|[->| ->]]]; [exists (V2 (45/10) (955/10))|exists (V2 (955/10) (955/10))|exists (V2 (955/10) (45/10))|exists (V2 (45/10) (45/10))]; (split; [cbn; tauto|apply v2_ext; cbn; lra]).
    - intros (c' & [<-|[<-|[<-|[<-|[]]]]] & ->); [right; right; right|left|right; left|right; right; left]; apply v2_ext; cbn; lra. }
  cbn [pp_hole board_panel] in *. replace (4462/1000/2) with (2231/1000) in * by field. split.
  - intros c' I. apply G. apply HC. eauto.
  - apply HC in Hc. destruct Hc as (c' & I & ->). exists c'. split; [exact I|]. rewrite V. f_equal. injection E0 as <-. cbn [ev2]. f_equal; [f_equal; apply v2_ext; cbn; lra|lra].
Qed.
Lemma board_stand_ok hole ps : 0 < hole -> (2 <= length ps)%nat -> exists s m, standoff (board_stand hole) = Ok s /\ board_standoffs hole ps = Ok m /\
  forall p, (exists v, In v ps /\ ev3 m p = ev3 s (sub3 p v)) /\ forall v, In v ps -> ev3 m p <= ev3 s (sub3 p v).
Proof.
  intros H L. destruct (proj2 (proj1 (C64_defined_partial (board_stand hole)))) as (s & E); [unfold standoff_ok, board_stand; cbn; split; [lra|]; split; [lra|]; split; [intros X; lia|lra]|].
  exists s. unfold board_standoffs, internal_dim_scale, PLA. rewrite (proj2 (Rleb_false _ _)) by lra. cbn [bind]. replace (hole * (3 / 1000 + 1) + 45 / 100) with (hole * (1003/1000) + 45/100) by field. fold (board_stand hole). rewrite E. cbn [or_panic bind].
  destruct (proj1 (proj2 (proj2 C48_multi_partial)) s ps L) as (m & M). exists m. split; [reflexivity|]. split; [exact M|]. intros p.
  destruct ps as [|v0 ps]; [cbn in L; lia|]. cbn [multi3d] in M. destruct (C27_union _ _ M) as (ss & ES & _ & MN). destruct (MN p) as (((x & I & V) & W) & _).
  rewrite <- (map_map (fun v => transform3 s (translate3d v)) Some) in ES. apply map_some_inj in ES. subst ss. split.
  - apply in_map_iff in I. destruct I as (v & <- & I). exists v. split; [exact I|]. now rewrite ev_placed3 in V.
  - intros v I'. rewrite <- ev_placed3. apply W. now apply (in_map (fun v => transform3 s (translate3d v))).
Qed.
Lemma board_ok : exists s pan s4 m4 s3 m3, board_base = Ok s /\ panel2 board_panel = Ok pan /\
  standoff (board_stand 4) = Ok s4 /\ board_standoffs 4 board_m4 = Ok m4 /\ standoff (board_stand 3) = Ok s3 /\ board_standoffs 3 board_m3 = Ok m3 /\
  forall p, ev3 s p = min_poly 2 3 (min_poly 2 3 (Rmax (ev2 pan (V2 (x3 p - 50) (y3 p - 50))) (Rabs (z3 p) - 12/10)) (ev3 m4 p)) (ev3 m3 p).
Proof.
  destruct board_panel_ok as (pan & EP & _). destruct (board_stand_ok 4 board_m4 ltac:(lra) ltac:(cbn; lia)) as (s4 & m4 & E4 & M4 & _). destruct (board_stand_ok 3 board_m3 ltac:(lra) ltac:(cbn; lia)) as (s3 & m3 & E3 & M3 & _).
  unfold board_base, internal_dim_scale at 1, PLA at 1. rewrite (proj2 (Rleb_false _ _)) by lra. cbn [bind]. replace (4 * (3 / 1000 + 1) + 45 / 100) with (4462/1000) by field. fold board_panel. rewrite EP. cbn [or_panic bind]. rewrite transform3_ok. cbn [bind].
  rewrite M4, M3. cbn [bind]. eexists. exists pan, s4, m4, s3, m3. split; [reflexivity|]. do 5 (split; [assumption || reflexivity|]). intros p. cbn [ev3 union_eval3 fold_left]. rewrite ev_placed3. do 2 f_equal. cbn [ev3 extrude3d]. unfold extrude_eval, normal_extrude, xy. cbn [x3 y3 z3 sub3].
  f_equal; [f_equal; apply v2_ext; cbn; lra|]. rewrite Rminus_0_r. lra.
Qed.
Lemma axis_shift c p a : dist2 (V2 (x3 p - a) (y3 p - a)) (sub2 c (V2 a a)) = axis_dist c p.
Proof. unfold dist2, axis_dist, norm2, hypot, norm2sq, dot2, sub2. cbn [x2 y2]. f_equal. ring. Qed.
Lemma hypot_ge x y : Rabs x <= hypot x y /\ Rabs y <= hypot x y.
Proof. unfold hypot. split; rewrite <- sqrt_Rsqr_abs; apply sqrt_le_1_alt; unfold Rsqr; nra. Qed.
Lemma hypot_small x y t : hypot x y <= t -> -t <= x <= t /\ -t <= y <= t.
Proof. intros H. destruct (hypot_ge x y) as (A & B). assert (A' : Rabs x <= t) by lra. assert (B' : Rabs y <= t) by lra. pose proof (Rle_abs x). pose proof (Rle_abs (- x)) as X. pose proof (Rle_abs y). pose proof (Rle_abs (- y)) as Y. rewrite Rabs_Ropp in X, Y. lra. Qed.
Lemma hypot_far x y t : t <= x \/ x <= - t \/ t <= y \/ y <= - t -> t <= hypot x y.
Proof. intros H. destruct (hypot_ge x y) as (A & B). pose proof (Rle_abs x). pose proof (Rle_abs (- x)) as X. pose proof (Rle_abs y). pose proof (Rle_abs (- y)) as Y. rewrite Rabs_Ropp in X, Y. lra. Qed.
(** a pin of radius 1.481 passes through the four corners, at every height *)
Theorem C107_pin_partial : exists s, board_base = Ok s /\ forall c p, In c board_corners -> axis_dist c p <= 1481/1000 -> ~ ev3 s p < 0.
Proof.
  destruct board_ok as (s & pan & s4 & m4 & s3 & m3 & E & EP & E4 & M4 & E3 & M3 & V). exists s. split; [exact E|]. intros c p C D. rewrite V. clear E V s. apply Rle_not_lt.
  destruct board_panel_ok as (pan' & EP' & PV). rewrite EP in EP'. injection EP' as <-. destruct (PV (V2 (x3 p - 50) (y3 p - 50))) as (PL & _). specialize (PL c C). rewrite axis_shift in PL. clear PV EP.
  destruct (board_stand_ok 4 board_m4 ltac:(lra) ltac:(cbn; lia)) as (s4' & m4' & E4' & M4' & G4). rewrite E4 in E4'. injection E4' as <-. rewrite M4 in M4'. injection M4' as <-. destruct (G4 p) as ((v4 & I4 & V4) & _). clear G4 M4.
  destruct (board_stand_ok 3 board_m3 ltac:(lra) ltac:(cbn; lia)) as (s3' & m3' & E3' & M3' & G3). rewrite E3 in E3'. injection E3' as <-. rewrite M3 in M3'. injection M3' as <-. destruct (G3 p) as ((v3' & I3 & V3') & _). clear G3 M3.
  set (a := Rmax _ _). assert (A1 : 75/100 <= a) by (unfold a; eapply Rle_trans; [|apply Rmax_l]; lra). assert (A2 : Rabs (z3 p) - 12/10 <= a) by apply Rmax_r. clearbody a. clear PL.
  destruct (hypot_small _ _ _ D) as (DX & DY). rewrite V4, V3'. clear V4 V3' m4 m3.
  assert (B3 : 10 <= ev3 s3 (sub3 p v3')).
  { destruct (standoff_value (board_stand 3) s3 ltac:(cbn; lia) ltac:(cbn; lra) ltac:(cbn; lra) E3 (sub3 p v3')) as (L & _). cbn [st_diameter board_stand] in L.
    assert (F : 13 <= hypot (x3 (sub3 p v3')) (y3 (sub3 p v3'))); [|lra]. apply hypot_far. cbn [x3 y3 sub3].
    cbn [board_corners In] in C. cbn [board_m3 map In fst snd] in I3. destruct C as [<-|[<-|[<-|[<-|[]]]]]; cbn [x2 y2] in DX, DY; destruct I3 as [<-|[<-|[<-|[<-|[<-|[<-|[]]]]]]]; cbn [x3 y3]; lra. }
  assert (B4 : 10 <= ev3 s4 (sub3 p v4) \/ (8 + 2/10 - z3 p <= ev3 s4 (sub3 p v4) /\ z3 p - 745/100 >= 0 /\ 0 <= ev3 s4 (sub3 p v4)) \/ 75/100 <= ev3 s4 (sub3 p v4)).
  { assert (FAR : 14 <= hypot (x3 (sub3 p v4)) (y3 (sub3 p v4)) \/ (x3 v4 = x2 c /\ y3 v4 = y2 c /\ z3 v4 = board_z)).
    { cbn [board_corners In] in C. cbn [board_m4 map In fst snd] in I4. destruct C as [<-|[<-|[<-|[<-|[]]]]]; cbn [x2 y2] in DX, DY |- *; destruct I4 as [<-|[<-|[<-|[<-|[<-|[<-|[]]]]]]]; cbn [x3 y3 z3];
        first [right; repeat split; reflexivity|left; apply hypot_far; cbn [x3 y3 sub3]; lra]. }
    destruct (standoff_value (board_stand 4) s4 ltac:(cbn; lia) ltac:(cbn; lra) ltac:(cbn; lra) E4 (sub3 p v4)) as (L1 & L2 & L3 & _). cbn [st_diameter st_height st_hole_depth st_hole_diameter board_stand] in L1, L2, L3.
    destruct FAR as [F|(X & Y & Z)]; [left; lra|right]. cbn [x3 y3 z3 sub3] in L1, L2, L3. rewrite Z in L2. rewrite X, Y, Z in L3. fold (axis_dist c p) in L3. clear L1. specialize (L3 ltac:(lra)). unfold board_z in L2, L3.
    set (e := ev3 s4 (sub3 p v4)) in *. clearbody e. clear - D L2 L3. set (rho := axis_dist c p) in *. clearbody rho. set (z := z3 p) in *. clearbody z.
    pose proof (Rle_abs (z - 5 / 10 * (7 + 24 / 10))) as Z1. pose proof (Rle_abs (- (z - 5 / 10 * (7 + 24 / 10)))) as Z2. rewrite Rabs_Ropp in Z2.
    destruct (Rle_dec (745/100) z) as [H|H]; [|destruct (Rle_dec z (-45/100)) as [H'|H']]; [|right; lra|right].
    - left. assert (Z3 : Rabs (z - 5 / 10 * (7 + 24 / 10) - (7 - (7 + 24 / 10)) / 2) = z - 35/10) by (rewrite Rabs_pos_eq; lra). rewrite Z3 in L3. revert L3. unfold Rmin. destruct (Rle_dec _ _); intros; lra.
    - assert (Z3 : Rabs (z - 5 / 10 * (7 + 24 / 10) - (7 - (7 + 24 / 10)) / 2) <= 47/10 - 75/100) by (apply Rabs_le; lra). revert L3. unfold Rmin. destruct (Rle_dec _ _); intros; lra. }
  set (b := ev3 s4 (sub3 p v4)) in *. set (d := ev3 s3 (sub3 p v3')) in *. clearbody b d. clear - A1 A2 B3 B4. pose proof (Rle_abs (z3 p)) as ZA. set (z := Rabs (z3 p)) in *. clearbody z. set (zz := z3 p) in *. clearbody zz.
  assert (AB : 0 <= min_poly 2 3 a b).
  { pose proof (blend_low 3 a b ltac:(lra)) as BL. destruct B4 as [B|[(B & H & B0)|B]].
    - revert BL. unfold Rmin. destruct (Rle_dec a b); intros; lra.
    - destruct (Rle_dec b (325/100)) as [Q|Q]; [rewrite blend_far; [apply Rmin_glb; lra|lra|rewrite Rabs_pos_eq; lra]|]. revert BL. unfold Rmin. destruct (Rle_dec a b); intros; lra.
    - revert BL. unfold Rmin. destruct (Rle_dec a b); intros; lra. }
  set (m := min_poly 2 3 a b) in *. clearbody m. pose proof (blend_low 3 m d ltac:(lra)) as BL. destruct (Rle_dec m 7) as [Q|Q]; [rewrite blend_far; [apply Rmin_glb; lra|lra|rewrite Rabs_left1; lra]|]. revert BL. unfold Rmin. destruct (Rle_dec m d); intros; lra.
Qed.
(** but no M4 screw does: the blend of the standoff with the plate narrows the bore *)
Theorem C107_screw_refuted : exists s c p, board_base = Ok s /\ In c board_corners /\ axis_dist c p = 19/10 /\ ev3 s p < 0.
Proof.
  destruct board_ok as (s & pan & s4 & m4 & s3 & m3 & E & EP & E4 & M4 & E3 & M3 & V). exists s, (V2 (45/10) (45/10)), (V3 (64/10) (45/10) (12/10)).
  assert (AD : hypot (64/10 - 45/10) (45/10 - 45/10) = 19/10). { unfold hypot. replace (_ + _) with (19/10 * (19/10)) by field. apply sqrt_square. lra. }
  split; [exact E|]. split; [now left|]. split; [exact AD|]. rewrite V. clear E V s. set (p := V3 _ _ _).
  set (a := Rmax _ _). assert (A : a <= 331/1000).
  { destruct board_panel_ok as (pan' & EP' & PV). rewrite EP in EP'. injection EP' as <-. destruct (PV (V2 (x3 p - 50) (y3 p - 50))) as (_ & c & C & W). rewrite axis_shift in W. unfold a. apply Rmax_lub; [rewrite W; apply Rmax_lub|].
    - rewrite box2d_max; cbn [x2 y2 x3 y3 p]; [|left; apply Rabs_le; lra]. rewrite !Rabs_left1 by lra. unfold Rmax. destruct (Rle_dec _ _); lra.
    - assert (19/10 <= axis_dist c p); [|lra]. cbn [board_corners In] in C. destruct C as [<-|[<-|[<-|[<-|[]]]]]; unfold axis_dist, p; cbn [x2 y2 x3 y3]; first [rewrite AD; lra|apply hypot_far; lra].
    - cbn [z3 p]. rewrite Rabs_pos_eq; lra. }
  destruct (board_stand_ok 4 board_m4 ltac:(lra) ltac:(cbn; lia)) as (s4' & m4' & E4' & M4' & G4). rewrite E4 in E4'. injection E4' as <-. rewrite M4 in M4'. injection M4' as <-. destruct (G4 p) as (_ & W4). clear G4 M4.
  specialize (W4 (V3 (45/10) (45/10) board_z) ltac:(now left)). destruct (standoff_value (board_stand 4) s4 ltac:(cbn; lia) ltac:(cbn; lra) ltac:(cbn; lra) E4 (sub3 p (V3 (45/10) (45/10) board_z))) as (_ & _ & _ & U).
  cbn [st_diameter st_height st_hole_depth st_hole_diameter board_stand x3 y3 z3 sub3 p] in U. rewrite AD in U. replace (Rabs (12 / 10 - board_z)) with (35/10) in U by (unfold board_z; rewrite Rabs_left1; lra). specialize (U ltac:(lra) ltac:(lra)).
  assert (B : ev3 m4 p <= 331/1000). { eapply Rle_trans; [exact W4|]. eapply Rle_trans; [exact U|]. repeat apply Rmax_lub; lra. }
  pose proof (blend_half 3 a (ev3 m4 p) ltac:(lra)) as H. pose proof (blend_low 3 (min_poly 2 3 a (ev3 m4 p)) (ev3 m3 p) ltac:(lra)) as (_ & H'). pose proof (Rmin_l (min_poly 2 3 a (ev3 m4 p)) (ev3 m3 p)). lra.
Qed.
(** and the eight standoffs away from the corners are closed by the plate *)
Theorem C107_closed_refuted : exists s, board_base = Ok s /\ forall v, In v (board_m4 ++ board_m3) -> ~ In (V2 (x3 v) (y3 v)) board_corners -> ev3 s (V3 (x3 v) (y3 v) 0) < 0.
Proof.
  destruct board_ok as (s & pan & s4 & m4 & s3 & m3 & E & EP & E4 & M4 & E3 & M3 & V). exists s. split; [exact E|]. intros v I N. rewrite V. cbn [x3 y3 z3]. rewrite Rabs_R0. set (q := V2 _ _).
  assert (A : ev2 pan q < 0).
  { destruct board_panel_ok as (pan' & EP' & PV). rewrite EP in EP'. injection EP' as <-. destruct (PV q) as (_ & c & C & W). rewrite W. unfold q in *. apply Rmax_lub_lt.
    - rewrite box2d_max; cbn [x2 y2]; cbn [app board_m4 board_m3 map In fst snd] in I; repeat (destruct I as [<-|I]; [cbn [x3 y3]; first [exfalso; apply N; cbn; tauto|left; apply Rabs_le; lra|right; apply Rabs_le; lra|unfold Rmax, Rabs; repeat (match goal with |- context [Rcase_abs ?x] => destruct (Rcase_abs x) | |- context [Rle_dec ?x ?y] => destruct (Rle_dec x y) end); lra]|]); destruct I.
    - assert (F : 3 <= dist2 (V2 (x3 v - 50) (y3 v - 50)) (sub2 c (V2 50 50))); [|lra]. unfold dist2. change (3 <= hypot (x3 v - 50 - (x2 c - 50)) (y3 v - 50 - (y2 c - 50))). 
      cbn [board_corners In] in C. cbn [app board_m4 board_m3 map In fst snd] in I. destruct C as [<-|[<-|[<-|[<-|[]]]]]; cbn [x2 y2]; repeat (destruct I as [<-|I]; [cbn [x3 y3] in *; first [apply hypot_far; lra|exfalso; apply N; cbn; tauto]|]); destruct I. }
  set (a := Rmax _ _). assert (a < 0) by (apply Rmax_lub_lt; lra). pose proof (blend_low 3 a (ev3 m4 (V3 (x3 v) (y3 v) 0)) ltac:(lra)) as (_ & H1). set (b := ev3 m4 _) in *. pose proof (blend_low 3 (min_poly 2 3 a b) (ev3 m3 (V3 (x3 v) (y3 v) 0)) ltac:(lra)) as (_ & H'). set (m := min_poly 2 3 a b) in *. set (d := ev3 m3 _) in *.
  pose proof (Rmin_l m d). pose proof (Rmin_l a b). lra.
Qed.

(** ** C108 *)
Lemma blend_safe m d : 0 <= m -> 10 <= d -> 0 <= min_poly 2 3 m d.
Proof.
  intros M D. pose proof (blend_low 3 m d ltac:(lra)) as BL. destruct (Rle_dec m 7) as [Q|Q]; [rewrite blend_far; [apply Rmin_glb; lra|lra|rewrite Rabs_left1; lra]|]. revert BL. unfold Rmin. destruct (Rle_dec m d); intros; lra.
Qed.
Lemma cut_all_ok h r l : 0 < r -> 0 <= h -> forall s, exists s', cut_all h r s l = Ok s' /\
  forall p, ev3 s' p < 0 <-> ev3 s p < 0 /\ forall c, In c l -> ~ (axis_dist c p <= r /\ Rabs (z3 p) <= h / 2).
Proof.
  intros R0 H0. induction l as [|c l IH]; intros s; cbn [cut_all].
  - exists s. split; [reflexivity|]. intros p. split; [intros L; split; [exact L|intros ? []]|tauto].
  - destruct (proj2 (cylinder_ok h r) (conj R0 H0)) as (cy & EC). rewrite EC. cbn [bind]. rewrite transform3_ok. cbn [bind]. cbn [difference3d difference3d_max bind].
    destruct (IH (diff3_max Rmax s (transform3 cy (translate3d (V3 (x2 c) (y2 c) 0))))) as (s' & E & M). exists s'. split; [exact E|]. intros p. rewrite M. cbn [ev3 diff3_max]. rewrite ev_placed3.
    destruct (cylinder_sign h r cy (sub3 p (V3 (x2 c) (y2 c) 0)) EC) as (_ & C). cbn [x3 y3 z3 sub3] in C. rewrite Rminus_0_r in C. fold (axis_dist c p) in C.
    assert (Q : 0 < ev3 cy (sub3 p (V3 (x2 c) (y2 c) 0)) <-> ~ (axis_dist c p <= r /\ Rabs (z3 p) <= h / 2)) by (rewrite <- C; lra).
    rewrite Rmax_neg_iff. split.
    + intros ((A & B) & G). split; [exact A|]. intros c' [<-|I]; [apply Q; lra|now apply G].
    + intros (A & G). split; [split; [exact A|]|intros c' I; apply G; now right]. assert (0 < ev3 cy (sub3 p (V3 (x2 c) (y2 c) 0))) by (apply Q, G; now left). lra.
Qed.
Lemma add_pillars_ok l : forall s, exists s', add_pillars s l = Ok s' /\ forall p,
  ev3 s' p <= ev3 s p /\ (forall c, In c l -> 3 < axis_dist c p < 4 -> 125/100 < z3 p < 1025/100 -> ev3 s' p < 0) /\
  (0 <= ev3 s p -> (forall c, In c l -> 14 <= axis_dist c p) -> 0 <= ev3 s' p).
Proof.
  destruct (proj2 (cylinder_ok 9 (8/2)) ltac:(lra)) as (co & EO). destruct (proj2 (cylinder_ok 9 (6/2)) ltac:(lra)) as (ci & EI).
  induction l as [|c l IH]; intros s; cbn [add_pillars].
  - exists s. split; [reflexivity|]. intros p. split; [lra|]. split; [intros ? []|auto].
  - rewrite EO, EI. cbn [bind]. cbn [difference3d difference3d_max bind]. rewrite transform3_ok. cbn [bind]. set (t := transform3 _ _). cbn [union3d_min length Nat.ltb Nat.leb all_some bind].
    match goal with |- context [add_pillars ?x l] => destruct (IH x) as (s' & E & M); set (u := x) in * end. exists s'. split; [exact E|]. intros p. destruct (M p) as (M1 & M2 & M3).
    assert (U : ev3 u p = min_poly 2 3 (ev3 s p) (ev3 t p)) by reflexivity. pose proof (blend_low 3 (ev3 s p) (ev3 t p) ltac:(lra)) as (_ & B). pose proof (Rmin_l (ev3 s p) (ev3 t p)). pose proof (Rmin_r (ev3 s p) (ev3 t p)).
    assert (T : ev3 t p = Rmax (ev3 co (V3 (x3 p - x2 c) (y3 p - y2 c) (z3 p - 575/100))) (- ev3 ci (V3 (x3 p - x2 c) (y3 p - y2 c) (z3 p - 575/100)))).
    { unfold t. rewrite ev_placed3. cbn [ev3 diff3_max]. replace (sub3 p (V3 (x2 c) (y2 c) ((9 + 25/10) / 2))) with (V3 (x3 p - x2 c) (y3 p - y2 c) (z3 p - 575/100)) by (apply v3_ext; cbn; lra). reflexivity. }
    split; [lra|]. split.
    + intros c' [<-|I] D Z; [|now apply (M2 c')]. assert (TN : ev3 t p < 0); [|lra]. rewrite T. apply Rmax_lub_lt.
      * apply (cylinder_sign _ _ _ _ EO). cbn [x3 y3 z3]. fold (axis_dist c p). split; [lra|apply Rabs_def1; lra].
      * destruct (cylinder_sign _ _ _ (V3 (x3 p - x2 c) (y3 p - y2 c) (z3 p - 575/100)) EI) as (_ & CI). cbn [x3 y3 z3] in CI. fold (axis_dist c p) in CI. assert (~ ev3 ci (V3 (x3 p - x2 c) (y3 p - y2 c) (z3 p - 575/100)) <= 0) by (rewrite CI; lra). lra.
    + intros S0 F. apply M3; [|intros c' I; apply F; now right]. rewrite U. apply blend_safe; [exact S0|]. rewrite T. eapply Rle_trans; [|apply Rmax_l]. rewrite (cylinder_value _ _ _ EO). cbn [x3 y3 z3].
      destruct (box2d_low (V2 (hypot (x3 p - x2 c) (y3 p - y2 c)) (z3 p - 575/100)) (V2 (8/2) (9/2))) as (L & _). cbn [x2 y2] in L. rewrite hypot_abs in L. fold (axis_dist c p) in L |- *. specialize (F c ltac:(now left)). lra.
Qed.
Definition support_panel : panel_params := PanelP (V2 100 100) (35/10 * (12/10)) (39605/10000) (45/10) (45/10) (45/10) (45/10) pat_x pat_x pat_x pat_x 0.
Lemma support_ok : exists s plate, support = Ok s /\
  (forall p, plate p <-> sdf_box2d (V2 (x3 p - 50) (y3 p - 50)) (V2 (458/10) (458/10)) < 42/10 /\ Rabs (z3 p) < 125/100 /\ (forall c, In c board_corners -> 39605/20000 < axis_dist c p) /\
     (forall c, In c support_standoffs -> ~ (axis_dist c p <= 4 /\ Rabs (z3 p) <= 25/10)) /\ (forall c, In c support_holes -> ~ (axis_dist c p <= 175/100 /\ Rabs (z3 p) <= 5))) /\
  forall p, (plate p -> ev3 s p < 0) /\ (forall c, In c support_pillars -> 3 < axis_dist c p < 4 -> 125/100 < z3 p < 1025/100 -> ev3 s p < 0) /\
    (~ plate p -> (forall c, In c support_pillars -> 14 <= axis_dist c p) -> ~ ev3 s p < 0).
Proof.
  destruct pat_x_facts as (HX & HA & MK). destruct (C63_panel_partial support_panel) as (s0 & E0 & _ & P). specialize (P ltac:(cbn; lra)). destruct P as ((_ & D) & _ & PV).
  destruct D as (pan & E); [repeat apply Forall_cons; try exact HX; apply Forall_nil|]. specialize (PV pan ltac:(repeat apply Forall_cons; try exact HA; apply Forall_nil) E).
  assert (HC : forall c, hole_centre support_panel c <-> exists c', In c' board_corners /\ c = sub2 c' (V2 50 50)).
  { clear - MK. intros c. unfold hole_centre. cbv zeta. unfold support_panel. cbn [pp_size pp_mt pp_mr pp_mb pp_ml pp_pt pp_pr pp_pb pp_pl x2 y2]. rewrite !MK. split.
    - intros [->|[->|[->| ->]]]; [exists (V2 (45/10) (955/10))|exists (V2 (955/10) (955/10))|exists (V2 (955/10) (45/10))|exists (V2 (45/10) (45/10))]; (split; [cbn; tauto|apply v2_ext; cbn; lra]).
    - intros (c' & [<-|[<-|[<-|[<-|[]]]]] & ->); [right; right; right|left|right; left|right; right; left]; apply v2_ext; cbn; lra. }
  unfold support, internal_dim_scale, PLA. rewrite (proj2 (Rleb_false _ _)) by lra. cbn [bind]. replace (35/10 * (3 / 1000 + 1) + 45 / 100) with (39605/10000) by field. fold support_panel. rewrite E. cbn [or_panic bind]. rewrite transform3_ok. cbn [bind]. set (s1 := transform3 _ _).
  destruct (cut_all_ok (25/10 * 2) (8/2) support_standoffs ltac:(lra) ltac:(lra) s1) as (s2 & E2 & M2). rewrite E2. cbn [bind]. destruct (cut_all_ok 10 (35/10/2) support_holes ltac:(lra) ltac:(lra) s2) as (s3 & E3 & M3). rewrite E3. cbn [bind].
  destruct (add_pillars_ok support_pillars s3) as (s & ES & MS). exists s. exists (fun p => ev3 s3 p < 0). split; [exact ES|]. split.
  - intros p. rewrite M3, M2.
    assert (S1 : ev3 s1 p < 0 <-> sdf_box2d (V2 (x3 p - 50) (y3 p - 50)) (V2 (458/10) (458/10)) < 42/10 /\ Rabs (z3 p) < 125/100 /\ (forall c, In c board_corners -> 39605/20000 < axis_dist c p)).
    { unfold s1. rewrite ev_placed3. cbn [ev3 extrude3d]. unfold extrude_eval, normal_extrude, xy. cbn [x3 y3 z3 sub3]. rewrite Rmax_neg_iff, Rminus_0_r. replace (100 / 2) with 50 by field. rewrite PV. injection E0 as <-. cbn [ev2].
      cbn [pp_size pp_corner pp_hole support_panel]. replace (sub2 (scale2 (1 / 2) (V2 100 100)) (elem2 (35 / 10 * (12 / 10)))) with (V2 (458/10) (458/10)) by (apply v2_ext; cbn; lra).
      split.
      - intros ((A & B) & C). split; [lra|]. split; [lra|]. intros c I. rewrite <- (axis_shift c p 50). assert (L : 39605 / 10000 / 2 < dist2 (V2 (x3 p - 50) (y3 p - 50)) (sub2 c (V2 50 50))) by (apply B, HC; eauto). lra.
      - intros (A & B & C). split; [split; [lra|]|lra]. intros c H. apply HC in H. destruct H as (c' & I & ->). rewrite axis_shift. specialize (C c' I). lra. }
    rewrite S1. replace (8/2) with 4 by field. replace (35/10/2) with (175/100) by field. replace (25/10 * 2 / 2) with (25/10) by field. replace (10/2) with 5 by field. tauto.
  - intros p. destruct (MS p) as (A & B & C). split; [intros L; lra|]. split; [exact B|]. intros N F. apply Rle_not_lt. apply C; [lra|exact F].
Qed.
Definition hole_size (c : v2) (r : R) : Prop := (In c support_standoffs /\ r = 4) \/ (In c support_holes /\ r = 175/100).
(** three of the eight holes go through the plate, and the pillars stand *)
Theorem C108_holes_partial : exists s, support = Ok s /\
  (forall c r p, hole_size c r -> In c [V2 13 (125/10); V2 13 30; V2 13 (30 + 60)] -> (axis_dist c p <= r -> ~ ev3 s p < 0) /\ (r < axis_dist c p <= r + 1 -> Rabs (z3 p) < 125/100 -> ev3 s p < 0)) /\
  (forall c p, In c support_pillars -> 3 < axis_dist c p < 4 -> 125/100 < z3 p < 1025/100 -> ev3 s p < 0).
Proof.
  destruct support_ok as (s & plate & E & PL & M). exists s. split; [exact E|]. split; [|intros c p; apply (proj1 (proj2 (M p)))].
  intros c r p HS I. split.
  - intros D. apply M.
    + rewrite PL. intros (_ & Z & _ & A & B). destruct HS as [(C & ->)|(C & ->)]; [apply (A c C)|apply (B c C)]; (split; lra).
    + intros c' C'. apply hypot_far. destruct (hypot_small _ _ _ D) as (DX & _). assert (R : r <= 4) by (destruct HS as [(_ & ->)|(_ & ->)]; lra).
      cbn [In] in I. destruct I as [<-|[<-|[<-|[]]]]; cbn [x2] in DX; cbn [support_pillars In] in C'; destruct C' as [<-|[<-|[<-|[]]]]; cbn [x2 y2]; lra.
  - intros D Z. apply M. rewrite PL.
    assert (SZ : (c = V2 13 (125/10) /\ r = 4) \/ (c = V2 13 30 /\ r = 175/100) \/ (c = V2 13 (30 + 60) /\ r = 175/100)).
    { clear - HS I. assert (NE : forall a b a' b' : R, V2 a b = V2 a' b' -> a = a' /\ b = b') by (intros; split; congruence). cbn [In] in I. unfold hole_size in HS. cbn [support_standoffs support_holes In] in HS.
      destruct I as [<-|[<-|[<-|[]]]]; destruct HS as [(H & ->)|(H & ->)]; try tauto; exfalso; repeat (destruct H as [H|H]; [apply NE in H; lra|]); exact H. }
    clear HS I. destruct (hypot_small _ _ _ (proj2 D)) as (DX & DY). split; [|split; [exact Z|split; [|split]]].
    + destruct SZ as [(-> & ->)|[(-> & ->)|(-> & ->)]]; cbn [x2 y2] in DX, DY; (rewrite box2d_max; cbn [x2 y2]; [apply Rmax_lub_lt; apply Rplus_lt_reg_r with (458/10); unfold Rminus; rewrite Rplus_assoc, Rplus_opp_l, Rplus_0_r; apply Rabs_def1; lra|left; apply Rabs_le; lra]).
    + intros c' C'. assert (2 <= axis_dist c' p); [|lra]. apply hypot_far. destruct SZ as [(-> & ->)|[(-> & ->)|(-> & ->)]]; cbn [x2 y2] in DX, DY; cbn [board_corners In] in C'; destruct C' as [<-|[<-|[<-|[<-|[]]]]]; cbn [x2 y2]; lra.
    + intros c' C' (L & _). destruct (hypot_small _ _ _ L) as (LX & LY). destruct SZ as [(-> & ->)|[(-> & ->)|(-> & ->)]]; cbn [x2 y2] in DX, DY; cbn [support_standoffs In] in C'; destruct C' as [<-|[<-|[<-|[<-|[]]]]]; cbn [x2 y2] in LX, LY; lra.
    + intros c' C' (L & _). destruct (hypot_small _ _ _ L) as (LX & LY). destruct SZ as [(-> & ->)|[(-> & ->)|(-> & ->)]]; cbn [x2 y2] in DX, DY; cbn [support_holes In] in C'; destruct C' as [<-|[<-|[<-|[<-|[]]]]]; cbn [x2 y2] in LX, LY; lra.
Qed.
(** the other five positions are off the plate: nothing around them *)
Theorem C108_holes_refuted : exists s, support = Ok s /\
  forall c r p, hole_size c r -> ~ In c [V2 13 (125/10); V2 13 30; V2 13 (30 + 60)] -> axis_dist c p <= r + 1 -> ~ ev3 s p < 0.
Proof.
  destruct support_ok as (s & plate & E & PL & M). exists s. split; [exact E|]. intros c r p HS NI D. destruct (hypot_small _ _ _ D) as (DX & DY).
  assert (SZ : (c = V2 (13 + 102) (125/10) /\ r = 4) \/ (c = V2 13 (125/10 + 95) /\ r = 4) \/ (c = V2 (13 + 102) (125/10 + 95) /\ r = 4) \/ (c = V2 (13 + 102) 30 /\ r = 175/100) \/ (c = V2 (13 + 102) (90 + 60) /\ r = 175/100)).
  { clear - HS NI. unfold hole_size in HS. cbn [support_standoffs support_holes In] in HS. cbn [In] in NI.
    destruct HS as [([<-|[<-|[<-|[<-|[]]]]] & ->)|([<-|[<-|[<-|[<-|[]]]]] & ->)]; tauto. }
  clear HS NI. apply M.
  - rewrite PL. intros (B & _). destruct (box2d_low (V2 (x3 p - 50) (y3 p - 50)) (V2 (458/10) (458/10))) as (L1 & L2). cbn [x2 y2] in L1, L2. pose proof (Rle_abs (x3 p - 50)). pose proof (Rle_abs (y3 p - 50)).
    destruct SZ as [(-> & ->)|[(-> & ->)|[(-> & ->)|[(-> & ->)|(-> & ->)]]]]; cbn [x2 y2] in DX, DY; lra.
  - intros c' C'. apply hypot_far. destruct SZ as [(-> & ->)|[(-> & ->)|[(-> & ->)|[(-> & ->)|(-> & ->)]]]]; cbn [x2 y2] in DX, DY; cbn [support_pillars In] in C'; destruct C' as [<-|[<-|[<-|[]]]]; cbn [x2 y2]; lra.
Qed.
(** Examples: the axis of a corner hole is free, and points of the plate and of a pillar are in the part *)
Example C107_example : exists s, board_base = Ok s /\ (forall z, ~ ev3 s (V3 (45/10 + 1) (45/10 - 1) z) < 0) /\ ev3 s (V3 60 30 0) < 0.
Proof.
  destruct C107_pin_partial as (s & E & P). exists s. split; [exact E|]. split.
  - intros z. apply (P (V2 (45/10) (45/10))); [now left|]. unfold axis_dist, hypot. cbn [x2 y2 x3 y3]. rewrite <- (sqrt_square (1481/1000)) by lra. apply sqrt_le_1_alt. lra.
  - destruct C107_closed_refuted as (s' & E' & Q). rewrite E in E'. injection E' as <-. apply (Q (V3 60 30 board_z)); [cbn; tauto|]. cbn [x3 y3]. intros I. cbn [board_corners In] in I. repeat (destruct I as [I|I]; [apply (f_equal x2) in I; cbn in I; lra|]). exact I.
Qed.
Example C108_example : exists s, support = Ok s /\ (forall z, ~ ev3 s (V3 13 30 z) < 0) /\ ev3 s (V3 (13 + 2) 30 0) < 0 /\ ev3 s (V3 (50 + 35/10) 50 6) < 0.
Proof.
  assert (HY : forall x, 0 <= x -> hypot x 0 = x) by (intros x X; unfold hypot; replace (x * x + 0 * 0) with (x * x) by ring; now apply sqrt_square).
  destruct C108_holes_partial as (s & E & P & Q). exists s. split; [exact E|]. assert (H : hole_size (V2 13 30) (175/100)) by (right; split; [now left|reflexivity]). split; [|split].
  - intros z. apply (P (V2 13 30) (175/100)); [exact H|cbn; tauto|]. unfold axis_dist. cbn [x2 y2 x3 y3]. rewrite !Rminus_eq_0, HY; lra.
  - apply (P (V2 13 30) (175/100)); [exact H|cbn; tauto| |cbn; rewrite Rabs_R0; lra]. unfold axis_dist. cbn [x2 y2 x3 y3]. rewrite Rminus_eq_0, HY; lra.
  - apply (Q (V2 50 50)); [cbn; tauto| |cbn; lra]. unfold axis_dist. cbn [x2 y2 x3 y3]. rewrite Rminus_eq_0, HY; lra.
Qed.
