(** C111: the front panel of examples/atx-bench-supply. *)
From Coq Require Import String Reals Lra Psatz Lia List Bool ZArith.
From Verif Require Import Prelude Vec BoxModel MatrixModel PropsBox PropsMatrix SdfModel SdfLemmas Grades GradesOps PropsBool PropsUnion2 PropsCopies Trig PropsUtil PrimModel PropsPrim PropsLip GradesOps
  ObjModel UtilModel MiscModel PropsForm ExampleModel PropsBoards PropsCover.
Import ListNotations.
Local Open Scope R_scope.

(** ** The openings *)
(** a round opening, and one with four sides (half width, half height) and corners of the given radius *)
Inductive opening := Round (c : v2) (r : R) | Slot (c : v2) (w h k : R).
Definition through (o : opening) (q : v2) : Prop :=
  match o with
  | Round c r => dist2 q c <= r
  | Slot c w h k => past (x2 q - x2 c) (w - k) * past (x2 q - x2 c) (w - k) + past (y2 q - y2 c) (h - k) * past (y2 q - y2 c) (h - k) <= k * k
  end.
Definition mount_centres : list v2 :=
  [V2 (-71) (77/2); V2 (-71/3) (77/2); V2 (71/3) (77/2); V2 71 (77/2); V2 71 (77/6); V2 71 (-77/6);
   V2 71 (-77/2); V2 (71/3) (-77/2); V2 (-71/3) (-77/2); V2 (-71) (-77/2); V2 (-71) (-77/6); V2 (-71) (77/6)].
Definition plug_centres : list v2 :=
  [V2 60 (-55/2); V2 60 (-15/2); V2 40 (-55/2); V2 40 (-15/2); V2 20 (-55/2); V2 20 (-15/2); V2 0 (-55/2); V2 0 (-15/2)].
(** the screws, the switch, the output sockets, the clamps *)
Definition plain_openings : list opening :=
  map (fun c => Round c (19/10)) mount_centres ++ Round (V2 50 (55/2)) (112/10) :: map (fun c => Round c (364/100)) plug_centres ++
  [Slot (V2 (-385/10) (-21665/1000)) (49/2) (1767/200) 1].
(** the regulated output: two sockets and a display *)
Definition supply_openings : list opening :=
  [Round (V2 (-5386/100) (-235/100)) (336/100); Round (V2 (-3386/100) (-235/100)) (336/100); Slot (V2 (-405/10) (205/10)) (45/2) (257/20) 0].
Definition atx_openings : list opening := plain_openings ++ supply_openings.
(** the outlines of the plate and of the thicker part around the regulated output *)
Definition plate (q : v2) : Prop := past (x2 q) 71 * past (x2 q) 71 + past (y2 q) (77/2) * past (y2 q) (77/2) < 4 * 4.
Definition block (q : v2) : Prop :=
  past (x2 q + 405/10) (45/2) * past (x2 q + 405/10) (45/2) + past (y2 q - 1382/100) (3906/200) * past (y2 q - 1382/100) (3906/200) < 2 * 2.

(** ** Signs *)
Lemma past_sq_zero x a : past x a * past x a <= 0 <-> Rabs x <= a.
Proof. unfold past. destruct (Rle_dec (Rabs x - a) 0) as [L|L]; [rewrite Rmax_left by lra|rewrite Rmax_right by lra]; split; intros; nra. Qed.
Lemma box2d_rounded p s k : (0 < k -> (sdf_box2d p s - k < 0 <-> past (x2 p) (x2 s) * past (x2 p) (x2 s) + past (y2 p) (y2 s) * past (y2 p) (y2 s) < k * k)) /\
  (0 <= k -> (sdf_box2d p s - k <= 0 <-> past (x2 p) (x2 s) * past (x2 p) (x2 s) + past (y2 p) (y2 s) * past (y2 p) (y2 s) <= k * k)).
Proof.
  unfold sdf_box2d, past. cbv zeta. unfold abs_elem2, sub2. cbn [x2 y2]. set (u := Rabs (x2 p) - x2 s). set (w := Rabs (y2 p) - y2 s).
  assert (MP : forall x, 0 < x -> Rmax 0 x = x) by (intros; apply Rmax_right; lra). assert (MN : forall x, x <= 0 -> Rmax 0 x = 0) by (intros; apply Rmax_left; lra).
  destruct (Rltb_spec 0 u) as [U|U], (Rltb_spec 0 w) as [W|W]; cbn [andb]; rewrite ?(MP u U), ?(MN u U), ?(MP w W), ?(MN w W).
  - unfold norm2, norm2sq, dot2. cbn [x2 y2]. assert (P : 0 < sqrt (u * u + w * w)) by (apply sqrt_lt_R0; nra). split; intros K; [rewrite sqrt_lt_k by nra; lra|].
    destruct (Rle_lt_or_eq_dec _ _ K) as [K'|<-]; [rewrite sqrt_le_k by nra; lra|]. split; intros; nra.
  - rewrite (proj2 (Rltb_false _ _)) by (unfold u, w in *; lra). fold u. split; intros; split; nra.
  - rewrite (proj2 (Rltb_true _ _)) by (unfold u, w in *; lra). fold w. split; intros; split; nra.
  - destruct (Rltb_spec (y2 s - x2 s) (Rabs (y2 p) - Rabs (x2 p))); unfold u, w in *; split; intros; split; nra.
Qed.
(** a union of two shapes that are inside their boxes *)
Lemma union2_closed a b s p : union2d [Some a; Some b] = Ok s -> (ev2 a p <= 0 -> in2 (bb2 a) p) -> (ev2 b p <= 0 -> in2 (bb2 b) p) ->
  (ev2 s p <= 0 <-> ev2 a p <= 0 \/ ev2 b p <= 0).
Proof.
  intros U HA HB. assert (E : ev2 s p = union_eval2 Rmin [a; b] p) by (unfold union2d, union2d_min in U; cbn in U; injection U as <-; reflexivity). rewrite E. clear U E.
  set (ss := [a; b]) in *. assert (H : forall s, In s ss -> ev2 s p <= 0 -> in2 (bb2 s) p) by (intros x [<-|[<-|[]]]; assumption). split.
  { intros V. destruct (union_eval2_att a [b] p) as (y & Y & Ey). fold ss in Y, Ey. destruct Y as [<-|[<-|[]]]; [left|right]; lra. }
  intros V. assert (exists x, In x ss /\ ev2 x p <= 0) as (x & X & Vx) by (destruct V as [V|V]; [exists a|exists b]; (split; [cbn; tauto|exact V])). eapply Rle_trans; [|exact Vx].
  unfold union_eval2. set (vs := map (fun s => min_max_dist2_2 (bb2 s) p) ss). set (mi := least_index 0 (-1) 0 vs).
  assert (Pos : forall v, In v vs -> 0 <= fst v /\ 0 <= snd v).
  { intros v I. apply in_map_iff in I. destruct I as (t & <- & _). apply minmax_pos. }
  destruct (least_index_shape vs 0 (-1) 0 [] vs eq_refl eq_refl (fun v I => proj1 (Pos v I))) as (Lt & Min); [left; split; [lra|reflexivity]|left; discriminate|]. fold mi in Lt, Min.
  set (vm := nth mi vs (0, 0)) in *. assert (Im : In vm vs) by (apply nth_In, Lt).
  destruct (In_nth_error ss x X) as (k & Nk).
  assert (Comb : nth_error (combine ss vs) k = Some (x, min_max_dist2_2 (bb2 x) p)).
  { unfold vs, ss in *. destruct k as [|[|[|k]]]; cbn in *; try discriminate; now inversion Nk. }
  eapply loop_le; [exact Comb|]. apply orb_true_iff. right. unfold overlap.
  pose proof (H x X Vx) as B. destruct (C54_minmaxdist2_2d (bb2 x) p) as ((_ & Mn) & _); [eapply ok2_of; eauto|]. specialize (Mn p B).
  replace (sub2 p p) with zero2 in Mn by (apply v2_ext; cbn; ring). replace (norm2sq zero2) with 0 in Mn by (unfold norm2sq, dot2; cbn; ring).
  assert (Ix : In (min_max_dist2_2 (bb2 x) p) vs) by (apply in_map_iff; eauto).
  pose proof (Min _ Ix). pose proof (Pos _ Ix). pose proof (Pos _ Im). apply andb_true_iff. rewrite !Rleb_true. lra.
Qed.
(** an array of discs *)
Lemma array_closed r n0 n1 step s p : must_circle r = Ok s -> (0 < n0)%Z -> (0 < n1)%Z ->
  (ev2 (array2d s n0 n1 step) p <= 0 <-> exists j k, (0 <= j < n0)%Z /\ (0 <= k < n1)%Z /\ dist2 p (V2 (IZR j * x2 step) (IZR k * y2 step)) <= r).
Proof.
  unfold must_circle. destruct (Rltb_spec r 0); [discriminate|]. intros E N0 N1. injection E as <-. unfold array2d, array2d_min.
  replace ((n0 <=? 0)%Z || (n1 <=? 0)%Z) with false by (symmetry; apply orb_false_iff; rewrite !Z.leb_gt; lia). cbn [ev2]. rewrite array2_eval_fold.
  set (f := fun o => ev2 (S2 (fun p => norm2 p - r) (Box2 (scale2 (-1) (V2 r r)) (V2 r r))) (sub2 p o)). set (l := offsets2 (Z.to_nat n0) (Z.to_nat n1) step).
  pose proof max_float64_pos as M. destruct (fold_min_le f l max_float64) as (_ & K). split.
  - intros V. change (fold_left (fun d o => Rmin d (f o)) l max_float64 <= 0) in V. destruct (fold_min_att f l max_float64) as [E|(o & I & E)]; [lra|]. rewrite E in V. apply in_offsets2 in I. destruct I as (j & k & J & K' & ->).
    exists (Z.of_nat j), (Z.of_nat k). split; [lia|]. split; [lia|]. unfold f in V. cbn [ev2] in V. unfold dist2. rewrite <- !INR_IZR_INZ. lra.
  - intros (j & k & J & K' & D). eapply Rle_trans; [apply (K (V2 (INR (Z.to_nat j) * x2 step) (INR (Z.to_nat k) * y2 step)))|].
    + apply in_offsets2. exists (Z.to_nat j), (Z.to_nat k). split; [lia|]. split; [lia|]. reflexivity.
    + unfold f. cbn [ev2]. unfold dist2 in D. rewrite !INR_IZR_INZ, !Z2Nat.id by lia. lra.
Qed.
Lemma pat_xxx_marks : has_x pat_xxx /\ ascii pat_xxx /\ forall a b c, marked a b pat_xxx c <-> In c [a; add2 a (scale2 (1/3) (sub2 b a)); add2 a (scale2 (2/3) (sub2 b a))].
Proof.
  unfold pat_xxx. split; [exists 0%nat, 1%nat; reflexivity|]. split; [intros c [<-|[<-|[<-|[]]]]; reflexivity|].
  intros a b c. unfold marked, at_x. split.
  - intros (i & (w & E) & ->). destruct i as [|[|[|i]]]; cbn in E; try (destruct i; discriminate); [left|right; left|right; right; left]; destruct a, b; apply v2_ext; cbn; field.
  - intros [<-|[<-|[<-|[]]]]; [exists 0%nat|exists 1%nat|exists 2%nat]; (split; [exists 1%nat; reflexivity|]); destruct a, b; apply v2_ext; cbn; field.
Qed.
Definition atx_panel : panel_params := PanelP (V2 150 85) 4 (95/100 * 4) 4 4 4 4 pat_xxx pat_xxx pat_xxx pat_xxx 0.
Lemma atx_panel_ok : exists pan, panel2 atx_panel = Ok pan /\ forall q, ev2 pan q < 0 <-> plate q /\ forall c, In c mount_centres -> 19/10 < dist2 q c.
Proof.
  destruct pat_xxx_marks as (HX & HA & MK). destruct (C63_panel_partial atx_panel) as (s0 & E0 & _ & P). specialize (P ltac:(cbn; lra)). destruct P as ((_ & D) & _ & P).
  destruct D as (pan & E); [repeat apply Forall_cons; try exact HX; apply Forall_nil|]. exists pan. split; [exact E|]. intros q. rewrite (P pan) by (exact E || (repeat apply Forall_cons; try exact HA; apply Forall_nil)).
  assert (HC : forall c, hole_centre atx_panel c <-> In c mount_centres).
  { clear - MK. intros c. unfold hole_centre. cbv zeta. unfold atx_panel. cbn [pp_size pp_mt pp_mr pp_mb pp_ml pp_pt pp_pr pp_pb pp_pl x2 y2]. rewrite !MK.
    unfold add2, sub2, scale2. cbn [x2 y2]. 
    assert (L : mount_centres = [V2 (-(150/2)+4) (85/2-4); V2 (-(150/2) + 4 + 1 / 3 * (150 / 2 - 4 - (-(150 / 2) + 4))) (85 / 2 - 4 + 1 / 3 * (85 / 2 - 4 - (85 / 2 - 4))); V2 (-(150/2) + 4 + 2 / 3 * (150 / 2 - 4 - (-(150 / 2) + 4))) (85 / 2 - 4 + 2 / 3 * (85 / 2 - 4 - (85 / 2 - 4)))] ++
      [V2 (150/2-4) (85/2-4); V2 (150 / 2 - 4 + 1 / 3 * (150 / 2 - 4 - (150 / 2 - 4))) (85 / 2 - 4 + 1 / 3 * (- (85 / 2) + 4 - (85 / 2 - 4))); V2 (150 / 2 - 4 + 2 / 3 * (150 / 2 - 4 - (150 / 2 - 4))) (85 / 2 - 4 + 2 / 3 * (- (85 / 2) + 4 - (85 / 2 - 4)))] ++
      [V2 (150/2-4) (-(85/2)+4); V2 (150 / 2 - 4 + 1 / 3 * (- (150 / 2) + 4 - (150 / 2 - 4))) (- (85 / 2) + 4 + 1 / 3 * (- (85 / 2) + 4 - (- (85 / 2) + 4))); V2 (150 / 2 - 4 + 2 / 3 * (- (150 / 2) + 4 - (150 / 2 - 4))) (- (85 / 2) + 4 + 2 / 3 * (- (85 / 2) + 4 - (- (85 / 2) + 4)))] ++
      [V2 (-(150/2)+4) (-(85/2)+4); V2 (-(150 / 2) + 4 + 1 / 3 * (- (150 / 2) + 4 - (-(150 / 2) + 4))) (- (85 / 2) + 4 + 1 / 3 * (85 / 2 - 4 - (- (85 / 2) + 4))); V2 (-(150 / 2) + 4 + 2 / 3 * (- (150 / 2) + 4 - (-(150 / 2) + 4))) (- (85 / 2) + 4 + 2 / 3 * (85 / 2 - 4 - (- (85 / 2) + 4)))]).
    { unfold mount_centres. cbn [app]. repeat (apply f_equal2; [apply v2_ext; cbn [x2 y2]; field|]). reflexivity. }
    rewrite L. rewrite !in_app_iff. reflexivity. }
  assert (B : ev2 s0 q < 0 <-> plate q).
  { injection E0 as <-. cbn [ev2 pp_size pp_corner atx_panel]. destruct (box2d_rounded q (sub2 (scale2 (1/2) (V2 150 85)) (elem2 4)) 4) as (R & _). rewrite (R ltac:(lra)). unfold plate. cbn [x2 y2 sub2 scale2 elem2].
    replace (1 / 2 * 150 - 4) with 71 by field. replace (1 / 2 * 85 - 4) with (77/2) by field. reflexivity. }
  rewrite B. cbn [pp_hole atx_panel]. replace (95 / 100 * 4 / 2) with (19/10) by field. split; intros (X & Y); (split; [exact X|]); intros c C; apply Y, HC, C.
Qed.
(** ** The regulated output *)
Definition atx_small : sdf2 := S2 (fun p => norm2 p - 112/100 * (6 / 2)) (Box2 (scale2 (-1) (V2 (112/100 * (6 / 2)) (112/100 * (6 / 2)))) (V2 (112/100 * (6 / 2)) (112/100 * (6 / 2)))).
Lemma atx_small_ok : must_circle (112/100 * (6 / 2)) = Ok atx_small.
Proof. unfold must_circle. rewrite (proj2 (Rltb_false _ _)) by lra. reflexivity. Qed.
Lemma box2_ext a b c d a' b' c' d' : a = a' -> b = b' -> c = c' -> d = d' -> Box2 (V2 a b) (V2 c d) = Box2 (V2 a' b') (V2 c' d').
Proof. congruence. Qed.
Lemma atx_sockets_box : bb2 (array2d atx_small 2 1 (V2 20 20)) = Box2 (V2 (-336/100) (-336/100)) (V2 (2336/100) (336/100)).
Proof. unfold array2d, array2d_min. cbn. unfold extend2, min_elem2, max_elem2, add2, box_translate2. cbn. apply box2_ext; rmm; lra. Qed.
Lemma mul_box2_shift v b : ok2 b -> mul_box2 (translate2d v) b = Box2 (add2 (min2 b) v) (add2 (max2 b) v).
Proof. destruct b as ((a, b), (c, d)). intros (X & Y). cbn in X, Y. unfold mul_box2, translate2d, add2, min_elem2, max_elem2, scale2. cbn. rewrite !Rmult_0_r, !Rmult_1_r. apply box2_ext; rmm; lra. Qed.
Definition atx_display : sdf2 := transform2d (S2 (fun p => sdf_box2d p (sub2 (scale2 (1/2) (V2 45 (257/10))) (elem2 0)) - 0) (Box2 (scale2 (-1) (scale2 (1/2) (V2 45 (257/10)))) (scale2 (1/2) (V2 45 (257/10))))) (translate2d (V2 (1336/100) (2285/100))).
Lemma atx_display_box : bb2 atx_display = Box2 (V2 (-914/100) 10) (V2 (3586/100) (357/10)).
Proof. unfold atx_display, transform2d. cbn [bb2]. rewrite mul_box2_shift by (unfold ok2; cbn; lra). cbn. apply box2_ext; cbn; lra. Qed.
Lemma atx_supply : exists u, union2d [Some (array2d atx_small 2 1 (V2 20 20)); Some atx_display] = Ok u /\ bb2 u = Box2 (V2 (-914/100) (-336/100)) (V2 (3586/100) (357/10)) /\
  forall q, ev2 u q <= 0 <-> dist2 q (V2 0 0) <= 336/100 \/ dist2 q (V2 20 0) <= 336/100 \/ (Rabs (x2 q - 1336/100) <= 45/2 /\ Rabs (y2 q - 2285/100) <= 257/20).
Proof.
  eexists. split; [reflexivity|]. split.
  - cbn [bb2]. unfold union_box2. cbn [fold_left]. rewrite atx_sockets_box, atx_display_box. unfold extend2, min_elem2, max_elem2. cbn. apply box2_ext; rmm; lra.
  - intros q. rewrite (union2_closed (array2d atx_small 2 1 (V2 20 20)) atx_display _ q eq_refl).
    + rewrite (array_closed _ 2 1 (V2 20 20) _ q atx_small_ok) by lia. cbn [x2 y2].
      assert (D : ev2 atx_display q <= 0 <-> Rabs (x2 q - 1336/100) <= 45/2 /\ Rabs (y2 q - 2285/100) <= 257/20).
      { unfold atx_display. rewrite ev_placed2. cbn [ev2]. rewrite Rminus_0_r. destruct (box2d_sign (sub2 q (V2 (1336/100) (2285/100))) (sub2 (scale2 (1 / 2) (V2 45 (257 / 10))) (elem2 0))) as (_ & S); [cbn; lra ..|]. rewrite S. cbn [x2 y2 sub2 scale2 elem2].
        replace (1 / 2 * 45 - 0) with (45/2) by field. replace (1 / 2 * (257 / 10) - 0) with (257/20) by field. reflexivity. }
      rewrite D. split.
      * intros [(j & k & J & K & H)|H]; [|tauto]. assert (k = 0%Z) by lia. subst k. assert (j = 0 \/ j = 1)%Z as [-> | ->] by lia; [left|right; left]; replace (112 / 100 * (6 / 2)) with (336/100) in H by field; rewrite !Rmult_0_l in H; [|rewrite Rmult_1_l in H]; exact H.
      * replace (112 / 100 * (6 / 2)) with (336/100) by field. intros [H|[H|H]]; [left; exists 0%Z, 0%Z|left; exists 1%Z, 0%Z|tauto]; (split; [lia|]); (split; [lia|]); rewrite !Rmult_0_l; [|rewrite Rmult_1_l]; exact H.
    + intros V. rewrite (array_closed _ 2 1 (V2 20 20) _ q atx_small_ok) in V by lia. destruct V as (j & k & J & K & H). cbn [x2 y2] in H. assert (k = 0%Z) by lia. subst k. 
      rewrite atx_sockets_box. unfold dist2 in H. destruct (abs_le_norm2 (sub2 q (V2 (IZR j * 20) (0 * 20)))) as (X & Y). cbn [x2 y2 sub2] in X, Y. set (n := norm2 _) in *. clearbody n. assert (0 <= IZR j <= 1) by (split; apply IZR_le; lia). unfold in2. cbn. set (t := IZR j) in *. clearbody t. revert X Y. unfold Rabs. repeat destruct (Rcase_abs _); lra.
    + intros V. unfold atx_display in V. rewrite ev_placed2 in V. cbn [ev2] in V. rewrite Rminus_0_r in V. apply (box2d_sign (sub2 q (V2 (1336/100) (2285/100))) (sub2 (scale2 (1 / 2) (V2 45 (257 / 10))) (elem2 0))) in V; [|cbn; lra ..]. rewrite atx_display_box. destruct V as (X & Y). cbn in X, Y. unfold in2. cbn. revert X Y. unfold Rabs. repeat destruct (Rcase_abs _); lra.
Qed.
Lemma rmin_neg a b : Rmin a b < 0 <-> a < 0 \/ b < 0.
Proof. unfold Rmin. destruct (Rle_dec a b); lra. Qed.
Lemma rmax_neg a b : Rmax a b < 0 <-> a < 0 /\ b < 0.
Proof. unfold Rmax. destruct (Rle_dec a b); lra. Qed.
Lemma opp_neg a : - a < 0 <-> ~ a <= 0.
Proof. lra. Qed.
Lemma dist2_shift p v c : dist2 (sub2 p v) c = dist2 p (add2 c v).
Proof. unfold dist2. f_equal. apply v2_ext; cbn; ring. Qed.
Lemma map_forall {A B} (f : A -> B) (P : B -> Prop) l : (forall o, In o (map f l) -> P o) <-> forall c, In c l -> P (f c).
Proof. split; [intros H c I; apply H, in_map, I|]. intros H o I. apply in_map_iff in I. destruct I as (c & <- & I). auto. Qed.
Lemma app_forall {A} (P : A -> Prop) l r : (forall o, In o (l ++ r) -> P o) <-> (forall o, In o l -> P o) /\ forall o, In o r -> P o.
Proof. split; [intros H; split; intros o I; apply H, in_app_iff; tauto|]. intros (H & K) o I. apply in_app_iff in I. destruct I; auto. Qed.
Lemma cons_forall {A} (P : A -> Prop) a l : (forall o, In o (a :: l) -> P o) <-> P a /\ forall o, In o l -> P o.
Proof. split; [intros H; split; [apply H; now left|intros o I; apply H; now right]|]. intros (H & K) o [<-|I]; auto. Qed.
Lemma nil_forall {A} (P : A -> Prop) : (forall o, In o [] -> P o) <-> True.
Proof. split; [auto|]. intros _ o []. Qed.
Lemma bind_some {A B} (x : A) (f : A -> res B) : bind (Ok x) f = f x.
Proof. reflexivity. Qed.
Lemma difference2_some a b : difference2d (Some a) (Some b) = Ok (diff2_max Rmax a b).
Proof. reflexivity. Qed.
Lemma box2_some size k : exists s, must_box2 size k = Ok s /\ (forall p, ev2 s p = sdf_box2d p (sub2 (scale2 (1/2) size) (elem2 k)) - k) /\ bb2 s = Box2 (scale2 (-1) (scale2 (1/2) size)) (scale2 (1/2) size).
Proof. eexists. split; [reflexivity|]. split; reflexivity. Qed.
(** the regulated output in its place *)
Lemma supply_placed u reg : bb2 u = Box2 (V2 (-914/100) (-336/100)) (V2 (3586/100) (357/10)) ->
  (forall q, ev2 u q <= 0 <-> dist2 q (V2 0 0) <= 336/100 \/ dist2 q (V2 20 0) <= 336/100 \/ (Rabs (x2 q - 1336/100) <= 45/2 /\ Rabs (y2 q - 2285/100) <= 257/20)) ->
  reg = transform2d u (translate2d (V2 (-5386/100) (-235/100))) ->
  bb2 reg = Box2 (V2 (-63) (-571/100)) (V2 (-18) (3335/100)) /\ forall q, ~ ev2 reg q <= 0 <-> forall o, In o supply_openings -> ~ through o q.
Proof.
  intros BU U ->. split.
  { unfold transform2d. cbn [bb2]. rewrite BU, mul_box2_shift by (unfold ok2; cbn; lra). cbn. apply box2_ext; cbn; lra. }
  intros q. rewrite ev_placed2, U, !dist2_shift. unfold supply_openings. rewrite !cons_forall, nil_forall. cbn [through x2 y2 sub2].
  replace (add2 (V2 0 0) (V2 (-5386 / 100) (-235 / 100))) with (V2 (-5386/100) (-235/100)) by (apply v2_ext; cbn; lra). replace (add2 (V2 20 0) (V2 (-5386 / 100) (-235 / 100))) with (V2 (-3386/100) (-235/100)) by (apply v2_ext; cbn; lra).
  replace (x2 q - -5386 / 100 - 1336 / 100) with (x2 q - -405/10) by field. replace (y2 q - -235 / 100 - 2285 / 100) with (y2 q - 205/10) by field. rewrite !Rminus_0_r, Rmult_0_r.
  assert (Z0 : past (x2 q - -405 / 10) (45 / 2) * past (x2 q - -405 / 10) (45 / 2) + past (y2 q - 205 / 10) (257 / 20) * past (y2 q - 205 / 10) (257 / 20) <= 0 <-> Rabs (x2 q - -405 / 10) <= 45 / 2 /\ Rabs (y2 q - 205 / 10) <= 257 / 20).
  { rewrite <- !past_sq_zero. pose proof (Rle_0_sqr (past (x2 q - -405 / 10) (45 / 2))) as A. pose proof (Rle_0_sqr (past (y2 q - 205 / 10) (257 / 20))) as B. unfold Rsqr in A, B. lra. }
  rewrite Z0. tauto.
Qed.
Lemma plugs_placed bg q : must_circle (112/100 * (65/10 / 2)) = Ok bg ->
  ~ ev2 (transform2d (array2d bg 4 2 (V2 (-20) 20)) (translate2d (V2 (150/2 - 15) (- 85/2 + 15)))) q <= 0 <-> forall c, In c plug_centres -> ~ through (Round c (364/100)) q.
Proof.
  intros EG. rewrite ev_placed2, (array_closed _ 4 2 (V2 (-20) 20) _ _ EG) by lia. replace (112 / 100 * (65 / 10 / 2)) with (364/100) by field. cbn [through x2 y2]. split.
  - intros N c I D. apply N. clear N. unfold plug_centres in I. cbn [In] in I.
    assert (exists j k, (0 <= j < 4)%Z /\ (0 <= k < 2)%Z /\ c = V2 (60 - 20 * IZR j) (-55/2 + 20 * IZR k)) as (j & k & J & K & ->).
    { destruct I as [<-|[<-|[<-|[<-|[<-|[<-|[<-|[<-|[]]]]]]]]]; [exists 0%Z, 0%Z|exists 0%Z, 1%Z|exists 1%Z, 0%Z|exists 1%Z, 1%Z|exists 2%Z, 0%Z|exists 2%Z, 1%Z|exists 3%Z, 0%Z|exists 3%Z, 1%Z]; (split; [lia|]); (split; [lia|]); apply v2_ext; cbn [x2 y2]; lra. }
    exists j, k. split; [exact J|]. split; [exact K|]. rewrite dist2_shift. replace (add2 _ _) with (V2 (60 - 20 * IZR j) (-55/2 + 20 * IZR k)) by (apply v2_ext; cbn [x2 y2 add2]; lra). exact D.
  - intros N (j & k & J & K & D). rewrite dist2_shift in D. refine (N _ _ D). clear - J K. unfold plug_centres, add2. cbn [x2 y2].
    assert (j = 0 \/ j = 1 \/ j = 2 \/ j = 3)%Z as [-> | [-> | [-> | ->]]] by lia; (assert (k = 0 \/ k = 1)%Z as [-> | ->] by lia).
    1: left. 2: do 1 right; left. 3: do 2 right; left. 4: do 3 right; left. 5: do 4 right; left. 6: do 5 right; left. 7: do 6 right; left. 8: do 7 right; left.
    all: apply v2_ext; cbn [x2 y2]; lra.
Qed.
Lemma switch_placed q bt : (forall p, ev2 bt p = norm2 p - 112/10) -> ~ ev2 (transform2d bt (translate2d (V2 (150 / 2 - 25) (85 / 2 - 15)))) q <= 0 <-> ~ through (Round (V2 50 (55/2)) (112/10)) q.
Proof. intros VB. rewrite ev_placed2, VB. cbn [through]. unfold dist2. replace (V2 (150 / 2 - 25) (85 / 2 - 15)) with (V2 50 (55/2)) by (apply v2_ext; cbn; lra). lra. Qed.
Lemma block_placed b q : (forall p, ev2 b p = sdf_box2d p (sub2 (scale2 (1/2) (V2 49 (4306/100))) (elem2 (4/2))) - 4/2) -> ev2 (transform2d b (translate2d (V2 (-405/10) (1382/100)))) q < 0 <-> block q.
Proof.
  intros V. rewrite ev_placed2, V. match goal with |- sdf_box2d ?a ?b - ?k < 0 <-> _ => destruct (box2d_rounded a b k) as (R & _); rewrite (R ltac:(lra)); clear R end. unfold block. cbn [x2 y2 sub2 scale2 elem2].
  replace (x2 q - -405/10) with (x2 q + 405/10) by field. replace (1 / 2 * 49 - 4 / 2) with (45/2) by field. replace (1 / 2 * (4306/100) - 4 / 2) with (3906/200) by field. replace (4 / 2 * (4 / 2)) with (2 * 2) by field. reflexivity.
Qed.
Lemma clamp_placed b q : (forall p, ev2 b p = sdf_box2d p (sub2 (scale2 (1/2) (V2 49 (1767/100))) (elem2 1)) - 1) ->
  ~ ev2 (transform2d b (translate2d (V2 (- 150/2 + 49 / 2 + 12) (- 85/2 + 1767/100 / 2 + 12)))) q <= 0 <-> ~ through (Slot (V2 (-385/10) (-21665/1000)) (49/2) (1767/200) 1) q.
Proof.
  intros V. rewrite ev_placed2, V. match goal with |- ~ sdf_box2d ?a ?b - ?k <= 0 <-> _ => destruct (box2d_rounded a b k) as (_ & R); rewrite (R ltac:(lra)); clear R end. cbn [through x2 y2 sub2 scale2 elem2].
  replace (- 150 / 2 + 49 / 2 + 12) with (-385/10) by field. replace (- 85 / 2 + 1767 / 100 / 2 + 12) with (-21665/1000) by field. replace (1 / 2 * 49) with (49/2) by field. replace (1 / 2 * (1767 / 100)) with (1767/200) by field. reflexivity.
Qed.
Lemma atx_built : exists s pan bt bg u reg blk clamp, atx = Ok s /\ panel2 atx_panel = Ok pan /\ (forall p, ev2 bt p = norm2 p - 112/10) /\ must_circle (112/100 * (65/10 / 2)) = Ok bg /\
  bb2 u = Box2 (V2 (-914/100) (-336/100)) (V2 (3586/100) (357/10)) /\
  (forall q, ev2 u q <= 0 <-> dist2 q (V2 0 0) <= 336/100 \/ dist2 q (V2 20 0) <= 336/100 \/ (Rabs (x2 q - 1336/100) <= 45/2 /\ Rabs (y2 q - 2285/100) <= 257/20)) /\
  reg = transform2d u (translate2d (V2 (-5386/100) (-235/100))) /\
  (forall p, ev2 blk p = sdf_box2d p (sub2 (scale2 (1/2) (V2 49 (4306/100))) (elem2 (4/2))) - 4/2) /\
  (forall p, ev2 clamp p = sdf_box2d p (sub2 (scale2 (1/2) (V2 49 (1767/100))) (elem2 1)) - 1) /\
  forall p, ev3 s p < 0 <->
    (((((ev2 pan (xy p) < 0 /\ ~ ev2 (transform2d bt (translate2d (V2 (150 / 2 - 25) (85 / 2 - 15)))) (xy p) <= 0) /\
      ~ ev2 (transform2d (array2d bg 4 2 (V2 (-20) 20)) (translate2d (V2 (150/2 - 15) (- 85/2 + 15)))) (xy p) <= 0) /\ ~ ev2 reg (xy p) <= 0) /\
      ~ ev2 (transform2d clamp (translate2d (V2 (- 150/2 + 49 / 2 + 12) (- 85/2 + 1767/100 / 2 + 12)))) (xy p) <= 0) /\ Rabs (z3 p) < 2) \/
    ((ev2 (transform2d blk (translate2d (V2 (-405/10) (1382/100)))) (xy p) < 0 /\ ~ ev2 reg (xy p) <= 0) /\ -2 < z3 p < 6).
Proof.
  destruct atx_panel_ok as (pan & EP & _). destruct atx_supply as (u & EU & BU & U).
  assert (EB : exists s, must_circle (112/100 * (20 / 2)) = Ok s /\ forall p, ev2 s p = norm2 p - 112/10).
  { unfold must_circle. rewrite (proj2 (Rltb_false _ _)) by lra. eexists. split; [reflexivity|]. intros p. cbn [ev2]. f_equal. field. }
  assert (EG : exists s, must_circle (112/100 * (65/10 / 2)) = Ok s).
  { unfold must_circle. rewrite (proj2 (Rltb_false _ _)) by lra. eexists. reflexivity. }
  destruct EB as (bt & EB & VB). destruct EG as (bg & EG).
  destruct (box2_some (V2 49 (1767/100)) 1) as (clamp & EC & VC & _).
  assert (ED : exists d, must_box2 (V2 45 (257/10)) 0 = Ok d /\ transform2d d (translate2d (V2 (1336/100) (2285/100))) = atx_display) by (eexists; split; reflexivity). destruct ED as (d & ED & TD).
  destruct (box2_some (V2 49 (4306/100)) (4/2)) as (blk & EK & VK & _).
  remember (transform2d u (translate2d (V2 (-5386/100) (-235/100)))) as reg eqn:ER. destruct (supply_placed u reg BU U ER) as (BR & _).
  assert (E : atx = union3d [Some (extrude3d (diff2_max Rmax (diff2_max Rmax (diff2_max Rmax (diff2_max Rmax pan (transform2d bt (translate2d (V2 (150 / 2 - 25) (85 / 2 - 15))))) (transform2d (array2d bg 4 2 (V2 (-20) 20)) (translate2d (V2 (150/2 - 15) (- 85/2 + 15))))) reg)
      (transform2d clamp (translate2d (V2 (- 150/2 + 49 / 2 + 12) (- 85/2 + 1767/100 / 2 + 12))))) 4);
      Some (transform3 (extrude3d (diff2_max Rmax (transform2d blk (translate2d (V2 (-405/10) (1382/100)))) reg) (4 + 4)) (translate3d (V3 0 0 (4 / 2))))]).
  { unfold atx. rewrite EB, EG, atx_small_ok, ED, EC, !bind_some. fold atx_panel. rewrite EP. unfold or_panic. rewrite bind_some. cbv zeta. rewrite difference2_some, bind_some, difference2_some, bind_some.
    rewrite atx_sockets_box. replace (x2 (atx_size (Box2 (V2 (-336 / 100) (-336 / 100)) (V2 (2336 / 100) (336 / 100))))) with (2672/100) by (cbn; lra).
    replace (V2 (2672 / 100 / 2) (257 / 10 / 2 + 20 / 2)) with (V2 (1336/100) (2285/100)) by (apply v2_ext; cbn; lra). rewrite TD, EU, bind_some.
    replace (V2 (- 150 / 2 - 2672 / 100 / 2 + 45 / 2 + 12) (85 / 2 - 12 - 257 / 10 / 2 - 20)) with (V2 (-5386/100) (-235/100)) by (apply v2_ext; cbn; lra). rewrite <- ER, BR.
    replace (V2 (x2 (atx_size (Box2 (V2 (-63) (-571 / 100)) (V2 (-18) (3335 / 100)))) + 4) (y2 (atx_size (Box2 (V2 (-63) (-571 / 100)) (V2 (-18) (3335 / 100)))) + 4)) with (V2 49 (4306/100)) by (apply v2_ext; cbn; lra).
    replace (atx_center (Box2 (V2 (-63) (-571 / 100)) (V2 (-18) (3335 / 100)))) with (V2 (-405/10) (1382/100)) by (apply v2_ext; cbn; lra).
    rewrite EK, bind_some, difference2_some, bind_some, transform3_ok, bind_some, difference2_some, bind_some, difference2_some, bind_some. reflexivity. }
  eexists. exists pan, bt, bg, u, reg, blk, clamp. split; [rewrite E; reflexivity|]. clear E. do 8 (split; [assumption|]). 
  intros p. cbn [ev3 union_eval3 fold_left]. rewrite ev_placed3. cbn [ev3 extrude3d]. unfold extrude_eval, normal_extrude. rewrite rmin_neg, !rmax_neg. unfold diff2_max. cbn [ev2]. rewrite !rmax_neg, !opp_neg.
  replace (xy (sub3 p (V3 0 0 (4 / 2)))) with (xy p) by (apply v2_ext; cbn; lra). cbn [z3 sub3].
  assert (Zb : Rabs (z3 p - 4 / 2) - (4 + 4) / 2 < 0 <-> -2 < z3 p < 6) by (unfold Rabs; destruct (Rcase_abs _); lra).
  rewrite Zb. assert (Za : Rabs (z3 p) - 4 / 2 < 0 <-> Rabs (z3 p) < 2) by lra. rewrite Za. reflexivity.
Qed.
(** ** C111 *)
(** The part: a plate of 4 mm with all openings and a block from -2 to 6 with the openings of the regulated output. *)
Theorem C111_solid : exists s, atx = Ok s /\ forall p, ev3 s p < 0 <->
  (Rabs (z3 p) < 2 /\ plate (xy p) /\ forall o, In o atx_openings -> ~ through o (xy p)) \/
  (-2 < z3 p < 6 /\ block (xy p) /\ forall o, In o supply_openings -> ~ through o (xy p)).
Proof.
  destruct atx_built as (s & pan & bt & bg & u & reg & blk & clamp & E & EP & VB & EG & BU & U & ER & VK & VC & M). destruct atx_panel_ok as (pan' & EP' & P). rewrite EP in EP'. injection EP' as <-.
  destruct (supply_placed u reg BU U ER) as (_ & VR). exists s. split; [exact E|]. intros p. rewrite M. clear M E. rewrite P, (switch_placed _ _ VB), (plugs_placed _ _ EG), VR, (block_placed _ _ VK), (clamp_placed _ _ VC). set (q := xy p).
  unfold atx_openings, plain_openings. rewrite !app_forall, cons_forall, app_forall, cons_forall, nil_forall, !map_forall.
  assert (M : (forall c, In c mount_centres -> ~ through (Round c (19/10)) q) <-> forall c, In c mount_centres -> 19/10 < dist2 q c).
  { cbn [through]. split; intros H c I; specialize (H c I); lra. }
  rewrite M. tauto.
Qed.
(** an opening lies within this distance of its centre along each axis *)
Definition centre (o : opening) : v2 := match o with Round c _ => c | Slot c _ _ _ => c end.
Definition half (o : opening) : v2 := match o with Round _ r => V2 r r | Slot _ w h _ => V2 w h end.
Lemma past_le x a b : 0 <= b -> past x (a - b) * past x (a - b) <= b * b -> Rabs x <= a.
Proof. unfold past. intros B. destruct (Rle_dec (Rabs x - (a - b)) 0); [rewrite Rmax_left by lra|rewrite Rmax_right by lra]; intros; nra. Qed.
Definition sane (o : opening) : Prop := match o with Round _ r => 0 <= r | Slot _ _ _ k => 0 <= k end.
Lemma through_half o q : sane o -> through o q -> Rabs (x2 q - x2 (centre o)) <= x2 (half o) /\ Rabs (y2 q - y2 (centre o)) <= y2 (half o).
Proof.
  destruct o as [c r|c w h k]; cbn [through centre half x2 y2 sane].
  - intros _ D. destruct (abs_le_norm2 (sub2 q c)) as (X & Y). cbn [x2 y2 sub2] in X, Y. unfold dist2 in D. lra.
  - intros K D. set (a := past (x2 q - x2 c) (w - k)) in *. set (b := past (y2 q - y2 c) (h - k)) in *. split; apply (past_le _ _ k K); [fold a|fold b]; nra.
Qed.
Lemma openings_sane : forall o, In o atx_openings -> sane o.
Proof. unfold atx_openings, plain_openings, supply_openings. rewrite !app_forall, cons_forall, app_forall, !cons_forall, !nil_forall, !map_forall. cbn [sane]. repeat split; intros; lra. Qed.
(** the same numbers in units of 1/600 mm, to compare them by computation *)
Definition zopen := (Z * Z * Z * Z)%type.
Definition z_openings : list zopen :=
  map (fun c => (fst c, snd c, 1140, 1140)%Z)
    [(-42600, 23100); (-14200, 23100); (14200, 23100); (42600, 23100); (42600, 7700); (42600, -7700); (42600, -23100); (14200, -23100); (-14200, -23100); (-42600, -23100); (-42600, -7700); (-42600, 7700)]%Z ++
  (30000, 16500, 6720, 6720)%Z ::
  map (fun c => (fst c, snd c, 2184, 2184)%Z) [(36000, -16500); (36000, -4500); (24000, -16500); (24000, -4500); (12000, -16500); (12000, -4500); (0, -16500); (0, -4500)]%Z ++
  [(-23100, -12999, 14700, 5301)%Z] ++
  [(-32316, -1410, 2016, 2016); (-20316, -1410, 2016, 2016); (-24300, 12300, 13500, 7710)]%Z.
Definition measured (o : opening) (z : zopen) : Prop :=
  let '(a, b, c, d) := z in x2 (centre o) = IZR a / 600 /\ y2 (centre o) = IZR b / 600 /\ x2 (half o) = IZR c / 600 /\ y2 (half o) = IZR d / 600.
Lemma openings_measured : Forall2 measured atx_openings z_openings.
Proof.
  unfold atx_openings, plain_openings, supply_openings, mount_centres, plug_centres, z_openings. cbn [map app fst snd].
  repeat (apply Forall2_cons; [unfold measured; cbn [centre half x2 y2]; split; [field|split; [field|split; field]]|]). apply Forall2_nil.
Qed.
(** the block is a rectangle with rounded corners *)
Lemma block_box q : block q -> -65 < x2 q < -16 /\ -571/100 - 2 < y2 q < 3335/100 + 2.
Proof.
  unfold block, past. intros H. assert (A : Rabs (x2 q + 405/10) < 49/2 /\ Rabs (y2 q - 1382/100) < 4306/200).
  { revert H. unfold Rmax. destruct (Rle_dec 0 (Rabs (x2 q + 405/10) - 45/2)), (Rle_dec 0 (Rabs (y2 q - 1382/100) - 3906/200)); intros; split; nra. }
  destruct A as (A & B). revert A B. unfold Rabs. repeat destruct (Rcase_abs _); lra.
Qed.
(** every opening goes through the whole part *)
Theorem C111_through s o p : atx = Ok s -> In o atx_openings -> through o (xy p) -> ~ ev3 s p < 0.
Proof.
  intros E I T. destruct C111_solid as (s' & E' & M). rewrite E in E'. injection E' as <-. rewrite M. intros [(_ & _ & N)|(_ & B & N)]; [exact (N o I T)|].
  destruct (through_half o _ (openings_sane o I) T) as (X & Y). destruct (block_box _ B) as (U & V). unfold atx_openings in I. apply in_app_iff in I. destruct I as [I|I]; [|exact (N o I T)].
  assert (S : forall o, In o plain_openings -> x2 (centre o) - x2 (half o) >= -16 \/ x2 (centre o) + x2 (half o) <= -65 \/ y2 (centre o) - y2 (half o) >= 3335/100 + 2 \/ y2 (centre o) + y2 (half o) <= -571/100 - 2).
  { unfold plain_openings, mount_centres, plug_centres. cbn [map app]. rewrite !cons_forall, nil_forall. cbn [centre half x2 y2]. repeat split; lra. }
  specialize (S o I). revert X Y. unfold Rabs. repeat destruct (Rcase_abs _); lra.
Qed.
(** ** every opening is surrounded by 2 mm of material *)
Definition z_none : zopen := (0, 0, 0, 0)%Z.
Definition z_clear (a b : zopen) : bool :=
  let '(x, y, w, h) := a in let '(x', y', w', h') := b in
  ((x + w + 1200 <? x' - w') || (x' + w' + 1200 <? x - w) || (y + h + 1200 <? y' - h') || (y' + h' + 1200 <? y - h))%Z.
Lemma z_pairs : forallb (fun i => forallb (fun j => (i =? j)%nat || z_clear (nth i z_openings z_none) (nth j z_openings z_none)) (seq 0 25)) (seq 0 25) = true.
Proof. vm_compute. reflexivity. Qed.
Lemma forall2_at {A B} (P : A -> B -> Prop) l l' i a b : Forall2 P l l' -> nth_error l i = Some a -> (i < length l')%nat /\ P a (nth i l' b).
Proof. intros F. revert i. induction F as [|x y l l' H F IH]; intros i E; [destruct i; discriminate|]. destruct i as [|i]; cbn in *; [injection E as <-; split; [lia|exact H]|]. destruct (IH i E). split; [lia|assumption]. Qed.
(** points within 2 mm of one opening are in no other *)
Lemma openings_apart o o' i j q r : nth_error atx_openings i = Some o -> nth_error atx_openings j = Some o' -> i <> j -> through o r -> dist2 q r <= 2 -> ~ through o' q.
Proof.
  intros I J N T D T'. destruct (forall2_at _ _ _ _ _ z_none openings_measured I) as (Li & Mi). destruct (forall2_at _ _ _ _ _ z_none openings_measured J) as (Lj & Mj).
  pose proof z_pairs as Q. rewrite forallb_forall in Q. specialize (Q i). rewrite forallb_forall in Q. change (i < 25)%nat in Li. change (j < 25)%nat in Lj.
  specialize (Q ltac:(apply in_seq; lia) j ltac:(apply in_seq; lia)). apply orb_true_iff in Q. destruct Q as [Q|Q]; [apply Nat.eqb_eq in Q; contradiction|].
  destruct (nth i z_openings z_none) as (((x, y), w), h). destruct (nth j z_openings z_none) as (((x', y'), w'), h'). destruct Mi as (X & Y & W & H). destruct Mj as (X' & Y' & W' & H').
  destruct (through_half o r (openings_sane o (nth_error_In _ _ I)) T) as (A & B). destruct (through_half o' q (openings_sane o' (nth_error_In _ _ J)) T') as (A' & B'). destruct (abs_le_norm2 (sub2 q r)) as (U & V). unfold dist2 in D. cbn [x2 y2 sub2] in U, V.
  rewrite X, W in A. rewrite Y, H in B. rewrite X', W' in A'. rewrite Y', H' in B'. set (n := norm2 _) in *. clearbody n. clear X Y W H X' Y' W' H'.
  assert (AB : forall u k, Rabs u <= k -> - k <= u <= k) by (intros u k; unfold Rabs; destruct (Rcase_abs u); lra). apply AB in A, B, A', B'. assert (U' : Rabs (x2 q - x2 r) <= 2) by lra. assert (V' : Rabs (y2 q - y2 r) <= 2) by lra. apply AB in U', V'. clear U V AB.
  unfold z_clear in Q. rewrite !orb_true_iff, !Z.ltb_lt in Q. destruct Q as [[[Q|Q]|Q]|Q]; apply IZR_lt in Q; rewrite !plus_IZR, !minus_IZR in Q; lra.
Qed.
Lemma past_near x c a : Rabs c <= a -> past x a <= Rabs (x - c) /\ 0 <= past x a.
Proof. intros C. unfold past. split; [|apply Rmax_l]. apply Rmax_lub; [apply Rabs_pos|]. pose proof (Rabs_triang (x - c) c) as T. replace (x - c + c) with x in T by ring. lra. Qed.
Lemma near_plate_box o q r : Rabs (x2 (centre o)) + x2 (half o) <= 69 /\ Rabs (y2 (centre o)) + y2 (half o) <= 39 -> Rabs (x2 r - x2 (centre o)) <= x2 (half o) -> Rabs (y2 r - y2 (centre o)) <= y2 (half o) -> norm2 (sub2 q r) <= 2 -> plate q.
Proof.
  intros (A & B) C D E. destruct (abs_le_norm2 (sub2 q r)) as (U & V). cbn [x2 y2 sub2] in U, V.
  assert (X : Rabs (x2 q) <= 71). { pose proof (Rabs_triang (x2 r - x2 (centre o)) (x2 (centre o))) as T1. pose proof (Rabs_triang (x2 q - x2 r) (x2 r)) as T2. replace (x2 r - x2 (centre o) + x2 (centre o)) with (x2 r) in T1 by ring. replace (x2 q - x2 r + x2 r) with (x2 q) in T2 by ring. lra. }
  assert (Y : Rabs (y2 q) <= 41). { pose proof (Rabs_triang (y2 r - y2 (centre o)) (y2 (centre o))) as T1. pose proof (Rabs_triang (y2 q - y2 r) (y2 r)) as T2. replace (y2 r - y2 (centre o) + y2 (centre o)) with (y2 r) in T1 by ring. replace (y2 q - y2 r + y2 r) with (y2 q) in T2 by ring. lra. }
  unfold plate, past. rewrite (Rmax_left 0 (Rabs (x2 q) - 71)) by lra. assert (0 <= Rmax 0 (Rabs (y2 q) - 77/2) <= 5/2) by (split; [apply Rmax_l|apply Rmax_lub; lra]). nra.
Qed.
Lemma near_plate o q r : In o atx_openings -> through o r -> dist2 q r <= 2 -> plate q.
Proof.
  intros I T D. assert (T0 := T). apply (through_half o r (openings_sane o I)) in T. destruct T as (A & B). destruct (abs_le_norm2 (sub2 q r)) as (U & V). assert (D0 := D). unfold dist2 in D. cbn [x2 y2 sub2] in U, V. unfold atx_openings, plain_openings in I. rewrite !in_app_iff in I.
  assert (REST : forall o, In o (Round (V2 50 (55/2)) (112/10) :: map (fun c => Round c (364/100)) plug_centres ++ [Slot (V2 (-385/10) (-21665/1000)) (49/2) (1767/200) 1]) \/ In o supply_openings ->
    Rabs (x2 (centre o)) + x2 (half o) <= 69 /\ Rabs (y2 (centre o)) + y2 (half o) <= 39).
  { clear. intros o I. apply in_app_iff in I. revert o I. unfold supply_openings, plug_centres. cbn [map app]. rewrite !cons_forall, nil_forall. cbn [centre half x2 y2]. unfold Rabs. repeat split; destruct (Rcase_abs _); lra. }
  destruct I as [[I|I]|I].
  - apply in_map_iff in I. destruct I as (c & <- & I). cbn [through] in T0. assert (S : dist2 q c <= 39/10) by (pose proof (dist2_triangle q r c); lra).
    assert (C : Rabs (x2 c) <= 71 /\ Rabs (y2 c) <= 77/2). { clear - I. revert c I. unfold mount_centres. rewrite !cons_forall, nil_forall. cbn [x2 y2]. unfold Rabs. repeat split; destruct (Rcase_abs _); lra. }
    unfold plate. destruct (past_near (x2 q) _ _ (proj1 C)) as (P1 & P2). destruct (past_near (y2 q) _ _ (proj2 C)) as (P3 & P4).
    unfold dist2, norm2, norm2sq, dot2 in S. cbn [x2 y2 sub2] in S. pose proof (sqrt_pos ((x2 q - x2 c) * (x2 q - x2 c) + (y2 q - y2 c) * (y2 q - y2 c))) as S0. 
    assert (S1 : sqrt ((x2 q - x2 c) * (x2 q - x2 c) + (y2 q - y2 c) * (y2 q - y2 c)) * sqrt ((x2 q - x2 c) * (x2 q - x2 c) + (y2 q - y2 c) * (y2 q - y2 c)) = (x2 q - x2 c) * (x2 q - x2 c) + (y2 q - y2 c) * (y2 q - y2 c)) by (apply sqrt_sqrt; apply Rplus_le_le_0_compat; apply Rle_0_sqr).
    assert (forall u, Rabs u * Rabs u = u * u) as SQ by (intros u; unfold Rabs; destruct (Rcase_abs u); ring). pose proof (SQ (x2 q - x2 c)). pose proof (SQ (y2 q - y2 c)). set (t := sqrt _) in *. clearbody t. set (a := past (x2 q) 71) in *. set (b := past (y2 q) (77/2)) in *. set (u := Rabs (x2 q - x2 c)) in *. set (v := Rabs (y2 q - y2 c)) in *. clearbody a b u v. assert (a * a <= u * u) by nra. assert (b * b <= v * v) by nra. assert (t * t <= 39/10 * (39/10)) by nra. lra.
  - apply (near_plate_box o q r); [apply REST; now left|tauto|tauto|lra].
  - apply (near_plate_box o q r); [apply REST; now right|tauto|tauto|lra].
Qed.
Theorem C111_ring s o p r : atx = Ok s -> In o atx_openings -> Rabs (z3 p) < 2 -> ~ through o (xy p) -> through o r -> dist2 (xy p) r <= 2 -> ev3 s p < 0.
Proof.
  intros E I Z N T D. destruct C111_solid as (s' & E' & M). rewrite E in E'. injection E' as <-. rewrite M. left. split; [exact Z|]. split; [exact (near_plate o _ r I T D)|].
  intros o' I' T'. apply In_nth_error in I, I'. destruct I as (i & I). destruct I' as (j & J). destruct (Nat.eq_dec i j) as [<-|NE]; [rewrite I in J; injection J as <-; exact (N T')|]. exact (openings_apart o o' i j _ r I J NE T D T').
Qed.
(** The display is not centred above its two sockets: the right one's axis is free, its mirror image in the display's middle is solid. *)
Theorem C111_centred_refuted : exists s, atx = Ok s /\ ~ ev3 s (V3 (-405/10 + 664/100) (-235/100) 0) < 0 /\ ev3 s (V3 (-405/10 - 664/100) (-235/100) 0) < 0 /\
  (forall p, Rabs (x3 p + 405/10) <= 45/2 -> Rabs (y3 p - 205/10) <= 257/20 -> ~ ev3 s p < 0) /\ ev3 s (V3 (-405/10 + 45/2 + 1/100) (205/10) 0) < 0 /\ ev3 s (V3 (-405/10 - 45/2 - 1/100) (205/10) 0) < 0.
Proof.
  destruct C111_solid as (s & E & M). exists s. split; [exact E|]. set (disp := Slot (V2 (-405/10) (205/10)) (45/2) (257/20) 0).
  assert (ID : In disp atx_openings) by (unfold atx_openings; apply in_app_iff; right; cbn; tauto).
  assert (TD : forall q, through disp q <-> Rabs (x2 q + 405/10) <= 45/2 /\ Rabs (y2 q - 205/10) <= 257/20).
  { intros q. unfold disp. cbn [through x2 y2]. rewrite !Rminus_0_r, Rmult_0_r. replace (x2 q - -405/10) with (x2 q + 405/10) by field. rewrite <- !past_sq_zero.
    pose proof (Rle_0_sqr (past (x2 q + 405 / 10) (45 / 2))) as A. pose proof (Rle_0_sqr (past (y2 q - 205 / 10) (257 / 20))) as B. unfold Rsqr in A, B. lra. }
  assert (D1 : forall a b c d, Rabs (a - c) <= dist2 (V2 a b) (V2 c d)) by (intros a b c d; destruct (abs_le_norm2 (sub2 (V2 a b) (V2 c d))) as (X & _); exact X).
  assert (D0 : forall a b c, dist2 (V2 a b) (V2 c b) <= Rabs (a - c)).
  { intros a b c. unfold dist2, norm2, norm2sq, dot2. cbn [x2 y2 sub2]. replace (_ + _) with (Rsqr (a - c)) by (unfold Rsqr; ring). rewrite sqrt_Rsqr_abs. apply Rle_refl. }
  split; [|split; [|split; [|split]]].
  - apply (C111_through s (Round (V2 (-3386/100) (-235/100)) (336/100)) _ E); [unfold atx_openings; apply in_app_iff; right; cbn; tauto|]. cbn [through]. unfold xy. cbn [x3 y3]. eapply Rle_trans; [apply D0|]. rewrite Rabs_right; lra.
  - rewrite M. right. unfold xy. cbn [x3 y3 z3]. split; [lra|]. split.
    + unfold block, past. cbn [x2 y2]. rewrite (Rmax_left 0 (Rabs (_ + 405/10) - 45/2)) by (rewrite Rabs_left; lra). rewrite (Rmax_left 0) by (rewrite Rabs_left; lra). lra.
    + unfold supply_openings. rewrite !cons_forall, nil_forall. fold disp. split; [|split; [|split; [|exact Logic.I]]].
      * cbn [through]. intros T. pose proof (D1 (-405 / 10 - 664 / 100) (-235/100) (-5386/100) (-235/100)) as X. rewrite Rabs_right in X by lra. lra.
      * cbn [through]. intros T. pose proof (D1 (-405 / 10 - 664 / 100) (-235/100) (-3386/100) (-235/100)) as X. rewrite Rabs_left in X by lra. lra.
      * rewrite TD. cbn [x2 y2]. intros (_ & T). rewrite Rabs_left in T by lra. lra.
  - intros p X Y. apply (C111_through s disp p E ID), TD. split; assumption.
  - apply (C111_ring s disp _ (V2 (-18) (205/10)) E ID); unfold xy; cbn [x3 y3 z3]; [rewrite Rabs_R0; lra|rewrite TD; cbn [x2 y2]; intros (T & _); rewrite Rabs_right in T by lra; lra|apply TD; cbn [x2 y2]; rewrite !Rabs_right by lra; lra|]. eapply Rle_trans; [apply D0|]. rewrite Rabs_right; lra.
  - apply (C111_ring s disp _ (V2 (-63) (205/10)) E ID); unfold xy; cbn [x3 y3 z3]; [rewrite Rabs_R0; lra|rewrite TD; cbn [x2 y2]; intros (T & _); rewrite Rabs_left in T by lra; lra|apply TD; cbn [x2 y2]; rewrite Rabs_left by lra; rewrite Rabs_right by lra; lra|]. eapply Rle_trans; [apply D0|]. rewrite Rabs_left; lra.
Qed.
(** Example: an output socket's hole and the material beside it *)
Example C111_example : exists s, atx = Ok s /\ length atx_openings = 25%nat /\ (forall z, ~ ev3 s (V3 40 (-15/2) z) < 0) /\ ev3 s (V3 44 (-15/2) 1) < 0.
Proof.
  destruct C111_solid as (s & E & _). exists s. split; [exact E|]. split; [reflexivity|].
  assert (I : In (Round (V2 40 (-15/2)) (364/100)) atx_openings) by (unfold atx_openings, plain_openings; rewrite !in_app_iff; left; right; right; apply in_app_iff; left; apply (in_map (fun c => Round c (364/100))); cbn; tauto).
  assert (D0 : forall a b c, dist2 (V2 a b) (V2 c b) = Rabs (a - c)).
  { intros a b c. unfold dist2, norm2, norm2sq, dot2. cbn [x2 y2 sub2]. replace (_ + _) with (Rsqr (a - c)) by (unfold Rsqr; ring). apply sqrt_Rsqr_abs. }
  split.
  - intros z. apply (C111_through s _ _ E I). cbn [through]. unfold xy. cbn [x3 y3]. rewrite D0, Rabs_right by lra. lra.
  - apply (C111_ring s _ _ (V2 43 (-15/2)) E I); cbn [through]; unfold xy; cbn [x3 y3 z3]; rewrite ?D0, Rabs_right by lra; lra.
Qed.
