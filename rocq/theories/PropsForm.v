(** C62 (checked constructors), C63 (panels) and C64 (standoffs). *)
From Coq Require Import String Reals Lra Lia List Bool ZArith.
From Verif Require Import Prelude Vec BoxModel MatrixModel PropsBox PropsMatrix SdfModel SdfLemmas PropsBool Trig
  Grades GradesOps GradesSweep GradesCopy GradesRest Distance PrimModel PrimCores PropsPrim BlendModel PropsBlend PropsUnion2
  PropsLip PropsCopies PropsUtil PolyModel PropsPoly PropsBuilder ObjModel.
Import ListNotations.
Local Open Scope R_scope.

(** ** The builder as the parts use it *)
Lemma smoothed_length l l' : smoothed l l' -> facets_ok l -> (length l <= length l')%nat.
Proof.
  induction 1 as [|v l l' H IH|v a b pts l l' T S H IH]; intros F; cbn [length].
  - lia.
  - apply le_n_S, IH. intros w W. apply F. now right.
  - rewrite app_length, (smooth_points_length _ _ _ _ _ _ S). assert (1 <= pv_facets v)%Z by (apply F; [now left|congruence]).
    assert (length l <= length l')%nat by (apply IH; intros w W; apply F; now right). lia.
Qed.
Lemma filter_le {A} (f : A -> bool) l : (length (filter f l) <= length l)%nat.
Proof. induction l as [|a l IH]; cbn; [lia|]. destruct (f a); cbn; lia. Qed.
Definition pts_of (l : list (v2 * list vmod)) : list pvertex := map (fun x => fold_left apply_mod (snd x) (pv_at (fst x))) l.
Definition tame_mod (m : vmod) : Prop := match m with MSmooth _ f => (1 <= f)%Z | MChamfer _ => True | _ => False end.
Lemma tame_fold ms : (forall m, In m ms -> tame_mod m) -> forall v, pv_rel v = false -> pv_type v <> PvArc -> (pv_type v <> PvNormal -> (1 <= pv_facets v)%Z) ->
  let w := fold_left apply_mod ms v in pv_pos w = pv_pos v /\ pv_rel w = false /\ pv_type w <> PvArc /\ (pv_type w <> PvNormal -> (1 <= pv_facets w)%Z).
Proof.
  induction ms as [|m ms IH]; intros T v A B C; cbn [fold_left]; [now repeat split|].
  assert (TM : tame_mod m) by (apply T; now left). assert (T' : forall m, In m ms -> tame_mod m) by (intros x X; apply T; now right).
  assert (Q : pv_pos (apply_mod v m) = pv_pos v) by (destruct m; cbn [tame_mod] in TM; try contradiction; cbn [apply_mod]; match goal with |- context [if ?c then _ else _] => destruct c end; reflexivity).
  rewrite <- Q. apply IH; try assumption; destruct m; cbn [tame_mod] in TM; try contradiction; cbn [apply_mod]; match goal with |- context [if ?c then _ else _] => destruct c end; cbn; try assumption; try congruence; try lia.
Qed.
Lemma vertices_of_ok l : (forall x m, In x l -> In m (snd x) -> tame_mod m) ->
  exists fin, vertices_of l = Ok (map pv_pos fin) /\ smoothed (pts_of l) fin /\ (length l <= length fin)%nat /\
    (forall i v, nth_error fin i = Some v -> pv_type v = PvSmooth -> cannot_smooth false fin i v).
Proof.
  intros T. unfold vertices_of. fold (pts_of l). set (ps := pts_of l).
  assert (P : forall v, In v ps -> pv_rel v = false /\ pv_type v <> PvArc /\ (pv_type v <> PvNormal -> (1 <= pv_facets v)%Z)).
  { intros v I. apply in_map_iff in I. destruct I as (x & <- & I). apply tame_fold; try (cbn; congruence). intros m M. exact (T x m I M). }
  assert (F : facets_ok ps) by (intros v I; apply P; exact I).
  assert (L : length ps = length l) by apply map_length.
  unfold vertices, fixups. cbn [b_list b_closed b_reverse]. rewrite rel_none; [|intros v I; now apply P|intros i I; apply in_seq in I; lia].
  cbn [Nat.add passes]. rewrite arc_none; [|intros v I; now apply P|intros i I; apply in_seq in I; lia]. change (Datatypes.S (Datatypes.S (length l))) with (2 + length l)%nat.
  assert (SC : (smooth_count ps < 2 + length l)%nat). { unfold smooth_count. rewrite <- L. pose proof (filter_le (fun v => match pv_type v with PvSmooth => true | _ => false end) ps). lia. }
  destruct (passes_terminate (smooth_vertex false) smooth_count (smooth_measure false) _ ps SC) as (r & E).
  destruct (smooth_done false _ ps r F E) as (fin & -> & _ & SM & CS). cbn [passes Nat.add] in E. rewrite E. exists fin. repeat split; try assumption.
  rewrite <- L. now apply smoothed_length.
Qed.
Lemma vertices_of_plain l : (forall x, In x l -> snd x = []) -> vertices_of l = Ok (map fst l).
Proof.
  intros N. unfold vertices_of. fold (pts_of l). pose proof (C60_plain (Builder false false (Some (pts_of l))) (pts_of l) eq_refl) as P.
  rewrite P; [|intros v I; apply in_map_iff in I; destruct I as (x & <- & I); rewrite (N x I); now split|lia].
  unfold answer. cbn [b_reverse]. f_equal. unfold pts_of. rewrite map_map. apply map_ext_in. intros x I. rewrite (N x I). reflexivity.
Qed.
Lemma polygon_ok vs : (3 <= length vs)%nat <-> exists s, polygon vs = Ok s.
Proof. destruct vs as [|a [|b [|c r]]]; cbn; split; try lia; try (intros (s & E); discriminate); intros _; eexists; reflexivity. Qed.
Lemma built_ok l : (3 <= length l)%nat -> (forall x m, In x l -> In m (snd x) -> tame_mod m) -> exists s, built_polygon l = Ok s.
Proof.
  intros L T. destruct (vertices_of_ok l T) as (fin & E & _ & Lf & _). unfold built_polygon. rewrite E. cbn [bind].
  apply polygon_ok. rewrite map_length. lia.
Qed.
Lemma union2s a b : union3d [Some a; Some b] = Ok (S3 (union_eval3 Rmin [a; b]) (union_box3 a [a; b])).
Proof. reflexivity. Qed.
Lemma inter3_ok a b : intersect3d (Some a) (Some b) = Ok (inter3_max Rmax a b).
Proof. reflexivity. Qed.
Lemma transform3_ok s m : transform3d (Some s) m = Ok (transform3 s m).
Proof. reflexivity. Qed.
Lemma revolve_full s : exists cc, revolve3d (Some s) (2 * PI) = Ok cc /\ forall p, ev3 cc p = ev2 s (V2 (hypot (x3 p) (y3 p)) (z3 p)).
Proof.
  unfold revolve3d. pose proof PI_RGT_0. rewrite (proj2 (Rleb_false _ _)) by lra.
  replace (2 * PI - 2 * PI) with 0 by ring. rewrite Rabs_R0. rewrite (proj2 (Rltb_true _ _)) by (unfold SdfModel.tolerance; apply Rinv_0_lt_compat; lra).
  destruct (Reqb_spec 0 0) as [_|N]; [|lra]. cbn [set_min2 set_max2 bind]. eexists. split; [reflexivity|]. intros p. cbn [ev3]. unfold revolve_eval.
  assert (M : modR (Rabs 0) tau = 0) by (rewrite Rabs_R0; apply modR_small; unfold tau; lra).
  rewrite M. destruct (Reqb_spec 0 0) as [_|N]; [|lra]. cbn [negb]. apply Rmax_left, Rle_refl.
Qed.

(** ** C62 *)
(** A checked constructor: it never panics, errors exactly when the unchecked one panics, which
    is exactly when the arguments are [bad], and otherwise returns the same shape. *)
Definition checks {A} (form must : res A) (bad : Prop) : Prop :=
  form <> Panicked /\ (form = Err <-> must = Panicked) /\ (form = Err <-> bad) /\ forall s, form = Ok s <-> must = Ok s.
Lemma checks_recovered {A} (r : res A) (bad : Prop) : r <> Err -> (r = Panicked <-> bad) -> checks (recovered r) r bad.
Proof. intros N B. unfold checks, recovered. destruct r; repeat split; try congruence; try tauto; intros X; try discriminate; try (now apply B); exfalso; apply B in X; discriminate. Qed.
Ltac bcases := repeat match goal with
  | |- context [Rltb ?a ?b] => destruct (Rltb_spec a b)
  | |- context [Rleb ?a ?b] => destruct (Rleb_spec a b)
  | |- context [Reqb ?a ?b] => destruct (Reqb_spec a b)
  end; cbn [orb andb negb].
Theorem C62_checked_partial :
  (forall size round, checks (form_box3 size round) (must_box3 size round) (x3 size <= 0 \/ y3 size <= 0 \/ z3 size <= 0 \/ round < 0)) /\
  (forall r, checks (form_sphere r) (must_sphere r) (r <= 0)) /\
  (forall h r round, checks (form_cylinder h r round) (must_cylinder h r round) (r <= 0 \/ round < 0 \/ r < round \/ h < 2 * round)) /\
  (forall h r, checks (form_capsule h r) (must_cylinder h r r) (r <= 0 \/ h < 2 * r)) /\
  (forall h r0 r1 round, checks (form_cone h r0 r1 round) (must_cone h r0 r1 round) (h <= 0 \/ round < 0 \/ h < 2 * round)) /\
  (forall r, checks (form_circle r) (must_circle r) (r < 0)) /\
  (forall size round, checks (form_box2 size round) (must_box2 size round) False) /\
  (forall l round, checks (form_line l round) (must_line l round) False) /\
  (forall vs, checks (form_polygon vs) (polygon vs) (length vs < 3)%nat) /\
  (forall n r, checks (form_nagon n r) (Ok (nagon n r)) False).
Proof.
  assert (CY : forall h r round, checks (form_cylinder h r round) (must_cylinder h r round) (r <= 0 \/ round < 0 \/ r < round \/ h < 2 * round)).
  { intros h r round. apply checks_recovered; unfold must_cylinder; bcases; try discriminate; split; intros X; try lra; try discriminate; try tauto; try reflexivity. }
  split; [|split; [|split; [exact CY|split; [|split; [|split; [|split; [|split; [|split]]]]]]]]; intros.
  - apply checks_recovered; unfold must_box3, lte_zero3; bcases; try discriminate; split; intros X; try lra; try discriminate; try tauto; try reflexivity.
  - apply checks_recovered; unfold must_sphere; bcases; try discriminate; split; intros X; try lra; try discriminate; try tauto; try reflexivity.
  - unfold form_capsule. destruct (CY h r r) as (A & B & C & D). repeat split; try apply B; try apply D; try assumption.
    + intros X. apply C in X. lra.
    + intros X. apply C. lra.
  - apply checks_recovered; unfold must_cone; bcases; try discriminate; split; intros X; try lra; try discriminate; try tauto; try reflexivity.
  - apply checks_recovered; unfold must_circle; bcases; try discriminate; split; intros X; try lra; try discriminate; try tauto; try reflexivity.
  - apply checks_recovered; unfold must_box2; try discriminate; split; intros X; [discriminate|destruct X].
  - apply checks_recovered; unfold must_line; try discriminate; split; intros X; [discriminate|destruct X].
  - apply checks_recovered; destruct vs as [|a [|b [|c vs]]]; cbn; try discriminate; split; intros X; try lia; try discriminate; reflexivity.
  - unfold form_nagon. repeat split; try discriminate; try tauto.
Qed.
(** ChamferedCylinder is total on shapes; the result is the part of the shape inside the solid of
    revolution of a polygon. *)
Theorem C62_chamfered s kb kt : exists s', chamfered_cylinder (Some s) kb kt = Ok s' /\ bb3 s' = bb3 s /\
  exists t, built_polygon [(V2 0 (- z3 (max3 (bb3 s))), []); (V2 (x3 (max3 (bb3 s))) (- z3 (max3 (bb3 s))), [MChamfer (x3 (max3 (bb3 s)) * kb)]);
      (V2 (x3 (max3 (bb3 s))) (z3 (max3 (bb3 s))), [MChamfer (x3 (max3 (bb3 s)) * kt)]); (V2 0 (z3 (max3 (bb3 s))), [])] = Ok t /\
    forall p, ev3 s' p < 0 <-> ev3 s p < 0 /\ ev2 t (V2 (hypot (x3 p) (y3 p)) (z3 p)) < 0.
Proof.
  unfold chamfered_cylinder. set (l := z3 (max3 (bb3 s))). set (r := x3 (max3 (bb3 s))). set (L := [(V2 0 (- l), []); _; _; _]).
  destruct (built_ok L) as (t & E).
  { cbn; lia. }
  { intros x m I M. unfold L in I. cbn in I. repeat (destruct I as [<-|I]; [cbn in M; repeat (destruct M as [<-|M]; [exact I||exact Logic.I|]); destruct M|]); destruct I. }
  rewrite E. cbn [bind]. destruct (revolve_full t) as (cc & -> & V). cbn [bind]. rewrite inter3_ok. eexists. split; [reflexivity|]. split; [reflexivity|].
  exists t. split; [reflexivity|]. intros p. cbn [ev3 inter3_max]. rewrite V. rmm; lra.
Qed.
(** It does not recover, so a nil shape panics although the function returns an error value. *)
Theorem C62_chamfered_nil_refuted kb kt : chamfered_cylinder None kb kt = Panicked.
Proof. reflexivity. Qed.
(** Fewer than three sides is no error of Nagon: it returns no vertices and a nil error. *)
Theorem C62_nagon_no_error_refuted n r : (n < 3)%Z -> form_nagon n r = Ok [].
Proof. intros N. unfold form_nagon, nagon. destruct (Z.ltb_spec n 3); [reflexivity|lia]. Qed.
Example C62_example : form_cylinder 1 1 1 = Err /\ form_cylinder 2 1 1 <> Err /\ form_box3 (V3 1 0 1) 0 = Err /\ form_polygon [V2 0 0; V2 1 0] = Err /\
  (exists s, form_box3 (V3 1 2 3) (1/4) = Ok s) /\ exists s s', must_sphere 2 = Ok s /\ chamfered_cylinder (Some s) (1/4) (1/2) = Ok s'.
Proof.
  destruct C62_checked_partial as (B & S & C & _ & _ & _ & _ & _ & P & _). split; [|split; [|split; [|split; [|split]]]].
  - apply (proj2 (proj1 (proj2 (proj2 (C 1 1 1))))). lra.
  - intros X. apply (proj1 (proj1 (proj2 (proj2 (C 2 1 1))))) in X. lra.
  - apply (proj2 (proj1 (proj2 (proj2 (B (V3 1 0 1) 0))))). cbn. lra.
  - apply (proj2 (proj1 (proj2 (proj2 (P [V2 0 0; V2 1 0]))))). cbn. lia.
  - unfold form_box3, must_box3, lte_zero3. cbn [x3 y3 z3]. bcases; try lra. eexists; reflexivity.
  - unfold must_sphere. bcases; try lra. eexists. destruct (C62_chamfered (S3 (fun p => norm3 p - 2) (Box3 (scale3 (-1) (V3 2 2 2)) (V3 2 2 2))) (1/4) (1/2)) as (s' & E & _).
    exists s'. split; [reflexivity|exact E].
Qed.

(** ** C63 *)
(** The points at the 'x' marks of a pattern laid out from a to b. *)
Definition marked (a b : v2) (pat : pattern) (c : v2) : Prop :=
  exists i, at_x pat i /\ c = add2 a (scale2 (INR i / INR (length pat)) (sub2 b a)).
(** The hole centres of a panel: corners inset by the margins, each pattern running clockwise. *)
Definition hole_centre (k : panel_params) (c : v2) : Prop :=
  let w := x2 (pp_size k) / 2 in
  let h := y2 (pp_size k) / 2 in
  let l := - w + pp_ml k in let r := w - pp_mr k in let b := - h + pp_mb k in let t := h - pp_mt k in
  marked (V2 l t) (V2 r t) (pp_pt k) c \/ marked (V2 r t) (V2 r b) (pp_pr k) c \/
  marked (V2 r b) (V2 l b) (pp_pb k) c \/ marked (V2 l b) (V2 l t) (pp_pl k) c.
(** A pattern has at least one 'x'. *)
Definition has_x (pat : pattern) : Prop := exists i, at_x pat i.
Definition patterns (k : panel_params) : list pattern := [pp_pt k; pp_pr k; pp_pb k; pp_pl k].

Lemma copies_has_x pat : (1 <= copies pat)%nat <-> has_x pat.
Proof.
  unfold copies, has_x, at_x. induction pat as [|(b, w) r IH]; cbn [filter].
  - cbn. split; [lia|]. intros (i & w & E). destruct i; discriminate.
  - destruct b; cbn [fst].
    + split; [|cbn; lia]. intros _. exists 0%nat, w. reflexivity.
    + rewrite IH. split; [intros (i & w' & E); exists (Datatypes.S i), w'; exact E|]. intros (i & w' & E). destruct i as [|i]; [discriminate|]. exists i, w'. exact E.
Qed.
Lemma fold_rmin_le {A} (f : A -> R) l : forall d, fold_left (fun d x => Rmin d (f x)) l d <= d /\ forall x, In x l -> fold_left (fun d x => Rmin d (f x)) l d <= f x.
Proof.
  induction l as [|a l IH]; intros d; cbn [fold_left]; [split; [lra|intros x []]|]. destruct (IH (Rmin d (f a))) as (A1 & A2).
  pose proof (Rmin_l d (f a)). pose proof (Rmin_r d (f a)). split; [lra|]. intros x [<-|I]; [lra|auto].
Qed.
(** A union of honest shapes is the pointwise least value. *)
Lemma union2_least l s p : (forall x, In (Some x) l -> honest x) -> union2d l = Ok s ->
  (exists x, In (Some x) l /\ ev2 x p = ev2 s p) /\ forall x, In (Some x) l -> ev2 s p <= ev2 x p.
Proof.
  intros H U. apply union2d_ok in U. destruct U as (a & r & -> & _ & ->). cbn [ev2].
  assert (I : forall x, In x (a :: r) -> honest x) by (intros x X; apply H, in_map, X). split.
  - destruct (union_eval2_att a r p) as (x & X & E). exists x. split; [now apply in_map|exact E].
  - intros x X. apply in_map_iff in X. destruct X as (y & E & X). injection E as <-. rewrite C49_culling_partial by (discriminate || exact I). unfold union_eval2_slow.
    destruct (fold_rmin_le (fun s => ev2 s p) r (ev2 a p)) as (F1 & F2). destruct X as [<-|X]; [exact F1|now apply F2].
Qed.
(** A line of copies: the least value over the marked places. *)
Lemma line2_least s a b pat s' p : honest s -> ascii pat -> line_of2d (Some s) a b pat = Ok s' ->
  (exists c, marked a b pat c /\ ev2 s (sub2 p c) = ev2 s' p) /\ forall c, marked a b pat c -> ev2 s' p <= ev2 s (sub2 p c).
Proof.
  intros Hs A E. unfold line_of2d in E. destruct pat as [|c0 r0]; [discriminate|]. set (pat := c0 :: r0) in *.
  rewrite (ascii_len pat A) in E. set (dx := scale2 (1 / INR (length pat)) (sub2 b a)) in *.
  assert (K : forall i, Nat.iter i (fun z => add2 z dx) a = add2 a (scale2 (INR i / INR (length pat)) (sub2 b a))).
  { intros i. rewrite iter_add2. unfold dx, Rdiv. apply v2_ext; cbn; ring. }
  set (os := line_of_objs _ _ _ _ _) in E.
  assert (Sp : forall y, In y os <-> exists c, marked a b pat c /\ y = Some (transform2d s (translate2d c))).
  { intros y. unfold os. rewrite line_of_objs_spec. split.
    - intros (i & w & N & ->). eexists. split; [|reflexivity]. exists i. split; [now exists w|apply K].
    - intros (c & (i & (w & N) & ->) & ->). exists i, w. split; [exact N|]. rewrite K. reflexivity. }
  assert (Ho : forall x, In (Some x) os -> honest x).
  { intros x I. apply Sp in I. destruct I as (c & _ & Q). injection Q as ->. apply honest_transform; [apply iso2_translate|exact Hs]. }
  assert (U : (exists x, In (Some x) os /\ ev2 x p = ev2 s' p) /\ forall x, In (Some x) os -> ev2 s' p <= ev2 x p).
  { clearbody os. destruct os as [|[o|] [|o' os]]; try (eapply union2_least; [exact Ho|exact E]).
    injection E as <-. split; [exists o; split; [now left|reflexivity]|]. intros x [Q|[]]. injection Q as <-. lra. }
  destruct U as ((x & I & V) & G). split.
  - apply Sp in I. destruct I as (c & M & Q). injection Q as ->. exists c. split; [exact M|]. rewrite <- V. symmetry. apply ev_placed2.
  - intros c M. rewrite <- ev_placed2. apply G. apply Sp. now exists c.
Qed.

Lemma bind_ok {A B} (r : res A) (f : A -> res B) y : bind r f = Ok y <-> exists x, r = Ok x /\ f x = Ok y.
Proof. destruct r; cbn; split; try discriminate; try (intros (x & E & _); discriminate); eauto. intros (x & E & F). injection E as <-. exact F. Qed.
Lemma circle_ok r : 0 < r -> must_circle (1/2 * r) = Ok (S2 (fun p => norm2 p - 1/2 * r) (Box2 (scale2 (-1) (V2 (1/2 * r) (1/2 * r))) (V2 (1/2 * r) (1/2 * r)))).
Proof. intros H. unfold must_circle. rewrite (proj2 (Rltb_false _ _)) by lra. reflexivity. Qed.
Lemma circle_honest r s : must_circle r = Ok s -> 0 <= r -> honest s.
Proof.
  intros E R. eapply exact2_honest; [exact (C57_circle r s E)|]. exists zero2. unfold norm2, norm2sq, dot2; cbn. replace (0 * 0 + 0 * 0) with 0 by ring. rewrite sqrt_0. exact R.
Qed.
Lemma line2_no_err s a b pat : line_of2d (Some s) a b pat <> Err.
Proof.
  unfold line_of2d. destruct pat as [|c r]; [apply union2d_no_err|]. cbv zeta. destruct (line_of_objs _ _ _ _ _) as [|[o|] [|o' os]]; try apply union2d_no_err. discriminate.
Qed.
Lemma panic_bind {A B} (r : res A) (f : A -> res B) : r <> Err -> (~ exists x, r = Ok x) -> bind r f = Panicked.
Proof. intros E N. destruct r; [exfalso; eauto|congruence|reflexivity]. Qed.
(** With holes (a positive diameter) a panel is built exactly when every edge has at least one
    hole, and otherwise the call panics.  The panel is then the rounded rectangle without the
    closed discs of the hole diameter around the hole centres. *)
Theorem C63_panel_partial k : exists s0, must_box2 (pp_size k) (pp_corner k) = Ok s0 /\
  (pp_hole k <= 0 -> panel2 k = Ok s0) /\
  (0 < pp_hole k ->
    ((exists s, panel2 k = Ok s) <-> Forall has_x (patterns k)) /\
    ((exists s, panel2 k = Ok s) \/ panel2 k = Panicked) /\
    forall s, Forall ascii (patterns k) -> panel2 k = Ok s -> forall p,
      ev2 s p < 0 <-> ev2 s0 p < 0 /\ forall c, hole_centre k c -> pp_hole k / 2 < dist2 p c).
Proof.
  eexists. split; [reflexivity|]. set (s0 := S2 _ _). split.
  { intros H. unfold panel2. fold s0. unfold must_box2. cbn [bind]. rewrite (proj2 (Rleb_true _ _)) by lra. reflexivity. }
  intros H. unfold panel2. unfold must_box2. cbn [bind]. fold s0. rewrite (proj2 (Rleb_false _ _)) by lra. pose proof (circle_ok _ H) as C. rewrite C. cbn [bind].
  match type of C with _ = Ok ?h => set (hole := h) in * end. set (tl := V2 (- (1/2) * _ + _) (1/2 * _ - _)). set (tr := V2 (1/2 * _ - _) (1/2 * _ - _)). set (br := V2 (1/2 * _ - _) (- (1/2) * _ + _)). set (bl := V2 (- (1/2) * _ + _) (- (1/2) * _ + _)).
  assert (Hh : honest hole) by (apply (circle_honest _ _ C); lra).
  assert (DF : forall a b pat, (exists s', line_of2d (Some hole) a b pat = Ok s') <-> has_x pat).
  { intros a b pat. rewrite <- copies_has_x. symmetry. apply C48_line2_partial. }
  assert (Uk : forall h0 h1 h2 h3, exists u, union2d [Some h0; Some h1; Some h2; Some h3] = Ok u) by (intros; eexists; reflexivity).
  set (X := line_of2d (Some hole) tl tr (pp_pt k)). set (Y := line_of2d (Some hole) tr br (pp_pr k)). set (Z := line_of2d (Some hole) br bl (pp_pb k)). set (W := line_of2d (Some hole) bl tl (pp_pl k)).
  pose proof (line2_no_err hole tl tr (pp_pt k)) as NX. pose proof (line2_no_err hole tr br (pp_pr k)) as NY. pose proof (line2_no_err hole br bl (pp_pb k)) as NZ. pose proof (line2_no_err hole bl tl (pp_pl k)) as NW.
  fold X in NX. fold Y in NY. fold Z in NZ. fold W in NW.
  pose proof (DF tl tr (pp_pt k)) as DX. pose proof (DF tr br (pp_pr k)) as DY. pose proof (DF br bl (pp_pb k)) as DZ. pose proof (DF bl tl (pp_pl k)) as DW.
  fold X in DX. fold Y in DY. fold Z in DZ. fold W in DW.
  split; [|split].
  - split.
    + intros (s & E). apply bind_ok in E. destruct E as (h0 & E0 & E). apply bind_ok in E. destruct E as (h1 & E1 & E). apply bind_ok in E. destruct E as (h2 & E2 & E). apply bind_ok in E. destruct E as (h3 & E3 & _).
      repeat constructor; [apply DX|apply DY|apply DZ|apply DW]; eauto.
    + intros F. unfold patterns in F. inversion_clear F as [|? ? P0 F']. inversion_clear F' as [|? ? P1 F]. inversion_clear F as [|? ? P2 F']. inversion_clear F' as [|? ? P3 _].
      apply DX in P0. apply DY in P1. apply DZ in P2. apply DW in P3. destruct P0 as (h0 & ->), P1 as (h1 & ->), P2 as (h2 & ->), P3 as (h3 & ->). cbn [bind].
      destruct (Uk h0 h1 h2 h3) as (u & ->). eexists. reflexivity.
  - destruct X as [h0| |]; [|congruence|now right]. destruct Y as [h1| |]; [|congruence|now right]. destruct Z as [h2| |]; [|congruence|now right]. destruct W as [h3| |]; [|congruence|now right].
    cbn [bind]. destruct (Uk h0 h1 h2 h3) as (u & ->). left. eexists. reflexivity.
  - intros s F E p. unfold patterns in F. inversion_clear F as [|? ? P0 F']. inversion_clear F' as [|? ? P1 F]. inversion_clear F as [|? ? P2 F']. inversion_clear F' as [|? ? P3 _].
    apply bind_ok in E. destruct E as (h0 & E0 & E). apply bind_ok in E. destruct E as (h1 & E1 & E). apply bind_ok in E. destruct E as (h2 & E2 & E). apply bind_ok in E. destruct E as (h3 & E3 & E).
    apply bind_ok in E. destruct E as (u & Eu & E). injection E as <-.
    destruct (line2_least _ _ _ _ _ p Hh P0 E0) as ((c0 & M0 & V0) & G0). destruct (line2_least _ _ _ _ _ p Hh P1 E1) as ((c1 & M1 & V1) & G1).
    destruct (line2_least _ _ _ _ _ p Hh P2 E2) as ((c2 & M2 & V2') & G2). destruct (line2_least _ _ _ _ _ p Hh P3 E3) as ((c3 & M3 & V3') & G3).
    assert (Hu : forall x, In (Some x) [Some h0; Some h1; Some h2; Some h3] -> honest x).
    { intros x [Q|[Q|[Q|[Q|[]]]]]; injection Q as <-; eapply honest_line_of; eauto. }
    destruct (union2_least _ _ p Hu Eu) as ((x & Ix & Vx) & Gx).
    assert (HC : forall c, hole_centre k c <-> marked tl tr (pp_pt k) c \/ marked tr br (pp_pr k) c \/ marked br bl (pp_pb k) c \/ marked bl tl (pp_pl k) c).
    { intros c. unfold hole_centre, tl, tr, br, bl. cbv zeta.
      replace (- (x2 (pp_size k) / 2) + pp_ml k) with (- (1/2) * x2 (pp_size k) + pp_ml k) by field. replace (x2 (pp_size k) / 2 - pp_mr k) with (1/2 * x2 (pp_size k) - pp_mr k) by field.
      replace (- (y2 (pp_size k) / 2) + pp_mb k) with (- (1/2) * y2 (pp_size k) + pp_mb k) by field. replace (y2 (pp_size k) / 2 - pp_mt k) with (1/2 * y2 (pp_size k) - pp_mt k) by field. tauto. }
    assert (Low : forall c, hole_centre k c -> ev2 u p <= ev2 hole (sub2 p c)).
    { intros c Hc. apply HC in Hc. destruct Hc as [Hc|[Hc|[Hc|Hc]]]; [specialize (G0 c Hc); pose proof (Gx h0 ltac:(now left))|specialize (G1 c Hc); pose proof (Gx h1 ltac:(now right; left))
        |specialize (G2 c Hc); pose proof (Gx h2 ltac:(now right; right; left))|specialize (G3 c Hc); pose proof (Gx h3 ltac:(now right; right; right; left))]; lra. }
    assert (Att : exists c, hole_centre k c /\ ev2 hole (sub2 p c) = ev2 u p).
    { destruct Ix as [Q|[Q|[Q|[Q|[]]]]]; injection Q as <-; [exists c0|exists c1|exists c2|exists c3]; (split; [apply HC; tauto|lra]). }
    assert (HV : forall c, ev2 hole (sub2 p c) = dist2 p c - 1/2 * pp_hole k) by reflexivity.
    cbn [ev2 diff2_max]. split.
    + intros L. assert (A : ev2 s0 p < 0 /\ 0 < ev2 u p) by (revert L; rmm; lra). split; [tauto|]. intros c Hc. specialize (Low c Hc). rewrite HV in Low. lra.
    + intros (A & B). destruct Att as (c & Hc & V). specialize (B c Hc). rewrite HV in V. rmm; lra.
Qed.
Theorem C63_no_mark_refuted k : 0 < pp_hole k -> Exists (fun pat => ~ has_x pat) (patterns k) -> panel2 k = Panicked.
Proof.
  intros H E. destruct (C63_panel_partial k) as (s0 & _ & _ & P). destruct (P H) as (D & [O|O] & _); [|exact O].
  exfalso. apply D in O. apply Exists_exists in E. destruct E as (x & I & N). rewrite Forall_forall in O. exact (N (O x I)).
Qed.
(** The sizes of a EuroRack panel: 5.08 mm per HP and 44.45 mm per U, less the gaps. *)
Definition rack_width (k : rack_params) : R := 508/100 * rk_hp k - 24/100.
Definition rack_height (k : rack_params) : R := 4445/100 * rk_u k - 485/100.
Lemma rack_sizes k : hp_size k = rack_width k /\ u_size k = rack_height k.
Proof. unfold hp_size, u_size, rack_width, rack_height, er_hp_gap, er_u_gap, er_hp, er_u. split; field. Qed.
(** EuroRack panels of 8 HP and more have four holes; smaller ones always panic. *)
Theorem C63_eurorack_partial k : 1 <= rk_u k -> 8 <= rk_hp k -> 0 <= rk_corner k -> 0 < rk_hole k ->
  exists s0 s, must_box2 (V2 (rack_width k) (rack_height k)) (rk_corner k) = Ok s0 /\ euro_rack_panel2 k = Ok s /\
  forall p, ev2 s p < 0 <-> ev2 s0 p < 0 /\
    forall sx sy, (sx = 1 \/ sx = -1) -> (sy = 1 \/ sy = -1) ->
      rk_hole k / 2 < dist2 p (V2 (sx * (rack_width k / 2 - 75/10)) (sy * (rack_height k / 2 - 3))).
Proof.
  destruct (rack_sizes k) as (Ew & Eh). rewrite <- Ew, <- Eh. clear Ew Eh.
  intros U H C D. unfold euro_rack_panel2. rewrite (proj2 (Rltb_false _ _)), (proj2 (Rleb_false (rk_hp k) 1)), (proj2 (Rltb_false (rk_corner k) 0)), (proj2 (Rleb_false (rk_hole k) 0)), (proj2 (Rltb_false (rk_hp k) 8)) by lra.
  set (hm := 3 * er_hp * (1/2) - er_hp_gap). set (q := PanelP _ _ _ _ _ _ _ _ _ _ _ _).
  assert (HM : hm = 75/10) by (unfold hm, er_hp_gap, er_hp; field).
  destruct (C63_panel_partial q) as (s0 & E0 & _ & P). specialize (P D). destruct P as (P1 & _ & P3).
  assert (HX : has_x pat_x) by (exists 0%nat, 1%nat; reflexivity). assert (HA : ascii pat_x) by (intros c [<-|[]]; reflexivity).
  destruct (proj2 P1) as (s & Es); [repeat constructor; exact HX|]. exists s0, s. split; [exact E0|]. split; [exact Es|].
  assert (FA : Forall ascii (patterns q)) by (repeat constructor; exact HA).
  intros p. rewrite (P3 s FA Es p). cbn [pp_hole q].
  assert (MK : forall a b c, marked a b pat_x c <-> c = a).
  { intros a b c. unfold marked, at_x. split.
    - intros (i & (w & N) & ->). destruct i as [|i]; [|destruct i; discriminate]. cbn. unfold Rdiv. rewrite Rmult_0_l. apply v2_ext; cbn; ring.
    - intros ->. exists 0%nat. split; [exists 1%nat; reflexivity|]. cbn. unfold Rdiv. rewrite Rmult_0_l. apply v2_ext; cbn; ring. }
  assert (HC : forall c, hole_centre q c <-> exists sx sy, (sx = 1 \/ sx = -1) /\ (sy = 1 \/ sy = -1) /\ c = V2 (sx * (hp_size k / 2 - 75/10)) (sy * (u_size k / 2 - 3))).
  { intros c. unfold hole_centre. cbv zeta. unfold q. cbn [pp_size pp_mt pp_mr pp_mb pp_ml pp_pt pp_pr pp_pb pp_pl x2 y2]. rewrite HM, !MK. split.
    - intros [->|[->|[->| ->]]]; [exists (-1), 1|exists 1, 1|exists 1, (-1)|exists (-1), (-1)]; (split; [lra|split; [lra|apply v2_ext; cbn; lra]]).
    - intros (sx & sy & [->| ->] & [->| ->] & ->); [right; left|right; right; left|left|right; right; right]; apply v2_ext; cbn; lra. }
  split; intros (A & B); (split; [exact A|]).
  - intros sx sy Sx Sy. apply B. apply HC. eauto.
  - intros c Hc. apply HC in Hc. destruct Hc as (sx & sy & Sx & Sy & ->). now apply B.
Qed.
Theorem C63_eurorack_small_refuted k : 1 < rk_hp k < 8 -> euro_rack_panel2 k = Panicked.
Proof.
  intros H. unfold euro_rack_panel2. destruct (Rltb_spec (rk_u k) 1); [reflexivity|]. rewrite (proj2 (Rleb_false (rk_hp k) 1)) by lra. destruct (Rltb_spec (rk_corner k) 0); [reflexivity|].
  destruct (Rleb_spec (rk_hole k) 0); [reflexivity|]. rewrite (proj2 (Rltb_true (rk_hp k) 8)) by lra. apply C63_no_mark_refuted; [cbn; lra|].
  apply Exists_exists. exists []. split; [right; left; reflexivity|]. intros (i & w & E). destruct i; discriminate.
Qed.
(** Signs of the box and cylinder fields. *)
Lemma box2d_sign p s : 0 <= x2 s -> 0 <= y2 s ->
  (sdf_box2d p s < 0 <-> Rabs (x2 p) < x2 s /\ Rabs (y2 p) < y2 s) /\ (sdf_box2d p s <= 0 <-> Rabs (x2 p) <= x2 s /\ Rabs (y2 p) <= y2 s).
Proof.
  intros X Y. unfold sdf_box2d, abs_elem2, sub2; cbn [x2 y2]. set (a := Rabs (x2 p)). set (b := Rabs (y2 p)).
  destruct (Rltb_spec 0 (a - x2 s)); destruct (Rltb_spec 0 (b - y2 s)); cbn [andb].
  - assert (N : 0 < norm2 (V2 (a - x2 s) (b - y2 s))) by (unfold norm2, norm2sq, dot2; cbn; apply sqrt_lt_R0; nra). split; lra.
  - destruct (Rltb_spec (y2 s - x2 s) (b - a)); split; lra.
  - destruct (Rltb_spec (y2 s - x2 s) (b - a)); split; lra.
  - destruct (Rltb_spec (y2 s - x2 s) (b - a)); split; lra.
Qed.
Lemma cylinder_sign h r s p : must_cylinder h r 0 = Ok s ->
  (ev3 s p < 0 <-> hypot (x3 p) (y3 p) < r /\ Rabs (z3 p) < h / 2) /\ (ev3 s p <= 0 <-> hypot (x3 p) (y3 p) <= r /\ Rabs (z3 p) <= h / 2).
Proof.
  unfold must_cylinder. bcases; try discriminate. intros E. injection E as <-. cbn [ev3].
  destruct (box2d_sign (V2 (hypot (x3 p) (y3 p)) (z3 p)) (V2 (r - 0) (h / 2 - 0))) as (A & B); cbn [x2 y2] in *; try lra.
  assert (N : Rabs (hypot (x3 p) (y3 p)) = hypot (x3 p) (y3 p)) by (apply Rabs_pos_eq, sqrt_pos). rewrite N in *.
  split; split; intros X.
  - destruct A as (A & _). lra.
  - assert (sdf_box2d (V2 (hypot (x3 p) (y3 p)) (z3 p)) (V2 (r - 0) (h / 2 - 0)) < 0) by (apply A; lra). lra.
  - destruct B as (B & _). lra.
  - assert (sdf_box2d (V2 (hypot (x3 p) (y3 p)) (z3 p)) (V2 (r - 0) (h / 2 - 0)) <= 0) by (apply B; lra). lra.
Qed.
Lemma cylinder_ok h r : (exists s, must_cylinder h r 0 = Ok s) <-> 0 < r /\ 0 <= h.
Proof. unfold must_cylinder. bcases; split; intros X; try lra; try (destruct X; discriminate); eexists; reflexivity. Qed.
Lemma cylinder_no_err h r d : must_cylinder h r d <> Err.
Proof. unfold must_cylinder. bcases; discriminate. Qed.
(** The 3d panels: the 2d panel, Thickness high, centred on z = 0. *)
Theorem C63_panel3 k : (pp_thickness k <= 0 -> panel3 k = Panicked) /\
  (0 < pp_thickness k -> ((exists s, panel2 k = Ok s) <-> exists s, panel3 k = Ok s)) /\
  forall s s3 p, panel2 k = Ok s -> panel3 k = Ok s3 -> (ev3 s3 p < 0 <-> ev2 s (xy p) < 0 /\ Rabs (z3 p) < pp_thickness k / 2).
Proof.
  unfold panel3. destruct (Rleb_spec (pp_thickness k) 0); (split; [intros; try reflexivity; lra|]); (split; [intros; try lra|]).
  - intros; discriminate.
  - split; intros (s & E); [rewrite E; eexists; reflexivity|]. apply bind_ok in E. destruct E as (x & E & _). eauto.
  - intros s s3 p E1 E2. rewrite E1 in E2. cbn [bind] in E2. injection E2 as <-. cbn [ev3 extrude3d]. unfold extrude_eval, normal_extrude. rmm; lra.
Qed.
Lemma box3_sign a b c s p : must_box3 (V3 a b c) 0 = Ok s ->
  (ev3 s p < 0 <-> Rabs (x3 p) < a / 2 /\ Rabs (y3 p) < b / 2 /\ Rabs (z3 p) < c / 2) /\
  (ev3 s p <= 0 <-> Rabs (x3 p) <= a / 2 /\ Rabs (y3 p) <= b / 2 /\ Rabs (z3 p) <= c / 2).
Proof.
  unfold must_box3, lte_zero3. cbn [x3 y3 z3]. bcases; try discriminate. intros E. injection E as <-. cbn [ev3].
  unfold sdf_box3d, abs_elem3, sub3, scale3, elem3; cbn [x3 y3 z3]. set (u := Rabs (x3 p)). set (v := Rabs (y3 p)). set (w := Rabs (z3 p)).
  assert (HP : forall s t, 0 < s -> 0 < hypot s t) by (intros s t S; unfold hypot; apply sqrt_lt_R0; nra).
  assert (NP : forall x y z, 0 < x -> 0 < norm3 (V3 x y z)) by (intros x y z X; unfold norm3, norm3sq, dot3; cbn; apply sqrt_lt_R0; nra).
  destruct (Rltb_spec 0 (u - (1 / 2 * a - 0))) as [A|A]; destruct (Rltb_spec 0 (v - (1 / 2 * b - 0))) as [B|B]; destruct (Rltb_spec 0 (w - (1 / 2 * c - 0))) as [C|C]; cbn [andb];
    try (pose proof (NP _ (v - (1 / 2 * b - 0)) (w - (1 / 2 * c - 0)) A)); try (pose proof (HP _ (v - (1 / 2 * b - 0)) A)); try (pose proof (HP _ (w - (1 / 2 * c - 0)) A)); try (pose proof (HP _ (w - (1 / 2 * c - 0)) B));
    clear HP NP; clearbody u v w; split; try lra; rmm; lra.
Qed.
Lemma abs_lt_iff a b : Rabs a < b <-> - b < a < b.
Proof. split; intros X; [apply Rabs_def2 in X; lra|apply Rabs_def1; lra]. Qed.
Lemma Rmin_neg_iff a b : Rmin a b < 0 <-> a < 0 \/ b < 0.
Proof. rmm; lra. Qed.
Lemma Rmax_neg_iff a b : Rmax a b < 0 <-> a < 0 /\ b < 0.
Proof. rmm; lra. Qed.
Theorem C63_eurorack3_partial k : 1 <= rk_u k -> 8 <= rk_hp k -> 0 <= rk_corner k -> 0 < rk_hole k -> 0 < rk_thickness k ->
  exists s2 s, euro_rack_panel2 k = Ok s2 /\ euro_rack_panel3 k = Ok s /\
  let t := rk_thickness k in
  forall p, ev3 s p < 0 <->
    (ev2 s2 (xy p) < 0 /\ Rabs (z3 p) < t / 2) \/
    (rk_ridge k = true /\ (rack_width k / 2 - t < x3 p < rack_width k / 2 \/ rack_width k / 2 - t < - x3 p < rack_width k / 2) /\ Rabs (y3 p) < rack_height k / 2 - 9 /\ t / 2 < z3 p < 2 * t).
Proof.
  destruct (rack_sizes k) as (Ew & Eh). rewrite <- Ew, <- Eh. clear Ew Eh.
  intros U H C D T. destruct (C63_eurorack_partial k U H C D) as (s0 & s2 & _ & E2 & _). exists s2. unfold euro_rack_panel3. rewrite (proj2 (Rleb_false _ _)) by lra. rewrite E2. cbn [bind].
  destruct (rk_ridge k); cbn [negb].
  2:{ eexists. split; [reflexivity|]. split; [reflexivity|]. cbv zeta. intros p. cbn [ev3 extrude3d]. unfold extrude_eval, normal_extrude. split; [intros L; left|intros [L|(L & _)]; [|discriminate]]; revert L; rmm; lra. }
  set (t := rk_thickness k) in *.
  destruct (must_box3 (V3 t (u_size k - 18) (t * (15/10))) 0) as [r| |] eqn:Er.
  2,3: exfalso; revert Er; unfold must_box3, lte_zero3; cbn [x3 y3 z3]; bcases; try discriminate; try lra; unfold u_size, er_u_gap, er_u in *; lra.
  cbn [bind]. rewrite !transform3_ok. cbn [bind]. eexists. split; [reflexivity|]. split; [reflexivity|]. cbv zeta. intros p. cbn [ev3 union_eval3 fold_left extrude3d].
  rewrite !ev_placed3. set (q1 := sub3 (sub3 p _) _). set (q2 := sub3 (sub3 p (V3 (- _) 0 0)) _).
  destruct (box3_sign _ _ _ _ q1 Er) as (B1 & _). destruct (box3_sign _ _ _ _ q2 Er) as (B2 & _). unfold extrude_eval, normal_extrude.
  set (e1 := ev3 r q1) in *. set (e2 := ev3 r q2) in *. clearbody e1 e2. unfold q1, q2, sub3 in B1, B2. cbn [x3 y3 z3] in B1, B2.
  rewrite abs_lt_iff in B1, B2. rewrite (abs_lt_iff (z3 p - _ - _)) in B1, B2.
  rewrite !Rmin_neg_iff, Rmax_neg_iff, B1, B2. rewrite !Rminus_0_r in *.
  clear. set (y := Rabs (y3 p)). set (z := Rabs (z3 p)). clearbody y z. split.
  - intros [[L|L]|L]; [left; lra|right; split; [reflexivity|]; lra|right; split; [reflexivity|]; lra].
  - intros [L|(_ & [L|L] & Q)]; [left; left; lra|left; right; lra|right; lra].
Qed.

(** Panel holes: built for exactly the documented parameters; a panic otherwise, never an error. *)
Theorem C63_panel_hole k : panel_hole k <> Err /\
  ((exists s, panel_hole k = Ok s) <-> 0 < ph_diameter k /\ 0 < ph_thickness k /\ (0 <= x3 (ph_indent k) /\ 0 <= y3 (ph_indent k) /\ 0 <= z3 (ph_indent k)) /\ 0 <= ph_offset k) /\
  forall s p, panel_hole k = Ok s -> ph_orientation k = 0 ->
    (ev3 s p < 0 <-> (hypot (x3 p) (y3 p) < ph_diameter k / 2 /\ Rabs (z3 p) < ph_thickness k / 2) \/
      (0 < ph_offset k /\ Rabs (x3 p - ph_offset k) < x3 (ph_indent k) / 2 /\ Rabs (y3 p) < y3 (ph_indent k) / 2 /\
       ph_thickness k / 2 - z3 (ph_indent k) < z3 p < ph_thickness k / 2)).
Proof.
  unfold panel_hole, lt_zero3. destruct (Rleb_spec (ph_diameter k) 0) as [D|D]; [split; [discriminate|split; [split; [intros (s & E); discriminate|lra]|discriminate]]|].
  destruct (Rleb_spec (ph_thickness k) 0) as [T|T]; [split; [discriminate|split; [split; [intros (s & E); discriminate|lra]|discriminate]]|].
  destruct (Rltb (x3 (ph_indent k)) 0 || Rltb (y3 (ph_indent k)) 0 || Rltb (z3 (ph_indent k)) 0) eqn:Q.
  { split; [discriminate|]. split; [split; [intros (s & E); discriminate|]|discriminate]. intros (_ & _ & A & _). exfalso. revert Q. bcases; try discriminate; lra. }
  assert (I : 0 <= x3 (ph_indent k) /\ 0 <= y3 (ph_indent k) /\ 0 <= z3 (ph_indent k)) by (revert Q; bcases; try discriminate; lra). clear Q.
  destruct (Rltb_spec (ph_offset k) 0) as [O|O]; [split; [discriminate|split; [split; [intros (s & E); discriminate|lra]|discriminate]]|].
  destruct (proj2 (cylinder_ok (ph_thickness k) (ph_diameter k * (1/2)))) as (c & Ec); [lra|]. rewrite Ec. cbn [bind].
  destruct (Reqb (ph_offset k) 0 || Reqb (x3 (ph_indent k)) 0 || Reqb (y3 (ph_indent k)) 0 || Reqb (z3 (ph_indent k)) 0) eqn:Q.
  { split; [discriminate|]. split; [split; [intros _; repeat split; lra|intros _; eauto]|]. intros s p E _. injection E as <-. destruct (cylinder_sign _ _ _ p Ec) as (A & _). rewrite A.
    replace (ph_diameter k * (1/2)) with (ph_diameter k / 2) by field. split; [tauto|]. intros [L|(L1 & L2 & L3 & L4)]; [exact L|]. exfalso.
    pose proof (Rabs_pos (x3 p - ph_offset k)). pose proof (Rabs_pos (y3 p)). revert Q. bcases; try discriminate; lra. }
  assert (NZ : 0 < ph_offset k /\ 0 < x3 (ph_indent k) /\ 0 < y3 (ph_indent k) /\ 0 < z3 (ph_indent k)) by (revert Q; bcases; try discriminate; intros; repeat split; lra). clear Q.
  destruct (must_box3 (ph_indent k) 0) as [b| |] eqn:Eb.
  2,3: exfalso; revert Eb; unfold must_box3, lte_zero3; bcases; try discriminate; lra.
  cbn [bind]. rewrite transform3_ok. cbn [bind]. rewrite union2s. cbn [bind].
  assert (Ok' : forall X, (if negb (Reqb (ph_orientation k) 0) then transform3d (Some X) (rotate_z (ph_orientation k)) else Ok X) = Ok (if negb (Reqb (ph_orientation k) 0) then transform3 X (rotate_z (ph_orientation k)) else X)) by (intros; destruct (negb _); reflexivity).
  rewrite Ok'. split; [discriminate|]. split; [split; [intros _; repeat split; lra|intros _; eauto]|]. intros s p E Z. injection E as <-. rewrite (proj2 (Reqb_true _ _) Z). cbn [negb ev3 union_eval3 fold_left].
  rewrite Rmin_neg_iff, ev_placed3. destruct (cylinder_sign _ _ _ p Ec) as (A & _). rewrite A. replace (ph_diameter k * (1/2)) with (ph_diameter k / 2) by field.
  destruct (ph_indent k) as [ix iy iz]. cbn [x3 y3 z3] in *. set (v := V3 _ _ _). destruct (box3_sign _ _ _ _ (sub3 p v) Eb) as (B & _). rewrite B. unfold v, sub3. cbn [x3 y3 z3]. rewrite Rminus_0_r, (abs_lt_iff (z3 p - _)). clear - NZ. lra.
Qed.
Example C63_example : exists s, panel2 (PanelP (V2 100 50) 5 4 6 6 6 6 [(true, 1); (false, 1); (true, 1)]%nat pat_x pat_x pat_x 2) = Ok s /\
  0 <= ev2 s (V2 (-44) 19) /\ ev2 s (V2 0 0) < 0.
Proof.
  set (k := PanelP _ _ _ _ _ _ _ _ _ _ _ _). destruct (C63_panel_partial k) as (s0 & E0 & _ & P). specialize (P ltac:(cbn; lra)). destruct P as (D & _ & G).
  destruct (proj2 D) as (s & Es). { repeat constructor; exists 0%nat, 1%nat; reflexivity. }
  exists s. split; [exact Es|]. assert (FA : Forall ascii (patterns k)) by (repeat constructor; intros c I; cbn in I; intuition subst; reflexivity). specialize (G s FA Es). split.
  - apply Rnot_lt_le. intros L. apply G in L. destruct L as (_ & L). specialize (L (V2 (-44) 19)). assert (HC : hole_centre k (V2 (-44) 19)).
    { left. exists 0%nat. split; [exists 1%nat; reflexivity|]. apply v2_ext; cbn; lra. }
    specialize (L HC). rewrite dist2_refl in L. cbn in L. lra.
  - apply G. split.
    + injection E0 as <-. cbn [ev2 k pp_size pp_corner]. assert (sdf_box2d (V2 0 0) (sub2 (scale2 (1/2) (V2 100 50)) (elem2 5)) < 0); [|lra]. apply box2d_sign; cbn; try lra. rewrite Rabs_R0. lra.
    + intros c HC. assert (Y : Rabs (y2 c) = 19 \/ Rabs (x2 c) = 44).
      { unfold hole_centre in HC. cbn [k pp_size pp_mt pp_mr pp_mb pp_ml pp_pt pp_pr pp_pb pp_pl x2 y2] in HC. destruct HC as [HC|[HC|[HC|HC]]]; destruct HC as (i & _ & ->); cbn [add2 scale2 sub2 x2 y2]; [left|right|left|right].
        - replace (_ + _) with 19 by lra. apply Rabs_right. lra.
        - replace (_ + _) with 44 by lra. apply Rabs_right. lra.
        - replace (_ + _) with (-19) by lra. rewrite Rabs_left; lra.
        - replace (_ + _) with (-44) by lra. rewrite Rabs_left; lra. }
      destruct (abs_le_norm2 (sub2 (V2 0 0) c)) as (A & B). fold (dist2 (V2 0 0) c) in A, B. cbn [sub2 x2 y2] in A, B. replace (0 - x2 c) with (- x2 c) in A by ring. replace (0 - y2 c) with (- y2 c) in B by ring.
      rewrite Rabs_Ropp in A, B. cbn [k pp_hole]. lra.
Qed.

(** ** C64 *)
(** The parameters a standoff is built for.  NumberWebs > 0 needs webs of positive diameter. *)
Definition standoff_ok (k : standoff_params) : Prop :=
  0 < st_diameter k /\ 0 <= st_height k /\ ((0 < st_webs k)%Z -> 0 < st_web_diameter k) /\ 0 < st_hole_diameter k /\ st_hole_depth k <> 0.
Lemma web_ok k : exists w, pillar_web k = Ok w.
Proof.
  unfold pillar_web. destruct (built_ok [(V2 0 0, []); (V2 (1/2 * st_web_diameter k) 0, []); (V2 0 (st_web_height k), [])]) as (p & E).
  - cbn; lia.
  - intros x m I M. cbn in I. destruct I as [<-|[<-|[<-|[]]]]; destruct M.
  - rewrite E. eexists. reflexivity.
Qed.
(** Standoff returns a solid for exactly the parameters above and panics for all others. *)
Theorem C64_defined_partial k : ((exists s, standoff k = Ok s) <-> standoff_ok k) /\ standoff k <> Err.
Proof.
  unfold standoff, standoff_ok, pillar. destruct (web_ok k) as (w & Ew).
  pose proof (cylinder_ok (st_height k) (1/2 * st_diameter k)) as CP. pose proof (cylinder_no_err (st_height k) (1/2 * st_diameter k) 0) as NP.
  destruct (must_cylinder (st_height k) (1/2 * st_diameter k) 0) as [s| |] eqn:E; [|congruence|].
  2:{ cbn [bind]. split; [|discriminate]. split; [intros (s & Q); discriminate|]. intros (A & B & _). destruct (proj2 CP) as (s & Q); [lra|discriminate]. }
  assert (P : 0 < 1/2 * st_diameter k /\ 0 <= st_height k) by (apply CP; eauto). clear CP NP. cbn [bind].
  rewrite Ew. cbn [bind]. rewrite union2s. cbn [bind].
  pose proof (cylinder_ok (st_height k) (st_web_diameter k)) as CW. pose proof (cylinder_no_err (st_height k) (st_web_diameter k) 0) as NW.
  set (X := if (0 <? st_webs k)%Z then _ else _).
  assert (HX : (exists x, X = Ok x) /\ ((0 < st_webs k)%Z -> 0 < st_web_diameter k) \/ X = Panicked /\ (0 < st_webs k)%Z /\ ~ 0 < st_web_diameter k).
  { unfold X. destruct (Z.ltb_spec 0 (st_webs k)) as [L|L]; [|left; split; [eauto|intros; lia]].
    destruct (must_cylinder (st_height k) (st_web_diameter k) 0) as [c| |]; [|congruence|].
    - left. split; [eexists; reflexivity|]. intros _. apply CW. eauto.
    - right. split; [reflexivity|]. split; [exact L|]. intros Q. destruct (proj2 CW) as (c & Z); [lra|discriminate]. }
  clearbody X. destruct HX as [((x & ->) & W)|(-> & L & N)]; cbn [bind].
  2:{ split; [|discriminate]. split; [intros (s' & Q); discriminate|]. intros (_ & _ & A & _). tauto. }
  unfold pillar_hole. destruct (Reqb_spec (st_hole_diameter k) 0) as [Z|NZ]; cbn [orb].
  { cbn [bind]. split; [|destruct (Rleb_spec 0 (st_hole_depth k)); discriminate]. split; [|intros; lra]. intros (s' & Q). destruct (Rleb_spec 0 (st_hole_depth k)); discriminate. }
  destruct (Reqb_spec (st_hole_depth k) 0) as [Z|NZd]; cbn [orb].
  { cbn [bind]. split; [|destruct (Rleb_spec 0 (st_hole_depth k)); discriminate]. split; [|intros; lra]. intros (s' & Q). destruct (Rleb_spec 0 (st_hole_depth k)); discriminate. }
  pose proof (cylinder_ok (Rabs (st_hole_depth k)) (1/2 * st_hole_diameter k)) as CH. pose proof (cylinder_no_err (Rabs (st_hole_depth k)) (1/2 * st_hole_diameter k) 0) as NH.
  destruct (must_cylinder (Rabs (st_hole_depth k)) (1/2 * st_hole_diameter k) 0) as [h| |]; [|congruence|].
  - cbn [bind]. rewrite transform3_ok. cbn [bind]. assert (A : 0 < 1/2 * st_hole_diameter k) by (apply CH; eauto). split; [|destruct (Rleb_spec 0 (st_hole_depth k)); discriminate]. split.
    + intros _. repeat split; try assumption; lra.
    + intros _. destruct (Rleb_spec 0 (st_hole_depth k)); eexists; reflexivity.
  - cbn [bind]. split; [|discriminate]. split; [intros (s' & Q); discriminate|]. intros (_ & _ & _ & A & _). exfalso. destruct (proj2 CH) as (c & Q); [split; [lra|apply Rabs_pos]|discriminate].
Qed.
(** No hole (zero depth or diameter), which pillarHole itself allows for: always a panic. *)
Theorem C64_no_hole_refuted k : st_hole_depth k = 0 \/ st_hole_diameter k = 0 -> standoff k = Panicked.
Proof.
  intros H. destruct (C64_defined_partial k) as (D & N). destruct (standoff k) as [s| |]; [|congruence|reflexivity].
  exfalso. destruct (proj1 D) as (_ & _ & _ & A & B); [eauto|]. lra.
Qed.
(** The solid without webs: the pillar, a hole from its top of the given depth, or a stub on top. *)
Definition in_pillar (k : standoff_params) (p : v3) : Prop := hypot (x3 p) (y3 p) < st_diameter k / 2 /\ Rabs (z3 p) < st_height k / 2.
Theorem C64_solid_partial k s p : (st_webs k <= 0)%Z -> standoff k = Ok s ->
  (0 < st_hole_depth k -> (ev3 s p < 0 <-> in_pillar k p /\
     ~ (hypot (x3 p) (y3 p) <= st_hole_diameter k / 2 /\ st_height k / 2 - st_hole_depth k <= z3 p <= st_height k / 2))) /\
  (st_hole_depth k < 0 -> (ev3 s p < 0 <-> in_pillar k p \/
     (hypot (x3 p) (y3 p) < st_hole_diameter k / 2 /\ st_height k / 2 < z3 p < st_height k / 2 - st_hole_depth k))).
Proof.
  intros W E. pose proof (proj1 (proj1 (C64_defined_partial k)) (ex_intro _ s E)) as (_ & _ & _ & HD & HZ). unfold standoff in E. rewrite (proj2 (Z.ltb_ge _ _) W) in E.
  apply bind_ok in E. destruct E as (a & Ea & E). cbn [bind] in E. apply bind_ok in E. destruct E as (h & Eh & E).
  unfold pillar_hole in Eh. destruct (Reqb_spec (st_hole_diameter k) 0); [lra|]. destruct (Reqb_spec (st_hole_depth k) 0); [contradiction|]. cbn [orb] in Eh.
  apply bind_ok in Eh. destruct Eh as (c & Ec & Eh). rewrite transform3_ok in Eh. cbn [bind] in Eh. injection Eh as <-.
  destruct (cylinder_sign _ _ _ p Ea) as (A & _). set (v := V3 0 0 (1/2 * (st_height k - st_hole_depth k))) in *. destruct (cylinder_sign _ _ _ (sub3 p v) Ec) as (B & B').
  assert (X : sub3 p v = V3 (x3 p) (y3 p) (z3 p - 1/2 * (st_height k - st_hole_depth k))) by (apply v3_ext; cbn; ring). rewrite X in B, B'. cbn [x3 y3 z3] in B, B'. unfold in_pillar.
  replace (st_diameter k / 2) with (1/2 * st_diameter k) by field. replace (st_hole_diameter k / 2) with (1/2 * st_hole_diameter k) by field. rewrite <- A.
  split; intros S.
  - rewrite (proj2 (Rleb_true _ _)) in E by lra. injection E as <-. cbn [ev3 diff3_max]. rewrite Rmax_neg_iff, ev_placed3, X.
    set (e := ev3 c _) in *. assert (Q : hypot (x3 p) (y3 p) <= 1/2 * st_hole_diameter k /\ st_height k / 2 - st_hole_depth k <= z3 p <= st_height k / 2 <-> e <= 0).
    { rewrite B'. rewrite (Rabs_right (st_hole_depth k)) by lra. clear. split; intros (U & V); (split; [exact U|]); revert V; rmm; lra. }
    rewrite Q. lra.
  - rewrite (proj2 (Rleb_false _ _)) in E by lra. injection E as <-. cbn [ev3 union_eval3 fold_left]. rewrite Rmin_neg_iff, ev_placed3, X.
    set (e := ev3 c _) in *. assert (Q : hypot (x3 p) (y3 p) < 1/2 * st_hole_diameter k /\ st_height k / 2 < z3 p < st_height k / 2 - st_hole_depth k <-> e < 0).
    { rewrite B. rewrite (Rabs_left (st_hole_depth k)) by lra. clear. split; intros (U & V); (split; [exact U|]); revert V; rmm; lra. }
    rewrite Q. lra.
Qed.

(** With webs: the pillar and the web copies, cut to the pillar's height and to the radius
    WebDiameter, then drilled. *)
Theorem C64_webs_partial k s p : (0 < st_webs k)%Z -> 0 < st_hole_depth k -> standoff k = Ok s ->
  exists w, pillar_web k = Ok w /\
  (ev3 s p < 0 <-> (in_pillar k p \/ ev3 (rotate_copy3d w (st_webs k)) p < 0) /\
     Rabs (z3 p) < st_height k / 2 /\ hypot (x3 p) (y3 p) < st_web_diameter k /\
     ~ (hypot (x3 p) (y3 p) <= st_hole_diameter k / 2 /\ st_height k / 2 - st_hole_depth k <= z3 p <= st_height k / 2)).
Proof.
  intros W S E. pose proof (proj1 (proj1 (C64_defined_partial k)) (ex_intro _ s E)) as (_ & _ & _ & HD & HZ). destruct (web_ok k) as (w & Ew). exists w. split; [exact Ew|].
  unfold standoff in E. rewrite (proj2 (Z.ltb_lt _ _) W), Ew in E.
  apply bind_ok in E. destruct E as (a & Ea & E). cbn [bind] in E. apply bind_ok in E. destruct E as (a' & Ea' & E). rewrite union2s in Ea'. cbn [bind] in Ea'. apply bind_ok in Ea'. destruct Ea' as (cut & Ecut & Ea').
  rewrite inter3_ok in Ea'. injection Ea' as <-. apply bind_ok in E. destruct E as (h & Eh & E).
  unfold pillar_hole in Eh. destruct (Reqb_spec (st_hole_diameter k) 0); [lra|]. destruct (Reqb_spec (st_hole_depth k) 0); [contradiction|]. cbn [orb] in Eh.
  apply bind_ok in Eh. destruct Eh as (c & Ec & Eh). rewrite transform3_ok in Eh. cbn [bind] in Eh. injection Eh as <-.
  destruct (cylinder_sign _ _ _ p Ea) as (A & _). destruct (cylinder_sign _ _ _ p Ecut) as (Cc & _). set (v := V3 0 0 (1/2 * (st_height k - st_hole_depth k))) in *. destruct (cylinder_sign _ _ _ (sub3 p v) Ec) as (_ & B').
  assert (X : sub3 p v = V3 (x3 p) (y3 p) (z3 p - 1/2 * (st_height k - st_hole_depth k))) by (apply v3_ext; cbn; ring). rewrite X in B'. cbn [x3 y3 z3] in B'. unfold in_pillar.
  replace (st_diameter k / 2) with (1/2 * st_diameter k) by field. replace (st_hole_diameter k / 2) with (1/2 * st_hole_diameter k) by field. rewrite <- A.
  rewrite (proj2 (Rleb_true _ _)) in E by lra. injection E as <-. cbn [ev3 diff3_max inter3_max union_eval3 fold_left]. rewrite !Rmax_neg_iff, Rmin_neg_iff, ev_placed3, X, Cc.
  set (e := ev3 c _) in *. assert (Q : hypot (x3 p) (y3 p) <= 1/2 * st_hole_diameter k /\ st_height k / 2 - st_hole_depth k <= z3 p <= st_height k / 2 <-> e <= 0).
  { rewrite B'. rewrite (Rabs_right (st_hole_depth k)) by lra. clear. split; intros (U & V); (split; [exact U|]); revert V; rmm; lra. }
  rewrite Q. clear. lra.
Qed.
Example C64_example : exists s, standoff (StandP 10 6 4 2 3 5 20 1) = Ok s /\ standoff (StandP 10 6 0 2 3 5 20 1) = Panicked /\ standoff (StandP 10 6 4 0 0 0 0 0) = Panicked.
Proof.
  destruct (proj2 (proj1 (C64_defined_partial (StandP 10 6 4 2 3 5 20 1)))) as (s & E); [unfold standoff_ok; cbn; repeat split; intros; lra|].
  exists s. split; [exact E|]. split; apply C64_no_hole_refuted; cbn; lra.
Qed.
