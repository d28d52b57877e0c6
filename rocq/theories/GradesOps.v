(** The grade of each constructor's result from the grades of its arguments. *)
From Coq Require Import Reals Lra Lia List Bool ZArith.
From Verif Require Import Prelude Vec BoxModel PropsBox MatrixModel PropsMatrix SdfModel PropsBool SdfLemmas Trig Grades.
Import ListNotations.
Local Open Scope R_scope.

(** ** Shapes that are pointwise above one of several shapes *)
Lemma dom3_att g m s' :
  (forall p, ev3 s' p < m -> exists x, dom3 g m x /\ box_le3 (bb3 x) (bb3 s') /\ ev3 x p <= ev3 s' p) -> dom3 g m s'.
Proof.
  intros H p L. destruct (H p L) as (x & D & B & E). eapply G3_mono; [exact B|exact E|]. apply D. lra.
Qed.
Lemma dom2_att g m s' :
  (forall p, ev2 s' p < m -> exists x, dom2 g m x /\ box_le2 (bb2 x) (bb2 s') /\ ev2 x p <= ev2 s' p) -> dom2 g m s'.
Proof.
  intros H p L. destruct (H p L) as (x & D & B & E). eapply G2_mono; [exact B|exact E|]. apply D. lra.
Qed.
Lemma dom3_ge g m s s' : bb3 s' = bb3 s -> (forall p, ev3 s p <= ev3 s' p) -> dom3 g m s -> dom3 g m s'.
Proof. intros E L D. apply dom3_att. intros p _. exists s. rewrite E. auto using box_le3_refl. Qed.
Lemma dom2_ge g m s s' : bb2 s' = bb2 s -> (forall p, ev2 s p <= ev2 s' p) -> dom2 g m s -> dom2 g m s'.
Proof. intros E L D. apply dom2_att. intros p _. exists s. rewrite E. auto using box_le2_refl. Qed.
Definition shift3 (s : sdf3) (c : v3) : sdf3 := S3 (fun p => ev3 s (sub3 p c)) (box_translate3 (bb3 s) c).
Definition shift2 (s : sdf2) (c : v2) : sdf2 := S2 (fun p => ev2 s (sub2 p c)) (box_translate2 (bb2 s) c).
Lemma dom3_shift g m s c : dom3 g m s -> dom3 g m (shift3 s c).
Proof.
  intros D p L. cbn [shift3 ev3 bb3] in *. replace p with (add3 (sub3 p c) c) at 1 by (apply v3_ext; cbn; ring).
  apply G3_translate. now apply D.
Qed.
Lemma dom2_shift g m s c : dom2 g m s -> dom2 g m (shift2 s c).
Proof.
  intros D p L. cbn [shift2 ev2 bb2] in *. replace p with (add2 (sub2 p c) c) at 1 by (apply v2_ext; cbn; ring).
  apply G2_translate. now apply D.
Qed.

(** ** Booleans and cuts *)
Lemma extend3_l a b : box_le3 a (extend3 a b).
Proof. unfold box_le3, extend3; cbn. rmm; lra. Qed.
Lemma extend3_r a b : box_le3 b (extend3 a b).
Proof. unfold box_le3, extend3; cbn. rmm; lra. Qed.
Lemma extend2_l a b : box_le2 a (extend2 a b).
Proof. unfold box_le2, extend2; cbn. rmm; lra. Qed.
Lemma extend2_r a b : box_le2 b (extend2 a b).
Proof. unfold box_le2, extend2; cbn. rmm; lra. Qed.
Lemma union_box3_le b0 ss x : In x ss \/ box_le3 (bb3 x) b0 ->
  box_le3 (bb3 x) (fold_left (fun b x => extend3 b (bb3 x)) ss b0).
Proof.
  revert b0. induction ss as [|s r IH]; cbn; intros b0 H.
  - destruct H as [[]|H]; auto.
  - apply IH. destruct H as [[-> |H]|H]; auto.
    + right. apply extend3_r.
    + right. eapply box_le3_trans; [exact H|apply extend3_l].
Qed.
Lemma union_box2_le b0 ss x : In x ss \/ box_le2 (bb2 x) b0 ->
  box_le2 (bb2 x) (fold_left (fun b x => extend2 b (bb2 x)) ss b0).
Proof.
  revert b0. induction ss as [|s r IH]; cbn; intros b0 H.
  - destruct H as [[]|H]; auto.
  - apply IH. destruct H as [[-> |H]|H]; auto.
    + right. apply extend2_r.
    + right. eapply box_le2_trans; [exact H|apply extend2_l].
Qed.
Lemma dom3_union g m l s : (forall x, In (Some x) l -> dom3 g m x) -> union3d l = Ok s -> dom3 g m s.
Proof.
  intros D U. apply union3d_min_ok in U. destruct U as (a & b & r & -> & ->).
  apply dom3_att. intros p L. destruct (union_is_min (a :: b :: r) p) as ((x & I & E) & _); [discriminate|].
  exists x. split; [apply D; now apply in_map|]. cbn [bb3 ev3] in *. rewrite E. split; [|lra].
  apply (union_box3_le (bb3 a) (a :: b :: r)). auto.
Qed.
(** Union2D evaluates some members only, but at least one. *)
Lemma least_index_lt vs : forall i best bi,
  (best < 0 -> vs = [] -> False) -> (~ best < 0 -> (bi < i)%nat) ->
  (least_index i best bi vs < i + length vs)%nat.
Proof.
  induction vs as [|v r IH]; cbn; intros i best bi H1 H2.
  - destruct (Rlt_dec best 0) as [K|K]; [destruct (H1 K eq_refl)|]. specialize (H2 K). lia.
  - destruct (Rltb best 0 || Rltb (fst v) best) eqn:E.
    + destruct (Nat.eq_dec (length r) 0) as [Z|Z].
      * destruct r; [|discriminate]. cbn. lia.
      * rewrite Nat.add_succ_r. apply IH; [|lia]. intros _ ->. now apply Z.
    + apply orb_false_iff in E. destruct E as (E1 & E2). apply Rltb_false in E1.
      rewrite Nat.add_succ_r. apply IH; [intros; lra|]. intros _. assert (bi < i)%nat by (apply H2; lra). lia.
Qed.
Lemma least_index_range v r : (least_index 0 (-1) 0 (v :: r) < length (v :: r))%nat.
Proof. apply (least_index_lt (v :: r) 0 (-1) 0); [discriminate|intros H; exfalso; apply H; lra]. Qed.
Lemma union2_loop_att p mi vm l : forall i d, (d <> None \/ (i <= mi < i + length l)%nat) ->
  d = Some (union2_loop Rmin p mi vm i l d) \/
  exists s v, In (s, v) l /\ ev2 s p = union2_loop Rmin p mi vm i l d.
Proof.
  induction l as [|(s, v) r IH]; intros i d H; cbn [union2_loop].
  - destruct d; [auto|]. destruct H as [H|H]; [congruence|cbn in H; lia].
  - destruct ((i =? mi)%nat || overlap vm v) eqn:E.
    + set (d' := match d with None => ev2 s p | Some y => Rmin y (ev2 s p) end).
      destruct (IH (S i) (Some d')) as [K|(s' & v' & I & K)]; [left; discriminate| |].
      * injection K as K. rewrite <- K. unfold d'. destruct d as [y|].
        -- unfold Rmin. destruct (Rle_dec y (ev2 s p)); [auto|]. right. exists s, v. cbn. auto.
        -- right. exists s, v. cbn. auto.
      * right. exists s', v'. cbn. auto.
    + apply orb_false_iff in E. destruct E as (E & _). apply Nat.eqb_neq in E.
      destruct (IH (S i) d) as [K|(s' & v' & I & K)]; [destruct H as [H|H]; [auto|cbn in H; right; lia]|auto|].
      right. exists s', v'. cbn. auto.
Qed.
Lemma union_eval2_att a l p : exists x, In x (a :: l) /\ ev2 x p = union_eval2 Rmin (a :: l) p.
Proof.
  unfold union_eval2. set (vs := map (fun s => min_max_dist2_2 (bb2 s) p) (a :: l)).
  set (mi := least_index 0 (-1) 0 vs). set (vm := nth mi vs (0, 0)).
  destruct (union2_loop_att p mi vm (combine (a :: l) vs) 0 None) as [K|(s & v & I & K)].
  - right. rewrite combine_length. unfold vs. rewrite map_length, Nat.min_id.
    pose proof (least_index_range (min_max_dist2_2 (bb2 a) p) (map (fun s => min_max_dist2_2 (bb2 s) p) l)) as R.
    change (least_index 0 (-1) 0 _) with mi in R. cbn [length] in *. rewrite map_length in R. lia.
  - discriminate.
  - exists s. split; [|exact K]. apply in_combine_l in I. exact I.
Qed.
Lemma union2d_ok mn l s : union2d_min mn l = Ok s -> exists a b r,
  l = map Some (a :: b :: r) /\ s = S2 (union_eval2 mn (a :: b :: r)) (union_box2 a (a :: b :: r)).
Proof.
  unfold union2d_min. destruct (Nat.leb_spec (length l) 1) as [L|L]; [discriminate|].
  destruct (all_some l) as [ss|] eqn:E; [|discriminate]. apply all_some_spec in E. subst l.
  rewrite map_length in L. destruct ss as [|a [|b r]]; cbn in L; try lia.
  intros H. inversion H. exists a, b, r. split; reflexivity.
Qed.
Lemma dom2_union g m l s : (forall x, In (Some x) l -> dom2 g m x) -> union2d l = Ok s -> dom2 g m s.
Proof.
  intros D U. apply union2d_ok in U. destruct U as (a & b & r & -> & ->).
  apply dom2_att. intros p L. cbn [ev2 bb2] in *. destruct (union_eval2_att a (b :: r) p) as (x & I & E).
  exists x. split; [apply D; now apply in_map|]. split; [|lra].
  apply (union_box2_le (bb2 a) (a :: b :: r)). auto.
Qed.
Lemma dom3_difference g m s0 s1 s : dom3 g m s0 -> difference3d (Some s0) (Some s1) = Ok s -> dom3 g m s.
Proof. intros D E. inversion E. apply (dom3_ge g m s0); auto. intros p. apply Rmax_l. Qed.
Lemma dom3_intersect g m s0 s1 s : dom3 g m s0 -> intersect3d (Some s0) (Some s1) = Ok s -> dom3 g m s.
Proof. intros D E. inversion E. apply (dom3_ge g m s0); auto. intros p. apply Rmax_l. Qed.
Lemma dom2_difference g m s0 s1 s : dom2 g m s0 -> difference2d (Some s0) (Some s1) = Ok s -> dom2 g m s.
Proof. intros D E. inversion E. apply (dom2_ge g m s0); auto. intros p. apply Rmax_l. Qed.
Lemma dom2_intersect g m s0 s1 s : dom2 g m s0 -> intersect2d (Some s0) (Some s1) = Ok s -> dom2 g m s.
Proof. intros D E. inversion E. apply (dom2_ge g m s0); auto. intros p. apply Rmax_l. Qed.
Lemma dom3_cut g m s a n : dom3 g m s -> dom3 g m (cut3d s a n).
Proof. intros D. apply (dom3_ge g m s); auto. intros p. apply Rmax_r. Qed.
Lemma dom2_cut g m s a n : dom2 g m s -> dom2 g m (cut2d s a n).
Proof. intros D. apply (dom2_ge g m s); auto. intros p. apply Rmax_r. Qed.
Lemma dom3_empty g c m : m <= max_float64 -> dom3 g m (empty3 c).
Proof. intros M p L. cbn in L. lra. Qed.
Lemma dom2_empty g c m : m <= max_float64 -> dom2 g m (empty2 c).
Proof. intros M p L. cbn in L. lra. Qed.

(** ** Elongation *)
Lemma clampR_range x a b : a <= b -> a <= clampR x a b <= b.
Proof. unfold clampR. intros. rmm; lra. Qed.
Lemma dom3_elongate g m s h : dom3 g m s -> dom3 g m (elongate3d s h).
Proof.
  intros D. apply dom3_att. intros p L. eexists (shift3 s _). split; [now apply dom3_shift|]. cbn [elongate3d shift3 ev3 bb3].
  split; [|apply Rle_refl].
  pose proof (Rabs_pos (x3 h)). pose proof (Rabs_pos (y3 h)). pose proof (Rabs_pos (z3 h)).
  pose proof (clampR_range (x3 p) (-1/2 * Rabs (x3 h)) (1/2 * Rabs (x3 h)) ltac:(lra)).
  pose proof (clampR_range (y3 p) (-1/2 * Rabs (y3 h)) (1/2 * Rabs (y3 h)) ltac:(lra)).
  pose proof (clampR_range (z3 p) (-1/2 * Rabs (z3 h)) (1/2 * Rabs (z3 h)) ltac:(lra)).
  assert (M1 : forall a b c, a <= c -> Rmin a b <= c) by (intros; unfold Rmin; destruct (Rle_dec a b); lra).
  assert (M2 : forall a b c, b <= c -> Rmin a b <= c) by (intros; unfold Rmin; destruct (Rle_dec a b); lra).
  assert (M3 : forall a b c, c <= a -> c <= Rmax a b) by (intros; unfold Rmax; destruct (Rle_dec a b); lra).
  unfold box_le3, box_translate3, extend3; cbn [min3 max3 x3 y3 z3 add3 scale3 abs3 clamp3 min_elem3 max_elem3].
  split; (split; [|split]); first [apply M2; lra|apply M3; lra].
Qed.
Lemma dom2_elongate g m s h : dom2 g m s -> dom2 g m (elongate2d s h).
Proof.
  intros D. apply dom2_att. intros p L. eexists (shift2 s _). split; [now apply dom2_shift|]. cbn [elongate2d shift2 ev2 bb2].
  split; [|apply Rle_refl].
  pose proof (clampR_range (x2 p) (1/2 * Rabs (x2 h)) (1/2 * Rabs (x2 h)) ltac:(lra)).
  pose proof (clampR_range (y2 p) (1/2 * Rabs (y2 h)) (1/2 * Rabs (y2 h)) ltac:(lra)).
  assert (M2 : forall a b c, b <= c -> Rmin a b <= c) by (intros; unfold Rmin; destruct (Rle_dec a b); lra).
  assert (M3 : forall a b c, c <= a -> c <= Rmax a b) by (intros; unfold Rmax; destruct (Rle_dec a b); lra).
  unfold box_le2, box_translate2, extend2; cbn [min2 max2 x2 y2 add2 scale2 abs2 clamp2 min_elem2 max_elem2].
  split; split; first [apply M2; lra|apply M3; lra].
Qed.

(** ** Arrays *)
Lemma idx_between j n s : (j < n)%nat -> Rmin 0 (s * IZR (Z.of_nat n - 1)) <= INR j * s <= Rmax 0 (s * IZR (Z.of_nat n - 1)).
Proof.
  intros H. assert (A : 0 <= INR j) by apply pos_INR.
  assert (B : INR j <= IZR (Z.of_nat n - 1)).
  { rewrite INR_IZR_INZ. apply IZR_le. lia. }
  destruct (Rle_or_lt 0 s); rmm; split; nra.
Qed.
Lemma dom3_array g m s n0 n1 n2 step : m <= max_float64 -> dom3 g m s -> dom3 g m (array3d s n0 n1 n2 step).
Proof.
  intros M D. unfold array3d, array3d_min.
  destruct ((n0 <=? 0) || (n1 <=? 0) || (n2 <=? 0))%Z eqn:N; [now apply dom3_empty|].
  assert (P : (0 < n0 /\ 0 < n1 /\ 0 < n2)%Z) by (rewrite !orb_false_iff, !Z.leb_gt in N; tauto).
  apply dom3_att. intros p L. cbn [ev3 bb3] in *. rewrite array3_eval_fold in *.
  set (os := offsets3 _ _ _ _) in *.
  destruct (fold_min_att (fun o => ev3 s (sub3 p o)) os max_float64) as [E|(o & I & E)].
  { rewrite E in L. lra. }
  exists (shift3 s o). split; [now apply dom3_shift|]. split; [|cbn [shift3 ev3]; rewrite E; lra].
  unfold os in I. apply in_offsets3 in I. destruct I as (j & k & l & J & K & Hl & ->).
  pose proof (idx_between j (Z.to_nat n0) (x3 step) J) as B0.
  pose proof (idx_between k (Z.to_nat n1) (y3 step) K) as B1.
  pose proof (idx_between l (Z.to_nat n2) (z3 step) Hl) as B2.
  rewrite Z2Nat.id in B0, B1, B2 by lia.
  assert (F : forall a u v, Rmin 0 u <= v <= Rmax 0 u -> Rmin a (a + u) <= a + v <= Rmax a (a + u)) by (intros; rmm; lra).
  unfold box_le3, shift3, extend3, box_translate3; cbn [min3 max3 bb3 x3 y3 z3 add3 mul_elem3 min_elem3 max_elem3].
  split; (split; [|split]); first [apply (proj1 (F _ _ _ B0))|apply (proj1 (F _ _ _ B1))|apply (proj1 (F _ _ _ B2))
    |apply (proj2 (F _ _ _ B0))|apply (proj2 (F _ _ _ B1))|apply (proj2 (F _ _ _ B2))].
Qed.
Lemma dom2_array g m s n0 n1 step : m <= max_float64 -> dom2 g m s -> dom2 g m (array2d s n0 n1 step).
Proof.
  intros M D. unfold array2d, array2d_min.
  destruct ((n0 <=? 0) || (n1 <=? 0))%Z eqn:N; [now apply dom2_empty|].
  assert (P : (0 < n0 /\ 0 < n1)%Z) by (rewrite !orb_false_iff, !Z.leb_gt in N; tauto).
  apply dom2_att. intros p L. cbn [ev2 bb2] in *. rewrite array2_eval_fold in *.
  set (os := offsets2 _ _ _) in *.
  destruct (fold_min_att (fun o => ev2 s (sub2 p o)) os max_float64) as [E|(o & I & E)].
  { rewrite E in L. lra. }
  exists (shift2 s o). split; [now apply dom2_shift|]. split; [|cbn [shift2 ev2]; rewrite E; lra].
  unfold os in I. apply in_offsets2 in I. destruct I as (j & k & J & K & ->).
  pose proof (idx_between j (Z.to_nat n0) (x2 step) J) as B0.
  pose proof (idx_between k (Z.to_nat n1) (y2 step) K) as B1.
  rewrite Z2Nat.id, minus_IZR in B0, B1 by lia.
  assert (F : forall a u v, Rmin 0 u <= v <= Rmax 0 u -> Rmin a (a + u) <= a + v <= Rmax a (a + u)) by (intros; rmm; lra).
  unfold box_le2, shift2, extend2, box_translate2; cbn [min2 max2 bb2 x2 y2 add2 sub2 elem2 mul_elem2 min_elem2 max_elem2].
  split; split; first [apply (proj1 (F _ _ _ B0))|apply (proj1 (F _ _ _ B1))
    |apply (proj2 (F _ _ _ B0))|apply (proj2 (F _ _ _ B1))].
Qed.

(** ** Offset and shell *)
Lemma new_box_grow3 b d : new_box3 (center3 b) (add3 (size3 b) (elem3 (2 * d))) = grow3 b d.
Proof. unfold new_box3, center3, size3, grow3. f_equal; apply v3_ext; cbn; field. Qed.
Lemma new_box_grow2 b d : new_box2 (center2 b) (add2 (size2 b) (elem2 (2 * d))) = grow2 b d.
Proof. unfold new_box2, center2, size2, grow2. f_equal; apply v2_ext; cbn; field. Qed.
Lemma G3_offset g b p v d : (0 <= d \/ g = Axis) -> g <> Contain -> G3 g b p v -> G3 g (grow3 b d) p (v - d).
Proof.
  intros S N H. destruct g; cbn [G3] in *; [|unfold in3, grow3 in *; cbn in *; lra|congruence].
  apply near_grow3; auto. destruct S; [auto|discriminate].
Qed.
Lemma G2_offset g b p v d : (0 <= d \/ g = Axis) -> g <> Contain -> G2 g b p v -> G2 g (grow2 b d) p (v - d).
Proof.
  intros S N H. destruct g; cbn [G2] in *; [|unfold in2, grow2 in *; cbn in *; lra|congruence].
  apply near_grow2; auto. destruct S; [auto|discriminate].
Qed.
Lemma dom3_offset g m s d : (0 <= d \/ g = Axis) -> g <> Contain -> dom3 g m s -> dom3 g (m - d) (offset3d s d).
Proof.
  intros S N D p L. cbn [offset3d ev3 bb3] in *. rewrite new_box_grow3. apply G3_offset; auto. apply D. lra.
Qed.
Lemma dom2_offset g m s d : (0 <= d \/ g = Axis) -> g <> Contain -> dom2 g m s -> dom2 g (m - d) (offset2d s d).
Proof.
  intros S N D p L. cbn [offset2d ev2 bb2] in *. rewrite new_box_grow2. apply G2_offset; auto. apply D. lra.
Qed.
(** Shrinking a contained shape below its own field: offset by d <= 0 of a Contain
    shape need not be contained; growing neither. *)
Lemma dom3_shell g m s t : g <> Contain -> m - t / 2 <= max_float64 -> 0 < m -> dom3 g m s -> dom3 g (m - t / 2) (shell3d s t).
Proof.
  intros N M M0 D. unfold shell3d. destruct (Rleb t 0) eqn:T; [now apply dom3_empty|]. apply Rleb_false in T.
  intros p L. cbn [ev3 bb3] in *.
  assert (E : enlarge3 (bb3 s) (V3 t t t) = grow3 (bb3 s) (t / 2)).
  { unfold enlarge3, grow3. f_equal; apply v3_ext; cbn; field. }
  rewrite E. replace (1 / 2 * t) with (t / 2) in * by field. apply G3_offset; [left; lra|auto|].
  pose proof (Rle_abs (ev3 s p)).
  eapply (G3_mono g (bb3 s)); [apply box_le3_refl|exact H|]. apply D. lra.
Qed.

(** ** Transforms *)
Lemma ok3_of b p : in3 b p -> ok3 b.
Proof. unfold in3, ok3. lra. Qed.
Lemma ok2_of b p : in2 b p -> ok2 b.
Proof. unfold in2, ok2. lra. Qed.
Lemma mul_box3_in m b p : in3 b p -> in3 (mul_box3 m b) (mul_pos3 m p).
Proof. intros H. apply C37_mulbox3; auto. eapply ok3_of; eauto. Qed.
Lemma mul_box2_in m b p : in2 b p -> in2 (mul_box2 m b) (mul_pos2 m p).
Proof. intros H. apply C37_mulbox2; auto. eapply ok2_of; eauto. Qed.
Lemma near_isometry3 m b p v : affine3 m -> det44 m <> 0 -> isometry3 (mul_pos3 m) ->
  near dist3 (in3 b) p v -> near dist3 (in3 (mul_box3 m b)) (mul_pos3 m p) v.
Proof.
  intros A D I. apply near_move with (finv := mul_pos3 (inverse44 m)).
  - exact I.
  - intros a. now apply inv_pos3.
  - intros q. apply mul_box3_in.
Qed.
Lemma near_isometry2 m b p v : affine2 m -> det33 m <> 0 -> isometry2 (mul_pos2 m) ->
  near dist2 (in2 b) p v -> near dist2 (in2 (mul_box2 m b)) (mul_pos2 m p) v.
Proof.
  intros A D I. apply near_move with (finv := mul_pos2 (inverse33 m)).
  - exact I.
  - intros a. now apply inv_pos2.
  - intros q. apply mul_box2_in.
Qed.
(** Every row of the linear part has absolute sum one: translations, mirrors in
    coordinate planes, swaps of axes, turns by 90 degrees. *)
Definition row1_3 (m : m44) :=
  Rabs (a00 m) + Rabs (a01 m) + Rabs (a02 m) = 1 /\ Rabs (a10 m) + Rabs (a11 m) + Rabs (a12 m) = 1 /\
  Rabs (a20 m) + Rabs (a21 m) + Rabs (a22 m) = 1.
Definition row1_2 (m : m33) :=
  Rabs (b00 m) + Rabs (b01 m) = 1 /\ Rabs (b10 m) + Rabs (b11 m) = 1.
Lemma row_bound k lo hi x v : lo - v <= x <= hi + v ->
  Rmin (lo * k) (hi * k) - Rabs k * v <= k * x <= Rmax (lo * k) (hi * k) + Rabs k * v.
Proof.
  intros H. assert (A : forall a b, Rmin a b <= a /\ Rmin a b <= b /\ a <= Rmax a b /\ b <= Rmax a b).
  { intros; rmm; lra. }
  destruct (A (lo * k) (hi * k)) as (A1 & A2 & A3 & A4). destruct (Rle_or_lt 0 k).
  - rewrite Rabs_right by lra. split; nra.
  - rewrite Rabs_left by lra. split; nra.
Qed.
Lemma axis_row1_3 m b p v : row1_3 m -> in3 (grow3 b v) p -> in3 (grow3 (mul_box3 m b) v) (mul_pos3 m p).
Proof.
  intros (R0 & R1 & R2) ((X & X') & (Y & Y') & (Z & Z')). cbn in X, X', Y, Y', Z, Z'.
  pose proof (fun k => row_bound k (x3 (min3 b)) (x3 (max3 b)) (x3 p) v ltac:(lra)) as BX.
  pose proof (fun k => row_bound k (y3 (min3 b)) (y3 (max3 b)) (y3 p) v ltac:(lra)) as BY.
  pose proof (fun k => row_bound k (z3 (min3 b)) (z3 (max3 b)) (z3 p) v ltac:(lra)) as BZ.
  unfold in3, grow3, mul_box3, mul_pos3; cbn [min3 max3 x3 y3 z3 add3 sub3 elem3 min_elem3 max_elem3 scale3].
  split; [|split].
  - pose proof (BX (a00 m)). pose proof (BY (a01 m)). pose proof (BZ (a02 m)). nra.
  - pose proof (BX (a10 m)). pose proof (BY (a11 m)). pose proof (BZ (a12 m)). nra.
  - pose proof (BX (a20 m)). pose proof (BY (a21 m)). pose proof (BZ (a22 m)). nra.
Qed.
Lemma axis_row1_2 m b p v : row1_2 m -> in2 (grow2 b v) p -> in2 (grow2 (mul_box2 m b) v) (mul_pos2 m p).
Proof.
  intros (R0 & R1) ((X & X') & (Y & Y')). cbn in X, X', Y, Y'.
  pose proof (fun k => row_bound k (x2 (min2 b)) (x2 (max2 b)) (x2 p) v ltac:(lra)) as BX.
  pose proof (fun k => row_bound k (y2 (min2 b)) (y2 (max2 b)) (y2 p) v ltac:(lra)) as BY.
  unfold in2, grow2, mul_box2, mul_pos2; cbn [min2 max2 x2 y2 add2 sub2 elem2 min_elem2 max_elem2 scale2].
  split.
  - pose proof (BX (b00 m)). pose proof (BY (b01 m)). nra.
  - pose proof (BX (b10 m)). pose proof (BY (b11 m)). nra.
Qed.
(** What a grade needs of the matrix. *)
Definition keeps3 (g : grade) (m : m44) :=
  match g with Euclid => isometry3 (mul_pos3 m) | Axis => row1_3 m | Contain => True end.
Definition keeps2 (g : grade) (m : m33) :=
  match g with Euclid => isometry2 (mul_pos2 m) | Axis => row1_2 m | Contain => True end.
Lemma G3_mul g m b p v : affine3 m -> det44 m <> 0 -> keeps3 g m -> G3 g b p v -> G3 g (mul_box3 m b) (mul_pos3 m p) v.
Proof.
  intros A D K H. destruct g; cbn [G3 keeps3] in *.
  - now apply near_isometry3.
  - now apply axis_row1_3.
  - intros N. apply mul_box3_in. auto.
Qed.
Lemma G2_mul g m b p v : affine2 m -> det33 m <> 0 -> keeps2 g m -> G2 g b p v -> G2 g (mul_box2 m b) (mul_pos2 m p) v.
Proof.
  intros A D K H. destruct g; cbn [G2 keeps2] in *.
  - now apply near_isometry2.
  - now apply axis_row1_2.
  - intros N. apply mul_box2_in. auto.
Qed.
Lemma dom3_transform g m s t : affine3 t -> det44 t <> 0 -> keeps3 g t -> dom3 g m s -> dom3 g m (transform3 s t).
Proof.
  intros A D K H p L. rewrite ev_transform3 in *. rewrite <- (proj2 (inv_pos3 t p A D)) at 1.
  apply G3_mul; auto.
Qed.
Lemma dom2_transform g m s t : affine2 t -> det33 t <> 0 -> keeps2 g t -> dom2 g m s -> dom2 g m (transform2d s t).
Proof.
  intros A D K H p L. rewrite ev_transform2 in *. rewrite <- (proj2 (inv_pos2 t p A D)) at 1.
  apply G2_mul; auto.
Qed.
Lemma translate3_keeps g v : affine3 (translate3d v) /\ det44 (translate3d v) <> 0 /\ keeps3 g (translate3d v).
Proof.
  destruct C34_basic_maps as (T & _). destruct (T v zero3) as (_ & A & D). split; [auto|]. split; [lra|].
  destruct g; cbn; auto.
  - intros p q. rewrite !(proj1 (T v _)). unfold dist3. f_equal. apply v3_ext; cbn; ring.
  - unfold row1_3; cbn. rewrite !Rabs_R0, !Rabs_R1. lra.
Qed.
Lemma translate2_keeps g v : affine2 (translate2d v) /\ det33 (translate2d v) <> 0 /\ keeps2 g (translate2d v).
Proof.
  destruct C34_basic_maps as (_ & T & _). destruct (T v zero2) as (_ & A & D). split; [auto|]. split; [lra|].
  destruct g; cbn; auto.
  - intros p q. rewrite !(proj1 (T v _)). unfold dist2. f_equal. apply v2_ext; cbn; ring.
  - unfold row1_2; cbn. rewrite !Rabs_R0, !Rabs_R1. lra.
Qed.
Lemma dom3_translate g m s v : dom3 g m s -> dom3 g m (transform3 s (translate3d v)).
Proof. destruct (translate3_keeps g v) as (A & D & K). now apply dom3_transform. Qed.
Lemma dom2_translate g m s v : dom2 g m s -> dom2 g m (transform2d s (translate2d v)).
Proof. destruct (translate2_keeps g v) as (A & D & K). now apply dom2_transform. Qed.

(** ** Uniform scaling *)
Lemma scale3d_pos k p : mul_pos3 (scale3d (V3 k k k)) p = scale3 k p.
Proof. apply v3_ext; cbn; ring. Qed.
Lemma scale2d_pos k p : mul_pos2 (scale2d (V2 k k)) p = scale2 k p.
Proof. apply v2_ext; cbn; ring. Qed.
Lemma G3_scale g b p v k : 0 < k -> G3 g b p v -> G3 g (mul_box3 (scale3d (V3 k k k)) b) (scale3 k p) (v * k).
Proof.
  intros K H.
  assert (In : forall q, in3 b q -> in3 (mul_box3 (scale3d (V3 k k k)) b) (scale3 k q)).
  { intros q I. rewrite <- scale3d_pos. now apply mul_box3_in. }
  assert (I2 : forall q, scale3 k (scale3 (/ k) q) = q) by (intros; apply v3_ext; cbn; field; lra).
  assert (Ds : forall a c, dist3 (scale3 k a) (scale3 k c) = k * dist3 a c).
  { intros. unfold dist3. replace (sub3 _ _) with (scale3 k (sub3 a c)) by (apply v3_ext; cbn; ring).
    rewrite norm3_scale, Rabs_right; lra. }
  destruct g; cbn [G3] in *.
  - destruct H as (H1 & H2). split; intros W.
    + destruct H1 as (q & Q & E); [nra|]. exists (scale3 k q). split; [auto|]. rewrite Ds. nra.
    + intros q E. rewrite <- (I2 q). apply In, H2; [nra|]. rewrite <- (I2 q), Ds in E. nra.
  - unfold in3, grow3 in *; cbn [mul_box3 min3 max3 x3 y3 z3 add3 sub3 elem3 scale3 scale3d min_elem3 max_elem3
      a00 a01 a02 a03 a10 a11 a12 a13 a20 a21 a22 a23] in *. rewrite !Rmult_0_r.
    assert (L : forall a c, Rmin (a * k) (c * k) <= a * k /\ c * k <= Rmax (a * k) (c * k)) by (intros; rmm; lra).
    pose proof (L (x3 (min3 b)) (x3 (max3 b))). pose proof (L (y3 (min3 b)) (y3 (max3 b))). pose proof (L (z3 (min3 b)) (z3 (max3 b))).
    assert (Z0 : Rmin 0 0 = 0) by (rmm; lra). assert (Z1 : Rmax 0 0 = 0) by (rmm; lra). rewrite Z0, Z1.
    split; [|split]; nra.
  - intros N. apply In. apply H. nra.
Qed.
Lemma G2_scale g b p v k : 0 < k -> G2 g b p v -> G2 g (mul_box2 (scale2d (V2 k k)) b) (scale2 k p) (v * k).
Proof.
  intros K H.
  assert (In : forall q, in2 b q -> in2 (mul_box2 (scale2d (V2 k k)) b) (scale2 k q)).
  { intros q I. rewrite <- scale2d_pos. now apply mul_box2_in. }
  assert (I2 : forall q, scale2 k (scale2 (/ k) q) = q) by (intros; apply v2_ext; cbn; field; lra).
  assert (Ds : forall a c, dist2 (scale2 k a) (scale2 k c) = k * dist2 a c).
  { intros. unfold dist2. replace (sub2 _ _) with (scale2 k (sub2 a c)) by (apply v2_ext; cbn; ring).
    rewrite norm2_scale, Rabs_right; lra. }
  destruct g; cbn [G2] in *.
  - destruct H as (H1 & H2). split; intros W.
    + destruct H1 as (q & Q & E); [nra|]. exists (scale2 k q). split; [auto|]. rewrite Ds. nra.
    + intros q E. rewrite <- (I2 q). apply In, H2; [nra|]. rewrite <- (I2 q), Ds in E. nra.
  - unfold in2, grow2 in *; cbn [mul_box2 min2 max2 x2 y2 add2 sub2 elem2 scale2 scale2d min_elem2 max_elem2
      b00 b01 b02 b10 b11 b12] in *. rewrite !Rmult_0_r.
    assert (L : forall a c, Rmin (a * k) (c * k) <= a * k /\ c * k <= Rmax (a * k) (c * k)) by (intros; rmm; lra).
    pose proof (L (x2 (min2 b)) (x2 (max2 b))). pose proof (L (y2 (min2 b)) (y2 (max2 b))).
    assert (Z0 : Rmin 0 0 = 0) by (rmm; lra). assert (Z1 : Rmax 0 0 = 0) by (rmm; lra). rewrite Z0, Z1.
    split; nra.
  - intros N. apply In. apply H. nra.
Qed.
Lemma dom3_scale g m s k : 0 < k -> dom3 g m s -> dom3 g (m * k) (scale_uniform3d s k).
Proof.
  intros K D p L. cbn [scale_uniform3d ev3 bb3] in *.
  replace p with (scale3 k (scale3 (1 / k) p)) at 1 by (apply v3_ext; cbn; field; lra).
  apply G3_scale; auto. apply D. nra.
Qed.
Lemma dom2_scale g m s k : 0 < k -> dom2 g m s -> dom2 g (m * k) (scale_uniform2d s k).
Proof.
  intros K D p L. cbn [scale_uniform2d ev2 bb2] in *.
  replace p with (scale2 k (scale2 (1 / k) p)) at 1 by (apply v2_ext; cbn; field; lra).
  apply G2_scale; auto. apply D. nra.
Qed.
