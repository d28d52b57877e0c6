(** C44: the Bounds of arrays and rotated unions are the smallest boxes around the boxes of the copies. *)
From Coq Require Import Reals List Bool Arith ZArith Lia Lra.
From Verif Require Import Prelude Vec BoxModel MatrixModel SdfModel SdfLemmas PropsBox Grades GradesCopy PrimModel PropsPrim.
Import ListNotations.
Local Open Scope R_scope.

(** No copies: nothing is inside, and Bounds is the centre of the shape's Bounds. *)
Theorem C44_none s3 s2 n0 n1 n2 st3 st2 m4 m3 n :
  ((n0 <= 0)%Z \/ (n1 <= 0)%Z \/ (n2 <= 0)%Z -> bb3 (array3d s3 n0 n1 n2 st3) = Box3 (center3 (bb3 s3)) (center3 (bb3 s3)) /\ forall p, 0 < ev3 (array3d s3 n0 n1 n2 st3) p) /\
  ((n0 <= 0)%Z \/ (n1 <= 0)%Z -> bb2 (array2d s2 n0 n1 st2) = Box2 (center2 (bb2 s2)) (center2 (bb2 s2)) /\ forall p, 0 < ev2 (array2d s2 n0 n1 st2) p) /\
  ((n <= 0)%Z -> (exists s, rotate_union3d s3 n m4 = Ok s /\ bb3 s = Box3 (center3 (bb3 s3)) (center3 (bb3 s3)) /\ forall p, 0 < ev3 s p) /\
                 (exists s, rotate_union2d s2 n m3 = Ok s /\ bb2 s = Box2 (center2 (bb2 s2)) (center2 (bb2 s2)) /\ forall p, 0 < ev2 s p) /\
                 bb3 (rotate_copy3d s3 n) = Box3 (center3 (bb3 s3)) (center3 (bb3 s3)) /\ forall p, 0 < ev3 (rotate_copy3d s3 n) p).
Proof.
  pose proof max_float64_pos as M. split; [|split].
  - intros H. unfold array3d, array3d_min. replace ((n0 <=? 0) || (n1 <=? 0) || (n2 <=? 0))%Z with true; [split; [reflexivity|intros; exact M]|]. symmetry. rewrite !orb_true_iff, !Z.leb_le. tauto.
  - intros H. unfold array2d, array2d_min. replace ((n0 <=? 0) || (n1 <=? 0))%Z with true; [split; [reflexivity|intros; exact M]|]. symmetry. rewrite !orb_true_iff, !Z.leb_le. tauto.
  - intros H. unfold rotate_union3d, rotate_union3d_min, rotate_union2d, rotate_union2d_min, rotate_copy3d. rewrite (proj2 (Z.leb_le n 0) H).
    split; [eexists; split; [reflexivity|]; split; [reflexivity|intros; exact M]|]. split; [eexists; split; [reflexivity|]; split; [reflexivity|intros; exact M]|]. split; [reflexivity|intros; exact M].
Qed.

Lemma min_two a d n : (1 <= n)%Z -> exists j, (0 <= j < n)%Z /\ Rmin a (a + d * IZR (n - 1)) = a + IZR j * d.
Proof. intros N. unfold Rmin. destruct (Rle_dec _ _); [exists 0%Z|exists (n - 1)%Z]; split; try lia; lra. Qed.
Lemma max_two a d n : (1 <= n)%Z -> exists j, (0 <= j < n)%Z /\ Rmax a (a + d * IZR (n - 1)) = a + IZR j * d.
Proof. intros N. unfold Rmax. destruct (Rle_dec _ _); [exists (n - 1)%Z|exists 0%Z]; split; try lia; lra. Qed.
(** Every side of the Bounds of an array is a side of the box of one of its copies. *)
Theorem C44_array_box s3 s2 n0 n1 n2 st3 st2 : (1 <= n0)%Z -> (1 <= n1)%Z -> (1 <= n2)%Z ->
  (let b := bb3 (array3d s3 n0 n1 n2 st3) in
   (exists j, (0 <= j < n0)%Z /\ x3 (min3 b) = x3 (min3 (bb3 s3)) + IZR j * x3 st3) /\ (exists j, (0 <= j < n0)%Z /\ x3 (max3 b) = x3 (max3 (bb3 s3)) + IZR j * x3 st3) /\
   (exists j, (0 <= j < n1)%Z /\ y3 (min3 b) = y3 (min3 (bb3 s3)) + IZR j * y3 st3) /\ (exists j, (0 <= j < n1)%Z /\ y3 (max3 b) = y3 (max3 (bb3 s3)) + IZR j * y3 st3) /\
   (exists j, (0 <= j < n2)%Z /\ z3 (min3 b) = z3 (min3 (bb3 s3)) + IZR j * z3 st3) /\ (exists j, (0 <= j < n2)%Z /\ z3 (max3 b) = z3 (max3 (bb3 s3)) + IZR j * z3 st3)) /\
  (let b := bb2 (array2d s2 n0 n1 st2) in
   (exists j, (0 <= j < n0)%Z /\ x2 (min2 b) = x2 (min2 (bb2 s2)) + IZR j * x2 st2) /\ (exists j, (0 <= j < n0)%Z /\ x2 (max2 b) = x2 (max2 (bb2 s2)) + IZR j * x2 st2) /\
   (exists j, (0 <= j < n1)%Z /\ y2 (min2 b) = y2 (min2 (bb2 s2)) + IZR j * y2 st2) /\ (exists j, (0 <= j < n1)%Z /\ y2 (max2 b) = y2 (max2 (bb2 s2)) + IZR j * y2 st2)).
Proof.
  intros N0 N1 N2. unfold array3d, array3d_min, array2d, array2d_min. rewrite !(proj2 (Z.leb_gt _ _)) by lia. cbn [orb bb3 bb2 extend3 extend2 box_translate3 box_translate2 min3 max3 min2 max2 min_elem3 max_elem3 min_elem2 max_elem2 add3 add2 mul_elem3 mul_elem2 sub2 elem2 x3 y3 z3 x2 y2]. cbv zeta.
  cbn [min3 max3 min2 max2 x3 y3 z3 x2 y2]. rewrite <- !minus_IZR.
  repeat split; auto using min_two, max_two.
Qed.

Definition corner3 (b : box3) (v : v3) : Prop := (x3 v = x3 (min3 b) \/ x3 v = x3 (max3 b)) /\ (y3 v = y3 (min3 b) \/ y3 v = y3 (max3 b)) /\ (z3 v = z3 (min3 b) \/ z3 v = z3 (max3 b)).
Definition corner2 (b : box2) (v : v2) : Prop := (x2 v = x2 (min2 b) \/ x2 v = x2 (max2 b)) /\ (y2 v = y2 (min2 b) \/ y2 v = y2 (max2 b)).
(** Every coordinate of [m] is a coordinate of a point with [P]. *)
Definition reach3 (P : v3 -> Prop) (m : v3) : Prop := (exists v, P v /\ x3 v = x3 m) /\ (exists v, P v /\ y3 v = y3 m) /\ (exists v, P v /\ z3 v = z3 m).
Definition reach2 (P : v2 -> Prop) (m : v2) : Prop := (exists v, P v /\ x2 v = x2 m) /\ (exists v, P v /\ y2 v = y2 m).
Lemma reach3_in (P : v3 -> Prop) v : P v -> reach3 P v.
Proof. intros H. repeat split; exists v; auto. Qed.
Lemma reach2_in (P : v2 -> Prop) v : P v -> reach2 P v.
Proof. intros H. repeat split; exists v; auto. Qed.
Lemma reach3_min P a b : reach3 P a -> reach3 P b -> reach3 P (min_elem3 a b).
Proof. intros (A & B & C) (A' & B' & C'). unfold reach3, min_elem3, Rmin. cbn [x3 y3 z3]. repeat split; destruct (Rle_dec _ _); assumption. Qed.
Lemma reach3_max P a b : reach3 P a -> reach3 P b -> reach3 P (max_elem3 a b).
Proof. intros (A & B & C) (A' & B' & C'). unfold reach3, max_elem3, Rmax. cbn [x3 y3 z3]. repeat split; destruct (Rle_dec _ _); assumption. Qed.
Lemma reach2_min P a b : reach2 P a -> reach2 P b -> reach2 P (min_elem2 a b).
Proof. intros (A & B) (A' & B'). unfold reach2, min_elem2, Rmin. cbn [x2 y2]. repeat split; destruct (Rle_dec _ _); assumption. Qed.
Lemma reach2_max P a b : reach2 P a -> reach2 P b -> reach2 P (max_elem2 a b).
Proof. intros (A & B) (A' & B'). unfold reach2, max_elem2, Rmax. cbn [x2 y2]. repeat split; destruct (Rle_dec _ _); assumption. Qed.
Lemma reach_fold {A} (Q : A -> Prop) (f : A -> A -> A) : (forall a b, Q a -> Q b -> Q (f a b)) -> forall l a, Q a -> (forall x, In x l -> Q x) -> Q (fold_left f l a).
Proof. intros F l. induction l as [|x l IH]; intros a A0 H; cbn [fold_left]; [exact A0|]. apply IH; [apply F; [exact A0|apply H; now left]|intros; apply H; now right]. Qed.
Lemma ru_box3_reach step (P : v3 -> Prop) n : forall v mn mx b, (forall i w, (i < n)%nat -> In w v -> P (placed3 step i w)) -> reach3 P mn -> reach3 P mx ->
  ru_box3 n step v mn mx = Ok b -> reach3 P (min3 b) /\ reach3 P (max3 b).
Proof.
  induction n as [|n IH]; cbn [ru_box3]; intros v mn mx b V R1 R2 H; [inversion H; cbn; auto|].
  assert (VP : forall w, In w v -> reach3 P w) by (intros w W; apply reach3_in, (V 0%nat w); [lia|exact W]).
  destruct v as [|x r]; [discriminate|]. cbn [set_min3 set_max3 bind] in H. eapply IH in H; [exact H| | |].
  - intros i w I W. apply in_map_iff in W. destruct W as (u & <- & W). replace (placed3 step i (mul_pos3 step u)) with (placed3 step (S i) u) by (symmetry; unfold placed3; apply (iter_swap (mul_pos3 step))). apply V; [lia|exact W].
  - apply reach3_min; [exact R1|]. apply reach_fold; [apply reach3_min|apply VP; now left|intros; apply VP; now right].
  - apply reach3_max; [exact R2|]. apply reach_fold; [apply reach3_max|apply VP; now left|intros; apply VP; now right].
Qed.
Lemma ru_box2_reach step (P : v2 -> Prop) n : forall v mn mx b, (forall i w, (i < n)%nat -> In w v -> P (placed2 step i w)) -> reach2 P mn -> reach2 P mx ->
  ru_box2 n step v mn mx = Ok b -> reach2 P (min2 b) /\ reach2 P (max2 b).
Proof.
  induction n as [|n IH]; cbn [ru_box2]; intros v mn mx b V R1 R2 H; [inversion H; cbn; auto|].
  assert (VP : forall w, In w v -> reach2 P w) by (intros w W; apply reach2_in, (V 0%nat w); [lia|exact W]).
  destruct v as [|x r]; [discriminate|]. cbn [set_min2 set_max2 bind] in H. eapply IH in H; [exact H| | |].
  - intros i w I W. apply in_map_iff in W. destruct W as (u & <- & W). replace (placed2 step i (mul_pos2 step u)) with (placed2 step (S i) u) by (symmetry; unfold placed2; apply (iter_swap (mul_pos2 step))). apply V; [lia|exact W].
  - assert (reach2 P (fold_left min_elem2 r x)) by (apply reach_fold; [apply reach2_min|apply VP; now left|intros; apply VP; now right]). auto using reach2_min.
  - apply reach2_max; [exact R2|]. apply reach_fold; [apply reach2_max|apply VP; now left|intros; apply VP; now right].
Qed.
(** Every side of the Bounds of a rotated union goes through an image of a corner of the shape's Bounds under fewer
    than n applications of the step. *)
Theorem C44_rotate_union_box s3 s2 n st3 st2 : (1 <= n)%Z ->
  (forall s, rotate_union3d s3 n st3 = Ok s ->
    let P v := exists i c, (Z.of_nat i < n)%Z /\ corner3 (bb3 s3) c /\ v = Nat.iter i (mul_pos3 st3) c in reach3 P (min3 (bb3 s)) /\ reach3 P (max3 (bb3 s))) /\
  (forall s, rotate_union2d s2 n st2 = Ok s ->
    let P v := exists i c, (Z.of_nat i < n)%Z /\ corner2 (bb2 s2) c /\ v = Nat.iter i (mul_pos2 st2) c in reach2 P (min2 (bb2 s)) /\ reach2 P (max2 (bb2 s))).
Proof.
  intros N. split; intros s E P.
  - unfold rotate_union3d, rotate_union3d_min in E. rewrite (proj2 (Z.leb_gt _ _)) in E by lia. cbn [vertices3 bind] in E.
    destruct (ru_box3 _ _ _ _ _) as [b| |] eqn:B; [|discriminate|discriminate]. cbn [bind] in E. injection E as <-. cbn [bb3].
    eapply ru_box3_reach in B; [exact B| | |].
    + intros i w I W. exists i, w. split; [lia|]. split; [|reflexivity]. unfold corner3. cbn [In] in W. repeat destruct W as [<-|W]; try contradiction; cbn [x3 y3 z3]; auto.
    + apply reach3_in. exists 0%nat, (min3 (bb3 s3)). split; [lia|]. split; [unfold corner3; auto|reflexivity].
    + apply reach3_in. exists 0%nat, (min3 (bb3 s3)). split; [lia|]. split; [unfold corner3; auto|reflexivity].
  - unfold rotate_union2d, rotate_union2d_min in E. rewrite (proj2 (Z.leb_gt _ _)) in E by lia. cbn [vertices2 bind] in E.
    destruct (ru_box2 _ _ _ _ _) as [b| |] eqn:B; [|discriminate|discriminate]. cbn [bind] in E. injection E as <-. cbn [bb2].
    eapply ru_box2_reach in B; [exact B| | |].
    + intros i w I W. exists i, w. split; [lia|]. split; [|reflexivity]. unfold corner2. cbn [In] in W. repeat destruct W as [<-|W]; try contradiction; cbn [x2 y2]; auto.
    + apply reach2_in. exists 0%nat, (min2 (bb2 s2)). split; [lia|]. split; [unfold corner2; auto|reflexivity].
    + apply reach2_in. exists 0%nat, (min2 (bb2 s2)). split; [lia|]. split; [unfold corner2; auto|reflexivity].
Qed.
(** Three spheres of radius 1 in a row two apart: Bounds from -1 to 5. *)
Example C44_box_example : exists s, must_sphere 1 = Ok s /\ x3 (min3 (bb3 (array3d s 3 1 1 (V3 2 0 0)))) = -1 /\ x3 (max3 (bb3 (array3d s 3 1 1 (V3 2 0 0)))) = 5.
Proof.
  unfold must_sphere. rewrite (proj2 (Rleb_false 1 0)) by lra. eexists. split; [reflexivity|]. cbn. unfold Rmin, Rmax. split; destruct (Rle_dec _ _); lra.
Qed.
