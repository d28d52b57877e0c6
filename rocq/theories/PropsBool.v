(** C27, C28, C33, C38: booleans, CSG trees, transforms and uniform scaling as
    operations on point sets. *)
From Coq Require Import Reals Lra Lia List Bool ZArith Permutation.
From Verif Require Import Prelude Vec BoxModel PropsBox MatrixModel PropsMatrix SdfModel.
Import ListNotations.
Local Open Scope R_scope.

(** ** Folded minima *)
Lemma fold_min_le {A} (f : A -> R) l d : 
  fold_left (fun d x => Rmin d (f x)) l d <= d /\
  forall x, In x l -> fold_left (fun d x => Rmin d (f x)) l d <= f x.
Proof.
  revert d. induction l as [|a l IH]; cbn; intros d; [split; [lra|contradiction]|].
  destruct (IH (Rmin d (f a))) as (L & M).
  pose proof (Rmin_l d (f a)). pose proof (Rmin_r d (f a)). split; [lra|].
  intros x [-> |H1]; [lra|]. auto.
Qed.
Lemma fold_min_att {A} (f : A -> R) l d :
  fold_left (fun d x => Rmin d (f x)) l d = d \/
  exists x, In x l /\ fold_left (fun d x => Rmin d (f x)) l d = f x.
Proof.
  revert d. induction l as [|a l IH]; cbn; intros d; [auto|].
  destruct (IH (Rmin d (f a))) as [E|(x & I & E)]; rewrite E.
  - unfold Rmin. destruct (Rle_dec d (f a)); [auto|]. right. exists a. auto.
  - right. exists x. auto.
Qed.
(** The minimum of f over a non-empty list, as a predicate. *)
Definition is_min {A} (f : A -> R) (l : list A) (m : R) :=
  (exists x, In x l /\ m = f x) /\ forall x, In x l -> m <= f x.
Lemma is_min_unique {A} (f : A -> R) l l' m m' :
  (forall x, In x l <-> In x l') -> is_min f l m -> is_min f l' m' -> m = m'.
Proof.
  intros P ((x & I & E) & L) ((y & J & F) & K). apply Rle_antisym.
  - rewrite F. apply L. now apply P.
  - rewrite E. apply K. now apply P.
Qed.
Lemma fold_min_is_min {A} (f : A -> R) a l : is_min f (a :: l) (fold_left (fun d x => Rmin d (f x)) l (f a)).
Proof.
  destruct (fold_min_le f l (f a)) as (L & M). split.
  - destruct (fold_min_att f l (f a)) as [E|(x & I & E)]; [exists a; cbn; auto|exists x; cbn; auto].
  - intros x [<- |I]; auto.
Qed.
Lemma all_some_spec {A} (l : list (option A)) ss : all_some l = Some ss <-> l = map Some ss.
Proof.
  revert ss. induction l as [|a l IH]; intros ss.
  - destruct ss; cbn; split; intros H; congruence.
  - destruct a as [a|]; cbn.
    + destruct (all_some l) as [t|] eqn:E.
      * split.
        -- intros H; inversion H; subst. cbn. f_equal. now apply IH.
        -- destruct ss; cbn; intros H; inversion H; subst. f_equal. f_equal.
           assert (Some t = Some ss) by (now apply IH). congruence.
      * split; [discriminate|]. destruct ss; cbn; intros H; inversion H; subst.
        assert (None = Some ss) by now apply IH. discriminate.
    + split; [discriminate|]. destruct ss; cbn; discriminate.
Qed.
Lemma all_some_none {A} (l : list (option A)) : all_some l = None <-> In None l.
Proof.
  induction l as [|[a|] l IH]; cbn.
  - split; [discriminate|contradiction].
  - destruct (all_some l) eqn:E; split; try discriminate.
    + intros [K|K]; [discriminate|]. apply IH in K. discriminate.
    + intros _. right. now apply IH.
    + reflexivity.
  - split; auto.
Qed.
Lemma map_some_inj {A} (a b : list A) : map Some a = map Some b -> a = b.
Proof.
  revert b. induction a; destruct b; cbn; intros H; inversion H; auto. f_equal. auto.
Qed.

(** ** Union3D *)
Lemma union3d_min_ok mn l s : union3d_min mn l = Ok s -> exists a b r,
  l = map Some (a :: b :: r) /\ s = S3 (union_eval3 mn (a :: b :: r)) (union_box3 a (a :: b :: r)).
Proof.
  unfold union3d_min. destruct (Nat.ltb_spec (length l) 2) as [L|L]; [discriminate|].
  destruct (all_some l) as [ss|] eqn:E; [|discriminate]. apply all_some_spec in E. subst l.
  rewrite map_length in L. destruct ss as [|a [|b r]]; cbn in L; try lia.
  intros H. inversion H. exists a, b, r. split; reflexivity.
Qed.
Lemma union3d_min_some mn a b r : union3d_min mn (map Some (a :: b :: r)) =
  Ok (S3 (union_eval3 mn (a :: b :: r)) (union_box3 a (a :: b :: r))).
Proof.
  unfold union3d_min. cbn [map length Nat.ltb Nat.leb].
  replace (all_some _) with (Some (a :: b :: r)); [reflexivity|]. symmetry. now apply all_some_spec.
Qed.
Lemma union_is_min ss p : ss <> [] -> is_min (fun x => ev3 x p) ss (union_eval3 Rmin ss p).
Proof. destruct ss as [|a l]; [congruence|]. intros _. apply (fold_min_is_min (fun x => ev3 x p)). Qed.

(** The value is the least member value; inside iff inside some member. *)
Theorem C27_union l s : union3d l = Ok s -> exists ss, l = map Some ss /\ (2 <= length ss)%nat /\
  forall p, is_min (fun x => ev3 x p) ss (ev3 s p) /\
            (ev3 s p < 0 <-> exists x, In x ss /\ ev3 x p < 0) /\
            (0 < ev3 s p <-> forall x, In x ss -> 0 < ev3 x p).
Proof.
  intros H. apply union3d_min_ok in H. destruct H as (a & b & r & -> & ->).
  exists (a :: b :: r). split; [reflexivity|]. split; [cbn; lia|]. intros p.
  assert (M : is_min (fun x => ev3 x p) (a :: b :: r) (union_eval3 Rmin (a :: b :: r) p)) by now apply union_is_min.
  cbn [ev3]. split; [exact M|]. destruct M as ((x & I & E) & L). split.
  - split; [intros K; exists x; split; [auto|lra]|]. intros (y & J & K). specialize (L y J). cbn beta in L. lra.
  - split; [intros K y J; specialize (L y J); cbn beta in L; lra|]. intros K. rewrite E. auto.
Qed.
(** Panics exactly on fewer than two operands or a nil operand, and never returns an error. *)
Theorem C27_union_panics l :
  (union3d l = Panicked <-> (length l < 2)%nat \/ In None l) /\ union3d l <> Err.
Proof.
  unfold union3d, union3d_min. destruct (Nat.ltb_spec (length l) 2) as [L|L].
  - split; [tauto|discriminate].
  - destruct (all_some l) as [ss|] eqn:E.
    + assert (N : ~ In None l) by (intros I; apply all_some_none in I; congruence).
      apply all_some_spec in E. subst l. rewrite map_length in L. destruct ss; cbn in L; [lia|].
      split; [|discriminate]. split; [discriminate|]. intros [K|K]; [rewrite map_length in K; cbn in K; lia|tauto].
    + apply all_some_none in E. split; [tauto|discriminate].
Qed.
Theorem C27_union2_panics l :
  (union2d l = Panicked <-> (length l < 2)%nat \/ In None l) /\ union2d l <> Err.
Proof.
  unfold union2d, union2d_min. destruct (Nat.leb_spec (length l) 1) as [L|L].
  - split; [|discriminate]. split; [intros _; left; lia|reflexivity].
  - destruct (all_some l) as [ss|] eqn:E.
    + assert (N : ~ In None l) by (intros I; apply all_some_none in I; congruence).
      apply all_some_spec in E. subst l. rewrite map_length in L. destruct ss; cbn in L; [lia|].
      split; [|discriminate]. split; [discriminate|]. intros [K|K]; [rewrite map_length in K; cbn in K; lia|tauto].
    + apply all_some_none in E. split; [tauto|discriminate].
Qed.
(** Order does not matter, for the field and for the box. *)
Lemma fold_proj_min {A B} (pi : B -> R) (op : B -> A -> B) (f : A -> R) l b :
  (forall b x, pi (op b x) = Rmin (pi b) (f x)) ->
  pi (fold_left op l b) = fold_left (fun d x => Rmin d (f x)) l (pi b).
Proof. intros H. revert b. induction l; cbn; intros b; auto. now rewrite IHl, H. Qed.
Lemma fold_proj_max {A B} (pi : B -> R) (op : B -> A -> B) (f : A -> R) l b :
  (forall b x, pi (op b x) = Rmax (pi b) (f x)) ->
  - pi (fold_left op l b) = fold_left (fun d x => Rmin d (- f x)) l (- pi b).
Proof.
  intros H. revert b. induction l; cbn; intros b; auto. rewrite IHl, H. f_equal.
  rmm; lra.
Qed.
Lemma union_box3_perm a l a' l' : Permutation (a :: l) (a' :: l') ->
  union_box3 a (a :: l) = union_box3 a' (a' :: l').
Proof.
  intros P.
  assert (Q : forall x, In x (a :: a :: l) <-> In x (a' :: a' :: l')).
  { intros x. assert (In x (a :: l) <-> In x (a' :: l')) by (split; [apply Permutation_in; auto|apply Permutation_in; now symmetry]).
    cbn in *. tauto. }
  unfold union_box3.
  assert (M : forall f : sdf3 -> R,
     fold_left (fun d x => Rmin d (f x)) (a :: l) (f a) = fold_left (fun d x => Rmin d (f x)) (a' :: l') (f a')).
  { intros f. eapply is_min_unique; [exact Q| |]; apply (fold_min_is_min f). }
  assert (X : forall pi : box3 -> R, (forall b c, pi (extend3 b c) = Rmin (pi b) (pi c)) ->
    pi (fold_left (fun b x => extend3 b (bb3 x)) (a :: l) (bb3 a)) =
    pi (fold_left (fun b x => extend3 b (bb3 x)) (a' :: l') (bb3 a'))).
  { intros pi H. rewrite !(fold_proj_min pi _ (fun x => pi (bb3 x))) by (intros; apply H). apply (M (fun x => pi (bb3 x))). }
  assert (Y : forall pi : box3 -> R, (forall b c, pi (extend3 b c) = Rmax (pi b) (pi c)) ->
    pi (fold_left (fun b x => extend3 b (bb3 x)) (a :: l) (bb3 a)) =
    pi (fold_left (fun b x => extend3 b (bb3 x)) (a' :: l') (bb3 a'))).
  { intros pi H. match goal with |- ?u = ?v => enough (- u = - v) by lra end. rewrite !(fold_proj_max pi _ (fun x => pi (bb3 x))) by (intros; apply H).
    apply (M (fun x => - pi (bb3 x))). }
  revert X Y.
  generalize (fold_left (fun b x => extend3 b (bb3 x)) (a :: l) (bb3 a)).
  generalize (fold_left (fun b x => extend3 b (bb3 x)) (a' :: l') (bb3 a')). intros B C X Y.
  destruct B as [[b1 b2 b3] [b4 b5 b6]], C as [[c1 c2 c3] [c4 c5 c6]]. f_equal; f_equal.
  - apply (X (fun b => x3 (min3 b))); reflexivity.
  - apply (X (fun b => y3 (min3 b))); reflexivity.
  - apply (X (fun b => z3 (min3 b))); reflexivity.
  - apply (Y (fun b => x3 (max3 b))); reflexivity.
  - apply (Y (fun b => y3 (max3 b))); reflexivity.
  - apply (Y (fun b => z3 (max3 b))); reflexivity.
Qed.
Theorem C27_union_order l l' s s' : Permutation l l' -> union3d l = Ok s -> union3d l' = Ok s' ->
  (forall p, ev3 s p = ev3 s' p) /\ bb3 s = bb3 s'.
Proof.
  intros P H H'. apply union3d_min_ok in H, H'. destruct H as (a & b & r & -> & ->), H' as (a' & b' & r' & -> & ->).
  assert (Q : Permutation (a :: b :: r) (a' :: b' :: r')).
  { apply Permutation_map_inv in P. destruct P as (l3 & E & Q). apply map_some_inj in E. subst l3. now symmetry. }
  split.
  - intros p. cbn [ev3]. eapply is_min_unique with (l := a :: b :: r) (l' := a' :: b' :: r') (f := fun x => ev3 x p).
    + intros x; split; apply Permutation_in; [auto|now symmetry].
    + now apply union_is_min.
    + now apply union_is_min.
  - now apply union_box3_perm.
Qed.

(** ** Difference and intersection *)
Theorem C27_difference a b :
  (difference3d a b = Panicked <-> a = None \/ b = None) /\ difference3d a b <> Err /\
  forall s, difference3d a b = Ok s -> exists s0 s1, a = Some s0 /\ b = Some s1 /\
    forall p, (ev3 s p < 0 <-> ev3 s0 p < 0 /\ 0 < ev3 s1 p) /\
              (0 < ev3 s p <-> 0 < ev3 s0 p \/ ev3 s1 p < 0).
Proof.
  unfold difference3d, difference3d_max. destruct a as [s0|], b as [s1|].
  - split; [split; [discriminate|intros [E|E]; discriminate]|]. split; [discriminate|].
    intros s E. inversion E; subst. exists s0, s1. split; [reflexivity|]. split; [reflexivity|].
    intros p. cbn. unfold Rmax. destruct (Rle_dec _ _); split; split; lra.
  - split; [split; auto|]. split; discriminate.
  - split; [split; auto|]. split; discriminate.
  - split; [split; auto|]. split; discriminate.
Qed.
Theorem C27_intersection a b :
  (intersect3d a b = Panicked <-> a = None \/ b = None) /\ intersect3d a b <> Err /\
  (forall s, intersect3d a b = Ok s -> exists s0 s1, a = Some s0 /\ b = Some s1 /\
    forall p, (ev3 s p < 0 <-> ev3 s0 p < 0 /\ ev3 s1 p < 0) /\
              (0 < ev3 s p <-> 0 < ev3 s0 p \/ 0 < ev3 s1 p)) /\
  (forall s s', intersect3d a b = Ok s -> intersect3d b a = Ok s' -> forall p, ev3 s p = ev3 s' p).
Proof.
  unfold intersect3d, intersect3d_max. destruct a as [s0|], b as [s1|].
  - split; [split; [discriminate|intros [E|E]; discriminate]|]. split; [discriminate|]. split.
    + intros s E. inversion E; subst. exists s0, s1. split; [reflexivity|]. split; [reflexivity|].
      intros p. cbn. unfold Rmax. destruct (Rle_dec _ _); split; split; lra.
    + intros s s' E E' p. inversion E; inversion E'; subst. cbn. apply Rmax_comm.
  - split; [split; auto|]. split; [discriminate|]. split; discriminate.
  - split; [split; auto|]. split; [discriminate|]. split; discriminate.
  - split; [split; auto|]. split; [discriminate|]. split; discriminate.
Qed.
Theorem C27_difference2 a b :
  (difference2d a b = Panicked <-> a = None \/ b = None) /\ difference2d a b <> Err /\
  forall s, difference2d a b = Ok s -> exists s0 s1, a = Some s0 /\ b = Some s1 /\
    forall p, (ev2 s p < 0 <-> ev2 s0 p < 0 /\ 0 < ev2 s1 p) /\
              (0 < ev2 s p <-> 0 < ev2 s0 p \/ ev2 s1 p < 0).
Proof.
  unfold difference2d, difference2d_max. destruct a as [s0|], b as [s1|].
  - split; [split; [discriminate|intros [E|E]; discriminate]|]. split; [discriminate|].
    intros s E. inversion E; subst. exists s0, s1. split; [reflexivity|]. split; [reflexivity|].
    intros p. cbn. unfold Rmax. destruct (Rle_dec _ _); split; split; lra.
  - split; [split; auto|]. split; discriminate.
  - split; [split; auto|]. split; discriminate.
  - split; [split; auto|]. split; discriminate.
Qed.
Theorem C27_intersection2 a b :
  (intersect2d a b = Panicked <-> a = None \/ b = None) /\ intersect2d a b <> Err /\
  (forall s, intersect2d a b = Ok s -> exists s0 s1, a = Some s0 /\ b = Some s1 /\
    forall p, (ev2 s p < 0 <-> ev2 s0 p < 0 /\ ev2 s1 p < 0) /\
              (0 < ev2 s p <-> 0 < ev2 s0 p \/ 0 < ev2 s1 p)) /\
  (forall s s', intersect2d a b = Ok s -> intersect2d b a = Ok s' -> forall p, ev2 s p = ev2 s' p).
Proof.
  unfold intersect2d, intersect2d_max. destruct a as [s0|], b as [s1|].
  - split; [split; [discriminate|intros [E|E]; discriminate]|]. split; [discriminate|]. split.
    + intros s E. inversion E; subst. exists s0, s1. split; [reflexivity|]. split; [reflexivity|].
      intros p. cbn. unfold Rmax. destruct (Rle_dec _ _); split; split; lra.
    + intros s s' E E' p. inversion E; inversion E'; subst. cbn. apply Rmax_comm.
  - split; [split; auto|]. split; [discriminate|]. split; discriminate.
  - split; [split; auto|]. split; [discriminate|]. split; discriminate.
  - split; [split; auto|]. split; [discriminate|]. split; discriminate.
Qed.
(** Two slabs and their boolean combinations. *)
Example C27_example :
  let slab c := S3 (fun p => Rabs (x3 p - c) - 1) (Box3 (V3 (c - 1) 0 0) (V3 (c + 1) 1 1)) in
  (exists s, union3d [Some (slab 0); Some (slab 1)] = Ok s /\ ev3 s (V3 (3/2) 0 0) < 0) /\
  (exists s, difference3d (Some (slab 0)) (Some (slab 1)) = Ok s /\ ev3 s (V3 (-1/2) 0 0) < 0 /\ 0 < ev3 s (V3 (1/2) 0 0)) /\
  union3d [Some (slab 0); None] = Panicked /\ union3d [Some (slab 0)] = Panicked.
Proof.
  intros slab. split.
  { eexists. split; [apply (union3d_min_some Rmin (slab 0) (slab 1) [])|].
    cbn. rmm; lra. }
  split.
  { eexists. split; [reflexivity|]. cbn. split; rmm; lra. }
  split; reflexivity.
Qed.

(** ** C33 *)
Local Opaque inverse44 inverse33 mul44 mul33 det44 det33 mul_pos3 mul_pos2.
Section inv_m44.
Context (mul : m44 -> m44 -> m44) (one : m44) (inv : m44 -> m44) (det : m44 -> R).
Context (assoc : forall a b c, mul a (mul b c) = mul (mul a b) c)
  (unit_r : forall a, mul a one = a) (unit_l : forall a, mul one a = a)
  (inv_r : forall a, det a <> 0 -> mul a (inv a) = one) (inv_l : forall a, det a <> 0 -> mul (inv a) a = one)
  (det_mul : forall a b, det (mul a b) = det a * det b) (det_one : det one = 1).
Lemma m44_inv_unique a b : det a <> 0 -> mul a b = one -> inv a = b.
Proof.
  intros D E. rewrite <- (unit_r (inv a)). rewrite <- E. rewrite assoc. rewrite (inv_l a D). apply unit_l.
Qed.
Lemma m44_inv_det a : det a <> 0 -> det (inv a) <> 0.
Proof. intros D Z. pose proof (det_mul a (inv a)) as K. rewrite (inv_r a D), det_one, Z in K. lra. Qed.
Lemma m44_inv_inv a : det a <> 0 -> inv (inv a) = a.
Proof. intros D. apply m44_inv_unique; [now apply m44_inv_det|now apply inv_l]. Qed.
Lemma m44_inv_mul a b : det a <> 0 -> det b <> 0 -> inv (mul a b) = mul (inv b) (inv a).
Proof.
  intros D D'. apply m44_inv_unique.
  - rewrite det_mul. intros K; apply Rmult_integral in K; tauto.
  - rewrite <- (assoc a b). rewrite (assoc b (inv b)). rewrite (inv_r b D'). rewrite unit_l. now apply inv_r.
Qed.
End inv_m44.
Section inv_m33.
Context (mul : m33 -> m33 -> m33) (one : m33) (inv : m33 -> m33) (det : m33 -> R).
Context (assoc : forall a b c, mul a (mul b c) = mul (mul a b) c)
  (unit_r : forall a, mul a one = a) (unit_l : forall a, mul one a = a)
  (inv_r : forall a, det a <> 0 -> mul a (inv a) = one) (inv_l : forall a, det a <> 0 -> mul (inv a) a = one)
  (det_mul : forall a b, det (mul a b) = det a * det b) (det_one : det one = 1).
Lemma m33_inv_unique a b : det a <> 0 -> mul a b = one -> inv a = b.
Proof.
  intros D E. rewrite <- (unit_r (inv a)). rewrite <- E. rewrite assoc. rewrite (inv_l a D). apply unit_l.
Qed.
Lemma m33_inv_det a : det a <> 0 -> det (inv a) <> 0.
Proof. intros D Z. pose proof (det_mul a (inv a)) as K. rewrite (inv_r a D), det_one, Z in K. lra. Qed.
Lemma m33_inv_inv a : det a <> 0 -> inv (inv a) = a.
Proof. intros D. apply m33_inv_unique; [now apply m33_inv_det|now apply inv_l]. Qed.
Lemma m33_inv_mul a b : det a <> 0 -> det b <> 0 -> inv (mul a b) = mul (inv b) (inv a).
Proof.
  intros D D'. apply m33_inv_unique.
  - rewrite det_mul. intros K; apply Rmult_integral in K; tauto.
  - rewrite <- (assoc a b). rewrite (assoc b (inv b)). rewrite (inv_r b D'). rewrite unit_l. now apply inv_r.
Qed.
End inv_m33.
Lemma inverse44_inverse m : det44 m <> 0 -> inverse44 (inverse44 m) = m.
Proof.
  destruct C34_monoid as (A & U & _). destruct C34_determinant as (M & _ & _ & O & _).
  apply (m44_inv_inv mul44 identity3d inverse44 det44 A (fun a => proj1 (U a)) (fun a => proj2 (U a))
    (fun a D => proj1 (C34_inverse44 a D)) (fun a D => proj2 (C34_inverse44 a D)) M O).
Qed.
Lemma inverse44_mul a b : det44 a <> 0 -> det44 b <> 0 ->
  inverse44 (mul44 a b) = mul44 (inverse44 b) (inverse44 a).
Proof.
  destruct C34_monoid as (A & U & _). destruct C34_determinant as (M & _ & _ & O & _).
  apply (m44_inv_mul mul44 identity3d inverse44 det44 A (fun a => proj1 (U a)) (fun a => proj2 (U a))
    (fun a D => proj1 (C34_inverse44 a D)) (fun a D => proj2 (C34_inverse44 a D)) M).
Qed.
Lemma inverse33_inverse m : det33 m <> 0 -> inverse33 (inverse33 m) = m.
Proof.
  destruct C34_monoid as (_ & _ & A & U & _). destruct C34_determinant as (_ & M & _ & _ & O & _).
  apply (m33_inv_inv mul33 identity2d inverse33 det33 A (fun a => proj1 (U a)) (fun a => proj2 (U a))
    (fun a D => proj1 (C34_inverse33 a D)) (fun a D => proj2 (C34_inverse33 a D)) M O).
Qed.
Lemma inverse33_mul a b : det33 a <> 0 -> det33 b <> 0 ->
  inverse33 (mul33 a b) = mul33 (inverse33 b) (inverse33 a).
Proof.
  destruct C34_monoid as (_ & _ & A & U & _). destruct C34_determinant as (_ & M & _ & _ & O & _).
  apply (m33_inv_mul mul33 identity2d inverse33 det33 A (fun a => proj1 (U a)) (fun a => proj2 (U a))
    (fun a D => proj1 (C34_inverse33 a D)) (fun a D => proj2 (C34_inverse33 a D)) M).
Qed.
Lemma inv_pos3 m p : affine3 m -> det44 m <> 0 ->
  mul_pos3 (inverse44 m) (mul_pos3 m p) = p /\ mul_pos3 m (mul_pos3 (inverse44 m) p) = p.
Proof.
  intros A D. destruct C34_composition as (C & _ & _ & I & _).
  pose proof (affine3_inverse m A D) as Ai. destruct (C34_inverse44 m D) as (R1 & L1).
  split.
  - rewrite <- (C (inverse44 m) m p A). rewrite L1. apply I.
  - rewrite <- (C m (inverse44 m) p Ai). rewrite R1. apply I.
Qed.
Lemma inv_pos2 m p : affine2 m -> det33 m <> 0 ->
  mul_pos2 (inverse33 m) (mul_pos2 m p) = p /\ mul_pos2 m (mul_pos2 (inverse33 m) p) = p.
Proof.
  intros A D. destruct C34_composition as (_ & C & _ & _ & I & _).
  pose proof (affine2_inverse m A D) as Ai. destruct (C34_inverse33 m D) as (R1 & L1).
  split.
  - rewrite <- (C (inverse33 m) m p A). rewrite L1. apply I.
  - rewrite <- (C m (inverse33 m) p Ai). rewrite R1. apply I.
Qed.
Lemma ev_transform3 s m p : ev3 (transform3 s m) p = ev3 s (mul_pos3 (inverse44 m) p).
Proof. reflexivity. Qed.
Lemma ev_transform2 s m p : ev2 (transform2d s m) p = ev2 s (mul_pos2 (inverse33 m) p).
Proof. reflexivity. Qed.
Theorem C33_transform3 s m : affine3 m -> det44 m <> 0 ->
  (forall p, ev3 (transform3 s m) (mul_pos3 m p) = ev3 s p) /\
  (forall q, exists p, q = mul_pos3 m p) /\
  (forall p, ev3 (transform3 (transform3 s m) (inverse44 m)) p = ev3 s p) /\
  (forall m', affine3 m' -> det44 m' <> 0 ->
     forall p, ev3 (transform3 s (mul44 m' m)) p = ev3 (transform3 (transform3 s m) m') p).
Proof.
  intros A D.
  split. { intros p. rewrite ev_transform3. f_equal. now apply inv_pos3. }
  split. { intros q. exists (mul_pos3 (inverse44 m) q). symmetry. now apply inv_pos3. }
  split.
  { intros p. rewrite !ev_transform3. rewrite (inverse44_inverse m D). f_equal. now apply inv_pos3. }
  intros m' A' D' p. rewrite !ev_transform3. f_equal. rewrite (inverse44_mul m' m D' D).
  destruct C34_composition as (C & _). apply C. now apply affine3_inverse.
Qed.
Theorem C33_transform2 s m : affine2 m -> det33 m <> 0 ->
  (forall p, ev2 (transform2d s m) (mul_pos2 m p) = ev2 s p) /\
  (forall q, exists p, q = mul_pos2 m p) /\
  (forall p, ev2 (transform2d (transform2d s m) (inverse33 m)) p = ev2 s p) /\
  (forall m', affine2 m' -> det33 m' <> 0 ->
     forall p, ev2 (transform2d s (mul33 m' m)) p = ev2 (transform2d (transform2d s m) m') p).
Proof.
  intros A D.
  split. { intros p. rewrite ev_transform2. f_equal. now apply inv_pos2. }
  split. { intros q. exists (mul_pos2 (inverse33 m) q). symmetry. now apply inv_pos2. }
  split.
  { intros p. rewrite !ev_transform2. rewrite (inverse33_inverse m D). f_equal. now apply inv_pos2. }
  intros m' A' D' p. rewrite !ev_transform2. f_equal. rewrite (inverse33_mul m' m D' D).
  destruct C34_composition as (_ & C & _). apply C. now apply affine2_inverse.
Qed.
(** Transform3D panics exactly on nil. *)
Theorem C33_nil sdf m : (transform3d sdf m = Panicked <-> sdf = None) /\ transform3d sdf m <> Err.
Proof. destruct sdf; cbn; split; try split; congruence. Qed.
Local Transparent inverse44 inverse33 mul44 mul33 det44 det33 mul_pos3 mul_pos2.
Example C33_example :
  let m := mul44 (translate3d (V3 1 2 3)) (scale3d (V3 2 2 2)) in
  affine3 m /\ det44 m = 8 /\ mul_pos3 m (V3 1 0 0) = V3 3 2 3 /\
  forall s, ev3 (transform3 s m) (V3 3 2 3) = ev3 s (V3 1 0 0).
Proof.
  intros m. assert (A : affine3 m) by (unfold affine3; cbn; repeat split; ring).
  assert (D : det44 m = 8) by (unfold m, det44; cbn; ring).
  assert (E : mul_pos3 m (V3 1 0 0) = V3 3 2 3) by (apply v3_ext; cbn; ring).
  split; [exact A|]. split; [exact D|]. split; [exact E|].
  intros s. rewrite <- E. apply C33_transform3; [exact A|lra].
Qed.

(** ** C38 *)
Theorem C38_scale_uniform_partial k : 0 < k ->
  (forall s p, ev3 (scale_uniform3d s k) (scale3 k p) = k * ev3 s p) /\
  (forall s p, ev2 (scale_uniform2d s k) (scale2 k p) = k * ev2 s p) /\
  (forall s p, ev3 (scale_uniform3d s k) p < 0 <-> ev3 s (scale3 (1 / k) p) < 0) /\
  (forall s p, ev2 (scale_uniform2d s k) p < 0 <-> ev2 s (scale2 (1 / k) p) < 0).
Proof.
  intros H. split.
  { intros s p. cbn. replace (scale3 (1 / k) (scale3 k p)) with p; [ring|]. apply v3_ext; cbn; field; lra. }
  split.
  { intros s p. cbn. replace (scale2 (1 / k) (scale2 k p)) with p; [ring|]. apply v2_ext; cbn; field; lra. }
  split; intros s p; cbn; split; nra.
Qed.
(** For negative k the solid is turned inside out instead of mirrored: with k = -1 a
    bounded slab becomes its complement. *)
Theorem C38_negative_refuted :
  exists s k p, k < 0 /\ ev3 s p < 0 /\ 0 < ev3 (scale_uniform3d s k) (scale3 k p) /\
    exists q, ev3 (scale_uniform3d s k) q < 0 /\ ~ in3 (bb3 (scale_uniform3d s k)) q.
Proof.
  set (s := S3 (fun p => norm3 p - 1) (Box3 (V3 (-1) (-1) (-1)) (V3 1 1 1))).
  assert (N0 : norm3 zero3 = 0) by now apply norm3_zero_iff.
  exists s, (-1), zero3. split; [lra|]. split; [cbn; rewrite N0; lra|].
  assert (E : scale3 (-1) zero3 = zero3) by (apply v3_ext; cbn; ring).
  assert (F : scale3 (1 / -1) zero3 = zero3) by (apply v3_ext; cbn; ring).
  rewrite E. split; [cbn; rewrite F, N0; lra|].
  exists (V3 2 0 0). split.
  - cbn. unfold norm3, norm3sq, dot3; cbn.
    replace (1 / -1 * 2 * (1 / -1 * 2) + 1 / -1 * 0 * (1 / -1 * 0) + 1 / -1 * 0 * (1 / -1 * 0)) with (2 * 2) by field.
    rewrite sqrt_square; lra.
  - intros ((_ & B) & _). cbn in B. revert B. rmm; lra.
Qed.
Example C38_example : exists s : sdf3, 0 < 2 /\ ev3 (scale_uniform3d s 2) (V3 2 4 6) = 2 * ev3 s (V3 1 2 3) /\
  ev3 s (V3 1 2 3) <> 0.
Proof.
  exists (S3 (fun p => x3 p + y3 p) (Box3 zero3 zero3)). split; [lra|]. cbn. split; lra.
Qed.
