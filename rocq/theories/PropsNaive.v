(** C113: the twelve tetrahedra of naiveTetras fill the cell, do not overlap and fit those of the neighbours. *)
From Coq Require Import Reals List Bool Arith ZArith Lia Lra.
From Verif Require Import Prelude Vec PropsBcc BccNaiveModel.
Import ListNotations.
Local Open Scope R_scope.

(** Where the node of a label belongs in the cell with lower corner [b] and side [r]. *)
Definition naive_off (l : nat) : v3 :=
  match l with
  | 0 => V3 0 0 0 | 1 => V3 1 0 0 | 2 => V3 1 1 0 | 3 => V3 0 1 0 | 4 => V3 0 0 1 | 5 => V3 1 0 1 | 6 => V3 1 1 1 | 7 => V3 0 1 1
  | _ => V3 (1/2) (1/2) (1/2)
  end%nat.
Definition naive_pos (b : v3) (r : R) (l : nat) : v3 := add3 b (scale3 r (naive_off l)).
(** [p] is a mean of the four corners with the weights [w]. *)
Definition mean4 (t : v3 * v3 * v3 * v3) (w1 w2 w3 w4 : R) (p : v3) : Prop :=
  let '(t1, t2, t3, t4) := t in w1 + w2 + w3 + w4 = 1 /\ p = add3 (scale3 w1 t1) (add3 (scale3 w2 t2) (add3 (scale3 w3 t3) (scale3 w4 t4))).
Definition in_tetra (t : v3 * v3 * v3 * v3) (p : v3) : Prop := exists w1 w2 w3 w4, 0 <= w1 /\ 0 <= w2 /\ 0 <= w3 /\ 0 <= w4 /\ mean4 t w1 w2 w3 w4 p.
Definition inside_tetra (t : v3 * v3 * v3 * v3) (p : v3) : Prop := exists w1 w2 w3 w4, 0 < w1 /\ 0 < w2 /\ 0 < w3 /\ 0 < w4 /\ mean4 t w1 w2 w3 w4 p.

(** All twelve have the volume r^3/12 and the same orientation. *)
Theorem C113_volume b r : length (naive_tetras (naive_pos b r)) = 12%nat /\ Forall (fun t => vol6 t = - (r * r * r / 2)) (naive_tetras (naive_pos b r)).
Proof.
  split; [reflexivity|]. unfold naive_tetras. cbv zeta. repeat constructor; unfold vol6, naive_pos, naive_off, dot3, cross3, sub3, add3, scale3; cbn [x3 y3 z3]; field.
Qed.
(** The weights of a point, from its coordinates relative to the cell. *)
Lemma mean_rel b r l1 l2 l3 l4 w1 w2 w3 w4 x y z : w1 + w2 + w3 + w4 = 1 ->
  x = w1 * x3 (naive_off l1) + w2 * x3 (naive_off l2) + w3 * x3 (naive_off l3) + w4 * x3 (naive_off l4) ->
  y = w1 * y3 (naive_off l1) + w2 * y3 (naive_off l2) + w3 * y3 (naive_off l3) + w4 * y3 (naive_off l4) ->
  z = w1 * z3 (naive_off l1) + w2 * z3 (naive_off l2) + w3 * z3 (naive_off l3) + w4 * z3 (naive_off l4) ->
  mean4 (naive_pos b r l1, naive_pos b r l2, naive_pos b r l3, naive_pos b r l4) w1 w2 w3 w4 (add3 b (scale3 r (V3 x y z))).
Proof.
  intros W -> -> ->. split; [exact W|]. replace w4 with (1 - w1 - w2 - w3) by lra. unfold naive_pos, add3, scale3. cbn [x3 y3 z3]. f_equal; ring.
Qed.
Lemma rel_mean b r l1 l2 l3 l4 w1 w2 w3 w4 x y z : r <> 0 ->
  mean4 (naive_pos b r l1, naive_pos b r l2, naive_pos b r l3, naive_pos b r l4) w1 w2 w3 w4 (add3 b (scale3 r (V3 x y z))) ->
  w4 = 1 - w1 - w2 - w3 /\
  x = w1 * x3 (naive_off l1) + w2 * x3 (naive_off l2) + w3 * x3 (naive_off l3) + w4 * x3 (naive_off l4) /\
  y = w1 * y3 (naive_off l1) + w2 * y3 (naive_off l2) + w3 * y3 (naive_off l3) + w4 * y3 (naive_off l4) /\
  z = w1 * z3 (naive_off l1) + w2 * z3 (naive_off l2) + w3 * z3 (naive_off l3) + w4 * z3 (naive_off l4).
Proof.
  intros R0 (W & E). unfold naive_pos, add3, scale3 in E. cbn [x3 y3 z3] in E. injection E as X Y Z0. assert (W4 : w4 = 1 - w1 - w2 - w3) by lra. subst w4. split; [reflexivity|].
  split; [|split]; apply (Rmult_eq_reg_l r); try exact R0.
  - apply (Rplus_eq_reg_l (x3 b)). rewrite X. ring.
  - apply (Rplus_eq_reg_l (y3 b)). rewrite Y. ring.
  - apply (Rplus_eq_reg_l (z3 b)). rewrite Z0. ring.
Qed.
Lemma rel_point b r p : r <> 0 -> exists x y z, p = add3 b (scale3 r (V3 x y z)).
Proof. intros R0. exists ((x3 p - x3 b) / r), ((y3 p - y3 b) / r), ((z3 p - z3 b) / r). destruct p as [px py pz]. unfold add3, scale3. cbn [x3 y3 z3]. f_equal; field; exact R0. Qed.
Ltac bary := cbn [naive_off x3 y3 z3]; lra.
(** A point is in one of the twelve exactly when it is in the cell. *)
Theorem C113_fill b r p : 0 < r ->
  (x3 b <= x3 p <= x3 b + r /\ y3 b <= y3 p <= y3 b + r /\ z3 b <= z3 p <= z3 b + r) <-> exists t, In t (naive_tetras (naive_pos b r)) /\ in_tetra t p.
Proof.
  intros RP. destruct (rel_point b r p ltac:(lra)) as (x & y & z & ->).
  assert (RNG : (x3 b <= x3 (add3 b (scale3 r (V3 x y z))) <= x3 b + r /\ y3 b <= y3 (add3 b (scale3 r (V3 x y z))) <= y3 b + r /\ z3 b <= z3 (add3 b (scale3 r (V3 x y z))) <= z3 b + r) <-> (0 <= x <= 1 /\ 0 <= y <= 1 /\ 0 <= z <= 1)).
  { unfold add3, scale3. cbn [x3 y3 z3]. assert (K : forall c v, c <= c + r * v <= c + r <-> 0 <= v <= 1). { intros c v. split; intros H; split.
    - apply (Rmult_le_reg_l r); lra. - apply (Rmult_le_reg_l r); lra. - assert (0 <= r * v) by (apply Rmult_le_pos; lra). lra. - assert (r * v <= r * 1) by (apply Rmult_le_compat_l; lra). lra. }
    rewrite !K. tauto. }
  rewrite RNG. clear RNG. split.
  - intros (X & Y & Z0).
    assert (PUT : forall l1 l2 l3 w1 w2 w3 w4, In (naive_pos b r l1, naive_pos b r l2, naive_pos b r l3, naive_pos b r 8) (naive_tetras (naive_pos b r)) -> 0 <= w1 -> 0 <= w2 -> 0 <= w3 -> 0 <= w4 -> w1 + w2 + w3 + w4 = 1 ->
      x = w1 * x3 (naive_off l1) + w2 * x3 (naive_off l2) + w3 * x3 (naive_off l3) + w4 * x3 (naive_off 8) ->
      y = w1 * y3 (naive_off l1) + w2 * y3 (naive_off l2) + w3 * y3 (naive_off l3) + w4 * y3 (naive_off 8) ->
      z = w1 * z3 (naive_off l1) + w2 * z3 (naive_off l2) + w3 * z3 (naive_off l3) + w4 * z3 (naive_off 8) ->
      exists t, In t (naive_tetras (naive_pos b r)) /\ in_tetra t (add3 b (scale3 r (V3 x y z)))).
    { intros. eexists. split; [eassumption|]. exists w1, w2, w3, w4. do 4 (split; [assumption|]). now apply mean_rel. }
    assert (C : (x <= y /\ x <= 1 - y /\ x <= z /\ x <= 1 - z) \/ (1 - x <= y /\ 1 - x <= 1 - y /\ 1 - x <= z /\ 1 - x <= 1 - z) \/
                (y <= x /\ y <= 1 - x /\ y <= z /\ y <= 1 - z) \/ (1 - y <= x /\ 1 - y <= 1 - x /\ 1 - y <= z /\ 1 - y <= 1 - z) \/
                (z <= x /\ z <= 1 - x /\ z <= y /\ z <= 1 - y) \/ (1 - z <= x /\ 1 - z <= 1 - x /\ 1 - z <= y /\ 1 - z <= 1 - y)).
    { destruct (Rle_dec x y), (Rle_dec x z), (Rle_dec y z), (Rle_dec x (1 - y)), (Rle_dec x (1 - z)), (Rle_dec y (1 - z)); lra. }
    destruct C as [C|[C|[C|[C|[C|C]]]]].
    + destruct (Rle_dec z y); [apply (PUT 0%nat 7%nat 3%nat (1 - x - y) (z - x) (y - z) (2 * x))|apply (PUT 0%nat 4%nat 7%nat (1 - x - z) (z - y) (y - x) (2 * x))]; try (cbn [naive_tetras In]; tauto); bary.
    + destruct (Rle_dec z y); [apply (PUT 1%nat 2%nat 6%nat (x - y) (y - z) (z - (1 - x)) (2 * (1 - x)))|apply (PUT 1%nat 6%nat 5%nat (x - z) (y - (1 - x)) (z - y) (2 * (1 - x)))]; try (cbn [naive_tetras In]; tauto); bary.
    + destruct (Rle_dec x z); [apply (PUT 0%nat 5%nat 4%nat (1 - y - z) (x - y) (z - x) (2 * y))|apply (PUT 0%nat 1%nat 5%nat (1 - y - x) (x - z) (z - y) (2 * y))]; try (cbn [naive_tetras In]; tauto); bary.
    + destruct (Rle_dec x z); [apply (PUT 3%nat 7%nat 6%nat (y - z) (z - x) (x - (1 - y)) (2 * (1 - y)))|apply (PUT 3%nat 6%nat 2%nat (y - x) (z - (1 - y)) (x - z) (2 * (1 - y)))]; try (cbn [naive_tetras In]; tauto); bary.
    + destruct (Rle_dec y x); [apply (PUT 0%nat 2%nat 1%nat (1 - z - x) (y - z) (x - y) (2 * z))|apply (PUT 0%nat 3%nat 2%nat (1 - z - y) (y - x) (x - z) (2 * z))]; try (cbn [naive_tetras In]; tauto); bary.
    + destruct (Rle_dec y x); [apply (PUT 4%nat 5%nat 6%nat (z - x) (x - y) (y - (1 - z)) (2 * (1 - z)))|apply (PUT 4%nat 6%nat 7%nat (z - y) (x - (1 - z)) (y - x) (2 * (1 - z)))]; try (cbn [naive_tetras In]; tauto); bary.
  - intros (t & T & w1 & w2 & w3 & w4 & W1 & W2 & W3 & W4 & M). cbn [naive_tetras In] in T.
    repeat destruct T as [<-|T]; try contradiction; apply rel_mean in M; try lra; cbn [naive_off x3 y3 z3] in M; lra.
Qed.
(** No point is inside two of them. *)
Theorem C113_apart b r p i j t u : 0 < r -> nth_error (naive_tetras (naive_pos b r)) i = Some t -> nth_error (naive_tetras (naive_pos b r)) j = Some u ->
  inside_tetra t p -> inside_tetra u p -> i = j.
Proof.
  intros RP T U (w1 & w2 & w3 & w4 & W1 & W2 & W3 & W4 & M) (k1 & k2 & k3 & k4 & K1 & K2 & K3 & K4 & N). destruct (rel_point b r p ltac:(lra)) as (x & y & z & ->).
  cbn [naive_tetras] in T, U.
  do 12 (destruct i as [|i]; [cbn [nth_error] in T; injection T as <-; apply rel_mean in M; [|lra]; cbn [naive_off x3 y3 z3] in M;
    do 12 (destruct j as [|j]; [first [reflexivity | exfalso; cbn [nth_error] in U; injection U as <-; apply rel_mean in N; [|lra]; cbn [naive_off x3 y3 z3] in N; clear RP; lra]|]); destruct j; discriminate|]).
  destruct i; discriminate.
Qed.
Ltac fit PUT D e m1 m2 m3 := apply (PUT e _ _ _ m1 m2 m3); [cbn; tauto|intros f; apply D; cbn; tauto| | |]; cbn [naive_off]; unfold add3; cbn [x3 y3 z3]; f_equal; lra.
(** The side of each of them that lies in a face of the cell is also, with the other orientation, a side of a
    tetrahedron of the neighbour across that face. *)
Theorem C113_fit b r t : In t (naive_tetras (naive_pos b r)) -> let '(p, q, u, _) := t in
  exists e p' q' u' v', In e [V3 1 0 0; V3 (-1) 0 0; V3 0 1 0; V3 0 (-1) 0; V3 0 0 1; V3 0 0 (-1)] /\
    In (p', q', u', v') (naive_tetras (naive_pos (add3 b (scale3 r e)) r)) /\ In (p', q', u') [(p, u, q); (q, p, u); (u, q, p)].
Proof.
  assert (E : forall e l m, naive_off l = add3 e (naive_off m) -> naive_pos (add3 b (scale3 r e)) r m = naive_pos b r l).
  { intros e l m H. unfold naive_pos. rewrite H. unfold add3, scale3. cbn [x3 y3 z3]. f_equal; ring. }
  assert (PUT : forall e l1 l2 l3 m1 m2 m3, In e [V3 1 0 0; V3 (-1) 0 0; V3 0 1 0; V3 0 (-1) 0; V3 0 0 1; V3 0 0 (-1)] ->
    (forall (f : nat -> v3), In (f m1, f m2, f m3, f 8%nat) (naive_tetras f)) ->
    naive_off l1 = add3 e (naive_off m1) -> naive_off l3 = add3 e (naive_off m2) -> naive_off l2 = add3 e (naive_off m3) ->
    exists e p' q' u' v', In e [V3 1 0 0; V3 (-1) 0 0; V3 0 1 0; V3 0 (-1) 0; V3 0 0 1; V3 0 0 (-1)] /\
      In (p', q', u', v') (naive_tetras (naive_pos (add3 b (scale3 r e)) r)) /\ In (p', q', u') [(naive_pos b r l1, naive_pos b r l3, naive_pos b r l2); (naive_pos b r l2, naive_pos b r l1, naive_pos b r l3); (naive_pos b r l3, naive_pos b r l2, naive_pos b r l1)]).
  { intros e l1 l2 l3 m1 m2 m3 He I E1 E2 E3. exists e. do 4 eexists. split; [exact He|]. split; [apply I|]. left. now rewrite (E e l1 m1 E1), (E e l3 m2 E2), (E e l2 m3 E3). }
  assert (D : forall f : nat -> v3, forall i j k, In (i, j, k) [(0,7,3);(0,4,7);(1,2,6);(1,6,5);(0,5,4);(0,1,5);(3,7,6);(3,6,2);(0,2,1);(0,3,2);(4,5,6);(4,6,7)]%nat -> In (f i, f j, f k, f 8%nat) (naive_tetras f)).
  { intros f i j k H. apply (in_map (fun t => let '(a, c, d) := t in (f a, f c, f d, f 8%nat))) in H. exact H. }
  intros T. cbn [naive_tetras] in T.
  destruct T as [<-|T]; [fit PUT D (V3 (-1) 0 0) 1%nat 2%nat 6%nat|].
  destruct T as [<-|T]; [fit PUT D (V3 (-1) 0 0) 1%nat 6%nat 5%nat|].
  destruct T as [<-|T]; [fit PUT D (V3 1 0 0) 0%nat 7%nat 3%nat|].
  destruct T as [<-|T]; [fit PUT D (V3 1 0 0) 0%nat 4%nat 7%nat|].
  destruct T as [<-|T]; [fit PUT D (V3 0 (-1) 0) 3%nat 7%nat 6%nat|].
  destruct T as [<-|T]; [fit PUT D (V3 0 (-1) 0) 3%nat 6%nat 2%nat|].
  destruct T as [<-|T]; [fit PUT D (V3 0 1 0) 0%nat 5%nat 4%nat|].
  destruct T as [<-|T]; [fit PUT D (V3 0 1 0) 0%nat 1%nat 5%nat|].
  destruct T as [<-|T]; [fit PUT D (V3 0 0 (-1)) 4%nat 5%nat 6%nat|].
  destruct T as [<-|T]; [fit PUT D (V3 0 0 (-1)) 4%nat 6%nat 7%nat|].
  destruct T as [<-|T]; [fit PUT D (V3 0 0 1) 0%nat 2%nat 1%nat|].
  destruct T as [<-|T]; [fit PUT D (V3 0 0 1) 0%nat 3%nat 2%nat|].
  contradiction.
Qed.
(** A point inside the first of the tetrahedra of the unit cell. *)
Example C113_example : inside_tetra (nth 0 (naive_tetras (naive_pos zero3 1)) (zero3, zero3, zero3, zero3)) (V3 (1/8) (5/8) (3/8)).
Proof. exists (1/4), (1/4), (1/4), (1/4). do 4 (split; [lra|]). split; [lra|]. unfold naive_pos, naive_off, add3, scale3, zero3. cbn [x3 y3 z3]. f_equal; lra. Qed.
