(** Lemmas about the loops of array and rotate-union shapes. *)
From Coq Require Import Reals Lra Lia List Bool ZArith.
From Verif Require Import Prelude Vec BoxModel PropsBox MatrixModel PropsMatrix SdfModel PropsBool.
Import ListNotations.
Local Open Scope R_scope.

Lemma max_float64_pos : 0 < max_float64.
Proof.
  unfold max_float64. apply Rmult_lt_0_compat; [|apply pow_lt; lra].
  assert (0 < / 2 ^ 52 <= 1); [|lra]. split; [apply Rinv_0_lt_compat, pow_lt; lra|].
  rewrite <- Rinv_1. apply Rinv_le_contravar; [lra|]. apply pow_R1_Rle; lra.
Qed.
Global Opaque max_float64.
Lemma fold_left_flat_map {A B C} (f : C -> B -> C) (g : A -> list B) l d :
  fold_left f (flat_map g l) d = fold_left (fun d a => fold_left f (g a) d) l d.
Proof. revert d. induction l; cbn; intros d; auto. rewrite fold_left_app. apply IHl. Qed.
Lemma fold_left_ext_in {A C} (f g : C -> A -> C) l d :
  (forall d x, f d x = g d x) -> fold_left f l d = fold_left g l d.
Proof. intros H. revert d. induction l; cbn; intros d; auto. rewrite H. auto. Qed.
Lemma fold_left_map {A B C} (f : C -> B -> C) (g : A -> B) l d :
  fold_left f (map g l) d = fold_left (fun d a => f d (g a)) l d.
Proof. revert d. induction l; cbn; intros d; auto. Qed.

(** ** Array *)
Definition offsets3 (n0 n1 n2 : nat) (step : v3) : list v3 :=
  flat_map (fun j => flat_map (fun k => map (fun l => V3 (INR j * x3 step) (INR k * y3 step) (INR l * z3 step))
    (seq 0 n2)) (seq 0 n1)) (seq 0 n0).
Lemma in_offsets3 n0 n1 n2 step o : In o (offsets3 n0 n1 n2 step) <->
  exists j k l, (j < n0)%nat /\ (k < n1)%nat /\ (l < n2)%nat /\
    o = V3 (INR j * x3 step) (INR k * y3 step) (INR l * z3 step).
Proof.
  unfold offsets3. rewrite in_flat_map. split.
  - intros (j & J & H). apply in_flat_map in H. destruct H as (k & K & H).
    apply in_map_iff in H. destruct H as (l & E & L). apply in_seq in J, K, L.
    exists j, k, l. split; [lia|]. split; [lia|]. split; [lia|]. auto.
  - intros (j & k & l & J & K & L & E). exists j. split; [apply in_seq; lia|].
    apply in_flat_map. exists k. split; [apply in_seq; lia|]. apply in_map_iff. exists l.
    split; [auto|apply in_seq; lia].
Qed.
Lemma array3_eval_fold mn s n0 n1 n2 step p :
  array3_eval mn s n0 n1 n2 step p =
  fold_left (fun d o => mn d (ev3 s (sub3 p o))) (offsets3 n0 n1 n2 step) max_float64.
Proof.
  unfold array3_eval, offsets3. rewrite fold_left_flat_map. apply fold_left_ext_in. intros d j.
  rewrite fold_left_flat_map. apply fold_left_ext_in. intros d' k. now rewrite fold_left_map.
Qed.
Definition offsets2 (n0 n1 : nat) (step : v2) : list v2 :=
  flat_map (fun j => map (fun k => V2 (INR j * x2 step) (INR k * y2 step)) (seq 0 n1)) (seq 0 n0).
Lemma in_offsets2 n0 n1 step o : In o (offsets2 n0 n1 step) <->
  exists j k, (j < n0)%nat /\ (k < n1)%nat /\ o = V2 (INR j * x2 step) (INR k * y2 step).
Proof.
  unfold offsets2. rewrite in_flat_map. split.
  - intros (j & J & H). apply in_map_iff in H. destruct H as (l & E & L). apply in_seq in J, L.
    exists j, l. split; [lia|]. split; [lia|]. auto.
  - intros (j & k & J & K & E). exists j. split; [apply in_seq; lia|].
    apply in_map_iff. exists k. split; [auto|apply in_seq; lia].
Qed.
Lemma array2_eval_fold mn s n0 n1 step p :
  array2_eval mn s n0 n1 step p =
  fold_left (fun d o => mn d (ev2 s (sub2 p o))) (offsets2 n0 n1 step) max_float64.
Proof.
  unfold array2_eval, offsets2. rewrite fold_left_flat_map. apply fold_left_ext_in. intros d j.
  now rewrite fold_left_map.
Qed.
(** A fold of minima that starts at MaxFloat64. *)
Lemma fold_max_sign {A} (f : A -> R) l :
  let d := fold_left (fun d x => Rmin d (f x)) l max_float64 in
  (d < 0 <-> exists x, In x l /\ f x < 0) /\ (0 < d <-> forall x, In x l -> 0 < f x).
Proof.
  intros d. pose proof max_float64_pos as M.
  destruct (fold_min_le f l max_float64) as (L & K). fold d in L, K.
  destruct (fold_min_att f l max_float64) as [E|(x & I & E)]; fold d in E.
  - split; split.
    + lra.
    + intros (x & I & F). specialize (K x I). lra.
    + intros H x I. specialize (K x I). lra.
    + lra.
  - split; split.
    + intros H. exists x. split; [auto|lra].
    + intros (y & J & F). specialize (K y J). lra.
    + intros H y J. specialize (K y J). lra.
    + intros H. rewrite E. auto.
Qed.

(** ** Rotate-union *)
(** The i-th placement of the copies: i applications of the step. *)
Definition placed3 (step : m44) (i : nat) (q : v3) : v3 := Nat.iter i (mul_pos3 step) q.
Definition placed2 (step : m33) (i : nat) (q : v2) : v2 := Nat.iter i (mul_pos2 step) q.
Local Opaque inverse44 inverse33 mul44 mul33 det44 det33 mul_pos3 mul_pos2.
Lemma ru_eval3_fold mn s n step rot p d : affine3 step -> 
  ru_eval3 mn s n step rot p d =
  fold_left (fun d i => mn d (ev3 s (mul_pos3 rot (placed3 step i p)))) (seq 0 n) d.
Proof.
  intros A. revert rot d. induction n; cbn [ru_eval3 seq fold_left]; intros rot d; [reflexivity|].
  rewrite IHn. rewrite <- seq_shift. rewrite fold_left_map. cbn [placed3 Nat.iter].
  apply fold_left_ext_in. intros e i. f_equal. f_equal.
  destruct C34_composition as (C & _). rewrite (C rot step _ A). reflexivity.
Qed.
Lemma ru_eval2_fold mn s n step rot p d : affine2 step -> 
  ru_eval2 mn s n step rot p d =
  fold_left (fun d i => mn d (ev2 s (mul_pos2 rot (placed2 step i p)))) (seq 0 n) d.
Proof.
  intros A. revert rot d. induction n; cbn [ru_eval2 seq fold_left]; intros rot d; [reflexivity|].
  rewrite IHn. rewrite <- seq_shift. rewrite fold_left_map. cbn [placed2 Nat.iter].
  apply fold_left_ext_in. intros e i. f_equal. f_equal.
  destruct C34_composition as (_ & C & _). rewrite (C rot step _ A). reflexivity.
Qed.
Lemma iter_S {A} (f : A -> A) n x : Nat.iter (S n) f x = f (Nat.iter n f x).
Proof. reflexivity. Qed.
Lemma iter_swap {A} (f : A -> A) n x : Nat.iter n f (f x) = f (Nat.iter n f x).
Proof. induction n; [reflexivity|]. rewrite !iter_S. now rewrite IHn. Qed.
Lemma iter_inv {A} (f g : A -> A) n x : (forall x, g (f x) = x) -> Nat.iter n g (Nat.iter n f x) = x.
Proof.
  intros H. induction n; [reflexivity|]. rewrite !iter_S. rewrite <- (iter_swap g). rewrite H. exact IHn.
Qed.
Lemma placed3_inv step i q : affine3 step -> det44 step <> 0 ->
  placed3 (inverse44 step) i (placed3 step i q) = q /\ placed3 step i (placed3 (inverse44 step) i q) = q.
Proof.
  intros A D. split; apply iter_inv; intros x; now apply inv_pos3.
Qed.
Lemma placed2_inv step i q : affine2 step -> det33 step <> 0 ->
  placed2 (inverse33 step) i (placed2 step i q) = q /\ placed2 step i (placed2 (inverse33 step) i q) = q.
Proof.
  intros A D. split; apply iter_inv; intros x; now apply inv_pos2.
Qed.
