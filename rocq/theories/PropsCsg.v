(** C28: CSG trees of any depth and width denote the expected point set. *)
From Coq Require Import Reals Lra Lia List Bool ZArith.
From Verif Require Import Prelude Vec BoxModel PropsBox MatrixModel PropsMatrix SdfModel PropsBool SdfLemmas.
Import ListNotations.
Local Open Scope R_scope.

Inductive csg :=
| Leaf (s : sdf3)
| Uni (l : list csg)
| Dif (a b : csg)
| Int (a b : csg)
| Tra (c : csg) (m : m44)
| Sca (c : csg) (k : R)
| Arr (c : csg) (n0 n1 n2 : Z) (step : v3)
| Cut (c : csg) (a n : v3).

Lemma csg_ind' (P : csg -> Prop) :
  (forall s, P (Leaf s)) ->
  (forall l, Forall P l -> P (Uni l)) ->
  (forall a b, P a -> P b -> P (Dif a b)) ->
  (forall a b, P a -> P b -> P (Int a b)) ->
  (forall c m, P c -> P (Tra c m)) ->
  (forall c k, P c -> P (Sca c k)) ->
  (forall c n0 n1 n2 st, P c -> P (Arr c n0 n1 n2 st)) ->
  (forall c a n, P c -> P (Cut c a n)) ->
  forall c, P c.
Proof.
  intros HL HU HD HI HT HS HA HC. fix IH 1. intros [s|l|a b|a b|c m|c k|c n0 n1 n2 st|c a n].
  - apply HL.
  - apply HU. induction l; constructor; auto.
  - apply HD; apply IH.
  - apply HI; apply IH.
  - apply HT; apply IH.
  - apply HS; apply IH.
  - apply HA; apply IH.
  - apply HC; apply IH.
Qed.

(** Calling the constructors of the package bottom-up. *)
Fixpoint build (c : csg) : res sdf3 :=
  match c with
  | Leaf s => Ok s
  | Uni l =>
    do ss <- (fix go (l : list csg) : res (list (option sdf3)) :=
                match l with
                | [] => Ok []
                | x :: r => do s <- build x; do t <- go r; Ok (Some s :: t)
                end) l;
    union3d ss
  | Dif a b => do s0 <- build a; do s1 <- build b; difference3d (Some s0) (Some s1)
  | Int a b => do s0 <- build a; do s1 <- build b; intersect3d (Some s0) (Some s1)
  | Tra c m => do s <- build c; transform3d (Some s) m
  | Sca c k => do s <- build c; Ok (scale_uniform3d s k)
  | Arr c n0 n1 n2 step => do s <- build c; Ok (array3d s n0 n1 n2 step)
  | Cut c a n => do s <- build c; Ok (cut3d s a n)
  end.

(** The tree as a point set: [member true] is its interior, [member false] its
    exterior; points that are neither are boundary. *)
Fixpoint member (b : bool) (c : csg) (p : v3) : Prop :=
  match c with
  | Leaf s => if b then ev3 s p < 0 else 0 < ev3 s p
  | Uni l =>
    if b then (fix any (l : list csg) := match l with [] => False | x :: r => member true x p \/ any r end) l
    else (fix all (l : list csg) := match l with [] => True | x :: r => member false x p /\ all r end) l
  | Dif x y => if b then member true x p /\ member false y p else member false x p \/ member true y p
  | Int x y => if b then member true x p /\ member true y p else member false x p \/ member false y p
  | Tra c m => exists q, p = mul_pos3 m q /\ member b c q
  | Sca c k => exists q, p = scale3 k q /\ member b c q
  | Arr c n0 n1 n2 step =>
    let copy j k l := member b c (sub3 p (V3 (IZR j * x3 step) (IZR k * y3 step) (IZR l * z3 step))) in
    if b then exists j k l, (0 <= j < n0)%Z /\ (0 <= k < n1)%Z /\ (0 <= l < n2)%Z /\ copy j k l
    else forall j k l, (0 <= j < n0)%Z -> (0 <= k < n1)%Z -> (0 <= l < n2)%Z -> copy j k l
  | Cut c a n =>
    if b then member true c p /\ 0 < dot3 n (sub3 p a) else member false c p \/ dot3 n (sub3 p a) < 0
  end.

(** Valid parameters. *)
Fixpoint wf (c : csg) : Prop :=
  match c with
  | Leaf _ => True
  | Uni l => (2 <= length l)%nat /\ (fix all (l : list csg) := match l with [] => True | x :: r => wf x /\ all r end) l
  | Dif a b | Int a b => wf a /\ wf b
  | Tra c m => affine3 m /\ det44 m <> 0 /\ wf c
  | Sca c k => 0 < k /\ wf c
  | Arr c _ _ _ _ => wf c
  | Cut c _ n => n <> zero3 /\ wf c
  end.

Definition agrees (s : sdf3) (c : csg) :=
  forall p, (ev3 s p < 0 <-> member true c p) /\ (0 < ev3 s p <-> member false c p).
Lemma inr_z n j : (0 <= j < n)%Z <-> exists i, (i < Z.to_nat n)%nat /\ j = Z.of_nat i.
Proof.
  split.
  - intros H. exists (Z.to_nat j). split; lia.
  - intros (i & H & ->). lia.
Qed.
Local Opaque inverse44 mul44 det44 mul_pos3.
Theorem C28_csg c : wf c -> exists s, build c = Ok s /\ agrees s c.
Proof.
  induction c as [s|l IH|a b IHa IHb|a b IHa IHb|c m IH|c k IH|c n0 n1 n2 st IH|c a n IH] using csg_ind'; cbn [wf].
  - intros _. exists s. split; [reflexivity|]. intros p. cbn. tauto.
  - intros (L & W).
    assert (G : exists ss, (fix go (l : list csg) : res (list (option sdf3)) :=
                match l with
                | [] => Ok []
                | x :: r => do s <- build x; do t <- go r; Ok (Some s :: t)
                end) l = Ok (map Some ss) /\ Forall2 agrees ss l).
    { clear L. induction l as [|x r IHr]; [exists []; split; constructor|].
      inversion IH as [|? ? Hx Hr]; subst. destruct W as (Wx & Wr).
      destruct (Hx Wx) as (s & Es & As). destruct (IHr Hr Wr) as (ss & Er & Ar).
      exists (s :: ss). split; [|constructor; auto]. rewrite Es. cbn [bind]. rewrite Er. reflexivity. }
    destruct G as (ss & E & F). cbn [build]. rewrite E. cbn [bind].
    assert (FL : length ss = length l) by (clear - F; induction F; cbn; auto).
    destruct ss as [|s0 [|s1 r]]; cbn in FL; try lia.
    pose proof (union3d_min_some Rmin s0 s1 r) as U. fold union3d in U.
    exists (S3 (union_eval3 Rmin (s0 :: s1 :: r)) (union_box3 s0 (s0 :: s1 :: r))). split; [exact U|].
    destruct (C27_union _ _ U) as (ss & Em & _ & H). apply map_some_inj in Em. subst ss.
    intros p. destruct (H p) as (_ & H1 & H2). rewrite H1, H2. clear - F. cbn [member].
    split.
    + induction F as [|s c ss cs A F IH]; [split; [intros (x & [] & _)|intros []]|].
      rewrite <- IH. destruct (A p) as (A1 & _). rewrite <- A1. split.
      * intros (x & [<- |I] & K); [auto|]. right. exists x. auto.
      * intros [K|(x & I & K)]; [exists s; cbn; auto|exists x; cbn; auto].
    + induction F as [|s c ss cs A F IH]; [split; [auto|intros _ x []]|].
      rewrite <- IH. destruct (A p) as (_ & A2). rewrite <- A2. split.
      * intros K. split; [apply K; cbn; auto|]. intros x I. apply K. cbn; auto.
      * intros (K1 & K2) x [<- |I]; auto.
  - intros (Wa & Wb). destruct (IHa Wa) as (s0 & E0 & A0). destruct (IHb Wb) as (s1 & E1 & A1).
    cbn [build]. rewrite E0, E1. cbn [bind].
    eexists. split; [reflexivity|]. destruct (C27_difference (Some s0) (Some s1)) as (_ & _ & H).
    destruct (H _ eq_refl) as (? & ? & Ea & Eb & K). inversion Ea; inversion Eb; subst.
    intros p. destruct (K p) as (K1 & K2). destruct (A0 p) as (P1 & P2). destruct (A1 p) as (Q1 & Q2).
    cbn [member]. rewrite <- P1, <- P2, <- Q1, <- Q2. split; assumption.
  - intros (Wa & Wb). destruct (IHa Wa) as (s0 & E0 & A0). destruct (IHb Wb) as (s1 & E1 & A1).
    cbn [build]. rewrite E0, E1. cbn [bind].
    eexists. split; [reflexivity|]. destruct (C27_intersection (Some s0) (Some s1)) as (_ & _ & H & _).
    destruct (H _ eq_refl) as (? & ? & Ea & Eb & K). inversion Ea; inversion Eb; subst.
    intros p. destruct (K p) as (K1 & K2). destruct (A0 p) as (P1 & P2). destruct (A1 p) as (Q1 & Q2).
    cbn [member]. rewrite <- P1, <- P2, <- Q1, <- Q2. split; assumption.
  - intros (A & D & W). destruct (IH W) as (s & E & Ag). cbn [build]. rewrite E. cbn [bind transform3d].
    eexists. split; [reflexivity|]. intros p. rewrite ev_transform3.
    destruct (Ag (mul_pos3 (inverse44 m) p)) as (H1 & H2). rewrite H1, H2.
    destruct (inv_pos3 m p A D) as (_ & I2).
    split; split.
    + intros H. exists (mul_pos3 (inverse44 m) p). auto.
    + intros (q & -> & H). now rewrite (proj1 (inv_pos3 m q A D)).
    + intros H. exists (mul_pos3 (inverse44 m) p). auto.
    + intros (q & -> & H). now rewrite (proj1 (inv_pos3 m q A D)).
  - intros (K & W). destruct (IH W) as (s & E & Ag). cbn [build]. rewrite E. cbn [bind].
    eexists. split; [reflexivity|]. intros p. cbn [scale_uniform3d ev3 member].
    destruct (Ag (scale3 (1 / k) p)) as (H1 & H2).
    assert (I1 : scale3 k (scale3 (1 / k) p) = p) by (apply v3_ext; cbn; field; lra).
    assert (I2 : forall q, scale3 (1 / k) (scale3 k q) = q) by (intros; apply v3_ext; cbn; field; lra).
    split; split.
    + intros H. exists (scale3 (1 / k) p). split; [auto|]. apply H1. nra.
    + intros (q & -> & H). rewrite I2 in *. apply H1 in H. nra.
    + intros H. exists (scale3 (1 / k) p). split; [auto|]. apply H2. nra.
    + intros (q & -> & H). rewrite I2 in *. apply H2 in H. nra.
  - intros W. destruct (IH W) as (s & E & Ag). cbn [build]. rewrite E. cbn [bind].
    eexists. split; [reflexivity|]. intros p. cbn [member].
    unfold array3d, array3d_min.
    destruct ((n0 <=? 0)%Z || (n1 <=? 0)%Z || (n2 <=? 0)%Z) eqn:N.
    + assert (Z : (n0 <= 0 \/ n1 <= 0 \/ n2 <= 0)%Z) by (rewrite !orb_true_iff, !Z.leb_le in N; tauto).
      cbn [empty3_from empty3 ev3]. pose proof max_float64_pos. split; split.
      * lra.
      * intros (j & k & l & ? & ? & ? & _). lia.
      * intros _ j k l ? ? ?. lia.
      * auto.
    + cbn [ev3]. rewrite array3_eval_fold.
      destruct (fold_max_sign (fun o => ev3 s (sub3 p o)) (offsets3 (Z.to_nat n0) (Z.to_nat n1) (Z.to_nat n2) st)) as (H1 & H2).
      cbv zeta in H1, H2. rewrite H1, H2. split; split.
      * intros (o & I & K). apply in_offsets3 in I. destruct I as (j & k & l & J1 & J2 & J3 & ->).
        exists (Z.of_nat j), (Z.of_nat k), (Z.of_nat l). split; [lia|]. split; [lia|]. split; [lia|].
        rewrite <- !INR_IZR_INZ. now apply Ag.
      * intros (j & k & l & J1 & J2 & J3 & K). apply inr_z in J1, J2, J3.
        destruct J1 as (j' & J1 & ->), J2 as (k' & J2 & ->), J3 as (l' & J3 & ->).
        rewrite <- !INR_IZR_INZ in K. eexists. split; [apply in_offsets3; exists j', k', l'; eauto|]. now apply Ag.
      * intros K j k l J1 J2 J3. apply inr_z in J1, J2, J3.
        destruct J1 as (j' & J1 & ->), J2 as (k' & J2 & ->), J3 as (l' & J3 & ->).
        rewrite <- !INR_IZR_INZ. apply Ag. apply K. apply in_offsets3. exists j', k', l'. auto.
      * intros K o I. apply in_offsets3 in I. destruct I as (j & k & l & J1 & J2 & J3 & ->).
        apply Ag. rewrite !INR_IZR_INZ. apply K; lia.
  - intros (N & W). destruct (IH W) as (s & E & Ag). cbn [build]. rewrite E. cbn [bind].
    eexists. split; [reflexivity|]. intros p. cbn [cut3d ev3 member].
    destruct (Ag p) as (H1 & H2). rewrite <- H1, <- H2.
    assert (Np : 0 < norm3 n).
    { pose proof (norm3_nonneg n). destruct (Req_dec (norm3 n) 0) as [Z|Z]; [|lra].
      apply norm3_zero_iff in Z. contradiction. }
    assert (D : dot3 (scale3 (-1) (unit3 n)) (sub3 p a) = - (/ norm3 n * dot3 n (sub3 p a))).
    { unfold unit3, dot3; cbn. field. lra. }
    rewrite D. assert (I : 0 < / norm3 n) by now apply Rinv_0_lt_compat.
    set (d := dot3 n (sub3 p a)). unfold Rmax. destruct (Rle_dec _ _); split; split; intros; try nra.
Qed.
(** A union of a transformed and a cut shape. *)
Example C28_example :
  let ball := Leaf (S3 (fun p => norm3 p - 1) (Box3 (V3 (-1) (-1) (-1)) (V3 1 1 1))) in
  let t := Uni [Tra ball (translate3d (V3 3 0 0)); Cut ball zero3 (V3 0 0 2)] in
  wf t /\ member true t (V3 3 0 0) /\ ~ member true t (V3 0 0 (-1/2)) /\ member true t (V3 0 0 (1/2)).
Proof.
  intros ball t.
  assert (A : affine3 (translate3d (V3 3 0 0))) by (unfold affine3; cbn; auto).
  assert (D : det44 (translate3d (V3 3 0 0)) = 1) by (apply (proj1 C34_basic_maps (V3 3 0 0) zero3)).
  assert (T : forall q, mul_pos3 (translate3d (V3 3 0 0)) q = add3 q (V3 3 0 0)) by (intros; apply (proj1 C34_basic_maps)).
  assert (Nz : forall z, norm3 (V3 0 0 z) = Rabs z).
  { intros z. unfold norm3, norm3sq, dot3; cbn. replace (0 * 0 + 0 * 0 + z * z) with (Rsqr z) by (unfold Rsqr; ring).
    apply sqrt_Rsqr_abs. }
  split.
  { cbn. split; [lia|]. split; [split; [exact A|]; split; [lra|exact I]|]. split; [|exact I].
    split; [|exact I]. intros E; apply (f_equal z3) in E; cbn in E; lra. }
  split.
  { cbn [t member]. left. exists (V3 0 0 0). rewrite T. split; [apply v3_ext; cbn; ring|]. cbn. rewrite Nz. rmm; lra. }
  split.
  { cbn [t member ball]. intros [(q & E & K)|[(K & L)|[]]].
    - rewrite T in E. cbn [ev3] in K. assert (X : x3 q = -3) by (apply (f_equal x3) in E; cbn in E; lra).
      pose proof (abs_le_norm3 q) as (Q & _). rewrite X in Q. revert Q. rmm; lra.
    - unfold dot3 in L; cbn in L. lra. }
  cbn [t member ball]. right. left. cbn [ev3]. rewrite Nz. unfold dot3; cbn. split; rmm; lra.
Qed.
