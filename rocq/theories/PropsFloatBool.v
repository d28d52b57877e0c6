(** C93: Boolean operations on float64 values are exact. *)
From Coq Require Import List Bool ZArith Lia Permutation Floats.SpecFloat.
From Verif Require Import FloatBoolModel.
Import ListNotations.
Local Open Scope Z_scope.

(** ** The order of float64 values *)
Definition key (x : spec_float) : Z * Z * Z :=
  match x with
  | S754_infinity true => (-2, 0, 0)
  | S754_finite true m e => (-1, - e, - Zpos m)
  | S754_zero _ => (0, 0, 0)
  | S754_finite false m e => (1, e, Zpos m)
  | S754_infinity false => (2, 0, 0)
  | S754_nan => (3, 0, 0)
  end.
Definition lexlt (a b : Z * Z * Z) : Prop :=
  let '(a1, a2, a3) := a in let '(b1, b2, b3) := b in
  a1 < b1 \/ (a1 = b1 /\ (a2 < b2 \/ (a2 = b2 /\ a3 < b3))).
Definition lexle a b := lexlt a b \/ a = b.
Lemma cmp_key x y : is_nan x = false -> is_nan y = false ->
  match SFcompare x y with
  | Some Lt => lexlt (key x) (key y) | Some Gt => lexlt (key y) (key x) | Some Eq => key x = key y | None => False end.
Proof.
  destruct x as [[]|[]| |[] mx ex], y as [[]|[]| |[] my ey]; cbn [is_nan]; try discriminate; intros _ _; cbn; try reflexivity; try lia;
    (destruct (Z.compare_spec ex ey) as [E|E|E]; [subst ey|lia|lia]); change (Pos.compare_cont Eq mx my) with (Pos.compare mx my);
    destruct (Pos.compare_spec mx my) as [F|F|F]; cbn [CompOpp]; try subst my; try reflexivity; lia.
Qed.
Lemma ltb_key x y : is_nan x = false -> is_nan y = false -> (SFltb x y = true <-> lexlt (key x) (key y)).
Proof.
  intros A B. pose proof (cmp_key x y A B) as C. unfold SFltb. destruct (SFcompare x y) as [[]|]; [| |(* Gt *)|easy].
  - rewrite C. destruct (key y) as [[a b] c]. split; [discriminate|cbn; lia].
  - tauto.
  - destruct (key x) as [[a b] c], (key y) as [[a' b'] c']. cbn in *. split; [discriminate|lia].
Qed.
Lemma leb_key x y : is_nan x = false -> is_nan y = false -> (SFleb x y = true <-> lexle (key x) (key y)).
Proof.
  intros A B. pose proof (cmp_key x y A B) as C. unfold SFleb, lexle. destruct (SFcompare x y) as [[]|]; [| |(* Gt *)|easy].
  - rewrite C. tauto.
  - tauto.
  - destruct (key x) as [[a b] c], (key y) as [[a' b'] c']. cbn in *. split; [discriminate|]. intros [L|L]; [lia|]. injection L as -> -> ->. lia.
Qed.
Lemma key_inj x y : key x = key y -> x = y \/ (exists s t, x = S754_zero s /\ y = S754_zero t).
Proof. destruct x as [[]|[]| |[] mx ex], y as [[]|[]| |[] my ey]; cbn; intros E; try discriminate; try (left; reflexivity); try (right; eauto; fail);
  injection E as E1 E2; left; f_equal; lia. Qed.

(** A total order of all values in which [go_min] is the minimum: -Inf, NaN, then the numbers with
    -0 just before +0. *)
Definition kz (x : spec_float) : Z * Z * Z :=
  match x with
  | S754_infinity true => (-4, 0, 0)
  | S754_nan => (-3, 0, 0)
  | S754_zero true => (0, 0, -1)
  | _ => key x
  end.
Lemma kz_inj x y : kz x = kz y -> x = y.
Proof. destruct x as [[]|[]| |[] mx ex], y as [[]|[]| |[] my ey]; cbn; intros E; try discriminate; try reflexivity;
  injection E as E1 E2; f_equal; lia. Qed.
Lemma lex_total a b : lexlt a b \/ a = b \/ lexlt b a.
Proof.
  destruct a as [[a1 a2] a3], b as [[b1 b2] b3]. cbn.
  destruct (Z.lt_trichotomy a1 b1) as [A|[<-|A]]; [lia| |lia]. destruct (Z.lt_trichotomy a2 b2) as [B|[<-|B]]; [lia| |lia].
  destruct (Z.lt_trichotomy a3 b3) as [D|[<-|D]]; [lia|auto|lia].
Qed.
Lemma lex_trans a b c : lexlt a b -> lexlt b c -> lexlt a c.
Proof. destruct a as [[a1 a2] a3], b as [[b1 b2] b3], c as [[c1 c2] c3]. cbn. lia. Qed.
Lemma lex_irr a : ~ lexlt a a.
Proof. destruct a as [[a1 a2] a3]. cbn. lia. Qed.
Lemma lexle_trans a b c : lexle a b -> lexle b c -> lexle a c.
Proof. intros [A|A] [B|B]; try subst; [left; eapply lex_trans; eauto|left; auto|left; auto|right; auto]. Qed.
Lemma lexle_anti a b : lexle a b -> lexle b a -> a = b.
Proof. intros [A|A] [B|B]; auto. exfalso. apply (lex_irr a). eapply lex_trans; eauto. Qed.
Ltac lx := first [right; reflexivity | left; cbn; lia].
Ltac mc := first [left; split; [reflexivity|lx] | right; split; [reflexivity|lx]].
Lemma min_cases x y : (go_min x y = x /\ lexle (kz x) (kz y)) \/ (go_min x y = y /\ lexle (kz y) (kz x)).
Proof.
  destruct (is_nan x) eqn:Nx; [destruct x; try discriminate; destruct y as [[]|[]| |[] my ey]; mc|].
  destruct (is_nan y) eqn:Ny; [destruct y; try discriminate; destruct x as [[]|[]| |[] mx ex]; mc|].
  unfold go_min. rewrite Nx, Ny. cbn [orb].
  pose proof (ltb_key x y Nx Ny) as L. destruct (SFltb x y) eqn:B.
  - destruct L as (L & _). specialize (L eq_refl).
    destruct x as [[]|[]| |[] mx ex], y as [[]|[]| |[] my ey]; cbn in Nx, Ny, B, L; try discriminate; try lia; try mc.
    all: left; split; [cbn; rewrite ?andb_false_r; reflexivity|left; cbn; lia].
  - assert (N : ~ lexlt (key x) (key y)) by (intros C; apply L in C; discriminate). clear L.
    destruct (lex_total (key x) (key y)) as [K|[K|K]]; [easy| |].
    + apply key_inj in K. destruct K as [<-|(s & t & -> & ->)].
      * left. split; [|right; reflexivity]. destruct x as [[]|[]| |[] mx ex]; cbn; reflexivity.
      * destruct s, t; mc.
    + destruct x as [[]|[]| |[] mx ex], y as [[]|[]| |[] my ey]; cbn in Nx, Ny, B, K; try discriminate; try lia; try mc.
Qed.
Lemma min_le x y : lexle (kz (go_min x y)) (kz x) /\ lexle (kz (go_min x y)) (kz y).
Proof. destruct (min_cases x y) as [(-> & L)|(-> & L)]; split; auto; right; reflexivity. Qed.
Lemma min_l x y : lexle (kz (go_min x y)) (kz x).
Proof. apply min_le. Qed.
Lemma min_r x y : lexle (kz (go_min x y)) (kz y).
Proof. apply min_le. Qed.
Lemma min_glb k x y : lexle k (kz x) -> lexle k (kz y) -> lexle k (kz (go_min x y)).
Proof. intros A B. destruct (min_cases x y) as [(-> & L)|(-> & L)]; auto. Qed.
Lemma min_in x y : go_min x y = x \/ go_min x y = y.
Proof. destruct (min_cases x y) as [(-> & L)|(-> & L)]; auto. Qed.
Lemma max_opp x y : go_max x y = SFopp (go_min (SFopp x) (SFopp y)).
Proof.
  unfold go_max, go_min.
  destruct x as [[]|[]| |[] mx ex], y as [[]|[]| |[] my ey]; try reflexivity;
  cbn [is_pinf is_ninf is_nan SFopp orb negb is_zero SFeqb SFcompare signbit andb]; try reflexivity;
  unfold is_zero, SFeqb, SFltb; cbn [SFcompare andb negb]; try reflexivity.
  all: rewrite (Z.compare_antisym ex ey); destruct (ex ?= ey); cbn [CompOpp]; try reflexivity;
    change (Pos.compare_cont Eq mx my) with (Pos.compare mx my); change (Pos.compare_cont Eq my mx) with (Pos.compare my mx);
    rewrite (Pos.compare_antisym mx my); destruct (mx ?= my)%positive; reflexivity.
Qed.
Lemma opp_opp x : SFopp (SFopp x) = x.
Proof. destruct x as [[]|[]| |[] mx ex]; reflexivity. Qed.
Lemma min_opp x y : go_min x y = SFopp (go_max (SFopp x) (SFopp y)).
Proof. now rewrite max_opp, !opp_opp. Qed.

(** ** C93 *)
(** Minimum and maximum do not depend on the order of the operands or of nesting, down to the sign
    of zero and with NaN and infinities, and they are dual under negation. *)
Theorem C93_lattice x y z :
  go_min x y = go_min y x /\ go_max x y = go_max y x /\
  go_min (go_min x y) z = go_min x (go_min y z) /\ go_max (go_max x y) z = go_max x (go_max y z) /\
  go_min x x = x /\ go_max x x = x /\
  SFopp (go_min x y) = go_max (SFopp x) (SFopp y) /\ SFopp (go_max x y) = go_min (SFopp x) (SFopp y).
Proof.
  assert (C : forall x y, go_min x y = go_min y x).
  { intros a b. apply kz_inj. destruct (min_cases a b) as [(-> & L)|(-> & L)], (min_cases b a) as [(-> & K)|(-> & K)]; auto using lexle_anti. }
  assert (A : forall x y z, go_min (go_min x y) z = go_min x (go_min y z)).
  { intros a b c. apply kz_inj. apply lexle_anti.
    - repeat apply min_glb; repeat (apply min_l || apply min_r || (eapply lexle_trans; [apply min_l|]; (apply min_l || apply min_r))).
    - repeat apply min_glb; repeat (apply min_l || apply min_r || (eapply lexle_trans; [apply min_r|]; (apply min_l || apply min_r))). }
  assert (I : forall x, go_min x x = x) by (intros a; destruct (min_in a a); auto).
  split; [apply C|]. split; [rewrite !max_opp; f_equal; apply C|]. split; [apply A|].
  split; [rewrite !max_opp, !opp_opp; f_equal; apply A|]. split; [apply I|].
  split; [now rewrite max_opp, I, opp_opp|]. split; [now rewrite max_opp, !opp_opp|now rewrite max_opp, opp_opp].
Qed.

Definition zero := S754_zero false.
Definition neg (x : spec_float) : bool := SFltb x zero.
Definition pos (x : spec_float) : bool := SFltb zero x.
Definition has (f : spec_float -> bool) (xs : list spec_float) : Prop := exists x, In x xs /\ f x = true.

Lemma union_in xs : forall x, In (funion x xs) (x :: xs).
Proof.
  induction xs as [|y ys IH]; intros x; cbn; [now left|].
  change (x = funion (go_min x y) ys \/ y = funion (go_min x y) ys \/ In (funion (go_min x y) ys) ys).
  destruct (IH (go_min x y)) as [E|I]; [|auto]. rewrite <- E. destruct (min_in x y) as [->| ->]; auto.
Qed.
Lemma union_le xs : forall x y, In y (x :: xs) -> lexle (kz (funion x xs)) (kz y).
Proof.
  induction xs as [|z zs IH]; intros x y I; [destruct I as [->|[]]; right; reflexivity|].
  change (funion x (z :: zs)) with (funion (go_min x z) zs).
  destruct I as [->|[->|I]].
  - eapply lexle_trans; [apply (IH (go_min y z) (go_min y z)); now left|apply min_l].
  - eapply lexle_trans; [apply (IH (go_min x y) (go_min x y)); now left|apply min_r].
  - apply IH. now right.
Qed.
Lemma ninf_least x y : lexle (kz x) (kz y) -> is_ninf y = true -> is_ninf x = true.
Proof.
  intros L N. destruct y as [[]|[]| |[] my ey]; try discriminate.
  destruct x as [[]|[]| |[] mx ex]; try reflexivity; destruct L as [L|L]; cbn in L; try discriminate; lia.
Qed.
Lemma nan_next x y : lexle (kz x) (kz y) -> is_nan y = true -> is_nan x = true \/ is_ninf x = true.
Proof.
  intros L N. destruct y as [[]|[]| |[] my ey]; try discriminate.
  destruct x as [[]|[]| |[] mx ex]; auto; destruct L as [L|L]; cbn in L; try discriminate; lia.
Qed.
Lemma neg_down x y : lexle (kz x) (kz y) -> neg y = true -> neg x = true \/ is_nan x = true.
Proof.
  intros L N. destruct y as [[]|[]| |[] my ey]; try discriminate;
  destruct x as [[]|[]| |[] mx ex]; auto; destruct L as [L|L]; cbn in L; try discriminate; lia.
Qed.
Lemma kz_leb x y : is_nan x = false -> is_nan y = false -> lexle (kz x) (kz y) -> SFleb x y = true.
Proof.
  intros A B L. apply leb_key; auto.
  destruct x as [[]|[]| |[] mx ex], y as [[]|[]| |[] my ey]; try discriminate; cbn in *;
    first [exact L | right; reflexivity | (left; cbn; lia) | (exfalso; destruct L as [L|L]; cbn in L; [lia|discriminate])].
Qed.
(** Union: the value is the value of one of the members, bit for bit, it is not larger than any
    member, and does not depend on their order.  Without NaN the union is inside exactly where a
    member is.  It is NaN exactly if a member is NaN and no member is -Inf; then it is not inside,
    whatever the other members are. *)
Theorem C93_union x xs :
  In (funion x xs) (x :: xs) /\
  (forall y, is_nan (funion x xs) = false -> In y (x :: xs) -> is_nan y = false -> SFleb (funion x xs) y = true) /\
  (is_nan (funion x xs) = true <-> has is_nan (x :: xs) /\ ~ has is_ninf (x :: xs)) /\
  (neg (funion x xs) = true <-> has neg (x :: xs) /\ (~ has is_nan (x :: xs) \/ has is_ninf (x :: xs))).
Proof.
  pose proof (union_in xs x) as I. pose proof (union_le xs x) as L. set (r := funion x xs) in *. set (l := x :: xs) in *. clearbody r l.
  split; [exact I|]. split; [intros y A J B; apply kz_leb; auto|].
  assert (N : is_nan r = true <-> has is_nan l /\ ~ has is_ninf l).
  { split.
    - intros A. split; [exists r; auto|]. intros (y & J & B). pose proof (ninf_least _ _ (L y J) B) as C. destruct r as [[]|[]| |[] m e]; discriminate.
    - intros ((y & J & B) & K). destruct (nan_next _ _ (L y J) B) as [|C]; auto. exfalso. apply K. exists r. auto. }
  split; [exact N|]. split.
  - intros A. split; [exists r; auto|].
    destruct (is_ninf r) eqn:E; [right; exists r; auto|]. left. intros (y & J & B). destruct (nan_next _ _ (L y J) B) as [C|C]; [|congruence].
    destruct r as [[]|[]| |[] m e]; discriminate.
  - intros ((y & J & B) & K). destruct (neg_down _ _ (L y J) B) as [|C]; [auto|]. apply N in C. destruct C as (C1 & C2). destruct K as [K|K]; contradiction.
Qed.
Theorem C93_union_order x xs y ys : Permutation (x :: xs) (y :: ys) -> funion x xs = funion y ys.
Proof.
  intros P. apply kz_inj, lexle_anti; apply union_le.
  - eapply Permutation_in; [symmetry; exact P|apply union_in].
  - eapply Permutation_in; [exact P|apply union_in].
Qed.
Lemma max_in x y : go_max x y = x \/ go_max x y = y.
Proof. rewrite max_opp. destruct (min_in (SFopp x) (SFopp y)) as [->| ->]; rewrite opp_opp; auto. Qed.
Lemma neg_opp x : neg (SFopp x) = pos x.
Proof. destruct x as [[]|[]| |[] m e]; reflexivity. Qed.
Lemma pos_opp x : pos (SFopp x) = neg x.
Proof. destruct x as [[]|[]| |[] m e]; reflexivity. Qed.
Lemma nan_opp x : is_nan (SFopp x) = is_nan x.
Proof. destruct x as [[]|[]| |[] m e]; reflexivity. Qed.
Lemma ninf_opp x : is_ninf (SFopp x) = is_pinf x.
Proof. destruct x as [[]|[]| |[] m e]; reflexivity. Qed.
Lemma pinf_opp x : is_pinf (SFopp x) = is_ninf x.
Proof. destruct x as [[]|[]| |[] m e]; reflexivity. Qed.
(** Intersection: inside exactly where both operands are, NaN included. *)
Theorem C93_inter a b :
  (finter a b = a \/ finter a b = b) /\
  (neg (finter a b) = true <-> neg a = true /\ neg b = true) /\
  (is_nan (finter a b) = true <-> (is_nan a = true \/ is_nan b = true) /\ is_pinf a = false /\ is_pinf b = false) /\
  (is_nan a = false -> is_nan b = false -> (pos (finter a b) = true <-> pos a = true \/ pos b = true) /\
     SFleb a (finter a b) = true /\ SFleb b (finter a b) = true).
Proof.
  unfold finter. split; [apply max_in|].
  assert (N : is_nan (go_max a b) = true <-> (is_nan a = true \/ is_nan b = true) /\ is_pinf a = false /\ is_pinf b = false).
  { rewrite max_opp, nan_opp. change (go_min (SFopp a) (SFopp b)) with (funion (SFopp a) [SFopp b]).
    destruct (C93_union (SFopp a) [SFopp b]) as (_ & _ & H & _). rewrite H. unfold has. split.
    - intros ((y & I & B) & K). split.
      + destruct I as [<-|[<-|[]]]; rewrite nan_opp in B; auto.
      + split; apply not_true_is_false; intros C; apply K.
        * exists (SFopp a). rewrite ninf_opp. cbn; auto.
        * exists (SFopp b). rewrite ninf_opp. cbn; auto.
    - intros (A & B & C). split.
      + destruct A as [A|A]; [exists (SFopp a)|exists (SFopp b)]; rewrite nan_opp; cbn; auto.
      + intros (y & [<-|[<-|[]]] & K); rewrite ninf_opp in K; congruence. }
  assert (Ps : is_nan a = false -> is_nan b = false -> (pos (go_max a b) = true <-> pos a = true \/ pos b = true) /\
     SFleb a (go_max a b) = true /\ SFleb b (go_max a b) = true).
  { intros A B. assert (M : is_nan (go_max a b) = false) by (destruct (max_in a b) as [-> | ->]; auto).
    rewrite <- (neg_opp (go_max a b)). rewrite max_opp in *. rewrite opp_opp.
    change (go_min (SFopp a) (SFopp b)) with (funion (SFopp a) [SFopp b]) in *.
    destruct (C93_union (SFopp a) [SFopp b]) as (_ & H1 & _ & H). set (r := funion _ _) in *. rewrite nan_opp in M.
    split.
    - rewrite H. unfold has. split.
      + intros ((y & [<-|[<-|[]]] & K) & _); rewrite neg_opp in K; auto.
      + intros K. split; [destruct K; [exists (SFopp a)|exists (SFopp b)]; rewrite neg_opp; cbn; auto|].
        left. intros (y & [<-|[<-|[]]] & Y); rewrite nan_opp in Y; congruence.
    - assert (Fl : forall u v, SFleb (SFopp u) (SFopp v) = SFleb v u).
      { intros u v. unfold SFleb. destruct u as [[]|[]| |[] m e], v as [[]|[]| |[] m' e']; try reflexivity; cbn;
          rewrite (Z.compare_antisym e e'); destruct (e ?= e'); cbn; try reflexivity;
          change (Pos.compare_cont Eq m m') with (Pos.compare m m'); change (Pos.compare_cont Eq m' m) with (Pos.compare m' m);
          rewrite (Pos.compare_antisym m m'); destruct (m ?= m')%positive; reflexivity. }
      split; [rewrite <- (opp_opp a) at 1|rewrite <- (opp_opp b) at 1]; rewrite Fl; apply H1; cbn; auto; now rewrite nan_opp. }
  split; [|split; assumption].
  split.
  - intros K. assert (M : is_nan (go_max a b) = false) by (destruct (go_max a b) as [[]|[]| |[] m e]; auto; discriminate).
    destruct (is_nan a) eqn:A; [|destruct (is_nan b) eqn:B].
    + destruct a; try discriminate. destruct b as [[]|[]| |[] m e]; discriminate.
    + destruct b; try discriminate. destruct a as [[]|[]| |[] m e]; discriminate.
    + destruct (Ps eq_refl eq_refl) as (_ & L1 & L2).
      assert (T : forall u v, is_nan u = false -> is_nan v = false -> SFleb u v = true -> neg v = true -> neg u = true).
      { intros u v U V E F. apply leb_key in E; auto. unfold neg in *. apply ltb_key in F; auto. apply ltb_key; auto.
        destruct E as [E| ->]; [eapply lex_trans; eauto|auto]. }
      split; eapply T; eauto.
  - intros (A & B). destruct (max_in a b) as [-> | ->]; auto.
Qed.
(** Difference: inside exactly where the first operand is inside and the second strictly outside,
    NaN included; it is the intersection with the complement. *)
Theorem C93_diff a b :
  fdiff a b = finter a (SFopp b) /\
  (fdiff a b = a \/ fdiff a b = SFopp b) /\
  (neg (fdiff a b) = true <-> neg a = true /\ pos b = true) /\
  (is_nan (fdiff a b) = true <-> (is_nan a = true \/ is_nan b = true) /\ is_pinf a = false /\ is_ninf b = false) /\
  (is_nan a = false -> is_nan b = false -> (pos (fdiff a b) = true <-> pos a = true \/ neg b = true)).
Proof.
  split; [reflexivity|]. change (fdiff a b) with (finter a (SFopp b)). destruct (C93_inter a (SFopp b)) as (H1 & H2 & H3 & H4).
  rewrite neg_opp in H2. rewrite nan_opp, pinf_opp in H3. rewrite nan_opp, pos_opp in H4.
  split; [exact H1|]. split; [exact H2|]. split; [exact H3|]. intros A B. apply (H4 A B).
Qed.
(** Copies (arrays, rotated copies): the minimum of the copies and math.MaxFloat64. *)
Theorem C93_copies xs : (forall y, In y xs -> is_nan y = false) ->
  (fcopies xs = fmax64 \/ In (fcopies xs) xs) /\
  (forall y, In y xs -> SFleb (fcopies xs) y = true) /\
  (neg (fcopies xs) = true <-> has neg xs) /\
  ((exists y, In y xs /\ SFltb y fmax64 = true) -> In (fcopies xs) xs).
Proof.
  intros F. change (fcopies xs) with (funion fmax64 xs). destruct (C93_union fmax64 xs) as (I & L & N & G).
  assert (Nn : ~ has is_nan (fmax64 :: xs)) by (intros (y & [<-|J] & K); [discriminate|rewrite F in K by auto; discriminate]).
  assert (M : is_nan (funion fmax64 xs) = false) by (apply not_true_is_false; intros K; apply N in K; destruct K; contradiction).
  split; [destruct I as [E|E]; auto|]. split; [intros y J; apply L; cbn; auto|]. split.
  - rewrite G. split.
    + intros ((y & [<-|J] & K) & _); [discriminate|exists y; auto].
    + intros (y & J & K). split; [exists y; cbn; auto|auto].
  - intros (y & J & K). destruct I as [E|E]; [|exact E]. exfalso. pose proof (L y M (or_intror J) (F y J)) as B. rewrite <- E in B.
    apply leb_key in B; auto. apply ltb_key in K; auto. destruct B as [B|B]; [|rewrite <- B in K; now apply (lex_irr _ K)].
    apply (lex_irr (key y)). eapply lex_trans; eauto.
Qed.

(** *** Trees of any size and depth *)
(** Sign of a value: -1 inside, 0 on the surface (both zeros), 1 outside. *)
Definition sgn (x : spec_float) : Z := if neg x then -1 else if pos x then 1 else 0.
(** The leaf evaluations that a tree asks for at a point. *)
Fixpoint asks {P} (t : tree P) (p : P) (v : spec_float) : Prop :=
  match t with
  | Leaf f => v = f p
  | Union t ts => asks t p v \/ asks_any ts p v
  | Diff a b | Inter a b => asks a p v \/ asks b p v
  | Copies gs t => exists g, In g gs /\ asks t (g p) v
  end
with asks_any {P} (ts : forest P) (p : P) (v : spec_float) : Prop :=
  match ts with FNil => False | FCons t ts => asks t p v \/ asks_any ts p v end.
(** What the tree means: the same set operations on the signs of the leaves. *)
Fixpoint msgn {P} (t : tree P) (p : P) : Z :=
  match t with
  | Leaf f => sgn (f p)
  | Union t ts => Z.min (msgn t p) (msgn_all ts p)
  | Diff a b => Z.max (msgn a p) (- msgn b p)
  | Inter a b => Z.max (msgn a p) (msgn b p)
  | Copies gs t => fold_right (fun g d => Z.min (msgn t (g p)) d) 1 gs
  end
with msgn_all {P} (ts : forest P) (p : P) : Z :=
  match ts with FNil => 1 | FCons t ts => Z.min (msgn t p) (msgn_all ts p) end.

Lemma sgn_range x : -1 <= sgn x <= 1.
Proof. unfold sgn. destruct (neg x), (pos x); lia. Qed.
Lemma sgn_opp x : sgn (SFopp x) = - sgn x.
Proof. destruct x as [[]|[]| |[] m e]; reflexivity. Qed.
Lemma sgn_min x y : is_nan x = false -> is_nan y = false -> sgn (go_min x y) = Z.min (sgn x) (sgn y).
Proof.
  intros A B. destruct (min_cases x y) as [(-> & L)|(-> & L)];
  destruct x as [[]|[]| |[] mx ex], y as [[]|[]| |[] my ey]; try discriminate; try reflexivity;
  exfalso; destruct L as [L|L]; cbn in L; try discriminate; lia.
Qed.
Lemma sgn_max x y : is_nan x = false -> is_nan y = false -> sgn (go_max x y) = Z.max (sgn x) (sgn y).
Proof. intros A B. rewrite max_opp, sgn_opp, sgn_min, !sgn_opp by (now rewrite nan_opp). lia. Qed.
Lemma nan_min x y : is_nan x = false -> is_nan y = false -> is_nan (go_min x y) = false.
Proof. intros A B. destruct (min_in x y) as [-> | ->]; auto. Qed.
Lemma nan_max x y : is_nan x = false -> is_nan y = false -> is_nan (go_max x y) = false.
Proof. intros A B. destruct (max_in x y) as [-> | ->]; auto. Qed.
Lemma sgn_fold ys : forall x, is_nan x = false -> (forall y, In y ys -> is_nan y = false) ->
  is_nan (funion x ys) = false /\ sgn (funion x ys) = fold_right (fun y d => Z.min (sgn y) d) 1 (x :: ys).
Proof.
  induction ys as [|y ys IH]; intros x A F; cbn [fold_right].
  - split; [exact A|]. cbn [funion fold_left]. unfold funion; cbn. pose proof (sgn_range x). lia.
  - change (funion x (y :: ys)) with (funion (go_min x y) ys). destruct (IH (go_min x y)) as (I1 & I2).
    + apply nan_min; [auto|apply F; now left].
    + intros z Hz. apply F. now right.
    + split; [exact I1|]. rewrite I2. cbn [fold_right]. rewrite sgn_min by (auto; apply F; now left). lia.
Qed.
(** However deep the tree and however many members, if no leaf evaluation that it asks for is NaN,
    the computed value has exactly the sign that the set operations give, and it is, up to its
    sign, one of the leaf values (or math.MaxFloat64). *)
Theorem C93_tree {P} (t : tree P) (p : P) : (forall v, asks t p v -> is_nan v = false) ->
  is_nan (feval t p) = false /\ sgn (feval t p) = msgn t p /\
  (exists v, (asks t p v \/ v = fmax64) /\ (feval t p = v \/ feval t p = SFopp v)).
Proof.
  set (G := fun (t : tree P) => forall p, (forall v, asks t p v -> is_nan v = false) ->
    is_nan (feval t p) = false /\ sgn (feval t p) = msgn t p /\
    (exists v, (asks t p v \/ v = fmax64) /\ (feval t p = v \/ feval t p = SFopp v))).
  set (GF := fun (ts : forest P) => forall p, (forall v, asks_any ts p v -> is_nan v = false) ->
    (forall y, In y (fevals ts p) -> is_nan y = false) /\
    fold_right (fun y d => Z.min (sgn y) d) 1 (fevals ts p) = msgn_all ts p /\
    (forall y, In y (fevals ts p) -> exists v, (asks_any ts p v \/ v = fmax64) /\ (y = v \/ y = SFopp v))).
  enough (H : (forall t, G t) /\ (forall ts, GF ts)) by (apply (proj1 H)).
  clear t p. apply tree_forest_ind; unfold G, GF; clear G GF.
  - intros f p F. cbn in *. split; [now apply F|]. split; [reflexivity|]. exists (f p). auto.
  - intros t IH ts IHs p F. cbn [asks] in F. destruct (IH p) as (A & B & v & V1 & V2); [auto|]. destruct (IHs p) as (As & Bs & Vs); [auto|].
    cbn [feval msgn asks]. destruct (sgn_fold (fevals ts p) (feval t p) A As) as (S1 & S2). cbn [fold_right] in S2.
    split; [exact S1|]. split; [rewrite S2, Bs, B; reflexivity|].
    destruct (union_in (fevals ts p) (feval t p)) as [E|I].
    + rewrite <- E. exists v. tauto.
    + destruct (Vs _ I) as (w & W1 & W2). exists w. tauto.
  - intros a IHa b IHb p F. cbn [asks] in F. destruct (IHa p) as (A & B & v & V1 & V2); [auto|]. destruct (IHb p) as (A' & B' & v' & V1' & V2'); [auto|].
    cbn [feval msgn asks]. unfold fdiff. split; [apply nan_max; [auto|now rewrite nan_opp]|].
    split; [rewrite sgn_max, sgn_opp by (rewrite ?nan_opp; auto); congruence|].
    destruct (max_in (feval a p) (SFopp (feval b p))) as [-> | ->]; [exists v; tauto|]. exists v'. split; [tauto|].
    destruct V2' as [-> | ->]; [auto|rewrite opp_opp; auto].
  - intros a IHa b IHb p F. cbn [asks] in F. destruct (IHa p) as (A & B & v & V1 & V2); [auto|]. destruct (IHb p) as (A' & B' & v' & V1' & V2'); [auto|].
    cbn [feval msgn asks]. unfold finter. split; [apply nan_max; auto|].
    split; [rewrite sgn_max by auto; congruence|].
    destruct (max_in (feval a p) (feval b p)) as [-> | ->]; [exists v; tauto|exists v'; tauto].
  - intros gs t IH p F. cbn [feval msgn asks] in *. 
    assert (IG : forall g, In g gs -> is_nan (feval t (g p)) = false /\ sgn (feval t (g p)) = msgn t (g p) /\
      exists v, (asks t (g p) v \/ v = fmax64) /\ (feval t (g p) = v \/ feval t (g p) = SFopp v)) by (intros g I; apply IH; eauto).
    set (ys := map _ gs).
    assert (Y : forall y, In y ys -> is_nan y = false) by (intros y I; apply in_map_iff in I; destruct I as (g & <- & I); now apply IG).
    change (fcopies ys) with (funion fmax64 ys). destruct (sgn_fold ys fmax64 eq_refl Y) as (S1 & S2). split; [exact S1|]. split.
    + rewrite S2. cbn [fold_right]. change (sgn fmax64) with 1.
      assert (E : fold_right (fun y d => Z.min (sgn y) d) 1 ys = fold_right (fun g d => Z.min (msgn t (g p)) d) 1 gs).
      { unfold ys. clear - IG. induction gs as [|g gs I]; [reflexivity|]. cbn. rewrite I by (intros; apply IG; now right). f_equal. apply IG. now left. }
      rewrite E. assert (forall l, fold_right (fun (g : P -> P) d => Z.min (msgn t (g p)) d) 1 l <= 1) by (induction l; cbn; lia). specialize (H gs). lia.
    + destruct (union_in ys fmax64) as [E|I]; [exists fmax64; auto|]. apply in_map_iff in I. destruct I as (g & E & I). rewrite <- E.
      destruct (IG g I) as (_ & _ & v & V1 & V2). exists v. split; [destruct V1; eauto|exact V2].
  - intros p F. cbn. split; [intros y []|]. split; [reflexivity|intros y []].
  - intros t IH ts IHs p F. cbn [asks_any] in F. destruct (IH p) as (A & B & v & V1 & V2); [auto|]. destruct (IHs p) as (As & Bs & Vs); [auto|].
    cbn [fevals msgn_all asks_any fold_right]. split; [intros y [<-|I]; auto|]. split; [congruence|].
    intros y [<-|I]; [exists v; tauto|]. destruct (Vs y I) as (w & W1 & W2). exists w. tauto.
Qed.
(** -1.5 and 2^-1074 (the smallest positive value); a union of a difference, an infinity and -0. *)
Example C93_example :
  let a := S754_finite true 6755399441055744 (-52) in let tiny := S754_finite false 1 (-1074) in
  let t := Union (Diff (Leaf (fun _ : unit => a)) (Leaf (fun _ => tiny))) (FCons (Leaf (fun _ => S754_infinity false)) (FCons (Leaf (fun _ => S754_zero true)) FNil)) in
  (forall v, asks t tt v -> is_nan v = false) /\ feval t tt = S754_finite true 1 (-1074) /\ msgn t tt = -1 /\
  funion a [S754_nan] = S754_nan /\ funion (S754_zero false) [S754_zero true] = S754_zero true /\
  Permutation [a; tiny; S754_nan] [S754_nan; a; tiny].
Proof.
  cbn zeta. split; [cbn; intros v [[H|H]|[H|[H|[]]]]; subst; reflexivity|]. repeat (split; [reflexivity|]).
  apply Permutation_sym. change [S754_finite true 6755399441055744 (-52); S754_finite false 1 (-1074); S754_nan] with ([S754_finite true 6755399441055744 (-52); S754_finite false 1 (-1074)] ++ [S754_nan]).
  apply (Permutation_cons_append _ S754_nan).
Qed.
(** Copies: one copy at -0, one at infinity. *)
Example C93_copies_example : fcopies [S754_infinity false; S754_zero true] = S754_zero true /\ fcopies [S754_infinity false] = fmax64.
Proof. split; reflexivity. Qed.
