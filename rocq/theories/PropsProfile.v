(** C94: the shapes of the thread profiles. *)
From Coq Require Import String Reals Lra Psatz Lia List Bool ZArith.
From Verif Require Import Prelude Vec BoxModel MatrixModel PropsBox PropsMatrix SdfModel SdfLemmas PropsBool Trig PropsUtil
  PolyModel PropsPoly PropsBuilder PropsFillet ObjModel PropsForm PropsThread.
Import ListNotations.
Local Open Scope R_scope.

(** ** The region under a polyline that runs from right to left *)
(** Strictly to the left at every step. *)
Definition leftward (l : list v2) : Prop := forall a b, consecutive l a b -> x2 b < x2 a.
(** Below the polyline [top], above the x axis. *)
Definition under (top : list v2) (p : v2) : Prop :=
  0 < y2 p /\ x2 (last top zero2) < x2 p < x2 (hd zero2 top) /\
  exists a b, consecutive top a b /\ x2 b <= x2 p <= x2 a /\ 0 < cross2 (sub2 a p) (sub2 b p).
(** The outline: from the x axis up to the polyline, along it, and down again. *)
Definition outline (top : list v2) : list v2 := V2 (x2 (hd zero2 top)) 0 :: top ++ [V2 (x2 (last top zero2)) 0].

(** A quarter turn. *)
Definition qt (v : v2) : v2 := V2 (- y2 v) (x2 v).
Lemma qt_sub a b : sub2 (qt a) (qt b) = qt (sub2 a b).
Proof. unfold qt, sub2; apply v2_ext; cbn; ring. Qed.
Lemma qt_inj a b : qt a = qt b -> a = b.
Proof. destruct a, b. unfold qt; cbn. intros E. injection E as E1 E2. f_equal; lra. Qed.
Lemma seen_qt p a b : seen_angle (qt p) (qt a) (qt b) = seen_angle p a b.
Proof. unfold seen_angle. rewrite !qt_sub. f_equal; unfold cross2, dot2, qt; cbn; ring. Qed.
Lemma sum_qt p l : angle_sum (qt p) (map qt l) = angle_sum p l.
Proof. induction l as [|a l IH]; [reflexivity|]. destruct l as [|b r]; [reflexivity|]. cbn [map angle_sum] in *. rewrite seen_qt. f_equal. exact IH. Qed.
Lemma consecutive_map (f : v2 -> v2) l a b : consecutive (map f l) a b -> exists c d, consecutive l c d /\ a = f c /\ b = f d.
Proof.
  revert a b. induction l as [|x l IH]; intros a b (l1 & l2 & E); [destruct l1; discriminate|]. destruct l as [|y r]; [destruct l1 as [|? [|? ?]]; discriminate|].
  destruct l1 as [|z l1].
  - cbn in E. injection E as <- <- _. exists x, y. split; [exists [], r; reflexivity|split; reflexivity].
  - cbn [map app] in E. injection E as _ E. destruct (IH a b) as (c & d & C & A & B); [exists l1, l2; exact E|]. exists c, d. split; [now apply consecutive_cons|now split].
Qed.
Lemma wn_qt l p : (forall a b, consecutive l a b -> a <> b) -> last l zero2 = hd zero2 l -> l <> [] -> ~ on_edges l p -> loop_wn (map qt l) (qt p) = loop_wn l p.
Proof.
  intros D L N O. pose proof (turn_sum p l D O N) as T.
  assert (D' : forall a b, consecutive (map qt l) a b -> a <> b). { intros a b C E. apply consecutive_map in C. destruct C as (c & d & C & -> & ->). apply qt_inj in E. exact (D _ _ C E). }
  assert (O' : ~ on_edges (map qt l) (qt p)).
  { intros (a & b & C & (t & T0 & E)). apply consecutive_map in C. destruct C as (c & d & C & -> & ->). apply O. exists c, d. split; [exact C|]. exists t. split; [exact T0|]. apply qt_inj. rewrite E. unfold qt, add2, scale2, sub2; apply v2_ext; cbn; ring. }
  pose proof (turn_sum (qt p) (map qt l) D' O' ltac:(destruct l; [congruence|discriminate])) as T'. rewrite sum_qt in T'.
  assert (E : last (map qt l) zero2 = hd zero2 (map qt l)).
  { destruct l as [|a l]; [congruence|]. cbn [map hd]. cbn [hd] in L. rewrite <- L at 2. clear. revert a. induction l as [|b l IH]; intros a; [reflexivity|]. cbn [map]. rewrite !last_cons. exact (IH b). }
  rewrite E in T'. rewrite L in T. pose proof PI_RGT_0. assert (Q : IZR (loop_wn (map qt l) (qt p)) = IZR (loop_wn l p)) by (apply (Rmult_eq_reg_r (2 * PI)); lra). now apply eq_IZR.
Qed.
(** One edge, crossed by a vertical line. *)
Lemma seg_wn_qt p a b : a <> b -> seg_wn (qt p) (qt a) (qt b) =
  if Rleb (x2 a) (x2 p) then if Rltb (x2 p) (x2 b) then if Rltb 0 (cross2 (sub2 a p) (sub2 b p)) then 1%Z else 0%Z else 0%Z
  else if Rleb (x2 b) (x2 p) then if Rltb (cross2 (sub2 a p) (sub2 b p)) 0 then (-1)%Z else 0%Z else 0%Z.
Proof.
  intros N. unfold seg_wn. destruct (dn_cross (qt p) (qt a) (qt b)) as (k & K & ->); [intros E; now apply N, qt_inj|]. rewrite !qt_sub.
  replace (cross2 (qt (sub2 a p)) (qt (sub2 b p))) with (cross2 (sub2 a p) (sub2 b p)) by (unfold cross2, qt; cbn; ring). cbn [qt y2 x2]. set (c := cross2 _ _). clearbody c.
  destruct (Rltb_spec (- k * c) 0), (Rltb_spec 0 (- k * c)), (Rltb_spec 0 c), (Rltb_spec c 0); try reflexivity; exfalso; nra.
Qed.
Lemma wn_cons a b r p : loop_wn (a :: b :: r) p = (seg_wn p a b + loop_wn (b :: r) p)%Z.
Proof. unfold loop_wn; rewrite poly_edges_cons; reflexivity. Qed.
Lemma wn_snoc p z : forall l, l <> [] -> loop_wn (l ++ [z]) p = (loop_wn l p + seg_wn p (last l zero2) z)%Z.
Proof.
  induction l as [|a l IH]; intros N; [congruence|]. destruct l as [|b r]; [cbn; lia|]. rewrite last_cons. change ((a :: b :: r) ++ [z]) with (a :: b :: (r ++ [z])). rewrite !wn_cons.
  change (b :: r ++ [z]) with ((b :: r) ++ [z]). rewrite IH by discriminate. lia.
Qed.
Lemma leftward_tl a l : leftward (a :: l) -> leftward l.
Proof. intros H c d C. apply H. now apply consecutive_cons. Qed.
Lemma leftward_hd a l v : leftward (a :: l) -> In v l -> x2 v < x2 a.
Proof.
  revert a. induction l as [|b l IH]; intros a H I; [destruct I|]. assert (x2 b < x2 a) by (apply H; exists [], l; reflexivity).
  destruct I as [<-|I]; [assumption|]. specialize (IH b (leftward_tl _ _ H) I). lra.
Qed.
Lemma leftward_ne l : leftward l -> forall a b, consecutive l a b -> a <> b.
Proof. intros H a b C ->. specialize (H _ _ C). lra. Qed.
Lemma last_in {A} (l : list A) d : l <> [] -> In (last l d) l.
Proof. induction l as [|a l IH]; [congruence|]. intros _. destruct l as [|b r]; [now left|]. right. apply IH. discriminate. Qed.
Lemma leftward_last l v : leftward l -> In v l -> x2 (last l zero2) <= x2 v.
Proof.
  induction l as [|a l IH]; intros H I; [destruct I|]. destruct l as [|b r]; [destruct I as [<-|[]]; cbn; lra|]. rewrite last_cons. destruct I as [<-|I]; [|apply IH; [now apply leftward_tl in H|exact I]].
  assert (x2 (last (b :: r) zero2) < x2 a); [|lra]. apply (leftward_hd a (b :: r)); [exact H|]. apply last_in. discriminate.
Qed.
Lemma leftward_first l v : leftward l -> In v l -> x2 v <= x2 (hd zero2 l).
Proof. destruct l as [|a l]; [intros _ []|]. intros H [<-|I]; cbn; [lra|]. pose proof (leftward_hd _ _ _ H I). lra. Qed.
(** The edges of a leftward polyline: at most one is crossed. *)
Lemma top_wn p : forall l, leftward l -> l <> [] ->
  (x2 p < x2 (last l zero2) \/ x2 (hd zero2 l) <= x2 p) /\ loop_wn (map qt l) (qt p) = 0%Z \/
  exists a b, consecutive l a b /\ x2 b <= x2 p < x2 a /\ loop_wn (map qt l) (qt p) = if Rltb (cross2 (sub2 a p) (sub2 b p)) 0 then (-1)%Z else 0%Z.
Proof.
  induction l as [|a l IH]; intros H N; [congruence|]. destruct l as [|b r]; [left; cbn; split; [lra|reflexivity]|].
  assert (AB : x2 b < x2 a) by (apply H; exists [], r; reflexivity). assert (HT : leftward (b :: r)) by now apply leftward_tl in H. specialize (IH HT ltac:(discriminate)).
  cbn [map]. rewrite wn_cons. rewrite seg_wn_qt by (intros ->; lra). rewrite last_cons. cbn [hd] in *. change (qt b :: map qt r) with (map qt (b :: r)).
  destruct (Rleb_spec (x2 a) (x2 p)) as [A|A].
  - rewrite (proj2 (Rltb_false _ _)) by lra. destruct IH as [(_ & E)|(c & d & C & X & E)]; [left; split; [lra|lia]|].
    exfalso. destruct C as (l1 & l2 & C). assert (In c (b :: r)) by (rewrite C; apply in_or_app; right; now left). pose proof (leftward_first _ _ HT H0). cbn in H1. lra.
  - destruct (Rleb_spec (x2 b) (x2 p)) as [B|B].
    + right. exists a, b. split; [exists [], r; reflexivity|]. split; [lra|]. destruct IH as [(_ & E)|(c & d & C & X & E)]; [rewrite E; lia|].
      exfalso. destruct C as (l1 & l2 & C). assert (In c (b :: r)) by (rewrite C; apply in_or_app; right; now left). pose proof (leftward_first _ _ HT H0). cbn in H1. lra.
    + destruct IH as [(Q & E)|(c & d & C & X & E)]; [left; split; [lra|lia]|]. right. exists c, d. split; [now apply consecutive_cons|]. split; [exact X|lia].
Qed.
(** Two points of the polyline over the same x: the crossed edge is unique up to its ends. *)
Lemma under_unique l p a b c d : leftward l -> consecutive l a b -> consecutive l c d -> x2 b <= x2 p <= x2 a -> x2 d <= x2 p <= x2 c -> 0 < cross2 (sub2 a p) (sub2 b p) -> 0 < cross2 (sub2 c p) (sub2 d p).
Proof.
  induction l as [|x l IH]; intros H C D X Y Q; [destruct C as ([|? ?] & ? & C); discriminate|].
  assert (HT := leftward_tl _ _ H). destruct C as ([|x0 l1] & l2 & C), D as ([|x1 m1] & m2 & D).
  - rewrite C in D. injection D as <- <- _. exact Q.
  - injection C as -> ->. injection D as -> D. destruct m1 as [|y m1].
    + cbn in D. injection D as -> ->. assert (E : x2 p = x2 c) by lra. assert (L : x2 d < x2 c) by (apply HT; exists [], m2; reflexivity). assert (L0 : x2 c < x2 x1) by (apply H; exists [], (d :: m2); reflexivity).
      unfold cross2, sub2 in *. cbn [x2 y2] in *. rewrite E in *. nra.
    + exfalso. cbn in D. injection D as -> ->. assert (In c (m1 ++ c :: d :: m2)) by (apply in_or_app; right; now left). pose proof (leftward_hd _ _ _ HT H0). lra.
  - injection D as -> ->. injection C as -> C. destruct l1 as [|y l1].
    + cbn in C. injection C as -> ->. assert (E : x2 p = x2 a) by lra. assert (L : x2 b < x2 a) by (apply HT; exists [], l2; reflexivity). assert (L0 : x2 a < x2 x0) by (apply H; exists [], (b :: l2); reflexivity).
      unfold cross2, sub2 in *. cbn [x2 y2] in *. rewrite E in *. nra.
    + exfalso. cbn in C. injection C as -> ->. assert (In a (l1 ++ a :: b :: l2)) by (apply in_or_app; right; now left). pose proof (leftward_hd _ _ _ HT H0). lra.
  - injection C as -> C. injection D as -> D. apply IH; try assumption; [exists l1, l2; exact C|exists m1, m2; exact D].
Qed.
Lemma cross_on a b p : x2 b <= x2 p <= x2 a -> x2 b < x2 a -> cross2 (sub2 a p) (sub2 b p) = 0 -> on_seg a b p.
Proof.
  intros X L E. exists ((x2 a - x2 p) / (x2 a - x2 b)). split.
  - split; [apply Rmult_le_pos; [lra|left; apply Rinv_0_lt_compat; lra]|]. apply (Rmult_le_reg_r (x2 a - x2 b)); [lra|]. unfold Rdiv. rewrite Rmult_assoc, Rinv_l by lra. lra.
  - unfold cross2, sub2, add2, scale2 in *. cbn [x2 y2] in *. apply v2_ext; cbn [x2 y2]; [field; lra|]. apply (Rmult_eq_reg_r (x2 a - x2 b)); [|lra]. field_simplify; [nra|lra].
Qed.
Lemma seg_cross a b p : on_seg a b p -> cross2 (sub2 a p) (sub2 b p) = 0.
Proof. intros (t & _ & ->). unfold cross2, sub2, add2, scale2; cbn. ring. Qed.
Lemma seg_x a b p : on_seg a b p -> x2 b <= x2 a -> x2 b <= x2 p <= x2 a.
Proof. intros (t & T & ->) L. unfold sub2, add2, scale2; cbn. nra. Qed.
Lemma consecutive_app l m a b : consecutive (l ++ m) a b -> l <> [] -> m <> [] -> consecutive l a b \/ consecutive m a b \/ (a = last l zero2 /\ b = hd zero2 m).
Proof.
  revert a b. induction l as [|x l IH]; intros a b C N M; [congruence|]. destruct l as [|y r].
  - destruct m as [|z m]; [congruence|]. destruct C as ([|w l1] & l2 & E); cbn in E.
    + injection E as -> -> _. right; right. now split.
    + injection E as _ E. right; left. exists l1, l2. exact E.
  - destruct C as ([|w l1] & l2 & E).
    + injection E as -> -> _. left. exists [], r. reflexivity.
    + injection E as -> E. destruct (IH a b) as [C|[C|C]]; [exists l1, l2; exact E|discriminate|exact M| | |].
      * left. now apply consecutive_cons.
      * now right; left.
      * right; right. rewrite last_cons. exact C.
Qed.
Lemma consecutive_l l m a b : consecutive l a b -> consecutive (l ++ m) a b.
Proof. intros (l1 & l2 & ->). exists l1, (l2 ++ m). rewrite <- app_assoc. reflexivity. Qed.
Lemma consecutive_r l m a b : consecutive m a b -> consecutive (l ++ m) a b.
Proof. intros (l1 & l2 & ->). exists (l ++ l1), l2. rewrite <- app_assoc. reflexivity. Qed.
Lemma last_snoc {A} (l : list A) x d : last (l ++ [x]) d = x.
Proof. induction l as [|a l IH]; [reflexivity|]. cbn [app]. destruct (l ++ [x]) eqn:E; [destruct l; discriminate|]. exact IH. Qed.
Lemma hd_last_x l : leftward l -> (2 <= length l)%nat -> x2 (last l zero2) < x2 (hd zero2 l).
Proof. destruct l as [|a [|b r]]; cbn [length]; try lia. intros H _. cbn [hd]. rewrite last_cons. apply (leftward_hd a (b :: r)); [exact H|]. apply last_in. discriminate. Qed.

Lemma last_cons_app {A} (a : A) l x d : last (a :: l ++ [x]) d = x.
Proof. exact (last_snoc (a :: l) x d). Qed.

Section Graph.
Context (top : list v2) (T2 : (2 <= length top)%nat) (LW : leftward top) (UP : forall v, In v top -> 0 < y2 v) (TL : tolerance < x2 (hd zero2 top) - x2 (last top zero2)).
Let A := V2 (x2 (hd zero2 top)) 0.
Let B := V2 (x2 (last top zero2)) 0.
Lemma top_ne : top <> [].
Proof. destruct top; [cbn in T2; lia|discriminate]. Qed.
Lemma top_hd_in : In (hd zero2 top) top.
Proof. pose proof top_ne. destruct top; [congruence|now left]. Qed.
Lemma outline_edges a b : consecutive (outline top ++ [A]) a b <-> (a = A /\ b = hd zero2 top) \/ consecutive top a b \/ (a = last top zero2 /\ b = B) \/ (a = B /\ b = A).
Proof.
  pose proof top_ne as NE. unfold outline. fold A B. split.
  - intros C. change ((A :: top ++ [B]) ++ [A]) with ([A] ++ ((top ++ [B]) ++ [A])) in C. apply consecutive_app in C; [|discriminate|destruct top; discriminate].
    destruct C as [C|[C|(-> & ->)]]; [destruct C as ([|? [|? ?]] & ? & C); discriminate| |left; split; [reflexivity|destruct top; [congruence|reflexivity]]].
    apply consecutive_app in C; [|destruct top; discriminate|discriminate]. destruct C as [C|[C|(-> & ->)]]; [|destruct C as ([|? [|? ?]] & ? & C); discriminate|].
    + apply consecutive_app in C; [|exact NE|discriminate]. destruct C as [C|[C|(-> & ->)]]; [now right; left|destruct C as ([|? [|? ?]] & ? & C); discriminate|]. right; right; left. now split.
    + right; right; right. rewrite last_snoc. now split.
  - intros [(-> & ->)|[C|[(-> & ->)|(-> & ->)]]].
    + destruct top as [|x r]; [congruence|]. exists [], ((r ++ [B]) ++ [A]). cbn [hd app]. reflexivity.
    + change ((A :: top ++ [B]) ++ [A]) with ([A] ++ ((top ++ [B]) ++ [A])). apply consecutive_r, consecutive_l, consecutive_l, C.
    + destruct (exists_last NE) as (l & x & E). exists (A :: l), [A]. rewrite E, last_snoc. cbn. rewrite <- !app_assoc. reflexivity.
    + exists (A :: top), []. cbn. rewrite <- app_assoc. reflexivity.
Qed.
Lemma outline_ok : loop_ok (outline top).
Proof.
  split.
  - intros a b C. apply (consecutive_l _ [A]) in C. apply outline_edges in C. destruct C as [(-> & ->)|[C|[(-> & ->)|(-> & ->)]]].
    + intros E. pose proof (UP _ top_hd_in) as U. rewrite <- E in U. cbn in U. lra.
    + now apply (leftward_ne _ LW).
    + intros E. pose proof (UP _ (last_in top zero2 top_ne)) as U. rewrite E in U. cbn in U. lra.
    + intros E. pose proof (hd_last_x _ LW T2) as U. unfold A, B in E. injection E as E. lra.
  - right; left. unfold outline. fold A B. cbn [hd]. rewrite last_cons_app. cbn [x2]. unfold A, B. cbn [x2]. pose proof (Rle_abs (x2 (hd zero2 top) - x2 (last top zero2))). lra.
Qed.
Lemma outline_closed : close_loop A (outline top) = outline top ++ [A].
Proof.
  unfold close_loop, outline. fold A B. rewrite last_cons_app. replace (equal_within2 A B tolerance) with false; [reflexivity|]. symmetry. apply andb_false_iff. left. apply Rleb_false. unfold A, B. cbn [x2].
  pose proof (Rle_abs (x2 (hd zero2 top) - x2 (last top zero2))). lra.
Qed.
Lemma hd_map_qt l : l <> [] -> hd zero2 (map qt l) = qt (hd zero2 l).
Proof. destruct l; [congruence|reflexivity]. Qed.
Lemma last_map_qt l : l <> [] -> last (map qt l) zero2 = qt (last l zero2).
Proof. induction l as [|a l IH]; [congruence|]. intros _. destruct l as [|b r]; [reflexivity|]. cbn [map]. rewrite !last_cons. apply IH. discriminate. Qed.
Lemma outline_wn p : ~ on_polyline (outline top) p -> winding (outline top) p =
  IZR (loop_wn (map qt top) (qt p) + if Rleb (x2 B) (x2 p) then if Rltb (x2 p) (x2 A) then if Rltb 0 (y2 p) then 1 else 0 else 0 else 0)%Z.
Proof.
  intros O. pose proof top_ne as NE. pose proof (hd_last_x _ LW T2) as HL. assert (N2 : (2 <= length (outline top))%nat) by (unfold outline; cbn [length]; rewrite app_length; cbn; lia).
  pose proof outline_ok as OK. destruct (close_loop_ok A (top ++ [B]) N2 OK) as (D & L & H0 & N & OE & _ & _). change (A :: top ++ [B]) with (outline top) in *.
  pose proof (winding_turn A (top ++ [B]) p N2 OK O) as W. change (A :: top ++ [B]) with (outline top) in W. rewrite W. f_equal.
  rewrite <- wn_qt; [|exact D|rewrite L, H0; reflexivity|exact N|rewrite OE; exact O]. rewrite outline_closed. unfold outline. fold A B.
  rewrite map_app. change (map qt [A]) with [qt A]. rewrite wn_snoc by discriminate. change (map qt (A :: top ++ [B])) with (qt A :: map qt (top ++ [B])). rewrite map_app. change (map qt [B]) with [qt B].
  rewrite last_cons_app.
  assert (E1 : loop_wn (qt A :: map qt top ++ [qt B]) (qt p) = loop_wn (map qt top) (qt p)).
  { assert (E : qt A :: map qt top ++ [qt B] = (qt A :: map qt top) ++ [qt B]) by reflexivity. rewrite E. rewrite wn_snoc by discriminate.
    assert (E2 : last (qt A :: map qt top) zero2 = qt (last top zero2)). { rewrite <- last_map_qt by exact NE. destruct (map qt top) eqn:M; [apply map_eq_nil in M; congruence|]. apply last_cons. } rewrite E2.
    assert (E3 : loop_wn (qt A :: map qt top) (qt p) = (seg_wn (qt p) (qt A) (qt (hd zero2 top)) + loop_wn (map qt top) (qt p))%Z). { rewrite <- hd_map_qt by exact NE. destruct (map qt top) eqn:M; [apply map_eq_nil in M; congruence|]. apply wn_cons. } rewrite E3.
    pose proof (UP _ top_hd_in) as U0. pose proof (UP _ (last_in top zero2 NE)) as U1.
    rewrite seg_wn_qt by (intros Q; rewrite <- Q in U0; cbn in U0; lra). rewrite seg_wn_qt by (intros Q; rewrite Q in U1; cbn in U1; lra). unfold A, B. cbn [x2].
    destruct (Rleb_spec (x2 (hd zero2 top)) (x2 p)), (Rltb_spec (x2 p) (x2 (hd zero2 top))), (Rleb_spec (x2 (last top zero2)) (x2 p)), (Rltb_spec (x2 p) (x2 (last top zero2))); try lra; lia. }
  rewrite E1. f_equal. assert (AB : B <> A) by (unfold A, B; intros Q; injection Q as Q; lra). rewrite seg_wn_qt by exact AB.
  assert (CR : cross2 (sub2 B p) (sub2 A p) = y2 p * (x2 A - x2 B)) by (unfold A, B, cross2, sub2; cbn; ring). rewrite CR. assert (x2 B < x2 A) by exact HL.
  destruct (Rleb_spec (x2 B) (x2 p)).
  - destruct (Rltb_spec (x2 p) (x2 A)); [|reflexivity]. destruct (Rltb_spec 0 (y2 p * (x2 A - x2 B))), (Rltb_spec 0 (y2 p)); try reflexivity; exfalso; nra.
  - destruct (Rleb_spec (x2 A) (x2 p)); [lra|reflexivity].
Qed.
(** The inside of the outline is the region under the polyline. *)
Lemma graph_inside s p : polygon (outline top) = Ok s -> (ev2 s p < 0 <-> under top p).
Proof.
  intros P. pose proof top_ne as NE. pose proof (hd_last_x _ LW T2) as HL. destruct (C59_exact_partial _ _ P outline_ok) as (_ & IN & _). rewrite IN. split.
  - intros (O & W). rewrite outline_wn in W by exact O.
    assert (OE : forall a b, consecutive (outline top ++ [A]) a b -> ~ on_seg a b p) by (intros a b C S; apply O; exists a, b; split; [exact C|exact S]).
    destruct (top_wn p top LW NE) as [(X & E)|(a & b & C & X & E)]; rewrite E in W.
    + exfalso. apply W. unfold A, B. cbn [x2]. destruct (Rleb_spec (x2 (last top zero2)) (x2 p)), (Rltb_spec (x2 p) (x2 (hd zero2 top))); try lra; reflexivity.
    + assert (IA : In a top /\ In b top) by (destruct C as (l1 & l2 & ->); split; apply in_or_app; right; cbn; tauto). destruct IA as (IA & IB).
      pose proof (leftward_first _ _ LW IA) as FA. pose proof (leftward_last _ _ LW IB) as LB. pose proof (LW _ _ C) as AB. pose proof (UP _ IA) as UA. pose proof (UP _ IB) as UB.
      assert (NC : cross2 (sub2 a p) (sub2 b p) <> 0) by (intros Q; apply (OE a b); [apply outline_edges; now right; left|apply cross_on; [lra|lra|exact Q]]).
      unfold A, B in W. cbn [x2] in W. rewrite (proj2 (Rleb_true _ _)) in W by lra. rewrite (proj2 (Rltb_true (x2 p) (x2 (hd zero2 top)))) in W by lra.
      assert (QP : cross2 (sub2 a p) (sub2 b p) < 0 -> 0 < y2 p). { unfold cross2, sub2. cbn [x2 y2]. intros Q. destruct (Rlt_dec 0 (y2 p)); [assumption|]. exfalso. assert (0 <= (x2 a - x2 p) * (y2 b - y2 p)) by nra. assert (0 <= (x2 p - x2 b) * (y2 a - y2 p)) by nra. nra. }
      destruct (Rltb_spec (cross2 (sub2 a p) (sub2 b p)) 0) as [Q|Q].
      * exfalso. apply W. rewrite (proj2 (Rltb_true _ _)) by now apply QP. reflexivity.
      * destruct (Rltb_spec 0 (y2 p)) as [Y|Y]; [|exfalso; now apply W]. split; [exact Y|]. split; [|exists a, b; split; [exact C|]; lra]. split; [|lra].
        destruct (Rlt_dec (x2 (last top zero2)) (x2 p)) as [|NL]; [assumption|]. exfalso. assert (XL : x2 p = x2 (last top zero2)) by lra. assert (XB : x2 b = x2 p) by lra.
        assert (EB : b = last top zero2). { destruct C as (l1 & l2 & C). assert (L2 : l2 = []). { destruct l2 as [|c l2]; [reflexivity|]. exfalso. assert (LW' : leftward (b :: c :: l2)). { intros u v K. apply LW. rewrite C. change (a :: b :: c :: l2) with ([a] ++ (b :: c :: l2)). rewrite app_assoc. now apply consecutive_r. } assert (K0 : In (last (c :: l2) zero2) (c :: l2)) by (apply last_in; discriminate). pose proof (leftward_hd _ _ _ LW' K0) as K. rewrite C, last_app_cons in XL. rewrite !last_cons in XL. lra. }
          rewrite C, L2, last_app_cons. reflexivity. }
        apply (OE (last top zero2) B); [apply outline_edges; right; right; left; now split|]. exists ((y2 b - y2 p) / y2 b). rewrite <- EB. assert (YB : y2 p <= y2 b). { unfold cross2, sub2 in Q, NC. cbn [x2 y2] in Q, NC. rewrite XB in *. nra. }
        split; [split; [apply Rmult_le_pos; [lra|left; apply Rinv_0_lt_compat; lra]|apply (Rmult_le_reg_r (y2 b)); [lra|]; unfold Rdiv; rewrite Rmult_assoc, Rinv_l by lra; lra]|].
        unfold B, add2, scale2, sub2. apply v2_ext; cbn [x2 y2]; [rewrite <- EB; nra|field; lra].
  - intros (Y & X & a & b & C & XX & Q). assert (O : ~ on_polyline (outline top) p).
    { intros (c & d & D & S). apply outline_edges in D. destruct D as [(-> & ->)|[D|[(-> & ->)|(-> & ->)]]].
      - apply seg_x in S; [|unfold A; cbn; lra]. unfold A in S. cbn in S. lra.
      - pose proof (seg_cross _ _ _ S) as Z0. pose proof (seg_x _ _ _ S (Rlt_le _ _ (LW _ _ D))) as Z1. pose proof (under_unique _ _ _ _ _ _ LW C D XX Z1 Q). lra.
      - apply seg_x in S; [|unfold B; cbn; lra]. unfold B in S. cbn in S. lra.
      - destruct S as (t & _ & ->). unfold A, B, add2, scale2, sub2 in Y. cbn in Y. lra. }
    split; [exact O|]. rewrite outline_wn by exact O. unfold A, B. cbn [x2]. rewrite (proj2 (Rleb_true _ _)) by lra. rewrite !(proj2 (Rltb_true _ _)) by lra.
    destruct (top_wn p top LW NE) as [(X0 & E)|(c & d & D & X0 & E)]; [lra|]. rewrite E.
    assert (0 < cross2 (sub2 c p) (sub2 d p)) by (apply (under_unique top p a b c d); try assumption; lra). rewrite (proj2 (Rltb_false _ _)) by lra. discrR.
Qed.
End Graph.

(** ** What the builder makes of a list without arcs *)
Lemma vertices_mono k b r : vertices k b = Some r -> forall k', (k <= k')%nat -> vertices k' b = Some r.
Proof.
  unfold vertices. destruct (b_list b) as [l|]; [|intros E k' _; exact E]. unfold fixups. destruct (rel_to_abs _ _ _) as [[x l1]| |]; try (intros E k' _; exact E).
  destruct (passes (arc_vertex (b_closed b)) k l1) as [r1|] eqn:E1; [|discriminate]. intros E k' K. rewrite (passes_mono _ _ _ _ E1) by exact K. destruct r1 as [l2| |]; try exact E.
  destruct (passes (smooth_vertex (b_closed b)) k l2) as [r2|] eqn:E2; [|discriminate]. rewrite (passes_mono _ _ _ _ E2) by exact K. exact E.
Qed.
Lemma abs_none p l : (forall v, In v l -> pv_rel v = false) -> abs_from p l = l.
Proof. revert p. induction l as [|v l IH]; intros p H; [reflexivity|]. cbn [abs_from]. unfold rel_block. rewrite (H v) by now left. rewrite IH by (intros; apply H; now right). reflexivity. Qed.
Lemma built_fillets l : (forall x m, In x l -> In m (snd x) -> tame_mod m) -> let L := pts_of l in regular false L ->
  exists blk dd, vertices_of l = Ok (map pv_pos (flat_map blk (seq 0 (length L)))) /\
    (forall i v, nth_error L i = Some v ->
      (dd i = 0 /\ blk i = [v] /\ (pv_type v = PvSmooth -> forall p q, px false (length L) i = Some p -> nx false (length L) i = Some q ->
         forall pts d, fillet (pv_pos v) (at_ L p) (at_ L q) (pv_radius v) (pv_facets v) pts d ->
           norm2 (sub2 (at_ L p) (pv_pos v)) - dd p < d \/ norm2 (sub2 (at_ L q) (pv_pos v)) - dd q < d)) \/
      (pv_type v = PvSmooth /\ exists p q, px false (length L) i = Some p /\ nx false (length L) i = Some q /\
        fillet (pv_pos v) (at_ L p) (at_ L q) (pv_radius v) (pv_facets v) (blk i) (dd i))).
Proof.
  intros T L REG. assert (P : forall v, In v L -> pv_rel v = false /\ pv_type v <> PvArc /\ (pv_type v <> PvNormal -> (1 <= pv_facets v)%Z)).
  { intros v I. apply in_map_iff in I. destruct I as (x & <- & I). apply tame_fold; try (cbn; congruence). intros m M. exact (T x m I M). }
  assert (F : facets_ok L) by (intros v I; apply P; exact I). assert (R : forall v, In v L -> pv_rel v = false) by (intros v I; now apply P).
  assert (FO : first_ok false L) by (unfold first_ok; destruct L as [|v r]; [exact I|]; left; apply R; now left).
  destruct (C60_fillets_partial (Builder false false (Some L)) L eq_refl F FO) as (fuel & blk & dd & V & B & _); cbn [b_closed] in *.
  - unfold expand_arcs. rewrite abs_none by exact R. rewrite arcs_normal by (intros v I; now apply P). exact REG.
  - unfold expand_arcs in V, B. rewrite abs_none in V, B by exact R. rewrite arcs_normal in V, B by (intros v I; now apply P). exists blk, dd. split; [|exact B].
    destruct (vertices_of_ok l T) as (fin & E & _). rewrite E. unfold vertices_of in E. fold (pts_of l) in E. fold L in E. destruct (vertices (2 + length l) _) as [r|] eqn:Q; [|discriminate].
    specialize (V (fuel + (2 + length l))%nat ltac:(lia)). rewrite (vertices_mono _ _ _ Q) in V by lia. injection V as ->. exact (eq_sym E).
Qed.

(** ** The shape of a fillet between two edges that run to the left *)
Lemma consecutive_nth l a b : consecutive l a b -> exists j, nth_error l j = Some a /\ nth_error l (Datatypes.S j) = Some b.
Proof. intros (l1 & l2 & ->). exists (length l1). rewrite !nth_error_app2 by lia. rewrite Nat.sub_diag. replace (Datatypes.S (length l1) - length l1)%nat with 1%nat by lia. now split. Qed.
Lemma nth_consecutive l j a b : nth_error l j = Some a -> nth_error l (Datatypes.S j) = Some b -> consecutive l a b.
Proof.
  revert l. induction j as [|j IH]; intros l A B.
  - destruct l as [|x [|y r]]; try discriminate. injection A as ->. injection B as ->. exists [], r. reflexivity.
  - destruct l as [|x l]; [discriminate|]. apply consecutive_cons. exact (IH l A B).
Qed.
Lemma arc_sign f t jj k z a b : sin (f * t) * z = k * (sin (f * t - jj * t) * a - sin (jj * t) * b) -> k * sin (f * t) < 0 -> 0 < jj < f -> 0 < a -> b < 0 -> 1 <= f -> - PI < f * t < PI -> sin (t / 2) * z < 0.
Proof.
  intros Y SN J A B F T. pose proof PI_RGT_0 as PP. destruct (Rtotal_order t 0) as [N|[N|N]].
  - assert (f * t <= t) by nra. assert (f * t < jj * t) by nra. assert (jj * t < 0) by nra.
    assert (A0 : sin (t / 2) < 0) by (apply sin_lt_0_var; lra). assert (A1 : sin (jj * t) < 0) by (apply sin_lt_0_var; lra). assert (A2 : sin (f * t - jj * t) < 0) by (apply sin_lt_0_var; lra). assert (A3 : sin (f * t) < 0) by (apply sin_lt_0_var; lra).
    set (s0 := sin (t / 2)) in *. set (s1 := sin (jj * t)) in *. set (s2 := sin (f * t - jj * t)) in *. set (s3 := sin (f * t)) in *. clearbody s0 s1 s2 s3. clear - Y SN A B A0 A1 A2 A3.
    assert (0 < k) by nra. assert (s2 * a - s1 * b < 0) by nra. assert (0 < z) by nra. nra.
  - exfalso. rewrite N, Rmult_0_r, sin_0 in SN. lra.
  - assert (t <= f * t) by nra. assert (jj * t < f * t) by nra. assert (0 < jj * t) by nra.
    assert (A0 : 0 < sin (t / 2)) by (apply sin_gt_0; lra). assert (A1 : 0 < sin (jj * t)) by (apply sin_gt_0; lra). assert (A2 : 0 < sin (f * t - jj * t)) by (apply sin_gt_0; lra). assert (A3 : 0 < sin (f * t)) by (apply sin_gt_0; lra).
    set (s0 := sin (t / 2)) in *. set (s1 := sin (jj * t)) in *. set (s2 := sin (f * t - jj * t)) in *. set (s3 := sin (f * t)) in *. clearbody s0 s1 s2 s3. clear - Y SN A B A0 A1 A2 A3.
    assert (k < 0) by nra. assert (0 < s2 * a - s1 * b) by nra. assert (z < 0) by nra. nra.
Qed.
Definition perp (w : v2) : v2 := V2 (- y2 w) (x2 w).
Lemma fillet_shape v a b r f pts d : cross2 (sub2 a v) (sub2 b v) <> 0 -> 0 < r -> (1 <= f)%Z -> fillet v a b r f pts d ->
  let u0 := unit2 (sub2 a v) in let u1 := unit2 (sub2 b v) in
  exists c t, length pts = Z.to_nat (f + 1) /\ hd zero2 (map pv_pos pts) = add2 v (scale2 d u0) /\ last (map pv_pos pts) zero2 = add2 v (scale2 d u1) /\
    (forall q, In q (map pv_pos pts) -> norm2sq (sub2 q c) = r * r) /\
    (forall q q', consecutive (map pv_pos pts) q q' -> cross2 (sub2 q c) (sub2 q' c) = r * r * sin t /\ dot2 (sub2 q c) (sub2 q' c) = r * r * cos t) /\
    dot2 (sub2 c v) u0 = d /\ dot2 (sub2 c v) u1 = d /\
    Rabs (IZR f * t) < PI /\ sin (IZR f * t) = - cross2 u0 u1 /\ cos (IZR f * t) = - dot2 u0 u1 /\
    (x2 b < x2 v < x2 a -> leftward (map pv_pos pts)).
Proof.
  intros C RP F FI u0 u1. pose proof (fillet_len _ _ _ _ _ _ _ C FI) as (K1 & _). fold u0 u1 in K1. pose proof (fillet_first _ _ _ _ _ _ _ F FI) as (w0 & H0 & H1). pose proof (fillet_last _ _ _ _ _ _ _ F FI) as (w1 & H2 & H3). fold u0 in H1. fold u1 in H3.
  destruct FI as (D & c & t & LN & NT & NM & E & T0 & T1 & TA). fold u0 in NT, NM, E, T0. fold u1 in E, T1.
  destruct (cross_ne _ _ C) as (NA & NB). destruct (unit_ne _ NA) as (U0 & E0 & P0). destruct (unit_ne _ NB) as (U1 & E1 & P1). fold u0 in U0, E0. fold u1 in U1, E1.
  set (w := sub2 (add2 v (scale2 d u0)) c) in *. assert (WC : sub2 (add2 v (scale2 d u1)) c = rot (IZR f * t) w) by (rewrite <- E; unfold sub2, add2; apply v2_ext; cbn; ring).
  rewrite WC in T1. rewrite E0 in T0. rewrite E1 in T1. set (T := IZR f * t) in *. set (n0 := norm2 (sub2 a v)) in *. set (n1 := norm2 (sub2 b v)) in *.
  assert (O0 : dot2 w u0 = 0). { unfold dot2, scale2 in *. cbn [x2 y2] in *. apply (Rmult_eq_reg_l n0); [lra|lra]. }
  assert (O1 : dot2 (rot T w) u1 = 0). { unfold dot2, scale2 in *. cbn [x2 y2] in *. apply (Rmult_eq_reg_l n1); [lra|lra]. }
  assert (WR : norm2sq w = r * r) by (rewrite <- NM, norm2_sq; reflexivity). set (k := dot2 (perp w) u0).
  assert (PW : perp w = scale2 k u0).
  { unfold k, perp, dot2, scale2, norm2sq in *. unfold dot2 in *. cbn [x2 y2] in *. apply v2_ext; cbn [x2 y2].
    - transitivity (- y2 w * (x2 u0 * x2 u0 + y2 u0 * y2 u0)); [rewrite U0; ring|]. transitivity ((- y2 w * x2 u0 + x2 w * y2 u0) * x2 u0 - (x2 w * x2 u0 + y2 w * y2 u0) * y2 u0); [ring|rewrite O0; ring].
    - transitivity (x2 w * (x2 u0 * x2 u0 + y2 u0 * y2 u0)); [rewrite U0; ring|]. transitivity ((- y2 w * x2 u0 + x2 w * y2 u0) * y2 u0 + (x2 w * x2 u0 + y2 w * y2 u0) * x2 u0); [ring|rewrite O0; ring]. }
  assert (KR : k * k = r * r). { rewrite <- WR. transitivity (norm2sq (perp w)); [rewrite PW; unfold norm2sq, dot2, scale2 in *; cbn [x2 y2]; transitivity (k * k * (x2 u0 * x2 u0 + y2 u0 * y2 u0)); [rewrite U0; ring|ring]|unfold norm2sq, dot2, perp; cbn; ring]. }
  assert (DW : scale2 d (sub2 u1 u0) = sub2 (rot T w) w) by (rewrite <- WC; unfold w, sub2, add2, scale2; apply v2_ext; cbn; ring).
  set (kap := dot2 u0 u1) in *.
  assert (SK : d * (kap - 1) * k = r * r * sin T).
  { transitivity (dot2 (scale2 d (sub2 u1 u0)) (perp w)).
    - rewrite PW. unfold kap, dot2, scale2, sub2, norm2sq in *. unfold dot2 in U0. cbn [x2 y2] in *. transitivity (d * k * (x2 u0 * x2 u1 + y2 u0 * y2 u1 - (x2 u0 * x2 u0 + y2 u0 * y2 u0))); [rewrite U0; ring|ring].
    - rewrite DW, <- WR. unfold norm2sq, dot2, sub2, rot, perp; cbn [x2 y2]. ring. }
  set (k' := dot2 (rot T (perp w)) u1).
  assert (SC : sin T * sin T + cos T * cos T = 1) by (pose proof (sin2_cos2 T) as Q; unfold Rsqr in Q; exact Q).
  assert (PW' : rot T (perp w) = scale2 k' u1).
  { assert (RP' : rot T (perp w) = perp (rot T w)) by (unfold rot, perp; apply v2_ext; cbn; ring). unfold k'. rewrite RP'. set (z := rot T w) in *. clearbody z.
    unfold perp, dot2, scale2, norm2sq in *. unfold dot2 in *. cbn [x2 y2] in *. apply v2_ext; cbn [x2 y2].
    - transitivity (- y2 z * (x2 u1 * x2 u1 + y2 u1 * y2 u1)); [rewrite U1; ring|]. transitivity ((- y2 z * x2 u1 + x2 z * y2 u1) * x2 u1 - (x2 z * x2 u1 + y2 z * y2 u1) * y2 u1); [ring|rewrite O1; ring].
    - transitivity (x2 z * (x2 u1 * x2 u1 + y2 u1 * y2 u1)); [rewrite U1; ring|]. transitivity ((- y2 z * x2 u1 + x2 z * y2 u1) * y2 u1 + (x2 z * x2 u1 + y2 z * y2 u1) * x2 u1); [ring|rewrite O1; ring]. }
  assert (SK' : d * (1 - kap) * k' = r * r * sin T).
  { transitivity (dot2 (scale2 d (sub2 u1 u0)) (rot T (perp w))).
    - rewrite PW'. unfold kap, dot2, scale2, sub2, norm2sq in *. unfold dot2 in U1. cbn [x2 y2] in *. transitivity (d * k' * ((x2 u1 * x2 u1 + y2 u1 * y2 u1) - (x2 u0 * x2 u1 + y2 u0 * y2 u1))); [rewrite U1; ring|ring].
    - rewrite DW, <- WR. unfold norm2sq, dot2, sub2, rot, perp; cbn [x2 y2]. transitivity ((x2 w * x2 w + y2 w * y2 w) * sin T); [ring|ring]. }
  assert (KK : k' = - k) by (apply (Rmult_eq_reg_l (d * (1 - kap))); [nra|nra]). rewrite KK in PW'. clear SK' KK k'.
  assert (K0 : k <> 0) by nra.
  assert (ST : sin T = - cross2 u0 u1).
  { apply (Rmult_eq_reg_l (k * k)); [|nra]. rewrite KR at 1. rewrite <- WR. transitivity (cross2 (perp w) (rot T (perp w))); [unfold norm2sq, dot2, cross2, rot, perp; cbn [x2 y2]; ring|]. rewrite PW', PW. unfold cross2, scale2; cbn [x2 y2]. ring. }
  assert (CT : cos T = - dot2 u0 u1).
  { apply (Rmult_eq_reg_l (k * k)); [|nra]. rewrite KR at 1. rewrite <- WR. transitivity (dot2 (perp w) (rot T (perp w))); [unfold norm2sq, dot2, rot, perp; cbn [x2 y2]; ring|]. rewrite PW', PW. unfold dot2, scale2; cbn [x2 y2]. ring. }
  assert (SN : k * sin T < 0). { assert (0 < d * (1 - kap) * (k * k)) by (apply Rmult_lt_0_compat; nra). assert (r * r * (k * sin T) < 0) by (replace (r * r * (k * sin T)) with (k * (r * r * sin T)) by ring; rewrite <- SK; nra). nra. }
  assert (IX : forall q q', consecutive (map pv_pos pts) q q' -> exists j, (Datatypes.S j < Z.to_nat (f + 1))%nat /\ q = add2 c (rot (INR j * t) w) /\ q' = add2 c (rot (INR (Datatypes.S j) * t) w)).
  { intros q q' Q. apply consecutive_nth in Q. destruct Q as (j & Q1 & Q2). assert (J : (Datatypes.S j < Z.to_nat (f + 1))%nat) by (rewrite <- LN; rewrite <- (map_length pv_pos); apply nth_error_Some; congruence).
    exists j. split; [exact J|]. rewrite (map_nth_error pv_pos _ _ (NT j ltac:(lia))) in Q1. rewrite (map_nth_error pv_pos _ _ (NT (Datatypes.S j) J)) in Q2. injection Q1 as <-. injection Q2 as <-. now split. }
  exists c, t. split; [exact LN|]. split; [|split; [|split; [|split; [|split; [|split; [|split; [exact TA|split; [exact ST|split; [exact CT|]]]]]]]]].
  - destruct pts as [|x l]; [discriminate|]. injection H0 as ->. cbn [map hd]. rewrite H1. reflexivity.
  - assert (NE : pts <> []) by (intros ->; discriminate). destruct (exists_last NE) as (l & x & ->). rewrite map_app. cbn [map]. rewrite last_snoc. rewrite app_length in H2. cbn [length] in H2.
    replace (length l + 1 - 1)%nat with (length l) in H2 by lia. rewrite nth_error_app2, Nat.sub_diag in H2 by lia. injection H2 as ->. exact H3.
  - intros q I. apply in_map_iff in I. destruct I as (x & <- & I). apply In_nth_error in I. destruct I as (j & J). assert (JL : (j < Z.to_nat (f + 1))%nat) by (rewrite <- LN; apply nth_error_Some; congruence). rewrite (NT j JL) in J. injection J as <-. cbn [pv_pos pv_at].
    rewrite <- WR. set (s := INR j * t). pose proof (sin2_cos2 s) as Q. unfold Rsqr in Q. unfold norm2sq, dot2, sub2, add2, rot; cbn [x2 y2]. transitivity ((sin s * sin s + cos s * cos s) * (x2 w * x2 w + y2 w * y2 w)); [ring|rewrite Q; ring].
  - intros q q' Q. destruct (IX _ _ Q) as (j & _ & -> & ->). assert (SJ : INR (Datatypes.S j) * t = INR j * t + t) by (rewrite S_INR; ring). rewrite SJ. set (s := INR j * t). pose proof (sin2_cos2 s) as S0. unfold Rsqr in S0. rewrite <- WR. unfold norm2sq, cross2, dot2, sub2, add2, rot; cbn [x2 y2]. rewrite sin_plus, cos_plus.
    split; [transitivity ((sin s * sin s + cos s * cos s) * (x2 w * x2 w + y2 w * y2 w) * sin t)|transitivity ((sin s * sin s + cos s * cos s) * (x2 w * x2 w + y2 w * y2 w) * cos t)]; try (rewrite S0; ring); ring.
  - assert (dot2 (sub2 c v) u0 = d * norm2sq u0 - dot2 w u0) by (unfold w, norm2sq, dot2, sub2, add2, scale2; cbn; ring). rewrite H, U0, O0. ring.
  - assert (dot2 (sub2 c v) u1 = d * norm2sq u1 - dot2 (sub2 (add2 v (scale2 d u1)) c) u1) by (unfold norm2sq, dot2, sub2, add2, scale2; cbn; ring). rewrite H, U1, WC, O1. ring.
  - intros (XB & XA) q q' Q. destruct (IX _ _ Q) as (j & J & -> & ->). assert (SJ : INR (Datatypes.S j) * t = (INR j + 1 / 2) * t + t / 2) by (rewrite S_INR; field). assert (SI : INR j * t = (INR j + 1 / 2) * t - t / 2) by field. rewrite SJ, SI. set (s := (INR j + 1 / 2) * t).
    assert (X : x2 (add2 c (rot (s + t / 2) w)) - x2 (add2 c (rot (s - t / 2) w)) = 2 * sin (t / 2) * x2 (rot s (perp w))).
    { unfold add2, rot, perp; cbn [x2 y2]. rewrite cos_plus, sin_plus, cos_minus, sin_minus. ring. }
    assert (Y : sin T * x2 (rot s (perp w)) = k * (sin (T - s) * x2 u0 - sin s * x2 u1)).
    { transitivity (sin (T - s) * x2 (perp w) + sin s * x2 (rot T (perp w))); [|rewrite PW', PW; unfold scale2; cbn [x2 y2]; ring]. unfold rot; cbn [x2 y2]. rewrite sin_minus.
      transitivity (sin T * cos s * x2 (perp w) - sin T * sin s * y2 (perp w)); [ring|]. ring. }
    assert (JF : 0 < INR j + 1 / 2 < IZR f). { pose proof (pos_INR j). split; [lra|]. assert (Z : (Z.of_nat j <= f - 1)%Z) by lia. apply IZR_le in Z. rewrite minus_IZR, <- INR_IZR_INZ in Z. lra. }
    assert (UX0 : 0 < x2 u0). { assert (Z : x2 (sub2 a v) = n0 * x2 u0) by (rewrite E0; reflexivity). change (x2 (sub2 a v)) with (x2 a - x2 v) in Z. clear - Z XA P0. clearbody n0 u0. nra. }
    assert (UX1 : x2 u1 < 0). { assert (Z : x2 (sub2 b v) = n1 * x2 u1) by (rewrite E1; reflexivity). change (x2 (sub2 b v)) with (x2 b - x2 v) in Z. clear - Z XB P1. clearbody n1 u1. nra. }
    pose proof PI_RGT_0 as PP. assert (F1 : 1 <= IZR f) by (apply IZR_le in F; exact F). set (z := x2 (rot s (perp w))) in *. set (jj := INR j + 1 / 2) in *.
    assert (ABS : - PI < T < PI) by (apply Rabs_def2 in TA; lra). unfold T in ABS, Y, SN. unfold s in Y. clearbody z jj. clear SJ SI IX NT Q J.
    assert (GOAL : sin (t / 2) * z < 0); [|lra].
    { clear - Y SN JF UX0 UX1 F1 ABS. clearbody u0 u1. now apply (arc_sign (IZR f) t jj k z (x2 u0) (x2 u1)). }
Qed.

(** ** Reading off the region *)
Lemma leftward_app l m : leftward l -> leftward m -> l <> [] -> m <> [] -> x2 (hd zero2 m) < x2 (last l zero2) -> leftward (l ++ m).
Proof. intros A B N M X a b C. apply consecutive_app in C; [|assumption|assumption]. destruct C as [C|[C|(-> & ->)]]; [now apply A|now apply B|exact X]. Qed.
Lemma leftward_one a : leftward [a].
Proof. intros x y ([|? [|? ?]] & ? & C); discriminate. Qed.
Lemma leftward_find l x : leftward l -> (2 <= length l)%nat -> x2 (last l zero2) <= x <= x2 (hd zero2 l) -> exists a b, consecutive l a b /\ x2 b <= x <= x2 a.
Proof.
  induction l as [|a l IH]; intros L N X; [cbn in N; lia|]. destruct l as [|b r]; [cbn in N; lia|]. rewrite last_cons in X. cbn [hd] in X.
  destruct (Rle_dec (x2 b) x) as [B|B].
  - exists a, b. split; [exists [], r; reflexivity|]. lra.
  - destruct r as [|c r]; [cbn in X; lra|]. destruct (IH (leftward_tl _ _ L)) as (u & v & C & Y); [cbn; lia|cbn [hd]; lra|]. exists u, v. split; [now apply consecutive_cons|exact Y].
Qed.
(** Over one edge of the polyline. *)
Lemma under_at top p a b : leftward top -> consecutive top a b -> x2 b <= x2 p <= x2 a -> x2 (last top zero2) < x2 p < x2 (hd zero2 top) ->
  (under top p <-> 0 < y2 p /\ 0 < cross2 (sub2 a p) (sub2 b p)).
Proof.
  intros L C X R. split.
  - intros (Y & _ & c & d & D & Z & Q). split; [exact Y|]. now apply (under_unique top p c d a b).
  - intros (Y & Q). split; [exact Y|]. split; [exact R|]. exists a, b. now split.
Qed.
Lemma under_down top x y y' : leftward top -> 0 < y' <= y -> under top (V2 x y) -> under top (V2 x y').
Proof.
  intros L Y (_ & R & a & b & C & X & Q). split; [cbn; lra|]. split; [exact R|]. exists a, b. split; [exact C|]. split; [exact X|]. pose proof (L _ _ C). unfold cross2, sub2 in *. cbn [x2 y2] in *. nra.
Qed.
(** A chord of a circle: points well inside the circle are on the centre's side; points outside
    the circle over (or under) the chord are on the other side. *)
Lemma chord_inside q q' c r t p : 0 < r -> - PI < t < PI -> norm2sq (sub2 q c) = r * r -> norm2sq (sub2 q' c) = r * r ->
  cross2 (sub2 q c) (sub2 q' c) = r * r * sin t -> dot2 (sub2 q c) (sub2 q' c) = r * r * cos t -> norm2 (sub2 p c) < r * cos (t / 2) ->
  (0 < t -> 0 < cross2 (sub2 q p) (sub2 q' p)) /\ (t < 0 -> cross2 (sub2 q p) (sub2 q' p) < 0).
Proof.
  intros R T N N' X D I. pose proof (norm2_nonneg (sub2 p c)) as NP. pose proof (norm2_sq (sub2 p c)) as NQ.
  assert (E : cross2 (sub2 q p) (sub2 q' p) = r * r * sin t - cross2 (sub2 p c) (sub2 q' q)) by (rewrite <- X; unfold cross2, sub2; cbn; ring). rewrite E. clear E.
  assert (L : norm2sq (sub2 q' q) = (2 * r * sin (t / 2)) * (2 * r * sin (t / 2))).
  { transitivity (norm2sq (sub2 q' c) + norm2sq (sub2 q c) - 2 * dot2 (sub2 q c) (sub2 q' c)); [unfold norm2sq, dot2, sub2; cbn; ring|]. rewrite N, N', D. replace t with (2 * (t / 2)) at 1 by field. rewrite cos_2a_sin. ring. }
  assert (S2 : sin t = 2 * sin (t / 2) * cos (t / 2)) by (replace t with (2 * (t / 2)) at 1 by field; apply sin_2a).
  set (z := cross2 (sub2 p c) (sub2 q' q)). set (n := norm2 (sub2 p c)) in *. set (s := sin (t / 2)) in *. set (k := cos (t / 2)) in *.
  assert (Z : z * z <= (n * n) * ((2 * r * s) * (2 * r * s))).
  { rewrite <- L, NQ. unfold z, norm2sq, cross2, dot2. set (a := x2 (sub2 p c)). set (b := y2 (sub2 p c)). set (e := x2 (sub2 q' q)). set (g := y2 (sub2 q' q)). assert (0 <= (a * e + b * g) * (a * e + b * g)) by apply Rle_0_sqr. nra. }
  rewrite S2. assert (RN : n < r * k) by exact I. assert (KP : 0 < k) by nra. clearbody z n. pose proof PI_RGT_0. split; intros T0.
  - assert (0 < s) by (apply sin_gt_0; lra). clearbody s k. assert (0 < 2 * r * s) by nra. set (m := 2 * r * s) in *. replace (r * r * (2 * s * k)) with (m * (r * k)) by (unfold m; ring). clearbody m.
    assert (G : 0 <= n * m) by nra. assert (Z' : z * z <= (n * m) * (n * m)) by lra. assert (z <= n * m) by (apply Rnot_lt_le; intros ?; clear - G Z' H2; set (g := n * m) in *; clearbody g; nra). nra.
  - assert (s < 0) by (apply sin_lt_0_var; lra). clearbody s k. assert (2 * r * s < 0) by nra. set (m := 2 * r * s) in *. replace (r * r * (2 * s * k)) with (m * (r * k)) by (unfold m; ring). clearbody m.
    assert (G : n * m <= 0) by nra. assert (Z' : z * z <= (n * m) * (n * m)) by lra. assert (n * m <= z) by (apply Rnot_lt_le; intros ?; clear - G Z' H2; set (g := n * m) in *; clearbody g; nra). nra.
Qed.
Lemma chord_outside q q' c r p : norm2sq (sub2 q c) = r * r -> norm2sq (sub2 q' c) = r * r -> x2 q' <= x2 p <= x2 q -> x2 q' < x2 q -> r * r < norm2sq (sub2 p c) ->
  (y2 p <= y2 c -> 0 < cross2 (sub2 q p) (sub2 q' p)) /\ (y2 c <= y2 p -> cross2 (sub2 q p) (sub2 q' p) < 0).
Proof.
  intros N N' X L O. set (tau := (x2 q - x2 p) / (x2 q - x2 q')). assert (T : 0 <= tau <= 1).
  { unfold tau. split; [apply Rmult_le_pos; [lra|left; apply Rinv_0_lt_compat; lra]|]. apply (Rmult_le_reg_r (x2 q - x2 q')); [lra|]. unfold Rdiv. rewrite Rmult_assoc, Rinv_l by lra. lra. }
  assert (XT : x2 p = x2 q + tau * (x2 q' - x2 q)) by (unfold tau; field; lra). set (ych := y2 q + tau * (y2 q' - y2 q)).
  assert (CR : cross2 (sub2 q p) (sub2 q' p) = (x2 q - x2 q') * (ych - y2 p)) by (unfold cross2, sub2, ych; cbn [x2 y2]; rewrite XT; ring).
  assert (CI : (x2 p - x2 c) * (x2 p - x2 c) + (ych - y2 c) * (ych - y2 c) <= r * r).
  { unfold norm2sq, dot2, sub2 in N, N'. cbn [x2 y2] in N, N'. assert (E : (x2 p - x2 c) * (x2 p - x2 c) + (ych - y2 c) * (ych - y2 c) = (1 - tau) * (r * r) + tau * (r * r) - tau * (1 - tau) * ((x2 q - x2 q') * (x2 q - x2 q') + (y2 q - y2 q') * (y2 q - y2 q'))).
    { rewrite <- N at 1. rewrite <- N'. rewrite XT. unfold ych. ring. } rewrite E.
    assert (G1 : 0 <= tau * (1 - tau)) by (apply Rmult_le_pos; lra).
    assert (G2 : 0 <= (x2 q - x2 q') * (x2 q - x2 q') + (y2 q - y2 q') * (y2 q - y2 q')) by (apply Rplus_le_le_0_compat; apply Rle_0_sqr).
    pose proof (Rmult_le_pos _ _ G1 G2) as G3.
    replace ((1 - tau) * (r * r) + tau * (r * r)) with (r * r) by ring.
    apply Rminus_le. set (G := tau * (1 - tau) * _) in *. replace (r * r - G - r * r) with (- G) by ring.
    apply Ropp_le_cancel. rewrite Ropp_0, Ropp_involutive. exact G3. }
  unfold norm2sq, dot2, sub2 in O. cbn [x2 y2] in O. clearbody ych. clear XT T. clearbody tau. rewrite CR. split; intros Y.
  - assert (y2 p < ych); [|nra]. apply Rnot_le_lt. intros Z. nra.
  - assert (ych < y2 p); [|nra]. apply Rnot_le_lt. intros Z. nra.
Qed.
(** A rounded valley: below the circle is inside, above the arc is outside. *)
Definition arc_facts (F : list v2) (c : v2) (r t : R) : Prop :=
  leftward F /\ (2 <= length F)%nat /\ (forall q, In q F -> norm2sq (sub2 q c) = r * r) /\
  (forall q q', consecutive F q q' -> cross2 (sub2 q c) (sub2 q' c) = r * r * sin t /\ dot2 (sub2 q c) (sub2 q' c) = r * r * cos t).
Lemma consecutive_in l a b : consecutive l a b -> In a l /\ In b l.
Proof. intros (l1 & l2 & ->). split; apply in_or_app; right; cbn; tauto. Qed.
(** Away from the circle of an arc. *)
Lemma arc_far top F c r t p : leftward top -> (forall a b, consecutive F a b -> consecutive top a b) -> arc_facts F c r t -> 0 < r ->
  x2 (last F zero2) <= x2 p <= x2 (hd zero2 F) -> x2 (last top zero2) < x2 p < x2 (hd zero2 top) -> r < norm2 (sub2 p c) ->
  (0 < y2 p <= y2 c -> under top p) /\ (y2 c <= y2 p -> ~ under top p).
Proof.
  intros L S (LF & NF & CI & CH) R X XX O. destruct (leftward_find F (x2 p) LF NF X) as (a & b & C & Z). rewrite (under_at top p a b L (S _ _ C) Z XX). destruct (consecutive_in _ _ _ C) as (I1 & I2).
  destruct (chord_outside a b c r p (CI _ I1) (CI _ I2) Z (LF _ _ C)) as (A & B); [rewrite <- norm2_sq; pose proof (norm2_nonneg (sub2 p c)); nra|]. split; [intros Y; split; [lra|apply A; lra]|]. intros Y (_ & U). specialize (B Y). lra.
Qed.
Lemma valley_zone top F c r t p : leftward top -> (forall a b, consecutive F a b -> consecutive top a b) -> arc_facts F c r t -> 0 < r -> - PI < t < 0 ->
  x2 (last F zero2) <= x2 p <= x2 (hd zero2 F) -> x2 (last top zero2) < x2 p < x2 (hd zero2 top) ->
  (0 < y2 p <= y2 c -> r < norm2 (sub2 p c) -> under top p) /\ (norm2 (sub2 p c) < r * cos (t / 2) -> ~ under top p) /\
  (y2 c <= y2 p -> Rabs (x2 p - x2 c) < r * cos (t / 2) -> 0 < y2 c -> ~ under top p).
Proof.
  intros L S (LF & NF & CI & CH) R T X XX.
  assert (IN : forall z, x2 z = x2 p -> norm2 (sub2 z c) < r * cos (t / 2) -> ~ under top z).
  { intros z Z I U. rewrite <- Z in X, XX. destruct (leftward_find F (x2 z) LF NF X) as (a & b & C & Y). rewrite (under_at top z a b L (S _ _ C) Y XX) in U. destruct (CH _ _ C) as (C1 & C2). destruct (consecutive_in _ _ _ C) as (I1 & I2).
    pose proof PI_RGT_0. destruct (chord_inside a b c r t z R ltac:(lra) (CI _ I1) (CI _ I2) C1 C2 I) as (_ & Q). specialize (Q ltac:(lra)). lra. }
  split; [|split].
  - intros Y O. destruct (leftward_find F (x2 p) LF NF X) as (a & b & C & Z). rewrite (under_at top p a b L (S _ _ C) Z XX). destruct (consecutive_in _ _ _ C) as (I1 & I2). split; [lra|].
    apply (chord_outside a b c r p (CI _ I1) (CI _ I2) Z (LF _ _ C)); [|lra]. rewrite <- norm2_sq. pose proof (norm2_nonneg (sub2 p c)). nra.
  - intros I. now apply IN.
  - intros Y A YC U. apply (IN (V2 (x2 p) (y2 c))); [reflexivity| |].
    + assert (E : norm2 (sub2 (V2 (x2 p) (y2 c)) c) = Rabs (x2 p - x2 c)). { unfold norm2, norm2sq, dot2, sub2. cbn [x2 y2]. rewrite <- sqrt_Rsqr_abs. unfold Rsqr. f_equal. ring. } rewrite E. exact A.
    + apply (under_down top (x2 p) (y2 p)); [exact L|lra|]. destruct p; exact U.
Qed.
Lemma peak_zone top F c r t p : leftward top -> (forall a b, consecutive F a b -> consecutive top a b) -> arc_facts F c r t -> 0 < r -> 0 < t < PI ->
  x2 (last F zero2) <= x2 p <= x2 (hd zero2 F) -> x2 (last top zero2) < x2 p < x2 (hd zero2 top) ->
  (y2 c <= y2 p -> r < norm2 (sub2 p c) -> ~ under top p) /\ (0 < y2 p -> norm2 (sub2 p c) < r * cos (t / 2) -> under top p) /\
  (0 < y2 p <= y2 c -> Rabs (x2 p - x2 c) < r * cos (t / 2) -> under top p).
Proof.
  intros L S (LF & NF & CI & CH) R T X XX.
  assert (IN : forall z, x2 z = x2 p -> 0 < y2 z -> norm2 (sub2 z c) < r * cos (t / 2) -> under top z).
  { intros z Z ZY I. rewrite <- Z in X, XX. destruct (leftward_find F (x2 z) LF NF X) as (a & b & C & Y). rewrite (under_at top z a b L (S _ _ C) Y XX). destruct (CH _ _ C) as (C1 & C2). destruct (consecutive_in _ _ _ C) as (I1 & I2).
    pose proof PI_RGT_0. split; [exact ZY|]. apply (chord_inside a b c r t z R ltac:(lra) (CI _ I1) (CI _ I2) C1 C2 I). lra. }
  split; [|split].
  - intros Y O U. destruct (leftward_find F (x2 p) LF NF X) as (a & b & C & Z). rewrite (under_at top p a b L (S _ _ C) Z XX) in U. destruct (consecutive_in _ _ _ C) as (I1 & I2).
    assert (cross2 (sub2 a p) (sub2 b p) < 0); [|lra]. apply (chord_outside a b c r p (CI _ I1) (CI _ I2) Z (LF _ _ C)); [|lra]. rewrite <- norm2_sq. pose proof (norm2_nonneg (sub2 p c)). nra.
  - intros Y I. now apply IN.
  - intros Y A. destruct p as [px py]. cbn [x2 y2] in *. apply (under_down top px (y2 c)); [exact L|lra|]. apply IN; [reflexivity|cbn; lra|].
    assert (E : norm2 (sub2 (V2 px (y2 c)) c) = Rabs (px - x2 c)). { unfold norm2, norm2sq, dot2, sub2. cbn [x2 y2]. rewrite <- sqrt_Rsqr_abs. unfold Rsqr. f_equal. ring. } rewrite E. exact A.
Qed.
