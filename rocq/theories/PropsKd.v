(** C84: the k-d tree search of imported meshes. *)
From Coq Require Import Reals Lra Lia List Bool Arith ZArith Permutation Psatz.
From Verif Require Import Prelude Vec BoxModel SdfModel MatrixModel TransformModel PropsTransform PropsUtil BihModel PropsTri PropsBih PropsBihSign Tri2Model ImportModel PropsImport PropsPseudo KdModel PropsUnion2.
Import ListNotations.
Local Open Scope R_scope.

(** ** Building the tree *)
(** What mesh.Pivot promises: the same triangles, and one of them such that those before it are not greater and
    those behind it are not smaller, in the given dimension. *)
Definition pivots (pivot : axis -> list mtri -> list mtri * nat) : Prop := forall d l, l <> [] ->
  let '(l', k) := pivot d l in exists p, Permutation l' l /\ nth_error l' k = Some p /\
    Forall (fun x => coord d (mt_c x) <= coord d (mt_c p)) (firstn k l') /\ Forall (fun x => coord d (mt_c p) <= coord d (mt_c x)) (skipn (S k) l').
(** gonum's Partition works through kdPlane.Less only: the elements before the pivot are those that are not
    greater, and the elements behind it those that are not less, by Less.  With the Less of the code that is the order of the centroids. *)
Definition partitions (pivot : axis -> list mtri -> list mtri * nat) : Prop := forall d l, l <> [] ->
  let '(l', k) := pivot d l in exists p, Permutation l' l /\ nth_error l' k = Some p /\
    Forall (fun x => kd_less d p x = false) (firstn k l') /\ Forall (fun x => kd_less d x p = false) (skipn (S k) l').
Theorem C84_partition pivot : partitions pivot -> pivots pivot.
Proof.
  intros H d l NE. specialize (H d l NE). destruct (pivot d l) as [l' k]. destruct H as (p & P & N & A & B). exists p. repeat split; try assumption; (eapply Forall_impl; [|eassumption]); intros x E; unfold kd_less, kd_compare in E; apply Rltb_false in E; lra.
Qed.
Fixpoint kd_elems (t : kdtree) : list mtri := match t with KNil => [] | KNode p _ l r => p :: kd_elems l ++ kd_elems r end.
Fixpoint kd_ok (t : kdtree) : Prop :=
  match t with
  | KNil => True
  | KNode p d l r => Forall (fun x => coord d (mt_c x) <= coord d (mt_c p)) (kd_elems l) /\ Forall (fun x => coord d (mt_c p) <= coord d (mt_c x)) (kd_elems r) /\ kd_ok l /\ kd_ok r
  end.
Lemma build_ok pivot : pivots pivot -> forall fuel d l, (length l <= fuel)%nat -> Permutation (kd_elems (kd_build fuel pivot d l)) l /\ kd_ok (kd_build fuel pivot d l).
Proof.
  intros PV. induction fuel as [|f IH]; intros d l L.
  - destruct l; [split; [apply perm_nil|exact I]|cbn in L; lia].
  - destruct l as [|x l]; [split; [apply perm_nil|exact I]|]. cbn [kd_build]. pose proof (PV d (x :: l) ltac:(discriminate)) as H. destruct (pivot d (x :: l)) as [l' k]. destruct H as (p & PM & N & FL & FR). rewrite N.
    pose proof (Permutation_length PM) as PL. assert (K : (k < length l')%nat) by (apply nth_error_Some; congruence).
    destruct (IH (next_dim d) (firstn k l')) as (P1 & O1); [rewrite firstn_length; cbn in *; lia|]. destruct (IH (next_dim d) (skipn (S k) l')) as (P2 & O2); [rewrite skipn_length; cbn in *; lia|].
    split.
    + cbn [kd_elems]. rewrite P1, P2. rewrite <- PM. rewrite <- (firstn_skipn k l') at 3. rewrite Permutation_middle. apply Permutation_app_head.
      clear - N. revert k N. induction l' as [|y l' IH]; intros [|k] N; try discriminate; [injection N as ->; reflexivity|exact (IH k N)].
    + cbn [kd_ok]. repeat split; try assumption; apply Forall_forall; intros y I; [rewrite Forall_forall in FL; apply FL; now apply (Permutation_in _ P1)|rewrite Forall_forall in FR; apply FR; now apply (Permutation_in _ P2)].
Qed.
Lemma build_step f pivot d x l : kd_build (S f) pivot d (x :: l) = let '(l', k) := pivot d (x :: l) in
  match nth_error l' k with None => KNil | Some p => KNode p d (kd_build f pivot (next_dim d) (firstn k l')) (kd_build f pivot (next_dim d) (skipn (S k) l')) end.
Proof. reflexivity. Qed.
(** gonum's Partition around the first element, the pivot that MedianOfMedians chooses for fewer than five
    triangles: whatever it does inside the halves, first those that are not greater, then the pivot, then the greater ones. *)
Definition pivot_first (d : axis) (l : list mtri) : list mtri * nat :=
  match l with
  | [] => ([], 0%nat)
  | p :: r => (filter (fun x => negb (kd_less d p x)) r ++ p :: filter (fun x => kd_less d p x) r, length (filter (fun x => negb (kd_less d p x)) r))
  end.
Lemma filter_both {A} (f : A -> bool) l : Permutation (filter (fun x => negb (f x)) l ++ filter f l) l.
Proof. induction l as [|x l IH]; [reflexivity|]. cbn [filter]. destruct (f x); cbn [negb app]; [rewrite <- Permutation_middle|]; now apply perm_skip. Qed.
Lemma pivot_first_ok : pivots pivot_first.
Proof.
  intros d [|p r] NE; [congruence|]. cbn [pivot_first]. set (a := filter _ r). set (b := filter (fun x => kd_less d p x) r). exists p. split; [|split; [|split]].
  - rewrite <- Permutation_middle. apply perm_skip. apply filter_both.
  - rewrite nth_error_app2, Nat.sub_diag by lia. reflexivity.
  - rewrite firstn_app, Nat.sub_diag, firstn_all, app_nil_r. apply Forall_forall. intros x I. apply filter_In in I. destruct I as (_ & I). unfold kd_less, kd_compare in I. apply negb_true_iff, Rltb_false in I. lra.
  - replace (S (length a)) with (length a + 1)%nat by lia. rewrite skipn_app, skipn_all2 by lia. replace (length a + 1 - length a)%nat with 1%nat by lia. cbn [skipn app]. apply Forall_forall. intros x I. apply filter_In in I. destruct I as (_ & I). unfold kd_less, kd_compare in I. apply Rltb_true in I. lra.
Qed.

(** ** The search *)
Section Search.
  Context (vs : list pvert) (q : mtri) (rho : R).
  Let D (x : mtri) : R := kd_distance vs q x.
  (** [rho] bounds how much closer than its centroid a triangle can be. *)
  Definition reach (t : kdtree) : Prop := forall x, In x (kd_elems t) -> 0 <= D x /\ forall d, Rabs (kd_compare q x d) <= sqrt (D x) + rho.
  Definition good (t : kdtree) (dist : option R) (r : option (mtri * R)) : Prop :=
    match r with
    | None => t = KNil
    | Some (p, d) => 0 <= d /\ (forall e, dist = Some e -> d <= e) /\ (In p (kd_elems t) /\ d = D p \/ dist = Some d) /\ forall x, In x (kd_elems t) -> sqrt d <= sqrt (D x) + rho
    end.
  Lemma search_ok t : 0 <= rho -> kd_ok t -> reach t -> forall dist, (forall e, dist = Some e -> 0 <= e) -> good t dist (kd_search vs q t dist).
  Proof.
    intros RP. induction t as [|p pl l IHl r IHr]; intros OK RC dist DP; [reflexivity|]. destruct OK as (OL & OR & KL & KR).
    assert (RL : reach l) by (intros x I; apply RC; right; apply in_or_app; now left). assert (RR : reach r) by (intros x I; apply RC; right; apply in_or_app; now right). specialize (IHl KL RL). specialize (IHr KR RR).
    cbn [kd_search]. set (c := kd_compare q p pl). fold (D p). set (d := dmin dist (D p)).
    assert (Dp : 0 <= D p) by (apply RC; now left). assert (D0 : 0 <= d) by (unfold d; destruct dist as [e|]; cbn; [specialize (DP e eq_refl); rmm; lra|exact Dp]).
    assert (DE : forall e, dist = Some e -> d <= e) by (intros e ->; cbn; apply Rmin_l). assert (DD : d <= D p) by (unfold d; destruct dist as [e|]; cbn; [apply Rmin_r|lra]).
    assert (DS : d = D p \/ dist = Some d) by (unfold d; destruct dist as [e|]; cbn; [destruct (Rle_lt_dec e (D p)); [right; f_equal; rewrite Rmin_left; lra|left; rewrite Rmin_right; lra]|now left]).
    (* one visit *)
    assert (GO : forall t b, (t = l \/ t = r) -> 0 <= snd b -> (forall e, dist = Some e -> snd b <= e) -> (In (fst b) (kd_elems (KNode p pl l r)) /\ snd b = D (fst b) \/ dist = Some (snd b)) ->
      let g := match kd_search vs q t (Some (snd b)) with Some (p', d') => if Rltb d' (snd b) then (p', d') else b | None => b end in
      0 <= snd g /\ (forall e, dist = Some e -> snd g <= e) /\ (In (fst g) (kd_elems (KNode p pl l r)) /\ snd g = D (fst g) \/ dist = Some (snd g)) /\ snd g <= snd b /\ forall x, In x (kd_elems t) -> sqrt (snd g) <= sqrt (D x) + rho).
    { intros t b T B0 BE BS. assert (G : good t (Some (snd b)) (kd_search vs q t (Some (snd b)))) by (destruct T as [-> | ->]; [apply IHl|apply IHr]; intros e H; injection H as <-; exact B0).
      destruct (kd_search vs q t (Some (snd b))) as [[p' d']|]; cbn [good] in G; cbv zeta.
      - destruct G as (G0 & GE & GS & GX). destruct (Rltb_spec d' (snd b)) as [L|L].
        + cbn [fst snd]. split; [exact G0|]. split; [intros e E; specialize (BE e E); lra|]. split; [|split; [lra|exact GX]]. destruct GS as [(GI & GD)|GS]; [left; split; [right; apply in_or_app; destruct T as [-> | ->]; [now left|now right]|exact GD]|]. injection GS as GS. lra.
        + split; [exact B0|]. split; [exact BE|]. split; [exact BS|]. split; [lra|]. intros x I. specialize (GX x I). specialize (GE _ eq_refl). assert (d' = snd b) by lra. congruence.
      - subst t. split; [exact B0|]. split; [exact BE|]. split; [exact BS|]. split; [lra|]. intros x []. }
    (* a half that is not visited *)
    assert (PR : forall t e, (t = l /\ 0 <= c \/ t = r /\ c <= 0) -> 0 <= e -> e <= c * c -> forall x, In x (kd_elems t) -> sqrt e <= sqrt (D x) + rho).
    { intros t e T E0 E x I. apply Rle_trans with (Rabs c).
      - rewrite <- (sqrt_Rsqr_abs c). apply sqrt_le_1_alt. exact E.
      - assert (IX : In x (kd_elems (KNode p pl l r))) by (right; apply in_or_app; destruct T as [(-> & _)|(-> & _)]; [now left|now right]). destruct (RC x IX) as (_ & RX). eapply Rle_trans; [|apply (RX pl)].
        unfold kd_compare in *. destruct T as [(-> & C)|(-> & C)]; [rewrite Forall_forall in OL; specialize (OL x I); rewrite !Rabs_right by (unfold c in *; lra); unfold c; lra|]. rewrite Forall_forall in OR. specialize (OR x I). rewrite !Rabs_left1 by (unfold c in *; lra). unfold c. lra. }
    assert (FIN : forall t t' (CASE : t = l /\ t' = r /\ c <= 0 \/ t = r /\ t' = l /\ 0 <= c),
      good (KNode p pl l r) dist (let best := match kd_search vs q t (Some (snd (p, d))) with Some (p', d') => if Rltb d' (snd (p, d)) then (p', d') else (p, d) | None => (p, d) end in
        Some (if Rltb (c * c) (snd best) then match kd_search vs q t' (Some (snd best)) with Some (p', d') => if Rltb d' (snd best) then (p', d') else best | None => best end else best))).
    { intros t t' CASE. cbv zeta. assert (T1 : t = l \/ t = r) by tauto. assert (T2 : t' = l \/ t' = r) by tauto.
      assert (BS : In (fst (p, d)) (kd_elems (KNode p pl l r)) /\ snd (p, d) = D (fst (p, d)) \/ dist = Some (snd (p, d))) by (cbn [fst snd]; destruct DS as [DS|DS]; [left; split; [now left|exact DS]|now right]).
      pose proof (GO t (p, d) T1 D0 DE BS) as G1. cbv zeta in G1. set (best := match kd_search vs q t (Some (snd (p, d))) with Some _ => _ | None => _ end) in *. clearbody best. destruct G1 as (B0 & BE & BS1 & BL & BX). cbn [snd] in BL.
      assert (PX : forall e, e <= d -> sqrt e <= sqrt (D p) + rho) by (intros e E; apply Rle_trans with (sqrt (D p)); [apply sqrt_le_1_alt; lra|lra]).
      destruct (Rltb_spec (c * c) (snd best)) as [L|L].
      - pose proof (GO t' best T2 B0 BE BS1) as G2. cbv zeta in G2. set (b2 := match kd_search vs q t' (Some (snd best)) with Some _ => _ | None => _ end) in *. clearbody b2. destruct b2 as [p2 d2]. cbn [fst snd] in G2. destruct G2 as (C0 & CE & CS & CL & CX).
        cbn [good]. split; [exact C0|]. split; [exact CE|]. split; [exact CS|]. intros x [<-|I]; [apply PX; lra|]. apply in_app_or in I.
        assert (OLD : forall x, In x (kd_elems t) -> sqrt d2 <= sqrt (D x) + rho) by (intros y Y; eapply Rle_trans; [apply sqrt_le_1_alt; exact CL|now apply BX]).
        destruct CASE as [(-> & -> & _)|(-> & -> & _)]; destruct I as [I|I]; auto.
      - destruct best as [p1 d1]. cbn [fst snd] in *. cbn [good]. split; [exact B0|]. split; [exact BE|]. split; [exact BS1|]. intros x [<-|I]; [apply PX; lra|]. apply in_app_or in I.
        assert (T3 : t' = l /\ 0 <= c \/ t' = r /\ c <= 0) by (destruct CASE as [(_ & -> & C)|(_ & -> & C)]; auto). pose proof (PR t' d1 T3 B0 ltac:(lra)) as PX2.
        destruct CASE as [(-> & -> & _)|(-> & -> & _)]; destruct I as [I|I]; auto. }
    destruct (Rleb_spec c 0) as [C|C]; [apply (FIN l r); left; auto|apply (FIN r l); right; repeat split; lra].
  Qed.
End Search.

(** ** Imported meshes *)
Lemma face_norm_nz x : tri_ok x -> scale3 (2 * PI) (face_norm x) <> zero3.
Proof.
  intros OK. destruct (face_side x OK) as (k & K & ->). intros H. apply OK. pose proof PI_RGT_0 as PP. unfold scale3, zero3 in *. destruct (tri_normal x) as [a b c]. cbn [x3 y3 z3] in *. injection H as HA HB HC. assert (N : 2 * PI * k <> 0) by (pose proof (Rmult_lt_0_compat _ _ PP K); lra).
  rewrite <- !Rmult_assoc in *. f_equal; apply Rmult_eq_reg_l with (2 * PI * k); lra.
Qed.
Lemma query_distance vs p y x tol ps : stands_for tol ps x y -> tri_ok x -> kd_distance vs (query p) y = fst (fst (tri_distance vs y p)).
Proof.
  intros (_ & N & _) OK. unfold kd_distance. assert (Q : is_point (query p) = true) by (unfold is_point, query; cbn; rewrite (proj2 (Reqb_true 0 0) eq_refl); reflexivity). rewrite Q.
  assert (Y : is_point y = false).
  { destruct (is_point y) eqn:E; [|reflexivity]. exfalso. unfold is_point in E. rewrite !andb_true_iff, !Reqb_true in E. destruct E as ((EX & EY) & EZ). apply (face_norm_nz x OK). rewrite <- N. destruct (mt_n y) as [a b c]. cbn in *. subst. reflexivity. }
  now rewrite Y.
Qed.
(** No point of triangle [x] is more than [rho] away from its centroid. *)
Definition spread (rho : R) (x : triangle) : Prop := forall j, dist3 (tcorner x j) (centroid x) <= rho.
Lemma spread_in rho x w : spread rho x -> in_triangle x w -> dist3 w (centroid x) <= rho.
Proof.
  intros SP W. pose proof (SP 0%nat) as P0. pose proof (SP 1%nat) as P1. pose proof (SP 2%nat) as P2. destruct x as [[a b] c]. cbn [tcorner Nat.modulo Nat.divmod fst snd Nat.sub nth] in *. destruct W as (s & k & S0 & K0 & SK & ->). set (g := centroid (a, b, c)) in *. clearbody g.
  unfold dist3 in *. set (u := sub3 a g) in *. set (v := sub3 b g) in *. set (z := sub3 c g) in *.
  assert (E : sub3 (add3 a (add3 (scale3 s (sub3 b a)) (scale3 k (sub3 c a)))) g = add3 (scale3 (1 - s - k) u) (add3 (scale3 s v) (scale3 k z))).
  { unfold u, v, z. unfold add3, scale3, sub3. destruct a, b, c, g. cbn. f_equal; ring. }
  assert (EQ : norm3 (add3 (scale3 (1 - s - k) u) (add3 (scale3 s v) (scale3 k z))) <= rho).
  { eapply Rle_trans; [apply norm3_triangle|]. eapply Rle_trans; [apply Rplus_le_compat_l, norm3_triangle|]. rewrite !norm3_scale, !Rabs_right by lra. assert (0 <= norm3 u) by apply sqrt_pos. assert (0 <= norm3 v) by apply sqrt_pos. assert (0 <= norm3 z) by apply sqrt_pos. nra. }
  rewrite <- E in EQ. exact EQ.
Qed.
Lemma coord_dist d u v : Rabs (coord d u - coord d v) <= dist3 u v.
Proof. unfold dist3. destruct (abs_le_norm3 (sub3 u v)) as (A & B & C). unfold sub3 in A, B, C at 1. cbn [x3 y3 z3] in A, B, C. destruct d; assumption. Qed.
(** The box of a triangle list holds exactly the centroids' extent. *)
Theorem C84_bounds l : (forall t, In t l -> in3 (kd_bounds l) (mt_c t)) /\
  (l <> [] -> (forall t, In t l -> in3 (Box3 (V3 (- max_float64) (- max_float64) (- max_float64)) (V3 max_float64 max_float64 max_float64)) (mt_c t)) ->
   forall d, (exists t, In t l /\ coord d (mt_c t) = coord d (min3 (kd_bounds l))) /\ exists t, In t l /\ coord d (mt_c t) = coord d (max3 (kd_bounds l))).
Proof.
  assert (E : kd_bounds l = fold_left grow (map mt_c l) far_box) by (unfold kd_bounds; generalize far_box; induction l as [|t l IH]; intros bb; [reflexivity|]; cbn [map fold_left]; apply IH).
  rewrite E. split; [intros t I; apply grow_all; right; now apply in_map|]. intros NE IN d. destruct l as [|t0 l]; [congruence|]. pose proof max_float64_big as MB.
  assert (F : exists f, In f [x3; y3; z3] /\ forall v, coord d v = f v) by (destruct d; [exists x3|exists y3|exists z3]; cbn; auto). destruct F as (f & FI & FE). destruct (grow_attained f (map mt_c (t0 :: l)) FI far_box) as (A & B).
  assert (I0 := grow_all (map mt_c (t0 :: l)) far_box (mt_c t0) (or_intror (in_map mt_c (t0 :: l) t0 (or_introl eq_refl)))). pose proof (IN t0 (or_introl eq_refl)) as J0. rewrite !FE.
  assert (G : forall g, (forall v, coord d v = g v) -> f (min3 far_box) = max_float64 /\ f (max3 far_box) = - max_float64) by (intros g _; destruct FI as [<-|[<-|[<-|[]]]]; split; reflexivity). destruct (G _ FE) as (G1 & G2). clear G.
  assert (IB : f (min3 (fold_left grow (map mt_c (t0 :: l)) far_box)) <= f (mt_c t0) <= f (max3 (fold_left grow (map mt_c (t0 :: l)) far_box))) by (destruct I0 as (X0 & Y0 & Z0); destruct FI as [<-|[<-|[<-|[]]]]; assumption).
  assert (IM : - max_float64 <= f (mt_c t0) <= max_float64) by (destruct J0 as (X0 & Y0 & Z0); destruct FI as [<-|[<-|[<-|[]]]]; assumption).
  split.
  - destruct A as [A|(v & V & VE)]; [exists t0; split; [now left|]; rewrite FE, A in *; lra|]. apply in_map_iff in V. destruct V as (t & <- & I). exists t. now rewrite FE.
  - destruct B as [B|(v & V & VE)]; [exists t0; split; [now left|]; rewrite FE, B in *; lra|]. apply in_map_iff in V. destruct V as (t & <- & I). exists t. now rewrite FE.
Qed.

Section Import.
  Context (model : list triangle) (tol t : R) (m : imesh) (pivot : axis -> list mtri -> list mtri * nat) (p : v3) (rho : R).
  Hypothesis E : import_v1 model tol = Ok m.
  Hypothesis T : used_tol model tol = Ok t.
  Hypothesis A : apart (2 * t) model.
  Hypothesis OKS : Forall tri_ok model.
  Hypothesis NR : forall x, In x model -> near x p.
  Hypothesis PV : pivots pivot.
  Hypothesis RP : 0 <= rho.
  Hypothesis CR : forall x d w, In x model -> in_triangle x w -> Rabs (coord d p - coord d (centroid x)) <= dist3 p w + rho.
  Lemma kd_found : exists i x y, nth_error model i = Some x /\ nth_error (im_tris m) i = Some y /\ kd_eval m (kd_new pivot m) p = imp_eval m i p /\
    forall y', In y' (im_tris m) -> sqrt (fst (fst (tri_distance (im_verts m) y p))) <= sqrt (fst (fst (tri_distance (im_verts m) y' p))) + rho.
  Proof.
    assert (OK : forall x', In x' model -> tri_ok x') by now apply Forall_forall. destruct (import_built _ _ _ E) as (t' & c & T' & B & BX). rewrite T in T'. injection T' as <-. pose proof (used_tol_pos _ _ _ T) as TP.
    pose proof (bl_tris _ _ _ _ _ _ B) as F. assert (LL : length model = length (im_tris m)) by (clear - F; induction F; cbn; congruence).
    assert (XY : forall i y, nth_error (im_tris m) i = Some y -> exists x, nth_error model i = Some x).
    { intros i y Y. assert (L : (i < length model)%nat) by (rewrite LL; apply nth_error_Some; congruence). destruct (nth_error model i) as [x|] eqn:X; [eauto|]. apply nth_error_None in X. lia. }
    destruct (build_ok pivot PV (length (im_tris m)) AX (im_tris m) (le_n _)) as (PM & KO). fold (kd_new pivot m) in PM, KO.
    assert (D : forall y, In y (im_tris m) -> exists x w, In x model /\ mt_c y = centroid x /\ in_triangle x w /\ kd_distance (im_verts m) (query p) y = fst (fst (tri_distance (im_verts m) y p)) /\ fst (fst (tri_distance (im_verts m) y p)) = dist3 p w * dist3 p w).
    { intros y I. apply In_nth_error in I. destruct I as (i & Y). destruct (XY i y Y) as (x & X). pose proof (combine_nth _ _ _ _ _ X Y) as I. pose proof (nth_error_In _ _ X) as IX.
      pose proof (combine_stands _ _ _ _ _ _ F I) as SF. pose proof SF as (SC & _ & ST & SI & _). pose proof (apart_tri _ _ _ _ _ _ TP A B _ _ I) as MT. destruct x as [[a b] d]. cbn [tcorner Nat.modulo Nat.divmod fst snd Nat.sub nth] in ST.
      pose proof (tri_distance_spec (im_verts m) y a b d p (OK _ IX) MT ST ltac:(now rewrite SI, ST) (NR _ IX)) as S. pose proof (query_distance (im_verts m) p y _ _ _ SF (OK _ IX)) as QD. destruct (tri_distance (im_verts m) y p) as [[dd f] w]. destruct S as (W & DD & _). exists (a, b, d), w. auto. }
    assert (RC : reach (im_verts m) (query p) rho (kd_new pivot m)).
    { intros y I. apply (Permutation_in _ PM) in I. destruct (D y I) as (x & w & IX & SC & W & QD & DD). rewrite QD, DD. assert (0 <= dist3 p w) by apply sqrt_pos. split; [nra|]. intros d. rewrite sqrt_square by assumption. unfold kd_compare. rewrite SC. now apply CR. }
    pose proof (search_ok (im_verts m) (query p) rho (kd_new pivot m) RP KO RC None ltac:(discriminate)) as G. unfold kd_eval. destruct (kd_search (im_verts m) (query p) (kd_new pivot m) None) as [[y d]|]; cbn [good] in G.
    - destruct G as (_ & _ & GS & GX). destruct GS as [(IY & DY)|]; [|discriminate]. apply (Permutation_in _ PM) in IY. pose proof (In_nth_error _ _ IY) as (i & Y). destruct (XY i y Y) as (x & X). exists i, x, y. split; [exact X|]. split; [exact Y|].
      destruct (D y IY) as (_ & _ & _ & _ & _ & QD & _). split.
      + unfold imp_eval. rewrite Y. rewrite DY, QD. destruct (tri_distance (im_verts m) y p) as [[dd f] w]. reflexivity.
      + intros y' I'. destruct (D y' I') as (_ & _ & _ & _ & _ & QD' & _). apply (Permutation_in _ (Permutation_sym PM)) in I'. pose proof (GX y' I') as L. rewrite DY, QD, QD' in L. exact L.
    - exfalso. destruct (im_tris m) as [|y l] eqn:Z; [destruct model; [discriminate|cbn in LL; lia]|]. rewrite G in PM. cbn in PM. now apply Permutation_nil in PM.
  Qed.
  Lemma kd_near : exists i v x w, nth_error model i = Some x /\ kd_eval m (kd_new pivot m) p = Ok v /\ imp_eval m i p = Ok v /\ in_triangle x w /\ Rabs v = dist3 p w /\ (forall w', in_triangle x w' -> Rabs v <= dist3 p w') /\ forall x' w', In x' model -> in_triangle x' w' -> Rabs v <= dist3 p w' + rho.
  Proof.
    destruct kd_found as (i & x & y & X & Y & EV & LE). assert (OK : forall x', In x' model -> tri_ok x') by now apply Forall_forall. pose proof (nth_error_In _ _ X) as IX.
    destruct (C81_value_partial _ _ _ _ _ _ p E T A X (OK x IX) (NR x IX)) as (v & w & f & IV & W & MN & _ & SP & SM).
    assert (AV : Rabs v = dist3 p w). { assert (0 <= dist3 p w) by apply sqrt_pos. destruct (Rle_lt_dec 0 (signed_by model x f w p)) as [L|L]; [rewrite (SP L)|rewrite (SM L), Rabs_Ropp]; now apply Rabs_right, Rle_ge. }
    exists i, v, x, w. split; [exact X|]. split; [congruence|]. split; [exact IV|]. split; [exact W|]. split; [exact AV|]. split; [intros; rewrite AV; now apply MN|]. intros x' w' IX' W'.
    destruct (import_built _ _ _ E) as (t' & c & T' & B & BX). rewrite T in T'. injection T' as <-. pose proof (used_tol_pos _ _ _ T) as TP. pose proof (bl_tris _ _ _ _ _ _ B) as F. assert (LL : length model = length (im_tris m)) by (clear - F; induction F; cbn; congruence).
    assert (D : forall x0 y0, In (x0, y0) (combine model (im_tris m)) -> In x0 model -> exists w, in_triangle x0 w /\ fst (fst (tri_distance (im_verts m) y0 p)) = dist3 p w * dist3 p w /\ forall w', in_triangle x0 w' -> dist3 p w <= dist3 p w').
    { intros [[a b] d] y0 I I0. pose proof (combine_stands _ _ _ _ _ _ F I) as (_ & _ & ST & SI & _). pose proof (apart_tri _ _ _ _ _ _ TP A B _ _ I) as MT. cbn [tcorner Nat.modulo Nat.divmod fst snd Nat.sub nth] in ST.
      pose proof (tri_distance_spec (im_verts m) y0 a b d p (OK _ I0) MT ST ltac:(now rewrite SI, ST) (NR _ I0)) as S. destruct (tri_distance (im_verts m) y0 p) as [[dd g] w0]. destruct S as (W0 & DD & MN0 & _). exists w0. auto. }
    apply In_nth_error in IX'. destruct IX' as (i' & X'). pose proof (nth_error_In _ _ X') as IX'. assert (Y' : exists y', nth_error (im_tris m) i' = Some y'). { assert (L : (i' < length (im_tris m))%nat) by (rewrite <- LL; apply nth_error_Some; congruence). destruct (nth_error (im_tris m) i') as [z|] eqn:Z; [eauto|]. apply nth_error_None in Z. lia. }
    destruct Y' as (y' & Y'). destruct (D x y (combine_nth _ _ _ _ _ X Y) IX) as (u & U & DU & MU). destruct (D x' y' (combine_nth _ _ _ _ _ X' Y') IX') as (u' & U' & DU' & MU'). pose proof (LE y' (nth_error_In _ _ Y')) as L. rewrite DU, DU' in L. rewrite !sqrt_square in L by apply sqrt_pos. rewrite AV.
    pose proof (MN u U). pose proof (MU' w' W'). lra.
  Qed.
End Import.
(** Evaluate never panics, its size is the exact distance to one of the triangles, and this triangle is at most the
    largest distance between a corner and the centroid of a triangle farther away than the nearest one. *)
Theorem C84_nearest_partial model tol m t pivot p rho : import_v1 model tol = Ok m -> used_tol model tol = Ok t -> apart (2 * t) model -> Forall tri_ok model -> (forall x, In x model -> near x p) -> pivots pivot ->
  Forall (spread rho) model ->
  exists v x w, kd_eval m (kd_new pivot m) p = Ok v /\ In x model /\ in_triangle x w /\ Rabs v = dist3 p w /\ (forall w', in_triangle x w' -> Rabs v <= dist3 p w') /\ forall x' w', In x' model -> in_triangle x' w' -> Rabs v <= dist3 p w' + rho.
Proof.
  intros E T A OKS NR PV SP. assert (SX : forall x, In x model -> spread rho x) by now apply Forall_forall.
  assert (RP : 0 <= rho). { destruct model as [|x model']; [discriminate T|]. apply Rle_trans with (dist3 (tcorner x 0) (centroid x)); [apply sqrt_pos|apply SX; now left]. }
  destruct (kd_near model tol t m pivot p rho E T A OKS NR PV RP) as (i & v & x & w & X & EV & _ & H).
  - intros x d w IX W. eapply Rle_trans; [apply coord_dist|]. eapply Rle_trans; [apply (dist3_triangle p w)|]. apply Rplus_le_compat_l. now apply spread_in, W; apply SX.
  - exists v, x, w. split; [exact EV|]. split; [now apply nth_error_In in X|exact H].
Qed.
(** The distance is exact where no triangle is closer to the point than its centroid is in some coordinate. *)
Theorem C84_exact_partial model tol m t pivot p : import_v1 model tol = Ok m -> used_tol model tol = Ok t -> apart (2 * t) model -> Forall tri_ok model -> (forall x, In x model -> near x p) -> pivots pivot ->
  (forall x d w, In x model -> in_triangle x w -> Rabs (coord d p - coord d (centroid x)) <= dist3 p w) ->
  exists v x w, kd_eval m (kd_new pivot m) p = Ok v /\ In x model /\ in_triangle x w /\ Rabs v = dist3 p w /\ forall x' w', In x' model -> in_triangle x' w' -> Rabs v <= dist3 p w'.
Proof.
  intros E T A OKS NR PV C. destruct (kd_near model tol t m pivot p 0 E T A OKS NR PV ltac:(lra)) as (i & v & x & w & X & EV & _ & W & AV & _ & H).
  - intros x d w I W. specialize (C x d w I W). lra.
  - exists v, x, w. split; [exact EV|]. split; [now apply nth_error_In in X|]. split; [exact W|]. split; [exact AV|]. intros x' w' I' W'. specialize (H x' w' I' W'). lra.
Qed.
(** The sign inside a convex mesh is right. *)
Theorem C84_convex s model tol m t pivot p : import_v1 model tol = Ok m -> used_tol model tol = Ok t -> apart (2 * t) model -> Forall tri_ok model -> (forall x, In x model -> near x p) -> pivots pivot ->
  (forall x', In x' model -> 0 < s * side_of x' p) -> exists v, kd_eval m (kd_new pivot m) p = Ok v /\ 0 < s * v.
Proof.
  intros E T A OKS NR PV S. destruct (kd_near model tol t m pivot p (fold_right (fun x r => norm3 (sub3 p (centroid x)) + r) 0 model) E T A OKS NR PV) as (i & v & x & w & X & EV & IV & _).
  - clear. induction model as [|x l IH]; cbn; [lra|]. assert (0 <= norm3 (sub3 p (centroid x))) by apply sqrt_pos. lra.
  - intros x d w I W. eapply Rle_trans; [apply coord_dist|]. assert (0 <= dist3 p w) by apply sqrt_pos.
    assert (B : norm3 (sub3 p (centroid x)) <= fold_right (fun x r => norm3 (sub3 p (centroid x)) + r) 0 model).
    { clear - I. induction model as [|y l IH]; [destruct I|]. cbn [fold_right]. assert (P : forall l, 0 <= fold_right (fun x r => norm3 (sub3 p (centroid x)) + r) 0 l) by (clear; induction l as [|z l IH]; cbn; [lra|]; assert (0 <= norm3 (sub3 p (centroid z))) by apply sqrt_pos; lra). assert (0 <= norm3 (sub3 p (centroid y))) by apply sqrt_pos. destruct I as [->|I]; [specialize (P l); lra|specialize (IH I); lra]. }
    unfold dist3 in *. lra.
  - destruct (C81_convex s model tol m t i x p E T A OKS X (NR x (nth_error_In _ _ X)) S) as (v' & V' & P & _). exists v. split; [exact EV|]. congruence.
Qed.
Example C84_example : exists m v, import_v1 corner_mesh (1/100) = Ok m /\ kd_eval m (kd_new pivot_first m) (V3 (1/8) (1/8) (1/8)) = Ok v /\ v < 0.
Proof.
  destruct corner_mesh_import as (m & E). exists m. assert (P : norm3 (V3 (1/8) (1/8) (1/8)) <= 2). { unfold norm3. replace 2 with (sqrt (2 * 2)) by (rewrite sqrt_square; lra). apply sqrt_le_1_alt. unfold norm3sq, dot3. cbn. lra. }
  destruct (C84_convex (-1) _ _ _ _ pivot_first (V3 (1/8) (1/8) (1/8)) E corner_mesh_tol corner_mesh_apart corner_mesh_ok (fun x I => corner_mesh_near x _ I P) pivot_first_ok) as (v & V & S).
  - intros x' I'. cbn in I'. repeat destruct I' as [<-|I']; try contradiction; unfold side_of, tri_normal, dot3, cross3, sub3; cbn; lra.
  - exists v. split; [exact E|]. split; [exact V|lra].
Qed.
(** ** The search misses triangles
    Triangles are sorted by their centroids, but the distance is the one to the triangle: a large triangle on the
    other side of the plane may be closer than the plane through its centroid.  Two long triangles, and however they are
    partitioned there is a corner of the mesh, at distance 0, for which Evaluate returns a distance of at least 7. *)
Definition long_a : triangle := (V3 1 8 0, V3 28 9 0, V3 28 7 0).
Definition long_b : triangle := (V3 27 0 0, V3 0 1 0, V3 0 (-1) 0).
Definition long_mesh : list triangle := [long_b; long_a].
Lemma long_tol : used_tol long_mesh 1 = Ok 1.
Proof.
  apply (tol_one long_mesh 28 9 0 0 (-1) 0); [discriminate| | |].
  - unfold long_mesh, long_a, long_b. lit_box.
  - exists (norm3sq (sub3 (V3 0 1 0) (V3 27 0 0))). split; [now left|]. unfold norm3sq, dot3, sub3. cbn. lra.
  - rmm; lra.
Qed.
Lemma long_ok : Forall tri_ok long_mesh.
Proof. apply Forall_forall. intros x I. cbn in I. repeat destruct I as [<-|I]; try contradiction; unfold tri_ok, tri_normal, cross3, sub3, zero3; cbn; intros E; injection E; lra. Qed.
Lemma long_apart : apart (2 * 1) long_mesh.
Proof.
  intros u v U V. cbn in U, V. repeat destruct U as [<-|U]; try contradiction; repeat destruct V as [<-|V]; try contradiction; cbn [x3 y3 z3]; auto; right;
    try (left; unfold Rabs; destruct (Rcase_abs _); lra); right; left; unfold Rabs; destruct (Rcase_abs _); lra.
Qed.
Lemma long_near x : In x long_mesh -> near x (V3 1 8 0) /\ near x (V3 27 0 0).
Proof.
  intros I. assert (K : forall u v, norm3sq (sub3 u v) <= 50 -> dist3 u v < sqrt max_float64) by (intros u v H; apply sqrt_lt_1_alt; split; [unfold norm3sq, dot3; nra|]; pose proof max_float64_big; lra).
  destruct I as [<-|[<-|[]]]; split.
  - exists (tcorner long_b 1). split; [apply tcorner_tri|]. apply K. unfold norm3sq, dot3, sub3, long_b. cbn. lra.
  - exists (tcorner long_b 0). split; [apply tcorner_tri|]. apply K. unfold norm3sq, dot3, sub3, long_b. cbn. lra.
  - exists (tcorner long_a 0). split; [apply tcorner_tri|]. apply K. unfold norm3sq, dot3, sub3, long_a. cbn. lra.
  - exists (tcorner long_a 2). split; [apply tcorner_tri|]. apply K. unfold norm3sq, dot3, sub3, long_a. cbn. lra.
Qed.
Theorem C84_nearest_refuted : used_tol long_mesh 1 = Ok 1 /\ apart (2 * 1) long_mesh /\ Forall tri_ok long_mesh /\ exists m, import_v1 long_mesh 1 = Ok m /\
  forall pivot, pivots pivot -> exists x j v, In x long_mesh /\ near x (tcorner x j) /\ kd_eval m (kd_new pivot m) (tcorner x j) = Ok v /\ 7 <= Rabs v.
Proof.
  split; [exact long_tol|]. split; [exact long_apart|]. split; [exact long_ok|].
  assert (E : exists m, import_v1 long_mesh 1 = Ok m) by (unfold import_v1; rewrite long_tol; cbn [bind]; destruct (fold_left _ _ _) as [[[? ?] ?] ?]; eauto). destruct E as (m & E). exists m. split; [exact E|]. intros pivot PV.
  destruct (import_built _ _ _ E) as (t' & c & T' & B & BX). rewrite long_tol in T'. injection T' as <-. pose proof (bl_tris _ _ _ _ _ _ B) as F.
  destruct (im_tris m) as [|yb [|ya [|z r]]] eqn:Z; [inversion F|inversion F as [|? ? ? ? ? F2]; inversion F2| |inversion F as [|? ? ? ? ? F2]; inversion F2 as [|? ? ? ? ? F3]; inversion F3].
  assert (SB : stands_for 1 (map pv_v (im_verts m)) long_b yb) by (inversion F; assumption). assert (SA : stands_for 1 (map pv_v (im_verts m)) long_a ya) by (inversion F as [|? ? ? ? ? F2]; inversion F2; assumption).
  assert (DB : forall q, near long_b q -> kd_distance (im_verts m) (query q) yb = fst (fst (tri_distance (im_verts m) yb q)) /\ exists w, in_triangle long_b w /\ fst (fst (tri_distance (im_verts m) yb q)) = dist3 q w * dist3 q w /\ forall w', in_triangle long_b w' -> dist3 q w <= dist3 q w').
  { intros q NQ. assert (OB : tri_ok long_b) by (pose proof long_ok as H; rewrite Forall_forall in H; apply H; now left). split; [apply (query_distance _ q yb _ _ _ SB OB)|]. destruct SB as (_ & _ & ST & SI & _). pose proof (apart_tri _ _ _ _ _ _ Rlt_0_1 long_apart B long_b yb) as MT. rewrite ?Z in MT. specialize (MT (or_introl eq_refl)).
    pose proof (tri_distance_spec (im_verts m) yb _ _ _ q OB MT ST ltac:(now rewrite SI, ST) NQ) as S. destruct (tri_distance (im_verts m) yb q) as [[dd f] w]. destruct S as (W & DD & MN & _). exists w. auto. }
  assert (DA : forall q, near long_a q -> kd_distance (im_verts m) (query q) ya = fst (fst (tri_distance (im_verts m) ya q)) /\ exists w, in_triangle long_a w /\ fst (fst (tri_distance (im_verts m) ya q)) = dist3 q w * dist3 q w /\ forall w', in_triangle long_a w' -> dist3 q w <= dist3 q w').
  { intros q NQ. assert (OA : tri_ok long_a) by (pose proof long_ok as H; rewrite Forall_forall in H; apply H; right; now left). split; [apply (query_distance _ q ya _ _ _ SA OA)|]. destruct SA as (_ & _ & ST & SI & _). pose proof (apart_tri _ _ _ _ _ _ Rlt_0_1 long_apart B long_a ya) as MT. rewrite ?Z in MT. specialize (MT (or_intror (or_introl eq_refl))).
    pose proof (tri_distance_spec (im_verts m) ya _ _ _ q OA MT ST ltac:(now rewrite SI, ST) NQ) as S. destruct (tri_distance (im_verts m) ya q) as [[dd f] w]. destruct S as (W & DD & MN & _). exists w. auto. }
  assert (CB : x3 (mt_c yb) = 9) by (destruct SB as (-> & _); unfold centroid, long_b, add3, scale3; cbn; lra). assert (CA : x3 (mt_c ya) = 19) by (destruct SA as (-> & _); unfold centroid, long_a, add3, scale3; cbn; lra).
  assert (AB : ya <> yb) by (intros ->; lra).
  pose proof (PV AX [yb; ya] ltac:(discriminate)) as P. unfold kd_new. rewrite Z. cbn [length]. rewrite build_step. destruct (pivot AX [yb; ya]) as [l' k]. destruct P as (y0 & PM & N & FL & FR). rewrite N.
  assert (LK : (length (firstn k l') <= 1)%nat /\ (length (skipn (S k) l') <= 1)%nat).
  { pose proof (Permutation_length PM) as PL. cbn in PL. assert (k < length l')%nat by (apply nth_error_Some; congruence). rewrite firstn_length, skipn_length. lia. }
  assert (ONE : forall l : list mtri, (length l <= 1)%nat -> forall d, kd_build 1 pivot d l = match l with [] => KNil | y :: _ => KNode y d KNil KNil end).
  { intros [|y [|]] L d; [reflexivity| |cbn in L; lia]. cbn [kd_build]. pose proof (PV d [y] ltac:(discriminate)) as P. destruct (pivot d [y]) as [l1 k1]. destruct P as (y1 & PM1 & N1 & _). apply Permutation_sym, Permutation_length_1_inv in PM1. subst l1. destruct k1 as [|k1]; [|destruct k1; discriminate]. injection N1 as ->. reflexivity. }
  rewrite !ONE by apply LK. clear ONE LK.
  assert (CASES : y0 = yb /\ firstn k l' = [] /\ skipn (S k) l' = [ya] \/ y0 = ya /\ firstn k l' = [yb] /\ skipn (S k) l' = []).
  { apply Permutation_sym, Permutation_length_2_inv in PM. destruct PM as [-> | ->]; destruct k as [|[|k]]; cbn [nth_error firstn skipn] in *; try (injection N as <-); try (destruct k; discriminate); [left; auto|right; auto| |]; exfalso.
    - apply Forall_inv in FR. cbn [coord] in FR. lra.
    - apply Forall_inv in FL. cbn [coord] in FL. lra. }
  assert (SEARCH : forall q d0 y1 d1, d0 = AX -> 0 <= d1 -> d1 <= 64 -> kd_compare (query q) y0 AX = 8 \/ kd_compare (query q) y0 AX = -8 -> kd_distance (im_verts m) (query q) y0 = d1 ->
    (kd_compare (query q) y0 AX = -8 -> kd_search (im_verts m) (query q) (KNode y0 d0 KNil y1) None = Some (y0, d1)) /\ (kd_compare (query q) y0 AX = 8 -> kd_search (im_verts m) (query q) (KNode y0 d0 y1 KNil) None = Some (y0, d1))).
  { intros q d0 y1 d1 -> D0 D1 _ DD. split; intros C; cbn [kd_search dmin snd]; rewrite C, DD; [rewrite (proj2 (Rleb_true _ _)) by lra|rewrite (proj2 (Rleb_false _ _)) by lra]; cbn [snd]; rewrite (proj2 (Rltb_false _ _)) by lra; reflexivity. }
  assert (VAL : forall q tr w, kd_search (im_verts m) (query q) tr None = Some (y0, fst (fst (tri_distance (im_verts m) y0 q))) -> fst (fst (tri_distance (im_verts m) y0 q)) = dist3 q w * dist3 q w -> 7 <= dist3 q w -> exists v, kd_eval m tr q = Ok v /\ 7 <= Rabs v).
  { intros q tr w KS DD L. unfold kd_eval. rewrite KS. rewrite DD. destruct (tri_distance (im_verts m) y0 q) as [[dd f] w0]. eexists. split; [reflexivity|]. unfold copy_sign, copysign. rewrite sqrt_square by lra. destruct (Rltb _ 0); rewrite ?Rabs_Ropp, Rabs_Rabsolu, Rabs_right by lra; lra. }
  assert (FAR : forall u v, 7 <= Rabs (y3 u - y3 v) -> 7 <= dist3 u v) by (intros u v H; eapply Rle_trans; [exact H|apply (coord_dist AY)]).
  assert (SQ : forall u v, dist3 u v * dist3 u v = norm3sq (sub3 u v)) by (intros u v; apply sqrt_sqrt; unfold norm3sq, dot3; nra).
  destruct CASES as [(-> & -> & ->)|(-> & -> & ->)].
  - destruct (long_near long_b (or_introl eq_refl)) as (NB & _). destruct (long_near long_a (or_intror (or_introl eq_refl))) as (NA & _). destruct (DB _ NB) as (QD & w & W & DD & MN).
    assert (L7 : 7 <= dist3 (V3 1 8 0) w). { apply FAR. destruct W as (s & u & S0 & U0 & SU & ->). unfold add3, scale3, sub3. cbn [x3 y3 z3]. rewrite Rabs_right; lra. }
    assert (L64 : dist3 (V3 1 8 0) w * dist3 (V3 1 8 0) w <= 64). { pose proof (MN _ (tcorner_tri long_b 1)) as M1. assert (M2 := SQ (V3 1 8 0) (tcorner long_b 1)). assert (M3 : norm3sq (sub3 (V3 1 8 0) (tcorner long_b 1)) <= 64) by (unfold norm3sq, dot3, sub3, long_b; cbn; lra). nra. }
    destruct (SEARCH (V3 1 8 0) AX (KNode ya (next_dim AX) KNil KNil) (fst (fst (tri_distance (im_verts m) yb (V3 1 8 0)))) eq_refl ltac:(rewrite DD; nra) ltac:(rewrite DD; lra) ltac:(right; unfold kd_compare, coord, query; cbn; lra) QD) as (S & _).
    destruct (VAL _ _ w (S ltac:(unfold kd_compare, coord, query; cbn; lra)) DD L7) as (v & EV & V7). exists long_a, 0%nat, v. split; [right; now left|]. split; [exact NA|]. split; [exact EV|exact V7].
  - destruct (long_near long_a (or_intror (or_introl eq_refl))) as (_ & NA). destruct (long_near long_b (or_introl eq_refl)) as (_ & NB). destruct (DA _ NA) as (QD & w & W & DD & MN).
    assert (L7 : 7 <= dist3 (V3 27 0 0) w). { apply FAR. destruct W as (s & u & S0 & U0 & SU & ->). unfold add3, scale3, sub3. cbn [x3 y3 z3]. rewrite Rabs_left1; lra. }
    assert (L64 : dist3 (V3 27 0 0) w * dist3 (V3 27 0 0) w <= 64). { pose proof (MN _ (tcorner_tri long_a 2)) as M1. assert (M2 := SQ (V3 27 0 0) (tcorner long_a 2)). assert (M3 : norm3sq (sub3 (V3 27 0 0) (tcorner long_a 2)) <= 64) by (unfold norm3sq, dot3, sub3, long_a; cbn; lra). nra. }
    destruct (SEARCH (V3 27 0 0) AX (KNode yb (next_dim AX) KNil KNil) (fst (fst (tri_distance (im_verts m) ya (V3 27 0 0)))) eq_refl ltac:(rewrite DD; nra) ltac:(rewrite DD; lra) ltac:(left; unfold kd_compare, coord, query; cbn; lra) QD) as (_ & S).
    destruct (VAL _ _ w (S ltac:(unfold kd_compare, coord, query; cbn; lra)) DD L7) as (v & EV & V7). exists long_b, 0%nat, v. split; [now left|]. split; [exact NB|]. split; [exact EV|exact V7].
Qed.
