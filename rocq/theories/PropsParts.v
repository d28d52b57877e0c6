(** C97: the solids of the fasteners: chamfered cylinders, hexagonal heads, bolts and nuts. *)
From Coq Require Import String Reals Lra Psatz Lia List Bool ZArith.
From Verif Require Import Prelude Vec BoxModel MatrixModel PropsBox PropsMatrix SdfModel SdfLemmas PropsBool PropsCopies Trig PropsUtil PrimModel
  PolyModel PropsPoly PropsBuilder PropsFillet ObjModel PropsForm PropsThread PropsProfile PropsThreadShape PropsScrew PropsConvex.
Import ListNotations.
Local Open Scope R_scope.

(** ** A chamfered right angle *)
Lemma right_corner_cut v e0 e1 na nb c : 0 < na -> 0 < nb -> norm2sq e0 = 1 -> norm2sq e1 = 1 -> dot2 e0 e1 = 0 -> 0 < c ->
  let a := add2 v (scale2 na e0) in let b := add2 v (scale2 nb e1) in
  cross2 (sub2 a v) (sub2 b v) <> 0 /\ norm2 (sub2 a v) = na /\ norm2 (sub2 b v) = nb /\
  forall pts d, fillet v a b c 1 pts d -> d = c /\ map pv_pos pts = [add2 v (scale2 c e0); add2 v (scale2 c e1)].
Proof.
  intros NA NB U0 U1 O C a b. assert (SA : sub2 a v = scale2 na e0) by (unfold a, sub2, add2, scale2; apply v2_ext; cbn; ring). assert (SB : sub2 b v = scale2 nb e1) by (unfold b, sub2, add2, scale2; apply v2_ext; cbn; ring).
  destruct (unit_of e0 na _ SA NA U0) as (UA & LA). destruct (unit_of e1 nb _ SB NB U1) as (UB & LB).
  assert (X : cross2 (sub2 a v) (sub2 b v) <> 0).
  { rewrite SA, SB. clear - NA NB U0 U1 O. destruct e0 as [a0 b0], e1 as [a1 b1]. unfold norm2sq, dot2, cross2, scale2 in *. cbn [x2 y2] in *. intros Z. assert (Q : (a0 * b1 - b0 * a1) * (a0 * b1 - b0 * a1) = 1).
    { transitivity ((a0 * a0 + b0 * b0) * (a1 * a1 + b1 * b1) - (a0 * a1 + b0 * b1) * (a0 * a1 + b0 * b1)); [ring|]. rewrite U0, U1, O. ring. }
    assert (Z' : na * nb * (a0 * b1 - b0 * a1) = 0) by lra. apply Rmult_integral in Z'. destruct Z' as [Z'|Z']; [assert (0 < na * nb) by (now apply Rmult_lt_0_compat); lra|rewrite Z' in Q; lra]. }
  split; [exact X|]. split; [exact LA|]. split; [exact LB|]. intros pts d F. destruct (fillet_len _ _ _ _ _ _ _ X F) as (_ & D). rewrite UA, UB, O in D. assert (DP : 0 < d) by apply F.
  assert (E : d = c) by (clear - D DP C; nra). split; [exact E|]. subst d. assert (ONE : (1 <= 1)%Z) by lia. destruct (fillet_first _ _ _ _ _ _ _ ONE F) as (p & F1 & F2). destruct (fillet_last _ _ _ _ _ _ _ ONE F) as (q & G1 & G2).
  destruct F as (_ & c0 & t0 & LE & _). change (Z.to_nat (1 + 1)) with 2%nat in LE. destruct pts as [|p' [|q' [|? ?]]]; try discriminate. cbn in F1, G1. injection F1 as <-. injection G1 as <-. cbn [map]. rewrite F2, G2, UA, UB. reflexivity.
Qed.
(** A corner that is chamfered if c is not 0. *)
Definition cut (v e0 e1 : v2) (c : R) : list v2 := if Reqb c 0 then [v] else [add2 v (scale2 c e0); add2 v (scale2 c e1)].
Definition cut_vertex (v : v2) (c : R) : pvertex := if Reqb c 0 then pv_at v else PV false PvSmooth v 1 c.
Lemma chamfer_mod v s : fold_left apply_mod [MChamfer s] (pv_at v) = cut_vertex v (s * sqrt_half).
Proof.
  assert (HP : 0 < sqrt_half) by (apply sqrt_lt_R0; lra). cbn [fold_left apply_mod]. unfold cut_vertex. destruct (Reqb_spec s 0) as [->|N]; cbn [negb].
  - rewrite Rmult_0_l, (proj2 (Reqb_true 0 0)) by reflexivity. reflexivity.
  - rewrite (proj2 (Reqb_false (s * sqrt_half) 0)); [reflexivity|]. intros Q. apply Rmult_integral in Q. lra.
Qed.
Section Chamfer.
  Context (r l cb ct : R) (RP : 0 < r) (LP : 0 < l) (CB : 0 <= cb < r) (CT : 0 <= ct < r) (CL : cb + ct < 2 * l).
  Let P0 := V2 0 (- l). Let P1 := V2 r (- l). Let P2 := V2 r l. Let P3 := V2 0 l.
  Let L := [pv_at P0; cut_vertex P1 cb; cut_vertex P2 ct; pv_at P3].
  Let ex := V2 (-1) 0. Let eu := V2 0 1. Let ed := V2 0 (-1).
  Lemma corner_low c : 0 < c -> cross2 (sub2 P0 P1) (sub2 P2 P1) <> 0 /\ norm2 (sub2 P0 P1) = r /\ norm2 (sub2 P2 P1) = 2 * l /\
    forall pts d, fillet P1 P0 P2 c 1 pts d -> d = c /\ map pv_pos pts = [add2 P1 (scale2 c ex); add2 P1 (scale2 c eu)].
  Proof.
    intros C. replace P0 with (add2 P1 (scale2 r ex)) by (unfold P0, P1, ex, add2, scale2; apply v2_ext; cbn; ring). replace P2 with (add2 P1 (scale2 (2 * l) eu)) by (unfold P2, P1, eu, add2, scale2; apply v2_ext; cbn; ring).
    apply right_corner_cut; try lra; unfold ex, eu, norm2sq, dot2; cbn; ring.
  Qed.
  Lemma corner_top c : 0 < c -> cross2 (sub2 P1 P2) (sub2 P3 P2) <> 0 /\ norm2 (sub2 P1 P2) = 2 * l /\ norm2 (sub2 P3 P2) = r /\
    forall pts d, fillet P2 P1 P3 c 1 pts d -> d = c /\ map pv_pos pts = [add2 P2 (scale2 c ed); add2 P2 (scale2 c ex)].
  Proof.
    intros C. replace P1 with (add2 P2 (scale2 (2 * l) ed)) by (unfold P1, P2, ed, add2, scale2; apply v2_ext; cbn; ring). replace P3 with (add2 P2 (scale2 r ex)) by (unfold P2, P3, ex, add2, scale2; apply v2_ext; cbn; ring).
    apply right_corner_cut; try lra; unfold ex, ed, norm2sq, dot2; cbn; ring.
  Qed.
  Lemma cut_type v c : pv_type (cut_vertex v c) = PvSmooth -> 0 <= c -> 0 < c /\ cut_vertex v c = PV false PvSmooth v 1 c.
  Proof. unfold cut_vertex. destruct (Reqb_spec c 0); [discriminate|]. intros _ C. split; [lra|reflexivity]. Qed.
  Lemma cut_pos v c : pv_pos (cut_vertex v c) = v.
  Proof. unfold cut_vertex. destruct (Reqb c 0); reflexivity. Qed.
  Lemma chamfer_regular : regular false L.
  Proof.
    intros k v i j E T I J. destruct k as [|[|[|[|k]]]]; cbn in E; try (injection E as <-; discriminate); [| |destruct k; discriminate].
    - injection E as <-. destruct (cut_type _ _ T (proj1 CB)) as (C & ->). cbn in I, J. injection I as <-. injection J as <-. unfold at_. cbn [nth L]. rewrite !cut_pos. cbn [pv_pos pv_at pv_radius pv_facets]. destruct (corner_low cb C) as (A1 & A2 & A3 & A4). split; [exact C|]. split; [exact A1|]. intros pts d F. rewrite A2, A3. destruct (A4 _ _ F) as (-> & _). lra.
    - injection E as <-. destruct (cut_type _ _ T (proj1 CT)) as (C & ->). cbn in I, J. injection I as <-. injection J as <-. unfold at_. cbn [nth L]. rewrite !cut_pos. cbn [pv_pos pv_at pv_radius pv_facets]. destruct (corner_top ct C) as (A1 & A2 & A3 & A4). split; [exact C|]. split; [exact A1|]. intros pts d F. rewrite A2, A3. destruct (A4 _ _ F) as (-> & _). lra.
  Qed.
  Lemma chamfer_vertices sb st : sb * sqrt_half = cb -> st * sqrt_half = ct ->
    vertices_of [(P0, []); (P1, [MChamfer sb]); (P2, [MChamfer st]); (P3, [])] = Ok (P0 :: cut P1 ex eu cb ++ cut P2 ed ex ct ++ [P3]).
  Proof.
    intros SB ST. assert (PT : pts_of [(P0, []); (P1, [MChamfer sb]); (P2, [MChamfer st]); (P3, [])] = L) by (unfold pts_of; cbn [map fst snd]; rewrite !chamfer_mod, SB, ST; reflexivity).
    destruct (built_fillets [(P0, []); (P1, [MChamfer sb]); (P2, [MChamfer st]); (P3, [])]) as (blk & dd & V & B).
    { intros x m I M. cbn in I. repeat (destruct I as [<-|I]; [cbn in M; repeat (destruct M as [<-|M]; [exact Logic.I|]); destruct M|]); destruct I. }
    { rewrite PT. apply chamfer_regular. }
    rewrite PT in V, B. cbn [length] in V, B. change (Datatypes.length L) with 4%nat in V, B. assert (B0 := B 0%nat _ eq_refl). assert (B1 := B 1%nat _ eq_refl). assert (B2 := B 2%nat _ eq_refl). assert (B3 := B 3%nat _ eq_refl). clear B.
    destruct B0 as [(D0 & B0 & _)|(Q & _)]; [|discriminate]. destruct B3 as [(D3 & B3 & _)|(Q & _)]; [|discriminate].
    assert (DD1 : 0 <= dd 1%nat <= cb). { destruct B1 as [(Q & _)|(T & p & q & I & J & F)]; [lra|]. destruct (cut_type _ _ T (proj1 CB)) as (C & E). rewrite E in F. cbn in I, J. injection I as <-. injection J as <-. unfold at_ in F. cbn [nth L] in F. rewrite !cut_pos in F. cbn [pv_pos pv_at pv_radius pv_facets] in F. destruct (corner_low cb C) as (_ & _ & _ & A4). destruct (A4 _ _ F) as (-> & _). lra. }
    assert (DD2 : 0 <= dd 2%nat <= ct). { destruct B2 as [(Q & _)|(T & p & q & I & J & F)]; [lra|]. destruct (cut_type _ _ T (proj1 CT)) as (C & E). rewrite E in F. cbn in I, J. injection I as <-. injection J as <-. unfold at_ in F. cbn [nth L] in F. rewrite !cut_pos in F. cbn [pv_pos pv_at pv_radius pv_facets] in F. destruct (corner_top ct C) as (_ & _ & _ & A4). destruct (A4 _ _ F) as (-> & _). lra. }
    assert (G1 : map pv_pos (blk 1%nat) = cut P1 ex eu cb).
    { destruct (Req_dec cb 0) as [Z|Z].
      - destruct B1 as [(_ & -> & _)|(T & _)]; [|destruct (cut_type _ _ T (proj1 CB)); lra]. cbn [map]. rewrite cut_pos. unfold cut. rewrite (proj2 (Reqb_true cb 0) Z). reflexivity.
      - assert (C : 0 < cb) by lra. destruct (corner_low cb C) as (A1 & A2 & A3 & A4). assert (EV : cut_vertex P1 cb = PV false PvSmooth P1 1 cb) by (unfold cut_vertex; now rewrite (proj2 (Reqb_false cb 0) Z)). rewrite EV in B1. unfold cut. rewrite (proj2 (Reqb_false cb 0) Z).
        destruct B1 as [(_ & _ & K)|(_ & p & q & I & J & F)].
        + exfalso. pose proof (sp_fillet P1 P0 P2 cb 1 A1 C ltac:(lia)) as F. assert (K' := K eq_refl 0%nat 2%nat eq_refl eq_refl). unfold at_ in K'. cbn [nth L] in K'. rewrite !cut_pos in K'. cbn [pv_pos pv_at pv_radius pv_facets] in K'. specialize (K' _ _ F). destruct (A4 _ _ F) as (E & _). rewrite A2, A3, E, D0 in K'. lra.
        + cbn in I, J. injection I as <-. injection J as <-. unfold at_ in F. cbn [nth L] in F. rewrite !cut_pos in F. cbn [pv_pos pv_at pv_radius pv_facets] in F. now destruct (A4 _ _ F). }
    assert (G2 : map pv_pos (blk 2%nat) = cut P2 ed ex ct).
    { destruct (Req_dec ct 0) as [Z|Z].
      - destruct B2 as [(_ & -> & _)|(T & _)]; [|destruct (cut_type _ _ T (proj1 CT)); lra]. cbn [map]. rewrite cut_pos. unfold cut. rewrite (proj2 (Reqb_true ct 0) Z). reflexivity.
      - assert (C : 0 < ct) by lra. destruct (corner_top ct C) as (A1 & A2 & A3 & A4). assert (EV : cut_vertex P2 ct = PV false PvSmooth P2 1 ct) by (unfold cut_vertex; now rewrite (proj2 (Reqb_false ct 0) Z)). rewrite EV in B2. unfold cut. rewrite (proj2 (Reqb_false ct 0) Z).
        destruct B2 as [(_ & _ & K)|(_ & p & q & I & J & F)].
        + exfalso. pose proof (sp_fillet P2 P1 P3 ct 1 A1 C ltac:(lia)) as F. assert (K' := K eq_refl 1%nat 3%nat eq_refl eq_refl). unfold at_ in K'. cbn [nth L] in K'. rewrite !cut_pos in K'. cbn [pv_pos pv_at pv_radius pv_facets] in K'. specialize (K' _ _ F). destruct (A4 _ _ F) as (E & _). rewrite A2, A3, E, D3 in K'. lra.
        + cbn in I, J. injection I as <-. injection J as <-. unfold at_ in F. cbn [nth L] in F. rewrite !cut_pos in F. cbn [pv_pos pv_at pv_radius pv_facets] in F. now destruct (A4 _ _ F). }
    rewrite V. f_equal. cbn [seq flat_map]. rewrite B0, B3, !map_app, G1, G2. cbn [map app pv_pos pv_at]. reflexivity.
  Qed.
End Chamfer.
Section ChamferRegion.
  Context (r l cb ct : R) (RP : 0 < r) (LP : 0 < l) (CB : 0 <= cb < r) (CT : 0 <= ct < r) (CL : cb + ct < 2 * l) (TL : tolerance < 2 * l).
  Definition chamfer_loop : list v2 :=
    V2 0 (- l) :: cut (V2 r (- l)) (V2 (-1) 0) (V2 0 1) cb ++ cut (V2 r l) (V2 0 (-1)) (V2 (-1) 0) ct ++ [V2 0 l].
  Ltac steps C tac := repeat (apply consecutive_step in C; destruct C as [[-> ->]|C]; [tac|]); now apply consecutive_one in C.
  Ltac nums := unfold cross2, sub2, add2, scale2 in *; cbn [x2 y2 hd app] in *.
  Lemma chamfer_loop_ok : loop_ok chamfer_loop.
  Proof.
    split.
    - intros a b C. unfold chamfer_loop, cut in C. destruct (Reqb_spec cb 0), (Reqb_spec ct 0); cbn [app] in C; steps C ltac:(intros Q; nums; injection Q; intros; lra).
    - right. right. unfold chamfer_loop. cbn [hd]. rewrite app_comm_cons, app_assoc, last_last. cbn [y2]. rewrite Rabs_left; lra.
  Qed.
  Lemma chamfer_loop_convex : convex_loop 1 chamfer_loop.
  Proof.
    intros a b v C V. unfold chamfer_loop, cut in C, V.
    assert (0 <= (r - cb) * (2 * l) /\ 0 <= cb * ct /\ 0 <= (r - ct) * (2 * l) /\ 0 <= cb * (2 * l - cb - ct) /\ 0 <= ct * (2 * l - cb - ct) /\ 0 <= r * (2 * l) /\ 0 <= cb * (r - cb) /\ 0 <= ct * (r - ct) /\ 0 <= cb * (r - ct) /\ 0 <= ct * (r - cb)) by (repeat split; apply Rmult_le_pos; lra).
    destruct (Reqb_spec cb 0), (Reqb_spec ct 0); cbn [app] in C, V; steps C ltac:(cbn in V; repeat (destruct V as [<-|V]; [nums; nra|]); destruct V).
  Qed.
  Lemma chamfer_all_edges p : all_edges 1 chamfer_loop p <-> 0 < x2 p < r /\ - l < y2 p < l /\ x2 p - y2 p < r + l - cb /\ x2 p + y2 p < r + l - ct.
  Proof.
    assert (MUL : forall a b, 0 < a -> (0 < a * b <-> 0 < b)) by (intros a b A; split; intros B; [apply (Rmult_lt_reg_l a); lra|now apply Rmult_lt_0_compat]).
    destruct p as [x y]. assert (M1 := MUL (r - cb) (y + l)). assert (M2 := MUL cb (r + l - cb - x + y)). assert (M3 := MUL (2 * l - cb - ct) (r - x)). assert (M4 := MUL ct (r + l - ct - x - y)). assert (M5 := MUL (r - ct) (l - y)). assert (M6 := MUL (2 * l) x). clear MUL.
    specialize (M1 ltac:(lra)). specialize (M3 ltac:(lra)). specialize (M5 ltac:(lra)). specialize (M6 ltac:(lra)).
    unfold all_edges, chamfer_loop, cut. cbn [x2 y2]. destruct (Reqb_spec cb 0) as [Z1|Z1], (Reqb_spec ct 0) as [Z2|Z2]; cbn [app hd]; split; try specialize (M2 ltac:(lra)); try specialize (M4 ltac:(lra)).
    all: try (intros (X & Y & A & B) a b C _; pose proof (proj2 M1 ltac:(lra)); try pose proof (proj2 M2 ltac:(lra)); pose proof (proj2 M3 ltac:(lra)); try pose proof (proj2 M4 ltac:(lra)); pose proof (proj2 M5 ltac:(lra)); pose proof (proj2 M6 ltac:(lra)); steps C ltac:(nums; nra)).
    all: intros H; match type of H with forall a b, consecutive ?L a b -> _ => assert (H' : forall i a b, nth_error L i = Some a -> nth_error L (S i) = Some b -> a <> b -> 0 < 1 * cross2 (sub2 b a) (sub2 (V2 x y) a)) by (intros i a b A B; apply H; now apply (nth_consecutive _ i)) end; clear H.
    all: assert (H0 := H' 0%nat _ _ eq_refl eq_refl); assert (H1 := H' 1%nat _ _ eq_refl eq_refl); assert (H2 := H' 2%nat _ _ eq_refl eq_refl); assert (H3 := H' 3%nat _ _ eq_refl eq_refl).
    all: try assert (H4 := H' 4%nat _ _ eq_refl eq_refl); try assert (H5 := H' 5%nat _ _ eq_refl eq_refl).
    all: clear H'; nums; specialize (H0 ltac:(intros Q; injection Q; intros; lra)); specialize (H1 ltac:(intros Q; injection Q; intros; lra)); specialize (H2 ltac:(intros Q; injection Q; intros; lra)); specialize (H3 ltac:(intros Q; injection Q; intros; lra)).
    all: try specialize (H4 ltac:(intros Q; injection Q; intros; lra)); try specialize (H5 ltac:(intros Q; injection Q; intros; lra)).
    all: pose proof (proj1 M1 ltac:(nra)); try pose proof (proj1 M2 ltac:(nra)); pose proof (proj1 M3 ltac:(nra)); try pose proof (proj1 M4 ltac:(nra)); pose proof (proj1 M5 ltac:(nra)); pose proof (proj1 M6 ltac:(nra)); lra.
  Qed.
End ChamferRegion.
(** What a body keeps when its ends are chamfered. *)
Theorem C97_chamfered s kb kt : let r := x3 (max3 (bb3 s)) in let l := z3 (max3 (bb3 s)) in let cb := r * kb * sqrt (1/2) in let ct := r * kt * sqrt (1/2) in
  0 < r -> 0 < l -> 0 <= cb < r -> 0 <= ct < r -> cb + ct < 2 * l -> PolyModel.tolerance < 2 * l -> exists s', chamfered_cylinder (Some s) kb kt = Ok s' /\
  forall p, let rho := hypot (x3 p) (y3 p) in ev3 s' p < 0 <-> ev3 s p < 0 /\ 0 < rho < r /\ - l < z3 p < l /\ rho - z3 p < r + l - cb /\ rho + z3 p < r + l - ct.
Proof.
  cbv zeta. set (r := x3 (max3 (bb3 s))). set (l := z3 (max3 (bb3 s))). set (cb := r * kb * sqrt (1/2)). set (ct := r * kt * sqrt (1/2)). intros RP LP CB CT CL TL.
  destruct (C62_chamfered s kb kt) as (s' & E & _ & t & B & V). fold r l in B. exists s'. split; [exact E|]. intros p. rewrite V. apply and_iff_compat_l.
  unfold built_polygon in B. rewrite (chamfer_vertices r l cb ct RP LP CB CT CL (r * kb) (r * kt) eq_refl eq_refl) in B. cbn [bind] in B.
  rewrite (C96_convex 1 _ t ltac:(now left) B (chamfer_loop_ok r l cb ct RP LP CB CT CL TL) (chamfer_loop_convex r l cb ct RP LP CB CT CL)). apply (chamfer_all_edges r l cb ct RP LP CB CT CL).
Qed.

(** ** Cylinders with rounded edges *)
Definition in_rounded_cylinder (h r k : R) (p : v3) : Prop :=
  let a := Rmax 0 (hypot (x3 p) (y3 p) - (r - k)) in let b := Rmax 0 (Rabs (z3 p) - (h / 2 - k)) in a * a + b * b < k * k.
Lemma box2d_rounded a b r h k : 0 <= a -> 0 < k -> sdf_box2d (V2 a b) (V2 r h) - k < 0 <-> Rmax 0 (a - r) * Rmax 0 (a - r) + Rmax 0 (Rabs b - h) * Rmax 0 (Rabs b - h) < k * k.
Proof.
  intros A K. unfold sdf_box2d. cbv zeta. unfold abs_elem2, sub2. cbn [x2 y2]. rewrite (Rabs_right a) by lra. set (u := a - r). set (w := Rabs b - h).
  destruct (Rltb_spec 0 u) as [U|U], (Rltb_spec 0 w) as [W|W]; cbn [andb].
  - rewrite !Rmax_right by lra. pose proof (norm2_sq (V2 u w)) as Q. pose proof (norm2_nonneg (V2 u w)) as P. unfold norm2sq, dot2 in Q. cbn [x2 y2] in Q. set (d := norm2 (V2 u w)) in *. clearbody d. clear - Q P K. split; intros; nra.
  - rewrite (Rmax_right 0 u), (Rmax_left 0 w) by lra. destruct (Rltb_spec (h - r) (Rabs b - a)) as [Q|Q]; [unfold u, w in *; lra|]. clearbody u. clear - U K. split; intros; nra.
  - rewrite (Rmax_right 0 w), (Rmax_left 0 u) by lra. destruct (Rltb_spec (h - r) (Rabs b - a)) as [Q|Q]; [|unfold u, w in *; lra]. clearbody w. clear - W K. split; intros; nra.
  - rewrite (Rmax_left 0 w), (Rmax_left 0 u) by lra. split; [intros _; nra|intros _]. destruct (Rltb_spec (h - r) (Rabs b - a)); lra.
Qed.
Theorem C97_rounded_cylinder h r k s p : must_cylinder h r k = Ok s -> 0 < k -> ev3 s p < 0 <-> in_rounded_cylinder h r k p.
Proof.
  unfold must_cylinder. destruct (Rleb_spec r 0); [discriminate|]. destruct (Rltb_spec k 0); [discriminate|]. destruct (Rltb_spec r k); [discriminate|]. destruct (Rltb_spec h (2 * k)); [discriminate|]. intros E K. injection E as <-. cbn [ev3].
  apply box2d_rounded; [apply hypot_nonneg|exact K].
Qed.
(** Such a cylinder fills the cylinder of the given size except for the edges. *)
Lemma rounded_extent h r k p : 0 < k <= r -> 2 * k <= h -> (in_rounded_cylinder h r k p -> hypot (x3 p) (y3 p) < r /\ Rabs (z3 p) < h / 2) /\
  (hypot (x3 p) (y3 p) < r -> Rabs (z3 p) <= h / 2 - k -> in_rounded_cylinder h r k p) /\ (hypot (x3 p) (y3 p) <= r - k -> Rabs (z3 p) < h / 2 -> in_rounded_cylinder h r k p).
Proof.
  intros K H. unfold in_rounded_cylinder. cbv zeta. set (a := hypot (x3 p) (y3 p)). set (b := Rabs (z3 p)). clearbody a b. split; [|split].
  - intros Q. rmm; split; nra.
  - intros A B. rewrite (Rmax_left 0 (b - _)) by lra. rmm; nra.
  - intros A B. rewrite (Rmax_left 0 (a - _)) by lra. rmm; nra.
Qed.

(** ** Hexagonal heads *)
(** A hexagon with corners on the x axis, of circumradius r (closed). *)
Definition in_hexagon (r : R) (q : v2) : Prop :=
  forall i, (i < 6)%nat -> x2 q * cos ((INR i + 1/2) * (PI / 3)) + y2 q * sin ((INR i + 1/2) * (PI / 3)) <= r * cos (PI / 6).
(** The prism over the hexagon with corners rounded to 0.08 of the radius, cut by spheres at the given sides. *)
Definition in_hex_head (r h : R) (top bottom : bool) (p : v3) : Prop :=
  let zo := sqrt ((16/10 * r) * (16/10 * r) - (r * cos (PI / 6)) * (r * cos (PI / 6))) - h / 2 in
  (exists q, in_hexagon (92/100 * r) q /\ dist2 (V2 (x3 p) (y3 p)) q < 8/100 * r) /\ Rabs (z3 p) < h / 2 /\
  (top = true -> norm3 (V3 (x3 p) (y3 p) (z3 p + zo)) < 16/10 * r) /\ (bottom = true -> norm3 (V3 (x3 p) (y3 p) (z3 p - zo)) < 16/10 * r).
Definition rounded_sides (round : string) : option (bool * bool) :=
  if String.eqb round "" then Some (false, false) else if String.eqb round "t" then Some (true, false) else if String.eqb round "b" then Some (false, true)
  else if String.eqb round "tb" then Some (true, true) else None.
Theorem C97_hex_head r h round top bottom s p : 0 < r -> PolyModel.tolerance < 92/100 * r * sin (PI / 3) -> (8/100 * r) * (8/100 * r) <= max_float64 -> rounded_sides round = Some (top, bottom) ->
  hex_head r h round = Ok s -> ev3 s p < 0 <-> in_hex_head r h top bottom p.
Proof.
  intros RP T M RS. unfold hex_head. cbv zeta. replace (r - r * (8 / 100)) with (92/100 * r) by lra. cbn [form_nagon bind]. unfold form_nagon. cbn [bind]. set (c := 92/100 * r) in *. assert (CP : 0 < c) by (unfold c; lra).
  assert (A6 : 2 * PI / IZR 6 = PI / 3) by field. assert (T' : PolyModel.tolerance < c * sin (2 * PI / IZR 6)) by (rewrite A6; exact T).
  destruct (nagon_defined 6 c ltac:(lia)) as (hx & HX). unfold form_polygon. rewrite HX. cbn [recovered bind].
  pose proof (nagon_ok 6 c ltac:(lia) CP T') as OK. assert (HEX : forall q, ev2 hx q <= 0 <-> in_hexagon c q).
  { intros q. destruct (nagon_sign 6 c ltac:(lia) CP hx q T' HX) as (_ & N). rewrite N. unfold in_hexagon. change (Z.to_nat 6) with 6%nat. rewrite A6. reflexivity. }
  assert (PR : forall q, ev3 (extrude3d (offset2d hx (r * (8/100))) h) q < 0 <-> (exists q', in_hexagon c q' /\ dist2 (V2 (x3 q) (y3 q)) q' < 8/100 * r) /\ Rabs (z3 q) < h / 2).
  { intros q. cbn [extrude3d ev3]. unfold extrude_eval. rewrite Rmax_neg_iff. replace (r * (8/100)) with (8/100 * r) by lra. unfold normal_extrude. rewrite (C96_offset _ hx (8/100 * r) HX OK ltac:(lra) M). unfold xy.
    split; intros ((q' & I & D) & Z); (split; [exists q'; split; [now apply HEX|exact D]|lra]). }
  replace (30 * PI / 180) with (PI / 6) by field. unfold in_hex_head. fold c. replace (r * (16/10)) with (16/10 * r) by lra.
  assert (SPH : form_sphere (16/10 * r) = Ok (S3 (fun p => norm3 p - 16/10 * r) (Box3 (scale3 (-1) (elem3 (16/10 * r))) (elem3 (16/10 * r))))) by (unfold form_sphere, must_sphere; rewrite (proj2 (Rleb_false _ _)) by lra; reflexivity).
  set (zo := sqrt _ - h / 2). unfold rounded_sides in RS. rewrite SPH. set (hex3 := extrude3d _ h) in *. clearbody hex3. cbn [bind].
  assert (UP : forall q, sub3 q (V3 0 0 (- zo)) = V3 (x3 q) (y3 q) (z3 q + zo)) by (intros q; unfold sub3; apply v3_ext; cbn; ring).
  assert (DN : forall q, sub3 q (V3 0 0 zo) = V3 (x3 q) (y3 q) (z3 q - zo)) by (intros q; unfold sub3; apply v3_ext; cbn; ring).
  destruct (String.eqb round "") eqn:E0.
  { injection RS as <- <-. intros E. injection E as <-. rewrite PR. split; intros (A & B); (split; [exact A|]); [split; [exact B|split; discriminate]|apply B]. }
  destruct (String.eqb round "t") eqn:E1; [injection RS as <- <-; apply String.eqb_eq in E1; subst round|destruct (String.eqb round "b") eqn:E2; [injection RS as <- <-; apply String.eqb_eq in E2; subst round|destruct (String.eqb round "tb") eqn:E3; [injection RS as <- <-|discriminate]]].
  all: cbn [orb String.eqb Ascii.eqb Bool.eqb transform3d bind intersect3d intersect3d_max]; intros E; injection E as <-; cbn [ev3 inter3_max]; rewrite ?Rmax_neg_iff, PR, ?ev_placed3, ?UP, ?DN; cbn [ev3].
  - split; [intros ((A & B) & C); split; [exact A|]; split; [exact B|]; split; [intros _; lra|discriminate]|intros (A & B & C & _); specialize (C eq_refl); split; [split; assumption|lra]].
  - split; [intros ((A & B) & C); split; [exact A|]; split; [exact B|]; split; [discriminate|intros _; lra]|intros (A & B & _ & C); specialize (C eq_refl); split; [split; assumption|lra]].
  - split; [intros (((A & B) & C) & D); split; [exact A|]; split; [exact B|]; split; intros _; lra|intros (A & B & C & D); specialize (C eq_refl); specialize (D eq_refl); split; [split; [split; assumption|lra]|lra]].
Qed.

(** ** Knurls *)
Lemma plain_vertices l : (forall x, In x l -> snd x = []) -> vertices_of l = Ok (map fst l).
Proof.
  intros N. unfold vertices_of. set (b := Builder false false (Some _)). rewrite (C60_plain b _ eq_refl).
  - unfold answer, b. cbn. f_equal. rewrite map_map. apply map_ext_in. intros x I. now rewrite (N x I).
  - intros v I. apply in_map_iff in I. destruct I as (x & <- & I). rewrite (N x I). cbn. auto.
  - lia.
Qed.
Lemma knurl_profile k n t x y : 0 < kn_radius k -> PolyModel.tolerance < kn_pitch k -> 0 < kn_height k -> th_thread (knurl_threader k n) = Ok t ->
  ev2 t (V2 x y) < 0 <-> Rabs x < kn_pitch k / 2 /\ 0 < y < kn_radius k + kn_height k * (1 - 2 * Rabs x / kn_pitch k).
Proof.
  set (r := kn_radius k). set (p := kn_pitch k). set (h := kn_height k). intros RP T HP E. assert (PP : 0 < p) by (unfold PolyModel.tolerance in T; lra). unfold knurl_threader in E. cbn [th_thread] in E. fold r p h in E.
  rewrite plain_vertices in E by (intros ? I; cbn in I; repeat (destruct I as [<-|I]; [reflexivity|]); destruct I). cbn [bind map fst] in E. set (vs := [_; _; _; _; _]) in E.
  assert (E' : polygon vs = Ok t) by (unfold form_polygon in E; destruct (polygon vs); cbn in E; congruence).
  assert (OK : loop_ok vs). { split; [|right; left; cbn; rewrite Rabs_pos_eq; lra]. intros a b C. unfold vs in C. repeat (apply consecutive_step in C; destruct C as [[-> ->]|C]; [intros Q; injection Q; intros; lra|]). now apply consecutive_one in C. }
  assert (CV : convex_loop 1 vs).
  { assert (0 <= p * r /\ 0 <= p * h) by (split; apply Rmult_le_pos; lra). intros a b v C V. unfold vs in C, V. cbn [app hd] in C. repeat (apply consecutive_step in C; destruct C as [[-> ->]|C]; [cbn in V; repeat (destruct V as [<-|V]; [unfold cross2, sub2; cbn [x2 y2]; nra|]); destruct V|]). now apply consecutive_one in C. }
  rewrite (C96_convex 1 vs t ltac:(now left) E' OK CV). assert (D : 2 * Rabs x / p * p = 2 * Rabs x) by (field; lra). set (d := 2 * Rabs x / p) in *. clearbody d.
  split.
  - intros H. assert (H' : forall i a b, nth_error (vs ++ [hd zero2 vs]) i = Some a -> nth_error (vs ++ [hd zero2 vs]) (S i) = Some b -> a <> b -> 0 < 1 * cross2 (sub2 b a) (sub2 (V2 x y) a)) by (intros i a b A B; apply H; now apply (nth_consecutive _ i)). clear H.
    assert (H0 := H' 0%nat _ _ eq_refl eq_refl). assert (H1 := H' 1%nat _ _ eq_refl eq_refl). assert (H2 := H' 2%nat _ _ eq_refl eq_refl). assert (H3 := H' 3%nat _ _ eq_refl eq_refl). assert (H4 := H' 4%nat _ _ eq_refl eq_refl). clear H'.
    unfold cross2, sub2 in *. cbn [x2 y2 vs hd app] in *. specialize (H0 ltac:(intros Q; injection Q; intros; lra)). specialize (H1 ltac:(intros Q; injection Q; intros; lra)). specialize (H2 ltac:(intros Q; injection Q; intros; lra)). specialize (H3 ltac:(intros Q; injection Q; intros; lra)). specialize (H4 ltac:(intros Q; injection Q; intros; lra)).
    assert (0 < p / 2 - x) by (apply (Rmult_lt_reg_l r); lra). assert (0 < p / 2 + x) by (apply (Rmult_lt_reg_l r); lra). assert (0 < y) by (apply (Rmult_lt_reg_l p); lra).
    split; [apply Rabs_def1; lra|]. split; [assumption|]. apply (Rmult_lt_reg_r p); [exact PP|]. replace ((r + h * (1 - d)) * p) with (r * p + h * p - h * (d * p)) by ring. rewrite D. clear D. unfold Rabs. destruct (Rcase_abs x); lra.
  - intros (A & Y & Z). apply Rabs_def2 in A as A'. assert (Z' : y * p < r * p + h * p - h * (2 * Rabs x)). { rewrite <- D. replace (r * p + h * p - h * (d * p)) with ((r + h * (1 - d)) * p) by ring. now apply Rmult_lt_compat_r. }
    assert (M1 : 0 < r * (p / 2 - x)) by (apply Rmult_lt_0_compat; lra). assert (M2 : 0 < r * (p / 2 + x)) by (apply Rmult_lt_0_compat; lra). assert (M3 : 0 < p * y) by (apply Rmult_lt_0_compat; lra).
    pose proof (Rle_abs x) as B1. pose proof (Rle_abs (- x)) as B2. rewrite Rabs_Ropp in B2. assert (h * x <= h * Rabs x /\ h * - x <= h * Rabs x) as (B3 & B4) by (split; apply Rmult_le_compat_l; lra).
    intros a b C _. unfold vs in C. cbn [app hd] in C. repeat (apply consecutive_step in C; destruct C as [[-> ->]|C]; [unfold cross2, sub2; cbn [x2 y2]; lra|]). now apply consecutive_one in C.
Qed.
(** The ridges of [starts] helices in each direction: triangles of the given height and width pitch on a core of radius r. *)
Definition in_knurl (len r pitch height : R) (starts : Z) (p : v3) : Prop :=
  Rabs (z3 p) < len / 2 /\ exists rho a u w i j, 0 < rho /\ x3 p = rho * cos a /\ y3 p = rho * sin a /\
    z3 p - pitch * IZR starts * a / (2 * PI) = IZR i * pitch + u /\ z3 p + pitch * IZR starts * a / (2 * PI) = IZR j * pitch + w /\
    Rabs u < pitch / 2 /\ Rabs w < pitch / 2 /\ rho < r + height * (1 - 2 * Rabs u / pitch) /\ rho < r + height * (1 - 2 * Rabs w / pitch).
Lemma rest x period : 0 < period -> exists i u, x = IZR i * period + u /\ - (period / 2) <= u < period / 2.
Proof.
  intros P. destruct (saw_mod x period ltac:(lra)) as (k & E). pose proof (saw_range x period P) as B. exists (- k)%Z, (saw_tooth x period). rewrite E at 1. rewrite opp_IZR. split; [ring|exact B].
Qed.
Theorem C97_knurl k s p : knurl k = Ok s -> PolyModel.tolerance < kn_pitch k ->
  ev3 s p < 0 <-> in_knurl (kn_length k) (kn_radius k) (kn_pitch k) (kn_height k) (Int_part (2 * PI * kn_radius k * tan (kn_theta k) / kn_pitch k)) p.
Proof.
  intros E T. destruct (proj1 (proj1 (C66_knurl k)) (ex_intro _ s E)) as (LP & RP & PP & HP & TH). unfold knurl in E. revert E. replace (90 * PI / 180) with (PI / 2) by field. rewrite (proj2 (Rleb_false (kn_length k) 0)), (proj2 (Rleb_false (kn_radius k) 0)), (proj2 (Rleb_false (kn_pitch k) 0)), (proj2 (Rleb_false (kn_height k) 0)),
    (proj2 (Rltb_false (kn_theta k) 0)), (proj2 (Rleb_false (PI / 2) (kn_theta k))) by lra. cbv zeta. set (n := Int_part _). intros E. apply bind_ok in E. destruct E as (sa & EA & E). apply bind_ok in E. destruct E as (sb & EB & E). rewrite inter3_ok in E. injection E as <-.
  destruct (knurl_profile_ok k n) as (ta & TA). destruct (knurl_profile_ok k (n * -1)) as (tb & TB).
  destruct (screw_inside _ _ sa ta (kn_pitch k) EA TA eq_refl eq_refl PP) as (X & VX & _ & HX). destruct (screw_inside _ _ sb tb (kn_pitch k) EB TB eq_refl eq_refl PP) as (Y & VY & _ & HY).
  cbn [knurl_threader th_params tp_starts] in HX, HY. rewrite mult_IZR in HY. cbn [ev3 inter3_max]. rewrite Rmax_neg_iff, VX, VY.
  rewrite (knurl_profile k n ta _ _ RP T HP TA), (knurl_profile k (n * -1) tb _ _ RP T HP TB). unfold in_knurl. set (P := kn_pitch k) in *. split.
  - intros (((A1 & A2) & Z) & ((B1 & B2) & _)). split; [exact Z|]. destruct (atan2_polar (y3 p) (x3 p)) as (AX & AY). set (a := atan2 (y3 p) (x3 p)) in *. set (rho := hypot (x3 p) (y3 p)) in *.
    destruct (rest (z3 p - P * IZR n * a / (2 * PI)) P PP) as (i & u & U & UB). destruct (rest (z3 p - P * (IZR n * -1) * a / (2 * PI)) P PP) as (j & w & W & WB).
    assert (EP : p = V3 (rho * cos a) (rho * sin a) (z3 p)) by (apply v3_ext; cbn; congruence). assert (XU : X p = u) by (rewrite EP; now apply (HX rho a (z3 p) i u)). assert (YW : Y p = w) by (rewrite EP; now apply (HY rho a (z3 p) j w)). rewrite XU in A1, A2. rewrite YW in B1, B2.
    exists rho, a, u, w, i, j. repeat split; try assumption; try lra.
  - intros (Z & rho & a & u & w & i & j & RH & PX & PY & U & W & U1 & W1 & U2 & W2). assert (EP : p = V3 (rho * cos a) (rho * sin a) (z3 p)) by (apply v3_ext; cbn; congruence). apply Rabs_def2 in U1 as U3. apply Rabs_def2 in W1 as W3.
    assert (XU : X p = u) by (rewrite EP; apply (HX rho a (z3 p) i u); lra). assert (YW : Y p = w) by (rewrite EP; apply (HY rho a (z3 p) j w); lra). rewrite XU, YW, PX, PY, (hypot_polar rho a ltac:(lra)). repeat split; assumption.
Qed.
Lemma pi_bounds : 25 / 8 < PI < 13 / 4.
Proof. pose proof (PI_2_3_7_ineq 1) as (A & B). unfold PI_2_3_7_tg, sum_f_R0, tg_alt, Ratan_seq in *. cbn in *. split; lra. Qed.
Theorem C97_knurled_head r h pitch s p : knurled_head r h pitch = Ok s -> PolyModel.tolerance < pitch ->
  ev3 s p < 0 <-> in_rounded_cylinder h r (r * (5/100)) p \/ in_knurl (pitch * floorR ((h - r * (5/100)) / pitch)) r pitch (pitch * (3/10)) (Int_part (2 * PI * r / pitch)) p.
Proof.
  intros E T. unfold knurled_head in E. cbv zeta in E. apply bind_ok in E. destruct E as (kn & EK & E). apply bind_ok in E. destruct E as (c & EC & E). rewrite union2s in E. injection E as <-. cbn [ev3].
  assert (RP : 0 < r) by (destruct (proj1 (proj1 (C66_knurl _)) (ex_intro _ kn EK)) as (_ & Q & _); exact Q).
  assert (EC' : must_cylinder h r (r * (5/100)) = Ok c) by (unfold form_cylinder in EC; destruct (must_cylinder h r (r * (5/100))); cbn in EC; congruence).
  cbn [union_eval3 fold_left ev3]. rewrite Rmin_neg_iff. rewrite (C97_rounded_cylinder _ _ _ _ p EC') by lra. rewrite (C97_knurl _ kn p EK T). cbn [kn_length kn_radius kn_pitch kn_height kn_theta].
  replace (tan (45 * PI / 180)) with 1; [rewrite Rmult_1_r; reflexivity|]. replace (45 * PI / 180) with (PI / 4) by field. symmetry. apply tan_PI4.
Qed.

(** ** Bolts *)
(** Heads around the origin: a hexagon rounded at its lower side, or a knurled disc (three pitches of a quarter of the radius, 25 starts). *)
Definition in_bolt_head (st : nut_style) (r h : R) (p : v3) : Prop :=
  match st with
  | NutHex => in_hex_head r h false true p
  | NutKnurl => in_rounded_cylinder h r (5/100 * r) p \/ in_knurl (3/4 * r) r (r / 4) (3/40 * r) 25 p
  | _ => False
  end.
Lemma knurled_sizes r : 0 < r -> floorR ((2 * r * (5 / 12) - r * (5/100)) / (r * (1/4))) = 3 /\ Int_part (2 * PI * r / (r * (1/4))) = 25%Z.
Proof.
  intros R. split.
  - replace ((2 * r * (5 / 12) - r * (5/100)) / (r * (1/4))) with (47 / 15) by (field; lra). rewrite (floorR_unique (47/15) 3); [reflexivity|]. lra.
  - replace (2 * PI * r / (r * (1/4))) with (8 * PI) by (field; lra). pose proof pi_bounds. destruct (base_Int_part (8 * PI)) as (A & B). set (n := Int_part (8 * PI)) in *. clearbody n. assert (n < 26)%Z by (apply lt_IZR; lra). assert (24 < n)%Z by (apply lt_IZR; lra). lia.
Qed.
Lemma bolt_head st t hd p : 0 < tp_hexf2f t -> style_ok st -> PolyModel.tolerance < hex_radius t / 4 -> (8/100 * hex_radius t) * (8/100 * hex_radius t) <= max_float64 ->
  match st with NutHex => drop_err (hex_head (hex_radius t) (hex_height t) "b") | NutKnurl => drop_err (knurled_head (hex_radius t) (hex_height t) (hex_radius t * (1/4))) | _ => Err end = Ok (Some hd) ->
  ev3 hd p < 0 <-> in_bolt_head st (hex_radius t) (hex_height t) p.
Proof.
  intros P S T M. apply hex_radius_pos in P. set (r := hex_radius t) in *. unfold hex_height. fold r. destruct S as [-> | ->]; cbn [in_bolt_head].
  - intros E. destruct (hex_head r (2 * r * (5 / 12)) "b") as [h'| |] eqn:EH; cbn in E; try discriminate. injection E as <-. apply (C97_hex_head r _ "b" false true h' p P); [|exact M|reflexivity|exact EH].
    rewrite sin_PI3. pose proof s3_pos. pose proof s3_sq. assert (1 < sqrt 3) by nra. nra.
  - intros E. destruct (knurled_head r (2 * r * (5 / 12)) (r * (1/4))) as [h'| |] eqn:EH; cbn in E; try discriminate. injection E as <-. rewrite (C97_knurled_head _ _ _ h' p EH) by lra. destruct (knurled_sizes r P) as (-> & ->).
    replace (r * (5/100)) with (5/100 * r) by lra. replace (r * (1/4) * 3) with (3/4 * r) by lra. replace (r * (1/4) * (3/10)) with (3/40 * r) by lra. replace (r * (1/4)) with (r / 4) by lra. reflexivity.
Qed.
Theorem C97_bolt k t prof s : bolt k = Ok s -> bo_thread k = Some t -> th_thread t = Ok prof ->
  let hr := hex_radius (th_params t) in let hh := hex_height (th_params t) in
  let sl := bo_shank k + hh / 2 in let tl := bo_total k - bo_shank k in let tip := bo_total k + hh / 2 in
  let R := y2 (max2 (bb2 prof)) + tl / 2 * tan (tp_taper (th_params t)) in let c := R * (1/2) * sqrt (1/2) in
  PolyModel.tolerance < hr / 4 -> (8/100 * hr) * (8/100 * hr) <= max_float64 -> 0 < R -> c < tl -> PolyModel.tolerance < tl ->
  exists sc, screw tl (Some t) = Ok sc /\ forall p, let rho := hypot (x3 p) (y3 p) in
  ev3 s p < 0 <-> in_bolt_head (bo_style k) hr hh p \/
    in_rounded_cylinder sl (tp_radius (th_params t)) (8/100 * hh) (V3 (x3 p) (y3 p) (z3 p - sl / 2)) \/
    (ev3 sc (V3 (x3 p) (y3 p) (z3 p - (sl + tip) / 2)) < 0 /\ 0 < rho < R /\ sl < z3 p < tip /\ rho + z3 p < tip + R - c).
Proof.
  intros E ET EP hr hh sl tl tip R c T M RP CL TT. destruct (proj1 (proj1 (C66_bolt_outcome k)) (ex_intro _ s E)) as (t' & pr & Q & HF & ST & SO & LT & EP'). assert (t' = t) as -> by congruence. clear Q EP' pr. unfold bolt in E. rewrite ET in E. cbv zeta in E. fold hr hh sl tl in E. pose proof (rleb_pos _ HF) as RB. fold hr hh in RB. rewrite RB in E. apply bind_ok in E. destruct E as (head & EH & E).
  assert (HD : exists hd, head = Some hd). { destruct (head_ok (bo_style k) (th_params t) HF ST) as (hd & Q). fold hr hh in Q. rewrite Q in EH. injection EH as <-. eauto. } destruct HD as (hd & ->).
  apply bind_ok in E. destruct E as (sh & ES & E). rewrite transform3_ok in E. cbn [bind] in E. assert (TLP : 0 < tl) by (unfold tl; lra). rewrite (proj2 (Rltb_false tl 0)), (proj2 (Reqb_false tl 0)) in E by lra. cbn [negb] in E.
  apply bind_ok in E. destruct E as (th & ETH & E). apply bind_ok in ETH. destruct ETH as (sc & ESC & ETH). exists sc. split; [exact ESC|].
  assert (BB : x3 (max3 (bb3 sc)) = R /\ z3 (max3 (bb3 sc)) = tl / 2). { unfold screw in ESC. rewrite (proj2 (Rleb_false tl 0)), EP in ESC by lra. cbn [bind] in ESC. injection ESC as <-. cbn. split; reflexivity. } destruct BB as (BX & BZ).
  destruct (C97_chamfered sc 0 (1/2)) as (ch & ECH & V); rewrite ?BX, ?BZ; fold c; try lra. { pose proof (sqrt_pos (1/2)) as SP. pose proof (sqrt_sqrt (1/2) ltac:(lra)) as SS. assert (sqrt (1/2) <= 1) by nra. unfold c. split; nra. }
  rewrite BX, BZ in V. fold c in V. rewrite ECH in ETH. cbn [bind] in ETH. rewrite transform3_ok in ETH. cbn [bind] in ETH. injection ETH as <-.
  assert (US : s = S3 (union_eval3 Rmin [hd; transform3 sh (translate3d (V3 0 0 (sl / 2))); transform3 ch (translate3d (V3 0 0 (tl / 2 + sl)))]) (bb3 s)) by (injection E as <-; reflexivity).
  intros p rho. rewrite US. cbn [ev3 union_eval3 fold_left]. rewrite !Rmin_neg_iff, !ev_placed3. rewrite (bolt_head _ _ hd p HF ST T M EH). fold hr hh. rewrite (C97_rounded_cylinder _ _ _ sh _ ES) by (assert (0 < hh) by (now apply hex_height_pos); lra). rewrite V.
  assert (S1 : forall z, sub3 p (V3 0 0 z) = V3 (x3 p) (y3 p) (z3 p - z)) by (intros z; unfold sub3; apply v3_ext; cbn; ring). rewrite !S1. cbn [x3 y3 z3]. fold rho. replace (hh * (8/100)) with (8/100 * hh) by lra. replace (tl / 2 + sl) with ((sl + tip) / 2) by (unfold tl, sl, tip; lra).
  assert (Z : tl = tip - sl) by (unfold tl, tip, sl; lra). assert (C0 : R * 0 * sqrt (1/2) = 0) by ring. rewrite C0. clear - Z. split.
  - intros [[H|H]|(H & A & B & C & D)]; [left; exact H|right; left; exact H|right; right]. repeat split; try exact H; lra.
  - intros [H|[H|(H & A & B & C)]]; [left; left; exact H|left; right; exact H|right]. repeat split; try exact H; lra.
Qed.
(** Where the crests of a bolt's thread lie: the top of the outline. *)
Lemma polygon_top a b c r s : polygon (a :: b :: c :: r) = Ok s -> (forall v, In v (a :: b :: c :: r) -> y2 v <= y2 b) -> y2 (max2 (bb2 s)) = y2 b.
Proof.
  intros E U. cbn [polygon] in E. injection E as <-. cbn [bb2]. set (vs := a :: b :: c :: r) in *.
  assert (Q : exists r', close_loop a vs = a :: b :: c :: r' /\ forall v, In v (close_loop a vs) -> In v vs).
  { unfold close_loop. destruct (equal_within2 _ _ _); [exists r; split; [reflexivity|auto]|]. exists (r ++ [a]). split; [reflexivity|]. intros v I. apply in_app_iff in I. destruct I as [I|[<-|[]]]; [exact I|now left]. }
  destruct Q as (r' & Q & IN). unfold poly_box. cbn [max2]. unfold vset_max. destruct (fold_max2_le (map fst (poly_edges (close_loop a vs))) (hd zero2 (close_loop a vs))) as (_ & LO).
  assert (UP : forall l x, y2 x <= y2 b -> (forall v, In v l -> y2 v <= y2 b) -> y2 (fold_left max_elem2 l x) <= y2 b).
  { induction l as [|z l IH]; cbn [fold_left]; intros x X H; [exact X|]. apply IH; [|intros v I; apply H; now right]. cbn [max_elem2 y2]. apply Rmax_lub; [exact X|apply H; now left]. }
  apply Rle_antisym.
  - apply UP; [rewrite Q; cbn [hd]; apply U; now left|]. intros v I. apply in_map_iff in I. destruct I as ((v0 & v1) & <- & I). apply in_edges in I. apply consecutive_in in I. cbn [fst]. apply U, IN, I.
  - apply LO. rewrite Q. cbn. right. left. reflexivity.
Qed.
Lemma iso_top d p prof : 0 < p -> 7 / 8 * (sqrt 3 / 2 * p) < d / 2 -> th_thread (iso d p true) = Ok prof -> y2 (max2 (bb2 prof)) = d / 2 + (sqrt 3 / 2 * p) / 8.
Proof.
  intros P DEEP E. unfold iso, iso_profile in E. cbn [th_thread] in E. rewrite iso_h, iso_root in E. pose proof s3_pos as S0. unfold built_polygon in E. destruct (ext_vertices (d / 2) p P) as (F2 & F5 & V & _ & _ & A2 & _ & _ & A5). rewrite V in E. cbn [bind] in E. unfold outline in E. cbn [hd app] in E.
  set (h := sqrt 3 / 2 * p) in *. assert (HP : 0 < h) by (unfold h; nra). assert (RT : sqrt 3 / 12 * p = h / 6) by (unfold h; field). set (rest := F2 ++ _) in E. destruct (rest ++ _) as [|c r] eqn:ER in E; [destruct rest; discriminate|].
  apply polygon_top in E; [rewrite E; cbn [y2]; unfold h; lra|]. cbn [y2]. assert (ARC : forall F c0 t, arc_facts F c0 (sqrt 3 / 12 * p) t -> y2 c0 = d / 2 - 7 / 8 * h + h / 3 -> forall q, In q F -> y2 q <= d / 2 - 7 / 8 * h + h).
  { intros F c0 t (_ & _ & CI & _) Y q I. specialize (CI _ I). unfold norm2sq, dot2, sub2 in CI. cbn [x2 y2] in CI. rewrite RT in CI. apply Rnot_lt_le. intros L. assert (2 / 3 * h < y2 q - y2 c0) by lra. set (u := x2 q - x2 c0) in *. set (w := y2 q - y2 c0) in *. clearbody u w. clear - HP H CI. nra. }
  intros v I. rewrite <- ER in I. unfold rest in I. repeat (rewrite ?in_app_iff in I; cbn [In] in I). destruct I as [<-|[<-|[[I|[<-|[<-|[I|[<-|[]]]]]]|[<-|[]]]]]; cbn [y2]; try lra; [exact (ARC _ _ _ A2 eq_refl v I)|exact (ARC _ _ _ A5 eq_refl v I)].
Qed.
Lemma head_height st r p : 0 < r -> in_bolt_head st r (2 * r * (5/12)) p -> Rabs (z3 p) < 2 * r * (5/12) / 2.
Proof.
  intros R. destruct st; cbn [in_bolt_head]; try tauto; [intros (_ & Z & _); exact Z|]. intros [I|(Z & _)]; [|lra]. eapply rounded_extent in I; [apply I|lra|lra].
Qed.
(** Bolts with an ISO thread: the head at the origin, then the shank and the thread of the major diameter up to the tip. *)
Theorem C97_iso_bolt k d p s : bolt k = Ok s -> bo_thread k = Some (iso d p true) -> let h := sqrt 3 / 2 * p in
  let ps := th_params (iso d p true) in let hr := hex_radius ps in let hh := hex_height ps in
  let sl := bo_shank k + hh / 2 in let tip := bo_total k + hh / 2 in let R := d / 2 + h / 8 in let c := R / 2 * sqrt (1/2) in
  0 <= bo_shank k -> 0 < p -> PolyModel.tolerance < 2 * p -> 7 / 8 * h < d / 2 -> PolyModel.tolerance < hr / 4 -> (8/100 * hr) * (8/100 * hr) <= max_float64 -> c < tip - sl -> PolyModel.tolerance < tip - sl ->
  (forall q, ev3 s q < 0 -> - (hh / 2) < z3 q < tip /\ (hh / 2 <= z3 q -> hypot (x3 q) (y3 q) < d / 2)) /\
  (forall q, hypot (x3 q) (y3 q) < d / 2 -> 8/100 * hh <= z3 q <= sl - 8/100 * hh -> ev3 s q < 0) /\
  (forall q, 0 < hypot (x3 q) (y3 q) < d / 2 - 17 / 24 * h -> sl < z3 q < tip -> hypot (x3 q) (y3 q) + z3 q < tip + R - c -> ev3 s q < 0) /\
  (forall r a z n, 0 < r < d / 2 -> sl < z < tip -> r + z < tip + R - c -> Rabs (z - (sl + tip) / 2 - p * a / (2 * PI) - IZR n * p) <= p / 16 -> ev3 s (V3 (r * cos a) (r * sin a) z) < 0) /\
  (forall q, hh / 2 <= z3 q -> z3 q = sl -> ~ ev3 s q < 0).
Proof.
  intros E ET h ps hr hh sl tip R c SP P TOL DEEP T M CL TT. destruct (C65_profiles d p) as (IS & _). destruct (IS true) as (prof & EP). pose proof (iso_top d p prof P DEEP EP) as TOP. fold h in TOP.
  destruct (proj1 (proj1 (C66_bolt_outcome k)) (ex_intro _ s E)) as (t' & pr & Q & HF & _ & SO & _). assert (t' = iso d p true) as -> by congruence. clear Q. unfold shank_ok in SO. fold ps in HF, SO. fold hh in SO. cbv zeta in SO. fold sl in SO.
  assert (HR : 0 < hr) by (now apply hex_radius_pos). assert (RAD : tp_radius ps = d / 2) by reflexivity. rewrite RAD in SO. assert (HH : hh = 2 * hr * (5/12)) by reflexivity. assert (HP : 0 < h) by (unfold h; pose proof s3_pos; nra).
  assert (TLE : bo_total k - bo_shank k = tip - sl) by (unfold tip, sl; lra).
  pose proof (C97_bolt k (iso d p true) prof s E ET EP) as B. cbv zeta in B. fold ps in B. fold hr hh in B. fold sl tip in B. rewrite TOP, TLE in B. change (tp_taper ps) with 0 in B. rewrite tan_0, Rmult_0_r, Rplus_0_r in B. fold R in B. replace (R * (1 / 2) * sqrt (1 / 2)) with c in B by (unfold c; field).
  destruct B as (sc & ESC & V); try assumption; [unfold R; lra|]. rewrite RAD in V. destruct (C95_iso_external _ d p sc ESC P TOL DEEP) as (N1 & N2 & N3 & _). fold h in N2.
  assert (K : 0 < 8/100 * hh <= d / 2 /\ 2 * (8/100 * hh) <= sl) by (split; [split|]; lra). destruct K as (K1 & K2).
  assert (CY : forall q, in_rounded_cylinder sl (d / 2) (8/100 * hh) (V3 (x3 q) (y3 q) (z3 q - sl / 2)) -> 0 < z3 q < sl /\ hypot (x3 q) (y3 q) < d / 2).
  { intros q I. eapply rounded_extent in I; [|exact K1|exact K2]. cbn [x3 y3 z3] in I. destruct I as (I1 & I2). apply Rabs_def2 in I2. split; [lra|exact I1]. }
  assert (SLT : sl < tip) by (unfold PolyModel.tolerance in TT; lra).
  split; [|split; [|split; [|split]]].
  - intros q I. apply V in I. destruct I as [I|[I|(I & I1 & I2 & I3)]].
    + rewrite HH in I. apply head_height in I; [|exact HR]. rewrite <- HH in I. apply Rabs_def2 in I. split; [|lra]. split; [lra|]. unfold tip in *. unfold sl in *. lra.
    + apply CY in I. split; [lra|]. intros _. apply I.
    + split; [lra|]. intros _. apply Rnot_le_lt. intros L. exact (N1 (V3 (x3 q) (y3 q) (z3 q - (sl + tip) / 2)) L I).
  - intros q A Z. apply V. right. left. pose proof (rounded_extent sl (d / 2) (8/100 * hh) (V3 (x3 q) (y3 q) (z3 q - sl / 2)) K1 K2) as (_ & RX & _). apply RX; cbn [x3 y3 z3]; [exact A|]. apply Rabs_le. lra.
  - intros q A Z C. apply V. right. right. split; [|split; [unfold R; lra|split; [exact Z|exact C]]]. apply N2; cbn [x3 y3 z3]; [exact A|]. apply Rabs_def1; lra.
  - intros r a z n A Z C Q. apply V. right. right. cbn [x3 y3 z3]. rewrite (hypot_polar r a) by lra. split; [|split; [unfold R; lra|split; [exact Z|exact C]]]. apply (N3 r a (z - (sl + tip) / 2) n); [lra|exact Q|]. split; [lra|]. apply Rabs_def1; lra.
  - intros q H Z I. apply V in I. destruct I as [I|[I|(I & I1 & I2 & I3)]].
    + rewrite HH in I. apply head_height in I; [|exact HR]. rewrite <- HH in I. apply Rabs_def2 in I. lra.
    + apply CY in I. lra.
    + lra.
Qed.

(** ** Nuts *)
Definition in_nut_body (st : nut_style) (r h : R) (p : v3) : Prop :=
  match st with
  | NutCircular => hypot (x3 p) (y3 p) < 11/10 * r /\ Rabs (z3 p) < h / 2
  | NutHex => in_hex_head r h true true p
  | NutKnurl => in_rounded_cylinder h r (5/100 * r) p \/ in_knurl (3/4 * r) r (r / 4) (3/40 * r) 25 p
  | NutOther => False
  end.
Theorem C97_nut k t s : nut k = Ok s -> nu_thread k = Some t -> let r := hex_radius (th_params t) in let h := hex_height (th_params t) in
  PolyModel.tolerance < r / 4 -> (8/100 * r) * (8/100 * r) <= max_float64 ->
  exists sc, screw h (Some t) = Ok sc /\ forall p, ev3 s p < 0 <-> in_nut_body (nu_style k) r h p /\ 0 < ev3 sc p.
Proof.
  intros E ET r h T M. destruct (proj1 (proj1 (C66_nut_partial k)) (ex_intro _ s E)) as (t' & pr & Q & TP & HF & _ & _). assert (t' = t) as -> by congruence. clear Q. assert (R : 0 < r) by (now apply hex_radius_pos). assert (HH : h = 2 * r * (5/12)) by reflexivity.
  unfold nut in E. rewrite ET in E. rewrite (proj2 (Rltb_false (nu_tolerance k) 0)) in E by lra. cbv zeta in E. fold r h in E. pose proof (rleb_pos _ HF) as RB. fold r h in RB. rewrite RB in E. apply bind_ok in E. destruct E as (body & EB & E). apply bind_ok in E. destruct E as (sc & ES & E). injection E as <-.
  exists sc. split; [exact ES|]. intros p. cbn [ev3 diff3_max]. rewrite Rmax_neg_iff. assert (B : ev3 body p < 0 <-> in_nut_body (nu_style k) r h p).
  { destruct (nu_style k); cbn [in_nut_body]; [| | |discriminate].
    - rewrite (proj1 (cylinder_sign _ _ _ p EB)). replace (r * (11/10)) with (11/10 * r) by lra. reflexivity.
    - apply (C97_hex_head r h "tb" true true body p R); [|exact M|reflexivity|exact EB]. rewrite sin_PI3. pose proof s3_pos. pose proof s3_sq. assert (1 < sqrt 3) by nra. nra.
    - rewrite HH in EB |- *. rewrite (C97_knurled_head _ _ _ body p EB) by lra. destruct (knurled_sizes r R) as (-> & ->). replace (r * (5/100)) with (5/100 * r) by lra. replace (r * (1/4) * 3) with (3/4 * r) by lra. replace (r * (1/4) * (3/10)) with (3/40 * r) by lra. replace (r * (1/4)) with (r / 4) by lra. reflexivity. }
  rewrite B. split; intros (A & C); (split; [exact A|lra]).
Qed.

Local Transparent max_float64.
Lemma max_float64_big : 100 <= max_float64.
Proof. assert (G : (2 ^ 7 <= 2 ^ 1023)%R) by (apply Rle_pow; [lra|lia]). unfold max_float64. assert (G1 : 0 < / 2 ^ 52 <= 1) by (split; [apply Rinv_0_lt_compat, pow_lt; lra|rewrite <- Rinv_1; apply Rinv_le_contravar; [lra|apply pow_R1_Rle; lra]]). set (x := 2 ^ 1023) in *. set (y := / 2 ^ 52) in *. clearbody x y. assert (2 ^ 7 = 128) by ring. nra. Qed.
Local Opaque max_float64.

(** ** Example: an M16 bolt with a hexagonal head, 30 long of which 10 are shank *)
Example C97_example : exists s, let k := BoltP (Some (iso 16 2 true)) NutHex 0 30 10 in bolt k = Ok s /\ ev3 s (V3 7 0 10) < 0 /\ ~ ev3 s (V3 8 0 20) < 0 /\ ev3 s (V3 5 0 20) < 0.
Proof.
  destruct (m16_ok NutHex 10 0 30) as (s & E); [unfold style_ok; tauto|lra|]. exists s. cbv zeta. split; [exact E|].
  assert (F : metricf2f (16/2) = 24). { unfold metricf2f, est_f2f. cbn [metric_table rev app]. rewrite (proj2 (Rltb_false _ 1)) by (rewrite Rabs_left1; lra). rewrite (proj2 (Rltb_false (16/2) _)), (proj2 (Rltb_false (16/2) _)), (proj2 (Rltb_false (16/2) _)) by lra. cbn [find].
    repeat (match goal with |- context [Rltb ?a ?b] => destruct (Rltb_spec a b) end; try lra). }
  pose proof s3_pos as S0. pose proof s3_sq as S1. assert (S2 : 17/10 < sqrt 3 < 18/10) by (split; nra).
  assert (HR : 13 < hex_radius (th_params (iso 16 2 true)) < 15). { unfold hex_radius. change (tp_hexf2f (th_params (iso 16 2 true))) with (metricf2f (16/2)). rewrite F. replace (30 * PI / 180) with (PI / 6) by field. rewrite cos_PI6. replace (24 / (2 * (sqrt 3 / 2))) with (24 / sqrt 3) by (field; lra). split; apply (Rmult_lt_reg_r (sqrt 3)); try lra; unfold Rdiv; rewrite Rmult_assoc, Rinv_l; lra. }
  pose proof (C97_iso_bolt _ 16 2 s E eq_refl) as B. cbv zeta in B. cbn [bo_shank bo_total] in B. unfold hex_height in B. set (hr := hex_radius (th_params (iso 16 2 true))) in *. clearbody hr.
  pose proof (sqrt_sqrt (1/2) ltac:(lra)) as Q. pose proof (sqrt_pos (1/2)) as Q0. assert (Q1 : 7/10 < sqrt (1/2) < 8/10) by (split; nra). set (w := sqrt (1/2)) in *. clearbody w. set (t := sqrt 3) in *. clearbody t.
  assert (H10 : forall x y, 0 <= x -> x * x = y -> hypot x 0 = x) by (intros x y X _; unfold hypot; replace (x * x + 0 * 0) with (x * x) by ring; now apply sqrt_square).
  destruct B as (B1 & B2 & B3 & B4 & B5); unfold PolyModel.tolerance; try lra; try nra.
  - apply (Rle_trans _ 100); [nra|]. exact max_float64_big.
  - split; [|split].
    + apply B2; cbn [x3 y3 z3]; [rewrite (H10 7 49) by lra; lra|lra].
    + intros I. apply B1 in I. destruct I as (_ & I). cbn [x3 y3 z3] in I. rewrite (H10 8 64) in I by lra. lra.
    + apply B3; cbn [x3 y3 z3]; rewrite ?(H10 5 25) by lra; try nra.
Qed.

(** ** The webs of a standoff *)
Lemma web_matrix hgt : let m := mul44 (translate3d (V3 0 0 (- (1/2) * hgt))) (rotate_x (90 * PI / 180)) in
  affine3 m /\ det44 m <> 0 /\ forall p, mul_pos3 m (V3 (x3 p) (z3 p + hgt / 2) (- y3 p)) = p.
Proof.
  cbv zeta. replace (90 * PI / 180) with (PI / 2) by field. assert (N : norm3 (V3 1 0 0) = 1). { unfold norm3. replace (norm3sq (V3 1 0 0)) with 1 by (unfold norm3sq, dot3; cbn; ring). apply sqrt_1. }
  assert (E : mul44 (translate3d (V3 0 0 (- (1/2) * hgt))) (rotate_x (PI / 2)) = M44 1 0 0 0 0 0 (-1) 0 0 1 0 (- (1/2) * hgt) 0 0 0 1).
  { unfold rotate_x, rotate3d. rewrite sin_PI2, cos_PI2. assert (U : unit3 (V3 1 0 0) = V3 1 0 0) by (unfold unit3; rewrite N; unfold scale3; apply v3_ext; cbn; field). rewrite U. unfold mul44, translate3d. apply m44_ext; cbn; ring. }
  rewrite E. split; [|split].
  - unfold affine3. cbn. auto.
  - unfold det44. cbn. lra.
  - intros p. unfold mul_pos3. apply v3_ext; cbn; lra.
Qed.
(** One web: a right triangle standing on the base beside the pillar, extruded to the web's width. *)
Theorem C64_web k w p : pillar_web k = Ok w -> 0 < st_web_diameter k -> PolyModel.tolerance < st_web_height k ->
  ev3 w p < 0 <-> Rabs (y3 p) < st_web_width k / 2 /\ 0 < x3 p /\ 0 < z3 p + st_height k / 2 /\
    x3 p / (st_web_diameter k / 2) + (z3 p + st_height k / 2) / st_web_height k < 1.
Proof.
  intros E DP T. unfold pillar_web in E. apply bind_ok in E. destruct E as (pr & EP & E). rewrite transform3_ok in E. injection E as <-. destruct (web_matrix (st_height k)) as (AF & DT & INV). set (m := mul44 _ _) in *. clearbody m. rewrite ev_transform3. rewrite <- (INV p) at 1. rewrite (proj1 (inv_pos3 m _ AF DT)).
  set (d := st_web_diameter k) in *. set (h := st_web_height k) in *. assert (HP : 0 < h) by (unfold PolyModel.tolerance in T; lra).
  unfold built_polygon in EP. rewrite plain_vertices in EP by (intros ? I; cbn in I; repeat (destruct I as [<-|I]; [reflexivity|]); destruct I). cbn [bind map fst] in EP. set (vs := [_; _; _]) in EP.
  assert (OK : loop_ok vs). { split; [|right; right; cbn; rewrite Rabs_left; lra]. intros a b C. unfold vs in C. repeat (apply consecutive_step in C; destruct C as [[-> ->]|C]; [intros Q; injection Q; intros; lra|]). now apply consecutive_one in C. }
  assert (DH : 0 < d * h) by (now apply Rmult_lt_0_compat).
  assert (CV : convex_loop 1 vs). { intros a b v C V. unfold vs in C, V. cbn [app hd] in C. repeat (apply consecutive_step in C; destruct C as [[-> ->]|C]; [cbn in V; repeat (destruct V as [<-|V]; [unfold cross2, sub2; cbn [x2 y2]; nra|]); destruct V|]). now apply consecutive_one in C. }
  cbn [extrude3d ev3]. unfold extrude_eval, normal_extrude, xy. cbn [x3 y3 z3]. rewrite Rmax_neg_iff, (C96_convex 1 vs pr ltac:(now left) EP OK CV), Rabs_Ropp.
  set (x := x3 p). set (z := z3 p + st_height k / 2). assert (LIN : x / (d / 2) + z / h < 1 <-> h * x + d / 2 * z < d / 2 * h).
  { assert (Q : (x / (d / 2) + z / h) * (d / 2 * h) = h * x + d / 2 * z) by (field; lra). split; intros L; [rewrite <- Q; replace (d / 2 * h) with (1 * (d / 2 * h)) at 2 by ring; apply Rmult_lt_compat_r; lra|apply (Rmult_lt_reg_r (d / 2 * h)); lra]. }
  rewrite LIN. assert (AE : all_edges 1 vs (V2 x z) <-> 0 < x /\ 0 < z /\ h * x + d / 2 * z < d / 2 * h); [|rewrite AE; clear; split; [intros ((A & B & C) & D)|intros (D & A & B & C)]; repeat split; lra].
  split.
  - intros H. assert (H' : forall i a b, nth_error (vs ++ [hd zero2 vs]) i = Some a -> nth_error (vs ++ [hd zero2 vs]) (S i) = Some b -> a <> b -> 0 < 1 * cross2 (sub2 b a) (sub2 (V2 x z) a)) by (intros i a b A B; apply H; now apply (nth_consecutive _ i)). clear H.
    assert (H0 := H' 0%nat _ _ eq_refl eq_refl). assert (H1 := H' 1%nat _ _ eq_refl eq_refl). assert (H2 := H' 2%nat _ _ eq_refl eq_refl). clear H'.
    unfold cross2, sub2 in *. cbn [x2 y2 vs hd app] in *. specialize (H0 ltac:(intros Q; injection Q; intros; lra)). specialize (H1 ltac:(intros Q; injection Q; intros; lra)). specialize (H2 ltac:(intros Q; injection Q; intros; lra)).
    split; [apply (Rmult_lt_reg_l h); lra|]. split; [apply (Rmult_lt_reg_l (d / 2)); lra|lra].
  - intros (X & Z & L). assert (M1 : 0 < h * x) by (now apply Rmult_lt_0_compat). assert (M2 : 0 < d / 2 * z) by (apply Rmult_lt_0_compat; lra). intros a b C _. unfold vs in C. cbn [app hd] in C. repeat (apply consecutive_step in C; destruct C as [[-> ->]|C]; [unfold cross2, sub2; cbn [x2 y2]; lra|]). now apply consecutive_one in C.
Qed.

(** The whole standoff with webs and a hole: each web turned by a multiple of the n-th part of a full turn, as far as it stays in its sector. *)
Definition in_web (k : standoff_params) (q : v3) : Prop :=
  Rabs (y3 q) < st_web_width k / 2 /\ 0 < x3 q /\ 0 < z3 q + st_height k / 2 /\ x3 q / (st_web_diameter k / 2) + (z3 q + st_height k / 2) / st_web_height k < 1.
Theorem C64_webs k s p : (0 < st_webs k)%Z -> 0 < st_hole_depth k -> standoff k = Ok s -> 0 < st_web_diameter k -> PolyModel.tolerance < st_web_height k ->
  ev3 s p < 0 <-> (in_pillar k p \/ exists i q, (0 <= i < st_webs k)%Z /\ in_sector (st_webs k) (xy q) /\ in_web k q /\
      let a := IZR i * (2 * PI / IZR (st_webs k)) in x3 p = cos a * x3 q - sin a * y3 q /\ y3 p = sin a * x3 q + cos a * y3 q /\ z3 p = z3 q) /\
    Rabs (z3 p) < st_height k / 2 /\ hypot (x3 p) (y3 p) < st_web_diameter k /\
    ~ (hypot (x3 p) (y3 p) <= st_hole_diameter k / 2 /\ st_height k / 2 - st_hole_depth k <= z3 p <= st_height k / 2).
Proof.
  intros W H E D T. destruct (C64_webs_partial k s p W H E) as (w & EW & V). rewrite V, (proj1 (C44_rotate_copy3 w (st_webs k) p)). apply and_iff_compat_r. split; (intros [I|(i & q & A & B & C & F)]; [left; exact I|right; exists i, q; split; [exact A|]; split; [exact B|]; split; [|exact F]]); now apply (C64_web k w q EW D T).
Qed.
