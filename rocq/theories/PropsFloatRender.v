(** C100 and C101: the octree renderer computing in float64. *)
From Coq Require Import List Permutation Bool ZArith NArith Lia Floats.SpecFloat Reals Lra Psatz.
From Verif Require Import Prelude Vec BoxModel MatrixModel SdfModel PrimModel Distance PropsMatrix PropsTransform PropsLip SdfLemmas FloatBoolModel FloatRound FloatShapeModel FloatNear PropsFloatSign FloatTrack FloatInv FloatRules FloatCopies PropsFloatTrack
  OctreeModel OctreeSpec OctreeGrid PropsOctree OctreeR McTables McModel McSpec McProofs McRealModel PropsSampling PropsMc PropsSurface FloatRenderModel FloatRender.
Import ListNotations.
Local Open Scope R_scope.

(** ** The situation *)
(** [f] is a 1-Lipschitz distance function, [F] its float64 evaluation with absolute error [W * 2^-53 * S] at points within [B] of the origin;
    the root cube has 2^k times the resolution [r] as its side and lies within [T] of the origin. *)
Record scene (S B T V W : R) (F : fv3 -> spec_float) (f : v3 -> R) (o : fv3) (r : spec_float) (k : nat) : Prop := {
  sc_S : scale_ok S; sc_lip : lip3 f; sc_track : tracks3 S B F f V W; sc_small : small V W;
  sc_setup : setup o r (2 ^ Z.of_nat k) T; sc_k : (1 <= k)%nat; sc_T : 1.0001 * T <= B; sc_B : B <= S }.

(** ** Tables for any signs *)
Lemma tables_gen (neg : nat -> bool) :
  (forall e, (e < 12)%nat -> sign_change neg e <-> exists a b c, In (a, b, c) (mc_edge_triangles (mc_index neg)) /\ (e = a \/ e = b \/ e = c)) /\
  (forall e, (e < 12)%nat -> mc_edge_used (mc_index neg) e = true <-> sign_change neg e) /\
  (forall a b c, In (a, b, c) (mc_edge_triangles (mc_index neg)) -> (a < 12 /\ b < 12 /\ c < 12)%nat /\ sign_change neg a /\ sign_change neg b /\ sign_change neg c) /\
  (length (mc_edge_triangles (mc_index neg)) <= 5)%nat.
Proof.
  set (v := fun i => if neg i then -1 else 1). assert (E : forall i, Rltb (v i) 0 = neg i) by (intros i; unfold v; destruct (neg i); [apply Rltb_true; lra|apply Rltb_false; lra]).
  assert (Ei : mc_index (fun i => Rltb (v i) 0) = mc_index neg) by (unfold mc_index; cbn [seq fold_left]; now rewrite !E).
  assert (Es : forall e, sign_change (fun i => Rltb (v i) 0) e <-> sign_change neg e) by (intros e; unfold sign_change; destruct (edge_ends e); rewrite !E; tauto).
  destruct (C11_tables v 0) as (H1 & H2 & H3). rewrite Ei in *. split; [|split; [|split]].
  - intros e He. destruct (H1 e He) as (_ & H). rewrite Es in H. exact H.
  - intros e He. destruct (H1 e He) as (H & _). rewrite Es in H. exact H.
  - intros a b c Hin. destruct (H2 a b c Hin) as (A & Bc & C & _ & _ & _ & D & G & J). rewrite Es in D, G, J. auto.
  - exact H3.
Qed.
Definition fpoint (p : nat -> fv3) (v : nat -> spec_float) (x : spec_float) (e : nat) : fv3 :=
  fmc_interpolate x (p (fst (edge_ends e))) (p (snd (edge_ends e))) (v (fst (edge_ends e))) (v (snd (edge_ends e))).
Lemma ftriangles degen p v x : fmc_triangles degen p v x =
  filter (fun t => negb (degen t)) (map (fun '(a, b, c) => (fpoint p v x a, fpoint p v x b, fpoint p v x c)) (mc_edge_triangles (mc_index (fun i => SFltb (v i) x)))).
Proof.
  destruct (tables_gen (fun i => SFltb (v i) x)) as (_ & H1 & H2 & _). unfold fmc_triangles, mc_to_triangles. cbv zeta.
  set (idx := mc_index (fun i => SFltb (v i) x)) in *. clearbody idx. destruct (N.eqb (nth idx mcEdgeTable 0%N) 0) eqn:E.
  - assert (Hn : mc_edge_triangles idx = []).
    { destruct (mc_edge_triangles idx) as [|[[a b] c] l] eqn:El; auto. destruct (H2 a b c ltac:(now left)) as ((Ha & _) & Hs & _). apply (H1 a Ha) in Hs. unfold mc_edge_used in Hs. apply N.eqb_eq in E. rewrite E, N.bits_0 in Hs. discriminate. }
    now rewrite Hn.
  - f_equal. apply map_ext_in. intros [[a b] c] Hin. destruct (H2 a b c Hin) as ((Ha & Hb & Hc) & Sa & Sb & Sc). apply (H1 a Ha) in Sa. apply (H1 b Hb) in Sb. apply (H1 c Hc) in Sc.
    unfold mc_point, fpoint. rewrite Sa, Sb, Sc. unfold edge_ends. destruct (nth a _ _), (nth b _ _), (nth c _ _). reflexivity.
Qed.
Lemma foctree_wf degen F o r levels : (2 <= levels)%nat -> wf_env (foctree_env degen F o r levels).
Proof.
  intros H. split; [|exact H]. intros v. cbn [e_leaf foctree_env]. unfold fleaf. rewrite ftriangles. eapply Nat.le_trans; [apply filter_length|]. rewrite map_length. apply tables_gen.
Qed.
Lemma cell_side k v i : (1 <= k)%nat -> In v (cells (V3I 0 0 0) (2 ^ (k - 1))) -> in_side (2 ^ Z.of_nat k) (leaf_corner v i) /\ is_cell v /\
  forall o r, 0 < r -> in_real_cube o r (Cube v 1) (grid_pos o r (leaf_corner v i)).
Proof.
  intros Hk H. unfold cells in H. apply in_flat_map in H as (x & Hx & H). apply in_flat_map in H as (y & Hy & H). apply in_map_iff in H as (z & <- & Hz). cbn [vx vy vz] in *.
  pose proof (evens_mod2 _ _ Hx) as Mx. pose proof (evens_mod2 _ _ Hy) as My. pose proof (evens_mod2 _ _ Hz) as Mz.
  assert (G : forall u, In u (evens 0 (2 ^ (k - 1))) -> (0 <= u /\ u + 2 <= 2 ^ Z.of_nat k)%Z).
  { intros u Hu. apply In_evens in Hu as (j & Hj & ->). split; [lia|]. replace (Z.of_nat k) with (Z.succ (Z.of_nat (k - 1))) by lia. rewrite Z.pow_succ_r by lia. apply Nat2Z.inj_lt in Hj. rewrite Nat2Z.inj_pow in Hj. change (Z.of_nat 2) with 2%Z in Hj. lia. }
  pose proof (G _ Hx) as Gx. pose proof (G _ Hy) as Gy. pose proof (G _ Hz) as Gz. assert (Rg : let '(a, b, c) := corner i in (0 <= a <= 1)%Z /\ (0 <= b <= 1)%Z /\ (0 <= c <= 1)%Z) by (do 8 (destruct i as [|i]; [cbn; lia|]); cbn; lia).
  unfold leaf_corner. destruct (corner i) as [[a b] c]. destruct Rg as (Ra & Rb & Rc). split; [unfold in_side; cbn [v3i_add vx vy vz]; lia|]. split; [repeat split; assumption|].
  intros o r Hr. unfold in_real_cube, grid_pos, to_v3. cbn [c_lev c_org v3i_add vx vy vz add3 scale3 x3 y3 z3]. change (2 ^ Z.of_nat 1)%Z with 2%Z.
  assert (Q : forall u d, (0 <= d <= 1)%Z -> forall w, w + r * IZR u <= w + r * IZR (u + 2 * d) <= w + r * (IZR u + 2)).
  { intros u d (D1 & D2) w. apply IZR_le in D1, D2. rewrite plus_IZR, mult_IZR. split; nra. }
  split; [|split]; apply Q; assumption.
Qed.
Lemma cell_edge_length o r v a b : 0 < r -> cell_edge a b -> dist3 (grid_pos o r (leaf_corner v b)) (grid_pos o r (leaf_corner v a)) = 2 * r.
Proof.
  intros Hr (Ha & Hb & H). rewrite grid_pos_dist by exact Hr. rewrite (Rmult_comm 2). f_equal. unfold norm3. apply sq_eq; [apply sqrt_pos|lra|]. rewrite sqrt_sqrt by apply norm3sq_nonneg.
  unfold leaf_corner, to_v3. destruct (corner a) as [[a1 a2] a3], (corner b) as [[b1 b2] b3]. unfold norm3sq, dot3. cbn [sub3 x3 y3 z3 v3i_add vx vy vz].
  assert (D : ((b1 - a1) * (b1 - a1) + (b2 - a2) * (b2 - a2) + (b3 - a3) * (b3 - a3) = 1)%Z).
  { assert (Q : forall d, (Z.abs d = 0 \/ Z.abs d = 1 -> d * d = Z.abs d)%Z) by (intros; nia). rewrite !Q by lia. lia. }
  apply (f_equal IZR) in D. rewrite !plus_IZR, !mult_IZR, !minus_IZR in D. rewrite !plus_IZR, !mult_IZR. lra.
Qed.

(** ** Meshes up to rounding *)
(** the sign Evaluate computes at a grid corner, and the place on a grid edge where the interpolation of the computed values changes sign (without rounding) *)
Definition fneg (F : fv3 -> spec_float) (o : fv3) (r : spec_float) (g : gpoint) : bool := SFltb (F (fgrid_pos o r (dbl g))) fzero.
Definition fcross (F : fv3 -> spec_float) (o : fv3) (r : spec_float) (g : gedge) : v3 :=
  let a := fgrid_pos o r (dbl (fst (gend g))) in let b := fgrid_pos o r (dbl (snd (gend g))) in lerp (FR3 a) (FR3 b) (cross_t (FR (F a)) (FR (F b))).
(** a triangle whose vertices are within [D] of the given places *)
Definition tri_near (D : R) (g : gedge -> v3) (t : fv3 * fv3 * fv3) (u : gedge * gedge * gedge) : Prop :=
  let '(A, B, C) := t in let '(x, y, z) := u in dist3 (FR3 A) (g x) <= D /\ dist3 (FR3 B) (g y) <= D /\ dist3 (FR3 C) (g z) <= D.
Lemma Forall2_flat {A B C} (Q : B -> C -> Prop) (g : A -> list B) (h : A -> list C) l : (forall a, In a l -> Forall2 Q (g a) (h a)) -> Forall2 Q (flat_map g l) (flat_map h l).
Proof. induction l as [|a l IH]; intros H; cbn [flat_map]; [constructor|]. apply Forall2_app; [apply H; now left|apply IH; intros x Hx; apply H; now right]. Qed.
Lemma Forall2_map2 {A B C} (Q : B -> C -> Prop) (g : A -> B) (h : A -> C) l : (forall a, In a l -> Q (g a) (h a)) -> Forall2 Q (map g l) (map h l).
Proof. induction l as [|a l IH]; intros H; cbn [map]; constructor; [apply H; now left|apply IH; intros x Hx; apply H; now right]. Qed.
Lemma flat_filter {A B} (p : A -> bool) (g : A -> list B) l : (forall a, In a l -> p a = false -> g a = []) -> flat_map g (filter p l) = flat_map g l.
Proof. induction l as [|a l IH]; intros H; cbn [filter flat_map]; auto. destruct (p a) eqn:E; cbn [flat_map]; rewrite IH by (intros x Hx; apply H; now right); [reflexivity|]. now rewrite (H a (or_introl eq_refl) E). Qed.
Lemma flat_ext_in {A B} (g h : A -> list B) l : (forall a, In a l -> g a = h a) -> flat_map g l = flat_map h l.
Proof. induction l as [|a l IH]; intros H; cbn [flat_map]; auto. rewrite (H a (or_introl eq_refl)). f_equal. apply IH. intros x Hx. apply H. now right. Qed.
Lemma filter_all {A} (p : A -> bool) l : (forall a, In a l -> p a = true) -> filter p l = l.
Proof. induction l as [|a l IH]; intros H; cbn [filter]; auto. rewrite (H a (or_introl eq_refl)). f_equal. apply IH. intros x Hx. apply H. now right. Qed.
(** directed edges of matching meshes match *)
Definition dir_near (D : R) (g : gedge -> v3) (d : fv3 * fv3) (u : gedge * gedge) : Prop := dist3 (FR3 (fst d)) (g (fst u)) <= D /\ dist3 (FR3 (snd d)) (g (snd u)) <= D.
Lemma dirs_near D g L M : Forall2 (tri_near D g) L M -> Forall2 (dir_near D g) (mesh_dirs L) (mesh_dirs M).
Proof.
  intros H. unfold mesh_dirs. induction H as [|[[A B] C] [[x y] z] L M (H1 & H2 & H3) _ IH]; cbn [flat_map]; [constructor|]. apply Forall2_app; [|exact IH].
  cbn [tri_dirs]. apply Forall2_cons; [split; assumption|]. apply Forall2_cons; [split; assumption|]. apply Forall2_cons; [split; assumption|apply Forall2_nil].
Qed.
Lemma Forall2_in_l {A B} (Q : A -> B -> Prop) l m a : Forall2 Q l m -> In a l -> exists b, In b m /\ Q a b.
Proof. intros H. induction H as [|x y l m Hxy _ IH]; intros Hin; [destruct Hin|]. destruct Hin as [->|Hin]; [exists y; split; [now left|exact Hxy]|]. destruct (IH Hin) as (b & Hb & Hq). exists b. split; [now right|exact Hq]. Qed.
Lemma Forall2_in_r {A B} (Q : A -> B -> Prop) l m b : Forall2 Q l m -> In b m -> exists a, In a l /\ Q a b.
Proof. intros H. induction H as [|x y l m Hxy _ IH]; intros Hin; [destruct Hin|]. destruct Hin as [->|Hin]; [exists x; split; [now left|exact Hxy]|]. destruct (IH Hin) as (a & Ha & Hq). exists a. split; [now right|exact Hq]. Qed.

(** ** Bit equality *)
(** Go's == on vectors; the directed edges of a list that are the reverse of none *)
Definition feq3 (a b : fv3) : bool := SFeqb (f3x a) (f3x b) && SFeqb (f3y a) (f3y b) && SFeqb (f3z a) (f3z b).
Definition lone (ds : list (fv3 * fv3)) : list (fv3 * fv3) := filter (fun d => negb (existsb (fun e => feq3 (fst d) (snd e) && feq3 (snd d) (fst e)) ds)) ds.

Section Scene.
  Context (S B T V W : R) (F : fv3 -> spec_float) (f : v3 -> R) (o : fv3) (r : spec_float) (k : nat) (SC : scene S B T V W F f o r k).
  Local Notation w := (u53 * S).
  (** the exact position of a grid point *)
  Local Notation at_ v := (grid_pos (FR3 o) (FR r) v).
  Local Notation E degen := (foctree_env degen F o r (Datatypes.S k)).
  Local Notation all_cells := (cells (V3I 0 0 0) (2 ^ (k - 1))).

  (** A cube is discarded only if the surface, moved in or out by the evaluation error, does not cross it: all its points are outside or on the surface
      up to (W + 20) units, or all are inside or on it. *)
  Theorem C100_pruned c : in_root (2 ^ Z.of_nat k) c -> fis_empty F o r c = true ->
    (forall q, in_real_cube (FR3 o) (FR r) c q -> - ((W + 20) * w) <= f q) \/ (forall q, in_real_cube (FR3 o) (FR r) c q -> f q <= (W + 20) * w).
  Proof. destruct SC. now apply (pruned_sign S B T V). Qed.
  (** A cell that has a point more than that inside and a point more than that outside survives at every level. *)
  Theorem C100_kept degen v p q : In v all_cells ->
    in_real_cube (FR3 o) (FR r) (Cube v 1) p -> in_real_cube (FR3 o) (FR r) (Cube v 1) q -> f p < - ((W + 20) * w) -> (W + 20) * w < f q ->
    kept (E degen) k v = true.
  Proof. destruct SC. intros Hv Hp Hq Fp Fq. exact (kept_cell S B T V W F f o r (2 ^ Z.of_nat k)%Z sc_lip0 sc_track0 sc_setup0 sc_T0 sc_B0 degen k v p q eq_refl Hv Hp Hq Fp Fq). Qed.

  Lemma samples v i : In v all_cells -> let p := fgrid_pos o r (leaf_corner v i) in
    ball3 (1.0001 * T) p /\ num (F p) /\ Rabs (FR (F p)) <= 1001 * S /\ Rabs (f (at_ (leaf_corner v i)) - FR (F p)) <= (W + 14) * w /\ dist3 (FR3 p) (at_ (leaf_corner v i)) <= 14 * w.
  Proof.
    destruct SC as [K L TR Sm SU Hk BT BS]. intros Hv p. destruct (cell_side k v i Hk Hv) as (Sd & _). destruct (grid_near o r _ T _ SU Sd) as (D & Bl). fold p in D, Bl.
    assert (Bp : ball3 B p) by (destruct Bl as (a & b & c); split; [exact a|split; [exact b|lra]]). destruct (TR p Bp) as (N & A). pose proof (sample_near S B T V W F f o r _ L TR SU BT BS _ Sd) as (F1 & V1 & D1). fold p in F1, V1, D1.
    split; [exact Bl|]. split; [split; assumption|]. pose proof (small_unit S V W K Sm) as Un. destruct (scale_facts S K) as (S0 & _). destruct Sm as ((V0 & V1') & _).
    split; [pose proof (near_mag _ _ _ N) as Mg; assert (V * S <= 1000 * S) by (apply Rmult_le_compat_r; lra); lra|]. split; [now rewrite Rabs_minus_sym|]. eapply Rle_trans; [exact D|]. pose proof (wT S B T o r _ SU BT BS). lra.
  Qed.
  (** one vertex: edge [e] of cell [v] with a change of the float64 sign *)
  Lemma vertex v e : In v all_cells -> (e < 12)%nat -> let p i := fgrid_pos o r (leaf_corner v i) in let val i := F (p i) in let neg i := SFltb (val i) fzero in
    sign_change neg e -> let P := fpoint p val fzero e in let a := fst (in_out neg e) in let b := snd (in_out neg e) in
    cell_edge a b /\ neg a = true /\ neg b = false /\
    exists t, t = cross_t (FR (val a)) (FR (val b)) /\ 0 <= t <= 1 /\ valid3 P /\ fin3 P /\ dist3 (FR3 P) (lerp (FR3 (p a)) (FR3 (p b)) t) <= 60 * w /\ dist3 (FR3 P) (lerp (at_ (leaf_corner v a)) (at_ (leaf_corner v b)) t) <= 80 * w /\
      Rabs (FR (val a) + t * (FR (val b) - FR (val a))) <= mc_epsilon /\ Rabs (f (FR3 P)) <= FR r + mc_epsilon + (W + 100) * w.
  Proof.
    intros Hv He p val neg Sc P. set (a := fst (in_out neg e)). set (b := snd (in_out neg e)). assert (Ce : cell_edge a b) by (apply edge_is_cell_edge; exact He).
    pose proof SC as [K L TR Sm SU Hk BT BS]. destruct (res_pos _ _ _ _ SU) as (R0 & _). destruct (scale_facts S K) as (S0 & W0 & _ & Mx & _). pose proof (wT S B T o r _ SU BT BS) as (W1 & W2). assert (KT : scale_ok T) by (destruct SU; assumption).
    assert (Sg : neg a = true /\ neg b = false). { unfold a, b, in_out. unfold sign_change in Sc. destruct (edge_ends e) as [i j]. destruct (neg i) eqn:Ei, (neg j) eqn:Ej; try congruence; cbn [fst snd]; auto. }
    split; [exact Ce|]. split; [apply Sg|]. split; [apply Sg|]. destruct Sg as (Ga & Gb).
    destruct (samples v a Hv) as (Ba & Na & Ma & Da & Pa). destruct (samples v b Hv) as (Bb & Nb & Mb & Db & Pb). fold (p a) in Ba, Na, Ma, Da, Pa. fold (p b) in Bb, Nb, Mb, Db, Pb. fold (val a) in Na, Ma, Da. fold (val b) in Nb, Mb, Db.
    assert (X : exists t, t = cross_t (FR (val a)) (FR (val b)) /\ 0 <= t <= 1 /\ valid3 P /\ fin3 P /\ dist3 (FR3 P) (lerp (FR3 (p a)) (FR3 (p b)) t) <= 60 * (u53 * T) /\ Rabs (FR (val a) + t * (FR (val b) - FR (val a))) <= mc_epsilon).
    { unfold P, fpoint. assert (Q : edge_ends e = (a, b) \/ edge_ends e = (b, a)). { unfold a, b, in_out. destruct (edge_ends e) as [i j]. destruct (neg i); cbn [fst snd]; auto. }
      destruct Q as [-> | ->]; cbn [fst snd].
      - eexists; split; [reflexivity|]. apply (interp_near _ _ _ _ T (1001 * S)); auto; [lra|]. fold (neg a). fold (neg b). rewrite Ga, Gb. discriminate.
      - destruct (interp_near (p b) (p a) (val b) (val a) T (1001 * S)) as (Ht & A1 & A2 & A3 & A4); auto; [lra|fold (neg a); fold (neg b); rewrite Ga, Gb; discriminate|].
        assert (Nq : FR (val b) <> FR (val a)). { intros X. assert (neg a = neg b) by (unfold neg; destruct (SFltb (val a) fzero) eqn:U, (SFltb (val b) fzero) eqn:U'; auto; exfalso; [apply ltb_zero in U; auto; rewrite <- X in U; apply ltb_zero in U; auto; congruence|apply ltb_zero in U'; auto; rewrite X in U'; apply ltb_zero in U'; auto; congruence]). congruence. }
        rewrite (cross_t_swap (FR (val b)) (FR (val a)) Nq). set (t := cross_t (FR (val b)) (FR (val a))) in *. clearbody t.
        exists (1 - t). split; [reflexivity|]. split; [lra|]. split; [exact A1|]. split; [exact A2|]. split.
        + replace (lerp (FR3 (p a)) (FR3 (p b)) (1 - t)) with (lerp (FR3 (p b)) (FR3 (p a)) t); [exact A3|]. unfold lerp. apply v3_ext; cbn; ring.
        + replace (FR (val a) + (1 - t) * (FR (val b) - FR (val a))) with (FR (val b) + t * (FR (val a) - FR (val b))) by ring. exact A4. }
    destruct X as (t & Et & Ht & A1 & A2 & A3 & A4). exists t. split; [exact Et|]. split; [exact Ht|]. split; [exact A1|]. split; [exact A2|].
    assert (D : dist3 (FR3 P) (lerp (at_ (leaf_corner v a)) (at_ (leaf_corner v b)) t) <= 80 * w).
    { pose proof (lerp_dev (FR3 (p a)) (FR3 (p b)) _ _ t (14 * w) Ht Pa Pb) as Q. pose proof (dist3_triangle (FR3 P) (lerp (FR3 (p a)) (FR3 (p b)) t) (lerp (at_ (leaf_corner v a)) (at_ (leaf_corner v b)) t)). lra. }
    split; [lra|]. split; [exact D|]. split; [exact A4|].
    pose proof (value_mid f _ _ t _ _ ((W + 14) * w) mc_epsilon _ L Ht Da Db A4 (cell_edge_length (FR3 o) (FR r) v a b R0 Ce)) as Vm. pose proof (L (FR3 P) (lerp (at_ (leaf_corner v a)) (at_ (leaf_corner v b)) t)) as Lp.
    apply Rabs_iff in Vm, Lp. apply Rabs_iff. lra.
  Qed.
  Lemma delivered degen conc st ts dst sched st' dst' n : reachable (E degen) conc st ts -> read_triangles (E := E degen) st dst sched = Returned st' dst' n true ->
    forall t, In t (ts ++ firstn n dst') <-> exists v, In v all_cells /\ kept (E degen) k v = true /\ In t (fleaf degen F o r v).
  Proof.
    intros Hr Hc t. destruct SC as [_ _ _ _ _ Hk _ _]. pose proof (C01_exactly_once (E degen) conc st ts dst sched st' dst' n (foctree_wf degen F o r (Datatypes.S k) ltac:(lia)) Hr Hc) as Pm.
    assert (Es : surface_triangles (E degen) = flat_map (fleaf degen F o r) (filter (kept (E degen) k) all_cells)) by (unfold surface_triangles; cbn [e_levels foctree_env e_leaf]; replace (Datatypes.S k - 1)%nat with k by lia; reflexivity).
    rewrite Es in Pm. split.
    - intros H. apply (Permutation_in _ Pm) in H. apply in_flat_map in H as (v & Hv & H). apply filter_In in Hv as (Hv & Hkp). exists v. auto.
    - intros (v & Hv & Hkp & H). apply (Permutation_in _ (Permutation_sym Pm)). apply in_flat_map. exists v. split; [apply filter_In; auto|exact H].
  Qed.

  (** Every vertex of every delivered triangle is a finite number, lies (up to 80 units) on a cell edge whose ends Evaluate puts on different sides,
      and is within half the cell side, 1e-12 and the errors of the surface; the surface, up to the error, passes within a cell side of it. *)
  Theorem C100_vertices degen conc st ts dst sched st' dst' n A B' C P :
    reachable (E degen) conc st ts -> read_triangles (E := E degen) st dst sched = Returned st' dst' n true ->
    In (A, B', C) (ts ++ firstn n dst') -> P = A \/ P = B' \/ P = C ->
    valid3 P /\ fin3 P /\ Rabs (f (FR3 P)) <= FR r + / 1000000000000 + (W + 100) * w /\
    (exists v a b t, In v all_cells /\ cell_edge a b /\ 0 <= t <= 1 /\
       SFltb (F (fgrid_pos o r (leaf_corner v a))) fzero = true /\ SFltb (F (fgrid_pos o r (leaf_corner v b))) fzero = false /\
       dist3 (FR3 P) (lerp (at_ (leaf_corner v a)) (at_ (leaf_corner v b)) t) <= 80 * w) /\
    (exists Q, Rabs (f Q) <= (W + 14) * w /\ dist3 (FR3 P) Q <= 2 * FR r + 80 * w).
  Proof.
    change (/ 1000000000000) with mc_epsilon.
    intros Hr Hc Hin HP. apply (delivered degen conc st ts dst sched st' dst' n Hr Hc) in Hin as (v & Hv & _ & Hin). unfold fleaf in Hin. rewrite ftriangles in Hin. apply filter_In in Hin as (Hin & _). apply in_map_iff in Hin as ([[x y] z] & Eq & Hin).
    set (p := fun i => fgrid_pos o r (leaf_corner v i)) in *. set (val := fun i => F (fgrid_pos o r (leaf_corner v i))) in *. set (neg := fun i => SFltb (val i) fzero) in *.
    destruct (tables_gen neg) as (_ & _ & H2 & _). destruct (H2 x y z Hin) as ((Lx & Ly & Lz) & Sx & Sy & Sz).
    assert (X : exists e, (e < 12)%nat /\ sign_change neg e /\ P = fpoint p val fzero e) by (injection Eq as <- <- <-; destruct HP as [->|[->| ->]]; eauto). destruct X as (e & Le & Se & ->).
    destruct (vertex v e Hv Le Se) as (Ce & Ga & Gb & t & _ & Ht & A1 & A2 & _ & A3 & _ & A5). set (a := fst (in_out neg e)). set (b := snd (in_out neg e)).
    change (cell_edge a b) in Ce. change (neg a = true) in Ga. change (neg b = false) in Gb. change (valid3 (fpoint p val fzero e)) in A1. change (fin3 (fpoint p val fzero e)) in A2.
    change (Rabs (f (FR3 (fpoint p val fzero e))) <= FR r + mc_epsilon + (W + 100) * w) in A5. change (dist3 (FR3 (fpoint p val fzero e)) (lerp (at_ (leaf_corner v a)) (at_ (leaf_corner v b)) t) <= 80 * w) in A3.
    split; [exact A1|]. split; [exact A2|]. split; [exact A5|]. split; [exists v, a, b, t; unfold neg, val in Ga, Gb; auto 8|].
    pose proof SC as [K L TR Sm SU Hk BT BS]. destruct (res_pos _ _ _ _ SU) as (R0 & _). destruct (samples v a Hv) as (_ & Na & _ & Da & _). destruct (samples v b Hv) as (_ & Nb & _ & Db & _).
    assert (Va : FR (F (fgrid_pos o r (leaf_corner v a))) < 0) by (apply ltb_zero; auto). assert (Vb : ~ FR (F (fgrid_pos o r (leaf_corner v b))) < 0) by (intros X; apply ltb_zero in X; auto; unfold neg, val in Gb; congruence).
    pose proof (cell_edge_length (FR3 o) (FR r) v a b R0 Ce) as Le'. set (pa := at_ (leaf_corner v a)) in *. set (pb := at_ (leaf_corner v b)) in *. set (M := lerp pa pb t) in *. apply Rabs_iff in Da, Db.
    assert (Near : forall s, 0 <= s <= 1 -> dist3 M (lerp pa pb s) <= 2 * FR r). { intros s Hs. unfold M. rewrite dist_lerp, Le'. assert (Rabs (t - s) <= 1) by (apply Rabs_iff; lra). apply Rle_trans with (1 * (2 * FR r)); [apply Rmult_le_compat_r; lra|lra]. }
    assert (Fin : forall Q, Rabs (f Q) <= (W + 14) * w -> (exists s, 0 <= s <= 1 /\ Q = lerp pa pb s) -> exists Q, Rabs (f Q) <= (W + 14) * w /\ dist3 (FR3 (fpoint p val fzero e)) Q <= 2 * FR r + 80 * w).
    { intros Q HQ (s & Hs & ->). exists (lerp pa pb s). split; [exact HQ|]. pose proof (dist3_triangle (FR3 (fpoint p val fzero e)) M (lerp pa pb s)). specialize (Near s Hs). lra. }
    destruct (Rlt_or_le (f pa) 0) as [Ha|Ha]; [|apply (Fin pa); [apply Rabs_iff; lra|exists 0; rewrite lerp_0; split; [lra|reflexivity]]].
    destruct (Rlt_or_le (f pb) 0) as [Hb|Hb]; [apply (Fin pb); [apply Rabs_iff; lra|exists 1; rewrite lerp_1; split; [lra|reflexivity]]|].
    destruct (zero_between f pa pb L (conj Ha Hb)) as (s & Hs & Zs). apply (Fin (lerp pa pb s)); [rewrite Zs, Rabs_R0; lra|exists s; auto].
  Qed.

  (** Wherever one end of a cell edge is more than (W + 20) units inside and the other that much outside, a delivered triangle has a vertex on the edge
      (unless a triangle of the cell is dropped as degenerate). *)
  Theorem C100_complete degen conc st ts dst sched st' dst' n v a b :
    reachable (E degen) conc st ts -> read_triangles (E := E degen) st dst sched = Returned st' dst' n true ->
    In v all_cells -> cell_edge a b -> f (at_ (leaf_corner v a)) < - ((W + 20) * w) -> (W + 20) * w < f (at_ (leaf_corner v b)) ->
    (forall t, In t (fleaf (fun _ => false) F o r v) -> degen t = false) ->
    exists A B' C P t, In (A, B', C) (ts ++ firstn n dst') /\ (P = A \/ P = B' \/ P = C) /\ 0 <= t <= 1 /\
      dist3 (FR3 P) (lerp (at_ (leaf_corner v a)) (at_ (leaf_corner v b)) t) <= 80 * w.
  Proof.
    intros Hr Hc Hv Ce Fa Fb Hd. pose proof SC as [K L TR Sm SU Hk BT BS]. destruct (res_pos _ _ _ _ SU) as (R0 & _). destruct (scale_facts S K) as (S0 & W0 & _).
    destruct (samples v a Hv) as (_ & Na & _ & Da & _). destruct (samples v b Hv) as (_ & Nb & _ & Db & _). apply Rabs_iff in Da, Db.
    set (p := fun i => fgrid_pos o r (leaf_corner v i)) in *. set (val := fun i => F (fgrid_pos o r (leaf_corner v i))) in *. set (neg := fun i => SFltb (val i) fzero) in *.
    assert (Ga : neg a = true) by (apply ltb_zero; [exact Na|unfold val; lra]). assert (Gb : neg b = false) by (destruct (neg b) eqn:X; [apply ltb_zero in X; [unfold val in X; lra|exact Nb]|reflexivity]).
    destruct (cell_edge_table a b Ce) as (e & Le & Ee). assert (Sc : sign_change neg e) by (unfold sign_change; destruct Ee as [-> | ->]; rewrite Ga, Gb; discriminate).
    assert (IO : in_out neg e = (a, b)) by (unfold in_out; destruct Ee as [-> | ->]; now rewrite ?Ga, ?Gb).
    destruct (vertex v e Hv Le Sc) as (_ & _ & _ & t & _ & Ht & _ & _ & _ & A3 & _). change (dist3 (FR3 (fpoint p val fzero e)) (lerp (at_ (leaf_corner v (fst (in_out neg e)))) (at_ (leaf_corner v (snd (in_out neg e)))) t) <= 80 * w) in A3. rewrite IO in A3. cbn [fst snd] in A3.
    destruct (tables_gen neg) as (H1 & _). destruct (proj1 (H1 e Le) Sc) as (x & y & z & Hin & Hxyz).
    exists (fpoint p val fzero x), (fpoint p val fzero y), (fpoint p val fzero z), (fpoint p val fzero e), t. split; [|split; [destruct Hxyz as [->|[->| ->]]; auto|split; [exact Ht|exact A3]]].
    apply (delivered degen conc st ts dst sched st' dst' n Hr Hc). exists v. split; [exact Hv|]. split.
    - destruct (cell_side k v a Hk Hv) as (_ & _ & Ia). destruct (cell_side k v b Hk Hv) as (_ & _ & Ib). eapply C100_kept; [exact Hv|apply Ia; exact R0|apply Ib; exact R0|exact Fa|exact Fb].
    - assert (In0 : forall dg, dg (fpoint p val fzero x, fpoint p val fzero y, fpoint p val fzero z) = false -> In (fpoint p val fzero x, fpoint p val fzero y, fpoint p val fzero z) (fleaf dg F o r v)).
      { intros dg Hg. unfold fleaf. rewrite ftriangles. apply filter_In. split; [|now rewrite Hg]. apply in_map_iff. exists (x, y, z). split; [reflexivity|exact Hin]. }
      apply In0. apply Hd. now apply In0.
  Qed.
  (** ** C101 *)
  Local Notation cells_n := (2 ^ (k - 1))%nat.
  Local Notation neg := (fneg F o r).
  Local Notation cross := (fcross F o r).
  Lemma fcross_edge v e : In v (grid_cells cells_n cells_n cells_n) -> (e < 12)%nat -> sign_change (cell_neg neg v) e ->
    dist3 (FR3 (fpoint (fun i => fgrid_pos o r (leaf_corner (dbl v) i)) (fun i => F (fgrid_pos o r (leaf_corner (dbl v) i))) fzero e)) (cross (grid_edge v e)) <= 60 * w.
  Proof.
    intros Hv He Sc. assert (Hv' : In (dbl v) all_cells) by (rewrite cells_dbl; now apply in_map). set (p := fun i => fgrid_pos o r (leaf_corner (dbl v) i)). set (val := fun i => F (p i)). set (ng := fun i => SFltb (val i) fzero).
    assert (En : forall i, ng i = cell_neg neg v i) by (intros i; unfold ng, val, p, cell_neg, fneg; now rewrite leaf_corner_dbl).
    assert (Sc' : sign_change ng e) by (unfold sign_change in *; destruct (edge_ends e); now rewrite !En).
    destruct (vertex (dbl v) e Hv' He Sc') as (Ce & Ga & Gb & t & Et & Ht & _ & _ & A & _). set (a := fst (in_out ng e)). set (b := snd (in_out ng e)).
    change (t = cross_t (FR (val a)) (FR (val b))) in Et. change (dist3 (FR3 (fpoint p val fzero e)) (lerp (FR3 (p a)) (FR3 (p b)) t) <= 60 * w) in A. change (ng a = true) in Ga. change (ng b = false) in Gb.
    change (dist3 (FR3 (fpoint p val fzero e)) (cross (grid_edge v e)) <= 60 * w).
    replace (cross (grid_edge v e)) with (lerp (FR3 (p a)) (FR3 (p b)) t); [exact A|]. subst t.
    assert (Q : edge_ends e = (a, b) \/ edge_ends e = (b, a)) by (unfold a, b, in_out; destruct (edge_ends e) as [i j]; destruct (ng i); cbn [fst snd]; auto).
    destruct (samples (dbl v) a Hv') as (_ & Na & _). destruct (samples (dbl v) b Hv') as (_ & Nb & _). change (num (val a)) in Na. change (num (val b)) in Nb.
    assert (Nq : FR (val a) <> FR (val b)). { intros X. unfold ng in Ga, Gb. apply ltb_zero in Ga; [|exact Na]. rewrite X in Ga. apply ltb_zero in Ga; [|exact Nb]. congruence. }
    assert (Sw : lerp (FR3 (p a)) (FR3 (p b)) (cross_t (FR (val a)) (FR (val b))) = lerp (FR3 (p b)) (FR3 (p a)) (cross_t (FR (val b)) (FR (val a)))). { rewrite (cross_t_swap _ _ Nq). unfold lerp. apply v3_ext; cbn; ring. }
    pose proof (cell_edge_ends v e He) as G. cbv zeta in G. unfold fcross.
    assert (Pa : forall i, fgrid_pos o r (dbl (padd v (corner i))) = p i) by (intros i; unfold p; now rewrite leaf_corner_dbl).
    destruct Q as [Q|Q]; rewrite Q in G; cbn [fst snd] in G; destruct G as [-> | ->]; cbn [fst snd]; rewrite !Pa; [reflexivity|exact Sw|exact Sw|reflexivity].
  Qed.
  Lemma fleaf_grid v : In v (grid_cells cells_n cells_n cells_n) -> Forall2 (tri_near (60 * w) cross) (fleaf (fun _ => false) F o r (dbl v)) (cell_triangles neg v).
  Proof.
    intros Hv. unfold fleaf. rewrite ftriangles. rewrite filter_all by reflexivity. unfold cell_triangles.
    assert (En : forall i, SFltb (F (fgrid_pos o r (leaf_corner (dbl v) i))) fzero = cell_neg neg v i) by (intros i; unfold cell_neg, fneg; now rewrite leaf_corner_dbl).
    assert (Ei : mc_index (fun i => SFltb (F (fgrid_pos o r (leaf_corner (dbl v) i))) fzero) = mc_index (cell_neg neg v)) by (unfold mc_index; cbn [seq fold_left]; now rewrite !En).
    rewrite Ei. apply Forall2_map2. intros [[x y] z] Hin. destruct (tables_gen (cell_neg neg v)) as (_ & _ & H2 & _). destruct (H2 x y z Hin) as ((Lx & Ly & Lz) & Sx & Sy & Sz).
    split; [|split]; now apply fcross_edge.
  Qed.
  (** Watertight up to rounding. No grid corner is within (W + 20) units of the surface, the surface does not reach the boundary of the root cube, and no triangle is dropped as
      degenerate. Then the delivered triangles are, in some order, those of a closed surface without repeated directed edges: a vertex of each triangle is within 60 units
      of the place belonging to its grid edge, so that every directed edge of a delivered triangle is matched by the reverse of an edge of a delivered triangle up to 120 units. *)
  Theorem C101_closed_partial degen conc st ts dst sched st' dst' n :
    reachable (E degen) conc st ts -> read_triangles (E := E degen) st dst sched = Returned st' dst' n true ->
    (forall g, in_side (2 ^ Z.of_nat k) (dbl g) -> (W + 20) * w < Rabs (f (at_ (dbl g)))) ->
    (forall x y z, let N := Z.of_nat cells_n in (0 <= x <= N)%Z -> (0 <= y <= N)%Z -> (0 <= z <= N)%Z -> (x = 0 \/ x = N \/ y = 0 \/ y = N \/ z = 0 \/ z = N)%Z -> 0 <= f (at_ (dbl (x, y, z)))) ->
    (forall v t, In v all_cells -> In t (fleaf (fun _ => false) F o r v) -> degen t = false) ->
    let M := grid_mesh neg cells_n cells_n cells_n in
    closed M /\ NoDup (mesh_dirs M) /\
    (exists L, Permutation (ts ++ firstn n dst') L /\ Forall2 (tri_near (60 * w) cross) L M) /\
    (forall A B', In (A, B') (mesh_dirs (ts ++ firstn n dst')) -> exists A' B'', In (B'', A') (mesh_dirs (ts ++ firstn n dst')) /\ dist3 (FR3 A) (FR3 A') <= 120 * w /\ dist3 (FR3 B') (FR3 B'') <= 120 * w).
  Proof.
    intros Hr Hc Mg Bd Dg M. pose proof SC as [K L TR Sm SU Hk BT BS]. destruct (res_pos _ _ _ _ SU) as (R0 & _). destruct (scale_facts S K) as (S0 & W0 & _).
    assert (Sg : forall g, in_side (2 ^ Z.of_nat k) (dbl g) -> (neg g = true -> f (at_ (dbl g)) < - ((W + 20) * w)) /\ (neg g = false -> (W + 20) * w < f (at_ (dbl g)))).
    { intros g Hg. destruct (sample_near S B T V W F f o r _ L TR SU BT BS _ Hg) as (F1 & V1 & D1). specialize (Mg g Hg). unfold fneg.
      set (val := F (fgrid_pos o r (dbl g))) in *. assert (Nv : num val) by (split; assumption). pose proof (ltb_zero val Nv) as Lz. apply Rabs_iff in D1. split; intros X.
      - apply Lz in X. revert Mg. unfold Rabs. destruct (Rcase_abs _); lra.
      - assert (~ FR val < 0) by (intros Y; apply Lz in Y; congruence). revert Mg. unfold Rabs. destruct (Rcase_abs _); lra. }
    assert (N2 : (2 ^ Z.of_nat k = 2 * Z.of_nat cells_n)%Z) by (rewrite Nat2Z.inj_pow; change (Z.of_nat 2) with 2%Z; rewrite <- Z.pow_succ_r by lia; f_equal; lia).
    assert (Bn : boundary_nonneg neg cells_n cells_n cells_n).
    { intros x y z Hx Hy Hz Hb. destruct (neg (x, y, z)) eqn:X; auto. destruct (Sg (x, y, z)) as (G & _); [unfold in_side, dbl; cbn [vx vy vz]; rewrite N2; lia|]. specialize (G X). specialize (Bd x y z Hx Hy Hz Hb).
      assert (0 <= (W + 20) * w) by (destruct Sm as (_ & ?); apply Rmult_le_pos; lra). lra. }
    destruct (C12_watertight neg cells_n cells_n cells_n Bn) as (Cl & Nd). split; [exact Cl|]. split; [exact Nd|].
    assert (Pm : exists L0, Permutation (ts ++ firstn n dst') L0 /\ Forall2 (tri_near (60 * w) cross) L0 M).
    { exists (flat_map (fun v => fleaf (fun _ => false) F o r (dbl v)) (grid_cells cells_n cells_n cells_n)). split; [|apply Forall2_flat; intros v Hv; now apply fleaf_grid].
      pose proof (C01_exactly_once (E degen) conc st ts dst sched st' dst' n (foctree_wf degen F o r (Datatypes.S k) ltac:(lia)) Hr Hc) as Pm.
      assert (Es : surface_triangles (E degen) = flat_map (fleaf degen F o r) (filter (kept (E degen) k) all_cells)) by (unfold surface_triangles; cbn [e_levels foctree_env e_leaf]; replace (Datatypes.S k - 1)%nat with k by lia; reflexivity).
      rewrite Es in Pm. rewrite Pm. rewrite <- (flat_map_map dbl (fleaf (fun _ => false) F o r)), <- cells_dbl.
      rewrite (flat_ext_in (fleaf degen F o r) (fleaf (fun _ => false) F o r)).
      - rewrite flat_filter; [reflexivity|]. intros v Hv Hkp. unfold fleaf. rewrite ftriangles. rewrite filter_all by reflexivity.
        set (ng := fun i => SFltb (F (fgrid_pos o r (leaf_corner v i))) fzero). destruct (mc_edge_triangles (mc_index ng)) as [|[[x y] z] l] eqn:El; [reflexivity|exfalso].
        destruct (tables_gen ng) as (_ & _ & H2 & _). destruct (H2 x y z) as ((Lx & _) & Sx & _); [rewrite El; now left|].
        pose proof Hv as Hv0. rewrite cells_dbl in Hv. apply in_map_iff in Hv as (g & <- & Hg).
        assert (Si : forall i, (ng i = true -> f (at_ (leaf_corner (dbl g) i)) < - ((W + 20) * w)) /\ (ng i = false -> (W + 20) * w < f (at_ (leaf_corner (dbl g) i)))).
        { intros i. destruct (cell_side k (dbl g) i Hk Hv0) as (Sd & _). unfold ng. rewrite leaf_corner_dbl in *. now apply Sg. }
        assert (X : exists a b, ng a = true /\ ng b = false). { unfold sign_change in Sx. destruct (edge_ends x) as [a b]. destruct (ng a) eqn:Ea, (ng b) eqn:Eb; try congruence; [exists a, b|exists b, a]; auto. }
        destruct X as (a & b & Ea & Eb). destruct (cell_side k (dbl g) a Hk Hv0) as (_ & _ & Ia). destruct (cell_side k (dbl g) b Hk Hv0) as (_ & _ & Ib).
        assert (Kp : kept (E degen) k (dbl g) = true) by (eapply C100_kept; [exact Hv0|apply Ia; exact R0|apply Ib; exact R0|now apply Si|now apply Si]). congruence.
      - intros v Hv. apply filter_In in Hv as (Hv & _). unfold fleaf. rewrite !ftriangles. rewrite (filter_all (fun t => negb (degen t))); [now rewrite filter_all by reflexivity|]. intros t Ht.
        assert (D : degen t = false) by (apply (Dg v t Hv); unfold fleaf; rewrite ftriangles; now rewrite filter_all by reflexivity). now rewrite D. }
    split; [exact Pm|]. destruct Pm as (L0 & Pm & F2). intros A B' HAB. apply dirs_near in F2.
    assert (Pd : Permutation (mesh_dirs (ts ++ firstn n dst')) (mesh_dirs L0)) by (unfold mesh_dirs; now apply Permutation_flat_map).
    apply (Permutation_in _ Pd) in HAB. destruct (Forall2_in_l _ _ _ _ F2 HAB) as ([x y] & Hxy & (H1 & H2)). cbn [fst snd] in H1, H2.
    assert (Hyx : In (y, x) (mesh_dirs M)). { unfold closed in Cl. apply (Permutation_in _ Cl) in Hxy. apply in_map_iff in Hxy as ([x' y'] & Eq & Hin). injection Eq as -> ->. exact Hin. }
    destruct (Forall2_in_r _ _ _ _ F2 Hyx) as ([B2 A2] & Hin & (H3 & H4)). cbn [fst snd] in H3, H4. exists A2, B2. split; [apply (Permutation_in _ (Permutation_sym Pd)); exact Hin|].
    pose proof (dist3_triangle (FR3 A) (cross x) (FR3 A2)) as T1. pose proof (dist3_triangle (FR3 B') (cross y) (FR3 B2)) as T2. rewrite (dist3_sym (cross x)) in T1. rewrite (dist3_sym (cross y)) in T2. split; lra.
  Qed.
  Lemma lone_edge degen conc st ts dst sched st' dst' n : (0 <? length (lone (mesh_dirs (surface_triangles (E degen)))))%nat = true ->
    reachable (E degen) conc st ts -> read_triangles (E := E degen) st dst sched = Returned st' dst' n true ->
    exists A B0, In (A, B0) (mesh_dirs (ts ++ firstn n dst')) /\ (forall A' B', In (B', A') (mesh_dirs (ts ++ firstn n dst')) -> feq3 A A' && feq3 B0 B' = false) /\ ~ closed (ts ++ firstn n dst').
  Proof.
    intros H Hr Hc. pose proof SC as [_ _ _ _ _ Hk _ _]. pose proof (C01_exactly_once (E degen) conc st ts dst sched st' dst' n (foctree_wf degen F o r (Datatypes.S k) ltac:(lia)) Hr Hc) as Pm.
    set (ds := mesh_dirs (surface_triangles (E degen))) in *. assert (Pd : Permutation (mesh_dirs (ts ++ firstn n dst')) ds) by (unfold ds, mesh_dirs; now apply Permutation_flat_map). clearbody ds.
    destruct (lone ds) as [|[A B0] l] eqn:El; [discriminate|]. assert (Hin : In (A, B0) (lone ds)) by (rewrite El; now left). unfold lone in Hin. apply filter_In in Hin as (Hin & Hn). apply negb_true_iff in Hn.
    exists A, B0. pose proof (Permutation_in _ (Permutation_sym Pd) Hin) as HinD.
    assert (No : forall A' B', In (B', A') (mesh_dirs (ts ++ firstn n dst')) -> feq3 A A' && feq3 B0 B' = false).
    { intros A' B' H'. destruct (feq3 A A' && feq3 B0 B') eqn:X; auto. rewrite <- Hn. symmetry. apply existsb_exists. exists (B', A'). split; [exact (Permutation_in _ Pd H')|exact X]. }
    split; [exact HinD|]. split; [exact No|].
    intros Cl. unfold closed in Cl. apply (Permutation_in _ Cl) in HinD. apply in_map_iff in HinD as ([x y] & Eq & Hxy). injection Eq as -> ->. pose proof (No _ _ Hxy) as X.
    apply in_flat_map in Hxy as ([[a b] c] & Ht & Hd). assert (Fn : forall P, P = a \/ P = b \/ P = c -> feq3 P P = true).
    { intros P HP. destruct (C100_vertices degen conc st ts dst sched st' dst' n a b c P Hr Hc Ht HP) as ((v1 & v2 & v3') & (f1' & f2' & f3') & _).
      assert (R' : forall z, valid z -> fin z = true -> SFeqb z z = true). { intros z Vz Fz. destruct (compare_FR z z Fz Fz Vz Vz) as (cc & Ec & Fc). unfold SFeqb. rewrite Ec. destruct cc; auto; cbn [cmpR] in Fc; lra. }
      unfold feq3. now rewrite !R'. }
    assert (Ha : A = a \/ A = b \/ A = c) by (cbn [tri_dirs] in Hd; destruct Hd as [Hd|[Hd|[Hd|[]]]]; injection Hd as <- <-; auto). assert (Hb' : B0 = a \/ B0 = b \/ B0 = c) by (cbn [tri_dirs] in Hd; destruct Hd as [Hd|[Hd|[Hd|[]]]]; injection Hd as <- <-; auto).
    rewrite (Fn A Ha), (Fn B0 Hb') in X. discriminate.
  Qed.
End Scene.

(** ** The solids of C99 *)
Theorem C100_solids S B T e s o r k : scale_ok S -> fits S e B -> build3 e = Ok s -> small (mag e) (err e) -> setup o r (2 ^ Z.of_nat k) T -> (1 <= k)%nat -> 1.0001 * T <= B -> B <= S ->
  scene S B T (mag e) (err e) (feval3 e) (ev3 s) o r k.
Proof. intros K Hf Hb Hs SU Hk HT HB. destruct (C99_evaluate S K) as (G & _). destruct (G e B s Hf Hb) as (L & Tr). constructor; assumption. Qed.

(** ** Example: the unit ball with meshCells = 4 *)
(** Its bounding box scaled by 1.01 starts at -1.01, the resolution is 2.02 / 8 and there are 4 levels. *)
Definition m101 : spec_float := S754_finite true 4548635623644201 (-52).
Definition q101 : spec_float := S754_finite false 4548635623644201 (-54).
Definition o101 : fv3 := FV3 m101 m101 m101.
Definition ball : sdf3 := S3 (fun p => norm3 p - 1) (Box3 (scale3 (-1) (V3 1 1 1)) (V3 1 1 1)).
Lemma v101 : num m101 /\ num q101 /\ FR m101 = - (4 * FR q101) /\ 0.252499 <= FR q101 <= 0.252501.
Proof.
  assert (E : forall k, (0 <= k)%Z -> bpow (- k) = / IZR (2 ^ k)) by (intros k Hk; rewrite bpow_opp, bpow_Z by lia; reflexivity).
  assert (E1 : bpow (-52) = / 4503599627370496) by exact (E 52%Z ltac:(lia)). assert (E2 : bpow (-54) = / 18014398509481984) by exact (E 54%Z ltac:(lia)).
  split; [split; reflexivity|]. split; [split; reflexivity|]. unfold FR, m101, q101. rewrite E1, E2. lra.
Qed.
Lemma ball_scene : build3 (TSphere f1) = Ok ball /\ scene 10 7 6 9 130 (feval3 (TSphere f1)) (ev3 ball) o101 q101 3.
Proof.
  destruct v101 as ((F1 & V1) & (F2 & V2) & E & Q).
  assert (Bd : build3 (TSphere f1) = Ok ball) by (cbn [build3]; unfold must_sphere; rewrite FR_f1; replace (Rleb 1 0) with false by (symmetry; apply Rleb_false; lra); reflexivity). split; [exact Bd|].
  apply (C100_solids 10 7 6 (TSphere f1)); [apply scale_small; lra| |exact Bd|cbn [mag err]; unfold small; lra| |lia|lra|lra].
  - cbn [fits]. split; [lra|]. split; [exact f1_ok|]. rewrite FR_f1, Rabs_R1. lra.
  - constructor; [repeat split; exact V1|repeat split; exact F1|split; assumption| |cbn; lia|apply scale_small; lra|].
    + split; [apply Rle_trans with (bpow (-2)); [apply bpow_le; lia|replace (bpow (-2)) with (/ 4); [lra|change (-2)%Z with (- (2))%Z; rewrite bpow_opp, bpow_Z by lia; change (2 ^ 2)%Z with 4%Z; lra]]|apply Rle_trans with (bpow 0); [unfold bpow; cbn [powerRZ]; lra|apply bpow_le; lia]].
    + change (2 ^ Z.of_nat 3)%Z with 8%Z. assert (norm3 (FR3 o101) <= 1.8); [|lra]. unfold norm3, FR3, o101, norm3sq, dot3. cbn [f3x f3y f3z x3 y3 z3]. rewrite E. rewrite <- (sqrt_square 1.8) by lra. apply sqrt_le_1_alt. nra.
Qed.
Lemma ball_corner g : ev3 ball (grid_pos (FR3 o101) (FR q101) (dbl g)) = 2 * FR q101 * sqrt (let '(x, y, z) := g in IZR ((x - 2) * (x - 2) + (y - 2) * (y - 2) + (z - 2) * (z - 2))) - 1.
Proof.
  destruct v101 as (_ & _ & E & Q). destruct g as [[x y] z]. unfold ball. cbn [ev3]. f_equal. unfold norm3. set (q := FR q101) in *.
  assert (Sq : norm3sq (grid_pos (FR3 o101) q (dbl (x, y, z))) = (2 * q) * (2 * q) * IZR ((x - 2) * (x - 2) + (y - 2) * (y - 2) + (z - 2) * (z - 2))).
  { unfold grid_pos, dbl, to_v3, FR3, o101, norm3sq, dot3. cbn [f3x f3y f3z add3 scale3 x3 y3 z3 vx vy vz]. rewrite E, !plus_IZR, !mult_IZR, !minus_IZR. ring. }
  rewrite Sq, sqrt_mult_alt by nra. rewrite sqrt_square by lra. reflexivity.
Qed.
(** No grid corner is near the sphere, and those on the boundary are outside: the delivered triangles form a closed surface up to 120 units of 10 * 2^-53. *)
Example C101_example conc st ts dst sched st' dst' n : let E := foctree_env (fun _ => false) (feval3 (TSphere f1)) o101 q101 4 in
  reachable E conc st ts -> read_triangles (E := E) st dst sched = Returned st' dst' n true ->
  forall A B, In (A, B) (mesh_dirs (ts ++ firstn n dst')) -> exists A' B', In (B', A') (mesh_dirs (ts ++ firstn n dst')) /\ dist3 (FR3 A) (FR3 A') <= 120 * (u53 * 10) /\ dist3 (FR3 B) (FR3 B') <= 120 * (u53 * 10).
Proof.
  intros E Hr Hc. destruct ball_scene as (_ & SC). destruct v101 as (_ & _ & _ & Q). pose proof u53_small as U. pose proof u53_pos as U0.
  refine (proj2 (proj2 (proj2 (C101_closed_partial 10 7 6 9 130 _ _ o101 q101 3 SC (fun _ => false) conc st ts dst sched st' dst' n Hr Hc _ _ (fun _ _ _ _ => eq_refl))))).
  - intros g _. rewrite ball_corner. destruct g as [[x y] z]. set (d := ((x - 2) * (x - 2) + (y - 2) * (y - 2) + (z - 2) * (z - 2))%Z). assert (D0 : (0 <= d)%Z) by (unfold d; pose proof (Z.square_nonneg (x - 2)); pose proof (Z.square_nonneg (y - 2)); pose proof (Z.square_nonneg (z - 2)); lia). clearbody d.
    pose proof (sqrt_pos (IZR d)) as Sp. destruct (Z.le_gt_cases d 3) as [H|H].
    + assert (Sd : sqrt (IZR d) <= 1.74) by (rewrite <- (sqrt_square 1.74) by lra; apply sqrt_le_1_alt; apply IZR_le in H; lra). assert (2 * FR q101 * sqrt (IZR d) <= 0.9) by nra. rewrite Rabs_left1 by lra. lra.
    + assert (Sd : 2 <= sqrt (IZR d)) by (rewrite <- (sqrt_square 2) by lra; apply sqrt_le_1_alt; assert (4 <= d)%Z as H4 by lia; apply IZR_le in H4; lra). assert (1.009 <= 2 * FR q101 * sqrt (IZR d)) by nra. rewrite Rabs_right by lra. lra.
  - intros x y z N Hx Hy Hz Hb. rewrite ball_corner. change N with 4%Z in *. set (d := ((x - 2) * (x - 2) + (y - 2) * (y - 2) + (z - 2) * (z - 2))%Z). assert (D0 : (4 <= d)%Z) by (unfold d; pose proof (Z.square_nonneg (x - 2)); pose proof (Z.square_nonneg (y - 2)); pose proof (Z.square_nonneg (z - 2)); destruct Hb as [->|[->|[->|[->|[->| ->]]]]]; lia). clearbody d.
    assert (Sd : 2 <= sqrt (IZR d)) by (rewrite <- (sqrt_square 2) by lra; apply sqrt_le_1_alt; apply IZR_le in D0; lra). nra.
Qed.
(** Each vertex delivered for it is within 0.26 of the sphere. *)
Example C100_example conc st ts dst sched st' dst' n A B C P : let E := foctree_env (fun _ => false) (feval3 (TSphere f1)) o101 q101 4 in
  reachable E conc st ts -> read_triangles (E := E) st dst sched = Returned st' dst' n true -> In (A, B, C) (ts ++ firstn n dst') -> P = A \/ P = B \/ P = C -> Rabs (norm3 (FR3 P) - 1) <= 0.26.
Proof.
  intros E Hr Hc Hin HP. destruct ball_scene as (_ & SC). destruct v101 as (_ & _ & _ & Q). pose proof u53_small as U.
  destruct (C100_vertices 10 7 6 9 130 _ _ o101 q101 3 SC (fun _ => false) conc st ts dst sched st' dst' n A B C P Hr Hc Hin HP) as (_ & _ & H & _). change (ev3 ball (FR3 P)) with (norm3 (FR3 P) - 1) in H. unfold mc_epsilon in H. lra.
Qed.

(** ** Bit equality fails *)
Lemma lone_ball : (0 <? length (lone (mesh_dirs (surface_triangles (foctree_env (fun _ => false) (feval3 (TSphere f1)) o101 q101 4)))))%nat = true.
Proof. vm_compute. reflexivity. Qed.
(** The claim that the delivered triangles share their edges exactly is false: for the unit ball and meshCells = 4 a delivered triangle has an edge that is, with == on coordinates,
    the reverse of no edge of a delivered triangle. *)
Theorem C101_bit_closed_refuted conc st ts dst sched st' dst' n : let E := foctree_env (fun _ => false) (feval3 (TSphere f1)) o101 q101 4 in
  reachable E conc st ts -> read_triangles (E := E) st dst sched = Returned st' dst' n true ->
  exists A B, In (A, B) (mesh_dirs (ts ++ firstn n dst')) /\ (forall A' B', In (B', A') (mesh_dirs (ts ++ firstn n dst')) -> feq3 A A' && feq3 B B' = false) /\ ~ closed (ts ++ firstn n dst').
Proof. exact (lone_edge 10 7 6 9 130 (feval3 (TSphere f1)) (ev3 ball) o101 q101 3 (proj2 ball_scene) (fun _ => false) conc st ts dst sched st' dst' n lone_ball). Qed.
