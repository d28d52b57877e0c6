(** Properties C11-C15: marching cubes on cells and grids. *)
From Coq Require Import Reals List Permutation Arith NArith ZArith Lia Lra Bool Floats.SpecFloat.
From Verif Require Import Prelude McTables McModel McSpec McProofs McManifold Vec McRealModel.
Import ListNotations.

(** ** C11 *)
Lemma in_tris_edges t idx e : In t (mc_edge_triangles idx) ->
  (let '(a, b, c) := t in e = a \/ e = b \/ e = c) -> In e (tris_edges idx).
Proof.
  intros Ht He. apply in_flat_map. exists t. split; auto. destruct t as [[a b] c]; cbn. intuition.
Qed.

(** For all corner values: an edge gets a vertex iff its ends are on different
    sides of the iso value, iff some triangle uses it; no triangle uses an edge
    twice; at most 5 triangles. *)
Theorem C11_tables (v : nat -> R) (x : R) :
  let neg := fun i => Rltb (v i) x in
  let idx := mc_index neg in
  (forall e, e < 12 ->
     (mc_edge_used idx e = true <-> sign_change neg e) /\
     (sign_change neg e <->
        exists a b c, In (a, b, c) (mc_edge_triangles idx) /\ (e = a \/ e = b \/ e = c))) /\
  (forall a b c, In (a, b, c) (mc_edge_triangles idx) ->
     a < 12 /\ b < 12 /\ c < 12 /\ a <> b /\ b <> c /\ a <> c /\
     sign_change neg a /\ sign_change neg b /\ sign_change neg c) /\
  length (mc_edge_triangles idx) <= 5.
Proof.
  intros neg idx. unfold idx. destruct (mc_index_bits neg) as (i & Hlt & -> & Hb).
  pose proof (all_patterns_ok _ table_shape_check i Hlt) as H. cbv beta in H.
  apply andb_true_iff in H as [H _]. apply andb_true_iff in H as [H _].
  apply andb_true_iff in H as [H HT]. apply andb_true_iff in H as [HL _].
  pose proof (all_patterns_ok _ table_edges_check i Hlt) as HE. cbv beta in HE.
  assert (HE' : forall e, e < 12 ->
     (mc_edge_used i e = true <-> sign_change neg e) /\ (In e (tris_edges i) <-> sign_change neg e)).
  { intros e He. pose proof (all_edges_ok _ HE e He) as H. cbv beta in H.
    apply andb_true_iff in H as [H1 H2]. apply eqb_prop in H1, H2.
    rewrite <- (change_idx_spec neg i e Hb He), <- memb_In, H1, H2. tauto. }
  assert (HT' : forall a b c, In (a, b, c) (mc_edge_triangles i) ->
     a < 12 /\ b < 12 /\ c < 12 /\ a <> b /\ b <> c /\ a <> c).
  { intros a b c Hin. rewrite forallb_forall in HT. specialize (HT _ Hin). cbv beta iota in HT.
    rewrite !andb_true_iff, !Nat.ltb_lt, !negb_true_iff, !Nat.eqb_neq in HT. tauto. }
  repeat split.
  - apply HE'; auto.
  - apply HE'; auto.
  - intros Hs. apply HE' in Hs; auto. apply in_flat_map in Hs as ([[a b] c] & Hin & He).
    exists a, b, c. split; auto. cbn in He. intuition.
  - intros (a & b & c & Hin & He). apply HE'; auto. now apply (in_tris_edges (a, b, c)).
  - apply HT' in H. tauto.
  - apply HT' in H. tauto.
  - apply HT' in H. tauto.
  - apply HT' in H. tauto.
  - apply HT' in H. tauto.
  - apply HT' in H. tauto.
  - pose proof (HT' _ _ _ H). apply HE'; [tauto|]. apply (in_tris_edges (a, b, c)); tauto.
  - pose proof (HT' _ _ _ H). apply HE'; [tauto|]. apply (in_tris_edges (a, b, c)); tauto.
  - pose proof (HT' _ _ _ H). apply HE'; [tauto|]. apply (in_tris_edges (a, b, c)); tauto.
  - now apply Nat.leb_le.
Qed.

(** The triangles computed by mcToTriangles (those not dropped as degenerate) are
    the interpolated points of those edge triples: the zero vector of unused
    edges never shows up, and the early return on a zero table entry loses nothing. *)
Theorem C11_triangles degen (p : nat -> v3) (v : nat -> R) x :
  mc_triangles degen p v x =
  filter (fun t => negb (degen t))
    (map (fun '(a, b, c) =>
       let pt e := mc_interpolate x (p (fst (edge_ends e))) (p (snd (edge_ends e)))
                                    (v (fst (edge_ends e))) (v (snd (edge_ends e))) in
       (pt a, pt b, pt c)) (mc_edge_triangles (mc_index (fun i => Rltb (v i) x)))).
Proof.
  pose proof (C11_tables v x) as H. cbv zeta in H.
  unfold mc_triangles, mc_to_triangles.
  set (idx := mc_index (fun i => Rltb (v i) x)) in *. clearbody idx.
  destruct H as (H1 & H2 & _).
  destruct (N.eqb (nth idx mcEdgeTable 0%N) 0) eqn:E.
  - assert (Hn : mc_edge_triangles idx = []).
    { destruct (mc_edge_triangles idx) as [|[[a b] c] l] eqn:El; auto.
      destruct (H2 a b c ltac:(now left)) as (Ha & _ & _ & _ & _ & _ & Hs & _).
      apply (proj1 (H1 a Ha)) in Hs. unfold mc_edge_used in Hs. apply N.eqb_eq in E. rewrite E in Hs.
      rewrite N.bits_0 in Hs. discriminate. }
    now rewrite Hn.
  - f_equal. apply map_ext_in. intros [[a b] c] Hin.
    destruct (H2 a b c Hin) as (Ha & Hb & Hc & _ & _ & _ & Sa & Sb & Sc).
    apply (proj1 (H1 a Ha)) in Sa. apply (proj1 (H1 b Hb)) in Sb. apply (proj1 (H1 c Hc)) in Sc. unfold mc_point. rewrite Sa, Sb, Sc.
    unfold edge_ends. destruct (nth a _ _), (nth b _ _), (nth c _ _). reflexivity.
Qed.

(** A cell with corner 0 inside: one triangle cutting that corner off. *)
Example C11_corner_cut : mc_edge_triangles (mc_index (fun i => Nat.eqb i 0)) <> [].
Proof. vm_compute. discriminate. Qed.

(** ** C12 *)
(** The mesh of any field that is not negative on the grid boundary is closed,
    and every directed edge occurs once: each edge belongs to exactly two
    triangles, which run through it in opposite directions. *)
Theorem C12_watertight (neg : gpoint -> bool) nx ny nz :
  boundary_nonneg neg nx ny nz ->
  closed (grid_mesh neg nx ny nz) /\ NoDup (mesh_dirs (grid_mesh neg nx ny nz)).
Proof. intros H. split; [now apply grid_mesh_closed|apply grid_mesh_simple]. Qed.

(** Without the boundary condition the mesh is still edge-manifold. *)
Theorem C12_simple (neg : gpoint -> bool) nx ny nz : NoDup (mesh_dirs (grid_mesh neg nx ny nz)).
Proof. apply grid_mesh_simple. Qed.

(** A single negative point in a 2x2x2 grid: an octahedron with 8 triangles. *)
Example C12_octahedron :
  let neg := fun p : gpoint => let '(x, y, z) := p in (Z.eqb x 1 && Z.eqb y 1 && Z.eqb z 1)%bool in
  boundary_nonneg neg 2 2 2 /\ length (grid_mesh neg 2 2 2) = 8.
Proof.
  split; [|reflexivity]. intros x y z Hx Hy Hz H.
  destruct (Z.eqb_spec x 1), (Z.eqb_spec y 1), (Z.eqb_spec z 1); cbn; auto; lia.
Qed.

(** ** C13 *)
(** Twice the midpoint of cell edge [e]. *)
Definition mid2 (e : nat) : gpoint := padd (corner (fst (edge_ends e))) (corner (snd (edge_ends e))).
Definition zsub (a b : gpoint) : gpoint :=
  let '(x, y, z) := a in let '(u, v, w) := b in (x - u, y - v, z - w)%Z.
Definition zcross (a b : gpoint) : gpoint :=
  let '(x, y, z) := a in let '(u, v, w) := b in (y * w - z * v, z * u - x * w, x * v - y * u)%Z.
Definition zdot (a b : gpoint) : Z :=
  let '(x, y, z) := a in let '(u, v, w) := b in (x * u + y * v + z * w)%Z.
(** The end of the edge that is inside / outside. *)
Definition inside_end (neg : nat -> bool) e :=
  let '(a, b) := edge_ends e in if neg a then corner a else corner b.
Definition outside_end (neg : nat -> bool) e :=
  let '(a, b) := edge_ends e in if neg a then corner b else corner a.
(** Outward normals of the faces, in the order of [face_ccw]. *)
Definition face_normal (f : nat) : gpoint :=
  match f with
  | 0 => (-1, 0, 0)%Z | 1 => (1, 0, 0)%Z | 2 => (0, -1, 0)%Z
  | 3 => (0, 1, 0)%Z | 4 => (0, 0, -1)%Z | _ => (0, 0, 1)%Z end.
Definition zdouble (a : gpoint) : gpoint := padd a a.
(** [q] is to the right of the line from [a] to [b], seen against normal [n]. *)
Definition right_of (n a b q : gpoint) : Z := zdot n (zcross (zsub b a) (zsub q a)).

Lemma C13_check : all_patterns (fun idx => let neg := Nat.testbit idx in
  forallb (fun d => forallb (fun f => negb (on_face f (fst d) && on_face f (snd d)) ||
     (Z.ltb (right_of (face_normal f) (mid2 (fst d)) (mid2 (snd d)) (zdouble (inside_end neg (fst d)))) 0 &&
      Z.ltb (right_of (face_normal f) (mid2 (fst d)) (mid2 (snd d)) (zdouble (inside_end neg (snd d)))) 0 &&
      Z.ltb 0 (right_of (face_normal f) (mid2 (fst d)) (mid2 (snd d)) (zdouble (outside_end neg (fst d)))) &&
      Z.ltb 0 (right_of (face_normal f) (mid2 (fst d)) (mid2 (snd d)) (zdouble (outside_end neg (snd d)))) &&
      negb (dmem (swap d) (local_dirs idx)))) (seq 0 6)) (local_dirs idx) &&
  forallb (fun d => dmem (swap d) (local_dirs idx) ||
     existsb (fun f => on_face f (fst d) && on_face f (snd d)) (seq 0 6)) (local_dirs idx) &&
  forallb (fun '(a, b, c) =>
     let n := zcross (zsub (mid2 b) (mid2 a)) (zsub (mid2 c) (mid2 a)) in
     let o e := zsub (outside_end neg e) (inside_end neg e) in
     Z.ltb 0 (zdot n (o a) + zdot n (o b) + zdot n (o c))) (mc_edge_triangles idx)) = true.
Proof. vm_compute. reflexivity. Qed.

Lemma inside_ext neg neg' e : e < 12 -> (forall i, i < 8 -> neg i = neg' i) ->
  inside_end neg e = inside_end neg' e /\ outside_end neg e = outside_end neg' e.
Proof.
  intros He H. unfold inside_end, outside_end. pose proof (edge_ends_lt e He) as [Ha _].
  destruct (edge_ends e) as [a b]; cbn in *. now rewrite H.
Qed.

(** Directed edges of the cell's triangles, for the pattern of [neg]. *)
Definition patch_dirs (neg : nat -> bool) : list (nat * nat) :=
  mesh_dirs (mc_edge_triangles (mc_index neg)).

(** For every sign pattern: an edge of the patch whose reverse is not in the
    patch lies on a face; and an edge on a face has the inside corners of both
    its cell edges on its right, the outside ones on its left, seen from outside
    the cell, and is not matched inside the cell. *)
Theorem C13_face_orientation (neg : nat -> bool) d :
  In d (patch_dirs neg) ->
  (~ In (swap d) (patch_dirs neg) <-> exists f, f < 6 /\ on_face f (fst d) = true /\ on_face f (snd d) = true) /\
  (forall f, f < 6 -> on_face f (fst d) = true -> on_face f (snd d) = true ->
    (forall e, e = fst d \/ e = snd d ->
      (right_of (face_normal f) (mid2 (fst d)) (mid2 (snd d)) (zdouble (inside_end neg e)) < 0)%Z /\
      (right_of (face_normal f) (mid2 (fst d)) (mid2 (snd d)) (zdouble (outside_end neg e)) > 0)%Z)).
Proof.
  unfold patch_dirs. intros Hd. destruct (local_dirs_facts neg d Hd) as (L1 & L2 & _).
  destruct (mc_index_bits neg) as (idx & Hlt & E & Hb). rewrite E in Hd |- *.
  pose proof (all_patterns_ok _ C13_check idx Hlt) as H. cbv beta zeta in H.
  apply andb_true_iff in H as [H _]. apply andb_true_iff in H as [H1 H2].
  rewrite forallb_forall in H1, H2. specialize (H1 d Hd). specialize (H2 d Hd).
  rewrite forallb_forall in H1.
  split; [split|].
  - intros Hn. apply orb_true_iff in H2 as [H2|H2]; [apply dmem_In in H2; contradiction|].
    apply existsb_exists in H2 as (f & Hf & H2). apply in_seq in Hf. apply andb_true_iff in H2.
    exists f. split; [lia|tauto].
  - intros (f & Hf & O1 & O2) Hin. assert (Hs : In f (seq 0 6)) by (apply in_seq; lia).
    specialize (H1 f Hs). rewrite O1, O2 in H1. cbn [negb andb orb] in H1.
    apply andb_true_iff in H1 as [_ H1]. apply dmem_In in Hin. unfold local_dirs in *.
    unfold mesh_dirs in Hin. rewrite Hin in H1. discriminate.
  - intros f Hf O1 O2 e He. assert (Hs : In f (seq 0 6)) by (apply in_seq; lia).
    specialize (H1 f Hs). rewrite O1, O2 in H1. cbn [negb andb orb] in H1.
    rewrite !andb_true_iff, !Z.ltb_lt in H1. destruct H1 as ((((A & B) & C) & D) & _).
    destruct (inside_ext neg (Nat.testbit idx) (fst d) L1) as [I1 I2]; [intros; symmetry; auto|].
    destruct (inside_ext neg (Nat.testbit idx) (snd d) L2) as [I3 I4]; [intros; symmetry; auto|].
    destruct He as [->| ->]; rewrite ?I1, ?I2, ?I3, ?I4; lia.
Qed.

(** For every triangle of every pattern (vertices at edge midpoints) the normal
    has a positive component along the sum of the inside-to-outside directions
    of its three cell edges. *)
Theorem C13_normal_outward (neg : nat -> bool) a b c :
  In (a, b, c) (mc_edge_triangles (mc_index neg)) ->
  let n := zcross (zsub (mid2 b) (mid2 a)) (zsub (mid2 c) (mid2 a)) in
  let out e := zsub (outside_end neg e) (inside_end neg e) in
  (0 < zdot n (out a) + zdot n (out b) + zdot n (out c))%Z.
Proof.
  intros Hin. destruct (mc_index_bits neg) as (idx & Hlt & E & Hb). rewrite E in Hin.
  pose proof (all_patterns_ok _ table_shape_check idx Hlt) as HS. cbv beta in HS.
  rewrite !andb_true_iff in HS. destruct HS as ((((_ & _) & HS) & _) & _).
  rewrite forallb_forall in HS. specialize (HS _ Hin). cbv beta iota in HS.
  rewrite !andb_true_iff, !Nat.ltb_lt in HS.
  pose proof (all_patterns_ok _ C13_check idx Hlt) as H. cbv beta zeta in H.
  apply andb_true_iff in H as [_ H]. rewrite forallb_forall in H. specialize (H _ Hin).
  cbv beta iota in H. apply Z.ltb_lt in H. cbv zeta.
  destruct (inside_ext neg (Nat.testbit idx) a ltac:(tauto)) as [A1 A2]; [intros; symmetry; auto|].
  destruct (inside_ext neg (Nat.testbit idx) b ltac:(tauto)) as [B1 B2]; [intros; symmetry; auto|].
  destruct (inside_ext neg (Nat.testbit idx) c ltac:(tauto)) as [C1 C2]; [intros; symmetry; auto|].
  rewrite A1, A2, B1, B2, C1, C2. exact H.
Qed.

Example C13_nonvacuous : exists d, In d (patch_dirs (fun i => Nat.eqb i 0)).
Proof. eexists. vm_compute. left. reflexivity. Qed.

(** ** C14 *)
Local Open Scope R_scope.
(** For end points on different sides of the iso value [x]: the vertex is a point
    of the segment, the linear interpolant there is within 1e-12 of [x], and
    swapping the end points does not matter. *)
Theorem C14_interpolation x p1 p2 v1 v2 : v1 < x <= v2 \/ v2 < x <= v1 ->
  (exists t, 0 <= t <= 1 /\
     mc_interpolate x p1 p2 v1 v2 = add3 p1 (scale3 t (sub3 p2 p1)) /\
     Rabs (v1 + t * (v2 - v1) - x) < / 1000000000000) /\
  mc_interpolate x p1 p2 v1 v2 = mc_interpolate x p2 p1 v2 v1.
Proof.
  change (/ 1000000000000) with mc_epsilon.
  intros Hs. assert (He : 0 < mc_epsilon) by (unfold mc_epsilon; lra).
  unfold mc_interpolate. split.
  - destruct (Rltb (Rabs (x - v1)) mc_epsilon) eqn:C1, (Rltb (Rabs (x - v2)) mc_epsilon) eqn:C2;
      (apply Rltb_true in C1 || apply Rltb_false in C1); (apply Rltb_true in C2 || apply Rltb_false in C2);
      cbn [andb negb].
    + exists (1 / 2). split; [lra|]. split; [apply v3_ext; cbn; ring|]. rmm; lra.
    + exists 0. split; [lra|]. split; [apply v3_ext; cbn; ring|].
      replace (v1 + 0 * (v2 - v1) - x) with (- (x - v1)) by ring. now rewrite Rabs_Ropp.
    + exists 1. split; [lra|]. split; [apply v3_ext; cbn; ring|].
      replace (v1 + 1 * (v2 - v1) - x) with (- (x - v2)) by ring. now rewrite Rabs_Ropp.
    + exists ((x - v1) / (v2 - v1)).
      assert (Hne : v2 - v1 <> 0) by lra.
      assert (Et : (x - v1) / (v2 - v1) * (v2 - v1) = x - v1) by (field; auto).
      set (t := (x - v1) / (v2 - v1)) in *. clearbody t.
      split; [destruct Hs; nra|]. split; [apply v3_ext; reflexivity|].
      rewrite Et. replace (v1 + (x - v1) - x) with 0 by ring. now rewrite Rabs_R0.
  - destruct (Rltb (Rabs (x - v1)) mc_epsilon) eqn:C1, (Rltb (Rabs (x - v2)) mc_epsilon) eqn:C2;
      cbn [andb negb]; auto; apply v3_ext; cbn; field; lra.
Qed.

Example C14_nonvacuous : mc_interpolate 0 (V3 0 0 0) (V3 4 0 0) (-1) 3 = V3 1 0 0.
Proof.
  unfold mc_interpolate, mc_epsilon.
  rewrite (proj2 (Rltb_false _ _)) by (rewrite Rabs_right; lra).
  rewrite (proj2 (Rltb_false _ _)) by (rewrite Rabs_left; lra).
  apply v3_ext; cbn; field.
Qed.

(** ** C15 *)
(** Over R two cells that share a grid edge compute the same vertex on it.  [pos]
    and [val] are the positions and SDF values of the grid points; the cell at
    [c] interpolates on its edge [e] in the order of mcPairTable. *)
Definition cell_vertex (pos : gpoint -> v3) (val : gpoint -> R) (c : gpoint) (e : nat) : v3 :=
  let a := padd c (corner (fst (edge_ends e))) in
  let b := padd c (corner (snd (edge_ends e))) in
  mc_interpolate 0 (pos a) (pos b) (val a) (val b).

(** Ends of a grid edge. *)
Definition gend (g : gedge) : gpoint * gpoint :=
  (fst g, padd (fst g) (match snd g with 0%nat => (1, 0, 0)%Z | 1%nat => (0, 1, 0)%Z | _ => (0, 0, 1)%Z end)).

Lemma cell_edge_ends c e : (e < 12)%nat ->
  let a := padd c (corner (fst (edge_ends e))) in
  let b := padd c (corner (snd (edge_ends e))) in
  gend (grid_edge c e) = (a, b) \/ gend (grid_edge c e) = (b, a).
Proof.
  intros He. destruct c as [[x y] z].
  do 12 (destruct e as [|e]; [first
    [left; cbn; unfold gend; cbn; solve [repeat match goal with |- (_, _) = (_, _) => apply f_equal2 end; lia] | right; cbn; unfold gend; cbn; solve [repeat match goal with |- (_, _) = (_, _) => apply f_equal2 end; lia]]|]).
  lia.
Qed.

Theorem C15_shared_vertex_real pos val c1 c2 e1 e2 : (e1 < 12)%nat -> (e2 < 12)%nat ->
  grid_edge c1 e1 = grid_edge c2 e2 ->
  (let '(a, b) := gend (grid_edge c1 e1) in val a < 0 <= val b \/ val b < 0 <= val a) ->
  cell_vertex pos val c1 e1 = cell_vertex pos val c2 e2.
Proof.
  intros H1 H2 Hg Hs. pose proof (cell_edge_ends c1 e1 H1) as E1. pose proof (cell_edge_ends c2 e2 H2) as E2.
  cbv zeta in E1, E2. rewrite <- Hg in E2. unfold cell_vertex.
  destruct (gend (grid_edge c1 e1)) as [a b].
  assert (Hsw : mc_interpolate 0 (pos a) (pos b) (val a) (val b) = mc_interpolate 0 (pos b) (pos a) (val b) (val a))
    by (apply C14_interpolation; tauto).
  destruct E1 as [E1|E1], E2 as [E2|E2]; injection E1 as <- <-; injection E2 as <- <-; auto.
Qed.

(** In binary64 it is refuted: neighbouring cells see the common edge with its
    ends in opposite order (edge 2 of the cell at (0,0,0) is {2,3}, edge 0 of the
    cell at (0,1,0) is {0,1}) and round differently.  For ends at 0 and 1 with
    values -1 and 2 one cell computes 0x3FD5555555555555, the other
    0x3FD5555555555556. *)
Definition f_zero : spec_float := S754_zero false.
Definition f_one : spec_float := S754_finite false 4503599627370496 (-52).
Definition f_two : spec_float := S754_finite false 4503599627370496 (-51).
Definition f_mone : spec_float := S754_finite true 4503599627370496 (-52).
Theorem C15_bit_identical_refuted :
  grid_edge (0, 0, 0)%Z 2 = grid_edge (0, 1, 0)%Z 0 /\
  edge_ends 2 = (2, 3)%nat /\ edge_ends 0 = (0, 1)%nat /\
  (* cell (0,1,0), edge 0: from the end at 0 to the end at 1 *)
  mc_interpolate_f f_zero f_zero f_one f_mone f_two = S754_finite false 6004799503160661 (-54) /\
  (* cell (0,0,0), edge 2: from the end at 1 to the end at 0 *)
  mc_interpolate_f f_zero f_one f_zero f_two f_mone = S754_finite false 6004799503160662 (-54).
Proof. vm_compute. repeat split. Qed.
