(** Properties C06, C07, C16: octree sampling. *)
From Coq Require Import Reals List Permutation Bool ZArith Lia Lra Psatz.
From Verif Require Import Prelude OctreeModel OctreeSpec OctreeProofs OctreeGrid PropsOctree.
From Verif Require Import McTables McModel McSpec McProofs Vec BoxModel McRealModel PropsMc OctreeR.
Import ListNotations.
Local Open Scope R_scope.

(** ** C07 *)
Lemma ceilR_spec x : x <= IZR (ceilR x) < x + 1.
Proof.
  unfold ceilR. destruct (base_Int_part (- x)) as [H1 H2]. rewrite opp_IZR. lra.
Qed.

Lemma pow_Rpower2 n : 2 ^ n = Rpower 2 (INR n).
Proof. symmetry. apply Rpower_pow. lra. Qed.

Lemma ln2_pos : 0 < ln 2.
Proof. rewrite <- ln_1. apply ln_increasing; lra. Qed.

Lemma log2_pow n : log2R (2 ^ n) = INR n.
Proof.
  unfold log2R. rewrite pow_Rpower2. unfold Rpower. rewrite ln_exp. field. pose proof ln2_pos. lra.
Qed.
Lemma log2_le a b : 0 < a -> a <= b -> log2R a <= log2R b.
Proof.
  intros Ha H. unfold log2R. apply Rmult_le_compat_r.
  - left. apply Rinv_0_lt_compat, ln2_pos.
  - destruct H as [H| ->]; [left; now apply ln_increasing|lra].
Qed.
Lemma log2_lt a b : 0 < a -> a < b -> log2R a < log2R b.
Proof.
  intros Ha H. unfold log2R. apply Rmult_lt_compat_r.
  - apply Rinv_0_lt_compat, ln2_pos.
  - now apply ln_increasing.
Qed.

(** ceil(log2 x) is the least exponent with x <= 2^n. *)
Lemma ceil_log2 x : 1 < x -> exists n, ceilR (log2R x) = Z.of_nat n /\ (1 <= n)%nat /\ x <= 2 ^ n /\ 2 ^ (n - 1) < x.
Proof.
  intros Hx. pose proof (ceilR_spec (log2R x)) as [H1 H2].
  assert (Hp : 0 < log2R x).
  { change 0 with (INR 0). rewrite <- (log2_pow 0). apply log2_lt; cbn; lra. }
  assert (Hc : (0 < ceilR (log2R x))%Z) by (apply lt_IZR; lra).
  exists (Z.to_nat (ceilR (log2R x))). rewrite Z2Nat.id by lia. split; auto. split; [lia|].
  set (n := Z.to_nat (ceilR (log2R x))).
  assert (En : INR n = IZR (ceilR (log2R x))) by (unfold n; rewrite INR_IZR_INZ, Z2Nat.id by lia; auto).
  assert (En1 : INR (n - 1) = IZR (ceilR (log2R x)) - 1).
  { rewrite minus_INR by (unfold n; lia). rewrite En. cbn; lra. }
  split.
  - destruct (Rle_or_lt x (2 ^ n)) as [|H]; auto. exfalso.
    apply log2_lt in H; [|apply pow_lt; lra]. rewrite log2_pow, En in H. lra.
  - destruct (Rlt_or_le (2 ^ (n - 1)) x) as [|H]; auto. exfalso.
    apply log2_le in H; [|lra]. rewrite log2_pow, En1 in H. lra.
Qed.

(** For a box with positive longest side and meshCells >= 2 (and at most 2^61
    cells: Go's guard against 64 levels), NewOctreeRenderer's grid starts at the
    enlarged box's corner, its root cube reaches past the enlarged box, and it
    has between meshCells and 2 meshCells finest cells per axis, of side
    (longest side of the enlarged box) / meshCells. *)
Theorem C07_grid bounds m :
  let bb := scale_about_center3 bounds (101/100) in
  let long := vmax3 (size3 bounds) in
  (2 <= m <= 2 ^ 61)%Z -> 0 < long ->
  exists o n,
    new_octree bounds m = Ok o /\
    o_origin o = min3 bb /\
    o_levels o = S (S n) /\                            (* root level n+1: 2^n finest cells per axis *)
    2 * o_res o = (101/100) * long / IZR m /\          (* finest cell side *)
    IZR m <= 2 ^ n < 2 * IZR m /\
    (* the root cube contains the enlarged box, which contains the bounds *)
    (let side := 2 ^ n * (2 * o_res o) in
     let root := Box3 (o_origin o) (add3 (o_origin o) (elem3 side)) in
     (forall p, in3 bb p -> in3 root p) /\
     (forall p, in3 bounds p -> in3 bb p /\
        (0 < x3 (size3 bounds) -> x3 (min3 root) < x3 p < x3 (max3 root)) /\
        (0 < y3 (size3 bounds) -> y3 (min3 root) < y3 p < y3 (max3 root)) /\
        (0 < z3 (size3 bounds) -> z3 (min3 root) < z3 p < z3 (max3 root)))).
Proof.
  intros bb long Hm Hl.
  assert (Hmr : 2 <= IZR m) by (change 2 with (IZR 2); apply IZR_le; lia).
  assert (Hbl : vmax3 (size3 bb) = (101/100) * long).
  { unfold bb, long, vmax3, scale_about_center3, new_box3, size3, sub3, add3, scale3; cbn. rmm; lra. }
  unfold new_octree. fold bb. rewrite Hbl.
  replace (m <? 2)%Z with false by (symmetry; apply Z.ltb_ge; lia).
  set (res := 1 / 2 * (101 / 100 * long) / IZR m).
  assert (Hres : 0 < res) by (unfold res; apply Rdiv_lt_0_compat; lra).
  assert (Hratio : 101 / 100 * long / res = 2 * IZR m) by (unfold res; field; lra).
  rewrite Hratio.
  destruct (ceil_log2 (2 * IZR m)) as (k & -> & Hk & Hk1 & Hk2); [lra|].
  assert (Hk3 : (k <= 62)%nat).
  { destruct (le_lt_dec k 62); auto. exfalso.
    assert (2 ^ 62 <= 2 ^ (k - 1)) by (apply Rle_pow; [lra|lia]).
    assert (IZR m <= IZR (2 ^ 61)) by (apply IZR_le; lia).
    change (2 ^ 61)%Z with 2305843009213693952%Z in H0.
    assert (2 ^ 62 = 4611686018427387904) by (cbn; ring). lra. }
  replace (Z.to_nat (Z.of_nat k + 1)) with (S k) by lia.
  replace (64 <=? S k)%nat with false by (symmetry; apply Nat.leb_gt; lia).
  destruct k as [|n]; [lia|]. replace (S n - 1)%nat with n in Hk2 by lia.
  exists (OParams (min3 bb) res (S (S n))), n.
  split; [reflexivity|]. cbn [o_origin o_res o_levels].
  split; [reflexivity|]. split; [reflexivity|].
  assert (Hside : 2 * res = 101 / 100 * long / IZR m) by (unfold res; field; lra).
  split; [exact Hside|]. cbn [pow] in Hk1.
  split; [lra|]. cbv zeta.
  assert (Hbig : 101 / 100 * long <= 2 ^ n * (2 * res)).
  { rewrite Hside. apply Rmult_le_reg_r with (IZR m); [lra|].
    replace (2 ^ n * (101 / 100 * long / IZR m) * IZR m) with (2 ^ n * (101/100 * long)) by (field; lra). nra. }
  set (side := 2 ^ n * (2 * res)) in *. clearbody side.
  clear -Hbig Hl Hbl.
  assert (Hs : x3 (size3 bb) <= 101/100 * long /\ y3 (size3 bb) <= 101/100 * long /\ z3 (size3 bb) <= 101/100 * long).
  { rewrite <- Hbl. unfold vmax3. rmm; lra. }
  assert (Hs' : x3 (size3 bounds) <= long /\ y3 (size3 bounds) <= long /\ z3 (size3 bounds) <= long).
  { unfold long, vmax3. rmm; lra. }
  clearbody long. unfold bb in *. clear bb Hbl.
  destruct bounds as [[a b c] [d e f]].
  unfold scale_about_center3, new_box3, center3, size3, sub3, add3, scale3, elem3, in3 in *; cbn in *.
  split; intros [px py pz]; cbn; lra.
Qed.

Example C07_nonvacuous :
  0 < vmax3 (size3 (Box3 (V3 0 0 0) (V3 1 2 3))).
Proof. unfold vmax3; cbn. rmm; lra. Qed.

(** ** C06 *)
Lemma grid_pos_dist origin r a b : 0 < r ->
  dist3 (grid_pos origin r a) (grid_pos origin r b) = r * norm3 (sub3 (to_v3 a) (to_v3 b)).
Proof.
  intros Hr. rewrite <- (Rabs_right r) at 3 by lra. rewrite <- norm3_scale. unfold dist3. f_equal.
  apply v3_ext; cbn; ring.
Qed.

(** Grid point inside (or on the boundary of) a cube. *)
Definition in_cube (c : cube) (q : v3i) : Prop :=
  let s := (2 ^ Z.of_nat (c_lev c))%Z in
  (vx (c_org c) <= vx q <= vx (c_org c) + s)%Z /\ (vy (c_org c) <= vy q <= vy (c_org c) + s)%Z /\
  (vz (c_org c) <= vz q <= vz (c_org c) + s)%Z.

Lemma hdiag_pow r l : 0 < r -> (1 <= l)%nat ->
  hdiag r l = r * sqrt 3 * IZR (2 ^ Z.of_nat (l - 1)).
Proof.
  intros Hr Hl. unfold hdiag.
  replace (3 * (2 ^ l * r) * (2 ^ l * r)) with (3 * ((2 ^ l * r) * (2 ^ l * r))) by ring.
  assert (Hp : 0 < 2 ^ l) by (apply pow_lt; lra).
  rewrite sqrt_mult by nra. rewrite sqrt_square by nra.
  destruct l as [|k]; [lia|]. replace (S k - 1)%nat with k by lia.
  rewrite <- pow_IZR. cbn [pow]. field.
Qed.

Lemma center_dist origin r c q : 0 < r -> (1 <= c_lev c)%nat -> in_cube c q ->
  dist3 (grid_pos origin r (cube_center c)) (grid_pos origin r q) <= hdiag r (c_lev c).
Proof.
  intros Hr Hl (Hx & Hy & Hz). rewrite grid_pos_dist by auto. rewrite hdiag_pow by auto.
  rewrite Rmult_assoc. apply Rmult_le_compat_l; [lra|].
  assert (Hs3 : sqrt 3 * sqrt 3 = 3) by (apply sqrt_sqrt; lra). pose proof (sqrt_pos 3).
  set (h := (2 ^ Z.of_nat (c_lev c - 1))%Z) in *.
  assert (Hh : (2 ^ Z.of_nat (c_lev c) = 2 * h)%Z).
  { unfold h. rewrite <- Z.pow_succ_r by lia. f_equal. lia. }
  rewrite Hh in Hx, Hy, Hz.
  assert (Hhp : (0 < h)%Z) by (apply Z.pow_pos_nonneg; lia).
  assert (Hhr : 0 < IZR h) by (now apply IZR_lt).
  apply sqrt_le_of; [nra|].
  replace (sqrt 3 * IZR h * (sqrt 3 * IZR h)) with (sqrt 3 * sqrt 3 * (IZR h * IZR h)) by ring. rewrite Hs3.
  unfold norm3sq, dot3, cube_center, to_v3; cbn [sub3 x3 y3 z3 vx vy vz v3i_add]. fold h.
  rewrite !plus_IZR.
  assert (G : forall o x, (o <= x <= o + 2 * h)%Z -> (IZR o + IZR h - IZR x) * (IZR o + IZR h - IZR x) <= IZR h * IZR h).
  { intros o x [H1 H2]. apply IZR_le in H1, H2. rewrite plus_IZR, mult_IZR in H2. nra. }
  pose proof (G _ _ Hx). pose proof (G _ _ Hy). pose proof (G _ _ Hz). lra.
Qed.

(** A cube found empty has no grid point of the other strict sign. *)
Lemma empty_signs f origin r c : lip3 f -> 0 < r -> (1 <= c_lev c)%nat ->
  is_empty f origin r c = true ->
  (forall q, in_cube c q -> 0 <= f (grid_pos origin r q)) \/
  (forall q, in_cube c q -> f (grid_pos origin r q) <= 0 /\
     (f (grid_pos origin r q) = 0 -> f (grid_pos origin r (cube_center c)) = - hdiag r (c_lev c))).
Proof.
  intros Hf Hr Hl He. unfold is_empty in He. apply Rleb_true in He.
  set (ctr := grid_pos origin r (cube_center c)) in *.
  destruct (Rle_or_lt 0 (f ctr)) as [H0|H0].
  - left. intros q Hq. pose proof (center_dist origin r c q Hr Hl Hq) as Hd. fold ctr in Hd.
    pose proof (Hf ctr (grid_pos origin r q)) as HL. rewrite Rabs_right in He by lra.
    revert HL. unfold Rabs. destruct (Rcase_abs _); lra.
  - right. intros q Hq. pose proof (center_dist origin r c q Hr Hl Hq) as Hd. fold ctr in Hd.
    pose proof (Hf ctr (grid_pos origin r q)) as HL. rewrite Rabs_left in He by lra.
    revert HL. unfold Rabs. destruct (Rcase_abs _); split; intros; lra.
Qed.

Lemma even_in_block z l : (1 <= l)%nat -> (z mod 2 = 0)%Z ->
  let s := (2 ^ Z.of_nat l)%Z in (z / s * s <= z /\ z + 2 <= z / s * s + s)%Z.
Proof.
  intros Hl Hz s. assert (Hs : (0 < s)%Z) by (apply Z.pow_pos_nonneg; lia).
  pose proof (Z.div_mod z s ltac:(lia)) as Hd. pose proof (Z.mod_pos_bound z s Hs) as Hb.
  assert (Hs2 : (s = 2 * 2 ^ Z.of_nat (l - 1))%Z).
  { unfold s. rewrite <- Z.pow_succ_r by lia. f_equal. lia. }
  set (t := (2 ^ Z.of_nat (l - 1))%Z) in *.
  assert (He : exists k, z = (2 * k)%Z) by (exists (z / 2)%Z; pose proof (Z.div_mod z 2); lia).
  destruct He as (k & ->). clearbody t. nia.
Qed.

Lemma corner_in_ancestor v l i : (1 <= l)%nat ->
  (vx v mod 2 = 0)%Z -> (vy v mod 2 = 0)%Z -> (vz v mod 2 = 0)%Z ->
  in_cube (ancestor v l) (leaf_corner v i).
Proof.
  intros Hl Hx Hy Hz.
  pose proof (even_in_block _ l Hl Hx) as Bx. pose proof (even_in_block _ l Hl Hy) as By.
  pose proof (even_in_block _ l Hl Hz) as Bz. cbv zeta in Bx, By, Bz.
  unfold in_cube, ancestor, leaf_corner; cbn [c_lev c_org vx vy vz].
  assert (Hc : let '(a, b, c) := corner i in (0 <= a <= 1 /\ 0 <= b <= 1 /\ 0 <= c <= 1)%Z).
  { do 8 (destruct i as [|i]; [cbn; lia|]). cbn; lia. }
  destruct (corner i) as [[a b] c]. cbn [v3i_add vx vy vz].
  revert Bx By Bz. generalize (2 ^ Z.of_nat l)%Z as s. intros s.
  generalize (vx v / s * s)%Z, (vy v / s * s)%Z, (vz v / s * s)%Z. intros. lia.
Qed.

(** A finest cell (even coordinates) of the octree. *)
Definition is_cell (v : v3i) : Prop := (vx v mod 2 = 0)%Z /\ (vy v mod 2 = 0)%Z /\ (vz v mod 2 = 0)%Z.

(** C06: no cell with a negative corner and a positive corner is ever pruned, at
    any level. *)
Theorem C06_pruning_sound f o degen root v i j :
  lip3 f -> 0 < o_res o -> is_cell v ->
  f (grid_pos (o_origin o) (o_res o) (leaf_corner v i)) < 0 ->
  f (grid_pos (o_origin o) (o_res o) (leaf_corner v j)) > 0 ->
  kept (octree_env degen f o) root v = true.
Proof.
  intros Hf Hr (Vx & Vy & Vz) Hi Hj. unfold kept. apply forallb_forall. intros l Hl. apply in_seq in Hl.
  apply negb_true_iff. cbn [octree_env e_empty].
  destruct (is_empty f (o_origin o) (o_res o) (ancestor v l)) eqn:E; auto. exfalso.
  destruct (empty_signs f (o_origin o) (o_res o) (ancestor v l) Hf Hr ltac:(cbn; lia) E) as [H|H].
  - specialize (H _ (corner_in_ancestor v l i ltac:(lia) Vx Vy Vz)). lra.
  - destruct (H _ (corner_in_ancestor v l j ltac:(lia) Vx Vy Vz)) as [H1 _]. lra.
Qed.

(** A tie: a cube whose centre value is exactly minus its half diagonal and which
    has a grid point of value exactly 0 (necessarily a corner). *)
Definition tie (f : v3 -> R) (o : octree_params) : Prop :=
  exists c q, (1 <= c_lev c < o_levels o)%nat /\ in_cube c q /\
    f (grid_pos (o_origin o) (o_res o) (cube_center c)) = - hdiag (o_res o) (c_lev c) /\
    f (grid_pos (o_origin o) (o_res o) q) = 0.

Lemma uniform_leaf degen f origin r v :
  (forall i, (i < 8)%nat -> 0 <= f (grid_pos origin r (leaf_corner v i))) \/
  (forall i, (i < 8)%nat -> f (grid_pos origin r (leaf_corner v i)) < 0) ->
  leaf degen f origin r v = [].
Proof.
  intros H. unfold leaf, mc_triangles, mc_to_triangles.
  set (val := fun i => f (grid_pos origin r (leaf_corner v i))) in *.
  assert (E : mc_index (fun i => Rltb (val i) 0) = 0%nat \/ mc_index (fun i => Rltb (val i) 0) = 255%nat).
  { destruct H as [H|H].
    - left. unfold mc_index. cbn [seq fold_left].
      rewrite !(proj2 (Rltb_false _ _)) by (apply H; lia). reflexivity.
    - right. unfold mc_index. cbn [seq fold_left].
      rewrite !(proj2 (Rltb_true _ _)) by (apply H; lia). reflexivity. }
  cbv zeta. change (mc_index _) with (mc_index (fun i => Rltb (val i) 0)) at 1.
  destruct E as [-> | ->]; reflexivity.
Qed.

Lemma evens_mod2 n z : In z (evens 0 n) -> (z mod 2 = 0)%Z.
Proof.
  intros H. apply In_evens in H as (i & _ & ->). rewrite Z.add_0_l, Z.mul_comm. apply Z.mod_mul. lia.
Qed.

(** C06: without ties, the triangles of the octree are those of marching cubes run
    on every cell of the full uniform grid. *)
Theorem C06_full_grid f o degen :
  lip3 f -> 0 < o_res o -> ~ tie f o ->
  surface_triangles (octree_env degen f o) =
  flat_map (leaf degen f (o_origin o) (o_res o)) (cells (V3I 0 0 0) (2 ^ (o_levels o - 1 - 1))).
Proof.
  intros Hf Hr Ht. unfold surface_triangles. cbn [e_levels octree_env e_leaf].
  assert (HH : forall v, In v (cells (V3I 0 0 0) (2 ^ (o_levels o - 1 - 1))) ->
     kept (octree_env degen f o) (o_levels o - 1) v = false -> leaf degen f (o_origin o) (o_res o) v = []).
  { intros v Hv Hk. apply In_cells in Hv as (Hx & Hy & Hz). cbn [vx vy vz] in *.
    apply evens_mod2 in Hx, Hy, Hz.
    assert (Hl : exists l, (1 <= l < o_levels o - 1)%nat /\ is_empty f (o_origin o) (o_res o) (ancestor v l) = true).
    { unfold kept in Hk. apply not_true_iff_false in Hk.
      destruct (existsb (fun l => e_empty (octree_env degen f o) (ancestor v l)) (seq 1 (o_levels o - 1 - 1))) eqn:E.
      - apply existsb_exists in E as (l & Hl & E). apply in_seq in Hl. exists l. split; [lia|exact E].
      - exfalso. apply Hk. apply forallb_forall. intros l Hl. apply negb_true_iff.
        destruct (e_empty (octree_env degen f o) (ancestor v l)) eqn:E2; auto.
        rewrite <- E. symmetry. apply existsb_exists. exists l. auto. }
    destruct Hl as (l & Hl & E). apply uniform_leaf.
    destruct (empty_signs f (o_origin o) (o_res o) (ancestor v l) Hf Hr ltac:(cbn; lia) E) as [H|H].
    - left. intros i _. apply H. apply corner_in_ancestor; auto; lia.
    - right. intros i _.
      assert (Hin : in_cube (ancestor v l) (leaf_corner v i)) by (apply corner_in_ancestor; auto; lia).
      destruct (H _ Hin) as [H1 H2]. destruct H1 as [H1|H1]; auto. exfalso. apply Ht.
      exists (ancestor v l), (leaf_corner v i). split; [cbn; lia|]. repeat split; try apply Hin; auto. }
  revert HH. induction (cells _ _) as [|v l IH]; intros HH; cbn [filter flat_map]; auto.
  destruct (kept (octree_env degen f o) (o_levels o - 1) v) eqn:E; cbn [flat_map].
  - rewrite IH; auto. intros; apply HH; auto. now right.
  - rewrite (HH v (or_introl eq_refl) E). cbn [app]. apply IH. intros; apply HH; auto. now right.
Qed.

Lemma sqrt12 : sqrt 12 = 2 * sqrt 3.
Proof.
  replace 12 with (2 * 2 * 3) by ring. rewrite sqrt_mult by lra. rewrite sqrt_square by lra. reflexivity.
Qed.

(** With a tie the literal statement (a cell with a negative and a non-negative
    corner is always meshed) fails: the ball of radius 2*sqrt 3 around (6,6,6)
    rendered with meshCells = 8 in a bounding box that NewOctreeRenderer enlarges
    to [0,16]^3.  The finest cell at (4,4,4) has corner value 0 at (4,4,4) and a
    negative value at (6,4,4), but the level 2 cube at (4,4,4) is pruned. *)
Definition tie_sdf (p : v3) : R := dist3 p (V3 6 6 6) - 2 * sqrt 3.
Definition tie_bounds : box3 := new_box3 (V3 8 8 8) (elem3 (1600/101)).
Theorem C06_zero_corner_refuted :
  let o := OParams (V3 0 0 0) 1 5 in
  let v := V3I 4 4 4 in
  new_octree tie_bounds 8 = Ok o /\ lip3 tie_sdf /\ (forall p, tie_sdf p < 0 -> in3 tie_bounds p) /\
  In v (cells (V3I 0 0 0) (2 ^ (o_levels o - 1 - 1))) /\
  tie_sdf (grid_pos (o_origin o) (o_res o) (leaf_corner v 0)) = 0 /\
  tie_sdf (grid_pos (o_origin o) (o_res o) (leaf_corner v 1)) < 0 /\
  (forall degen, kept (octree_env degen tie_sdf o) (o_levels o - 1) v = false).
Proof.
  intros o v. pose proof (sqrt_pos 3) as S3. assert (S33 : sqrt 3 * sqrt 3 = 3) by (apply sqrt_sqrt; lra).
  split; [|split; [|split; [|split; [|split; [|split]]]]].
  - unfold new_octree, tie_bounds. cbn [Z.ltb Z.compare].
    assert (E : scale_about_center3 (new_box3 (V3 8 8 8) (elem3 (1600 / 101))) (101 / 100) = Box3 (V3 0 0 0) (V3 16 16 16)).
    { unfold scale_about_center3, new_box3, center3, size3, sub3, add3, scale3, elem3; cbn.
      f_equal; apply v3_ext; cbn; field. }
    rewrite E. unfold size3, vmax3; cbn [sub3 min3 max3 x3 y3 z3].
    assert (M : Rmax (16 - 0) (Rmax (16 - 0) (16 - 0)) = 16) by (rmm; lra). rewrite M.
    assert (Rr : 1 / 2 * 16 / 8 = 1) by field. rewrite Rr.
    assert (L : log2R (16 / 1) = INR 4) by (rewrite <- log2_pow; f_equal; field). rewrite L.
    assert (C : ceilR (INR 4) = 4%Z).
    { pose proof (ceilR_spec (INR 4)) as [H1 H2]. cbn in H1, H2.
      assert (H3 : IZR 4 <= IZR (ceilR (1+1+1+1))) by lra. assert (H4 : IZR (ceilR (1+1+1+1)) < IZR 5) by lra.
      apply le_IZR in H3. apply lt_IZR in H4. cbn. lia. }
    rewrite C. reflexivity.
  - intros p q. unfold tie_sdf. pose proof (dist3_triangle p q (V3 6 6 6)). pose proof (dist3_triangle q p (V3 6 6 6)).
    rewrite (dist3_sym q p) in *. rmm; lra.
  - intros p Hp. unfold tie_sdf in Hp. pose proof (abs_le_norm3 (sub3 p (V3 6 6 6))) as (A & B & C).
    fold (dist3 p (V3 6 6 6)) in A, B, C. cbn in A, B, C.
    assert (sqrt 3 < 2) by (apply sqrt_lt_of; lra).
    unfold in3, tie_bounds, new_box3, elem3; cbn. rmm; lra.
  - unfold v. apply In_cells. cbn [vx vy vz]. repeat split; apply In_evens; exists 2%nat; cbn; split; lia.
  - unfold tie_sdf. replace (dist3 _ _) with (sqrt 12); [rewrite sqrt12; ring|].
    unfold dist3, norm3. f_equal. unfold norm3sq, dot3, grid_pos, leaf_corner, to_v3; cbn. ring.
  - unfold tie_sdf. replace (dist3 _ _) with (sqrt 8).
    + rewrite <- sqrt12. assert (sqrt 8 < sqrt 12) by (apply sqrt_lt_1; lra). lra.
    + unfold dist3, norm3. f_equal. unfold norm3sq, dot3, grid_pos, leaf_corner, to_v3; cbn. ring.
  - intros degen. apply not_true_iff_false. unfold kept. rewrite forallb_forall. intros H.
    assert (Hin : In 2%nat (seq 1 (o_levels o - 1 - 1))) by (cbn; auto).
    specialize (H 2%nat Hin). apply negb_true_iff in H. cbn [octree_env e_empty] in H.
    assert (E : is_empty tie_sdf (o_origin o) (o_res o) (ancestor v 2) = true); [|congruence].
    unfold is_empty. apply Rleb_true. change (c_lev (ancestor v 2)) with 2%nat.
    rewrite hdiag_pow by (cbn; lra || lia). cbn [o_res o Nat.sub].
    change (IZR (2 ^ Z.of_nat 1)) with 2. unfold tie_sdf.
    replace (dist3 _ _) with 0; [rewrite Rabs_left1; nra|].
    symmetry. rewrite <- (dist3_refl (V3 6 6 6)). f_equal. apply v3_ext; cbn; ring.
Qed.

(** ** C16 *)
Definition dbl (p : gpoint) : v3i := let '(x, y, z) := p in V3I (2 * x) (2 * y) (2 * z).
Lemma flat_map_map {A B C} (g : A -> B) (f : B -> list C) l : flat_map f (map g l) = flat_map (fun a => f (g a)) l.
Proof. induction l; cbn; congruence. Qed.
Lemma cells_dbl n : cells (V3I 0 0 0) n = map dbl (grid_cells n n n).
Proof.
  unfold cells, grid_cells, evens; cbn [vx vy vz].
  rewrite !flat_map_concat_map, concat_map, !map_map. f_equal. apply map_ext. intros i.
  rewrite !flat_map_concat_map, concat_map, !map_map. f_equal. apply map_ext. intros j.
  rewrite !map_map. apply map_ext. intros k. reflexivity.
Qed.

Section Mesh.
  Context (f : v3 -> R) (origin : v3) (r : R).
  Let pos (p : gpoint) : v3 := grid_pos origin r (dbl p).
  Let neg (p : gpoint) : bool := Rltb (f (pos p)) 0.
  Definition gvertex (g : gedge) : v3 :=
    let '(a, b) := gend g in mc_interpolate 0 (pos a) (pos b) (f (pos a)) (f (pos b)).

  Lemma leaf_corner_dbl c i : leaf_corner (dbl c) i = dbl (padd c (corner i)).
  Proof.
    unfold leaf_corner. destruct c as [[x y] z], (corner i) as [[a b] d].
    unfold dbl, padd, v3i_add. cbn [vx vy vz]. f_equal; lia.
  Qed.

  Lemma leaf_mesh degen c : leaf degen f origin r (dbl c) =
    filter (fun t => negb (degen t))
      (map (fun '(a, b, d) => (gvertex a, gvertex b, gvertex d)) (cell_triangles neg c)).
  Proof.
    unfold leaf. rewrite C11_triangles. f_equal. unfold cell_triangles. rewrite map_map.
    pose proof (C11_tables (fun i => f (grid_pos origin r (leaf_corner (dbl c) i))) 0) as (_ & H & _).
    assert (En : forall i, Rltb (f (grid_pos origin r (leaf_corner (dbl c) i))) 0 = cell_neg neg c i).
    { intros i. unfold cell_neg, neg, pos. now rewrite leaf_corner_dbl. }
    assert (Ei : mc_index (fun i => Rltb (f (grid_pos origin r (leaf_corner (dbl c) i))) 0) = mc_index (cell_neg neg c)).
    { unfold mc_index. cbn [seq fold_left]. rewrite !En. reflexivity. }
    cbv beta in H |- *. rewrite Ei in H |- *.
    apply map_ext_in. intros [[a b] d] Hin. destruct (H a b d Hin) as (La & Lb & Ld & _ & _ & _ & Sa & Sb & Sd).
    assert (G : forall e, (e < 12)%nat -> sign_change (fun i => Rltb (f (grid_pos origin r (leaf_corner (dbl c) i))) 0) e ->
      mc_interpolate 0 (grid_pos origin r (leaf_corner (dbl c) (fst (edge_ends e))))
        (grid_pos origin r (leaf_corner (dbl c) (snd (edge_ends e))))
        (f (grid_pos origin r (leaf_corner (dbl c) (fst (edge_ends e)))))
        (f (grid_pos origin r (leaf_corner (dbl c) (snd (edge_ends e))))) = gvertex (grid_edge c e)).
    { intros e He Hs. unfold gvertex. pose proof (cell_edge_ends c e He) as Hg. cbv zeta in Hg.
      unfold sign_change in Hs. rewrite (surjective_pairing (edge_ends e)) in Hs.
      rewrite !leaf_corner_dbl in *. fold (pos (padd c (corner (fst (edge_ends e))))) in *.
      fold (pos (padd c (corner (snd (edge_ends e))))) in *.
      destruct Hg as [-> | ->]; auto.
      apply C14_interpolation.
      revert Hs. rcase; intros Hs; try congruence; lra. }
    now rewrite !G.
  Qed.
End Mesh.

Lemma filter_flat_map {A B} (p : B -> bool) (g : A -> list B) l :
  flat_map (fun a => filter p (g a)) l = filter p (flat_map g l).
Proof. induction l; cbn; auto. now rewrite filter_app, IHl. Qed.

Lemma mesh_of_grid degen f origin r n :
  flat_map (leaf degen f origin r) (cells (V3I 0 0 0) n) =
  filter (fun t => negb (degen t))
    (map (fun '(a, b, d) => (gvertex f origin r a, gvertex f origin r b, gvertex f origin r d))
       (grid_mesh (fun p => Rltb (f (grid_pos origin r (dbl p))) 0) n n n)).
Proof.
  rewrite cells_dbl, flat_map_map. unfold grid_mesh.
  rewrite (flat_map_ext _ _ (leaf_mesh f origin r degen)). rewrite filter_flat_map. f_equal.
  rewrite !flat_map_concat_map, concat_map, map_map. reflexivity.
Qed.

(** Closedness survives renaming vertices, reordering triangles, and dropping
    triangles with two equal vertices. *)
Lemma closed_map {V W} (h : V -> W) m :
  closed m -> closed (map (fun '(a, b, c) => (h a, h b, h c)) m).
Proof.
  unfold closed. rewrite mesh_dirs_map. fold (mesh_dirs m). intros H.
  rewrite map_map. cbn [swap fst snd].
  replace (map (fun x => swap (h (fst x), h (snd x))) (mesh_dirs m))
    with (map (fun d => (h (fst d), h (snd d))) (map swap (mesh_dirs m))).
  - now apply Permutation_map.
  - rewrite map_map. reflexivity.
Qed.
Lemma closed_perm {V} (m m' : list (V * V * V)) : Permutation m m' -> closed m -> closed m'.
Proof.
  intros Hp. assert (H : Permutation (mesh_dirs m) (mesh_dirs m')) by now apply Permutation_flat_map.
  unfold closed. now rewrite H.
Qed.

Definition two_equal {V} (t : V * V * V) : Prop := let '(a, b, c) := t in a = b \/ b = c \/ a = c.

Lemma perm_cancel_self {A} (s l : list A) (g : A -> A) :
  Permutation s (map g s) -> Permutation (s ++ l) (map g (s ++ l)) -> Permutation l (map g l).
Proof.
  intros H1 H2. rewrite map_app, <- H1 in H2. now apply Permutation_app_inv_l in H2.
Qed.
Lemma filter_perm_split {A} (p : A -> bool) l :
  Permutation l (filter (fun x => negb (p x)) l ++ filter p l).
Proof.
  induction l as [|a l IH]; cbn; auto. destruct (p a); cbn.
  - rewrite IH at 1. apply Permutation_middle.
  - now constructor.
Qed.
Lemma two_equal_self {V} (t : V * V * V) : two_equal t -> Permutation (tri_dirs t) (map swap (tri_dirs t)).
Proof.
  destruct t as [[a b] c]; cbn. unfold swap; cbn. intros [-> | [-> | ->]].
  - apply perm_skip, perm_swap.
  - apply (Permutation_rev [(a, c); (c, c); (c, a)]).
  - apply perm_swap.
Qed.
Lemma closed_drop {V} (p : V * V * V -> bool) m :
  (forall t, p t = true -> two_equal t) -> closed m -> closed (filter (fun t => negb (p t)) m).
Proof.
  intros Hp Hm. apply (closed_perm _ _ (filter_perm_split p m)) in Hm.
  unfold closed in *. rewrite mesh_dirs_app in Hm.
  rewrite (Permutation_app_comm (mesh_dirs (filter (fun x => negb (p x)) m))) in Hm.
  apply (perm_cancel_self (mesh_dirs (filter p m)) _ swap); auto.
  clear Hm. induction m as [|t m IH]; cbn [filter]; [constructor|].
  destruct (p t) eqn:E; auto. cbn [mesh_dirs flat_map]. rewrite map_app.
  apply Permutation_app; auto. apply two_equal_self. auto.
Qed.

Lemma neg_strict f b p : lip3 f -> (forall q, f q < 0 -> in3 b q) -> f p < 0 ->
  x3 (min3 b) < x3 p < x3 (max3 b) /\ y3 (min3 b) < y3 p < y3 (max3 b) /\ z3 (min3 b) < z3 p < z3 (max3 b).
Proof.
  intros Hf Hb Hp. set (e := - f p / 2). assert (He : 0 < e) by (unfold e; lra).
  assert (G : forall d, norm3 d <= e -> in3 b (add3 p d)).
  { intros d Hd. apply Hb. pose proof (Hf (add3 p d) p) as HL. unfold dist3 in HL.
    replace (sub3 (add3 p d) p) with d in HL by (apply v3_ext; cbn; ring).
    revert HL. unfold Rabs. destruct (Rcase_abs _); unfold e in *; lra. }
  assert (N : forall d, norm3sq d <= e * e -> norm3 d <= e) by (intros; apply sqrt_le_of; lra).
  assert (G1 := G (V3 e 0 0) ltac:(apply N; unfold norm3sq, dot3; cbn; nra)).
  assert (G2 := G (V3 (-e) 0 0) ltac:(apply N; unfold norm3sq, dot3; cbn; nra)).
  assert (G3 := G (V3 0 e 0) ltac:(apply N; unfold norm3sq, dot3; cbn; nra)).
  assert (G4 := G (V3 0 (-e) 0) ltac:(apply N; unfold norm3sq, dot3; cbn; nra)).
  assert (G5 := G (V3 0 0 e) ltac:(apply N; unfold norm3sq, dot3; cbn; nra)).
  assert (G6 := G (V3 0 0 (-e)) ltac:(apply N; unfold norm3sq, dot3; cbn; nra)).
  unfold in3 in *; cbn in *. lra.
Qed.

Lemma filter_length {A} (p : A -> bool) l : (length (filter p l) <= length l)%nat.
Proof. induction l as [|a l IH]; cbn; auto. destruct (p a); cbn; lia. Qed.

(** C16, end to end: a 1-Lipschitz SDF whose negative region lies within its
    bounds, rendered by NewOctreeRenderer and read to io.EOF with any buffers,
    concurrency and schedule, without ties: the delivered triangles form a closed
    oriented surface.  Degenerate triangles may be dropped as long as only
    triangles with two coincident vertices are dropped; [degen := fun _ => false]
    drops none. *)
Theorem C16_closed f bounds m o degen conc st ts dst sched st' dst' n :
  lip3 f -> (forall p, f p < 0 -> in3 bounds p) ->
  0 < vmax3 (size3 bounds) -> (2 <= m <= 2 ^ 61)%Z ->
  new_octree bounds m = Ok o -> ~ tie f o ->
  (forall t, degen t = true -> two_equal t) ->
  let E := octree_env degen f o in
  reachable E conc st ts ->
  read_triangles (E := E) st dst sched = Returned st' dst' n true ->
  closed (V := v3) (ts ++ firstn n dst').
Proof.
  intros Hf Hb Hl Hm Ho Ht Hdg E Hr Hc.
  destruct (C07_grid bounds m Hm Hl) as (o' & k & Ho' & Horg & Hlev & Hres & Hcells & Hroot).
  rewrite Ho in Ho'. injection Ho' as <-.
  assert (Hmr : 2 <= IZR m) by (change 2 with (IZR 2); apply IZR_le; lia).
  assert (Hrp : 0 < o_res o).
  { assert (0 < 101 / 100 * vmax3 (size3 bounds) / IZR m) by (apply Rdiv_lt_0_compat; lra). lra. }
  assert (Hwf : wf_env E).
  { split; [|cbn; rewrite Hlev; lia]. intros v. cbn [e_leaf E octree_env]. unfold leaf.
    rewrite C11_triangles. eapply Nat.le_trans; [apply filter_length|]. rewrite map_length.
    apply (C11_tables (fun i => f (grid_pos (o_origin o) (o_res o) (leaf_corner v i))) 0). }
  pose proof (C01_exactly_once E conc st ts dst sched st' dst' n Hwf Hr Hc) as Hperm.
  apply Permutation_sym in Hperm. apply (closed_perm _ _ Hperm).
  unfold E. rewrite C06_full_grid by auto. rewrite mesh_of_grid.
  apply closed_drop; auto. apply closed_map. apply C12_watertight.
  rewrite Hlev. replace (S (S k) - 1 - 1)%nat with k by lia.
  set (N := (2 ^ k)%nat).
  assert (HN : IZR (Z.of_nat N) = 2 ^ k) by (rewrite <- INR_IZR_INZ; unfold N; now rewrite pow_INR).
  intros x y z Hx Hy Hz Hbd. apply Rltb_false.
  destruct (Rle_or_lt 0 (f (grid_pos (o_origin o) (o_res o) (dbl (x, y, z))))) as [|Hneg]; auto. exfalso.
  pose proof (neg_strict f bounds _ Hf Hb Hneg) as Hs. apply Hb in Hneg.
  destruct Hroot as [R1 R2]. destruct (R2 _ Hneg) as [_ R3].
  assert (Hsz : 0 < x3 (size3 bounds) /\ 0 < y3 (size3 bounds) /\ 0 < z3 (size3 bounds))
    by (unfold size3; cbn; lra).
  destruct R3 as (R4 & R5 & R6). specialize (R4 ltac:(tauto)). specialize (R5 ltac:(tauto)). specialize (R6 ltac:(tauto)).
  unfold grid_pos, dbl, to_v3, elem3 in R4, R5, R6. cbn [x3 y3 z3 add3 scale3 min3 max3 vx vy vz] in R4, R5, R6.
  rewrite mult_IZR in R4, R5, R6.
  destruct Hbd as [->|[->|[->|[->|[->| ->]]]]]; rewrite ?HN in *; lra.
Qed.

(** The unit ball rendered with meshCells = 2 meets all the hypotheses. *)
Definition unit_ball (p : v3) : R := dist3 p zero3 - 1.
Example C16_nonvacuous :
  let b := Box3 (V3 (-1) (-1) (-1)) (V3 1 1 1) in
  lip3 unit_ball /\ (forall p, unit_ball p < 0 -> in3 b p) /\ 0 < vmax3 (size3 b) /\
  exists o, new_octree b 2 = Ok o /\ ~ tie unit_ball o.
Proof.
  cbv zeta. split; [|split; [|split]].
  - intros p q. unfold unit_ball. pose proof (dist3_triangle p q zero3). pose proof (dist3_triangle q p zero3).
    rewrite (dist3_sym q p) in *. rmm; lra.
  - intros p Hp. unfold unit_ball in Hp. pose proof (abs_le_norm3 (sub3 p zero3)) as (A & B & C).
    fold (dist3 p zero3) in A, B, C. cbn in A, B, C. unfold in3; cbn. rmm; lra.
  - unfold vmax3; cbn. rmm; lra.
  - set (b := Box3 (V3 (-1) (-1) (-1)) (V3 1 1 1)).
    assert (Hv : vmax3 (size3 b) = 2) by (unfold vmax3; cbn; rmm; lra).
    destruct (C07_grid b 2 ltac:(lia) ltac:(lra)) as (o & k & Ho & Horg & _ & Hres & _).
    exists o. split; auto. intros (c & q & _ & _ & _ & Hq).
    rewrite Hv in Hres. assert (Hr : o_res o = 101/200) by lra.
    assert (Ho3 : o_origin o = V3 (-101/100) (-101/100) (-101/100)).
    { rewrite Horg. unfold scale_about_center3, new_box3, center3, size3, b; cbn.
      apply v3_ext; cbn; field. }
    unfold unit_ball in Hq. assert (Hn : dist3 (grid_pos (o_origin o) (o_res o) q) zero3 = 1) by lra.
    assert (Hsq : norm3sq (sub3 (grid_pos (o_origin o) (o_res o) q) zero3) = 1).
    { rewrite <- norm3_sq. unfold dist3 in Hn. rewrite Hn. ring. }
    rewrite Ho3, Hr in Hsq. destruct q as [qx qy qz].
    unfold norm3sq, dot3, grid_pos, to_v3 in Hsq; cbn [sub3 add3 scale3 x3 y3 z3 vx vy vz zero3] in Hsq.
    assert (HI : (10201 * ((qx - 2) * (qx - 2) + (qy - 2) * (qy - 2) + (qz - 2) * (qz - 2)) = 40000)%Z).
    { apply eq_IZR. rewrite mult_IZR, !plus_IZR, !mult_IZR, !minus_IZR.
      replace 40000 with (40000 * 1) by ring. rewrite <- Hsq. field. }
    lia.
Qed.
