(** Grid map (C55), ray casting (C56), material compensation (C75). *)
From Coq Require Import Reals Lra Psatz List Bool ZArith Lia.
From Verif Require Import Prelude Vec BoxModel MatrixModel SdfModel UtilModel Trig PropsMatrix Grades PropsBlend PropsLip PropsBool.
Import ListNotations.
Local Open Scope R_scope.

Lemma Rltb_spec a b : BoolSpec (a < b) (b <= a) (Rltb a b).
Proof. destruct (Rltb a b) eqn:E; constructor; [now apply Rltb_true|now apply Rltb_false]. Qed.
Lemma Rleb_spec a b : BoolSpec (a <= b) (b < a) (Rleb a b).
Proof. destruct (Rleb a b) eqn:E; constructor; [now apply Rleb_true|now apply Rleb_false]. Qed.
Lemma Reqb_spec a b : BoolSpec (a = b) (a <> b) (Reqb a b).
Proof. destruct (Reqb a b) eqn:E; constructor; [now apply Reqb_true|now apply Reqb_false]. Qed.
Lemma NoDup_app_intro {A} (l1 l2 : list A) : NoDup l1 -> NoDup l2 -> (forall x, In x l1 -> ~ In x l2) -> NoDup (l1 ++ l2).
Proof.
  intros N1 N2 D. induction N1 as [|a l NI N IH]; [exact N2|]. cbn [app]. constructor.
  - intros I. apply in_app_or in I. destruct I as [I|I]; [contradiction|]. apply (D a); [now left|exact I].
  - apply IH. intros x I. apply D. now right.
Qed.

(** ** C55 *)
(** What "the box has positive extent and the grid has cells" means, and the geometric
    cell: column i, row j counted from the bottom, or from the top when flipped. *)
Definition grid_ok (bb : box2) (n0 n1 : Z) : Prop :=
  x2 (min2 bb) < x2 (max2 bb) /\ y2 (min2 bb) < y2 (max2 bb) /\ (0 < n0)%Z /\ (0 < n1)%Z.
Definition on_cell (lo hi : R) (n i : Z) (x : R) : Prop :=
  lo + IZR i * ((hi - lo) / IZR n) <= x < lo + (IZR i + 1) * ((hi - lo) / IZR n).
Definition on_cell_top (lo hi : R) (n i : Z) (x : R) : Prop :=
  hi - (IZR i + 1) * ((hi - lo) / IZR n) < x <= hi - IZR i * ((hi - lo) / IZR n).
Definition in_cell (bb : box2) (n0 n1 : Z) (flip : bool) (i j : Z) (p : v2) : Prop :=
  on_cell (x2 (min2 bb)) (x2 (max2 bb)) n0 i (x2 p) /\
  (if flip then on_cell_top (y2 (min2 bb)) (y2 (max2 bb)) n1 j (y2 p) else on_cell (y2 (min2 bb)) (y2 (max2 bb)) n1 j (y2 p)).

Lemma truncR_floor x i : 0 <= x -> IZR i <= x < IZR i + 1 -> truncR x = i.
Proof.
  intros P H. unfold truncR. destruct (Rltb_spec x 0); [lra|].
  pose proof (base_Int_part x) as [B1 B2]. assert (U : IZR (Int_part x) < IZR (i + 1)) by (rewrite plus_IZR; lra).
  assert (W : IZR i < IZR (Int_part x + 1)) by (rewrite plus_IZR; lra). apply lt_IZR in U, W. lia.
Qed.
Lemma truncR_id x i : 0 <= x -> truncR x = i -> IZR i <= x < IZR i + 1.
Proof.
  intros P H. unfold truncR in H. destruct (Rltb_spec x 0); [lra|]. subst i. pose proof (base_Int_part x). lra.
Qed.

Theorem C55_accepts bb n0 n1 flip :
  new_map2 bb n0 n1 flip <> Panicked /\ ((exists m, new_map2 bb n0 n1 flip = Ok m) <-> grid_ok bb n0 n1).
Proof.
  unfold new_map2, grid_ok. cbn. destruct (Rleb_spec (x2 (max2 bb) - x2 (min2 bb)) 0), (Rleb_spec (y2 (max2 bb) - y2 (min2 bb)) 0);
  cbn [orb]; try (split; [discriminate|]; split; [intros (m & Q); discriminate|intros; lra]).
  destruct (Z.leb_spec n0 0), (Z.leb_spec n1 0); cbn [orb]; (split; [discriminate|]); (split; [intros (m & Q); try discriminate|]); try lia.
  - split; [lra|]. split; [lra|]. lia.
  - intros _. eexists. reflexivity.
Qed.
Lemma new_map2_ok bb n0 n1 flip m : new_map2 bb n0 n1 flip = Ok m ->
  grid_ok bb n0 n1 /\ m = Map2 bb n0 n1 (V2 ((x2 (max2 bb) - x2 (min2 bb)) / IZR n0) ((y2 (max2 bb) - y2 (min2 bb)) / IZR n1)) flip.
Proof.
  intros E. split; [apply (proj2 (C55_accepts bb n0 n1 flip)); now exists m|].
  unfold new_map2 in E. cbn in E. destruct (_ || _)%bool in E; [discriminate|]. destruct (_ || _)%bool in E; [discriminate|]. now injection E as <-.
Qed.
Lemma cell_pos lo hi n : lo < hi -> (0 < n)%Z -> 0 < (hi - lo) / IZR n.
Proof. intros. apply Rdiv_lt_0_compat; [lra|]. now apply (IZR_lt 0). Qed.
(** The centre of every cell lies strictly inside that cell, and the cell is in the box. *)
Theorem C55_centre bb n0 n1 flip m i j : new_map2 bb n0 n1 flip = Ok m ->
  in_cell bb n0 n1 flip i j (to_v2 m i j) /\
  x2 (to_v2 m i j) = x2 (min2 bb) + (IZR i + 1/2) * ((x2 (max2 bb) - x2 (min2 bb)) / IZR n0) /\
  y2 (to_v2 m i j) = (if flip then y2 (max2 bb) - (IZR j + 1/2) * ((y2 (max2 bb) - y2 (min2 bb)) / IZR n1)
                      else y2 (min2 bb) + (IZR j + 1/2) * ((y2 (max2 bb) - y2 (min2 bb)) / IZR n1)) /\
  ((0 <= i < n0)%Z -> (0 <= j < n1)%Z ->
   x2 (min2 bb) < x2 (to_v2 m i j) < x2 (max2 bb) /\ y2 (min2 bb) < y2 (to_v2 m i j) < y2 (max2 bb)).
Proof.
  intros E. apply new_map2_ok in E. destruct E as ((X & Y & P0 & P1) & ->).
  pose proof (cell_pos _ _ _ X P0) as D0. pose proof (cell_pos _ _ _ Y P1) as D1.
  assert (E0 : (x2 (max2 bb) - x2 (min2 bb)) = IZR n0 * ((x2 (max2 bb) - x2 (min2 bb)) / IZR n0)) by (field; apply (not_0_IZR n0); lia).
  assert (E1 : (y2 (max2 bb) - y2 (min2 bb)) = IZR n1 * ((y2 (max2 bb) - y2 (min2 bb)) / IZR n1)) by (field; apply (not_0_IZR n1); lia).
  unfold to_v2, in_cell, on_cell, on_cell_top. cbn [m_bb m_n0 m_n1 m_delta m_flipy x2 y2].
  set (dx := (x2 (max2 bb) - x2 (min2 bb)) / IZR n0) in *. set (dy := (y2 (max2 bb) - y2 (min2 bb)) / IZR n1) in *. clearbody dx dy.
  assert (H : (0 <= i < n0)%Z -> (0 <= j < n1)%Z -> 0 <= IZR i <= IZR n0 - 1 /\ 0 <= IZR j <= IZR n1 - 1).
  { intros [A B] [C D]. rewrite <- !minus_IZR. repeat split; apply IZR_le; lia. }
  unfold add2. destruct flip; cbn [x2 y2]; (split; [repeat split; nra|]); (split; [lra|]); (split; [lra|]); intros I J; specialize (H I J); destruct H; repeat split; nra.
Qed.
(** ToV2i sends exactly the points of a (half-open) cell to its index, so it inverts ToV2. *)
Theorem C55_round_trip bb n0 n1 flip m i j : new_map2 bb n0 n1 flip = Ok m -> (0 <= i)%Z -> (0 <= j)%Z ->
  to_v2i m (to_v2 m i j) = (i, j) /\
  forall p, x2 (min2 bb) <= x2 p -> (if flip then y2 p <= y2 (max2 bb) else y2 (min2 bb) <= y2 p) ->
    (to_v2i m p = (i, j) <-> in_cell bb n0 n1 flip i j p).
Proof.
  intros E I J. pose proof (C55_centre bb n0 n1 flip m i j E) as (C & CX & CY & _). pose proof (new_map2_ok _ _ _ _ _ E) as ((X & Y & P0 & P1) & M).
  pose proof (cell_pos _ _ _ X P0) as D0. pose proof (cell_pos _ _ _ Y P1) as D1.
  assert (I' : 0 <= IZR i) by (now apply IZR_le). assert (J' : 0 <= IZR j) by (now apply IZR_le).
  assert (G : forall p, x2 (min2 bb) <= x2 p -> (if flip then y2 p <= y2 (max2 bb) else y2 (min2 bb) <= y2 p) ->
    (to_v2i m p = (i, j) <-> in_cell bb n0 n1 flip i j p)).
  { clear C CX CY. intros p HX HY. subst m. unfold to_v2i, in_cell, on_cell, on_cell_top. cbn [m_bb m_n0 m_n1 m_delta m_flipy].
    set (dx := (x2 (max2 bb) - x2 (min2 bb)) / IZR n0) in *. set (dy := (y2 (max2 bb) - y2 (min2 bb)) / IZR n1) in *. clearbody dx dy.
    assert (T : forall a d k, 0 < d -> 0 <= a -> (truncR (a / d) = k <-> IZR k * d <= a < (IZR k + 1) * d)).
    { clear. intros a d k D A. assert (Q : a = a / d * d) by (field; lra). assert (0 <= a / d) by (apply Rmult_le_pos; [lra|]; left; now apply Rinv_0_lt_compat).
      split.
      - intros T. apply truncR_id in T; [|assumption]. split; nra.
      - intros T. apply truncR_floor; [assumption|]. set (q := a / d) in *. clearbody q. split; [apply Rnot_lt_le|apply Rnot_le_lt]; intros N; nra. }
    unfold sub2. destruct flip; cbn [x2 y2].
    - split.
      + intros Q. injection Q as Q0 Q1. apply T in Q0; [|lra|lra]. apply T in Q1; [|lra|lra]. lra.
      + intros [A B]. f_equal; apply T; lra.
    - split.
      + intros Q. injection Q as Q0 Q1. apply T in Q0; [|lra|lra]. apply T in Q1; [|lra|lra]. lra.
      + intros [A B]. f_equal; apply T; lra. }
  split; [|exact G]. apply G; [| |exact C].
  - rewrite CX. nra.
  - rewrite CY. destruct flip; nra.
Qed.
(** generateMesh2D: exactly the cell centres with value <= 0, column by column. *)
Theorem C55_mesh s n0 n1 :
  generate_mesh2d s n0 n1 <> Panicked /\
  ((exists l, generate_mesh2d s n0 n1 = Ok l) <-> grid_ok (bb2 s) n0 n1) /\
  forall l, generate_mesh2d s n0 n1 = Ok l -> NoDup l /\
    forall p, In p l <-> ev2 s p <= 0 /\ exists m i j, new_map2 (bb2 s) n0 n1 false = Ok m /\
      (0 <= i < n0)%Z /\ (0 <= j < n1)%Z /\ p = to_v2 m i j.
Proof.
  unfold generate_mesh2d. pose proof (C55_accepts (bb2 s) n0 n1 false) as [NP OK].
  destruct (new_map2 (bb2 s) n0 n1 false) as [m| |] eqn:E; cbn [bind]; [| |congruence].
  2: { split; [discriminate|]. split; [|discriminate]. rewrite <- OK. split; intros (l & Q); discriminate. }
  split; [discriminate|]. split. { rewrite <- OK. split; intros _; eexists; reflexivity. }
  intros l Q. injection Q as <-.
  assert (RT : forall i j i' j' : nat, to_v2 m (Z.of_nat i) (Z.of_nat j) = to_v2 m (Z.of_nat i') (Z.of_nat j') -> i = i' /\ j = j').
  { intros i j i' j' Q. apply (f_equal (to_v2i m)) in Q. rewrite !(proj1 (C55_round_trip _ _ _ _ _ _ _ E (Zle_0_nat _) (Zle_0_nat _))) in Q. injection Q. lia. }
  split.
  - assert (row : forall i (js : list nat), NoDup js -> NoDup (flat_map (fun j => let v := to_v2 m (Z.of_nat i) (Z.of_nat j) in if Rleb (ev2 s v) 0 then [v] else []) js)).
    { intros i js N. induction N as [|j js NI N IH]; [constructor|]. cbn [flat_map]. cbv zeta. destruct (Rleb _ 0); [|exact IH].
      cbn [app]. constructor; [|exact IH]. intros I. apply in_flat_map in I. destruct I as (j' & I & W). cbv zeta in W.
      destruct (Rleb _ 0) in W; [|contradiction]. destruct W as [W|[]]. apply RT in W. destruct W as [_ ->]. contradiction. }
    generalize (seq_NoDup (Z.to_nat n0) 0). generalize (seq 0 (Z.to_nat n0)) as is. intros is N.
    induction N as [|i is NI N IH]; [constructor|]. cbn [flat_map]. apply NoDup_app_intro.
    + apply row. apply seq_NoDup.
    + exact IH.
    + intros p I1 I2. apply in_flat_map in I1. destruct I1 as (j & _ & W). cbv zeta in W. destruct (Rleb _ 0) in W; [|contradiction]. destruct W as [<-|[]].
      apply in_flat_map in I2. destruct I2 as (i' & I2 & I3). apply in_flat_map in I3. destruct I3 as (j' & _ & W). cbv zeta in W. destruct (Rleb _ 0) in W; [|contradiction].
      destruct W as [W|[]]. apply RT in W. destruct W as [-> _]. contradiction.
  - intros p. rewrite in_flat_map. split.
    + intros (i & Hi & I). apply in_flat_map in I. destruct I as (j & Hj & W). cbv zeta in W. destruct (Rleb_spec (ev2 s (to_v2 m (Z.of_nat i) (Z.of_nat j))) 0) as [V|V]; [|contradiction].
      destruct W as [<-|[]]. split; [exact V|]. exists m, (Z.of_nat i), (Z.of_nat j). apply in_seq in Hi, Hj. repeat split; lia.
    + intros (V & m' & i & j & Em & Hi & Hj & ->). injection Em as <-. exists (Z.to_nat i). split; [apply in_seq; lia|]. apply in_flat_map. exists (Z.to_nat j).
      split; [apply in_seq; lia|]. cbv zeta. rewrite !Z2Nat.id by lia. destruct (Rleb_spec (ev2 s (to_v2 m i j)) 0); [now left|lra].
Qed.
Example C55_example :
  exists m, new_map2 (Box2 (V2 0 0) (V2 4 3)) 4 3 true = Ok m /\ to_v2 m 1 0 = V2 (3/2) (5/2) /\ to_v2i m (V2 (3/2) (5/2)) = (1%Z, 0%Z) /\
  new_map2 (Box2 (V2 0 0) (V2 4 0)) 4 3 true = Err.
Proof.
  assert (G : grid_ok (Box2 (V2 0 0) (V2 4 3)) 4 3) by (unfold grid_ok; cbn; repeat split; try lra; lia).
  apply (proj2 (C55_accepts _ _ _ true)) in G. destruct G as (m & E). exists m. split; [exact E|].
  pose proof (C55_centre _ _ _ _ _ 1 0 E) as (_ & X & Y & _). cbn [x2 y2 min2 max2] in X, Y.
  assert (Q : to_v2 m 1 0 = V2 (3/2) (5/2)) by (apply v2_ext; cbn [x2 y2]; [rewrite X|rewrite Y]; field).
  split; [exact Q|]. split. { rewrite <- Q. apply (proj1 (C55_round_trip _ _ _ _ _ 1 0 E ltac:(lia) ltac:(lia))). }
  pose proof (C55_accepts (Box2 (V2 0 0) (V2 4 0)) 4 3 true) as [NP OK]. destruct (new_map2 (Box2 (V2 0 0) (V2 4 0)) 4 3 true) as [m'| |]; [|reflexivity|congruence].
  assert (B : grid_ok (Box2 (V2 0 0) (V2 4 0)) 4 3) by (apply OK; now exists m'). unfold grid_ok in B. cbn in B. lra.
Qed.

(** ** C56 *)
(** Loop states the cast can be in at the head of an iteration. *)
Inductive ray_reach (s : sdf3) (from dir : v3) (c : ray_cfg) : ray_state -> Prop :=
| reach_start : ray_reach s from dir c (0, from, 0%Z)
| reach_step st st' : ray_reach s from dir c st -> ray_step s dir c st = inr st' -> ray_reach s from dir c st'.
Definition on_ray (from dir : v3) (t : R) : v3 := add3 from (scale3 t (unit3 dir)).
Definition step_ok (c : ray_cfg) : Prop := r_sigmoid c <= 0 /\ 0 < r_scale c <= 1.

Lemma on_ray_dist from dir a b : dir <> zero3 -> dist3 (on_ray from dir a) (on_ray from dir b) = Rabs (a - b).
Proof.
  intros N. pose proof (unit3_norm dir N) as U2. unfold dist3, norm3, on_ray.
  match goal with |- sqrt ?e = _ => replace e with (Rsqr (a - b)) end; [now rewrite sqrt_Rsqr_abs|].
  transitivity (Rsqr (a - b) * norm3sq (unit3 dir)); [rewrite U2; ring|]. unfold norm3sq, dot3, Rsqr, sub3, add3, scale3. cbn [x3 y3 z3]. ring.
Qed.
Lemma on_ray_add from dir t d : add3 (on_ray from dir t) (scale3 d (unit3 dir)) = on_ray from dir (t + d).
Proof. unfold on_ray, add3, scale3. apply v3_ext; cbn [x3 y3 z3]; ring. Qed.
Lemma no_sigmoid c v : step_ok c -> (if Rltb 0 (r_sigmoid c) then sigmoid_scaled (v * 10) else v) = v.
Proof. intros [S _]. destruct (Rltb_spec 0 (r_sigmoid c)); [lra|reflexivity]. Qed.
(** The values seen before t: everything on the ray before the current parameter is off the surface. *)
Lemma ahead s from dir c t : lip3 (ev3 s) -> dir <> zero3 -> step_ok c ->
  forall u, t <= u < t + Rabs (ev3 s (on_ray from dir t)) * r_scale c -> ev3 s (on_ray from dir u) <> 0.
Proof.
  intros L N [_ K] u U Z. specialize (L (on_ray from dir t) (on_ray from dir u)). rewrite (on_ray_dist from dir t u N) in L. rewrite Z in L.
  rewrite Rminus_0_r in L. pose proof (Rabs_pos (ev3 s (on_ray from dir t))). rewrite (Rabs_left1 (t - u)) in L by lra. nra.
Qed.
Theorem C56_no_crossing_partial s from dir c t pos n : lip3 (ev3 s) -> dir <> zero3 -> step_ok c ->
  ray_reach s from dir c (t, pos, n) ->
  0 <= t /\ pos = on_ray from dir t /\ (0 <= n)%Z /\ (forall u, 0 <= u < t -> ev3 s (on_ray from dir u) <> 0).
Proof.
  intros L N K R. remember (t, pos, n) as st eqn:E. revert t pos n E. induction R as [|st st' R IH S]; intros t pos n E.
  - injection E as <- <- <-. split; [lra|]. split; [unfold on_ray, add3, scale3; apply v3_ext; cbn [x3 y3 z3]; ring|]. split; [lia|]. intros u U. lra.
  - destruct st as [[t0 p0] n0]. destruct (IH t0 p0 n0 eq_refl) as (T & P & NN & C). subst st'. unfold ray_step in S. cbv beta zeta in S.
    destruct (Rltb_spec (Rabs (ev3 s p0)) (r_eps c)) as [H|H]; [discriminate|]. destruct (_ =? _)%Z; [discriminate|].
    rewrite (no_sigmoid c _ K) in S. destruct (_ || _)%bool; [discriminate|]. injection S as <- <- <-.
    pose proof (Rabs_pos (ev3 s p0)) as AP. assert (0 <= Rabs (ev3 s p0) * r_scale c) by (apply Rmult_le_pos; destruct K; lra).
    split; [lra|]. split; [rewrite P; apply on_ray_add|]. split; [lia|]. intros u U. destruct (Rlt_dec u t0); [apply C; lra|].
    rewrite P in U. now apply (ahead s from dir c t0); [| | |lra].
Qed.
(** A run that returns did so from a reachable state. *)
Lemma ray_run_from s from dir c r : forall fuel st, ray_reach s from dir c st -> ray_run fuel s dir c st = Some r ->
  exists st', ray_reach s from dir c st' /\ ray_step s dir c st' = inl r.
Proof.
  induction fuel as [|k IH]; intros st R E; [discriminate|]. cbn [ray_run] in E. destruct (ray_step s dir c st) as [r'|st'] eqn:S.
  - injection E as ->. now exists st.
  - apply (IH st'); [now apply (reach_step s from dir c st)|exact E].
Qed.
(** What the caller learns.  Hit: t >= 0, the point is on the ray at t, its value is below
    epsilon and nothing before it is on the surface.  Failure: t = -1, collision is the zero
    vector, and either the step budget is used up or the surface is nowhere on [0, maxDist]. *)
Theorem C56_result_partial fuel s from dir c p t n : lip3 (ev3 s) -> dir <> zero3 -> step_ok c ->
  raycast3 fuel s from dir c = Some (p, t, n) ->
  (0 <= t /\ p = on_ray from dir t /\ Rabs (ev3 s p) < r_eps c /\ (forall u, 0 <= u < t -> ev3 s (on_ray from dir u) <> 0)) \/
  (t = -1 /\ p = zero3 /\ (n = r_maxsteps c \/ forall u, 0 <= u <= r_maxdist c -> ev3 s (on_ray from dir u) <> 0)).
Proof.
  intros L N K E. apply (ray_run_from s from) in E; [|constructor]. destruct E as ([[t0 p0] n0] & R & S).
  pose proof (C56_no_crossing_partial s from dir c t0 p0 n0 L N K R) as (T & P & _ & C).
  unfold ray_step in S. cbv beta zeta in S. destruct (Rltb_spec (Rabs (ev3 s p0)) (r_eps c)) as [H|H].
  { injection S as -> -> ->. left. split; [lra|]. split; [exact P|]. split; [exact H|exact C]. }
  destruct (Z.eqb_spec (n0 + 1) (r_maxsteps c)) as [M|M].
  { injection S as <- <- <-. right. split; [reflexivity|]. split; [reflexivity|]. now left. }
  rewrite (no_sigmoid c _ K) in S. pose proof (Rabs_pos (ev3 s p0)) as AP. assert (0 <= Rabs (ev3 s p0) * r_scale c) by (apply Rmult_le_pos; destruct K; lra).
  destruct (Rltb_spec (t0 + Rabs (ev3 s p0) * r_scale c) 0); [lra|]. cbn [orb] in S.
  destruct (Rltb_spec (r_maxdist c) (t0 + Rabs (ev3 s p0) * r_scale c)) as [X|X]; [|discriminate].
  injection S as <- <- <-. right. split; [reflexivity|]. split; [reflexivity|]. right. intros u U.
  destruct (Rlt_dec u t0); [apply C; lra|]. rewrite P in X. apply (ahead s from dir c t0); [exact L|exact N|exact K|lra].
Qed.
(** Completeness: with a positive epsilon and no step limit reached, a surface on the ray
    within range is always reported, at or before it. *)
Theorem C56_finds_partial fuel s from dir c p t n u : lip3 (ev3 s) -> dir <> zero3 -> step_ok c ->
  raycast3 fuel s from dir c = Some (p, t, n) -> n <> r_maxsteps c -> 0 <= u <= r_maxdist c -> ev3 s (on_ray from dir u) = 0 ->
  0 <= t <= u /\ p = on_ray from dir t /\ Rabs (ev3 s p) < r_eps c.
Proof.
  intros L N K E M U Z. destruct (C56_result_partial fuel s from dir c p t n L N K E) as [(T & P & H & C)|(T & P & [H|H])]; [|contradiction|exfalso; now apply (H u)].
  split; [|now split]. split; [exact T|]. apply Rnot_lt_le. intros Q. apply (C u); [lra|exact Z].
Qed.
(** Termination. *)
Lemma ray_run_mono s dir c r : forall k st, ray_run k s dir c st = Some r -> forall m, (k <= m)%nat -> ray_run m s dir c st = Some r.
Proof.
  induction k as [|k IH]; intros st E m LE; [discriminate|]. destruct m as [|m]; [lia|]. cbn [ray_run] in *. destruct (ray_step s dir c st); [exact E|].
  apply IH; [exact E|lia].
Qed.
Theorem C56_terminates_partial s from dir c : step_ok c -> 0 < r_eps c \/ (0 < r_maxsteps c)%Z ->
  exists fuel r, forall m, (fuel <= m)%nat -> raycast3 m s from dir c = Some r.
Proof.
  intros K H. cut (exists fuel r, raycast3 fuel s from dir c = Some r).
  { intros (fuel & r & E). exists fuel, r. intros m LE. now apply (ray_run_mono s dir c r fuel). }
  unfold raycast3. destruct H as [H|H].
  - set (d := r_eps c * r_scale c). assert (D : 0 < d) by (apply Rmult_lt_0_compat; destruct K; lra).
    assert (G : forall k t p n, r_maxdist c < t + INR k * d -> exists fuel r, ray_run fuel s dir c (t, p, n) = Some r).
    { induction k as [|k IH]; intros t p n B.
      - exists 1%nat. cbn [ray_run]. unfold ray_step. cbv beta zeta. cbn [INR] in B.
        destruct (Rltb_spec (Rabs (ev3 s p)) (r_eps c)); [eexists; reflexivity|]. destruct (_ =? _)%Z; [eexists; reflexivity|].
        rewrite (no_sigmoid c _ K). pose proof (Rabs_pos (ev3 s p)). assert (0 <= Rabs (ev3 s p) * r_scale c) by (apply Rmult_le_pos; destruct K; lra).
        destruct (Rltb_spec (r_maxdist c) (t + Rabs (ev3 s p) * r_scale c)); [|lra]. rewrite orb_true_r. eexists; reflexivity.
      - destruct (ray_step s dir c (t, p, n)) as [r|[[t' p'] n']] eqn:S.
        + exists 1%nat, r. cbn [ray_run]. now rewrite S.
        + assert (B' : r_maxdist c < t' + INR k * d).
          { rewrite S_INR in B. unfold ray_step in S. cbv beta zeta in S. destruct (Rltb_spec (Rabs (ev3 s p)) (r_eps c)); [discriminate|]. destruct (_ =? _)%Z; [discriminate|].
            rewrite (no_sigmoid c _ K) in S. destruct (_ || _)%bool; [discriminate|]. injection S as <- _ _.
            assert (d <= Rabs (ev3 s p) * r_scale c) by (apply Rmult_le_compat_r; destruct K; lra). lra. }
          destruct (IH t' p' n' B') as (f & r & E). exists (Datatypes.S f), r. cbn [ray_run]. now rewrite S. }
    assert (U : exists k, r_maxdist c / d < INR k).
    { exists (Z.to_nat (up (r_maxdist c / d))). rewrite INR_IZR_INZ. pose proof (archimed (r_maxdist c / d)) as [A _].
      apply (Rlt_le_trans _ _ _ A). apply IZR_le. lia. }
    destruct U as (k & B). apply (G k). apply (Rmult_lt_compat_r d) in B; [|exact D].
    replace (r_maxdist c / d * d) with (r_maxdist c) in B by (field; lra). lra.
  - assert (G : forall k t p n, (r_maxsteps c - n = Z.of_nat k)%Z -> (0 < k)%nat -> exists fuel r, ray_run fuel s dir c (t, p, n) = Some r).
    { induction k as [|k IH]; intros t p n B P; [lia|]. destruct (ray_step s dir c (t, p, n)) as [r|[[t' p'] n']] eqn:S.
      - exists 1%nat, r. cbn [ray_run]. now rewrite S.
      - assert (B' : n' = (n + 1)%Z /\ n' <> r_maxsteps c).
        { unfold ray_step in S. cbv beta zeta in S. destruct (Rltb _ (r_eps c)); [discriminate|]. destruct (Z.eqb_spec (n + 1) (r_maxsteps c)); [discriminate|].
          destruct (_ || _)%bool; [discriminate|]. injection S as _ _ <-. now split. }
        destruct (IH t' p' n') as (f & r & E); [lia|lia|]. exists (Datatypes.S f), r. cbn [ray_run]. now rewrite S. }
    apply (G (Z.to_nat (r_maxsteps c))); lia.
Qed.
(** raycast2: the value cast against is max(s, |z|-1/2) on z = 0, so up to epsilon = 1/2 it
    behaves as a cast against s itself. *)
Definition on_ray2 (from dir : v2) (t : R) : v2 := add2 from (scale2 t (unit2 dir)).
Lemma on_ray_flat from dir t : on_ray (V3 (x2 from) (y2 from) 0) (V3 (x2 dir) (y2 dir) 0) t = V3 (x2 (on_ray2 from dir t)) (y2 (on_ray2 from dir t)) 0.
Proof.
  unfold on_ray, on_ray2, unit3, unit2, norm3, norm2, norm3sq, norm2sq, dot3, dot2, add3, add2, scale3, scale2. apply v3_ext; cbn [x3 y3 z3 x2 y2]; [| |ring];
  (replace (x2 dir * x2 dir + y2 dir * y2 dir + 0 * 0) with (x2 dir * x2 dir + y2 dir * y2 dir) by ring); reflexivity.
Qed.
Theorem C56_result2_partial fuel s from dir c p t n : lip2 (ev2 s) -> dir <> zero2 -> step_ok c -> r_eps c <= 1 / 2 ->
  raycast2 fuel s from dir c = Some (p, t, n) ->
  (0 <= t /\ p = on_ray2 from dir t /\ Rabs (ev2 s p) < r_eps c /\ (forall u, 0 <= u < t -> ev2 s (on_ray2 from dir u) <> 0)) \/
  (t = -1 /\ p = zero2 /\ (n = r_maxsteps c \/ forall u, 0 <= u <= r_maxdist c -> ev2 s (on_ray2 from dir u) <> 0)).
Proof.
  intros L N K EP E. unfold raycast2 in E. set (f3 := V3 (x2 from) (y2 from) 0) in *. set (d3 := V3 (x2 dir) (y2 dir) 0) in *.
  destruct (raycast3 fuel (extrude3d s 1) f3 d3 c) as [[[p3 t3] n3]|] eqn:R; [|discriminate]. injection E as <- -> ->.
  assert (N3 : d3 <> zero3) by (intros Q; apply N; unfold d3, zero3 in Q; injection Q as Q1 Q2; apply v2_ext; assumption).
  assert (V : forall u, ev3 (extrude3d s 1) (on_ray f3 d3 u) = Rmax (ev2 s (on_ray2 from dir u)) (- (1/2))).
  { intros u. unfold f3, d3. rewrite on_ray_flat. cbn [ev3 extrude3d]. unfold extrude_eval, normal_extrude, xy. cbn [x3 y3 z3]. rewrite Rabs_R0.
    replace (V2 (x2 (on_ray2 from dir u)) (y2 (on_ray2 from dir u))) with (on_ray2 from dir u) by (now destruct (on_ray2 from dir u)). f_equal. lra. }
  assert (Z : forall u, ev3 (extrude3d s 1) (on_ray f3 d3 u) <> 0 -> ev2 s (on_ray2 from dir u) <> 0).
  { intros u W Q. apply W. rewrite V, Q. rmm; lra. }
  destruct (C56_result_partial fuel _ f3 d3 c p3 t n (lip3_extrude s 1 L) N3 K R) as [(T & P & H & C)|(T & P & H)].
  - left. assert (P2 : xy p3 = on_ray2 from dir t) by (rewrite P; unfold f3, d3; rewrite on_ray_flat; unfold xy; cbn [x3 y3]; now destruct (on_ray2 from dir t)).
    split; [exact T|]. split; [exact P2|]. split; [|intros u U; apply Z; now apply C].
    rewrite P2. rewrite P, V in H. revert H. unfold Rmax. destruct (Rle_dec _ _) as [B|B]; [|tauto]. rewrite Rabs_left by lra. lra.
  - right. split; [exact T|]. split; [rewrite P; reflexivity|]. destruct H as [H|H]; [now left|]. right. intros u U. apply Z. now apply H.
Qed.
(** A 1-Lipschitz field and the ray along +x: with sigmoid scaling the first step is
    2/(1+exp(-1))-1 > 1/5 from distance 1/10, so the cast jumps over the surface and reports
    failure although the surface is within range. *)
Definition half_space : sdf3 := S3 (fun p => x3 p) (Box3 (V3 (-1) (-1) (-1)) (V3 1 1 1)).
Lemma half_space_lip : lip3 (ev3 half_space).
Proof.
  pose proof (lip3_plane (V3 1 0 0) zero3) as L. assert (U : norm3sq (V3 1 0 0) = 1) by (unfold norm3sq, dot3; cbn [x3 y3 z3]; ring).
  specialize (L U). intros p q. specialize (L p q). cbn [ev3 half_space]. unfold dot3, sub3, zero3 in L. cbn [x3 y3 z3] in L.
  replace (1 * (x3 p - 0) + 0 * (y3 p - 0) + 0 * (z3 p - 0) - (1 * (x3 q - 0) + 0 * (y3 q - 0) + 0 * (z3 q - 0))) with (x3 p - x3 q) in L by ring. exact L.
Qed.
Lemma unit_x : unit3 (V3 1 0 0) = V3 1 0 0.
Proof.
  unfold unit3, norm3, norm3sq, dot3. cbn [x3 y3 z3]. match goal with |- scale3 (1 / sqrt ?e) _ = _ => replace e with 1 by ring end.
  rewrite sqrt_1. unfold scale3. apply v3_ext; cbn [x3 y3 z3]; field.
Qed.
Theorem C56_sigmoid_refuted :
  let c := Ray 1 1 (1/100) (2/10) 100 in
  lip3 (ev3 half_space) /\ 0 < r_scale c <= 1 /\ ev3 half_space (on_ray (V3 (-1/10) 0 0) (V3 1 0 0) (1/10)) = 0 /\
  raycast3 1 half_space (V3 (-1/10) 0 0) (V3 1 0 0) c = Some (zero3, -1, 1%Z).
Proof.
  cbv zeta. split; [exact half_space_lip|]. cbn [r_scale]. split; [lra|]. split.
  { unfold on_ray. rewrite unit_x. cbn. lra. }
  unfold raycast3. cbn [ray_run]. unfold ray_step. cbv beta zeta. cbn [ev3 half_space x3 r_eps r_maxsteps r_sigmoid r_scale r_maxdist].
  rewrite (Rabs_left1 (-1/10)) by lra. destruct (Rltb_spec (- (-1/10)) (1/100)); [lra|]. change (0 + 1 =? 100)%Z with false. cbv iota.
  destruct (Rltb_spec 0 1); [|lra]. unfold sigmoid_scaled. replace (- (- (-1/10) * 10)) with (-1) by lra.
  assert (E1 : 2 < exp 1). { pose proof (exp_ineq1 1). lra. }
  assert (E : exp (-1) < 1/2).
  { replace (-1) with (- (1)) by lra. rewrite exp_Ropp. apply (Rmult_lt_reg_l (exp 1)); [lra|]. rewrite Rinv_r by lra. lra. }
  pose proof (exp_pos (-1)) as EP. assert (V : 1/3 < 2 / (1 + exp (-1)) - 1).
  { assert (4/3 < 2 / (1 + exp (-1))); [|lra]. apply (Rmult_lt_reg_r (1 + exp (-1))); [lra|].
    replace (2 / (1 + exp (-1)) * (1 + exp (-1))) with 2 by (field; lra). lra. }
  destruct (Rltb_spec (2/10) (0 + (2 / (1 + exp (-1)) - 1) * 1)); [|lra]. rewrite orb_true_r. reflexivity.
Qed.
(** raycast2 with epsilon > 1/2: any point deeper than 1/2 inside counts as a hit. *)
Theorem C56_epsilon2_refuted :
  let s := S2 (fun p => x2 p) (Box2 (V2 (-1) (-1)) (V2 1 1)) in
  raycast2 1 s (V2 (-10) 0) (V2 1 0) (Ray 0 1 1 100 100) = Some (V2 (-10) 0, 0, 0%Z) /\ ~ Rabs (ev2 s (V2 (-10) 0)) < 1.
Proof.
  cbv zeta. split.
  - unfold raycast2, raycast3. cbn [ray_run]. unfold ray_step. cbv beta zeta. cbn [extrude3d ev3 ev2 r_eps x2 y2 x3 y3 z3]. unfold extrude_eval, normal_extrude, xy. cbn [ev2 x2 y2 x3 y3 z3]. rewrite Rabs_R0.
    destruct (Rltb_spec (Rabs (Rmax (-10) (0 - 1 / 2))) 1) as [A|A]; [reflexivity|]. exfalso. revert A. rewrite Rmax_right by lra. rewrite Rabs_left by lra. lra.
  - cbn [ev2 x2]. rewrite Rabs_left by lra. lra.
Qed.
Example C56_example : exists p n, raycast3 3 half_space (V3 (-1/10) 0 0) (V3 1 0 0) (Ray 0 1 (1/100) (2/10) 100) = Some (p, 1/10, n) /\ p = zero3.
Proof.
  exists (add3 (V3 (-1/10) 0 0) (scale3 (1/10) (V3 1 0 0))), 1%Z.
  assert (P : add3 (V3 (-1/10) 0 0) (scale3 (1/10) (V3 1 0 0)) = zero3) by (unfold add3, scale3, zero3; apply v3_ext; cbn [x3 y3 z3]; lra).
  split; [|exact P]. unfold raycast3. cbn [ray_run]. unfold ray_step. cbv beta zeta. rewrite unit_x. cbn [ev3 half_space r_eps r_maxsteps r_sigmoid r_scale r_maxdist].
  change (x3 (V3 (-1/10) 0 0)) with (-1/10). rewrite (Rabs_left1 (-1/10)) by lra. destruct (Rltb_spec (- (-1/10)) (1/100)); [lra|]. change (0 + 1 =? 100)%Z with false. cbv iota.
  destruct (Rltb_spec 0 0); [lra|]. replace (- (-1/10) * 1) with (1/10) by lra. replace (0 + 1/10) with (1/10) by lra.
  destruct (Rltb_spec (1/10) 0); [lra|]. destruct (Rltb_spec (2/10) (1/10)); [lra|]. cbn [orb]. rewrite P. cbn [zero3 x3]. rewrite Rabs_R0.
  destruct (Rltb_spec 0 (1/100)); [reflexivity|lra].
Qed.

(** ** C75 *)
Definition shrink_of (m : material) : R := match m with Ideal => 0 | Viscoelastic k _ => k end.
Definition pull_of (m : material) : R := match m with Ideal => 0 | Viscoelastic _ p => p end.
(** A printed part shrinks about the origin to 1/(1+shrink) of its modelled size: the point p of
    the finished part was modelled at (1+shrink)*p. *)
Theorem C75_recover m s p : 0 <= shrink_of m ->
  ev3 (mat_scale m s) (scale3 (1 + shrink_of m) p) = (1 + shrink_of m) * ev3 s p /\
  (ev3 (mat_scale m s) (scale3 (1 + shrink_of m) p) < 0 <-> ev3 s p < 0) /\
  (ev3 (mat_scale m s) (scale3 (1 + shrink_of m) p) = 0 <-> ev3 s p = 0).
Proof.
  intros K. assert (E : ev3 (mat_scale m s) (scale3 (1 + shrink_of m) p) = (1 + shrink_of m) * ev3 s p).
  { destruct m as [|k pl]; cbn [mat_scale shrink_of] in *.
    - replace (scale3 (1 + 0) p) with p by (unfold scale3; apply v3_ext; cbn [x3 y3 z3]; ring). ring.
    - apply (C38_scale_uniform_partial (1 + k)). lra. }
  split; [exact E|]. rewrite E. split; split; intros H; try nra.
Qed.
Theorem C75_internal m : 0 <= shrink_of m -> 0 <= pull_of m ->
  (forall d, internal_dim_scale m d = Panicked <-> (m <> Ideal /\ d <= 0)) /\
  (forall d, internal_dim_scale m d <> Err) /\
  (forall d v, internal_dim_scale m d = Ok v -> 0 < d -> d <= v /\ (0 < pull_of m -> d < v) /\ v = d * (1 + shrink_of m) + pull_of m) /\
  (forall d d' v v', d < d' -> internal_dim_scale m d = Ok v -> internal_dim_scale m d' = Ok v' -> v < v').
Proof.
  intros K P. destruct m as [|k pl]; cbn [internal_dim_scale shrink_of pull_of] in *.
  - split; [intros d; split; [discriminate|intros [Q _]; congruence]|]. split; [discriminate|]. split.
    + intros d v Q D. injection Q as <-. repeat split; lra.
    + intros d d' v v' LT Q Q'. injection Q as <-. injection Q' as <-. exact LT.
  - split. { intros d. destruct (Rleb_spec d 0); split; try discriminate; [intros _; now split|reflexivity|intros [_ B]; lra]. }
    split. { intros d. destruct (Rleb d 0); discriminate. }
    split. { intros d v. destruct (Rleb_spec d 0); [discriminate|]. intros Q D. injection Q as <-. repeat split; nra. }
    intros d d' v v' LT. destruct (Rleb_spec d 0); [discriminate|]. destruct (Rleb_spec d' 0); [discriminate|].
    intros Q Q'. injection Q as <-. injection Q' as <-. nra.
Qed.
(** PLA: 0.3 % shrinkage and 0.45 mm of pull. *)
Theorem C75_pla : (forall s p, ev3 (mat_scale PLA s) (scale3 1.003 p) = 1.003 * ev3 s p) /\
  (forall d, 0 < d -> internal_dim_scale PLA d = Ok (1.003 * d + 0.45)) /\ (forall d, d <= 0 -> internal_dim_scale PLA d = Panicked).
Proof.
  split; [|split].
  - intros s p. destruct (C75_recover PLA s p) as (H & _); [cbn [shrink_of PLA]; lra|]. cbn [shrink_of PLA] in H. replace (1 + 3 / 1000) with 1.003 in H by lra. exact H.
  - intros d D. cbn [internal_dim_scale PLA]. destruct (Rleb_spec d 0); [lra|]. f_equal. lra.
  - intros d D. cbn [internal_dim_scale PLA]. destruct (Rleb_spec d 0); [reflexivity|lra].
Qed.
Example C75_example : internal_dim_scale PLA 10 = Ok (10 * (3/1000 + 1) + 45/100) /\ internal_dim_scale PLA 0 = Panicked.
Proof. unfold PLA. cbn [internal_dim_scale]. split; [destruct (Rleb_spec 10 0); [lra|reflexivity]|destruct (Rleb_spec 0 0); [reflexivity|lra]]. Qed.
