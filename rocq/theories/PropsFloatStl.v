(** C104: from the solid to the STL file and back in float64 and float32. *)
From Coq Require Import List Permutation Arith NArith ZArith Bool Lia Floats.SpecFloat Reals Lra Psatz.
From Verif Require Import Prelude Vec BoxModel MatrixModel SdfModel PrimModel Trig Grades GradesOps GradesSweep Distance PropsMatrix PropsBool PropsTransform PropsBounds PropsLip SdfLemmas FloatBoolModel FloatRound FloatShapeModel FloatNear PropsFloatSign FloatTrack FloatInv FloatRules FloatCopies PropsFloatTrack OctreeModel OctreeSpec OctreeGrid OctreeProofs PropsOctree OctreeR McTables McModel McSpec McProofs McRealModel PropsSampling PropsMc PropsSurface FloatRenderModel FloatRender PropsFloatRender FloatSetup PropsFloatSetup FloatBoundsModel FloatBounds PropsFloatBounds RenderIOModel StlModel StlProofs PropsStl PipelineModel PropsPipeline FloatRound32 FloatStlModel.
Import ListNotations.
Local Open Scope R_scope.

(** ** Bit patterns *)
Lemma bits_parts (s : bool) (e m : N) : (e < 256 -> m < 2 ^ 23 ->
  let w := (if s then 2 ^ 31 else 0) + (e * 2 ^ 23 + m) in
  w < 2 ^ 32 /\ N.testbit w 31 = s /\ w / 2 ^ 23 mod 256 = e /\ w mod 2 ^ 23 = m)%N.
Proof.
  intros He Hm w. assert (Hr : (e * 2 ^ 23 + m < 2 ^ 31)%N) by (change (2 ^ 31)%N with (256 * 2 ^ 23)%N; change (2 ^ 23)%N with 8388608%N in *; lia).
  assert (Ew : w = ((if s then 256 else 0) * 2 ^ 23 + (e * 2 ^ 23 + m))%N) by (unfold w; destruct s; reflexivity).
  assert (Q : (w / 2 ^ 23 = (if s then 256 else 0) + e)%N). { rewrite Ew. replace ((if s then 256 else 0) * 2 ^ 23 + (e * 2 ^ 23 + m))%N with (m + ((if s then 256 else 0) + e) * 2 ^ 23)%N by (destruct s; ring). rewrite N.div_add by discriminate. now rewrite (N.div_small m) by exact Hm. }
  split; [unfold w; change (2 ^ 32)%N with (2 ^ 31 + 2 ^ 31)%N; destruct s; lia|]. split; [|split].
  - rewrite N.testbit_eqb. unfold w. destruct s.
    + replace ((2 ^ 31 + (e * 2 ^ 23 + m)) / 2 ^ 31)%N with 1%N; [reflexivity|]. apply (N.div_unique _ _ 1 (e * 2 ^ 23 + m)); [exact Hr|]. ring.
    + rewrite N.add_0_l, N.div_small by exact Hr. reflexivity.
  - rewrite Q. destruct s.
    + replace (256 + e)%N with (e + 1 * 256)%N by ring. rewrite N.mod_add by discriminate. now apply N.mod_small.
    + rewrite N.add_0_l. now apply N.mod_small.
  - rewrite Ew. replace ((if s then 256 else 0) * 2 ^ 23 + (e * 2 ^ 23 + m))%N with (m + ((if s then 256 else 0) + e) * 2 ^ 23)%N by (destruct s; ring). rewrite N.mod_add by discriminate. now apply N.mod_small.
Qed.
Lemma f32_bits_ok y : valid_32 y -> (f32_bits y < 2 ^ 32)%N /\ f32_of_bits (f32_bits y) = y.
Proof.
  intros V. destruct y as [s|s| |s m e].
  - split; destruct s; reflexivity.
  - split; destruct s; reflexivity.
  - split; reflexivity.
  - unfold valid_32 in V. cbn [valid_binary] in V. apply bounded_elim_32 in V as (_ & Be & Bm & Bn). unfold f32_bits. cbv zeta.
    destruct (N.ltb_spec (Npos m) (2 ^ 23)) as [L|L].
    + assert (e = (-149)%Z) as -> by (destruct Bn as [Bn|Bn]; [exact Bn|]; exfalso; change (2 ^ 23)%N with 8388608%N in L; change (2 ^ 23)%Z with 8388608%Z in Bn; lia).
      destruct (bits_parts s 0 (Npos m) ltac:(reflexivity) L) as (A & B & C & D). rewrite N.mul_0_l, N.add_0_l in A, B, C, D. split; [exact A|].
      unfold f32_of_bits. rewrite B, C, D. reflexivity.
    + assert (M : (Npos m - 2 ^ 23 < 2 ^ 23)%N) by (change (2 ^ 23)%N with 8388608%N in *; change (2 ^ 24)%Z with 16777216%Z in Bm; lia).
      destruct (bits_parts s (Z.to_N (e + 150)) (Npos m - 2 ^ 23) ltac:(lia) M) as (A & B & C & D). split; [exact A|].
      unfold f32_of_bits. rewrite B, C, D. destruct (N.eqb_spec (Z.to_N (e + 150)) 255) as [X|_]; [lia|]. destruct (N.eqb_spec (Z.to_N (e + 150)) 0) as [X|_]; [lia|].
      rewrite N.sub_add by exact L. f_equal. lia.
Qed.
Lemma f32_of_bits_valid w : valid_32 (f32_of_bits w).
Proof.
  unfold f32_of_bits. set (s := N.testbit w 31). set (e := (w / 2 ^ 23 mod 256)%N). set (m := (w mod 2 ^ 23)%N).
  assert (He : (e < 256)%N) by (apply N.mod_lt; discriminate). assert (Hm : (m < 2 ^ 23)%N) by (apply N.mod_lt; discriminate). clearbody s e m. change (2 ^ 23)%N with 8388608%N in *.
  destruct (N.eqb_spec e 255) as [_|N1]; [destruct (N.eqb m 0); reflexivity|]. destruct (N.eqb_spec e 0) as [_|N2].
  - destruct m as [|p]; [reflexivity|]. unfold valid_32. cbn [valid_binary]. apply bounded_intro_32; [|lia]. rewrite fx_eq_32. pose proof (digits_pos p) as (D1 & D2).
    assert (Zpos (digits2_pos p) <= 23)%Z; [|lia]. destruct (Z.le_gt_cases (Zpos (digits2_pos p)) 23) as [|G]; auto. assert (2 ^ 23 <= 2 ^ (Zpos (digits2_pos p) - 1))%Z by (apply Z.pow_le_mono_r; lia). change (2 ^ 23)%Z with 8388608%Z in *. lia.
  - destruct (m + 8388608)%N as [|p] eqn:Ep; [lia|]. unfold valid_32. cbn [valid_binary]. apply bounded_intro_32; [|lia]. rewrite fx_eq_32.
    assert (Zpos (digits2_pos p) = 24%Z); [|lia]. apply digits_unique. change (2 ^ (24 - 1))%Z with 8388608%Z. change (2 ^ 24)%Z with 16777216%Z. lia.
Qed.

(** ** float64(f): exact *)
Lemma of_f32_ok w : fin (f32_of_bits w) = true -> num (of_f32 w) /\ FR (of_f32 w) = FR (f32_of_bits w).
Proof.
  intros Fw. pose proof (f32_of_bits_valid w) as V. unfold of_f32. destruct (f32_of_bits w) as [s|s| |s m e]; try discriminate; [split; [split|]; reflexivity|].
  unfold valid_32 in V. cbn [valid_binary] in V. apply bounded_elim_32 in V as (_ & Be & Bm & _).
  destruct (round_signed s m e ltac:(lia)) as (C & _). rewrite <- FR_sg in C. apply (exact_of _ _ C).
  destruct (repr_int (Zpos m) e) as (x & (Fx & Vx) & Ex); [change (2 ^ 24)%Z with 16777216%Z in Bm; change (2 ^ 53)%Z with 9007199254740992%Z; lia|lia|].
  rewrite FR_sg. destruct s; cbn [sg]; [|exists x; split; [split; assumption|exact Ex]].
  exists (SFopp x). destruct x as [t|t| |t q f]; try discriminate; cbn [SFopp FR] in *; (split; [split; [reflexivity|exact Vx]|]); [lra|]. rewrite <- Ex. destruct t; cbn; ring.
Qed.
(** ** float32(x): the nearest float32 *)
Lemma f32_round_ok x : fin x = true -> correct_32 (f32_round x) (FR x).
Proof.
  intros Fx. destruct (fin_cases x Fx) as [(s & ->)|(s & m & e & ->)].
  - cbn [f32_round FR]. pose proof (bpow_pos (-24)). assert (A0 : Rabs (0 - 0) = 0) by (rewrite Rminus_0_r; apply Rabs_R0). split; [reflexivity|]. split; [discriminate|]. split; [reflexivity|]. split; [left; cbn [FR]; rewrite A0, Rabs_R0; lra|]. split; [intros _ w _ _; cbn [FR]; rewrite A0; apply Rabs_pos|discriminate].
  - cbn [f32_round]. rewrite FR_sg. destruct (round_int_32 s m e) as (r & f & A & B & _). pose proof (bpow_pos e). apply (represents_correct_32 _ s r f); [apply Rmult_le_pos; [apply IZR_le; lia|lra]|exact A|exact B].
Qed.
Lemma bad32_fin w : bad32 w = negb (fin (f32_of_bits w)).
Proof.
  unfold bad32, f32_of_bits. destruct (N.eqb (w / 2 ^ 23 mod 256) 255); [destruct (N.eqb (w mod 2 ^ 23) 0); reflexivity|]. destruct (N.eqb (w / 2 ^ 23 mod 256) 0); [destruct (w mod 2 ^ 23)%N; reflexivity|]. destruct (w mod 2 ^ 23 + 2 ^ 23)%N; reflexivity.
Qed.

(** ** The conversions *)
(** For every number the word written is a float32 bit pattern; up to the largest float32, (2^24 - 1) 2^104, it is one of a finite number; then no float32 is nearer, and reading it back differs by at
    most half a unit in the last place. A number that is a float32 comes back unchanged. *)
Theorem C104_float32 x : fin x = true -> valid x ->
  let w := to_f32 x in
  (w < 2 ^ 32)%N /\ (Rabs (FR x) <= bpow 128 - bpow 104 -> bad32 w = false) /\
  (bad32 w = false -> num (of_f32 w) /\ Rabs (FR (of_f32 w) - FR x) <= bpow (-24) * Rabs (FR x) + bpow (-150) /\
    forall w', bad32 w' = false -> Rabs (FR (of_f32 w) - FR x) <= Rabs (FR (of_f32 w') - FR x)) /\
  (forall w', bad32 w' = false -> FR x = FR (of_f32 w') -> bad32 w = false /\ FR (of_f32 w) = FR x).
Proof.
  intros Fx _ w. destruct (f32_round_ok x Fx) as (V & N & M & D & Ne & In). destruct (f32_bits_ok _ V) as (L & E). fold (to_f32 x) in L, E. fold w in L, E.
  assert (B : forall w', bad32 w' = false -> fin (f32_of_bits w') = true) by (intros w' H; rewrite bad32_fin in H; now apply negb_false_iff in H).
  assert (Sm : Rabs (FR x) <= bpow 128 - bpow 104 -> bad32 w = false). { intros H. rewrite bad32_fin, E. unfold fmaxR_32 in M. now rewrite (M H). }
  assert (Fi : bad32 w = false -> num (of_f32 w) /\ Rabs (FR (of_f32 w) - FR x) <= bpow (-24) * Rabs (FR x) + bpow (-150) /\
    forall w', bad32 w' = false -> Rabs (FR (of_f32 w) - FR x) <= Rabs (FR (of_f32 w') - FR x)).
  { intros H. pose proof (B w H) as Fw. destruct (of_f32_ok w Fw) as (Nw & Ew). split; [exact Nw|]. rewrite Ew, E. rewrite E in Fw. split.
    - pose proof (bpow_pos (-24)). pose proof (bpow_pos (-150)). pose proof (Rabs_pos (FR x)). assert (0 <= bpow (-24) * Rabs (FR x)) by (apply Rmult_le_pos; lra). destruct (D Fw); lra.
    - intros w' H'. destruct (of_f32_ok w' (B w' H')) as (_ & ->). apply (Ne Fw); [apply f32_of_bits_valid|apply B; exact H']. }
  split; [exact L|]. split; [exact Sm|]. split; [exact Fi|]. intros w' H' Ex. destruct (of_f32_ok w' (B w' H')) as (_ & E').
  assert (Hb : bad32 w = false). { apply Sm. rewrite Ex, E'. pose proof (f32_of_bits_valid w') as V'. pose proof (B w' H') as F'. destruct (fin_cases _ F') as [(s & Es)|(s & m & e & Es)]; rewrite Es in *.
    - cbn [FR]. rewrite Rabs_R0. assert (bpow 104 < bpow 128) by (apply bpow_lt; lia). lra.
    - unfold valid_32 in V'. cbn [valid_binary] in V'. apply bounded_elim_32 in V' as (_ & Be & Bm & _). rewrite FR_sg. pose proof (bpow_pos e) as Pe. assert (0 < IZR (Zpos m)) by (apply IZR_lt; lia).
      replace (Rabs (sg s (IZR (Zpos m) * bpow e))) with (IZR (Zpos m) * bpow e) by (destruct s; cbn [sg]; rewrite ?Rabs_Ropp, Rabs_right by nra; reflexivity).
      assert (Bm' : (Zpos m <= 2 ^ 24 - 1)%Z) by lia. apply IZR_le in Bm'. rewrite minus_IZR, <- bpow_Z in Bm' by lia. apply Rle_trans with ((bpow 24 - 1) * bpow 104).
      + apply Rmult_le_compat; try lra. apply bpow_le. lia.
      + rewrite Rmult_minus_distr_r, <- bpow_add, Rmult_1_l. apply Rle_refl. }
  split; [exact Hb|]. destruct (Fi Hb) as (_ & _ & Nr). specialize (Nr w' H'). rewrite <- Ex in Nr. replace (FR x - FR x) with 0 in Nr by ring. rewrite Rabs_R0 in Nr.
  pose proof (Rabs_pos (FR (of_f32 w) - FR x)). assert (Z0 : Rabs (FR (of_f32 w) - FR x) = 0) by lra. destruct (Req_dec (FR (of_f32 w) - FR x) 0) as [X|X]; [lra|]. now apply Rabs_no_R0 in X.
Qed.
Lemma go_ops_wf un cn : wf_fops (go_ops un cn).
Proof.
  intros x. cbn [to32 go_ops]. unfold to_f32. apply f32_bits_ok. destruct x as [s|s| |s m e]; try reflexivity. exact (proj1 (f32_round_ok (S754_finite s m e) eq_refl)).
Qed.

(** ** A whole run *)
Lemma all_turns m k : gives_turns (concat (repeat (seq 0 k) m)) k m.
Proof.
  intros i Hi. induction m as [|m IH]; [apply Nat.le_0_l|]. cbn [repeat concat]. rewrite count_occ_app. assert (count_occ Nat.eq_dec (seq 0 k) i = 1%nat); [|lia].
  apply NoDup_count_occ'; [apply seq_NoDup|apply in_seq; lia].
Qed.
Lemma run_exists E conc : wf_env E -> exists st ts dst sched st' dst' n, reachable E conc st ts /\ read_triangles st dst sched = Returned st' dst' n true.
Proof.
  intros HE. enough (G : forall N st ts, (measure st < N)%nat -> reachable E conc st ts -> exists st ts dst sched st' dst' n, reachable E conc st ts /\ read_triangles st dst sched = Returned st' dst' n true)
    by exact (G _ _ _ (Nat.lt_succ_diag_r _) (reach_init E conc)).
  induction N as [|N IH]; intros st ts HN Hr; [lia|]. destruct (C02_returns E conc st ts [e_zero E] _ HE Hr ltac:(discriminate) (all_turns _ _)) as (st' & dst' & n & eof & Hc).
  destruct eof; [repeat eexists; eassumption|]. apply (IH st' (ts ++ firstn n dst')); [|exact (reach_call _ _ _ _ _ _ _ _ _ _ Hr Hc)].
  destruct (reachable_inv _ _ _ _ HE Hr) as (I1 & _). destruct (read_triangles_ok st [e_zero E] (concat (repeat (seq 0 (S (Z.to_nat conc))) (S (length (o_todo st))))) HE I1 (ltac:(discriminate) : [e_zero E] <> [])) as [[H _]|(st2 & d2 & n2 & e2 & H & Hok)]; rewrite Hc in H; [discriminate|].
  injection H as <- <- <- <-. destruct Hok as [_ _ _ _ _ _ _ A8 _]. cbn in A8. lia.
Qed.

(** ** Vertices *)
(** the point that three float64 coordinates stand for *)
Definition pos (v : fvec) : v3 := let '(x, y, z) := v in V3 (FR x) (FR y) (FR z).
Definition numv (v : fvec) : Prop := let '(x, y, z) := v in num x /\ num y /\ num z.
Lemma back_error x y : Rabs (y - x) <= bpow (-24) * Rabs x + bpow (-150) -> Rabs (y - x) <= bpow (-23) * Rabs y + bpow (-149).
Proof.
  intros H. assert (E1 : bpow (-149) = 2 * bpow (-150)) by (rewrite <- bpow_1, <- bpow_add; reflexivity). assert (E2 : bpow (-23) = 2 * bpow (-24)) by (rewrite <- bpow_1, <- bpow_add; reflexivity).
  assert (E3 : bpow (-24) <= / 4). { change (-24)%Z with (- (24))%Z. rewrite bpow_opp, bpow_Z by lia. change (2 ^ 24)%Z with 16777216%Z. lra. }
  pose proof (bpow_pos (-24)) as P. pose proof (bpow_pos (-150)) as P'. rewrite E1, E2. pose proof (Rabs_triang_inv x (x - y)) as T. replace (x - (x - y)) with y in T by ring. rewrite (Rabs_minus_sym x y) in T.
  pose proof (Rabs_pos (y - x)). pose proof (Rabs_pos x). pose proof (Rabs_pos y). set (d := Rabs (y - x)) in *. set (a := Rabs x) in *. set (b := Rabs y) in *. clearbody d a b. set (c := bpow (-24)) in *. set (q := bpow (-150)) in *. clearbody c q. nra.
Qed.
Lemma dev_norm c d (v w : v3) : 0 <= c -> 0 <= d -> Rabs (x3 v - x3 w) <= c * Rabs (x3 v) + d -> Rabs (y3 v - y3 w) <= c * Rabs (y3 v) + d -> Rabs (z3 v - z3 w) <= c * Rabs (z3 v) + d ->
  dist3 v w <= c * norm3 v + 2 * d.
Proof.
  intros C D H1 H2 H3. destruct v as [a b e], w as [a' b' e']. unfold dist3, norm3, norm3sq, dot3, sub3 in *. cbn [x3 y3 z3] in *.
  assert (Sq : forall t, t * t = Rabs t * Rabs t) by (intros t; unfold Rabs; destruct (Rcase_abs t); ring). rewrite (Sq (a - a')), (Sq (b - b')), (Sq (e - e')), (Sq a), (Sq b), (Sq e).
  pose proof (Rabs_pos (a - a')). pose proof (Rabs_pos (b - b')). pose proof (Rabs_pos (e - e')). pose proof (Rabs_pos a). pose proof (Rabs_pos b). pose proof (Rabs_pos e).
  set (p := Rabs (a - a')) in *. set (q := Rabs (b - b')) in *. set (r := Rabs (e - e')) in *. set (x := Rabs a) in *. set (y := Rabs b) in *. set (z := Rabs e) in *. clearbody p q r x y z. clear Sq.
  set (n := sqrt (x * x + y * y + z * z)). assert (N0 : 0 <= n) by apply sqrt_pos. assert (N2 : n * n = x * x + y * y + z * z) by (apply sqrt_sqrt; nra). clearbody n.
  assert (Sm : x + y + z <= 2 * n). { apply Rsqr_incr_0_var; [|lra]. unfold Rsqr. pose proof (Rle_0_sqr (x - y)). pose proof (Rle_0_sqr (y - z)). pose proof (Rle_0_sqr (x - z)). unfold Rsqr in *. nra. }
  assert (K : forall p x, 0 <= p -> 0 <= x -> p <= c * x + d -> p * p <= c * c * (x * x) + 2 * (c * d) * x + d * d). { intros p0 x0 P0 X0 L. apply Rle_trans with ((c * x0 + d) * (c * x0 + d)); [apply Rmult_le_compat; lra|apply Req_le; ring]. }
  pose proof (K p x ltac:(assumption) ltac:(assumption) H1) as K1. pose proof (K q y ltac:(assumption) ltac:(assumption) H2) as K2. pose proof (K r z ltac:(assumption) ltac:(assumption) H3) as K3. clear K.
  assert (Cd : 0 <= c * d) by (apply Rmult_le_pos; lra). assert (2 * (c * d) * (x + y + z) <= 2 * (c * d) * (2 * n)) by (apply Rmult_le_compat_l; lra). assert (0 <= d * d) by (apply Rmult_le_pos; lra). assert (0 <= c * n) by (apply Rmult_le_pos; lra).
  rewrite <- (sqrt_square (c * n + 2 * d)) by lra. apply sqrt_le_1_alt. apply Rle_trans with (c * c * (n * n) + 4 * (c * d) * n + 3 * (d * d)); [rewrite N2; lra|]. nra.
Qed.
(** a vertex read back *)
Lemma vertex_back un cn (p : fv3) : valid3 p -> fin3 p -> bad3 (vec_to32 (go_ops un cn) (to_fvec p)) = false ->
  let P := vec_of32 (go_ops un cn) (vec_to32 (go_ops un cn) (to_fvec p)) in numv P /\ dist3 (pos P) (FR3 p) <= bpow (-23) * norm3 (pos P) + bpow (-148).
Proof.
  intros (V1 & V2 & V3') (F1 & F2 & F3') H. cbn [bad3 vec_to32 to_fvec go_ops to32] in H. apply orb_false_iff in H as (H & H3). apply orb_false_iff in H as (H1 & H2). cbn [vec_of32 vec_to32 to_fvec go_ops of32 to32 numv pos]. cbv zeta.
  destruct (C104_float32 _ F1 V1) as (_ & _ & A1 & _). destruct (A1 H1) as (N1 & E1 & _). destruct (C104_float32 _ F2 V2) as (_ & _ & A2 & _). destruct (A2 H2) as (N2 & E2 & _). destruct (C104_float32 _ F3' V3') as (_ & _ & A3 & _). destruct (A3 H3) as (N3 & E3 & _).
  split; [auto|]. assert (E148 : bpow (-148) = 2 * bpow (-149)) by (rewrite <- bpow_1, <- bpow_add; reflexivity). rewrite E148. apply dev_norm; unfold FR3; cbn [x3 y3 z3]; try (apply Rlt_le, bpow_pos); now apply back_error.
Qed.

Lemma fstl_surface un cn degen F o r levels : surface_triangles (fstl_env un cn degen F o r levels) = map to_tri (surface_triangles (foctree_env degen F o r levels)).
Proof.
  unfold surface_triangles. cbn [e_levels fstl_env foctree_env e_leaf].
  change (kept (fstl_env un cn degen F o r levels)) with (kept (foctree_env degen F o r levels)). set (l := filter _ _). clearbody l.
  induction l as [|v l IH]; [reflexivity|]. cbn [flat_map]. rewrite map_app, IH. reflexivity.
Qed.
Lemma fstl_wf un cn degen F o r levels : (2 <= levels)%nat -> wf_env (fstl_env un cn degen F o r levels).
Proof. intros H. destruct (foctree_wf degen F o r levels H) as (A & B). split; [|exact B]. intros v. cbn [e_leaf fstl_env]. rewrite map_length. exact (A v). Qed.
(** what a file that was accepted contains: every triangle read is a delivered one with its vertices rounded, and these are numbers *)
Lemma accepted un cn degen F o r levels conc calls inner fuel blen b oc : (2 <= levels)%nat -> (50 <= blen)%nat ->
  let O := go_ops un cn in let E := fstl_env un cn degen F o r levels in
  feed_create O (@octree_feed E) inner fuel blen [] (init_octree E conc, calls) = Some (b, oc) ->
  oc = OK /\ exists bs ts, b = Some bs /\ Permutation ts (surface_triangles (foctree_env degen F o r levels)) /\
    forall evs rest out er s', read_binary_stl O (Src (bs ++ rest) evs) = Some (out, er, s') -> er = NoErr \/ er = MismatchErr ->
    let ts' := firstn (N.to_nat (N.of_nat (length ts) mod 2 ^ 32)) ts in
    out = map (fun t => round_tri O (to_tri t)) ts' /\
    forall A B C, In (A, B, C) ts' -> forall P, P = A \/ P = B \/ P = C -> bad3 (vec_to32 O (to_fvec P)) = false.
Proof.
  intros Hl Hb O E HC. destruct (C90_accepted O (go_ops_wf un cn) _ _ _ _ conc calls inner fuel blen b oc (fstl_wf un cn degen F o r levels Hl) Hb HC) as (Ho & bs & us & Eb & HP & HR).
  split; [exact Ho|]. change (Permutation us (surface_triangles (fstl_env un cn degen F o r levels))) in HP. rewrite fstl_surface in HP.
  apply Permutation_map_inv in HP as (ts & -> & HP). exists bs, ts. split; [exact Eb|]. split; [apply Permutation_sym; exact HP|].
  intros evs rest out er s' Hr He ts'. destruct (HR evs rest out er s' Hr He) as (A & B). rewrite map_length in A, B. unfold O in *. rewrite firstn_map in A, B. change (firstn _ ts) with ts' in A, B. split.
  - rewrite A, map_map. reflexivity.
  - intros A0 B0 C0 Hin P HP'. rewrite Forall_forall in B. specialize (B _ (in_map to_tri _ _ Hin)). unfold good_tri, proper in B. cbn [encode to_tri s_n s_1 s_2 s_3] in B.
    destruct B as (_ & B1 & B2 & B3 & _). destruct HP' as [->|[->| ->]]; assumption.
Qed.

(** ** From the solid to the triangles read back *)
(** A solid with float64 parameters that can be rendered is rendered with its own Bounds and meshCells = m into a file by CreateSTL, no file operation failing. CreateSTL reports success, and whoever then
    reads the file with readBinarySTL, however the bytes arrive, gets an error or triangles whose vertices are all within half a cell, 1e-12, the evaluation error and a float32 rounding of the surface. *)
Theorem C104_read_back S B X lg e s m degen un cn : renderable S B X lg e s m ->
  exists o r k, fnew_octree lg (fbounds3 e) m = Ok (o, r, Datatypes.S k) /\
    let O := go_ops un cn in let E := fstl_env un cn degen (feval3 e) o r (Datatypes.S k) in
    forall conc calls inner fuel blen b oc, (50 <= blen)%nat -> feed_create O (@octree_feed E) inner fuel blen [] (init_octree E conc, calls) = Some (b, oc) ->
    oc = OK /\ exists bs, b = Some bs /\
      forall evs rest out er s', read_binary_stl O (Src (bs ++ rest) evs) = Some (out, er, s') -> er = NoErr \/ er = MismatchErr ->
      forall A B0 C P, In (A, B0, C) out -> P = A \/ P = B0 \/ P = C ->
      numv P /\ Rabs (ev3 s (pos P)) <= 1.0101 * longest (fbounds3 e) / (2 * IZR m) + / 1000000000000 + (err e + 100) * (u53 * S) + bpow (-23) * norm3 (pos P) + bpow (-148).
Proof.
  intros H. pose proof (C103_contains _ _ _ _ _ _ _ H) as Out. destruct (C103_vertices S B X lg e s m degen H) as (o & r & k & E & HV). exists o, r, k. split; [exact E|]. destruct H.
  destruct (C102_scene S B lg e s (fbounds3 e) m X rd_S rd_fits rd_build rd_small rd_log rd_box rd_cells rd_B rd_BS Out) as (o' & r' & k' & E' & SC & _). rewrite E in E'. injection E' as <- <- <-.
  assert (Hk : (2 <= Datatypes.S k)%nat) by (destruct SC as [_ _ _ _ _ Hk _ _]; lia). assert (Lp : lip3 (ev3 s)) by (destruct SC; assumption). clear SC.
  intros O En conc calls inner fuel blen b oc Hb HC. destruct (accepted un cn degen (feval3 e) o r (Datatypes.S k) conc calls inner fuel blen b oc Hk Hb HC) as (Ho & bs & ts & Eb & HP & HR). split; [exact Ho|]. exists bs. split; [exact Eb|].
  intros evs rest out er s' Hr He A B0 C P Hin HPt. destruct (HR evs rest out er s' Hr He) as (Eo & Hg). clear HR. rewrite Eo in Hin. apply in_map_iff in Hin as ([[a b0] c] & Et & Hin).
  assert (Hs : In (a, b0, c) (surface_triangles (foctree_env degen (feval3 e) o r (Datatypes.S k)))). { apply (Permutation_in _ HP). rewrite <- (firstn_skipn (N.to_nat (N.of_nat (length ts) mod 2 ^ 32)) ts). apply in_or_app. left. exact Hin. }
  destruct (run_exists (foctree_env degen (feval3 e) o r (Datatypes.S k)) conc (foctree_wf _ _ _ _ _ Hk)) as (st & us & dst & sched & st' & dst' & n & R1 & R2).
  apply (Permutation_in _ (Permutation_sym (C01_exactly_once _ conc _ _ _ _ _ _ _ (foctree_wf _ _ _ _ _ Hk) R1 R2))) in Hs.
  assert (Q : exists p, (p = a \/ p = b0 \/ p = c) /\ P = vec_of32 O (vec_to32 O (to_fvec p))) by (cbn [round_tri to_tri] in Et; injection Et as <- <- <-; destruct HPt as [->|[->| ->]]; eauto).
  destruct Q as (p & Hp & ->). destruct (HV conc st us dst sched st' dst' n R1 R2 a b0 c p Hs Hp) as (V & F & D). destruct (vertex_back un cn p V F (Hg a b0 c Hin p Hp)) as (Nv & Dv). fold O in Nv, Dv. split; [exact Nv|].
  specialize (Lp (pos (vec_of32 O (vec_to32 O (to_fvec p)))) (FR3 p)). set (P := pos _) in *. pose proof (Rabs_triang (ev3 s P - ev3 s (FR3 p)) (ev3 s (FR3 p))) as T. replace (ev3 s P - ev3 s (FR3 p) + ev3 s (FR3 p)) with (ev3 s P) in T by ring. lra.
Qed.
Lemma dirs_round un cn (l : list (fv3 * fv3 * fv3)) : let rv := fun p => vec_of32 (go_ops un cn) (vec_to32 (go_ops un cn) (to_fvec p)) in
  mesh_dirs (map (fun t => round_tri (go_ops un cn) (to_tri t)) l) = map (fun d => (rv (fst d), rv (snd d))) (mesh_dirs l).
Proof. intros rv. unfold mesh_dirs. induction l as [|[[a b] c] l IH]; [reflexivity|]. cbn [map flat_map]. rewrite map_app, IH. reflexivity. Qed.
(** The surface that is read back is closed up to rounding, under the conditions of C103_closed_partial and if the number of triangles fits the 32-bit field: every directed edge has a reverse
    whose ends are within 120 units and float32 roundings of its own. *)
Theorem C104_closed_partial S B X lg e s m degen un cn : renderable S B X lg e s m ->
  exists o r k, fnew_octree lg (fbounds3 e) m = Ok (o, r, Datatypes.S k) /\
    let O := go_ops un cn in let E := fstl_env un cn degen (feval3 e) o r (Datatypes.S k) in
    (forall g, in_side (2 ^ Z.of_nat k) (dbl g) -> (err e + 20) * (u53 * S) < Rabs (ev3 s (grid_pos (FR3 o) (FR r) (dbl g)))) ->
    (forall v t, In v (cells (V3I 0 0 0) (2 ^ (k - 1))) -> In t (fleaf (fun _ => false) (feval3 e) o r v) -> degen t = false) ->
    (N.of_nat (length (surface_triangles E)) < 2 ^ 32)%N ->
    forall conc calls inner fuel blen b oc, (50 <= blen)%nat -> feed_create O (@octree_feed E) inner fuel blen [] (init_octree E conc, calls) = Some (b, oc) ->
    oc = OK /\ exists bs, b = Some bs /\
      forall evs rest out er s', read_binary_stl O (Src (bs ++ rest) evs) = Some (out, er, s') -> er = NoErr \/ er = MismatchErr ->
      forall A B0, In (A, B0) (mesh_dirs out) -> exists A' B', In (B', A') (mesh_dirs out) /\
        dist3 (pos A) (pos A') <= 120 * (u53 * S) + bpow (-23) * (norm3 (pos A) + norm3 (pos A')) + bpow (-147) /\
        dist3 (pos B0) (pos B') <= 120 * (u53 * S) + bpow (-23) * (norm3 (pos B0) + norm3 (pos B')) + bpow (-147).
Proof.
  intros H. pose proof (C103_contains _ _ _ _ _ _ _ H) as Out. destruct (C103_vertices S B X lg e s m degen H) as (o & r & k & E & HV). destruct (C103_closed_partial S B X lg e s m degen H) as (o1 & r1 & k1 & E1 & HCl). rewrite E in E1. injection E1 as <- <- <-.
  exists o, r, k. split; [exact E|]. destruct H.
  destruct (C102_scene S B lg e s (fbounds3 e) m X rd_S rd_fits rd_build rd_small rd_log rd_box rd_cells rd_B rd_BS Out) as (o' & r' & k' & E' & SC & _). rewrite E in E'. injection E' as <- <- <-.
  assert (Hk : (2 <= Datatypes.S k)%nat) by (destruct SC as [_ _ _ _ _ Hk _ _]; lia). clear SC.
  intros O En Mg Dg Cnt conc calls inner fuel blen b oc Hb HC. destruct (accepted un cn degen (feval3 e) o r (Datatypes.S k) conc calls inner fuel blen b oc Hk Hb HC) as (Ho & bs & ts & Eb & HP & HR). split; [exact Ho|]. exists bs. split; [exact Eb|].
  intros evs rest out er s' Hr He A B0 Hin. destruct (HR evs rest out er s' Hr He) as (Eo & Hg). clear HR.
  assert (Lt : length ts = length (surface_triangles En)). { unfold En. rewrite fstl_surface, map_length. now apply Permutation_length. }
  rewrite N.mod_small, Nat2N.id, firstn_all in Eo, Hg by (rewrite Lt; exact Cnt).
  destruct (run_exists (foctree_env degen (feval3 e) o r (Datatypes.S k)) conc (foctree_wf _ _ _ _ _ Hk)) as (st & us & dst & sched & st' & dst' & n & R1 & R2).
  assert (HP2 : Permutation ts (us ++ firstn n dst')). { eapply Permutation_trans; [exact HP|]. apply Permutation_sym. exact (C01_exactly_once _ conc _ _ _ _ _ _ _ (foctree_wf _ _ _ _ _ Hk) R1 R2). }
  assert (HPd : Permutation (mesh_dirs ts) (mesh_dirs (us ++ firstn n dst'))) by (unfold mesh_dirs; now apply Permutation_flat_map).
  assert (Near : forall a b, In (a, b) (mesh_dirs ts) -> forall p, p = a \/ p = b -> let P := vec_of32 O (vec_to32 O (to_fvec p)) in dist3 (pos P) (FR3 p) <= bpow (-23) * norm3 (pos P) + bpow (-148)).
  { intros a b0 Hd p Hp. unfold mesh_dirs in Hd. apply in_flat_map in Hd as ([[x y] z] & Ht & Hd). assert (Hp' : p = x \/ p = y \/ p = z) by (cbn [tri_dirs] in Hd; destruct Hd as [Hd|[Hd|[Hd|[]]]]; injection Hd as <- <-; destruct Hp; auto).
    pose proof (Permutation_in _ HP2 Ht) as Ht2. destruct (HV conc st us dst sched st' dst' n R1 R2 x y z p Ht2 Hp') as (V & F & _). exact (proj2 (vertex_back un cn p V F (Hg x y z Ht p Hp'))). }
  pose proof (dirs_round un cn ts) as Ed. cbv zeta in Ed. rewrite <- Eo in Ed. fold O in Ed. rewrite Ed in Hin. apply in_map_iff in Hin as ([a b0] & Et & Hin). cbn [fst snd] in Et.
  destruct (HCl Mg Dg conc st us dst sched st' dst' n R1 R2 a b0 (Permutation_in _ HPd Hin)) as (a' & b' & Hin' & Da & Db). apply (Permutation_in _ (Permutation_sym HPd)) in Hin'.
  exists (vec_of32 O (vec_to32 O (to_fvec a'))), (vec_of32 O (vec_to32 O (to_fvec b'))). split; [rewrite Ed; apply in_map_iff; exists (b', a'); auto|].
  assert (E147 : bpow (-147) = 2 * bpow (-148)) by (rewrite <- bpow_1, <- bpow_add; reflexivity).
  pose proof (Near _ _ Hin a (or_introl eq_refl)) as Na. pose proof (Near _ _ Hin b0 (or_intror eq_refl)) as Nb. pose proof (Near _ _ Hin' a' (or_intror eq_refl)) as Na'. pose proof (Near _ _ Hin' b' (or_introl eq_refl)) as Nb'. cbv zeta in Na, Nb, Na', Nb'. injection Et as <- <-.
  clear - E147 Na Nb Na' Nb' Da Db.
  assert (Tri : forall P p p' P', dist3 P p <= bpow (-23) * norm3 P + bpow (-148) -> dist3 P' p' <= bpow (-23) * norm3 P' + bpow (-148) -> dist3 p p' <= 120 * (u53 * S) -> dist3 P P' <= 120 * (u53 * S) + bpow (-23) * (norm3 P + norm3 P') + bpow (-147)).
  { intros P p p' P' H1 H2 H3. pose proof (dist3_triangle P p P') as T1. pose proof (dist3_triangle p p' P') as T2. rewrite (dist3_sym p' P') in T2. lra. }
  split; eapply Tri; eassumption.
Qed.

Lemma read_all un cn degen F o r levels conc calls inner fuel blen b oc (mesh : list (tri64 (go_ops un cn))) : (2 <= levels)%nat -> (50 <= blen)%nat ->
  let O := go_ops un cn in let E := fstl_env un cn degen F o r levels in surface_triangles E = mesh ->
  feed_create O (@octree_feed E) inner fuel blen [] (init_octree E conc, calls) = Some (b, oc) ->
  mesh <> [] -> (N.of_nat (length mesh) < 2 ^ 32)%N -> Forall (good_tri O) mesh -> filter (mismatching O) mesh = [] ->
  exists bs out s', b = Some bs /\ read_binary_stl O (Src bs []) = Some (out, NoErr, s') /\ length out = length mesh.
Proof.
  intros Hl Hb O E <- HC N0 Ln G M. set (mesh := surface_triangles E) in *.
  destruct (C90_read_back O _ _ _ levels conc (go_ops_wf un cn) calls inner fuel blen b oc [] [] (fstl_wf un cn degen F o r levels Hl) Hb HC N0 Ln G) as (_ & bs & out & er & s' & Eb & Hr & _ & HP & _ & He).
  - change (length (filter (mismatching O) mesh) <= N.to_nat 10000)%nat. rewrite M. apply Nat.le_0_l.
  - constructor.
  - rewrite app_nil_r in Hr. exists bs, out, s'. split; [exact Eb|]. split; [|apply Permutation_length in HP; rewrite map_length in HP; exact HP].
    rewrite Hr. replace er with NoErr; [reflexivity|]. symmetry. apply He. intros t Ht. change (In t mesh) in Ht. destruct (mismatching O t) eqn:Em; [|reflexivity]. assert (X : In t (filter (mismatching O) mesh)) by (apply filter_In; auto). rewrite M in X. destruct X.
Qed.

(** ** Example: the unit ball rendered with 4 cells, written and read back *)
(** normals as gonum computes them, with the length as a square root of the sum of squares *)
Definition vsub (a b : fvec) : fvec := let '(a1, a2, a3) := a in let '(b1, b2, b3) := b in (FloatRound.fsub a1 b1, FloatRound.fsub a2 b2, FloatRound.fsub a3 b3).
Definition vcross (a b : fvec) : fvec := let '(a1, a2, a3) := a in let '(b1, b2, b3) := b in
  let det p q r s := FloatRound.fsub (FloatRound.fmul p s) (FloatRound.fmul q r) in (det a2 a3 b2 b3, det a3 a1 b3 b1, det a1 a2 b1 b2).
Definition vunit (a : fvec) : fvec := let '(x, y, z) := a in
  let n := fsqrt (FloatRound.fadd (FloatRound.fadd (FloatRound.fmul x x) (FloatRound.fmul y y)) (FloatRound.fmul z z)) in (FloatRound.fdiv x n, FloatRound.fdiv y n, FloatRound.fdiv z n).
Definition ex_un (t : fvec * fvec * fvec) : fvec := let '(a, b, c) := t in vunit (vcross (vsub b a) (vsub c b)).
Definition ex_cn (a b c : w3) : w3 := let f := fun w : w3 => let '(x, y, z) := w in (of_f32 x, of_f32 y, of_f32 z) in
  let '(x, y, z) := vunit (vcross (vsub (f b) (f a)) (vsub (f c) (f a))) in (to_f32 x, to_f32 y, to_f32 z).
Definition properb (d : stl_tri) : bool :=
  negb (bad3 (s_n d)) && negb (bad3 (s_1 d)) && negb (bad3 (s_2 d)) && negb (bad3 (s_3 d)) &&
  negb (within3 f32_tiny (fun x => x) (s_1 d) (s_2 d)) && negb (within3 f32_tiny (fun x => x) (s_2 d) (s_3 d)) && negb (within3 f32_tiny (fun x => x) (s_3 d) (s_1 d)).
Definition ball_env : env := fstl_env ex_un ex_cn (fun _ => false) (feval3 (TSphere f1)) o101 q101 4.
Definition ball_mesh : list (tri64 (go_ops ex_un ex_cn)) := surface_triangles ball_env.
Lemma ball_mesh_ok : length ball_mesh = 104%nat /\ forallb (fun t => properb (encode (go_ops ex_un ex_cn) t)) ball_mesh = true /\ filter (mismatching (go_ops ex_un ex_cn)) ball_mesh = [].
Proof. vm_compute. repeat split. Qed.
Lemma list_104 {T} (l : list T) : length l = 104%nat -> l <> [] /\ (N.of_nat (length l) < 2 ^ 32)%N.
Proof. intros H. split; [intros ->; discriminate|rewrite H; reflexivity]. Qed.
Lemma properb_ok d : properb d = true -> proper d.
Proof. unfold properb, proper. intros H. repeat (apply andb_prop in H; destruct H as (H & ?)). repeat match goal with X : negb _ = true |- _ => apply negb_true_iff in X end. auto 10. Qed.
Lemma fnew_octree_eq lg b m o r l : fnew_octree lg b m = Ok (o, r, l) -> let bb := fscale_about_center b f101 in o = fst bb /\ r = FloatRound.fdiv (FloatRound.fmul fhalf (fmaxc3 (fsize3 bb))) (fofZ m).
Proof. unfold fnew_octree. destruct (m <? 2)%Z; [discriminate|]. cbv zeta. destruct (64 <=? _)%nat; [discriminate|]. intros H. injection H as <- <- _. split; reflexivity. Qed.
Lemma ball_bounds : fbounds3 (TSphere f1) = (FV3 (SFopp f1) (SFopp f1) (SFopp f1), FV3 f1 f1 f1).
Proof. reflexivity. Qed.
Lemma ball_renderable : renderable 100 12 1 trunc_log2 (TSphere f1) ball 4 /\ longest (fbounds3 (TSphere f1)) = 2.
Proof.
  destruct f1_ok as (F1 & V1). pose proof FR_f1 as R1. assert (Ab : Rabs (FR f1) = 1) by (rewrite R1; apply Rabs_R1).
  assert (B30 : bpow (-30) <= 1) by (replace 1 with (bpow 0) by reflexivity; apply bpow_le; lia).
  assert (Bx : solid_box (fbounds3 (TSphere f1)) 1).
  { rewrite ball_bounds. constructor.
    - split; [replace 1 with (bpow 0) by reflexivity; apply bpow_le; lia|replace 1 with (bpow 0) by reflexivity; apply bpow_le; lia].
    - cbn [fst]. unfold at3. cbn [f3x f3y f3z]. rewrite FR_opp, Rabs_Ropp, Ab. repeat split; try reflexivity; lra.
    - cbn [snd]. unfold at3. cbn [f3x f3y f3z]. rewrite Ab. repeat split; try assumption; lra.
    - cbn [fst snd f3x f3y f3z]. rewrite FR_opp, R1. lra.
    - cbn [fst snd f3x f3y f3z]. rewrite FR_opp, R1. lra.
    - cbn [fst snd f3x f3y f3z]. rewrite FR_opp, R1. lra. }
  split.
  - constructor; [apply scale_small; lra| |exact (proj1 ball_scene)|cbn [mag err]; unfold small; lra|exact I|exists Euclid, 1; split; [lra|exact I]|exact trunc_log2_good|exact Bx| |split; [lia|discriminate]|lra|lra].
    + cbn [fits]. split; [lra|]. split; [split; assumption|]. rewrite Ab. lra.
    + unfold precise. rewrite ball_bounds. cbv zeta. cbn [berr fst snd f3x f3y f3z]. rewrite FR_opp, R1. pose proof u53_small as U. lra.
  - rewrite ball_bounds. unfold longest. cbn [fst snd f3x f3y f3z]. rewrite FR_opp, R1. unfold Rmax. repeat destruct (Rle_dec _ _); lra.
Qed.
(** NewOctreeRenderer gives the cells of [ball_env]; whatever the scheduling and the buffers, the file is read back without error, with all 104 triangles, and their vertices are within 0.26 of the sphere. *)
Example C104_example : fnew_octree trunc_log2 (fbounds3 (TSphere f1)) 4 = Ok (o101, q101, 4%nat) /\
  forall conc calls inner fuel blen b oc, (50 <= blen)%nat -> feed_create (go_ops ex_un ex_cn) (@octree_feed ball_env) inner fuel blen [] (init_octree ball_env conc, calls) = Some (b, oc) ->
  exists bs out s', b = Some bs /\ read_binary_stl (go_ops ex_un ex_cn) (Src bs []) = Some (out, NoErr, s') /\ length out = 104%nat /\
    forall A B C P, In (A, B, C) out -> P = A \/ P = B \/ P = C -> Rabs (norm3 (pos P) - 1) <= 0.26.
Proof.
  destruct ball_renderable as (Re & Lo). destruct (C104_read_back 100 12 1 trunc_log2 (TSphere f1) ball 4 (fun _ => false) ex_un ex_cn Re) as (o & r & k & E & H).
  destruct (C102_setup trunc_log2 (fbounds3 (TSphere f1)) 4 1 trunc_log2_good (rd_box _ _ _ _ _ _ _ Re) ltac:(split; [lia|discriminate])) as (o' & r' & k' & E' & Kk & Sp & _). rewrite E in E'. injection E' as <- <- <-.
  assert (k = 3%nat) as ->. { destruct k as [|[|[|[|k]]]]; try (cbn in Sp; lia). assert (2 ^ 3 <= 2 ^ (Z.of_nat (Datatypes.S (Datatypes.S (Datatypes.S (Datatypes.S k)))) - 1))%Z by (apply Z.pow_le_mono_r; lia). change (2 ^ 3)%Z with 8%Z in *. lia. }
  destruct (fnew_octree_eq _ _ _ _ _ _ E) as (Eo & Er). assert (o = o101) as -> by (rewrite Eo; vm_compute; reflexivity). assert (r = q101) as -> by (rewrite Er; vm_compute; reflexivity). split; [exact E|]. clear Eo Er.
  intros conc calls inner fuel blen b oc Hb HC. destruct ball_mesh_ok as (Ln & Pr & Mi).
  destruct (list_104 _ Ln) as (Ne & Nl).
  assert (Good : Forall (good_tri (go_ops ex_un ex_cn)) ball_mesh). { apply Forall_forall. intros t Ht. apply properb_ok. exact (proj1 (forallb_forall _ _) Pr t Ht). }
  destruct (read_all ex_un ex_cn (fun _ => false) (feval3 (TSphere f1)) o101 q101 4 conc calls inner fuel blen b oc ball_mesh ltac:(lia) Hb eq_refl HC Ne Nl Good Mi) as (bs & out & s' & Eb & Hr & Lo').
  exists bs, out, s'. split; [exact Eb|]. split; [exact Hr|]. split; [exact (eq_trans Lo' Ln)|]. intros A B C P Hin HP.
    destruct (H conc calls inner fuel blen b oc Hb HC) as (_ & bs' & Eb' & HR). rewrite Eb in Eb'. injection Eb' as <-. specialize (HR [] []). rewrite app_nil_r in HR. destruct (HR out NoErr s' Hr (or_introl eq_refl) A B C P Hin HP) as (_ & D).
    rewrite Lo in D. change (ev3 ball (pos P)) with (norm3 (pos P) - 1) in D. cbn [err] in D. pose proof u53_small as U. pose proof u53_pos as U0. set (nn := norm3 (pos P)) in *. assert (N0 : 0 <= nn) by apply sqrt_pos. clearbody nn.
    assert (B23 : bpow (-23) <= / 1000000). { change (-23)%Z with (- (23))%Z. rewrite bpow_opp, bpow_Z by lia. change (2 ^ 23)%Z with 8388608%Z. lra. }
    assert (B148 : bpow (-148) <= / 1000000) by (eapply Rle_trans; [|exact B23]; apply bpow_le; lia). pose proof (bpow_pos (-23)). apply Rabs_iff in D. apply Rabs_iff. assert (bpow (-23) * nn <= / 1000000 * nn) by (apply Rmult_le_compat_r; lra). lra.
Qed.
