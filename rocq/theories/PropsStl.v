(** Properties C17-C23: STL files. *)
From Coq Require Import List Arith NArith ZArith Bool Lia Floats.SpecFloat.
From Verif Require Import Prelude RenderIOModel StlModel StlProofs.
Import ListNotations.
Local Open Scope nat_scope.

Local Arguments N.mul : simpl never.
Local Arguments N.div : simpl never.
Local Arguments N.modulo : simpl never.
Local Arguments N.pow : simpl never.

(** ** The file format, independently of the writer *)
(** 32-bit little-endian word at byte offset [o]. *)
Definition word (b : list N) (o : nat) : N :=
  (nth o b 0 + 256 * nth (o + 1) b 0 + 65536 * nth (o + 2) b 0 + 16777216 * nth (o + 3) b 0)%N.

(** The twelve floats of a triangle in the order they are stored. *)
Definition tri_words (O : fops) (t : tri64 O) : list N :=
  let '((ax, ay, az), (bx, by_, bz), (cx, cy, cz)) := t in
  let '(nx, ny, nz) := unit_normal O t in
  map (to32 O) [nx; ny; nz; ax; ay; az; bx; by_; bz; cx; cy; cz].

(** A well-formed binary STL for [ts]. *)
Definition stl_format (O : fops) (ts : list (tri64 O)) (b : list N) : Prop :=
  length b = 84 + 50 * length ts /\
  (forall i, i < 80 -> nth i b 1%N = 0%N) /\
  word b 80 = N.of_nat (length ts) /\
  (forall i t, nth_error ts i = Some t ->
     (forall j, j < 12 -> word b (84 + 50 * i + 4 * j) = nth j (tri_words O t) 0%N) /\
     nth (84 + 50 * i + 48) b 1%N = 0%N /\ nth (84 + 50 * i + 49) b 1%N = 0%N) /\
  Forall (fun x => (x < 256)%N) b.

Lemma firstn_app_all {T} (a b : list T) n : length a = n -> firstn n (a ++ b) = a.
Proof. intros <-. rewrite firstn_app, Nat.sub_diag, firstn_O, app_nil_r. apply firstn_all. Qed.
Lemma skipn_app_all {T} (a b : list T) n : length a = n -> skipn n (a ++ b) = b.
Proof. intros <-. rewrite skipn_app, Nat.sub_diag, skipn_all. reflexivity. Qed.

Lemma word_app b c o : word (b ++ c) (length b + o) = word c o.
Proof.
  unfold word. rewrite <- !Nat.add_assoc, !app_nth2_plus. reflexivity.
Qed.
Lemma word_le32 n r : (n < 2 ^ 32)%N -> word (le32 n ++ r) 0 = n.
Proof.
  intros H. rewrite <- (un_le32_le32 n r H) at 2. unfold word, un_le32.
  change (2 ^ 8)%N with 256%N. change (2 ^ 16)%N with 65536%N. change (2 ^ 24)%N with 16777216%N.
  change (0 + 1) with 1. change (0 + 2) with 2. change (0 + 3) with 3. lia.
Qed.
Lemma word_le32_S n r o : word (le32 n ++ r) (4 + o) = word r o.
Proof. apply (word_app (le32 n) r o). Qed.

Lemma put_words O (HO : wf_fops O) (t : tri64 O) r j : j < 12 ->
  word (put (encode O t) ++ r) (4 * j) = nth j (tri_words O t) 0%N.
Proof.
  intros Hj.
  destruct t as [[[[a1 a2] a3] [[b1 b2] b3]] [[c1 c2] c3]].
  unfold encode, put, put3, tri_words. cbn [s_n s_1 s_2 s_3].
  set (t := (_, _, _)). destruct (unit_normal O t) as [[n1 n2] n3]. cbn [vec_to32].
  rewrite <- !app_assoc.
  do 12 (destruct j as [|j]; [cbn [map nth];
    repeat match goal with |- context [word (le32 ?n ++ ?r) (4 * S ?k)] =>
      replace (4 * S k) with (4 + 4 * k) by lia; rewrite word_le32_S end;
    change (4 * 0) with 0; apply word_le32; apply HO|]).
  lia.
Qed.

Lemma put_zeros t r : nth 48 (put t ++ r) 1%N = 0%N /\ nth 49 (put t ++ r) 1%N = 0%N.
Proof. destruct t as [[[a b] c] [[d e] f] [[g h] i] [[j k] l]]. split; reflexivity. Qed.

Lemma records_nth O (HO : wf_fops O) : forall ts i t r, nth_error ts i = Some t ->
  exists r', skipn (50 * i) (records O ts ++ r) = put (encode O t) ++ r'.
Proof.
  induction ts as [|t0 ts IH]; intros i t r Hi; [destruct i; discriminate|].
  change (records O (t0 :: ts)) with (put (encode O t0) ++ records O ts).
  rewrite <- app_assoc.
  destruct i as [|i].
  - injection Hi as ->. exists (records O ts ++ r). reflexivity.
  - replace (50 * S i) with (50 + 50 * i) by lia. rewrite <- skipn_skipn.
    rewrite (skipn_app_all (put _)) by apply put_length.
    apply IH. assumption.
Qed.

Lemma nth_skipn {T} (l : list T) a b d : nth b (skipn a l) d = nth (a + b) l d.
Proof. revert l. induction a as [|a IH]; intros [|x l]; try reflexivity; [destruct b; reflexivity|]. apply IH. Qed.
Lemma word_skipn l a b : word (skipn a l) b = word l (a + b).
Proof. unfold word. rewrite !nth_skipn, !Nat.add_assoc. reflexivity. Qed.

Lemma put_bytes t : Forall (fun x => (x < 256)%N) (put t).
Proof.
  destruct t as [[[a b] c] [[d e] f] [[g h] i] [[j k] l]].
  unfold put, put3. cbn [s_n s_1 s_2 s_3].
  repeat (apply Forall_app; split); try apply le32_bytes. repeat constructor.
Qed.

Lemma stl_file_format O (HO : wf_fops O) ts : (N.of_nat (length ts) < 2 ^ 32)%N ->
  stl_format O ts (stl_file O (N.of_nat (length ts)) ts).
Proof.
  intros Hn. unfold stl_file, stl_format. repeat split.
  - rewrite app_length, header_length, records_length. reflexivity.
  - intros i Hi. rewrite app_nth1 by (rewrite header_length; lia).
    unfold header. rewrite app_nth1 by (rewrite repeat_length; lia).
    assert (nth i (repeat 0%N 80) 0%N = 0%N) by apply nth_repeat.
    rewrite nth_indep with (d' := 0%N) by (rewrite repeat_length; lia). assumption.
  - unfold header. rewrite <- app_assoc.
    replace 80 with (length (repeat 0%N 80) + 0) by (rewrite repeat_length; reflexivity).
    rewrite word_app. apply word_le32. assumption.
  - intros j Hj.
    destruct (records_nth O HO ts i t [] H) as [r' Hr]. rewrite app_nil_r in Hr.
    rewrite <- Nat.add_assoc. rewrite <- (header_length (N.of_nat (length ts))) at 1. rewrite word_app.
    rewrite <- word_skipn, Hr. apply put_words; assumption.
  - destruct (records_nth O HO ts i t [] H) as [r' Hr]. rewrite app_nil_r in Hr.
    rewrite <- Nat.add_assoc. rewrite <- (header_length (N.of_nat (length ts))) at 1. rewrite app_nth2_plus.
    rewrite <- nth_skipn, Hr. apply put_zeros.
  - destruct (records_nth O HO ts i t [] H) as [r' Hr]. rewrite app_nil_r in Hr.
    rewrite <- Nat.add_assoc. rewrite <- (header_length (N.of_nat (length ts))) at 1. rewrite app_nth2_plus.
    rewrite <- nth_skipn, Hr. apply put_zeros.
  - apply Forall_app. split.
    + unfold header. apply Forall_app. split; [apply Forall_repeat; lia | apply le32_bytes].
    + unfold records. rewrite Forall_forall. intros x Hx. apply in_flat_map in Hx.
      destruct Hx as (t & _ & Hx). pose proof (put_bytes (encode O t)) as Hp.
      rewrite Forall_forall in Hp. apply Hp. assumption.
Qed.

Lemma exec_writes_none ws : exec_writes None ws = (concat ws, true).
Proof. induction ws as [|w ws IH]; [reflexivity|]. cbn [exec_writes]. rewrite IH. reflexivity. Qed.

(** ** C17 *)
Theorem C17_write_stl O (HO : wf_fops O) (ts : list (tri64 O)) :
  (ts <> [] -> (N.of_nat (length ts) <= 2 ^ 32 - 1)%N ->
    exists b, run_write_stl O None ts = (b, true) /\ stl_format O ts b) /\
  (ts = [] \/ (2 ^ 32 - 1 < N.of_nat (length ts))%N ->
    forall fail, run_write_stl O fail ts = ([], false)).
Proof.
  split.
  - intros Hne Hn. exists (stl_file O (N.of_nat (length ts)) ts). split.
    + unfold run_write_stl, write_stl. destruct ts as [|t ts]; [congruence|].
      set (tts := t :: ts) in *.
      replace (2 ^ 32 - 1 <? N.of_nat (length tts))%N with false by (symmetry; apply N.ltb_ge; assumption).
      rewrite exec_writes_none. unfold stl_file. cbn [concat]. rewrite <- flat_map_concat_map. reflexivity.
    + apply stl_file_format; [assumption|]. change (2 ^ 32)%N with 4294967296%N in *. lia.
  - intros H fail. unfold run_write_stl, write_stl. destruct ts as [|t ts]; [reflexivity|].
    destruct H as [H | H]; [discriminate|]. apply N.ltb_lt in H. rewrite H. reflexivity.
Qed.

(** A failing writer: WriteSTL reports it, and the bytes written are a prefix of
    the complete file. *)
Lemma exec_writes_fail : forall ws i k, i < length ws ->
  exists m, exec_writes (Some (i, k)) ws = (firstn m (concat ws), false).
Proof.
  induction ws as [|w ws IH]; intros i k Hi; [cbn in Hi; lia|].
  destruct i as [|i].
  - exists (Nat.min k (length w)). cbn [exec_writes concat]. rewrite firstn_app.
    replace (Nat.min k (length w) - length w) with 0 by lia. rewrite firstn_O, app_nil_r.
    f_equal. destruct (Nat.le_gt_cases k (length w)).
    + now rewrite Nat.min_l.
    + rewrite Nat.min_r by lia. rewrite firstn_all. apply firstn_all2. lia.
  - cbn in Hi. destruct (IH i k) as [m Hm]; [lia|]. exists (length w + m).
    cbn [exec_writes concat]. rewrite Hm, firstn_app_2. reflexivity.
Qed.

Theorem C17_failing_writer O (ts : list (tri64 O)) i k :
  ts <> [] -> (N.of_nat (length ts) <= 2 ^ 32 - 1)%N -> i <= length ts ->
  exists m, run_write_stl O (Some (i, k)) ts = (firstn m (fst (run_write_stl O None ts)), false).
Proof.
  intros Hne Hn Hi. unfold run_write_stl, write_stl. destruct ts as [|t ts]; [congruence|].
  set (tts := t :: ts) in *.
  replace (2 ^ 32 - 1 <? N.of_nat (length tts))%N with false by (symmetry; apply N.ltb_ge; assumption).
  rewrite exec_writes_none. cbn [fst]. apply exec_writes_fail. cbn [length]. rewrite map_length. lia.
Qed.

(** A concrete instance of the float operations: float64s are represented by
    float32 patterns, the normal is +z. *)
Definition ex_ops : fops :=
  FOps N (fun x => (x mod 2 ^ 32)%N) (fun x => x) (fun _ => (0, 0, 0x3f800000)%N) (fun _ _ _ => (0, 0, 0x3f800000)%N).
Lemma ex_ops_wf : wf_fops ex_ops.
Proof. intros x. cbn [to32 ex_ops]. apply N.mod_lt. discriminate. Qed.
(** (0,0,0) (1,0,0) (0,1,0) and (1,1,1) (2,1,1) (1,2,1) *)
Definition ex_t1 : tri64 ex_ops := ((0, 0, 0), (0x3f800000, 0, 0), (0, 0x3f800000, 0))%N.
Definition ex_t2 : tri64 ex_ops :=
  ((0x3f800000, 0x3f800000, 0x3f800000), (0x40000000, 0x3f800000, 0x3f800000), (0x3f800000, 0x40000000, 0x3f800000))%N.

Example C17_nonvacuous : exists b, run_write_stl ex_ops None [ex_t1; ex_t2] = (b, true) /\ length b = 184.
Proof. eexists. split; [vm_compute; reflexivity|reflexivity]. Qed.

(** ** C18 *)
Section Neg.
Local Open Scope N_scope.
Lemma f32_neg' w : f32_of_bits (neg32 w) = SFopp (f32_of_bits w).
Proof.
  unfold neg32. set (v := N.lxor w (2 ^ 31)).
  assert (B : forall i, N.testbit v i = xorb (N.testbit w i) (i =? 31)) by (intros i; unfold v; rewrite N.lxor_spec, N.pow2_bits_eqb, (N.eqb_sym 31); reflexivity).
  assert (M : v mod 2 ^ 23 = w mod 2 ^ 23).
  { apply N.bits_inj. intros i. destruct (N.lt_ge_cases i 23) as [H|H]; [|now rewrite !N.mod_pow2_bits_high]. rewrite !N.mod_pow2_bits_low, B by assumption. replace (i =? 31) with false by (symmetry; apply N.eqb_neq; lia). apply xorb_false_r. }
  assert (E : v / 2 ^ 23 mod 256 = w / 2 ^ 23 mod 256).
  { change 256 with (2 ^ 8). apply N.bits_inj. intros i. destruct (N.lt_ge_cases i 8) as [H|H]; [|now rewrite !N.mod_pow2_bits_high]. rewrite !N.mod_pow2_bits_low, !N.div_pow2_bits, B by assumption. replace (i + 23 =? 31) with false by (symmetry; apply N.eqb_neq; lia). apply xorb_false_r. }
  unfold f32_of_bits. rewrite M, E, B. change (31 =? 31) with true. rewrite xorb_true_r.
  destruct (w / 2 ^ 23 mod 256 =? 255); [destruct (w mod 2 ^ 23 =? 0); reflexivity|]. destruct (w / 2 ^ 23 mod 256 =? 0); [destruct (w mod 2 ^ 23); reflexivity|]. destruct (w mod 2 ^ 23 + 2 ^ 23); reflexivity.
Qed.
End Neg.
(** Two vectors of float32 bit patterns with all coordinates within a float32 tolerance, in float32 arithmetic. *)
Definition within32 (tol : spec_float) (x y : spec_float) : bool := SFleb (SFabs (SFsub 24 128 x y)) tol.
Definition within3 (tol : spec_float) (flip : spec_float -> spec_float) (a b : w3) : bool :=
  let '(a0, a1, a2) := a in let '(b0, b1, b2) := b in
  within32 tol (flip (f32_of_bits a0)) (f32_of_bits b0) && within32 tol (flip (f32_of_bits a1)) (f32_of_bits b1) && within32 tol (flip (f32_of_bits a2)) (f32_of_bits b2).
(** the float32 numbers nearest to 10^-12 and 0.05 *)
Definition f32_tiny : spec_float := S754_finite false 9223372 (-63).
Definition f32_05 : spec_float := S754_finite false 13421773 (-28).
(** Three finite float32 points, no two of which coincide, with a finite normal. *)
Definition proper (d : stl_tri) : Prop :=
  bad3 (s_n d) = false /\ bad3 (s_1 d) = false /\ bad3 (s_2 d) = false /\ bad3 (s_3 d) = false /\
  within3 f32_tiny (fun x => x) (s_1 d) (s_2 d) = false /\ within3 f32_tiny (fun x => x) (s_2 d) (s_3 d) = false /\ within3 f32_tiny (fun x => x) (s_3 d) (s_1 d) = false.
Lemma within_deg a b : equal_within eps_deg a b = within3 f32_tiny (fun x => x) a b.
Proof. destruct a as [[a0 a1] a2], b as [[b0 b1] b2]. reflexivity. Qed.
Lemma within_norm a b : equal_within tol_norm a b = within3 f32_05 (fun x => x) a b.
Proof. destruct a as [[a0 a1] a2], b as [[b0 b1] b2]. reflexivity. Qed.
Lemma f32_neg w : f32_of_bits (neg32 w) = SFopp (f32_of_bits w).
Proof. exact (f32_neg' w). Qed.
Lemma within_neg a b : equal_within tol_norm (neg3 a) b = within3 f32_05 SFopp a b.
Proof.
  destruct a as [[a0 a1] a2], b as [[b0 b1] b2]. unfold neg3, equal_within, within3, within32, close32. rewrite !f32_neg. reflexivity.
Qed.
(** A triangle the reader accepts after rounding. *)
Definition good_tri (O : fops) (t : tri64 O) : Prop := proper (encode O t).
(** Each coordinate rounded to float32. *)
Definition round_tri (O : fops) (t : tri64 O) : tri64 O :=
  let rv := fun v : F O * F O * F O => let '(x, y, z) := v in (of32 O (to32 O x), of32 O (to32 O y), of32 O (to32 O z)) in
  let '(a, b, c) := t in (rv a, rv b, rv c).
(** The stored normal and its opposite disagree (beyond 5e-2 in a coordinate) with the one the reader computes. *)
Definition mismatching (O : fops) (t : tri64 O) : bool :=
  let d := encode O t in
  let n := calc_normal O (s_1 d) (s_2 d) (s_3 d) in
  negb (within3 f32_05 (fun x => x) n (s_n d)) && negb (within3 f32_05 SFopp n (s_n d)).

Lemma decode_encode O t : decode O (encode O t) = round_tri O t.
Proof. destruct t as [[[[a1 a2] a3] [[b1 b2] b3]] [[c1 c2] c3]]. reflexivity. Qed.

Lemma good_validate O t : good_tri O t -> validate O (encode O t) = if mismatching O t then Mismatch else Valid.
Proof.
  unfold good_tri, proper, validate, degenerate, mismatching. rewrite !within_deg, within_norm, within_neg. intros (-> & -> & -> & -> & -> & -> & ->). reflexivity.
Qed.


Lemma ideal_tris_records O (HO : wf_fops O) : forall ts rest out mism,
  Forall (good_tri O) ts -> mism + length (filter (mismatching O) ts) <= N.to_nat 10000 ->
  ideal_tris O (length ts) (records O ts ++ rest) out mism =
    (out ++ map (round_tri O) ts,
     if Nat.eqb (mism + length (filter (mismatching O) ts)) 0 then NoErr else MismatchErr, rest).
Proof.
  induction ts as [|t ts IH]; intros rest out mism Hg Hm.
  { cbn [length ideal_tris records flat_map map filter app]. rewrite app_nil_r, Nat.add_0_r. reflexivity. }
  inversion Hg as [|? ? Hgt Hgts]; subst.
  change (records O (t :: ts)) with (put (encode O t) ++ records O ts).
  rewrite <- app_assoc. cbn [length ideal_tris].
  replace (length (put (encode O t) ++ records O ts ++ rest) <? 50) with false
    by (symmetry; apply Nat.ltb_ge; rewrite app_length, put_length; lia).
  rewrite firstn_app_all by apply put_length. rewrite skipn_app_all by apply put_length.
  cbn zeta.
  replace (get (put (encode O t))) with (encode O t)
    by (rewrite <- (app_nil_r (put _)), get_put; [reflexivity | apply encode_wf; assumption]).
  rewrite good_validate by assumption.
  cbn [filter map]. cbn [filter] in Hm.
  destruct (mismatching O t).
  - cbn [length] in Hm.
    assert (Hs : (N.to_nat 10000 <? S mism) = false) by (apply Nat.ltb_ge; lia).
    change 10000 with (N.to_nat 10000). rewrite Hs.
    rewrite IH; [|assumption|lia].
    rewrite decode_encode, <- app_assoc. cbn [length app]. rewrite Nat.add_succ_r. reflexivity.
  - rewrite IH by assumption. rewrite decode_encode, <- app_assoc. reflexivity.
Qed.

Lemma read_plain O s : plain (s_evs s) ->
  exists s', read_binary_stl O s =
    (if Nat.ltb (length (s_data s)) 84 then Some ([], HeaderErr, s')
     else let count := un_le32 (skipn 80 (firstn 84 (s_data s))) in
       if (count =? 0)%N then Some ([], ZeroErr, s')
       else let r := ideal_tris O (N.to_nat count) (skipn 84 (s_data s)) [] 0 in
         Some (fst (fst r), snd (fst r), s')) /\
    s_data s' =
    (if Nat.ltb (length (s_data s)) 84 then []
     else let count := un_le32 (skipn 80 (firstn 84 (s_data s))) in
       if (count =? 0)%N then skipn 84 (s_data s)
       else snd (ideal_tris O (N.to_nat count) (skipn 84 (s_data s)) [] 0)).
Proof.
  intros Hp. unfold read_binary_stl.
  destruct (read_full_spec (src_fuel s) 84 s []) as (s1 & buf & ok & n & Hr & Hd & Hn & Hl & Hok & Hpl).
  { unfold src_fuel. lia. }
  rewrite Hr. destruct (Hpl Hp) as (Hp1 & Htrue & Hfalse).
  destruct (Nat.ltb_spec (length (s_data s)) 84) as [Hlt | Hge].
  - destruct ok; [destruct (Hok eq_refl); lia|]. exists s1. split; [reflexivity|]. apply Hfalse. reflexivity.
  - rewrite (Htrue Hge) in *. destruct (Hok eq_refl) as [-> ->]. rewrite app_nil_l. cbn zeta.
    destruct (_ =? 0)%N.
    + exists s1. auto.
    + destruct (read_tris_plain O (N.to_nat (un_le32 (skipn 80 (firstn 84 (s_data s))))) s1 [] 0 Hp1) as (s2 & Hr2 & Hd2).
      rewrite Hr2. exists s2. rewrite <- Hd. auto.
Qed.

Lemma header_count c : (c < 2 ^ 32)%N -> un_le32 (skipn 80 (header c)) = c.
Proof.
  intros H. unfold header. rewrite skipn_app_all by apply repeat_length.
  rewrite <- (app_nil_r (le32 c)). apply un_le32_le32. assumption.
Qed.

Theorem C18_round_trip O (HO : wf_fops O) (ts : list (tri64 O)) (b rest : list N) (evs : list ev) :
  ts <> [] -> Forall (good_tri O) ts -> length (filter (mismatching O) ts) <= N.to_nat 10000 ->
  run_write_stl O None ts = (b, true) -> plain evs ->
  exists e s', read_binary_stl O (Src (b ++ rest) evs) = Some (map (round_tri O) ts, e, s') /\
    s_data s' = rest /\
    (e = NoErr \/ e = MismatchErr) /\
    (e = NoErr <-> forall t, In t ts -> mismatching O t = false).
Proof.
  intros Hne Hg Hm Hw Hp.
  assert (Hn : (N.of_nat (length ts) < 2 ^ 32)%N /\ b = stl_file O (N.of_nat (length ts)) ts).
  { unfold run_write_stl, write_stl in Hw. destruct ts as [|t ts]; [congruence|]. set (tts := t :: ts) in *.
    destruct (N.ltb_spec (2 ^ 32 - 1) (N.of_nat (length tts))) as [H | H]; [discriminate|].
    rewrite exec_writes_none in Hw. injection Hw as <-. split.
    - change (2 ^ 32)%N with 4294967296%N in *. lia.
    - unfold stl_file. cbn [concat]. rewrite <- flat_map_concat_map. reflexivity. }
  destruct Hn as [Hn ->].
  destruct (read_plain O (Src (stl_file O (N.of_nat (length ts)) ts ++ rest) evs) Hp) as (s' & Hr & Hd).
  cbn [s_data] in Hr, Hd. unfold stl_file in Hr, Hd. rewrite <- app_assoc in Hr, Hd.
  assert (Hlen : (length (header (N.of_nat (length ts)) ++ records O ts ++ rest) <? 84) = false)
    by (apply Nat.ltb_ge; rewrite app_length, header_length; lia).
  rewrite Hlen in Hr, Hd.
  rewrite firstn_app_all in Hr, Hd by apply header_length.
  rewrite skipn_app_all in Hr, Hd by apply header_length.
  cbn zeta in Hr, Hd. rewrite header_count in Hr, Hd by assumption.
  assert (Hz : (N.of_nat (length ts) =? 0)%N = false) by (apply N.eqb_neq; destruct ts; [congruence|cbn; lia]).
  rewrite Hz, Nat2N.id in Hr, Hd.
  rewrite (ideal_tris_records O HO ts rest [] 0 Hg) in Hr, Hd by lia.
  cbn [fst snd app] in Hr, Hd. unfold stl_file. rewrite <- app_assoc.
  eexists _, s'. split; [exact Hr|]. split; [exact Hd|].
  rewrite Nat.add_0_l.
  destruct (Nat.eqb_spec (length (filter (mismatching O) ts)) 0) as [H0 | H0].
  - split; [auto|]. split; [|reflexivity]. intros _ t Ht.
    destruct (mismatching O t) eqn:E; [|reflexivity].
    assert (Hin : In t (filter (mismatching O) ts)) by (apply filter_In; auto).
    destruct (filter (mismatching O) ts); [destruct Hin|discriminate].
  - split; [auto|]. split; [discriminate|]. intros H. exfalso. apply H0.
    clear -H. induction ts as [|t ts IH]; [reflexivity|]. cbn [filter].
    rewrite (H t (or_introl eq_refl)). apply IH. intros x Hx. apply H. right. assumption.
Qed.

(** The float32 comparisons used by the reader on concrete patterns: 0 and
    1 are further apart than 1e-12. *)
Example C18_nonvacuous : Forall (good_tri ex_ops) [ex_t1; ex_t2] /\ mismatching ex_ops ex_t1 = false /\
  exists b s', run_write_stl ex_ops None [ex_t1; ex_t2] = (b, true) /\
    read_binary_stl ex_ops (Src b [Chunk 3 false; Chunk 0 false; Chunk 200 false; Chunk 7 false]) =
      Some ([ex_t1; ex_t2], NoErr, s').
Proof.
  split; [|split].
  - repeat constructor.
  - vm_compute. reflexivity.
  - eexists _, _. split; [vm_compute; reflexivity|]. vm_compute. reflexivity.
Qed.

(** ** C19 *)
Theorem C19_create_same_as_write O blen (ts : list (tri64 O)) (evs : list ev) :
  50 <= blen -> nofail evs -> ts <> [] -> (N.of_nat (length ts) < 2 ^ 32)%N ->
  exists b, create_stl O blen [] (Src ts evs) = Some (Some b, OK) /\
            run_write_stl O None ts = (b, true).
Proof.
  intros Hb Hev Hne Hn.
  destruct (create_stl_spec O blen [] (Src ts evs) Hb) as (b & o & Hc & Hres).
  cbn zeta in Hres. cbn [s_data s_evs] in Hres.
  destruct Hres as [(-> & ->) | (_ & Hno & _)].
  2:{ exfalso. apply (Hno eq_refl). assumption. }
  rewrite N.mod_small in Hc by assumption.
  eexists. split; [exact Hc|].
  unfold run_write_stl, write_stl. destruct ts as [|t ts]; [congruence|]. set (tts := t :: ts) in *.
  replace (2 ^ 32 - 1 <? N.of_nat (length tts))%N with false
    by (symmetry; apply N.ltb_ge; change (2 ^ 32)%N with 4294967296%N in *; lia).
  rewrite exec_writes_none. unfold stl_file. cbn [concat]. rewrite <- flat_map_concat_map. reflexivity.
Qed.

Example C19_nonvacuous : exists b,
  create_stl ex_ops 130 [] (Src [ex_t1; ex_t2; ex_t1; ex_t2] [Chunk 1 false; Chunk 0 true; Chunk 9 true; Chunk 9 true]) = Some (Some b, OK) /\
  run_write_stl ex_ops None [ex_t1; ex_t2; ex_t1; ex_t2] = (b, true).
Proof. eexists. split; vm_compute; reflexivity. Qed.

(** An empty stream: CreateSTL returns nil but WriteSTL refuses. *)
Example C19_empty_stream : create_stl ex_ops 1000 [] (Src [] []) = Some (Some (repeat 0%N 84), OK) /\
  run_write_stl ex_ops None [] = ([], false).
Proof. split; vm_compute; reflexivity. Qed.

(** ** C20 *)
(** The reader rejects [b] however it is delivered: no triangles and an error. *)
Definition rejected (O : fops) (b : list N) : Prop :=
  forall evs, exists e s', read_binary_stl O (Src b evs) = Some ([], e, s') /\ e <> NoErr /\ e <> MismatchErr.

Lemma forall_zero_un_le32 b : Forall (fun x => x = 0%N) b -> un_le32 b = 0%N.
Proof.
  intros H. assert (Hn : forall i, nth i b 0%N = 0%N).
  { intros i. destruct (nth_in_or_default i b 0%N) as [Hin | He]; [|assumption].
    rewrite Forall_forall in H. apply H. assumption. }
  unfold un_le32. rewrite !Hn. reflexivity.
Qed.

Lemma header_blank_rejected O b : header_blank b -> rejected O b.
Proof.
  intros Hb evs. unfold read_binary_stl.
  destruct (read_full_spec (src_fuel (Src b evs)) 84 (Src b evs) []) as (s1 & buf & ok & n & Hr & Hd & Hn & Hl & Hok & _).
  { unfold src_fuel. lia. }
  rewrite Hr. destruct ok.
  2:{ eexists _, _. split; [reflexivity|]. split; discriminate. }
  destruct (Hok eq_refl) as [_ ->]. rewrite app_nil_l. cbn [s_data].
  assert (Hz : un_le32 (skipn 80 (firstn 84 b)) = 0%N).
  { apply forall_zero_un_le32. unfold header_blank in Hb. rewrite <- (firstn_skipn 80 (firstn 84 b)) in Hb.
    apply Forall_app in Hb. apply Hb. }
  rewrite Hz. cbn. eexists _, _. split; [reflexivity|]. split; discriminate.
Qed.

(** The header write is torn inside the count (or the failure is reported after
    all 84 bytes reached the file). *)
Definition torn_header (O : fops) (ts : list (tri64 O)) (b : list N) : Prop :=
  exists k, 80 < k /\ b = firstn k (header (N.of_nat (length ts) mod 2 ^ 32)) ++ skipn k (repeat 0%N 84) ++ records O ts.

(** Whatever the renderer does and whichever file operation fails or is the last
    one before the process dies: CreateSTL terminates; it returns nil only with
    the complete file in place; otherwise no file was created, or the reader
    rejects it, or the final header write itself was torn inside the count. *)
Theorem C20_interrupted_partial O blen (ts : list (tri64 O)) (evs : list ev) (fevs : list fev) :
  50 <= blen ->
  exists b o, create_stl O blen fevs (Src ts evs) = Some (b, o) /\
    (o = OK -> b = Some (header (N.of_nat (length ts) mod 2 ^ 32) ++ records O ts)) /\
    (o <> OK -> b = None \/ exists bs, b = Some bs /\ (rejected O bs \/ torn_header O ts bs)).
Proof.
  intros Hb. destruct (create_stl_spec O blen fevs (Src ts evs) Hb) as (b & o & Hc & Hres).
  cbn zeta in Hres. cbn [s_data s_evs] in Hres.
  exists b, o. split; [exact Hc|].
  destruct Hres as [(-> & ->) | (Ho & _ & Hres)].
  - split; [reflexivity|congruence].
  - split; [congruence|]. intros _. destruct Hres as [-> | (bs & -> & [Hbl | Ht])]; [auto| |].
    + right. exists bs. split; [reflexivity|]. left. apply header_blank_rejected. assumption.
    + right. exists bs. split; [reflexivity|]. right. exact Ht.
Qed.

(** In particular a renderer or data-write failure never leaves a file that is
    accepted: only an interruption of the very last operation can. *)
Example C20_nonvacuous : exists b,
  create_stl ex_ops 100 [FOk; FOk; FOk; FCrash 30] (Src [ex_t1; ex_t2; ex_t1; ex_t2] []) = Some (Some b, Crashed) /\
  length b = 214 /\ header_blank b.
Proof.
  eexists. split; [vm_compute; reflexivity|]. split; [reflexivity|].
  unfold header_blank. cbn [firstn]. repeat constructor.
Qed.

(** A header write torn after the first count byte of 257 triangles leaves a file
    announcing one triangle, which the reader accepts without error. *)
Theorem C20_torn_refuted : exists b s',
  create_stl ex_ops 1000 [FOk; FOk; FOk; FOk; FOk; FOk; FOk; FOk; FOk; FOk; FOk; FOk; FOk; FOk; FOk; FOk; FCrash 81]
    (Src (repeat ex_t1 257) []) = Some (Some b, Crashed) /\
  read_binary_stl ex_ops (Src b []) = Some ([ex_t1], NoErr, s').
Proof.
  eexists _, _. split; [vm_compute; reflexivity|]. vm_compute. reflexivity.
Qed.

(** ** C21 *)
(** Acceptable input, described on the bytes. *)
Definition announced (b : list N) : nat := N.to_nat (word b 80).
Definition rec_of (b : list N) (i : nat) : stl_tri :=
  let w := fun j => word b (84 + 50 * i + 4 * j) in
  StlTri (w 0, w 1, w 2) (w 3, w 4, w 5) (w 6, w 7, w 8) (w 9, w 10, w 11).
Definition acceptable (b : list N) : Prop :=
  84 <= length b /\ 0 < announced b /\ 84 + 50 * announced b <= length b /\
  forall i, i < announced b ->
    proper (rec_of b i).

Lemma un_le32_word b o : un_le32 (skipn o b) = word b o.
Proof.
  unfold un_le32, word. rewrite !nth_skipn, Nat.add_0_r.
  change (2 ^ 8)%N with 256%N. change (2 ^ 16)%N with 65536%N. change (2 ^ 24)%N with 16777216%N. lia.
Qed.
Lemma nth_firstn {T} (l : list T) n i d : i < n -> nth i (firstn n l) d = nth i l d.
Proof. revert l i. induction n as [|n IH]; intros [|x l] [|i] H; try reflexivity; try lia. cbn [firstn nth]. apply IH. lia. Qed.
Lemma word_firstn b n o : o + 3 < n -> word (firstn n b) o = word b o.
Proof. intros H. unfold word. rewrite !nth_firstn by lia. reflexivity. Qed.

Lemma record_rec_of b i : record (skipn 84 b) i = rec_of b i.
Proof.
  unfold record, get, get3, rec_of. rewrite !skipn_skipn.
  set (r := firstn 50 _).
  assert (H0 : un_le32 r = word r 0) by apply (un_le32_word r 0). rewrite H0, !un_le32_word.
  unfold r. rewrite !word_firstn by lia. rewrite !word_skipn. reflexivity.
Qed.

Lemma validate_ok O r : validate O r <> Invalid -> proper r.
Proof.
  unfold proper. rewrite <- !within_deg. unfold validate, degenerate.
  destruct (bad3 (s_n r)), (bad3 (s_1 r)), (bad3 (s_2 r)), (bad3 (s_3 r)); cbn [orb]; try congruence.
  destruct (equal_within eps_deg (s_1 r) (s_2 r)), (equal_within eps_deg (s_2 r) (s_3 r)), (equal_within eps_deg (s_3 r) (s_1 r));
    cbn [orb]; try congruence. intros _. repeat split.
Qed.

Lemma read_sound O b evs : exists out e s' n,
  read_binary_stl O (Src b evs) = Some (out, e, s') /\ s_data s' = skipn n b /\
  (n <= 84 \/ (84 <= length b /\ n <= 84 + 50 * announced b)) /\
  ((e = NoErr \/ e = MismatchErr) -> n = 84 + 50 * announced b /\ acceptable b /\
     out = map (fun i => decode O (rec_of b i)) (seq 0 (announced b))).
Proof.
  unfold read_binary_stl.
  destruct (read_full_spec (src_fuel (Src b evs)) 84 (Src b evs) []) as (s1 & buf & ok & n & Hr & Hd & Hn & Hl & Hok & _).
  { unfold src_fuel. lia. }
  rewrite Hr. cbn [s_data] in *.
  destruct ok.
  2:{ eexists _, _, s1, n. split; [reflexivity|]. split; [assumption|]. split; [left; assumption|].
      intros [H|H]; discriminate. }
  destruct (Hok eq_refl) as [-> ->]. rewrite app_nil_l.
  assert (Hc : un_le32 (skipn 80 (firstn 84 b)) = word b 80) by (rewrite un_le32_word, word_firstn by lia; reflexivity).
  rewrite Hc.
  destruct (N.eqb_spec (word b 80) 0) as [Hz | Hz].
  { eexists _, _, s1, 84. split; [reflexivity|]. split; [assumption|]. split; [left; lia|]. intros [H|H]; discriminate. }
  destruct (read_tris_sound O (N.to_nat (word b 80)) s1 [] 0) as (out & e & s' & m & Hr2 & Hd2 & Hm & Hok2 & _).
  rewrite Hr2. exists out, e, s', (84 + m). split; [reflexivity|].
  rewrite Hd2, Hd, skipn_skipn. split; [reflexivity|]. split; [right; unfold announced; lia|].
  intros He. destruct (Hok2 He) as (-> & Hlen & -> & Hval). rewrite Hd, skipn_length in Hlen.
  split; [reflexivity|]. split.
  - unfold acceptable, announced. repeat split; try lia.
    all: rewrite Hd in Hval; destruct (validate_ok O (rec_of b i)) as (? & ? & ? & ? & ? & ? & ?);
      [rewrite <- record_rec_of; apply Hval; assumption | assumption].
  - cbn [app]. apply map_ext. intros i. rewrite Hd, record_rec_of. reflexivity.
Qed.

Theorem C21_rejects_malformed O b evs : exists out e s' n,
  read_binary_stl O (Src b evs) = Some (out, e, s') /\
  (* never reads beyond the announced triangles *)
  s_data s' = skipn n b /\ (n <= 84 \/ (84 <= length b /\ n <= 84 + 50 * announced b)) /\
  (* accepts only acceptable input, and returns its records *)
  (e = NoErr \/ e = MismatchErr -> acceptable b /\ s_data s' = skipn (84 + 50 * announced b) b /\
     out = map (fun i => decode O (rec_of b i)) (seq 0 (announced b))).
Proof.
  destruct (read_sound O b evs) as (out & e & s' & n & H1 & H2 & H3 & H4).
  exists out, e, s', n. split; [exact H1|]. split; [exact H2|]. split; [exact H3|].
  intros He. destruct (H4 He) as (-> & Ha & ->). split; [exact Ha|]. split; [exact H2|reflexivity].
Qed.

(** Every proper prefix of an accepted file (one that is consumed completely) is
    rejected. *)
Theorem C21_prefix_rejected O b evs out e s' k evs' :
  read_binary_stl O (Src b evs) = Some (out, e, s') -> (e = NoErr \/ e = MismatchErr) -> s_data s' = [] ->
  k < length b ->
  forall out' e' s'', read_binary_stl O (Src (firstn k b) evs') = Some (out', e', s'') -> e' <> NoErr /\ e' <> MismatchErr.
Proof.
  intros Hr He Hd Hk out' e' s'' Hr'.
  destruct (read_sound O b evs) as (? & ? & ? & n & H1 & H2 & _ & H4). rewrite Hr in H1. injection H1 as <- <- <-.
  destruct (H4 He) as (-> & Ha & _). rewrite Hd in H2. symmetry in H2.
  assert (Hlen : length b <= 84 + 50 * announced b).
  { apply (f_equal (@length N)) in H2. rewrite skipn_length in H2. cbn in H2. lia. }
  destruct (read_sound O (firstn k b) evs') as (? & ? & ? & m & H1' & _ & _ & H4'). rewrite Hr' in H1'. injection H1' as <- <- <-.
  assert (Hno : ~ (e' = NoErr \/ e' = MismatchErr)).
  { intros He'. destruct (H4' He') as (_ & (A1 & A2 & A3 & _) & _).
    rewrite firstn_length in *. unfold announced in A3, Hlen. rewrite word_firstn in A3 by lia. lia. }
  split; intros ->; apply Hno; auto.
Qed.

(** The same in terms of values: every number of an accepted file is finite, and no two vertices of a triangle have
    the same coordinates. *)
Definition finite32 (w : N) : Prop := match f32_of_bits w with S754_zero _ | S754_finite _ _ _ => True | _ => False end.
Definition finite3 (f : w3) : Prop := let '(a, b, c) := f in finite32 a /\ finite32 b /\ finite32 c.
Definition same_value (a b : w3) : Prop :=
  let '(a0, a1, a2) := a in let '(b0, b1, b2) := b in
  SFeqb (f32_of_bits a0) (f32_of_bits b0) = true /\ SFeqb (f32_of_bits a1) (f32_of_bits b1) = true /\ SFeqb (f32_of_bits a2) (f32_of_bits b2) = true.
Lemma bad32_finite w : bad32 w = false <-> finite32 w.
Proof.
  unfold bad32, finite32, f32_of_bits. cbv zeta. destruct (w / 2 ^ 23 mod 256 =? 255)%N.
  - split; [discriminate|]. destruct (w mod 2 ^ 23 =? 0)%N; tauto.
  - split; [intros _|reflexivity]. destruct (w / 2 ^ 23 mod 256 =? 0)%N; [destruct (w mod 2 ^ 23)%N; exact I|]. destruct (w mod 2 ^ 23 + 2 ^ 23)%N; exact I.
Qed.
Lemma bad3_finite f : bad3 f = false <-> finite3 f.
Proof. destruct f as [[a b] c]. unfold bad3, finite3. rewrite !orb_false_iff, !bad32_finite. tauto. Qed.
Lemma SFsub_same x y : match x with S754_zero _ | S754_finite _ _ _ => True | _ => False end -> SFeqb x y = true -> exists s, SFabs (SFsub 24 128 x y) = S754_zero s.
Proof.
  intros F E. destruct x as [sx|sx| |sx mx ex], y as [sy|sy| |sy my ey]; try contradiction; unfold SFeqb, SFcompare in E; try discriminate.
  all: try solve [destruct sx; discriminate|destruct sy; discriminate].
  - cbn. destruct sx, sy; cbn; eauto.
  - assert (H : sx = sy /\ mx = my /\ ex = ey).
    { destruct sx, sy; try discriminate; destruct (Z.compare ex ey) eqn:C; try discriminate; apply Z.compare_eq in C; subst ey; destruct (Pcompare mx my Eq) eqn:P; try discriminate; apply Pcompare_Eq_eq in P; subst; auto. }
    destruct H as (-> & -> & ->). unfold SFsub. rewrite Z.sub_diag. cbn. eauto.
Qed.
Lemma same_value_within a b : finite3 a -> same_value a b -> equal_within eps_deg a b = true.
Proof.
  destruct a as [[a0 a1] a2], b as [[b0 b1] b2]. unfold finite3, same_value, equal_within. intros (F0 & F1 & F2) (E0 & E1 & E2).
  assert (G : forall u v, finite32 u -> SFeqb (f32_of_bits u) (f32_of_bits v) = true -> close32 eps_deg u v = true).
  { intros u v F E. unfold close32. destruct (SFsub_same _ _ F E) as (s & H). rewrite H. reflexivity. }
  rewrite !G by assumption. reflexivity.
Qed.
Theorem C21_values O b evs out e s' : read_binary_stl O (Src b evs) = Some (out, e, s') -> e = NoErr \/ e = MismatchErr ->
  forall i, i < announced b -> let r := rec_of b i in
    finite3 (s_n r) /\ finite3 (s_1 r) /\ finite3 (s_2 r) /\ finite3 (s_3 r) /\ ~ same_value (s_1 r) (s_2 r) /\ ~ same_value (s_2 r) (s_3 r) /\ ~ same_value (s_3 r) (s_1 r).
Proof.
  intros R E i Hi r. destruct (C21_rejects_malformed O b evs) as (out' & e' & s'' & n & R' & _ & _ & A). rewrite R in R'. injection R' as <- <- <-. destruct (A E) as ((_ & _ & _ & H) & _). specialize (H i Hi). fold r in H. unfold proper in H. rewrite <- !within_deg, !bad3_finite in H. destruct H as (FN & F1 & F2 & F3 & D1 & D2 & D3).
  refine (conj FN (conj F1 (conj F2 (conj F3 (conj _ (conj _ _)))))); intros E'; apply same_value_within in E'; congruence.
Qed.

Example C21_nonvacuous : exists b out s',
  read_binary_stl ex_ops (Src b [Chunk 90 false; Chunk 1 false]) = Some (out, NoErr, s') /\ s_data s' = [] /\ length out = 2.
Proof.
  exists (fst (run_write_stl ex_ops None [ex_t1; ex_t2])). eexists _, _.
  split; [vm_compute; reflexivity|]. split; reflexivity.
Qed.

(** ** C22 *)
(** Readers that report io.EOF separately: the result is a function of the bytes. *)
Theorem C22_fragmentation_partial O b evs1 evs2 : plain evs1 -> plain evs2 ->
  exists out e s1 s2,
    read_binary_stl O (Src b evs1) = Some (out, e, s1) /\
    read_binary_stl O (Src b evs2) = Some (out, e, s2) /\ s_data s1 = s_data s2.
Proof.
  intros H1 H2.
  destruct (read_plain O (Src b evs1) H1) as (s1 & Hr1 & Hd1).
  destruct (read_plain O (Src b evs2) H2) as (s2 & Hr2 & Hd2).
  cbn [s_data] in *. cbn zeta in *. rewrite Hr1, Hr2.
  destruct (_ <? _); [|destruct (_ =? _)%N];
    (eexists _, _, s1, s2; split; [reflexivity|]; split; [reflexivity|]; rewrite Hd1, Hd2; reflexivity).
Qed.

(** The io.Reader contract also allows the last bytes to come together with
    io.EOF; readBinarySTL then rejects a valid file. *)
Theorem C22_data_with_eof_refuted : exists b out s1 s2,
  read_binary_stl ex_ops (Src b [Chunk 84 false; Chunk 50 false]) = Some (out, NoErr, s1) /\ length out = 1 /\
  read_binary_stl ex_ops (Src b [Chunk 84 false; Chunk 50 true]) = Some ([], ReadErr, s2).
Proof.
  exists (fst (run_write_stl ex_ops None [ex_t1])). eexists _, _, _.
  split; [vm_compute; reflexivity|]. split; [reflexivity|]. vm_compute. reflexivity.
Qed.

(** ** C23 *)
Theorem C23_count_partial O blen (ts : list (tri64 O)) (evs : list ev) (fevs : list fev) b :
  50 <= blen -> (N.of_nat (length ts) < 2 ^ 32)%N ->
  create_stl O blen fevs (Src ts evs) = Some (Some b, OK) ->
  length b = 84 + 50 * length ts /\ word b 80 = N.of_nat (length ts).
Proof.
  intros Hb Hn Hc. destruct (create_stl_spec O blen fevs (Src ts evs) Hb) as (b' & o & Hc' & Hres).
  rewrite Hc in Hc'. injection Hc' as <- <-. cbn zeta in Hres. cbn [s_data] in Hres.
  destruct Hres as [(_ & H) | (H & _)]; [|congruence]. injection H as ->.
  rewrite N.mod_small by assumption. unfold stl_file. split.
  - rewrite app_length, header_length, records_length. reflexivity.
  - unfold header. rewrite <- app_assoc.
    replace 80 with (length (repeat 0%N 80) + 0) by (rewrite repeat_length; reflexivity).
    rewrite word_app. apply word_le32. assumption.
Qed.

(** A stream of 2^32 triangles: CreateSTL returns nil, the file holds 2^32
    records, and the header announces none. *)
Theorem C23_wraps_refuted O blen (t : tri64 O) : 50 <= blen ->
  let ts := repeat t (N.to_nat (2 ^ 32)) in
  exists b, create_stl O blen [] (Src ts []) = Some (Some b, OK) /\
    length b = 84 + 50 * length ts /\ N.of_nat (length ts) = (2 ^ 32)%N /\ word b 80 = 0%N.
Proof.
  intros Hb ts.
  assert (Hlen : N.of_nat (length ts) = (2 ^ 32)%N) by (unfold ts; rewrite repeat_length, N2Nat.id; reflexivity).
  clearbody ts.
  destruct (create_stl_spec O blen [] (Src ts []) Hb) as (b & o & Hc & Hres).
  cbn zeta in Hres. cbn [s_data s_evs] in Hres.
  destruct Hres as [(-> & ->) | (_ & Hno & _)].
  2:{ exfalso. apply (Hno eq_refl). constructor. }
  eexists. split; [exact Hc|]. unfold stl_file. rewrite app_length, header_length, records_length.
  split; [reflexivity|]. split; [assumption|].
  rewrite Hlen, N.mod_same by discriminate. unfold header. rewrite <- app_assoc.
  replace 80 with (length (repeat 0%N 80) + 0) by (rewrite repeat_length; reflexivity).
  rewrite word_app. apply word_le32. reflexivity.
Qed.
