(** Lemmas about the STL model. *)
From Coq Require Import List Arith NArith ZArith Bool Lia Floats.SpecFloat.
From Verif Require Import Prelude RenderIOModel StlModel.
Import ListNotations.
Local Open Scope nat_scope.

Local Arguments N.mul : simpl never.
Local Arguments N.div : simpl never.
Local Arguments N.modulo : simpl never.
Local Arguments N.pow : simpl never.

(** ** Bytes *)
Lemma le32_length n : length (le32 n) = 4.
Proof. reflexivity. Qed.

Lemma un_le32_le32 n r : (n < 2 ^ 32)%N -> un_le32 (le32 n ++ r) = n.
Proof.
  intros H. unfold un_le32, le32. cbn [app nth].
  change (2 ^ 8)%N with 256%N. change (2 ^ 16)%N with (256 * 256)%N. change (2 ^ 24)%N with (256 * (256 * 256))%N.
  change (2 ^ 32)%N with 4294967296%N in H.
  rewrite <- !N.div_div by lia.
  pose proof (N.div_mod n 256). pose proof (N.div_mod (n / 256) 256).
  pose proof (N.div_mod (n / 256 / 256) 256).
  rewrite (N.mod_small (n / 256 / 256 / 256) 256) by (rewrite !N.div_div by lia; apply N.div_lt_upper_bound; lia).
  lia.
Qed.

Lemma le32_bytes n : Forall (fun b => (b < 256)%N) (le32 n).
Proof. unfold le32. repeat constructor; apply N.mod_lt; lia. Qed.

Lemma put3_length f : length (put3 f) = 12.
Proof. destruct f as [[a b] c]. reflexivity. Qed.
Lemma put_length t : length (put t) = 50.
Proof. unfold put. rewrite !app_length, !put3_length. reflexivity. Qed.
Lemma header_length c : length (header c) = 84.
Proof. unfold header. rewrite app_length, repeat_length. reflexivity. Qed.

Definition wf_w3 (f : w3) : Prop := let '(a, b, c) := f in (a < 2 ^ 32 /\ b < 2 ^ 32 /\ c < 2 ^ 32)%N.

Lemma skipn_le32 k n r : skipn (4 + k) (le32 n ++ r) = skipn k r.
Proof. reflexivity. Qed.

Lemma get3_put3 f r : wf_w3 f -> get3 (put3 f ++ r) = f.
Proof.
  destruct f as [[a b] c]. intros (Ha & Hb & Hc). unfold get3, put3.
  rewrite <- !app_assoc.
  change 8 with (4 + 4).
  rewrite (skipn_le32 4). change (skipn 4 (le32 a ++ le32 b ++ le32 c ++ r)) with (le32 b ++ le32 c ++ r).
  change (skipn 4 (le32 b ++ le32 c ++ r)) with (le32 c ++ r).
  rewrite !un_le32_le32 by assumption. reflexivity.
Qed.

Lemma skipn_put3 k f r : skipn (12 + k) (put3 f ++ r) = skipn k r.
Proof. destruct f as [[a b] c]. reflexivity. Qed.

Definition wf_tri (t : stl_tri) : Prop := wf_w3 (s_n t) /\ wf_w3 (s_1 t) /\ wf_w3 (s_2 t) /\ wf_w3 (s_3 t).

Lemma get_put t r : wf_tri t -> get (put t ++ r) = t.
Proof.
  destruct t as [n a b c]. intros (Hn & Ha & Hb & Hc). cbn [s_n s_1 s_2 s_3] in *.
  unfold get, put. cbn [s_n s_1 s_2 s_3]. rewrite <- !app_assoc.
  set (r1 := put3 n ++ _). change (skipn 12 r1) with (skipn (12 + 0) r1).
  change (skipn 24 r1) with (skipn (12 + 12) r1). change (skipn 36 r1) with (skipn (12 + 24) r1).
  unfold r1. rewrite !skipn_put3. set (r2 := put3 a ++ _). change (skipn 12 r2) with (skipn (12 + 0) r2).
  change (skipn 24 r2) with (skipn (12 + 12) r2). unfold r2. rewrite !skipn_put3.
  set (r3 := put3 b ++ _). change (skipn 12 r3) with (skipn (12 + 0) r3). unfold r3. rewrite !skipn_put3.
  cbn [skipn].
  rewrite !get3_put3 by assumption. reflexivity.
Qed.

Lemma encode_wf O (HO : wf_fops O) t : wf_tri (encode O t).
Proof.
  destruct t as [[[[a1 a2] a3] [[b1 b2] b3]] [[c1 c2] c3]].
  unfold encode, vec_to32, wf_tri. cbn [s_n s_1 s_2 s_3].
  destruct (unit_normal O _) as [[n1 n2] n3]. cbn. repeat split; apply HO.
Qed.

(** The bytes of the records of a list of triangles. *)
Definition records (O : fops) (ts : list (tri64 O)) : list N := flat_map (fun t => put (encode O t)) ts.
Lemma records_app O a b : records O (a ++ b) = records O a ++ records O b.
Proof. apply flat_map_app. Qed.
Lemma records_length O ts : length (records O ts) = 50 * length ts.
Proof.
  induction ts as [|t ts IH]; [reflexivity|].
  change (records O (t :: ts)) with (put (encode O t) ++ records O ts).
  rewrite app_length, IH, put_length. cbn [length]. lia.
Qed.

(** ** Sources *)
Definition plain (evs : list ev) : Prop := Forall (fun e => exists c, e = Chunk c false) evs.
Definition nofail (evs : list ev) : Prop := Forall (fun e => e <> Fail) evs.

Lemma skipn_skipn {T} a b (l : list T) : skipn a (skipn b l) = skipn (b + a) l.
Proof.
  revert l. induction b as [|b IH]; intros l; [reflexivity|].
  destruct l; [now rewrite !skipn_nil|]. apply IH.
Qed.
Lemma firstn_plus {T} a b (l : list T) : firstn (a + b) l = firstn a l ++ firstn b (skipn a l).
Proof.
  revert l. induction a as [|a IH]; intros l; [reflexivity|].
  destruct l; [now rewrite skipn_nil, !firstn_nil|]. cbn. now rewrite IH.
Qed.

(** What a call can do. *)
Lemma src_read_spec {T} k (s : src T) :
  exists n e s', src_read k s = (s', firstn n (s_data s), e) /\
    s_data s' = skipn n (s_data s) /\ n <= k /\ n <= length (s_data s) /\
    (e = EEOF -> n = length (s_data s)) /\
    (e = EOther -> n = 0) /\
    (0 < k -> e = ENil -> length (s_data s') + length (s_evs s') < length (s_data s) + length (s_evs s)) /\
    (length (s_evs s') <= length (s_evs s)) /\
    (nofail (s_evs s) -> nofail (s_evs s') /\ e <> EOther) /\
    (plain (s_evs s) -> plain (s_evs s') /\ (e = EEOF -> s_data s = []) /\ e <> EOther).
Proof.
  unfold src_read. destruct s as [d evs]. cbn [s_data s_evs].
  destruct evs as [|[c eof|] r].
  - destruct d as [|x d].
    + exists 0, EEOF, (Src [] []). cbn [s_data s_evs length firstn skipn].
      repeat split; try lia; try discriminate; try assumption; auto.
    + set (d' := x :: d). assert (Hd : 0 < length d') by (cbn; lia).
      exists (Nat.min k (length d')), ENil, (Src (skipn (Nat.min k (length d')) d') []).
      cbn [s_data s_evs]. repeat split; try lia; try discriminate; try assumption.
      intros Hk _. rewrite skipn_length. cbn [length]. lia.
  - destruct d as [|x d].
    + exists 0, (if Nat.eqb c 0 && negb eof then ENil else EEOF), (Src [] r). cbn [s_data s_evs length firstn skipn].
      destruct (Nat.eqb c 0 && negb eof);
      repeat split; try lia; try discriminate; auto; inversion H; assumption.
    + set (d' := x :: d).
      set (n := Nat.min c (Nat.min k (length d'))).
      exists n, (if eof && (n =? length d') then EEOF else ENil), (Src (skipn n d') r).
      cbn [s_data s_evs]. repeat split; try lia.
      * destruct eof; cbn [andb]; [|discriminate]. destruct (Nat.eqb_spec n (length d')); [auto|discriminate].
      * destruct (eof && _); discriminate.
      * intros _ _. rewrite skipn_length. cbn [length]. lia.
      * cbn [length]. lia.
      * inversion H; assumption.
      * destruct (eof && _); discriminate.
      * inversion H; assumption.
      * inversion H as [|? ? [c' Hc]]; subst. injection Hc as <- ->. cbn [andb]. discriminate.
      * destruct (eof && _); discriminate.
  - exists 0, EOther, (Src d r). cbn [s_data s_evs length firstn skipn].
    repeat split; try lia; try discriminate; auto; inversion H; subst; try assumption;
      try congruence; try (destruct H2; discriminate).
Qed.

(** ** Reading 50 bytes *)
Lemma read_50_spec : forall fuel need s acc,
  length (s_data s) + length (s_evs s) < fuel ->
  exists s' acc' ok n, read_50 fuel need s acc = Some (s', acc', ok) /\
    s_data s' = skipn n (s_data s) /\ n <= need /\ n <= length (s_data s) /\
    (ok = true -> n = need /\ acc' = acc ++ firstn need (s_data s)) /\
    (plain (s_evs s) -> plain (s_evs s') /\ (need <= length (s_data s) -> ok = true) /\ (ok = false -> s_data s' = [])).
Proof.
  induction fuel as [|fuel IH]; intros need s acc Hf; [lia|].
  destruct need as [|need'].
  { exists s, acc, true, 0. cbn [read_50 skipn firstn]. rewrite app_nil_r.
    repeat split; try lia; auto; discriminate. }
  set (need := S need') in *. cbn [read_50].
  change (match need with 0 => Some (s, acc, true) | S _ =>
    let '(s', bs, e) := src_read need s in
    match e with ENil => read_50 fuel (need - length bs) s' (acc ++ bs) | _ => Some (s', acc, false) end end)
  with (let '(s', bs, e) := src_read need s in
    match e with ENil => read_50 fuel (need - length bs) s' (acc ++ bs) | _ => Some (s', acc, false) end).
  destruct (src_read_spec need s) as (n & e & s1 & Hr & Hd & Hn & Hl & He & Ho & Hdec & _ & _ & Hp).
  rewrite Hr.
  assert (Hbad : e <> ENil -> exists (s' : src N) acc' ok m,
    Some (s1, acc, false) = Some (s', acc', ok) /\
    s_data s' = skipn m (s_data s) /\ m <= need /\ m <= length (s_data s) /\
    (ok = true -> m = need /\ acc' = acc ++ firstn need (s_data s)) /\
    (plain (s_evs s) -> plain (s_evs s') /\ (need <= length (s_data s) -> ok = true) /\ (ok = false -> s_data s' = []))).
  { intros Hne. exists s1, acc, false, n. repeat split; try assumption; try discriminate.
    - apply Hp; assumption.
    - intros Hlen. destruct (Hp H) as (_ & Hp1 & Hp3). destruct e; try congruence.
      rewrite (Hp1 eq_refl) in Hlen. cbn in Hlen. unfold need in Hlen. lia.
    - intros _. destruct (Hp H) as (_ & Hp1 & Hp3). destruct e; try congruence.
      rewrite Hd, (Hp1 eq_refl). apply skipn_nil. }
  destruct e; try (apply Hbad; discriminate).
  rewrite firstn_length, Nat.min_l by lia.
  destruct (IH (need - n) s1 (acc ++ firstn n (s_data s))) as (s' & acc' & ok & m & Hr' & Hd' & Hm & Hlm & Hok & Hp').
  { specialize (Hdec ltac:(unfold need; lia) eq_refl). lia. }
  exists s', acc', ok, (n + m). rewrite Hr'. split; [reflexivity|].
  rewrite Hd' , Hd, skipn_skipn. rewrite Hd, skipn_length in Hlm.
  repeat split; try lia.
  - destruct (Hok H). lia.
  - destruct (Hok H) as [-> ->]. rewrite Hd, <- app_assoc, <- firstn_plus. do 2 f_equal. lia.
  - apply Hp'. apply Hp. assumption.
  - intros Hlen. apply Hp'; [apply Hp; assumption|]. rewrite Hd, skipn_length. lia.
  - intros Hok0. rewrite <- skipn_skipn, <- Hd, <- Hd'. apply Hp'; [apply Hp; assumption|assumption].
Qed.

Lemma read_full_spec : forall fuel need s acc,
  length (s_data s) + length (s_evs s) < fuel ->
  exists s' acc' ok n, read_full fuel need s acc = Some (s', acc', ok) /\
    s_data s' = skipn n (s_data s) /\ n <= need /\ n <= length (s_data s) /\
    (ok = true -> n = need /\ acc' = acc ++ firstn need (s_data s)) /\
    (plain (s_evs s) -> plain (s_evs s') /\ (need <= length (s_data s) -> ok = true) /\ (ok = false -> s_data s' = [])).
Proof.
  induction fuel as [|fuel IH]; intros need s acc Hf; [lia|].
  destruct need as [|need'].
  { exists s, acc, true, 0. cbn [read_full skipn firstn]. rewrite app_nil_r.
    repeat split; try lia; auto; discriminate. }
  set (need := S need') in *. cbn [read_full].
  change (match need with 0 => Some (s, acc, true) | S _ =>
    let '(s', bs, e) := src_read need s in
    match need - length bs with 0 => Some (s', acc ++ bs, true) | S _ =>
    match e with ENil => read_full fuel (need - length bs) s' (acc ++ bs) | _ => Some (s', acc ++ bs, false) end end end)
  with (let '(s', bs, e) := src_read need s in
    match need - length bs with 0 => Some (s', acc ++ bs, true) | S _ =>
    match e with ENil => read_full fuel (need - length bs) s' (acc ++ bs) | _ => Some (s', acc ++ bs, false) end end).
  destruct (src_read_spec need s) as (n & e & s1 & Hr & Hd & Hn & Hl & He & Ho & Hdec & _ & _ & Hp).
  rewrite Hr.
  rewrite firstn_length, Nat.min_l by lia.
  destruct (need - n) as [|k] eqn:Ek.
  { exists s1, (acc ++ firstn n (s_data s)), true, n. assert (n = need) as -> by lia.
    repeat split; try assumption; try discriminate. apply Hp; assumption. }
  rewrite <- Ek.
  assert (Hbad : e <> ENil -> exists (s' : src N) acc' ok m,
    Some (s1, acc ++ firstn n (s_data s), false) = Some (s', acc', ok) /\
    s_data s' = skipn m (s_data s) /\ m <= need /\ m <= length (s_data s) /\
    (ok = true -> m = need /\ acc' = acc ++ firstn need (s_data s)) /\
    (plain (s_evs s) -> plain (s_evs s') /\ (need <= length (s_data s) -> ok = true) /\ (ok = false -> s_data s' = []))).
  { intros Hne. eexists s1, _, false, n. split; [reflexivity|]. repeat split; try assumption; try discriminate.
    - apply Hp; assumption.
    - intros Hlen. destruct (Hp H) as (_ & Hp1 & Hp3). destruct e; try congruence.
      rewrite (Hp1 eq_refl) in Hlen. cbn in Hlen. unfold need in Hlen. lia.
    - intros _. destruct (Hp H) as (_ & Hp1 & Hp3). destruct e; try congruence.
      rewrite Hd, (Hp1 eq_refl). apply skipn_nil. }
  destruct e; try (apply Hbad; discriminate).
  destruct (IH (need - n) s1 (acc ++ firstn n (s_data s))) as (s' & acc' & ok & m & Hr' & Hd' & Hm & Hlm & Hok & Hp').
  { specialize (Hdec ltac:(unfold need; lia) eq_refl). lia. }
  exists s', acc', ok, (n + m). rewrite Hr'. split; [reflexivity|].
  rewrite Hd' , Hd, skipn_skipn. rewrite Hd, skipn_length in Hlm.
  repeat split; try lia.
  - destruct (Hok H). lia.
  - destruct (Hok H) as [-> ->]. rewrite Hd, <- app_assoc, <- firstn_plus. do 2 f_equal. lia.
  - apply Hp'. apply Hp. assumption.
  - intros Hlen. apply Hp'; [apply Hp; assumption|]. rewrite Hd, skipn_length. lia.
  - intros Hok0. rewrite <- skipn_skipn, <- Hd, <- Hd'. apply Hp'; [apply Hp; assumption|assumption].
Qed.

(** ** Reading triangles *)
(** Record [i] of a byte sequence of records. *)
Definition record (bs : list N) (i : nat) : stl_tri := get (firstn 50 (skipn (50 * i) bs)).

(** What the reader makes of [k] records, as a function of the bytes alone. *)
Fixpoint ideal_tris (O : fops) (k : nat) (bs : list N) (out : list (tri64 O)) (mism : nat)
  : list (tri64 O) * stl_err * list N :=
  match k with
  | 0 => (out, if Nat.eqb mism 0 then NoErr else MismatchErr, bs)
  | S k =>
      if Nat.ltb (length bs) 50 then ([], ReadErr, [])
      else
        let d := get (firstn 50 bs) in
        let bs' := skipn 50 bs in
        match validate O d with
        | Invalid => ([], InvalidErr, bs')
        | Mismatch =>
            if Nat.ltb 10000 (S mism) then (out, TooMany, bs')
            else ideal_tris O k bs' (out ++ [decode O d]) (S mism)
        | Valid => ideal_tris O k bs' (out ++ [decode O d]) mism
        end
  end.

Lemma read_tris_plain O : forall k s out mism, plain (s_evs s) ->
  exists s', read_tris O k s out mism =
    Some (fst (fst (ideal_tris O k (s_data s) out mism)), snd (fst (ideal_tris O k (s_data s) out mism)), s') /\
    s_data s' = snd (ideal_tris O k (s_data s) out mism).
Proof.
  induction k as [|k IH]; intros s out mism Hp; [cbn; eauto|].
  cbn [read_tris ideal_tris].
  destruct (read_50_spec (src_fuel s) 50 s []) as (s1 & buf & ok & n & Hr & Hd & Hn & Hl & Hok & Hpl).
  { unfold src_fuel. lia. }
  rewrite Hr. destruct (Hpl Hp) as (Hp1 & Htrue & Hfalse).
  destruct (Nat.ltb_spec (length (s_data s)) 50) as [Hlt | Hge].
  - destruct ok; [destruct (Hok eq_refl); lia|].
    exists s1. cbn. split; [reflexivity|]. apply Hfalse; reflexivity.
  - rewrite (Htrue Hge) in *. destruct (Hok eq_refl) as [-> ->]. cbn [app].
    rewrite <- Hd.
    destruct (validate O _).
    + apply IH. assumption.
    + destruct (10000 <? S mism); [cbn [fst snd]; exists s1; auto|]. apply IH; assumption.
    + cbn. eauto.
Qed.

Lemma read_tris_sound O : forall k s out mism,
  exists out' e s' n, read_tris O k s out mism = Some (out', e, s') /\
    s_data s' = skipn n (s_data s) /\ n <= 50 * k /\
    ((e = NoErr \/ e = MismatchErr) ->
      n = 50 * k /\ 50 * k <= length (s_data s) /\
      out' = out ++ map (fun i => decode O (record (s_data s) i)) (seq 0 k) /\
      (forall i, i < k -> validate O (record (s_data s) i) <> Invalid)) /\
    (e = NoErr -> mism = 0 /\ forall i, i < k -> validate O (record (s_data s) i) = Valid).
Proof.
  induction k as [|k IH]; intros s out mism.
  { cbn [read_tris]. eexists _, _, s, 0. split; [reflexivity|]. cbn [seq map skipn]. rewrite app_nil_r.
    repeat split; try lia. destruct (Nat.eqb_spec mism 0); [assumption|discriminate]. }
  cbn [read_tris].
  destruct (read_50_spec (src_fuel s) 50 s []) as (s1 & buf & ok & n & Hr & Hd & Hn & Hl & Hok & Hpl).
  { unfold src_fuel. lia. }
  rewrite Hr.
  destruct ok.
  2:{ eexists _, _, s1, n. split; [reflexivity|]. repeat split; try lia; try assumption; try discriminate;
      destruct H; discriminate. }
  destruct (Hok eq_refl) as [-> ->]. cbn [app].
  assert (Hrec0 : get (firstn 50 (s_data s)) = record (s_data s) 0) by reflexivity.
  assert (HrecS : forall i, record (s_data s1) i = record (s_data s) (S i)).
  { intros i. unfold record. rewrite Hd, skipn_skipn. do 3 f_equal. lia. }
  assert (Hstep : forall mism' (Hmism' : validate O (record (s_data s) 0) <> Invalid)
      (Hv : validate O (record (s_data s) 0) = Valid -> mism' = mism)
      (Hv' : validate O (record (s_data s) 0) <> Valid -> mism' <> 0),
    exists out' e s' n, read_tris O k s1 (out ++ [decode O (get (firstn 50 (s_data s)))]) mism' = Some (out', e, s') /\
    s_data s' = skipn n (s_data s) /\ n <= 50 * S k /\
    ((e = NoErr \/ e = MismatchErr) ->
      n = 50 * S k /\ 50 * S k <= length (s_data s) /\
      out' = out ++ map (fun i => decode O (record (s_data s) i)) (seq 0 (S k)) /\
      (forall i, i < S k -> validate O (record (s_data s) i) <> Invalid)) /\
    (e = NoErr -> mism = 0 /\ forall i, i < S k -> validate O (record (s_data s) i) = Valid)).
  { intros mism' Hv0 Hv Hv'.
    destruct (IH s1 (out ++ [decode O (get (firstn 50 (s_data s)))]) mism') as (out' & e & s' & m & Hr' & Hd' & Hm & Hok' & Hno).
    exists out', e, s', (50 + m). rewrite Hr'. split; [reflexivity|].
    rewrite Hd', Hd, skipn_skipn. split; [reflexivity|]. split; [lia|]. split.
    - intros He. destruct (Hok' He) as (-> & Hlen & -> & Hval).
      rewrite Hd, skipn_length in Hlen. repeat split; try lia.
      + rewrite <- app_assoc. cbn [app]. f_equal. cbn [seq map]. rewrite Hrec0. f_equal.
        rewrite <- seq_shift, map_map. apply map_ext. intros i. now rewrite HrecS.
      + intros i Hi. destruct i; [assumption|]. rewrite <- HrecS. apply Hval. lia.
    - intros He. destruct (Hno He) as (-> & Hval).
      destruct (validate O (record (s_data s) 0)) eqn:Ev.
      2:{ exfalso. apply Hv'; congruence. }
      2:{ congruence. }
      split; [symmetry; apply Hv; reflexivity|]. intros i Hi. destruct i; [assumption|]. rewrite <- HrecS. apply Hval. lia. }
  cbn zeta. rewrite Hrec0. rewrite Hrec0 in Hstep. destruct (validate O (record (s_data s) 0)) eqn:Ev.
  - apply Hstep; congruence.
  - destruct (10000 <? S mism).
    + eexists _, _, s1, 50. split; [reflexivity|]. repeat split; try lia; try assumption; try discriminate;
        destruct H; discriminate.
    + apply Hstep; congruence.
  - eexists _, _, s1, 50. split; [reflexivity|]. repeat split; try lia; try assumption; try discriminate;
        destruct H; discriminate.
Qed.

(** ** The streaming writer *)
Lemma stl_read_loop_spec O cap ntMax : ntMax <= cap -> 0 < ntMax -> forall fuel it s out,
  length (s_data s) + length (s_evs s) < fuel -> it <= cap ->
  exists s' n e, stl_read_loop O fuel cap ntMax it s out = Some (Ok (s', out ++ records O (firstn n (s_data s)), it + n, e)) /\
    s_data s' = skipn n (s_data s) /\ n <= length (s_data s) /\ it + n <= cap /\
    length (s_evs s') <= length (s_evs s) /\
    (e = ENil -> ntMax <= it + n) /\
    (e = EEOF -> n = length (s_data s)) /\
    (nofail (s_evs s) -> nofail (s_evs s') /\ e <> EOther).
Proof.
  intros Hcap Hnt. induction fuel as [|fuel IH]; intros it s out Hf Hit; [lia|].
  cbn [stl_read_loop]. destruct (Nat.ltb_spec it ntMax) as [Hlt | Hge].
  2:{ exists s, 0, ENil. cbn [firstn skipn records flat_map]. rewrite app_nil_r, Nat.add_0_r.
      repeat split; try lia; try discriminate; assumption. }
  destruct (src_read_spec (Nat.min ntMax (cap - it)) s) as (n & e & s1 & Hr & Hd & Hn & Hl & He & Ho & Hdec & Hev & Hnf & _).
  rewrite Hr, firstn_length, Nat.min_l by lia.
  replace (ntMax <? n) with false by (symmetry; apply Nat.ltb_ge; lia).
  replace ((cap - it) * stl_tri_size <? n * stl_tri_size) with false
    by (symmetry; apply Nat.ltb_ge; apply Nat.mul_le_mono_r; lia).
  change (flat_map (fun t => put (encode O t)) (firstn n (s_data s))) with (records O (firstn n (s_data s))).
  assert (Hstop : e <> ENil ->
    exists s' n0 e0, Some (Ok (s1, out ++ records O (firstn n (s_data s)), it + n, e)) =
      Some (Ok (s', out ++ records O (firstn n0 (s_data s)), it + n0, e0)) /\
      s_data s' = skipn n0 (s_data s) /\ n0 <= length (s_data s) /\ it + n0 <= cap /\
      length (s_evs s') <= length (s_evs s) /\
      (e0 = ENil -> ntMax <= it + n0) /\
      (e0 = EEOF -> n0 = length (s_data s)) /\
      (nofail (s_evs s) -> nofail (s_evs s') /\ e0 <> EOther)).
  { intros Hne. exists s1, n, e. repeat split; try assumption; try lia; try congruence; apply Hnf; assumption. }
  destruct e; try (apply Hstop; discriminate).
  destruct (IH (it + n) s1 (out ++ records O (firstn n (s_data s)))) as (s' & m & e & Hr' & Hd' & Hlm & Hcm & Hev' & Hnil & Heof & Hnf').
  { specialize (Hdec ltac:(lia) eq_refl). lia. }
  { lia. }
  exists s', (n + m), e. rewrite Hr'.
  rewrite <- app_assoc, Hd, <- records_app, <- firstn_plus, Nat.add_assoc.
  split; [reflexivity|]. rewrite Hd', Hd, skipn_skipn. rewrite Hd, skipn_length in *.
  repeat split; try lia; try congruence; intros; try (specialize (Hnil H); lia);
    try (specialize (Heof H); lia); apply Hnf'; apply Hnf; assumption.
Qed.

Lemma stl_read_spec O blen s : 50 <= blen ->
  exists s' n e, stl_read O blen s = Some (Ok (s', records O (firstn n (s_data s)), e)) /\
    s_data s' = skipn n (s_data s) /\ n <= length (s_data s) /\ 50 * n <= blen /\
    length (s_evs s') <= length (s_evs s) /\
    (e = ENil -> 0 < n) /\
    (e = EEOF -> n = length (s_data s)) /\
    (nofail (s_evs s) -> nofail (s_evs s') /\ e <> EOther).
Proof.
  intros Hb. unfold stl_read.
  change stl_tri_size with 50.
  assert (Hcap : 0 < blen / 50) by (apply Nat.div_str_pos; lia).
  assert (Hcap' : 50 * (blen / 50) <= blen) by (apply Nat.mul_div_le; lia).
  set (cap := blen / 50) in *.
  assert (Ht : 0 < triangles_in_buffer) by (unfold triangles_in_buffer; cbn; lia).
  set (tb := triangles_in_buffer) in *.
  destruct (stl_read_loop_spec O cap (Nat.min cap tb) ltac:(lia) ltac:(lia) (src_fuel s) 0 s []) as (s' & n & e & Hr & Hd & Hn & Hc & Hev & Hnil & Heof & Hnf).
  { unfold src_fuel. lia. } { lia. }
  destruct (Nat.min cap tb) as [|m] eqn:Em; [lia|].
  rewrite Hr. exists s', n, e. cbn [app]. repeat split; try assumption; try lia; try (apply Hnf; assumption);
    intros; try (specialize (Hnil H)); try (specialize (Heof H)); lia.
Qed.

(** ** Files *)
Definition padded (f : file) : list N := f_bytes f ++ repeat 0%N (f_pos f - length (f_bytes f)).
(** The state of the file while triangles are being copied. *)
Definition finv (body : list N) (f : file) : Prop :=
  (body = [] /\ f_bytes f = [] /\ f_pos f = 84) \/
  (f_bytes f = repeat 0%N 84 ++ body /\ f_pos f = length (f_bytes f)).

Lemma finv_write body f bs r : finv body f -> bs <> [] ->
  finv (body ++ bs) (File (write_at (f_bytes f) (f_pos f) bs) (f_pos f + length bs) r).
Proof.
  intros [(-> & Hb & Hp) | (Hb & Hp)] Hne; right; cbn [f_bytes f_pos].
  - rewrite Hb, Hp. unfold write_at. rewrite skipn_nil, app_nil_r, app_nil_l.
    change (84 - length (@nil N)) with 84.
    rewrite (firstn_all2 (n := 84) (repeat 0%N 84)) by (rewrite repeat_length; apply le_n). rewrite app_nil_l. split; [reflexivity|].
    rewrite app_length, repeat_length. reflexivity.
  - rewrite Hp. unfold write_at. rewrite Nat.sub_diag. cbn [repeat]. rewrite app_nil_r.
    rewrite firstn_all, skipn_all2 by lia. rewrite app_nil_r.
    split; [now rewrite Hb, app_assoc|]. now rewrite app_length.
Qed.

(** Nothing of the 84 header bytes has been set. *)
Definition header_blank (b : list N) : Prop := Forall (fun x => x = 0%N) (firstn 84 b).

Lemma Forall_repeat {T} (P : T -> Prop) x n : P x -> Forall P (repeat x n).
Proof. intros H. induction n; cbn; constructor; auto. Qed.

Lemma Forall_firstn {T} (P : T -> Prop) n l : Forall P l -> Forall P (firstn n l).
Proof. intros H. revert n. induction H; intros [|n]; cbn; constructor; auto. Qed.

Lemma finv_blank body f : finv body f -> header_blank (f_bytes f).
Proof.
  unfold header_blank. intros [(-> & Hb & Hp) | (Hb & Hp)]; rewrite Hb.
  - rewrite firstn_nil. constructor.
  - rewrite firstn_app, repeat_length, Nat.sub_diag, firstn_O, app_nil_r.
    rewrite firstn_all2 by (rewrite repeat_length; lia). apply Forall_repeat. reflexivity.
Qed.

Lemma f_write_data body f bs f' o : finv body f -> bs <> [] -> f_write bs f = (f', o) ->
  (o = OK /\ finv (body ++ bs) f' /\ (f_evs f = [] -> f_evs f' = [])) \/ (o <> OK /\ f_evs f <> [] /\ header_blank (f_bytes f')).
Proof.
  intros Hi Hne. unfold f_write, next_ev.
  assert (Hpart : forall k r p, header_blank (f_bytes (File (match firstn k bs with [] => f_bytes f | _ => write_at (f_bytes f) (f_pos f) (firstn k bs) end) p r))).
  { intros k r p. cbn [f_bytes]. destruct (firstn k bs) as [|x l] eqn:E; [apply (finv_blank body); assumption|].
    pose proof (finv_write body f (x :: l) r Hi ltac:(discriminate)) as H. apply finv_blank in H. exact H. }
  destruct (f_evs f) as [|[|k|k] r] eqn:Er; intros H; injection H as <- <-.
  - left. split; [reflexivity|]. split; [apply finv_write; assumption|]. reflexivity.
  - left. split; [reflexivity|]. split; [apply finv_write; assumption|]. discriminate.
  - right. split; [discriminate|]. split; [discriminate|]. apply Hpart.
  - right. split; [discriminate|]. split; [discriminate|]. apply Hpart.
Qed.

Lemma records_nil O ts : records O ts = [] <-> ts = [].
Proof.
  split; [|intros ->; reflexivity]. intros H. apply (f_equal (@length N)) in H.
  rewrite records_length in H. destruct ts; [reflexivity|]. cbn in H. lia.
Qed.

(** The copy loop: with [done] already in the file, the rest [s_data s] follows
    unless something fails. *)
Lemma copy_loop_spec O blen : 50 <= blen -> forall fuel s f done w,
  length (s_data s) < fuel -> finv (records O done) f -> w = N.of_nat (50 * length done) ->
  exists f' n o, copy_loop O fuel blen s f w = Some (f', n, o) /\
    ((o = OK /\ finv (records O (done ++ s_data s)) f' /\ n = N.of_nat (50 * length (done ++ s_data s)) /\
      (f_evs f = [] -> f_evs f' = [])) \/
     (o <> OK /\ header_blank (f_bytes f') /\ (f_evs f = [] -> ~ nofail (s_evs s)))).
Proof.
  intros Hb. induction fuel as [|fuel IH]; intros s f done w Hf Hi Hw; [lia|].
  cbn [copy_loop].
  destruct (stl_read_spec O blen s Hb) as (s1 & n & e & Hr & Hd & Hn & Hbn & Hev & Hnil & Heof & Hnf).
  rewrite Hr.
  set (out := records O (firstn n (s_data s))).
  assert (Hlen : length out = 50 * n).
  { unfold out. rewrite records_length, firstn_length, Nat.min_l by lia. reflexivity. }
  (* the write *)
  assert (Hwr : exists f1 o, match out with [] => (f, OK) | _ => f_write out f end = (f1, o) /\
     ((o = OK /\ finv (records O (done ++ firstn n (s_data s))) f1 /\ (f_evs f = [] -> f_evs f1 = [])) \/
      (o <> OK /\ f_evs f <> [] /\ header_blank (f_bytes f1)))).
  { destruct out as [|x l] eqn:Eo.
    - exists f, OK. split; [reflexivity|]. left. split; [reflexivity|].
      assert (n = 0) as -> by (cbn in Hlen; lia). rewrite firstn_O, app_nil_r. split; [assumption|auto].
    - destruct (f_write (x :: l) f) as [f1 o] eqn:Ew. exists f1, o. split; [reflexivity|].
      apply (f_write_data (records O done)) in Ew; [|assumption|discriminate].
      rewrite records_app. fold out. rewrite Eo. exact Ew. }
  destruct Hwr as (f1 & o & -> & Hwr).
  destruct Hwr as [(-> & Hi1 & He1) | (Ho & Hne & Hbl)].
  2:{ exists f1, w, o. split; [destruct o; congruence|]. right. repeat split; auto; intros Hc; congruence. }
  assert (Hw1 : (w + N.of_nat (length out))%N = N.of_nat (50 * length (done ++ firstn n (s_data s)))).
  { rewrite Hlen, app_length, firstn_length, Nat.min_l by lia. subst w. lia. }
  destruct e.
  - destruct (IH s1 f1 (done ++ firstn n (s_data s)) (w + N.of_nat (length out))%N) as (f' & m & o & Hc & Hres).
    { rewrite Hd, skipn_length. specialize (Hnil eq_refl). lia. }
    { assumption. } { assumption. }
    exists f', m, o. rewrite Hc. split; [reflexivity|].
    rewrite Hd, <- app_assoc, firstn_skipn in Hres.
    destruct Hres as [(-> & Hi' & Hm & He') | (Ho & Hbl & Hf')].
    + left. auto 6.
    + right. repeat split; auto. intros Hevs Hno. apply Hf'; auto. apply Hnf. assumption.
  - exists f1, (w + N.of_nat (length out))%N, OK. split; [reflexivity|]. left.
    rewrite Hw1. rewrite (Heof eq_refl) in *. rewrite firstn_all in *. auto.
  - exists f1, (w + N.of_nat (length out))%N, Failed. split; [reflexivity|]. right.
    repeat split; [discriminate| apply finv_blank in Hi1; exact Hi1 |].
    intros _ Hno. apply (Hnf Hno). reflexivity.
Qed.

(** The complete file for a stream: header and records. *)
Definition stl_file (O : fops) (count : N) (ts : list (tri64 O)) : list N := header count ++ records O ts.

Lemma write_at_0 c bs : write_at c 0 bs = bs ++ skipn (length bs) c.
Proof. reflexivity. Qed.

(** Everything [create_stl] can leave behind. *)
Lemma create_stl_spec O blen evs s : 50 <= blen ->
  exists b o, create_stl O blen evs s = Some (b, o) /\
    let count := (N.of_nat (length (s_data s)) mod 2 ^ 32)%N in
    ((o = OK /\ b = Some (stl_file O count (s_data s))) \/
     (o <> OK /\ (evs = [] -> ~ nofail (s_evs s)) /\
      (b = None \/ exists bs, b = Some bs /\
        (header_blank bs \/
         exists k, 80 < k /\ bs = firstn k (header count) ++ skipn k (repeat 0%N 84) ++ records O (s_data s))))).
Proof.
  intros Hb. unfold create_stl. cbn zeta.
  set (cr := match evs with [] => (FOk, []) | e :: r => (e, r) end).
  assert (Hcr : evs = [] -> cr = (FOk, [])) by (intros ->; reflexivity).
  destruct cr as [e r]. cbn [fst snd].
  assert (Hnone : forall o : outcome, e <> FOk -> o <> OK ->
    exists b o0, Some (@None (list N), o) = Some (b, o0) /\
    ((o0 = OK /\ b = Some (stl_file O (N.of_nat (length (s_data s)) mod 2 ^ 32) (s_data s))) \/
     (o0 <> OK /\ (evs = [] -> ~ nofail (s_evs s)) /\
      (b = None \/ exists bs, b = Some bs /\
        (header_blank bs \/
         exists k, 80 < k /\ bs = firstn k (header (N.of_nat (length (s_data s)) mod 2 ^ 32)) ++ skipn k (repeat 0%N 84) ++ records O (s_data s)))))).
  { intros o He Ho. exists None, o. split; [reflexivity|]. right. repeat split; auto. intros H.
    apply Hcr in H. congruence. }
  destruct e; [|apply Hnone; discriminate|apply Hnone; discriminate].
  clear Hnone.
  unfold f_seek at 1, next_ev. cbn [f_evs f_bytes f_pos].
  set (sk := match r with [] => (FOk, []) | e :: r => (e, r) end).
  assert (Hsk : evs = [] -> sk = (FOk, [])).
  { intros H. apply Hcr in H. injection H as H. unfold sk. rewrite H. reflexivity. }
  destruct sk as [e r1].
  assert (Hblank : forall bs o, header_blank bs -> (evs = [] -> ~ nofail (s_evs s)) -> o <> OK ->
    exists b o0, Some (Some bs, o) = Some (b, o0) /\
    ((o0 = OK /\ b = Some (stl_file O (N.of_nat (length (s_data s)) mod 2 ^ 32) (s_data s))) \/
     (o0 <> OK /\ (evs = [] -> ~ nofail (s_evs s)) /\
      (b = None \/ exists bs, b = Some bs /\
        (header_blank bs \/
         exists k, 80 < k /\ bs = firstn k (header (N.of_nat (length (s_data s)) mod 2 ^ 32)) ++ skipn k (repeat 0%N 84) ++ records O (s_data s)))))).
  { intros bs o Hbl Hev Ho. exists (Some bs), o. split; [reflexivity|]. right. repeat split; auto. right. eauto. }
  destruct e; try (apply Hblank; [constructor | intros H; apply Hsk in H; discriminate | discriminate]).
  destruct (copy_loop_spec O blen Hb (src_fuel s) s (File [] 84 r1) [] 0%N) as (f & n & o & Hc & Hres).
  { unfold src_fuel. lia. } { left. auto. } { reflexivity. }
  rewrite Hc. cbn [f_evs app] in Hres.
  assert (Hr1 : evs = [] -> r1 = []) by (intros H; apply Hsk in H; congruence).
  destruct Hres as [(-> & Hi & Hn & Hev) | (Ho & Hbl & Hno)].
  2:{ destruct o; [congruence| |]; apply Hblank; auto; discriminate. }
  unfold f_seek, next_ev.
  set (sk2 := match f_evs f with [] => (FOk, []) | e :: r => (e, r) end).
  assert (Hsk2 : evs = [] -> sk2 = (FOk, [])).
  { intros H. unfold sk2. rewrite Hev by auto. reflexivity. }
  destruct sk2 as [e r2].
  destruct e; try (apply Hblank; [apply (finv_blank _ _ Hi) | intros H; apply Hsk2 in H; discriminate | discriminate]).
  (* the header *)
  replace (n / 50)%N with (N.of_nat (length (s_data s))).
  2:{ subst n. rewrite Nat2N.inj_mul. change (N.of_nat 50) with 50%N. rewrite N.mul_comm, N.div_mul by lia. reflexivity. }
  set (count := (N.of_nat (length (s_data s)) mod 2 ^ 32)%N).
  unfold f_write, next_ev. cbn [f_evs f_bytes f_pos].
  set (sk3 := match r2 with [] => (FOk, []) | e :: r => (e, r) end).
  assert (Hsk3 : evs = [] -> sk3 = (FOk, [])).
  { intros H. apply Hsk2 in H. injection H as H. unfold sk3. rewrite H. reflexivity. }
  destruct sk3 as [e r3].
  assert (Hwhole : write_at (f_bytes f) 0 (header count) = stl_file O count (s_data s)).
  { rewrite write_at_0, header_length. unfold stl_file. f_equal.
    destruct Hi as [(Hrn & Hfb & _) | (Hfb & _)].
    - rewrite Hfb, Hrn, skipn_nil. reflexivity.
    - rewrite Hfb. rewrite skipn_app, repeat_length, Nat.sub_diag, skipn_all2 by (rewrite repeat_length; lia).
      reflexivity. }
  assert (Hzeros : header count = repeat 0%N 80 ++ le32 count) by reflexivity.
  assert (Hpart : forall k, let b := match firstn k (header count) with [] => f_bytes f | _ => write_at (f_bytes f) 0 (firstn k (header count)) end in
     header_blank b \/ exists k', 80 < k' /\ b = firstn k' (header count) ++ skipn k' (repeat 0%N 84) ++ records O (s_data s)).
  { intros k. cbn zeta. destruct (firstn k (header count)) as [|x l] eqn:Ek; [left; apply (finv_blank _ _ Hi)|].
    rewrite <- Ek. rewrite write_at_0.
    destruct (Nat.le_gt_cases k 80) as [Hk | Hk].
    - left. unfold header_blank. rewrite Forall_forall.
      assert (Hz : Forall (fun x => x = 0%N) (firstn k (header count) ++ firstn (84 - k) (skipn (length (firstn k (header count))) (f_bytes f)))).
      { apply Forall_app. split.
        - rewrite Hzeros, firstn_app, repeat_length. replace (k - 80) with 0 by lia.
          rewrite app_nil_r. apply Forall_firstn. apply Forall_repeat. reflexivity.
        - rewrite firstn_length, header_length, Nat.min_l by lia.
          pose proof (finv_blank _ _ Hi) as Hbl. unfold header_blank in Hbl.
          replace 84 with (k + (84 - k)) in Hbl at 1 by lia. rewrite firstn_plus in Hbl.
          apply Forall_app in Hbl. apply Hbl. }
      rewrite Forall_forall in Hz. intros y Hy. apply Hz.
      rewrite firstn_app in Hy. rewrite firstn_length, header_length, Nat.min_l in * by lia.
      apply in_app_or in Hy. apply in_or_app. destruct Hy as [Hy | Hy]; [left|right; assumption].
      rewrite firstn_firstn, Nat.min_r in Hy by lia. assumption.
    - destruct Hi as [(Hrn & Hfb & _) | (Hfb & _)].
      + rewrite Hfb, Hrn, skipn_nil.
        left. unfold header_blank. apply records_nil in Hrn. unfold count. rewrite Hrn, app_nil_r.
        apply Forall_firstn. apply Forall_firstn. change (header (N.of_nat (length (@nil (tri64 O))) mod 2 ^ 32)) with (repeat 0%N 84).
        apply Forall_repeat. reflexivity.
      + right. exists k. split; [assumption|]. f_equal.
        rewrite Hfb, firstn_length, header_length.
        destruct (Nat.le_gt_cases k 84).
        * rewrite Nat.min_l by lia. rewrite skipn_app, repeat_length.
          replace (k - 84) with 0 by lia. reflexivity.
        * rewrite Nat.min_r by lia. rewrite skipn_app, repeat_length, Nat.sub_diag.
          rewrite (skipn_all2 (n := 84)) by (rewrite repeat_length; apply le_n).
          rewrite (skipn_all2 (n := k)) by (rewrite repeat_length; lia). reflexivity. }
  destruct e.
  - exists (Some (stl_file O count (s_data s))), OK. rewrite Hwhole. split; [reflexivity|]. left. auto.
  - eexists _, Failed. split; [reflexivity|]. right. split; [discriminate|]. split; [intros H; apply Hsk3 in H; discriminate|].
    right. eexists. split; [reflexivity|]. apply (Hpart k).
  - eexists _, Crashed. split; [reflexivity|]. right. split; [discriminate|]. split; [intros H; apply Hsk3 in H; discriminate|].
    right. eexists. split; [reflexivity|]. apply (Hpart k).
Qed.
