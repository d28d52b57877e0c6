(** C90: from the octree renderer to the STL file and back. *)
From Coq Require Import List Permutation Arith NArith ZArith Bool Lia.
From Verif Require Import Prelude OctreeModel OctreeSpec OctreeProofs PropsOctree RenderIOModel StlModel StlProofs PropsStl PipelineModel.
Import ListNotations.
Local Open Scope nat_scope.

Section Sim.
  Context (O : fops) {St : Type} (rd : St -> nat -> option (St * list (tri64 O) * rerr)).
  (** [I st ts]: [st] is reached after delivering [ts]; [final ts]: everything has been delivered. *)
  Context (I : St -> list (tri64 O) -> Prop) (final : list (tri64 O) -> Prop).
  Hypothesis rd_sound : forall st ts k st' out e, I st ts -> 0 < k -> rd st k = Some (st', out, e) ->
    length out <= k /\ e <> EOther /\ I st' (ts ++ out) /\ (e = EEOF -> final (ts ++ out)).

  Lemma feed_loop_sim cap ntMax : ntMax <= cap -> 0 < ntMax -> forall fuel it st ts out r, I st ts -> it <= cap ->
    feed_loop O rd fuel cap ntMax it st out = Some r ->
    exists st' out' it' e new evs, r = Ok (st', out', it', e) /\ I st' (ts ++ new) /\ nofail evs /\ e <> EOther /\
      (e = EEOF -> final (ts ++ new)) /\ (it < ntMax -> evs <> []) /\
      forall D R fuel2, (e = EEOF -> D = []) -> length evs < fuel2 ->
        stl_read_loop O fuel2 cap ntMax it (Src (new ++ D) (evs ++ R)) out = Some (Ok (Src D R, out', it', e)).
  Proof.
    intros HC HN. induction fuel as [|fuel IH]; intros it st ts out r HI Hit; cbn [feed_loop].
    - destruct (Nat.ltb_spec it ntMax) as [H|H]; [discriminate|]. intros E. injection E as <-.
      exists st, out, it, ENil, [], []. rewrite app_nil_r. repeat split; try assumption; try discriminate; try (constructor; fail); [lia|].
      intros D R fuel2 _ Hf. destruct fuel2; [cbn in Hf; lia|]. cbn [stl_read_loop app]. destruct (Nat.ltb_spec it ntMax); [lia|reflexivity].
    - destruct (Nat.ltb_spec it ntMax) as [H|H].
      2:{ intros E. injection E as <-. exists st, out, it, ENil, [], []. rewrite app_nil_r. repeat split; try assumption; try discriminate; try (constructor; fail); [lia|].
          intros D R fuel2 _ Hf. destruct fuel2; [cbn in Hf; lia|]. cbn [stl_read_loop app]. destruct (Nat.ltb_spec it ntMax); [lia|reflexivity]. }
      destruct (rd st (Nat.min ntMax (cap - it))) as [[[s1 got] e1]|] eqn:ER; [|discriminate].
      assert (HK : 0 < Nat.min ntMax (cap - it)) by lia. destruct (rd_sound _ _ _ _ _ _ HI HK ER) as (HL & HO & HI1 & HF).
      replace (ntMax <? length got) with false by (symmetry; apply Nat.ltb_ge; lia).
      replace ((cap - it) * stl_tri_size <? length got * stl_tri_size) with false
        by (symmetry; apply Nat.ltb_ge; apply Nat.mul_le_mono_r; lia).
      assert (STEP : forall D R fuel2 c b, (b = false -> c = length got) -> (b = true -> D = [] /\ c = S (length got)) ->
        stl_read_loop O (S fuel2) cap ntMax it (Src (got ++ D) (Chunk c b :: R)) out =
        if b then Some (Ok (Src D R, out ++ flat_map (fun t => put (encode O t)) got, it + length got, EEOF))
        else stl_read_loop O fuel2 cap ntMax (it + length got) (Src D R) (out ++ flat_map (fun t => put (encode O t)) got)).
      { intros D R fuel2 c b Hb0 Hb1. cbn [stl_read_loop]. destruct (Nat.ltb_spec it ntMax) as [_|]; [|lia].
        assert (SR : src_read (Nat.min ntMax (cap - it)) (Src (got ++ D) (Chunk c b :: R)) = (Src D R, got, if b then EEOF else ENil)).
        { unfold src_read. cbn [s_data s_evs]. destruct (got ++ D) as [|x l] eqn:EG.
          - apply app_eq_nil in EG. destruct EG as [-> ->]. destruct b; [destruct (Hb1 eq_refl) as [_ ->]|rewrite (Hb0 eq_refl)]; reflexivity.
          - rewrite <- EG. clear x l EG.
            assert (M : Nat.min c (Nat.min (Nat.min ntMax (cap - it)) (length (got ++ D))) = length got).
            { rewrite app_length. destruct b; [destruct (Hb1 eq_refl) as [_ ->]|rewrite (Hb0 eq_refl)]; [destruct (Hb1 eq_refl) as [-> _]; cbn [length]|]; lia. }
            rewrite M. replace (skipn (length got) (got ++ D)) with D by (rewrite skipn_app, skipn_all, Nat.sub_diag; reflexivity).
            replace (firstn (length got) (got ++ D)) with got by (rewrite firstn_app, firstn_all, Nat.sub_diag, firstn_O, app_nil_r; reflexivity).
            destruct b; [|reflexivity]. destruct (Hb1 eq_refl) as [-> _]. rewrite app_nil_r, Nat.eqb_refl. reflexivity. }
        rewrite SR.
        replace (ntMax <? length got) with false by (symmetry; apply Nat.ltb_ge; lia).
        replace ((cap - it) * stl_tri_size <? length got * stl_tri_size) with false
          by (symmetry; apply Nat.ltb_ge; apply Nat.mul_le_mono_r; lia).
        destruct b; reflexivity. }
      destruct e1.
      + intros E. destruct (IH (it + length got) _ _ _ _ HI1 ltac:(lia) E) as (st' & out' & it' & e & new & evs & Q1 & Q2 & Q3 & Q4 & Q5 & _ & Q6).
        exists st', out', it', e, (got ++ new), (Chunk (length got) false :: evs). rewrite app_assoc.
        repeat split; try assumption; try discriminate.
        * constructor; [discriminate|assumption].
        * intros D R fuel2 HD Hf. destruct fuel2 as [|fuel2]; [lia|]. cbn [app]. rewrite <- app_assoc.
          rewrite STEP by (intros; (reflexivity || discriminate)). apply Q6; [assumption|cbn [length] in Hf; lia].
      + intros E. injection E as <-. exists s1, (out ++ flat_map (fun t => put (encode O t)) got), (it + length got), EEOF, got, [Chunk (S (length got)) true].
        repeat split; try assumption; try discriminate.
        * constructor; [discriminate|constructor].
        * intros D R fuel2 HD Hf. destruct fuel2 as [|fuel2]; [lia|]. cbn [app]. rewrite STEP; [reflexivity|discriminate|]. intros _. split; [auto|reflexivity].
      + congruence.
  Qed.

  Lemma feed_read_sim blen : 50 <= blen -> forall fuel st ts r, I st ts ->
    feed_read O rd fuel blen st = Some r ->
    exists st' out e new evs, r = Ok (st', out, e) /\ I st' (ts ++ new) /\ nofail evs /\ e <> EOther /\
      (e = EEOF -> final (ts ++ new)) /\ evs <> [] /\
      forall D R, (e = EEOF -> D = []) -> stl_read O blen (Src (new ++ D) (evs ++ R)) = Some (Ok (Src D R, out, e)).
  Proof.
    intros Hb fuel st ts r HI. unfold feed_read, stl_read. change stl_tri_size with 50.
    assert (Hcap : 0 < blen / 50) by (apply Nat.div_str_pos; lia). set (cap := blen / 50) in *. clearbody cap.
    assert (Ht : 0 < triangles_in_buffer) by (unfold triangles_in_buffer; apply Nat.neq_0_lt_0, Nat.pow_nonzero; discriminate).
    set (tb := triangles_in_buffer) in *. clearbody tb.
    destruct (Nat.min cap tb) as [|m] eqn:Em; [lia|].
    destruct (feed_loop O rd fuel cap (S m) 0 st []) as [q|] eqn:EL; [|discriminate].
    destruct (feed_loop_sim cap (S m) ltac:(lia) ltac:(lia) fuel 0 st ts [] q HI ltac:(lia) EL) as (st' & out' & it' & e & new & evs & -> & Q2 & Q3 & Q4 & Q5 & Q6 & Q7).
    intros E. injection E as <-. exists st', out', e, new, evs. repeat split; try assumption.
    - apply Q6. lia.
    - intros D R HD. rewrite (Q7 D R _ HD); [reflexivity|]. unfold src_fuel. cbn [s_evs]. rewrite app_length. lia.
  Qed.

  Lemma feed_copy_sim inner blen : 50 <= blen -> forall fuel st ts f w r, I st ts ->
    feed_copy O rd inner fuel blen st f w = Some r ->
    exists new evs, nofail evs /\ (snd r = OK -> final (ts ++ new)) /\
      forall fuel2, length evs < fuel2 -> copy_loop O fuel2 blen (Src new evs) f w = Some r.
  Proof.
    intros Hb. induction fuel as [|fuel IH]; intros st ts f w r HI; cbn [feed_copy]; [discriminate|].
    destruct (feed_read O rd inner blen st) as [q|] eqn:ER; [|discriminate].
    destruct (feed_read_sim blen Hb inner st ts q HI ER) as (st' & out & e & new & evs & -> & Q2 & Q3 & Q4 & Q5 & Q6 & Q7).
    destruct (match out with [] => (f, OK) | _ => f_write out f end) as [f' o] eqn:EW.
    assert (STOP : forall x, (match o with OK => match e with ENil => False | EEOF => x = (f', (w + N.of_nat (length out))%N, OK) | EOther => False end
                              | _ => x = (f', w, o) end) ->
       exists new0 evs0, nofail evs0 /\ (snd x = OK -> final (ts ++ new0)) /\
       forall fuel2, length evs0 < fuel2 -> copy_loop O fuel2 blen (Src new0 evs0) f w = Some x).
    { intros x Hx. exists new, evs. split; [assumption|]. split.
      - destruct o; [|subst x; discriminate|subst x; discriminate]. destruct e; [destruct Hx| |destruct Hx]. intros _. auto.
      - intros fuel2 Hf. destruct fuel2 as [|fuel2]; [lia|]. cbn [copy_loop].
        pose proof (Q7 [] [] (fun _ => eq_refl)) as Q7'. rewrite !app_nil_r in Q7'. rewrite Q7'.
        rewrite EW. destruct o; [|subst x; reflexivity|subst x; reflexivity]. destruct e; [destruct Hx|subst x; reflexivity|destruct Hx]. }
    destruct o; [|intros E; injection E as <-; apply STOP; reflexivity|intros E; injection E as <-; apply STOP; reflexivity].
    destruct e; [|intros E; injection E as <-; apply STOP; reflexivity|congruence].
    intros E. destruct (IH _ _ _ _ _ Q2 E) as (new2 & evs2 & P1 & P2 & P3).
    exists (new ++ new2), (evs ++ evs2). split; [apply Forall_app; split; assumption|]. split; [rewrite app_assoc; assumption|].
    intros fuel2 Hf. destruct fuel2 as [|fuel2]; [lia|]. cbn [copy_loop]. rewrite (Q7 new2 evs2) by discriminate. rewrite EW.
    apply P3. rewrite app_length in Hf. destruct evs as [|]; [congruence|]. cbn [length] in Hf. lia.
  Qed.

  (** Feeding the writer from the renderer is feeding it from the list of all the triangles it delivers. *)
  Lemma feed_create_sim inner fuel blen fevs st b o : 50 <= blen -> I st [] ->
    feed_create O rd inner fuel blen fevs st = Some (b, o) ->
    exists ts evs, nofail evs /\ (o = OK -> final ts) /\ create_stl O blen fevs (Src ts evs) = Some (b, o).
  Proof.
    intros Hb HI. unfold feed_create, create_stl. cbn zeta.
    destruct (match fevs with [] => (FOk, []) | e :: r => (e, r) end) as [ce cr]. cbn [fst snd].
    destruct ce; try (intros E; injection E as <- <-; exists [], []; repeat split; [constructor|discriminate]).
    destruct (f_seek 84 (File [] 0 cr)) as [f oo]. destruct oo; try (intros E; injection E as <- <-; exists [], []; repeat split; [constructor|discriminate]).
    destruct (feed_copy O rd inner fuel blen st f 0) as [q|] eqn:EC; [|discriminate].
    destruct (feed_copy_sim inner blen Hb fuel st [] f 0%N q HI EC) as (new & evs & P1 & P2 & P3).
    intros E. exists new, evs. split; [assumption|]. rewrite P3 by (unfold src_fuel; cbn [s_evs]; lia).
    destruct q as [[f1 n1] o1]. cbn [snd app] in P2. split; [|exact E].
    destruct o1; [auto| |]; intros ->; discriminate E.
  Qed.

  (** It returns: [m] bounds the calls without an error. *)
  Context (bound : St -> nat).
  Hypothesis rd_total : forall st ts k, I st ts -> 0 < k -> 0 < bound st ->
    exists st' out e, rd st k = Some (st', out, e) /\ (e = ENil -> bound st' < bound st /\ 0 < bound st').
  Lemma feed_loop_total cap ntMax : ntMax <= cap -> 0 < ntMax -> forall fuel it st ts out, I st ts -> it <= cap -> 0 < bound st <= fuel ->
    exists st' out' it' e, feed_loop O rd fuel cap ntMax it st out = Some (Ok (st', out', it', e)) /\
      (e = ENil -> 0 < bound st' <= bound st /\ (it < ntMax -> bound st' < bound st)).
  Proof.
    intros HC HN. induction fuel as [|fuel IH]; intros it st ts out HI Hit Hf; [lia|]. cbn [feed_loop].
    destruct (Nat.ltb_spec it ntMax) as [H|H]; [|exists st, out, it, ENil; split; [reflexivity|]; intros _; split; lia].
    destruct (rd_total st ts (Nat.min ntMax (cap - it)) HI ltac:(lia) ltac:(lia)) as (s1 & got & e & ER & HB). rewrite ER.
    assert (HK : 0 < Nat.min ntMax (cap - it)) by lia. destruct (rd_sound _ _ _ _ _ _ HI HK ER) as (HL & HO & HI1 & HF).
    replace (ntMax <? length got) with false by (symmetry; apply Nat.ltb_ge; lia).
    replace ((cap - it) * stl_tri_size <? length got * stl_tri_size) with false
      by (symmetry; apply Nat.ltb_ge; apply Nat.mul_le_mono_r; lia).
    destruct e; [|eexists _, _, _, EEOF; split; [reflexivity|discriminate]|congruence].
    destruct (HB eq_refl) as [B1 B2].
    destruct (IH (it + length got) s1 _ (out ++ flat_map (fun t => put (encode O t)) got) HI1 ltac:(lia) ltac:(lia)) as (st' & out' & it' & e & E & P).
    exists st', out', it', e. split; [exact E|]. intros He. destruct (P He) as [P1 _]. lia.
  Qed.
  Lemma feed_copy_total inner blen : 50 <= blen -> forall fuel st ts f w, I st ts -> 0 < bound st <= fuel -> bound st <= inner ->
    exists r, feed_copy O rd inner fuel blen st f w = Some r.
  Proof.
    intros Hb. induction fuel as [|fuel IH]; intros st ts f w HI Hf Hin; [lia|]. cbn [feed_copy].
    assert (RT : exists st' out e, feed_read O rd inner blen st = Some (Ok (st', out, e)) /\ (e = ENil -> 0 < bound st' < bound st)).
    { unfold feed_read. change stl_tri_size with 50.
      assert (Hcap : 0 < blen / 50) by (apply Nat.div_str_pos; lia). set (cap := blen / 50) in *. clearbody cap.
      assert (Ht : 0 < triangles_in_buffer) by (unfold triangles_in_buffer; apply Nat.neq_0_lt_0, Nat.pow_nonzero; discriminate).
      set (tb := triangles_in_buffer) in *. clearbody tb.
      destruct (Nat.min cap tb) as [|m] eqn:Em; [lia|].
      destruct (feed_loop_total cap (S m) ltac:(lia) ltac:(lia) inner 0 st ts [] HI ltac:(lia) ltac:(lia)) as (st' & out & it' & e & E & P).
      exists st', out, e. rewrite E. split; [reflexivity|]. intros He. destruct (P He) as [P1 P2]. specialize (P2 ltac:(lia)). lia. }
    destruct RT as (st' & out & e & ER & HB). rewrite ER.
    destruct (feed_read_sim blen Hb inner st ts _ HI ER) as (st2 & out2 & e2 & new & evs & EQ & Q2 & _). injection EQ as <- <- <-.
    destruct (match out with [] => (f, OK) | _ => f_write out f end) as [f' o].
    destruct o; try (eexists; reflexivity). destruct e; try (eexists; reflexivity).
    specialize (HB eq_refl). apply (IH _ _ _ _ Q2); lia.
  Qed.
  Lemma feed_create_total inner fuel blen fevs st : 50 <= blen -> I st [] -> 0 < bound st <= fuel -> bound st <= inner ->
    exists b o, feed_create O rd inner fuel blen fevs st = Some (b, o).
  Proof.
    intros Hb HI Hf Hin. unfold feed_create. cbn zeta.
    destruct (match fevs with [] => (FOk, []) | e :: r => (e, r) end) as [ce cr]. cbn [fst snd].
    destruct ce; try (eexists _, _; reflexivity).
    destruct (f_seek 84 (File [] 0 cr)) as [f oo]. destruct oo; try (eexists _, _; reflexivity).
    destruct (feed_copy_total inner blen Hb fuel st [] f 0%N HI Hf Hin) as ([[f1 n1] o1] & EC). rewrite EC.
    destruct o1; try (eexists _, _; reflexivity).
    destruct (f_seek 0 f1) as [f2 o2]. destruct o2; try (eexists _, _; reflexivity).
    destruct (f_write (header (n1 / 50 mod 2 ^ 32)) f2) as [f3 o3]. eexists _, _; reflexivity.
  Qed.
End Sim.

(** ** The octree renderer *)
Section Octree.
  Context (O : fops) (z : tri64 O) (leaf : v3i -> list (tri64 O)) (empty : cube -> bool) (levels : nat) (conc : Z).
  Let E := Env (tri64 O) z leaf empty levels.
  Let mesh : list (tri64 O) := surface_triangles E.
  Definition reached (st : ostate E * list (list nat * list (tri E))) (ts : list (tri64 O)) : Prop := reachable E conc (fst st) ts.
  Lemma junk_length k (junk : list (tri E)) : length (junk_buffer (e_zero E) k junk) = k.
  Proof. unfold junk_buffer. rewrite firstn_length, app_length, repeat_length. lia. Qed.
  Lemma octree_sound (HE : wf_env E) st ts k st' out e : reached st ts -> 0 < k -> @octree_feed E st k = Some (st', out, e) ->
    length out <= k /\ e <> EOther /\ reached st' (ts ++ out) /\ (e = EEOF -> Permutation (ts ++ out) (surface_triangles E)) /\
    (exists c, snd st = c :: snd st') /\ (e = ENil -> measure (fst st') < measure (fst st)).
  Proof.
    intros HR Hk. unfold octree_feed. destruct st as [os calls]. cbn [fst snd] in *. destruct calls as [|[sched junk] calls]; [discriminate|].
    destruct (read_triangles os (junk_buffer (e_zero E) k junk) sched) as [os' dst n eof| |] eqn:EC; try discriminate.
    intros H. injection H as <- <- <-. unfold reached in *. cbn [fst snd] in *.
    destruct (reachable_inv _ _ _ _ HE HR) as (I1 & _).
    assert (Hd : junk_buffer (e_zero E) k junk <> []) by (intros X; apply (f_equal (@length _)) in X; rewrite junk_length in X; cbn in X; lia).
    destruct (read_triangles_ok os (junk_buffer (e_zero E) k junk) sched HE I1 Hd) as [[H _]|(st2&d2&n2&e2&H&Hok)]; [congruence|].
    rewrite EC in H. injection H as <- <- <- <-.
    destruct Hok as [A1 A2 _ _ _ _ _ A8 _]. rewrite junk_length in A2.
    split; [rewrite firstn_length; lia|]. split; [destruct eof; discriminate|].
    split; [exact (reach_call _ _ _ _ _ _ _ _ _ _ HR EC)|]. split; [|split; [eexists; reflexivity|]].
    - destruct eof; [|discriminate]. intros _. exact (C01_exactly_once _ _ _ _ _ _ _ _ _ HE HR EC).
    - destruct eof; [discriminate|]. intros _. exact A8.
  Qed.

  (** What CreateSTL leaves when it is given a new octree renderer, however its goroutines are scheduled, whatever its
      buffers held and whichever file operation fails. *)
  Theorem C90_create calls inner fuel blen fevs b o : wf_env E -> 50 <= blen ->
    feed_create O (@octree_feed E) inner fuel blen fevs (init_octree E conc, calls) = Some (b, o) ->
    exists ts : list (tri64 O),
      (o = OK -> Permutation ts mesh /\ b = Some (header (N.of_nat (length ts) mod 2 ^ 32) ++ records O ts)) /\
      (o <> OK -> b = None \/ exists bs, b = Some bs /\ (rejected O bs \/ torn_header O ts bs)) /\
      (fevs = [] -> o = OK).
  Proof.
    intros HE Hb HC.
    destruct (feed_create_sim O (@octree_feed E) reached (fun ts => Permutation ts mesh)) with (inner := inner) (fuel := fuel) (blen := blen) (fevs := fevs) (st := (init_octree E conc, calls)) (b := b) (o := o) as (ts & evs & Hn & Hf & Hs); try assumption.
    - intros st ts k st' out e HR Hk Hr. destruct (octree_sound HE _ _ _ _ _ _ HR Hk Hr) as (P1 & P2 & P3 & P4 & _). auto.
    - apply reach_init.
    - exists ts. destruct (C20_interrupted_partial O blen ts evs fevs Hb) as (b' & o' & HC' & Q1 & Q2). rewrite Hs in HC'. injection HC' as <- <-.
      split; [auto|]. split; [assumption|]. intros ->.
      destruct (create_stl_spec O blen [] (Src ts evs) Hb) as (b' & o' & HC' & Hres). rewrite Hs in HC'. injection HC' as <- <-.
      cbn zeta in Hres. cbn [s_data s_evs] in Hres. destruct Hres as [(-> & _)|(_ & N & _)]; [reflexivity|]. exfalso. apply (N eq_refl). assumption.
  Qed.

  (** It returns, if each call's goroutines all get enough turns; the number of calls depends on the depth only. *)
  Definition fair (c : list nat * list (tri E)) : Prop := gives_turns (fst c) (S (Z.to_nat conc)) (S (call_bound (levels - 1))).
  Theorem C90_returns calls inner fuel blen fevs : wf_env E -> 50 <= blen -> Forall fair calls ->
    call_bound (levels - 1) < length calls -> call_bound (levels - 1) < inner -> call_bound (levels - 1) < fuel ->
    exists b o, feed_create O (@octree_feed E) inner fuel blen fevs (init_octree E conc, calls) = Some (b, o).
  Proof.
    intros HE Hb HF HL Hi Hfu.
    set (bound := fun st : ostate E * list (list nat * list (tri E)) => if measure (fst st) <? length (snd st) then S (measure (fst st)) else 0).
    assert (B0 : bound (init_octree E conc, calls) = S (call_bound (levels - 1))).
    { unfold bound. cbn [fst snd]. assert (M : measure (init_octree E conc) = call_bound (levels - 1)).
      { unfold measure, wts. cbn. change (call_bound (levels - 1)) with (wt (levels - 1)). lia. }
      rewrite M. destruct (Nat.ltb_spec (call_bound (levels - 1)) (length calls)); [reflexivity|lia]. }
    apply (feed_create_total O (@octree_feed E) (fun st ts => reached st ts /\ Forall fair (snd st)) (fun ts => Permutation ts mesh)) with (bound := bound); try assumption.
    - intros st ts k st' out e [HR HFs] Hk Hr. destruct (octree_sound HE _ _ _ _ _ _ HR Hk Hr) as (P1 & P2 & P3 & P4 & (c & P5) & _).
      rewrite P5 in HFs. inversion HFs; subst. auto.
    - intros st ts k [HR HFs] Hk HB. unfold bound in HB. destruct (Nat.ltb_spec (measure (fst st)) (length (snd st))) as [HM|]; [|lia].
      destruct st as [os cs]. cbn [fst snd] in *. destruct cs as [|[sched junk] cs]; [cbn in HM; lia|].
      inversion HFs as [|? ? Hfair HFs']; subst.
      assert (Hd : junk_buffer (e_zero E) k junk <> []) by (intros X; apply (f_equal (@length _)) in X; rewrite junk_length in X; cbn in X; lia).
      assert (HT : gives_turns sched (S (Z.to_nat conc)) (S (length (o_todo os)))).
      { intros i Hi'. apply Nat.le_trans with (S (call_bound (levels - 1))); [|apply (Hfair i Hi')].
        destruct (reachable_inv _ _ _ _ HE HR) as (I1 & _ & _ & _ & _ & I6). unfold measure in I6.
        change (call_bound (levels - 1)) with (wt (e_levels E - 1)). cbn [fst] in *.
        assert (LW : length (o_todo os) <= wts (o_todo os)).
        { clear - I1. induction I1 as [|c l Hc _ IH]; [cbn; lia|]. rewrite wts_cons. cbn [length]. destruct c as [og lv]. destruct Hc as [Hc _]. cbn [c_lev] in *. destruct lv as [|[|lv]]; cbn [wt]; unfold max_tris; lia. }
        lia. }
      destruct (C02_returns E conc os ts (junk_buffer (e_zero E) k junk) sched HE HR Hd HT) as (st' & dst' & n & eof & EC).
      exists (st', cs), (firstn n dst'), (if eof then EEOF else ENil).
      assert (ER : @octree_feed E (os, (sched, junk) :: cs) k = Some ((st', cs), firstn n dst', if eof then EEOF else ENil)).
      { unfold octree_feed. cbn [fst snd]. rewrite EC. reflexivity. }
      split; [exact ER|]. intros He. destruct (octree_sound HE _ _ _ _ _ _ HR Hk ER) as (_ & _ & _ & _ & _ & P). specialize (P He). cbn [fst snd] in *.
      unfold bound. cbn [fst snd]. cbn [length] in HM.
      destruct (Nat.ltb_spec (measure st') (length cs)); [|lia]. destruct (Nat.ltb_spec (measure os) (length ((sched, junk) :: cs))); [|cbn [length] in *; lia]. lia.
    - split; [apply reach_init|assumption].
    - rewrite B0. lia.
    - rewrite B0. lia.
  Qed.

  (** Reading the file back gives every triangle of the surface exactly once, rounded to float32, if there are any, their
      number fits the format and rounding leaves none of them degenerate. *)
  Theorem C90_read_back (HO : wf_fops O) calls inner fuel blen b o evs rest : wf_env E -> 50 <= blen ->
    feed_create O (@octree_feed E) inner fuel blen [] (init_octree E conc, calls) = Some (b, o) ->
    mesh <> [] -> (N.of_nat (length mesh) < 2 ^ 32)%N ->
    Forall (good_tri O) mesh -> length (filter (mismatching O) mesh) <= N.to_nat 10000 ->
    plain evs ->
    o = OK /\ exists bs out e s', b = Some bs /\ read_binary_stl O (Src (bs ++ rest) evs) = Some (out, e, s') /\ s_data s' = rest /\
      Permutation out (map (round_tri O) mesh) /\
      (e = NoErr \/ e = MismatchErr) /\ (e = NoErr <-> forall t, In t mesh -> mismatching O t = false).
  Proof.
    intros HE Hb HC Hne Hcnt Hg Hm Hp.
    destruct (C90_create _ _ _ _ _ _ _ HE Hb HC) as (ts & H1 & _ & H3). specialize (H3 eq_refl). subst o. split; [reflexivity|].
    destruct (H1 eq_refl) as (HP & ->).
    assert (LEN : length ts = length mesh) by (apply Permutation_length; assumption).
    assert (NE : ts <> []) by (intros ->; apply Hne; apply Permutation_nil; assumption).
    rewrite LEN. rewrite N.mod_small by assumption. rewrite <- LEN.
    destruct (proj1 (C17_write_stl O HO ts) NE) as (w & Hw & _); [rewrite LEN; lia|].
    assert (EW : w = header (N.of_nat (length ts)) ++ records O ts).
    { destruct (C19_create_same_as_write O blen ts [] Hb ltac:(constructor) NE ltac:(rewrite LEN; assumption)) as (w' & Hc & Hw').
      rewrite Hw in Hw'. injection Hw' as <-. destruct (C20_interrupted_partial O blen ts [] [] Hb) as (b' & o' & Hc' & Q & _).
      rewrite Hc in Hc'. injection Hc' as <- <-. specialize (Q eq_refl). rewrite N.mod_small in Q by (rewrite LEN; assumption). congruence. }
    destruct (C18_round_trip O HO ts w rest evs NE) as (e & s' & R1 & R2 & R3 & R4); try assumption.
    - apply (Permutation_Forall (Permutation_sym HP)). assumption.
    - apply Nat.le_trans with (length (filter (mismatching O) mesh)); [|assumption].
      assert (FP : Permutation (filter (mismatching O) ts) (filter (mismatching O) mesh)).
      { clear - HP. induction HP; cbn; [constructor|destruct (mismatching O x); [constructor|]; assumption| |eapply perm_trans; eassumption].
        destruct (mismatching O x), (mismatching O y); try apply Permutation_refl. constructor. }
      rewrite (Permutation_length FP). apply le_n.
    - exists w, (map (round_tri O) ts), e, s'. rewrite <- EW. repeat split; try assumption.
      + apply Permutation_map. assumption.
      + intros He t Ht. apply R4; [assumption|]. apply (Permutation_in t (Permutation_sym HP)). assumption.
      + intros H. apply R4. intros t Ht. apply H. apply (Permutation_in t HP). assumption.
  Qed.
End Octree.

(** ** What the conditions of C90_read_back exclude *)
(** A surface without triangles: CreateSTL returns nil, the reader rejects the file. *)
Theorem C90_empty_rejected O z leaf empty levels conc calls inner fuel blen b o :
  let E := Env (tri64 O) z leaf empty levels in wf_env E -> 50 <= blen ->
  feed_create O (@octree_feed E) inner fuel blen [] (init_octree E conc, calls) = Some (b, o) ->
  surface_triangles E = [] -> o = OK /\ exists bs, b = Some bs /\ rejected O bs.
Proof.
  intros E HE Hb HC HS. destruct (C90_create O z leaf empty levels conc calls inner fuel blen [] b o HE Hb HC) as (ts & H1 & _ & H3).
  specialize (H3 eq_refl). split; [assumption|]. destruct (H1 H3) as (HP & ->). fold E in HP. rewrite HS in HP.
  apply Permutation_sym, Permutation_nil in HP. subst ts. eexists. split; [reflexivity|]. apply header_blank_rejected.
  cbn. repeat constructor.
Qed.
Lemma records_rec_of O (HO : wf_fops O) c ts rest i t : @nth_error (tri64 O) ts i = Some t -> rec_of ((header c ++ records O ts) ++ rest) i = encode O t.
Proof.
  intros Hi. rewrite <- record_rec_of, <- app_assoc, skipn_app, skipn_all2, header_length, Nat.sub_diag by (rewrite header_length; lia).
  cbn [app skipn]. revert i Hi. induction ts as [|a ts IH]; intros i Hi; [destruct i; discriminate|].
  change (records O (a :: ts)) with (put (encode O a) ++ records O ts). rewrite <- app_assoc. destruct i as [|i].
  - injection Hi as ->. unfold record. rewrite Nat.mul_0_r. cbn [skipn]. rewrite firstn_app, put_length, Nat.sub_diag, firstn_O, app_nil_r, firstn_all2 by (rewrite put_length; lia).
    rewrite <- (app_nil_r (put _)), get_put; [reflexivity|apply encode_wf; assumption].
  - unfold record. replace (50 * S i) with (50 + 50 * i) by lia. rewrite <- skipn_skipn.
    replace (skipn 50 (put (encode O a) ++ records O ts ++ rest)) with (records O ts ++ rest); [apply (IH i Hi)|].
    rewrite skipn_app, put_length, Nat.sub_diag, (skipn_all2 (put (encode O a))) by (rewrite put_length; apply le_n). reflexivity.
Qed.
Lemma header_announced c b rest : (c < 2 ^ 32)%N -> announced ((header c ++ b) ++ rest) = N.to_nat c.
Proof.
  intros Hc. unfold announced, header. rewrite <- !app_assoc.
  change (word (repeat 0%N 80 ++ (le32 c ++ b ++ rest)) 80) with (word (repeat 0%N 80 ++ (le32 c ++ b ++ rest)) (length (repeat 0%N 80) + 0)).
  rewrite word_app, word_le32 by exact Hc. reflexivity.
Qed.
(** Whatever the number of triangles and however the reader is fed: if the file that CreateSTL reported as written is read without error, or only with the mismatch of normals, what is read is
    the first [count] delivered triangles rounded to float32, [count] being their number modulo 2^32, and all of them are proper. *)
Theorem C90_accepted O (HO : wf_fops O) z leaf empty levels conc calls inner fuel blen b o :
  let E := Env (tri64 O) z leaf empty levels in wf_env E -> 50 <= blen ->
  feed_create O (@octree_feed E) inner fuel blen [] (init_octree E conc, calls) = Some (b, o) ->
  o = OK /\ exists bs ts, b = Some bs /\ Permutation ts (surface_triangles E) /\
    forall evs rest out e s', read_binary_stl O (Src (bs ++ rest) evs) = Some (out, e, s') -> e = NoErr \/ e = MismatchErr ->
      let count := N.to_nat (N.of_nat (length ts) mod 2 ^ 32) in
      out = map (round_tri O) (firstn count ts) /\ Forall (good_tri O) (firstn count ts).
Proof.
  intros E HE Hb HC. destruct (C90_create O z leaf empty levels conc calls inner fuel blen [] b o HE Hb HC) as (ts & H1 & _ & H3).
  specialize (H3 eq_refl). split; [assumption|]. destruct (H1 H3) as (HP & ->). fold E in HP. eexists. exists ts. split; [reflexivity|]. split; [exact HP|].
  intros evs rest out e s' HR He count. set (c := (N.of_nat (length ts) mod 2 ^ 32)%N) in *. assert (Hc : (c < 2 ^ 32)%N) by (apply N.mod_lt; discriminate).
  destruct (C21_rejects_malformed O ((header c ++ records O ts) ++ rest) evs) as (out' & e' & s'' & n & HR' & _ & _ & HA). rewrite HR in HR'. injection HR' as <- <- <-.
  destruct (HA He) as ((_ & _ & _ & HV) & _ & Eo). rewrite (header_announced c _ _ Hc) in HV, Eo. fold count in HV, Eo.
  assert (Lm : forall l, N.to_nat (N.of_nat l mod 2 ^ 32) <= l) by (intros l; pose proof (N.mod_le (N.of_nat l) (2 ^ 32) ltac:(discriminate)); lia).
  assert (Lc : count <= length ts) by apply Lm.
  assert (G : forall n, n <= length ts -> (forall i, i < n -> proper (rec_of ((header c ++ records O ts) ++ rest) i)) ->
    map (fun i => decode O (rec_of ((header c ++ records O ts) ++ rest) i)) (seq 0 n) = map (round_tri O) (firstn n ts) /\ Forall (good_tri O) (firstn n ts)).
  { induction n0 as [|j IH]; intros Lj Hj; [split; constructor|]. destruct (IH ltac:(lia) ltac:(intros; apply Hj; lia)) as (A & B).
    destruct (nth_error ts j) as [t|] eqn:Et; [|apply nth_error_None in Et; lia].
    assert (Ef : firstn (S j) ts = firstn j ts ++ [t]). { clear - Et. revert ts Et. induction j as [|j IH]; intros ts Et; destruct ts as [|a ts]; try discriminate; [injection Et as ->; reflexivity|]. cbn [firstn app]. f_equal. now apply IH. }
    pose proof (records_rec_of O HO c ts rest j t Et) as Er. rewrite seq_S, map_app, A, Ef, map_app. cbn [map Nat.add]. rewrite Er. split.
    - f_equal. f_equal. destruct t as [[[[? ?] ?] [[? ?] ?]] [[? ?] ?]]. reflexivity.
    - apply Forall_app. split; [exact B|]. constructor; [|constructor]. unfold good_tri. rewrite <- Er. apply Hj. lia. }
  destruct (G count Lc HV) as (A & B). split; [rewrite Eo; exact A|exact B].
Qed.
(** One triangle that is degenerate after rounding to float32, or not finite: CreateSTL returns nil, the reader reports
    an error for the whole file. *)
Theorem C90_one_bad_triangle O (HO : wf_fops O) z leaf empty levels conc calls inner fuel blen b o t :
  let E := Env (tri64 O) z leaf empty levels in wf_env E -> 50 <= blen ->
  feed_create O (@octree_feed E) inner fuel blen [] (init_octree E conc, calls) = Some (b, o) ->
  (N.of_nat (length (surface_triangles E)) < 2 ^ 32)%N ->
  In t (surface_triangles E) -> ~ good_tri O t ->
  o = OK /\ exists bs, b = Some bs /\ forall evs rest, exists out e s', read_binary_stl O (Src (bs ++ rest) evs) = Some (out, e, s') /\ e <> NoErr /\ e <> MismatchErr.
Proof.
  intros E HE Hb HC Hcnt Hin Hbad. destruct (C90_create O z leaf empty levels conc calls inner fuel blen [] b o HE Hb HC) as (ts & H1 & _ & H3).
  specialize (H3 eq_refl). split; [assumption|]. destruct (H1 H3) as (HP & ->). fold E in HP.
  assert (LEN : length ts = @length (tri64 O) (surface_triangles E)) by (apply Permutation_length; assumption).
  rewrite N.mod_small by (rewrite LEN; exact Hcnt).
  eexists. split; [reflexivity|]. intros evs rest.
  destruct (C21_rejects_malformed O ((header (N.of_nat (length ts)) ++ records O ts) ++ rest) evs) as (out & e & s' & n & HR & _ & _ & HA).
  exists out, e, s'. split; [exact HR|].
  assert (NA : ~ (e = NoErr \/ e = MismatchErr)); [|split; intros ->; apply NA; auto].
  intros He. destruct (HA He) as ((_ & _ & _ & HV) & _ & _). apply Hbad.
  apply (Permutation_in t (Permutation_sym HP)) in Hin. apply In_nth_error in Hin. destruct Hin as [i Hi].
  change (@nth_error (tri64 O) ts i = Some t) in Hi.
  assert (AN : announced ((header (N.of_nat (length ts)) ++ records O ts) ++ rest) = length ts) by (rewrite header_announced by (rewrite LEN; exact Hcnt); apply Nat2N.id).
  specialize (HV i). rewrite AN in HV. specialize (HV ltac:(apply nth_error_Some; rewrite Hi; discriminate)). cbv zeta in HV.
  assert (RO : rec_of ((header (N.of_nat (length ts)) ++ records O ts) ++ rest) i = encode O t) by now apply records_rec_of.
  rewrite RO in HV. exact HV.
Qed.

(** The hypotheses are met: eight finest cubes, two of them with a triangle, two goroutines. *)
Definition ex_leaf (v : v3i) : list (tri64 ex_ops) :=
  match v with V3I 0 0 0 => [ex_t1] | V3I 2 0 2 => [ex_t2] | _ => [] end%Z.
Definition ex_env : env := Env (tri64 ex_ops) ex_t1 ex_leaf (fun _ => false) 3.
Definition ex_calls : list (list nat * list (tri64 ex_ops)) := repeat (concat (repeat [2; 0; 1] 50), [ex_t2]) 50.
Example C90_example :
  wf_env ex_env /\ Forall (fair ex_ops ex_t1 ex_leaf (fun _ => false) 3 2) ex_calls /\ call_bound (3 - 1) < length ex_calls /\
  exists b, feed_create ex_ops (@octree_feed ex_env) 50 50 170 [] (init_octree ex_env 2, ex_calls) = Some (Some b, OK) /\
    length b = 184 /\ exists s', read_binary_stl ex_ops (Src b []) = Some ([ex_t1; ex_t2], NoErr, s').
Proof.
  split; [split; [|cbn; lia]|].
  { intros v. cbn [e_leaf ex_env ex_leaf]. unfold ex_leaf. destruct v as [x y w]. destruct x as [|[|[]|]|]; try (cbn; unfold max_tris; lia); destruct y; try (cbn; unfold max_tris; lia); destruct w as [|[|[]|]|]; cbn; unfold max_tris; lia. }
  split; [apply Forall_repeat; intros i Hi; cbn [Z.to_nat] in Hi; assert (C : i = 0 \/ i = 1 \/ i = 2) by (change (Z.to_nat 2) with 2 in Hi; lia); destruct C as [->|[->| ->]]; vm_compute; lia|].
  split; [vm_compute; lia|].
  eexists. split; [vm_compute; reflexivity|]. split; [reflexivity|]. eexists. vm_compute. reflexivity.
Qed.
