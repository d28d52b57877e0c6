From Coq Require Import List Permutation Arith Lia Bool ZArith ZifyBool ZifyNat.
From Verif Require Import Prelude OctreeModel OctreeSpec.
Import ListNotations.

Local Arguments Nat.ltb : simpl never.
Local Arguments Nat.leb : simpl never.
Local Arguments max_tris : simpl never.
Local Arguments sub_cubes : simpl never.

(** * Denotation of a pending cube *)
Fixpoint expand_at (E : env) (n : nat) (o : v3i) : list (tri E) :=
  match n with
  | 0 => []
  | S m =>
      match m with
      | 0 => e_leaf E o
      | S _ => flat_map (fun c => expand_at E m (c_org c))
                 (filter (fun c => negb (e_empty E c)) (sub_cubes o m))
      end
  end.
Definition expand (E : env) (c : cube) : list (tri E) := expand_at E (c_lev c) (c_org c).

Definition okc (E : env) (c : cube) : Prop := 1 <= c_lev c /\ c_lev c < e_levels E.

Lemma sub_cubes_lev o n c : In c (sub_cubes o n) -> c_lev c = n.
Proof. unfold sub_cubes. cbn [map In]. intros H. repeat (destruct H as [<-|H]; [reflexivity|]). destruct H. Qed.

(** Work weight of a cube: strictly more than everything it can turn into. *)
Fixpoint wt (n : nat) : nat :=
  match n with
  | 0 => 1
  | S m => match m with 0 => 6 | S _ => 8 * wt m + 1 end
  end.
Definition wts (l : list cube) : nat := list_sum (map (fun c => wt (c_lev c)) l).
Local Arguments wts : simpl never.
Lemma wts_app a b : wts (a ++ b) = wts a + wts b.
Proof. unfold wts. now rewrite map_app, list_sum_app. Qed.

Lemma wts_cons c l : wts (c :: l) = wt (c_lev c) + wts l.
Proof. reflexivity. Qed.
Lemma wts_filter f l : wts (filter f l) <= wts l.
Proof.
  induction l as [|c l IH]; cbn [filter]; auto.
  destruct (f c); rewrite !wts_cons; lia.
Qed.
Lemma wts_const n l : (forall c, In c l -> c_lev c = n) -> wts l = length l * wt n.
Proof.
  induction l as [|c l IH]; intros H; auto.
  rewrite wts_cons, IH by (intros; apply H; now right).
  rewrite (H c) by now left. reflexivity.
Qed.

(** * One process_cube *)
Lemma process_cube_ok E dst c :
  wf_env E -> okc E c -> max_tris <= length dst ->
  exists d nt nc, process_cube E dst c = Ok (d, nt, nc) /\
    length d = length dst /\ nt <= max_tris /\
    firstn nt d ++ flat_map (expand E) nc = expand E c /\
    length (firstn nt d) = nt /\
    Forall (okc E) nc /\
    nt + wts nc + 1 <= wt (c_lev c).
Proof.
  intros [Hw Hl] [Hc1 Hc2] Hd. unfold process_cube.
  destruct c as [o lev]; cbn in *.
  destruct lev as [|[|m]]; [lia| |].
  - specialize (Hw o).
    assert ((length dst <? max_tris) = false) as -> by lia.
    assert ((length dst <? length (e_leaf E o)) = false) as -> by lia.
    eexists _, _, _. split; [reflexivity|].
    rewrite app_length, skipn_length.
    rewrite firstn_app_exact by reflexivity.
    cbn. rewrite app_nil_r.
    repeat split; auto; try lia.
    change (wts []) with 0; unfold max_tris in *; cbn; lia.
  - assert ((e_levels E <=? S m) = false) as -> by lia.
    eexists _, _, _. split; [reflexivity|].
    cbn [firstn length app]. repeat split; auto.
    + lia.
    + transitivity (flat_map (fun c => expand_at E (S m) (c_org c))
                 (filter (fun c => negb (e_empty E c)) (sub_cubes o (S m)))); [|reflexivity].
      rewrite !flat_map_concat_map. f_equal. apply map_ext_in.
      intros c Hc. apply filter_In in Hc as [Hc _].
      unfold expand. now rewrite (sub_cubes_lev _ _ _ Hc).
    + apply Forall_forall. intros c Hc. apply filter_In in Hc as [Hc _].
      apply sub_cubes_lev in Hc. split; lia.
    + pose proof (wts_filter (fun c => negb (e_empty E c)) (sub_cubes o (S m))) as H1.
      rewrite (wts_const (S m) (sub_cubes o (S m))) in H1 by apply sub_cubes_lev.
      change (length (sub_cubes o (S m))) with 8 in H1.
      cbn [wt] in *. lia.
Qed.

(** * Worker invariant *)
Section Worker.
Context {E : env}.
Implicit Types (w : worker E) (s : shared (tri E)).

Definition written w := firstn (w_n w) (w_dst w).
Definition pend w := match w_phase w with Spill t => t | _ => [] end.
Definition left w := w_rest w ++ w_new w.

Record wf_worker w : Prop := {
  wfw_n : w_n w <= length (w_dst w);
  wfw_nc : w_nc w <= length (w_todo w);
  wfw_rest : w_rest w = skipn (w_nc w) (w_todo w);
  wfw_cubes : Forall (okc E) (left w);
  wfw_alive : w_phase w <> Dead;
  wfw_prog : w_nc w = 0 -> w_n w = 0 /\ pend w = [] /\
             (w_phase w = Loop \/ w_todo w = [] \/ w_dst w = []);
}.

Definition load s w : list (tri E) := unwritten s ++ written w ++ pend w ++ flat_map (expand E) (left w).
Definition tcount s w := length (unwritten s) + length (written w) + length (pend w).
Definition steps_left w :=
  match w_phase w with Done => 0 | Dead => 0 | Spill _ => 1 | Loop => S (length (w_rest w)) end.

Record step_ok s w s' w' : Prop := {
  so_wf : wf_worker w';
  so_dst : length (w_dst w') = length (w_dst w);
  so_todo : w_todo w' = w_todo w;
  so_grow : exists t, unwritten s' = unwritten s ++ t /\
     Permutation (t ++ written w' ++ pend w' ++ flat_map (expand E) (left w'))
                 (written w ++ pend w ++ flat_map (expand E) (left w)) /\
     triangles s' + length (written w) + length (pend w)
       = triangles s + length t + length (written w') + length (pend w') /\
     length t + length (written w') + length (pend w') + wts (left w') + w_nc w'
       <= length (written w) + length (pend w) + wts (left w) + w_nc w;
  so_cubes : cubes s' + length (left w) + cubesP s = cubes s + length (left w') + cubesP s';
  so_cubesP : cubesP s' + w_nc w = cubesP s + w_nc w';
  so_steps : steps_left w' <= steps_left w - 1
}.

Lemma forall_ok_app a b : Forall (okc E) (a ++ b) -> Forall (okc E) a /\ Forall (okc E) b.
Proof. apply Forall_app. Qed.

Lemma skipn_cons_inv {A} n (l : list A) x r :
  skipn n l = x :: r -> n < length l /\ skipn (S n) l = r.
Proof.
  revert l; induction n; intros [|a l]; cbn; intros H; try discriminate.
  - injection H as -> ->. split; [lia|reflexivity].
  - apply IHn in H as [H1 H2]. split; [lia|]. exact H2.
Qed.

Lemma step_worker_ok s w :
  wf_env E -> wf_worker w ->
  step_ok s w (fst (step_worker s w)) (snd (step_worker s w)).
Proof.
  intros HE Hw. destruct Hw as [Hn Hnc Hrest Hcubes Halive Hprog].
  destruct w as [dst n todo rest nc new ph]. unfold left in *; cbn in *.
  unfold step_worker; cbn.
  destruct ph as [|tmp| |]; [|cbn..]; try congruence.
  2:{ (* Spill *)
    constructor; cbn; auto; try lia.
    - constructor; cbn; auto; try congruence.
      intros H0. destruct (Hprog H0) as (?&?&[?|?]); try discriminate. auto.
    - exists tmp. unfold written, pend, left, tb_write; cbn.
      repeat split; try lia. perm_solve. }
  2:{ (* Done *)
    constructor; cbn; auto; try lia.
    - constructor; cbn; auto.
    - exists []. rewrite app_nil_r. unfold written, pend, left; cbn. repeat split; auto; lia. }
  destruct rest as [|c rest].
  { cbn. unfold with_phase; cbn.
    constructor; cbn; auto; try lia.
    - constructor; cbn; auto; try congruence.
      intros H0. destruct (Hprog H0) as (?&?&_). subst nc. cbn in Hrest.
      split; auto.
    - exists []. rewrite app_nil_r. unfold written, pend, left; cbn. repeat split; auto; lia. }
  pose proof (skipn_cons_inv _ _ _ _ (eq_sym Hrest)) as [Hlt Hrest'].
  pose proof Hcubes as Hcubes0.
  apply Forall_cons_iff in Hcubes0 as [Hc Hcubes1].
  apply forall_ok_app in Hcubes1 as [Hcr Hcn].
  destruct (Nat.eqb_spec n (length dst)) as [En|En].
  { cbn. unfold with_phase; cbn.
    constructor; cbn; auto; try lia.
    - constructor; cbn; auto; try congruence.
      intros H0. destruct (Hprog H0) as (?&?&_). repeat split; auto. right; right.
      destruct dst; cbn in *; auto; lia.
    - exists []. rewrite app_nil_r. unfold written, pend, left; cbn. repeat split; auto; lia. }
  destruct (Nat.ltb_spec (length dst) (n + max_tris)) as [Hs|Hs].
  - destruct (process_cube_ok E (repeat (e_zero E) max_tris) c HE Hc) as
      (d & nt & ncs & -> & Hd & Hnt & Hexp & Hlen & Hok & Hwt).
    { now rewrite repeat_length. }
    cbn. constructor; cbn; auto; try lia.
    + constructor; cbn; auto; try congruence; try lia.
      unfold left; cbn. rewrite app_assoc. apply Forall_app; split; auto. apply Forall_app; auto.
    + exists []. rewrite app_nil_r. unfold written, pend, left in *; cbn in *.
      rewrite !flat_map_app, <- Hexp.
      repeat split; try lia.
      * perm_solve.
      * rewrite wts_cons, !wts_app. lia.
    + unfold left; cbn. rewrite !app_length. lia.
  - destruct (process_cube_ok E (skipn n dst) c HE Hc) as
      (d & nt & ncs & -> & Hd & Hnt & Hexp & Hlen & Hok & Hwt).
    { rewrite skipn_length. lia. }
    rewrite skipn_length in Hd.
    assert (Hfw : firstn (n + nt) (firstn n dst ++ d) = firstn n dst ++ firstn nt d).
    { rewrite firstn_app, firstn_firstn, firstn_length.
      replace (Nat.min (n + nt) n) with n by lia.
      now replace (n + nt - Nat.min n (length dst)) with nt by lia. }
    assert (Hln : length (firstn n dst) = n) by (rewrite firstn_length; lia).
    cbn. constructor; cbn; auto; try lia.
    + constructor; cbn; auto; try congruence; try lia.
      * rewrite app_length. rewrite firstn_length in *. lia.
      * unfold left; cbn. rewrite app_assoc. apply Forall_app; split; auto. apply Forall_app; auto.
    + rewrite app_length. rewrite firstn_length in *. lia.
    + exists []. rewrite app_nil_r. unfold written, pend, left in *; cbn in *.
      rewrite Hfw, !flat_map_app, <- Hexp, !app_length.
      repeat split; try lia.
      * perm_solve.
      * rewrite wts_cons, !wts_app. lia.
    + unfold left; cbn. rewrite !app_length. lia.
Qed.

(** * Configurations *)
Definition Wr (ws : list (worker E)) := concat (map written ws).
Definition Pd (ws : list (worker E)) := concat (map pend ws).
Definition Lf (ws : list (worker E)) := concat (map left ws).
Definition NC (ws : list (worker E)) := list_sum (map w_nc ws).

Definition same_job w w' := length (w_dst w') = length (w_dst w) /\ w_todo w' = w_todo w.

Record cfg_ok s ws s' ws' : Prop := {
  co_wf : Forall wf_worker ws';
  co_job : Forall2 same_job ws ws';
  co_grow : exists t, unwritten s' = unwritten s ++ t /\
     Permutation (t ++ Wr ws' ++ Pd ws' ++ flat_map (expand E) (Lf ws'))
                 (Wr ws ++ Pd ws ++ flat_map (expand E) (Lf ws)) /\
     triangles s' + length (Wr ws) + length (Pd ws)
       = triangles s + length t + length (Wr ws') + length (Pd ws') /\
     length t + length (Wr ws') + length (Pd ws') + wts (Lf ws') + NC ws'
       <= length (Wr ws) + length (Pd ws) + wts (Lf ws) + NC ws;
  co_cubes : cubes s' + length (Lf ws) + cubesP s = cubes s + length (Lf ws') + cubesP s';
  co_cubesP : cubesP s' + NC ws = cubesP s + NC ws';
}.

Lemma Forall2_refl_job ws : Forall2 same_job ws ws.
Proof. induction ws; constructor; auto. split; auto. Qed.
Lemma Forall2_trans_job a b c : Forall2 same_job a b -> Forall2 same_job b c -> Forall2 same_job a c.
Proof.
  intros H. revert c. induction H; intros c Hc; inversion Hc; subst; constructor; auto.
  destruct H, H3. split; congruence.
Qed.

Lemma cfg_ok_refl s ws : Forall wf_worker ws -> cfg_ok s ws s ws.
Proof.
  intros H. constructor; auto using Forall2_refl_job.
  exists []. rewrite app_nil_r. repeat split; auto; cbn; lia.
Qed.

Lemma cfg_ok_trans s1 wa s2 wb s3 wc : cfg_ok s1 wa s2 wb -> cfg_ok s2 wb s3 wc -> cfg_ok s1 wa s3 wc.
Proof.
  intros [A1 A2 (t&A3&A4&A5&A6) A7 A8] [B1 B2 (u&B3&B4&B5&B6) B7 B8].
  constructor; auto; try lia.
  - eapply Forall2_trans_job; eauto.
  - exists (t ++ u). rewrite B3, A3, app_assoc, !app_length. repeat split; try lia.
    rewrite <- A4, <- B4. perm_solve.
Qed.

Lemma update_split {A} (l1 l2 : list A) x y : update (l1 ++ x :: l2) (length l1) y = l1 ++ y :: l2.
Proof. induction l1; cbn; congruence. Qed.

Lemma step_cfg_ok s ws i :
  wf_env E -> Forall wf_worker ws ->
  cfg_ok s ws (fst (step_cfg s ws i)) (snd (step_cfg s ws i)).
Proof.
  intros HE Hws. unfold step_cfg.
  destruct (nth_error ws i) as [w|] eqn:Hi.
  2:{ now apply cfg_ok_refl. }
  apply nth_error_split in Hi as (l1 & l2 & -> & <-).
  apply Forall_app in Hws as [Hl1 Hl2]. apply Forall_cons_iff in Hl2 as [Hw Hl2].
  pose proof (step_worker_ok s w HE Hw) as Hst.
  destruct (step_worker s w) as [s' w']; cbn in *.
  rewrite update_split.
  destruct Hst as [S1 S2 S3 (t&S4&S5&S6&S7) S8 S9 S10].
  unfold Wr, Pd, Lf, NC.
  constructor; unfold Wr, Pd, Lf, NC; rewrite ?map_app, ?concat_app, ?list_sum_app; cbn [map concat].
  - apply Forall_app; auto.
  - apply Forall2_app; [apply Forall2_refl_job|]. constructor; [split; auto|apply Forall2_refl_job].
  - exists t. rewrite ?map_app, ?concat_app, ?list_sum_app; cbn [map concat].
    rewrite !flat_map_app, !app_length.
    repeat split; auto.
    + match goal with |- Permutation (_ ++ (?a ++ _ ++ ?b) ++ (?c ++ _ ++ ?d) ++ (?e ++ _ ++ ?f)) _ =>
        transitivity ((t ++ written w' ++ pend w' ++ flat_map (expand E) (left w'))
              ++ a ++ b ++ c ++ d ++ e ++ f); [perm_solve|rewrite S5; perm_solve]
      end.
    + lia.
    + rewrite !wts_app. change (list_sum (w_nc w' :: map w_nc l2)) with (w_nc w' + list_sum (map w_nc l2)).
      change (list_sum (w_nc w :: map w_nc l2)) with (w_nc w + list_sum (map w_nc l2)). lia.
  - rewrite !app_length. lia.
  - change (list_sum (w_nc w' :: map w_nc l2)) with (w_nc w' + list_sum (map w_nc l2)).
    change (list_sum (w_nc w :: map w_nc l2)) with (w_nc w + list_sum (map w_nc l2)). lia.
Qed.

Lemma run_ok sched : forall s ws,
  wf_env E -> Forall wf_worker ws ->
  cfg_ok s ws (fst (run sched s ws)) (snd (run sched s ws)).
Proof.
  induction sched as [|i sched IH]; intros s ws HE Hws; cbn.
  - now apply cfg_ok_refl.
  - pose proof (step_cfg_ok s ws i HE Hws) as H.
    destruct (step_cfg s ws i) as [s' ws']; cbn in *.
    eapply cfg_ok_trans; [exact H|]. apply IH; auto. apply H.
Qed.

(** Every worker that gets enough turns finishes. *)
Lemma step_cfg_steps s ws i :
  wf_env E -> Forall wf_worker ws ->
  Forall2 (fun w w' => steps_left w' <= steps_left w) ws (snd (step_cfg s ws i)) /\
  (forall w, nth_error ws i = Some w ->
     exists w', nth_error (snd (step_cfg s ws i)) i = Some w' /\ steps_left w' <= steps_left w - 1).
Proof.
  intros HE Hws. unfold step_cfg.
  assert (R : forall l : list (worker E), Forall2 (fun w w' => steps_left w' <= steps_left w) l l).
  { induction l; constructor; auto. }
  destruct (nth_error ws i) as [w|] eqn:Hi.
  2:{ cbn. split; [apply R|]. intros w; discriminate. }
  apply nth_error_split in Hi as (l1 & l2 & -> & <-).
  apply Forall_app in Hws as [Hl1 Hl2]. apply Forall_cons_iff in Hl2 as [Hw Hl2].
  pose proof (step_worker_ok s w HE Hw) as Hst.
  destruct (step_worker s w) as [s' w']; cbn in *.
  rewrite update_split. destruct Hst as [_ _ _ _ _ _ S10].
  split.
  - apply Forall2_app; auto. constructor; auto. lia.
  - intros w0 [= <-]. exists w'. split; auto.
    now rewrite nth_error_app2, Nat.sub_diag by lia.
Qed.

Lemma Forall2_nth_error {A} (R : A -> A -> Prop) l l' i x :
  Forall2 R l l' -> nth_error l i = Some x -> exists y, nth_error l' i = Some y /\ R x y.
Proof.
  intros H. revert i. induction H; intros [|i]; cbn; intros Hi; try discriminate.
  - injection Hi as <-. eauto.
  - auto.
Qed.

Lemma run_steps sched : forall s ws i w,
  wf_env E -> Forall wf_worker ws -> nth_error ws i = Some w ->
  exists w', nth_error (snd (run sched s ws)) i = Some w' /\
    steps_left w' <= steps_left w - count_occ Nat.eq_dec sched i.
Proof.
  induction sched as [|j sched IH]; intros s ws i w HE Hws Hi; cbn.
  - exists w. split; auto. lia.
  - pose proof (step_cfg_ok s ws j HE Hws) as Hok.
    destruct (step_cfg_steps s ws j HE Hws) as [H1 H2].
    destruct (step_cfg s ws j) as [s' ws']; cbn in *.
    destruct (Nat.eq_dec j i) as [->|Hne].
    + destruct (H2 _ Hi) as (w1 & Hw1 & Hl).
      destruct (IH s' ws' i w1 HE (co_wf _ _ _ _ Hok) Hw1) as (w' & ? & ?).
      exists w'. split; auto. lia.
    + destruct (Forall2_nth_error _ _ _ _ _ H1 Hi) as (w1 & Hw1 & Hl).
      destruct (IH s' ws' i w1 HE (co_wf _ _ _ _ Hok) Hw1) as (w' & ? & ?).
      exists w'. split; auto. lia.
Qed.

Lemma start_worker_wf dst todo : Forall (okc E) todo -> wf_worker (start_worker dst todo).
Proof.
  intros H. constructor; cbn; auto; try lia; try congruence.
  unfold left; cbn. now rewrite app_nil_r.
Qed.

Lemma steps_done w : wf_worker w -> steps_left w = 0 -> is_done w = true.
Proof.
  intros [_ _ _ _ Ha _] H. unfold steps_left, is_done in *.
  destruct (w_phase w); auto; try discriminate; congruence.
Qed.
Lemma done_pend w : is_done w = true -> pend w = [].
Proof. unfold is_done, pend. destruct (w_phase w); auto; discriminate. Qed.
Lemma wf_not_dead w : wf_worker w -> is_dead w = false.
Proof. intros [_ _ _ _ Ha _]. unfold is_dead. destruct (w_phase w); auto; congruence. Qed.
End Worker.

(** * Sections and consolidation *)
Definition p_len (p : nat * list cube * list cube) := fst (fst p).
Definition p_cubes (p : nat * list cube * list cube) := snd (fst p) ++ snd p.
Fixpoint kept_prefixes {A} (parts : list (nat * list cube * list cube)) (secs : list (list A)) : list (list A) :=
  match parts, secs with
  | p :: ps, s :: ss => firstn (p_len p) s :: kept_prefixes ps ss
  | _, _ => []
  end.

(** All sections but the last have length [div]. *)
Fixpoint even_sections {A} (div : nat) (secs : list (list A)) : Prop :=
  match secs with
  | [] => True
  | s :: r => match r with [] => True | _ => length s = div /\ even_sections div r end
  end.

Lemma consolidate_ok {A} conc div : forall (secs : list (list A)) parts i P junk offset todo,
  i + length secs = conc ->
  even_sections div secs ->
  Forall2 (fun p s => p_len p <= length s) parts secs ->
  offset + length P = div * i ->
  exists junk' off',
    consolidate conc div i parts (P ++ concat secs ++ junk, offset, length P, todo)
    = Ok (P ++ concat (kept_prefixes parts secs) ++ junk', off',
          length P + list_sum (map p_len parts), todo ++ concat (map p_cubes parts)) /\
    length (concat (kept_prefixes parts secs) ++ junk') = length (concat secs ++ junk) /\
    length (concat (kept_prefixes parts secs)) = list_sum (map p_len parts).
Proof.
  induction secs as [|s secs IH]; intros parts i P junk offset todo Hi Hev Hps Hoff.
  { inversion Hps; subst. cbn. exists junk, offset. rewrite Nat.add_0_r, app_nil_r. auto. }
  inversion Hps as [|[[len cw] nw] ? ps ? Hlen Hps']; subst. cbn in Hlen.
  cbn [consolidate]. unfold consolidate_step at 1. cbn [concat].
  assert (Hfl : length (firstn len s) = len) by (rewrite firstn_length; lia).
  assert (Hgo : forall D off', P ++ (s ++ concat secs) ++ junk = P ++ (s ++ concat secs) ++ junk ->
     (exists jk, D = (P ++ firstn len s) ++ concat secs ++ jk /\
        length jk = length junk + (length s - len)) ->
     even_sections div secs -> 
     (secs <> [] -> off' + length (P ++ firstn len s) = div * S i) ->
     exists junk' off'',
     consolidate (i + length (s :: secs)) div (S i) ps (D, off', length P + len, todo ++ cw ++ nw)
      = Ok (P ++ concat (kept_prefixes ((len, cw, nw) :: ps) (s :: secs)) ++ junk', off'',
          length P + list_sum (map p_len ((len, cw, nw) :: ps)),
          todo ++ concat (map p_cubes ((len, cw, nw) :: ps))) /\
    length (concat (kept_prefixes ((len, cw, nw) :: ps) (s :: secs)) ++ junk')
      = length ((s ++ concat secs) ++ junk) /\
    length (concat (kept_prefixes ((len, cw, nw) :: ps) (s :: secs))) =
     list_sum (map p_len ((len, cw, nw) :: ps))).
  { intros D off' _ (jk & -> & Hjk) Hev' Hoff'.
    destruct secs as [|s2 secs].
    - inversion Hps'; subst. cbn. exists jk, off'.
      rewrite !app_nil_r, <- !app_assoc, !app_length, Hfl. cbn. 
      repeat split; try lia. f_equal. f_equal. unfold p_len; cbn. f_equal. lia.
    - destruct (IH ps (S i) (P ++ firstn len s) jk off' (todo ++ cw ++ nw)) as (j' & o' & H1 & H2 & H3); auto.
      { cbn in *; lia. }
      { apply Hoff'. discriminate. }
      rewrite app_length, Hfl in H1.
      exists j', o'. split; [|split].
      + rewrite H1. cbn [kept_prefixes concat map p_len p_cubes fst snd].
        rewrite <- !app_assoc. 
        change (list_sum (len :: map p_len ps)) with (len + list_sum (map p_len ps)).
        rewrite Nat.add_assoc. unfold p_cubes at 2; cbn [fst snd]. now rewrite <- app_assoc.
      + cbn [kept_prefixes concat p_len fst]. rewrite <- !app_assoc, (app_length (firstn len s)), Hfl, H2.
        cbn [concat]. rewrite !app_length. lia.
      + cbn [kept_prefixes concat p_len fst map]. rewrite app_length, Hfl, H3. reflexivity. }
  assert (Hevs : even_sections div secs).
  { destruct secs; cbn in *; tauto. }
  destruct (Nat.eqb_spec i (i + length (s :: secs) - 1)) as [Hlast|Hlast]; cbn [negb andb].
  { assert (secs = []) as -> by (destruct secs; auto; cbn in *; lia).
    cbn [bind]. apply Hgo; auto.
    - exists (skipn len s ++ junk). cbn. rewrite !app_nil_r, <- !app_assoc.
      rewrite (app_assoc (firstn len s)), firstn_skipn. split; auto.
      rewrite app_length, skipn_length. lia.
    - congruence. }
  assert (Hne : secs <> []) by (intros ->; cbn in *; lia).
  assert (Hsd : length s = div) by (destruct secs; cbn in *; tauto).
  assert (Hstart : div * i - offset = length P) by lia.
  destruct (Nat.eqb_spec len div) as [Hfull|Hfull]; cbn [negb].
  { cbn [bind]. apply Hgo; auto.
    - exists junk. subst len. rewrite <- Hsd, firstn_all, <- !app_assoc. split; auto. lia.
    - intros _. rewrite app_length, Hfl. lia. }
  rewrite Hstart.
  set (D := P ++ (s ++ concat secs) ++ junk).
  assert (HD : length D = length P + length s + length (concat secs) + length junk).
  { unfold D. rewrite !app_length. lia. }
  rewrite !slice_from_ok by lia. cbn [bind].
  apply Hgo; auto.
  - unfold D.
    assert (Hs1 : skipn (length P + div) (P ++ (s ++ concat secs) ++ junk) = concat secs ++ junk).
    { rewrite <- app_assoc, app_assoc. apply skipn_app_exact. rewrite app_length. lia. }
    assert (Hs2 : skipn (length P + len) (P ++ (s ++ concat secs) ++ junk) = skipn len s ++ concat secs ++ junk).
    { rewrite <- app_assoc. rewrite <- (firstn_skipn len s) at 1.
      rewrite <- (app_assoc (firstn len s)), app_assoc. apply skipn_app_exact.
      rewrite app_length. lia. }
    assert (Hf : firstn (length P + len) (P ++ (s ++ concat secs) ++ junk) = P ++ firstn len s).
    { rewrite <- app_assoc. rewrite <- (firstn_skipn len s) at 1.
      rewrite <- (app_assoc (firstn len s)), app_assoc. apply firstn_app_exact.
      rewrite app_length. lia. }
    rewrite Hs1, Hs2, Hf. unfold go_copy.
    rewrite (firstn_all2 (concat secs ++ junk)) by (rewrite !app_length; lia).
    exists (junk ++ skipn (length (concat secs ++ junk)) (skipn len s ++ concat secs ++ junk)).
    rewrite <- !app_assoc. split; auto.
    rewrite app_length, skipn_length, !app_length, skipn_length. lia.
  - intros _. rewrite app_length, Hfl. lia.
Qed.

Definition section {A} (l : list A) (conc i : nat) : list A :=
  let div := length l / conc in
  if i =? conc - 1 then skipn (div * i) l else firstn div (skipn (div * i) l).

Lemma work_section_ok {A} (l : list A) conc i :
  i < conc -> work_section l conc i = Ok (section l conc i).
Proof.
  intros Hi. unfold work_section, section.
  assert (Hd : length l / conc * conc <= length l).
  { rewrite Nat.mul_comm. apply Nat.mul_div_le. lia. }
  set (div := length l / conc) in *.
  destruct (Nat.eqb_spec i (conc - 1)).
  - apply slice_from_ok. subst i. nia.
  - rewrite slice_ok; [|lia|nia].
    now replace (div * i + div - div * i) with div by lia.
Qed.

Lemma collect_ok {A} n (f : nat -> res A) g :
  (forall i, i < n -> f i = Ok (g i)) -> collect n f = Ok (map g (seq 0 n)).
Proof.
  induction n as [|n IH]; intros H; auto.
  cbn [collect]. rewrite IH by (intros; apply H; lia). cbn [bind].
  rewrite H by lia. cbn [bind]. now rewrite seq_S, map_app.
Qed.

Lemma section_prefix {A} (l : list A) conc k :
  1 <= conc -> k <= conc - 1 ->
  concat (map (section l conc) (seq 0 k)) = firstn (length l / conc * k) l.
Proof.
  intros Hc. induction k as [|k IH]; intros Hk.
  - cbn. now rewrite Nat.mul_0_r.
  - rewrite seq_S, map_app, concat_app, IH by lia. cbn [map concat Nat.add].
    rewrite app_nil_r. unfold section.
    destruct (Nat.eqb_spec k (conc - 1)) as [?|_]; [lia|].
    set (div := length l / conc).
    rewrite <- (firstn_skipn (div * k) l) at 3.
    rewrite firstn_app, firstn_firstn.
    replace (Nat.min (div * S k) (div * k)) with (div * k) by nia.
    f_equal. rewrite firstn_length.
    assert (div * conc <= length l) by (unfold div; rewrite Nat.mul_comm; apply Nat.mul_div_le; lia).
    f_equal. nia.
Qed.

Lemma section_concat {A} (l : list A) conc :
  1 <= conc -> concat (map (section l conc) (seq 0 conc)) = l.
Proof.
  intros Hc. replace conc with (S (conc - 1)) at 2 by lia.
  rewrite seq_S, map_app, concat_app, section_prefix by lia.
  cbn [map concat Nat.add]. rewrite app_nil_r.
  unfold section. rewrite Nat.eqb_refl. apply firstn_skipn.
Qed.

Lemma even_sections_app {A} div (a : list (list A)) x :
  Forall (fun s => length s = div) a -> even_sections div (a ++ [x]).
Proof.
  induction a as [|s a IH]; intros H; cbn; auto.
  apply Forall_cons_iff in H as [H1 H2].
  destruct (a ++ [x]) eqn:E; auto.
Qed.

Lemma section_even {A} (l : list A) conc :
  1 <= conc -> even_sections (length l / conc) (map (section l conc) (seq 0 conc)).
Proof.
  intros Hc. replace conc with (S (conc - 1)) at 3 by lia.
  rewrite seq_S, map_app. apply even_sections_app.
  apply Forall_forall. intros s Hs. apply in_map_iff in Hs as (i & <- & Hi).
  apply in_seq in Hi. unfold section.
  destruct (Nat.eqb_spec i (conc - 1)) as [?|_]; [lia|].
  rewrite firstn_length, skipn_length.
  set (div := length l / conc).
  assert (div * conc <= length l) by (unfold div; rewrite Nat.mul_comm; apply Nat.mul_div_le; lia).
  nia.
Qed.

Lemma section_last_nonempty {A} (l : list A) conc :
  1 <= conc -> l <> [] -> section l conc (conc - 1) <> [].
Proof.
  intros Hc Hl. unfold section. rewrite Nat.eqb_refl.
  set (div := length l / conc).
  assert (div * conc <= length l) by (unfold div; rewrite Nat.mul_comm; apply Nat.mul_div_le; lia).
  assert (0 < length l) by (destruct l; cbn; [congruence|lia]).
  assert (Hlt : 0 < length (skipn (div * (conc - 1)) l)).
  { rewrite skipn_length.
    destruct (Nat.eq_dec div 0) as [->|]; [lia|]. nia. }
  destruct (skipn _ l); cbn in *; [lia|discriminate].
Qed.

Lemma section_le {A} (l : list A) conc i : length (section l conc i) <= length l.
Proof.
  unfold section. generalize (length l / conc * i) (length l / conc). intros a b.
  destruct (i =? conc - 1); rewrite ?firstn_length, skipn_length; lia.
Qed.

Section Call.
Context {E : env}.

Definition job (d : list (tri E)) (t : list cube) conc (i : nat) : worker E :=
  start_worker (section d conc i) (section t conc i).

Lemma start_workers_ok conc d t :
  start_workers (E:=E) conc d t = Ok (map (job d t conc) (seq 0 conc)).
Proof.
  apply collect_ok. intros i Hi. rewrite !work_section_ok by auto. reflexivity.
Qed.

Lemma okc_section t conc i : Forall (okc E) t -> Forall (okc E) (section t conc i).
Proof.
  intros H. unfold section.
  assert (Hs : forall n, Forall (okc E) (skipn n t)).
  { intros n. rewrite <- (firstn_skipn n t) in H. apply Forall_app in H. tauto. }
  destruct (i =? conc - 1); auto.
  specialize (Hs (length t / conc * i)).
  rewrite <- (firstn_skipn (length t / conc) (skipn _ _)) in Hs.
  apply Forall_app in Hs. tauto.
Qed.

Lemma jobs_wf conc d t : Forall (okc E) t -> Forall wf_worker (map (job d t conc) (seq 0 conc)).
Proof.
  intros H. apply Forall_forall. intros w Hw. apply in_map_iff in Hw as (i & <- & _).
  apply start_worker_wf. now apply okc_section.
Qed.

Lemma start_list_Wr (ws : list (worker E)) :
  Forall (fun w => w_n w = 0 /\ w_phase w = Loop /\ w_new w = [] /\ w_nc w = 0 /\ w_rest w = w_todo w) ws ->
  Wr ws = [] /\ Pd ws = [] /\ Lf ws = concat (map w_todo ws) /\ NC ws = 0.
Proof.
  induction 1 as [|w ws (H1&H2&H3&H4&H5) _ (I1&I2&I3&I4)]; cbn; auto.
  unfold Wr, Pd, Lf, NC in *; cbn. rewrite I1, I2, I3.
  unfold written, pend, left. rewrite H1, H2, H3, H5, app_nil_r. cbn.
  repeat split; auto. { now rewrite app_nil_r. } rewrite H4. exact I4.
Qed.

(** ** Effect of the workers' phase of a call. *)
Record phase_ok (sh1 : shared (tri E)) (d : list (tri E)) (t : list cube)
    (sh2 : shared (tri E)) (wrote : list (tri E)) (t' : list cube) (nc : nat) : Prop := {
  ph_t : Forall (okc E) t';
  ph_perm : exists u, unwritten sh2 = unwritten sh1 ++ u /\
     Permutation (u ++ wrote ++ flat_map (expand E) t') (flat_map (expand E) t) /\
     triangles sh2 = triangles sh1 + length u + length wrote /\
     length u + length wrote + wts t' + nc <= wts t;
  ph_cubes : cubes sh2 + length t + cubesP sh1 = cubes sh1 + length t' + cubesP sh2;
  ph_cubesP : cubesP sh2 = cubesP sh1 + nc
}.

Lemma run_phase sched sh1 ws d t :
  wf_env E -> Forall wf_worker ws ->
  Forall (fun w => w_n w = 0 /\ w_phase w = Loop /\ w_new w = [] /\ w_nc w = 0 /\ w_rest w = w_todo w) ws ->
  concat (map w_todo ws) = t ->
  forall sh2 ws', run sched sh1 ws = (sh2, ws') -> forallb is_done ws' = true ->
  phase_ok sh1 d t sh2 (Wr ws') (Lf ws') (NC ws').
Proof.
  intros HE Hws Hst Ht sh2 ws' Hrun Hdone.
  pose proof (run_ok sched sh1 ws HE Hws) as H. rewrite Hrun in H; cbn in H.
  destruct (start_list_Wr ws Hst) as (W0&P0&L0&N0).
  destruct H as [A1 A2 (u&A3&A4&A5&A6) A7 A8].
  assert (P' : Pd ws' = []).
  { clear -Hdone. unfold Pd. induction ws' as [|w r IH]; cbn in *; auto.
    apply andb_true_iff in Hdone as [H1 H2]. rewrite done_pend by auto. auto. }
  rewrite W0, P0, P' in *. rewrite L0, Ht in *. rewrite N0 in *. cbn [app length] in *.
  constructor.
  - clear -A1. unfold Lf. induction A1; cbn; auto. apply Forall_app; split; auto. apply H.
  - exists u. repeat split; auto; lia.
  - lia.
  - lia.
Qed.

Lemma Forall2_same_w_dst (ws ws' : list (worker E)) :
  Forall2 same_job ws ws' -> map (fun w => length (w_dst w)) ws' = map (fun w => length (w_dst w)) ws.
Proof. induction 1 as [|? ? ? ? [H1 H2]]; cbn; congruence. Qed.

Lemma even_sections_len {A} div (a b : list (list A)) :
  map (@length A) a = map (@length A) b -> even_sections div a -> even_sections div b.
Proof.
  revert b. induction a as [|x a IH]; intros [|y b]; cbn; intros H; try discriminate; auto.
  injection H as H1 H2. destruct a, b; try discriminate; auto.
  intros [? ?]. split; [congruence|]. now apply IH.
Qed.

Lemma mapM_parts (ws : list (worker E)) : Forall wf_worker ws ->
  mapM worker_part ws = Ok (map (fun w => (w_n w, w_rest w, w_new w)) ws).
Proof.
  induction 1 as [|w ws Hw _ IH]; auto.
  cbn [mapM map]. unfold worker_part at 1.
  destruct Hw as [H1 H2 H3 _ _ _]. rewrite slice_from_ok by auto. cbn [bind].
  assert ((w_n w <=? length (w_dst w)) = true) as -> by now apply Nat.leb_le.
  cbn [bind]. rewrite IH. cbn [bind]. now rewrite <- H3.
Qed.

Lemma kept_prefixes_Wr (ws : list (worker E)) :
  concat (kept_prefixes (map (fun w => (w_n w, w_rest w, w_new w)) ws) (map w_dst ws)) = Wr ws.
Proof. unfold Wr. induction ws as [|w ws IH]; cbn; auto. now rewrite IH. Qed.
Lemma parts_Lf (ws : list (worker E)) :
  concat (map p_cubes (map (fun w => (w_n w, w_rest w, w_new w)) ws)) = Lf ws.
Proof. unfold Lf. rewrite map_map. reflexivity. Qed.

(** ** Effect of a whole call. *)
Definition measure (st : ostate E) : nat := length (unwritten (o_sh st)) + wts (o_todo st).

Record call_ok (st : ostate E) (dst : list (tri E)) (st' : ostate E) (dst' : list (tri E))
    (n : nat) (eof : bool) : Prop := {
  ca_len : length dst' = length dst;
  ca_n : n <= length dst;
  ca_conc : o_conc st' = o_conc st;
  ca_todo : Forall (okc E) (o_todo st');
  ca_perm : Permutation (firstn n dst' ++ unwritten (o_sh st') ++ flat_map (expand E) (o_todo st'))
                        (unwritten (o_sh st) ++ flat_map (expand E) (o_todo st));
  ca_tris : triangles (o_sh st') + length (unwritten (o_sh st)) =
            triangles (o_sh st) + n + length (unwritten (o_sh st'));
  ca_cubes : cubes (o_sh st') + length (o_todo st) + cubesP (o_sh st)
             = cubes (o_sh st) + length (o_todo st') + cubesP (o_sh st');
  ca_eof : if eof then o_todo st' = [] /\ unwritten (o_sh st') = [] /\ o_todo st = []
                       /\ n = length (unwritten (o_sh st)) /\ n < length dst
           else measure st' < measure st;
  ca_meas : measure st' + n <= measure st
}.

Definition turns_needed (st : ostate E) : nat := S (length (o_todo st)).

Lemma tb_read_ok (dst b : list (tri E)) :
  let '(d1, b1, n) := tb_read dst b in
  length d1 = length dst /\ n <= length dst /\ n <= length b /\ firstn n d1 ++ b1 = b /\
  firstn n d1 = firstn n b /\ length b1 = length b - n /\
  (n < length dst -> b1 = []) /\ (0 < length dst -> 0 < length b -> 0 < n).
Proof.
  unfold tb_read. rewrite go_copy_length.
  set (n := Nat.min (length dst) (length b)).
  assert (Hf : firstn n (go_copy dst b) = firstn n b).
  { unfold go_copy. rewrite firstn_app, firstn_firstn, firstn_length.
    replace (Nat.min n (length dst)) with n by lia.
    replace (n - Nat.min (length dst) (length b)) with 0 by lia. cbn. apply app_nil_r. }
  rewrite Hf. repeat split; auto; try lia.
  - apply firstn_skipn.
  - rewrite skipn_length; lia.
  - intros H. apply skipn_all2. lia.
Qed.

Lemma firstn_plus_app {A} n m (a b : list A) :
  length a = n -> firstn (n + m) (a ++ b) = a ++ firstn m b.
Proof. intros <-. rewrite firstn_app_2. reflexivity. Qed.

Lemma call_phase_ok st dst d1 n sh1 sh2 wrote t' nc d2 nt :
  length d1 = length dst -> n < length dst ->
  unwritten sh1 = [] -> n = length (unwritten (o_sh st)) -> firstn n d1 = unwritten (o_sh st) ->
  triangles sh1 = triangles (o_sh st) -> cubes sh1 = cubes (o_sh st) -> cubesP sh1 = cubesP (o_sh st) ->
  phase_ok sh1 (skipn n d1) (o_todo st) sh2 wrote t' nc ->
  length d2 = length (skipn n d1) -> nt <= length d2 -> firstn nt d2 = wrote ->
  1 <= nc ->
  call_ok st dst (OState t' sh2 (o_conc st)) (firstn n d1 ++ d2) (n + nt) false.
Proof.
  intros Hd1 Hn Hu1 Hnu Hf1 T1 C1 P1 [PA (u&PB1&PB2&PB3&PB4) PC PD] Hd2 Hnt Hw Hnc.
  rewrite skipn_length in Hd2.
  assert (Hfl : length (firstn n d1) = n) by (rewrite firstn_length; lia).
  assert (Hwl : length wrote = nt) by (rewrite <- Hw, firstn_length; lia).
  rewrite Hu1 in *. cbn [app] in PB1.
  constructor; cbn; auto.
  - rewrite app_length. lia.
  - lia.
  - rewrite firstn_plus_app by auto. rewrite Hw, Hf1, PB1, <- PB2. perm_solve.
  - rewrite PB1. lia.
  - lia.
  - unfold measure; cbn. rewrite PB1. lia.
  - unfold measure; cbn. rewrite PB1. lia.
Qed.

Lemma NC_pos (ws ws' : list (worker E)) w i :
  Forall wf_worker ws' -> Forall2 same_job ws ws' -> forallb is_done ws' = true ->
  nth_error ws i = Some w -> w_dst w <> [] -> w_todo w <> [] -> 1 <= NC ws'.
Proof.
  intros Hwf Hj Hd Hi Hdst Htodo.
  destruct (Forall2_nth_error _ _ _ _ _ Hj Hi) as (w' & Hi' & [J1 J2]).
  assert (Hin : In w' ws') by (eapply nth_error_In; eauto).
  rewrite Forall_forall in Hwf. rewrite forallb_forall in Hd.
  specialize (Hwf _ Hin). specialize (Hd _ Hin).
  assert (1 <= w_nc w').
  { destruct (w_nc w') eqn:E0; [|lia]. exfalso.
    destruct (wfw_prog _ Hwf E0) as (_&_&[H|[H|H]]).
    - unfold is_done in Hd. rewrite H in Hd. discriminate.
    - congruence.
    - apply Hdst. rewrite H in J1. destruct (w_dst w); auto. discriminate. }
  unfold NC. clear -H Hin.
  induction ws' as [|a r IH]; cbn in *; [tauto|].
  change (1 <= w_nc a + list_sum (map w_nc r)). destruct Hin as [->|Hin]; [lia|].
  specialize (IH Hin). lia.
Qed.

Lemma read_triangles_ok st dst sched :
  wf_env E -> Forall (okc E) (o_todo st) -> dst <> [] ->
  (read_triangles st dst sched = Unfinished /\
     ~ gives_turns sched (S (Z.to_nat (o_conc st))) (turns_needed st)) \/
  exists st' dst' n eof, read_triangles st dst sched = Returned st' dst' n eof /\
    call_ok st dst st' dst' n eof.
Proof.
  intros HE Htodo Hdst. unfold read_triangles.
  assert (Hpos : 0 < length dst) by (destruct dst; cbn; [congruence|lia]).
  destruct (Nat.eqb_spec (length dst) 0) as [?|_]; [lia|].
  set (R := if 0 <? length (unwritten (o_sh st)) then tb_read dst (unwritten (o_sh st))
            else (dst, unwritten (o_sh st), 0)).
  assert (HR : let '(d1, b1, n) := R in
    length d1 = length dst /\ n <= length dst /\ n <= length (unwritten (o_sh st)) /\
    firstn n d1 ++ b1 = unwritten (o_sh st) /\
    firstn n d1 = firstn n (unwritten (o_sh st)) /\ length b1 = length (unwritten (o_sh st)) - n /\
    (n < length dst -> b1 = []) /\ (0 < length dst -> 0 < length (unwritten (o_sh st)) -> 0 < n)).
  { unfold R. destruct (Nat.ltb_spec 0 (length (unwritten (o_sh st)))) as [H|H].
    - apply tb_read_ok.
    - destruct (unwritten (o_sh st)); cbn in *; [|lia]. repeat split; auto; lia. }
  destruct R as [[d1 b1] n]. destruct HR as (R1&R2&R3&R4&R5&R6&R7&R8).
  cbn [o_sh].
  destruct (Nat.eqb_spec n (length dst)) as [Hn|Hn].
  { right. eexists _, _, _, _. split; [reflexivity|].
    constructor; cbn; auto; try lia.
    - rewrite app_assoc, R4. reflexivity.
    - unfold measure; cbn. lia.
    - unfold measure; cbn. lia. }
  specialize (R7 ltac:(lia)). subst b1. cbn [length] in *. rewrite app_nil_r in R4.
  rewrite Nat.eqb_refl, andb_true_r.
  destruct (Nat.eqb_spec (length (o_todo st)) 0) as [Ht|Ht].
  { right. eexists _, _, _, _. split; [reflexivity|].
    assert (o_todo st = []) as Ht' by (destruct (o_todo st); auto; discriminate).
    constructor; cbn; auto; try lia.
    - rewrite R4. reflexivity.
    - repeat split; auto; lia.
    - unfold measure; cbn. lia. }
  assert (Hnu : n = length (unwritten (o_sh st))) by lia.
  assert (Hd1 : skipn n d1 <> []).
  { intros Hx. apply (f_equal (@length _)) in Hx. rewrite skipn_length in Hx. cbn in Hx. lia. }
  assert (Htn : o_todo st <> []) by (intros Hx; rewrite Hx in Ht; cbn in Ht; lia).
  set (sh1 := Shared [] (triangles (o_sh st)) (cubes (o_sh st)) (cubesP (o_sh st))).
  destruct (orb _ _) eqn:Hseq.
  - (* sequential *)
    set (ws := [start_worker (skipn n d1) (o_todo st)] : list (worker E)).
    assert (Hws : Forall wf_worker ws) by (constructor; auto; now apply start_worker_wf).
    pose proof (run_ok sched sh1 ws HE Hws) as Hrun.
    destruct (run sched sh1 ws) as [sh2 ws'] eqn:Er. cbn in Hrun.
    pose proof (co_job _ _ _ _ Hrun) as Hj.
    inversion Hj as [|? w ? ? Hsame Hnil]; subst. inversion Hnil; subst.
    pose proof (co_wf _ _ _ _ Hrun) as Hwf. apply Forall_inv in Hwf as Hw.
    rewrite (wf_not_dead _ Hw).
    destruct (is_done w) eqn:Hd.
    + right. rewrite slice_from_ok by (rewrite app_length; pose proof (wfw_nc _ Hw); destruct Hsame as [_ S2]; cbn in S2; rewrite S2 in *; lia).
      eexists _, _, _, _. split; [reflexivity|].
      destruct Hsame as [S1 S2]; cbn in S1, S2.
      assert (Hdn : forallb is_done [w] = true) by (cbn; now rewrite Hd).
      assert (HL : skipn (w_nc w) (o_todo st ++ w_new w) = Lf [w]).
      { unfold Lf, left; cbn. rewrite app_nil_r, (wfw_rest _ Hw), S2.
        rewrite skipn_app. pose proof (wfw_nc _ Hw) as Hx. rewrite S2 in Hx.
        replace (w_nc w - length (o_todo st)) with 0 by lia. reflexivity. }
      rewrite HL.
      eapply call_phase_ok with (sh1 := sh1) (wrote := Wr [w]) (nc := NC [w]); auto; try lia.
      * eapply run_phase with (ws := ws) (sched := sched); eauto.
        -- constructor; [cbn; repeat split; auto|constructor].
        -- cbn. apply app_nil_r.
      * apply (wfw_n _ Hw).
      * unfold Wr; cbn. now rewrite app_nil_r.
      * eapply NC_pos with (i := 0) (ws := ws); eauto; cbn; auto.
    + left. split; auto. intros Hturn.
      destruct (run_steps sched sh1 ws 0 _ HE Hws eq_refl) as (w' & Hw' & Hl).
      rewrite Er in Hw'. cbn in Hw'. injection Hw' as <-.
      specialize (Hturn 0 ltac:(lia)). unfold turns_needed in Hturn.
      change (steps_left (start_worker (skipn (length (unwritten (o_sh st))) d1) (o_todo st))) with (S (length (o_todo st))) in Hl.
      rewrite (steps_done w Hw) in Hd by lia. discriminate.
  - (* threaded *)
    rewrite start_workers_ok.
    assert (Hc : (1 <= o_conc st)%Z) by lia.
    set (conc := Z.to_nat (o_conc st)) in *.
    assert (Hc1 : 1 <= conc) by lia.
    set (ws := map (job (skipn n d1) (o_todo st) conc) (seq 0 conc)).
    assert (Hws : Forall wf_worker ws) by now apply jobs_wf.
    pose proof (run_ok sched sh1 ws HE Hws) as Hrun.
    destruct (run sched sh1 ws) as [sh2 ws'] eqn:Er. cbn in Hrun.
    pose proof (co_wf _ _ _ _ Hrun) as Hwf. pose proof (co_job _ _ _ _ Hrun) as Hj.
    assert (Hnd : existsb is_dead ws' = false).
    { clear -Hwf. induction Hwf; cbn; auto. now rewrite wf_not_dead. }
    rewrite Hnd.
    destruct (forallb is_done ws') eqn:Hd.
    + right. rewrite mapM_parts by auto.
      assert (Hmd : map (@length _) (map w_dst ws') = map (@length _) (map (section (skipn n d1) conc) (seq 0 conc))).
      { rewrite map_map, (Forall2_same_w_dst _ _ Hj). unfold ws. rewrite !map_map. reflexivity. }
      set (parts := map (fun w => (w_n w, w_rest w, w_new w)) ws').
      destruct (consolidate_ok conc (length (skipn n d1) / conc) (map w_dst ws') parts 0 [] [] 0 [])
        as (junk & off & H1 & H2 & H3).
      * rewrite map_length. apply (f_equal (@length _)) in Hmd. rewrite !map_length, seq_length in Hmd. lia.
      * eapply even_sections_len; [symmetry; exact Hmd|]. now apply section_even.
      * unfold parts. clear -Hwf. induction Hwf; cbn; constructor; auto. apply H.
      * cbn; lia.
      * cbn [app length Nat.add] in H1. rewrite app_nil_r in H1. rewrite H1.
        unfold parts in H1, H2, H3 |- *. rewrite kept_prefixes_Wr in *. rewrite parts_Lf.
        set (nt := list_sum _) in *.
        assert (Hcl : length (concat (map w_dst ws')) = length (skipn n d1)).
        { transitivity (length (concat (map (section (skipn n d1) conc) (seq 0 conc))));
            [|now rewrite section_concat].
          assert (Hcs : forall (a b : list (list (tri E))), map (@length _) a = map (@length _) b ->
             length (concat a) = length (concat b)).
          { induction a as [|x a IH]; intros [|y b]; cbn; intros Hab; try discriminate; auto.
            injection Hab as Hx Hy. rewrite !app_length, Hx. f_equal. auto. }
          apply Hcs. exact Hmd. }
        rewrite app_nil_r in H2.
        eexists _, _, _, _. split; [reflexivity|].
        eapply call_phase_ok with (sh1 := sh1) (wrote := Wr ws') (nc := NC ws'); auto; try lia.
        -- eapply run_phase with (ws := ws) (sched := sched); eauto.
           ++ apply Forall_forall. intros w Hw. apply in_map_iff in Hw as (i & <- & _). cbn. repeat split; auto.
           ++ unfold ws. rewrite map_map. cbn. apply section_concat. auto.
        -- rewrite app_length. lia.
        -- now apply firstn_app_exact.
        -- eapply NC_pos with (i := conc - 1) (ws := ws); eauto.
           ++ unfold ws. rewrite nth_error_map.
              rewrite (nth_error_nth' _ 0) by (rewrite seq_length; lia).
              rewrite seq_nth by lia. reflexivity.
           ++ cbn [Nat.add]. apply section_last_nonempty; auto.
           ++ cbn [Nat.add]. apply section_last_nonempty; auto.
    + left. split; auto. intros Hturn.
      enough (forallb is_done ws' = true) by congruence.
      apply forallb_forall. intros w' Hin.
      rewrite Forall_forall in Hwf. specialize (Hwf _ Hin).
      apply In_nth_error in Hin as [i Hi].
      assert (Hil : i < conc).
      { assert (i < length ws') by (apply nth_error_Some; congruence).
        apply Forall2_same_w_dst, (f_equal (@length _)) in Hj; rewrite !map_length in Hj. unfold ws in Hj. rewrite map_length, seq_length in Hj. lia. }
      assert (Hwi : nth_error ws i = Some (job (skipn n d1) (o_todo st) conc i)).
      { unfold ws. rewrite nth_error_map.
        rewrite (nth_error_nth' _ 0) by (rewrite seq_length; lia).
        now rewrite seq_nth by lia. }
      destruct (run_steps sched sh1 ws i _ HE Hws Hwi) as (w2 & Hw2 & Hl).
      rewrite Er in Hw2. cbn [snd] in Hw2. rewrite Hi in Hw2. injection Hw2 as <-.
      apply steps_done; auto. specialize (Hturn i ltac:(lia)).
      unfold turns_needed in Hturn.
      change (steps_left (job (skipn n d1) (o_todo st) conc i)) with (S (length (section (o_todo st) conc i))) in Hl.
      assert (length (section (o_todo st) conc i) <= length (o_todo st)).
      { apply section_le. }
      lia.
Qed.
End Call.
