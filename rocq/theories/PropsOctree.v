(** Properties C01-C04, C08: delivery by the octree renderer. *)
From Coq Require Import List Permutation Arith Lia Bool ZArith.
From Verif Require Import Prelude OctreeModel OctreeSpec OctreeProofs OctreeGrid.
Import ListNotations.

(** ** Invariant over histories *)
Lemma reachable_inv E conc st ts : wf_env E -> reachable E conc st ts ->
  Forall (okc E) (o_todo st) /\ o_conc st = conc /\
  Permutation (ts ++ unwritten (o_sh st) ++ flat_map (expand E) (o_todo st)) (surface_triangles E) /\
  triangles (o_sh st) = length ts + length (unwritten (o_sh st)) /\
  cubes (o_sh st) = cubesP (o_sh st) + length (o_todo st) /\
  measure st + length ts <= wt (e_levels E - 1).
Proof.
  intros HE. induction 1 as [|st ts dst sched st' dst' n eof Hr IH Hc].
  - cbn. repeat split; auto.
    + constructor; auto. destruct HE. split; cbn; lia.
    + rewrite app_nil_r. now apply expand_root.
    + unfold measure, wts; cbn. lia.
  - destruct IH as (I1&I2&I3&I4&I5&I6).
    assert (Hd : dst <> []).
    { intros ->. discriminate. }
    destruct (read_triangles_ok st dst sched HE I1 Hd) as [[H _]|(st2&d2&n2&e2&H&Hok)]; [congruence|].
    rewrite Hc in H. injection H as <- <- <- <-.
    destruct Hok as [A1 A2 A3 A4 A5 A6 A7 A8 A9].
    assert (Hl : length (firstn n dst') = n) by (rewrite firstn_length; lia).
    rewrite app_length, Hl.
    repeat split; auto; try lia; try congruence.
    rewrite <- I3, <- A5. perm_solve.
Qed.

(** C01.  Whatever sequence of non-empty buffers is used, whatever the
    concurrency setting and the interleaving of the goroutines: when a call
    reports io.EOF, the triangles delivered up to and including that call are a
    permutation of the triangles of the model. *)
Theorem C01_exactly_once E conc st ts dst sched st' dst' n :
  wf_env E ->
  reachable E conc st ts ->
  read_triangles st dst sched = Returned st' dst' n true ->
  Permutation (ts ++ firstn n dst') (surface_triangles E).
Proof.
  intros HE Hr Hc.
  pose proof (reach_call _ _ _ _ _ _ _ _ _ _ Hr Hc) as Hr'.
  destruct (reachable_inv _ _ _ _ HE Hr') as (_&_&H&_).
  destruct (reachable_inv _ _ _ _ HE Hr) as (Ht&_).
  assert (Hd : dst <> []) by (intros ->; discriminate).
  destruct (read_triangles_ok st dst sched HE Ht Hd) as [[H1 _]|(st2&d2&n2&e2&H1&Hok)]; [congruence|].
  rewrite Hc in H1. injection H1 as <- <- <- <-.
  pose proof (ca_eof _ _ _ _ _ _ Hok) as (H2&H3&_).
  rewrite H2, H3 in H. cbn in H. now rewrite !app_nil_r in H.
Qed.

(** Before io.EOF nothing has been delivered twice or invented: what has been
    delivered so far can be completed to the full multiset. *)
Theorem C01_prefix E conc st ts :
  wf_env E -> reachable E conc st ts ->
  exists rest, Permutation (ts ++ rest) (surface_triangles E).
Proof. intros HE Hr. destruct (reachable_inv _ _ _ _ HE Hr) as (_&_&H&_). eauto. Qed.

(** C02.  Every call with a non-empty buffer whose goroutines all get enough
    turns returns normally. *)
Theorem C02_returns E conc st ts dst sched :
  wf_env E -> reachable E conc st ts -> dst <> [] ->
  gives_turns sched (S (Z.to_nat conc)) (S (length (o_todo st))) ->
  exists st' dst' n eof, read_triangles st dst sched = Returned st' dst' n eof.
Proof.
  intros HE Hr Hd Hs. destruct (reachable_inv _ _ _ _ HE Hr) as (Ht&Hc&_).
  destruct (read_triangles_ok st dst sched HE Ht Hd) as [[_ H]|(st2&d2&n2&e2&H1&_)].
  - exfalso. apply H. now rewrite Hc.
  - eauto.
Qed.

(** ... and the number of calls before io.EOF is bounded: a run of calls none of
    which reports io.EOF has at most as many calls as the weight of the root
    cube, which depends on the octree depth only. *)
Fixpoint no_eof_run {E} (st : ostate E) (calls : list (list (tri E) * list nat)) : Prop :=
  match calls with
  | [] => True
  | (dst, sched) :: r =>
      exists st' dst' n, read_triangles st dst sched = Returned st' dst' n false /\ no_eof_run st' r
  end.

(** Bound on the number of calls, by octree level of the root. *)
Fixpoint call_bound (level : nat) : nat :=
  match level with
  | 0 => 1
  | S m => match m with 0 => 6 | S _ => 8 * call_bound m + 1 end
  end.

Theorem C02_terminates E conc calls :
  wf_env E -> no_eof_run (init_octree E conc) calls ->
  length calls <= call_bound (e_levels E - 1).
Proof.
  intros HE.
  assert (H : forall st ts, reachable E conc st ts -> no_eof_run st calls -> length calls <= measure st).
  { induction calls as [|[dst sched] r IH]; intros st ts Hr Hn; cbn; [lia|].
    destruct Hn as (st'&dst'&n&Hc&Hn).
    destruct (reachable_inv _ _ _ _ HE Hr) as (Ht&_).
    assert (Hd : dst <> []) by (intros ->; discriminate).
    destruct (read_triangles_ok st dst sched HE Ht Hd) as [[H1 _]|(st2&d2&n2&e2&H1&Hok)]; [congruence|].
    rewrite Hc in H1. injection H1 as <- <- <- <-.
    pose proof (ca_eof _ _ _ _ _ _ Hok) as Hm. cbn in Hm.
    specialize (IH _ _ (reach_call _ _ _ _ _ _ _ _ _ _ Hr Hc) Hn). lia. }
  intros Hn. specialize (H _ _ (reach_init E conc) Hn).
  assert (Hb : forall l, wt l = call_bound l) by reflexivity.
  rewrite <- Hb. unfold measure, wts in H. cbn in H. lia.
Qed.

(** Once io.EOF has been reported, every later call reports (0, io.EOF). *)
Theorem C02_eof_final E conc st ts dst sched st' dst' n :
  wf_env E -> reachable E conc st ts ->
  read_triangles st dst sched = Returned st' dst' n true ->
  forall dst2 sched2, dst2 <> [] ->
    read_triangles st' dst2 sched2 = Returned st' dst2 0 true.
Proof.
  intros HE Hr Hc dst2 sched2 Hd2.
  destruct (reachable_inv _ _ _ _ HE Hr) as (Ht&_).
  assert (Hd : dst <> []) by (intros ->; discriminate).
  destruct (read_triangles_ok st dst sched HE Ht Hd) as [[H1 _]|(st2&d2&n2&e2&H1&Hok)]; [congruence|].
  rewrite Hc in H1. injection H1 as <- <- <- <-.
  pose proof (ca_eof _ _ _ _ _ _ Hok) as (H2&H3&_).
  destruct st' as [todo' [u' t' c' p'] conc']; cbn in *; subst.
  destruct dst2; [congruence|]. reflexivity.
Qed.

(** C03.  With a non-empty buffer no call panics; the returned count fits the
    buffer and the buffer keeps its length.  With an empty buffer the call
    panics. *)
Theorem C03_buffer_safety E conc st ts dst sched :
  wf_env E -> reachable E conc st ts ->
  (dst = [] -> read_triangles st dst sched = CallPanic) /\
  (dst <> [] ->
     read_triangles st dst sched <> CallPanic /\
     forall st' dst' n eof, read_triangles st dst sched = Returned st' dst' n eof ->
       n <= length dst /\ length dst' = length dst /\ (eof = true -> n < length dst)).
Proof.
  intros HE Hr. destruct (reachable_inv _ _ _ _ HE Hr) as (Ht&_). split.
  - now intros ->.
  - intros Hd. destruct (read_triangles_ok st dst sched HE Ht Hd) as [[H1 _]|(st2&d2&n2&e2&H1&Hok)].
    + split; [congruence|]. intros. congruence.
    + split; [congruence|]. intros ? ? ? ? H. rewrite H1 in H. injection H as <- <- <- <-.
      destruct Hok as [A1 A2 _ _ _ _ _ A8 _]. repeat split; auto. intros ->. tauto.
Qed.

(** C04.  Consolidation: given the workers' sections of the destination (all of
    length [div] but the last), how much each wrote and the cubes each left over
    and found, the loop returns the written parts compacted in worker order. *)
Theorem C04_consolidation A (secs : list (list A)) (parts : list (nat * list cube * list cube)) div :
  even_sections div secs ->
  Forall2 (fun p s => fst (fst p) <= length s) parts secs ->
  exists dst' off',
    consolidate (length secs) div 0 parts (concat secs, 0, 0, [])
      = Ok (dst', off', list_sum (map (fun p => fst (fst p)) parts),
            concat (map (fun p => snd (fst p) ++ snd p) parts)) /\
    length dst' = length (concat secs) /\
    firstn (list_sum (map (fun p => fst (fst p)) parts)) dst'
      = concat (map (fun '(p, s) => firstn (fst (fst p)) s) (combine parts secs)).
Proof.
  intros Hev Hps.
  destruct (consolidate_ok (length secs) div secs parts 0 [] [] 0 []) as (j&o&H1&H2&H3); auto.
  cbn [app length Nat.add] in H1. rewrite app_nil_r in H1, H2.
  exists (concat (kept_prefixes parts secs) ++ j), o.
  split; [exact H1|]. split; [exact H2|].
  rewrite firstn_app_exact by (symmetry; exact H3).
  clear. revert secs. induction parts as [|[[a b] c] ps IH]; intros [|s ss]; cbn; auto. now rewrite IH.
Qed.

(** The sections handed to the workers tile the slice, all but the last have
    length [len/conc], and no index is out of range. *)
Theorem C04_sections A (l : list A) conc : 1 <= conc ->
  exists secs, collect conc (work_section l conc) = Ok secs /\ length secs = conc /\
    concat secs = l /\ even_sections (length l / conc) secs.
Proof.
  intros H. exists (map (section l conc) (seq 0 conc)).
  rewrite map_length, seq_length. split; [|split; [reflexivity|split]].
  - apply collect_ok. intros. now apply work_section_ok.
  - now apply section_concat.
  - now apply section_even.
Qed.

(** C08.  Counters. *)
Theorem C08_counters E conc st ts :
  wf_env E -> reachable E conc st ts ->
  cubes (o_sh st) - cubesP (o_sh st) = length (o_todo st) /\
  cubesP (o_sh st) <= cubes (o_sh st) /\
  triangles (o_sh st) = length ts + length (unwritten (o_sh st)).
Proof.
  intros HE Hr. destruct (reachable_inv _ _ _ _ HE Hr) as (_&_&_&H1&H2&_). lia.
Qed.

Print Assumptions C01_exactly_once.
Print Assumptions C01_prefix.
Print Assumptions C02_returns.
Print Assumptions C02_terminates.
Print Assumptions C02_eof_final.
Print Assumptions C03_buffer_safety.
Print Assumptions C04_consolidation.
Print Assumptions C04_sections.
Print Assumptions C08_counters.

(** ** A concrete renderer meeting the hypotheses: three levels, triangles are
    natural numbers, the cell at origin has 2 triangles, the cell at (2,0,0) has
    5, one subtree is pruned... *)
Definition demo : env :=
  Env nat 0 (fun v => if Z.eqb (vx v) 2 then [1; 2; 3; 4; 5] else if Z.eqb (vy v) 2 then [] else [8; 9])
      (fun c => Z.eqb (vz (c_org c)) 2) 3.
Example demo_wf : wf_env demo.
Proof.
  split; [|cbn; lia]. intros v. cbn. destruct (Z.eqb _ _); cbn; unfold max_tris; [lia|].
  destruct (Z.eqb _ _); cbn; lia.
Qed.
Example demo_surface : surface_triangles demo = [8; 9; 1; 2; 3; 4; 5; 1; 2; 3; 4; 5].
Proof. vm_compute. reflexivity. Qed.
(** A run with two goroutines in lock step and small buffers reaches io.EOF. *)
Definition turns := [0; 1; 1; 0; 0; 1; 0; 1; 1; 0; 0; 1; 1; 0; 0; 1].
Example demo_run :
  exists st, history (init_octree demo 2)
    [(repeat 0 3, turns); (repeat 0 3, turns); (repeat 0 9, turns); (repeat 0 9, turns);
     (repeat 0 9, turns)] = Some ([1; 2; 3; 4; 5; 8; 9; 1; 2; 3; 4; 5], st, true).
Proof. eexists. vm_compute. reflexivity. Qed.
Example demo_reachable :
  exists st ts dst sched st' dst' n, reachable demo 2 st ts /\ ts <> [] /\
    read_triangles st dst sched = Returned st' dst' n true.
Proof.
  destruct (read_triangles (init_octree demo 2) (repeat 0 16) turns) as [s1 d1 n1 e1| |] eqn:H1;
    try discriminate H1.
  destruct (read_triangles s1 (repeat 0 16) turns) as [s2 d2 n2 e2| |] eqn:H2;
    [|vm_compute in H1; injection H1 as <- <- <- <-; discriminate H2..].
  destruct (read_triangles s2 (repeat 0 16) turns) as [s3 d3 n3 e3| |] eqn:H3;
    [|vm_compute in H1; injection H1 as <- <- <- <-; vm_compute in H2; injection H2 as <- <- <- <-; discriminate H3..].
  exists s2, (([] ++ firstn n1 d1) ++ firstn n2 d2), (repeat 0 16), turns, s3, d3, n3.
  split; [|split].
  - eapply reach_call; [|exact H2]. eapply reach_call; [|exact H1]. constructor.
  - vm_compute in H1. injection H1 as <- <- <- <-. vm_compute in H2. injection H2 as <- <- <- <-. discriminate.
  - rewrite H3. vm_compute in H1. injection H1 as <- <- <- <-. vm_compute in H2. injection H2 as <- <- <- <-.
    vm_compute in H3. injection H3 as <- <- <- <-. reflexivity.
Qed.
