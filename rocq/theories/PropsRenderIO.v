(** Properties C05 (cache), C09 (RenderAll), C10 (TriangleBuffer). *)
From Coq Require Import List Permutation Arith Lia Bool ZArith.
From Verif Require Import Prelude OctreeModel OctreeSpec OctreeProofs PropsOctree CacheModel RenderIOModel.
Import ListNotations.

(** * C05 *)
Lemma v3i_eqb_eq a b : v3i_eqb a b = true <-> a = b.
Proof.
  unfold v3i_eqb. rewrite !andb_true_iff, !Z.eqb_eq. destruct a, b; cbn. split.
  - intros [[-> ->] ->]. reflexivity.
  - intros [= -> -> ->]. auto.
Qed.

(** The cache only holds true values of the SDF. *)
Definition cache_sound {P V} (pos : v3i -> P) (f : P -> V) (c : cache V) : Prop :=
  forall vi d, cache_read c vi = Some d -> d = f (pos vi).
Definition thread_sound {P V} (pos : v3i -> P) (f : P -> V) (t : eval_thread P V) : Prop :=
  match snd t with
  | AtRead | AtEval => True
  | AtWrite d => d = f (pos (fst t))
  | Ret v d => v = pos (fst t) /\ d = f (pos (fst t))
  end.

Lemma cache_write_sound {P V} pos (f : P -> V) c k :
  cache_sound pos f c -> cache_sound pos f (cache_write c k (f (pos k))).
Proof.
  intros H vi d. cbn. destruct (v3i_eqb k vi) eqn:E; auto.
  apply v3i_eqb_eq in E as ->. now intros [= <-].
Qed.

Lemma eval_step_sound {P V} pos (f : P -> V) c t c' t' :
  cache_sound pos f c -> thread_sound pos f t -> eval_step pos f c t = (c', t') ->
  cache_sound pos f c' /\ thread_sound pos f t' /\ fst t' = fst t.
Proof.
  intros Hc Ht. destruct t as [vi pc]. unfold eval_step, thread_sound in *; cbn in *.
  destruct pc as [| |d|v d].
  - destruct (cache_read c vi) as [d|] eqn:E; intros [= <- <-]; cbn; auto.
  - intros [= <- <-]; cbn; auto.
  - subst d. intros [= <- <-]; cbn. auto using cache_write_sound.
  - intros [= <- <-]; cbn; auto.
Qed.

Lemma Forall_update {A} (Q : A -> Prop) l i x : Forall Q l -> Q x -> Forall Q (update l i x).
Proof.
  intros H Hx. revert i. induction H; intros [|i]; cbn; auto.
Qed.

Lemma eval_run_sound {P V} pos (f : P -> V) sched : forall c ts,
  cache_sound pos f c -> Forall (thread_sound pos f) ts ->
  cache_sound pos f (fst (eval_run pos f sched c ts)) /\
  Forall (thread_sound pos f) (snd (eval_run pos f sched c ts)) /\
  map fst (snd (eval_run pos f sched c ts)) = map fst ts.
Proof.
  induction sched as [|i sched IH]; intros c ts Hc Ht; cbn; auto.
  destruct (nth_error ts i) as [t|] eqn:Ei; auto.
  destruct (eval_step pos f c t) as [c' t'] eqn:Es.
  assert (Hti : thread_sound pos f t).
  { rewrite Forall_forall in Ht. apply Ht. eapply nth_error_In; eauto. }
  destruct (eval_step_sound _ _ _ _ _ _ Hc Hti Es) as (H1&H2&H3).
  destruct (IH c' (update ts i t')) as (I1&I2&I3); auto using Forall_update.
  repeat split; auto. rewrite I3. clear -Ei H3. revert i Ei.
  induction ts as [|a ts IH]; intros [|i] Ei; cbn in *; auto; try discriminate.
  - injection Ei as ->. now rewrite H3.
  - now rewrite IH.
Qed.

(** Any number of concurrent evaluations of the points [keys], under any
    interleaving of their cache reads, SDF evaluations and cache writes: every
    evaluation that has returned, returned the position of its grid point and
    the SDF's value there, and the cache agrees with the SDF. *)
Theorem C05_cache_transparent P V (pos : v3i -> P) (f : P -> V) (c0 : cache V) keys sched :
  cache_sound pos f c0 ->
  let '(c, ts) := eval_run pos f sched c0 (map (fun k => (k, AtRead)) keys) in
  cache_sound pos f c /\ length ts = length keys /\
  forall i k v d, nth_error keys i = Some k -> nth_error ts i = Some (k, Ret v d) ->
    v = pos k /\ d = f (pos k).
Proof.
  intros Hc.
  destruct (eval_run_sound pos f sched c0 (map (fun k => (k, AtRead)) keys)) as (H1&H2&H3); auto.
  { apply Forall_forall. intros t Ht. apply in_map_iff in Ht as (k & <- & _). exact I. }
  destruct (eval_run _ _ _ _ _) as [c ts]; cbn in *.
  split; auto. split.
  - apply (f_equal (@length _)) in H3. now rewrite !map_length in H3.
  - intros i k v d _ Hi. rewrite Forall_forall in H2. apply (H2 (k, Ret v d)).
    eapply nth_error_In; eauto.
Qed.

(** Three turns are enough for an evaluation to return, whatever the others do. *)
Definition pc_left {P V} (t : eval_thread P V) : nat :=
  match snd t with AtRead => 3 | AtEval => 2 | AtWrite _ => 1 | Ret _ _ => 0 end.
Theorem C05_evaluate_returns P V (pos : v3i -> P) (f : P -> V) (c0 : cache V) keys sched i k :
  nth_error keys i = Some k -> 3 <= count_occ Nat.eq_dec sched i ->
  exists v d, nth_error (snd (eval_run pos f sched c0 (map (fun k => (k, AtRead)) keys))) i
              = Some (k, Ret v d).
Proof.
  intros Hk Hs.
  assert (H : forall sched c ts t, nth_error ts i = Some t ->
     exists t', nth_error (snd (eval_run pos f sched c ts)) i = Some t' /\ fst t' = fst t /\
       pc_left t' <= pc_left t - count_occ Nat.eq_dec sched i).
  { clear. induction sched as [|j sched IH]; intros c ts t Ht; cbn.
    - exists t. split; auto. split; auto. lia.
    - destruct (Nat.eq_dec j i) as [->|Hne].
      + rewrite Ht. destruct (eval_step pos f c t) as [c' t1] eqn:Es.
        assert (Hu : nth_error (update ts i t1) i = Some t1).
        { clear -Ht. revert i Ht. induction ts; intros [|i] Ht; cbn in *; auto; discriminate. }
        destruct (IH c' _ _ Hu) as (t'&H1&H2&H3). exists t'. split; auto.
        destruct t as [vi pc]. unfold eval_step in Es.
        destruct pc; cbn in Es; [destruct (cache_read c vi)|..]; injection Es as <- <-;
          cbn in *; split; auto; lia.
      + destruct (nth_error ts j) as [tj|] eqn:Ej; auto.
        destruct (eval_step pos f c tj) as [c' t1].
        apply IH. clear -Ht Hne. revert i j Ht Hne.
        induction ts; intros [|i] [|j] Ht Hne; cbn in *; auto; try discriminate; try congruence. }
  destruct (H sched c0 (map (fun k => (k, AtRead)) keys) (k, AtRead)) as (t'&H1&H2&H3).
  { now rewrite nth_error_map, Hk. }
  destruct t' as [k' pc]. cbn [fst] in H2. subst k'.
  unfold pc_left in H3; cbn [snd] in H3. destruct pc as [| |d0|v d]; try lia. exists v, d. exact H1.
Qed.

Example C05_example : (* two evaluations racing on the same key and a third one *)
  eval_run (fun v => vx v) (fun x => (x * 10)%Z) [0; 1; 0; 1; 2; 1; 0; 2; 2]
    [] (map (fun k => (k, AtRead)) [V3I 4 0 0; V3I 4 0 0; V3I 7 0 0])
  = ([(V3I 7 0 0, 70); (V3I 4 0 0, 40); (V3I 4 0 0, 40)]%Z,
     [(V3I 4 0 0, Ret 4 40); (V3I 4 0 0, Ret 4 40); (V3I 7 0 0, Ret 7 70)]%Z).
Proof. reflexivity. Qed.
Example C05_hyp : cache_sound (fun v => vx v) (fun x => (x * 10)%Z) [(V3I 4 0 0, 40%Z)].
Proof.
  intros vi d. cbn. destruct (v3i_eqb _ _) eqn:E; [|discriminate].
  apply v3i_eqb_eq in E as <-. now intros [= <-].
Qed.

Print Assumptions C05_cache_transparent.
Print Assumptions C05_evaluate_returns.

(** * C09 *)
(** What a user expects: all triangles handed out up to and including the call
    that reported io.EOF. *)
Definition complete {T} (rs : list (list T * rerr)) : list T := concat (map fst rs).

(** A run of a renderer: nil errors, then one non-nil error. *)
Definition full_run {T} (rs : list (list T * rerr)) : Prop :=
  exists pre last e, rs = pre ++ [(last, e)] /\ e <> ENil /\ Forall (fun r => snd r = ENil) pre.

Lemma render_all_run {T} : forall (pre : list (list T * rerr)) acc last e,
  Forall (fun r => snd r = ENil) pre -> e <> ENil ->
  render_all acc (pre ++ [(last, e)]) =
    Some (acc ++ concat (map fst pre), match e with EOther => true | _ => false end).
Proof.
  induction pre as [|[ts e0] pre IH]; intros acc last e Hp He; cbn.
  - rewrite app_nil_r. destruct e; congruence.
  - apply Forall_cons_iff in Hp as [H1 H2]. cbn in H1. subst e0.
    rewrite IH by auto. now rewrite app_assoc.
Qed.

(** Restricted version: RenderAll is complete when the renderer returns no
    triangles together with its final error; the error flag is always exact. *)
Theorem C09_renderall_partial T (rs : list (list T * rerr)) pre last e :
  rs = pre ++ [(last, e)] -> e <> ENil -> Forall (fun r => snd r = ENil) pre ->
  exists result, render_all [] rs = Some (result, match e with EOther => true | _ => false end) /\
    complete rs = result ++ last /\ (last = [] -> result = complete rs).
Proof.
  intros -> He Hp. exists (concat (map fst pre)). rewrite render_all_run by auto.
  assert (H : complete (pre ++ [(last, e)]) = concat (map fst pre) ++ last).
  { unfold complete. rewrite map_app, concat_app. cbn. now rewrite app_nil_r. }
  repeat split; auto. intros ->. now rewrite H, app_nil_r.
Qed.

(** Counterexample: an octree renderer whose last finest cell does not fit into
    RenderAll's 1024 entry buffer.  205 cells of 5 triangles each. *)
Definition c09_env : env :=
  Env nat 0 (fun v => [1; 2; 3; 4; 5])
      (fun c => Nat.eqb (c_lev c) 1 &&
                Z.leb 205 (vx (c_org c) / 2 + 8 * (vy (c_org c) / 2) + 64 * (vz (c_org c) / 2)))%bool
      5.
Definition c09_calls : list (list nat * list nat) := repeat (repeat 0 1024, repeat 0 600) 6.

Theorem C09_renderall_refuted :
  exists (E : env) calls rs result,
    wf_env E /\ Forall (fun c => length (fst c) = 1024) calls /\
    octree_responses (init_octree E 0) calls = Some rs /\ full_run rs /\
    Permutation (concat (map fst rs)) (surface_triangles E) /\
    render_all [] rs = Some (result, false) /\
    ~ Permutation result (surface_triangles E).
Proof.
  exists c09_env, c09_calls.
  destruct (octree_responses (init_octree c09_env 0) c09_calls) as [rs|] eqn:Hrs.
  2:{ exfalso. revert Hrs. vm_compute. discriminate. }
  assert (Hchk : exists pre last, rs = pre ++ [(last, EEOF)] /\ Forall (fun r => snd r = ENil) pre
      /\ length (concat (map fst pre)) = 1020 /\ concat (map fst rs) = surface_triangles c09_env).
  { vm_compute in Hrs. injection Hrs as <-.
    eexists [_; _; _; _], _. split; [reflexivity|]. split; [|split; vm_compute; reflexivity].
    repeat constructor. }
  destruct Hchk as (pre & last & -> & Hp & Hlen & Hall).
  exists (pre ++ [(last, EEOF)]), (concat (map fst pre)).
  split; [|split; [|split; [|split; [|split; [|split]]]]].
  - split; [|vm_compute; lia]. intros v. cbn. unfold max_tris. lia.
  - unfold c09_calls. apply Forall_forall. intros c Hc. apply repeat_spec in Hc as ->.
    reflexivity.
  - reflexivity.
  - exists pre, last, EEOF. split; auto. split; [discriminate|auto].
  - rewrite Hall. apply Permutation_refl.
  - rewrite render_all_run by (auto; discriminate). reflexivity.
  - intros H. apply Permutation_length in H. rewrite Hlen in H.
    revert H. vm_compute. discriminate.
Qed.

Print Assumptions C09_renderall_partial.
Print Assumptions C09_renderall_refuted.
Example C09_hyp : full_run [([1; 2], ENil); ([3], ENil); ([], EEOF)].
Proof. exists [([1; 2], ENil); ([3], ENil)], [], EEOF. repeat split; auto; discriminate. Qed.

(** * C10 *)
(** Triangles written and read by a history, from the observations alone. *)
Fixpoint total_written {T} (ops : list (tb_op T)) : list T :=
  match ops with
  | [] => []
  | TWrite t :: r => t ++ total_written r
  | _ :: r => total_written r
  end.
Fixpoint total_read {T} (obs : list (tb_obs T)) : list T :=
  match obs with
  | [] => []
  | ORead d n :: r => firstn n d ++ total_read r
  | _ :: r => total_read r
  end.

(** Observations are right with respect to the number of triangles pending,
    which is (written so far) - (read so far). *)
Fixpoint obs_ok {T} (pending : nat) (ops : list (tb_op T)) (obs : list (tb_obs T)) : Prop :=
  match ops, obs with
  | [], [] => True
  | TWrite t :: r, OInt n :: s => n = length t /\ obs_ok (pending + length t) r s
  | TRead dst :: r, ORead d n :: s =>
      n = Nat.min (length dst) pending /\ length d = length dst /\
      skipn n d = skipn n dst /\ obs_ok (pending - n) r s
  | TLen :: r, OInt n :: s => n = pending /\ obs_ok pending r s
  | _, _ => False
  end.

Theorem C10_fifo T (ops : list (tb_op T)) (b : list T) :
  let '(b', obs) := tb_run b ops in
  b ++ total_written ops = total_read obs ++ b' /\ obs_ok (length b) ops obs.
Proof.
  revert b. induction ops as [|op ops IH]; intros b; cbn.
  - split; auto. apply app_nil_r.
  - destruct op as [t|dst|]; cbn.
    + specialize (IH (tb_write b t)). destruct (tb_run _ _) as [b2 os]. cbn.
      unfold tb_write in IH. rewrite app_length, <- app_assoc in IH. tauto.
    + unfold tb_read. set (n := Nat.min (length dst) (length b)).
      specialize (IH (skipn n b)). destruct (tb_run _ _) as [b2 os]. cbn.
      destruct IH as [I1 I2]. rewrite <- app_assoc, <- I1.
      assert (Hf : firstn n (go_copy dst b) = firstn n b).
      { unfold go_copy. rewrite firstn_app, firstn_firstn, firstn_length.
        replace (Nat.min n (length dst)) with n by lia.
        replace (n - Nat.min (length dst) (length b)) with 0 by lia. cbn. apply app_nil_r. }
      rewrite Hf, app_assoc, firstn_skipn. repeat split; auto.
      * apply go_copy_length.
      * unfold go_copy. rewrite skipn_app, firstn_length. fold n.
        rewrite (skipn_all2 (firstn _ b)) by (rewrite firstn_length; lia).
        cbn. replace (n - n) with 0 by lia. cbn.
        destruct (Nat.le_ge_cases (length dst) (length b)).
        -- rewrite !skipn_all2 by lia. reflexivity.
        -- f_equal. lia.
      * now rewrite <- skipn_length.
    + specialize (IH b). destruct (tb_run _ _) as [b2 os]. cbn. tauto.
Qed.

Print Assumptions C10_fifo.
Example C10_example : tb_run [] [TWrite [1; 2; 3]; TRead [0; 0]; TWrite [4]; TLen; TRead [9; 9; 9; 9]]
  = ([], [OInt 3; ORead [1; 2] 2; OInt 1; OInt 2; ORead [3; 4; 9; 9] 2]).
Proof. reflexivity. Qed.
