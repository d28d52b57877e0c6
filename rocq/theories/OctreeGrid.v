(** The expansion of the root cube is the list of kept grid cells. *)
From Coq Require Import List Permutation Arith Lia Bool ZArith.
From Verif Require Import Prelude OctreeModel OctreeSpec OctreeProofs.
Import ListNotations.

Lemma flat_map_app_fun {A B} (f g : A -> list B) l :
  Permutation (flat_map (fun x => f x ++ g x) l) (flat_map f l ++ flat_map g l).
Proof. induction l as [|a l IH]; cbn; auto. rewrite IH. perm_solve. Qed.

Lemma flat_map_perm_fun {A B} (f g : A -> list B) l :
  (forall x, In x l -> Permutation (f x) (g x)) -> Permutation (flat_map f l) (flat_map g l).
Proof.
  induction l as [|a l IH]; cbn; intros H; auto.
  apply Permutation_app; auto.
Qed.

Lemma seq_offset n : forall m k, seq (n + k) m = map (fun i => n + i) (seq k m).
Proof.
  induction m as [|m IH]; intros k; cbn; auto.
  f_equal. rewrite plus_n_Sm. apply IH.
Qed.

Lemma evens_split o n : evens o (n + n) = evens o n ++ evens (o + 2 * Z.of_nat n) n.
Proof.
  unfold evens. rewrite seq_app, map_app. f_equal. cbn [Nat.add].
  pose proof (seq_offset n n 0) as H. rewrite Nat.add_0_r in H. rewrite H, map_map.
  apply map_ext. intros i. lia.
Qed.

Lemma In_evens o n x : In x (evens o n) <-> exists i, i < n /\ x = (o + 2 * Z.of_nat i)%Z.
Proof.
  unfold evens. rewrite in_map_iff. split.
  - intros (i & <- & H). apply in_seq in H. exists i. split; auto; lia.
  - intros (i & H & ->). exists i. split; auto. apply in_seq. lia.
Qed.

Lemma cells_split o n :
  let s := (2 * Z.of_nat n)%Z in
  Permutation (cells o (n + n))
    (flat_map (fun d => cells (v3i_add o d) n)
      [ V3I 0 0 0; V3I s 0 0; V3I s s 0; V3I 0 s 0;
        V3I 0 0 s; V3I s 0 s; V3I s s s; V3I 0 s s ]).
Proof.
  intros s. unfold cells at 1. rewrite !evens_split. fold s.
  set (X1 := evens (vx o) n). set (X2 := evens (vx o + s) n).
  set (Y1 := evens (vy o) n). set (Y2 := evens (vy o + s) n).
  set (Z1 := evens (vz o) n). set (Z2 := evens (vz o + s) n).
  set (C := fun X Y Zs => flat_map (fun x => flat_map (fun y => map (fun z => V3I x y z) Zs) Y) X).
  assert (HZ : forall X Y, Permutation (C X Y (Z1 ++ Z2)) (C X Y Z1 ++ C X Y Z2)).
  { intros X Y. unfold C.
    transitivity (flat_map (fun x => flat_map (fun y => map (fun z => V3I x y z) Z1) Y
       ++ flat_map (fun y => map (fun z => V3I x y z) Z2) Y) X).
    - apply flat_map_perm_fun. intros x _.
      rewrite <- flat_map_app_fun. apply flat_map_perm_fun. intros y _. now rewrite map_app.
    - apply flat_map_app_fun. }
  assert (HY : forall X Zs, Permutation (C X (Y1 ++ Y2) Zs) (C X Y1 Zs ++ C X Y2 Zs)).
  { intros X Zs. unfold C. rewrite <- flat_map_app_fun. apply flat_map_perm_fun.
    intros x _. now rewrite flat_map_app. }
  assert (HX : forall Y Zs, C (X1 ++ X2) Y Zs = C X1 Y Zs ++ C X2 Y Zs).
  { intros. unfold C. apply flat_map_app. }
  change (Permutation (C (X1 ++ X2) (Y1 ++ Y2) (Z1 ++ Z2))
    (flat_map (fun d => cells (v3i_add o d) n)
      [ V3I 0 0 0; V3I s 0 0; V3I s s 0; V3I 0 s 0;
        V3I 0 0 s; V3I s 0 s; V3I s s s; V3I 0 s s ])).
  rewrite HX, !HY, !HZ.
  cbn [flat_map]. unfold cells, v3i_add; cbn [vx vy vz]. rewrite !Z.add_0_r.
  fold X1 X2 Y1 Y2 Z1 Z2.
  change (flat_map (fun x => flat_map (fun y => map (fun z => V3I x y z) Z1) Y1) X1) with (C X1 Y1 Z1).
  change (flat_map (fun x => flat_map (fun y => map (fun z => V3I x y z) Z1) Y1) X2) with (C X2 Y1 Z1).
  change (flat_map (fun x => flat_map (fun y => map (fun z => V3I x y z) Z1) Y2) X1) with (C X1 Y2 Z1).
  change (flat_map (fun x => flat_map (fun y => map (fun z => V3I x y z) Z1) Y2) X2) with (C X2 Y2 Z1).
  change (flat_map (fun x => flat_map (fun y => map (fun z => V3I x y z) Z2) Y1) X1) with (C X1 Y1 Z2).
  change (flat_map (fun x => flat_map (fun y => map (fun z => V3I x y z) Z2) Y1) X2) with (C X2 Y1 Z2).
  change (flat_map (fun x => flat_map (fun y => map (fun z => V3I x y z) Z2) Y2) X1) with (C X1 Y2 Z2).
  change (flat_map (fun x => flat_map (fun y => map (fun z => V3I x y z) Z2) Y2) X2) with (C X2 Y2 Z2).
  perm_solve.
Qed.

Lemma In_cells o n v : In v (cells o n) <->
  In (vx v) (evens (vx o) n) /\ In (vy v) (evens (vy o) n) /\ In (vz v) (evens (vz o) n).
Proof.
  unfold cells. rewrite in_flat_map. split.
  - intros (x & Hx & H). apply in_flat_map in H as (y & Hy & H).
    apply in_map_iff in H as (z & <- & Hz). auto.
  - intros (Hx & Hy & Hz). exists (vx v). split; auto.
    apply in_flat_map. exists (vy v). split; auto.
    apply in_map_iff. exists (vz v). split; auto. now destruct v.
Qed.

(** [o] is a multiple of [2^l] in every coordinate. *)
Definition aligned (o : v3i) (l : nat) : Prop :=
  let s := (2 ^ Z.of_nat l)%Z in
  (vx o mod s = 0 /\ vy o mod s = 0 /\ vz o mod s = 0)%Z.

Lemma pow_half l : 1 <= l -> (2 * Z.of_nat (2 ^ (l - 1)) = 2 ^ Z.of_nat l)%Z.
Proof.
  intros H. rewrite Nat2Z.inj_pow. change (Z.of_nat 2) with 2%Z.
  rewrite <- Z.pow_succ_r by lia. f_equal. lia.
Qed.

Lemma floor_align o l i : (o mod 2 ^ Z.of_nat l = 0)%Z -> 1 <= l -> i < 2 ^ (l - 1) ->
  ((o + 2 * Z.of_nat i) / 2 ^ Z.of_nat l * 2 ^ Z.of_nat l = o)%Z.
Proof.
  intros Ho Hl Hi. pose proof (pow_half l Hl) as Hp.
  assert (Hs : (0 < 2 ^ Z.of_nat l)%Z) by (apply Z.pow_pos_nonneg; lia).
  set (s := (2 ^ Z.of_nat l)%Z) in *.
  pose proof (Z.div_mod o s ltac:(lia)) as Hd. rewrite Ho in Hd.
  rewrite <- (Z.div_unique (o + 2 * Z.of_nat i) s (o / s) (2 * Z.of_nat i)); [lia| |lia].
  left. apply inj_lt in Hi. lia.
Qed.

Lemma ancestor_of_cell o l v :
  aligned o l -> 1 <= l -> In v (cells o (2 ^ (l - 1))) -> ancestor v l = Cube o l.
Proof.
  intros (A1&A2&A3) Hl Hv. apply In_cells in Hv as (Hx&Hy&Hz).
  apply In_evens in Hx as (i&Hi&Ex), Hy as (j&Hj&Ey), Hz as (k&Hk&Ez).
  unfold ancestor. rewrite Ex, Ey, Ez, !floor_align by auto. now destruct o.
Qed.

Lemma kept_S E l v : 1 <= l ->
  kept E (S l) v = kept E l v && negb (e_empty E (ancestor v l)).
Proof.
  intros H. unfold kept. cbn [Nat.sub]. rewrite Nat.sub_0_r.
  replace l with (S (l - 1)) at 1 by lia. rewrite seq_S, forallb_app. cbn [forallb].
  rewrite andb_true_r. now replace (1 + (l - 1)) with l by lia.
Qed.

Lemma aligned_sub o l d : aligned o (S l) ->
  In d (let s := (2 ^ Z.of_nat l)%Z in
     [ V3I 0 0 0; V3I s 0 0; V3I s s 0; V3I 0 s 0;
       V3I 0 0 s; V3I s 0 s; V3I s s s; V3I 0 s s ]) -> aligned (v3i_add o d) l.
Proof.
  cbv zeta. unfold aligned. rewrite Nat2Z.inj_succ, Z.pow_succ_r by lia.
  assert (Hs : (0 < 2 ^ Z.of_nat l)%Z) by (apply Z.pow_pos_nonneg; lia).
  set (s := (2 ^ Z.of_nat l)%Z) in *.
  assert (Ha : forall x, (x mod (2 * s) = 0)%Z -> (x mod s = 0)%Z).
  { intros x Hx. apply Z.mod_divide in Hx; [|lia]. destruct Hx as [q ->].
    replace (q * (2 * s))%Z with (q * 2 * s)%Z by lia. apply Z_mod_mult. }
  assert (H1 : forall x, (x mod (2 * s) = 0)%Z -> ((x + 0) mod s = 0)%Z).
  { intros x Hx. rewrite Z.add_0_r. auto. }
  assert (H2 : forall x, (x mod (2 * s) = 0)%Z -> ((x + s) mod s = 0)%Z).
  { intros x Hx. rewrite <- (Z.mul_1_l s) at 1. rewrite Z_mod_plus by lia. auto. }
  intros (A1&A2&A3) Hd. cbn in Hd.
  repeat (destruct Hd as [<-|Hd]; [cbn; auto|]). destruct Hd.
Qed.

Lemma filter_flat_map {A B} (f : A -> bool) (g : B -> list A) l :
  filter f (flat_map g l) = flat_map (fun x => filter f (g x)) l.
Proof. induction l as [|a l IH]; cbn; auto. now rewrite filter_app, IH. Qed.

Lemma Permutation_filter {A} (f : A -> bool) l l' :
  Permutation l l' -> Permutation (filter f l) (filter f l').
Proof.
  induction 1; cbn; auto.
  - destruct (f x); auto.
  - destruct (f x), (f y); auto. apply perm_swap.
  - eapply perm_trans; eauto.
Qed.

Lemma expand_cells E : forall l o, 1 <= l -> aligned o l ->
  Permutation (expand_at E l o)
    (flat_map (e_leaf E) (filter (kept E l) (cells o (2 ^ (l - 1))))).
Proof.
  induction l as [|l IH]; intros o Hl Ha; [lia|].
  destruct l as [|l].
  - cbn. unfold cells; cbn. rewrite !Z.add_0_r, app_nil_r. now destruct o.
  - set (m := S l) in *.
    change (expand_at E (S m) o) with
      (flat_map (fun c => expand_at E m (c_org c))
                 (filter (fun c => negb (e_empty E c)) (sub_cubes o m))).
    replace (2 ^ (S m - 1)) with (2 ^ (m - 1) + 2 ^ (m - 1)).
    2:{ replace (S m - 1) with (S (m - 1)) by lia. cbn [Nat.pow]. lia. }
    pose proof (cells_split o (2 ^ (m - 1))) as Hsplit. cbv zeta in Hsplit.
    rewrite pow_half in Hsplit by lia.
    rewrite (pflat_map_perm _ _ _ (Permutation_filter (kept E (S m)) _ _ Hsplit)).
    rewrite filter_flat_map. unfold sub_cubes. cbv zeta.
    set (ds := [_; _; _; _; _; _; _; _]).
    assert (Hds : forall d, In d ds -> aligned (v3i_add o d) m).
    { intros d Hd. apply aligned_sub; auto. }
    clearbody ds. clear Hsplit.
    induction ds as [|d ds IHd]; cbn [map filter flat_map]; auto.
    rewrite flat_map_app, <- IHd by (intros; apply Hds; now right).
    assert (Had : aligned (v3i_add o d) m) by (apply Hds; now left).
    assert (Hk : filter (kept E (S m)) (cells (v3i_add o d) (2 ^ (m - 1))) =
      if negb (e_empty E (Cube (v3i_add o d) m))
      then filter (kept E m) (cells (v3i_add o d) (2 ^ (m - 1))) else []).
    { assert (Hin : forall v, In v (cells (v3i_add o d) (2 ^ (m - 1))) ->
        kept E (S m) v = kept E m v && negb (e_empty E (Cube (v3i_add o d) m))).
      { intros v Hv. rewrite kept_S by lia. now rewrite (ancestor_of_cell _ _ _ Had) by (auto; lia). }
      clear -Hin. induction (cells _ _) as [|v cs IHc]; cbn [filter].
      - now destruct (negb _).
      - rewrite Hin by now left. rewrite IHc by (intros; apply Hin; now right).
        destruct (e_empty E _); cbn [negb]; rewrite ?andb_false_r, ?andb_true_r; auto. }
    rewrite Hk. destruct (negb (e_empty E _)); cbn [flat_map]; auto.
    apply Permutation_app_tail. cbn [c_org]. apply IH; auto. lia.
Qed.

Theorem expand_root E : wf_env E ->
  Permutation (expand E (Cube (V3I 0 0 0) (e_levels E - 1))) (surface_triangles E).
Proof.
  intros [_ H]. unfold expand, surface_triangles; cbn [c_lev c_org].
  apply expand_cells; [lia|]. unfold aligned; cbv zeta; cbn [vx vy vz]. rewrite Zmod_0_l. auto.
Qed.
