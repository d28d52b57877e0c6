(** Every directed edge of the grid mesh occurs at most once. *)
From Coq Require Import List Permutation Arith NArith ZArith Lia Bool.
From Verif Require Import Prelude McTables McModel McSpec McProofs.
Import ListNotations.

Definition peqb (a b : gpoint) : bool :=
  let '(x, y, z) := a in let '(u, v, w) := b in (Z.eqb x u && Z.eqb y v && Z.eqb z w)%bool.
Lemma peqb_eq a b : peqb a b = true <-> a = b.
Proof.
  destruct a as [[x y] z], b as [[u v] w]. cbn. rewrite !andb_true_iff, !Z.eqb_eq.
  split; [intros [[-> ->] ->]; auto|injection 1; auto].
Qed.
Definition geqb (a b : gedge) : bool := peqb (fst a) (fst b) && Nat.eqb (snd a) (snd b).
Lemma geqb_eq a b : geqb a b = true <-> a = b.
Proof.
  destruct a, b. unfold geqb; cbn [fst snd]. rewrite andb_true_iff, peqb_eq, Nat.eqb_eq.
  split; [intros [-> ->]; auto|injection 1; auto].
Qed.

Definition zero_p : gpoint := (0, 0, 0)%Z.
Definition neighbours : list gpoint :=
  flat_map (fun x => flat_map (fun y => map (fun z => (x, y, z)) [-1; 0; 1]%Z) [-1; 0; 1]%Z) [-1; 0; 1]%Z.

Lemma neighbours_in x y z : (-1 <= x <= 1)%Z -> (-1 <= y <= 1)%Z -> (-1 <= z <= 1)%Z -> In (x, y, z) neighbours.
Proof.
  intros Hx Hy Hz. unfold neighbours.
  assert (Ex : In x [-1; 0; 1]%Z) by (cbn; lia).
  assert (Ey : In y [-1; 0; 1]%Z) by (cbn; lia).
  assert (Ez : In z [-1; 0; 1]%Z) by (cbn; lia).
  apply in_flat_map. exists x. split; auto.
  apply in_flat_map. exists y. split; auto.
  apply in_map_iff. exists z. auto.
Qed.

Lemma padd_cancel c d e : padd c d = padd c e -> d = e.
Proof.
  destruct c as [[? ?] ?], d as [[? ?] ?], e as [[? ?] ?]; cbn. intros H. injection H as H1 H2 H3.
  f_equal; [f_equal|]; lia.
Qed.

Lemma local_edge_range e : e < 12 -> let '(x, y, z) := fst (grid_edge zero_p e) in
  (0 <= x <= 1 /\ 0 <= y <= 1 /\ 0 <= z <= 1)%Z.
Proof. intros H. do 12 (destruct e as [|e]; [cbn; lia|]). lia. Qed.

Lemma shared_edge c1 c2 e f : e < 12 -> f < 12 -> grid_edge c1 e = grid_edge c2 f ->
  exists d, In d neighbours /\ c2 = padd c1 d /\ grid_edge zero_p e = grid_edge d f.
Proof.
  intros He Hf H. destruct c1 as [[x1 y1] z1], c2 as [[x2 y2] z2].
  pose proof (local_edge_range e He) as Re. pose proof (local_edge_range f Hf) as Rf.
  exists (x2 - x1, y2 - y1, z2 - z1)%Z.
  assert (Hc : (x2, y2, z2) = padd (x1, y1, z1) (x2 - x1, y2 - y1, z2 - z1)%Z)
    by (cbn; f_equal; [f_equal|]; lia).
  rewrite Hc, grid_edge_padd, (grid_edge_0 (x1, y1, z1) e) in H.
  apply pair_equal_spec in H as [H1 H2]. apply padd_cancel in H1.
  split; [|split; auto].
  - rewrite (grid_edge_0 _ f) in H1. fold zero_p in H1.
    destruct (fst (grid_edge zero_p e)) as [[a b] c], (fst (grid_edge zero_p f)) as [[a' b'] c'].
    cbn in H1. injection H1 as -> -> ->. apply neighbours_in; lia.
  - fold zero_p in H1, H2. destruct (grid_edge zero_p e), (grid_edge _ f); cbn in *. now subst.
Qed.

(** Two different edges shared by two different cells lie on a common face. *)
Definition shared_pairs (d : gpoint) : list (nat * nat) :=
  filter (fun p => geqb (grid_edge zero_p (fst p)) (grid_edge d (snd p))) (list_prod (seq 0 12) (seq 0 12)).
Definition opp (d : gpoint) : gpoint := let '(x, y, z) := d in (- x, - y, - z)%Z.
Definition shared_ok (d : gpoint) : bool :=
  forallb (fun p => forallb (fun q =>
    Nat.eqb (fst p) (fst q) || peqb d zero_p ||
    existsb (fun '(f, g, e) =>
      (peqb d e && on_face f (fst p) && on_face f (fst q) && on_face g (snd p) && on_face g (snd q)) ||
      (peqb d (opp e) && on_face g (fst p) && on_face g (fst q) && on_face f (snd p) && on_face f (snd q)))
      face_pairs) (shared_pairs d)) (shared_pairs d).
Lemma shared_check : forallb shared_ok neighbours = true.
Proof. vm_compute. reflexivity. Qed.

Lemma shared_pairs_in d e f : e < 12 -> f < 12 -> grid_edge zero_p e = grid_edge d f ->
  In (e, f) (shared_pairs d).
Proof.
  intros. unfold shared_pairs. apply filter_In. split.
  - apply in_prod; apply in_seq; lia.
  - cbn [fst snd]. now apply geqb_eq.
Qed.

Lemma shared_face c1 c2 e1 e2 f1 f2 : c1 <> c2 -> e1 <> e2 ->
  e1 < 12 -> e2 < 12 -> f1 < 12 -> f2 < 12 ->
  grid_edge c1 e1 = grid_edge c2 f1 -> grid_edge c1 e2 = grid_edge c2 f2 ->
  exists f g d, In (f, g, d) face_pairs /\
    ((c2 = padd c1 d /\ on_face f e1 = true /\ on_face f e2 = true /\ on_face g f1 = true /\ on_face g f2 = true) \/
     (c1 = padd c2 d /\ on_face g e1 = true /\ on_face g e2 = true /\ on_face f f1 = true /\ on_face f f2 = true)).
Proof.
  intros Hc He H1 H2 H3 H4 G1 G2.
  destruct (shared_edge _ _ _ _ H1 H3 G1) as (d & Hd & Ed & E1).
  destruct (shared_edge _ _ _ _ H2 H4 G2) as (d' & _ & Ed' & E2).
  assert (d' = d) as -> by (apply (padd_cancel c1); congruence).
  pose proof shared_check as H. rewrite forallb_forall in H. specialize (H d Hd).
  unfold shared_ok in H. rewrite forallb_forall in H.
  specialize (H _ (shared_pairs_in _ _ _ H1 H3 E1)). rewrite forallb_forall in H.
  specialize (H _ (shared_pairs_in _ _ _ H2 H4 E2)). cbn [fst snd] in H.
  rewrite !orb_true_iff in H. destruct H as [[H|H]|H].
  - apply Nat.eqb_eq in H. contradiction.
  - apply peqb_eq in H. subst d. unfold zero_p in Ed. rewrite padd_0_r in Ed. congruence.
  - apply existsb_exists in H. destruct H as ([[f g] e] & Hin & H).
    exists f, g, e. split; auto. rewrite orb_true_iff, !andb_true_iff, !peqb_eq in H.
    destruct H as [[[[[-> A] B] C] D]|[[[[-> A] B] C] D]]; [left|right]; repeat split; auto.
    subst c2. rewrite padd_assoc. destruct e as [[x y] z]. cbn [opp padd].
    replace (-x + x)%Z with 0%Z by lia. replace (-y + y)%Z with 0%Z by lia. replace (-z + z)%Z with 0%Z by lia.
    now rewrite padd_0_r.
Qed.

(** Directed edges of a cell that lie on a face are segments of that face. *)
Definition dmem (d : nat * nat) (l : list (nat * nat)) : bool := existsb (deqb d) l.
Lemma deqb_eq d e : deqb d e = true <-> d = e.
Proof.
  destruct d, e. unfold deqb; cbn [fst snd]. rewrite andb_true_iff, !Nat.eqb_eq.
  split; [intros [-> ->]; auto|injection 1; auto].
Qed.
Lemma dmem_In d l : dmem d l = true <-> In d l.
Proof.
  unfold dmem. rewrite existsb_exists. split.
  - intros (y & Hy & E). apply deqb_eq in E. now subst.
  - intros H. exists d. split; auto. now apply deqb_eq.
Qed.
Fixpoint dnodup (l : list (nat * nat)) : bool :=
  match l with [] => true | d :: r => negb (dmem d r) && dnodup r end.
Lemma dnodup_ok l : dnodup l = true -> NoDup l.
Proof.
  induction l as [|d r IH]; cbn; constructor.
  - intros Hin. apply andb_true_iff in H as [H _]. apply dmem_In in Hin. now rewrite Hin in H.
  - apply IH. now apply andb_true_iff in H.
Qed.

Lemma local_check : all_patterns (fun idx =>
  dnodup (local_dirs idx) &&
  forallb (fun d => Nat.ltb (fst d) 12 && Nat.ltb (snd d) 12 && negb (Nat.eqb (fst d) (snd d)) &&
    forallb (fun f => negb (on_face f (fst d) && on_face f (snd d)) ||
                      dmem d (face_segments (Nat.testbit idx) f)) (seq 0 6)) (local_dirs idx)) = true.
Proof. vm_compute. reflexivity. Qed.

Lemma local_dirs_facts neg d : In d (local_dirs (mc_index neg)) ->
  fst d < 12 /\ snd d < 12 /\ fst d <> snd d /\
  forall f, f < 6 -> on_face f (fst d) = true -> on_face f (snd d) = true -> In d (face_segments neg f).
Proof.
  intros Hd. destruct (mc_index_bits neg) as (idx & Hlt & E & Hb). rewrite E in Hd.
  pose proof (all_patterns_ok _ local_check idx Hlt) as H. cbv beta in H.
  apply andb_true_iff in H as [_ H]. rewrite forallb_forall in H. specialize (H d Hd).
  rewrite !andb_true_iff, !Nat.ltb_lt, negb_true_iff, Nat.eqb_neq, forallb_forall in H.
  destruct H as [[[H1 H2] H3] H4]. repeat split; auto.
  intros f Hf O1 O2. assert (Hs : In f (seq 0 6)) by (apply in_seq; lia).
  specialize (H4 f Hs). rewrite O1, O2 in H4. cbn in H4. apply dmem_In in H4.
  now rewrite <- (face_segments_ext _ _ f Hb).
Qed.

Lemma local_dirs_nodup neg : NoDup (local_dirs (mc_index neg)).
Proof.
  destruct (mc_index_bits neg) as (idx & Hlt & -> & Hb).
  pose proof (all_patterns_ok _ local_check idx Hlt) as H. cbv beta in H.
  apply andb_true_iff in H as [H _]. now apply dnodup_ok.
Qed.

Lemma grid_edge_inj c e f : e < 12 -> f < 12 -> grid_edge c e = grid_edge c f -> e = f.
Proof.
  intros He Hf H. rewrite (grid_edge_0 c e), (grid_edge_0 c f) in H. fold zero_p in H.
  apply pair_equal_spec in H as [H1 H2]. apply padd_cancel in H1.
  assert (G : geqb (grid_edge zero_p e) (grid_edge zero_p f) = true)
    by (apply geqb_eq; destruct (grid_edge zero_p e), (grid_edge zero_p f); cbn in *; now subst).
  assert (C : all_edges (fun e => all_edges (fun f =>
     negb (geqb (grid_edge zero_p e) (grid_edge zero_p f)) || Nat.eqb e f)) = true) by (vm_compute; reflexivity).
  pose proof (all_edges_ok _ (all_edges_ok _ C e He) f Hf) as C'. cbv beta in C'.
  rewrite G in C'. now apply Nat.eqb_eq in C'.
Qed.

Lemma face_edge_lt f i : f < 6 -> i < 4 -> face_edge f i < 12.
Proof.
  intros Hf Hi. do 6 (destruct f as [|f]; [do 4 (destruct i as [|i]; [vm_compute; lia|]); lia|]). lia.
Qed.
Lemma face_edge_inj f i j : f < 6 -> i < 4 -> j < 4 -> face_edge f i = face_edge f j -> i = j.
Proof.
  intros Hf Hi Hj.
  do 6 (destruct f as [|f]; [do 4 (destruct i as [|i]; [do 4 (destruct j as [|j]; [cbn; lia|]); lia|]); lia|]). lia.
Qed.

Lemma rule_not_both s s' a b :
  s' 0 = s 0 -> s' 1 = s 3 -> s' 2 = s 2 -> s' 3 = s 1 -> a < 4 -> b < 4 ->
  In (3 - a, 3 - b) (face_rule s) -> In (a, b) (face_rule s') -> False.
Proof.
  intros H0 H1 H2 H3 Ha Hb. rewrite <- !dmem_In. unfold face_rule. cbn [seq flat_map].
  cbn. rewrite H0, H1, H2, H3.
  do 4 (destruct a as [|a]; [do 4 (destruct b as [|b];
    [destruct (s 0), (s 1), (s 2), (s 3); cbn; congruence|]); lia|]). lia.
Qed.

Lemma adjacent_not_both neg c d f g e1 e2 f1 f2 : In (f, g, d) face_pairs ->
  In (e1, e2) (face_segments (cell_neg neg c) f) ->
  In (f1, f2) (face_segments (cell_neg neg (padd c d)) g) ->
  grid_edge c e1 = grid_edge (padd c d) f1 -> grid_edge c e2 = grid_edge (padd c d) f2 -> False.
Proof.
  intros Hin H1 H2 G1 G2. rewrite segs_face in H1, H2. apply in_map_iff in H1, H2.
  destruct H1 as ([a b] & E & H1), H2 as ([a' b'] & E' & H2). cbn [fst snd] in *.
  injection E as <- <-. injection E' as <- <-.
  pose proof (face_rule_lt _ _ H1) as [La Lb]. pose proof (face_rule_lt _ _ H2) as [La' Lb']. cbn [fst snd] in *.
  assert (Hf : f < 6) by (cbn in Hin; destruct Hin as [H|[H|[H|[]]]]; injection H; lia).
  rewrite (face_edge_opposite f g d c _ Hin) in G1 by auto.
  rewrite (face_edge_opposite f g d c _ Hin) in G2 by auto.
  apply grid_edge_inj in G1, G2; try (apply face_edge_lt; lia).
  apply face_edge_inj in G1, G2; try lia. subst a b.
  revert H1 H2. apply rule_not_both; auto;
    apply (face_corner_opposite neg f g d c); auto; lia.
Qed.

Lemma cell_dirs_eq neg c : mesh_dirs (cell_triangles neg c) =
  map (fun d => (grid_edge c (fst d), grid_edge c (snd d))) (local_dirs (mc_index (cell_neg neg c))).
Proof. unfold cell_triangles. now rewrite mesh_dirs_map. Qed.

Lemma cells_disjoint neg c1 c2 x : c1 <> c2 ->
  In x (mesh_dirs (cell_triangles neg c1)) -> In x (mesh_dirs (cell_triangles neg c2)) -> False.
Proof.
  intros Hc H1 H2. rewrite cell_dirs_eq in H1, H2. apply in_map_iff in H1, H2.
  destruct H1 as ([e1 e2] & <- & H1), H2 as ([f1 f2] & E & H2). cbn [fst snd] in E.
  injection E as E1 E2.
  destruct (local_dirs_facts _ _ H1) as (A1 & A2 & A3 & A4).
  destruct (local_dirs_facts _ _ H2) as (B1 & B2 & B3 & B4). cbn [fst snd] in *.
  symmetry in E1, E2.
  destruct (shared_face c1 c2 e1 e2 f1 f2) as (f & g & d & Hin & HH); auto.
  assert (Hfg : f < 6 /\ g < 6) by (cbn in Hin; destruct Hin as [H|[H|[H|[]]]]; injection H; lia).
  destruct HH as [(-> & O1 & O2 & O3 & O4)|(-> & O1 & O2 & O3 & O4)].
  - apply (adjacent_not_both neg c1 d f g e1 e2 f1 f2 Hin); auto; [apply A4|apply B4]; tauto.
  - apply (adjacent_not_both neg c2 d f g f1 f2 e1 e2 Hin); auto; [apply B4|apply A4]; tauto.
Qed.

Lemma cell_dirs_nodup neg c : NoDup (mesh_dirs (cell_triangles neg c)).
Proof.
  rewrite cell_dirs_eq. pose proof (local_dirs_nodup (cell_neg neg c)) as H.
  assert (F : forall d, In d (local_dirs (mc_index (cell_neg neg c))) -> fst d < 12 /\ snd d < 12)
    by (intros d Hd; apply local_dirs_facts in Hd; tauto).
  induction H as [|d l Hn Hd IH]; cbn [map]; constructor.
  - intros Hin. apply in_map_iff in Hin. destruct Hin as ([a b] & E & Hin). apply Hn.
    pose proof (F d ltac:(now left)) as [D1 D2]. pose proof (F (a, b) ltac:(now right)) as [D3 D4].
    destruct d; cbn [fst snd] in *. injection E as E1 E2. apply grid_edge_inj in E1, E2; auto. now subst.
  - apply IH. intros; apply F; now right.
Qed.

Lemma flat_nodup {A B} (f : A -> list B) l : NoDup l -> (forall a, In a l -> NoDup (f a)) ->
  (forall a b x, In a l -> In b l -> a <> b -> In x (f a) -> In x (f b) -> False) -> NoDup (flat_map f l).
Proof.
  induction 1 as [|a l Ha Hl IH]; cbn; intros Hf Hd; [constructor|].
  assert (G : NoDup (flat_map f l)).
  { apply IH; [intros; apply Hf; auto|]. intros a0 b x H1 H2 H3 H4 H5. apply (Hd a0 b x); auto. }
  assert (D : forall x, In x (f a) -> ~ In x (flat_map f l)).
  { intros x Hx Hin. apply in_flat_map in Hin as (b & Hb & Hx'). apply (Hd a b x); auto. congruence. }
  pose proof (Hf a (or_introl eq_refl)) as N. clear - G D N.
  induction N as [|y r Hy Hr IHr]; cbn; auto. constructor.
  - rewrite in_app_iff. intros [H|H]; [auto|]. apply (D y); cbn; auto.
  - apply IHr. intros x Hx. apply D. now right.
Qed.

Lemma grid_cells_nodup nx ny nz : NoDup (grid_cells nx ny nz).
Proof.
  unfold grid_cells. apply flat_nodup.
  - apply seq_NoDup.
  - intros i _. apply flat_nodup.
    + apply seq_NoDup.
    + intros j _. apply FinFun.Injective_map_NoDup; [|apply seq_NoDup].
      intros k k' H. injection H. lia.
    + intros j j' x _ _ Hne H1 H2. apply in_map_iff in H1 as (k & <- & _), H2 as (k' & E & _).
      injection E. lia.
  - intros i i' x _ _ Hne H1 H2. apply in_flat_map in H1 as (j & _ & H1), H2 as (j' & _ & H2).
    apply in_map_iff in H1 as (k & <- & _), H2 as (k' & E & _). injection E. lia.
Qed.

Theorem grid_mesh_simple neg nx ny nz : NoDup (mesh_dirs (grid_mesh neg nx ny nz)).
Proof.
  unfold grid_mesh. rewrite mesh_dirs_flat. apply flat_nodup.
  - apply grid_cells_nodup.
  - intros c _. apply cell_dirs_nodup.
  - intros a b x _ _ Hne. now apply cells_disjoint.
Qed.
