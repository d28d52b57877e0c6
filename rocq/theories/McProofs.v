From Coq Require Import List Permutation Arith NArith ZArith Lia Bool.
From Verif Require Import Prelude McTables McModel McSpec.
Import ListNotations.

(** * Patterns *)
Lemma mc_index_bits neg : exists idx, idx < 256 /\ mc_index neg = idx /\
  forall i, i < 8 -> Nat.testbit idx i = neg i.
Proof.
  unfold mc_index. cbn [seq fold_left].
  exists (fold_left (fun acc i => if neg i then acc + 2 ^ i else acc) (seq 0 8) 0).
  cbn [seq fold_left].
  destruct (neg 0) eqn:E0, (neg 1) eqn:E1, (neg 2) eqn:E2, (neg 3) eqn:E3,
           (neg 4) eqn:E4, (neg 5) eqn:E5, (neg 6) eqn:E6, (neg 7) eqn:E7;
  (split; [vm_compute; lia|split; [reflexivity|]]);
  intros i Hi; do 8 (destruct i as [|i]; [rewrite ?E0, ?E1, ?E2, ?E3, ?E4, ?E5, ?E6, ?E7; reflexivity|]); lia.
Qed.

(** Checks a boolean property of all 256 patterns. *)
Definition all_patterns (P : nat -> bool) : bool := forallb P (seq 0 256).
Lemma all_patterns_ok P : all_patterns P = true -> forall idx, idx < 256 -> P idx = true.
Proof.
  intros H idx Hi. unfold all_patterns in H. rewrite forallb_forall in H.
  apply H. apply in_seq. lia.
Qed.

Definition all_edges (P : nat -> bool) : bool := forallb P (seq 0 12).
Lemma all_edges_ok P : all_edges P = true -> forall e, e < 12 -> P e = true.
Proof.
  intros H idx Hi. unfold all_edges in H. rewrite forallb_forall in H.
  apply H. apply in_seq. lia.
Qed.

Definition change_idx (idx e : nat) : bool :=
  let '(a, b) := edge_ends e in xorb (Nat.testbit idx a) (Nat.testbit idx b).

Lemma edge_ends_lt e : e < 12 -> fst (edge_ends e) < 8 /\ snd (edge_ends e) < 8.
Proof. intros H. do 12 (destruct e as [|e]; [cbn; lia|]). lia. Qed.

Lemma change_idx_spec neg idx e :
  (forall i, i < 8 -> Nat.testbit idx i = neg i) -> e < 12 ->
  (change_idx idx e = true <-> sign_change neg e).
Proof.
  intros Hn He. unfold change_idx, sign_change.
  pose proof (edge_ends_lt e He) as [H1 H2]. destruct (edge_ends e) as [a b]; cbn in *.
  rewrite !Hn by auto. destruct (neg a), (neg b); cbn; split; congruence.
Qed.

Definition tri_edges (t : nat * nat * nat) : list nat := let '(a, b, c) := t in [a; b; c].
Definition tris_edges idx := flat_map tri_edges (mc_edge_triangles idx).
Definition memb (x : nat) (l : list nat) : bool := existsb (Nat.eqb x) l.
Lemma memb_In x l : memb x l = true <-> In x l.
Proof.
  unfold memb. rewrite existsb_exists. split.
  - intros (y & Hy & E). apply Nat.eqb_eq in E. now subst.
  - intros H. exists x. split; auto. apply Nat.eqb_refl.
Qed.

Lemma table_edges_check : all_patterns (fun idx => all_edges (fun e =>
  Bool.eqb (mc_edge_used idx e) (change_idx idx e) &&
  Bool.eqb (memb e (tris_edges idx)) (change_idx idx e))) = true.
Proof. vm_compute. reflexivity. Qed.

Lemma table_shape_check : all_patterns (fun idx =>
  Nat.leb (length (mc_edge_triangles idx)) 5 &&
  Nat.eqb (length (nth idx mcTriangleTable []) mod 3) 0 &&
  forallb (fun '(a, b, c) => Nat.ltb a 12 && Nat.ltb b 12 && Nat.ltb c 12 &&
     negb (Nat.eqb a b) && negb (Nat.eqb b c) && negb (Nat.eqb a c)) (mc_edge_triangles idx) &&
  Bool.eqb (N.eqb (nth idx mcEdgeTable 0%N) 0) (Nat.eqb idx 0 || Nat.eqb idx 255)
  && Bool.eqb (Nat.eqb (length (mc_edge_triangles idx)) 0) (Nat.eqb idx 0 || Nat.eqb idx 255)) = true.
Proof. vm_compute. reflexivity. Qed.

(** * Cancellation of directed edges *)
Definition deqb (d e : nat * nat) : bool := Nat.eqb (fst d) (fst e) && Nat.eqb (snd d) (snd e).
Fixpoint remove_one (d : nat * nat) (l : list (nat * nat)) : option (list (nat * nat)) :=
  match l with
  | [] => None
  | x :: r => if deqb x d then Some r
              else match remove_one d r with Some r' => Some (x :: r') | None => None end
  end.
Fixpoint cancels (fuel : nat) (l : list (nat * nat)) : bool :=
  match fuel with
  | 0 => match l with [] => true | _ => false end
  | S n => match l with
           | [] => true
           | d :: r => match remove_one (swap d) r with Some r' => cancels n r' | None => false end
           end
  end.

Fixpoint dsum {V} (phi : V -> V -> Z) (l : list (V * V)) : Z :=
  match l with
  | [] => 0
  | d :: r => phi (fst d) (snd d) + dsum phi r
  end%Z.
Definition antisym {V} (phi : V -> V -> Z) : Prop := forall a b, phi b a = (- phi a b)%Z.

Lemma dsum_app {V} (phi : V -> V -> Z) a b : dsum phi (a ++ b) = (dsum phi a + dsum phi b)%Z.
Proof. induction a; cbn; rewrite ?IHa; lia. Qed.
Lemma dsum_swap {V} (phi : V -> V -> Z) l : antisym phi -> dsum phi (map swap l) = (- dsum phi l)%Z.
Proof. intros H. induction l as [|d l IHl]; cbn; auto. rewrite IHl, (H (fst d) (snd d)). lia. Qed.
Lemma dsum_map {V W} (phi : W -> W -> Z) (g : V -> W) l :
  dsum phi (map (fun d => (g (fst d), g (snd d))) l) = dsum (fun a b => phi (g a) (g b)) l.
Proof. induction l; cbn; auto. now rewrite IHl. Qed.
Lemma remove_one_sum phi d l l' : remove_one d l = Some l' ->
  dsum phi l = (phi (fst d) (snd d) + dsum phi l')%Z.
Proof.
  revert l'. induction l as [|x r IH]; cbn; intros l' H; [discriminate|].
  unfold deqb in H. destruct (Nat.eqb_spec (fst x) (fst d)) as [E1|E1], (Nat.eqb_spec (snd x) (snd d)) as [E2|E2]; cbn in H.
  1:{ injection H as <-. now rewrite E1, E2. }
  all: destruct (remove_one d r) as [r'|]; [|discriminate]; injection H as <-; cbn;
    rewrite (IH _ eq_refl); lia.
Qed.
Lemma cancels_sum phi fuel : forall l, antisym phi -> cancels fuel l = true -> dsum phi l = 0%Z.
Proof.
  induction fuel as [|n IH]; intros [|d r] Hp; cbn; auto; try discriminate.
  intros H. destruct (remove_one (swap d) r) as [r'|] eqn:E; [|discriminate].
  rewrite (remove_one_sum phi _ _ _ E), (IH r' Hp H). cbn. rewrite (Hp (fst d) (snd d)). lia.
Qed.

(** * One cell: triangles versus faces *)
Definition local_dirs (idx : nat) : list (nat * nat) := flat_map tri_dirs (mc_edge_triangles idx).
Definition all_segments (neg : nat -> bool) : list (nat * nat) :=
  flat_map (face_segments neg) (seq 0 6).

Lemma cell_cancel_check : all_patterns (fun idx =>
  cancels 64 (local_dirs idx ++ map swap (all_segments (Nat.testbit idx)))) = true.
Proof. vm_compute. reflexivity. Qed.

Lemma face_ccw_lt f i : nth i (face_ccw f) 0 < 8.
Proof.
  do 5 (destruct f as [|f]; [do 4 (destruct i as [|i]; [cbn; lia|]); cbn; destruct i; lia|]).
  do 4 (destruct i as [|i]; [cbn; lia|]); cbn; destruct i; lia.
Qed.

Lemma face_rule_ext s s' : (forall i, i < 4 -> s i = s' i) -> face_rule s = face_rule s'.
Proof.
  intros H. unfold face_rule.
  cbn -[find Nat.modulo].
  assert (Hm : forall i, s (i mod 4) = s' (i mod 4)).
  { intros i. apply H. apply Nat.mod_upper_bound. lia. }
  cbn. rewrite !H by lia. reflexivity.
Qed.

Lemma face_segments_ext neg neg' f :
  (forall i, i < 8 -> neg i = neg' i) -> face_segments neg f = face_segments neg' f.
Proof.
  intros H. unfold face_segments. f_equal. apply face_rule_ext.
  intros i _. apply H. apply face_ccw_lt.
Qed.

(** Sum over the triangles of a cell = sum over the six faces. *)
Lemma cell_faces neg phi : antisym phi ->
  dsum phi (local_dirs (mc_index neg)) = dsum phi (all_segments neg).
Proof.
  intros Hp. destruct (mc_index_bits neg) as (idx & Hlt & -> & Hb).
  pose proof (all_patterns_ok _ cell_cancel_check idx Hlt) as H. cbv beta in H.
  apply (cancels_sum phi) in H; auto.
  rewrite dsum_app, dsum_swap in H by auto.
  assert (E : all_segments (Nat.testbit idx) = all_segments neg).
  { unfold all_segments. rewrite !flat_map_concat_map. f_equal. apply map_ext.
    intros f. now apply face_segments_ext. }
  rewrite E in H. lia.
Qed.

(** * Faces of the grid *)
(** Sum over the boundary segments on the face [f] of the cell at [c]. *)
Definition face_sum (phi : gedge -> gedge -> Z) (neg : gpoint -> bool) (c : gpoint) (f : nat) : Z :=
  dsum (fun a b => phi (grid_edge c a) (grid_edge c b)) (face_segments (cell_neg neg c) f).


Definition face_edge (f i : nat) : nat :=
  edge_between (nth i (face_ccw f) 0) (nth ((i + 1) mod 4) (face_ccw f) 0).

Lemma segs_face (neg : nat -> bool) f :
  face_segments neg f =
  map (fun d => (face_edge f (fst d), face_edge f (snd d)))
      (face_rule (fun i => neg (nth i (face_ccw f) 0))).
Proof. unfold face_segments. apply map_ext. now intros [a b]. Qed.

(** A face seen from the other side: corner [i] becomes corner [4-i], edge [i]
    becomes edge [3-i]. *)
Lemma rule_opposite s s' phi : antisym phi ->
  s' 0 = s 0 -> s' 1 = s 3 -> s' 2 = s 2 -> s' 3 = s 1 ->
  (dsum phi (face_rule s) + dsum (fun a b => phi (3 - a)%nat (3 - b)%nat) (face_rule s') = 0)%Z.
Proof.
  intros Hp H0 H1 H2 H3.
  rewrite <- (dsum_map phi (fun a => (3 - a)%nat)), <- dsum_app.
  apply (cancels_sum phi 8); auto.
  unfold face_rule. cbn. rewrite H0, H1, H2, H3.
  destruct (s 0), (s 1), (s 2), (s 3); reflexivity.
Qed.

Lemma face_rule_lt s d : In d (face_rule s) -> fst d < 4 /\ snd d < 4.
Proof.
  unfold face_rule. rewrite in_flat_map. intros (i & _ & H).
  destruct (negb (s ((i + 3) mod 4)) && s i); [|easy].
  destruct (find _ _); [|easy]. destruct H as [<-|[]]. cbn [fst snd].
  split; apply Nat.mod_upper_bound; lia.
Qed.

Lemma dsum_ext {V} (phi psi : V -> V -> Z) l :
  (forall d, In d l -> phi (fst d) (snd d) = psi (fst d) (snd d)) -> dsum phi l = dsum psi l.
Proof. induction l as [|d l IH]; cbn; intros H; auto. rewrite H, IH; auto. Qed.

Definition face_pairs : list (nat * nat * gpoint) :=
  [(1, 0, (1, 0, 0)%Z); (3, 2, (0, 1, 0)%Z); (5, 4, (0, 0, 1)%Z)].

Lemma padd_assoc c d e : padd (padd c d) e = padd c (padd d e).
Proof. destruct c as [[? ?] ?], d as [[? ?] ?], e as [[? ?] ?]; cbn. f_equal; [f_equal|]; lia. Qed.

Lemma grid_edge_padd c d e : grid_edge (padd c d) e = (padd c (fst (grid_edge d e)), snd (grid_edge d e)).
Proof. unfold grid_edge. destruct (edge_ends e). cbn [fst snd]. now rewrite padd_assoc. Qed.

Lemma padd_0_r c : padd c (0, 0, 0)%Z = c.
Proof. destruct c as [[? ?] ?]; cbn. f_equal; [f_equal|]; lia. Qed.

Lemma grid_edge_0 c e : grid_edge c e = (padd c (fst (grid_edge (0,0,0)%Z e)), snd (grid_edge (0,0,0)%Z e)).
Proof. rewrite <- grid_edge_padd. now rewrite padd_0_r. Qed.

Lemma face_edge_opposite f g d c i : In (f, g, d) face_pairs -> i < 4 ->
  grid_edge (padd c d) (face_edge g i) = grid_edge c (face_edge f (3 - i)).
Proof.
  intros Hin Hi. rewrite grid_edge_padd, (grid_edge_0 c).
  assert (E : grid_edge d (face_edge g i) = grid_edge (0,0,0)%Z (face_edge f (3 - i))).
  { cbn in Hin. destruct Hin as [H|[H|[H|[]]]]; injection H as <- <- <-;
    do 4 (destruct i as [|i]; [reflexivity|]); lia. }
  now rewrite E.
Qed.

Lemma face_corner_opposite neg f g d c i : In (f, g, d) face_pairs -> i < 4 ->
  cell_neg neg (padd c d) (nth i (face_ccw g) 0) =
  cell_neg neg c (nth ((4 - i) mod 4) (face_ccw f) 0).
Proof.
  intros Hin Hi. unfold cell_neg. f_equal. rewrite padd_assoc. f_equal.
  cbn in Hin. destruct Hin as [H|[H|[H|[]]]]; injection H as <- <- <-;
    do 4 (destruct i as [|i]; [reflexivity|]); lia.
Qed.

Lemma opposite_faces phi neg c d f g : antisym phi -> In (f, g, d) face_pairs ->
  (face_sum phi neg c f = - face_sum phi neg (padd c d) g)%Z.
Proof.
  intros Hp Hin. unfold face_sum. rewrite !segs_face.
  rewrite !(dsum_map (fun a b : nat => phi (grid_edge _ a) (grid_edge _ b))).
  set (s := fun i => cell_neg neg c _).
  set (s' := fun i => cell_neg neg (padd c d) _).
  rewrite (dsum_ext (fun a b => phi (grid_edge (padd c d) (face_edge g a)) _)
     (fun a b => phi (grid_edge c (face_edge f (3 - a))) (grid_edge c (face_edge f (3 - b))))
     (face_rule s')).
  2:{ intros e He. apply face_rule_lt in He. now rewrite !(face_edge_opposite f g d c _ Hin) by tauto. }
  pose proof (rule_opposite s s' (fun a b => phi (grid_edge c (face_edge f a)) (grid_edge c (face_edge f b)))) as H.
  cbv beta in H.
  assert (Hc : forall i, i < 4 -> s' i = s ((4 - i) mod 4)).
  { intros i Hi. apply (face_corner_opposite neg f g d c i Hin Hi). }
  specialize (H ltac:(intros a b; apply Hp) (Hc 0 ltac:(lia)) (Hc 1 ltac:(lia)) (Hc 2 ltac:(lia)) (Hc 3 ltac:(lia))).
  lia.
Qed.

(** * Telescoping *)
Definition xface phi neg c := face_sum phi neg c 0.
Definition yface phi neg c := face_sum phi neg c 2.
Definition zface phi neg c := face_sum phi neg c 4.

Lemma mesh_dirs_map {V W} (h : V -> W) l :
  mesh_dirs (map (fun '(x, y, z) => (h x, h y, h z)) l) =
  map (fun d => (h (fst d), h (snd d))) (flat_map tri_dirs l).
Proof.
  unfold mesh_dirs. induction l as [|[[x y] z] l IH]; cbn; auto. now rewrite IH.
Qed.

Lemma mesh_dirs_app {V} (a b : list (V * V * V)) : mesh_dirs (a ++ b) = mesh_dirs a ++ mesh_dirs b.
Proof. apply flat_map_app. Qed.

Lemma cell_sum phi neg c : antisym phi ->
  dsum phi (mesh_dirs (cell_triangles neg c)) =
  (xface phi neg c - xface phi neg (padd c (1, 0, 0)) +
   (yface phi neg c - yface phi neg (padd c (0, 1, 0))) +
   (zface phi neg c - zface phi neg (padd c (0, 0, 1))))%Z.
Proof.
  intros Hp. unfold cell_triangles. rewrite mesh_dirs_map, dsum_map.
  pose proof (cell_faces (cell_neg neg c) (fun a b => phi (grid_edge c a) (grid_edge c b))) as H.
  unfold local_dirs in H. rewrite H by (intros a b; apply Hp). clear H.
  unfold all_segments. cbn [seq flat_map]. rewrite !dsum_app. cbn [dsum].
  change (dsum _ (face_segments _ ?f)) with (face_sum phi neg c f).
  rewrite (opposite_faces phi neg c (1,0,0)%Z 1 0) by (cbn; auto).
  rewrite (opposite_faces phi neg c (0,1,0)%Z 3 2) by (cbn; auto).
  rewrite (opposite_faces phi neg c (0,0,1)%Z 5 4) by (cbn; auto).
  unfold xface, yface, zface. lia.
Qed.

Fixpoint nsum (n : nat) (f : nat -> Z) : Z :=
  match n with 0 => 0%Z | S m => (nsum m f + f m)%Z end.
Lemma nsum_ext n f g : (forall i, i < n -> f i = g i) -> nsum n f = nsum n g.
Proof. induction n; cbn; intros H; auto. rewrite IHn, H; auto. Qed.
Lemma nsum_plus n f g : nsum n (fun i => f i + g i)%Z = (nsum n f + nsum n g)%Z.
Proof. induction n; cbn; lia. Qed.
Lemma nsum_minus n f g : nsum n (fun i => f i - g i)%Z = (nsum n f - nsum n g)%Z.
Proof. induction n; cbn; lia. Qed.
Lemma nsum_tele n f : nsum n (fun i => f i - f (S i))%Z = (f 0%nat - f n)%Z.
Proof. induction n; cbn -[Z.sub]; lia. Qed.
Lemma nsum_0 n : nsum n (fun _ => 0%Z) = 0%Z.
Proof. induction n; cbn; lia. Qed.
Lemma nsum_swap n m f : nsum n (fun i => nsum m (fun j => f i j)) = nsum m (fun j => nsum n (fun i => f i j)).
Proof. induction n; cbn; [now rewrite nsum_0|]. rewrite IHn, <- nsum_plus. now apply nsum_ext. Qed.

Lemma dsum_flat_seq {A} (phi : gedge -> gedge -> Z) n (F : nat -> list A) (G : A -> list (gedge * gedge)) :
  dsum phi (flat_map G (flat_map F (seq 0 n))) = nsum n (fun i => dsum phi (flat_map G (F i))).
Proof.
  induction n as [|n IH]; auto.
  rewrite seq_S, flat_map_app, flat_map_app, dsum_app, IH. cbn. now rewrite app_nil_r.
Qed.

Lemma flat_map_map_1 {A B} (f : A -> B) l : map f l = flat_map (fun a => [f a]) l.
Proof. induction l; cbn; congruence. Qed.

Definition gp (i j k : nat) : gpoint := (Z.of_nat i, Z.of_nat j, Z.of_nat k).

Lemma mesh_dirs_flat neg l :
  mesh_dirs (flat_map (cell_triangles neg) l) = flat_map (fun c => mesh_dirs (cell_triangles neg c)) l.
Proof. induction l as [|c l IH]; cbn [flat_map]; [reflexivity|]. now rewrite mesh_dirs_app, IH. Qed.

Lemma grid_sum phi neg nx ny nz :
  dsum phi (mesh_dirs (grid_mesh neg nx ny nz)) =
  nsum nx (fun i => nsum ny (fun j => nsum nz (fun k => dsum phi (mesh_dirs (cell_triangles neg (gp i j k)))))).
Proof.
  unfold grid_mesh. rewrite mesh_dirs_flat. unfold grid_cells.
  rewrite dsum_flat_seq. apply nsum_ext. intros i _.
  rewrite dsum_flat_seq. apply nsum_ext. intros j _.
  rewrite flat_map_map_1, dsum_flat_seq. apply nsum_ext. intros k _.
  cbn. now rewrite app_nil_r.
Qed.

Lemma face_sum_zero phi neg c f :
  (forall i, i < 4 -> cell_neg neg c (nth i (face_ccw f) 0) = false) -> face_sum phi neg c f = 0%Z.
Proof.
  intros H. unfold face_sum. rewrite segs_face.
  assert (E : face_rule (fun i => cell_neg neg c (nth i (face_ccw f) 0)) = face_rule (fun _ => false))
    by now apply face_rule_ext.
  rewrite E. reflexivity.
Qed.

Lemma gp_x i j k : padd (gp i j k) (1, 0, 0)%Z = gp (S i) j k.
Proof. unfold gp, padd. f_equal; [f_equal|]; lia. Qed.
Lemma gp_y i j k : padd (gp i j k) (0, 1, 0)%Z = gp i (S j) k.
Proof. unfold gp, padd. f_equal; [f_equal|]; lia. Qed.
Lemma gp_z i j k : padd (gp i j k) (0, 0, 1)%Z = gp i j (S k).
Proof. unfold gp, padd. f_equal; [f_equal|]; lia. Qed.

Lemma grid_sum_zero phi neg nx ny nz : antisym phi -> boundary_nonneg neg nx ny nz ->
  dsum phi (mesh_dirs (grid_mesh neg nx ny nz)) = 0%Z.
Proof.
  intros Hp Hb. rewrite grid_sum.
  rewrite (nsum_ext nx _ (fun i => nsum ny (fun j => nsum nz (fun k =>
     xface phi neg (gp i j k) - xface phi neg (gp (S i) j k) +
     ((yface phi neg (gp i j k) - yface phi neg (gp i (S j) k)) +
     (zface phi neg (gp i j k) - zface phi neg (gp i j (S k)))))%Z))).
  2:{ intros i _. apply nsum_ext; intros j _. apply nsum_ext; intros k _.
      rewrite cell_sum by auto. rewrite gp_x, gp_y, gp_z. lia. }
  assert (Hx : nsum nx (fun i => nsum ny (fun j => nsum nz (fun k =>
     xface phi neg (gp i j k) - xface phi neg (gp (S i) j k))%Z)) = 0%Z).
  { rewrite nsum_swap. rewrite (nsum_ext ny _ (fun _ => 0%Z)); [apply nsum_0|]. intros j Hj.
    rewrite nsum_swap. rewrite (nsum_ext nz _ (fun _ => 0%Z)); [apply nsum_0|]. intros k Hk.
    rewrite (nsum_tele nx (fun i => xface phi neg (gp i j k))).
    unfold xface. rewrite !face_sum_zero; auto.
    all: intros i Hi; unfold cell_neg, gp; do 4 (destruct i as [|i]; [cbn; apply Hb; lia|]); lia. }
  assert (Hy : nsum nx (fun i => nsum ny (fun j => nsum nz (fun k =>
     yface phi neg (gp i j k) - yface phi neg (gp i (S j) k))%Z)) = 0%Z).
  { rewrite (nsum_ext nx _ (fun _ => 0%Z)); [apply nsum_0|]. intros i Hi.
    rewrite nsum_swap. rewrite (nsum_ext nz _ (fun _ => 0%Z)); [apply nsum_0|]. intros k Hk.
    rewrite (nsum_tele ny (fun j => yface phi neg (gp i j k))).
    unfold yface. rewrite !face_sum_zero; auto.
    all: intros l Hl; unfold cell_neg, gp; do 4 (destruct l as [|l]; [cbn; apply Hb; lia|]); lia. }
  assert (Hz : nsum nx (fun i => nsum ny (fun j => nsum nz (fun k =>
     zface phi neg (gp i j k) - zface phi neg (gp i j (S k)))%Z)) = 0%Z).
  { rewrite (nsum_ext nx _ (fun _ => 0%Z)); [apply nsum_0|]. intros i Hi.
    rewrite (nsum_ext ny _ (fun _ => 0%Z)); [apply nsum_0|]. intros j Hj.
    rewrite (nsum_tele nz (fun k => zface phi neg (gp i j k))).
    unfold zface. rewrite !face_sum_zero; auto.
    all: intros l Hl; unfold cell_neg, gp; do 4 (destruct l as [|l]; [cbn; apply Hb; lia|]); lia. }
  match type of Hx with ?A = _ => match type of Hy with ?B = _ => match type of Hz with ?C = _ =>
    transitivity (A + (B + C))%Z; [|rewrite Hx, Hy, Hz; reflexivity] end end end.
  clear Hx Hy Hz.
  rewrite <- !nsum_plus. apply nsum_ext; intros i _.
  rewrite <- !nsum_plus. apply nsum_ext; intros j _.
  rewrite <- !nsum_plus. apply nsum_ext; intros k _. reflexivity.
Qed.

(** * From sums to permutations *)
Definition gedge_eq_dec : forall a b : gedge, {a = b} + {a <> b}.
Proof. repeat decide equality. Defined.
Definition gdir_eq_dec : forall a b : gedge * gedge, {a = b} + {a <> b}.
Proof. decide equality; apply gedge_eq_dec. Defined.

Lemma count_swap u v (l : list (gedge * gedge)) :
  count_occ gdir_eq_dec (map swap l) (u, v) = count_occ gdir_eq_dec l (v, u).
Proof.
  induction l as [|[a b] l IH]; cbn [map count_occ]; auto. unfold swap at 1; cbn [fst snd].
  destruct (gdir_eq_dec (b, a) (u, v)) as [E|E], (gdir_eq_dec (a, b) (v, u)) as [E'|E']; try congruence.
Qed.

Definition phi_uv (u v a b : gedge) : Z :=
  ((if gdir_eq_dec (a, b) (u, v) then 1 else 0) - (if gdir_eq_dec (a, b) (v, u) then 1 else 0))%Z.

Lemma phi_uv_antisym u v : antisym (phi_uv u v).
Proof.
  intros a b. unfold phi_uv.
  destruct (gdir_eq_dec (b, a) (u, v)), (gdir_eq_dec (b, a) (v, u)),
           (gdir_eq_dec (a, b) (u, v)), (gdir_eq_dec (a, b) (v, u)); try congruence; lia.
Qed.

Lemma dsum_count u v l :
  dsum (phi_uv u v) l = (Z.of_nat (count_occ gdir_eq_dec l (u, v)) - Z.of_nat (count_occ gdir_eq_dec l (v, u)))%Z.
Proof.
  induction l as [|[a b] l IH]; cbn [dsum count_occ fst snd]; auto.
  rewrite IH. unfold phi_uv.
  destruct (gdir_eq_dec (a, b) (u, v)), (gdir_eq_dec (a, b) (v, u)); lia.
Qed.

Lemma sums_closed (m : list (gedge * gedge * gedge)) :
  (forall phi, antisym phi -> dsum phi (mesh_dirs m) = 0%Z) -> closed m.
Proof.
  intros H. unfold closed. apply (Permutation_count_occ gdir_eq_dec). intros [u v].
  rewrite count_swap. specialize (H _ (phi_uv_antisym u v)). rewrite dsum_count in H. lia.
Qed.

Theorem grid_mesh_closed neg nx ny nz :
  boundary_nonneg neg nx ny nz -> closed (grid_mesh neg nx ny nz).
Proof. intros H. apply sums_closed. intros phi Hp. now apply grid_sum_zero. Qed.
