(** C83: the pseudo normals of ImportModelV2: the walk around each vertex. *)
From Coq Require Import Reals Lra Lia List Bool Arith ZArith Permutation.
From Verif Require Import Prelude Vec BoxModel SdfModel MatrixModel PropsUtil BihModel PropsTri PropsBih PropsBihSign ImportModel PropsImport PseudoModel.
Import ListNotations.
Local Open Scope R_scope.

(** ** The map from directed sides to triangles *)
Definition dir_sides (t : tri) : list (nat * nat) := [(tcorn t 0, tcorn t 1); (tcorn t 1, tcorn t 2); (tcorn t 2, tcorn t 0)].
Definition distinct (t : tri) : Prop := tcorn t 0 <> tcorn t 1 /\ tcorn t 1 <> tcorn t 2 /\ tcorn t 2 <> tcorn t 0.
Definition has_vertex (t : tri) (v : nat) : Prop := tcorn t 0 = v \/ tcorn t 1 = v \/ tcorn t 2 = v.

Lemma adj_hit e' i r e : adj_get ((e', i) :: r) e = if ((fst e' =? fst e) && (snd e' =? snd e))%nat then Some i else adj_get r e.
Proof. reflexivity. Qed.
Lemma pair_eqb (a b : nat * nat) : ((fst a =? fst b) && (snd a =? snd b))%nat = true <-> a = b.
Proof. destruct a as [a a'], b as [b b']. cbn. rewrite andb_true_iff, !Nat.eqb_eq. split; [intros (-> & ->); reflexivity|intros E; now injection E]. Qed.
Lemma adj_from_some l : forall m i e n, adj_get (adj_from m i l) e = Some n ->
  (exists t, nth_error l (n - i) = Some t /\ (i <= n)%nat /\ In e (dir_sides t)) \/ adj_get m e = Some n.
Proof.
  induction l as [|t l IH]; intros m i e n H; [now right|]. cbn [adj_from] in H. destruct (IH _ _ _ _ H) as [(t' & N & L & I)|G].
  - left. exists t'. replace (n - i)%nat with (S (n - S i)) by lia. repeat split; [exact N|lia|exact I].
  - unfold adj_add in G. rewrite !adj_hit in G.
    destruct (_ && _) eqn:E1 in G; [apply pair_eqb in E1; injection G as <-; left; exists t; rewrite Nat.sub_diag; repeat split; [lia|cbn; auto]|].
    destruct (_ && _) eqn:E2 in G; [apply pair_eqb in E2; injection G as <-; left; exists t; rewrite Nat.sub_diag; repeat split; [lia|cbn; auto]|].
    destruct (_ && _) eqn:E3 in G; [apply pair_eqb in E3; injection G as <-; left; exists t; rewrite Nat.sub_diag; repeat split; [lia|cbn; auto]|]. now right.
Qed.
Lemma adj_from_none l : forall m i e, adj_get (adj_from m i l) e = None -> adj_get m e = None /\ forall t, In t l -> ~ In e (dir_sides t).
Proof.
  induction l as [|t l IH]; intros m i e H; [split; [exact H|intros t []]|]. cbn [adj_from] in H. destruct (IH _ _ _ H) as (G & N). unfold adj_add in G. rewrite !adj_hit in G.
  destruct (_ && _) eqn:E1 in G; [discriminate|]. destruct (_ && _) eqn:E2 in G; [discriminate|]. destruct (_ && _) eqn:E3 in G; [discriminate|]. split; [exact G|].
  intros t' [<-|I]; [|now apply N]. intros [D|[D|[D|[]]]]; apply pair_eqb in D; congruence.
Qed.
Lemma adjacency_some mesh e n : adj_get (adjacency mesh) e = Some n -> exists t, nth_error mesh n = Some t /\ In e (dir_sides t).
Proof. intros H. destruct (adj_from_some _ _ _ _ _ H) as [(t & N & _ & I)|G]; [|discriminate]. rewrite Nat.sub_0_r in N. eauto. Qed.
Lemma adjacency_none mesh e n t : adj_get (adjacency mesh) e = None -> nth_error mesh n = Some t -> ~ In e (dir_sides t).
Proof. intros H N. apply (proj2 (adj_from_none _ _ _ _ H)). now apply nth_error_In in N. Qed.

(** ** Triangles with different corners *)
Definition after (t : tri) (v : nat) : nat :=
  if (tcorn t 0 =? v)%nat then tcorn t 1 else if (tcorn t 1 =? v)%nat then tcorn t 2 else tcorn t 0.
Lemma after_side t v : has_vertex t v -> In (v, after t v) (dir_sides t).
Proof.
  unfold has_vertex, after, dir_sides. intros H. destruct (Nat.eqb_spec (tcorn t 0) v) as [<-|A]; [now left|]. destruct (Nat.eqb_spec (tcorn t 1) v) as [<-|B]; [right; now left|].
  destruct H as [H|[H|H]]; try contradiction. subst v. right; right; now left.
Qed.
Lemma side_vertex t u v : In (u, v) (dir_sides t) -> has_vertex t u /\ has_vertex t v.
Proof. unfold has_vertex. intros [E|[E|[E|[]]]]; injection E as <- <-; auto. Qed.
Lemma side_into t u u' v : distinct t -> In (u, v) (dir_sides t) -> In (u', v) (dir_sides t) -> u = u'.
Proof.
  unfold distinct. intros (D1 & D2 & D3) [E|[E|[E|[]]]] [F|[F|[F|[]]]]; injection E; injection F; congruence.
Qed.
Lemma side_next t u v : distinct t -> In (u, v) (dir_sides t) -> exists a b, last_corner t v = Some a /\ last_corner t u = Some b /\ third_corner t a b = Ok (after t v).
Proof.
  unfold distinct, last_corner, after. intros (D1 & D2 & D3) [E|[E|[E|[]]]]; injection E as <- <-; rewrite ?Nat.eqb_refl;
  repeat match goal with |- context [(?x =? ?y)%nat] => destruct (Nat.eqb_spec x y); try congruence end; eexists; eexists; repeat split.
Qed.
(** The angle and the weighted normal of a triangle at one of its vertices. *)
Definition angle3 (a b c : v3) : R := acos (dot3 (sub3 b a) (sub3 c a) / (norm3 (sub3 b a) * norm3 (sub3 c a))).
Definition before (t : tri) (v : nat) : nat := after t (after t v).
Definition angle_at (vs : list v3) (t : tri) (v : nat) : R := angle3 (vt vs v) (vt vs (after t v)) (vt vs (before t v)).
Definition unit_normal_of (vs : list v3) (t : tri) : v3 :=
  let n := cross3 (sub3 (tri_b vs t) (tri_a vs t)) (sub3 (tri_c vs t) (tri_a vs t)) in scale3 (1 / norm3 n) n.
Definition weighted (vs : list v3) (t : tri) (v : nat) : v3 := scale3 (angle_at vs t v) (unit_normal_of vs t).
Lemma calc_ok vs t v : distinct t -> has_vertex t v -> calc_alpha_wnormal t v vs = Ok (angle_at vs t v, weighted vs t v).
Proof.
  unfold distinct, has_vertex. intros (D1 & D2 & D3) H. unfold calc_alpha_wnormal, first_corner, weighted, angle_at, angle3, before, after, unit_normal_of. destruct t as [[i j] k]. cbn [tcorn tri_a tri_b tri_c] in *.
  destruct (Nat.eqb_spec i v) as [<-|A].
  - destruct (Nat.eqb_spec i j) as [E|_]; [congruence|]. rewrite Nat.eqb_refl. cbn [next_j Nat.sub tcorn]. reflexivity.
  - destruct (Nat.eqb_spec j v) as [<-|B].
    + destruct (Nat.eqb_spec i k) as [E|_]; [congruence|]. destruct (Nat.eqb_spec j k) as [E|_]; [congruence|]. cbn [next_j Nat.sub tcorn]. do 2 f_equal. unfold unit3.
      assert (X : cross3 (sub3 (vt vs k) (vt vs j)) (sub3 (vt vs i) (vt vs j)) = cross3 (sub3 (vt vs j) (vt vs i)) (sub3 (vt vs k) (vt vs i))) by (unfold cross3, sub3; cbn; f_equal; ring). now rewrite X.
    + assert (v = k) by (destruct H as [H|[H|H]]; congruence). subst v. rewrite Nat.eqb_refl. cbn [next_j Nat.sub tcorn]. rewrite Nat.eqb_refl. do 2 f_equal. unfold unit3.
      assert (X : cross3 (sub3 (vt vs i) (vt vs k)) (sub3 (vt vs j) (vt vs k)) = cross3 (sub3 (vt vs j) (vt vs i)) (sub3 (vt vs k) (vt vs i))) by (unfold cross3, sub3; cbn; f_equal; ring). now rewrite X.
Qed.

(** ** The walk *)
Definition tri_at (mesh : list tri) (n : nat) : tri := nth n mesh (0, 0, 0)%nat.
Definition at_vertex (mesh : list tri) (v n : nat) : Prop := (n < length mesh)%nat /\ has_vertex (tri_at mesh n) v.
(** Triangle [n'] lies across the side of triangle [n] that leaves [v]. *)
Definition across (mesh : list tri) (v n n' : nat) : Prop :=
  at_vertex mesh v n /\ at_vertex mesh v n' /\ exists u, In (v, u) (dir_sides (tri_at mesh n)) /\ In (u, v) (dir_sides (tri_at mesh n')).
Definition oriented (mesh : list tri) : Prop :=
  Forall distinct mesh /\ forall n n' e, (n < length mesh)%nat -> (n' < length mesh)%nat -> In e (dir_sides (tri_at mesh n)) -> In e (dir_sides (tri_at mesh n')) -> n = n'.
(** The triangles visited from [i], latest first: [n] now, [l] before. *)
Inductive walk (mesh : list tri) (v i : nat) : nat -> list nat -> Prop :=
| walk_start : at_vertex mesh v i -> walk mesh v i i []
| walk_step n n' l : walk mesh v i n l -> across mesh v n n' -> n' <> i -> walk mesh v i n' (n :: l).

Lemma tri_at_error mesh n t : nth_error mesh n = Some t -> tri_at mesh n = t /\ (n < length mesh)%nat.
Proof. intros H. split; [now apply nth_error_nth|]. apply nth_error_Some. congruence. Qed.
Lemma tri_at_distinct mesh n : oriented mesh -> (n < length mesh)%nat -> distinct (tri_at mesh n).
Proof. intros (D & _) L. rewrite Forall_forall in D. apply D. now apply nth_In. Qed.
Lemma after_unique t v u : distinct t -> In (v, u) (dir_sides t) -> u = after t v.
Proof.
  unfold distinct, after. intros (D1 & D2 & D3) [E|[E|[E|[]]]]; injection E as <- <-; rewrite ?Nat.eqb_refl; repeat match goal with |- context [(?x =? ?y)%nat] => destruct (Nat.eqb_spec x y); try congruence end; try reflexivity.
Qed.
Lemma across_adj mesh v n : oriented mesh -> at_vertex mesh v n ->
  match adj_get (adjacency mesh) (after (tri_at mesh n) v, v) with
  | Some n' => across mesh v n n'
  | None => forall n', ~ across mesh v n n'
  end.
Proof.
  intros O (L & V). destruct (adj_get _ _) as [n'|] eqn:G.
  - apply adjacency_some in G. destruct G as (t & N & I). destruct (tri_at_error _ _ _ N) as (E & L'). split; [now split|]. split.
    + split; [exact L'|]. rewrite E. now apply side_vertex in I.
    + exists (after (tri_at mesh n) v). split; [now apply after_side|]. rewrite E. exact I.
  - intros n' (_ & (L' & _) & u & U1 & U2). rewrite (after_unique _ _ _ (tri_at_distinct _ _ O L) U1) in U2. apply (adjacency_none _ _ n' (tri_at mesh n') G); [now apply nth_error_nth'|exact U2].
Qed.
Lemma across_fun mesh v n a b : oriented mesh -> across mesh v n a -> across mesh v n b -> a = b.
Proof.
  intros O ((L & _) & (La & _) & u & U1 & U2) (_ & (Lb & _) & u' & U1' & U2'). pose proof (tri_at_distinct _ _ O L) as D. rewrite (after_unique _ _ _ D U1) in U2. rewrite (after_unique _ _ _ D U1') in U2'. now apply (proj2 O a b (after (tri_at mesh n) v, v)).
Qed.
Lemma across_inj mesh v a b n : oriented mesh -> across mesh v a n -> across mesh v b n -> a = b.
Proof.
  intros O ((La & _) & (L & _) & u & U1 & U2) ((Lb & _) & _ & u' & U1' & U2'). rewrite (side_into _ _ _ _ (tri_at_distinct _ _ O L) U2 U2') in U1. now apply (proj2 O a b (v, u')).
Qed.
Lemma walk_at mesh v i n l : walk mesh v i n l -> forall m, In m (n :: l) -> at_vertex mesh v m.
Proof.
  induction 1 as [A|n n' l W IH A D]; intros m; [intros [<-|[]]; exact A|]. intros [<-|I]; [apply A|now apply IH].
Qed.
Lemma walk_pred mesh v i n l : walk mesh v i n l -> forall m, In m (n :: l) -> m <> i -> exists p, In p l /\ across mesh v p m.
Proof.
  induction 1 as [A|n n' l W IH A D]; intros m I NI.
  - destruct I as [<-|[]]. congruence.
  - destruct I as [<-|I]; [exists n; split; [now left|exact A]|]. destruct (IH m I NI) as (p & P & X). exists p. split; [now right|exact X].
Qed.
Lemma walk_nodup mesh v i n l : oriented mesh -> walk mesh v i n l -> NoDup (n :: l).
Proof.
  intros O. induction 1 as [A|n n' l W IH A D]; [repeat constructor; intros []|]. constructor; [|exact IH].
  intros I. destruct (walk_pred _ _ _ _ _ W n' I D) as (p & P & X). rewrite (across_inj _ _ _ _ _ O X A) in P. inversion IH. contradiction.
Qed.
Lemma walk_short mesh v i n l : oriented mesh -> walk mesh v i n l -> (length l < length mesh)%nat.
Proof.
  intros O W. assert (H : (length (n :: l) <= length (seq 0 (length mesh)))%nat).
  { apply NoDup_incl_length; [now apply (walk_nodup mesh v i)|]. intros m I. apply in_seq. destruct (walk_at _ _ _ _ _ W m I). lia. }
  rewrite seq_length in H. cbn in H. lia.
Qed.
Lemma walk_last mesh v i n l : walk mesh v i n l -> In i (n :: l).
Proof. induction 1; [now left|now right]. Qed.

Definition total (vs : list v3) (mesh : list tri) (v : nat) (l : list nat) : v3 := fold_right (fun n s => add3 s (weighted vs (tri_at mesh n) v)) zero3 l.
Definition walk_ends (mesh : list tri) (v i n : nat) : Prop := across mesh v n i \/ forall n', ~ across mesh v n n'.
Lemma add3_zero_l a : add3 zero3 a = a.
Proof. destruct a. unfold add3, zero3. cbn. f_equal; ring. Qed.
Lemma fan_ok vs mesh v i : oriented mesh -> forall fuel n l, walk mesh v i n l -> (length mesh <= fuel + length l + 1)%nat ->
  exists n' l', walk mesh v i n' l' /\ walk_ends mesh v i n' /\
    fan fuel vs mesh (adjacency mesh) i v (after (tri_at mesh n) v) (adj_get (adjacency mesh) (after (tri_at mesh n) v, v)) (angle_at vs (tri_at mesh n) v, total vs mesh v (n :: l))
      = Some (Ok (angle_at vs (tri_at mesh n') v, total vs mesh v (n' :: l'))).
Proof.
  intros O. induction fuel as [|f IH]; intros n l W F.
  - pose proof (walk_at _ _ _ _ _ W n (or_introl eq_refl)) as A. pose proof (across_adj _ _ _ O A) as X. destruct (adj_get _ _) as [n'|] eqn:G.
    + destruct (Nat.eq_dec n' i) as [->|D].
      * exists n, l. split; [exact W|]. split; [now left|]. cbn [fan]. now rewrite Nat.eqb_refl.
      * exfalso. pose proof (walk_short _ _ _ _ _ O (walk_step _ _ _ _ _ _ W X D)). cbn in H. lia.
    + exists n, l. split; [exact W|]. split; [now right|]. reflexivity.
  - pose proof (walk_at _ _ _ _ _ W n (or_introl eq_refl)) as A. pose proof (across_adj _ _ _ O A) as X. destruct (adj_get _ _) as [n'|] eqn:G.
    + destruct (Nat.eq_dec n' i) as [->|D].
      * exists n, l. split; [exact W|]. split; [now left|]. cbn [fan]. now rewrite Nat.eqb_refl.
      * pose proof (walk_step _ _ _ _ _ _ W X D) as W'. destruct (IH n' (n :: l) W') as (m & l' & WM & E & FE); [cbn; lia|]. exists m, l'. split; [exact WM|]. split; [exact E|].
        cbn [fan]. rewrite (proj2 (Nat.eqb_neq _ _) D). fold (tri_at mesh n'). destruct X as (_ & (L' & V') & u & U1 & U2). pose proof (tri_at_distinct _ _ O L') as DT.
        rewrite (calc_ok vs _ _ DT V'). rewrite (after_unique _ _ _ (tri_at_distinct _ _ O (proj1 A)) U1) in U2. destruct (side_next _ _ _ DT U2) as (a & b & -> & -> & ->). exact FE.
    + exists n, l. split; [exact W|]. split; [now right|]. reflexivity.
Qed.

(** ** The pass over all vertices *)
(** The normal that is stored: the walk around the vertex from some triangle, as far as it gets. *)
Definition walked_normal (vs : list v3) (mesh : list tri) (v : nat) (r : v3) : Prop :=
  exists i n l, walk mesh v i n l /\ walk_ends mesh v i n /\ r = scale3 (1 / angle_at vs (tri_at mesh n) v) (total vs mesh v (n :: l)).
Lemma tcorn_has t j : has_vertex t (tcorn t j).
Proof. unfold has_vertex. destruct t as [[a b] c]. destruct j as [|[|j]]; cbn; auto. Qed.
Lemma tcorn_after t j : distinct t -> (j < 3)%nat -> after t (tcorn t j) = tcorn t (next_j j).
Proof.
  unfold distinct, after. intros (D1 & D2 & D3) J. destruct j as [|[|[|j]]]; [| | |lia]; cbn [next_j]; rewrite ?Nat.eqb_refl; repeat match goal with |- context [(?x =? ?y)%nat] => destruct (Nat.eqb_spec x y); try congruence end; try reflexivity.
Qed.
Lemma set_nth_nth {A} (l : list A) i x d : (i < length l)%nat -> nth i (set_nth l i x) d = x.
Proof. intros L. apply nth_error_nth. now apply set_nth_same. Qed.
Lemma set_nth_nth_other {A} (l : list A) i j x d : i <> j -> nth j (set_nth l i x) d = nth j l d.
Proof. intros D. destruct (nth_error l j) eqn:E. - rewrite (nth_error_nth _ _ _ E). apply nth_error_nth. now rewrite set_nth_other. - rewrite !nth_overflow; [reflexivity| |]; [|rewrite set_nth_length]; now apply nth_error_None. Qed.
Lemma pass_ok vs mesh fuel : oriented mesh -> (length mesh <= fuel + 1)%nat -> (forall n, (n < length mesh)%nat -> forall j, (tcorn (tri_at mesh n) j < length vs)%nat) ->
  forall work ns, length ns = length vs -> (forall i j, In (i, j) work -> (i < length mesh)%nat /\ (j < 3)%nat) ->
  exists ns', vertex_pass fuel vs mesh (adjacency mesh) work ns = Some (Ok ns') /\ length ns' = length vs /\
    (forall v, nth v ns' zero3 = nth v ns zero3 \/ walked_normal vs mesh v (nth v ns' zero3)) /\
    (forall i j, In (i, j) work -> nth (tcorn (tri_at mesh i) j) ns zero3 = zero3 -> walked_normal vs mesh (tcorn (tri_at mesh i) j) (nth (tcorn (tri_at mesh i) j) ns' zero3)).
Proof.
  intros O F RG. induction work as [|[i j] r IH]; intros ns LN WK; [exists ns; repeat split; auto; intros ? ? []|]. cbn [vertex_pass]. fold (tri_at mesh i). set (t := tri_at mesh i). set (v := tcorn t j).
  destruct (WK i j (or_introl eq_refl)) as (LI & LJ). pose proof (tri_at_distinct _ _ O LI) as D. fold t in D. assert (AV : at_vertex mesh v i) by (split; [exact LI|apply tcorn_has]).
  assert (LV : (v < length ns)%nat) by (rewrite LN; now apply RG).
  destruct (Rltb_spec (norm3sq (nth v ns zero3)) (1/2)) as [SM|BG].
  - rewrite (calc_ok vs t v D (tcorn_has t j)). unfold v at 3 4. rewrite <- (tcorn_after t j D LJ). fold v.
    destruct (fan_ok vs mesh v i O fuel i [] (walk_start _ _ _ AV)) as (n & l & W & E & FE); [cbn; lia|]. fold t in FE. cbn [total fold_right] in FE. rewrite add3_zero_l in FE.
    fold t in FE. rewrite FE. destruct (IH (set_nth ns v (scale3 (1 / angle_at vs (tri_at mesh n) v) (total vs mesh v (n :: l))))) as (ns' & P & L' & A & B); [now rewrite set_nth_length|intros a b I; apply WK; now right|].
    exists ns'. split; [exact P|]. split; [exact L'|].
    assert (ST : walked_normal vs mesh v (nth v (set_nth ns v (scale3 (1 / angle_at vs (tri_at mesh n) v) (total vs mesh v (n :: l)))) zero3)) by (exists i, n, l; rewrite set_nth_nth by exact LV; auto).
    split.
    + intros w. destruct (Nat.eq_dec v w) as [<-|NW]; [right; destruct (A v) as [->|H]; [exact ST|exact H]|]. destruct (A w) as [->|H]; [left; now apply set_nth_nth_other|now right].
    + intros a b [E'|I] Z.
      * injection E' as <- <-. fold t. fold v. destruct (A v) as [->|H]; [exact ST|exact H].
      * destruct (Nat.eq_dec v (tcorn (tri_at mesh a) b)) as [<-|NW]; [destruct (A v) as [->|H]; [exact ST|exact H]|]. apply B; [exact I|]. now rewrite set_nth_nth_other.
  - destruct (IH ns LN ltac:(intros a b I; apply WK; now right)) as (ns' & P & L' & A & B). exists ns'. split; [exact P|]. split; [exact L'|]. split; [exact A|].
    intros a b [E'|I] Z; [|now apply B]. injection E' as <- <-. fold t in Z. fold v in Z. rewrite Z in BG. unfold norm3sq, dot3, zero3 in BG. cbn in BG. lra.
Qed.

(** ** From the model to the mesh *)
Definition point_sides (x : triangle) : list (v3 * v3) := let '(a, b, c) := x in [(a, b); (b, c); (c, a)].
Definition three_corners (x : triangle) : Prop := let '(a, b, c) := x in a <> b /\ b <> c /\ c <> a.
(** No two triangles run along the same side in the same direction. *)
Definition consistent (model : list triangle) : Prop := Forall three_corners model /\ NoDup (flat_map point_sides model).
Lemma nodup_flat_map {A B} (f : A -> list B) l : NoDup (flat_map f l) -> forall n n' a a' e, nth_error l n = Some a -> nth_error l n' = Some a' -> In e (f a) -> In e (f a') -> n = n'.
Proof.
  induction l as [|x l IH]; intros N n n' a a' e E E' I I'; [destruct n; discriminate|]. cbn [flat_map] in N.
  assert (D : forall e, In e (f x) -> In e (flat_map f l) -> False).
  { clear - N. induction (f x) as [|y r IH]; intros e [] I2; cbn [app] in N; inversion N as [|? ? NI N']; subst; [|now apply (IH N' e)]. apply NI. apply in_or_app. now right. }
  destruct n as [|n], n' as [|n']; cbn [nth_error] in E, E'.
  - reflexivity.
  - exfalso. injection E as <-. apply (D e I). apply in_flat_map. exists a'. split; [now apply nth_error_In in E'|exact I'].
  - exfalso. injection E' as <-. apply (D e I'). apply in_flat_map. exists a. split; [now apply nth_error_In in E|exact I].
  - f_equal. apply (IH ltac:(clear - N; induction (f x); [exact N|inversion N; auto]) n n' a a' e E E' I I').
Qed.
Lemma point_sides_of vs t e : In e (dir_sides t) -> In (vt vs (fst e), vt vs (snd e)) (point_sides (tri_of vs t)).
Proof. destruct t as [[i j] k]. cbn. intros [<-|[<-|[<-|[]]]]; auto. Qed.
Lemma oriented_of vs mesh model : Permutation (map (tri_of vs) mesh) model -> consistent model -> oriented mesh.
Proof.
  intros P (T & N). split.
  - apply Forall_forall. intros [[i j] k] I. rewrite Forall_forall in T. specialize (T (tri_of vs (i, j, k)) (Permutation_in _ P (in_map _ _ _ I))). cbn in T. destruct T as (T1 & T2 & T3). unfold distinct. cbn. repeat split; congruence.
  - intros n n' e L L' I I'. apply (nodup_flat_map point_sides (map (tri_of vs) mesh)) with (a := tri_of vs (tri_at mesh n)) (a' := tri_of vs (tri_at mesh n')) (e := (vt vs (fst e), vt vs (snd e))).
    + apply (Permutation_NoDup (l := flat_map point_sides model)); [|exact N]. symmetry. now apply Permutation_flat_map.
    + apply map_nth_error. now apply nth_error_nth'.
    + apply map_nth_error. now apply nth_error_nth'.
    + now apply point_sides_of.
    + now apply point_sides_of.
Qed.
Lemma import_range srt model tol b : permutes srt -> import_v2 srt model tol = Ok b -> Forall (in_range (bih_verts b)) (bih_mesh b).
Proof.
  intros P E. unfold import_v2 in E. destruct (used_tol model tol) as [t| |]; cbn [bind] in E; try discriminate. destruct (merge t model) as [vs m] eqn:M. destruct (merge_ok _ _ _ _ M) as (V & IR & F).
  destruct (subdivide srt vs (length m) [NLeaf 0 0] 0 0 m (model_box model)) as [nb m'] eqn:S. injection E as <-. cbn [bih_verts bih_mesh].
  destruct (subdivide_ok srt vs P _ _ _ _ _ _ _ _ S ltac:(lia) ltac:(cbn; lia)) as (_ & _ & PM & C). apply Forall_forall. intros x I. rewrite Forall_forall in IR. apply IR. now apply (Permutation_in _ PM).
Qed.
Lemma import_mesh srt model tol b t : permutes srt -> import_v2 srt model tol = Ok b -> used_tol model tol = Ok t -> apart (2 * t) model -> Permutation (map (tri_of (bih_verts b)) (bih_mesh b)) model.
Proof.
  intros P E T A. destruct (import_covers _ _ _ _ P E) as (t' & m & T' & F & PM & _). rewrite T in T'. injection T' as <-. rewrite <- (merged_same t model (used_tol_pos _ _ _ T) A model _ (incl_refl _) F). now apply Permutation_map.
Qed.
Lemma pseudos_ok vs mesh fuel : oriented mesh -> Forall (in_range vs) mesh -> (length mesh <= fuel + 1)%nat ->
  exists ns, vertex_pseudos fuel vs mesh = Some (Ok ns) /\ length ns = length vs /\ forall n v, at_vertex mesh v n -> walked_normal vs mesh v (nth v ns zero3).
Proof.
  intros O RG F. destruct (pass_ok vs mesh fuel O F) with (work := all_corners (length mesh)) (ns := repeat zero3 (length vs)) as (ns & E & L & _ & W).
  - intros n N j. rewrite Forall_forall in RG. assert (I : In (tri_at mesh n) mesh) by now apply nth_In. specialize (RG _ I). destruct (tri_at mesh n) as [[a b] c]. cbn in RG. destruct j as [|[|j]]; cbn; lia.
  - apply repeat_length.
  - intros i j I. apply in_flat_map in I. destruct I as (k & K & I). apply in_seq in K. cbn in I. destruct I as [I|[I|[I|[]]]]; injection I as <- <-; lia.
  - exists ns. split; [exact E|]. split; [exact L|]. intros n v (LN & H).
    assert (Z : forall k, nth k (repeat zero3 (length vs)) zero3 = zero3) by (intros k; generalize (length vs) as q; clear; intros q; revert k; induction q as [|q IH]; intros [|k]; cbn; auto).
    assert (J : exists j, (j < 3)%nat /\ tcorn (tri_at mesh n) j = v) by (destruct H as [H|[H|H]]; [exists 0%nat|exists 1%nat|exists 2%nat]; split; auto; lia). destruct J as (j & J & <-). apply (W n j); [|apply Z].
    apply in_flat_map. exists n. split; [apply in_seq; lia|]. destruct j as [|[|[|j]]]; cbn; auto; lia.
Qed.

(** For a model whose triangles have three corners and are consistently oriented, with different corners two
    tolerances apart, ImportModelV2 returns: no walk takes more iterations than there are triangles, and nothing panics. *)
Theorem C83_returns_partial srt model tol t fuel : permutes srt -> used_tol model tol = Ok t -> apart (2 * t) model -> consistent model -> (length model <= fuel + 1)%nat ->
  exists b es ns, import_v2_all fuel srt model tol = Some (Ok (b, es, ns)).
Proof.
  intros P T A C F. assert (E : exists b, import_v2 srt model tol = Ok b) by (unfold import_v2; rewrite T; cbn [bind]; destruct (merge _ _); destruct (subdivide _ _ _ _ _ _ _ _); eexists; reflexivity). destruct E as (b & E).
  pose proof (import_mesh _ _ _ _ _ P E T A) as PM. pose proof (oriented_of _ _ _ PM C) as O. destruct (pseudos_ok (bih_verts b) (bih_mesh b) fuel O (import_range _ _ _ _ P E)) as (ns & N & _).
  - apply Permutation_length in PM. rewrite map_length in PM. lia.
  - exists b, (side_pseudos (bih_verts b) (bih_mesh b)), ns. unfold import_v2_all. now rewrite E, N.
Qed.
(** Vertices in a mesh whose triangles around them form one closed fan get the sum of the unit normals of all
    triangles at the vertex, weighted with their angles there, times the inverse of one of these angles. *)
Inductive linked (mesh : list tri) (v : nat) : nat -> nat -> Prop :=
| linked_here n : linked mesh v n n
| linked_step n m k : linked mesh v n m -> across mesh v m k -> linked mesh v n k.
Definition closed_fan (mesh : list tri) (v : nat) : Prop :=
  (forall n, at_vertex mesh v n -> exists n', across mesh v n n') /\ forall n m, at_vertex mesh v n -> at_vertex mesh v m -> linked mesh v n m.
Definition has_vertexb (t : tri) (v : nat) : bool := (tcorn t 0 =? v)%nat || (tcorn t 1 =? v)%nat || (tcorn t 2 =? v)%nat.
Lemma has_vertexb_spec t v : has_vertexb t v = true <-> has_vertex t v.
Proof. unfold has_vertexb, has_vertex. rewrite !orb_true_iff, !Nat.eqb_eq. tauto. Qed.
Definition vertex_sum (vs : list v3) (mesh : list tri) (v : nat) : v3 :=
  fold_right (fun t s => if has_vertexb t v then add3 s (weighted vs t v) else s) zero3 mesh.
Lemma total_perm vs mesh v l l' : Permutation l l' -> total vs mesh v l = total vs mesh v l'.
Proof.
  induction 1 as [|x l l' P IH|x y l|l l' l'' P1 IH1 P2 IH2]; cbn [total fold_right]; [reflexivity| | |congruence].
  - unfold total in IH. now rewrite IH.
  - unfold add3. cbn. f_equal; ring.
Qed.
Lemma total_all vs mesh v : total vs mesh v (filter (fun n => has_vertexb (tri_at mesh n) v) (seq 0 (length mesh))) = vertex_sum vs mesh v.
Proof.
  unfold vertex_sum. assert (G : forall l k, (forall j, (j < length l)%nat -> tri_at mesh (k + j) = nth j l (0, 0, 0)%nat) ->
    total vs mesh v (filter (fun n => has_vertexb (tri_at mesh n) v) (seq k (length l))) = fold_right (fun t s => if has_vertexb t v then add3 s (weighted vs t v) else s) zero3 l).
  { induction l as [|t l IH]; intros k H; [reflexivity|]. cbn [length seq filter fold_right]. pose proof (H 0%nat ltac:(cbn; lia)) as H0. rewrite Nat.add_0_r in H0. cbn [nth] in H0.
    rewrite H0. specialize (IH (S k) ltac:(intros j J; specialize (H (S j) ltac:(cbn; lia)); rewrite Nat.add_succ_r in H; exact H)). destruct (has_vertexb t v); [cbn [total fold_right]; unfold total in IH; now rewrite IH, H0|exact IH]. }
  apply (G mesh 0%nat). reflexivity.
Qed.
Lemma walked_closed vs mesh v r : oriented mesh -> closed_fan mesh v -> walked_normal vs mesh v r -> exists n, at_vertex mesh v n /\ r = scale3 (1 / angle_at vs (tri_at mesh n) v) (vertex_sum vs mesh v).
Proof.
  intros O (CL & LK) (i & n & l & W & E & ->). exists n. pose proof (walk_at _ _ _ _ _ W) as AT. split; [apply AT; now left|]. f_equal. rewrite <- total_all. apply total_perm.
  assert (B : across mesh v n i) by (destruct E as [E|E]; [exact E|]; exfalso; destruct (CL n (AT n (or_introl eq_refl))) as (n' & X); now apply (E n')).
  assert (CLS : forall m k, In m (n :: l) -> across mesh v m k -> In k (n :: l)).
  { intros m k I X. destruct I as [<-|I]; [rewrite (across_fun _ _ _ _ _ O X B); now apply (walk_last mesh v i)|].
    assert (G : forall n l, walk mesh v i n l -> forall m, In m l -> exists s, In s (n :: l) /\ across mesh v m s).
    { clear. induction 1 as [A|n n' l W IH A D]; intros m I; [destruct I|]. destruct I as [<-|I]; [exists n'; split; [now left|exact A]|]. destruct (IH m I) as (s & S & X). exists s. split; [now right|exact X]. }
    destruct (G n l W m I) as (s & S & Y). rewrite (across_fun _ _ _ _ _ O X Y). exact S. }
  apply NoDup_Permutation.
  - now apply (walk_nodup mesh v i).
  - apply NoDup_filter. apply seq_NoDup.
  - intros m. rewrite filter_In, in_seq, has_vertexb_spec. split.
    + intros I. destruct (AT m I). split; [lia|assumption].
    + intros (L & H). assert (A : at_vertex mesh v m) by (split; [lia|exact H]). specialize (LK i m (AT i (walk_last _ _ _ _ _ W)) A). clear A L H. induction LK as [k|a c d LK IH X].
      * now apply (walk_last mesh v k) in W.
      * apply (CLS c d); [|exact X]. now apply IH.
Qed.
Theorem C83_normals_partial srt model tol t fuel b es ns : permutes srt -> used_tol model tol = Ok t -> apart (2 * t) model -> consistent model -> (length model <= fuel + 1)%nat ->
  import_v2_all fuel srt model tol = Some (Ok (b, es, ns)) ->
  length ns = length (bih_verts b) /\
  (forall v n, at_vertex (bih_mesh b) v n -> closed_fan (bih_mesh b) v -> exists m, at_vertex (bih_mesh b) v m /\
     nth v ns zero3 = scale3 (1 / angle_at (bih_verts b) (tri_at (bih_mesh b) m) v) (vertex_sum (bih_verts b) (bih_mesh b) v)) /\
  (forall n j, (n < length (bih_mesh b))%nat -> (j < 3)%nat -> let s := (tcorn (tri_at (bih_mesh b) n) j, tcorn (tri_at (bih_mesh b) n) ((j + 1) mod 3)) in
     (forall o, (o < length (bih_mesh b))%nat -> In (snd s, fst s) (dir_sides (tri_at (bih_mesh b) o)) ->
        nth (3 * n + j) es zero3 = scale3 (1/2) (add3 (unit_normal_of (bih_verts b) (tri_at (bih_mesh b) n)) (unit_normal_of (bih_verts b) (tri_at (bih_mesh b) o)))) /\
     ((forall o, (o < length (bih_mesh b))%nat -> ~ In (snd s, fst s) (dir_sides (tri_at (bih_mesh b) o))) -> nth (3 * n + j) es zero3 = unit_normal_of (bih_verts b) (tri_at (bih_mesh b) n))).
Proof.
  intros P T A C F E. unfold import_v2_all in E. destruct (import_v2 srt model tol) as [b'| |] eqn:I; try discriminate. pose proof (import_mesh _ _ _ _ _ P I T A) as PM. pose proof (oriented_of _ _ _ PM C) as O.
  destruct (pseudos_ok (bih_verts b') (bih_mesh b') fuel O (import_range _ _ _ _ P I)) as (ns' & N & L & W); [apply Permutation_length in PM; rewrite map_length in PM; lia|]. rewrite N in E. injection E as <- <- <-.
  split; [exact L|]. split.
  - intros v n AT CF. now apply walked_closed; [| |apply (W n v AT)].
  - intros n j LN J s. set (vs := bih_verts b') in *. set (mesh := bih_mesh b') in *.
    assert (V : nth (3 * n + j) (side_pseudos vs mesh) zero3 = side_pseudo vs mesh (adjacency mesh) n j).
    { unfold side_pseudos. assert (G : forall q k, (n < q)%nat -> nth (3 * n + j) (flat_map (fun i => map (side_pseudo vs mesh (adjacency mesh) i) [0; 1; 2]%nat) (seq k q)) zero3 = side_pseudo vs mesh (adjacency mesh) (k + n) j).
      { clear - J. induction n as [|n IH]; intros q k Q; (destruct q as [|q]; [lia|]); cbn [seq flat_map map app].
        - rewrite Nat.add_0_r. destruct j as [|[|[|j]]]; [reflexivity|reflexivity|reflexivity|lia].
        - replace (3 * S n + j)%nat with (S (S (S (3 * n + j)))) by lia. cbn [nth]. rewrite IH by lia. f_equal. lia. }
      rewrite G by exact LN. reflexivity. }
    assert (FN : forall t, face_normal vs t = unit_normal_of vs t) by (intros [[i k] l]; reflexivity).
    assert (SD : (tcorn (tri_at mesh n) (next_j j), tcorn (tri_at mesh n) j) = (snd s, fst s)) by (unfold s; destruct j as [|[|[|j]]]; [reflexivity|reflexivity|reflexivity|lia]).
    unfold side_pseudo in V. fold (tri_at mesh n) in V. rewrite SD in V. rewrite V. split.
    + intros o LO IO. destruct (adj_get (adjacency mesh) (snd s, fst s)) as [o'|] eqn:G.
      * apply adjacency_some in G. destruct G as (t' & NE & I'). destruct (tri_at_error _ _ _ NE) as (TE & LO'). rewrite <- TE in I'. rewrite (proj2 O o o' (snd s, fst s) LO LO' IO I'). fold (tri_at mesh o'). rewrite !FN. unfold scale3, add3. cbn. f_equal; ring.
      * exfalso. apply (adjacency_none _ _ o (tri_at mesh o) G); [now apply nth_error_nth'|exact IO].
    + intros NO. destruct (adj_get (adjacency mesh) (snd s, fst s)) as [o'|] eqn:G; [|apply FN]. exfalso. apply adjacency_some in G. destruct G as (t' & NE & I'). destruct (tri_at_error _ _ _ NE) as (TE & LO'). rewrite <- TE in I'. now apply (NO o').
Qed.

(** ** Models for which ImportModelV2 does not return *)
(** A triangle, and a sheet with two sides attached to it along a side of the first.  Every triangle has area and the
    corners are ten tolerances apart, but the loop around the first corner goes back and forth between the two sides
    of the sheet for ever. *)
Definition sheet : list triangle :=
  [(V3 0 0 0, V3 10 0 0, V3 0 10 0); (V3 10 0 0, V3 0 0 0, V3 0 0 10); (V3 0 0 10, V3 0 0 0, V3 0 (-10) 0); (V3 0 (-10) 0, V3 0 0 0, V3 0 0 10)].
Lemma cells1 : truncZ ((0 + 1/2 * 1) / 1) = 0%Z /\ truncZ ((10 + 1/2 * 1) / 1) = 10%Z /\ truncZ ((-10 + 1/2 * 1) / 1) = (-9)%Z.
Proof. split; [apply truncZ_pos; [lia|lra]|]. split; [apply truncZ_pos; [lia|lra]|apply (truncZ_neg 9); [lia|lra|lra]]. Qed.
Lemma fold_max_ge l : forall a x, In x l -> x <= fold_left Rmax l a.
Proof. induction l as [|y l IH]; intros a x I; [destruct I|]. cbn [fold_left]. destruct I as [<-|I]; [|now apply IH]. assert (G : forall b l, b <= fold_left Rmax l b) by (clear; intros b l; revert b; induction l as [|z l IH]; intros b; cbn; [lra|]; eapply Rle_trans; [apply (Rmax_l b z)|apply IH]). eapply Rle_trans; [apply (Rmax_r a y)|apply G]. Qed.
Lemma tol_one model hx hy hz lx ly lz : model <> [] -> model_box model = Box3 (V3 lx ly lz) (V3 hx hy hz) -> (exists s, In s (flat_map sides model) /\ 4 <= s) ->
  1 <= Rmax (hx - lx) (Rmax (hy - ly) (hz - lz)) <= 1000 -> used_tol model 1 = Ok 1.
Proof.
  intros NE B (s & IS & S4) D. unfold used_tol. destruct model as [|x model]; [contradiction|]. cbv zeta. set (m := x :: model) in *.
  assert (S : 2 <= sqrt (max_side m)) by (rewrite <- (sqrt_square 2) by lra; apply sqrt_le_1_alt; eapply Rle_trans; [|apply (fold_max_ge _ _ _ IS)]; lra).
  rewrite (proj2 (Rltb_false _ _)) by lra. rewrite !(proj2 (Reqb_false 1 0)) by lra. rewrite B. unfold sub3. cbn [x3 y3 z3 min3 max3]. set (d := Rmax (hx - lx) _) in *.
  destruct (truncZ_spec (d / 1 + 1 / 1000000000000)) as (T & _). specialize (T ltac:(lra)). assert (T1 : (1 <= truncZ (d / 1 + 1 / 1000000000000) <= 1001)%Z).
  { split; [|apply le_IZR; lra]. assert (0 < truncZ (d / 1 + 1 / 1000000000000))%Z by (apply lt_IZR; lra). lia. }
  set (z := truncZ _) in *. destruct (Z.leb_spec z 0); [lia|]. destruct (Z.ltb_spec 4611686018427387903 z); [lia|reflexivity].
Qed.

Definition sheet_verts : list v3 := [V3 0 0 0; V3 10 0 0; V3 0 10 0; V3 0 0 10; V3 0 (-10) 0].
Definition sheet_mesh : list tri := [(0, 1, 2); (1, 0, 3); (3, 0, 4); (4, 0, 3)]%nat.
Lemma sheet_tol : used_tol sheet 1 = Ok 1.
Proof.
  apply (tol_one sheet 10 10 10 0 (-10) 0); [discriminate| | |].
  - unfold sheet. lit_box.
  - exists 100. split; [|lra]. left. unfold norm3sq, dot3, sub3. cbn. ring.
  - rmm; lra.
Qed.
Lemma sheet_import srt : exists nb, import_v2 srt sheet 1 = Ok (Bih sheet_verts sheet_mesh nb (model_box sheet)).
Proof.
  destruct cells1 as (Z0 & Zp & Zn).
  assert (MG : merge 1 sheet = (sheet_verts, sheet_mesh)) by (unfold merge, sheet; cbn [fold_left add_triangle]; unfold add_triangle, add_vertex, cell; cbn [x3 y3 z3]; rewrite !Z0, !Zp, !Zn; reflexivity).
  eexists. unfold import_v2. rewrite sheet_tol. cbn [bind]. rewrite MG. reflexivity.
Qed.
Theorem C83_hangs_refuted srt fuel : Forall tri_ok sheet /\ used_tol sheet 1 = Ok 1 /\ apart 10 sheet /\ import_v2_all fuel srt sheet 1 = None.
Proof.
  split; [apply Forall_forall; intros x I; cbn in I; repeat destruct I as [<-|I]; try contradiction; unfold tri_ok, tri_normal, cross3, sub3, zero3; cbn; intros E; injection E; lra|]. split; [apply sheet_tol|]. split.
  { intros u v U V. cbn in U, V. repeat destruct U as [<-|U]; try contradiction; repeat destruct V as [<-|V]; try contradiction; cbn [x3 y3 z3]; auto; right;
    try (left; unfold Rabs; destruct (Rcase_abs _); lra); right; try (left; unfold Rabs; destruct (Rcase_abs _); lra); right; unfold Rabs; destruct (Rcase_abs _); lra. }
  destruct (sheet_import srt) as (nb & E). unfold import_v2_all. rewrite E. cbn [bih_verts bih_mesh]. unfold vertex_pseudos.
  assert (EM : adjacency sheet_mesh = [((3, 4), 3); ((0, 3), 3); ((4, 0), 3); ((4, 3), 2); ((0, 4), 2); ((3, 0), 2); ((3, 1), 1); ((0, 3), 1); ((1, 0), 1); ((2, 0), 0); ((1, 2), 0); ((0, 1), 0)]%nat) by reflexivity.
  assert (LP : forall f st, fan f sheet_verts sheet_mesh (adjacency sheet_mesh) 0 0 3 (Some 2%nat) st = None /\ fan f sheet_verts sheet_mesh (adjacency sheet_mesh) 0 0 4 (Some 3%nat) st = None).
  { rewrite EM. induction f as [|f IH]; intros st; [split; reflexivity|]. split; cbn [fan Nat.eqb nth sheet_mesh calc_alpha_wnormal first_corner tcorn last_corner third_corner Nat.add adj_get fst snd andb]; apply IH. }
  change (all_corners (length sheet_mesh)) with ((0, 0)%nat :: tl (all_corners (length sheet_mesh))). set (w := tl _). clearbody w. cbn [vertex_pass].
  change (nth 0 sheet_mesh (0, 0, 0)%nat) with (0, 1, 2)%nat. cbn [tcorn next_j].
  rewrite (proj2 (Rltb_true _ _)) by (cbn [length sheet_verts repeat nth]; unfold norm3sq, dot3, zero3; cbn; lra).
  match goal with |- context [calc_alpha_wnormal ?t ?v ?vs] => set (st := calc_alpha_wnormal t v vs); assert (ST : exists x, st = Ok x) by (eexists; reflexivity); clearbody st; destruct ST as (x & ->) end.
  assert (G : adj_get (adjacency sheet_mesh) (1, 0)%nat = Some 1%nat) by reflexivity. rewrite G.
  destruct fuel as [|f]; [reflexivity|].
  assert (G3 : adj_get (adjacency sheet_mesh) (3, 0)%nat = Some 2%nat) by reflexivity.
  assert (F1 : exists st, fan (S f) sheet_verts sheet_mesh (adjacency sheet_mesh) 0 0 1 (Some 1%nat) x = fan f sheet_verts sheet_mesh (adjacency sheet_mesh) 0 0 3 (adj_get (adjacency sheet_mesh) (3, 0)%nat) st) by (eexists; reflexivity).
  destruct F1 as (st & ->). rewrite G3. now rewrite (proj1 (LP f _)).
Qed.
(** Two triangles that both shrink to a line when the corners within the tolerance are merged: the index expression
    with the third corner is out of range. *)
Definition slivers : list triangle := [(V3 0 0 0, V3 (1/4) 0 0, V3 0 10 0); (V3 0 0 0, V3 0 0 10, V3 (1/4) 0 0)].
Theorem C83_panics_refuted srt fuel : Forall tri_ok slivers /\ used_tol slivers 1 = Ok 1 /\ import_v2_all (S fuel) srt slivers 1 = Some Panicked.
Proof.
  split; [apply Forall_forall; intros x I; cbn in I; repeat destruct I as [<-|I]; try contradiction; unfold tri_ok, tri_normal, cross3, sub3, zero3; cbn; intros E; injection E; lra|].
  assert (T : used_tol slivers 1 = Ok 1).
  { apply (tol_one slivers (1/4) 10 10 0 0 0); [discriminate| | |].
    - unfold slivers. lit_box.
    - exists (norm3sq (sub3 (V3 0 0 0) (V3 0 10 0))). split; [right; right; now left|]. unfold norm3sq, dot3, sub3. cbn. lra.
    - rmm; lra. }
  split; [exact T|]. destruct cells1 as (Z0 & Zp & _). assert (Zq : truncZ ((1/4 + 1/2 * 1) / 1) = 0%Z) by (apply truncZ_pos; [lia|lra]).
  assert (MG : merge 1 slivers = ([V3 0 0 0; V3 0 10 0; V3 0 0 10], [(0, 0, 1); (0, 2, 0)]%nat)) by (unfold merge, slivers; cbn [fold_left add_triangle]; unfold add_triangle, add_vertex, cell; cbn [x3 y3 z3]; rewrite !Z0, !Zp, !Zq; reflexivity).
  unfold import_v2_all, import_v2. rewrite T. cbn [bind]. rewrite MG. cbn [length subdivide Nat.leb bih_verts bih_mesh]. unfold vertex_pseudos.
  change (all_corners (length _)) with ((0, 0)%nat :: tl (all_corners 2)). set (w := tl _). clearbody w. cbn [vertex_pass nth tcorn].
  rewrite (proj2 (Rltb_true _ _)) by (cbn [length repeat nth]; unfold norm3sq, dot3, zero3; cbn; lra). reflexivity.
Qed.
(** The corner of a cube is a closed consistent mesh: every vertex has a closed fan. *)
Lemma corner_mesh_consistent : consistent corner_mesh.
Proof.
  unfold corner_mesh, vX, vY, vZ, vO. split.
  - apply Forall_forall. intros x I. cbn in I. repeat destruct I as [<-|I]; try contradiction; cbn; repeat split; intros E; injection E; lra.
  - cbn [flat_map point_sides app]. repeat apply NoDup_cons; try apply NoDup_nil; cbn [In]; intros H; repeat destruct H as [H|H]; try contradiction; injection H; lra.
Qed.
Example C83_example : exists b es ns, import_v2_all 4 (fun _ m => m) corner_mesh (1/100) = Some (Ok (b, es, ns)) /\ closed_fan (bih_mesh b) 0.
Proof.
  destruct (C83_returns_partial (fun _ m => m) corner_mesh (1/100) (1/100) 4) as (b & es & ns & E); [intros ax l; reflexivity|apply corner_mesh_tol|apply corner_mesh_apart|apply corner_mesh_consistent|cbn; lia|].
  exists b, es, ns. split; [exact E|]. unfold import_v2_all in E. destruct (import_v2 (fun _ m => m) corner_mesh (1/100)) as [b'| |] eqn:I; try discriminate. destruct (vertex_pseudos _ _ _) as [[ns'| |]|]; try discriminate. injection E as <- _ _.
  assert (M : bih_mesh b' = [(0, 1, 2); (1, 3, 2); (1, 0, 3); (0, 2, 3)]%nat).
  { unfold import_v2 in I. rewrite corner_mesh_tol in I. cbn [bind] in I.
    assert (MG : merge (1/100) corner_mesh = ([vX; vO; vY; vZ], [(0, 1, 2); (1, 3, 2); (1, 0, 3); (0, 2, 3)]%nat)).
    { assert (Z0 : truncZ ((0 + 1/2 * (1/100)) / (1/100)) = 0%Z) by (apply truncZ_pos; [lia|lra]). assert (Z1 : truncZ ((1 + 1/2 * (1/100)) / (1/100)) = 100%Z) by (apply truncZ_pos; [lia|lra]).
      unfold merge, corner_mesh, vX, vO, vY, vZ; cbn [fold_left add_triangle]; unfold add_triangle, add_vertex, cell; cbn [x3 y3 z3]; rewrite !Z0, !Z1; reflexivity. }
    rewrite MG in I. cbn [length subdivide Nat.leb] in I. injection I as <-. reflexivity. }
  rewrite M. clear. set (mesh := [_; _; _; _]).
  assert (X : across mesh 0 0 2 /\ across mesh 0 2 3 /\ across mesh 0 3 0).
  { unfold across, at_vertex, has_vertex. cbn. repeat split; try lia; try tauto; [exists 1%nat|exists 3%nat|exists 2%nat]; cbn; tauto. }
  destruct X as (X0 & X2 & X3). assert (AT : forall n, at_vertex mesh 0 n -> n = 0%nat \/ n = 2%nat \/ n = 3%nat).
  { intros n (L & H). cbn in L. destruct n as [|[|[|[|n]]]]; [auto| |auto|auto|lia]. exfalso. unfold has_vertex in H. cbn in H. lia. }
  assert (L02 : linked mesh 0 0 2) by (eapply linked_step; [apply linked_here|exact X0]). assert (L03 : linked mesh 0 0 3) by (eapply linked_step; [exact L02|exact X2]).
  assert (L20 : linked mesh 0 2 3) by (eapply linked_step; [apply linked_here|exact X2]). assert (L30 : linked mesh 0 3 0) by (eapply linked_step; [apply linked_here|exact X3]).
  split.
  - intros n N. destruct (AT n N) as [->|[->| ->]]; eauto.
  - intros n m N K. destruct (AT n N) as [->|[->| ->]], (AT m K) as [->|[->| ->]]; try apply linked_here; try assumption; [apply (linked_step _ _ _ 3%nat); assumption|apply (linked_step _ _ _ 0%nat); assumption].
Qed.
