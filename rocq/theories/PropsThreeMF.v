(** Properties C24-C26: 3MF objects. *)
From Coq Require Import String List Arith Bool Lia ZArith Floats.SpecFloat.
From Verif Require Import Prelude ThreeMFModel.
Import ListNotations.

(** Go's == on vectors: symmetric and transitive, not necessarily reflexive. *)
Definition go_eq {V} (veq : V -> V -> bool) : Prop :=
  (forall a b, veq a b = veq b a) /\
  (forall a b c, veq a b = true -> veq b c = true -> veq a c = true).

Definition flat {V} (src : list (V * V * V)) : list V := flat_map (fun t => let '(a, b, c) := t in [a; b; c]) src.
(** [v'] stands for [v]: identical, or equal under ==. *)
Definition same {V} (veq : V -> V -> bool) (v' v : V) : Prop := v' = v \/ veq v' v = true.

Section Proofs.
  Context {V : Type} (veq : V -> V -> bool) (Heq : go_eq veq).

  Lemma veq_sym a b : veq a b = veq b a. Proof. apply Heq. Qed.
  Lemma veq_trans a b c : veq a b = true -> veq b c = true -> veq a c = true. Proof. apply Heq. Qed.
  Lemma veq_cong a b c : veq a b = true -> veq a c = veq b c.
  Proof.
    intros H. destruct (veq a c) eqn:E1, (veq b c) eqn:E2; try reflexivity.
    - rewrite (veq_trans b a c) in E2; [discriminate|rewrite veq_sym; assumption|assumption].
    - rewrite (veq_trans a b c) in E1; [discriminate|assumption|assumption].
  Qed.
  Lemma veq_refl_l a b : veq a b = true -> veq a a = true.
  Proof. intros H. apply (veq_trans a b a); [assumption|rewrite veq_sym; assumption]. Qed.

  (** Occurrences of (something equal to) [v]; at least one for a vertex that occurs,
      also if it is not equal to itself. *)
  Definition occ (v : V) (l : list V) : nat := Nat.max 1 (length (filter (veq v) l)).

  (** The invariant relating the map, the vertex list and the vertices seen so far. *)
  Record inv (seen : list V) (st : list V * vmap) : Prop := {
    inv_keys : map fst (snd st) = fst st;
    inv_idx : forall i k e, nth_error (snd st) i = Some (k, e) -> e = (i, occ k seen);
    inv_distinct : forall i j a b, i < j -> nth_error (fst st) i = Some a -> nth_error (fst st) j = Some b -> veq a b = false;
    inv_seen : forall a, In a (fst st) -> In a seen;
    inv_cover : forall v, In v seen -> exists k, In k (fst st) /\ same veq k v
  }.

  Lemma lookup_some : forall m v e, lookup veq v m = Some e ->
    exists i k, nth_error m i = Some (k, e) /\ veq k v = true /\ (forall j k' e', j < i -> nth_error m j = Some (k', e') -> veq k' v = false) /\
      forall e2, update veq v e2 m = firstn i m ++ (k, e2) :: skipn (S i) m.
  Proof.
    induction m as [|[k0 e0] m IH]; intros v e H; [discriminate|].
    cbn [lookup] in H. destruct (veq k0 v) eqn:E.
    - injection H as ->. exists 0, k0. repeat split; auto; [intros; lia|].
      intros e2. cbn [update]. rewrite E. reflexivity.
    - destruct (IH v e H) as (i & k & H1 & H2 & H3 & H4). exists (S i), k. repeat split; auto.
      + intros [|j] k' e' Hj Hn; [injection Hn as <- <-; assumption|]. apply (H3 j k' e'); [lia|assumption].
      + intros e2. cbn [update]. rewrite E, H4. reflexivity.
  Qed.
  Lemma lookup_none : forall m v, lookup veq v m = None ->
    (forall k e, In (k, e) m -> veq k v = false) /\ forall e2, update veq v e2 m = m ++ [(v, e2)].
  Proof.
    induction m as [|[k0 e0] m IH]; intros v H; [split; [intros k e []|reflexivity]|].
    cbn [lookup] in H. destruct (veq k0 v) eqn:E; [discriminate|].
    destruct (IH v H) as (H1 & H2). split.
    - intros k e [Hin | Hin]; [injection Hin as <- <-; assumption|]. apply (H1 k e Hin).
    - intros e2. cbn [update]. rewrite E, H2. reflexivity.
  Qed.

  Lemma nth_error_map {A B} (f : A -> B) l i : nth_error (map f l) i = option_map f (nth_error l i).
  Proof. revert i. induction l; intros [|i]; cbn; auto. Qed.

  Lemma filter_snoc (f : V -> bool) l v : filter f (l ++ [v]) = filter f l ++ (if f v then [v] else []).
  Proof. rewrite filter_app. cbn [filter]. destruct (f v); reflexivity. Qed.

  Lemma nth_update {A} (m : list A) i x j : i < length m ->
    nth_error (firstn i m ++ x :: skipn (S i) m) j = if Nat.eqb j i then Some x else nth_error m j.
  Proof.
    revert i j. induction m as [|y m IH]; intros i j Hi; [cbn in Hi; lia|].
    destruct i as [|i], j as [|j]; try reflexivity.
    cbn [firstn skipn app nth_error Nat.eqb]. rewrite IH by (cbn in Hi; lia). reflexivity.
  Qed.

  Lemma skipn_nth {A} (m : list A) p x : nth_error m p = Some x -> skipn p m = x :: skipn (S p) m.
  Proof. revert p. induction m as [|y m IH]; intros [|p] H; try discriminate; cbn in *; [congruence|]. apply IH. assumption. Qed.

  Lemma In_nth_lt {A} (l : list A) a : In a l -> exists i, i < length l /\ nth_error l i = Some a.
  Proof. intros H. apply In_nth_error in H. destruct H as [i Hi]. exists i. split; [apply nth_error_Some; congruence|assumption]. Qed.

  Lemma add_vertex_inv seen st v i st' : inv seen st -> add_vertex veq v st = (i, st') ->
    inv (seen ++ [v]) st' /\ (exists suf, fst st' = fst st ++ suf) /\
    (exists v', nth_error (fst st') i = Some v' /\ same veq v' v) /\
    (forall j, j < length (fst st') -> j < length (fst st) \/ j = i).
  Proof.
    intros [Hk Hi Hd Hs Hc]. destruct st as [verts m]. cbn [fst snd] in *. unfold add_vertex.
    destruct (lookup veq v m) as [[i0 c]|] eqn:El; intros H; injection H as <- <-; cbn [fst snd].
    - destruct (lookup_some m v (i0, c) El) as (p & k & Hp & Hkv & Hbefore & Hupd).
      pose proof (Hi p k _ Hp) as He. injection He as -> ->.
      assert (Hlt : p < length m) by (apply nth_error_Some; congruence).
      assert (Hvp : nth_error verts p = Some k) by (rewrite <- Hk, nth_error_map, Hp; reflexivity).
      rewrite Hupd.
      split; [|split; [exists []; rewrite app_nil_r; reflexivity|split; [exists k; split; [assumption|right; assumption]|auto]]].
      constructor; cbn [fst snd].
      + rewrite map_app. cbn [map fst]. rewrite <- Hk at 1.
        rewrite <- (firstn_skipn p m) at 3. rewrite map_app. f_equal.
        assert (Hsk : skipn p m = (k, (p, occ k seen)) :: skipn (S p) m).
        { apply skipn_nth. assumption. }
        rewrite Hsk. reflexivity.
      + intros j kj ej Hj. rewrite nth_update in Hj by assumption.
        destruct (Nat.eqb_spec j p) as [-> | Hne].
        * injection Hj as <- <-. f_equal. unfold occ. rewrite filter_snoc, app_length, Hkv. cbn [length].
          (* k occurs, and is equal to itself *)
          assert (Hin : In k (filter (veq k) seen)).
          { apply filter_In. split; [apply Hs; apply nth_error_In with p; assumption|]. apply (veq_refl_l k v). assumption. }
          destruct (filter (veq k) seen); [destruct Hin|]. cbn [length]. lia.
        * pose proof (Hi j kj ej Hj) as ->. f_equal. unfold occ. rewrite filter_snoc, app_length.
          assert (Hvj : nth_error verts j = Some kj) by (rewrite <- Hk, nth_error_map, Hj; reflexivity).
          assert (Hkk : veq kj k = false).
          { destruct (Nat.lt_total j p) as [H | [H | H]]; [|congruence|].
            - apply (Hd j p); assumption.
            - rewrite veq_sym. apply (Hd p j); assumption. }
          assert (Hf : veq kj v = false).
          { rewrite veq_sym, <- (veq_cong k v kj Hkv), veq_sym. assumption. }
          rewrite Hf. cbn [length]. rewrite Nat.add_0_r. reflexivity.
      + assumption.
      + intros a Ha. apply in_or_app. left. apply Hs. assumption.
      + intros w Hw. apply in_app_or in Hw. destruct Hw as [Hw | [<- | []]].
        * apply Hc. assumption.
        * exists k. split; [apply nth_error_In with p; assumption | right; assumption].
    - destruct (lookup_none m v El) as (Hno & Hupd). rewrite Hupd.
      assert (Hlen : length verts = length m) by (rewrite <- Hk, map_length; reflexivity).
      assert (Hnv : forall k, In k verts -> veq k v = false).
      { intros k Hin. rewrite <- Hk in Hin. apply in_map_iff in Hin. destruct Hin as ([k' e] & <- & Hin). apply (Hno k' e Hin). }
      split; [|split; [exists [v]; reflexivity|split; [exists v; split; [rewrite nth_error_app2, Nat.sub_diag by lia; reflexivity|left; reflexivity]|]]].
      + constructor; cbn [fst snd].
        * rewrite map_app. cbn [map fst]. rewrite Hk. reflexivity.
        * intros j kj ej Hj. destruct (Nat.lt_ge_cases j (length m)) as [Hjl | Hjl].
          -- rewrite nth_error_app1 in Hj by assumption. pose proof (Hi j kj ej Hj) as ->. f_equal.
             unfold occ. rewrite filter_snoc, app_length.
             rewrite (Hnv kj) by (rewrite <- Hk; apply in_map_iff; exists (kj, (j, occ kj seen)); split; [reflexivity|apply nth_error_In with j; assumption]).
             cbn [length]. rewrite Nat.add_0_r. reflexivity.
          -- rewrite nth_error_app2 in Hj by assumption. destruct (j - length m) as [|q] eqn:Ej; [|destruct q; discriminate].
             injection Hj as <- <-. rewrite Hlen. f_equal; [lia|].
             (* v does not occur in seen up to == *)
             unfold occ. rewrite filter_snoc, app_length.
             assert (Hz : filter (veq v) seen = []).
             { assert (Hall : forall w, In w seen -> veq v w = false).
               { intros w Hw. destruct (Hc w Hw) as (k & Hkin & [-> | Hkw]).
                 - rewrite veq_sym. apply Hnv. assumption.
                 - rewrite veq_sym, <- (veq_cong k w v Hkw). apply Hnv. assumption. }
               clear -Hall. induction seen as [|w seen IH]; [reflexivity|]. cbn [filter].
               rewrite (Hall w (or_introl eq_refl)). apply IH. intros x Hx. apply Hall. right. assumption. }
             rewrite Hz. destruct (veq v v); reflexivity.
        * intros a b x y Hab Ha Hb.
          assert (b < length (verts ++ [v])) by (apply nth_error_Some; congruence). rewrite app_length in H. cbn in H.
          rewrite nth_error_app1 in Ha by lia.
          destruct (Nat.lt_ge_cases b (length verts)).
          -- rewrite nth_error_app1 in Hb by assumption. apply (Hd a b); assumption.
          -- assert (b = length verts) as -> by lia. rewrite nth_error_app2, Nat.sub_diag in Hb by lia.
             injection Hb as <-. apply Hnv. apply nth_error_In with a. assumption.
        * intros a Ha. apply in_app_or in Ha. apply in_or_app. destruct Ha as [Ha | Ha]; [left; apply Hs; assumption | right; assumption].
        * intros w Hw. apply in_app_or in Hw. destruct Hw as [Hw | [<- | []]].
          -- destruct (Hc w Hw) as (k & Hkin & Hsame). exists k. split; [apply in_or_app; left; assumption|assumption].
          -- exists v. split; [apply in_or_app; right; left; reflexivity | left; reflexivity].
      + intros j Hj. rewrite app_length in Hj. cbn in Hj. lia.
  Qed.

  Definition decodes (verts : list V) (t : V * V * V) (d : nat * nat * nat) : Prop :=
    let '(a, b, c) := t in let '(i, j, k) := d in
    (exists a', nth_error verts i = Some a' /\ same veq a' a) /\
    (exists b', nth_error verts j = Some b' /\ same veq b' b) /\
    (exists c', nth_error verts k = Some c' /\ same veq c' c).
  Definition indices (dst : list (nat * nat * nat)) : list nat := flat dst.

  Lemma nth_error_prefix {A} (l suf : list A) i a : nth_error l i = Some a -> nth_error (l ++ suf) i = Some a.
  Proof. intros H. rewrite nth_error_app1; [assumption|]. apply nth_error_Some. congruence. Qed.

  Lemma add_triangles_inv : forall src seen st dst st', inv seen st -> add_triangles veq src st = (dst, st') ->
    inv (seen ++ flat src) st' /\ (exists suf, fst st' = fst st ++ suf) /\
    Forall2 (decodes (fst st')) src dst /\
    (forall j, j < length (fst st') -> j < length (fst st) \/ In j (indices dst)).
  Proof.
    induction src as [|[[a b] c] src IH]; intros seen st dst st' Hinv H.
    - injection H as <- <-. cbn. rewrite app_nil_r. repeat split; auto; try apply Hinv.
      exists []. rewrite app_nil_r. reflexivity.
    - cbn [add_triangles] in H.
      destruct (add_vertex veq a st) as [i st1] eqn:E1.
      destruct (add_vertex veq b st1) as [j st2] eqn:E2.
      destruct (add_vertex veq c st2) as [k st3] eqn:E3.
      destruct (add_triangles veq src st3) as [dst0 st4] eqn:E4. injection H as <- <-.
      destruct (add_vertex_inv _ _ _ _ _ Hinv E1) as (I1 & (s1 & P1) & (a' & A1 & A2) & U1).
      destruct (add_vertex_inv _ _ _ _ _ I1 E2) as (I2 & (s2 & P2) & (b' & B1 & B2) & U2).
      destruct (add_vertex_inv _ _ _ _ _ I2 E3) as (I3 & (s3 & P3) & (c' & C1 & C2) & U3).
      destruct (IH _ _ _ _ I3 E4) as (I4 & (s4 & P4) & F & U4).
      split; [|split; [|split]].
      + cbn [flat flat_map app]. rewrite <- !app_assoc in I4. exact I4.
      + exists (s1 ++ s2 ++ s3 ++ s4). rewrite P4, P3, P2, P1, <- !app_assoc. reflexivity.
      + constructor; [|assumption]. cbn [decodes]. repeat split.
        * exists a'. split; [|assumption]. rewrite P4, P3, P2, <- !app_assoc. apply nth_error_prefix. assumption.
        * exists b'. split; [|assumption]. rewrite P4, P3, <- !app_assoc. apply nth_error_prefix. assumption.
        * exists c'. split; [|assumption]. rewrite P4. apply nth_error_prefix. assumption.
      + intros x Hx. unfold indices, flat in *. cbn [flat_map].
        destruct (U4 x Hx) as [Hx3 | Hin]; [|right; apply in_or_app; right; assumption].
        destruct (U3 x Hx3) as [Hx2 | ->]; [|right; cbn; auto].
        destruct (U2 x Hx2) as [Hx1 | ->]; [|right; cbn; auto].
        destruct (U1 x Hx1) as [Hx0 | ->]; [|right; cbn; auto]. left. assumption.
  Qed.

  Lemma inv_init : inv [] ([], []).
  Proof.
    constructor; cbn [fst snd map].
    - reflexivity.
    - intros [|i] k e; discriminate.
    - intros [|i] j a b _ H; discriminate.
    - intros a [].
    - intros a [].
  Qed.
End Proofs.

(** ** C24 *)
(** The object added: decodes to the source triangles in order, no two vertices
    equal, every index in range, every vertex used. *)
Theorem C24_decodes {V} (veq : V -> V -> bool) (Heq : go_eq veq) name src m m' err :
  add_object veq name src m = (m', err) ->
  exists o, m_objects m' = m_objects m ++ [o] /\
    let verts := o_vertices o in
    Forall2 (fun t d =>
      let '(a, b, c) := t in let '(i, j, k) := d in
      (exists a', nth_error verts i = Some a' /\ same veq a' a) /\
      (exists b', nth_error verts j = Some b' /\ same veq b' b) /\
      (exists c', nth_error verts k = Some c' /\ same veq c' c)) src (o_triangles o) /\
    (forall i j a b, i <> j -> nth_error verts i = Some a -> nth_error verts j = Some b -> veq a b = false) /\
    (forall i, In i (flat (o_triangles o)) <-> i < length verts) /\
    (forall a, In a verts -> In a (flat src)).
Proof.
  unfold add_object. destruct (add_triangles veq src ([], [])) as [dst [verts vm]] eqn:E. intros H. injection H as <- <-.
  destruct (add_triangles_inv veq Heq _ _ _ _ _ (inv_init veq) E) as ([Hk Hi Hd Hs Hc] & _ & F & U). cbn [fst snd app] in *.
  eexists. split; [reflexivity|]. cbn [o_vertices o_triangles]. cbn zeta. split; [exact F|]. split; [|split].
  - intros i j a b Hij Ha Hb. destruct (Nat.lt_total i j) as [H | [H | H]]; [|congruence|].
    + apply (Hd i j); assumption.
    + rewrite (veq_sym veq Heq). apply (Hd j i); assumption.
  - intros i. split.
    + intros Hin. unfold flat in Hin. apply in_flat_map in Hin. destruct Hin as ([[x y] z] & Hin & Hi').
      clear -F Hin Hi'. induction F as [|[[a b] c] [[p q] r] src dst Hdec F IH]; [destruct Hin|].
      destruct Hin as [Hin | Hin]; [|apply IH; assumption].
      injection Hin as -> -> ->. destruct Hdec as ((? & ? & _) & (? & ? & _) & (? & ? & _)).
      destruct Hi' as [<- | [<- | [<- | []]]]; apply nth_error_Some; congruence.
    + intros Hlt. destruct (U i Hlt) as [H | H]; [cbn in H; lia|exact H].
  - assumption.
Qed.

(** On vertices without NaN and negative zero, where == is equality, this is
    literal: looking the indices up gives the source. *)
Definition expand {V} (verts : list V) (dst : list (nat * nat * nat)) : list (option V * option V * option V) :=
  map (fun d => let '(i, j, k) := d in (nth_error verts i, nth_error verts j, nth_error verts k)) dst.

Theorem C24_expand {V} (veq : V -> V -> bool) (Heq : forall a b, veq a b = true <-> a = b) name src m m' err :
  add_object veq name src m = (m', err) ->
  exists o, m_objects m' = m_objects m ++ [o] /\
    expand (o_vertices o) (o_triangles o) = map (fun t => let '(a, b, c) := t in (Some a, Some b, Some c)) src /\
    NoDup (o_vertices o).
Proof.
  intros H.
  assert (Hge : go_eq veq).
  { split.
    - intros a b. destruct (veq a b) eqn:E1, (veq b a) eqn:E2; try reflexivity.
      + apply Heq in E1. subst. rewrite <- E2. symmetry. apply Heq. reflexivity.
      + apply Heq in E2. subst. rewrite <- E1. apply Heq. reflexivity.
    - intros a b c Hab Hbc. apply Heq in Hab, Hbc. subst. apply Heq. reflexivity. }
  destruct (C24_decodes veq Hge name src m m' err H) as (o & Ho & F & Hd & _ & _).
  exists o. split; [exact Ho|]. split.
  - clear -F Heq. unfold expand. induction F as [|[[a b] c] [[p q] r] src dst Hdec F IH]; [reflexivity|].
    cbn [map]. rewrite IH. f_equal.
    assert (Hs : forall x y, same veq x y -> x = y) by (intros x y [?|Hx]; [assumption|apply Heq; assumption]).
    destruct Hdec as ((a' & -> & Ha) & (b' & -> & Hb) & (c' & -> & Hc)).
    apply Hs in Ha, Hb, Hc. subst. reflexivity.
  - apply NoDup_nth_error. intros i j Hi Hij.
    destruct (Nat.eq_dec i j); [assumption|]. exfalso.
    destruct (nth_error (o_vertices o) i) as [a|] eqn:Ea; [|apply nth_error_Some in Hi; congruence].
    symmetry in Hij. pose proof (Hd i j a a ltac:(assumption) Ea Hij) as Hf.
    assert (veq a a = true) by (apply Heq; reflexivity). congruence.
Qed.

(** ** C25 *)
Theorem C25_manifold_warning {V} (veq : V -> V -> bool) (Heq : go_eq veq) name src m m' err :
  add_object veq name src m = (m', err) ->
  (err = true <-> exists v, In v (flat src) /\ length (filter (veq v) (flat src)) < 3) /\
  exists o, m_objects m' = m_objects m ++ [o].
Proof.
  unfold add_object. destruct (add_triangles veq src ([], [])) as [dst [verts vm]] eqn:E. intros H. injection H as <- <-.
  destruct (add_triangles_inv veq Heq _ _ _ _ _ (inv_init veq) E) as ([Hk Hi Hd Hs Hc] & _ & _ & _). cbn [fst snd app] in *.
  split; [|eexists; reflexivity].
  rewrite existsb_exists. split.
  - intros ([k e] & Hin & Hlt). apply Nat.ltb_lt in Hlt. cbn [snd] in Hlt.
    apply In_nth_error in Hin. destruct Hin as [i Hn]. pose proof (Hi i k e Hn) as ->. cbn [snd] in Hlt.
    exists k. split.
    + apply Hs. rewrite <- Hk. apply in_map_iff. exists (k, (i, occ veq k (flat src))). split; [reflexivity|]. apply nth_error_In with i. assumption.
    + unfold occ in Hlt. lia.
  - intros (v & Hin & Hlt). destruct (Hc v Hin) as (k & Hkin & Hsame).
    rewrite <- Hk in Hkin. apply in_map_iff in Hkin. destruct Hkin as ([k' e] & Heqk & Hkin). cbn in Heqk. subst k'.
    exists (k, e). split; [assumption|]. apply In_nth_error in Hkin. destruct Hkin as [i Hn].
    pose proof (Hi i k e Hn) as ->. cbn [snd]. apply Nat.ltb_lt. unfold occ.
    assert (Hfe : forall l, length (filter (veq k) l) = length (filter (veq v) l)).
    { destruct Hsame as [-> | Hkv]; [reflexivity|]. intros l. f_equal. apply filter_ext. intros w.
      apply (veq_cong veq Heq). assumption. }
    rewrite Hfe. lia.
Qed.

(** ** C26 *)
Definition add_all {V} (veq : V -> V -> bool) (calls : list (string * list (V * V * V))) (m : model3mf V) : model3mf V :=
  fold_left (fun m c => fst (add_object veq (fst c) (snd c) m)) calls m.

Theorem C26_ids {V} (veq : V -> V -> bool) (calls : list (string * list (V * V * V))) :
  let m := add_all veq calls new_3mf in
  map o_id (m_objects m) = seq 1 (length calls) /\
  m_build m = map o_id (m_objects m) /\
  map o_name (m_objects m) = map fst calls /\
  (forall more, exists suf, m_objects (add_all veq (calls ++ more) new_3mf) = m_objects m ++ suf).
Proof.
  assert (Hgen : forall calls m,
    exists suf, m_objects (add_all veq calls m) = m_objects m ++ suf /\
      map o_id suf = seq (S (length (m_objects m))) (length calls) /\
      m_build (add_all veq calls m) = m_build m ++ map o_id suf /\ map o_name suf = map fst calls).
  { clear calls. induction calls as [|[nm src] calls IH]; intros m.
    - exists []. cbn. rewrite !app_nil_r. auto.
    - cbn [add_all fold_left fst snd]. unfold add_object at 2.
      fold (add_all veq calls).
      change (fold_left (fun m0 c => fst (add_object veq (fst c) (snd c) m0)) calls) with (add_all veq calls).
      unfold add_object. destruct (add_triangles veq src ([], [])) as [dst [verts vm]]. cbn [fst].
      set (o := Obj _ nm verts dst). set (m1 := Model3 _ _).
      destruct (IH m1) as (suf & H1 & H2 & H3 & H4). exists (o :: suf).
      unfold m1 at 2 in H1. unfold m1 at 2 in H3. cbn [m_objects m_build] in H1, H3.
      rewrite H1, H3, <- !app_assoc. cbn [app map]. repeat split.
      + rewrite H2. unfold m1. cbn [m_objects length seq o o_id]. rewrite app_length. cbn [length].
        rewrite Nat.add_1_r. reflexivity.
      + cbn [o o_name fst]. rewrite H4. reflexivity. }
  destruct (Hgen calls new_3mf) as (suf & H1 & H2 & H3 & H4). cbn zeta.
  rewrite H1, H3. cbn [new_3mf m_objects m_build app length] in *. repeat split; auto.
  intros more. unfold add_all. rewrite fold_left_app. fold (add_all veq calls new_3mf).
  destruct (Hgen more (add_all veq calls new_3mf)) as (suf' & H1' & _). exists suf'.
  change (m_objects (add_all veq more (add_all veq calls new_3mf)) = suf ++ suf'). rewrite H1', H1. reflexivity.
Qed.

(** Go's == on float64 vectors meets the assumption made above. *)
Lemma SFcompare_eq x y : SFcompare x y = Some Eq -> x = y \/ (exists s s', x = S754_zero s /\ y = S754_zero s').
Proof.
  destruct x as [s|s| |s m e], y as [s'|s'| |s' m' e']; cbn; intros H;
    try discriminate; try (destruct s; discriminate); try (destruct s'; discriminate); eauto 6.
  - left. destruct s, s'; try discriminate; reflexivity.
  - left. destruct s, s'; try discriminate.
    + destruct (Z.compare_spec e e'); try discriminate. subst e'.
      injection H as H. destruct (Pos.compare_cont Eq m m') eqn:Ep; try discriminate.
      apply Pos.compare_eq in Ep. subst. reflexivity.
    + destruct (Z.compare_spec e e'); try discriminate. subst e'.
      injection H as H. apply Pos.compare_eq in H. subst. reflexivity.
Qed.

Lemma SFcompare_refl_eq x y : SFcompare x y = Some Eq -> SFcompare x x = Some Eq.
Proof.
  destruct x as [s|s| |s m e], y as [s'|s'| |s' m' e']; cbn; try discriminate; try reflexivity;
    try (destruct s; reflexivity);
    destruct s, s'; try discriminate; intros _; rewrite Z.compare_refl; change (Pos.compare_cont Eq m m) with (Pos.compare m m); rewrite Pos.compare_refl; reflexivity.
Qed.

Lemma SFeqb_true x y : SFeqb x y = true <-> SFcompare x y = Some Eq.
Proof. unfold SFeqb. destruct (SFcompare x y) as [[]|]; split; congruence. Qed.

Definition vec64_eqb (a b : spec_float * spec_float * spec_float) : bool :=
  let '(a1, a2, a3) := a in let '(b1, b2, b3) := b in SFeqb a1 b1 && SFeqb a2 b2 && SFeqb a3 b3.

Lemma SFeqb_go : go_eq SFeqb.
Proof.
  assert (Hsym : forall a b, SFeqb a b = true -> SFeqb b a = true).
  { intros a b H. apply SFeqb_true in H. apply SFeqb_true.
    pose proof (SFcompare_refl_eq a b H). apply SFcompare_eq in H. destruct H as [<- | (s & s' & -> & ->)]; [assumption|reflexivity]. }
  split.
  - intros a b. destruct (SFeqb a b) eqn:E1, (SFeqb b a) eqn:E2; try reflexivity.
    + apply Hsym in E1. congruence.
    + apply Hsym in E2. congruence.
  - intros a b c H1 H2. apply SFeqb_true in H1, H2. apply SFeqb_true.
    destruct (SFcompare_eq _ _ H1) as [<- | (s & s' & -> & ->)]; [assumption|].
    destruct (SFcompare_eq _ _ H2) as [<- | (? & s'' & _ & ->)]; reflexivity.
Qed.

Lemma vec64_go_eq : go_eq vec64_eqb.
Proof.
  destruct SFeqb_go as [Hs Ht]. split.
  - intros [[a1 a2] a3] [[b1 b2] b3]. cbn. rewrite (Hs a1), (Hs a2), (Hs a3). reflexivity.
  - intros [[a1 a2] a3] [[b1 b2] b3] [[c1 c2] c3]. cbn. rewrite !andb_true_iff. intros [[? ?] ?] [[? ?] ?].
    repeat split; eapply Ht; eassumption.
Qed.

(** A tetrahedron: every vertex three times, no warning; one face missing: warning. *)
Definition ex_tet : list (nat * nat * nat) := [(7, 8, 9); (7, 9, 5); (7, 5, 8); (8, 5, 9)].
Example C24_C25_C26_nonvacuous :
  add_object Nat.eqb "tet"%string ex_tet new_3mf =
    (Model3 [Obj 1 "tet"%string [7; 8; 9; 5] [(0, 1, 2); (0, 2, 3); (0, 3, 1); (1, 3, 2)]] [1], false) /\
  snd (add_object Nat.eqb "open"%string (tl ex_tet) new_3mf) = true /\
  m_build (add_all Nat.eqb [("a"%string, ex_tet); ("b"%string, tl ex_tet)] new_3mf) = [1; 2].
Proof. repeat split. Qed.
(** NaN vertices never match, so they are stored once per occurrence and warned about. *)
Example C25_nan : snd (add_object SFeqb "nan"%string [(S754_nan, S754_nan, S754_nan)] new_3mf) = true.
Proof. reflexivity. Qed.
