(** The polygon builder (C60). *)
From Coq Require Import Reals Lra Psatz List Bool ZArith Lia Rtrigo_facts.
From Verif Require Import Prelude Vec BoxModel MatrixModel SdfModel PolyModel Trig PropsMatrix PropsBool PropsBox PropsUtil SdfLemmas PropsPoly.
Import ListNotations.
Local Open Scope R_scope.

(** ** Specification *)
(** An arc vertex with a predecessor becomes the points of the arc followed by itself. *)
Definition arc_block (prev : option v2) (v : pvertex) : list pvertex :=
  match pv_type v with
  | PvArc => match prev with Some a => arc_points a (pv_pos v) (pv_radius v) (pv_facets v) | None => [] end ++ [set_type v PvNormal]
  | _ => [v]
  end.
Fixpoint arcs_from (prev : option v2) (l : list pvertex) : list pvertex :=
  match l with [] => [] | v :: r => arc_block prev v ++ arcs_from (Some (pv_pos v)) r end.
Definition last_pos (l : list pvertex) : option v2 := match l with [] => None | v :: r => Some (pv_pos (last (v :: r) v)) end.
Definition expand_arcs (closed : bool) (l : list pvertex) : list pvertex := arcs_from (if closed then last_pos l else None) l.
(** A relative vertex is moved by its (already absolute) predecessor. *)
Definition rel_block (prev : option v2) (v : pvertex) : pvertex :=
  if pv_rel v then PV false (pv_type v) (add2 (pv_pos v) (match prev with Some a => a | None => zero2 end)) (pv_facets v) (pv_radius v) else v.
Fixpoint abs_from (prev : option v2) (l : list pvertex) : list pvertex :=
  match l with [] => [] | v :: r => let v' := rel_block prev v in v' :: abs_from (Some (pv_pos v')) r end.
(** The first vertex is absolute, or the polygon is closed and the last vertex is. *)
Definition first_ok (closed : bool) (l : list pvertex) : Prop :=
  match l with [] => True | v :: r => pv_rel v = false \/ (closed = true /\ pv_rel (last (v :: r) v) = false) end.
(** Smoothing replaces some of the vertices marked for it by the points of an arc between two
    other points. *)
Inductive smoothed : list pvertex -> list pvertex -> Prop :=
| sm_nil : smoothed [] []
| sm_keep v l l' : smoothed l l' -> smoothed (v :: l) (v :: l')
| sm_arc v a b pts l l' : pv_type v = PvSmooth -> smooth_points (pv_pos v) a b (pv_radius v) (pv_facets v) = Some pts ->
    smoothed l l' -> smoothed (v :: l) (pts ++ l').
Definition facets_ok (l : list pvertex) : Prop := forall v, In v l -> pv_type v <> PvNormal -> (1 <= pv_facets v)%Z.

(** ** Passes *)
Definition arc_count (l : list pvertex) : nat := length (filter (fun v => match pv_type v with PvArc => true | _ => false end) l).
Definition smooth_count (l : list pvertex) : nat := length (filter (fun v => match pv_type v with PvSmooth => true | _ => false end) l).
Lemma pass_measure step (m : list pvertex -> nat) :
  (forall l i c l', step l i = Ok (c, l') -> (m l' <= m l)%nat /\ (c = true -> (m l' < m l)%nat)) ->
  forall is l ch c l', pass step is l ch = Ok (c, l') -> (m l' <= m l)%nat /\ (c = true -> ch = true \/ (m l' < m l)%nat).
Proof.
  intros H. induction is as [|i r IH]; cbn [pass]; intros l ch c l' E.
  - injection E as <- <-. split; [lia|tauto].
  - destruct (step l i) as [[c1 l1]| |] eqn:E1; cbn [bind] in E; try discriminate. destruct (H _ _ _ _ E1) as (A & B). destruct (IH _ _ _ _ E) as (C & D).
    split; [lia|]. intros Q. destruct (D Q) as [O|O]; [|right; lia]. apply orb_true_iff in O. destruct O as [O|O]; [now left|]. right. specialize (B O). lia.
Qed.
Lemma passes_terminate step (m : list pvertex -> nat) :
  (forall l i c l', step l i = Ok (c, l') -> (m l' <= m l)%nat /\ (c = true -> (m l' < m l)%nat)) ->
  forall fuel l, (m l < fuel)%nat -> exists r, passes step fuel l = Some r.
Proof.
  intros H. induction fuel as [|k IH]; intros l F; [lia|]. cbn [passes]. destruct (pass step (seq 0 (length l)) l false) as [[c l']| |] eqn:E; try (eexists; reflexivity).
  destruct c; [|eexists; reflexivity]. apply IH. destruct (pass_measure _ _ H _ _ _ _ _ E) as (_ & B). destruct (B eq_refl) as [Q|Q]; [discriminate|lia].
Qed.
Lemma passes_mono step : forall fuel l r, passes step fuel l = Some r -> forall k, (fuel <= k)%nat -> passes step k l = Some r.
Proof.
  induction fuel as [|f IH]; cbn [passes]; intros l r E k K; [discriminate|]. destruct k as [|k]; [lia|]. cbn [passes].
  destruct (pass step (seq 0 (length l)) l false) as [[[|] l']| |]; try exact E. apply IH; [exact E|lia].
Qed.
(** Without a failing step a pass covers every index and keeps any transitive relation. *)
Lemma pass_runs step (P : list pvertex -> Prop) (T : list pvertex -> list pvertex -> Prop) :
  (forall l, T l l) -> (forall a b c, T a b -> T b c -> T a c) ->
  (forall l i, P l -> (i < length l)%nat -> exists c l', step l i = Ok (c, l') /\ P l' /\ T l l' /\ (length l <= length l')%nat) ->
  forall is l ch, P l -> (forall i, In i is -> (i < length l)%nat) -> exists c l', pass step is l ch = Ok (c, l') /\ P l' /\ T l l'.
Proof.
  intros R0 RT H. induction is as [|i r IH]; cbn [pass]; intros l ch PL B.
  - eexists _, _. split; [reflexivity|]. split; [exact PL|apply R0].
  - destruct (H l i PL (B i ltac:(now left))) as (c & l' & E & PL' & T1 & L). rewrite E. cbn [bind].
    destruct (IH l' (ch || c) PL') as (c2 & l2 & E2 & PL2 & T2). { intros j J. specialize (B j (or_intror J)). lia. }
    exists c2, l2. split; [exact E2|]. split; [exact PL2|]. now apply (RT _ l').
Qed.
Lemma passes_run step (P : list pvertex -> Prop) (T : list pvertex -> list pvertex -> Prop) :
  (forall l, T l l) -> (forall a b c, T a b -> T b c -> T a c) ->
  (forall l i, P l -> (i < length l)%nat -> exists c l', step l i = Ok (c, l') /\ P l' /\ T l l' /\ (length l <= length l')%nat) ->
  forall fuel l r, P l -> passes step fuel l = Some r ->
    exists l1 l2, r = Ok l2 /\ P l1 /\ P l2 /\ T l l2 /\ pass step (seq 0 (length l1)) l1 false = Ok (false, l2).
Proof.
  intros R0 RT H. induction fuel as [|f IH]; cbn [passes]; intros l r PL E; [discriminate|].
  destruct (pass_runs _ P T R0 RT H (seq 0 (length l)) l false PL) as (c & l' & E1 & PL' & T1). { intros i I. apply in_seq in I. lia. }
  rewrite E1 in E. destruct c.
  - destruct (IH l' r PL' E) as (l1 & l2 & A & B & C & D & F). exists l1, l2. repeat split; try assumption. now apply (RT _ l').
  - injection E as <-. exists l, l'. repeat split; try assumption.
Qed.

(** ** Splitting lists at an index *)
Lemma split_at {A} (l : list A) i v : nth_error l i = Some v -> exists l1 l2, l = l1 ++ v :: l2 /\ length l1 = i.
Proof. intros E. destruct (nth_error_split l i E) as (l1 & l2 & A1 & B). now exists l1, l2. Qed.
Lemma firstn_exact {A} (l1 l2 : list A) : firstn (length l1) (l1 ++ l2) = l1.
Proof. rewrite firstn_app, Nat.sub_diag, firstn_all, app_nil_r. reflexivity. Qed.
Lemma skipn_exact {A} (l1 l2 : list A) : skipn (length l1) (l1 ++ l2) = l2.
Proof. rewrite skipn_app, Nat.sub_diag, skipn_all. reflexivity. Qed.
Lemma skipn_succ {A} (l1 : list A) v l2 : skipn (Datatypes.S (length l1)) (l1 ++ v :: l2) = l2.
Proof. rewrite skipn_app, (skipn_all2 l1) by lia. replace (Datatypes.S (length l1) - length l1)%nat with 1%nat by lia. reflexivity. Qed.
Lemma set_nth_split {A} (l1 : list A) v l2 w : set_nth (l1 ++ v :: l2) (length l1) w = l1 ++ w :: l2.
Proof. unfold set_nth. now rewrite firstn_exact, skipn_succ. Qed.

(** ** Arcs *)
Definition pos_after (prev : option v2) (l : list pvertex) : option v2 := match last_pos l with Some a => Some a | None => prev end.
Lemma last_app_cons {A} (l1 : list A) v l2 d : last (l1 ++ v :: l2) d = last (v :: l2) d.
Proof. induction l1 as [|a l1 IH]; [reflexivity|]. cbn [app]. destruct (l1 ++ v :: l2) eqn:E; [destruct l1; discriminate|]. rewrite last_cons. exact IH. Qed.
Lemma last_indep {A} (v : A) l d e : last (v :: l) d = last (v :: l) e.
Proof. revert v. induction l as [|a l IH]; intros v; [reflexivity|]. rewrite !last_cons. apply IH. Qed.
Lemma last_pos_app l1 v l2 : last_pos (l1 ++ v :: l2) = last_pos (v :: l2).
Proof.
  unfold last_pos. destruct (l1 ++ v :: l2) as [|w r] eqn:E; [destruct l1; discriminate|]. rewrite <- E, last_app_cons. f_equal. f_equal. apply last_indep.
Qed.
Lemma last_pos_cons v l : last_pos (v :: l) = pos_after (Some (pv_pos v)) l.
Proof. unfold pos_after. destruct l as [|w r]; [reflexivity|]. change (v :: w :: r) with ([v] ++ w :: r). rewrite last_pos_app. reflexivity. Qed.
Lemma arcs_from_app p l1 l2 : arcs_from p (l1 ++ l2) = arcs_from p l1 ++ arcs_from (pos_after p l1) l2.
Proof.
  revert p. induction l1 as [|v l1 IH]; intros p; [reflexivity|]. cbn [app arcs_from]. rewrite IH, <- app_assoc. do 3 f_equal.
  unfold pos_after at 2. rewrite last_pos_cons. unfold pos_after. destruct (last_pos l1); reflexivity.
Qed.
Lemma arcs_normal p l : (forall v, In v l -> pv_type v <> PvArc) -> arcs_from p l = l.
Proof.
  revert p. induction l as [|v l IH]; intros p N; [reflexivity|]. cbn [arcs_from]. rewrite IH by (intros; apply N; now right). unfold arc_block.
  specialize (N v ltac:(now left)). destruct (pv_type v); [reflexivity|reflexivity|congruence].
Qed.
Lemma arc_points_normal a b r f v : In v (arc_points a b r f) -> pv_type v = PvNormal /\ pv_rel v = false.
Proof. unfold arc_points. intros I. apply in_map_iff in I. destruct I as (w & <- & _). now split. Qed.
Lemma arc_points_length a b r f : length (arc_points a b r f) = Z.to_nat (f - 1).
Proof. unfold arc_points. rewrite map_length. apply iterate_length. Qed.
Lemma snoc_or_nil {A} (l : list A) : l = [] \/ exists l0 w, l = l0 ++ [w].
Proof. destruct l as [|a l]; [now left|]. right. destruct (exists_last (l := a :: l) ltac:(discriminate)) as (l0 & w & E). now exists l0, w. Qed.
Lemma prev_split closed l1 v l2 : option_map pv_pos (prev_vertex closed (l1 ++ v :: l2) (length l1)) = pos_after (if closed then last_pos (l1 ++ v :: l2) else None) l1.
Proof.
  destruct (snoc_or_nil l1) as [->|(l0 & w & ->)].
  - destruct closed; [|reflexivity]. change (option_map pv_pos (nth_error (v :: l2) (length (v :: l2) - 1)) = last_pos (v :: l2)).
    destruct (snoc_or_nil (v :: l2)) as [E|(l0 & w & E)]; [discriminate|]. rewrite E, app_length. cbn [length]. replace (length l0 + 1 - 1)%nat with (length l0) by lia.
    rewrite nth_error_app2, Nat.sub_diag by lia. rewrite last_pos_app. reflexivity.
  - rewrite app_length. cbn [length]. replace (length l0 + 1)%nat with (Datatypes.S (length l0)) by lia. cbn [prev_vertex]. rewrite <- app_assoc. cbn [app].
    rewrite nth_error_app2, Nat.sub_diag by lia. unfold pos_after. rewrite last_pos_app. reflexivity.
Qed.
Lemma arc_step closed l i : facets_ok l -> (i < length l)%nat ->
  exists c l', arc_vertex closed l i = Ok (c, l') /\ facets_ok l' /\ expand_arcs closed l' = expand_arcs closed l /\ (length l <= length l')%nat /\
    (c = false -> length l' = length l /\ (forall v, nth_error l' i = Some v -> pv_type v <> PvArc) /\
       forall j, (forall v, nth_error l j = Some v -> pv_type v <> PvArc) -> forall v, nth_error l' j = Some v -> pv_type v <> PvArc).
Proof.
  intros F I. destruct (nth_error l i) as [v|] eqn:E; [|apply nth_error_None in E; lia]. unfold arc_vertex. rewrite E.
  assert (KEEP : pv_type v <> PvArc -> exists c l', Ok (false, l) = Ok (c, l') /\ facets_ok l' /\ expand_arcs closed l' = expand_arcs closed l /\ (length l <= length l')%nat /\
    (c = false -> length l' = length l /\ (forall v, nth_error l' i = Some v -> pv_type v <> PvArc) /\
       forall j, (forall v, nth_error l j = Some v -> pv_type v <> PvArc) -> forall v, nth_error l' j = Some v -> pv_type v <> PvArc)).
  { intros N. exists false, l. split; [reflexivity|]. split; [exact F|]. split; [reflexivity|]. split; [lia|]. intros _. split; [reflexivity|]. split; [|intros j J; exact J]. intros w W. congruence. }
  destruct (pv_type v) eqn:TY; [apply KEEP; congruence|apply KEEP; congruence|]. clear KEEP.
  destruct (split_at l i v E) as (l1 & l2 & -> & <-). rewrite set_nth_split. set (v' := set_type v PvNormal).
  assert (F' : facets_ok (l1 ++ v' :: l2)).
  { intros w W T. apply in_app_or in W. destruct W as [W|[W|W]]; [apply F; [apply in_or_app; now left|exact T]|subst w; cbn in T; congruence|apply F; [apply in_or_app; right; now right|exact T]]. }
  assert (LP : last_pos (l1 ++ v' :: l2) = last_pos (l1 ++ v :: l2)).
  { rewrite !last_pos_app, !last_pos_cons. reflexivity. }
  pose proof (prev_split closed l1 v' l2) as PS. rewrite LP in PS. set (p0 := if closed then last_pos (l1 ++ v :: l2) else None) in *.
  assert (EX : expand_arcs closed (l1 ++ v :: l2) = arcs_from p0 l1 ++ (match pos_after p0 l1 with Some a => arc_points a (pv_pos v) (pv_radius v) (pv_facets v) | None => [] end ++ [v']) ++ arcs_from (Some (pv_pos v)) l2).
  { unfold expand_arcs. fold p0. rewrite arcs_from_app. cbn [arcs_from]. unfold arc_block. rewrite TY. reflexivity. }
  destruct (prev_vertex closed (l1 ++ v' :: l2) (length l1)) as [pv|] eqn:PV; cbn [option_map] in PS.
  - assert (FV : (1 <= pv_facets v)%Z) by (apply F; [apply in_or_app; right; now left|congruence]).
    destruct (Z.ltb_spec (pv_facets v - 1) 0); [lia|]. rewrite firstn_exact, skipn_exact. eexists _, _. split; [reflexivity|].
    split; [|split; [|split; [|discriminate]]].
    + intros w W T. apply in_app_or in W. destruct W as [W|W]; [apply F'; [apply in_or_app; now left|exact T]|]. apply in_app_or in W. destruct W as [W|W]; [apply arc_points_normal in W; destruct W; congruence|].
      apply F'; [apply in_or_app; now right|exact T].
    + unfold expand_arcs. assert (LP2 : last_pos (l1 ++ arc_points (pv_pos pv) (pv_pos v) (pv_radius v) (pv_facets v) ++ v' :: l2) = last_pos (l1 ++ v :: l2)).
      { rewrite app_assoc, last_pos_app. rewrite <- LP, last_pos_app. reflexivity. }
      rewrite LP2. fold p0. unfold expand_arcs in EX. fold p0 in EX. rewrite EX, <- PS. rewrite arcs_from_app. f_equal. rewrite <- app_assoc. cbn [app]. rewrite arcs_from_app.
      rewrite (arcs_normal _ (arc_points _ _ _ _)) by (intros w W; apply arc_points_normal in W; destruct W; congruence). reflexivity.
    + rewrite !app_length. cbn [length]. lia.
  - eexists _, _. split; [reflexivity|]. split; [exact F'|]. split; [|split; [rewrite !app_length; cbn [length]; lia|]].
    + unfold expand_arcs. rewrite LP. fold p0. unfold expand_arcs in EX. fold p0 in EX. rewrite EX, <- PS. rewrite arcs_from_app. reflexivity.
    + intros _. split; [rewrite !app_length; cbn [length]; lia|]. split.
      * intros w W. rewrite nth_error_app2, Nat.sub_diag in W by lia. injection W as <-. cbn. congruence.
      * intros j J w W. destruct (Nat.lt_total j (length l1)) as [L|[L|L]].
        { rewrite nth_error_app1 in W by exact L. apply (J w). rewrite nth_error_app1 by exact L. exact W. }
        { subst j. rewrite nth_error_app2, Nat.sub_diag in W by lia. injection W as <-. cbn. congruence. }
        { rewrite nth_error_app2 in W by lia. apply (J w). rewrite nth_error_app2 by lia. destruct (j - length l1)%nat eqn:JJ; [lia|]. exact W. }
Qed.
Lemma arc_pass_false closed : forall is l ch l', facets_ok l -> (forall i, In i is -> (i < length l)%nat) -> pass (arc_vertex closed) is l ch = Ok (false, l') ->
  length l' = length l /\ (forall i, In i is -> forall v, nth_error l' i = Some v -> pv_type v <> PvArc) /\
  (forall j, (forall v, nth_error l j = Some v -> pv_type v <> PvArc) -> forall v, nth_error l' j = Some v -> pv_type v <> PvArc).
Proof.
  assert (MONO : forall is l ch l', pass (arc_vertex closed) is l ch = Ok (false, l') -> ch = false).
  { induction is as [|i r IH]; cbn [pass]; intros l ch l' E; [congruence|]. destruct (arc_vertex closed l i) as [[c l1]| |]; cbn [bind] in E; try discriminate. apply IH in E. now apply orb_false_iff in E. }
  induction is as [|i r IH]; cbn [pass]; intros l ch l' F B E.
  - injection E as _ <-. split; [reflexivity|]. split; [intros i []|]. intros j J. exact J.
  - destruct (arc_step closed l i F (B i ltac:(now left))) as (c & l1 & E1 & F1 & _ & L & Q). rewrite E1 in E. cbn [bind] in E.
    pose proof (MONO _ _ _ _ E) as O. apply orb_false_iff in O. destruct O as (_ & ->). destruct (Q eq_refl) as (L1 & NI & K).
    destruct (IH l1 (ch || false)%bool l' F1) as (L2 & A & C); [intros j J; rewrite L1; apply B; now right|exact E|].
    split; [congruence|]. split.
    + intros j [<-|J]; [apply C, NI|now apply A].
    + intros j J. apply C. now apply K.
Qed.
Lemma arcs_done closed fuel l r : facets_ok l -> passes (arc_vertex closed) fuel l = Some r ->
  r = Ok (expand_arcs closed l) /\ facets_ok (expand_arcs closed l) /\ forall v, In v (expand_arcs closed l) -> pv_type v <> PvArc.
Proof.
  intros F E. destruct (passes_run (arc_vertex closed) facets_ok (fun a b => expand_arcs closed b = expand_arcs closed a)
    ltac:(reflexivity) ltac:(intros a b c H1 H2; cbv beta in *; congruence)
    ltac:(intros l0 i F0 I0; destruct (arc_step closed l0 i F0 I0) as (c & l' & E' & A & B & C & _); exists c, l'; repeat split; assumption)
    fuel l r F E) as (l1 & l2 & -> & F1 & F2 & X & P).
  cbv beta in X. destruct (arc_pass_false closed (seq 0 (length l1)) l1 false l2 F1) as (L & N & _); [intros i I; apply in_seq in I; lia|exact P|].
  assert (NA : forall v, In v l2 -> pv_type v <> PvArc).
  { intros v I. apply In_nth_error in I. destruct I as (i & E0). apply (N i); [|exact E0]. apply in_seq. assert (i < length l2)%nat by (apply nth_error_Some; congruence). lia. }
  assert (Q : expand_arcs closed l2 = l2) by (unfold expand_arcs; now apply arcs_normal). rewrite Q in X. rewrite <- X. now repeat split.
Qed.
Lemma filter_length_app {A} (f : A -> bool) a b : length (filter f (a ++ b)) = (length (filter f a) + length (filter f b))%nat.
Proof. rewrite filter_app. apply app_length. Qed.
Lemma filter_none {A} (f : A -> bool) l : (forall x, In x l -> f x = false) -> filter f l = [].
Proof. induction l as [|a l IH]; intros H; [reflexivity|]. cbn [filter]. rewrite (H a) by now left. apply IH. intros x I. apply H. now right. Qed.
Lemma arc_measure closed l i c l' : arc_vertex closed l i = Ok (c, l') -> (arc_count l' <= arc_count l)%nat /\ (c = true -> (arc_count l' < arc_count l)%nat).
Proof.
  unfold arc_vertex. destruct (nth_error l i) as [v|] eqn:E; [|discriminate]. destruct (pv_type v) eqn:TY; try (intros Q; injection Q as <- <-; split; [lia|discriminate]).
  destruct (split_at l i v E) as (l1 & l2 & -> & <-). rewrite set_nth_split.
  assert (M : arc_count (l1 ++ v :: l2) = (arc_count l1 + 1 + arc_count l2)%nat). { unfold arc_count. rewrite filter_length_app. cbn [filter]. rewrite TY. cbn [length]. lia. }
  rewrite M. destruct (prev_vertex _ _ _) as [pv|].
  - destruct (_ <? 0)%Z; [discriminate|]. rewrite firstn_exact, skipn_exact. intros Q. injection Q as <- <-. unfold arc_count. rewrite !filter_length_app. cbn [filter set_type pv_type].
    rewrite (filter_none _ (arc_points _ _ _ _)) by (intros w W; apply arc_points_normal in W; destruct W as (-> & _); reflexivity). cbn [length]. lia.
  - intros Q. injection Q as <- <-. unfold arc_count. rewrite filter_length_app. cbn [filter set_type pv_type]. split; [lia|discriminate].
Qed.

(** ** Smoothing *)
Lemma smooth_points_normal v a b r f pts w : smooth_points v a b r f = Some pts -> In w pts -> pv_type w = PvNormal /\ pv_rel w = false.
Proof.
  unfold smooth_points. cbv zeta. destruct (_ || _)%bool; [discriminate|]. intros E. injection E as <-. intros I. apply in_map_iff in I. destruct I as (u & <- & _). now split.
Qed.
Lemma smooth_points_length v a b r f pts : smooth_points v a b r f = Some pts -> length pts = Z.to_nat (f + 1).
Proof. unfold smooth_points. cbv zeta. destruct (_ || _)%bool; [discriminate|]. intros E. injection E as <-. rewrite map_length. apply iterate_length. Qed.
Lemma smoothed_refl l : smoothed l l.
Proof. induction l; constructor; assumption. Qed.
Lemma smoothed_app l1 l1' l2 l2' : smoothed l1 l1' -> smoothed l2 l2' -> smoothed (l1 ++ l2) (l1' ++ l2').
Proof. intros A B. induction A as [|v l l' A IH|v a b pts l l' T S A IH]; [exact B|constructor; exact IH|]. rewrite <- app_assoc. cbn [app]. now apply (sm_arc v a b). Qed.
Lemma smoothed_normal pts l c : (forall w, In w pts -> pv_type w = PvNormal) -> smoothed (pts ++ l) c -> exists c', c = pts ++ c' /\ smoothed l c'.
Proof.
  revert c. induction pts as [|p pts IH]; intros c N H; [exists c; now split|]. cbn [app] in H. inversion H as [|v l0 l' H1 E1 E2|v a b q l0 l' T S H1 E1 E2]; subst.
  - destruct (IH l') as (c' & -> & K); [intros w W; apply N; now right|exact H1|]. exists c'. now split.
  - specialize (N p ltac:(now left)). congruence.
Qed.
Lemma smoothed_trans a b c : smoothed a b -> smoothed b c -> smoothed a c.
Proof.
  intros A. revert c. induction A as [|v l l' A IH|v p q pts l l' T S A IH]; intros c B; [exact B| |].
  - inversion B as [|v0 l0 l1 H1 E1 E2|v0 p q pts l0 l1 T S H1 E1 E2]; subst; [constructor; now apply IH|]. apply (sm_arc v p q); try assumption. now apply IH.
  - apply smoothed_normal in B; [|intros w W; now apply (smooth_points_normal _ _ _ _ _ _ _ S W)]. destruct B as (c' & -> & B). apply (sm_arc v p q); try assumption. now apply IH.
Qed.
Lemma smooth_step closed l i : facets_ok l -> (i < length l)%nat ->
  exists c l', smooth_vertex closed l i = Ok (c, l') /\ facets_ok l' /\ smoothed l l' /\ (length l <= length l')%nat /\ (c = false -> l' = l).
Proof.
  intros F I. destruct (nth_error l i) as [v|] eqn:E; [|apply nth_error_None in E; lia]. unfold smooth_vertex. rewrite E.
  assert (KEEP : exists c l', Ok (false, l) = Ok (c, l') /\ facets_ok l' /\ smoothed l l' /\ (length l <= length l')%nat /\ (c = false -> l' = l)).
  { exists false, l. repeat split; auto. apply smoothed_refl. }
  destruct (pv_type v) eqn:TY; try exact KEEP. destruct (next_vertex closed l i) as [vn|]; [|exact KEEP]. destruct (prev_vertex closed l i) as [vp|]; [|exact KEEP].
  destruct (smooth_points _ _ _ _ _) as [pts|] eqn:SP; [|exact KEEP]. clear KEEP.
  assert (FV : (1 <= pv_facets v)%Z) by (apply F; [now apply nth_error_In in E|congruence]). destruct (Z.ltb_spec (pv_facets v + 1) 0); [lia|].
  destruct (split_at l i v E) as (l1 & l2 & -> & <-). rewrite firstn_exact, skipn_succ. eexists _, _. split; [reflexivity|]. split; [|split; [|split; [|discriminate]]].
  - intros w W T. apply in_app_or in W. destruct W as [W|W]; [apply F; [apply in_or_app; now left|exact T]|]. apply in_app_or in W. destruct W as [W|W]; [apply (smooth_points_normal _ _ _ _ _ _ _ SP) in W; destruct W; congruence|].
    apply F; [apply in_or_app; right; now right|exact T].
  - apply smoothed_app; [apply smoothed_refl|]. apply (sm_arc v (pv_pos vp) (pv_pos vn)); try assumption. apply smoothed_refl.
  - rewrite !app_length, (smooth_points_length _ _ _ _ _ _ SP). cbn [length]. lia.
Qed.
Lemma smooth_measure closed l i c l' : smooth_vertex closed l i = Ok (c, l') -> (smooth_count l' <= smooth_count l)%nat /\ (c = true -> (smooth_count l' < smooth_count l)%nat).
Proof.
  unfold smooth_vertex. destruct (nth_error l i) as [v|] eqn:E; [|discriminate]. destruct (pv_type v) eqn:TY; try (intros Q; injection Q as <- <-; split; [lia|discriminate]).
  destruct (next_vertex closed l i) as [vn|]; [|intros Q; injection Q as <- <-; split; [lia|discriminate]]. destruct (prev_vertex closed l i) as [vp|]; [|intros Q; injection Q as <- <-; split; [lia|discriminate]].
  destruct (smooth_points _ _ _ _ _) as [pts|] eqn:SP; [|intros Q; injection Q as <- <-; split; [lia|discriminate]]. destruct (_ <? 0)%Z; [discriminate|].
  destruct (split_at l i v E) as (l1 & l2 & -> & <-). rewrite firstn_exact, skipn_succ. intros Q. injection Q as <- <-. unfold smooth_count. rewrite !filter_length_app. cbn [filter]. rewrite TY.
  rewrite (filter_none _ pts) by (intros w W; apply (smooth_points_normal _ _ _ _ _ _ _ SP) in W; destruct W as (-> & _); reflexivity). cbn [length]. lia.
Qed.
(** A vertex that cannot be smoothed: it is an end of an open polygon, or the radius is too
    large for its neighbours. *)
Definition cannot_smooth (closed : bool) (l : list pvertex) (i : nat) (v : pvertex) : Prop :=
  next_vertex closed l i = None \/ prev_vertex closed l i = None \/
  exists vn vp, next_vertex closed l i = Some vn /\ prev_vertex closed l i = Some vp /\ smooth_points (pv_pos v) (pv_pos vp) (pv_pos vn) (pv_radius v) (pv_facets v) = None.
Lemma smooth_pass_false closed : forall is l ch l', facets_ok l -> (forall i, In i is -> (i < length l)%nat) -> pass (smooth_vertex closed) is l ch = Ok (false, l') ->
  l' = l /\ ch = false /\ forall i v, In i is -> nth_error l i = Some v -> pv_type v = PvSmooth -> cannot_smooth closed l i v.
Proof.
  induction is as [|i r IH]; cbn [pass]; intros l ch l' F B E.
  - injection E as -> <-. split; [reflexivity|]. split; [reflexivity|]. intros i v [].
  - destruct (smooth_step closed l i F (B i ltac:(now left))) as (c & l1 & E1 & F1 & _ & L & Q). rewrite E1 in E. cbn [bind] in E.
    destruct (IH l1 (ch || c)%bool l' F1) as (-> & O & A); [intros j J; specialize (B j (or_intror J)); lia|exact E|]. apply orb_false_iff in O. destruct O as (-> & ->). rewrite (Q eq_refl) in *. split; [reflexivity|]. split; [reflexivity|].
    intros j v [<-|J] V T; [|now apply A]. unfold smooth_vertex in E1. rewrite V, T in E1. unfold cannot_smooth.
    destruct (next_vertex closed l i) as [vn|]; [|now left]. destruct (prev_vertex closed l i) as [vp|]; [|right; now left]. right. right. exists vn, vp. split; [reflexivity|]. split; [reflexivity|].
    destruct (smooth_points _ _ _ _ _) as [pts|]; [|reflexivity]. destruct (_ <? 0)%Z; discriminate.
Qed.
Lemma smooth_pass_stable closed l : (forall i v, nth_error l i = Some v -> pv_type v = PvSmooth -> cannot_smooth closed l i v) ->
  forall is, (forall i, In i is -> (i < length l)%nat) -> pass (smooth_vertex closed) is l false = Ok (false, l).
Proof.
  intros H. induction is as [|i r IH]; cbn [pass]; intros B; [reflexivity|].
  assert (E : smooth_vertex closed l i = Ok (false, l)).
  { unfold smooth_vertex. destruct (nth_error l i) as [v|] eqn:V; [|apply nth_error_None in V; specialize (B i ltac:(now left)); lia].
    destruct (pv_type v) eqn:T; try reflexivity. destruct (H i v V T) as [N|[N|(vn & vp & N & P & S)]]; rewrite ?N; try reflexivity; [destruct (next_vertex _ _ _); reflexivity|]. rewrite P, S. reflexivity. }
  rewrite E. cbn [bind orb]. apply IH. intros j J. apply B. now right.
Qed.
Lemma smooth_done closed fuel l r : facets_ok l -> passes (smooth_vertex closed) fuel l = Some r ->
  exists l2, r = Ok l2 /\ facets_ok l2 /\ smoothed l l2 /\ forall i v, nth_error l2 i = Some v -> pv_type v = PvSmooth -> cannot_smooth closed l2 i v.
Proof.
  intros F E. destruct (passes_run (smooth_vertex closed) facets_ok smoothed smoothed_refl smoothed_trans
    ltac:(intros l0 i F0 I0; destruct (smooth_step closed l0 i F0 I0) as (c & l' & E' & A & B & C & _); exists c, l'; repeat split; assumption)
    fuel l r F E) as (l1 & l2 & -> & F1 & F2 & X & P).
  exists l2. split; [reflexivity|]. split; [exact F2|]. split; [exact X|]. apply smooth_pass_false in P; [|exact F1|intros i I; apply in_seq in I; lia]. destruct P as (-> & _ & A).
  intros i v V T. apply A; [|exact V|exact T]. apply in_seq. assert (i < length l1)%nat by (apply nth_error_Some; congruence). lia.
Qed.

(** ** Relative vertices *)
Lemma rel_chain closed : forall l2 l1 w, pv_rel w = false ->
  rel_to_abs closed (seq (length (l1 ++ [w])) (length l2)) ((l1 ++ [w]) ++ l2) = Ok (false, (l1 ++ [w]) ++ abs_from (Some (pv_pos w)) l2).
Proof.
  induction l2 as [|v l2 IH]; intros l1 w W; [reflexivity|]. cbn [length seq rel_to_abs abs_from]. rewrite nth_error_app2, Nat.sub_diag by lia. cbn [nth_error].
  unfold rel_block. destruct (pv_rel v) eqn:RV.
  - assert (PVX : prev_vertex closed ((l1 ++ [w]) ++ v :: l2) (length (l1 ++ [w])) = Some w).
    { rewrite app_length. cbn [length]. replace (length l1 + 1)%nat with (Datatypes.S (length l1)) by lia. cbn [prev_vertex]. rewrite <- app_assoc, nth_error_app2, Nat.sub_diag by lia. reflexivity. }
    rewrite PVX, W, set_nth_split. set (v' := PV false _ _ _ _). specialize (IH (l1 ++ [w]) v' eq_refl). rewrite !app_length in *. cbn [length] in *. rewrite <- !app_assoc in *. cbn [app] in *.
    replace (Datatypes.S (length l1 + 1)) with (length l1 + 1 + 1)%nat by lia. exact IH.
  - specialize (IH (l1 ++ [w]) v RV). rewrite !app_length in *. cbn [length] in *. rewrite <- !app_assoc in *. cbn [app] in *.
    replace (Datatypes.S (length l1 + 1)) with (length l1 + 1 + 1)%nat by lia. exact IH.
Qed.
Lemma rel_done closed l : first_ok closed l -> rel_to_abs closed (seq 0 (length l)) l = Ok (false, abs_from (if closed then last_pos l else None) l).
Proof.
  destruct l as [|v r]; intros F; [reflexivity|]. cbn [length seq rel_to_abs nth_error abs_from]. unfold rel_block. cbn [first_ok] in F. destruct (pv_rel v) eqn:RV.
  - destruct F as [F|(-> & F)]; [congruence|]. cbn [prev_vertex]. destruct (snoc_or_nil (v :: r)) as [Q|(l0 & w & Q)]; [discriminate|]. rewrite Q in *. rewrite last_last in F. rewrite app_length. cbn [length].
    replace (length l0 + 1 - 1)%nat with (length l0) by lia. rewrite nth_error_app2, Nat.sub_diag by lia. cbn [nth_error]. rewrite F. rewrite last_pos_app. cbn [last_pos last].
    rewrite <- Q. change (v :: r) with ([] ++ v :: r). change 0%nat with (length (@nil pvertex)) at 1. rewrite set_nth_split. cbn [app]. exact (rel_chain true r [] (PV false (pv_type v) (add2 (pv_pos v) (pv_pos w)) (pv_facets v) (pv_radius v)) eq_refl).
  - exact (rel_chain closed r [] v RV).
Qed.
Lemma abs_rel p l v : In v (abs_from p l) -> pv_rel v = false.
Proof.
  revert p. induction l as [|w l IH]; intros p I; [destruct I|]. cbn [abs_from] in I. destruct I as [<-|I]; [|now apply IH in I]. unfold rel_block. destruct (pv_rel w) eqn:E; [reflexivity|exact E].
Qed.
Lemma abs_facets p l : facets_ok l -> facets_ok (abs_from p l).
Proof.
  revert p. induction l as [|w l IH]; intros p F v I T; [destruct I|]. cbn [abs_from] in I. destruct I as [<-|I]; [|apply (IH (Some (pv_pos (rel_block p w))) ltac:(intros u U; apply F; now right) v I T)].
  unfold rel_block in *. destruct (pv_rel w); cbn in *; apply F; try assumption; now left.
Qed.
Lemma arcs_rel p l v : (forall u, In u l -> pv_rel u = false) -> In v (arcs_from p l) -> pv_rel v = false.
Proof.
  revert p. induction l as [|w l IH]; intros p R I; [destruct I|]. cbn [arcs_from] in I. apply in_app_or in I. destruct I as [I|I]; [|apply (IH _ ltac:(intros u U; apply R; now right) I)].
  unfold arc_block in I. destruct (pv_type w); try (destruct I as [<-|[]]; apply R; now left). apply in_app_or in I. destruct I as [I|[<-|[]]]; [|cbn; apply R; now left].
  destruct p; [|destruct I]. now apply arc_points_normal in I.
Qed.
Lemma smoothed_rel l l' v : smoothed l l' -> (forall u, In u l -> pv_rel u = false) -> In v l' -> pv_rel v = false.
Proof.
  intros H. induction H as [|w l l' H IH|w a b pts l l' T S H IH]; intros R I; [destruct I| |].
  - destruct I as [<-|I]; [apply R; now left|]. apply IH; [intros u U; apply R; now right|exact I].
  - apply in_app_or in I. destruct I as [I|I]; [now apply (smooth_points_normal _ _ _ _ _ _ _ S) in I|]. apply IH; [intros u U; apply R; now right|exact I].
Qed.
Lemma smoothed_arc l l' v : smoothed l l' -> (forall u, In u l -> pv_type u <> PvArc) -> In v l' -> pv_type v <> PvArc.
Proof.
  intros H. induction H as [|w l l' H IH|w a b pts l l' T S H IH]; intros R I; [destruct I| |].
  - destruct I as [<-|I]; [apply R; now left|]. apply IH; [intros u U; apply R; now right|exact I].
  - apply in_app_or in I. destruct I as [I|I]; [apply (smooth_points_normal _ _ _ _ _ _ _ S) in I; destruct I; congruence|]. apply IH; [intros u U; apply R; now right|exact I].
Qed.
Lemma rel_none closed l : (forall v, In v l -> pv_rel v = false) -> forall is, (forall i, In i is -> (i < length l)%nat) -> rel_to_abs closed is l = Ok (false, l).
Proof.
  intros N. induction is as [|i r IH]; intros B; [reflexivity|]. cbn [rel_to_abs]. destruct (nth_error l i) as [v|] eqn:E; [|apply nth_error_None in E; specialize (B i ltac:(now left)); lia].
  rewrite (N v) by (now apply nth_error_In in E). apply IH. intros j J. apply B. now right.
Qed.
Lemma arc_none closed l : (forall v, In v l -> pv_type v <> PvArc) -> forall is, (forall i, In i is -> (i < length l)%nat) -> pass (arc_vertex closed) is l false = Ok (false, l).
Proof.
  intros N. induction is as [|i r IH]; intros B; [reflexivity|]. cbn [pass]. unfold arc_vertex at 1. destruct (nth_error l i) as [v|] eqn:E; [|apply nth_error_None in E; specialize (B i ltac:(now left)); lia].
  specialize (N v ltac:(now apply nth_error_In in E)). destruct (pv_type v); [| |congruence]; cbn [bind orb]; apply IH; intros j J; apply B; now right.
Qed.

(** ** The theorems *)
Definition answer (b : builder) (fin : list pvertex) : list v2 * builder :=
  (if b_reverse b then rev (map pv_pos fin) else map pv_pos fin, Builder (b_closed b) (b_reverse b) (Some fin)).
Theorem C60_vertices_partial b l : b_list b = Some l -> facets_ok l -> first_ok (b_closed b) l ->
  exists fuel fin, (forall k, (fuel <= k)%nat -> vertices k b = Some (Ok (answer b fin))) /\
    smoothed (expand_arcs (b_closed b) (abs_from (if b_closed b then last_pos l else None) l)) fin /\
    (forall i v, nth_error fin i = Some v -> pv_type v = PvSmooth -> cannot_smooth (b_closed b) fin i v) /\
    (forall k, (1 <= k)%nat -> vertices k (snd (answer b fin)) = Some (Ok (answer b fin))).
Proof.
  destruct b as [c rv bl]. cbn [b_list b_closed]. intros -> F FO. set (l1 := abs_from (if c then last_pos l else None) l).
  assert (F1 : facets_ok l1) by now apply abs_facets. set (fa := Datatypes.S (arc_count l1)).
  destruct (passes_terminate (arc_vertex c) arc_count (arc_measure c) fa l1 ltac:(unfold fa; lia)) as (r1 & E1).
  destruct (arcs_done c fa l1 r1 F1 E1) as (-> & F2 & NA). set (l2 := expand_arcs c l1) in *. set (fs := Datatypes.S (smooth_count l2)).
  destruct (passes_terminate (smooth_vertex c) smooth_count (smooth_measure c) fs l2 ltac:(unfold fs; lia)) as (r2 & E2).
  destruct (smooth_done c fs l2 r2 F2 E2) as (fin & -> & F3 & SM & CS). exists (fa + fs)%nat, fin. split; [|split; [exact SM|split; [exact CS|]]].
  - intros k K. unfold vertices, fixups. cbn [b_list b_closed]. rewrite rel_done by exact FO. fold l1. rewrite (passes_mono _ _ _ _ E1) by lia. rewrite (passes_mono _ _ _ _ E2) by lia. reflexivity.
  - intros k K. unfold vertices, fixups, answer. cbn [b_list b_closed b_reverse snd].
    assert (R : forall v, In v fin -> pv_rel v = false).
    { intros v I. apply (smoothed_rel _ _ _ SM); [|exact I]. intros u U. unfold l2, expand_arcs in U. apply arcs_rel in U; [exact U|]. intros w W. now apply abs_rel in W. }
    rewrite rel_none; [|exact R|intros i I; apply in_seq in I; lia]. destruct k as [|k]; [lia|]. cbn [passes].
    rewrite arc_none; [|intros v I; now apply (smoothed_arc _ _ _ SM NA)|intros i I; apply in_seq in I; lia].
    cbn [passes]. rewrite smooth_pass_stable; [|exact CS|intros i I; apply in_seq in I; lia]. reflexivity.
Qed.
(** Termination needs no hypothesis (a panic is an answer). *)
Theorem C60_terminates b : exists fuel r, forall k, (fuel <= k)%nat -> vertices k b = Some r.
Proof.
  unfold vertices, fixups. destruct (b_list b) as [l|]; [|exists 0%nat; eexists; intros; reflexivity]. destruct (rel_to_abs _ _ l) as [[e l1]| |]; [|exists 0%nat; eexists; intros; reflexivity|exists 0%nat; eexists; intros; reflexivity].
  destruct (passes_terminate (arc_vertex (b_closed b)) arc_count (arc_measure _) (Datatypes.S (arc_count l1)) l1 ltac:(lia)) as (r1 & E1).
  destruct r1 as [l2| |].
  - destruct (passes_terminate (smooth_vertex (b_closed b)) smooth_count (smooth_measure _) (Datatypes.S (smooth_count l2)) l2 ltac:(lia)) as (r2 & E2).
    exists (Datatypes.S (arc_count l1) + Datatypes.S (smooth_count l2))%nat. destruct r2 as [l3| |]; eexists; intros k K; rewrite (passes_mono _ _ _ _ E1) by lia; rewrite (passes_mono _ _ _ _ E2) by lia; reflexivity.
  - exists (Datatypes.S (arc_count l1)). eexists. intros k K. rewrite (passes_mono _ _ _ _ E1) by lia. reflexivity.
  - exists (Datatypes.S (arc_count l1)). eexists. intros k K. rewrite (passes_mono _ _ _ _ E1) by lia. reflexivity.
Qed.
(** A whole history of calls. *)
Fixpoint run_ops (fuel : nat) (b : builder) (ops : list bop) : option (res builder) :=
  match ops with
  | [] => Some (Ok b)
  | o :: r => match apply_op fuel b o with Some (Ok b') => run_ops fuel b' r | x => x end
  end.
Theorem C60_history_terminates : forall ops b, exists fuel r, forall k, (fuel <= k)%nat -> run_ops k b ops = Some r.
Proof.
  induction ops as [|o ops IH]; intros b; [exists 0%nat; eexists; intros; reflexivity|]. cbn [run_ops].
  assert (S1 : exists f r, forall k, (f <= k)%nat -> apply_op k b o = Some r).
  { destruct o; cbn [apply_op]; try (exists 0%nat; eexists; intros; reflexivity).
    - destruct (b_list b) as [[|? ?]|]; exists 0%nat; eexists; intros; reflexivity.
    - destruct (C60_terminates b) as (f & r & E). exists f. destruct r as [[vs b']| |]; eexists; intros k K; rewrite (E k K); reflexivity. }
  destruct S1 as (f & r & E). destruct r as [b'| |].
  - destruct (IH b') as (f2 & r2 & E2). exists (f + f2)%nat, r2. intros k K. rewrite E by lia. apply E2. lia.
  - exists f. eexists. intros k K. rewrite E by lia. reflexivity.
  - exists f. eexists. intros k K. rewrite E by lia. reflexivity.
Qed.
Theorem C60_reverse b l : b_list b = Some l -> forall k,
  match vertices k (Builder (b_closed b) false (Some l)), vertices k (Builder (b_closed b) true (Some l)) with
  | Some (Ok (vs, _)), Some (Ok (ws, _)) => ws = rev vs
  | Some Err, Some Err | Some Panicked, Some Panicked | None, None => True
  | _, _ => False
  end.
Proof. intros _ k. unfold vertices. cbn [b_list b_closed b_reverse]. destruct (fixups k (b_closed b) l) as [[l'| |]|]; exact I || reflexivity. Qed.
(** Only absolute normal vertices: they come back unchanged. *)
Theorem C60_plain b l : b_list b = Some l -> (forall v, In v l -> pv_type v = PvNormal /\ pv_rel v = false) ->
  forall k, (1 <= k)%nat -> vertices k b = Some (Ok (answer b l)).
Proof.
  destruct b as [c rv bl]. cbn [b_list]. intros -> N k K. unfold vertices, fixups, answer. cbn [b_list b_closed b_reverse].
  rewrite rel_none; [|intros v I; now apply N|intros i I; apply in_seq in I; lia]. destruct k as [|k]; [lia|]. cbn [passes].
  rewrite arc_none; [|intros v I; destruct (N v I); congruence|intros i I; apply in_seq in I; lia]. cbn [passes].
  rewrite smooth_pass_stable; [reflexivity| |intros i I; apply in_seq in I; lia]. intros i v E T. apply nth_error_In in E. destruct (N v E). congruence.
Qed.

(** ** Geometry of the inserted points *)
Definition rot (t : R) (v : v2) : v2 := V2 (cos t * x2 v - sin t * y2 v) (sin t * x2 v + cos t * y2 v).
Lemma rot_mul t v : mul_pos22 (rotate22 t) v = rot t v.
Proof. unfold mul_pos22, rotate22, rot. cbn. apply v2_ext; cbn; ring. Qed.
Lemma rot_to w w' ro t : 0 < ro -> norm2sq w = ro -> dot2 w w' = ro * cos t -> cross2 w w' = ro * sin t -> rot t w = w'.
Proof.
  intros P N D C. destruct w as [a b], w' as [c d]. unfold norm2sq, dot2, cross2, rot in *. cbn [x2 y2] in *. apply v2_ext; cbn [x2 y2]; apply (Rmult_eq_reg_l ro); try lra.
  - replace (ro * (cos t * a - sin t * b)) with ((ro * cos t) * a - (ro * sin t) * b) by ring. rewrite <- D, <- C, <- N. ring.
  - replace (ro * (sin t * a + cos t * b)) with ((ro * sin t) * a + (ro * cos t) * b) by ring. rewrite <- D, <- C, <- N. ring.
Qed.
Lemma nth_iterate_rot c t n w j : (j < n)%nat ->
  nth_error (map (fun rv => pv_at (add2 c rv)) (iterate (mul_pos22 (rotate22 t)) n w)) j = Some (pv_at (add2 c (rot (INR j * t) w))).
Proof. intros J. rewrite (map_nth_error _ _ _ (iterate_nth _ n w j J)). rewrite rotate_iter, rot_mul. reflexivity. Qed.
Lemma rot_add s t v : rot s (rot t v) = rot (s + t) v.
Proof. unfold rot. cbn [x2 y2]. rewrite cos_plus, sin_plus. apply v2_ext; cbn [x2 y2]; ring. Qed.
Lemma sign_sq r : r <> 0 -> sign r * sign r = 1 /\ 0 < sign r * r /\ sign r * r = Rabs r.
Proof.
  intros N. unfold sign. destruct (Reqb_spec r 0); [congruence|]. destruct (Rltb_spec r 0) as [L|L]; repeat split; try lra.
  - rewrite Rabs_left by exact L. ring.
  - rewrite Rabs_pos_eq by exact L. ring.
Qed.
(** The points of an arc lie on a circle of the given radius through both ends, evenly spaced,
    on the shorter arc; the sign of the radius selects the side of the centre. *)
Theorem C60_arc_geometry a b r f : a <> b -> r <> 0 -> norm2 (sub2 b a) <= 2 * Rabs r -> (1 <= f)%Z ->
  exists c t, norm2 (sub2 a c) = Rabs r /\ norm2 (sub2 b c) = Rabs r /\
    length (arc_points a b r f) = Z.to_nat (f - 1) /\
    (forall j, (j < Z.to_nat (f - 1))%nat -> nth_error (arc_points a b r f) j = Some (pv_at (add2 c (rot (INR (Datatypes.S j) * t) (sub2 a c))))) /\
    add2 c (rot (IZR f * t) (sub2 a c)) = b /\ IZR f * Rabs t <= PI /\
    0 <= r * cross2 (sub2 c a) (sub2 b a).
Proof.
  intros N R0 CH F. destruct (seg_frame a b N) as (P & U & BX & BY). destruct (sign_sq r R0) as (SS & SP & SA). unfold arc_points. cbv zeta.
  set (L := norm2 (sub2 b a)) in *. set (u := unit2 (sub2 b a)) in *. clearbody L u.
  assert (MID : norm2 (sub2 (scale2 (1 / 2) (add2 a b)) a) = L / 2).
  { unfold norm2, norm2sq, dot2, sub2, scale2, add2. cbn [x2 y2]. rewrite BX, BY. replace (_ + _) with ((L / 2) * (L / 2) * (x2 u * x2 u + y2 u * y2 u)) by field. rewrite U, Rmult_1_r. apply sqrt_square. lra. }
  rewrite MID. set (q := Rabs r) in *. assert (QP : 0 < q) by now apply Rabs_pos_lt. set (g := q * q - L / 2 * (L / 2)). assert (G0 : 0 <= g) by (unfold g; nra).
  set (dc := sqrt g). assert (DC : dc * dc = g) by (now apply sqrt_sqrt). assert (DC0 : 0 <= dc) by apply sqrt_pos. unfold g in DC. clearbody dc. clear G0 g.
  set (s := sign r) in *. clearbody s. set (c := add2 (scale2 (1 / 2) (add2 a b)) (scale2 dc (scale2 s (V2 (y2 u) (- x2 u))))).
  assert (WA : sub2 a c = V2 (- (L / 2) * x2 u - dc * s * y2 u) (- (L / 2) * y2 u + dc * s * x2 u)).
  { unfold c, sub2, add2, scale2. cbn [x2 y2]. rewrite BX, BY. apply v2_ext; cbn [x2 y2]; field. }
  assert (WB : sub2 b c = V2 (L / 2 * x2 u - dc * s * y2 u) (L / 2 * y2 u + dc * s * x2 u)).
  { unfold c, sub2, add2, scale2. cbn [x2 y2]. rewrite BX, BY. apply v2_ext; cbn [x2 y2]; field. }
  clearbody c. destruct u as [ux uy]. cbn [x2 y2] in *. assert (U' : ux * ux = 1 - uy * uy) by lra.
  assert (NA : norm2sq (sub2 a c) = q * q). { rewrite WA. unfold norm2sq, dot2. cbn [x2 y2]. transitivity ((L / 2 * (L / 2) + dc * dc * (s * s)) * (ux * ux + uy * uy)); [ring|]. rewrite SS, DC, U. ring. }
  assert (NB : norm2sq (sub2 b c) = q * q). { rewrite WB. unfold norm2sq, dot2. cbn [x2 y2]. transitivity ((L / 2 * (L / 2) + dc * dc * (s * s)) * (ux * ux + uy * uy)); [ring|]. rewrite SS, DC, U. ring. }
  assert (NA' : norm2 (sub2 a c) = q) by (unfold norm2; rewrite NA; apply sqrt_square; lra). assert (NB' : norm2 (sub2 b c) = q) by (unfold norm2; rewrite NB; apply sqrt_square; lra).
  assert (DOT : dot2 (sub2 a c) (sub2 b c) = dc * dc - L / 2 * (L / 2)). { rewrite WA, WB. unfold dot2. cbn [x2 y2]. transitivity ((dc * dc * (s * s) - L / 2 * (L / 2)) * (ux * ux + uy * uy)); [ring|]. rewrite SS, U. ring. }
  assert (CRS : cross2 (sub2 a c) (sub2 b c) = - s * (L * dc)). { rewrite WA, WB. unfold cross2. cbn [x2 y2]. transitivity (- s * (L * dc) * (ux * ux + uy * uy)); [field|]. rewrite U. ring. }
  set (x := dot2 (unit2 (sub2 a c)) (unit2 (sub2 b c))).
  assert (XE : q * q * x = dc * dc - L / 2 * (L / 2)). { unfold x, unit2. rewrite NA', NB'. rewrite <- DOT. unfold dot2, scale2. cbn [x2 y2]. field. lra. }
  assert (QQ : 0 < q * q) by nra. assert (XB : - (q * q) <= q * q * x <= q * q) by (rewrite XE; pose proof (Rle_0_sqr dc); pose proof (Rle_0_sqr (L / 2)); unfold Rsqr in *; lra).
  assert (XR : -1 <= x <= 1) by (split; apply (Rmult_le_reg_l (q * q)); lra). set (phi := acos x). pose proof (acos_bound x) as AB. fold phi in AB. pose proof PI_RGT_0 as PP.
  assert (CP : cos phi = x) by (apply cos_acos; exact XR). assert (SN : 0 <= sin phi) by (apply sin_ge_0; lra).
  assert (SNE : q * q * sin phi = L * dc).
  { pose proof (sin2_cos2 phi) as SC. unfold Rsqr in SC. rewrite CP in SC. assert (E : (q * q * sin phi) * (q * q * sin phi) = (L * dc) * (L * dc)).
    { transitivity (q * q * (q * q) * (sin phi * sin phi)); [ring|]. replace (sin phi * sin phi) with (1 - x * x) by lra. transitivity (q * q * (q * q) - (q * q * x) * (q * q * x)); [ring|]. rewrite XE. replace (q * q) with (dc * dc + L / 2 * (L / 2)) by lra. field. }
    apply Rsqr_inj; [apply Rmult_le_pos; nra|nra|exact E]. }
  clearbody phi. assert (IF : 1 <= IZR f) by (apply IZR_le; exact F). exists c, (- s * phi / IZR f). split; [exact NA'|]. split; [exact NB'|]. split; [rewrite map_length; apply iterate_length|]. split; [|split; [|split]].
  - intros j J. rewrite nth_iterate_rot by exact J. rewrite rot_mul, rot_add. do 4 f_equal. rewrite S_INR. ring.
  - rewrite (rot_to (sub2 a c) (sub2 b c) (q * q)).
    + unfold add2, sub2. apply v2_ext; cbn [x2 y2]; ring.
    + nra.
    + exact NA.
    + replace (IZR f * (- s * phi / IZR f)) with (- (s * phi)) by (field; lra). rewrite cos_neg. assert (SV : s = 1 \/ s = -1) by (assert (Z : (s - 1) * (s + 1) = 0) by lra; apply Rmult_integral in Z; destruct Z; [left|right]; lra).
      rewrite DOT, <- XE. destruct SV as [-> | ->]; [rewrite Rmult_1_l, CP; reflexivity|]. replace (-1 * phi) with (- phi) by ring. rewrite cos_neg, CP. reflexivity.
    + replace (IZR f * (- s * phi / IZR f)) with (- (s * phi)) by (field; lra). rewrite sin_neg. assert (SV : s = 1 \/ s = -1) by (assert (Z : (s - 1) * (s + 1) = 0) by lra; apply Rmult_integral in Z; destruct Z; [left|right]; lra).
      rewrite CRS, <- SNE. destruct SV as [-> | ->]; [rewrite Rmult_1_l; ring|]. replace (-1 * phi) with (- phi) by ring. rewrite sin_neg. ring.
  - assert (SB : Rabs s = 1). { assert (Rabs s * Rabs s = 1) by (rewrite <- Rabs_mult, SS; apply Rabs_R1). pose proof (Rabs_pos s). nra. }
    unfold Rdiv. rewrite !Rabs_mult, Rabs_Ropp, SB, (Rabs_pos_eq phi) by lra. rewrite (Rabs_pos_eq (/ IZR f)) by (left; apply Rinv_0_lt_compat; lra). replace (IZR f * (1 * phi * / IZR f)) with phi by (field; lra). lra.
  - assert (CR : cross2 (sub2 c a) (sub2 b a) = s * (L * dc)).
    { replace (sub2 c a) with (V2 (L / 2 * ux + dc * s * uy) (L / 2 * uy - dc * s * ux)). 2: { pose proof WA as W. unfold sub2 in W. injection W as W1 W2. unfold sub2. apply v2_ext; cbn [x2 y2]; lra. }
      replace (sub2 b a) with (V2 (L * ux) (L * uy)). 2: { unfold sub2. apply v2_ext; cbn [x2 y2]; lra. }
      unfold cross2. cbn [x2 y2]. transitivity (s * (L * dc) * (ux * ux + uy * uy)); [field|]. rewrite U. ring. }
    rewrite CR. assert (0 <= L * dc) by nra. assert (0 <= s * r) by lra. replace (r * (s * (L * dc))) with ((s * r) * (L * dc)) by ring. nra.
Qed.
(** The points replacing a smoothed corner: an evenly spaced arc of the given radius, starting
    on the edge to the previous vertex and ending on the edge to the next one, at the same
    distance from the corner and tangent to both edges. *)
Theorem C60_smooth_geometry v vp vn r f pts : cross2 (sub2 vp v) (sub2 vn v) <> 0 -> 0 < r -> (1 <= f)%Z ->
  smooth_points v vp vn r f = Some pts ->
  exists c t d, let p0 := add2 v (scale2 d (unit2 (sub2 vp v))) in let p1 := add2 v (scale2 d (unit2 (sub2 vn v))) in
    0 < d /\ d <= norm2 (sub2 vp v) /\ d <= norm2 (sub2 vn v) /\
    length pts = Z.to_nat (f + 1) /\
    (forall j, (j < Z.to_nat (f + 1))%nat -> nth_error pts j = Some (pv_at (add2 c (rot (INR j * t) (sub2 p0 c))))) /\
    norm2 (sub2 p0 c) = r /\ add2 c (rot (IZR f * t) (sub2 p0 c)) = p1 /\
    dot2 (sub2 p0 c) (sub2 vp v) = 0 /\ dot2 (sub2 p1 c) (sub2 vn v) = 0 /\ Rabs (IZR f * t) < PI.
Proof.
  intros CX RP F. assert (A : sub2 vp v <> zero2) by (intros Q; apply CX; rewrite Q; unfold cross2, zero2; cbn; ring).
  assert (B : sub2 vn v <> zero2) by (intros Q; apply CX; rewrite Q; unfold cross2, zero2; cbn; ring).
  pose proof (norm2_pos _ A) as PA. pose proof (norm2_pos _ B) as PB. unfold smooth_points. cbv zeta.
  set (e0 := sub2 vp v) in *. set (e1 := sub2 vn v) in *. set (n0 := norm2 e0) in *. set (n1 := norm2 e1) in *.
  assert (E0 : e0 = scale2 n0 (unit2 e0)) by (unfold unit2, scale2; fold n0; apply v2_ext; cbn [x2 y2]; field; lra).
  assert (E1 : e1 = scale2 n1 (unit2 e1)) by (unfold unit2, scale2; fold n1; apply v2_ext; cbn [x2 y2]; field; lra).
  assert (U0 : norm2sq (unit2 e0) = 1). { pose proof (norm2_sq e0) as Q. fold n0 in Q. rewrite E0 in Q. unfold norm2sq, dot2, scale2 in *. cbn [x2 y2] in Q. apply (Rmult_eq_reg_l (n0 * n0)); [|nra]. lra. }
  assert (U1 : norm2sq (unit2 e1) = 1). { pose proof (norm2_sq e1) as Q. fold n1 in Q. rewrite E1 in Q. unfold norm2sq, dot2, scale2 in *. cbn [x2 y2] in Q. apply (Rmult_eq_reg_l (n1 * n1)); [|nra]. lra. }
  set (v0 := unit2 e0) in *. set (v1 := unit2 e1) in *. assert (X0 : cross2 v0 v1 <> 0).
  { intros Q. apply CX. rewrite E0, E1. unfold cross2, scale2 in *. cbn [x2 y2]. transitivity (n0 * n1 * (x2 v0 * y2 v1 - y2 v0 * x2 v1)); [ring|]. rewrite Q. ring. }
  set (D := dot2 v0 v1). set (X := cross2 v0 v1) in *. assert (DX : D * D + X * X = 1).
  { transitivity (norm2sq v0 * norm2sq v1); [unfold D, X, norm2sq, dot2, cross2; ring|rewrite U0, U1; ring]. }
  assert (XX : 0 < X * X) by nra. assert (DR : -1 < D < 1) by (split; nra). set (th := acos D). pose proof (acos_bound D) as AB. fold th in AB. pose proof PI_RGT_0 as PP.
  assert (CT : cos th = D) by (apply cos_acos; lra). assert (TH : 0 < th < PI).
  { split; [destruct (Req_dec th 0) as [Z|Z]; [rewrite Z, cos_0 in CT; lra|lra]|destruct (Req_dec th PI) as [Z|Z]; [rewrite Z, cos_PI in CT; lra|lra]]. }
  clearbody th. set (h := th / 2). assert (THH : th = 2 * h) by (unfold h; field). assert (SH : 0 < sin h) by (apply sin_gt_0; unfold h; lra). assert (CH : 0 < cos h) by (apply cos_gt_0; unfold h; lra).
  assert (SCH : sin h * sin h + cos h * cos h = 1) by apply sin2_cos2. assert (DH : D = 2 * cos h * cos h - 1) by (rewrite <- CT, THH, cos_2a_cos; ring).
  assert (ST : 0 < sin th) by (apply sin_gt_0; lra). assert (STH : sin th = 2 * sin h * cos h) by (rewrite THH, sin_2a; ring).
  set (s := sin h) in *. set (k := cos h) in *. set (d := r / tan h).
  assert (DE : d = r * k / s) by (unfold d, tan, k, s; field; unfold k, s in *; lra). assert (DP : 0 < d) by (rewrite DE; apply Rmult_lt_0_compat; [nra|now apply Rinv_0_lt_compat]).
  destruct (Rltb_spec n0 d) as [L0|L0]; [discriminate|]. destruct (Rltb_spec n1 d) as [L1|L1]; [discriminate|]. cbn [orb]. intros E. injection E as <-.
  assert (NS : norm2 (add2 v0 v1) = 2 * k).
  { unfold norm2. replace (norm2sq (add2 v0 v1)) with ((2 * k) * (2 * k)); [apply sqrt_square; lra|]. transitivity (norm2sq v0 + norm2sq v1 + 2 * D); [rewrite U0, U1, DH; ring|unfold D, norm2sq, dot2, add2; cbn [x2 y2]; ring]. }
  set (c := add2 v (scale2 (r / s) (unit2 (add2 v0 v1)))). set (p0 := add2 v (scale2 d v0)).
  assert (W0 : sub2 p0 c = scale2 (r / (2 * s * k)) (sub2 (scale2 D v0) v1)).
  { unfold p0, c, unit2. rewrite NS, DE, DH. unfold sub2, add2, scale2. apply v2_ext; cbn [x2 y2]; field; lra. }
  set (p1 := add2 v (scale2 d v1)). assert (W1 : sub2 p1 c = scale2 (r / (2 * s * k)) (sub2 (scale2 D v1) v0)).
  { unfold p1, c, unit2. rewrite NS, DE, DH. unfold sub2, add2, scale2. apply v2_ext; cbn [x2 y2]; field; lra. }
  set (m := r / (2 * s * k)) in *. assert (MR : m * (2 * s * k) = r) by (unfold m; field; lra). assert (XS : X * X = (2 * s * k) * (2 * s * k)) by (rewrite DH in DX; nra).
  assert (N0 : norm2sq (sub2 p0 c) = r * r).
  { rewrite W0. transitivity (m * m * (D * D * norm2sq v0 - 2 * D * D + norm2sq v1)); [unfold D, norm2sq, dot2, scale2, sub2; cbn [x2 y2]; ring|]. rewrite U0, U1. rewrite <- MR. replace (D * D * 1 - 2 * D * D + 1) with (X * X) by lra. rewrite XS. ring. }
  set (sg := sign (cross2 v1 v0)). assert (SG : sg = 1 /\ X = - (2 * s * k) \/ sg = -1 /\ X = 2 * s * k).
  { assert (CV : cross2 v1 v0 = - X) by (unfold X, cross2; ring). unfold sg, sign. rewrite CV. destruct (Reqb_spec (- X) 0); [lra|]. assert (0 < 2 * s * k) by nra.
    destruct (Rltb_spec (- X) 0); [right|left]; split; try reflexivity; nra. }
  clearbody sg. assert (IF : 1 <= IZR f) by (apply IZR_le; exact F).
  exists c, (sg * (PI - th) / IZR f), d. cbv zeta. fold p0 p1. split; [exact DP|]. split; [exact L0|]. split; [exact L1|]. split; [rewrite map_length; apply iterate_length|].
  split; [intros j J; now rewrite nth_iterate_rot|]. split; [unfold norm2; rewrite N0; apply sqrt_square; lra|]. split; [|split; [|split]].
  - rewrite (rot_to (sub2 p0 c) (sub2 p1 c) (r * r)).
    + unfold add2, sub2. apply v2_ext; cbn [x2 y2]; ring.
    + nra.
    + exact N0.
    + replace (IZR f * (sg * (PI - th) / IZR f)) with (sg * (PI - th)) by (field; lra). assert (CS : cos (sg * (PI - th)) = - D).
      { destruct SG as [(-> & _)|(-> & _)]; [rewrite Rmult_1_l|replace (-1 * (PI - th)) with (- (PI - th)) by ring; rewrite cos_neg]; rewrite Rtrigo_facts.cos_pi_minus, CT; reflexivity. }
      rewrite CS, W0, W1. transitivity (m * m * (D * D * D - D * norm2sq v0 - D * norm2sq v1 + D)); [unfold D, norm2sq, dot2, scale2, sub2; cbn [x2 y2]; ring|]. rewrite U0, U1, <- MR. transitivity (- (m * m) * D * (1 - D * D)); [ring|]. replace (1 - D * D) with (X * X) by lra. rewrite XS. ring.
    + replace (IZR f * (sg * (PI - th) / IZR f)) with (sg * (PI - th)) by (field; lra). assert (SS : (2 * s * k) * sin (sg * (PI - th)) = - (2 * s * k) * X).
      { destruct SG as [(-> & ->)|(-> & ->)]; [rewrite Rmult_1_l|replace (-1 * (PI - th)) with (- (PI - th)) by ring; rewrite sin_neg]; rewrite Rtrigo_facts.sin_pi_minus, STH; ring. }
      rewrite W0, W1. transitivity (m * m * (D * D - 1) * X); [unfold X, D, cross2, dot2, scale2, sub2; cbn [x2 y2]; ring|]. replace (D * D - 1) with (- (X * X)) by lra. rewrite XS, <- MR.
      replace (m * (2 * s * k) * (m * (2 * s * k)) * sin (sg * (PI - th))) with (m * m * (2 * s * k) * ((2 * s * k) * sin (sg * (PI - th)))) by ring. rewrite SS. ring.
  - rewrite W0, E0. fold v0. transitivity (m * n0 * (D * norm2sq v0 - D)); [unfold D, norm2sq, dot2, scale2, sub2; cbn [x2 y2]; ring|rewrite U0; ring].
  - rewrite W1, E1. fold v1. transitivity (m * n1 * (D * norm2sq v1 - D)); [unfold D, norm2sq, dot2, scale2, sub2; cbn [x2 y2]; ring|rewrite U1; ring].
  - replace (IZR f * (sg * (PI - th) / IZR f)) with (sg * (PI - th)) by (field; lra). apply Rabs_def1; destruct SG as [(-> & _)|(-> & _)]; lra.
Qed.

(** ** What goes wrong, and an example *)
Theorem C60_negative_facets_refuted : forall k,
  vertices (Datatypes.S k) (Builder false false (Some [pv_at (V2 0 0); fold_left apply_mod [MArc 1 (-1)] (pv_at (V2 1 0))])) = Some Panicked.
Proof.
  intros k. cbn [fold_left apply_mod]. assert (Q : Reqb 1 0 = false) by (destruct (Reqb_spec 1 0); [lra|reflexivity]). rewrite Q. reflexivity.
Qed.
Theorem C60_first_relative_refuted : forall k x l,
  vertices k (Builder false false (Some (fold_left apply_mod [MRel] (pv_at x) :: l))) = Some Panicked.
Proof. reflexivity. Qed.
Theorem C60_all_relative_refuted : let rel x := fold_left apply_mod [MRel] (pv_at x) in
  exists b, forall k, vertices (Datatypes.S k) (Builder true false (Some [rel (V2 0 0); rel (V2 1 0); rel (V2 0 1)])) = Some (Ok ([V2 0 0; V2 1 0; V2 0 1], b)).
Proof. eexists. intros k. reflexivity. Qed.
Theorem C60_nil_panics k b : b_list b = None -> vertices k b = Some Panicked.
Proof. unfold vertices. intros ->. reflexivity. Qed.
Example C60_example :
  let l := [pv_at (V2 0 0); fold_left apply_mod [MRel; MArc 2 4] (pv_at (V2 2 0)); fold_left apply_mod [MSmooth 1 3] (pv_at (V2 2 5)); pv_at (V2 0 5)] in
  facets_ok l /\ first_ok true l /\ Exists (fun v => pv_type v = PvArc /\ pv_rel v = true) l /\ Exists (fun v => pv_type v = PvSmooth) l /\
  exists fuel fin, forall k, (fuel <= k)%nat -> vertices k (Builder true false (Some l)) = Some (Ok (answer (Builder true false (Some l)) fin)).
Proof.
  intros l. cut (facets_ok l /\ first_ok true l /\ Exists (fun v => pv_type v = PvArc /\ pv_rel v = true) l /\ Exists (fun v => pv_type v = PvSmooth) l).
  { intros (A & B & C & D). repeat (split; [assumption|]). destruct (C60_vertices_partial (Builder true false (Some l)) l eq_refl A B) as (fuel & fin & E & _). exists fuel, fin. exact E. }
  assert (Q : Reqb 2 0 = false) by (destruct (Reqb_spec 2 0); [lra|reflexivity]). assert (Q1 : Reqb 1 0 = false) by (destruct (Reqb_spec 1 0); [lra|reflexivity]).
  unfold l. cbn [fold_left apply_mod]. rewrite Q, Q1. cbn [negb andb Z.eqb pv_at pv_rel pv_type pv_pos pv_facets pv_radius]. split; [|split; [|split]].
  - intros v [<-|[<-|[<-|[<-|[]]]]] T; cbn in *; (lia || congruence).
  - cbn. now left.
  - apply Exists_cons_tl, Exists_cons_hd. now split.
  - apply Exists_cons_tl, Exists_cons_tl, Exists_cons_hd. reflexivity.
Qed.
