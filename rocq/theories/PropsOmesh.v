(** C72, C79: node connectivity, smoothing and compression of tetrahedral meshes. *)
From Coq Require Import Reals Lra Lia List Bool Arith.
From Verif Require Import Prelude Vec SdfModel MatrixModel PropsUtil BihModel PropsBih OmeshModel.
Import ListNotations.
Local Open Scope R_scope.

(** ** Specification *)
Definition corners4 (t : tetra) : list nat := let '(a, b, c, d) := t in [a; b; c; d].
(** What the comment promises: the unique incident nodes. *)
Definition incident (tetras : list tetra) (n c : nat) : Prop := c <> n /\ exists t, In t tetras /\ In n (corners4 t) /\ In c (corners4 t).
Definition first3 (t : tetra) : list nat := let '(a, b, c, d) := t in [a; b; c].

(** ** The connectivity list *)
Lemma scan_in c conn : forall e, c = scan c e conn <-> In c conn \/ (conn = [] /\ c = e).
Proof.
  induction conn as [|x conn IH]; intros e; cbn [scan]; [split; [auto|intros [[]|(_ & H)]; exact H]|].
  destruct (Nat.eqb_spec c x) as [->|N]; [split; [intros _; left; now left|auto]|]. rewrite IH. split.
  - intros [I|(-> & ->)]; [left; now right|congruence].
  - intros [[E|I]|(E & _)]; [congruence|auto|discriminate].
Qed.
Lemma add_conn_in conn c x : In x (add_conn conn c) <-> In x conn \/ (x = c /\ ~ (conn = [] /\ c = 0%nat)).
Proof.
  unfold add_conn. destruct (Nat.eqb_spec c (scan c 0 conn)) as [E|N].
  - apply scan_in in E. split; [auto|]. intros [I|(-> & H)]; [exact I|]. destruct E; tauto.
  - rewrite in_app_iff. cbn. assert (Q : ~ In c conn /\ ~ (conn = [] /\ c = 0%nat)) by (split; intros H; apply N; apply scan_in; auto). intuition congruence.
Qed.
Lemma add_conn_nodup conn c : NoDup conn -> NoDup (add_conn conn c).
Proof.
  intros H. unfold add_conn. destruct (Nat.eqb_spec c (scan c 0 conn)) as [E|N]; [exact H|].
  assert (Q : ~ In c conn) by (intros I; apply N; apply scan_in; auto). clear N. induction H as [|x l Hx H IH]; cbn; [constructor; [tauto|constructor]|]. constructor; [rewrite in_app_iff; cbn; intros [I|[I|[]]]; [tauto|subst; apply Q; now left]|apply IH; intros I; apply Q; now right].
Qed.
(** ** The fold over all corners of all tetrahedra *)
Definition event := (nat * tetra * nat)%type.
Definition events (l : list (nat * tetra)) : list event := flat_map (fun e => map (fun i => (fst e, snd e, i)) [0; 1; 2; 3]%nat) l.
Definition step (nodes : list v3) (ons : list onode) (e : event) : res (list onode) := let '(ti, t, i) := e in visit_node nodes ti t ons i.
Lemma foldM_app {A B} (f : A -> B -> res A) l1 l2 : forall a, foldM f a (l1 ++ l2) = (do a' <- foldM f a l1; foldM f a' l2).
Proof. induction l1 as [|b l1 IH]; intros a; cbn; [reflexivity|]. destruct (f a b); cbn; [apply IH|reflexivity|reflexivity]. Qed.
Lemma foldM_events nodes l : forall ons, foldM (visit_tetra nodes) ons l = foldM (step nodes) ons (events l).
Proof.
  induction l as [|[ti t] l IH]; intros ons; [reflexivity|]. cbn [foldM]. unfold events. cbn [flat_map]. rewrite foldM_app. fold (events l). change (visit_tetra nodes ons (ti, t)) with (foldM (step nodes) ons (map (fun i => (ti, t, i)) [0; 1; 2; 3]%nat)). cbn [fst snd]. destruct (foldM _ ons _); cbn; [apply IH|reflexivity|reflexivity].
Qed.
Definition at_node (n : nat) (e : event) : bool := let '(ti, t, i) := e in (tget t i =? n)%nat.
Definition rec_of (e : event) : nat * nat := let '(ti, t, i) := e in (ti, i).
Record good (nodes : list v3) (E : list event) (n : nat) (on : onode) : Prop := {
  g_tetras : on_tetras on = map rec_of (filter (at_node n) E);
  g_pos : (exists e, In e E /\ at_node n e = true) -> nth_error nodes n = Some (on_pos on);
  g_pos0 : (forall e, In e E -> at_node n e = false) -> on = ONode zero3 [] [];
  g_nodup : NoDup (on_conn on);
  g_sound : forall c, In c (on_conn on) -> exists ti t i, In (ti, t, i) E /\ tget t i = n /\ In c (first3 t);
  g_complete : forall ti t i c, In (ti, t, i) E -> tget t i = n -> In c (first3 t) -> c <> 0%nat -> In c (on_conn on) }.
Lemma set_nth_error {A} (l : list A) i x j : nth_error (set_nth l i x) j = if (j =? i)%nat then (if (i <? length l)%nat then Some x else None) else nth_error l j.
Proof.
  revert i j. induction l as [|y l IH]; intros i j; cbn [set_nth].
  - destruct (j =? i)%nat; destruct j; reflexivity.
  - destruct i as [|i], j as [|j]; cbn [nth_error set_nth Nat.eqb]; try reflexivity. rewrite IH. reflexivity.
Qed.
Lemma filter_at_nil n E : filter (at_node n) E = [] <-> forall e, In e E -> at_node n e = false.
Proof.
  induction E as [|e E IH]; cbn; [split; [intros _ e []|auto]|]. destruct (at_node n e) eqn:A; split.
  - discriminate.
  - intros H. specialize (H e (or_introl eq_refl)). congruence.
  - intros H x [<-|I]; [exact A|now apply IH].
  - intros H. apply IH. auto.
Qed.
Lemma three_conn t i conn : (i < 4)%nat -> let conn' := fold_left (fun cn j => add_conn cn (tget t ((i + j + 1) mod 3))) [0; 1; 2]%nat conn in
  (NoDup conn -> NoDup conn') /\ (forall c, In c conn -> In c conn') /\ (forall c, In c conn' -> In c conn \/ In c (first3 t)) /\ (forall c, In c (first3 t) -> c <> 0%nat -> In c conn').
Proof.
  intros I. cbv zeta. cbn [fold_left]. set (c0 := tget t ((i + 0 + 1) mod 3)). set (c1 := tget t ((i + 1 + 1) mod 3)). set (c2 := tget t ((i + 2 + 1) mod 3)).
  assert (P : forall c, In c (first3 t) <-> c = c0 \/ c = c1 \/ c = c2) by (unfold c0, c1, c2; destruct t as [[[a b] d] e]; destruct i as [|[|[|[|i]]]]; [| | | |lia]; cbn; intuition). clearbody c0 c1 c2.
  split; [intros H; now do 3 apply add_conn_nodup|]. split; [intros c H; rewrite !add_conn_in; auto|]. split; intros c; rewrite P, !add_conn_in; [tauto|]. intros [-> | [-> | -> ]] NZ; tauto.
Qed.
Lemma step_good nodes E ons e ons' : length ons = length nodes -> (forall n on, nth_error ons n = Some on -> good nodes E n on) -> (let '(_, _, i) := e in i < 4)%nat -> step nodes ons e = Ok ons' ->
  length ons' = length nodes /\ forall n on, nth_error ons' n = Some on -> good nodes (E ++ [e]) n on.
Proof.
  destruct e as [[ti t] i]. intros L G I S. unfold step, visit_node in S. set (m := tget t i) in *. destruct (nth_error ons m) as [on0|] eqn:O; [|discriminate]. destruct (nth_error nodes m) as [p|] eqn:P; [|discriminate]. injection S as <-.
  split; [rewrite set_nth_length; exact L|]. intros n on N. rewrite set_nth_error in N. destruct (Nat.eqb_spec n m) as [->|NM].
  - destruct (m <? length ons)%nat; [|discriminate]. injection N as <-. destruct (G m on0 O) as [G1 G2 G3 G4 G5 G6]. set (on1 := match on_tetras on0 with [] => _ | _ => _ end).
    assert (AT : at_node m (ti, t, i) = true) by (cbn; apply Nat.eqb_refl).
    assert (ON : on_tetras on1 = on_tetras on0 /\ on_conn on1 = on_conn on0 /\ on_pos on1 = p).
    { unfold on1. destruct (on_tetras on0) as [|x l] eqn:T.
      - assert (F : filter (at_node m) E = []) by (destruct (filter (at_node m) E); [reflexivity|discriminate]). rewrite filter_at_nil in F. specialize (G3 F). subst on0. cbn. auto.
      - split; [exact T|]. split; [reflexivity|]. assert (EX : exists e, In e E /\ at_node m e = true).
        { destruct (filter (at_node m) E) as [|e l'] eqn:F; [discriminate|]. exists e. apply filter_In. rewrite F. now left. }
        specialize (G2 EX). congruence. }
    destruct ON as (-> & -> & ->). destruct (three_conn t i (on_conn on0) I) as (T1 & T2 & T3 & T4). constructor; cbn [on_tetras on_pos on_conn].
    + rewrite filter_app, map_app, G1. cbn [filter]. rewrite AT. reflexivity.
    + intros _. exact P.
    + intros H. specialize (H (ti, t, i)). rewrite H in AT; [discriminate|]. rewrite in_app_iff. right. now left.
    + exact (T1 G4).
    + intros c C. destruct (T3 c C) as [C'|C'].
      * destruct (G5 c C') as (ti' & t' & i' & J & K & F). exists ti', t', i'. rewrite in_app_iff. auto.
      * exists ti, t, i. rewrite in_app_iff. split; [right; now left|auto].
    + intros ti' t' i' c J K F Z. rewrite in_app_iff in J. destruct J as [J|[J|[]]].
      * apply T2. now apply (G6 ti' t' i' c).
      * injection J as <- <- <-. now apply T4.
  - destruct (G n on N) as [G1 G2 G3 G4 G5 G6]. assert (AT : at_node n (ti, t, i) = false) by (cbn; apply Nat.eqb_neq; intros H; apply NM; symmetry; exact H). constructor.
    + rewrite filter_app. cbn [filter]. rewrite AT, app_nil_r. exact G1.
    + intros (e & J & A). apply G2. rewrite in_app_iff in J. destruct J as [J|[<-|[]]]; [eauto|congruence].
    + intros H. apply G3. intros e J. apply H. rewrite in_app_iff. auto.
    + exact G4.
    + intros c C. destruct (G5 c C) as (ti' & t' & i' & J & K). exists ti', t', i'. rewrite in_app_iff. auto.
    + intros ti' t' i' c J K. rewrite in_app_iff in J. destruct J as [J|[J|[]]]; [now apply (G6 ti' t' i')|]. injection J as <- <- <-. exfalso. apply NM. symmetry. exact K.
Qed.
Lemma fold_good nodes l : (forall ti t i, In (ti, t, i) l -> (i < 4)%nat) -> forall E ons ons', length ons = length nodes -> (forall n on, nth_error ons n = Some on -> good nodes E n on) -> foldM (step nodes) ons l = Ok ons' ->
  length ons' = length nodes /\ forall n on, nth_error ons' n = Some on -> good nodes (E ++ l) n on.
Proof.
  induction l as [|e l IH]; intros I E ons ons' L G F; cbn [foldM] in F.
  - injection F as <-. rewrite app_nil_r. auto.
  - destruct (step nodes ons e) as [ons1| |] eqn:S; cbn [bind] in F; try discriminate. assert (I0 : let '(_, _, i) := e in (i < 4)%nat) by (destruct e as [[ti t] i]; apply (I ti t i); now left).
    destruct (step_good nodes E ons e ons1 L G I0 S) as (L1 & G1). specialize (IH ltac:(intros ti t i H; apply (I ti t i); now right) (E ++ [e]) ons1 ons' L1 G1 F). rewrite <- app_assoc in IH. exact IH.
Qed.
Lemma events_in l ti t i : In (ti, t, i) (events l) <-> In (ti, t) l /\ (i < 4)%nat.
Proof.
  unfold events. rewrite in_flat_map. split.
  - intros ([ti' t'] & J & K). apply in_map_iff in K. destruct K as (i' & K & I). cbn [fst snd] in K. injection K as <- <- <-. split; [exact J|]. cbn in I. lia.
  - intros (J & I). exists (ti, t). split; [exact J|]. apply in_map_iff. exists i. split; [reflexivity|]. cbn. lia.
Qed.
Lemma combine_seq_in {A} (l : list A) : forall k i a, In (i, a) (combine (seq k (length l)) l) <-> (k <= i)%nat /\ nth_error l (i - k) = Some a.
Proof.
  induction l as [|x l IH]; intros k i a; cbn [length seq combine].
  - split; [intros []|intros (_ & H); destruct (i - k)%nat; discriminate].
  - cbn [In]. rewrite IH. split.
    + intros [E|(K & N)]; [injection E as <- <-; rewrite Nat.sub_diag; auto|]. split; [lia|]. replace (i - k)%nat with (S (i - S k)) by lia. exact N.
    + intros (K & N). destruct (Nat.eq_dec i k) as [->|D]; [rewrite Nat.sub_diag in N; left; cbn in N; congruence|right]. split; [lia|]. replace (i - k)%nat with (S (i - S k)) in N by lia. exact N.
Qed.
Lemma tget_corner t n : In n (corners4 t) <-> exists i, (i < 4)%nat /\ tget t i = n.
Proof.
  destruct t as [[[a b] c] d]. cbn. split.
  - intros [<-|[<-|[<-|[<-|[]]]]]; [exists 0%nat|exists 1%nat|exists 2%nat|exists 3%nat]; split; try lia; reflexivity.
  - intros (i & I & <-). destruct i as [|[|[|[|i]]]]; cbn; auto; lia.
Qed.
Lemma new_omesh_good nodes tetras ons : new_omesh nodes tetras = Ok ons -> length ons = length nodes /\ forall n on, nth_error ons n = Some on -> good nodes (events (combine (seq 0 (length tetras)) tetras)) n on.
Proof.
  unfold new_omesh. rewrite foldM_events. intros F. apply (fold_good nodes _ (fun ti t i H => proj2 (proj1 (events_in _ ti t i) H)) [] _ _ (map_length _ _)) in F; [exact F|].
  intros n on N. apply nth_error_In in N. apply in_map_iff in N. destruct N as (p & <- & _). constructor; cbn; try reflexivity; try (intros; contradiction); [intros (e & [] & _)|constructor].
Qed.

(** ** Theorems *)
(** What newOmesh records, for every mesh: unique lists; only nodes of a common tetrahedron; all of its first
    three nodes except possibly node 0; the tetrahedra of each node with the position of the node in them; the
    positions of the nodes in use. *)
Theorem C72_connectivity_partial nodes tetras ons n on : new_omesh nodes tetras = Ok ons -> nth_error ons n = Some on ->
  length ons = length nodes /\ NoDup (on_conn on) /\
  (forall c, In c (on_conn on) -> exists t, In t tetras /\ In n (corners4 t) /\ In c (first3 t)) /\
  (forall t c, In t tetras -> In n (corners4 t) -> In c (first3 t) -> c <> 0%nat -> In c (on_conn on)) /\
  (forall ti i, In (ti, i) (on_tetras on) <-> exists t, nth_error tetras ti = Some t /\ (i < 4)%nat /\ tget t i = n) /\
  ((exists t, In t tetras /\ In n (corners4 t)) -> nth_error nodes n = Some (on_pos on)) /\
  ((forall t, In t tetras -> ~ In n (corners4 t)) -> on = ONode zero3 [] []).
Proof.
  intros E N. destruct (new_omesh_good nodes tetras ons E) as (L & G). destruct (G n on N) as [G1 G2 G3 G4 G5 G6]. set (l := combine (seq 0 (length tetras)) tetras) in *.
  assert (LI : forall ti t, In (ti, t) l <-> nth_error tetras ti = Some t) by (intros ti t; unfold l; rewrite combine_seq_in, Nat.sub_0_r; intuition lia).
  assert (LX : forall t, In t tetras -> exists ti, In (ti, t) l) by (intros t T; apply In_nth_error in T; destruct T as (ti & T); exists ti; now apply LI).
  split; [exact L|]. split; [exact G4|]. split; [|split; [|split; [|split]]].
  - intros c C. destruct (G5 c C) as (ti & t & i & J & K & F). apply events_in in J. destruct J as (J & I). apply LI in J. exists t. split; [now apply nth_error_In in J|]. split; [apply tget_corner; eauto|exact F].
  - intros t c T NT C Z. destruct (LX t T) as (ti & J). apply tget_corner in NT. destruct NT as (i & I & K). apply (G6 ti t i c); auto. apply events_in. auto.
  - intros ti i. rewrite G1, in_map_iff. split.
    + intros ([[ti' t] i'] & R & J). cbn in R. injection R as <- <-. apply filter_In in J. destruct J as (J & A). apply events_in in J. destruct J as (J & I). exists t. split; [now apply LI|]. split; [exact I|]. now apply Nat.eqb_eq in A.
    + intros (t & T & I & K). exists (ti, t, i). split; [reflexivity|]. apply filter_In. split; [apply events_in; split; [now apply LI|exact I]|]. cbn. now apply Nat.eqb_eq.
  - intros (t & T & NT). apply G2. destruct (LX t T) as (ti & J). apply tget_corner in NT. destruct NT as (i & I & K). exists (ti, t, i). split; [apply events_in; auto|]. cbn. now apply Nat.eqb_eq.
  - intros H. apply G3. intros [[ti t] i] J. apply events_in in J. destruct J as (J & I). apply LI in J. cbn. apply Nat.eqb_neq. intros K. apply (H t); [now apply nth_error_In in J|]. apply tget_corner. eauto.
Qed.
(** Every mesh with valid indices is accepted. *)
Theorem C72_defined nodes tetras : (forall t n, In t tetras -> In n (corners4 t) -> (n < length nodes)%nat) <-> exists ons, new_omesh nodes tetras = Ok ons.
Proof.
  unfold new_omesh. rewrite foldM_events. set (l := combine _ _). assert (LT : forall t, In t tetras <-> exists ti, In (ti, t) l).
  { intros t. unfold l. split; [intros T; apply In_nth_error in T; destruct T as (ti & T); exists ti; apply combine_seq_in; rewrite Nat.sub_0_r; split; [lia|exact T]|]. intros (ti & T). apply combine_seq_in in T. destruct T as (_ & T). now apply nth_error_In in T. }
  assert (Q : forall es ons, length ons = length nodes -> (forall ti t i, In (ti, t, i) es -> (tget t i < length nodes)%nat) <-> exists ons', foldM (step nodes) ons es = Ok ons').
  { induction es as [|[[ti t] i] es IH]; intros ons L; cbn [foldM]; [split; [eauto|intros _ ? ? ? []]|].
    unfold step at 1, visit_node. destruct (nth_error ons (tget t i)) as [on|] eqn:O.
    - assert (LT1 : (tget t i < length nodes)%nat) by (rewrite <- L; apply nth_error_Some; congruence). destruct (nth_error nodes (tget t i)) eqn:P; [|apply nth_error_None in P; lia]. cbn [bind]. rewrite <- IH by (rewrite set_nth_length; exact L). split.
      + intros H ti' t' i' J. apply (H ti' t' i'). now right.
      + intros H ti' t' i' [J|J]; [injection J as <- <- <-; exact LT1|eauto].
    - split; [intros H; specialize (H ti t i (or_introl eq_refl)); apply nth_error_None in O; lia|]. cbn [bind]. intros (x & X). discriminate. }
  rewrite <- Q by apply map_length. split.
  - intros H ti t i J. apply events_in in J. destruct J as (J & I). apply (H t); [apply LT; eauto|]. apply tget_corner. eauto.
  - intros H t n T NT. apply LT in T. destruct T as (ti & T). apply tget_corner in NT. destruct NT as (i & I & <-). apply (H ti). apply events_in. auto.
Qed.
(** A node (other than 0) is recorded as its own neighbour, unless it only occurs as a fourth node. *)
Theorem C72_self_refuted nodes tetras ons n on t : new_omesh nodes tetras = Ok ons -> nth_error ons n = Some on -> In t tetras -> In n (first3 t) -> n <> 0%nat -> In n (on_conn on) /\ ~ incident tetras n n.
Proof.
  intros E N T F Z. destruct (C72_connectivity_partial _ _ _ _ _ E N) as (_ & _ & _ & C & _). split; [|intros (H & _); congruence]. apply (C t n T); try assumption. destruct t as [[[a b] c] d]. cbn in *. tauto.
Qed.
(** A node that only occurs as a fourth node is in nobody's list, although it is incident to the others. *)
Theorem C72_fourth_refuted nodes tetras ons n on a b c d : new_omesh nodes tetras = Ok ons -> nth_error ons n = Some on -> In (a, b, c, d) tetras -> In n [a; b; c] -> (forall t, In t tetras -> ~ In d (first3 t)) -> incident tetras n d /\ ~ In d (on_conn on).
Proof.
  intros E N T F H. destruct (C72_connectivity_partial _ _ _ _ _ E N) as (_ & _ & S & _). split.
  - split; [intros ->; now apply (H _ T)|]. exists (a, b, c, d). cbn in F |- *. tauto.
  - intros I. destruct (S d I) as (t & T' & _ & F'). now apply (H t).
Qed.
(** Here node 2 misses node 0 and node 4 (each node 1, 2, 3 has itself), although it shares tetrahedra with them. *)
Example C72_example : exists ons, new_omesh [V3 0 0 0; V3 1 0 0; V3 0 1 0; V3 0 0 1; V3 0 0 2] [(0, 1, 2, 3); (1, 3, 2, 4)]%nat = Ok ons /\ map on_conn ons = [[1; 2; 0]; [2; 0; 1; 3]; [1; 2; 3]; [1; 2; 0; 3]; [3; 2; 1]]%nat.
Proof. eexists. split; [vm_compute; reflexivity|reflexivity]. Qed.

(** ** Smoothing *)
(** [k] is the number of the first boundary node. *)
Definition first_boundary (boundary : nat -> bool) (i k : nat) : Prop := (i <= k)%nat /\ (forall j, (i <= j < k)%nat -> boundary j = false).
Lemma smooth_spec conns boundary : forall i ps k, first_boundary boundary i k -> (k <= i + length conns)%nat -> (k < i + length conns -> boundary k = true)%nat -> (i + length conns <= length ps)%nat ->
  let ps' := smooth conns boundary i ps in
  length ps' = length ps /\ (forall j, (j < i \/ k <= j)%nat -> nth j ps' None = nth j ps None) /\
  (forall j, (i <= j < k)%nat -> nth j ps' None = mean (firstn j ps' ++ skipn j ps) (nth (j - i) conns [])).
Proof.
  induction conns as [|c conns IH]; intros i ps k (K & B) KL KB L; cbn [smooth]; cbn [length] in *.
  - split; [reflexivity|]. split; [reflexivity|]. intros j J. lia.
  - destruct (boundary i) eqn:BI.
    + assert (k = i) by (destruct (Nat.eq_dec k i); [assumption|]; rewrite B in BI by lia; discriminate). subst k. split; [reflexivity|]. split; [reflexivity|]. intros j J. lia.
    + assert (KI : (i < k)%nat) by (destruct (Nat.eq_dec k i); [subst k; rewrite KB in BI by lia; discriminate|lia]).
      destruct (IH (S i) (set_nth ps i (mean ps c)) k) as (A1 & A2 & A3); [split; [lia|intros j J; apply B; lia]|lia|intros; apply KB; lia|rewrite set_nth_length; lia|]. cbv zeta in *. set (ps' := smooth conns boundary (S i) (set_nth ps i (mean ps c))) in *. rewrite set_nth_length in A1.
      assert (NS : forall j, nth j (set_nth ps i (mean ps c)) None = if (j =? i)%nat then mean ps c else nth j ps None).
      { intros j. pose proof (set_nth_error ps i (mean ps c) j) as H. revert H. destruct (Nat.eqb_spec j i) as [JI|NE]; intros H; [subst j|].
        - assert (LL : (i <? length ps)%nat = true) by (apply Nat.ltb_lt; lia). rewrite LL in H. exact (nth_error_nth _ _ _ H).
        - destruct (nth_error ps j) eqn:Q; [rewrite (nth_error_nth _ _ _ H), (nth_error_nth _ _ _ Q); reflexivity|]. rewrite !nth_overflow; [reflexivity|now apply nth_error_None|now apply nth_error_None]. }
      assert (PRE : firstn i ps' = firstn i ps).
      { apply nth_ext with (d := None) (d' := None); [rewrite !firstn_length; lia|]. intros j J. rewrite firstn_length in J. assert (NF : forall l : list (option v3), (j < i)%nat -> nth j (firstn i l) None = nth j l None) by (intros l JI; rewrite <- (firstn_skipn i l) at 2; destruct (Nat.lt_ge_cases j (length (firstn i l))) as [Q|Q]; [now rewrite app_nth1|rewrite nth_overflow by exact Q; rewrite app_nth2 by exact Q; rewrite skipn_all2 by (rewrite firstn_length in Q; lia); destruct (_ - _)%nat; reflexivity]). rewrite !NF by lia. rewrite A2 by lia. rewrite NS. destruct (Nat.eqb_spec j i); [lia|reflexivity]. }
      split; [exact A1|]. split.
      * intros j J. rewrite A2 by lia. rewrite NS. destruct (Nat.eqb_spec j i); [lia|reflexivity].
      * intros j J. destruct (Nat.eq_dec j i) as [->|NE].
        -- rewrite A2 by lia. rewrite NS, Nat.eqb_refl, Nat.sub_diag. cbn [nth]. rewrite PRE, firstn_skipn. reflexivity.
        -- rewrite A3 by lia. replace (j - i)%nat with (S (j - S i)) by lia. cbn [nth]. f_equal. f_equal. apply nth_ext with (d := None) (d' := None); [rewrite !skipn_length, set_nth_length; reflexivity|]. intros m M. assert (NK : forall l : list (option v3), nth m (skipn j l) None = nth (j + m) l None) by (intros l; rewrite <- (firstn_skipn j l) at 2; destruct (Nat.le_gt_cases j (length l)) as [Q|Q]; [rewrite app_nth2 by (rewrite firstn_length; lia); f_equal; rewrite firstn_length; lia|rewrite skipn_all2 by lia; rewrite app_nil_r; rewrite !nth_overflow; [reflexivity|rewrite firstn_length; lia|cbn; lia]]).
           rewrite !NK, NS. destruct (Nat.eqb_spec (j + m) i); [lia|reflexivity].
Qed.
(** compressAndSmooth panics exactly outside [0,1].  Otherwise, with k the first node outside the surface: nodes
    before k move to the mean of their listed neighbours (those before them already moved); all nodes from k on are only compressed. *)
Theorem C72_smooth_partial conns compress ev nan_out ps k : length conns = length ps ->
  let cs := map (compress_node compress ev nan_out) ps in
  (k <= length ps)%nat -> (forall j, (j < k)%nat -> nth j (map snd cs) false = false) -> (k < length ps -> nth k (map snd cs) false = true)%nat ->
  (~ 0 <= compress <= 1 -> compress_and_smooth conns compress ev nan_out ps = Panicked) /\
  (0 <= compress <= 1 -> exists ps', compress_and_smooth conns compress ev nan_out ps = Ok ps' /\ length ps' = length ps /\
    (forall j, (k <= j)%nat -> nth j ps' None = nth j (map fst cs) None) /\
    (forall j, (j < k)%nat -> nth j ps' None = mean (firstn j ps' ++ skipn j (map fst cs)) (nth j conns []))).
Proof.
  intros L cs KL B KB. unfold compress_and_smooth. fold cs. assert (LC : length (map fst cs) = length ps) by (unfold cs; now rewrite !map_length). split; intros C.
  - destruct (Rltb_spec 1 compress), (Rltb_spec compress 0); cbn; try reflexivity. lra.
  - rewrite (proj2 (Rltb_false 1 compress)), (proj2 (Rltb_false compress 0)) by lra. cbn [orb]. eexists. split; [reflexivity|].
    destruct (smooth_spec conns (fun i => nth i (map snd cs) false) 0 (map fst cs) k) as (A1 & A2 & A3); [split; [lia|intros j J; apply B; lia]|lia|intros H; apply KB; lia|lia|]. cbv zeta in *.
    split; [lia|]. split; [intros j J; apply A2; lia|]. intros j J. rewrite A3 by lia. now rewrite Nat.sub_0_r.
Qed.
(** The mean in numbers: node j of those before k, with n > 0 neighbours that all have a position when it is its
    turn, ends at the sum of their positions divided by n. *)
Lemma sum_opt (f : nat -> option v3) conn vs : map f conn = map Some vs -> forall s, fold_left (fun s c => add_opt s (f c)) conn (Some s) = Some (fold_left add3 vs s).
Proof. revert vs. induction conn as [|c conn IH]; intros [|v vs] E s; try discriminate; [reflexivity|]. cbn [map] in E. injection E as E1 E2. cbn [fold_left]. rewrite E1. cbn [add_opt]. now apply IH. Qed.
Theorem C72_smooth_mean conns compress ev nan_out ps k ps' j vs : length conns = length ps ->
  let cs := map (compress_node compress ev nan_out) ps in
  (k <= length ps)%nat -> (forall j, (j < k)%nat -> nth j (map snd cs) false = false) -> (k < length ps -> nth k (map snd cs) false = true)%nat ->
  0 <= compress <= 1 -> compress_and_smooth conns compress ev nan_out ps = Ok ps' -> (j < k)%nat -> vs <> [] ->
  map (fun i => if (i <? j)%nat then nth i ps' None else nth i (map fst cs) None) (nth j conns []) = map Some vs ->
  exists q, nth j ps' None = Some q /\ forall f, In f [x3; y3; z3] -> f q * INR (length vs) = fold_right Rplus 0 (map f vs).
Proof.
  intros L cs KL B KB C E J NV M. destruct (C72_smooth_partial conns compress ev nan_out ps k L KL B KB) as (_ & H). destruct (H C) as (ps2 & E2 & LP & _ & HJ). rewrite E in E2. injection E2 as <-. rewrite (HJ j J). fold cs.
  assert (LC : length (map fst cs) = length ps) by (unfold cs; now rewrite !map_length). assert (NT : forall i, nth i (firstn j ps' ++ skipn j (map fst cs)) None = if (i <? j)%nat then nth i ps' None else nth i (map fst cs) None).
  { intros i. assert (LF : length (firstn j ps') = j) by (rewrite firstn_length; lia). destruct (Nat.ltb_spec i j).
    - rewrite app_nth1 by lia. rewrite <- (firstn_skipn j ps') at 2. rewrite app_nth1 by lia. reflexivity.
    - rewrite app_nth2 by lia. rewrite LF. rewrite <- (firstn_skipn j (map fst cs)) at 2. rewrite app_nth2 by (rewrite firstn_length; lia). rewrite firstn_length. f_equal. lia. }
  unfold mean. destruct (nth j conns []) as [|c0 conn] eqn:EC; [destruct vs; [congruence|discriminate]|]. rewrite (sum_opt (fun c => nth c (firstn j ps' ++ skipn j (map fst cs)) None) (c0 :: conn) vs); [|rewrite <- M; apply map_ext; exact NT].
  assert (LV : length (c0 :: conn) = length vs) by (rewrite <- (map_length Some vs), <- M; now rewrite map_length). rewrite LV. eexists. split; [reflexivity|]. intros f F.
  assert (NZ : INR (length vs) <> 0) by (destruct vs; [congruence|apply not_0_INR; discriminate]).
  assert (LIN : f (scale3 (1 / INR (length vs)) (fold_left add3 vs zero3)) = 1 / INR (length vs) * f (fold_left add3 vs zero3)) by (destruct F as [<-|[<-|[<-|[]]]]; reflexivity).
  assert (SUM : forall l s, f (fold_left add3 l s) = f s + fold_right Rplus 0 (map f l)). { induction l as [|v l IH]; intros s; cbn [fold_left map fold_right]; [lra|]. rewrite IH. assert (f (add3 s v) = f s + f v) by (destruct F as [<-|[<-|[<-|[]]]]; reflexivity). lra. }
  rewrite LIN, SUM. assert (f zero3 = 0) by (destruct F as [<-|[<-|[<-|[]]]]; reflexivity). rewrite H0. field. exact NZ.
Qed.
(** If node 0 is outside the surface no node at all is smoothed, whatever the other nodes. *)
Theorem C72_smooth_refuted conns compress ev nan_out p ps : 0 <= compress <= 1 -> length conns = length (p :: ps) -> snd (compress_node compress ev nan_out p) = true ->
  compress_and_smooth conns compress ev nan_out (p :: ps) = Ok (map fst (map (compress_node compress ev nan_out) (p :: ps))).
Proof.
  intros C L B. unfold compress_and_smooth. rewrite (proj2 (Rltb_false 1 compress)), (proj2 (Rltb_false compress 0)) by lra. cbn [orb]. destruct conns as [|c conns]; [discriminate|]. cbn [map smooth nth]. rewrite B. reflexivity.
Qed.
(** The mesh and the field: a half space below z = 0, node 0 outside and node 1 inside, each other's neighbour;
    node 1 stays where it was. *)
Example C72_smooth_example : exists q, compress_and_smooth [[1]; [0]]%nat 1 z3 false [Some (V3 0 0 1); Some (V3 0 0 (-1))] = Ok [q; Some (V3 0 0 (-1))] /\ snd (compress_node 1 z3 false (Some (V3 0 0 1))) = true.
Proof.
  assert (B : snd (compress_node 1 z3 false (Some (V3 0 0 1))) = true) by (unfold compress_node; cbn [z3]; rewrite (proj2 (Rltb_true 0 1)) by lra; reflexivity).
  eexists. split; [|exact B]. rewrite C72_smooth_refuted; [|lra|reflexivity|exact B]. cbn [map]. f_equal. f_equal. unfold compress_node. cbn [z3]. rewrite (proj2 (Rltb_false 0 (-1))) by lra. reflexivity.
Qed.

(** ** Compression *)
Lemma norm3_scale k v : norm3 (scale3 k v) = Rabs k * norm3 v.
Proof. unfold norm3. replace (norm3sq (scale3 k v)) with (Rsqr k * norm3sq v) by (unfold norm3sq, dot3, scale3, Rsqr; cbn; ring). rewrite sqrt_mult_alt by apply Rle_0_sqr. now rewrite sqrt_Rsqr_abs. Qed.
(** A node outside moves by exactly compress*d; for a field with slope at most one it never passes through
    the surface, and nodes on or inside the surface do not move. *)
Theorem C79_compress compress ev nan_out p : 0 <= compress <= 1 ->
  (ev p <= 0 -> compress_node compress ev nan_out (Some p) = (Some p, false)) /\
  (0 < ev p -> snd (compress_node compress ev nan_out (Some p)) = true /\
     (norm3 (gradient p (1 / 1000000) ev) <> 0 -> exists q, fst (compress_node compress ev nan_out (Some p)) = Some q) /\
     forall q, fst (compress_node compress ev nan_out (Some p)) = Some q -> dist3 p q = compress * ev p /\ (lip3 ev -> (1 - compress) * ev p <= ev q)).
Proof.
  intros C. unfold compress_node. cbv zeta. split; intros D.
  - rewrite (proj2 (Rltb_false 0 (ev p))) by lra. reflexivity.
  - rewrite (proj2 (Rltb_true 0 (ev p))) by lra. cbn [fst snd]. split; [reflexivity|]. split; [intros NZ; destruct (Reqb_spec (norm3 (gradient p (1 / 1000000) ev)) 0); [contradiction|eexists; reflexivity]|]. intros q Q. destruct (Reqb_spec (norm3 (gradient p (1 / 1000000) ev)) 0) as [Z|Z]; [discriminate|]. injection Q as <-.
    set (g := gradient p (1 / 1000000) ev) in *. assert (GP : 0 < norm3 g) by (pose proof (sqrt_pos (norm3sq g)); unfold norm3 in *; lra).
    assert (DQ : dist3 p (sub3 p (scale3 (compress * ev p) (unit3 g))) = compress * ev p).
    { unfold dist3. replace (sub3 p (sub3 p (scale3 (compress * ev p) (unit3 g)))) with (scale3 (compress * ev p) (unit3 g)) by (unfold sub3, scale3; destruct p; cbn; f_equal; ring). rewrite norm3_scale. unfold unit3. rewrite norm3_scale. rewrite !Rabs_right; [field; lra|apply Rle_ge; apply Rmult_le_pos; [lra|left; now apply Rinv_0_lt_compat]|apply Rle_ge; apply Rmult_le_pos; lra]. }
    split; [exact DQ|]. intros LP. specialize (LP p (sub3 p (scale3 (compress * ev p) (unit3 g)))). rewrite DQ in LP. unfold Rabs in LP. destruct (Rcase_abs _); lra.
Qed.
(** For a flat surface full compression puts the node on it. *)
Theorem C79_plane n h nan_out p : norm3 n = 1 -> h < dot3 n p -> exists q, compress_node 1 (fun v => dot3 n v - h) nan_out (Some p) = (Some q, true) /\ dot3 n q - h = 0.
Proof.
  intros N D. unfold compress_node. cbv zeta. rewrite (proj2 (Rltb_true 0 _)) by lra. assert (G : gradient p (1 / 1000000) (fun v => dot3 n v - h) = scale3 (2 / 1000000) n) by (unfold gradient, dot3, add3, scale3; destruct n, p; cbn; f_equal; field).
  rewrite G, norm3_scale, N. rewrite (Rabs_right (2 / 1000000)) by lra. destruct (Reqb_spec (2 / 1000000 * 1) 0) as [Z|Z]; [lra|]. eexists. split; [reflexivity|].
  assert (NN : dot3 n n = 1) by (unfold norm3, norm3sq in N; rewrite <- (sqrt_sqrt (dot3 n n)), N; [ring|unfold dot3; nra]).
  unfold unit3. rewrite norm3_scale, N, (Rabs_right (2 / 1000000)) by lra. replace (dot3 n (sub3 p (scale3 (1 * (dot3 n p - h)) (scale3 (1 / (2 / 1000000 * 1)) (scale3 (2 / 1000000) n))))) with (dot3 n p - (dot3 n p - h) * dot3 n n) by (unfold dot3, sub3, scale3; cbn; field). rewrite NN. ring.
Qed.
Example C79_example : exists q, compress_node 1 (fun v => dot3 (V3 0 0 1) v - 2) false (Some (V3 1 1 5)) = (Some q, true) /\ dot3 (V3 0 0 1) q - 2 = 0.
Proof. apply C79_plane; [unfold norm3, norm3sq, dot3; cbn; replace (_ + _ + _) with 1 by ring; apply sqrt_1|unfold dot3; cbn; lra]. Qed.
