(** C68: the hierarchy of ImportModelV2 finds the nearest triangle. *)
From Coq Require Import Reals Lra Lia List Bool ZArith Psatz Permutation Arith.
From Verif Require Import Prelude Vec BoxModel SdfModel PropsUtil PropsForm PropsUnion2 BihModel PropsTri.
Import ListNotations.
Local Open Scope R_scope.

(** ** Boxes *)
Lemma min_dist_box_le t bb w : in3 bb w -> min_dist_box t bb < norm3sq (sub3 t w).
Proof.
  unfold in3, min_dist_box, norm3sq, dot3. cbv zeta. intros (X & Y & Z). cbn [x3 y3 z3 sub3].
  assert (Q : forall lo hi c w, lo <= w <= hi -> Rmax 0 (Rmax (c - hi) (lo - c)) * Rmax 0 (Rmax (c - hi) (lo - c)) <= (c - w) * (c - w)).
  { intros lo hi c u U. pose proof (Rle_0_sqr (c - u)) as SQ. unfold Rsqr in SQ. rmm; nra. }
  pose proof (Q _ _ (x3 t) _ X). pose proof (Q _ _ (y3 t) _ Y). pose proof (Q _ _ (z3 t) _ Z). lra.
Qed.
Definition tri_in (vs : list v3) (bb : box3) (t : tri) : Prop := in3 bb (tri_a vs t) /\ in3 bb (tri_b vs t) /\ in3 bb (tri_c vs t).
Lemma in_tri_box bb a b c w : in3 bb a -> in3 bb b -> in3 bb c -> in_tri a b c w -> in3 bb w.
Proof.
  unfold in3. intros A B C (s & t & S & T & ST & ->). cbn [x3 y3 z3 add3 scale3 sub3].
  assert (Q : forall lo hi p q r, lo <= p <= hi -> lo <= q <= hi -> lo <= r <= hi -> lo <= p + (s * (q - p) + t * (r - p)) <= hi) by (intros; split; nra).
  split; [apply Q; tauto|]. split; apply Q; tauto.
Qed.
(** ** The search *)
Definition tri_dist (vs : list v3) (target : v3) (t : tri) : option v3 := min_dist_tri target (tri_a vs t) (tri_b vs t) (tri_c vs t).
(** [improved lo hi cur cur'] : the range [lo, hi) of the mesh has been taken into account. *)
Definition improved (vs : list v3) (mesh : list tri) (target : v3) (lo hi : nat) (cur cur' : best) : Prop :=
  best_sq cur' <= best_sq cur /\
  (forall i t v, (lo <= i < hi)%nat -> nth_error mesh i = Some t -> tri_dist vs target t = Some v -> best_sq cur' <= norm3sq v) /\
  (cur' = cur \/ exists i t v, (lo <= i < hi)%nat /\ nth_error mesh i = Some t /\ tri_dist vs target t = Some v /\ cur' = (norm3sq v, v, Some i)).
Lemma improved_trans vs mesh target lo mid hi c0 c1 c2 : (lo <= mid <= hi)%nat -> improved vs mesh target lo mid c0 c1 -> improved vs mesh target mid hi c1 c2 -> improved vs mesh target lo hi c0 c2.
Proof.
  intros R (A1 & A2 & A3) (B1 & B2 & B3). split; [lra|]. split.
  - intros i t v I N D. destruct (Nat.lt_ge_cases i mid); [specialize (A2 i t v ltac:(lia) N D); lra|apply (B2 i t v ltac:(lia) N D)].
  - destruct B3 as [->|(i & t & v & I & N & D & ->)]; [|right; exists i, t, v; repeat split; try assumption; lia].
    destruct A3 as [->|(i & t & v & I & N & D & ->)]; [left; reflexivity|right; exists i, t, v; repeat split; try assumption; lia].
Qed.
Lemma improved_trans' vs mesh target lo mid hi c0 c1 c2 : (lo <= mid <= hi)%nat -> improved vs mesh target mid hi c0 c1 -> improved vs mesh target lo mid c1 c2 -> improved vs mesh target lo hi c0 c2.
Proof.
  intros R (A1 & A2 & A3) (B1 & B2 & B3). split; [lra|]. split.
  - intros i t v I N D. destruct (Nat.lt_ge_cases i mid); [apply (B2 i t v ltac:(lia) N D)|specialize (A2 i t v ltac:(lia) N D); lra].
  - destruct B3 as [->|(i & t & v & I & N & D & ->)]; [|right; exists i, t, v; repeat split; try assumption; lia].
    destruct A3 as [->|(i & t & v & I & N & D & ->)]; [left; reflexivity|right; exists i, t, v; repeat split; try assumption; lia].
Qed.
Lemma leaf_improved vs mesh target off n cur : improved vs mesh target off (off + n) cur (fold_left (leaf_step vs mesh target) (seq off n) cur).
Proof.
  revert off cur. induction n as [|n IH]; intros off cur; cbn [seq fold_left].
  - split; [lra|]. split; [intros; lia|left; reflexivity].
  - replace (off + S n)%nat with (S off + n)%nat by lia. eapply improved_trans; [|shelve|apply IH]. lia. Unshelve.
    unfold leaf_step. destruct (nth_error mesh off) as [t|] eqn:E.
    2:{ split; [lra|]. split; [|left; reflexivity]. intros i t v I N. replace i with off in N by lia. congruence. }
    fold (tri_dist vs target t). destruct (tri_dist vs target t) as [v|] eqn:D.
    2:{ split; [lra|]. split; [|left; reflexivity]. intros i t' v' I N D'. replace i with off in N by lia. congruence. }
    destruct (Rltb_spec (norm3sq v) (best_sq cur)) as [L|L].
    + split; [cbn; lra|]. split; [|right; exists off, t, v; repeat split; try assumption; lia]. intros i t' v' I N D'. replace i with off in N by lia. assert (t' = t) by congruence. subst t'. assert (v' = v) by congruence. subst v'. cbn. lra.
    + split; [lra|]. split; [|left; reflexivity]. intros i t' v' I N D'. replace i with off in N by lia. assert (t' = t) by congruence. subst t'. assert (v' = v) by congruence. subst v'. exact L.
Qed.
(** A well-formed hierarchy: every leaf range lies in the box that the search has for the leaf. *)
Inductive covers (vs : list v3) (mesh : list tri) (b : list node) : nat -> nat -> box3 -> nat -> nat -> Prop :=
  | cov_leaf h idx bb off fin : (off <= fin)%nat -> nth_error b idx = Some (NLeaf off fin) ->
      (forall i t, (off <= i < fin)%nat -> nth_error mesh i = Some t -> tri_in vs bb t) -> covers vs mesh b (S h) idx bb off fin
  | cov_clip h idx bb lo mid hi ax ch lc rc : nth_error b idx = Some (NClip ax ch lc rc) ->
      covers vs mesh b h ch (clip_left ax lc bb) lo mid -> covers vs mesh b h (ch + 1) (clip_right ax rc bb) mid hi ->
      (forall i t, (lo <= i < hi)%nat -> nth_error mesh i = Some t -> tri_in vs bb t) -> covers vs mesh b (S h) idx bb lo hi.
Lemma covers_range vs mesh b h idx bb lo hi : covers vs mesh b h idx bb lo hi -> (lo <= hi)%nat.
Proof. induction 1; lia. Qed.
(** Nothing in a box further away than the best found so far can improve it. *)
Lemma pruned vs mesh target lo hi bb cur : (forall i t, (lo <= i < hi)%nat -> nth_error mesh i = Some t -> tri_in vs bb t) -> best_sq cur <= min_dist_box target bb ->
  improved vs mesh target lo hi cur cur.
Proof.
  intros T B. split; [lra|]. split; [|left; reflexivity]. intros i t v I N D. destruct (T i t I N) as (TA & TB & TC). unfold tri_dist in D.
  destruct (C69_closest_partial target (tri_a vs t) (tri_b vs t) (tri_c vs t)) as [(_ & E)|(_ & v' & w & E & W & V & _)]; rewrite E in D; [discriminate|]. injection D as ->. subst v.
  pose proof (min_dist_box_le target bb w (in_tri_box _ _ _ _ _ TA TB TC W)). lra.
Qed.

Lemma covers_in vs mesh b h idx bb lo hi : covers vs mesh b h idx bb lo hi -> forall i t, (lo <= i < hi)%nat -> nth_error mesh i = Some t -> tri_in vs bb t.
Proof. destruct 1; assumption. Qed.
Lemma nearest_improved vs mesh b target h idx bb lo hi : covers vs mesh b h idx bb lo hi -> forall cur, improved vs mesh target lo hi cur (nearest vs mesh b target h idx bb cur).
Proof.
  induction 1 as [h idx bb off fin R N T|h idx bb lo mid hi ax ch lc rc N CL IL CR IR T]; intros cur; cbn [nearest]; rewrite N.
  - replace fin with (off + (fin - off))%nat at 1 by lia. apply leaf_improved.
  - cbv zeta. pose proof (covers_range _ _ _ _ _ _ _ _ CL) as RL. pose proof (covers_range _ _ _ _ _ _ _ _ CR) as RR. set (lbb := clip_left ax lc bb) in *. set (rbb := clip_right ax rc bb) in *.
    assert (L : forall c, improved vs mesh target lo mid c (if Rltb (min_dist_box target lbb) (best_sq c) then nearest vs mesh b target h ch lbb c else c)).
    { intros c. destruct (Rltb_spec (min_dist_box target lbb) (best_sq c)) as [D|D]; [apply IL|]. apply (pruned _ _ _ _ _ lbb); [exact (covers_in _ _ _ _ _ _ _ _ CL)|exact D]. }
    assert (Rr : forall c, improved vs mesh target mid hi c (if Rltb (min_dist_box target rbb) (best_sq c) then nearest vs mesh b target h (ch + 1) rbb c else c)).
    { intros c. destruct (Rltb_spec (min_dist_box target rbb) (best_sq c)) as [D|D]; [apply IR|]. apply (pruned _ _ _ _ _ rbb); [exact (covers_in _ _ _ _ _ _ _ _ CR)|exact D]. }
    destruct (Rltb (min_dist_box target lbb) (min_dist_box target rbb)); [eapply improved_trans; [|apply L|apply Rr]; lia|eapply improved_trans'; [|apply Rr|apply L]; lia].
Qed.
(** ** The construction *)
Lemma set_nth_length {A} (l : list A) i x : length (set_nth l i x) = length l.
Proof. revert i. induction l as [|y l IH]; intros [|i]; cbn; auto. Qed.
Lemma set_nth_same {A} (l : list A) i x : (i < length l)%nat -> nth_error (set_nth l i x) i = Some x.
Proof. revert i. induction l as [|y l IH]; intros [|i] H; cbn in *; [lia|lia|reflexivity|apply IH; lia]. Qed.
Lemma set_nth_other {A} (l : list A) i j x : i <> j -> nth_error (set_nth l i x) j = nth_error l j.
Proof. revert i j. induction l as [|y l IH]; intros [|i] [|j] H; cbn; auto; try congruence. Qed.
Lemma grow_in bb p q : in3 bb q -> in3 (grow bb p) q.
Proof. unfold in3, grow. cbn. rmm; lra. Qed.
Lemma grow_self bb p : in3 (grow bb p) p.
Proof. unfold in3, grow. cbn. rmm; lra. Qed.
Lemma grow_all l : forall bb p, in3 bb p \/ In p l -> in3 (fold_left grow l bb) p.
Proof. induction l as [|q l IH]; intros bb p H; cbn [fold_left]; [destruct H as [H|[]]; exact H|]. apply IH. destruct H as [H|[->|H]]; [left; now apply grow_in|left; apply grow_self|right; exact H]. Qed.
Lemma mesh_box_in vs m t : In t m -> tri_in vs (mesh_box vs m) t.
Proof.
  intros I. unfold tri_in, mesh_box. repeat split; apply grow_all; right; apply in_flat_map; exists t; (split; [exact I|]); cbn; tauto.
Qed.
Lemma clip_left_in ax c bb p : in3 bb p -> coord ax p <= c -> in3 (clip_left ax c bb) p.
Proof. unfold in3, clip_left. destruct ax; cbn; lra. Qed.
Lemma clip_right_in ax c bb p : in3 bb p -> c <= coord ax p -> in3 (clip_right ax c bb) p.
Proof. unfold in3, clip_right. destruct ax; cbn; lra. Qed.
Lemma coord_box ax bb p : in3 bb p -> coord ax (min3 bb) <= coord ax p <= coord ax (max3 bb).
Proof. unfold in3. destruct ax; cbn; lra. Qed.
Definition permutes (srt : axis -> list tri -> list tri) : Prop := forall ax l, Permutation (srt ax l) l.
Lemma subdivide_ok srt vs : permutes srt -> forall fuel b idx midx mesh bb b' mesh', subdivide srt vs fuel b idx midx mesh bb = (b', mesh') -> (length mesh <= fuel)%nat -> (idx < length b)%nat ->
  (length b <= length b')%nat /\ (forall j, (j < length b)%nat -> j <> idx -> nth_error b' j = nth_error b j) /\ Permutation mesh' mesh /\
  forall b'' M BB, (forall j, j = idx \/ (length b <= j < length b')%nat -> nth_error b'' j = nth_error b' j) -> (forall k, (k < length mesh')%nat -> nth_error M (midx + k) = nth_error mesh' k) ->
    (forall t, In t mesh -> tri_in vs BB t) -> covers vs M b'' (S fuel) idx BB midx (midx + length mesh').
Proof.
  intros SP. induction fuel as [|f IH]; intros b idx midx mesh bb b' mesh' E LF LI; cbn [subdivide] in E.
  - destruct mesh; [|cbn in LF; lia]. cbn in E. injection E as <- <-. split; [rewrite set_nth_length; lia|]. split; [intros j _ N; apply set_nth_other; congruence|]. split; [reflexivity|].
    intros b'' M BB AG MM BX. apply cov_leaf; [cbn; lia| |cbn; intros; lia]. rewrite AG by (left; reflexivity). rewrite set_nth_same by exact LI. f_equal. f_equal. cbn. lia.
  - destruct (length mesh <=? 4)%nat eqn:L4.
    + injection E as <- <-. split; [rewrite set_nth_length; lia|]. split; [intros j _ N; apply set_nth_other; congruence|]. split; [reflexivity|].
      intros b'' M BB AG MM BX. apply cov_leaf; [lia| |]. { rewrite AG by (left; reflexivity). rewrite set_nth_same by exact LI. f_equal. f_equal. lia. }
      intros i t I N. apply BX. specialize (MM (i - midx)%nat ltac:(lia)). replace (midx + (i - midx))%nat with i in MM by lia. rewrite N in MM. symmetry in MM. now apply nth_error_In in MM.
    + apply Nat.leb_gt in L4. cbv zeta in E. pose proof (SP (longest bb) mesh) as PM. set (ax := longest bb) in *. set (m := srt ax mesh) in *. set (half := (length mesh / 2)%nat) in *. set (l := firstn half m) in *. set (r := skipn half m) in *.
      assert (LM : length m = length mesh) by (apply Permutation_length; exact PM). assert (HB : (2 <= half /\ half + half <= length mesh)%nat). { unfold half. pose proof (Nat.div_mod (length mesh) 2 ltac:(lia)). pose proof (Nat.mod_upper_bound (length mesh) 2 ltac:(lia)). lia. }
      assert (LL : length l = half) by (unfold l; rewrite firstn_length; lia). assert (LR : (length r = length mesh - half)%nat) by (unfold r; rewrite skipn_length; lia).
      assert (LRm : l ++ r = m) by apply firstn_skipn. clearbody l r.
      destruct (subdivide srt vs f (b ++ [NLeaf 0 0; NLeaf 0 0]) (length b) midx l (mesh_box vs l)) as [b1 l'] eqn:E1.
      destruct (subdivide srt vs f b1 (length b + 1) (midx + half) r (mesh_box vs r)) as [b2 r'] eqn:E2. injection E as <- <-.
      destruct (IH _ _ _ _ _ _ _ E1 ltac:(lia) ltac:(rewrite app_length; cbn; lia)) as (G1 & S1 & P1 & C1). rewrite app_length in G1, C1. cbn [length] in G1, C1.
      destruct (IH _ _ _ _ _ _ _ E2 ltac:(lia) ltac:(lia)) as (G2 & S2 & P2 & C2).
      assert (LL' : length l' = half) by (rewrite (Permutation_length P1); exact LL). assert (LR' : length r' = (length mesh - half)%nat) by (rewrite (Permutation_length P2); exact LR).
      split; [rewrite set_nth_length; lia|]. split; [|split].
      * intros j J N. rewrite set_nth_other by congruence. rewrite S2 by lia. rewrite S1 by (rewrite ?app_length; cbn; lia). rewrite nth_error_app1 by lia. reflexivity.
      * rewrite P1, P2, LRm. exact PM.
      * intros b'' M BB AG MM BX. rewrite app_length in MM |- *. rewrite set_nth_length in AG.
        assert (NI : nth_error b'' idx = Some (NClip ax (length b) (coord ax (max3 (mesh_box vs l))) (coord ax (min3 (mesh_box vs r))))). { rewrite AG by (left; reflexivity). apply set_nth_same. lia. }
        assert (INL : forall t, In t l -> In t mesh) by (intros t I; apply (Permutation_in _ PM); rewrite <- LRm; apply in_or_app; left; exact I).
        assert (INR : forall t, In t r -> In t mesh) by (intros t I; apply (Permutation_in _ PM); rewrite <- LRm; apply in_or_app; right; exact I).
        apply (cov_clip _ _ _ _ _ _ _ (midx + length l')%nat _ ax (length b) (coord ax (max3 (mesh_box vs l))) (coord ax (min3 (mesh_box vs r)))); [exact NI| | |].
        -- apply C1.
           ++ intros j J. rewrite AG by lia. rewrite set_nth_other by lia. rewrite S2 by lia. reflexivity.
           ++ intros k K. rewrite MM by lia. apply nth_error_app1. lia.
           ++ intros t I. destruct (BX t (INL t I)) as (TA & TB & TC). destruct (mesh_box_in vs l t I) as (UA & UB & UC). repeat split; apply clip_left_in; try assumption; apply coord_box; assumption.
        -- rewrite LL'. replace (midx + (half + length r'))%nat with (midx + half + length r')%nat by lia. apply C2.
           ++ intros j J. rewrite AG by lia. rewrite set_nth_other by lia. reflexivity.
           ++ intros k K. replace (midx + half + k)%nat with (midx + (half + k))%nat by lia. rewrite MM by lia. rewrite nth_error_app2 by lia. f_equal. lia.
           ++ intros t I. destruct (BX t (INR t I)) as (TA & TB & TC). destruct (mesh_box_in vs r t I) as (UA & UB & UC). repeat split; apply clip_right_in; try assumption; apply coord_box; assumption.
        -- intros i t I N. apply BX. apply (Permutation_in t (l := l' ++ r')); [rewrite P1, P2, LRm; exact PM|]. specialize (MM (i - midx)%nat ltac:(lia)). replace (midx + (i - midx))%nat with i in MM by lia. rewrite N in MM. symmetry in MM. now apply nth_error_In in MM.
Qed.

(** ** Merging vertices *)
Lemma key_eqb_eq a b : key_eqb a b = true <-> a = b.
Proof.
  destruct a as [[x y] z], b as [[x' y'] z']. unfold key_eqb. rewrite !andb_true_iff, !Z.eqb_eq. split; [intros ((-> & ->) & ->); reflexivity|intros E; injection E; auto].
Qed.
(** The cache only holds vertices of the list, under their cell. *)
Definition cache_ok (tol : R) (vs : list v3) (c : cache) : Prop := forall k i, lookup k c = Some i -> exists v, nth_error vs i = Some v /\ cell tol v = k.
Lemma add_vertex_ok tol vs c v vs' c' i : cache_ok tol vs c -> add_vertex tol (vs, c) v = ((vs', c'), i) ->
  cache_ok tol vs' c' /\ (exists ext, vs' = vs ++ ext /\ forall w, In w ext -> w = v) /\ exists u, nth_error vs' i = Some u /\ cell tol u = cell tol v /\ (In u vs \/ u = v).
Proof.
  intros C E. unfold add_vertex in E. destruct (lookup (cell tol v) c) as [j|] eqn:L.
  - injection E as <- <- <-. split; [exact C|]. split; [exists []; rewrite app_nil_r; split; [reflexivity|intros w []]|]. destruct (C _ _ L) as (u & U & K). exists u. split; [exact U|]. split; [exact K|]. left. now apply nth_error_In in U.
  - injection E as <- <- <-. assert (N : nth_error (vs ++ [v]) (length vs) = Some v) by (rewrite nth_error_app2, Nat.sub_diag; [reflexivity|lia]). split; [|split].
    + intros k i L'. cbn [lookup] in L'. destruct (key_eqb (cell tol v) k) eqn:K.
      * injection L' as <-. exists v. split; [exact N|]. now apply key_eqb_eq.
      * destruct (C _ _ L') as (u & U & Q). exists u. split; [|exact Q]. rewrite nth_error_app1; [exact U|]. apply nth_error_Some. congruence.
    + exists [v]. split; [reflexivity|]. intros w [->|[]]. reflexivity.
    + exists v. auto.
Qed.
(** What a merged corner is: a corner of the model in the same cell of the tolerance grid. *)
Definition same_cell (tol : R) (model : list triangle) (v u : v3) : Prop := cell tol u = cell tol v /\ In u (flat_map corners model).
Definition tri_of (vs : list v3) (t : tri) : triangle := (tri_a vs t, tri_b vs t, tri_c vs t).
Definition merged (tol : R) (model : list triangle) (o m : triangle) : Prop :=
  let '(a, b, c) := o in let '(a', b', c') := m in same_cell tol model a a' /\ same_cell tol model b b' /\ same_cell tol model c c'.
Definition in_range (vs : list v3) (t : tri) : Prop := let '(i, j, k) := t in (i < length vs /\ j < length vs /\ k < length vs)%nat.
Lemma vt_app vs ext i : (i < length vs)%nat -> vt (vs ++ ext) i = vt vs i.
Proof. intros H. unfold vt. now apply app_nth1. Qed.
Lemma vt_nth vs i v : nth_error vs i = Some v -> vt vs i = v /\ (i < length vs)%nat.
Proof. intros H. split; [unfold vt; now apply nth_error_nth|]. apply nth_error_Some. congruence. Qed.
Lemma merge_fold tol model ts : incl (flat_map corners ts) (flat_map corners model) -> forall vs c m done, cache_ok tol vs c -> incl vs (flat_map corners model) ->
  Forall (in_range vs) m -> Forall2 (merged tol model) done (map (tri_of vs) m) ->
  let '(s', m') := fold_left (add_triangle tol) ts ((vs, c), m) in
  incl (fst s') (flat_map corners model) /\ Forall (in_range (fst s')) m' /\ Forall2 (merged tol model) (done ++ ts) (map (tri_of (fst s')) m').
Proof.
  induction ts as [|[[a b] d] ts IH]; intros HT vs c m done C V IR F; cbn [fold_left].
  - rewrite app_nil_r. auto.
  - unfold add_triangle at 2. cbn [flat_map corners app] in HT.
    destruct (add_vertex tol (vs, c) a) as [[v1 c1] i] eqn:E1. destruct (add_vertex_ok _ _ _ _ _ _ _ C E1) as (C1 & (x1 & X1 & W1) & u1 & U1 & K1 & O1).
    destruct (add_vertex tol (v1, c1) b) as [[v2 c2] j] eqn:E2. destruct (add_vertex_ok _ _ _ _ _ _ _ C1 E2) as (C2 & (x2 & X2 & W2) & u2 & U2 & K2 & O2).
    destruct (add_vertex tol (v2, c2) d) as [[v3' c3] k] eqn:E3. destruct (add_vertex_ok _ _ _ _ _ _ _ C2 E3) as (C3 & (x3' & X3 & W3) & u3 & U3 & K3 & O3).
    assert (Ha : In a (flat_map corners model)) by (apply HT; cbn; auto). assert (Hb : In b (flat_map corners model)) by (apply HT; cbn; auto). assert (Hd : In d (flat_map corners model)) by (apply HT; cbn; auto).
    assert (V1 : incl v1 (flat_map corners model)) by (subst v1; intros w I; apply in_app_or in I; destruct I as [I|I]; [now apply V|apply W1 in I; now subst w]).
    assert (V2 : incl v2 (flat_map corners model)) by (subst v2; intros w I; apply in_app_or in I; destruct I as [I|I]; [now apply V1|apply W2 in I; now subst w]).
    assert (V3 : incl v3' (flat_map corners model)) by (subst v3'; intros w I; apply in_app_or in I; destruct I as [I|I]; [now apply V2|apply W3 in I; now subst w]).
    destruct (vt_nth _ _ _ U1) as (T1 & L1). destruct (vt_nth _ _ _ U2) as (T2 & L2). destruct (vt_nth _ _ _ U3) as (T3 & L3).
    assert (G1 : vt v3' i = u1) by (subst v3' v2; rewrite !vt_app; [exact T1|exact L1|rewrite app_length; lia]). assert (G2 : vt v3' j = u2) by (subst v3'; rewrite vt_app; assumption).
    assert (LV : (length vs <= length v3')%nat) by (subst v3' v2 v1; rewrite !app_length; lia). assert (LV1 : (length v1 <= length v3')%nat) by (subst v3' v2; rewrite !app_length; lia). assert (LV2 : (length v2 <= length v3')%nat) by (subst v3'; rewrite !app_length; lia).
    assert (EXT : exists ext, v3' = vs ++ ext) by (exists (x1 ++ x2 ++ x3'); subst v3' v2 v1; rewrite !app_assoc; reflexivity). destruct EXT as (ext & EXT).
    assert (MAP : map (tri_of v3') m = map (tri_of vs) m). { apply map_ext_in. intros [[p q] r] I. rewrite Forall_forall in IR. destruct (IR _ I) as (I1 & I2 & I3). unfold tri_of. cbn [tri_a tri_b tri_c]. rewrite EXT, !vt_app by assumption. reflexivity. }
    specialize (IH ltac:(intros w I; apply HT; cbn; auto) v3' c3 (m ++ [(i, j, k)]) (done ++ [(a, b, d)]) C3 V3).
    rewrite <- app_assoc in IH. cbn [app] in IH. apply IH.
    + apply Forall_app. split; [|constructor; [cbn; lia|constructor]]. eapply Forall_impl; [|exact IR]. intros [[p q] r] (I1 & I2 & I3). cbn. lia.
    + rewrite map_app, MAP. apply Forall2_app; [exact F|]. constructor; [|constructor]. cbn [tri_of tri_a tri_b tri_c merged]. unfold tri_of. cbn [tri_a tri_b tri_c]. rewrite G1, G2, T3.
      repeat split; try assumption.
      * destruct O1 as [O1| ->]; [now apply V|exact Ha].
      * destruct O2 as [O2| ->]; [now apply V1|exact Hb].
      * destruct O3 as [O3| ->]; [now apply V2|exact Hd].
Qed.
Lemma merge_ok tol model vs m : merge tol model = (vs, m) -> incl vs (flat_map corners model) /\ Forall (in_range vs) m /\ Forall2 (merged tol model) model (map (tri_of vs) m).
Proof.
  unfold merge. intros E. assert (C0 : cache_ok tol [] []) by (intros k i L; discriminate). assert (V0 : incl (@nil v3) (flat_map corners model)) by (intros v []).
  destruct (fold_left (add_triangle tol) model ([], [], [])) as [s m0] eqn:F. injection E as <- <-. pose proof (merge_fold tol model model (incl_refl _) [] [] [] [] C0 V0 ltac:(constructor) ltac:(constructor)) as H.
  match type of H with match ?X with _ => _ end => change X with (fold_left (add_triangle tol) model ([], [], [])) in H end. cbv beta in H. assert (G : forall x, x = (s, m0) -> match x with (s', m') => incl (fst s') (flat_map corners model) /\ Forall (in_range (fst s')) m' /\ Forall2 (merged tol model) model (map (tri_of (fst s')) m') end -> incl (fst s) (flat_map corners model) /\ Forall (in_range (fst s)) m0 /\ Forall2 (merged tol model) model (map (tri_of (fst s)) m0)) by (intros x ->; auto). exact (G _ F H).
Qed.
Lemma Int_part_spec z x : IZR z <= x < IZR z + 1 -> z = Int_part x.
Proof.
  intros (L & U). pose proof (base_Int_part x) as (A & B). assert (U1 : IZR (Int_part x) < IZR (z + 1)) by (rewrite plus_IZR; lra).
  assert (W : IZR z < IZR (Int_part x + 1)) by (rewrite plus_IZR; lra). apply lt_IZR in U1, W. lia.
Qed.
(** Equal cells are closer than twice the tolerance in every coordinate. *)
Lemma truncZ_spec x : (0 <= x -> IZR (truncZ x) <= x < IZR (truncZ x) + 1) /\ (x < 0 -> IZR (truncZ x) - 1 < x <= IZR (truncZ x)).
Proof.
  unfold truncZ. split; intros H; [rewrite (proj2 (Rleb_true 0 x) H)|rewrite (proj2 (Rleb_false 0 x) H), opp_IZR]; [pose proof (base_Int_part x)|pose proof (base_Int_part (- x))]; lra.
Qed.
Lemma trunc_close a b : truncZ a = truncZ b -> Rabs (a - b) < 2.
Proof.
  intros E. destruct (truncZ_spec a) as (A1 & A2), (truncZ_spec b) as (B1 & B2). rewrite E in A1, A2. apply Rabs_def1; destruct (Rle_or_lt 0 a), (Rle_or_lt 0 b); try specialize (A1 ltac:(lra)); try specialize (A2 ltac:(lra)); try specialize (B1 ltac:(lra)); try specialize (B2 ltac:(lra)); try lra.
Qed.
Lemma trunc_close1 a b : truncZ a = truncZ b -> 0 <= a -> 0 <= b -> Rabs (a - b) < 1.
Proof.
  intros E A B. destruct (truncZ_spec a) as (A1 & _), (truncZ_spec b) as (B1 & _). rewrite E in A1. specialize (A1 A). specialize (B1 B). apply Rabs_def1; lra.
Qed.
(** ** The theorems *)
Lemma eval_cases b target lo hi : covers (bih_verts b) (bih_mesh b) (bih_nodes b) (S (length (bih_mesh b))) 0 (bih_box b) lo hi -> lo = O -> hi = length (bih_mesh b) ->
  (bih_eval b target = max_float64 /\ forall t v, In t (bih_mesh b) -> tri_dist (bih_verts b) target t = Some v -> max_float64 <= norm3sq v) \/
  exists t v, In t (bih_mesh b) /\ tri_dist (bih_verts b) target t = Some v /\ Rabs (bih_eval b target) = norm3 v /\ norm3sq v <= max_float64 /\ forall t' v', In t' (bih_mesh b) -> tri_dist (bih_verts b) target t' = Some v' -> norm3sq v <= norm3sq v'.
Proof.
  intros C -> ->. pose proof (nearest_improved _ _ _ target _ _ _ _ _ C (max_float64, zero3, None)) as (A & B & D). unfold bih_eval.
  destruct (nearest (bih_verts b) (bih_mesh b) (bih_nodes b) target (S (length (bih_mesh b))) 0 (bih_box b) (max_float64, zero3, None)) as [[d v] o] eqn:E. unfold best_sq in *. cbn [fst snd] in *.
  destruct D as [D|(i & t & v0 & I & N & TD & D)].
  - injection D as -> -> ->. left. split; [reflexivity|]. intros t v T TD. apply In_nth_error in T. destruct T as (i & T). apply (B i t v); try assumption. split; [lia|]. apply nth_error_Some. congruence.
  - injection D as -> -> ->. right. exists t, v0. split; [now apply nth_error_In in N|]. split; [exact TD|]. split; [|split; [exact A|]].
    + assert (SQ : 0 <= norm3 v0) by apply sqrt_pos. fold (norm3 v0). destruct (_ && _); rewrite ?Rabs_Ropp; now rewrite Rabs_right by lra.
    + intros t' v' T TD'. apply In_nth_error in T. destruct T as (j & T). apply (B j t' v'); try assumption. split; [lia|]. apply nth_error_Some. congruence.
Qed.
Definition in_triangle (t : triangle) (w : v3) : Prop := let '(a, b, c) := t in in_tri a b c w.
Definition blind_for (target : v3) (t : triangle) : Prop := let '(a, b, c) := t in blind target a b c.
Lemma import_covers srt model tol b : permutes srt -> import_v2 srt model tol = Ok b -> exists t m, used_tol model tol = Ok t /\ Forall2 (merged t model) model (map (tri_of (bih_verts b)) m) /\
  Permutation (bih_mesh b) m /\ covers (bih_verts b) (bih_mesh b) (bih_nodes b) (S (length (bih_mesh b))) 0 (bih_box b) 0 (length (bih_mesh b)) /\ bih_box b = model_box model /\ (forall x, In x (bih_mesh b) -> tri_in (bih_verts b) (bih_box b) x).
Proof.
  intros P E. unfold import_v2 in E. destruct (used_tol model tol) as [t| |] eqn:T; cbn [bind] in E; try discriminate. destruct (merge t model) as [vs m] eqn:M. destruct (merge_ok _ _ _ _ M) as (V & IR & F).
  destruct (subdivide srt vs (length m) [NLeaf 0 0] 0 0 m (model_box model)) as [nb m'] eqn:S. injection E as <-. cbn [bih_verts bih_mesh bih_nodes bih_box].
  destruct (subdivide_ok srt vs P _ _ _ _ _ _ _ _ S ltac:(lia) ltac:(cbn; lia)) as (_ & _ & PM & C). exists t, m. split; [reflexivity|]. split; [exact F|]. split; [exact PM|].
  assert (BX : forall x, In x m -> tri_in vs (model_box model) x).
  { intros [[i j] k] I. rewrite Forall_forall in IR. destruct (IR _ I) as (I1 & I2 & I3). unfold tri_in. cbn [tri_a tri_b tri_c]. repeat split; apply grow_all; right; apply V; unfold vt; apply nth_In; assumption. }
  split; [|split; [reflexivity|]].
  - rewrite (Permutation_length PM) at 1. specialize (C nb m' (model_box model)). cbn [Nat.add] in C. apply C; try reflexivity; exact BX.
  - intros x I. apply BX. now apply (Permutation_in _ PM).
Qed.
(** Evaluate: unless the target is in the blind plane of a triangle, the magnitude is the exact distance to
    the set of imported triangles, for every mesh and every order sort.Slice may produce.  In general
    it is the distance to the triangles that are not blind for the target, capped at sqrt(MaxFloat64). *)
Theorem C68_nearest_partial srt model tol b : permutes srt -> import_v2 srt model tol = Ok b ->
  exists t tris, used_tol model tol = Ok t /\ Forall2 (merged t model) model tris /\ forall target,
    (bih_eval b target = max_float64 /\ forall x w, In x tris -> ~ blind_for target x -> in_triangle x w -> sqrt max_float64 <= dist3 target w) \/
    (exists x w, In x tris /\ ~ blind_for target x /\ in_triangle x w /\ Rabs (bih_eval b target) = dist3 target w) /\
    (forall x w, In x tris -> ~ blind_for target x -> in_triangle x w -> Rabs (bih_eval b target) <= dist3 target w).
Proof.
  intros P E. destruct (import_covers _ _ _ _ P E) as (t & m & T & F & PM & C & _). exists t, (map (tri_of (bih_verts b)) m). split; [exact T|]. split; [exact F|]. intros target.
  assert (CL : forall x w, In x (map (tri_of (bih_verts b)) m) -> ~ blind_for target x -> in_triangle x w -> exists y v, In y (bih_mesh b) /\ tri_dist (bih_verts b) target y = Some v /\ norm3 v <= dist3 target w).
  { intros x w I N W. apply in_map_iff in I. destruct I as (y & <- & I). cbn [tri_of blind_for in_triangle] in N, W. unfold tri_of in N, W. destruct (C69_closest_partial target (tri_a (bih_verts b) y) (tri_b (bih_verts b) y) (tri_c (bih_verts b) y)) as [(B & _)|(_ & v & u & D & _ & _ & MN)]; [tauto|].
    exists y, v. split; [apply (Permutation_in y (Permutation_sym PM)); exact I|]. split; [exact D|]. apply MN. exact W. }
  destruct (eval_cases b target 0 (length (bih_mesh b)) C eq_refl eq_refl) as [(V & M)|(y & v & I & D & V & _ & M)].
  - left. split; [exact V|]. intros x w I N W. destruct (CL x w I N W) as (y & v & J & D & L). specialize (M y v J D). eapply Rle_trans; [|exact L]. apply sqrt_le_1_alt. exact M.
  - right. split.
    + unfold tri_dist in D. destruct (C69_closest_partial target (tri_a (bih_verts b) y) (tri_b (bih_verts b) y) (tri_c (bih_verts b) y)) as [(_ & Q)|(N & v' & w & Q & W & Vw & _)]; rewrite Q in D; [discriminate|]. injection D as ->.
      exists (tri_of (bih_verts b) y), w. split; [apply in_map; now apply (Permutation_in _ PM)|]. split; [exact N|]. split; [exact W|]. rewrite V, Vw. reflexivity.
    + intros x w J N W. destruct (CL x w J N W) as (y' & v' & J' & D' & L). specialize (M y' v' J' D'). rewrite V. eapply Rle_trans; [|exact L]. apply sqrt_le_1_alt. exact M.
Qed.
Lemma import_shape srt model tol b : import_v2 srt model tol = Ok b -> exists t, used_tol model tol = Ok t /\ model <> [].
Proof. unfold import_v2. intros E. destruct (used_tol model tol) as [t| |] eqn:T; try discriminate. exists t. split; [reflexivity|]. intros ->. discriminate T. Qed.
Lemma used_tol_pos model tol t : used_tol model tol = Ok t -> 0 < t.
Proof.
  unfold used_tol. destruct model as [|[[a b] c] model]; [discriminate|]. set (m := (a, b, c) :: model). destruct (Rltb _ tol); [discriminate|]. cbv zeta. set (s := if Reqb tol 0 then _ else tol). clearbody s. destruct (Reqb_spec s 0) as [Z|Z]; [discriminate|].
  assert (IA : in3 (model_box m) a) by (apply grow_all; right; left; reflexivity). destruct IA as (X & _). set (D := Rmax _ (Rmax _ _)). assert (PD : 0 <= D) by (unfold D; eapply Rle_trans; [|apply Rmax_l]; unfold sub3; cbn [x3]; change (0 <= x3 (max3 (model_box m)) - x3 (min3 (model_box m))); lra). clearbody D.
  destruct (_ <=? 0)%Z eqn:L; [discriminate|]. destruct (_ <? _)%Z; [discriminate|]. intros E. injection E as <-. apply Z.leb_gt in L. destruct (Rtotal_order s 0) as [N|[N|N]]; [exfalso|contradiction|exact N].
  assert (Q : D / s <= 0) by (unfold Rdiv; pose proof (Rinv_lt_0_compat s N); nra). assert (L1 : 1 <= IZR (truncZ (D / s + 1 / 1000000000000))) by (apply IZR_le; lia). destruct (truncZ_spec (D / s + 1 / 1000000000000)) as (T1 & T2). destruct (Rle_or_lt 0 (D / s + 1 / 1000000000000)) as [P|P]; [specialize (T1 P)|specialize (T2 P)].
  - lra.
  - assert (H1 : IZR (truncZ (D / s + 1 / 1000000000000)) < 1) by (eapply Rle_lt_trans with (r2 := IZR 0); [|lra]; apply IZR_le; unfold truncZ; rewrite (proj2 (Rleb_false 0 _) P); assert (0 <= Int_part (- (D / s + 1 / 1000000000000)))%Z; [|lia]; pose proof (base_Int_part (- (D / s + 1 / 1000000000000))); assert (-1 < IZR (Int_part (- (D / s + 1 / 1000000000000)))) by lra; assert ((-1 < Int_part (- (D / s + 1 / 1000000000000)))%Z) by (now apply lt_IZR); lia). lra.
Qed.
(** Corners that share a cell are closer than twice the tolerance in every coordinate. *)
Lemma cell_close t u v : 0 < t -> cell t u = cell t v -> Rabs (x3 u - x3 v) < 2 * t /\ Rabs (y3 u - y3 v) < 2 * t /\ Rabs (z3 u - z3 v) < 2 * t.
Proof.
  intros T E. unfold cell in E. injection E as X Y Z. assert (G : forall a b, truncZ ((a + 1/2 * t) / t) = truncZ ((b + 1/2 * t) / t) -> Rabs (a - b) < 2 * t).
  { intros a b H. apply trunc_close in H. replace (a - b) with (((a + 1/2 * t) / t - (b + 1/2 * t) / t) * t) by (field; lra). rewrite Rabs_mult, (Rabs_right t) by lra. nra. }
  auto.
Qed.
Definition apart (d : R) (model : list triangle) : Prop := forall u v, In u (flat_map corners model) -> In v (flat_map corners model) -> u = v \/ d <= Rabs (x3 u - x3 v) \/ d <= Rabs (y3 u - y3 v) \/ d <= Rabs (z3 u - z3 v).
Lemma merged_same t model : 0 < t -> apart (2 * t) model -> forall ts tris, incl ts model -> Forall2 (merged t model) ts tris -> tris = ts.
Proof.
  intros T A ts tris I F. induction F as [|[[a b] c] [[a' b'] c'] ts tris ((A1 & A2) & (B1 & B2) & (C1 & C2)) F IH]; [reflexivity|]. rewrite IH by (intros x Ix; apply I; now right).
  assert (G : forall u v, In u (flat_map corners model) -> In v (flat_map corners model) -> cell t u = cell t v -> u = v).
  { intros u v U V E. destruct (cell_close t u v T E) as (X & Y & Z). destruct (A u v U V) as [H|[H|[H|H]]]; [exact H|lra|lra|lra]. }
  assert (M : forall v, In v [a; b; c] -> In v (flat_map corners model)) by (intros v V; apply in_flat_map; exists (a, b, c); split; [apply I; now left|exact V]).
  f_equal. rewrite (G a' a), (G b' b), (G c' c); try assumption; try (apply M; cbn; auto); reflexivity.
Qed.
(** The property itself, for models whose distinct corners are two tolerances apart and query points
    outside the blind planes. *)
Theorem C68_exact_partial srt model tol b t target : permutes srt -> import_v2 srt model tol = Ok b -> used_tol model tol = Ok t -> apart (2 * t) model ->
  (forall x, In x model -> ~ blind_for target x) -> (exists x w, In x model /\ in_triangle x w /\ dist3 target w < sqrt max_float64) ->
  (exists x w, In x model /\ in_triangle x w /\ Rabs (bih_eval b target) = dist3 target w) /\ (forall x w, In x model -> in_triangle x w -> Rabs (bih_eval b target) <= dist3 target w).
Proof.
  intros P E T A NB (x0 & w0 & I0 & W0 & D0). destruct (C68_nearest_partial _ _ _ _ P E) as (t' & tris & T' & F & N). rewrite T in T'. injection T' as <-. pose proof (used_tol_pos _ _ _ T) as TP. apply merged_same in F; [|exact TP|exact A|apply incl_refl]. subst tris.
  destruct (N target) as [(_ & M)|((x & w & I & _ & W & V) & M)].
  - specialize (M x0 w0 I0 (NB x0 I0) W0). lra.
  - split; [exists x, w; auto|]. intros y u Y U. apply (M y u); auto.
Qed.
Lemma grow_attained f l : In f [x3; y3; z3] -> forall bb, (f (min3 (fold_left grow l bb)) = f (min3 bb) \/ exists v, In v l /\ f v = f (min3 (fold_left grow l bb))) /\ (f (max3 (fold_left grow l bb)) = f (max3 bb) \/ exists v, In v l /\ f v = f (max3 (fold_left grow l bb))).
Proof.
  intros F. induction l as [|q l IH]; intros bb; cbn [fold_left]; [auto|]. destruct (IH (grow bb q)) as (L & H). split.
  - destruct L as [L|(v & V & L)]; [|right; exists v; split; [now right|exact L]]. rewrite L. assert (G : f (min3 (grow bb q)) = f (min3 bb) \/ f q = f (min3 (grow bb q))) by (cbn in F; destruct F as [<-|[<-|[<-|[]]]]; unfold grow; cbn; unfold Rmin; destruct (Rle_dec _ _); auto). destruct G as [G|G]; [auto|]. right. exists q. split; [now left|exact G].
  - destruct H as [H|(v & V & H)]; [|right; exists v; split; [now right|exact H]]. rewrite H. assert (G : f (max3 (grow bb q)) = f (max3 bb) \/ f q = f (max3 (grow bb q))) by (cbn in F; destruct F as [<-|[<-|[<-|[]]]]; unfold grow; cbn; unfold Rmax; destruct (Rle_dec _ _); auto). destruct G as [G|G]; [auto|]. right. exists q. split; [now left|exact G].
Qed.
Definition representable3 (v : v3) : Prop := in3 (Box3 (V3 (- max_float64) (- max_float64) (- max_float64)) (V3 max_float64 max_float64 max_float64)) v.
Lemma model_box_tight model tol t : used_tol model tol = Ok t -> (forall v, In v (flat_map corners model) -> representable3 v) ->
  forall f, In f [x3; y3; z3] -> (exists v, In v (flat_map corners model) /\ f v = f (min3 (model_box model))) /\ (exists v, In v (flat_map corners model) /\ f v = f (max3 (model_box model))).
Proof.
  intros T FIN f F. assert (NE : exists v, In v (flat_map corners model)). { destruct model as [|[[a b] d] model]; [discriminate T|]. exists a. now left. } destruct NE as (v0 & V0).
  assert (I0 : in3 (model_box model) v0) by (apply grow_all; now right). pose proof (FIN v0 V0) as F0. unfold representable3 in F0. destruct (grow_attained f (flat_map corners model) F far_box) as (L & H). fold (model_box model) in L, H. split.
  - destruct L as [L|L]; [|exact L]. exists v0. split; [exact V0|]. unfold in3, far_box in *. cbn in F. destruct F as [<-|[<-|[<-|[]]]]; cbn [x3 y3 z3 min3 max3] in *; lra.
  - destruct H as [H|H]; [|exact H]. exists v0. split; [exact V0|]. unfold in3, far_box in *. cbn in F. destruct F as [<-|[<-|[<-|[]]]]; cbn [x3 y3 z3 min3 max3] in *; lra.
Qed.
(** Bounds contains every point of every imported triangle and every triangle of the model, and each of its sides is reached by a corner. *)
Theorem C68_bounds srt model tol b : permutes srt -> import_v2 srt model tol = Ok b -> exists t tris, used_tol model tol = Ok t /\ Forall2 (merged t model) model tris /\
  (forall x w, In x tris -> in_triangle x w -> in3 (bih_bounds b) w) /\ (forall x w, In x model -> in_triangle x w -> in3 (bih_bounds b) w) /\
  ((forall v, In v (flat_map corners model) -> representable3 v) -> forall f, In f [x3; y3; z3] ->
    (exists v, In v (flat_map corners model) /\ f v = f (min3 (bih_bounds b))) /\ (exists v, In v (flat_map corners model) /\ f v = f (max3 (bih_bounds b)))).
Proof.
  intros P E. destruct (import_covers _ _ _ _ P E) as (t & m & T & F & PM & _ & B & BX). exists t, (map (tri_of (bih_verts b)) m). split; [exact T|]. split; [exact F|]. unfold bih_bounds. split; [|split].
  - intros x w I W. apply in_map_iff in I. destruct I as (y & <- & I). destruct (BX y (Permutation_in _ (Permutation_sym PM) I)) as (B1 & B2 & B3). exact (in_tri_box _ _ _ _ _ B1 B2 B3 W).
  - intros [[a c] d] w I W. assert (C : forall v, In v [a; c; d] -> in3 (bih_box b) v) by (intros v V; rewrite B; apply grow_all; right; apply in_flat_map; exists (a, c, d); auto).
    apply (in_tri_box _ a c d); try (apply C; cbn; auto; fail). exact W.
  - rewrite B. exact (model_box_tight _ _ _ T).
Qed.
(** The blind plane shows in the API: the mesh of one right triangle evaluates to MaxFloat64 on a whole plane. *)
Definition right_triangle : triangle := (V3 0 0 0, V3 1 0 0, V3 0 1 0).
Lemma right_triangle_tol : used_tol [right_triangle] (1/100) = Ok (1/100).
Proof.
  pose proof max_float64_big as M. unfold used_tol. cbv zeta.
  assert (S : 1 <= sqrt (max_side [right_triangle])).
  { rewrite <- sqrt_1. apply sqrt_le_1_alt. unfold max_side, right_triangle. cbn [flat_map sides app fold_left]. eapply Rle_trans; [|apply Rmax_r]. unfold norm3sq, dot3, sub3. cbn [x3 y3 z3]. lra. }
  assert (B : model_box [right_triangle] = Box3 (V3 0 0 0) (V3 1 1 0)).
  { unfold model_box, right_triangle, far_box. cbn [flat_map corners app fold_left]. unfold grow. cbn [x3 y3 z3 min3 max3]. f_equal; f_equal; rmm; lra. }
  rewrite B. rewrite (proj2 (Rltb_false _ _)) by lra. rewrite (proj2 (Reqb_false (1/100) 0)) by lra. rewrite (proj2 (Reqb_false (1/100) 0)) by lra. unfold sub3. cbn [x3 y3 z3 min3 max3].
  assert (D : Rmax (1 - 0) (Rmax (1 - 0) (0 - 0)) = 1) by (rmm; lra). rewrite D.
  assert (T : truncZ (1 / (1 / 100) + 1 / 1000000000000) = 100%Z).
  { unfold truncZ. rewrite (proj2 (Rleb_true _ _)) by lra. symmetry. apply Int_part_spec. lra. }
  rewrite T. reflexivity.
Qed.
Lemma right_triangle_apart : apart (2 * (1/100)) [right_triangle].
Proof.
  intros u v U V. cbn in U, V. destruct U as [<-|[<-|[<-|[]]]], V as [<-|[<-|[<-|[]]]]; cbn [x3 y3 z3]; auto; right; try (left; unfold Rabs; destruct (Rcase_abs _); lra); right; left; unfold Rabs; destruct (Rcase_abs _); lra.
Qed.
Theorem C68_right_angle_refuted srt : permutes srt -> exists b, import_v2 srt [right_triangle] (1/100) = Ok b /\ forall y z, bih_eval b (V3 0 y z) = max_float64.
Proof.
  intros P. assert (E : exists b, import_v2 srt [right_triangle] (1/100) = Ok b) by (unfold import_v2; rewrite right_triangle_tol; cbn [bind]; destruct (merge _ _); destruct (subdivide _ _ _ _ _ _ _ _); eexists; reflexivity).
  destruct E as (b & E). exists b. split; [exact E|]. intros y z. destruct (C68_nearest_partial _ _ _ _ P E) as (t & tris & T & F & N). rewrite right_triangle_tol in T. injection T as <-. apply merged_same in F; [|lra|apply right_triangle_apart|apply incl_refl]. subst tris.
  destruct (N (V3 0 y z)) as [(V & _)|((x & w & [<-|[]] & NB & _) & _)]; [exact V|]. exfalso. apply NB. split; unfold dot3, sub3; cbn; lra.
Qed.
(** The hypotheses of the partial theorem are met one unit above the middle of that triangle, and the value is one. *)
Example C68_example : exists b, import_v2 (fun _ m => m) [right_triangle] (1/100) = Ok b /\ Rabs (bih_eval b (V3 (1/4) (1/4) 1)) = 1.
Proof.
  assert (P : permutes (fun _ m => m)) by (intros ax m; reflexivity). destruct (C68_right_angle_refuted _ P) as (b & E & _). exists b. split; [exact E|].
  assert (W : in_triangle right_triangle (V3 (1/4) (1/4) 0)) by (exists (1/4), (1/4); repeat split; try lra; unfold add3, scale3, sub3; cbn; f_equal; lra).
  assert (D : dist3 (V3 (1/4) (1/4) 1) (V3 (1/4) (1/4) 0) = 1) by (unfold dist3, norm3, norm3sq, dot3, sub3; cbn; replace (_ + _ + _) with 1 by lra; apply sqrt_1).
  destruct (C68_exact_partial _ _ _ _ (1/100) (V3 (1/4) (1/4) 1) P E right_triangle_tol right_triangle_apart) as ((x & w & [<-|[]] & (s & t & S1 & T1 & ST & ->) & V) & M).
  - intros x [<-|[]] (_ & B). revert B. unfold dot3, sub3. cbn. lra.
  - exists right_triangle, (V3 (1/4) (1/4) 0). split; [now left|]. split; [exact W|]. rewrite D. rewrite <- sqrt_1. apply sqrt_lt_1_alt. pose proof max_float64_big. lra.
  - apply Rle_antisym.
    + eapply Rle_trans; [apply (M right_triangle _ ltac:(now left) W)|]. rewrite D. lra.
    + rewrite V. unfold dist3, norm3. match goal with |- 1 <= sqrt ?e => replace 1 with (sqrt 1) at 1 by apply sqrt_1; apply sqrt_le_1_alt end. unfold norm3sq, dot3, sub3, add3, scale3. cbn. match goal with |- _ <= ?a * ?a + ?b * ?b + ?c * ?c => replace c with 1 by lra; pose proof (Rle_0_sqr a); pose proof (Rle_0_sqr b); unfold Rsqr in *; lra end.
Qed.
(** ** Vertex merging *)
Lemma Forall2_nth_error {A B} (Q : A -> B -> Prop) l l' : Forall2 Q l l' -> forall i a b, nth_error l i = Some a -> nth_error l' i = Some b -> Q a b.
Proof. induction 1; intros [|i] a b E F; cbn in E, F; try discriminate; [congruence|eauto]. Qed.
(** Every corner of the imported mesh is a corner of the model less than twice the tolerance away in each
    coordinate, and less than the tolerance when both coordinates are at least -tol/2. *)
Theorem C77_merge_partial srt model tol b : permutes srt -> import_v2 srt model tol = Ok b -> exists t tris, used_tol model tol = Ok t /\ length tris = length model /\
  Permutation (map (tri_of (bih_verts b)) (bih_mesh b)) tris /\
  forall i o m, nth_error model i = Some o -> nth_error tris i = Some m -> Forall2 (fun v u => In u (flat_map corners model) /\
    Forall (fun f => Rabs (f u - f v) < 2 * t /\ (- (t / 2) <= f u -> - (t / 2) <= f v -> Rabs (f u - f v) < t)) [x3; y3; z3]) (corners o) (corners m).
Proof.
  intros P E. destruct (import_covers _ _ _ _ P E) as (t & m & T & F & PM & _). exists t, (map (tri_of (bih_verts b)) m). split; [exact T|]. split; [clear -F; induction F; cbn; congruence|]. split; [apply Permutation_map; exact PM|]. pose proof (used_tol_pos _ _ _ T) as TP.
  assert (G : forall v u, same_cell t model v u -> In u (flat_map corners model) /\ Forall (fun f => Rabs (f u - f v) < 2 * t /\ (- (t / 2) <= f u -> - (t / 2) <= f v -> Rabs (f u - f v) < t)) [x3; y3; z3]).
  { intros v u (C & I). split; [exact I|]. destruct (cell_close t u v TP C) as (X & Y & Z). unfold cell in C. injection C as CX CY CZ.
    assert (H : forall a c, truncZ ((a + 1/2 * t) / t) = truncZ ((c + 1/2 * t) / t) -> - (t / 2) <= a -> - (t / 2) <= c -> Rabs (a - c) < t).
    { intros a c K A C. apply trunc_close1 in K; [|apply Rmult_le_pos; [lra|left; now apply Rinv_0_lt_compat]|apply Rmult_le_pos; [lra|left; now apply Rinv_0_lt_compat]]. replace (a - c) with (((a + 1/2 * t) / t - (c + 1/2 * t) / t) * t) by (field; lra). rewrite Rabs_mult, (Rabs_right t) by lra. nra. }
    repeat constructor; auto. }
  intros i o x O X. pose proof (Forall2_nth_error _ _ _ F i o x O X) as H. destruct o as [[a1 b1] c1], x as [[a2 b2] c2]. destruct H as (H1 & H2 & H3). repeat (constructor; [apply G; assumption|]). constructor.
Qed.
(** Not within the tolerance in general: two corners almost two tolerances apart, on either side of zero, are
    merged.  Here with tolerance 1 the corner (-1.45,0,0) of the second triangle is replaced by (0.45,0,0). *)
Definition straddling : list triangle := [(V3 (45/100) 0 0, V3 10 0 0, V3 0 10 0); (V3 (- (145/100)) 0 0, V3 (-10) 0 0, V3 0 (-10) 0)].
Lemma truncZ_pos z x : (0 <= z)%Z -> IZR z <= x < IZR z + 1 -> truncZ x = z.
Proof. intros P H. apply IZR_le in P. unfold truncZ. rewrite (proj2 (Rleb_true _ _)) by lra. symmetry. now apply Int_part_spec. Qed.
Lemma truncZ_neg z x : (0 <= z)%Z -> x < 0 -> IZR z <= - x < IZR z + 1 -> truncZ x = (- z)%Z.
Proof. intros P N H. unfold truncZ. rewrite (proj2 (Rleb_false _ _)) by lra. f_equal. symmetry. now apply Int_part_spec. Qed.
Lemma straddling_tol : used_tol straddling 1 = Ok 1.
Proof.
  pose proof max_float64_big as M. unfold used_tol. cbv zeta.
  assert (S : 2 <= sqrt (max_side straddling)).
  { rewrite <- (sqrt_square 2) by lra. apply sqrt_le_1_alt. unfold max_side, straddling. cbn [flat_map sides app fold_left]. eapply Rle_trans; [|apply Rmax_r]. unfold norm3sq, dot3, sub3. cbn [x3 y3 z3]. lra. }
  assert (B : model_box straddling = Box3 (V3 (-10) (-10) 0) (V3 10 10 0)).
  { unfold model_box, straddling, far_box. cbn [flat_map corners app fold_left]. unfold grow. cbn [x3 y3 z3 min3 max3]. f_equal; f_equal; repeat match goal with |- context [Rmin ?a ?b] => (rewrite (Rmin_left a b) by lra) || (rewrite (Rmin_right a b) by lra) | |- context [Rmax ?a ?b] => (rewrite (Rmax_left a b) by lra) || (rewrite (Rmax_right a b) by lra) end; lra. }
  unfold straddling at 1. rewrite (proj2 (Rltb_false _ _)) by lra. rewrite !(proj2 (Reqb_false 1 0)) by lra. rewrite B. unfold sub3. cbn [x3 y3 z3 min3 max3].
  assert (D : Rmax (10 - -10) (Rmax (10 - -10) (0 - 0)) = 20) by (rmm; lra). rewrite D. rewrite (truncZ_pos 20) by (try lia; lra). reflexivity.
Qed.
Theorem C77_two_tolerances_refuted srt : permutes srt -> exists b m, import_v2 srt straddling 1 = Ok b /\ used_tol straddling 1 = Ok 1 /\
  nth_error straddling 1 = Some (V3 (- (145/100)) 0 0, V3 (-10) 0 0, V3 0 (-10) 0) /\
  Permutation (map (tri_of (bih_verts b)) (bih_mesh b)) m /\ nth_error m 1 = Some (V3 (45/100) 0 0, V3 (-10) 0 0, V3 0 (-10) 0).
Proof.
  intros P. assert (MG : merge 1 straddling = ([V3 (45/100) 0 0; V3 10 0 0; V3 0 10 0; V3 (-10) 0 0; V3 0 (-10) 0], [(0, 1, 2); (0, 3, 4)]%nat)).
  { assert (Z0 : truncZ ((0 + 1/2 * 1) / 1) = 0%Z) by (apply truncZ_pos; [lia|lra]). assert (Zp : truncZ ((10 + 1/2 * 1) / 1) = 10%Z) by (apply truncZ_pos; [lia|lra]).
    assert (Zn : truncZ ((-10 + 1/2 * 1) / 1) = (-9)%Z) by (apply (truncZ_neg 9); [lia|lra|lra]).
    assert (Zu : truncZ ((45/100 + 1/2 * 1) / 1) = 0%Z) by (apply truncZ_pos; [lia|lra]). assert (Zv : truncZ ((- (145/100) + 1/2 * 1) / 1) = 0%Z) by (apply (truncZ_neg 0); [lia|lra|lra]).
    unfold merge, straddling. cbn [fold_left add_triangle]. unfold add_triangle, add_vertex, cell. cbn [x3 y3 z3]. rewrite !Z0, !Zp, !Zn, !Zu, !Zv. reflexivity. }
  destruct (subdivide srt [V3 (45/100) 0 0; V3 10 0 0; V3 0 10 0; V3 (-10) 0 0; V3 0 (-10) 0] 2 [NLeaf 0 0] 0 0 [(0, 1, 2); (0, 3, 4)]%nat (model_box straddling)) as [nb m'] eqn:SD.
  exists (Bih [V3 (45/100) 0 0; V3 10 0 0; V3 0 10 0; V3 (-10) 0 0; V3 0 (-10) 0] m' nb (model_box straddling)), (map (tri_of [V3 (45/100) 0 0; V3 10 0 0; V3 0 10 0; V3 (-10) 0 0; V3 0 (-10) 0]) [(0, 1, 2); (0, 3, 4)]%nat).
  split; [unfold import_v2; rewrite straddling_tol; cbn [bind]; rewrite MG; cbn [length]; rewrite SD; reflexivity|]. split; [apply straddling_tol|]. split; [reflexivity|]. split; [|reflexivity]. cbn [bih_verts bih_mesh].
  apply Permutation_map. destruct (subdivide_ok srt _ P _ _ _ _ _ _ _ _ SD ltac:(cbn; lia) ltac:(cbn; lia)) as (_ & _ & PM & _). exact PM.
Qed.
(** ** The tolerance *)
(** The sides of a triangle, as pairs of corners. *)
Definition side_of (x : triangle) (a b : v3) : Prop := let '(u, v, w) := x in (a, b) = (u, v) \/ (a, b) = (v, w) \/ (a, b) = (w, u).
Lemma side_in x a b : side_of x a b -> In (norm3sq (sub3 b a)) (sides x).
Proof. destruct x as [[u v] w]. intros [E|[E|E]]; injection E as -> ->; cbn; auto. Qed.
Lemma in_side x d : In d (sides x) -> exists a b, side_of x a b /\ d = norm3sq (sub3 b a).
Proof. destruct x as [[u v] w]. intros [E|[E|[E|[]]]]; subst d; [exists u, v|exists v, w|exists w, u]; unfold side_of; auto. Qed.
Lemma fold_rmin l : forall d, (forall x, In x l -> fold_left Rmin l d <= x) /\ fold_left Rmin l d <= d /\ (fold_left Rmin l d = d \/ In (fold_left Rmin l d) l).
Proof.
  induction l as [|y l IH]; intros d; [cbn; repeat split; [intros x []|lra|auto]|]. cbn [fold_left]. destruct (IH (Rmin d y)) as (A & B & C). repeat split.
  - intros x [<-|I]; [eapply Rle_trans; [exact B|apply Rmin_r]|auto].
  - eapply Rle_trans; [exact B|apply Rmin_l].
  - destruct C as [C|C]; [|right; now right]. rewrite C. unfold Rmin. destruct (Rle_dec d y); [auto|right; now left].
Qed.
Lemma fold_rmax l : forall d, (forall x, In x l -> x <= fold_left Rmax l d) /\ d <= fold_left Rmax l d /\ (fold_left Rmax l d = d \/ In (fold_left Rmax l d) l).
Proof.
  induction l as [|y l IH]; intros d; [cbn; repeat split; [intros x []|lra|auto]|]. cbn [fold_left]. destruct (IH (Rmax d y)) as (A & B & C). repeat split.
  - intros x [<-|I]; [eapply Rle_trans; [apply Rmax_r|exact B]|auto].
  - eapply Rle_trans; [apply Rmax_l|exact B].
  - destruct C as [C|C]; [|right; now right]. rewrite C. unfold Rmax. destruct (Rle_dec d y); [right; now left|auto].
Qed.
Lemma dist_sq a b : sqrt (norm3sq (sub3 b a)) = dist3 a b.
Proof. unfold dist3, norm3. f_equal. unfold norm3sq, dot3, sub3. cbn. ring. Qed.
(** The tolerance that an accepted call works with: a given one is taken unchanged, and without one (0) it is the
    256th part of the shortest side (for sides shorter than the square root of the largest float64).  It is never
    more than half the longest side. *)
Theorem C77_tolerance model tol t : used_tol model tol = Ok t -> (forall x a b, In x model -> side_of x a b -> norm3sq (sub3 b a) < max_float64) ->
  0 < t /\ (tol <> 0 -> t = tol) /\
  (tol = 0 -> (forall x a b, In x model -> side_of x a b -> 256 * t <= dist3 a b) /\ exists x a b, In x model /\ side_of x a b /\ dist3 a b = 256 * t) /\
  exists x a b, In x model /\ side_of x a b /\ 2 * t <= dist3 a b.
Proof.
  intros E FIN. pose proof (used_tol_pos _ _ _ E) as TP. split; [exact TP|]. unfold used_tol in E. destruct model as [|x0 model0] eqn:EM; [discriminate|]. rewrite <- EM in *.
  destruct (Rltb_spec (sqrt (max_side model) / 2) tol) as [LT|GE]; [discriminate|]. cbv zeta in E.
  assert (ET : t = if Reqb tol 0 then sqrt (min_side model) / 256 else tol).
  { destruct (Reqb (if Reqb tol 0 then sqrt (min_side model) / 256 else tol) 0); [discriminate|]. destruct (_ <=? 0)%Z; [discriminate|]. destruct (_ <? _)%Z; [discriminate|]. now injection E as <-. } clear E.
  assert (IN : forall x a b, In x model -> side_of x a b -> In (norm3sq (sub3 b a)) (flat_map sides model)) by (intros x a b I S; apply in_flat_map; exists x; split; [exact I|now apply side_in]).
  assert (BK : forall d, In d (flat_map sides model) -> exists x a b, In x model /\ side_of x a b /\ d = norm3sq (sub3 b a)) by (intros d I; apply in_flat_map in I; destruct I as (x & I & S); apply in_side in S; destruct S as (a & b & S & D); exists x, a, b; auto).
  assert (NE : exists x a b, In x model /\ side_of x a b) by (rewrite EM; destruct x0 as [[u v] w]; exists (u, v, w), u, v; split; [now left|now left]).
  destruct (fold_rmin (flat_map sides model) max_float64) as (M1 & _ & M3). destruct (fold_rmax (flat_map sides model) (- max_float64)) as (X1 & _ & X3). fold (min_side model) in *. fold (max_side model) in *.
  destruct NE as (xx & aa & bb & IX & SX). pose proof max_float64_big as MB.
  assert (MI : In (min_side model) (flat_map sides model)) by (destruct M3 as [M3|M3]; [|exact M3]; pose proof (FIN xx aa bb IX SX); pose proof (M1 _ (IN _ _ _ IX SX)); lra).
  assert (XI : In (max_side model) (flat_map sides model)) by (destruct X3 as [X3|X3]; [|exact X3]; pose proof (X1 _ (IN _ _ _ IX SX)) as K; assert (0 <= norm3sq (sub3 bb aa)) by (unfold norm3sq, dot3; nra); lra).
  destruct (BK _ MI) as (xm & am & bm & Im & Sm & Dm). destruct (BK _ XI) as (xl & al & bl & Il & Sl & Dl). pose proof (dist_sq am bm) as Qm. pose proof (dist_sq al bl) as Ql. rewrite <- Dm in Qm. rewrite <- Dl in Ql.
  assert (LM : sqrt (min_side model) <= sqrt (max_side model)) by (apply sqrt_le_1_alt; apply X1; exact MI).
  destruct (Reqb_spec tol 0) as [->|NZ].
  - split; [lra|]. split.
    + intros _. split; [|exists xm, am, bm; repeat split; try assumption; lra]. intros x a b I S. pose proof (M1 _ (IN _ _ _ I S)) as K. apply sqrt_le_1_alt in K. rewrite (dist_sq a b) in K. lra.
    + exists xl, al, bl. repeat split; try assumption. pose proof (sqrt_pos (min_side model)). lra.
  - split; [auto|]. split; [lra|]. exists xl, al, bl. repeat split; try assumption. lra.
Qed.
(** The calls that are errors for want of a usable tolerance: no triangles, or a tolerance above half the longest side. *)
Theorem C77_tolerance_errors srt model tol : (forall x a b, In x model -> side_of x a b -> dist3 a b < 2 * tol) -> import_v2 srt model tol = Err.
Proof.
  intros H. unfold import_v2, used_tol. destruct model as [|x0 model0] eqn:EM; [reflexivity|]. rewrite <- EM in *. rewrite (proj2 (Rltb_true _ _)); [reflexivity|].
  destruct (fold_rmax (flat_map sides model) (- max_float64)) as (_ & _ & X3). fold (max_side model) in *. pose proof max_float64_big as MB.
  assert (T0 : 0 < tol). { destruct x0 as [[u v] w]. pose proof (H (u, v, w) u v ltac:(rewrite EM; now left) ltac:(now left)) as K. pose proof (norm3_nonneg (sub3 u v)). unfold dist3 in K. lra. }
  destruct X3 as [X3|X3].
  - rewrite X3. rewrite sqrt_neg_0 by lra. lra.
  - apply in_flat_map in X3. destruct X3 as (x & I & S). apply in_side in S. destruct S as (a & b & S & D). rewrite D, dist_sq. pose proof (H x a b I S). lra.
Qed.
Example C77_tolerance_example : exists t, used_tol [right_triangle] (1/100) = Ok t /\ t = 1/100 /\ import_v2 (fun _ l => l) [right_triangle] 10 = Err.
Proof.
  exists (1/100). split; [apply right_triangle_tol|]. split; [reflexivity|]. apply C77_tolerance_errors. intros x a b [<-|[]] S. unfold dist3, norm3. replace (2 * 10) with (sqrt (20 * 20)) by (rewrite sqrt_square; lra). apply sqrt_lt_1_alt.
  unfold right_triangle in S. destruct S as [S|[S|S]]; injection S as -> ->; unfold norm3sq, dot3, sub3; cbn; lra.
Qed.
