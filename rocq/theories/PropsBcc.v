(** C71: the body-centred cubic lattice mesher (helpers/sdfexp/bccmesh.go). *)
From Coq Require Import Reals List Bool Arith ZArith Lia Lra Permutation.
From Verif Require Import Prelude Vec BoxModel OctreeR OmeshModel BccModel PropsBih.
Import ListNotations.
Local Open Scope Z_scope.

(** The corner of the unit cell named by a label (bccmesh.go:26-34). *)
Definition off (l : nat) : Z * Z * Z :=
  nth l [(0, 0, 0); (1, 0, 0); (1, 1, 0); (0, 1, 0); (0, 0, 1); (1, 0, 1); (1, 1, 1); (0, 1, 1)] (0, 0, 0).
Definition addz (a b : Z * Z * Z) : Z * Z * Z := let '(i, j, k) := a in let '(x, y, z) := b in (i + x, j + y, k + z).
Definition corner_of (c : cell) (l : nat) : Z * Z * Z := addz c (off l).
Definition lab (o : Z * Z * Z) : nat := let '(x, y, z) := o in Z.to_nat (4 * z + if y =? 0 then x else 3 - x).
(** The first cell visited that has the corner. *)
Definition first_cell (q : Z * Z * Z) : cell := let '(x, y, z) := q in (Z.max 0 (x - 1), Z.max 0 (y - 1), Z.max 0 (z - 1)).
Definition first_lab (q : Z * Z * Z) : nat := let '(x, y, z) := q in lab (x - Z.max 0 (x - 1), y - Z.max 0 (y - 1), z - Z.max 0 (z - 1)).

Lemma first_lab_lt q : let '(x, y, z) := q in 0 <= x -> 0 <= y -> 0 <= z -> (first_lab q < 8)%nat.
Proof.
  destruct q as [[x y] z]. intros X Y Z. unfold first_lab, lab. destruct (Z.eqb_spec (y - Z.max 0 (y - 1)) 0); lia.
Qed.
Lemma foldM_app {A B} (f : A -> B -> res A) l1 : forall a l2, foldM f a (l1 ++ l2) = do a' <- foldM f a l1; foldM f a' l2.
Proof. induction l1 as [|b l1 IH]; intros a l2; cbn [foldM app]; [reflexivity|]. destruct (f a b); cbn [bind]; [apply IH|reflexivity|reflexivity]. Qed.

Ltac p3 := apply f_equal2; [apply f_equal2|]; lia.

(** The tetrahedra of a cell in terms of lattice points: four on each face shared with a previous cell, each
    joining the two cell centres and an edge of the face. *)
Definition lattice_tets {A} (corner ctr : Z * Z * Z -> A) (c : cell) : list (A * A * A * A) :=
  let '(i, j, k) := c in
  (if 0 <? k then let z := ctr (i, j, k - 1) in
    [(ctr c, corner (i, j, k), corner (i + 1, j, k), z); (ctr c, corner (i + 1, j, k), corner (i + 1, j + 1, k), z);
     (ctr c, corner (i + 1, j + 1, k), corner (i, j + 1, k), z); (ctr c, corner (i, j + 1, k), corner (i, j, k), z)] else []) ++
  (if 0 <? j then let y := ctr (i, j - 1, k) in
    [(ctr c, corner (i + 1, j, k), corner (i, j, k), y); (ctr c, corner (i + 1, j, k + 1), corner (i + 1, j, k), y);
     (ctr c, corner (i, j, k + 1), corner (i + 1, j, k + 1), y); (ctr c, corner (i, j, k), corner (i, j, k + 1), y)] else []) ++
  (if 0 <? i then let x := ctr (i - 1, j, k) in
    [(ctr c, corner (i, j, k), corner (i, j + 1, k), x); (ctr c, corner (i, j, k + 1), corner (i, j, k), x);
     (ctr c, corner (i, j + 1, k + 1), corner (i, j, k + 1), x); (ctr c, corner (i, j + 1, k), corner (i, j + 1, k + 1), x)] else []).

Section Grid.
Context (dx dy dz : Z) (b : v3) (r : R).
Let d := (dx, dy, dz).
Definition inr (c : cell) : Prop := let '(i, j, k) := c in 0 <= i < dx /\ 0 <= j < dy /\ 0 <= k < dz.
Definition fl (c : cell) : Z := let '(i, j, k) := c in i * dy * dz + j * dz + k.
Lemma fl_inj c c' : inr c -> inr c' -> fl c = fl c' -> c = c'.
Proof.
  destruct c as [[i j] k], c' as [[i' j'] k']. cbn. intros (I & J & K) (I' & J' & K') E.
  destruct (Z.div_mod_unique dz (i * dy + j) (i' * dy + j') k k') as (E2 & ->); [lia|lia|lia|].
  destruct (Z.div_mod_unique dy i i' j j') as (-> & ->); [lia|lia|lia|]. reflexivity.
Qed.
Lemma bcc_at_in i j k : inr (i, j, k) -> bcc_at d i j k = Some (fl (i, j, k)).
Proof.
  intros (I & J & K). unfold bcc_at, d. rewrite !(proj2 (Z.ltb_ge _ 0)), !(proj2 (Z.leb_gt _ _)) by lia. reflexivity.
Qed.
Lemma bcc_at_out i j k : ~ inr (i, j, k) -> bcc_at d i j k = None.
Proof.
  intros H. unfold bcc_at, d. destruct (Z.ltb_spec i 0), (Z.ltb_spec j 0), (Z.ltb_spec k 0), (Z.leb_spec dx i), (Z.leb_spec dy j), (Z.leb_spec dz k); cbn [orb]; try reflexivity. exfalso. apply H. cbn. lia.
Qed.
Lemma cell_dec (c c' : cell) : {c = c'} + {c <> c'}.
Proof. repeat decide equality. Qed.
Lemma upd_get num c l v c' l' : inr c -> inr c' ->
  upd num (fl c) l v (fl c') l' = if cell_dec c' c then if Nat.eq_dec l' l then v else num (fl c') l' else num (fl c') l'.
Proof.
  intros I I'. unfold upd. destruct (cell_dec c' c) as [->|N].
  - rewrite Z.eqb_refl. cbn [andb]. destruct (Nat.eqb_spec l' l), (Nat.eq_dec l' l); try reflexivity; contradiction.
  - destruct (Z.eqb_spec (fl c') (fl c)) as [E|E]; [|reflexivity]. exfalso. apply N. now apply fl_inj.
Qed.
Definition key (c : cell) (l : nat) : Prop := inr c /\ (l = 8%nat \/ (l < 8)%nat /\ first_cell (corner_of c l) = c /\ first_lab (corner_of c l) = l).
Definition posn (c : cell) (l : nat) : v3 := if (l =? 8)%nat then center3 (cell_box b r c) else nth l (vertices3 (cell_box b r c)) zero3.

Record inv (P : cell -> nat -> Prop) (s : bst) : Prop := {
  i_len : b_n s = Z.of_nat (length (b_nodes s));
  i_unset : forall c l, inr c -> (l <= 8)%nat -> ~ P c l -> b_num s (fl c) l = -1;
  i_copy : forall c l, inr c -> (l < 8)%nat -> P c l ->
    P (first_cell (corner_of c l)) (first_lab (corner_of c l)) /\ b_num s (fl c) l = b_num s (fl (first_cell (corner_of c l))) (first_lab (corner_of c l));
  i_range : forall c l, key c l -> P c l -> 0 <= b_num s (fl c) l < b_n s;
  i_inj : forall c l c' l', key c l -> key c' l' -> P c l -> P c' l' -> b_num s (fl c) l = b_num s (fl c') l' -> c = c' /\ l = l';
  i_pos : forall c l, key c l -> P c l -> nth_error (b_nodes s) (Z.to_nat (b_num s (fl c) l)) = Some (posn c l);
  i_surj : forall v, 0 <= v < b_n s -> exists c l, key c l /\ P c l /\ b_num s (fl c) l = v }.
Lemma inv_iff P Q s : (forall c l, inr c -> (l <= 8)%nat -> P c l <-> Q c l) -> inv P s -> inv Q s.
Proof.
  intros E I. destruct I as [I1 I2 I3 I4 I5 I6 I7].
  assert (KL : forall c l, key c l -> inr c /\ (l <= 8)%nat) by (intros c l (H & [->|(H2 & _)]); split; [assumption|lia|assumption|lia]).
  assert (FC : forall c l, inr c -> (l < 8)%nat -> inr (first_cell (corner_of c l)) /\ (first_lab (corner_of c l) <= 8)%nat).
  { intros [[i j] k] l (A & B & C) L. split; [do 8 (destruct l as [|l]; [cbn; lia|]); lia|]. pose proof (first_lab_lt (corner_of (i, j, k) l)) as F. enough (first_lab (corner_of (i, j, k) l) < 8)%nat by lia. do 8 (destruct l as [|l]; [apply F; lia|]); lia. }
  split; try assumption.
  - intros c l H L NP. apply I2; [assumption|assumption|]. intros HP. apply NP. now apply E.
  - intros c l H L HP. destruct (I3 c l H L) as (A & B); [apply E; [assumption|lia|assumption]|]. split; [|assumption]. destruct (FC c l H L). now apply E.
  - intros c l K HP. apply I4; [assumption|]. destruct (KL c l K). now apply E.
  - intros c l c' l' K K' HP HP' EQ. destruct (KL c l K), (KL c' l' K'). apply I5; try assumption; now apply E.
  - intros c l K HP. apply I6; [assumption|]. destruct (KL c l K). now apply E.
  - intros v V. destruct (I7 v V) as (c & l & K & HP & EQ). exists c, l. destruct (KL c l K). repeat split; try apply K; try assumption. now apply E.
Qed.
Definition plus (P : cell -> nat -> Prop) (c : cell) (l : nat) : cell -> nat -> Prop := fun c' l' => P c' l' \/ (c' = c /\ l' = l).
Lemma inv_fresh P s c l t : key c l -> ~ P c l -> inv P s ->
  inv (plus P c l) (Bst (upd (b_num s) (fl c) l (b_n s)) (b_n s + 1) (b_nodes s ++ [posn c l]) t).
Proof.
  intros K NP [I1 I2 I3 I4 I5 I6 I7]. destruct K as (IC & KL). assert (K : key c l) by (split; assumption).
  assert (FI : forall c l, inr c -> (l < 8)%nat -> inr (first_cell (corner_of c l))) by (intros [[i j] k] l' (A & B & C) L; do 8 (destruct l' as [|l']; [cbn; lia|]); lia).
  assert (OLD : forall c' l', inr c' -> P c' l' -> upd (b_num s) (fl c) l (b_n s) (fl c') l' = b_num s (fl c') l').
  { intros c' l' I' HP. rewrite upd_get by assumption. destruct (cell_dec c' c) as [->|]; [|reflexivity]. destruct (Nat.eq_dec l' l) as [->|]; [contradiction|reflexivity]. }
  assert (NEW : upd (b_num s) (fl c) l (b_n s) (fl c) l = b_n s) by (unfold upd; now rewrite Z.eqb_refl, Nat.eqb_refl).
  split; cbn [b_num b_n b_nodes b_tets].
  - rewrite app_length. cbn. lia.
  - intros c' l' I' L' N'. rewrite upd_get by assumption. destruct (cell_dec c' c) as [->|]; [destruct (Nat.eq_dec l' l) as [->|]|]; try (apply I2; [assumption|assumption|intros H; apply N'; now left]). exfalso. apply N'. right. split; reflexivity.
  - intros c' l' I' L' [HP|(-> & ->)].
    + destruct (I3 c' l' I' L' HP) as (A & B). split; [now left|]. rewrite !OLD; try assumption. now apply FI.
    + destruct KL as [->|(_ & E1 & E2)]; [lia|]. rewrite E1, E2. split; [right; split; reflexivity|reflexivity].
  - intros c' l' K' [HP|(-> & ->)]; [rewrite OLD by (try apply K'; assumption); specialize (I4 c' l' K' HP); lia|]. rewrite NEW. lia.
  - intros c1 l1 c2 l2 K1 K2 [P1|(-> & ->)] [P2|(-> & ->)]; rewrite ?NEW, ?OLD by (try apply K1; try apply K2; assumption).
    + now apply I5.
    + intros E. specialize (I4 c1 l1 K1 P1). lia.
    + intros E. specialize (I4 c2 l2 K2 P2). lia.
    + split; reflexivity.
  - intros c' l' K' [HP|(-> & ->)].
    + rewrite OLD by (try apply K'; assumption). rewrite nth_error_app1; [now apply I6|]. specialize (I4 c' l' K' HP). lia.
    + rewrite NEW. rewrite nth_error_app2 by lia. replace (_ - _)%nat with 0%nat by lia. reflexivity.
  - intros v V. destruct (Z.eq_dec v (b_n s)) as [->|NE].
    + exists c, l. split; [exact K|]. split; [right; split; reflexivity|exact NEW].
    + destruct (I7 v) as (c' & l' & K' & HP & E); [lia|]. exists c', l'. split; [exact K'|]. split; [now left|]. rewrite OLD; [exact E|apply K'|exact HP].
Qed.
Lemma inv_copy P s c l t : inr c -> (l < 8)%nat -> ~ P c l -> ~ key c l -> P (first_cell (corner_of c l)) (first_lab (corner_of c l)) -> inv P s ->
  inv (plus P c l) (Bst (upd (b_num s) (fl c) l (b_num s (fl (first_cell (corner_of c l))) (first_lab (corner_of c l)))) (b_n s) (b_nodes s) t).
Proof.
  intros IC L NP NK FP [I1 I2 I3 I4 I5 I6 I7]. set (v := b_num s (fl (first_cell (corner_of c l))) (first_lab (corner_of c l))) in *.
  assert (FI : forall c l, inr c -> (l < 8)%nat -> inr (first_cell (corner_of c l))) by (intros [[i j] k] l' (A & B & C) L'; do 8 (destruct l' as [|l']; [cbn; lia|]); lia).
  assert (OLD : forall c' l', inr c' -> P c' l' -> upd (b_num s) (fl c) l v (fl c') l' = b_num s (fl c') l').
  { intros c' l' I' HP. rewrite upd_get by assumption. destruct (cell_dec c' c) as [->|]; [|reflexivity]. destruct (Nat.eq_dec l' l) as [->|]; [contradiction|reflexivity]. }
  assert (NEW : upd (b_num s) (fl c) l v (fl c) l = v) by (unfold upd; now rewrite Z.eqb_refl, Nat.eqb_refl).
  assert (KP : forall c' l', key c' l' -> plus P c l c' l' -> P c' l') by (intros c' l' K' [H|(-> & ->)]; [assumption|contradiction]).
  split; cbn [b_num b_n b_nodes b_tets].
  - assumption.
  - intros c' l' I' L' N'. rewrite upd_get by assumption. destruct (cell_dec c' c) as [->|]; [destruct (Nat.eq_dec l' l) as [->|]|]; try (apply I2; [assumption|assumption|intros H; apply N'; now left]). exfalso. apply N'. right. split; reflexivity.
  - intros c' l' I' L' [HP|(-> & ->)].
    + destruct (I3 c' l' I' L' HP) as (A & B). split; [now left|]. rewrite !OLD; try assumption. now apply FI.
    + split; [now left|]. rewrite NEW, OLD; [reflexivity|now apply FI|assumption].
  - intros c' l' K' HP. apply KP in HP; [|assumption]. rewrite OLD; [now apply I4|apply K'|assumption].
  - intros c1 l1 c2 l2 K1 K2 P1 P2. apply KP in P1; [|assumption]. apply KP in P2; [|assumption]. rewrite !OLD by (try apply K1; try apply K2; assumption). now apply I5.
  - intros c' l' K' HP. apply KP in HP; [|assumption]. rewrite OLD; [now apply I6|apply K'|assumption].
  - intros w V. destruct (I7 w V) as (c' & l' & K' & HP & E). exists c', l'. split; [exact K'|]. split; [now left|]. rewrite OLD; [exact E|apply K'|exact HP].
Qed.

(** What is set while cell [c] is being visited, the labels below [l] being done. *)
Definition during (c : cell) (l : nat) : cell -> nat -> Prop := fun c' l' => fl c' < fl c \/ (c' = c /\ (l' = 8%nat \/ (l' < l)%nat)).
Lemma nb_minus c l s i j k l' : inr c -> inv (during c l) s -> (l' < 8)%nat -> fl (i, j, k) < fl c -> inr (i, j, k) -> corner_of (i, j, k) l' = corner_of c l ->
  node_at (b_num s) (bcc_at d i j k) l' = b_num s (fl (first_cell (corner_of c l))) (first_lab (corner_of c l)) /\ during c l (first_cell (corner_of c l)) (first_lab (corner_of c l)).
Proof.
  intros IC I L H IN E. rewrite bcc_at_in by exact IN. cbn [node_at]. rewrite <- E. destruct (i_copy _ _ I (i, j, k) l' IN L) as (A & B); [now left|]. split; assumption.
Qed.
Lemma nb_plus c l s i j k l' : inr c -> inv (during c l) s -> (l' < 8)%nat -> fl c < fl (i, j, k) -> node_at (b_num s) (bcc_at d i j k) l' = -1.
Proof.
  intros IC I L H. assert (DEC : inr (i, j, k) \/ ~ inr (i, j, k)) by (cbn; lia). destruct DEC as [IN|OUT].
  - rewrite bcc_at_in by exact IN. cbn [node_at]. apply (i_unset _ _ I); [exact IN|lia|]. intros [Q|(Q & _)]; [lia|]. rewrite Q in H. lia.
  - now rewrite bcc_at_out.
Qed.
Lemma corner_first x y z : 0 <= x -> 0 <= y -> 0 <= z -> corner_of (first_cell (x, y, z)) (first_lab (x, y, z)) = (x, y, z).
Proof.
  intros X Y Z. unfold first_cell, first_lab, corner_of.
  assert (HX : exists u, x = Z.max 0 (x - 1) + u /\ (u = 0 \/ u = 1)) by (exists (x - Z.max 0 (x - 1)); lia).
  assert (HY : exists u, y = Z.max 0 (y - 1) + u /\ (u = 0 \/ u = 1)) by (exists (y - Z.max 0 (y - 1)); lia).
  assert (HZ : exists u, z = Z.max 0 (z - 1) + u /\ (u = 0 \/ u = 1)) by (exists (z - Z.max 0 (z - 1)); lia).
  destruct HX as (u & EX & HU), HY as (v & EY & HV), HZ as (w & EZ & HW).
  replace (x - Z.max 0 (x - 1)) with u by lia. replace (y - Z.max 0 (y - 1)) with v by lia. replace (z - Z.max 0 (z - 1)) with w by lia.
  clear X Y Z. set (X := Z.max 0 (x - 1)) in *. set (Y := Z.max 0 (y - 1)) in *. set (Z0 := Z.max 0 (z - 1)) in *. clearbody X Y Z0.
  destruct HU, HV, HW; subst u v w; match goal with |- context [off (lab ?o)] => let v := eval vm_compute in (off (lab o)) in change (off (lab o)) with v end; cbn [addz]; p3.
Qed.
Lemma key_iff c l : inr c -> (l < 8)%nat -> key c l <-> first_cell (corner_of c l) = c.
Proof.
  intros I L. split.
  - intros (_ & [->|(_ & E & _)]); [lia|exact E].
  - intros E. split; [exact I|]. right. split; [exact L|]. split; [exact E|]. clear I. destruct c as [[i j] k]. revert E.
    do 8 (destruct l as [|l]; [unfold first_cell, first_lab, corner_of, off; cbn [nth addz]; intros E; apply pair_equal_spec in E; destruct E as (E & EZ); apply pair_equal_spec in E; destruct E as (EX & EY); rewrite EX, EY, EZ;
      match goal with |- lab (?a, ?b, ?c) = _ => first [replace a with 0 by lia | replace a with 1 by lia]; first [replace b with 0 by lia | replace b with 1 by lia]; first [replace c with 0 by lia | replace c with 1 by lia] end; reflexivity|]); lia.
Qed.
Lemma first_key c l : inr c -> (l < 8)%nat -> key (first_cell (corner_of c l)) (first_lab (corner_of c l)).
Proof.
  intros I L. assert (F : inr (first_cell (corner_of c l)) /\ (first_lab (corner_of c l) < 8)%nat /\ corner_of (first_cell (corner_of c l)) (first_lab (corner_of c l)) = corner_of c l).
  { destruct c as [[i j] k]. destruct I as (A & B & C). destruct (corner_of (i, j, k) l) as [[x y] z] eqn:Q.
    assert (H : i <= x <= i + 1 /\ j <= y <= j + 1 /\ k <= z <= k + 1) by (do 8 (destruct l as [|l]; [injection Q as <- <- <-; lia|]); lia).
    split; [cbn; lia|]. split; [apply (first_lab_lt (x, y, z)); lia|]. apply corner_first; lia. }
  destruct F as (F1 & F2 & F3). split; [exact F1|]. right. split; [exact F2|]. rewrite F3. split; reflexivity.
Qed.
Lemma neighbor_spec c l s : inr c -> (l < 8)%nat -> inv (during c l) s ->
  let q := corner_of c l in
  (key c l /\ neighbor_node d (b_num s) c l = Ok (-1)) \/
  (~ key c l /\ during c l (first_cell q) (first_lab q) /\ 0 <= b_num s (fl (first_cell q)) (first_lab q) /\ neighbor_node d (b_num s) c l = Ok (b_num s (fl (first_cell q)) (first_lab q))).
Proof.
  intros IC L I q. set (M := b_num s (fl (first_cell q)) (first_lab q)).
  assert (MP : during c l (first_cell q) (first_lab q) -> 0 <= M) by (intros H; apply (i_range _ _ I); [now apply first_key|exact H]).
  destruct c as [[i j] k]. pose proof IC as (A & B & C).
  assert (XM : forall l', (l' < 8)%nat -> corner_of (i - 1, j, k) l' = q -> node_at (b_num s) (bcc_at d (i - 1) j k) l' = (if 0 <? i then M else -1) /\ (0 < i -> during (i, j, k) l (first_cell q) (first_lab q))).
  { intros l' L' E. destruct (Z.ltb_spec 0 i); [|split; [now rewrite bcc_at_out by (cbn; lia)|lia]]. assert (0 < dy * dz) by nia. destruct (nb_minus (i, j, k) l s (i - 1) j k l') as (A1 & A2); [assumption|assumption|assumption|cbn; nia|cbn; lia|assumption|]. split; [exact A1|intros _; exact A2]. }
  assert (YM : forall l', (l' < 8)%nat -> corner_of (i, j - 1, k) l' = q -> node_at (b_num s) (bcc_at d i (j - 1) k) l' = (if 0 <? j then M else -1) /\ (0 < j -> during (i, j, k) l (first_cell q) (first_lab q))).
  { intros l' L' E. destruct (Z.ltb_spec 0 j); [|split; [now rewrite bcc_at_out by (cbn; lia)|lia]]. destruct (nb_minus (i, j, k) l s i (j - 1) k l') as (A1 & A2); [assumption|assumption|assumption|cbn; nia|cbn; lia|assumption|]. split; [exact A1|intros _; exact A2]. }
  assert (ZM : forall l', (l' < 8)%nat -> corner_of (i, j, k - 1) l' = q -> node_at (b_num s) (bcc_at d i j (k - 1)) l' = (if 0 <? k then M else -1) /\ (0 < k -> during (i, j, k) l (first_cell q) (first_lab q))).
  { intros l' L' E. destruct (Z.ltb_spec 0 k); [|split; [now rewrite bcc_at_out by (cbn; lia)|lia]]. destruct (nb_minus (i, j, k) l s i j (k - 1) l') as (A1 & A2); [assumption|assumption|assumption|cbn; lia|cbn; lia|assumption|]. split; [exact A1|intros _; exact A2]. }
  assert (XP : forall l', (l' < 8)%nat -> node_at (b_num s) (bcc_at d (i + 1) j k) l' = -1) by (intros l' L'; apply (nb_plus (i, j, k) l); try assumption; assert (0 < dy * dz) by nia; cbn; nia).
  assert (YP : forall l', (l' < 8)%nat -> node_at (b_num s) (bcc_at d i (j + 1) k) l' = -1) by (intros l' L'; apply (nb_plus (i, j, k) l); try assumption; cbn; nia).
  assert (ZP : forall l', (l' < 8)%nat -> node_at (b_num s) (bcc_at d i j (k + 1)) l' = -1) by (intros l' L'; apply (nb_plus (i, j, k) l); try assumption; cbn; lia).
  rewrite (key_iff (i, j, k) l IC L). clearbody M. clear I. fold q.
  assert (G : forall nx ny nz, (nx = -1 \/ nx = M) -> (ny = -1 \/ ny = M) -> (nz = -1 \/ nz = M) -> (nx <> -1 \/ ny <> -1 \/ nz <> -1 -> 0 <= M) ->
    (if ((0 <=? nx) && (0 <=? ny) && negb (nx =? ny)) || ((0 <=? nx) && (0 <=? nz) && negb (nx =? nz)) || ((0 <=? nz) && (0 <=? ny) && negb (nz =? ny)) then Panicked else Ok (Z.max nx (Z.max ny nz))) =
    Ok (if (nx =? -1) && (ny =? -1) && (nz =? -1) then -1 else M)).
  { intros nx ny nz HX HY HZ H. destruct (Z.eq_dec M (-1)) as [E|E].
    - assert (nx = -1 /\ ny = -1 /\ nz = -1) as (-> & -> & ->) by lia. reflexivity.
    - destruct HX as [-> | -> ], HY as [-> | -> ], HZ as [-> | -> ]; rewrite ?(proj2 (Z.eqb_neq _ _) E), ?Z.eqb_refl; cbn [negb andb orb]; try (specialize (H ltac:(lia)); rewrite ?(proj2 (Z.leb_le 0 M) H)); cbn; rewrite ?Z.eqb_refl; try reflexivity; f_equal; lia. }
  assert (FC : forall x y z, q = (x, y, z) -> first_cell q = (Z.max 0 (x - 1), Z.max 0 (y - 1), Z.max 0 (z - 1))) by (intros x y z ->; reflexivity).
  assert (QE : q = addz (i, j, k) (off l)) by reflexivity. clearbody q.
  do 8 (destruct l as [|l]; [cbn [off nth addz] in QE; specialize (FC _ _ _ QE); unfold neighbor_node; cbv zeta;
    repeat match goal with
    | |- context [node_at (b_num s) (bcc_at d (i - 1) j k) ?l'] => let E := fresh "E" in let D := fresh "DX" in destruct (XM l') as (E & D); [lia|rewrite QE; unfold corner_of; cbn [off nth addz]; p3|rewrite E; clear E]
    | |- context [node_at (b_num s) (bcc_at d i (j - 1) k) ?l'] => let E := fresh "E" in let D := fresh "DY" in destruct (YM l') as (E & D); [lia|rewrite QE; unfold corner_of; cbn [off nth addz]; p3|rewrite E; clear E]
    | |- context [node_at (b_num s) (bcc_at d i j (k - 1)) ?l'] => let E := fresh "E" in let D := fresh "DZ" in destruct (ZM l') as (E & D); [lia|rewrite QE; unfold corner_of; cbn [off nth addz]; p3|rewrite E; clear E]
    end; rewrite ?XP, ?YP, ?ZP by lia; clear XM YM ZM XP YP ZP;
    rewrite G; [|destruct (Z.ltb_spec 0 i); first [now left | now right]|destruct (Z.ltb_spec 0 j); first [now left | now right]|destruct (Z.ltb_spec 0 k); first [now left | now right]|];
    destruct (Z.ltb_spec 0 i), (Z.ltb_spec 0 j), (Z.ltb_spec 0 k);
    try (assert (0 <= M) by (apply MP; tauto)); try (intros _; assumption); try (intros [Q|[Q|Q]]; contradiction Q; reflexivity);
    destruct (Z.eqb_spec M (-1)); try lia; cbn [andb Z.eqb Pos.eqb];
    first [left; split; [rewrite FC; p3|reflexivity] | right; split; [rewrite FC; intros Q; apply pair_equal_spec in Q; destruct Q as (Q & Q3); apply pair_equal_spec in Q; destruct Q; lia|split; [tauto|split; [assumption|reflexivity]]]]|]); lia.
Qed.

Lemma labels_loop c : inr c -> forall n l s, (l + n = 8)%nat -> inv (during c l) s ->
  exists s', foldM (label_step d (vertices3 (cell_box b r c)) c (fl c)) s (seq l n) = Ok s' /\ inv (during c 8) s' /\ b_tets s' = b_tets s /\
    (forall c' l', inr c' -> during c l c' l' -> b_num s' (fl c') l' = b_num s (fl c') l').
Proof.
  intros IC. induction n as [|n IH]; intros l s L I.
  - assert (l = 8%nat) by lia. subst l. exists s. split; [reflexivity|]. split; [exact I|]. split; reflexivity.
  - cbn [seq foldM]. assert (L8 : (l < 8)%nat) by lia.
    assert (NP : ~ during c l c l) by (intros [H|(_ & [H|H])]; lia).
    assert (EXT : forall v c' l', inr c' -> during c l c' l' -> upd (b_num s) (fl c) l v (fl c') l' = b_num s (fl c') l').
    { intros v c' l' I' H. rewrite upd_get by assumption. destruct (cell_dec c' c) as [->|]; [|reflexivity]. destruct (Nat.eq_dec l' l) as [->|]; [contradiction|reflexivity]. }
    assert (PL : forall c' l', inr c' -> (l' <= 8)%nat -> plus (during c l) c l c' l' <-> during c (S l) c' l').
    { intros c' l' _ _. unfold plus, during. split.
      - intros [[H|(-> & [H|H])]|(-> & ->)]; [now left|right; split; [reflexivity|lia]..].
      - intros [H|(-> & H)]; [left; now left|]. destruct (Nat.eq_dec l' l) as [->|NE]; [now right|]. left. right. split; [reflexivity|lia]. }
    assert (ST : exists s1, label_step d (vertices3 (cell_box b r c)) c (fl c) s l = Ok s1 /\ inv (during c (S l)) s1 /\ b_tets s1 = b_tets s /\ forall c' l', inr c' -> during c l c' l' -> b_num s1 (fl c') l' = b_num s (fl c') l').
    { unfold label_step. destruct (neighbor_spec c l s IC L8 I) as [(K & E)|(NK & D & M0 & E)]; rewrite E; cbn [bind].
      - cbn [Z.eqb Pos.eqb]. eexists. split; [reflexivity|]. split; [|split; [reflexivity|intros; cbn [b_num]; now apply EXT]]. apply (inv_iff _ _ _ PL). replace (nth l (vertices3 (cell_box b r c)) zero3) with (posn c l) by (unfold posn; destruct (Nat.eqb_spec l 8); [lia|reflexivity]). now apply inv_fresh.
      - destruct (Z.eqb_spec (b_num s (fl (first_cell (corner_of c l))) (first_lab (corner_of c l))) (-1)); [lia|]. eexists. split; [reflexivity|]. split; [|split; [reflexivity|intros; cbn [b_num]; now apply EXT]]. apply (inv_iff _ _ _ PL). now apply inv_copy. }
    destruct ST as (s1 & -> & I1 & T1 & E1). cbn [bind]. destruct (IH (S l) s1) as (s' & F & I' & T' & E'); [lia|exact I1|]. exists s'. split; [exact F|]. split; [exact I'|]. split; [now rewrite T'|].
    intros c' l' IC' H. rewrite E'; [now apply E1|exact IC'|]. unfold during in *. destruct H as [H|(H1 & H2)]; [now left|right; split; [exact H1|lia]].
Qed.
Definition done (m : Z) : cell -> nat -> Prop := fun c' _ => fl c' < m.
Definition cornerf (num : bnum) (q : Z * Z * Z) : Z := num (fl (first_cell q)) (first_lab q).
Definition ctrf (num : bnum) (c : cell) : Z := num (fl c) 8%nat.
Lemma tets_ext num num' c : inr c -> (forall c' l', inr c' -> (l' <= 8)%nat -> fl c' <= fl c -> num' (fl c') l' = num (fl c') l') ->
  lattice_tets (cornerf num') (ctrf num') c = lattice_tets (cornerf num) (ctrf num) c.
Proof.
  destruct c as [[i j] k]. intros (A & B & C) E.
  assert (CE : forall x y z, i <= x <= i + 1 -> j <= y <= j + 1 -> k <= z <= k + 1 -> cornerf num' (x, y, z) = cornerf num (x, y, z)).
  { intros x y z X Y Z. unfold cornerf. apply E; [cbn; lia|pose proof (first_lab_lt (x, y, z)); specialize (H ltac:(lia) ltac:(lia) ltac:(lia)); lia|]. cbn [first_cell fl]. assert (Z.max 0 (x - 1) <= i) by lia. assert (Z.max 0 (y - 1) <= j) by lia. assert (Z.max 0 (z - 1) <= k) by lia. assert (0 <= dy * dz) by nia. assert (Z.max 0 (x - 1) * (dy * dz) <= i * (dy * dz)) by (apply Z.mul_le_mono_nonneg_r; lia). assert (Z.max 0 (y - 1) * dz <= j * dz) by (apply Z.mul_le_mono_nonneg_r; lia). lia. }
  assert (0 <= dy * dz) by nia.
  unfold lattice_tets. rewrite !CE by lia. unfold ctrf. rewrite (E (i, j, k) 8%nat); [|cbn; lia|lia|lia].
  destruct (Z.ltb_spec 0 k), (Z.ltb_spec 0 j), (Z.ltb_spec 0 i); cbv zeta; rewrite ?(E (i, j, k - 1) 8%nat), ?(E (i, j - 1, k) 8%nat), ?(E (i - 1, j, k) 8%nat); try reflexivity; try lia; cbn; nia.
Qed.
Lemma cell_tetras_eq c s : inr c -> inv (during c 8) s -> cell_tetras d (b_num s) c (fl c) = lattice_tets (cornerf (b_num s)) (ctrf (b_num s)) c.
Proof.
  intros IC I. destruct c as [[i j] k]. pose proof IC as (A & B & C).
  assert (CO : forall l x y z, (l < 8)%nat -> corner_of (i, j, k) l = (x, y, z) -> b_num s (fl (i, j, k)) l = cornerf (b_num s) (x, y, z)).
  { intros l x y z L E. destruct (i_copy _ _ I (i, j, k) l IC L) as (_ & H); [right; split; [reflexivity|right; lia]|]. rewrite H, E. reflexivity. }
  unfold cell_tetras, lattice_tets, ctrf.
  rewrite (CO 0%nat i j k), (CO 1%nat (i + 1) j k), (CO 2%nat (i + 1) (j + 1) k), (CO 3%nat i (j + 1) k), (CO 4%nat i j (k + 1)), (CO 5%nat (i + 1) j (k + 1)), (CO 7%nat i (j + 1) (k + 1)) by (first [lia | cbn; p3]).
  assert (SD : forall i' j' k', fl (i', j', k') < fl (i, j, k) -> inr (i', j', k') -> bcc_at d i' j' k' = Some (fl (i', j', k')) /\ (0 <=? b_num s (fl (i', j', k')) 8%nat) = true).
  { intros i' j' k' LT IN. split; [now apply bcc_at_in|]. apply Z.leb_le. apply (i_range _ _ I); [split; [exact IN|now left]|left; exact LT]. }
  assert (0 < dy * dz) by nia.
  f_equal; [|f_equal].
  - destruct (Z.ltb_spec 0 k); [|now rewrite bcc_at_out by (cbn; lia)]. destruct (SD i j (k - 1)) as (-> & ->); [cbn; lia|cbn; lia|]. reflexivity.
  - destruct (Z.ltb_spec 0 j); [|now rewrite bcc_at_out by (cbn; lia)]. destruct (SD i (j - 1) k) as (-> & ->); [cbn; nia|cbn; lia|]. reflexivity.
  - destruct (Z.ltb_spec 0 i); [|now rewrite bcc_at_out by (cbn; lia)]. destruct (SD (i - 1) j k) as (-> & ->); [cbn; nia|cbn; lia|]. reflexivity.
Qed.
Lemma cell_inv c s : inr c -> inv (done (fl c)) s -> exists s', mesh_cell d b r s c = Ok s' /\ inv (done (fl c + 1)) s' /\
  (forall c' l', inr c' -> fl c' < fl c -> b_num s' (fl c') l' = b_num s (fl c') l') /\ b_tets s' = b_tets s ++ lattice_tets (cornerf (b_num s')) (ctrf (b_num s')) c.
Proof.
  intros IC I. unfold mesh_cell. destruct c as [[i j] k] eqn:EC. rewrite <- EC in *. unfold d at 1. cbv zeta. replace (i * dy * dz + j * dz + k) with (fl c) by (rewrite EC; reflexivity).
  change [0; 1; 2; 3; 4; 5; 6; 7]%nat with (seq 0 8). set (s0 := Bst _ _ _ _).
  assert (I0 : inv (during c 0) s0).
  { apply (inv_iff (plus (done (fl c)) c 8)).
    - intros c' l' _ _. unfold plus, done, during. split; [intros [H|(-> & ->)]; [now left|right; split; [reflexivity|now left]]|]. intros [H|(-> & [->|H])]; [now left|now right|lia].
    - unfold s0. change (center3 (cell_box b r c)) with (posn c 8). apply inv_fresh; [split; [exact IC|now left]|unfold done; lia|exact I]. }
  destruct (labels_loop c IC 8 0%nat s0 eq_refl I0) as (s1 & -> & I1 & T1 & E1). cbn [bind]. eexists. split; [reflexivity|]. cbn [b_num b_tets].
  split; [|split].
  - assert (I2 : inv (done (fl c + 1)) s1).
    { apply (inv_iff (during c 8)); [|exact I1]. intros c' l' IC' L'. unfold during, done. split; [intros [H|(-> & H)]; lia|]. intros H. destruct (Z.eq_dec (fl c') (fl c)) as [E|E]; [|left; lia]. right. split; [now apply fl_inj|lia]. }
    destruct I2 as [J1 J2 J3 J4 J5 J6 J7]. split; assumption.
  - intros c' l' IC' LT. rewrite E1; [|exact IC'|now left]. unfold s0. cbn [b_num]. rewrite upd_get by assumption. destruct (cell_dec c' c) as [->|]; [lia|reflexivity].
  - rewrite T1. unfold s0 at 1. cbn [b_tets]. f_equal. now apply cell_tetras_eq.
Qed.
Fixpoint consec (m : Z) (cs : list cell) : Prop := match cs with [] => True | c :: r => inr c /\ fl c = m /\ consec (m + 1) r end.
Lemma cells_loop : forall cs m s, consec m cs -> inv (done m) s -> exists s', foldM (mesh_cell d b r) s cs = Ok s' /\ inv (done (m + Z.of_nat (length cs))) s' /\
  (forall c' l', inr c' -> fl c' < m -> b_num s' (fl c') l' = b_num s (fl c') l') /\ b_tets s' = b_tets s ++ flat_map (lattice_tets (cornerf (b_num s')) (ctrf (b_num s'))) cs.
Proof.
  induction cs as [|c cs IH]; intros m s CS I; cbn [foldM length flat_map].
  - exists s. split; [reflexivity|]. rewrite Z.add_0_r, app_nil_r. split; [exact I|]. split; reflexivity.
  - destruct CS as (IC & F & CS). subst m. destruct (cell_inv c s IC I) as (s1 & -> & I1 & E1 & T1). cbn [bind]. destruct (IH _ s1 CS I1) as (s' & -> & I' & E' & T'). exists s'. split; [reflexivity|].
    split; [replace (fl c + Z.of_nat (S (length cs))) with (fl c + 1 + Z.of_nat (length cs)) by lia; exact I'|]. split.
    + intros c' l' IC' LT. rewrite E' by (try assumption; lia). now apply E1.
    + rewrite T', T1, <- app_assoc. f_equal. f_equal. symmetry. apply tets_ext; [exact IC|]. intros c' l' IC' L' LE. apply E'; [exact IC'|lia].
Qed.
Lemma consec_app : forall l1 m l2, consec m l1 -> consec (m + Z.of_nat (length l1)) l2 -> consec m (l1 ++ l2).
Proof.
  induction l1 as [|c l1 IH]; intros m l2 H1 H2; cbn [app consec length] in *; [now rewrite Z.add_0_r in H2|]. destruct H1 as (A & B & C). split; [exact A|]. split; [exact B|]. apply IH; [exact C|]. replace (m + 1 + Z.of_nat (length l1)) with (m + Z.of_nat (S (length l1))) by lia. exact H2.
Qed.
Lemma consec_flat (g : Z -> list cell) w m0 : forall n a, (forall t, 0 <= t < Z.of_nat (a + n) -> consec (m0 + t * w) (g t) /\ Z.of_nat (length (g t)) = w) ->
  consec (m0 + Z.of_nat a * w) (flat_map g (map Z.of_nat (seq a n))) /\ Z.of_nat (length (flat_map g (map Z.of_nat (seq a n)))) = Z.of_nat n * w.
Proof.
  induction n as [|n IH]; intros a H; cbn [seq map flat_map]; [split; [exact I|cbn; lia]|]. destruct (H (Z.of_nat a)) as (A & B); [lia|]. destruct (IH (S a)) as (C & D); [intros t T; apply H; lia|]. split.
  - apply consec_app; [exact A|]. rewrite B. replace (m0 + Z.of_nat a * w + w) with (m0 + Z.of_nat (S a) * w) by lia. exact C.
  - rewrite app_length, Nat2Z.inj_add, B, D. lia.
Qed.
Lemma cells_consec : 0 <= dx -> 0 <= dy -> 0 <= dz -> consec 0 (bcc_cells d) /\ Z.of_nat (length (bcc_cells d)) = dx * dy * dz.
Proof.
  intros X Y Z. unfold bcc_cells, d, zseq.
  destruct (consec_flat (fun i => flat_map (fun j => map (fun k => (i, j, k)) (map Z.of_nat (seq 0 (Z.to_nat dz)))) (map Z.of_nat (seq 0 (Z.to_nat dy)))) (dy * dz) 0 (Z.to_nat dx) 0%nat) as (A & B).
  - intros i HI. destruct (consec_flat (fun j => map (fun k => (i, j, k)) (map Z.of_nat (seq 0 (Z.to_nat dz)))) dz (i * (dy * dz)) (Z.to_nat dy) 0%nat) as (A & B).
    + intros j HJ. split; [|rewrite !map_length, seq_length; lia].
      assert (G : forall n a, (a + n = Z.to_nat dz)%nat -> consec (i * (dy * dz) + j * dz + Z.of_nat a) (map (fun k => (i, j, k)) (map Z.of_nat (seq a n)))).
      { induction n as [|n IH]; intros a HA; cbn [seq map consec]; [exact I|]. split; [cbn; lia|]. split; [cbn; lia|]. replace (i * (dy * dz) + j * dz + Z.of_nat a + 1) with (i * (dy * dz) + j * dz + Z.of_nat (S a)) by lia. apply IH. lia. }
      specialize (G (Z.to_nat dz) 0%nat eq_refl). change (Z.of_nat 0) with 0 in G. now rewrite Z.add_0_r in G.
    + change (Z.of_nat 0) with 0 in A. rewrite Z.mul_0_l, Z.add_0_r in A. split; [exact A|etransitivity; [exact B|nia]].
  - split; [exact A|etransitivity; [exact B|nia]].
Qed.
End Grid.

Lemma consec_nodup dx dy dz : forall cs m, consec dx dy dz m cs -> NoDup cs /\ forall c, In c cs -> m <= fl dy dz c.
Proof.
  induction cs as [|c cs IH]; intros m; cbn [consec]; [intros _; split; [constructor|intros c []]|]. intros (A & B & C). destruct (IH _ C) as (D & E). split.
  - constructor; [|exact D]. intros H. specialize (E c H). lia.
  - intros c' [<-|H]; [lia|]. specialize (E c' H). lia.
Qed.
Lemma in_zseq n t : In t (zseq n) <-> 0 <= t < n.
Proof.
  unfold zseq. rewrite in_map_iff. split; [intros (x & <- & H); apply in_seq in H; lia|]. intros H. exists (Z.to_nat t). split; [lia|]. apply in_seq. lia.
Qed.
Lemma in_cells dx dy dz i j k : In (i, j, k) (bcc_cells (dx, dy, dz)) <-> (0 <= i < dx /\ 0 <= j < dy /\ 0 <= k < dz).
Proof.
  cbn [bcc_cells]. rewrite in_flat_map. split.
  - intros (i' & HI & H). apply in_flat_map in H. destruct H as (j' & HJ & H). apply in_map_iff in H. destruct H as (k' & E & HK). injection E as <- <- <-. rewrite in_zseq in HI, HJ, HK. tauto.
  - intros (HI & HJ & HK). exists i. rewrite in_zseq. split; [exact HI|]. apply in_flat_map. exists j. rewrite in_zseq. split; [exact HJ|]. apply in_map_iff. exists k. rewrite in_zseq. split; [reflexivity|exact HK].
Qed.
Lemma nodup_map_in {A B} (f : A -> B) l : NoDup l -> (forall x y, In x l -> In y l -> f x = f y -> x = y) -> NoDup (map f l).
Proof.
  induction 1 as [|x l N ND IH]; intros INJ; cbn [map]; [constructor|]. constructor.
  - intros H. apply in_map_iff in H. destruct H as (y & E & HY). apply N. rewrite (INJ x y); [exact HY|now left|now right|now symmetry].
  - apply IH. intros u v U V. apply INJ; now right.
Qed.
(** The cells, and the corners of cells, of a grid. *)
Definition in_grid (d : Z * Z * Z) (c : Z * Z * Z) : Prop := let '(dx, dy, dz) := d in let '(i, j, k) := c in 0 <= i < dx /\ 0 <= j < dy /\ 0 <= k < dz.
Definition corner_in (d : Z * Z * Z) (q : Z * Z * Z) : Prop := let '(dx, dy, dz) := d in let '(x, y, z) := q in 0 <= x <= dx /\ 0 <= y <= dy /\ 0 <= z <= dz.
(** Where a lattice corner is in space, and the order in which Box.Vertices lists the corners of a cell. *)
Definition corner_pos (b : v3) (r : R) (q : Z * Z * Z) : v3 :=
  let '(x, y, z) := q in V3 (IZR x * r + x3 b) (IZR y * r + y3 b) (IZR z * r + z3 b).
Definition vert_off (l : nat) : Z * Z * Z :=
  nth l [(0, 0, 0); (0, 0, 1); (0, 1, 0); (0, 1, 1); (1, 0, 0); (1, 0, 1); (1, 1, 0); (1, 1, 1)] (0, 0, 0).

(** For every grid: the mesher does not panic, numbers the lattice corners and the cell centres one to one with
    0 .. n-1 where n = dx dy dz + (dx+1)(dy+1)(dz+1), stores under each label of each cell the number of that
    corner, and emits exactly the tetrahedra of the lattice, cell by cell.  Centres are placed where they belong.
    A corner is placed at the vertex of the first cell having it that Box.Vertices lists at the position of the
    label; see C71_position_refuted. *)
Theorem C71_numbering_partial dx dy dz b r : 1 <= dx -> 1 <= dy -> 1 <= dz -> (0 < r)%R ->
  let d := (dx, dy, dz) in
  exists s corner ctr, mesh_tetra_bcc d b r = Ok s /\
  let n := Z.of_nat (length (b_nodes s)) in
  n = dx * dy * dz + (dx + 1) * (dy + 1) * (dz + 1) /\
  (forall q, corner_in d q -> 0 <= corner q < n) /\ (forall c, in_grid d c -> 0 <= ctr c < n) /\
  (forall q q', corner_in d q -> corner_in d q' -> corner q = corner q' -> q = q') /\
  (forall c c', in_grid d c -> in_grid d c' -> ctr c = ctr c' -> c = c') /\
  (forall q c, corner_in d q -> in_grid d c -> corner q <> ctr c) /\
  (forall v, 0 <= v < n -> (exists q, corner_in d q /\ corner q = v) \/ (exists c, in_grid d c /\ ctr c = v)) /\
  (forall i j k l, in_grid d (i, j, k) -> (l < 8)%nat -> b_num s (i * dy * dz + j * dz + k) l = corner (corner_of (i, j, k) l)) /\
  b_tets s = flat_map (lattice_tets corner ctr) (bcc_cells d) /\
  (forall c, in_grid d c -> nth_error (b_nodes s) (Z.to_nat (ctr c)) = Some (cell_pos b r c)) /\
  (forall q, corner_in d q -> nth_error (b_nodes s) (Z.to_nat (corner q)) = Some (corner_pos b r (addz (first_cell q) (vert_off (first_lab q))))).
Proof.
  intros X Y Z0 RP d. destruct (cells_consec dx dy dz) as (CS & CL); [lia|lia|lia|].
  destruct (cells_loop dx dy dz b r (bcc_cells d) 0 (Bst (fun _ _ => -1) 0 [] [])) as (s & F & I & _ & T).
  { exact CS. }
  { split; cbn [b_n b_num b_nodes length].
    - reflexivity.
    - intros; reflexivity.
    - intros [[i j] k] l (A & B & C) L H. unfold done in H. cbn in H. nia.
    - intros [[i j] k] l ((A & B & C) & _) H. unfold done in H. cbn in H. nia.
    - intros [[i j] k] l c' l' ((A & B & C) & _) _ H. unfold done in H. cbn in H. nia.
    - intros [[i j] k] l ((A & B & C) & _) H. unfold done in H. cbn in H. nia.
    - intros v V. lia. }
  rewrite Z.add_0_l in I. change (b_tets (Bst (fun _ _ => -1) 0 [] [])) with (@nil (Z * Z * Z * Z)) in T. cbn [app] in T.
  assert (DN : forall c l, inr dx dy dz c -> done dy dz (Z.of_nat (length (bcc_cells d))) c l).
  { intros [[i j] k] l (A & B & C). unfold done. unfold d. rewrite CL. cbn. assert (i * dy + j + 1 <= dx * dy) by nia. assert ((i * dy + j + 1) * dz <= dx * dy * dz) by (apply Z.mul_le_mono_nonneg_r; lia). nia. }
  set (corner := cornerf dy dz (b_num s)) in *. set (ctr := ctrf dy dz (b_num s)) in *.
  assert (FK : forall q, corner_in d q -> key dx dy dz (first_cell q) (first_lab q) /\ (first_lab q < 8)%nat /\ corner_of (first_cell q) (first_lab q) = q).
  { intros [[x y] z] (A & B & C). assert (CF := corner_first x y z ltac:(lia) ltac:(lia) ltac:(lia)). assert (FL : (first_lab (x, y, z) < 8)%nat) by (apply (first_lab_lt (x, y, z)); lia). split; [|split; [exact FL|exact CF]]. split; [cbn; lia|]. right. split; [exact FL|]. rewrite CF. split; reflexivity. }
  assert (CK : forall c, in_grid d c -> key dx dy dz c 8) by (intros c H; split; [exact H|now left]).
  assert (RC : forall q, corner_in d q -> 0 <= corner q < b_n s) by (intros q Q; apply (i_range _ _ _ _ _ _ _ I); [now apply FK|apply DN; now apply FK]).
  assert (RT : forall c, in_grid d c -> 0 <= ctr c < b_n s) by (intros c Q; apply (i_range _ _ _ _ _ _ _ I); [now apply CK|apply DN; now apply CK]).
  assert (IC : forall q q', corner_in d q -> corner_in d q' -> corner q = corner q' -> q = q').
  { intros q q' Q Q' E. destruct (FK q Q) as (K1 & K2 & K3), (FK q' Q') as (K1' & K2' & K3'). destruct (i_inj _ _ _ _ _ _ _ I _ _ _ _ K1 K1' (DN _ _ (proj1 K1)) (DN _ _ (proj1 K1')) E) as (E1 & E2). rewrite <- K3, <- K3', E1, E2. reflexivity. }
  assert (IT : forall c c', in_grid d c -> in_grid d c' -> ctr c = ctr c' -> c = c').
  { intros c c' Q Q' E. apply CK in Q. apply CK in Q'. destruct (i_inj _ _ _ _ _ _ _ I _ _ _ _ Q Q' (DN _ _ (proj1 Q)) (DN _ _ (proj1 Q')) E) as (E1 & _). exact E1. }
  assert (DJ : forall q c, corner_in d q -> in_grid d c -> corner q <> ctr c).
  { intros q c Q C E. destruct (FK q Q) as (K1 & K2 & _). apply CK in C. destruct (i_inj _ _ _ _ _ _ _ I _ _ _ _ K1 C (DN _ _ (proj1 K1)) (DN _ _ (proj1 C)) E) as (_ & E2). lia. }
  assert (SU : forall v, 0 <= v < b_n s -> (exists q, corner_in d q /\ corner q = v) \/ (exists c, in_grid d c /\ ctr c = v)).
  { intros v V. destruct (i_surj _ _ _ _ _ _ _ I v V) as (c & l & (K & [->|(L & E1 & E2)]) & _ & E); [right; exists c; split; [exact K|exact E]|]. left. exists (corner_of c l). split.
    - destruct c as [[i j] k]. destruct K as (A & B & C). do 8 (destruct l as [|l]; [cbn; lia|]); lia.
    - unfold corner, cornerf. now rewrite E1, E2. }
  assert (LN := i_len _ _ _ _ _ _ _ I).
  exists s, corner, ctr. split; [exact F|]. cbv zeta. rewrite <- LN.
  split.
  { set (L := map ctr (bcc_cells d) ++ map corner (bcc_cells (dx + 1, dy + 1, dz + 1))).
    destruct (cells_consec (dx + 1) (dy + 1) (dz + 1)) as (CS2 & CL2); [lia|lia|lia|].
    assert (CIN : forall q, In q (bcc_cells (dx + 1, dy + 1, dz + 1)) <-> corner_in d q) by (intros [[x y] z]; rewrite in_cells; cbn; lia).
    assert (GIN : forall c, In c (bcc_cells d) <-> in_grid d c) by (intros [[i j] k]; unfold d; rewrite in_cells; cbn; lia).
    assert (ND : NoDup L).
    { unfold L.
      assert (N1 : NoDup (map ctr (bcc_cells d))) by (apply nodup_map_in; [exact (proj1 (consec_nodup _ _ _ _ _ CS))|]; intros c c' C C'; apply IT; now apply GIN).
      assert (N2 : NoDup (map corner (bcc_cells (dx + 1, dy + 1, dz + 1)))) by (apply nodup_map_in; [exact (proj1 (consec_nodup _ _ _ _ _ CS2))|]; intros c c' C C'; apply IC; now apply CIN).
      assert (N3 : forall v, In v (map ctr (bcc_cells d)) -> ~ In v (map corner (bcc_cells (dx + 1, dy + 1, dz + 1)))).
      { intros v H1 H2. apply in_map_iff in H1. apply in_map_iff in H2. destruct H1 as (c & E1 & H1), H2 as (q & E2 & H2). apply (DJ q c); [now apply CIN|now apply GIN|congruence]. }
      revert N1 N2 N3. generalize (map ctr (bcc_cells d)) (map corner (bcc_cells (dx + 1, dy + 1, dz + 1))). clear. induction l as [|x l IH]; intros l2 N1 N2 N3; cbn [app]; [exact N2|]. inversion N1; subst. constructor.
      - intros H. apply in_app_or in H. destruct H as [H|H]; [contradiction|]. apply (N3 x); [now left|exact H].
      - apply IH; [assumption|assumption|]. intros v V. apply N3. now right. }
    assert (LE : length L = Z.to_nat (b_n s)).
    { apply Nat.le_antisymm.
      - rewrite <- (seq_length (Z.to_nat (b_n s)) 0), <- (map_length Z.of_nat (seq 0 _)). change (map Z.of_nat _) with (zseq (b_n s)). apply NoDup_incl_length; [exact ND|]. intros v V. apply in_zseq. apply in_app_or in V. destruct V as [V|V]; apply in_map_iff in V; destruct V as (c & <- & C); [apply RT; now apply GIN|apply RC; now apply CIN].
      - rewrite <- (seq_length (Z.to_nat (b_n s)) 0), <- (map_length Z.of_nat (seq 0 _)). change (map Z.of_nat _) with (zseq (b_n s)). apply NoDup_incl_length.
        + unfold zseq. apply nodup_map_in; [apply seq_NoDup|]. intros x y _ _. lia.
        + intros v V. apply in_zseq in V. unfold L. apply in_or_app. destruct (SU v V) as [(q & Q & <-)|(c & C & <-)]; [right|left]; apply in_map; [now apply CIN|now apply GIN]. }
    unfold L in LE. rewrite app_length, !map_length in LE. assert (Q : b_n s = Z.of_nat (length (bcc_cells d) + length (bcc_cells (dx + 1, dy + 1, dz + 1)))) by (transitivity (Z.of_nat (Z.to_nat (b_n s))); [lia|apply f_equal; symmetry; exact LE]). rewrite Q, Nat2Z.inj_add. exact (f_equal2 Z.add CL CL2). }
  repeat (split; [first [exact RC | exact RT | exact IC | exact IT | exact DJ | exact SU]|]).
  split.
  { intros i j k l K L. destruct (i_copy _ _ _ _ _ _ _ I (i, j, k) l K L (DN (i, j, k) l K)) as (_ & E). exact E. }
  split; [exact T|]. split.
  - intros c C. specialize (CK c C). pose proof (i_pos _ _ _ _ _ _ _ I c 8%nat CK (DN _ _ (proj1 CK))) as H. unfold ctr, ctrf. rewrite H. f_equal. destruct c as [[i j] k]. unfold posn. cbn [Nat.eqb]. unfold cell_box, cell_pos, corner_pos, centered_box3, new_box3, max_elem3, center3, size3, vertices3, vert_off, addz, add3, sub3, scale3, zero3; cbn [Nat.eqb x3 y3 z3 min3 max3 nth]. assert (RM : Rmax r 0 = r) by (apply Rmax_left; lra). rewrite ?RM. f_equal; field.
  - intros q Q. destruct (FK q Q) as (K1 & K2 & _). pose proof (i_pos _ _ _ _ _ _ _ I _ _ K1 (DN _ _ (proj1 K1))) as H. unfold corner, cornerf. rewrite H. f_equal. unfold posn. destruct (Nat.eqb_spec (first_lab q) 8); [lia|]. destruct (first_cell q) as [[i j] k]. revert K2. generalize (first_lab q). intros l L.
    assert (RM : Rmax r 0 = r) by (apply Rmax_left; lra).
    do 8 (destruct l as [|l]; [unfold cell_box, cell_pos, corner_pos, centered_box3, new_box3, max_elem3, center3, size3, vertices3, vert_off, addz, add3, sub3, scale3, zero3; cbn [Nat.eqb x3 y3 z3 min3 max3 nth]; rewrite RM; rewrite ?plus_IZR; f_equal; field|]); lia.
Qed.

(** Only the corners whose label in their first cell is 000 or x0z are placed where they belong. *)
Theorem C71_position_refuted dx dy dz b r : 1 <= dx -> 1 <= dy -> 1 <= dz -> (0 < r)%R ->
  let d := (dx, dy, dz) in
  exists s, mesh_tetra_bcc d b r = Ok s /\
  forall i j k l, in_grid d (i, j, k) -> (l < 8)%nat -> (1 <= i /\ 1 <= j /\ 1 <= k /\ l = 6%nat) \/ (i = 0 /\ j = 0 /\ k = 0 /\ l <> 0%nat /\ l <> 5%nat) ->
  exists p, nth_error (b_nodes s) (Z.to_nat (b_num s (i * dy * dz + j * dz + k) l)) = Some p /\ p <> corner_pos b r (corner_of (i, j, k) l).
Proof.
  intros X Y Z0 RP d. destruct (C71_numbering_partial dx dy dz b r X Y Z0 RP) as (s & corner & ctr & F & N & _ & _ & _ & _ & _ & _ & LB & _ & _ & PQ).
  exists s. split; [exact F|]. intros i j k l G L C. rewrite LB by assumption. assert (CI : corner_in d (corner_of (i, j, k) l)) by (destruct G as (A & B & D); do 8 (destruct l as [|l]; [cbn; lia|]); lia).
  eexists. split; [apply PQ; exact CI|]. destruct C as [(A & B & C & ->)|(-> & -> & -> & L0 & L5)].
  - unfold corner_of, off. cbn [nth addz]. unfold first_cell, first_lab. replace (Z.max 0 (i + 1 - 1)) with i by lia. replace (Z.max 0 (j + 1 - 1)) with j by lia. replace (Z.max 0 (k + 1 - 1)) with k by lia.
    replace (i + 1 - i) with 1 by lia. replace (j + 1 - j) with 1 by lia. replace (k + 1 - k) with 1 by lia. change (vert_off (lab (1, 1, 1))) with (1, 1, 0). cbn [addz corner_pos]. intros E. injection E. rewrite !plus_IZR. intros. nra.
  - do 8 (destruct l as [|l]; [try contradiction; cbn; intros E; injection E; intros; lra|]); lia.
Qed.
(** Six times the signed volume of a tetrahedron. *)
Definition vol6 (t : v3 * v3 * v3 * v3) : R := let '(p, q, u, v) := t in dot3 (sub3 q p) (cross3 (sub3 u p) (sub3 v p)).
(** As soon as there are two cells on top of each other the mesh contains a tetrahedron of volume zero. *)
Theorem C71_flat_refuted dx dy dz b r : 1 <= dx -> 1 <= dy -> 2 <= dz -> (0 < r)%R ->
  exists s t1 t2 t3 t4 p1 p2 p3 p4, mesh_tetra_bcc (dx, dy, dz) b r = Ok s /\ In (t1, t2, t3, t4) (b_tets s) /\ NoDup [t1; t2; t3; t4] /\
  map (fun t => nth_error (b_nodes s) (Z.to_nat t)) [t1; t2; t3; t4] = [Some p1; Some p2; Some p3; Some p4] /\ vol6 (p1, p2, p3, p4) = 0%R.
Proof.
  intros X Y Z0 RP. pose (d := (dx, dy, dz)). destruct (C71_numbering_partial dx dy dz b r X Y ltac:(lia) RP) as (s & corner & ctr & F & N & _ & _ & IC & IT & DJ & _ & _ & T & PC & PQ).
  assert (G1 : in_grid d (0, 0, 1)) by (cbn; lia). assert (G0 : in_grid d (0, 0, 0)) by (cbn; lia). assert (Q0 : corner_in d (0, 0, 1)) by (cbn; lia). assert (Q1 : corner_in d (1, 0, 1)) by (cbn; lia).
  exists s, (ctr (0, 0, 1)), (corner (0, 0, 1)), (corner (1, 0, 1)), (ctr (0, 0, 0)). eexists _, _, _, _. split; [exact F|]. split; [|split; [|split]].
  - rewrite T. apply in_flat_map. exists (0, 0, 1). split; [apply in_cells; lia|]. cbn [lattice_tets Z.ltb Z.compare Z.add Z.sub Z.opp Z.pos_sub]. left. reflexivity.
  - repeat constructor; cbn [In]; intros H; repeat destruct H as [H|H]; try contradiction; try (now apply DJ in H); try (symmetry in H; now apply DJ in H).
    + apply IT in H; [discriminate|assumption|assumption].
    + apply IC in H; [discriminate|assumption|assumption].
  - cbn [map]. rewrite !PC, !PQ by assumption. reflexivity.
  - change (addz (first_cell (0, 0, 1)) (vert_off (first_lab (0, 0, 1)))) with (1, 0, 0). change (addz (first_cell (1, 0, 1)) (vert_off (first_lab (1, 0, 1)))) with (1, 0, 1). unfold vol6, corner_pos, cell_pos, dot3, cross3, sub3. cbn [x3 y3 z3]. field.
Qed.
(** Were the corners placed where they belong, all tetrahedra would have the same volume, r^3/12, and the same orientation. *)
Theorem C71_shape b r c : Forall (fun t => vol6 t = (- (r * r * r / 2))%R) (lattice_tets (corner_pos b r) (cell_pos b r) c).
Proof.
  destruct c as [[i j] k]. unfold lattice_tets. destruct (0 <? k), (0 <? j), (0 <? i); repeat constructor; unfold vol6, corner_pos, cell_pos, dot3, cross3, sub3; cbn [x3 y3 z3]; rewrite ?plus_IZR, ?minus_IZR; try field.
Qed.
(** makeBCCMesh panics unless there are three cells along each axis. *)
Theorem C71_make bb r : (0 < r)%R ->
  match make_bcc bb r with
  | Ok (dx, dy, dz) => 3 <= dx /\ 3 <= dy /\ 3 <= dz /\ (x3 (max3 bb) <= IZR dx * r + x3 (min3 bb))%R /\ (y3 (max3 bb) <= IZR dy * r + y3 (min3 bb))%R /\ (z3 (max3 bb) <= IZR dz * r + z3 (min3 bb))%R
  | Err => False
  | Panicked => (x3 (size3 bb) <= 2 * r \/ y3 (size3 bb) <= 2 * r \/ z3 (size3 bb) <= 2 * r)%R
  end.
Proof.
  intros RP. unfold make_bcc. assert (CE : forall x, (IZR (ceilR (x / r)) - 1 < x / r <= IZR (ceilR (x / r)))%R).
  { intros x. unfold ceilR. rewrite opp_IZR. destruct (base_Int_part (- (x / r))). lra. }
  assert (UP : forall x, (x <= IZR (ceilR (x / r)) * r)%R).
  { intros x. destruct (CE x) as (_ & H). apply (Rmult_le_compat_r r) in H; [|lra]. unfold Rdiv in H at 1. rewrite Rmult_assoc, Rinv_l, Rmult_1_r in H by lra. exact H. }
  assert (LO : forall x, (ceilR (x / r) < 3) -> (x <= 2 * r)%R).
  { intros x H. assert (IZR (ceilR (x / r)) <= 2)%R by (apply IZR_le; lia). specialize (UP x). nra. }
  destruct (Z.ltb_spec (ceilR (x3 (size3 bb) / r)) 3) as [H|H1]; cbn [orb]; [left; now apply LO|].
  destruct (Z.ltb_spec (ceilR (y3 (size3 bb) / r)) 3) as [H|H2]; cbn [orb]; [right; left; now apply LO|].
  destruct (Z.ltb_spec (ceilR (z3 (size3 bb) / r)) 3) as [H|H3]; cbn [orb]; [right; right; now apply LO|].
  split; [exact H1|]. split; [exact H2|]. split; [exact H3|]. pose proof (UP (x3 (size3 bb))). pose proof (UP (y3 (size3 bb))). pose proof (UP (z3 (size3 bb))). unfold size3, sub3 in *. cbn [x3 y3 z3] in *. lra.
Qed.
(** Two cells: 2 + 3*2*2 = 14 nodes, four tetrahedra. *)
Example C71_example : exists s, mesh_tetra_bcc (1, 1, 2) zero3 1 = Ok s /\ length (b_nodes s) = 14%nat /\ b_tets s = [(9, 5, 6, 0); (9, 6, 7, 0); (9, 7, 8, 0); (9, 8, 5, 0)].
Proof. eexists. split; [vm_compute; reflexivity|]. split; reflexivity. Qed.
Example C71_make_example : make_bcc (Box3 zero3 (V3 3 4 5)) 1 = Ok (3, 4, 5).
Proof.
  assert (CE : forall n, ceilR (IZR n / 1) = n).
  { intros n. unfold ceilR. replace (- (IZR n / 1))%R with (IZR (- n)) by (rewrite opp_IZR; field). assert (Int_part (IZR (- n)) = - n) by (symmetry; apply PropsBih.Int_part_spec; lra). lia. }
  unfold make_bcc. cbn -[ceilR Z.ltb]. replace ((3 - 0) / 1)%R with (IZR 3 / 1)%R by field. replace ((4 - 0) / 1)%R with (IZR 4 / 1)%R by field. replace ((5 - 0) / 1)%R with (IZR 5 / 1)%R by field. rewrite !CE. reflexivity.
Qed.
