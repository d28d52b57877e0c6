(** C80: UniformTetrahedronMesh keeps exactly the lattice tetrahedra with a node inside; what happens to unused nodes. *)
From Coq Require Import Reals List Bool Arith ZArith Lia Lra Psatz.
From Verif Require Import Prelude Vec SdfModel BoxModel OctreeR PropsUtil PropsForm OmeshModel PropsOmesh BccModel PropsBcc TetMeshModel PropsBih BihModel.
Import ListNotations.
Local Open Scope R_scope.

(** A tetrahedron of the lattice has a node strictly inside the surface. *)
Definition has_inside (ev : v3 -> R) (nodes : list v3) (t : tetra) : Prop := exists n p, In n (corners4 t) /\ nth_error nodes n = Some p /\ ev p < 0.
(** [sub] is what remains of [l] when the elements satisfying [P] are kept, in order. *)
Inductive kept {A} (P : A -> Prop) : list A -> list A -> Prop :=
| kept_nil : kept P [] []
| kept_yes x l sub : P x -> kept P l sub -> kept P (x :: l) (x :: sub)
| kept_no x l sub : ~ P x -> kept P l sub -> kept P (x :: l) sub.

Lemma keep_tets_spec ev nodes : forall ts acc, (forall t n, In t ts -> In n (corners4 t) -> (n < length nodes)%nat) ->
  exists sub, foldM (fun acc t => do k <- keep_tet ev nodes t; Ok (if k then acc ++ [t] else acc)) acc ts = Ok (acc ++ sub) /\ kept (has_inside ev nodes) ts sub.
Proof.
  induction ts as [|t ts IH]; intros acc V; cbn [foldM]; [exists []; rewrite app_nil_r; split; [reflexivity|constructor]|].
  assert (VT : forall n, In n (corners4 t) -> exists p, nth_error nodes n = Some p).
  { intros n N. specialize (V t n (or_introl eq_refl) N). destruct (nth_error nodes n) eqn:E; [eauto|]. apply nth_error_None in E. lia. }
  destruct t as [[[a b] c] d]. destruct (VT a) as (pa & A); [cbn; tauto|]. destruct (VT b) as (pb & B); [cbn; tauto|]. destruct (VT c) as (pc & C); [cbn; tauto|]. destruct (VT d) as (pd & D); [cbn; tauto|].
  assert (KT : keep_tet ev nodes (a, b, c, d) = Ok (Rltb (ev pa) 0 || Rltb (ev pb) 0 || Rltb (ev pc) 0 || Rltb (ev pd) 0)) by (cbn [keep_tet]; rewrite A, B, C, D; reflexivity).
  rewrite KT. cbn [bind].
  assert (HI : has_inside ev nodes (a, b, c, d) <-> Rltb (ev pa) 0 || Rltb (ev pb) 0 || Rltb (ev pc) 0 || Rltb (ev pd) 0 = true).
  { rewrite !orb_true_iff, !Rltb_true. split.
    - intros (n & p & N & P & E). cbn in N. destruct N as [<-|[<-|[<-|[<-|[]]]]]; [rewrite A in P|rewrite B in P|rewrite C in P|rewrite D in P]; injection P as <-; tauto.
    - intros [[[E|E]|E]|E]; [exists a, pa|exists b, pb|exists c, pc|exists d, pd]; cbn; tauto. }
  destruct (_ || _) eqn:K.
  - destruct (IH (acc ++ [(a, b, c, d)])) as (sub & F & S1); [intros t n T; apply V; now right|]. exists ((a, b, c, d) :: sub). split; [etransitivity; [exact F|]; rewrite <- app_assoc; reflexivity|]. constructor; [now apply HI|exact S1].
  - destruct (IH acc) as (sub & F & S1); [intros t n T; apply V; now right|]. exists sub. split; [exact F|]. apply kept_no; [|exact S1]. intros H. apply HI in H. discriminate.
Qed.
Lemma kept_in {A} (P : A -> Prop) l sub : kept P l sub -> forall x, In x sub <-> In x l /\ P x.
Proof.
  induction 1 as [|x l sub PX K IH|x l sub PX K IH]; intros y; cbn [In].
  - tauto.
  - rewrite IH. intuition congruence.
  - rewrite IH. intuition congruence.
Qed.
Lemma smooth_len conns boundary : forall i ps, length (smooth conns boundary i ps) = length ps.
Proof. induction conns as [|c conns IH]; intros i ps; cbn [smooth]; [reflexivity|]. destruct (boundary i); [reflexivity|]. rewrite IH. apply set_nth_length. Qed.
Lemma passes_spec conns ev nan_out : forall l ps, Forall (fun i => (i <= 6)%nat) l ->
  exists ps', foldM (fun ps iter => compress_and_smooth conns (INR iter / 6) ev nan_out ps) ps l = Ok ps' /\ length ps' = length ps.
Proof.
  induction l as [|i l IH]; intros ps F; cbn [foldM]; [eauto|]. inversion F as [|? ? I F']; subst. unfold compress_and_smooth at 1.
  assert (0 <= INR i / 6 <= 1). { pose proof (pos_INR i). assert (INR i <= INR 6) by now apply le_INR. assert (INR 6 = 6) by (cbn; lra). split; [apply Rmult_le_pos; lra|]. apply (Rmult_le_reg_r 6); [lra|]. unfold Rdiv. rewrite Rmult_assoc, Rinv_l; lra. }
  rewrite (proj2 (Rltb_false 1 _)), (proj2 (Rltb_false _ 0)) by lra. cbn [orb bind]. destruct (IH (smooth conns (fun i0 => nth i0 (map snd (map (compress_node (INR i / 6) ev nan_out) ps)) false) 0 (map fst (map (compress_node (INR i / 6) ev nan_out) ps))) F') as (ps' & E & L). exists ps'. split; [exact E|]. rewrite L, smooth_len, !map_length. reflexivity.
Qed.

Local Open Scope Z_scope.
Lemma lattice_tets_in {A} (P : A -> Prop) (corner ctr : Z * Z * Z -> A) dx dy dz c : 1 <= dx -> 1 <= dy -> 1 <= dz -> in_grid (dx, dy, dz) c ->
  (forall q, corner_in (dx, dy, dz) q -> P (corner q)) -> (forall c, in_grid (dx, dy, dz) c -> P (ctr c)) ->
  forall t1 t2 t3 t4, In (t1, t2, t3, t4) (lattice_tets corner ctr c) -> P t1 /\ P t2 /\ P t3 /\ P t4.
Proof.
  intros X Y W G PQ PC t1 t2 t3 t4 T. destruct c as [[i j] k]. cbn in G. unfold lattice_tets in T. cbv zeta in T.
  apply in_app_or in T. destruct T as [T|T]; [|apply in_app_or in T; destruct T as [T|T]].
  - destruct (Z.ltb_spec 0 k) as [K|K]; [|contradiction]. cbn [In] in T. repeat destruct T as [T|T]; try contradiction; injection T as <- <- <- <-; repeat split; first [apply PQ; cbn; lia|apply PC; cbn; lia].
  - destruct (Z.ltb_spec 0 j) as [K|K]; [|contradiction]. cbn [In] in T. repeat destruct T as [T|T]; try contradiction; injection T as <- <- <- <-; repeat split; first [apply PQ; cbn; lia|apply PC; cbn; lia].
  - destruct (Z.ltb_spec 0 i) as [K|K]; [|contradiction]. cbn [In] in T. repeat destruct T as [T|T]; try contradiction; injection T as <- <- <- <-; repeat split; first [apply PQ; cbn; lia|apply PC; cbn; lia].
Qed.

(** For every SDF, box and positive resolution: a panic means fewer than three cells along some axis.  Otherwise the
    returned tetrahedra are the lattice tetrahedra with a node strictly inside, in lattice order, with node numbers
    referring to the returned nodes, of which there are as many as lattice points. *)
Theorem C80_tetras_partial ev bb nan_out r : (0 < r)%R ->
  match uniform_tet_mesh ev bb nan_out r with
  | Err => False
  | Panicked => (x3 (size3 bb) <= 2 * r \/ y3 (size3 bb) <= 2 * r \/ z3 (size3 bb) <= 2 * r)%R
  | Ok (ps, ts) => exists dx dy dz s, make_bcc bb r = Ok (dx, dy, dz) /\ mesh_tetra_bcc (dx, dy, dz) (min3 bb) r = Ok s /\
      kept (has_inside ev (b_nodes s)) (map (fun t => let '(n1, n2, n3, n4) := t in (Z.to_nat n1, Z.to_nat n2, Z.to_nat n3, Z.to_nat n4)) (b_tets s)) ts /\
      Z.of_nat (length ps) = dx * dy * dz + (dx + 1) * (dy + 1) * (dz + 1) /\ length (b_nodes s) = length ps /\
      (forall t n, In t ts -> In n (corners4 t) -> (n < length ps)%nat)
  end.
Proof.
  intros RP. unfold uniform_tet_mesh. pose proof (C71_make bb r RP) as M. destruct (make_bcc bb r) as [[[dx dy] dz]| |]; cbn [bind]; [|exact M|exact M].
  destruct M as (DX & DY & DZ & _). destruct (C71_numbering_partial dx dy dz (min3 bb) r ltac:(lia) ltac:(lia) ltac:(lia) RP) as (s & corner & ctr & F & N & RQ & RC & _ & _ & _ & _ & _ & T & _ & _).
  rewrite F. cbn [bind]. cbv zeta in *.
  assert (V : forall t n, In t (map tet_nat (b_tets s)) -> In n (corners4 t) -> (n < length (b_nodes s))%nat).
  { intros t n I NI. apply in_map_iff in I. destruct I as ([[[t1 t2] t3] t4] & <- & I). rewrite T in I. apply in_flat_map in I. destruct I as ([[i j] k] & C & I). apply in_cells in C; try lia.
    destruct (lattice_tets_in (fun v => 0 <= v < Z.of_nat (length (b_nodes s))) corner ctr dx dy dz (i, j, k) ltac:(lia) ltac:(lia) ltac:(lia) ltac:(cbn; lia) RQ RC t1 t2 t3 t4 I) as (H1 & H2 & H3 & H4).
    cbn in NI. destruct NI as [<-|[<-|[<-|[<-|[]]]]]; lia. }
  destruct (keep_tets_spec ev (b_nodes s) (map tet_nat (b_tets s)) [] V) as (ts & KE & K). unfold keep_tets. rewrite KE. cbn [bind app].
  assert (V2 : forall t n, In t ts -> In n (corners4 t) -> (n < length (b_nodes s))%nat) by (intros t n I; apply (kept_in _ _ _ K) in I; apply V; tauto).
  destruct (proj1 (C72_defined (b_nodes s) ts) V2) as (ons & OE). rewrite OE. cbn [bind].
  assert (LO : length ons = length (b_nodes s)) by apply (new_omesh_good _ _ _ OE).
  destruct (passes_spec (map on_conn ons) ev nan_out [1; 2; 3; 4; 5; 6]%nat (map (fun on => Some (on_pos on)) ons)) as (ps & PE & PL); [repeat constructor|].
  rewrite PE. cbn [bind]. rewrite map_length in PL. exists dx, dy, dz, s. split; [reflexivity|]. split; [exact F|]. split; [exact K|]. split; [rewrite PL, LO; exact N|]. split; [lia|]. intros t n I NI. rewrite PL, LO. exact (V2 t n I NI).
Qed.

(** ** Where the nodes end up: a half space *)
Local Open Scope R_scope.
Definition below (n : v3) (h : R) (p : option v3) : Prop := match p with Some p => dot3 n p <= h | None => True end.
Lemma sum_below n h ps : forall conn a, Forall (below n h) ps -> match fold_left (fun s c => add_opt s (nth c ps None)) conn a, a with Some s, Some a => dot3 n s <= dot3 n a + INR (length conn) * h | None, _ => True | Some _, None => False end.
Proof.
  induction conn as [|c conn IH]; intros a F; cbn [fold_left length].
  - destruct a; cbn; [lra|exact I].
  - specialize (IH (add_opt a (nth c ps None)) F). destruct (fold_left _ _ _) as [s|]; [|exact I].
    assert (B : below n h (nth c ps None)). { destruct (nth_in_or_default c ps None) as [H| -> ]; [|exact I]. rewrite Forall_forall in F. now apply F. }
    destruct a as [a|], (nth c ps None) as [q|]; cbn [add_opt below] in *; try contradiction. rewrite S_INR. unfold dot3, add3 in *. cbn in *. lra.
Qed.
Lemma mean_below n h ps conn : Forall (below n h) ps -> below n h (mean ps conn).
Proof.
  intros F. unfold mean. destruct conn as [|c conn]; [exact I|]. pose proof (sum_below n h ps (c :: conn) (Some zero3) F) as S1. set (cn := c :: conn) in *. assert (LP : 0 < INR (length cn)) by (apply lt_0_INR; cbn; lia). clearbody cn. destruct (fold_left _ _ _) as [s|]; [|exact I]. cbn [below].
  replace (dot3 n (scale3 (1 / INR (length cn)) s)) with (dot3 n s / INR (length cn)) by (unfold dot3, scale3; cbn; field; lra). replace (dot3 n zero3) with 0 in S1 by (unfold dot3, zero3; cbn; ring).
  apply (Rmult_le_reg_r (INR (length cn))); [exact LP|]. unfold Rdiv. rewrite Rmult_assoc, Rinv_l; lra.
Qed.
Lemma set_nth_Forall {A} (P : A -> Prop) l i x : Forall P l -> P x -> Forall P (set_nth l i x).
Proof. intros F X. revert i. induction F as [|y l Y F IH]; intros [|i]; cbn; constructor; auto. Qed.
Lemma smooth_below n h conns boundary : forall i ps, Forall (below n h) ps -> Forall (below n h) (smooth conns boundary i ps).
Proof. induction conns as [|c conns IH]; intros i ps F; cbn [smooth]; [exact F|]. destruct (boundary i); [exact F|]. apply IH. apply set_nth_Forall; [exact F|]. now apply mean_below. Qed.
(** For a flat surface no returned node is outside: the last pass compresses fully, and the mean of points of a half space is in it. *)
Theorem C80_flat_inside n h bb nan_out r ps ts : (0 < r)%R -> norm3 n = 1 ->
  uniform_tet_mesh (fun v => dot3 n v - h) bb nan_out r = Ok (ps, ts) -> forall i p, nth_error ps i = Some (Some p) -> dot3 n p - h <= 0.
Proof.
  intros RP N U. assert (F : Forall (below n h) ps).
  { unfold uniform_tet_mesh in U. apply bind_ok in U. destruct U as (d & _ & U). apply bind_ok in U. destruct U as (s & _ & U). apply bind_ok in U. destruct U as (ts' & _ & U). apply bind_ok in U. destruct U as (ons & _ & U). apply bind_ok in U. destruct U as (ps' & E & U). injection U as -> ->.
    change [1; 2; 3; 4; 5; 6]%nat with ([1; 2; 3; 4; 5] ++ [6])%nat in E. rewrite PropsOmesh.foldM_app in E. apply bind_ok in E. destruct E as (qs & _ & E). cbn [foldM] in E. apply bind_ok in E. destruct E as (qs' & E & E'). injection E' as ->.
    unfold compress_and_smooth in E. destruct (_ || _); [discriminate|]. injection E as <-. apply smooth_below. rewrite Forall_forall. intros x X. rewrite map_map in X. apply in_map_iff in X. destruct X as (q & <- & _).
    destruct q as [q|]; [|exact I]. match goal with |- context [compress_node ?c] => replace c with 1 by (cbn; field) end. destruct (Rle_or_lt (dot3 n q - h) 0) as [H|H].
    - destruct (C79_compress 1 (fun v => dot3 n v - h) nan_out q ltac:(lra)) as (C & _). rewrite (C H). cbn. lra.
    - destruct (C79_plane n h nan_out q N ltac:(lra)) as (q' & -> & Z0). cbn. lra. }
  intros i p H. apply nth_error_In in H. rewrite Forall_forall in F. specialize (F _ H). cbn in F. lra.
Qed.

(** ** Unused nodes *)
Definition prefix {A} (l m : list A) : Prop := exists r, m = l ++ r.
Lemma prefix_trans {A} (a b c : list A) : prefix a b -> prefix b c -> prefix a c.
Proof. intros (x & ->) (y & ->). exists (x ++ y). now rewrite app_assoc. Qed.
Lemma label_prefix d vert c f : forall ls s s', foldM (label_step d vert c f) s ls = Ok s' -> prefix (b_nodes s) (b_nodes s').
Proof.
  induction ls as [|l ls IH]; intros s s' E; cbn [foldM] in E; [injection E as <-; exists []; now rewrite app_nil_r|]. apply bind_ok in E. destruct E as (s1 & E1 & E). apply IH in E. eapply prefix_trans; [|exact E].
  unfold label_step in E1. apply bind_ok in E1. destruct E1 as (v & _ & E1). destruct (v =? -1)%Z; injection E1 as <-; cbn; [eexists; reflexivity|exists []; now rewrite app_nil_r].
Qed.
Lemma cell_prefix d b r s c s' : mesh_cell d b r s c = Ok s' -> prefix (b_nodes s ++ [center3 (cell_box b r c)]) (b_nodes s').
Proof. intros E. destruct c as [[i j] k], d as [[dx dy] dz]. unfold mesh_cell in E. cbv zeta in E. apply bind_ok in E. destruct E as (s1 & E1 & E). injection E as <-. apply label_prefix in E1. exact E1. Qed.
Lemma cells_prefix d b r : forall cs s s', foldM (mesh_cell d b r) s cs = Ok s' -> prefix (b_nodes s) (b_nodes s').
Proof.
  induction cs as [|c cs IH]; intros s s' E; cbn [foldM] in E; [injection E as <-; exists []; now rewrite app_nil_r|]. apply bind_ok in E. destruct E as (s1 & E1 & E). apply IH in E. apply cell_prefix in E1. eapply prefix_trans; [|exact E]. eapply prefix_trans; [|exact E1]. eexists; reflexivity.
Qed.
Lemma first_node dx dy dz b r s : (1 <= dx)%Z -> (1 <= dy)%Z -> (1 <= dz)%Z -> mesh_tetra_bcc (dx, dy, dz) b r = Ok s -> nth_error (b_nodes s) 0 = Some (center3 (cell_box b r (0, 0, 0)%Z)).
Proof.
  intros X Y W E. unfold mesh_tetra_bcc in E. assert (H : exists cs, bcc_cells (dx, dy, dz) = (0, 0, 0)%Z :: cs).
  { assert (ZS : forall n, (1 <= n)%Z -> exists l, zseq n = 0%Z :: l) by (intros n H; unfold zseq; destruct (Z.to_nat n) eqn:Q; [lia|]; cbn; eauto). cbn [bcc_cells]. destruct (ZS dx X) as (lx & ->), (ZS dy Y) as (ly & ->), (ZS dz W) as (lz & ->). cbn. eauto. }
  destruct H as (cs & H). rewrite H in E. cbn [foldM] in E. apply bind_ok in E. destruct E as (s1 & E1 & E). apply cell_prefix in E1. apply cells_prefix in E. destruct (prefix_trans _ _ _ E1 E) as (l & ->). reflexivity.
Qed.

(** A SDF with the origin on or inside its surface, and not negative in the first two layers of cells at the
    lower corner of its bounds: the first returned node is NaN, and belongs to no returned tetrahedron. *)
Theorem C80_nan_refuted ev bb nan_out r : (0 < r)%R -> ev zero3 <= 0 ->
  (forall x y z, 0 <= x <= 2 * r -> 0 <= y <= 2 * r -> 0 <= z <= 2 * r -> 0 <= ev (add3 (min3 bb) (V3 x y z))) ->
  2 * r < x3 (size3 bb) -> 2 * r < y3 (size3 bb) -> 2 * r < z3 (size3 bb) ->
  exists ps ts, uniform_tet_mesh ev bb nan_out r = Ok (None :: ps, ts) /\ forall t, In t ts -> ~ In 0%nat (corners4 t).
Proof.
  intros RP O B SX SY SZ. pose proof (C80_tetras_partial ev bb nan_out r RP) as M. destruct (uniform_tet_mesh ev bb nan_out r) as [[ps ts]| |] eqn:U; [|contradiction|lra].
  destruct M as (dx & dy & dz & s & MK & F & K & LN & _). pose proof (C71_make bb r RP) as MM. rewrite MK in MM. destruct MM as (DX & DY & DZ & _).
  destruct (C71_numbering_partial dx dy dz (min3 bb) r ltac:(lia) ltac:(lia) ltac:(lia) RP) as (s' & corner & ctr & F' & N & RQ & RC & IC & IT & DJ & SU & _ & T & PC & PQ). rewrite F in F'. injection F' as <-. cbv zeta in *.
  assert (G0 : in_grid (dx, dy, dz) (0, 0, 0)%Z) by (cbn; lia).
  pose proof (first_node dx dy dz (min3 bb) r s ltac:(lia) ltac:(lia) ltac:(lia) F) as N0.
  assert (C0 : center3 (cell_box (min3 bb) r (0, 0, 0)%Z) = cell_pos (min3 bb) r (0, 0, 0)%Z) by (unfold cell_box, cell_pos, centered_box3, new_box3, max_elem3, center3, size3, add3, sub3, scale3, zero3; cbn [x3 y3 z3 min3 max3]; rewrite (Rmax_left r 0) by lra; f_equal; field). rewrite C0 in N0.
  assert (PX : forall (x y : Z) c, IZR x * r + c = IZR y * r + c -> x = y) by (intros x y c H; apply eq_IZR; nra).
  assert (CT : ctr (0, 0, 0)%Z = 0%Z).
  { destruct (SU 0%Z ltac:(nia)) as [(q & Q & E)|(c & C & E)].
    - exfalso. specialize (PQ q Q). rewrite E in PQ. change (Z.to_nat 0) with 0%nat in PQ. rewrite N0 in PQ. destruct (addz _ _) as [[u v] w]. cbn [cell_pos corner_pos] in PQ. injection PQ. intros _ _ H. assert (H2 : IZR 1 = IZR (2 * u)) by (rewrite mult_IZR; nra). apply eq_IZR in H2. lia.
    - assert (c = (0, 0, 0)%Z); [|subst c; exact E]. specialize (PC c C). rewrite E in PC. change (Z.to_nat 0) with 0%nat in PC. rewrite N0 in PC. destruct c as [[i j] k]. cbn [cell_pos] in PC. injection PC. intros H1 H2 H3. assert (Q : forall x b, (0 + 1 / 2) * r + b = (IZR x + 1 / 2) * r + b -> x = 0%Z) by (intros x b H; apply eq_IZR; nra). rewrite (Q _ _ H1), (Q _ _ H2), (Q _ _ H3). reflexivity. }
  assert (UN : forall t, In t ts -> ~ In 0%nat (corners4 t)).
  { intros t TI Z0. apply (kept_in _ _ _ K) in TI. destruct TI as (TI & n & p & NI & NP & EP). apply in_map_iff in TI. destruct TI as ([[[t1 t2] t3] t4] & <- & TI). rewrite T in TI. apply in_flat_map in TI. destruct TI as ([[i j] k] & CI & TI). apply in_cells in CI.
    (* every node of the tetrahedron is in the cube of side 2r *)
    assert (IN2 : forall q, (let '(x, y, z) := q in 0 <= x <= 2 /\ 0 <= y <= 2 /\ 0 <= z <= 2)%Z -> corner_in (dx, dy, dz) q -> forall p, nth_error (b_nodes s) (Z.to_nat (corner q)) = Some p -> 0 <= ev p).
    { intros [[x y] z] Q CIN p0 H. rewrite (PQ _ CIN) in H. injection H as <-.
      assert (V : forall l, let '(u, v, w) := vert_off l in (0 <= u <= 1 /\ 0 <= v <= 1 /\ 0 <= w <= 1)%Z) by (intros l; do 8 (destruct l as [|l]; [cbn; lia|]); unfold vert_off; rewrite nth_overflow by (cbn; lia); lia).
      specialize (V (first_lab (x, y, z))). destruct (vert_off _) as [[u v] w]. cbn [first_cell addz corner_pos].
      assert (D : forall a b, (0 <= a <= 2 -> 0 <= b <= 1 -> 0 <= Z.max 0 (a - 1) + b <= 2)%Z) by (intros; lia).
      assert (D2 : forall a, (0 <= a <= 2)%Z -> 0 <= IZR a * r <= 2 * r) by (intros a (A1 & A2); apply IZR_le in A1; apply IZR_le in A2; nra).
      specialize (B (IZR (Z.max 0 (x - 1) + u) * r) (IZR (Z.max 0 (y - 1) + v) * r) (IZR (Z.max 0 (z - 1) + w) * r)). unfold add3 in B. cbn [x3 y3 z3] in B. rewrite (Rplus_comm (x3 (min3 bb))), (Rplus_comm (y3 (min3 bb))), (Rplus_comm (z3 (min3 bb))) in B. apply B; apply D2; apply D; lia. }
    assert (IC2 : forall c, (let '(x, y, z) := c in 0 <= x <= 1 /\ 0 <= y <= 1 /\ 0 <= z <= 1)%Z -> in_grid (dx, dy, dz) c -> forall p, nth_error (b_nodes s) (Z.to_nat (ctr c)) = Some p -> 0 <= ev p).
    { intros [[x y] z] Q CIN p0 H. rewrite (PC _ CIN) in H. injection H as <-. cbn [cell_pos].
      assert (D2 : forall a, (0 <= a <= 1)%Z -> 0 <= (IZR a + 1 / 2) * r <= 2 * r) by (intros a (A1 & A2); apply IZR_le in A1; apply IZR_le in A2; nra).
      specialize (B ((IZR x + 1 / 2) * r) ((IZR y + 1 / 2) * r) ((IZR z + 1 / 2) * r)). unfold add3 in B. cbn [x3 y3 z3] in B. rewrite (Rplus_comm (x3 (min3 bb))), (Rplus_comm (y3 (min3 bb))), (Rplus_comm (z3 (min3 bb))) in B. apply B; apply D2; lia. }
    assert (NR : forall q, corner_in (dx, dy, dz) q -> Z.to_nat (corner q) <> 0%nat) by (intros q Q H; apply (DJ q (0, 0, 0)%Z Q G0); specialize (RQ q Q); lia).
    assert (CR : forall c, in_grid (dx, dy, dz) c -> Z.to_nat (ctr c) = 0%nat -> c = (0, 0, 0)%Z) by (intros c C H; apply IT; [exact C|exact G0|]; specialize (RC c C); lia).
    unfold lattice_tets in TI. cbv zeta in TI.
    assert (FIN : forall a b c d (D : (a, b, c, d) = (t1, t2, t3, t4)), (Z.to_nat a = 0%nat \/ Z.to_nat b = 0%nat \/ Z.to_nat c = 0%nat \/ Z.to_nat d = 0%nat) /\ (n = Z.to_nat a \/ n = Z.to_nat b \/ n = Z.to_nat c \/ n = Z.to_nat d)).
    { intros a b c e D. injection D as -> -> -> ->. cbn in Z0, NI. split; [tauto|]. destruct NI as [H|[H|[H|[H|[]]]]]; auto. }
    apply in_app_or in TI. destruct TI as [TI|TI]; [|apply in_app_or in TI; destruct TI as [TI|TI]].
    - destruct (Z.ltb_spec 0 k) as [K0|K0]; [|contradiction]. cbn [In] in TI.
      assert (HC : In 0%nat [Z.to_nat (ctr (i, j, k)); Z.to_nat (ctr (i, j, k - 1)%Z)] -> i = 0%Z /\ j = 0%Z /\ k = 1%Z).
      { intros [H|[H|[]]]; apply CR in H; try (cbn; lia); [injection H as -> -> ->; lia|]. injection H as -> -> H. lia. }
      repeat destruct TI as [TI|TI]; try contradiction; destruct (FIN _ _ _ _ TI) as (Z1 & N1); (destruct HC as (-> & -> & ->); [destruct Z1 as [H|[H|[H|H]]]; [left; exact H|exfalso; revert H; apply NR; cbn; lia|exfalso; revert H; apply NR; cbn; lia|right; left; exact H]|]);
      (destruct N1 as [->|[->|[->| ->]]]; [apply IC2 in NP|apply IN2 in NP|apply IN2 in NP|apply IC2 in NP]; first [lra|cbn; lia]).
    - destruct (Z.ltb_spec 0 j) as [K0|K0]; [|contradiction]. cbn [In] in TI.
      assert (HC : In 0%nat [Z.to_nat (ctr (i, j, k)); Z.to_nat (ctr (i, j - 1, k)%Z)] -> i = 0%Z /\ j = 1%Z /\ k = 0%Z).
      { intros [H|[H|[]]]; apply CR in H; try (cbn; lia); [injection H as -> -> ->; lia|]. injection H as -> H ->. lia. }
      repeat destruct TI as [TI|TI]; try contradiction; destruct (FIN _ _ _ _ TI) as (Z1 & N1); (destruct HC as (-> & -> & ->); [destruct Z1 as [H|[H|[H|H]]]; [left; exact H|exfalso; revert H; apply NR; cbn; lia|exfalso; revert H; apply NR; cbn; lia|right; left; exact H]|]);
      (destruct N1 as [->|[->|[->| ->]]]; [apply IC2 in NP|apply IN2 in NP|apply IN2 in NP|apply IC2 in NP]; first [lra|cbn; lia]).
    - destruct (Z.ltb_spec 0 i) as [K0|K0]; [|contradiction]. cbn [In] in TI.
      assert (HC : In 0%nat [Z.to_nat (ctr (i, j, k)); Z.to_nat (ctr (i - 1, j, k)%Z)] -> i = 1%Z /\ j = 0%Z /\ k = 0%Z).
      { intros [H|[H|[]]]; apply CR in H; try (cbn; lia); [injection H as -> -> ->; lia|]. injection H as H -> ->. lia. }
      repeat destruct TI as [TI|TI]; try contradiction; destruct (FIN _ _ _ _ TI) as (Z1 & N1); (destruct HC as (-> & -> & ->); [destruct Z1 as [H|[H|[H|H]]]; [left; exact H|exfalso; revert H; apply NR; cbn; lia|exfalso; revert H; apply NR; cbn; lia|right; left; exact H]|]);
      (destruct N1 as [->|[->|[->| ->]]]; [apply IC2 in NP|apply IN2 in NP|apply IN2 in NP|apply IC2 in NP]; first [lra|cbn; lia]). }
  exists (tl ps), ts. split; [|exact UN]. f_equal. f_equal.
  unfold uniform_tet_mesh in U. rewrite MK in U. cbn [bind] in U. rewrite F in U. cbn [bind] in U. apply bind_ok in U. destruct U as (ts' & KE & U). apply bind_ok in U. destruct U as (ons & OE & U). apply bind_ok in U. destruct U as (ps' & E & U). injection U as -> ->.
  assert (ON : exists ons', ons = ONode zero3 [] [] :: ons').
  { destruct (new_omesh_good _ _ _ OE) as (LO & _). destruct ons as [|on ons]; [cbn in LO; destruct (b_nodes s); [discriminate N0|discriminate LO]|]. exists ons. f_equal. destruct (C72_connectivity_partial _ _ _ 0%nat on OE eq_refl) as (_ & _ & _ & _ & _ & _ & H). now apply H. }
  destruct ON as (ons' & ->). cbn [map on_conn on_pos] in E.
  assert (STEP : forall c p l, 0 <= c <= 1 -> (p = None \/ p = Some zero3) -> length (map on_conn ons') = length l -> exists l', compress_and_smooth ([] :: map on_conn ons') c ev nan_out (p :: l) = Ok (None :: l') /\ length l' = length l).
  { intros c p l HC HP HL. unfold compress_and_smooth. rewrite (proj2 (Rltb_false 1 c)), (proj2 (Rltb_false c 0)) by lra. cbn [orb map smooth nth]. assert (NS : forall q, length (smooth (map on_conn ons') q 1 (None :: map fst (map (compress_node c ev nan_out) l))) = S (length l)) by (intros q; rewrite smooth_len; cbn; now rewrite !map_length).
    assert (KEEP : forall cs q i x l0, (1 <= i)%nat -> exists l1, smooth cs q i (x :: l0) = x :: l1).
    { induction cs as [|c0 cs IH]; intros q i x l0 I1; cbn [smooth]; [eauto|]. destruct (q i); [eauto|]. destruct i as [|i]; [lia|]. cbn [set_nth]. apply IH. lia. }
    assert (H : snd (compress_node c ev nan_out p) = false \/ fst (compress_node c ev nan_out p) = None /\ snd (compress_node c ev nan_out p) = true).
    { destruct HP as [-> | ->]; [cbn; destruct nan_out; auto|]. left. unfold compress_node. rewrite (proj2 (Rltb_false 0 (ev zero3))) by lra. reflexivity. }
    destruct H as [H|(H1 & H2)].
    - rewrite H. cbn [set_nth mean]. match goal with |- context [smooth (map on_conn ons') ?q 1 _] => destruct (KEEP (map on_conn ons') q 1%nat None (map fst (map (compress_node c ev nan_out) l)) (le_n _)) as (l1 & E1); pose proof (NS q) as NS1 end.
      rewrite E1 in NS1. cbn in NS1. injection NS1 as NS1. exists l1. split; [|exact NS1]. f_equal. exact E1.
    - rewrite H2, H1. exists (map fst (map (compress_node c ev nan_out) l)). split; [reflexivity|]. now rewrite !map_length. }
  assert (PASS : forall l p qs ps', (exists i, In i l) -> Forall (fun i => (i <= 6)%nat) l -> (p = None \/ p = Some zero3) -> length (map on_conn ons') = length qs -> foldM (fun ps iter => compress_and_smooth ([] :: map on_conn ons') (INR iter / 6) ev nan_out ps) (p :: qs) l = Ok ps' -> ps' = None :: tl ps').
  { assert (C6 : forall i, (i <= 6)%nat -> 0 <= INR i / 6 <= 1). { intros i I0. pose proof (pos_INR i). assert (INR i <= INR 6) by now apply le_INR. assert (INR 6 = 6) by (cbn; lra). split; [apply Rmult_le_pos; lra|]. apply (Rmult_le_reg_r 6); [lra|]. unfold Rdiv. rewrite Rmult_assoc, Rinv_l; lra. }
    assert (P1 : forall l qs ps', Forall (fun i => (i <= 6)%nat) l -> length (map on_conn ons') = length qs -> foldM (fun ps iter => compress_and_smooth ([] :: map on_conn ons') (INR iter / 6) ev nan_out ps) (None :: qs) l = Ok ps' -> ps' = None :: tl ps').
    { induction l as [|i l IH]; intros qs ps1 FA HL E1; cbn [foldM] in E1; [injection E1 as <-; reflexivity|]. inversion FA; subst. destruct (STEP (INR i / 6) None qs) as (l' & E2 & L2); [now apply C6|now left|exact HL|]. rewrite E2 in E1. cbn [bind] in E1. apply (IH l'); [assumption|congruence|exact E1]. }
    intros [|i l] p qs ps1 (i0 & I0) FA HP HL E1; [destruct I0|]. cbn [foldM] in E1. inversion FA; subst. destruct (STEP (INR i / 6) p qs) as (l' & E2 & L2); [now apply C6|exact HP|exact HL|]. rewrite E2 in E1. cbn [bind] in E1. apply (P1 l l'); [assumption|congruence|exact E1]. }
  apply PASS in E; [exact E|exists 1%nat; now left|repeat constructor|now right|now rewrite !map_length].
Qed.
(** A unit sphere in its own box, at resolution 1/8: all the hypotheses hold. *)
Example C80_example : exists ps ts, uniform_tet_mesh (fun p => norm3 p - 1) (Box3 (V3 (-1) (-1) (-1)) (V3 1 1 1)) false (1 / 8) = Ok (None :: ps, ts) /\ forall t, In t ts -> ~ In 0%nat (corners4 t).
Proof.
  apply C80_nan_refuted.
  - lra.
  - unfold norm3, norm3sq, dot3, zero3. cbn. replace (0 * 0 + 0 * 0 + 0 * 0) with 0 by ring. rewrite sqrt_0. lra.
  - intros x y z X Y W. assert (1 <= norm3 (add3 (min3 (Box3 (V3 (-1) (-1) (-1)) (V3 1 1 1))) (V3 x y z))); [|lra]. unfold norm3, norm3sq, dot3, add3. cbn. rewrite <- sqrt_1 at 1. apply sqrt_le_1_alt. assert (H : forall t, 0 <= t <= 2 * (1 / 8) -> 1 / 2 <= (-1 + t) * (-1 + t)) by (intros t H; nra). pose proof (H x X). pose proof (H y Y). pose proof (H z W). lra.
  - cbn. lra.
  - cbn. lra.
  - cbn. lra.
Qed.
(** A half space z <= 1/2 in a box of side 3: a mesh is returned, so C80_flat_inside says something about it. *)
Example C80_flat_example : exists ps ts, uniform_tet_mesh (fun v => dot3 (V3 0 0 1) v - 1 / 2) (Box3 zero3 (V3 3 3 3)) false 1 = Ok (ps, ts) /\ norm3 (V3 0 0 1) = 1.
Proof.
  pose proof (C80_tetras_partial (fun v => dot3 (V3 0 0 1) v - 1 / 2) (Box3 zero3 (V3 3 3 3)) false 1 ltac:(lra)) as H. destruct (uniform_tet_mesh _ _ _ _) as [[ps ts]| |]; [|contradiction|cbn in H; lra].
  exists ps, ts. split; [reflexivity|]. unfold norm3, norm3sq, dot3. cbn. replace (0 * 0 + 0 * 0 + 1 * 1) with 1 by ring. apply sqrt_1.
Qed.
