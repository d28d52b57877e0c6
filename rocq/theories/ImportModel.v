(** helpers/sdfexp/import.go (newMesh, ImportModel, Evaluate, Bounds) and spatial3.go (meshTriangle).  float64 is
    read as R, int64(x) as truncation without overflow, a Go map as a function or association list.  The k-d tree
    (gonum.org/v1/gonum/spatial/kdtree) is in KdModel.v: here Evaluate is given the number of the triangle
    that Tree.Nearest returns, and the theorems hold for every such number. *)
From Coq Require Import Reals List Bool Arith ZArith.
From Verif Require Import Prelude Vec BoxModel SdfModel MatrixModel TransformModel BihModel Tri2Model.
Import ListNotations.
Local Open Scope R_scope.

(** import.go:56-61 pseudoVertex *)
Record pvert := PVert { pv_v : v3; pv_n : v3 }.
(** spatial3.go:15-24 meshTriangle, without the results of the last distance calculation, which [tri_distance] returns *)
Record mtri := MTri { mt_c : v3; mt_verts : nat * nat * nat; mt_n : v3; mt_t : transform; mt_inv : transform }.
(** import.go:46-54 mesh; pseudoEdgeN is the list of the additions made to the map, latest first. *)
Definition emap := list ((nat * nat) * v3).
Record imesh := IMesh { im_bb : box3; im_verts : list pvert; im_tris : list mtri; im_edges : emap }.
Definition edge_eqb (a b : nat * nat) : bool := ((fst a =? fst b) && (snd a =? snd b))%nat.
(** m[edge]: the zero vector if there is no entry *)
Fixpoint edge_get (m : emap) (e : nat * nat) : v3 :=
  match m with
  | [] => zero3
  | (e', v) :: r => if edge_eqb e' e then v else edge_get r e
  end.
(** import.go:115-117: the cell of a vertex *)
Definition vkey (tol : R) (v : v3) : key := (truncZ (1 / tol * x3 v), truncZ (1 / tol * y3 v), truncZ (1 / tol * z3 v)).
Definition tcorner (x : triangle) (j : nat) : v3 := let '(a, b, c) := x in nth (j mod 3) [a; b; c] a.
(** r3.Triangle.Normal and r3.Unit, for a triangle with positive area *)
Definition face_norm (x : triangle) : v3 := let '(a, b, c) := x in unit3 (cross3 (sub3 b a) (sub3 c a)).
(** r3.Cos *)
Definition cos3 (p q : v3) : R := dot3 p q / (norm3 p * norm3 q).
(** import.go:127-129: the opening angle at corner [j] *)
Definition corner_angle (x : triangle) (j : nat) : R := acos (cos3 (sub3 (tcorner x j) (tcorner x (j + 1))) (sub3 (tcorner x j) (tcorner x (j + 2)))).
(** import.go:114-132, one value of j *)
Definition imp_corner (tol : R) (x : triangle) (st : list pvert * cache * list nat) (j : nat) : list pvert * cache * list nat :=
  let '(vs, c, is) := st in
  let vert := tcorner x j in
  let '(vs, c, i) := match lookup (vkey tol vert) c with
                     | Some i => (vs, c, i)
                     | None => (vs ++ [PVert vert zero3], (vkey tol vert, length vs) :: c, length vs)
                     end in
  let v := nth i vs (PVert zero3 zero3) in
  (set_nth vs i (PVert (pv_v v) (add3 (pv_n v) (scale3 (corner_angle x j) (face_norm x)))), c, is ++ [i]).
(** import.go:136-139 *)
Definition edge_key (a b : nat) : nat * nat := if (b <? a)%nat then (b, a) else (a, b).
(** import.go:135-141, one value of j *)
Definition imp_edge (x : triangle) (m : emap) (e : nat * nat) : emap := (e, add3 (edge_get m e) (scale3 PI (face_norm x))) :: m.
(** spatial3.go:126-128 centroid *)
Definition centroid (x : triangle) : v3 := let '(a, b, c) := x in scale3 (1 / 3) (add3 (add3 a b) c).
(** import.go:103-142, one triangle *)
Definition imp_triangle (tol : R) (st : list pvert * cache * list mtri * emap) (x : triangle) : list pvert * cache * list mtri * emap :=
  let '(vs, c, ts, em) := st in
  let '(p, q, r) := x in
  let tf := canalis p q r in
  let '(vs, c, is) := fold_left (imp_corner tol x) [0; 1; 2]%nat (vs, c, []) in
  let i := nth 0 is O in let j := nth 1 is O in let k := nth 2 is O in
  let t := MTri (centroid x) (i, j, k) (scale3 (2 * PI) (face_norm x)) tf (t_inv tf) in
  let em := fold_left (imp_edge x) [edge_key i j; edge_key j k; edge_key k i] em in
  (vs, c, ts ++ [t], em).
(** import.go:63-144 newMesh and 19-26 ImportModel.  The box, the sides and the choice of the tolerance
    (lines 64-99) are those of ImportModelV2 (bih.go:436-471), word for word. *)
Definition import_v1 (model : list triangle) (tol : R) : res imesh :=
  do t <- used_tol model tol;
  let '(vs, _, ts, em) := fold_left (imp_triangle t) model ([], [], [], []) in
  Ok (IMesh (model_box model) vs ts em).
(** import.go:39-44 Bounds *)
Definition im_bounds (m : imesh) : box3 := im_bb m.

(** spatial3.go:118-120 isPoint *)
Definition is_point (t : mtri) : bool := Reqb (x3 (mt_n t)) 0 && Reqb (y3 (mt_n t)) 0 && Reqb (z3 (mt_n t)) 0.
(** spatial3.go:122-124 lowerVec *)
Definition lower (v : v3) : v2 := V2 (x3 v) (y3 v).
(** spatial3.go:85-91 triangle *)
Definition mt_triangle (vs : list pvert) (t : mtri) : triangle :=
  let g i := pv_v (nth i vs (PVert zero3 zero3)) in
  let '(i, j, k) := mt_verts t in (g i, g j, g k).
(** spatial3.go:47-59: the squared distance, lastFeature and lastClosest *)
Definition tri_distance (vs : list pvert) (t : mtri) (p : v3) : R * feature * v3 :=
  let '(a, b, c) := mt_triangle vs t in
  let l v := lower (t_apply (mt_t t) v) in
  let '(q, f) := closest2 (l p) (l a, l b, l c) in
  let w := t_apply (mt_inv t) (V3 (x2 q) (y2 q) 0) in
  (norm3sq (sub3 p w), f, w).
(** spatial3.go:41-60 Distance *)
Definition kd_distance (vs : list pvert) (t c : mtri) : R :=
  if is_point t then
    if is_point c then norm3sq (sub3 (mt_c t) (mt_c c)) else fst (fst (tri_distance vs c (mt_c t)))
  else fst (fst (tri_distance vs t (mt_c c))).
(** spatial3.go:66-83 CopySign; math.Copysign with the sign of a number that is not -0 *)
Definition copysign (dist signed : R) : R := if Rltb signed 0 then - Rabs dist else Rabs dist.
Definition vert_at (t : nat * nat * nat) (k : nat) : nat := let '(i, j, l) := t in nth (k mod 3) [i; j; l] i.
Definition copy_sign (m : imesh) (t : mtri) (f : feature) (closest p : v3) (dist : R) : R :=
  copysign dist
    match f with
    | FV k => let v := nth (vert_at (mt_verts t) k) (im_verts m) (PVert zero3 zero3) in dot3 (pv_n v) (sub3 p (pv_v v))
    | FE k => dot3 (edge_get (im_edges m) (edge_key (vert_at (mt_verts t) k) (vert_at (mt_verts t) (k + 1)))) (sub3 p closest)
    | FFace => dot3 (mt_n t) (sub3 p closest)
    end.
(** import.go:33-37 Evaluate, when Tree.Nearest returns triangle number [i] *)
Definition imp_eval (m : imesh) (i : nat) (p : v3) : res R :=
  match nth_error (im_tris m) i with
  | None => Panicked
  | Some t => let '(d, f, w) := tri_distance (im_verts m) t p in Ok (copy_sign m t f w p (sqrt d))
  end.
