(** Smaller parts: d2.Transform (/repo/internal/d2/transform.go), numerical normals and differential operators
    (/repo/utils.go, /repo/helpers/sdfexp/spatial3.go), vector helpers (/repo/veci.go, /repo/utils.go, /repo/matrix.go,
    /repo/internal/d2/vector.go, /repo/internal/d3/vector.go) and random points in boxes.  float64 is read as R, int as Z. *)
From Coq Require Import Reals List Bool Arith ZArith.
From Verif Require Import Prelude Vec BoxModel SdfModel MatrixModel TransformModel UtilModel OctreeModel OmeshModel.
Import ListNotations.
Local Open Scope R_scope.

(** ** internal/d2/transform.go *)
(** transform.go:16-18 Transform: nine numbers, row after row *)
Definition data9 (t : m33) : list R := [b00 t; b01 t; b02 t; b10 t; b11 t; b12 t; b20 t; b21 t; b22 t].
(** transform.go:7 identityT, 32-34 TransformIdentity *)
Definition identityT : m33 := M33 0 0 0 0 0 0 0 0 0.
(** transform.go:10-12 isIdentity *)
Definition is_identity (t : m33) : bool := forallb (fun x => Reqb x 0) (data9 t).
(** transform.go:20-30 NewTransform; nil is [None] *)
Definition new_transform2 (data : option (list R)) : res m33 :=
  match data with
  | None => Ok identityT
  | Some [a; b; c; d; e; f; g; h; i] => Ok (M33 a b c d e f g h i)
  | Some _ => Panicked
  end.
(** transform.go:36-38 At, 40-42 Set, for non-negative arguments *)
Definition at2 (t : m33) (i j : nat) : res R := match nth_error (data9 t) (i * 3 + j) with Some v => Ok v | None => Panicked end.
Definition set2 (t : m33) (i j : nat) (v : R) : res m33 :=
  if (i * 3 + j <? 9)%nat then new_transform2 (Some (firstn (i * 3 + j) (data9 t) ++ v :: skipn (S (i * 3 + j)) (data9 t))) else Panicked.
(** transform.go:44-50 Scale *)
Definition scale_t2 (t : m33) (k : R) : m33 := M33 (b00 t * k) (b01 t * k) (b02 t * k) (b10 t * k) (b11 t * k) (b12 t * k) (b20 t * k) (b21 t * k) (b22 t * k).
(** transform.go:53-65 Mul *)
Definition mul_t2 (a b : m33) : m33 := M33
  (b00 a * b00 b + b01 a * b10 b + b02 a * b20 b) (b00 a * b01 b + b01 a * b11 b + b02 a * b21 b) (b00 a * b02 b + b01 a * b12 b + b02 a * b22 b)
  (b10 a * b00 b + b11 a * b10 b + b12 a * b20 b) (b10 a * b01 b + b11 a * b11 b + b12 a * b21 b) (b10 a * b02 b + b11 a * b12 b + b12 a * b22 b)
  (b20 a * b00 b + b21 a * b10 b + b22 a * b20 b) (b20 a * b01 b + b21 a * b11 b + b22 a * b21 b) (b20 a * b02 b + b21 a * b12 b + b22 a * b22 b).
(** transform.go:67-79 Add *)
Definition add_t2 (a b : m33) : m33 := M33 (b00 a + b00 b) (b01 a + b01 b) (b02 a + b02 b) (b10 a + b10 b) (b11 a + b11 b) (b12 a + b12 b) (b20 a + b20 b) (b21 a + b21 b) (b22 a + b22 b).
(** transform.go:81-89 ApplyPos *)
Definition apply_pos (t : m33) (b : v2) : v2 :=
  if is_identity t then b else V2 (b00 t * x2 b + b01 t * y2 b + b02 t) (b10 t * x2 b + b11 t * y2 b + b12 t).
(** transform.go:92-109 ApplyBox *)
Definition apply_box (a : m33) (box : box2) : box2 :=
  if is_identity a then box else
  let r := V2 (b00 a) (b10 a) in let u := V2 (b01 a) (b11 a) in let t := V2 (b02 a) (b12 a) in
  let xa := scale2 (x2 (min2 box)) r in let xb := scale2 (x2 (max2 box)) r in
  let ya := scale2 (y2 (min2 box)) u in let yb := scale2 (y2 (max2 box)) u in
  Box2 (add2 t (add2 (min_elem2 xa xb) (min_elem2 ya yb))) (add2 t (add2 (max_elem2 xa xb) (max_elem2 ya yb))).
(** transform.go:112-125 Determinant: the sum of 24 products of four entries, evaluated from left to right *)
Definition det_terms : list (bool * list (nat * nat)) :=
  let t s a b c d := (s, [(0, a); (1, b); (2, c); (3, d)])%nat in
  [t true 0 1 2 3; t false 0 1 3 2; t true 0 2 3 1; t false 0 2 1 3; t true 0 3 1 2; t false 0 3 2 1;
   t false 1 2 3 0; t true 1 2 0 3; t false 1 3 0 2; t true 1 3 2 0; t false 1 0 2 3; t true 1 0 3 2;
   t true 2 3 0 1; t false 2 3 1 0; t true 2 0 1 3; t false 2 0 3 1; t true 2 1 3 0; t false 2 1 0 3;
   t false 3 0 1 2; t true 3 0 2 1; t false 3 1 2 0; t true 3 1 0 2; t false 3 2 0 1; t true 3 2 1 0]%nat.
Fixpoint product (t : m33) (l : list (nat * nat)) : res R :=
  match l with
  | [] => Ok 1
  | (i, j) :: r => do x <- at2 t i j; do y <- product t r; Ok (x * y)
  end.
Fixpoint sum_terms (t : m33) (l : list (bool * list (nat * nat))) (acc : R) : res R :=
  match l with
  | [] => Ok acc
  | (s, p) :: r => do x <- product t p; sum_terms t r (if s then acc + x else acc - x)
  end.
Definition determinant (t : m33) : res R := sum_terms t det_terms 0.
(** transform.go:128-141 Inverse *)
Definition inverse_t2 (a : m33) : res m33 :=
  do det <- determinant a;
  let d := 1 / det in
  Ok (M33 ((b11 a * b22 a - b12 a * b21 a) * d) ((b21 a * b02 a - b01 a * b22 a) * d) ((b01 a * b12 a - b11 a * b02 a) * d)
          ((b12 a * b20 a - b22 a * b10 a) * d) ((b22 a * b00 a - b20 a * b02 a) * d) ((b02 a * b10 a - b12 a * b00 a) * d)
          ((b10 a * b21 a - b20 a * b11 a) * d) ((b20 a * b01 a - b00 a * b21 a) * d) ((b00 a * b11 a - b01 a * b10 a) * d)).

(** ** Normals and differential operators *)
(** utils.go:306-312 normal3; the vector in it is that of [gradient] (spatial3.go:132-138).  r3.Unit of the zero
    vector is NaN: [None]. *)
Definition normal3 (f : v3 -> R) (p : v3) (eps : R) : option v3 :=
  let g := V3 (f (add3 p (V3 eps 0 0)) - f (add3 p (V3 (- eps) 0 0))) (f (add3 p (V3 0 eps 0)) - f (add3 p (V3 0 (- eps) 0))) (f (add3 p (V3 0 0 eps)) - f (add3 p (V3 0 0 (- eps)))) in
  if Reqb (norm3 g) 0 then None else Some (unit3 g).
(** utils.go:316-321 normal2 *)
Definition normal2 (f : v2 -> R) (p : v2) (eps : R) : option v2 :=
  let g := V2 (f (add2 p (V2 eps 0)) - f (add2 p (V2 (- eps) 0))) (f (add2 p (V2 0 eps)) - f (add2 p (V2 0 (- eps)))) in
  if Reqb (norm2 g) 0 then None else Some (unit2 g).
(** spatial3.go:140-145 divergence *)
Definition divergence (p : v3) (tol : R) (f : v3 -> v3) : R :=
  let dx := sub3 (f (add3 p (V3 tol 0 0))) (f (add3 p (V3 (- tol) 0 0))) in
  let dy := sub3 (f (add3 p (V3 0 tol 0))) (f (add3 p (V3 0 (- tol) 0))) in
  let dz := sub3 (f (add3 p (V3 0 0 tol))) (f (add3 p (V3 0 0 (- tol)))) in
  x3 dx + y3 dy + z3 dz.
(** spatial3.go:147-149 laplacian: the closure takes v and uses p *)
Definition laplacian (p : v3) (tol : R) (f : v3 -> R) : R := divergence p tol (fun v => gradient p tol f).

(** ** Vectors *)
(** veci.go: V2i; 39-41 Add, 44-46 Add, 14-36 SubScalar, AddScalar, ToV3; Go int without overflow *)
Record v2i := V2I { ux : Z; uy : Z }.
Definition v2i_add (a b : v2i) : v2i := V2I (ux a + ux b) (uy a + uy b).
Definition v2i_sub_scalar (a : v2i) (b : Z) : v2i := V2I (ux a - b) (uy a - b).
Definition v3i_sub_scalar (a : v3i) (b : Z) : v3i := V3I (vx a - b) (vy a - b) (vz a - b).
Definition v2i_add_scalar (a : v2i) (b : Z) : v2i := V2I (ux a + b) (uy a + b).
Definition v3i_add_scalar (a : v3i) (b : Z) : v3i := V3I (vx a + b) (vy a + b) (vz a + b).
Definition v3i_to_v3 (a : v3i) : v3 := V3 (IZR (vx a)) (IZR (vy a)) (IZR (vz a)).
(** utils.go:34-60 R2ToI, R3ToI, R3FromI, R2FromI *)
Definition r2_to_i (a : v2) : v2i := V2I (truncR (x2 a)) (truncR (y2 a)).
Definition r3_to_i (a : v3) : v3i := V3I (truncR (x3 a)) (truncR (y3 a)) (truncR (z3 a)).
Definition r3_from_i (a : v3i) : v3 := V3 (IZR (vx a)) (IZR (vy a)) (IZR (vz a)).
Definition r2_from_i (a : v2i) : v2 := V2 (IZR (ux a)) (IZR (uy a)).
(** utils.go:79-87 sign *)
Definition sign (x : R) : R := if Rltb x 0 then -1 else if Rltb 0 x then 1 else 0.
(** utils.go:329-340 mulVertices2, mulVertices3: the set after the loop *)
Definition mul_vertices2 (v : list v2) (a : m33) : list v2 := map (mul_pos2 a) v.
Definition mul_vertices3 (v : list v3) (a : m44) : list v3 := map (mul_pos3 a) v.
(** d3/vector.go:70-76 and d2/vector.go:60-65 CeilElem; math.Ceil *)
Definition ceilR (x : R) : R := - floorR (- x).
Definition ceil3 (a : v3) : v3 := V3 (ceilR (x3 a)) (ceilR (y3 a)) (ceilR (z3 a)).
Definition ceil2 (a : v2) : v2 := V2 (ceilR (x2 a)) (ceilR (y2 a)).
(** d2/vector.go:120-132 Pol, PolarToCartesian, CartesianToPolar *)
Definition polar_to_cartesian (r theta : R) : v2 := V2 (r * cos theta) (r * sin theta).
Definition cartesian_to_polar (a : v2) : R * R := (norm2 a, atan2 (y2 a) (x2 a)).
(** matrix.go:245-283 equals; d3/transform.go:236-253 equals *)
Definition entries44 (a : m44) : list R := [a00 a; a01 a; a02 a; a03 a; a10 a; a11 a; a12 a; a13 a; a20 a; a21 a; a22 a; a23 a; a30 a; a31 a; a32 a; a33 a].
Definition entries22 (a : m22) : list R := [c00 a; c01 a; c10 a; c11 a].
Definition entries_t (t : transform) : list R := match t with T d00 x01 x02 x03 x10 d11 x12 x13 x20 x21 d22 x23 x30 x31 x32 d33 => [d00; x01; x02; x03; x10; d11; x12; x13; x20; x21; d22; x23; x30; x31; x32; d33] end.
Definition all_within (tol : R) (a b : list R) : bool := forallb (fun e => Rltb (Rabs (fst e - snd e)) tol) (combine a b).
Definition m44_equals (a b : m44) (tol : R) : bool := all_within tol (entries44 a) (entries44 b).
Definition m33_equals (a b : m33) (tol : R) : bool := all_within tol (data9 a) (data9 b).
Definition m22_equals (a b : m22) (tol : R) : bool := all_within tol (entries22 a) (entries22 b).
Definition t_equals (a b : transform) (tol : R) : bool := all_within tol (entries_t a) (entries_t b).
(** d2/box.go:134-153 and d3/box.go:145-165 Random, RandomSet, randomRange (also matrix.go:35-37): rand.Float64 is a
    number in [0, 1) *)
Definition random_range (a b r : R) : R := a + (b - a) * r.
Definition random3 (b : box3) (r s t : R) : v3 := V3 (random_range (x3 (min3 b)) (x3 (max3 b)) r) (random_range (y3 (min3 b)) (y3 (max3 b)) s) (random_range (z3 (min3 b)) (z3 (max3 b)) t).
Definition random2 (b : box2) (r s : R) : v2 := V2 (random_range (x2 (min2 b)) (x2 (max2 b)) r) (random_range (y2 (min2 b)) (y2 (max2 b)) s).
Definition random_set3 (b : box3) (rs : list (R * R * R)) : list v3 := map (fun e => let '(r, s, t) := e in random3 b r s t) rs.
