(** Model of /repo/matrix.go over the reals. *)
From Coq Require Import Reals List Bool.
From Verif Require Import Prelude Vec BoxModel.
Import ListNotations.
Local Open Scope R_scope.

(** matrix.go:13-33: m44, m33, m22 *)
Record m44 := M44 { a00 : R; a01 : R; a02 : R; a03 : R; a10 : R; a11 : R; a12 : R; a13 : R; a20 : R; a21 : R; a22 : R; a23 : R; a30 : R; a31 : R; a32 : R; a33 : R }.
Record m33 := M33 { b00 : R; b01 : R; b02 : R; b10 : R; b11 : R; b12 : R; b20 : R; b21 : R; b22 : R }.
Record m22 := M22 { c00 : R; c01 : R; c10 : R; c11 : R }.

(** matrix.go:84-106: identity3d, identity2d, identity *)
Definition identity3d : m44 := M44 1 0 0 0 0 1 0 0 0 0 1 0 0 0 0 1.
Definition identity2d : m33 := M33 1 0 0 0 1 0 0 0 1.
Definition identity22 : m22 := M22 1 0 0 1.

(** matrix.go:108-142: Translate3D, Translate2D, Scale3D, Scale2D *)
Definition translate3d (v : v3) : m44 := M44 1 0 0 (x3 v) 0 1 0 (y3 v) 0 0 1 (z3 v) 0 0 0 1.
Definition translate2d (v : v2) : m33 := M33 1 0 (x2 v) 0 1 (y2 v) 0 0 1.
Definition scale3d (v : v3) : m44 := M44 (x3 v) 0 0 0 0 (y3 v) 0 0 0 0 (z3 v) 0 0 0 0 1.
Definition scale2d (v : v2) : m33 := M33 (x2 v) 0 0 0 (y2 v) 0 0 0 1.

(** r3.Unit and r2.Unit of gonum: the zero vector gives NaN; over the reals the
    total division gives 0, and every theorem about it asks for a non-zero vector. *)
Definition unit3 (v : v3) : v3 := scale3 (1 / norm3 v) v.
Definition unit2 (v : v2) : v2 := scale2 (1 / norm2 v) v.

(** matrix.go:144-157: Rotate3D *)
Definition rotate3d (v0 : v3) (a : R) : m44 :=
  let v := unit3 v0 in
  let s := sin a in
  let c := cos a in
  let m := 1 - c in
  M44
    (m * x3 v * x3 v + c) (m * x3 v * y3 v - z3 v * s) (m * z3 v * x3 v + y3 v * s) 0
    (m * x3 v * y3 v + z3 v * s) (m * y3 v * y3 v + c) (m * y3 v * z3 v - x3 v * s) 0
    (m * z3 v * x3 v - y3 v * s) (m * y3 v * z3 v + x3 v * s) (m * z3 v * z3 v + c) 0
    0 0 0 1.
(** matrix.go:159-172: RotateX, RotateY, RotateZ *)
Definition rotate_x (a : R) : m44 := rotate3d (V3 1 0 0) a.
Definition rotate_y (a : R) : m44 := rotate3d (V3 0 1 0) a.
Definition rotate_z (a : R) : m44 := rotate3d (V3 0 0 1) a.
(** matrix.go:174-222: mirrors *)
Definition mirror_xy : m44 := M44 1 0 0 0  0 1 0 0  0 0 (-1) 0  0 0 0 1.
Definition mirror_xz : m44 := M44 1 0 0 0  0 (-1) 0 0  0 0 1 0  0 0 0 1.
Definition mirror_yz : m44 := M44 (-1) 0 0 0  0 1 0 0  0 0 1 0  0 0 0 1.
Definition mirror_xeqy : m44 := M44 0 1 0 0  1 0 0 0  0 0 1 0  0 0 0 1.
Definition mirror_x : m33 := M33 1 0 0  0 (-1) 0  0 0 1.
Definition mirror_y : m33 := M33 (-1) 0 0  0 1 0  0 0 1.
(** matrix.go:224-243: Rotate2D, Rotate *)
Definition rotate2d (a : R) : m33 := M33 (cos a) (- sin a) 0  (sin a) (cos a) 0  0 0 1.
Definition rotate22 (a : R) : m22 := M22 (cos a) (- sin a) (sin a) (cos a).

(** matrix.go:285-295, 377-383: MulPosition *)
Definition mul_pos3 (a : m44) (b : v3) : v3 :=
  V3 (a00 a * x3 b + a01 a * y3 b + a02 a * z3 b + a03 a)
     (a10 a * x3 b + a11 a * y3 b + a12 a * z3 b + a13 a)
     (a20 a * x3 b + a21 a * y3 b + a22 a * z3 b + a23 a).
Definition mul_pos2 (a : m33) (b : v2) : v2 :=
  V2 (b00 a * x2 b + b01 a * y2 b + b02 a) (b10 a * x2 b + b11 a * y2 b + b12 a).
Definition mul_pos22 (a : m22) (b : v2) : v2 :=
  V2 (c00 a * x2 b + c01 a * y2 b) (c10 a * x2 b + c11 a * y2 b).

(** matrix.go:298-317: m44.Mul *)
Definition mul44 (a b : m44) : m44 :=
  M44
    ((a00 a)*(a00 b) + (a01 a)*(a10 b) + (a02 a)*(a20 b) + (a03 a)*(a30 b))
    ((a00 a)*(a01 b) + (a01 a)*(a11 b) + (a02 a)*(a21 b) + (a03 a)*(a31 b))
    ((a00 a)*(a02 b) + (a01 a)*(a12 b) + (a02 a)*(a22 b) + (a03 a)*(a32 b))
    ((a00 a)*(a03 b) + (a01 a)*(a13 b) + (a02 a)*(a23 b) + (a03 a)*(a33 b))
    ((a10 a)*(a00 b) + (a11 a)*(a10 b) + (a12 a)*(a20 b) + (a13 a)*(a30 b))
    ((a10 a)*(a01 b) + (a11 a)*(a11 b) + (a12 a)*(a21 b) + (a13 a)*(a31 b))
    ((a10 a)*(a02 b) + (a11 a)*(a12 b) + (a12 a)*(a22 b) + (a13 a)*(a32 b))
    ((a10 a)*(a03 b) + (a11 a)*(a13 b) + (a12 a)*(a23 b) + (a13 a)*(a33 b))
    ((a20 a)*(a00 b) + (a21 a)*(a10 b) + (a22 a)*(a20 b) + (a23 a)*(a30 b))
    ((a20 a)*(a01 b) + (a21 a)*(a11 b) + (a22 a)*(a21 b) + (a23 a)*(a31 b))
    ((a20 a)*(a02 b) + (a21 a)*(a12 b) + (a22 a)*(a22 b) + (a23 a)*(a32 b))
    ((a20 a)*(a03 b) + (a21 a)*(a13 b) + (a22 a)*(a23 b) + (a23 a)*(a33 b))
    ((a30 a)*(a00 b) + (a31 a)*(a10 b) + (a32 a)*(a20 b) + (a33 a)*(a30 b))
    ((a30 a)*(a01 b) + (a31 a)*(a11 b) + (a32 a)*(a21 b) + (a33 a)*(a31 b))
    ((a30 a)*(a02 b) + (a31 a)*(a12 b) + (a32 a)*(a22 b) + (a33 a)*(a32 b))
    ((a30 a)*(a03 b) + (a31 a)*(a13 b) + (a32 a)*(a23 b) + (a33 a)*(a33 b)).

(** matrix.go:320-332: m33.Mul *)
Definition mul33 (a b : m33) : m33 :=
  M33
    ((b00 a)*(b00 b) + (b01 a)*(b10 b) + (b02 a)*(b20 b))
    ((b00 a)*(b01 b) + (b01 a)*(b11 b) + (b02 a)*(b21 b))
    ((b00 a)*(b02 b) + (b01 a)*(b12 b) + (b02 a)*(b22 b))
    ((b10 a)*(b00 b) + (b11 a)*(b10 b) + (b12 a)*(b20 b))
    ((b10 a)*(b01 b) + (b11 a)*(b11 b) + (b12 a)*(b21 b))
    ((b10 a)*(b02 b) + (b11 a)*(b12 b) + (b12 a)*(b22 b))
    ((b20 a)*(b00 b) + (b21 a)*(b10 b) + (b22 a)*(b20 b))
    ((b20 a)*(b01 b) + (b21 a)*(b11 b) + (b22 a)*(b21 b))
    ((b20 a)*(b02 b) + (b21 a)*(b12 b) + (b22 a)*(b22 b)).

(** matrix.go:335-342: m22.Mul *)
Definition mul22 (a b : m22) : m22 :=
  M22
    ((c00 a)*(c00 b) + (c01 a)*(c10 b))
    ((c00 a)*(c01 b) + (c01 a)*(c11 b))
    ((c10 a)*(c00 b) + (c11 a)*(c10 b))
    ((c10 a)*(c01 b) + (c11 a)*(c11 b)).

(** matrix.go:344-375: m33.Add and MulScalar *)
Definition add33 (a b : m33) : m33 :=
  M33 (b00 a + b00 b) (b01 a + b01 b) (b02 a + b02 b) (b10 a + b10 b) (b11 a + b11 b) (b12 a + b12 b)
      (b20 a + b20 b) (b21 a + b21 b) (b22 a + b22 b).
Definition mul_scalar33 (k : R) (a : m33) : m33 :=
  M33 (k * b00 a) (k * b01 a) (k * b02 a) (k * b10 a) (k * b11 a) (k * b12 a) (k * b20 a) (k * b21 a) (k * b22 a).

(** matrix.go:385-404: m44.MulBox *)
Definition mul_box3 (a : m44) (box : box3) : box3 :=
  let r := V3 (a00 a) (a10 a) (a20 a) in
  let u := V3 (a01 a) (a11 a) (a21 a) in
  let b := V3 (a02 a) (a12 a) (a22 a) in
  let t := V3 (a03 a) (a13 a) (a23 a) in
  let xa := scale3 (x3 (min3 box)) r in
  let xb := scale3 (x3 (max3 box)) r in
  let ya := scale3 (y3 (min3 box)) u in
  let yb := scale3 (y3 (max3 box)) u in
  let za := scale3 (z3 (min3 box)) b in
  let zb := scale3 (z3 (max3 box)) b in
  Box3 (add3 (min_elem3 xa xb) (add3 (min_elem3 ya yb) (add3 (min_elem3 za zb) t)))
       (add3 (max_elem3 xa xb) (add3 (max_elem3 ya yb) (add3 (max_elem3 za zb) t))).
(** matrix.go:406-422: m33.MulBox *)
Definition mul_box2 (a : m33) (box : box2) : box2 :=
  let r := V2 (b00 a) (b10 a) in
  let u := V2 (b01 a) (b11 a) in
  let t := V2 (b02 a) (b12 a) in
  let xa := scale2 (x2 (min2 box)) r in
  let xb := scale2 (x2 (max2 box)) r in
  let ya := scale2 (y2 (min2 box)) u in
  let yb := scale2 (y2 (max2 box)) u in
  Box2 (add2 (min_elem2 xa xb) (add2 (min_elem2 ya yb) t))
       (add2 (max_elem2 xa xb) (add2 (max_elem2 ya yb) t)).

(** matrix.go:425-438: m44.Determinant *)
Definition det44 (a : m44) : R :=
  (a00 a) * (a11 a) * (a22 a) * (a33 a) - (a00 a) * (a11 a) * (a23 a) * (a32 a) +
   (a00 a) * (a12 a) * (a23 a) * (a31 a) - (a00 a) * (a12 a) * (a21 a) * (a33 a) +
   (a00 a) * (a13 a) * (a21 a) * (a32 a) - (a00 a) * (a13 a) * (a22 a) * (a31 a) -
   (a01 a) * (a12 a) * (a23 a) * (a30 a) + (a01 a) * (a12 a) * (a20 a) * (a33 a) -
   (a01 a) * (a13 a) * (a20 a) * (a32 a) + (a01 a) * (a13 a) * (a22 a) * (a30 a) -
   (a01 a) * (a10 a) * (a22 a) * (a33 a) + (a01 a) * (a10 a) * (a23 a) * (a32 a) +
   (a02 a) * (a13 a) * (a20 a) * (a31 a) - (a02 a) * (a13 a) * (a21 a) * (a30 a) +
   (a02 a) * (a10 a) * (a21 a) * (a33 a) - (a02 a) * (a10 a) * (a23 a) * (a31 a) +
   (a02 a) * (a11 a) * (a23 a) * (a30 a) - (a02 a) * (a11 a) * (a20 a) * (a33 a) -
   (a03 a) * (a10 a) * (a21 a) * (a32 a) + (a03 a) * (a10 a) * (a22 a) * (a31 a) -
   (a03 a) * (a11 a) * (a22 a) * (a30 a) + (a03 a) * (a11 a) * (a20 a) * (a32 a) -
   (a03 a) * (a12 a) * (a20 a) * (a31 a) + (a03 a) * (a12 a) * (a21 a) * (a30 a).

(** matrix.go:441-445: m33.Determinant *)
Definition det33 (a : m33) : R :=
  (b00 a) * ((b11 a) * (b22 a)-(b21 a) * (b12 a)) -
   (b01 a) * ((b10 a) * (b22 a)-(b20 a) * (b12 a)) +
   (b02 a) * ((b10 a) * (b21 a)-(b20 a) * (b11 a)).

(** matrix.go:448-450: m22.Determinant *)
Definition det22 (a : m22) : R :=
  (c00 a) * (c11 a) - (c01 a) * (c10 a).

(** matrix.go:453-473: m44.Inverse *)
Definition inverse44 (a : m44) : m44 :=
  let d := 1 / det44 a in
  M44
    (((a12 a)*(a23 a)*(a31 a) - (a13 a)*(a22 a)*(a31 a) + (a13 a)*(a21 a)*(a32 a) - (a11 a)*(a23 a)*(a32 a) - (a12 a)*(a21 a)*(a33 a) + (a11 a)*(a22 a)*(a33 a)) * d)
    (((a03 a)*(a22 a)*(a31 a) - (a02 a)*(a23 a)*(a31 a) - (a03 a)*(a21 a)*(a32 a) + (a01 a)*(a23 a)*(a32 a) + (a02 a)*(a21 a)*(a33 a) - (a01 a)*(a22 a)*(a33 a)) * d)
    (((a02 a)*(a13 a)*(a31 a) - (a03 a)*(a12 a)*(a31 a) + (a03 a)*(a11 a)*(a32 a) - (a01 a)*(a13 a)*(a32 a) - (a02 a)*(a11 a)*(a33 a) + (a01 a)*(a12 a)*(a33 a)) * d)
    (((a03 a)*(a12 a)*(a21 a) - (a02 a)*(a13 a)*(a21 a) - (a03 a)*(a11 a)*(a22 a) + (a01 a)*(a13 a)*(a22 a) + (a02 a)*(a11 a)*(a23 a) - (a01 a)*(a12 a)*(a23 a)) * d)
    (((a13 a)*(a22 a)*(a30 a) - (a12 a)*(a23 a)*(a30 a) - (a13 a)*(a20 a)*(a32 a) + (a10 a)*(a23 a)*(a32 a) + (a12 a)*(a20 a)*(a33 a) - (a10 a)*(a22 a)*(a33 a)) * d)
    (((a02 a)*(a23 a)*(a30 a) - (a03 a)*(a22 a)*(a30 a) + (a03 a)*(a20 a)*(a32 a) - (a00 a)*(a23 a)*(a32 a) - (a02 a)*(a20 a)*(a33 a) + (a00 a)*(a22 a)*(a33 a)) * d)
    (((a03 a)*(a12 a)*(a30 a) - (a02 a)*(a13 a)*(a30 a) - (a03 a)*(a10 a)*(a32 a) + (a00 a)*(a13 a)*(a32 a) + (a02 a)*(a10 a)*(a33 a) - (a00 a)*(a12 a)*(a33 a)) * d)
    (((a02 a)*(a13 a)*(a20 a) - (a03 a)*(a12 a)*(a20 a) + (a03 a)*(a10 a)*(a22 a) - (a00 a)*(a13 a)*(a22 a) - (a02 a)*(a10 a)*(a23 a) + (a00 a)*(a12 a)*(a23 a)) * d)
    (((a11 a)*(a23 a)*(a30 a) - (a13 a)*(a21 a)*(a30 a) + (a13 a)*(a20 a)*(a31 a) - (a10 a)*(a23 a)*(a31 a) - (a11 a)*(a20 a)*(a33 a) + (a10 a)*(a21 a)*(a33 a)) * d)
    (((a03 a)*(a21 a)*(a30 a) - (a01 a)*(a23 a)*(a30 a) - (a03 a)*(a20 a)*(a31 a) + (a00 a)*(a23 a)*(a31 a) + (a01 a)*(a20 a)*(a33 a) - (a00 a)*(a21 a)*(a33 a)) * d)
    (((a01 a)*(a13 a)*(a30 a) - (a03 a)*(a11 a)*(a30 a) + (a03 a)*(a10 a)*(a31 a) - (a00 a)*(a13 a)*(a31 a) - (a01 a)*(a10 a)*(a33 a) + (a00 a)*(a11 a)*(a33 a)) * d)
    (((a03 a)*(a11 a)*(a20 a) - (a01 a)*(a13 a)*(a20 a) - (a03 a)*(a10 a)*(a21 a) + (a00 a)*(a13 a)*(a21 a) + (a01 a)*(a10 a)*(a23 a) - (a00 a)*(a11 a)*(a23 a)) * d)
    (((a12 a)*(a21 a)*(a30 a) - (a11 a)*(a22 a)*(a30 a) - (a12 a)*(a20 a)*(a31 a) + (a10 a)*(a22 a)*(a31 a) + (a11 a)*(a20 a)*(a32 a) - (a10 a)*(a21 a)*(a32 a)) * d)
    (((a01 a)*(a22 a)*(a30 a) - (a02 a)*(a21 a)*(a30 a) + (a02 a)*(a20 a)*(a31 a) - (a00 a)*(a22 a)*(a31 a) - (a01 a)*(a20 a)*(a32 a) + (a00 a)*(a21 a)*(a32 a)) * d)
    (((a02 a)*(a11 a)*(a30 a) - (a01 a)*(a12 a)*(a30 a) - (a02 a)*(a10 a)*(a31 a) + (a00 a)*(a12 a)*(a31 a) + (a01 a)*(a10 a)*(a32 a) - (a00 a)*(a11 a)*(a32 a)) * d)
    (((a01 a)*(a12 a)*(a20 a) - (a02 a)*(a11 a)*(a20 a) + (a02 a)*(a10 a)*(a21 a) - (a00 a)*(a12 a)*(a21 a) - (a01 a)*(a10 a)*(a22 a) + (a00 a)*(a11 a)*(a22 a)) * d).

(** matrix.go:476-489: m33.Inverse *)
Definition inverse33 (a : m33) : m33 :=
  let d := 1 / det33 a in
  M33
    (((b11 a)*(b22 a) - (b12 a)*(b21 a)) * d)
    (((b21 a)*(b02 a) - (b01 a)*(b22 a)) * d)
    (((b01 a)*(b12 a) - (b11 a)*(b02 a)) * d)
    (((b12 a)*(b20 a) - (b22 a)*(b10 a)) * d)
    (((b22 a)*(b00 a) - (b20 a)*(b02 a)) * d)
    (((b02 a)*(b10 a) - (b12 a)*(b00 a)) * d)
    (((b10 a)*(b21 a) - (b20 a)*(b11 a)) * d)
    (((b20 a)*(b01 a) - (b00 a)*(b21 a)) * d)
    (((b00 a)*(b11 a) - (b01 a)*(b10 a)) * d).

(** matrix.go:492-500: m22.Inverse *)
Definition inverse22 (a : m22) : m22 :=
  let d := 1 / det22 a in
  M22
    ((c11 a) * d)
    (-(c01 a) * d)
    (-(c10 a) * d)
    ((c00 a) * d).

(** gonum r3.Skew, Mat.Mul, Scale, Add, Eye on 3x3 matrices (row major). *)
Definition skew (v : v3) : m33 := M33 0 (- z3 v) (y3 v)  (z3 v) 0 (- x3 v)  (- y3 v) (x3 v) 0.

(** utils.go:31: epsilon *)
Definition sdf_epsilon : R := / 10 ^ 12.

(** matrix.go:502-544: rotateToVec *)
Definition rotate_to_vec (a0 b0 : v3) : m44 :=
  if equal_within3 a0 zero3 sdf_epsilon || equal_within3 b0 zero3 sdf_epsilon then identity3d
  else
    let a := unit3 a0 in
    let b := unit3 b0 in
    if equal_within3 a b sdf_epsilon then identity3d
    else if equal_within3 (scale3 (-1) a) b sdf_epsilon then
      M44 (-1) 0 0 0  0 (-1) 0 0  0 0 (-1) 0  0 0 0 1
    else
      let vx := skew (cross3 a b) in
      let k := 1 / (1 + dot3 a b) in
      let vx2 := mul_scalar33 k (mul33 vx vx) in
      let m := add33 (add33 vx identity2d) vx2 in
      M44 (b00 m) (b01 m) (b02 m) 0 (b10 m) (b11 m) (b12 m) 0 (b20 m) (b21 m) (b22 m) 0 0 0 0 1.
