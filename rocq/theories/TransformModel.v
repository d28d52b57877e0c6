(** /repo/internal/d3/transform.go (d3.Transform) and canalisTransform of
    /repo/helpers/sdfexp/spatial3.go, over R. *)
From Coq Require Import Reals List Bool.
From Verif Require Import Prelude Vec MatrixModel.
Import ListNotations.
Local Open Scope R_scope.

(** transform.go:9-23: row-major, the identity is subtracted from the diagonal. *)
Inductive transform := T (d00 x01 x02 x03 x10 d11 x12 x13 x20 x21 d22 x23 x30 x31 x32 d33 : R).
(** The zero value Transform{}. *)
Definition t_id : transform := T 0 0 0 0 0 0 0 0 0 0 0 0 0 0 0 0.
(** Go's == on the structs: field by field. *)
Definition transform_eqb (t b : transform) : bool :=
  match t, b with
  | T d00 x01 x02 x03 x10 d11 x12 x13 x20 x21 d22 x23 x30 x31 x32 d33,
    T e00 y01 y02 y03 y10 e11 y12 y13 y20 y21 e22 y23 y30 y31 y32 e33 =>
    Reqb d00 e00 && Reqb x01 y01 && Reqb x02 y02 && Reqb x03 y03 &&
    Reqb x10 y10 && Reqb d11 e11 && Reqb x12 y12 && Reqb x13 y13 &&
    Reqb x20 y20 && Reqb x21 y21 && Reqb d22 e22 && Reqb x23 y23 &&
    Reqb x30 y30 && Reqb x31 y31 && Reqb x32 y32 && Reqb d33 e33
  end.
(** transform.go:27-35 Transform *)
Definition t_apply (t : transform) (v : v3) : v3 :=
  match t with T d00 x01 x02 x03 x10 d11 x12 x13 x20 x21 d22 x23 x30 x31 x32 d33 =>
    let w := 1 / (x30 * x3 v + x31 * y3 v + x32 * z3 v + d33 + 1) in
    V3 (((d00 + 1) * x3 v + x01 * y3 v + x02 * z3 v + x03) * w)
       ((x10 * x3 v + (d11 + 1) * y3 v + x12 * z3 v + x13) * w)
       ((x20 * x3 v + x21 * y3 v + (d22 + 1) * z3 v + x23) * w)
  end.
(** transform.go:38 zeroTransform *)
Definition t_zero : transform := T (-1) 0 0 0 0 (-1) 0 0 0 0 (-1) 0 0 0 0 (-1).
(** transform.go:43-56 NewTransform; a nil slice is [None]. *)
Definition new_transform (a : option (list R)) : res transform :=
  match a with
  | None => Ok t_zero
  | Some [a0; a1; a2; a3; a4; a5; a6; a7; a8; a9; a10; a11; a12; a13; a14; a15] =>
      Ok (T (a0 - 1) a1 a2 a3 a4 (a5 - 1) a6 a7 a8 a9 (a10 - 1) a11 a12 a13 a14 (a15 - 1))
  | Some _ => Panicked
  end.
(** r3.Rotation is a quaternion. *)
Record quat := Quat { q_re : R; q_i : R; q_j : R; q_k : R }.
(** transform.go:62-93 ComposeTransform *)
Definition compose_transform (position scale : v3) (q : quat) : transform :=
  let x2 := q_i q + q_i q in let y2 := q_j q + q_j q in let z2 := q_k q + q_k q in
  let xx := q_i q * x2 in let yy := q_j q * y2 in let zz := q_k q * z2 in
  let xy := q_i q * y2 in let xz := q_i q * z2 in let yz := q_j q * z2 in
  let wx := q_re q * x2 in let wy := q_re q * y2 in let wz := q_re q * z2 in
  T ((1 - (yy + zz)) * x3 scale - 1) ((xy - wz) * y3 scale) ((xz + wy) * z3 scale) (x3 position)
    ((xy + wz) * x3 scale) ((1 - (xx + zz)) * y3 scale - 1) ((yz - wx) * z3 scale) (y3 position)
    ((xz - wy) * x3 scale) ((yz + wx) * y3 scale) ((1 - (xx + yy)) * z3 scale - 1) (z3 position)
    0 0 0 0.
(** transform.go:96-101 Translate *)
Definition t_translate (t : transform) (v : v3) : transform :=
  match t with T d00 x01 x02 x03 x10 d11 x12 x13 x20 x21 d22 x23 x30 x31 x32 d33 =>
    T d00 x01 x02 (x03 + x3 v) x10 d11 x12 (x13 + y3 v) x20 x21 d22 (x23 + z3 v) x30 x31 x32 d33
  end.
(** transform.go:114-130 scale *)
Definition t_scale0 (t : transform) (f : v3) : transform :=
  match t with T d00 x01 x02 x03 x10 d11 x12 x13 x20 x21 d22 x23 x30 x31 x32 d33 =>
    T ((d00 + 1) * x3 f - 1) (x01 * y3 f) (x02 * z3 f) x03
      (x10 * x3 f) ((d11 + 1) * y3 f - 1) (x12 * z3 f) x13
      (x20 * x3 f) (x21 * y3 f) ((d22 + 1) * z3 f - 1) x23
      (x30 * x3 f) (x31 * y3 f) (x32 * z3 f) d33
  end.
(** transform.go:105-112 Scale *)
Definition t_scale (t : transform) (origin f : v3) : transform :=
  if Reqb (x3 origin) 0 && Reqb (y3 origin) 0 && Reqb (z3 origin) 0 then t_scale0 t f
  else t_translate (t_scale0 (t_translate t (scale3 (-1) origin)) f) origin.
(** transform.go:132-167 Mul: equality of the structs is field by field. *)
Definition t_mul (t b : transform) : transform :=
  if transform_eqb t t_id then b else if transform_eqb b t_id then t else
  match t, b with T d00 x01 x02 x03 x10 d11 x12 x13 x20 x21 d22 x23 x30 x31 x32 d33, T e00 y01 y02 y03 y10 e11 y12 y13 y20 y21 e22 y23 y30 y31 y32 e33 =>
    let x00 := d00 + 1 in let x11 := d11 + 1 in let x22 := d22 + 1 in let x33 := d33 + 1 in
    let y00 := e00 + 1 in let y11 := e11 + 1 in let y22 := e22 + 1 in let y33 := e33 + 1 in
    T (x00 * y00 + x01 * y10 + x02 * y20 + x03 * y30 - 1)
      (x00 * y01 + x01 * y11 + x02 * y21 + x03 * y31)
      (x00 * y02 + x01 * y12 + x02 * y22 + x03 * y32)
      (x00 * y03 + x01 * y13 + x02 * y23 + x03 * y33)
      (x10 * y00 + x11 * y10 + x12 * y20 + x13 * y30)
      (x10 * y01 + x11 * y11 + x12 * y21 + x13 * y31 - 1)
      (x10 * y02 + x11 * y12 + x12 * y22 + x13 * y32)
      (x10 * y03 + x11 * y13 + x12 * y23 + x13 * y33)
      (x20 * y00 + x21 * y10 + x22 * y20 + x23 * y30)
      (x20 * y01 + x21 * y11 + x22 * y21 + x23 * y31)
      (x20 * y02 + x21 * y12 + x22 * y22 + x23 * y32 - 1)
      (x20 * y03 + x21 * y13 + x22 * y23 + x23 * y33)
      (x30 * y00 + x31 * y10 + x32 * y20 + x33 * y30)
      (x30 * y01 + x31 * y11 + x32 * y21 + x33 * y31)
      (x30 * y02 + x31 * y12 + x32 * y22 + x33 * y32)
      (x30 * y03 + x31 * y13 + x32 * y23 + x33 * y33 - 1)
  end.
(** transform.go:169-187 Det *)
Definition t_det (t : transform) : R :=
  match t with T d00 x01 x02 x03 x10 d11 x12 x13 x20 x21 d22 x23 x30 x31 x32 d33 =>
    let x00 := d00 + 1 in let x11 := d11 + 1 in let x22 := d22 + 1 in let x33 := d33 + 1 in
    x00 * x11 * x22 * x33 - x00 * x11 * x23 * x32 + x00 * x12 * x23 * x31 - x00 * x12 * x21 * x33 + x00 * x13 * x21 * x32 - x00 * x13 * x22 * x31 - x01 * x12 * x23 * x30 + x01 * x12 * x20 * x33 - x01 * x13 * x20 * x32 + x01 * x13 * x22 * x30 - x01 * x10 * x22 * x33 + x01 * x10 * x23 * x32 + x02 * x13 * x20 * x31 - x02 * x13 * x21 * x30 + x02 * x10 * x21 * x33 - x02 * x10 * x23 * x31 + x02 * x11 * x23 * x30 - x02 * x11 * x20 * x33 - x03 * x10 * x21 * x32 + x03 * x10 * x22 * x31 - x03 * x11 * x22 * x30 + x03 * x11 * x20 * x32 - x03 * x12 * x20 * x31 + x03 * x12 * x21 * x30
  end.
(** transform.go:189-224 Inv *)
Definition t_inv (t : transform) : transform :=
  if transform_eqb t t_id then t else
  let det := t_det t in
  if Rltb (Rabs det) (1 / 10 ^ 16) then t_zero else
  let d := 1 / det in
  match t with T d00 x01 x02 x03 x10 d11 x12 x13 x20 x21 d22 x23 x30 x31 x32 d33 =>
    let x00 := d00 + 1 in let x11 := d11 + 1 in let x22 := d22 + 1 in let x33 := d33 + 1 in
    T ((x12 * x23 * x31 - x13 * x22 * x31 + x13 * x21 * x32 - x11 * x23 * x32 - x12 * x21 * x33 + x11 * x22 * x33) * d - 1)
      ((x03 * x22 * x31 - x02 * x23 * x31 - x03 * x21 * x32 + x01 * x23 * x32 + x02 * x21 * x33 - x01 * x22 * x33) * d)
      ((x02 * x13 * x31 - x03 * x12 * x31 + x03 * x11 * x32 - x01 * x13 * x32 - x02 * x11 * x33 + x01 * x12 * x33) * d)
      ((x03 * x12 * x21 - x02 * x13 * x21 - x03 * x11 * x22 + x01 * x13 * x22 + x02 * x11 * x23 - x01 * x12 * x23) * d)
      ((x13 * x22 * x30 - x12 * x23 * x30 - x13 * x20 * x32 + x10 * x23 * x32 + x12 * x20 * x33 - x10 * x22 * x33) * d)
      ((x02 * x23 * x30 - x03 * x22 * x30 + x03 * x20 * x32 - x00 * x23 * x32 - x02 * x20 * x33 + x00 * x22 * x33) * d - 1)
      ((x03 * x12 * x30 - x02 * x13 * x30 - x03 * x10 * x32 + x00 * x13 * x32 + x02 * x10 * x33 - x00 * x12 * x33) * d)
      ((x02 * x13 * x20 - x03 * x12 * x20 + x03 * x10 * x22 - x00 * x13 * x22 - x02 * x10 * x23 + x00 * x12 * x23) * d)
      ((x11 * x23 * x30 - x13 * x21 * x30 + x13 * x20 * x31 - x10 * x23 * x31 - x11 * x20 * x33 + x10 * x21 * x33) * d)
      ((x03 * x21 * x30 - x01 * x23 * x30 - x03 * x20 * x31 + x00 * x23 * x31 + x01 * x20 * x33 - x00 * x21 * x33) * d)
      ((x01 * x13 * x30 - x03 * x11 * x30 + x03 * x10 * x31 - x00 * x13 * x31 - x01 * x10 * x33 + x00 * x11 * x33) * d - 1)
      ((x03 * x11 * x20 - x01 * x13 * x20 - x03 * x10 * x21 + x00 * x13 * x21 + x01 * x10 * x23 - x00 * x11 * x23) * d)
      ((x12 * x21 * x30 - x11 * x22 * x30 - x12 * x20 * x31 + x10 * x22 * x31 + x11 * x20 * x32 - x10 * x21 * x32) * d)
      ((x01 * x22 * x30 - x02 * x21 * x30 + x02 * x20 * x31 - x00 * x22 * x31 - x01 * x20 * x32 + x00 * x21 * x32) * d)
      ((x02 * x11 * x30 - x01 * x12 * x30 - x02 * x10 * x31 + x00 * x12 * x31 + x01 * x10 * x32 - x00 * x11 * x32) * d)
      ((x01 * x12 * x20 - x02 * x11 * x20 + x02 * x10 * x21 - x00 * x12 * x21 - x01 * x10 * x22 + x00 * x11 * x22) * d - 1)
  end.
(** transform.go:226-233 transpose *)
Definition t_transpose (t : transform) : transform :=
  match t with T d00 x01 x02 x03 x10 d11 x12 x13 x20 x21 d22 x23 x30 x31 x32 d33 =>
    T d00 x10 x20 x30 x01 d11 x21 x31 x02 x12 d22 x32 x03 x13 x23 d33
  end.
(** transform.go:257-264 SliceCopy *)
Definition slice_copy (t : transform) : list R :=
  match t with T d00 x01 x02 x03 x10 d11 x12 x13 x20 x21 d22 x23 x30 x31 x32 d33 =>
    [d00 + 1; x01; x02; x03; x10; d11 + 1; x12; x13; x20; x21; d22 + 1; x23; x30; x31; x32; d33 + 1]
  end.
(** spatial3.go:98-118 canalisTransform (the slice passed to NewTransform has 16 entries). *)
Definition canalis (t0 t1 t2 : v3) : transform :=
  let u2 := sub3 t1 t0 in
  let u3 := sub3 t2 t0 in
  let xc := unit3 u2 in
  let yc := unit3 (sub3 u3 (scale3 (dot3 xc u3) xc)) in
  let zc := cross3 xc yc in
  let r := T (x3 xc - 1) (y3 xc) (z3 xc) 0 (x3 yc) (y3 yc - 1) (z3 yc) 0 (x3 zc) (y3 zc) (z3 zc - 1) 0 0 0 0 (1 - 1) in
  t_translate r (scale3 (-1) (t_apply r t0)).
