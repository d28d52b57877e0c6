(** Primitive shapes: form3/must3/cylinders.go and form2/must2/basic.go, and the
    checked wrappers of form3/basic.go and form2/basic.go.  Coordinates are real
    numbers; a Go panic is [Panicked], an error return is [Err]. *)
From Coq Require Import Reals Lra List Bool.
From Verif Require Import Prelude Vec BoxModel MatrixModel SdfModel.
Import ListNotations.
Local Open Scope R_scope.

(** internal/d3/vector.go:62-68 and internal/d2/vector.go:53-58 AbsElem *)
Definition abs_elem3 (a : v3) : v3 := V3 (Rabs (x3 a)) (Rabs (y3 a)) (Rabs (z3 a)).
Definition abs_elem2 (a : v2) : v2 := V2 (Rabs (x2 a)) (Rabs (y2 a)).
(** utils.go:395-419 and form3/must3/cylinders.go:203-227 sdfBox3d (same body);
    internal/d3/vector.go:54-56 Max *)
Definition sdf_box3d (p s : v3) : R :=
  let d := sub3 (abs_elem3 p) s in
  if Rltb 0 (x3 d) && Rltb 0 (y3 d) && Rltb 0 (z3 d) then norm3 d
  else if Rltb 0 (x3 d) && Rltb 0 (y3 d) then hypot (x3 d) (y3 d)
  else if Rltb 0 (x3 d) && Rltb 0 (z3 d) then hypot (x3 d) (z3 d)
  else if Rltb 0 (y3 d) && Rltb 0 (z3 d) then hypot (y3 d) (z3 d)
  else if Rltb 0 (x3 d) then x3 d
  else if Rltb 0 (y3 d) then y3 d
  else if Rltb 0 (z3 d) then z3 d
  else Rmax (z3 d) (Rmax (x3 d) (y3 d)).
(** sdf2.go:41-52, form2/must2/errors.go:21-32 and form3/must3/errors.go:8-19
    sdfBox2d (same body) *)
Definition sdf_box2d (p0 s : v2) : R :=
  let p := abs_elem2 p0 in
  let d := sub2 p s in
  let k := y2 s - x2 s in
  if Rltb 0 (x2 d) && Rltb 0 (y2 d) then norm2 d
  else if Rltb k (y2 p - x2 p) then y2 d
  else x2 d.

(** internal/d3/vector.go:32-34 LTEZero *)
Definition lte_zero3 (a : v3) : bool := Rleb (x3 a) 0 || Rleb (y3 a) 0 || Rleb (z3 a) 0.
(** form3/must3/cylinders.go:21-43 Box *)
Definition must_box3 (size0 : v3) (round : R) : res sdf3 :=
  if lte_zero3 size0 then Panicked
  else if Rltb round 0 then Panicked
  else
    let size := scale3 (1/2) size0 in
    let inner := sub3 size (elem3 round) in
    Ok (S3 (fun p => sdf_box3d p inner - round) (Box3 (scale3 (-1) size) size)).
(** form3/must3/cylinders.go:57-77 Sphere *)
Definition must_sphere (radius : R) : res sdf3 :=
  if Rleb radius 0 then Panicked
  else let d := V3 radius radius radius in
       Ok (S3 (fun p => norm3 p - radius) (Box3 (scale3 (-1) d) d)).
(** form3/must3/cylinders.go:90-121 Cylinder *)
Definition must_cylinder (height radius round : R) : res sdf3 :=
  if Rleb radius 0 then Panicked
  else if Rltb round 0 then Panicked
  else if Rltb radius round then Panicked
  else if Rltb height (2 * round) then Panicked
  else
    let h := height / 2 - round in
    let r := radius - round in
    let d := V3 radius radius (height / 2) in
    Ok (S3 (fun p => sdf_box2d (V2 (hypot (x3 p) (y3 p)) (z3 p)) (V2 r h) - round) (Box3 (scale3 (-1) d) d)).
(** form3/must3/cylinders.go:126-166 Cone: the fields of the struct *)
Record cone_t := Cone { c_r0 : R; c_r1 : R; c_h : R; c_round : R; c_u : v2; c_n : v2; c_l : R }.
Definition cone_of (height r0 r1 round : R) : cone_t :=
  let h := height / 2 - round in
  let u := unit2 (sub2 (V2 r1 (height / 2)) (V2 r0 (- height / 2))) in
  let n := V2 (y2 u) (- x2 u) in
  let ofs := round / x2 n in
  let s0 := r0 - (1 + y2 n) * ofs in
  let s1 := r1 - (1 - y2 n) * ofs in
  Cone s0 s1 h round u n (norm2 (sub2 (V2 s1 h) (V2 s0 (- h)))).
(** form3/must3/cylinders.go:169-199 cone.Evaluate, on (radius, z) *)
Definition cone_eval2 (s : cone_t) (p : v2) : R :=
  if Rleb (c_h s) (y2 p) && Rleb (x2 p) (c_r1 s) then y2 p - c_h s - c_round s
  else if Rleb (y2 p) (- c_h s) && Rleb (x2 p) (c_r0 s) then - y2 p - c_h s - c_round s
  else
    let v := sub2 p (V2 (c_r0 s) (- c_h s)) in
    let ds := dot2 v (c_n s) in
    if Rltb ds 0 && Rltb (Rabs (y2 p)) (c_h s) then - Rmin (- ds) (c_h s - Rabs (y2 p)) - c_round s
    else
      let t := dot2 v (c_u s) in
      if Rleb 0 t && Rleb t (c_l s) then ds - c_round s
      else if Rltb t 0 then norm2 v - c_round s
      else norm2 (sub2 p (V2 (c_r1 s) (c_h s))) - c_round s.
Definition must_cone (height r0 r1 round : R) : res sdf3 :=
  if Rleb height 0 then Panicked
  else if Rltb round 0 then Panicked
  else if Rltb height (2 * round) then Panicked
  else
    let s := cone_of height r0 r1 round in
    let r := Rmax (c_r0 s + round) (c_r1 s + round) in
    Ok (S3 (fun p => cone_eval2 s (V2 (hypot (x3 p) (y3 p)) (z3 p)))
           (Box3 (V3 (- r) (- r) (- height / 2)) (V3 r r (height / 2)))).

(** form2/must2/basic.go:17-36 Circle *)
Definition must_circle (radius : R) : res sdf2 :=
  if Rltb radius 0 then Panicked
  else let d := V2 radius radius in
       Ok (S2 (fun p => norm2 p - radius) (Box2 (scale2 (-1) d) d)).
(** form2/must2/basic.go:48-66 Box; no parameter is rejected *)
Definition must_box2 (size0 : v2) (round : R) : res sdf2 :=
  let size := scale2 (1/2) size0 in
  let inner := sub2 size (elem2 round) in
  Ok (S2 (fun p => sdf_box2d p inner - round) (Box2 (scale2 (-1) size) size)).
(** form2/must2/basic.go:78-100 Line; no parameter is rejected *)
Definition must_line (l0 round : R) : res sdf2 :=
  let l := l0 / 2 in
  Ok (S2 (fun p0 => let p := abs_elem2 p0 in
                    if Rleb (x2 p) l then y2 p - round
                    else norm2 (sub2 p (V2 l 0)) - round)
         (Box2 (V2 (- l - round) (- round)) (V2 (l + round) round))).

(** The checked wrappers: form3/basic.go:23-86 and form2/basic.go:20-59 recover from
    the panic and return it as an error. *)
Definition recovered {A} (r : res A) : res A := match r with Panicked => Err | x => x end.
Definition form_box3 size round := recovered (must_box3 size round).
Definition form_sphere radius := recovered (must_sphere radius).
Definition form_cylinder height radius round := recovered (must_cylinder height radius round).
(** form3/basic.go:66-68 Capsule *)
Definition form_capsule height radius := form_cylinder height radius radius.
Definition form_cone height r0 r1 round := recovered (must_cone height r0 r1 round).
Definition form_circle radius := recovered (must_circle radius).
Definition form_box2 size round := recovered (must_box2 size round).
Definition form_line l round := recovered (must_line l round).
