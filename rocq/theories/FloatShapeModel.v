(** Evaluate of the basic shapes and operations in IEEE-754 binary64 arithmetic, operation by
    operation as the Go code performs them (no fused multiply-add, as on amd64), on the numbers
    [spec_float] of the standard library.  math.Hypot and gonum's r3.Norm and r2.Norm are not in
    the repository: they are the parameters [hyp], [nrm3] and [nrm2] of Evaluate here; [ghyp], [gnrm3]
    and [gnrm2] at the end follow their published sources.  [x / 2] is modelled as
    [0.5 * x], which is the same number in IEEE-754 arithmetic.  The trees hold the parameters that
    the constructors receive (sizes, radii, distances), not intermediate results; the exceptions,
    the inverse of a transform and the normal of a cut, are said where they occur. *)
From Coq Require Import List Bool ZArith Floats.SpecFloat Reals.
From Verif Require Import Prelude Vec BoxModel MatrixModel SdfModel PrimModel FloatBoolModel FloatRound.
Import ListNotations.

Record fv3 := FV3 { f3x : spec_float; f3y : spec_float; f3z : spec_float }.
Record fv2 := FV2 { f2x : spec_float; f2y : spec_float }.
Definition fzero : spec_float := S754_zero false.
Definition fhalf : spec_float := S754_finite false 4503599627370496 (-53).
Definition fgt (a b : spec_float) : bool := SFltb b a.
(** gonum r3.Sub, internal/d3/vector.go:62-68 AbsElem, 54-56 Max *)
Definition fsub3 (a b : fv3) : fv3 := FV3 (fsub (f3x a) (f3x b)) (fsub (f3y a) (f3y b)) (fsub (f3z a) (f3z b)).
Definition fabs3 (a : fv3) : fv3 := FV3 (SFabs (f3x a)) (SFabs (f3y a)) (SFabs (f3z a)).
Definition fmaxc3 (a : fv3) : spec_float := go_max (f3z a) (go_max (f3x a) (f3y a)).
Definition fsub2 (a b : fv2) : fv2 := FV2 (fsub (f2x a) (f2x b)) (fsub (f2y a) (f2y b)).
Definition fabs2 (a : fv2) : fv2 := FV2 (SFabs (f2x a)) (SFabs (f2y a)).
Definition fscale3 (k : spec_float) (a : fv3) : fv3 := FV3 (fmul k (f3x a)) (fmul k (f3y a)) (fmul k (f3z a)).
Definition fscale2 (k : spec_float) (a : fv2) : fv2 := FV2 (fmul k (f2x a)) (fmul k (f2y a)).
(** gonum r3.Dot *)
Definition fdot3 (a b : fv3) : spec_float := fadd (fadd (fmul (f3x a) (f3x b)) (fmul (f3y a) (f3y b))) (fmul (f3z a) (f3z b)).
(** internal/d3/vector.go:111-113 clamp, 46-52 Clamp *)
Definition fclamp (x a b : spec_float) : spec_float := go_min b (go_max x a).
Definition fclamp3 (x a b : fv3) : fv3 := FV3 (fclamp (f3x x) (f3x a) (f3x b)) (fclamp (f3y x) (f3y a) (f3y b)) (fclamp (f3z x) (f3z a) (f3z b)).
(** matrix.go:378-383 MulPosition: the upper three rows of a 4x4 matrix *)
Record frow := FRow { fr0 : spec_float; fr1 : spec_float; fr2 : spec_float; fr3 : spec_float }.
Record fm44 := FM44 { fm0 : frow; fm1 : frow; fm2 : frow }.
Definition frow_mul (a : frow) (b : fv3) : spec_float :=
  fadd (fadd (fadd (fmul (fr0 a) (f3x b)) (fmul (fr1 a) (f3y b))) (fmul (fr2 a) (f3z b))) (fr3 a).
Definition fmul_pos3 (a : fm44) (b : fv3) : fv3 := FV3 (frow_mul (fm0 a) b) (frow_mul (fm1 a) b) (frow_mul (fm2 a) b).

Section Evaluate.
  Context (hyp : spec_float -> spec_float -> spec_float) (nrm3 : fv3 -> spec_float) (nrm2 : fv2 -> spec_float).
  (** form3/must3/cylinders.go:203-227 sdfBox3d *)
  Definition fsdf_box3d (p s : fv3) : spec_float :=
    let d := fsub3 (fabs3 p) s in
    if fgt (f3x d) fzero && fgt (f3y d) fzero && fgt (f3z d) fzero then nrm3 d
    else if fgt (f3x d) fzero && fgt (f3y d) fzero then hyp (f3x d) (f3y d)
    else if fgt (f3x d) fzero && fgt (f3z d) fzero then hyp (f3x d) (f3z d)
    else if fgt (f3y d) fzero && fgt (f3z d) fzero then hyp (f3y d) (f3z d)
    else if fgt (f3x d) fzero then f3x d
    else if fgt (f3y d) fzero then f3y d
    else if fgt (f3z d) fzero then f3z d
    else fmaxc3 d.
  (** form3/must3/errors.go:8-19 and form2/must2/basic.go sdfBox2d *)
  Definition fsdf_box2d (p0 s : fv2) : spec_float :=
    let p := fabs2 p0 in
    let d := fsub2 p s in
    let k := fsub (f2y s) (f2x s) in
    if fgt (f2x d) fzero && fgt (f2y d) fzero then nrm2 d
    else if fgt (fsub (f2y p) (f2x p)) k then f2y d
    else f2x d.
  (** form3/must3/cylinders.go:21-41 Box, Evaluate *)
  Definition fbox3 (size : fv3) (round : spec_float) (p : fv3) : spec_float :=
    fsub (fsdf_box3d p (fsub3 (fscale3 fhalf size) (FV3 round round round))) round.
  (** cylinders.go:58-72 Sphere, Evaluate *)
  Definition fsphere (radius : spec_float) (p : fv3) : spec_float := fsub (nrm3 p) radius.
  (** cylinders.go:89-116 Cylinder, Evaluate *)
  Definition fcylinder (height radius round : spec_float) (p : fv3) : spec_float :=
    fsub (fsdf_box2d (FV2 (hyp (f3x p) (f3y p)) (f3z p)) (FV2 (fsub radius round) (fsub (fmul fhalf height) round))) round.
  (** form2/must2/basic.go:17-31 Circle, 48-60 Box *)
  Definition fcircle (radius : spec_float) (p : fv2) : spec_float := fsub (nrm2 p) radius.
  Definition fbox2 (size : fv2) (round : spec_float) (p : fv2) : spec_float :=
    fsub (fsdf_box2d p (fsub2 (fscale2 fhalf size) (FV2 round round))) round.
  (** sdf3.go:174-181 *)
  Definition fextrude (F : fv2 -> spec_float) (height : spec_float) (p : fv3) : spec_float :=
    go_max (F (FV2 (f3x p) (f3y p))) (fsub (SFabs (f3z p)) (fmul fhalf height)).
  (** sdf3.go:821-823, 839-853, sdf2.go:607-609 *)
  Definition foffset {P} (F : P -> spec_float) (d : spec_float) (p : P) : spec_float := fsub (F p) d.
  Definition fshell {P} (F : P -> spec_float) (thickness : spec_float) (p : P) : spec_float := fsub (SFabs (F p)) (fmul fhalf thickness).
  (** sdf3.go:368-370; the stored inverse is a parameter *)
  Definition ftransform (F : fv3 -> spec_float) (inv : fm44) (p : fv3) : spec_float := F (fmul_pos3 inv p).
  (** sdf3.go:594-596; [n] is the stored (negated unit) normal *)
  Definition fcut (F : fv3 -> spec_float) (a n : fv3) (p : fv3) : spec_float := go_max (fdot3 n (fsub3 p a)) (F p).
  (** sdf3.go:508-528 *)
  Definition felongate (F : fv3 -> spec_float) (h : fv3) (p : fv3) : spec_float :=
    let h := fabs3 h in F (fsub3 p (fclamp3 p (fscale3 (SFopp fhalf) h) (fscale3 fhalf h))).
End Evaluate.

(** Go standard library, math/hypot.go (the amd64 assembly computes the same) *)
Definition f1 : spec_float := S754_finite false 4503599627370496 (-52).
Definition is_inf (x : spec_float) : bool := match x with S754_infinity _ => true | _ => false end.
Definition ghyp (p0 q0 : spec_float) : spec_float :=
  let p1 := SFabs p0 in let q1 := SFabs q0 in
  if is_inf p1 || is_inf q1 then S754_infinity false
  else if is_nan p1 || is_nan q1 then S754_nan
  else let p := if SFltb p1 q1 then q1 else p1 in
       let q := if SFltb p1 q1 then p1 else q1 in
       if SFeqb p fzero then fzero
       else let t := fdiv q p in fmul p (fsqrt (fadd f1 (fmul t t))).
(** gonum spatial/r3 Norm and spatial/r2 Norm *)
Definition gnrm3 (p : fv3) : spec_float := ghyp (f3x p) (ghyp (f3y p) (f3z p)).
Definition gnrm2 (p : fv2) : spec_float := ghyp (f2x p) (f2y p).
(** matrix.go:14-19 m44, over any number type *)
Record mat (A : Type) := Mat {
  x00 : A; x01 : A; x02 : A; x03 : A; x10 : A; x11 : A; x12 : A; x13 : A;
  x20 : A; x21 : A; x22 : A; x23 : A; x30 : A; x31 : A; x32 : A; x33 : A }.
Arguments x00 {A} m.
Arguments x01 {A} m.
Arguments x02 {A} m.
Arguments x03 {A} m.
Arguments x10 {A} m.
Arguments x11 {A} m.
Arguments x12 {A} m.
Arguments x13 {A} m.
Arguments x20 {A} m.
Arguments x21 {A} m.
Arguments x22 {A} m.
Arguments x23 {A} m.
Arguments x30 {A} m.
Arguments x31 {A} m.
Arguments x32 {A} m.
Arguments x33 {A} m.
Arguments Mat {A}.
(** matrix.go:425-438 Determinant and the bracketed sums of 453-473 Inverse, as programs over any addition, subtraction and multiplication *)
Section Matrix.
  Context {A : Type} (add sub mul : A -> A -> A).
  Local Infix "+" := add.
  Local Infix "-" := sub.
  Local Infix "*" := mul.
  Definition gdet (a : mat A) : A :=
    (((((((((((((((((((((((((((x00 a) * (x11 a)) * (x22 a)) * (x33 a)) - ((((x00 a) * (x11 a)) * (x23 a)) * (x32 a))) + ((((x00 a) * (x12 a)) * (x23 a)) * (x31 a))) - ((((x00 a) * (x12 a)) * (x21 a)) * (x33 a))) + ((((x00 a) * (x13 a)) * (x21 a)) * (x32 a))) - ((((x00 a) * (x13 a)) * (x22 a)) * (x31 a))) - ((((x01 a) * (x12 a)) * (x23 a)) * (x30 a))) + ((((x01 a) * (x12 a)) * (x20 a)) * (x33 a))) - ((((x01 a) * (x13 a)) * (x20 a)) * (x32 a))) + ((((x01 a) * (x13 a)) * (x22 a)) * (x30 a))) - ((((x01 a) * (x10 a)) * (x22 a)) * (x33 a))) + ((((x01 a) * (x10 a)) * (x23 a)) * (x32 a))) + ((((x02 a) * (x13 a)) * (x20 a)) * (x31 a))) - ((((x02 a) * (x13 a)) * (x21 a)) * (x30 a))) + ((((x02 a) * (x10 a)) * (x21 a)) * (x33 a))) - ((((x02 a) * (x10 a)) * (x23 a)) * (x31 a))) + ((((x02 a) * (x11 a)) * (x23 a)) * (x30 a))) - ((((x02 a) * (x11 a)) * (x20 a)) * (x33 a))) - ((((x03 a) * (x10 a)) * (x21 a)) * (x32 a))) + ((((x03 a) * (x10 a)) * (x22 a)) * (x31 a))) - ((((x03 a) * (x11 a)) * (x22 a)) * (x30 a))) + ((((x03 a) * (x11 a)) * (x20 a)) * (x32 a))) - ((((x03 a) * (x12 a)) * (x20 a)) * (x31 a))) + ((((x03 a) * (x12 a)) * (x21 a)) * (x30 a))).
  Definition gcof (a : mat A) : mat A :=
    Mat
      ((((((((x12 a) * (x23 a)) * (x31 a)) - (((x13 a) * (x22 a)) * (x31 a))) + (((x13 a) * (x21 a)) * (x32 a))) - (((x11 a) * (x23 a)) * (x32 a))) - (((x12 a) * (x21 a)) * (x33 a))) + (((x11 a) * (x22 a)) * (x33 a)))
      ((((((((x03 a) * (x22 a)) * (x31 a)) - (((x02 a) * (x23 a)) * (x31 a))) - (((x03 a) * (x21 a)) * (x32 a))) + (((x01 a) * (x23 a)) * (x32 a))) + (((x02 a) * (x21 a)) * (x33 a))) - (((x01 a) * (x22 a)) * (x33 a)))
      ((((((((x02 a) * (x13 a)) * (x31 a)) - (((x03 a) * (x12 a)) * (x31 a))) + (((x03 a) * (x11 a)) * (x32 a))) - (((x01 a) * (x13 a)) * (x32 a))) - (((x02 a) * (x11 a)) * (x33 a))) + (((x01 a) * (x12 a)) * (x33 a)))
      ((((((((x03 a) * (x12 a)) * (x21 a)) - (((x02 a) * (x13 a)) * (x21 a))) - (((x03 a) * (x11 a)) * (x22 a))) + (((x01 a) * (x13 a)) * (x22 a))) + (((x02 a) * (x11 a)) * (x23 a))) - (((x01 a) * (x12 a)) * (x23 a)))
      ((((((((x13 a) * (x22 a)) * (x30 a)) - (((x12 a) * (x23 a)) * (x30 a))) - (((x13 a) * (x20 a)) * (x32 a))) + (((x10 a) * (x23 a)) * (x32 a))) + (((x12 a) * (x20 a)) * (x33 a))) - (((x10 a) * (x22 a)) * (x33 a)))
      ((((((((x02 a) * (x23 a)) * (x30 a)) - (((x03 a) * (x22 a)) * (x30 a))) + (((x03 a) * (x20 a)) * (x32 a))) - (((x00 a) * (x23 a)) * (x32 a))) - (((x02 a) * (x20 a)) * (x33 a))) + (((x00 a) * (x22 a)) * (x33 a)))
      ((((((((x03 a) * (x12 a)) * (x30 a)) - (((x02 a) * (x13 a)) * (x30 a))) - (((x03 a) * (x10 a)) * (x32 a))) + (((x00 a) * (x13 a)) * (x32 a))) + (((x02 a) * (x10 a)) * (x33 a))) - (((x00 a) * (x12 a)) * (x33 a)))
      ((((((((x02 a) * (x13 a)) * (x20 a)) - (((x03 a) * (x12 a)) * (x20 a))) + (((x03 a) * (x10 a)) * (x22 a))) - (((x00 a) * (x13 a)) * (x22 a))) - (((x02 a) * (x10 a)) * (x23 a))) + (((x00 a) * (x12 a)) * (x23 a)))
      ((((((((x11 a) * (x23 a)) * (x30 a)) - (((x13 a) * (x21 a)) * (x30 a))) + (((x13 a) * (x20 a)) * (x31 a))) - (((x10 a) * (x23 a)) * (x31 a))) - (((x11 a) * (x20 a)) * (x33 a))) + (((x10 a) * (x21 a)) * (x33 a)))
      ((((((((x03 a) * (x21 a)) * (x30 a)) - (((x01 a) * (x23 a)) * (x30 a))) - (((x03 a) * (x20 a)) * (x31 a))) + (((x00 a) * (x23 a)) * (x31 a))) + (((x01 a) * (x20 a)) * (x33 a))) - (((x00 a) * (x21 a)) * (x33 a)))
      ((((((((x01 a) * (x13 a)) * (x30 a)) - (((x03 a) * (x11 a)) * (x30 a))) + (((x03 a) * (x10 a)) * (x31 a))) - (((x00 a) * (x13 a)) * (x31 a))) - (((x01 a) * (x10 a)) * (x33 a))) + (((x00 a) * (x11 a)) * (x33 a)))
      ((((((((x03 a) * (x11 a)) * (x20 a)) - (((x01 a) * (x13 a)) * (x20 a))) - (((x03 a) * (x10 a)) * (x21 a))) + (((x00 a) * (x13 a)) * (x21 a))) + (((x01 a) * (x10 a)) * (x23 a))) - (((x00 a) * (x11 a)) * (x23 a)))
      ((((((((x12 a) * (x21 a)) * (x30 a)) - (((x11 a) * (x22 a)) * (x30 a))) - (((x12 a) * (x20 a)) * (x31 a))) + (((x10 a) * (x22 a)) * (x31 a))) + (((x11 a) * (x20 a)) * (x32 a))) - (((x10 a) * (x21 a)) * (x32 a)))
      ((((((((x01 a) * (x22 a)) * (x30 a)) - (((x02 a) * (x21 a)) * (x30 a))) + (((x02 a) * (x20 a)) * (x31 a))) - (((x00 a) * (x22 a)) * (x31 a))) - (((x01 a) * (x20 a)) * (x32 a))) + (((x00 a) * (x21 a)) * (x32 a)))
      ((((((((x02 a) * (x11 a)) * (x30 a)) - (((x01 a) * (x12 a)) * (x30 a))) - (((x02 a) * (x10 a)) * (x31 a))) + (((x00 a) * (x12 a)) * (x31 a))) + (((x01 a) * (x10 a)) * (x32 a))) - (((x00 a) * (x11 a)) * (x32 a)))
      ((((((((x01 a) * (x12 a)) * (x20 a)) - (((x02 a) * (x11 a)) * (x20 a))) + (((x02 a) * (x10 a)) * (x21 a))) - (((x00 a) * (x12 a)) * (x21 a))) - (((x01 a) * (x10 a)) * (x22 a))) + (((x00 a) * (x11 a)) * (x22 a))).
End Matrix.
Definition gmap {A B} (f : A -> B) (a : mat A) : mat B :=
  Mat (f (x00 a)) (f (x01 a)) (f (x02 a)) (f (x03 a)) (f (x10 a)) (f (x11 a)) (f (x12 a)) (f (x13 a)) (f (x20 a)) (f (x21 a)) (f (x22 a)) (f (x23 a)) (f (x30 a)) (f (x31 a)) (f (x32 a)) (f (x33 a)).
(** matrix.go:453-473 m44.Inverse in float64 *)
Definition fdet44 : mat spec_float -> spec_float := gdet fadd fsub fmul.
Definition finverse44 (a : mat spec_float) : mat spec_float := let d := fdiv f1 (fdet44 a) in gmap (fun c => fmul c d) (gcof fadd fsub fmul a).
Definition frows (a : mat spec_float) : fm44 :=
  FM44 (FRow (x00 a) (x01 a) (x02 a) (x03 a)) (FRow (x10 a) (x11 a) (x12 a) (x13 a)) (FRow (x20 a) (x21 a) (x22 a) (x23 a)).
(** matrix.go:109-115 Translate3D *)
Definition ftranslate3d (v : fv3) : mat spec_float :=
  Mat f1 fzero fzero (f3x v) fzero f1 fzero (f3y v) fzero fzero f1 (f3z v) fzero fzero fzero f1.
(** sdf3.go:353-370 Transform3D and Evaluate *)
Definition ftransform3d (F : fv3 -> spec_float) (m : mat spec_float) (p : fv3) : spec_float := ftransform F (frows (finverse44 m)) p.
(** gonum spatial/r3 Unit; sdf3.go:583-596 Cut3D and Evaluate *)
Definition funit3 (p : fv3) : fv3 :=
  if SFeqb (f3x p) fzero && SFeqb (f3y p) fzero && SFeqb (f3z p) fzero then FV3 S754_nan S754_nan S754_nan else fscale3 (fdiv f1 (gnrm3 p)) p.
Definition fcut3d (F : fv3 -> spec_float) (a n : fv3) : fv3 -> spec_float := fcut F a (fscale3 (SFopp f1) (funit3 n)).
(** sdf3.go:380-402 ScaleUniform3D and Evaluate *)
Definition fscale_uniform (F : fv3 -> spec_float) (k : spec_float) (p : fv3) : spec_float := fmul (F (fscale3 (fdiv f1 k) p)) k.
(** sdf3.go:613-647 Array3D, Evaluate (numbers of copies above zero); the conversion float64(j) *)
Definition fofZ (j : Z) : spec_float := binary_normalize 53 1024 j 0 false.
(** math.MaxFloat64 *)
Definition fmaxfloat : spec_float := fmax64.
Definition farray3 (F : fv3 -> spec_float) (n0 n1 n2 : nat) (step p : fv3) : spec_float :=
  fold_left (fun d j => fold_left (fun d k => fold_left (fun d l =>
    go_min d (F (fsub3 p (FV3 (fmul (fofZ (Z.of_nat j)) (f3x step)) (fmul (fofZ (Z.of_nat k)) (f3y step)) (fmul (fofZ (Z.of_nat l)) (f3z step))))))
    (seq 0 n2) d) (seq 0 n1) d) (seq 0 n0) fmaxfloat.
(** sdf3.go:91-106 revolution3.Evaluate for a full revolution (theta = 0) *)
Definition frevolve (F : fv2 -> spec_float) (p : fv3) : spec_float :=
  let a := F (FV2 (fsqrt (fadd (fmul (f3x p) (f3x p)) (fmul (f3y p) (f3y p)))) (f3z p)) in go_max a a.
