(** Bounds of the basic shapes and operations in IEEE-754 binary64 arithmetic, operation by operation as the Go code
    performs them.  A box is the pair of its corners Min and Max.  As in FloatShapeModel, [x / 2] is modelled as [0.5 * x]. *)
From Coq Require Import List Bool ZArith Floats.SpecFloat Reals.
From Verif Require Import Prelude Vec FloatBoolModel FloatRound FloatShapeModel FloatRenderModel.
Import ListNotations.

Definition fbox3d : Type := fv3 * fv3.
Definition fbox2d : Type := fv2 * fv2.
Definition f2 : spec_float := S754_finite false 4503599627370496 (-51).
Definition fm1 : spec_float := SFopp f1.
(** internal/d3/vector.go:37-44 MinElem, MaxElem, 78-84 MulElem; internal/d2/vector.go *)
Definition fmin_elem3 (a b : fv3) : fv3 := FV3 (go_min (f3x a) (f3x b)) (go_min (f3y a) (f3y b)) (go_min (f3z a) (f3z b)).
Definition fmax_elem3 (a b : fv3) : fv3 := FV3 (go_max (f3x a) (f3x b)) (go_max (f3y a) (f3y b)) (go_max (f3z a) (f3z b)).
Definition fmul_elem3 (a b : fv3) : fv3 := FV3 (fmul (f3x a) (f3x b)) (fmul (f3y a) (f3y b)) (fmul (f3z a) (f3z b)).
Definition fmin_elem2 (a b : fv2) : fv2 := FV2 (go_min (f2x a) (f2x b)) (go_min (f2y a) (f2y b)).
Definition fmax_elem2 (a b : fv2) : fv2 := FV2 (go_max (f2x a) (f2x b)) (go_max (f2y a) (f2y b)).
Definition fadd2 (a b : fv2) : fv2 := FV2 (fadd (f2x a) (f2x b)) (fadd (f2y a) (f2y b)).
(** internal/d3/box.go:33-38 Extend, 49-51 Translate, 70-76 Enlarge *)
Definition fextend3 (a b : fbox3d) : fbox3d := (fmin_elem3 (fst a) (fst b), fmax_elem3 (snd a) (snd b)).
Definition ftranslate_box3 (a : fbox3d) (v : fv3) : fbox3d := (fadd3 (fst a) v, fadd3 (snd a) v).
Definition fenlarge3 (a : fbox3d) (v : fv3) : fbox3d := let v := fscale3 fhalf v in (fsub3 (fst a) v, fadd3 (snd a) v).
(** internal/d2/box.go:14-17 NewBox2, 43-51 Size, Center *)
Definition fsize2 (b : fbox2d) : fv2 := fsub2 (snd b) (fst b).
Definition fcenter2 (b : fbox2d) : fv2 := fadd2 (fst b) (fscale2 fhalf (fsize2 b)).
Definition fnew_box2 (c s : fv2) : fbox2d := let h := fscale2 fhalf s in (fsub2 c h, fadd2 c h).
(** matrix.go:386-404 m44.MulBox *)
Definition fmul_box3 (a : mat spec_float) (box : fbox3d) : fbox3d :=
  let r := FV3 (x00 a) (x10 a) (x20 a) in
  let u := FV3 (x01 a) (x11 a) (x21 a) in
  let b := FV3 (x02 a) (x12 a) (x22 a) in
  let t := FV3 (x03 a) (x13 a) (x23 a) in
  let xa := fscale3 (f3x (fst box)) r in
  let xb := fscale3 (f3x (snd box)) r in
  let ya := fscale3 (f3y (fst box)) u in
  let yb := fscale3 (f3y (snd box)) u in
  let za := fscale3 (f3z (fst box)) b in
  let zb := fscale3 (f3z (snd box)) b in
  (fadd3 (fmin_elem3 xa xb) (fadd3 (fmin_elem3 ya yb) (fadd3 (fmin_elem3 za zb) t)),
   fadd3 (fmax_elem3 xa xb) (fadd3 (fmax_elem3 ya yb) (fadd3 (fmax_elem3 za zb) t))).
(** matrix.go:127-133 Scale3D *)
Definition fscale3d (v : fv3) : mat spec_float :=
  Mat (f3x v) fzero fzero fzero fzero (f3y v) fzero fzero fzero fzero (f3z v) fzero fzero fzero fzero f1.

(** form2/must2/basic.go:17-26 Circle, 48-55 Box *)
Definition fbounds_circle (radius : spec_float) : fbox2d := let d := FV2 radius radius in (fscale2 fm1 d, d).
Definition fbounds_box2 (size : fv2) : fbox2d := let size := fscale2 fhalf size in (fscale2 fm1 size, size).
(** form3/must3/cylinders.go:58-68 Sphere, 21-36 Box, 89-109 Cylinder *)
Definition fbounds_sphere (radius : spec_float) : fbox3d := let d := FV3 radius radius radius in (fscale3 fm1 d, d).
Definition fbounds_box3 (size : fv3) : fbox3d := let size := fscale3 fhalf size in (fscale3 fm1 size, size).
Definition fbounds_cylinder (height radius : spec_float) : fbox3d := let d := FV3 radius radius (fmul fhalf height) in (fscale3 fm1 d, d).
(** sdf2.go:596-604 Offset2D, sdf3.go:809-818 Offset3D, 838-848 Shell3D *)
Definition fbounds_offset2 (bb : fbox2d) (offset : spec_float) : fbox2d :=
  let o := fmul f2 offset in fnew_box2 (fcenter2 bb) (fadd2 (fsize2 bb) (FV2 o o)).
Definition fbounds_offset3 (bb : fbox3d) (offset : spec_float) : fbox3d :=
  let o := fmul f2 offset in fnew_box (fcenter3 bb) (fadd3 (fsize3 bb) (FV3 o o o)).
Definition fbounds_shell (bb : fbox3d) (thickness : spec_float) : fbox3d := fenlarge3 bb (FV3 thickness thickness thickness).
(** sdf3.go:122-131 Extrude3D *)
Definition fbounds_extrude (bb : fbox2d) (height : spec_float) : fbox3d :=
  let h := fmul fhalf height in
  (FV3 (f2x (fst bb)) (f2y (fst bb)) (SFopp h), FV3 (f2x (snd bb)) (f2y (snd bb)) h).
(** sdf3.go:48-88 Revolve3D, a full revolution *)
Definition fbounds_revolve (bb : fbox2d) : fbox3d :=
  let vmin := fmin_elem2 (FV2 f1 f1) (FV2 fm1 fm1) in
  let vmax := fmax_elem2 (FV2 f1 f1) (FV2 fm1 fm1) in
  let l := go_max (SFabs (f2x (fst bb))) (SFabs (f2x (snd bb))) in
  let vmin := fscale2 l vmin in
  let vmax := fscale2 l vmax in
  (FV3 (f2x vmin) (f2y vmin) (f2y (fst bb)), FV3 (f2x vmax) (f2y vmax) (f2y (snd bb))).
(** sdf3.go:508-522 Elongate3D, 387-395 ScaleUniform3D, 613-628 Array3D (veci.go:19-21 SubScalar, 34-36 ToV3) *)
Definition fbounds_elongate (bb : fbox3d) (h : fv3) : fbox3d :=
  let h := fabs3 h in
  fextend3 (ftranslate_box3 bb (fscale3 fhalf h)) (ftranslate_box3 bb (fscale3 (SFopp fhalf) h)).
Definition fbounds_scale (bb : fbox3d) (k : spec_float) : fbox3d := fmul_box3 (fscale3d (FV3 k k k)) bb.
Definition fbounds_array (bb : fbox3d) (n0 n1 n2 : nat) (step : fv3) : fbox3d :=
  let num := FV3 (fofZ (Z.of_nat n0 - 1)) (fofZ (Z.of_nat n1 - 1)) (fofZ (Z.of_nat n2 - 1)) in
  fextend3 bb (ftranslate_box3 bb (fmul_elem3 step num)).
