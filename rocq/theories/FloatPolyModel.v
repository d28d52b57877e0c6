(** Polygons in IEEE-754 binary64 arithmetic, /repo/form2/must2/poly.go, operation by operation. *)
From Coq Require Import List Bool ZArith Floats.SpecFloat.
From Verif Require Import Prelude FloatBoolModel FloatRound FloatShapeModel FloatBoundsModel.
Import ListNotations.

(** form2/must2/util.go:7: the constant 1e-9 as a float64 *)
Definition ftolerance : spec_float := S754_finite false 4835703278458517 (-82).
(** internal/d2/vector.go:16-18 EqualWithin *)
Definition fequal_within2 (a b : fv2) (tol : spec_float) : bool :=
  SFleb (SFabs (fsub (f2x a) (f2x b))) tol && SFleb (SFabs (fsub (f2y a) (f2y b))) tol.
(** internal/d2/vector.go:29-36 MinElem, MaxElem *)
Definition fmin_elem2 (a b : fv2) : fv2 := FV2 (go_min (f2x a) (f2x b)) (go_min (f2y a) (f2y b)).
Definition fmax_elem2 (a b : fv2) : fv2 := FV2 (go_max (f2x a) (f2x b)) (go_max (f2y a) (f2y b)).
(** gonum spatial/r2 Dot, Norm2 (the dot product of the vector with itself) and Unit (NaN for the zero vector, Scale(1/Norm(p), p) otherwise) *)
Definition fdot2 (a b : fv2) : spec_float := fadd (fmul (f2x a) (f2x b)) (fmul (f2y a) (f2y b)).
Definition funit2 (v : fv2) : fv2 :=
  if SFeqb (f2x v) fzero && SFeqb (f2y v) fzero then FV2 S754_nan S754_nan else fscale2 (fdiv f1 (gnrm2 v)) v.
(** the pairs (vertex[i], vertex[i+1]) that the loops visit *)
Definition fpoly_edges (l : list fv2) : list (fv2 * fv2) := combine l (tl l).
(** poly.go:29-33: close the loop if necessary *)
Definition fclose_loop (a : fv2) (l : list fv2) : list fv2 :=
  if fequal_within2 a (last l a) ftolerance then l else l ++ [a].
(** poly.go:66-100, the body of the loop of Evaluate; the state is (dd, wn, pb).  The unit vector and the length that Polygon stores
    for the segment (45-47) are computed here from the same numbers. *)
Definition fpoly_step (p : fv2) (st : spec_float * Z * fv2) (e : fv2 * fv2) : spec_float * Z * fv2 :=
  let '(dd, wn, pa) := st in
  let '(a, b) := e in
  let l := fsub2 b a in
  let len := gnrm2 l in
  let vec := funit2 l in
  let pb := fsub2 p b in
  let t := fdot2 pa vec in
  let dn := fdot2 pa (FV2 (f2y vec) (SFopp (f2x vec))) in
  let dd := if SFltb t fzero then go_min dd (fdot2 pa pa) else if fgt t len then go_min dd (fdot2 pb pb) else go_min dd (fmul dn dn) in
  let wn := if SFleb (f2y a) (f2y p)
            then if fgt (f2y b) (f2y p) then if SFltb dn fzero then (wn + 1)%Z else wn else wn
            else if SFleb (f2y b) (f2y p) then if fgt dn fzero then (wn - 1)%Z else wn else wn in
  (dd, wn, pb).
(** poly.go:56-107 Evaluate *)
Definition fpoly_eval (l : list fv2) (p : fv2) : spec_float :=
  let '(dd, wn, _) := fold_left (fpoly_step p) (fpoly_edges l) (fmax64, 0%Z, fsub2 p (hd (FV2 fzero fzero) l)) in
  let d := fsqrt dd in
  if (wn =? 0)%Z then d else SFopp d.
(** poly.go:39-52 Bounds *)
Definition fpoly_box (l : list fv2) : fbox2d :=
  let c := hd (FV2 fzero fzero) l in
  (fold_left fmin_elem2 (map fst (fpoly_edges l)) c, fold_left fmax_elem2 (map fst (fpoly_edges l)) c).
(** poly.go:21-54 Polygon, for at least three vertices: Evaluate and Bounds of the result *)
Definition fpolygon (vs : list fv2) (p : fv2) : spec_float := fpoly_eval (fclose_loop (hd (FV2 fzero fzero) vs) vs) p.
Definition fbounds_polygon (vs : list fv2) : fbox2d := fpoly_box (fclose_loop (hd (FV2 fzero fzero) vs) vs).
