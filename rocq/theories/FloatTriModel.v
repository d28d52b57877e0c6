(** The closest point of a triangle in binary64 (helpers/sdfexp/bih.go, minDistTri), round to nearest even, no fused
    multiply-add. *)
From Coq Require Import Reals List ZArith Bool Floats.SpecFloat.
From Verif Require Import Prelude Vec FloatRound FloatShapeModel FloatRenderModel BihModel.
Import ListNotations.

(** bih.go:111-194, the parameters of the closest point; [ftri_param_first] is the branch 0 <= f00 *)
Definition ftri_param (a00 a01 a11 b0 b1 : spec_float) : spec_float * spec_float :=
  let f00 := b0 in
  let f10 := fadd b0 a00 in
  let f01 := fadd b0 a01 in
  if SFleb f0 f00 then ftri_param_first a00 a01 a11 b0 b1
  else if SFleb f01 f0 then
    if SFleb f10 f0 then fmin_edge12 a01 a11 b1 f10 f01
    else
      let p0 := (fdiv f00 (fsub f00 f10), f0) in
      let p10 := fdiv f01 (fsub f01 f10) in
      let p1 := (p10, fsub f1 p10) in
      let h0 := fmul (snd p1) (fadd (fmul a01 (fst p0)) b1) in
      if SFleb f0 h0 then p0
      else
        let h1 := fmul (snd p1) (fadd (fadd (fmul a01 (fst p1)) (fmul a11 (snd p1))) b1) in
        if SFleb h1 f0 then fmin_edge12 a01 a11 b1 f10 f01
        else fmin_interior p0 h0 p1 h1
  else if SFleb f10 f0 then
    let p0 := (f0, fdiv f00 (fsub f00 f01)) in
    let p10 := fdiv f01 (fsub f01 f10) in
    let p1 := (p10, fsub f1 p10) in
    let dt1 := fsub (snd p1) (snd p0) in
    let h0 := fmul dt1 (fadd (fmul a11 (snd p0)) b1) in
    if SFleb f0 h0 then fmin_edge02 a11 b1
    else
      let h1 := fmul dt1 (fadd (fadd (fmul a01 (fst p1)) (fmul a11 (snd p1))) b1) in
      if SFleb h1 f0 then fmin_edge12 a01 a11 b1 f10 f01
      else fmin_interior p0 h0 p1 h1
  else
    let p0 := (fdiv f00 (fsub f00 f10), f0) in
    let p1 := (f0, fdiv f00 (fsub f00 f01)) in
    let h0 := fmul (snd p1) (fadd (fmul a01 (fst p0)) b1) in
    if SFleb f0 h0 then p0
    else
      let h1 := fmul (snd p1) (fadd (fmul a11 (snd p1)) b1) in
      if SFleb h1 f0 then fmin_edge02 a11 b1
      else fmin_interior p0 h0 p1 h1.
(** bih.go:96-202 minDistTri: the vector from the closest point to the target *)
Definition fmin_dist_tri (target a b c : fv3) : fv3 :=
  let diff := fsub3 target a in
  let edge0 := fsub3 b a in
  let edge1 := fsub3 c a in
  let p := ftri_param (fdot3 edge0 edge0) (fdot3 edge0 edge1) (fdot3 edge1 edge1) (SFopp (fdot3 diff edge0)) (SFopp (fdot3 diff edge1)) in
  fsub3 target (fadd3 a (fadd3 (fscale3 (fst p) edge0) (fscale3 (snd p) edge1))).
