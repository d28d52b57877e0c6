(** mcInterpolate (/repo/render/marchingcubes.go:58-84) over R and over binary64,
    and mcToTriangles over R. *)
From Coq Require Import Reals List Bool ZArith Floats.SpecFloat.
From Verif Require Import Vec McTables McModel.
Import ListNotations.
Local Open Scope R_scope.

(** marchingcubes.go:10: marchingCubesEpsilon = 1e-12 *)
Definition mc_epsilon : R := / 1000000000000.

(** marchingcubes.go:58-84: mcInterpolate *)
Definition mc_interpolate (x : R) (p1 p2 : v3) (v1 v2 : R) : v3 :=
  let close1 := Rltb (Rabs (x - v1)) mc_epsilon in
  let close2 := Rltb (Rabs (x - v2)) mc_epsilon in
  if close1 && negb close2 then p1
  else if close2 && negb close1 then p2
  else
    let t := if close1 && close2 then 1 / 2 else (x - v1) / (v2 - v1) in
    V3 (x3 p1 + t * (x3 p2 - x3 p1)) (y3 p1 + t * (y3 p2 - y3 p1)) (z3 p1 + t * (z3 p2 - z3 p1)).

(** marchingcubes.go:15-55: mcToTriangles over R with iso value [x]. *)
Definition mc_triangles (degen : v3 * v3 * v3 -> bool) (p : nat -> v3) (v : nat -> R) (x : R)
  : list (v3 * v3 * v3) :=
  mc_to_triangles zero3 (mc_interpolate x) (fun d => Rltb d x) degen p v.

(** One coordinate of mcInterpolate in binary64 (Coq's SpecFloat operations, 53
    bits, emax 1024, round to nearest even), on the branch taken when neither
    value is within 1e-12 of the iso value: marchingcubes.go:77-82. *)
Definition fadd := SFadd 53 1024.
Definition fsub := SFsub 53 1024.
Definition fmul := SFmul 53 1024.
Definition fdiv := SFdiv 53 1024.
Definition mc_interpolate_f (x p1 p2 v1 v2 : spec_float) : spec_float :=
  let t := fdiv (fsub x v1) (fsub v2 v1) in
  fadd p1 (fmul t (fsub p2 p1)).
