(** Rendering in binary64: the distance cache's geometry, the pruning test, interpolation on a cell edge and the triangles of a finest cell, as float64 computations.
    Source: /repo/render/octree_renderer.go:39-68, 186-200, 243-288, /repo/internal/d3/box.go and /repo/render/marchingcubes.go:15-84.
    The coordinates and levels of cubes are integers as in [OctreeModel]; r3.Triangle.IsDegenerate of gonum is left abstract ([degen]), and math.Log2 is an argument ([lg]). *)
From Coq Require Import List Bool ZArith Floats.SpecFloat.
From Verif Require Import Prelude OctreeModel OctreeR McModel FloatRound FloatShapeModel.
Import ListNotations.

(** /repo/veci.go: V3i.ToV3, int to float64 conversions *)
Definition fto_v3 (v : v3i) : fv3 := FV3 (fofZ (vx v)) (fofZ (vy v)) (fofZ (vz v)).
(** gonum r3.Add *)
Definition fadd3 (a b : fv3) : fv3 := FV3 (fadd (f3x a) (f3x b)) (fadd (f3y a) (f3y b)) (fadd (f3z a) (f3z b)).
(** octree_renderer.go:243-245: position of an integer grid point *)
Definition fgrid_pos (o : fv3) (r : spec_float) (v : v3i) : fv3 := fadd3 o (fscale3 r (fto_v3 v)).
(** octree_renderer.go:281-285: hdiag[i] = 0.5 * math.Sqrt(3.0*s*s) with s = float64(1<<i) * resolution *)
Definition fthree : spec_float := S754_finite false 6755399441055744 (-51).
Definition fhdiag (r : spec_float) (i : nat) : spec_float :=
  let s := fmul (fofZ (2 ^ Z.of_nat i)) r in fmul fhalf (fsqrt (fmul (fmul fthree s) s)).
(** octree_renderer.go:257-265: IsEmpty *)
Definition fis_empty (F : fv3 -> spec_float) (o : fv3) (r : spec_float) (c : cube) : bool :=
  SFleb (fhdiag r (c_lev c)) (SFabs (F (fgrid_pos o r (cube_center c)))).
(** marchingcubes.go:10: the float64 nearest to 1e-12 *)
Definition fmc_epsilon : spec_float := S754_finite false 4951760157141521 (-92).
(** marchingcubes.go:77-82: one coordinate *)
Definition fmix (t a b : spec_float) : spec_float := fadd a (fmul t (fsub b a)).
(** marchingcubes.go:58-84: mcInterpolate *)
Definition fmc_interpolate (x : spec_float) (p1 p2 : fv3) (v1 v2 : spec_float) : fv3 :=
  let close1 := SFltb (SFabs (fsub x v1)) fmc_epsilon in
  let close2 := SFltb (SFabs (fsub x v2)) fmc_epsilon in
  if close1 && negb close2 then p1
  else if close2 && negb close1 then p2
  else
    let t := if close1 && close2 then fhalf else fdiv (fsub x v1) (fsub v2 v1) in
    FV3 (fmix t (f3x p1) (f3x p2)) (fmix t (f3y p1) (f3y p2)) (fmix t (f3z p1) (f3z p2)).
(** marchingcubes.go:15-55: mcToTriangles *)
Definition fmc_triangles (degen : fv3 * fv3 * fv3 -> bool) (p : nat -> fv3) (v : nat -> spec_float) (x : spec_float) : list (fv3 * fv3 * fv3) :=
  mc_to_triangles (FV3 fzero fzero fzero) (fmc_interpolate x) (fun d => SFltb d x) degen p v.
(** octree_renderer.go:187-200: the leaf branch of processCube *)
Definition fleaf (degen : fv3 * fv3 * fv3 -> bool) (F : fv3 -> spec_float) (o : fv3) (r : spec_float) (v : v3i) : list (fv3 * fv3 * fv3) :=
  fmc_triangles degen (fun i => fgrid_pos o r (leaf_corner v i)) (fun i => F (fgrid_pos o r (leaf_corner v i))) fzero.
(** The environment the renderer of [OctreeModel] runs in. *)
Definition foctree_env (degen : fv3 * fv3 * fv3 -> bool) (F : fv3 -> spec_float) (o : fv3) (r : spec_float) (levels : nat) : env :=
  Env (fv3 * fv3 * fv3) (FV3 fzero fzero fzero, FV3 fzero fzero fzero, FV3 fzero fzero fzero) (fleaf degen F o r) (fis_empty F o r) levels.

(** ** NewOctreeRenderer *)
(** /repo/internal/d3/box.go:54-57, 60-63, 14-17, 65-67: Size, Center, NewBox, ScaleAboutCenter of a box given by its corners *)
Definition fsize3 (b : fv3 * fv3) : fv3 := fsub3 (snd b) (fst b).
Definition fcenter3 (b : fv3 * fv3) : fv3 := fadd3 (fst b) (fscale3 fhalf (fsize3 b)).
Definition fnew_box (c s : fv3) : fv3 * fv3 := let h := fscale3 fhalf s in (fsub3 c h, fadd3 c h).
Definition fscale_about_center (b : fv3 * fv3) (k : spec_float) : fv3 * fv3 := fnew_box (fcenter3 b) (fscale3 k (fsize3 b)).
(** the float64 nearest to 1.01 *)
Definition f101 : spec_float := S754_finite false 4548635623644201 (-52).
(** uint(math.Ceil(x)) for finite x *)
Definition fceil (x : spec_float) : Z :=
  match x with
  | S754_finite s m e => let z := if s then Zneg m else Zpos m in if (0 <=? e)%Z then (z * 2 ^ e)%Z else (- ((- z) / 2 ^ (- e)))%Z
  | _ => 0%Z
  end.
(** octree_renderer.go:39-68: NewOctreeRenderer; origin, resolution and number of levels. The capacity of the cube slice is not modelled. *)
Definition fnew_octree (lg : spec_float -> spec_float) (bounds : fv3 * fv3) (meshCells : Z) : res (fv3 * spec_float * nat) :=
  if (meshCells <? 2)%Z then Panicked
  else
    let bb := fscale_about_center bounds f101 in
    let longAxis := fmaxc3 (fsize3 bb) in
    let resolution := fdiv (fmul fhalf (fmaxc3 (fsize3 bb))) (fofZ meshCells) in
    let levels := Z.to_nat (fceil (lg (fdiv longAxis resolution)) + 1) in
    if (64 <=? levels)%nat then Panicked else Ok (fst bb, resolution, levels).
