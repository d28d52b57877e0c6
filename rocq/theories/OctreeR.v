(** NewOctreeRenderer and the distance cache's geometry over R: the sampled
    model as an environment for [OctreeModel].
    Source: /repo/render/octree_renderer.go:39-68, 186-200, 243-288. *)
From Coq Require Import Reals List Bool ZArith.
From Verif Require Import Prelude OctreeModel OctreeSpec McModel McSpec Vec BoxModel McRealModel.
Import ListNotations.
Local Open Scope R_scope.

(** /repo/veci.go: V3i.ToV3 *)
Definition to_v3 (v : v3i) : v3 := V3 (IZR (vx v)) (IZR (vy v)) (IZR (vz v)).

(** octree_renderer.go:243-245: position of an integer grid point. *)
Definition grid_pos (origin : v3) (resolution : R) (v : v3i) : v3 :=
  add3 origin (scale3 resolution (to_v3 v)).

(** octree_renderer.go:281-285: hdiag[i]; s = (1<<i) * resolution. *)
Definition hdiag (resolution : R) (i : nat) : R :=
  let s := 2 ^ i * resolution in (1/2) * sqrt (3 * s * s).

(** octree_renderer.go:259-265: IsEmpty; the centre is at + (1 << (n-1)). *)
Definition cube_center (c : cube) : v3i :=
  let h := (2 ^ Z.of_nat (c_lev c - 1))%Z in v3i_add (c_org c) (V3I h h h).
Definition is_empty (f : v3 -> R) (origin : v3) (resolution : R) (c : cube) : bool :=
  Rleb (hdiag resolution (c_lev c)) (Rabs (f (grid_pos origin resolution (cube_center c)))).

(** octree_renderer.go:189-196: the corners of a leaf cube. *)
Definition leaf_corner (v : v3i) (i : nat) : v3i :=
  let '(a, b, c) := corner i in v3i_add v (V3I (2 * a) (2 * b) (2 * c)).

(** octree_renderer.go:187-200: the leaf branch of processCube. *)
Definition leaf (degen : v3 * v3 * v3 -> bool) (f : v3 -> R) (origin : v3) (resolution : R) (v : v3i)
  : list (v3 * v3 * v3) :=
  mc_triangles degen (fun i => grid_pos origin resolution (leaf_corner v i))
    (fun i => f (grid_pos origin resolution (leaf_corner v i))) 0.

(** math.Log2 and math.Ceil (Go converts the result to uint). *)
Definition log2R (x : R) : R := ln x / ln 2.
Definition ceilR (x : R) : Z := (- Int_part (- x))%Z.

(** octree_renderer.go:39-68: NewOctreeRenderer; the octree's depth, origin and
    resolution.  Panics for meshCells < 2 and (newDc3, line 268) for 64 or more
    levels. *)
Record octree_params := OParams { o_origin : v3; o_res : R; o_levels : nat }.
Definition new_octree (bounds : box3) (meshCells : Z) : res octree_params :=
  if (meshCells <? 2)%Z then Panicked
  else
    let bb := scale_about_center3 bounds (101/100) in
    let longAxis := vmax3 (size3 bb) in
    let resolution := (1/2) * vmax3 (size3 bb) / IZR meshCells in
    let levels := Z.to_nat (ceilR (log2R (longAxis / resolution)) + 1) in
    if (64 <=? levels)%nat then Panicked
    else Ok (OParams (min3 bb) resolution levels).

(** The environment the renderer runs in. *)
Definition octree_env (degen : v3 * v3 * v3 -> bool) (f : v3 -> R) (o : octree_params) : env :=
  Env (v3 * v3 * v3) (zero3, zero3, zero3) (leaf degen f (o_origin o) (o_res o))
      (is_empty f (o_origin o) (o_res o)) (o_levels o).
