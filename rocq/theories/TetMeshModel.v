(** helpers/sdfexp/basicmesh.go: UniformTetrahedronMesh.  The SDF is given by its Evaluate and its Bounds; [nan_out]
    tells whether Evaluate is positive at NaN positions, and None is a position whose coordinates are NaN. *)
From Coq Require Import Reals List Bool Arith ZArith.
From Verif Require Import Prelude Vec SdfModel BoxModel OctreeR OmeshModel BccModel.
Import ListNotations.
Local Open Scope R_scope.

Definition tet_nat (t : Z * Z * Z * Z) : tetra := let '(a, b, c, d) := t in (Z.to_nat a, Z.to_nat b, Z.to_nat c, Z.to_nat d).
(** basicmesh.go:16-19: the test for one tetrahedron; indexing nodes outside its range panics. *)
Definition keep_tet (ev : v3 -> R) (nodes : list v3) (t : tetra) : res bool :=
  let '(a, b, c, d) := t in
  match nth_error nodes a, nth_error nodes b, nth_error nodes c, nth_error nodes d with
  | Some p, Some q, Some u, Some v => Ok (Rltb (ev p) 0 || Rltb (ev q) 0 || Rltb (ev u) 0 || Rltb (ev v) 0)
  | _, _, _, _ => Panicked
  end.
(** basicmesh.go:14-21 *)
Definition keep_tets (ev : v3 -> R) (nodes : list v3) (ts : list tetra) : res (list tetra) :=
  foldM (fun acc t => do k <- keep_tet ev nodes t; Ok (if k then acc ++ [t] else acc)) [] ts.
(** basicmesh.go:12-30 UniformTetrahedronMesh *)
Definition uniform_tet_mesh (ev : v3 -> R) (bb : box3) (nan_out : bool) (r : R) : res (list (option v3) * list tetra) :=
  do d <- make_bcc bb r;
  do s <- mesh_tetra_bcc d (min3 bb) r;
  do ts <- keep_tets ev (b_nodes s) (map tet_nat (b_tets s));
  do ons <- new_omesh (b_nodes s) ts;
  do ps <- foldM (fun ps iter => compress_and_smooth (map on_conn ons) (INR iter / 6) ev nan_out ps) (map (fun on => Some (on_pos on)) ons) [1; 2; 3; 4; 5; 6]%nat;
  Ok (ps, ts).
