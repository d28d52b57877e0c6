(** Specification side of marching cubes: corners, edges and faces of a cell,
    grids, closed meshes. *)
From Coq Require Import List Permutation Arith ZArith Bool.
From Verif Require Import Prelude McTables McModel.
Import ListNotations.

(** Corner [i] of a unit cell (octree_renderer.go:189-196 lists the corners in
    this order). *)
Definition corner (i : nat) : Z * Z * Z :=
  match i with
  | 0 => (0, 0, 0)%Z | 1 => (1, 0, 0)%Z | 2 => (1, 1, 0)%Z | 3 => (0, 1, 0)%Z
  | 4 => (0, 0, 1)%Z | 5 => (1, 0, 1)%Z | 6 => (1, 1, 1)%Z | _ => (0, 1, 1)%Z
  end.

(** End points of cell edge [e]. *)
Definition edge_ends (e : nat) : nat * nat := nth e mcPairTable (0, 0).

(** The edge joins a corner below the iso value and one that is not. *)
Definition sign_change (neg : nat -> bool) (e : nat) : Prop :=
  let '(a, b) := edge_ends e in neg a <> neg b.

(** Directed edges of an oriented triangle and of a mesh. *)
Definition tri_dirs {V} (t : V * V * V) : list (V * V) :=
  let '(a, b, c) := t in [(a, b); (b, c); (c, a)].
Definition mesh_dirs {V} (m : list (V * V * V)) : list (V * V) := flat_map tri_dirs m.
Definition swap {V} (d : V * V) : V * V := (snd d, fst d).

(** A closed oriented surface: the directed edges are matched by their reverses,
    with multiplicity. *)
Definition closed {V} (m : list (V * V * V)) : Prop :=
  Permutation (mesh_dirs m) (map swap (mesh_dirs m)).

(** ** Grids *)
(** A grid edge: lower end point and axis (0, 1, 2). *)
Definition gpoint := (Z * Z * Z)%type.
Definition gedge := (gpoint * nat)%type.

Definition padd (a b : gpoint) : gpoint :=
  let '(x, y, z) := a in let '(u, v, w) := b in (x + u, y + v, z + w)%Z.
Definition pmin (a b : gpoint) : gpoint :=
  let '(x, y, z) := a in let '(u, v, w) := b in (Z.min x u, Z.min y v, Z.min z w).
(** Axis along which two adjacent points differ. *)
Definition paxis (a b : gpoint) : nat :=
  let '(x, y, _) := a in let '(u, v, _) := b in
  if Z.eqb x u then if Z.eqb y v then 2 else 1 else 0.

(** The grid edge that is edge [e] of the unit cell with lowest corner [c]. *)
Definition grid_edge (c : gpoint) (e : nat) : gedge :=
  let '(a, b) := edge_ends e in
  (padd c (pmin (corner a) (corner b)), paxis (corner a) (corner b)).

(** Triangles of the cell at [c] for a sign field [neg] on the grid points, with
    vertices named by grid edges. *)
Definition cell_neg (neg : gpoint -> bool) (c : gpoint) (i : nat) : bool :=
  neg (padd c (corner i)).
Definition cell_triangles (neg : gpoint -> bool) (c : gpoint) : list (gedge * gedge * gedge) :=
  map (fun '(x, y, z) => (grid_edge c x, grid_edge c y, grid_edge c z))
      (mc_edge_triangles (mc_index (cell_neg neg c))).

(** All cells of a grid of nx * ny * nz cells with lowest corner 0. *)
Definition grid_cells (nx ny nz : nat) : list gpoint :=
  flat_map (fun i => flat_map (fun j => map (fun k => (Z.of_nat i, Z.of_nat j, Z.of_nat k))
    (seq 0 nz)) (seq 0 ny)) (seq 0 nx).
Definition grid_mesh (neg : gpoint -> bool) (nx ny nz : nat) : list (gedge * gedge * gedge) :=
  flat_map (cell_triangles neg) (grid_cells nx ny nz).

(** The field is not negative on the boundary of the grid. *)
Definition boundary_nonneg (neg : gpoint -> bool) (nx ny nz : nat) : Prop :=
  forall x y z,
    (0 <= x <= Z.of_nat nx)%Z -> (0 <= y <= Z.of_nat ny)%Z -> (0 <= z <= Z.of_nat nz)%Z ->
    (x = 0 \/ x = Z.of_nat nx \/ y = 0 \/ y = Z.of_nat ny \/ z = 0 \/ z = Z.of_nat nz)%Z ->
    neg (x, y, z) = false.

(** ** Orientation of the patch boundary on a face *)
(** Corners of the six cell faces, counter-clockwise as seen from outside the
    cell: x=0, x=1, y=0, y=1, z=0, z=1. *)
Definition face_ccw (f : nat) : list nat :=
  match f with
  | 0 => [0; 4; 7; 3] | 1 => [1; 2; 6; 5]
  | 2 => [0; 1; 5; 4] | 3 => [3; 7; 6; 2]
  | 4 => [0; 3; 2; 1] | _ => [4; 5; 6; 7]
  end.
(** Cell edge joining two corners. *)
Definition edge_between (a b : nat) : nat :=
  match find (fun e => let '(x, y) := edge_ends e in
                (Nat.eqb x a && Nat.eqb y b) || (Nat.eqb x b && Nat.eqb y a)) (seq 0 12) with
  | Some e => e | None => 12 end.

(** Going around the face counter-clockwise, a boundary segment runs from the
    edge where the walk enters the negative corners to the edge where it leaves
    them: the negative corners are on its right.  [s] are the signs of the four
    corners; results are face edges, edge [i] joining corners [i] and [i+1]. *)
Definition face_rule (s : nat -> bool) : list (nat * nat) :=
  flat_map (fun i =>
    if negb (s ((i + 3) mod 4)) && s i then
      match find (fun l => negb (s ((i + l + 1) mod 4))) (seq 0 4) with
      | Some l => [((i + 3) mod 4, (i + l) mod 4)]
      | None => []
      end
    else []) (seq 0 4).
(** The rule on face [f] of a cell with corner signs [neg], as cell edges. *)
Definition face_segments (neg : nat -> bool) (f : nat) : list (nat * nat) :=
  let c := face_ccw f in
  let cor i := nth i c 0 in
  let ed i := edge_between (cor i) (cor ((i + 1) mod 4)) in
  map (fun '(a, b) => (ed a, ed b)) (face_rule (fun i => neg (cor i))).
Definition on_face (f e : nat) : bool :=
  let '(a, b) := edge_ends e in existsb (Nat.eqb a) (face_ccw f) && existsb (Nat.eqb b) (face_ccw f).
