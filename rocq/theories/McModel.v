(** Model of marching cubes on one cell.
    Source: /repo/render/marchingcubes.go:15-84. *)
From Coq Require Import List Arith NArith Bool.
From Verif Require Import Prelude McTables.
Import ListNotations.

(** marchingcubes.go:19-25: the pattern index; bit [i] is set when corner [i]
    is below the iso value ([neg i]).  [index |= 1<<i] on a clear bit is
    addition. *)
Definition mc_index (neg : nat -> bool) : nat :=
  fold_left (fun acc i => if neg i then acc + 2 ^ i else acc) (seq 0 8) 0.

(** marchingcubes.go:34: mcEdgeTable[index] & (1<<i) != 0 *)
Definition mc_edge_used (idx i : nat) : bool :=
  N.testbit (nth idx mcEdgeTable 0%N) (N.of_nat i).

(** marchingcubes.go:41-48: the triangles as triples of edge numbers, with the
    reversed order (table[i*3+2], table[i*3+1], table[i*3+0]). *)
Definition mc_edge_triangles (idx : nat) : list (nat * nat * nat) :=
  let table := nth idx mcTriangleTable [] in
  map (fun i => (nth (i * 3 + 2) table 0, nth (i * 3 + 1) table 0, nth (i * 3) table 0))
      (seq 0 (length table / 3)).

(** marchingcubes.go:31-39: the point on edge [i]; Go's zero Vec if the edge is
    not used.  [interp] is mcInterpolate with the iso value. *)
Definition mc_point {P V} (zero : P) (interp : P -> P -> V -> V -> P)
  (idx : nat) (p : nat -> P) (v : nat -> V) (i : nat) : P :=
  if mc_edge_used idx i then
    let '(a, b) := nth i mcPairTable (0, 0) in interp (p a) (p b) (v a) (v b)
  else zero.

(** marchingcubes.go:15-55: mcToTriangles, returning the triangles written to
    dst.  [below] is the test v[i] < x; [degen] is r3.Triangle.IsDegenerate(1e-12)
    of gonum, left abstract. *)
Definition mc_to_triangles {P V} (zero : P) (interp : P -> P -> V -> V -> P)
  (below : V -> bool) (degen : P * P * P -> bool)
  (p : nat -> P) (v : nat -> V) : list (P * P * P) :=
  let idx := mc_index (fun i => below (v i)) in
  if N.eqb (nth idx mcEdgeTable 0%N) 0 then []
  else
    let pt := mc_point zero interp idx p v in
    filter (fun t => negb (degen t))
      (map (fun '(a, b, c) => (pt a, pt b, pt c)) (mc_edge_triangles idx)).
