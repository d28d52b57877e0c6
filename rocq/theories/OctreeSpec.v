(** Specification of what the octree renderer must deliver, independent of its
    work list, buffers and threads. *)
From Coq Require Import List Permutation Arith Bool ZArith.
From Verif Require Import Prelude OctreeModel.
Import ListNotations.

(** The octree cube of level [l] (side 2^l) that contains grid point [v]. *)
Definition ancestor (v : v3i) (l : nat) : cube :=
  let s := (2 ^ Z.of_nat l)%Z in
  Cube (V3I (vx v / s * s) (vy v / s * s) (vz v / s * s))%Z l.

(** A finest cell is kept if none of the cubes around it, from its own level up
    to the level below the root, is pruned. *)
Definition kept (E : env) (root : nat) (v : v3i) : bool :=
  forallb (fun l => negb (e_empty E (ancestor v l))) (seq 1 (root - 1)).

(** Even coordinates o, o+2, ..., [n] of them. *)
Definition evens (o : Z) (n : nat) : list Z := map (fun i => o + 2 * Z.of_nat i)%Z (seq 0 n).
(** All finest cells (side 2) of the cube of side 2n at [o]. *)
Definition cells (o : v3i) (n : nat) : list v3i :=
  flat_map (fun x => flat_map (fun y => map (fun z => V3I x y z) (evens (vz o) n))
                              (evens (vy o) n)) (evens (vx o) n).

(** The triangles of the model: marching cubes on every kept finest cell of the
    root cube (root level = levels - 1). *)
Definition surface_triangles (E : env) : list (tri E) :=
  let root := e_levels E - 1 in
  flat_map (e_leaf E) (filter (kept E root) (cells (V3I 0 0 0) (2 ^ (root - 1)))).

(** Marching cubes produces at most five triangles per cell, and the octree has
    a root of level at least 1. *)
Definition wf_env (E : env) : Prop :=
  (forall v, length (e_leaf E v) <= max_tris) /\ 2 <= e_levels E.

(** Renderer states that can be reached by calls of ReadTriangles (with any
    concurrency), together with all triangles delivered so far. *)
Inductive reachable (E : env) (conc : Z) : ostate E -> list (tri E) -> Prop :=
| reach_init : reachable E conc (init_octree E conc) []
| reach_call st ts dst sched st' dst' n eof :
    reachable E conc st ts ->
    read_triangles st dst sched = Returned st' dst' n eof ->
    reachable E conc st' (ts ++ firstn n dst').

(** The schedule gives each of the first [k] workers at least [m] turns. *)
Definition gives_turns (sched : list nat) (k m : nat) : Prop :=
  forall i, i < k -> m <= count_occ Nat.eq_dec sched i.
