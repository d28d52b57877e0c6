(** helpers/sdfexp/bccmesh.go:239-259 naiveTetras, the mesher that [tetras] replaced: twelve tetrahedra from the
    centre of a cell to the halves of its faces.  [nod] is node.bccnod; the labels i000, ix00, ixy0, i0y0, i00z, ix0z,
    ixyz, i0yz, ictr are 0 to 8 (25-37). *)
From Coq Require Import List.
Import ListNotations.

Definition naive_tetras {A} (nod : nat -> A) : list (A * A * A * A) :=
  let t a b c := (nod a, nod b, nod c, nod 8) in
  [t 0 7 3; t 0 4 7; t 1 2 6; t 1 6 5;
   t 0 5 4; t 0 1 5; t 3 7 6; t 3 6 2;
   t 0 2 1; t 0 3 2; t 4 5 6; t 4 6 7].
