(** helpers/sdfexp/bccmesh.go: the body-centred cubic lattice mesher.  int is read as Z.  A pointer into
    bccMatrix.nodes is the flat index of the element; the field bccnod of all elements is a function from flat
    index and label to number, updated at the visited element.  The neighbour pointers xm, xp, ... set by
    setLevel0 (186-217) are recomputed from the coordinates: once makeBCCMesh has called setLevel0 for every
    cell, xm of cell (i,j,k) is at(i-1,j,k) and so on, and exists() holds for each non-nil one, since [m] is set. *)
From Coq Require Import Reals List Bool Arith ZArith.
From Verif Require Import Prelude Vec BoxModel OctreeR OmeshModel.
Import ListNotations.
Local Open Scope Z_scope.

Definition cell := (Z * Z * Z)%type.
(** bccmesh.go:219-224 at: nil outside the grid *)
Definition bcc_at (d : Z * Z * Z) (i j k : Z) : option Z :=
  let '(dx, dy, dz) := d in
  if (i <? 0) || (j <? 0) || (k <? 0) || (dx <=? i) || (dy <=? j) || (dz <=? k) then None
  else Some (i * dy * dz + j * dz + k).
(** bccmesh.go:25-37: the labels i000, ix00, ixy0, i0y0, i00z, ix0z, ixyz, i0yz, ictr are 0 to 8. *)
Definition bnum := Z -> nat -> Z.
(** bccmesh.go:55-63 nodeAt (the label is always valid here) *)
Definition node_at (num : bnum) (p : option Z) (idx : nat) : Z := match p with None => -1 | Some f => num f idx end.
(** bccmesh.go:65-113 neighborNode *)
Definition neighbor_node (d : Z * Z * Z) (num : bnum) (c : cell) (idx : nat) : res Z :=
  let '(i, j, k) := c in
  let xm := node_at num (bcc_at d (i - 1) j k) in
  let xp := node_at num (bcc_at d (i + 1) j k) in
  let ym := node_at num (bcc_at d i (j - 1) k) in
  let yp := node_at num (bcc_at d i (j + 1) k) in
  let zm := node_at num (bcc_at d i j (k - 1)) in
  let zp := node_at num (bcc_at d i j (k + 1)) in
  let go '(nx, ny, nz) :=
    if ((0 <=? nx) && (0 <=? ny) && negb (nx =? ny)) || ((0 <=? nx) && (0 <=? nz) && negb (nx =? nz)) || ((0 <=? nz) && (0 <=? ny) && negb (nz =? ny))
    then Panicked else Ok (Z.max nx (Z.max ny nz)) in
  match idx with
  | 0%nat => go (xm 1%nat, ym 3%nat, zm 4%nat)
  | 1%nat => go (xp 0%nat, ym 2%nat, zm 5%nat)
  | 2%nat => go (xp 3%nat, yp 1%nat, zm 6%nat)
  | 3%nat => go (xm 2%nat, yp 0%nat, zm 7%nat)
  | 4%nat => go (xm 5%nat, ym 7%nat, zp 0%nat)
  | 5%nat => go (xp 4%nat, ym 6%nat, zp 1%nat)
  | 6%nat => go (xp 7%nat, yp 5%nat, zp 2%nat)
  | 7%nat => go (xm 6%nat, yp 4%nat, zp 3%nat)
  | _ => Ok (-1)
  end.
Definition upd (num : bnum) (f : Z) (l : nat) (v : Z) : bnum := fun f' l' => if (f' =? f) && (l' =? l)%nat then v else num f' l'.
(** bccmesh.go:179-182 box and 131-137: the position of a cell of side [r] of a grid starting at [b] *)
Definition cell_pos (b : v3) (r : R) (c : cell) : v3 :=
  let '(i, j, k) := c in V3 ((IZR i + 1 / 2) * r + x3 b) ((IZR j + 1 / 2) * r + y3 b) ((IZR k + 1 / 2) * r + z3 b).
Definition cell_box (b : v3) (r : R) (c : cell) : box3 := centered_box3 (cell_pos b r c) (V3 r r r).
Record bst := Bst { b_num : bnum; b_n : Z; b_nodes : list v3; b_tets : list (Z * Z * Z * Z) }.
(** bccmesh.go:158-168, one label *)
Definition label_step (d : Z * Z * Z) (vert : list v3) (c : cell) (f : Z) (s : bst) (l : nat) : res bst :=
  do v <- neighbor_node d (b_num s) c l;
  if v =? -1 then Ok (Bst (upd (b_num s) f l (b_n s)) (b_n s + 1) (b_nodes s ++ [nth l vert zero3]) (b_tets s))
  else Ok (Bst (upd (b_num s) f l v) (b_n s) (b_nodes s) (b_tets s)).
(** bccmesh.go:269-302 tetras *)
Definition cell_tetras (d : Z * Z * Z) (num : bnum) (c : cell) (f : Z) : list (Z * Z * Z * Z) :=
  let '(i, j, k) := c in
  let nctr := num f 8%nat in
  let nd := num f in
  let side p (g : Z -> list (Z * Z * Z * Z)) := match p with Some q => if 0 <=? num q 8%nat then g (num q 8%nat) else [] | None => [] end in
  side (bcc_at d i j (k - 1)) (fun z => [(nctr, nd 0%nat, nd 1%nat, z); (nctr, nd 1%nat, nd 2%nat, z); (nctr, nd 2%nat, nd 3%nat, z); (nctr, nd 3%nat, nd 0%nat, z)]) ++
  side (bcc_at d i (j - 1) k) (fun y => [(nctr, nd 1%nat, nd 0%nat, y); (nctr, nd 5%nat, nd 1%nat, y); (nctr, nd 4%nat, nd 5%nat, y); (nctr, nd 0%nat, nd 4%nat, y)]) ++
  side (bcc_at d (i - 1) j k) (fun x => [(nctr, nd 0%nat, nd 3%nat, x); (nctr, nd 4%nat, nd 0%nat, x); (nctr, nd 7%nat, nd 4%nat, x); (nctr, nd 3%nat, nd 7%nat, x)]).
(** bccmesh.go:150-170, the function given to foreach *)
Definition mesh_cell (d : Z * Z * Z) (b : v3) (r : R) (s : bst) (c : cell) : res bst :=
  let '(i, j, k) := c in let '(_, dy, dz) := d in
  let f := i * dy * dz + j * dz + k in
  let bb := cell_box b r c in
  let s := Bst (upd (b_num s) f 8 (b_n s)) (b_n s + 1) (b_nodes s ++ [center3 bb]) (b_tets s) in
  do s <- foldM (label_step d (vertices3 bb) c f) s [0; 1; 2; 3; 4; 5; 6; 7]%nat;
  Ok (Bst (b_num s) (b_n s) (b_nodes s) (b_tets s ++ cell_tetras d (b_num s) c f)).
Definition zseq (n : Z) : list Z := map Z.of_nat (seq 0 (Z.to_nat n)).
(** bccmesh.go:226-236 foreach *)
Definition bcc_cells (d : Z * Z * Z) : list cell :=
  let '(dx, dy, dz) := d in
  flat_map (fun i => flat_map (fun j => map (fun k => (i, j, k)) (zseq dz)) (zseq dy)) (zseq dx).
(** bccmesh.go:39 unmeshed, 147-172 meshTetraBCC *)
Definition mesh_tetra_bcc (d : Z * Z * Z) (b : v3) (r : R) : res bst :=
  foldM (mesh_cell d b r) (Bst (fun _ _ => -1) 0 [] []) (bcc_cells d).
(** bccmesh.go:115-145 makeBCCMesh for a non-zero resolution: the numbers of cells *)
Definition make_bcc (b : box3) (r : R) : res (Z * Z * Z) :=
  let sz := size3 b in
  let dx := ceilR (x3 sz / r) in let dy := ceilR (y3 sz / r) in let dz := ceilR (z3 sz / r) in
  if (dx <? 3) || (dy <? 3) || (dz <? 3) then Panicked else Ok (dx, dy, dz).
