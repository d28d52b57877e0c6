(** Model of helpers/sdfexp/bih.go: the bounding interval hierarchy behind ImportModelV2. *)
From Coq Require Import Reals List ZArith Bool Lia Floats.SpecFloat.
From Verif Require Import Prelude Vec BoxModel McRealModel SdfModel.
Import ListNotations.
Local Open Scope R_scope.

(** bih.go:204-214 getMinEdge02 *)
Definition min_edge02 (a11 b1 : R) : R * R :=
  (0, if Rleb 0 b1 then 0 else if Rleb (a11 + b1) 0 then 1 else - b1 / a11).
(** bih.go:216-230 getMinEdge12 *)
Definition min_edge12 (a01 a11 b1 f10 f01 : R) : R * R :=
  let h0 := a01 + b1 - f10 in
  let t := if Rleb 0 h0 then 0
           else let h1 := a11 + b1 - f01 in
                if Rleb h1 0 then 1 else h0 / (h0 - h1) in
  (1 - t, t).
(** bih.go:232-239 getMinInterior *)
Definition min_interior (p0 : R * R) (h0 : R) (p1 : R * R) (h1 : R) : R * R :=
  let z := h0 / (h0 - h1) in
  let omz := 1 - z in
  (omz * fst p0 + z * fst p1, omz * snd p0 + z * snd p1).
(** bih.go:121-194, the parameters of the closest point.  A quotient 0/0 is NaN; the only quotient
    with a zero divisor is f00/(f00-f01) of line 126, with f00 = f01 = 0 ([tri_divisors]).  All
    comparisons with the numbers computed from it are false, so the code reaches getMinInterior and
    returns NaN in both components: [None]. *)
Definition tri_param (a00 a01 a11 b0 b1 : R) : option (R * R) :=
  let f00 := b0 in
  let f10 := b0 + a00 in
  let f01 := b0 + a01 in
  if Rleb 0 f00 then
    if Rltb 0 f01 then Some (min_edge02 a11 b1)
    else if Reqb (f00 - f01) 0 then None
    else
      let p0 := (0, f00 / (f00 - f01)) in
      let p10 := f01 / (f01 - f10) in
      let p1 := (p10, 1 - p10) in
      let dt1 := snd p1 - snd p0 in
      let h0 := dt1 * (a11 * snd p0 + b1) in
      if Rleb 0 h0 then Some (min_edge02 a11 b1)
      else
        let h1 := dt1 * (a01 * fst p1 + a11 * snd p1 + b1) in
        if Rleb h1 0 then Some (min_edge12 a01 a11 b1 f10 f01)
        else Some (min_interior p0 h0 p1 h1)
  else if Rleb f01 0 then
    if Rleb f10 0 then Some (min_edge12 a01 a11 b1 f10 f01)
    else
      let p0 := (f00 / (f00 - f10), 0) in
      let p10 := f01 / (f01 - f10) in
      let p1 := (p10, 1 - p10) in
      let h0 := snd p1 * (a01 * fst p0 + b1) in
      if Rleb 0 h0 then Some p0
      else
        let h1 := snd p1 * (a01 * fst p1 + a11 * snd p1 + b1) in
        if Rleb h1 0 then Some (min_edge12 a01 a11 b1 f10 f01)
        else Some (min_interior p0 h0 p1 h1)
  else if Rleb f10 0 then
    let p0 := (0, f00 / (f00 - f01)) in
    let p10 := f01 / (f01 - f10) in
    let p1 := (p10, 1 - p10) in
    let dt1 := snd p1 - snd p0 in
    let h0 := dt1 * (a11 * snd p0 + b1) in
    if Rleb 0 h0 then Some (min_edge02 a11 b1)
    else
      let h1 := dt1 * (a01 * fst p1 + a11 * snd p1 + b1) in
      if Rleb h1 0 then Some (min_edge12 a01 a11 b1 f10 f01)
      else Some (min_interior p0 h0 p1 h1)
  else
    let p0 := (f00 / (f00 - f10), 0) in
    let p1 := (0, f00 / (f00 - f01)) in
    let h0 := snd p1 * (a01 * fst p0 + b1) in
    if Rleb 0 h0 then Some p0
    else
      let h1 := snd p1 * (a11 * snd p1 + b1) in
      if Rleb h1 0 then Some (min_edge02 a11 b1)
      else Some (min_interior p0 h0 p1 h1).
(** bih.go:96-202 minDistTri: the vector from the closest point of the triangle to the target;
    [None] when it is NaN.  The second result is always FACE | idx. *)
Definition min_dist_tri (target a b c : v3) : option v3 :=
  let diff := sub3 target a in
  let edge0 := sub3 b a in
  let edge1 := sub3 c a in
  match tri_param (dot3 edge0 edge0) (dot3 edge0 edge1) (dot3 edge1 edge1) (- dot3 diff edge0) (- dot3 diff edge1) with
  | Some p => Some (sub3 target (add3 a (add3 (scale3 (fst p) edge0) (scale3 (snd p) edge1))))
  | None => None
  end.

(** The same code in binary64 (round to nearest even), for the NaN case. *)
Definition f0 : spec_float := S754_zero false.
Definition f1 : spec_float := S754_finite false 4503599627370496 (-52).
Definition fmin_edge02 (a11 b1 : spec_float) : spec_float * spec_float :=
  (f0, if SFleb f0 b1 then f0 else if SFleb (fadd a11 b1) f0 then f1 else fdiv (SFopp b1) a11).
Definition fmin_edge12 (a01 a11 b1 f10 f01 : spec_float) : spec_float * spec_float :=
  let h0 := fsub (fadd a01 b1) f10 in
  let t := if SFleb f0 h0 then f0
           else let h1 := fsub (fadd a11 b1) f01 in
                if SFleb h1 f0 then f1 else fdiv h0 (fsub h0 h1) in
  (fsub f1 t, t).
Definition fmin_interior (p0 : spec_float * spec_float) (h0 : spec_float) (p1 : spec_float * spec_float) (h1 : spec_float) : spec_float * spec_float :=
  let z := fdiv h0 (fsub h0 h1) in
  let omz := fsub f1 z in
  (fadd (fmul omz (fst p0)) (fmul z (fst p1)), fadd (fmul omz (snd p0)) (fmul z (snd p1))).
(** bih.go:111-141, the branch 0 <= f00 (the others are not needed). *)
Definition ftri_param_first (a00 a01 a11 b0 b1 : spec_float) : spec_float * spec_float :=
  let f00 := b0 in
  let f10 := fadd b0 a00 in
  let f01 := fadd b0 a01 in
  if SFltb f0 f01 then fmin_edge02 a11 b1
  else
    let p0 := (f0, fdiv f00 (fsub f00 f01)) in
    let p10 := fdiv f01 (fsub f01 f10) in
    let p1 := (p10, fsub f1 p10) in
    let dt1 := fsub (snd p1) (snd p0) in
    let h0 := fmul dt1 (fadd (fmul a11 (snd p0)) b1) in
    if SFleb f0 h0 then fmin_edge02 a11 b1
    else
      let h1 := fmul dt1 (fadd (fadd (fmul a01 (fst p1)) (fmul a11 (snd p1))) b1) in
      if SFleb h1 f0 then fmin_edge12 a01 a11 b1 f10 f01
      else fmin_interior p0 h0 p1 h1.

(** bih.go:55-62 minDistBox, with the slack of 1e-6. *)
Definition min_dist_box (t : v3) (bb : box3) : R :=
  let dx := Rmax 0 (Rmax (x3 t - x3 (max3 bb)) (x3 (min3 bb) - x3 t)) in
  let dy := Rmax 0 (Rmax (y3 t - y3 (max3 bb)) (y3 (min3 bb) - y3 t)) in
  let dz := Rmax 0 (Rmax (z3 t - z3 (max3 bb)) (z3 (min3 bb) - z3 t)) in
  dx * dx + dy * dy + dz * dz - 1 / 1000000.

(** bih.go:23-53 bihInternal: a leaf with its range of triangles, or a clipping plane pair with
    the index of the first of two adjacent children.  The bit packing of flags and the reuse of the
    two int64 words for float64 are abstracted; the zero value is a leaf with an empty range. *)
Inductive axis := AX | AY | AZ.
Inductive node := NLeaf (off fin : nat) | NClip (ax : axis) (child : nat) (lclip rclip : R).
(** bih.go:64-69 Mesh: a triangle is three indices into the vertex list. *)
Definition tri := (nat * nat * nat)%type.
Definition vt (verts : list v3) (i : nat) : v3 := nth i verts zero3.
Definition tri_a (vs : list v3) (t : tri) : v3 := let '(i, _, _) := t in vt vs i.
Definition tri_b (vs : list v3) (t : tri) : v3 := let '(_, i, _) := t in vt vs i.
Definition tri_c (vs : list v3) (t : tri) : v3 := let '(_, _, i) := t in vt vs i.

Definition coord (ax : axis) (p : v3) : R := match ax with AX => x3 p | AY => y3 p | AZ => z3 p end.
Definition set_coord (ax : axis) (p : v3) (c : R) : v3 :=
  match ax with AX => V3 c (y3 p) (z3 p) | AY => V3 (x3 p) c (z3 p) | AZ => V3 (x3 p) (y3 p) c end.
(** bih.go:261-270 *)
Definition clip_left (ax : axis) (c : R) (bb : box3) : box3 := Box3 (min3 bb) (set_coord ax (max3 bb) c).
Definition clip_right (ax : axis) (c : R) (bb : box3) : box3 := Box3 (set_coord ax (min3 bb) c) (max3 bb).

(** The running best: squared distance, vector, triangle index (-1 is [None]). *)
Definition best := (R * v3 * option nat)%type.
Definition best_sq (b : best) : R := fst (fst b).
(** bih.go:248-256, one iteration of the leaf loop.  A NaN distance is never smaller. *)
Definition leaf_step (vs : list v3) (mesh : list tri) (target : v3) (cur : best) (i : nat) : best :=
  match nth_error mesh i with
  | None => cur
  | Some t =>
    match min_dist_tri target (tri_a vs t) (tri_b vs t) (tri_c vs t) with
    | Some v => if Rltb (norm3sq v) (best_sq cur) then (norm3sq v, v, Some i) else cur
    | None => cur
    end
  end.
(** bih.go:241-298 nearestDistHelper.  [fuel] bounds the depth of the recursion. *)
Fixpoint nearest (vs : list v3) (mesh : list tri) (b : list node) (target : v3) (fuel idx : nat) (bb : box3) (cur : best) : best :=
  match fuel with
  | O => cur
  | S f =>
    match nth_error b idx with
    | None => cur
    | Some (NLeaf off fin) => fold_left (leaf_step vs mesh target) (seq off (fin - off)) cur
    | Some (NClip ax ch lc rc) =>
      let lbb := clip_left ax lc bb in
      let rbb := clip_right ax rc bb in
      let ld := min_dist_box target lbb in
      let rd := min_dist_box target rbb in
      let left cur := if Rltb ld (best_sq cur) then nearest vs mesh b target f ch lbb cur else cur in
      let right cur := if Rltb rd (best_sq cur) then nearest vs mesh b target f (ch + 1) rbb cur else cur in
      if Rltb ld rd then right (left cur) else left (right cur)
    end
  end.

(** bih.go:326-404 subdivide.  [srt ax l] is what sort.Slice leaves in the slice [l] when sorting by
    the centroid coordinate [ax]: the theorems hold for every function that permutes its list.  The
    slice is sorted in place, so the function also returns the reordered mesh segment.  The result of
    the nested calls is written through [b], a growing array. *)
Fixpoint set_nth {A} (l : list A) (i : nat) (x : A) : list A :=
  match l, i with
  | [], _ => []
  | _ :: r, O => x :: r
  | y :: r, S i => y :: set_nth r i x
  end.
Definition far_box : box3 := Box3 (V3 max_float64 max_float64 max_float64) (V3 (- max_float64) (- max_float64) (- max_float64)).
Definition grow (bb : box3) (p : v3) : box3 :=
  Box3 (V3 (Rmin (x3 (min3 bb)) (x3 p)) (Rmin (y3 (min3 bb)) (y3 p)) (Rmin (z3 (min3 bb)) (z3 p)))
       (V3 (Rmax (x3 (max3 bb)) (x3 p)) (Rmax (y3 (max3 bb)) (y3 p)) (Rmax (z3 (max3 bb)) (z3 p))).
Definition tri_verts (vs : list v3) (t : tri) : list v3 := [tri_a vs t; tri_b vs t; tri_c vs t].
Definition mesh_box (vs : list v3) (m : list tri) : box3 := fold_left grow (flat_map (tri_verts vs) m) far_box.
Definition longest (bb : box3) : axis :=
  let d := sub3 (max3 bb) (min3 bb) in
  if Rleb (y3 d) (x3 d) && Rleb (z3 d) (x3 d) then AX
  else if Rleb (x3 d) (y3 d) && Rleb (z3 d) (y3 d) then AY
  else AZ.
Fixpoint subdivide (srt : axis -> list tri -> list tri) (vs : list v3) (fuel : nat) (b : list node) (idx midx : nat) (mesh : list tri) (bb : box3) : list node * list tri :=
  if (length mesh <=? 4)%nat then (set_nth b idx (NLeaf midx (length mesh + midx)), mesh)
  else match fuel with
  | O => (b, mesh)
  | S f =>
    let ax := longest bb in
    let m := srt ax mesh in
    let half := (length mesh / 2)%nat in
    let l := firstn half m in
    let r := skipn half m in
    let lbb := mesh_box vs l in
    let rbb := mesh_box vs r in
    let ch := length b in
    let '(b1, l') := subdivide srt vs f (b ++ [NLeaf 0 0; NLeaf 0 0]) ch midx l lbb in
    let '(b2, r') := subdivide srt vs f b1 (ch + 1) (midx + half) r rbb in
    (set_nth b2 idx (NClip ax ch (coord ax (max3 lbb)) (coord ax (min3 rbb))), l' ++ r')
  end.

(** bih.go:431-504 ImportModelV2, up to the pseudonormals (which Evaluate never reads, because
    minDistTri always reports a face).  [model_box] is the box of lines 436-451. *)
Definition triangle := (v3 * v3 * v3)%type.
Definition corners (t : triangle) : list v3 := let '(a, b, c) := t in [a; b; c].
Definition model_box (model : list triangle) : box3 := fold_left grow (flat_map corners model) far_box.
(** bih.go:444-448 side2: the squared lengths of the sides. *)
Definition sides (t : triangle) : list R := let '(a, b, c) := t in [norm3sq (sub3 b a); norm3sq (sub3 c b); norm3sq (sub3 a c)].
Definition min_side (model : list triangle) : R := fold_left Rmin (flat_map sides model) max_float64.
Definition max_side (model : list triangle) : R := fold_left Rmax (flat_map sides model) (- max_float64).
(** int64(x): truncation towards zero (no overflow). *)
Definition truncZ (x : R) : Z := if Rleb 0 x then Int_part x else (- Int_part (- x))%Z.
Definition key := (Z * Z * Z)%type.
Definition key_eqb (a b : key) : bool :=
  let '(x, y, z) := a in let '(x', y', z') := b in (x =? x')%Z && (y =? y')%Z && (z =? z')%Z.
(** bih.go:481-485 *)
Definition cell (tol : R) (v : v3) : key :=
  (truncZ ((x3 v + 1/2 * tol) / tol), truncZ ((y3 v + 1/2 * tol) / tol), truncZ ((z3 v + 1/2 * tol) / tol)).
(** bih.go:473-495: the vertex cache; looking up or adding one vertex. *)
Definition cache := list (key * nat).
Fixpoint lookup (k : key) (c : cache) : option nat :=
  match c with
  | [] => None
  | (k', i) :: r => if key_eqb k' k then Some i else lookup k r
  end.
Definition add_vertex (tol : R) (st : list v3 * cache) (v : v3) : (list v3 * cache) * nat :=
  let '(vs, c) := st in
  match lookup (cell tol v) c with
  | Some i => ((vs, c), i)
  | None => ((vs ++ [v], (cell tol v, length vs) :: c), length vs)
  end.
Definition add_triangle (tol : R) (st : list v3 * cache * list tri) (t : triangle) : list v3 * cache * list tri :=
  let '(s, m) := st in
  let '(a, b, c) := t in
  let '(s1, i) := add_vertex tol s a in
  let '(s2, j) := add_vertex tol s1 b in
  let '(s3, k) := add_vertex tol s2 c in
  (s3, m ++ [(i, j, k)]).
Definition merge (tol : R) (model : list triangle) : list v3 * list tri :=
  let '(s, m) := fold_left (add_triangle tol) model ([], [], []) in (fst s, m).
(** bih.go:453-471: the tolerance that is used.  The empty model is an error for every tolerance.
    A zero suggestion (a triangle with two equal corners) gives maxDim/0 = +Inf, whose conversion to
    int64 is one of the two extremes, both rejected. *)
Definition used_tol (model : list triangle) (tol : R) : res R :=
  match model with
  | [] => Err
  | _ =>
    if Rltb (sqrt (max_side model) / 2) tol then Err
    else
      let tol := if Reqb tol 0 then sqrt (min_side model) / 256 else tol in
      if Reqb tol 0 then Err
      else
        let size := sub3 (max3 (model_box model)) (min3 (model_box model)) in
        let max_dim := Rmax (x3 size) (Rmax (y3 size) (z3 size)) in
        let div := truncZ (max_dim / tol + 1 / 1000000000000) in
        if (div <=? 0)%Z then Err
        else if (4611686018427387903 <? div)%Z then Err
        else Ok tol
  end.
(** The parts of the BIH that Evaluate uses. *)
Record bih := Bih { bih_verts : list v3; bih_mesh : list tri; bih_nodes : list node; bih_box : box3 }.
Definition import_v2 (srt : axis -> list tri -> list tri) (model : list triangle) (tol : R) : res bih :=
  do t <- used_tol model tol;
  let '(vs, m) := merge t model in
  let '(b, m') := subdivide srt vs (length m) [NLeaf 0 0] 0 0 m (model_box model) in
  Ok (Bih vs m' b (model_box model)).
(** bih.go:300-324 DistNearestTri and 615-622 Evaluate and Bounds: the sign is the side of the plane of the
    closest triangle.  The face normal is the normalised cross product; for a triangle without area
    it is NaN, the comparison is false and the value negative. *)
Definition bih_eval (b : bih) (target : v3) : R :=
  match nearest (bih_verts b) (bih_mesh b) (bih_nodes b) target (S (length (bih_mesh b))) 0 (bih_box b) (max_float64, zero3, None) with
  | (_, _, None) => max_float64
  | (d, v, Some i) =>
    let t := nth i (bih_mesh b) (O, O, O) in
    let n := cross3 (sub3 (tri_b (bih_verts b) t) (tri_a (bih_verts b) t)) (sub3 (tri_c (bih_verts b) t) (tri_a (bih_verts b) t)) in
    if Rltb 0 (norm3 n) && Rleb 0 (dot3 n v) then sqrt d else - sqrt d
  end.
Definition bih_bounds (b : bih) : box3 := bih_box b.
