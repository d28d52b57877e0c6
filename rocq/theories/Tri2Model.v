(** helpers/sdfexp/spatial2.go: the closest point on a triangle in the plane.  float64 is read as R. *)
From Coq Require Import Reals Lra Lia List Bool Arith.
From Verif Require Import Prelude Vec SdfModel.
Import ListNotations.
Local Open Scope R_scope.

Definition triangle2 := (v2 * v2 * v2)%type.
(** spatial2.go:11-21 triangleFeature *)
Inductive feature := FV (k : nat) | FE (k : nat) | FFace.
(** spatial2.go:56-58 d2Sign *)
Definition d2_sign (p1 p2 p3 : v2) : R := (x2 p1 - x2 p3) * (y2 p2 - y2 p3) - (x2 p2 - x2 p3) * (y2 p1 - y2 p3).
(** spatial2.go:47-54 inTriangle *)
Definition in_triangle2 (pt : v2) (t : triangle2) : bool :=
  let '(a, b, c) := t in
  let d1 := d2_sign pt a b in
  let d2 := d2_sign pt b c in
  let d3 := d2_sign pt c a in
  let has_neg := Rltb d1 0 || Rltb d2 0 || Rltb d3 0 in
  let has_pos := Rltb 0 d1 || Rltb 0 d2 || Rltb 0 d3 in
  negb (has_neg && has_pos).
(** spatial2.go:95-98 edgeEquation *)
Definition edge_equation (p l0 l1 : v2) : R :=
  let d := sub2 l1 l0 in (x2 p - x2 l0) * y2 d - (y2 p - y2 l0) * x2 d.
(** spatial2.go:82-88 distToLineInfinite *)
Definition dist_to_line_infinite (p p1 p2 : v2) : R :=
  Rabs ((x2 p2 - x2 p1) * (y2 p1 - y2 p) - (x2 p1 - x2 p) * (y2 p2 - y2 p1)) / sqrt ((x2 p2 - x2 p1) * (x2 p2 - x2 p1) + (y2 p2 - y2 p1) * (y2 p2 - y2 p1)).
(** spatial2.go:63-78 distToLine.  r2.Unit divides by the norm (the zero edge is not considered). *)
Definition dist_to_line (p l0 l1 : v2) : v2 * nat :=
  let dir := sub2 l1 l0 in
  let perp := V2 (- y2 dir) (x2 dir) in
  if Rltb 0 (edge_equation p l1 (add2 l1 perp)) then (sub2 p l1, 0%nat)
  else if Rltb (edge_equation p l0 (add2 l0 perp)) 0 then (sub2 p l0, 1%nat)
  else (scale2 (- dist_to_line_infinite p l0 l1) (scale2 (1 / norm2 perp) perp), 2%nat).
(** spatial2.go:28-41, one iteration of the loop over the edges *)
Definition edge_step (p : v2) (cur : R * v2 * feature) (e : nat * (v2 * v2)) : R * v2 * feature :=
  let '(mn, pt, ft) := cur in
  let '(j, (l0, l1)) := e in
  let '(v, got) := dist_to_line p l0 l1 in
  if Rltb (norm2sq v) mn then (norm2sq v, sub2 p v, if (got <? 2)%nat then FV ((j + got) mod 3) else FE (j mod 3)) else (mn, pt, ft).
(** spatial2.go:23-43 closestOnTriangle2 *)
Definition closest2 (p : v2) (t : triangle2) : v2 * feature :=
  if in_triangle2 p t then (p, FFace)
  else
    let '(a, b, c) := t in
    let '(_, pt, ft) := fold_left (edge_step p) [(0%nat, (a, b)); (1%nat, (b, c)); (2%nat, (c, a))] (max_float64, V2 0 0, FV 0) in
    (pt, ft).
