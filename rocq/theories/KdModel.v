(** The k-d tree that ImportModel builds and Evaluate searches: helpers/sdfexp/import.go (Pivot, Slice, Bounds,
    kdPlane, Evaluate) and spatial3.go (Compare).  The tree itself is gonum.org/v1/gonum/spatial/kdtree, a dependency
    whose source is not in /repo: [kd_build] and [kd_search] follow its published functions New and Tree.Nearest
    (build a node from the pivot, recurse on the slices before and behind it with the next dimension; visit the half
    of the query first and the other one if the squared difference to the plane is below the best squared distance). *)
From Coq Require Import Reals List Bool Arith.
From Verif Require Import Prelude Vec BoxModel SdfModel MatrixModel TransformModel BihModel Tri2Model ImportModel.
Import ListNotations.
Local Open Scope R_scope.

(** spatial3.go:26-37 Compare; a kdtree.Dim other than 0, 1, 2 panics and never occurs, because Dims (line 39) is 3 *)
Definition kd_compare (t q : mtri) (d : axis) : R := coord d (mt_c t) - coord d (mt_c q).
(** import.go:187-191 kdPlane.Less *)
Definition kd_less (d : axis) (ti tj : mtri) : bool := Rltb (kd_compare ti tj d) 0.
(** np := (plane + 1) % Dims *)
Definition next_dim (d : axis) : axis := match d with AX => AY | AY => AZ | AZ => AX end.

Inductive kdtree := KNil | KNode (p : mtri) (plane : axis) (left right : kdtree).
(** kdtree.New.  [pivot d l] is what mesh.Pivot (import.go:153-156) leaves in the slice, and the number it returns. *)
Fixpoint kd_build (fuel : nat) (pivot : axis -> list mtri -> list mtri * nat) (plane : axis) (l : list mtri) : kdtree :=
  match l, fuel with
  | [], _ | _, O => KNil
  | _, S f =>
    let '(l', k) := pivot plane l in
    match nth_error l' k with
    | None => KNil
    | Some p => KNode p plane (kd_build f pivot (next_dim plane) (firstn k l')) (kd_build f pivot (next_dim plane) (skipn (S k) l'))
    end
  end.
Definition kd_new (pivot : axis -> list mtri -> list mtri * nat) (m : imesh) : kdtree := kd_build (length (im_tris m)) pivot AX (im_tris m).

(** Node.search; [dist] is the best squared distance so far, None for +Inf.  None is the nil node. *)
Definition dmin (dist : option R) (d : R) : R := match dist with None => d | Some e => Rmin e d end.
Fixpoint kd_search (vs : list pvert) (q : mtri) (t : kdtree) (dist : option R) : option (mtri * R) :=
  match t with
  | KNil => None
  | KNode p plane l r =>
    let c := kd_compare q p plane in
    let d := dmin dist (kd_distance vs q p) in
    let go t (best : mtri * R) := match kd_search vs q t (Some (snd best)) with
                                  | Some (p', d') => if Rltb d' (snd best) then (p', d') else best
                                  | None => best
                                  end in
    if Rleb c 0 then
      let best := go l (p, d) in
      Some (if Rltb (c * c) (snd best) then go r best else best)
    else
      let best := go r (p, d) in
      Some (if Rltb (c * c) (snd best) then go l best else best)
  end.
(** &meshTriangle{C: q}: the other fields are zero *)
Definition query (p : v3) : mtri := MTri p (0, 0, 0)%nat zero3 t_id t_id.
(** import.go:33-37 Evaluate.  The last call of Distance on the triangle that is returned was with the query, so
    lastFeature and lastClosest are those of [tri_distance]. *)
Definition kd_eval (m : imesh) (t : kdtree) (p : v3) : res R :=
  match kd_search (im_verts m) (query p) t None with
  | None => Panicked
  | Some (tri, d) => let '(_, f, w) := tri_distance (im_verts m) tri p in Ok (copy_sign m tri f w p (sqrt d))
  end.
(** import.go:169-180 mesh.Bounds: the box of the centroids *)
Definition kd_bounds (l : list mtri) : box3 :=
  fold_left (fun bb t => Box3 (min_elem3 (min3 bb) (mt_c t)) (max_elem3 (max3 bb) (mt_c t))) l far_box.
