(** helpers/sdfexp/bih.go: the last part of ImportModelV2, which fills in the pseudo normals of sides and vertices.
    float64 is read as R; for a triangle without area the code computes NaN where this model has some number, which
    makes no difference to which triangles are visited for the first vertex of the mesh. *)
From Coq Require Import Reals List Bool Arith.
From Verif Require Import Prelude Vec BoxModel SdfModel MatrixModel BihModel.
Import ListNotations.
Local Open Scope R_scope.

(** tri[j] and next_j (bih.go:524) *)
Definition tcorn (t : tri) (j : nat) : nat := let '(a, b, c) := t in match j with 0 => a | 1 => b | _ => c end%nat.
Definition next_j (j : nat) : nat := match j with 0 => 1 | 1 => 2 | _ => 0 end%nat.
(** bih.go:506-516 edges, a map from directed sides to triangle numbers: the latest assignment first *)
Definition adj := list ((nat * nat) * nat).
Fixpoint adj_get (m : adj) (e : nat * nat) : option nat :=
  match m with
  | [] => None
  | (e', i) :: r => if ((fst e' =? fst e) && (snd e' =? snd e))%nat then Some i else adj_get r e
  end.
Definition adj_add (m : adj) (i : nat) (t : tri) : adj :=
  ((tcorn t 2, tcorn t 0), i) :: ((tcorn t 1, tcorn t 2), i) :: ((tcorn t 0, tcorn t 1), i) :: m.
Fixpoint adj_from (m : adj) (i : nat) (mesh : list tri) : adj :=
  match mesh with
  | [] => m
  | t :: r => adj_from (adj_add m i t) (S i) r
  end.
Definition adjacency (mesh : list tri) : adj := adj_from [] 0 mesh.
(** bih.go:518-521 face_normals *)
Definition face_normal (vs : list v3) (t : tri) : v3 :=
  unit3 (cross3 (sub3 (vt vs (tcorn t 1)) (vt vs (tcorn t 0))) (sub3 (vt vs (tcorn t 2)) (vt vs (tcorn t 0)))).
(** bih.go:527-546 edge_pseudonormals[3*i+j]; the warning that is printed is left out. *)
Definition side_pseudo (vs : list v3) (mesh : list tri) (em : adj) (i j : nat) : v3 :=
  let t := nth i mesh (0, 0, 0)%nat in
  match adj_get em (tcorn t (next_j j), tcorn t j) with
  | None => face_normal vs t
  | Some o => add3 (scale3 (1/2) (face_normal vs t)) (scale3 (1/2) (face_normal vs (nth o mesh (0, 0, 0)%nat)))
  end.
Definition side_pseudos (vs : list v3) (mesh : list tri) : list v3 :=
  flat_map (fun i => map (side_pseudo vs mesh (adjacency mesh) i) [0; 1; 2]%nat) (seq 0 (length mesh)).

(** bih.go:407-413: the first corner with the vertex number; without one, idx stays -1 and the index expression of
    line 415 panics. *)
Definition first_corner (t : tri) (v : nat) : option nat :=
  if (tcorn t 0 =? v)%nat then Some 0%nat else if (tcorn t 1 =? v)%nat then Some 1%nat else if (tcorn t 2 =? v)%nat then Some 2%nat else None.
(** bih.go:406-429 calc_alpha_wnormal *)
Definition calc_alpha_wnormal (t : tri) (v : nat) (vs : list v3) : res (R * v3) :=
  match first_corner t v with
  | None => Panicked
  | Some idx =>
    let nidx := next_j idx in
    let bidx := (3 - idx - nidx)%nat in
    let ba := sub3 (vt vs (tcorn t nidx)) (vt vs v) in
    let ca := sub3 (vt vs (tcorn t bidx)) (vt vs v) in
    let alpha := acos (dot3 ba ca / (norm3 ba * norm3 ca)) in
    Ok (alpha, scale3 alpha (unit3 (cross3 ba ca)))
  end.
(** bih.go:570-579: the last corner with the vertex number *)
Definition last_corner (t : tri) (v : nat) : option nat :=
  if (tcorn t 2 =? v)%nat then Some 2%nat else if (tcorn t 1 =? v)%nat then Some 1%nat else if (tcorn t 0 =? v)%nat then Some 0%nat else None.
(** bih.go:587: mesh[next_tri][3-vert_idx-edge_idx], out of range when both are 0 or both are 2 *)
Definition third_corner (t : tri) (a b : nat) : res nat :=
  match (a + b)%nat with 1 => Ok (tcorn t 2) | 2 => Ok (tcorn t 1) | 3 => Ok (tcorn t 0) | _ => Panicked end%nat.
(** bih.go:561-592: the loop over the triangles around vertex [idx], from triangle [i].  The state is [edge_vert],
    [next_tri] with [ok], and the last angle with the sum of the normals; the sum of the angles is never used.  The
    result is None if the loop is still running after [fuel] iterations. *)
Fixpoint fan (fuel : nat) (vs : list v3) (mesh : list tri) (em : adj) (i idx edge_vert : nat) (next : option nat) (st : R * v3) : option (res (R * v3)) :=
  match next with
  | None => Some (Ok st)
  | Some n =>
    if (n =? i)%nat then Some (Ok st)
    else match fuel with
    | O => None
    | S f =>
      let t := nth n mesh (0, 0, 0)%nat in
      match calc_alpha_wnormal t idx vs with
      | Ok (al, w) =>
        match last_corner t idx, last_corner t edge_vert with
        | Some a, Some b =>
          match third_corner t a b with
          | Ok ev => fan f vs mesh em i idx ev (adj_get em (ev, idx)) (al, add3 (snd st) w)
          | Err => Some Err
          | Panicked => Some Panicked
          end
        | _, _ => Some Panicked
        end
      | Err => Some Err
      | Panicked => Some Panicked
      end
    end
  end.
(** bih.go:548-598: vertex_pseudonormals; [work] lists the pairs (i, j) that are left.  The total is divided by the
    angle of the last triangle. *)
Fixpoint vertex_pass (fuel : nat) (vs : list v3) (mesh : list tri) (em : adj) (work : list (nat * nat)) (ns : list v3) : option (res (list v3)) :=
  match work with
  | [] => Some (Ok ns)
  | (i, j) :: r =>
    let t := nth i mesh (0, 0, 0)%nat in
    let idx := tcorn t j in
    if Rltb (norm3sq (nth idx ns zero3)) (1/2) then
      match calc_alpha_wnormal t idx vs with
      | Ok st =>
        let ev := tcorn t (next_j j) in
        match fan fuel vs mesh em i idx ev (adj_get em (ev, idx)) st with
        | Some (Ok (al, tot)) => vertex_pass fuel vs mesh em r (set_nth ns idx (scale3 (1 / al) tot))
        | Some Err => Some Err
        | Some Panicked => Some Panicked
        | None => None
        end
      | Err => Some Err
      | Panicked => Some Panicked
      end
    else vertex_pass fuel vs mesh em r ns
  end.
Definition all_corners (n : nat) : list (nat * nat) := flat_map (fun i => [(i, 0); (i, 1); (i, 2)]%nat) (seq 0 n).
Definition vertex_pseudos (fuel : nat) (vs : list v3) (mesh : list tri) : option (res (list v3)) :=
  vertex_pass fuel vs mesh (adjacency mesh) (all_corners (length mesh)) (repeat zero3 (length vs)).
(** bih.go:430-613 ImportModelV2: the hierarchy, the pseudo normals of the sides and those of the vertices.  None if
    a loop of the last pass does not end within [fuel] iterations. *)
Definition import_v2_all (fuel : nat) (srt : axis -> list tri -> list tri) (model : list triangle) (tol : R) : option (res (bih * list v3 * list v3)) :=
  match import_v2 srt model tol with
  | Ok b =>
    match vertex_pseudos fuel (bih_verts b) (bih_mesh b) with
    | Some (Ok ns) => Some (Ok (b, side_pseudos (bih_verts b) (bih_mesh b), ns))
    | Some Err => Some Err
    | Some Panicked => Some Panicked
    | None => None
    end
  | Err => Some Err
  | Panicked => Some Panicked
  end.
