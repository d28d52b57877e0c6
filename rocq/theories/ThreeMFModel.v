(** Model of /repo/render/3mf.go: AddObject. *)
From Coq Require Import String List Arith Bool.
From Verif Require Import Prelude.
Import ListNotations.

(** 3mf.go:81-110: mf3object, mf3Mesh, mf3Triangle.  PartNumber, PID, PIndex and
    Type are functions of the name and id and are left out. *)
Record mf3object (V : Type) := Obj {
  o_id : nat; o_name : string; o_vertices : list V; o_triangles : list (nat * nat * nat)
}.
Arguments Obj {V}.
Arguments o_id {V}.
Arguments o_name {V}.
Arguments o_vertices {V}.
Arguments o_triangles {V}.
(** 3mf.go:58-75: model; Build holds the object ids.  The constant metadata fields
    are left out. *)
Record model3mf (V : Type) := Model3 { m_objects : list (mf3object V); m_build : list nat }.
Arguments Model3 {V}.
Arguments m_objects {V}.
Arguments m_build {V}.

Section AddObject.
  (** r3.Vec and Go's == on it (not reflexive on NaN, and true on 0 and -0). *)
  Context {V : Type} (veq : V -> V -> bool).

  (** map[r3.Vec]vertexEntry: entries (key, (idx, count)); a lookup compares with ==. *)
  Definition vmap : Type := list (V * (nat * nat)).
  Fixpoint lookup (v : V) (m : vmap) : option (nat * nat) :=
    match m with
    | [] => None
    | (k, e) :: m => if veq k v then Some e else lookup v m
    end.
  Fixpoint update (v : V) (e : nat * nat) (m : vmap) : vmap :=
    match m with
    | [] => [(v, e)]
    | (k, e0) :: m => if veq k v then (k, e) :: m else (k, e0) :: update v e m
    end.

  (** 3mf.go:123-134: one vertex; returns entry.idx. *)
  Definition add_vertex (v : V) (st : list V * vmap) : nat * (list V * vmap) :=
    let '(verts, m) := st in
    match lookup v m with
    | None => (length verts, (verts ++ [v], update v (length verts, 1) m))
    | Some (i, c) => (i, (verts, update v (i, S c) m))
    end.

  (** 3mf.go:121-143: the loop over the triangles. *)
  Fixpoint add_triangles (src : list (V * V * V)) (st : list V * vmap) : list (nat * nat * nat) * (list V * vmap) :=
    match src with
    | [] => ([], st)
    | (a, b, c) :: src =>
        let '(i, st) := add_vertex a st in
        let '(j, st) := add_vertex b st in
        let '(k, st) := add_vertex c st in
        let '(dst, st) := add_triangles src st in
        ((i, j, k) :: dst, st)
    end.

  (** 3mf.go:112-168: AddObject; the boolean tells whether an error is returned. *)
  Definition add_object (name : string) (src : list (V * V * V)) (m : model3mf V) : model3mf V * bool :=
    let id := S (length (m_objects m)) in
    let '(dst, (verts, vm)) := add_triangles src ([], []) in
    (Model3 (m_objects m ++ [Obj id name verts dst]) (m_build m ++ [id]),
     existsb (fun ke => Nat.ltb (snd (snd ke)) 3) vm).

  (** 3mf.go:46-56: new3MF *)
  Definition new_3mf : model3mf V := Model3 [] [].
End AddObject.
