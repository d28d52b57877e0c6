(** helpers/sdfexp/omesh.go, basicmesh.go and gradient of spatial3.go: the node-based tetrahedral mesh.  Node
    indices are the non-negative ints of the mesh (nat); float64 is read as R, with None for a position whose
    coordinates are NaN. *)
From Coq Require Import Reals List Bool Arith.
From Verif Require Import Prelude Vec SdfModel MatrixModel BihModel.
Import ListNotations.
Local Open Scope R_scope.

(** [4]int *)
Definition tetra := (nat * nat * nat * nat)%type.
Definition tget (t : tetra) (i : nat) : nat := let '(a, b, c, d) := t in nth i [a; b; c; d] a.
(** omesh.go:8-25 *)
Record onode := ONode { on_pos : v3; on_tetras : list (nat * nat); on_conn : list nat }.
(** omesh.go:39-46: [existing] is declared 0 and then holds the last element looked at. *)
Fixpoint scan (c existing : nat) (conn : list nat) : nat :=
  match conn with
  | [] => existing
  | e :: r => if (c =? e)%nat then e else scan c e r
  end.
(** omesh.go:38-50, one value of j *)
Definition add_conn (conn : list nat) (c : nat) : list nat := if (c =? scan c 0 conn)%nat then conn else conn ++ [c].
(** omesh.go:30-51, one value of i: the node at position i of tetrahedron number [ti] *)
Definition visit_node (nodes : list v3) (ti : nat) (t : tetra) (ons : list onode) (i : nat) : res (list onode) :=
  let n := tget t i in
  match nth_error ons n, nth_error nodes n with
  | Some on, Some p =>
    let on := match on_tetras on with [] => ONode p [] [] | _ => on end in
    let conn := fold_left (fun cn j => add_conn cn (tget t ((i + j + 1) mod 3))) [0; 1; 2]%nat (on_conn on) in
    Ok (set_nth ons n (ONode (on_pos on) (on_tetras on ++ [(ti, i)]) conn))
  | _, _ => Panicked
  end.
Fixpoint foldM {A B} (f : A -> B -> res A) (a : A) (l : list B) : res A :=
  match l with [] => Ok a | b :: r => do a' <- f a b; foldM f a' r end.
(** omesh.go:29-52 *)
Definition visit_tetra (nodes : list v3) (ons : list onode) (e : nat * tetra) : res (list onode) :=
  foldM (visit_node nodes (fst e) (snd e)) ons [0; 1; 2; 3]%nat.
(** omesh.go:27-57 newOmesh *)
Definition new_omesh (nodes : list v3) (tetras : list tetra) : res (list onode) :=
  foldM (visit_tetra nodes) (map (fun _ => ONode zero3 [] []) nodes) (combine (seq 0 (length tetras)) tetras).

(** spatial3.go:132-138 gradient *)
Definition gradient (p : v3) (tol : R) (f : v3 -> R) : v3 :=
  V3 (f (add3 p (V3 tol 0 0)) - f (add3 p (V3 (- tol) 0 0))) (f (add3 p (V3 0 tol 0)) - f (add3 p (V3 0 (- tol) 0))) (f (add3 p (V3 0 0 tol)) - f (add3 p (V3 0 0 (- tol)))).
(** omesh.go:76-82, one node: [None] is NaN.  r3.Unit of the zero vector is NaN.  [nan_out] tells whether the
    SDF is positive at NaN positions.  The second component is membership in [boundary]. *)
Definition compress_node (compress : R) (ev : v3 -> R) (nan_out : bool) (p : option v3) : option v3 * bool :=
  match p with
  | None => (None, nan_out)
  | Some p =>
    let d := ev p in
    if Rltb 0 d then
      let g := gradient p (1 / 1000000) ev in
      (if Reqb (norm3 g) 0 then None else Some (sub3 p (scale3 (compress * d) (unit3 g))), true)
    else (Some p, false)
  end.
Definition add_opt (a b : option v3) : option v3 :=
  match a, b with Some a, Some b => Some (add3 a b) | _, _ => None end.
(** omesh.go:88-93: the mean of the neighbours; with no neighbours 1/0 * 0 is NaN. *)
Definition mean (ps : list (option v3)) (conn : list nat) : option v3 :=
  match conn with
  | [] => None
  | _ => match fold_left (fun s c => add_opt s (nth c ps None)) conn (Some zero3) with
         | Some s => Some (scale3 (1 / INR (length conn)) s)
         | None => None
         end
  end.
(** omesh.go:84-94: the loop over the nodes from number [i] on; it returns at the first boundary node. *)
Fixpoint smooth (conns : list (list nat)) (boundary : nat -> bool) (i : nat) (ps : list (option v3)) : list (option v3) :=
  match conns with
  | [] => ps
  | c :: r => if boundary i then ps else smooth r boundary (S i) (set_nth ps i (mean ps c))
  end.
(** omesh.go:69-95 compressAndSmooth; the positions of the nodes are kept apart from the connectivity. *)
Definition compress_and_smooth (conns : list (list nat)) (compress : R) (ev : v3 -> R) (nan_out : bool) (ps : list (option v3)) : res (list (option v3)) :=
  if Rltb 1 compress || Rltb compress 0 then Panicked
  else
    let cs := map (compress_node compress ev nan_out) ps in
    Ok (smooth conns (fun i => nth i (map snd cs) false) 0 (map fst cs)).
