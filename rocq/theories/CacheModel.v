(** Model of the concurrent distance cache.
    Source: /repo/render/octree_renderer.go:233-302 (dc3). *)
From Coq Require Import List Arith Lia Bool ZArith.
From Verif Require Import Prelude OctreeModel.
Import ListNotations.

Definition v3i_eqb (a b : v3i) : bool :=
  (Z.eqb (vx a) (vx b) && Z.eqb (vy a) (vy b) && Z.eqb (vz a) (vz b))%bool.

(** The Go map as an association list; the most recent binding comes first. *)
Definition cache (V : Type) := list (v3i * V).
(** octree_renderer.go:290-295: read (atomic: the map is accessed under dc.mu) *)
Fixpoint cache_read {V} (c : cache V) (k : v3i) : option V :=
  match c with
  | [] => None
  | (k', d) :: r => if v3i_eqb k' k then Some d else cache_read r k
  end.
(** octree_renderer.go:298-302: write (atomic) *)
Definition cache_write {V} (c : cache V) (k : v3i) (d : V) : cache V := (k, d) :: c.

(** One execution of dc3.Evaluate(vi) (octree_renderer.go:243-256), by program
    point: about to read the cache, missed and about to evaluate the SDF,
    evaluated and about to write, returned. *)
Inductive eval_pc (P V : Type) :=
| AtRead | AtEval | AtWrite (d : V) | Ret (v : P) (d : V).
Arguments AtRead {P V}.
Arguments AtEval {P V}.
Arguments AtWrite {P V}.
Arguments Ret {P V}.

Definition eval_thread (P V : Type) := (v3i * eval_pc P V)%type.

(** [pos vi] is line 244: v = origin + resolution * vi; [f] is s.Evaluate. *)
Definition eval_step {P V} (pos : v3i -> P) (f : P -> V) (c : cache V) (t : eval_thread P V)
  : cache V * eval_thread P V :=
  let '(vi, pc) := t in
  match pc with
  | AtRead => match cache_read c vi with
              | Some d => (c, (vi, Ret (pos vi) d))
              | None => (c, (vi, AtEval))
              end
  | AtEval => (c, (vi, AtWrite (f (pos vi))))
  | AtWrite d => (cache_write c vi d, (vi, Ret (pos vi) d))
  | Ret _ _ => (c, t)
  end.

Fixpoint eval_run {P V} (pos : v3i -> P) (f : P -> V) (sched : list nat)
  (c : cache V) (ts : list (eval_thread P V)) : cache V * list (eval_thread P V) :=
  match sched with
  | [] => (c, ts)
  | i :: r =>
      match nth_error ts i with
      | None => eval_run pos f r c ts
      | Some t => let '(c', t') := eval_step pos f c t in eval_run pos f r c' (update ts i t')
      end
  end.
