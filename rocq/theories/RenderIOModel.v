(** Model of /repo/render/io.go. *)
From Coq Require Import List Arith Lia Bool ZArith.
From Verif Require Import Prelude OctreeModel.
Import ListNotations.

(** Error returned by Renderer.ReadTriangles (render.go): nil, io.EOF, other. *)
Inductive rerr := ENil | EEOF | EOther.

(** io.go:11-27: RenderAll.  The argument is what successive ReadTriangles calls
    return: the triangles [buf[:nt]] and the error.  [None]: the loop has not
    ended (all responses had a nil error).  [Some (result, b)]: RenderAll
    returned [result]; [b] tells whether the returned error is non-nil. *)
Fixpoint render_all {T} (acc : list T) (rs : list (list T * rerr)) : option (list T * bool) :=
  match rs with
  | [] => None
  | (ts, e) :: r =>
      match e with
      | ENil => render_all (acc ++ ts) r
      | EEOF => Some (acc, false)
      | EOther => Some (acc, true)
      end
  end.

(** The responses of an octree renderer to calls with the given buffers, up to
    and including the first io.EOF. *)
Fixpoint octree_responses {E} (st : ostate E) (calls : list (list (tri E) * list nat))
  : option (list (list (tri E) * rerr)) :=
  match calls with
  | [] => Some []
  | (dst, sched) :: r =>
      match read_triangles st dst sched with
      | Returned st' dst' n eof =>
          if eof then Some [(firstn n dst', EEOF)]
          else match octree_responses st' r with
               | Some l => Some ((firstn n dst', ENil) :: l)
               | None => None
               end
      | _ => None
      end
  end.

(** io.go:29-46: operations on a TriangleBuffer and their observable results. *)
Inductive tb_op (T : Type) := TWrite (t : list T) | TRead (dst : list T) | TLen.
Arguments TWrite {T}.
Arguments TRead {T}.
Arguments TLen {T}.
Inductive tb_obs (T : Type) := OInt (n : nat) | ORead (dst : list T) (n : nat).
Arguments OInt {T}.
Arguments ORead {T}.

Definition tb_exec {T} (b : list T) (op : tb_op T) : list T * tb_obs T :=
  match op with
  | TWrite t => (tb_write b t, OInt (length t))                       (* io.go:41-44 *)
  | TRead dst => let '(d, b', n) := tb_read dst b in (b', ORead d n)  (* io.go:34-38 *)
  | TLen => (b, OInt (length b))                                      (* io.go:46 *)
  end.
Fixpoint tb_run {T} (b : list T) (ops : list (tb_op T)) : list T * list (tb_obs T) :=
  match ops with
  | [] => (b, [])
  | op :: r => let '(b1, o) := tb_exec b op in
               let '(b2, os) := tb_run b1 r in (b2, o :: os)
  end.
