(** The STL writer of /repo/render/stl.go fed by a renderer given as a state machine (StlModel feeds it from a list), and
    the octree renderer of /repo/render/octree_renderer.go as such a machine. *)
From Coq Require Import List Arith NArith ZArith Bool.
From Verif Require Import Prelude OctreeModel RenderIOModel StlModel.
Import ListNotations.
Local Open Scope N_scope.

Section Feed.
  (** A renderer: ReadTriangles with a buffer of the given length returns the triangles and the error; None: it panics
      or does not return. *)
  Context (O : fops) {St : Type} (rd : St -> nat -> option (St * list (tri64 O) * rerr)).
  (** stl.go:101-128, as stl_read_loop *)
  Fixpoint feed_loop (fuel cap ntMax it : nat) (s : St) (out : list N) : option (res (St * list N * nat * rerr)) :=
    if Nat.ltb it ntMax then
      match fuel with
      | 0%nat => None
      | S fuel =>
          let remaining := (cap - it)%nat in
          match rd s (Nat.min ntMax remaining) with
          | None => None
          | Some (s', ts, e) =>
              if Nat.ltb ntMax (length ts) then Some Panicked
              else if Nat.ltb ((cap - it) * stl_tri_size) (length ts * stl_tri_size) then Some Panicked
              else
                let out' := out ++ flat_map (fun t => put (encode O t)) ts in
                let it' := (it + length ts)%nat in
                match e with
                | ENil => feed_loop fuel cap ntMax it' s' out'
                | _ => Some (Ok (s', out', it', e))
                end
          end
      end
    else Some (Ok (s, out, it, ENil)).
  (** stl.go:86-130, as stl_read *)
  Definition feed_read (fuel blen : nat) (s : St) : option (res (St * list N * rerr)) :=
    let cap := (blen / stl_tri_size)%nat in
    let ntMax := Nat.min cap triangles_in_buffer in
    match ntMax with
    | 0%nat => Some (Ok (s, [], EOther))
    | _ => match feed_loop fuel cap ntMax 0 s [] with
           | Some (Ok (s', out, _, e)) => Some (Ok (s', out, e))
           | Some _ => Some Panicked
           | None => None
           end
    end.
  (** io.CopyBuffer of stl.go:147, as copy_loop; [inner] is the fuel of one Read *)
  Fixpoint feed_copy (inner fuel blen : nat) (s : St) (f : file) (written : N) : option (file * N * outcome) :=
    match fuel with
    | 0%nat => None
    | S fuel =>
        match feed_read inner blen s with
        | Some (Ok (s', out, e)) =>
            let '(f', o) := match out with [] => (f, OK) | _ => f_write out f end in
            let written' := match o with OK => written + N.of_nat (length out) | _ => written end in
            match o with
            | OK => match e with
                    | ENil => feed_copy inner fuel blen s' f' written'
                    | EEOF => Some (f', written', OK)
                    | EOther => Some (f', written', Failed)
                    end
            | _ => Some (f', written', o)
            end
        | _ => None
        end
    end.
  (** stl.go:17-19 CreateSTL and 132-163 createSTL, as create_stl *)
  Definition feed_create (inner fuel blen : nat) (evs : list fev) (s : St) : option (option (list N) * outcome) :=
    let create := match evs with [] => (FOk, []) | e :: r => (e, r) end in
    match fst create with
    | FFail _ => Some (None, Failed)
    | FCrash _ => Some (None, Crashed)
    | FOk =>
        let '(f, o) := f_seek 84 (File [] 0 (snd create)) in
        match o with
        | OK =>
            match feed_copy inner fuel blen s f 0 with
            | None => None
            | Some (f, n, OK) =>
                let '(f, o) := f_seek 0 f in
                match o with
                | OK =>
                    let '(f, o) := f_write (header ((n / 50) mod 2 ^ 32)) f in
                    Some (Some (f_bytes f), o)
                | _ => Some (Some (f_bytes f), o)
                end
            | Some (f, _, o) => Some (Some (f_bytes f), o)
            end
        | _ => Some (Some (f_bytes f), o)
        end
    end.
End Feed.

(** octree_renderer.go:72-99 ReadTriangles as such a renderer.  The state carries, for each of the coming calls, the
    interleaving of its goroutines and what the buffer holds before the call. *)
Definition junk_buffer {T} (z : T) (k : nat) (junk : list T) : list T := firstn k (junk ++ repeat z k).
Definition octree_feed {E} (s : ostate E * list (list nat * list (tri E))) (k : nat)
  : option ((ostate E * list (list nat * list (tri E))) * list (tri E) * rerr) :=
  match snd s with
  | [] => None
  | (sched, junk) :: calls =>
      match read_triangles (fst s) (junk_buffer (e_zero E) k junk) sched with
      | Returned st' dst n eof => Some ((st', calls), firstn n dst, if eof then EEOF else ENil)
      | _ => None
      end
  end.
