(** Model of the octree renderer's work list, buffers and goroutines.
    Source: /repo/render/octree_renderer.go, /repo/render/io.go.

    The sampling of the SDF is abstracted by an environment: which triangles
    marching cubes produces for a finest-level cube, and whether a cube is
    pruned.  [OctreeR] instantiates it with the real geometry. *)
From Coq Require Import List Arith Lia Bool ZArith.
From Verif Require Import Prelude.
Import ListNotations.

(** /repo/veci.go: type V3i; integer coordinates (Go [int], never near overflow
    because newDc3 (octree_renderer.go:268) refuses 64 or more levels). *)
Record v3i := V3I { vx : Z; vy : Z; vz : Z }.
(** /repo/veci.go: V3i.Add *)
Definition v3i_add (a b : v3i) : v3i := V3I (vx a + vx b) (vy a + vy b) (vz a + vz b).

(** octree_renderer.go:29-32: type cube *)
Record cube := Cube { c_org : v3i; c_lev : nat }.

(** octree_renderer.go:11-13 (marchingcubes.go:12): marchingCubesMaxTriangles *)
Definition max_tris : nat := 5.

(** The sampled model: triangles written by mcToTriangles for the leaf cube at
    an origin (octree_renderer.go:189-200), the result of dc3.IsEmpty
    (octree_renderer.go:259-265), len(dc3.hdiag) = levels
    (octree_renderer.go:276), and the zero r3.Triangle a fresh buffer holds. *)
Record env := Env {
  tri : Type;
  e_zero : tri;
  e_leaf : v3i -> list tri;
  e_empty : cube -> bool;
  e_levels : nat
}.

(** octree_renderer.go:203-214: the eight sub cubes, in source order;
    [s = 1 << n]. *)
Definition sub_cubes (o : v3i) (n : nat) : list cube :=
  let s := (2 ^ Z.of_nat n)%Z in
  map (fun d => Cube (v3i_add o d) n)
    [ V3I 0 0 0; V3I s 0 0; V3I s s 0; V3I 0 s 0;
      V3I 0 0 s; V3I s 0 s; V3I s s s; V3I 0 s s ].

(** octree_renderer.go:186-228: processCube, without the counters (which are
    updated under oc.mu at the end, see [bump]).  Returns the new contents of
    dst, the number of triangles written and the new cubes.
    Level 0: [c.n - 1] wraps to 2^64-1 and hdiag is indexed out of range: panic.
    Sub cubes at a level outside hdiag: index out of range panic (line 264). *)
Definition process_cube (E : env) (dst : list (tri E)) (c : cube)
  : res (list (tri E) * nat * list cube) :=
  match c_lev c with
  | 0 => Panicked
  | S 0 =>
      (* marchingcubes.go:16-18 *)
      if length dst <? max_tris then Panicked
      else let ts := e_leaf E (c_org c) in
           (* dst[n] = t; out of range would panic (marchingcubes.go:50) *)
           if length dst <? length ts then Panicked
           else Ok (ts ++ skipn (length ts) dst, length ts, [])
  | S n =>
      if e_levels E <=? n then Panicked
      else Ok (dst, 0, filter (fun c => negb (e_empty E c)) (sub_cubes (c_org c) n))
  end.

(** State shared by the goroutines and protected by oc.mu
    (octree_renderer.go:14-27): the unwritten FIFO and the three counters. *)
Record shared (T : Type) := Shared {
  unwritten : list T;
  triangles : nat;
  cubes : nat;
  cubesP : nat
}.
Arguments Shared {T}.
Arguments unwritten {T}.
Arguments triangles {T}.
Arguments cubes {T}.
Arguments cubesP {T}.

(** octree_renderer.go:222-226: counter update of processCube *)
Definition bump {T} (s : shared T) (nt nc : nat) : shared T :=
  Shared (unwritten s) (triangles s + nt) (cubes s + nc) (cubesP s + 1).
(** io.go:41-44: TriangleBuffer.Write *)
Definition tb_write {T} (b t : list T) : list T := b ++ t.
(** io.go:34-38: TriangleBuffer.Read; returns (new dst, new buffer, n) *)
Definition tb_read {T} (dst b : list T) : list T * list T * nat :=
  let n := Nat.min (length dst) (length b) in
  (go_copy dst b, skipn n b, n).

(** Program counter of one execution of readTriangles
    (octree_renderer.go:107-130):
    [Loop]: at the head of the for loop; [Spill tmp]: processed a cube into the
    temporary buffer, about to append [tmp[:tri]] to the shared FIFO
    (lines 117-119); [Done]: returned; [Dead]: panicked. *)
Inductive phase (T : Type) := Loop | Spill (tmp : list T) | Done | Dead.
Arguments Loop {T}.
Arguments Spill {T}.
Arguments Done {T}.
Arguments Dead {T}.

(** One execution of readTriangles: its section of dst, its n, the cubes it was
    given, its loop position (cubes not yet ranged over), cubesProcessed and
    newCubes. *)
Record worker (E : env) := Worker {
  w_dst : list (tri E);
  w_n : nat;
  w_todo : list cube;
  w_rest : list cube;
  w_nc : nat;
  w_new : list cube;
  w_phase : phase (tri E)
}.
Arguments Worker {E}.
Arguments w_dst {E}.
Arguments w_n {E}.
Arguments w_todo {E}.
Arguments w_rest {E}.
Arguments w_nc {E}.
Arguments w_new {E}.
Arguments w_phase {E}.

(** Entry of readTriangles (octree_renderer.go:107). *)
Definition start_worker {E} (dst : list (tri E)) (todo : list cube) : worker E :=
  Worker dst 0 todo todo 0 [] Loop.

Definition with_phase {E} (w : worker E) (p : phase (tri E)) : worker E :=
  Worker (w_dst w) (w_n w) (w_todo w) (w_rest w) (w_nc w) (w_new w) p.

(** One atomic step of a goroutine running readTriangles.  A step is either one
    iteration of the loop up to and including the counter update made under
    oc.mu by processCube, or the append to the FIFO made under oc.mu.
    Everything else a goroutine touches is its own section of dst, its own
    section of todo and the distance cache (see [CacheModel]). *)
Definition step_worker {E} (s : shared (tri E)) (w : worker E)
  : shared (tri E) * worker E :=
  match w_phase w with
  | Done => (s, w)
  | Dead => (s, w)
  | Spill tmp =>
      (Shared (tb_write (unwritten s) tmp) (triangles s) (cubes s) (cubesP s),
       with_phase w Done)
  | Loop =>
      match w_rest w with
      | [] => (s, with_phase w Done)
      | c :: rest =>
          if w_n w =? length (w_dst w) then (s, with_phase w Done)
          else if length (w_dst w) <? w_n w + max_tris then
            (* lines 113-122; tmp is a fresh 5 element buffer *)
            match process_cube E (repeat (e_zero E) max_tris) c with
            | Ok (tmp, nt, nc) =>
                (bump s nt (length nc),
                 Worker (w_dst w) (w_n w) (w_todo w) rest (S (w_nc w))
                        (w_new w ++ nc) (Spill (firstn nt tmp)))
            | _ => (s, with_phase w Dead)
            end
          else
            (* lines 124-127 *)
            match process_cube E (skipn (w_n w) (w_dst w)) c with
            | Ok (d, nt, nc) =>
                (bump s nt (length nc),
                 Worker (firstn (w_n w) (w_dst w) ++ d) (w_n w + nt) (w_todo w) rest
                        (S (w_nc w)) (w_new w ++ nc) Loop)
            | _ => (s, with_phase w Dead)
            end
      end
  end.

(** ** Schedules *)
Fixpoint update {A} (l : list A) (i : nat) (x : A) : list A :=
  match l, i with
  | [], _ => []
  | _ :: r, 0 => x :: r
  | a :: r, S j => a :: update r j x
  end.

(** The scheduler lets worker [i] make one step. *)
Definition step_cfg {E} (s : shared (tri E)) (ws : list (worker E)) (i : nat)
  : shared (tri E) * list (worker E) :=
  match nth_error ws i with
  | None => (s, ws)
  | Some w => let '(s', w') := step_worker s w in (s', update ws i w')
  end.

Fixpoint run {E} (sched : list nat) (s : shared (tri E)) (ws : list (worker E))
  : shared (tri E) * list (worker E) :=
  match sched with
  | [] => (s, ws)
  | i :: r => let '(s', ws') := step_cfg s ws i in run r s' ws'
  end.

Definition is_done {E} (w : worker E) : bool :=
  match w_phase w with Done => true | _ => false end.
Definition is_dead {E} (w : worker E) : bool :=
  match w_phase w with Dead => true | _ => false end.

(** ** Consolidation of the workers' output *)

(** octree_renderer.go:141-159: the sections of dst and todo given to worker
    [i] of [conc]. *)
Definition work_section {A} (l : list A) (conc i : nat) : res (list A) :=
  let div := length l / conc in
  if i =? conc - 1 then slice_from (div * i) l
  else slice (div * i) (div * i + div) l.

Fixpoint collect {A} (n : nat) (f : nat -> res A) : res (list A) :=
  match n with
  | 0 => Ok []
  | S m => do l <- collect m f; do x <- f m; Ok (l ++ [x])
  end.

(** The list of goroutines started by readTrianglesThreaded. *)
Definition start_workers {E} (conc : nat) (dst : list (tri E)) (todo : list cube)
  : res (list (worker E)) :=
  collect conc (fun i =>
    do d <- work_section dst conc i;
    do t <- work_section todo conc i;
    Ok (start_worker d t)).

(** octree_renderer.go:161-181: one iteration [i] of the consolidation loop.
    State: dst, offset, nt, new todo.  [lens] is [len(work[i])] after
    truncation, [cw] is [cubeWork[i]] after dropping processed cubes, [nw] is
    [newCubesC[i]]. *)
Definition consolidate_step {A} (conc div i : nat) (len : nat) (cw nw : list cube)
  (st : list A * nat * nat * list cube) : res (list A * nat * nat * list cube) :=
  let '(dst, offset, nt, todo) := st in
  let start := div * i - offset in
  do (dst', offset') <-
    (if negb (i =? conc - 1) && negb (len =? div) then
       do dview <- slice_from (start + len) dst;
       do sview <- slice_from (start + div) dst;
       Ok (firstn (start + len) dst ++ go_copy dview sview, offset + (div - len))
     else Ok (dst, offset));
  Ok (dst', offset', nt + len, todo ++ cw ++ nw).

Fixpoint consolidate {A} (conc div i : nat) (parts : list (nat * list cube * list cube))
  (st : list A * nat * nat * list cube) : res (list A * nat * nat * list cube) :=
  match parts with
  | [] => Ok st
  | (len, cw, nw) :: r =>
      do st' <- consolidate_step conc div i len cw nw st;
      consolidate conc div (S i) r st'
  end.

(** What a finished worker hands over (octree_renderer.go:153-156). *)
Definition worker_part {E} (w : worker E) : res (nat * list cube * list cube) :=
  do cw <- slice_from (w_nc w) (w_todo w);
  if w_n w <=? length (w_dst w) then Ok (w_n w, cw, w_new w) else Panicked.

Fixpoint mapM {A B} (f : A -> res B) (l : list A) : res (list B) :=
  match l with
  | [] => Ok []
  | x :: r => do y <- f x; do ys <- mapM f r; Ok (y :: ys)
  end.

(** ** The renderer *)

(** octree_renderer.go:14-27: type octree *)
Record ostate (E : env) := OState {
  o_todo : list cube;
  o_sh : shared (tri E);
  o_conc : Z
}.
Arguments OState {E}.
Arguments o_todo {E}.
Arguments o_sh {E}.
Arguments o_conc {E}.

(** octree_renderer.go:61-67: initial state built by NewOctreeRenderer, for
    [levels] levels; [concurrent] is the (unexported) concurrency field. *)
Definition init_octree (E : env) (conc : Z) : ostate E :=
  OState [Cube (V3I 0 0 0) (e_levels E - 1)] (Shared [] 0 1 0) conc.

(** Outcome of a call: it returned (new state, contents of dst, n, err = io.EOF),
    it panicked, or the given schedule was too short for the goroutines to
    finish. *)
Inductive outcome (E : env) :=
| Returned (st : ostate E) (dst : list (tri E)) (n : nat) (eof : bool)
| CallPanic
| Unfinished.
Arguments Returned {E}.
Arguments CallPanic {E}.
Arguments Unfinished {E}.

(** octree_renderer.go:72-99: ReadTriangles.  [sched] chooses the interleaving
    of the goroutines; the sequential call (lines 88-93) is one execution of
    readTriangles, i.e. a single worker. *)
Definition read_triangles {E} (st : ostate E) (dst : list (tri E)) (sched : list nat)
  : outcome E :=
  if length dst =? 0 then CallPanic                               (* 73-75 *)
  else
    let '(dst1, unw1, n) :=
      if 0 <? length (unwritten (o_sh st)) then tb_read dst (unwritten (o_sh st))
      else (dst, unwritten (o_sh st), 0) in                       (* 76-77 *)
    let sh1 := Shared unw1 (triangles (o_sh st)) (cubes (o_sh st)) (cubesP (o_sh st)) in
    let st1 := OState (o_todo st) sh1 (o_conc st) in
    if n =? length dst then Returned st1 dst1 n false             (* 78-80 *)
    else if (length (o_todo st) =? 0) && (length unw1 =? 0)
    then Returned st1 dst1 n true                                 (* 82-85 *)
    else
      let d := skipn n dst1 in
      if (Z.ltb (o_conc st) 1
          || Z.ltb (Z.of_nat (length (o_todo st))) (o_conc st)
          || Z.ltb (Z.of_nat (length dst)) (o_conc st))%Z%bool      (* 88 *)
      then
        match run sched sh1 [start_worker d (o_todo st)] with
        | (sh2, [w]) =>
            if is_dead w then CallPanic
            else if is_done w then
              (* 90-91: todo = append(todo, newCubes...)[nc:] *)
              match slice_from (w_nc w) (o_todo st ++ w_new w) with
              | Ok todo' =>
                  Returned (OState todo' sh2 (o_conc st))
                           (firstn n dst1 ++ w_dst w) (n + w_n w) false
              | _ => CallPanic
              end
            else Unfinished
        | _ => CallPanic
        end
      else
        let conc := Z.to_nat (o_conc st) in
        match start_workers conc d (o_todo st) with
        | Ok ws =>
            let '(sh2, ws') := run sched sh1 ws in
            if existsb is_dead ws' then CallPanic
            else if forallb is_done ws' then
              (* the sections of dst are views of the same array *)
              let d2 := concat (map w_dst ws') in
              match mapM worker_part ws' with
              | Ok parts =>
                  match consolidate conc (length d / conc) 0 parts (d2, 0, 0, []) with
                  | Ok (d3, _, nt, todo') =>
                      Returned (OState todo' sh2 (o_conc st))
                               (firstn n dst1 ++ d3) (n + nt) false
                  | _ => CallPanic
                  end
              | _ => CallPanic
              end
            else Unfinished
        | _ => CallPanic
        end.

(** A history of calls: buffers handed in and schedules; collects the triangles
    delivered (the first n entries of each returned buffer) and stops at the
    first io.EOF.  Returns the delivered triangles, the final state and whether
    io.EOF was returned. *)
Fixpoint history {E} (st : ostate E) (calls : list (list (tri E) * list nat))
  : option (list (tri E) * ostate E * bool) :=
  match calls with
  | [] => Some ([], st, false)
  | (dst, sched) :: r =>
      match read_triangles st dst sched with
      | Returned st' dst' n true => Some (firstn n dst', st', true)
      | Returned st' dst' n false =>
          match history st' r with
          | Some (ts, stf, e) => Some (firstn n dst' ++ ts, stf, e)
          | None => None
          end
      | _ => None
      end
  end.
