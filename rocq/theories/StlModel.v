(** Model of /repo/render/stl.go: the STL writer, the streaming CreateSTL and the
    reader. *)
From Coq Require Import List Arith NArith ZArith Bool Floats.SpecFloat.
From Verif Require Import Prelude RenderIOModel.
Import ListNotations.
Local Open Scope N_scope.

(** ** Bytes *)
(** binary.LittleEndian.PutUint32 and Uint32; bytes are [N] below 256. *)
Definition le32 (n : N) : list N := [n mod 256; n / 2 ^ 8 mod 256; n / 2 ^ 16 mod 256; n / 2 ^ 24 mod 256].
Definition un_le32 (b : list N) : N :=
  nth 0 b 0 + nth 1 b 0 * 2 ^ 8 + nth 2 b 0 * 2 ^ 16 + nth 3 b 0 * 2 ^ 24.

(** [3]float32 as three bit patterns. *)
Definition w3 : Type := (N * N * N)%type.
(** stl.go:224-230: stlTriangle *)
Record stl_tri := StlTri { s_n : w3; s_1 : w3; s_2 : w3; s_3 : w3 }.

(** stl.go:255-260: put3F32 *)
Definition put3 (f : w3) : list N := let '(a, b, c) := f in le32 a ++ le32 b ++ le32 c.
(** stl.go:232-242: stlTriangle.put, the 50 bytes written *)
Definition put (t : stl_tri) : list N := put3 (s_n t) ++ put3 (s_1 t) ++ put3 (s_2 t) ++ put3 (s_3 t) ++ [0; 0].
(** stl.go:262-267: get3F32 *)
Definition get3 (b : list N) : w3 := (un_le32 b, un_le32 (skipn 4 b), un_le32 (skipn 8 b)).
(** stl.go:244-253: stlTriangle.get *)
Definition get (b : list N) : stl_tri :=
  StlTri (get3 b) (get3 (skipn 12 b)) (get3 (skipn 24 b)) (get3 (skipn 36 b)).
(** stl.go:74-77: stlHeader.put on a zeroed array *)
Definition header (count : N) : list N := repeat 0 80 ++ le32 count.

(** ** float32 values *)
(** math.Float32frombits as a SpecFloat number (24 bits, emax 128). *)
Definition f32_of_bits (w : N) : spec_float :=
  let s := N.testbit w 31 in
  let e := w / 2 ^ 23 mod 256 in
  let m := w mod 2 ^ 23 in
  if e =? 255 then (if m =? 0 then S754_infinity s else S754_nan)
  else if e =? 0 then match m with N0 => S754_zero s | Npos p => S754_finite s p (-149) end
  else match m + 2 ^ 23 with N0 => S754_zero s | Npos p => S754_finite s p (Z.of_N e - 150) end.
(** math32.Abs(a-b) <= tol *)
Definition close32 (tol a b : N) : bool :=
  SFleb (SFabs (SFsub 24 128 (f32_of_bits a) (f32_of_bits b))) (f32_of_bits tol).
(** math32.IsNaN || math32.IsInf: all exponent bits set *)
Definition bad32 (w : N) : bool := w / 2 ^ 23 mod 256 =? 255.
(** stl.go:269-273: bad3F32 *)
Definition bad3 (f : w3) : bool := let '(a, b, c) := f in bad32 a || bad32 b || bad32 c.
(** stl.go:321-325: equalWithin3F32 *)
Definition equal_within (tol : N) (a b : w3) : bool :=
  let '(a0, a1, a2) := a in let '(b0, b1, b2) := b in
  close32 tol a0 b0 && close32 tol a1 b1 && close32 tol a2 b2.
(** stl.go:278-279: float32(1e-12) and float32(5e-2) as bits *)
Definition eps_deg : N := 0x2b8cbccc.
Definition tol_norm : N := 0x3d4ccccd.
(** stl.go:313-319: degenerate *)
Definition degenerate (t : stl_tri) : bool :=
  equal_within eps_deg (s_1 t) (s_2 t) || equal_within eps_deg (s_2 t) (s_3 t) || equal_within eps_deg (s_3 t) (s_1 t).

(** ** The float operations left abstract *)
(** [to32]: bits of float32(x); [of32]: float64 of a float32 bit pattern;
    [unit_normal]: r3.Unit(triangle.Normal()) in float64 (stl.go:46, 112);
    [calc_normal]: normalFromVertices (stl.go:301-310). *)
Record fops := FOps {
  F : Type;
  to32 : F -> N;
  of32 : N -> F;
  unit_normal : (F * F * F) * (F * F * F) * (F * F * F) -> F * F * F;
  calc_normal : w3 -> w3 -> w3 -> w3
}.
Definition wf_fops (O : fops) : Prop := forall x, to32 O x < 2 ^ 32.

Section Stl.
  Context (O : fops).
  Definition vec64 : Type := (F O * F O * F O)%type.
  Definition tri64 : Type := (vec64 * vec64 * vec64)%type.
  Definition vec_to32 (v : vec64) : w3 := let '(a, b, c) := v in (to32 O a, to32 O b, to32 O c).
  (** stl.go:297-299: r3From3F32 *)
  Definition vec_of32 (w : w3) : vec64 := let '(a, b, c) := w in (of32 O a, of32 O b, of32 O c).
  (** stl.go:46-58 and 112-124: the record written for a triangle *)
  Definition encode (t : tri64) : stl_tri :=
    let '(a, b, c) := t in StlTri (vec_to32 (unit_normal O t)) (vec_to32 a) (vec_to32 b) (vec_to32 c).
  (** stl.go:327-333: stlTriangle.Triangle *)
  Definition decode (d : stl_tri) : tri64 := (vec_of32 (s_1 d), vec_of32 (s_2 d), vec_of32 (s_3 d)).

  (** stl.go:277-295: validate *)
  Inductive verdict := Valid | Mismatch | Invalid.
  (** -calcNormal: flips the sign bit *)
  Definition neg32 (w : N) : N := N.lxor w (2 ^ 31).
  Definition neg3 (w : w3) : w3 := let '(a, b, c) := w in (neg32 a, neg32 b, neg32 c).
  Definition validate (t : stl_tri) : verdict :=
    if bad3 (s_n t) then Invalid
    else if bad3 (s_1 t) || bad3 (s_2 t) || bad3 (s_3 t) then Invalid
    else if degenerate t then Invalid
    else let n := calc_normal O (s_1 t) (s_2 t) (s_3 t) in
         if negb (equal_within tol_norm n (s_n t)) && negb (equal_within tol_norm (neg3 n) (s_n t))
         then Mismatch else Valid.

  (** ** WriteSTL, stl.go:22-66 *)
  (** The sequence of w.Write calls (io.Copy of a bytes.Reader is one Write). *)
  Definition write_stl (model : list tri64) : res (list (list N)) :=
    match model with
    | [] => Err
    | _ =>
        let nt := N.of_nat (length model) in
        if 2 ^ 32 - 1 <? nt then Err
        else Ok (header nt :: map (fun t => put (encode t)) model)
    end.
  (** Writing the calls to an io.Writer whose [fail]-th call (counting from 0)
      fails after writing [k] bytes of it: bytes written, and whether WriteSTL
      returned a nil error. *)
  Fixpoint exec_writes (fail : option (nat * nat)) (ws : list (list N)) : list N * bool :=
    match ws with
    | [] => ([], true)
    | w :: r =>
        match fail with
        | Some (0%nat, k) => (firstn k w, false)
        | Some (S i, k) => let '(b, ok) := exec_writes (Some (i, k)) r in (w ++ b, ok)
        | None => let '(b, ok) := exec_writes None r in (w ++ b, ok)
        end
    end.
  Definition run_write_stl (fail : option (nat * nat)) (model : list tri64) : list N * bool :=
    match write_stl model with
    | Ok ws => exec_writes fail ws
    | _ => ([], false)
    end.
End Stl.

(** ** Sources: io.Reader for bytes, Renderer for triangles *)
(** How the next call behaves: delivers at most [c] items, [eof] tells whether the
    end is reported together with the last item; or fails.  [Chunk 0 false] delivers nothing and reports no error, even
    if nothing is left. *)
Inductive ev := Chunk (c : nat) (eof : bool) | Fail.
(** What is still to be delivered, and the behaviour of the coming calls (once
    exhausted: deliver as much as fits). *)
Record src (T : Type) := Src { s_data : list T; s_evs : list ev }.
Arguments Src {T}.
Arguments s_data {T}.
Arguments s_evs {T}.

(** A call with a buffer of [k] items. *)
Definition src_read {T} (k : nat) (s : src T) : src T * list T * rerr :=
  let d := s_data s in
  match s_evs s with
  | Fail :: r => (Src d r, [], EOther)
  | Chunk c eof :: r =>
      match d with
      | [] => if Nat.eqb c 0 && negb eof then (Src d r, [], ENil) else (Src d r, [], EEOF)
      | _ => let n := Nat.min c (Nat.min k (length d)) in
             (Src (skipn n d) r, firstn n d, if eof && Nat.eqb n (length d) then EEOF else ENil)
      end
  | [] =>
      match d with
      | [] => (s, [], EEOF)
      | _ => let n := Nat.min k (length d) in (Src (skipn n d) [], firstn n d, ENil)
      end
  end.

(** ** stlReader.Read, stl.go:86-130 *)
Definition triangles_in_buffer : nat := (2 ^ 14)%nat.
Definition stl_tri_size : nat := 50.

(** stl.go:101-128: the loop, on a buffer with room for [cap] = len(b)/50 records;
    [it] records done, their bytes in [out].  [None]: out of fuel. *)
Fixpoint stl_read_loop (O : fops) (fuel cap ntMax it : nat) (s : src (tri64 O)) (out : list N)
  : option (res (src (tri64 O) * list N * nat * rerr)) :=
  if Nat.ltb it ntMax then
    match fuel with
    | 0%nat => None
    | S fuel =>
        let remaining := (cap - it)%nat in
        let '(s', ts, e) := src_read (Nat.min ntMax remaining) s in
        if Nat.ltb ntMax (length ts) then Some Panicked               (* stl.go:105 *)
        else if Nat.ltb ((cap - it) * stl_tri_size) (length ts * stl_tri_size) then Some Panicked  (* :108 *)
        else
          let out' := out ++ flat_map (fun t => put (encode O t)) ts in
          let it' := (it + length ts)%nat in
          match e with
          | ENil => stl_read_loop O fuel cap ntMax it' s' out'
          | _ => Some (Ok (s', out', it', e))
          end
    end
  else Some (Ok (s, out, it, ENil)).

(** Enough fuel: every call consumes an event or, without events, data. *)
Definition src_fuel {T} (s : src T) : nat := S (length (s_data s) + length (s_evs s)).

(** stl.go:86-130: Read into a buffer of [blen] bytes; the error of line 91 is
    [EOther]. *)
Definition stl_read (O : fops) (blen : nat) (s : src (tri64 O))
  : option (res (src (tri64 O) * list N * rerr)) :=
  let cap := (blen / stl_tri_size)%nat in
  let ntMax := Nat.min cap triangles_in_buffer in
  match ntMax with
  | 0%nat => Some (Ok (s, [], EOther))
  | _ => match stl_read_loop O (src_fuel s) cap ntMax 0 s [] with
         | Some (Ok (s', out, _, e)) => Some (Ok (s', out, e))
         | Some _ => Some Panicked
         | None => None
         end
  end.

(** ** createSTL, stl.go:132-163 *)
(** File operations succeed, fail after [k] bytes, or the process dies after [k]
    bytes of the operation reached the file. *)
Inductive fev := FOk | FFail (k : nat) | FCrash (k : nat).
Record file := File { f_bytes : list N; f_pos : nat; f_evs : list fev }.
Inductive outcome := OK | Failed | Crashed.

(** Bytes of the file after writing [bs] at [pos]; a gap is filled with zeros. *)
Definition write_at (content : list N) (pos : nat) (bs : list N) : list N :=
  firstn pos (content ++ repeat 0 (pos - length content)) ++ bs ++ skipn (pos + length bs) content.

Definition next_ev (f : file) : fev * list fev :=
  match f_evs f with [] => (FOk, []) | e :: r => (e, r) end.
Definition f_write (bs : list N) (f : file) : file * outcome :=
  let '(e, r) := next_ev f in
  match e with
  | FOk => (File (write_at (f_bytes f) (f_pos f) bs) (f_pos f + length bs) r, OK)
  | FFail k => let b := firstn k bs in
      (File (match b with [] => f_bytes f | _ => write_at (f_bytes f) (f_pos f) b end) (f_pos f + length b) r, Failed)
  | FCrash k => let b := firstn k bs in
      (File (match b with [] => f_bytes f | _ => write_at (f_bytes f) (f_pos f) b end) (f_pos f + length b) r, Crashed)
  end.
Definition f_seek (p : nat) (f : file) : file * outcome :=
  let '(e, r) := next_ev f in
  match e with
  | FOk => (File (f_bytes f) p r, OK)
  | FFail _ => (File (f_bytes f) (f_pos f) r, Failed)
  | FCrash _ => (File (f_bytes f) (f_pos f) r, Crashed)
  end.

(** io.CopyBuffer (stl.go:147) with a buffer of [blen] bytes: Read, Write what was
    read, stop at io.EOF.  (os.File.ReadFrom may make io.CopyBuffer use its own
    32 KiB buffer instead of the one supplied: [blen] is a parameter.)  Returns
    the file, the number of bytes copied and the outcome.  [None]: panic or out
    of fuel. *)
Fixpoint copy_loop (O : fops) (fuel blen : nat) (s : src (tri64 O)) (f : file) (written : N)
  : option (file * N * outcome) :=
  match fuel with
  | 0%nat => None
  | S fuel =>
      match stl_read O blen s with
      | Some (Ok (s', out, e)) =>
          let '(f', o) := match out with [] => (f, OK) | _ => f_write out f end in
          let written' := match o with OK => written + N.of_nat (length out) | _ => written end in
          match o with
          | OK => match e with
                  | ENil => copy_loop O fuel blen s' f' written'
                  | EEOF => Some (f', written', OK)
                  | EOther => Some (f', written', Failed)
                  end
          | _ => Some (f', written', o)
          end
      | _ => None
      end
  end.

(** stl.go:132-163: createSTL.  The first event is os.Create's.  Result: the bytes
    of the file on disk ([None] if it was never created) and the outcome. *)
Definition create_stl (O : fops) (blen : nat) (evs : list fev) (s : src (tri64 O))
  : option (option (list N) * outcome) :=
  let create := match evs with [] => (FOk, []) | e :: r => (e, r) end in
  match fst create with
  | FFail _ => Some (None, Failed)
  | FCrash _ => Some (None, Crashed)
  | FOk =>
      let '(f, o) := f_seek 84 (File [] 0 (snd create)) in
      match o with
      | OK =>
          match copy_loop O (src_fuel s) blen s f 0 with
          | None => None
          | Some (f, n, OK) =>
              let '(f, o) := f_seek 0 f in
              match o with
              | OK =>
                  (* Count: uint32(n/50) *)
                  let '(f, o) := f_write (header ((n / 50) mod 2 ^ 32)) f in
                  Some (Some (f_bytes f), o)
              | _ => Some (Some (f_bytes f), o)
              end
          | Some (f, _, o) => Some (Some (f_bytes f), o)
          end
      | _ => Some (Some (f_bytes f), o)
      end
  end.

(** ** readBinarySTL, stl.go:172-221 *)
(** Results of io.ReadFull used by binary.Read for the header (stl.go:174): an error
    of the reader is ignored if all bytes arrived. *)
Fixpoint read_full (fuel : nat) (need : nat) (s : src N) (acc : list N) : option (src N * list N * bool) :=
  match need with
  | 0%nat => Some (s, acc, true)
  | _ =>
    match fuel with
    | 0%nat => None
    | S fuel =>
        let '(s', bs, e) := src_read need s in
        let acc' := acc ++ bs in
        let need' := (need - length bs)%nat in
        match need' with
        | 0%nat => Some (s', acc', true)
        | _ => match e with ENil => read_full fuel need' s' acc' | _ => Some (s', acc', false) end
        end
    end
  end.
(** stl.go:195-202: the loop reading the 50 bytes of a triangle: any error ends it
    at once. *)
Fixpoint read_50 (fuel : nat) (need : nat) (s : src N) (acc : list N) : option (src N * list N * bool) :=
  match need with
  | 0%nat => Some (s, acc, true)
  | _ =>
    match fuel with
    | 0%nat => None
    | S fuel =>
        let '(s', bs, e) := src_read need s in
        match e with
        | ENil => read_50 fuel (need - length bs) s' (acc ++ bs)
        | _ => Some (s', acc, false)
        end
    end
  end.

(** Errors of readBinarySTL. *)
Inductive stl_err := NoErr | HeaderErr | ZeroErr | ReadErr | InvalidErr | TooMany | MismatchErr.

(** stl.go:194-217: [k] triangles to go, output so far, number of mismatches so
    far (readErr is non-nil iff it is positive).  Result: the output slice (nil
    is []), the error, the rest of the input. *)
Fixpoint read_tris (O : fops) (k : nat) (s : src N) (out : list (tri64 O)) (mism : nat)
  : option (list (tri64 O) * stl_err * src N) :=
  match k with
  | 0%nat => Some (out, if Nat.eqb mism 0 then NoErr else MismatchErr, s)
  | S k =>
      match read_50 (src_fuel s) 50 s [] with
      | None => None
      | Some (s', _, false) => Some ([], ReadErr, s')
      | Some (s', buf, true) =>
          let d := get buf in
          match validate O d with
          | Invalid => Some ([], InvalidErr, s')
          | Mismatch =>
              if Nat.ltb 10000 (S mism) then Some (out, TooMany, s')
              else read_tris O k s' (out ++ [decode O d]) (S mism)
          | Valid => read_tris O k s' (out ++ [decode O d]) mism
          end
      end
  end.
Definition read_binary_stl (O : fops) (s : src N) : option (list (tri64 O) * stl_err * src N) :=
  match read_full (src_fuel s) 84 s [] with
  | None => None
  | Some (s', _, false) => Some ([], HeaderErr, s')
  | Some (s', hdr, true) =>
      let count := un_le32 (skipn 80 hdr) in
      if count =? 0 then Some ([], ZeroErr, s')
      else read_tris O (N.to_nat count) s' [] 0
  end.
