(** The float32 conversions of the STL writer and reader, /repo/render/stl.go, on binary64 coordinates, and the octree renderer of [FloatRenderModel] as their source. *)
From Coq Require Import List Bool NArith ZArith Floats.SpecFloat.
From Verif Require Import Prelude OctreeModel RenderIOModel StlModel FloatRound FloatShapeModel FloatRenderModel.
Import ListNotations.
Local Open Scope N_scope.

(** The Go conversion float32(x) of stl.go:46-58, 112-124: round to the nearest float32, ties to even, and to an infinity beyond the largest one *)
Definition f32_round (x : spec_float) : spec_float :=
  match x with S754_finite s m e => binary_round 24 128 s m e | _ => x end.
(** math.Float32bits as used by stl.go:255-260; the payload of a NaN is the default one. *)
Definition f32_bits (y : spec_float) : N :=
  let sign := fun s : bool => if s then 2 ^ 31 else 0 in
  match y with
  | S754_zero s => sign s
  | S754_infinity s => sign s + 255 * 2 ^ 23
  | S754_nan => 255 * 2 ^ 23 + 2 ^ 22
  | S754_finite s m e => sign s + (if Npos m <? 2 ^ 23 then Npos m else Z.to_N (e + 150) * 2 ^ 23 + (Npos m - 2 ^ 23))
  end.
Definition to_f32 (x : spec_float) : N := f32_bits (f32_round x).
(** The Go conversion float64(f) of stl.go:297-299, with f = math.Float32frombits(w) *)
Definition of_f32 (w : N) : spec_float :=
  match f32_of_bits w with S754_finite s m e => binary_round 53 1024 s m e | y => y end.

(** The operations of [StlModel] on binary64. The normals (gonum's Triangle.Normal, Cross and Unit, stl.go:46, 112, 301-310) are arguments. *)
Definition fvec : Type := (spec_float * spec_float * spec_float)%type.
Definition go_ops (un : fvec * fvec * fvec -> fvec) (cn : w3 -> w3 -> w3 -> w3) : fops := FOps spec_float to_f32 of_f32 un cn.
(** r3.Vec and r3.Triangle as the tuples of [StlModel] *)
Definition to_fvec (p : fv3) : fvec := (f3x p, f3y p, f3z p).
Definition to_tri (t : fv3 * fv3 * fv3) : fvec * fvec * fvec := let '(a, b, c) := t in (to_fvec a, to_fvec b, to_fvec c).
(** The environment of [FloatRenderModel] with triangles of that type *)
Definition fstl_env (un : fvec * fvec * fvec -> fvec) (cn : w3 -> w3 -> w3 -> w3) (degen : fv3 * fv3 * fv3 -> bool) (F : fv3 -> spec_float) (o : fv3) (r : spec_float) (levels : nat) : env :=
  Env (tri64 (go_ops un cn)) (to_tri (FV3 fzero fzero fzero, FV3 fzero fzero fzero, FV3 fzero fzero fzero)) (fun v => map to_tri (fleaf degen F o r v)) (fis_empty F o r) levels.
