(** Boolean operations on float64 values, bit for bit.  Values are the [spec_float] of the standard
    library: all finite numbers, both zeros, both infinities and NaN (one NaN, since no code looks
    at NaN payloads).  No operation here rounds. *)
From Coq Require Import List Bool ZArith Floats.SpecFloat.
Import ListNotations.

Definition is_nan (x : spec_float) : bool := match x with S754_nan => true | _ => false end.
(** The conditions of Go's math.Min and math.Max: IsInf(x, -1), IsInf(x, 1), x == 0, Signbit(x). *)
Definition is_ninf (x : spec_float) : bool := match x with S754_infinity true => true | _ => false end.
Definition is_pinf (x : spec_float) : bool := match x with S754_infinity false => true | _ => false end.
Definition is_zero (x : spec_float) : bool := SFeqb x (S754_zero false).
Definition signbit (x : spec_float) : bool :=
  match x with S754_zero s | S754_infinity s | S754_finite s _ _ => s | S754_nan => false end.
(** Go standard library, math/dim.go Min and Max (the cases in their order). *)
Definition go_min (x y : spec_float) : spec_float :=
  if is_ninf x || is_ninf y then S754_infinity true
  else if is_nan x || is_nan y then S754_nan
  else if is_zero x && SFeqb x y then (if signbit x then x else y)
  else if SFltb x y then x else y.
Definition go_max (x y : spec_float) : spec_float :=
  if is_pinf x || is_pinf y then S754_infinity false
  else if is_nan x || is_nan y then S754_nan
  else if is_zero x && SFeqb x y then (if signbit x then y else x)
  else if SFltb y x then x else y.

(** math.MaxFloat64 = (2^53 - 1) * 2^971. *)
Definition fmax64 : spec_float := S754_finite false 9007199254740991 971.

(** sdf3.go:442-452 union3.Evaluate and sdf2.go:436-447 union2.EvaluateSlow on the values of the
    members: the first value, then [s.min] with each of the others. *)
Definition funion (x : spec_float) (xs : list spec_float) : spec_float := fold_left go_min xs x.
(** sdf3.go:487-489, sdf2.go:480-482 Evaluate of a difference. *)
Definition fdiff (a b : spec_float) : spec_float := go_max a (SFopp b).
(** sdf3.go:559-561, sdf2.go:639-641 Evaluate of an intersection. *)
Definition finter (a b : spec_float) : spec_float := go_max a b.
(** sdf3.go:635-646, 688-698, sdf2.go:199-209, 249-259 Evaluate of arrays and rotated copies: the
    running minimum starts at math.MaxFloat64; the list has the values of the copies. *)
Definition fcopies (xs : list spec_float) : spec_float := fold_left go_min xs fmax64.

(** Trees of these operations over arbitrary fields.  [Copies gs t] evaluates [t] at the points
    [g p] for the maps [g] of the copies (computed in float64 by the code, arbitrary here). *)
Inductive tree (P : Type) : Type :=
| Leaf (f : P -> spec_float)
| Union (t : tree P) (ts : forest P)
| Diff (a b : tree P)
| Inter (a b : tree P)
| Copies (gs : list (P -> P)) (t : tree P)
with forest (P : Type) : Type :=
| FNil
| FCons (t : tree P) (ts : forest P).
Arguments Leaf {P}. Arguments Union {P}. Arguments Diff {P}. Arguments Inter {P}. Arguments Copies {P}.
Arguments FNil {P}. Arguments FCons {P}.
Scheme tree_mut := Induction for tree Sort Prop with forest_mut := Induction for forest Sort Prop.
Combined Scheme tree_forest_ind from tree_mut, forest_mut.

(** The value computed by the nested Evaluate calls. *)
Fixpoint feval {P} (t : tree P) (p : P) : spec_float :=
  match t with
  | Leaf f => f p
  | Union t ts => funion (feval t p) (fevals ts p)
  | Diff a b => fdiff (feval a p) (feval b p)
  | Inter a b => finter (feval a p) (feval b p)
  | Copies gs t => fcopies (map (fun g => feval t (g p)) gs)
  end
with fevals {P} (ts : forest P) (p : P) : list spec_float :=
  match ts with FNil => [] | FCons t ts => feval t p :: fevals ts p end.
