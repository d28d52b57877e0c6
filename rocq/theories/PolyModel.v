(** Polygons and the polygon builder, /repo/form2/must2/poly.go, over R. *)
From Coq Require Import Reals List Bool ZArith Floats.SpecFloat.
From Verif Require Import Prelude Vec BoxModel MatrixModel SdfModel McRealModel.
Import ListNotations.
Local Open Scope R_scope.

(** form2/must2/util.go:7 *)
Definition tolerance : R := 1 / 10 ^ 9.
(** internal/d2/vector.go:16-18 EqualWithin *)
Definition equal_within2 (a b : v2) (tol : R) : bool :=
  Rleb (Rabs (x2 a - x2 b)) tol && Rleb (Rabs (y2 a - y2 b)) tol.
(** The pairs (vertex[i], vertex[i+1]) the loops of Polygon and Evaluate visit. *)
Definition poly_edges (l : list v2) : list (v2 * v2) := combine l (tl l).
(** poly.go:29-33: close the loop if necessary *)
Definition close_loop (a : v2) (l : list v2) : list v2 :=
  if equal_within2 a (last l a) tolerance then l else l ++ [a].
(** poly.go:62-100, the body of the loop of Evaluate; the state is (dd, wn, pb). *)
Definition poly_step (p : v2) (st : R * Z * v2) (e : v2 * v2) : R * Z * v2 :=
  let '(dd, wn, pa) := st in
  let '(a, b) := e in
  let l := sub2 b a in
  let len := norm2 l in
  let vec := unit2 l in
  let pb := sub2 p b in
  let t := dot2 pa vec in
  let dn := dot2 pa (V2 (y2 vec) (- x2 vec)) in
  let dd := if Rltb t 0 then Rmin dd (norm2sq pa) else if Rltb len t then Rmin dd (norm2sq pb) else Rmin dd (dn * dn) in
  let wn := if Rleb (y2 a) (y2 p)
            then if Rltb (y2 p) (y2 b) then if Rltb dn 0 then (wn + 1)%Z else wn else wn
            else if Rleb (y2 b) (y2 p) then if Rltb 0 dn then (wn - 1)%Z else wn else wn in
  (dd, wn, pb).
(** poly.go:56-107 Evaluate *)
Definition poly_eval (l : list v2) (p : v2) : R :=
  let '(dd, wn, _) := fold_left (poly_step p) (poly_edges l) (max_float64, 0%Z, sub2 p (hd zero2 l)) in
  let d := sqrt dd in
  if (wn =? 0)%Z then d else - d.
(** poly.go:40-52: the box of vertex[0..nsegs-1] *)
Definition poly_box (l : list v2) : box2 :=
  let c := hd zero2 l in
  Box2 (vset_min c (map fst (poly_edges l))) (vset_max c (map fst (poly_edges l))).
(** poly.go:21-54 Polygon.  The unit vectors and lengths stored per segment are recomputed
    by [poly_step]; the closing append copies (its effect on spare capacity of the caller's
    slice is not modelled). *)
Definition polygon (vs : list v2) : res sdf2 :=
  match vs with
  | a :: _ :: _ :: _ => let l := close_loop a vs in Ok (S2 (poly_eval l) (poly_box l))
  | _ => Panicked
  end.

(** poly.go:430-442 Nagon; nil is the empty list. *)
Fixpoint iterate {A} (f : A -> A) (n : nat) (x : A) : list A :=
  match n with O => [] | S k => x :: iterate f k (f x) end.
Definition nagon (n : Z) (radius : R) : list v2 :=
  if (n <? 3)%Z then [] else iterate (mul_pos22 (rotate22 (2 * PI / IZR n))) (Z.to_nat n) (V2 radius 0).

(** ** Builder *)
(** poly.go:123-141 *)
Inductive pvtype := PvNormal | PvSmooth | PvArc.
Record pvertex := PV { pv_rel : bool; pv_type : pvtype; pv_pos : v2; pv_facets : Z; pv_radius : R }.
(** polygonVertex{vertex: x} and poly.go:384-390 AddV2 *)
Definition pv_at (x : v2) : pvertex := PV false PvNormal x 0 0.
(** poly.go:117-121; [None] is the nil slice. *)
Record builder := Builder { b_closed : bool; b_reverse : bool; b_list : option (list pvertex) }.
Definition new_polygon : builder := Builder false false None.
(** util.go:13-20 Sign *)
Definition sign (f : R) : R := if Reqb f 0 then 0 else if Rltb f 0 then -1 else 1.
(** util.go:6 sqrtHalf = 0.7071067811865476, kept as sqrt(1/2) *)
Definition sqrt_half : R := sqrt (1 / 2).

(** poly.go:144-186, the vertex modifiers *)
Inductive vmod := MRel | MPolar | MSmooth (r : R) (f : Z) | MChamfer (size : R) | MArc (r : R) (f : Z).
Definition apply_mod (v : pvertex) (m : vmod) : pvertex :=
  match m with
  | MRel => PV true (pv_type v) (pv_pos v) (pv_facets v) (pv_radius v)
  | MPolar => PV (pv_rel v) (pv_type v) (polar_to_xy (x2 (pv_pos v)) (y2 (pv_pos v))) (pv_facets v) (pv_radius v)
  | MSmooth r f => if negb (Reqb r 0) && negb (f =? 0)%Z then PV (pv_rel v) PvSmooth (pv_pos v) f r else v
  | MChamfer s => if negb (Reqb s 0) then PV (pv_rel v) PvSmooth (pv_pos v) 1 (s * sqrt_half) else v
  | MArc r f => if negb (Reqb r 0) && negb (f =? 0)%Z then PV (pv_rel v) PvArc (pv_pos v) f r else v
  end.

(** poly.go:189-209 nextVertex, prevVertex *)
Definition next_vertex (closed : bool) (l : list pvertex) (i : nat) : option pvertex :=
  if (i =? length l - 1)%nat then if closed then hd_error l else None else nth_error l (i + 1).
Definition prev_vertex (closed : bool) (l : list pvertex) (i : nat) : option pvertex :=
  match i with
  | O => if closed then nth_error l (length l - 1) else None
  | S k => nth_error l k
  end.
Definition set_nth {A} (l : list A) (i : nat) (x : A) : list A := firstn i l ++ x :: skipn (S i) l.
Definition set_type (v : pvertex) (t : pvtype) : pvertex := PV (pv_rel v) t (pv_pos v) (pv_facets v) (pv_radius v).

(** poly.go:225-256: the points inserted between a and b *)
Definition arc_points (a b : v2) (r : R) (facets : Z) : list pvertex :=
  let side := sign r in
  let radius := Rabs r in
  let ba := unit2 (sub2 b a) in
  let n := scale2 side (V2 (y2 ba) (- x2 ba)) in
  let mid := scale2 (1 / 2) (add2 a b) in
  let d_mid := norm2 (sub2 mid a) in
  let d_center := sqrt (radius * radius - d_mid * d_mid) in
  let c := add2 mid (scale2 d_center n) in
  let ac := unit2 (sub2 a c) in
  let bc := unit2 (sub2 b c) in
  let dtheta := - side * acos (dot2 ac bc) / IZR facets in
  let m := rotate22 dtheta in
  let rv := mul_pos22 m (sub2 a c) in
  map (fun rv => pv_at (add2 c rv)) (iterate (mul_pos22 m) (Z.to_nat (facets - 1)) rv).
(** poly.go:213-260 arcVertex.  make with a negative length panics. *)
Definition arc_vertex (closed : bool) (l : list pvertex) (i : nat) : res (bool * list pvertex) :=
  match nth_error l i with
  | None => Panicked
  | Some v =>
    match pv_type v with
    | PvArc =>
      let v' := set_type v PvNormal in
      let l' := set_nth l i v' in
      match prev_vertex closed l' i with
      | None => Ok (false, l')
      | Some pv =>
        if (pv_facets v - 1 <? 0)%Z then Panicked
        else Ok (true, firstn i l' ++ arc_points (pv_pos pv) (pv_pos v) (pv_radius v) (pv_facets v) ++ skipn i l')
      end
    | _ => Ok (false, l)
    end
  end.
(** poly.go:290-319: tangent point, centre and points of the smoothing arc; [None] when the
    radius is too large.  vp and vn are the previous and next vertices. *)
Definition smooth_points (v vp vn : v2) (radius : R) (facets : Z) : option (list pvertex) :=
  let v0 := unit2 (sub2 vp v) in
  let v1 := unit2 (sub2 vn v) in
  let theta := acos (dot2 v0 v1) in
  let d1 := radius / tan (theta / 2) in
  if Rltb (norm2 (sub2 vp v)) d1 || Rltb (norm2 (sub2 vn v)) d1 then None
  else
    let p0 := add2 v (scale2 d1 v0) in
    let d2 := radius / sin (theta / 2) in
    let vc := unit2 (add2 v0 v1) in
    let c := add2 v (scale2 d2 vc) in
    let dtheta := sign (cross2 v1 v0) * (PI - theta) / IZR facets in
    let rv := sub2 p0 c in
    Some (map (fun rv => pv_at (add2 c rv)) (iterate (mul_pos22 (rotate22 dtheta)) (Z.to_nat (facets + 1)) rv)).
(** poly.go:278-324 smoothVertex *)
Definition smooth_vertex (closed : bool) (l : list pvertex) (i : nat) : res (bool * list pvertex) :=
  match nth_error l i with
  | None => Panicked
  | Some v =>
    match pv_type v with
    | PvSmooth =>
      match next_vertex closed l i, prev_vertex closed l i with
      | Some vn, Some vp =>
        match smooth_points (pv_pos v) (pv_pos vp) (pv_pos vn) (pv_radius v) (pv_facets v) with
        | None => Ok (false, l)
        | Some pts => if (pv_facets v + 1 <? 0)%Z then Panicked else Ok (true, firstn i l ++ pts ++ skipn (S i) l)
        end
      | _, _ => Ok (false, l)
      end
    | _ => Ok (false, l)
    end
  end.
(** One pass "for i := range p.vlist": the indices are those of the list at the start. *)
Fixpoint pass (step : list pvertex -> nat -> res (bool * list pvertex)) (is : list nat) (l : list pvertex) (changed : bool) : res (bool * list pvertex) :=
  match is with
  | [] => Ok (changed, l)
  | i :: r => do x <- step l i; let '(c, l') := x in pass step r l' (changed || c)
  end.
(** poly.go:263-273 createArcs and 327-337 smoothVertices: passes until nothing changes;
    [None] when [fuel] passes were not enough. *)
Fixpoint passes (step : list pvertex -> nat -> res (bool * list pvertex)) (fuel : nat) (l : list pvertex) : option (res (list pvertex)) :=
  match fuel with
  | O => None
  | S k => match pass step (seq 0 (length l)) l false with
           | Ok (true, l') => passes step k l'
           | Ok (false, l') => Some (Ok l')
           | Err => Some Err
           | Panicked => Some Panicked
           end
  end.
(** poly.go:340-353 relToAbs: the bool is "returned an error"; a nil previous vertex is
    dereferenced. *)
Fixpoint rel_to_abs (closed : bool) (is : list nat) (l : list pvertex) : res (bool * list pvertex) :=
  match is with
  | [] => Ok (false, l)
  | i :: r =>
    match nth_error l i with
    | None => Panicked
    | Some v =>
      if pv_rel v then
        match prev_vertex closed l i with
        | None => Panicked
        | Some pv => if pv_rel pv then Ok (true, l)
                     else rel_to_abs closed r (set_nth l i (PV false (pv_type v) (add2 (pv_pos v) (pv_pos pv)) (pv_facets v) (pv_radius v)))
        end
      else rel_to_abs closed r l
    end
  end.
(** poly.go:355-359 fixups: the error of relToAbs is dropped. *)
Definition fixups (fuel : nat) (closed : bool) (l : list pvertex) : option (res (list pvertex)) :=
  match rel_to_abs closed (seq 0 (length l)) l with
  | Ok (_, l1) =>
    match passes (arc_vertex closed) fuel l1 with
    | Some (Ok l2) => passes (smooth_vertex closed) fuel l2
    | r => r
    end
  | Err => Some Err
  | Panicked => Some Panicked
  end.
(** poly.go:410-427 Vertices: the vertices and the builder afterwards. *)
Definition vertices (fuel : nat) (b : builder) : option (res (list v2 * builder)) :=
  match b_list b with
  | None => Some Panicked
  | Some l =>
    match fixups fuel (b_closed b) l with
    | None => None
    | Some (Ok l') =>
        let vs := map pv_pos l' in
        Some (Ok (if b_reverse b then rev vs else vs, Builder (b_closed b) (b_reverse b) (Some l')))
    | Some Err => Some Err
    | Some Panicked => Some Panicked
    end
  end.
(** The builder calls.  A modifier is applied to the vertex just added, before the next call
    (poly.go:384-402 returns a pointer into the slice, which later appends may leave stale:
    modifiers called that late are not modelled). *)
Inductive bop := OAdd (x : v2) (mods : list vmod) | ODrop | OClose | OReverse | OVertices.
Definition apply_op (fuel : nat) (b : builder) (o : bop) : option (res builder) :=
  match o with
  | OAdd x mods =>
      let l := match b_list b with None => [] | Some l => l end in
      Some (Ok (Builder (b_closed b) (b_reverse b) (Some (l ++ [fold_left apply_mod mods (pv_at x)]))))
  | ODrop => match b_list b with
             | Some (v :: l) => Some (Ok (Builder (b_closed b) (b_reverse b) (Some (removelast (v :: l)))))
             | _ => Some Panicked
             end
  | OClose => Some (Ok (Builder true (b_reverse b) (b_list b)))
  | OReverse => Some (Ok (Builder (b_closed b) true (b_list b)))
  | OVertices => match vertices fuel b with
                 | None => None
                 | Some (Ok (_, b')) => Some (Ok b')
                 | Some Err => Some Err
                 | Some Panicked => Some Panicked
                 end
  end.

(** ** The distance accumulated by Evaluate, in binary64 *)
Definition fv2 := (spec_float * spec_float)%type.
Definition fsub2 (a b : fv2) : fv2 := (fsub (fst a) (fst b), fsub (snd a) (snd b)).
Definition fdot2 (a b : fv2) : spec_float := fadd (fmul (fst a) (fst b)) (fmul (snd a) (snd b)).
(** gonum spatial/r2 Unit: {NaN, NaN} for the zero vector, Scale(1/Norm(p), p) otherwise
    (the norm, math.Hypot, is a parameter). *)
Definition funit2 (hypot : spec_float -> spec_float -> spec_float) (v : fv2) : fv2 :=
  if SFeqb (fst v) (S754_zero false) && SFeqb (snd v) (S754_zero false) then (S754_nan, S754_nan)
  else let k := fdiv (S754_finite false 4503599627370496 (-52)) (hypot (fst v) (snd v)) in (fmul k (fst v), fmul k (snd v)).
(** math.Min *)
Definition fmin (x y : spec_float) : spec_float :=
  match x, y with
  | S754_infinity true, _ | _, S754_infinity true => S754_infinity true
  | S754_nan, _ | _, S754_nan => S754_nan
  | S754_zero sx, S754_zero _ => if sx then x else y
  | _, _ => if SFltb x y then x else y
  end.
(** poly.go:62-84, dd only *)
Definition fpoly_step hypot (p : fv2) (dd : spec_float) (e : fv2 * fv2) : spec_float :=
  let '(a, b) := e in
  let l := fsub2 b a in
  let len := hypot (fst l) (snd l) in
  let vec := funit2 hypot l in
  let pa := fsub2 p a in
  let pb := fsub2 p b in
  let t := fdot2 pa vec in
  let dn := fdot2 pa (snd vec, SFopp (fst vec)) in
  if SFltb t (S754_zero false) then fmin dd (fdot2 pa pa) else if SFltb len t then fmin dd (fdot2 pb pb) else fmin dd (fmul dn dn).
Definition fpoly_dd hypot (l : list fv2) (p : fv2) : spec_float :=
  fold_left (fpoly_step hypot p) (combine l (tl l)) (S754_finite false 9007199254740991 971).
