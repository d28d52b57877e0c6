(** Model of /repo/internal/d3/box.go, /repo/internal/d2/box.go and the vector
    helpers of /repo/internal/d3/vector.go, /repo/internal/d2/vector.go, over R. *)
From Coq Require Import Reals List Bool.
From Verif Require Import Prelude Vec.
Import ListNotations.
Local Open Scope R_scope.

(** ** d3/vector.go *)
(** vector.go:15-21 Elem *)
Definition elem3 (s : R) : v3 := V3 s s s.
(** vector.go:37-44 MinElem, MaxElem *)
Definition min_elem3 (a b : v3) : v3 := V3 (Rmin (x3 a) (x3 b)) (Rmin (y3 a) (y3 b)) (Rmin (z3 a) (z3 b)).
Definition max_elem3 (a b : v3) : v3 := V3 (Rmax (x3 a) (x3 b)) (Rmax (y3 a) (y3 b)) (Rmax (z3 a) (z3 b)).
(** vector.go:113-115 clamp, 46-52 Clamp *)
Definition clampR (x a b : R) : R := Rmin b (Rmax x a).
Definition clamp3 (x a b : v3) : v3 :=
  V3 (clampR (x3 x) (x3 a) (x3 b)) (clampR (y3 x) (y3 a) (y3 b)) (clampR (z3 x) (z3 a) (z3 b)).
(** vector.go:54-60 Max, Min *)
Definition vmax3 (a : v3) : R := Rmax (z3 a) (Rmax (x3 a) (y3 a)).
Definition vmin3 (a : v3) : R := Rmin (z3 a) (Rmin (x3 a) (y3 a)).
(** vector.go:62-68 AbsElem *)
Definition abs3 (a : v3) : v3 := V3 (Rabs (x3 a)) (Rabs (y3 a)) (Rabs (z3 a)).
(** vector.go:78-84 MulElem, 86-92 DivElem *)
Definition mul_elem3 (a b : v3) : v3 := V3 (x3 a * x3 b) (y3 a * y3 b) (z3 a * z3 b).
Definition div_elem3 (a b : v3) : v3 := V3 (x3 a / x3 b) (y3 a / y3 b) (z3 a / z3 b).
(** vector.go:23-27 EqualWithin *)
Definition equal_within3 (a b : v3) (tol : R) : bool :=
  Rleb (Rabs (x3 a - x3 b)) tol && Rleb (Rabs (y3 a - y3 b)) tol && Rleb (Rabs (z3 a - z3 b)) tol.
(** vector.go:30-35 LTZero, LTEZero *)
Definition ltzero3 (a : v3) : bool := Rltb (x3 a) 0 || Rltb (y3 a) 0 || Rltb (z3 a) 0.
Definition ltezero3 (a : v3) : bool := Rleb (x3 a) 0 || Rleb (y3 a) 0 || Rleb (z3 a) 0.
(** vector.go:119-135 Set.Min, Set.Max: a[0] of an empty set panics *)
Definition set_min3 (l : list v3) : res v3 :=
  match l with [] => Panicked | a :: r => Ok (fold_left min_elem3 r a) end.
Definition set_max3 (l : list v3) : res v3 :=
  match l with [] => Panicked | a :: r => Ok (fold_left max_elem3 r a) end.

(** ** d3/box.go *)
(** box.go:14-17 NewBox *)
Definition new_box3 (center size : v3) : box3 :=
  let half := scale3 (1/2) size in Box3 (sub3 center half) (add3 center half).
(** box.go:21-25 CenteredBox *)
Definition centered_box3 (center size : v3) : box3 := new_box3 center (max_elem3 size zero3).
(** box.go:28-30 Equals *)
Definition box3_equals (a b : box3) (tol : R) : bool :=
  equal_within3 (min3 a) (min3 b) tol && equal_within3 (max3 a) (max3 b) tol.
(** box.go:33-38 Extend *)
Definition extend3 (a b : box3) : box3 := Box3 (min_elem3 (min3 a) (min3 b)) (max_elem3 (max3 a) (max3 b)).
(** box.go:41-46 Include *)
Definition include3 (a : box3) (v : v3) : box3 := Box3 (min_elem3 (min3 a) v) (max_elem3 (max3 a) v).
(** box.go:49-51 Translate *)
Definition box_translate3 (a : box3) (v : v3) : box3 := Box3 (add3 (min3 a) v) (add3 (max3 a) v).
(** box.go:54-56 Size, 59-62 Center *)
Definition size3 (a : box3) : v3 := sub3 (max3 a) (min3 a).
Definition center3 (a : box3) : v3 := add3 (min3 a) (scale3 (1/2) (size3 a)).
(** box.go:65-67 ScaleAboutCenter *)
Definition scale_about_center3 (a : box3) (k : R) : box3 := new_box3 (center3 a) (scale3 k (size3 a)).
(** box.go:70-76 Enlarge *)
Definition enlarge3 (a : box3) (v : v3) : box3 :=
  let v := scale3 (1/2) v in Box3 (sub3 (min3 a) v) (add3 (max3 a) v).
(** box.go:79-82 Contains *)
Definition contains3 (a : box3) (v : v3) : bool :=
  Rleb (x3 (min3 a)) (x3 v) && Rleb (y3 (min3 a)) (y3 v) && Rleb (z3 (min3 a)) (z3 v) &&
  Rleb (x3 v) (x3 (max3 a)) && Rleb (y3 v) (y3 (max3 a)) && Rleb (z3 v) (z3 (max3 a)).
(** box.go:85-96 Vertices *)
Definition vertices3 (a : box3) : list v3 :=
  let m := min3 a in let M := max3 a in
  [ m; V3 (x3 m) (y3 m) (z3 M); V3 (x3 m) (y3 M) (z3 m); V3 (x3 m) (y3 M) (z3 M);
    V3 (x3 M) (y3 m) (z3 m); V3 (x3 M) (y3 m) (z3 M); V3 (x3 M) (y3 M) (z3 m); M ].

(** The loop over the vertices of MinMaxDist2 (box.go:108-117); the first vertex
    initialises the minimum. *)
Definition minmax_fold (ds : list R) : R * R :=
  match ds with
  | [] => (0, 0)
  | d :: r => fold_left (fun '(mn, mx) e => (Rmin mn e, Rmax mx e)) r (d, Rmax 0 d)
  end.
(** box.go:100-139 MinMaxDist2 *)
Definition min_max_dist2_3 (a0 : box3) (p : v3) : R * R :=
  let a := box_translate3 a0 (scale3 (-1) p) in
  let '(mn, mx) := minmax_fold (map norm3sq (vertices3 a)) in
  let m := min3 a in let M := max3 a in
  let wx := Rltb (x3 m) 0 && Rltb 0 (x3 M) in
  let wy := Rltb (y3 m) 0 && Rltb 0 (y3 M) in
  let wz := Rltb (z3 m) 0 && Rltb 0 (z3 M) in
  let sq d := d * d in
  if wx && wy && wz then (0, mx)
  else
    let mn := if wx && wy then Rmin mn (sq (Rmin (Rabs (z3 M)) (Rabs (z3 m)))) else mn in
    let mn := if wx && wz then Rmin mn (sq (Rmin (Rabs (y3 M)) (Rabs (y3 m)))) else mn in
    let mn := if wy && wz then Rmin mn (sq (Rmin (Rabs (x3 M)) (Rabs (x3 m)))) else mn in
    (mn, mx).

(** ** d2/vector.go *)
Definition elem2 (s : R) : v2 := V2 s s.
Definition min_elem2 (a b : v2) : v2 := V2 (Rmin (x2 a) (x2 b)) (Rmin (y2 a) (y2 b)).
Definition max_elem2 (a b : v2) : v2 := V2 (Rmax (x2 a) (x2 b)) (Rmax (y2 a) (y2 b)).
Definition clamp2 (x a b : v2) : v2 := V2 (clampR (x2 x) (x2 a) (x2 b)) (clampR (y2 x) (y2 a) (y2 b)).
Definition vmax2 (a : v2) : R := Rmax (x2 a) (y2 a).
Definition vmin2 (a : v2) : R := Rmin (x2 a) (y2 a).
Definition abs2 (a : v2) : v2 := V2 (Rabs (x2 a)) (Rabs (y2 a)).
Definition mul_elem2 (a b : v2) : v2 := V2 (x2 a * x2 b) (y2 a * y2 b).
Definition div_elem2 (a b : v2) : v2 := V2 (x2 a / x2 b) (y2 a / y2 b).
Definition equal_within2 (a b : v2) (tol : R) : bool :=
  Rleb (Rabs (x2 a - x2 b)) tol && Rleb (Rabs (y2 a - y2 b)) tol.
Definition ltzero2 (a : v2) : bool := Rltb (x2 a) 0 || Rltb (y2 a) 0.
Definition ltezero2 (a : v2) : bool := Rleb (x2 a) 0 || Rleb (y2 a) 0.
(** vector.go:100-116 Set.Min, Set.Max *)
Definition set_min2 (l : list v2) : res v2 :=
  match l with [] => Panicked | a :: r => Ok (fold_left min_elem2 r a) end.
Definition set_max2 (l : list v2) : res v2 :=
  match l with [] => Panicked | a :: r => Ok (fold_left max_elem2 r a) end.

(** ** d2/box.go *)
(** box.go:14-17 NewBox2 *)
Definition new_box2 (center size : v2) : box2 :=
  let half := scale2 (1/2) size in Box2 (sub2 center half) (add2 center half).
(** box.go:25-30 Extend *)
Definition extend2 (a b : box2) : box2 := Box2 (min_elem2 (min2 a) (min2 b)) (max_elem2 (max2 a) (max2 b)).
(** box.go:33-35 Include *)
Definition include2 (a : box2) (v : v2) : box2 := Box2 (min_elem2 (min2 a) v) (max_elem2 (max2 a) v).
(** box.go:38-40 Translate *)
Definition box_translate2 (a : box2) (v : v2) : box2 := Box2 (add2 (min2 a) v) (add2 (max2 a) v).
(** box.go:43-51 Size, Center *)
Definition size2 (a : box2) : v2 := sub2 (max2 a) (min2 a).
Definition center2 (a : box2) : v2 := add2 (min2 a) (scale2 (1/2) (size2 a)).
(** box.go:54-57 ScaleAboutCenter *)
Definition scale_about_center2 (a : box2) (k : R) : box2 := new_box2 (center2 a) (scale2 k (size2 a)).
(** box.go:60-63 Enlarge *)
Definition enlarge2 (a : box2) (v : v2) : box2 :=
  let v := scale2 (1/2) v in Box2 (sub2 (min2 a) v) (add2 (max2 a) v).
(** box.go:66-69 Contains *)
Definition contains2 (a : box2) (v : v2) : bool :=
  Rleb (x2 (min2 a)) (x2 v) && Rleb (y2 (min2 a)) (y2 v) &&
  Rleb (x2 v) (x2 (max2 a)) && Rleb (y2 v) (y2 (max2 a)).
(** box.go:72-79 Vertices *)
Definition vertices2 (a : box2) : list v2 :=
  let m := min2 a in let M := max2 a in [ m; V2 (x2 M) (y2 m); V2 (x2 m) (y2 M); M ].
(** box.go:93-131 MinMaxDist2 *)
Definition min_max_dist2_2 (a0 : box2) (p : v2) : R * R :=
  let a := box_translate2 a0 (scale2 (-1) p) in
  let '(mn, mx) := minmax_fold (map norm2sq (vertices2 a)) in
  let m := min2 a in let M := max2 a in
  let wx := Rltb (x2 m) 0 && Rltb 0 (x2 M) in
  let wy := Rltb (y2 m) 0 && Rltb 0 (y2 M) in
  let sq d := d * d in
  if wx && wy then (0, mx)
  else
    let mn := if wx then Rmin mn (sq (Rmin (Rabs (y2 M)) (Rabs (y2 m)))) else mn in
    let mn := if wy then Rmin mn (sq (Rmin (Rabs (x2 M)) (Rabs (x2 m)))) else mn in
    (mn, mx).
