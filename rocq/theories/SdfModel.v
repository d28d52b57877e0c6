(** Model of /repo/sdf3.go, /repo/sdf2.go and /repo/utils.go over the reals.

    A shape (the interfaces SDF3, SDF2) is the pair of what its two methods
    return.  A constructor of the package is a function to shapes.  Constructors
    that may panic return [res]; a nil interface argument is [None].
    SetMin/SetMax replace the blending function of a union/difference before it is
    used; the model passes that function as an argument of the constructor
    (math.Min/math.Max when SetMin/SetMax is not called). *)
From Coq Require Import Reals List Bool ZArith.
From Verif Require Import Prelude Vec BoxModel MatrixModel.
Import ListNotations.
Local Open Scope R_scope.

(** sdf3.go:17-25 SDF3, sdf2.go:16-24 SDF2 *)
Record sdf3 := S3 { ev3 : v3 -> R; bb3 : box3 }.
Record sdf2 := S2 { ev2 : v2 -> R; bb2 : box2 }.

(** ** utils.go *)
(** math.MaxFloat64 *)
Definition max_float64 : R := (2 - / 2 ^ 52) * 2 ^ 1023.
(** utils.go:17 tolerance *)
Definition tolerance : R := / 10 ^ 9.
Definition tau : R := 2 * PI.
(** utils.go:62-71 clamp *)
Definition clamp (x a b : R) : R := if Rltb x a then a else if Rltb b x then b else x.
(** utils.go:73-76 mix *)
Definition mix (x y a : R) : R := x + a * (y - x).
(** math.Floor *)
Definition floorR (x : R) : R := IZR (Int_part x).
(** utils.go:89-94 sawTooth *)
Definition saw_tooth (x0 period : R) : R :=
  let x := x0 + period / 2 in
  let t := x / period in
  period * (t - floorR t) - period / 2.
(** math.Hypot *)
Definition hypot (a b : R) : R := sqrt (a * a + b * b).
(** math.Atan2(y, x), in (-pi, pi] *)
Definition atan2 (y x : R) : R :=
  if Reqb (hypot x y) 0 then 0
  else if Rleb 0 y then acos (x / hypot x y) else - acos (x / hypot x y).
(** math.Mod(x, y) for x >= 0 and y > 0 *)
Definition modR (x y : R) : R := x - y * floorR (x / y).
(** internal/d2/vector.go:118-137 PolarToXY *)
Definition polar_to_xy (r theta : R) : v2 := V2 (r * cos theta) (r * sin theta).

(** utils.go:206-209 NormalExtrude *)
Definition xy (p : v3) : v2 := V2 (x3 p) (y3 p).
Definition normal_extrude (p : v3) : v2 := xy p.
(** utils.go:211-218 TwistExtrude *)
Definition twist_extrude (height twist : R) (p : v3) : v2 :=
  let k := twist / height in mul_pos22 (rotate22 (z3 p * k)) (xy p).
(** utils.go:220-230 ScaleExtrude *)
Definition scale_extrude (height : R) (scale : v2) (p : v3) : v2 :=
  let inv := V2 (1 / x2 scale) (1 / y2 scale) in
  let m := div_elem2 (sub2 inv (V2 1 1)) (elem2 height) in
  let b := add2 (div_elem2 inv (elem2 2)) (elem2 (1/2)) in
  mul_elem2 (xy p) (add2 b (scale2 (z3 p) m)).
(** utils.go:232-250 ScaleTwistExtrude *)
Definition scale_twist_extrude (height twist : R) (scale : v2) (p : v3) : v2 :=
  let k := twist / height in
  let inv := V2 (1 / x2 scale) (1 / y2 scale) in
  let m := sub2 inv (div_elem2 (V2 1 1) (elem2 height)) in
  let b := add2 (div_elem2 inv (elem2 2)) (elem2 (1/2)) in
  let pnew := mul_elem2 (xy p) (add2 (scale2 (z3 p) m) b) in
  mul_pos22 (rotate22 (z3 p * k)) pnew.

(** ** Empty shapes: sdf3.go:907-931, sdf2.go:652-676 *)
Definition empty3 (center : v3) : sdf3 := S3 (fun _ => max_float64) (Box3 center center).
Definition empty3_from (s : sdf3) : sdf3 := empty3 (center3 (bb3 s)).
Definition empty2 (center : v2) : sdf2 := S2 (fun _ => max_float64) (Box2 center center).
Definition empty2_from (s : sdf2) : sdf2 := empty2 (center2 (bb2 s)).

(** ** sdf3.go *)
(** sdf3.go:44-88 Revolve3D, 90-106 Evaluate.  The vertex set is listed in code order. *)
Definition vset_min (a : v2) (l : list v2) : v2 := fold_left min_elem2 l a.
Definition vset_max (a : v2) (l : list v2) : v2 := fold_left max_elem2 l a.
Definition revolve_eval (s : sdf2) (theta : R) (norm : v2) (p : v3) : R :=
  let x := sqrt (x3 p * x3 p + y3 p * y3 p) in
  let a := ev2 s (V2 x (z3 p)) in
  let b :=
    if negb (Reqb theta 0) then
      let d := dot2 norm (xy p) in
      if Rltb theta PI then Rmax (- y3 p) d else Rmin (- y3 p) d
    else a in
  Rmax a b.
Definition revolve3d (sdf : option sdf2) (theta0 : R) : res sdf3 :=
  match sdf with
  | None => Panicked
  | Some s =>
    if Rleb theta0 0 then Ok (empty3 zero3)
    else
      let theta := if Rltb (Rabs (theta0 - 2 * PI)) tolerance then 0 else theta0 in
      let stheta := modR (Rabs theta) tau in
      let sn := sin stheta in
      let cs := cos stheta in
      let norm := V2 (- sn) cs in
      let vset :=
        if Reqb theta 0 then [V2 1 1; V2 (-1) (-1)]
        else [V2 0 0; V2 1 0; V2 cs sn]
             ++ (if Rltb ((1/2) * PI) stheta then [V2 0 1] else [])
             ++ (if Rltb PI stheta then [V2 (-1) 0] else [])
             ++ (if Rltb ((3/2) * PI) stheta then [V2 0 (-1)] else []) in
      let bb := bb2 s in
      let l := Rmax (Rabs (x2 (min2 bb))) (Rabs (x2 (max2 bb))) in
      do mn <- set_min2 vset;
      do mx <- set_max2 vset;
      let vmin := scale2 l mn in
      let vmax := scale2 l mx in
      Ok (S3 (revolve_eval s stheta norm)
             (Box3 (V3 (x2 vmin) (y2 vmin) (y2 (min2 bb))) (V3 (x2 vmax) (y2 vmax) (y2 (max2 bb)))))
  end.

(** sdf3.go:173-181 extrude3.Evaluate; the field [height] is half the argument *)
Definition extrude_eval (s : sdf2) (half : R) (f : v3 -> v2) (p : v3) : R :=
  Rmax (ev2 s (f p)) (Rabs (z3 p) - half).
(** sdf3.go:121-131 Extrude3D *)
Definition extrude3d (s : sdf2) (height : R) : sdf3 :=
  let h := height / 2 in
  let bb := bb2 s in
  S3 (extrude_eval s h normal_extrude)
     (Box3 (V3 (x2 (min2 bb)) (y2 (min2 bb)) (- h)) (V3 (x2 (max2 bb)) (y2 (max2 bb)) h)).
(** sdf3.go:133-144 TwistExtrude3D *)
Definition twist_extrude3d (s : sdf2) (height twist : R) : sdf3 :=
  let h := height / 2 in
  let l := norm2 (max2 (bb2 s)) in
  S3 (extrude_eval s h (twist_extrude height twist)) (Box3 (V3 (- l) (- l) (- h)) (V3 l l h)).
(** sdf3.go:146-157 ScaleExtrude3D *)
Definition scaled_box (bb : box2) (scale : v2) : box2 :=
  extend2 bb (Box2 (mul_elem2 (min2 bb) scale) (mul_elem2 (max2 bb) scale)).
Definition scale_extrude3d (s : sdf2) (height : R) (scale : v2) : sdf3 :=
  let h := height / 2 in
  let bb := scaled_box (bb2 s) scale in
  S3 (extrude_eval s h (scale_extrude height scale))
     (Box3 (V3 (x2 (min2 bb)) (y2 (min2 bb)) (- h)) (V3 (x2 (max2 bb)) (y2 (max2 bb)) h)).
(** sdf3.go:159-171 ScaleTwistExtrude3D *)
Definition scale_twist_extrude3d (s : sdf2) (height twist : R) (scale : v2) : sdf3 :=
  let h := height / 2 in
  let bb := scaled_box (bb2 s) scale in
  let l := norm2 (max2 bb) in
  S3 (extrude_eval s h (scale_twist_extrude height twist scale)) (Box3 (V3 (- l) (- l) (- h)) (V3 l l h)).

(** sdf3.go:235-262 and 310-331: the rounded profile/height combination shared by
    extrudeRounded and loft3 *)
Definition round_combine (a b round : R) : R :=
  (if Rltb 0 b then (if Rltb a 0 then b else hypot a b)
   else (if Rltb a 0 then Rmax a b else a)) - round.
(** sdf3.go:204-259 ExtrudeRounded3D.  [Extrude3D(nil, _)] panics at the nil
    method call. *)
Definition extrude_rounded3d (sdf : option sdf2) (height round : R) : res sdf3 :=
  if Reqb round 0 then match sdf with None => Panicked | Some s => Ok (extrude3d s height) end
  else match sdf with
  | None => Panicked
  | Some s =>
    if Rleb height 0 then Ok (empty3 zero3)
    else if Rltb round 0 then Ok (empty3 zero3)
    else if Rltb height (2 * round) then Ok (empty3 zero3)
    else
      let h := height / 2 - round in
      let bb := bb2 s in
      Ok (S3 (fun p => round_combine (ev2 s (xy p)) (Rabs (z3 p) - h) round)
             (Box3 (sub3 (V3 (x2 (min2 bb)) (y2 (min2 bb)) (- h)) (elem3 round))
                   (add3 (V3 (x2 (max2 bb)) (y2 (max2 bb)) h) (elem3 round))))
  end.
(** sdf3.go:277-336 Loft3D *)
Definition loft_eval (s0 s1 : sdf2) (h round : R) (p : v3) : R :=
  let k := clamp ((1/2) * z3 p / h + 1/2) 0 1 in
  let a := mix (ev2 s0 (xy p)) (ev2 s1 (xy p)) k in
  round_combine a (Rabs (z3 p) - h) round.
Definition loft3d (sdf0 sdf1 : option sdf2) (height round : R) : res sdf3 :=
  match sdf0, sdf1 with
  | Some s0, Some s1 =>
    if Rleb height 0 then Ok (empty3 zero3)
    else if Rltb round 0 then Ok (empty3 zero3)
    else if Rltb height (2 * round) then Ok (empty3 zero3)
    else
      let h := height / 2 - round in
      let bb := extend2 (bb2 s0) (bb2 s1) in
      Ok (S3 (loft_eval s0 s1 h round)
             (Box3 (sub3 (V3 (x2 (min2 bb)) (y2 (min2 bb)) (- h)) (elem3 round))
                   (add3 (V3 (x2 (max2 bb)) (y2 (max2 bb)) h) (elem3 round))))
  | _, _ => Panicked
  end.

(** sdf3.go:353-375 Transform3D *)
Definition transform3 (s : sdf3) (m : m44) : sdf3 :=
  let inv := inverse44 m in
  S3 (fun p => ev3 s (mul_pos3 inv p)) (mul_box3 m (bb3 s)).
Definition transform3d (sdf : option sdf3) (m : m44) : res sdf3 :=
  match sdf with None => Panicked | Some s => Ok (transform3 s m) end.
(** sdf3.go:386-402 ScaleUniform3D *)
Definition scale_uniform3d (s : sdf3) (k : R) : sdf3 :=
  let m := scale3d (V3 k k k) in
  S3 (fun p => ev3 s (scale3 (1 / k) p) * k) (mul_box3 m (bb3 s)).

(** sdf3.go:416-452 Union3D *)
Definition union_eval3 (mn : R -> R -> R) (ss : list sdf3) (p : v3) : R :=
  match ss with
  | [] => 0
  | s :: r => fold_left (fun d x => mn d (ev3 x p)) r (ev3 s p)
  end.
Fixpoint all_some {A} (l : list (option A)) : option (list A) :=
  match l with
  | [] => Some []
  | None :: _ => None
  | Some a :: r => match all_some r with None => None | Some t => Some (a :: t) end
  end.
Definition union_box3 (s : sdf3) (ss : list sdf3) : box3 :=
  fold_left (fun b x => extend3 b (bb3 x)) ss (bb3 s).
Definition union3d_min (mn : R -> R -> R) (sdfs : list (option sdf3)) : res sdf3 :=
  if (length sdfs <? 2)%nat then Panicked
  else match all_some sdfs with
       | None => Panicked
       | Some ss =>
         match ss with
         | [] => Panicked
         | s :: _ => Ok (S3 (union_eval3 mn ss) (union_box3 s ss))
         end
       end.
Definition union3d := union3d_min Rmin.
(** sdf3.go:472-502 Difference3D *)
Definition diff3_max (mx : R -> R -> R) (s0 s1 : sdf3) : sdf3 :=
  S3 (fun p => mx (ev3 s0 p) (- ev3 s1 p)) (bb3 s0).
Definition difference3d_max (mx : R -> R -> R) (a b : option sdf3) : res sdf3 :=
  match a, b with Some s0, Some s1 => Ok (diff3_max mx s0 s1) | _, _ => Panicked end.
Definition difference3d := difference3d_max Rmax.
(** sdf3.go:543-573 Intersect3D *)
Definition inter3_max (mx : R -> R -> R) (s0 s1 : sdf3) : sdf3 :=
  S3 (fun p => mx (ev3 s0 p) (ev3 s1 p)) (bb3 s0).
Definition intersect3d_max (mx : R -> R -> R) (a b : option sdf3) : res sdf3 :=
  match a, b with Some s0, Some s1 => Ok (inter3_max mx s0 s1) | _, _ => Panicked end.
Definition intersect3d := intersect3d_max Rmax.
(** sdf3.go:508-533 Elongate3D *)
Definition elongate3d (s : sdf3) (h0 : v3) : sdf3 :=
  let h := abs3 h0 in
  let hp := scale3 (1/2) h in
  let hn := scale3 (-1/2) h in
  let bb := bb3 s in
  S3 (fun p => ev3 s (sub3 p (clamp3 p hn hp))) (extend3 (box_translate3 bb hp) (box_translate3 bb hn)).
(** sdf3.go:581-601 Cut3D *)
Definition cut3d (s : sdf3) (a n : v3) : sdf3 :=
  let nn := scale3 (-1) (unit3 n) in
  S3 (fun p => Rmax (dot3 nn (sub3 p a)) (ev3 s p)) (bb3 s).
(** sdf3.go:612-652 Array3D: loop over j, k, l with min starting at MaxFloat64 *)
Definition array3_eval (mn : R -> R -> R) (s : sdf3) (n0 n1 n2 : nat) (step p : v3) : R :=
  fold_left (fun d j =>
    fold_left (fun d k =>
      fold_left (fun d l =>
        mn d (ev3 s (sub3 p (V3 (INR j * x3 step) (INR k * y3 step) (INR l * z3 step)))))
        (seq 0 n2) d)
      (seq 0 n1) d)
    (seq 0 n0) max_float64.
Definition array3d_min (mn : R -> R -> R) (s : sdf3) (n0 n1 n2 : Z) (step : v3) : sdf3 :=
  if ((n0 <=? 0) || (n1 <=? 0) || (n2 <=? 0))%Z then empty3_from s
  else
    let bb0 := bb3 s in
    let bb1 := box_translate3 bb0 (mul_elem3 step (V3 (IZR (n0 - 1)) (IZR (n1 - 1)) (IZR (n2 - 1)))) in
    S3 (array3_eval mn s (Z.to_nat n0) (Z.to_nat n1) (Z.to_nat n2) step) (extend3 bb0 bb1).
Definition array3d := array3d_min Rmin.
(** sdf3.go:663-699 RotateUnion3D: bounds loop and Evaluate loop *)
Fixpoint ru_box3 (n : nat) (step : m44) (v : list v3) (mn mx : v3) : res box3 :=
  match n with
  | O => Ok (Box3 mn mx)
  | S k =>
    do a <- set_min3 v;
    do b <- set_max3 v;
    ru_box3 k step (map (mul_pos3 step) v) (min_elem3 mn a) (max_elem3 mx b)
  end.
Fixpoint ru_eval3 (mn : R -> R -> R) (s : sdf3) (n : nat) (step rot : m44) (p : v3) (d : R) : R :=
  match n with
  | O => d
  | S k => ru_eval3 mn s k step (mul44 rot step) p (mn d (ev3 s (mul_pos3 rot p)))
  end.
Definition rotate_union3d_min (mn : R -> R -> R) (s : sdf3) (num : Z) (step : m44) : res sdf3 :=
  if (num <=? 0)%Z then Ok (empty3_from s)
  else
    let n := Z.to_nat num in
    let v := vertices3 (bb3 s) in
    do v0 <- (match v with [] => Panicked | a :: _ => Ok a end);
    do bb <- ru_box3 n step v v0 v0;
    Ok (S3 (fun p => ru_eval3 mn s n (inverse44 step) identity3d p max_float64) bb).
Definition rotate_union3d := rotate_union3d_min Rmin.
(** sdf3.go:719-756 RotateCopy3D *)
Definition rc_rmax (ls : list R) : R := fold_left (fun r l => if Rltb r l then l else r) ls 0.
Definition fold_sector (theta : R) (p : v2) : v2 :=
  polar_to_xy (norm2 p) (saw_tooth (atan2 (y2 p) (x2 p)) theta).
Definition rotate_copy3d (s : sdf3) (num : Z) : sdf3 :=
  if (num <=? 0)%Z then empty3_from s
  else
    let theta := tau / IZR num in
    let bb := bb3 s in
    let rmax := rc_rmax (map (fun v => hypot (x3 v) (y3 v)) (vertices3 bb)) in
    S3 (fun p => let q := fold_sector theta (xy p) in ev3 s (V3 (x2 q) (y2 q) (z3 p)))
       (Box3 (V3 (- rmax) (- rmax) (z3 (min3 bb))) (V3 rmax rmax (z3 (max3 bb)))).
(** sdf3.go:808-828 Offset3D *)
Definition offset3d (s : sdf3) (offset : R) : sdf3 :=
  let bb := bb3 s in
  S3 (fun p => ev3 s p - offset) (new_box3 (center3 bb) (add3 (size3 bb) (elem3 (2 * offset)))).
(** sdf3.go:837-858 Shell3D *)
Definition shell3d (s : sdf3) (thickness : R) : sdf3 :=
  if Rleb thickness 0 then empty3_from s
  else S3 (fun p => Rabs (ev3 s p) - (1/2) * thickness)
          (enlarge3 (bb3 s) (V3 thickness thickness thickness)).
(** sdf3.go:860-905 LineOf3D, Multi3D, Orient3D.  A pattern is the list of its
    runes: whether the rune is 'x' and its width in bytes; [len(pattern)] counts bytes. *)
Definition pattern := list (bool * nat).
Definition byte_len (pat : pattern) : nat := fold_right (fun c n => (snd c + n)%nat) 0%nat pat.
Fixpoint line_of_objs {A V} (place : V -> A) (vadd : V -> V -> V) (x dx : V) (pat : pattern) : list A :=
  match pat with
  | [] => []
  | c :: r => (if fst c then [place x] else []) ++ line_of_objs place vadd (vadd x dx) dx r
  end.
Definition line_of3d (sdf : option sdf3) (p0 p1 : v3) (pat : pattern) : res sdf3 :=
  match pat with
  | [] => union3d []
  | _ =>
    let dx := scale3 (1 / INR (byte_len pat)) (sub3 p1 p0) in
    match sdf with
    | None => if existsb fst pat then Panicked else union3d []
    | Some s => union3d (line_of_objs (fun x => Some (transform3 s (translate3d x))) add3 p0 dx pat)
    end
  end.
Definition multi3d (sdf : option sdf3) (positions : list v3) : res sdf3 :=
  match sdf with
  | None => Panicked
  | Some s =>
    match positions with
    | [] => Ok (empty3_from s)
    | _ => union3d (map (fun p => Some (transform3 s (translate3d p))) positions)
    end
  end.
Definition orient3d (sdf : option sdf3) (base : v3) (directions : list v3) : res sdf3 :=
  match sdf with
  | None => Panicked
  | Some s =>
    match directions with
    | [] => Ok (empty3_from s)
    | _ => union3d (map (fun d => Some (transform3 s (rotate_to_vec base d))) directions)
    end
  end.

(** ** sdf2.go *)
(** sdf2.go:64-85 Cut2D *)
Definition cut2d (s : sdf2) (a v0 : v2) : sdf2 :=
  let v := unit2 v0 in
  let n := V2 (- y2 v) (x2 v) in
  S2 (fun p => Rmax (dot2 n (sub2 p a)) (ev2 s p)) (bb2 s).
(** sdf2.go:96-117 Transform2D *)
Definition transform2d (s : sdf2) (m : m33) : sdf2 :=
  let inv := inverse33 m in
  S2 (fun p => ev2 s (mul_pos2 inv p)) (mul_box2 m (bb2 s)).
(** sdf2.go:127-148 ScaleUniform2D *)
Definition scale_uniform2d (s : sdf2) (k : R) : sdf2 :=
  let m := scale2d (V2 k k) in
  S2 (fun p => ev2 s (scale2 (1 / k) p) * k) (mul_box2 m (bb2 s)).
(** sdf2.go:150-162 Center2D, CenterAndScale2D *)
Definition center2d (s : sdf2) : sdf2 :=
  transform2d s (translate2d (scale2 (-1) (center2 (bb2 s)))).
Definition center_and_scale2d (s : sdf2) (k : R) : sdf2 :=
  scale_uniform2d (transform2d s (translate2d (scale2 (-1) (center2 (bb2 s))))) k.
(** sdf2.go:175-214 Array2D *)
Definition array2_eval (mn : R -> R -> R) (s : sdf2) (n0 n1 : nat) (step p : v2) : R :=
  fold_left (fun d j =>
    fold_left (fun d k =>
        mn d (ev2 s (sub2 p (V2 (INR j * x2 step) (INR k * y2 step)))))
      (seq 0 n1) d)
    (seq 0 n0) max_float64.
Definition array2d_min (mn : R -> R -> R) (s : sdf2) (n0 n1 : Z) (step : v2) : sdf2 :=
  if ((n0 <=? 0) || (n1 <=? 0))%Z then empty2_from s
  else
    let bb0 := bb2 s in
    let bb1 := box_translate2 bb0 (mul_elem2 step (sub2 (V2 (IZR n0) (IZR n1)) (elem2 1))) in
    S2 (array2_eval mn s (Z.to_nat n0) (Z.to_nat n1) step) (extend2 bb0 bb1).
Definition array2d := array2d_min Rmin.
(** sdf2.go:225-270 RotateUnion2D (the repeated MinElem line has no effect) *)
Fixpoint ru_box2 (n : nat) (step : m33) (v : list v2) (mn mx : v2) : res box2 :=
  match n with
  | O => Ok (Box2 mn mx)
  | S k =>
    do a <- set_min2 v;
    do b <- set_max2 v;
    ru_box2 k step (map (mul_pos2 step) v) (min_elem2 (min_elem2 mn a) a) (max_elem2 mx b)
  end.
Fixpoint ru_eval2 (mn : R -> R -> R) (s : sdf2) (n : nat) (step rot : m33) (p : v2) (d : R) : R :=
  match n with
  | O => d
  | S k => ru_eval2 mn s k step (mul33 rot step) p (mn d (ev2 s (mul_pos2 rot p)))
  end.
Definition rotate_union2d_min (mn : R -> R -> R) (s : sdf2) (num : Z) (step : m33) : res sdf2 :=
  if (num <=? 0)%Z then Ok (empty2_from s)
  else
    let n := Z.to_nat num in
    let v := vertices2 (bb2 s) in
    do v0 <- (match v with [] => Panicked | a :: _ => Ok a end);
    do bb <- ru_box2 n step v v0 v0;
    Ok (S2 (fun p => ru_eval2 mn s n (inverse33 step) identity2d p max_float64) bb).
Definition rotate_union2d := rotate_union2d_min Rmin.
(** sdf2.go:279-313 RotateCopy2D: n <= 0 panics *)
Definition rotate_copy2d (s : sdf2) (n : Z) : res sdf2 :=
  if (n <=? 0)%Z then Panicked
  else
    let theta := 2 * PI / IZR n in
    let rmax := rc_rmax (map norm2 (vertices2 (bb2 s))) in
    Ok (S2 (fun p => ev2 s (fold_sector theta p)) (Box2 (scale2 (-1) (V2 rmax rmax)) (V2 rmax rmax))).
(** sdf2.go:324-373 Slice2D *)
Definition slice_u (n : v3) : v3 :=
  if Reqb (x3 n) 0 then V3 1 0 0
  else if Reqb (y3 n) 0 then V3 0 1 0
  else if Reqb (z3 n) 0 then V3 0 0 1
  else V3 (y3 n) (- x3 n) 0.
Definition slice_frame (n : v3) : v3 * v3 :=
  let u := slice_u n in (unit3 u, unit3 (cross3 n u)).
Definition slice2d (s : sdf3) (a n0 : v3) : res sdf2 :=
  let '(u, v) := slice_frame n0 in
  let n := unit3 n0 in
  let vec := map (fun w =>
      let va := sub3 w a in
      let pa := sub3 va (scale3 (dot3 n va) n) in
      V2 (dot3 pa u) (dot3 pa v)) (vertices3 (bb3 s)) in
  do mn <- set_min2 vec;
  do mx <- set_max2 vec;
  Ok (S2 (fun p => ev3 s (add3 (add3 a (scale3 (x2 p) u)) (scale3 (y2 p) v))) (Box2 mn mx)).
(** internal/d2/vector.go:139-142 Overlap *)
Definition overlap (a b : R * R) : bool := Rleb (fst b) (snd a) && Rleb (fst a) (snd b).
(** sdf2.go:403-414: index of the member with the least minimum distance *)
Fixpoint least_index (i : nat) (best : R) (besti : nat) (vs : list (R * R)) : nat :=
  match vs with
  | [] => besti
  | v :: r => if Rltb best 0 || Rltb (fst v) best then least_index (S i) (fst v) i r
              else least_index (S i) best besti r
  end.
(** sdf2.go:416-431: combine the members that are not culled *)
Fixpoint union2_loop (mn : R -> R -> R) (p : v2) (mi : nat) (vm : R * R) (i : nat)
    (l : list (sdf2 * (R * R))) (d : option R) : R :=
  match l with
  | [] => match d with None => 0 | Some x => x end
  | (s, v) :: r =>
    if (i =? mi)%nat || overlap vm v then
      let x := ev2 s p in
      union2_loop mn p mi vm (S i) r (Some (match d with None => x | Some y => mn y x end))
    else union2_loop mn p mi vm (S i) r d
  end.
Definition union_eval2 (mn : R -> R -> R) (ss : list sdf2) (p : v2) : R :=
  let vs := map (fun s => min_max_dist2_2 (bb2 s) p) ss in
  let mi := least_index 0 (-1) 0 vs in
  union2_loop mn p mi (nth mi vs (0, 0)) 0 (combine ss vs) None.
(** sdf2.go:433-444 EvaluateSlow *)
Definition union_eval2_slow (mn : R -> R -> R) (ss : list sdf2) (p : v2) : R :=
  match ss with
  | [] => 0
  | s :: r => fold_left (fun d x => mn d (ev2 x p)) r (ev2 s p)
  end.
(** sdf2.go:380-399 Union2D *)
Definition union_box2 (s : sdf2) (ss : list sdf2) : box2 :=
  fold_left (fun b x => extend2 b (bb2 x)) ss (bb2 s).
Definition union2d_min (mn : R -> R -> R) (sdfs : list (option sdf2)) : res sdf2 :=
  if (length sdfs <=? 1)%nat then Panicked
  else match all_some sdfs with
       | None => Panicked
       | Some ss =>
         match ss with
         | [] => Panicked
         | s :: _ => Ok (S2 (union_eval2 mn ss) (union_box2 s ss))
         end
       end.
Definition union2d := union2d_min Rmin.
(** sdf2.go:466-493 Difference2D *)
Definition diff2_max (mx : R -> R -> R) (s0 s1 : sdf2) : sdf2 :=
  S2 (fun p => mx (ev2 s0 p) (- ev2 s1 p)) (bb2 s0).
Definition difference2d_max (mx : R -> R -> R) (a b : option sdf2) : res sdf2 :=
  match a, b with Some s0, Some s1 => Ok (diff2_max mx s0 s1) | _, _ => Panicked end.
Definition difference2d := difference2d_max Rmax.
(** sdf2.go:501-526 Elongate2D: hp and hn are both +h/2 *)
Definition elongate2d (s : sdf2) (h0 : v2) : sdf2 :=
  let h := abs2 h0 in
  let hp := scale2 (1/2) h in
  let hn := scale2 (1/2) h in
  let bb := bb2 s in
  S2 (fun p => ev2 s (sub2 p (clamp2 p hn hp))) (extend2 (box_translate2 bb hp) (box_translate2 bb hn)).
(** sdf2.go:553-590 LineOf2D, Multi2D *)
Definition line_of2d (sdf : option sdf2) (p0 p1 : v2) (pat : pattern) : res sdf2 :=
  match pat with
  | [] => union2d []
  | _ =>
    let dx := scale2 (1 / INR (byte_len pat)) (sub2 p1 p0) in
    match sdf with
    | None => if existsb fst pat then Panicked else union2d []
    | Some s =>
      match line_of_objs (fun x => Some (transform2d s (translate2d x))) add2 p0 dx pat with
      | [Some o] => Ok o
      | os => union2d os
      end
    end
  end.
Definition multi2d (sdf : option sdf2) (positions : list v2) : res sdf2 :=
  match sdf with
  | None => Panicked
  | Some s =>
    match positions with
    | [] => Panicked
    | _ => union2d (map (fun p => Some (transform2d s (translate2d p))) positions)
    end
  end.
(** sdf2.go:595-615 Offset2D *)
Definition offset2d (s : sdf2) (offset : R) : sdf2 :=
  let bb := bb2 s in
  S2 (fun p => ev2 s p - offset) (new_box2 (center2 bb) (add2 (size2 bb) (elem2 (2 * offset)))).
(** sdf2.go:624-651 Intersect2D *)
Definition inter2_max (mx : R -> R -> R) (s0 s1 : sdf2) : sdf2 :=
  S2 (fun p => mx (ev2 s0 p) (ev2 s1 p)) (bb2 s0).
Definition intersect2d_max (mx : R -> R -> R) (a b : option sdf2) : res sdf2 :=
  match a, b with Some s0, Some s1 => Ok (inter2_max mx s0 s1) | _, _ => Panicked end.
Definition intersect2d := intersect2d_max Rmax.
