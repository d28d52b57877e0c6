(** Blending functions: utils.go:97-204.  math.Exp, math.Log and math.Pow with an integer
    exponent are the real functions. *)
From Coq Require Import Reals ZArith Bool.
From Verif Require Import Prelude Vec MatrixModel BoxModel SdfModel.
Local Open Scope R_scope.

(** utils.go:97-102 MinRound *)
Definition min_round (k a b : R) : R :=
  let u := V2 (Rmax (k - a) 0) (Rmax (k - b) 0) in
  Rmax k (Rmin a b) - norm2 u.
(** utils.go:105-109 MinExp *)
Definition min_exp (k a b : R) : R := - ln (exp (- k * a) + exp (- k * b)) / k.
(** utils.go:121-125 minQuad *)
Definition min_quad (a b k : R) : R :=
  let h := Rmax (k - Rabs (a - b)) 0 / k in Rmin a b - h * h * k * (1/4).
(** utils.go:127-131 minCubic *)
Definition min_cubic (a b k : R) : R :=
  let h := Rmax (k - Rabs (a - b)) 0 / k in Rmin a b - h * h * h * k * (1/6).
(** utils.go:134-141 minPoly, for n >= 1 *)
Definition min_poly_gen (n : nat) (k a b : R) : R :=
  let h := Rmax (k - Rabs (a - b)) 0 / k in Rmin a b - h ^ n * k * ((1/2) / INR n).
(** utils.go:148-177 MinPoly; sqrtHalf is the square root of one half (utils.go:16) *)
Definition min_poly (n : Z) (k a b : R) : R :=
  if (n <? 0)%Z || Rleb k 0 then Rmin a b - Rmax (k - Rabs (a - b)) 0
  else if (n =? 0)%Z then Rmin (Rmin a b) ((a - k + b) * sqrt (1/2))
  else if (n =? 1)%Z then Rmin a b
  else if (n =? 2)%Z then min_quad a b k
  else if (n =? 3)%Z then min_cubic a b k
  else min_poly_gen (Z.to_nat n) k a b.
(** utils.go:183-204 MaxPoly, maxPoly.  [None] stands for a result that is not a finite
    number: n = 0 divides 0.5 by zero, giving +Inf for every argument. *)
Definition max_poly (n : Z) (k a b : R) : option R :=
  if (n <? 0)%Z || Rleb k 0 then Some (- (- Rmin a b - Rmax (k - Rabs (b - a)) 0))
  else if (n =? 0)%Z then None
  else let h := Rmax (k - Rabs (b - a)) 0 / k in
       Some (- (Rmin (- a) (- b) - h ^ Z.to_nat n * k * ((1/2) / INR (Z.to_nat n)))).
