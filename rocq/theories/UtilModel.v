(** Grid map, grid sampling, ray casting (/repo/utils.go, /repo/sdf2.go) and material
    compensation (/repo/helpers/matter/3dprint.go). *)
From Coq Require Import Reals List Bool ZArith.
From Verif Require Import Prelude Vec BoxModel MatrixModel SdfModel.
Import ListNotations.
Local Open Scope R_scope.

(** utils.go:37-39 R2ToI: int() truncates towards zero *)
Definition truncR (x : R) : Z := if Rltb x 0 then (- Int_part (- x))%Z else Int_part x.
(** utils.go:343-348 map2 *)
Record map2 := Map2 { m_bb : box2; m_n0 : Z; m_n1 : Z; m_delta : v2; m_flipy : bool }.
(** utils.go:351-368 newMap2 *)
Definition new_map2 (bb : box2) (n0 n1 : Z) (flipy : bool) : res map2 :=
  let size := size2 bb in
  if Rleb (x2 size) 0 || Rleb (y2 size) 0 then Err
  else if ((n0 <=? 0) || (n1 <=? 0))%Z then Err
  else Ok (Map2 bb n0 n1 (V2 (x2 size / IZR n0) (y2 size / IZR n1)) flipy).
(** utils.go:371-382 ToV2; TopLeft and BottomLeft: internal/d2/box.go:82-89 *)
Definition to_v2 (m : map2) (i j : Z) : v2 :=
  let ox := (IZR i + 1/2) * x2 (m_delta m) in
  let oy := (IZR j + 1/2) * y2 (m_delta m) in
  if m_flipy m then add2 (V2 (x2 (min2 (m_bb m))) (y2 (max2 (m_bb m)))) (V2 ox (- oy))
  else add2 (min2 (m_bb m)) (V2 ox oy).
(** utils.go:385-394 ToV2i *)
Definition to_v2i (m : map2) (p : v2) : Z * Z :=
  let v := if m_flipy m then
      let d := sub2 p (V2 (x2 (min2 (m_bb m))) (y2 (max2 (m_bb m)))) in V2 (x2 d) (- y2 d)
    else sub2 p (min2 (m_bb m)) in
  (truncR (x2 v / x2 (m_delta m)), truncR (y2 v / y2 (m_delta m))).
(** sdf2.go:529-551 generateMesh2D *)
Definition generate_mesh2d (s : sdf2) (n0 n1 : Z) : res (list v2) :=
  do m <- new_map2 (bb2 s) n0 n1 false;
  Ok (flat_map (fun i => flat_map (fun j =>
        let v := to_v2 m (Z.of_nat i) (Z.of_nat j) in if Rleb (ev2 s v) 0 then [v] else [])
      (seq 0 (Z.to_nat n1))) (seq 0 (Z.to_nat n0))).

(** utils.go:254-256 sigmoidScaled *)
Definition sigmoid_scaled (x : R) : R := 2 / (1 + exp (- x)) - 1.
(** utils.go:265-299 raycast3.  The loop state is (t, pos, steps); one iteration either
    returns (collision, t, steps) or gives the next state.  [steps] is an unbounded
    integer (the code's int wraps only after 2^63 iterations). *)
Record ray_cfg := Ray { r_sigmoid : R; r_scale : R; r_eps : R; r_maxdist : R; r_maxsteps : Z }.
Definition ray_state : Type := R * v3 * Z.
Definition ray_result : Type := v3 * R * Z.
Definition ray_step (s : sdf3) (dir : v3) (c : ray_cfg) (st : ray_state) : ray_result + ray_state :=
  let '(t, pos, steps) := st in
  let val := Rabs (ev3 s pos) in
  if Rltb val (r_eps c) then inl (pos, t, steps)
  else
    let steps := (steps + 1)%Z in
    if (steps =? r_maxsteps c)%Z then inl (zero3, -1, steps)
    else
      let val := if Rltb 0 (r_sigmoid c) then sigmoid_scaled (val * 10) else val in
      let delta := val * r_scale c in
      let t := t + delta in
      let pos := add3 pos (scale3 delta (unit3 dir)) in
      if Rltb t 0 || Rltb (r_maxdist c) t then inl (zero3, -1, steps)
      else inr (t, pos, steps).
(** [fuel] iterations of the loop; [None] when it has not finished yet. *)
Fixpoint ray_run (fuel : nat) (s : sdf3) (dir : v3) (c : ray_cfg) (st : ray_state) : option ray_result :=
  match fuel with
  | O => None
  | S k => match ray_step s dir c st with inl r => Some r | inr st' => ray_run k s dir c st' end
  end.
Definition raycast3 (fuel : nat) (s : sdf3) (from dir : v3) (c : ray_cfg) : option ray_result :=
  ray_run fuel s dir c (0, from, 0%Z).
(** utils.go:302-305 raycast2 *)
Definition raycast2 (fuel : nat) (s : sdf2) (from dir : v2) (c : ray_cfg) : option (v2 * R * Z) :=
  match raycast3 fuel (extrude3d s 1) (V3 (x2 from) (y2 from) 0) (V3 (x2 dir) (y2 dir) 0) c with
  | None => None
  | Some (p, t, n) => Some (xy p, t, n)
  end.

(** helpers/matter/3dprint.go:15-39 *)
Inductive material := Ideal | Viscoelastic (shrink pull : R).
Definition PLA : material := Viscoelastic (3 / 1000) (45 / 100).
Definition mat_scale (m : material) (s : sdf3) : sdf3 :=
  match m with Ideal => s | Viscoelastic k _ => scale_uniform3d s (1 + k) end.
Definition internal_dim_scale (m : material) (real : R) : res R :=
  match m with
  | Ideal => Ok real
  | Viscoelastic k pull => if Rleb real 0 then Panicked else Ok (real * (k + 1) + pull)
  end.
