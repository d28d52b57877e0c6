(** The programs of /repo/examples up to the rendering call, over R.  Go float constants that are not exact in binary
    are the decimal numbers written in the source. *)
From Coq Require Import String Reals List Bool ZArith.
From Verif Require Import Prelude Vec BoxModel MatrixModel SdfModel PrimModel PolyModel BlendModel UtilModel MiscModel ObjModel.
Import ListNotations.
Local Open Scope R_scope.

(** "if err != nil { panic(err) }" *)
Definition or_panic {A} (r : res A) : res A := match r with Err => Panicked | _ => r end.

(** ** metric-spacers/spacers.go *)
(** 64-66 getHexRadiusFromFTF *)
Definition hex_radius_from_ftf (ftf : R) : R := ftf / cos (30 * PI / 180) / 2.
(** 48-62 spacer.sdf *)
Definition spacer_sdf (m : material) (d h : R) : res sdf3 :=
  do hole <- internal_dim_scale m (d * (1 + 3/100));
  let ftf := ceilR (hole * (14/10)) - 15/100 in
  do sp <- hex_head (hex_radius_from_ftf ftf) h "";
  do bore <- form_cylinder h (hole / 2) 0;
  difference3d (Some sp) (Some bore).
(** 31-40, the loop of main: the spacers next to each other along the x axis *)
Fixpoint spacer_row (m : material) (x : R) (l : list (R * R)) : res (list sdf3) :=
  match l with
  | [] => Ok []
  | (d, h) :: r =>
    do s <- or_panic (spacer_sdf m d h);
    do t <- transform3d (Some s) (translate3d (V3 x 0 0));
    do ts <- spacer_row m (x + d * 3) r;
    Ok (t :: ts)
  end.
(** 21-41 main, for the given table of spacers *)
Definition spacers (l : list (R * R)) : res sdf3 := do ss <- spacer_row PLA 0 l; union3d (map Some ss).
Definition spacer_table : list (R * R) := [(3, 7); (3, 12); (4, 7); (6, 30); (8, 30); (16, 10)].

(** ** pcb-spacer/boardspacer.go *)
(** 84-99 standoffs *)
Definition board_standoffs (hole : R) (positions : list v3) : res sdf3 :=
  do hd <- internal_dim_scale PLA hole;
  do s <- or_panic (standoff (StandP 7 (hole * 2) (7 + 24/10) hd 0 0 0 0));
  multi3d (Some s) positions.
(** 40-81 base; zOfs, m4Positions and m3Positions *)
Definition board_z : R := 5/10 * (7 + 24/10).
Definition board_m4 : list v3 :=
  map (fun p => V3 (fst p) (snd p) board_z) [(45/10, 45/10); (45/10, 955/10); (955/10, 955/10); (955/10, 45/10); (60, 30); (60, 70)].
Definition board_m3 : list v3 :=
  map (fun p => V3 (fst p) (snd p) board_z) [(9, 355/10); (9, 625/10); (91, 645/10); (91, 375/10); (355/10, 91); (625/10, 91)].
Definition board_base : res sdf3 :=
  do hd <- internal_dim_scale PLA 4;
  do pan <- or_panic (panel2 (PanelP (V2 100 100) (4 * (12/10)) hd (45/10) (45/10) (45/10) (45/10) pat_x pat_x pat_x pat_x 0));
  do s2 <- transform3d (Some (extrude3d pan (24/10))) (translate3d (V3 (5/10 * 100) (5/10 * 100) 0));
  do m4 <- board_standoffs 4 board_m4;
  do m3 <- board_standoffs 3 board_m3;
  union3d_min (min_poly 2 3) [Some s2; Some m4; Some m3].

(** ** pcb-support/support.go *)
Definition support_standoffs : list v2 := [V2 13 (125/10); V2 (13 + 102) (125/10); V2 13 (125/10 + 95); V2 (13 + 102) (125/10 + 95)].
Definition support_holes : list v2 := [V2 13 30; V2 (13 + 102) 30; V2 13 (30 + 60); V2 (13 + 102) (90 + 60)].
Definition support_pillars : list v2 := [V2 85 85; V2 85 15; V2 50 50].
(** 62-72, the loops that cut a cylinder at every position *)
Fixpoint cut_all (height radius : R) (s : sdf3) (l : list v2) : res sdf3 :=
  match l with
  | [] => Ok s
  | c :: r =>
    do cyl <- must_cylinder height radius 0;
    do t <- transform3d (Some cyl) (translate3d (V3 (x2 c) (y2 c) 0));
    do s' <- difference3d (Some s) (Some t);
    cut_all height radius s' r
  end.
(** 79-86, the loop that adds the pillars *)
Fixpoint add_pillars (s : sdf3) (l : list v2) : res sdf3 :=
  match l with
  | [] => Ok s
  | c :: r =>
    do outer <- must_cylinder 9 (8/2) 0;
    do inner <- must_cylinder 9 (6/2) 0;
    do pil <- difference3d (Some outer) (Some inner);
    do t <- transform3d (Some pil) (translate3d (V3 (x2 c) (y2 c) ((9 + 25/10) / 2)));
    do s' <- union3d_min (min_poly 2 3) [Some s; Some t];
    add_pillars s' r
  end.
(** 46-86 main *)
Definition support : res sdf3 :=
  do hd <- internal_dim_scale PLA (35/10);
  do pan <- or_panic (panel2 (PanelP (V2 100 100) (35/10 * (12/10)) hd (45/10) (45/10) (45/10) (45/10) pat_x pat_x pat_x pat_x 0));
  do s <- transform3d (Some (extrude3d pan (25/10))) (translate3d (V3 (100 / 2) (100 / 2) 0));
  do s <- cut_all (25/10 * 2) (8/2) s support_standoffs;
  do s <- cut_all 10 (35/10/2) s support_holes;
  add_pillars s support_pillars.

(** ** adz-sensor-cover/cover.go: 13-52 main; [ct] is coverThick, [rd] is round *)
Definition sensor_cover : res sdf3 :=
  let ct := 2 * (55/100) in let rd := ct / 2 in
  let dim := 156/10 + ct * 2 in
  do cover <- must_box3 (V3 dim dim (1 / 2 + 3)) rd;
  do dim <- internal_dim_scale PLA (156/10);
  do empty <- must_box3 (V3 dim dim 3) 0;
  do empty <- transform3d (Some empty) (translate3d (V3 0 0 (1 / 4)));
  do cover <- difference3d (Some cover) (Some empty);
  do sensor <- must_cylinder (3 + 1 / 2) (23 / 2 + ct) rd;
  do dim <- internal_dim_scale PLA (23 / 2);
  do empty <- must_cylinder 3 dim (rd * 2);
  do empty <- transform3d (Some empty) (translate3d (V3 0 0 (- 1 / 4)));
  do sensor <- difference3d (Some sensor) (Some empty);
  do sensor <- transform3d (Some sensor) (translate3d (V3 0 0 (- (3 + 1 / 2))));
  do cover <- union3d [Some cover; Some sensor];
  do hole <- must_box3 (V3 10 10 (4 * ct)) 0;
  do hole <- transform3d (Some hole) (translate3d (V3 0 0 (-2 * ct)));
  do cover <- difference3d (Some cover) (Some hole);
  Ok (mat_scale PLA cover).

(** ** npt-flange/flange.go: 21-46 main *)
Definition flange_h : R := 7 / (254/10).
Definition flange : res sdf3 :=
  let npt := match set_from_nominal (Npt 0 0 0) (1 / 2) with Ok n => n | _ => Npt 0 0 0 end in
  do pipe <- or_panic (nut (NutP (Some (npt_threader npt)) NutCircular 0));
  do pipe <- transform3d (Some pipe) (scale3d (V3 (103/100) (103/100) 1));
  do fl <- must_cylinder flange_h (60 / (254/10) / 2) (flange_h / 8);
  do fl <- transform3d (Some fl) (translate3d (V3 0 0 (- (18 / (254/10)) / 2)));
  do u <- union3d_min (min_poly 2 (2/10)) [Some pipe; Some fl];
  do hole <- must_cylinder (4 * flange_h) (15/10 / 2 / 2) 0;
  do pipe <- difference3d (Some u) (Some hole);
  Ok (scale_uniform3d pipe (254/10)).

(** ** atx-bench-supply/atx.go *)
(** 100-106 bbSize, bbCenter *)
Definition atx_size (b : box2) : v2 := sub2 (max2 b) (min2 b).
Definition atx_center (b : box2) : v2 := add2 (min2 b) (scale2 (5/10) (atx_size b)).
Definition pat_xxx : pattern := [(true, 1%nat); (true, 1%nat); (true, 1%nat)].
(** 24-38 the package variables, 40-81 main *)
Definition atx : res sdf3 :=
  do on_button <- must_circle (112/100 * (20 / 2));
  do plug_big <- must_circle (112/100 * (65/10 / 2));
  do plug_small <- must_circle (112/100 * (6 / 2));
  do display <- must_box2 (V2 45 (257/10)) 0;
  do clamps <- must_box2 (V2 49 (1767/100)) 1;
  do panel <- or_panic (panel2 (PanelP (V2 150 85) 4 (95/100 * 4) 4 4 4 4 pat_xxx pat_xxx pat_xxx pat_xxx 0));
  let outputs := transform2d (array2d plug_big 4 2 (V2 (-20) 20)) (translate2d (V2 (150/2 - 15) (- 85/2 + 15))) in
  do panel <- difference2d (Some panel) (Some (transform2d on_button (translate2d (V2 (150/2 - 25) (85/2 - 15)))));
  do panel <- difference2d (Some panel) (Some outputs);
  let reg := array2d plug_small 2 1 (V2 20 20) in
  let bx := x2 (atx_size (bb2 reg)) in
  let disp := transform2d display (translate2d (V2 (bx / 2) (257/10 / 2 + 20 / 2))) in
  do reg <- union2d [Some reg; Some disp];
  let reg := transform2d reg (translate2d (V2 (- 150/2 - bx / 2 + 45 / 2 + 12) (85/2 - 12 - 257/10 / 2 - 20))) in
  let sz := atx_size (bb2 reg) in
  do block <- must_box2 (V2 (x2 sz + 4) (y2 sz + 4)) (4 / 2);
  let block := transform2d block (translate2d (atx_center (bb2 reg))) in
  do block <- difference2d (Some block) (Some reg);
  do block3 <- transform3d (Some (extrude3d block (4 + 4))) (translate3d (V3 0 0 (4 / 2)));
  do panel <- difference2d (Some panel) (Some reg);
  let clamp := transform2d clamps (translate2d (V2 (- 150/2 + 49 / 2 + 12) (- 85/2 + 1767/100 / 2 + 12))) in
  do panel <- difference2d (Some panel) (Some clamp);
  union3d [Some (extrude3d panel 4); Some block3].
