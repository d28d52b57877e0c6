(** The ready-made parts: form2/poly.go, form3/basic.go (the wrappers not in PrimModel),
    form2/obj2/panel.go, form3/obj3/panel.go, form3/obj3/standoff.go and
    form3/obj3/thread/*.go, over R.  Go float constants that are not exact in binary
    (0.08, 25.4, ...) are the decimal numbers written in the source. *)
From Coq Require Import String Reals List Bool ZArith.
From Verif Require Import Prelude Vec BoxModel MatrixModel SdfModel PrimModel PolyModel.
Import ListNotations.
Local Open Scope R_scope.

(** A fresh builder, the given Add calls with their modifiers, then Vertices().  The fuel is
    enough for lists without Arc (lemma [vertices_of_ok]); no part below uses Arc. *)
Definition vertices_of (l : list (v2 * list vmod)) : res (list v2) :=
  let pvs := map (fun x => fold_left apply_mod (snd x) (pv_at (fst x))) l in
  match vertices (2 + length l) (Builder false false (Some pvs)) with
  | Some (Ok (vs, _)) => Ok vs
  | Some Err => Err
  | _ => Panicked
  end.
(** must2.Polygon(p.Vertices()) *)
Definition built_polygon (l : list (v2 * list vmod)) : res sdf2 := do vs <- vertices_of l; polygon vs.

(** form2/poly.go:12-24 Polygon, 31-43 Nagon *)
Definition form_polygon (vs : list v2) : res sdf2 := recovered (polygon vs).
Definition form_nagon (n : Z) (radius : R) : res (list v2) := Ok (nagon n radius).
(** form3/must3/cylinders.go:229-242 ChamferedCylinder; form3/basic.go:81-94 is the same code
    (it has no recover). *)
Definition chamfered_cylinder (sdf : option sdf3) (kb kt : R) : res sdf3 :=
  match sdf with
  | None => Panicked
  | Some s =>
    let l := z3 (max3 (bb3 s)) in
    let r := x3 (max3 (bb3 s)) in
    do s0 <- built_polygon [(V2 0 (- l), []); (V2 r (- l), [MChamfer (r * kb)]); (V2 r l, [MChamfer (r * kt)]); (V2 0 l, [])];
    do cc <- revolve3d (Some s0) (2 * PI);
    intersect3d (Some s) (Some cc)
  end.

(** ** Panels *)
(** form2/obj2/panel.go:34-41.  The [4]float64 and [4]string are four fields each: top, right,
    bottom, left. *)
Record panel_params := PanelP {
  pp_size : v2; pp_corner : R; pp_hole : R;
  pp_mt : R; pp_mr : R; pp_mb : R; pp_ml : R;
  pp_pt : pattern; pp_pr : pattern; pp_pb : pattern; pp_pl : pattern;
  pp_thickness : R }.
(** panel.go:44-68 Panel *)
Definition panel2 (k : panel_params) : res sdf2 :=
  do s0 <- must_box2 (pp_size k) (pp_corner k);
  if Rleb (pp_hole k) 0 then Ok s0
  else
    let tl := V2 (- (1/2) * x2 (pp_size k) + pp_ml k) (1/2 * y2 (pp_size k) - pp_mt k) in
    let tr := V2 (1/2 * x2 (pp_size k) - pp_mr k) (1/2 * y2 (pp_size k) - pp_mt k) in
    let br := V2 (1/2 * x2 (pp_size k) - pp_mr k) (- (1/2) * y2 (pp_size k) + pp_mb k) in
    let bl := V2 (- (1/2) * x2 (pp_size k) + pp_ml k) (- (1/2) * y2 (pp_size k) + pp_mb k) in
    do hole <- must_circle (1/2 * pp_hole k);
    do h0 <- line_of2d (Some hole) tl tr (pp_pt k);
    do h1 <- line_of2d (Some hole) tr br (pp_pr k);
    do h2 <- line_of2d (Some hole) br bl (pp_pb k);
    do h3 <- line_of2d (Some hole) bl tl (pp_pl k);
    do u <- union2d [Some h0; Some h1; Some h2; Some h3];
    difference2d (Some s0) (Some u).
(** panel.go:72-96: the constants, EuroRackParams, HPSize, USize *)
Definition er_u : R := 175/100 * (254/10).
Definition er_hp : R := 2/10 * (254/10).
Definition er_u_gap : R := (3 * er_u - 1285/10) * (1/2).
Definition er_hp_gap : R := (3 * er_hp - 15) * (1/2).
Record rack_params := RackP { rk_u : R; rk_hp : R; rk_corner : R; rk_hole : R; rk_thickness : R; rk_ridge : bool }.
Definition hp_size (k : rack_params) : R := rk_hp k * er_hp - 2 * er_hp_gap.
Definition u_size (k : rack_params) : R := rk_u k * er_u - 2 * er_u_gap.
(** panel.go:99-138 EuroRackPanel *)
Definition pat_x : pattern := [(true, 1%nat)].
Definition euro_rack_panel2 (k : rack_params) : res sdf2 :=
  if Rltb (rk_u k) 1 then Panicked
  else if Rleb (rk_hp k) 1 then Panicked
  else if Rltb (rk_corner k) 0 then Panicked
  else if Rleb (rk_hole k) 0 then Panicked
  else
    let h_margin := 3 * er_hp * (1/2) - er_hp_gap in
    let mk := PanelP (V2 (hp_size k) (u_size k)) (rk_corner k) (rk_hole k) 3 h_margin 3 h_margin in
    if Rltb (rk_hp k) 8 then panel2 (mk pat_x [] [] pat_x 0)
    else panel2 (mk pat_x pat_x pat_x pat_x 0).
(** form3/obj3/panel.go:12-21 Panel *)
Definition panel3 (k : panel_params) : res sdf3 :=
  if Rleb (pp_thickness k) 0 then Panicked
  else do s <- panel2 k; Ok (extrude3d s (pp_thickness k)).
(** form3/obj3/panel.go:24-50 EuroRackPanel *)
Definition euro_rack_panel3 (k : rack_params) : res sdf3 :=
  let t := rk_thickness k in
  if Rleb t 0 then Panicked
  else
    do p <- euro_rack_panel2 k;
    let s := extrude3d p t in
    if negb (rk_ridge k) then Ok s
    else
      let y := u_size k - 18 in
      let z := t * (15/10) in
      do r <- must_box3 (V3 t y z) 0;
      let zo := 1/2 * (t + z) in
      let xo := 1/2 * (hp_size k - t) in
      do r' <- transform3d (Some r) (translate3d (V3 0 0 zo));
      do r0 <- transform3d (Some r') (translate3d (V3 xo 0 0));
      do r1 <- transform3d (Some r') (translate3d (V3 (- xo) 0 0));
      union3d [Some s; Some r0; Some r1].
(** internal/d3/vector.go:28-29 LTZero *)
Definition lt_zero3 (a : v3) : bool := Rltb (x3 a) 0 || Rltb (y3 a) 0 || Rltb (z3 a) 0.
(** form3/obj3/panel.go:53-93 PanelHole *)
Record hole_params := HoleP { ph_diameter : R; ph_thickness : R; ph_indent : v3; ph_offset : R; ph_orientation : R }.
Definition panel_hole (k : hole_params) : res sdf3 :=
  if Rleb (ph_diameter k) 0 then Panicked
  else if Rleb (ph_thickness k) 0 then Panicked
  else if lt_zero3 (ph_indent k) then Panicked
  else if Rltb (ph_offset k) 0 then Panicked
  else
    do s <- must_cylinder (ph_thickness k) (ph_diameter k * (1/2)) 0;
    if Reqb (ph_offset k) 0 || Reqb (x3 (ph_indent k)) 0 || Reqb (y3 (ph_indent k)) 0 || Reqb (z3 (ph_indent k)) 0 then Ok s
    else
      do ind <- must_box3 (ph_indent k) 0;
      let zo := (ph_thickness k - z3 (ph_indent k)) * (1/2) in
      do ind' <- transform3d (Some ind) (translate3d (V3 (ph_offset k) 0 zo));
      do u <- union3d [Some s; Some ind'];
      if negb (Reqb (ph_orientation k) 0) then transform3d (Some u) (rotate_z (ph_orientation k)) else Ok u.

(** ** Standoffs: form3/obj3/standoff.go *)
(** standoff.go:15-25 *)
Record standoff_params := StandP {
  st_height : R; st_diameter : R; st_hole_depth : R; st_hole_diameter : R;
  st_webs : Z; st_web_height : R; st_web_diameter : R; st_web_width : R }.
(** standoff.go:49-59 pillarWeb *)
Definition pillar_web (k : standoff_params) : res sdf3 :=
  do p <- built_polygon [(V2 0 0, []); (V2 (1/2 * st_web_diameter k) 0, []); (V2 0 (st_web_height k), [])];
  transform3d (Some (extrude3d p (st_web_width k)))
    (mul44 (translate3d (V3 0 0 (- (1/2) * st_height k))) (rotate_x (90 * PI / 180))).
(** standoff.go:62-64 pillar *)
Definition pillar (k : standoff_params) : res sdf3 := must_cylinder (st_height k) (1/2 * st_diameter k) 0.
(** standoff.go:67-74 pillarHole; nil is [None]. *)
Definition pillar_hole (k : standoff_params) : res (option sdf3) :=
  if Reqb (st_hole_diameter k) 0 || Reqb (st_hole_depth k) 0 then Ok None
  else
    do s <- must_cylinder (Rabs (st_hole_depth k)) (1/2 * st_hole_diameter k) 0;
    do t <- transform3d (Some s) (translate3d (V3 0 0 (1/2 * (st_height k - st_hole_depth k))));
    Ok (Some t).
(** standoff.go:28-46 Standoff *)
Definition standoff (k : standoff_params) : res sdf3 :=
  do s <- pillar k;
  do s <- (if (0 <? st_webs k)%Z
           then do w <- pillar_web k;
                do u <- union3d [Some s; Some (rotate_copy3d w (st_webs k))];
                do cut <- must_cylinder (st_height k) (st_web_diameter k) 0;
                intersect3d (Some u) (Some cut)
           else Ok s);
  do hole <- pillar_hole k;
  if Rleb 0 (st_hole_depth k) then difference3d (Some s) hole else union3d [Some s; hole].

(** ** Threads: form3/obj3/thread *)
(** parameters.go:5-22; Name is left out. *)
Record tparams := TParams { tp_radius : R; tp_pitch : R; tp_starts : Z; tp_taper : R; tp_hexf2f : R }.
Definition hex_radius (t : tparams) : R := tp_hexf2f t / (2 * cos (30 * PI / 180)).
Definition hex_height (t : tparams) : R := 2 * hex_radius t * (5 / 12).
(** thread.go:24-27 the Threader interface: what its two methods return. *)
Record threader := Threader { th_thread : res sdf2; th_params : tparams }.
(** thread.go:51-77 Screw, 80-99 Evaluate, 106-110 sawTooth ([saw_tooth] of SdfModel is the same
    function).  The fields of the struct are arguments. *)
Definition screw_x (pitch lead : R) (p : v3) : R :=
  saw_tooth (z3 p + lead * atan2 (y3 p) (x3 p) / (2 * PI)) pitch.
Definition screw_y (taper : R) (p : v3) : R :=
  let y := sqrt (x3 p * x3 p + y3 p * y3 p) in
  if negb (Reqb taper 0) then y + z3 p * atan taper else y.
Definition screw_eval (t : sdf2) (pitch lead length taper : R) (p : v3) : R :=
  Rmax (ev2 t (V2 (screw_x pitch lead p) (screw_y taper p))) (Rabs (z3 p) - length).
Definition screw (length : R) (th : option threader) : res sdf3 :=
  match th with
  | None => Err
  | Some t =>
    if Rleb length 0 then Err
    else
      do tsdf <- th_thread t;
      let ps := th_params t in
      let pitch := tp_pitch ps in
      let len := length / 2 in
      let taper := tp_taper ps in
      let lead := - pitch * IZR (tp_starts ps) in
      let r := y2 (max2 (bb2 tsdf)) + len * tan taper in
      Ok (S3 (screw_eval tsdf pitch lead len taper) (Box3 (V3 (- r) (- r) (- len)) (V3 r r len)))
  end.
(** basic.go:27 metricF2FTable *)
Definition metric_table : list R :=
  [175/100; 2; 32/10; 4; 5; 6; 7; 8; 10; 13; 17; 19; 24; 30; 36; 46; 55; 65; 75; 85; 95].
(** basic.go:31-52 metricf2f *)
Definition est_f2f (radius : R) : R :=
  if Rltb (Rabs (radius - 56/2)) 1 then 86
  else if Rltb radius ((12/10)/2) then (32/10) * radius
  else if Rltb radius ((38/10)/2) then (45/10) * radius
  else if Rltb radius ((42/10)/2) then 4 * radius
  else (35/10) * radius.
Definition metricf2f (radius : R) : R :=
  match find (fun v => Rltb v (est_f2f radius - 1/100)) (rev metric_table) with
  | Some v => v
  | None => hd 0 metric_table
  end.
(** basic.go:13-23 ThreadParams *)
Definition basic_params (d p : R) : tparams := TParams (d / 2) p 1 0 (metricf2f (d / 2)).
(** iso.go:28-61 *)
Definition iso_profile (d p : R) (ext : bool) : res sdf2 :=
  let radius := d / 2 in
  let theta := 30 * PI / 180 in
  let h := p / (2 * tan theta) in
  let r0 := radius - (7/8) * h in
  if ext then
    let root := (p / 8) / cos theta in
    let xo := (1/16) * p in
    built_polygon [(V2 p 0, []); (V2 p (r0 + h), []); (V2 (p/2) r0, [MSmooth root 5]); (V2 xo radius, []);
      (V2 (- xo) radius, []); (V2 (- p / 2) r0, [MSmooth root 5]); (V2 (- p) (r0 + h), []); (V2 (- p) 0, [])]
  else
    let minor := r0 + (1/4) * h in
    let crest := (p / 16) / cos theta in
    let xo := (1/8) * p in
    built_polygon [(V2 p 0, []); (V2 p minor, []); (V2 (p/2 - xo) minor, []); (V2 0 (r0 + h), [MSmooth crest 5]);
      (V2 (- p / 2 + xo) minor, []); (V2 (- p) minor, []); (V2 (- p) 0, [])].
Definition iso (d p : R) (ext : bool) : threader := Threader (iso_profile d p ext) (basic_params d p).
(** uts.go:15-25.  TPI = 0 divides by zero, which R cannot express. *)
Definition uts (d tpi : R) (ext : bool) : threader := iso d (1 / tpi) ext.
(** acme.go:20-45 *)
Definition acme (d p : R) : threader :=
  let radius := d / 2 in
  let h := radius - 1/2 * p in
  let theta := (29/2) * PI / 180 in
  let delta := 1/4 * p * tan theta in
  let x0 := 1/4 * p - delta in
  let x1 := 1/4 * p + delta in
  Threader (built_polygon [(V2 radius 0, []); (V2 radius h, []); (V2 x1 h, []); (V2 x0 radius, []); (V2 (- x0) radius, []);
      (V2 (- x1) h, []); (V2 (- radius) h, []); (V2 (- radius) 0, [])]) (basic_params d p).
(** ansibuttress.go:19-46, plasticbuttress.go:19-45: the same outline, other rounding. *)
Definition buttress (d p : R) (m1 m2 m3 : list vmod) : threader :=
  let radius := d / 2 in
  let t0 := tan (45 * PI / 180) in
  let t1 := tan (7 * PI / 180) in
  let b := 6/10 in
  let h0 := p / (t0 + t1) in
  let h1 := (b / 2) * p + 1/2 * h0 in
  let hp := p / 2 in
  Threader (built_polygon [(V2 p 0, []); (V2 p radius, []); (V2 (hp - (h0 - h1) * t1) radius, m1);
      (V2 (t0 * h0 - hp) (radius - h1), m2); (V2 ((h0 - h1) * t0 - hp) radius, m3); (V2 (- p) radius, []); (V2 (- p) 0, [])])
    (basic_params d p).
Definition ansi_buttress (d p : R) : threader := buttress d p [] [MSmooth (714/10000 * p) 5] [].
Definition plastic_buttress (d p : R) : threader :=
  buttress d p [MSmooth (5/100 * p) 5] [MSmooth (15/100 * p) 5] [MSmooth (15/100 * p) 5].
(** npt.go:10-35 *)
Record npt := Npt { npt_d : R; npt_tpi : R; npt_f2f : R }.
Definition npt_threader (n : npt) : threader :=
  let p := basic_params (npt_d n) (1 / npt_tpi n) in
  Threader (iso_profile (npt_d n) (1 / npt_tpi n) false)
    (TParams (tp_radius p) (tp_pitch p) (tp_starts p) (atan (1 / 32)) (if Rltb 0 (npt_f2f n) then npt_f2f n else tp_hexf2f p)).
(** npt.go:37-57: N, D, tpi, ftof *)
Definition npt_table : list (R * npt) :=
  map (fun r => let '(n, d, t, f) := r in (n, Npt d t (f / (254/10))))
  [(1/8, 405/1000, 27, 112/10); (1/4, 540/1000, 18, 157/10); (3/8, 675/1000, 18, 175/10); (1/2, 840/1000, 14, 224/10);
   (3/4, 1050/1000, 14, 269/10); (1, 1315/1000, 115/10, 351/10); (1 + 1/4, 1660/1000, 115/10, 445/10);
   (1 + 1/2, 1900/1000, 115/10, 508/10); (2, 2375/1000, 115/10, 635/10); (2 + 1/2, 2875/1000, 8, 762/10);
   (3, 3500/1000, 8, 889/10); (4, 4500/1000, 8, 1173/10)].
(** npt.go:62-72 SetFromNominal: the receiver afterwards, [Err] leaves it unchanged. *)
Definition set_from_nominal (n : npt) (nominal : R) : res npt :=
  match find (fun a => Rltb (Rabs (fst a - nominal)) (1 / 32)) npt_table with
  | Some a => Ok (snd a)
  | None => Err
  end.
(** knurl.go:17-44.  [starts] is set by Knurl. *)
Record knurl_params := KnurlP { kn_length : R; kn_radius : R; kn_pitch : R; kn_height : R; kn_theta : R }.
Definition knurl_threader (k : knurl_params) (starts : Z) : threader :=
  let p := basic_params (kn_radius k * 2) (kn_pitch k) in
  Threader
    (do vs <- vertices_of [(V2 (kn_pitch k / 2) 0, []); (V2 (kn_pitch k / 2) (kn_radius k), []); (V2 0 (kn_radius k + kn_height k), []);
       (V2 (- kn_pitch k / 2) (kn_radius k), []); (V2 (- kn_pitch k / 2) 0, [])]; form_polygon vs)
    (TParams (tp_radius p) (tp_pitch p) starts (tp_taper p) (tp_hexf2f p)).
(** knurl.go:47-80 Knurl; int() of a non-negative number is its floor (no overflow). *)
Definition knurl (k : knurl_params) : res sdf3 :=
  if Rleb (kn_length k) 0 then Panicked
  else if Rleb (kn_radius k) 0 then Panicked
  else if Rleb (kn_pitch k) 0 then Panicked
  else if Rleb (kn_height k) 0 then Panicked
  else if Rltb (kn_theta k) 0 then Panicked
  else if Rleb (90 * PI / 180) (kn_theta k) then Panicked
  else
    let starts := Int_part (2 * PI * kn_radius k * tan (kn_theta k) / kn_pitch k) in
    do a <- screw (kn_length k) (Some (knurl_threader k starts));
    do b <- screw (kn_length k) (Some (knurl_threader k (starts * -1)%Z));
    intersect3d (Some a) (Some b).
(** knurl.go:83-101 KnurledHead *)
Definition knurled_head (radius height pitch : R) : res sdf3 :=
  let round := radius * (5/100) in
  let len := pitch * floorR ((height - round) / pitch) in
  do k <- knurl (KnurlP len radius pitch (pitch * (3/10)) (45 * PI / 180));
  do c <- form_cylinder height radius round;
  union3d [Some c; Some k].
(** hexhead.go:16-46 HexHead *)
Definition hex_head (radius height : R) (round : string) : res sdf3 :=
  let cr := radius * (8/100) in
  do ng <- form_nagon 6 (radius - cr);
  do hex2d <- form_polygon ng;
  let hex3d := extrude3d (offset2d hex2d cr) height in
  if String.eqb round "" then Ok hex3d
  else
    let top := radius * (16/10) in
    let d := radius * cos (30 * PI / 180) in
    do sphere <- form_sphere top;
    let zo := sqrt (top * top - d * d) - height / 2 in
    do h1 <- (if String.eqb round "t" || String.eqb round "tb"
              then do s <- transform3d (Some sphere) (translate3d (V3 0 0 (- zo))); intersect3d (Some hex3d) (Some s)
              else Ok hex3d);
    if String.eqb round "b" || String.eqb round "tb"
    then do s <- transform3d (Some sphere) (translate3d (V3 0 0 zo)); intersect3d (Some h1) (Some s)
    else Ok h1.
(** nut.go:10-17; any other int is [NutOther]. *)
Inductive nut_style := NutCircular | NutHex | NutKnurl | NutOther.
(** An error or panic of a head whose error is dropped ("head, _ ="): a nil interface or a panic. *)
Definition drop_err (r : res sdf3) : res (option sdf3) :=
  match r with Ok s => Ok (Some s) | Err => Ok None | Panicked => Panicked end.
(** bolt.go:12-18 *)
Record bolt_params := BoltP { bo_thread : option threader; bo_style : nut_style; bo_tolerance : R; bo_total : R; bo_shank : R }.
(** bolt.go:21-75 Bolt.  The switch of lines 22-33 only assigns err, which no later line reads
    before overwriting it, so it has no effect; line 34 dereferences a nil Threader. *)
Definition bolt (k : bolt_params) : res sdf3 :=
  match bo_thread k with
  | None => Panicked
  | Some t =>
    let ps := th_params t in
    let hr := hex_radius ps in
    let hh := hex_height ps in
    if Rleb hr 0 || Rleb hh 0 then Err
    else
      do head <- match bo_style k with
                 | NutHex => drop_err (hex_head hr hh "b")
                 | NutKnurl => drop_err (knurled_head hr hh (hr * (1/4)))
                 | _ => Err
                 end;
      let shank_length := bo_shank k + hh / 2 in
      do sh <- must_cylinder shank_length (tp_radius ps) (hh * (8/100));
      do shank <- transform3d (Some sh) (translate3d (V3 0 0 (shank_length / 2)));
      let tl := bo_total k - bo_shank k in
      let tl := if Rltb tl 0 then 0 else tl in
      do thread <- (if negb (Reqb tl 0)
                    then do s <- screw tl (Some t);
                         do c <- chamfered_cylinder (Some s) 0 (1/2);
                         do m <- transform3d (Some c) (translate3d (V3 0 0 (tl / 2 + shank_length)));
                         Ok (Some m)
                    else Ok None);
      union3d [head; Some shank; thread]
  end.
(** nut.go:34-38 *)
Record nut_params := NutP { nu_thread : option threader; nu_style : nut_style; nu_tolerance : R }.
(** nut.go:41-79 Nut *)
Definition nut (k : nut_params) : res sdf3 :=
  match nu_thread k with
  | None => Err
  | Some t =>
    if Rltb (nu_tolerance k) 0 then Err
    else
      let ps := th_params t in
      let nr := hex_radius ps in
      let nh := hex_height ps in
      if Rleb nr 0 || Rleb nh 0 then Err
      else
        do body <- match nu_style k with
                   | NutHex => hex_head nr nh "tb"
                   | NutKnurl => knurled_head nr nh (nr * (1/4))
                   | NutCircular => must_cylinder nh (nr * (11/10)) 0
                   | NutOther => Err
                   end;
        do thread <- screw nh (Some t);
        difference3d (Some body) (Some thread)
  end.
