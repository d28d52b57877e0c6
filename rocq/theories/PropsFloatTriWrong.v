(** C112: a wrong choice by rounding alone. *)
From Coq Require Import Reals List Bool ZArith Lia Lra Psatz Floats.SpecFloat.
From Verif Require Import Prelude Vec SdfModel BihModel PropsTri FloatBoolModel FloatRound FloatShapeModel FloatRenderModel FloatNear FloatTrack PropsFloatSign FloatTriModel PropsFloatTri.
Import ListNotations.
Local Open Scope R_scope.

(** Without underflow: the target is 2^-53 short of the perpendicular at b = (1,0,0), the triangle reaches to
    (-1024,1024,0).  The second parameter 1 - f01/(f01-f10) of p1 rounds to zero, the point beside b is returned, and a
    point of the edge from b to c has half its squared distance. *)
Theorem C112_rounding_refuted : exists target a b c w, at3 1024 target /\ at3 1024 a /\ at3 1024 b /\ at3 1024 c /\
  1 / 2 <= x3 (FR3 target) <= 1 /\ y3 (FR3 target) = 512 /\ FR3 a = V3 0 0 0 /\ FR3 b = V3 1 0 0 /\ FR3 c = V3 (-1024) 1024 0 /\
  ~ no_param target a b c /\ in_tri (FR3 a) (FR3 b) (FR3 c) w /\
  norm3sq (FR3 (fmin_dist_tri target a b c)) = 262144 /\ norm3sq (sub3 (FR3 target) w) <= 131300.
Proof.
  set (z := S754_zero false). set (one := S754_finite false 4503599627370496 (-52)). set (less := S754_finite false 9007199254740991 (-53)).
  set (k := S754_finite false 4503599627370496 (-42)). set (mk := S754_finite true 4503599627370496 (-42)). set (h := S754_finite false 4503599627370496 (-43)).
  assert (E1 : FR one = 1) by exact FR_f1. assert (EZ : FR z = 0) by reflexivity.
  assert (B52 : bpow (-52) = / 4503599627370496) by (unfold one, FR in E1; field_simplify in E1; pose proof (bpow_pos (-52)); nra).
  assert (B53 : bpow (-53) = bpow (-52) / 2) by (change (-53)%Z with (-52 - 1)%Z; rewrite bpow_sub, bpow_1; reflexivity).
  assert (B42 : bpow (-42) = bpow (-52) * 1024) by (change (-42)%Z with (-52 + 10)%Z; rewrite bpow_add; f_equal; rewrite bpow_Z by lia; reflexivity).
  assert (B43 : bpow (-43) = bpow (-52) * 512) by (change (-43)%Z with (-52 + 9)%Z; rewrite bpow_add; f_equal; rewrite bpow_Z by lia; reflexivity).
  assert (EL : FR less = 9007199254740991 / 9007199254740992) by (unfold less, FR; rewrite B53, B52; lra).
  assert (EK : FR k = 1024) by (unfold k, FR; rewrite B42, B52; lra). assert (EM : FR mk = -1024) by (unfold mk, FR; rewrite B42, B52; lra). assert (EH : FR h = 512) by (unfold h, FR; rewrite B43, B52; lra).
  exists (FV3 less h z), (FV3 z z z), (FV3 one z z), (FV3 mk k z), (V3 (1 - 1025 / 4) 256 0).
  assert (AT : forall x y w, In x [z; one; less; k; mk; h] -> In y [z; one; less; k; mk; h] -> In w [z; one; less; k; mk; h] -> at3 1024 (FV3 x y w)).
  { assert (K : forall x, In x [z; one; less; k; mk; h] -> valid x /\ fin x = true /\ Rabs (FR x) <= 1024) by (intros x X; cbn [In] in X; destruct X as [<-|[<-|[<-|[<-|[<-|[<-|[]]]]]]]; (split; [reflexivity|split; [reflexivity|]]); apply Rabs_le; lra).
    intros x y w Hx Hy Hw. apply K in Hx, Hy, Hw. unfold at3, valid3, fin3. cbn [f3x f3y f3z]. tauto. }
  split; [apply AT; cbn; tauto|]. split; [apply AT; cbn; tauto|]. split; [apply AT; cbn; tauto|]. split; [apply AT; cbn; tauto|].
  unfold FR3 at 1 2 3 4 5 6 7 8. cbn [f3x f3y f3z x3 y3 z3]. rewrite EL, EH, EZ, E1, EM, EK. split; [lra|]. do 4 (split; [reflexivity|]).
  split; [intros (H & _); vm_compute in H; discriminate|]. split.
  - exists (3 / 4), (1 / 4). repeat (split; [lra|]). unfold FR3, add3, scale3, sub3; cbn [f3x f3y f3z x3 y3 z3]; rewrite ?EZ, ?E1, ?EM, ?EK; f_equal; lra.
  - replace (fmin_dist_tri (FV3 less h z) (FV3 z z z) (FV3 one z z) (FV3 mk k z)) with (FV3 z h z) by (vm_compute; reflexivity). unfold FR3, norm3sq, dot3, sub3. cbn [f3x f3y f3z x3 y3 z3]. rewrite ?EH, ?EZ, ?EL. split; lra.
Qed.
