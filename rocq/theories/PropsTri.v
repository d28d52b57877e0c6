(** C69: the closest point of a triangle. *)
From Coq Require Import Reals Lra Lia List Bool ZArith Psatz Floats.SpecFloat.
From Verif Require Import Prelude Vec BoxModel McRealModel PropsUtil PropsForm BihModel.
Import ListNotations.
Local Open Scope R_scope.

(** The quadratic form minimised over the triangle 0 <= s, 0 <= t, s + t <= 1, its two partial
    derivatives (halved) and the optimality condition at the three corners. *)
Definition qf (a00 a01 a11 b0 b1 s t : R) : R := a00 * s * s + 2 * a01 * s * t + a11 * t * t + 2 * b0 * s + 2 * b1 * t.
Definition lin (a b c s t : R) : R := a * s + b * t + c.
Definition simplex (s t : R) : Prop := 0 <= s /\ 0 <= t /\ s + t <= 1.
Definition psd (a00 a01 a11 : R) : Prop := 0 <= a00 /\ 0 <= a11 /\ a01 * a01 <= a00 * a11.
Definition kkt (a00 a01 a11 b0 b1 : R) (p : R * R) : Prop :=
  let s := fst p in let t := snd p in let F := lin a00 a01 b0 s t in let G := lin a01 a11 b1 s t in
  simplex s t /\ 0 <= - F * s - G * t /\ 0 <= F * (1 - s) - G * t /\ 0 <= - F * s + G * (1 - t).
Lemma psd_form a00 a01 a11 u v : psd a00 a01 a11 -> 0 <= a00 * u * u + 2 * a01 * u * v + a11 * v * v.
Proof.
  intros (A & B & C). destruct (Req_dec a00 0) as [Z|Z].
  - assert (a01 = 0) by nra. subst. nra.
  - assert (0 < a00) by lra. apply (Rmult_le_reg_l a00); [assumption|]. rewrite Rmult_0_r.
    replace (a00 * (a00 * u * u + 2 * a01 * u * v + a11 * v * v)) with ((a00 * u + a01 * v) * (a00 * u + a01 * v) + (a00 * a11 - a01 * a01) * (v * v)) by ring.
    apply Rplus_le_le_0_compat; [apply Rle_0_sqr|]. apply Rmult_le_pos; [lra|apply Rle_0_sqr].
Qed.
Lemma kkt_min a00 a01 a11 b0 b1 p s t : psd a00 a01 a11 -> kkt a00 a01 a11 b0 b1 p -> simplex s t -> qf a00 a01 a11 b0 b1 (fst p) (snd p) <= qf a00 a01 a11 b0 b1 s t.
Proof.
  destruct p as [u v]. intros P. unfold kkt. cbn [fst snd]. set (F := lin a00 a01 b0 u v). set (G := lin a01 a11 b1 u v). intros (I & K0 & K1 & K2) (S & T & ST).
  pose proof (psd_form a00 a01 a11 (s - u) (t - v) P) as Q.
  replace (qf a00 a01 a11 b0 b1 s t) with (qf a00 a01 a11 b0 b1 u v + 2 * (F * (s - u) + G * (t - v)) + (a00 * (s - u) * (s - u) + 2 * a01 * (s - u) * (t - v) + a11 * (t - v) * (t - v))) by (unfold qf, F, G, lin; ring).
  assert (0 <= F * (s - u) + G * (t - v)); [|lra].
  replace (F * (s - u) + G * (t - v)) with ((1 - s - t) * (- F * u - G * v) + s * (F * (1 - u) - G * v) + t * (- F * u + G * (1 - v))) by ring. clearbody F G. clear Q P.
  assert (0 <= (1 - s - t) * (- F * u - G * v)) by (apply Rmult_le_pos; lra). assert (0 <= s * (F * (1 - u) - G * v)) by (apply Rmult_le_pos; lra). assert (0 <= t * (- F * u + G * (1 - v))) by (apply Rmult_le_pos; lra). lra.
Qed.
(** The two edges. *)
Lemma edge02_cases a11 b1 : 0 <= a11 -> exists t, min_edge02 a11 b1 = (0, t) /\ 0 <= t <= 1 /\ (t = 0 /\ 0 <= b1 \/ t = 1 /\ a11 + b1 <= 0 \/ 0 < a11 /\ a11 * t + b1 = 0).
Proof.
  intros A. unfold min_edge02. bcases; eexists; (split; [reflexivity|]).
  - lra.
  - lra.
  - assert (P : 0 < a11) by lra. assert (E : a11 * (- b1 / a11) + b1 = 0) by (field; lra). set (t := - b1 / a11) in *. clearbody t. split; [split; nra|]. right. right. split; assumption.
Qed.
Lemma kkt_edge02 a00 a01 a11 b0 b1 : 0 <= a11 -> (forall t, min_edge02 a11 b1 = (0, t) -> 0 <= t <= 1 -> (t = 0 /\ 0 <= b1 \/ t = 1 /\ a11 + b1 <= 0 \/ 0 < a11 /\ a11 * t + b1 = 0) -> 0 <= b0 + a01 * t) -> kkt a00 a01 a11 b0 b1 (min_edge02 a11 b1).
Proof.
  intros A H. destruct (edge02_cases a11 b1 A) as (t & E & T & C). specialize (H t E T C). rewrite E. unfold kkt, lin, simplex. cbn [fst snd].
  destruct C as [(-> & B)|[(-> & B)|(P & B)]]; [repeat split; lra|repeat split; lra|]. replace (a01 * 0 + a11 * t + b1) with 0 by lra. repeat split; lra.
Qed.
Lemma edge12_cases a01 a11 b1 f10 f01 : exists t, min_edge12 a01 a11 b1 f10 f01 = (1 - t, t) /\ 0 <= t <= 1 /\
  let h0 := a01 + b1 - f10 in let h1 := a11 + b1 - f01 in (t = 0 /\ 0 <= h0 \/ t = 1 /\ h0 < 0 /\ h1 <= 0 \/ h0 < 0 < h1 /\ h0 + (h1 - h0) * t = 0).
Proof.
  unfold min_edge12. cbv zeta. set (h0 := a01 + b1 - f10). set (h1 := a11 + b1 - f01). bcases; eexists; (split; [reflexivity|]).
  - lra.
  - lra.
  - assert (E : h0 + (h1 - h0) * (h0 / (h0 - h1)) = 0) by (field; lra). set (t := h0 / (h0 - h1)) in *. clearbody t. split; [split; nra|]. right. right. split; [lra|exact E].
Qed.
Lemma kkt_edge12 a00 a01 a11 b0 b1 : (forall t, 0 <= t <= 1 -> let h0 := a01 + b1 - (b0 + a00) in let h1 := a11 + b1 - (b0 + a01) in
    (t = 0 /\ 0 <= h0 \/ t = 1 /\ h0 < 0 /\ h1 <= 0 \/ h0 < 0 < h1 /\ h0 + (h1 - h0) * t = 0) -> lin a00 a01 b0 (1 - t) t <= 0) -> kkt a00 a01 a11 b0 b1 (min_edge12 a01 a11 b1 (b0 + a00) (b0 + a01)).
Proof.
  intros H. destruct (edge12_cases a01 a11 b1 (b0 + a00) (b0 + a01)) as (t & E & T & C). specialize (H t T C). cbv zeta in C. rewrite E. unfold kkt, simplex. cbn [fst snd]. unfold lin in *.
  destruct C as [(-> & B)|[(-> & B0 & B)|(P & B)]].
  - repeat split; lra.
  - repeat split; lra.
  - assert (Q : a01 * (1 - t) + a11 * t + b1 = a00 * (1 - t) + a01 * t + b0) by nra. rewrite Q. set (F := a00 * (1 - t) + a01 * t + b0) in *. clearbody F. repeat split; nra.
Qed.
Lemma kkt_zero a00 a01 a11 b0 b1 s t : simplex s t -> lin a00 a01 b0 s t = 0 -> lin a01 a11 b1 s t = 0 -> kkt a00 a01 a11 b0 b1 (s, t).
Proof. intros S F G. unfold kkt. cbn [fst snd]. rewrite F, G. split; [exact S|]. lra. Qed.
Lemma kkt_interior a00 a01 a11 b0 b1 s0 t0 s1 t1 d h0 h1 : simplex s0 t0 -> simplex s1 t1 -> lin a00 a01 b0 s0 t0 = 0 -> lin a00 a01 b0 s1 t1 = 0 ->
  h0 = d * lin a01 a11 b1 s0 t0 -> h1 = d * lin a01 a11 b1 s1 t1 -> h0 < 0 -> 0 < h1 -> kkt a00 a01 a11 b0 b1 (min_interior (s0, t0) h0 (s1, t1) h1).
Proof.
  intros (A0 & B0 & C0) (A1 & B1 & C1) F0 F1 E0 E1 N P. unfold min_interior. cbv zeta. cbn [fst snd].
  assert (Z : (1 - h0 / (h0 - h1)) * h0 + h0 / (h0 - h1) * h1 = 0) by (field; lra).
  assert (ZR : 0 <= h0 / (h0 - h1) <= 1). { assert (E : h0 / (h0 - h1) * (h0 - h1) = h0) by (field; lra). set (z := h0 / (h0 - h1)) in *. clearbody z. split; nra. }
  set (z := h0 / (h0 - h1)) in *. clearbody z. apply kkt_zero.
  - unfold simplex. repeat split; nra.
  - unfold lin in *. replace (a00 * ((1 - z) * s0 + z * s1) + a01 * ((1 - z) * t0 + z * t1) + b0) with ((1 - z) * (a00 * s0 + a01 * t0 + b0) + z * (a00 * s1 + a01 * t1 + b0)) by ring. rewrite F0, F1. ring.
  - assert (D : d <> 0) by (intros ->; lra). apply (Rmult_eq_reg_l d); [|exact D]. rewrite Rmult_0_r. rewrite <- Z, E0, E1. unfold lin. ring.
Qed.
Lemma kkt_edge01 a00 a01 a11 b0 b1 s : 0 <= s <= 1 -> lin a00 a01 b0 s 0 = 0 -> 0 <= lin a01 a11 b1 s 0 -> kkt a00 a01 a11 b0 b1 (s, 0).
Proof. intros S F G. unfold kkt, simplex. cbn [fst snd]. rewrite F. repeat split; lra. Qed.
(** The divisors of every reachable quotient. *)
Lemma tri_divisors a00 a01 b0 : 0 <= a00 -> let f00 := b0 in let f10 := b0 + a00 in let f01 := b0 + a01 in
  (0 <= f00 -> f01 <= 0 -> f00 - f01 <> 0 \/ f00 = 0 /\ f01 = 0) /\ (0 <= f00 -> f01 <= 0 -> f00 - f01 <> 0 -> f01 - f10 <> 0) /\
  (f00 < 0 -> f01 <= 0 -> 0 < f10 -> f00 - f10 <> 0 /\ f01 - f10 <> 0) /\ (f00 < 0 -> 0 < f01 -> f10 <= 0 -> f00 - f01 <> 0 /\ f01 - f10 <> 0) /\
  (f00 < 0 -> 0 < f01 -> 0 < f10 -> f00 - f10 <> 0 /\ f00 - f01 <> 0).
Proof. intros A. cbv zeta. repeat split; intros; try lra. Qed.
Lemma quot_range x y : x <= 0 -> 0 <= y -> x - y <> 0 -> 0 <= x / (x - y) <= 1 /\ x / (x - y) * (x - y) = x.
Proof. intros X Y D. assert (E : x / (x - y) * (x - y) = x) by (field; exact D). split; [|exact E]. set (q := x / (x - y)) in *. clearbody q. split; nra. Qed.
Lemma quot_range' x y : 0 <= x -> y <= 0 -> x - y <> 0 -> 0 <= x / (x - y) <= 1 /\ x / (x - y) * (x - y) = x.
Proof. intros X Y D. assert (E : x / (x - y) * (x - y) = x) by (field; exact D). split; [|exact E]. set (q := x / (x - y)) in *. clearbody q. split; nra. Qed.
Lemma psd_pos a00 a01 a11 : psd a00 a01 a11 -> a01 <> 0 -> 0 < a00 /\ 0 < a11.
Proof. intros (A & B & C) N. assert (0 < a01 * a01) by nra. split; nra. Qed.
Lemma psd_slope a00 a01 a11 : psd a00 a01 a11 -> a00 <> a01 -> 0 < a00 - 2 * a01 + a11.
Proof.
  intros P N. pose proof (psd_form a00 a01 a11 1 (-1) P) as Q. destruct P as (A & B & C). destruct (Req_dec (a00 - 2 * a01 + a11) 0) as [Z|Z]; [|lra].
  exfalso. apply N. assert ((a00 - a11) * (a00 - a11) <= 0) by nra. assert (a00 - a11 = 0) by nra. lra.
Qed.
Theorem tri_kkt a00 a01 a11 b0 b1 : psd a00 a01 a11 ->
  (b0 = 0 /\ a01 = 0 /\ tri_param a00 a01 a11 b0 b1 = None) \/ ((b0 <> 0 \/ a01 <> 0) /\ exists p, tri_param a00 a01 a11 b0 b1 = Some p /\ kkt a00 a01 a11 b0 b1 p).
Proof.
  intros P. pose proof P as (PA & PB & PC). unfold tri_param. cbv zeta. cbn [fst snd]. set (f10 := b0 + a00). set (f01 := b0 + a01).
  destruct (Rleb_spec 0 b0) as [H0|H0].
  - destruct (Rltb_spec 0 f01) as [H1|H1].
    { right. split; [destruct (Req_dec b0 0); [right; unfold f01 in H1; lra|left; assumption]|]. eexists. split; [reflexivity|]. apply kkt_edge02; [exact PB|]. intros t _ T _. unfold f01 in H1. nra. }
    destruct (Reqb_spec (b0 - f01) 0) as [D|D]; [left; unfold f01 in *; repeat split; lra|]. right. split; [unfold f01 in D, H1; right; lra|].
    assert (A01 : a01 < 0) by (unfold f01 in *; lra). destruct (psd_pos _ _ _ P ltac:(lra)) as (A00 & A11).
    destruct (quot_range' b0 f01 H0 H1 D) as (Q0 & E0). assert (D' : f01 - f10 <> 0) by (unfold f01, f10 in *; lra). destruct (quot_range f01 f10 H1 ltac:(unfold f10; lra) D') as (S1 & E1).
    set (q := b0 / (b0 - f01)) in *. set (s1 := f01 / (f01 - f10)) in *. clearbody q s1.
    assert (F0 : lin a00 a01 b0 0 q = 0) by (unfold lin, f01 in *; nra). assert (F1 : lin a00 a01 b0 s1 (1 - s1) = 0) by (unfold lin, f01, f10 in *; nra).
    assert (DT : a00 * s1 + a01 * (1 - s1 - q) = 0) by (unfold lin in *; lra). assert (DTP : 0 <= 1 - s1 - q) by nra.
    destruct (Rleb_spec 0 ((1 - s1 - q) * (a11 * q + b1))) as [K0|K0].
    + eexists. split; [reflexivity|]. apply kkt_edge02; [exact PB|]. intros t _ T C.
      assert (TQ : t <= q). { destruct (Req_dec (1 - s1 - q) 0) as [Z|Z]; [assert (s1 = 0) by nra; lra|]. assert (G0 : 0 <= a11 * q + b1) by nra. destruct C as [(-> & _)|[(-> & C)|(_ & C)]]; nra. }
      unfold lin in F0. nra.
    + assert (DT' : 0 < 1 - s1 - q) by (destruct (Req_dec (1 - s1 - q) 0) as [Z|Z]; [rewrite Z in K0; lra|lra]). destruct (Rleb_spec ((1 - s1 - q) * (a01 * s1 + a11 * (1 - s1) + b1)) 0) as [K1|K1].
      * eexists. split; [reflexivity|]. apply kkt_edge12. intros t T. cbv zeta. intros C. assert (G1 : lin a01 a11 b1 s1 (1 - s1) <= 0) by (unfold lin; nra).
        pose proof (psd_slope a00 a01 a11 P ltac:(lra)) as SL. assert (TGE : 1 - s1 <= t) by (unfold lin in *; destruct C as [(-> & C)|[(-> & _ & C)|(_ & C)]]; nra). unfold lin in *. unfold f10, f01 in *. nra.
      * eexists. split; [reflexivity|]. apply (kkt_interior _ _ _ _ _ _ _ _ _ (1 - s1 - q)); try assumption; try (unfold simplex; lra); unfold lin; ring.
  - right. split; [left; lra|]. destruct (Rleb_spec f01 0) as [H1|H1]; destruct (Rleb_spec f10 0) as [H2|H2].
    + eexists. split; [reflexivity|]. apply kkt_edge12. intros t T. cbv zeta. intros _. unfold lin, f10, f01 in *. nra.
    + destruct (quot_range b0 f10 ltac:(lra) ltac:(lra) ltac:(lra)) as (S0 & E0). destruct (quot_range f01 f10 H1 ltac:(lra) ltac:(lra)) as (S1 & E1).
      assert (N1 : f01 / (f01 - f10) < 1). { set (s1 := f01 / (f01 - f10)) in *. clearbody s1. nra. }
      set (s0 := b0 / (b0 - f10)) in *. set (s1 := f01 / (f01 - f10)) in *. clearbody s0 s1.
      assert (F0 : lin a00 a01 b0 s0 0 = 0) by (unfold lin, f10 in *; nra). assert (F1 : lin a00 a01 b0 s1 (1 - s1) = 0) by (unfold lin, f01, f10 in *; nra).
      destruct (Rleb_spec 0 ((1 - s1) * (a01 * s0 + b1))) as [K0|K0].
      * eexists. split; [reflexivity|]. apply kkt_edge01; [lra|exact F0|]. unfold lin. nra.
      * destruct (Rleb_spec ((1 - s1) * (a01 * s1 + a11 * (1 - s1) + b1)) 0) as [K1|K1].
        -- eexists. split; [reflexivity|]. apply kkt_edge12. intros t T. cbv zeta. intros C. assert (G1 : lin a01 a11 b1 s1 (1 - s1) <= 0) by (unfold lin; nra).
           pose proof (psd_slope a00 a01 a11 P ltac:(unfold f01, f10 in *; lra)) as SL. assert (TGE : 1 - s1 <= t) by (unfold lin in *; destruct C as [(-> & C)|[(-> & _ & C)|(_ & C)]]; nra). unfold lin in *. unfold f10, f01 in *. nra.
        -- eexists. split; [reflexivity|]. apply (kkt_interior _ _ _ _ _ _ _ _ _ (1 - s1)); try assumption; try (unfold simplex; lra); unfold lin; ring.
    + assert (A01 : 0 < a01) by (unfold f01 in *; lra). destruct (psd_pos _ _ _ P ltac:(lra)) as (A00 & A11).
      destruct (quot_range b0 f01 ltac:(lra) ltac:(lra) ltac:(lra)) as (Q0 & E0). destruct (quot_range' f01 f10 ltac:(lra) H2 ltac:(lra)) as (S1 & E1).
      assert (Q0' : 0 < b0 / (b0 - f01)). { set (q := b0 / (b0 - f01)) in *. clearbody q. nra. } assert (S1' : 0 < f01 / (f01 - f10)). { set (s1 := f01 / (f01 - f10)) in *. clearbody s1. nra. }
      set (q := b0 / (b0 - f01)) in *. set (s1 := f01 / (f01 - f10)) in *. clearbody q s1.
      assert (F0 : lin a00 a01 b0 0 q = 0) by (unfold lin, f01 in *; nra). assert (F1 : lin a00 a01 b0 s1 (1 - s1) = 0) by (unfold lin, f01, f10 in *; nra).
      assert (DT : a00 * s1 + a01 * (1 - s1 - q) = 0) by (unfold lin in *; lra). assert (DTP : 1 - s1 - q < 0) by nra.
      destruct (Rleb_spec 0 ((1 - s1 - q) * (a11 * q + b1))) as [K0|K0].
      * eexists. split; [reflexivity|]. apply kkt_edge02; [exact PB|]. intros t _ T C. assert (G0 : a11 * q + b1 <= 0) by nra. assert (TQ : q <= t) by (destruct C as [(-> & C)|[(-> & C)|(_ & C)]]; nra). unfold lin in F0. nra.
      * destruct (Rleb_spec ((1 - s1 - q) * (a01 * s1 + a11 * (1 - s1) + b1)) 0) as [K1|K1].
        -- eexists. split; [reflexivity|]. apply kkt_edge12. intros t T. cbv zeta. intros C. assert (G1 : 0 <= lin a01 a11 b1 s1 (1 - s1)) by (unfold lin; nra).
           pose proof (psd_slope a00 a01 a11 P ltac:(unfold f01, f10 in *; lra)) as SL. assert (TGE : t <= 1 - s1) by (unfold lin in *; destruct C as [(-> & C)|[(-> & _ & C)|(_ & C)]]; nra). unfold lin in *. unfold f10, f01 in *. nra.
        -- eexists. split; [reflexivity|]. apply (kkt_interior _ _ _ _ _ _ _ _ _ (1 - s1 - q)); try assumption; try (unfold simplex; lra); unfold lin; ring.
    + assert (A01 : 0 < a01) by (unfold f01 in *; lra). destruct (psd_pos _ _ _ P ltac:(lra)) as (A00 & A11).
      destruct (quot_range b0 f10 ltac:(lra) ltac:(lra) ltac:(lra)) as (S0 & E0). destruct (quot_range b0 f01 ltac:(lra) ltac:(lra) ltac:(lra)) as (Q0 & E1).
      assert (Q0' : 0 < b0 / (b0 - f01)). { set (q := b0 / (b0 - f01)) in *. clearbody q. nra. }
      set (q := b0 / (b0 - f01)) in *. set (s0 := b0 / (b0 - f10)) in *. clearbody q s0.
      assert (F0 : lin a00 a01 b0 s0 0 = 0) by (unfold lin, f10 in *; nra). assert (F1 : lin a00 a01 b0 0 q = 0) by (unfold lin, f01 in *; nra).
      destruct (Rleb_spec 0 (q * (a01 * s0 + b1))) as [K0|K0].
      * eexists. split; [reflexivity|]. apply kkt_edge01; [lra|exact F0|]. unfold lin. nra.
      * destruct (Rleb_spec (q * (a11 * q + b1)) 0) as [K1|K1].
        -- eexists. split; [reflexivity|]. apply kkt_edge02; [exact PB|]. intros t _ T C. assert (G0 : a11 * q + b1 <= 0) by nra. assert (TQ : q <= t) by (destruct C as [(-> & C)|[(-> & C)|(_ & C)]]; nra). unfold lin in F1. nra.
        -- eexists. split; [reflexivity|]. apply (kkt_interior _ _ _ _ _ _ _ _ _ q); try assumption; try (unfold simplex; lra); unfold lin; ring.
Qed.
(** The closed triangle with the given corners. *)
Definition in_tri (a b c w : v3) : Prop :=
  exists s t, 0 <= s /\ 0 <= t /\ s + t <= 1 /\ w = add3 a (add3 (scale3 s (sub3 b a)) (scale3 t (sub3 c a))).
Lemma cauchy3 u v : dot3 u v * dot3 u v <= dot3 u u * dot3 v v.
Proof.
  unfold dot3. assert (H : forall a b c d e f : R, 0 <= (a * e - b * d) * (a * e - b * d) + (a * f - c * d) * (a * f - c * d) + (b * f - c * e) * (b * f - c * e)) by (intros; repeat apply Rplus_le_le_0_compat; apply Rle_0_sqr).
  specialize (H (x3 u) (y3 u) (z3 u) (x3 v) (y3 v) (z3 v)). lra.
Qed.
Lemma tri_psd u v : psd (dot3 u u) (dot3 u v) (dot3 v v).
Proof. split; [unfold dot3; nra|]. split; [unfold dot3; nra|apply cauchy3]. Qed.
Lemma tri_qf target a u v s t : norm3sq (sub3 target (add3 a (add3 (scale3 s u) (scale3 t v)))) =
  norm3sq (sub3 target a) + qf (dot3 u u) (dot3 u v) (dot3 v v) (- dot3 (sub3 target a) u) (- dot3 (sub3 target a) v) s t.
Proof. unfold norm3sq, qf, dot3. cbn [x3 y3 z3 sub3 add3 scale3]. ring. Qed.
(** minDistTri returns the vector from a closest point, for all triangles (degenerate ones too),
    unless the two edges at the first corner are orthogonal and the target lies in the plane through
    the first corner orthogonal to the first edge; then it returns NaN. *)
Definition blind (target a b c : v3) : Prop := dot3 (sub3 b a) (sub3 c a) = 0 /\ dot3 (sub3 target a) (sub3 b a) = 0.
Theorem C69_closest_partial target a b c :
  (blind target a b c /\ min_dist_tri target a b c = None) \/
  (~ blind target a b c /\ exists v w, min_dist_tri target a b c = Some v /\ in_tri a b c w /\ v = sub3 target w /\
    forall w', in_tri a b c w' -> norm3 v <= dist3 target w').
Proof.
  unfold min_dist_tri, blind. cbv zeta. set (u := sub3 b a). set (v := sub3 c a). set (d := sub3 target a). pose proof (tri_psd u v) as P.
  destruct (tri_kkt _ _ _ (- dot3 d u) (- dot3 d v) P) as [(B & A & ->)|(N & p & -> & K)]; [left; split; [lra|reflexivity]|]. right. split; [intros (Q & Q'); destruct N; lra|].
  do 2 eexists. split; [reflexivity|]. split; [exists (fst p), (snd p); pose proof K as ((K1 & K2 & K3) & _); repeat split; assumption|]. split; [reflexivity|].
  intros w' (s & t & S & T & ST & ->). unfold dist3, norm3. apply sqrt_le_1_alt. fold u v. rewrite !tri_qf. fold d. apply Rplus_le_compat_l. apply kkt_min; [exact P|exact K|]. unfold simplex. lra.
Qed.
(** So every point above a right-angled first corner is affected. *)
Theorem C69_right_angle_refuted a b c target : dot3 (sub3 b a) (sub3 c a) = 0 -> dot3 (sub3 target a) (sub3 b a) = 0 -> min_dist_tri target a b c = None.
Proof. intros A B. destruct (C69_closest_partial target a b c) as [(_ & E)|(N & _)]; [exact E|]. exfalso. apply N. split; assumption. Qed.
(** In binary64: both components of the closest point are NaN whenever b0 and a01 are zeros, whatever
    the other numbers (in particular for the triangle (0,0,0) (1,0,0) (0,1,0) and the target (0,0,1)). *)
Theorem C69_nan_refuted a00 a11 b1 s s' : ftri_param_first a00 (S754_zero s) a11 (S754_zero s') b1 = (S754_nan, S754_nan).
Proof.
  unfold ftri_param_first. cbv zeta. cbn [fst snd].
  assert (Z : exists z, fadd (S754_zero s') (S754_zero s) = S754_zero z) by (destruct s, s'; eexists; reflexivity). destruct Z as (z & ->).
  assert (Y : exists y, fsub (S754_zero s') (S754_zero z) = S754_zero y) by (destruct s', z; eexists; reflexivity). destruct Y as (y & ->).
  change (SFltb f0 (S754_zero z)) with false. cbv iota. change (fdiv (S754_zero s') (S754_zero y)) with S754_nan.
  assert (N : forall x, fsub x S754_nan = S754_nan) by (intros []; reflexivity). rewrite N. assert (M : forall x, fmul S754_nan x = S754_nan) by reflexivity. rewrite !M.
  change (SFleb f0 S754_nan) with false. change (SFleb S754_nan f0) with false. cbv iota. reflexivity.
Qed.
Example C69_example : exists v, min_dist_tri (V3 (1/4) (1/4) 2) (V3 0 0 0) (V3 1 0 0) (V3 0 1 0) = Some v /\ norm3 v = 2.
Proof.
  destruct (C69_closest_partial (V3 (1/4) (1/4) 2) (V3 0 0 0) (V3 1 0 0) (V3 0 1 0)) as [((_ & B) & _)|(_ & v & w & E & (s & t & S & T & ST & W) & V & M)].
  - exfalso. cbn in B. unfold dot3 in B. cbn in B. lra.
  - exists v. split; [exact E|]. apply Rle_antisym.
    + eapply Rle_trans; [apply (M (V3 (1/4) (1/4) 0)); exists (1/4), (1/4); cbn; repeat split; try lra; unfold add3, scale3, sub3; cbn; f_equal; lra|].
      unfold dist3, norm3, norm3sq, dot3. cbn. replace (_ + _ + _) with (2 * 2) by lra. rewrite sqrt_square; lra.
    + subst v w. unfold norm3, norm3sq, dot3. cbn. rewrite <- (sqrt_square 2) at 1 by lra. apply sqrt_le_1_alt.
      match goal with |- _ <= ?a * ?a + ?b * ?b + ?c * ?c => replace c with 2 by lra; pose proof (Rle_0_sqr a); pose proof (Rle_0_sqr b); unfold Rsqr in *; lra end.
Qed.
