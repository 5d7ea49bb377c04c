(** Binary32 expressions as approximations of real ones, with explicit errors. *)
From Coq Require Import ZArith Reals Lra Lia Bool.
From Flocq Require Import Core IEEE754.BinarySingleNaN IEEE754.Binary IEEE754.Bits.
From Verif Require Import Base Arith Ffmath_Model Ffmath_Spec Float32 Ffmath_Proofs4.
Open Scope R_scope.

(** x is finite and within e of v *)
Definition app (x : float) (v e : R) : Prop := finite x /\ Rabs (valR x - v) <= e.
Definition tiny : R := / 1000000000000000000000000000000000000000000.
Lemma tiny_ok : 0 < bpow radix2 (-150) <= tiny.
Proof.
  split; [apply bp|]. unfold tiny. apply Rle_trans with (bpow radix2 (-140)); [apply bpow_le; lia|].
  change (bpow radix2 (-140)) with (/ IZR (2 ^ 140)). apply Rinv_le; [lra|]. apply IZR_le. vm_compute. discriminate.
Qed.
Definition huge : R := 100000000000000000000000000000000000000.
Lemma huge_ok : huge <= big.
Proof. unfold huge. change big with (IZR (2 ^ 127)). apply IZR_le. vm_compute. discriminate. Qed.

Lemma app_self x : finite x -> app x (valR x) 0.
Proof. intros F. split; auto. rewrite Rminus_diag_eq, Rabs_R0 by auto. lra. Qed.
Lemma app_const x v : finite x -> valR x = v -> app x v 0.
Proof. intros F <-. apply app_self. auto. Qed.
Lemma app_le x v e e' : app x v e -> e <= e' -> app x v e'.
Proof. intros (F & H) L. split; auto. lra. Qed.
Lemma app_shift x v w e d : app x v e -> Rabs (v - w) <= d -> app x w (e + d).
Proof. intros (F & H) L. split; auto. replace (valR x - w) with ((valR x - v) + (v - w)) by ring. eapply Rle_trans; [apply Rabs_triang|]. lra. Qed.
Lemma app_abs x v e V : app x v e -> Rabs v <= V -> Rabs (valR x) <= V + e.
Proof. intros (F & H) L. replace (valR x) with (v + (valR x - v)) by ring. eapply Rle_trans; [apply Rabs_triang|]. lra. Qed.

Lemma app_mul x v e V y w d W E : app x v e -> Rabs v <= V -> app y w d -> Rabs w <= W ->
  (V + e) * (W + d) <= huge -> e * W + V * d + e * d + u32 * ((V + e) * (W + d)) + tiny <= E -> app (x * y)%b32 (v * w) E.
Proof.
  intros Ax HV Ay HW B HE. pose proof (app_abs _ _ _ _ Ax HV) as Bx. pose proof (app_abs _ _ _ _ Ay HW) as By. destruct Ax as (Fx & Ex). destruct Ay as (Fy & Ey).
  pose proof (Rabs_pos (valR x)). pose proof (Rabs_pos (valR y)). pose proof (Rabs_pos v). pose proof (Rabs_pos w). pose proof (Rabs_pos (valR x - v)). pose proof (Rabs_pos (valR y - w)). pose proof huge_ok. pose proof tiny_ok.
  assert (P : Rabs (valR x * valR y) <= (V + e) * (W + d)). { rewrite Rabs_mult. apply Rmult_le_compat; auto. }
  destruct (mult_R x y Fx Fy) as (F & V1); [lra|]. split; [exact F|]. rewrite V1. pose proof (rnd_err (valR x * valR y)) as R.
  replace (rnd (valR x * valR y) - v * w) with ((rnd (valR x * valR y) - valR x * valR y) + ((valR x - v) * w + (v * (valR y - w) + (valR x - v) * (valR y - w)))) by ring.
  eapply Rle_trans; [apply Rabs_triang|]. eapply Rle_trans; [apply Rplus_le_compat_l, Rabs_triang|]. eapply Rle_trans; [apply Rplus_le_compat_l, Rplus_le_compat_l, Rabs_triang|].
  rewrite (Rabs_mult (valR x - v) w), (Rabs_mult v), (Rabs_mult (valR x - v) (valR y - w)).
  assert (Rabs (valR x - v) * Rabs w <= e * W) by (apply Rmult_le_compat; auto). assert (Rabs v * Rabs (valR y - w) <= V * d) by (apply Rmult_le_compat; auto).
  assert (Rabs (valR x - v) * Rabs (valR y - w) <= e * d) by (apply Rmult_le_compat; auto).
  assert (u32 * Rabs (valR x * valR y) <= u32 * ((V + e) * (W + d))) by (apply Rmult_le_compat_l; [apply bpow_ge_0|auto]). lra.
Qed.
Lemma app_add x v e y w d S E : app x v e -> app y w d -> Rabs (v + w) <= S -> S + e + d <= huge -> e + d + u32 * (S + e + d) + tiny <= E -> app (x + y)%b32 (v + w) E.
Proof.
  intros (Fx & Ex) (Fy & Ey) HS B HE. pose proof huge_ok. pose proof tiny_ok.
  assert (P : Rabs (valR x + valR y) <= S + e + d).
  { replace (valR x + valR y) with ((v + w) + ((valR x - v) + (valR y - w))) by ring. eapply Rle_trans; [apply Rabs_triang|]. eapply Rle_trans; [apply Rplus_le_compat_l, Rabs_triang|]. lra. }
  destruct (plus_R x y Fx Fy) as (F & V1); [lra|]. split; [exact F|]. rewrite V1. pose proof (rnd_err (valR x + valR y)) as R.
  replace (rnd (valR x + valR y) - (v + w)) with ((rnd (valR x + valR y) - (valR x + valR y)) + ((valR x - v) + (valR y - w))) by ring.
  eapply Rle_trans; [apply Rabs_triang|]. eapply Rle_trans; [apply Rplus_le_compat_l, Rabs_triang|].
  assert (u32 * Rabs (valR x + valR y) <= u32 * (S + e + d)) by (apply Rmult_le_compat_l; [apply bpow_ge_0|auto]). lra.
Qed.
Lemma app_sub x v e y w d S E : app x v e -> app y w d -> Rabs (v - w) <= S -> S + e + d <= huge -> e + d + u32 * (S + e + d) + tiny <= E -> app (x - y)%b32 (v - w) E.
Proof.
  intros (Fx & Ex) (Fy & Ey) HS B HE. pose proof huge_ok. pose proof tiny_ok.
  assert (P : Rabs (valR x - valR y) <= S + e + d).
  { replace (valR x - valR y) with ((v - w) + ((valR x - v) - (valR y - w))) by ring. eapply Rle_trans; [apply Rabs_triang|]. eapply Rle_trans; [apply Rplus_le_compat_l, Rabs_triang|]. rewrite Rabs_Ropp. lra. }
  destruct (minus_R x y Fx Fy) as (F & V1); [lra|]. split; [exact F|]. rewrite V1. pose proof (rnd_err (valR x - valR y)) as R.
  replace (rnd (valR x - valR y) - (v - w)) with ((rnd (valR x - valR y) - (valR x - valR y)) + ((valR x - v) - (valR y - w))) by ring.
  eapply Rle_trans; [apply Rabs_triang|]. eapply Rle_trans; [apply Rplus_le_compat_l, Rabs_triang|]. rewrite Rabs_Ropp.
  assert (u32 * Rabs (valR x - valR y) <= u32 * (S + e + d)) by (apply Rmult_le_compat_l; [apply bpow_ge_0|auto]). lra.
Qed.

(** One step of Horner's scheme: x*f + c and x*f - c *)
Lemma horner x v V e f F H c C V' e' : app x v e -> Rabs v <= V -> finite f -> valR f = F -> Rabs F <= H -> finite c -> valR c = C ->
  (V + e) * H <= huge -> H * V + Rabs C <= V' -> V' + e' <= huge -> e * H + u32 * ((V + e) * H) + tiny <= e' -> 
  e * H + u32 * ((V + e) * H) + 2 * tiny + u32 * (V' + e') <= e' ->
  app (x * f + c)%b32 (v * F + C) e' /\ Rabs (v * F + C) <= V'.
Proof.
  intros Ax HV Ff Vf HF Fc Vc B1 HV' B2 E1 E2.
  assert (K : Rabs (v * F + C) <= V'). { eapply Rle_trans; [apply Rabs_triang|]. rewrite Rabs_mult. pose proof (Rabs_pos v). pose proof (Rabs_pos F). assert (Rabs v * Rabs F <= V * H) by (apply Rmult_le_compat; auto). lra. }
  split; [|exact K]. set (E := e * H + u32 * ((V + e) * H) + tiny) in *.
  assert (M : app (x * f)%b32 (v * F) E). { apply app_mul with e V 0 H; auto; [apply app_const; auto| |]; rewrite Rplus_0_r; [exact B1|]. unfold E. lra. }
  assert (0 <= u32) by apply bpow_ge_0. pose proof tiny_ok.
  apply app_add with E 0 V'; auto; [apply app_const; auto|lra|]. assert (u32 * (V' + E + 0) <= u32 * (V' + e')) by (apply Rmult_le_compat_l; lra). unfold E in *. lra.
Qed.
Lemma opp_val c : valR (- c)%b32 = - valR c. Proof. destruct c as [[]|[]|[]|[]]; cbn; try lra; rewrite <- F2R_Zopp; reflexivity. Qed.
Lemma opp_fin c : finite c -> finite (- c)%b32. Proof. destruct c; cbn; auto. Qed.
Lemma horner_m x v V e f F H c C V' e' : app x v e -> Rabs v <= V -> finite f -> valR f = F -> Rabs F <= H -> finite c -> valR c = C ->
  (V + e) * H <= huge -> H * V + Rabs C <= V' -> V' + e' <= huge -> e * H + u32 * ((V + e) * H) + tiny <= e' -> 
  e * H + u32 * ((V + e) * H) + 2 * tiny + u32 * (V' + e') <= e' ->
  app (x * f - c)%b32 (v * F - C) e' /\ Rabs (v * F - C) <= V'.
Proof.
  intros Ax HV Ff Vf HF Fc Vc B1 HV' B2 E1 E2.
  assert (K : Rabs (v * F - C) <= V'). { eapply Rle_trans; [apply Rabs_triang|]. rewrite Rabs_Ropp, Rabs_mult. pose proof (Rabs_pos v). pose proof (Rabs_pos F). assert (Rabs v * Rabs F <= V * H) by (apply Rmult_le_compat; auto). lra. }
  split; [|exact K]. set (E := e * H + u32 * ((V + e) * H) + tiny) in *.
  assert (M : app (x * f)%b32 (v * F) E). { apply app_mul with e V 0 H; auto; [apply app_const; auto| |]; rewrite Rplus_0_r; [exact B1|]. unfold E. lra. }
  assert (0 <= u32) by apply bpow_ge_0. pose proof tiny_ok.
  apply app_sub with E 0 V'; auto; [apply app_const; auto|lra|]. assert (u32 * (V' + E + 0) <= u32 * (V' + e')) by (apply Rmult_le_compat_l; lra). unfold E in *. lra.
Qed.
(** numeric side conditions *)
Ltac num := unfold huge, tiny in *; change u32 with (/ 16777216) in *; try (repeat rewrite (Rabs_pos_eq (_ / _)) by lra); try (repeat rewrite (Rabs_pos_eq 1) by lra); lra.
