(** Property theorems of the inverse trigonometric functions of Q16.16 numbers (C124). *)
From Coq Require Import ZArith Reals Lra Lia Bool.
From Verif Require Import Base BaseLemmas Fp16_Model Fp16_Spec Fp16_Proofs Fp16Fun_Spec Fp16Fun_Proofs TrigBound Fp16Atan_Proofs Fp16Atan_Proofs2.
From Verif Require Ffmath_Proofs19.
Open Scope R_scope.

(** ** C124: atan2, atan, asin, acos *)
(** t is the polar angle of the point (x, y): (x, y) = r (cos t, sin t) with -pi < t <= pi *)
Theorem C124_atan2_accurate : forall y x t r, (Z.abs x + Z.abs y < 2 ^ 31 - 14)%Z -> - PI < t <= PI -> 0 < r ->
  fxR x = r * Rtrigo_def.cos t -> fxR y = r * Rtrigo_def.sin t ->
  exists v, Fp16_Model.atan2 y x = Ok v /\ Rabs (fxR v - t) <= 103 / 10000.
Proof.
  intros y x t r H T P Ex Ey. destruct (atan2_ok y x t (65536 * r) H T) as (v & E & V); [lra|unfold fxR in Ex; lra|unfold fxR in Ey; lra|]. exists v. split; [exact E|lra].
Qed.
Print Assumptions C124_atan2_accurate.
(** When the magnitudes add up to 2^31 units or more, a signed sum overflows. *)
Theorem C124_atan2_undefined : forall y x, raw x -> raw y -> (2 ^ 31 <= Z.abs x + Z.abs y)%Z -> Fp16_Model.atan2 y x = Ub.
Proof. exact atan2_over. Qed.
Print Assumptions C124_atan2_undefined.
Theorem C124_atan_accurate : forall x, (Z.abs x < 2 ^ 31 - 65550)%Z -> exists v, Fp16_Model.atan x = Ok v /\ Rabs (fxR v - Ratan.atan (fxR x)) <= 103 / 10000.
Proof. intros x H. destruct (atan_ok x H) as (v & E & V). exists v. split; [exact E|lra]. Qed.
Print Assumptions C124_atan_accurate.
(** the last 65536 representable arguments *)
Theorem C124_atan_undefined : forall x, raw x -> (2 ^ 31 - 65536 <= Z.abs x)%Z -> Fp16_Model.atan x = Ub.
Proof. intros x R H. apply atan2_over; [unfold raw, one; lia|exact R|unfold one; lia]. Qed.
Print Assumptions C124_atan_undefined.
Theorem C124_asin_accurate : forall x, (Z.abs x < 65536)%Z -> exists v, Fp16_Model.asin x = Ok v /\ Rabs (fxR v - Ratan.asin (fxR x)) <= 111 / 10000.
Proof. intros x H. destruct (asin_ok x H) as (v & E & V). exists v. split; [exact E|lra]. Qed.
Print Assumptions C124_asin_accurate.
Theorem C124_acos_accurate : forall x, (Z.abs x < 65536)%Z -> exists v, Fp16_Model.acos x = Ok v /\ Rabs (fxR v - Ratan.acos (fxR x)) <= 112 / 10000.
Proof. intros x H. destruct (acos_ok x H) as (v & E & V). exists v. split; [exact E|lra]. Qed.
Print Assumptions C124_acos_accurate.
(** At the ends the square root of 0 is the error value: asin(1) and asin(-1) are about 0, acos(1) and acos(-1) about pi/2. *)
Theorem C124_ends_refuted : exists s1 s2 c1 c2, Fp16_Model.asin 65536 = Ok s1 /\ Fp16_Model.asin (-65536) = Ok s2 /\ Fp16_Model.acos 65536 = Ok c1 /\ Fp16_Model.acos (-65536) = Ok c2 /\
  fxR 65536 = 1 /\ fxR (-65536) = -1 /\
  fxR s1 < Ratan.asin 1 - 3 / 2 /\ Ratan.asin (-1) + 3 / 2 < fxR s2 /\ Ratan.acos 1 + 3 / 2 < fxR c1 /\ fxR c2 < Ratan.acos (-1) - 3 / 2.
Proof.
  exists (-1)%Z, 1%Z, 102945%Z, 102943%Z. split; [vm_compute; reflexivity|]. split; [vm_compute; reflexivity|]. split; [vm_compute; reflexivity|]. split; [vm_compute; reflexivity|].
  assert (AM : Ratan.asin (-1) = - (PI / 2)) by (replace (-1) with (- (1)) by ring; rewrite asin_opp, asin_1; reflexivity).
  rewrite (acos_asin 1), (acos_asin (-1)) by lra. rewrite AM, asin_1. pose proof PI_bounds as B. unfold PIlo, PIhi in B. unfold fxR. repeat split; lra.
Qed.
Print Assumptions C124_ends_refuted.
(** The angle of the origin is 25736 rad, and the inverse tangent of a small number is 19 percent too small. *)
Theorem C124_small_refuted : exists v, Fp16_Model.atan2 0 0 = Ok 1686685966%Z /\ 25000 < fxR 1686685966 /\
  Fp16_Model.atan 655 = Ok v /\ fxR v < 81 / 100 * Ratan.atan (fxR 655).
Proof.
  exists 523%Z. split; [vm_compute; reflexivity|]. split; [unfold fxR; lra|]. split; [vm_compute; reflexivity|].
  pose proof (Ffmath_Proofs19.atan_lower (655 / 65536) ltac:(lra)). unfold fxR. lra.
Qed.
Print Assumptions C124_small_refuted.
Example C124_nonvacuous : (exists t r, - PI < t <= PI /\ 0 < r /\ fxR (-65536) = r * Rtrigo_def.cos t /\ fxR 0 = r * Rtrigo_def.sin t) /\ Fp16_Model.atan2 0 (-65536) = Ok 205887%Z /\
  Fp16_Model.atan 65536 = Ok 51471%Z /\ Fp16_Model.asin 32768 = Ok 34480%Z /\ Fp16_Model.acos 32768 = Ok 68464%Z.
Proof.
  split; [exists PI, 1; rewrite cos_PI, sin_PI; pose proof PI_RGT_0; unfold fxR; lra|]. repeat split; vm_compute; reflexivity.
Qed.
