(** Trigonometric functions in binary32: C105-C108. *)
From Coq Require Import ZArith Reals Lra Lia Psatz Bool List.
From Flocq Require Import Core IEEE754.BinarySingleNaN IEEE754.Binary IEEE754.Bits.
From Verif Require Import Base Arith Ext32 TrigBound Ffmath_Model Ffmath2_Model Ffmath_Spec Float32 Ffmath_Proofs7 Ffmath_Proofs12 Ffmath_Proofs16 Ffmath_Proofs17 Ffmath_Proofs18 Ffmath_Proofs19.
Open Scope R_scope.

(** ** C105: sin, cos *)
Theorem C105_sin : forall x, finite x -> Rabs (valR x) <= 8388608 ->
  finite (fsin x) /\ Rabs (valR (fsin x) - sin (valR x)) <= 921 / 1000000 + / 6000000 * Rabs (valR x).
Proof. exact fsin_accurate. Qed.
Print Assumptions C105_sin.
Theorem C105_cos : forall x, finite x -> Rabs (valR x) <= 8388000 ->
  finite (fcos x) /\ Rabs (valR (fcos x) - cos (valR x)) <= 922 / 1000000 + / 4000000 * Rabs (valR x).
Proof. exact fcos_accurate. Qed.
Print Assumptions C105_cos.
Theorem C105_sin_odd : forall x, finite x -> Rabs (valR x) <= 8388608 -> valR (fsin (- x)%b32) = - valR (fsin x).
Proof. exact fsin_odd. Qed.
Print Assumptions C105_sin_odd.
Theorem C105_sin_range : forall x, finite x -> Rabs (valR x) <= 8388608 -> Rabs (valR (fsin x)) <= 1000001 / 1000000.
Proof. exact fsin_range. Qed.
Print Assumptions C105_sin_range.
Theorem C105_sin_small : forall x, finite x -> Rabs (valR x) <= 6599 / 1000000 -> fsin x = x.
Proof. exact fsin_small. Qed.
Print Assumptions C105_sin_small.
(** For large arguments the reduction fails and the result leaves [-1,1]. *)
Theorem C105_large_refuted : exists x, finite x /\ valR x = -59999992 /\ 3 < Rabs (valR (fsin x)).
Proof.
  exists (flit (-59999992) 1). assert (K : finite (flit (-59999992) 1) /\ valR (flit (-59999992) 1) = -59999992) by cst. destruct K as (F & V). split; [exact F|]. split; [exact V|].
  assert (Fs : finite (fsin (flit (-59999992) 1))) by reflexivity. destruct (abs_R _ Fs) as (Fa & <-).
  assert (L : b32_lt (flit 3 1) (absolute (fsin (flit (-59999992) 1))) = true) by (vm_compute; reflexivity).
  assert (F3 : finite (flit 3 1) /\ valR (flit 3 1) = 3) by cst. destruct F3 as (F3 & V3).
  destruct (lt_dec (flit 3 1) (absolute (fsin (flit (-59999992) 1))) F3 Fa) as [(_ & H)|(E & _)]; [rewrite V3 in H; exact H|rewrite L in E; discriminate E].
Qed.
Print Assumptions C105_large_refuted.
Example C105_nonvacuous : finite (flit 12345 2) /\ valR (flit 12345 2) = 12345 / 2 /\ Rabs (valR (fsin (flit 12345 2)) - sin (12345 / 2)) <= 2 / 1000.
Proof.
  assert (K : finite (flit 12345 2) /\ valR (flit 12345 2) = 12345 / 2) by cst. destruct K as (F & V). split; auto. split; auto.
  destruct (C105_sin (flit 12345 2) F) as (_ & E); rewrite V in *; rewrite (Rabs_pos_eq (12345 / 2)) in * by lra; lra.
Qed.

(** ** C106: tan *)
Theorem C106_tan : forall x, finite x -> Rabs (valR x) <= 1000 -> / 100 <= Rabs (cos (valR x)) ->
  finite (ftan x) /\ Rabs (valR (ftan x) - tan (valR x)) <= 2 / 1000 / (cos (valR x) * cos (valR x)).
Proof. exact ftan_accurate. Qed.
Print Assumptions C106_tan.
Example C106_nonvacuous : finite (flit 1 1) /\ Rabs (valR (ftan (flit 1 1)) - tan 1) <= 2 / 1000 / (cos 1 * cos 1).
Proof.
  assert (K : finite (flit 1 1) /\ valR (flit 1 1) = 1) by cst. destruct K as (F & V). split; auto. pose proof (C106_tan (flit 1 1) F) as T. rewrite V in T. apply T; [rewrite Rabs_R1; lra|].
  destruct (cos_taylor 1) as (L & _); [lra|]. cbn [pow] in L. rewrite Rabs_pos_eq by lra. lra.
Qed.

(** ** C107: asin, acos *)
Theorem C107_asin : forall x, finite x -> -1 <= valR x <= 1 -> finite (fasin x) /\ Rabs (valR (fasin x) - asin (valR x)) <= 1233 / 100000.
Proof. exact fasin_accurate. Qed.
Print Assumptions C107_asin.
Theorem C107_acos : forall x, finite x -> -1 <= valR x <= 1 -> finite (facos x) /\ Rabs (valR (facos x) - acos (valR x)) <= 1234 / 100000.
Proof. exact facos_accurate. Qed.
Print Assumptions C107_acos.
Theorem C107_asin_odd : forall x, finite x -> -1 <= valR x <= 1 -> valR (fasin (- x)%b32) = - valR (fasin x).
Proof. exact fasin_odd. Qed.
Print Assumptions C107_asin_odd.
(** Outside [-1,1] both are NaN. *)
Theorem C107_domain : forall x, finite x -> 1 < Rabs (valR x) -> is_nan 24 128 (fasin x) = true /\ is_nan 24 128 (facos x) = true.
Proof. exact fasin_domain. Qed.
Print Assumptions C107_domain.
Example C107_nonvacuous : finite (flit 1 2) /\ valR (flit 1 2) = / 2 /\ Rabs (valR (fasin (flit 1 2)) - asin (/ 2)) <= 1233 / 100000.
Proof. destruct cH as (F & V). split; auto. split; auto. rewrite <- V. apply C107_asin; auto. rewrite V. lra. Qed.

(** ** C108: atan, atan2 *)
Theorem C108_atan : forall x, finite x -> finite (fatan x) /\ Rabs (valR (fatan x) - atan (valR x)) <= 623 / 100000.
Proof. exact fatan_accurate. Qed.
Print Assumptions C108_atan.
Theorem C108_atan_odd : forall x, finite x -> valR (fatan (- x)%b32) = - valR (fatan x).
Proof. exact fatan_odd. Qed.
Print Assumptions C108_atan_odd.
(** t is the polar angle of the point (x, y): atan2 finds it in every quadrant and on the axes *)
Theorem C108_atan2 : forall y x t r, finite y -> finite x -> bpow radix2 (-126) < Rabs (valR x) -> Rabs (valR y) <= bpow radix2 127 * Rabs (valR x) ->
  - PI < t <= PI -> 0 < r -> valR x = r * cos t -> valR y = r * sin t ->
  finite (fatan2 y x) /\ Rabs (valR (fatan2 y x) - t) <= 624 / 100000.
Proof. exact fatan2_accurate. Qed.
Print Assumptions C108_atan2.
Theorem C108_atan2_vertical : forall y x t r, finite y -> finite x -> valR x = 0 ->
  - PI < t <= PI -> 0 < r -> valR x = r * cos t -> valR y = r * sin t -> finite (fatan2 y x) /\ Rabs (valR (fatan2 y x) - t) <= 1 / 1000000.
Proof. exact fatan2_axis. Qed.
Print Assumptions C108_atan2_vertical.
(** The relative error does not vanish at the origin: more than a tenth of small angles is lost. *)
Theorem C108_small_refuted : forall x, finite x -> / 1000 <= Rabs (valR x) <= / 100 ->
  Rabs (valR (fatan x) - atan (valR x)) >= / 10 * Rabs (atan (valR x)).
Proof. exact fatan_small. Qed.
Print Assumptions C108_small_refuted.
(** Infinity is NaN, not pi/2; so is atan2 of finite arguments whose quotient overflows. *)
Theorem C108_infinity_refuted : (forall s, is_nan 24 128 (fatan (B754_infinity 24 128 s)) = true) /\
  (exists y x, finite y /\ finite x /\ 0 < valR x /\ 0 < valR y /\ is_nan 24 128 (fatan2 y x) = true).
Proof.
  split; [exact fatan_inf|]. exists (ofU 1900671690), (ofU 229447053). split; [reflexivity|]. split; [reflexivity|]. 
  split; [|split; [|vm_compute; reflexivity]]; vm_compute; lra.
Qed.
Print Assumptions C108_infinity_refuted.
(** At the origin the angle reported is pi/2; the diagonal of subnormal numbers too is taken for the vertical. *)
Theorem C108_origin_refuted : fatan2 (flit 0 1) (flit 0 1) = fPI_2 /\ (exists z, finite z /\ 0 < valR z /\ fatan2 z z = fPI_2).
Proof.
  split; [apply bits_inj; vm_compute; reflexivity|]. exists (ofU 524288). split; [reflexivity|]. split; [vm_compute; lra|]. apply bits_inj; vm_compute; reflexivity.
Qed.
Print Assumptions C108_origin_refuted.
Example C108_nonvacuous : Rabs (valR (fatan2 (flit (-3) 1) (flit (-3) 1)) - - (3 * (PI / 4))) <= 624 / 100000.
Proof.
  assert (K : finite (flit (-3) 1) /\ valR (flit (-3) 1) = -3) by cst. destruct K as (F & V). pose proof PI_RGT_0.
  apply (C108_atan2 (flit (-3) 1) (flit (-3) 1) (- (3 * (PI / 4))) (3 * R_sqrt.sqrt 2)); auto; rewrite ?V, ?(Rabs_left (-3)) by lra.
  - apply Rlt_trans with 1; [|lra]. change 1 with (bpow radix2 0). apply bpow_lt. lia.
  - assert (1 <= bpow radix2 127) by (change 1 with (bpow radix2 0); apply bpow_le; lia). lra.
  - lra.
  - pose proof Rlt_sqrt2_0. lra.
  - rewrite cos_neg, cos_3PI4. field. apply sqrt2_neq_0.
  - rewrite sin_neg, sin_3PI4. field. apply sqrt2_neq_0.
Qed.
