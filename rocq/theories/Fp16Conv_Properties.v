(** Q16.16 and floating point: C110, C111. *)
From Coq Require Import ZArith Reals Lra Lia Psatz Bool Factorial.
From Flocq Require Import Core IEEE754.BinarySingleNaN IEEE754.Binary IEEE754.Bits.
From Verif Require Import Base Fp16_Model Fp16Conv_Model Fp16_Spec PolyBound TrigBound Fp16Conv_Proofs Fp16Conv_Proofs2.
Open Scope R_scope.

(** ** C110: the real number a raw value stands for is v / 65536 *)
(** No float is nearer to it than the result. *)
Theorem C110_to_float : forall v, raw v -> fin32 (toFloat v) = true /\ forall y, Rabs (F32 (toFloat v) - IZR v / 65536) <= Rabs (F32 y - IZR v / 65536).
Proof. intros v H. apply (to_nearest 24 128 eq_refl eq_refl ltac:(lia) ltac:(lia) binop_nan_pl32 v H). Qed.
Print Assumptions C110_to_float.
Theorem C110_to_float_exact : forall v, (Z.abs v <= 16777216)%Z -> F32 (toFloat v) = IZR v / 65536.
Proof. intros v H. apply (to_exact 24 128 eq_refl eq_refl ltac:(lia) ltac:(lia) binop_nan_pl32 v); [lia|exact H]. Qed.
Print Assumptions C110_to_float_exact.
Theorem C110_to_double : forall v, raw v -> fin64 (toDouble v) = true /\ F64 (toDouble v) = IZR v / 65536.
Proof.
  intros v H. split; [apply (to_nearest 53 1024 eq_refl eq_refl ltac:(lia) ltac:(lia) binop_nan_pl64 v H)|].
  apply (to_exact 53 1024 eq_refl eq_refl ltac:(lia) ltac:(lia) binop_nan_pl64 v H). unfold raw in H. lia.
Qed.
Print Assumptions C110_to_double.
(** From double: the nearest raw value, ties away from zero, but for the one double below half a step. *)
Theorem C110_from_double : forall x, fin64 x = true -> -2147483648 - / 2 < F64 x * 65536 < 2147483648 - / 2 ->
  exists r, fromDouble x = Ok r /\ Rabs (IZR r - F64 x * 65536) <= / 2 + / 18014398509481984 /\
    (Rabs (F64 x * 65536) <> / 2 - / 18014398509481984 ->
       Rabs (IZR r - F64 x * 65536) <= / 2 /\ (Rabs (IZR r - F64 x * 65536) = / 2 -> Rabs (F64 x * 65536) < Rabs (IZR r))).
Proof. exact from_double_ok. Qed.
Print Assumptions C110_from_double.
(** From float: within one step everywhere, the nearest below 128, exact from 256 on. *)
Theorem C110_from_float : forall x, fin32 x = true -> -32768 <= F32 x < 32768 ->
  exists r, fromFloat x = Ok r /\ Rabs (IZR r - F32 x * 65536) <= 1 /\ (256 <= Rabs (F32 x) -> IZR r = F32 x * 65536) /\
    (Rabs (F32 x) < 128 -> Rabs (IZR r - F32 x * 65536) <= / 2 + / 33554432 /\
    (Rabs (F32 x * 65536) <> / 2 - / 33554432 ->
       Rabs (IZR r - F32 x * 65536) <= / 2 /\ (Rabs (IZR r - F32 x * 65536) = / 2 -> Rabs (F32 x * 65536) < Rabs (IZR r)))).
Proof.
  intros x F B. destruct (from_float_ok x F) as (r & E & K1 & K2 & K3); [lra|]. exists r. rewrite Rabs_mult, (Rabs_pos_eq 65536) in K2 by lra.
  split; [exact E|]. split; [exact K1|]. split; [intros H; apply K2; lra|]. intros H. apply K3. rewrite Rabs_mult, (Rabs_pos_eq 65536) by lra. lra.
Qed.
Print Assumptions C110_from_float.
(** Everything else, NaN and infinities included, is undefined behaviour; nothing saturates. *)
Theorem C110_out_of_range_undefined :
  (forall x, fin64 x = false \/ ~ (-2147483648 - / 2 < F64 x * 65536 < 2147483648 - / 2) -> fromDouble x = Ub) /\
  (forall x, fin32 x = false \/ ~ (-32768 <= F32 x < 32768) -> fromFloat x = Ub).
Proof. split; [exact from_double_out|]. intros x [H|H]; apply from_float_out; [left; auto|right; intros K; apply H; lra]. Qed.
Print Assumptions C110_out_of_range_undefined.
Theorem C110_double_round_trip : forall v, raw v -> fromDouble (toDouble v) = Ok v.
Proof. exact trip_double. Qed.
Print Assumptions C110_double_round_trip.
Theorem C110_float_round_trip : forall v, (Z.abs v <= 8388608)%Z -> fromFloat (toFloat v) = Ok v.
Proof. exact trip_float. Qed.
Print Assumptions C110_float_round_trip.
(** Between 128 and 256 the conversion of a float that is a raw value may be off by one; the greatest raw value does not survive. *)
Theorem C110_float_round_trip_refuted : (exists v r, raw v /\ F32 (toFloat v) = IZR v / 65536 /\ fromFloat (toFloat v) = Ok r /\ r <> v) /\
  (exists v, raw v /\ fromFloat (toFloat v) = Ub).
Proof.
  split.
  - exists 8388609%Z, 8388610%Z. split; [unfold raw; lia|]. split; [apply C110_to_float_exact; cbn; lia|]. split; [vm_compute; reflexivity|discriminate].
  - exists 2147483647%Z. split; [unfold raw; lia|vm_compute; reflexivity].
Qed.
Print Assumptions C110_float_round_trip_refuted.
(** Literals: 1.5_fp is the conversion of the double; 3_fp is exact up to 32767 and wraps beyond. *)
Theorem C110_literals : (forall x, fp_literal x = fromDouble x) /\ (forall n, (0 <= n <= 32767)%Z -> fp_int_literal n = (n * 65536)%Z) /\
  (exists n, (0 <= n)%Z /\ (fp_int_literal n < 0)%Z).
Proof.
  split; [reflexivity|]. split; [|exists 40000%Z; split; [lia|reflexivity]].
  intros n H. unfold fp_int_literal, s32, Fp16_Model.u32. rewrite Z.shiftl_mul_pow2 by lia. change (2 ^ 16)%Z with 65536%Z. rewrite (Z.mod_small n) by lia. rewrite (Z.mod_small (n * 65536)) by lia. rewrite Z.mod_small by lia. ring.
Qed.
Print Assumptions C110_literals.
Example C110_nonvacuous : fin32 (toFloat 98304) = true /\ F32 (toFloat 98304) = 3 / 2 /\ fromFloat (toFloat 98304) = Ok 98304%Z /\ fromDouble (toDouble (-2147483648)) = Ok (-2147483648)%Z.
Proof. split; [reflexivity|]. split; [rewrite C110_to_float_exact by (cbn; lia); lra|]. split; vm_compute; reflexivity. Qed.

(** ** C111: constants are the nearest raw values *)
Definition nearest_raw (c : res Z) (x : R) : Prop := exists k, c = Ok k /\ Rabs (IZR k - 65536 * x) <= / 2.
Ltac raw_of k := exists k; split; [vm_compute; reflexivity|apply Rabs_le].
Theorem C111_constants :
  nearest_raw FP_E (Rtrigo_def.exp 1) /\ nearest_raw FP_LOG2E (/ ln 2) /\ nearest_raw FP_LOG10E (/ ln 10) /\ nearest_raw FP_LN2 (ln 2) /\ nearest_raw FP_LN10 (ln 10) /\
  nearest_raw FP_PI PI /\ nearest_raw FP_PI_2 (PI / 2) /\ nearest_raw FP_PI_4 (PI / 4) /\ nearest_raw FP_1_PI (/ PI) /\ nearest_raw FP_2_PI (2 / PI) /\
  nearest_raw FP_2_SQRTPI (2 / R_sqrt.sqrt PI) /\ nearest_raw FP_SQRT2 (R_sqrt.sqrt 2) /\ nearest_raw FP_SQRT1_2 (/ R_sqrt.sqrt 2).
Proof.
  pose proof exp1_bounds as BE. pose proof ln2_L2 as B2. apply Rabs_le_inv in B2. unfold L2 in B2. pose proof ln10_bounds as B10. pose proof PI_bounds as BP. unfold PIlo, PIhi in BP.
  pose proof (inv_bounds (693147 / 1000000) (693148 / 1000000) (ln 2) ltac:(lra) ltac:(lra)) as I2.
  pose proof (inv_bounds (2302583 / 1000000) (2302587 / 1000000) (ln 10) ltac:(lra) ltac:(lra)) as I10.
  pose proof (inv_bounds (31415926 / 10000000) (31415927 / 10000000) PI ltac:(lra) ltac:(lra)) as IP.
  pose proof (sqrt_bounds (1772453 / 1000000) (1772454 / 1000000) PI ltac:(lra) ltac:(lra) ltac:(lra)) as SP.
  pose proof (inv_bounds (1772453 / 1000000) (1772454 / 1000000) (R_sqrt.sqrt PI) ltac:(lra) ltac:(lra)) as ISP.
  pose proof (sqrt_bounds (1414213 / 1000000) (1414214 / 1000000) 2 ltac:(lra) ltac:(lra) ltac:(lra)) as S2.
  pose proof (inv_bounds (1414213 / 1000000) (1414214 / 1000000) (R_sqrt.sqrt 2) ltac:(lra) ltac:(lra)) as IS2.
  repeat apply conj.
  - raw_of 178145%Z. lra.
  - raw_of 94548%Z. lra.
  - raw_of 28462%Z. lra.
  - raw_of 45426%Z. lra.
  - raw_of 150902%Z. lra.
  - raw_of 205887%Z. lra.
  - raw_of 102944%Z. lra.
  - raw_of 51472%Z. lra.
  - raw_of 20861%Z. lra.
  - raw_of 41722%Z. unfold Rdiv. lra.
  - raw_of 73949%Z. unfold Rdiv. lra.
  - raw_of 92682%Z. lra.
  - raw_of 46341%Z. lra.
Qed.
Print Assumptions C111_constants.
Example C111_nonvacuous : FP_PI = Ok 205887%Z /\ FP_SQRT1_2 = Ok 46341%Z.
Proof. split; vm_compute; reflexivity. Qed.
