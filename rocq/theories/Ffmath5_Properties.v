(** C91-C94: the logarithms, the power and the inverse hyperbolic functions of
    ffmath in binary32, against the real functions ln, Rpower, sinh, cosh and
    tanh of the standard library. *)
From Coq Require Import ZArith Reals Lra Lia Bool List.
From Flocq Require Import Core IEEE754.Binary IEEE754.Bits.
From Verif Require Import Base Arith Ext32 Bits32 PolyBound Ffmath_Model Ffmath2_Model Ffmath_Spec Ffmath_Proofs Float32 Ffmath_Proofs7 Ffmath_Proofs10 Ffmath_Proofs12 Ffmath_Proofs13 Ffmath_Proofs14 Ffmath_Proofs15.
Open Scope R_scope.

(** C91: log2 is within 2^-20, relatively, of the logarithm for every positive
    normal number, however close to 1, and exact at the powers of two. *)
Theorem C91_log2_accurate : forall x, is_normal x -> 0 < valR x ->
  finite (log2 x) /\ Rabs (valR (log2 x) - ln (valR x) / ln 2) <= bpow radix2 (-20) * Rabs (ln (valR x) / ln 2).
Proof. exact log2_accurate. Qed.
Print Assumptions C91_log2_accurate.
Theorem C91_log2_exact : forall x k, finite x -> valR x = bpow radix2 k -> (-126 <= k <= 127)%Z -> finite (log2 x) /\ valR (log2 x) = IZR k.
Proof. exact log2_power. Qed.
Print Assumptions C91_log2_exact.
(** It is -infinity at either zero and NaN for negative arguments. *)
Theorem C91_log2_special : forall x, (is_zero x -> log2 x = B754_infinity 24 128 true) /\ (is_nan 24 128 x = false -> ext32 x < 0 -> is_nan 24 128 (log2 x) = true).
Proof. exact log2_special. Qed.
Print Assumptions C91_log2_special.
(** Findings: +infinity gives 128, a NaN gives a finite number, and a subnormal
    number (here 2^-140) a logarithm that is 12 too large. *)
Theorem C91_log2_refuted : valR (log2 (B754_infinity 24 128 false)) = 128 /\
  (exists x, is_nan 24 128 x = true /\ finite (log2 x)) /\
  (exists x, finite x /\ valR x = bpow radix2 (-140) /\ valR (log2 x) > -128).
Proof.
  split; [vm_compute; lra|]. split.
  - exists (ofU 2143289344). split; vm_compute; reflexivity.
  - exists (ofU 512). split; [reflexivity|]. split; [change (valR (ofU 512)) with (bpow radix2 9 * bpow radix2 (-149)); rewrite <- bpow_plus; reflexivity|]. vm_compute. lra.
Qed.
Print Assumptions C91_log2_refuted.
(** Cases: 10, a number just below 1, and 2^-126. *)
Example C91_case : (is_normal (flit 10 1) /\ 0 < valR (flit 10 1)) /\ (is_normal (ofU 1065353215) /\ 0 < valR (ofU 1065353215) < 1) /\ finite (ofU 8388608) /\ valR (ofU 8388608) = bpow radix2 (-126).
Proof.
  assert (K : bpow radix2 (-126) <= / 2) by (apply (bpow_le radix2 (-126) (-1)); lia).
  assert (V1 : valR (flit 10 1) = 10) by (vm_compute; lra). assert (V2 : valR (ofU 1065353215) = 1 - / 16777216) by (vm_compute; lra).
  assert (V3 : valR (ofU 8388608) = bpow radix2 (-126)) by (change (valR (ofU 8388608)) with (bpow radix2 23 * bpow radix2 (-149)); rewrite <- bpow_plus; reflexivity).
  rewrite V1, V2. split; [split; [split; [reflexivity|]|lra]|split; [split; [split; [reflexivity|]|lra]|split; [reflexivity|exact V3]]]; rewrite ?V1, ?V2, Rabs_pos_eq; lra.
Qed.

(** C92: log and log10, with the same relative accuracy, and log1p. *)
Theorem C92_log_accurate : forall x, is_normal x -> 0 < valR x ->
  finite (flog x) /\ Rabs (valR (flog x) - ln (valR x)) <= bpow radix2 (-20) * Rabs (ln (valR x)).
Proof. exact flog_accurate. Qed.
Print Assumptions C92_log_accurate.
Theorem C92_log10_accurate : forall x, is_normal x -> 0 < valR x ->
  finite (log10 x) /\ Rabs (valR (log10 x) - ln (valR x) / ln 10) <= bpow radix2 (-20) * Rabs (ln (valR x) / ln 10).
Proof. exact log10_accurate. Qed.
Print Assumptions C92_log10_accurate.
Theorem C92_special : forall x, (is_zero x -> flog x = B754_infinity 24 128 true /\ log10 x = B754_infinity 24 128 true) /\
  (is_nan 24 128 x = false -> ext32 x < 0 -> is_nan 24 128 (flog x) = true /\ is_nan 24 128 (log10 x) = true).
Proof. exact flog_special. Qed.
Print Assumptions C92_special.
Theorem C92_log1p_accurate : forall x, finite x -> -1 < valR x <= bpow radix2 126 ->
  finite (log1p x) /\ Rabs (valR (log1p x) - ln (1 + valR x)) <= bpow radix2 (-20) * Rabs (ln (1 + valR x)) + bpow radix2 (-23).
Proof. exact log1p_accurate. Qed.
Print Assumptions C92_log1p_accurate.
(** Finding: near 0, where log1p is meant to be used, it has no correct digit. *)
Theorem C92_log1p_relative_refuted : exists x, finite x /\ 0 < valR x /\ valR (log1p x) = 0 /\ valR x / 2 <= ln (1 + valR x).
Proof.
  exists (ofU 788529152). assert (V : valR (ofU 788529152) = / 8589934592) by (vm_compute; lra). split; [reflexivity|]. rewrite V. split; [lra|]. split; [vm_compute; lra|].
  pose proof (ln_1p_low (/ 8589934592) ltac:(lra)). lra.
Qed.
Print Assumptions C92_log1p_relative_refuted.
Example C92_case : is_normal (flit 1 10) /\ 0 < valR (flit 1 10) /\ finite (flit (-1) 2) /\ -1 < valR (flit (-1) 2) <= bpow radix2 126.
Proof.
  assert (K : bpow radix2 (-126) <= / 16) by (apply (bpow_le radix2 (-126) (-4)); lia). assert (K2 : 0 <= bpow radix2 126) by apply bpow_ge_0.
  assert (V1 : valR (flit 1 10) = 13421773 / 134217728) by (vm_compute; lra). assert (V2 : valR (flit (-1) 2) = -1 / 2) by (vm_compute; lra).
  repeat split; try reflexivity; rewrite ?V1, ?V2; try lra. rewrite Rabs_pos_eq; lra.
Qed.

(** C93: pow for a positive base, with a relative error that grows with the
    number of binary digits of the result's exponent; exact for exponent 0 and
    for integer powers of powers of two. *)
Theorem C93_pow_accurate : forall b e, is_normal b -> 0 < valR b -> finite e -> Rabs (valR e * (ln (valR b) / ln 2)) <= 125 ->
  exists r, fpow b e = Ok r /\ finite r /\
    Rabs (valR r - Rpower (valR b) (valR e)) <= bpow radix2 (-20) * (1 + Rabs (valR e * (ln (valR b) / ln 2))) * Rpower (valR b) (valR e).
Proof. exact fpow_accurate. Qed.
Print Assumptions C93_pow_accurate.
Theorem C93_pow_zero : forall b e, is_normal b -> 0 < valR b -> is_zero e -> exists r, fpow b e = Ok r /\ finite r /\ valR r = 1.
Proof. exact fpow_zero. Qed.
Print Assumptions C93_pow_zero.
Theorem C93_pow_exact : forall b e k n, finite b -> valR b = bpow radix2 k -> (-126 <= k <= 127)%Z -> finite e -> valR e = IZR n -> (-125 <= n * k <= 127)%Z ->
  exists r, fpow b e = Ok r /\ finite r /\ valR r = bpow radix2 (n * k).
Proof. exact fpow_power. Qed.
Print Assumptions C93_pow_exact.
Theorem C93_pow_base_zero : forall b e, is_zero b -> finite e ->
  (0 < valR e -> fpow b e = Ok (B754_zero 24 128 false)) /\ (valR e < 0 -> fpow b e = Ok (B754_infinity 24 128 false)).
Proof. intros b e Z F. destruct (fpow_base0 b e Z F) as (A & B & _). split; [exact A|exact B]. Qed.
Print Assumptions C93_pow_base_zero.
(** Findings: a negative base is undefined behaviour for every exponent, even an
    integer one, and so is 0 to the 0. *)
Theorem C93_pow_undefined : (forall b e, is_nan 24 128 b = false -> ext32 b < 0 -> fpow b e = Ub) /\ (forall b e, is_zero b -> is_zero e -> fpow b e = Ub).
Proof. split; [exact fpow_negative|]. intros b e Z (F & V). destruct (fpow_base0 b e Z F) as (_ & _ & C). exact (C V). Qed.
Print Assumptions C93_pow_undefined.
Example C93_case : is_normal (flit 2 1) /\ valR (flit 2 1) = bpow radix2 1 /\ finite (flit (-21) 2) /\ Rabs (valR (flit (-21) 2) * (ln (valR (flit 2 1)) / ln 2)) <= 125 /\
  is_nan 24 128 (flit (-2) 1) = false /\ ext32 (flit (-2) 1) < 0.
Proof.
  assert (K : bpow radix2 (-126) <= / 2) by (apply (bpow_le radix2 (-126) (-1)); lia). assert (V1 : valR (flit 2 1) = 2) by (vm_compute; lra). assert (V2 : valR (flit (-21) 2) = -21 / 2) by (vm_compute; lra). pose proof ln2_bnd.
  split. { split; [reflexivity|]. rewrite V1, Rabs_pos_eq; lra. } split; [rewrite V1; reflexivity|]. split; [reflexivity|].
  split. { rewrite V1, V2. replace (-21 / 2 * (ln 2 / ln 2)) with (-21 / 2) by (field; lra). apply Rabs_le. lra. } split; [reflexivity|vm_compute; lra].
Qed.

(** C94: the inverse hyperbolic functions: where x = sinh a, cosh a, tanh a, the
    result is close to a. *)
Theorem C94_asinh_accurate : forall x a, finite x -> 0 <= valR x <= bpow radix2 62 -> valR x = sinh a ->
  finite (asinh x) /\ Rabs (valR (asinh x) - a) <= bpow radix2 (-20) * Rabs a + bpow radix2 (-18).
Proof. exact asinh_accurate. Qed.
Print Assumptions C94_asinh_accurate.
Theorem C94_acosh_accurate : forall x a, finite x -> 2 <= valR x <= bpow radix2 62 -> 0 <= a -> valR x = cosh a ->
  finite (acosh x) /\ Rabs (valR (acosh x) - a) <= bpow radix2 (-20) * Rabs a + bpow radix2 (-18).
Proof. exact acosh_far. Qed.
Print Assumptions C94_acosh_accurate.
Theorem C94_acosh_near_one : forall x a, finite x -> 1 <= valR x < 2 -> 0 <= a -> valR x = cosh a ->
  finite (acosh x) /\ Rabs (valR (acosh x) - a) <= bpow radix2 (-10).
Proof. exact acosh_close. Qed.
Print Assumptions C94_acosh_near_one.
Theorem C94_atanh_accurate : forall x a, finite x -> valR x = tanh a ->
  finite (atanh x) /\ Rabs (valR (atanh x) - a) <= bpow radix2 (-20) * Rabs a + bpow radix2 (-23).
Proof. exact atanh_accurate. Qed.
Print Assumptions C94_atanh_accurate.
Theorem C94_acosh_domain : forall x, is_nan 24 128 x = false -> ext32 x < 1 -> is_nan 24 128 (acosh x) = true.
Proof.
  intros x N H. unfold acosh. assert (L : b32_lt x (flit 1 1) = true); [|rewrite L; reflexivity].
  destruct x as [s|s|s pl|s m e K]; try discriminate.
  - destruct s; reflexivity.
  - destruct s; [reflexivity|]. exfalso. cbn [ext32] in H. assert (1 <= bpow radix2 128) by (apply (bpow_le radix2 0); lia). lra.
  - rewrite ext32_finite in H by reflexivity. destruct one_R as (F1 & V1). destruct (lt_dec (B754_finite 24 128 s m e K) (flit 1 1) eq_refl F1) as [(E & _)|(_ & B)]; auto. lra.
Qed.
Print Assumptions C94_acosh_domain.
(** Finding: asinh is not odd: at -8192 it is -infinity. *)
Theorem C94_asinh_negative_refuted : finite (flit (-8192) 1) /\ valR (flit (-8192) 1) = -8192 /\ asinh (flit (-8192) 1) = B754_infinity 24 128 true.
Proof. split; [reflexivity|]. split; [vm_compute; lra|vm_compute; reflexivity]. Qed.
Print Assumptions C94_asinh_negative_refuted.
(** Cases: every x of the ranges is a value of sinh, cosh and tanh: 3 = sinh (arcsinh 3), 0 = tanh 0, 1 = cosh 0. *)
Example C94_case : (finite (flit 3 1) /\ 0 <= valR (flit 3 1) <= bpow radix2 62 /\ valR (flit 3 1) = sinh (arcsinh 3)) /\
  (finite (flit 1 1) /\ 1 <= valR (flit 1 1) < 2 /\ valR (flit 1 1) = cosh 0) /\ (finite (flit 0 1) /\ valR (flit 0 1) = tanh 0) /\
  (exists a, finite (flit 1 2) /\ valR (flit 1 2) = tanh a) /\ (exists a, 0 <= a /\ finite (flit 3 1) /\ 2 <= valR (flit 3 1) <= bpow radix2 62 /\ valR (flit 3 1) = cosh a).
Proof.
  assert (K : 4 <= bpow radix2 62) by (apply (bpow_le radix2 2); lia). assert (V3 : valR (flit 3 1) = 3) by (vm_compute; lra). assert (V0 : valR (flit 0 1) = 0) by (vm_compute; lra). assert (V1 : valR (flit 1 1) = 1) by (vm_compute; lra). assert (V2 : valR (flit 1 2) = 1 / 2) by (vm_compute; lra).
  rewrite V3, V0, V1, V2. split. { split; [reflexivity|]. split; [lra|]. rewrite sinh_arcsinh. reflexivity. }
  split. { split; [reflexivity|]. split; [lra|]. rewrite cosh_0. reflexivity. } split. { split; [reflexivity|]. unfold tanh. rewrite sinh_0. unfold Rdiv. ring. }
  split.
  - exists (/ 2 * ln 3). split; [reflexivity|]. unfold tanh, sinh, cosh. assert (E : exp (- (/ 2 * ln 3)) = / exp (/ 2 * ln 3)) by apply exp_Ropp. rewrite E.
    assert (S : exp (/ 2 * ln 3) * exp (/ 2 * ln 3) = 3). { rewrite <- exp_plus. replace (/ 2 * ln 3 + / 2 * ln 3) with (ln 3) by field. apply exp_ln. lra. }
    pose proof (exp_pos (/ 2 * ln 3)) as P. set (e := exp (/ 2 * ln 3)) in *. clearbody e. replace ((e - / e) / 2 / ((e + / e) / 2)) with ((e * e - 1) / (e * e + 1)) by (field; split; nra). rewrite S. field.
  - pose proof (sqrt_pos 8) as Q. pose proof (sqrt_sqrt 8 ltac:(lra)) as S. exists (ln (3 + R_sqrt.sqrt 8)). split; [rewrite <- ln_1; apply Rcomplements.ln_le; lra|]. split; [reflexivity|]. split; [lra|].
    unfold cosh. rewrite exp_Ropp, exp_ln by lra. set (r := R_sqrt.sqrt 8) in *. clearbody r. apply Rmult_eq_reg_r with (2 * (3 + r)); [|nra]. field_simplify; nra.
Qed.
