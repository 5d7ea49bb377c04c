(** C88-C90: the exponential and hyperbolic functions of ffmath in binary32,
    against the real functions 2^x, 10^x, e^x, sinh, cosh and tanh of the
    standard library. *)
From Coq Require Import ZArith Reals Lra Lia Bool List.
From Flocq Require Import Core IEEE754.Binary IEEE754.Bits.
From Verif Require Import Base Arith Ext32 Bits32 Ffmath_Model Ffmath2_Model Ffmath_Spec Ffmath_Proofs Float32 Ffmath_Proofs7 Ffmath_Proofs12 Ffmath_Proofs13.
Open Scope R_scope.

(** C88: exp2 is within 2^-21, relatively, of 2^x wherever 2^x is a normal
    number below 2^127.5, is defined there, and is exact at the integers. *)
Theorem C88_exp2_accurate : forall x, finite x -> -126 < valR x < 255 / 2 -> exists r, exp2 x = Ok r /\ finite r /\
  Rabs (valR r - Rpower 2 (valR x)) <= bpow radix2 (-21) * Rpower 2 (valR x).
Proof. exact exp2_accurate. Qed.
Print Assumptions C88_exp2_accurate.
Theorem C88_exp2_exact : forall x k, finite x -> valR x = IZR k -> (-125 <= k <= 127)%Z -> exists r, exp2 x = Ok r /\ finite r /\ valR r = bpow radix2 k.
Proof. exact exp2_integer. Qed.
Print Assumptions C88_exp2_exact.
(** Below -126 (and for -infinity) it is 0, above 128 (and for +infinity) infinity. *)
Theorem C88_exp2_limits : forall x, is_nan 24 128 x = false ->
  (ext32 x <= -126 -> exp2 x = Ok (B754_zero 24 128 false)) /\ (128 < ext32 x -> exp2 x = Ok (B754_infinity 24 128 false)).
Proof. intros x N. split; intros H; [exact (exp2_low x N H)|exact (exp2_high x N H)]. Qed.
Print Assumptions C88_exp2_limits.
(** Findings: between 127.5 and 128 the result overflows although 2^x does not;
    a NaN is converted to an integer, which is undefined. *)
Theorem C88_exp2_overflow_refuted : exists x, finite x /\ valR x = 255 / 2 /\ Rpower 2 (valR x) < bpow radix2 128 /\ exp2 x = Ok (B754_infinity 24 128 false).
Proof.
  exists (flit 255 2). split; [reflexivity|]. assert (V : valR (flit 255 2) = 255 / 2) by (vm_compute; lra). split; [exact V|]. split; [|vm_compute; reflexivity].
  rewrite V, bpow_exp. change (exp (128 * ln (IZR radix2))) with (Rpower 2 128). apply Rpower_lt; lra.
Qed.
Print Assumptions C88_exp2_overflow_refuted.
Theorem C88_exp2_nan_undefined : forall x, is_nan 24 128 x = true -> exp2 x = Ub.
Proof. exact exp2_nan. Qed.
Print Assumptions C88_exp2_nan_undefined.
(** Cases: 1/2, whose power is irrational, and the integer -100. *)
Example C88_case : finite (flit 1 2) /\ valR (flit 1 2) = 1 / 2 /\ finite (flit (-100) 1) /\ valR (flit (-100) 1) = IZR (-100).
Proof. repeat split; vm_compute; lra. Qed.

(** C89: exp and exp10, relatively, and expm1. *)
Theorem C89_exp_accurate : forall x, finite x -> -86 <= valR x <= 88 -> exists r, fexp x = Ok r /\ finite r /\
  Rabs (valR r - exp (valR x)) <= (bpow radix2 (-20) + bpow radix2 (-23) * Rabs (valR x)) * exp (valR x).
Proof. exact fexp_accurate. Qed.
Print Assumptions C89_exp_accurate.
Theorem C89_exp10_accurate : forall x, finite x -> -37 <= valR x <= 38 -> exists r, exp10 x = Ok r /\ finite r /\
  Rabs (valR r - Rpower 10 (valR x)) <= (bpow radix2 (-20) + bpow radix2 (-21) * Rabs (valR x)) * Rpower 10 (valR x).
Proof. exact exp10_accurate. Qed.
Print Assumptions C89_exp10_accurate.
Theorem C89_limits : forall x, is_nan 24 128 x = false ->
  (ext32 x <= -89 -> fexp x = Ok (B754_zero 24 128 false)) /\ (89 <= ext32 x -> fexp x = Ok (B754_infinity 24 128 false)) /\
  (ext32 x <= -39 -> exp10 x = Ok (B754_zero 24 128 false)) /\ (39 <= ext32 x -> exp10 x = Ok (B754_infinity 24 128 false)).
Proof. intros x N. repeat split; intros H; [exact (fexp_low x N H)|exact (fexp_high x N H)|exact (exp10_low x N H)|exact (exp10_high x N H)]. Qed.
Print Assumptions C89_limits.
Theorem C89_expm1_accurate : forall x, finite x -> -86 <= valR x <= 88 -> exists r, expm1 x = Ok r /\ finite r /\
  Rabs (valR r - (exp (valR x) - 1)) <= (bpow radix2 (-19) + bpow radix2 (-23) * Rabs (valR x)) * exp (valR x) + bpow radix2 (-24).
Proof. exact expm1_accurate. Qed.
Print Assumptions C89_expm1_accurate.
(** Finding: near 0, where expm1 is meant to be used, it has no correct digit. *)
Theorem C89_expm1_relative_refuted : exists x, finite x /\ 0 < valR x /\ match expm1 x with Ok r => valR r = 0 | Ub => False end /\ valR x <= exp (valR x) - 1.
Proof.
  exists (ofU 788529152). assert (V : valR (ofU 788529152) = / 8589934592) by (vm_compute; lra). split; [reflexivity|]. rewrite V. split; [lra|]. split; [vm_compute; lra|].
  pose proof (exp_ineq1_le (/ 8589934592)). lra.
Qed.
Print Assumptions C89_expm1_relative_refuted.
Example C89_case : finite (flit (-25) 2) /\ valR (flit (-25) 2) = -25 / 2 /\ is_nan 24 128 (flit 100 1) = false /\ 89 <= ext32 (flit 100 1).
Proof. repeat split; try (vm_compute; lra). Qed.

(** C90: the hyperbolic functions. *)
Theorem C90_sinh_cosh_accurate : forall x, finite x -> Rabs (valR x) <= 86 ->
  (exists r, fsinh x = Ok r /\ finite r /\ Rabs (valR r - sinh (valR x)) <= (bpow radix2 (-19) + bpow radix2 (-22) * Rabs (valR x)) * cosh (valR x)) /\
  (exists r, fcosh x = Ok r /\ finite r /\ Rabs (valR r - cosh (valR x)) <= (bpow radix2 (-19) + bpow radix2 (-22) * Rabs (valR x)) * cosh (valR x)).
Proof. exact sinh_cosh_accurate. Qed.
Print Assumptions C90_sinh_cosh_accurate.
Theorem C90_tanh_accurate : forall x, finite x -> -44 <= valR x <= 43 -> exists r, ftanh x = Ok r /\ finite r /\
  Rabs (valR r - tanh (valR x)) <= bpow radix2 (-20) + bpow radix2 (-22) * Rabs (valR x).
Proof. exact tanh_accurate. Qed.
Print Assumptions C90_tanh_accurate.
(** tanh never leaves [-1, 1] from -44 on, +infinity included. *)
Theorem C90_tanh_range : forall x, is_nan 24 128 x = false -> -44 <= ext32 x -> exists r, ftanh x = Ok r /\ finite r /\ Rabs (valR r) <= 1.
Proof. exact tanh_range. Qed.
Print Assumptions C90_tanh_range.
(** Finding: it is NaN for every argument from -45 down. *)
Theorem C90_tanh_negative_refuted : forall x, is_nan 24 128 x = false -> ext32 x <= -45 -> exists r, ftanh x = Ok r /\ is_nan 24 128 r = true.
Proof. exact tanh_negative. Qed.
Print Assumptions C90_tanh_negative_refuted.
Example C90_case : finite (flit (-3) 2) /\ valR (flit (-3) 2) = -3 / 2 /\ is_nan 24 128 (flit (-45) 1) = false /\ ext32 (flit (-45) 1) <= -45.
Proof. repeat split; try (vm_compute; lra). Qed.
