(** Cube root in binary32: C109. *)
From Coq Require Import ZArith Reals Lra Lia Psatz Bool List.
From Flocq Require Import Core IEEE754.BinarySingleNaN IEEE754.Binary IEEE754.Bits.
From Verif Require Import Base Arith Ext32 Ffmath_Model Ffmath2_Model Ffmath_Spec Ffmath_Proofs Ffmath_Proofs2 Ffmath_Proofs3 Float32 Ffmath_Proofs7 Ffmath_Proofs8 Ffmath_Proofs12 Ffmath_Proofs16 Ffmath_Proofs20 Ffmath_Proofs21.
Open Scope R_scope.

(** ** C109: s is the real cube root of a positive normal x *)
Theorem C109_cbrt : forall x s, is_normal x -> 0 < s -> s * s * s = valR x ->
  finite (cbrt x) /\ Rabs (valR (cbrt x) - s) <= 3 / 100000 * s.
Proof. intros x s N P E. destruct (cbrt_pos x s N P E) as (_ & _ & H). exact H. Qed.
Print Assumptions C109_cbrt.
Theorem C109_rcbrt : forall x s, is_normal x -> 0 < s -> s * s * s = valR x ->
  finite (rCbrt x) /\ Rabs (valR (rCbrt x) - / s) <= 2 / 10000000 * / s.
Proof.
  intros x s N P E. destruct (cbrt_pos x s N P E) as (F & H & _). split; [exact F|].
  assert (0 < / s) by (apply Rinv_0_lt_compat; auto). replace (valR (rCbrt x) - / s) with ((valR (rCbrt x) * s - 1) * / s) by (field; lra).
  rewrite Rabs_mult, (Rabs_pos_eq (/ s)) by lra. apply Rmult_le_compat_r; lra.
Qed.
Print Assumptions C109_rcbrt.
(** NaN stays NaN, zeros keep their sign, the reciprocal of a zero is plus infinity. *)
Theorem C109_special : (forall x, is_nan 24 128 x = true -> is_nan 24 128 (cbrt x) = true /\ is_nan 24 128 (rCbrt x) = true) /\
  (forall s, cbrt (B754_zero 24 128 s) = B754_zero 24 128 s) /\ (forall s, rCbrt (B754_zero 24 128 s) = B754_infinity 24 128 false).
Proof.
  split; [|split; intros []; apply bits_inj; vm_compute; reflexivity].
  intros x N. assert (L : (x <? flit 0 1)%b32 = false) by (apply b32_lt_nan_l; auto).
  assert (Z0 : isZero x = false) by (destruct (isZero x) eqn:Q; auto; apply isZero_ok in Q; destruct Q as (Q & _); destruct x; discriminate). unfold rCbrt, cbrt, compute_cbrt. rewrite Z0, L. cbv zeta beta iota.
  set (z := ofU _). match goal with |- context [(z * ?f)%b32] => set (y := (z * f)%b32) end.
  assert (D : is_nan 24 128 (x * y * y)%b32 = true) by (apply mult_nan_l, mult_nan_l; auto).
  assert (V : is_nan 24 128 (flit 1 1 + flit 1 3 * (flit 1 1 - x * y * y * y))%b32 = true) by (apply plus_nan_r, mult_nan_r, Ffmath_Proofs8.minus_nan_r, mult_nan_l; exact D).
  split; apply mult_nan_l; exact V.
Qed.
Print Assumptions C109_special.
(** Negative arguments: the seed is taken from the bits with the sign still set. The cube root of -8 comes out as zero, its reciprocal below 10^-25 in magnitude. *)
Theorem C109_negative_refuted : exists x, is_normal x /\ valR x = -8 /\ valR (cbrt x) = 0 /\ Rabs (valR (rCbrt x)) <= / 10000000000000000000000000.
Proof.
  exists (ofU 3238002688). assert (V : valR (ofU 3238002688) = -8) by (vm_compute; lra). split; [split; [reflexivity|]|split; [exact V|split; [vm_compute; lra|]]].
  - rewrite V, Rabs_left by lra. apply Rle_trans with (bpow radix2 0); [apply bpow_le; lia|]. change (bpow radix2 0) with 1. lra.
  - apply Rabs_le. vm_compute. lra.
Qed.
Print Assumptions C109_negative_refuted.
(** Plus infinity turns into minus infinity; the least positive subnormal number is off by a factor above a thousand. *)
Theorem C109_infinity_refuted : cbrt (B754_infinity 24 128 false) = B754_infinity 24 128 true /\ rCbrt (B754_infinity 24 128 false) = B754_infinity 24 128 true.
Proof. split; apply bits_inj; vm_compute; reflexivity. Qed.
Print Assumptions C109_infinity_refuted.
Theorem C109_subnormal_refuted : exists x, finite x /\ 0 < valR x /\ forall s, 0 < s -> s * s * s = valR x -> valR (cbrt x) * 1000 < s.
Proof.
  exists (ofU 1). split; [reflexivity|]. split; [vm_compute; lra|]. intros s P E. apply Rnot_le_lt. intros C.
  assert (B : valR (cbrt (ofU 1)) * 1000 <= bpow radix2 (-50)) by (vm_compute; lra).
  assert (S : s * s * s <= bpow radix2 (-50) * bpow radix2 (-50) * bpow radix2 (-50)) by (repeat apply Rmult_le_compat; nra || lra).
  rewrite <- !bpow_plus in S. change (-50 + -50 + -50)%Z with (-150)%Z in S.
  assert (V : valR (ofU 1) = bpow radix2 (-149)) by (vm_compute; lra). rewrite E, V in S. assert (bpow radix2 (-150) < bpow radix2 (-149)) by (apply bpow_lt; lia). lra.
Qed.
Print Assumptions C109_subnormal_refuted.
Example C109_nonvacuous : is_normal (flit 27 8) /\ valR (flit 27 8) = 27 / 8 /\ Rabs (valR (cbrt (flit 27 8)) - 3 / 2) <= 3 / 100000 * (3 / 2).
Proof.
  assert (V : valR (flit 27 8) = 27 / 8) by (vm_compute; lra).
  assert (N : is_normal (flit 27 8)). { split; [reflexivity|]. rewrite V, Rabs_pos_eq by lra. apply Rle_trans with (bpow radix2 0); [apply bpow_le; lia|]. change (bpow radix2 0) with 1. lra. }
  split; [exact N|]. split; [exact V|]. apply (C109_cbrt (flit 27 8) (3 / 2) N); [lra|rewrite V; field].
Qed.
