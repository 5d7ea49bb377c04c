(** Properties C66-C68 of src/ffmath.cpp: rounding to integers, classes, signs,
    neighbours and exponents of binary32 floats. *)
From Coq Require Import ZArith Reals Lra Lia Bool.
From Flocq Require Import Core IEEE754.BinarySingleNaN IEEE754.Binary IEEE754.Bits.
From Verif Require Import Base Arith Ext32 Bits32 Ffmath_Model Ffmath_Spec Ffmath_Proofs Ffmath_Proofs2 Ffmath_Proofs3.
Open Scope Z_scope.

(** ** C66: floor, ceil, trunc, rounding *)

(** For each of the 2^32 floats, the four functions are free of undefined
    behaviour and return the float holding the mathematical result; -0, the
    infinities and NaN come back unchanged. *)
Theorem C66_floor : forall x, exists r, floor x = Ok r /\ integral is_floor x r.
Proof. intros x. destruct (patterned x) as (s & E & M & -> & _ & HE & HM). apply floor_pat; auto. Qed.
Print Assumptions C66_floor.
Theorem C66_ceil : forall x, exists r, ceil x = Ok r /\ integral is_ceil x r.
Proof. intros x. destruct (patterned x) as (s & E & M & -> & _ & HE & HM). apply ceil_pat; auto. Qed.
Print Assumptions C66_ceil.
Theorem C66_trunc : forall x, integral is_trunc x (trunc x).
Proof. intros x. destruct (patterned x) as (s & E & M & -> & _ & HE & HM). apply trunc_pat; auto. Qed.
Print Assumptions C66_trunc.
Theorem C66_rounding : forall x, exists r, rounding x = Ok r /\ integral is_round x r.
Proof. intros x. destruct (patterned x) as (s & E & M & -> & _ & HE & HM). apply rounding_pat; auto. Qed.
Print Assumptions C66_rounding.

(** -2.5 and its images: patterns 0xC0200000, 0xC0400000 (-3), 0xC0000000 (-2). *)
Example C66_case : let x := ofU 3223322624 in let bits r := match r with Ok v => Some (asU v) | Ub => None end in
  is_finite 24 128 x = true /\ bits (floor x) = Some 3225419776 /\ bits (ceil x) = Some 3221225472 /\
  asU (trunc x) = 3221225472 /\ bits (rounding x) = Some 3225419776.
Proof. vm_compute. repeat split. Qed.

(** ** C67: classes, signs, neighbours *)

Theorem C67_classify : forall x,
  (classify x = FFP_ZERO <-> is_zero x) /\ (classify x = FFP_SUBNORMAL <-> is_subnormal x) /\ (classify x = FFP_NORMAL <-> is_normal x) /\
  (classify x = FFP_INFINITE <-> is_infinity x) /\ (classify x = FFP_NAN <-> is_nan 24 128 x = true).
Proof. exact classify_ok. Qed.
Print Assumptions C67_classify.

Theorem C67_predicates : forall x,
  (isNan x = true <-> is_nan 24 128 x = true) /\ (isInf x = true <-> is_infinity x) /\
  (isFinite x = true <-> finite x) /\ (isNormal x = true <-> is_normal x).
Proof.
  intros x. destruct (classify_ok x) as (H1 & H2 & H3 & H4 & H5). rewrite <- H3, <- H4, <- H5.
  assert (H : finite x <-> (classify x = FFP_ZERO \/ classify x = FFP_SUBNORMAL \/ classify x = FFP_NORMAL)).
  { split.
    - intros Fx. destruct (classify x) eqn:C; auto; exfalso.
      + destruct H4 as [H4 _]. destruct (H4 eq_refl) as (s & ->). discriminate.
      + destruct H5 as [H5 _]. specialize (H5 eq_refl). destruct x; discriminate.
    - intros [C|[C|C]]; [apply H1 in C|apply H2 in C|apply H3 in C]; apply C. }
  rewrite H. unfold isNan, isInf, isFinite, isNormal. destruct (classify x); intuition (auto; discriminate).
Qed.
Print Assumptions C67_predicates.

(** copysign takes the sign of its second argument and leaves everything else of
    the first: class, magnitude and, for a NaN, the payload. *)
Theorem C67_copysign : forall mag sgn, let r := copysign mag sgn in
  Bsign 24 128 r = Bsign 24 128 sgn /\ is_nan 24 128 r = is_nan 24 128 mag /\ is_finite 24 128 r = is_finite 24 128 mag /\
  Rabs (valR r) = Rabs (valR mag) /\ bits_of_b32 r mod 2 ^ 31 = bits_of_b32 mag mod 2 ^ 31.
Proof. exact copysign_ok. Qed.
Print Assumptions C67_copysign.

Theorem C67_absf : forall x, Bsign 24 128 (absf x) = false /\ is_nan 24 128 (absf x) = is_nan 24 128 x /\
  is_finite 24 128 (absf x) = is_finite 24 128 x /\ valR (absf x) = Rabs (valR x) /\ ext32 (absf x) = Rabs (ext32 x).
Proof. exact absf_ok. Qed.
Print Assumptions C67_absf.

(** sign is the signum function, NaN for NaN ([ext32] is the value of a float,
    with the infinities at +-2^128). *)
Theorem C67_sign : forall x,
  (is_nan 24 128 x = true -> is_nan 24 128 (sign x) = true) /\
  (is_nan 24 128 x = false -> finite (sign x) /\
     ((0 < ext32 x)%R -> valR (sign x) = 1%R) /\ ((ext32 x < 0)%R -> valR (sign x) = (-1)%R) /\ (ext32 x = 0%R -> valR (sign x) = 0%R)).
Proof. exact sign_ok. Qed.
Print Assumptions C67_sign.

(** nextAfter(x, y): y itself when the two are equal; else the float next to x on
    the side of y, with no float strictly in between; NaN as soon as one is NaN. *)
Theorem C67_nextAfter : forall x y, is_nan 24 128 x = false -> is_nan 24 128 y = false -> let r := nextAfter x y in
  is_nan 24 128 r = false /\
  (ext32 x = ext32 y -> r = y)%R /\
  ((ext32 x < ext32 y)%R -> (ext32 x < ext32 r <= ext32 y)%R /\ forall z, is_nan 24 128 z = false -> (ext32 x < ext32 z -> ext32 r <= ext32 z)%R) /\
  ((ext32 y < ext32 x)%R -> (ext32 y <= ext32 r < ext32 x)%R /\ forall z, is_nan 24 128 z = false -> (ext32 z < ext32 x -> ext32 z <= ext32 r)%R).
Proof. exact next_ok. Qed.
Print Assumptions C67_nextAfter.
Theorem C67_nextAfter_nan : forall x y, is_nan 24 128 x = true \/ is_nan 24 128 y = true -> is_nan 24 128 (nextAfter x y) = true.
Proof. exact next_nan. Qed.
Print Assumptions C67_nextAfter_nan.

(** From the smallest negative subnormal up to 1: -0; from FLT_MAX up to infinity: infinity. *)
Example C67_case : asU (nextAfter (ofU 2147483649) (flit 1 1)) = 2147483648 /\ asU (nextAfter limMax limInf) = 2139095040 /\
  is_nan 24 128 (ofU 2147483649) = false /\ classify (ofU 2147483649) = FFP_SUBNORMAL /\ asU (copysign limMax (ofU 2147483649)) = 4286578687 /\
  asU (sign (ofU 2147483649)) = 3212836864.
Proof. vm_compute. repeat split. Qed.

(** ** C68: rexp and ldexp *)

(** For every normal float: a significand in [1/2, 1) with the sign of x, and an
    exponent, whose product is x and from which ldexp restores x exactly. *)
Theorem C68_rexp : forall x, is_normal x -> let (r, e) := rexp x in
  finite r /\ Bsign 24 128 r = Bsign 24 128 x /\ (1 / 2 <= Rabs (valR r) < 1)%R /\ (valR x = valR r * bpow radix2 e)%R /\ ldexp r e = Ok x.
Proof. exact rexp_ok. Qed.
Print Assumptions C68_rexp.

(** ldexp multiplies by 2^k exactly while argument and product are normal. *)
Theorem C68_ldexp : forall x k, is_normal x -> (bpow radix2 (-126) <= Rabs (valR x) * bpow radix2 k < bpow radix2 128)%R ->
  exists r, ldexp x k = Ok r /\ is_normal r /\ (valR r = valR x * bpow radix2 k)%R.
Proof. exact ldexp_ok. Qed.
Print Assumptions C68_ldexp.

(** Otherwise it neither saturates nor underflows: only k modulo 256 counts. *)
Theorem C68_ldexp_wraps : forall x k j, - 2 ^ 31 <= k -> - 2 ^ 31 <= k + 256 * j -> k < 2 ^ 31 - 255 -> k + 256 * j < 2 ^ 31 - 255 ->
  ldexp x (k + 256 * j) = ldexp x k.
Proof. exact ldexp_wraps. Qed.
Print Assumptions C68_ldexp_wraps.

(** So 1 * 2^200 is not large, and zero and the subnormals are not decomposed. *)
Theorem C68_refuted :
  (exists r, ldexp (flit 1 1) 200 = Ok r /\ is_normal r /\ (valR r < 1)%R) /\
  (exists x, finite x /\ valR x = 0%R /\ let (r, e) := rexp x in (valR r * bpow radix2 e <> valR x)%R) /\
  (exists x, is_subnormal x /\ let (r, e) := rexp x in (valR r * bpow radix2 e <> valR x)%R) /\
  (exists x r, finite x /\ valR x = 0%R /\ ldexp x 1 = Ok r /\ valR r <> 0%R).
Proof.
  split; [|split; [|split]].
  - exists (pat false 71 0). assert (flit 1 1 = pat false 127 0) as -> by (apply B2FF_inj; vm_compute; reflexivity).
    rewrite ldexp_pat by (unfold T23, T31; lia). split; [f_equal|].
    pose proof (mag_bounds 71 0 ltac:(lia) ltac:(unfold T23; lia)) as (B1 & B2).
    split; [split; [rewrite pat_finite by (unfold T23; lia); reflexivity|rewrite abs_pat by (unfold T23; lia); apply Rle_trans with (2 := B1); apply bpow_le; lia]|].
    rewrite pat_R by (unfold T23; lia). cbn [sgnR]. rewrite Rmult_1_l. apply Rlt_le_trans with (1 := B2). change 1%R with (bpow radix2 0). apply bpow_le. lia.
  - exists (pat false 0 0). rewrite pat_finite, pat_R, rexp_pat, mag_0_0 by (unfold T23; lia). repeat split; [cbn; lra|].
    rewrite pat_R by (unfold T23; lia). pose proof (mag_bounds 126 0 ltac:(lia) ltac:(unfold T23; lia)) as (B1 & B2). pose proof (bpow_pos (126 - 127)). pose proof (bpow_pos (0 - 126)).
    cbn [sgnR]. rewrite Rmult_0_r. apply Rgt_not_eq. apply Rmult_lt_0_compat; lra.
  - exists (pat false 0 1). unfold is_subnormal. rewrite pat_finite, abs_pat, pat_R, rexp_pat by (unfold T23; lia). pose proof (mag_small 1 ltac:(unfold T23; lia)).
    pose proof (mag_pos 0 1 ltac:(lia) ltac:(lia) ltac:(lia)). repeat split; auto.
    rewrite pat_R by (unfold T23; lia). pose proof (mag_bounds 126 1 ltac:(lia) ltac:(unfold T23; lia)) as (B1 & B2).
    cbn [sgnR]. intros K. rewrite !Rmult_1_l in K. assert (bpow radix2 (126 - 127) * bpow radix2 (0 - 126) <= mag 0 1)%R by (rewrite <- K; apply Rmult_le_compat_r; [left; apply bpow_pos|auto]).
    rewrite <- bpow_plus in H1. unfold mag in H1. cbn [Z.eqb] in H1. rewrite Rmult_1_l in H1. apply le_bpow in H1. lia.
  - exists (pat false 0 0), (pat false 1 0). rewrite pat_finite, !pat_R, ldexp_pat, mag_0_0 by (unfold T23, T31; lia). repeat split; [cbn; lra|].
    pose proof (mag_pos 1 0 ltac:(lia) ltac:(lia) ltac:(unfold T23; lia)). cbn [sgnR]. lra.
Qed.
Print Assumptions C68_refuted.

(** 1536 = 0.75 * 2^11 *)
Example C68_case : classify (ofU 1153433600) = FFP_NORMAL /\ asU (fst (rexp (ofU 1153433600))) = 1061158912 /\ snd (rexp (ofU 1153433600)) = 11 /\
  match ldexp (ofU 1061158912) 11 with Ok r => asU r = 1153433600 | Ub => False end.
Proof. vm_compute. repeat split. Qed.
