(** Final theorems about the Q16.16 fixed-point numbers (C23..C31). *)
From Coq Require Import ZArith List Bool Lia QArith.
From Verif Require Import Base Fp16_Model Fp16_Spec Fp16_Proofs Fp16_Proofs2 Fp16_Proofs3.
Import ListNotations.
Open Scope Z_scope.

(** C23 *)
Theorem C23_add_exact_or_flagged : forall x y, raw x -> raw y ->
  (raw (x + y) -> add x y = x + y) /\ (~ raw (x + y) -> add x y = sentinel).
Proof. exact add_spec. Qed.
Print Assumptions C23_add_exact_or_flagged.

Theorem C23_sub_exact_or_flagged : forall x y, raw x -> raw y ->
  (raw (x - y) -> sub x y = x - y) /\ (~ raw (x - y) -> sub x y = sentinel).
Proof. exact sub_spec. Qed.
Print Assumptions C23_sub_exact_or_flagged.

Example C23_example : raw 2147483647 /\ raw 1 /\ add 2147483647 1 = sentinel /\ add (-3) 5 = 2 /\ sub (-2147483647) 2 = sentinel.
Proof. unfold raw. repeat split; try lia; vm_compute; reflexivity. Qed.

(** C24.  [nearest (x * y) 65536 r]: r is the product rounded to the nearest
    representable step, ties away from zero. *)
Theorem C24_mul_correct : forall x y r, raw x -> raw y ->
  (x < 0 <= y \/ y < 0 <= x \/ Z.abs x + Z.abs y <= 2 ^ 31 - 2 ^ 17) -> nearest (x * y) 65536 r ->
  (- 2 ^ 31 < r < 2 ^ 31 -> mul x y = Ok r) /\
  (r = 2 ^ 31 \/ r = - 2 ^ 31 -> mul x y = Ub \/ mul x y = Ok sentinel) /\
  (r < - 2 ^ 31 \/ 2 ^ 31 < r -> mul x y = Ok sentinel).
Proof. exact mul_correct. Qed.
Print Assumptions C24_mul_correct.

Theorem C24_mul_correct_nonnegative : forall x y r, 0 <= x < 2 ^ 31 -> 0 <= y < 2 ^ 31 ->
  nearest (x * y) 65536 r -> r < 2 ^ 31 -> mul x y = Ok r.
Proof. exact mul_nonneg. Qed.
Print Assumptions C24_mul_correct_nonnegative.

(** The rounding specification is met by exactly one number. *)
Theorem C24_nearest_functional : forall n d r r', d <> 0 -> nearest n d r -> nearest n d r' -> r = r'.
Proof. exact nearest_unique. Qed.
Print Assumptions C24_nearest_functional.

(** Outside those operands the product can be wrong: an overflow that is not
    flagged, a representable product flagged as overflow, and an undefined one. *)
Theorem C24_mul_refuted :
  (exists x y r, raw x /\ raw y /\ nearest (x * y) 65536 r /\ 2 ^ 31 <= r /\ mul x y = Ok 2147450877) /\
  (exists x y r, raw x /\ raw y /\ nearest (x * y) 65536 r /\ - 2 ^ 31 < r < 2 ^ 31 /\ mul x y = Ok sentinel) /\
  (exists x y, raw x /\ raw y /\ mul x y = Ub).
Proof. exact mul_wrong. Qed.
Print Assumptions C24_mul_refuted.

Example C24_example : raw 98304 /\ raw (-163840) /\ (98304 < 0 <= -163840 \/ -163840 < 0 <= 98304 \/ False) /\
  nearest (98304 * -163840) 65536 (-245760) /\ mul 98304 (-163840) = Ok (-245760).
Proof. unfold raw, nearest. repeat split; try lia; try (vm_compute; reflexivity). Qed.

(** C25 *)
Theorem C25_div_correct : forall x y r, raw x -> raw y -> y <> 0 -> x <> sentinel -> y <> sentinel ->
  nearest (x * 65536) y r ->
  (- 2 ^ 31 < r < 2 ^ 31 -> div x y = Ok r) /\
  (r = - 2 ^ 31 -> div x y = if Z.abs x <=? 2 ^ 15 * Z.abs y then Ub else Ok sentinel) /\
  (r < - 2 ^ 31 \/ 2 ^ 31 <= r -> div x y = Ok sentinel).
Proof. exact div_correct. Qed.
Print Assumptions C25_div_correct.

Theorem C25_div_by_zero : forall x, div x 0 = Ok (-2147483647).
Proof. exact div_zero. Qed.
Print Assumptions C25_div_by_zero.

Theorem C25_div_of_sentinel : forall x y, raw x -> raw y -> y <> 0 -> x = sentinel \/ y = sentinel -> div x y = Ub.
Proof. exact div_sentinel. Qed.
Print Assumptions C25_div_of_sentinel.

Example C25_example : nearest (65536 * 65536) 196608 21845 /\ div 65536 196608 = Ok 21845 /\
  nearest (-65536 * 65536) 2 (- 2 ^ 31) /\ div (-65536) 2 = Ub.
Proof. unfold nearest. repeat split; try lia; vm_compute; reflexivity. Qed.

(** C26 *)
Theorem C26_int_round_trip : forall k, -32767 <= k <= 32767 -> toInt (fromInt k) = Ok k /\ fromInt k = k * 65536.
Proof. exact int_trip. Qed.
Print Assumptions C26_int_round_trip.

Theorem C26_toInt_rounds : forall x r, raw x -> nearest x 65536 r ->
  (Z.abs x < 2 ^ 31 - 2 ^ 15 -> toInt x = Ok r) /\
  (2 ^ 31 - 2 ^ 15 <= x \/ x < - 2 ^ 31 + 2 ^ 15 -> toInt x = Ub).
Proof. exact toInt_spec. Qed.
Print Assumptions C26_toInt_rounds.

(** floor and ceil: the multiples of 1.0 next to the argument. *)
Theorem C26_floor : forall x, raw x -> exists k, floor x = k * 65536 /\ floor x <= x < floor x + 65536.
Proof. exact floor_spec. Qed.
Print Assumptions C26_floor.

Theorem C26_ceil : forall x, raw x ->
  (x <= 32767 * 65536 -> exists c k, ceil x = Ok c /\ c = k * 65536 /\ c - 65536 < x <= c) /\
  (32767 * 65536 < x -> ceil x = Ub).
Proof. exact ceil_spec. Qed.
Print Assumptions C26_ceil.

(** The lowest 16-bit integer does not survive, and rounding adds 1.0 instead of rounding. *)
Theorem C26_int_round_trip_refuted : fromInt (-32768) = -2147483648 /\ toInt (fromInt (-32768)) = Ub.
Proof. exact int_trip_low. Qed.
Print Assumptions C26_int_round_trip_refuted.

Theorem C26_rounding_refuted : exists x r, raw x /\ nearest x 65536 r /\ rounding x <> Ok (r * 65536).
Proof. exact rounding_wrong. Qed.
Print Assumptions C26_rounding_refuted.

Example C26_example : toInt (-98304) = Ok (-2) /\ floor (-98304) = -131072 /\ ceil (-98304) = Ok (-65536) /\ fromInt 3 = 196608.
Proof. repeat split; vm_compute; reflexivity. Qed.

(** C27 *)
Theorem C27_comparisons_are_rational_order : forall x y,
  (flt x y = true <-> (valq x < valq y)%Q) /\ (fle x y = true <-> (valq x <= valq y)%Q) /\
  (fgt x y = true <-> (valq y < valq x)%Q) /\ (fge x y = true <-> (valq y <= valq x)%Q) /\
  (feq x y = true <-> (valq x == valq y)%Q) /\ (fne x y = true <-> ~ (valq x == valq y)%Q).
Proof. exact comparisons. Qed.
Print Assumptions C27_comparisons_are_rational_order.

Theorem C27_abs_and_neg : forall x, raw x ->
  (- 2 ^ 31 + 1 < x -> absolute x = Ok (Z.abs x)) /\ (x <> sentinel -> neg x = Ok (- x)) /\
  (x = - 2 ^ 31 + 1 -> absolute x = Ok sentinel) /\ (x = sentinel -> absolute x = Ub /\ neg x = Ub).
Proof. exact abs_neg. Qed.
Print Assumptions C27_abs_and_neg.

Example C27_example : flt (-65536) 1 = true /\ (valq (-65536) < valq 1)%Q /\ absolute (-65536) = Ok 65536.
Proof. repeat split; vm_compute; reflexivity. Qed.

(** C28.  205887 and 411775 are the constants pi and 2 pi of the class. *)
Theorem C28_wrapToPi : forall x, raw x ->
  exists x', wrapToPi x = Ok x' /\ -205887 <= x' <= 205888 /\
    (exists k, x' = x - k * 411775) /\ (-205887 <= x <= 205887 -> x' = x).
Proof. exact wrapToPi_ok. Qed.
Print Assumptions C28_wrapToPi.

Theorem C28_wrapTo180 : forall x, raw x ->
  exists x', wrapTo180 x = Ok x' /\ -180 * 65536 <= x' <= 180 * 65536 /\
    (exists k, x' = x - k * (360 * 65536)) /\ (-180 * 65536 <= x <= 180 * 65536 -> x' = x).
Proof. exact wrapTo180_ok. Qed.
Print Assumptions C28_wrapTo180.

(** wrapToPi can exceed pi by one unit in the last place. *)
Theorem C28_wrapToPi_within_pi_refuted : exists x, raw x /\ wrapToPi x = Ok 205888.
Proof. exact wrapToPi_beyond. Qed.
Print Assumptions C28_wrapToPi_within_pi_refuted.

Example C28_example : raw 1000000 /\ wrapToPi 1000000 = Ok 176450 /\ wrapTo180 (190 * 65536) = Ok (-170 * 65536).
Proof. unfold raw. repeat split; try lia; vm_compute; reflexivity. Qed.

(** C29.  The exact root of x/65536 is sqrt(65536 x)/65536. *)
Theorem C29_sqrt_rounded : forall x s, 1 <= x < 2 ^ 30 -> 0 <= s -> s * s <= x < (s + 1) * (s + 1) ->
  (x - s * s < 2 ^ 15 -> exists r, sqrt x = Ok r /\ nearest_root (x * 65536) r) /\
  (2 ^ 15 <= x - s * s -> sqrt x = Ok (256 * s)).
Proof. exact sqrt_spec. Qed.
Print Assumptions C29_sqrt_rounded.

Theorem C29_sqrt_below_4096 : forall x, 1 <= x < 2 ^ 28 -> exists r, sqrt x = Ok r /\ nearest_root (x * 65536) r.
Proof. exact sqrt_small. Qed.
Print Assumptions C29_sqrt_below_4096.

Theorem C29_sqrt_non_positive : forall x, - 2 ^ 31 < x <= 0 -> sqrt x = Ok (-2147483647).
Proof. exact sqrt_nonpos. Qed.
Print Assumptions C29_sqrt_non_positive.

(** From 4096.0 on the root may be truncated, and from 16384.0 on it may be
    wrong, negative or undefined. *)
Theorem C29_sqrt_refuted :
  (exists x r, 2 ^ 28 <= x < 2 ^ 30 /\ sqrt x = Ok r /\ ~ nearest_root (x * 65536) r) /\
  (exists x r, 2 ^ 30 <= x < 2 ^ 31 /\ sqrt x = Ok r /\ r < 0) /\
  (exists x, 2 ^ 30 <= x < 2 ^ 31 /\ sqrt x = Ub).
Proof. exact sqrt_wrong. Qed.
Print Assumptions C29_sqrt_refuted.

Example C29_example : 1 <= 131072 < 2 ^ 28 /\ sqrt 131072 = Ok 92682 /\ nearest_root (131072 * 65536) 92682.
Proof. unfold nearest_root. repeat split; try lia; try (vm_compute; reflexivity). Qed.

(** C30.  [shown decimals] is the number of decimals clamped to 0..5.  The bytes
    are an optional minus sign, the integer digits without superfluous leading
    zero, the point and the decimals, and the terminator. *)
Theorem C30_toASCII : forall num decimals, raw num -> num <> sentinel ->
  exists ip fp,
    toASCII num decimals = Ok ((if num <? 0 then [45] else []) ++ ip ++ (if shown decimals =? 0 then [] else 46 :: fp) ++ [0]) /\
    Forall is_digit ip /\ Forall is_digit fp /\ (1 <= length ip <= 5)%nat /\ (ip = [48] \/ hd 0 ip <> 48) /\
    Z.of_nat (length fp) = shown decimals /\
    nearest (Z.abs num * 10 ^ shown decimals) 65536 (digits_value 0 (ip ++ fp)).
Proof. exact toASCII_ok. Qed.
Print Assumptions C30_toASCII.

Theorem C30_toASCII_length : forall num decimals, raw num ->
  exists bytes, toASCII num decimals = Ok bytes /\ (2 <= length bytes <= 13)%nat /\ last bytes 1 = 0.
Proof. exact toASCII_length. Qed.
Print Assumptions C30_toASCII_length.

Theorem C30_toASCII_overflow : forall decimals, toASCII sentinel decimals = Ok [111; 118; 101; 114; 102; 108; 111; 119; 0].
Proof. exact toASCII_sentinel. Qed.
Print Assumptions C30_toASCII_overflow.

(** -12.3457 *)
Example C30_example : raw (-809087) /\ toASCII (-809087) 4 = Ok [45; 49; 50; 46; 51; 52; 53; 55; 0].
Proof. unfold raw. split; [lia | vm_compute; reflexivity]. Qed.

(** C31 *)
Theorem C31_exp_saturates : forall x, raw x ->
  (681391 <= x -> exp x = Ok 2147483647) /\ (x <= -681391 -> exp x = Ok 0) /\ (x = 0 -> exp x = Ok 65536).
Proof. exact exp_special. Qed.
Print Assumptions C31_exp_saturates.

Theorem C31_log_of_non_positive : forall x, x <= 0 -> log x = Ok sentinel /\ log2 x = Ok sentinel.
Proof. exact log_nonpos. Qed.
Print Assumptions C31_log_of_non_positive.

(** tanh, cosh and sinh saturate. *)
Theorem C31_hyperbolic_saturates : forall x, raw x ->
  (425984 < x -> tanh x = Ok 65536) /\ (x < -425984 -> tanh x = Ok (-65536)) /\
  (681391 <= Z.abs x -> cosh x = Ok 2147483647) /\
  (681391 <= x -> sinh x = Ok 2147483647) /\ (x <= -681391 -> sinh x = Ok (-2147483647)).
Proof. exact hyperbolic_special. Qed.
Print Assumptions C31_hyperbolic_saturates.

(** Integer powers of two: log2 is exact. *)
Theorem C31_log2_of_powers_of_two : forall k, -16 <= k <= 14 -> k <> -15 -> log2 (2 ^ (k + 16)) = Ok (k * 65536).
Proof. exact log2_pow2. Qed.
Print Assumptions C31_log2_of_powers_of_two.

(** Values at which the functions do not return what they stand for:
    sinh 0 = 1, asin 1 = 0, acos 1 = pi/2, atan2 undefined for a representable
    argument, log2 of 2^-15 (whose reciprocal overflows) = 0, and the square root of a negative base taken by pow. *)
Theorem C31_special_values_refuted :
  sinh 0 = Ok 65536 /\ asin 65536 = Ok (-1) /\ acos 65536 = Ok 102945 /\ atan2 2147483647 65536 = Ub /\ log2 2 = Ok 0 /\
  exists r, pow (-65536 * 4) 32768 = Ok r /\ r < 0.
Proof. exact special_wrong. Qed.
Print Assumptions C31_special_values_refuted.

Example C31_example : raw 700000 /\ exp 700000 = Ok 2147483647 /\ log2 (2 ^ 20) = Ok (4 * 65536).
Proof. unfold raw. repeat split; try lia; vm_compute; reflexivity. Qed.
