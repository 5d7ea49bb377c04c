(** Conversions of src/fp16.cpp between Q16.16 and floating point.  The float and
    the double versions have the same text, so they are written once over the
    precision and exponent range of an IEEE-754 format and instantiated twice.
    Arithmetic is round-to-nearest-even; no excess precision. *)
From Coq Require Import ZArith Bool.
From Flocq Require Import Core IEEE754.BinarySingleNaN IEEE754.Binary IEEE754.Bits.
From Verif Require Import Base Fp16_Model.
Open Scope Z_scope.

Section Format.
Variables prec emax : Z.
Context (Hp : Prec_gt_0 prec) (He : Prec_lt_emax prec emax).
Variable nanop : binary_float prec emax -> binary_float prec emax -> { x : binary_float prec emax | is_nan prec emax x = true }.
Notation fl := (binary_float prec emax).

(** static_cast<float>( int ) *)
Definition ofZ (n : Z) : fl := binary_normalize prec emax Hp He mode_NE n 0 false.
(** the literals 2^e; 0.0000152587890625 is 2^-16, 0.5 is 2^-1 *)
Definition pow2 (e : Z) : fl := binary_normalize prec emax Hp He mode_NE 1 e false.
Definition mul_f (x y : fl) : fl := Bmult prec emax Hp He nanop mode_NE x y.
Definition add_f (x y : fl) : fl := Bplus prec emax Hp He nanop mode_NE x y.
(** x >= 0 *)
Definition ge0 (x : fl) : bool := match Bcompare prec emax x (ofZ 0) with Some Gt | Some Eq => true | _ => false end.
(** static_cast<int32_t>( x ): truncation, undefined unless the truncated value fits *)
Definition toZ (x : fl) : res Z :=
  match x with
  | B754_zero _ _ _ => Ok 0
  | B754_finite _ _ s m e _ => let a := if 0 <=? e then Zpos m * 2 ^ e else Zpos m / 2 ^ (- e) in i32 (if s then - a else a)
  | _ => Ub
  end.

(** fp16.cpp:58-70 *)
Definition to_f (v : Z) : fl := mul_f (ofZ v) (pow2 (-16)).
(** fp16.cpp:77-99; the negative constant -0.5 is [ofZ (-1) * 2^-1] *)
Definition round_f (f : fl) : fl := add_f f (if ge0 f then pow2 (-1) else mul_f (ofZ (-1)) (pow2 (-1))).
Definition from_f (x : fl) : res Z :=
  let f := mul_f x (ofZ one) in
  toZ (if flag_rounding then round_f f else f).
(** operator"" _fp( long double ): fp16.hpp:591-594, after the conversion of the literal to double *)
Definition lit_f (x : fl) : res Z := toZ (round_f (mul_f x (ofZ 65536))).
End Format.

(** fp16.cpp:58-64, 66-70 *)
Definition toFloat : Z -> binary32 := to_f 24 128 eq_refl eq_refl binop_nan_pl32.
Definition toDouble : Z -> binary64 := to_f 53 1024 eq_refl eq_refl binop_nan_pl64.
(** fp16.cpp:77-87, 89-99 *)
Definition fromFloat : binary32 -> res Z := from_f 24 128 eq_refl eq_refl binop_nan_pl32.
Definition fromDouble : binary64 -> res Z := from_f 53 1024 eq_refl eq_refl binop_nan_pl64.
(** fp16.hpp:591-594 and 595-598 *)
Definition fp_literal : binary64 -> res Z := lit_f 53 1024 eq_refl eq_refl binop_nan_pl64.
Definition fp_int_literal (val : Z) : Z := s32 (u32 (Z.shiftl (u32 val) 16)).

(** ** The constants of fp16.cpp:5-17; each literal as the bits of the nearest double *)
Definition FP_E : res Z := fp_literal (b64_of_bits 4613303445314885481).        (* 2.718281828459045235360_fp *)
Definition FP_LOG2E : res Z := fp_literal (b64_of_bits 4609176140021203710).    (* 1.442695040888963407360_fp *)
Definition FP_LOG10E : res Z := fp_literal (b64_of_bits 4601495173785380110).   (* 0.434294481903251827651_fp *)
Definition FP_LN2 : res Z := fp_literal (b64_of_bits 4604418534313441775).      (* 0.693147180559945309417_fp *)
Definition FP_LN10 : res Z := fp_literal (b64_of_bits 4612367379483415830).     (* 2.302585092994045684020_fp *)
Definition FP_PI : res Z := fp_literal (b64_of_bits 4614256656552045848).       (* 3.141592653589793238460_fp *)
Definition FP_PI_2 : res Z := fp_literal (b64_of_bits 4609753056924675352).     (* 1.570796326794896619230_fp *)
Definition FP_PI_4 : res Z := fp_literal (b64_of_bits 4605249457297304856).     (* 0.785398163397448309616_fp *)
Definition FP_1_PI : res Z := fp_literal (b64_of_bits 4599405781057128579).     (* 0.318309886183790671538_fp *)
Definition FP_2_PI : res Z := fp_literal (b64_of_bits 4603909380684499075).     (* 0.636619772367581343076_fp *)
Definition FP_2_SQRTPI : res Z := fp_literal (b64_of_bits 4607760587169110893). (* 1.128379167095512573900_fp *)
Definition FP_SQRT2 : res Z := fp_literal (b64_of_bits 4609047870845172685).    (* 1.414213562373095048800_fp *)
Definition FP_SQRT1_2 : res Z := fp_literal (b64_of_bits 4604544271217802189).  (* 0.707106781186547524401_fp *)
