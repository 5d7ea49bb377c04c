(** The arithmetic the modules using [real_t] (float, qlibs_types.hpp:43) are
    modelled over.  The model of such a module is written once, over an
    arbitrary [arith]; theorems are then stated for every arithmetic, for the
    real numbers [RA] (exact arithmetic: an idealisation without rounding,
    overflow or NaN), or for IEEE-754 binary32 [B32] (round to nearest even, no
    contraction into fused operations, no excess precision).

    The approximations of ffmath used by other modules are the fields of
    [oracles]; in [RA] they are the exact functions, in [B32] they are
    arbitrary. *)
From Coq Require Import ZArith Reals.
From Flocq Require Import IEEE754.Binary IEEE754.Bits.

Record oracles (X : Type) := mkOracles {
  o_exp : X -> X; o_log : X -> X; o_sqrt : X -> X; o_cos : X -> X; o_pow : X -> X -> X }.
Arguments o_exp {X}. Arguments o_log {X}. Arguments o_sqrt {X}. Arguments o_cos {X}. Arguments o_pow {X}.

Record arith := mkArith {
  F : Type;
  lit : Z -> positive -> F;       (** the literal n/d, qlibs_types.hpp:47-54 (correctly rounded; the C++
                                      goes through long double) *)
  fadd : F -> F -> F; fsub : F -> F -> F; fmul : F -> F -> F; fdiv : F -> F -> F;
  fopp : F -> F; fabs : F -> F;
  flt : F -> F -> bool; fle : F -> F -> bool; feq : F -> F -> bool;
  finf : F -> bool;               (** is an infinity *)
  fnan : F;                       (** 0.0/0.0 *)
  real_min : F;                   (** REAL_MIN = FLT_MIN, qlibs_types.hpp:59 *)
  real_max : F;                   (** REAL_MAX = FLT_MAX, qlibs_types.hpp:58 *)
  lib : oracles F }.
Arguments lit {a}. Arguments fadd {a}. Arguments fsub {a}. Arguments fmul {a}. Arguments fdiv {a}.
Arguments fopp {a}. Arguments fabs {a}. Arguments flt {a}. Arguments fle {a}. Arguments feq {a}.
Arguments finf {a}. Arguments fnan {a}. Arguments real_min {a}. Arguments real_max {a}. Arguments lib {a}.

Declare Scope fl_scope.
Delimit Scope fl_scope with fl.
Infix "+" := fadd : fl_scope.
Infix "-" := fsub : fl_scope.
Infix "*" := fmul : fl_scope.
Infix "/" := fdiv : fl_scope.
Notation "- x" := (fopp x) : fl_scope.
Infix "<?" := flt : fl_scope.
Infix "<=?" := fle : fl_scope.
Notation "x >? y" := (flt y x) (only parsing) : fl_scope.
Notation "x >=? y" := (fle y x) (only parsing) : fl_scope.
Infix "=?" := feq : fl_scope.

(** x != x *)
Definition fisnan {A : arith} (x : F A) : bool := negb (feq x x).

(** ** Exact arithmetic *)

Definition Rltb (x y : R) : bool := if Rlt_dec x y then true else false.
Definition Rleb (x y : R) : bool := if Rle_dec x y then true else false.
Definition Reqb (x y : R) : bool := if Req_EM_T x y then true else false.

Definition RA : arith := {|
  F := R; lit n d := (IZR n / IZR (Zpos d))%R;
  fadd := Rplus; fsub := Rminus; fmul := Rmult; fdiv := Rdiv; fopp := Ropp; fabs := Rabs;
  flt := Rltb; fle := Rleb; feq := Reqb; finf _ := false; fnan := 0%R;
  real_min := (/ 2 ^ 126)%R; real_max := ((2 - / 2 ^ 23) * 2 ^ 127)%R;
  lib := {| o_exp := exp; o_log := ln; o_sqrt := sqrt; o_cos := cos; o_pow := Rpower |} |}.

(** ** IEEE-754 binary32 *)

Definition b32_ofZ (n : Z) : binary32 := binary_normalize 24 128 eq_refl eq_refl BinarySingleNaN.mode_NE n 0 false.

Definition b32_lt (x y : binary32) : bool := match b32_compare x y with Some Lt => true | _ => false end.
Definition b32_le (x y : binary32) : bool := match b32_compare x y with Some Lt | Some Eq => true | _ => false end.
Definition b32_eq (x y : binary32) : bool := match b32_compare x y with Some Eq => true | _ => false end.
Definition b32_inf (x : binary32) : bool := match x with B754_infinity _ _ _ => true | _ => false end.

Definition B32 (o : oracles binary32) : arith := {|
  F := binary32; lit n d := b32_div BinarySingleNaN.mode_NE (b32_ofZ n) (b32_ofZ (Zpos d));
  fadd := b32_plus BinarySingleNaN.mode_NE; fsub := b32_minus BinarySingleNaN.mode_NE; fmul := b32_mult BinarySingleNaN.mode_NE; fdiv := b32_div BinarySingleNaN.mode_NE;
  fopp := b32_opp; fabs := b32_abs;
  flt := b32_lt; fle := b32_le; feq := b32_eq; finf := b32_inf; fnan := b32_of_bits 2143289344;
  real_min := b32_of_bits 8388608; real_max := b32_of_bits 2139095039;
  lib := o |}.
