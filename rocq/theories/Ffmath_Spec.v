(** Specification of the functions of ffmath that work on the representation:
    what is meant by the floor, ... of a number, and by the IEEE-754 classes. *)
From Coq Require Import ZArith Reals.
From Flocq Require Import Core IEEE754.Binary IEEE754.Bits.
Open Scope R_scope.

Notation finite x := (is_finite 24 128 x = true).
Notation valR x := (B2R 24 128 x).

(** n is the floor, the ceiling, the truncation of v, and v rounded to the nearest
    integer, halves away from zero *)
Definition is_floor (v : R) (n : Z) : Prop := IZR n <= v < IZR n + 1.
Definition is_ceil (v : R) (n : Z) : Prop := IZR n - 1 < v <= IZR n.
Definition is_trunc (v : R) (n : Z) : Prop := 0 <= IZR n * v /\ Rabs (IZR n) <= Rabs v < Rabs (IZR n) + 1.
Definition is_round (v : R) (n : Z) : Prop := 0 <= IZR n * v /\ Rabs (IZR n) - 1 / 2 <= Rabs v < Rabs (IZR n) + 1 / 2.

(** r is the float holding the integer that [rel] relates to the value of x, with
    the sign of x (so that -0.3 truncates to -0); what is no number is kept. *)
Definition integral (rel : R -> Z -> Prop) (x r : binary32) : Prop :=
  if is_finite 24 128 x
  then finite r /\ Bsign 24 128 r = Bsign 24 128 x /\ exists n, rel (valR x) n /\ valR r = IZR n
  else r = x.

(** The largest subnormal and the smallest normal magnitude meet at 2^-126. *)
Definition is_subnormal (x : binary32) : Prop := finite x /\ 0 < Rabs (valR x) < bpow radix2 (-126).
Definition is_normal (x : binary32) : Prop := finite x /\ bpow radix2 (-126) <= Rabs (valR x).
Definition is_zero (x : binary32) : Prop := finite x /\ valR x = 0.
Definition is_infinity (x : binary32) : Prop := exists s, x = B754_infinity 24 128 s.

(** What rounding may add to a remainder of x by y: four units in the last place
    of x and y, or of the smallest number. *)
Definition mod_err (x y : R) : R := bpow radix2 (-21) * (Rabs x + Rabs y) + bpow radix2 (-148).

(** y is a float nearest to v. *)
Definition nearest_float (v : R) (y : binary32) : Prop := finite y /\ forall z : binary32, finite z -> Rabs (valR y - v) <= Rabs (valR z - v).
