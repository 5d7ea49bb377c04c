(** What the power function of Q16.16 numbers is measured against (C125). *)
From Coq Require Import ZArith Reals.
Open Scope R_scope.

(** 1 + a + ... + a^(n-1): the roundings of the successive products, each multiplied by the later factors *)
Fixpoint geo (a : R) (n : nat) : R := match n with O => 0 | S k => 1 + a * geo a k end.
(** the proved error of the natural logarithm of X (C123) *)
Definition logerr (X : R) : R := 12 / 10000 + / (6900000 * X).
(** the raw value [y] does not denote a positive integer *)
Definition not_nat (y : Z) : Prop := (y <= 0 \/ y mod 65536 <> 0)%Z.
