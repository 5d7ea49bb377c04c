(** The weights of the Gaussian smoother before they are normalised (C140). *)
From Coq Require Import ZArith.
From Verif Require Import Arith.

(** smoother.cpp computes weight [j] of [n] as exp(-(j - l - (ce - l))^2 / (2 sg sg)) with l = n - 1; this is the argument of exp(), as rounded. *)
Definition weight_arg {A : arith} (sg ce : F A) (n j : nat) : F A :=
  let l := lit (Z.of_nat n - 1) 1 in let d := fsub (fsub (lit (Z.of_nat j) 1) l) (fsub ce l) in fdiv (fopp (fmul d d)) (fmul (fmul (lit 2 1) sg) sg).
