(** The rounding error of a moving mean kept as a running sum (C132). *)
From Coq Require Import Reals.
From Flocq Require Import Core.
Open Scope R_scope.

(** The error allowed after [k] samples of magnitude at most [M], with a window of [n]. *)
Definition drift (n k : nat) (M : R) : R :=
  ((1 + bpow radix2 (-24)) ^ (k + 2) - 1) * ((INR n + 5) * M + 3 * bpow radix2 (-126)) / INR n + bpow radix2 (-150).
