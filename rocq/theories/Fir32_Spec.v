(** The rounding error of a sum of products in binary32 (C130, C131). *)
From Coq Require Import Reals List.
From Flocq Require Import Core.
From Verif Require Import Ltisys_Spec.
Open Scope R_scope.

(** The error allowed after [m] additions of rounded terms whose absolute values add up to [S]. *)
Definition gap (m : nat) (S : R) : R :=
  ((1 + bpow radix2 (-24)) ^ (m + 1) - 1) * S + 3 * INR m * (1 + bpow radix2 (-24)) ^ m * bpow radix2 (-150).

(** |c0| |w0| + |c1| |w1| + ... *)
Definition dot_abs (n : nat) (c w : list R) : R := dot n (map Rabs c) (map Rabs w).

(** [gap m S] is [gain m * S + floor_ m]. *)
Definition gain (m : nat) : R := (1 + bpow radix2 (-24)) ^ (m + 1) - 1.
Definition floor_ (m : nat) : R := 3 * INR m * (1 + bpow radix2 (-24)) ^ m * bpow radix2 (-150).

(** |c0| + |c1| + ... *)
Definition total_abs (c : list R) : R := sum (length c) (fun i => Rabs (nth i c 0)).

(** The unit impulse, [n] samples long. *)
Definition impulse (n : nat) : list R := map (fun k => if (k =? 0)%nat then 1 else 0) (seq 0 n).

(** How much the input of a recursive filter is perturbed at most by the rounding of its state: [N] coefficients on each side,
    [A] the sum of the absolute values of the denominator, [H] the sum of the absolute values of the impulse response of
    1/denominator, [U] the largest input. *)
Definition input_error (N : nat) (A H U : R) : R := (gain N * (1 + A * H) * U + floor_ N) / (1 - gain N * A * H).
