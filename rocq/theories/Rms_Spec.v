(** What the RMS estimator computes, in terms of the samples only. *)
From Coq Require Import ZArith Reals List Bool.
From Flocq Require Import IEEE754.BinarySingleNaN IEEE754.Binary IEEE754.Bits.
From Verif Require Import Ltisys_Spec Smoother_Spec.
Import ListNotations.
Open Scope R_scope.

(** A binary32 number of the half-open interval (0,1]. *)
Definition in_unit (x : binary32) : Prop := is_finite 24 128 x = true /\ 0 < B2R 24 128 x <= 1.

(** The exponentially weighted mean of the squares up to sample [k]; the first
    sample enters once more than the others, as sample number -1. *)
Definition mean_square (lam : R) (xs : list R) (k : nat) : R :=
  (discounted lam (map (fun x => x ^ 2) xs) k + lam ^ S k * nth 0 xs 0 ^ 2) / discount lam (S (S k)).

(** The root of the mean square, averaged over the last [n] values, low-pass
    filtered. *)
Definition rms_estimate (lam a : R) (n : nat) (xs : list R) : list R :=
  let roots := tabulate (length xs) (fun k => sqrt (mean_square lam xs k)) in
  let means := tabulate (length xs) (moving_mean n roots) in
  tabulate (length xs) (lowpass a means).
