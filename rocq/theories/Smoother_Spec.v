(** What the smoothers compute, in terms of the samples only. *)
From Coq Require Import ZArith Reals List Bool.
From Flocq Require Import IEEE754.BinarySingleNaN IEEE754.Binary IEEE754.Bits.
From Verif Require Import Ltisys_Spec.
Import ListNotations.
Open Scope R_scope.

(** A binary32 number strictly between two bounds: neither NaN nor infinite. *)
Definition between (lo hi : R) (x : binary32) : Prop := is_finite 24 128 x = true /\ lo < B2R 24 128 x < hi.
(** A positive binary32 value, +infinity included. *)
Definition positive_or_inf (x : binary32) : Prop :=
  x = B754_infinity 24 128 false \/ (is_finite 24 128 x = true /\ 0 < B2R 24 128 x).

(** The sample [i] steps before sample [k]; before the first sample there is the
    first sample. *)
Definition ago (xs : list R) (k i : nat) : R := nth (k - i) xs 0.

(** The k-th value of the mean of the last [n] samples. *)
Definition moving_mean (n : nat) (xs : list R) (k : nat) : R := sum n (fun i => ago xs k i) / INR n.

(** The k-th value of the last [n] samples weighted by [c], newest first. *)
Definition moving_weighted (c : nat -> R) (n : nat) (xs : list R) (k : nat) : R := sum n (fun i => c i * ago xs k i).

(** c (0), c (1), ..., c (n-1) *)
Definition tabulate (n : nat) (f : nat -> R) : list R := map f (seq 0 n).

(** y(k) = (1-a) x(k) + a y(k-1), y(0) = x(0), solved. *)
Definition lowpass (a : R) (xs : list R) (k : nat) : R :=
  a ^ k * nth 0 xs 0 + sum k (fun i => (1 - a) * a ^ i * nth (k - i) xs 0).

(** Sum of lam^(k-i) x(i) for i = 0..k, and of the weights. *)
Definition discounted (lam : R) (xs : list R) (k : nat) : R := sum (S k) (fun i => lam ^ i * nth (k - i) xs 0).
Definition discount (lam : R) (n : nat) : R := sum n (fun i => lam ^ i).

(** An outlier filter: a window of accepted values, newest first, whose mean
    [m] replaces every sample farther than a|m| from it. *)
Definition mean (l : list R) : R := fold_right Rplus 0 l / INR (length l).
Definition accept (a m x : R) : R := if Rlt_dec (a * Rabs m) (Rabs (m - x)) then m else x.
Fixpoint outliers (a m : R) (window : list R) (xs : list R) : list R :=
  match xs with
  | [] => []
  | x :: r =>
      let y := accept a m x in
      let window' := y :: removelast window in
      y :: outliers a (mean window') window' r
  end.
(** The window starts full of the first sample. *)
Definition outlier_filter (a : R) (n : nat) (xs : list R) : list R :=
  match xs with [] => [] | x :: _ => outliers a x (repeat x n) xs end.

(** The normalised Gaussian weights of centre [c] and deviation [s]. *)
Definition gauss (c s : R) (i : nat) : R := exp (- (INR i - c) ^ 2 / (2 * s ^ 2)).
Definition gaussian (c s : R) (n i : nat) : R := gauss c s i / sum n (gauss c s).

(** Level and trend of the double exponential smoother. *)
Fixpoint level_trend (a b l t : R) (xs : list R) : list (R * R) :=
  match xs with
  | [] => []
  | x :: r =>
      let l' := (1 - a) * l + a * x in
      let t' := (1 - b) * t + b * (l' - l) in
      (l', t') :: level_trend a b l' t' r
  end.

(** The least-mean-squares adaptive filter: weights and window (newest first). *)
Definition inner (w x : list R) : R := fold_right Rplus 0 (map (fun p => fst p * snd p) (combine w x)).
Fixpoint lms (a : R) (w window : list R) (xs : list R) : list R :=
  match xs with
  | [] => []
  | x :: r =>
      let window' := x :: removelast window in
      let y := inner w window' in
      y :: lms a (map (fun p => fst p + a * (x - y) * snd p) (combine w window')) window' r
  end.
Definition lms_filter (a : R) (n : nat) (xs : list R) : list R :=
  match xs with [] => [] | x :: _ => lms a (repeat (/ INR n) n) (repeat x n) xs end.
