(** What the Bessel functions of the first kind of integer order are: their power series. *)
From Coq Require Import Reals.
From Coquelicot Require Import Coquelicot.
Open Scope R_scope.

(** J_n(x) = sum over k of (-1)^k (x/2)^(2k+n) / (k! (k+n)!) *)
Definition bessel_J (n : nat) (x : R) : R := Series (fun k => (-1) ^ k * (x / 2) ^ (2 * k + n) / (INR (fact k) * INR (fact (k + n)))).
(** I_n(x) = sum over k of (x/2)^(2k+n) / (k! (k+n)!) *)
Definition bessel_I (n : nat) (x : R) : R := Series (fun k => (x / 2) ^ (2 * k + n) / (INR (fact k) * INR (fact (k + n)))).
(** 1 + 1/2 + ... + 1/k *)
Fixpoint harmonic (k : nat) : R := match k with O => 0 | S j => harmonic j + / INR (S j) end.
(** K_0(x) = - (ln (x/2) + gamma) I_0(x) + sum over k of H_k (x/2)^(2k) / (k!)^2 *)
Definition bessel_K0 (gamma x : R) : R := - (ln (x / 2) + gamma) * bessel_I 0 x + Series (fun k => harmonic k * (x / 2) ^ (2 * k) / (INR (fact k) * INR (fact k))).
