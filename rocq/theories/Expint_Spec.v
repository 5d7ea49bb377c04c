(** What the exponential integral is: the series of Ei. *)
From Coq Require Import Reals.
From Coquelicot Require Import Coquelicot.
Open Scope R_scope.

(** Euler's constant, the limit of 1 + 1/2 + ... + 1/n - ln n *)
Definition euler_gamma : R := real (Lim_seq (fun n => sum_f_R0 (fun k => / INR (S k)) n - ln (INR (S n)))).
(** x + x^2/(2 2!) + x^3/(3 3!) + ... *)
Definition ei_sum (x : R) : R := Series (fun k => x ^ S k / (INR (S k) * INR (fact (S k)))).
(** Ei(x) = gamma + ln |x| + x + x^2/(2 2!) + ..., for x <> 0 *)
Definition Ei (x : R) : R := euler_gamma + ln (Rabs x) + ei_sum x.
