(** What the spherical associated Legendre function is. *)
From Coq Require Import Reals.
From Verif Require Import Poly_Spec.
Open Scope R_scope.

(** The logarithm of the gamma function at n and n + 1/2:
    Gamma(n) = (n - 1)!, Gamma(n + 1/2) = (2n)! sqrt(pi) / (4^n n!) *)
Definition log_gamma (lg : R -> R) : Prop := forall n, (0 < n)%nat ->
  exp (lg (INR n)) = INR (fact (n - 1)) /\ exp (lg (INR n + 1 / 2)) = INR (fact (2 * n)) * sqrt PI / (4 ^ n * INR (fact n)).

(** Y_l^m(theta) = (-1)^m sqrt((2l+1)/(4 pi) (l-m)!/(l+m)!) P_l^m(cos theta), where
    P_l^m(x) = (1 - x^2)^(m/2) times the m-th derivative [Dm] of the Legendre polynomial P_l *)
Definition spherical (l m : nat) (Dm : R -> R) (theta : R) : R :=
  (-1) ^ m * sqrt ((2 * INR l + 1) / (4 * PI) * (INR (fact (l - m)) / INR (fact (l + m)))) *
  (sqrt (1 - cos theta ^ 2) ^ m * Dm (cos theta)).
