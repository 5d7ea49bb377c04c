(** What the polynomials are. *)
From Coq Require Import Reals List.
Import ListNotations.
Open Scope R_scope.

(** [D n] is the [n]-th derivative of [f]. *)
Definition derivatives (f : R -> R) (D : nat -> R -> R) : Prop :=
  (forall x, D O x = f x) /\ forall n x, derivable_pt_lim (D n) x (D (S n) x).

(** The polynomial with the coefficients [c], constant term first. *)
Definition polynomial (c : list R) (x : R) : R := fold_right (fun a r => a + x * r) 0 c.

(** Legendre's equation: ((1 - x^2) P')' + n (n + 1) P = 0. *)
Definition legendre_equation (n : nat) (P : R -> R) : Prop :=
  exists d, (forall x, derivable_pt_lim P x (d x)) /\
            forall x, derivable_pt_lim (fun t => (1 - t ^ 2) * d t) x (- (INR n * INR (n + 1)) * P x).

(** The associated Laguerre polynomial as an explicit sum. *)
Definition laguerre_sum (n a : nat) (x : R) : R :=
  sum_f_R0 (fun i => (- 1) ^ i * Binomial.C (n + a) (n - i) / INR (fact i) * x ^ i) n.

(** 1 3 5 ... (2 m - 1) *)
Fixpoint odd_product (m : nat) : R := match m with O => 1 | S k => odd_product k * (2 * INR k + 1) end.

(** The Legendre polynomial of degree [n]. *)
Definition legendre_polynomial (n : nat) (P : R -> R) : Prop :=
  (exists c, length c = S n /\ forall x, P x = polynomial c x) /\ P 1 = 1 /\ legendre_equation n P.
