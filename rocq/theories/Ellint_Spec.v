(** What the elliptic integral of the first kind is: Legendre's normal form. *)
From Coq Require Import Reals.
From Coquelicot Require Import Coquelicot.
Open Scope R_scope.

(** F(phi, k), the integral of 1/sqrt( 1 - k^2 sin^2 t ) over t from 0 to phi *)
Definition first_kind (k phi : R) : R := RInt (fun t => / sqrt (1 - k * k * (sin t * sin t))) 0 phi.
(** K(k) *)
Definition complete_first_kind (k : R) : R := first_kind k (PI / 2).
