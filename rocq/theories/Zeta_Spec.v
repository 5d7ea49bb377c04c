(** What the Riemann zeta function is, to the right of its pole: the sum of n^-s. *)
From Coq Require Import Reals.
From Coquelicot Require Import Coquelicot.
Open Scope R_scope.

Definition zeta (s : R) : R := Series (fun n => Rpower (INR (S n)) (- s)).
