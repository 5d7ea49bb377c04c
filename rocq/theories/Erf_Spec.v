(** The error function (C126). *)
From Coq Require Import Reals.
From Coquelicot Require Import Coquelicot.
Open Scope R_scope.

(** erf(x) = 2/sqrt(pi) times the integral of exp(-t^2) from 0 to x *)
Definition erfR (x : R) : R := 2 / sqrt PI * RInt (fun t => exp (- (t * t))) 0 x.
Definition erfcR (x : R) : R := 1 - erfR x.
