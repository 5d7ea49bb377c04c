(** A weighted mean of the last samples (C139). *)
From Coq Require Import Reals List.
From Verif Require Import Ltisys_Spec.
Open Scope R_scope.

(** c0 x_k + c1 x_(k-1) + ... + c_(n-1) x_(k-n+1), the first sample standing for the samples before it. *)
Definition weighted (n : nat) (c xs : list R) (k : nat) : R := sum n (fun i => nth i c 0 * nth (k - i) xs 0).
