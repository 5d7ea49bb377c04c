(** The real number a raw Q16.16 value stands for, and the weight of its last bit. *)
From Coq Require Import ZArith Reals.
Open Scope R_scope.

Definition fxR (x : Z) : R := IZR x / 65536.
Definition ulp16 : R := / 65536.
