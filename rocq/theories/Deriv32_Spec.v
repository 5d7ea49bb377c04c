(** What a numerical differentiator in single precision should compute (C135). *)
From Coq Require Import Reals List ZArith.
From Verif Require Import Numa_Model.
Open Scope R_scope.

(** The weights the rules of the header (numa.hpp:38-42) give to the newest, previous and second previous sample. *)
Definition dweights (m : dmethod) : R * R * R :=
  match m with
  | D2Points => (1, -1, 0)
  | DBackward => (3/2, -2, 1/2)
  | DForward => (-1/2, 2, -3/2)
  | DOther => (0, 0, 0)
  end.
Definition quotient (m : dmethod) (h s s1 s2 : R) : R :=
  (fst (fst (dweights m)) * s + snd (fst (dweights m)) * s1 + snd (dweights m) * s2) / h.
(** The same with everything replaced by its magnitude. *)
Definition quotient_mass (m : dmethod) (h s s1 s2 : R) : R :=
  (Rabs (fst (fst (dweights m))) * Rabs s + Rabs (snd (fst (dweights m))) * Rabs s1 + Rabs (snd (dweights m)) * Rabs s2) / Rabs h.
