(** What an integrator in single precision should compute, and how far off it may be (C133). *)
From Coq Require Import Reals List ZArith.
From Flocq Require Import Core.
From Verif Require Import Numa_Model Numa_Spec.
Import ListNotations.
Open Scope R_scope.

(** The exact contributions of the samples [ss], one per step, when the two samples before them are [s1] (newest) and [s2]:
    the step [h] times the weighted sum of the last three samples. *)
Fixpoint contributions (w : R * R * R) (h : R) (ss : list R) (s1 s2 : R) : list R :=
  match ss with
  | [] => []
  | s :: r => h * (fst (fst w) * s + snd (fst w) * s1 + snd w * s2) :: contributions w h r s s1
  end.

(** The same with everything replaced by its magnitude. *)
Definition magnitudes (w : R * R * R) (h : R) (ss : list R) (s1 s2 : R) : list R :=
  contributions (Rabs (fst (fst w)), Rabs (snd (fst w)), Rabs (snd w)) (Rabs h) (map Rabs ss) (Rabs s1) (Rabs s2).

Definition total (l : list R) : R := fold_right Rplus 0 l.

(** The exact value of the integral after the first [k] samples, starting from [x]. *)
Definition integral (m : imethod) (h x s1 s2 : R) (ss : list R) (k : nat) : R :=
  x + total (firstn k (contributions (weights m) h ss s1 s2)).
(** The sum of the magnitudes of everything added up to then. *)
Definition mass (m : imethod) (h x s1 s2 : R) (ss : list R) (k : nat) : R :=
  Rabs x + total (firstn k (magnitudes (weights m) h ss s1 s2)).
