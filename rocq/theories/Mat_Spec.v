(** Matrices as tables of numbers. *)
From Coq Require Import List Reals Arith.
From Verif Require Import Base Ltisys_Spec.
Import ListNotations.
Open Scope R_scope.

(** R rows of C entries each. *)
Definition shaped {T} (R C : nat) (m : list (list T)) : Prop := length m = R /\ forall r, In r m -> length r = C.
(** The entry in row [i] and column [j], counted from 0. *)
Definition entry {T} (d : T) (m : list (list T)) (i j : nat) : T := nth j (nth i m []) d.
Notation "m $ i , j" := (entry 0 m i j) (at level 9, i at level 8, j at level 8, format "m $ i , j").

(** The product, the unit matrix, and invertibility of the leading block: the
    homogeneous system of the first [k] rows and columns has only the zero solution. *)
Definition times (C : nat) (a b : list (list R)) (i j : nat) : R := sum C (fun k => a$i,k * b$k,j).
Definition delta (i j : nat) : R := if (i =? j)%nat then 1 else 0.
Definition nonsingular (k : nat) (a : list (list R)) : Prop :=
  forall v : nat -> R, (forall i, (i < k)%nat -> sum k (fun j => a$i,j * v j) = 0) -> forall j, (j < k)%nat -> v j = 0.

(** The outcome [r] is an R by C matrix with the entries [g i j]. *)
Definition gives {T} (d : T) (R C : nat) (r : res (list (list T))) (g : nat -> nat -> T) : Prop :=
  exists m, r = Ok m /\ shaped R C m /\ forall i j, (i < R)%nat -> (j < C)%nat -> entry d m i j = g i j.
(** [(i,j)] comes after [(p,q)] when the matrix is walked row by row. *)
Definition after (p q i j : nat) : bool := (p <? i)%nat || ((p =? i)%nat && (q <? j)%nat).
