(** A delay line of [n] taps is the list of its samples, newest first. *)
From Coq Require Import ZArith List Bool.
From Verif Require Import Base Tdl_Model.
Import ListNotations.
Open Scope Z_scope.

Definition line_step {A} (n : nat) (h : list A) (o : tdl_op A) : list A :=
  match o with
  | Insert x => firstn n (x :: h)
  | Flush x => repeat x n
  end.

(** What a line of [n] taps holds after setup with [v] and the calls [ops]. *)
Definition line {A} (n : nat) (v : A) (ops : list (tdl_op A)) : list A :=
  fold_left (line_step n) ops (repeat v n).

(** [t] is reached by setup(area, n, v) and then the calls [ops]. *)
Definition reached {A} (m : list A) (n : nat) (v : A) (ops : list (tdl_op A)) (t : tdl A) : Prop :=
  (t0 <- setup m (Z.of_nat n) v ;; run tdl_step t0 ops) = Ok t.

(** A pure delay of [d] samples starting from [v]. *)
Definition delayed {A} (d : nat) (v : A) (xs : list A) : list A :=
  firstn (length xs) (repeat v d ++ xs).
