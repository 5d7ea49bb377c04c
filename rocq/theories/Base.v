(** Shared vocabulary of the model: results with an explicit
    undefined-behaviour outcome, checked arrays, and 32-bit words.
    This file models C++ language-level notions, not a file of /repo. *)
From Coq Require Import ZArith List Bool.
Import ListNotations.
Open Scope Z_scope.

(** Outcome of a C++ expression: a value, or undefined behaviour. *)
Inductive res (A : Type) : Type :=
| Ok (a : A)
| Ub.
Arguments Ok {A} a.
Arguments Ub {A}.

Definition bind {A B : Type} (x : res A) (f : A -> res B) : res B :=
  match x with Ok a => f a | Ub => Ub end.

Notation "x <- e ;; k" := (bind e (fun x => k))
  (at level 61, e at next level, right associativity).

(** Length of an array as an integer. *)
Definition zlen {A : Type} (l : list A) : Z := Z.of_nat (length l).

(** [a[i]] with bounds check: out of bounds is undefined behaviour. *)
Definition get {A : Type} (l : list A) (i : Z) : res A :=
  if i <? 0 then Ub
  else match nth_error l (Z.to_nat i) with Some v => Ok v | None => Ub end.

Fixpoint upd {A : Type} (l : list A) (n : nat) (v : A) : list A :=
  match l, n with
  | [], _ => []
  | _ :: t, O => v :: t
  | h :: t, S n' => h :: upd t n' v
  end.

(** [a[i] = v] with bounds check. *)
Definition set {A : Type} (l : list A) (i : Z) (v : A) : res (list A) :=
  if (0 <=? i) && (i <? zlen l) then Ok (upd l (Z.to_nat i) v) else Ub.

(** uint32_t arithmetic: values are kept in [0, 2^32). *)
Definition M32 : Z := 4294967296.
Definition w32 (x : Z) : Z := x mod M32.

(** Shifts of a 32-bit operand: a shift count outside [0,31] is undefined. *)
Definition shl32 (v s : Z) : res Z :=
  if (0 <=? s) && (s <? 32) then Ok (w32 (Z.shiftl v s)) else Ub.
Definition shr32 (v s : Z) : res Z :=
  if (0 <=? s) && (s <? 32) then Ok (Z.shiftr v s) else Ub.

(** Run a list of operations in sequence, stopping at undefined behaviour. *)
Fixpoint run {S O : Type} (step : S -> O -> res S) (s : S) (ops : list O) : res S :=
  match ops with
  | [] => Ok s
  | o :: rest => s' <- step s o ;; run step s' rest
  end.
