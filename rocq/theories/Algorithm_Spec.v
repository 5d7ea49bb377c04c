(** Vocabulary for the statements about algorithm.hpp. *)
From Coq Require Import ZArith List Bool Permutation.
From Verif Require Import Base.
Import ListNotations.
Open Scope Z_scope.

(** [lt] behaves like operator< of a type with a total (pre)order. *)
Definition weak_order {T} (lt : T -> T -> bool) : Prop :=
  (forall x y, lt x y = true -> lt y x = false) /\
  (forall x y z, lt x y = true -> lt x z = true \/ lt z y = true).

(** [eqb] is the equality of that order. *)
Definition order_eq {T} (lt eqb : T -> T -> bool) : Prop :=
  forall x y, eqb x y = true <-> lt x y = false /\ lt y x = false.

(** Positions [first..last] of [a] are in non-decreasing order. *)
Definition sorted_range {T} (lt : T -> T -> bool) (a : list T) (first last : Z) : Prop :=
  forall i j x y, first <= i -> i < j -> j <= last ->
    get a i = Ok x -> get a j = Ok y -> lt y x = false.

(** [a'] is a rearrangement of [a] that touches only positions [first..last]. *)
Definition rearranges {T} (a a' : list T) (first last : Z) : Prop :=
  Permutation a a' /\ forall i, i < first \/ last < i -> get a' i = get a i.

(** Elements first..last (inclusive), in order. *)
Definition segment {T} (a : list T) (first last : Z) : list T :=
  firstn (Z.to_nat (last - first + 1)) (skipn (Z.to_nat first) a).

(** Applying an effectful function once to each element, left to right. *)
Fixpoint thread {S T} (fn : S -> T -> S * T) (s : S) (l : list T) : S * list T :=
  match l with
  | [] => (s, [])
  | x :: l' => let '(s1, y) := fn s x in let '(s2, l2) := thread fn s1 l' in (s2, y :: l2)
  end.

(** Index [j] is the first / last position of first..last satisfying [p]. *)
Definition first_match {T} (p : T -> bool) (a : list T) (first last j : Z) : Prop :=
  first <= j <= last /\ (exists x, get a j = Ok x /\ p x = true) /\
  forall i x, first <= i < j -> get a i = Ok x -> p x = false.
Definition last_match {T} (p : T -> bool) (a : list T) (first last j : Z) : Prop :=
  first <= j <= last /\ (exists x, get a j = Ok x /\ p x = true) /\
  forall i x, j < i <= last -> get a i = Ok x -> p x = false.
Definition no_match {T} (p : T -> bool) (a : list T) (first last : Z) : Prop :=
  forall i x, first <= i <= last -> get a i = Ok x -> p x = false.
