(** Vocabulary for the statements about Q16.16 numbers.  A raw value [x] stands
    for the rational number x / 65536. *)
From Coq Require Import ZArith List Bool QArith.
From Verif Require Import Base.
Import ListNotations.
Open Scope Z_scope.

(** A 32-bit raw value. *)
Definition raw (x : Z) : Prop := - 2 ^ 31 <= x < 2 ^ 31.

(** The value reserved to flag an overflow. *)
Definition sentinel : Z := - 2 ^ 31.

(** The rational number a raw value stands for. *)
Definition valq (x : Z) : Q := x # 65536.

(** [r] is [n/d] rounded to the nearest integer, ties away from zero. *)
Definition nearest (n d r : Z) : Prop :=
  2 * Z.abs (n - r * d) <= Z.abs d /\ (2 * Z.abs (n - r * d) = Z.abs d -> Z.abs n < Z.abs (r * d)).

(** [r] is the square root of [n] rounded to the nearest integer. *)
Definition nearest_root (n r : Z) : Prop :=
  0 <= r /\ 4 * n < (2 * r + 1) ^ 2 /\ (r = 0 \/ (2 * r - 1) ^ 2 < 4 * n).

(** The decimal number denoted by the digits [ds] (most significant first). *)
Fixpoint digits_value (acc : Z) (ds : list Z) : Z :=
  match ds with [] => acc | d :: ds' => digits_value (10 * acc + (d - 48)) ds' end.
Definition is_digit (c : Z) : Prop := 48 <= c <= 57.
