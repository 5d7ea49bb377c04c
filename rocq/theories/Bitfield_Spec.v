(** Independent specification of a bit-field: an array of booleans indexed
    by bit position. *)
From Coq Require Import ZArith Bool List.
From Verif Require Import Base Bitfield_Model.
Import ListNotations.
Open Scope Z_scope.

(** An abstract bit array. *)
Definition bits := Z -> bool.

Definition put (a : bits) (i : Z) (v : bool) : bits :=
  fun j => if j =? i then v else a j.

(** Store the [n] low bits of [v] at positions [i .. i+n-1]. *)
Definition put_field (a : bits) (i n v : Z) : bits :=
  fun j => if (i <=? j) && (j <? i + n) then Z.testbit v (j - i) else a j.

(** What each call means on the abstract array.  A one-bit field write stores
    the truth value of its argument. *)
Definition spec_step (a : bits) (o : bf_op) : bits :=
  match o with
  | OpSet i => put a i true
  | OpClear i => put a i false
  | OpToggle i => put a i (negb (a i))
  | OpWrite i v => put a i v
  | OpWriteN i n v => if n =? 1 then put a i (negb (v =? 0)) else put_field a i n v
  | OpWriteFloat i v => put_field a i 32 v
  | OpSetAll => fun _ => true
  | OpClearAll => fun _ => false
  end.

(** Arguments a caller may pass for a bit-field of [sz] bits: positions below
    the size, widths 1..32, 32-bit values.  A multi-bit field may run past the
    end. *)
Definition op_ok (sz : Z) (o : bf_op) : Prop :=
  match o with
  | OpSet i | OpClear i | OpToggle i | OpWrite i _ => 0 <= i < sz
  | OpWriteN i n v => 0 <= i < sz /\ 1 <= n <= 32 /\ 0 <= v < 2 ^ 32
  | OpWriteFloat i v => 0 <= i < sz /\ 0 <= v < 2 ^ 32
  | OpSetAll | OpClearAll => True
  end.

(** A list of byte values. *)
Definition bytes_ok (m : list Z) : Prop := Forall (fun b => 0 <= b < 256) m.

(** Bit [i] of a memory area. *)
Definition mem_bit (m : list Z) (i : Z) : bool :=
  Z.testbit (nth (Z.to_nat (i / 8)) m 0) (i mod 8).

(** [b] is a bit-field of [32*k] bits obtained by setup() on the area [m]
    followed by the calls [ops] with admissible arguments. *)
Definition started (k : Z) (m : list Z) (ops : list bf_op) (b : bitfield) : Prop :=
  1 <= k /\ bytes_ok m /\ zlen m = 4 * k /\ Forall (op_ok (32 * k)) ops /\
  exists b0, setup bf_new (Some m) (4 * k) = (true, b0) /\ run bf_step b0 ops = Ok b.
