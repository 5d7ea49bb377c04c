(** Final theorems about the bit-field (C01..C07). *)
From Coq Require Import ZArith List Bool Lia.
From Verif Require Import Base Bitfield_Model Bitfield_Spec Bitfield_Proofs.
Import ListNotations.
Open Scope Z_scope.

(** C01 *)
Theorem C01_bitfield_is_bit_array : forall k m ops,
  1 <= k -> bytes_ok m -> zlen m = 4 * k -> Forall (op_ok (32 * k)) ops ->
  exists b, started k m ops b /\
    forall i, 0 <= i < 32 * k -> readBit b i = Ok (fold_left spec_step ops (mem_bit m) i).
Proof. exact started_history. Qed.
Print Assumptions C01_bitfield_is_bit_array.

Example C01_example : exists b, started 2 ex_area ex_ops b /\
  readUINTn b 20 16 = Ok 13398 /\ readUINTn b 60 8 = Ok 5.
Proof. exact ex_started. Qed.

(** C02 *)
Theorem C02_write_read_roundtrip : forall k m ops b i n v,
  started k m ops b -> 0 <= i -> i + n <= 32 * k -> 2 <= n <= 32 -> 0 <= v < 2 ^ 32 ->
  exists b', writeUINTn b i n v = Ok (true, b') /\ readUINTn b' i n = Ok (v mod 2 ^ n).
Proof. exact started_write_read. Qed.
Print Assumptions C02_write_read_roundtrip.

Example C02_example : (exists b, started 2 ex_area ex_ops b) /\ 20 + 24 <= 32 * 2 /\ 2 <= 24 <= 32.
Proof. split; [destruct ex_started as (b & H & _); eauto | lia]. Qed.

Theorem C02_width1_is_truthiness : forall k m ops b i v,
  started k m ops b -> 0 <= i < 32 * k -> 0 <= v < 2 ^ 32 ->
  exists b', writeUINTn b i 1 v = Ok (true, b') /\
    readUINTn b' i 1 = Ok (if v =? 0 then 0 else 1).
Proof. exact started_write_read_bit. Qed.
Print Assumptions C02_width1_is_truthiness.

(** C03 *)
Theorem C03_write_frame : forall k m ops b i n v,
  started k m ops b -> 0 <= i < 32 * k -> 1 <= n <= 32 -> 0 <= v < 2 ^ 32 ->
  exists b', writeUINTn b i n v = Ok (true, b') /\
    forall j, 0 <= j < 32 * k -> j < i \/ i + n <= j -> readBit b' j = readBit b j.
Proof. exact started_write_frame. Qed.
Print Assumptions C03_write_frame.

Theorem C03_writeFloat_frame : forall k m ops b i v,
  started k m ops b -> 0 <= i < 32 * k -> 0 <= v < 2 ^ 32 ->
  exists b', writeFloat b i v = Ok (true, b') /\
    forall j, 0 <= j < 32 * k -> j < i \/ i + 32 <= j -> readBit b' j = readBit b j.
Proof. exact started_writeFloat_frame. Qed.
Print Assumptions C03_writeFloat_frame.

Example C03_example : (exists b, started 2 ex_area ex_ops b) /\ 0 <= 37 < 32 * 2 /\ (36 < 37 \/ 37 + 8 <= 36).
Proof. split; [destruct ex_started as (b & H & _); eauto | lia]. Qed.

(** C04 *)
Theorem C04_truncated_write_read : forall k m ops b i n v,
  started k m ops b -> 0 <= i < 32 * k -> 2 <= n <= 32 -> 0 <= v < 2 ^ 32 ->
  exists b', writeUINTn b i n v = Ok (true, b') /\
    readUINTn b' i n = Ok (v mod 2 ^ Z.min n (32 * k - i)).
Proof. exact started_write_read_trunc. Qed.
Print Assumptions C04_truncated_write_read.

Example C04_example : (exists b, started 2 ex_area ex_ops b) /\ 0 <= 60 < 32 * 2 /\ 32 * 2 < 60 + 8.
Proof. split; [destruct ex_started as (b & H & _); eauto | lia]. Qed.

Theorem C04_read_is_the_bits_that_exist : forall k m ops b i n,
  started k m ops b -> 0 <= i < 32 * k -> 1 <= n <= 32 ->
  exists r, readUINTn b i n = Ok r /\ 0 <= r < 2 ^ n /\
    forall j, 0 <= j < n ->
      (i + j < 32 * k -> readBit b (i + j) = Ok (Z.testbit r j)) /\
      (32 * k <= i + j -> Z.testbit r j = false).
Proof. exact started_read_bits. Qed.
Print Assumptions C04_read_is_the_bits_that_exist.

(** C05 *)
Theorem C05_width0_undefined : forall k m ops b i v,
  started k m ops b -> 0 <= i < 32 * k ->
  readUINTn b i 0 = Ub /\ writeUINTn b i 0 v = Ub.
Proof. exact width0_ub. Qed.
Print Assumptions C05_width0_undefined.

Theorem C05_wide_refused : forall b i n v,
  32 < n -> readUINTn b i n = Ok 0 /\ writeUINTn b i n v = Ok (false, b).
Proof. exact width_gt32. Qed.
Print Assumptions C05_wide_refused.

Theorem C05_ragged_area_undefined : forall m q r i,
  0 <= q -> 0 < r < 4 -> zlen m = 4 * q + r -> 32 * q <= i < 8 * (4 * q + r) ->
  exists b, setup bf_new (Some m) (4 * q + r) = (true, b) /\
    bsize b = 8 * (4 * q + r) /\
    setBit b i = Ub /\ clearBit b i = Ub /\ toggleBit b i = Ub /\ readBit b i = Ub.
Proof. exact ragged_ub. Qed.
Print Assumptions C05_ragged_area_undefined.

Example C05_example : exists b, setup bf_new (Some [1; 2; 3; 4; 5; 6]) 6 = (true, b) /\ bsize b = 48 /\
  readBit b 33 = Ub /\ readBit b 31 = Ok false.
Proof. eexists. split; [reflexivity|]. vm_compute. auto. Qed.

(** C06 *)
Theorem C06_float_roundtrip : forall k m ops b i v,
  started k m ops b -> 0 <= i -> i + 32 <= 32 * k -> 0 <= v < 2 ^ 32 ->
  exists b', writeFloat b i v = Ok (true, b') /\ readFloat b' i = Ok v.
Proof. exact started_float. Qed.
Print Assumptions C06_float_roundtrip.

Example C06_example : (exists b, started 2 ex_area ex_ops b) /\ 13 + 32 <= 32 * 2 /\ 0 <= 2143289345 < 2 ^ 32.
Proof. split; [destruct ex_started as (b & H & _); eauto | lia]. Qed.

(** C07 *)
Theorem C07_uninitialised_refuses : forall i n v w x d,
  setBit bf_new i = Ok (false, bf_new) /\ clearBit bf_new i = Ok (false, bf_new) /\
  toggleBit bf_new i = Ok (false, bf_new) /\ writeBit bf_new i x = Ok (false, bf_new) /\
  writeUINTn bf_new i n v = Ok (false, bf_new) /\ writeFloat bf_new i w = Ok (false, bf_new) /\
  setAll bf_new = Ok (false, bf_new) /\ clearAll bf_new = Ok (false, bf_new) /\
  readBit bf_new i = Ok false /\ readUINTn bf_new i n = Ok 0 /\ readFloat bf_new i = Ok 0 /\
  dump bf_new d n = Ok None.
Proof. exact uninit_refuses. Qed.
Print Assumptions C07_uninitialised_refuses.

Theorem C07_setup_guard : forall b area sz,
  setup b area sz = (false, b) <-> (area = None \/ sz <= 0).
Proof. exact setup_guard. Qed.
Print Assumptions C07_setup_guard.

Theorem C07_dump_prefix : forall k m ops b d n,
  started k m ops b -> 0 <= n -> n <= zlen d ->
  (n <= 4 * k -> exists out, dump b (Some d) n = Ok (Some out) /\ zlen out = zlen d /\
      (forall i, 0 <= i < 8 * n -> readBit b i = Ok (mem_bit out i)) /\
      (forall q, n <= q < zlen d -> get out q = get d q)) /\
  (4 * k < n -> dump b (Some d) n = Ok None).
Proof. exact dump_ok. Qed.
Print Assumptions C07_dump_prefix.

Example C07_example : (exists b, started 2 ex_area ex_ops b) /\ 0 <= 5 <= zlen [0; 0; 0; 0; 0; 9] /\ 5 <= 4 * 2.
Proof. split; [destruct ex_started as (b & H & _); eauto | unfold zlen; cbn; lia]. Qed.
