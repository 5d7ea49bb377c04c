(** Model of src/bitfield.cpp and src/include/bitfield.hpp.

    The storage area is a list of bytes.  [field[s]] reads/writes the four
    bytes 4s..4s+3 as a little-endian uint32_t (simplification: little-endian
    target, and alignment of the area is not modelled).  size_t indices are
    non-negative [Z] and do not wrap. *)
From Coq Require Import ZArith List Bool.
From Verif Require Import Base.
Import ListNotations.
Open Scope Z_scope.

(** bitfield.hpp:38-40 - members [field] (None = nullptr), [size], [nSlots]. *)
Record bitfield : Type := mkBf {
  field : option (list Z);
  bsize : Z;
  nSlots : Z
}.

(** bitfield.hpp:94 - default constructor. *)
Definition bf_new : bitfield := mkBf None 0 0.

(** [field[s]] as an rvalue. *)
Definition getw (m : list Z) (s : Z) : res Z :=
  b0 <- get m (4 * s) ;;
  b1 <- get m (4 * s + 1) ;;
  b2 <- get m (4 * s + 2) ;;
  b3 <- get m (4 * s + 3) ;;
  Ok (b0 + 256 * b1 + 65536 * b2 + 16777216 * b3).

(** [field[s] = w]. *)
Definition setw (m : list Z) (s w : Z) : res (list Z) :=
  m0 <- set m (4 * s) (w mod 256) ;;
  m1 <- set m0 (4 * s + 1) ((w / 256) mod 256) ;;
  m2 <- set m1 (4 * s + 2) ((w / 65536) mod 256) ;;
  set m2 (4 * s + 3) ((w / 16777216) mod 256).

(** memset( field, byte, n ). *)
Definition memset (m : list Z) (byte n : Z) : res (list Z) :=
  if n <=? zlen m
  then Ok (repeat byte (Z.to_nat n) ++ skipn (Z.to_nat n) m)
  else Ub.

(** bitfield.cpp:8-23 - setup( area, area_size ); [None] = nullptr. *)
Definition setup (b : bitfield) (area : option (list Z)) (area_size : Z) : bool * bitfield :=
  match area with
  | Some m => if 0 <? area_size
              then (true, mkBf (Some m) (area_size * 8) (area_size / 4))
              else (false, b)
  | None => (false, b)
  end.

(** bitfield.cpp:25-34 *)
Definition clearAll (b : bitfield) : res (bool * bitfield) :=
  match field b with
  | Some m => m' <- memset m 0 (bsize b / 8) ;;
              Ok (true, mkBf (Some m') (bsize b) (nSlots b))
  | None => Ok (false, b)
  end.

(** bitfield.cpp:36-46 *)
Definition setAll (b : bitfield) : res (bool * bitfield) :=
  match field b with
  | Some m => m' <- memset m 255 (bsize b / 8) ;;
              Ok (true, mkBf (Some m') (bsize b) (nSlots b))
  | None => Ok (false, b)
  end.

(** bitfield.hpp:42-45 - mask( index ) *)
Definition mask (index : Z) : res Z := shl32 1 (index mod 32).

(** bitfield.hpp:46-49 - slot( index ) *)
Definition slot (index : Z) : Z := index / 32.

(** bitfield.hpp:78-81 - offset( index ) *)
Definition offset (index : Z) : Z := Z.land index 31.

(** bitfield.hpp:50-54 - get( index ) *)
Definition bit_get (m : list Z) (index : Z) : res Z :=
  w <- getw m (slot index) ;;
  v <- shr32 w (index mod 32) ;;
  Ok (Z.land v 1).

(** bitfield.hpp:55-59 - set( index ) *)
Definition bit_set (m : list Z) (index : Z) : res (list Z) :=
  w <- getw m (slot index) ;;
  k <- mask index ;;
  setw m (slot index) (Z.lor w k).

(** bitfield.hpp:60-65 - clear( index ); [~mask] is the 32-bit complement. *)
Definition bit_clear (m : list Z) (index : Z) : res (list Z) :=
  w <- getw m (slot index) ;;
  k <- mask index ;;
  setw m (slot index) (Z.land w (w32 (Z.lnot k))).

(** bitfield.hpp:66-71 - toggle( index ) *)
Definition bit_toggle (m : list Z) (index : Z) : res (list Z) :=
  w <- getw m (slot index) ;;
  k <- mask index ;;
  setw m (slot index) (Z.lxor w k).

(** bitfield.hpp:72-77 - safeMask( val, x, nbits ) *)
Definition safeMask (val x nbits : Z) : res Z := shr32 val (w32 (x - nbits)).

(** bitfield.hpp:82-87 - maskMerge( w, value, mask ) *)
Definition maskMerge (w value msk : Z) : Z :=
  Z.lxor value (Z.land (Z.lxor w value) msk).

Definition with_mem (b : bitfield) (m : list Z) : bitfield :=
  mkBf (Some m) (bsize b) (nSlots b).

(** bitfield.cpp:48-58 *)
Definition setBit (b : bitfield) (index : Z) : res (bool * bitfield) :=
  match field b with
  | Some m => m' <- bit_set m index ;; Ok (true, with_mem b m')
  | None => Ok (false, b)
  end.

(** bitfield.cpp:60-70 *)
Definition clearBit (b : bitfield) (index : Z) : res (bool * bitfield) :=
  match field b with
  | Some m => m' <- bit_clear m index ;; Ok (true, with_mem b m')
  | None => Ok (false, b)
  end.

(** bitfield.cpp:72-82 *)
Definition toggleBit (b : bitfield) (index : Z) : res (bool * bitfield) :=
  match field b with
  | Some m => m' <- bit_toggle m index ;; Ok (true, with_mem b m')
  | None => Ok (false, b)
  end.

(** bitfield.cpp:84-93 *)
Definition readBit (b : bitfield) (index : Z) : res bool :=
  match field b with
  | Some m => v <- bit_get m index ;; Ok (negb (v =? 0))
  | None => Ok false
  end.

(** bitfield.cpp:95-111 *)
Definition writeBit (b : bitfield) (index : Z) (value : bool) : res (bool * bitfield) :=
  match field b with
  | Some m => m' <- (if value then bit_set m index else bit_clear m index) ;;
              Ok (true, with_mem b m')
  | None => Ok (false, b)
  end.

(** bitfield.cpp:207-225 - read_uint32( index ) *)
Definition read_uint32 (m : list Z) (sz index : Z) : res Z :=
  let s := slot index in
  let of := offset index in
  w <- getw m s ;;
  result <- shr32 w of ;;
  let bits_taken := 32 - of in
  if negb (of =? 0) && (index + bits_taken <? sz) then
    w1 <- getw m (s + 1) ;;
    hi <- shl32 w1 bits_taken ;;
    Ok (Z.lor result hi)
  else Ok result.

(** bitfield.cpp:227-247 - write_uint32( index, value ) *)
Definition write_uint32 (m : list Z) (slots index value : Z) : res (list Z) :=
  let s := slot index in
  let of := offset index in
  if of =? 0 then setw m s value
  else
    wMask <- safeMask 4294967295 32 of ;;
    w <- getw m s ;;
    lo <- shl32 value of ;;
    m1 <- setw m s (Z.lor lo (Z.land w wMask)) ;;
    if s + 1 <? slots then
      hi <- safeMask value 32 of ;;
      w1 <- getw m1 (s + 1) ;;
      setw m1 (s + 1) (Z.lor hi (Z.land w1 (w32 (Z.lnot wMask))))
    else Ok m1.

(** bitfield.cpp:113-132 *)
Definition readUINTn (b : bitfield) (index xBits : Z) : res Z :=
  match field b with
  | Some m =>
      if xBits <=? 32 then
        if xBits =? 1 then v <- readBit b index ;; Ok (if v then 1 else 0)
        else if xBits =? 32 then read_uint32 m (bsize b) index
        else
          r <- read_uint32 m (bsize b) index ;;
          k <- safeMask 4294967295 32 xBits ;;
          Ok (Z.land r k)
      else Ok 0
  | None => Ok 0
  end.

(** bitfield.cpp:134-161 *)
Definition writeUINTn (b : bitfield) (index xBits value : Z) : res (bool * bitfield) :=
  match field b with
  | Some m =>
      if xBits <=? 32 then
        if xBits =? 1 then
          r <- writeBit b index (negb (value =? 0)) ;; Ok (true, snd r)
        else if xBits =? 32 then
          m' <- write_uint32 m (nSlots b) index value ;; Ok (true, with_mem b m')
        else
          w <- read_uint32 m (bsize b) index ;;
          k <- safeMask 4294967295 32 xBits ;;
          let v := Z.land value k in
          wMask <- shl32 4294967295 xBits ;;
          m' <- write_uint32 m (nSlots b) index (maskMerge w v wMask) ;;
          Ok (true, with_mem b m')
      else Ok (false, b)
  | None => Ok (false, b)
  end.

(** bitfield.cpp:163-175 - the float is its 32-bit pattern (memcpy). *)
Definition readFloat (b : bitfield) (index : Z) : res Z :=
  match field b with
  | Some m => read_uint32 m (bsize b) index
  | None => Ok 0
  end.

(** bitfield.cpp:177-191 *)
Definition writeFloat (b : bitfield) (index value : Z) : res (bool * bitfield) :=
  match field b with
  | Some m => m' <- write_uint32 m (nSlots b) index value ;; Ok (true, with_mem b m')
  | None => Ok (false, b)
  end.

(** bitfield.cpp:193-205 - dump( dst, n ).  [dst = None] is nullptr; the result
    [None] is the nullptr return, [Some d] the destination after memcpy. *)
Definition dump (b : bitfield) (dst : option (list Z)) (n : Z) : res (option (list Z)) :=
  match field b, dst with
  | Some m, Some d =>
      if n <=? bsize b / 8 then
        if (n <=? zlen m) && (n <=? zlen d)
        then Ok (Some (firstn (Z.to_nat n) m ++ skipn (Z.to_nat n) d))
        else Ub
      else Ok None
  | _, _ => Ok None
  end.

(** The mutating part of the public interface, for histories of calls. *)
Inductive bf_op : Type :=
| OpSet (i : Z)
| OpClear (i : Z)
| OpToggle (i : Z)
| OpWrite (i : Z) (v : bool)
| OpWriteN (i n v : Z)
| OpWriteFloat (i v : Z)
| OpSetAll
| OpClearAll.

Definition bf_step (b : bitfield) (o : bf_op) : res bitfield :=
  r <- match o with
       | OpSet i => setBit b i
       | OpClear i => clearBit b i
       | OpToggle i => toggleBit b i
       | OpWrite i v => writeBit b i v
       | OpWriteN i n v => writeUINTn b i n v
       | OpWriteFloat i v => writeFloat b i v
       | OpSetAll => setAll b
       | OpClearAll => clearAll b
       end ;;
  Ok (snd r).
