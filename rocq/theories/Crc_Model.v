(** Model of src/crc.cpp and src/include/crc.hpp. *)
From Coq Require Import ZArith List Bool.
From Verif Require Import Base.
Import ListNotations.
Open Scope Z_scope.

(** crc.cpp:6-22, the loop of reflect(): [k] iterations remain, [x] is the
    shrinking input, [r] the accumulator.  At iteration xBit = nBits - k the
    shift distance (nBits - 1) - xBit is k - 1. *)
Fixpoint reflect_loop (k : nat) (x r : Z) : Z :=
  match k with
  | O => r
  | S k' =>
      let r' := if negb (Z.land x 1 =? 0) then Z.lor r (w32 (Z.shiftl 1 (Z.of_nat k'))) else r in
      reflect_loop k' (Z.shiftr x 1) r'
  end.

(** crc.cpp:6-22 *)
Definition reflect (x nBits : Z) : Z := reflect_loop (Z.to_nat nBits) x 0.

(** crc.hpp:27-31, the enumeration crcMode; modes are plain integers here
    because a C++ caller can pass any value of the underlying type. *)
Definition CRC8 : Z := 0.
Definition CRC16 : Z := 1.
Definition CRC32 : Z := 2.

(** crc.cpp:54-57, one iteration of the inner loop. *)
Definition bit_step (topBit poly val : Z) : Z :=
  if negb (Z.land val topBit =? 0) then Z.lxor (w32 (Z.shiftl val 1)) poly
  else w32 (Z.shiftl val 1).

(** crc.cpp:54-57, eight iterations. *)
Definition byte_steps (topBit poly val : Z) : Z :=
  Nat.iter 8 (bit_step topBit poly) val.

(** crc.cpp:51-57, the body of the loop over the message. *)
Definition byte_step (wd1 topBit poly : Z) (refIn : bool) (val b : Z) : Z :=
  let x := if refIn then w32 (Z.shiftl (reflect b 8) wd1) else w32 (Z.shiftl b wd1) in
  byte_steps topBit poly (Z.lxor val x).

(** crc.cpp:49-58, the loop over the message, with the accesses msg[i] checked. *)
Fixpoint crc_loop (wd1 topBit poly : Z) (refIn : bool) (msg : list Z) (i : Z) (n : nat) (val : Z) : res Z :=
  match n with
  | O => Ok val
  | S n' =>
      b <- get msg i ;;
      crc_loop wd1 topBit poly refIn msg (i + 1) n' (byte_step wd1 topBit poly refIn val b)
  end.

(** crc.cpp:24-64.  [pData = None] is nullptr; the list is the readable memory
    behind the pointer. *)
Definition generic (mode : Z) (pData : option (list Z)) (length poly init : Z)
    (refIn refOut : bool) (xorOut : Z) : res Z :=
  match pData with
  | None => Ok 0
  | Some msg =>
    if (0 <? length) && ((mode =? CRC8) || (mode =? CRC16) || (mode =? CRC32)) then
      let width := if mode =? CRC8 then 8 else if mode =? CRC16 then 16 else 32 in
      let wd1 := width - 8 in
      let topBit := Z.shiftl 1 (width - 1) in
      let bitMask := Z.shiftr 4294967295 (32 - width) in
      let poly := Z.land poly bitMask in
      let xorOut := Z.land xorOut bitMask in
      val <- crc_loop wd1 topBit poly refIn msg 0 (Z.to_nat length) init ;;
      let val := if refOut then Z.lxor (reflect val width) xorOut else Z.lxor val xorOut in
      Ok (Z.land val bitMask)
    else Ok 0
  end.

(** ** The named presets *)

(** crc.hpp:71-74 *)
Definition crc8 (pData : option (list Z)) (length : Z) : res Z :=
  v <- generic CRC8 pData length 7 0 false false 0 ;; Ok (v mod 2 ^ 8).

(** crc.hpp:83-86 *)
Definition crc8_CDMA2000 (pData : option (list Z)) (length : Z) : res Z :=
  v <- generic CRC8 pData length 155 255 false false 0 ;; Ok (v mod 2 ^ 8).

(** crc.hpp:95-98 *)
Definition crc8_DARC (pData : option (list Z)) (length : Z) : res Z :=
  v <- generic CRC8 pData length 57 0 true true 0 ;; Ok (v mod 2 ^ 8).

(** crc.hpp:107-110 *)
Definition crc8_DVS_S2 (pData : option (list Z)) (length : Z) : res Z :=
  v <- generic CRC8 pData length 213 0 false false 0 ;; Ok (v mod 2 ^ 8).

(** crc.hpp:119-122 *)
Definition crc8_EBU (pData : option (list Z)) (length : Z) : res Z :=
  v <- generic CRC8 pData length 29 255 true true 0 ;; Ok (v mod 2 ^ 8).

(** crc.hpp:131-134 *)
Definition crc8_I_CODE (pData : option (list Z)) (length : Z) : res Z :=
  v <- generic CRC8 pData length 29 253 false false 0 ;; Ok (v mod 2 ^ 8).

(** crc.hpp:143-146 *)
Definition crc8_ITU (pData : option (list Z)) (length : Z) : res Z :=
  v <- generic CRC8 pData length 7 0 false false 85 ;; Ok (v mod 2 ^ 8).

(** crc.hpp:155-158 *)
Definition crc8_MAXIM (pData : option (list Z)) (length : Z) : res Z :=
  v <- generic CRC8 pData length 49 0 true true 0 ;; Ok (v mod 2 ^ 8).

(** crc.hpp:167-170 *)
Definition crc8_ROHC (pData : option (list Z)) (length : Z) : res Z :=
  v <- generic CRC8 pData length 7 255 true true 0 ;; Ok (v mod 2 ^ 8).

(** crc.hpp:179-182 *)
Definition crc8_WCDMA (pData : option (list Z)) (length : Z) : res Z :=
  v <- generic CRC8 pData length 155 0 true true 0 ;; Ok (v mod 2 ^ 8).

(** crc.hpp:191-194 *)
Definition crc16_CCITT_FALSE (pData : option (list Z)) (length : Z) : res Z :=
  v <- generic CRC16 pData length 4129 65535 false false 0 ;; Ok (v mod 2 ^ 16).

(** crc.hpp:203-206 *)
Definition crc16_ARC (pData : option (list Z)) (length : Z) : res Z :=
  v <- generic CRC16 pData length 32773 0 true true 0 ;; Ok (v mod 2 ^ 16).

(** crc.hpp:215-218 *)
Definition crc16_AUG_CCITT (pData : option (list Z)) (length : Z) : res Z :=
  v <- generic CRC16 pData length 4129 7439 false false 0 ;; Ok (v mod 2 ^ 16).

(** crc.hpp:227-230 *)
Definition crc16_BUYPASS (pData : option (list Z)) (length : Z) : res Z :=
  v <- generic CRC16 pData length 32773 0 false false 0 ;; Ok (v mod 2 ^ 16).

(** crc.hpp:239-242 *)
Definition crc16_CDMA2000 (pData : option (list Z)) (length : Z) : res Z :=
  v <- generic CRC16 pData length 51303 65535 false false 0 ;; Ok (v mod 2 ^ 16).

(** crc.hpp:251-254 *)
Definition crc16_DDS_110 (pData : option (list Z)) (length : Z) : res Z :=
  v <- generic CRC16 pData length 32773 32781 false false 0 ;; Ok (v mod 2 ^ 16).

(** crc.hpp:263-266 *)
Definition crc16_DECT_R (pData : option (list Z)) (length : Z) : res Z :=
  v <- generic CRC16 pData length 1417 0 false false 1 ;; Ok (v mod 2 ^ 16).

(** crc.hpp:275-278 *)
Definition crc16_DECT_X (pData : option (list Z)) (length : Z) : res Z :=
  v <- generic CRC16 pData length 1417 0 false false 0 ;; Ok (v mod 2 ^ 16).

(** crc.hpp:287-290 *)
Definition crc16_DNP (pData : option (list Z)) (length : Z) : res Z :=
  v <- generic CRC16 pData length 15717 0 true true 65535 ;; Ok (v mod 2 ^ 16).

(** crc.hpp:299-302 *)
Definition crc16_EN_13757 (pData : option (list Z)) (length : Z) : res Z :=
  v <- generic CRC16 pData length 15717 0 false false 65535 ;; Ok (v mod 2 ^ 16).

(** crc.hpp:311-314 *)
Definition crc16_GENIBUS (pData : option (list Z)) (length : Z) : res Z :=
  v <- generic CRC16 pData length 4129 65535 false false 65535 ;; Ok (v mod 2 ^ 16).

(** crc.hpp:323-326 *)
Definition crc16_MAXIM (pData : option (list Z)) (length : Z) : res Z :=
  v <- generic CRC16 pData length 32773 0 true true 65535 ;; Ok (v mod 2 ^ 16).

(** crc.hpp:335-338 *)
Definition crc16_MCRF4XX (pData : option (list Z)) (length : Z) : res Z :=
  v <- generic CRC16 pData length 4129 65535 true true 0 ;; Ok (v mod 2 ^ 16).

(** crc.hpp:347-350 *)
Definition crc16_RIELLO (pData : option (list Z)) (length : Z) : res Z :=
  v <- generic CRC16 pData length 4129 45738 true true 0 ;; Ok (v mod 2 ^ 16).

(** crc.hpp:359-362 *)
Definition crc16_T10_DIF (pData : option (list Z)) (length : Z) : res Z :=
  v <- generic CRC16 pData length 35767 0 false false 0 ;; Ok (v mod 2 ^ 16).

(** crc.hpp:371-374 *)
Definition crc16_TELEDISK (pData : option (list Z)) (length : Z) : res Z :=
  v <- generic CRC16 pData length 41111 0 false false 0 ;; Ok (v mod 2 ^ 16).

(** crc.hpp:383-386 *)
Definition crc16_TMS37157 (pData : option (list Z)) (length : Z) : res Z :=
  v <- generic CRC16 pData length 4129 35308 true true 0 ;; Ok (v mod 2 ^ 16).

(** crc.hpp:395-398 *)
Definition crc16_USB (pData : option (list Z)) (length : Z) : res Z :=
  v <- generic CRC16 pData length 32773 65535 true true 65535 ;; Ok (v mod 2 ^ 16).

(** crc.hpp:407-410 *)
Definition crc16_A (pData : option (list Z)) (length : Z) : res Z :=
  v <- generic CRC16 pData length 4129 50886 true true 0 ;; Ok (v mod 2 ^ 16).

(** crc.hpp:419-422 *)
Definition crc16_KERMIT (pData : option (list Z)) (length : Z) : res Z :=
  v <- generic CRC16 pData length 4129 0 true true 0 ;; Ok (v mod 2 ^ 16).

(** crc.hpp:431-434 *)
Definition crc16_MODBUS (pData : option (list Z)) (length : Z) : res Z :=
  v <- generic CRC16 pData length 32773 65535 true true 0 ;; Ok (v mod 2 ^ 16).

(** crc.hpp:443-446 *)
Definition crc16_X_25 (pData : option (list Z)) (length : Z) : res Z :=
  v <- generic CRC16 pData length 4129 65535 true true 65535 ;; Ok (v mod 2 ^ 16).

(** crc.hpp:455-458 *)
Definition crc16_XMODEM (pData : option (list Z)) (length : Z) : res Z :=
  v <- generic CRC16 pData length 4129 0 false false 0 ;; Ok (v mod 2 ^ 16).

(** crc.hpp:467-470 *)
Definition crc32 (pData : option (list Z)) (length : Z) : res Z :=
  v <- generic CRC32 pData length 79764919 4294967295 true true 4294967295 ;; Ok (v mod 2 ^ 32).

(** crc.hpp:479-482 *)
Definition crc32_BZIP2 (pData : option (list Z)) (length : Z) : res Z :=
  v <- generic CRC32 pData length 79764919 4294967295 false false 4294967295 ;; Ok (v mod 2 ^ 32).

(** crc.hpp:491-494 *)
Definition crc32_C (pData : option (list Z)) (length : Z) : res Z :=
  v <- generic CRC32 pData length 517762881 4294967295 true true 4294967295 ;; Ok (v mod 2 ^ 32).

(** crc.hpp:503-506 *)
Definition crc32_D (pData : option (list Z)) (length : Z) : res Z :=
  v <- generic CRC32 pData length 2821953579 4294967295 true true 4294967295 ;; Ok (v mod 2 ^ 32).

(** crc.hpp:515-518 *)
Definition crc32_JAMCRC (pData : option (list Z)) (length : Z) : res Z :=
  v <- generic CRC32 pData length 79764919 4294967295 true true 0 ;; Ok (v mod 2 ^ 32).

(** crc.hpp:527-530 *)
Definition crc32_MPEG2 (pData : option (list Z)) (length : Z) : res Z :=
  v <- generic CRC32 pData length 79764919 4294967295 false false 0 ;; Ok (v mod 2 ^ 32).

(** crc.hpp:539-542 *)
Definition crc32_POSIX (pData : option (list Z)) (length : Z) : res Z :=
  v <- generic CRC32 pData length 79764919 0 false false 4294967295 ;; Ok (v mod 2 ^ 32).

(** crc.hpp:551-554 *)
Definition crc32_Q (pData : option (list Z)) (length : Z) : res Z :=
  v <- generic CRC32 pData length 2168537515 0 false false 0 ;; Ok (v mod 2 ^ 32).

(** crc.hpp:563-566 *)
Definition crc32_XFER (pData : option (list Z)) (length : Z) : res Z :=
  v <- generic CRC32 pData length 175 0 false false 0 ;; Ok (v mod 2 ^ 32).
