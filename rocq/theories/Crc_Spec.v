(** What a CRC is, independently of the code: polynomials over GF(2) and the
    Rocksoft parameter model. *)
From Coq Require Import ZArith List Bool.
From Verif Require Import Base Crc_Model.
Import ListNotations.
Open Scope Z_scope.

(** A non-negative integer stands for the polynomial whose coefficient of x^i
    is bit i.  Addition is [Z.lxor], multiplication by x^k is [* 2^k]. *)

(** Carry-less product of two polynomials. *)
Fixpoint clmul_pos (q : positive) (g : Z) : Z :=
  match q with
  | xH => g
  | xO q' => 2 * clmul_pos q' g
  | xI q' => Z.lxor (2 * clmul_pos q' g) g
  end.
Definition clmul (q : N) (g : Z) : Z :=
  match q with N0 => 0 | Npos p => clmul_pos p g end.

(** [r] is the remainder of [a] modulo the degree-[w] polynomial [g]. *)
Definition is_rem (a g w r : Z) : Prop :=
  0 <= r < 2 ^ w /\ exists q : N, a = Z.lxor (clmul q g) r.

(** Mirror the low [n] bits of [x]: the bits are read least significant first
    and written most significant first. *)
Definition rev_bits (n : nat) (x : Z) : Z :=
  fold_left (fun acc i => 2 * acc + Z.b2z (Z.testbit x (Z.of_nat i))) (seq 0 n) 0.

(** The message as one polynomial, first byte most significant; each byte is
    mirrored when the input is reflected. *)
Definition msg_poly (refIn : bool) (msg : list Z) : Z :=
  fold_left (fun acc b => 256 * acc + (if refIn then rev_bits 8 b else b)) msg 0.

Record params := mkparams {
  p_width : Z; p_poly : Z; p_init : Z; p_refIn : bool; p_refOut : bool; p_xorOut : Z }.

(** The dividend: message times x^w, with init added to its first w bits. *)
Definition dividend (p : params) (msg : list Z) : Z :=
  Z.lxor (2 ^ p_width p * msg_poly (p_refIn p) msg)
         (2 ^ (8 * zlen msg) * (p_init p mod 2 ^ p_width p)).

(** The generator x^w + poly. *)
Definition generator (p : params) : Z := 2 ^ p_width p + p_poly p mod 2 ^ p_width p.

(** [v] is the CRC of [msg] under the parameters [p]. *)
Definition is_crc (p : params) (msg : list Z) (v : Z) : Prop :=
  exists r, is_rem (dividend p msg) (generator p) (p_width p) r /\
    v = Z.lxor (if p_refOut p then rev_bits (Z.to_nat (p_width p)) r else r)
               (p_xorOut p mod 2 ^ p_width p).

Definition mode_width (mode w : Z) : Prop :=
  (mode = 0 /\ w = 8) \/ (mode = 1 /\ w = 16) \/ (mode = 2 /\ w = 32).

Definition bytes (m : list Z) : Prop := Forall (fun b => 0 <= b < 256) m.
Definition u32 (x : Z) : Prop := 0 <= x < 2 ^ 32.

(** Byte-wise sum of two messages. *)
Fixpoint xor_msg (a b : list Z) : list Z :=
  match a, b with
  | x :: a', y :: b' => Z.lxor x y :: xor_msg a' b'
  | _, _ => []
  end.

(** The parameter sets written in the doc comments of crc.hpp (the comment of
    crc16_DNP is treated apart). *)
Definition documented_presets : list ((option (list Z) -> Z -> res Z) * params) :=
  [
   (** crc.hpp:65 *) (crc8, mkparams 8 7 0 false false 0);
   (** crc.hpp:77 *) (crc8_CDMA2000, mkparams 8 155 255 false false 0);
   (** crc.hpp:89 *) (crc8_DARC, mkparams 8 57 0 true true 0);
   (** crc.hpp:101 *) (crc8_DVS_S2, mkparams 8 213 0 false false 0);
   (** crc.hpp:113 *) (crc8_EBU, mkparams 8 29 255 true true 0);
   (** crc.hpp:125 *) (crc8_I_CODE, mkparams 8 29 253 false false 0);
   (** crc.hpp:137 *) (crc8_ITU, mkparams 8 7 0 false false 85);
   (** crc.hpp:149 *) (crc8_MAXIM, mkparams 8 49 0 true true 0);
   (** crc.hpp:161 *) (crc8_ROHC, mkparams 8 7 255 true true 0);
   (** crc.hpp:173 *) (crc8_WCDMA, mkparams 8 155 0 true true 0);
   (** crc.hpp:185 *) (crc16_CCITT_FALSE, mkparams 16 4129 65535 false false 0);
   (** crc.hpp:197 *) (crc16_ARC, mkparams 16 32773 0 true true 0);
   (** crc.hpp:209 *) (crc16_AUG_CCITT, mkparams 16 4129 7439 false false 0);
   (** crc.hpp:221 *) (crc16_BUYPASS, mkparams 16 32773 0 false false 0);
   (** crc.hpp:233 *) (crc16_CDMA2000, mkparams 16 51303 65535 false false 0);
   (** crc.hpp:245 *) (crc16_DDS_110, mkparams 16 32773 32781 false false 0);
   (** crc.hpp:257 *) (crc16_DECT_R, mkparams 16 1417 0 false false 1);
   (** crc.hpp:269 *) (crc16_DECT_X, mkparams 16 1417 0 false false 0);
   (** crc.hpp:293 *) (crc16_EN_13757, mkparams 16 15717 0 false false 65535);
   (** crc.hpp:305 *) (crc16_GENIBUS, mkparams 16 4129 65535 false false 65535);
   (** crc.hpp:317 *) (crc16_MAXIM, mkparams 16 32773 0 true true 65535);
   (** crc.hpp:329 *) (crc16_MCRF4XX, mkparams 16 4129 65535 true true 0);
   (** crc.hpp:341 *) (crc16_RIELLO, mkparams 16 4129 45738 true true 0);
   (** crc.hpp:353 *) (crc16_T10_DIF, mkparams 16 35767 0 false false 0);
   (** crc.hpp:365 *) (crc16_TELEDISK, mkparams 16 41111 0 false false 0);
   (** crc.hpp:377 *) (crc16_TMS37157, mkparams 16 4129 35308 true true 0);
   (** crc.hpp:389 *) (crc16_USB, mkparams 16 32773 65535 true true 65535);
   (** crc.hpp:401 *) (crc16_A, mkparams 16 4129 50886 true true 0);
   (** crc.hpp:413 *) (crc16_KERMIT, mkparams 16 4129 0 true true 0);
   (** crc.hpp:425 *) (crc16_MODBUS, mkparams 16 32773 65535 true true 0);
   (** crc.hpp:437 *) (crc16_X_25, mkparams 16 4129 65535 true true 65535);
   (** crc.hpp:449 *) (crc16_XMODEM, mkparams 16 4129 0 false false 0);
   (** crc.hpp:461 *) (crc32, mkparams 32 79764919 4294967295 true true 4294967295);
   (** crc.hpp:473 *) (crc32_BZIP2, mkparams 32 79764919 4294967295 false false 4294967295);
   (** crc.hpp:485 *) (crc32_C, mkparams 32 517762881 4294967295 true true 4294967295);
   (** crc.hpp:497 *) (crc32_D, mkparams 32 2821953579 4294967295 true true 4294967295);
   (** crc.hpp:509 *) (crc32_JAMCRC, mkparams 32 79764919 4294967295 true true 0);
   (** crc.hpp:521 *) (crc32_MPEG2, mkparams 32 79764919 4294967295 false false 0);
   (** crc.hpp:533 *) (crc32_POSIX, mkparams 32 79764919 0 false false 4294967295);
   (** crc.hpp:545 *) (crc32_Q, mkparams 32 2168537515 0 false false 0);
   (** crc.hpp:557 *) (crc32_XFER, mkparams 32 175 0 false false 0)
  ].

(** crc.hpp:281, the doc comment of crc16_DNP. *)
Definition documented_DNP : params := mkparams 16 15768 0 true true 65535.
(** The parameters the code of crc16_DNP (crc.hpp:287-290) passes, which are
    those of the published CRC-16/DNP. *)
Definition actual_DNP : params := mkparams 16 15717 0 true true 65535.
