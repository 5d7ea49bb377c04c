(** Final theorems about the CRC (C08..C13). *)
From Coq Require Import ZArith List Bool Lia.
From Verif Require Import Base Crc_Model Crc_Spec Crc_Proofs.
Import ListNotations.
Open Scope Z_scope.

(** C08.  [post] is whatever memory follows the message; it is never read. *)
Theorem C08_generic_is_polynomial_crc : forall mode w msg post poly init refIn refOut xorOut,
  mode_width mode w -> msg <> [] -> bytes msg ->
  exists v, generic mode (Some (msg ++ post)) (zlen msg) poly init refIn refOut xorOut = Ok v /\
    is_crc (mkparams w poly init refIn refOut xorOut) msg v.
Proof. exact generic_is_crc. Qed.
Print Assumptions C08_generic_is_polynomial_crc.

(** The specification determines the checksum: remainders are unique. *)
Theorem C08_spec_is_functional : forall p msg v v',
  0 <= p_width p -> is_crc p msg v -> is_crc p msg v' -> v = v'.
Proof. exact is_crc_unique. Qed.
Print Assumptions C08_spec_is_functional.

Definition check_msg : list Z := [49; 50; 51; 52; 53; 54; 55; 56; 57].

Example C08_example : mode_width CRC32 32 /\ check_msg <> [] /\ bytes check_msg /\
  generic CRC32 (Some check_msg) 9 79764919 4294967295 true true 4294967295 = Ok 3421780262.
Proof.
  split; [unfold mode_width, CRC32; lia|]. split; [discriminate|].
  split; [repeat constructor; lia | vm_compute; reflexivity].
Qed.

(** C09 *)
Theorem C09_crc_affine : forall mode w poly init refIn refOut xorOut a b c,
  mode_width mode w -> bytes a -> bytes b -> bytes c -> a <> [] ->
  length a = length b -> length b = length c ->
  let f m := generic mode (Some m) (zlen m) poly init refIn refOut xorOut in
  exists va vb vc, f a = Ok va /\ f b = Ok vb /\ f c = Ok vc /\
    f (xor_msg a (xor_msg b c)) = Ok (Z.lxor va (Z.lxor vb vc)).
Proof. exact crc_affine. Qed.
Print Assumptions C09_crc_affine.

Theorem C09_crc_linear : forall mode w poly refIn refOut a b,
  mode_width mode w -> bytes a -> bytes b -> a <> [] -> length a = length b ->
  let f m := generic mode (Some m) (zlen m) poly 0 refIn refOut 0 in
  exists va vb, f a = Ok va /\ f b = Ok vb /\ f (xor_msg a b) = Ok (Z.lxor va vb).
Proof. exact crc_linear. Qed.
Print Assumptions C09_crc_linear.

Example C09_example : mode_width CRC16 16 /\ bytes [1; 200; 3] /\ bytes [255; 0; 128] /\
  xor_msg [1; 200; 3] [255; 0; 128] = [254; 200; 131].
Proof. split; [unfold mode_width, CRC16; lia|]. repeat split; repeat constructor; lia. Qed.

(** C10 *)
Theorem C10_burst_detection : forall mode w poly init refIn refOut xorOut a b e k,
  mode_width mode w -> Z.odd poly = true -> bytes a -> bytes b -> a <> [] -> length a = length b ->
  Z.lxor (msg_poly refIn a) (msg_poly refIn b) = 2 ^ k * e -> 0 <= k -> 0 < e < 2 ^ w ->
  generic mode (Some a) (zlen a) poly init refIn refOut xorOut <>
  generic mode (Some b) (zlen b) poly init refIn refOut xorOut.
Proof. exact crc_burst. Qed.
Print Assumptions C10_burst_detection.

(** A burst of 7 bits straddling two bytes, with reflected input. *)
Example C10_example : Z.odd 49 = true /\ bytes [10; 224; 3; 9] /\ bytes [10; 16; 2; 9] /\
  Z.lxor (msg_poly true [10; 224; 3; 9]) (msg_poly true [10; 16; 2; 9]) = 2 ^ 15 * 31 /\ 0 < 31 < 2 ^ 8.
Proof. repeat split; repeat constructor; lia. Qed.

(** C11 *)
Theorem C11_incremental : forall mode w poly init refIn a b,
  mode_width mode w -> bytes a -> bytes b -> a <> [] -> b <> [] ->
  exists va, generic mode (Some a) (zlen a) poly init refIn false 0 = Ok va /\
    generic mode (Some (a ++ b)) (zlen (a ++ b)) poly init refIn false 0 =
    generic mode (Some b) (zlen b) poly va refIn false 0.
Proof. exact crc_incremental. Qed.
Print Assumptions C11_incremental.

Example C11_example : mode_width CRC8 8 /\ bytes [1; 2; 3] /\ bytes [4] /\
  generic CRC8 (Some [1; 2; 3; 4]) 4 7 1023 true false 0 = Ok 107.
Proof. split; [unfold mode_width, CRC8; lia|]. split; [repeat constructor; lia|].
  split; [repeat constructor; lia|]. vm_compute. reflexivity. Qed.

(** C12 *)
Theorem C12_range : forall mode w poly init refIn refOut xorOut msg post,
  mode_width mode w -> bytes msg -> msg <> [] ->
  exists v, generic mode (Some (msg ++ post)) (zlen msg) poly init refIn refOut xorOut = Ok v /\
    0 <= v < 2 ^ w /\
    generic mode (Some (msg ++ post)) (zlen msg) poly (init mod 2 ^ w) refIn refOut xorOut = Ok v.
Proof. exact crc_range. Qed.
Print Assumptions C12_range.

Theorem C12_degenerate : forall mode pData length poly init refIn refOut xorOut,
  pData = None \/ length <= 0 \/ (forall w, ~ mode_width mode w) ->
  generic mode pData length poly init refIn refOut xorOut = Ok 0.
Proof. exact crc_degenerate. Qed.
Print Assumptions C12_degenerate.

(** A length beyond the readable memory is an out-of-bounds read. *)
Theorem C12_overlong_undefined : forall mode w poly init refIn refOut xorOut msg n,
  mode_width mode w -> zlen msg < n -> generic mode (Some msg) n poly init refIn refOut xorOut = Ub.
Proof. exact get_in_range_or_ub. Qed.
Print Assumptions C12_overlong_undefined.

Example C12_example : (forall w, ~ mode_width 3 w) /\
  generic CRC8 (Some [49; 50]) 2 7 4294967295 true true 4294967295 = Ok 129 /\
  generic CRC8 (Some [49; 50]) 3 7 0 true true 0 = Ub.
Proof. split; [intros w; unfold mode_width; lia|]. split; vm_compute; reflexivity. Qed.

(** C13 *)
Theorem C13_presets_match_documentation :
  Forall (fun fp => forall msg post, msg <> [] -> bytes msg ->
    exists v, fst fp (Some (msg ++ post)) (zlen msg) = Ok v /\ is_crc (snd fp) msg v) documented_presets.
Proof. exact presets_ok. Qed.
Print Assumptions C13_presets_match_documentation.

Theorem C13_DNP_actual_parameters : forall msg post, msg <> [] -> bytes msg ->
  exists v, crc16_DNP (Some (msg ++ post)) (zlen msg) = Ok v /\ is_crc actual_DNP msg v.
Proof. exact DNP_actual. Qed.
Print Assumptions C13_DNP_actual_parameters.

Theorem C13_DNP_comment_refuted :
  exists msg v, msg <> [] /\ bytes msg /\ crc16_DNP (Some msg) (zlen msg) = Ok v /\
    ~ is_crc documented_DNP msg v.
Proof. exact DNP_doc_refuted. Qed.
Print Assumptions C13_DNP_comment_refuted.

(** Published check values (the CRC of "123456789"). *)
Example C13_example :
  length documented_presets = 41%nat /\
  crc32 (Some check_msg) 9 = Ok 3421780262 /\ crc32_C (Some check_msg) 9 = Ok 3808858755 /\
  crc16_DNP (Some check_msg) 9 = Ok 60034 /\ crc16_MODBUS (Some check_msg) 9 = Ok 19255 /\
  crc16_XMODEM (Some check_msg) 9 = Ok 12739 /\ crc8 (Some check_msg) 9 = Ok 244 /\
  crc8_DARC (Some check_msg) 9 = Ok 21 /\ crc16_TMS37157 (Some check_msg) 9 = Ok 9905.
Proof. vm_compute. repeat split. Qed.
