(** The value of a binary32 float in terms of its 32-bit pattern. *)
From Coq Require Import ZArith Reals Lra Lia Bool.
From Flocq Require Import Core IEEE754.BinarySingleNaN IEEE754.Binary IEEE754.Bits.
From Verif Require Import Base Arith Ext32.
Open Scope Z_scope.

Definition T23 : Z := 8388608.
Definition T31 : Z := 2147483648.
Definition PINF : Z := 2139095040.       (* pattern of +infinity *)
Definition sbit (s : bool) : Z := if s then T31 else 0.
Definition sgnR (s : bool) : R := if s then (-1)%R else 1%R.

(** The magnitude of the pattern [E * 2^23 + M]; also meaningful for M = 2^23. *)
Definition mag (E M : Z) : R := if E =? 0 then (IZR M * bpow radix2 (-149))%R else (IZR (T23 + M) * bpow radix2 (E - 150))%R.

Lemma split_pat b : 0 <= b < M32 -> exists s E M, b = sbit s + E * T23 + M /\ 0 <= E < 256 /\ 0 <= M < T23.
Proof.
  intros H. unfold M32, T23 in *.
  exists (T31 <=? b), ((b mod T31) / T23), (b mod T23). unfold sbit, T31, T23.
  pose proof (Z.div_mod b 8388608 ltac:(lia)). pose proof (Z.mod_pos_bound b 8388608 ltac:(lia)).
  pose proof (Z.div_mod b 2147483648 ltac:(lia)). pose proof (Z.mod_pos_bound b 2147483648 ltac:(lia)).
  pose proof (Z.div_mod (b mod 2147483648) 8388608 ltac:(lia)). pose proof (Z.mod_pos_bound (b mod 2147483648) 8388608 ltac:(lia)).
  assert (E : b mod 2147483648 mod 8388608 = b mod 8388608).
  { symmetry. rewrite H2 at 1. replace (2147483648 * (b / 2147483648) + b mod 2147483648) with (b mod 2147483648 + (b / 2147483648 * 256) * 8388608) by ring. apply Z_mod_plus_full. }
  destruct (Z.leb_spec 2147483648 b); lia.
Qed.

Lemma join_pat s E M : join_bits 23 8 s M E = sbit s + E * T23 + M.
Proof. unfold join_bits, sbit. rewrite Z.shiftl_mul_pow2 by lia. change (2 ^ 8) with 256. change (2 ^ 23) with T23. unfold T31, T23. destruct s; lia. Qed.
Lemma sbit_eq s s' E E' M M' : 0 <= E < 256 -> 0 <= M < T23 -> 0 <= E' < 256 -> 0 <= M' < T23 ->
  sbit s + E * T23 + M = sbit s' + E' * T23 + M' -> s = s' /\ E = E' /\ M = M'.
Proof. unfold sbit, T31, T23. destruct s, s'; lia. Qed.

(** What the pattern decodes to *)
Definition decoded (s : bool) (E M : Z) : full_float :=
  if E =? 0 then match M with Zpos p => F754_finite s p (-149) | _ => F754_zero s end
  else if E =? 255 then match M with Zpos p => F754_nan s p | _ => F754_infinity s end
  else F754_finite s (Z.to_pos (T23 + M)) (E - 150).

Lemma B2FF_bits s E M : 0 <= E < 256 -> 0 <= M < T23 -> B2FF 24 128 (b32_of_bits (sbit s + E * T23 + M)) = decoded s E M.
Proof.
  intros HE HM. unfold b32_of_bits, binary_float_of_bits. change (23 + 1) with 24. change (2 ^ (8 - 1)) with 128. 
  etransitivity; [apply (B2FF_FF2B 24 128)|].
  unfold binary_float_of_bits_aux. rewrite <- join_pat.
  rewrite (split_join_bits 23 8) by (change (2 ^ 23) with T23; change (2 ^ 8) with 256; lia).
  unfold decoded. change (2 ^ 8 - 1) with 255. change (2 ^ 23) with T23.
  destruct (Z.eqb_spec E 0) as [->|N0].
  - cbn [Zeq_bool Z.compare]. destruct M; try reflexivity. lia.
  - replace (Zeq_bool E 0) with false by (symmetry; apply Zeq_bool_false; auto).
    destruct (Z.eqb_spec E 255) as [->|N1].
    + replace (Zeq_bool 255 255) with true by reflexivity. destruct M; try reflexivity. lia.
    + replace (Zeq_bool E 255) with false by (symmetry; apply Zeq_bool_false; auto).
      rewrite (Z.add_comm M T23). destruct (T23 + M) as [|p|p] eqn:P; try (unfold T23 in *; lia).
      cbn [Z.to_pos]. f_equal. unfold SpecFloat.emin. lia.
Qed.

Lemma bits_range x : 0 <= bits_of_b32 x < M32.
Proof. unfold bits_of_b32. apply (bits_of_binary_float_range 23 8); reflexivity. Qed.
Lemma bits_inv x : b32_of_bits (bits_of_b32 x) = x.
Proof. unfold b32_of_bits, bits_of_b32. apply (binary_float_of_bits_of_binary_float 23 8); reflexivity. Qed.
Lemma of_bits_inv b : 0 <= b < M32 -> bits_of_b32 (b32_of_bits b) = b.
Proof. intros H. unfold b32_of_bits, bits_of_b32. apply (bits_of_binary_float_of_bits 23 8); try reflexivity. exact H. Qed.

(** Every float is the decoding of a pattern *)
Lemma patterned x : exists s E M, x = b32_of_bits (sbit s + E * T23 + M) /\ bits_of_b32 x = sbit s + E * T23 + M /\ 0 <= E < 256 /\ 0 <= M < T23.
Proof.
  destruct (split_pat _ (bits_range x)) as (s & E & M & H & HE & HM). exists s, E, M. rewrite <- H, bits_inv. auto.
Qed.

Lemma pat_range s E M : 0 <= E < 256 -> 0 <= M < T23 -> 0 <= sbit s + E * T23 + M < M32.
Proof. unfold sbit, T31, T23, M32. destruct s; lia. Qed.

Lemma pat_R s E M : 0 <= E < 255 -> 0 <= M < T23 -> B2R 24 128 (b32_of_bits (sbit s + E * T23 + M)) = (sgnR s * mag E M)%R.
Proof.
  intros HE HM. rewrite <- FF2R_B2FF, B2FF_bits by lia. unfold decoded, mag, sgnR.
  destruct (Z.eqb_spec E 0) as [->|N0].
  - destruct M as [|p|p]; cbn [FF2R]; [ring | unfold F2R; cbn [Fnum Fexp]; destruct s; cbn [cond_Zopp]; rewrite ?opp_IZR; ring | lia].
  - destruct (Z.eqb_spec E 255); [lia|]. cbn [FF2R]. unfold F2R; cbn [Fnum Fexp]. rewrite Z2Pos.id by (unfold T23; lia).
    destruct s; cbn [cond_Zopp]; rewrite ?opp_IZR; ring.
Qed.
Lemma pat_finite s E M : 0 <= E < 256 -> 0 <= M < T23 -> is_finite 24 128 (b32_of_bits (sbit s + E * T23 + M)) = negb (E =? 255).
Proof.
  intros HE HM. rewrite <- is_finite_B2FF, B2FF_bits by lia. unfold decoded. 
  destruct (Z.eqb_spec E 0) as [->|N0]; [destruct M; try reflexivity; lia|]. destruct (Z.eqb_spec E 255); [destruct M; reflexivity|reflexivity].
Qed.
Lemma pat_nan s E M : 0 <= E < 256 -> 0 <= M < T23 -> is_nan 24 128 (b32_of_bits (sbit s + E * T23 + M)) = (E =? 255) && negb (M =? 0).
Proof.
  intros HE HM. rewrite <- is_nan_B2FF, B2FF_bits by lia. unfold decoded. 
  destruct (Z.eqb_spec E 0) as [->|N0]; [destruct M; reflexivity|]. destruct (Z.eqb_spec E 255); [destruct M; try reflexivity; lia|reflexivity].
Qed.
Lemma pat_inf s : b32_of_bits (sbit s + 255 * T23 + 0) = B754_infinity 24 128 s.
Proof. apply B2FF_inj. rewrite B2FF_bits by (unfold T23; lia). reflexivity. Qed.
Lemma pat_zero s : b32_of_bits (sbit s + 0 * T23 + 0) = B754_zero 24 128 s.
Proof. apply B2FF_inj. rewrite B2FF_bits by (unfold T23; lia). reflexivity. Qed.
Lemma pat_sign s E M : 0 <= E < 256 -> 0 <= M < T23 -> Bsign 24 128 (b32_of_bits (sbit s + E * T23 + M)) = s.
Proof.
  intros HE HM. pose proof (B2FF_bits s E M HE HM) as H. set (x := b32_of_bits _) in *.
  assert (K : Bsign 24 128 x = sign_FF (B2FF 24 128 x)) by (destruct x; reflexivity). rewrite K, H. unfold decoded.
  destruct (E =? 0); [destruct M; reflexivity|]. destruct (E =? 255); [destruct M; reflexivity|reflexivity].
Qed.

(** ** The magnitude grows with the pattern *)
Lemma bpow_pos e : (0 < bpow radix2 e)%R. Proof. apply bpow_gt_0. Qed.
Lemma mag_carry E : 0 <= E -> mag E T23 = mag (E + 1) 0.
Proof.
  intros H. unfold mag. destruct (Z.eqb_spec (E + 1) 0); [lia|]. destruct (Z.eqb_spec E 0) as [->|N].
  - change (0 + 1 - 150) with (-149). rewrite Z.add_0_r. reflexivity.
  - replace (E + 1 - 150) with ((E - 150) + 1) by lia. rewrite bpow_plus. change (bpow radix2 1) with 2%R.
    rewrite Z.add_0_r. replace (T23 + T23) with (2 * T23) by lia. rewrite mult_IZR. lra.
Qed.
Lemma mag_lt E M N : M < N -> (mag E M < mag E N)%R.
Proof.
  intros H. unfold mag. destruct (E =? 0); (apply Rmult_lt_compat_r; [apply bpow_pos|apply IZR_lt; lia]).
Qed.
Lemma mag_nonneg E M : 0 <= M -> (0 <= mag E M)%R.
Proof. intros H. unfold mag. destruct (E =? 0); (apply Rmult_le_pos; [apply IZR_le; unfold T23; lia|left; apply bpow_pos]). Qed.
Lemma mag_pos E M : 0 <= E -> 0 <= M -> 0 < E * T23 + M -> (0 < mag E M)%R.
Proof.
  intros HE HM H. unfold mag. destruct (Z.eqb_spec E 0); (apply Rmult_lt_0_compat; [apply IZR_lt; unfold T23 in *; lia|apply bpow_pos]).
Qed.
Lemma mag_exp E F : 0 <= E < F -> (mag E T23 <= mag F 0)%R.
Proof.
  intros H. rewrite mag_carry by lia. unfold mag. destruct (Z.eqb_spec (E + 1) 0); [lia|]. destruct (Z.eqb_spec F 0); [lia|].
  apply Rmult_le_compat_l; [apply IZR_le; unfold T23; lia|]. apply bpow_le. lia.
Qed.
Lemma mag_mono E M E' M' : 0 <= E -> 0 <= E' -> 0 <= M < T23 -> 0 <= M' < T23 ->
  E * T23 + M < E' * T23 + M' -> (mag E M < mag E' M')%R.
Proof.
  intros HE HE' HM HM' H. destruct (Z.eq_dec E E') as [->|N]; [apply mag_lt; lia|].
  assert (E < E') by (unfold T23 in *; nia).
  pose proof (mag_lt E M T23 ltac:(lia)). pose proof (mag_exp E E' ltac:(lia)).
  destruct (Z.eq_dec M' 0) as [->|]; [|pose proof (mag_lt E' 0 M' ltac:(lia))]; lra.
Qed.
