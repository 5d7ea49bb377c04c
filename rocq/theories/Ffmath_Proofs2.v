(** Classes, signs, neighbours and exponents: ffmath on patterns, continued. *)
From Coq Require Import ZArith Reals Lra Lia Bool.
From Flocq Require Import Core IEEE754.BinarySingleNaN IEEE754.Binary IEEE754.Bits.
From Verif Require Import Base Arith Ext32 Bits32 Ffmath_Model Ffmath_Spec Ffmath_Proofs.
Open Scope Z_scope.

Lemma mod_pat s E M : 0 <= E < 256 -> 0 <= M < T23 -> (sbit s + E * T23 + M) mod T31 = E * T23 + M.
Proof.
  intros. pose proof (pattern_range E M ltac:(lia) ltac:(lia)). unfold sbit. destruct s.
  - symmetry. apply (Z.mod_unique _ _ 1); lia.
  - rewrite Z.mod_small; lia.
Qed.
Lemma land_no_sign s E M : 0 <= E < 256 -> 0 <= M < T23 -> Z.land (sbit s + E * T23 + M) NO_SIGN_MASK = E * T23 + M.
Proof. intros. rewrite no_sign by (apply pat_range; auto). apply mod_pat; auto. Qed.
Lemma land_sign s E M : 0 <= E < 256 -> 0 <= M < T23 -> Z.land (sbit s + E * T23 + M) SIGN_MASK = sbit s.
Proof.
  intros. rewrite only_sign by (apply pat_range; auto). f_equal. pose proof (pattern_range E M ltac:(lia) ltac:(lia)). unfold sbit. destruct s; [apply Z.leb_le|apply Z.leb_gt]; lia.
Qed.

(** ** Classes *)
Lemma classify_pat s E M : 0 <= E < 256 -> 0 <= M < T23 -> classify (pat s E M) =
  if E =? 0 then (if M =? 0 then FFP_ZERO else FFP_SUBNORMAL) else if E =? 255 then (if M =? 0 then FFP_INFINITE else FFP_NAN) else FFP_NORMAL.
Proof.
  intros HE HM. unfold classify. cbv zeta. rewrite asU_pat, land_no_sign by auto. unfold T23 in *.
  destruct (Z.eqb_spec E 0), (Z.eqb_spec E 255), (Z.eqb_spec M 0); repeat zcase; auto; lia.
Qed.
Lemma mag_small M : 0 <= M < T23 -> (mag 0 M < bpow radix2 (-126))%R.
Proof.
  intros H. replace (bpow radix2 (-126)) with (mag 0 T23); [apply mag_lt; lia|]. unfold mag. cbn [Z.eqb].
  change (IZR T23) with (bpow radix2 23). rewrite <- bpow_plus. reflexivity.
Qed.
Lemma mag_normal E M : 0 < E -> 0 <= M -> (bpow radix2 (-126) <= mag E M)%R.
Proof.
  intros H HM. unfold mag. destruct (Z.eqb_spec E 0); [lia|].
  apply Rle_trans with (IZR T23 * bpow radix2 (E - 150))%R.
  - change (IZR T23) with (bpow radix2 23). rewrite <- bpow_plus. apply bpow_le. lia.
  - apply Rmult_le_compat_r; [left; apply bpow_pos|]. apply IZR_le. lia.
Qed.
Lemma abs_pat s E M : 0 <= E < 255 -> 0 <= M < T23 -> Rabs (valR (pat s E M)) = mag E M.
Proof. intros. rewrite pat_R by auto. apply sgn_abs. apply mag_nonneg; lia. Qed.

Lemma classify_ok x :
  (classify x = FFP_ZERO <-> is_zero x) /\ (classify x = FFP_SUBNORMAL <-> is_subnormal x) /\ (classify x = FFP_NORMAL <-> is_normal x) /\
  (classify x = FFP_INFINITE <-> is_infinity x) /\ (classify x = FFP_NAN <-> is_nan 24 128 x = true).
Proof.
  destruct (patterned x) as (s & E & M & -> & _ & HE & HM). rewrite classify_pat by auto.
  unfold is_zero, is_subnormal, is_normal, is_infinity. rewrite pat_finite, pat_nan by auto.
  pose proof (bpow_pos (-126)).
  destruct (Z.eq_dec E 255) as [->|N].
  - cbn [Z.eqb Pos.eqb negb andb]. destruct (Z.eqb_spec M 0) as [->|]; cbn [negb].
    + rewrite pat_inf. intuition (try discriminate; eauto).
    + assert (NI : ~ exists s', pat s 255 M = B754_infinity 24 128 s').
      { intros (s' & K). assert (K1 : is_nan 24 128 (pat s 255 M) = true) by (rewrite pat_nan by lia; destruct (Z.eqb_spec M 0); auto; lia).
        rewrite K in K1. discriminate. }
      intuition (try discriminate; eauto).
  - destruct (Z.eqb_spec E 255); [lia|]. cbn [negb andb]. 
    assert (NI : ~ exists s', pat s E M = B754_infinity 24 128 s').
    { intros (s' & K). assert (F1 : is_finite 24 128 (pat s E M) = true) by (rewrite pat_finite by lia; destruct (Z.eqb_spec E 255); auto; lia). rewrite K in F1. discriminate. }
    rewrite abs_pat, pat_R by lia. 
    destruct (Z.eqb_spec E 0) as [->|N0].
    + pose proof (mag_small M HM). destruct (Z.eqb_spec M 0) as [->|NM].
      * rewrite mag_0_0 in *. intuition (try discriminate; try lra).
      * pose proof (mag_pos 0 M ltac:(lia) ltac:(lia) ltac:(lia)). assert (sgnR s * mag 0 M <> 0)%R by (destruct s; cbn [sgnR]; lra).
        intuition (try discriminate; try lra).
    + pose proof (mag_normal E M ltac:(lia) ltac:(lia)). assert (sgnR s * mag E M <> 0)%R by (destruct s; cbn [sgnR]; lra).
      intuition (try discriminate; try lra).
Qed.

(** ** Signs *)
Lemma lor_sign s p : 0 <= p < T31 -> Z.lor p (sbit s) = sbit s + p.
Proof.
  intros H. assert (L : Z.land p (sbit s) = 0).
  { destruct s; [|apply Z.land_0_r]. rewrite <- (Z.mod_small p T31) by auto. change (p mod T31) with (p mod 2 ^ 31).
    rewrite <- land_low by lia. rewrite <- Z.land_assoc. apply Z.land_0_r. }
  rewrite Z.add_comm, Z.add_nocarry_lxor, Z.lxor_lor by auto. reflexivity.
Qed.
Lemma copysign_pat s E M s' E' M' : 0 <= E < 256 -> 0 <= M < T23 -> 0 <= E' < 256 -> 0 <= M' < T23 ->
  copysign (pat s E M) (pat s' E' M') = pat s' E M.
Proof.
  intros. unfold copysign. cbv zeta. rewrite !asU_pat, land_no_sign, land_sign by auto. rewrite lor_sign by (apply pattern_range; auto). unfold ofU. f_equal. ring.
Qed.
Lemma abs_pat_eq s E M : 0 <= E < 256 -> 0 <= M < T23 -> absolute (pat s E M) = pat false E M.
Proof. intros. unfold absolute. rewrite asU_pat, Z.land_comm, land_no_sign by auto. unfold ofU. f_equal. Qed.

(** ** The order of floats is the order of their signed magnitudes *)
Definition keyed (s : bool) (p : Z) : Z := if s then - p else p.
Definition key (x : binary32) : Z := let b := bits_of_b32 x in if b <? T31 then b else T31 - b.
Definition Vkey (k : Z) : R := (IZR (Z.sgn k) * mag (Z.abs k / T23) (Z.abs k mod T23))%R.

Lemma key_pat s E M : 0 <= E < 256 -> 0 <= M < T23 -> key (pat s E M) = keyed s (E * T23 + M).
Proof.
  intros. unfold key. cbv zeta. rewrite of_bits_inv by (apply pat_range; auto). pose proof (pattern_range E M ltac:(lia) ltac:(lia)). unfold sbit, keyed. destruct s; zcase; lia.
Qed.
Lemma ext_pat s E M : 0 <= E < 256 -> 0 <= M < T23 -> (E = 255 -> M = 0) -> ext32 (pat s E M) = (sgnR s * mag E M)%R.
Proof.
  intros HE HM HN. destruct (Z.eq_dec E 255) as [->|N].
  - rewrite HN by auto. rewrite pat_inf. cbn [ext32]. unfold mag. cbn [Z.eqb]. rewrite Z.add_0_r. change (IZR T23) with (bpow radix2 23). rewrite <- bpow_plus.
    change (23 + (255 - 150)) with 128. destruct s; cbn [sgnR]; lra.
  - rewrite ext32_finite, pat_R by (rewrite ?pat_finite by lia; destruct (Z.eqb_spec E 255); auto; lia). reflexivity.
Qed.
Lemma ext_key x : is_nan 24 128 x = false -> ext32 x = Vkey (key x) /\ - PINF <= key x <= PINF.
Proof.
  destruct (patterned x) as (s & E & M & -> & _ & HE & HM). rewrite pat_nan, key_pat by auto. intros N.
  assert (E = 255 -> M = 0). { intros ->. cbn in N. destruct (Z.eqb_spec M 0); auto; discriminate. }
  rewrite ext_pat by auto. split.
  - unfold Vkey, keyed. assert (Z.abs (if s then - (E * T23 + M) else E * T23 + M) = E * T23 + M) as -> by (unfold T23 in *; destruct s; lia).
    replace ((E * T23 + M) / T23) with E by (apply (Z.div_unique _ _ _ M); unfold T23 in *; lia).
    replace ((E * T23 + M) mod T23) with M by (apply (Z.mod_unique _ _ E); unfold T23 in *; lia).
    destruct (Z.eq_dec (E * T23 + M) 0) as [Z0|Z0].
    + assert (E = 0 /\ M = 0) as [-> ->] by (unfold T23 in *; lia). rewrite mag_0_0. ring.
    + f_equal. unfold sgnR. destruct s; [rewrite Z.sgn_neg|rewrite Z.sgn_pos]; auto; unfold T23 in *; lia.
  - unfold keyed, PINF, T23 in *. destruct s; lia.
Qed.
Lemma Vkey_mono a b : a < b -> (Vkey a < Vkey b)%R.
Proof.
  intros H. unfold Vkey.
  assert (T : 0 < T23) by (unfold T23; lia).
  pose proof (Z.mod_pos_bound (Z.abs a) T23 T). pose proof (Z.mod_pos_bound (Z.abs b) T23 T).
  pose proof (Z.div_mod (Z.abs a) T23 ltac:(lia)) as Da. pose proof (Z.div_mod (Z.abs b) T23 ltac:(lia)) as Db.
  pose proof (Z.div_pos (Z.abs a) T23 ltac:(lia) T). pose proof (Z.div_pos (Z.abs b) T23 ltac:(lia) T).
  set (ea := Z.abs a / T23) in *. set (eb := Z.abs b / T23) in *. set (ma := Z.abs a mod T23) in *. set (mb := Z.abs b mod T23) in *.
  destruct (Z.lt_trichotomy a 0) as [A|[A|A]], (Z.lt_trichotomy b 0) as [B|[B|B]]; try lia.
  - rewrite !Z.sgn_neg by auto. assert (mag eb mb < mag ea ma)%R by (apply mag_mono; lia). lra.
  - rewrite (Z.sgn_neg a), (Z.sgn_null b) by auto. assert (0 < mag ea ma)%R by (apply mag_pos; lia). lra.
  - rewrite (Z.sgn_neg a), (Z.sgn_pos b) by auto. assert (0 < mag ea ma)%R by (apply mag_pos; lia). assert (0 < mag eb mb)%R by (apply mag_pos; lia). lra.
  - rewrite (Z.sgn_null a), (Z.sgn_pos b) by auto. assert (0 < mag eb mb)%R by (apply mag_pos; lia). lra.
  - rewrite !Z.sgn_pos by auto. assert (mag ea ma < mag eb mb)%R by (apply mag_mono; lia). lra.
Qed.
Lemma key_lt x y : is_nan 24 128 x = false -> is_nan 24 128 y = false -> (ext32 x < ext32 y)%R <-> key x < key y.
Proof.
  intros Hx Hy. destruct (ext_key x Hx) as (-> & _). destruct (ext_key y Hy) as (-> & _). split; [|apply Vkey_mono].
  intros H. destruct (Z.lt_ge_cases (key x) (key y)); auto. destruct (Z.eq_dec (key x) (key y)) as [E|]; [rewrite E in H; lra|].
  pose proof (Vkey_mono (key y) (key x) ltac:(lia)). lra.
Qed.
Lemma key_eq x y : is_nan 24 128 x = false -> is_nan 24 128 y = false -> ext32 x = ext32 y <-> key x = key y.
Proof.
  intros Hx Hy. split.
  - intros H. pose proof (key_lt x y Hx Hy). pose proof (key_lt y x Hy Hx). rewrite H in *. destruct (Z.lt_trichotomy (key x) (key y)) as [A|[A|A]]; auto; [apply H0 in A|apply H1 in A]; lra.
  - intros H. destruct (ext_key x Hx) as (-> & _). destruct (ext_key y Hy) as (-> & _). rewrite H. auto.
Qed.

(** A pattern by its key *)
Lemma of_key s p : 0 <= p <= PINF -> is_nan 24 128 (b32_of_bits (sbit s + p)) = false /\ key (b32_of_bits (sbit s + p)) = keyed s p.
Proof.
  intros H. assert (T : 0 < T23) by (unfold T23; lia).
  pose proof (Z.mod_pos_bound p T23 T). pose proof (Z.div_mod p T23 ltac:(lia)) as D.
  assert (0 <= p / T23 < 256) by (split; [apply Z.div_pos; lia|apply Z.div_lt_upper_bound; unfold PINF, T23 in *; lia]).
  replace (sbit s + p) with (sbit s + (p / T23) * T23 + p mod T23) by lia.
  rewrite pat_nan, key_pat by lia. split; [|f_equal; lia].
  destruct (Z.eqb_spec (p / T23) 255); auto. destruct (Z.eqb_spec (p mod T23) 0); auto. unfold PINF, T23 in *. lia.
Qed.

(** The neighbour one step towards y *)
Lemma isNan_ok x : isNan x = is_nan 24 128 x.
Proof.
  unfold isNan. destruct (classify_ok x) as (_ & _ & _ & _ & H). destruct (classify x) eqn:C, (is_nan 24 128 x) eqn:N; auto; destruct H as [H1 H2]; try (discriminate (H2 eq_refl)); discriminate (H1 eq_refl).
Qed.
Lemma next_key x y : is_nan 24 128 x = false -> is_nan 24 128 y = false ->
  is_nan 24 128 (nextAfter x y) = false /\
  (key x = key y -> nextAfter x y = y) /\ (key x < key y -> key (nextAfter x y) = key x + 1) /\ (key y < key x -> key (nextAfter x y) = key x - 1).
Proof.
  destruct (patterned x) as (s & E & M & -> & _ & HE & HM). destruct (patterned y) as (s' & E' & M' & -> & _ & HE' & HM').
  intros Nx Ny. unfold nextAfter. cbv zeta. rewrite !isNan_ok, Nx, Ny. cbn [orb].
  rewrite !asU_pat, !land_no_sign, !key_pat by auto.
  assert (Bx : 0 <= E * T23 + M <= PINF). { pose proof (proj2 (ext_key _ Nx)) as K. rewrite key_pat in K by auto. unfold keyed in K. unfold T23 in *. destruct s; lia. }
  assert (By : 0 <= E' * T23 + M' <= PINF). { pose proof (proj2 (ext_key _ Ny)) as K. rewrite key_pat in K by auto. unfold keyed in K. unfold T23 in *. destruct s'; lia. }
  assert (LX : Z.land (Z.lxor (sbit s + E * T23 + M) (sbit s' + E' * T23 + M')) SIGN_MASK = sbit (xorb s s')).
  { assert (K : forall a b c, Z.land (Z.lxor a b) c = Z.lxor (Z.land a c) (Z.land b c)).
    { intros. apply Z.bits_inj'. intros n Hn. rewrite Z.land_spec, !Z.lxor_spec, !Z.land_spec. destruct (Z.testbit a n), (Z.testbit b n), (Z.testbit c n); reflexivity. }
    rewrite K, !land_sign by auto. destruct s, s'; reflexivity. }
  rewrite LX.
  replace (Z.land (sbit s' + E' * T23 + M') SIGN_MASK) with (sbit s') by (symmetry; apply land_sign; auto).
  set (p := E * T23 + M) in *. set (p' := E' * T23 + M') in *.
  replace (sbit s + E * T23 + M) with (sbit s + p) in * by (unfold p; ring). replace (sbit s' + E' * T23 + M') with (sbit s' + p') in * by (unfold p'; ring).
  clearbody p p'. clear E M E' M' HE HM HE' HM' LX. pose proof (of_key s' p' By) as (_ & Ky).
  assert (Q1 : forall z, 1 <= z + 1 <= PINF -> w32 (sbit s + z + 1) = sbit s + (z + 1)).
  { intros z Hz. unfold w32. rewrite Z.mod_small; [ring|]. unfold sbit, T31, M32, PINF in *. destruct s; lia. }
  assert (Q2 : forall z, 1 <= z <= PINF -> w32 (sbit s + z - 1) = sbit s + (z - 1)).
  { intros z Hz. unfold w32. rewrite Z.mod_small; [ring|]. unfold sbit, T31, M32, PINF in *. destruct s; lia. }
  destruct (Z.eqb_spec (sbit s + p) (sbit s' + p')) as [B|B].
  - assert (s = s' /\ p = p') as [-> ->] by (unfold sbit, T31, PINF in *; destruct s, s'; lia). split; [auto|]. split; [auto|]. lia.
  - destruct (Z.eqb_spec p 0) as [P0|P0].
    + subst p. destruct (Z.eqb_spec p' 0) as [P1|P1].
      * subst p'. unfold ofU. split; [auto|]. split; [auto|]. unfold keyed. destruct s, s'; lia.
      * rewrite Z.lor_comm, lor_sign by (unfold T31; lia). unfold ofU. destruct (of_key s' 1) as (N1 & K1); [unfold PINF; lia|]. rewrite N1, K1. split; [auto|].
        unfold keyed. destruct s, s'; split; lia.
    + assert (SX : negb (sbit (xorb s s') =? 0) = xorb s s') by (destruct s, s'; reflexivity). rewrite SX.
      destruct (Z.ltb_spec p' p) as [L|L]; [cbn [orb]|destruct (xorb s s') eqn:XS; cbn [orb]].
      * unfold ofU. rewrite Q2 by lia. destruct (of_key s (p - 1)) as (N1 & K1); [lia|]. rewrite N1, K1. split; [auto|]. unfold keyed. destruct s, s'; split; try lia.
      * unfold ofU. rewrite Q2 by lia. destruct (of_key s (p - 1)) as (N1 & K1); [lia|]. rewrite N1, K1. split; [auto|]. unfold keyed. destruct s, s'; try discriminate; split; try lia.
      * assert (s = s') by (destruct s, s'; auto; discriminate). subst s'. assert (p <> p') by (intros ->; auto).
        unfold ofU. rewrite Q1 by lia. destruct (of_key s (p + 1)) as (N1 & K1); [lia|]. rewrite N1, K1. split; [auto|]. unfold keyed. destruct s; split; lia.
Qed.

(** ** Exponents *)
Lemma field s E M : 0 <= E < 256 -> 0 <= M < T23 -> Z.land (Z.shiftr (sbit s + E * T23 + M) 23) 255 = E.
Proof.
  intros HE HM. change 255 with (2 ^ 8 - 1). rewrite land_low by lia. rewrite Z.shiftr_div_pow2 by lia. change (2 ^ 23) with T23. change (2 ^ 8) with 256.
  unfold sbit. destruct s.
  - replace ((T31 + E * T23 + M) / T23) with (E + 256) by (apply (Z.div_unique _ _ _ M); unfold T31, T23 in *; lia). symmetry. apply (Z.mod_unique _ _ 1); lia.
  - replace ((0 + E * T23 + M) / T23) with E by (apply (Z.div_unique _ _ _ M); unfold T31, T23 in *; lia). apply Z.mod_small; lia.
Qed.
Lemma frac_sign s E M : 0 <= E < 256 -> 0 <= M < T23 -> Z.land (sbit s + E * T23 + M) 2155872255 = sbit s + M.
Proof.
  intros HE HM. change 2155872255 with (Z.lor SIGN_MASK (2 ^ 23 - 1)). rewrite Z.land_lor_distr_r, land_sign, land_low by lia. change (2 ^ 23) with T23.
  replace ((sbit s + E * T23 + M) mod T23) with M.
  - rewrite Z.lor_comm. apply lor_sign. unfold T31, T23 in *. lia.
  - apply (Z.mod_unique _ _ (E + (if s then 256 else 0))); unfold sbit, T31, T23 in *; destruct s; lia.
Qed.
Lemma lor_field s E M : 0 <= E < 256 -> 0 <= M < T23 -> Z.lor (Z.shiftl E 23) (sbit s + M) = sbit s + E * T23 + M.
Proof.
  intros HE HM. rewrite <- (lor_sign s M), Z.lor_assoc by (unfold T31, T23 in *; lia).
  rewrite Z.shiftl_mul_pow2 by lia. change (2 ^ 23) with T23.
  assert (K : Z.lor (E * T23) M = E * T23 + M).
  { assert (L : Z.land (E * T23) M = 0).
    { rewrite <- (Z.mod_small M T23) by auto. change (M mod T23) with (M mod 2 ^ 23). rewrite <- land_low by lia.
      rewrite (Z.land_comm M), Z.land_assoc, land_low by lia. change (2 ^ 23) with T23. rewrite Z_mod_mult. apply Z.land_0_l. }
    rewrite Z.add_nocarry_lxor, Z.lxor_lor by auto. reflexivity. }
  rewrite K, lor_sign by (apply pattern_range; auto). ring.
Qed.
Lemma rexp_pat s E M : 0 <= E < 256 -> 0 <= M < T23 -> rexp (pat s E M) = (pat s 126 M, E - 126).
Proof.
  intros. unfold rexp. cbv zeta. rewrite asU_pat, field, frac_sign by auto. rewrite Z.lor_comm. change 1056964608 with (Z.shiftl 126 23). rewrite lor_field by lia. reflexivity.
Qed.
Lemma ldexp_pat s E M k : 0 <= E < 256 -> 0 <= M < T23 -> - T31 <= E + k < T31 -> ldexp (pat s E M) k = Ok (pat s ((E + k) mod 256) M).
Proof.
  intros HE HM K. unfold ldexp. cbv zeta. rewrite asU_pat, field, frac_sign by auto. rewrite i32_ok by auto. cbn [bind].
  change 255 with (2 ^ 8 - 1). rewrite land_low by lia. change (2 ^ 8) with 256.
  assert (w32 (E + k) mod 256 = (E + k) mod 256) as ->. { unfold w32, M32. symmetry. apply Znumtheory.Zmod_div_mod; [lia..|]. exists 16777216. reflexivity. }
  pose proof (Z.mod_pos_bound (E + k) 256 ltac:(lia)). rewrite lor_field by lia. reflexivity.
Qed.
Lemma ldexp_ub s E M k : 0 <= E < 256 -> 0 <= M < T23 -> ~ (- T31 <= E + k < T31) -> ldexp (pat s E M) k = Ub.
Proof.
  intros HE HM K. unfold ldexp. cbv zeta. rewrite asU_pat, field, frac_sign by auto. unfold i32, T31 in *.
  destruct (Z.leb_spec (-2147483648) (E + k)), (Z.ltb_spec (E + k) 2147483648); auto; lia.
Qed.
Lemma mag_scale E M k : 0 < E -> 0 < E + k -> mag (E + k) M = (mag E M * bpow radix2 k)%R.
Proof.
  intros. unfold mag. destruct (Z.eqb_spec (E + k) 0); [lia|]. destruct (Z.eqb_spec E 0); [lia|]. rewrite Rmult_assoc, <- bpow_plus. do 2 f_equal. lia.
Qed.
