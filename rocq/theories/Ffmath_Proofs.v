(** The functions of Ffmath_Model.v on patterns. *)
From Coq Require Import ZArith Reals Lra Lia Bool.
From Flocq Require Import Core IEEE754.BinarySingleNaN IEEE754.Binary IEEE754.Bits.
From Verif Require Import Base Arith Ext32 Bits32 Ffmath_Model Ffmath_Spec.
Open Scope Z_scope.

(** ** Masks *)
Lemma land_low a k : 0 <= k -> Z.land a (2 ^ k - 1) = a mod 2 ^ k.
Proof. intros H. replace (2 ^ k - 1) with (Z.ones k) by (rewrite Z.ones_equiv; lia). apply Z.land_ones; auto. Qed.
Lemma land_high a k : 0 <= k -> Z.land a (Z.lnot (2 ^ k - 1)) = a - a mod 2 ^ k.
Proof.
  intros H. replace (2 ^ k - 1) with (Z.ones k) by (rewrite Z.ones_equiv; lia).
  change (Z.land a (Z.lnot (Z.ones k))) with (Z.ldiff a (Z.ones k)) || rewrite <- Z.ldiff_land.
  rewrite Z.ldiff_ones_r by auto. rewrite Z.shiftl_mul_pow2, Z.shiftr_div_pow2 by auto.
  pose proof (Z.div_mod a (2 ^ k) ltac:(apply Z.pow_nonzero; lia)). lia.
Qed.
Lemma no_sign a : 0 <= a < M32 -> Z.land a NO_SIGN_MASK = a mod T31.
Proof. intros _. apply (land_low a 31). lia. Qed.
Lemma only_sign a : 0 <= a < M32 -> Z.land a SIGN_MASK = sbit (T31 <=? a).
Proof.
  intros H. change SIGN_MASK with (Z.shiftl 1 31).
  assert (E : Z.land a (Z.shiftl 1 31) = Z.shiftl (Z.land (Z.shiftr a 31) 1) 31).
  { apply Z.bits_inj'. intros n Hn. rewrite Z.land_spec.
    destruct (Z.lt_ge_cases n 31).
    - rewrite !Z.shiftl_spec_low by auto. apply andb_false_r.
    - rewrite !Z.shiftl_spec by lia. rewrite Z.land_spec, Z.shiftr_spec by lia. f_equal. f_equal. lia. }
  rewrite E. change 1 with (2 ^ 1 - 1) at 1. rewrite land_low by lia. rewrite Z.shiftr_div_pow2, Z.shiftl_mul_pow2 by lia.
  change (2 ^ 31) with T31. change (2 ^ 1) with 2. unfold sbit, T31, M32 in *.
  destruct (Z.leb_spec 2147483648 a).
  - replace (a / 2147483648) with 1 by (apply (Z.div_unique a 2147483648 1 (a - 2147483648)); lia). reflexivity.
  - rewrite Z.div_small by lia. reflexivity.
Qed.

(** ** Patterns *)
Notation pat s E M := (b32_of_bits (sbit s + E * T23 + M)).
Lemma asU_pat s E M : 0 <= E < 256 -> 0 <= M < T23 -> asU (pat s E M) = sbit s + E * T23 + M.
Proof. intros. unfold asU. apply of_bits_inv, pat_range; auto. Qed.
Lemma asI_pat s E M : 0 <= E < 256 -> 0 <= M < T23 -> asI (pat s E M) = E * T23 + M - sbit s.
Proof.
  intros. unfold asI. cbv zeta. rewrite asU_pat by auto. change 2147483648 with T31. unfold sbit, T31, M32, T23 in *.
  destruct s; [destruct (Z.ltb_spec (2147483648 + E * 8388608 + M) 2147483648)|destruct (Z.ltb_spec (0 + E * 8388608 + M) 2147483648)]; lia.
Qed.
Lemma ofI_pat s p : 0 <= p < T31 -> ofI (p - sbit s) = b32_of_bits (sbit s + p).
Proof.
  intros H. unfold ofI. f_equal. unfold w32, sbit, T31, M32 in *. destruct s.
  - symmetry. apply (Z.mod_unique _ _ (-1)); lia.
  - rewrite Z.mod_small; lia.
Qed.
Lemma mod_sub s p q : (q | T23) -> 0 < q -> (p - sbit s) mod q = p mod q.
Proof.
  intros [w Hw] Hq. unfold sbit. destruct s; [|f_equal; lia].
  replace (p - T31) with (p + (- (w * 256)) * q) by (unfold T31, T23 in *; lia). apply Z_mod_plus_full.
Qed.
Lemma expo_pat s E M : 0 <= E < 256 -> 0 <= M < T23 -> expo (E * T23 + M - sbit s) = E - 127.
Proof.
  intros HE HM. unfold expo. f_equal. change 255 with (2 ^ 8 - 1). rewrite land_low by lia. rewrite Z.shiftr_div_pow2 by lia.
  change (2 ^ 23) with T23. change (2 ^ 8) with 256. unfold sbit. destruct s.
  - replace ((E * T23 + M - T31) / T23) with (E - 256) by (apply (Z.div_unique _ _ _ M); unfold T31, T23 in *; lia).
    symmetry. apply (Z.mod_unique _ _ (-1)); lia.
  - replace ((E * T23 + M - 0) / T23) with E by (apply (Z.div_unique _ _ _ M); unfold T23 in *; lia). apply Z.mod_small; lia.
Qed.
(** Carries into the exponent field included *)
Lemma pat_R1 s E M : 0 <= E < 254 -> 0 <= M <= T23 -> 
  finite (pat s E M) /\ Bsign 24 128 (pat s E M) = s /\ valR (pat s E M) = (sgnR s * mag E M)%R.
Proof.
  intros HE HM. destruct (Z.eq_dec M T23) as [->|N].
  - replace (sbit s + E * T23 + T23) with (sbit s + (E + 1) * T23 + 0) by ring. rewrite mag_carry by lia.
    rewrite pat_finite, pat_sign, pat_R by (unfold T23; lia). destruct (Z.eqb_spec (E + 1) 255); [lia|auto].
  - rewrite pat_finite, pat_sign, pat_R by lia. destruct (Z.eqb_spec E 255); [lia|auto].
Qed.

(** ** Between 1 and 2^23: the pattern modulo the unit *)
Lemma unit_of E : 127 <= E < 150 -> exists w, Z.shiftr 8388607 (E - 127) = 2 ^ (150 - E) - 1 /\ Z.shiftr 8388608 (E - 127) = 2 ^ (150 - E) /\
  T23 = w * 2 ^ (150 - E) /\ 0 < 2 ^ (150 - E) /\ 1 <= w /\ bpow radix2 (E - 150) = (/ IZR (2 ^ (150 - E)))%R.
Proof.
  intros H. exists (2 ^ (E - 127)).
  assert (P : T23 = 2 ^ (E - 127) * 2 ^ (150 - E)) by (rewrite <- Z.pow_add_r by lia; replace (E - 127 + (150 - E)) with 23 by lia; reflexivity).
  assert (Q : 0 < 2 ^ (150 - E)) by (apply Z.pow_pos_nonneg; lia). assert (W : 0 < 2 ^ (E - 127)) by (apply Z.pow_pos_nonneg; lia).
  split; [|split; [|split; [auto|split; [auto|split; [lia|]]]]].
  - rewrite Z.shiftr_div_pow2 by lia. symmetry. apply (Z.div_unique _ _ _ (2 ^ (E - 127) - 1)); unfold T23 in *; nia.
  - rewrite Z.shiftr_div_pow2 by lia. symmetry. apply (Z.div_unique _ _ _ 0); unfold T23 in *; nia.
  - replace (E - 150) with (- (150 - E)) by lia. rewrite bpow_opp. f_equal. symmetry. apply (IZR_Zpower radix2). lia.
Qed.

(** The value, its integer and fractional parts *)
Lemma parts E M : 127 <= E < 150 -> 0 <= M < T23 -> let q := 2 ^ (150 - E) in let r := M mod q in let n := (T23 + M) / q in
  0 <= r < q /\ 1 <= n /\ (mag E M = IZR n + IZR r / IZR q)%R /\ mag E (M - r) = IZR n /\ mag E (M - r + q) = (IZR n + 1)%R /\
  0 <= M - r /\ M - r + q <= T23 /\ (r = 0 -> mag E M = IZR n).
Proof.
  intros HE HM q r n. destruct (unit_of E HE) as (w & _ & _ & P & Q & W & B). fold q in P, Q, B.
  assert (R0 : 0 <= r < q) by (apply Z.mod_pos_bound; auto).
  assert (R1 : r = (T23 + M) mod q). { unfold r. rewrite P, Z.add_comm, Z_mod_plus_full. reflexivity. }
  assert (N : T23 + M = q * n + r). { rewrite R1. apply Z.div_mod. lia. }
  pose proof (IZR_lt 0 q Q) as HQ.
  assert (V : forall m, mag E m = (IZR (T23 + m) / IZR q)%R).
  { intros m. unfold mag. destruct (Z.eqb_spec E 0); [lia|]. rewrite B. reflexivity. }
  assert (N1 : 1 <= n) by nia.
  assert (DM : M = q * (M / q) + r) by (apply Z.div_mod; lia).
  assert (DW : M / q < w) by (apply Z.div_lt_upper_bound; nia).
  assert (D0 : 0 <= M / q) by (apply Z.div_pos; lia).
  split; [auto|split; [auto|split; [|split; [|split; [|split; [nia|split; [nia|]]]]]]].
  - rewrite V, N, plus_IZR, mult_IZR. field. lra.
  - rewrite V. replace (T23 + (M - r)) with (q * n) by lia. rewrite mult_IZR. field. lra.
  - rewrite V. replace (T23 + (M - r + q)) with (q * n + q) by lia. rewrite plus_IZR, mult_IZR. field. lra.
  - intros Z0. rewrite V, N, Z0, Z.add_0_r, mult_IZR. field. lra.
Qed.

(** Below 1 *)
Lemma below_one E M : 0 <= E < 127 -> 0 <= M < T23 -> (0 <= mag E M < 1)%R.
Proof.
  intros HE HM. split; [apply mag_nonneg; lia|].
  assert (mag 127 0 = 1)%R as <-. { unfold mag. cbn [Z.eqb]. rewrite Z.add_0_r. change (bpow radix2 (127 - 150)) with (/ IZR T23)%R. apply Rinv_r. unfold T23. lra. }
  apply mag_mono; unfold T23 in *; lia.
Qed.
Lemma below_half E M : 0 <= E < 126 -> 0 <= M < T23 -> (0 <= mag E M < 1/2)%R.
Proof.
  intros HE HM. split; [apply mag_nonneg; lia|].
  assert (mag 126 0 = 1/2)%R as <-. { unfold mag. cbn [Z.eqb]. rewrite Z.add_0_r. change (bpow radix2 (126 - 150)) with (/ IZR 16777216)%R. unfold T23. lra. }
  apply mag_mono; unfold T23 in *; lia.
Qed.
Lemma above_half M : 0 <= M < T23 -> (1/2 <= mag 126 M < 1)%R.
Proof.
  intros HM. split; [|apply below_one; lia].
  assert (mag 126 0 = 1/2)%R as <-. { unfold mag. cbn [Z.eqb]. rewrite Z.add_0_r. change (bpow radix2 (126 - 150)) with (/ IZR 16777216)%R. unfold T23. lra. }
  destruct (Z.eq_dec M 0) as [->|]; [lra|]. left. apply mag_lt. lia.
Qed.
(** From 2^23 on every float is an integer *)
Lemma integers E M : 150 <= E < 255 -> 0 <= M < T23 -> exists n, mag E M = IZR n /\ 1 <= n.
Proof.
  intros HE HM. exists ((T23 + M) * 2 ^ (E - 150)). unfold mag. destruct (Z.eqb_spec E 0); [lia|].
  rewrite mult_IZR. rewrite (IZR_Zpower radix2) by lia. split; [reflexivity|].
  assert (0 < 2 ^ (E - 150)) by (apply Z.pow_pos_nonneg; lia). unfold T23 in *. nia.
Qed.

(** Clearing the bits below the unit *)
Lemma cleared s E m : 127 <= E < 150 -> 0 <= m < 2 * T23 -> let q := 2 ^ (150 - E) in
  ofI (Z.land (E * T23 + m - sbit s) (Z.lnot (q - 1))) = pat s E (m - m mod q).
Proof.
  intros HE HM q. destruct (unit_of E HE) as (w & _ & _ & P & Q & W & _). fold q in P, Q.
  unfold q at 1. rewrite land_high by lia. fold q. rewrite mod_sub by (auto; exists w; auto).
  assert (K : (E * T23 + m) mod q = m mod q). { rewrite P. replace (E * (w * q) + m) with (m + (E * w) * q) by ring. apply Z_mod_plus_full. }
  rewrite K. pose proof (Z.mod_pos_bound m q Q). pose proof (Z.mod_le m q ltac:(lia) Q).
  replace (E * T23 + m - sbit s - m mod q) with (E * T23 + (m - m mod q) - sbit s) by ring.
  rewrite ofI_pat by (unfold T31, T23 in *; lia). f_equal. ring.
Qed.
Lemma fraction_bits s E M : 127 <= E < 150 -> 0 <= M < T23 -> Z.land (E * T23 + M - sbit s) (2 ^ (150 - E) - 1) = M mod 2 ^ (150 - E).
Proof.
  intros HE HM. destruct (unit_of E HE) as (w & _ & _ & P & Q & W & _). 
  rewrite land_low by lia. rewrite mod_sub by (auto; exists w; auto).
  rewrite P. replace (E * (w * 2 ^ (150 - E)) + M) with (M + (E * w) * 2 ^ (150 - E)) by ring. apply Z_mod_plus_full.
Qed.
Lemma sign_of s p : 0 <= p < T31 -> Z.land (p - sbit s) (- SIGN_MASK) = - sbit s.
Proof.
  intros H. change (- SIGN_MASK) with (Z.lnot (2 ^ 31 - 1)). rewrite land_high by lia. change (2 ^ 31) with T31.
  unfold sbit, T31 in *. destruct s.
  - replace ((p - 2147483648) mod 2147483648) with p by (apply (Z.mod_unique _ _ (-1)); lia). lia.
  - rewrite Z.mod_small by lia. lia.
Qed.
Lemma ofI_one s : ofI (Z.lor (- sbit s) 1065353216) = pat s 127 0.
Proof. destruct s; unfold ofI; f_equal. Qed.
Lemma ofI_zero s : ofI (- sbit s) = pat s 0 0.
Proof. destruct s; unfold ofI; f_equal. Qed.

Lemma integral_pat (rel : R -> Z -> Prop) s E M E' M' n : 0 <= E < 255 -> 0 <= M < T23 -> 0 <= E' < 254 -> 0 <= M' <= T23 ->
  rel (sgnR s * mag E M)%R n -> (sgnR s * mag E' M' = IZR n)%R -> integral rel (pat s E M) (pat s E' M').
Proof.
  intros. unfold integral. rewrite pat_finite by lia. destruct (Z.eqb_spec E 255); [lia|]. cbn [negb].
  destruct (pat_R1 s E' M') as (F1 & S1 & V1); [lia..|]. split; [auto|]. rewrite S1, pat_sign by lia. split; [auto|].
  exists n. rewrite pat_R by lia. rewrite V1. auto.
Qed.
Lemma integral_same (rel : R -> Z -> Prop) s E M : 0 <= E < 256 -> 0 <= M < T23 ->
  (E < 255 -> exists n, rel (sgnR s * mag E M)%R n /\ (sgnR s * mag E M = IZR n)%R) -> integral rel (pat s E M) (pat s E M).
Proof.
  intros HE HM H. unfold integral. rewrite pat_finite by lia. destruct (Z.eqb_spec E 255); cbn [negb]; auto.
  destruct H as (n' & H1 & H2); [lia|].
  split; [auto|]. split; [auto|]. exists n'. rewrite pat_R by lia. auto.
Qed.

Lemma mag_0_0 : mag 0 0 = 0%R. Proof. unfold mag. cbn [Z.eqb]. ring. Qed.
Lemma mag_one : mag 127 0 = 1%R.
Proof. unfold mag. cbn [Z.eqb]. rewrite Z.add_0_r. change (bpow radix2 (127 - 150)) with (/ IZR T23)%R. apply Rinv_r. unfold T23. lra. Qed.

Definition sgnZ (s : bool) : Z := if s then -1 else 1.
Lemma sgnR_Z s n : IZR (sgnZ s * n) = (sgnR s * IZR n)%R.
Proof. rewrite mult_IZR. destruct s; reflexivity. Qed.

(** The four relations at s * v, v the magnitude *)
Lemma fl_pos n v : (IZR n <= v < IZR n + 1)%R -> is_floor (sgnR false * v) (sgnZ false * n).
Proof. unfold is_floor. rewrite sgnR_Z. cbn [sgnR]. lra. Qed.
Lemma fl_neg n v : (IZR n - 1 < v <= IZR n)%R -> is_floor (sgnR true * v) (sgnZ true * n).
Proof. unfold is_floor. rewrite sgnR_Z. cbn [sgnR]. lra. Qed.
Lemma ce_neg n v : (IZR n <= v < IZR n + 1)%R -> is_ceil (sgnR true * v) (sgnZ true * n).
Proof. unfold is_ceil. rewrite sgnR_Z. cbn [sgnR]. lra. Qed.
Lemma ce_pos n v : (IZR n - 1 < v <= IZR n)%R -> is_ceil (sgnR false * v) (sgnZ false * n).
Proof. unfold is_ceil. rewrite sgnR_Z. cbn [sgnR]. lra. Qed.
Lemma sgn_prod s a b : (0 <= a -> 0 <= b -> 0 <= sgnR s * a * (sgnR s * b))%R.
Proof. intros. assert (0 <= a * b)%R by (apply Rmult_le_pos; auto). destruct s; cbn [sgnR]; lra. Qed.
Lemma sgn_abs s a : (0 <= a -> Rabs (sgnR s * a) = a)%R.
Proof. intros. rewrite Rabs_mult, (Rabs_pos_eq a) by auto. replace (Rabs (sgnR s)) with 1%R; [ring|]. destruct s; cbn [sgnR]; unfold Rabs; destruct Rcase_abs; lra. Qed.
Lemma tr_sgn s n v : 0 <= n -> (IZR n <= v < IZR n + 1)%R -> is_trunc (sgnR s * v) (sgnZ s * n).
Proof.
  intros Hn H. apply IZR_le in Hn. unfold is_trunc. rewrite sgnR_Z. rewrite !sgn_abs by lra. split; [apply sgn_prod; lra|lra].
Qed.
Lemma ro_sgn s n v : 0 <= n -> (0 <= v)%R -> (IZR n - 1 / 2 <= v < IZR n + 1 / 2)%R -> is_round (sgnR s * v) (sgnZ s * n).
Proof.
  intros Hn Hv H. apply IZR_le in Hn. unfold is_round. rewrite sgnR_Z. rewrite !sgn_abs by lra. split; [apply sgn_prod; lra|lra].
Qed.

(** ** The theorems on patterns *)
Lemma i32_ok z : - T31 <= z < T31 -> i32 z = Ok z.
Proof. intros H. unfold i32. unfold T31 in H. destruct (Z.leb_spec (-2147483648) z), (Z.ltb_spec z 2147483648); auto; lia. Qed.

Ltac zcase := match goal with |- context [if ?x <? ?y then _ else _] => destruct (Z.ltb_spec x y) | |- context [if ?x =? ?y then _ else _] => destruct (Z.eqb_spec x y) | |- context [if ?x <=? ?y then _ else _] => destruct (Z.leb_spec x y) end.

(** What is already an integer *)
Lemma kept (rel : R -> Z -> Prop) s E M : 0 <= E < 256 -> 0 <= M < T23 -> 
  (forall n v, 1 <= n -> v = IZR n -> rel (sgnR s * v)%R (sgnZ s * n)) ->
  (150 <= E \/ 127 <= E < 150 /\ M mod 2 ^ (150 - E) = 0) -> integral rel (pat s E M) (pat s E M).
Proof.
  intros HE HM HR HC. apply integral_same; auto. intros HF. destruct HC as [HC|[HC H0]].
  - destruct (integers E M) as (n & V & N); [lia..|]. exists (sgnZ s * n). rewrite sgnR_Z, V. split; auto.
  - destruct (parts E M HC HM) as (_ & N & _ & _ & _ & _ & _ & V). specialize (V H0). exists (sgnZ s * ((T23 + M) / 2 ^ (150 - E))).
    rewrite sgnR_Z. rewrite V. split; auto.
Qed.

Lemma no_sign_I s p : 0 <= p < T31 -> Z.land (p - sbit s) NO_SIGN_MASK = p.
Proof.
  intros H. change NO_SIGN_MASK with (2 ^ 31 - 1). rewrite land_low by lia. change (2 ^ 31) with T31. unfold sbit, T31 in *. destruct s.
  - symmetry. apply (Z.mod_unique _ _ (-1)); lia.
  - rewrite Z.mod_small; lia.
Qed.
Lemma pattern_range E M : 0 <= E < 256 -> 0 <= M < T23 -> 0 <= E * T23 + M < T31.
Proof. unfold T31, T23. lia. Qed.

(** Away from zero to the next integer, towards zero *)
Lemma outward s E M (rel : R -> Z -> Prop) : 127 <= E < 150 -> 0 <= M < T23 -> M mod 2 ^ (150 - E) <> 0 ->
  (forall n v, 0 <= n -> (IZR n - 1 < v <= IZR n)%R -> rel (sgnR s * v)%R (sgnZ s * n)) ->
  integral rel (pat s E M) (ofI (Z.land (E * T23 + M - sbit s + 2 ^ (150 - E)) (Z.lnot (2 ^ (150 - E) - 1)))).
Proof.
  intros HE HM H0 HR. destruct (unit_of E HE) as (w & _ & _ & P & Q & W & _). destruct (parts E M HE HM) as (R0 & N & V & _ & V1 & M0 & M1 & _).
  set (q := 2 ^ (150 - E)) in *. replace (E * T23 + M - sbit s + q) with (E * T23 + (M + q) - sbit s) by ring.
  pose proof (cleared s E (M + q) HE) as C. cbv zeta in C. fold q in C. rewrite C by nia. clear C.
  rewrite <- Z.add_mod_idemp_r, Z_mod_same_full, Z.add_0_r by lia.
  replace (M + q - M mod q) with (M - M mod q + q) by ring.
  apply (integral_pat rel s E M E (M - M mod q + q) (sgnZ s * ((T23 + M) / q + 1))); try lia.
  - apply HR; [lia|]. rewrite V, plus_IZR. assert (0 < IZR (M mod q) / IZR q <= 1)%R; [|lra].
    pose proof (IZR_lt 0 q Q). split; [apply Rdiv_lt_0_compat; auto; apply IZR_lt; lia|]. apply Rmult_le_reg_r with (IZR q); auto.
    unfold Rdiv. rewrite Rmult_assoc, Rinv_l, Rmult_1_l, Rmult_1_r by lra. apply IZR_le. lia.
  - rewrite sgnR_Z, V1, plus_IZR. reflexivity.
Qed.
Lemma inward s E M (rel : R -> Z -> Prop) : 127 <= E < 150 -> 0 <= M < T23 -> 
  (forall n v, 0 <= n -> (IZR n <= v < IZR n + 1)%R -> rel (sgnR s * v)%R (sgnZ s * n)) ->
  integral rel (pat s E M) (ofI (Z.land (E * T23 + M - sbit s) (Z.lnot (2 ^ (150 - E) - 1)))).
Proof.
  intros HE HM HR. destruct (unit_of E HE) as (w & _ & _ & P & Q & W & _). destruct (parts E M HE HM) as (R0 & N & V & V0 & _ & M0 & M1 & _).
  set (q := 2 ^ (150 - E)) in *. 
  pose proof (cleared s E M HE) as C. cbv zeta in C. fold q in C. rewrite C by nia. clear C.
  apply (integral_pat rel s E M E (M - M mod q) (sgnZ s * ((T23 + M) / q))); try lia.
  - apply HR; [lia|]. rewrite V. assert (0 <= IZR (M mod q) / IZR q < 1)%R; [|lra].
    pose proof (IZR_lt 0 q Q). split; [apply Rmult_le_pos; [apply IZR_le; lia|left; apply Rinv_0_lt_compat; auto]|]. apply Rmult_lt_reg_r with (IZR q); auto.
    unfold Rdiv. rewrite Rmult_assoc, Rinv_l, Rmult_1_l, Rmult_1_r by lra. apply IZR_lt. lia.
  - rewrite sgnR_Z, V0. reflexivity.
Qed.
Lemma nearest s E M : 127 <= E < 150 -> 0 <= M < T23 -> 
  integral is_round (pat s E M) (ofI (Z.land (E * T23 + M - sbit s + Z.shiftr 4194304 (E - 127)) (Z.lnot (2 ^ (150 - E) - 1)))).
Proof.
  intros HE HM. destruct (unit_of E HE) as (w & _ & _ & P & Q & W & _). destruct (parts E M HE HM) as (R0 & N & V & V0 & V1 & M0 & M1 & _).
  assert (HH : 2 ^ (150 - E) = 2 * Z.shiftr 4194304 (E - 127)).
  { rewrite Z.shiftr_div_pow2 by lia. change 4194304 with (2 ^ 22). rewrite <- Z.pow_sub_r by lia.
    replace (150 - E) with (1 + (22 - (E - 127))) by lia. rewrite Z.pow_add_r by lia. reflexivity. }
  set (h := Z.shiftr 4194304 (E - 127)) in *. set (q := 2 ^ (150 - E)) in *. replace (E * T23 + M - sbit s + h) with (E * T23 + (M + h) - sbit s) by ring.
  pose proof (cleared s E (M + h) HE) as C. cbv zeta in C. fold q in C. rewrite C by nia. clear C.
  pose proof (IZR_lt 0 q Q) as HQ. assert (HQ2 : IZR q = (2 * IZR h)%R) by (rewrite HH, mult_IZR; reflexivity).
  assert (FR : (IZR (M mod q) / IZR q * IZR q = IZR (M mod q))%R) by (field; lra).
  assert (DM : M = q * (M / q) + M mod q) by (apply Z.div_mod; lia).
  destruct (Z.lt_ge_cases (M mod q) h) as [L|L].
  - replace ((M + h) mod q) with (M mod q + h) by (apply (Z.mod_unique _ _ (M / q)); lia).
    replace (M + h - (M mod q + h)) with (M - M mod q) by ring.
    apply (integral_pat is_round s E M E (M - M mod q) (sgnZ s * ((T23 + M) / q))); try lia.
    + apply ro_sgn; [lia|apply mag_nonneg; lia|]. rewrite V. assert (0 <= IZR (M mod q) / IZR q < 1/2)%R; [|lra].
      split; [apply Rmult_le_pos; [apply IZR_le; lia|left; apply Rinv_0_lt_compat; auto]|]. apply Rmult_lt_reg_r with (IZR q); auto.
      rewrite FR. apply IZR_lt in L. lra.
    + rewrite sgnR_Z, V0. reflexivity.
  - replace ((M + h) mod q) with (M mod q + h - q) by (apply (Z.mod_unique _ _ (M / q + 1)); lia).
    replace (M + h - (M mod q + h - q)) with (M - M mod q + q) by ring.
    apply (integral_pat is_round s E M E (M - M mod q + q) (sgnZ s * ((T23 + M) / q + 1))); try lia.
    + apply ro_sgn; [lia|apply mag_nonneg; lia|]. rewrite V, plus_IZR. assert (1/2 <= IZR (M mod q) / IZR q < 1)%R; [|lra].
      apply IZR_le in L. split; [apply Rmult_le_reg_r with (IZR q); auto; rewrite FR; lra|].
      apply Rmult_lt_reg_r with (IZR q); auto. rewrite FR, Rmult_1_l. apply IZR_lt. lia.
    + rewrite sgnR_Z, V1, plus_IZR. reflexivity.
Qed.

Lemma floor_pat s E M : 0 <= E < 256 -> 0 <= M < T23 -> exists r, floor (pat s E M) = Ok r /\ integral is_floor (pat s E M) r.
Proof.
  intros HE HM. pose proof (pattern_range E M HE HM) as PR. unfold floor. cbv zeta. rewrite asI_pat, expo_pat by lia.
  assert (RI : forall n v, 1 <= n -> v = IZR n -> is_floor (sgnR s * v)%R (sgnZ s * n)).
  { intros n v _ ->. destruct s; [apply fl_neg|apply fl_pos]; lra. }
  destruct (Z.ltb_spec (E - 127) 23); [|eexists; split; [reflexivity|]; apply kept; auto; lia].
  destruct (Z.ltb_spec (E - 127) 0).
  - pose proof (below_one E M ltac:(lia) HM) as B. eexists; split; [reflexivity|]. rewrite no_sign_I by auto. destruct s.
    + destruct (Z.leb_spec 0 (E * T23 + M - sbit true)); [unfold sbit, T31 in *; lia|].
      destruct (Z.eqb_spec (E * T23 + M) 0) as [Z0|Z0].
      * assert (E = 0 /\ M = 0) as [-> ->] by (unfold T23 in *; lia). rewrite ofI_pat by (unfold T31; lia). rewrite Z.add_assoc.
        apply (integral_pat is_floor true 0 0 0 0 (sgnZ true * 0)); try lia; rewrite mag_0_0; [apply fl_neg|rewrite sgnR_Z]; cbn; lra.
      * change (ofI (3212836864 - M32)) with (pat true 127 0). pose proof (mag_pos E M ltac:(lia) ltac:(lia) ltac:(unfold T23 in *; lia)).
        apply (integral_pat is_floor true E M 127 0 (sgnZ true * 1)); try lia; [|rewrite mag_one, sgnR_Z; reflexivity]. apply fl_neg; lra.
    + destruct (Z.leb_spec 0 (E * T23 + M - sbit false)); [|unfold sbit, T31 in *; lia].
      change (ofI 0) with (pat false 0 0).
      apply (integral_pat is_floor false E M 0 0 (sgnZ false * 0)); try lia; [|rewrite mag_0_0, sgnR_Z; lra]. apply fl_pos; lra.
  - destruct (unit_of E ltac:(lia)) as (w & U1 & U2 & P & Q & W & _). rewrite U1, U2, fraction_bits by lia.
    destruct (Z.eqb_spec (M mod 2 ^ (150 - E)) 0); [eexists; split; [reflexivity|]; apply kept; auto; lia|].
    destruct s.
    + destruct (Z.ltb_spec (E * T23 + M - sbit true) 0); [|unfold sbit, T31 in *; lia].
      rewrite i32_ok by (unfold sbit, T31, T23 in *; nia). cbn [bind]. eexists; split; [reflexivity|].
      apply (outward true E M is_floor); auto; try lia. intros; apply fl_neg; lra.
    + destruct (Z.ltb_spec (E * T23 + M - sbit false) 0); [unfold sbit, T31 in *; lia|]. cbn [bind]. eexists; split; [reflexivity|].
      apply (inward false E M is_floor); auto; try lia. intros; apply fl_pos; lra.
Qed.

Lemma ceil_pat s E M : 0 <= E < 256 -> 0 <= M < T23 -> exists r, ceil (pat s E M) = Ok r /\ integral is_ceil (pat s E M) r.
Proof.
  intros HE HM. pose proof (pattern_range E M HE HM) as PR. unfold ceil. cbv zeta. rewrite asI_pat, expo_pat by lia.
  assert (RI : forall n v, 1 <= n -> v = IZR n -> is_ceil (sgnR s * v)%R (sgnZ s * n)).
  { intros n v _ ->. destruct s; [apply ce_neg|apply ce_pos]; lra. }
  destruct (Z.ltb_spec (E - 127) 23); [|eexists; split; [reflexivity|]; apply kept; auto; lia].
  destruct (Z.ltb_spec (E - 127) 0).
  - pose proof (below_one E M ltac:(lia) HM) as B. eexists; split; [reflexivity|]. destruct s.
    + destruct (Z.ltb_spec (E * T23 + M - sbit true) 0); [|unfold sbit, T31 in *; lia].
      change (ofI (- SIGN_MASK)) with (pat true 0 0).
      apply (integral_pat is_ceil true E M 0 0 (sgnZ true * 0)); try lia; [|rewrite mag_0_0, sgnR_Z; lra]. apply ce_neg; lra.
    + destruct (Z.ltb_spec (E * T23 + M - sbit false) 0); [unfold sbit, T31 in *; lia|].
      destruct (Z.eqb_spec (E * T23 + M - sbit false) 0) as [Z0|Z0].
      * assert (E = 0 /\ M = 0) as [-> ->] by (unfold sbit, T23 in *; lia). rewrite ofI_pat by (unfold T31; lia). rewrite Z.add_assoc.
        apply (integral_pat is_ceil false 0 0 0 0 (sgnZ false * 0)); try lia; rewrite mag_0_0; [apply ce_pos|rewrite sgnR_Z]; cbn; lra.
      * change (ofI 1065353216) with (pat false 127 0). pose proof (mag_pos E M ltac:(lia) ltac:(lia) ltac:(unfold sbit, T23 in *; lia)).
        apply (integral_pat is_ceil false E M 127 0 (sgnZ false * 1)); try lia; [|rewrite mag_one, sgnR_Z; reflexivity]. apply ce_pos; lra.
  - destruct (unit_of E ltac:(lia)) as (w & U1 & U2 & P & Q & W & _). rewrite U1, U2, fraction_bits by lia.
    destruct (Z.eqb_spec (M mod 2 ^ (150 - E)) 0); [eexists; split; [reflexivity|]; apply kept; auto; lia|].
    destruct s.
    + destruct (Z.ltb_spec 0 (E * T23 + M - sbit true)); [unfold sbit, T31 in *; lia|]. cbn [bind]. eexists; split; [reflexivity|].
      apply (inward true E M is_ceil); auto; try lia. intros; apply ce_neg; lra.
    + destruct (Z.ltb_spec 0 (E * T23 + M - sbit false)); [|unfold sbit, T31, T23 in *; lia].
      rewrite i32_ok by (unfold sbit, T31, T23 in *; nia). cbn [bind]. eexists; split; [reflexivity|].
      apply (outward false E M is_ceil); auto; try lia. intros; apply ce_pos; lra.
Qed.

Lemma rounding_pat s E M : 0 <= E < 256 -> 0 <= M < T23 -> exists r, rounding (pat s E M) = Ok r /\ integral is_round (pat s E M) r.
Proof.
  intros HE HM. pose proof (pattern_range E M HE HM) as PR. unfold rounding. cbv zeta. rewrite asI_pat, expo_pat by lia.
  assert (RI : forall n v, 1 <= n -> v = IZR n -> is_round (sgnR s * v)%R (sgnZ s * n)).
  { intros n v N ->. apply ro_sgn; [lia|apply IZR_le; lia|lra]. }
  destruct (Z.ltb_spec (E - 127) 23); [|eexists; split; [reflexivity|]; apply kept; auto; lia].
  destruct (Z.ltb_spec (E - 127) 0).
  - eexists; split; [reflexivity|]. rewrite sign_of by auto. destruct (Z.eqb_spec (E - 127) (-1)).
    + assert (E = 126) as -> by lia. pose proof (above_half M HM). rewrite ofI_one.
      apply (integral_pat is_round s 126 M 127 0 (sgnZ s * 1)); try lia; [|rewrite mag_one, sgnR_Z; reflexivity]. apply ro_sgn; lia || lra.
    + pose proof (below_half E M ltac:(lia) HM). rewrite ofI_zero.
      apply (integral_pat is_round s E M 0 0 (sgnZ s * 0)); try lia; [|rewrite mag_0_0, sgnR_Z; lra]. apply ro_sgn; lia || lra.
  - destruct (unit_of E ltac:(lia)) as (w & U1 & U2 & P & Q & W & _). rewrite U1, fraction_bits by lia.
    destruct (Z.eqb_spec (M mod 2 ^ (150 - E)) 0); [eexists; split; [reflexivity|]; apply kept; auto; lia|].
    assert (0 <= Z.shiftr 4194304 (E - 127) <= T23). 
    { rewrite Z.shiftr_div_pow2 by lia. assert (1 <= 2 ^ (E - 127)) by (apply (Z.pow_le_mono_r 2 0); lia). 
      split; [apply Z.div_pos; lia|]. apply Z.div_le_upper_bound; unfold T23; lia. }
    rewrite i32_ok by (unfold sbit, T31, T23 in *; destruct s; lia). cbn [bind]. eexists; split; [reflexivity|]. apply nearest; lia.
Qed.

Lemma trunc_pat s E M : 0 <= E < 256 -> 0 <= M < T23 -> integral is_trunc (pat s E M) (trunc (pat s E M)).
Proof.
  intros HE HM. pose proof (pattern_range E M HE HM) as PR. unfold trunc. cbv zeta. rewrite asI_pat, expo_pat by lia.
  assert (RI : forall n v, 1 <= n -> v = IZR n -> is_trunc (sgnR s * v)%R (sgnZ s * n)).
  { intros n v N ->. apply tr_sgn; [lia|lra]. }
  destruct (Z.ltb_spec (E - 127) 23); [|apply kept; auto; lia]. rewrite sign_of by auto.
  destruct (Z.ltb_spec (E - 127) 0).
  - pose proof (below_one E M ltac:(lia) HM) as B. rewrite ofI_zero.
    apply (integral_pat is_trunc s E M 0 0 (sgnZ s * 0)); try lia; [|rewrite mag_0_0, sgnR_Z; lra]. apply tr_sgn; lia || lra.
  - destruct (unit_of E ltac:(lia)) as (w & U1 & _). rewrite U1. 
    replace (Z.lor (- sbit s) (Z.land (E * T23 + M - sbit s) (Z.lnot (2 ^ (150 - E) - 1)))) with (Z.land (E * T23 + M - sbit s) (Z.lnot (2 ^ (150 - E) - 1))).
    + apply (inward s E M is_trunc); auto; try lia. intros; apply tr_sgn; auto.
    + rewrite <- (sign_of s (E * T23 + M)) by auto. rewrite <- Z.land_lor_distr_r. f_equal.
      change (- SIGN_MASK) with (Z.lnot (2 ^ 31 - 1)). rewrite <- Z.lnot_land. f_equal. rewrite Z.land_comm, land_low by lia.
      assert (1 <= 2 ^ (150 - E) <= 2 ^ 23). { split; [apply (Z.pow_le_mono_r 2 0); lia|apply Z.pow_le_mono_r; lia]. }
      symmetry. apply Z.mod_small. change (2 ^ 23) with T23 in *. change (2 ^ 31) with T31. unfold T23, T31 in *. lia.
Qed.
