(** Proofs about the CRC model. *)
From Coq Require Import ZArith List Bool Lia ZifyBool.
From Verif Require Import Base BaseLemmas Crc_Model Crc_Spec.
Import ListNotations.
Open Scope Z_scope.
Ltac Zify.zify_post_hook ::= Z.div_mod_to_equations.

(** ** Bit reversal *)

Lemma testbit_double x k : 0 <= k -> Z.testbit (2 * x) k = (0 <? k) && Z.testbit x (k - 1).
Proof.
  intros Hk. destruct (Z.ltb_spec 0 k) as [H|H]; cbn [andb].
  - replace k with (Z.succ (k - 1)) at 1 by lia. apply Z.testbit_even_succ. lia.
  - replace k with 0 by lia. apply Z.testbit_even_0.
Qed.

Lemma testbit_double_b2z x b k :
  0 <= k -> Z.testbit (2 * x + Z.b2z b) k = if k =? 0 then b else Z.testbit x (k - 1).
Proof.
  intros Hk. destruct (Z.eqb_spec k 0) as [->|H].
  - rewrite Z.add_comm. apply Z.add_b2z_double_bit0.
  - replace k with (Z.succ (k - 1)) at 1 by lia. apply Z.testbit_succ_r. lia.
Qed.

Lemma rev_bits_S n x :
  rev_bits (S n) x = 2 * rev_bits n x + Z.b2z (Z.testbit x (Z.of_nat n)).
Proof. unfold rev_bits. rewrite seq_S, fold_left_app. reflexivity. Qed.

Lemma rev_bits_bit n x k :
  0 <= k -> Z.testbit (rev_bits n x) k = (k <? Z.of_nat n) && Z.testbit x (Z.of_nat n - 1 - k).
Proof.
  revert k; induction n as [|n IH]; intros k Hk.
  - unfold rev_bits; cbn [seq fold_left]. rewrite Z.bits_0.
    replace (k <? Z.of_nat 0) with false by lia. reflexivity.
  - rewrite rev_bits_S, testbit_double_b2z by lia.
    destruct (Z.eqb_spec k 0) as [->|Hne].
    + replace (0 <? Z.of_nat (S n)) with true by lia. cbn [andb]. f_equal. lia.
    + rewrite IH by lia. replace (k - 1 <? Z.of_nat n) with (k <? Z.of_nat (S n)) by lia.
      f_equal. f_equal. lia.
Qed.

Lemma rev_bits_range n x : 0 <= rev_bits n x < 2 ^ Z.of_nat n.
Proof.
  apply range_of_bits; [lia|]. intros k Hk. rewrite rev_bits_bit by lia.
  replace (k <? Z.of_nat n) with false by lia. reflexivity.
Qed.

Lemma bit0_land x : negb (Z.land x 1 =? 0) = Z.testbit x 0.
Proof.
  change (Z.land x 1) with (Z.land x (Z.ones 1)). rewrite Z.land_ones by lia.
  change (2 ^ 1) with 2. pose proof (Z.bit0_mod x).
  destruct (Z.testbit x 0); cbn [Z.b2z] in *; rewrite <- H; reflexivity.
Qed.

Lemma pow2_bit n k : 0 <= n -> 0 <= k -> Z.testbit (2 ^ n) k = (k =? n).
Proof.
  intros Hn Hk. destruct (Z.eqb_spec k n) as [->|H].
  - apply Z.pow2_bits_true; lia.
  - apply Z.pow2_bits_false; lia.
Qed.

Lemma reflect_loop_bit k : (k <= 32)%nat -> forall x r i, 0 <= i ->
  Z.testbit (reflect_loop k x r) i =
  Z.testbit r i || ((i <? Z.of_nat k) && Z.testbit x (Z.of_nat k - 1 - i)).
Proof.
  intros Hk. induction k as [|k IH]; intros x r i Hi; cbn [reflect_loop].
  - replace (i <? Z.of_nat 0) with false by lia. cbn [andb]. now rewrite orb_false_r.
  - rewrite IH by lia. rewrite bit0_land. rewrite Z.shiftl_1_l.
    rewrite (w32_id (2 ^ Z.of_nat k)) by (rewrite M32_pow; split; [lia | apply Z.pow_lt_mono_r; lia]).
    destruct (Z.ltb_spec i (Z.of_nat (S k))) as [H|H].
    + destruct (Z.eqb_spec i (Z.of_nat k)) as [->|Hne].
      * replace (Z.of_nat k <? Z.of_nat k) with false by lia. cbn [andb]. rewrite orb_false_r.
        replace (Z.of_nat (S k) - 1 - Z.of_nat k) with 0 by lia.
        destruct (Z.testbit x 0); [|now rewrite orb_false_r].
        rewrite Z.lor_spec, pow2_bit by lia. now rewrite Z.eqb_refl.
      * replace (i <? Z.of_nat k) with true by lia. cbn [andb].
        rewrite Z.shiftr_spec by lia.
        replace (Z.of_nat k - 1 - i + 1) with (Z.of_nat (S k) - 1 - i) by lia. f_equal.
        destruct (Z.testbit x 0); [|reflexivity].
        rewrite Z.lor_spec, pow2_bit by lia. replace (i =? Z.of_nat k) with false by lia.
        apply orb_false_r.
    + replace (i <? Z.of_nat k) with false by lia. cbn [andb]. f_equal.
      destruct (Z.testbit x 0); [|reflexivity].
      rewrite Z.lor_spec, pow2_bit by lia. replace (i =? Z.of_nat k) with false by lia.
      apply orb_false_r.
Qed.

Lemma reflect_rev n x : 0 <= n <= 32 -> reflect x n = rev_bits (Z.to_nat n) x.
Proof.
  intros Hn. apply Z.bits_inj'. intros i Hi. unfold reflect.
  rewrite reflect_loop_bit, rev_bits_bit by lia. rewrite Z.bits_0. reflexivity.
Qed.

(** ** Carry-less algebra *)

Lemma lxor_double a b : Z.lxor (2 * a) (2 * b) = 2 * Z.lxor a b.
Proof.
  apply Z.bits_inj'. intros k Hk. rewrite Z.lxor_spec, !testbit_double, Z.lxor_spec by lia.
  destruct (0 <? k); reflexivity.
Qed.

Lemma lxor_pow2 n a b : 0 <= n -> Z.lxor (2 ^ n * a) (2 ^ n * b) = 2 ^ n * Z.lxor a b.
Proof.
  intros Hn. rewrite !(Z.mul_comm (2 ^ n)), <- !Z.shiftl_mul_pow2 by lia.
  now rewrite Z.shiftl_lxor.
Qed.

Lemma lxor_nonneg a b : 0 <= a -> 0 <= b -> 0 <= Z.lxor a b.
Proof. intros. apply Z.lxor_nonneg. tauto. Qed.

Lemma lxor_swap a b c d : Z.lxor (Z.lxor a b) (Z.lxor c d) = Z.lxor (Z.lxor a c) (Z.lxor b d).
Proof.
  apply Z.bits_inj'. intros k Hk. rewrite !Z.lxor_spec.
  destruct (Z.testbit a k), (Z.testbit b k), (Z.testbit c k), (Z.testbit d k); reflexivity.
Qed.

Lemma lxor_cancel a b : Z.lxor (Z.lxor a b) b = a.
Proof. rewrite Z.lxor_assoc, Z.lxor_nilpotent. apply Z.lxor_0_r. Qed.

Lemma clmul_double q g : clmul (N.double q) g = 2 * clmul q g.
Proof. destruct q; reflexivity. Qed.

Lemma clmul_succ_double q g : clmul (N.succ_double q) g = Z.lxor (2 * clmul q g) g.
Proof. destruct q; reflexivity. Qed.

Lemma clmul_lxor p q g : clmul (N.lxor p q) g = Z.lxor (clmul p g) (clmul q g).
Proof.
  revert q. induction p as [|p IH|p IH] using N.binary_ind; intros q.
  - rewrite N.lxor_0_l. reflexivity.
  - destruct (N.even q) eqn:E.
    + destruct (proj1 (N.even_spec q) E) as [q' ->].
      rewrite N.double_spec. rewrite <- N.double_spec, <- (N.double_spec q').
      replace (N.lxor (N.double p) (N.double q')) with (N.double (N.lxor p q')).
      * rewrite !clmul_double, IH. now rewrite lxor_double.
      * destruct p, q'; reflexivity.
    + assert (O : N.odd q = true) by (rewrite <- N.negb_even, E; reflexivity).
      destruct (proj1 (N.odd_spec q) O) as [q' ->].
      rewrite <- N.succ_double_spec.
      replace (N.lxor (N.double p) (N.succ_double q')) with (N.succ_double (N.lxor p q')).
      * rewrite clmul_double, !clmul_succ_double, IH.
        rewrite <- lxor_double, Z.lxor_assoc. reflexivity.
      * destruct p, q'; reflexivity.
  - destruct (N.even q) eqn:E.
    + destruct (proj1 (N.even_spec q) E) as [q' ->].
      rewrite <- N.double_spec.
      replace (N.lxor (N.succ_double p) (N.double q')) with (N.succ_double (N.lxor p q')).
      * rewrite clmul_double, !clmul_succ_double, IH.
        rewrite <- lxor_double, !Z.lxor_assoc. f_equal. apply Z.lxor_comm.
      * destruct p, q'; reflexivity.
    + assert (O : N.odd q = true) by (rewrite <- N.negb_even, E; reflexivity).
      destruct (proj1 (N.odd_spec q) O) as [q' ->].
      rewrite <- N.succ_double_spec.
      replace (N.lxor (N.succ_double p) (N.succ_double q')) with (N.double (N.lxor p q')).
      * rewrite clmul_double, !clmul_succ_double, IH.
        rewrite lxor_swap, Z.lxor_nilpotent, Z.lxor_0_r, lxor_double. reflexivity.
      * destruct p, q'; reflexivity.
Qed.

Lemma clmul_nonneg q g : 0 <= g -> 0 <= clmul q g.
Proof.
  intros Hg. induction q as [|q IH|q IH] using N.binary_ind.
  - reflexivity.
  - rewrite clmul_double. lia.
  - rewrite clmul_succ_double. apply lxor_nonneg; lia.
Qed.

(** A non-zero multiple of a degree-w polynomial has degree at least w. *)
Lemma clmul_degree w g q :
  0 <= w -> 2 ^ w <= g < 2 ^ (w + 1) -> q <> 0%N -> 2 ^ w <= clmul q g.
Proof.
  intros Hw Hg Hq.
  assert (P : exists d, 0 <= d /\ (forall k, w + d < k -> Z.testbit (clmul q g) k = false)
                        /\ Z.testbit (clmul q g) (w + d) = true).
  { assert (Hgw : Z.testbit g w = true).
    { rewrite Z.testbit_true by lia. rewrite Z.pow_add_r in Hg by lia.
      replace (g / 2 ^ w) with 1; [reflexivity|].
      apply Z.div_unique with (g - 2 ^ w); lia. }
    assert (Hgh : forall k, w < k -> Z.testbit g k = false)
      by (intros k Hk; apply testbit_high with (w + 1); lia).
    revert Hq. induction q as [|q IH|q IH] using N.binary_ind; intros Hq.
    - congruence.
    - destruct (N.eq_dec q 0) as [->|Hq0]; [cbn in Hq; congruence|].
      destruct (IH Hq0) as (d & Hd & H1 & H2). exists (d + 1). rewrite clmul_double.
      split; [lia|]. split.
      + intros k Hk. rewrite testbit_double by lia. rewrite H1 by lia. apply andb_false_r.
      + rewrite testbit_double by lia. replace (w + (d + 1) - 1) with (w + d) by lia.
        rewrite H2. replace (0 <? w + (d + 1)) with true by lia. reflexivity.
    - rewrite clmul_succ_double. destruct (N.eq_dec q 0) as [->|Hq0].
      + exists 0. split; [lia|]. cbn [clmul]. rewrite Z.mul_0_r, Z.lxor_0_l, Z.add_0_r. split; auto.
      + destruct (IH Hq0) as (d & Hd & H1 & H2). exists (d + 1). split; [lia|]. split.
        * intros k Hk. rewrite Z.lxor_spec, testbit_double, H1, Hgh by lia. rewrite andb_false_r. reflexivity.
        * rewrite Z.lxor_spec, testbit_double, (Hgh (w + (d + 1))) by lia.
          replace (w + (d + 1) - 1) with (w + d) by lia.
          rewrite H2. replace (0 <? w + (d + 1)) with true by lia. reflexivity. }
  destruct P as (d & Hd & _ & Hbit).
  destruct (Z.lt_ge_cases (clmul q g) (2 ^ w)) as [Hlt|]; auto.
  rewrite testbit_high with (n := w) in Hbit; [discriminate| |lia].
  split; auto. apply clmul_nonneg. lia.
Qed.

Lemma lxor_range a b w : 0 <= w -> 0 <= a < 2 ^ w -> 0 <= b < 2 ^ w -> 0 <= Z.lxor a b < 2 ^ w.
Proof.
  intros Hw Ha Hb. apply range_of_bits; auto. intros k Hk.
  rewrite Z.lxor_spec, !(testbit_high _ w) by lia. reflexivity.
Qed.

(** The remainder is unique, so [is_crc] determines the checksum. *)
Lemma is_rem_unique a g w r r' :
  0 <= w -> 2 ^ w <= g < 2 ^ (w + 1) -> is_rem a g w r -> is_rem a g w r' -> r = r'.
Proof.
  intros Hw Hg (Hr & q & E) (Hr' & q' & E').
  assert (X : clmul (N.lxor q q') g = Z.lxor r r').
  { rewrite clmul_lxor. assert (Z.lxor a a = 0) by apply Z.lxor_nilpotent.
    rewrite E in H at 1. rewrite E' in H. rewrite lxor_swap in H. apply Z.lxor_eq in H. exact H. }
  destruct (N.eq_dec (N.lxor q q') 0) as [Z0|NZ].
  - rewrite Z0 in X. cbn in X. now apply Z.lxor_eq.
  - pose proof (clmul_degree w g _ Hw Hg NZ). pose proof (lxor_range r r' w Hw Hr Hr'). lia.
Qed.

(** ** The congruence modulo the generator *)

Definition cong (g a b : Z) : Prop := exists q : N, Z.lxor a b = clmul q g.

Lemma cong_refl g a : cong g a a.
Proof. exists 0%N. apply Z.lxor_nilpotent. Qed.

Lemma cong_double g a b : cong g a b -> cong g (2 * a) (2 * b).
Proof. intros (q & E). exists (N.double q). now rewrite lxor_double, E, clmul_double. Qed.

Lemma cong_xor_r g a b c : cong g a b -> cong g (Z.lxor a c) (Z.lxor b c).
Proof. intros (q & E). exists q. now rewrite lxor_swap, Z.lxor_nilpotent, Z.lxor_0_r. Qed.

Lemma cong_g g a b : cong g a b -> cong g a (Z.lxor b g).
Proof.
  intros (q & E). exists (N.lxor q 1). rewrite clmul_lxor, <- E, <- Z.lxor_assoc. reflexivity.
Qed.

Lemma cong_is_rem g w a r : 0 <= r < 2 ^ w -> cong g a r -> is_rem a g w r.
Proof. intros Hr (q & E). split; auto. exists q. now rewrite <- E, lxor_cancel. Qed.

(** ** One step of the register *)

Section Width.
Variables (w poly : Z).
Hypothesis Hw : w = 8 \/ w = 16 \/ w = 32.
Hypothesis Hp : 0 <= poly < 2 ^ w.

Let g := 2 ^ w + poly.
Let top := 2 ^ (w - 1).
Let low (v : Z) := v mod 2 ^ w.

Lemma low_bit v k : 0 <= k -> Z.testbit (low v) k = (k <? w) && Z.testbit v k.
Proof.
  intros Hk. unfold low. destruct (Z.ltb_spec k w) as [H|H]; cbn [andb].
  - apply Z.mod_pow2_bits_low; lia.
  - apply Z.mod_pow2_bits_high; lia.
Qed.

Lemma low_lxor a b : low (Z.lxor a b) = Z.lxor (low a) (low b).
Proof.
  apply Z.bits_inj'. intros k Hk. rewrite Z.lxor_spec, !low_bit, Z.lxor_spec by lia.
  destruct (k <? w); reflexivity.
Qed.

Lemma low_range v : 0 <= low v < 2 ^ w.
Proof. apply Z.mod_pos_bound. apply Z.pow_pos_nonneg; lia. Qed.

Lemma low_id v : 0 <= v < 2 ^ w -> low v = v.
Proof. apply Z.mod_small. Qed.

Lemma top_test v : negb (Z.land v top =? 0) = Z.testbit v (w - 1).
Proof.
  unfold top. destruct (Z.testbit v (w - 1)) eqn:E.
  - apply negb_true_iff, Z.eqb_neq. intros H.
    assert (X : Z.testbit (Z.land v (2 ^ (w - 1))) (w - 1) = false) by (rewrite H; apply Z.bits_0).
    rewrite Z.land_spec, E, Z.pow2_bits_true in X by lia. discriminate.
  - apply negb_false_iff, Z.eqb_eq. apply Z.bits_inj'. intros k Hk.
    rewrite Z.land_spec, pow2_bit, Z.bits_0 by lia.
    destruct (Z.eqb_spec k (w - 1)) as [->|]; [now rewrite E | apply andb_false_r].
Qed.

Lemma g_bit k : 0 <= k -> Z.testbit g k = (k =? w) || Z.testbit poly k.
Proof.
  intros Hk. unfold g.
  assert (D : Z.land (2 ^ w) poly = 0).
  { apply Z.bits_inj'. intros j Hj. rewrite Z.land_spec, pow2_bit, Z.bits_0 by lia.
    destruct (Z.eqb_spec j w) as [->|]; [|reflexivity]. cbn. apply testbit_high with w; lia. }
  rewrite Z.add_nocarry_lxor by exact D. rewrite Z.lxor_spec, pow2_bit by lia.
  destruct (Z.eqb_spec k w) as [->|]; [|now destruct (Z.testbit poly k)].
  rewrite (testbit_high poly w) by lia. reflexivity.
Qed.

Lemma shl1_bit v k : 0 <= k -> Z.testbit (w32 (Z.shiftl v 1)) k = (k <? 32) && ((0 <? k) && Z.testbit v (k - 1)).
Proof.
  intros Hk. rewrite w32_testbit. f_equal. rewrite Z.shiftl_spec by lia.
  destruct (Z.ltb_spec 0 k); [reflexivity|]. rewrite Z.testbit_neg_r by lia. reflexivity.
Qed.

Lemma bit_step_low v :
  low (bit_step top poly v) =
  if Z.testbit (low v) (w - 1) then Z.lxor (2 * low v) g else 2 * low v.
Proof.
  unfold bit_step. rewrite top_test. rewrite low_bit by lia.
  replace (w - 1 <? w) with true by lia. cbn [andb].
  assert (L : forall k, 0 <= k ->
    (k <? w) && ((k <? 32) && ((0 <? k) && Z.testbit v (k - 1))) =
    xorb ((k =? w) && Z.testbit v (w - 1)) ((0 <? k) && Z.testbit (low v) (k - 1))).
  { intros k Hk. destruct (Z.ltb_spec 0 k) as [H0|H0]; cbn [andb].
    - rewrite low_bit by lia. destruct (Z.ltb_spec k w) as [H|H].
      + replace (k <? 32) with true by lia. replace (k - 1 <? w) with true by lia.
        replace (k =? w) with false by lia. cbn. now destruct (Z.testbit v (k - 1)).
      + destruct (Z.eqb_spec k w) as [->|Hne].
        * replace (w - 1 <? w) with true by lia. cbn. now destruct (Z.testbit v (w - 1)).
        * replace (k - 1 <? w) with false by lia. reflexivity.
    - replace (k =? w) with false by lia. rewrite !andb_false_r. reflexivity. }
  destruct (Z.testbit v (w - 1)) eqn:E.
  - apply Z.bits_inj'. intros k Hk.
    rewrite low_bit, !Z.lxor_spec, shl1_bit, testbit_double, g_bit by lia.
    specialize (L k Hk). rewrite andb_true_r in L.
    destruct (Z.ltb_spec k w) as [H|H]; cbn [andb] in *.
    + rewrite L. destruct (Z.eqb_spec k w); [lia|]. cbn.
      now destruct (0 <? k), (Z.testbit (low v) (k - 1)).
    + rewrite (testbit_high poly w) by lia. rewrite orb_false_r.
      destruct (k =? w), (0 <? k), (Z.testbit (low v) (k - 1)); cbn in *; congruence.
  - apply Z.bits_inj'. intros k Hk.
    rewrite low_bit, shl1_bit, testbit_double by lia.
    rewrite (L k Hk). rewrite andb_false_r. apply xorb_false_l.
Qed.

Lemma bit_step_cong a v : cong g a (low v) -> cong g (2 * a) (low (bit_step top poly v)).
Proof.
  intros H. rewrite bit_step_low. destruct (Z.testbit (low v) (w - 1)).
  - apply cong_g, cong_double, H.
  - apply cong_double, H.
Qed.

Lemma byte_steps_cong a v : cong g a (low v) -> cong g (256 * a) (low (byte_steps top poly v)).
Proof.
  intros H. unfold byte_steps. cbn [Nat.iter].
  replace (256 * a) with (2*(2*(2*(2*(2*(2*(2*(2*a)))))))) by lia.
  repeat apply bit_step_cong. exact H.
Qed.

Definition in_byte (refIn : bool) (b : Z) : Z := if refIn then rev_bits 8 b else b.

Lemma in_byte_range refIn b : 0 <= b < 256 -> 0 <= in_byte refIn b < 256.
Proof. intros Hb. destruct refIn; cbn; auto. apply (rev_bits_range 8 b). Qed.

Lemma byte_step_eq refIn v b :
  0 <= b < 256 ->
  byte_step (w - 8) top poly refIn v b =
  byte_steps top poly (Z.lxor v (2 ^ (w - 8) * in_byte refIn b)).
Proof.
  intros Hb. pose proof (in_byte_range refIn b Hb) as Hr.
  assert (X : forall x, 0 <= x < 256 -> w32 (Z.shiftl x (w - 8)) = 2 ^ (w - 8) * x).
  { intros x Hx. rewrite Z.shiftl_mul_pow2 by lia. rewrite Z.mul_comm. apply w32_id.
    rewrite M32_pow. destruct Hw as [-> | [-> | ->]]; cbn - [Z.mul]; lia. }
  unfold byte_step, in_byte in *. destruct refIn.
  - rewrite reflect_rev by lia. change (Z.to_nat 8) with 8%nat. now rewrite X.
  - now rewrite X.
Qed.

Lemma byte_step_cong refIn a v b :
  0 <= b < 256 -> cong g a (low v) ->
  cong g (Z.lxor (256 * a) (2 ^ w * in_byte refIn b)) (low (byte_step (w - 8) top poly refIn v b)).
Proof.
  intros Hb H. pose proof (in_byte_range refIn b Hb) as Hr. rewrite byte_step_eq by auto.
  replace (2 ^ w * in_byte refIn b) with (2 ^ 8 * (2 ^ (w - 8) * in_byte refIn b)).
  2:{ rewrite Z.mul_assoc, <- Z.pow_add_r by lia. now replace (8 + (w - 8)) with w by lia. }
  change 256 with (2 ^ 8). rewrite lxor_pow2 by lia. change (2 ^ 8) with 256.
  apply byte_steps_cong. rewrite low_lxor.
  rewrite (low_id (2 ^ (w - 8) * in_byte refIn b)).
  - apply cong_xor_r, H.
  - replace (2 ^ w) with (2 ^ (w - 8) * 256).
    + assert (0 < 2 ^ (w - 8)) by (apply Z.pow_pos_nonneg; lia). nia.
    + change 256 with (2 ^ 8). rewrite <- Z.pow_add_r by lia. f_equal. lia.
Qed.

Definition poly_from (refIn : bool) (acc : Z) (msg : list Z) : Z :=
  fold_left (fun acc b => 256 * acc + (if refIn then rev_bits 8 b else b)) msg acc.

Lemma loop_cong refIn msg : bytes msg -> forall a m0 v,
  cong g a (low v) -> 
  forall c k, 0 <= k -> a = Z.lxor (2 ^ w * m0) (2 ^ k * c) ->
  cong g (Z.lxor (2 ^ w * poly_from refIn m0 msg) (2 ^ (k + 8 * zlen msg) * c))
         (low (fold_left (byte_step (w - 8) top poly refIn) msg v)).
Proof.
  induction msg as [|b msg IH]; intros Hb a m0 v H c k Hk Ea.
  - cbn [poly_from fold_left]. unfold zlen; cbn [length].
    replace (k + 8 * Z.of_nat 0) with k by lia. now rewrite <- Ea.
  - inversion Hb as [|? ? Hb0 Hb1]; subst.
    cbn [fold_left]. unfold poly_from. cbn [fold_left]. fold (in_byte refIn b).
    replace (k + 8 * zlen (b :: msg)) with (k + 8 + 8 * zlen msg) by (unfold zlen; cbn [length]; lia).
    eapply (IH Hb1).
    + apply byte_step_cong; eauto.
    + lia.
    + pose proof (in_byte_range refIn b Hb0).
      replace (256 * m0 + in_byte refIn b) with (Z.lxor (256 * m0) (in_byte refIn b)).
      * rewrite <- (lxor_pow2 w) by lia. change 256 with (2 ^ 8).
        rewrite <- (lxor_pow2 8) by lia. rewrite !Z.mul_assoc, <- !Z.pow_add_r by lia.
        replace (8 + w) with (w + 8) by lia. replace (8 + k) with (k + 8) by lia.
        rewrite !Z.lxor_assoc. f_equal. apply Z.lxor_comm.
      * symmetry. apply Z.add_nocarry_lxor. apply Z.bits_inj'. intros j Hj.
        rewrite Z.land_spec, Z.bits_0. change 256 with (2 ^ 8). rewrite Z.mul_comm, <- Z.shiftl_mul_pow2 by lia.
        rewrite Z.shiftl_spec by lia. destruct (Z.ltb_spec j 8).
        -- rewrite Z.testbit_neg_r by lia. reflexivity.
        -- rewrite (testbit_high (in_byte refIn b) 8) by lia. apply andb_false_r.
Qed.

End Width.

Lemma crc_loop_fold wd1 top poly refIn pre msg post v :
  crc_loop wd1 top poly refIn (pre ++ msg ++ post) (zlen pre) (length msg) v =
  Ok (fold_left (byte_step wd1 top poly refIn) msg v).
Proof.
  revert pre v; induction msg as [|b msg IH]; intros pre v; [reflexivity|].
  cbn [length crc_loop fold_left app].
  replace (get (pre ++ b :: msg ++ post) (zlen pre)) with (Ok b).
  2:{ symmetry. apply get_ok_iff. unfold zlen. split; [lia|]. rewrite Nat2Z.id.
      rewrite nth_error_app2 by lia. rewrite Nat.sub_diag. reflexivity. }
  cbn [bind]. specialize (IH (pre ++ [b])). rewrite <- app_assoc in IH.
  replace (zlen pre + 1) with (zlen (pre ++ [b])) by (unfold zlen; rewrite app_length; cbn [length]; lia).
  apply IH.
Qed.

Lemma crc_loop_msg wd1 top poly refIn msg post v :
  crc_loop wd1 top poly refIn (msg ++ post) 0 (length msg) v =
  Ok (fold_left (byte_step wd1 top poly refIn) msg v).
Proof. exact (crc_loop_fold wd1 top poly refIn [] msg post v). Qed.

(** The state of the register before the final reflection and xor. *)
Definition register (w poly : Z) (refIn : bool) (msg : list Z) (init : Z) : Z :=
  fold_left (byte_step (w - 8) (2 ^ (w - 1)) (poly mod 2 ^ w) refIn) msg init.

Lemma mask_mod x w : w = 8 \/ w = 16 \/ w = 32 -> Z.land x (Z.shiftr 4294967295 (32 - w)) = x mod 2 ^ w.
Proof.
  intros Hw. replace (Z.shiftr 4294967295 (32 - w)) with (Z.ones w) by (destruct Hw as [-> | [-> | ->]]; reflexivity).
  apply Z.land_ones. lia.
Qed.

Lemma generic_eq mode w msg post poly init refIn refOut xorOut :
  mode_width mode w -> msg <> [] ->
  generic mode (Some (msg ++ post)) (zlen msg) poly init refIn refOut xorOut =
  let r := register w poly refIn msg init in
  Ok ((Z.lxor (if refOut then rev_bits (Z.to_nat w) r else r) (xorOut mod 2 ^ w)) mod 2 ^ w).
Proof.
  intros Hm Hne. unfold generic.
  assert (L : (0 <? zlen msg) = true) by (unfold zlen; destruct msg; [congruence | cbn [length]; lia]).
  rewrite L. cbn [andb].
  assert (Hw : w = 8 \/ w = 16 \/ w = 32) by (unfold mode_width in Hm; lia).
  assert (E1 : ((mode =? CRC8) || (mode =? CRC16) || (mode =? CRC32)) = true)
    by (unfold mode_width, CRC8, CRC16, CRC32 in *; lia).
  rewrite E1.
  assert (E2 : (if mode =? CRC8 then 8 else if mode =? CRC16 then 16 else 32) = w).
  { unfold mode_width, CRC8, CRC16 in *. destruct Hm as [[-> ->]|[[-> ->]|[-> ->]]]; reflexivity. }
  rewrite E2. cbv zeta. rewrite !mask_mod by auto. rewrite Z.shiftl_1_l.
  replace (Z.to_nat (zlen msg)) with (length msg) by (unfold zlen; lia).
  rewrite crc_loop_msg. cbn [bind]. fold (register w poly refIn msg init).
  rewrite mask_mod by auto. destruct refOut; [|reflexivity].
  rewrite reflect_rev by lia. reflexivity.
Qed.

Lemma mod_pow2_lxor a b w : 0 <= w -> Z.lxor a b mod 2 ^ w = Z.lxor (a mod 2 ^ w) (b mod 2 ^ w).
Proof.
  intros Hw. rewrite <- !Z.land_ones by lia. apply Z.bits_inj'. intros k Hk.
  rewrite ?Z.lxor_spec, ?Z.land_spec, ?Z.lxor_spec. destruct (Z.testbit (Z.ones w) k); rewrite ?andb_true_r, ?andb_false_r; reflexivity.
Qed.

Lemma rev_bits_mod n x : rev_bits n (x mod 2 ^ Z.of_nat n) = rev_bits n x.
Proof.
  apply Z.bits_inj'. intros k Hk. rewrite !rev_bits_bit by lia.
  destruct (Z.ltb_spec k (Z.of_nat n)); cbn [andb]; auto.
  apply Z.mod_pow2_bits_low. lia.
Qed.

Lemma rev_bits_modZ w x : 0 <= w -> rev_bits (Z.to_nat w) (x mod 2 ^ w) = rev_bits (Z.to_nat w) x.
Proof. intros Hw. pose proof (rev_bits_mod (Z.to_nat w) x) as R. rewrite Z2Nat.id in R by lia. exact R. Qed.

(** Normal form of generic in terms of the low bits of the register. *)
Lemma generic_nf mode w msg post poly init refIn refOut xorOut :
  mode_width mode w -> msg <> [] ->
  generic mode (Some (msg ++ post)) (zlen msg) poly init refIn refOut xorOut =
  let r := register w poly refIn msg init mod 2 ^ w in
  Ok (Z.lxor (if refOut then rev_bits (Z.to_nat w) r else r) (xorOut mod 2 ^ w)).
Proof.
  intros Hm Hne. rewrite (generic_eq mode w) by auto. cbv zeta. f_equal.
  assert (Hw : w = 8 \/ w = 16 \/ w = 32) by (unfold mode_width in Hm; lia).
  rewrite mod_pow2_lxor, Zmod_mod by lia. f_equal. destruct refOut; auto.
  rewrite rev_bits_modZ by lia.
  apply Z.mod_small. pose proof (rev_bits_range (Z.to_nat w) (register w poly refIn msg init)) as R.
  rewrite Z2Nat.id in R by lia. exact R.
Qed.

Lemma generic_nf0 mode w msg poly init refIn refOut xorOut :
  mode_width mode w -> msg <> [] ->
  generic mode (Some msg) (zlen msg) poly init refIn refOut xorOut =
  let r := register w poly refIn msg init mod 2 ^ w in
  Ok (Z.lxor (if refOut then rev_bits (Z.to_nat w) r else r) (xorOut mod 2 ^ w)).
Proof.
  intros Hm Hne. rewrite <- (generic_nf mode w msg []) by auto. now rewrite app_nil_r.
Qed.

Lemma register_rem w poly refIn msg init :
  w = 8 \/ w = 16 \/ w = 32 -> bytes msg ->
  is_rem (Z.lxor (2 ^ w * msg_poly refIn msg) (2 ^ (8 * zlen msg) * (init mod 2 ^ w)))
         (2 ^ w + poly mod 2 ^ w) w (register w poly refIn msg init mod 2 ^ w).
Proof.
  intros Hw Hb. assert (0 < 2 ^ w) by (apply Z.pow_pos_nonneg; lia).
  apply cong_is_rem; [apply Z.mod_pos_bound; auto|].
  apply (loop_cong w (poly mod 2 ^ w) Hw (Z.mod_pos_bound _ _ H) refIn msg Hb
           (init mod 2 ^ w) 0 init) with (k := 0) (c := init mod 2 ^ w).
  - apply cong_refl.
  - lia.
  - rewrite Z.mul_0_r, Z.lxor_0_l. lia.
Qed.

Lemma generic_is_crc mode w msg post poly init refIn refOut xorOut :
  mode_width mode w -> msg <> [] -> bytes msg ->
  exists v, generic mode (Some (msg ++ post)) (zlen msg) poly init refIn refOut xorOut = Ok v /\
    is_crc (mkparams w poly init refIn refOut xorOut) msg v.
Proof.
  intros Hm Hne Hb. rewrite (generic_nf mode w) by auto. cbv zeta. eexists; split; [reflexivity|].
  assert (Hw : w = 8 \/ w = 16 \/ w = 32) by (unfold mode_width in Hm; lia).
  exists (register w poly refIn msg init mod 2 ^ w). split; [|reflexivity].
  apply register_rem; auto.
Qed.

Lemma generator_degree p : 0 <= p_width p -> 2 ^ p_width p <= generator p < 2 ^ (p_width p + 1).
Proof.
  intros H. unfold generator. assert (0 < 2 ^ p_width p) by (apply Z.pow_pos_nonneg; lia).
  pose proof (Z.mod_pos_bound (p_poly p) _ H0). rewrite Z.pow_add_r by lia. lia.
Qed.

Lemma is_crc_unique p msg v v' : 0 <= p_width p -> is_crc p msg v -> is_crc p msg v' -> v = v'.
Proof.
  intros Hw (r & Hr & ->) (r' & Hr' & ->).
  now rewrite (is_rem_unique _ _ _ r r' Hw (generator_degree p Hw) Hr Hr').
Qed.

(** ** Affinity *)

Lemma xor_msg_length a b : length a = length b -> length (xor_msg a b) = length a.
Proof. revert b; induction a as [|x a IH]; intros [|y b] H; cbn in *; try lia. f_equal. apply IH. lia. Qed.

Lemma xor_msg_bytes a b : bytes a -> bytes b -> bytes (xor_msg a b).
Proof.
  revert b; induction a as [|x a IH]; intros [|y b] Ha Hb; cbn; try constructor.
  - inversion Ha; inversion Hb; subst. apply (lxor_range x y 8); lia.
  - inversion Ha; inversion Hb; subst. now apply IH.
Qed.

Lemma rev_bits_lxor n x y : rev_bits n (Z.lxor x y) = Z.lxor (rev_bits n x) (rev_bits n y).
Proof.
  apply Z.bits_inj'. intros k Hk. rewrite Z.lxor_spec, !rev_bits_bit, Z.lxor_spec by lia.
  destruct (k <? Z.of_nat n); reflexivity.
Qed.

Lemma add_byte_lxor m b : 0 <= b < 256 -> 256 * m + b = Z.lxor (256 * m) b.
Proof.
  intros Hb. apply Z.add_nocarry_lxor. apply Z.bits_inj'. intros j Hj.
  rewrite Z.land_spec, Z.bits_0. change 256 with (2 ^ 8). rewrite Z.mul_comm, <- Z.shiftl_mul_pow2 by lia.
  rewrite Z.shiftl_spec by lia. destruct (Z.ltb_spec j 8).
  - rewrite Z.testbit_neg_r by lia. reflexivity.
  - rewrite (testbit_high b 8) by (cbn; lia). apply andb_false_r.
Qed.

Lemma in_byte_lxor refIn x y : in_byte refIn (Z.lxor x y) = Z.lxor (in_byte refIn x) (in_byte refIn y).
Proof. destruct refIn; cbn [in_byte]; [apply rev_bits_lxor | reflexivity]. Qed.

Lemma poly_from_lxor refIn a b : length a = length b -> bytes a -> bytes b -> forall s t,
  poly_from refIn (Z.lxor s t) (xor_msg a b) = Z.lxor (poly_from refIn s a) (poly_from refIn t b).
Proof.
  revert b; induction a as [|x a IH]; intros [|y b] Hl Ha Hb s t; try discriminate; [reflexivity|].
  inversion Ha as [|? ? Hx Ha']; inversion Hb as [|? ? Hy Hb']; subst.
  injection Hl as Hl. unfold poly_from in *. cbn [xor_msg fold_left].
  fold (in_byte refIn x) (in_byte refIn y) (in_byte refIn (Z.lxor x y)).
  pose proof (in_byte_range refIn x Hx). pose proof (in_byte_range refIn y Hy).
  rewrite in_byte_lxor, !add_byte_lxor by (try apply (lxor_range _ _ 8); lia).
  change 256 with (2 ^ 8). rewrite <- lxor_pow2 by lia. rewrite lxor_swap. now apply IH.
Qed.

Lemma msg_poly_lxor refIn a b : length a = length b -> bytes a -> bytes b ->
  msg_poly refIn (xor_msg a b) = Z.lxor (msg_poly refIn a) (msg_poly refIn b).
Proof. intros. exact (poly_from_lxor refIn a b H H0 H1 0 0). Qed.

Lemma is_rem_lxor a b g w r s : 0 <= w -> is_rem a g w r -> is_rem b g w s -> is_rem (Z.lxor a b) g w (Z.lxor r s).
Proof.
  intros Hw (Hr & q & ->) (Hs & p & ->). split; [now apply lxor_range|].
  exists (N.lxor q p). rewrite clmul_lxor. apply lxor_swap.
Qed.

Lemma lxor_self_l a b : Z.lxor a (Z.lxor a b) = b.
Proof. rewrite <- Z.lxor_assoc, Z.lxor_nilpotent. apply Z.lxor_0_l. Qed.

Lemma register_low w poly refIn msg init :
  w = 8 \/ w = 16 \/ w = 32 -> bytes msg ->
  register w poly refIn msg (init mod 2 ^ w) mod 2 ^ w = register w poly refIn msg init mod 2 ^ w.
Proof.
  intros Hw Hb. pose proof (register_rem w poly refIn msg init Hw Hb) as H1.
  pose proof (register_rem w poly refIn msg (init mod 2 ^ w) Hw Hb) as H2.
  rewrite Zmod_mod in H2.
  exact (is_rem_unique _ _ w _ _ ltac:(lia) (generator_degree (mkparams w poly 0 false false 0) ltac:(cbn; lia)) H2 H1).
Qed.

Lemma register_xor3 w poly refIn a b c init :
  w = 8 \/ w = 16 \/ w = 32 -> bytes a -> bytes b -> bytes c -> length a = length b -> length b = length c ->
  register w poly refIn (xor_msg a (xor_msg b c)) init mod 2 ^ w =
  Z.lxor (register w poly refIn a init mod 2 ^ w)
    (Z.lxor (register w poly refIn b init mod 2 ^ w) (register w poly refIn c init mod 2 ^ w)).
Proof.
  intros Hw Ha Hb Hc Hab Hbc.
  pose proof (xor_msg_bytes b c Hb Hc) as Hbc'. pose proof (xor_msg_length b c Hbc) as Lbc.
  pose proof (xor_msg_bytes a _ Ha Hbc') as Habc.
  assert (Labc : length (xor_msg a (xor_msg b c)) = length a) by (apply xor_msg_length; congruence).
  eapply is_rem_unique; [| apply (generator_degree (mkparams w poly 0 false false 0)); cbn; lia | apply register_rem; auto |].
  - cbn; lia.
  - cbn [generator p_width p_poly].
    replace (Z.lxor (2 ^ w * msg_poly refIn (xor_msg a (xor_msg b c)))
      (2 ^ (8 * zlen (xor_msg a (xor_msg b c))) * (init mod 2 ^ w))) with
      (Z.lxor (Z.lxor (2 ^ w * msg_poly refIn a) (2 ^ (8 * zlen a) * (init mod 2 ^ w)))
      (Z.lxor (Z.lxor (2 ^ w * msg_poly refIn b) (2 ^ (8 * zlen b) * (init mod 2 ^ w)))
       (Z.lxor (2 ^ w * msg_poly refIn c) (2 ^ (8 * zlen c) * (init mod 2 ^ w))))).
    + apply is_rem_lxor; [lia | apply register_rem; auto |].
      apply is_rem_lxor; [lia | apply register_rem; auto | apply register_rem; auto].
    + rewrite !msg_poly_lxor by congruence. unfold zlen. rewrite Labc, <- Hbc, <- Hab.
      rewrite <- !lxor_pow2 by lia.
      set (i := 2 ^ (8 * Z.of_nat (length a)) * (init mod 2 ^ w)).
      rewrite (lxor_swap _ i _ i), Z.lxor_nilpotent, Z.lxor_0_r.
      rewrite <- !Z.lxor_assoc.
      apply Z.bits_inj'. intros k Hk. rewrite !Z.lxor_spec.
      generalize (Z.testbit (2 ^ w * msg_poly refIn a) k), (Z.testbit (2 ^ w * msg_poly refIn b) k),
        (Z.testbit (2 ^ w * msg_poly refIn c) k), (Z.testbit i k). intros [] [] [] []; reflexivity.
Qed.

Lemma crc_affine mode w poly init refIn refOut xorOut a b c :
  mode_width mode w -> bytes a -> bytes b -> bytes c -> a <> [] ->
  length a = length b -> length b = length c ->
  let f m := generic mode (Some m) (zlen m) poly init refIn refOut xorOut in
  exists va vb vc, f a = Ok va /\ f b = Ok vb /\ f c = Ok vc /\
    f (xor_msg a (xor_msg b c)) = Ok (Z.lxor va (Z.lxor vb vc)).
Proof.
  intros Hm Ha Hb Hc Hne Hab Hbc f.
  assert (Hw : w = 8 \/ w = 16 \/ w = 32) by (unfold mode_width in Hm; lia).
  assert (F : forall m, m <> [] -> f m = Ok (Z.lxor (if refOut then rev_bits (Z.to_nat w) (register w poly refIn m init mod 2 ^ w)
              else register w poly refIn m init mod 2 ^ w) (xorOut mod 2 ^ w))).
  { intros m Hmn. unfold f. rewrite <- (app_nil_r m) at 1. now rewrite (generic_nf mode w). }
  assert (Lbc := xor_msg_length b c Hbc).
  assert (Labc : length (xor_msg a (xor_msg b c)) = length a) by (apply xor_msg_length; congruence).
  assert (N : forall m : list Z, length m = length a -> m <> []).
  { intros m Hl ->. destruct a; [congruence | discriminate]. }
  do 3 eexists. rewrite !F by (apply N; congruence).
  split; [reflexivity|]. split; [reflexivity|]. split; [reflexivity|]. f_equal.
  rewrite register_xor3 by auto. destruct refOut; rewrite ?rev_bits_lxor.
  - set (x := rev_bits _ _). set (y := rev_bits _ _). set (z := rev_bits _ _). set (o := xorOut mod _).
    rewrite (lxor_swap y o z o), Z.lxor_nilpotent, Z.lxor_0_r.
    apply Z.bits_inj'. intros k Hk. rewrite !Z.lxor_spec.
    destruct (Z.testbit x k), (Z.testbit y k), (Z.testbit z k), (Z.testbit o k); reflexivity.
  - set (o := xorOut mod _). rewrite (lxor_swap (register w poly refIn b init mod 2 ^ w) o), Z.lxor_nilpotent, Z.lxor_0_r.
    apply Z.bits_inj'. intros k Hk. rewrite !Z.lxor_spec.
    generalize (Z.testbit (register w poly refIn a init mod 2 ^ w) k), (Z.testbit (register w poly refIn b init mod 2 ^ w) k),
      (Z.testbit (register w poly refIn c init mod 2 ^ w) k), (Z.testbit o k). intros [] [] [] []; reflexivity.
Qed.

Lemma xor_msg_zeros a : xor_msg a (repeat 0 (length a)) = a.
Proof. induction a as [|x a IH]; cbn; auto. rewrite Z.lxor_0_r, IH. reflexivity. Qed.

Lemma msg_poly_zeros refIn n : msg_poly refIn (repeat 0 n) = 0.
Proof.
  unfold msg_poly. induction n as [|n IH]; cbn [repeat fold_left]; auto.
  replace (256 * 0 + (if refIn then rev_bits 8 0 else 0)) with 0 by (destruct refIn; reflexivity). exact IH.
Qed.

Lemma crc_linear mode w poly refIn refOut a b :
  mode_width mode w -> bytes a -> bytes b -> a <> [] -> length a = length b ->
  let f m := generic mode (Some m) (zlen m) poly 0 refIn refOut 0 in
  exists va vb, f a = Ok va /\ f b = Ok vb /\ f (xor_msg a b) = Ok (Z.lxor va vb).
Proof.
  intros Hm Ha Hb Hne Hab f.
  assert (Hz : bytes (repeat 0 (length b))).
  { apply Forall_forall. intros x Hx. apply repeat_spec in Hx. lia. }
  destruct (crc_affine mode w poly 0 refIn refOut 0 a b (repeat 0 (length b)) Hm Ha Hb Hz Hne Hab)
    as (va & vb & vc & Ea & Eb & Ec & E).
  { now rewrite repeat_length. }
  fold (f a) in Ea. fold (f b) in Eb. fold (f (repeat 0 (length b))) in Ec.
  rewrite xor_msg_zeros in E.
  exists va, vb. split; [exact Ea|]. split; [exact Eb|].
  replace vc with 0 in E; [rewrite Z.lxor_0_r in E; exact E|].
  assert (Hw : w = 8 \/ w = 16 \/ w = 32) by (unfold mode_width in Hm; lia).
  assert (Hzn : repeat 0 (length b) <> []) by (destruct b; [destruct a; [congruence | discriminate] | discriminate]).
  unfold f in Ec. rewrite <- (app_nil_r (repeat 0 _)) in Ec at 1. rewrite (generic_nf mode w) in Ec by auto.
  assert (R : register w poly refIn (repeat 0 (length b)) 0 mod 2 ^ w = 0).
  { pose proof (register_rem w poly refIn _ 0 Hw Hz) as H.
    rewrite msg_poly_zeros, Z.mod_0_l, !Z.mul_0_r, Z.lxor_0_l in H by (apply Z.pow_nonzero; lia).
    eapply is_rem_unique; [| apply (generator_degree (mkparams w poly 0 false false 0)); cbn; lia | exact H |].
    - cbn; lia.
    - cbn [p_width]. split; [split; [lia | apply Z.pow_pos_nonneg; lia]|]. exists 0%N. reflexivity. }
  cbv zeta in Ec. rewrite R in Ec. rewrite Z.mod_0_l, Z.lxor_0_r in Ec by (apply Z.pow_nonzero; lia).
  injection Ec as <-. destruct refOut; auto.
  symmetry. apply Z.bits_inj'. intros k Hk. rewrite rev_bits_bit, !Z.bits_0 by lia. apply andb_false_r.
Qed.

(** ** Error detection *)

Lemma clmul_odd_shift g q : Z.odd g = true -> forall k, 0 <= k -> forall e, 
  clmul q g = 2 ^ k * e -> exists q', e = clmul q' g.
Proof.
  intros Hg k Hk. revert q. pattern k. apply natlike_ind; auto; clear k Hk.
  - intros q e H. exists q. rewrite H, Z.pow_0_r. lia.
  - intros k Hk IH q e H. rewrite Z.pow_succ_r in H by lia.
    assert (Ev : Z.even (clmul q g) = true) by (rewrite H, <- Z.mul_assoc; apply Z.even_mul).
    destruct q as [|q|q] using N.binary_ind.
    + exists 0%N. change (clmul 0 g) with 0 in *. assert (0 < 2 ^ k) by (apply Z.pow_pos_nonneg; lia). nia.
    + clear IHq. apply (IH q e). rewrite clmul_double in H. lia.
    + exfalso. rewrite clmul_succ_double in Ev.
      rewrite <- Z.negb_odd, <- Z.bit0_odd, Z.lxor_spec, !Z.bit0_odd, Hg, Z.odd_mul in Ev. discriminate.
Qed.

Lemma lxor_inj_r a b c : Z.lxor a c = Z.lxor b c -> a = b.
Proof. intros H. rewrite <- (lxor_cancel a c), H. apply lxor_cancel. Qed.

Lemma rev_bits_invol n x : 0 <= x < 2 ^ Z.of_nat n -> rev_bits n (rev_bits n x) = x.
Proof.
  intros Hx. apply Z.bits_inj'. intros k Hk. rewrite rev_bits_bit by lia.
  destruct (Z.ltb_spec k (Z.of_nat n)); cbn [andb].
  - rewrite rev_bits_bit by lia. replace (Z.of_nat n - 1 - k <? Z.of_nat n) with true by lia.
    cbn [andb]. f_equal. lia.
  - symmetry. apply testbit_high with (Z.of_nat n); auto.
Qed.

Lemma crc_burst mode w poly init refIn refOut xorOut a b e k :
  mode_width mode w -> Z.odd poly = true -> bytes a -> bytes b -> a <> [] -> length a = length b ->
  Z.lxor (msg_poly refIn a) (msg_poly refIn b) = 2 ^ k * e -> 0 <= k -> 0 < e < 2 ^ w ->
  generic mode (Some a) (zlen a) poly init refIn refOut xorOut <>
  generic mode (Some b) (zlen b) poly init refIn refOut xorOut.
Proof.
  intros Hm Hodd Ha Hb Hne Hab Hd Hk He Heq.
  assert (Hw : w = 8 \/ w = 16 \/ w = 32) by (unfold mode_width in Hm; lia).
  assert (Hnb : b <> []) by (destruct a; [congruence | destruct b; discriminate]).
  rewrite <- (app_nil_r a) in Heq at 1. rewrite <- (app_nil_r b) in Heq at 1.
  rewrite !(generic_nf mode w) in Heq by auto. cbv zeta in Heq. injection Heq as Heq.
  apply lxor_inj_r in Heq.
  assert (Hpow : 0 < 2 ^ w) by (apply Z.pow_pos_nonneg; lia).
  assert (Hr : register w poly refIn a init mod 2 ^ w = register w poly refIn b init mod 2 ^ w).
  { destruct refOut; auto. 
    pose proof (Z.mod_pos_bound (register w poly refIn a init) _ Hpow).
    pose proof (Z.mod_pos_bound (register w poly refIn b init) _ Hpow).
    rewrite <- (rev_bits_invol (Z.to_nat w) (register w poly refIn a init mod 2 ^ w)) by (rewrite Z2Nat.id by lia; auto).
    rewrite Heq. apply rev_bits_invol. rewrite Z2Nat.id by lia; auto. }
  destruct (register_rem w poly refIn a init Hw Ha) as (_ & qa & Ea).
  destruct (register_rem w poly refIn b init Hw Hb) as (_ & qb & Eb).
  rewrite Hr in Ea.
  assert (X : clmul (N.lxor qa qb) (2 ^ w + poly mod 2 ^ w) = 2 ^ (w + k) * e).
  { rewrite clmul_lxor. rewrite Z.pow_add_r, <- Z.mul_assoc, <- Hd, <- lxor_pow2 by lia.
    apply lxor_inj_r with (Z.lxor (2 ^ (8 * zlen a) * (init mod 2 ^ w)) (2 ^ (8 * zlen b) * (init mod 2 ^ w))).
    rewrite (lxor_swap (2 ^ w * _)), Ea, Eb.
    rewrite (lxor_swap _ (register w poly refIn b init mod 2 ^ w)), (Z.lxor_nilpotent (register w poly refIn b init mod 2 ^ w)), Z.lxor_0_r.
    unfold zlen. rewrite Hab, Z.lxor_nilpotent, Z.lxor_0_r. reflexivity. }
  assert (Og : Z.odd (2 ^ w + poly mod 2 ^ w) = true).
  { rewrite Z.odd_add. replace (Z.odd (2 ^ w)) with false.
    - rewrite xorb_false_l. rewrite <- Z.bit0_odd, Z.mod_pow2_bits_low, Z.bit0_odd by lia. exact Hodd.
    - rewrite <- Z.bit0_odd, Z.pow2_bits_false by lia. reflexivity. }
  destruct (clmul_odd_shift _ _ Og (w + k) ltac:(lia) e X) as (q' & Eq).
  destruct (N.eq_dec q' 0) as [->|Hq]; [cbn in Eq; lia|].
  pose proof (clmul_degree w _ q' ltac:(lia) (generator_degree (mkparams w poly 0 false false 0) ltac:(cbn; lia)) Hq) as D.
  cbn [generator p_width p_poly] in D. unfold generator in D; cbn [p_width p_poly] in D. lia.
Qed.

(** ** Incremental computation, range, degenerate inputs *)

Lemma crc_incremental mode w poly init refIn a b :
  mode_width mode w -> bytes a -> bytes b -> a <> [] -> b <> [] ->
  exists va, generic mode (Some a) (zlen a) poly init refIn false 0 = Ok va /\
    generic mode (Some (a ++ b)) (zlen (a ++ b)) poly init refIn false 0 =
    generic mode (Some b) (zlen b) poly va refIn false 0.
Proof.
  intros Hm Ha Hb Hna Hnb.
  assert (Hw : w = 8 \/ w = 16 \/ w = 32) by (unfold mode_width in Hm; lia).
  assert (Hnab : a ++ b <> []) by (destruct a; [congruence | discriminate]).
  rewrite (generic_nf0 mode w a) by auto. eexists. split; [reflexivity|].
  rewrite !(generic_nf0 mode w) by auto. cbv zeta.
  rewrite Z.mod_0_l, !Z.lxor_0_r by (apply Z.pow_nonzero; lia). f_equal.
  rewrite register_low by auto. unfold register. now rewrite fold_left_app.
Qed.

Lemma crc_range mode w poly init refIn refOut xorOut msg post :
  mode_width mode w -> bytes msg -> msg <> [] ->
  exists v, generic mode (Some (msg ++ post)) (zlen msg) poly init refIn refOut xorOut = Ok v /\
    0 <= v < 2 ^ w /\
    generic mode (Some (msg ++ post)) (zlen msg) poly (init mod 2 ^ w) refIn refOut xorOut = Ok v.
Proof.
  intros Hm Hb Hne.
  assert (Hw : w = 8 \/ w = 16 \/ w = 32) by (unfold mode_width in Hm; lia).
  rewrite !(generic_nf mode w) by auto. cbv zeta. eexists. split; [reflexivity|].
  rewrite register_low by auto. split; [|reflexivity].
  assert (Hpow : 0 < 2 ^ w) by (apply Z.pow_pos_nonneg; lia).
  apply lxor_range; [lia| |apply Z.mod_pos_bound; auto].
  destruct refOut; [|apply Z.mod_pos_bound; auto].
  match goal with |- context [rev_bits ?n ?x] => pose proof (rev_bits_range n x) as R end.
  rewrite Z2Nat.id in R by lia. exact R.
Qed.

Lemma crc_degenerate mode pData length poly init refIn refOut xorOut :
  pData = None \/ length <= 0 \/ (forall w, ~ mode_width mode w) ->
  generic mode pData length poly init refIn refOut xorOut = Ok 0.
Proof.
  intros H. unfold generic. destruct pData as [m|]; auto.
  destruct H as [H|[H|H]]; [discriminate| |].
  - replace (0 <? length) with false by lia. reflexivity.
  - replace ((mode =? CRC8) || (mode =? CRC16) || (mode =? CRC32)) with false.
    + rewrite andb_false_r. reflexivity.
    + unfold mode_width, CRC8, CRC16, CRC32 in *.
      pose proof (H 8). pose proof (H 16). pose proof (H 32). lia.
Qed.

Lemma get_in_range_or_ub mode w poly init refIn refOut xorOut msg n :
  mode_width mode w -> zlen msg < n -> generic mode (Some msg) n poly init refIn refOut xorOut = Ub.
Proof.
  intros Hm Hn. unfold generic. pose proof (zlen_nonneg msg).
  replace (0 <? n) with true by lia. cbn [andb].
  replace ((mode =? CRC8) || (mode =? CRC16) || (mode =? CRC32)) with true
    by (unfold mode_width, CRC8, CRC16, CRC32 in *; lia). cbv zeta.
  match goal with |- context [crc_loop ?a ?b ?c ?d ?e ?f ?g ?h] => assert (E : crc_loop a b c d e f g h = Ub) end.
  { match goal with |- crc_loop ?a ?b ?c _ _ _ _ _ = _ => generalize a, b, c end. intros x y z.
    assert (G : forall k i v, 0 <= i -> i <= zlen msg < i + Z.of_nat k -> crc_loop x y z refIn msg i k v = Ub).
    { induction k as [|k IH]; intros i v Hi Hk; [lia|]. cbn [crc_loop].
      destruct (get msg i) eqn:Eg; auto. cbn [bind]. apply get_range in Eg. apply IH; lia. }
    apply G; lia. }
  now rewrite E.
Qed.

(** ** Presets *)

Lemma preset_ok mode w poly init refIn refOut xorOut msg post :
  mode_width mode w -> msg <> [] -> bytes msg ->
  exists v, (v0 <- generic mode (Some (msg ++ post)) (zlen msg) poly init refIn refOut xorOut ;; Ok (v0 mod 2 ^ w)) = Ok v /\
    is_crc (mkparams w poly init refIn refOut xorOut) msg v.
Proof.
  intros Hm Hne Hb. destruct (crc_range mode w poly init refIn refOut xorOut msg post Hm Hb Hne) as (v & E & Hr & _).
  destruct (generic_is_crc mode w msg post poly init refIn refOut xorOut Hm Hne Hb) as (v' & E' & Hc).
  rewrite E in E'. injection E' as <-. exists v. rewrite E. cbn [bind]. rewrite Z.mod_small by lia. auto.
Qed.

Lemma presets_ok :
  Forall (fun fp => forall msg post, msg <> [] -> bytes msg ->
    exists v, fst fp (Some (msg ++ post)) (zlen msg) = Ok v /\ is_crc (snd fp) msg v) documented_presets.
Proof.
  unfold documented_presets.
  repeat (apply Forall_cons; [intros msg post Hne Hb; cbn [fst snd];
    apply preset_ok; auto; unfold mode_width, CRC8, CRC16, CRC32; lia |]).
  apply Forall_nil.
Qed.

Lemma DNP_actual msg post : msg <> [] -> bytes msg ->
  exists v, crc16_DNP (Some (msg ++ post)) (zlen msg) = Ok v /\ is_crc actual_DNP msg v.
Proof. intros Hne Hb. apply preset_ok; auto. unfold mode_width, CRC16; lia. Qed.

Lemma DNP_doc_refuted :
  exists msg v, msg <> [] /\ bytes msg /\ crc16_DNP (Some msg) (zlen msg) = Ok v /\ ~ is_crc documented_DNP msg v.
Proof.
  assert (Hb : bytes [1]) by (repeat constructor; lia).
  exists [1]. eexists. split; [discriminate|]. split; [exact Hb|]. split; [vm_compute; reflexivity|].
  intros H. destruct (generic_is_crc CRC16 16 [1] [] 15768 0 true true 65535) as (v & E & Hc);
    [unfold mode_width, CRC16; lia | discriminate | exact Hb |].
  vm_compute in E. injection E as <-.
  apply (is_crc_unique documented_DNP _ _ _ ltac:(cbn; lia) H) in Hc. discriminate.
Qed.
