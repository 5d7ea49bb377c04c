(** The binary logarithm of Q16.16 numbers: accuracy. *)
From Coq Require Import ZArith Reals Lra Lia Bool.
From Flocq Require Import Raux.
From Verif Require Import Base BaseLemmas Fp16_Model Fp16_Spec Fp16_Proofs Fp16_Proofs2 Fp16Fun_Spec Fp16Fun_Proofs Fp16Fun_Proofs2 Fp16Fun_Proofs6 Ffmath_Proofs12.
Open Scope R_scope.

Lemma ln_div a b : 0 < a -> 0 < b -> ln (a / b) = ln a - ln b.
Proof. intros A B. unfold Rdiv. rewrite ln_mult, ln_Rinv; [ring|exact B|exact A|apply Rinv_0_lt_compat, B]. Qed.
Lemma ln_pow2 k : ln (2 ^ k) = INR k * ln 2. Proof. rewrite <- Rpower_pow by lra. unfold Rpower. apply ln_exp. Qed.
Definition lb (x : R) : R := ln x / ln 2.
Lemma ln_diff a b m d : 0 < m -> m <= a -> m <= b -> Rabs (a - b) <= d -> Rabs (ln a - ln b) <= d / m.
Proof.
  intros M A B D. assert (G : forall p q, m <= p -> m <= q -> p - q <= d -> 0 <= d -> ln p - ln q <= d / m).
  { intros p q P Q E D0. rewrite <- ln_div by lra. assert (K : ln (p / q) <= p / q - 1). { pose proof (exp_ineq1_le (ln (p / q))) as X. rewrite exp_ln in X by (apply Rmult_lt_0_compat; [lra|apply Rinv_0_lt_compat; lra]). lra. }
    eapply Rle_trans; [exact K|]. replace (p / q - 1) with ((p - q) * / q) by (field; lra). apply Rle_trans with (d * / q); [apply Rmult_le_compat_r; [left; apply Rinv_0_lt_compat|]; lra|]. apply Rmult_le_compat_l; [exact D0|]. apply Rinv_le_contravar; lra. }
  pose proof (Rabs_pos (a - b)). apply Rabs_le_inv in D. apply Rabs_le. split; [|apply G; lra]. pose proof (G b a B A ltac:(lra) ltac:(lra)). lra.
Qed.
Lemma lb_diff a b m d : 0 < m -> m <= a -> m <= b -> Rabs (a - b) <= d -> Rabs (lb a - lb b) <= 1.443 * d / m.
Proof.
  intros M A B D. pose proof (ln_diff a b m d M A B D) as L. pose proof ln2_bnd as L2. unfold lb. replace (ln a / ln 2 - ln b / ln 2) with ((ln a - ln b) * / ln 2) by (field; lra). rewrite Rabs_mult, (Rabs_pos_eq (/ ln 2)) by (left; apply Rinv_0_lt_compat; lra).
  assert (I : / ln 2 <= 1.443) by (rewrite <- (Rinv_inv 1.443); apply Rinv_le_contravar; lra). assert (0 < / ln 2) by (apply Rinv_0_lt_compat; lra). replace (1.443 * d / m) with (d / m * 1.443) by (field; lra). apply Rmult_le_compat; try lra. apply Rabs_pos.
Qed.
Lemma lb_half a : 0 < a -> lb (a / 2) = lb a - 1.
Proof. intros H. unfold lb. pose proof ln2_bnd. rewrite ln_div by lra. field. lra. Qed.
Lemma lb_sq a : 0 < a -> lb (a * a) = 2 * lb a. Proof. intros H. unfold lb. rewrite ln_mult by lra. pose proof ln2_bnd. field. lra. Qed.
Lemma lb_pow2 k a : 0 < a -> lb (2 ^ k * a) = INR k + lb a.
Proof. intros H. unfold lb. assert (P : 0 < 2 ^ k) by (apply pow_lt; lra). rewrite ln_mult by lra. rewrite ln_pow2. pose proof ln2_bnd. field. lra. Qed.
Lemma lb_inv a : 0 < a -> lb (/ a) = - lb a. Proof. intros H. unfold lb. rewrite ln_Rinv by lra. pose proof ln2_bnd. field. lra. Qed.
Lemma lb_1 : lb 1 = 0. Proof. unfold lb. rewrite ln_1. unfold Rdiv. ring. Qed.
Lemma lb_range a : 1 <= a < 2 -> 0 <= lb a < 1.
Proof.
  intros H. pose proof ln2_bnd. unfold lb. split.
  - apply Rcomplements.Rle_div_r; [lra|]. rewrite Rmult_0_l. rewrite <- ln_1. destruct (proj1 H) as [K| <-]; [left; apply ln_increasing; lra|lra].
  - apply Rcomplements.Rlt_div_l; [lra|]. rewrite Rmult_1_l. apply ln_increasing; lra.
Qed.

Lemma rs_spec x : (x <= 2 * rs x <= x + 1)%Z.
Proof. unfold rs, flag_rounding. rewrite Z.shiftr_div_pow2 by lia. change (2 ^ 1)%Z with 2%Z. assert (E : Z.land x 1 = (x mod 2)%Z) by (change 1%Z with (Z.ones 1); apply Z.land_ones; lia). rewrite E. pose proof (Z.div_mod x 2 ltac:(lia)). pose proof (Z.mod_pos_bound x 2 ltac:(lia)). lia. Qed.

(** ** Normalisation *)
Lemma norm_ok : forall n fuel x r, (65536 <= x <= 2 ^ (17 + Z.of_nat n))%Z -> (n + 2 <= fuel)%nat ->
  exists k x', log2_norm fuel x r = Ok (x', r + Z.of_nat k)%Z /\ (65536 <= x' < 131072)%Z /\ (x <= 2 ^ Z.of_nat k * x' <= x + 2 ^ Z.of_nat k - 1)%Z /\ (k <= n + 1)%nat.
Proof.
  assert (Base : forall fuel x r, (65536 <= x < 131072)%Z -> (1 <= fuel)%nat -> log2_norm fuel x r = Ok (x, r + Z.of_nat 0)%Z). { intros fuel x r H F. destruct fuel as [|f]; [lia|]. cbn [log2_norm]. unfold f2. rewrite (proj2 (Z.leb_gt _ _)) by lia. rewrite Z.add_0_r. reflexivity. }
  induction n as [|n IH]; intros fuel x r H F.
  - change (2 ^ (17 + Z.of_nat 0))%Z with 131072%Z in H. destruct (Z.eq_dec x 131072) as [->|N].
    + exists 1%nat, 65536%Z. destruct fuel as [|f]; [lia|]. cbn [log2_norm]. change (f2 <=? 131072)%Z with true. cbv iota. change (rs 131072) with 65536%Z. rewrite (Base f) by lia. split; [f_equal; f_equal; lia|]. split; [lia|]. split; [|lia]. change (2 ^ Z.of_nat 1)%Z with 2%Z. lia.
    + exists 0%nat, x. split; [apply Base; lia|]. split; [lia|]. split; [|lia]. change (2 ^ Z.of_nat 0)%Z with 1%Z. lia.
  - destruct (Z_lt_ge_dec x 131072) as [L|G].
    + exists 0%nat, x. split; [apply Base; lia|]. split; [lia|]. split; [|lia]. change (2 ^ Z.of_nat 0)%Z with 1%Z. lia.
    + pose proof (rs_spec x) as R. destruct fuel as [|f]; [lia|]. destruct (IH f (rs x) (r + 1)%Z) as (k & x' & E & B & K & M).
      * split; [lia|]. replace (17 + Z.of_nat (S n))%Z with (1 + (17 + Z.of_nat n))%Z in H by lia. rewrite Z.pow_add_r in H by lia. change (2 ^ 1)%Z with 2%Z in H. lia.
      * lia.
      * exists (S k), x'. cbn [log2_norm]. unfold f2. rewrite (proj2 (Z.leb_le _ _)) by lia. fold f2. rewrite E. split; [f_equal; f_equal; lia|]. split; [exact B|]. split; [|lia]. replace (Z.of_nat (S k)) with (1 + Z.of_nat k)%Z by lia. rewrite Z.pow_add_r by lia. change (2 ^ 1)%Z with 2%Z. lia.
Qed.

(** ** The bits *)
Lemma fx_1_2 x : (65536 <= x < 131072)%Z -> 1 <= fxR x < 2. Proof. intros (A & B). apply IZR_le in A. apply IZR_lt in B. unfold fxR. lra. Qed.
Lemma sq_ok x : (65536 <= x < 131072)%Z -> exists x1, mul x x = Ok x1 /\ (65536 <= x1 <= 262140)%Z /\ Rabs (lb (fxR x1) - 2 * lb (fxR x)) <= 1.443 * (/ 131072).
Proof.
  intros H. pose proof (fx_1_2 x H) as W. destruct (mul_fx x x) as (x1 & E & V & _).
  - unfold raw. lia.
  - unfold raw. lia.
  - apply safe_fx. rewrite Rabs_pos_eq; lra.
  - rewrite Rabs_pos_eq; nra.
  - exists x1. split; [exact E|]. assert (X : 1 <= fxR x <= 131071 / 65536). { split; [lra|]. assert (IZR x <= 131071) by (apply IZR_le; lia). unfold fxR. lra. } pose proof V as V'. apply Rabs_le_inv in V.
    assert (A : (65536 <= x1)%Z). { apply Z.nlt_ge. intros L. assert (IZR x1 <= 65535) by (apply IZR_le; lia). unfold fxR in V at 1 4. nra. }
    assert (B : (x1 <= 262140)%Z). { apply Z.nlt_ge. intros L. assert (262141 <= IZR x1) by (apply IZR_le; lia). assert (fxR x * fxR x <= 131071 / 65536 * (131071 / 65536)) by (apply Rmult_le_compat; lra). unfold fxR in V at 1 4. lra. }
    split; [lia|]. rewrite <- lb_sq by lra. replace (1.443 * / 131072) with (1.443 * / 131072 / 1) by field. apply lb_diff; try lra; [|nra]. assert (65536 <= IZR x1) by (apply IZR_le; lia). unfold fxR. lra.
Qed.
Lemma rs_ok x1 : (131072 <= x1 <= 262140)%Z -> (65536 <= rs x1 < 131072)%Z /\ Rabs (lb (fxR (rs x1)) - (lb (fxR x1) - 1)) <= 1.443 * (/ 131072).
Proof.
  intros H. pose proof (rs_spec x1) as R. split; [lia|]. assert (X : 2 <= fxR x1) by (assert (131072 <= IZR x1) by (apply IZR_le; lia); unfold fxR; lra). rewrite <- lb_half by lra. replace (1.443 * / 131072) with (1.443 * / 131072 / 1) by field.
  apply lb_diff; [lra| |lra|]. { assert (65536 <= IZR (rs x1)) by (apply IZR_le; lia). unfold fxR. lra. }
  destruct R as (R1 & R2). apply IZR_le in R1. apply IZR_le in R2. rewrite mult_IZR in R1, R2. rewrite plus_IZR in R2. unfold fxR. apply Rabs_le. lra.
Qed.
Lemma bits_ok : forall k x r, (k <= 16)%nat -> (65536 <= x < 131072)%Z -> (0 <= r)%Z -> ((r + 1) * 2 ^ Z.of_nat k <= 2 ^ 30)%Z ->
  exists x' r', log2_bits k x r = Ok (x', r') /\ (65536 <= x' < 131072)%Z /\ (0 <= r')%Z /\ ((r' + 1) <= (r + 1) * 2 ^ Z.of_nat k)%Z /\
  Rabs (IZR r' + lb (fxR x') - 2 ^ k * (IZR r + lb (fxR x))) <= (2 ^ k - 1) * (1.443 / 65536).
Proof.
  induction k as [|k IH]; intros x r Hk Hx Hr Hb.
  - exists x, r. cbn [log2_bits]. split; [reflexivity|]. split; [exact Hx|]. split; [exact Hr|]. split; [change (2 ^ Z.of_nat 0)%Z with 1%Z; lia|]. cbn [pow]. rewrite Rmult_1_l. rewrite !Rminus_eq_0. rewrite Rabs_R0. lra.
  - cbn [log2_bits]. destruct (sq_ok x Hx) as (x1 & E & B & V). rewrite E. cbn [bind]. replace (Z.of_nat (S k)) with (1 + Z.of_nat k)%Z in * by lia. rewrite Z.pow_add_r in * by lia. change (2 ^ 1)%Z with 2%Z in *.
    assert (P2 : (1 <= 2 ^ Z.of_nat k)%Z) by (pose proof (Z.pow_pos_nonneg 2 (Z.of_nat k)); lia). assert (R30 : (2 * (r + 1) <= 2 ^ 30)%Z) by nia. change (2 ^ 30)%Z with 1073741824%Z in *.
    assert (Sh : s32 (Z.shiftl r 1) = (2 * r)%Z). { rewrite Z.shiftl_mul_pow2 by lia. change (2 ^ 1)%Z with 2%Z. unfold s32. rewrite Z.mod_small by lia. lia. } rewrite Sh. set (P := 2 ^ k) in *. assert (PS : 2 ^ S k = 2 * P) by reflexivity. rewrite PS. assert (P1 : 1 <= P) by (unfold P; apply pow_R1_Rle; lra).
    assert (Fin : forall x2 r2, (65536 <= x2 < 131072)%Z -> (0 <= r2)%Z -> (r2 <= 2 * r + 1)%Z -> Rabs (IZR r2 + lb (fxR x2) - 2 * (IZR r + lb (fxR x))) <= 1.443 / 65536 ->
      exists x' r', log2_bits k x2 r2 = Ok (x', r') /\ (65536 <= x' < 131072)%Z /\ (0 <= r')%Z /\ (r' + 1 <= (r + 1) * (2 * 2 ^ Z.of_nat k))%Z /\ Rabs (IZR r' + lb (fxR x') - 2 * P * (IZR r + lb (fxR x))) <= (2 * P - 1) * (1.443 / 65536)).
    { intros x2 r2 X2 R0 R2 D. destruct (IH x2 r2 ltac:(lia) X2 R0 ltac:(nia)) as (x' & r' & E' & B' & Z' & U' & V'). exists x', r'. split; [exact E'|]. split; [exact B'|]. split; [exact Z'|]. split; [nia|]. fold P in V'.
      replace (IZR r' + lb (fxR x') - 2 * P * (IZR r + lb (fxR x))) with ((IZR r' + lb (fxR x') - P * (IZR r2 + lb (fxR x2))) + P * (IZR r2 + lb (fxR x2) - 2 * (IZR r + lb (fxR x)))) by ring. eapply Rle_trans; [apply Rabs_triang|]. rewrite Rabs_mult, (Rabs_pos_eq P) by lra. assert (P * Rabs (IZR r2 + lb (fxR x2) - 2 * (IZR r + lb (fxR x))) <= P * (1.443 / 65536)) by (apply Rmult_le_compat_l; lra). lra. }
    destruct (Z.leb_spec f2 x1) as [G|L]; unfold f2 in *.
    + destruct (rs_ok x1 ltac:(lia)) as (B2 & V2). assert (Lo : Z.lor (2 * r) 1 = (2 * r + 1)%Z). { destruct r as [|p|p]; [reflexivity|reflexivity|lia]. }
      rewrite Lo. apply Fin; [exact B2|lia|lia|]. rewrite plus_IZR, mult_IZR. apply Rabs_le_inv in V. apply Rabs_le_inv in V2. apply Rabs_le. lra.
    + apply Fin; [lia|lia|lia|]. rewrite mult_IZR. apply Rabs_le_inv in V. apply Rabs_le. lra.
Qed.
Lemma log2i_ok x : (65536 <= x < 2 ^ 31)%Z -> exists r, log2i x = Ok r /\ (0 <= r < 2 ^ 21)%Z /\ Rabs (IZR r - 65536 * lb (fxR x)) <= 3.9.
Proof.
  intros H. destruct (norm_ok 14 40 x 0) as (k & x0 & E & B & K & M); [change (17 + Z.of_nat 14)%Z with 31%Z; lia|lia|]. unfold log2i. rewrite E. cbn [bind]. rewrite (proj2 (Z.eqb_neq x0 0)) by lia. rewrite Z.add_0_l.
  destruct (bits_ok 16 x0 (Z.of_nat k)) as (x1 & r1 & E1 & B1 & R1 & U1 & V1); [lia|exact B|lia| |].
  { change (2 ^ Z.of_nat 16)%Z with 65536%Z. change (2 ^ 30)%Z with 1073741824%Z. lia. }
  rewrite E1. cbn [bind]. unfold flag_rounding. destruct (sq_ok x1 B1) as (x2 & E2 & _ & _). rewrite E2. cbn [bind]. change (2 ^ Z.of_nat 16)%Z with 65536%Z in U1. change (2 ^ 21)%Z with 2097152%Z.
  pose proof (lb_range _ (fx_1_2 _ B1)) as L1. replace (2 ^ 16) with 65536 in V1 by ring.
  assert (V0 : Rabs (IZR (Z.of_nat k) + lb (fxR x0) - lb (fxR x)) <= 1.4431 / 65536).
  { assert (F0 : 1 <= fxR x0 < 2) by (apply fx_1_2, B). assert (FX : 0 < fxR x) by (assert (65536 <= IZR x) by (apply IZR_le; lia); unfold fxR; lra). set (P := 2 ^ k). assert (PP : 0 < P) by (unfold P; apply pow_lt; lra). destruct K as (K1 & K2). apply IZR_le in K1. apply IZR_le in K2. rewrite minus_IZR, plus_IZR in K2. rewrite mult_IZR in K1, K2. assert (EP : IZR (2 ^ Z.of_nat k) = P) by (unfold P; rewrite pow_IZR; reflexivity). rewrite EP in K1, K2.
    rewrite <- INR_IZR_INZ, <- lb_pow2 by lra. fold P. replace (1.4431 / 65536) with (1.443 * (P / 65536) / (P * (1.443 / 1.4431))) by (field; lra). apply lb_diff.
    - apply Rmult_lt_0_compat; lra.
    - apply Rmult_le_compat_l; lra.
    - assert (65536 <= IZR x0) by (apply IZR_le; lia). assert (P * 65536 <= P * IZR x0) by (apply Rmult_le_compat_l; lra). unfold fxR. lra.
    - unfold fxR. apply Rabs_le. lra. }
  apply Rabs_le_inv in V0. apply Rabs_le_inv in V1.
  destruct (f2 <=? x2)%Z.
  - exists (r1 + 1)%Z. split; [apply Fp16_Proofs.i32_ok; unfold raw; lia|]. split; [lia|]. rewrite plus_IZR. apply Rabs_le. lra.
  - exists r1. split; [reflexivity|]. split; [lia|]. apply Rabs_le. lra.
Qed.
Lemma log2_ok x : raw x -> (3 <= x)%Z -> exists r, Fp16_Model.log2 x = Ok r /\ Rabs (fxR r - lb (fxR x)) <= 4.7 * ulp16.
Proof.
  intros R H. unfold Fp16_Model.log2. rewrite (proj2 (Z.ltb_lt 0 x)) by lia. unfold saturation. assert (X0 : 3 <= IZR x) by (apply IZR_le; lia).
  destruct (Z.ltb_spec x one) as [L|G]; unfold one in *.
  - rewrite (proj2 (Z.eqb_neq x 1)) by lia. assert (X1 : IZR x <= 65535) by (apply IZR_le; lia).
    assert (W : 0 < fxR x < 1) by (unfold fxR; lra). assert (Q : fxR 65536 / fxR x = / fxR x) by (unfold fxR; field; lra).
    assert (I : / fxR x <= 65536 / 3). { unfold fxR, Rdiv. rewrite Rinv_mult, Rinv_inv. assert (/ IZR x <= / 3) by (apply Rinv_le_contravar; lra). lra. } assert (I1 : 1 < / fxR x) by (rewrite <- Rinv_1; apply Rinv_lt_contravar; lra).
    destruct (div_fx 65536 x) as (q & Eq & Vq & _); [unfold raw; lia|exact R|lia|unfold sentinel; lia|unfold sentinel; lia|rewrite Q, Rabs_pos_eq; lra|]. rewrite Q in Vq.
    assert (Q1 : (65536 <= q < 2 ^ 31)%Z). { apply Rabs_le_inv in Vq. unfold fxR in Vq at 1 3. split; [apply Z.nlt_ge; intros K; assert (IZR q <= 65535) by (apply IZR_le; lia); lra|]. apply lt_IZR. change (IZR (2 ^ 31)) with 2147483648. lra. }
    fold one. change one with 65536%Z. rewrite Eq. cbn [bind]. destruct (log2i_ok q Q1) as (l & El & Bl & Vl). rewrite El. cbn [bind]. change (2 ^ 21)%Z with 2097152%Z in Bl. rewrite Fp16_Proofs.i32_ok by (unfold raw; lia). cbn [bind]. exists (- l)%Z. split; [reflexivity|].
    assert (D : Rabs (lb (fxR q) - lb (/ fxR x)) <= 1.443 * / 131072 / 1). { apply lb_diff; try lra. assert (65536 <= IZR q) by (apply IZR_le; lia). unfold fxR. lra. } rewrite lb_inv in D by lra. apply Rabs_le_inv in D. apply Rabs_le_inv in Vl. rewrite fx_opp. unfold fxR at 1. unfold ulp16. apply Rabs_le. lra.
  - destruct (log2i_ok x ltac:(unfold raw in R; lia)) as (r & E & _ & V). rewrite E. cbn [bind]. exists r. split; [reflexivity|]. apply Rabs_le_inv in V. unfold fxR at 1. unfold ulp16. apply Rabs_le. lra.
Qed.
