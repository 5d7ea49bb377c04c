(** Accuracy of the power function of Q16.16 numbers (C125). *)
From Coq Require Import ZArith Reals Lra Lia Bool List Psatz.
From Coquelicot Require Import Rcomplements.
From Verif Require Import Base BaseLemmas Fp16_Model Fp16_Spec Fp16_Proofs Fp16_Proofs2 Fp16Fun_Spec Fp16Fun_Proofs Fp16Fun_Proofs2 Fp16Fun_Proofs3 Fp16Fun_Proofs6 Fp16Log_Proofs3 Fp16Pow_Spec.
Open Scope R_scope.

Local Notation expR := Rtrigo_def.exp.
Local Notation u := (/ 131072).

(** ** integer exponents *)
Lemma geo_pos a n : 0 <= a -> 0 <= geo a n.
Proof. intros H. induction n; cbn [geo]; [lra|nra]. Qed.
Lemma geo_mono a n : 0 <= a -> geo a n <= geo a (S n).
Proof. intros H. induction n as [|n IH]; [cbn [geo]; lra|]. change (geo a (S n)) with (1 + a * geo a n) at 1. change (geo a (S (S n))) with (1 + a * geo a (S n)). nra. Qed.

Section Powi.
Variable x : Z.
Local Notation X := (fxR x).
Local Notation A := (Rabs X).
Variable N : nat.
Hypothesis Rx : raw x.
Hypothesis HN : (1 <= N)%nat.
Hypothesis Small : A ^ N + u * geo A (N - 1) <= 32760.

Lemma A0 : 0 <= A. Proof. apply Rabs_pos. Qed.
(** every smaller power satisfies the bound as well *)
Lemma small_below m : (1 <= m <= N)%nat -> A ^ m + u * geo A (m - 1) <= 32760 \/ A <= 1.
Proof.
  intros H. destruct (Rle_dec A 1) as [L|L]; [right; exact L|left]. eapply Rle_trans; [|exact Small]. apply Rplus_le_compat.
  - apply Rle_pow; [lra|lia].
  - apply Rmult_le_compat_l; [lra|]. pose proof A0. induction N as [|n IH] in H, HN |- *; [lia|]. destruct (Nat.eq_dec m (S n)) as [->|]; [apply Rle_refl|].
    eapply Rle_trans; [apply IH; lia|]. replace (S n - 1)%nat with (S (n - 1)) by lia. apply geo_mono. exact A0.
Qed.
Lemma geo_one n : A <= 1 -> geo A n <= INR n.
Proof. intros H. pose proof A0. induction n as [|n IH]; [simpl; lra|]. rewrite S_INR. cbn [geo]. pose proof (geo_pos A n A0). nra. Qed.

Lemma one_exact : exists r, mul x one = Ok r /\ fxR r = X.
Proof.
  destruct (Rle_dec A 32760) as [B|B].
  2: { exfalso. destruct (small_below 1 ltac:(lia)) as [S|S]; [|lra]. rewrite pow_1 in S. cbn [geo Nat.sub] in S. lra. }
  destruct (mul_fx x one) as (r & E & V & _); [exact Rx|unfold raw, one; lia|apply safe_fx; change (fxR one) with (65536 / 65536); rewrite (Rabs_pos_eq (65536 / 65536)) by lra; lra|change (fxR one) with (65536 / 65536); replace (X * (65536 / 65536)) with X by field; lra|].
  exists r. split; [exact E|]. change (fxR one) with (65536 / 65536) in V. replace (X * (65536 / 65536)) with X in V by field.
  assert (r = x) by (unfold fxR in V; replace (IZR r / 65536 - IZR x / 65536) with (IZR (r - x) * / 65536) in V by (rewrite minus_IZR; field); rewrite Rabs_mult, <- abs_IZR, (Rabs_pos_eq (/ 65536)) in V by lra; assert (IZR (Z.abs (r - x)) < 1) by lra; apply lt_IZR in H; lia).
  subst. reflexivity.
Qed.

Lemma step_ok m r : (1 <= m)%nat -> (S m <= N)%nat -> (INR N <= 32767) -> Rabs (fxR r - X ^ m) <= u * geo A (m - 1) ->
  exists r', mul x r = Ok r' /\ r' <> sentinel /\ Rabs (fxR r' - X ^ S m) <= u * geo A m.
Proof.
  intros H1 H2 HI V. pose proof A0 as P. assert (PX : Rabs (X ^ m) = A ^ m) by (symmetry; apply RPow_abs).
  pose proof (rab _ _ _ V) as B. rewrite PX in B. pose proof (geo_pos A (m - 1) P) as G0. pose proof (Rabs_pos (fxR r)) as R0.
  assert (GE : geo A m = 1 + A * geo A (m - 1)) by (replace m with (S (m - 1)) at 1 by lia; reflexivity).
  assert (K : A + Rabs (fxR r) <= 32766 /\ A * Rabs (fxR r) <= 32761).
  { destruct (small_below (S m) ltac:(lia)) as [SB|SB].
    - replace (S m - 1)%nat with m in SB by lia. rewrite GE in SB. rewrite <- tech_pow_Rmult in SB. pose proof (pow_le A m P) as PM.
      assert (AB : A * Rabs (fxR r) <= 32760) by nra. split; [|lra].
      destruct (Rle_dec A 1) as [L|L].
      + assert (A ^ m <= 1) by (rewrite <- (pow1 m); apply pow_incr; lra). pose proof (geo_one (m - 1) L). assert (INR (m - 1) <= INR N) by (apply le_INR; lia). nra.
      + destruct (Rle_dec (Rabs (fxR r)) 1) as [LR|LR].
        * destruct (small_below 1 ltac:(lia)) as [S1|S1]; [|lra]. rewrite pow_1 in S1. cbn [geo Nat.sub] in S1. lra.
        * nra.
    - assert (A ^ m <= 1) by (rewrite <- (pow1 m); apply pow_incr; lra). pose proof (geo_one (m - 1) SB). assert (INR (m - 1) <= INR N) by (apply le_INR; lia). assert (Rabs (fxR r) <= 2) by lra. split; nra. }
  destruct K as (K1 & K2). pose proof A0.
  destruct (mul_fx x r) as (r' & E & W & Bd); [exact Rx|apply fx_raw; lra|apply safe_fx; lra|rewrite Rabs_mult; lra|].
  exists r'. split; [exact E|]. split.
  - intros ->. unfold fxR in Bd. change sentinel with (-2147483648)%Z in Bd. rewrite Rabs_left in Bd; lra.
  - rewrite GE. replace (fxR r' - X ^ S m) with ((fxR r' - X * fxR r) + X * (fxR r - X ^ m)) by (rewrite <- tech_pow_Rmult; ring). eapply Rle_trans; [apply Rabs_triang|]. rewrite Rabs_mult. nra.
Qed.

Lemma powi_loop_ok k : forall m r, (1 <= m)%nat -> (m + k = N)%nat -> INR N <= 32767 -> Rabs (fxR r - X ^ m) <= u * geo A (m - 1) ->
  exists r', powi_loop k x r = Ok r' /\ Rabs (fxR r' - X ^ N) <= u * geo A (N - 1).
Proof.
  induction k as [|k IH]; intros m r H1 H2 HI V.
  - exists r. replace N with m by lia. split; [reflexivity|exact V].
  - destruct (step_ok m r H1 ltac:(lia) HI V) as (r' & E & NS & W). cbn [powi_loop]. rewrite E. cbn [bind]. unfold overflow. replace (-2147483648 =? r')%Z with false by (symmetry; apply Z.eqb_neq; intros Q; apply NS; unfold sentinel; lia).
    apply (IH (S m) r'); [lia|lia|exact HI|]. replace (S m - 1)%nat with m by lia. exact W.
Qed.
End Powi.

Lemma powi_ok x n : raw x -> (1 <= n <= 32767)%Z -> Rabs (fxR x) ^ Z.to_nat n + u * geo (Rabs (fxR x)) (Z.to_nat n - 1) <= 32760 ->
  exists r, Fp16_Model.pow x (n * 65536) = Ok r /\ Rabs (fxR r - fxR x ^ Z.to_nat n) <= u * geo (Rabs (fxR x)) (Z.to_nat n - 1).
Proof.
  intros R H S. unfold Fp16_Model.pow, fraction_mask.
  assert (U : u32 (n * 65536) = (n * 65536)%Z) by (unfold u32; apply Z.mod_small; lia). rewrite U.
  assert (LZ : Z.land (n * 65536) 65535 = 0%Z) by (change 65535%Z with (Z.ones 16); rewrite Z.land_ones by lia; change (2 ^ 16)%Z with 65536%Z; apply Z_mod_mult).
  rewrite LZ. replace ((0 =? 0)%Z && (0 <? n * 65536)%Z) with true by lia. unfold powi.
  assert (SR : Z.shiftr (n * 65536) 16 = n) by (rewrite Z.shiftr_div_pow2 by lia; apply Z_div_mult; lia). rewrite SR.
  replace (n =? 0)%Z with false by lia. replace (one =? n)%Z with false by (unfold one; lia).
  set (N := Z.to_nat n) in *. assert (HN : (1 <= N)%nat) by lia. destruct (one_exact x N R HN S) as (r & E & V). assert (EN : powi_loop N x one = powi_loop (Datatypes.S (N - 1)) x one) by (f_equal; lia). rewrite EN. cbn [powi_loop]. rewrite E. cbn [bind].
  assert (HI : INR N <= 32767) by (unfold N; rewrite INR_IZR_INZ, Z2Nat.id by lia; apply IZR_le; lia).
  assert (NS : r <> sentinel). { intros ->. destruct (small_below x N HN S 1 ltac:(lia)) as [S1|S1]; rewrite <- V in S1; unfold fxR in S1; change sentinel with (-2147483648)%Z in S1; [rewrite pow_1 in S1; cbn [geo Nat.sub] in S1|]; rewrite Rabs_left in S1; lra. }
  unfold overflow. replace (-2147483648 =? r)%Z with false by (symmetry; apply Z.eqb_neq; intros Q; apply NS; unfold sentinel; lia).
  apply (powi_loop_ok x N R HN S (N - 1) 1 r); [lia|lia|exact HI|]. rewrite pow_1, V. cbn [geo Nat.sub]. replace (fxR x - fxR x) with 0 by ring. rewrite Rabs_R0. lra.
Qed.
