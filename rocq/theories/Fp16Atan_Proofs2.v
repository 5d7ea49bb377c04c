(** Accuracy of the inverse sine and cosine of Q16.16 numbers (C124). *)
From Coq Require Import ZArith Reals Lra Lia Bool List Psatz.
From Coquelicot Require Import Rcomplements.
From Verif Require Import Base BaseLemmas Fp16_Model Fp16_Spec Fp16_Proofs Fp16_Proofs2 Fp16_Proofs3 Fp16Fun_Spec Fp16Fun_Proofs Fp16Fun_Proofs2 Fp16Fun_Proofs6 TrigBound Fp16Atan_Proofs.
Open Scope R_scope.

Local Notation ratan := Ratan.atan.
Local Notation rsqrt := R_sqrt.sqrt.
Local Notation u := (/ 131072).

Lemma atan_small z : Rabs (ratan z) <= Rabs z.
Proof. pose proof (atan_lip z 0) as H. rewrite atan_0, !Rminus_0_r in H. exact H. Qed.
Lemma atan_diff a b : 0 <= a * b -> Rabs (ratan a - ratan b) <= Rabs ((a - b) / (1 + a * b)).
Proof.
  intros H. pose proof (atan_bound a) as A. pose proof (atan_bound b) as B. pose proof PI_RGT_0.
  assert (S : - (PI / 2) < ratan a - ratan b < PI / 2).
  { destruct (Rle_dec 0 a) as [Pa|Na].
    - destruct (Req_dec a 0) as [->|]; [rewrite atan_0; lra|]. assert (0 <= b) by nra. assert (0 <= ratan a) by (rewrite <- atan_0; destruct Pa as [Pa|Pa]; [left; apply atan_increasing; exact Pa|rewrite Pa; lra]). assert (0 <= ratan b) by (rewrite <- atan_0; destruct H2 as [Pb|Pb]; [left; apply atan_increasing; exact Pb|rewrite Pb; lra]). lra.
    - assert (b <= 0) by nra. assert (ratan a <= 0) by (rewrite <- atan_0; left; apply atan_increasing; lra). assert (ratan b <= 0) by (rewrite <- atan_0; destruct H1 as [Pb|Pb]; [left; apply atan_increasing; exact Pb|rewrite Pb; lra]). lra. }
  rewrite <- (atan_tan (ratan a - ratan b)) by lra. replace ((a - b) / (1 + a * b)) with (Rtrigo1.tan (ratan a - ratan b)); [apply atan_small|].
  assert (CA : 0 < Rtrigo_def.cos (ratan a)) by (apply cos_gt_0; lra). assert (CB : 0 < Rtrigo_def.cos (ratan b)) by (apply cos_gt_0; lra). assert (CD : 0 < Rtrigo_def.cos (ratan a - ratan b)) by (apply cos_gt_0; lra).
  rewrite tan_minus; [rewrite !tan_atan; reflexivity|lra|lra|lra|rewrite !tan_atan; lra].
Qed.

Lemma root_fx r s : (0 < r)%Z -> nearest_root (r * 65536) s -> Rabs (fxR s - rsqrt (fxR r)) <= u.
Proof.
  intros Hr (S0 & U & L). assert (P : 0 <= fxR r) by (apply IZR_lt in Hr; unfold fxR; lra). pose proof (sqrt_pos (fxR r)) as Q. pose proof (sqrt_sqrt _ P) as E. set (w := rsqrt (fxR r)) in *.
  apply IZR_lt in U. apply IZR_le in S0. rewrite Z.pow_2_r in U. rewrite !mult_IZR, plus_IZR, mult_IZR in U.
  assert (Er : IZR r = fxR r * 65536) by (unfold fxR; field). rewrite Er, <- E in U. assert (Es : IZR s = fxR s * 65536) by (unfold fxR; field). rewrite Es in U, S0.
  assert (K1 : w <= fxR s + u) by nra.
  assert (K2 : fxR s - u <= w).
  { destruct L as [L|L]; [rewrite L; unfold fxR; lra|]. apply IZR_lt in L. rewrite Z.pow_2_r in L. rewrite !mult_IZR, minus_IZR, mult_IZR in L. rewrite Er, <- E, Es in L. nra. }
  apply Rabs_le. lra.
Qed.

Lemma asin_ok x : (Z.abs x < 65536)%Z -> exists v, Fp16_Model.asin x = Ok v /\ Rabs (fxR v - Ratan.asin (fxR x)) <= 0.0111.
Proof.
  intros H. unfold Fp16_Model.asin, one. replace ((x <=? 65536)%Z && (- (65536) <=? x)%Z) with true by lia.
  assert (F : Rabs (fxR x) <= 65535 / 65536) by (apply fx_abs; lia). set (X := fxR x) in *. pose proof (Rabs_pos X) as X0.
  assert (XX : X * X = Rabs X * Rabs X) by (rewrite <- Rabs_mult, Rabs_pos_eq by nra; reflexivity).
  assert (X2 : 0 <= X * X <= 65535 / 65536 * (65535 / 65536)) by (rewrite XX; nra).
  destruct (mul_fx x x) as (xx & E1 & V1 & _); [apply fx_raw; fold X; lra|apply fx_raw; fold X; lra|apply safe_fx; fold X; lra|fold X; rewrite Rabs_pos_eq; lra|]. fold X in V1.
  rewrite E1. cbn [bind]. apply Rcomplements.Rabs_le_between in V1.
  assert (Exx : IZR xx = fxR xx * 65536) by (unfold fxR; field).
  assert (XB : (0 <= xx <= 65534)%Z). { split; [apply Z.lt_succ_r, lt_IZR|apply Z.lt_succ_r, lt_IZR]; rewrite Exx || rewrite succ_IZR, Exx; try (simpl Z.succ; lra); lra. }
  rewrite Fp16_Proofs.i32_ok by (unfold raw; lia). cbn [bind].
  destruct (sqrt_small (65536 - xx) ltac:(lia)) as (s & E2 & N2). rewrite E2. cbn [bind].
  pose proof (root_fx (65536 - xx) s ltac:(lia) N2) as V2. rewrite fx_sub in V2. change (fxR 65536) with (65536 / 65536) in V2. replace (65536 / 65536) with 1 in V2 by field.
  assert (R1 : 2 / 65536 <= 1 - fxR xx <= 1). { destruct XB as (B0 & B1). apply IZR_le in B0, B1. lra. }
  assert (R2 : 1.99 / 65536 <= 1 - X * X <= 1) by lra.
  pose proof (sqrt_sqrt (1 - fxR xx) ltac:(lra)) as Q1. pose proof (sqrt_sqrt (1 - X * X) ltac:(lra)) as Q2. pose proof (sqrt_pos (1 - fxR xx)) as P1. pose proof (sqrt_pos (1 - X * X)) as P2.
  set (w := rsqrt (1 - fxR xx)) in *. set (S := rsqrt (1 - X * X)) in *.
  assert (LW : forall a b, 0 <= a -> a * a = b -> 1.99 / 65536 <= b <= 1 -> 0.0055 <= a <= 1).
  { intros a b A0 EA EB. split; apply Rnot_lt_le; intros NA; [assert (a * a <= 0.0055 * 0.0055) by (apply Rmult_le_compat; lra)|assert (1 * 1 < a * a) by (apply Rmult_le_0_lt_compat; lra)]; lra. }
  pose proof (LW w _ P1 Q1 ltac:(lra)) as L1. pose proof (LW S _ P2 Q2 ltac:(lra)) as L2.
  assert (D : Rabs (w - S) <= 91 * u). { assert (K : (w - S) * (w + S) = X * X - fxR xx) by (replace ((w - S) * (w + S)) with (w * w - S * S) by ring; lra). apply Rabs_le. split; apply Rnot_lt_le; intros N; [assert ((S - w - 91 * u) * (w + S) > 0)|assert ((w - S - 91 * u) * (w + S) > 0)]; try (apply Rmult_lt_0_compat; lra); lra. }
  apply Rcomplements.Rabs_le_between in V2. apply Rcomplements.Rabs_le_between in D. set (z := fxR s) in *.
  assert (ZS : - (92 * u) <= z - S <= 92 * u) by lra. assert (Z0 : 0.0054 <= z <= 1.001) by lra.
  assert (SZ : (0 < s <= 65602)%Z). { split; [apply lt_IZR|apply Z.lt_succ_r, lt_IZR; rewrite succ_IZR]; assert (IZR s = z * 65536) by (unfold z, fxR; field); lra. }
  assert (QB : Rabs (X / z) <= 200). { unfold Rdiv. rewrite Rabs_mult, (Rabs_pos_eq (/ z)) by (left; apply Rinv_0_lt_compat; lra). apply Rmult_le_reg_r with z; [lra|]. rewrite Rmult_assoc, Rinv_l, Rmult_1_r by lra. lra. }
  destruct (div_fx x s) as (q & E3 & V3 & _); [apply fx_raw; fold X; lra|unfold raw; lia|lia|unfold sentinel; lia|unfold sentinel; lia|fold X z; lra|]. fold X z in V3. rewrite E3. cbn [bind].
  pose proof (rab _ _ _ V3) as A3.
  assert (QZ : (Z.abs q < 2 ^ 28)%Z). { apply lt_IZR. rewrite abs_IZR. assert (IZR q = fxR q * 65536) by (unfold fxR; field). rewrite H0, Rabs_mult, (Rabs_pos_eq 65536) by lra. change (IZR (2 ^ 28)) with 268435456. lra. }
  destruct (atan_ok q ltac:(lia)) as (v & E4 & V4). exists v. split; [exact E4|].
  rewrite asin_atan by (apply Rcomplements.Rabs_le_between in F; lra). replace (rsqrt (1 - Rsqr X)) with S by (unfold S, Rsqr; reflexivity).
  pose proof (atan_lip (fxR q) (X / z)) as L4.
  assert (AD : Rabs (ratan (X / z) - ratan (X / S)) <= 93 * u).
  { eapply Rle_trans; [apply atan_diff|].
    - replace (X / z * (X / S)) with (X * X * / (z * S)) by (field; lra). apply Rmult_le_pos; [lra|]. left. apply Rinv_0_lt_compat. nra.
    - assert (DN : 0.999 <= z * S + X * X) by nra.
      replace ((X / z - X / S) / (1 + X / z * (X / S))) with (X * (S - z) * / (z * S + X * X)) by (field; repeat split; try lra; nra).
      rewrite !Rabs_mult, (Rabs_pos_eq (/ _)) by (left; apply Rinv_0_lt_compat; lra). apply Rmult_le_reg_r with (z * S + X * X); [lra|]. rewrite Rmult_assoc, Rinv_l, Rmult_1_r by lra.
      assert (Rabs (S - z) <= 92 * u) by (apply Rabs_le; lra). pose proof (Rabs_pos (S - z)). nra. }
  apply Rcomplements.Rabs_le_between in V4. apply Rcomplements.Rabs_le_between in AD. assert (L5 : Rabs (ratan (fxR q) - ratan (X / z)) <= u) by lra. apply Rcomplements.Rabs_le_between in L5. apply Rabs_le. lra.
Qed.

Lemma acos_ok x : (Z.abs x < 65536)%Z -> exists v, Fp16_Model.acos x = Ok v /\ Rabs (fxR v - Ratan.acos (fxR x)) <= 0.0112.
Proof.
  intros H. destruct (asin_ok x H) as (a & E & V). unfold Fp16_Model.acos. rewrite E. cbn [bind].
  assert (F : Rabs (fxR x) <= 65535 / 65536) by (apply fx_abs; lia). apply Rcomplements.Rabs_le_between in F, V. pose proof (asin_bound (fxR x)) as B. pose proof PI_bounds as PB. unfold PIlo, PIhi in PB.
  assert (P2 : fxR f_pi_2 = 102944 / 65536) by reflexivity.
  rewrite fx_i32 by (rewrite fx_sub, P2; apply Rabs_le; lra). eexists. split; [reflexivity|]. rewrite fx_sub, P2, acos_asin by lra. apply Rabs_le. lra.
Qed.
