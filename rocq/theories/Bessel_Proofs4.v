(** The accuracy of cyl_bessel_j and cyl_bessel_i for orders 0 and 1 and small arguments. *)
From Coq Require Import ZArith Reals Lra Lia Psatz Bool Factorial.
From Coquelicot Require Import Coquelicot.
From Flocq Require Import Core IEEE754.BinarySingleNaN IEEE754.Binary IEEE754.Bits.
From Verif Require Import Base BaseLemmas Arith Ext32 Bits32 Ffmath_Model Ffmath2_Model Ffmath3_Model Ffmath5_Model Ffmath_Spec Ffmath_Proofs Ffmath_Proofs2 Ffmath_Proofs3 Float32 Ffmath_Proofs4 Ffmath_Proofs7 Ffmath_Proofs8 Ffmath_Proofs9 FloatApp Ffmath_Proofs12 Ffmath_Proofs13 Ffmath_Proofs14 Ffmath_Proofs15 Ffmath_Proofs16 Ellint_Proofs3 Expint_Proofs4 Bessel_Spec Bessel_Proofs Bessel_Proofs2 Bessel_Proofs3.
Open Scope R_scope.

Lemma lit_1 : finite (flit 1 1) /\ valR (flit 1 1) = 1. Proof. cst. Qed.
Lemma lit_m1 : finite (flit (-1) 1) /\ valR (flit (-1) 1) = -1. Proof. cst. Qed.
Lemma lit_10 : finite (flit 10 1) /\ valR (flit 10 1) = 10. Proof. cst. Qed.
Lemma unit_mul s y : finite s -> Rabs (valR s) = 1 -> finite y -> finite (s * y)%b32 /\ valR (s * y)%b32 = valR s * valR y.
Proof.
  intros Fs Hs Fy. destruct (mult_M s y Fs Fy) as (F & V); [rewrite Rabs_mult, Hs, Rmult_1_l; apply finite_le|]. split; [exact F|]. rewrite V.
  assert (C : valR s = 1 \/ valR s = -1) by (unfold Rabs in Hs; destruct (Rcase_abs (valR s)); lra). destruct C as [-> | ->].
  - rewrite Rmult_1_l. apply rnd_val.
  - replace (-1 * valR y) with (- valR y) by ring. rewrite rnd_opp, rnd_val. reflexivity.
Qed.
Lemma b125 : 0 < bpow radix2 (-125) /\ bpow radix2 (-126) < bpow radix2 (-125). Proof. split; [apply bpow_gt_0|apply bpow_lt; lia]. Qed.
Lemma half_x x : finite x -> bpow radix2 (-125) <= valR x -> finite (flit 1 2 * x)%b32 /\ valR (flit 1 2 * x)%b32 = valR x / 2 /\ is_normal (flit 1 2 * x)%b32.
Proof.
  intros F H. destruct b125. destruct (half_R x F) as (Fh & Vh). rewrite rnd_fmt in Vh by (apply half_fmt; rewrite Rabs_pos_eq; lra). split; [exact Fh|]. split; [exact Vh|]. apply (normal_ge _ (bpow radix2 (-126))); [exact Fh| |lra].
  rewrite Vh. change (bpow radix2 (-126)) with (bpow radix2 (-125 - 1)). unfold Zminus. rewrite bpow_plus. change (bpow radix2 (- (1))) with (/ 2). lra.
Qed.
Lemma xx4_ok n x s : (n <= 1)%nat -> finite x -> bpow radix2 (-125) <= valR x -> (valR x / 2) ^ 2 <= bZ n -> finite s -> Rabs (valR s) = 1 ->
  app (s * (flit 1 2 * x) * (flit 1 2 * x))%b32 (valR s * (valR x / 2) ^ 2) (11 / 10 * / 16777216 * bZ n) /\ Rabs (valR s * (valR x / 2) ^ 2) <= bZ n.
Proof.
  intros Hn Fx Hx Hz Fs Hs. destruct b125 as (B0 & _). destruct (half_x x Fx Hx) as (Fh & Vh & _). destruct (unit_mul s _ Fs Hs Fh) as (Fm & Vm). set (x2 := (flit 1 2 * x)%b32) in *. set (y := (s * x2)%b32) in *.
  assert (E : valR y * valR x2 = valR s * (valR x / 2) ^ 2) by (rewrite Vm, Vh; ring). assert (A : Rabs (valR s * (valR x / 2) ^ 2) <= bZ n). { rewrite Rabs_mult, Hs, Rmult_1_l, Rabs_pos_eq; [exact Hz|apply pow2_ge_0]. }
  split; [|exact A]. assert (Zq : 2 <= bZ n <= 502 / 100) by (unfold bZ; destruct (Nat.eqb n 0); lra). destruct (mult_R y x2 Fm Fh) as (F & V). { rewrite E. pose proof big1. lra. }
  split; [exact F|]. rewrite V, E. eapply Rle_trans; [apply rnd_err|]. rewrite u32_v. pose proof tiny_ok. pose proof tiny_v. lra.
Qed.
(** the factor for order 0 *)
Lemma zero_shape y : finite y -> valR y = 0 -> y = B754_zero 24 128 true \/ y = B754_zero 24 128 false.
Proof.
  intros F H. destruct y as [s|s|s p Hp|s m e Hm]; try discriminate F; [destruct s; auto|]. exfalso. cbn [B2R] in H. unfold F2R in H. cbn [Fnum Fexp] in H. pose proof (bpow_gt_0 radix2 e). assert (IZR (cond_Zopp s (Zpos m)) <> 0) by (apply IZR_neq; destruct s; discriminate). apply Rmult_integral in H. destruct H; lra.
Qed.
Lemma res_bits (r : res float) b : match r with Ok y => bits_of_b32 y | Ub => (-1)%Z end = bits_of_b32 b -> bits_of_b32 b <> (-1)%Z -> r = Ok b.
Proof. destruct r as [y|]; intros H N; [f_equal; apply bits_inj; exact H|]. exfalso. apply N. symmetry. exact H. Qed.
Lemma fact_0 nu L : finite nu -> valR nu = 0 -> finite L -> fexp (nu * L - lgamma (nu + flit 1 1))%b32 = Ok (flit 1 1).
Proof.
  intros Fn Vn FL. destruct lit_1 as (F1 & V1). destruct (plus_R nu (flit 1 1) Fn F1) as (Fp & Vp). { rewrite Vn, V1, Rabs_pos_eq by lra. pose proof big1. lra. }
  rewrite Vn, Rplus_0_l, rnd_val in Vp. rewrite (val_inj _ (flit 1 1) Fp F1 Vp) by lra. replace (lgamma (flit 1 1)) with (flit 0 1) by (apply bits_inj; vm_compute; reflexivity).
  destruct (mult_R nu L Fn FL) as (Fm & Vm). { rewrite Vn, Rmult_0_l, Rabs_R0. apply bpow_ge_0. } rewrite Vn, Rmult_0_l, rnd_0 in Vm.
  destruct (zero_shape _ Fm Vm) as [-> | ->]; apply res_bits; try (vm_compute; reflexivity); vm_compute; discriminate.
Qed.
(** the factor for order 1 *)
Lemma fact_1 nu L : finite nu -> valR nu = 1 -> finite L -> exists w, fexp (nu * L - lgamma (nu + flit 1 1))%b32 = fexp w /\ finite w /\ valR w = valR L.
Proof.
  intros Fn Vn FL. destruct lit_1 as (F1 & V1). destruct (plus_R nu (flit 1 1) Fn F1) as (Fp & Vp). { rewrite Vn, V1, Rabs_pos_eq by lra. pose proof big1. lra. }
  destruct lit_2 as (F2 & V2). rewrite Vn, V1 in Vp. replace (1 + 1) with (valR (flit 2 1)) in Vp by lra. rewrite rnd_val in Vp. rewrite (val_inj _ (flit 2 1) Fp F2 Vp) by lra. replace (lgamma (flit 2 1)) with (flit 0 1) by (apply bits_inj; vm_compute; reflexivity).
  destruct (unit_mul nu L Fn) as (Fm & Vm); [rewrite Vn; apply Rabs_R1|exact FL|]. rewrite Vn, Rmult_1_l in Vm. destruct zero_R as (F0 & V0). destruct (minus_M (nu * L)%b32 (flit 0 1) Fm F0) as (Fd & Vd). { rewrite V0, Rminus_0_r. apply finite_le. }
  rewrite V0, Rminus_0_r, rnd_val, Vm in Vd. eexists. split; [reflexivity|]. split; [exact Fd|exact Vd].
Qed.

Lemma sum_ok n nu x s : (n <= 1)%nat -> finite nu -> valR nu = INR n -> finite x -> bpow radix2 (-125) <= valR x -> (valR x / 2) ^ 2 <= bZ n -> finite s -> Rabs (valR s) = 1 ->
  app (ij_loop (Z.to_nat (200 - 1)) 1 nu (s * (flit 1 2 * x) * (flit 1 2 * x))%b32 (flit 1 1) (flit 1 1)) (Series (bT n (valR s * (valR x / 2) ^ 2))) (/ 32768).
Proof.
  intros Hn Fn Vn Fx Hx Hz Fs Hs. destruct (xx4_ok n x s Hn Fx Hx Hz Fs Hs) as (Ax & Az). destruct lit_1 as (F1 & V1). change (Z.to_nat (200 - 1)) with 199%nat. 
  apply (ij_loop_ok n (valR s * (valR x / 2) ^ 2) nu _ Hn Az Fn Vn Ax 199 0 (flit 1 1) (flit 1 1)); [lia| |].
  - rewrite bT_0 by exact Hn. split; [exact F1|]. rewrite V1, Rminus_diag_eq, Rabs_R0 by auto. apply (eB_small n 0 Hn). lia.
  - unfold bS. cbn [sum_f_R0 eSb]. rewrite bT_0 by exact Hn. apply app_const; auto.
Qed.
Lemma series_le n z : (n <= 1)%nat -> Rabs z <= bZ n -> Rabs (Series (bT n z)) <= 7001 / 1000.
Proof.
  intros Hn Hz. pose proof (tail_bound n z 20 Hn ltac:(lia) Hz) as Tb. pose proof (bS_le n z 20 Hn Hz) as Sb. pose proof (bT_le n z 20 Hz) as T1. pose proof (maj_geo n 20 Hn) as T2. assert (g4 20 <= / 1000000000000) by (unfold g4; cbn [pow]; lra).
  replace (Series (bT n z)) with (bS n z 20 - (bS n z 20 - Series (bT n z))) by ring. eapply Rle_trans; [apply Rabs_triang|]. rewrite Rabs_Ropp. lra.
Qed.
Lemma not_tiny x : finite x -> bpow radix2 (-125) <= valR x -> fisEqual0 (flit 0 1) x = false.
Proof. intros F H. destruct b125. apply eq0_f; [apply fin_nan; exact F|]. rewrite ext32_finite by exact F. change (B2R 24 128 x) with (valR x). rewrite Rabs_pos_eq; lra. Qed.

Lemma series_0 nu x s : finite nu -> valR nu = 0 -> finite x -> bpow radix2 (-125) <= valR x -> (valR x / 2) ^ 2 <= bZ 0 -> finite s -> Rabs (valR s) = 1 ->
  exists r, cyl_bessel_ij_series nu x s 200 = Ok r /\ app r (Series (bT 0 (valR s * (valR x / 2) ^ 2))) (/ 32768).
Proof.
  intros Fn Vn Fx Hx Hz Fs Hs. unfold cyl_bessel_ij_series. rewrite (not_tiny x Fx Hx). destruct (half_x x Fx Hx) as (Fh & Vh & Nh). destruct b125 as (B0 & _).
  destruct (flog_acc _ Nh) as (FL & _); [lra|]. cbv zeta. rewrite (fact_0 nu _ Fn Vn FL). cbn [bind]. eexists. split; [reflexivity|].
  pose proof (sum_ok 0 nu x s ltac:(lia) Fn Vn Fx Hx Hz Fs Hs) as (Fq & Vq). destruct lit_1 as (F1 & V1). destruct (unit_mul (flit 1 1) _ F1 ltac:(rewrite V1; apply Rabs_R1) Fq) as (Fr & Vr). split; [exact Fr|]. rewrite Vr, V1, Rmult_1_l. exact Vq.
Qed.
Lemma ln_bnd a : bpow radix2 (-120) <= a <= 3 -> -84 <= ln a <= 2.
Proof.
  intros (H1 & H2). pose proof (bpow_gt_0 radix2 (-120)) as P. split.
  - apply Rle_trans with (ln (bpow radix2 (-120))); [|apply Rcomplements.ln_le; lra]. replace (bpow radix2 (-120)) with (/ (2 ^ 120)) by (change (bpow radix2 (-120)) with (/ IZR (2 ^ 120)); f_equal; rewrite pow_IZR; reflexivity).
    assert (Pp : 0 < 2 ^ 120) by (apply pow_lt; lra). rewrite ln_Rinv by exact Pp. rewrite Rcomplements.ln_pow by lra. replace (INR 120) with 120 by (rewrite INR_IZR_INZ; reflexivity). pose proof ln2_bnd. lra.
  - apply Rle_trans with (ln 3); [apply Rcomplements.ln_le; lra|]. rewrite <- (ln_exp 2). apply Rcomplements.ln_le; [lra|]. pose proof (exp_ineq1_le 2). lra.
Qed.
Lemma exp_d d : Rabs d <= / 1000 -> Rabs (exp d - 1) <= 1002 / 1000 * Rabs d.
Proof.
  intros H. pose proof (exp_ineq1_le d) as L. assert (K := H). apply Rabs_le_inv in K. pose proof (exp_ineq1_le (- d)) as L2. rewrite exp_Ropp in L2. pose proof (exp_pos d) as P. assert (E : exp d * / exp d = 1) by (field; lra).
  assert (U : exp d * (1 - d) <= 1). { rewrite <- E. apply Rmult_le_compat_l; lra. }
  unfold Rabs in *. destruct (Rcase_abs d), (Rcase_abs (exp d - 1)); try nra; lra.
Qed.
Lemma series_1 nu x s : finite nu -> valR nu = 1 -> finite x -> bpow radix2 (-119) <= valR x -> (valR x / 2) ^ 2 <= bZ 1 -> finite s -> Rabs (valR s) = 1 ->
  exists r, cyl_bessel_ij_series nu x s 200 = Ok r /\ app r (valR x / 2 * Series (bT 1 (valR s * (valR x / 2) ^ 2))) (valR x / 2 * (/ 20000 + Rabs (ln (valR x / 2)) / 100000)).
Proof.
  intros Fn Vn Fx Hx0 Hz Fs Hs. assert (Hx : bpow radix2 (-125) <= valR x) by (eapply Rle_trans; [|exact Hx0]; apply bpow_le; lia). unfold cyl_bessel_ij_series. rewrite (not_tiny x Fx Hx). destruct (half_x x Fx Hx) as (Fh & Vh & Nh). destruct b125 as (B0 & _).
  set (a := valR x / 2) in *. assert (Ha : bpow radix2 (-120) <= a <= 3). { split; [unfold a; change (bpow radix2 (-120)) with (bpow radix2 (-119 + - (1))); rewrite bpow_plus; change (bpow radix2 (- (1))) with (/ 2); lra|]. change (bZ 1) with (502 / 100) in Hz. assert (0 < a) by (unfold a; lra). nra. }
  assert (Pa : 0 < a) by (unfold a; lra). destruct (flog_acc _ Nh) as (FL & AL); [lra|]. rewrite Vh in AL. fold a in AL. pose proof (ln_bnd a Ha) as Ln. set (l := ln a) in *.
  set (d := valR (flog (flit 1 2 * x)%b32) - l) in *. assert (Al : Rabs l <= 84) by (apply Rabs_le; lra). assert (Hd : Rabs d <= 80 / 1000000) by lra.
  cbv zeta. destruct (fact_1 nu _ Fn Vn FL) as (w & -> & Fw & Vw). assert (Ew : valR w = l + d) by (unfold d; lra). pose proof (Rabs_le_inv _ _ Hd) as Hd2.
  destruct (fexp_accurate w Fw) as (f & -> & Ff & Vf); [lra|]. cbn [bind]. eexists. split; [reflexivity|].
  assert (El : exp l = a) by (unfold l; apply exp_ln; exact Pa). rewrite Ew in Vf. rewrite exp_plus, El in Vf. pose proof (exp_d d ltac:(lra)) as Ed.
  change (bpow radix2 (-20)) with (/ 1048576) in Vf. change (bpow radix2 (-23)) with (/ 8388608) in Vf.
  assert (Hld : Rabs (l + d) <= Rabs l + Rabs d) by apply Rabs_triang. pose proof (Rabs_pos l) as Pl. pose proof (Rabs_pos d) as Pd.
  assert (Ex1 : exp d <= 1001 / 1000). { apply Rabs_le_inv in Ed. lra. } pose proof (exp_pos d) as Pe.
  assert (Q1 : Rabs (valR f - a) <= a * (98 / 100000000 + 11 / 10000000 * Rabs l)).
  { replace (valR f - a) with ((valR f - a * exp d) + a * (exp d - 1)) by ring. eapply Rle_trans; [apply Rabs_triang|]. rewrite (Rabs_mult a), (Rabs_pos_eq a) by lra.
    assert (V2 : (/ 1048576 + / 8388608 * Rabs (l + d)) * (a * exp d) <= a * ((/ 1048576 + / 8388608 * (Rabs l + Rabs d)) * (1001 / 1000))).
    { replace ((/ 1048576 + / 8388608 * Rabs (l + d)) * (a * exp d)) with (a * ((/ 1048576 + / 8388608 * Rabs (l + d)) * exp d)) by ring. apply Rmult_le_compat_l; [lra|]. pose proof (Rabs_pos (l + d)). apply Rmult_le_compat; lra. }
    assert (V3 : a * Rabs (exp d - 1) <= a * (1002 / 1000 * Rabs d)) by (apply Rmult_le_compat_l; lra).
    assert (V4 : a * ((/ 1048576 + / 8388608 * (Rabs l + Rabs d)) * (1001 / 1000)) + a * (1002 / 1000 * Rabs d) <= a * (98 / 100000000 + 11 / 10000000 * Rabs l)). { rewrite <- Rmult_plus_distr_l. apply Rmult_le_compat_l; lra. }
    lra. }
  pose proof (sum_ok 1 nu x s ltac:(lia) Fn Vn Fx Hx Hz Fs Hs) as (Fq & Vq). destruct (xx4_ok 1 x s ltac:(lia) Fx Hx Hz Fs Hs) as (_ & Az). fold a in Vq, Az. set (z := valR s * a ^ 2) in *. pose proof (series_le 1 z ltac:(lia) Az) as Sb. set (S := Series (bT 1 z)) in *. set (J := ij_loop _ _ _ _ _ _) in *. clearbody J S.
  assert (Jb : Rabs (valR J) <= 7002 / 1000). { replace (valR J) with (S + (valR J - S)) by ring. eapply Rle_trans; [apply Rabs_triang|]. lra. }
  assert (Fb : Rabs (valR f) <= a * (1001 / 1000)). { replace (valR f) with (a + (valR f - a)) by ring. eapply Rle_trans; [apply Rabs_triang|]. rewrite (Rabs_pos_eq a) by lra. assert (a * (98 / 100000000 + 11 / 10000000 * Rabs l) <= a * (1 / 1000)) by (apply Rmult_le_compat_l; lra). lra. }
  assert (Pb : Rabs (valR f * valR J) <= a * (702 / 100)). { rewrite Rabs_mult. apply Rle_trans with (a * (1001 / 1000) * (7002 / 1000)); [apply Rmult_le_compat; try apply Rabs_pos; lra|]. lra. }
  destruct (mult_R f J Ff Fq) as (Fr & Vr). { pose proof big1. lra. } split; [exact Fr|]. rewrite Vr. pose proof (rnd_err (valR f * valR J)) as Re. rewrite u32_v in Re.
  assert (T : bpow radix2 (-150) <= a * / 1000000000). { apply Rle_trans with (bpow radix2 (-120) * bpow radix2 (-30)); [rewrite <- bpow_plus; apply bpow_le; lia|]. change (bpow radix2 (-30)) with (/ 1073741824). pose proof (bpow_gt_0 radix2 (-120)). apply Rmult_le_compat; lra. }
  replace (rnd (valR f * valR J) - a * S) with ((rnd (valR f * valR J) - valR f * valR J) + ((valR f - a) * valR J + a * (valR J - S))) by ring.
  eapply Rle_trans; [apply Rabs_triang|]. eapply Rle_trans; [apply Rplus_le_compat_l, Rabs_triang|]. rewrite (Rabs_mult (valR f - a)), (Rabs_mult a), (Rabs_pos_eq a) by lra.
  assert (W1 : Rabs (valR f - a) * Rabs (valR J) <= a * (98 / 100000000 + 11 / 10000000 * Rabs l) * (7002 / 1000)) by (apply Rmult_le_compat; try apply Rabs_pos; lra).
  assert (W2 : a * Rabs (valR J - S) <= a * / 32768) by (apply Rmult_le_compat_l; lra).
  assert (W3 : / 16777216 * (a * (702 / 100)) + a * / 1000000000 + (a * (98 / 100000000 + 11 / 10000000 * Rabs l) * (7002 / 1000) + a * / 32768) <= a * (/ 20000 + Rabs l / 100000)).
  { replace (/ 16777216 * (a * (702 / 100)) + a * / 1000000000 + (a * (98 / 100000000 + 11 / 10000000 * Rabs l) * (7002 / 1000) + a * / 32768)) with (a * (/ 16777216 * (702 / 100) + / 1000000000 + (98 / 100000000 + 11 / 10000000 * Rabs l) * (7002 / 1000) + / 32768)) by ring. apply Rmult_le_compat_l; lra. }
  lra.
Qed.

(** the choice of the series *)
Lemma series_branch n nu x : (n <= 1)%nat -> finite nu -> valR nu = INR n -> finite x -> 0 <= valR x -> valR x * valR x <= 998 / 100 * (INR n + 1) -> b32_lt (x * x)%b32 (flit 10 1 * (nu + flit 1 1))%b32 = true /\ cyl_bad nu x = false.
Proof.
  intros Hn Fn Vn Fx Px Hx. assert (N1 : 0 <= INR n <= 1) by (split; [apply pos_INR|change 1 with (INR 1); apply le_INR; exact Hn]). pose proof big1 as B1. pose proof u32_v as Eu. pose proof tiny_ok. pose proof tiny_v.
  destruct lit_1 as (F1 & V1). destruct lit_10 as (F10 & V10). assert (X0 : 0 <= valR x * valR x) by (apply Rmult_le_pos; exact Px).
  destruct (mult_R x x Fx Fx) as (Fm & Vm); [rewrite Rabs_pos_eq by exact X0; lra|]. destruct (plus_R nu (flit 1 1) Fn F1) as (Fp & Vp); [rewrite Vn, V1, Rabs_pos_eq; lra|].
  rewrite Vn, V1 in Vp. replace (INR n + 1) with (IZR (Z.of_nat n + 1)) in Vp by (rewrite plus_IZR, <- INR_IZR_INZ; reflexivity). rewrite rnd_Z in Vp by lia. rewrite plus_IZR, <- INR_IZR_INZ in Vp.
  destruct (mult_R (flit 10 1) _ F10 Fp) as (Fq & Vq); [rewrite V10, Vp, Rabs_pos_eq; lra|]. rewrite V10, Vp in Vq. replace (10 * (INR n + 1)) with (IZR (10 * (Z.of_nat n + 1))) in Vq by (rewrite mult_IZR, plus_IZR, <- INR_IZR_INZ; reflexivity). rewrite rnd_Z in Vq by lia. rewrite mult_IZR, plus_IZR, <- INR_IZR_INZ in Vq.
  split.
  - apply lt_t; auto. rewrite Vm, Vq. pose proof (rnd_err (valR x * valR x)) as Re. rewrite (Rabs_pos_eq (valR x * valR x)) in Re by exact X0. apply Rabs_le_inv in Re. rewrite Eu in Re. lra.
  - apply cyl_bad_f; try (apply fin_nan; assumption); rewrite ext32_finite by assumption; [change (0 <= valR nu); lra|exact Px].
Qed.
Lemma order0 x : finite x -> bpow radix2 (-125) <= valR x <= 315 / 100 -> 0 <= valR x /\ valR x * valR x <= 998 / 100 * (INR 0 + 1) /\ (valR x / 2) ^ 2 <= bZ 0.
Proof. intros F H. destruct b125. change (bZ 0) with (251 / 100). change (INR 0) with 0. assert (valR x * valR x <= 315 / 100 * (315 / 100)) by (apply Rmult_le_compat; lra). split; [lra|]. split; [lra|]. replace ((valR x / 2) ^ 2) with (valR x * valR x / 4) by field. lra. Qed.
Lemma order1 x : finite x -> bpow radix2 (-119) <= valR x <= 446 / 100 -> 0 <= valR x /\ valR x * valR x <= 998 / 100 * (INR 1 + 1) /\ (valR x / 2) ^ 2 <= bZ 1.
Proof. intros F H. pose proof (bpow_gt_0 radix2 (-119)). change (bZ 1) with (502 / 100). change (INR 1) with 1. assert (valR x * valR x <= 446 / 100 * (446 / 100)) by (apply Rmult_le_compat; lra). split; [lra|]. split; [lra|]. replace ((valR x / 2) ^ 2) with (valR x * valR x / 4) by field. lra. Qed.

Lemma J0_ok nu x : finite nu -> valR nu = 0 -> finite x -> bpow radix2 (-125) <= valR x <= 315 / 100 -> exists r, cyl_bessel_j nu x = Ok r /\ app r (bessel_J 0 (valR x)) (/ 32768).
Proof.
  intros Fn Vn Fx H. destruct (order0 x Fx H) as (P & Q & Zb). destruct lit_m1 as (Fs & Vs). destruct (series_branch 0 nu x ltac:(lia) Fn Vn Fx P Q) as (B & D). unfold cyl_bessel_j. rewrite D, B.
  destruct (series_0 nu x (flit (-1) 1) Fn Vn Fx ltac:(lra) Zb Fs) as (r & E & A). { rewrite Vs. unfold Rabs. destruct (Rcase_abs (-1)); lra. } exists r. split; [exact E|]. rewrite J_series. cbn [pow]. rewrite Rmult_1_l. rewrite Vs in A. replace (- (valR x / 2 * (valR x / 2 * 1))) with (-1 * (valR x / 2) ^ 2) by ring. exact A.
Qed.
Lemma I0_ok nu x : finite nu -> valR nu = 0 -> finite x -> bpow radix2 (-125) <= valR x <= 315 / 100 -> exists r, cyl_bessel_i nu x = Ok r /\ app r (bessel_I 0 (valR x)) (/ 32768).
Proof.
  intros Fn Vn Fx H. destruct (order0 x Fx H) as (P & Q & Zb). destruct lit_1 as (Fs & Vs). destruct (series_branch 0 nu x ltac:(lia) Fn Vn Fx P Q) as (B & D). unfold cyl_bessel_i. rewrite D, B.
  destruct (series_0 nu x (flit 1 1) Fn Vn Fx ltac:(lra) Zb Fs) as (r & E & A). { rewrite Vs. apply Rabs_R1. } exists r. split; [exact E|]. rewrite I_series. cbn [pow]. rewrite Rmult_1_l. rewrite Vs in A. replace (valR x / 2 * (valR x / 2 * 1)) with (1 * (valR x / 2) ^ 2) by ring. exact A.
Qed.
Lemma J1_ok nu x : finite nu -> valR nu = 1 -> finite x -> bpow radix2 (-119) <= valR x <= 446 / 100 -> exists r, cyl_bessel_j nu x = Ok r /\ app r (bessel_J 1 (valR x)) (valR x / 2 * (/ 20000 + Rabs (ln (valR x / 2)) / 100000)).
Proof.
  intros Fn Vn Fx H. destruct (order1 x Fx H) as (P & Q & Zb). destruct lit_m1 as (Fs & Vs). destruct (series_branch 1 nu x ltac:(lia) Fn Vn Fx P Q) as (B & D). unfold cyl_bessel_j. rewrite D, B.
  destruct (series_1 nu x (flit (-1) 1) Fn Vn Fx ltac:(lra) Zb Fs) as (r & E & A). { rewrite Vs. unfold Rabs. destruct (Rcase_abs (-1)); lra. } exists r. split; [exact E|]. rewrite J_series, pow_1. rewrite Vs in A. replace (- (valR x / 2) ^ 2) with (-1 * (valR x / 2) ^ 2) by ring. exact A.
Qed.
Lemma I1_ok nu x : finite nu -> valR nu = 1 -> finite x -> bpow radix2 (-119) <= valR x <= 446 / 100 -> exists r, cyl_bessel_i nu x = Ok r /\ app r (bessel_I 1 (valR x)) (valR x / 2 * (/ 20000 + Rabs (ln (valR x / 2)) / 100000)).
Proof.
  intros Fn Vn Fx H. destruct (order1 x Fx H) as (P & Q & Zb). destruct lit_1 as (Fs & Vs). destruct (series_branch 1 nu x ltac:(lia) Fn Vn Fx P Q) as (B & D). unfold cyl_bessel_i. rewrite D, B.
  destruct (series_1 nu x (flit 1 1) Fn Vn Fx ltac:(lra) Zb Fs) as (r & E & A). { rewrite Vs. apply Rabs_R1. } exists r. split; [exact E|]. rewrite I_series, pow_1. rewrite Vs, Rmult_1_l in A. exact A.
Qed.
