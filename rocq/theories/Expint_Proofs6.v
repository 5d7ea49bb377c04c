(** The loop of the series for positive arguments. *)
From Coq Require Import ZArith Reals Lra Lia Psatz Bool.
From Flocq Require Import Core IEEE754.BinarySingleNaN IEEE754.Binary IEEE754.Bits.
From Verif Require Import Base BaseLemmas Arith Ext32 Bits32 Ffmath_Model Ffmath2_Model Ffmath4_Model Ffmath_Spec Ffmath_Proofs Ffmath_Proofs2 Ffmath_Proofs3 Float32 Ffmath_Proofs4 Ffmath_Proofs7 Ffmath_Proofs8 Ffmath_Proofs9 FloatApp Ffmath_Proofs12 Ffmath_Proofs13 Ffmath_Proofs14 Ffmath_Proofs15 Ffmath_Proofs16 Ellint_Proofs3 Expint_Spec Expint_Proofs Expint_Proofs2 Expint_Proofs3 Expint_Proofs4 Expint_Proofs5.
Open Scope R_scope.

Lemma exp_3 n : exp (INR n) <= 3 ^ n.
Proof.
  induction n as [|n IH]; [cbn [INR pow]; rewrite exp_0; lra|]. rewrite S_INR, exp_plus. cbn [pow]. rewrite Rmult_comm. pose proof exp_le_3. pose proof (exp_pos 1). pose proof (exp_pos (INR n)). apply Rmult_le_compat; lra.
Qed.
Lemma exp_37 x : x <= 37 -> exp x <= 500000000000000000.
Proof.
  intros H. apply Rle_trans with (exp (INR 37)); [|eapply Rle_trans; [apply exp_3|]].
  - destruct H as [H|H]; [left; apply exp_increasing; rewrite INR_IZR_INZ; exact H|right; f_equal; rewrite INR_IZR_INZ; exact H].
  - rewrite pow_IZR. apply IZR_le. vm_compute. discriminate.
Qed.
Definition dT (k : nat) : R := 21 / 10 * INR k * / 16777216.
Definition eS (k : nat) : R := (32 / 10 * INR k + 11 / 10) * / 16777216.
Definition XR (X : R) : Prop := / 268435456 <= X <= 3605 / 100.
Lemma eps_near : near limEps (/ 8388608) 0. Proof. split; [reflexivity|]. vm_compute. lra. Qed.
Lemma ofZ_near k : (k <= 1000)%nat -> near (b32_ofZ (Z.of_nat k)) (INR k) 0.
Proof. intros H. destruct (ofZ_R (Z.of_nat k)) as (F & V); [lia|]. split; [exact F|]. rewrite V, <- INR_IZR_INZ. lra. Qed.
Lemma T_range X k : XR X -> (k <= 109)%nat -> (k = O \/ 11 / 100000000 * P X k <= T X k) -> / 100000000000000000000000000 <= T X (S k) <= 500000000000000000.
Proof.
  intros (L & U) Hk H. split; [|apply Rle_trans with (exp X); [apply T_le_exp; lra|apply exp_37; lra]].
  destruct H as [->|H]; [unfold T; cbn; lra|].
  destruct k as [|k]; [unfold T; cbn; lra|]. pose proof (P_ge X (S k) ltac:(lra) ltac:(lia)) as Pg. rewrite T_S. set (t := T X (S k)) in *. assert (4 / 10000000000000000 <= t) by lra.
  assert (m : 1 <= INR (S (S k)) <= 110). { split; [change 1 with (INR 1); apply le_INR; lia|]. replace 110 with (INR 110) by (rewrite INR_IZR_INZ; reflexivity). apply le_INR. lia. }
  assert (/ 110 <= / INR (S (S k))) by (apply Rinv_le_contravar; lra). assert (/ 268435456 * / 110 <= X / INR (S (S k))) by (apply Rmult_le_compat; lra).
  assert (4 / 10000000000000000 * (/ 268435456 * / 110) <= t * (X / INR (S (S k)))) by (apply Rmult_le_compat; lra). lra.
Qed.
Lemma ei_turn X k x term sum : XR X -> finite x -> valR x = X -> (k <= 109)%nat -> near term (T X k) (dT k) -> near sum (P X k) (eS k) -> (k = O \/ 11 / 100000000 * P X k <= T X k) ->
  let j := b32_ofZ (Z.of_nat (S k)) in let term' := (term * (x / j))%b32 in let sum' := (sum + term' / j)%b32 in
  near term' (T X (S k)) (dT (S k)) /\ near sum' (P X (S k)) (eS (S k)).
Proof.
  intros HX Fx Vx Hk Nt Ns Inv j term' sum'. pose proof (T_range X k HX Hk Inv) as R. destruct HX as (L & U).
  assert (m : 1 <= INR (S k) <= 110). { split; [change 1 with (INR 1); apply le_INR; lia|]. replace 110 with (INR 110) by (rewrite INR_IZR_INZ; reflexivity). apply le_INR. lia. }
  assert (k0 : 0 <= INR k <= 109) by (rewrite S_INR in m; pose proof (pos_INR k); lra). pose proof u32_v as Eu.
  pose proof (ofZ_near (S k) ltac:(lia)) as Nj. fold j in Nj. assert (I : / 110 <= / INR (S k) <= 1) by (split; [apply Rinv_le_contravar; lra|rewrite <- Rinv_1; apply Rinv_le_contravar; lra]).
  assert (Tp : 0 < T X k) by (apply T_pos; lra).
  assert (Nx : near x X 0) by (split; [exact Fx|rewrite Vx; lra]).
  assert (Xm : / 268435456 * / 110 <= X / INR (S k) <= 3605 / 100 * 1) by (split; apply Rmult_le_compat; lra).
  assert (N1 : near (x / j)%b32 (X / INR (S k)) (1001 / 1000 * / 16777216)). { apply (wide_div x j X (INR (S k)) 0 0); auto; rewrite ?Eu; try lra. unfold wide. lra. }
  assert (N2 : near term' (T X (S k)) (dT (S k))).
  { unfold term'. rewrite T_S. assert (Dk : 0 <= dT k <= / 10000) by (unfold dT; lra). assert (E : dT (S k) = dT k + 21 / 10 * / 16777216) by (unfold dT; rewrite S_INR; lra). rewrite E.
    apply (wide_mul term (x / j)%b32 (T X k) (X / INR (S k)) (dT k) (1001 / 1000 * / 16777216)); auto; rewrite ?Eu; try lra. rewrite <- T_S. unfold wide. lra. }
  assert (Tm : / 100000000000000000000000000 * / 110 <= T X (S k) / INR (S k) <= 500000000000000000 * 1) by (split; apply Rmult_le_compat; lra).
  assert (N3 : near (term' / j)%b32 (T X (S k) / INR (S k)) (dT (S k) + 105 / 100 * / 16777216)).
  { assert (Dk : 0 <= dT (S k) <= / 10000) by (unfold dT; lra). apply (wide_div term' j (T X (S k)) (INR (S k)) (dT (S k)) 0); auto; rewrite ?Eu; try lra. unfold wide. lra. }
  split; [exact N2|]. unfold sum'. change (P X (S k)) with (P X k + T X (S k) / INR (S k)).
  assert (P0 : 0 <= P X k). { destruct k; [cbn; lra|]. pose proof (P_ge X (S k) ltac:(lra) ltac:(lia)). lra. }
  assert (P1 : P X k <= 110 * 500000000000000000). { eapply Rle_trans; [apply P_le_exp; lra|]. pose proof (exp_37 X ltac:(lra)). pose proof (exp_pos X). apply Rmult_le_compat; lra. }
  set (m0 := (32 / 10 * INR k + 32 / 10) * / 16777216). assert (Hm : 0 <= m0 <= / 10000) by (unfold m0; lra).
  apply (wide_add sum (term' / j)%b32 (P X k) (T X (S k) / INR (S k)) m0).
  - eapply near_le; [lra|exact Ns|unfold eS, m0; lra].
  - eapply near_le; [lra|exact N3|unfold dT, m0; rewrite S_INR; lra].
  - lra.
  - unfold wide. lra.
  - unfold eS. rewrite Eu. rewrite S_INR. assert (m0 = 32 / 10 * INR k * / 16777216 + 32 / 10 * / 16777216) by (unfold m0; lra). lra.
Qed.
Lemma ei_loop X x : XR X -> finite x -> valR x = X -> forall n k term sum, (k <= 109)%nat -> (110 - k <= n)%nat -> near term (T X k) (dT k) -> near sum (P X k) (eS k) -> (k = O \/ 11 / 100000000 * P X k <= T X k) ->
  near (ei_series_loop n (Z.of_nat (S k)) x term sum) (ei_sum X) (22 / 1000000).
Proof.
  intros HX Fx Vx. induction n as [|n IH]; intros k term sum Hk Hn Nt Ns Inv; [lia|].
  destruct (ei_turn X k x term sum HX Fx Vx Hk Nt Ns Inv) as (N1 & N2). cbn [ei_series_loop].
  set (j := b32_ofZ (Z.of_nat (S k))) in *. set (term' := (term * (x / j))%b32) in *. set (sum' := (sum + term' / j)%b32) in *. clearbody term' sum' j. cbv zeta in N1, N2.
  pose proof (T_range X k HX Hk Inv) as R. assert (HX' := HX). destruct HX as (L & U).
  assert (m : 1 <= INR (S k) <= 110). { split; [change 1 with (INR 1); apply le_INR; lia|]. replace 110 with (INR 110) by (rewrite INR_IZR_INZ; reflexivity). apply le_INR. lia. }
  pose proof (P_ge X (S k) ltac:(lra) ltac:(lia)) as Pg.
  assert (P1 : P X (S k) <= 110 * 500000000000000000). { eapply Rle_trans; [apply P_le_exp; lra|]. pose proof (exp_37 X ltac:(lra)). pose proof (exp_pos X). apply Rmult_le_compat; lra. }
  assert (De : 0 <= eS (S k) <= 216 / 10000000) by (unfold eS; lra). assert (Dt : 0 <= dT (S k) <= 14 / 1000000) by (unfold dT; lra). pose proof u32_v as Eu.
  assert (N3 : near (limEps * sum')%b32 (/ 8388608 * P X (S k)) (22 / 1000000)). { apply (wide_mul limEps sum' (/ 8388608) (P X (S k)) 0 (eS (S k))); auto using eps_near; rewrite ?Eu; try lra. unfold wide. lra. }
  assert (Tp : 0 < T X (S k)) by lra.
  destruct N1 as (F1 & V1). destruct N3 as (F3 & V3).
  assert (B1 : T X (S k) * (1 - 14 / 1000000) <= valR term' <= T X (S k) * (1 + 14 / 1000000)). { assert (T X (S k) * dT (S k) <= T X (S k) * (14 / 1000000)) by (apply Rmult_le_compat_l; lra). lra. }
  destruct (Rlt_le_dec (valR term') (valR (limEps * sum')%b32)) as [Lt|Ge].
  - rewrite (lt_t _ _ F1 F3 Lt).
    assert (S1 : T X (S k) <= 12 / 100000000 * P X (S k)) by lra.
    assert (Big : X <= INR (S k)). { apply Rnot_lt_le. intros Q. pose proof (P_grow X (S k) ltac:(lra) ltac:(lra)) as G. assert (INR (S k) * T X (S k) <= 37 * T X (S k)) by (apply Rmult_le_compat_r; lra). lra. }
    pose proof (ei_high X (S k) ltac:(lra) Big) as Hi. pose proof (ei_low X (S k) ltac:(lra)) as Lo. destruct N2 as (F2 & V2).
    assert (B2 : P X (S k) * (1 - 216 / 10000000) <= valR sum' <= P X (S k) * (1 + 216 / 10000000)). { assert (P X (S k) * eS (S k) <= P X (S k) * (216 / 10000000)) by (apply Rmult_le_compat_l; lra). lra. }
    split; [exact F2|]. lra.
  - rewrite (lt_f _ _ F1 F3 Ge). replace (Z.of_nat (S k) + 1)%Z with (Z.of_nat (S (S k))) by lia.
    assert (S1 : 11 / 100000000 * P X (S k) <= T X (S k)) by lra.
    assert (k <> 109)%nat. { intros ->. pose proof (T_110 X ltac:(lra)). lra. }
    apply IH; auto; try lia. split; [exact F1|exact V1].
Qed.
Lemma zero_near0 : near (flit 0 1) 0 (eS 0). Proof. split; [reflexivity|]. replace (valR (flit 0 1)) with 0 by (vm_compute; lra). lra. Qed.
Lemma one_near0 : near (flit 1 1) 1 (dT 0). Proof. split; [reflexivity|]. replace (valR (flit 1 1)) with 1 by (vm_compute; lra). unfold dT. cbn [INR]. lra. Qed.
Lemma series_mid x : finite x -> XR (valR x) -> near (ei_series_loop 999 1 x (flit 1 1) (flit 0 1)) (ei_sum (valR x)) (22 / 1000000).
Proof. intros F H. apply (ei_loop (valR x) x H F eq_refl 999 0); [lia|lia|rewrite T_0; apply one_near0|apply zero_near0|auto]. Qed.

(** tiny arguments: the sum is tiny whatever the number of turns *)
Lemma lat_fmt m : (0 <= m <= 2000)%Z -> rnd (IZR m * / 268435456) = IZR m * / 268435456.
Proof.
  intros H. apply rnd_fmt. replace (IZR m * / 268435456) with (F2R (Float radix2 m (-28))).
  - apply generic_format_F2R. intros N. cbn [Fexp]. unfold cexp. rewrite mag_F2R_Zdigits by exact N. unfold FLT_exp. 
    assert (Zdigits radix2 m <= 11)%Z. { apply (Zdigits_le_Zpower radix2 11 m). rewrite Z.abs_eq by lia. change (radix2 ^ 11)%Z with 2048%Z. lia. } cbn. lia.
  - unfold F2R. cbn [Fnum Defs.Fexp]. reflexivity.
Qed.
