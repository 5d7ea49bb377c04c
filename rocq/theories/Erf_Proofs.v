(** The error function of ffmath in binary32 (C126). *)
From Coq Require Import ZArith Reals Lra Lia Bool List.
From Flocq Require Import Core Mult_error IEEE754.BinarySingleNaN IEEE754.Binary IEEE754.Bits.
From Coquelicot Require Import Coquelicot.
From Verif Require Import Base BaseLemmas Arith Ext32 Bits32 PolyBound Ffmath_Model Ffmath2_Model Ffmath_Spec Ffmath_Proofs Ffmath_Proofs2 Ffmath_Proofs3 Float32 Ffmath_Proofs4 Ffmath_Proofs5 Ffmath_Proofs7 Ffmath_Proofs8 Ffmath_Proofs9 Ffmath_Proofs10 FloatApp Ffmath_Proofs12 Ffmath_Proofs13 Ffmath_Proofs16 Erf_Spec.
Open Scope R_scope.

Lemma gauss_cont x : continuous (fun t => Rtrigo_def.exp (- (t * t))) x.
Proof. apply (ex_derive_continuous (fun t => Rtrigo_def.exp (- (t * t)))). auto_derive; auto. Qed.
Lemma erfR_nonneg x : 0 <= x -> 0 <= erfR x.
Proof.
  intros H. unfold erfR. apply Rmult_le_pos.
  - apply Rmult_le_pos; [lra|]. left. apply Rinv_0_lt_compat. apply sqrt_lt_R0. apply PI_RGT_0.
  - apply RInt_ge_0; [exact H|apply (ex_RInt_continuous (V := R_CompleteNormedModule)); intros; apply gauss_cont|intros t _; left; apply exp_pos].
Qed.
Lemma erfR_0 : erfR 0 = 0.
Proof. unfold erfR. rewrite (RInt_point (V := R_CompleteNormedModule)). unfold zero. cbn. ring. Qed.

Lemma fexp_upto y : is_nan 24 128 y = false -> ext32 y <= 25 -> exists r, fexp y = Ok r /\ finite r /\ 0 <= valR r <= 11 / 10 * bpow radix2 40.
Proof.
  intros N H. pose proof (bpow_gt_0 radix2 40) as B40. destruct (Rle_or_lt (ext32 y) (-89)) as [L|L].
  - exists (flit 0 1). split; [apply fexp_low; auto|]. destruct zero_R as (F0 & V0). rewrite V0. split; [exact F0|lra].
  - assert (F : finite y). { pose proof (bp 128). assert (1000 <= bpow radix2 128) by (rewrite b128; pose proof big1; lra). destruct y as [s|s|s pl|s m e q]; auto; try discriminate. cbn [ext32] in H, L. destruct s; lra. }
    rewrite ext32_finite in H, L by auto. destruct log2e_R as (Fc & Vc). pose proof fmax_1000. unfold fexp.
    assert (B : -129 <= 12102203 / 8388608 * valR y <= 40) by lra.
    destruct (mult_M fLOG2E y Fc F) as (F2 & V2). { rewrite Vc. apply Rabs_le. lra. } rewrite Vc in V2.
    assert (U : valR (fLOG2E * y)%b32 <= 40). { rewrite V2. assert (Q : finite (flit 40 1) /\ valR (flit 40 1) = 40) by cst. destruct Q as (_ & Q). rewrite <- Q. apply rnd_le_val. rewrite Q. lra. }
    destruct (Rle_or_lt (valR (fLOG2E * y)%b32) (-126)) as [K|K].
    + exists (flit 0 1). split. { apply exp2_low. - destruct (fLOG2E * y)%b32; auto; discriminate. - rewrite ext32_finite; auto. } destruct zero_R as (F0 & V0). rewrite V0. split; [exact F0|lra].
    + destruct (exp2_accurate (fLOG2E * y)%b32 F2 ltac:(lra)) as (r & E & Fr & Vr). exists r. split; [exact E|]. split; [exact Fr|]. apply Rabs_le_between in Vr. change (bpow radix2 (-21)) with (/ 2097152) in Vr. assert (0 < Rpower 2 (valR (fLOG2E * y)%b32)) by apply exp_pos.
      assert (Rpower 2 (valR (fLOG2E * y)%b32) <= bpow radix2 40). { rewrite bpow_exp. change (Rtrigo_def.exp (40 * ln (IZR radix2))) with (Rpower 2 40). apply Rle_Rpower; lra. } lra.
Qed.

Lemma c347 : finite (ofU 1079915983) /\ valR (ofU 1079915983) = 14562767 / 4194304. Proof. cst. Qed.
Lemma c6912 : finite (ofU 1088237339) /\ valR (ofU 1088237339) = 14495515 / 2097152. Proof. cst. Qed.

Lemma rat_half r : finite r -> 0 <= valR r <= 11 / 10 * bpow radix2 40 ->
  finite (r / ((absolute r + flit 1 1) * flit 2 1) - flit 1 1)%b32 /\ -1 <= valR (r / ((absolute r + flit 1 1) * flit 2 1) - flit 1 1)%b32 <= - / 2.
Proof.
  intros F H. change (bpow radix2 40) with 1099511627776 in H. assert (HB : 10000000000000 <= big) by (change big with (bpow radix2 87 * bpow radix2 40)%R || (rewrite <- (bpow_plus radix2 87 40) || idtac); apply Rle_trans with (bpow radix2 44); [change (bpow radix2 44) with 17592186044416; lra|apply bpow_le; lia]).
  destruct one_R as (F1 & V1). assert (T2 : finite (flit 2 1) /\ valR (flit 2 1) = 2) by cst. destruct T2 as (F2 & V2).
  destruct (abs_R _ F) as (Fa & Va). rewrite Rabs_pos_eq in Va by lra. set (R := valR r) in *.
  destruct (plus_R (absolute r) (flit 1 1) Fa F1) as (Fp & Vp); [rewrite Va, V1, Rabs_pos_eq by lra; lra|]. rewrite Va, V1 in Vp.
  assert (P1 : R <= rnd (R + 1)) by (apply (rnd_ge_val (R + 1) r); fold R; lra). assert (P2 : rnd 1 <= rnd (R + 1)) by (apply rnd_le; lra). rewrite rnd_1 in P2.
  assert (P3 : rnd (R + 1) <= 4398046511104) by (change 4398046511104 with (bpow radix2 42); rewrite <- (rnd_bpow 42) by lia; apply rnd_le; change (bpow radix2 42) with 4398046511104; lra).
  set (q := rnd (R + 1)) in *. assert (Fq : generic_format radix2 (FLT_exp (-149) 24) q) by (unfold q; apply fmt_rnd).
  destruct (mult_R _ (flit 2 1) Fp F2) as (Fm & Vm); [rewrite Vp, V2, Rabs_pos_eq by lra; lra|]. rewrite Vp, V2 in Vm.
  assert (QE : rnd (q * 2) = q * 2).
  { apply round_generic; [apply valid_rnd_N|]. change 2 with (bpow radix2 1). apply mult_bpow_exact_FLT; [exact Fq|]. assert (MQ : (1 <= Raux.mag radix2 q)%Z); [|lia]. apply Raux.mag_ge_bpow. change (bpow radix2 (1 - 1)) with 1. rewrite Rabs_pos_eq; lra. }
  assert (Q2 : 2 * R <= rnd (q * 2) /\ 2 <= rnd (q * 2)) by (rewrite QE; lra).
  destruct Q2 as (Q2 & Q3). set (d := rnd (q * 2)) in *.
  assert (D : 0 <= R / d <= / 2). { split; [apply Rmult_le_pos; [lra|left; apply Rinv_0_lt_compat; lra]|]. apply Rmult_le_reg_r with d; [lra|]. unfold Rdiv. rewrite Rmult_assoc, Rinv_l by lra. lra. }
  destruct (div_R r _ F Fm) as (Fd & Vd); [rewrite Vm; lra|rewrite Vm; fold R; rewrite Rabs_pos_eq by lra; lra|]. rewrite Vm in Vd. fold R in Vd.
  assert (W : 0 <= rnd (R / d) <= / 2). { split; [apply rnd_nonneg; lra|]. change (/ 2) with (bpow radix2 (-1)). rewrite <- (rnd_bpow (-1)) by lia. apply rnd_le. change (bpow radix2 (-1)) with (/ 2). lra. }
  destruct (minus_R _ (flit 1 1) Fd F1) as (Fs & Vs); [rewrite Vd, V1; rewrite Rabs_left1 by lra; lra|]. split; [exact Fs|].
  rewrite Vs, Vd, V1. set (w := rnd (R / d)) in *. split.
  - replace (-1) with (rnd (-1)) by (replace (-1) with (- (1)) by ring; rewrite rnd_opp, rnd_1; reflexivity). apply rnd_le. lra.
  - replace (- / 2) with (rnd (- / 2)) by (rewrite rnd_opp; f_equal; apply (rnd_bpow (-1)); lia). apply rnd_le. lra.
Qed.

Lemma erf_range x : finite x -> - bpow radix2 120 <= valR x < valR (ofU 1088237339) -> exists v, erf x = Ok v /\ finite v /\ -1 <= valR v <= - / 2.
Proof.
  intros F H. destruct c347 as (Fc & Vc). destruct c6912 as (Fd & Vd). unfold erf. rewrite (le_f (ofU 1088237339) x Fd F ltac:(lra)).
  assert (B0 : 8 <= bpow radix2 120) by (apply Rle_trans with (bpow radix2 3); [change (bpow radix2 3) with 8; lra|apply bpow_le; lia]).
  assert (B1 : bpow radix2 127 = 128 * bpow radix2 120) by (change 127%Z with (7 + 120)%Z; rewrite bpow_plus; reflexivity).
  destruct (mult_R (ofU 1079915983) x Fc F) as (Fy & Vy). { rewrite Vc. rewrite B1. apply Rabs_le. rewrite Vd in H. split; nra. }
  set (y := (ofU 1079915983 * x)%b32) in *.
  assert (Y : valR y <= 25). { rewrite Vy. assert (Q : finite (flit 25 1) /\ valR (flit 25 1) = 25) by cst. destruct Q as (_ & Q). rewrite <- Q. apply rnd_le_val. rewrite Q, Vc. rewrite Vd in H. lra. }
  destruct (fexp_upto y) as (r & E & Fr & Br). { destruct y; auto; discriminate. } { rewrite ext32_finite by exact Fy. exact Y. }
  rewrite E. cbn [bind]. eexists. split; [reflexivity|]. apply rat_half; assumption.
Qed.
Lemma erf_one x : is_nan 24 128 x = false -> valR (ofU 1088237339) <= ext32 x -> erf x = Ok (flit 1 1).
Proof.
  intros N H. unfold erf. destruct c6912 as (Fd & Vd). assert (Nd : is_nan 24 128 (ofU 1088237339) = false) by reflexivity.
  rewrite (proj2 (b32_le_ext _ _ Nd N)); [reflexivity|]. rewrite ext32_finite by exact Fd. exact H.
Qed.
Lemma erf_nan x : is_nan 24 128 x = true -> erf x = Ub.
Proof. intros H. unfold erf. rewrite le_nan by exact H. rewrite fexp_nan; [reflexivity|]. apply mult_nan_r. exact H. Qed.
Lemma erfc_range x : finite x -> - bpow radix2 120 <= valR x < valR (ofU 1088237339) -> exists v, erfc x = Ok v /\ finite v /\ 3 / 2 <= valR v <= 2.
Proof.
  intros F H. destruct (erf_range x F H) as (v & E & Fv & B). unfold erfc. rewrite E. cbn [bind]. destruct one_R as (F1 & V1).
  assert (HB : 10 <= big) by (apply Rle_trans with (bpow radix2 4); [change (bpow radix2 4) with 16; lra|apply bpow_le; lia]).
  destruct (minus_R (flit 1 1) v F1 Fv) as (Fs & Vs); [rewrite V1, Rabs_pos_eq by lra; lra|]. eexists. split; [reflexivity|]. split; [exact Fs|]. rewrite Vs, V1. split.
  - assert (Q : finite (flit 3 2) /\ valR (flit 3 2) = 3 / 2) by cst. destruct Q as (_ & Q). rewrite <- Q. apply rnd_ge_val. lra.
  - change 2 with (bpow radix2 1). rewrite <- (rnd_bpow 1) by lia. apply rnd_le. change (bpow radix2 1) with 2. lra.
Qed.
Lemma res_bits (r : res float) b : match r with Ok y => bits_of_b32 y | Ub => (-1)%Z end = bits_of_b32 b -> bits_of_b32 b <> (-1)%Z -> r = Ok b.
Proof. destruct r as [y|]; intros H N; [f_equal; apply bits_inj; exact H|]. exfalso. apply N. symmetry. exact H. Qed.
