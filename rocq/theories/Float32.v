(** Binary32 operations as rounded real operations, when nothing overflows. *)
From Coq Require Import ZArith Reals Lra Lia Bool.
From Flocq Require Import Core Relative IEEE754.BinarySingleNaN IEEE754.Binary IEEE754.Bits.
From Verif Require Import Ffmath_Spec.
Open Scope R_scope.

Notation rnd := (round radix2 (FLT_exp (-149) 24) ZnearestE).
Notation u32 := (bpow radix2 (-24)).

#[export] Instance prec24 : Prec_gt_0 24. Proof. reflexivity. Qed.
Lemma fexp_FLT : SpecFloat.fexp 24 128 = FLT_exp (-149) 24. Proof. reflexivity. Qed.
Lemma format_val x : generic_format radix2 (FLT_exp (-149) 24) (valR x).
Proof. apply (generic_format_B2R 24 128). Qed.
Lemma rnd_val x : rnd (valR x) = valR x.
Proof. apply round_generic; [apply valid_rnd_N|apply format_val]. Qed.
Lemma rnd_le x y : x <= y -> rnd x <= rnd y.
Proof. apply round_le; [apply FLT_exp_valid; reflexivity|apply valid_rnd_N]. Qed.
Lemma rnd_le_val x y : x <= valR y -> rnd x <= valR y.
Proof. intros H. rewrite <- (rnd_val y). apply rnd_le; auto. Qed.
Lemma rnd_ge_val x y : valR y <= x -> valR y <= rnd x.
Proof. intros H. rewrite <- (rnd_val y). apply rnd_le; auto. Qed.
Lemma format_bpow e : (-149 <= e)%Z -> generic_format radix2 (FLT_exp (-149) 24) (bpow radix2 e).
Proof. intros H. apply generic_format_bpow. unfold FLT_exp. lia. Qed.
Lemma rnd_bpow e : (-149 <= e)%Z -> rnd (bpow radix2 e) = bpow radix2 e.
Proof. intros H. apply round_generic; [apply valid_rnd_N|apply format_bpow; auto]. Qed.
Lemma rnd_0 : rnd 0 = 0. Proof. apply round_0. apply valid_rnd_N. Qed.
Lemma rnd_opp x : rnd (- x) = - rnd x. Proof. apply round_NE_opp. Qed.
Lemma rnd_abs x : rnd (Rabs x) = Rabs (rnd x).
Proof. apply round_NE_abs. apply FLT_exp_valid. reflexivity. Qed.
Lemma rnd_nonneg x : 0 <= x -> 0 <= rnd x.
Proof. intros H. rewrite <- rnd_0. apply rnd_le; auto. Qed.
Lemma rnd_abs_le x e : (-149 <= e)%Z -> Rabs x <= bpow radix2 e -> Rabs (rnd x) <= bpow radix2 e.
Proof. intros He H. rewrite <- rnd_abs, <- (rnd_bpow e) by auto. apply rnd_le; auto. Qed.

Lemma small_ok e x : (-149 <= e < 128)%Z -> Rabs x <= bpow radix2 e -> Rlt_bool (Rabs (rnd x)) (bpow radix2 128) = true.
Proof. intros He H. apply Rlt_bool_true. apply Rle_lt_trans with (bpow radix2 e); [apply rnd_abs_le; auto; lia|apply bpow_lt; lia]. Qed.

(** The largest magnitude considered: 2^127 *)
Notation big := (bpow radix2 127).
Lemma mult_R x y : finite x -> finite y -> Rabs (valR x * valR y) <= big ->
  finite (b32_mult mode_NE x y) /\ valR (b32_mult mode_NE x y) = rnd (valR x * valR y).
Proof.
  intros Fx Fy B. pose proof (Bmult_correct 24 128 eq_refl eq_refl binop_nan_pl32 mode_NE x y) as H.
  rewrite fexp_FLT in H. cbn [round_mode] in H. rewrite (small_ok 127) in H by (auto; lia). destruct H as (V & K & _). split; [|exact V].
  unfold b32_mult. rewrite K, Fx, Fy. reflexivity.
Qed.
Lemma div_R x y : finite x -> finite y -> valR y <> 0 -> Rabs (valR x / valR y) <= big ->
  finite (b32_div mode_NE x y) /\ valR (b32_div mode_NE x y) = rnd (valR x / valR y).
Proof.
  intros Fx Fy Ny B. pose proof (Bdiv_correct 24 128 eq_refl eq_refl binop_nan_pl32 mode_NE x y Ny) as H.
  rewrite fexp_FLT in H. cbn [round_mode] in H. rewrite (small_ok 127) in H by (auto; lia). destruct H as (V & K & _). split; [|exact V].
  unfold b32_div. rewrite K, Fx. reflexivity.
Qed.
Lemma plus_R x y : finite x -> finite y -> Rabs (valR x + valR y) <= big ->
  finite (b32_plus mode_NE x y) /\ valR (b32_plus mode_NE x y) = rnd (valR x + valR y).
Proof.
  intros Fx Fy B. pose proof (Bplus_correct 24 128 eq_refl eq_refl binop_nan_pl32 mode_NE x y Fx Fy) as H.
  rewrite fexp_FLT in H. cbn [round_mode] in H. rewrite (small_ok 127) in H by (auto; lia). destruct H as (V & K & _). split; [exact K|exact V].
Qed.
Lemma minus_R x y : finite x -> finite y -> Rabs (valR x - valR y) <= big ->
  finite (b32_minus mode_NE x y) /\ valR (b32_minus mode_NE x y) = rnd (valR x - valR y).
Proof.
  intros Fx Fy B. pose proof (Bminus_correct 24 128 eq_refl eq_refl binop_nan_pl32 mode_NE x y Fx Fy) as H.
  rewrite fexp_FLT in H. cbn [round_mode] in H. rewrite (small_ok 127) in H by (auto; lia). destruct H as (V & K & _). split; [exact K|exact V].
Qed.

(** Relative error in the normal range, absolute error below *)
Lemma rnd_rel x : bpow radix2 (-126) <= Rabs x -> exists e, Rabs e <= u32 /\ rnd x = x * (1 + e).
Proof.
  intros H. destruct (relative_error_N_FLT_ex radix2 (-149) 24 eq_refl (fun n => negb (Z.even n)) x) as (e & He & V); [exact H|].
  exists e. split; [|exact V]. replace u32 with (/ 2 * bpow radix2 (-24 + 1)); auto. rewrite bpow_plus. change (bpow radix2 1) with 2. field.
Qed.
Lemma rnd_err x : Rabs (rnd x - x) <= u32 * Rabs x + bpow radix2 (-150).
Proof.
  pose proof (bpow_gt_0 radix2 (-150)). pose proof (bpow_gt_0 radix2 (-24)). pose proof (Rabs_pos x).
  destruct (Rle_or_lt (bpow radix2 (-126)) (Rabs x)) as [H2|H2].
  - destruct (rnd_rel x H2) as (e & He & ->). replace (x * (1 + e) - x) with (x * e) by ring. rewrite Rabs_mult.
    assert (Rabs x * Rabs e <= Rabs x * u32) by (apply Rmult_le_compat_l; auto). lra.
  - assert (Rabs (rnd x - x) <= bpow radix2 (-150)); [|assert (0 <= u32 * Rabs x) by (apply Rmult_le_pos; lra); lra].
    apply Rle_trans with (/ 2 * ulp radix2 (FLT_exp (-149) 24) x).
    + apply error_le_half_ulp. apply FLT_exp_valid. reflexivity.
    + rewrite ulp_FLT_small; [|reflexivity|].
      * change (-150)%Z with (-1 + -149)%Z. rewrite bpow_plus. change (bpow radix2 (-1)) with (/ 2). lra.
      * apply Rlt_trans with (1 := H2). apply bpow_lt. lia.
Qed.
