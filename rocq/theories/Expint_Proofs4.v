(** The exponential integral for large arguments, and its derivative. *)
From Coq Require Import Reals Lra Lia Psatz ZArith.
From Coquelicot Require Import Coquelicot.
From Verif Require Import Expint_Spec Expint_Proofs Expint_Proofs3.
Open Scope R_scope.

Ltac eqR := match goal with |- @eq _ ?a ?b => change (@eq R a b) end.
Lemma T_exp2 x : is_series (fun k => T x (S (S k))) (exp x - 1 - x).
Proof.
  pose proof (is_series_decr_1 (fun k => T x (S k)) (exp x - 1 - x)) as D. cbv beta in D.
  pose proof (is_series_incr_1 (T x) (exp x - 1)) as I. cbv beta in I.
  pose proof (is_series_incr_1 (fun k => T x (S k)) (exp x - 1 - x)) as I2. cbv beta in I2.
  assert (T0 : T x 0 = 1) by apply T_0. assert (T1 : T x 1 = x) by (unfold T; cbn; field).
  apply I2. change (is_series (fun k => T x (S k)) (exp x - 1 - x + T x 1)). rewrite T1. replace (exp x - 1 - x + x) with (exp x - 1) by ring.
  apply I. change (is_series (T x) (exp x - 1 + T x 0)). rewrite T0. replace (exp x - 1 + 1) with (exp x) by ring. apply T_exp.
Qed.
Lemma T_exp3 x : is_series (fun k => T x (S (S (S k)))) (exp x - 1 - x - x * x / 2).
Proof.
  pose proof (is_series_incr_1 (fun k => T x (S (S k))) (exp x - 1 - x - x * x / 2)) as I. cbv beta in I. apply I.
  change (is_series (fun k => T x (S (S k))) (exp x - 1 - x - x * x / 2 + T x 2)). assert (T2 : T x 2 = x * x / 2) by (unfold T; cbn; field). rewrite T2.
  replace (exp x - 1 - x - x * x / 2 + x * x / 2) with (exp x - 1 - x) by ring. apply T_exp2.
Qed.
Definition mix (c x : R) (k : nat) : R := / x * T x (S (S k)) + c * / (x * x) * T x (S (S (S k))).
Lemma mix_series c x : is_series (mix c x) (/ x * (exp x - 1 - x) + c * / (x * x) * (exp x - 1 - x - x * x / 2)).
Proof.
  unfold mix. apply (is_series_plus (fun k => / x * T x (S (S k))) (fun k => c * / (x * x) * T x (S (S (S k))))).
  - apply (is_series_scal (/ x) (fun k => T x (S (S k)))). apply T_exp2.
  - apply (is_series_scal (c * / (x * x)) (fun k => T x (S (S (S k))))). apply T_exp3.
Qed.
Lemma mix_T c x k : 0 < x -> let m := INR (S k) in mix c x k = T x (S k) * (/ (m + 1) + c * / ((m + 1) * (m + 2))).
Proof.
  intros H m. unfold mix. rewrite (T_S x (S (S k))), (T_S x (S k)). rewrite (S_INR (S (S k))), (S_INR (S k)). fold m. pose proof (S_pos k) as Q. fold m in Q. field. repeat split; lra.
Qed.
Lemma ei_ge_mix x : 0 < x -> / x * (exp x - 1 - x) + 1 * / (x * x) * (exp x - 1 - x - x * x / 2) <= ei_sum x.
Proof.
  intros H. rewrite <- (is_series_unique _ _ (mix_series 1 x)). unfold ei_sum. apply Series_le; [|apply aE_conv].
  intros k. change (0 <= mix 1 x k <= aE x k). rewrite mix_T, aE_T by auto. pose proof (S_pos k) as Q. set (m := INR (S k)) in *. pose proof (T_pos x (S k) H). clearbody m.
  assert (I1 : 0 < / (m + 1)) by (apply Rinv_0_lt_compat; lra). assert (I2 : 0 < / ((m + 1) * (m + 2))) by (apply Rinv_0_lt_compat; nra). split; [apply Rmult_le_pos; lra|].
  apply Rmult_le_compat_l; [lra|]. assert (E : / m - (/ (m + 1) + 1 * / ((m + 1) * (m + 2))) = 2 * / (m * ((m + 1) * (m + 2)))) by (field; lra).
  assert (0 < / (m * ((m + 1) * (m + 2)))) by (apply Rinv_0_lt_compat; apply Rmult_lt_0_compat; nra). lra.
Qed.
Lemma ei_le_mix x : 0 < x -> ei_sum x <= / x * (exp x - 1 - x) + 3 * / (x * x) * (exp x - 1 - x - x * x / 2).
Proof.
  intros H. rewrite <- (is_series_unique _ _ (mix_series 3 x)). unfold ei_sum. apply Series_le; [|eexists; apply mix_series].
  intros k. change (0 <= aE x k <= mix 3 x k). rewrite mix_T, aE_T by auto. pose proof (S_pos k) as Q. assert (Q1 : 1 <= INR (S k)) by (change 1 with (INR 1); apply le_INR; lia). set (m := INR (S k)) in *. pose proof (T_pos x (S k) H). clearbody m.
  assert (I0 : 0 < / m) by (apply Rinv_0_lt_compat; lra). split; [apply Rmult_le_pos; lra|].
  apply Rmult_le_compat_l; [lra|]. assert (E : / (m + 1) + 3 * / ((m + 1) * (m + 2)) - / m = (2 * m - 2) * / (m * ((m + 1) * (m + 2)))) by (field; lra).
  assert (0 <= (2 * m - 2) * / (m * ((m + 1) * (m + 2)))); [|lra]. apply Rmult_le_pos; [lra|]. left. apply Rinv_0_lt_compat. apply Rmult_lt_0_compat; nra.
Qed.
Lemma gamma_crude : / 2 <= euler_gamma <= 6 / 10.
Proof. pose proof (gamma_bounds 0) as G. unfold gH, fH, aH in G. cbn [sum_f_R0] in G. change (INR 1) with 1 in G. rewrite ln_1 in G. lra. Qed.
Lemma ln_lin x : 0 < x -> ln x <= x - 1. Proof. intros H. pose proof (exp_ineq1_le (ln x)) as I. rewrite exp_ln in I by lra. lra. Qed.
Lemma ln_36 x : 36 <= x -> 2 <= ln x.
Proof.
  intros H. apply Rle_trans with (ln 36); [|apply Rcomplements.ln_le; lra].
  replace (ln 36) with (- (ln (/ 6) + ln (/ 6))) by (rewrite <- ln_mult by lra; rewrite <- ln_Rinv by lra; f_equal; field).
  pose proof (ln_lin (/ 2) ltac:(lra)) as A. pose proof (ln_lin (/ 2 * / 2 * / 2) ltac:(lra)) as A2. pose proof (ln_lin (2 / 3) ltac:(lra)) as B.
  replace (ln (/ 6)) with (ln (/ 2) + ln (/ 2) + ln (2 / 3)) by (rewrite <- !ln_mult by lra; f_equal; field). lra.
Qed.
Lemma Ei_large x : 36 <= x -> exp x / x * (1 + / x) <= Ei x <= exp x / x * (1 + 4 / x).
Proof.
  intros H. unfold Ei. rewrite Rabs_pos_eq by lra. pose proof (ei_ge_mix x ltac:(lra)) as L. pose proof (ei_le_mix x ltac:(lra)) as U. pose proof gamma_crude as G. pose proof (ln_36 x H) as N. pose proof (ln_lin x ltac:(lra)) as N2.
  assert (I : 0 < / x <= / 36) by (split; [apply Rinv_0_lt_compat; lra|apply Rinv_le_contravar; lra]).
  assert (E1 : forall c, / x * (exp x - 1 - x) + c * / (x * x) * (exp x - 1 - x - x * x / 2) = exp x / x * (1 + c / x) - / x - 1 - c * (/ x * / x) - c * / x - c / 2) by (intros c; field; lra).
  rewrite E1 in L, U. split.
  - assert (0 <= / x * / x <= / 36 * / 36) by (split; [nra|apply Rmult_le_compat; lra]). replace (1 + / x) with (1 + 1 / x) by (field; lra). lra.
  - assert (E : exp x / x * (1 + 4 / x) = exp x / x * (1 + 3 / x) + exp x / (x * x)) by (field; lra). rewrite E.
    assert (3 / 2 * x <= exp x / (x * x)).
    { pose proof (T_le_exp x 4 ltac:(lra)) as Q. assert (F : T x 4 = x * x * (x * x) / 24) by (unfold T; cbn [pow fact Nat.mul Nat.add INR]; field). rewrite F in Q.
      apply Rmult_le_reg_r with (x * x); [nra|]. unfold Rdiv. rewrite (Rmult_assoc (exp x)), Rinv_l, Rmult_1_r by nra. apply Rle_trans with (2 := Q). assert (0 < x * x) by nra. assert (3 / 2 * x <= x * x / 24) by nra. nra. }
    assert (0 <= / x * / x) by nra. lra.
Qed.

(** the derivative of Ei is exp(x)/x *)
Definition cE (k : nat) : R := match k with O => 0 | S _ => / (INR k * INR (fact k)) end.
Lemma ei_ps x : ei_sum x = PSeries cE x.
Proof.
  unfold PSeries. rewrite Series_incr_1.
  - cbn [cE]. rewrite Rmult_0_l, Rplus_0_l. unfold ei_sum. apply Series_ext. intros n. cbn [cE]. unfold Rdiv. ring.
  - apply ex_series_incr_1. eapply ex_series_ext; [|apply (aE_conv x)]. intros n. unfold aE. cbn [cE]. unfold Rdiv. eqR. ring.
Qed.
Lemma cE_inside x : Rbar_lt (Rabs x) (CV_radius cE).
Proof.
  apply Rbar_lt_le_trans with (Finite (Rabs x + 1)); [cbn; lra|].
  destruct (Lub_Rbar_correct (CV_disk cE)) as (U & _). apply U. unfold CV_disk. set (y := Rabs x + 1). pose proof (Rabs_pos x). assert (Y : 0 < y) by (unfold y; lra).
  apply ex_series_incr_1. eapply ex_series_ext; [|apply (aE_conv y)]. intros n. eqR. rewrite Rabs_pos_eq; [unfold aE; cbn [cE]; unfold Rdiv; eqR; ring|].
  cbn [cE]. pose proof (S_pos n). pose proof (fact_pos (S n)). apply Rmult_le_pos; [left; apply Rinv_0_lt_compat; apply Rmult_lt_0_compat; auto|apply pow_le; lra].
Qed.
Lemma ei_sum_derive x : x <> 0 -> is_derive ei_sum x ((exp x - 1) / x).
Proof.
  intros N. apply (is_derive_ext (PSeries cE)); [intros t; symmetry; apply ei_ps|].
  assert (E : PSeries (PS_derive cE) x = (exp x - 1) / x).
  { assert (S1 : Series (fun k => T x (S k)) = exp x - 1).
    { apply is_series_unique. pose proof (is_series_incr_1 (T x) (exp x - 1)) as I. cbv beta in I. apply I. change (is_series (T x) (exp x - 1 + T x 0)). rewrite T_0. replace (exp x - 1 + 1) with (exp x) by ring. apply T_exp. }
    assert (S2 : Series (fun k => T x (S k)) = x * PSeries (PS_derive cE) x).
    { unfold PSeries. rewrite <- Series_scal_l. apply Series_ext. intros n. unfold PS_derive, T. cbn [cE pow]. pose proof (S_pos n). pose proof (fact_pos (S n)). field. split; lra. }
    rewrite S1 in S2. rewrite S2. field. auto. }
  rewrite <- E. apply is_derive_PSeries. apply cE_inside.
Qed.
Lemma Ei_derive x : x <> 0 -> is_derive Ei x (exp x / x).
Proof.
  intros N. replace (exp x / x) with (0 + / x + (exp x - 1) / x) by (field; auto). unfold Ei.
  apply (is_derive_plus (fun x => euler_gamma + ln (Rabs x)) ei_sum); [|apply ei_sum_derive; auto].
  apply (is_derive_plus (fun _ => euler_gamma) (fun x => ln (Rabs x))); [apply (is_derive_const euler_gamma)|].
  destruct (Rtotal_order x 0) as [H|[H|H]]; [|lra|].
  - apply is_derive_ext_loc with (fun x => ln (- x)).
    + exists (mkposreal (- x) ltac:(lra)). intros y Hy. apply Rabs_def2 in Hy. cbn in Hy. rewrite Rabs_left; [reflexivity|]. unfold minus, plus, opp in Hy. cbn in Hy. lra.
    + auto_derive; [lra|field; lra].
  - apply is_derive_ext_loc with ln.
    + exists (mkposreal x H). intros y Hy. apply Rabs_def2 in Hy. cbn in Hy. rewrite Rabs_pos_eq; [reflexivity|]. unfold minus, plus, opp in Hy. cbn in Hy. lra.
    + auto_derive; [lra|field; lra].
Qed.
Lemma Ei_derivable x : x <> 0 -> derivable_pt_lim Ei x (exp x / x).
Proof. intros N. apply is_derive_Reals. apply Ei_derive. exact N. Qed.
