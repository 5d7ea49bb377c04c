(** The exponential integral of non-negative arguments. *)
From Coq Require Import ZArith Reals Lra Lia Psatz Bool.
From Flocq Require Import Core IEEE754.BinarySingleNaN IEEE754.Binary IEEE754.Bits.
From Verif Require Import Base BaseLemmas Arith Ext32 Bits32 Ffmath_Model Ffmath2_Model Ffmath4_Model Ffmath_Spec Ffmath_Proofs Ffmath_Proofs2 Ffmath_Proofs3 Float32 Ffmath_Proofs4 Ffmath_Proofs7 Ffmath_Proofs8 Ffmath_Proofs9 FloatApp Ffmath_Proofs12 Ffmath_Proofs13 Ffmath_Proofs14 Ffmath_Proofs15 Ffmath_Proofs16 Ellint_Proofs3 Expint_Spec Expint_Proofs Expint_Proofs2 Expint_Proofs3 Expint_Proofs4 Expint_Proofs5 Expint_Proofs6.
Open Scope R_scope.

Definition q28 : R := / 268435456.
Lemma rnd_0' : rnd 0 = 0. Proof. apply round_0. apply valid_rnd_N. Qed.
Lemma rnd_nn v : 0 <= v -> 0 <= rnd v. Proof. intros H. rewrite <- rnd_0'. apply rnd_le. exact H. Qed.
Lemma lat_le v m : (0 <= m <= 2000)%Z -> 0 <= v <= IZR m * q28 -> 0 <= rnd v <= IZR m * q28.
Proof. intros Hm H. split; [apply rnd_nn; lra|]. unfold q28 in *. rewrite <- (lat_fmt m Hm). apply rnd_le. exact (proj2 H). Qed.
Lemma tiny_loop x : finite x -> 0 <= valR x <= q28 -> forall n i m term sum, (1 <= i)%Z -> (0 <= m)%Z -> (i + Z.of_nat n <= 1500)%Z -> (m + Z.of_nat n <= 999)%Z ->
  finite term -> 0 <= valR term <= 1 -> finite sum -> 0 <= valR sum <= IZR m * q28 ->
  finite (ei_series_loop n i x term sum) /\ 0 <= valR (ei_series_loop n i x term sum) <= 999 * q28.
Proof.
  intros Fx Hx. induction n as [|n IH]; intros i m term sum Hi Hm Hin Hmn Ft Ht Fs Hs.
  - cbn [ei_series_loop]. split; [exact Fs|]. assert (IZR m <= 999) by (apply (IZR_le m 999); lia). unfold q28 in *. lra.
  - cbn [ei_series_loop]. destruct (ofZ_R i ltac:(lia)) as (Fj & Vj). set (j := b32_ofZ i) in *.
    assert (Ji : 1 <= valR j) by (rewrite Vj; apply (IZR_le 1 i); lia). assert (Ij : 0 < / valR j <= 1) by (split; [apply Rinv_0_lt_compat; lra|rewrite <- Rinv_1; apply Rinv_le_contravar; lra]).
    assert (Q : 0 < q28 <= 1) by (unfold q28; lra).
    assert (D1 : 0 <= valR x / valR j <= IZR 1 * q28) by (unfold Rdiv; split; [apply Rmult_le_pos; lra|]; rewrite Rmult_1_l, <- (Rmult_1_r q28); apply Rmult_le_compat; lra).
    destruct (div_R x j Fx Fj ltac:(lra)) as (F1 & V1). { apply small_big. rewrite Rabs_pos_eq; lra. } pose proof (lat_le _ 1 ltac:(lia) D1) as B1. rewrite <- V1 in B1.
    assert (D2 : 0 <= valR term * valR (x / j)%b32 <= IZR 1 * q28) by (split; [apply Rmult_le_pos; lra|]; rewrite Rmult_1_l; rewrite <- (Rmult_1_l q28) at 1; apply Rmult_le_compat; lra).
    destruct (mult_R term (x / j)%b32 Ft F1) as (F2 & V2). { apply small_big. rewrite Rabs_pos_eq; lra. } pose proof (lat_le _ 1 ltac:(lia) D2) as B2. rewrite <- V2 in B2.
    set (term' := (term * (x / j))%b32) in *.
    assert (D3 : 0 <= valR term' / valR j <= IZR 1 * q28) by (unfold Rdiv; split; [apply Rmult_le_pos; lra|]; rewrite Rmult_1_l, <- (Rmult_1_r q28); apply Rmult_le_compat; lra).
    destruct (div_R term' j F2 Fj ltac:(lra)) as (F3 & V3). { apply small_big. rewrite Rabs_pos_eq; lra. } pose proof (lat_le _ 1 ltac:(lia) D3) as B3. rewrite <- V3 in B3.
    assert (M : IZR m <= 999) by (apply (IZR_le m 999); lia). assert (M0 : 0 <= IZR m) by (apply (IZR_le 0 m); lia).
    assert (D4 : 0 <= valR sum + valR (term' / j)%b32 <= IZR (m + 1) * q28) by (rewrite plus_IZR; lra).
    assert (C : IZR (m + 1) * q28 <= 100) by (rewrite plus_IZR; unfold q28; lra).
    destruct (plus_R sum (term' / j)%b32 Fs F3) as (F4 & V4). { apply small_big. rewrite Rabs_pos_eq; lra. } pose proof (lat_le _ (m + 1) ltac:(lia) D4) as B4. rewrite <- V4 in B4.
    set (sum' := (sum + term' / j)%b32) in *.
    destruct (term' <? limEps * sum')%b32.
    + split; [exact F4|]. rewrite plus_IZR in B4. assert (IZR m + 1 <= 999). { rewrite <- plus_IZR. apply (IZR_le (m + 1) 999). lia. } assert ((IZR m + 1) * q28 <= 999 * q28) by (apply Rmult_le_compat_r; lra). lra.
    + apply (IH (i + 1)%Z (m + 1)%Z); auto; try lia. lra.
Qed.
Lemma zero_val : finite (flit 0 1) /\ valR (flit 0 1) = 0. Proof. split; [reflexivity|vm_compute; lra]. Qed.
Lemma one_val : finite (flit 1 1) /\ valR (flit 1 1) = 1. Proof. split; [reflexivity|vm_compute; lra]. Qed.
Lemma series_tiny x : finite x -> 0 <= valR x <= q28 -> finite (ei_series_loop 999 1 x (flit 1 1) (flit 0 1)) /\ 0 <= valR (ei_series_loop 999 1 x (flit 1 1) (flit 0 1)) <= 999 * q28.
Proof. intros F H. destruct zero_val as (F0 & V0). destruct one_val as (F1 & V1). apply (tiny_loop x F H 999 1 0 (flit 1 1) (flit 0 1)); auto; try lia; rewrite ?V0, ?V1; lra. Qed.
Lemma lim_val : finite (ofU 1108356366) /\ 36 < valR (ofU 1108356366) < 36044 / 1000. Proof. split; [reflexivity|]. vm_compute. lra. Qed.
Lemma expint_mid x : finite x -> 0 <= valR x -> valR x < valR (ofU 1108356366) -> expint x = Ok (expint_Ei_series x).
Proof.
  intros F H L. unfold expint, expint_Ei. rewrite isNan_ok, fin_nan by exact F. destruct zero_val as (F0 & V0). destruct lim_val as (Fl & _).
  rewrite (lt_f x (flit 0 1)) by (auto; rewrite V0; exact H). rewrite (lt_t x (ofU 1108356366)) by auto. reflexivity.
Qed.
Lemma ei_sum_pos X : 0 < X -> X <= ei_sum X. Proof. intros H. rewrite <- (P_1 X) at 1. apply ei_low. exact H. Qed.
Lemma expint_positive x : is_normal x -> 0 < valR x -> valR x < valR (ofU 1108356366) -> exists r, expint x = Ok r /\ finite r /\
  Rabs (valR r - Ei (valR x)) <= / 32768 * (euler_gamma + Rabs (ln (valR x)) + ei_sum (valR x)).
Proof.
  intros N H L. assert (F : finite x) by apply N. exists (expint_Ei_series x). split; [apply expint_mid; auto; lra|]. unfold expint_Ei_series. set (s := ei_series_loop 999 1 x (flit 1 1) (flit 0 1)).
  set (X := valR x) in *. destruct (flog_acc x N H) as (Fl & Al). fold X in Al. pose proof gamma_crude as G. destruct gammaF as (Fg & Vg). apply Rabs_le_inv in Vg. destruct lim_val as (_ & Lv).
  pose proof (ei_sum_pos X H) as Sp. pose proof u32_v as Eu.
  assert (LX : Rabs (ln X) <= 100).
  { assert (A : ln X <= 36) by (pose proof (ln_lin X H); lra). assert (B : -89 <= ln X).
    { pose proof ln2_bnd as L2. apply Rle_trans with (ln (bpow radix2 (-126))); [rewrite bpow_exp; rewrite ln_exp; change (IZR (-126)) with (-126); change (IZR radix2) with 2; lra|].
      apply Rcomplements.ln_le; [apply bpow_gt_0|]. destruct N as (_ & N). fold X in N. rewrite Rabs_pos_eq in N by lra. exact N. }
    apply Rabs_le. lra. }
  assert (SX : ei_sum X <= 110 * 1000000000000000000).
  { destruct (Rle_lt_dec X 109) as [K|K]; [|lra]. pose proof (ei_high X 109 H ltac:(rewrite INR_IZR_INZ; exact K)) as E. pose proof (P_le_exp X 109 H) as E2. pose proof (T_le_exp X 109 H) as E3. pose proof (exp_37 X ltac:(lra)).
    replace (INR 109) with 109 in E2 by (rewrite INR_IZR_INZ; reflexivity). lra. }
  assert (Ss : finite s /\ 0 <= valR s /\ Rabs (valR s - ei_sum X) <= 22 / 1000000 * ei_sum X + 4 / 1000000).
  { destruct (Rle_lt_dec X q28) as [Ht|Hb].
    - destruct (series_tiny x F ltac:(fold X; lra)) as (Fs & Vs). fold s in Fs, Vs. pose proof (ei_high X 1 H ltac:(cbn [INR]; unfold q28 in *; lra)) as E. rewrite P_1 in E. replace (T X 1) with X in E by (unfold T; cbn; field).
      split; [exact Fs|]. split; [lra|]. unfold q28 in *. apply Rabs_le. lra.
    - destruct (series_mid x F) as (Fs & Vs). { fold X. unfold XR, q28 in *. lra. } fold s X in Fs, Vs. split; [exact Fs|]. split; [lra|]. apply Rabs_le. lra. }
  destruct Ss as (Fs & S0 & Vs). apply Rabs_le_inv in Vs.
  assert (B1 : 1 / 10 <= valR fGAMMA_E + valR s <= 120 * 1000000000000000000) by lra.
  destruct (plus_R fGAMMA_E s Fg Fs (e30_big (valR fGAMMA_E + valR s) ltac:(lra))) as (F1 & V1). destruct (rnd_pos (valR fGAMMA_E + valR s) ltac:(lra)) as (e1 & He1 & E1). rewrite E1 in V1.
  set (w := valR fGAMMA_E + valR s) in *. assert (Ew : w = valR fGAMMA_E + valR s) by reflexivity. assert (W1 : Rabs (w * e1) <= w * / 16777216) by (rewrite Rabs_mult, (Rabs_pos_eq w) by lra; apply Rmult_le_compat_l; [lra|apply Rabs_le; lra]). apply Rabs_le_inv in W1.
  set (a := (fGAMMA_E + s)%b32) in *. apply Rabs_le_inv in Al.
  assert (B2 : Rabs (valR a + valR (flog x)) <= 1000000000000000000000000000000) by (pose proof (Rabs_le_inv _ _ LX); apply Rabs_le; lra).
  destruct (plus_R a (flog x) F1 Fl) as (F2 & V2). { pose proof huge_ok. unfold huge in *. lra. }
  split; [exact F2|]. rewrite V2. pose proof (rnd_err (valR a + valR (flog x))) as R. pose proof tiny_ok as Ty. unfold tiny in Ty. rewrite Eu in R.
  assert (B3 : Rabs (valR a + valR (flog x)) <= 11 / 10 * (euler_gamma + Rabs (ln X) + ei_sum X)). { assert (- Rabs (ln X) <= ln X <= Rabs (ln X)) by (apply Rabs_le_inv, Rle_refl). apply Rabs_le. lra. }
  apply Rabs_le_inv in R. unfold Ei. rewrite (Rabs_pos_eq X) by lra. apply Rabs_le. pose proof (Rabs_pos (ln X)). lra.
Qed.
Lemma expint_relative x : finite x -> 1 <= valR x -> valR x < valR (ofU 1108356366) -> exists r, expint x = Ok r /\ finite r /\ Rabs (valR r - Ei (valR x)) <= / 32768 * Ei (valR x).
Proof.
  intros F H L. destruct (expint_positive x) as (r & E & Fr & A); auto; try lra. { apply (normal_ge x 1); auto. change 1 with (bpow radix2 0). apply bpow_le. lia. }
  exists r. split; [exact E|]. split; [exact Fr|]. apply Rle_trans with (1 := A). unfold Ei. rewrite (Rabs_pos_eq (valR x)) by lra. rewrite (Rabs_pos_eq (ln _)); [lra|]. rewrite <- ln_1. apply Rcomplements.ln_le; lra.
Qed.
(** zero *)
Lemma expint_zero x : is_zero x -> expint x = Ok (B754_infinity 24 128 true).
Proof.
  intros Z. assert (Z' := Z). destruct Z' as (F & V). rewrite expint_mid; auto; [|lra|destruct lim_val; lra]. f_equal. unfold expint_Ei_series. rewrite (proj1 (proj1 (flog_special x) Z)).
  destruct (series_tiny x F) as (Fs & Vs); [unfold q28; lra|]. set (s := ei_series_loop 999 1 x (flit 1 1) (flit 0 1)) in *. destruct gammaF as (Fg & Vg). apply Rabs_le_inv in Vg. pose proof gamma_crude.
  destruct (plus_R fGAMMA_E s Fg Fs) as (F1 & V1). { apply small_big. apply Rabs_le. unfold q28 in *. lra. } set (a := (fGAMMA_E + s)%b32) in *. clearbody a. destruct a as [?|?|?|? ? ? ?]; try discriminate; reflexivity.
Qed.

(** large arguments *)
Lemma fin_or_inf x : is_nan 24 128 x = false -> 36 <= ext32 x -> x = B754_infinity 24 128 false \/ finite x.
Proof. intros N H. destruct x as [s|s|s p|s m e q]; [right; reflexivity| |discriminate|right; reflexivity]. destruct s; [|left; reflexivity]. cbn [ext32] in H. pose proof (bp 128). lra. Qed.
Lemma mone_val : finite (- b32_ofZ 1)%b32 /\ valR (- b32_ofZ 1)%b32 = -1.
Proof. destruct (ofZ_R 1 ltac:(lia)) as (F & V). split; [apply opp_fin; exact F|]. rewrite opp_val, V. reflexivity. Qed.
Lemma asymp_stop x : is_nan 24 128 x = false -> 36 <= ext32 x -> forall n, ei_asymp_loop n 1 x (flit 1 1) (flit 1 1) = flit 1 1.
Proof.
  intros N H [|n]; [reflexivity|]. cbn [ei_asymp_loop].
  assert (K : ((flit 1 1 * ((- b32_ofZ 1) / x)) <? limEps)%b32 = true).
  { destruct (fin_or_inf x N H) as [->|Fx].
    - vm_compute. reflexivity.
    - rewrite ext32_finite in H by exact Fx. change (B2R 24 128 x) with (valR x) in H.
      destruct mone_val as (F1 & V1).
      assert (I : 0 < / valR x <= / 36) by (split; [apply Rinv_0_lt_compat; lra|apply Rinv_le_contravar; lra]).
      destruct (div_R (- b32_ofZ 1)%b32 x F1 Fx ltac:(lra)) as (F2 & V2). { apply small_big. rewrite V1. unfold Rdiv. apply Rabs_le. lra. }
      rewrite V1 in V2. assert (B2 : -1 <= valR (- b32_ofZ 1 / x)%b32 <= 0). { rewrite V2. split; [apply Rle_trans with (valR (- b32_ofZ 1)%b32); [lra|apply rnd_ge_val; rewrite V1; unfold Rdiv; lra]|]. rewrite <- rnd_0'. apply rnd_le. unfold Rdiv. lra. }
      destruct one_val as (Fo & Vo). destruct (mult_R (flit 1 1) _ Fo F2) as (F3 & V3). { apply small_big. rewrite Vo. apply Rabs_le. lra. }
      apply lt_t; [exact F3|reflexivity|]. rewrite V3, Vo, Rmult_1_l, rnd_val. destruct eps_near as (_ & Ve). lra. }
  rewrite K. reflexivity.
Qed.
Lemma expint_big x : is_nan 24 128 x = false -> valR (ofU 1108356366) <= ext32 x -> expint x = (e <- fexp x ;; Ok (e * flit 1 1 / x)%b32).
Proof.
  intros N H. destruct lim_val as (Fl & Vl). unfold expint, expint_Ei. rewrite isNan_ok, N. destruct zero_val as (F0 & V0).
  assert (E1 : (x <? flit 0 1)%b32 = false). { destruct (x <? flit 0 1)%b32 eqn:E; auto. apply b32_lt_ext in E; auto. rewrite (ext32_finite (flit 0 1)) in E by auto. change (B2R 24 128 (flit 0 1)) with (valR (flit 0 1)) in E. lra. }
  assert (E2 : (x <? ofU 1108356366)%b32 = false). { destruct (x <? ofU 1108356366)%b32 eqn:E; auto. apply b32_lt_ext in E; auto. rewrite (ext32_finite (ofU 1108356366)) in E by auto. change (B2R 24 128 (ofU 1108356366)) with (valR (ofU 1108356366)) in E. lra. }
  rewrite E1, E2. unfold expint_Ei_asymp. rewrite asymp_stop by (auto; lra). reflexivity.
Qed.
Lemma expint_lead x : finite x -> valR (ofU 1108356366) <= valR x <= 88 -> exists r, expint x = Ok r /\ near r (exp (valR x) / valR x) (12 / 1000000).
Proof.
  intros F H. destruct lim_val as (Fl & Vl). rewrite expint_big; [|apply fin_nan; auto|rewrite ext32_finite by auto; exact (proj1 H)].
  destruct (fexp_accurate x F ltac:(lra)) as (e & E & Fe & A). rewrite E. cbn [bind]. eexists. split; [reflexivity|].
  change (bpow radix2 (-20)) with (/ 1048576) in A. change (bpow radix2 (-23)) with (/ 8388608) in A. rewrite (Rabs_pos_eq (valR x)) in A by lra. set (X := valR x) in *. pose proof (exp_pos X) as Ep.
  assert (A2 : Rabs (valR e - exp X) <= 115 / 10000000 * exp X) by (eapply Rle_trans; [exact A|apply Rmult_le_compat_r; lra]). apply Rabs_le_inv in A2.
  destruct one_val as (Fo & Vo). assert (Be : Rabs (valR e) <= fmax) by (apply Rabs_le, finite_bnd; auto).
  destruct (mult_M e (flit 1 1) Fe Fo) as (F1 & V1). { rewrite Vo, Rmult_1_r. exact Be. } rewrite Vo, Rmult_1_r, rnd_val in V1. rewrite Rabs_pos_eq in Be by lra.
  assert (I : / 88 <= / X <= / 36) by (split; apply Rinv_le_contravar; lra).
  assert (Q : 0 <= valR (e * flit 1 1)%b32 / X <= fmax). { rewrite V1. unfold Rdiv. split; [apply Rmult_le_pos; lra|]. apply Rle_trans with (valR e * 1); [apply Rmult_le_compat_l; lra|lra]. }
  destruct (div_M (e * flit 1 1)%b32 x F1 F) as (F2 & V2). { fold X. lra. } { fold X. rewrite Rabs_pos_eq; lra. } fold X in V2. rewrite V1 in V2.
  assert (E36 : 1 <= exp X) by (pose proof (exp_ineq1_le X); lra).
  pose proof u32_v as Eu. apply (near_rnd _ (valR e / X) _ (115 / 10000000)); auto; unfold Rdiv.
  - apply Rmult_lt_0_compat; lra.
  - lra.
  - apply Rle_trans with (1 * / 88); [lra|apply Rmult_le_compat; lra].
  - assert (0 < / X) by lra. assert (exp X * (1 - 115 / 10000000) * / X <= valR e * / X <= exp X * (1 + 115 / 10000000) * / X) by (split; apply Rmult_le_compat_r; lra). lra.
  - rewrite Eu. lra.
Qed.
Lemma expint_low x : finite x -> valR (ofU 1108356366) <= valR x <= 88 -> exists r, expint x = Ok r /\ finite r /\ 89 / 100 * Ei (valR x) <= valR r <= 99 / 100 * Ei (valR x).
Proof.
  intros F H. destruct (expint_lead x F H) as (r & E & Fr & A). exists r. split; [exact E|]. split; [exact Fr|]. destruct lim_val as (_ & Vl). set (X := valR x) in *. pose proof (Ei_large X ltac:(lra)) as (L & U).
  assert (I : / 88 <= / X <= / 36) by (split; apply Rinv_le_contravar; lra). pose proof (exp_pos X). assert (Pq : 0 < exp X / X) by (apply Rmult_lt_0_compat; lra). set (q := exp X / X) in *.
  assert (q * / 88 <= q * / X <= q * / 36) by (split; apply Rmult_le_compat_l; lra). unfold Rdiv in U. lra.
Qed.
Lemma expint_over x : finite x -> 89 <= valR x -> expint x = Ok limInf.
Proof.
  intros F H. destruct lim_val as (_ & Vl). rewrite expint_big; [|apply fin_nan; auto|rewrite ext32_finite by auto; change (B2R 24 128 x) with (valR x); lra].
  rewrite fexp_high; [|apply fin_nan; auto|rewrite ext32_finite by auto; exact H]. cbn [bind]. f_equal. destruct x as [s|s|s p|s m e q]; try discriminate; [cbn in H; lra|].
  destruct s; [|reflexivity]. exfalso. change (valR (B754_finite 24 128 true m e q)) with (F2R (Float radix2 (Z.neg m) e)) in H. pose proof (F2R_lt_0 radix2 (Float radix2 (Z.neg m) e) eq_refl). lra.
Qed.
Lemma expint_inf : exists r, expint (B754_infinity 24 128 false) = Ok r /\ is_nan 24 128 r = true.
Proof.
  rewrite expint_big; [|reflexivity|]. 2:{ cbn [ext32]. destruct lim_val as (_ & Vl). rewrite b128. pose proof big1. pose proof huge_ok. unfold huge in *. lra. }
  rewrite fexp_high; [|reflexivity|]. 2:{ cbn [ext32]. rewrite b128. pose proof huge_ok. unfold huge in *. lra. }
  cbn [bind]. eexists. split; [reflexivity|]. vm_compute. reflexivity.
Qed.
