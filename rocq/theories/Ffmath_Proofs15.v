(** log, log10, log1p, pow, asinh, acosh, atanh: accuracy in binary32. *)
From Coq Require Import ZArith Reals Lra Lia Psatz Bool List.
From Flocq Require Import Core IEEE754.BinarySingleNaN IEEE754.Binary IEEE754.Bits.
From Verif Require Import Base BaseLemmas Arith Ext32 Bits32 PolyBound Ffmath_Model Ffmath2_Model Ffmath_Spec Ffmath_Proofs Ffmath_Proofs2 Ffmath_Proofs3 Float32 Ffmath_Proofs4 Ffmath_Proofs5 Ffmath_Proofs7 Ffmath_Proofs8 Ffmath_Proofs9 Ffmath_Proofs10 FloatApp Ffmath_Proofs12 Ffmath_Proofs13 Ffmath_Proofs14.
Open Scope R_scope.

(** ** log, log10 *)
Lemma lb_bound x : is_normal x -> 0 < valR x -> Rabs (lb (valR x)) <= 128.
Proof.
  intros (F & N) P. rewrite Rabs_pos_eq in N by lra. pose proof ln2_bnd as LB.
  assert (K : forall n, ln (bpow radix2 n) = IZR n * ln 2) by (intros n; rewrite bpow_exp, ln_exp; reflexivity).
  assert (U : valR x <= bpow radix2 128). { pose proof (abs_B2R_lt_emax 24 128 x) as A. rewrite Rabs_pos_eq in A by lra. lra. }
  assert (L1 : ln (valR x) <= 128 * ln 2) by (rewrite <- K; apply Rcomplements.ln_le; auto).
  assert (L2 : -126 * ln 2 <= ln (valR x)) by (rewrite <- K; apply Rcomplements.ln_le; auto; apply bp).
  unfold lb, Rdiv. rewrite Rabs_mult, (Rabs_pos_eq (/ ln 2)) by (left; apply Rinv_0_lt_compat; lra). apply Rmult_le_reg_r with (ln 2); [lra|]. rewrite Rmult_assoc, Rinv_l, Rmult_1_r by lra. apply Rabs_le. lra.
Qed.
Lemma scaled_log c C K x : finite c -> valR c = C -> 3 / 10 <= K <= 7 / 10 -> Rabs (C - K) <= 52 / 1000000000 * K -> is_normal x -> 0 < valR x ->
  finite (c * log2 x)%b32 /\ Rabs (valR (c * log2 x)%b32 - K * lb (valR x)) <= 952 / 1000000000 * Rabs (K * lb (valR x)).
Proof.
  intros Fc Vc HK HC N P. destruct (log2_acc x N P) as (F & A & Z). pose proof (lb_bound x N P) as LB. set (l := lb (valR x)) in *. set (y := log2 x) in *.
  assert (BG : 1000 <= big) by apply big1. apply Rabs_le_inv in HC.
  assert (Y : Rabs (valR y) <= 1001 / 1000 * Rabs l). { replace (valR y) with (l + (valR y - l)) by ring. eapply Rle_trans; [apply Rabs_triang|]. pose proof (Rabs_pos l). lra. }
  assert (CY : Rabs (C * valR y) <= 8 / 10 * (1001 / 1000 * Rabs l)). { rewrite Rabs_mult. apply Rmult_le_compat; try apply Rabs_pos; auto. apply Rabs_le. lra. }
  destruct (mult_R c y Fc F) as (Fm & Vm). { rewrite Vc. lra. } rewrite Vc in Vm. split; [exact Fm|]. rewrite Vm.
  destruct Z as [Z|Z].
  - rewrite Z in *. rewrite Rmult_0_r, Rabs_R0 in *. assert (Y0 : valR y = 0). { apply Rabs_le_inv in Y. lra. } rewrite Y0, Rmult_0_r, rnd_0, Rminus_0_r, Rabs_R0. lra.
  - pose proof (rnd_err (C * valR y)) as RE. pose proof tiny_ok as T. unfold tiny in T. rewrite u32_val in RE.
    assert (D : Rabs (C * valR y - K * l) <= (52 + 840) / 1000000000 * (K * Rabs l)).
    { replace (C * valR y - K * l) with (C * (valR y - l) + (C - K) * l) by ring. eapply Rle_trans; [apply Rabs_triang|]. rewrite !Rabs_mult.
      assert (Rabs C <= K * (1 + 52 / 1000000000)) by (apply Rabs_le; lra). assert (Rabs (C - K) <= 52 / 1000000000 * K) by (apply Rabs_le; lra).
      assert (Rabs C * Rabs (valR y - l) <= K * (1 + 52 / 1000000000) * (839 / 1000000000 * Rabs l)) by (apply Rmult_le_compat; try apply Rabs_pos; auto).
      assert (Rabs (C - K) * Rabs l <= 52 / 1000000000 * K * Rabs l) by (apply Rmult_le_compat_r; [apply Rabs_pos|auto]).
      assert (0 <= K * Rabs l) by (apply Rmult_le_pos; [lra|apply Rabs_pos]). lra. }
    rewrite Rabs_mult, (Rabs_pos_eq K) by lra. assert (KL : 3 / 10 * / 100000000 <= K * Rabs l) by (apply Rmult_le_compat; lra).
    assert (CK : Rabs (C * valR y) <= (1 + / 1000000) * (K * Rabs l)). { replace (C * valR y) with (K * l + (C * valR y - K * l)) by ring. eapply Rle_trans; [apply Rabs_triang|]. rewrite Rabs_mult, (Rabs_pos_eq K) by lra. lra. }
    replace (rnd (C * valR y) - K * l) with ((rnd (C * valR y) - C * valR y) + (C * valR y - K * l)) by ring. eapply Rle_trans; [apply Rabs_triang|]. lra.
Qed.
Lemma ln2_R : finite fLN2 /\ valR fLN2 = 1453635 / 2097152. Proof. cst. Qed.
Lemma log10_2_R : finite fLOG10_2 /\ valR fLOG10_2 = 10100891 / 33554432. Proof. cst. Qed.
Lemma flog_acc x : is_normal x -> 0 < valR x -> finite (flog x) /\ Rabs (valR (flog x) - ln (valR x)) <= 952 / 1000000000 * Rabs (ln (valR x)).
Proof.
  intros N P. destruct ln2_R as (Fc & Vc). pose proof ln2_L2 as L. apply Rabs_le_inv in L. unfold L2 in L. unfold flog.
  replace (ln (valR x)) with (ln 2 * lb (valR x)) by (unfold lb; field; lra). apply (scaled_log _ _ _ _ Fc Vc); auto; [lra|apply Rabs_le; lra].
Qed.
Lemma flog_accurate x : is_normal x -> 0 < valR x -> finite (flog x) /\ Rabs (valR (flog x) - ln (valR x)) <= bpow radix2 (-20) * Rabs (ln (valR x)).
Proof. intros N P. destruct (flog_acc x N P) as (F & A). split; [exact F|]. change (bpow radix2 (-20)) with (/ 1048576). pose proof (Rabs_pos (ln (valR x))). lra. Qed.
Lemma log10_accurate x : is_normal x -> 0 < valR x -> finite (log10 x) /\ Rabs (valR (log10 x) - ln (valR x) / ln 10) <= bpow radix2 (-20) * Rabs (ln (valR x) / ln 10).
Proof.
  intros N P. destruct log10_2_R as (Fc & Vc). pose proof ln2_L2 as L. apply Rabs_le_inv in L. unfold L2 in L. pose proof ln10_bnd as L10. apply Rabs_le_inv in L10.
  assert (K : Rabs (ln 2 / ln 10 - 3010299957 / 10000000000) <= 13 / 10000000000).
  { assert (Q : ln 2 / ln 10 * ln 10 = ln 2) by (field; lra). set (q := ln 2 / ln 10) in *. clearbody q. apply Rabs_le. split; apply Rmult_le_reg_r with (ln 10); try lra. }
  apply Rabs_le_inv in K. replace (ln (valR x) / ln 10) with (ln 2 / ln 10 * lb (valR x)) by (unfold lb; field; lra). unfold log10.
  destruct (scaled_log _ _ (ln 2 / ln 10) x Fc Vc) as (F & A); auto; [lra| |].
  - apply Rabs_le. lra.
  - split; [exact F|]. change (bpow radix2 (-20)) with (/ 1048576). pose proof (Rabs_pos (ln 2 / ln 10 * lb (valR x))). lra.
Qed.
Lemma flog_special x : (is_zero x -> flog x = B754_infinity 24 128 true /\ log10 x = B754_infinity 24 128 true) /\ 
  (is_nan 24 128 x = false -> ext32 x < 0 -> is_nan 24 128 (flog x) = true /\ is_nan 24 128 (log10 x) = true).
Proof.
  destruct (log2_special x) as (S1 & S2). split.
  - intros Z. unfold flog, log10. rewrite (S1 Z). split; reflexivity.
  - intros N H. unfold flog, log10. specialize (S2 N H). split; apply mult_nan_r; exact S2.
Qed.

(** ** Logarithm of an approximation *)
Lemma ln_near y Y d : 0 < Y -> Rabs (y - Y) <= d * Y -> 0 <= d <= / 1000 -> 0 < y /\ Rabs (ln y - ln Y) <= 1002 / 1000 * d.
Proof.
  intros P H D. apply Rabs_le_inv in H. assert (Py : 0 < y) by nra. split; [exact Py|].
  assert (Q : ln y - ln Y = ln (y / Y)). { unfold Rdiv. rewrite ln_mult, ln_Rinv by (try apply Rinv_0_lt_compat; auto). ring. } rewrite Q.
  assert (R : 1 - d <= y / Y <= 1 + d). { split; (apply Rmult_le_reg_r with Y; [exact P|]); unfold Rdiv; rewrite Rmult_assoc, Rinv_l, Rmult_1_r by lra; lra. }
  set (q := y / Y) in *. clearbody q. assert (U : ln q <= d). { rewrite <- (ln_exp d). apply Rcomplements.ln_le; [lra|]. pose proof (exp_ineq1_le d). lra. }
  assert (V : - (1002 / 1000 * d) <= ln q). { rewrite <- (ln_exp (- (1002 / 1000 * d))). apply Rcomplements.ln_le; [apply exp_pos|]. rewrite exp_Ropp. 
    pose proof (exp_ineq1_le (1002 / 1000 * d)) as X. assert (/ exp (1002 / 1000 * d) <= / (1 + 1002 / 1000 * d)) by (apply Rinv_le; lra).
    assert (/ (1 + 1002 / 1000 * d) <= 1 - d). { apply Rmult_le_reg_r with (1 + 1002 / 1000 * d); [lra|]. rewrite Rinv_l by lra. nra. } lra. }
  apply Rabs_le. lra.
Qed.
Lemma flog_near y Y d : is_normal y -> 0 < Y -> Rabs (valR y - Y) <= d * Y -> 0 <= d <= / 1000 ->
  finite (flog y) /\ Rabs (valR (flog y) - ln Y) <= 952 / 1000000000 * Rabs (ln Y) + 1003 / 1000 * d.
Proof.
  intros N P H D. destruct (ln_near _ _ _ P H D) as (Py & L). destruct (flog_acc y N Py) as (F & A). split; [exact F|].
  replace (valR (flog y) - ln Y) with ((valR (flog y) - ln (valR y)) + (ln (valR y) - ln Y)) by ring. eapply Rle_trans; [apply Rabs_triang|].
  assert (Rabs (ln (valR y)) <= Rabs (ln Y) + 1002 / 1000 * d). { replace (ln (valR y)) with (ln Y + (ln (valR y) - ln Y)) by ring. eapply Rle_trans; [apply Rabs_triang|]. lra. } lra.
Qed.
Lemma normal_ge x v : finite x -> v <= valR x -> bpow radix2 (-126) <= v -> is_normal x.
Proof. intros F H V. split; [exact F|]. pose proof (bp (-126)). rewrite Rabs_pos_eq; lra. Qed.
Lemma b126_small : bpow radix2 (-126) <= / 1000000000000000000. 
Proof. apply Rle_trans with (bpow radix2 (-60)); [apply bpow_le; lia|]. change (bpow radix2 (-60)) with (/ 1152921504606846976). lra. Qed.
(** 1 + x is never small *)
Lemma one_plus x : finite x -> -1 < valR x -> valR x <= bpow radix2 126 -> finite (flit 1 1 + x)%b32 /\ valR (flit 1 1 + x)%b32 = rnd (1 + valR x) /\ / 16777216 <= 1 + valR x /\ / 16777216 <= rnd (1 + valR x) /\ Rabs (rnd (1 + valR x) - (1 + valR x)) <= / 16777216 * (1 + valR x).
Proof.
  intros F H HB. destruct one_R as (F1 & V1).
  assert (L : / 16777216 <= 1 + valR x).
  { destruct (Rle_or_lt (/ 16777216) (1 + valR x)) as [K|K]; auto. exfalso.
    set (y := ofU 3212836863). assert (Vy : finite y /\ valR y = -1 + / 16777216) by cst. set (z := ofU 3212836864). assert (Vz : finite z /\ valR z = -1) by cst. destruct Vy as (Fy & Vy). destruct Vz as (Fz & Vz).
    assert (NN : forall z, finite z -> is_nan 24 128 z = false) by (intros []; auto; discriminate).
    assert (K1 : (key x < key y)%Z) by (apply key_lt; auto; rewrite !ext32_finite by auto; lra).
    assert (K2 : (key z < key x)%Z) by (apply key_lt; auto; rewrite !ext32_finite by auto; lra).
    assert (key y = key z + 1)%Z by (vm_compute; reflexivity). lia. }
  pose proof (plus_rel (flit 1 1) x) as PR. rewrite V1, u32_val, (Rabs_pos_eq (1 + valR x)) in PR by lra.
  assert (L2 : / 16777216 <= rnd (1 + valR x)). { change (/ 16777216) with (bpow radix2 (-24)). rewrite <- (rnd_bpow (-24)) by lia. apply rnd_le. exact L. }
  pose proof (Rabs_le_inv _ _ PR). destruct (plus_R (flit 1 1) x F1 F) as (Fs & Vs). { rewrite V1, Rabs_pos_eq by lra. assert (BG : big = 2 * bpow radix2 126) by (change big with (bpow radix2 (1 + 126)); rewrite bpow_plus; reflexivity). assert (1 <= bpow radix2 126) by (apply (bpow_le radix2 0); lia). lra. }
  rewrite V1 in Vs. auto.
Qed.
Lemma log1p_accurate x : finite x -> -1 < valR x <= bpow radix2 126 -> finite (log1p x) /\ Rabs (valR (log1p x) - ln (1 + valR x)) <= bpow radix2 (-20) * Rabs (ln (1 + valR x)) + bpow radix2 (-23).
Proof.
  intros F (H & H'). destruct (one_plus x F H H') as (Fs & Vs & L & L2 & E). pose proof b126_small.
  destruct (flog_near (flit 1 1 + x)%b32 (1 + valR x) (/ 16777216)) as (Fl & A); [apply normal_ge with (/ 16777216); auto; lra|lra|rewrite Vs; exact E|lra|].
  split; [exact Fl|]. change (log1p x) with (flog (flit 1 1 + x)%b32). change (bpow radix2 (-20)) with (/ 1048576). change (bpow radix2 (-23)) with (/ 8388608). pose proof (Rabs_pos (ln (1 + valR x))). lra.
Qed.

(** ** pow *)
Lemma fpow_accurate b e : is_normal b -> 0 < valR b -> finite e -> Rabs (valR e * lb (valR b)) <= 125 ->
  exists r, fpow b e = Ok r /\ finite r /\ Rabs (valR r - Rpower (valR b) (valR e)) <= bpow radix2 (-20) * (1 + Rabs (valR e * lb (valR b))) * Rpower (valR b) (valR e).
Proof.
  intros N P Fe H. destruct (log2_acc b N P) as (F & A & _). set (l := lb (valR b)) in *. set (y := log2 b) in *. set (X := valR e * l) in *.
  assert (D : Rabs (valR e * valR y - X) <= 839 / 1000000000 * Rabs X). { unfold X. replace (valR e * valR y - valR e * l) with (valR e * (valR y - l)) by ring. rewrite !Rabs_mult. 
    assert (Rabs (valR e) * Rabs (valR y - l) <= Rabs (valR e) * (839 / 1000000000 * Rabs l)) by (apply Rmult_le_compat_l; [apply Rabs_pos|exact A]). lra. }
  assert (B : Rabs (valR e * valR y) <= (1 + 839 / 1000000000) * Rabs X). { replace (valR e * valR y) with (X + (valR e * valR y - X)) by ring. eapply Rle_trans; [apply Rabs_triang|]. lra. }
  assert (BG : 1000 <= big) by apply big1. destruct (mult_R e y Fe F) as (Fm & Vm); [lra|].
  pose proof (rnd_err (valR e * valR y)) as RE. pose proof tiny_ok as T. unfold tiny in T. rewrite u32_val, <- Vm in RE. set (p := (e * y)%b32) in *.
  set (d := 900 / 1000000000 * Rabs X + / 1000000000000). pose proof (Rabs_pos X).
  assert (PX : Rabs (valR p - X) <= d). { replace (valR p - X) with ((valR p - valR e * valR y) + (valR e * valR y - X)) by ring. eapply Rle_trans; [apply Rabs_triang|]. unfold d. lra. }
  destruct (exp2_near p X d Fm) as (r & E & Fr & Vr); [|exact PX|unfold d; lra|].
  - apply Rabs_le_inv in H. unfold d in PX. assert (Rabs X <= 125) by (apply Rabs_le; exact H). apply Rabs_le_inv in PX. lra.
  - exists r. split; [exact E|]. split; [exact Fr|].
    assert (RP : Rpower 2 X = Rpower (valR b) (valR e)). { unfold Rpower, X, l, lb. f_equal. pose proof ln2_bnd. field. lra. }
    rewrite RP in Vr. eapply Rle_trans; [exact Vr|]. apply Rmult_le_compat_r; [left; apply exp_pos|]. change (bpow radix2 (-21)) with (/ 2097152). change (bpow radix2 (-20)) with (/ 1048576). unfold d. lra.
Qed.
Lemma fpow_zero b e : is_normal b -> 0 < valR b -> is_zero e -> exists r, fpow b e = Ok r /\ finite r /\ valR r = 1.
Proof.
  intros N P (Fe & Ve). destruct (log2_acc b N P) as (F & A & _). destruct (zero_mul e (log2 b) Fe F (or_introl Ve)) as (Fm & Vm).
  unfold fpow. apply (exp2_integer (e * log2 b)%b32 0); auto. lia.
Qed.
Lemma fpow_power b e k n : finite b -> valR b = bpow radix2 k -> (-126 <= k <= 127)%Z -> finite e -> valR e = IZR n -> (-125 <= n * k <= 127)%Z ->
  exists r, fpow b e = Ok r /\ finite r /\ valR r = bpow radix2 (n * k).
Proof.
  intros Fb Vb Hk Fe Ve Hn. destruct (log2_power b k Fb Vb Hk) as (Fl & Vl). assert (BG : 1000 <= big) by apply big1.
  destruct (mult_R e (log2 b) Fe Fl) as (Fm & Vm). { rewrite Ve, Vl, <- mult_IZR, <- abs_IZR. apply Rle_trans with 1000; [apply IZR_le; lia|exact BG]. }
  rewrite Ve, Vl, <- mult_IZR in Vm. rewrite rnd_fmt in Vm. 2:{ pose proof (fmt_intro (n * k) 0 ltac:(lia) ltac:(lia)) as K. change (bpow radix2 0) with 1 in K. rewrite Rmult_1_r in K. exact K. }
  unfold fpow. apply (exp2_integer _ _ Fm Vm Hn).
Qed.
Lemma fpow_negative b e : is_nan 24 128 b = false -> ext32 b < 0 -> fpow b e = Ub.
Proof. intros N H. unfold fpow. apply exp2_nan. apply mult_nan_r. apply log2_special; auto. Qed.
Lemma fpow_base0 b e : is_zero b -> finite e -> (0 < valR e -> fpow b e = Ok (B754_zero 24 128 false)) /\ (valR e < 0 -> fpow b e = Ok (B754_infinity 24 128 false)) /\ (valR e = 0 -> fpow b e = Ub).
Proof.
  intros Z Fe. unfold fpow. destruct (log2_special b) as (S & _). rewrite (S Z). destruct e as [s| | |s m ex H]; try discriminate; cbn [B2R].
  - split; [|split]; intros K; [lra|lra|]. apply exp2_nan. destruct s; reflexivity.
  - assert (K : forall s', Bsign 24 128 (B754_finite 24 128 s m ex H) = s' -> if s' then F2R (Float radix2 (cond_Zopp s (Zpos m)) ex) < 0 else 0 < F2R (Float radix2 (cond_Zopp s (Zpos m)) ex)).
    { intros s' <-. cbn [Bsign]. destruct s; [apply F2R_lt_0|apply F2R_gt_0]; cbn; lia. }
    specialize (K s eq_refl). destruct s; (split; [|split]); intros L; try (exfalso; lra); reflexivity.
Qed.

(** ** Inverse hyperbolic functions *)
Lemma one_minus x : finite x -> valR x < 1 -> - bpow radix2 126 <= valR x -> finite (flit 1 1 - x)%b32 /\ valR (flit 1 1 - x)%b32 = rnd (1 - valR x) /\ / 16777216 <= 1 - valR x /\ / 16777216 <= rnd (1 - valR x) /\ Rabs (rnd (1 - valR x) - (1 - valR x)) <= / 16777216 * (1 - valR x).
Proof.
  intros F H HB. destruct one_R as (F1 & V1). pose proof (one_plus (- x)%b32 (opp_fin _ F)) as O. rewrite opp_val in O. destruct O as (_ & _ & A & B & C); [lra|lra|].
  destruct (minus_R (flit 1 1) x F1 F) as (Fs & Vs). { rewrite V1, Rabs_pos_eq by lra. assert (BG : big = 2 * bpow radix2 126) by (change big with (bpow radix2 (1 + 126)); rewrite bpow_plus; reflexivity). assert (1 <= bpow radix2 126) by (apply (bpow_le radix2 0); lia). lra. }
  rewrite V1 in Vs. unfold Rminus at 2 3 4 5 6. auto.
Qed.
Lemma atanh_real a x : tanh a = x -> -1 < x < 1 /\ a = / 2 * ln ((1 + x) / (1 - x)).
Proof.
  intros <-. unfold tanh, sinh, cosh. pose proof (exp_pos a) as P. pose proof (exp_pos (- a)) as Q. set (e := exp a) in *. set (f := exp (- a)) in *.
  assert (EF : e * f = 1) by (unfold e, f; rewrite <- exp_plus, Rplus_opp_r; apply exp_0).
  assert (D : (e - f) / 2 / ((e + f) / 2) = (e - f) / (e + f)) by (field; lra). rewrite D.
  assert (D1 : 1 - (e - f) / (e + f) = 2 * f / (e + f)) by (field; lra). assert (D2 : 1 + (e - f) / (e + f) = 2 * e / (e + f)) by (field; lra).
  assert (0 < / (e + f)) by (apply Rinv_0_lt_compat; lra). assert (0 < 2 * f / (e + f)) by (apply Rmult_lt_0_compat; lra). assert (0 < 2 * e / (e + f)) by (apply Rmult_lt_0_compat; lra).
  split; [lra|]. rewrite D1, D2. replace (2 * e / (e + f) / (2 * f / (e + f))) with (e * / f) by (field; lra).
  rewrite ln_mult, ln_Rinv by (try apply Rinv_0_lt_compat; lra). unfold e, f. rewrite !ln_exp. field.
Qed.
Lemma quotient N D A B : 0 < A -> 0 < B -> Rabs (N - A) <= / 16777216 * A -> Rabs (D - B) <= / 16777216 * B -> 0 < D /\ Rabs (N / D - A / B) <= 1193 / 10000000000 * (A / B).
Proof.
  intros PA PB HN HD. apply Rabs_le_inv in HN. apply Rabs_le_inv in HD. assert (PD : 0 < D) by lra. split; [exact PD|].
  assert (PQ : 0 < A / B) by (apply Rmult_lt_0_compat; [lra|apply Rinv_0_lt_compat; lra]).
  assert (E : N / D - A / B = (N * B - A * D) / (A * D) * (A / B)) by (field; lra). rewrite E, Rabs_mult, (Rabs_pos_eq (A / B)) by lra. apply Rmult_le_compat_r; [lra|].
  assert (PAD : 0 < A * D) by (apply Rmult_lt_0_compat; lra).
  unfold Rdiv. rewrite Rabs_mult, (Rabs_pos_eq (/ (A * D))) by (left; apply Rinv_0_lt_compat; auto). apply Rmult_le_reg_r with (A * D); [auto|]. rewrite Rmult_assoc, Rinv_l, Rmult_1_r by lra.
  assert (Rabs (N * B - A * D) <= 2 * / 16777216 * (A * B)). { replace (N * B - A * D) with ((N - A) * B + A * (B - D)) by ring. apply Rabs_le. nra. }
  assert (A * ((1 - / 16777216) * B) <= A * D) by (apply Rmult_le_compat_l; lra). lra.
Qed.
Lemma atanh_accurate x a : finite x -> valR x = tanh a -> finite (atanh x) /\ Rabs (valR (atanh x) - a) <= bpow radix2 (-20) * Rabs a + bpow radix2 (-23).
Proof.
  intros F E. destruct (atanh_real a _ (eq_sym E)) as (R & EA). assert (B1 : 1 <= bpow radix2 126) by (apply (bpow_le radix2 0); lia).
  destruct (one_plus x F) as (Fn & Vn & Ln & Ln2 & En); [lra|lra|]. destruct (one_minus x F) as (Fd & Vd & Ld & Ld2 & Ed); [lra|lra|].
  unfold atanh. set (n := (flit 1 1 + x)%b32) in *. set (d := (flit 1 1 - x)%b32) in *. set (A := 1 + valR x) in *. set (B := 1 - valR x) in *.
  rewrite <- Vn in *. rewrite <- Vd in *. destruct (quotient (valR n) (valR d) A B ltac:(lra) ltac:(lra) En Ed) as (PD & Q).
  assert (BA : A <= 2 /\ B <= 2) by (unfold A, B; lra).
  assert (IB : / 2 <= / B <= 16777216). { split; [apply Rinv_le; lra|]. rewrite <- (Rinv_inv 16777216). apply Rinv_le; lra. }
  assert (AB : / 33554432 <= A / B <= 33554432). { unfold Rdiv. split; [apply Rle_trans with (/ 16777216 * / 2); [lra|]; apply Rmult_le_compat; lra|apply Rle_trans with (2 * 16777216); [|lra]; apply Rmult_le_compat; lra]. }
  assert (BG : 1000000000 <= big). { apply Rle_trans with (bpow radix2 30); [change (bpow radix2 30) with 1073741824; lra|apply bpow_le; lia]. }
  set (Y := A / B) in *. assert (QB : Rabs (valR n / valR d) <= (1 + / 1000000) * Y). { replace (valR n / valR d) with (Y + (valR n / valR d - Y)) by ring. eapply Rle_trans; [apply Rabs_triang|]. rewrite (Rabs_pos_eq Y) by lra. lra. }
  destruct (div_R n d Fn Fd ltac:(lra)) as (Fq & Vq); [lra|]. pose proof (rnd_err (valR n / valR d)) as RE. rewrite u32_val in RE. pose proof tiny_ok as T. unfold tiny in T.
  assert (QY : Rabs (valR (n / d)%b32 - Y) <= 180 / 1000000000 * Y). { rewrite Vq. replace (rnd (valR n / valR d) - Y) with ((rnd (valR n / valR d) - valR n / valR d) + (valR n / valR d - Y)) by ring. eapply Rle_trans; [apply Rabs_triang|]. lra. }
  destruct (flog_near (n / d)%b32 Y (180 / 1000000000)) as (Fl & Al); [|lra|exact QY|lra|].
  { apply normal_ge with (/ 67108864); [exact Fq|apply Rabs_le_inv in QY; lra|pose proof b126_small; lra]. }
  assert (LY : ln Y = 2 * a) by (rewrite EA; field). rewrite LY in Al. destruct flit_half as (Fh & Vh).
  assert (LB : Rabs (ln Y) <= 40). { apply Rabs_le. split.
    - rewrite <- (ln_exp (-(40))). apply Rcomplements.ln_le; [apply exp_pos|]. rewrite exp_Ropp. apply Rle_trans with (/ 33554432); [|lra]. apply Rinv_le; [lra|]. replace 40 with (20 * 2) by ring. pose proof (exp_ineq1_le 2). replace (exp (20 * 2)) with (exp 2 ^ 20) by (rewrite <- Rpower_pow by apply exp_pos; unfold Rpower; rewrite ln_exp; f_equal; cbn; ring).
      apply Rle_trans with (3 ^ 20); [lra|]. apply pow_incr. lra.
    - rewrite <- (ln_exp 40). apply Rcomplements.ln_le; [lra|]. replace 40 with (20 * 2) by ring. pose proof (exp_ineq1_le 2). replace (exp (20 * 2)) with (exp 2 ^ 20) by (rewrite <- Rpower_pow by apply exp_pos; unfold Rpower; rewrite ln_exp; f_equal; cbn; ring).
      apply Rle_trans with (3 ^ 20); [lra|]. apply pow_incr. lra. }
  rewrite LY in LB. set (l := flog (n / d)%b32) in *.
  assert (Ll : Rabs (valR l) <= 50). { replace (valR l) with (2 * a + (valR l - 2 * a)) by ring. eapply Rle_trans; [apply Rabs_triang|]. lra. }
  destruct (mult_R l (flit 1 2) Fl Fh) as (Fm & Vm). { rewrite Vh, Rabs_mult, (Rabs_pos_eq (1 / 2)) by lra. lra. } rewrite Vh in Vm. split; [exact Fm|]. rewrite Vm.
  assert (HE : Rabs (rnd (valR l * (1 / 2)) - valR l * (1 / 2)) <= bpow radix2 (-150)). { replace (valR l * (1 / 2)) with (valR l / 2) by field. apply half_err. }
  replace (rnd (valR l * (1 / 2)) - a) with ((rnd (valR l * (1 / 2)) - valR l * (1 / 2)) + / 2 * (valR l - 2 * a)) by field. eapply Rle_trans; [apply Rabs_triang|]. rewrite (Rabs_mult (/ 2)), (Rabs_pos_eq (/ 2)) by lra.
  rewrite (Rabs_mult 2 a), (Rabs_pos_eq 2) in Al by lra. change (bpow radix2 (-20)) with (/ 1048576). change (bpow radix2 (-23)) with (/ 8388608). pose proof (Rabs_pos a). lra.
Qed.
Lemma sqrt_near s S : finite s -> / 2 <= S -> Rabs (valR s - S) <= 150 / 1000000000 * S -> finite (sqrt s) /\ Rabs (valR (sqrt s) - R_sqrt.sqrt S) <= 2060 / 1000000000 * R_sqrt.sqrt S.
Proof.
  intros F HS D. pose proof (Rabs_le_inv _ _ D) as D'. pose proof b126_small. assert (N : is_normal s) by (apply normal_ge with (/ 4); auto; lra).
  destruct (sqrt_accurate s N ltac:(lra)) as (Fq & Aq). split; [exact Fq|]. change (bpow radix2 (-19)) with (/ 524288) in Aq.
  assert (PS : 0 < R_sqrt.sqrt S) by (apply sqrt_lt_R0; lra). assert (Ps : 0 < R_sqrt.sqrt (valR s)) by (apply sqrt_lt_R0; lra).
  assert (ES : R_sqrt.sqrt S * R_sqrt.sqrt S = S) by (apply sqrt_sqrt; lra). assert (Es : R_sqrt.sqrt (valR s) * R_sqrt.sqrt (valR s) = valR s) by (apply sqrt_sqrt; lra).
  set (rS := R_sqrt.sqrt S) in *. set (rs := R_sqrt.sqrt (valR s)) in *. set (q := valR (sqrt s)) in *. clearbody rS rs q.
  assert (K : Rabs (rs - rS) <= 150 / 1000000000 * rS). { apply Rmult_le_reg_r with (rs + rS); [lra|]. rewrite <- (Rabs_pos_eq (rs + rS)) at 1 by lra. rewrite <- Rabs_mult. replace ((rs - rS) * (rs + rS)) with (valR s - S) by (rewrite <- Es, <- ES; ring). eapply Rle_trans; [exact D|]. rewrite <- ES. nra. }
  replace (q - rS) with ((q - rs) + (rs - rS)) by ring. eapply Rle_trans; [apply Rabs_triang|]. apply Rabs_le_inv in K. assert (rs <= (1 + 150 / 1000000000) * rS) by lra.
  assert (Rabs (rs - rS) <= 150 / 1000000000 * rS) by (apply Rabs_le; lra). lra.
Qed.
Lemma sum_root x s S : finite x -> 0 <= valR x <= bpow radix2 62 -> finite s -> / 2 <= S -> S <= 2 * bpow radix2 124 -> Rabs (valR s - S) <= 150 / 1000000000 * S ->
  finite (flog (x + sqrt s)%b32) /\ Rabs (valR (flog (x + sqrt s)%b32) - ln (valR x + R_sqrt.sqrt S)) <= 952 / 1000000000 * Rabs (ln (valR x + R_sqrt.sqrt S)) + 2150 / 1000000000.
Proof.
  intros F HX Fs HS HS2 D. destruct (sqrt_near s S Fs HS D) as (Fq & Aq). set (q := sqrt s) in *.
  assert (RS : R_sqrt.sqrt S <= 2 * bpow radix2 62). { rewrite <- (sqrt_square (2 * bpow radix2 62)) by (pose proof (bp 62); lra). apply sqrt_le_1_alt. replace (2 * bpow radix2 62 * (2 * bpow radix2 62)) with (4 * (bpow radix2 62 * bpow radix2 62)) by ring. rewrite <- bpow_plus. pose proof (bp (62 + 62)). change (62 + 62)%Z with 124%Z in *. lra. }
  assert (R0 : 7 / 10 <= R_sqrt.sqrt S). { rewrite <- (sqrt_square (7 / 10)) by lra. apply sqrt_le_1_alt. lra. }
  set (r := R_sqrt.sqrt S) in *. clearbody r. pose proof (Rabs_le_inv _ _ Aq) as Aq'. pose proof (bp 62) as P62.
  assert (BG : 4 * bpow radix2 62 <= big). { replace (4 * bpow radix2 62) with (bpow radix2 2 * bpow radix2 62) by reflexivity. rewrite <- bpow_plus. apply bpow_le. lia. }
  destruct (plus_R x q F Fq) as (Fy & Vy). { rewrite Rabs_pos_eq by lra. lra. } pose proof (plus_rel x q) as PR. rewrite u32_val, (Rabs_pos_eq (valR x + valR q)), <- Vy in PR by lra.
  set (y := (x + q)%b32) in *. assert (DY : Rabs (valR y - (valR x + r)) <= 2130 / 1000000000 * (valR x + r)). { replace (valR y - (valR x + r)) with ((valR y - (valR x + valR q)) + (valR q - r)) by ring. eapply Rle_trans; [apply Rabs_triang|]. lra. }
  destruct (flog_near y (valR x + r) (2130 / 1000000000)) as (Fl & Al); [|lra|exact DY|lra|].
  - apply normal_ge with (/ 2); [exact Fy|apply Rabs_le_inv in DY; lra|pose proof b126_small; lra].
  - split; [exact Fl|]. lra.
Qed.
Lemma square_err x : finite x -> 0 <= valR x <= bpow radix2 62 -> finite (x * x)%b32 /\ Rabs (valR (x * x)%b32 - valR x * valR x) <= / 16777216 * (valR x * valR x) + tiny /\ valR x * valR x <= bpow radix2 124 /\ valR (x * x)%b32 = rnd (valR x * valR x).
Proof.
  intros F H. assert (B : valR x * valR x <= bpow radix2 124). { change 124%Z with (62 + 62)%Z. rewrite bpow_plus. apply Rmult_le_compat; lra. }
  assert (0 <= valR x * valR x) by (apply Rmult_le_pos; lra). destruct (mult_R x x F F) as (Fm & Vm). { rewrite Rabs_pos_eq by lra. eapply Rle_trans; [exact B|apply bpow_le; lia]. }
  split; [exact Fm|]. split; [|auto]. rewrite Vm. pose proof (rnd_err (valR x * valR x)) as RE. rewrite u32_val, (Rabs_pos_eq (valR x * valR x)) in RE by lra. pose proof tiny_ok. lra.
Qed.
Lemma asinh_accurate x a : finite x -> 0 <= valR x <= bpow radix2 62 -> valR x = sinh a -> finite (asinh x) /\ Rabs (valR (asinh x) - a) <= bpow radix2 (-20) * Rabs a + bpow radix2 (-18).
Proof.
  intros F H E. destruct (square_err x F H) as (Fm & Em & B & _). destruct one_R as (F1 & V1). set (m := (x * x)%b32) in *. unfold tiny in Em.
  assert (0 <= valR x * valR x) by (apply Rmult_le_pos; lra). pose proof (Rabs_le_inv _ _ Em) as Em'. assert (B1 : 1 <= bpow radix2 124) by (apply (bpow_le radix2 0); lia).
  assert (BG : big = 8 * bpow radix2 124) by (change big with (bpow radix2 (3 + 124)); rewrite bpow_plus; reflexivity).
  destruct (plus_R m (flit 1 1) Fm F1) as (Fs & Vs). { rewrite V1. apply Rabs_le. lra. } pose proof (plus_rel m (flit 1 1)) as PR. rewrite V1, u32_val, <- V1, <- Vs, V1 in PR. 
  set (s := (m + flit 1 1)%b32) in *. set (S := valR x * valR x + 1).
  destruct (sum_root x s S F H Fs) as (Fl & Al); [unfold S; lra|unfold S; lra| |].
  - assert (Rabs (valR m + 1) <= (1 + / 1000000) * S) by (apply Rabs_le; unfold S; lra). replace (valR s - S) with ((valR s - (valR m + 1)) + (valR m - valR x * valR x)) by (unfold S; ring). eapply Rle_trans; [apply Rabs_triang|]. unfold S in *. lra.
  - assert (EA : ln (valR x + R_sqrt.sqrt S) = a). { rewrite <- (arcsinh_sinh a), <- E. unfold arcsinh, S. do 3 f_equal. ring. } rewrite EA in Al.
    split; [exact Fl|]. eapply Rle_trans; [exact Al|]. change (bpow radix2 (-20)) with (/ 1048576). change (bpow radix2 (-18)) with (/ 262144). pose proof (Rabs_pos a). lra.
Qed.
Lemma acosh_real a : 0 <= a -> ln (cosh a + R_sqrt.sqrt (cosh a * cosh a - 1)) = a /\ 1 <= cosh a.
Proof.
  intros H. unfold cosh. pose proof (exp_pos a) as P. pose proof (exp_pos (- a)) as Q. assert (L : exp (- a) <= exp a). { destruct (Req_dec a 0) as [->|]; [rewrite Ropp_0; lra|]. left. apply exp_increasing. lra. }
  assert (EF : exp a * exp (- a) = 1) by (rewrite <- exp_plus, Rplus_opp_r; apply exp_0). assert (LE : ln (exp a) = a) by apply ln_exp. set (e := exp a) in *. set (f := exp (- a)) in *. clearbody e f.
  replace ((e + f) / 2 * ((e + f) / 2) - 1) with ((e + f) / 2 * ((e + f) / 2) - e * f) by (rewrite EF; reflexivity). replace ((e + f) / 2 * ((e + f) / 2) - e * f) with ((e - f) / 2 * ((e - f) / 2)) by field. rewrite sqrt_square by lra. split; [rewrite <- LE; f_equal; field|]. nra.
Qed.
Lemma acosh_test x : finite x -> 1 <= valR x -> acosh x = flog (x + sqrt ((x * x) - flit 1 1))%b32.
Proof. intros F H. destruct one_R as (F1 & V1). unfold acosh. destruct (lt_dec x (flit 1 1) F F1) as [(_ & B)|(E & _)]; [lra|]. rewrite E. reflexivity. Qed.
Lemma acosh_far x a : finite x -> 2 <= valR x <= bpow radix2 62 -> 0 <= a -> valR x = cosh a -> finite (acosh x) /\ Rabs (valR (acosh x) - a) <= bpow radix2 (-20) * Rabs a + bpow radix2 (-18).
Proof.
  intros F H PA E. rewrite acosh_test by (auto; lra). destruct (square_err x F ltac:(lra)) as (Fm & Em & B & _). destruct one_R as (F1 & V1). set (m := (x * x)%b32) in *. unfold tiny in Em.
  assert (4 <= valR x * valR x) by nra. pose proof (Rabs_le_inv _ _ Em) as Em'. assert (B1 : 1 <= bpow radix2 124) by (apply (bpow_le radix2 0); lia).
  assert (BG : big = 8 * bpow radix2 124) by (change big with (bpow radix2 (3 + 124)); rewrite bpow_plus; reflexivity).
  destruct (minus_R m (flit 1 1) Fm F1) as (Fs & Vs). { rewrite V1. apply Rabs_le. lra. } pose proof (fmt_sub_rel (valR m) 1 (format_val m) fmt_1) as PR. rewrite V1 in Vs. rewrite u32_val, <- Vs in PR. 
  set (s := (m - flit 1 1)%b32) in *. set (S := valR x * valR x - 1).
  destruct (sum_root x s S F ltac:(lra) Fs) as (Fl & Al); [unfold S; lra|unfold S; lra| |].
  - assert (Rabs (valR m - 1) <= (1 + / 1000000) * S) by (apply Rabs_le; unfold S; lra). replace (valR s - S) with ((valR s - (valR m - 1)) + (valR m - valR x * valR x)) by (unfold S; ring). eapply Rle_trans; [apply Rabs_triang|]. unfold S in *. lra.
  - assert (EA : ln (valR x + R_sqrt.sqrt S) = a). { unfold S. rewrite E. apply acosh_real. exact PA. } rewrite EA in Al.
    split; [exact Fl|]. eapply Rle_trans; [exact Al|]. change (bpow radix2 (-20)) with (/ 1048576). change (bpow radix2 (-18)) with (/ 262144). pose proof (Rabs_pos a). lra.
Qed.
Lemma sqrt_diff a b e : 0 <= a -> 0 <= b -> 0 <= e -> Rabs (a - b) <= e * e -> Rabs (R_sqrt.sqrt a - R_sqrt.sqrt b) <= e.
Proof.
  intros Ha Hb He H. pose proof (sqrt_pos a). pose proof (sqrt_pos b). pose proof (sqrt_sqrt a Ha) as A. pose proof (sqrt_sqrt b Hb) as B. set (p := R_sqrt.sqrt a) in *. set (q := R_sqrt.sqrt b) in *. clearbody p q. subst a b.
  apply Rabs_le_inv in H. apply Rabs_le. split; nra.
Qed.
Lemma acosh_close x a : finite x -> 1 <= valR x < 2 -> 0 <= a -> valR x = cosh a -> finite (acosh x) /\ Rabs (valR (acosh x) - a) <= bpow radix2 (-10).
Proof.
  intros F H PA E. rewrite acosh_test by (auto; lra). assert (B62 : 2 <= bpow radix2 62) by (apply (bpow_le radix2 1); lia).
  destruct (square_err x F ltac:(lra)) as (Fm & Em & B & Rm). destruct one_R as (F1 & V1). set (m := (x * x)%b32) in *. unfold tiny in Em.
  assert (X2 : 1 <= valR x * valR x <= 4) by nra. pose proof (Rabs_le_inv _ _ Em) as Em'. assert (BG : 1000 <= big) by apply big1.
  assert (M1 : 1 <= valR m). { rewrite Rm, <- rnd_1. apply rnd_le. lra. }
  destruct (minus_R m (flit 1 1) Fm F1) as (Fs & Vs). { rewrite V1. apply Rabs_le. lra. } pose proof (fmt_sub_rel (valR m) 1 (format_val m) fmt_1) as PR. rewrite V1 in Vs. rewrite u32_val, <- Vs, (Rabs_pos_eq (valR m - 1)) in PR by lra.
  set (s := (m - flit 1 1)%b32) in *. set (S := valR x * valR x - 1).
  assert (DS : Rabs (valR s - S) <= 65 / 100000 * (65 / 100000)). { replace (valR s - S) with ((valR s - (valR m - 1)) + (valR m - valR x * valR x)) by (unfold S; ring). eapply Rle_trans; [apply Rabs_triang|]. lra. }
  assert (S0 : 0 <= valR s <= 31 / 10). { split; [rewrite Vs; apply rnd_nonneg; lra|]. apply Rabs_le_inv in DS. unfold S in *. lra. }
  assert (SQ : finite (sqrt s) /\ Rabs (valR (sqrt s) - R_sqrt.sqrt (valR s)) <= / 524288 * 2).
  { destruct (Req_dec (valR s) 0) as [Z|NZ].
    - destruct (sqrt_special s) as (Q & _). rewrite Q by (split; auto). rewrite Z, sqrt_0. assert (V0 : finite (flit 0 1) /\ valR (flit 0 1) = 0) by cst. destruct V0 as (F0 & V0). split; [exact F0|]. rewrite V0, Rminus_0_r, Rabs_R0. lra.
    - assert (NS : is_normal s). 
      { apply normal_ge with (/ 8388608); [exact Fs| |pose proof b126_small; lra].
        destruct (Req_dec (valR m) 1) as [Z1|N1]; [exfalso; apply NZ; rewrite Vs, Z1, Rminus_diag_eq, rnd_0; auto|].
        assert (ML : 1 + / 8388608 <= valR m). { destruct (Rle_or_lt (1 + / 8388608) (valR m)) as [K|K]; auto. exfalso.
          set (y := ofU 1065353217). assert (Vy : finite y /\ valR y = 1 + / 8388608) by cst. set (z := ofU 1065353216). assert (Vz : finite z /\ valR z = 1) by cst. destruct Vy as (Fy & Vy). destruct Vz as (Fz & Vz).
          assert (NN : forall z, finite z -> is_nan 24 128 z = false) by (intros []; auto; discriminate).
          assert (K1 : (key m < key y)%Z) by (apply key_lt; auto; rewrite !ext32_finite by auto; lra).
          assert (K2 : (key z < key m)%Z) by (apply key_lt; auto; rewrite !ext32_finite by auto; lra).
          assert (key y = key z + 1)%Z by (vm_compute; reflexivity). lia. }
        rewrite Vs. change (/ 8388608) with (bpow radix2 (-23)). rewrite <- (rnd_bpow (-23)) by lia. apply rnd_le. change (bpow radix2 (-23)) with (/ 8388608). lra. }
      destruct (sqrt_accurate s NS ltac:(lra)) as (Fq & Aq). split; [exact Fq|]. change (bpow radix2 (-19)) with (/ 524288) in Aq.
      assert (R_sqrt.sqrt (valR s) <= 2). { rewrite <- (sqrt_square 2) by lra. apply sqrt_le_1_alt. lra. } lra. }
  destruct SQ as (Fq & Aq). pose proof (sqrt_diff (valR s) S (65 / 100000) ltac:(lra) ltac:(unfold S; lra) ltac:(lra) DS) as DR. set (q := sqrt s) in *.
  assert (QR : Rabs (valR q - R_sqrt.sqrt S) <= 654 / 1000000). { replace (valR q - R_sqrt.sqrt S) with ((valR q - R_sqrt.sqrt (valR s)) + (R_sqrt.sqrt (valR s) - R_sqrt.sqrt S)) by ring. eapply Rle_trans; [apply Rabs_triang|]. lra. }
  assert (R2 : 0 <= R_sqrt.sqrt S <= 2). { split; [apply sqrt_pos|]. rewrite <- (sqrt_square 2) by lra. apply sqrt_le_1_alt. unfold S. lra. }
  set (r := R_sqrt.sqrt S) in *. pose proof (Rabs_le_inv _ _ QR) as QR'.
  destruct (plus_R x q F Fq) as (Fy & Vy). { apply Rabs_le. lra. } pose proof (plus_rel x q) as PR2. rewrite u32_val, <- Vy, (Rabs_pos_eq (valR x + valR q)) in PR2 by lra.
  set (y := (x + q)%b32) in *. assert (DY : Rabs (valR y - (valR x + r)) <= 66 / 100000 * (valR x + r)). { replace (valR y - (valR x + r)) with ((valR y - (valR x + valR q)) + (valR q - r)) by ring. eapply Rle_trans; [apply Rabs_triang|]. lra. }
  destruct (flog_near y (valR x + r) (66 / 100000)) as (Fl & Al); [|lra|exact DY|lra|].
  - apply normal_ge with (/ 2); [exact Fy|apply Rabs_le_inv in DY; lra|pose proof b126_small; lra].
  - assert (EA : ln (valR x + r) = a). { unfold r, S. rewrite E. apply acosh_real. exact PA. }
    assert (AB : 0 <= ln (valR x + r) <= 3). { split; [rewrite <- ln_1; apply Rcomplements.ln_le; lra|]. rewrite <- (ln_exp 3). apply Rcomplements.ln_le; [lra|]. pose proof (exp_ineq1_le 3). lra. }
    rewrite (Rabs_pos_eq (ln (valR x + r))) in Al by lra. rewrite EA in *. split; [exact Fl|]. change (bpow radix2 (-10)) with (/ 1024). lra.
Qed.
