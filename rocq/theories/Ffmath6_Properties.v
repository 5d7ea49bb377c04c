(** factorial, the gamma functions and beta: C101-C104; the Laguerre polynomials in between: C98. *)
From Coq Require Import ZArith Reals Lra Lia Psatz Bool List.
From Flocq Require Import Core IEEE754.BinarySingleNaN IEEE754.Binary IEEE754.Bits.
From Verif Require Import Base Arith Ext32 Ffmath_Model Ffmath2_Model Ffmath3_Model Ffmath_Spec Ffmath_Proofs2 Ffmath_Proofs3 Float32 Ffmath_Proofs8 Ffmath_Proofs12 Ffmath_Proofs14 Ffmath_Proofs16 Poly_Model Poly_Spec Poly_Proofs2.
Import ListNotations.
Open Scope R_scope.

(** ** C101: factorial *)
Theorem C101_factorial : forall x n, finite x -> 0 <= valR x <= 34 -> INR n <= valR x < INR n + 1 ->
  exists y, factorial x = Ok y /\ nearest_float (INR (fact n)) y.
Proof. intros x n F B N. exists (b32_ofZ (zfact n)). apply factorial_ok; auto. unfold is_floor. rewrite <- INR_IZR_INZ. exact N. Qed.
Print Assumptions C101_factorial.
Theorem C101_factorial_outside : forall x,
  (is_nan 24 128 x = true -> factorial x = Ok limNan) /\
  (is_nan 24 128 x = false -> ext32 x < 0 -> factorial x = Ok limNan) /\
  (is_nan 24 128 x = false -> 34 < ext32 x -> factorial x = Ok (B754_infinity 24 128 false)).
Proof.
  intros x. destruct c34 as (F34 & V34). destruct c0 as (F0 & V0). unfold factorial. split; [|split].
  - intros H. rewrite lt_nan_r, le_nan by exact H. reflexivity.
  - intros H N. destruct (b32_lt (flit 34 1) x) eqn:E.
    + apply b32_lt_ext in E; auto. rewrite ext32_finite, V34 in E by auto. lra.
    + destruct (b32_le (flit 0 1) x) eqn:E2; [|reflexivity]. apply b32_le_ext in E2; auto. rewrite ext32_finite, V0 in E2 by auto. lra.
  - intros H N. replace (b32_lt (flit 34 1) x) with true; [reflexivity|]. symmetry. apply b32_lt_ext; auto. rewrite ext32_finite, V34 by auto. exact N.
Qed.
Print Assumptions C101_factorial_outside.
Example C101_nonvacuous : finite (flit 21 2) /\ valR (flit 21 2) = 21 / 2 /\ exists y, factorial (flit 21 2) = Ok y /\ nearest_float (INR (fact 10)) y.
Proof.
  assert (K : finite (flit 21 2) /\ valR (flit 21 2) = 21 / 2) by cst. destruct K as (F & V). split; auto. split; auto. apply C101_factorial; auto; rewrite V; [lra|]. replace (INR 10) with 10 by (cbn; ring). lra.
Qed.

(** ** C102: tgamma *)
(** The functional equation holds to the last bit. *)
Theorem C102_functional_equation : forall x y, finite x -> finite y -> 1 <= valR x < 11 -> valR y = valR x + 1 ->
  exists r, tgamma x = Ok r /\ tgamma y = Ok (r * x)%b32.
Proof. exact tgamma_step. Qed.
Print Assumptions C102_functional_equation.
Theorem C102_below_one : forall x y, finite x -> finite y -> / 8388608 <= valR x < 1 -> valR y = valR x + 1 ->
  exists r, tgamma y = Ok r /\ tgamma x = Ok (r / x)%b32.
Proof. exact tgamma_below. Qed.
Print Assumptions C102_below_one.
Theorem C102_factorials : forall n x, (n <= 10)%nat -> finite x -> valR x = INR (S n) -> exists r, tgamma x = Ok r /\ finite r /\ valR r = INR (fact n).
Proof.
  intros n x H F V. assert (L : (Z.of_nat (S n) < 2 ^ 24)%Z) by (apply Z.lt_trans with 12%Z; [lia|reflexivity]). destruct (ofZ_R (Z.of_nat (S n))) as (Fz & Vz); [rewrite Z.abs_eq by lia; exact L|].
  assert (x = b32_ofZ (Z.of_nat (S n))) as ->. { apply val_inj; auto; rewrite V; [rewrite Vz, <- INR_IZR_INZ; reflexivity|]. apply not_0_INR. lia. }
  exists (b32_ofZ (zfact n)). split; [apply tgamma_factorial; exact H|]. rewrite <- zfact_R. apply ofZ_R.
  do 11 (destruct n as [|n]; [reflexivity|]). lia.
Qed.
Print Assumptions C102_factorials.
Theorem C102_special : forall x,
  (is_nan 24 128 x = true -> tgamma x = Ok limNan) /\
  (is_zero x -> tgamma x = Ok (B754_infinity 24 128 false)) /\
  tgamma (B754_infinity 24 128 false) = Ok (B754_infinity 24 128 false) /\
  tgamma (B754_infinity 24 128 true) = Ok limNan /\
  (forall n, finite x -> valR x = IZR n -> (n < 0)%Z -> tgamma x = Ok limNan) /\
  (finite x -> 1716241 / 10000 <= valR x -> tgamma x = Ok (B754_infinity 24 128 false)).
Proof.
  intros x. split; [|split; [|split; [|split; [|split]]]].
  - intros H. assert (C : classify x = FFP_NAN) by (apply classify_ok; exact H). unfold tgamma. rewrite C. reflexivity.
  - intros H. assert (C : classify x = FFP_ZERO) by (apply classify_ok; exact H). unfold tgamma. rewrite C. reflexivity.
  - reflexivity.
  - reflexivity.
  - intros n. apply tgamma_pole.
  - intros F B. destruct cBig as (FB & VB). destruct c1 as (F1 & V1). destruct c12 as (F12 & V12). destruct cEps as (Fe & Ve). pose proof min_1. rewrite tgamma_positive by (auto; lra). unfold tgamma_pos.
    rewrite (lt_f x limEps), (lt_f x (flit 12 1)), (le_f x xBig) by (auto; lra). reflexivity.
Qed.
Print Assumptions C102_special.
Example C102_nonvacuous : exists x y, finite x /\ finite y /\ valR x = 7 / 2 /\ valR y = valR x + 1.
Proof. exists (flit 7 2), (flit 9 2). assert (K1 : finite (flit 7 2) /\ valR (flit 7 2) = 7 / 2) by cst. assert (K2 : finite (flit 9 2) /\ valR (flit 9 2) = 9 / 2) by cst. destruct K1 as (? & V1), K2 as (? & V2). split; auto. split; auto. split; auto. lra. Qed.

(** ** C103: lgamma *)
Theorem C103_special : forall x,
  (is_nan 24 128 x = true -> lgamma x = limNan) /\
  (is_infinity x -> lgamma x = B754_infinity 24 128 false) /\
  (forall n, finite x -> valR x = IZR n -> (n <= 0)%Z -> lgamma x = B754_infinity 24 128 false) /\
  (finite x -> valR x = 1 \/ valR x = 2 -> is_zero (lgamma x)).
Proof.
  intros x. split; [|split; [|split]].
  - intros H. assert (C : classify x = FFP_NAN) by (apply classify_ok; exact H). unfold lgamma. rewrite C. reflexivity.
  - intros H. assert (C : classify x = FFP_INFINITE) by (apply classify_ok; exact H). unfold lgamma. rewrite C. reflexivity.
  - intros n. exact (lgamma_pole x n).
  - intros F V. assert (K1 : finite (flit 1 1) /\ valR (flit 1 1) = 1) by cst. assert (K2 : finite (flit 2 1) /\ valR (flit 2 1) = 2) by cst. destruct K1 as (F1 & V1), K2 as (F2 & V2).
    destruct V as [V|V]; [replace x with (flit 1 1) by (apply val_inj; auto; lra)|replace x with (flit 2 1) by (apply val_inj; auto; lra)]; (split; [vm_compute; reflexivity|vm_compute; reflexivity]).
Qed.
Print Assumptions C103_special.

Lemma ln_fact_bound k : ln (INR (fact k)) <= INR k * INR k.
Proof.
  induction k as [|k IH]; [cbn [fact INR]; rewrite ln_1; lra|]. rewrite fact_simpl, mult_INR, ln_mult by (apply lt_0_INR; first [apply lt_O_fact|lia]). pose proof (pos_INR k). rewrite S_INR in *.
  assert (ln (INR k + 1) <= INR k). { destruct (Req_dec (INR k) 0) as [->|N]; [rewrite Rplus_0_l, ln_1; lra|]. rewrite <- (ln_exp (INR k)) at 2. apply Rcomplements.ln_le; [lra|]. left. rewrite Rplus_comm. apply exp_ineq1. lra. }
  nra.
Qed.
(** Above 171.624, the bound beyond which the gamma function itself overflows
    in double precision, the result is infinite although the logarithm is small. *)
Theorem C103_large_refuted : forall x n, finite x -> valR x = INR n -> (172 <= n)%nat ->
  lgamma x = B754_infinity 24 128 false /\ ln (INR (fact (n - 1))) <= INR n * INR n.
Proof.
  intros x n F V H. split.
  - apply lgamma_large; [apply fin_nan; auto|]. rewrite ext32_finite, V by auto. apply le_INR in H. replace (INR 172) with 172 in H by (rewrite INR_IZR_INZ; reflexivity). lra.
  - apply Rle_trans with (1 := ln_fact_bound (n - 1)). pose proof (pos_INR (n - 1)). assert (INR (n - 1) <= INR n) by (apply le_INR; lia). nra.
Qed.
Print Assumptions C103_large_refuted.
Example C103_nonvacuous : exists x, finite x /\ valR x = INR 200.
Proof. exists (flit 200 1). assert (K : finite (flit 200 1) /\ valR (flit 200 1) = 200) by cst. destruct K as (F & V). split; auto. rewrite V, INR_IZR_INZ. reflexivity. Qed.

(** ** C104: beta *)
Theorem C104_symmetric : forall x y, beta x y = beta y x.
Proof. exact beta_comm. Qed.
Print Assumptions C104_symmetric.
Theorem C104_nan : forall x y, is_nan 24 128 x = true \/ is_nan 24 128 y = true -> beta x y = Ok limNan.
Proof. intros x y H. unfold beta. rewrite !isNan_ok. destruct H as [-> | ->]; [|rewrite orb_true_r]; reflexivity. Qed.
Print Assumptions C104_nan.
(** Undefined behaviour (conversion of NaN to int32_t) as soon as one argument
    exceeds 171.624: B(1, 200) = 1/200 cannot be computed. *)
Theorem C104_large_undefined : forall x y, finite x -> finite y -> 0 <= valR x -> 1716241 / 10000 <= valR y -> valR x + valR y <= bpow radix2 127 -> beta x y = Ub /\ beta y x = Ub.
Proof. intros x y Fx Fy Px Py B. assert (K : beta x y = Ub) by (apply beta_undefined; auto). split; [exact K|rewrite beta_comm; exact K]. Qed.
Print Assumptions C104_large_undefined.
Example C104_nonvacuous : beta (flit 1 1) (flit 200 1) = Ub /\ exists r, beta (flit 2 1) (flit 3 1) = Ok r /\ Rabs (valR r - 1 / 12) < 1 / 1000000.
Proof. split; [vm_compute; reflexivity|]. exists (ofU 1034594988). split; [|vm_compute; destruct (Rcase_abs _); lra]. assert (K : match beta (flit 2 1) (flit 3 1) with Ok r => bits_of_b32 r | Ub => (-1)%Z end = 1034594988%Z) by (vm_compute; reflexivity).
  destruct (beta (flit 2 1) (flit 3 1)) as [r|]; [|discriminate K]. f_equal. apply bits_inj. rewrite K. vm_compute. reflexivity. Qed.

(** ** C98, in between: an asymptotic formula for large degrees, at degree 2 *)
Definition large32 (n : nat) (alpha x : binary32) : binary32 := match laguerre_large_n n alpha x with Ok r => r | Ub => limNan end.
Theorem C98_between_refuted : forall o, exists r, laguerre (A := B32 o) large32 2 (lit 1 1) = r /\ finite r /\ laguerre_sum 2 0 1 = - 1 / 2 /\ 4 / 100 < Rabs (valR r - laguerre_sum 2 0 1).
Proof.
  intros o. exists (ofU 3203004659). assert (E : laguerre_sum 2 0 1 = - 1 / 2) by (unfold laguerre_sum, Binomial.C; cbn [sum_f_R0 Nat.sub Nat.add fact Nat.mul INR pow]; field). rewrite E.
  split; [|split; [reflexivity|split; [reflexivity|vm_compute; destruct (Rcase_abs _); lra]]].
  apply bits_inj. vm_compute. reflexivity.
Qed.
Print Assumptions C98_between_refuted.
