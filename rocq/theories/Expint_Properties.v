(** Property theorems of the exponential integral (C114, C115). *)
From Coq Require Import ZArith Reals Lra Lia Bool.
From Flocq Require Import Core IEEE754.Binary IEEE754.Bits.
From Verif Require Import Base Arith Ext32 Bits32 Ffmath_Model Ffmath2_Model Ffmath4_Model Ffmath_Spec Ffmath_Proofs2 Float32 FloatApp Ffmath_Proofs12 Ffmath_Proofs15 Ffmath_Proofs16 Ellint_Proofs3 Expint_Spec Expint_Proofs4 Expint_Proofs7 Expint_Proofs9.
Open Scope R_scope.

(** the float literal 36.044F *)
Definition limit36 : float := ofU 1108356366.

(** ** C114: accuracy for positive arguments below 36.044 *)
Theorem C114_positive : forall x, is_normal x -> 0 < valR x < valR limit36 -> exists r, expint x = Ok r /\ finite r /\
  Rabs (valR r - Ei (valR x)) <= / 32768 * (euler_gamma + Rabs (ln (valR x)) + ei_sum (valR x)).
Proof. intros x N (H & L). apply expint_positive; auto. Qed.
Print Assumptions C114_positive.
Theorem C114_relative : forall x, finite x -> 1 <= valR x < valR limit36 -> exists r, expint x = Ok r /\ finite r /\ Rabs (valR r - Ei (valR x)) <= / 32768 * Ei (valR x).
Proof. intros x F (H & L). apply expint_relative; auto. Qed.
Print Assumptions C114_relative.
(** the function of the specification is the exponential integral: its derivative is exp(x)/x *)
Theorem C114_spec_derivative : forall x, x <> 0 -> derivable_pt_lim Ei x (exp x / x).
Proof. exact Ei_derivable. Qed.
Print Assumptions C114_spec_derivative.
Example C114_nonvacuous : is_normal (flit 5 1) /\ 1 <= valR (flit 5 1) < valR limit36 /\ 36 < valR limit36.
Proof.
  assert (K : finite (flit 5 1) /\ valR (flit 5 1) = 5) by cst. destruct K as (F & V). destruct lim_val as (_ & L). unfold limit36. split; [|lra].
  apply (normal_ge (flit 5 1) 1); [exact F|lra|]. change 1 with (bpow radix2 0). apply bpow_le. lia.
Qed.

(** ** C115: special arguments and deviations *)
Theorem C115_special : forall x,
  (is_nan 24 128 x = true -> exists r, expint x = Ok r /\ is_nan 24 128 r = true) /\
  (is_zero x -> expint x = Ok (B754_infinity 24 128 true)) /\
  (is_nan 24 128 x = false -> ext32 x <= -100 -> exists r, expint x = Ok r /\ is_zero r) /\
  (finite x -> 89 <= valR x -> expint x = Ok (B754_infinity 24 128 false)).
Proof.
  intros x. split; [intros N; exists limNan; unfold expint; rewrite isNan_ok, N; split; reflexivity|]. split; [apply expint_zero|]. split; [apply expint_far|].
  intros F H. rewrite (expint_over x F H). f_equal.
Qed.
Print Assumptions C115_special.
(** from 36.044 on only the first term of the expansion is used: exp(x)/x, which is more than one percent too small *)
Theorem C115_large_refuted : forall x, finite x -> valR limit36 <= valR x <= 88 -> exists r, expint x = Ok r /\ finite r /\
  Rabs (valR r - exp (valR x) / valR x) <= 12 / 1000000 * (exp (valR x) / valR x) /\ 89 / 100 * Ei (valR x) <= valR r <= 99 / 100 * Ei (valR x).
Proof.
  intros x F H. destruct (expint_low x F H) as (r & E & Fr & B). destruct (expint_lead x F H) as (r2 & E2 & _ & B2). rewrite E in E2. injection E2 as <-. exists r. split; [exact E|]. split; [exact Fr|]. split; [apply Rabs_le; lra|exact B].
Qed.
Print Assumptions C115_large_refuted.
(** the result falls from one float to the next at 36.044, although Ei increases *)
Theorem C115_monotone_refuted : exists x y r s, finite x /\ finite y /\ 1 < valR x < valR y /\ expint x = Ok r /\ expint y = Ok s /\ finite r /\ finite s /\ valR s < 98 / 100 * valR r.
Proof.
  set (x := ofU 1108356365). set (y := limit36). assert (Vx : finite x /\ valR x = 9448717 / 262144) by cst. assert (Vy : finite y /\ valR y = 9448718 / 262144) by cst. destruct Vx as (Fx & Vx). destruct Vy as (Fy & Vy).
  destruct (C114_relative x Fx) as (r & E & Fr & B). { fold y. lra. } destruct (C115_large_refuted y Fy) as (s & E2 & Fs & B2 & _). { fold y. lra. }
  exists x, y, r, s. split; [exact Fx|]. split; [exact Fy|]. split; [lra|]. split; [exact E|]. split; [exact E2|]. split; [exact Fr|]. split; [exact Fs|].
  apply Rabs_le_inv in B. apply Rabs_le_inv in B2. destruct (Ei_large (valR x) ltac:(lra)) as (L & _).
  assert (Ex : exp (valR y) <= 100001 / 100000 * exp (valR x)).
  { replace (valR y) with (valR x + 1 / 262144) by lra. rewrite exp_plus. rewrite Rmult_comm. apply Rmult_le_compat_r; [left; apply exp_pos|].
    assert (I : 999995 / 1000000 <= exp (- (1 / 262144))) by (pose proof (exp_ineq1_le (- (1 / 262144))); lra). rewrite exp_Ropp in I. pose proof (exp_pos (1 / 262144)) as Pe. set (w := exp (1 / 262144)) in *.
    assert (J : w * / w = 1) by (field; lra). clearbody w. set (v := / w) in *. clearbody v. assert (w * (999995 / 1000000) <= w * v) by (apply Rmult_le_compat_l; lra). lra. }
  assert (I0 : / valR y <= / valR x) by (apply Rinv_le_contravar; lra). assert (I2 : / 37 <= / valR x) by (apply Rinv_le_contravar; lra).
  pose proof (exp_pos (valR x)) as Px. unfold Rdiv in *. set (q := exp (valR x) * / valR x) in *. assert (Q : 0 < q) by (unfold q; apply Rmult_lt_0_compat; lra).
  assert (Q2 : exp (valR y) * / valR y <= 100001 * / 100000 * q). { unfold q. rewrite <- Rmult_assoc. apply Rmult_le_compat; try lra. - left. apply exp_pos. - left. apply Rinv_0_lt_compat. lra. }
  assert (Q3 : q * (1 + / 37) <= q * (1 + / valR x)) by (apply Rmult_le_compat_l; lra). lra.
Qed.
Print Assumptions C115_monotone_refuted.
(** on (-1, 0) the sign is wrong: the result approximates -Ei(x) = E1(-x), a positive number *)
Theorem C115_sign_refuted : forall x, is_normal x -> -1 < valR x < 0 -> exists r, expint x = Ok r /\ finite r /\
  Rabs (valR r - - Ei (valR x)) <= / 100000 * (1 + Rabs (ln (Rabs (valR x)))) /\ 0 < valR r /\ Ei (valR x) < 0.
Proof.
  intros x N H. destruct (expint_unit_neg x N H) as (r & E & F & B). destruct (expint_wrong_sign x N H) as (r2 & E2 & _ & B2). rewrite E in E2. injection E2 as <-. exists r. split; [exact E|]. split; [exact F|]. split; [|exact B2].
  replace (valR r - - Ei (valR x)) with (valR r + Ei (valR x)) by ring. exact B.
Qed.
Print Assumptions C115_sign_refuted.
Theorem C115_infinity_refuted : exists r, expint (B754_infinity 24 128 false) = Ok r /\ is_nan 24 128 r = true.
Proof. exact expint_inf. Qed.
Print Assumptions C115_infinity_refuted.
Example C115_nonvacuous : (finite (flit 50 1) /\ valR limit36 <= valR (flit 50 1) <= 88) /\ (is_normal (flit (-1) 2) /\ -1 < valR (flit (-1) 2) < 0).
Proof.
  assert (K : finite (flit 50 1) /\ valR (flit 50 1) = 50) by cst. destruct K as (F & V). destruct lim_val as (_ & L). assert (K2 : finite (flit (-1) 2) /\ valR (flit (-1) 2) = - / 2) by cst. destruct K2 as (F2 & V2).
  split; [split; [exact F|unfold limit36; lra]|]. split; [|lra]. split; [exact F2|]. rewrite V2, Rabs_Ropp, Rabs_pos_eq by lra. change (/ 2) with (bpow radix2 (-1)). apply bpow_le. lia.
Qed.
