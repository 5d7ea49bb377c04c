(** Property theorems of the elliptic integrals (C112, C113). *)
From Coq Require Import ZArith Reals Lra Lia Bool.
From Flocq Require Import Core IEEE754.Binary IEEE754.Bits.
From Verif Require Import Base Arith Ext32 Bits32 Ffmath_Model Ffmath2_Model Ffmath4_Model Ffmath_Spec Float32 Ffmath_Proofs12 Ffmath_Proofs16 FloatApp Ellint_Spec Ellint_Proofs5 Ellint_Proofs6.
Open Scope R_scope.

(** ** C112: the complete integral of the first kind *)
Theorem C112_complete_first : forall k, finite k -> Rabs (valR k) < 1 ->
  finite (comp_ellint_1 k) /\
  Rabs (valR (comp_ellint_1 k) - complete_first_kind (valR k)) <= (/ 16384 + / 16777216 / (1 - valR k * valR k)) * complete_first_kind (valR k).
Proof. exact comp_ellint_1_ok. Qed.
Print Assumptions C112_complete_first.
Theorem C112_domain : forall k, is_nan 24 128 k = true \/ 1 <= Rabs (ext32 k) -> is_nan 24 128 (comp_ellint_1 k) = true.
Proof. intros k H. rewrite comp1_domain by exact H. reflexivity. Qed.
Print Assumptions C112_domain.
Example C112_nonvacuous : finite (flit 1 2) /\ Rabs (valR (flit 1 2)) < 1 /\
  Rabs (valR (comp_ellint_1 (flit 1 2)) - complete_first_kind (/ 2)) <= (/ 16384 + / 16777216 / (1 - / 2 * / 2)) * complete_first_kind (/ 2).
Proof.
  assert (K : finite (flit 1 2) /\ valR (flit 1 2) = / 2) by cst. destruct K as (F & V). split; [exact F|]. rewrite V. split; [rewrite Rabs_pos_eq; lra|].
  rewrite <- V. apply C112_complete_first; [exact F|]. rewrite V, Rabs_pos_eq; lra.
Qed.

(** ** C113: symmetry, domain and end points of all six functions *)
Theorem C113_even : forall k nu phi,
  comp_ellint_1 (- k)%b32 = comp_ellint_1 k /\ comp_ellint_2 (- k)%b32 = comp_ellint_2 k /\ comp_ellint_3 (- k)%b32 nu = comp_ellint_3 k nu /\
  ellint_1 (- k)%b32 phi = ellint_1 k phi /\ ellint_2 (- k)%b32 phi = ellint_2 k phi /\ ellint_3 (- k)%b32 nu phi = ellint_3 k nu phi.
Proof. intros. split; [apply comp1_even|]. split; [apply comp2_even|]. split; [apply comp3_even|]. split; [apply inc1_even|]. split; [apply inc2_even|apply inc3_even]. Qed.
Print Assumptions C113_even.
(** a result that is not a number, without undefined behaviour *)
Definition refused (r : res float) : Prop := exists y, r = Ok y /\ is_nan 24 128 y = true.
Theorem C113_complete_domain : forall k nu,
  (is_nan 24 128 k = true \/ 1 < Rabs (ext32 k) -> is_nan 24 128 (comp_ellint_2 k) = true /\ is_nan 24 128 (comp_ellint_3 k nu) = true) /\
  (is_nan 24 128 nu = true \/ 1 < ext32 nu -> is_nan 24 128 (comp_ellint_3 k nu) = true).
Proof.
  intros k nu. split.
  - intros H. rewrite comp2_domain by exact H. rewrite comp3_domain by tauto. split; reflexivity.
  - intros H. destruct (is_nan 24 128 nu) eqn:N; [rewrite comp3_domain by tauto; reflexivity|]. destruct H as [H|H]; [discriminate|]. apply comp3_nu_large; auto.
Qed.
Print Assumptions C113_complete_domain.
Theorem C113_incomplete_domain : forall k nu phi,
  (is_nan 24 128 k = true \/ is_nan 24 128 phi = true \/ 1 < Rabs (ext32 k) -> refused (ellint_1 k phi) /\ refused (ellint_2 k phi) /\ refused (ellint_3 k nu phi)) /\
  (is_nan 24 128 nu = true -> refused (ellint_3 k nu phi)).
Proof.
  intros k nu phi. split.
  - intros H. rewrite inc1_domain, inc2_domain by exact H. rewrite inc3_domain by tauto. repeat split; exists limNan; split; reflexivity.
  - intros H. rewrite inc3_domain by tauto. exists limNan. split; reflexivity.
Qed.
Print Assumptions C113_incomplete_domain.
Theorem C113_end_points : forall k nu, is_nan 24 128 k = false ->
  (Rabs (ext32 k) = 1 -> comp_ellint_2 k = flit 1 1) /\
  (Rabs (ext32 k) <= 1 -> comp_ellint_3 k (flit 1 1) = limInf) /\
  (Rabs (ext32 k) = 1 -> ext32 nu <> 1 -> is_nan 24 128 (comp_ellint_3 k nu) = true).
Proof. intros k nu N. split; [intros H; apply comp2_one; auto|]. split; [intros H; apply comp3_nu1; auto|]. intros H H2. apply comp3_k1; auto. Qed.
Print Assumptions C113_end_points.
Example C113_nonvacuous : is_nan 24 128 (flit 1 1) = false /\ Rabs (ext32 (flit 1 1)) = 1 /\ ext32 (flit 2 1) <> 1 /\ 1 < Rabs (ext32 (flit 2 1)).
Proof.
  destruct one_ext as (N & V). assert (K : finite (flit 2 1) /\ valR (flit 2 1) = 2) by cst. destruct K as (F & W). split; [exact N|]. rewrite V. split; [apply Rabs_R1|].
  rewrite ext32_finite by exact F. change (B2R 24 128 (flit 2 1)) with (valR (flit 2 1)). rewrite W. split; [lra|rewrite Rabs_pos_eq; lra].
Qed.
