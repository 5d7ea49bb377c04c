(** The numerical value of Euler's constant and of the float that stands for it. *)
From Coq Require Import Reals Lra Lia Psatz ZArith.
From Flocq Require Import Core IEEE754.Binary IEEE754.Bits.
From Verif Require Import Expint_Spec Expint_Proofs Base Arith Bits32 Ffmath_Model Ffmath2_Model Ffmath4_Model Ffmath_Spec Float32 FloatApp Ffmath_Proofs12 Ffmath_Proofs13.
Open Scope R_scope.
Lemma gamma_val : Rabs (euler_gamma - 5772156 / 10000000) <= 1 / 1000000.
Proof.
  pose proof (gamma_bounds 9) as G. unfold gH, fH, aH in G.
  replace (INR 10) with 10 in G by (cbn; lra).
  assert (S : sum_f_R0 (fun k => / INR (S k)) 9 = 7381 / 2520) by (cbn [sum_f_R0 INR]; field). rewrite S in G.
  pose proof ln10_bnd as L. apply Rabs_le_inv in L. apply Rabs_le. lra.
Qed.
Lemma gammaF : app fGAMMA_E euler_gamma (2 / 1000000).
Proof.
  pose proof gamma_val as G. apply Rabs_le_inv in G.
  assert (K : finite fGAMMA_E /\ Rabs (valR fGAMMA_E - 5772156 / 10000000) <= / 1000000).
  { split; [reflexivity|]. assert (E : valR fGAMMA_E = 9684072 / 16777216) by (vm_compute; lra). rewrite E. apply Rabs_le. lra. }
  destruct K as (F & V). apply Rabs_le_inv in V. split; [exact F|]. apply Rabs_le. lra.
Qed.
