(** Property theorems of the logarithms of Q16.16 numbers (C123). *)
From Coq Require Import ZArith Reals Lra Lia Bool.
From Verif Require Import Base BaseLemmas Fp16_Model Fp16_Spec Fp16_Proofs Fp16_Proofs2 Fp16Fun_Spec Fp16Fun_Proofs Fp16Fun_Proofs6 Fp16Log_Proofs Fp16Log_Proofs2 Fp16Log_Proofs3.
Open Scope R_scope.

(** ** C123: binary and natural logarithm *)
(** every positive number but 2^-15 (whose reciprocal overflows, C31): 5 units;
    2^-16, the number below, is exact *)
Theorem C123_log2_accurate : forall x, raw x -> (0 < x)%Z -> x <> 2%Z -> exists r, Fp16_Model.log2 x = Ok r /\ Rabs (fxR r - ln (fxR x) / ln 2) <= 5 * ulp16.
Proof.
  intros x R H N. destruct (Z.eq_dec x 1) as [->|N1].
  - exists (-1048576)%Z. split; [reflexivity|]. replace (fxR 1) with (/ 2 ^ 16) by (unfold fxR; simpl; lra). rewrite ln_Rinv by (apply pow_lt; lra). rewrite ln_pow2. pose proof Ffmath_Proofs12.ln2_bnd. replace (- (INR 16 * ln 2) / ln 2) with (-16) by (rewrite INR_IZR_INZ; simpl; field; lra). replace (fxR (-1048576) - -16) with 0 by (unfold fxR; lra). rewrite Rabs_R0. unfold ulp16. lra.
  - destruct (log2_ok x R ltac:(lia)) as (r & E & V). exists r. split; [exact E|]. unfold lb in V. unfold ulp16 in *. lra.
Qed.
Print Assumptions C123_log2_accurate.
(** the second term is the rounding of the scaled argument: below 1/100 it is the larger one *)
Theorem C123_log_accurate : forall x, raw x -> (0 < x)%Z -> exists r, Fp16_Model.log x = Ok r /\ Rabs (fxR r - ln (fxR x)) <= 12 / 10000 + / (6900000 * fxR x).
Proof. exact log_ok. Qed.
Print Assumptions C123_log_accurate.
(** The smallest number: the second term is needed, the library is 0.007 too high. *)
Theorem C123_log_smallest_refuted : Fp16_Model.log 1 = Ok (-726334)%Z /\ fxR 1 = / 65536 /\ ln (/ 65536) + 7 / 1000 < fxR (-726334).
Proof.
  split; [vm_compute; reflexivity|]. split; [unfold fxR; lra|]. replace (/ 65536) with (/ 2 ^ 16) by (simpl; lra). rewrite ln_Rinv by (apply pow_lt; lra). rewrite ln_pow2, INR_IZR_INZ. change (IZR (Z.of_nat 16)) with 16.
  assert (L : 0.693147 < ln 2). { rewrite <- (ln_exp 0.693147). apply ln_increasing; [apply exp_pos|]. eapply Rle_lt_trans; [apply (Fp16Fun_Proofs3.exp_tail _ 9); [lra|rewrite INR_IZR_INZ; simpl; lra]|]. cbn [Fp16Fun_Proofs3.Sm]. unfold Expint_Proofs3.T. destruct PolyBound.facts as (-> & -> & -> & -> & -> & -> & -> & -> & -> & -> & _). lra. }
  unfold fxR. lra.
Qed.
Print Assumptions C123_log_smallest_refuted.
Example C123_nonvacuous : Fp16_Model.log2 655360 = Ok 217706%Z /\ Fp16_Model.log 655360 = Ok 150902%Z /\ Fp16_Model.log2 655 = Ok (-435465)%Z /\ raw 655360 /\ (0 < 655360)%Z.
Proof. unfold raw. repeat split; try (vm_compute; reflexivity); lia. Qed.
