(** Property theorems of the spherical associated Legendre function (C119). *)
From Coq Require Import ZArith Reals Lra Lia Bool.
From Verif Require Import Base Arith Poly_Model Poly_Spec Poly_Proofs Poly_Proofs2 SphLegendre_Model SphLegendre_Spec SphLegendre_Proofs.
Open Scope R_scope.

(** ** C119: the value in exact arithmetic, for every degree and order *)
(** [x] is 1 or -1 or differs from both by more than the tolerance of the comparison *)
Definition apart (x : R) : Prop := (x = 1 \/ / 2 ^ 126 < Rabs (1 - x)) /\ (x = -1 \/ / 2 ^ 126 < Rabs (-1 - x)).
Theorem C119_value : forall lg l m theta, log_gamma lg -> (m <= l)%nat -> apart (cos theta) ->
  exists P D, legendre_polynomial l P /\ derivatives P D /\ sph_legendre (A := RA) lg PI (ln PI) l m theta = spherical l m (D m) theta.
Proof.
  intros lg l m theta Hg Hl [H1 H2]. exists (Le l), (fun k => DLe k l). split; [apply Le_legendre|]. split; [apply DLe_all|]. apply sph_legendre_R; assumption.
Qed.
Print Assumptions C119_value.
(** in every arithmetic *)
Theorem C119_order_above_degree : forall (A : arith) lg pi lnpi l m (theta : F A), fisnan theta = false -> (l < m)%nat -> sph_legendre lg pi lnpi l m theta = lit 0 1.
Proof. intros A lg pi lnpi l m theta N H. unfold sph_legendre. rewrite N. replace (l <? m)%nat with true by (symmetry; apply Nat.ltb_lt; exact H). reflexivity. Qed.
Print Assumptions C119_order_above_degree.
Theorem C119_nan : forall (A : arith) lg pi lnpi l m (theta : F A), fisnan theta = true -> sph_legendre lg pi lnpi l m theta = fnan.
Proof. intros A lg pi lnpi l m theta N. unfold sph_legendre. rewrite N. reflexivity. Qed.
Print Assumptions C119_nan.

(** the hypothesis on the gamma function is satisfiable, and the theorem gives known values *)
Definition lg0 (r : R) : R := let n := Z.to_nat (Int_part r) in
  if Req_EM_T r (INR n) then ln (INR (fact (n - 1))) else ln (INR (fact (2 * n)) * sqrt PI / (4 ^ n * INR (fact n))).
Lemma int_part_near n d : 0 <= d < 1 -> Z.to_nat (Int_part (INR n + d)) = n.
Proof.
  intros H. rewrite INR_IZR_INZ. replace (Int_part (IZR (Z.of_nat n) + d)) with (Z.of_nat n); [apply Nat2Z.id|]. unfold Int_part. rewrite <- (tech_up (IZR (Z.of_nat n) + d) (Z.of_nat n + 1)); [lia| |]; rewrite plus_IZR; lra.
Qed.
Example C119_nonvacuous : (exists lg, log_gamma lg) /\ (1 <= 3)%nat /\ apart (cos (PI / 2)) /\ apart (cos 0).
Proof.
  split.
  - exists lg0. intros n Hn. pose proof PI_RGT_0 as P. split; unfold lg0; cbv zeta.
    + replace (Z.to_nat (Int_part (INR n))) with n by (symmetry; rewrite <- (Rplus_0_r (INR n)) at 1; apply int_part_near; lra). destruct (Req_EM_T _ _) as [_|E]; [|contradiction]. apply exp_ln. apply fp.
    + rewrite int_part_near by lra. destruct (Req_EM_T _ _) as [E|_]; [lra|]. apply exp_ln. apply Rmult_lt_0_compat; [apply Rmult_lt_0_compat; [apply fp|apply sqrt_lt_R0; exact P]|]. apply Rinv_0_lt_compat, Rmult_lt_0_compat; [apply pow_lt; lra|apply fp].
  - split; [lia|]. assert (P126 : / 2 ^ 126 < 1). { rewrite <- Rinv_1. apply Rinv_lt_contravar; [rewrite Rmult_1_l; apply pow_lt; lra|]. apply Rlt_pow_R1; [lra|lia]. }
    rewrite cos_PI2, cos_0. unfold apart. split; split.
    + right. rewrite Rminus_0_r, Rabs_R1. exact P126.
    + right. replace (-1 - 0) with (- (1)) by ring. rewrite Rabs_Ropp, Rabs_R1. exact P126.
    + left. reflexivity.
    + right. replace (-1 - 1) with (- (2)) by ring. rewrite Rabs_Ropp, Rabs_pos_eq by lra. lra.
Qed.
