(** Property theorems of the error function (C126). *)
From Coq Require Import ZArith Reals Lra Lia Bool.
From Flocq Require Import Core IEEE754.Binary IEEE754.Bits.
From Verif Require Import Base Arith Ext32 Bits32 Ffmath_Model Ffmath2_Model Ffmath_Spec Ffmath_Proofs Float32 Ffmath_Proofs12 Erf_Spec Erf_Proofs.
Open Scope R_scope.

(** ** C126: erf and erfc *)
(** the binary32 number nearest to 6.912 *)
Definition edge : R := 14495515 / 2097152.

(** The documentation promises the error function.  For every argument from -2^120 up to 6.912 the
    result lies between -1 and -1/2: the code divides by 2 where it should multiply. *)
Theorem C126_range : forall x, finite x -> - bpow radix2 120 <= valR x < edge ->
  (exists v, erf x = Ok v /\ finite v /\ -1 <= valR v <= - / 2) /\ (exists v, erfc x = Ok v /\ finite v /\ 3 / 2 <= valR v <= 2).
Proof. intros x F H. destruct c6912 as (_ & E). unfold edge in H. rewrite <- E in H. split; [exact (erf_range x F H)|exact (erfc_range x F H)]. Qed.
Print Assumptions C126_range.
(** For every argument of [0, 6.912) it is therefore off by at least one half. *)
Theorem C126_accuracy_refuted : forall x, finite x -> 0 <= valR x < edge ->
  exists v w, erf x = Ok v /\ valR v <= erfR (valR x) - / 2 /\ erfc x = Ok w /\ erfcR (valR x) + / 2 <= valR w.
Proof.
  intros x F H. pose proof (bpow_gt_0 radix2 120). destruct (C126_range x F ltac:(lra)) as ((v & Ev & _ & Bv) & (w & Ew & _ & Bw)).
  exists v, w. pose proof (erfR_nonneg (valR x) ltac:(lra)). unfold erfcR. repeat split; try assumption; lra.
Qed.
Print Assumptions C126_accuracy_refuted.
(** at zero, where the error function is 0 *)
Theorem C126_zero_refuted : exists v w, erf (flit 0 1) = Ok v /\ valR v = - (3 / 4) /\ erfc (flit 0 1) = Ok w /\ valR w = 7 / 4 /\ erfR 0 = 0 /\ erfcR 0 = 1.
Proof.
  exists (flit (-3) 4), (flit 7 4). split; [apply res_bits; [vm_compute; reflexivity|vm_compute; discriminate]|]. split; [vm_compute; lra|]. split; [apply res_bits; [vm_compute; reflexivity|vm_compute; discriminate]|]. split; [vm_compute; lra|]. unfold erfcR. rewrite erfR_0. lra.
Qed.
Print Assumptions C126_zero_refuted.
(** From 6.912 on (also +infinity) the result is 1 and its complement 0. *)
Theorem C126_saturates : forall x, is_nan 24 128 x = false -> edge <= ext32 x -> erf x = Ok (flit 1 1) /\ exists w, erfc x = Ok w /\ valR w = 0.
Proof.
  intros x N H. destruct c6912 as (_ & E). unfold edge in H. rewrite <- E in H. pose proof (erf_one x N H) as E1. split; [exact E1|]. unfold erfc. rewrite E1. cbn [bind]. eexists. split; [reflexivity|]. vm_compute. reflexivity.
Qed.
Print Assumptions C126_saturates.
Theorem C126_nan_undefined : forall x, is_nan 24 128 x = true -> erf x = Ub /\ erfc x = Ub.
Proof. intros x N. pose proof (erf_nan x N) as E. split; [exact E|]. unfold erfc. rewrite E. reflexivity. Qed.
Print Assumptions C126_nan_undefined.
Example C126_case : finite (flit 1 1) /\ 0 <= valR (flit 1 1) < edge /\ edge <= ext32 (flit 7 1) /\ is_nan 24 128 (flit 7 1) = false.
Proof. unfold edge. repeat split; try reflexivity; vm_compute; lra. Qed.
