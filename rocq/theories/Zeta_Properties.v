(** Property theorems of the Riemann zeta function (C120). *)
From Coq Require Import ZArith Reals Lra Lia Bool.
From Flocq Require Import Core IEEE754.BinarySingleNaN IEEE754.Binary IEEE754.Bits.
From Verif Require Import Base Arith Ext32 Bits32 Ffmath_Model Ffmath2_Model Ffmath3_Model Ffmath5_Model Ffmath_Spec Ffmath_Proofs2 Float32 Ffmath_Proofs7 Ffmath_Proofs8 Ffmath_Proofs9 FloatApp Ffmath_Proofs12 Ffmath_Proofs13 Ffmath_Proofs16 Ellint_Proofs3 Bessel_Proofs Bessel_Proofs4 Zeta_Spec Zeta_Proofs.
Open Scope R_scope.

Lemma lit_20 : finite (flit 20 1) /\ valR (flit 20 1) = 20. Proof. cst. Qed.
Lemma lit_m19 : finite (flit (-19) 1) /\ valR (flit (-19) 1) = -19. Proof. cst. Qed.
Lemma not_one s : finite s -> 2 <= Rabs (1 - valR s) <= big -> fisEqual0 (flit 1 1) s = false.
Proof.
  intros F (H & B). destruct lit_1 as (F1 & V1). destruct lit_2 as (F2 & V2). pose proof b126. destruct (minus_R (flit 1 1) s F1 F) as (Fd & Vd). { rewrite V1. exact B. } rewrite V1 in Vd. destruct limMin_R as (Fm & Vm). destruct (abs_R _ Fd) as (Fa & Va). destruct (abs_R _ Fm) as (Fl & Vl).
  unfold fisEqual0, fisEqual. apply le_f; auto. rewrite Va, Vl, Vd, Vm, (Rabs_pos_eq (bpow _ _)) by lra. rewrite <- rnd_abs. assert (2 <= rnd (Rabs (1 - valR s))); [|lra]. rewrite <- V2. apply rnd_ge_val. lra.
Qed.

(** ** C120: the zeta function *)
(** from 20 on; 2^126 is far beyond where the function rounds to 1 *)
Theorem C120_large : forall s, finite s -> 20 <= valR s <= 2 ^ 126 -> exists r, riemann_zeta s = Ok r /\ finite r /\ Rabs (valR r - zeta (valR s)) <= 3 / 10000000.
Proof.
  intros s F (H & U). destruct lit_20 as (F2 & V2). destruct lit_m19 as (F9 & V9). pose proof big1.
  assert (B : valR s <= big). { eapply Rle_trans; [exact U|]. unfold big. change (bpow radix2 127) with (IZR (Z.pow 2 127)). rewrite pow_IZR. apply IZR_le. vm_compute. discriminate. }
  assert (E : riemann_zeta s = riemann_zeta_product s). { unfold riemann_zeta. rewrite isNan_ok, (fin_nan s F), not_one by (auto; rewrite Rabs_left; lra). rewrite (lt_f s (flit (-19) 1)) by (auto; lra). rewrite (lt_f s (flit 20 1)) by (auto; lra). reflexivity. }
  rewrite E. apply product_ok; assumption.
Qed.
Print Assumptions C120_large.
Theorem C120_special : (forall s, is_nan 24 128 s = true -> exists r, riemann_zeta s = Ok r /\ is_nan 24 128 r = true) /\
  (forall s, finite s -> valR s = 1 -> riemann_zeta s = Ok (B754_infinity 24 128 false)) /\
  riemann_zeta (B754_infinity 24 128 false) = Ok (flit 1 1) /\
  (forall s, is_zero s -> exists r, riemann_zeta s = Ok r /\ finite r /\ valR r = - / 2).
Proof.
  split; [intros s N; exists limNan; unfold riemann_zeta; rewrite isNan_ok, N; split; reflexivity|].
  split. { intros s F V. destruct lit_1 as (F1 & V1). rewrite (val_inj s (flit 1 1) F F1) by lra. unfold riemann_zeta. replace (isNan (flit 1 1)) with false by reflexivity. replace (fisEqual0 (flit 1 1) (flit 1 1)) with true by reflexivity. f_equal. }
  split; [apply res_bits; [vm_compute; reflexivity|vm_compute; discriminate]|].
  intros s (F & V). exists (flit (-1) 2). assert (K : finite (flit (-1) 2) /\ valR (flit (-1) 2) = - / 2) by cst. split; [|exact K]. destruct (zero_shape s F V) as [-> | ->]; (apply res_bits; [vm_compute; reflexivity|vm_compute; discriminate]).
Qed.
Print Assumptions C120_special.

(** ** The pole at 1 is the only one, but far to the left no number comes back *)
Lemma nan_prod x y : is_nan 24 128 y = true -> is_nan 24 128 (x * y)%b32 = true. Proof. apply mult_nan_r. Qed.
Lemma zero_inf z : is_nan 24 128 z = true \/ z = B754_zero 24 128 true \/ z = B754_zero 24 128 false -> is_nan 24 128 (z * limInf)%b32 = true.
Proof. intros [N|[-> | ->]]; [apply mult_nan_l; exact N|reflexivity|reflexivity]. Qed.
Lemma zero_times y : is_nan 24 128 (flit 0 1 * y)%b32 = true \/ (flit 0 1 * y)%b32 = B754_zero 24 128 true \/ (flit 0 1 * y)%b32 = B754_zero 24 128 false.
Proof. destruct y as [[]|[]|s p Hp|[] m e Hm]; try (left; reflexivity); right; (left; reflexivity) || (right; reflexivity). Qed.
Definition l2pi : float := log2 (flit 2 1 * fPI)%b32.
Lemma l2pi_R : finite l2pi /\ 2 < valR l2pi. Proof. assert (H : finite l2pi /\ valR l2pi = 11121181 / 4194304) by (replace l2pi with (ofU 1076474397) by (apply bits_inj; vm_compute; reflexivity); cst). destruct H as (F & ->). split; [exact F|lra]. Qed.
Lemma m126_R : finite (flit (-126) 1) /\ valR (flit (-126) 1) = -126. Proof. cst. Qed.
Lemma lit_172 : finite (flit 172 1) /\ valR (flit 172 1) = 172. Proof. cst. Qed.
Theorem C120_left_refuted : forall s, finite s -> - 2 ^ 126 <= valR s <= -171 -> exists r, riemann_zeta s = Ok r /\ is_nan 24 128 r = true.
Proof.
  intros s F (U & H). destruct lit_1 as (F1 & V1). destruct lit_m19 as (F9 & V9). destruct lit_172 as (F7 & V7). pose proof big1 as B1.
  assert (B : 1 - valR s <= big). { apply Rle_trans with (1 + 2 ^ 126); [lra|]. unfold big. change (bpow radix2 127) with (IZR (Z.pow 2 127)). rewrite pow_IZR, <- plus_IZR. apply IZR_le. vm_compute. discriminate. }
  destruct (minus_R (flit 1 1) s F1 F) as (Fd & Vd). { rewrite V1, Rabs_pos_eq by lra. exact B. } rewrite V1 in Vd.
  assert (L : 172 <= valR (flit 1 1 - s)%b32). { rewrite Vd, <- V7. apply rnd_ge_val. lra. }
  destruct (product_ok _ Fd ltac:(lra)) as (z & Ez & _ & _). destruct l2pi_R as (F2 & V2). destruct m126_R as (Fm & Vm).
  assert (Ep : fpow (flit 2 1 * fPI)%b32 s = Ok (flit 0 1)). { unfold fpow. fold l2pi. destruct (mult_low s l2pi (flit (-126) 1) F F2) as (N & X); [lra|lra|rewrite Vm; nra|]. rewrite Vm in X. apply exp2_low; assumption. }
  assert (El : lgamma (flit 1 1 - s)%b32 = limInf). { apply lgamma_large; [apply fin_nan; exact Fd|]. rewrite ext32_finite by exact Fd. change (1716241 / 10000 <= valR (flit 1 1 - s)%b32). lra. }
  assert (Ee : fexp limInf = Ok limInf). { apply fexp_high; [reflexivity|]. change (89 <= bpow radix2 128). pose proof b128_big. lra. }
  unfold riemann_zeta. rewrite isNan_ok, (fin_nan s F), not_one by (auto; rewrite Rabs_pos_eq; lra). rewrite (lt_t s (flit (-19) 1)) by (auto; lra). rewrite Ez, Ep, El, Ee. cbn [bind]. eexists. split; [reflexivity|]. apply mult_nan_r. apply div_nan_l. apply zero_inf. apply zero_times.
Qed.
Print Assumptions C120_left_refuted.
(** at -35 the result is infinite, at -34 NaN, and at the zero -30 it is -283.4 *)
Theorem C120_negative_refuted : riemann_zeta (flit (-35) 1) = Ok (B754_infinity 24 128 false) /\ (exists r, riemann_zeta (flit (-34) 1) = Ok r /\ is_nan 24 128 r = true) /\ exists r, riemann_zeta (flit (-30) 1) = Ok r /\ finite r /\ valR r < -283.
Proof.
  split; [apply res_bits; [vm_compute; reflexivity|vm_compute; discriminate]|]. split.
  { assert (K : match riemann_zeta (flit (-34) 1) with Ok r => is_nan 24 128 r | Ub => false end = true) by (vm_compute; reflexivity). destruct (riemann_zeta (flit (-34) 1)) as [r|]; [exists r; split; [reflexivity|exact K]|discriminate K]. }
  exists (ofU 3280844303). split; [apply res_bits; [vm_compute; reflexivity|vm_compute; discriminate]|]. assert (K : finite (ofU 3280844303) /\ valR (ofU 3280844303) = -9287183 / 32768) by cst. destruct K as (F & ->). split; [exact F|lra].
Qed.
Print Assumptions C120_negative_refuted.
(** the global series below 20, at one point: 19 *)
Theorem C120_global_at_19 : exists r, riemann_zeta (flit 19 1) = Ok r /\ finite r /\ Rabs (valR r - zeta 19) <= 2 / 10000000.
Proof.
  exists (ofU 1065353231). split; [apply res_bits; [vm_compute; reflexivity|vm_compute; discriminate]|]. assert (K : finite (ofU 1065353231) /\ valR (ofU 1065353231) = 8388623 / 8388608) by cst. destruct K as (F & ->). split; [exact F|]. destruct (zeta_bnd 19 ltac:(lra)) as (L & U). rewrite Rpower_Ropp in L, U. replace (Rpower 2 19) with 524288 in L, U by (replace 19 with (INR 19) by (rewrite INR_IZR_INZ; reflexivity); rewrite Rpower_pow by lra; ring). apply Rabs_le. lra.
Qed.
Print Assumptions C120_global_at_19.
(** the specification: the series converges, and is close to 1 + 2^-s *)
Theorem C120_spec_bounds : forall s, 19 <= s -> 1 + Rpower 2 (- s) <= zeta s <= 1 + Rpower 2 (- s) + 4 / 1000000000.
Proof. exact zeta_bnd. Qed.
Print Assumptions C120_spec_bounds.
Example C120_nonvacuous : finite (flit 20 1) /\ 20 <= valR (flit 20 1) <= 2 ^ 126 /\ finite (flit (-172) 1) /\ - 2 ^ 126 <= valR (flit (-172) 1) <= -171.
Proof.
  destruct lit_20 as (F & V). assert (K : finite (flit (-172) 1) /\ valR (flit (-172) 1) = -172) by cst. destruct K as (F2 & V2). rewrite V, V2. assert (1024 <= 2 ^ 126) by (rewrite pow_IZR; apply IZR_le; vm_compute; discriminate). repeat split; auto; lra.
Qed.
