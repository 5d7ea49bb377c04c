(** Property theorems of the power function of Q16.16 numbers (C125). *)
From Coq Require Import ZArith Reals Lra Lia Bool.
From Verif Require Import Base BaseLemmas Fp16_Model Fp16_Spec Fp16_Proofs Fp16Fun_Spec Fp16Fun_Proofs Fp16Pow_Spec Fp16Pow_Proofs Fp16Pow_Proofs2.
From Verif Require Ffmath_Proofs12.
Open Scope R_scope.

(** ** C125: the power function *)
(** a positive integer exponent n: half a unit per product, carried through the later products, as long as the power and this error fit *)
Theorem C125_pow_integer : forall x n, raw x -> (1 <= n <= 32767)%Z ->
  Rabs (fxR x) ^ Z.to_nat n + ulp16 / 2 * geo (Rabs (fxR x)) (Z.to_nat n - 1) <= 32760 ->
  exists r, Fp16_Model.pow x (n * 65536) = Ok r /\ Rabs (fxR r - fxR x ^ Z.to_nat n) <= ulp16 / 2 * geo (Rabs (fxR x)) (Z.to_nat n - 1).
Proof. intros x n R H S. replace (ulp16 / 2) with (/ 131072) in * by (unfold ulp16; lra). exact (powi_ok x n R H S). Qed.
Print Assumptions C125_pow_integer.
(** any other exponent, positive base *)
Theorem C125_pow_general : forall x y, raw x -> (0 < x)%Z -> raw y -> not_nat y ->
  Rabs (fxR y) * logerr (fxR x) <= / 20 -> Rabs (fxR y * ln (fxR x)) <= 103 / 10 ->
  exists r, Fp16_Model.pow x y = Ok r /\
    Rabs (fxR r - Rpower (fxR x) (fxR y)) <= Rpower (fxR x) (fxR y) * (11 / 10 * (Rabs (fxR y) * logerr (fxR x)) + / 900) + 20 * ulp16.
Proof. intros x y R H Ry N A B. destruct (pow_pos_ok x y R H Ry N A ltac:(lra)) as (r & E & V). exists r. split; [exact E|]. replace (11 / 10) with 1.1 by lra. exact V. Qed.
Print Assumptions C125_pow_general.
Theorem C125_zero_exponent : forall x, raw x -> (0 <= x)%Z -> Fp16_Model.pow x 0 = Ok 65536%Z.
Proof. intros x R H. rewrite pow_zero; [replace (x <? 0)%Z with false by lia; reflexivity|exact R|unfold fMin; lia]. Qed.
Print Assumptions C125_zero_exponent.
(** A negative base: the zeroth power is -1, and even negative powers come out negative. *)
Theorem C125_zero_exponent_negative_refuted : forall x, (fMin < x < 0)%Z -> Fp16_Model.pow x 0 = Ok (-65536)%Z /\ fxR (-65536) = -1 /\ fxR x ^ 0 = 1.
Proof. intros x H. rewrite pow_zero; [replace (x <? 0)%Z with true by lia|unfold raw, fMin in *; lia|lia]. repeat split; unfold fxR; simpl; lra. Qed.
Print Assumptions C125_zero_exponent_negative_refuted.
Theorem C125_even_negative_refuted : forall x k, (fMin < x < 0)%Z -> (1 <= k <= 16383)%Z ->
  2 * IZR k * logerr (- fxR x) <= / 20 -> 2 * IZR k * Rabs (ln (- fxR x)) <= 103 / 10 -> / 1000 <= / fxR x ^ Z.to_nat (2 * k) ->
  exists r, Fp16_Model.pow x (- (2 * k) * 65536) = Ok r /\ fxR r < 0 < / fxR x ^ Z.to_nat (2 * k).
Proof.
  intros x k H K HE HL HW. assert (X0 : fxR x < 0) by (destruct H as (_ & H); apply IZR_lt in H; unfold fxR; lra).
  assert (Y : fxR (- (2 * k) * 65536) = - (2 * IZR k)) by (unfold fxR; rewrite mult_IZR, opp_IZR, mult_IZR; field).
  assert (K0 : 0 <= IZR k) by (apply IZR_le; lia).
  assert (YA : Rabs (fxR (- (2 * k) * 65536)) = 2 * IZR k) by (rewrite Y, Rabs_Ropp, Rabs_pos_eq; lra).
  assert (PW : Rpower (- fxR x) (fxR (- (2 * k) * 65536)) = / fxR x ^ Z.to_nat (2 * k)).
  { rewrite Y, Rpower_Ropp. f_equal. replace (2 * IZR k) with (INR (Z.to_nat (2 * k))) by (rewrite INR_IZR_INZ, Z2Nat.id, mult_IZR by lia; reflexivity). rewrite Rpower_pow by lra.
    replace (Z.to_nat (2 * k)) with (2 * Z.to_nat k)%nat by lia. rewrite !pow_mult. f_equal. ring. }
  destruct (pow_neg_ok x (- (2 * k) * 65536)) as (r & E & V); [unfold fMin in H; lia|unfold raw; lia|left; lia|rewrite YA; exact HE|rewrite Rabs_mult, YA; lra|].
  exists r. split; [exact E|]. rewrite PW, YA in V. set (W := / fxR x ^ Z.to_nat (2 * k)) in *. apply Rcomplements.Rabs_le_between in V. set (c := 2 * IZR k * logerr (- fxR x)) in *. unfold ulp16 in V. nra.
Qed.
Print Assumptions C125_even_negative_refuted.
Example C125_nonvacuous : Fp16_Model.pow 98304 (5 * 65536) = Ok 497664%Z /\ Rabs (fxR 98304) ^ Z.to_nat 5 + ulp16 / 2 * geo (Rabs (fxR 98304)) (Z.to_nat 5 - 1) <= 32760 /\
  Fp16_Model.pow 131072 32768 = Ok 92683%Z /\ not_nat 32768 /\ Rabs (fxR 32768) * logerr (fxR 131072) <= / 20 /\ Rabs (fxR 32768 * ln (fxR 131072)) <= 103 / 10 /\
  Fp16_Model.pow (-131072) (-131072) = Ok (-16384)%Z /\ 2 * IZR 1 * logerr (- fxR (-131072)) <= / 20 /\ 2 * IZR 1 * Rabs (ln (- fxR (-131072))) <= 103 / 10 /\ / 1000 <= / fxR (-131072) ^ Z.to_nat (2 * 1).
Proof.
  split; [vm_compute; reflexivity|]. split. { rewrite Rabs_pos_eq by (unfold fxR; lra). change (Z.to_nat 5) with 5%nat. cbn [geo Nat.sub pow]. unfold fxR, ulp16. lra. }
  split; [vm_compute; reflexivity|]. split; [right; vm_compute; discriminate|]. assert (E : fxR 131072 = 2) by (unfold fxR; lra). assert (E2 : fxR 32768 = / 2) by (unfold fxR; lra). assert (E3 : fxR (-131072) = -2) by (unfold fxR; lra). pose proof Ffmath_Proofs12.ln2_bnd as L.
  rewrite E, E2, E3. replace (- -2) with 2 by ring. unfold logerr. rewrite !Rabs_pos_eq by lra. split; [lra|]. split; [lra|]. split; [vm_compute; reflexivity|]. split; [lra|]. split; [lra|]. change (Z.to_nat (2 * 1)) with 2%nat. simpl. lra.
Qed.
