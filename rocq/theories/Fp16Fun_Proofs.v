(** Real bounds for the operations on Q16.16 numbers; sine, cosine, tangent. *)
From Coq Require Import ZArith Reals Lra Lia Bool.
From Flocq Require Import Raux.
From Verif Require Import Base BaseLemmas Fp16_Model Fp16_Spec Fp16_Proofs Fp16_Proofs2 Fp16Fun_Spec.
Open Scope R_scope.
Ltac p31 := try change (- 2 ^ 31)%Z with (-2147483648)%Z; try change (2 ^ 31)%Z with 2147483648%Z.

(** ** The operations *)
Lemma nearest_ex n : exists r, nearest n 65536 r /\ Rabs (IZR r - IZR n / 65536) <= / 2.
Proof.
  exists ((n + 32768 - neg_bit n) / 65536)%Z. assert (H : nearest n 65536 ((n + 32768 - neg_bit n) / 65536)) by (apply nearest_formula; reflexivity). split; [exact H|].
  set (r := ((n + 32768 - neg_bit n) / 65536)%Z) in *. clearbody r. destruct H as (H & _). change (Z.abs 65536) with 65536%Z in H. apply IZR_le in H. rewrite mult_IZR, abs_IZR, minus_IZR, mult_IZR in H.
  replace (IZR r - IZR n / 65536) with ((- (IZR n - IZR r * 65536)) * / 65536) by field. rewrite Rabs_mult, Rabs_Ropp, (Rabs_pos_eq (/ 65536)) by lra. lra.
Qed.
Lemma fx_le z n : Rabs (fxR z) <= n -> - (n * 65536) <= IZR z <= n * 65536.
Proof. unfold fxR. intros H. apply Rabs_le_inv in H. lra. Qed.
Lemma fx_raw z : Rabs (fxR z) <= 32767 -> raw z.
Proof. intros H. apply fx_le in H. unfold raw. split; [apply le_IZR|apply lt_IZR]; p31; lra. Qed.
Lemma fx_i32 z : Rabs (fxR z) <= 32767 -> i32 z = Ok z.
Proof. intros H. apply i32_ok, fx_raw, H. Qed.

Lemma mul_fx x y : raw x -> raw y -> mul_safe x y -> Rabs (fxR x * fxR y) <= 32767 ->
  exists r, mul x y = Ok r /\ Rabs (fxR r - fxR x * fxR y) <= / 131072 /\ Rabs (fxR r) <= 32767 + / 131072.
Proof.
  intros Hx Hy Hs H. destruct (nearest_ex (x * y)) as (r & N & E). rewrite mult_IZR in E.
  assert (E2 : Rabs (fxR r - fxR x * fxR y) <= / 131072). { unfold fxR. replace (IZR r / 65536 - IZR x / 65536 * (IZR y / 65536)) with ((IZR r - IZR x * IZR y / 65536) * / 65536) by field. rewrite Rabs_mult, (Rabs_pos_eq (/ 65536)) by lra. lra. }
  assert (E3 : Rabs (fxR r) <= 32767 + / 131072). { replace (fxR r) with ((fxR r - fxR x * fxR y) + fxR x * fxR y) by ring. eapply Rle_trans; [apply Rabs_triang|lra]. }
  exists r. split; [|split; assumption]. apply (mul_correct x y r Hx Hy Hs N). apply fx_le in E3. split; [apply lt_IZR|apply lt_IZR]; p31; lra.
Qed.
Lemma mul_fx_over x y : raw x -> raw y -> mul_safe x y -> 32768 + / 65536 < Rabs (fxR x * fxR y) -> mul x y = Ok sentinel.
Proof.
  intros Hx Hy Hs H. destruct (nearest_ex (x * y)) as (r & N & E). rewrite mult_IZR in E. apply (mul_correct x y r Hx Hy Hs N).
  assert (E2 : 2147483648 < Rabs (IZR r)). { apply Rabs_le_inv in E. revert H. unfold fxR. replace (IZR x / 65536 * (IZR y / 65536)) with ((IZR x * IZR y / 65536) * / 65536) by field. rewrite Rabs_mult, (Rabs_pos_eq (/ 65536)) by lra. unfold Rabs. destruct (Rcase_abs _); destruct (Rcase_abs _); lra. }
  unfold Rabs in E2. destruct (Rcase_abs _) in E2; [left|right]; apply lt_IZR; p31; lra.
Qed.
Lemma nearest_div_ex n d : d <> 0%Z -> exists r, nearest n d r /\ Rabs (IZR r - IZR n / IZR d) <= / 2.
Proof.
  intros Hd.
  assert (Ex : exists r, nearest n d r).
  { assert (P : forall N D, (0 <= N)%Z -> (0 < D)%Z -> nearest N D ((2 * N + D) / (2 * D))).
    { intros N D HN HD. unfold nearest. set (q := ((2 * N + D) / (2 * D))%Z). assert (q * (2 * D) <= 2 * N + D < q * (2 * D) + 2 * D)%Z by (unfold q; pose proof (Z.div_mod (2 * N + D) (2 * D) ltac:(lia)); pose proof (Z.mod_pos_bound (2 * N + D) (2 * D) ltac:(lia)); lia). assert (0 <= q)%Z by (apply Z.div_pos; lia). clearbody q. split; [lia|]. intros. lia. }
    destruct (Z_le_gt_dec 0 n) as [Hn|Hn]; destruct (Z_lt_ge_dec 0 d) as [Hp|Hp].
    - eexists. apply P; assumption.
    - pose proof (nearest_opp_r _ _ _ (P n (- d)%Z ltac:(lia) ltac:(lia))) as K. rewrite Z.opp_involutive in K. eauto.
    - pose proof (nearest_opp_l _ _ _ (P (- n)%Z d ltac:(lia) ltac:(lia))) as K. rewrite Z.opp_involutive in K. eauto.
    - pose proof (nearest_opp_l _ _ _ (nearest_opp_r _ _ _ (P (- n)%Z (- d)%Z ltac:(lia) ltac:(lia)))) as K. rewrite !Z.opp_involutive in K. eauto. }
  destruct Ex as (r & N). exists r. split; [exact N|]. destruct N as (N & _). apply IZR_le in N. rewrite mult_IZR, !abs_IZR, minus_IZR, mult_IZR in N.
  assert (D0 : IZR d <> 0) by (apply not_0_IZR; exact Hd). pose proof (Rabs_pos_lt _ D0).
  replace (IZR r - IZR n / IZR d) with ((- (IZR n - IZR r * IZR d)) * / IZR d) by (field; exact D0). rewrite Rabs_mult, Rabs_Ropp, Rabs_inv. apply (Rmult_le_reg_r (Rabs (IZR d))); [assumption|]. rewrite Rmult_assoc, Rinv_l by lra. lra.
Qed.
Lemma div_fx x y : raw x -> raw y -> y <> 0%Z -> x <> sentinel -> y <> sentinel -> Rabs (fxR x / fxR y) <= 32767 ->
  exists r, div x y = Ok r /\ Rabs (fxR r - fxR x / fxR y) <= / 131072 /\ Rabs (fxR r) <= 32767 + / 131072.
Proof.
  intros Hx Hy H0 Sx Sy H. destruct (nearest_div_ex (x * 65536) y H0) as (r & N & E). rewrite mult_IZR in E. assert (Y0 : IZR y <> 0) by (apply not_0_IZR; exact H0).
  assert (Q : fxR x / fxR y = IZR x / IZR y) by (unfold fxR; field; exact Y0).
  assert (E2 : Rabs (fxR r - fxR x / fxR y) <= / 131072). { rewrite Q. unfold fxR. replace (IZR r / 65536 - IZR x / IZR y) with ((IZR r - IZR x * 65536 / IZR y) * / 65536) by (field; exact Y0). rewrite Rabs_mult, (Rabs_pos_eq (/ 65536)) by lra. lra. }
  assert (E3 : Rabs (fxR r) <= 32767 + / 131072). { replace (fxR r) with ((fxR r - fxR x / fxR y) + fxR x / fxR y) by ring. eapply Rle_trans; [apply Rabs_triang|lra]. }
  exists r. split; [|split; assumption]. apply (div_correct x y r Hx Hy H0 Sx Sy N). apply fx_le in E3. split; [apply lt_IZR|apply lt_IZR]; p31; lra.
Qed.
Lemma quot_fx x d : (0 < d)%Z -> Rabs (fxR (Z.quot x d) - fxR x / IZR d) <= ulp16.
Proof.
  intros Hd. assert (D : 0 < IZR d) by (apply IZR_lt; exact Hd). pose proof (Z.quot_rem' x d) as E. assert (B : (Z.abs (Z.rem x d) < d)%Z) by (rewrite <- (Z.abs_eq d) at 2 by lia; apply Z.rem_bound_abs; lia).
  apply IZR_lt in B. rewrite abs_IZR in B. set (q := Z.quot x d) in *. set (m := Z.rem x d) in *. clearbody q m. subst x. unfold fxR, ulp16. rewrite plus_IZR, mult_IZR.
  replace (IZR q / 65536 - (IZR d * IZR q + IZR m) / 65536 / IZR d) with ((- (IZR m) * / IZR d) * / 65536) by (field; lra). rewrite Rabs_mult, Rabs_mult, Rabs_Ropp, (Rabs_pos_eq (/ 65536)), (Rabs_pos_eq (/ IZR d)) by (try lra; left; apply Rinv_0_lt_compat; exact D).
  assert (Rabs (IZR m) * / IZR d <= 1). { apply (Rmult_le_reg_r (IZR d)); [exact D|]. rewrite Rmult_assoc, Rinv_l by lra. lra. } nra.
Qed.
Lemma fx_add a b : fxR (a + b) = fxR a + fxR b. Proof. unfold fxR. rewrite plus_IZR. field. Qed.
Lemma fx_sub a b : fxR (a - b) = fxR a - fxR b. Proof. unfold fxR. rewrite minus_IZR. field. Qed.
