(** Property theorems of the trigonometric functions (C121), the exponential
    and the hyperbolic functions (C122) of Q16.16 numbers. *)
From Coq Require Import ZArith Reals Lra Lia Bool.
From Flocq Require Import Raux.
From Verif Require Import Base BaseLemmas Fp16_Model Fp16_Spec Fp16_Proofs Fp16_Proofs2 Fp16Fun_Spec Fp16Fun_Proofs Fp16Fun_Proofs2 TrigBound Fp16Fun_Proofs3 Fp16Fun_Proofs4 Fp16Fun_Proofs5 Fp16Fun_Proofs6.
Open Scope R_scope.

(** ** C121: sine, cosine, tangent *)
(** every angle: a result between -1 and 1 (8 units of tolerance); the second
    term is the drift of the 16-bit value of a full turn *)
Theorem C121_sin_total : forall x, raw x -> exists r, Fp16_Model.sin x = Ok r /\
  Rabs (fxR r - Rtrigo_def.sin (fxR x)) <= 542 * ulp16 + Rabs (fxR x) / 2300000 /\ Rabs (fxR r) <= 1 + 8 * ulp16.
Proof. exact sin_all. Qed.
Print Assumptions C121_sin_total.
(** angles up to 2.573 rad: 8 units *)
Theorem C121_sin_accurate : forall x, (Z.abs x <= 168645)%Z -> exists r, Fp16_Model.sin x = Ok r /\ Rabs (fxR r - Rtrigo_def.sin (fxR x)) <= 8 * ulp16.
Proof. exact sin_near_total. Qed.
Print Assumptions C121_sin_accurate.
Lemma far_sin x : (196608 <= x <= 205887)%Z -> exists r, Fp16_Model.sin x = Ok r /\ Rtrigo_def.sin (fxR x) + 0.0048 < fxR r.
Proof.
  intros H. destruct (wrapToPi_ok x) as (x' & E & _ & _ & I); [unfold raw; lia|]. rewrite I in E by lia. unfold Fp16_Model.sin. rewrite E. cbn [bind]. destruct (sin_far_T x ltac:(lia)) as (r & Er & V). exists r. split; [exact Er|].
  assert (W : 3 <= fxR x <= 3.1416) by (pose proof (fx_pos_le 196608 x ltac:(lia)); pose proof (fx_pos_le x 205887 ltac:(lia)); unfold fxR in *; lra). destruct (sin_T (fxR x) ltac:(lra)) as (_ & S). set (w := fxR x) in *. apply Rabs_le_inv in S. apply Rabs_le_inv in V. rewrite (Rabs_pos_eq w) in S by lra. unfold T11 in S.
  assert (P : 3 ^ 11 <= w ^ 11) by (apply pow_incr; lra). replace (w ^ 13) with (w ^ 11 * w ^ 2) in S by ring. assert (Q : w ^ 2 <= 9.87) by (cbn [pow]; nra). assert (K : w ^ 11 * w ^ 2 <= w ^ 11 * 9.87) by (apply Rmult_le_compat_l; [|exact Q]; lra). unfold ulp16 in V. lra.
Qed.
(** from 3 rad to pi the last term of the series overflows: the sine is too large by more than 0.0048 (314 units) *)
Theorem C121_sin_near_pi_refuted : forall x, (196608 <= x <= 205887)%Z -> exists r, Fp16_Model.sin x = Ok r /\ Rtrigo_def.sin (fxR x) + 0.0048 < fxR r.
Proof. exact far_sin. Qed.
Print Assumptions C121_sin_near_pi_refuted.
Theorem C121_cos_accurate : forall x, (-271589 <= x <= 65701)%Z -> exists r, Fp16_Model.cos x = Ok r /\ Rabs (fxR r - Rtrigo_def.cos (fxR x)) <= 83 / 10 * ulp16.
Proof. exact cos_near. Qed.
Print Assumptions C121_cos_accurate.
Theorem C121_cos_total : forall x, raw x -> (x < 2 ^ 31 - 102944)%Z -> exists r, Fp16_Model.cos x = Ok r /\
  Rabs (fxR r - Rtrigo_def.cos (fxR x)) <= 543 * ulp16 + Rabs (fxR x) / 2300000 /\ Rabs (fxR r) <= 1 + 8 * ulp16.
Proof. exact cos_all. Qed.
Print Assumptions C121_cos_total.
(** the addition of a quarter turn overflows: the largest angles are undefined for cosine and tangent *)
Theorem C121_cos_undefined : forall x, raw x -> (2 ^ 31 - 102944 <= x)%Z -> Fp16_Model.cos x = Ub /\ Fp16_Model.tan x = Ub.
Proof.
  intros x R H. assert (C : Fp16_Model.cos x = Ub). { unfold Fp16_Model.cos. rewrite i32_ub by (unfold raw, f_pi_2; lia). reflexivity. }
  split; [exact C|]. unfold Fp16_Model.tan. rewrite C. destruct (sin_all x R) as (r & E & _). rewrite E. reflexivity.
Qed.
Print Assumptions C121_cos_undefined.
(** from 1.43 rad to pi/2 the cosine is too large by more than 0.0047; just below pi/2 it should be 0 *)
Theorem C121_cos_near_half_pi_refuted : forall x, (93664 <= x <= 102943)%Z -> exists r, Fp16_Model.cos x = Ok r /\ Rtrigo_def.cos (fxR x) + 0.0047 < fxR r.
Proof.
  intros x H. unfold Fp16_Model.cos. rewrite i32_ok by (unfold raw, f_pi_2; lia). cbn [bind]. destruct (far_sin (x + f_pi_2) ltac:(unfold f_pi_2; lia)) as (r & E & V). exists r. split; [exact E|]. pose proof (cos_shift x) as S. apply Rabs_le_inv in S. unfold ulp16 in S. lra.
Qed.
Print Assumptions C121_cos_near_half_pi_refuted.
(** up to 1 rad *)
Theorem C121_tan_accurate : forall x, (Z.abs x <= 65536)%Z -> exists r, Fp16_Model.tan x = Ok r /\ Rabs (fxR r - Rtrigo1.tan (fxR x)) <= 52 * ulp16.
Proof. exact tan_ok. Qed.
Print Assumptions C121_tan_accurate.
(** tan 1.5 is more than 14, the library says less than 13 *)
Theorem C121_tan_refuted : Fp16_Model.tan 98304 = Ok 849525%Z /\ fxR 849525 < 13 /\ fxR 98304 = 1.5 /\ 14 < Rtrigo1.tan 1.5.
Proof.
  split; [vm_compute; reflexivity|]. split; [unfold fxR; lra|]. split; [unfold fxR; lra|]. pose proof PI_bounds as P. unfold PIlo, PIhi in P. set (d := PI / 2 - 1.5). assert (D : 0 < d < 0.0708) by (unfold d; lra). unfold Rtrigo1.tan.
  replace (Rtrigo_def.sin 1.5) with (Rtrigo_def.cos d) by (unfold d; rewrite <- Rtrigo1.sin_shift; f_equal; lra). replace (Rtrigo_def.cos 1.5) with (Rtrigo_def.sin d) by (unfold d; rewrite <- Rtrigo1.cos_shift; f_equal; lra).
  assert (S : 0 < Rtrigo_def.sin d) by (apply sin_gt_0; lra). assert (S1 : Rtrigo_def.sin d < d) by (apply sin_lt_x; lra). pose proof (sin2_cos2 d) as Q. unfold Rsqr in Q. pose proof (COS_bound d). assert (C : 0.995 < Rtrigo_def.cos d). { assert (0 < Rtrigo_def.cos d) by (apply cos_gt_0; lra). nra. }
  apply (Rmult_lt_reg_r (Rtrigo_def.sin d)); [exact S|]. unfold Rdiv. rewrite Rmult_assoc, Rinv_l, Rmult_1_r by lra. lra.
Qed.
Print Assumptions C121_tan_refuted.
(** the sine of a right angle, of -3 rad, of 10000 turns; the cosine just below pi/2 is 0.0077 *)
Example C121_nonvacuous : Fp16_Model.sin 102944 = Ok 65536%Z /\ Fp16_Model.sin 196608 = Ok 9576%Z /\ Fp16_Model.cos 102943 = Ok 508%Z /\ Fp16_Model.tan 51472 = Ok 65539%Z /\ raw 411774000 /\ (Z.abs 102944 <= 168645)%Z.
Proof. unfold raw. repeat split; try (vm_compute; reflexivity); lia. Qed.

(** ** C122: exponential, hyperbolic functions *)
Theorem C122_exp_positive : forall x, (0 <= x <= 680919)%Z -> exists r, Fp16_Model.exp x = Ok r /\ Rabs (fxR r - Rtrigo_def.exp (fxR x)) <= Rtrigo_def.exp (fxR x) / 1600 + 20 * ulp16.
Proof. exact exp_nonneg_ok. Qed.
Print Assumptions C122_exp_positive.
Theorem C122_exp_negative : forall x, (-680919 <= x < 0)%Z -> exists r, Fp16_Model.exp x = Ok r /\ Rabs (fxR r - Rtrigo_def.exp (fxR x)) <= Rtrigo_def.exp (fxR x) / 1065 + ulp16 / 2.
Proof.
  intros x H. destruct (exp_neg_ok (- x) ltac:(lia)) as (r & E & V). rewrite Z.opp_involutive in E. exists r. split; [exact E|]. rewrite fx_opp, Ropp_involutive in V. unfold ulp16. lra.
Qed.
Print Assumptions C122_exp_negative.
Theorem C122_cosh_accurate : forall x, (Z.abs x <= 680919)%Z -> exists r, Fp16_Model.cosh x = Ok r /\ Rabs (fxR r - Rtrigo_def.cosh (fxR x)) <= Rtrigo_def.cosh (fxR x) / 1065 + 12 * ulp16.
Proof. exact cosh_ok. Qed.
Print Assumptions C122_cosh_accurate.
(** at 0 the result is 1: see C31 *)
Theorem C122_sinh_accurate : forall x, (Z.abs x <= 680919)%Z -> x <> 0%Z -> exists r, Fp16_Model.sinh x = Ok r /\ Rabs (fxR r - Rtrigo_def.sinh (fxR x)) <= Rtrigo_def.cosh (fxR x) / 1065 + 12 * ulp16.
Proof. exact sinh_ok. Qed.
Print Assumptions C122_sinh_accurate.
Theorem C122_tanh_accurate : forall x, raw x -> exists r, Fp16_Model.tanh x = Ok r /\ Rabs (fxR r - Rtrigo_def.tanh (fxR x)) <= / 1000 + ulp16 / 2.
Proof. exact tanh_ok. Qed.
Print Assumptions C122_tanh_accurate.
(** Between 10.3972 and 11 the hyperbolic sine and cosine are representable
    (below 29950), and the library answers its largest number (above 32767). *)
Theorem C122_hyperbolic_saturation_refuted : forall x, (681391 <= x <= 720896)%Z -> Fp16_Model.cosh x = Ok fMax /\ Fp16_Model.sinh x = Ok fMax /\ 32767 < fxR fMax /\ Rtrigo_def.cosh (fxR x) < 29950 /\ 0 < Rtrigo_def.sinh (fxR x) < 29950.
Proof.
  intros x H. unfold Fp16_Model.cosh, Fp16_Model.sinh. rewrite (proj2 (Z.eqb_neq x 0)) by lia. rewrite (proj2 (Z.leb_le exp_max x)) by (unfold exp_max; lia). cbn [orb]. split; [reflexivity|]. split; [reflexivity|]. split; [unfold fxR, fMax; lra|].
  assert (W : 10 <= fxR x <= 11) by (pose proof (fx_pos_le 681391 x ltac:(lia)); pose proof (fx_pos_le x 720896 ltac:(lia)); unfold fxR in *; lra).
  assert (U : Rtrigo_def.exp (fxR x) <= 59890). { eapply Rle_trans; [apply (exp_mono _ 11); lra|]. replace (Rtrigo_def.exp 11) with (Rtrigo_def.exp 1 ^ 11). 2:{ rewrite <- Rpower_pow by apply exp_pos. unfold Rpower. rewrite ln_exp. f_equal. rewrite INR_IZR_INZ. simpl. ring. } pose proof exp_one as O. apply Rabs_le_inv in O. unfold fxR, ulp16 in O. apply Rle_trans with (2.71831 ^ 11); [|lra]. apply pow_incr. split; [left; apply exp_pos|lra]. }
  pose proof (exp_increasing 0 (fxR x) ltac:(lra)) as L. rewrite exp_0 in L. pose proof (exp_increasing (- fxR x) 0 ltac:(lra)) as N. rewrite exp_0 in N. pose proof (exp_pos (- fxR x)). unfold Rtrigo_def.cosh, Rtrigo_def.sinh. lra.
Qed.
Print Assumptions C122_hyperbolic_saturation_refuted.
Example C122_nonvacuous : Fp16_Model.exp 131072 = Ok 484244%Z /\ Fp16_Model.exp (-131072) = Ok 8869%Z /\ Fp16_Model.cosh 65536 = Ok 101127%Z /\ Fp16_Model.sinh (-65536) = Ok (-77018)%Z /\ Fp16_Model.tanh 65536 = Ok 49911%Z.
Proof. repeat split; vm_compute; reflexivity. Qed.
