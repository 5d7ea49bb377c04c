(** Accuracy of the power function of Q16.16 numbers, general exponents (C125). *)
From Coq Require Import ZArith Reals Lra Lia Bool List Psatz.
From Coquelicot Require Import Rcomplements.
From Verif Require Import Base BaseLemmas Fp16_Model Fp16_Spec Fp16_Proofs Fp16_Proofs2 Fp16Fun_Spec Fp16Fun_Proofs Fp16Fun_Proofs2 Fp16Fun_Proofs3 Fp16Fun_Proofs6 Fp16Log_Proofs Fp16Log_Proofs3 Fp16Fun_Properties Fp16Pow_Spec.
From Verif Require Ffmath_Proofs12.
Open Scope R_scope.

Local Notation expR := Rtrigo_def.exp.
Local Notation u := (/ 131072).

Lemma exp_near d e : Rabs d <= e -> e <= 0.051 -> Rabs (expR d - 1) <= 1.054 * e.
Proof.
  intros H He. apply Rabs_le_between in H. pose proof (exp_ineq1_le d) as L. pose proof (exp_ineq1_le (- d)) as L2. pose proof (exp_pos d) as P.
  assert (M : expR d * expR (- d) = 1) by (rewrite <- exp_plus; replace (d + - d) with 0 by ring; apply exp_0).
  assert (U : expR d * (1 - d) <= 1) by nra.
  apply Rabs_le. split; [lra|]. assert ((expR d - 1) * (1 - d) <= d) by lra. destruct (Rle_dec d 0); [nra|]. apply Rnot_lt_le. intros N. nra.
Qed.

Lemma ln_raw x : raw x -> (0 < x)%Z -> Rabs (ln (fxR x)) <= 12.
Proof.
  intros R H. pose proof Ffmath_Proofs12.ln2_bnd as B. assert (P : / 2 ^ 16 <= fxR x <= 2 ^ 15).
  { unfold raw in R. assert (A1 : (1 <= x)%Z) by lia. assert (A2 : (x <= 2147483648)%Z) by lia. apply IZR_le in A1, A2. unfold fxR. simpl. lra. }
  assert (L1 : ln (/ 2 ^ 16) <= ln (fxR x)) by (apply ln_le; [apply Rinv_0_lt_compat, pow_lt; lra|lra]). assert (P0 : 0 < fxR x) by (apply IZR_lt in H; unfold fxR; lra).
  assert (L2 : ln (fxR x) <= ln (2 ^ 15)) by (apply ln_le; lra). rewrite ln_Rinv in L1 by (apply pow_lt; lra). rewrite ln_pow2 in L1, L2. rewrite INR_IZR_INZ in L1, L2. simpl Z.of_nat in L1, L2. apply Rabs_le. lra.
Qed.

Definition pow_gen (ax y : Z) : res Z := l <- Fp16_Model.log ax ;; tmp <- mul y l ;; if negb (overflow =? tmp)%Z then Fp16_Model.exp tmp else Ok overflow.
Lemma pow_gen_ok x y : raw x -> (0 < x)%Z -> Rabs (fxR y) * logerr (fxR x) <= / 20 -> Rabs (fxR y * ln (fxR x)) <= 10.3 ->
  exists r, pow_gen x y = Ok r /\ Rabs (fxR r - Rpower (fxR x) (fxR y)) <= Rpower (fxR x) (fxR y) * (1.1 * (Rabs (fxR y) * logerr (fxR x)) + / 900) + 20 * ulp16 /\ Rabs (fxR r) <= 32767.
Proof.
  intros R H HY HL. unfold pow_gen. destruct (log_ok x R H) as (l & El & Vl). fold (logerr (fxR x)) in Vl. rewrite El. cbn [bind].
  assert (P0 : 0 < fxR x) by (apply IZR_lt in H; unfold fxR; lra).
  assert (PX : / 65536 <= fxR x) by (assert (1 <= x)%Z by lia; apply IZR_le in H0; unfold fxR; lra).
  assert (E0 : 12 / 10000 <= logerr (fxR x) <= 0.0108). { unfold logerr. assert (0 < / (6900000 * fxR x)) by (apply Rinv_0_lt_compat; lra). assert (/ (6900000 * fxR x) <= / (6900000 * / 65536)) by (apply Rinv_le_contravar; lra). split; [lra|]. lra. }
  pose proof (ln_raw x R H) as LB. pose proof (Rabs_pos (fxR y)) as Y0. assert (YB : Rabs (fxR y) <= 42) by nra.
  set (L := ln (fxR x)) in *. set (Y := fxR y) in *. set (dl := logerr (fxR x)) in *. pose proof (rab _ _ _ Vl) as Bl.
  destruct (mul_fx y l) as (t & Et & Vt & _); [apply fx_raw; fold Y; lra|apply fx_raw; lra|apply safe_fx; fold Y; lra|fold Y; rewrite Rabs_mult; pose proof (Rabs_pos (fxR l)); nra|]. fold Y in Vt. rewrite Et. cbn [bind].
  set (d := fxR t - Y * L). set (eta := Rabs Y * dl + u).
  assert (D : Rabs d <= eta). { unfold d, eta. replace (fxR t - Y * L) with ((fxR t - Y * fxR l) + Y * (fxR l - L)) by ring. eapply Rle_trans; [apply Rabs_triang|]. rewrite (Rabs_mult Y). pose proof (Rabs_pos (fxR l - L)). nra. }
  assert (Eta : eta <= 0.0501) by (unfold eta; lra).
  assert (TB : Rabs (fxR t) <= 10.3502) by (replace (fxR t) with (Y * L + d) by (unfold d; ring); eapply Rle_trans; [apply Rabs_triang|]; lra).
  assert (TZ : (-680919 <= t <= 680919)%Z). { apply Rabs_le_between in TB. assert (IZR t = fxR t * 65536) by (unfold fxR; field). split; [apply Z.lt_succ_r, lt_IZR; rewrite succ_IZR|apply Z.lt_succ_r, lt_IZR; rewrite succ_IZR]; lra. }
  replace (overflow =? t)%Z with false by (unfold overflow; lia). cbn [negb].
  assert (XE : exists r, Fp16_Model.exp t = Ok r /\ Rabs (fxR r - expR (fxR t)) <= expR (fxR t) / 1065 + 20 * ulp16).
  { destruct (Z_lt_le_dec t 0).
    - destruct (C122_exp_negative t ltac:(lia)) as (r & E & V). exists r. split; [exact E|]. unfold ulp16 in *. lra.
    - destruct (C122_exp_positive t ltac:(lia)) as (r & E & V). exists r. split; [exact E|]. pose proof (exp_pos (fxR t)). lra. }
  destruct XE as (r & Er & Vr). exists r. split; [exact Er|].
  assert (PW : expR (fxR t) = Rpower (fxR x) Y * expR d). { unfold Rpower. rewrite <- exp_plus. f_equal. fold L. unfold d. ring. }
  pose proof (exp_pos (Y * L)) as PP. assert (PQ : Rpower (fxR x) Y = expR (Y * L)) by reflexivity.
  pose proof (exp_near d eta D ltac:(lra)) as N. apply Rabs_le_between in N. rewrite PW in Vr. rewrite PQ in *. set (W := expR (Y * L)) in *. set (ed := expR d) in *.
  assert (Q1 : Rabs (W * ed - W) <= W * (1.054 * eta)) by (replace (W * ed - W) with (W * (ed - 1)) by ring; rewrite Rabs_mult, (Rabs_pos_eq W) by lra; apply Rmult_le_compat_l; [lra|apply Rabs_le; lra]).
  assert (Q2 : W * ed <= W * 1.053) by (apply Rmult_le_compat_l; lra).
  split.
  - replace (fxR r - W) with ((fxR r - W * ed) + (W * ed - W)) by ring. eapply Rle_trans; [apply Rabs_triang|]. unfold eta in Q1.
    assert (0 <= W * (Rabs Y * dl)) by (apply Rmult_le_pos; [lra|apply Rmult_le_pos; lra]). lra.
  - assert (EB : expR (fxR t) <= 32545). { destruct (exp_range 680919 ltac:(lia)) as (_ & B). eapply Rle_trans; [|exact B]. apply Fp16Fun_Proofs5.exp_mono. apply fx_pos_le. lia. }
    rewrite PW in EB. pose proof (exp_pos d) as PD. fold ed in PD. assert (0 <= W * ed) by (apply Rmult_le_pos; lra). apply Rabs_le_between in Vr. unfold ulp16 in Vr. apply Rabs_le. lra.
Qed.

(** [pow] with an exponent that is not a positive integer *)
Lemma pow_not_int y : raw y -> not_nat y -> (Z.land (u32 y) fraction_mask =? 0)%Z && (0 <? y)%Z = false.
Proof.
  intros R [H|H]; [replace (0 <? y)%Z with false by lia; apply andb_false_r|]. apply andb_false_intro1. apply Z.eqb_neq. unfold fraction_mask. change 65535%Z with (Z.ones 16). rewrite Z.land_ones by lia. change (2 ^ 16)%Z with 65536%Z.
  unfold u32. rewrite <- Znumtheory.Zmod_div_mod; [exact H|lia|lia|exists 65536%Z; reflexivity].
Qed.
Lemma pow_pos_ok x y : raw x -> (0 < x)%Z -> raw y -> not_nat y -> Rabs (fxR y) * logerr (fxR x) <= / 20 -> Rabs (fxR y * ln (fxR x)) <= 10.3 ->
  exists r, Fp16_Model.pow x y = Ok r /\ Rabs (fxR r - Rpower (fxR x) (fxR y)) <= Rpower (fxR x) (fxR y) * (1.1 * (Rabs (fxR y) * logerr (fxR x)) + / 900) + 20 * ulp16.
Proof.
  intros R H Ry NN HY HL. destruct (pow_gen_ok x y R H HY HL) as (r & E & V & B). exists r. split; [|exact V].
  unfold Fp16_Model.pow. rewrite (pow_not_int y Ry NN). unfold absolute, fMin. replace (x =? -2147483647)%Z with false by lia. replace (0 <=? x)%Z with true by lia. cbn [bind].
  unfold pow_gen in E. destruct (Fp16_Model.log x) as [l|]; cbn [bind] in *; [|discriminate]. destruct (mul y l) as [t|]; cbn [bind] in *; [|discriminate].
  destruct (negb (overflow =? t)%Z); [|exact E]. rewrite E. cbn [bind]. replace (x <? 0)%Z with false by lia. reflexivity.
Qed.
Lemma pow_neg_ok x y : (- 2 ^ 31 + 1 < x < 0)%Z -> raw y -> not_nat y -> Rabs (fxR y) * logerr (- fxR x) <= / 20 -> Rabs (fxR y * ln (- fxR x)) <= 10.3 ->
  exists r, Fp16_Model.pow x y = Ok r /\ Rabs (fxR r - - Rpower (- fxR x) (fxR y)) <= Rpower (- fxR x) (fxR y) * (1.1 * (Rabs (fxR y) * logerr (- fxR x)) + / 900) + 20 * ulp16.
Proof.
  intros H Ry NN HY HL. rewrite <- fx_opp in *. destruct (pow_gen_ok (- x) y ltac:(unfold raw; lia) ltac:(lia) HY HL) as (r & E & V & B). exists (- r)%Z.
  split; [|rewrite fx_opp; replace (- fxR r - - Rpower (fxR (- x)) (fxR y)) with (- (fxR r - Rpower (fxR (- x)) (fxR y))) by ring; rewrite Rabs_Ropp; exact V].
  unfold Fp16_Model.pow. rewrite (pow_not_int y Ry NN). unfold absolute, fMin. replace (x =? -2147483647)%Z with false by lia. replace (0 <=? x)%Z with false by lia. rewrite Fp16_Proofs.i32_ok by (unfold raw; lia). cbn [bind].
  unfold pow_gen in E. destruct (Fp16_Model.log (- x)) as [l|]; cbn [bind] in *; [|discriminate]. destruct (mul y l) as [t|]; cbn [bind] in *; [|discriminate].
  destruct (negb (overflow =? t)%Z).
  - rewrite E. cbn [bind]. replace (x <? 0)%Z with true by lia. apply fx_i32. rewrite fx_opp, Rabs_Ropp. exact B.
  - exfalso. injection E as <-. unfold overflow, fxR in B. rewrite Rabs_left in B; lra.
Qed.

Lemma mul_zero_l l : raw l -> Rabs (fxR l) <= 32000 -> mul 0 l = Ok 0%Z.
Proof.
  intros R B. assert (F0 : fxR 0 = 0) by (unfold fxR; lra). destruct (mul_fx 0 l) as (r & E & V & _); [unfold raw; lia|exact R|apply safe_fx; rewrite F0, Rabs_R0; lra|rewrite F0, Rmult_0_l, Rabs_R0; lra|].
  rewrite F0, Rmult_0_l, Rminus_0_r in V. unfold fxR, Rdiv in V. rewrite Rabs_mult, <- abs_IZR, (Rabs_pos_eq (/ 65536)) in V by lra. assert (IZR (Z.abs r) < 1) by lra. apply lt_IZR in H. replace r with 0%Z in E by lia. exact E.
Qed.
Lemma pow_zero x : raw x -> (fMin < x)%Z -> Fp16_Model.pow x 0 = Ok (if (x <? 0)%Z then (-65536)%Z else 65536%Z).
Proof.
  intros R M. destruct (Z.eq_dec x 0) as [->|N]; [vm_compute; reflexivity|]. unfold Fp16_Model.pow. rewrite (pow_not_int 0) by (unfold raw, not_nat; lia).
  unfold absolute. replace (x =? fMin)%Z with false by lia. assert (A : exists a, (if (0 <=? x)%Z then Ok x else i32 (- x)) = Ok a /\ raw a /\ (0 < a)%Z).
  { unfold fMin in M. destruct (Z.leb_spec 0 x); [exists x|exists (- x)%Z]; (split; [try reflexivity; apply Fp16_Proofs.i32_ok|]); unfold raw in *; lia. }
  destruct A as (a & -> & Ra & Pa). cbn [bind]. destruct (log_ok a Ra Pa) as (l & El & Vl). rewrite El. cbn [bind].
  pose proof (ln_raw a Ra Pa) as LB. pose proof (rab _ _ _ Vl) as Bl.
  assert (I : / (6900000 * fxR a) <= 0.01). { assert (/ 65536 <= fxR a) by (assert (1 <= a)%Z by lia; apply IZR_le in H; unfold fxR; lra). eapply Rle_trans; [apply (Rinv_le_contravar (6900000 * / 65536)); lra|]. lra. }
  rewrite mul_zero_l by (try apply fx_raw; lra). cbn [bind]. replace (overflow =? 0)%Z with false by reflexivity. cbn [negb]. change (Fp16_Model.exp 0) with (Ok 65536%Z). cbn [bind]. destruct (x <? 0)%Z; reflexivity.
Qed.
