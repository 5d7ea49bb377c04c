(** The natural logarithm of Q16.16 numbers: scaling and the result. *)
From Coq Require Import ZArith Reals Lra Lia Bool.
From Flocq Require Import Raux.
From Verif Require Import Base BaseLemmas Fp16_Model Fp16_Spec Fp16_Proofs Fp16_Proofs2 Fp16Fun_Spec Fp16Fun_Proofs Fp16Fun_Proofs2 Fp16Fun_Proofs5 Fp16Fun_Proofs6 Fp16Log_Proofs Fp16Log_Proofs2.
Open Scope R_scope.
Local Notation expR := Rtrigo_def.exp.

Lemma le_div a b c : 0 < c -> a * c <= b -> a <= b / c. Proof. intros C H. apply (Rmult_le_reg_r c); [exact C|]. unfold Rdiv. rewrite Rmult_assoc, Rinv_l by lra. lra. Qed.
Lemma div_le a b c : 0 < c -> b <= a * c -> b / c <= a. Proof. intros C H. apply (Rmult_le_reg_r c); [exact C|]. unfold Rdiv. rewrite Rmult_assoc, Rinv_l by lra. lra. Qed.
Definition c4 : R := 3578144 / 65536.
Lemma ln_c4 : Rabs (ln c4 - 4) <= 4 / 100000.
Proof.
  rewrite <- (ln_exp 4) at 1. replace (4 / 100000) with (216 / 100000 / 54) by lra. pose proof exp_one as O. apply Rabs_le_inv in O. unfold fxR, ulp16 in O.
  assert (E : expR 4 = expR 1 ^ 4) by (rewrite <- Rpower_pow by apply exp_pos; unfold Rpower; rewrite ln_exp; f_equal; rewrite INR_IZR_INZ; simpl; ring).
  assert (L : (178144 / 65536) ^ 4 <= expR 4) by (rewrite E; apply pow_incr; lra). assert (U : expR 4 <= (178146 / 65536) ^ 4) by (rewrite E; apply pow_incr; split; [left; apply exp_pos|lra]).
  apply ln_diff; unfold c4 in *; try lra. apply Rabs_le. lra.
Qed.
Lemma fxp x : (1 <= x)%Z -> / 65536 <= fxR x. Proof. intros H. apply (fx_pos_le 1 x) in H. unfold fxR in H at 1. lra. Qed.
Lemma down_step x : raw x -> (6553600 < x)%Z -> exists q, div x 3578144 = Ok q /\ (65536 <= q)%Z /\ (54 * q <= x)%Z /\ Rabs (ln (fxR q) - (ln (fxR x) - 4)) <= 5 / 100000.
Proof.
  intros R H. assert (X : 100 < fxR x < 32768). { unfold raw in R. change (2 ^ 31)%Z with 2147483648%Z in R. assert (IZR x < 2147483648) by (apply IZR_lt; lia). assert (6553600 < IZR x) by (apply IZR_lt; lia). unfold fxR. lra. }
  assert (C : fxR 3578144 = c4) by reflexivity. assert (C4 : 54.5981 < c4 < 54.5982) by (unfold c4; lra).
  assert (Q1 : 1.83 <= fxR x / c4) by (apply le_div; lra). assert (Q2 : fxR x / c4 <= 601) by (apply div_le; lra).
  destruct (div_fx x 3578144) as (q & E & V & _); [exact R|unfold raw; lia|lia|unfold sentinel; lia|unfold sentinel; lia|rewrite C, Rabs_pos_eq; lra|]. rewrite C in V. exists q. split; [exact E|]. pose proof V as V'. apply Rabs_le_inv in V.
  assert (W : fxR q = IZR q / 65536) by reflexivity. split; [apply le_IZR; lra|]. split.
  { apply le_IZR. rewrite mult_IZR. assert (K : 54.5981 * (fxR x / c4) <= fxR x). { apply Rle_trans with (c4 * (fxR x / c4)); [apply Rmult_le_compat_r; lra|]. right. field. lra. } assert (W2 : fxR x = IZR x / 65536) by reflexivity. lra. }
  assert (D : Rabs (ln (fxR q) - ln (fxR x / c4)) <= / 131072 / 1.8) by (apply ln_diff; lra). rewrite Fp16Log_Proofs.ln_div in D by lra. pose proof ln_c4 as L. apply Rabs_le_inv in D. apply Rabs_le_inv in L. apply Rabs_le. lra.
Qed.
Lemma down_base fuel x s : (x <= 6553600)%Z -> log_down (S fuel) x s = Ok (x, s). Proof. intros H. cbn [log_down]. rewrite (proj2 (Z.ltb_ge _ _)) by lia. reflexivity. Qed.
Lemma down_unfold fuel x s q : (6553600 < x)%Z -> div x 3578144 = Ok q -> log_down (S fuel) x s = log_down fuel q (s + 4).
Proof. intros H E. cbn [log_down]. rewrite (proj2 (Z.ltb_lt _ _)) by lia. rewrite E. reflexivity. Qed.
Lemma down_ok x : raw x -> (65536 <= x)%Z -> exists k x', log_down 20 x 0 = Ok (x', (4 * k)%Z) /\ (0 <= k <= 2)%Z /\ (65536 <= x' <= 6553600)%Z /\ Rabs (ln (fxR x') - (ln (fxR x) - 4 * IZR k)) <= 10 / 100000.
Proof.
  intros R H. destruct (Z_le_gt_dec x 6553600) as [S|G].
  { exists 0%Z, x. split; [apply down_base; exact S|]. split; [lia|]. split; [lia|]. replace (ln (fxR x) - (ln (fxR x) - 4 * IZR 0)) with 0 by ring. rewrite Rabs_R0. lra. }
  destruct (down_step x R ltac:(lia)) as (q & E & L & U & V). unfold raw in R. change (2 ^ 31)%Z with 2147483648%Z in R. rewrite (down_unfold 19 x 0 q) by (exact E || lia). destruct (Z_le_gt_dec q 6553600) as [S2|G2].
  { exists 1%Z, q. split; [apply down_base; exact S2|]. split; [lia|]. split; [lia|]. apply Rabs_le_inv in V. apply Rabs_le. lra. }
  destruct (down_step q ltac:(unfold raw; lia) ltac:(lia)) as (q2 & E2 & L2 & U2 & V2). rewrite (down_unfold 18 q _ q2) by (exact E2 || lia). exists 2%Z, q2. split; [apply down_base; lia|]. split; [lia|]. split; [lia|]. apply Rabs_le_inv in V. apply Rabs_le_inv in V2. apply Rabs_le. lra.
Qed.
Lemma up_step x : (1 <= x < 65536)%Z -> exists x1, mul x 3578144 = Ok x1 /\ (54 * x <= x1 <= 6553600)%Z /\ Rabs (ln (fxR x1) - (ln (fxR x) + 4)) <= 4 / 100000 + / 131072 / (54 * fxR x).
Proof.
  intros H. pose proof (fxp x ltac:(lia)) as P. assert (X : fxR x < 1) by (assert (IZR x < 65536) by (apply IZR_lt; lia); unfold fxR; lra). assert (C : fxR 3578144 = c4) by reflexivity. assert (C4 : 54.5981 < c4 < 54.5982) by (unfold c4; lra). assert (PC : 54.5981 * fxR x <= fxR x * c4 <= 54.6) by nra.
  destruct (mul_fx x 3578144) as (x1 & E & V & _); [unfold raw; lia|unfold raw; lia|apply safe_fx; rewrite C, !Rabs_pos_eq; lra|rewrite C, Rabs_pos_eq; lra|]. rewrite C in V. exists x1. split; [exact E|]. pose proof V as V'. apply Rabs_le_inv in V. assert (W : fxR x1 = IZR x1 / 65536) by reflexivity. assert (W2 : fxR x = IZR x / 65536) by reflexivity.
  split; [split; apply le_IZR; rewrite ?mult_IZR; lra|].
  assert (D : Rabs (ln (fxR x1) - ln (fxR x * c4)) <= / 131072 / (54 * fxR x)) by (apply ln_diff; lra). rewrite ln_mult in D by lra. pose proof ln_c4 as L. apply Rabs_le_inv in L. apply Rabs_le_inv in D. apply Rabs_le. lra.
Qed.
Lemma up_ok : forall j fuel x s, (1 <= x <= 6553600)%Z -> (65536 <= 54 ^ Z.of_nat j * x)%Z -> (j < fuel)%nat ->
  exists k x', log_up fuel x s = Ok (x', (s - 4 * Z.of_nat k)%Z) /\ (k <= j)%nat /\ (65536 <= x' <= 6553600)%Z /\ Rabs (ln (fxR x') - (ln (fxR x) + 4 * INR k)) <= 4 / 100000 * INR k + 1.02 * / 131072 / (54 * fxR x).
Proof.
  induction j as [|j IH]; intros fuel x s H Hj F; (destruct fuel as [|f]; [lia|]); pose proof (fxp x ltac:(lia)) as P.
  - change (54 ^ Z.of_nat 0)%Z with 1%Z in Hj. exists 0%nat, x. cbn [log_up]. unfold one. rewrite (proj2 (Z.ltb_ge _ _)) by lia. split; [f_equal; f_equal; lia|]. split; [lia|]. split; [lia|]. cbn [INR]. replace (ln (fxR x) - (ln (fxR x) + 4 * 0)) with 0 by ring. rewrite Rabs_R0. assert (0 < / (54 * fxR x)) by (apply Rinv_0_lt_compat; lra). unfold Rdiv. lra.
  - cbn [log_up]. unfold one. destruct (Z.ltb_spec x 65536) as [L|G].
    + destruct (up_step x ltac:(lia)) as (x1 & E & B & V). rewrite E. cbn [bind]. replace (Z.of_nat (S j)) with (1 + Z.of_nat j)%Z in Hj by lia. rewrite Z.pow_add_r in Hj by lia. change (54 ^ 1)%Z with 54%Z in Hj. assert (P54 : (0 < 54 ^ Z.of_nat j)%Z) by (apply Z.pow_pos_nonneg; lia).
      destruct (IH f x1 (s - 4)%Z ltac:(lia) ltac:(nia) ltac:(lia)) as (k & x' & E' & K & B' & V'). exists (S k), x'. split; [rewrite E'; f_equal; f_equal; lia|]. split; [lia|]. split; [exact B'|]. rewrite S_INR.
      assert (X1 : 54 * fxR x <= fxR x1). { assert (IZR (54 * x) <= IZR x1) by (apply IZR_le; lia). rewrite mult_IZR in H0. unfold fxR. lra. }
      assert (I : / (54 * fxR x1) <= / 54 * / (54 * fxR x)). { rewrite <- Rinv_mult. apply Rinv_le_contravar; [|]; nra. } assert (I0 : 0 < / (54 * fxR x)) by (apply Rinv_0_lt_compat; lra). set (i := / (54 * fxR x)) in *. set (i1 := / (54 * fxR x1)) in *. unfold Rdiv in V, V' |- *. fold i in V |- *. fold i1 in V'. clearbody i i1. apply Rabs_le_inv in V. apply Rabs_le_inv in V'. apply Rabs_le. lra.
    + exists 0%nat, x. split; [f_equal; f_equal; lia|]. split; [lia|]. split; [lia|]. cbn [INR]. replace (ln (fxR x) - (ln (fxR x) + 4 * 0)) with 0 by ring. rewrite Rabs_R0. assert (0 < / (54 * fxR x)) by (apply Rinv_0_lt_compat; lra). unfold Rdiv. lra.
Qed.
Lemma from_int_small n : (-100 <= n <= 100)%Z -> fromInt n = (n * 65536)%Z. Proof. intros H. apply fromInt_ok. lia. Qed.
Lemma finish x' g k (B : (65536 <= x' <= 6553600)%Z) : done g x' -> (-3 <= k <= 2)%Z -> Rabs (fxR (g + fromInt (4 * k)) - (ln (fxR x') + 4 * IZR k)) <= / 1000 /\ i32 (g + fromInt (4 * k)) = Ok (g + fromInt (4 * k))%Z.
Proof.
  intros D K. rewrite from_int_small by lia. assert (E : fxR (4 * k * 65536) = 4 * IZR k) by (unfold fxR; rewrite !mult_IZR; field). rewrite fx_add, E. unfold done in D. split; [replace (fxR g + 4 * IZR k - (ln (fxR x') + 4 * IZR k)) with (fxR g - ln (fxR x')) by ring; exact D|].
  apply fx_i32. rewrite fx_add, E. pose proof (lx_range x' B). apply Rabs_le_inv in D. assert (-3 <= IZR k <= 2) by (split; apply IZR_le; lia). apply Rabs_le. lra.
Qed.
Lemma log_ok x : raw x -> (0 < x)%Z -> exists r, Fp16_Model.log x = Ok r /\ Rabs (fxR r - ln (fxR x)) <= 12 / 10000 + / (6900000 * fxR x).
Proof.
  intros R H. pose proof (fxp x ltac:(lia)) as P. assert (I : 0 < / fxR x) by (apply Rinv_0_lt_compat; lra). rewrite Rinv_mult. unfold Fp16_Model.log. rewrite (proj2 (Z.ltb_lt 0 x)) by exact H. destruct (Z_lt_ge_dec x 65536) as [L|G].
  - rewrite down_base by lia. cbn [bind fst snd]. destruct (up_ok 3 20 x 0 ltac:(lia)) as (k & x' & E & K & B & V); [change (54 ^ Z.of_nat 3)%Z with 157464%Z; lia|lia|]. rewrite E. cbn [bind fst snd]. destruct (newton_ok x' B) as (g & Eg & Dg). rewrite Eg. cbn [bind]. rewrite Z.sub_0_l. replace (- (4 * Z.of_nat k))%Z with (4 * - Z.of_nat k)%Z by lia.
    destruct (finish x' g (- Z.of_nat k) B Dg ltac:(lia)) as (F & Ei). rewrite Ei. eexists. split; [reflexivity|]. rewrite opp_IZR, <- INR_IZR_INZ in F. assert (KB : INR k <= 3) by (apply le_INR in K; rewrite (INR_IZR_INZ 3) in K; exact K). unfold Rdiv in V. rewrite Rinv_mult in V. apply Rabs_le_inv in F. apply Rabs_le_inv in V. apply Rabs_le. lra.
  - destruct (down_ok x R ltac:(lia)) as (k & x' & E & K & B & V). rewrite E. cbn [bind fst snd]. destruct (up_ok 0 20 x' (4 * k)%Z ltac:(lia)) as (k2 & x2 & E2 & K2 & B2 & V2); [change (54 ^ Z.of_nat 0)%Z with 1%Z; lia|lia|]. assert (k2 = 0%nat) as -> by lia. cbn [log_up] in E2 |- *. unfold one in *. rewrite (proj2 (Z.ltb_ge _ _)) in E2 |- * by lia. cbn [bind fst snd]. destruct (newton_ok x' B) as (g & Eg & Dg). rewrite Eg. cbn [bind].
    destruct (finish x' g k B Dg ltac:(lia)) as (F & Ei). rewrite Ei. eexists. split; [reflexivity|]. apply Rabs_le_inv in F. apply Rabs_le_inv in V. apply Rabs_le. lra.
Qed.
