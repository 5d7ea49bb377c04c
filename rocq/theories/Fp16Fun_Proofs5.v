(** The exponential of Q16.16 numbers: the bound on the result. *)
From Coq Require Import ZArith Reals Lra Lia Bool.
From Flocq Require Import Raux.
From Verif Require Import Base BaseLemmas Fp16_Model Fp16_Spec Fp16_Proofs Fp16_Proofs2 Fp16Fun_Spec Fp16Fun_Proofs Fp16Fun_Proofs2 Expint_Proofs3 Fp16Fun_Proofs3 Fp16Fun_Proofs4.
Open Scope R_scope.
Local Notation expR := Rtrigo_def.exp.

(** n! <= ((n + 1) / 2) ^ n *)
Lemma fact_mean n : 1 <= T ((INR n + 1) / 2) n.
Proof.
  induction n as [|n IH]; [rewrite T_0; lra|]. pose proof (S_pos n) as P. pose proof (fact_pos n) as F. pose proof (pos_INR n) as N. set (c := (INR n + 1) / 2) in *. assert (C : 0 < c) by (unfold c; lra).
  assert (E : (INR (S n) + 1) / 2 = c * (1 + / INR (S n))) by (rewrite S_INR in *; unfold c; field; lra). rewrite E.
  unfold T in *. rewrite Rpow_mult_distr. pose proof (poly (S n) (/ INR (S n)) (Rinv_0_lt_compat _ P)) as B. rewrite Rinv_r in B by lra.
  assert (I : INR (Factorial.fact n) <= c ^ n). { apply Rcomplements.Rle_div_r in IH; lra. }
  apply Rcomplements.Rle_div_r; [apply fact_pos|]. rewrite Rmult_1_l. change (INR (Factorial.fact (S n))) with (INR (S n * Factorial.fact n)). rewrite mult_INR.
  apply Rle_trans with (c ^ S n * 2). 
  - change (c ^ S n) with (c * c ^ n). replace (INR (S n)) with (2 * c) by (unfold c; rewrite S_INR; lra). rewrite Rmult_assoc. assert (K : c * INR (Factorial.fact n) <= c * c ^ n) by (apply Rmult_le_compat_l; lra). set (a := c * INR (Factorial.fact n)) in *. set (b := c * c ^ n) in *. clearbody a b. lra.
  - apply Rmult_le_compat_l; [left; apply pow_lt, C|]. lra.
Qed.
Lemma exp_mono a b : a <= b -> expR a <= expR b. Proof. intros [H| ->]; [left; apply exp_increasing, H|lra]. Qed.
Lemma exp_pow8 a : expR (8 * a) = expR a ^ 8.
Proof. rewrite <- Rpower_pow by apply exp_pos. unfold Rpower. rewrite ln_exp. f_equal. rewrite INR_IZR_INZ. reflexivity. Qed.
Lemma exp33_hi : expR 3.3003 <= 27.2.
Proof.
  replace 3.3003 with (8 * 0.4125375) by lra. rewrite exp_pow8. assert (A : expR 0.4125375 <= 1.5107). { eapply Rle_trans; [apply (exp_tail _ 6); [lra|rewrite INR_IZR_INZ; simpl; lra]|]. cbn [Sm]. unfold T. destruct PolyBound.facts as (-> & -> & -> & -> & -> & -> & -> & _). lra. }
  eapply Rle_trans; [apply pow_incr; split; [left; apply exp_pos|exact A]|]. lra.
Qed.
Lemma exp33_lo : 27 <= expR 3.3.
Proof.
  replace 3.3 with (8 * 0.4125) by lra. rewrite exp_pow8. assert (A : 1.5104 <= expR 0.4125). { eapply Rle_trans; [|apply (Sm_exp _ 5); lra]. cbn [Sm]. unfold T. destruct PolyBound.facts as (-> & -> & -> & -> & -> & _). lra. }
  apply Rle_trans with (1.5104 ^ 8); [lra|]. apply pow_incr. lra.
Qed.
Lemma Tdown x n d : 0 < x <= 10.39 -> INR (S n) = d -> 0 < d -> T x (S n) <= T x n * (10.39 / d).
Proof. intros H E D. rewrite T_S, E. apply Rmult_le_compat_l; [left; apply T_pos; lra|]. apply Rmult_le_compat_r; [left; apply Rinv_0_lt_compat, D|lra]. Qed.
Lemma T29 x : 0 < x <= 10.39 -> T x 29 <= expR x * 3 / 100000.
Proof.
  intros H. pose proof (T_le_exp x 15 ltac:(lra)) as E.
  assert (S : forall n d, IZR (Z.of_nat (S n)) = d -> 0 < d -> T x (S n) <= T x n * (10.39 / d)) by (intros n d E' D; apply Tdown; [exact H|rewrite INR_IZR_INZ; exact E'|exact D]).
  pose proof (S 15%nat 16 eq_refl ltac:(lra)). pose proof (S 16%nat 17 eq_refl ltac:(lra)). pose proof (S 17%nat 18 eq_refl ltac:(lra)). pose proof (S 18%nat 19 eq_refl ltac:(lra)). pose proof (S 19%nat 20 eq_refl ltac:(lra)). pose proof (S 20%nat 21 eq_refl ltac:(lra)). pose proof (S 21%nat 22 eq_refl ltac:(lra)). pose proof (S 22%nat 23 eq_refl ltac:(lra)). pose proof (S 23%nat 24 eq_refl ltac:(lra)). pose proof (S 24%nat 25 eq_refl ltac:(lra)). pose proof (S 25%nat 26 eq_refl ltac:(lra)). pose proof (S 26%nat 27 eq_refl ltac:(lra)). pose proof (S 27%nat 28 eq_refl ltac:(lra)). pose proof (S 28%nat 29 eq_refl ltac:(lra)).
  pose proof (exp_pos x). lra.
Qed.

Section Bound.
Variable X : Z.
Hypothesis HX : (0 < X <= 680919)%Z.
Let x := fxR X.
Let y := x + 30 * u.
Lemma ey : expR y <= 1.0003 * expR x.
Proof.
  unfold y. rewrite exp_plus. rewrite Rmult_comm. apply Rmult_le_compat_r; [left; apply exp_pos|]. eapply Rle_trans; [apply (exp_tail _ 2); [unfold u; lra|rewrite INR_IZR_INZ; simpl; unfold u; lra]|]. cbn [Sm]. unfold T. destruct PolyBound.facts as (-> & -> & -> & _). unfold u. lra.
Qed.
(** Stopping means that the argument is small against the index. *)
Lemma stop_small n t : (2 <= n)%nat -> Rabs (fxR t - T x n) <= dd y (pred n) -> fxR t < 500 * ulp16 -> x <= INR (S n) / 2.
Proof.
  intros Hn Ht H500. apply Rnot_lt_le. intros C. destruct n as [|m]; [lia|]. cbn [pred] in Ht. pose proof (x_bnd X HX) as Xb. fold x in Xb. pose proof (y_bnd X HX) as Yb. fold x in Yb. fold y in Yb. pose proof (y_pos X HX) as Yp. fold x in Yp. fold y in Yp. pose proof (EX_le X HX) as EX. fold x in EX. fold y in EX.
  assert (F1 : 1 <= T x (S m)). { eapply Rle_trans; [apply (fact_mean (S m))|]. apply T_mono. rewrite (S_INR (S m)) in C. pose proof (pos_INR (S m)). lra. }
  assert (M : INR (S m) <= 20) by (rewrite (S_INR (S m)) in C; lra). assert (M2 : 2 <= INR (S m)) by (change 2 with (INR 2); apply le_INR; lia).
  assert (P : T x m <= 2 * T x (S m)). { rewrite (T_S x m). pose proof (T_pos x m ltac:(lra)). assert (/ 2 <= x / INR (S m)) by (apply Rcomplements.Rle_div_r; rewrite (S_INR (S m)) in C; lra). assert (T x m * / 2 <= T x m * (x / INR (S m))) by (apply Rmult_le_compat_l; lra). lra. }
  assert (Q : T y m <= 1.1 * T x m).
  { assert (Y : y <= x * (1 + / 4000)). { rewrite (S_INR (S m)) in C. unfold y, u. lra. } eapply Rle_trans; [apply (T_mono y (x * (1 + / 4000))); lra|]. unfold T. rewrite Rpow_mult_distr. pose proof (fact_pos m). pose proof (pow_lt x m ltac:(lra)) as PX.
    assert (K : (1 + / 4000) ^ m <= 1.1). { apply Rle_trans with ((1 + / 4000) ^ 20); [|lra]. apply Rle_pow; [lra|]. apply INR_le. rewrite (INR_IZR_INZ 20). rewrite S_INR in M. simpl. lra. }
    unfold Rdiv. rewrite <- Rmult_assoc, (Rmult_comm 1.1). apply Rmult_le_compat_r; [left; apply Rinv_0_lt_compat; assumption|]. apply Rmult_le_compat_l; lra. }
  assert (D : dd y m <= u * (24 * T x (S m) + expR y)).
  { unfold dd. apply Rmult_le_compat_l; [unfold u; lra|]. pose proof (Sm_exp y m Yp). rewrite S_INR in M, M2. assert (T y m * (INR m + 2) <= (2.2 * T x (S m)) * 21); [|lra]. apply Rmult_le_compat; try lra. left; apply T_pos, Yp. }
  apply Rabs_le_inv in Ht. unfold u, ulp16 in *. lra.
Qed.
Lemma not15_big n : (15 < n)%nat -> not15 X n -> 27 <= expR x.
Proof.
  intros Hn H. specialize (H Hn). fold x in H. fold y in H. pose proof (x_bnd X HX) as Xb. fold x in Xb. pose proof (y_pos X HX) as Yp. fold x in Yp. fold y in Yp.
  destruct (Rle_dec 3.3 x) as [L|L]; [eapply Rle_trans; [exact exp33_lo|apply exp_mono, L]|]. exfalso. assert (Y : y <= 3.3003) by (unfold y, u; lra).
  assert (A : T x 15 <= T 3.3003 15) by (apply T_mono; lra). assert (B : T y 14 <= T 3.3003 14) by (apply T_mono; lra). pose proof (Sm_exp y 14 Yp). pose proof (exp_mono _ _ Y). pose proof exp33_hi.
  assert (S : forall n d, IZR (Z.of_nat (S n)) = d -> T 3.3003 (S n) = T 3.3003 n * (3.3003 / d)) by (intros k d <-; rewrite T_S, INR_IZR_INZ; reflexivity).
  rewrite (S 14%nat 15 eq_refl) in A. rewrite (S 13%nat 14 eq_refl), (S 12%nat 13 eq_refl), (S 11%nat 12 eq_refl), (S 10%nat 11 eq_refl), (S 9%nat 10 eq_refl), (S 8%nat 9 eq_refl), (S 7%nat 8 eq_refl), (S 6%nat 7 eq_refl), (S 5%nat 6 eq_refl), (S 4%nat 5 eq_refl), (S 3%nat 4 eq_refl), (S 2%nat 3 eq_refl), (S 1%nat 2 eq_refl), (S 0%nat 1 eq_refl), T_0 in A, B.
  unfold dd in H. rewrite (INR_IZR_INZ 14) in H. change (IZR (Z.of_nat 14)) with 14 in H. set (t15 := T x 15) in *. set (t14 := T y 14) in *. set (s := Sm y 14) in *. clearbody t15 t14 s. unfold u, ulp16 in H. lra.
Qed.
Lemma exp_pos_ok : X <> one -> (X < exp_max)%Z -> exists r, Fp16_Model.exp X = Ok r /\ Rabs (fxR r - expR x) <= expR x / 1600 + 20 * ulp16.
Proof.
  intros N1 N2. unfold Fp16_Model.exp. rewrite (proj2 (Z.eqb_neq X 0)) by lia. rewrite (proj2 (Z.eqb_neq X one)) by lia. rewrite (proj2 (Z.leb_gt exp_max X)) by lia. rewrite (proj2 (Z.leb_gt X (- exp_max))) by (unfold exp_max; lia). rewrite (proj2 (Z.ltb_ge X 0)) by lia. cbn [bind]. rewrite i32_ok by (unfold raw, one; lia). cbn [bind].
  pose proof (x_bnd X HX) as Xb. fold x in Xb. pose proof (y_bnd X HX) as Yb. fold x in Yb. fold y in Yb. pose proof (y_pos X HX) as Yp. fold x in Yp. fold y in Yp. 
  destruct (loop_ok X HX 28 0 X (X + one)%Z) as (n & r & Hn & E & V & St & N15); [lia|lia| | |intros A; lia|].
  - fold x y. rewrite T_S, T_0. cbn [INR]. replace (x - 1 * (x / 1)) with 0 by field. rewrite Rabs_R0. apply dd_nonneg, Yp.
  - fold x y. rewrite fx_add. fold x. cbn [Sm]. rewrite T_S, T_0. cbn [INR]. replace (x + fxR one - (0 + 1 + 1 * (x / 1))) with 0 by (unfold fxR, one; field). rewrite Rabs_R0. cbn [DD]. pose proof (dd_nonneg y 0 Yp). lra.
  - change (Z.of_nat (0 + 2)) with 2%Z in E. exists r. rewrite E. cbn [bind]. split; [reflexivity|]. fold x y in V.
    assert (D : DD y n <= u * (expR y * (y / 2 + 1 + INR n))) by apply DD_le, Yp. assert (I : INR n <= 29) by (replace 29 with (INR 29) by (rewrite INR_IZR_INZ; reflexivity); apply le_INR; lia). pose proof (pos_INR n) as I0. pose proof ey as EY. pose proof (exp_pos x) as EP. pose proof (exp_pos y) as EP2. pose proof (Sm_exp x (S n) ltac:(lra)) as L.
    assert (D1 : u * (expR y * (y / 2 + 1 + INR n)) <= u * (1.0003 * expR x * 35.2)) by (apply Rmult_le_compat_l; [unfold u; lra|]; apply Rmult_le_compat; lra).
    pose proof (dd_le y (pred n) Yp) as D2. assert (D3 : u * (expR y * (y / 2 + 2)) <= u * (1.0003 * expR x * 7.2)) by (apply Rmult_le_compat_l; [unfold u; lra|]; apply Rmult_le_compat; lra).
    assert (Tl : x <= INR (S n) / 2 /\ T x n <= expR x * 3.4 / 10000 + 20 * ulp16).
    { destruct St as [->|(t & Vt & T5 & C)].
      - split; [rewrite INR_IZR_INZ; simpl; lra|]. pose proof (T29 x ltac:(lra)). unfold ulp16. lra.
      - fold x y in Vt. split; [apply (stop_small n t); [lia|exact Vt|exact T5]|]. apply Rabs_le_inv in Vt. unfold u, ulp16 in *. destruct C as [C|C]; [pose proof (not15_big n C N15); lra|lra]. }
    destruct Tl as (T1 & T2). pose proof (exp_tail x n ltac:(lra) T1) as T3. apply Rabs_le_inv in V. apply Rabs_le. unfold u, ulp16 in *. lra.
Qed.
End Bound.

Lemma exp_one : Rabs (fxR 178145 - expR 1) <= ulp16.
Proof.
  pose proof (Sm_exp 1 10 ltac:(lra)) as L. pose proof (exp_tail 1 9 ltac:(lra) ltac:(rewrite INR_IZR_INZ; simpl; lra)) as U. cbn [Sm] in L, U. unfold T in L, U. destruct PolyBound.facts as (F0 & F1 & F2 & F3 & F4 & F5 & F6 & F7 & F8 & F9 & _). rewrite F0, F1, F2, F3, F4, F5, F6, F7, F8, F9 in L, U. apply Rabs_le. unfold fxR, ulp16. lra.
Qed.
Theorem exp_nonneg_ok X : (0 <= X <= 680919)%Z -> exists r, Fp16_Model.exp X = Ok r /\ Rabs (fxR r - expR (fxR X)) <= expR (fxR X) / 1600 + 20 * ulp16.
Proof.
  intros H. destruct (Z.eq_dec X 0) as [->|N0].
  - exists one. split; [reflexivity|]. replace (fxR 0) with 0 by (unfold fxR; lra). rewrite exp_0. replace (fxR one - 1) with 0 by (unfold fxR, one; lra). rewrite Rabs_R0. unfold ulp16. lra.
  - destruct (Z.eq_dec X one) as [->|N1].
    + exists 178145%Z. split; [reflexivity|]. replace (fxR one) with 1 by (unfold fxR, one; lra). pose proof exp_one. pose proof (exp_pos 1). unfold ulp16 in *. lra.
    + apply exp_pos_ok; [lia|exact N1|unfold exp_max; lia].
Qed.
