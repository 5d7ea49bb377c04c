(** The Riemann zeta function: the Euler product from 20 on, the special arguments. *)
From Coq Require Import ZArith Reals Lra Lia Psatz Bool List.
From Coquelicot Require Import Coquelicot.
From Flocq Require Import Core IEEE754.BinarySingleNaN IEEE754.Binary IEEE754.Bits.
From Verif Require Import Base BaseLemmas Arith Ext32 Bits32 Ffmath_Model Ffmath2_Model Ffmath3_Model Ffmath5_Model Ffmath_Spec Ffmath_Proofs Ffmath_Proofs2 Ffmath_Proofs3 Float32 Ffmath_Proofs4 Ffmath_Proofs7 Ffmath_Proofs8 Ffmath_Proofs9 FloatApp Ffmath_Proofs12 Ffmath_Proofs13 Ffmath_Proofs14 Ffmath_Proofs15 Ffmath_Proofs16 Ellint_Proofs3 Expint_Proofs4 Bessel_Proofs Bessel_Proofs3 Bessel_Proofs4 Zeta_Spec.
Open Scope R_scope.

(** ** The series *)
Lemma tele N : sum_f_R0 (fun j => / (INR j + 2) - / (INR j + 3)) N = / 2 - / (INR N + 3).
Proof. induction N as [|N IH]; [cbn; lra|]. cbn [sum_f_R0]. rewrite IH, S_INR. pose proof (pos_INR N). field. split; lra. Qed.
Lemma tele_series : is_series (fun j => / (INR j + 2) - / (INR j + 3)) (/ 2).
Proof.
  change (is_lim_seq (sum_n (fun j => / (INR j + 2) - / (INR j + 3))) (Finite (/ 2))). apply (is_lim_seq_ext (fun N => / 2 - / (INR N + 3))). { intros N. rewrite <- tele, sum_n_Reals. reflexivity. }
  replace (Finite (/ 2)) with (Rbar_minus (Finite (/ 2)) (Finite 0)) by (cbn; f_equal; ring). apply is_lim_seq_minus'; [apply is_lim_seq_const|].
  apply (is_lim_seq_inv _ p_infty); [|discriminate]. apply (is_lim_seq_plus _ _ p_infty 3); [apply is_lim_seq_INR|apply is_lim_seq_const|reflexivity].
Qed.
Lemma term_bnd s j : 19 <= s -> 0 <= Rpower (INR (S (2 + j))) (- s) <= / 129140163 * (/ (INR j + 2) - / (INR j + 3)).
Proof.
  intros H. pose proof (pos_INR j) as P. assert (E : INR (S (2 + j)) = INR j + 3) by (cbn [Nat.add]; rewrite !S_INR; ring). rewrite E. set (k := INR j + 3) in *. assert (K : 3 <= k) by (unfold k; lra). split; [left; apply exp_pos|].
  apply Rle_trans with (/ k ^ 19).
  - rewrite <- (Rpower_pow 19 k) by lra. rewrite <- Rpower_Ropp. apply Rle_Rpower; [lra|]. replace (INR 19) with 19 by (rewrite INR_IZR_INZ; reflexivity). lra.
  - replace (k ^ 19) with (k ^ 17 * (k * k)) by ring. assert (P18 : 3 ^ 17 <= k ^ 17) by (apply pow_incr; lra). replace (3 ^ 17) with 129140163 in P18 by ring. rewrite Rinv_mult.
    assert (Q1 : / k ^ 17 <= / 129140163) by (apply Rinv_le_contravar; lra). assert (Q2 : / (k * k) <= / (INR j + 2) - / k).
    { replace (INR j + 2) with (k - 1) by (unfold k; ring). replace (/ (k - 1) - / k) with (/ ((k - 1) * k)) by (field; lra). apply Rinv_le_contravar; nra. }
    apply Rmult_le_compat; try lra; left; apply Rinv_0_lt_compat; nra.
Qed.
Lemma zeta_bnd s : 19 <= s -> 1 + Rpower 2 (- s) <= zeta s <= 1 + Rpower 2 (- s) + 4 / 1000000000.
Proof.
  intros H. unfold zeta. set (a := fun n => Rpower (INR (S n)) (- s)).
  assert (Eg : is_series (fun j => / 129140163 * (/ (INR j + 2) - / (INR j + 3))) (/ 129140163 * / 2)) by (apply (is_series_scal_l (/ 129140163) (fun j => / (INR j + 2) - / (INR j + 3))); apply tele_series).
  assert (E2 : ex_series (fun j => a (2 + j)%nat)). { apply (@ex_series_le R_AbsRing R_CompleteNormedModule _ (fun j => / 129140163 * (/ (INR j + 2) - / (INR j + 3)))); [|eexists; exact Eg]. intros j. change (norm (a (2 + j)%nat)) with (Rabs (a (2 + j)%nat)). pose proof (term_bnd s j H) as B. unfold a. rewrite Rabs_pos_eq; apply B. }
  assert (Ea : ex_series a) by (apply (ex_series_incr_n a 2); exact E2). rewrite (Series_incr_n a 2 ltac:(lia) Ea). change (Init.Nat.pred 2) with 1%nat. cbn [sum_f_R0].
  assert (A0 : a 0%nat = 1). { unfold a. cbn [INR]. unfold Rpower. rewrite ln_1, Rmult_0_r. apply exp_0. } assert (A1 : a 1%nat = Rpower 2 (- s)) by (unfold a; f_equal; cbn; lra). rewrite A0, A1.
  assert (U : Series (fun k => a (2 + k)%nat) <= / 129140163 * / 2). { rewrite <- (is_series_unique _ _ Eg). apply Series_le; [intros n; apply term_bnd; exact H|eexists; exact Eg]. }
  assert (L : 0 <= Series (fun k => a (2 + k)%nat)). { replace 0 with (Series (fun k => 0 * a (2 + k)%nat)) by (rewrite Series_scal_l; ring). apply Series_le; [|exact E2]. intros n. pose proof (term_bnd s n H) as (B & _). unfold a. rewrite Rmult_0_l. split; [lra|exact B]. }
  lra.
Qed.

(** ** The factors of the product *)
Lemma sign_neg x : valR x < 0 -> Bsign 24 128 x = true.
Proof. intros H. destruct x as [s|s|s p Hp|s m e Hm]; cbn in *; try lra. destruct s; auto. exfalso. unfold F2R in H. cbn [Fnum Fexp cond_Zopp] in H. pose proof (bpow_gt_0 radix2 e). assert (0 < IZR (Zpos m)) by (apply IZR_lt; lia). nra. Qed.
Lemma mult_low x y c : finite x -> finite y -> valR x < 0 -> 0 < valR y -> valR x * valR y <= valR c -> is_nan 24 128 (x * y)%b32 = false /\ ext32 (x * y)%b32 <= valR c.
Proof.
  intros Fx Fy Px Py L. pose proof (Bmult_correct 24 128 eq_refl eq_refl binop_nan_pl32 mode_NE x y) as C. rewrite fexp_FLT in C. cbn [round_mode] in C.
  change (Bmult 24 128 eq_refl eq_refl binop_nan_pl32 mode_NE x y) with (x * y)%b32 in C. set (D := (x * y)%b32) in *. clearbody D. destruct (Rlt_bool _ _) in C.
  - destruct C as (V & F & _). rewrite Fx, Fy in F. cbn [andb] in F. split; [apply fin_nan; exact F|]. rewrite ext32_finite by exact F. rewrite V. apply (rnd_le_val (valR x * valR y) c). exact L.
  - rewrite (sign_neg x Px), (sign_pos y Py) in C. destruct D as [s|s|s p Hp|s m e Hm]; try discriminate C. injection C as ->. split; [reflexivity|]. cbn [ext32]. pose proof (finite_bnd c) as B. rewrite fmax_val in B. pose proof (bpow_gt_0 radix2 104). lra.
Qed.
Lemma exp2_tiny y : is_nan 24 128 y = false -> ext32 y <= -30 -> exists r, exp2 y = Ok r /\ finite r /\ 0 <= valR r <= / 1000000000.
Proof.
  intros N H. destruct (Rle_or_lt (ext32 y) (-126)) as [L|L].
  - rewrite (exp2_low y N L). eexists. split; [reflexivity|]. destruct zero_R as (F & V). rewrite V. split; [exact F|lra].
  - assert (F : finite y). { destruct (inf_cases y N) as [F|[-> | ->]]; [exact F| |]; cbn [ext32] in L, H; pose proof b128_big; lra. } rewrite ext32_finite in H, L by exact F. change (B2R 24 128 y) with (valR y) in *.
    destruct (exp2_accurate y F) as (r & E & Fr & A); [lra|]. exists r. split; [exact E|]. split; [exact Fr|]. assert (P : 0 < Rpower 2 (valR y)) by apply exp_pos.
    assert (U : Rpower 2 (valR y) <= / 1073741824). { replace (/ 1073741824) with (Rpower 2 (Ropp 30)). { apply Rle_Rpower; lra. } rewrite Rpower_Ropp. f_equal. replace 30 with (INR 30) by (rewrite INR_IZR_INZ; reflexivity). rewrite Rpower_pow by lra. ring. }
    change (bpow radix2 (-21)) with (/ 2097152) in A. apply Rabs_le_inv in A. lra.
Qed.
Definition f30 : float := flit (-30) 1.
Lemma f30_R : finite f30 /\ valR f30 = -30. Proof. cst. Qed.
Definition l3 : float := log2 (b32_ofZ 3).
Lemma l3_R : finite l3 /\ 3 / 2 < valR l3. Proof. assert (H : finite l3 /\ valR l3 = 13295629 / 8388608) by (replace l3 with (ofU 1070260237) by (apply bits_inj; vm_compute; reflexivity); cst). destruct H as (F & ->). split; [exact F|lra]. Qed.
Lemma two_Z : log2 (b32_ofZ 2) = flit 1 1. Proof. apply bits_inj. vm_compute. reflexivity. Qed.
Lemma three s : is_nan 24 128 s = false -> 20 <= ext32 s -> exists r, fpow (b32_ofZ 3) (- s)%b32 = Ok r /\ finite r /\ 0 <= valR r <= / 1000000000.
Proof.
  intros N H. unfold fpow. fold l3. destruct l3_R as (F3 & V3). destruct f30_R as (F30 & V30). destruct (inf_cases s N) as [F|[-> | ->]].
  - rewrite ext32_finite in H by exact F. change (B2R 24 128 s) with (valR s) in H. destruct (opp_R s F) as (Fo & Vo). destruct (mult_low (- s)%b32 l3 f30 Fo F3) as (Nm & Lm); [lra|lra|rewrite Vo, V30; nra|]. rewrite V30 in Lm. apply exp2_tiny; assumption.
  - cbn [ext32] in H. pose proof b128_big. lra.
  - exists (flit 0 1). split; [apply res_bits; [vm_compute; reflexivity|vm_compute; discriminate]|]. destruct zero_R as (F & V). rewrite V. split; [exact F|lra].
Qed.
Lemma two s : finite s -> 20 <= valR s -> exists r, fpow (b32_ofZ 2) (- s)%b32 = Ok r /\ finite r /\ 0 <= valR r /\ Rabs (valR r - Rpower 2 (- valR s)) <= / 1000000000000 /\ 0 < Rpower 2 (- valR s) <= / 1000000.
Proof.
  intros F H. unfold fpow. rewrite two_Z. destruct (opp_R s F) as (Fo & Vo). destruct lit_1 as (F1 & V1).
  assert (M : finite ((- s) * flit 1 1)%b32 /\ valR ((- s) * flit 1 1)%b32 = - valR s). { destruct (mult_M (- s)%b32 (flit 1 1) Fo F1) as (Fm & Vm); [rewrite V1, Rmult_1_r; apply finite_le|]. split; [exact Fm|]. rewrite Vm, V1, Rmult_1_r, rnd_val. exact Vo. }
  destruct M as (Fm & Vm). set (y := ((- s) * flit 1 1)%b32) in *. clearbody y. assert (P : 0 < Rpower 2 (- valR s)) by apply exp_pos.
  assert (U : Rpower 2 (- valR s) <= / 1048576). { replace (/ 1048576) with (Rpower 2 (Ropp 20)). { apply Rle_Rpower; lra. } rewrite Rpower_Ropp. f_equal. replace 20 with (INR 20) by (rewrite INR_IZR_INZ; reflexivity). rewrite Rpower_pow by lra. ring. }
  destruct (Rle_or_lt (valR y) (-126)) as [L|L].
  - exists (flit 0 1). destruct zero_R as (F0 & V0). split; [apply exp2_low; [apply fin_nan; exact Fm|rewrite ext32_finite by exact Fm; exact L]|]. split; [exact F0|]. split; [rewrite V0; lra|]. split; [|lra]. rewrite V0, Rminus_0_l, Rabs_Ropp, Rabs_pos_eq by lra.
    apply Rle_trans with (Rpower 2 (Ropp 126)); [apply Rle_Rpower; lra|]. apply Rle_trans with (Rpower 2 (Ropp 40)); [apply Rle_Rpower; lra|]. rewrite Rpower_Ropp. replace 40 with (INR 40) by (rewrite INR_IZR_INZ; reflexivity). rewrite Rpower_pow by lra. apply Rinv_le_contravar; [lra|]. replace (2 ^ 40) with 1099511627776 by ring. lra.
  - destruct (exp2_accurate y Fm) as (r & E & Fr & A); [lra|]. exists r. split; [exact E|]. split; [exact Fr|]. rewrite Vm in A. change (bpow radix2 (-21)) with (/ 2097152) in A. split; [apply Rabs_le_inv in A; lra|]. lra.
Qed.

Lemma prod_cons p ps s z : prod_loop (p :: ps) s z = (pw <- fpow (b32_ofZ p) (- s)%b32 ;; let f := (flit 1 1 - pw)%b32 in let z := (z * f)%b32 in if (flit 1 1 - f <? limEps)%b32 then Ok z else prod_loop ps s z).
Proof. reflexivity. Qed.
Lemma eps_R : finite limEps /\ valR limEps = / 8388608. Proof. cst. Qed.
(** 1 - r for a small r *)
Lemma one_minus r : finite r -> 0 <= valR r <= / 900000 -> finite (flit 1 1 - r)%b32 /\ Rabs (valR (flit 1 1 - r)%b32 - (1 - valR r)) <= 61 / 1000000000 /\ valR (flit 1 1 - r)%b32 <= 1.
Proof.
  intros F H. destruct lit_1 as (F1 & V1). destruct (minus_R (flit 1 1) r F1 F) as (Fm & Vm). { rewrite V1, Rabs_pos_eq by lra. pose proof big1. lra. }
  rewrite V1 in Vm. split; [exact Fm|]. rewrite Vm. split.
  - eapply Rle_trans; [apply rnd_err|]. rewrite u32_v, Rabs_pos_eq by lra. pose proof tiny_ok. pose proof tiny_v. lra.
  - rewrite <- V1. apply rnd_le_val. lra.
Qed.
Lemma prod_two s : finite s -> 20 <= valR s -> exists z, prod_loop primes29 s (flit 1 1) = Ok z /\ finite z /\ Rabs (valR z - (1 - Rpower 2 (- valR s))) <= 19 / 100000000.
Proof.
  intros F H. destruct lit_1 as (F1 & V1). destruct eps_R as (Fe & Ve). destruct (two s F H) as (r & E & Fr & Pr & A & Q). unfold primes29. rewrite prod_cons, E. cbn [bind]. cbv zeta. set (q := Rpower 2 (- valR s)) in *. assert (A' := A). apply Rabs_le_inv in A'.
  destruct (one_minus r Fr ltac:(lra)) as (Ff & Vf & Uf). set (f := (flit 1 1 - r)%b32) in *. clearbody f. destruct (unit_mul (flit 1 1) f F1) as (Fz & Vz); [rewrite V1; apply Rabs_R1|exact Ff|]. rewrite V1, Rmult_1_l in Vz. set (z := (flit 1 1 * f)%b32) in *. clearbody z. apply Rabs_le_inv in Vf.
  destruct (b32_lt (flit 1 1 - f)%b32 limEps).
  - exists z. split; [reflexivity|]. split; [exact Fz|]. rewrite Vz. apply Rabs_le. lra.
  - rewrite prod_cons. destruct (three s) as (r3 & E3 & F3 & V3); [apply fin_nan; exact F|rewrite ext32_finite by exact F; exact H|]. rewrite E3. cbn [bind]. cbv zeta. destruct (one_minus r3 F3 ltac:(lra)) as (Ff3 & Vf3 & Uf3). set (f3 := (flit 1 1 - r3)%b32) in *. clearbody f3. apply Rabs_le_inv in Vf3.
    destruct (minus_R (flit 1 1) f3 F1 Ff3) as (Fd & Vd). { rewrite V1, Rabs_pos_eq by lra. pose proof big1. lra. } rewrite (lt_t (flit 1 1 - f3)%b32 limEps Fd Fe).
    2:{ rewrite Vd, V1, Ve. pose proof (rnd_err (1 - valR f3)) as R. rewrite u32_v, (Rabs_pos_eq (1 - valR f3)) in R by lra. pose proof tiny_ok. pose proof tiny_v. apply Rabs_le_inv in R. lra. }
    eexists. split; [reflexivity|]. assert (B : 0 <= valR z * valR f3 <= 1) by nra. destruct (mult_R z f3 Fz Ff3) as (Fp & Vp). { rewrite Rabs_pos_eq by lra. pose proof big1. lra. }
    split; [exact Fp|]. rewrite Vp. pose proof (rnd_err (valR z * valR f3)) as R. rewrite u32_v, (Rabs_pos_eq (valR z * valR f3)) in R by lra. pose proof tiny_ok. pose proof tiny_v. apply Rabs_le_inv in R. apply Rabs_le.
    assert (Z1 : valR z * valR f3 - valR z = - (valR z * (1 - valR f3))) by ring. assert (Z2 : 0 <= valR z * (1 - valR f3) <= 63 / 1000000000) by nra. lra.
Qed.
Lemma product_ok s : finite s -> 20 <= valR s -> exists r, riemann_zeta_product s = Ok r /\ finite r /\ Rabs (valR r - zeta (valR s)) <= 3 / 10000000.
Proof.
  intros F H. destruct lit_1 as (F1 & V1). destruct (prod_two s F H) as (z & E & Fz & A). destruct (two s F H) as (_ & _ & _ & _ & _ & Q). pose proof (zeta_bnd (valR s) ltac:(lra)) as Zb. unfold riemann_zeta_product. rewrite E. cbn [bind]. eexists. split; [reflexivity|]. set (q := Rpower 2 (- valR s)) in *. clearbody q. apply Rabs_le_inv in A. set (v := valR z) in *.
  assert (D : 0 < / v <= 2). { split; [apply Rinv_0_lt_compat; lra|]. rewrite <- (Rinv_involutive 2) by lra. apply Rinv_le_contravar; lra. }
  destruct (div_R (flit 1 1) z F1 Fz) as (Fd & Vd); [fold v; lra|rewrite V1; fold v; unfold Rdiv; rewrite Rmult_1_l, Rabs_pos_eq by lra; pose proof big1; lra|]. fold v in Vd. split; [exact Fd|]. rewrite Vd, V1. unfold Rdiv. rewrite Rmult_1_l.
  pose proof (rnd_err (/ v)) as R. rewrite u32_v, (Rabs_pos_eq (/ v)) in R by lra. pose proof tiny_ok. pose proof tiny_v. apply Rabs_le_inv in R. 
  assert (I1 : / v * v = 1) by (field; lra). assert (B1 : 1 + q - 195 / 1000000000 <= / v <= 1 + q + 195 / 1000000000). { split; apply (Rmult_le_reg_r v); try lra; rewrite I1; nra. }
  apply Rabs_le. lra.
Qed.
