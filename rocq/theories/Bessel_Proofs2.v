(** Real analysis of the series summed by cyl_bessel_ij_series, for orders 0 and 1. *)
From Coq Require Import ZArith Reals Lra Lia Psatz Factorial.
From Coquelicot Require Import Coquelicot.
From Verif Require Import Bessel_Spec.
Open Scope R_scope.

(** the terms without the factor (x/2)^n; z is x^2/4 or -x^2/4 *)
Definition bT (n : nat) (z : R) (k : nat) : R := z ^ k / (INR (fact k) * INR (fact (k + n))).
Definition bS (n : nat) (z : R) (k : nat) : R := sum_f_R0 (bT n z) k.
Definition bZ (n : nat) : R := if Nat.eqb n 0 then 251 / 100 else 502 / 100.
Definition g4 (k : nat) : R := (/ 4) ^ k.

Lemma fact_p n : 0 < INR (fact n). Proof. apply INR_fact_lt_0. Qed.
Lemma bT_0 n z : (n <= 1)%nat -> bT n z 0 = 1.
Proof. intros H. unfold bT. destruct n as [|[|n]]; [| |lia]; cbn; lra. Qed.
Lemma bT_S n z k : bT n z (S k) = bT n z k * (z / (INR (S k) * INR (S k + n))).
Proof.
  unfold bT. change (S k + n)%nat with (S (k + n)). rewrite !fact_simpl, !mult_INR. cbn [pow]. pose proof (fact_p k). pose proof (fact_p (k + n)). pose proof (lt_0_INR (S k) ltac:(lia)). pose proof (lt_0_INR (S (k + n)) ltac:(lia)). field. repeat split; lra.
Qed.
Lemma bS_S n z k : bS n z (S k) = bS n z k + bT n z (S k). Proof. reflexivity. Qed.
Lemma g4_S k : g4 (S k) = g4 k / 4. Proof. unfold g4. cbn [pow]. lra. Qed.
Lemma g4_pos k : 0 < g4 k. Proof. unfold g4. apply pow_lt. lra. Qed.

(** a majorant *)
Lemma bT_abs n z k : Rabs (bT n z k) = bT n (Rabs z) k.
Proof. unfold bT. pose proof (fact_p k). pose proof (fact_p (k + n)). unfold Rdiv. rewrite Rabs_mult, RPow_abs. f_equal. apply Rabs_pos_eq. left. apply Rinv_0_lt_compat. apply Rmult_lt_0_compat; auto. Qed.
Lemma bT_mono n a b k : 0 <= a <= b -> bT n a k <= bT n b k.
Proof. intros H. unfold bT. apply Rmult_le_compat_r; [left; apply Rinv_0_lt_compat, Rmult_lt_0_compat; apply fact_p|apply pow_incr; exact H]. Qed.
Lemma bT_nonneg n a k : 0 <= a -> 0 <= bT n a k.
Proof. intros H. unfold bT. apply Rmult_le_pos; [apply pow_le; exact H|left; apply Rinv_0_lt_compat, Rmult_lt_0_compat; apply fact_p]. Qed.
Lemma bZ_pos n : 0 < bZ n. Proof. unfold bZ. destruct (Nat.eqb n 0); lra. Qed.

(** the first terms *)
Lemma maj_low n : (n <= 1)%nat -> bT n (bZ n) 1 <= 251 / 100 /\ bT n (bZ n) 2 <= 211 / 100 /\ bT n (bZ n) 3 <= 88 / 100 /\ bT n (bZ n) 4 <= 221 / 1000 /\ bT n (bZ n) 5 <= 37 / 1000.
Proof. intros H. destruct n as [|[|n]]; [| |lia]; unfold bT, bZ; cbn; lra. Qed.
Lemma ratio_bnd n k : (n <= 1)%nat -> (4 <= k)%nat -> bZ n / (INR (S k) * INR (S k + n)) <= / 4.
Proof.
  intros H K. assert (L : 5 <= INR (S k)) by (change 5 with (IZR 5); rewrite INR_IZR_INZ; apply IZR_le; lia).
  destruct n as [|[|n]]; [| |lia]; unfold bZ; cbn [Nat.eqb].
  - rewrite Nat.add_0_r. apply Rmult_le_reg_r with (INR (S k) * INR (S k)); [nra|]. unfold Rdiv. rewrite Rmult_assoc, Rinv_l by nra. nra.
  - replace (S k + 1)%nat with (S (S k)) by lia. rewrite (S_INR (S k)). apply Rmult_le_reg_r with (INR (S k) * (INR (S k) + 1)); [nra|]. unfold Rdiv. rewrite Rmult_assoc, Rinv_l by nra. nra.
Qed.
Lemma maj_geo n k : (n <= 1)%nat -> bT n (bZ n) k <= 60 * g4 k.
Proof.
  intros H. destruct (maj_low n H) as (M1 & M2 & M3 & M4 & M5). destruct (le_lt_dec k 4) as [K|K].
  - destruct k as [|[|[|[|[|k]]]]]; try lia; unfold g4; cbn [pow]; try lra. rewrite bT_0 by auto. lra.
  - induction k as [|k IH]; [lia|]. destruct (Nat.eq_dec k 4) as [->|N]; [unfold g4; cbn [pow]; lra|]. specialize (IH ltac:(lia)). rewrite bT_S, g4_S.
    pose proof (ratio_bnd n k H ltac:(lia)) as R. pose proof (bZ_pos n). pose proof (bT_nonneg n (bZ n) k ltac:(lra)). pose proof (g4_pos k).
    assert (0 <= bZ n / (INR (S k) * INR (S k + n))). { apply Rmult_le_pos; [lra|]. left. apply Rinv_0_lt_compat, Rmult_lt_0_compat; apply lt_0_INR; lia. }
    apply Rle_trans with (60 * g4 k * / 4); [apply Rmult_le_compat; lra|lra].
Qed.
(** partial sums of the majorant *)
Lemma maj_sum n k : (n <= 1)%nat -> bS n (bZ n) k <= 7.
Proof.
  intros H. destruct (maj_low n H) as (M1 & M2 & M3 & M4 & M5). pose proof (bZ_pos n).
  assert (Q : forall k, (4 <= k)%nat -> bS n (bZ n) k <= 68 / 10 - 20 * g4 k).
  { induction k0 as [|k0 IH]; intros L; [lia|]. destruct (Nat.eq_dec k0 3) as [->|N].
    - unfold bS. cbn [sum_f_R0]. rewrite bT_0 by auto. unfold g4. cbn [pow]. lra.
    - specialize (IH ltac:(lia)). rewrite bS_S. pose proof (maj_geo n (S k0) H). rewrite g4_S in *. lra. }
  destruct (le_lt_dec 4 k) as [L|L]; [pose proof (Q k L); pose proof (g4_pos k); lra|].
  destruct k as [|[|[|[|k]]]]; try lia; unfold bS; cbn [sum_f_R0]; rewrite bT_0 by auto; lra.
Qed.
Lemma bT_le n z k : Rabs z <= bZ n -> Rabs (bT n z k) <= bT n (bZ n) k.
Proof. intros H. rewrite bT_abs. apply bT_mono. split; [apply Rabs_pos|exact H]. Qed.
Lemma bS_le n z k : (n <= 1)%nat -> Rabs z <= bZ n -> Rabs (bS n z k) <= 7.
Proof.
  intros Hn H. apply Rle_trans with (bS n (bZ n) k); [|apply maj_sum; exact Hn]. unfold bS. eapply Rle_trans; [apply sum_f_R0_triangle|]. apply sum_Rle. intros i _. apply bT_le. exact H.
Qed.

(** the tail after the m-th term, m >= 1 *)
Lemma ratio_1 n z m : (n <= 1)%nat -> (1 <= m)%nat -> Rabs z <= bZ n -> Rabs (bT n z (S m)) <= 84 / 100 * Rabs (bT n z m).
Proof.
  intros H K Hz. rewrite bT_S, Rabs_mult, Rmult_comm. apply Rmult_le_compat_r; [apply Rabs_pos|].
  assert (D : 0 < INR (S m) * INR (S m + n)) by (apply Rmult_lt_0_compat; apply lt_0_INR; lia). unfold Rdiv. rewrite Rabs_mult, (Rabs_pos_eq (/ _)) by (left; apply Rinv_0_lt_compat; exact D).
  assert (L : 2 <= INR (S m)) by (change 2 with (IZR 2); rewrite INR_IZR_INZ; apply IZR_le; lia). assert (Zp : 0 <= Rabs z) by apply Rabs_pos.
  apply Rmult_le_reg_r with (INR (S m) * INR (S m + n)); [exact D|]. rewrite Rmult_assoc, Rinv_l, Rmult_1_r by lra. eapply Rle_trans; [exact Hz|].
  destruct n as [|[|n]]; [| |lia]; unfold bZ; cbn [Nat.eqb].
  - rewrite Nat.add_0_r. nra.
  - replace (S m + 1)%nat with (S (S m)) by lia. rewrite (S_INR (S m)). nra.
Qed.
Lemma tail_geo n z m : (n <= 1)%nat -> (1 <= m)%nat -> Rabs z <= bZ n -> forall j, Rabs (bT n z (m + j)) <= Rabs (bT n z m) * (84 / 100) ^ j.
Proof.
  intros H K Hz. induction j as [|j IH]; [rewrite Nat.add_0_r; cbn [pow]; lra|]. replace (m + S j)%nat with (S (m + j)) by lia. eapply Rle_trans; [apply ratio_1; auto; lia|]. cbn [pow].
  apply Rle_trans with (84 / 100 * (Rabs (bT n z m) * (84 / 100) ^ j)); [apply Rmult_le_compat_l; lra|lra].
Qed.
Lemma ex_bT n z : (n <= 1)%nat -> Rabs z <= bZ n -> ex_series (bT n z).
Proof.
  intros H Hz. apply (ex_series_incr_n (bT n z) 1). apply (@ex_series_le R_AbsRing R_CompleteNormedModule _ (fun j => Rabs (bT n z 1) * (84 / 100) ^ j)).
  - intros j. change (norm (bT n z (1 + j))) with (Rabs (bT n z (1 + j))). apply tail_geo; auto.
  - apply (ex_series_scal (V := R_NormedModule) (Rabs (bT n z 1)) (fun j => (84 / 100) ^ j)). apply ex_series_geom. rewrite Rabs_pos_eq; lra.
Qed.
Lemma tail_bound n z m : (n <= 1)%nat -> (1 <= m)%nat -> Rabs z <= bZ n -> Rabs (bS n z m - Series (bT n z)) <= 21 / 4 * Rabs (bT n z m).
Proof.
  intros H K Hz. rewrite (Series_incr_n (bT n z) (S m)); [|lia|apply ex_bT; auto]. cbn [pred]. unfold bS. set (s := sum_f_R0 (bT n z) m). replace (s - (s + Series (fun k => bT n z (S m + k)))) with (- Series (fun k => bT n z (S m + k))) by ring. rewrite Rabs_Ropp.
  set (c := Rabs (bT n z m)). assert (Eg : ex_series (fun j => c * (84 / 100) * (84 / 100) ^ j)). { apply (ex_series_scal (V := R_NormedModule) (c * (84 / 100)) (fun j => (84 / 100) ^ j)). apply ex_series_geom. rewrite Rabs_pos_eq; lra. }
  assert (B : forall j, 0 <= Rabs (bT n z (S m + j)) <= c * (84 / 100) * (84 / 100) ^ j). { intros j. split; [apply Rabs_pos|]. replace (S m + j)%nat with (m + S j)%nat by lia. eapply Rle_trans; [apply tail_geo; auto|]. fold c. cbn [pow]. lra. }
  assert (Ea : ex_series (fun j => Rabs (bT n z (S m + j)))). { apply (@ex_series_le R_AbsRing R_CompleteNormedModule _ (fun j => c * (84 / 100) * (84 / 100) ^ j)); [|exact Eg]. intros j. change (norm (Rabs (bT n z (S m + j)))) with (Rabs (Rabs (bT n z (S m + j)))). rewrite Rabs_Rabsolu. apply B. }
  eapply Rle_trans; [apply Series_Rabs; exact Ea|]. eapply Rle_trans; [apply Series_le; [exact B|exact Eg]|]. rewrite Series_scal_l, Series_geom by (rewrite Rabs_pos_eq; lra). lra.
Qed.

(** the specification in terms of these series *)
Lemma J_series n x : bessel_J n x = (x / 2) ^ n * Series (bT n (- (x / 2) ^ 2)).
Proof.
  unfold bessel_J. rewrite <- Series_scal_l. apply Series_ext. intros k. unfold bT. rewrite pow_add, pow_mult. replace (- (x / 2) ^ 2) with (-1 * (x / 2) ^ 2) by ring. rewrite Rpow_mult_distr. unfold Rdiv. ring.
Qed.
Lemma I_series n x : bessel_I n x = (x / 2) ^ n * Series (bT n ((x / 2) ^ 2)).
Proof. unfold bessel_I. rewrite <- Series_scal_l. apply Series_ext. intros k. unfold bT. rewrite pow_add, pow_mult. unfold Rdiv. ring. Qed.
