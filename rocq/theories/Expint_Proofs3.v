(** The series of the exponential integral: partial sums, tails, bounds and its derivative. *)
From Coq Require Import Reals Lra Lia Psatz ZArith.
From Coquelicot Require Import Coquelicot.
From Verif Require Import Expint_Spec Expint_Proofs.
Open Scope R_scope.

Definition T (x : R) (k : nat) : R := x ^ k / INR (fact k).
Fixpoint P (x : R) (n : nat) : R := match n with O => 0 | S m => P x m + T x (S m) / INR (S m) end.
Lemma fact_pos k : 0 < INR (fact k). Proof. apply lt_0_INR, lt_O_fact. Qed.
Lemma S_pos k : 0 < INR (S k). Proof. apply lt_0_INR. lia. Qed.
Lemma T_0 x : T x 0 = 1. Proof. unfold T. cbn. field. Qed.
Lemma T_S x k : T x (S k) = T x k * (x / INR (S k)).
Proof. unfold T. rewrite fact_simpl, mult_INR. pose proof (fact_pos k). pose proof (S_pos k). cbn [pow]. field. split; lra. Qed.
Lemma T_pos x k : 0 < x -> 0 < T x k.
Proof. intros H. apply Rmult_lt_0_compat; [apply pow_lt; auto|apply Rinv_0_lt_compat, fact_pos]. Qed.
Lemma T_abs x k : T (Rabs x) k = Rabs (T x k).
Proof. unfold T, Rdiv. rewrite Rabs_mult, RPow_abs, (Rabs_pos_eq (/ _)); auto. left. apply Rinv_0_lt_compat, fact_pos. Qed.
Lemma T_exp x : is_series (T x) (exp x).
Proof. pose proof (is_exp_Reals x) as E. unfold is_pseries in E. eapply is_series_ext; [|exact E]. intros n. cbn. unfold T, scal. cbn. unfold mult. cbn. rewrite pow_n_pow. field. apply Rgt_not_eq, fact_pos. Qed.
Lemma sum0 (f : nat -> R) : @eq R (sum_n f 0) (f 0%nat). Proof. exact (sum_O f). Qed.
Lemma sumS (f : nat -> R) n : @eq R (sum_n f (S n)) (sum_n f n + f (S n)). Proof. exact (sum_Sn f n). Qed.
Lemma T_le_exp x k : 0 < x -> T x k <= exp x.
Proof.
  intros H. pose proof (T_exp x) as E.
  assert (I : forall n, sum_n (T x) n <= sum_n (T x) (S n)). { intros n. rewrite sumS. pose proof (T_pos x (S n) H). lra. }
  pose proof (is_lim_seq_incr_compare _ _ E I k) as L. apply Rle_trans with (2 := L). destruct k as [|k]; [rewrite sum0; lra|]. rewrite sumS.
  assert (0 <= sum_n (T x) k). { clear L. induction k as [|k IH]; [rewrite sum0; left; apply T_pos; auto|]. rewrite sumS. pose proof (T_pos x (S k) H). lra. } lra.
Qed.
Definition aE (x : R) (k : nat) : R := x ^ S k / (INR (S k) * INR (fact (S k))).
Lemma aE_T x k : aE x k = T x (S k) / INR (S k).
Proof. unfold aE, T. pose proof (fact_pos (S k)). pose proof (S_pos k). field. split; lra. Qed.
Lemma aE_sum x n : @eq R (sum_n (aE x) n) (P x (S n)).
Proof. induction n as [|n IH]; [rewrite sum0, aE_T; cbn [P]; ring|]. rewrite sumS, IH, aE_T. reflexivity. Qed.
Lemma aE_conv x : ex_series (aE x).
Proof.
  apply (ex_series_le (aE x) (fun k => T (Rabs x) (S k))).
  - intros n. change (norm (aE x n)) with (Rabs (aE x n)). rewrite aE_T. unfold Rdiv. rewrite Rabs_mult, <- T_abs. pose proof (S_pos n). rewrite (Rabs_pos_eq (/ _)) by (left; apply Rinv_0_lt_compat; auto).
    assert (1 <= INR (S n)) by (change 1 with (INR 1); apply le_INR; lia). assert (/ INR (S n) <= 1) by (rewrite <- Rinv_1; apply Rinv_le_contravar; lra).
    rewrite <- (Rmult_1_r (T (Rabs x) (S n))) at 2. apply Rmult_le_compat_l; auto. rewrite T_abs. apply Rabs_pos.
  - apply (ex_series_incr_1 (T (Rabs x))). exists (exp (Rabs x)). apply T_exp.
Qed.
Lemma P_lim x : is_lim_seq (P x) (ei_sum x).
Proof. apply is_lim_seq_incr_1. apply is_lim_seq_ext with (sum_n (aE x)); [apply aE_sum|]. apply (Series_correct _ (aE_conv x)). Qed.
Lemma P_lim_n x n : is_lim_seq (fun j => P x (j + n)) (ei_sum x). Proof. apply (is_lim_seq_incr_n (P x) n). apply P_lim. Qed.

(** the tail is at most the last term, once the terms decrease *)
Lemma Q_step x n : 0 < x -> x <= INR n -> P x (S n) + T x (S n) <= P x n + T x n.
Proof.
  intros H L. cbn [P]. rewrite T_S. pose proof (T_pos x n H). rewrite S_INR in *. set (N := INR n) in *. set (t := T x n) in *. clearbody t N.
  assert (E : t - (t * (x / (N + 1)) / (N + 1) + t * (x / (N + 1))) = t * (((N + 1) * (N + 1) - x * (N + 2)) * / ((N + 1) * (N + 1)))) by (field; lra).
  assert (0 <= t * (((N + 1) * (N + 1) - x * (N + 2)) * / ((N + 1) * (N + 1)))); [|lra].
  apply Rmult_le_pos; [lra|]. apply Rmult_le_pos; [nra|]. left. apply Rinv_0_lt_compat. nra.
Qed.
Lemma Q_down x n j : 0 < x -> x <= INR n -> P x (j + n) + T x (j + n) <= P x n + T x n.
Proof. intros H L. induction j as [|j IH]; [cbn [Nat.add]; lra|]. cbn [Nat.add]. eapply Rle_trans; [apply Q_step; auto|exact IH]. apply Rle_trans with (1 := L). apply le_INR. lia. Qed.
Lemma P_up x n j : 0 < x -> P x n <= P x (j + n).
Proof. intros H. induction j as [|j IH]; [cbn [Nat.add]; lra|]. cbn [Nat.add P]. pose proof (T_pos x (S (j + n)) H). assert (0 < T x (S (j + n)) / INR (S (j + n))) by (apply Rmult_lt_0_compat; [auto|apply Rinv_0_lt_compat, S_pos]). lra. Qed.
Lemma ei_low x n : 0 < x -> P x n <= ei_sum x.
Proof. intros H. apply (is_lim_seq_le (fun _ => P x n) (fun j => P x (j + n)) (P x n) (ei_sum x)); [intros j; apply P_up; auto|apply is_lim_seq_const|apply P_lim_n]. Qed.
Lemma ei_high x n : 0 < x -> x <= INR n -> ei_sum x <= P x n + T x n.
Proof.
  intros H L. apply (is_lim_seq_le (fun j => P x (j + n)) (fun _ => P x n + T x n) (ei_sum x) (P x n + T x n)); [|apply P_lim_n|apply is_lim_seq_const].
  intros j. pose proof (Q_down x n j H L). pose proof (T_pos x (j + n) H). lra.
Qed.
(** any sign: the tail is bounded by the tail of the absolute values *)
Lemma P_dist x n j : Rabs (P x (j + n) - P x n) <= P (Rabs x) (j + n) - P (Rabs x) n.
Proof.
  induction j as [|j IH]; [cbn [Nat.add]; rewrite Rminus_diag_eq, Rabs_R0 by reflexivity; lra|]. cbn [Nat.add P].
  replace (P x (j + n) + T x (S (j + n)) / INR (S (j + n)) - P x n) with ((P x (j + n) - P x n) + T x (S (j + n)) / INR (S (j + n))) by ring.
  eapply Rle_trans; [apply Rabs_triang|]. unfold Rdiv. rewrite (Rabs_mult (T _ _)), <- T_abs, (Rabs_pos_eq (/ _)) by (left; apply Rinv_0_lt_compat, S_pos). lra.
Qed.
Lemma ei_tail x n : x <> 0 -> Rabs x <= INR n -> Rabs (ei_sum x - P x n) <= T (Rabs x) n.
Proof.
  intros N L. assert (H : 0 < Rabs x) by (apply Rabs_pos_lt; auto).
  assert (LM : is_lim_seq (fun j => Rabs (P x (j + n) - P x n)) (Rabs (ei_sum x - P x n))).
  { apply (is_lim_seq_abs _ (ei_sum x - P x n)). apply is_lim_seq_minus'; [apply P_lim_n|apply is_lim_seq_const]. }
  apply (is_lim_seq_le (fun j => Rabs (P x (j + n) - P x n)) (fun _ => T (Rabs x) n) (Rabs (ei_sum x - P x n)) (T (Rabs x) n)); [|exact LM|apply is_lim_seq_const].
  intros j. eapply Rle_trans; [apply P_dist|]. pose proof (Q_down (Rabs x) n j H L). pose proof (T_pos (Rabs x) (j + n) H). lra.
Qed.
(** while the terms grow, the sum is at most n times the last one *)
Lemma T_grow x n : 0 < x -> INR (S n) <= x -> T x n <= T x (S n).
Proof. intros H L. rewrite T_S. pose proof (T_pos x n H). pose proof (S_pos n). rewrite <- (Rmult_1_r (T x n)) at 1. apply Rmult_le_compat_l; [lra|]. apply Rmult_le_reg_r with (INR (S n)); [lra|]. unfold Rdiv. rewrite Rmult_assoc, Rinv_l by lra. lra. Qed.
Lemma P_grow x n : 0 < x -> INR n <= x -> P x n <= INR n * T x n.
Proof.
  intros H. induction n as [|n IH]; intros L; [cbn; lra|]. pose proof (T_grow x n H L) as G. assert (INR n <= x) by (rewrite S_INR in L; lra). specialize (IH H0). cbn [P]. pose proof (T_pos x (S n) H) as Tp. pose proof (pos_INR n).
  assert (1 <= INR (S n)) by (change 1 with (INR 1); apply le_INR; lia). assert (/ INR (S n) <= 1) by (rewrite <- Rinv_1; apply Rinv_le_contravar; lra).
  assert (T x (S n) / INR (S n) <= T x (S n) * 1) by (apply Rmult_le_compat_l; lra). assert (INR n * T x n <= INR n * T x (S n)) by (apply Rmult_le_compat_l; auto).
  replace (INR (S n) * T x (S n)) with (INR n * T x (S n) + T x (S n)) by (rewrite (S_INR n); ring). lra.
Qed.
Lemma P_1 x : P x 1 = x. Proof. cbn [P]. unfold T. cbn. field. Qed.
Lemma P_ge x n : 0 < x -> (1 <= n)%nat -> x <= P x n.
Proof. intros H L. rewrite <- (P_1 x) at 1. replace n with (n - 1 + 1)%nat by lia. apply P_up. auto. Qed.
Lemma P_le_exp x n : 0 < x -> P x n <= INR n * exp x.
Proof.
  intros H. induction n as [|n IH]; [cbn; lra|]. cbn [P]. replace (INR (S n) * exp x) with (INR n * exp x + exp x) by (rewrite (S_INR n); ring). pose proof (T_pos x (S n) H). pose proof (T_le_exp x (S n) H).
  assert (1 <= INR (S n)) by (change 1 with (INR 1); apply le_INR; lia). assert (/ INR (S n) <= 1) by (rewrite <- Rinv_1; apply Rinv_le_contravar; lra).
  assert (T x (S n) / INR (S n) <= T x (S n) * 1) by (apply Rmult_le_compat_l; lra). lra.
Qed.

(** on (-1, 0) the exponential integral is negative *)
Lemma Ei_neg x : -1 < x < 0 -> Ei x <= - / 10.
Proof.
  intros H. unfold Ei. assert (A : Rabs x = - x) by (apply Rabs_left; lra). pose proof (ei_tail x 4 ltac:(lra)) as B. rewrite A in *. cbn [INR] in B. specialize (B ltac:(lra)). apply Rabs_le_between in B.
  assert (E : P x 4 = x + x * x / 4 + x * x * x / 18 + x * x * x * x / 96) by (cbn [P]; unfold T; cbn [pow fact Nat.mul Nat.add INR]; field).
  assert (F : T (- x) 4 = x * x * x * x / 24) by (unfold T; cbn [pow fact Nat.mul Nat.add INR]; field). rewrite E, F in B.
  pose proof (gamma_bounds 0) as G. unfold gH, fH, aH in G. cbn [sum_f_R0] in G. change (INR 1) with 1 in G. rewrite ln_1 in G.
  assert (L : ln (- x) <= - x - 1). { pose proof (exp_ineq1_le (ln (- x))) as I. rewrite exp_ln in I by lra. lra. }
  assert (0 <= x * x <= 1) by nra. assert (-1 <= x * x * x <= 0) by nra. assert (0 <= x * x * x * x <= 1) by nra. lra.
Qed.
