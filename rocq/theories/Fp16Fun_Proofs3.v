(** The exponential of Q16.16 numbers: the power series and the loop. *)
From Coq Require Import ZArith Reals Lra Lia Bool.
From Coquelicot Require Import Coquelicot.
From Flocq Require Import Raux.
From Verif Require Import Base BaseLemmas Fp16_Model Fp16_Spec Fp16_Proofs Fp16_Proofs2 Fp16Fun_Spec Fp16Fun_Proofs Fp16Fun_Proofs2 Expint_Proofs3.
Open Scope R_scope.
Local Notation expR := Rtrigo_def.exp.
Definition u : R := / 131072.

(** ** Partial sums *)
Fixpoint Sm (x : R) (n : nat) : R := match n with O => 0 | S m => Sm x m + T x m end.
Lemma Sm_sum x n : @eq R (sum_n (T x) n) (Sm x (S n)).
Proof. induction n as [|n IH]; [rewrite sum0; cbn [Sm]; ring|]. rewrite sumS, IH. reflexivity. Qed.
Lemma Sm_nonneg x n : 0 < x -> 0 <= Sm x n.
Proof. intros H. induction n as [|n IH]; cbn [Sm]; [lra|]. pose proof (T_pos x n H). lra. Qed.
Lemma Sm_exp x n : 0 < x -> Sm x n <= expR x.
Proof.
  intros H. destruct n as [|n]; [cbn; left; apply exp_pos|]. rewrite <- Sm_sum. apply (is_lim_seq_incr_compare (sum_n (T x)) (expR x)); [exact (T_exp x)|]. intros k. rewrite sumS. pose proof (T_pos x (S k) H). lra.
Qed.
Lemma exp_tail x n : 0 < x -> x <= INR (S n) / 2 -> expR x <= Sm x (S n) + T x n.
Proof.
  intros H Hn. assert (I : forall j, sum_n (T x) (n + j) + T x (n + j) <= Sm x (S n) + T x n).
  { induction j as [|j IH]; [rewrite Nat.add_0_r, Sm_sum; lra|]. replace (n + S j)%nat with (S (n + j)) by lia. rewrite sumS. rewrite T_S. pose proof (T_pos x (n + j) H) as P. assert (K : x / INR (S (n + j)) <= / 2). { assert (INR (S n) <= INR (S (n + j))) by (apply le_INR; lia). pose proof (S_pos (n + j)). apply Rcomplements.Rle_div_l; lra. } assert (T x (n + j) * (x / INR (S (n + j))) <= T x (n + j) * / 2) by (apply Rmult_le_compat_l; lra). lra. }
  apply (is_lim_seq_le_loc (sum_n (T x)) (fun _ => Sm x (S n) + T x n) (expR x) (Sm x (S n) + T x n)).
  - exists n. intros m Hm. specialize (I (m - n)%nat). replace (n + (m - n))%nat with m in I by lia. pose proof (T_pos x m H). lra.
  - exact (T_exp x).
  - apply is_lim_seq_const.
Qed.
Lemma T_mono x y n : 0 < x <= y -> T x n <= T y n.
Proof. intros H. unfold T. apply Rmult_le_compat_r; [left; apply Rinv_0_lt_compat, fact_pos|]. apply pow_incr. lra. Qed.
Lemma Sm_mono x y n : 0 < x <= y -> Sm x n <= Sm y n.
Proof. intros H. induction n as [|n IH]; cbn [Sm]; [lra|]. pose proof (T_mono x y n H). lra. Qed.

(** ** The error of the terms *)
(** [d m] bounds the error of the term with index m + 1 *)
Definition dd (y : R) (m : nat) : R := u * (T y m * (INR m + 2) / 2 + Sm y m).
Fixpoint DD (y : R) (n : nat) : R := match n with O => 0 | S m => DD y m + dd y m end.
Lemma Sm_shift y c m : 0 < y -> (m <= c)%nat -> Sm y m * (y / INR (S c)) + 1 <= Sm y (S m).
Proof.
  intros H. revert c. induction m as [|m IH]; intros c Hc; [cbn [Sm]; rewrite T_0; lra|]. specialize (IH c ltac:(lia)). change (Sm y (S (S m))) with (Sm y (S m) + T y (S m)). change (Sm y (S m)) with (Sm y m + T y m) at 1.
  assert (T y m * (y / INR (S c)) <= T y (S m)). { rewrite T_S. apply Rmult_le_compat_l; [left; apply T_pos, H|]. apply Rmult_le_compat_l; [lra|]. apply Rinv_le_contravar; [apply S_pos|]. apply le_INR. lia. } rewrite Rmult_plus_distr_r. cbn [Sm] in IH. cbn [Sm]. set (a := Sm y m * (y / INR (S c))) in *. set (b := T y m * (y / INR (S c))) in *. clearbody a b. lra.
Qed.
Lemma dd_step y m : 0 < y -> dd y m * (y / INR (S (S m))) + u * T y (S m) + u <= dd y (S m).
Proof.
  intros H. unfold dd. pose proof (Sm_shift y (S m) m H ltac:(lia)) as K. assert (U : 0 < u) by (unfold u; lra). pose proof (S_pos m). pose proof (S_pos (S m)). pose proof (pos_INR m).
  assert (E : T y m * (INR m + 2) / 2 * (y / INR (S (S m))) = T y (S m) * (INR m + 1) / 2). { rewrite T_S. rewrite !S_INR in *. field. lra. }
  replace (u * (T y m * (INR m + 2) / 2 + Sm y m) * (y / INR (S (S m)))) with (u * (T y m * (INR m + 2) / 2 * (y / INR (S (S m))) + Sm y m * (y / INR (S (S m))))) by ring. rewrite E. rewrite (S_INR m).
  set (q := Sm y m * (y / INR (S (S m)))) in *. clearbody q. replace (u * (T y (S m) * (INR m + 1) / 2 + q) + u * T y (S m) + u) with (u * (T y (S m) * (INR m + 1 + 2) / 2 + (q + 1))) by field. apply Rmult_le_compat_l; lra.
Qed.
Lemma dd_nonneg y m : 0 < y -> 0 <= dd y m.
Proof. intros H. unfold dd, u. pose proof (T_pos y m H). pose proof (Sm_nonneg y m H). pose proof (pos_INR m). apply Rmult_le_pos; [lra|]. assert (0 <= T y m * (INR m + 2)) by (apply Rmult_le_pos; lra). lra. Qed.
Lemma TI y m : 0 < y -> T y m * INR m <= y * expR y.
Proof.
  intros H. destruct m as [|m]; [cbn [INR]; pose proof (exp_pos y); rewrite Rmult_0_r; apply Rmult_le_pos; lra|]. rewrite T_S. pose proof (S_pos m). replace (T y m * (y / INR (S m)) * INR (S m)) with (y * T y m) by (field; lra). apply Rmult_le_compat_l; [lra|]. apply T_le_exp, H.
Qed.
Lemma dd_le y m : 0 < y -> dd y m <= u * (expR y * (y / 2 + 2)).
Proof.
  intros H. unfold dd. apply Rmult_le_compat_l; [unfold u; lra|]. pose proof (TI y m H). pose proof (T_le_exp y m H). pose proof (Sm_exp y m H). lra.
Qed.
Lemma SI y n : 0 < y -> (forall m, m <= n -> True)%nat -> exists A B, Sm y n = A /\ B <= y * A /\ DD y n <= u * (B / 2 + A + INR n * expR y).
Proof.
  intros H _. assert (G : forall n, exists B, B <= y * Sm y n /\ (B = 0 /\ n = 0%nat \/ exists p, n = S p /\ B <= y * Sm y p) /\ DD y n <= u * (B / 2 + Sm y n + INR n * expR y)).
  { clear n. induction n as [|n (B & B1 & B2 & B3)]; [exists 0; cbn [Sm DD INR]; split; [lra|]; split; [left; auto|lra]|].
    exists (y * Sm y n). split; [apply Rmult_le_compat_l; [lra|]; cbn [Sm]; pose proof (T_pos y n H); lra|]. split; [right; exists n; split; [reflexivity|lra]|]. cbn [DD]. unfold dd at 1. pose proof (Sm_exp y n H). rewrite S_INR. assert (U : 0 < u) by (unfold u; lra). cbn [Sm].
    assert (K : B + T y n * INR n <= y * Sm y n). { destruct B2 as [(-> & ->)|(p & -> & B2)]; [cbn; lra|]. rewrite T_S. pose proof (S_pos p). replace (T y p * (y / INR (S p)) * INR (S p)) with (y * T y p) by (field; lra). cbn [Sm]. lra. }
    eapply Rle_trans; [apply Rplus_le_compat_r; exact B3|]. rewrite <- Rmult_plus_distr_l. apply Rmult_le_compat_l; [lra|]. lra. }
  destruct (G n) as (B & B1 & _ & B3). exists (Sm y n), B. auto.
Qed.
Lemma DD_le y n : 0 < y -> DD y n <= u * (expR y * (y / 2 + 1 + INR n)).
Proof.
  intros H. destruct (SI y n H (fun _ _ => I)) as (A & B & <- & HB & HD). eapply Rle_trans; [exact HD|]. apply Rmult_le_compat_l; [unfold u; lra|]. pose proof (Sm_exp y n H) as K. assert (y * Sm y n <= y * expR y) by (apply Rmult_le_compat_l; lra). lra.
Qed.
