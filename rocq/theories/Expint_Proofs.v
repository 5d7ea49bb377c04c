(** A numerical value for Euler's constant. *)
From Coq Require Import Reals Lra Lia Psatz ZArith.
From Coquelicot Require Import Coquelicot.
From Verif Require Import Expint_Spec.
Open Scope R_scope.
Ltac mm := repeat match goal with |- context [?a + - ?b] => change (a + - b) with (a - b) end.

Definition cR (t : R) : R := 2 * t / (1 - t * t) - 4 / 3 * (t * t * t) / ((1 - t * t) * (1 - t * t)).
Definition cQ (t : R) : R := 16 / 15 * (t * t * t * t * t * (1 + t * t)) / ((1 - t * t) * (1 - t * t) * ((1 - t * t) * (1 - t * t))).
Lemma sq_lt t : 0 <= t <= 1 / 2 -> 0 < 1 - t * t <= 1. Proof. intros H. split; nra. Qed.
Lemma low_der t : 0 <= t <= 1 / 2 -> is_derive (fun t => ln (1 + t) - ln (1 - t) - cR t) t (16 / 3 * (t * t * t * t) / ((1 - t * t) * (1 - t * t) * (1 - t * t))).
Proof.
  intros H. pose proof (sq_lt t H). unfold cR. auto_derive.
  - mm. repeat split; try lra; apply Rgt_not_eq; repeat apply Rmult_lt_0_compat; lra.
  - mm. field. repeat split; nra.
Qed.
Lemma cQ_der t : 0 <= t <= 1 / 2 -> is_derive cQ t (16 / 15 * (5 * (t * t * t * t) + 10 * (t * t * t * t * t * t) + t * t * t * t * t * t * t * t) / ((1 - t * t) * (1 - t * t) * (1 - t * t) * ((1 - t * t) * (1 - t * t)))).
Proof.
  intros H. pose proof (sq_lt t H). unfold cQ. auto_derive.
  - apply Rgt_not_eq. assert (P : 0 < 1 - t * t) by lra. change (0 < (1 - t * t) * (1 - t * t) * ((1 - t * t) * (1 - t * t))). repeat apply Rmult_lt_0_compat; auto.
  - field. nra.
Qed.
Lemma mono_from0 (h h' : R -> R) t : 0 <= t <= 1 / 2 -> (forall s, 0 <= s <= 1 / 2 -> is_derive h s (h' s)) -> (forall s, 0 <= s <= 1 / 2 -> 0 <= h' s) -> h 0 <= h t.
Proof.
  intros H D P. destruct (Req_dec t 0) as [->|N]; [lra|].
  destruct (MVT_gen h 0 t h') as (c & Hc & E).
  - intros x Hx. rewrite Rmin_left, Rmax_right in Hx by lra. apply D. lra.
  - intros x Hx. rewrite Rmin_left, Rmax_right in Hx by lra. apply continuity_pt_filterlim. apply (ex_derive_continuous h). exists (h' x). apply D. lra.
  - rewrite Rmin_left, Rmax_right in Hc by lra. specialize (P c ltac:(lra)). assert (0 <= h' c * (t - 0)) by (apply Rmult_le_pos; lra). lra.
Qed.
Lemma log_low t : 0 <= t <= 1 / 2 -> cR t <= ln (1 + t) - ln (1 - t).
Proof.
  intros H. pose proof (mono_from0 (fun t => ln (1 + t) - ln (1 - t) - cR t) (fun t => 16 / 3 * (t * t * t * t) / ((1 - t * t) * (1 - t * t) * (1 - t * t))) t H low_der) as M.
  cbv beta in M. assert (Z : ln (1 + 0) - ln (1 - 0) - cR 0 = 0) by (unfold cR; rewrite Rplus_0_r, Rminus_0_r, ln_1; field). rewrite Z in M. assert (0 <= ln (1 + t) - ln (1 - t) - cR t); [|lra]. apply M.
  intros s Hs. pose proof (sq_lt s Hs) as S. apply Rmult_le_pos; [assert (0 <= s * s) by nra; nra|]. left. apply Rinv_0_lt_compat. repeat apply Rmult_lt_0_compat; lra.
Qed.
Lemma log_high t : 0 <= t <= 1 / 2 -> ln (1 + t) - ln (1 - t) <= cR t + cQ t.
Proof.
  intros H.
  pose proof (mono_from0 (fun t => cQ t - (ln (1 + t) - ln (1 - t) - cR t))
    (fun t => (16 / 15 * (5 * (t * t * t * t) + 10 * (t * t * t * t * t * t) + t * t * t * t * t * t * t * t) / ((1 - t * t) * (1 - t * t) * (1 - t * t) * ((1 - t * t) * (1 - t * t)))) - (16 / 3 * (t * t * t * t) / ((1 - t * t) * (1 - t * t) * (1 - t * t)))) t H) as M.
  cbv beta in M. assert (Z : cQ 0 - (ln (1 + 0) - ln (1 - 0) - cR 0) = 0) by (unfold cR, cQ; rewrite Rplus_0_r, Rminus_0_r, ln_1; field). rewrite Z in M. assert (0 <= cQ t - (ln (1 + t) - ln (1 - t) - cR t)); [|lra]. apply M.
  - intros s Hs. apply (is_derive_minus cQ (fun t => ln (1 + t) - ln (1 - t) - cR t)); [apply cQ_der; auto|apply low_der; auto].
  - intros s Hs. pose proof (sq_lt s Hs) as S. set (w := 1 - s * s) in *. set (p := s * s * s * s). assert (Hp : 0 <= p) by (unfold p; assert (0 <= s * s) by nra; nra).
    replace (16 / 15 * (5 * p + 10 * (p * s * s) + p * s * s * s * s) / (w * w * w * (w * w)) - 16 / 3 * p / (w * w * w)) with ((16 / 15 * (5 * p + 10 * (p * s * s) + p * s * s * s * s) - 16 / 3 * p * (w * w)) * / (w * w * w * (w * w))) by (field; lra).
    apply Rmult_le_pos; [|left; apply Rinv_0_lt_compat; repeat apply Rmult_lt_0_compat; lra].
    assert (0 <= s * s) by nra. assert (0 <= p * (s * s)) by nra. assert (0 <= p * (s * s) * (s * s)) by nra. assert (p * (w * w) <= p * 1) by (apply Rmult_le_compat_l; nra). lra.
Qed.

(** the corrected sequences, at n = m + 1 *)
Definition aH (m : nat) : R := sum_f_R0 (fun k => / INR (S k)) m - ln (INR (S m)).
Definition fH (m : nat) : R := aH m - / (2 * INR (S m)) + / (12 * (INR (S m) * INR (S m))).
Definition gH (m : nat) : R := fH m - / (120 * (INR (S m) * INR (S m) * (INR (S m) * INR (S m)))).
Lemma step_t n : 1 <= n -> let t := / (2 * n + 1) in 0 <= t <= 1 / 2 /\ ln (n + 1) - ln n = ln (1 + t) - ln (1 - t) /\
  cR t = / 2 * (/ n + / (n + 1)) - / 12 * (/ (n * n) - / ((n + 1) * (n + 1))) /\
  cQ t = / 120 * (/ (n * n * (n * n)) - / ((n + 1) * (n + 1) * ((n + 1) * (n + 1)))).
Proof.
  intros H t. assert (T : t * (2 * n + 1) = 1) by (unfold t; field; lra). assert (Bt : 0 <= t <= 1 / 2) by (unfold t; split; [left; apply Rinv_0_lt_compat; lra|apply Rmult_le_reg_r with (2 * n + 1); [lra|]; fold t; rewrite T; lra]).
  split; [exact Bt|]. split.
  - assert (E1 : 1 + t = 2 * t * (n + 1)) by lra. assert (E2 : 1 - t = 2 * t * n) by lra. assert (Pt : 0 < t) by (unfold t; apply Rinv_0_lt_compat; lra).
    rewrite E1, E2, (ln_mult (2 * t) (n + 1)), (ln_mult (2 * t) n) by lra. ring.
  - split; unfold cR, cQ, t; field; repeat split; nra.
Qed.
Lemma aH_step m : aH (S m) - aH m = / (INR (S m) + 1) - (ln (INR (S m) + 1) - ln (INR (S m))).
Proof. unfold aH. rewrite tech5, (S_INR (S m)). ring. Qed.
Lemma inr_ge m : 1 <= INR (S m). Proof. rewrite S_INR. pose proof (pos_INR m). lra. Qed.
Lemma fH_decr m : fH (S m) <= fH m.
Proof.
  pose proof (inr_ge m) as H. destruct (step_t _ H) as (Bt & EL & ER & EQ). set (n := INR (S m)) in *. pose proof (log_low _ Bt) as L. rewrite <- EL, ER in L. pose proof (aH_step m) as A. fold n in A.
  unfold fH. rewrite (S_INR (S m)). fold n. set (a1 := aH (S m)) in *. set (a0 := aH m) in *. set (l := ln (n + 1) - ln n) in *.
  replace (/ (2 * (n + 1))) with (/ 2 * / (n + 1)) by (field; lra). replace (/ (2 * n)) with (/ 2 * / n) by (field; lra).
  replace (/ (12 * ((n + 1) * (n + 1)))) with (/ 12 * / ((n + 1) * (n + 1))) by (field; lra). replace (/ (12 * (n * n))) with (/ 12 * / (n * n)) by (field; lra). lra.
Qed.
Lemma gH_incr m : gH m <= gH (S m).
Proof.
  pose proof (inr_ge m) as H. destruct (step_t _ H) as (Bt & EL & ER & EQ). set (n := INR (S m)) in *. pose proof (log_high _ Bt) as L. rewrite <- EL, ER, EQ in L. pose proof (aH_step m) as A. fold n in A.
  unfold gH, fH. rewrite (S_INR (S m)). fold n. set (a1 := aH (S m)) in *. set (a0 := aH m) in *. set (l := ln (n + 1) - ln n) in *.
  replace (/ (2 * (n + 1))) with (/ 2 * / (n + 1)) by (field; lra). replace (/ (2 * n)) with (/ 2 * / n) by (field; lra).
  replace (/ (12 * ((n + 1) * (n + 1)))) with (/ 12 * / ((n + 1) * (n + 1))) by (field; lra). replace (/ (12 * (n * n))) with (/ 12 * / (n * n)) by (field; lra).
  replace (/ (120 * ((n + 1) * (n + 1) * ((n + 1) * (n + 1))))) with (/ 120 * / ((n + 1) * (n + 1) * ((n + 1) * (n + 1)))) by (field; lra). replace (/ (120 * (n * n * (n * n)))) with (/ 120 * / (n * n * (n * n))) by (field; lra). lra.
Qed.
Lemma fH_down m k : fH (m + k) <= fH m. Proof. induction k; [rewrite Nat.add_0_r; lra|]. rewrite Nat.add_succ_r. pose proof (fH_decr (m + k)). lra. Qed.
Lemma gH_up m k : gH m <= gH (m + k). Proof. induction k; [rewrite Nat.add_0_r; lra|]. rewrite Nat.add_succ_r. pose proof (gH_incr (m + k)). lra. Qed.
Lemma gH_fH m : gH m <= fH m.
Proof. unfold gH. pose proof (inr_ge m). assert (0 < / (120 * (INR (S m) * INR (S m) * (INR (S m) * INR (S m))))) by (apply Rinv_0_lt_compat; repeat apply Rmult_lt_0_compat; lra). lra. Qed.
Lemma inv_lim : is_lim_seq (fun m => / INR (S m)) 0.
Proof. apply is_lim_seq_incr_1 with (u := fun n => / INR n). replace (Finite 0) with (Rbar_inv p_infty) by reflexivity. apply is_lim_seq_inv; [apply is_lim_seq_INR|discriminate]. Qed.
Lemma gamma_bounds m : gH m <= euler_gamma <= fH m.
Proof.
  assert (CF : ex_finite_lim_seq fH). { apply ex_finite_lim_seq_decr with (gH 0); [intros n; apply fH_decr|]. intros n. pose proof (gH_up 0 n). pose proof (gH_fH n). cbn [Nat.add] in *. lra. }
  destruct CF as (l & Hl).
  assert (Ha : is_lim_seq aH l).
  { apply is_lim_seq_ext with (fun m => fH m + (/ 2 * / INR (S m) - / 12 * (/ INR (S m) * / INR (S m)))).
    - intros n. unfold fH. pose proof (inr_ge n). field. lra.
    - replace (Finite l) with (Finite (l + (/ 2 * 0 - / 12 * (0 * 0)))) by (f_equal; ring).
      apply is_lim_seq_plus'; [exact Hl|]. apply is_lim_seq_minus'; [apply (is_lim_seq_scal_l _ (/ 2) 0), inv_lim|]. apply (is_lim_seq_scal_l _ (/ 12) (0 * 0)). apply is_lim_seq_mult'; apply inv_lim. }
  assert (E : euler_gamma = l). { unfold euler_gamma. change (fun n : nat => sum_f_R0 (fun k : nat => / INR (S k)) n - ln (INR (S n))) with aH. rewrite (is_lim_seq_unique _ _ Ha). reflexivity. }
  rewrite E. apply (is_lim_seq_incr_n _ m) in Hl.
  assert (LG : is_lim_seq (fun _ => gH m) (gH m)) by apply is_lim_seq_const. assert (LF : is_lim_seq (fun _ => fH m) (fH m)) by apply is_lim_seq_const.
  split.
  - apply (is_lim_seq_le (fun _ => gH m) (fun n => fH (n + m)) (gH m) l); [|exact LG|exact Hl]. intros n. rewrite (Nat.add_comm n m). apply Rle_trans with (1 := gH_up m n). apply gH_fH.
  - apply (is_lim_seq_le (fun n => fH (n + m)) (fun _ => fH m) l (fH m)); [|exact Hl|exact LF]. intros n. rewrite (Nat.add_comm n m). apply fH_down.
Qed.
