(** Integrators in binary32 (C133). *)
From Coq Require Import ZArith Reals Lra Lia Bool List.
From Flocq Require Import Core IEEE754.BinarySingleNaN IEEE754.Binary IEEE754.Bits.
From Verif Require Import Base Arith Ffmath_Spec Float32 Numa_Model Numa_Spec Numa32_Spec Fir32_Spec Fir32_Proofs.
Import ListNotations.
Open Scope R_scope.

(** ** Approximations with a relative and an absolute part *)
Definition ap (x v a : R) (c : nat) (e : R) : Prop := Rabs v <= a /\ 0 <= e /\ Rabs (x - v) <= ((1 + u32) ^ c - 1) * a + e.

Lemma ap_exact x : ap x x (Rabs x) 0 0.
Proof. split; [lra|]. split; [lra|]. rewrite Rminus_diag_eq, Rabs_R0 by reflexivity. cbn. lra. Qed.
Lemma q_mono c d : (c <= d)%nat -> (1 + u32) ^ c <= (1 + u32) ^ d.
Proof. intros H. apply Rle_pow; [pose proof u_pos; lra|exact H]. Qed.
Lemma ap_weak x v a c e d f : ap x v a c e -> (c <= d)%nat -> e <= f -> ap x v a d f.
Proof.
  intros (A & B & C) H1 H2. split; [exact A|]. split; [lra|]. pose proof (q_mono c d H1). pose proof (Rabs_pos v).
  assert ((1 + u32) ^ c * a <= (1 + u32) ^ d * a) by (apply Rmult_le_compat_r; lra). lra.
Qed.
Lemma ap_size x v a c e : ap x v a c e -> Rabs x <= (1 + u32) ^ c * a + e.
Proof. intros (A & B & C). replace x with ((x - v) + v) by ring. pose proof (Rabs_triang (x - v) v). lra. Qed.
Lemma ap_rnd x v a c e : ap x v a c e -> ap (rnd x) v a (S c) ((1 + u32) * e + eta).
Proof.
  intros H. pose proof (ap_size _ _ _ _ _ H) as Sz. destruct H as (A & B & C). split; [exact A|]. pose proof u_pos. pose proof eta_pos.
  split; [nra|]. pose proof (rnd_err x) as E. replace (rnd x - v) with ((rnd x - x) + (x - v)) by ring.
  eapply Rle_trans; [apply Rabs_triang|]. cbn [Rpow_def.pow].
  assert (u32 * Rabs x <= u32 * ((1 + u32) ^ c * a + e)) by (apply Rmult_le_compat_l; lra). lra.
Qed.
Lemma ap_plus x v a c e y w b f : ap x v a c e -> ap y w b c f -> ap (x + y) (v + w) (a + b) c (e + f).
Proof.
  intros (A & B & C) (A' & B' & C'). split; [eapply Rle_trans; [apply Rabs_triang|]; lra|]. split; [lra|].
  replace (x + y - (v + w)) with ((x - v) + (y - w)) by ring. eapply Rle_trans; [apply Rabs_triang|]. lra.
Qed.
Lemma ap_opp x v a c e : ap x v a c e -> ap (- x) (- v) a c e.
Proof. intros (A & B & C). split; [rewrite Rabs_Ropp; exact A|]. split; [exact B|]. replace (- x - - v) with (- (x - v)) by ring. rewrite Rabs_Ropp. exact C. Qed.
Lemma ap_mult x v a c e y w b d : ap x v a c e -> ap y w b d 0 -> ap (x * y) (v * w) (a * b) (c + d) (e * b * (1 + u32) ^ d).
Proof.
  intros H H'. pose proof (ap_size _ _ _ _ _ H) as Sz. destruct H as (A & B & C), H' as (A' & B' & C').
  pose proof (Rabs_pos v). pose proof (Rabs_pos w). pose proof (q_pow c). pose proof (q_pow d). pose proof (Rabs_pos x).
  split; [rewrite Rabs_mult; apply Rmult_le_compat; lra|]. split; [apply Rmult_le_pos; [apply Rmult_le_pos|]; lra|].
  replace (x * y - v * w) with (x * (y - w) + (x - v) * w) by ring. eapply Rle_trans; [apply Rabs_triang|]. rewrite !Rabs_mult, pow_add.
  assert (Rabs x * Rabs (y - w) <= ((1 + u32) ^ c * a + e) * (((1 + u32) ^ d - 1) * b)).
  { apply Rmult_le_compat; try apply Rabs_pos; lra. }
  assert (Rabs (x - v) * Rabs w <= (((1 + u32) ^ c - 1) * a + e) * b).
  { apply Rmult_le_compat; try apply Rabs_pos; lra. }
  nra.
Qed.

(** ** Small additions are lost *)
Lemma stall_rnd (x : binary32) t : Rabs t < Rabs (valR x) * bpow radix2 (-25) -> rnd (valR x + t) = valR x.
Proof.
  intros H. set (v := valR x) in *.
  assert (Fv : generic_format radix2 (FLT_exp (-149) 24) v). { unfold v. rewrite <- fexp_FLT. apply generic_format_B2R. }
  assert (P : forall v, 0 < v -> generic_format radix2 (FLT_exp (-149) 24) v -> v * bpow radix2 (-24) <= succ radix2 (FLT_exp (-149) 24) v - v /\ v * bpow radix2 (-24) <= v - pred radix2 (FLT_exp (-149) 24) v).
  { clear. intros v Pv Fv. assert (U : v * bpow radix2 (-24) <= ulp radix2 (FLT_exp (-149) 24) v).
    { pose proof (ulp_FLT_gt radix2 (-149) 24 v) as G. rewrite Rabs_pos_eq in G by lra. cbn [Z.opp] in G. lra. }
    split; [rewrite succ_eq_pos by lra; lra|]. rewrite pred_eq_pos by lra. unfold pred_pos.
    destruct (Req_bool_spec v (bpow radix2 (mag radix2 v - 1))) as [E|_]; [|lra].
    rewrite E at 1. rewrite <- bpow_plus. assert (bpow radix2 (mag radix2 v - 1 + -24) <= bpow radix2 (FLT_exp (-149) 24 (mag radix2 v - 1))).
    { apply bpow_le. unfold FLT_exp. lia. } lra. }
  assert (B : bpow radix2 (-24) = 2 * bpow radix2 (-25)) by (change (-24)%Z with (1 + -25)%Z; rewrite bpow_plus; reflexivity).
  assert (Q : v * 0 = 0) by ring. 
  assert (S1 : (v + pred radix2 (FLT_exp (-149) 24) v) / 2 < v + t < (v + succ radix2 (FLT_exp (-149) 24) v) / 2).
  { destruct (Rlt_le_dec 0 v) as [Pv|Nv].
    - destruct (P v Pv Fv) as (P1 & P2). rewrite B in P1, P2. rewrite (Rabs_pos_eq v) in H by lra. apply Rabs_lt_inv in H. split; lra.
    - destruct (Rlt_le_dec v 0) as [Nv'|Zv].
      + destruct (P (- v) ltac:(lra) (generic_format_opp _ _ _ Fv)) as (P1 & P2). rewrite pred_opp in P2. rewrite succ_opp in P1. rewrite B in P1, P2.
        rewrite (Rabs_left v) in H by lra. apply Rabs_lt_inv in H. split; lra.
      + assert (v = 0) by lra. rewrite H0, Rabs_R0, Rmult_0_l in H. pose proof (Rabs_pos t). lra. }
  apply Rle_antisym; [apply round_N_le_midp|apply round_N_ge_midp]; try exact Fv; try apply FLT_exp_valid; try reflexivity; try lra.
Qed.

Lemma stall (x y : binary32) : finite x -> finite y -> Rabs (valR y) < Rabs (valR x) * bpow radix2 (-25) -> b32_plus mode_NE x y = x.
Proof.
  intros Fx Fy H. pose proof (stall_rnd x (valR y) H) as E.
  pose proof (Bplus_correct 24 128 eq_refl eq_refl binop_nan_pl32 mode_NE x y Fx Fy) as B. rewrite fexp_FLT in B. cbn [round_mode] in B.
  change (round radix2 (FLT_exp (-149) 24) ZnearestE (valR x + valR y)) with (rnd (valR x + valR y)) in B. rewrite E in B.
  rewrite Rlt_bool_true in B by apply abs_B2R_lt_emax. destruct B as (V & Fz & Sg).
  assert (N0 : valR x <> 0). { intros Z. rewrite Z, Rabs_R0, Rmult_0_l in H. pose proof (Rabs_pos (valR y)). lra. }
  change (b32_plus mode_NE x y) with (Bplus 24 128 eq_refl eq_refl binop_nan_pl32 mode_NE x y).
  apply B2R_inj; [| |exact V].
  - destruct (Bplus 24 128 eq_refl eq_refl binop_nan_pl32 mode_NE x y) as [s|s|s p e|s m e b]; try discriminate; [|reflexivity].
    cbn in V. exfalso. apply N0. symmetry. exact V.
  - destruct x as [s|s|s p e|s m e b]; try discriminate; [cbn in N0; lra|reflexivity].
Qed.

(** ** The increments *)
Section O.
Variable o : oracles binary32.
Local Notation inc := (n_increment (A := B32 o)).

Lemma lit_ap n d : ap (valR (lit (a := B32 o) n d : binary32)) (valR (lit (a := B32 o) n d : binary32)) (Rabs (valR (lit (a := B32 o) n d : binary32))) 0 0.
Proof. apply ap_exact. Qed.
Lemma l_half : valR (lit (a := B32 o) 1 2 : binary32) = 1 / 2. Proof. vm_compute; lra. Qed.
Lemma l4 : valR (lit (a := B32 o) 4 1 : binary32) = 4. Proof. vm_compute; lra. Qed.
Lemma l5 : valR (lit (a := B32 o) 5 1 : binary32) = 5. Proof. vm_compute; lra. Qed.
Lemma l8 : valR (lit (a := B32 o) 8 1 : binary32) = 8. Proof. vm_compute; lra. Qed.
Lemma ap_sixth : ap (valR (b32_div mode_NE (lit (a := B32 o) 1 1) (lit (a := B32 o) 6 1))) (1 / 6) (1 / 6) 1 0.
Proof.
  assert (E : valR (b32_div mode_NE (lit (a := B32 o) 1 1) (lit (a := B32 o) 6 1)) = 11184811 / 67108864) by (vm_compute; lra).
  rewrite E. split; [rewrite Rabs_pos_eq; lra|]. split; [lra|]. change u32 with (/ 16777216). rewrite Rabs_pos_eq; cbn [Rpow_def.pow]; lra.
Qed.
Lemma ap_twelfth : ap (valR (b32_div mode_NE (lit (a := B32 o) 1 1) (lit (a := B32 o) 12 1))) (1 / 12) (1 / 12) 1 0.
Proof.
  assert (E : valR (b32_div mode_NE (lit (a := B32 o) 1 1) (lit (a := B32 o) 12 1)) = 11184811 / 134217728) by (vm_compute; lra).
  rewrite E. split; [rewrite Rabs_pos_eq; lra|]. split; [lra|]. change u32 with (/ 16777216). rewrite Rabs_pos_eq; cbn [Rpow_def.pow]; lra.
Qed.

Definition term (w : R * R * R) (h s s1 s2 : R) : R := h * (fst (fst w) * s + snd (fst w) * s1 + snd w * s2).
Definition wabs (w : R * R * R) : R * R * R := (Rabs (fst (fst w)), Rabs (snd (fst w)), Rabs (snd w)).

Lemma ap_cst y v : y = v -> ap y v (Rabs v) 0 0. Proof. intros ->. apply ap_exact. Qed.
Lemma ap_eq x v a c e v' a' : ap x v a c e -> v = v' -> a = a' -> ap x v' a' c e. Proof. intros H <- <-. exact H. Qed.
Lemma ap_comm_mult x v a c e y w b d : ap x v a c e -> ap y w b d 0 -> ap (y * x) (w * v) (b * a) (c + d) (e * b * (1 + u32) ^ d).
Proof. intros H H'. rewrite (Rmult_comm y x), (Rmult_comm w v), (Rmult_comm b a). apply ap_mult; assumption. Qed.

(** Steps with the absolute error counted in units of [eta]. *)
Lemma st_rnd x v a c k k' : ap x v a c (k * eta) -> 17 / 16 * k + 1 <= k' -> ap (rnd x) v a (S c) (k' * eta).
Proof.
  intros H K. pose proof u_pos. pose proof eta_pos. assert (U' : u32 <= / 16) by (change u32 with (/ 16777216); lra).
  assert (0 <= k). { destruct H as (_ & H & _). apply Rmult_le_reg_r with eta; lra. }
  eapply ap_weak; [apply ap_rnd; exact H|lia|]. assert (u32 * (k * eta) <= / 16 * (k * eta)) by (apply Rmult_le_compat_r; [apply Rmult_le_pos|]; lra).
  assert ((17 / 16 * k + 1) * eta <= k' * eta) by (apply Rmult_le_compat_r; lra). lra.
Qed.
Lemma st_plus x v a c k y w b d k' : ap x v a c (k * eta) -> ap y w b d (k' * eta) -> ap (x + y) (v + w) (a + b) (Nat.max c d) ((k + k') * eta).
Proof.
  intros H H'. rewrite Rmult_plus_distr_r. apply ap_plus; (eapply ap_weak; [eassumption|lia|lra]).
Qed.
Lemma st_minus x v a c k y w b d k' : ap x v a c (k * eta) -> ap y w b d (k' * eta) -> ap (x - y) (v - w) (a + b) (Nat.max c d) ((k + k') * eta).
Proof. intros H H'. apply st_plus; [exact H|apply ap_opp; exact H']. Qed.
Lemma st_scale x v a c k y w b d : ap x v a c (k * eta) -> ap y w b d 0 -> (d <= 1)%nat -> ap (y * x) (w * v) (b * a) (c + d) (17 / 16 * k * b * eta).
Proof.
  intros H H' D. pose proof eta_pos. pose proof u_pos. assert (0 <= k). { destruct H as (_ & H & _). apply Rmult_le_reg_r with eta; lra. }
  assert (0 <= b). { destruct H' as (H' & _). pose proof (Rabs_pos w). lra. } assert (U' : u32 <= / 16) by (change u32 with (/ 16777216); lra).
  eapply ap_weak; [apply ap_comm_mult; [exact H|exact H']|lia|]. assert (Q : (1 + u32) ^ d <= 17 / 16). { destruct d as [|[|d]]; [cbn; lra|cbn; lra|lia]. }
  replace (17 / 16 * k * b * eta) with (k * eta * b * (17 / 16)) by ring. apply Rmult_le_compat_l; [|exact Q].
  apply Rmult_le_pos; [apply Rmult_le_pos|]; lra.
Qed.
Lemma st_exact x : ap x x (Rabs x) 0 (0 * eta).
Proof. rewrite Rmult_0_l. apply ap_exact. Qed.
Lemma st_const y r : y = r -> 0 <= r -> ap y r r 0 0.
Proof. intros -> H. pose proof (ap_exact r) as E. rewrite (Rabs_pos_eq r H) in E at 1. exact E. Qed.
Lemma st_last x v a c k h : ap x v a c (k * eta) -> k <= 15 / 8 -> ap (rnd (x * h)) (v * h) (a * Rabs h) (S c) ((2 * Rabs h + 2) * eta).
Proof.
  intros H K. pose proof eta_pos. pose proof (Rabs_pos h). assert (0 <= k). { destruct H as (_ & H & _). apply Rmult_le_reg_r with eta; lra. }
  assert (A : ap (x * h) (v * h) (a * Rabs h) c ((k * Rabs h) * eta)).
  { eapply ap_weak; [apply ap_mult; [exact H|apply ap_exact]|lia|]. cbn [Rpow_def.pow]. lra. }
  eapply st_rnd; [exact A|]. assert (k * Rabs h <= 15 / 8 * Rabs h) by (apply Rmult_le_compat_r; lra). lra.
Qed.

Lemma inc_err (s h : binary32) (n : nstate (B32 o)) : nim n <> IOther -> finite (inc s h n) ->
  (finite h /\ finite s) /\ ap (valR (inc s h n : binary32)) (term (weights (nim n)) (valR h) (valR s) (valR (nx1 n)) (valR (nx2 n)))
    (term (wabs (weights (nim n))) (Rabs (valR h)) (Rabs (valR s)) (Rabs (valR (nx1 n))) (Rabs (valR (nx2 n)))) 6 ((2 * Rabs (valR h) + 2) * eta).
Proof.
  intros N Fi. unfold n_increment in *.
  assert (R2 : Rabs (1 / 2) = 1 / 2) by (rewrite Rabs_pos_eq; lra).
  assert (R6 : Rabs (1 / 6) = 1 / 6) by (rewrite Rabs_pos_eq; lra).
  assert (R46 : Rabs (4 / 6) = 4 / 6) by (rewrite Rabs_pos_eq; lra).
  assert (R512 : Rabs (5 / 12) = 5 / 12) by (rewrite Rabs_pos_eq; lra).
  assert (R812 : Rabs (8 / 12) = 8 / 12) by (rewrite Rabs_pos_eq; lra).
  assert (R112 : Rabs (-1 / 12) = 1 / 12) by (rewrite Rabs_left; lra).
  pose proof (Rabs_R0) as R0'. pose proof Rabs_R1 as R1'.
  destruct (nim n); [| | | |congruence].
  - change (finite (b32_mult mode_NE s h)) in Fi. destruct (mult_fin _ _ Fi) as (Fs & Fh & V). split; [auto|].
    eapply ap_weak; [eapply ap_eq; [match goal with |- ap ?t _ _ _ _ => replace t with (rnd (valR s * valR h)) by (symmetry; exact V) end; eapply st_last; [apply st_exact|lra]| |]|lia|lra].
    + unfold term, weights. cbn. ring.
    + unfold term, wabs, weights. cbn. rewrite R0', R1'. ring.
  - change (finite (b32_mult mode_NE (b32_mult mode_NE (lit (a := B32 o) 1 2) (b32_plus mode_NE s (nx1 n))) h)) in Fi.
    destruct (mult_fin _ _ Fi) as (F1 & Fh & V). destruct (mult_fin _ _ F1) as (_ & F2 & W). destruct (plus_fin _ _ F2) as (Fs & _ & Y). split; [auto|].
    rewrite W, Y, l_half in V. eapply ap_weak; [eapply ap_eq; [match goal with |- ap ?t _ _ _ _ => replace t with (rnd (rnd (1 / 2 * rnd (valR s + valR (nx1 n))) * valR h)) by (symmetry; exact V) end;
      eapply (st_last _ _ _ _ (27 / 16)); [eapply st_rnd; [eapply st_scale; [eapply (st_rnd _ _ _ _ _ 1); [apply st_plus; apply st_exact|lra]|apply (st_const _ (1 / 2)); [reflexivity|lra]|lia]|lra]|lra]| |]|cbn; lia|lra].
    + unfold term, weights. cbn. field.
    + unfold term, wabs, weights. cbn. rewrite R0', R2. field.
  - change (finite (b32_mult mode_NE (b32_mult mode_NE (b32_div mode_NE (lit (a := B32 o) 1 1) (lit (a := B32 o) 6 1)) (b32_plus mode_NE (b32_plus mode_NE s (b32_mult mode_NE (lit (a := B32 o) 4 1) (nx1 n))) (nx2 n))) h)) in Fi.
    destruct (mult_fin _ _ Fi) as (F1 & Fh & V). destruct (mult_fin _ _ F1) as (_ & F2 & W). destruct (plus_fin _ _ F2) as (F3 & _ & Y). destruct (plus_fin _ _ F3) as (Fs & F4 & T). destruct (mult_fin _ _ F4) as (_ & _ & K). split; [auto|].
    rewrite W, Y, T, K, l4 in V. eapply ap_weak; [eapply ap_eq; [match goal with |- ap ?t _ _ _ _ => replace t with (rnd (rnd (valR (b32_div mode_NE (lit (a := B32 o) 1 1) (lit (a := B32 o) 6 1)) * rnd (rnd (valR s + rnd (4 * valR (nx1 n))) + valR (nx2 n))) * valR h)) by (symmetry; exact V) end;
      eapply (st_last _ _ _ _ (27 / 16)); [eapply st_rnd; [eapply st_scale; [eapply (st_rnd _ _ _ _ _ (13 / 4)); [apply st_plus; [eapply (st_rnd _ _ _ _ _ (33 / 16)); [apply st_plus; [apply st_exact|eapply (st_rnd _ _ _ _ _ 1); [eapply st_scale; [apply st_exact|apply (st_const _ 4); [reflexivity|lra]|lia]|lra]]|lra]|apply st_exact]|lra]|apply ap_sixth|lia]|lra]|lra]| |]|cbn; lia|lra].
    + unfold term, weights. cbn. field.
    + unfold term, wabs, weights. cbn. rewrite R6, R46. field.
  - change (finite (b32_mult mode_NE (b32_mult mode_NE (b32_div mode_NE (lit (a := B32 o) 1 1) (lit (a := B32 o) 12 1)) (b32_minus mode_NE (b32_plus mode_NE (b32_mult mode_NE (lit (a := B32 o) 5 1) s) (b32_mult mode_NE (lit (a := B32 o) 8 1) (nx1 n))) (nx2 n))) h)) in Fi.
    destruct (mult_fin _ _ Fi) as (F1 & Fh & V). destruct (mult_fin _ _ F1) as (_ & F2 & W). destruct (minus_fin _ _ F2) as (F3 & _ & Y). destruct (plus_fin _ _ F3) as (F5 & F4 & T). destruct (mult_fin _ _ F4) as (_ & _ & K). destruct (mult_fin _ _ F5) as (_ & Fs & L). split; [auto|].
    rewrite W, Y, T, K, L, l5, l8 in V. eapply ap_weak; [eapply ap_eq; [match goal with |- ap ?t _ _ _ _ => replace t with (rnd (rnd (valR (b32_div mode_NE (lit (a := B32 o) 1 1) (lit (a := B32 o) 12 1)) * rnd (rnd (rnd (5 * valR s) + rnd (8 * valR (nx1 n))) - valR (nx2 n))) * valR h)) by (symmetry; exact V) end;
      eapply (st_last _ _ _ _ (27 / 16)); [eapply st_rnd; [eapply st_scale; [eapply (st_rnd _ _ _ _ _ (9 / 2)); [apply st_minus; [eapply (st_rnd _ _ _ _ _ (25 / 8)); [apply st_plus; [eapply (st_rnd _ _ _ _ _ 1); [eapply st_scale; [apply st_exact|apply (st_const _ 5); [reflexivity|lra]|lia]|lra]|eapply (st_rnd _ _ _ _ _ 1); [eapply st_scale; [apply st_exact|apply (st_const _ 8); [reflexivity|lra]|lia]|lra]]|lra]|apply st_exact]|lra]|apply ap_twelfth|lia]|lra]|lra]| |]|cbn; lia|lra].
    + unfold term, weights. cbn. field.
    + unfold term, wabs, weights. cbn. rewrite R512, R812, R112. field.
Qed.

Lemma imethod_eq_dec_other (m : imethod) : m = IOther \/ m <> IOther.
Proof. destruct m; first [left; reflexivity|right; discriminate]. Qed.

(** ** The accumulation *)
Lemma feed_cons (h s : binary32) r (n : nstate (B32 o)) : nim n <> IOther ->
  n_feed (A := B32 o) h (s :: r) n = (let y := b32_plus mode_NE (nx0 n) (inc s h n) in
    let q := n_feed (A := B32 o) h r (mkN (A := B32 o) y s (nx1 n) (nim n) (ndm n)) in (y :: fst q, snd q)).
Proof.
  intros N. cbn [n_feed]. unfold n_integrate. cbv zeta. cbn [fst snd].
  assert (E : match nim n with IOther => n | _ => mkN (A := B32 o) (fadd (a := B32 o) (nx0 n) (inc s h n)) (nx1 n) (nx2 n) (nim n) (ndm n) end = mkN (A := B32 o) (fadd (a := B32 o) (nx0 n) (inc s h n)) (nx1 n) (nx2 n) (nim n) (ndm n)) by (destruct (nim n); [reflexivity..|congruence]).
  rewrite E. unfold n_update. cbn [nx0 nx1 nx2 nim ndm]. change (fadd (a := B32 o) (nx0 n) (inc s h n)) with (b32_plus mode_NE (nx0 n) (inc s h n)).
  destruct (n_feed (A := B32 o) h r _) as (ys, n2). reflexivity.
Qed.

Definition budget (h : R) (k : nat) : R := INR k * (1 + u32) ^ k * ((2 * Rabs h + 3) * eta).

Lemma feed_err (h : binary32) : forall (ss : list binary32) (n : nstate (B32 o)) (m : nat) (T S : R),
  nim n <> IOther -> ap (valR (nx0 n)) T S (m + 6) (budget (valR h) m) ->
  Forall (fun y : binary32 => finite y) (fst (n_feed (A := B32 o) h ss n)) ->
  length (fst (n_feed (A := B32 o) h ss n)) = length ss /\
  forall k, (k < length ss)%nat ->
    ap (nth k (map (B2R 24 128) (fst (n_feed (A := B32 o) h ss n))) 0)
       (T + total (firstn (k + 1) (contributions (weights (nim n)) (valR h) (map (B2R 24 128) ss) (valR (nx1 n)) (valR (nx2 n)))))
       (S + total (firstn (k + 1) (magnitudes (weights (nim n)) (valR h) (map (B2R 24 128) ss) (valR (nx1 n)) (valR (nx2 n)))))
       (m + k + 7) (budget (valR h) (m + k + 1)).
Proof.
  induction ss as [|s r IH]; intros n m T S N I Fy; [split; [reflexivity|cbn; lia]|].
  rewrite feed_cons in Fy |- * by exact N. cbv zeta in Fy |- *. cbn [fst] in Fy |- *. inversion Fy as [|? ? Fy1 Fyr E1]; subst.
  destruct (plus_fin _ _ Fy1) as (_ & Fi & V). destruct (inc_err s h n N Fi) as (_ & Hi).
  set (p := term _ _ _ _ _) in Hi. set (P := term (wabs _) _ _ _ _) in Hi.
  assert (I1 : ap (valR (b32_plus mode_NE (nx0 n) (inc s h n))) (T + p) (S + P) (Datatypes.S m + 6) (budget (valR h) (Datatypes.S m))).
  { rewrite V. eapply ap_weak; [apply ap_rnd; apply ap_plus; [exact I|eapply ap_weak; [exact Hi|lia|apply Rle_refl]]|lia|].
    unfold budget. rewrite S_INR. cbn [Rpow_def.pow]. pose proof u_pos. pose proof eta_pos. pose proof (Rabs_pos (valR h)). pose proof (q_pow m). pose proof (pos_INR m).
    set (Q := (1 + u32) ^ m) in *. set (D := (2 * Rabs (valR h) + 3) * eta).
    assert (HD : (2 * Rabs (valR h) + 2) * eta = D - eta) by (unfold D; ring). rewrite HD.
    assert (eta <= D) by (unfold D; nra). assert (0 <= Q * D - D) by nra. assert (0 <= u32 * eta) by nra. 
    replace ((INR m + 1) * ((1 + u32) * Q) * D) with ((1 + u32) * (INR m * Q * D) + (1 + u32) * (Q * D)) by ring.
    assert ((1 + u32) * D <= (1 + u32) * (Q * D)) by (apply Rmult_le_compat_l; lra). lra. }
  destruct (IH (mkN (A := B32 o) (b32_plus mode_NE (nx0 n) (inc s h n)) s (nx1 n) (nim n) (ndm n)) (Datatypes.S m) (T + p) (S + P) N I1 Fyr) as (L & H).
  split; [cbn [length]; rewrite <- L; reflexivity|]. intros k Hk. unfold magnitudes in *. cbn [map contributions]. cbn [nx0 nx1 nx2 nim ndm] in H.
  destruct k as [|k].
  - cbn [nth Nat.add firstn total fold_right]. rewrite !Rplus_0_r. replace (m + 0 + 7)%nat with (Datatypes.S m + 6)%nat by lia. replace (m + 0 + 1)%nat with (Datatypes.S m) by lia. exact I1.
  - cbn [length] in Hk. specialize (H k ltac:(lia)). cbn [nth Nat.add firstn total fold_right]. replace (m + Datatypes.S k + 7)%nat with (Datatypes.S m + k + 7)%nat by lia.
    replace (m + Datatypes.S k + 1)%nat with (Datatypes.S m + k + 1)%nat by lia.
    eapply ap_eq; [exact H| |]; unfold p, P, term, wabs, total; cbn [fst snd]; ring.
Qed.

(** ** Stagnation *)
Definition okp (x : binary32) (a : Z) : Prop := finite x /\ Rabs (valR x) <= bpow radix2 a.
Lemma okp_mult x y a b : okp x a -> okp y b -> (-149 <= a + b <= 127)%Z -> okp (b32_mult mode_NE x y) (a + b).
Proof.
  intros (Fx & Bx) (Fy & By) H. assert (Q : Rabs (valR x * valR y) <= bpow radix2 (a + b)).
  { rewrite Rabs_mult, bpow_plus. apply Rmult_le_compat; try apply Rabs_pos; assumption. }
  destruct (mult_R x y Fx Fy) as (F1 & V1).
  - eapply Rle_trans; [exact Q|]. apply bpow_le. lia.
  - split; [exact F1|]. rewrite V1. apply rnd_abs_le; [lia|exact Q].
Qed.
Lemma okp_plus x y a : okp x a -> okp y a -> (-149 <= a <= 126)%Z -> okp (b32_plus mode_NE x y) (a + 1).
Proof.
  intros (Fx & Bx) (Fy & By) H. assert (Q : Rabs (valR x + valR y) <= bpow radix2 (a + 1)).
  { eapply Rle_trans; [apply Rabs_triang|]. rewrite bpow_plus. change (bpow radix2 1) with 2. lra. }
  destruct (plus_R x y Fx Fy) as (F1 & V1).
  - eapply Rle_trans; [exact Q|]. apply bpow_le. lia.
  - split; [exact F1|]. rewrite V1. apply rnd_abs_le; [lia|exact Q].
Qed.
Lemma okp_minus x y a : okp x a -> okp y a -> (-149 <= a <= 126)%Z -> okp (b32_minus mode_NE x y) (a + 1).
Proof.
  intros (Fx & Bx) (Fy & By) H. assert (Q : Rabs (valR x - valR y) <= bpow radix2 (a + 1)).
  { eapply Rle_trans; [apply Rabs_triang|]. rewrite Rabs_Ropp, bpow_plus. change (bpow radix2 1) with 2. lra. }
  destruct (minus_R x y Fx Fy) as (F1 & V1).
  - eapply Rle_trans; [exact Q|]. apply bpow_le. lia.
  - split; [exact F1|]. rewrite V1. apply rnd_abs_le; [lia|exact Q].
Qed.
Lemma okp_weak x a b : okp x a -> (a <= b)%Z -> okp x b.
Proof. intros (F1 & B1) H. split; [exact F1|]. eapply Rle_trans; [exact B1|apply bpow_le; exact H]. Qed.

Lemma inc_finite (s h : binary32) (n : nstate (B32 o)) : okp h 20 -> okp s 100 -> okp (nx1 n) 100 -> okp (nx2 n) 100 -> finite (inc s h n : binary32).
Proof.
  intros H S0 S1 S2. unfold n_increment.
  assert (K : forall v : R, 0 <= v <= 1 -> Rabs v <= bpow radix2 0) by (intros v ?; rewrite Rabs_pos_eq by lra; cbn; lra).
  assert (K8 : forall v : R, 0 <= v <= 8 -> Rabs v <= bpow radix2 3) by (intros v ?; rewrite Rabs_pos_eq by lra; cbn; lra).
  assert (A2 : okp (lit (a := B32 o) 1 2) 0) by (split; [reflexivity|rewrite l_half; apply K; lra]).
  assert (A4 : okp (lit (a := B32 o) 4 1) 3) by (split; [reflexivity|rewrite l4; apply K8; lra]).
  assert (A5 : okp (lit (a := B32 o) 5 1) 3) by (split; [reflexivity|rewrite l5; apply K8; lra]).
  assert (A8 : okp (lit (a := B32 o) 8 1) 3) by (split; [reflexivity|rewrite l8; apply K8; lra]).
  assert (A6 : okp (b32_div mode_NE (lit (a := B32 o) 1 1) (lit (a := B32 o) 6 1)) 0).
  { split; [reflexivity|]. replace (valR (b32_div mode_NE (lit (a := B32 o) 1 1) (lit (a := B32 o) 6 1))) with (11184811 / 67108864) by (vm_compute; lra). apply K. lra. }
  assert (A12 : okp (b32_div mode_NE (lit (a := B32 o) 1 1) (lit (a := B32 o) 12 1)) 0).
  { split; [reflexivity|]. replace (valR (b32_div mode_NE (lit (a := B32 o) 1 1) (lit (a := B32 o) 12 1))) with (11184811 / 134217728) by (vm_compute; lra). apply K. lra. }
  destruct (nim n); [| | | |reflexivity].
  - apply (okp_mult s h 100 20); [exact S0|exact H|lia].
  - apply (okp_mult (b32_mult mode_NE (lit (a := B32 o) 1 2) (b32_plus mode_NE s (nx1 n))) h 101 20); [|exact H|lia].
    apply (okp_mult _ _ 0 101); [exact A2| |lia]. apply (okp_plus _ _ 100); [exact S0|exact S1|lia].
  - apply (okp_mult (b32_mult mode_NE (b32_div mode_NE (lit (a := B32 o) 1 1) (lit (a := B32 o) 6 1)) (b32_plus mode_NE (b32_plus mode_NE s (b32_mult mode_NE (lit (a := B32 o) 4 1) (nx1 n))) (nx2 n))) h 105 20); [|exact H|lia].
    apply (okp_mult _ _ 0 105); [exact A6| |lia]. apply (okp_plus _ _ 104); [|eapply okp_weak; [exact S2|lia]|lia].
    apply (okp_plus _ _ 103); [eapply okp_weak; [exact S0|lia]| |lia]. apply (okp_mult _ _ 3 100); [exact A4|exact S1|lia].
  - apply (okp_mult (b32_mult mode_NE (b32_div mode_NE (lit (a := B32 o) 1 1) (lit (a := B32 o) 12 1)) (b32_minus mode_NE (b32_plus mode_NE (b32_mult mode_NE (lit (a := B32 o) 5 1) s) (b32_mult mode_NE (lit (a := B32 o) 8 1) (nx1 n))) (nx2 n))) h 105 20); [|exact H|lia].
    apply (okp_mult _ _ 0 105); [exact A12| |lia]. apply (okp_minus _ _ 104); [|eapply okp_weak; [exact S2|lia]|lia].
    apply (okp_plus _ _ 103); [|  |lia]; apply (okp_mult _ _ 3 100); auto; lia.
Qed.

Lemma wabs_mass m h M a b c : 0 <= h -> 0 <= a <= M -> 0 <= b <= M -> 0 <= c <= M -> term (wabs (weights m)) h a b c <= 7 / 6 * (h * M).
Proof.
  intros Hh Ha Hb Hc. unfold term, wabs, weights. replace (7 / 6 * (h * M)) with (h * (7 / 6 * M)) by ring. apply Rmult_le_compat_l; [exact Hh|].
  destruct m; cbn [fst snd]; rewrite ?Rabs_R0, ?Rabs_R1, ?(Rabs_pos_eq (1 / 2)), ?(Rabs_pos_eq (1 / 6)), ?(Rabs_pos_eq (4 / 6)), ?(Rabs_pos_eq (5 / 12)), ?(Rabs_pos_eq (8 / 12)), ?(Rabs_left (-1 / 12)) by lra; lra.
Qed.

Lemma feed_stall (h : binary32) (M : R) : okp h 20 -> M <= bpow radix2 100 ->
  forall (ss : list binary32) (n : nstate (B32 o)), finite (nx0 n) -> bpow radix2 (-95) <= Rabs (valR (nx0 n)) ->
  3 / 2 * (Rabs (valR h) * M) <= Rabs (valR (nx0 n)) * bpow radix2 (-25) ->
  Forall (fun s : binary32 => finite s /\ Rabs (valR s) <= M) (nx1 n :: nx2 n :: ss) ->
  fst (n_feed (A := B32 o) h ss n) = repeat (nx0 n) (length ss) /\ nx0 (snd (n_feed (A := B32 o) h ss n)) = nx0 n.
Proof.
  intros Hh HM. induction ss as [|s r IH]; intros n F0 B0 Hs W; [split; reflexivity|].
  assert (Hok : forall x : binary32, finite x /\ Rabs (valR x) <= M -> okp x 100) by (intros x (? & ?); split; [assumption|lra]).
  inversion W as [|? ? W1 W']; subst. inversion W' as [|? ? W2 W'']; subst. inversion W'' as [|? ? W3 W4]; subst.
  destruct (imethod_eq_dec_other (nim n)) as [N|N].
  - assert (E : n_integrate (A := B32 o) s h true n = (nx0 n, mkN (A := B32 o) (nx0 n) s (nx1 n) (nim n) (ndm n))) by (unfold n_integrate; rewrite N; unfold n_update; cbn; rewrite N; reflexivity).
    cbn [n_feed]. rewrite E. destruct (IH (mkN (A := B32 o) (nx0 n) s (nx1 n) (nim n) (ndm n)) F0 B0 Hs) as (I1 & I2); [repeat apply Forall_cons; assumption|].
    destruct (n_feed (A := B32 o) h r _) as (ys, n2). cbn [fst snd nx0 length repeat] in *. split; [f_equal; exact I1|exact I2].
  - rewrite feed_cons by exact N. cbv zeta. pose proof (inc_finite s h n Hh (Hok _ W3) (Hok _ W1) (Hok _ W2)) as Fi.
    destruct (inc_err s h n N Fi) as (_ & A). apply ap_size in A.
    assert (St : b32_plus mode_NE (nx0 n) (inc s h n) = nx0 n).
    { apply stall; [exact F0|exact Fi|]. eapply Rle_lt_trans; [exact A|].
      pose proof (wabs_mass (nim n) (Rabs (valR h)) M (Rabs (valR s)) (Rabs (valR (nx1 n))) (Rabs (valR (nx2 n))) (Rabs_pos _) (conj (Rabs_pos _) (proj2 W3)) (conj (Rabs_pos _) (proj2 W1)) (conj (Rabs_pos _) (proj2 W2))) as Ms.
      set (P := term _ _ _ _ _) in *. assert (Q6 : (1 + u32) ^ 6 <= 17 / 16). { change u32 with (/ 16777216). cbn [Rpow_def.pow]. lra. }
      assert (P0 : 0 <= P). { unfold P, term, wabs. cbn [fst snd]. repeat first [apply Rmult_le_pos|apply Rplus_le_le_0_compat|apply Rabs_pos]. }
      assert ((1 + u32) ^ 6 * P <= 17 / 16 * P) by (apply Rmult_le_compat_r; assumption).
      destruct Hh as (_ & Bh).
      assert (Eb : (2 * Rabs (valR h) + 2) * eta <= bpow radix2 (-127)).
      { apply Rle_trans with (bpow radix2 22 * eta); [|rewrite <- bpow_plus; apply bpow_le; lia]. apply Rmult_le_compat_r; [pose proof eta_pos; lra|].
        change (bpow radix2 22) with 4194304. change (bpow radix2 20) with 1048576 in Bh. lra. }
      set (X := Rabs (valR (nx0 n)) * bpow radix2 (-25)) in *.
      assert (XB : 64 * bpow radix2 (-127) <= X).
      { apply Rle_trans with (bpow radix2 (-95) * bpow radix2 (-25)); [rewrite <- bpow_plus; change 64 with (bpow radix2 6); rewrite <- bpow_plus; apply bpow_le; lia|].
        apply Rmult_le_compat_r; [apply bpow_ge_0|exact B0]. }
      pose proof (bpow_gt_0 radix2 (-127)). nra. }
    rewrite St. destruct (IH (mkN (A := B32 o) (nx0 n) s (nx1 n) (nim n) (ndm n)) F0 B0 Hs) as (I1 & I2); [repeat apply Forall_cons; assumption|].
    cbn [fst snd nx0 length repeat] in *. split; [exact (f_equal (cons (nx0 n)) I1)|exact I2].
Qed.
End O.
