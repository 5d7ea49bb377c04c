(** Differentiators in binary32 (C135). *)
From Coq Require Import ZArith Reals Lra Lia Bool List.
From Flocq Require Import Core IEEE754.BinarySingleNaN IEEE754.Binary IEEE754.Bits.
From Verif Require Import Base Arith Ffmath_Spec Float32 Numa_Model Deriv32_Spec Fir32_Spec Fir32_Proofs Mean32_Proofs Numa32_Proofs.
Import ListNotations.
Open Scope R_scope.

Lemma rnd_double (x : binary32) : rnd (2 * valR x) = 2 * valR x.
Proof.
  assert (G : generic_format radix2 (FLT_exp (-149) 24) (valR x)). { rewrite <- fexp_FLT. apply generic_format_B2R. }
  apply FLT_format_generic in G; [|reflexivity]. destruct G as [f Ef Hm He].
  apply round_generic; [apply valid_rnd_N|]. apply generic_format_FLT. exists (Float radix2 (Fnum f) (Fexp f + 1)); cbn [Fnum Fexp]; [|exact Hm|lia].
  rewrite Ef. unfold F2R. cbn [Fnum Fexp]. rewrite bpow_plus. change (bpow radix2 1) with 2. ring.
Qed.

Lemma st_div x v a c k h : ap x v a c (k * eta) -> h <> 0 -> ap (rnd (x / h)) (v / h) (a / Rabs h) (S c) ((17 / 16 * (k / Rabs h) + 1) * eta).
Proof.
  intros H N. pose proof (Rabs_pos_lt h N) as Ph. pose proof (Rinv_0_lt_compat _ Ph) as Ih.
  assert (A : ap (x / h) (v / h) (a / Rabs h) c (k / Rabs h * eta)).
  { destruct H as (A & B & C). unfold Rdiv. split; [rewrite Rabs_mult, Rabs_inv; apply Rmult_le_compat_r; lra|].
    split; [replace (k * / Rabs h * eta) with (k * eta * / Rabs h) by ring; apply Rmult_le_pos; lra|].
    replace (x * / h - v * / h) with ((x - v) * / h) by ring. rewrite Rabs_mult, Rabs_inv.
    replace (((1 + u32) ^ c - 1) * (a * / Rabs h) + k * / Rabs h * eta) with ((((1 + u32) ^ c - 1) * a + k * eta) * / Rabs h) by ring. apply Rmult_le_compat_r; lra. }
  eapply st_rnd; [exact A|apply Rle_refl].
Qed.

Section O.
Variable o : oracles binary32.
Lemma l2 : valR (lit (a := B32 o) 2 1 : binary32) = 2. Proof. vm_compute; lra. Qed.
Lemma l3 : valR (lit (a := B32 o) 3 1 : binary32) = 3. Proof. vm_compute; lra. Qed.

Lemma two_h (h : binary32) : finite h -> valR h <> 0 -> finite (b32_mult mode_NE (lit (a := B32 o) 2 1) h) ->
  valR (b32_mult mode_NE (lit (a := B32 o) 2 1) h) = 2 * valR h.
Proof. intros Fh N F2. destruct (mult_fin _ _ F2) as (_ & _ & V). rewrite V, l2. apply rnd_double. Qed.

Lemma deriv_err (s h : binary32) (u : bool) (n : nstate (B32 o)) : ndm n <> DOther -> finite h -> valR h <> 0 -> finite (b32_mult mode_NE (lit (a := B32 o) 2 1) h) ->
  finite (fst (n_derive (A := B32 o) s h u n) : binary32) ->
  ap (valR (fst (n_derive (A := B32 o) s h u n) : binary32)) (quotient (ndm n) (valR h) (valR s) (valR (nx1 n)) (valR (nx2 n)))
    (quotient_mass (ndm n) (valR h) (valR s) (valR (nx1 n)) (valR (nx2 n))) 4 ((3 / Rabs (valR h) + 1) * eta).
Proof.
  intros N Fh Nh F2 Fi. pose proof (two_h h Fh Nh F2) as V2. pose proof (Rabs_pos_lt _ Nh) as Ph. pose proof (Rinv_0_lt_compat _ Ph) as Ih. pose proof eta_pos as E.
  assert (N2 : 2 * valR h <> 0) by lra. assert (A2 : Rabs (2 * valR h) = 2 * Rabs (valR h)) by (rewrite Rabs_mult, (Rabs_pos_eq 2) by lra; reflexivity).
  assert (R32 : Rabs (3 / 2) = 3 / 2) by (rewrite Rabs_pos_eq; lra).
  assert (Rm32 : Rabs (-3 / 2) = 3 / 2) by (rewrite Rabs_left; lra).
  assert (R12 : Rabs (1 / 2) = 1 / 2) by (rewrite Rabs_pos_eq; lra).
  assert (Rm12 : Rabs (-1 / 2) = 1 / 2) by (rewrite Rabs_left; lra).
  assert (R2 : Rabs 2 = 2) by (rewrite Rabs_pos_eq; lra).
  assert (Rm2 : Rabs (-2) = 2) by (rewrite Rabs_left; lra).
  assert (Rm1 : Rabs (-1) = 1) by (rewrite Rabs_left; lra).
  pose proof Rabs_R0 as R0'. pose proof Rabs_R1 as R1'.
  unfold n_derive in *. cbn [fst] in *. unfold quotient, quotient_mass. destruct (ndm n); [| | |congruence]; cbn [dweights fst snd].
  - change (finite (b32_div mode_NE (b32_minus mode_NE s (nx1 n)) h)) in Fi. destruct (div_fin _ _ Fh Nh Fi) as (F1 & V). destruct (minus_fin _ _ F1) as (_ & _ & W). rewrite W in V.
    eapply ap_weak; [eapply ap_eq; [match goal with |- ap ?t _ _ _ _ => replace t with (rnd (rnd (valR s - valR (nx1 n)) / valR h)) by (symmetry; exact V) end;
      eapply st_div; [eapply (st_rnd _ _ _ _ _ 1); [apply st_minus; apply st_exact|lra]|exact Nh]| |]|cbn; lia|].
    + field. exact Nh.
    + rewrite R1', Rm1, R0'. field. lra.
    + apply Rmult_le_compat_r; [lra|]. unfold Rdiv. lra.
  - change (finite (b32_div mode_NE (b32_plus mode_NE (b32_minus mode_NE (b32_mult mode_NE (lit (a := B32 o) 3 1) s) (b32_mult mode_NE (lit (a := B32 o) 4 1) (nx1 n))) (nx2 n)) (b32_mult mode_NE (lit (a := B32 o) 2 1) h))) in Fi.
    assert (Nz : valR (b32_mult mode_NE (lit (a := B32 o) 2 1) h) <> 0) by (rewrite V2; exact N2).
    destruct (div_fin _ _ F2 Nz Fi) as (F1 & V). destruct (plus_fin _ _ F1) as (F3 & _ & W). destruct (minus_fin _ _ F3) as (F4 & F5 & Y). destruct (mult_fin _ _ F4) as (_ & _ & K). destruct (mult_fin _ _ F5) as (_ & _ & L).
    rewrite W, Y, K, L, V2, l3, l4 in V.
    eapply ap_weak; [eapply ap_eq; [match goal with |- ap ?t _ _ _ _ => replace t with (rnd (rnd (rnd (rnd (3 * valR s) - rnd (4 * valR (nx1 n))) + valR (nx2 n)) / (2 * valR h))) by (symmetry; exact V) end;
      eapply st_div; [eapply (st_rnd _ _ _ _ _ (9 / 2)); [apply st_plus; [eapply (st_rnd _ _ _ _ _ (25 / 8)); [apply st_minus; (eapply (st_rnd _ _ _ _ _ 1); [eapply st_scale; [apply st_exact|apply st_const; [reflexivity|lra]|lia]|lra])|lra]|apply st_exact]|lra]|exact N2]| |]|cbn; lia|].
    + field. exact Nh.
    + rewrite A2, R32, Rm2, R12. field. lra.
    + apply Rmult_le_compat_r; [lra|]. rewrite A2. replace (17 / 16 * (9 / 2 / (2 * Rabs (valR h)))) with (153 / 64 * / Rabs (valR h)) by (field; lra). unfold Rdiv. lra.
  - change (finite (b32_div mode_NE (b32_minus mode_NE (b32_minus mode_NE (b32_mult mode_NE (lit (a := B32 o) 4 1) (nx1 n)) (b32_mult mode_NE (lit (a := B32 o) 3 1) (nx2 n))) s) (b32_mult mode_NE (lit (a := B32 o) 2 1) h))) in Fi.
    assert (Nz : valR (b32_mult mode_NE (lit (a := B32 o) 2 1) h) <> 0) by (rewrite V2; exact N2).
    destruct (div_fin _ _ F2 Nz Fi) as (F1 & V). destruct (minus_fin _ _ F1) as (F3 & _ & W). destruct (minus_fin _ _ F3) as (F4 & F5 & Y). destruct (mult_fin _ _ F4) as (_ & _ & K). destruct (mult_fin _ _ F5) as (_ & _ & L).
    rewrite W, Y, K, L, V2, l3, l4 in V.
    eapply ap_weak; [eapply ap_eq; [match goal with |- ap ?t _ _ _ _ => replace t with (rnd (rnd (rnd (rnd (4 * valR (nx1 n)) - rnd (3 * valR (nx2 n))) - valR s) / (2 * valR h))) by (symmetry; exact V) end;
      eapply st_div; [eapply (st_rnd _ _ _ _ _ (9 / 2)); [apply st_minus; [eapply (st_rnd _ _ _ _ _ (25 / 8)); [apply st_minus; (eapply (st_rnd _ _ _ _ _ 1); [eapply st_scale; [apply st_exact|apply st_const; [reflexivity|lra]|lia]|lra])|lra]|apply st_exact]|lra]|exact N2]| |]|cbn; lia|].
    + field. exact Nh.
    + rewrite A2, Rm32, R2, Rm12. field. lra.
    + apply Rmult_le_compat_r; [lra|]. rewrite A2. replace (17 / 16 * (9 / 2 / (2 * Rabs (valR h)))) with (153 / 64 * / Rabs (valR h)) by (field; lra). unfold Rdiv. lra.
Qed.
End O.
