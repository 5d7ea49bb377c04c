(** Property theorems of the kernel of the Gaussian smoother in single precision (C140). *)
From Coq Require Import ZArith Reals Lra Lia Bool List.
From Flocq Require Import Core IEEE754.BinarySingleNaN IEEE754.Binary IEEE754.Bits.
From Verif Require Import Base Arith Bits32 Ffmath_Spec Ffmath_Model Ffmath2_Model Float32 Ltisys_Spec Ltisys_Proofs2 Smoother_Model Fir32_Spec Fir32_Proofs Fir32_Proofs2 Fir32_Proofs3 Interp32_Proofs Gauss32_Spec Gauss32_Proofs Gauss32_Properties Kernel32_Spec Kernel32_Proofs.
Import ListNotations.
Open Scope R_scope.

(** ** C140: the kernel is normalised *)
(** For every window of at most 4094 samples and every exp() whose [n] values are numbers from 0 to 2, not all 0 (C139_narrow_refuted is the case
    where all are): the kernel of an accepted set-up holds non-negative numbers whose exact sum is 1 up to (n + 4) 2^-24. *)
Theorem C140_normalised : forall (o : oracles binary32) (sg ce : binary32) (w kernel : list binary32) (n : nat) (f0 f : gmwf (B32 o)),
  (n <= length kernel)%nat -> (n <= 4094)%nat -> gmwf_setup (A := B32 o) sg ce (Some w) kernel (Z.of_nat n) f0 = Ok (true, f) ->
  let g := fun j => o_exp o (weight_arg (A := B32 o) sg ce n j) in
  (forall j, (j < n)%nat -> finite (g j) /\ 0 <= valR (g j) <= 2) -> (exists j, (j < n)%nat /\ 0 < valR (g j)) ->
  exists c : list binary32, g_k f = Some c /\ let C := map (B2R 24 128) c in
    (forall j, (j < n)%nat -> (exists v, nth_error c j = Some v /\ finite v) /\ 0 <= nth j C 0) /\
    Rabs (sum n (fun j => nth j C 0) - 1) <= (INR n + 4) * bpow radix2 (-24).
Proof.
  intros o sg ce w kernel n f0 f Hk Hm S g Hg Hp. destruct (setup_rep (A := B32 o) _ _ _ _ _ _ _ Hk S) as (Hn & c & Ef & Lc & Hc).
  exists c. split; [rewrite Ef; reflexivity|]. intros C. destruct (kernel_err o g n Hn Hm Hg Hp) as (K1 & K2). cbv zeta in K1, K2.
  assert (EC : forall j, (j < n)%nat -> nth j C 0 = valR (b32_div mode_NE (g j) (acc (A := B32 o) g n 0 (lit (a := B32 o) 0 1)))).
  { intros j Hj. unfold C. rewrite <- (val_nth o c j). exact (f_equal (B2R 24 128) (Hc j Hj)). }
  split.
  - intros j Hj. destruct (K1 j Hj) as (F1 & P1). split; [|rewrite (EC j Hj); exact P1]. exists (nth j c (lit (a := B32 o) 0 1)). split.
    + apply nth_error_nth'. refine (eq_ind_r (fun k => (j < k)%nat) (Nat.lt_le_trans _ _ _ Hj Hk) Lc).
    + refine (eq_ind_r (fun v : binary32 => finite v) F1 (Hc j Hj)).
  - rewrite (sum_ext n _ _ EC). exact K2.
Qed.
Print Assumptions C140_normalised.

(** So a constant signal is reproduced, from the first output on, up to (2 n + 8) 2^-24 of its magnitude and 4 n 2^-150. *)
Theorem C140_constant : forall (o : oracles binary32) (sg ce x : binary32) (w kernel : list binary32) (n m : nat) (f0 f : gmwf (B32 o)),
  (n <= length w)%nat -> (n <= length kernel)%nat -> (n <= 4094)%nat -> gmwf_setup (A := B32 o) sg ce (Some w) kernel (Z.of_nat n) f0 = Ok (true, f) ->
  let g := fun j => o_exp o (weight_arg (A := B32 o) sg ce n j) in
  (forall j, (j < n)%nat -> finite (g j) /\ 0 <= valR (g j) <= 2) -> (exists j, (j < n)%nat /\ 0 < valR (g j)) ->
  exists (ys : list binary32) (f' : gmwf (B32 o)), feed_res (gmwf_smooth (A := B32 o)) (repeat x m) f = Ok (ys, f') /\ length ys = m /\
  forall k y, nth_error ys k = Some y -> finite y ->
    Rabs (valR y - valR x) <= (2 * INR n + 8) * bpow radix2 (-24) * Rabs (valR x) + 4 * INR n * bpow radix2 (-150).
Proof.
  intros o sg ce x w kernel n m f0 f Hw Hk Hm S g Hg Hp. destruct (C140_normalised o sg ce w kernel n f0 f Hk Hm S Hg Hp) as (c & Gc & HC). cbv zeta in HC. destruct HC as (Hc & Hs).
  assert (Hb : (Z.of_nat n <= 2 ^ 64)%Z) by lia.
  destruct (C139_accuracy o sg ce w kernel n f0 f (repeat x m) Hw Hk Hb S) as (c' & ys & f' & Gc' & R & L & H). assert (Ec : c' = c). { pose proof (eq_trans (eq_sym Gc') Gc) as Q. injection Q as Q. exact Q. } subst c'.
  assert (L' : length ys = m) by exact (eq_trans L (repeat_length x m)).
  exists ys, f'. split; [exact R|]. split; [exact L'|]. intros k y Ey Fy. specialize (H k y Ey Fy). cbv zeta in H.
  assert (Hk' : (k < m)%nat). { refine (eq_ind _ (fun m => (k < m)%nat) _ _ L'). apply nth_error_Some. intros Q. pose proof (eq_trans (eq_sym Ey) Q) as Q'. discriminate. }
  clear R L L' Ey Gc Gc' S.
  set (C := map (B2R 24 128) c) in *. set (s := sum n (fun j => nth j C 0)) in *.
  assert (NX : forall i, nth (k - i) (map (B2R 24 128) (repeat x m)) 0 = valR x).
  { intros i. assert (Q : (k - i < m)%nat) by lia. clear - Q. revert Q. generalize (k - i)%nat. intros j. revert j. induction m as [|m IH]; intros j Q; [lia|]. destruct j as [|j]; cbn [repeat map nth]; [reflexivity|]. apply IH. lia. }
  assert (W1 : weighted n C (map (B2R 24 128) (repeat x m)) k = valR x * s). { unfold weighted, s. rewrite <- sum_scal. apply sum_ext. intros i Hi. rewrite NX. apply Rmult_comm. }
  assert (W2 : weighted n (map Rabs C) (map Rabs (map (B2R 24 128) (repeat x m))) k = Rabs (valR x) * s).
  { unfold weighted, s. rewrite <- sum_scal. apply sum_ext. intros i Hi. rewrite !nth_abs, NX. rewrite (Rabs_pos_eq (nth i C 0)) by apply (Hc i Hi). apply Rmult_comm. }
  rewrite W1, W2 in H. assert (In : INR n <= 4094). { replace 4094 with (INR 4094) by (rewrite INR_IZR_INZ; reflexivity). apply le_INR. exact Hm. }
  pose proof u_val as U. pose proof (pos_INR n) as P0. pose proof (Rabs_pos (valR x)) as Px. set (a := Rabs (valR x)) in *.
  assert (Hs' := Hs). apply Rabs_le_inv in Hs'. assert (S0 : 0 <= s) by (rewrite U in Hs'; lra).
  pose proof (gap_simple n (a * s) Hm (Rmult_le_pos _ _ Px S0)) as G.
  assert (Q1 : (INR n + 2) * u32 * (a * s) <= (INR n + 4) * u32 * a).
  { replace ((INR n + 2) * u32 * (a * s)) with (u32 * a * ((INR n + 2) * s)) by ring. replace ((INR n + 4) * u32 * a) with (u32 * a * (INR n + 4)) by ring. apply Rmult_le_compat_l; [apply Rmult_le_pos; [rewrite U; lra|exact Px]|].
    apply Rle_trans with ((INR n + 2) * (1 + (INR n + 4) * u32)); [apply Rmult_le_compat_l; lra|].
    assert (Q : (INR n + 2) * (INR n + 4) <= 4096 * 4098) by (apply Rmult_le_compat; lra). rewrite U. lra. }
  assert (Q2 : Rabs (valR x * s - valR x) <= a * ((INR n + 4) * u32)). { replace (valR x * s - valR x) with (valR x * (s - 1)) by ring. rewrite Rabs_mult. apply Rmult_le_compat_l; [exact Px|exact Hs]. }
  replace (valR y - valR x) with ((valR y - valR x * s) + (valR x * s - valR x)) by ring. eapply Rle_trans; [apply Rabs_triang|]. lra.
Qed.
Print Assumptions C140_constant.

(** The exp() of the library, a window of three. *)
Example C140_case : exists o : oracles binary32, (forall x r, fexp x = Ok r -> o_exp o x = r) /\
  let l := fun n => lit (a := B32 o) n 1 : binary32 in let g := fun j => o_exp o (weight_arg (A := B32 o) (l 1%Z) (l 0%Z) 3 j) in
  (exists f, gmwf_setup (A := B32 o) (l 1%Z) (l 0%Z) (Some [l 0%Z; l 0%Z; l 0%Z]) [l 0%Z; l 0%Z; l 0%Z] (Z.of_nat 3) (gmwf_new 0) = Ok (true, f)) /\
  (forall j, (j < 3)%nat -> finite (g j) /\ 0 <= valR (g j) <= 2) /\ (exists j, (j < 3)%nat /\ 0 < valR (g j)).
Proof.
  exists (mkOracles binary32 (fun x => match fexp x with Ok r => r | Ub => x end) (fun x => x) (fun x => x) (fun x => x) (fun x _ => x)).
  split; [intros x r H; cbn [o_exp]; rewrite H; reflexivity|]. intros l g. split; [apply setup_total; [cbn; lia|vm_compute; reflexivity|vm_compute; reflexivity]|].
  split; [|exists O; split; [lia|vm_compute; lra]]. intros j Hj. destruct j as [|[|[|j]]]; [| | |lia]; (split; [vm_compute; reflexivity|vm_compute; lra]).
Qed.
