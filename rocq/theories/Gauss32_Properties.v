(** Property theorems of the Gaussian smoother in single precision (C139). *)
From Coq Require Import ZArith Reals Lra Lia Bool List.
From Flocq Require Import Core IEEE754.BinarySingleNaN IEEE754.Binary IEEE754.Bits.
From Verif Require Import Base Arith Bits32 Ffmath_Spec Ext32 Ffmath_Model Ffmath2_Model Ffmath_Proofs Ffmath_Proofs8 Ffmath_Proofs16 Ffmath4_Properties Float32 Ltisys_Spec Ltisys_Proofs Ltisys_Proofs2 Ltisys_Proofs4 Smoother_Model Fir32_Spec Fir32_Proofs Fir32_Proofs2 Fir32_Proofs3 Gauss32_Spec Gauss32_Proofs.
Import ListNotations.
Open Scope R_scope.

(** ** C139: the Gaussian smoother in binary32 *)
Lemma val_nth (o : oracles binary32) (l : list binary32) i : valR (nth i l (lit (a := B32 o) 0 1)) = nth i (map (B2R 24 128) l) 0.
Proof. symmetry. apply (nth_val o). Qed.

(** After every accepted set-up with buffers of at least [n] elements, whatever its kernel [c] came out as and whatever the samples:
    every call is defined, and every finite output is off the weighted mean of the last [n] samples by at most [gap n] of the same mean
    of the magnitudes (C130_simple_bound): rounding errors do not accumulate. *)
Theorem C139_accuracy : forall (o : oracles binary32) (sg ce : binary32) (w kernel : list binary32) (n : nat) (f0 f : gmwf (B32 o)) (xs : list binary32),
  (n <= length w)%nat -> (n <= length kernel)%nat -> (Z.of_nat n <= 2 ^ 64)%Z ->
  gmwf_setup (A := B32 o) sg ce (Some w) kernel (Z.of_nat n) f0 = Ok (true, f) ->
  exists (c ys : list binary32) (f' : gmwf (B32 o)), g_k f = Some c /\ feed_res (gmwf_smooth (A := B32 o)) xs f = Ok (ys, f') /\ length ys = length xs /\
  forall k y, nth_error ys k = Some y -> finite y ->
    let C := map (B2R 24 128) c in let X := map (B2R 24 128) xs in
    Rabs (valR y - weighted n C X k) <= gap n (weighted n (map Rabs C) (map Rabs X) k).
Proof.
  intros o sg ce w kernel n f0 f xs Hw Hk Hb S. destruct (setup_state _ _ _ _ _ _ _ S) as (P & c & Ef & Lc).
  assert (Hn : (1 <= n)%nat) by lia. assert (Hc : (n <= length c)%nat) by (refine (eq_ind_r (fun k => (n <= k)%nat) Hk Lc)).
  destruct (run_start (A := B32 o) c n (lit (a := B32 o) 0 1) Hn Hc Hb w xs Hw) as (ys & f' & E & L & H).
  exists c, ys, f'. split; [rewrite Ef; reflexivity|]. split; [rewrite Ef; exact E|]. split; [exact L|].
  intros k y Ey Fy C X. assert (Hk' : (k < length xs)%nat). { refine (eq_ind _ (fun m => (k < m)%nat) _ _ L). apply nth_error_Some. intros Q. pose proof (eq_trans (eq_sym Ey) Q) as Q'. discriminate. }
  destruct (H k Hk') as (w' & x & E1 & E2). assert (Ey' : nth k ys (lit (a := B32 o) 0 1) = y) by exact (nth_error_nth ys k _ Ey).
  pose proof (eq_trans (eq_sym Ey') E1) as E3. clear E1 Ey'. 
  assert (Fv : finite (fir_value (A := B32 o) (Some c) n x w')) by (refine (eq_ind _ (fun v : binary32 => finite v) Fy _ E3)).
  destruct (fir_value_err o (Some c) n x w' Hn Fv) as (_ & B). unfold weighted.
  assert (Ev : valR y = valR (fir_value (A := B32 o) (Some c) n x w')) by exact (f_equal (B2R 24 128) E3). rewrite Ev. clear Ev E3.
  assert (Et : forall i, (i < n)%nat -> rterm o (Some c) i (nth i (x :: w') (lit (a := B32 o) 0 1)) = nth i C 0 * nth (k - i) X 0).
  { intros i Hi. cbn [rterm]. unfold C, X. rewrite <- (val_nth o c i), <- (val_nth o xs (k - i)). f_equal. exact (f_equal (B2R 24 128) (E2 i Hi)). }
  assert (Ea : forall i, (i < n)%nat -> Rabs (rterm o (Some c) i (nth i (x :: w') (lit (a := B32 o) 0 1))) = nth i (map Rabs C) 0 * nth (k - i) (map Rabs X) 0).
  { intros i Hi. rewrite (Et i Hi), !nth_abs, Rabs_mult. reflexivity. }
  pose proof (sum_ext n _ _ Et) as S1. pose proof (sum_ext n _ _ Ea) as S2.
  match type of S1 with ?a = _ => match type of S2 with ?b = _ => assert (B' : Rabs (valR (fir_value (A := B32 o) (Some c) n x w') - a) <= gap n b) by exact B end end.
  rewrite S1, S2 in B'. exact B'.
Qed.
Print Assumptions C139_accuracy.

(** The outputs are finite when the samples and the kernel are and the mean of the magnitudes plus the bound is at most 2^127. *)
Theorem C139_finite : forall (o : oracles binary32) (sg ce : binary32) (w kernel : list binary32) (n : nat) (f0 f f' : gmwf (B32 o)) (c xs ys : list binary32),
  (n <= length w)%nat -> (n <= length kernel)%nat -> (Z.of_nat n <= 2 ^ 64)%Z ->
  gmwf_setup (A := B32 o) sg ce (Some w) kernel (Z.of_nat n) f0 = Ok (true, f) -> g_k f = Some c ->
  Forall (fun v : binary32 => finite v) c -> Forall (fun v : binary32 => finite v) xs ->
  (forall k, (k < length xs)%nat -> let S := weighted n (map Rabs (map (B2R 24 128) c)) (map Rabs (map (B2R 24 128) xs)) k in S + gap n S <= bpow radix2 127) ->
  feed_res (gmwf_smooth (A := B32 o)) xs f = Ok (ys, f') ->
  Forall (fun y : binary32 => finite y) ys.
Proof.
  intros o sg ce w kernel n f0 f f' c xs ys Hw Hk Hb S Gk Fc Fxs B R. destruct (setup_state _ _ _ _ _ _ _ S) as (P & c' & Ef & Lc).
  assert (Ec : c' = c). { rewrite Ef in Gk. cbn [g_k] in Gk. injection Gk as Gk. exact Gk. } subst c'.
  assert (Hn : (1 <= n)%nat) by lia. assert (Hc : (n <= length c)%nat) by (refine (eq_ind_r (fun k => (n <= k)%nat) Hk Lc)).
  destruct (run_start (A := B32 o) c n (lit (a := B32 o) 0 1) Hn Hc Hb w xs Hw) as (ys' & f1 & E & L & H).
  assert (Ey : ys' = ys). { rewrite Ef in R. pose proof (eq_trans (eq_sym E) R) as Q. injection Q as Q _. exact Q. } subst ys'.
  apply Forall_forall. intros y Iy. destruct (In_nth ys y (lit (a := B32 o) 0 1) Iy) as (k & Hk1 & Ek).
  assert (Hk' : (k < length xs)%nat) by (refine (eq_ind _ (fun m => (k < m)%nat) Hk1 _ L)).
  destruct (H k Hk') as (w' & x & E1 & E2). pose proof (eq_trans (eq_sym Ek) E1) as E3. refine (eq_ind_r (fun v : binary32 => finite v) _ E3).
  apply fir_value_in; [exact Hn| |].
  - intros i Hi. split.
    + refine (eq_ind_r (fun v : binary32 => finite v) _ (E2 i Hi)). rewrite Forall_forall in Fxs. apply Fxs. apply nth_In. assert (Q : (k - i <= k)%nat) by lia. exact (Nat.le_lt_trans _ _ _ Q Hk').
    + intros l El. injection El as <-. rewrite Forall_forall in Fc. apply Fc. apply nth_In. exact (Nat.lt_le_trans _ _ _ Hi Hc).
  - cbv zeta. specialize (B k Hk'). cbv zeta in B. unfold weighted in B. erewrite sum_ext; [exact B|]. intros i Hi. cbv beta. cbn [rterm]. rewrite Rabs_mult, !nth_abs.
    rewrite <- (val_nth o c i), <- (val_nth o xs (k - i)). f_equal. f_equal. exact (f_equal (B2R 24 128) (E2 i Hi)).
Qed.
Print Assumptions C139_finite.

(** Perfect forgetting, in any arithmetic: two streams that agree on their last [n] samples give the same output, bit for bit, whatever came before. *)
Theorem C139_forgets : forall (A : arith) (sg ce : F A) (w kernel : list (F A)) (n : nat) (f0 f : gmwf A) (pre pre' last : list (F A)) (ys ys' : list (F A)) (f1 f1' : gmwf A) (d : F A),
  (n <= length w)%nat -> (n <= length kernel)%nat -> (Z.of_nat n <= 2 ^ 64)%Z ->
  gmwf_setup sg ce (Some w) kernel (Z.of_nat n) f0 = Ok (true, f) -> length last = n ->
  feed_res gmwf_smooth (pre ++ last) f = Ok (ys, f1) -> feed_res gmwf_smooth (pre' ++ last) f = Ok (ys', f1') ->
  nth (length ys - 1) ys d = nth (length ys' - 1) ys' d.
Proof.
  intros A sg ce w kernel n f0 f pre pre' last ys ys' f1 f1' d Hw Hk Hb S Ll R1 R2. destruct (setup_state _ _ _ _ _ _ _ S) as (P & c & -> & Lc).
  assert (Hn : (1 <= n)%nat) by lia. assert (Hc : (n <= length c)%nat) by lia.
  destruct (run_start c n (lit 0 1) Hn Hc Hb w (pre ++ last) Hw) as (zs & g & E & L & H). rewrite R1 in E. injection E as <- <-.
  destruct (run_start c n (lit 0 1) Hn Hc Hb w (pre' ++ last) Hw) as (zs' & g' & E' & L' & H'). rewrite R2 in E'. injection E' as <- <-.
  rewrite app_length in L, L'. destruct (H (length ys - 1)%nat) as (v & x & V & Q); [rewrite app_length; lia|]. destruct (H' (length ys' - 1)%nat) as (v' & x' & V' & Q'); [rewrite app_length; lia|].
  rewrite (nth_indep ys d (lit 0 1)), (nth_indep ys' d (lit 0 1)) by lia. rewrite V, V'. apply fir_value_ext; [exact Hn|].
  intros i Hi. rewrite (Q i Hi), (Q' i Hi), !app_nth2 by lia. f_equal. lia.
Qed.
Print Assumptions C139_forgets.

(** Finding: a narrow Gaussian between two samples has no weights at all.  With the exp() of the library (C89), sigma 1/64 and the centre 1/2
    are accepted for a window of two; both weights underflow to 0, the normalisation divides 0 by 0, and every output is NaN for ever. *)
Theorem C139_narrow_refuted : forall o : oracles binary32, (forall x r, fexp x = Ok r -> o_exp o x = r) ->
  exists (sg ce : binary32), valR sg = / 64 /\ valR ce = / 2 /\
  forall (w0 w1 k0 k1 : binary32) (f0 : gmwf (B32 o)), exists f, gmwf_setup (A := B32 o) sg ce (Some [w0; w1]) [k0; k1] 2 f0 = Ok (true, f) /\
  forall xs : list binary32, exists ys f', feed_res (gmwf_smooth (A := B32 o)) xs f = Ok (ys, f') /\ length ys = length xs /\ Forall (fun y : binary32 => is_nan 24 128 y = true) ys.
Proof.
  intros o He. exists (lit (a := B32 o) 1 64), (lit (a := B32 o) 1 2). split; [vm_compute; lra|]. split; [vm_compute; lra|].
  assert (Z : o_exp o (lit (a := B32 o) (-512) 1 : binary32) = lit (a := B32 o) 0 1).
  { apply He. replace (lit (a := B32 o) 0 1 : binary32) with (B754_zero 24 128 false) by (apply bits_inj; vm_compute; reflexivity).
    apply (proj1 (C89_limits (lit (a := B32 o) (-512) 1) eq_refl)). assert (V : ext32 (lit (a := B32 o) (-512) 1 : binary32) = -512) by (vm_compute; lra). rewrite V. lra. }
  assert (N : is_nan 24 128 (fdiv (a := B32 o) (lit (a := B32 o) 0 1) (fadd (a := B32 o) (fadd (a := B32 o) (lit (a := B32 o) 0 1) (lit (a := B32 o) 0 1)) (lit (a := B32 o) 0 1)) : binary32) = true) by (vm_compute; reflexivity).
  intros w0 w1 k0 k1 f0.
  assert (Es : exists q : binary32, is_nan 24 128 q = true /\ gmwf_setup (A := B32 o) (lit (a := B32 o) 1 64) (lit (a := B32 o) 1 2) (Some [w0; w1]) [k0; k1] 2 f0 = Ok (true, mkGMWF (A := B32 o) (Some [w0; w1]) (Some [q; q]) 2 true)).
  { eexists. split; [exact N|]. apply (setup_same (A := B32 o)) with (a := lit (a := B32 o) (-512) 1) (g := lit (a := B32 o) 0 1);
    [vm_compute; reflexivity|vm_compute; reflexivity|apply bits_inj; vm_compute; reflexivity|apply bits_inj; vm_compute; reflexivity|exact Z|reflexivity]. }
  clear N Z. destruct Es as (q & N & Es). eexists. split; [exact Es|].
  intros xs. destruct (run_start (A := B32 o) [q; q] 2 (lit (a := B32 o) 0 1) ltac:(lia) ltac:(cbn; lia) ltac:(lia) [w0; w1] xs ltac:(cbn; lia)) as (ys & f' & E & L & H).
  exists ys, f'. split; [exact E|]. split; [exact L|]. apply Forall_forall. intros y Iy. destruct (In_nth ys y (lit (a := B32 o) 0 1) Iy) as (k & Hk & Ek).
  assert (Hk' : (k < length xs)%nat) by (refine (eq_ind _ (fun m => (k < m)%nat) Hk _ L)). destruct (H k Hk') as (w' & x & E1 & _).
  refine (eq_ind_r (fun v : binary32 => is_nan 24 128 v = true) _ (eq_trans (eq_sym Ek) E1)).
  apply plus_nan_r. apply mult_nan_l. exact N.
Qed.
Print Assumptions C139_narrow_refuted.
Example C139_library_exp : exists o : oracles binary32, forall x r, fexp x = Ok r -> o_exp o x = r.
Proof.
  exists (mkOracles binary32 (fun x => match fexp x with Ok r => r | Ub => x end) (fun x => x) (fun x => x) (fun x => x) (fun x _ => x)).
  intros x r H. cbn [o_exp]. rewrite H. reflexivity.
Qed.

Example C139_case : forall o, let l := fun n => lit (a := B32 o) n 1 : binary32 in
  exists f, gmwf_setup (A := B32 o) (l 1%Z) (l 0%Z) (Some [l 0%Z; l 0%Z; l 0%Z]) [l 0%Z; l 0%Z; l 0%Z] (Z.of_nat 3) (gmwf_new 0) = Ok (true, f).
Proof. intros o l. apply setup_total; [cbn; lia|vm_compute; reflexivity|vm_compute; reflexivity]. Qed.
