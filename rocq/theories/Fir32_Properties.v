(** Property theorems of sums of products and discrete transfer functions in single precision (C130, C131). *)
From Coq Require Import ZArith Reals Lra Lia Bool List.
From Flocq Require Import Core IEEE754.BinarySingleNaN IEEE754.Binary IEEE754.Bits.
From Verif Require Import Base Arith Ffmath_Spec Float32 Ffmath_Proofs16 Ltisys_Model Ltisys_Spec Ltisys_Proofs Ltisys_Proofs2 Ltisys_Proofs3 Ltisys_Proofs4 Fir32_Spec Fir32_Proofs Fir32_Proofs2 Fir32_Proofs3.
Import ListNotations.
Open Scope R_scope.

(** ** C130: updateFIR in binary32 *)
(** Whatever the window, the coefficients and the sample: if the result is a finite number, it is off the exact weighted sum
    by at most ((1 + 2^-24)^(n+1) - 1) times the sum of the absolute values of the terms, plus 3 n (1 + 2^-24)^n 2^-150. *)
Theorem C130_weighted_sum : forall (o : oracles binary32) (c w w' : list binary32) (n : nat) (x y : binary32),
  (1 <= n <= length w)%nat -> (n <= length c)%nat -> (Z.of_nat n <= 2 ^ 64)%Z ->
  updateFIR (A := B32 o) w (Z.of_nat n) x (Some c) = Ok (w', y) -> finite y ->
  Rabs (valR y - dot n (map (B2R 24 128) c) (map (B2R 24 128) w')) <= gap n (dot_abs n (map (B2R 24 128) c) (map (B2R 24 128) w')).
Proof.
  intros o c w w' n x y H Hc Hb E F. rewrite (updateFIR_ok (A := B32 o) (Some c) w n x H Hc Hb) in E.
  remember (fir_value (A := B32 o) (Some c) n x w) as y0 eqn:Y0. injection E as Ew Ey. subst y0. subst y.
  destruct (fir_value_err o (Some c) n x w ltac:(lia) F) as (_ & B).
  assert (Hn : forall i, (i < n)%nat -> nth i w' (lit (a := B32 o) 0 1) = nth i (x :: w) (lit (a := B32 o) 0 1)).
  { intros i Hi. subst w'. destruct i; cbn [nth]; [reflexivity|]. rewrite app_nth1 by (rewrite firstn_length; lia). apply nth_firstn. lia. }
  unfold dot_abs, dot.
  rewrite (sum_ext n _ (fun i => rterm o (Some c) i (nth i (x :: w) (lit (a := B32 o) 0 1)))).
  2:{ intros i Hi. rewrite !(nth_val o), Hn by auto. reflexivity. }
  rewrite (sum_ext n (fun i => nth i (map Rabs _) 0 * _) (fun i => Rabs (rterm o (Some c) i (nth i (x :: w) (lit (a := B32 o) 0 1))))).
  2:{ intros i Hi. rewrite !nth_abs, !(nth_val o), Hn by auto. cbn [rterm]. rewrite Rabs_mult. reflexivity. }
  exact B.
Qed.
Print Assumptions C130_weighted_sum.
(** The same without coefficients. *)
Theorem C130_plain_sum : forall (o : oracles binary32) (w w' : list binary32) (n : nat) (x y : binary32),
  (1 <= n <= length w)%nat -> (Z.of_nat n <= 2 ^ 64)%Z ->
  updateFIR (A := B32 o) w (Z.of_nat n) x None = Ok (w', y) -> finite y ->
  Rabs (valR y - sum n (fun i => nth i (map (B2R 24 128) w') 0)) <= gap n (sum n (fun i => Rabs (nth i (map (B2R 24 128) w') 0))).
Proof.
  intros o w w' n x y H Hb E F. rewrite (updateFIR_ok (A := B32 o) None w n x H I Hb) in E.
  remember (fir_value (A := B32 o) None n x w) as y0 eqn:Y0. injection E as Ew Ey. subst y0. subst y.
  destruct (fir_value_err o None n x w ltac:(lia) F) as (_ & B).
  assert (Hn : forall i, (i < n)%nat -> nth i w' (lit (a := B32 o) 0 1) = nth i (x :: w) (lit (a := B32 o) 0 1)).
  { intros i Hi. subst w'. destruct i; cbn [nth]; [reflexivity|]. rewrite app_nth1 by (rewrite firstn_length; lia). apply nth_firstn. lia. }
  rewrite (sum_ext n _ (fun i => rterm o None i (nth i (x :: w) (lit (a := B32 o) 0 1)))).
  2:{ intros i Hi. rewrite !(nth_val o), Hn by auto. reflexivity. }
  rewrite (sum_ext n (fun i => Rabs (nth i (map _ _) 0)) (fun i => Rabs (rterm o None i (nth i (x :: w) (lit (a := B32 o) 0 1))))).
  2:{ intros i Hi. rewrite !(nth_val o), Hn by auto. reflexivity. }
  exact B.
Qed.
Print Assumptions C130_plain_sum.
(** For up to 4094 taps the bound is below (n + 2) 2^-24 times the sum of the absolute values plus 4 n 2^-150. *)
Theorem C130_simple_bound : forall (n : nat) (S : R), (n <= 4094)%nat -> 0 <= S ->
  gap n S <= (INR n + 2) * bpow radix2 (-24) * S + 4 * INR n * bpow radix2 (-150).
Proof. exact gap_simple. Qed.
Print Assumptions C130_simple_bound.
(** And the result is finite whenever the sum of the absolute values plus the bound is at most 2^127. *)
Theorem C130_finite : forall (o : oracles binary32) (c w w' : list binary32) (n : nat) (x y : binary32),
  (1 <= n <= length w)%nat -> (n <= length c)%nat -> (Z.of_nat n <= 2 ^ 64)%Z ->
  updateFIR (A := B32 o) w (Z.of_nat n) x (Some c) = Ok (w', y) ->
  Forall (fun v => finite v) c -> Forall (fun v => finite v) w -> finite x ->
  let S := dot_abs n (map (B2R 24 128) c) (map (B2R 24 128) w') in S + gap n S <= bpow radix2 127 -> finite y.
Proof.
  intros o c w w' n x y H Hc Hb E Fc Fw Fx S B. rewrite (updateFIR_ok (A := B32 o) (Some c) w n x H Hc Hb) in E.
  remember (fir_value (A := B32 o) (Some c) n x w) as y0 eqn:Y0. injection E as Ew Ey. subst y0. subst y.
  assert (Hn : forall i, (i < n)%nat -> nth i w' (lit (a := B32 o) 0 1) = nth i (x :: w) (lit (a := B32 o) 0 1)).
  { intros i Hi. subst w'. destruct i; cbn [nth]; [reflexivity|]. rewrite app_nth1 by (rewrite firstn_length; lia). apply nth_firstn. lia. }
  apply fir_value_in; [lia| |].
  - intros i Hi. split.
    + destruct i; cbn [nth]; [exact Fx|]. rewrite Forall_forall in Fw. apply Fw. apply nth_In. change (i < @length binary32 w)%nat. lia.
    + intros l El. injection El as <-. rewrite Forall_forall in Fc. apply Fc. apply nth_In. change (i < @length binary32 c)%nat. lia.
  - cbv zeta. replace (sum n (fun i => Rabs (rterm o (Some c) i (nth i (x :: w) (lit (a := B32 o) 0 1))))) with S; [exact B|].
    unfold S, dot_abs, dot. apply sum_ext. intros i Hi. rewrite !nth_abs, !(nth_val o), Hn by auto. cbn [rterm]. rewrite Rabs_mult. reflexivity.
Qed.
Print Assumptions C130_finite.
(** The bound is on the absolute values for a reason: three unit taps over 2^30, 1, -2^30 return 0 instead of 1. *)
Theorem C130_cancellation_refuted : forall o, exists w' y, let one := lit (a := B32 o) 1 1 in
  updateFIR (A := B32 o) [one; lit (a := B32 o) 1073741824 1; one] 3 (lit (a := B32 o) (-1073741824) 1) (Some [one; one; one]) = Ok (w', y) /\
  dot 3 (map (B2R 24 128) [one; one; one]) (map (B2R 24 128) w') = 1 /\ valR y = 0.
Proof.
  intros o. exists [lit (a := B32 o) (-1073741824) 1; lit (a := B32 o) 1 1; lit (a := B32 o) 1073741824 1]. eexists. cbv zeta. split; [reflexivity|]. split.
  - cbn [map]. unfold dot. cbn [sum nth].
    replace (valR (lit (a := B32 o) 1 1)) with 1 by (vm_compute; lra).
    replace (valR (lit (a := B32 o) (-1073741824) 1)) with (-1073741824) by (vm_compute; lra).
    replace (valR (lit (a := B32 o) 1073741824 1)) with 1073741824 by (vm_compute; lra). lra.
  - vm_compute. reflexivity.
Qed.
Print Assumptions C130_cancellation_refuted.
Example C130_case : forall o, exists w' y, let one := lit (a := B32 o) 1 1 in
  updateFIR (A := B32 o) [one; one; one] 3 (lit (a := B32 o) 1 3) (Some [one; one; one]) = Ok (w', y) /\ finite y /\ (1 <= 3 <= length [one; one; one])%nat.
Proof. intros o. eexists. eexists. cbv zeta. split; [reflexivity|]. split; [reflexivity|cbn; lia]. Qed.

(** ** C131: discrete transfer functions in binary32 *)
(** After a setup with N coefficients on each side, for every input stream during which the outputs stay strictly between the
    limits, there is a real signal w (the contents of the state array) such that the outputs are, up to rounding, the numerator
    applied to w, and the inputs are, up to rounding, the denominator applied to w.  So the computed outputs are within a rounding
    error of the exact response of the (rounded) coefficients to an input within a rounding error of the given one: however long
    the stream, errors enter only as perturbations of the input and of the output of each single step. *)
Theorem C131_backward : forall (o : oracles binary32) (num den x us ys : list binary32) (d d1 d2 : dsys (B32 o)),
  let N := length num in let a0 := nth 0 den (lit (a := B32 o) 0 1) in
  (1 <= N)%nat -> (Z.of_nat N < 2 ^ 64)%Z -> length den = N -> (N <= length x)%nat -> finite a0 -> valR a0 <> 0 ->
  l_delay (d_base d) = None ->
  d_setup (A := B32 o) (Some num) (Some den) (Some x) (zlen num) (zlen den) d = Ok (true, d1) ->
  d_stream (A := B32 o) us d1 = Ok (ys, d2) ->
  Forall (fun y => finite y /\ valR (l_min (d_base d)) < valR y < valR (l_max (d_base d))) ys ->
  let b := map (fun v => valR (fdiv (a := B32 o) v a0)) num in let a := map (fun v => valR (fdiv (a := B32 o) v a0)) den in
  exists w ins outs : list R,
    response b a ins outs /\ length ys = length us /\ length w = length us /\ length ins = length us /\
    forall k, (k < length us)%nat ->
      Rabs (nth k ins 0 - nth k (map (B2R 24 128) us) 0) <= gap N (Rabs (nth k (map (B2R 24 128) us) 0) + filter (map Rabs a) (map Rabs w) (Z.of_nat k)) /\
      Rabs (nth k (map (B2R 24 128) ys) 0 - nth k outs 0) <= gap N (filter (map Rabs b) (map Rabs w) (Z.of_nat k)).
Proof.
  intros o num den x us ys d d1 d2 N a0 HN HB Ld Lx Fa Na Hdl E1 E2 Iy b a.
  destruct (backward32 o num den x us ys d d1 d2 HN HB Ld Lx Fa Na Hdl E1 E2 Iy) as (_ & ws & L1 & L2 & P).
  pose proof (inner_response b a [] ws (length us) L1) as Rs. cbv zeta in Rs.
  exists ws. eexists. eexists. split; [exact Rs|]. split; [exact L2|]. split; [exact L1|]. split; [rewrite map_length; apply seq_length|].
  assert (At : forall c k, (k < length us)%nat -> nth k (map (fun k => filter c ws (Z.of_nat k)) (seq 0 (length us))) 0 = filter c ws (Z.of_nat k)).
  { intros c k Hk. rewrite (nth_indep _ 0 (filter c ws (Z.of_nat 0))) by (rewrite map_length, seq_length; exact Hk).
    rewrite (map_nth (fun k => filter c ws (Z.of_nat k))), seq_nth by exact Hk. reflexivity. }
  intros k Hk. rewrite !At by exact Hk. exact (P k Hk).
Qed.
Print Assumptions C131_backward.
(** The coefficients used are the given ones divided by the first denominator coefficient, each rounded once. *)
Theorem C131_coefficients : forall (o : oracles binary32) (v a0 : binary32), finite v -> finite a0 -> valR a0 <> 0 -> Rabs (valR v / valR a0) <= bpow radix2 127 ->
  finite (fdiv (a := B32 o) v a0) /\ Rabs (valR (fdiv (a := B32 o) v a0) - valR v / valR a0) <= bpow radix2 (-24) * Rabs (valR v / valR a0) + bpow radix2 (-150).
Proof. intros o v a0 Fv Fa Na B. destruct (div_R v a0 Fv Fa Na B) as (F1 & V). split; [exact F1|]. change (fdiv (a := B32 o) v a0) with (b32_div mode_NE v a0). rewrite V. apply rnd_err. Qed.
Print Assumptions C131_coefficients.
(** For a stable denominator the computed outputs stay within a fixed distance of the exact response z of the coefficients to the
    same inputs, however long the stream: H bounds the sum of the absolute values of the impulse response h of 1/denominator,
    U the inputs, A and B the sums of the absolute values of the coefficients. *)
Theorem C131_forward : forall (o : oracles binary32) (num den x us ys : list binary32) (d d1 d2 : dsys (B32 o)) (h zs : list R) (H U : R),
  let N := length num in let n := length us in let a0 := nth 0 den (lit (a := B32 o) 0 1) in
  (1 <= N)%nat -> (Z.of_nat N < 2 ^ 64)%Z -> length den = N -> (N <= length x)%nat -> finite a0 -> valR a0 <> 0 ->
  l_delay (d_base d) = None ->
  d_setup (A := B32 o) (Some num) (Some den) (Some x) (zlen num) (zlen den) d = Ok (true, d1) ->
  d_stream (A := B32 o) us d1 = Ok (ys, d2) ->
  Forall (fun y => finite y /\ valR (l_min (d_base d)) < valR y < valR (l_max (d_base d))) ys ->
  let b := map (fun v => valR (fdiv (a := B32 o) v a0)) num in let a := map (fun v => valR (fdiv (a := B32 o) v a0)) den in
  response [1] a (impulse n) h -> sum n (fun i => Rabs (nth i h 0)) <= H ->
  response b a (map (B2R 24 128) us) zs -> Forall (fun u => Rabs (valR u) <= U) us -> 0 <= U ->
  gain N * total_abs a * H < 1 ->
  let D := input_error N (total_abs a) H U in
  forall k, (k < n)%nat -> Rabs (nth k (map (B2R 24 128) ys) 0 - nth k zs 0) <= total_abs b * (H * D) + gap N (total_abs b * (H * (U + D))).
Proof.
  intros o num den x us ys d d1 d2 h zs H U N n a0 HN HB Ld Lx Fa Na Hdl E1 E2 Iy b a Hh HH Hz Bu HU Hg D.
  destruct (backward32 o num den x us ys d d1 d2 HN HB Ld Lx Fa Na Hdl E1 E2 Iy) as (A1 & ws & L1 & L2 & P). fold a0 a b N in A1, P.
  apply (forward a b h (map (B2R 24 128) us) zs ws (map (B2R 24 128) ys) N n H U); auto.
  - rewrite A1. lra.
  - apply map_length.
  - intros k Hk. rewrite Forall_forall in Bu. rewrite (nth_val o). apply Bu. apply nth_In. exact Hk.
Qed.
Print Assumptions C131_forward.
(** 1/(1 - z^-1/2), limits -10 and 10: the impulse response is 1, 1/2, 1/4, ..., its absolute sum is at most 2 for every length,
    the remaining hypotheses hold, and the error is at most 2^-19 for inputs in [-1, 1]. *)
Fixpoint halves (k : nat) : R := match k with O => 1 | S k => halves k / 2 end.
Lemma halves_pos k : 0 < halves k. Proof. induction k; cbn [halves]; lra. Qed.
Example C131_case : forall o, let one := lit (a := B32 o) 1 1 in let nul := lit (a := B32 o) 0 1 in let den := [one; lit (a := B32 o) (-1) 2] in
  let base := mkL (A := B32 o) (lit (a := B32 o) (-10) 1) (lit (a := B32 o) 10 1) None in
  let d := mkD (A := B32 o) [] [] None 0 0 0 nul base in
  let a := map (fun v => valR (fdiv (a := B32 o) v one)) den in
  (exists d1 d2 ys, d_setup (A := B32 o) (Some [one; nul]) (Some den) (Some [nul; nul]) 2 2 d = Ok (true, d1) /\
    d_stream (A := B32 o) [one; lit (a := B32 o) 1 3] d1 = Ok (ys, d2) /\ Forall (fun y => finite y /\ valR (l_min base) < valR y < valR (l_max base)) ys) /\
  (forall n, exists h, response [1] a (impulse n) h /\ sum n (fun i => Rabs (nth i h 0)) <= 2) /\
  gain 2 * total_abs a * 2 < 1 /\
  1 * (2 * input_error 2 (total_abs a) 2 1) + gap 2 (1 * (2 * (1 + input_error 2 (total_abs a) 2 1))) <= bpow radix2 (-19).
Proof.
  intros o one nul den base d a.
  assert (Ea : a = [1; -(1/2)]). { unfold a, den. cbn [map]. f_equal; [vm_compute; lra|]. f_equal. vm_compute. lra. }
  assert (Ta : total_abs a = 3 / 2). { rewrite Ea. unfold total_abs. cbn [length sum nth]. rewrite Rabs_R1, Rabs_Ropp, (Rabs_pos_eq (1 / 2)) by lra. lra. }
  assert (Eu : bpow radix2 (-24) = / 16777216) by reflexivity.
  assert (Ee : 0 < bpow radix2 (-150) <= / 1152921504606846976). { split; [apply bpow_gt_0|]. change (/ 1152921504606846976) with (bpow radix2 (-60)). apply bpow_le. lia. }
  split; [|split; [|split]].
  - do 3 eexists. split; [reflexivity|]. split; [reflexivity|].
    repeat apply Forall_cons; try apply Forall_nil; (split; [reflexivity|]); split; vm_compute; lra.
  - intros n. set (h := map halves (seq 0 n)). assert (Lh : length h = n) by (unfold h; rewrite map_length; apply seq_length).
    assert (Hk : forall k, (k < n)%nat -> nth k h 0 = halves k).
    { intros k Hk. unfold h. rewrite (nth_indep _ 0 (halves O)) by (rewrite map_length, seq_length; exact Hk). rewrite map_nth, seq_nth by exact Hk. reflexivity. }
    exists h. split.
    + split; [unfold impulse; rewrite map_length, seq_length; exact Lh|]. intros j Hj. unfold zlen, impulse in Hj. rewrite map_length, seq_length in Hj.
      replace j with (Z.of_nat (Z.to_nat j)) by lia. set (k := Z.to_nat j). assert (Kn : (k < n)%nat) by lia. rewrite Ea. unfold filter. cbn [length sum nth].
      replace (Z.of_nat k - Z.of_nat 0)%Z with (Z.of_nat k) by lia. rewrite !at_nat, Hk by exact Kn.
      unfold impulse. rewrite (nth_indep _ 0 ((fun k => if (k =? 0)%nat then 1 else 0) O)) by (rewrite map_length, seq_length; exact Kn).
      rewrite (map_nth (fun k => if (k =? 0)%nat then 1 else 0)), seq_nth by exact Kn. cbn [Nat.add].
      destruct k as [|k]; cbn [Nat.eqb halves].
      * rewrite at_neg by lia. lra.
      * replace (Z.of_nat (S k) - Z.of_nat 1)%Z with (Z.of_nat k) by lia. rewrite at_nat, Hk by lia. lra.
    + rewrite (sum_ext n _ halves). 2:{ intros i Hi. rewrite Hk by exact Hi. apply Rabs_pos_eq. pose proof (halves_pos i). lra. }
      assert (Q : forall m, sum m halves = 2 - 2 * halves m). { induction m; cbn [sum halves]; [lra|]. rewrite IHm. lra. }
      rewrite Q. pose proof (halves_pos n). lra.
  - rewrite Ta. unfold gain. rewrite Eu. cbn [Nat.add Rpow_def.pow]. lra.
  - rewrite Ta. unfold input_error, gap, gain, floor_. rewrite Eu. cbn [Nat.add Rpow_def.pow INR]. set (e := bpow radix2 (-150)) in *.
    change (bpow radix2 (-19)) with (/ 524288). 
    match goal with |- context [?a / (1 - ?g)] => set (g0 := 1 - g); assert (G : 99/100 < g0) by (unfold g0; lra); assert (DD : a / g0 <= 25 / 33554432) by (apply Rmult_le_reg_r with g0; [lra|]; unfold Rdiv; rewrite Rmult_assoc, Rinv_l by lra; lra); set (D := a / g0) in * end.
    lra.
Qed.
