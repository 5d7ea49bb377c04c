(** The sine of Q16.16 numbers. *)
From Coq Require Import ZArith Reals Lra Lia Bool.
From Flocq Require Import Raux.
From Verif Require Import Base BaseLemmas Fp16_Model Fp16_Spec Fp16_Proofs Fp16_Proofs2 Fp16Fun_Spec Fp16Fun_Proofs PolyBound TrigBound.
Open Scope R_scope.
Local Notation sinR := Rtrigo_def.sin.
Local Notation cosR := Rtrigo_def.cos.

Lemma rab a b e : Rabs (a - b) <= e -> Rabs a <= Rabs b + e.
Proof. intros H. replace a with (b + (a - b)) by ring. eapply Rle_trans; [apply Rabs_triang|lra]. Qed.
Lemma pow_bnd w W n : Rabs w <= W -> Rabs (w ^ n) <= W ^ n.
Proof. intros H. rewrite <- RPow_abs. apply pow_incr. split; [apply Rabs_pos|exact H]. Qed.
Lemma safe_fx a b : Rabs (fxR a) + Rabs (fxR b) <= 32766 -> mul_safe a b.
Proof.
  intros H. right; right. apply le_IZR. rewrite plus_IZR, !abs_IZR. change (IZR (2 ^ 31 - 2 ^ 17)) with 2147352576. unfold fxR in H. unfold Rdiv in H. rewrite !Rabs_mult, (Rabs_pos_eq (/ 65536)) in H by lra. lra.
Qed.

(** one more factor w^2 *)
Lemma mstep0 x2 a w W e n : Rabs w <= W -> Rabs (fxR x2 - w ^ 2) <= / 131072 -> Rabs (fxR a - w ^ n) <= e -> W ^ n + e + (W ^ 2 + / 131072) <= 32766 ->
  raw x2 /\ raw a /\ mul_safe a x2 /\ Rabs (fxR a * fxR x2 - w ^ (n + 2)) <= e * W ^ 2 + (W ^ n + e) * / 131072.
Proof.
  intros Hw H2 Ha B2. pose proof (pow_bnd w W n Hw) as Pn. pose proof (pow_bnd w W 2 Hw) as P2. pose proof (rab _ _ _ H2) as A2. pose proof (rab _ _ _ Ha) as A. pose proof (Rabs_pos (w ^ n)). pose proof (Rabs_pos (w ^ 2)). pose proof (Rabs_pos (fxR a - w ^ n)). pose proof (Rabs_pos (fxR x2)). pose proof (Rabs_pos (fxR a)).
  split; [apply fx_raw; lra|]. split; [apply fx_raw; lra|]. split; [apply safe_fx; lra|].
  rewrite pow_add. replace (fxR a * fxR x2 - w ^ n * w ^ 2) with ((fxR a - w ^ n) * w ^ 2 + fxR a * (fxR x2 - w ^ 2)) by ring. eapply Rle_trans; [apply Rabs_triang|]. rewrite !Rabs_mult. apply Rplus_le_compat; apply Rmult_le_compat; try apply Rabs_pos; lra.
Qed.
Lemma mstep x2 a w W e n : Rabs w <= W -> Rabs (fxR x2 - w ^ 2) <= / 131072 -> Rabs (fxR a - w ^ n) <= e -> (W ^ n + e) * (W ^ 2 + / 131072) <= 32767 -> W ^ n + e + (W ^ 2 + / 131072) <= 32766 ->
  raw x2 /\ raw a /\ mul_safe a x2 /\ Rabs (fxR a * fxR x2 - w ^ (n + 2)) <= e * W ^ 2 + (W ^ n + e) * / 131072 /\ Rabs (fxR a * fxR x2) <= 32767.
Proof.
  intros Hw H2 Ha B1 B2. destruct (mstep0 x2 a w W e n Hw H2 Ha B2) as (C1 & C2 & C3 & C4). repeat (split; [assumption|]). pose proof (pow_bnd w W n Hw) as Pn. pose proof (pow_bnd w W 2 Hw) as P2. pose proof (rab _ _ _ H2) as A2. pose proof (rab _ _ _ Ha) as A. pose proof (Rabs_pos (fxR x2)). pose proof (Rabs_pos (fxR a)).
  rewrite Rabs_mult. eapply Rle_trans; [|exact B1]. apply Rmult_le_compat; try assumption; lra.
Qed.
Lemma mstep_ok x2 a w W e n e' : Rabs w <= W -> Rabs (fxR x2 - w ^ 2) <= / 131072 -> Rabs (fxR a - w ^ n) <= e -> (W ^ n + e) * (W ^ 2 + / 131072) <= 32767 -> W ^ n + e + (W ^ 2 + / 131072) <= 32766 -> e * W ^ 2 + (W ^ n + e) * / 131072 + / 131072 <= e' ->
  exists r, mul a x2 = Ok r /\ Rabs (fxR r - w ^ (n + 2)) <= e'.
Proof.
  intros Hw H2 Ha B1 B2 B3. destruct (mstep x2 a w W e n Hw H2 Ha B1 B2) as (R1 & R2 & S & E & M). destruct (mul_fx a x2 R2 R1 S M) as (r & Er & V & _). exists r. split; [exact Er|].
  replace (fxR r - w ^ (n + 2)) with ((fxR r - fxR a * fxR x2) + (fxR a * fxR x2 - w ^ (n + 2))) by ring. eapply Rle_trans; [apply Rabs_triang|lra].
Qed.
(** adding a term *)
Lemma term_sub r a d t s e1 e2 B C : (0 < d)%Z -> Rabs (fxR r - t) <= e1 -> Rabs (fxR a - s) <= e2 -> Rabs t <= B -> Rabs s <= C -> B + e1 + (C + e2) / IZR d + ulp16 <= 32767 ->
  i32 (r - Z.quot a d) = Ok (r - Z.quot a d)%Z /\ Rabs (fxR (r - Z.quot a d) - (t - s / IZR d)) <= e1 + e2 / IZR d + ulp16 /\
  i32 (r + Z.quot a d) = Ok (r + Z.quot a d)%Z /\ Rabs (fxR (r + Z.quot a d) - (t + s / IZR d)) <= e1 + e2 / IZR d + ulp16.
Proof.
  intros Hd H1 H2 Ht Hs HB. pose proof (quot_fx a d Hd) as Q. assert (D : 0 < IZR d) by (apply IZR_lt; exact Hd). assert (Di : 0 < / IZR d) by (apply Rinv_0_lt_compat; exact D).
  assert (Q2 : Rabs (fxR (Z.quot a d) - s / IZR d) <= e2 / IZR d + ulp16). { replace (fxR (Z.quot a d) - s / IZR d) with ((fxR (Z.quot a d) - fxR a / IZR d) + (fxR a - s) * / IZR d) by (field; lra). eapply Rle_trans; [apply Rabs_triang|]. rewrite Rabs_mult, (Rabs_pos_eq (/ IZR d)) by lra. assert (Rabs (fxR a - s) * / IZR d <= e2 * / IZR d) by (apply Rmult_le_compat_r; lra). unfold Rdiv. lra. }
  assert (S : Rabs (s / IZR d) <= C / IZR d). { unfold Rdiv. rewrite Rabs_mult, (Rabs_pos_eq (/ IZR d)) by lra. apply Rmult_le_compat_r; lra. }
  pose proof (rab _ _ _ Q2) as QA. pose proof (rab _ _ _ H1) as RA. replace ((C + e2) / IZR d) with (C / IZR d + e2 / IZR d) in HB by (field; lra).
  assert (G : forall z, fxR z = fxR r - fxR (Z.quot a d) \/ fxR z = fxR r + fxR (Z.quot a d) -> i32 z = Ok z). { intros z [E|E]; apply fx_i32; rewrite E; unfold Rminus; (eapply Rle_trans; [apply Rabs_triang|]); rewrite ?Rabs_Ropp; lra. }
  split; [apply G; left; apply fx_sub|]. split; [|split; [apply G; right; apply fx_add|]].
  - rewrite fx_sub. replace (fxR r - fxR (Z.quot a d) - (t - s / IZR d)) with ((fxR r - t) - (fxR (Z.quot a d) - s / IZR d)) by ring. unfold Rminus at 1. eapply Rle_trans; [apply Rabs_triang|]. rewrite Rabs_Ropp. lra.
  - rewrite fx_add. replace (fxR r + fxR (Z.quot a d) - (t + s / IZR d)) with ((fxR r - t) + (fxR (Z.quot a d) - s / IZR d)) by ring. eapply Rle_trans; [apply Rabs_triang|]. lra.
Qed.

Definition T9 (w : R) : R := w - w ^ 3 / 6 + w ^ 5 / 120 - w ^ 7 / 5040 + w ^ 9 / 362880.
(** everything but the last term; W bounds the angle *)
Lemma sin_prefix x W e1 e2 e3 e4 E : let w := fxR x in Rabs w <= W -> 1 <= W <= 3.15 -> W ^ 9 <= 31000 -> 0 <= e1 -> 0 <= e2 -> 0 <= e3 -> 0 <= e4 <= 1 ->
  (W + 0) * (W ^ 2 + / 131072) <= 32767 ->
  W * / 131072 + / 131072 <= e1 -> e1 * W ^ 2 + (W ^ 3 + e1) * / 131072 + / 131072 <= e2 -> e2 * W ^ 2 + (W ^ 5 + e2) * / 131072 + / 131072 <= e3 -> e3 * W ^ 2 + (W ^ 7 + e3) * / 131072 + / 131072 <= e4 ->
  e1 <= 1 -> e2 <= 1 -> e3 <= 1 -> W ^ 3 <= 40 -> W ^ 5 <= 400 -> W ^ 7 <= 3100 -> W ^ 2 <= 10 ->
  e1 / 6 + e2 / 120 + e3 / 5040 + e4 / 362880 + 4 * ulp16 <= E ->
  exists x2 a4 r4, sin_poly x = bind (mul a4 x2) (fun y => i32 (r4 - Z.quot y 39916800)) /\
    Rabs (fxR x2 - w ^ 2) <= / 131072 /\ Rabs (fxR a4 - w ^ 9) <= e4 /\ Rabs (fxR r4 - T9 w) <= E /\ Rabs (fxR r4) <= 100.
Proof.
  intros w Hw HW W9 P1 P2 P3 P4 B0 B1 B2 B3 B4 Q1 Q2 Q3 W3 W5 W7 W2 HE.
  assert (U : ulp16 = / 65536) by reflexivity.
  assert (Pw : Rabs w <= W ^ 1) by (rewrite pow_1; exact Hw).
  assert (M : exists x2, mul x x = Ok x2 /\ Rabs (fxR x2 - w ^ 2) <= / 131072).
  { assert (Rx : raw x) by (apply fx_raw; fold w; lra). destruct (mul_fx x x Rx Rx) as (r & Er & V & _).
    - apply safe_fx. fold w. lra.
    - fold w. rewrite Rabs_mult. pose proof (Rabs_pos w). nra.
    - exists r. split; [exact Er|]. fold w in V. replace (w ^ 2) with (w * w) by ring. exact V. }
  destruct M as (x2 & E2 & V2). 
  assert (V0 : Rabs (fxR x - w ^ 1) <= 0). { rewrite pow_1. unfold w. replace (fxR x - fxR x) with 0 by ring. rewrite Rabs_R0. lra. }
  assert (G : forall A e, 0 <= A -> A <= 3100 -> 0 <= e <= 1 -> (A + e) * (W ^ 2 + / 131072) <= 32767 /\ A + e + (W ^ 2 + / 131072) <= 32766). { intros A e HA HA2 He. assert (0 <= W ^ 2) by (apply pow_le; lra). split; [|lra]. apply Rle_trans with ((3101) * (10 + / 131072)); [apply Rmult_le_compat; lra|lra]. }
  assert (N : forall k, 0 <= W ^ k) by (intros k; apply pow_le; lra).
  destruct (mstep_ok x2 x w W 0 1 e1 Hw V2 V0) as (a1 & E3 & V3); [rewrite pow_1; lra|rewrite pow_1; lra|rewrite pow_1; lra|]. change (1 + 2)%nat with 3%nat in V3.
  destruct (mstep_ok x2 a1 w W e1 3 e2 Hw V2 V3) as (a2 & E4 & V4); [apply G; [apply N|lra|lra]|apply G; [apply N|lra|lra]|lra|]. change (3 + 2)%nat with 5%nat in V4.
  destruct (mstep_ok x2 a2 w W e2 5 e3 Hw V2 V4) as (a3 & E5 & V5); [apply G; [apply N|lra|lra]|apply G; [apply N|lra|lra]|lra|]. change (5 + 2)%nat with 7%nat in V5.
  destruct (mstep_ok x2 a3 w W e3 7 e4 Hw V2 V5) as (a4 & E6 & V6); [apply G; [apply N|lra|lra]|apply G; [apply N|lra|lra]|lra|]. change (7 + 2)%nat with 9%nat in V6.
  rewrite pow_1 in V0.
  pose proof (pow_bnd w W 3 Hw) as P3b. pose proof (pow_bnd w W 5 Hw) as P5b. pose proof (pow_bnd w W 7 Hw) as P7b. pose proof (pow_bnd w W 9 Hw) as P9b.
  destruct (term_sub x a1 6 w (w ^ 3) 0 e1 4 40 ltac:(lia) V0 V3) as (I1 & S1 & _); [lra|lra|lra|].
  assert (X1 : Rabs (w - w ^ 3 / 6) <= 11). { unfold Rminus. eapply Rle_trans; [apply Rabs_triang|]. rewrite Rabs_Ropp. unfold Rdiv. rewrite Rabs_mult, (Rabs_pos_eq (/ 6)) by lra. lra. }
  destruct (term_sub _ a2 120 _ (w ^ 5) _ e2 11 400 ltac:(lia) S1 V4) as (_ & _ & I2 & S2); [lra|lra|lra|].
  assert (X2 : Rabs (w - w ^ 3 / 6 + w ^ 5 / 120) <= 15). { eapply Rle_trans; [apply Rabs_triang|]. unfold Rdiv at 2. rewrite Rabs_mult, (Rabs_pos_eq (/ 120)) by lra. lra. }
  destruct (term_sub _ a3 5040 _ (w ^ 7) _ e3 15 3100 ltac:(lia) S2 V5) as (I3 & S3 & _); [lra|lra|lra|].
  assert (X3 : Rabs (w - w ^ 3 / 6 + w ^ 5 / 120 - w ^ 7 / 5040) <= 17). { unfold Rminus at 1. eapply Rle_trans; [apply Rabs_triang|]. rewrite Rabs_Ropp. unfold Rdiv at 3. rewrite Rabs_mult, (Rabs_pos_eq (/ 5040)) by lra. lra. }
  destruct (term_sub _ a4 362880 _ (w ^ 9) _ e4 17 31000 ltac:(lia) S3 V6) as (_ & _ & I4 & S4); [lra|lra|lra|].
  exists x2, a4, (x - Z.quot a1 6 + Z.quot a2 120 - Z.quot a3 5040 + Z.quot a4 362880)%Z. split.
  - unfold sin_poly. rewrite E2. cbn [bind]. rewrite E3. cbn [bind]. rewrite I1. cbn [bind]. rewrite E4. cbn [bind]. rewrite I2. cbn [bind]. rewrite E5. cbn [bind]. rewrite I3. cbn [bind]. rewrite E6. cbn [bind]. rewrite I4. reflexivity.
  - split; [exact V2|]. split; [exact V6|]. assert (S5 : Rabs (fxR (x - Z.quot a1 6 + Z.quot a2 120 - Z.quot a3 5040 + Z.quot a4 362880) - T9 w) <= E) by (eapply Rle_trans; [exact S4|lra]). split; [exact S5|].
    assert (X4 : Rabs (T9 w) <= 18). { unfold T9. eapply Rle_trans; [apply Rabs_triang|]. unfold Rdiv at 4. rewrite Rabs_mult, (Rabs_pos_eq (/ 362880)) by lra. lra. }
    pose proof (rab _ _ _ S4). fold (T9 w) in H. lra.
Qed.

(** ** Taylor's formula *)
Definition T11 (w : R) : R := T9 w - w ^ 11 / 39916800.
Lemma pow_odd w k : (- w) ^ (2 * k + 1) = - w ^ (2 * k + 1).
Proof. rewrite !pow_add, !pow_mult, !pow_1. replace ((- w) ^ 2) with (w ^ 2) by ring. ring. Qed.
Lemma T9_odd w : T9 (- w) = - T9 w.
Proof. unfold T9. rewrite (pow_odd w 1 : (- w) ^ 3 = - w ^ 3), (pow_odd w 2 : (- w) ^ 5 = - w ^ 5), (pow_odd w 3 : (- w) ^ 7 = - w ^ 7), (pow_odd w 4 : (- w) ^ 9 = - w ^ 9). field. Qed.
Lemma T11_odd w : T11 (- w) = - T11 w.
Proof. unfold T11. rewrite T9_odd, (pow_odd w 5 : (- w) ^ 11 = - w ^ 11). field. Qed.
Lemma approx_val a : sin_approx a 4 = T9 a /\ sin_approx a 5 = T11 a /\ sin_approx a 6 = T11 a + a ^ 13 / 6227020800.
Proof.
  unfold sin_approx, T11, T9, sin_term. cbn [sum_f_R0 Nat.add Nat.mul]. destruct facts as (_ & E1 & _ & E3 & _ & E5 & _ & E7 & _ & E9 & _ & E11 & _ & E13 & _). rewrite E1, E3, E5, E7, E9, E11, E13. repeat split; field.
Qed.
Lemma sin_T_pos a : 0 <= a <= 4 -> Rabs (sinR a - T9 a) <= Rabs a ^ 11 / 39916800 /\ Rabs (sinR a - T11 a) <= Rabs a ^ 13 / 6227020800.
Proof.
  intros H. destruct (approx_val a) as (A4 & A5 & A6). destruct (pre_sin_bound a 1) as (_ & U4); [lra|lra|]. destruct (pre_sin_bound a 2) as (L5 & U6); [lra|lra|]. change (2 * (1 + 1))%nat with 4%nat in U4. change (2 * 2 + 1)%nat with 5%nat in L5. change (2 * (2 + 1))%nat with 6%nat in U6. rewrite A4 in U4. rewrite A5 in L5. rewrite A6 in U6.
  rewrite (Rabs_pos_eq a) by lra. split; apply Rabs_le; unfold T11 in *; lra.
Qed.
Lemma sin_T a : -4 <= a <= 4 -> Rabs (sinR a - T9 a) <= Rabs a ^ 11 / 39916800 /\ Rabs (sinR a - T11 a) <= Rabs a ^ 13 / 6227020800.
Proof.
  intros H. destruct (Rle_dec 0 a) as [P|P]; [apply sin_T_pos; lra|]. destruct (sin_T_pos (- a)) as (A & B); [lra|]. rewrite sin_neg, T9_odd, Rabs_Ropp in A. rewrite sin_neg, T11_odd, Rabs_Ropp in B.
  replace (- sinR a - - T9 a) with (- (sinR a - T9 a)) in A by ring. replace (- sinR a - - T11 a) with (- (sinR a - T11 a)) in B by ring. rewrite Rabs_Ropp in A, B. split; assumption.
Qed.

(** ** The three ranges *)
Lemma fx_abs x n : (Z.abs x <= n)%Z -> Rabs (fxR x) <= IZR n / 65536.
Proof. intros H. unfold fxR, Rdiv. rewrite Rabs_mult, (Rabs_pos_eq (/ 65536)), <- abs_IZR by lra. apply Rmult_le_compat_r; [lra|]. apply IZR_le. exact H. Qed.
Lemma fx_abs_ge x n : (n <= Z.abs x)%Z -> IZR n / 65536 <= Rabs (fxR x).
Proof. intros H. unfold fxR, Rdiv. rewrite Rabs_mult, (Rabs_pos_eq (/ 65536)), <- abs_IZR by lra. apply Rmult_le_compat_r; [lra|]. apply IZR_le. exact H. Qed.

Lemma sin_near x : (Z.abs x <= 168645)%Z -> exists r, sin_poly x = Ok r /\ Rabs (fxR r - sinR (fxR x)) <= 8 * ulp16.
Proof.
  intros H. set (W := 257332 / 100000). assert (Hw : Rabs (fxR x) <= W) by (eapply Rle_trans; [apply fx_abs, H|unfold W; lra]).
  destruct (sin_prefix x W (3.5734 / 131072) (41.8 / 131072) (391 / 131072) (3340 / 131072) (4.52 * ulp16) Hw) as (x2 & a4 & r4 & E & V2 & V4 & VR & BR); try (unfold W, ulp16; lra).
  destruct (mstep_ok x2 a4 (fxR x) W (3340 / 131072) 9 1 Hw V2 V4) as (a5 & E5 & V5); try (unfold W; lra). change (9 + 2)%nat with 11%nat in V5.
  assert (P11 : Rabs (fxR x ^ 11) <= 32767). { eapply Rle_trans; [apply pow_bnd, Hw|]. unfold W. lra. }
  assert (HT : Rabs (T9 (fxR x)) <= 101). { pose proof (rab (T9 (fxR x)) (fxR r4) (4.52 * ulp16)) as K. rewrite Rabs_minus_sym in K. specialize (K VR). unfold ulp16 in K. lra. }
  destruct (term_sub r4 a5 39916800 _ _ _ _ 101 32767 ltac:(lia) VR V5 HT P11) as (I & S & _); [unfold ulp16; lra|].
  exists (r4 - Z.quot a5 39916800)%Z. split; [rewrite E, E5; exact I|]. fold (T11 (fxR x)) in S. destruct (sin_T (fxR x)) as (_ & T); [apply Rabs_le_inv in Hw; unfold W in Hw; lra|].
  assert (P13 : Rabs (fxR x) ^ 13 <= W ^ 13) by (apply pow_incr; split; [apply Rabs_pos|exact Hw]).
  replace (fxR (r4 - Z.quot a5 39916800) - sinR (fxR x)) with ((fxR (r4 - Z.quot a5 39916800) - T11 (fxR x)) - (sinR (fxR x) - T11 (fxR x))) by ring. unfold Rminus at 1. eapply Rle_trans; [apply Rabs_triang|]. rewrite Rabs_Ropp. unfold ulp16, W in *. lra.
Qed.
Lemma sin_over x W l e1 e2 e3 e4 E : Rabs (fxR x) <= W -> 0 <= l -> l <= Rabs (fxR x) -> 1 <= W <= 3.15 -> W ^ 9 <= 31000 -> 0 <= e1 -> 0 <= e2 -> 0 <= e3 -> 0 <= e4 <= 1 ->
  (W + 0) * (W ^ 2 + / 131072) <= 32767 ->
  W * / 131072 + / 131072 <= e1 -> e1 * W ^ 2 + (W ^ 3 + e1) * / 131072 + / 131072 <= e2 -> e2 * W ^ 2 + (W ^ 5 + e2) * / 131072 + / 131072 <= e3 -> e3 * W ^ 2 + (W ^ 7 + e3) * / 131072 + / 131072 <= e4 ->
  e1 <= 1 -> e2 <= 1 -> e3 <= 1 -> W ^ 3 <= 40 -> W ^ 5 <= 400 -> W ^ 7 <= 3100 -> W ^ 2 <= 10 ->
  e1 / 6 + e2 / 120 + e3 / 5040 + e4 / 362880 + 4 * ulp16 <= E -> E <= 4.8 * ulp16 -> W ^ 11 / 39916800 <= 483.2 * ulp16 ->
  32768 + / 65536 < l ^ 11 - (e4 * W ^ 2 + (W ^ 9 + e4) * / 131072) ->
  exists r, sin_poly x = Ok r /\ Rabs (fxR r - sinR (fxR x)) <= 541 * ulp16 /\ Rabs (fxR r - 53 * ulp16 - T9 (fxR x)) <= E.
Proof.
  intros Hw L0 Hl HW W9 P1 P2 P3 P4 B0 B1 B2 B3 B4 Q1 Q2 Q3 W3 W5 W7 W2 HE HE5 H11 HL.
  destruct (sin_prefix x W e1 e2 e3 e4 E Hw HW W9 P1 P2 P3 P4 B0 B1 B2 B3 B4 Q1 Q2 Q3 W3 W5 W7 W2 HE) as (x2 & a4 & r4 & EQ & V2 & V4 & VR & BR).
  destruct (mstep0 x2 a4 (fxR x) W e4 9 Hw V2 V4) as (R2 & R4 & S & V5); [lra|]. change (9 + 2)%nat with 11%nat in V5.
  assert (P11 : l ^ 11 <= Rabs (fxR x ^ 11)). { rewrite <- RPow_abs. apply pow_incr. lra. }
  assert (M : mul a4 x2 = Ok sentinel). { apply mul_fx_over; auto. pose proof (rab (fxR x ^ 11) (fxR a4 * fxR x2) _ ltac:(rewrite Rabs_minus_sym; exact V5)). lra. }
  exists (r4 + 53)%Z. rewrite EQ, M. cbn [bind]. change (Z.quot sentinel 39916800) with (-53)%Z. replace (r4 - -53)%Z with (r4 + 53)%Z by lia.
  assert (F53 : fxR 53 = 53 * ulp16) by (unfold fxR, ulp16; lra).
  split; [|split].
  - apply fx_i32. rewrite fx_add, F53. eapply Rle_trans; [apply Rabs_triang|]. unfold ulp16. rewrite (Rabs_pos_eq (53 * / 65536)) by lra. lra.
  - destruct (sin_T (fxR x)) as (T & _); [apply Rabs_le_inv in Hw; lra|]. assert (Q11 : Rabs (fxR x) ^ 11 <= W ^ 11) by (apply pow_incr; split; [apply Rabs_pos|exact Hw]).
    rewrite fx_add, F53. replace (fxR r4 + 53 * ulp16 - sinR (fxR x)) with (53 * ulp16 + ((fxR r4 - T9 (fxR x)) - (sinR (fxR x) - T9 (fxR x)))) by ring. eapply Rle_trans; [apply Rabs_triang|]. unfold Rminus at 1. eapply Rle_trans; [apply Rplus_le_compat_l; apply Rabs_triang|]. rewrite Rabs_Ropp. rewrite (Rabs_pos_eq (53 * ulp16)) by (unfold ulp16; lra). lra.
  - rewrite fx_add, F53. replace (fxR r4 + 53 * ulp16 - 53 * ulp16 - T9 (fxR x)) with (fxR r4 - T9 (fxR x)) by ring. exact VR.
Qed.
Lemma sin_far x : (168646 <= Z.abs x <= 205888)%Z -> exists r, sin_poly x = Ok r /\ Rabs (fxR r - sinR (fxR x)) <= 541 * ulp16.
Proof.
  intros (H1 & H2). destruct (Z_le_gt_dec (Z.abs x) 170000) as [H3|H3].
  - destruct (sin_over x (259400 / 100000) (168646 / 65536) (3.5941 / 131072) (42.7 / 131072) (406 / 131072) (3525 / 131072) (4.6 * ulp16)) as (r & E & V & _); try (unfold ulp16; lra); [eapply Rle_trans; [apply fx_abs, H3|lra]|apply fx_abs_ge, H1|]. exists r. auto.
  - destruct (sin_over x (314161 / 100000) (170000 / 65536) (4.1417 / 131072) (73 / 131072) (1028 / 131072) (13172 / 131072) (4.8 * ulp16)) as (r & E & V & _); try (unfold ulp16; lra); [eapply Rle_trans; [apply fx_abs, H2|lra]|apply fx_abs_ge; lia|]. exists r. auto.
Qed.
Lemma sin_far_T x : (170000 <= Z.abs x <= 205888)%Z -> exists r, sin_poly x = Ok r /\ Rabs (fxR r - 53 * ulp16 - T9 (fxR x)) <= 4.8 * ulp16.
Proof.
  intros (H1 & H2). destruct (sin_over x (314161 / 100000) (170000 / 65536) (4.1417 / 131072) (73 / 131072) (1028 / 131072) (13172 / 131072) (4.8 * ulp16)) as (r & E & _ & V); try (unfold ulp16; lra); [eapply Rle_trans; [apply fx_abs, H2|lra]|apply fx_abs_ge; lia|]. exists r. auto.
Qed.
(** every wrapped angle *)
Lemma sin_poly_ok x : (Z.abs x <= 205888)%Z -> exists r, sin_poly x = Ok r /\ Rabs (fxR r - sinR (fxR x)) <= 541 * ulp16 /\ Rabs (fxR r) <= 1 + 8 * ulp16.
Proof.
  intros H. destruct (Z_le_gt_dec (Z.abs x) 168645) as [H1|H1].
  - destruct (sin_near x H1) as (r & E & V). exists r. split; [exact E|]. split; [unfold ulp16 in *; lra|]. pose proof (rab _ _ _ V). assert (Rabs (sinR (fxR x)) <= 1) by (apply Rabs_le; apply SIN_bound). lra.
  - destruct (sin_far x ltac:(lia)) as (r & E & V). exists r. split; [exact E|]. split; [exact V|]. pose proof (rab _ _ _ V) as K. pose proof PI_bounds as P. unfold PIlo, PIhi in P. pose proof (fx_abs x _ H) as U. pose proof (fx_abs_ge x 168646 ltac:(lia)) as L.
    assert (S : Rabs (sinR (fxR x)) <= 58 / 100). { unfold Rabs in U, L. destruct (Rcase_abs (fxR x)) as [N|N].
      - replace (sinR (fxR x)) with (sinR (fxR x) - sinR (- PI)) by (rewrite sin_neg, sin_PI; ring). eapply Rle_trans; [apply sin_lip|]. apply Rabs_le. lra.
      - replace (sinR (fxR x)) with (sinR (fxR x) - sinR PI) by (rewrite sin_PI; ring). eapply Rle_trans; [apply sin_lip|]. apply Rabs_le. lra. }
    unfold ulp16 in *. lra.
Qed.
Lemma sin_all x : raw x -> exists r, Fp16_Model.sin x = Ok r /\ Rabs (fxR r - sinR (fxR x)) <= 542 * ulp16 + Rabs (fxR x) / 2300000 /\ Rabs (fxR r) <= 1 + 8 * ulp16.
Proof.
  intros Hx. destruct (wrapToPi_ok x Hx) as (x' & E & B & (k & K) & _). destruct (sin_poly_ok x' ltac:(lia)) as (r & Er & V & R). exists r. unfold Fp16_Model.sin. rewrite E. cbn [bind]. split; [exact Er|]. split; [|exact R].
  assert (D : Rabs (sinR (fxR x') - sinR (fxR x)) <= Rabs (IZR k) * (3 / 1000000)).
  { rewrite <- (sin_periodZ (fxR x') k). eapply Rle_trans; [apply sin_lip|]. subst x'. rewrite fx_sub. unfold fxR at 2. rewrite mult_IZR. replace (fxR x - IZR k * 411775 / 65536 + 2 * IZR k * PI - fxR x) with (IZR k * (2 * PI - 411775 / 65536)) by field. rewrite Rabs_mult. apply Rmult_le_compat_l; [apply Rabs_pos|]. apply Rabs_le. pose proof PI_bounds as P. unfold PIlo, PIhi in P. lra. }
  assert (D2 : Rabs (sinR (fxR x') - sinR (fxR x)) <= Rabs (IZR k) * (267 / 100000000)).
  { rewrite <- (sin_periodZ (fxR x') k). eapply Rle_trans; [apply sin_lip|]. subst x'. rewrite fx_sub. unfold fxR at 2. rewrite mult_IZR. replace (fxR x - IZR k * 411775 / 65536 + 2 * IZR k * PI - fxR x) with (IZR k * (2 * PI - 411775 / 65536)) by field. rewrite Rabs_mult. apply Rmult_le_compat_l; [apply Rabs_pos|]. apply Rabs_le. pose proof PI_bounds as P. unfold PIlo, PIhi in P. lra. }
  assert (KB : Rabs (IZR k) * (411775 / 65536) <= Rabs (fxR x) + 205888 / 65536).
  { replace (Rabs (IZR k) * (411775 / 65536)) with (Rabs (fxR x - fxR x')). { unfold Rminus. eapply Rle_trans; [apply Rabs_triang|]. rewrite Rabs_Ropp. pose proof (fx_abs x' 205888 ltac:(lia)). lra. } subst x'. rewrite fx_sub. replace (fxR x - (fxR x - fxR (k * 411775))) with (IZR k * (411775 / 65536)) by (unfold fxR; rewrite mult_IZR; field). rewrite Rabs_mult, (Rabs_pos_eq (411775 / 65536)) by lra. reflexivity. }
  replace (fxR r - sinR (fxR x)) with ((fxR r - sinR (fxR x')) + (sinR (fxR x') - sinR (fxR x))) by ring. eapply Rle_trans; [apply Rabs_triang|]. unfold ulp16 in *. pose proof (Rabs_pos (IZR k)). pose proof (Rabs_pos (fxR x)). lra.
Qed.
Lemma sin_near_total x : (Z.abs x <= 168645)%Z -> exists r, Fp16_Model.sin x = Ok r /\ Rabs (fxR r - sinR (fxR x)) <= 8 * ulp16.
Proof.
  intros H. destruct (wrapToPi_ok x) as (x' & E & _ & _ & I); [unfold raw; lia|]. rewrite I in E by lia. unfold Fp16_Model.sin. rewrite E. cbn [bind]. apply sin_near; exact H.
Qed.
(** ** Cosine *)
Lemma half_pi : Rabs (fxR f_pi_2 - PI / 2) <= 3 / 10 * ulp16.
Proof. pose proof PI_bounds as P. unfold PIlo, PIhi in P. apply Rabs_le. unfold fxR, f_pi_2, ulp16. lra. Qed.
Lemma cos_shift x : Rabs (sinR (fxR (x + f_pi_2)) - cosR (fxR x)) <= 3 / 10 * ulp16.
Proof. rewrite fx_add, cos_sin. eapply Rle_trans; [apply sin_lip|]. replace (fxR x + fxR f_pi_2 - (PI / 2 + fxR x)) with (fxR f_pi_2 - PI / 2) by ring. exact half_pi. Qed.
Lemma cos_near x : (-271589 <= x <= 65701)%Z -> exists r, Fp16_Model.cos x = Ok r /\ Rabs (fxR r - cosR (fxR x)) <= 83 / 10 * ulp16.
Proof.
  intros H. unfold Fp16_Model.cos. rewrite i32_ok by (unfold raw, f_pi_2; lia). cbn [bind]. destruct (sin_near_total (x + f_pi_2) ltac:(unfold f_pi_2; lia)) as (r & E & V). exists r. split; [exact E|]. pose proof (cos_shift x).
  replace (fxR r - cosR (fxR x)) with ((fxR r - sinR (fxR (x + f_pi_2))) + (sinR (fxR (x + f_pi_2)) - cosR (fxR x))) by ring. eapply Rle_trans; [apply Rabs_triang|lra].
Qed.
Lemma cos_all x : raw x -> (x < 2 ^ 31 - f_pi_2)%Z -> exists r, Fp16_Model.cos x = Ok r /\ Rabs (fxR r - cosR (fxR x)) <= 543 * ulp16 + Rabs (fxR x) / 2300000 /\ Rabs (fxR r) <= 1 + 8 * ulp16.
Proof.
  intros Hx H. assert (R : raw (x + f_pi_2)) by (unfold raw, f_pi_2 in *; lia). unfold Fp16_Model.cos. rewrite i32_ok by exact R. cbn [bind]. destruct (sin_all _ R) as (r & E & V & B). exists r. split; [exact E|]. split; [|exact B]. pose proof (cos_shift x). 
  assert (A : Rabs (fxR (x + f_pi_2)) <= Rabs (fxR x) + 1.6). { rewrite fx_add. eapply Rle_trans; [apply Rabs_triang|]. rewrite (Rabs_pos_eq (fxR f_pi_2)) by (unfold fxR, f_pi_2; lra). unfold fxR at 2. unfold f_pi_2. lra. }
  replace (fxR r - cosR (fxR x)) with ((fxR r - sinR (fxR (x + f_pi_2))) + (sinR (fxR (x + f_pi_2)) - cosR (fxR x))) by ring. eapply Rle_trans; [apply Rabs_triang|]. unfold ulp16 in *. lra.
Qed.
(** ** Tangent *)
Lemma cos_half w : Rabs w <= 1 -> / 2 <= cosR w.
Proof.
  intros H. apply Rabs_le_inv in H. destruct (pre_cos_bound w 0) as (L & _); [lra|lra|]. unfold cos_approx, cos_term in L. cbn [sum_f_R0 Nat.add Nat.mul] in L. destruct facts as (E0 & _ & E2 & _). rewrite E0, E2 in L. cbn [pow] in L. nra.
Qed.
Lemma tan_ok x : (Z.abs x <= 65536)%Z -> exists r, Fp16_Model.tan x = Ok r /\ Rabs (fxR r - Rtrigo1.tan (fxR x)) <= 52 * ulp16.
Proof.
  intros H. destruct (sin_near_total x ltac:(lia)) as (s & Es & Vs). destruct (cos_near x ltac:(lia)) as (c & Ec & Vc). pose proof (fx_abs x _ H) as B. change (65536 / 65536) with (65536 * / 65536) in B. assert (B1 : Rabs (fxR x) <= 1) by lra. pose proof (cos_half _ B1) as C. 
  assert (S : Rabs (sinR (fxR x)) <= 1) by (apply Rabs_le; apply SIN_bound). assert (C1 : cosR (fxR x) <= 1) by apply COS_bound. set (SS := sinR (fxR x)) in *. set (CC := cosR (fxR x)) in *.
  unfold ulp16 in *. pose proof (rab _ _ _ Vs) as Bs. pose proof (rab _ _ _ Vc) as Bc. rewrite (Rabs_pos_eq CC) in Bc by lra. apply Rabs_le_inv in Vc.
  assert (c0 : 0.49 < fxR c) by lra. assert (Q : Rabs (fxR s / fxR c - SS / CC) <= 51 * / 65536).
  { replace (fxR s / fxR c - SS / CC) with (((fxR s - SS) * CC + SS * (CC - fxR c)) * / (fxR c * CC)) by (field; lra). rewrite Rabs_mult, (Rabs_pos_eq (/ (fxR c * CC))) by (left; apply Rinv_0_lt_compat; nra). apply (Rmult_le_reg_r (fxR c * CC)); [nra|]. rewrite Rmult_assoc, Rinv_l, Rmult_1_r by nra. eapply Rle_trans; [apply Rabs_triang|]. rewrite !Rabs_mult, (Rabs_pos_eq CC) by lra.
    assert (A1 : Rabs (CC - fxR c) <= 83 / 10 * / 65536) by (apply Rabs_le; lra). pose proof (Rabs_pos SS). pose proof (Rabs_pos (fxR s - SS)).
    assert (T1 : Rabs (fxR s - SS) * CC <= 8 * / 65536 * CC) by (apply Rmult_le_compat_r; lra). assert (T2 : Rabs SS * Rabs (CC - fxR c) <= 1 * (83 / 10 * / 65536)) by (apply Rmult_le_compat; try apply Rabs_pos; lra).
    assert (T3 : (CC - 83 / 10 * / 65536) * CC <= fxR c * CC) by (apply Rmult_le_compat_r; lra). assert (T4 : / 4 <= CC * CC) by nra. nra. }
  assert (M : Rabs (fxR s / fxR c) <= 3). { unfold Rdiv. rewrite Rabs_mult, Rabs_inv, (Rabs_pos_eq (fxR c)) by lra. apply (Rmult_le_reg_r (fxR c)); [lra|]. rewrite Rmult_assoc, Rinv_l by lra. lra. }
  destruct (div_fx s c) as (r & Er & Vr & _).
  - apply fx_raw. lra.
  - apply fx_raw. rewrite Rabs_pos_eq; lra.
  - intros ->. unfold fxR in c0. lra.
  - intros ->. change sentinel with (-2147483648)%Z in Bs. unfold fxR in Bs. rewrite Rabs_left in Bs by lra. lra.
  - intros ->. change sentinel with (-2147483648)%Z in c0. unfold fxR in c0. lra.
  - lra.
  - exists r. split; [unfold Fp16_Model.tan; rewrite Es; cbn [bind]; rewrite Ec; exact Er|]. unfold Rtrigo1.tan. fold SS CC. replace (fxR r - SS / CC) with ((fxR r - fxR s / fxR c) + (fxR s / fxR c - SS / CC)) by ring. eapply Rle_trans; [apply Rabs_triang|]. lra.
Qed.
