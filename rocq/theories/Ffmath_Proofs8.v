(** Angle wrapping and the special cases of the roots. *)
From Coq Require Import ZArith Reals Lra Lia Psatz Bool.
From Flocq Require Import Core IEEE754.BinarySingleNaN IEEE754.Binary IEEE754.Bits.
From Verif Require Import Base BaseLemmas Arith Ext32 Bits32 Ffmath_Model Ffmath_Spec Ffmath_Proofs Ffmath_Proofs2 Ffmath_Proofs3 Float32 Ffmath_Proofs4 Ffmath_Proofs7.
Open Scope R_scope.

Lemma f180_R : finite (flit 180 1) /\ valR (flit 180 1) = 180.
Proof. split; [reflexivity|]. vm_compute. lra. Qed.
Lemma f360_R : finite (flit 360 1) /\ valR (flit 360 1) = 360.
Proof. split; [reflexivity|]. vm_compute. lra. Qed.
Lemma fPI_R : finite fPI /\ valR fPI = 13176795 / 4194304.
Proof. split; [reflexivity|]. vm_compute. lra. Qed.
Lemma f2PI_R : finite f2PI /\ valR f2PI = 2 * (13176795 / 4194304).
Proof. split; [reflexivity|]. vm_compute. lra. Qed.

Lemma err_le a b c : Rabs a <= b -> Rabs c <= 1000 -> mod_err a c <= bpow radix2 (-21) * (b + Rabs c) + bpow radix2 (-148).
Proof. intros H H'. unfold mod_err. apply Rplus_le_compat_r, Rmult_le_compat_l; [apply bpow_ge_0|lra]. Qed.
Lemma e21 : bpow radix2 (-21) = / 2097152. Proof. reflexivity. Qed.
Lemma e20 : bpow radix2 (-20) = / 1048576. Proof. reflexivity. Qed.
Lemma e148 : 0 < bpow radix2 (-148) <= / 1048576 / 1048576.
Proof. split; [apply bp|]. apply Rle_trans with (bpow radix2 (-40)); [apply bpow_le; lia|]. change (bpow radix2 (-40)) with (/ 1099511627776). lra. Qed.

Lemma wrap0 x y p : finite x -> finite y -> valR y = p -> 1 <= p <= 1000 -> Rabs (valR x) <= bpow radix2 22 * p ->
  exists r, fmod x y = Ok r /\ finite r /\ 0 <= valR r < p /\ exists k, Rabs (valR r - (valR x - IZR k * p)) <= bpow radix2 (-20) * (Rabs (valR x) + p).
Proof.
  intros Fx Fy Vy Hp B. assert (AP : Rabs (valR y) = p) by (rewrite Vy, Rabs_pos_eq; lra).
  assert (B32 : bpow radix2 32 <= bpow radix2 125) by (apply bpow_le; lia). assert (V32 : bpow radix2 32 = 4294967296) by reflexivity. assert (V22 : bpow radix2 22 = 4194304) by reflexivity. rewrite V22 in B.
  assert (Ny : valR y <> 0) by (rewrite Vy; intros Z; lra).
  destruct (fmod_ok x y) as (r & E & Fr & R1 & _ & k & K); auto; rewrite ?AP, ?V22; try lra.
  exists r. split; auto. split; auto. rewrite Vy in R1. split; [apply R1; lra|]. exists k. unfold mod_err in K. rewrite AP, Vy in K.
  rewrite e21 in K. rewrite e20. pose proof e148. pose proof (Rabs_pos (valR x)). lra.
Qed.

Lemma wrap_sym x h y p : finite x -> finite h -> finite y -> valR h = p -> valR y = 2 * p -> 1 <= p <= 500 -> Rabs (valR x) <= bpow radix2 21 * p ->
  exists m, fmod (x + h)%b32 y = Ok m /\ let r := (m - h)%b32 in finite r /\ - p <= valR r <= p /\
    exists k, Rabs (valR r - (valR x - IZR k * (2 * p))) <= bpow radix2 (-18) * (Rabs (valR x) + p).
Proof.
  intros Fx Fh Fy Vh Vy Hp B. assert (V21 : bpow radix2 21 = 2097152) by reflexivity. rewrite V21 in B. pose proof u32_val as U.
  assert (BG : 2097152 * 1000 <= big). { apply Rle_trans with (bpow radix2 32); [change (bpow radix2 32) with 4294967296; lra|apply bpow_le; lia]. }
  assert (T1 : Rabs (valR x + p) <= Rabs (valR x) + p) by (apply Rle_trans with (1 := Rabs_triang _ _); rewrite (Rabs_pos_eq p); lra).
  destruct (plus_R x h Fx Fh) as (F1 & V1); [rewrite Vh; lra|]. rewrite Vh in V1. pose proof (rnd_err (valR x + p)) as E1. rewrite <- V1 in E1.
  pose proof tiny_150 as T. assert (E1' : Rabs (valR (x + h)%b32 - (valR x + p)) <= 2 * u32 * (Rabs (valR x) + p)). { rewrite U in *. pose proof (Rabs_pos (valR x)). lra. }
  assert (T2 : Rabs (valR (x + h)%b32) <= (1 + 2 * u32) * (Rabs (valR x) + p)).
  { replace (valR (x + h)%b32) with (valR (x + h)%b32 - (valR x + p) + (valR x + p)) by ring. apply Rle_trans with (1 := Rabs_triang _ _). lra. }
  destruct (wrap0 (x + h)%b32 y (2 * p) F1 Fy Vy) as (m & E & Fm & Rm & k & K); [lra|rewrite U in T2; change (bpow radix2 22) with 4194304; lra|].
  exists m. split; auto. cbv zeta. destruct (minus_R m h Fm Fh) as (F2 & V2); [rewrite Vh; apply Rabs_le; lra|]. rewrite Vh in V2. split; auto.
  split. { rewrite V2, <- Vh. split; [apply rnd_ge_opp; rewrite Vh; lra|apply rnd_le_val; rewrite Vh; lra]. }
  exists k. pose proof (rnd_err (valR m - p)) as E2. rewrite <- V2 in E2. assert (E2' : Rabs (valR m - p) <= p) by (apply Rabs_le; lra).
  pose proof (Rabs_pos (valR x)) as PX0.  rewrite e20 in K. change (bpow radix2 (-18)) with (/ 262144). rewrite U in *. set (xh := valR (x + h)%b32) in *. clearbody xh. set (ax := Rabs xh) in *. set (am := Rabs (valR m - p)) in *. set (axx := Rabs (valR x)) in *. clearbody ax am axx.
  apply Rabs_le_inv in K. apply Rabs_le_inv in E1'. apply Rabs_le_inv in E2. apply Rabs_le. lra.
Qed.

(** ** Special cases of the roots *)
Lemma b32_lt_nan_l x y : is_nan 24 128 x = true -> b32_lt x y = false.
Proof. intros H. destruct (b32_lt x y) eqn:E; auto. apply b32_lt_nan in E. destruct E as (E & _). congruence. Qed.
Lemma limNan_nan : is_nan 24 128 limNan = true. Proof. reflexivity. Qed.
Lemma isZero_nan x : is_nan 24 128 x = true -> isZero x = false.
Proof. intros H. destruct (isZero x) eqn:E; auto. apply isZero_ok in E. destruct E as (E & _). destruct x; discriminate. Qed.
Lemma mult_nan_r x y : is_nan 24 128 y = true -> is_nan 24 128 (b32_mult mode_NE x y) = true.
Proof. destruct x, y; intros H; try discriminate; reflexivity. Qed.
Lemma mult_nan_l x y : is_nan 24 128 x = true -> is_nan 24 128 (b32_mult mode_NE x y) = true.
Proof. destruct x, y; intros H; try discriminate; reflexivity. Qed.
Lemma plus_nan_l x y : is_nan 24 128 x = true -> is_nan 24 128 (b32_plus mode_NE x y) = true.
Proof. destruct x, y; intros H; try discriminate; reflexivity. Qed.
Lemma minus_nan_r x y : is_nan 24 128 y = true -> is_nan 24 128 (b32_minus mode_NE x y) = true.
Proof. destruct x, y; intros H; try discriminate; reflexivity. Qed.
Lemma div_nan_l x y : is_nan 24 128 x = true -> is_nan 24 128 (b32_div mode_NE x y) = true.
Proof. destruct x, y; intros H; try discriminate; reflexivity. Qed.

Lemma neg_lt x : is_nan 24 128 x = false -> ext32 x < 0 -> b32_lt x (flit 0 1) = true.
Proof. intros N H. apply gt_0; auto. Qed.
Lemma zero_lt x : is_zero x -> b32_lt x (flit 0 1) = false /\ isZero x = true.
Proof.
  intros (F1 & V1). split; [|apply isZero_ok; split; auto]. destruct zero_R as (F0 & V0). destruct (lt_dec _ _ F1 F0) as [(_ & L)|(L & _)]; auto. rewrite V0 in L. lra.
Qed.
Lemma sqrt_special x : (is_zero x -> sqrt x = flit 0 1) /\ (is_nan 24 128 x = false -> ext32 x < 0 -> is_nan 24 128 (sqrt x) = true) /\
  (is_nan 24 128 x = true -> is_nan 24 128 (sqrt x) = true).
Proof.
  split; [|split].
  - intros Z. destruct (zero_lt x Z) as (A1 & A2). unfold sqrt. rewrite A1, A2. reflexivity.
  - intros N H. unfold sqrt. rewrite (neg_lt x N H). reflexivity.
  - intros N. unfold sqrt. rewrite b32_lt_nan_l, isZero_nan by auto. cbv zeta. apply mult_nan_r, plus_nan_l, div_nan_l; auto.
Qed.
Lemma rsqrt_special x : (is_zero x -> rSqrt x = limInf) /\ (is_nan 24 128 x = false -> ext32 x < 0 -> is_nan 24 128 (rSqrt x) = true) /\
  (is_nan 24 128 x = true -> is_nan 24 128 (rSqrt x) = true).
Proof.
  split; [|split].
  - intros Z. destruct (zero_lt x Z) as (A1 & A2). unfold rSqrt. rewrite A1, A2. reflexivity.
  - intros N H. unfold rSqrt. rewrite (neg_lt x N H). reflexivity.
  - intros N. unfold rSqrt. rewrite b32_lt_nan_l, isZero_nan by auto. cbv zeta. apply mult_nan_r, minus_nan_r, mult_nan_l, mult_nan_l, mult_nan_r; auto.
Qed.
