(** Properties C70, C71, C82, C83 of src/ffmath.cpp: remainders, roots,
    reciprocals and angle wrapping in binary32. *)
From Coq Require Import ZArith Reals Lra Lia Bool.
From Flocq Require Import Core IEEE754.BinarySingleNaN IEEE754.Binary IEEE754.Bits.
From Verif Require Import Base Arith Ext32 Bits32 Ffmath_Model Ffmath_Spec Ffmath_Proofs3 Float32 Ffmath_Proofs4 Ffmath_Proofs5 Ffmath_Proofs6 Ffmath_Proofs7 Ffmath_Proofs8.
Open Scope R_scope.

(** ** C70: mod, rem, frac *)

(** While the quotient stays below 2^22, mod(x,y) lies in [0,y) or (y,0], and
    differs from x by a multiple of y up to rounding. *)
Theorem C70_mod : forall x y, finite x -> finite y -> valR y <> 0 ->
  Rabs (valR x) <= bpow radix2 22 * Rabs (valR y) -> Rabs (valR x) <= bpow radix2 125 -> Rabs (valR y) <= bpow radix2 125 ->
  exists r, fmod x y = Ok r /\ finite r /\ (0 < valR y -> 0 <= valR r < valR y) /\ (valR y < 0 -> valR y < valR r <= 0) /\
    exists k, Rabs (valR r - (valR x - IZR k * valR y)) <= mod_err (valR x) (valR y).
Proof. exact fmod_ok. Qed.
Print Assumptions C70_mod.

(** mod(x,0) is x for every x, NaN and infinities included. *)
Theorem C70_mod_zero : forall x y, is_zero y -> fmod x y = Ok x.
Proof. intros x y H. unfold fmod. rewrite (proj2 (isZero_ok y) H). reflexivity. Qed.
Print Assumptions C70_mod_zero.

(** rem(x,y) for nonzero x: x less a multiple of y up to rounding, no larger than
    y, and on the side of x, each up to the same error. *)
Theorem C70_rem : forall x y, finite x -> finite y -> valR x <> 0 -> valR y <> 0 ->
  Rabs (valR x) <= bpow radix2 22 * Rabs (valR y) -> Rabs (valR x) <= bpow radix2 125 -> Rabs (valR y) <= bpow radix2 125 ->
  finite (frem x y) /\ exists k, Rabs (valR (frem x y) - (valR x - IZR k * valR y)) <= mod_err (valR x) (valR y) /\
    Rabs (valR (frem x y)) <= Rabs (valR y) + mod_err (valR x) (valR y) /\
    - mod_err (valR x) (valR y) <= valR (frem x y) * (if Rlt_bool (valR x) 0 then -1 else 1).
Proof. exact frem_ok. Qed.
Print Assumptions C70_rem.

(** The fractional part is exact. *)
Theorem C70_frac : forall x, finite x -> finite (ffrac x) /\ exists n, is_trunc (valR x) n /\ valR (ffrac x) = valR x - IZR n.
Proof. exact frac_ok. Qed.
Print Assumptions C70_frac.

(** Deviations: rem(0,1) is NaN, as the test names the wrong argument; rem(0.9,0.1)
    is negative; mod(55607740,3) is -1; mod(2^127,2^-10) is -inf. *)
Theorem C70_refuted :
  is_nan 24 128 (frem (ofU 0) (ofU 1065353216)) = true /\
  (flit 0 1 <? ofU 1063675494)%b32 = true /\ (frem (ofU 1063675494) (ofU 1036831949) <? flit 0 1)%b32 = true /\
  (exists r, fmod (ofU 1280581743) (ofU 1077936128) = Ok r /\ asU r = 3212836864%Z) /\
  (exists r, fmod (ofU 2130706432) (ofU 981467136) = Ok r /\ asU r = 4286578688%Z).
Proof.
  split; [reflexivity|]. split; [reflexivity|]. split; [reflexivity|]. 
  split; (match goal with |- exists r, ?t = Ok r /\ asU r = ?c => assert (H : match t with Ok v => asU v | Ub => 0%Z end = c) by (vm_compute; reflexivity); destruct t as [r|]; [exists r; split; auto|discriminate] end).
Qed.
Print Assumptions C70_refuted.

(** mod(7.5,3) = 1.5, mod(-7.5,3) = 1.5, mod(7.5,-3) = -1.5, rem(-7.5,3) = -1.5, frac(-7.5) = -0.5 *)
Example C70_case : let bits r := match r with Ok v => Some (asU v) | Ub => None end in
  bits (fmod (ofU 1089470464) (ofU 1077936128)) = Some 1069547520%Z /\ bits (fmod (ofU 3236954112) (ofU 1077936128)) = Some 1069547520%Z /\
  bits (fmod (ofU 1089470464) (ofU 3225419776)) = Some 3217031168%Z /\ asU (frem (ofU 3236954112) (ofU 1077936128)) = 3217031168%Z /\
  asU (ffrac (ofU 3236954112)) = 3204448256%Z.
Proof. vm_compute. repeat split. Qed.
(** The hypotheses at x = 7.5, y = 3. *)
Example C70_nonvacuous : let x := ofU 1089470464 in let y := ofU 1077936128 in
  finite x /\ finite y /\ valR x = 15 / 2 /\ valR y = 3 /\ Rabs (valR x) <= bpow radix2 22 * Rabs (valR y).
Proof.
  cbv zeta. assert (V1 : valR (ofU 1089470464) = 15 / 2) by (vm_compute; lra). assert (V2 : valR (ofU 1077936128) = 3) by (vm_compute; lra).
  rewrite V1, V2. repeat split. rewrite !Rabs_pos_eq by lra. change (bpow radix2 22) with 4194304. lra.
Qed.

(** ** C71: square root *)

(** For every positive normal float the relative error is at most 2^-19. *)
Theorem C71_sqrt : forall x, is_normal x -> 0 < valR x ->
  finite (sqrt x) /\ Rabs (valR (sqrt x) - R_sqrt.sqrt (valR x)) <= bpow radix2 (-19) * R_sqrt.sqrt (valR x).
Proof. exact sqrt_accurate. Qed.
Print Assumptions C71_sqrt.

(** Both zeros give 0; whatever is below zero, -inf included, and NaN give NaN. *)
Theorem C71_special : forall x, (is_zero x -> sqrt x = flit 0 1) /\ (is_nan 24 128 x = false -> ext32 x < 0 -> is_nan 24 128 (sqrt x) = true) /\
  (is_nan 24 128 x = true -> is_nan 24 128 (sqrt x) = true).
Proof. exact sqrt_special. Qed.
Print Assumptions C71_special.

(** Deviations: a positive subnormal (2^-127) has a negative root, and the root of
    +inf is NaN. *)
Theorem C71_refuted : let x := ofU 4194304 in finite x /\ (flit 0 1 <? x)%b32 = true /\ (sqrt x <? flit 0 1)%b32 = true /\ is_nan 24 128 (sqrt limInf) = true.
Proof. vm_compute. repeat split. Qed.
Print Assumptions C71_refuted.

(** sqrt(2): pattern 0x3FB50505, eighteen units above the nearest float *)
Example C71_case : is_normal (ofU 1073741824) /\ valR (ofU 1073741824) = 2 /\ asU (sqrt (ofU 1073741824)) = 1068827909%Z.
Proof.
  assert (V : valR (ofU 1073741824) = 2) by (vm_compute; lra). split; [|split]; [|exact V|].
  - split; [reflexivity|]. rewrite V, Rabs_pos_eq by lra. apply Rle_trans with (bpow radix2 1); [apply bpow_le; lia|]. change (bpow radix2 1) with 2. lra.
  - vm_compute. reflexivity.
Qed.

(** ** C82: reciprocal and reciprocal square root *)

Theorem C82_recip : forall x, is_normal x -> Rabs (valR x) < bpow radix2 124 ->
  finite (recip x) /\ Rabs (valR (recip x) - / valR x) <= 26 / 10000 * Rabs (/ valR x).
Proof. exact recip_accurate. Qed.
Print Assumptions C82_recip.

Theorem C82_rSqrt : forall x, is_normal x -> 0 < valR x ->
  finite (rSqrt x) /\ Rabs (valR (rSqrt x) - / R_sqrt.sqrt (valR x)) <= 18 / 10000 * / R_sqrt.sqrt (valR x).
Proof. exact rsqrt_accurate. Qed.
Print Assumptions C82_rSqrt.

Theorem C82_rSqrt_special : forall x, (is_zero x -> rSqrt x = limInf) /\ (is_nan 24 128 x = false -> ext32 x < 0 -> is_nan 24 128 (rSqrt x) = true) /\
  (is_nan 24 128 x = true -> is_nan 24 128 (rSqrt x) = true).
Proof. exact rsqrt_special. Qed.
Print Assumptions C82_rSqrt_special.

(** Deviations: recip(0) is a finite number, and recip(2^127) is NaN. *)
Theorem C82_refuted : finite (recip (flit 0 1)) /\ is_nan 24 128 (recip (ofU 2130706432)) = true.
Proof. vm_compute. split; reflexivity. Qed.
Print Assumptions C82_refuted.

(** recip(3) = 0.3330..., rSqrt(9) = 0.3329... *)
Example C82_case : let x := ofU 1077936128 in let y := ofU 1091567616 in
  valR x = 3 /\ valR y = 9 /\ Rabs (valR (recip x) - 1 / 3) <= 1 / 1000 /\ Rabs (valR (rSqrt y) - 1 / 3) <= 1 / 1000.
Proof.
  cbv zeta. split; [vm_compute; lra|]. split; [vm_compute; lra|].
  assert (V1 : exists k, valR (recip (ofU 1077936128)) = k /\ -1 / 1000 <= k - 1 / 3 <= 1 / 1000) by (eexists; split; [vm_compute; reflexivity|lra]).
  assert (V2 : exists k, valR (rSqrt (ofU 1091567616)) = k /\ -1 / 1000 <= k - 1 / 3 <= 1 / 1000) by (eexists; split; [vm_compute; reflexivity|lra]).
  destruct V1 as (k1 & -> & H1). destruct V2 as (k2 & -> & H2). split; apply Rabs_le; lra.
Qed.

(** ** C83: angle wrapping *)

(** Any angle up to 2^24 radians or 2^30 degrees is brought into [0, 2pi) or
    [0, 360), by a whole number of turns up to rounding. The turn is that of the
    float constant. *)
Theorem C83_wrapTo2Pi : forall x, finite x -> Rabs (valR x) <= bpow radix2 24 ->
  exists r, wrapTo2Pi x = Ok r /\ finite r /\ 0 <= valR r < valR f2PI /\
  exists k, Rabs (valR r - (valR x - IZR k * valR f2PI)) <= bpow radix2 (-20) * (Rabs (valR x) + valR f2PI).
Proof.
  intros x Fx B. destruct f2PI_R as (F1 & V1). rewrite V1. apply wrap0; auto; try lra. change (bpow radix2 22) with 4194304. change (bpow radix2 24) with 16777216 in B. lra.
Qed.
Print Assumptions C83_wrapTo2Pi.
Theorem C83_wrapTo360 : forall x, finite x -> Rabs (valR x) <= bpow radix2 30 ->
  exists r, wrapTo360 x = Ok r /\ finite r /\ 0 <= valR r < 360 /\
  exists k, Rabs (valR r - (valR x - IZR k * 360)) <= bpow radix2 (-20) * (Rabs (valR x) + 360).
Proof.
  intros x Fx B. destruct f360_R as (F1 & V1). apply wrap0; auto; try lra. change (bpow radix2 22) with 4194304. change (bpow radix2 30) with 1073741824 in B. lra.
Qed.
Print Assumptions C83_wrapTo360.

(** The symmetric wraps stay within [-pi, pi] and [-180, 180]. *)
Theorem C83_wrapToPi : forall x, finite x -> Rabs (valR x) <= bpow radix2 22 ->
  exists r, wrapToPi x = Ok r /\ finite r /\ - valR fPI <= valR r <= valR fPI /\
  exists k, Rabs (valR r - (valR x - IZR k * (2 * valR fPI))) <= bpow radix2 (-18) * (Rabs (valR x) + valR fPI).
Proof.
  intros x Fx B. destruct fPI_R as (F1 & V1). destruct f2PI_R as (F2 & V2). rewrite <- V1 in V2.
  destruct (wrap_sym x fPI f2PI (valR fPI) Fx F1 F2 eq_refl V2) as (m & E & H); [rewrite V1; lra|rewrite V1; change (bpow radix2 21) with 2097152; change (bpow radix2 22) with 4194304 in B; lra|].
  exists (m - fPI)%b32. unfold wrapToPi. rewrite E. split; [reflexivity|exact H].
Qed.
Print Assumptions C83_wrapToPi.
Theorem C83_wrapTo180 : forall x, finite x -> Rabs (valR x) <= bpow radix2 28 ->
  exists r, wrapTo180 x = Ok r /\ finite r /\ -180 <= valR r <= 180 /\
  exists k, Rabs (valR r - (valR x - IZR k * (2 * 180))) <= bpow radix2 (-18) * (Rabs (valR x) + 180).
Proof.
  intros x Fx B. destruct f180_R as (F1 & V1). destruct f360_R as (F2 & V2).
  destruct (wrap_sym x (flit 180 1) (flit 360 1) 180 Fx F1 F2 V1) as (m & E & H); [lra|lra|change (bpow radix2 21) with 2097152; change (bpow radix2 28) with 268435456 in B; lra|].
  exists (m - flit 180 1)%b32. unfold wrapTo180. rewrite E. split; [reflexivity|exact H].
Qed.
Print Assumptions C83_wrapTo180.

(** Deviations from the documentation: 180 wraps to -180 and 360 to 0. *)
Theorem C83_refuted : match wrapTo180 (flit 180 1) with Ok r => asU r = asU (flit (-180) 1) | Ub => False end /\
  match wrapTo360 (flit 360 1) with Ok r => asU r = asU (flit 0 1) | Ub => False end.
Proof. vm_compute. split; reflexivity. Qed.
Print Assumptions C83_refuted.

(** 190 degrees become -170, 540 become 180 in [0, 360). *)
Example C83_case : match wrapTo180 (flit 190 1) with Ok r => asU r = asU (flit (-170) 1) | Ub => False end /\
  match wrapTo360 (flit 540 1) with Ok r => asU r = asU (flit 180 1) | Ub => False end /\ finite (flit 190 1).
Proof. vm_compute. repeat split. Qed.
