(** Remainders and fractional parts in binary32. *)
From Coq Require Import ZArith Reals Lra Lia Psatz Bool.
From Flocq Require Import Core IEEE754.BinarySingleNaN IEEE754.Binary IEEE754.Bits.
From Verif Require Import Base BaseLemmas Arith Ext32 Bits32 Ffmath_Model Ffmath_Spec Ffmath_Proofs Ffmath_Proofs2 Ffmath_Proofs3 Float32 Ffmath_Proofs4.
Open Scope R_scope.

Notation fmt x := (generic_format radix2 (FLT_exp (-149) 24) x).

(** ** Numbers that need no rounding *)
Lemma fmt_intro m e : (Z.abs m < 2 ^ 24)%Z -> (-149 <= e)%Z -> fmt (IZR m * bpow radix2 e).
Proof. intros Hm He. apply generic_format_FLT. exists (Float radix2 m e); auto. Qed.
Lemma fmt_elim x : exists m e, valR x = IZR m * bpow radix2 e /\ (Z.abs m < 2 ^ 24)%Z /\ (-149 <= e)%Z.
Proof.
  destruct (FLT_format_generic radix2 (-149) 24 (valR x) (format_val x)) as [[m e] V H1 H2]. exists m, e. auto.
Qed.
Lemma rnd_fmt x : fmt x -> rnd x = x.
Proof. intros H. apply round_generic; [apply valid_rnd_N|auto]. Qed.
Lemma pow_Z k : (0 <= k)%Z -> bpow radix2 k = IZR (2 ^ k). 
Proof. intros H. rewrite <- (IZR_Zpower radix2) by auto. reflexivity. Qed.

Lemma prod_rel y n : exists e, - u32 <= e <= u32 /\ rnd (valR y * IZR n) = valR y * IZR n * (1 + e).
Proof.
  destruct (Rle_or_lt (bpow radix2 (-126)) (Rabs (valR y * IZR n))) as [H|H].
  - destruct (rnd_rel _ H) as (e & He & V). exists e. split; [apply abs_bound; auto|exact V].
  - exists 0. split; [rewrite u32_val; lra|]. rewrite Rplus_0_r, Rmult_1_r. apply rnd_fmt.
    destruct (fmt_elim y) as (m & e & V & Hm & He).
    assert (K : valR y * IZR n = IZR (m * n * 2 ^ (e + 149)) * bpow radix2 (-149)).
    { rewrite V, !mult_IZR, <- pow_Z by lia. replace e with (e + 149 + -149)%Z at 1 by ring. rewrite bpow_plus. ring. }
    rewrite K in *. apply fmt_intro; [|lia]. rewrite Rabs_mult, (Rabs_pos_eq (bpow radix2 (-149))) in H by apply bpow_ge_0.
    rewrite <- abs_IZR in H. change (-126)%Z with (23 + -149)%Z in H. rewrite bpow_plus in H. apply Rmult_lt_reg_r in H; [|apply bp].
    change (bpow radix2 23) with (IZR (2 ^ 23)) in H. apply lt_IZR in H. lia.
Qed.

(** ** Fractional part *)
Lemma sgn_bounds v n : is_trunc v n -> Rabs (v - IZR n) <= Rabs v /\ Rabs (v - IZR n) < 1.
Proof.
  intros (H & B1 & B2). split.
  - unfold Rabs in *. destruct (Rcase_abs v), (Rcase_abs (IZR n)), (Rcase_abs (v - IZR n)); nra.
  - unfold Rabs in *. destruct (Rcase_abs v), (Rcase_abs (IZR n)), (Rcase_abs (v - IZR n)); nra.
Qed.
Lemma sub_int_fmt x n : Rabs (valR x - IZR n) <= Rabs (valR x) -> Rabs (valR x - IZR n) < 1 -> fmt (valR x - IZR n).
Proof.
  intros H H'. destruct (fmt_elim x) as (m & e & V & Hm & He). destruct (Z_lt_le_dec e 0) as [L|L].
  - assert (K : valR x - IZR n = IZR (m - n * 2 ^ (- e)) * bpow radix2 e).
    { rewrite V, minus_IZR, mult_IZR, <- pow_Z by lia. rewrite Rmult_minus_distr_r, Rmult_assoc, <- bpow_plus. replace (- e + e)%Z with 0%Z by ring. cbn [bpow]. ring. }
    rewrite K. apply fmt_intro; auto. rewrite K, V, !Rabs_mult in H. rewrite (Rabs_pos_eq (bpow radix2 e)) in H by apply bpow_ge_0.
    apply Rmult_le_reg_r in H; [|apply bp]. rewrite <- !abs_IZR in H. apply le_IZR in H. lia.
  - assert (K : valR x = IZR (m * 2 ^ e)) by (rewrite V, mult_IZR, <- pow_Z by lia; reflexivity).
    rewrite K in *. rewrite <- minus_IZR in *. rewrite <- abs_IZR in H'. apply lt_IZR in H'. assert (m * 2 ^ e - n = 0)%Z as -> by lia. apply generic_format_0.
Qed.

Lemma big1 : 1000 <= big.
Proof. apply Rle_trans with (bpow radix2 10); [change (bpow radix2 10) with 1024; lra|apply bpow_le; lia]. Qed.

Lemma frac_ok x : finite x -> finite (ffrac x) /\ exists n, is_trunc (valR x) n /\ valR (ffrac x) = valR x - IZR n.
Proof.
  intros Fx. destruct (patterned x) as (s & E & M & EQ & _ & HE & HM). pose proof (trunc_pat s E M HE HM) as T. rewrite <- EQ in T. clear s E M EQ HE HM.
  unfold integral in T. rewrite Fx in T. destruct T as (Ft & _ & n & Hn & Vt). destruct (sgn_bounds _ _ Hn) as (B1 & B2).
  unfold ffrac. pose proof big1 as BG. destruct (minus_R x (trunc x) Fx Ft) as (F1 & V1); [rewrite Vt; lra|].
  split; auto. exists n. split; auto. rewrite V1, Vt. apply rnd_fmt, sub_int_fmt; auto.
Qed.

(** ** The quotient, its integer part and the difference *)
Lemma half_big : 4 * bpow radix2 125 = big.
Proof. change 127%Z with (2 + 125)%Z. rewrite bpow_plus. reflexivity. Qed.
Lemma tiny_150 : 0 < bpow radix2 (-150) <= / 16777216 / 16777216.
Proof. split; [apply bp|]. apply Rle_trans with (bpow radix2 (-48)); [apply bpow_le; lia|]. change (bpow radix2 (-48)) with (/ 281474976710656). lra. Qed.

(** whatever integer f within one of the rounded quotient is used *)
Lemma quotient x y f n : finite x -> finite y -> finite f -> valR y <> 0 -> Rabs (valR x) <= 4194304 * Rabs (valR y) -> Rabs (valR x) <= bpow radix2 125 -> Rabs (valR y) <= bpow radix2 125 ->
  valR f = IZR n -> Rabs (valR (x / y)%b32 - IZR n) <= 1 -> let m := (x - (y * f))%b32 in let q := valR x / valR y in
  finite (x / y)%b32 /\ Rabs (valR (x / y)%b32 - q) <= u32 * Rabs q + bpow radix2 (-150) /\ finite m /\ exists D, valR m = rnd D /\ Rabs (D - (valR x - IZR n * valR y)) <= u32 * (Rabs (valR x) + 2 * Rabs (valR y)) /\ Rabs D <= 2 * Rabs (valR y).
Proof.
  intros Fx Fy Ff Ny B1 B2 B3 Vf Hn m q. set (X := valR x) in *. set (Y := valR y) in *. pose proof u32_val as U. pose proof tiny_150 as T. pose proof half_big as HB. pose proof big1 as BG.
  assert (PY : 0 < Rabs Y) by (apply Rabs_pos_lt; auto).
  assert (QX : Rabs q * Rabs Y = Rabs X). { unfold q. rewrite <- Rabs_mult. f_equal. field. auto. }
  assert (Bq : Rabs q <= 4194304). { apply Rmult_le_reg_r with (Rabs Y); [auto|]. rewrite QX. exact B1. }
  assert (BG2 : 2 * 4194304 <= big). { apply Rle_trans with (bpow radix2 23); [change (bpow radix2 23) with 8388608; lra|apply bpow_le; lia]. }
  destruct (div_R x y Fx Fy Ny) as (F1 & V1); [fold X Y; fold q; lra|]. fold X Y in V1. fold q in V1.
  pose proof (rnd_err q) as E1. rewrite V1 in *. split; auto. split; auto.
  assert (NQ : Rabs (IZR n - q) <= 1 + (u32 * Rabs q + bpow radix2 (-150))).
  { replace (IZR n - q) with (- (rnd q - IZR n) + (rnd q - q)) by ring. apply Rle_trans with (1 := Rabs_triang _ _). rewrite Rabs_Ropp. lra. }
  assert (NQ2 : Rabs (IZR n - q) <= 13 / 10) by (rewrite U in NQ; lra).
  assert (NA : Rabs (IZR n) <= Rabs q + 13 / 10). { replace (IZR n) with (q + (IZR n - q)) by ring. apply Rle_trans with (1 := Rabs_triang _ _). lra. }
  assert (NY : Rabs (Y * IZR n) <= Rabs X + 13 / 10 * Rabs Y). { rewrite Rabs_mult, <- QX, <- Rmult_plus_distr_r, Rmult_comm. apply Rmult_le_compat_r; lra. }
  destruct (prod_rel y n) as (e & He & Q1). fold Y in Q1.
  destruct (mult_R y f Fy Ff) as (F2 & V2); [rewrite Vf; fold Y; lra|]. rewrite Vf in V2. fold Y in V2. rewrite Q1 in V2.
  set (P := Y * IZR n * (1 + e)) in *. set (D := X - P).
  assert (DE : Rabs (D - (X - IZR n * Y)) <= u32 * (Rabs X + 2 * Rabs Y)).
  { replace (D - (X - IZR n * Y)) with (- e * (Y * IZR n)) by (unfold D, P; ring). rewrite Rabs_mult.
    apply Rle_trans with (u32 * (Rabs X + 13 / 10 * Rabs Y)); [|apply Rmult_le_compat_l; [rewrite U; lra|lra]].
    apply Rmult_le_compat; try apply Rabs_pos; auto. rewrite Rabs_Ropp. apply Rabs_le. auto. }
  assert (XN : Rabs (X - IZR n * Y) <= 13 / 10 * Rabs Y).
  { replace (X - IZR n * Y) with ((- (IZR n - q)) * Y) by (unfold q; field; auto). rewrite Rabs_mult, Rabs_Ropp. apply Rmult_le_compat_r; lra. }
  assert (DB : Rabs D <= 2 * Rabs Y).
  { replace D with (D - (X - IZR n * Y) + (X - IZR n * Y)) by ring. apply Rle_trans with (1 := Rabs_triang _ _). rewrite U in DE. lra. }
  destruct (minus_R x (b32_mult mode_NE y f) Fx F2) as (F3 & V3); [fold X; rewrite V2; fold D; lra|]. fold X in V3. rewrite V2 in V3. fold D in V3.
  split; [exact F3|]. exists D. auto.
Qed.

Lemma limMin_R : finite limMin /\ valR limMin = bpow radix2 (-126).
Proof. split; [reflexivity|]. vm_compute. lra. Qed.
Lemma zero_R : finite (flit 0 1) /\ valR (flit 0 1) = 0.
Proof. rewrite flit_0. split; reflexivity. Qed.
Lemma abs_R x : finite x -> finite (absolute x) /\ valR (absolute x) = Rabs (valR x).
Proof. intros H. destruct (absf_ok x) as (_ & _ & F1 & V1 & _). unfold absf in *. rewrite F1. auto. Qed.

Lemma lt_dec x y : finite x -> finite y -> (b32_lt x y = true /\ valR x < valR y) \/ (b32_lt x y = false /\ valR y <= valR x).
Proof.
  intros Hx Hy. unfold b32_lt, b32_compare. rewrite Bcompare_correct by auto.
  destruct (Rcompare_spec (valR x) (valR y)); [left|right|right]; split; auto; lra.
Qed.
Lemma le_dec x y : finite x -> finite y -> (b32_le x y = true /\ valR x <= valR y) \/ (b32_le x y = false /\ valR y < valR x).
Proof.
  intros Hx Hy. unfold b32_le, b32_compare. rewrite Bcompare_correct by auto.
  destruct (Rcompare_spec (valR x) (valR y)); [left|left|right]; split; auto; lra.
Qed.

Lemma rnd_le_opp x y : x <= - valR y -> rnd x <= - valR y.
Proof. intros H. rewrite <- (B2R_Bopp 24 128 unop_nan_pl32 y) in *. apply rnd_le_val; auto. Qed.
Lemma rnd_ge_opp x y : - valR y <= x -> - valR y <= rnd x.
Proof. intros H. rewrite <- (B2R_Bopp 24 128 unop_nan_pl32 y) in *. apply rnd_ge_val; auto. Qed.


Lemma finish_tmp y m : finite y -> finite m -> Rabs (valR y + valR m) <= Rabs (valR y) -> Rabs (valR y) <= bpow radix2 125 -> let tmp := (y + m)%b32 in
  finite tmp /\ valR tmp = rnd (valR y + valR m) /\ 
  ((b32_le (absolute (tmp - y)%b32) limMin = true) \/ (b32_le (absolute (tmp - y)%b32) limMin = false /\ valR tmp <> valR y)).
Proof.
  intros Fy Fm B BY tmp. pose proof half_big as HB. pose proof (bp 125) as P125. destruct (plus_R y m Fy Fm) as (F1 & V1); [lra|]. fold tmp in F1, V1.
  split; auto. split; auto. assert (T : Rabs (valR tmp) <= Rabs (valR y)).
  { rewrite V1, <- rnd_abs. rewrite <- (rnd_val y), <- rnd_abs. apply rnd_le. rewrite ?rnd_abs, ?rnd_val. auto. }
  destruct (minus_R tmp y F1 Fy) as (F2 & V2). { unfold Rminus. apply Rle_trans with (1 := Rabs_triang _ _). rewrite Rabs_Ropp. lra. }
  destruct (abs_R _ F2) as (F3 & V3). destruct limMin_R as (F4 & V4). destruct (le_dec _ _ F3 F4) as [(C & _)|(C & H)]; auto. right. split; auto.
  intros E. rewrite V3, V2, E, V4, Rminus_diag_eq in H by auto. rewrite rnd_0, Rabs_R0 in H. pose proof (bp (-126)). lra.
Qed.

Lemma fmod_ok x y : finite x -> finite y -> valR y <> 0 -> Rabs (valR x) <= bpow radix2 22 * Rabs (valR y) -> Rabs (valR x) <= bpow radix2 125 -> Rabs (valR y) <= bpow radix2 125 ->
  exists r, fmod x y = Ok r /\ finite r /\ (0 < valR y -> 0 <= valR r < valR y) /\ (valR y < 0 -> valR y < valR r <= 0) /\
    exists k, Rabs (valR r - (valR x - IZR k * valR y)) <= mod_err (valR x) (valR y).
Proof.
  intros Fx Fy Ny B1 B2 B3. change (bpow radix2 22) with 4194304 in B1. unfold fmod.
  assert (isZero y = false) as ->. { destruct (isZero y) eqn:Z0; auto. apply isZero_ok in Z0. destruct Z0 as (_ & Z0). contradiction. }
  pose proof u32_val as U. pose proof tiny_150 as T. pose proof half_big as HB. pose proof big1 as BG. pose proof (bp 125) as P125.
  assert (FQ : finite (x / y)%b32).
  { assert (PY : 0 < Rabs (valR y)) by (apply Rabs_pos_lt; auto). apply div_R; auto. unfold Rdiv. rewrite Rabs_mult, Rabs_inv. 
    apply Rmult_le_reg_r with (Rabs (valR y)); auto. rewrite Rmult_assoc, Rinv_l by lra. rewrite Rmult_1_r. apply Rle_trans with (1 := B1).
    apply Rmult_le_compat_r; [lra|]. apply Rle_trans with (bpow radix2 22); [change (bpow radix2 22) with 4194304; lra|apply bpow_le; lia]. }
  destruct (patterned (x / y)%b32) as (s & E & M & EQ & _ & HE & HM). destruct (floor_pat s E M HE HM) as (f & Ef & If). rewrite <- EQ in Ef, If. clear s E M EQ HE HM.
  rewrite Ef. cbn [bind]. unfold integral in If. rewrite FQ in If. destruct If as (Ff & _ & n & Hn & Vf). unfold is_floor in Hn.
  destruct (quotient x y f n Fx Fy Ff Ny B1 B2 B3 Vf) as (_ & EQ & Fm & D & Vm & DE & DB). { apply Rabs_le. lra. }
  set (m := (x - y * f)%b32) in *. set (qf := (x / y)%b32) in *. clearbody m.
  set (X := valR x) in *. set (Y := valR y) in *. set (q := X / Y) in *.
  assert (QX : q * Y = X) by (unfold q; field; auto).
  assert (AX : Rabs q * Rabs Y = Rabs X) by (rewrite <- Rabs_mult; f_equal; auto).
  assert (PY : 0 < Rabs Y) by (apply Rabs_pos_lt; auto). pose proof (Rabs_pos X) as PX.
  assert (W : - (u32 * Rabs q + bpow radix2 (-150)) <= q - IZR n <= 1 + (u32 * Rabs q + bpow radix2 (-150))) by (apply Rabs_le_inv in EQ; lra).
  assert (EM : Rabs (valR m - D) <= u32 * (2 * Rabs Y) + bpow radix2 (-150)).
  { rewrite Vm. apply Rle_trans with (1 := rnd_err D). apply Rplus_le_compat_r, Rmult_le_compat_l; [rewrite U; lra|auto]. }
  destruct zero_R as (F0 & V0). 
  assert (Ebound : bpow radix2 (-21) = 8 * u32) by (rewrite U; change (bpow radix2 (-21)) with (/ 2097152); lra). assert (E148 : bpow radix2 (-148) = 4 * bpow radix2 (-150)) by (change (-148)%Z with (2 + -150)%Z; rewrite bpow_plus; reflexivity).
  unfold mod_err. rewrite Ebound, E148. rewrite U in *.
  apply Rabs_le_inv in EM. apply Rabs_le_inv in DE. 
  destruct (Rlt_or_le 0 Y) as [SY|SY].
  - assert (b32_lt (flit 0 1) y = true) as -> by (destruct (lt_dec _ _ F0 Fy) as [(? & ?)|(? & ?)]; auto; assert (valR y = Y) by reflexivity; lra).
    rewrite (Rabs_pos_eq Y) in * by lra.
    assert (WY : - (/ 16777216 * Rabs X + bpow radix2 (-150) * Y) <= X - IZR n * Y <= Y + (/ 16777216 * Rabs X + bpow radix2 (-150) * Y)).
    { replace (X - IZR n * Y) with ((q - IZR n) * Y) by (unfold q; field; auto). rewrite <- AX. assert (0 <= Y) by lra. split.
      - apply Rle_trans with ((q - IZR n) * Y); [|lra]. apply Rle_trans with (- (/ 16777216 * Rabs q + bpow radix2 (-150)) * Y); [lra|apply Rmult_le_compat_r; lra].
      - apply Rle_trans with ((q - IZR n) * Y); [lra|]. apply Rle_trans with ((1 + (/ 16777216 * Rabs q + bpow radix2 (-150))) * Y); [apply Rmult_le_compat_r; lra|lra]. }
    set (b := bpow radix2 (-150) * Y) in *. assert (Hb : 0 <= b <= / 16777216 / 16777216 * Y) by (unfold b; split; [apply Rmult_le_pos; lra|apply Rmult_le_compat_r; lra]).
    set (b0 := bpow radix2 (-150)) in *. assert (Pb0 : 0 < b0) by lra.
    destruct (le_dec y m Fy Fm) as [(-> & C1)|(-> & C1)].
    + exists (flit 0 1). split; auto. split; auto. rewrite V0. split; [fold Y; lra|]. split; [lra|]. exists (n + 1)%Z. rewrite plus_IZR. fold Y in C1. apply Rabs_le. lra.
    + fold Y in C1. destruct (lt_dec m (flit 0 1) Fm F0) as [(-> & C2)|(-> & C2)]; rewrite V0 in C2.
      * assert (MY : - Y <= valR m). { rewrite Vm. apply rnd_ge_opp. fold Y. lra. }
        destruct (finish_tmp y m Fy Fm) as (F2 & V2 & C3); [fold Y; rewrite !Rabs_pos_eq; lra|fold Y; rewrite Rabs_pos_eq; lra|]. cbv zeta. 
        set (tmp := (y + m)%b32) in *. fold Y in V2, C3.
        assert (DN : D < 0). { destruct (Rlt_or_le D 0); auto. exfalso. pose proof (rnd_nonneg D H). lra. }
        destruct C3 as [->|(-> & C3)].
        -- exists (flit 0 1). split; auto. split; auto. rewrite V0. split; [lra|]. split; [lra|]. exists n. apply Rabs_le. lra.
        -- exists tmp. split; auto. split; auto. assert (0 <= valR tmp) by (rewrite V2; apply rnd_nonneg; lra).
           assert (valR tmp <= Y) by (rewrite V2; apply rnd_le_val; fold Y; lra).
           split; [lra|]. split; [lra|]. exists (n - 1)%Z. rewrite minus_IZR. pose proof (rnd_err (Y + valR m)) as E2. rewrite <- V2 in E2. rewrite (Rabs_pos_eq (Y + valR m)) in E2 by lra.
           rewrite U in E2. fold b0 in E2. apply Rabs_le_inv in E2. apply Rabs_le. lra.
      * exists m. split; auto. split; auto. split; [lra|]. split; [lra|]. exists n. apply Rabs_le. lra.
  - assert (SY' : Y < 0) by lra. clear SY.
    assert (b32_lt (flit 0 1) y = false) as -> by (destruct (lt_dec _ _ F0 Fy) as [(? & ?)|(? & ?)]; auto; assert (valR y = Y) by reflexivity; lra).
    rewrite (Rabs_left Y) in * by lra.
    assert (WY : - (/ 16777216 * Rabs X + bpow radix2 (-150) * - Y) <= - (X - IZR n * Y) <= - Y + (/ 16777216 * Rabs X + bpow radix2 (-150) * - Y)).
    { replace (X - IZR n * Y) with ((q - IZR n) * Y) by (unfold q; field; auto). rewrite <- AX. assert (0 <= - Y) by lra. split.
      - apply Rle_trans with ((q - IZR n) * - Y); [|lra]. apply Rle_trans with (- (/ 16777216 * Rabs q + bpow radix2 (-150)) * - Y); [lra|apply Rmult_le_compat_r; lra].
      - apply Rle_trans with ((q - IZR n) * - Y); [lra|]. apply Rle_trans with ((1 + (/ 16777216 * Rabs q + bpow radix2 (-150))) * - Y); [apply Rmult_le_compat_r; lra|lra]. }
    set (b := bpow radix2 (-150) * - Y) in *. assert (Hb : 0 <= b <= / 16777216 / 16777216 * - Y) by (unfold b; split; [apply Rmult_le_pos; lra|apply Rmult_le_compat_r; lra]).
    set (b0 := bpow radix2 (-150)) in *. assert (Pb0 : 0 < b0) by lra.
    destruct (le_dec m y Fm Fy) as [(-> & C1)|(-> & C1)].
    + exists (flit 0 1). split; auto. split; auto. rewrite V0. split; [fold Y; lra|]. split; [lra|]. exists (n + 1)%Z. rewrite plus_IZR. fold Y in C1. apply Rabs_le. lra.
    + fold Y in C1. destruct (lt_dec (flit 0 1) m F0 Fm) as [(-> & C2)|(-> & C2)]; rewrite V0 in C2.
      * assert (MY : valR m <= - Y). { rewrite Vm. apply rnd_le_opp. fold Y. lra. }
        destruct (finish_tmp y m Fy Fm) as (F2 & V2 & C3); [fold Y; rewrite (Rabs_left1 (Y + valR m)), (Rabs_left1 Y); lra|fold Y; rewrite Rabs_left1; lra|]. cbv zeta. 
        set (tmp := (y + m)%b32) in *. fold Y in V2, C3.
        assert (DN : 0 < D). { destruct (Rlt_or_le 0 D); auto. exfalso. assert (rnd D <= 0) by (rewrite <- rnd_0; apply rnd_le; auto). lra. }
        destruct C3 as [->|(-> & C3)].
        -- exists (flit 0 1). split; auto. split; auto. rewrite V0. split; [lra|]. split; [lra|]. exists n. apply Rabs_le. lra.
        -- exists tmp. split; auto. split; auto. assert (valR tmp <= 0) by (rewrite V2, <- rnd_0; apply rnd_le; lra).
           assert (Y <= valR tmp) by (rewrite V2; apply rnd_ge_val; fold Y; lra).
           split; [lra|]. split; [lra|]. exists (n - 1)%Z. rewrite minus_IZR. pose proof (rnd_err (Y + valR m)) as E2. rewrite <- V2 in E2. rewrite (Rabs_left1 (Y + valR m)) in E2 by lra.
           rewrite U in E2. fold b0 in E2. apply Rabs_le_inv in E2. apply Rabs_le. lra.
      * exists m. split; auto. split; auto. split; [lra|]. split; [lra|]. exists n. apply Rabs_le. lra.
Qed.

Lemma frem_ok x y : finite x -> finite y -> valR x <> 0 -> valR y <> 0 -> Rabs (valR x) <= bpow radix2 22 * Rabs (valR y) -> Rabs (valR x) <= bpow radix2 125 -> Rabs (valR y) <= bpow radix2 125 ->
  finite (frem x y) /\ exists k, Rabs (valR (frem x y) - (valR x - IZR k * valR y)) <= mod_err (valR x) (valR y) /\
    Rabs (valR (frem x y)) <= Rabs (valR y) + mod_err (valR x) (valR y) /\ - mod_err (valR x) (valR y) <= valR (frem x y) * (if Rlt_bool (valR x) 0 then -1 else 1).
Proof.
  intros Fx Fy Nx Ny B1 B2 B3. change (bpow radix2 22) with 4194304 in B1. unfold frem.
  assert (isZero x = false) as ->. { destruct (isZero x) eqn:Z0; auto. apply isZero_ok in Z0. destruct Z0 as (_ & Z0). contradiction. }
  pose proof u32_val as U. pose proof tiny_150 as T.
  assert (FQ : finite (x / y)%b32).
  { assert (PY : 0 < Rabs (valR y)) by (apply Rabs_pos_lt; auto). apply div_R; auto. unfold Rdiv. rewrite Rabs_mult, Rabs_inv. 
    apply Rmult_le_reg_r with (Rabs (valR y)); auto. rewrite Rmult_assoc, Rinv_l by lra. rewrite Rmult_1_r. apply Rle_trans with (1 := B1).
    apply Rmult_le_compat_r; [lra|]. apply Rle_trans with (bpow radix2 22); [change (bpow radix2 22) with 4194304; lra|apply bpow_le; lia]. }
  destruct (patterned (x / y)%b32) as (s & E & M & EQ & _ & HE & HM). pose proof (trunc_pat s E M HE HM) as If. rewrite <- EQ in If. clear s E M EQ HE HM.
  set (f := trunc (x / y)%b32) in *. unfold integral in If. rewrite FQ in If. destruct If as (Ff & _ & n & Hn & Vf). 
  destruct (sgn_bounds _ _ Hn) as (S1 & S2).
  destruct (quotient x y f n Fx Fy Ff Ny B1 B2 B3 Vf) as (_ & EQ & Fm & D & Vm & DE & DB); [lra|].
  set (m := (x - y * f)%b32) in *. set (qf := (x / y)%b32) in *. clearbody m.
  set (X := valR x) in *. set (Y := valR y) in *. set (q := X / Y) in *.
  assert (AX : Rabs q * Rabs Y = Rabs X) by (rewrite <- Rabs_mult; f_equal; unfold q; field; auto).
  assert (PY : 0 < Rabs Y) by (apply Rabs_pos_lt; auto). pose proof (Rabs_pos X) as PX.
  assert (EM : Rabs (valR m - D) <= u32 * (2 * Rabs Y) + bpow radix2 (-150)).
  { rewrite Vm. apply Rle_trans with (1 := rnd_err D). apply Rplus_le_compat_r, Rmult_le_compat_l; [rewrite U; lra|auto]. }
  assert (Ebound : bpow radix2 (-21) = 8 * u32) by (rewrite U; change (bpow radix2 (-21)) with (/ 2097152); lra).
  assert (E148 : bpow radix2 (-148) = 4 * bpow radix2 (-150)) by (change (-148)%Z with (2 + -150)%Z; rewrite bpow_plus; reflexivity).
  (* the remainder lies on the side of x *)
  assert (SG : exists d, Rabs d <= u32 * Rabs q + bpow radix2 (-150) /\ 0 <= (q - IZR n + d) * q /\ Rabs (q - IZR n + d) <= 1).
  { exists (valR qf - q). split; auto. replace (q - IZR n + (valR qf - q)) with (valR qf - IZR n) by ring. split; [|lra].
    assert (SQ : 0 <= valR qf * q /\ (valR qf = 0 -> n = 0%Z)).
    { destruct (div_R x y Fx Fy Ny) as (_ & VQ).
      - fold X Y. fold q. assert (Rabs q <= 4194304) by (apply Rmult_le_reg_r with (Rabs Y); [auto|rewrite AX; exact B1]).
        apply Rle_trans with (bpow radix2 22); [change (bpow radix2 22) with 4194304; lra|apply bpow_le; lia].
      - fold X Y in VQ. fold q in VQ. fold qf in VQ. split.
        + rewrite VQ. destruct (Rle_or_lt 0 q) as [P|P]; [apply Rmult_le_pos; auto; apply rnd_nonneg; auto|].
          assert (rnd q <= 0) by (rewrite <- rnd_0; apply rnd_le; lra). nra.
        + intros Z0. destruct Hn as (_ & H1 & _). rewrite Z0, Rabs_R0 in H1. rewrite <- abs_IZR in H1. apply le_IZR in H1. lia. }
    destruct SQ as (SQ & SZ). destruct Hn as (H0 & H1 & H2).
    destruct (Req_dec (valR qf) 0) as [Z0|Z0]; [rewrite Z0, (SZ Z0); lra|].
    assert (0 <= (valR qf - IZR n) * valR qf).
    { unfold Rabs in *. destruct (Rcase_abs (valR qf)), (Rcase_abs (IZR n)); nra. }
    set (qv := valR qf) in *. set (dn := qv - IZR n) in *. clearbody dn qv. clear - SQ Z0 H. destruct (Rtotal_order qv 0) as [L|[L|L]]; [|contradiction|].
    - assert (dn <= 0) by nra. assert (q <= 0) by nra. nra.
    - assert (0 <= dn) by nra. assert (0 <= q) by nra. nra. }
  destruct SG as (d & Hd & SG & SB).
  assert (XN : X - IZR n * Y = (q - IZR n + d) * Y - d * Y) by (unfold q; field; auto).
  assert (DY : Rabs (d * Y) <= u32 * Rabs X + bpow radix2 (-150) * Rabs Y).
  { rewrite Rabs_mult, <- AX. replace (u32 * (Rabs q * Rabs Y) + bpow radix2 (-150) * Rabs Y) with ((u32 * Rabs q + bpow radix2 (-150)) * Rabs Y) by ring. apply Rmult_le_compat_r; lra. }
  assert (WB : Rabs ((q - IZR n + d) * Y) <= Rabs Y) by (rewrite Rabs_mult; rewrite <- (Rmult_1_l (Rabs Y)) at 2; apply Rmult_le_compat_r; lra).
  assert (WX : 0 <= (q - IZR n + d) * Y * X). { replace ((q - IZR n + d) * Y * X) with ((q - IZR n + d) * q * (Y * Y)) by (unfold q; field; auto). apply Rmult_le_pos; auto. apply Rle_0_sqr. }
  set (w := (q - IZR n + d) * Y) in *. 
  set (b := bpow radix2 (-150) * Rabs Y) in *. assert (Hb : 0 <= b <= / 16777216 / 16777216 * Rabs Y) by (unfold b; split; [apply Rmult_le_pos; lra|apply Rmult_le_compat_r; lra]).
  unfold mod_err. rewrite Ebound, E148. rewrite U in *. set (b0 := bpow radix2 (-150)) in *. 
  set (aX := Rabs X) in *. set (aY := Rabs Y) in *. clearbody aX aY.
  apply Rabs_le_inv in EM. apply Rabs_le_inv in DE. apply Rabs_le_inv in DY. apply Rabs_le_inv in WB.
  split; [exact Fm|]. exists n. split; [apply Rabs_le; lra|]. split; [apply Rabs_le; lra|].
  destruct (Rlt_bool_spec X 0) as [L|L].
  - assert (w <= 0) by nra. lra.
  - assert (0 <= w) by nra. lra.
Qed.
