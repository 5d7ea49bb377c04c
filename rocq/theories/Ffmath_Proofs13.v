(** exp, expm1, exp10, sinh, cosh, tanh: accuracy in binary32. *)
From Coq Require Import ZArith Reals Lra Lia Bool List.
From Flocq Require Import Core IEEE754.BinarySingleNaN IEEE754.Binary IEEE754.Bits.
From Verif Require Import Base BaseLemmas Arith Ext32 Bits32 PolyBound Ffmath_Model Ffmath2_Model Ffmath_Spec Ffmath_Proofs Ffmath_Proofs2 Ffmath_Proofs3 Float32 Ffmath_Proofs4 Ffmath_Proofs5 Ffmath_Proofs7 Ffmath_Proofs8 Ffmath_Proofs9 Ffmath_Proofs10 FloatApp Ffmath_Proofs12.
Import ListNotations.
Open Scope R_scope.

Lemma exp_small2 d : Rabs d <= / 4 -> Rabs (exp d - 1) <= Rabs d * (1 + Rabs d).
Proof.
  intros H. pose proof (exp_taylor 2 d ltac:(lra)) as T. cbn [sum_f_R0 pow] in T. destruct facts as (E0 & E1 & E2 & E3 & _). rewrite E0, E1, E2, E3 in T.
  pose proof (Rabs_pos d). set (a := Rabs d) in *. assert (A : - a <= d <= a) by (apply Rabs_le_inv; unfold a; lra). assert (A2 : d * d = a * a) by (unfold a; rewrite <- Rabs_mult, Rabs_pos_eq; nra).
  assert (a * (a * (a * 1)) <= / 4 * (a * a)) by nra. assert (T' : Rabs (exp d - 1 - d - d * d / 2) <= 3 * (/ 4 * (a * a)) / 6).
  { eapply Rle_trans; [|eapply Rle_trans; [exact T|]]; [right; f_equal; field|lra]. }
  apply Rabs_le_inv in T'. apply Rabs_le. nra.
Qed.

(** ** 2^X for a float near X *)
Lemma exp2_near y X d : finite y -> -126 < valR y < 255 / 2 -> Rabs (valR y - X) <= d -> d <= / 100 ->
  exists r, exp2 y = Ok r /\ finite r /\ Rabs (valR r - Rpower 2 X) <= (bpow radix2 (-21) + 7 / 10 * d) * Rpower 2 X.
Proof.
  intros F H D Hd. destruct (exp2_accurate y F H) as (r & E & Fr & V). exists r. split; [exact E|]. split; [exact Fr|]. clear E.
  set (w := valR y) in *. set (Y := Rpower 2 w) in *. set (Q := Rpower 2 X).
  assert (QP : 0 < Q) by apply exp_pos. pose proof ln2_bnd as LB. pose proof (Rabs_pos (w - X)).
  assert (R : Y = Q * exp ((w - X) * ln 2)). { unfold Y, Q, Rpower. rewrite <- exp_plus. f_equal. ring. }
  assert (K : Rabs ((w - X) * ln 2) <= d * (6932 / 10000)). { rewrite Rabs_mult, (Rabs_pos_eq (ln 2)) by lra. apply Rmult_le_compat; lra. }
  pose proof (exp_small2 ((w - X) * ln 2) ltac:(lra)) as S. pose proof (Rabs_pos ((w - X) * ln 2)). set (z := Rabs ((w - X) * ln 2)) in *.
  set (t := exp ((w - X) * ln 2)) in *. assert (S2 : Rabs (t - 1) <= 699 / 1000 * d). { eapply Rle_trans; [exact S|]. apply Rle_trans with (d * (6932 / 10000) * (1 + / 100 * (6932 / 10000))); [|lra]. apply Rmult_le_compat; lra. }
  assert (M : Rabs (Y - Q) <= 699 / 1000 * d * Q). { rewrite R. replace (Q * t - Q) with ((t - 1) * Q) by ring. rewrite Rabs_mult, (Rabs_pos_eq Q) by lra. apply Rmult_le_compat_r; lra. }
  change (bpow radix2 (-21)) with (/ 2097152) in *. assert (0 <= d * Q) by (apply Rmult_le_pos; lra). set (v := valR r) in *. clearbody v Y Q w. apply Rabs_le_inv in V. apply Rabs_le_inv in M. apply Rabs_le.
  assert (/ 2097152 * Y <= / 2097152 * (Q + 699 / 1000 * d * Q)) by lra. lra.
Qed.
Lemma mult_or x y : finite x -> finite y -> (finite (x * y)%b32 /\ valR (x * y)%b32 = rnd (valR x * valR y)) \/
  (fmax < Rabs (valR x * valR y) /\ (x * y)%b32 = B754_infinity 24 128 (xorb (Bsign 24 128 x) (Bsign 24 128 y))).
Proof.
  intros Fx Fy. pose proof (Bmult_correct 24 128 eq_refl eq_refl binop_nan_pl32 mode_NE x y) as H.
  rewrite fexp_FLT in H. change (round_mode mode_NE) with ZnearestE in H. destruct (Rlt_bool_spec (Rabs (rnd (valR x * valR y))) (bpow radix2 128)) as [L|L].
  - destruct H as (V & F1 & _). rewrite Fx, Fy in F1. left. split; [exact F1|exact V].
  - right. split.
    + destruct (Rle_or_lt (Rabs (valR x * valR y)) fmax) as [K|K]; [|exact K]. pose proof (ok_M _ K) as K2. rewrite Rlt_bool_false in K2 by exact L. discriminate K2.
    + unfold b32_mult. destruct (Bmult 24 128 eq_refl eq_refl binop_nan_pl32 mode_NE x y) eqn:E; cbn [B2FF binary_overflow overflow_to_inf] in H; try discriminate H. inversion H. reflexivity.
Qed.
Lemma fmax_1000 : 1000 <= fmax. Proof. pose proof fmax_15. assert (1000 <= bpow radix2 127) by apply big1. lra. Qed.
(** scaled arguments beyond the range *)
Lemma scaled_low c x C B : finite c -> valR c = C -> 0 < C -> Bsign 24 128 c = false -> is_nan 24 128 x = false -> ext32 x <= B -> C * B <= -127 -> exp2 (c * x)%b32 = Ok (flit 0 1).
Proof.
  intros Fc Vc PC Sc N H K. destruct (is_finite 24 128 x) eqn:Fx.
  - rewrite (ext32_finite x Fx) in H. assert (L : C * valR x <= -127). { apply Rle_trans with (C * B); [|lra]. apply Rmult_le_compat_l; lra. }
    destruct (mult_or c x Fc Fx) as [(F & V)|(_ & I)].
    + apply exp2_low. { destruct (c * x)%b32; auto; discriminate. } rewrite (ext32_finite _ F), V, Vc. assert (Q : finite (flit (-127) 1) /\ valR (flit (-127) 1) = -127) by cst. destruct Q as (_ & Q). apply Rle_trans with (-127); [|lra]. rewrite <- Q. apply rnd_le_val. rewrite Q. exact L.
    + rewrite I, Sc. pose proof (sign_R x Fx) as S. destruct (Bsign 24 128 x). { reflexivity. } exfalso. assert (0 <= C * valR x) by (apply Rmult_le_pos; lra). lra.
  - destruct x as [|s| |]; try discriminate. destruct s.
    + assert (I : (c * B754_infinity 24 128 true)%b32 = B754_infinity 24 128 true). { destruct c as [s|s|s pl|s m e q]; try discriminate; cbn in Vc, Sc. - lra. - subst s. reflexivity. } rewrite I. reflexivity.
    + exfalso. cbn [ext32] in H. pose proof (bp 128). assert (0 <= C * B) by (apply Rmult_le_pos; lra). lra.
Qed.
Lemma scaled_high c x C B : finite c -> valR c = C -> 0 < C -> Bsign 24 128 c = false -> is_nan 24 128 x = false -> B <= ext32 x -> 128 + / 131072 * 2 <= C * B -> exp2 (c * x)%b32 = Ok limInf.
Proof.
  intros Fc Vc PC Sc N H K. destruct (is_finite 24 128 x) eqn:Fx.
  - rewrite (ext32_finite x Fx) in H. assert (L : 128 + / 131072 * 2 <= C * valR x). { apply Rle_trans with (C * B); [lra|]. apply Rmult_le_compat_l; lra. }
    destruct (mult_or c x Fc Fx) as [(F & V)|(_ & I)].
    + apply exp2_high. { destruct (c * x)%b32; auto; discriminate. } rewrite (ext32_finite _ F), V, Vc. assert (Q : finite (ofU 1124073473) /\ valR (ofU 1124073473) = 128 + / 131072 * 2) by cst. destruct Q as (_ & Q). apply Rlt_le_trans with (128 + / 131072 * 2); [lra|]. rewrite <- Q. apply rnd_ge_val. rewrite Q. exact L.
    + rewrite I, Sc. pose proof (sign_R x Fx) as S. destruct (Bsign 24 128 x); [|reflexivity]. exfalso. assert (C * valR x <= 0) by nra. lra.
  - destruct x as [|s| |]; try discriminate. destruct s.
    + exfalso. cbn [ext32] in H. pose proof (bp 128). assert (C * B <= 0) by nra. lra.
    + assert (I : (c * B754_infinity 24 128 false)%b32 = B754_infinity 24 128 false). { destruct c as [s|s|s pl|s m e q]; try discriminate; cbn in Vc, Sc. - lra. - subst s. reflexivity. } rewrite I. reflexivity.
Qed.
Lemma scaled_near c x C k X : finite c -> valR c = C -> 1 <= C <= 4 -> finite x -> Rabs (C * valR x - X) <= k * Rabs (valR x) -> -125 <= C * valR x <= 127 -> 0 <= k <= / 1000000 ->
  exists r, exp2 (c * x)%b32 = Ok r /\ finite r /\ Rabs (valR r - Rpower 2 X) <= (bpow radix2 (-20) + 7 / 10 * (k + C * / 16777216) * Rabs (valR x)) * Rpower 2 X.
Proof.
  intros Fc Vc PC Fx D H Hk. pose proof fmax_1000. assert (A : Rabs (C * valR x) <= 127) by (apply Rabs_le; lra).
  destruct (mult_M c x Fc Fx) as (F & V); [rewrite Vc; lra|]. rewrite Vc in V. pose proof (rnd_err (C * valR x)) as RE. rewrite <- V, u32_val in RE. pose proof tiny_150 as T.
  assert (AX : Rabs (C * valR x) = C * Rabs (valR x)) by (rewrite Rabs_mult, (Rabs_pos_eq C); lra). rewrite AX in *. pose proof (Rabs_pos (valR x)) as PX.
  set (d := (k + C * / 16777216) * Rabs (valR x) + / 16777216 / 16777216).
  assert (AY : Rabs (valR x) <= 127). { apply Rle_trans with (C * Rabs (valR x)); [|lra]. rewrite <- (Rmult_1_l (Rabs (valR x))) at 1. apply Rmult_le_compat_r; lra. }
  assert (Sm : d <= / 100). { unfold d. assert ((k + C * / 16777216) * Rabs (valR x) <= (/ 1000000 + 4 * / 16777216) * 127) by (apply Rmult_le_compat; lra). lra. }
  destruct (exp2_near (c * x)%b32 X d F) as (r & E & Fr & Vr); [| |exact Sm|].
  - apply Rabs_le_inv in RE. assert (C * Rabs (valR x) <= 127) by lra. lra.
  - replace (valR (c * x)%b32 - X) with ((valR (c * x)%b32 - C * valR x) + (C * valR x - X)) by ring. eapply Rle_trans; [apply Rabs_triang|]. unfold d. lra.
  - exists r. split; [exact E|]. split; [exact Fr|]. eapply Rle_trans; [exact Vr|]. apply Rmult_le_compat_r; [left; apply exp_pos|]. change (bpow radix2 (-21)) with (/ 2097152). change (bpow radix2 (-20)) with (/ 1048576). unfold d. lra.
Qed.

(** ** exp *)
Lemma log2e_R : finite fLOG2E /\ valR fLOG2E = 12102203 / 8388608. Proof. cst. Qed.
Lemma rpower_exp x : Rpower 2 (x / ln 2) = exp x.
Proof. unfold Rpower. f_equal. field. pose proof ln2_bnd. lra. Qed.
Lemma log2e_err : Rabs (12102203 / 8388608 - / ln 2) <= 23 / 1000000000.
Proof.
  pose proof ln2_L2 as L. apply Rabs_le_inv in L. unfold L2 in L. assert (P : 693147180 / 1000000000 <= ln 2 <= 693147182 / 1000000000) by lra.
  assert (/ (693147182 / 1000000000) <= / ln 2 <= / (693147180 / 1000000000)) by (split; apply Rinv_le; lra). apply Rabs_le. lra.
Qed.
Lemma fexp_accurate x : finite x -> -86 <= valR x <= 88 -> exists r, fexp x = Ok r /\ finite r /\
  Rabs (valR r - exp (valR x)) <= (bpow radix2 (-20) + bpow radix2 (-23) * Rabs (valR x)) * exp (valR x).
Proof.
  intros F H. destruct log2e_R as (Fc & Vc). unfold fexp. pose proof (Rabs_pos (valR x)).
  destruct (scaled_near fLOG2E x (12102203 / 8388608) (23 / 1000000000) (valR x / ln 2) Fc Vc ltac:(lra) F) as (r & E & Fr & Vr); [|lra|lra|].
  - replace (12102203 / 8388608 * valR x - valR x / ln 2) with ((12102203 / 8388608 - / ln 2) * valR x) by (unfold Rdiv; ring). rewrite Rabs_mult. apply Rmult_le_compat_r; [lra|apply log2e_err].
  - rewrite rpower_exp in Vr. exists r. split; [exact E|]. split; [exact Fr|]. eapply Rle_trans; [exact Vr|]. apply Rmult_le_compat_r; [left; apply exp_pos|]. change (bpow radix2 (-23)) with (/ 8388608). lra.
Qed.
Lemma fexp_low x : is_nan 24 128 x = false -> ext32 x <= -89 -> fexp x = Ok (flit 0 1).
Proof. intros N H. destruct log2e_R as (Fc & Vc). unfold fexp. apply (scaled_low _ _ _ (-89) Fc Vc); auto; lra. Qed.
Lemma fexp_high x : is_nan 24 128 x = false -> 89 <= ext32 x -> fexp x = Ok limInf.
Proof. intros N H. destruct log2e_R as (Fc & Vc). unfold fexp. apply (scaled_high _ _ _ 89 Fc Vc); auto; lra. Qed.

(** ** exp10 *)
Lemma ln10_bnd : Rabs (ln 10 - 2302585093 / 1000000000) <= 5 / 1000000000.
Proof.
  assert (E : ln 10 = 3 * ln 2 + ln (5 / 4)). { replace 10 with (2 * (2 * (2 * (5 / 4)))) by field. rewrite !ln_mult by lra. ring. }
  pose proof ln2_L2 as L. apply Rabs_le_inv in L. unfold L2 in L.
  assert (K : 223143550 / 1000000000 <= ln (5 / 4) <= 223143552 / 1000000000).
  { apply ln_between; [lra|].
    pose proof (exp_taylor 9 (223143550 / 1000000000)) as H1. pose proof (exp_taylor 9 (223143552 / 1000000000)) as H2.
    rewrite Rabs_pos_eq in H1, H2 by lra. specialize (H1 ltac:(lra)). specialize (H2 ltac:(lra)).
    cbn [sum_f_R0] in H1, H2. destruct facts as (E0 & E1 & E2 & E3 & E4 & E5 & E6 & E7 & E8 & E9 & E10 & _).
    rewrite E0, E1, E2, E3, E4, E5, E6, E7, E8, E9, E10 in H1, H2. apply Rabs_le_inv in H1. apply Rabs_le_inv in H2. cbn [pow] in H1, H2. split; lra. }
  apply Rabs_le. lra.
Qed.
Lemma c10_R : finite (ofU 1079286392) /\ valR (ofU 1079286392) = 1741647 / 524288. Proof. cst. Qed.
Lemma c10_err : Rabs (1741647 / 524288 - ln 10 / ln 2) <= 85 / 1000000000.
Proof.
  pose proof ln2_L2 as L. apply Rabs_le_inv in L. unfold L2 in L. pose proof ln10_bnd as T. apply Rabs_le_inv in T.
  assert (D : ln 10 / ln 2 * ln 2 = ln 10) by (field; lra). set (q := ln 10 / ln 2) in *. clearbody q. apply Rabs_le. split; nra.
Qed.
Lemma rpower_10 x : Rpower 2 (x * (ln 10 / ln 2)) = Rpower 10 x.
Proof. unfold Rpower. f_equal. field. pose proof ln2_bnd. lra. Qed.
Lemma exp10_accurate x : finite x -> -37 <= valR x <= 38 -> exists r, exp10 x = Ok r /\ finite r /\
  Rabs (valR r - Rpower 10 (valR x)) <= (bpow radix2 (-20) + bpow radix2 (-21) * Rabs (valR x)) * Rpower 10 (valR x).
Proof.
  intros F H. destruct c10_R as (Fc & Vc). unfold exp10. pose proof (Rabs_pos (valR x)).
  destruct (scaled_near (ofU 1079286392) x (1741647 / 524288) (85 / 1000000000) (valR x * (ln 10 / ln 2)) Fc Vc ltac:(lra) F) as (r & E & Fr & Vr); [|lra|lra|].
  - replace (1741647 / 524288 * valR x - valR x * (ln 10 / ln 2)) with ((1741647 / 524288 - ln 10 / ln 2) * valR x) by ring. rewrite Rabs_mult. apply Rmult_le_compat_r; [lra|apply c10_err].
  - rewrite rpower_10 in Vr. exists r. split; [exact E|]. split; [exact Fr|]. eapply Rle_trans; [exact Vr|]. apply Rmult_le_compat_r; [left; apply exp_pos|]. change (bpow radix2 (-21)) with (/ 2097152). lra.
Qed.
Lemma exp10_low x : is_nan 24 128 x = false -> ext32 x <= -39 -> exp10 x = Ok (flit 0 1).
Proof. intros N H. destruct c10_R as (Fc & Vc). unfold exp10. apply (scaled_low _ _ _ (-39) Fc Vc); auto; lra. Qed.
Lemma exp10_high x : is_nan 24 128 x = false -> 39 <= ext32 x -> exp10 x = Ok limInf.
Proof. intros N H. destruct c10_R as (Fc & Vc). unfold exp10. apply (scaled_high _ _ _ 39 Fc Vc); auto; lra. Qed.

(** ** expm1, sinh, cosh *)
Lemma exp_range x : Rabs x <= 86 -> bpow radix2 (-125) <= exp x <= bpow radix2 125.
Proof.
  intros H. apply Rabs_le_inv in H. pose proof ln2_bnd as L. rewrite !bpow_exp. change (IZR radix2) with 2.
  assert (M : forall a b, a <= b -> exp a <= exp b). { intros a b [K| ->]; [left; apply exp_increasing; auto|lra]. }
  split; apply M; lra.
Qed.
Lemma eps_range x : Rabs x <= 88 -> / 1048576 <= bpow radix2 (-20) + bpow radix2 (-23) * Rabs x <= 12 / 1000000.
Proof. intros H. pose proof (Rabs_pos x). change (bpow radix2 (-20)) with (/ 1048576). change (bpow radix2 (-23)) with (/ 8388608). lra. Qed.
Lemma expm1_accurate x : finite x -> -86 <= valR x <= 88 -> exists r, expm1 x = Ok r /\ finite r /\
  Rabs (valR r - (exp (valR x) - 1)) <= (bpow radix2 (-19) + bpow radix2 (-23) * Rabs (valR x)) * exp (valR x) + bpow radix2 (-24).
Proof.
  intros F H. destruct (fexp_accurate x F H) as (y & E & Fy & Vy). unfold expm1. change (exp2 (fLOG2E * x)%b32) with (fexp x). rewrite E. cbn [bind]. clear E.
  destruct one_R as (F1 & V1). pose proof (eps_range (valR x) ltac:(apply Rabs_le; lra)) as ER. set (ep := bpow radix2 (-20) + bpow radix2 (-23) * Rabs (valR x)) in *.
  pose proof (exp_pos (valR x)) as EP. set (W := exp (valR x)) in *. set (v := valR y) in *. apply Rabs_le_inv in Vy. assert (0 <= ep * W <= 12 / 1000000 * W) by (split; [apply Rmult_le_pos; lra|apply Rmult_le_compat_r; lra]).
  destruct (minus_M y (flit 1 1) Fy F1) as (Fr & Vr). { rewrite V1. fold v. pose proof (finite_bnd y). fold v in H1. pose proof fmax_1000. apply Rabs_le. lra. }
  rewrite V1 in Vr. fold v in Vr. exists (y - flit 1 1)%b32. split; [reflexivity|]. split; [exact Fr|]. rewrite Vr.
  pose proof (fmt_sub_rel v 1 (format_val y) fmt_1) as RE. rewrite u32_val in RE. change (bpow radix2 (-24)) with (/ 16777216).
  assert (A : Rabs (v - 1) <= 1 + (1 + 12 / 1000000) * W) by (apply Rabs_le; lra).
  replace (bpow radix2 (-19) + bpow radix2 (-23) * Rabs (valR x)) with (ep + / 1048576). 2: { unfold ep. change (bpow radix2 (-20)) with (/ 1048576). change (bpow radix2 (-19)) with (/ 524288). lra. }
  apply Rabs_le_inv in RE. apply Rabs_le. lra.
Qed.
Lemma recip_exp x y : Rabs x <= 86 -> finite y -> Rabs (valR y - exp x) <= (bpow radix2 (-20) + bpow radix2 (-23) * Rabs x) * exp x ->
  let n := (flit 1 1 / y)%b32 in finite n /\ Rabs (valR n - exp (- x)) <= 107 / 100 * (bpow radix2 (-20) + bpow radix2 (-23) * Rabs x) * exp (- x) /\ 0 < valR y /\ 0 <= valR n.
Proof.
  intros Hx Fy V n. pose proof (exp_range x Hx) as XR. pose proof (eps_range x ltac:(lra)) as ER. set (ep := bpow radix2 (-20) + bpow radix2 (-23) * Rabs x) in *. rewrite exp_Ropp. pose proof (exp_pos x) as EP. set (W := exp x) in *.
  set (v := valR y) in *. apply Rabs_le_inv in V. assert (W1 : 0 <= ep * W <= 12 / 1000000 * W) by (split; [apply Rmult_le_pos; lra|apply Rmult_le_compat_r; lra]).
  assert (VP : 0 < v) by lra. destruct one_R as (F1 & V1).
  assert (IW : bpow radix2 (-125) <= / W <= bpow radix2 125). { pose proof (bpow_opp radix2 125 : bpow radix2 (-125) = _) as O1. pose proof (bpow_opp radix2 (-125) : bpow radix2 125 = _) as O2. split; [rewrite O1|rewrite O2]; apply Rinv_le; try lra; apply bp. }
  (* / v = / W * (1 + k) *)
  set (k := W / v - 1). assert (Kv : / v = / W * (1 + k)) by (unfold k; field; lra).
  assert (Kb : - (ep * (1001 / 1000)) <= k <= ep * (1001 / 1000)).
  { assert (KE : k * v = W - v) by (unfold k; field; lra). split.
    - apply Rmult_le_reg_r with v; auto. rewrite KE. assert (ep * ((1 - 12/1000000) * W) <= ep * v) by (apply Rmult_le_compat_l; lra). lra.
    - apply Rmult_le_reg_r with v; auto. rewrite KE. assert (ep * ((1 - 12/1000000) * W) <= ep * v) by (apply Rmult_le_compat_l; lra). lra. }
  pose proof fmax_15 as FM. assert (B125 : bpow radix2 127 = 4 * bpow radix2 125) by (change 127%Z with (2 + 125)%Z; rewrite bpow_plus; reflexivity). pose proof (bp 125).
  assert (IVb : / 2 * / W <= / v <= 2 * / W). { rewrite Kv. assert (0 < / W) by (apply Rinv_0_lt_compat; lra). split; nra. }
  assert (IV0 : 0 < / v) by (apply Rinv_0_lt_compat; lra).
  destruct (div_M (flit 1 1) y F1 Fy) as (Fn & Vn); [fold v; lra|rewrite V1; fold v; unfold Rdiv; rewrite Rmult_1_l, Rabs_pos_eq; lra|].
  rewrite V1 in Vn. fold v in Vn. unfold Rdiv in Vn. rewrite Rmult_1_l in Vn. fold n in Fn, Vn. split; [exact Fn|].
  destruct (rnd_rel (/ v)) as (e & He & RV). { rewrite Rabs_pos_eq by lra. apply Rle_trans with (/ 2 * bpow radix2 (-125)); [right; change (-126)%Z with (-1 + -125)%Z; rewrite bpow_plus; reflexivity|lra]. }
  apply abs_bound in He. rewrite u32_val in He. rewrite Vn, RV. split; [|split; [lra|apply Rmult_le_pos; lra]].
  rewrite Kv. replace (/ W * (1 + k) * (1 + e) - / W) with ((k + e + k * e) * / W) by ring.
  assert (0 < / W) by (apply Rinv_0_lt_compat; lra). rewrite Rabs_mult, (Rabs_pos_eq (/ W)) by lra. apply Rmult_le_compat_r; [lra|].
  assert (Hke : - (/ 16777216 * (1001 / 1000 * ep)) <= k * e <= / 16777216 * (1001 / 1000 * ep)). { apply Rabs_le_inv. rewrite Rabs_mult, Rmult_comm. apply Rmult_le_compat; try apply Rabs_pos; apply Rabs_le; lra. }
  apply Rabs_le. lra.
Qed.
Lemma half_tail (v t c : R) (h : float) ep : finite h -> valR h = v -> Rabs (v - 2 * t) <= 114 / 100 * ep * (2 * c) -> 1 <= c -> / 1048576 <= ep ->
  finite (flit 1 2 * h)%b32 /\ Rabs (valR (flit 1 2 * h)%b32 - t) <= 12 / 10 * ep * c.
Proof.
  intros F V H C P. destruct (half_R h F) as (F2 & V2). split; [exact F2|]. rewrite V2. pose proof (half_err h) as HE. rewrite V in *. pose proof tiny_150. apply Rabs_le_inv in HE. apply Rabs_le_inv in H.
  assert (/ 1048576 * 1 <= ep * c) by (apply Rmult_le_compat; lra). apply Rabs_le. lra.
Qed.
Lemma cosh_ge1 x : 1 <= cosh x.
Proof.
  unfold cosh. assert (P : 0 < exp x) by apply exp_pos. rewrite exp_Ropp. assert (I : exp x * / exp x = 1) by (field; lra). assert (0 < / exp x) by (apply Rinv_0_lt_compat; auto). set (a := exp x) in *. set (b := / a) in *. assert (a + b - 2 = b * ((a - 1) * (a - 1))). { replace (b * ((a - 1) * (a - 1))) with (a * (a * b) - 2 * (a * b) + b) by ring. rewrite I. ring. }
  assert (0 <= b * ((a - 1) * (a - 1))) by (apply Rmult_le_pos; [lra|apply Rle_0_sqr]). lra.
Qed.
Lemma sinh_cosh_accurate x : finite x -> Rabs (valR x) <= 86 -> 
  (exists r, fsinh x = Ok r /\ finite r /\ Rabs (valR r - sinh (valR x)) <= (bpow radix2 (-19) + bpow radix2 (-22) * Rabs (valR x)) * cosh (valR x)) /\
  (exists r, fcosh x = Ok r /\ finite r /\ Rabs (valR r - cosh (valR x)) <= (bpow radix2 (-19) + bpow radix2 (-22) * Rabs (valR x)) * cosh (valR x)).
Proof.
  intros F H. destruct (fexp_accurate x F) as (y & E & Fy & Vy); [apply Rabs_le_inv in H; lra|]. destruct (recip_exp _ y H Fy Vy) as (Fn & Vn & Y0 & N0).
  unfold fsinh, fcosh. rewrite E. cbn [bind]. clear E. set (n := (flit 1 1 / y)%b32) in *. clearbody n. pose proof (eps_range (valR x) ltac:(lra)) as ER. pose proof (exp_range _ H) as XR. pose proof (exp_range (- valR x) ltac:(rewrite Rabs_Ropp; lra)) as XR2.
  replace (bpow radix2 (-19) + bpow radix2 (-22) * Rabs (valR x)) with (2 * (bpow radix2 (-20) + bpow radix2 (-23) * Rabs (valR x))).
  2: { change (bpow radix2 (-19)) with (/ 524288). change (bpow radix2 (-22)) with (/ 4194304). change (bpow radix2 (-20)) with (/ 1048576). change (bpow radix2 (-23)) with (/ 8388608). lra. }
  set (ep := bpow radix2 (-20) + bpow radix2 (-23) * Rabs (valR x)) in *. pose proof (cosh_ge1 (valR x)) as C1.
  pose proof fmax_15 as FM. assert (B125 : bpow radix2 127 = 4 * bpow radix2 125) by (change 127%Z with (2 + 125)%Z; rewrite bpow_plus; reflexivity). pose proof (bp 125).
  assert (SD : sinh (valR x) = (exp (valR x) - exp (- valR x)) / 2) by reflexivity. assert (CD : cosh (valR x) = (exp (valR x) + exp (- valR x)) / 2) by reflexivity.
  set (W := exp (valR x)) in *. set (Z := exp (- valR x)) in *. assert (0 < W /\ 0 < Z) as (W0 & Z0) by (split; apply exp_pos).
  set (S := sinh (valR x)) in *. set (C := cosh (valR x)) in *. clearbody S C W Z.
  apply Rabs_le_inv in Vy. apply Rabs_le_inv in Vn. set (v := valR y) in *. set (m := valR n) in *.
  assert (EW : 0 <= ep * W <= 12 / 1000000 * W) by (split; [apply Rmult_le_pos; lra|apply Rmult_le_compat_r; lra]). assert (EZ : 0 <= ep * Z <= 12 / 1000000 * Z) by (split; [apply Rmult_le_pos; lra|apply Rmult_le_compat_r; lra]).
  assert (EC : ep * C = (ep * W + ep * Z) / 2) by (rewrite CD; field).
  split.
  - destruct (minus_M y n Fy Fn) as (Fd & Vd). { fold v m. apply Rabs_le. lra. } fold v m in Vd.
    pose proof (fmt_sub_rel v m (format_val y) (format_val n)) as RE. rewrite <- Vd, u32_val in RE. assert (A : Rabs (v - m) <= (1 + 13 / 1000000) * (2 * C)) by (apply Rabs_le; lra).
    destruct (half_tail (valR (y - n)%b32) S C (y - n)%b32 ep Fd eq_refl) as (Fr & Vr); [|exact C1|lra|].
    + apply Rabs_le_inv in RE. assert (/ 16777216 * Rabs (v - m) <= 64 / 1000 * (ep * (2 * C))). { assert (/ 1048576 * C <= ep * C) by (apply Rmult_le_compat_r; lra). lra. } apply Rabs_le. lra.
    + eexists. split; [reflexivity|]. split; [exact Fr|]. lra.
  - destruct (plus_M y n Fy Fn) as (Fd & Vd). { fold v m. apply Rabs_le. lra. } fold v m in Vd.
    pose proof (fmt_plus_rel v m (format_val y) (format_val n)) as RE. rewrite <- Vd, u32_val in RE. assert (A : Rabs (v + m) <= (1 + 13 / 1000000) * (2 * C)) by (apply Rabs_le; lra).
    destruct (half_tail (valR (y + n)%b32) C C (y + n)%b32 ep Fd eq_refl) as (Fr & Vr); [|exact C1|lra|].
    + apply Rabs_le_inv in RE. assert (/ 16777216 * Rabs (v + m) <= 64 / 1000 * (ep * (2 * C))). { assert (/ 1048576 * C <= ep * C) by (apply Rmult_le_compat_r; lra). lra. } apply Rabs_le. lra.
    + eexists. split; [reflexivity|]. split; [exact Fr|]. lra.
Qed.

(** ** tanh *)
Lemma fexp_nonneg y : is_nan 24 128 y = false -> ext32 y <= 88 -> exists r, fexp y = Ok r /\ finite r /\ 0 <= valR r <= 11 / 10 * bpow radix2 127.
Proof.
  intros N H. pose proof big1 as BG. destruct (Rle_or_lt (ext32 y) (-89)) as [L|L].
  - exists (flit 0 1). split; [apply fexp_low; auto|]. destruct zero_R as (F0 & V0). rewrite V0. split; [exact F0|lra].
  - assert (F : finite y). { pose proof (bp 128). assert (1000 <= bpow radix2 128) by (rewrite b128; pose proof big1; lra). destruct y as [s|s|s pl|s m e q]; auto; try discriminate. cbn [ext32] in H, L. destruct s; lra. }
    rewrite ext32_finite in H, L by auto. destruct log2e_R as (Fc & Vc). pose proof fmax_1000. unfold fexp.
    assert (B : -129 <= 12102203 / 8388608 * valR y <= 127) by lra.
    destruct (mult_M fLOG2E y Fc F) as (F2 & V2). { rewrite Vc. apply Rabs_le. lra. } rewrite Vc in V2.
    assert (U : valR (fLOG2E * y)%b32 <= 127). { rewrite V2. assert (Q : finite (flit 127 1) /\ valR (flit 127 1) = 127) by cst. destruct Q as (_ & Q). rewrite <- Q. apply rnd_le_val. rewrite Q. lra. }
    destruct (Rle_or_lt (valR (fLOG2E * y)%b32) (-126)) as [K|K].
    + exists (flit 0 1). split. { apply exp2_low. - destruct (fLOG2E * y)%b32; auto; discriminate. - rewrite ext32_finite; auto. } destruct zero_R as (F0 & V0). rewrite V0. split; [exact F0|lra].
    + destruct (exp2_accurate (fLOG2E * y)%b32 F2 ltac:(lra)) as (r & E & Fr & Vr). exists r. split; [exact E|]. split; [exact Fr|]. apply Rabs_le_inv in Vr. change (bpow radix2 (-21)) with (/ 2097152) in Vr. assert (0 < Rpower 2 (valR (fLOG2E * y)%b32)) by apply exp_pos.
      assert (Rpower 2 (valR (fLOG2E * y)%b32) <= bpow radix2 127). { rewrite bpow_exp. change (exp (127 * ln (IZR radix2))) with (Rpower 2 127). apply Rle_Rpower; lra. } lra.
Qed.
Lemma m2_R x : finite x -> Rabs (valR x) <= 500 -> finite (flit (-2) 1 * x)%b32 /\ valR (flit (-2) 1 * x)%b32 = - 2 * valR x.
Proof.
  intros F H. assert (Q : finite (flit (-2) 1) /\ valR (flit (-2) 1) = -2) by cst. destruct Q as (F2 & V2). pose proof fmax_1000.
  destruct (mult_M (flit (-2) 1) x F2 F) as (Fr & Vr). { rewrite V2, Rabs_mult, Rabs_left1 by lra. lra. } split; [exact Fr|]. rewrite Vr, V2.
  replace (-2 * valR x) with (- (2 * valR x)) by ring. rewrite rnd_opp, (rnd_fmt _ (dbl_fmt x)). ring.
Qed.
(** the rational function of a non-negative float *)
Lemma ratio_R e : finite e -> 0 <= valR e -> valR e <= 11 / 10 * bpow radix2 127 -> let q := ((flit 1 1 - e) / (flit 1 1 + e))%b32 in
  finite q /\ Rabs (valR q) <= 1 /\ Rabs (valR q - (1 - valR e) / (1 + valR e)) <= 3 / 10000000.
Proof.
  intros F P U q. destruct one_R as (F1 & V1). pose proof fmax_15 as FM. pose proof big1 as BG. set (v := valR e) in *.
  destruct (minus_M (flit 1 1) e F1 F) as (Fm & Vm). { rewrite V1. fold v. apply Rabs_le. lra. } rewrite V1 in Vm. fold v in Vm.
  destruct (plus_M (flit 1 1) e F1 F) as (Fp & Vp). { rewrite V1. fold v. apply Rabs_le. lra. } rewrite V1 in Vp. fold v in Vp.
  assert (D1 : 1 <= rnd (1 + v)). { rewrite <- rnd_1 at 1. apply rnd_le. lra. }
  assert (MD : Rabs (rnd (1 - v)) <= rnd (1 + v)). { rewrite <- rnd_abs. apply rnd_le. apply Rabs_le. lra. }
  assert (QB : Rabs (rnd (1 - v) / rnd (1 + v)) <= 1). { unfold Rdiv. rewrite Rabs_mult, (Rabs_pos_eq (/ _)) by (left; apply Rinv_0_lt_compat; lra). apply Rmult_le_reg_r with (rnd (1 + v)); [lra|]. rewrite Rmult_assoc, Rinv_l by lra. lra. }
  destruct (div_M (flit 1 1 - e)%b32 (flit 1 1 + e)%b32 Fm Fp) as (Fq & Vq). { rewrite Vp. lra. } { rewrite Vm, Vp. pose proof fmax_1000. lra. }
  rewrite Vm, Vp in Vq. fold q in Fq, Vq. split; [exact Fq|]. split.
  - rewrite Vq. apply (rnd_abs_le _ 0); [lia|]. exact QB.
  - pose proof (fmt_sub_rel 1 v fmt_1 (format_val e)) as E1. pose proof (fmt_plus_rel 1 v fmt_1 (format_val e)) as E2. rewrite u32_val in E1, E2.
    set (N := rnd (1 - v)) in *. set (D := rnd (1 + v)) in *. rewrite Vq. pose proof (rnd_err (N / D)) as E3. rewrite u32_val in E3. pose proof tiny_150.
    rewrite (Rabs_pos_eq (1 + v)) in E2 by lra. assert (AM : Rabs (1 - v) <= 1 + v) by (apply Rabs_le; lra).
    assert (K : Rabs (N / D - (1 - v) / (1 + v)) <= 2 * / 16777216 * (1 + / 1000)).
    { replace (N / D - (1 - v) / (1 + v)) with (((N - (1 - v)) * (1 + v) - (1 - v) * (D - (1 + v))) / (D * (1 + v))) by (field; lra).
      assert (DP : 0 < D * (1 + v)) by (apply Rmult_lt_0_compat; lra). unfold Rdiv. rewrite Rabs_mult, (Rabs_pos_eq (/ _)) by (left; apply Rinv_0_lt_compat; auto).
      apply Rmult_le_reg_r with (D * (1 + v)); auto. rewrite Rmult_assoc, Rinv_l by lra. rewrite Rmult_1_r.
      assert (T1 : Rabs ((N - (1 - v)) * (1 + v)) <= / 16777216 * (1 + v) * (1 + v)). { rewrite Rabs_mult, (Rabs_pos_eq (1 + v)) by lra. apply Rmult_le_compat_r; lra. }
      assert (T2 : Rabs ((1 - v) * (D - (1 + v))) <= (1 + v) * (/ 16777216 * (1 + v))). { rewrite Rabs_mult. apply Rmult_le_compat; try apply Rabs_pos; auto. }
      assert (T3 : (1 + v) * (1 - / 16777216) <= D) by (apply Rabs_le_inv in E2; lra). assert (T4 : (1 + v) * (1 - / 16777216) * (1 + v) <= D * (1 + v)) by (apply Rmult_le_compat_r; lra).
      assert (0 <= (1 + v) * (1 + v)) by apply Rle_0_sqr. unfold Rminus at 1. eapply Rle_trans; [apply Rabs_triang|]. rewrite Rabs_Ropp. lra. }
    replace (rnd (N / D) - (1 - v) / (1 + v)) with ((rnd (N / D) - N / D) + (N / D - (1 - v) / (1 + v))) by ring. eapply Rle_trans; [apply Rabs_triang|]. lra.
Qed.
Lemma tanh_exp x : tanh x = (1 - exp (- 2 * x)) / (1 + exp (- 2 * x)).
Proof.
  unfold tanh, sinh, cosh. replace (- 2 * x) with (- x + - x) by ring. rewrite exp_plus, exp_Ropp. assert (0 < exp x) by apply exp_pos. field. repeat split; nra.
Qed.
Lemma tanh_range x : is_nan 24 128 x = false -> -44 <= ext32 x -> exists r, ftanh x = Ok r /\ finite r /\ Rabs (valR r) <= 1.
Proof.
  intros N H. unfold ftanh. assert (K : is_nan 24 128 (flit (-2) 1 * x)%b32 = false /\ ext32 (flit (-2) 1 * x)%b32 <= 88).
  { destruct (is_finite 24 128 x) eqn:F.
    - rewrite ext32_finite in H by auto. assert (Q : finite (flit (-2) 1) /\ valR (flit (-2) 1) = -2) by cst. destruct Q as (F2 & V2).
      destruct (mult_or (flit (-2) 1) x F2 F) as [(Fr & Vr)|(B & I)].
      + split; [destruct (flit (-2) 1 * x)%b32; auto; discriminate|]. rewrite (ext32_finite _ Fr), Vr, V2. assert (Q : finite (flit 88 1) /\ valR (flit 88 1) = 88) by cst. destruct Q as (_ & Q). rewrite <- Q. apply rnd_le_val. rewrite Q. lra.
      + rewrite I. split; [reflexivity|]. pose proof (sign_R x F) as S. change (Bsign 24 128 (flit (-2) 1)) with true. rewrite V2 in B. destruct (Bsign 24 128 x); cbn [xorb ext32]. 
        * exfalso. pose proof fmax_1000. rewrite Rabs_pos_eq in B by lra. lra.
        * pose proof (bp 128). lra.
    - destruct x as [|s| |]; try discriminate. destruct s; [cbn [ext32] in H; assert (1000 <= bpow radix2 128) by (rewrite b128; pose proof big1; lra); lra|].
      split; [reflexivity|]. change (ext32 (flit (-2) 1 * B754_infinity 24 128 false)%b32) with (- bpow radix2 128). pose proof (bp 128). lra. }
  destruct K as (K1 & K2). destruct (fexp_nonneg _ K1 K2) as (e & E & Fe & Ve). rewrite E. cbn [bind].
  destruct (ratio_R e Fe (proj1 Ve) (proj2 Ve)) as (Fq & Bq & _). eexists. split; [reflexivity|]. auto.
Qed.
Lemma tanh_accurate x : finite x -> -44 <= valR x <= 43 -> exists r, ftanh x = Ok r /\ finite r /\
  Rabs (valR r - tanh (valR x)) <= bpow radix2 (-20) + bpow radix2 (-22) * Rabs (valR x).
Proof.
  intros F H. destruct (m2_R x F) as (F2 & V2); [apply Rabs_le; lra|]. destruct (fexp_accurate (flit (-2) 1 * x)%b32 F2) as (e & E & Fe & Ve); [rewrite V2; lra|].
  assert (NN : is_nan 24 128 (flit (-2) 1 * x)%b32 = false) by (destruct (flit (-2) 1 * x)%b32; auto; discriminate).
  destruct (fexp_nonneg (flit (-2) 1 * x)%b32 NN) as (e' & E' & _ & B); [rewrite ext32_finite, V2 by auto; lra|]. rewrite E in E'. injection E' as <-.
  unfold ftanh. rewrite E. cbn [bind]. destruct (ratio_R e Fe (proj1 B) (proj2 B)) as (Fq & _ & Vq). eexists. split; [reflexivity|]. split; [exact Fq|]. clear E Fq.
  set (q := valR ((flit 1 1 - e) / (flit 1 1 + e))%b32) in *. clearbody q. rewrite tanh_exp. rewrite V2 in Ve. pose proof (eps_range (-2 * valR x) ltac:(apply Rabs_le; lra)) as ER.
  set (ep := bpow radix2 (-20) + bpow radix2 (-23) * Rabs (-2 * valR x)) in *. assert (EQ : bpow radix2 (-20) + bpow radix2 (-22) * Rabs (valR x) = ep).
  { unfold ep. rewrite Rabs_mult, (Rabs_left (-2)) by lra. change (bpow radix2 (-22)) with (/ 4194304). change (bpow radix2 (-23)) with (/ 8388608). lra. } rewrite EQ.
  pose proof (exp_pos (-2 * valR x)) as EP. set (W := exp (-2 * valR x)) in *. set (v := valR e) in *. clearbody W v ep.
  assert (K : Rabs ((1 - v) / (1 + v) - (1 - W) / (1 + W)) <= 501 / 1000 * ep).
  { replace ((1 - v) / (1 + v) - (1 - W) / (1 + W)) with (2 * (W - v) / ((1 + v) * (1 + W))) by (field; lra).
    assert (DP : 0 < (1 + v) * (1 + W)) by (apply Rmult_lt_0_compat; lra). unfold Rdiv at 1. rewrite Rabs_mult, (Rabs_pos_eq (/ _)) by (left; apply Rinv_0_lt_compat; auto).
    apply Rmult_le_reg_r with ((1 + v) * (1 + W)); auto. rewrite Rmult_assoc, Rinv_l by lra. rewrite Rmult_1_r, Rabs_mult, (Rabs_pos_eq 2), Rabs_minus_sym by lra.
    apply Rabs_le_inv in Ve. assert (ep * W <= 12 / 1000000 * W) by (apply Rmult_le_compat_r; lra). 
    assert (D1 : (1 + W) * (1 - 12 / 1000000) <= 1 + v) by lra. assert (D2 : (1 + W) * (1 - 12 / 1000000) * (1 + W) <= (1 + v) * (1 + W)) by (apply Rmult_le_compat_r; lra).
    assert (D3 : 4 * W <= (1 + W) * (1 + W)). { assert (0 <= (1 - W) * (1 - W)) by apply Rle_0_sqr. lra. }
    assert (D4 : ep * (4 * W * (1 - 12 / 1000000)) <= ep * ((1 + v) * (1 + W))) by (apply Rmult_le_compat_l; lra).
    assert (Rabs (v - W) <= ep * W) by (apply Rabs_le; lra). lra. }
  replace (q - (1 - W) / (1 + W)) with ((q - (1 - v) / (1 + v)) + ((1 - v) / (1 + v) - (1 - W) / (1 + W))) by ring. eapply Rle_trans; [apply Rabs_triang|]. lra.
Qed.
Lemma tanh_negative x : is_nan 24 128 x = false -> ext32 x <= -45 -> exists r, ftanh x = Ok r /\ is_nan 24 128 r = true.
Proof.
  intros N H. unfold ftanh. assert (K : is_nan 24 128 (flit (-2) 1 * x)%b32 = false /\ 89 <= ext32 (flit (-2) 1 * x)%b32).
  { destruct (is_finite 24 128 x) eqn:F.
    - rewrite ext32_finite in H by auto. assert (Q : finite (flit (-2) 1) /\ valR (flit (-2) 1) = -2) by cst. destruct Q as (F2 & V2).
      destruct (mult_or (flit (-2) 1) x F2 F) as [(Fr & Vr)|(B & I)].
      + split; [destruct (flit (-2) 1 * x)%b32; auto; discriminate|]. rewrite (ext32_finite _ Fr), Vr, V2. assert (Q : finite (flit 89 1) /\ valR (flit 89 1) = 89) by cst. destruct Q as (_ & Q). rewrite <- Q. apply rnd_ge_val. rewrite Q. lra.
      + rewrite I. split; [reflexivity|]. pose proof (sign_R x F) as S. change (Bsign 24 128 (flit (-2) 1)) with true. assert (1000 <= bpow radix2 128) by (rewrite b128; pose proof big1; lra).
        destruct (Bsign 24 128 x); cbn [xorb ext32]; lra.
    - destruct x as [|s| |]; try discriminate. assert (1000 <= bpow radix2 128) by (rewrite b128; pose proof big1; lra). destruct s; [|cbn [ext32] in H; lra].
      split; [reflexivity|]. change (ext32 (flit (-2) 1 * B754_infinity 24 128 true)%b32) with (bpow radix2 128). lra. }
  destruct K as (K1 & K2). rewrite (fexp_high _ K1 K2). eexists. split; [reflexivity|]. vm_compute. reflexivity.
Qed.
