(** More proofs about Q16.16 numbers: division, conversions, angle wrapping,
    square root and text. *)
From Coq Require Import ZArith List Bool Lia ZifyBool QArith.
From Verif Require Import Base BaseLemmas Fp16_Model Fp16_Spec Fp16_Proofs.
Import ListNotations.
Open Scope Z_scope.
Ltac Zify.zify_post_hook ::= Z.div_mod_to_equations.

(** ** Division *)

Lemma nearest_pos N D r : 0 <= N -> 0 < D -> nearest N D r -> r = (2 * N + D) / (2 * D).
Proof.
  intros HN HD [H1 H2]. rewrite (Z.abs_eq D) in * by lia.
  assert (Hr : 0 <= r).
  { destruct (Z_lt_le_dec r 0); auto. assert (r * D <= - D) by nia. lia. }
  assert (Hrd : 0 <= r * D) by nia. rewrite (Z.abs_eq (r * D)), (Z.abs_eq N) in H2 by lia.
  apply Z.div_unique with (2 * N + D - 2 * (r * D)); lia.
Qed.

Lemma nearest_opp_l N D r : nearest N D r -> nearest (- N) D (- r).
Proof.
  unfold nearest. replace (- N - - r * D) with (- (N - r * D)) by ring.
  replace (- r * D) with (- (r * D)) by ring. rewrite !Z.abs_opp. auto.
Qed.
Lemma nearest_opp_r N D r : nearest N D r -> nearest N (- D) (- r).
Proof. unfold nearest. replace (- r * - D) with (r * D) by ring. rewrite Z.abs_opp. auto. Qed.

Lemma nearest_quot x y r : y <> 0 -> nearest (x * 65536) y r ->
  r = (if xorb (x <? 0) (y <? 0) then -1 else 1) * quot_mag x y.
Proof.
  intros Hy Hr. unfold quot_mag.
  destruct (Z.ltb_spec x 0), (Z.ltb_spec y 0); cbn [xorb].
  - apply nearest_opp_l, nearest_opp_r, nearest_pos in Hr; try lia.
    rewrite !Z.abs_neq by lia. replace r with (- - r) by ring. rewrite Hr. rewrite Z.mul_1_l. f_equal; lia.
  - apply nearest_opp_l, nearest_pos in Hr; try lia.
    rewrite (Z.abs_neq x), (Z.abs_eq y) by lia. replace (2 * - x * 65536) with (2 * - (x * 65536)) by ring. lia.
  - apply nearest_opp_r, nearest_pos in Hr; try lia.
    rewrite (Z.abs_eq x), (Z.abs_neq y) by lia. replace (2 * x * 65536) with (2 * (x * 65536)) by ring. lia.
  - apply nearest_pos in Hr; try lia.
    rewrite !Z.abs_eq by lia. replace (2 * x * 65536) with (2 * (x * 65536)) by ring. lia.
Qed.

Lemma div_correct x y r : raw x -> raw y -> y <> 0 -> x <> sentinel -> y <> sentinel ->
  nearest (x * 65536) y r ->
  (- 2 ^ 31 < r < 2 ^ 31 -> div x y = Ok r) /\
  (r = - 2 ^ 31 -> div x y = if Z.abs x <=? 2 ^ 15 * Z.abs y then Ub else Ok sentinel) /\
  (r < - 2 ^ 31 \/ 2 ^ 31 <= r -> div x y = Ok sentinel).
Proof.
  intros Hx Hy Hy0 Hxs Hys Hr. rewrite div_char by assumption.
  apply nearest_quot in Hr; [|assumption].
  assert (HY : 0 < Z.abs y) by lia. 
  assert (Hbig : 2 ^ 15 * Z.abs y < Z.abs x -> 2 ^ 31 <= quot_mag x y).
  { intros H. unfold quot_mag. apply Z.div_le_lower_bound; lia. }
  assert (Hsmall : Z.abs x <= 2 ^ 15 * Z.abs y -> quot_mag x y <= 2 ^ 31).
  { intros H. unfold quot_mag. apply Z.lt_succ_r. apply Z.div_lt_upper_bound; lia. }
  assert (Hpos : 0 <= quot_mag x y) by (unfold quot_mag; apply Z.div_pos; lia).
  set (q := quot_mag x y) in *. clearbody q. clear Hx Hy Hxs Hys.
  set (X := Z.abs x) in *. set (Y := Z.abs y) in *. set (sg := xorb (x <? 0) (y <? 0)) in *.
  clearbody X Y sg. clear x y Hy0.
  destruct (Z.ltb_spec (2 ^ 15 * Y) X) as [H|H].
  - specialize (Hbig H). replace (X <=? 2 ^ 15 * Y) with false by lia.
    destruct sg; (split; [|split]); intros Hrr; try reflexivity; lia.
  - specialize (Hsmall H). replace (X <=? 2 ^ 15 * Y) with true by lia. rewrite s32_cases by lia.
    replace (q <? - 2 ^ 31) with false by lia.
    destruct (Z.ltb_spec q (2 ^ 31)).
    + destruct sg; split; [|split| |split]; intros Hrr; try lia; [rewrite i32_ok by (unfold raw; lia)|]; f_equal; lia.
    + assert (q = 2 ^ 31) by lia. subst q.
      destruct sg; split; [|split| |split]; intros Hrr; try lia.
      * apply i32_ub. unfold raw. lia.
      * f_equal.
Qed.

Lemma div_zero x : div x 0 = Ok (-2147483647).
Proof. reflexivity. Qed.

Lemma div_sentinel x y : raw x -> raw y -> y <> 0 -> x = sentinel \/ y = sentinel -> div x y = Ub.
Proof.
  unfold raw, sentinel. intros Hx Hy Hy0 H. unfold div. replace (y =? 0) with false by lia.
  destruct H as [-> | ->].
  - rewrite (i32_ub (if 0 <=? - 2 ^ 31 then - 2 ^ 31 else - - 2 ^ 31)) by (unfold raw; vm_compute; intros []; congruence).
    reflexivity.
  - rewrite (i32_ub (if 0 <=? - 2 ^ 31 then - 2 ^ 31 else - - 2 ^ 31)) by (unfold raw; vm_compute; intros []; congruence).
    destruct (i32 _); reflexivity.
Qed.

(** ** Conversions *)

Lemma toInt_correct x r : raw x -> nearest x 65536 r ->
  (Z.abs x < 2 ^ 31 - 2 ^ 15 -> toInt x = Ok r).
Proof.
  intros Hx Hr H. apply nearest_formula in Hr. unfold neg_bit in Hr. unfold toInt, flag_rounding, one.
  change (Z.shiftr 65536 1) with 32768. destruct (Z.leb_spec 0 x).
  - rewrite i32_ok by (unfold raw; lia). cbn [bind]. f_equal. replace (x <? 0) with false in Hr by lia.
    rewrite Z.quot_div_nonneg by lia. lia.
  - rewrite i32_ok by (unfold raw; lia). cbn [bind]. f_equal. replace (x <? 0) with true in Hr by lia.
    replace (x - 32768) with (- (- x + 32768)) by lia. rewrite Z.quot_opp_l, Z.quot_div_nonneg by lia. lia.
Qed.

Lemma toInt_ub x : raw x -> 2 ^ 31 - 2 ^ 15 <= x \/ x < - 2 ^ 31 + 2 ^ 15 -> toInt x = Ub.
Proof.
  intros Hx H. unfold toInt, flag_rounding, one. change (Z.shiftr 65536 1) with 32768.
  unfold raw in *. destruct (Z.leb_spec 0 x); rewrite i32_ub by (unfold raw; lia); reflexivity.
Qed.

Lemma fromInt_char k : raw k -> fromInt k = s32 (k * 65536).
Proof.
  intros Hk. unfold fromInt. rewrite s32_u32, Z.shiftl_mul_pow2 by lia. unfold s32, u32. change (2 ^ 16) with 65536. lia.
Qed.

Lemma fromInt_ok k : -32768 <= k <= 32767 -> fromInt k = k * 65536.
Proof. intros H. rewrite fromInt_char by (unfold raw; lia). apply s32_id. unfold raw. lia. Qed.

Lemma int_roundtrip k : -32767 <= k <= 32767 -> toInt (fromInt k) = Ok k.
Proof.
  intros H. rewrite fromInt_ok by lia. apply toInt_correct; unfold raw; try lia.
  apply nearest_formula. unfold neg_bit. destruct (Z.ltb_spec (k * 65536) 0); lia.
Qed.

Lemma land_int z : Z.land z (s32 integer_mask) = (z / 65536) * 65536.
Proof.
  change (s32 integer_mask) with (Z.lnot (Z.ones 16)). rewrite <- Z.ldiff_land, Z.ldiff_ones_r by lia.
  rewrite Z.shiftl_mul_pow2, Z.shiftr_div_pow2 by lia. reflexivity.
Qed.

Lemma floor_ok x : raw x -> floor x = (x / 65536) * 65536.
Proof.
  intros Hx. unfold floor.
  replace (Z.land (u32 x) integer_mask) with (u32 x / 65536 * 65536).
  - unfold s32, u32, raw in *. lia.
  - change integer_mask with (Z.ones 32 - Z.ones 16). rewrite <- (Z.shiftl_mul_pow2 _ 16), <- (Z.shiftr_div_pow2 _ 16) by lia.
    apply Z.bits_inj'. intros n Hn. rewrite Z.shiftl_spec, Z.land_spec by lia.
    replace (Z.ones 32 - Z.ones 16) with (Z.shiftl (Z.ones 16) 16) by reflexivity. rewrite Z.shiftl_spec by lia.
    destruct (Z_lt_le_dec n 16).
    + rewrite (Z.testbit_neg_r (Z.ones 16)), Z.testbit_neg_r by lia. now rewrite andb_false_r.
    + rewrite Z.shiftr_spec by lia. replace (n - 16 + 16) with n by lia.
      destruct (Z_lt_le_dec n 32).
      * rewrite Z.ones_spec_low by lia. now rewrite andb_true_r.
      * rewrite Z.ones_spec_high by lia. rewrite andb_false_r. unfold u32. change 4294967296 with (2 ^ 32).
        apply Z.mod_pow2_bits_high. lia.
Qed.

Lemma land_frac z : Z.land z fraction_mask = z mod 65536.
Proof. change fraction_mask with (Z.ones 16). apply Z.land_ones. lia. Qed.

Lemma ceil_ok x : raw x -> ceil x = if x <=? 32767 * 65536 then Ok (- ((- x) / 65536) * 65536) else Ub.
Proof.
  intros Hx. unfold ceil. cbv zeta. rewrite land_int, land_frac. unfold raw in Hx.
  destruct (Z.leb_spec x (32767 * 65536)), (Z.eqb_spec (x mod 65536) 0); cbn [negb].
  - f_equal. lia.
  - unfold one. rewrite i32_ok by (unfold raw; lia). f_equal. lia.
  - exfalso. lia.
  - apply i32_ub. unfold raw, one. lia.
Qed.

(** ** Comparisons *)

Lemma valq_lt x y : (valq x < valq y)%Q <-> x < y.
Proof. unfold valq, Qlt. cbn. lia. Qed.
Lemma valq_le x y : (valq x <= valq y)%Q <-> x <= y.
Proof. unfold valq, Qle. cbn. lia. Qed.
Lemma valq_eq x y : (valq x == valq y)%Q <-> x = y.
Proof. unfold valq, Qeq. cbn. lia. Qed.

Lemma comparisons x y :
  (flt x y = true <-> (valq x < valq y)%Q) /\ (fle x y = true <-> (valq x <= valq y)%Q) /\
  (fgt x y = true <-> (valq y < valq x)%Q) /\ (fge x y = true <-> (valq y <= valq x)%Q) /\
  (feq x y = true <-> (valq x == valq y)%Q) /\ (fne x y = true <-> ~ (valq x == valq y)%Q).
Proof.
  rewrite !valq_lt, !valq_le, !valq_eq. unfold flt, fle, fgt, fge, feq, fne. lia.
Qed.

Lemma abs_ok x : raw x -> - 2 ^ 31 + 1 < x -> absolute x = Ok (Z.abs x).
Proof.
  unfold raw, absolute, fMin. intros Hx H. replace (x =? -2147483647) with false by lia.
  destruct (Z.leb_spec 0 x); [f_equal; lia|]. rewrite i32_ok by (unfold raw; lia). f_equal; lia.
Qed.

Lemma neg_ok x : raw x -> x <> sentinel -> neg x = Ok (- x).
Proof. unfold raw, sentinel. intros Hx H. apply i32_ok. unfold raw. lia. Qed.

(** ** Angle wrapping *)

Lemma wrap_down_ok half full : 0 < half -> half <= full -> forall fuel x,
  - 2 ^ 31 + full <= half -> x <= half + Z.of_nat fuel * full -> raw x ->
  exists x', wrap_down (S fuel) half full x = Ok x' /\ x' <= half /\ (half < x -> half - full < x') /\
    (x <= half -> x' = x) /\ (x' - x) mod full = 0 /\ raw x'.
Proof.
  intros Hh Hf. induction fuel as [|fuel IH]; intros x Hlo Hx Hr.
  - exists x. cbn [wrap_down]. replace (half <? x) with false by lia. rewrite Z.sub_diag, Z.mod_0_l by lia.
    repeat split; auto; try lia; apply Hr.
  - remember (S fuel) as F. cbn [wrap_down]. destruct (Z.ltb_spec half x).
    + rewrite i32_ok by (unfold raw in *; lia). cbn [bind]. subst F.
      destruct (IH (x - full)) as (x' & E & H1 & H2 & H3 & H4 & H5); try lia.
      { unfold raw in *; lia. }
      exists x'. split; [exact E|]. split; [lia|]. split.
      { intros _. destruct (Z_lt_le_dec half (x - full)); [auto | rewrite H3 by lia; lia]. }
      split; [lia|]. split; [|exact H5].
      replace (x' - x) with (x' - (x - full) + (-1) * full) by ring. rewrite Z.mod_add by lia. exact H4.
    + exists x. rewrite Z.sub_diag, Z.mod_0_l by lia. repeat split; auto; try lia; apply Hr.
Qed.

Lemma wrap_up_ok half full : 0 < half -> 2 * half <= full -> forall fuel x,
  full - half < 2 ^ 31 -> - half - Z.of_nat fuel * full < x -> raw x ->
  exists x', wrap_up (S fuel) half full x = Ok x' /\ - half < x' /\ (x <= - half -> x' <= full - half) /\
    (- half < x -> x' = x) /\ (x' - x) mod full = 0 /\ raw x'.
Proof.
  intros Hh Hf. induction fuel as [|fuel IH]; intros x Hlo Hx Hr.
  - exists x. cbn [wrap_up]. replace (x <=? - half) with false by lia. rewrite Z.sub_diag, Z.mod_0_l by lia.
    repeat split; auto; try lia; apply Hr.
  - remember (S fuel) as F. cbn [wrap_up]. destruct (Z.leb_spec x (- half)).
    + rewrite i32_ok by (unfold raw in *; lia). cbn [bind]. subst F.
      destruct (IH (x + full)) as (x' & E & H1 & H2 & H3 & H4 & H5); try lia.
      { unfold raw in *; lia. }
      exists x'. split; [exact E|]. split; [lia|]. split.
      { intros _. destruct (Z_le_gt_dec (x + full) (- half)); [auto | rewrite H3 by lia; lia]. }
      split; [lia|]. split; [|exact H5].
      replace (x' - x) with (x' - (x + full) + 1 * full) by ring. rewrite Z.mod_add by lia. exact H4.
    + exists x. rewrite Z.sub_diag, Z.mod_0_l by lia. repeat split; auto; try lia; apply Hr.
Qed.

Lemma wrap_ok fuel half full x :
  0 < half < 2 ^ 30 -> 2 * half <= full <= 2 * half + 1 -> 2 ^ 31 <= Z.of_nat fuel * full -> raw x ->
  exists x', wrap (S fuel) half full x = Ok x' /\ - half <= x' <= full - half /\
    (exists k, x' = x - k * full) /\ (- half <= x <= half -> x' = x).
Proof.
  intros Hh Hf Hfu Hx. unfold wrap. 
  destruct ((x <? - half) || (half <? x)) eqn:E.
  - destruct (wrap_down_ok half full ltac:(lia) ltac:(lia) fuel x ltac:(lia)) as (x1 & E1 & A1 & A2 & A3 & A4 & A5);
      [unfold raw in Hx; lia | exact Hx|].
    rewrite E1. cbn [bind].
    destruct (wrap_up_ok half full ltac:(lia) ltac:(lia) fuel x1 ltac:(lia)) as (x2 & E2 & B1 & B2 & B3 & B4 & B5);
      [unfold raw in A5; lia | exact A5|].
    exists x2. split; [exact E2|].
    assert (Hk : exists k, x2 = x - k * full).
    { apply Z.mod_divide in A4; [|lia]. apply Z.mod_divide in B4; [|lia]. destruct A4 as [k1 K1]. destruct B4 as [k2 K2].
      exists (- k1 - k2). lia. }
    split; [|split; [exact Hk | lia]].
    destruct (Z_le_gt_dec x1 (- half)); [lia | rewrite B3 by lia; lia].
  - exists x. split; [reflexivity|]. split; [lia|]. split; [exists 0; lia | auto].
Qed.

Lemma wrapToPi_ok x : raw x ->
  exists x', wrapToPi x = Ok x' /\ -205887 <= x' <= 205888 /\
    (exists k, x' = x - k * 411775) /\ (-205887 <= x <= 205887 -> x' = x).
Proof.
  intros Hx. destruct (wrap_ok (Z.to_nat 5999) 205887 411775 x) as (x' & E & A & B & C); auto; try lia.
  exists x'. split; [|split; [lia | auto]]. unfold wrapToPi. replace (Z.to_nat 6000) with (S (Z.to_nat 5999)) by lia. exact E.
Qed.

Lemma wrapTo180_ok x : raw x ->
  exists x', wrapTo180 x = Ok x' /\ -11796480 <= x' <= 11796480 /\
    (exists k, x' = x - k * 23592960) /\ (-11796480 <= x <= 11796480 -> x' = x).
Proof.
  intros Hx. destruct (wrap_ok 99 11796480 23592960 x) as (x' & E & A & B & C); auto; try lia.
  exists x'. split; [exact E|]. split; [lia | auto].
Qed.

(** ** Square root *)

Lemma sqrt_loop_ok N : forall k fuel s,
  (k + 2 <= fuel)%nat -> 0 <= s -> s * s <= N < (s + 2 ^ (Z.of_nat k + 1)) * (s + 2 ^ (Z.of_nat k + 1)) ->
  (s + 2 ^ (Z.of_nat k + 1)) * 2 ^ (Z.of_nat k + 1) <= 2 ^ 31 -> N - s * s < 2 ^ 31 ->
  exists s', sqrt_loop fuel (4 ^ Z.of_nat k) (N - s * s) (s * 2 ^ (Z.of_nat k + 1)) = Ok (N - s' * s', s') /\
    s <= s' /\ s' * s' <= N < (s' + 1) * (s' + 1).
Proof.
  induction k as [|k IH]; intros fuel s Hf Hs HN Hb Hr.
  - destruct fuel as [|[|fuel]]; try lia. remember (S fuel) as F. cbn [sqrt_loop].
    change (4 ^ Z.of_nat 0) with 1. change (2 ^ (Z.of_nat 0 + 1)) with 2 in *. change (1 =? 0) with false. cbv iota.
    change (Z.shiftr 1 2) with 0.
    assert (Hsb : s < 2 ^ 30) by lia.
    rewrite (u32_id (s * 2)) by lia. rewrite s32_u32, s32_id by (unfold raw; lia).
    destruct (Z.leb_spec (s * 2 + 1) (N - s * s)).
    + rewrite i32_ok by (unfold raw; lia). cbn [bind].
      rewrite Z.shiftr_div_pow2 by lia. change (2 ^ 1) with 2. rewrite Z.div_mul by lia.
      rewrite s32_u32, s32_id by (unfold raw; lia). subst F. cbn [sqrt_loop]. change (0 =? 0) with true. cbv iota.
      exists (s + 1). split; [f_equal; f_equal; ring|]. split; [lia|]. lia.
    + rewrite Z.shiftr_div_pow2 by lia. change (2 ^ 1) with 2. rewrite Z.div_mul by lia.
      subst F. cbn [sqrt_loop]. change (0 =? 0) with true. cbv iota.
      exists s. split; [reflexivity|]. lia.
  - destruct fuel as [|fuel]; [lia|]. cbn [sqrt_loop].
    rewrite Nat2Z.inj_succ, <- Z.add_1_r in *. set (K := Z.of_nat k) in *.
    assert (Hp : 0 < 2 ^ K) by (apply Z.pow_pos_nonneg; lia).
    assert (E2 : 2 ^ (K + 1) = 2 * 2 ^ K) by (rewrite Z.pow_add_r by lia; change (2 ^ 1) with 2; ring).
    assert (E4 : 2 ^ (K + 1 + 1) = 4 * 2 ^ K) by (rewrite (Z.pow_add_r 2 (K + 1)) by lia; change (2 ^ 1) with 2; rewrite E2; ring).
    assert (E44 : 4 ^ (K + 1) = 4 * (2 ^ K * 2 ^ K)).
    { change 4 with (2 ^ 2) at 1. rewrite <- Z.pow_mul_r by lia. replace (2 * (K + 1)) with (K + K + 2) by lia.
      rewrite !Z.pow_add_r by lia. change (2 ^ 2) with 4. ring. }
    assert (E40 : 4 ^ K = 2 ^ K * 2 ^ K).
    { change 4 with (2 ^ 2). rewrite <- Z.pow_mul_r by lia. rewrite <- Z.pow_add_r by lia. f_equal. lia. }
    assert (Esh : Z.shiftr (4 ^ (K + 1)) 2 = 4 ^ K).
    { rewrite Z.shiftr_div_pow2 by lia. change (2 ^ 2) with 4. rewrite E44, E40, Z.mul_comm. apply Z.div_mul. lia. }
    rewrite Esh. rewrite E4 in *.
    set (p := 2 ^ K) in *. 
    assert (Hpp : 0 < p * p) by nia. 
    replace (4 ^ (K + 1) =? 0) with false by lia.
    assert (Hsp : s * (4 * p) + 16 * (p * p) <= 2 ^ 31) by lia.
    assert (Hsp0 : 0 <= s * (4 * p)) by nia.
    rewrite (u32_id (s * (4 * p))) by lia. rewrite E44. rewrite s32_u32, s32_id by (unfold raw; lia).
    assert (Ehalf : Z.shiftr (s * (4 * p)) 1 = s * (2 * p)).
    { rewrite Z.shiftr_div_pow2 by lia. change (2 ^ 1) with 2. replace (s * (4 * p)) with (s * (2 * p) * 2) by ring. apply Z.div_mul. lia. }
    rewrite Ehalf.
    destruct (Z.leb_spec (s * (4 * p) + 4 * (p * p)) (N - s * s)).
    + rewrite i32_ok by (unfold raw; lia). cbn [bind].
      rewrite s32_u32, s32_id by (unfold raw; lia).
      replace (N - s * s - (s * (4 * p) + 4 * (p * p))) with (N - (s + 2 * p) * (s + 2 * p)) by ring.
      replace (s * (2 * p) + 4 * (p * p)) with ((s + 2 * p) * 2 ^ (K + 1)) by (rewrite E2; ring).
      destruct (IH fuel (s + 2 * p)) as (s' & E & H1 & H2); try lia.
      exists s'. split; [exact E|]. lia.
    + replace (s * (2 * p)) with (s * 2 ^ (K + 1)) by (rewrite E2; ring).
      destruct (IH fuel s) as (s' & E & H1 & H2); try lia.
      exists s'. split; [exact E|]. lia.
Qed.

(** A negative remainder rejects every remaining digit. *)
Lemma sqrt_loop_reject x : raw x -> x < 0 -> forall k fuel s,
  (k + 2 <= fuel)%nat -> 0 <= s -> (s + 2 ^ (Z.of_nat k + 1)) * 2 ^ (Z.of_nat k + 1) <= 2 ^ 31 ->
  sqrt_loop fuel (4 ^ Z.of_nat k) x (s * 2 ^ (Z.of_nat k + 1)) = Ok (x, s).
Proof.
  intros Hx Hneg. induction k as [|k IH]; intros fuel s Hf Hs Hb.
  - destruct fuel as [|[|fuel]]; try lia. remember (S fuel) as F. cbn [sqrt_loop].
    change (4 ^ Z.of_nat 0) with 1. change (2 ^ (Z.of_nat 0 + 1)) with 2 in *. change (1 =? 0) with false. cbv iota.
    change (Z.shiftr 1 2) with 0.
    rewrite (u32_id (s * 2)) by lia. rewrite s32_u32, s32_id by (unfold raw; lia).
    replace (s * 2 + 1 <=? x) with false by lia.
    rewrite Z.shiftr_div_pow2 by lia. change (2 ^ 1) with 2. rewrite Z.div_mul by lia.
    subst F. cbn [sqrt_loop]. reflexivity.
  - destruct fuel as [|fuel]; [lia|]. cbn [sqrt_loop].
    rewrite Nat2Z.inj_succ, <- Z.add_1_r in *. set (K := Z.of_nat k) in *.
    assert (Hp : 0 < 2 ^ K) by (apply Z.pow_pos_nonneg; lia).
    assert (E2 : 2 ^ (K + 1) = 2 * 2 ^ K) by (rewrite Z.pow_add_r by lia; change (2 ^ 1) with 2; ring).
    assert (E4 : 2 ^ (K + 1 + 1) = 4 * 2 ^ K) by (rewrite (Z.pow_add_r 2 (K + 1)) by lia; change (2 ^ 1) with 2; rewrite E2; ring).
    assert (E44 : 4 ^ (K + 1) = 4 * (2 ^ K * 2 ^ K)).
    { change 4 with (2 ^ 2) at 1. rewrite <- Z.pow_mul_r by lia. replace (2 * (K + 1)) with (K + K + 2) by lia.
      rewrite !Z.pow_add_r by lia. change (2 ^ 2) with 4. ring. }
    assert (E40 : 4 ^ K = 2 ^ K * 2 ^ K).
    { change 4 with (2 ^ 2). rewrite <- Z.pow_mul_r by lia. rewrite <- Z.pow_add_r by lia. f_equal. lia. }
    assert (Esh : Z.shiftr (4 ^ (K + 1)) 2 = 4 ^ K).
    { rewrite Z.shiftr_div_pow2 by lia. change (2 ^ 2) with 4. rewrite E44, E40, Z.mul_comm. apply Z.div_mul. lia. }
    rewrite Esh. rewrite E4 in *.
    set (p := 2 ^ K) in *. 
    assert (Hpp : 0 < p * p) by nia. 
    replace (4 ^ (K + 1) =? 0) with false by lia.
    assert (Hsp : s * (4 * p) + 16 * (p * p) <= 2 ^ 31) by lia.
    assert (Hsp0 : 0 <= s * (4 * p)) by nia.
    rewrite (u32_id (s * (4 * p))) by lia. rewrite E44. rewrite s32_u32, s32_id by (unfold raw; lia).
    assert (Ehalf : Z.shiftr (s * (4 * p)) 1 = s * 2 ^ (K + 1)).
    { rewrite Z.shiftr_div_pow2 by lia. change (2 ^ 1) with 2. rewrite E2.
      replace (s * (4 * p)) with (s * (2 * p) * 2) by ring. apply Z.div_mul. lia. }
    rewrite Ehalf. replace (s * (4 * p) + 4 * (p * p) <=? x) with false by lia.
    apply IH; lia.
Qed.

Lemma sqrt_bit_ok x : 1 <= x -> forall j fuel, (j < fuel)%nat -> x < 4 ^ (Z.of_nat j + 1) ->
  exists k, (k <= j)%nat /\ sqrt_bit fuel (4 ^ Z.of_nat j) x = 4 ^ Z.of_nat k /\
    4 ^ Z.of_nat k <= x < 4 ^ (Z.of_nat k + 1).
Proof.
  intros Hx. induction j as [|j IH]; intros fuel Hf Hj.
  - destruct fuel; [lia|]. cbn [sqrt_bit]. change (4 ^ Z.of_nat 0) with 1. replace (x <? 1) with false by lia.
    exists 0%nat. repeat split; auto.
  - destruct fuel as [|fuel]; [lia|]. cbn [sqrt_bit]. rewrite Nat2Z.inj_succ, <- Z.add_1_r in *.
    destruct (Z.ltb_spec x (4 ^ (Z.of_nat j + 1))).
    + assert (E : Z.shiftr (4 ^ (Z.of_nat j + 1)) 2 = 4 ^ Z.of_nat j).
      { rewrite Z.shiftr_div_pow2 by lia. change (2 ^ 2) with 4. rewrite Z.pow_add_r by lia. change (4 ^ 1) with 4.
        apply Z.div_mul. lia. }
      rewrite E. destruct (IH fuel) as (k & Hk & Ek & Hkx); try lia. exists k. repeat split; auto; lia.
    + exists (S j). rewrite Nat2Z.inj_succ, <- Z.add_1_r. repeat split; auto.
Qed.

Lemma sqrt_start x : 1 <= x < 2 ^ 30 ->
  exists k, (k <= 14)%nat /\
    sqrt_bit 20 (if negb (Z.land x (s32 4293918720) =? 0) then 1073741824 else 262144) (u32 x) = 4 ^ Z.of_nat k /\
    4 ^ Z.of_nat k <= x < 4 ^ (Z.of_nat k + 1).
Proof.
  intros Hx. rewrite u32_id by lia.
  assert (E : Z.land x (s32 4293918720) = (x / 2 ^ 20) * 2 ^ 20).
  { change (s32 4293918720) with (Z.lnot (Z.ones 20)). rewrite <- Z.ldiff_land, Z.ldiff_ones_r by lia.
    rewrite Z.shiftl_mul_pow2, Z.shiftr_div_pow2 by lia. reflexivity. }
  rewrite E. destruct (Z.eqb_spec (x / 2 ^ 20 * 2 ^ 20) 0); cbn [negb].
  - destruct (sqrt_bit_ok x ltac:(lia) 9 20 ltac:(lia)) as (k & Hk & Ek & Hkx).
    { change (4 ^ (Z.of_nat 9 + 1)) with (2 ^ 20). lia. }
    exists k. split; [lia|]. auto.
  - change 1073741824 with (4 ^ Z.of_nat 15).
    destruct (sqrt_bit_ok x ltac:(lia) 15 20 ltac:(lia)) as (k & Hk & Ek & Hkx).
    { change (4 ^ (Z.of_nat 15 + 1)) with (2 ^ 32). lia. }
    exists k. split; [|auto]. destruct (Nat.eq_dec k 15) as [->|]; [|lia].
    change (4 ^ Z.of_nat 15) with (2 ^ 30) in Hkx. lia.
Qed.

Lemma pow4_2 k : 4 ^ (Z.of_nat k + 1) = 2 ^ (Z.of_nat k + 1) * 2 ^ (Z.of_nat k + 1).
Proof. change 4 with (2 ^ 2). rewrite <- Z.pow_mul_r, <- Z.pow_add_r by lia. f_equal. lia. Qed.

Lemma sqrt_phase1 x : 1 <= x < 2 ^ 30 ->
  exists s, sqrt_loop 20 (sqrt_bit 20 (if negb (Z.land x (s32 4293918720) =? 0) then 1073741824 else 262144) (u32 x)) x 0
            = Ok (x - s * s, s) /\ 0 <= s < 2 ^ 15 /\ s * s <= x < (s + 1) * (s + 1).
Proof.
  intros Hx. destruct (sqrt_start x Hx) as (k & Hk & Ek & Hkx). rewrite Ek.
  rewrite pow4_2 in Hkx. set (p := 2 ^ (Z.of_nat k + 1)) in *.
  assert (Hp : 0 < p <= 2 ^ 15).
  { unfold p. split; [apply Z.pow_pos_nonneg; lia | apply Z.pow_le_mono_r; lia]. }
  destruct (sqrt_loop_ok x k 20 0) as (s & E & H1 & H2); fold p; try lia; try nia.
  exists s. fold p in E. replace (x - 0 * 0) with x in E by lia. replace (0 * p) with 0 in E by lia.
  split; [exact E|]. split; [|exact H2]. split; [lia|]. nia.
Qed.

Lemma sqrt_correct x : 1 <= x < 2 ^ 30 -> 
  (exists s, s * s <= x < (s + 1) * (s + 1) /\ 0 <= s /\
    (x - s * s < 2 ^ 15 -> exists r, sqrt x = Ok r /\ nearest_root (x * 65536) r) /\
    (2 ^ 15 <= x - s * s -> sqrt x = Ok (256 * s))).
Proof.
  intros Hx. destruct (sqrt_phase1 x Hx) as (s & E & Hs & Hsx).
  exists s. split; [exact Hsx|]. split; [lia|].
  assert (Hrem : x - s * s <= 2 * s) by lia.
  unfold sqrt. replace (0 <? x) with true by lia. cbv zeta. rewrite E. cbn [bind].
  replace (65535 <? x - s * s) with false by lia. cbn [bind]. rewrite !Z.shiftl_mul_pow2 by lia.
  change (2 ^ 16) with 65536. rewrite (s32_id (s * 65536)) by (unfold raw; lia).
  split; intros Hr.
  - rewrite s32_id by (unfold raw; lia).
    replace ((x - s * s) * 65536) with (x * 65536 - (s * 256) * (s * 256)) by ring.
    replace (s * 65536) with (s * 256 * 2 ^ (Z.of_nat 7 + 1)) by (change (2 ^ (Z.of_nat 7 + 1)) with 256; ring).
    change 16384 with (4 ^ Z.of_nat 7).
    destruct (sqrt_loop_ok (x * 65536) 7 20 (s * 256)) as (r & Er & H1 & H2);
      change (2 ^ (Z.of_nat 7 + 1)) with 256; try lia.
    change (2 ^ (Z.of_nat 7 + 1)) with 256 in Er. rewrite Er. cbn [bind]. unfold flag_rounding. cbn [andb].
    assert (Hr24 : r < 2 ^ 24) by nia.
    destruct (Z.ltb_spec r (x * 65536 - r * r)).
    + exists (r + 1). split; [apply i32_ok; unfold raw; lia|]. unfold nearest_root.
      split; [lia|]. split; [lia|]. right. lia.
    + exists r. split; [reflexivity|]. unfold nearest_root.
      split; [lia|]. split; [lia|]. destruct (Z.eq_dec r 0); [auto|]. right. lia.
  - assert (Es : s32 ((x - s * s) * 65536) = (x - s * s) * 65536 - 2 ^ 32).
    { rewrite s32_cases by lia. replace ((x - s * s) * 65536 <? - 2 ^ 31) with false by lia.
      replace ((x - s * s) * 65536 <? 2 ^ 31) with false by lia. reflexivity. }
    rewrite Es.
    replace (s * 65536) with (s * 256 * 2 ^ (Z.of_nat 7 + 1)) by (change (2 ^ (Z.of_nat 7 + 1)) with 256; ring).
    change 16384 with (4 ^ Z.of_nat 7).
    rewrite sqrt_loop_reject; try (unfold raw; lia); try (change (2 ^ (Z.of_nat 7 + 1)) with 256; lia).
    cbn [bind]. unfold flag_rounding. cbn [andb].
    replace (s * 256 <? (x - s * s) * 65536 - 2 ^ 32) with false by lia. f_equal. lia.
Qed.

Lemma sqrt_nonpos x : - 2 ^ 31 < x <= 0 -> sqrt x = Ok (-2147483647).
Proof.
  intros Hx. unfold sqrt. replace (0 <? x) with false by lia. cbn [bind]. unfold flag_rounding, overflow.
  cbn [andb]. replace (-2147483648 <? x) with true by lia. reflexivity.
Qed.
