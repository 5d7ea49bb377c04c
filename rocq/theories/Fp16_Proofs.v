(** Proofs about Q16.16 arithmetic. *)
From Coq Require Import ZArith List Bool Lia ZifyBool QArith.
From Verif Require Import Base BaseLemmas Fp16_Model Fp16_Spec.
Import ListNotations.
Open Scope Z_scope.
Ltac Zify.zify_post_hook ::= Z.div_mod_to_equations.

(** ** 32-bit conversions *)

Lemma i32_ok z : raw z -> i32 z = Ok z.
Proof. unfold raw, i32. intros H. replace ((-2147483648 <=? z) && (z <=? 2147483647)) with true by lia. reflexivity. Qed.
Lemma i32_ub z : ~ raw z -> i32 z = Ub.
Proof. unfold raw, i32. intros H. replace ((-2147483648 <=? z) && (z <=? 2147483647)) with false by lia. reflexivity. Qed.
Lemma s32_id z : raw z -> s32 z = z.
Proof. unfold raw, s32. intros H. rewrite Z.mod_small by lia. lia. Qed.
Lemma s32_raw z : raw (s32 z).
Proof. unfold raw, s32. lia. Qed.
Lemma s32_u32 z : s32 (u32 z) = s32 z.
Proof. unfold s32, u32. rewrite Zplus_mod_idemp_l. reflexivity. Qed.
Lemma u32_id z : 0 <= z < 2 ^ 32 -> u32 z = z.
Proof. intros. unfold u32. apply Z.mod_small. lia. Qed.
Lemma u32_range z : 0 <= u32 z < 2 ^ 32.
Proof. unfold u32. lia. Qed.
Lemma u32_s32 z : u32 (s32 z) = u32 z.
Proof. unfold s32, u32. lia. Qed.
Lemma s32_cases z : - 3 * 2 ^ 31 <= z < 3 * 2 ^ 31 ->
  s32 z = if z <? - 2 ^ 31 then z + 2 ^ 32 else if z <? 2 ^ 31 then z else z - 2 ^ 32.
Proof.
  intros H. unfold s32. destruct (Z.ltb_spec z (- 2 ^ 31)); [|destruct (Z.ltb_spec z (2 ^ 31))]; lia.
Qed.

Lemma top_bit z : Z.testbit (u32 z) 31 = (s32 z <? 0).
Proof.
  unfold u32, s32. set (w := z mod 4294967296). 
  assert (Hw : (z + 2147483648) mod 4294967296 - 2147483648 = if w <? 2147483648 then w else w - 4294967296).
  { unfold w. destruct (Z.ltb_spec (z mod 4294967296) 2147483648); lia. }
  rewrite Hw. assert (Hr : 0 <= w < 4294967296) by (unfold w; lia).
  pose proof (Z.testbit_spec' w 31 ltac:(lia)) as H. change (2 ^ 31) with 2147483648 in H.
  destruct (Z.ltb_spec w 2147483648).
  - replace (w <? 0) with false by lia. destruct (Z.testbit w 31); auto. cbn [Z.b2z] in H. lia.
  - replace (w - 4294967296 <? 0) with true by lia. destruct (Z.testbit w 31); auto. cbn [Z.b2z] in H. lia.
Qed.

Lemma land_top z : (0 =? Z.land z overflow_mask) = negb (Z.testbit z 31).
Proof.
  unfold overflow_mask. change 2147483648 with (2 ^ 31).
  replace (Z.land z (2 ^ 31)) with (if Z.testbit z 31 then 2 ^ 31 else 0).
  - destruct (Z.testbit z 31); reflexivity.
  - apply Z.bits_inj'. intros k Hk. rewrite Z.land_spec, Z.pow2_bits_eqb by lia.
    destruct (Z.eqb_spec 31 k) as [<-|].
    + rewrite andb_true_r. destruct (Z.testbit z 31); [reflexivity | apply Z.bits_0].
    + rewrite andb_false_r. destruct (Z.testbit z 31); [rewrite Z.pow2_bits_eqb by lia; lia | apply Z.bits_0].
Qed.

(** ** Addition and subtraction *)

Lemma add_char x y : raw x -> raw y ->
  add x y = if (- 2 ^ 31 <=? x + y) && (x + y <? 2 ^ 31) then x + y else sentinel.
Proof.
  intros Hx Hy. unfold add, saturate, saturation. cbv zeta. rewrite !land_top, !Z.lxor_spec.
  assert (E : u32 (u32 x + u32 y) = u32 (x + y)) by (unfold u32; lia).
  rewrite E, !top_bit, (s32_id x), (s32_id y) by assumption.
  rewrite (s32_cases (x + y)) by (unfold raw in *; lia). unfold raw in *.
  destruct (Z.ltb_spec x 0), (Z.ltb_spec y 0), (Z.ltb_spec (x + y) (- 2 ^ 31)), (Z.ltb_spec (x + y) (2 ^ 31)),
    (Z.leb_spec (- 2 ^ 31) (x + y)); try lia; cbn [xorb negb andb];
  repeat match goal with |- context [?a <? 0] => destruct (Z.ltb_spec a 0); try lia end; cbn [xorb negb andb];
  rewrite ?s32_u32; try reflexivity; apply s32_id; unfold raw; lia.
Qed.

Lemma sub_char x y : raw x -> raw y ->
  sub x y = if (- 2 ^ 31 <=? x - y) && (x - y <? 2 ^ 31) then x - y else sentinel.
Proof.
  intros Hx Hy. unfold sub, saturate, saturation. cbv zeta. rewrite !land_top, !Z.lxor_spec.
  assert (E : u32 (u32 x - u32 y) = u32 (x - y)) by (unfold u32; lia).
  rewrite E, !top_bit, (s32_id x), (s32_id y) by assumption.
  rewrite (s32_cases (x - y)) by (unfold raw in *; lia). unfold raw in *.
  destruct (Z.ltb_spec x 0), (Z.ltb_spec y 0), (Z.ltb_spec (x - y) (- 2 ^ 31)), (Z.ltb_spec (x - y) (2 ^ 31)),
    (Z.leb_spec (- 2 ^ 31) (x - y)); try lia; cbn [xorb negb andb];
  repeat match goal with |- context [?a <? 0] => destruct (Z.ltb_spec a 0); try lia end; cbn [xorb negb andb];
  rewrite ?s32_u32; try reflexivity; apply s32_id; unfold raw; lia.
Qed.

(** ** Multiplication *)

Lemma lor_disjoint h l k : 0 <= k -> 0 <= l < 2 ^ k -> Z.lor (h * 2 ^ k) l = h * 2 ^ k + l.
Proof.
  intros Hk Hl. rewrite <- Z.lxor_lor, <- Z.add_nocarry_lxor; auto.
  all: apply Z.bits_inj'; intros n Hn; rewrite Z.land_spec, Z.bits_0;
    destruct (Z_lt_le_dec n k) as [C|C];
    [rewrite Z.mul_pow2_bits_low by lia; reflexivity
    | replace (Z.testbit l n) with false; [apply andb_false_r|]];
    symmetry; rewrite Z.testbit_false by lia; rewrite Z.div_small; [reflexivity|];
    pose proof (Z.pow_le_mono_r 2 k n); lia.
Qed.

(** The partial sum of cross products, and the product as the code sees it:
    the cross sum is truncated to 32 bits. *)
Definition cross (x y : Z) : Z := (x / 65536) * (y mod 65536) + (y / 65536) * (x mod 65536).
Definition seen (x y : Z) : Z :=
  (x / 65536) * (y / 65536) * 2 ^ 32 + s32 (cross x y) * 2 ^ 16 + (x mod 65536) * (y mod 65536).

Lemma seen_exact x y : raw (cross x y) -> seen x y = x * y.
Proof.
  intros H. unfold seen. rewrite s32_id by assumption. unfold cross.
  pose proof (Z.div_mod x 65536). pose proof (Z.div_mod y 65536).
  set (a := x / 65536) in *. set (b := x mod 65536) in *. set (c := y / 65536) in *. set (d := y mod 65536) in *.
  replace x with (65536 * a + b) by lia. replace y with (65536 * c + d) by lia. ring.
Qed.

Definition neg_bit (p : Z) : Z := if p <? 0 then 1 else 0.

Lemma mul_char x y : raw x -> raw y ->
  mul x y = if (- 2 ^ 47 <=? seen x y) && (seen x y <? 2 ^ 47)
            then i32 (s32 ((seen x y - 32768 - neg_bit (seen x y)) / 65536) + 1)
            else Ok sentinel.
Proof.
  intros Hx Hy. unfold mul, saturate, saturation, flag_rounding. 
  rewrite !Z.shiftr_div_pow2 by lia. change (2 ^ 16) with 65536. 
  replace (Z.land x 65535) with (x mod 65536) by (change 65535 with (Z.ones 16); rewrite Z.land_ones by lia; reflexivity).
  replace (Z.land y 65535) with (y mod 65536) by (change 65535 with (Z.ones 16); rewrite Z.land_ones by lia; reflexivity).
  assert (Ecr : s32 (u32 (u32 (u32 (x / 65536) * (y mod 65536)) + u32 (u32 (y / 65536) * (x mod 65536)))) = s32 (cross x y)).
  { rewrite s32_u32. unfold cross. unfold s32, u32. rewrite <- (Zplus_mod_idemp_l (_ + _)).
    rewrite <- (Zplus_mod (u32 (x/65536) * (y mod 65536)) (u32 (y/65536) * (x mod 65536))).
    rewrite Zplus_mod_idemp_l. f_equal.
    rewrite <- (Zplus_mod_idemp_l (_ + _)), <- (Zplus_mod_idemp_l (x / 65536 * (y mod 65536) + _)). f_equal. f_equal.
    unfold u32. rewrite Zplus_mod, !Zmult_mod_idemp_l, <- Zplus_mod. reflexivity. }
  cbv zeta. rewrite Ecr. unfold seen. change (2 ^ 16) with 65536. clear Ecr.
  pose proof (s32_raw (cross x y)) as Hm.
  set (m := s32 (cross x y)) in *. clearbody m.
  assert (Ha : - 32768 <= x / 65536 < 32768) by (unfold raw in Hx; lia).
  assert (Hc : - 32768 <= y / 65536 < 32768) by (unfold raw in Hy; lia).
  assert (Hb : 0 <= x mod 65536 < 65536) by lia.
  assert (Hd : 0 <= y mod 65536 < 65536) by lia.
  set (a := x / 65536) in *. set (b := x mod 65536) in *. set (c := y / 65536) in *. set (d := y mod 65536) in *.
  clearbody a b c d. clear Hx Hy.
  assert (Hac : - 2 ^ 30 <= a * c <= 2 ^ 30) by nia.
  assert (Hbd : 0 <= b * d < 2 ^ 32) by nia.
  set (ac := a * c) in *. clearbody ac. set (bd := b * d) in *. clearbody bd. clear a b c d Ha Hb Hc Hd.
  rewrite i32_ok by (unfold raw; lia). cbn [bind].
  rewrite (u32_id bd) by lia.
  rewrite i32_ok by (unfold raw in *; lia). cbn [bind].
  assert (Etmp : u32 (Z.shiftl (u32 m) 16) = (m mod 65536) * 65536).
  { rewrite Z.shiftl_mul_pow2 by lia. unfold u32. lia. }
  rewrite Etmp. set (P := ac * 2 ^ 32 + m * 65536 + bd).
  assert (EL : u32 (bd + m mod 65536 * 65536) = P mod 2 ^ 32) by (unfold u32, P; lia).
  rewrite EL.
  assert (EH : (if P mod 2 ^ 32 <? bd then i32 (ac + m / 65536 + 1) else Ok (ac + m / 65536)) = Ok (P / 2 ^ 32)).
  { unfold P in *. unfold raw in Hm. destruct (Z.ltb_spec ((ac * 2 ^ 32 + m * 65536 + bd) mod 2 ^ 32) bd).
    - rewrite i32_ok by (unfold raw; lia). f_equal. lia.
    - f_equal. lia. }
  rewrite EH. cbn [bind]. clear EH EL Etmp.
  assert (HP : - 2 ^ 63 <= P <= 2 ^ 63) by (unfold P, raw in *; lia).
  clearbody P. clear ac bd m Hm Hac Hbd.
  rewrite (Z.shiftr_div_pow2 (P / 2 ^ 32) 15) by lia. change (2 ^ 15) with 32768.
  assert (EC : ((if P / 2 ^ 32 <? 0 then -1 else 0) =? P / 2 ^ 32 / 32768) = ((- 2 ^ 47 <=? P) && (P <? 2 ^ 47))).
  { destruct (Z.ltb_spec (P / 2 ^ 32) 0), (Z.leb_spec (- 2 ^ 47) P), (Z.ltb_spec P (2 ^ 47)); cbn [andb]; lia. }
  rewrite EC. destruct ((- 2 ^ 47 <=? P) && (P <? 2 ^ 47)) eqn:Ein; [|reflexivity].
  assert (Esg : Z.shiftr (u32 (P / 2 ^ 32)) 31 = neg_bit P).
  { rewrite Z.shiftr_div_pow2 by lia. unfold u32, neg_bit. destruct (Z.ltb_spec P 0); lia. }
  rewrite Esg. set (P' := P - 32768 - neg_bit P).
  assert (Hs : 0 <= neg_bit P <= 1) by (unfold neg_bit; destruct (P <? 0); lia).
  assert (EL' : u32 (u32 (P mod 2 ^ 32 - one_half) - neg_bit P) = P' mod 2 ^ 32) by (unfold u32, P', one_half; lia).
  rewrite EL'.
  assert (EH' : (if P mod 2 ^ 32 <? P' mod 2 ^ 32 then i32 (P / 2 ^ 32 - 1) else Ok (P / 2 ^ 32)) = Ok (P' / 2 ^ 32)).
  { unfold P' in *. destruct (Z.ltb_spec (P mod 2 ^ 32) ((P - 32768 - neg_bit P) mod 2 ^ 32)).
    - rewrite i32_ok by (unfold raw; lia). f_equal. lia.
    - f_equal. lia. }
  rewrite EH'. cbn [bind].
  rewrite Z.shiftl_mul_pow2 by lia. rewrite Z.shiftr_div_pow2 by lia. change (2 ^ 16) with 65536.
  assert (EV : Z.lor (s32 (P' / 2 ^ 32 * 65536)) (P' mod 2 ^ 32 / 65536) = s32 (P' / 65536)).
  { assert (Es : s32 (P' / 2 ^ 32 * 65536) = (s32 (P' / 2 ^ 32 * 65536) / 65536) * 2 ^ 16) by (unfold s32; lia).
    rewrite Es. rewrite lor_disjoint by lia. unfold s32. lia. }
  rewrite EV. destruct (i32 (s32 (P' / 65536) + 1)); reflexivity.
Qed.

(** Rounding to nearest, ties away from zero, as a formula. *)
Lemma nearest_formula p r : nearest p 65536 r <-> r = (p + 32768 - neg_bit p) / 65536.
Proof.
  unfold nearest, neg_bit. destruct (Z.ltb_spec p 0); lia.
Qed.

Lemma mul_exact x y r : raw x -> raw y -> raw (cross x y) -> nearest (x * y) 65536 r ->
  mul x y = if (- 2 ^ 47 <=? x * y) && (x * y <? 2 ^ 47) then (if (- 2 ^ 31 <? r) && (r <? 2 ^ 31) then Ok r else Ub)
            else Ok sentinel.
Proof.
  intros Hx Hy Hc Hr. rewrite mul_char, seen_exact by assumption. apply nearest_formula in Hr.
  destruct ((- 2 ^ 47 <=? x * y) && (x * y <? 2 ^ 47)) eqn:E; [|reflexivity].
  set (P := x * y) in *. clearbody P.
  assert (Hs : 0 <= neg_bit P <= 1 /\ (neg_bit P = 1 <-> P < 0)) by (unfold neg_bit; destruct (Z.ltb_spec P 0); lia).
  assert (Eq : (P - 32768 - neg_bit P) / 65536 = r - 1) by lia.
  rewrite Eq, s32_cases by lia.
  destruct (Z.ltb_spec (r - 1) (- 2 ^ 31)).
  - replace ((- 2 ^ 31 <? r) && (r <? 2 ^ 31)) with false by lia. apply i32_ub. unfold raw. lia.
  - replace (r - 1 <? 2 ^ 31) with true by lia. replace (r - 1 + 1) with r by lia.
    destruct (Z.ltb_spec r (2 ^ 31)).
    + replace ((- 2 ^ 31 <? r) && true) with true by lia. apply i32_ok. unfold raw. lia.
    + rewrite andb_false_r. apply i32_ub. unfold raw. lia.
Qed.

(** When the cross sum fits. *)
Lemma cross_opposite x y : raw x -> raw y -> (x < 0 <= y \/ y < 0 <= x) -> raw (cross x y).
Proof.
  unfold raw, cross. intros Hx Hy H.
  assert (Ha : - 32768 <= x / 65536 < 32768) by lia. assert (Hc : - 32768 <= y / 65536 < 32768) by lia.
  assert (Hb : 0 <= x mod 65536 < 65536) by lia. assert (Hd : 0 <= y mod 65536 < 65536) by lia.
  assert (Hsg : x / 65536 < 0 <= y / 65536 \/ y / 65536 < 0 <= x / 65536) by lia.
  set (a := x / 65536) in *. set (b := x mod 65536) in *. set (c := y / 65536) in *. set (d := y mod 65536) in *.
  clearbody a b c d. clear H Hx Hy.
  assert (H1 : - 32768 * 65535 <= a * d <= 32767 * 65535) by nia.
  assert (H2 : - 32768 * 65535 <= c * b <= 32767 * 65535) by nia.
  destruct Hsg; [assert (a * d <= 0) by nia; assert (0 <= c * b) by nia
               | assert (c * b <= 0) by nia; assert (0 <= a * d) by nia]; lia.
Qed.

Lemma cross_small x y : Z.abs x + Z.abs y <= 2 ^ 31 - 2 ^ 17 -> raw (cross x y).
Proof.
  unfold raw, cross. intros H.
  assert (Ha : Z.abs (x / 65536) + Z.abs (y / 65536) <= 32768) by lia.
  assert (Hb : 0 <= x mod 65536 < 65536) by lia. assert (Hd : 0 <= y mod 65536 < 65536) by lia.
  set (a := x / 65536) in *. set (b := x mod 65536) in *. set (c := y / 65536) in *. set (d := y mod 65536) in *.
  clearbody a b c d. clear H.
  assert (H1 : Z.abs (a * d) <= Z.abs a * 65535) by nia.
  assert (H2 : Z.abs (c * b) <= Z.abs c * 65535) by nia. lia.
Qed.

Lemma cross_nonneg x y : 0 <= x < 2 ^ 31 -> 0 <= y < 2 ^ 31 -> x * y < 2 ^ 47 + 2 ^ 16 -> raw (cross x y).
Proof.
  unfold raw, cross. intros Hx Hy H.
  assert (Ha : 0 <= x / 65536 < 32768) by lia. assert (Hc : 0 <= y / 65536 < 32768) by lia.
  assert (Hb : 0 <= x mod 65536 < 65536) by lia. assert (Hd : 0 <= y mod 65536 < 65536) by lia.
  assert (Ex : x = 65536 * (x / 65536) + x mod 65536) by lia.
  assert (Ey : y = 65536 * (y / 65536) + y mod 65536) by lia.
  set (a := x / 65536) in *. set (b := x mod 65536) in *. set (c := y / 65536) in *. set (d := y mod 65536) in *.
  clearbody a b c d.
  assert (E : x * y = a * c * 2 ^ 32 + (a * d + c * b) * 2 ^ 16 + b * d) by (rewrite Ex, Ey; ring).
  assert (0 <= a * d) by nia. assert (0 <= c * b) by nia. assert (0 <= b * d) by nia. assert (0 <= a * c) by nia.
  split; [lia|].
  destruct (Z.eq_dec a 0) as [->|Ha0]; [nia|]. destruct (Z.eq_dec c 0) as [->|Hc0]; [nia|].
  assert (1 <= a * c) by nia. lia.
Qed.

Definition mul_safe (x y : Z) : Prop := x < 0 <= y \/ y < 0 <= x \/ Z.abs x + Z.abs y <= 2 ^ 31 - 2 ^ 17.

Lemma mul_safe_cross x y : raw x -> raw y -> mul_safe x y -> raw (cross x y).
Proof. intros Hx Hy [H|[H|H]]; [apply cross_opposite; auto..| now apply cross_small]. Qed.

Lemma mul_correct x y r : raw x -> raw y ->
  mul_safe x y -> nearest (x * y) 65536 r ->
  (- 2 ^ 31 < r < 2 ^ 31 -> mul x y = Ok r) /\
  (r = 2 ^ 31 \/ r = - 2 ^ 31 -> mul x y = Ub \/ mul x y = Ok sentinel) /\
  (r < - 2 ^ 31 \/ 2 ^ 31 < r -> mul x y = Ok sentinel).
Proof.
  intros Hx Hy Hs Hr. rewrite (mul_exact x y r) by auto using mul_safe_cross.
  apply nearest_formula in Hr.
  assert (Hn : 0 <= neg_bit (x * y) <= 1) by (unfold neg_bit; destruct (_ <? _); lia).
  set (P := x * y) in *. clearbody P.
  split; [|split]; intros Hrr.
  - replace ((- 2 ^ 47 <=? P) && (P <? 2 ^ 47)) with true by (unfold neg_bit in *; destruct (Z.ltb_spec P 0); lia).
    replace ((- 2 ^ 31 <? r) && (r <? 2 ^ 31)) with true by lia. reflexivity.
  - replace ((- 2 ^ 31 <? r) && (r <? 2 ^ 31)) with false by lia. destruct (_ && _); auto.
  - replace ((- 2 ^ 47 <=? P) && (P <? 2 ^ 47)) with false by lia. reflexivity.
Qed.

Lemma mul_nonneg x y r : 0 <= x < 2 ^ 31 -> 0 <= y < 2 ^ 31 ->
  nearest (x * y) 65536 r -> r < 2 ^ 31 -> mul x y = Ok r.
Proof.
  intros Hx Hy Hr Hr'. 
  assert (E : r = (x * y + 32768) / 65536).
  { apply nearest_formula in Hr. unfold neg_bit in Hr. replace (x * y <? 0) with false in Hr by nia.
    rewrite Hr. f_equal. lia. }
  rewrite (mul_exact x y r); auto; try (unfold raw; lia); [|apply cross_nonneg; lia].
  assert (HP : 0 <= x * y) by nia. set (P := x * y) in *. clearbody P.
  replace ((- 2 ^ 47 <=? P) && (P <? 2 ^ 47)) with true by lia.
  replace ((- 2 ^ 31 <? r) && (r <? 2 ^ 31)) with true by lia. reflexivity.
Qed.

(** ** Division *)

Lemma div_norm_ok x : 0 <= x < 2 ^ 31 -> forall fuel y bit, 0 < y < 2 ^ 32 -> x <= y * 2 ^ Z.of_nat fuel ->
  exists m, 0 <= m /\ div_norm (S fuel) y x bit = Some (y * 2 ^ m, if m =? 0 then bit else u32 (bit * 2 ^ m)) /\
    x <= y * 2 ^ m /\ (m = 0 \/ y * 2 ^ (m - 1) < x).
Proof.
  intros Hx. induction fuel as [|fuel IH]; intros y bit Hy Hf.
  - exists 0. change (2 ^ Z.of_nat 0) with 1 in Hf. rewrite Z.pow_0_r. cbn [div_norm].
    replace (y <? x) with false by lia. rewrite Z.mul_1_r. split; [lia|]. split; [reflexivity|]. lia.
  - remember (S fuel) as F. cbn [div_norm]. destruct (Z.ltb_spec y x).
    + assert (E : u32 (Z.shiftl y 1) = y * 2) by (rewrite Z.shiftl_mul_pow2 by lia; change (2 ^ 1) with 2; apply u32_id; lia).
      rewrite E. rewrite Z.shiftl_mul_pow2 by lia. change (2 ^ 1) with 2. subst F.
      destruct (IH (y * 2) (u32 (bit * 2))) as (m & Hm & En & Hle & Hlt); try lia.
      { rewrite Nat2Z.inj_succ, Z.pow_succ_r in Hf by lia. lia. }
      exists (m + 1). split; [lia|]. rewrite Z.pow_add_r by lia. change (2 ^ 1) with 2.
      split; [|split].
      * rewrite En. f_equal. f_equal; [ring|]. replace (m + 1 =? 0) with false by lia.
        destruct (Z.eqb_spec m 0) as [->|]; [rewrite Z.pow_0_r; f_equal; lia|].
        unfold u32. rewrite Zmult_mod_idemp_l. f_equal. ring.
      * lia.
      * right. replace (m + 1 - 1) with m by lia. destruct (Z.eq_dec m 0) as [->|Hm0]; [rewrite Z.pow_0_r; lia|].
        destruct Hlt as [|Hlt]; [lia|]. replace m with (m - 1 + 1) by lia. rewrite Z.pow_add_r by lia. lia.
    + exists 0. rewrite Z.pow_0_r, Z.mul_1_r. cbn [Z.eqb]. split; [lia|]. split; [reflexivity|]. lia.
Qed.

Lemma div_loop_ok D : 0 < D < 2 ^ 31 -> forall k fuel R q,
  (k + 2 <= fuel)%nat -> 0 <= R < 2 * D -> 
  exists R', div_loop fuel D R (2 ^ Z.of_nat k) (q * 2 ^ (Z.of_nat k + 1)) =
      Some (R', q * 2 ^ (Z.of_nat k + 1) + R * 2 ^ Z.of_nat k / D) /\
    (D <=? R') = (D <=? 2 * ((R * 2 ^ Z.of_nat k) mod D)).
Proof.
  intros HD. induction k as [|k IH]; intros fuel R q Hf HR.
  - destruct fuel as [|[|fuel]]; try lia. remember (S fuel) as F. cbn [div_loop].
    change (2 ^ Z.of_nat 0) with 1. change (1 =? 0) with false. cbn [negb andb]. rewrite !Z.mul_1_r.
    destruct (Z.eqb_spec R 0) as [->|HR0]; cbn [negb].
    + exists 0. rewrite Z.div_0_l, Z.mod_0_l by lia. split; [f_equal; f_equal; lia|]. lia.
    + change (2 ^ (Z.of_nat 0 + 1)) with (2 ^ 1). 
      change (Z.shiftr 1 1) with 0. 
      assert (Hl : Z.lor (q * 2 ^ 1) 1 = q * 2 ^ 1 + 1) by (apply lor_disjoint; lia).
      destruct (Z.leb_spec D R).
      * rewrite Hl. subst F. cbn [div_loop]. change (0 =? 0) with true. cbn [negb andb].
        rewrite Z.shiftl_mul_pow2 by lia. change (2 ^ 1) with 2. rewrite u32_id by lia.
        exists ((R - D) * 2). 
        assert (E1 : R / D = 1) by (symmetry; apply Z.div_unique with (R - D); lia).
        assert (E2 : R mod D = R - D) by (symmetry; apply Z.mod_unique with 1; lia).
        rewrite E1, E2. split; [reflexivity|]. f_equal. lia.
      * subst F. cbn [div_loop]. change (0 =? 0) with true. cbn [negb andb].
        rewrite Z.shiftl_mul_pow2 by lia. change (2 ^ 1) with 2. rewrite u32_id by lia.
        exists (R * 2). rewrite Z.div_small, Z.mod_small by lia. split; [f_equal; f_equal; lia|]. f_equal. lia.
  - destruct fuel as [|fuel]; [lia|]. cbn [div_loop].
    assert (Hp : 0 < 2 ^ Z.of_nat k) by (apply Z.pow_pos_nonneg; lia).
    rewrite Nat2Z.inj_succ, <- Z.add_1_r.
    set (K := Z.of_nat k) in *.
    assert (E2 : 2 ^ (K + 1) = 2 * 2 ^ K) by (rewrite Z.pow_add_r by lia; change (2 ^ 1) with 2; ring).
    assert (E4 : 2 ^ (K + 1 + 1) = 2 * 2 ^ (K + 1)) by (rewrite (Z.pow_add_r 2 (K + 1)) by lia; change (2 ^ 1) with 2; ring).
    replace (2 ^ (K + 1) =? 0) with false by lia. cbn [negb andb].
    destruct (Z.eqb_spec R 0) as [->|HR0]; cbn [negb].
    + exists 0. rewrite Z.mul_0_l, Z.div_0_l, Z.mod_0_l by lia. split; [f_equal; f_equal; lia|]. lia.
    + assert (Es : Z.shiftr (2 ^ (K + 1)) 1 = 2 ^ K).
      { rewrite Z.shiftr_div_pow2 by lia. change (2 ^ 1) with 2. rewrite E2. rewrite Z.mul_comm. apply Z.div_mul. lia. }
      rewrite Es.
      destruct (Z.leb_spec D R).
      * rewrite lor_disjoint by lia. rewrite Z.shiftl_mul_pow2 by lia. change (2 ^ 1) with 2. rewrite u32_id by lia.
        replace (q * 2 ^ (K + 1 + 1) + 2 ^ (K + 1)) with ((2 * q + 1) * 2 ^ (K + 1)) by (rewrite E4; ring).
        destruct (IH fuel ((R - D) * 2) (2 * q + 1)) as (R' & ER & HH); try lia.
        exists R'. fold K in ER. rewrite ER.
        assert (EA : R * 2 ^ (K + 1) = (R - D) * 2 * 2 ^ K + (2 ^ (K + 1)) * D) by (rewrite E2; ring).
        rewrite EA, Z.div_add, Z.mod_add by lia. fold K in HH. rewrite HH. split; [|reflexivity].
        f_equal. f_equal. rewrite E4. ring.
      * rewrite Z.shiftl_mul_pow2 by lia. change (2 ^ 1) with 2. rewrite u32_id by lia.
        replace (q * 2 ^ (K + 1 + 1)) with ((2 * q) * 2 ^ (K + 1)) by (rewrite E4; ring).
        destruct (IH fuel (R * 2) (2 * q)) as (R' & ER & HH); try lia.
        exists R'. fold K in ER. rewrite ER.
        assert (EA : R * 2 ^ (K + 1) = R * 2 * 2 ^ K) by (rewrite E2; ring).
        rewrite EA. fold K in HH. rewrite HH. split; reflexivity.
Qed.

Lemma testbit31 z : Z.testbit (u32 z) 31 = Z.testbit z 31.
Proof. unfold u32. change 4294967296 with (2 ^ 32). apply Z.mod_pow2_bits_low. lia. Qed.

Lemma sign_test x y : raw x -> raw y ->
  negb (Z.land (u32 (Z.lxor x y)) overflow_mask =? 0) = xorb (x <? 0) (y <? 0).
Proof.
  intros Hx Hy. rewrite Z.eqb_sym, land_top, negb_involutive, testbit31, Z.lxor_spec.
  rewrite <- (testbit31 x), <- (testbit31 y), !top_bit, (s32_id x), (s32_id y) by assumption. reflexivity.
Qed.

Lemma top_set z : 0 <= z < 2 ^ 32 -> negb (Z.land z overflow_mask =? 0) = (2 ^ 31 <=? z).
Proof.
  intros H. rewrite Z.eqb_sym, land_top, negb_involutive. rewrite <- (u32_id z) at 1 by lia. rewrite top_bit.
  rewrite s32_cases by lia. replace (z <? - 2 ^ 31) with false by lia.
  destruct (Z.ltb_spec z (2 ^ 31)); lia.
Qed.

(** The magnitude of the quotient, rounded half up. *)
Definition quot_mag (x y : Z) : Z := (2 * Z.abs x * 65536 + Z.abs y) / (2 * Z.abs y).

Lemma round_half X Y : 0 < Y -> 0 <= X ->
  X / Y + (if Y <=? 2 * (X mod Y) then 1 else 0) = (2 * X + Y) / (2 * Y).
Proof.
  intros HY HX. apply Z.div_unique with (if Y <=? 2 * (X mod Y) then 2 * (X mod Y) - Y else 2 * (X mod Y) + Y).
  - pose proof (Z.mod_pos_bound X Y HY). destruct (Z.leb_spec Y (2 * (X mod Y))); lia.
  - pose proof (Z.div_mod X Y ltac:(lia)). destruct (Z.leb_spec Y (2 * (X mod Y))); lia.
Qed.

Lemma u32_abs x : raw x -> x <> - 2 ^ 31 -> i32 (if 0 <=? x then x else - x) = Ok (Z.abs x) /\ u32 (Z.abs x) = Z.abs x.
Proof.
  unfold raw. intros H Hn. split; [|apply u32_id; lia].
  replace (if 0 <=? x then x else - x) with (Z.abs x) by (destruct (Z.leb_spec 0 x); lia).
  apply i32_ok. unfold raw. lia.
Qed.

Lemma leb_double a b : (a <=? b) = (2 * a <=? 2 * b).
Proof. lia. Qed.

Lemma div_char x y : raw x -> raw y -> y <> 0 -> x <> - 2 ^ 31 -> y <> - 2 ^ 31 ->
  div x y = if 2 ^ 15 * Z.abs y <? Z.abs x then Ok sentinel
            else if xorb (x <? 0) (y <? 0) then i32 (- s32 (quot_mag x y)) else Ok (s32 (quot_mag x y)).
Proof.
  intros Hx Hy Hy0 Hxn Hyn. unfold div, saturate, saturation, flag_rounding.
  replace (y =? 0) with false by lia.
  destruct (u32_abs x Hx Hxn) as [-> Ex]. cbn [bind]. destruct (u32_abs y Hy Hyn) as [-> Ey]. cbn [bind]. cbv zeta.
  rewrite Ex, Ey. unfold raw in *.
  set (X := Z.abs x) in *. set (Y := Z.abs y) in *.
  assert (HX : 0 <= X < 2 ^ 31) by (unfold X; lia). assert (HY : 0 < Y < 2 ^ 31) by (unfold Y; lia).
  destruct (div_norm_ok X HX 39 Y 65536) as (m & Hm & En & Hle & Hlt); [lia | |].
  { change (2 ^ Z.of_nat 39) with (2 ^ 39). nia. }
  rewrite En. clear En.
  assert (Hpm : 0 < 2 ^ m) by (apply Z.pow_pos_nonneg; lia).
  assert (HD : Y * 2 ^ m < 2 ^ 32).
  { destruct Hlt as [->|Hlt]; [rewrite Z.pow_0_r; lia|].
    destruct (Z.eq_dec m 0) as [->|]; [rewrite Z.pow_0_r; lia|].
    replace m with (m - 1 + 1) by lia. rewrite Z.pow_add_r by lia. lia. }
  assert (Hm32 : m < 32).
  { destruct (Z_lt_le_dec m 32); auto. pose proof (Z.pow_le_mono_r 2 32 m). nia. }
  assert (Eb : (if m =? 0 then 65536 else u32 (65536 * 2 ^ m)) = if m <? 16 then 2 ^ (16 + m) else 0).
  { rewrite Z.pow_add_r by lia. change (2 ^ 16) with 65536.
    destruct (Z.eqb_spec m 0) as [->|]; [reflexivity|]. destruct (Z.ltb_spec m 16).
    - apply u32_id. pose proof (Z.pow_le_mono_r 2 m 15). lia.
    - replace m with (16 + (m - 16)) by lia. rewrite Z.pow_add_r by lia. unfold u32.
      replace (65536 * (2 ^ 16 * 2 ^ (m - 16))) with (2 ^ (m - 16) * 4294967296) by (change (2 ^ 16) with 65536; ring).
      apply Z.mod_mul. lia. }
  rewrite Eb. clear Eb. destruct (Z.ltb_spec m 16) as [Hm16|Hm16].
  2:{ change (0 =? 0) with true. cbn [bind]. replace (2 ^ 15 * Y <? X) with true; [reflexivity|].
      symmetry. apply Z.ltb_lt. destruct Hlt as [->|Hlt]; [lia|].
      pose proof (Z.pow_le_mono_r 2 15 (m - 1) ltac:(lia) ltac:(lia)). nia. }
  replace (2 ^ 15 * Y <? X) with false.
  2:{ symmetry. apply Z.ltb_ge. pose proof (Z.pow_le_mono_r 2 m 15 ltac:(lia) ltac:(lia)). nia. }
  assert (Hpb : 0 < 2 ^ (16 + m)) by (apply Z.pow_pos_nonneg; lia).
  replace (2 ^ (16 + m) =? 0) with false by lia.
  rewrite top_set by lia.
  assert (Hq : (2 * (X * 2 ^ (16 + m)) + Y * 2 ^ m) / (2 * (Y * 2 ^ m)) = quot_mag x y).
  { unfold quot_mag. fold X Y.
    replace (2 * (X * 2 ^ (16 + m)) + Y * 2 ^ m) with ((2 * X * 65536 + Y) * 2 ^ m)
      by (rewrite Z.pow_add_r by lia; change (2 ^ 16) with 65536; ring).
    replace (2 * (Y * 2 ^ m)) with (2 * Y * 2 ^ m) by ring. apply Z.div_mul_cancel_r; lia. }
  assert (Hqr : 0 <= quot_mag x y <= 2 ^ 31).
  { unfold quot_mag. fold X Y. pose proof (Z.pow_le_mono_r 2 m 15 ltac:(lia) ltac:(lia)).
    split; [apply Z.div_pos; lia|]. apply Z.lt_succ_r. apply Z.div_lt_upper_bound; nia. }
  assert (Hfin : forall R' D, (D <=? R') = (Y * 2 ^ m <=? 2 * ((X * 2 ^ (16 + m)) mod (Y * 2 ^ m))) ->
    (r <- (let quotient := if D <=? R' then u32 (X * 2 ^ (16 + m) / (Y * 2 ^ m) + 1) else X * 2 ^ (16 + m) / (Y * 2 ^ m) in
      if negb (Z.land (u32 (Z.lxor x y)) overflow_mask =? 0)
      then if quotient =? u32 fMin then Ok overflow else i32 (- s32 quotient)
      else Ok (s32 quotient)) ;; Ok r) =
    if xorb (x <? 0) (y <? 0) then i32 (- s32 (quot_mag x y)) else Ok (s32 (quot_mag x y))).
  { intros R' D HR. cbv zeta.
    assert (E : (if D <=? R' then u32 (X * 2 ^ (16 + m) / (Y * 2 ^ m) + 1) else X * 2 ^ (16 + m) / (Y * 2 ^ m)) = quot_mag x y).
    { assert (HA : 0 < Y * 2 ^ m) by (apply Z.mul_pos_pos; [apply HY | exact Hpm]).
      assert (HB : 0 <= X * 2 ^ (16 + m)) by (apply Z.mul_nonneg_nonneg; [apply HX | clear - Hpb; lia]).
      rewrite HR. rewrite <- Hq in Hqr |- *. rewrite <- round_half in Hqr |- * by assumption.
      assert (HC : 0 <= X * 2 ^ (16 + m) / (Y * 2 ^ m)) by (apply Z.div_pos; assumption).
      clear - Hqr HC. revert Hqr HC. generalize (X * 2 ^ (16 + m) / (Y * 2 ^ m)). intros u Hqr HC.
      destruct (_ <=? _); [apply u32_id; lia | lia]. }
    rewrite E, sign_test by (clear - Hx Hy; unfold raw; lia). clear - Hqr.
    destruct (xorb _ _); [|reflexivity].
    replace (quot_mag x y =? u32 fMin) with false by (unfold u32, fMin; lia).
    destruct (i32 _); reflexivity. }
  clear Hq Hqr. assert (HYm : 0 < Y * 2 ^ m) by (apply Z.mul_pos_pos; [apply HY | exact Hpm]).
  destruct (Z.leb_spec (2 ^ 31) (Y * 2 ^ m)) as [Htop|Htop].
  - (* top bit set: one step, then halve the divisor *)
    assert (Hm0 : m <> 0) by (intros ->; rewrite Z.pow_0_r in Htop; lia).
    assert (Em : 2 ^ m = 2 * 2 ^ (m - 1)) by (rewrite <- Z.pow_succ_r by lia; f_equal; lia).
    assert (Ed : Z.shiftr (Y * 2 ^ m) 1 = Y * 2 ^ (m - 1)).
    { rewrite Z.shiftr_div_pow2 by lia. change (2 ^ 1) with 2. rewrite Em.
      replace (Y * (2 * 2 ^ (m - 1))) with (Y * 2 ^ (m - 1) * 2) by ring. apply Z.div_mul. lia. }
    assert (Ebt : 2 ^ (16 + m) = 2 * 2 ^ (15 + m)) by (rewrite <- Z.pow_succ_r by lia; f_equal; lia).
    assert (Ebit : Z.shiftr (2 ^ (16 + m)) 1 = 2 ^ (15 + m)).
    { rewrite Z.shiftr_div_pow2 by lia. change (2 ^ 1) with 2. rewrite Ebt, Z.mul_comm. apply Z.div_mul. lia. }
    set (D := Y * 2 ^ (m - 1)) in *. assert (ED : Y * 2 ^ m = 2 * D) by (unfold D; rewrite Em; ring).
    assert (HDpos : 0 < D) by (unfold D; apply Z.mul_pos_pos; [|apply Z.pow_pos_nonneg]; lia).
    assert (EK : 15 + m = Z.of_nat (Z.to_nat (15 + m))) by lia.
    assert (EK1 : 16 + m = Z.of_nat (Z.to_nat (15 + m)) + 1) by lia.
    assert (Hkf : (Z.to_nat (15 + m) + 2 <= 40)%nat) by lia.
    pose proof (div_loop_ok D ltac:(lia) (Z.to_nat (15 + m)) 40) as HL.
    rewrite <- EK in HL. replace (15 + m + 1) with (16 + m) in HL by lia.
    destruct (Z.leb_spec (Y * 2 ^ m) X) as [HXD|HXD].
    + rewrite Z.lor_0_l, Ed, Ebit.
      destruct (HL (X - Y * 2 ^ m) 1 Hkf ltac:(lia)) as (R' & ER & HH). rewrite Z.mul_1_l in ER. rewrite ER.
      assert (EA : X * 2 ^ (16 + m) = (X - Y * 2 ^ m) * 2 ^ (16 + m) + 2 ^ (16 + m) * (Y * 2 ^ m)) by ring.
      assert (Eq2 : (X - Y * 2 ^ m) * 2 ^ (15 + m) / D = (X - Y * 2 ^ m) * 2 ^ (16 + m) / (Y * 2 ^ m)).
      { rewrite ED, Ebt. replace ((X - 2 * D) * (2 * 2 ^ (15 + m))) with (2 * ((X - 2 * D) * 2 ^ (15 + m))) by ring.
        symmetry. apply Z.div_mul_cancel_l; clear - HDpos; lia. }
      replace (2 ^ (16 + m) + (X - Y * 2 ^ m) * 2 ^ (15 + m) / D) with (X * 2 ^ (16 + m) / (Y * 2 ^ m)).
      2:{ rewrite EA, Z.div_add by lia. rewrite Eq2. ring. }
      apply Hfin. rewrite HH. rewrite EA, Z.mod_add by lia.
      rewrite ED, Ebt. replace ((X - 2 * D) * (2 * 2 ^ (15 + m))) with (2 * ((X - 2 * D) * 2 ^ (15 + m))) by ring.
      rewrite Z.mul_mod_distr_l by (clear - HDpos; lia). apply leb_double.
    + rewrite Ed, Ebit.
      destruct (HL X 0 Hkf ltac:(lia)) as (R' & ER & HH). rewrite Z.mul_0_l in ER. rewrite ER, Z.add_0_l.
      assert (EA : X * 2 ^ (16 + m) = 2 * (X * 2 ^ (15 + m))) by (rewrite Ebt; ring).
      replace (X * 2 ^ (15 + m) / D) with (X * 2 ^ (16 + m) / (Y * 2 ^ m)).
      2:{ rewrite EA, ED. apply Z.div_mul_cancel_l; clear - HDpos; lia. }
      apply Hfin. rewrite HH, EA, ED, Z.mul_mod_distr_l by (clear - HDpos; lia). apply leb_double.
  - pose proof (div_loop_ok (Y * 2 ^ m) ltac:(clear - Htop HYm; lia) (Z.to_nat (16 + m)) 40%nat X 0 ltac:(clear - Hm Hm16; lia) ltac:(clear - Hle HX HYm; lia)) as HL.
    replace (Z.of_nat (Z.to_nat (16 + m))) with (16 + m) in HL by lia.
    destruct HL as (R' & ER & HH). rewrite Z.mul_0_l in ER. rewrite ER, Z.add_0_l.
    apply Hfin. exact HH.
Qed.
