(** The conversions at the two formats. *)
From Coq Require Import ZArith Reals Lra Lia Psatz Bool Factorial.
From Flocq Require Import Core IEEE754.BinarySingleNaN IEEE754.Binary IEEE754.Bits.
From Verif Require Import Base Fp16_Model Fp16Conv_Model PolyBound TrigBound Fp16Conv_Proofs.
Open Scope R_scope.

Notation F32 := (B2R 24 128).
Notation F64 := (B2R 53 1024).
Notation fin32 := (is_finite 24 128).
Notation fin64 := (is_finite 53 1024).

Lemma i32_in n : (-2147483648 <= n <= 2147483647)%Z -> i32 n = Ok n.
Proof. intros H. unfold i32. destruct (Z.leb_spec (-2147483648) n); [|lia]. destruct (Z.leb_spec n 2147483647); [|lia]. reflexivity. Qed.
Lemma i32_out n : ~ (-2147483648 <= n <= 2147483647)%Z -> i32 n = Ub.
Proof. intros H. unfold i32. destruct (Z.leb_spec (-2147483648) n); [|reflexivity]. destruct (Z.leb_spec n 2147483647); [lia|reflexivity]. Qed.

Section Both.
Variables prec emax : Z.
Context (Hp : Prec_gt_0 prec) (He : Prec_lt_emax prec emax).
Hypothesis P24 : (24 <= prec)%Z.
Hypothesis E128 : (128 <= emax)%Z.
Variable nanop : binary_float prec emax -> binary_float prec emax -> { x : binary_float prec emax | is_nan prec emax x = true }.
Notation V := (B2R prec emax).
Notation fin := (is_finite prec emax).
Notation R_ := (round radix2 (FLT_exp (3 - emax - prec) prec) ZnearestE).

Lemma to_nearest v : (- 2 ^ 31 <= v < 2 ^ 31)%Z -> fin (to_f prec emax Hp He nanop v) = true /\
  forall y, Rabs (V (to_f prec emax Hp He nanop v) - IZR v / 65536) <= Rabs (V y - IZR v / 65536).
Proof.
  intros H. destruct (to_f_ok prec emax Hp He P24 E128 nanop v H) as (F & E). split; [exact F|]. intros y. rewrite E.
  pose proof (R_near prec emax Hp (IZR v) (V y * bpow radix2 16)) as K. specialize (K (fmt_up prec emax _ 16 ltac:(lia) (V_fmt prec emax y))). change (bpow radix2 16) with 65536 in K.
  replace (R_ (IZR v) * / 65536 - IZR v / 65536) with ((R_ (IZR v) - IZR v) * / 65536) by field.
  replace (V y - IZR v / 65536) with ((V y * 65536 - IZR v) * / 65536) by field. rewrite !Rabs_mult. apply Rmult_le_compat_r; [apply Rabs_pos|exact K].
Qed.
Lemma to_exact v : (- 2 ^ 31 <= v < 2 ^ 31)%Z -> (Z.abs v <= 2 ^ prec)%Z -> V (to_f prec emax Hp He nanop v) = IZR v / 65536.
Proof. intros H A. destruct (to_f_ok prec emax Hp He P24 E128 nanop v H) as (F & E). rewrite E, R_id; [reflexivity|]. apply fmt_Z; auto. Qed.

(** out of the window: the conversion is undefined *)
Lemma from_big x : fin x = true -> bpow radix2 40 <= Rabs (V x) -> from_f prec emax Hp He nanop x = Ub.
Proof.
  intros F B. destruct (Rle_or_lt (bpow radix2 80) (Rabs (V x))) as [L|L]; [apply from_f_unb; auto|].
  destruct (from_f_ok prec emax Hp He P24 E128 nanop x F ltac:(lra)) as (-> & FF). apply i32_out. intros C.
  set (f := V x * 65536) in *. assert (LB : 2 ^ 55 <= Rabs f).
  { unfold f. rewrite Rabs_mult, (Rabs_pos_eq 65536) by lra. apply Rle_trans with (bpow radix2 40 * 65536); [|apply Rmult_le_compat_r; lra]. rewrite powZ by lia. rewrite <- mult_IZR. replace (2 ^ 55) with (IZR (2 ^ 55)) by (rewrite pow_IZR; reflexivity). apply IZR_le. vm_compute. discriminate. }
  assert (D : Rabs (IZR (rounded prec emax f) - f) <= 1).
  { destruct (Rlt_or_le (Rabs f) (bpow radix2 (prec - 1))) as [S|S]; [|apply (rounded_large prec emax Hp P24 E128 f FF S)].
    destruct (rounded_small prec emax Hp P24 E128 f FF S) as (K & _). assert (bpow radix2 (- prec - 1) <= bpow radix2 (-1)) by (apply bpow_le; lia). change (bpow radix2 (-1)) with (/ 2) in H. lra. }
  destruct C as (C1 & C2). apply IZR_le in C1. apply IZR_le in C2. assert (2147483650 <= 2 ^ 55) by lra. apply Rabs_le_inv in D. unfold Rabs in LB. destruct (Rcase_abs f); lra.
Qed.
End Both.

Lemma is53 : Prec_gt_0 53. Proof. reflexivity. Qed.
Lemma is24 : Prec_gt_0 24. Proof. reflexivity. Qed.
Notation near_half := (/ 2 - / 18014398509481984).  (* the double below a half *)

Lemma from_double_ok x : fin64 x = true -> let f := F64 x * 65536 in -2147483648 - / 2 < f < 2147483648 - / 2 ->
  exists r, fromDouble x = Ok r /\ Rabs (IZR r - f) <= / 2 + / 18014398509481984 /\
    (Rabs f <> near_half -> Rabs (IZR r - f) <= / 2 /\ (Rabs (IZR r - f) = / 2 -> Rabs f < Rabs (IZR r))).
Proof.
  intros F f B. destruct (from_f_ok 53 1024 eq_refl eq_refl ltac:(lia) ltac:(lia) binop_nan_pl64 x F) as (E & FF).
  { apply Rle_trans with (bpow radix2 20); [|apply bpow_le; lia]. change (bpow radix2 20) with 1048576. apply Rabs_le. unfold f in B. lra. }
  fold f in E, FF. change (bpow radix2 (-54)) with (/ 18014398509481984) in *.
  assert (S : Rabs f < bpow radix2 (53 - 1)). { apply Rlt_trans with (bpow radix2 40); [|apply bpow_lt; lia]. change (bpow radix2 40) with 1099511627776. apply Rabs_def1; lra. }
  destruct (rounded_small 53 1024 is53 ltac:(lia) ltac:(lia) f FF S) as (K1 & K2). change (bpow radix2 (- (53) - 1)) with (/ 18014398509481984) in *.
  set (r := rounded 53 1024 f) in *. exists r. split; [|auto]. unfold fromDouble. rewrite E. apply i32_in.
  assert (NH : Rabs f <> near_half -> (-2147483648 <= r <= 2147483647)%Z).
  { intros N. destruct (K2 N) as (K3 & _). apply Rabs_le_inv in K3. assert (- 2147483649 < r)%Z by (apply lt_IZR; lra). assert (r < 2147483648)%Z by (apply lt_IZR; lra). lia. }
  destruct (Req_dec (Rabs f) near_half) as [N|N]; [|auto]. 
  assert (Rabs f <= 1) by lra. apply Rabs_le_inv in H. apply Rabs_le_inv in K1. assert (-3 < r)%Z by (apply lt_IZR; lra). assert (r < 3)%Z by (apply lt_IZR; lra). lia.
Qed.
Lemma from_double_out x : fin64 x = false \/ ~ (-2147483648 - / 2 < F64 x * 65536 < 2147483648 - / 2) -> fromDouble x = Ub.
Proof.
  intros [F|B]; [apply from_f_unb; auto; lia|]. destruct (fin64 x) eqn:F; [|apply from_f_unb; auto; lia].
  destruct (Rle_or_lt (bpow radix2 40) (Rabs (F64 x))) as [L|L]; [apply from_big; auto; lia|].
  destruct (from_f_ok 53 1024 eq_refl eq_refl ltac:(lia) ltac:(lia) binop_nan_pl64 x F) as (E & FF). { apply Rle_trans with (bpow radix2 40); [lra|apply bpow_le; lia]. }
  unfold fromDouble. rewrite E. apply i32_out. set (f := F64 x * 65536) in *. intros (C1 & C2). apply IZR_le in C1. apply IZR_le in C2. apply B. clear B.
  assert (D : Rabs (IZR (rounded 53 1024 f) - f) <= 1).
  { destruct (Rlt_or_le (Rabs f) (bpow radix2 (53 - 1))) as [S|S]; [|apply (rounded_large 53 1024 is53 ltac:(lia) ltac:(lia) f FF S)].
    destruct (rounded_small 53 1024 is53 ltac:(lia) ltac:(lia) f FF S) as (K & _). change (bpow radix2 (- (53) - 1)) with (/ 18014398509481984) in K. lra. }
  apply Rabs_le_inv in D.
  assert (S : Rabs f < bpow radix2 (53 - 1)). { apply Rlt_trans with (bpow radix2 40); [|apply bpow_lt; lia]. change (bpow radix2 40) with 1099511627776. apply Rabs_def1; lra. }
  destruct (rounded_small 53 1024 is53 ltac:(lia) ltac:(lia) f FF S) as (K1 & K2). change (bpow radix2 (- (53) - 1)) with (/ 18014398509481984) in *.
  destruct (Req_dec (Rabs f) near_half) as [N|N]; [assert (Q : Rabs f <= 1) by lra; apply Rabs_le_inv in Q; lra|].
  destruct (K2 N) as (K3 & K4). set (r := IZR (rounded 53 1024 f)) in *. apply Rabs_le_inv in K3.
  split; apply Rnot_le_lt; intros X.
  - assert (r - f = / 2) by lra. assert (Q : Rabs (r - f) = / 2) by (rewrite H; apply Rabs_pos_eq; lra). specialize (K4 Q). rewrite (Rabs_left f), (Rabs_left r) in K4 by lra. lra.
  - assert (r - f = - / 2) by lra. assert (Q : Rabs (r - f) = / 2) by (rewrite H, Rabs_left by lra; lra). specialize (K4 Q). rewrite (Rabs_pos_eq f), (Rabs_pos_eq r) in K4 by lra. lra.
Qed.

Notation near_half32 := (/ 2 - / 33554432).
Lemma from_float_ok x : fin32 x = true -> let f := F32 x * 65536 in -2147483648 <= f < 2147483648 ->
  exists r, fromFloat x = Ok r /\ Rabs (IZR r - f) <= 1 /\ (16777216 <= Rabs f -> IZR r = f) /\
    (Rabs f < 8388608 -> Rabs (IZR r - f) <= / 2 + / 33554432 /\
    (Rabs f <> near_half32 -> Rabs (IZR r - f) <= / 2 /\ (Rabs (IZR r - f) = / 2 -> Rabs f < Rabs (IZR r)))).
Proof.
  intros F f B. destruct (from_f_ok 24 128 eq_refl eq_refl ltac:(lia) ltac:(lia) binop_nan_pl32 x F) as (E & FF).
  { apply Rle_trans with (bpow radix2 20); [|apply bpow_le; lia]. change (bpow radix2 20) with 1048576. apply Rabs_le. unfold f in B. lra. }
  fold f in E, FF. set (r := rounded 24 128 f) in *. exists r.
  destruct (Rlt_or_le (Rabs f) 8388608) as [S|S].
  - destruct (rounded_small 24 128 is24 ltac:(lia) ltac:(lia) f FF S) as (K1 & K2). change (bpow radix2 (- (24) - 1)) with (/ 33554432) in *. fold r in K1, K2.
    split; [|split; [lra|split; [lra|auto]]]. unfold fromFloat. rewrite E. apply i32_in. apply Rabs_le_inv in K1. apply Rabs_def2 in S.
    assert (-8388610 < r)%Z by (apply lt_IZR; lra). assert (r < 8388610)%Z by (apply lt_IZR; lra). lia.
  - destruct (rounded_large 24 128 is24 ltac:(lia) ltac:(lia) f FF S) as (K1 & K2). change (bpow radix2 24) with 16777216 in *. fold r in K1, K2.
    split; [|split; [exact K1|split; [exact K2|intros; lra]]]. unfold fromFloat. rewrite E. apply i32_in. apply Rabs_le_inv in K1.
    destruct (Rlt_or_le (Rabs f) 16777216) as [S2|S2].
    + apply Rabs_def2 in S2. assert (-16777220 < r)%Z by (apply lt_IZR; lra). assert (r < 16777220)%Z by (apply lt_IZR; lra). lia.
    + specialize (K2 S2). assert (-2147483648 <= r)%Z by (apply le_IZR; lra). assert (r < 2147483648)%Z by (apply lt_IZR; lra). lia.
Qed.
Lemma from_float_out x : fin32 x = false \/ ~ (-2147483648 <= F32 x * 65536 < 2147483648) -> fromFloat x = Ub.
Proof.
  intros [F|B]; [apply from_f_unb; auto; lia|]. destruct (fin32 x) eqn:F; [|apply from_f_unb; auto; lia].
  destruct (Rle_or_lt (bpow radix2 40) (Rabs (F32 x))) as [L|L]; [apply from_big; auto; lia|].
  destruct (from_f_ok 24 128 eq_refl eq_refl ltac:(lia) ltac:(lia) binop_nan_pl32 x F) as (E & FF). { apply Rle_trans with (bpow radix2 40); [lra|apply bpow_le; lia]. }
  unfold fromFloat. rewrite E. apply i32_out. set (f := F32 x * 65536) in *. intros (C1 & C2). apply IZR_le in C1. apply IZR_le in C2.
  assert (2147483648 <= Rabs f). { unfold Rabs. destruct (Rcase_abs f); apply Rnot_lt_le; intros X; apply B; lra. }
  assert (S : bpow radix2 (24 - 1) <= Rabs f) by (change (bpow radix2 (24 - 1)) with 8388608; lra).
  destruct (rounded_large 24 128 is24 ltac:(lia) ltac:(lia) f FF S) as (K1 & K2). rewrite K2 in C1, C2 by (change (bpow radix2 24) with 16777216; lra). apply B. lra.
Qed.

Lemma trip_double v : (- 2 ^ 31 <= v < 2 ^ 31)%Z -> fromDouble (toDouble v) = Ok v.
Proof.
  intros H. destruct (to_nearest 53 1024 eq_refl eq_refl ltac:(lia) ltac:(lia) binop_nan_pl64 v H) as (F & _).
  assert (E : F64 (toDouble v) = IZR v / 65536) by (apply to_exact; auto; lia).
  assert (B : -2147483648 <= IZR v <= 2147483647) by (split; apply IZR_le; lia).
  destruct (from_double_ok (toDouble v) F) as (r & -> & K & _); [rewrite E; replace (IZR v / 65536 * 65536) with (IZR v) by field; lra|]. rewrite E in K. replace (IZR v / 65536 * 65536) with (IZR v) in K by field.
  apply Rabs_le_inv in K. f_equal. assert (v - 1 < r)%Z by (apply lt_IZR; rewrite minus_IZR; lra). assert (r < v + 1)%Z by (apply lt_IZR; rewrite plus_IZR; lra). lia.
Qed.
Lemma trip_float v : (Z.abs v <= 2 ^ 23)%Z -> fromFloat (toFloat v) = Ok v.
Proof.
  intros H. destruct (Z.eq_dec (Z.abs v) (2 ^ 23)) as [X|X].
  { assert (v = 8388608 \/ v = -8388608)%Z as [-> | ->] by (change (2 ^ 23)%Z with 8388608%Z in X; lia); vm_compute; reflexivity. }
  destruct (to_nearest 24 128 eq_refl eq_refl ltac:(lia) ltac:(lia) binop_nan_pl32 v ltac:(lia)) as (F & _).
  assert (E : F32 (toFloat v) = IZR v / 65536) by (apply to_exact; auto; lia).
  assert (B : Rabs (IZR v) < 8388608) by (rewrite <- abs_IZR; apply IZR_lt; lia). pose proof (Rabs_def2 _ _ B) as B2.
  destruct (from_float_ok (toFloat v) F) as (r & -> & _ & _ & K); [rewrite E; replace (IZR v / 65536 * 65536) with (IZR v) by field; lra|]. rewrite E in K. replace (IZR v / 65536 * 65536) with (IZR v) in K by field. destruct (K B) as (K1 & _).
  apply Rabs_le_inv in K1. f_equal. assert (v - 1 < r)%Z by (apply lt_IZR; rewrite minus_IZR; lra). assert (r < v + 1)%Z by (apply lt_IZR; rewrite plus_IZR; lra). lia.
Qed.

(** *** Bounds on the constants *)
Lemma exp1_bounds : 2718281 / 1000000 <= Rtrigo_def.exp 1 <= 2718282 / 1000000.
Proof.
  pose proof (exp_taylor 10 1) as H. destruct facts as (H0 & H1 & H2 & H3 & H4 & H5 & H6 & H7 & H8 & H9 & H10 & H11 & _).
  rewrite Rabs_R1 in H. specialize (H ltac:(lra)). cbn [sum_f_R0] in H. rewrite H0, H1, H2, H3, H4, H5, H6, H7, H8, H9, H10, H11 in H. apply Rabs_le_inv in H. rewrite !pow1 in H. lra.
Qed.
Lemma ln54_bounds : 223143 / 1000000 <= ln (5 / 4) <= 223144 / 1000000.
Proof.
  apply ln_between; [lra|]. destruct facts as (H0 & H1 & H2 & H3 & H4 & H5 & H6 & H7 & H8 & H9 & _).
  split.
  - pose proof (exp_taylor 7 (223143 / 1000000)) as H. rewrite Rabs_pos_eq in H by lra. specialize (H ltac:(lra)). cbn [sum_f_R0] in H. rewrite H0, H1, H2, H3, H4, H5, H6, H7, H8 in H. apply Rabs_le_inv in H. cbn [pow] in H. lra.
  - pose proof (exp_taylor 7 (223144 / 1000000)) as H. rewrite Rabs_pos_eq in H by lra. specialize (H ltac:(lra)). cbn [sum_f_R0] in H. rewrite H0, H1, H2, H3, H4, H5, H6, H7, H8 in H. apply Rabs_le_inv in H. cbn [pow] in H. lra.
Qed.
Lemma ln10_bounds : 2302583 / 1000000 <= ln 10 <= 2302587 / 1000000.
Proof.
  replace 10 with (2 * (2 * (2 * (5 / 4)))) by field. rewrite !ln_mult by lra. pose proof ln2_L2 as H. apply Rabs_le_inv in H. unfold L2 in H. pose proof ln54_bounds. lra.
Qed.
Lemma inv_bounds a b x : 0 < a -> a <= x <= b -> / b <= / x <= / a.
Proof. intros P H. split; apply Rinv_le; lra. Qed.
Lemma sqrt_bounds a b x : 0 <= a -> 0 <= b -> a * a <= x <= b * b -> a <= R_sqrt.sqrt x <= b.
Proof. intros P Q H. rewrite <- (sqrt_square a), <- (sqrt_square b) by auto. split; apply sqrt_le_1_alt; lra. Qed.
