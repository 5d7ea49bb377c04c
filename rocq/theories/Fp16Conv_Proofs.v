(** Proofs about the conversions between Q16.16 and floating point. *)
From Coq Require Import ZArith Reals Lra Lia Psatz Bool.
From Flocq Require Import Core IEEE754.BinarySingleNaN IEEE754.Binary IEEE754.Bits.
From Verif Require Import Base Fp16_Model Fp16Conv_Model.
Open Scope R_scope.

Lemma powZ n : (0 <= n)%Z -> bpow radix2 n = IZR (2 ^ n).
Proof. intros H. destruct n; try reflexivity. lia. Qed.
Lemma bpos e : 0 < bpow radix2 e. Proof. apply bpow_gt_0. Qed.

Section Format.
Variables prec emax : Z.
Context (Hp : Prec_gt_0 prec) (He : Prec_lt_emax prec emax).
Hypothesis P24 : (24 <= prec)%Z.
Hypothesis E128 : (128 <= emax)%Z.
Variable nanop : binary_float prec emax -> binary_float prec emax -> { x : binary_float prec emax | is_nan prec emax x = true }.
Notation fl := (binary_float prec emax).
Notation V := (B2R prec emax).
Notation fin := (is_finite prec emax).
Notation emin := (3 - emax - prec)%Z.
Notation fx := (FLT_exp emin prec).
Notation R_ := (round radix2 fx ZnearestE).
Notation fmt := (generic_format radix2 fx).

Lemma fexp_is : SpecFloat.fexp prec emax = fx. Proof. reflexivity. Qed.
Lemma V_fmt x : fmt (V x). Proof. apply (generic_format_B2R prec emax). Qed.
Lemma R_id x : fmt x -> R_ x = x. Proof. intros H. apply round_generic; [apply valid_rnd_N|auto]. Qed.
Lemma R_le x y : x <= y -> R_ x <= R_ y. Proof. apply round_le; [apply FLT_exp_valid; auto|apply valid_rnd_N]. Qed.
Lemma R_opp x : R_ (- x) = - R_ x. Proof. apply round_NE_opp. Qed.
Lemma R_lo x y : fmt x -> x <= y -> x <= R_ y. Proof. intros F H. rewrite <- (R_id x F). apply R_le; auto. Qed.
Lemma R_hi x y : fmt x -> y <= x -> R_ y <= x. Proof. intros F H. rewrite <- (R_id x F). apply R_le; auto. Qed.
Lemma R_near x g : fmt g -> Rabs (R_ x - x) <= Rabs (g - x).
Proof. intros F. destruct (round_N_pt radix2 fx (fun n => negb (Z.even n)) x) as (_ & K). apply K. auto. Qed.

(** multiples of a power of two are representable, and conversely *)
Lemma fmt_mult m e : (emin <= e)%Z -> (Z.abs m <= 2 ^ prec)%Z -> fmt (IZR m * bpow radix2 e).
Proof.
  intros H1 H2. destruct (Z.eq_dec (Z.abs m) (2 ^ prec)) as [E|N].
  - assert (IZR m * bpow radix2 e = bpow radix2 (prec + e) \/ IZR m * bpow radix2 e = - bpow radix2 (prec + e)) as [-> | ->].
    { rewrite bpow_plus, (powZ prec) by lia. destruct (Z.abs_spec m) as [(_ & A)|(_ & A)].
      - left. f_equal. f_equal. lia.
      - right. replace m with (- 2 ^ prec)%Z by lia. rewrite opp_IZR. ring. }
    + apply generic_format_bpow. unfold FLT_exp. unfold Prec_gt_0 in Hp. lia.
    + apply generic_format_opp. apply generic_format_bpow. unfold FLT_exp. unfold Prec_gt_0 in Hp. lia.
  - apply generic_format_FLT. exists (Float radix2 m e); [reflexivity| |exact H1]. cbn [Fnum]. change (radix2 ^ prec)%Z with (2 ^ prec)%Z. lia.
Qed.
Lemma fmt_Z n : (Z.abs n <= 2 ^ prec)%Z -> fmt (IZR n).
Proof. intros H. replace (IZR n) with (IZR n * bpow radix2 0) by (cbn; ring). apply fmt_mult; auto. unfold Prec_gt_0, Prec_lt_emax in *. lia. Qed.
Lemma fmt_multiple f a : fmt f -> bpow radix2 a <= Rabs f -> exists m, f = IZR m * bpow radix2 (a + 1 - prec).
Proof.
  intros F H. unfold generic_format in F. set (c := cexp radix2 fx f) in *. set (k := Ztrunc (scaled_mantissa radix2 fx f)) in *.
  assert (C : (a + 1 - prec <= c)%Z).
  { unfold c, cexp, FLT_exp. assert (a + 1 <= mag radix2 f)%Z by (apply mag_ge_bpow; replace (a + 1 - 1)%Z with a by ring; auto). lia. }
  exists (k * 2 ^ (c - (a + 1 - prec)))%Z. rewrite F at 1. unfold F2R. cbn [Fnum Fexp]. rewrite mult_IZR, <- powZ by lia. rewrite Rmult_assoc, <- bpow_plus. f_equal. f_equal. lia.
Qed.

Lemma no_ovf x : Rabs x <= bpow radix2 (emax - 1) -> Rlt_bool (Rabs (R_ x)) (bpow radix2 emax) = true.
Proof.
  intros H. apply Rlt_bool_true. assert (FB : fmt (bpow radix2 (emax - 1))) by (apply generic_format_bpow; unfold FLT_exp, Prec_gt_0, Prec_lt_emax in *; lia).
  apply Rle_lt_trans with (bpow radix2 (emax - 1)); [|apply bpow_lt; lia]. apply Rabs_le_inv in H. apply Rabs_le. split; [apply R_lo; [apply generic_format_opp; auto|lra]|apply R_hi; auto; lra].
Qed.
Lemma big_lt x k : Rabs x <= bpow radix2 k -> (k <= 127)%Z -> Rabs x <= bpow radix2 (emax - 1).
Proof. intros H K. apply Rle_trans with (1 := H). apply bpow_le. lia. Qed.
Lemma mul_V x y : fin x = true -> fin y = true -> Rabs (V x * V y) <= bpow radix2 (emax - 1) ->
  fin (mul_f prec emax Hp He nanop x y) = true /\ V (mul_f prec emax Hp He nanop x y) = R_ (V x * V y).
Proof.
  intros Fx Fy B. pose proof (Bmult_correct prec emax Hp He nanop mode_NE x y) as H. rewrite fexp_is in H. cbn [round_mode] in H. rewrite no_ovf in H by auto.
  destruct H as (W & K & _). unfold mul_f. rewrite K, Fx, Fy. auto.
Qed.
Lemma add_V x y : fin x = true -> fin y = true -> Rabs (V x + V y) <= bpow radix2 (emax - 1) ->
  fin (add_f prec emax Hp He nanop x y) = true /\ V (add_f prec emax Hp He nanop x y) = R_ (V x + V y).
Proof.
  intros Fx Fy B. pose proof (Bplus_correct prec emax Hp He nanop mode_NE x y Fx Fy) as H. rewrite fexp_is in H. cbn [round_mode] in H. rewrite no_ovf in H by auto.
  destruct H as (W & K & _). unfold add_f. auto.
Qed.
Lemma ofZ_V n : (Z.abs n <= 2 ^ 40)%Z -> fin (ofZ prec emax Hp He n) = true /\ V (ofZ prec emax Hp He n) = R_ (IZR n).
Proof.
  intros H. assert (E : F2R (Float radix2 n 0) = IZR n) by (unfold F2R; cbn; ring).
  pose proof (binary_normalize_correct prec emax Hp He mode_NE n 0 false) as C. fold (ofZ prec emax Hp He n) in C. rewrite E, fexp_is in C. cbn [round_mode] in C.
  rewrite no_ovf in C.
  - destruct C as (W & F & _). auto.
  - apply big_lt with 40%Z; [|lia]. rewrite <- abs_IZR, powZ by lia. apply IZR_le. auto.
Qed.
Lemma pow2_V e : (-100 <= e <= 100)%Z -> fin (pow2 prec emax Hp He e) = true /\ V (pow2 prec emax Hp He e) = bpow radix2 e.
Proof.
  intros H. assert (E : F2R (Float radix2 1 e) = bpow radix2 e) by (unfold F2R; cbn [Fnum Fexp]; ring).
  pose proof (binary_normalize_correct prec emax Hp He mode_NE 1 e false) as C. fold (pow2 prec emax Hp He e) in C. rewrite E, fexp_is in C. cbn [round_mode] in C.
  assert (FB : fmt (bpow radix2 e)) by (apply generic_format_bpow; unfold FLT_exp, Prec_gt_0, Prec_lt_emax in *; lia).
  rewrite no_ovf in C.
  - destruct C as (W & F & _). rewrite R_id in W by auto. auto.
  - apply big_lt with 100%Z; [|lia]. rewrite Rabs_pos_eq by (left; apply bpos). apply bpow_le. lia.
Qed.

(** scaling by 2^k *)
Lemma fmt_up f k : (0 <= k)%Z -> fmt f -> fmt (f * bpow radix2 k).
Proof.
  intros K F. destruct (Req_dec f 0) as [->|N]; [rewrite Rmult_0_l; apply generic_format_0|].
  unfold generic_format in F. set (c := cexp radix2 fx f) in *. set (m := Ztrunc (scaled_mantissa radix2 fx f)) in *.
  assert (E : f * bpow radix2 k = F2R (Float radix2 m (c + k))) by (rewrite F at 1; unfold F2R; cbn [Fnum Fexp]; rewrite bpow_plus; ring).
  rewrite E. apply generic_format_F2R. intros M. rewrite <- E. unfold cexp. rewrite mag_mult_bpow by auto. unfold c, cexp, FLT_exp. lia.
Qed.
Lemma fmt_down f k : (0 <= k <= 60)%Z -> fmt f -> 1 <= Rabs f \/ f = 0 -> fmt (f * bpow radix2 (- k)).
Proof.
  intros K F [H| ->]; [|rewrite Rmult_0_l; apply generic_format_0].
  assert (N : f <> 0) by (intros ->; rewrite Rabs_R0 in H; lra).
  unfold generic_format in F. set (c := cexp radix2 fx f) in *. set (m := Ztrunc (scaled_mantissa radix2 fx f)) in *.
  assert (E : f * bpow radix2 (- k) = F2R (Float radix2 m (c + - k))) by (rewrite F at 1; unfold F2R; cbn [Fnum Fexp]; rewrite bpow_plus; ring).
  rewrite E. apply generic_format_F2R. intros M. rewrite <- E. unfold cexp. rewrite mag_mult_bpow by auto.
  assert (1 <= mag radix2 f)%Z by (apply mag_ge_bpow; cbn; auto). unfold c, cexp, FLT_exp, Prec_gt_0, Prec_lt_emax in *. lia.
Qed.

Lemma toZ_ok x : fin x = true -> toZ prec emax x = i32 (Ztrunc (V x)).
Proof.
  intros F. destruct x as [s|s|s pl H|s m e H]; try discriminate; cbn [toZ B2R].
  - rewrite (Ztrunc_IZR 0). reflexivity.
  - f_equal. unfold F2R. cbn [Fnum Fexp]. set (a := if (0 <=? e)%Z then _ else _).
    assert (A : Ztrunc (IZR (Zpos m) * bpow radix2 e) = a).
    { unfold a. destruct (Z.leb_spec 0 e) as [L|L].
      - rewrite powZ, <- mult_IZR by auto. apply Ztrunc_IZR.
      - rewrite Ztrunc_floor by (apply Rmult_le_pos; [apply IZR_le; lia|left; apply bpos]).
        replace (bpow radix2 e) with (/ IZR (2 ^ (- e))) by (rewrite <- powZ, <- bpow_opp by lia; f_equal; lia).
        apply Zfloor_div. assert (0 < 2 ^ (- e))%Z by (apply Z.pow_pos_nonneg; lia). lia. }
    destruct s; cbn [cond_Zopp]; rewrite <- A; auto. change (Z.neg m) with (- Zpos m)%Z. rewrite opp_IZR, Ropp_mult_distr_l_reverse, Ztrunc_opp. reflexivity.
Qed.
Lemma ge0_ok x : fin x = true -> ge0 prec emax Hp He x = Rle_bool 0 (V x).
Proof.
  intros F. unfold ge0. destruct (ofZ_V 0) as (F0 & V0); [cbn; lia|]. rewrite R_id in V0 by apply generic_format_0.
  rewrite Bcompare_correct by auto. rewrite V0. destruct (Rcompare_spec (V x) 0); [rewrite Rle_bool_false|rewrite Rle_bool_true|rewrite Rle_bool_true]; auto; lra.
Qed.

(** *** From fixed point *)
Lemma to_f_ok v : (- 2 ^ 31 <= v < 2 ^ 31)%Z -> fin (to_f prec emax Hp He nanop v) = true /\ V (to_f prec emax Hp He nanop v) = R_ (IZR v) * / 65536.
Proof.
  intros H. destruct (ofZ_V v) as (F1 & V1); [lia|]. destruct (pow2_V (-16)) as (F2 & V2); [lia|]. change (bpow radix2 (-16)) with (/ 65536) in V2.
  assert (B31 : Rabs (R_ (IZR v)) <= bpow radix2 31).
  { assert (FB : fmt (bpow radix2 31)) by (apply generic_format_bpow; unfold FLT_exp, Prec_gt_0, Prec_lt_emax in *; lia).
    assert (- bpow radix2 31 <= IZR v <= bpow radix2 31) by (rewrite powZ, <- opp_IZR by lia; split; apply IZR_le; lia).
    apply Rabs_le. split; [apply R_lo; [apply generic_format_opp; auto|lra]|apply R_hi; auto; lra]. }
  unfold to_f. destruct (mul_V (ofZ prec emax Hp He v) (pow2 prec emax Hp He (-16)) F1 F2) as (F3 & V3).
  { rewrite V1, V2. apply big_lt with 31%Z; [|lia]. rewrite Rabs_mult, (Rabs_pos_eq (/ 65536)) by lra. pose proof (Rabs_pos (R_ (IZR v))). lra. }
  split; [exact F3|]. rewrite V3, V1, V2. apply R_id. change (/ 65536) with (bpow radix2 (- 16)). apply (fmt_down _ 16); [lia|apply generic_format_round; [apply FLT_exp_valid; auto|apply valid_rnd_N]|].
  destruct (Z.eq_dec v 0) as [->|N]; [right; apply R_id; apply generic_format_0|left].
  destruct (Z.lt_ge_cases v 0).
  - assert (R_ (IZR v) <= IZR (-1)) by (apply R_hi; [apply fmt_Z; cbn; assert (2 ^ 24 <= 2 ^ prec)%Z by (apply Z.pow_le_mono_r; lia); lia|apply IZR_le; lia]).
    rewrite Rabs_left1 by lra. lra.
  - assert (IZR 1 <= R_ (IZR v)) by (apply R_lo; [apply fmt_Z; cbn; assert (2 ^ 24 <= 2 ^ prec)%Z by (apply Z.pow_le_mono_r; lia); lia|apply IZR_le; lia]).
    rewrite Rabs_pos_eq; lra.
Qed.

(** *** Rounding by adding a half and truncating *)
Notation T := (bpow radix2 (prec - 1)).
Lemma half_small f n : fmt f -> 0 <= f -> f + / 2 < T -> IZR n <= f + / 2 < IZR n + 1 -> (1 <= n)%Z -> IZR n <= R_ (f + / 2) < IZR n + 1.
Proof.
  intros F P B N N1. assert (PT : (n < 2 ^ (prec - 1))%Z). { apply lt_IZR. rewrite <- powZ by lia. lra. }
  assert (P2 : (2 ^ prec = 2 * 2 ^ (prec - 1))%Z). { replace prec with (Z.succ (prec - 1)) at 1 by ring. apply Z.pow_succ_r. lia. }
  split; [apply R_lo; [apply fmt_Z; lia|lra]|].
  (* a: exponent of n *)
  set (a := Z.log2 n). assert (La : (2 ^ a <= n < 2 ^ (a + 1))%Z) by (apply Z.log2_spec; lia).
  assert (A0 : (0 <= a)%Z) by apply Z.log2_nonneg. assert (Ap : (a + 1 <= prec - 1)%Z).
  { assert (a < prec - 1)%Z; [|lia]. apply (Z.pow_lt_mono_r_iff 2); lia. }
  set (u := bpow radix2 (a + 1 - prec)). assert (U : 0 < u <= / 2). { unfold u. split; [apply bpos|]. change (/ 2) with (bpow radix2 (-1)). apply bpow_le. lia. }
  assert (UK : IZR (2 ^ (prec - 1 - a)) * u = 1). { unfold u. rewrite <- powZ, <- bpow_plus by lia. replace (prec - 1 - a + (a + 1 - prec))%Z with 0%Z by ring. reflexivity. }
  set (K := (2 ^ (prec - 1 - a))%Z) in *. assert (K2 : (K = 2 * 2 ^ (prec - 2 - a))%Z). { unfold K. replace (prec - 1 - a)%Z with (Z.succ (prec - 2 - a)) by ring. apply Z.pow_succ_r. lia. }
  assert (Bn : (n + 1 <= 2 ^ (a + 1))%Z) by lia.
  assert (KK : (2 ^ (a + 1) * K = 2 ^ prec)%Z). { unfold K. rewrite <- Z.pow_add_r by lia. f_equal. ring. }
  assert (FG : fmt (IZR n + 1 - u)).
  { replace (IZR n + 1 - u) with (IZR ((n + 1) * K - 1) * u) by (rewrite minus_IZR, mult_IZR, plus_IZR; replace (((IZR n + 1) * IZR K - 1) * u) with ((IZR n + 1) * (IZR K * u) - u) by ring; rewrite UK; ring).
    apply fmt_mult; [unfold Prec_gt_0, Prec_lt_emax in *; lia|]. assert (0 < K)%Z by (unfold K; apply Z.pow_pos_nonneg; lia). nia. }
  assert (f + / 2 <= IZR n + 1 - u).
  { destruct (Rlt_or_le f (bpow radix2 a)) as [L|L].
    - assert (bpow radix2 a <= IZR n) by (rewrite powZ by lia; apply IZR_le; lia). lra.
    - destruct (fmt_multiple f a F) as (m & E); [rewrite Rabs_pos_eq; auto|]. fold u in E.
      assert (HK : / 2 = IZR (2 ^ (prec - 2 - a)) * u). { apply Rmult_eq_reg_l with 2; [|lra]. rewrite <- Rmult_assoc, <- mult_IZR, <- K2, UK. lra. }
      assert (M : (m < n * K + 2 ^ (prec - 2 - a))%Z).
      { apply lt_IZR. apply Rmult_lt_reg_r with u; [lra|]. rewrite <- E, plus_IZR, mult_IZR, Rmult_plus_distr_r, <- HK, Rmult_assoc, UK. lra. }
      assert (E2 : f <= IZR (n * K + 2 ^ (prec - 2 - a) - 1) * u) by (rewrite E; apply Rmult_le_compat_r; [lra|apply IZR_le; lia]).
      rewrite minus_IZR, plus_IZR, mult_IZR in E2. rewrite Rmult_minus_distr_r, Rmult_plus_distr_r, <- HK, Rmult_assoc, UK in E2. lra. }
  apply Rle_lt_trans with (IZR n + 1 - u); [apply R_hi; auto|lra].
Qed.
Lemma half_zero f : fmt f -> 0 <= f < / 2 -> let r := R_ (f + / 2) in (0 < r < 1) \/ (r = 1 /\ / 2 - bpow radix2 (- prec - 1) <= f).
Proof.
  intros F H r. assert (F1 : fmt 1) by (apply (fmt_Z 1); assert (2 ^ 24 <= 2 ^ prec)%Z by (apply Z.pow_le_mono_r; lia); cbn [Z.abs]; lia).
  assert (FH : fmt (/ 2)). { change (/ 2) with (bpow radix2 (-1)). apply generic_format_bpow. unfold FLT_exp, Prec_gt_0, Prec_lt_emax in *. lia. }
  assert (L : / 2 <= r) by (apply R_lo; auto; lra). assert (U : r <= 1) by (apply R_hi; auto; lra).
  destruct (Req_dec r 1) as [E|N]; [right; split; auto|left; lra].
  pose proof (R_near (f + / 2) (1 - bpow radix2 (- prec))) as K. fold r in K. rewrite E in K.
  assert (FG : fmt (1 - bpow radix2 (- prec))).
  { replace (1 - bpow radix2 (- prec)) with (IZR (2 ^ prec - 1) * bpow radix2 (- prec)).
    - apply fmt_mult; [unfold Prec_gt_0, Prec_lt_emax in *; lia|]. assert (0 < 2 ^ prec)%Z by (apply Z.pow_pos_nonneg; lia). lia.
    - rewrite minus_IZR, <- powZ by lia. rewrite Rmult_minus_distr_r, <- bpow_plus. replace (prec + - prec)%Z with 0%Z by ring. cbn [bpow]. change (bpow radix2 0) with 1. ring. }
  specialize (K FG). rewrite (Rabs_pos_eq (1 - (f + / 2))) in K by lra.
  assert (B2 : bpow radix2 (- prec) = 2 * bpow radix2 (- prec - 1)). { replace (- prec)%Z with (1 + (- prec - 1))%Z at 1 by ring. rewrite bpow_plus. reflexivity. }
  pose proof (bpos (- prec - 1)). unfold Rabs in K. destruct (Rcase_abs _) in K; lra.
Qed.
(** what truncation gives, below 2^(prec-1) *)
Lemma half_trunc f : fmt f -> 0 <= f -> f < T -> let r := Ztrunc (R_ (f + / 2)) in
  (0 <= r)%Z /\ - / 2 < IZR r - f <= / 2 + bpow radix2 (- prec - 1) /\ (f <> / 2 - bpow radix2 (- prec - 1) -> IZR r - f <= / 2).
Proof.
  intros F P B r. pose proof (bpos (- prec - 1)) as BP.
  assert (P0 : 0 <= R_ (f + / 2)) by (apply R_lo; [apply generic_format_0|lra]).
  destruct (Rlt_or_le f (/ 2)) as [L|L].
  - destruct (half_zero f F (conj P L)) as [(A1 & A2)|(A1 & A2)].
    + assert (r = 0%Z) as ->. { unfold r. rewrite Ztrunc_floor by auto. apply Zfloor_imp. change (0 + 1)%Z with 1%Z. lra. } split; [lia|]. split; intros; lra.
    + assert (r = 1%Z) as ->. { unfold r. rewrite A1. apply (Ztrunc_IZR 1). } split; [lia|]. split; [lra|]. intros NE.
      (* the next float up is a half *)
      exfalso. apply NE. destruct (Rle_or_lt f (/ 2 - bpow radix2 (- prec - 1))) as [Q|Q]; [lra|exfalso].
      destruct (fmt_multiple f (-2) F) as (m & E).
      { rewrite Rabs_pos_eq by auto. change (bpow radix2 (-2)) with (/ 4). assert (bpow radix2 (- prec - 1) <= bpow radix2 (-4)) by (apply bpow_le; lia). change (bpow radix2 (-4)) with (/ 16) in H. lra. }
      replace (-2 + 1 - prec)%Z with (- prec - 1)%Z in E by ring.
      assert (HK : / 2 = IZR (2 ^ prec) * bpow radix2 (- prec - 1)). { rewrite <- powZ, <- bpow_plus by lia. replace (prec + (- prec - 1))%Z with (-1)%Z by ring. reflexivity. }
      assert (M : (m < 2 ^ prec)%Z) by (apply lt_IZR; apply Rmult_lt_reg_r with (bpow radix2 (- prec - 1)); auto; lra).
      assert (f <= IZR (2 ^ prec - 1) * bpow radix2 (- prec - 1)) by (rewrite E; apply Rmult_le_compat_r; [lra|apply IZR_le; lia]). rewrite minus_IZR in H. lra.
  - destruct (Rle_or_lt T (f + / 2)) as [G|G].
    { assert (B1 : T = 2 * bpow radix2 (prec - 2)). { replace (prec - 1)%Z with (1 + (prec - 2))%Z by ring. rewrite bpow_plus. reflexivity. }
      assert (B2 : 1 <= bpow radix2 (prec - 2)) by (change 1 with (bpow radix2 0); apply bpow_le; lia).
      destruct (fmt_multiple f (prec - 2) F) as (m & E); [rewrite Rabs_pos_eq; lra|]. replace (prec - 2 + 1 - prec)%Z with (-1)%Z in E by ring. change (bpow radix2 (-1)) with (/ 2) in E.
      assert (TZ : T = IZR (2 ^ (prec - 1))) by (apply powZ; lia). set (K := (2 ^ (prec - 1))%Z) in *.
      assert (m < 2 * K)%Z by (apply lt_IZR; rewrite mult_IZR; lra). assert (2 * K - 1 <= m)%Z by (apply le_IZR; rewrite minus_IZR, mult_IZR; lra).
      assert (m = 2 * K - 1)%Z as -> by lia. rewrite minus_IZR, mult_IZR in E.
      assert (Q : f + / 2 = IZR K) by lra. assert (RK : r = K). { unfold r. rewrite Q, R_id; [apply Ztrunc_IZR|]. rewrite <- TZ. apply generic_format_bpow. unfold FLT_exp, Prec_gt_0 in *. lia. }
      assert (0 <= K)%Z by (apply le_IZR; lra). rewrite RK. split; [auto|]. split; intros; lra. }
    set (n := Zfloor (f + / 2)). pose proof (Zfloor_lb (f + / 2)) as N1. pose proof (Zfloor_ub (f + / 2)) as N2. fold n in N1, N2.
    assert (1 <= n)%Z by (apply Zfloor_lub; cbn; lra).
    destruct (half_small f n F P G (conj N1 N2) H) as (R1 & R2).
    assert (r = n) as ->. { unfold r. rewrite Ztrunc_floor by auto. apply Zfloor_imp. rewrite plus_IZR. lra. } split; [lia|]. split; intros; lra.
Qed.
(** integers from 2^(prec-1) on *)
Lemma half_large f : fmt f -> T <= f -> let r := Ztrunc (R_ (f + / 2)) in
  (0 <= r)%Z /\ f <= IZR r <= f + 1 /\ (bpow radix2 prec <= f -> IZR r = f).
Proof.
  intros F B r. pose proof (bpos (prec - 1)) as BT.
  destruct (fmt_multiple f (prec - 1) F) as (m & E); [rewrite Rabs_pos_eq; lra|]. replace (prec - 1 + 1 - prec)%Z with 0%Z in E by ring. change (bpow radix2 0) with 1 in E. rewrite Rmult_1_r in E.
  assert (FF := F). assert (M0 : (0 < m)%Z) by (apply lt_IZR; lra).
  destruct (Rlt_or_le f (bpow radix2 prec)) as [L|L].
  - assert (M : (m < 2 ^ prec)%Z) by (apply lt_IZR; rewrite <- powZ, <- E by lia; auto).
    assert (R1 : IZR m <= R_ (f + / 2)) by (apply R_lo; [rewrite <- E; auto|lra]).
    assert (R2 : R_ (f + / 2) <= IZR (m + 1)) by (apply R_hi; [apply fmt_Z; lia|rewrite plus_IZR; lra]).
    assert (N0 : 0 <= R_ (f + / 2)) by lra.
    assert (K : (m <= r <= m + 1)%Z). { unfold r. rewrite Ztrunc_floor by auto. split; [apply Zfloor_lub; auto|]. rewrite <- (Zfloor_IZR (m + 1)). apply Zfloor_le. auto. }
    split; [lia|]. rewrite E. rewrite <- plus_IZR. split; [split; apply IZR_le; lia|]. intros X. lra.
  - destruct (fmt_multiple f prec F) as (k & Ek); [rewrite Rabs_pos_eq; lra|]. replace (prec + 1 - prec)%Z with 1%Z in Ek by ring. change (bpow radix2 1) with 2 in Ek.
    pose proof (R_near (f + / 2) f F) as K. replace (f - (f + / 2)) with (- / 2) in K by lra. rewrite (Rabs_left (- / 2)) in K by lra. apply Rabs_le_inv in K.
    assert (R1 : f <= R_ (f + / 2)) by (apply R_lo; auto; lra).
    set (g := R_ (f + / 2)) in *. assert (Fg : fmt g) by (apply generic_format_round; [apply FLT_exp_valid; auto|apply valid_rnd_N]).
    destruct (fmt_multiple g prec Fg) as (k2 & Eg); [rewrite Rabs_pos_eq; lra|]. replace (prec + 1 - prec)%Z with 1%Z in Eg by ring. change (bpow radix2 1) with 2 in Eg.
    assert (k2 = k). { assert (k <= k2)%Z by (apply le_IZR; lra). assert (k2 < k + 1)%Z by (apply lt_IZR; rewrite plus_IZR; lra). lia. } subst k2.
    assert (IZR r = f). { unfold r. rewrite Eg, Ek. replace (IZR k * 2) with (IZR (k * 2)) by (rewrite mult_IZR; reflexivity). rewrite Ztrunc_IZR. reflexivity. }
    split; [apply le_IZR; rewrite H; lra|]. split; [lra|auto].
Qed.

(** *** To fixed point *)
Definition rounded (f : R) : Z := if Rle_bool 0 f then Ztrunc (R_ (f + / 2)) else (- Ztrunc (R_ (- f + / 2)))%Z.
Lemma round_f_ok x : fin x = true -> Rabs (V x) <= bpow radix2 100 -> toZ prec emax (round_f prec emax Hp He nanop x) = i32 (rounded (V x)).
Proof.
  intros F B. unfold round_f, rounded. rewrite ge0_ok by auto. destruct (pow2_V (-1)) as (F1 & V1); [lia|]. change (bpow radix2 (-1)) with (/ 2) in V1.
  assert (BB : bpow radix2 100 + / 2 <= bpow radix2 127).
  { assert (1 <= bpow radix2 100) by (change 1 with (bpow radix2 0); apply bpow_le; lia). assert (2 * bpow radix2 100 <= bpow radix2 127) by (change 2 with (bpow radix2 1); rewrite <- bpow_plus; apply bpow_le; lia). lra. }
  apply Rabs_le_inv in B. destruct (Rle_bool_spec 0 (V x)) as [L|L].
  - destruct (add_V x (pow2 prec emax Hp He (-1)) F F1) as (F2 & V2); [rewrite V1; apply big_lt with 127%Z; [apply Rabs_le; lra|lia]|].
    rewrite toZ_ok by auto. rewrite V2, V1. reflexivity.
  - destruct (ofZ_V (-1)) as (F3 & V3); [cbn; lia|]. rewrite R_id in V3 by (apply fmt_Z; assert (2 ^ 24 <= 2 ^ prec)%Z by (apply Z.pow_le_mono_r; lia); cbn [Z.abs]; lia).
    destruct (mul_V (ofZ prec emax Hp He (-1)) (pow2 prec emax Hp He (-1)) F3 F1) as (F4 & V4).
    { rewrite V3, V1. apply big_lt with 0%Z; [|lia]. change (bpow radix2 0) with 1. apply Rabs_le. lra. }
    rewrite V3, V1 in V4. replace (-1 * / 2) with (- / 2) in V4 by lra.
    assert (FH : fmt (/ 2)). { change (/ 2) with (bpow radix2 (-1)). apply generic_format_bpow. unfold FLT_exp, Prec_gt_0, Prec_lt_emax in *. lia. }
    rewrite R_opp, R_id in V4 by auto.
    destruct (add_V x (mul_f prec emax Hp He nanop (ofZ prec emax Hp He (-1)) (pow2 prec emax Hp He (-1))) F F4) as (F2 & V2); [rewrite V4; apply big_lt with 127%Z; [apply Rabs_le; lra|lia]|].
    rewrite toZ_ok by auto. rewrite V2, V4. replace (V x + - / 2) with (- (- V x + / 2)) by ring. rewrite R_opp, Ztrunc_opp. reflexivity.
Qed.
Lemma rounded_opp f : f <> 0 -> rounded (- f) = (- rounded f)%Z.
Proof.
  intros N. unfold rounded. destruct (Rle_bool_spec 0 f); destruct (Rle_bool_spec 0 (- f)); try lra.
  - rewrite Ropp_involutive. reflexivity.
  - ring.
Qed.
Lemma rounded_small f : fmt f -> Rabs f < T -> let r := rounded f in
  Rabs (IZR r - f) <= / 2 + bpow radix2 (- prec - 1) /\ (Rabs f <> / 2 - bpow radix2 (- prec - 1) -> Rabs (IZR r - f) <= / 2 /\ (Rabs (IZR r - f) = / 2 -> Rabs f < Rabs (IZR r))).
Proof.
  intros F B r. pose proof (bpos (- prec - 1)) as BP. unfold r, rounded. destruct (Rle_bool_spec 0 f) as [L|L].
  - rewrite (Rabs_pos_eq f) in * by auto. destruct (half_trunc f F L B) as (H0 & H1 & H2). set (q := Ztrunc _) in *. split; [apply Rabs_le; lra|].
    intros N. specialize (H2 N). split; [apply Rabs_le; lra|]. apply IZR_le in H0. rewrite (Rabs_pos_eq (IZR q)) by auto. intros E. unfold Rabs in E. destruct (Rcase_abs _) in E; lra.
  - rewrite (Rabs_left f) in * by auto. destruct (half_trunc (- f) (generic_format_opp _ _ _ F)) as (H0 & H1 & H2); [lra|auto|]. set (q := Ztrunc _) in *. rewrite opp_IZR. split; [apply Rabs_le; lra|].
    intros N. specialize (H2 N). split; [apply Rabs_le; lra|]. apply IZR_le in H0. rewrite Rabs_Ropp, (Rabs_pos_eq (IZR q)) by auto. intros E. unfold Rabs in E. destruct (Rcase_abs _) in E; lra.
Qed.
Lemma rounded_large f : fmt f -> T <= Rabs f -> let r := rounded f in
  Rabs (IZR r - f) <= 1 /\ (bpow radix2 prec <= Rabs f -> IZR r = f).
Proof.
  intros F B r. unfold r, rounded. destruct (Rle_bool_spec 0 f) as [L|L].
  - rewrite (Rabs_pos_eq f) in * by auto. destruct (half_large f F B) as (H0 & H1 & H2). split; auto. apply Rabs_le. lra.
  - rewrite (Rabs_left f) in * by auto. destruct (half_large (- f) (generic_format_opp _ _ _ F) B) as (H0 & H1 & H2). rewrite opp_IZR. split; [apply Rabs_le; lra|]. intros X. rewrite H2 by auto. ring.
Qed.
Lemma scale_ok x : fin x = true -> Rabs (V x) <= bpow radix2 80 -> fin (mul_f prec emax Hp He nanop x (ofZ prec emax Hp He one)) = true /\ V (mul_f prec emax Hp He nanop x (ofZ prec emax Hp He one)) = V x * 65536.
Proof.
  intros F B. destruct (ofZ_V one) as (F1 & V1); [cbn; lia|].
  rewrite R_id in V1 by (apply fmt_Z; assert (2 ^ 24 <= 2 ^ prec)%Z by (apply Z.pow_le_mono_r; lia); unfold one; cbn [Z.abs]; lia). change (IZR one) with (bpow radix2 16) in V1.
  destruct (mul_V x (ofZ prec emax Hp He one) F F1) as (F2 & V2).
  { rewrite V1, Rabs_mult, (Rabs_pos_eq (bpow radix2 16)) by (left; apply bpos). apply Rle_trans with (bpow radix2 80 * bpow radix2 16); [apply Rmult_le_compat_r; [left; apply bpos|auto]|rewrite <- bpow_plus; apply bpow_le; lia]. }
  split; auto. rewrite V2, V1, R_id by (apply fmt_up; [lia|apply V_fmt]). reflexivity.
Qed.
Lemma from_f_ok x : fin x = true -> Rabs (V x) <= bpow radix2 80 -> from_f prec emax Hp He nanop x = i32 (rounded (V x * 65536)) /\ fmt (V x * 65536).
Proof.
  intros F B. destruct (scale_ok x F B) as (F2 & V2). unfold from_f. change flag_rounding with true. cbn iota. split; [|change 65536 with (bpow radix2 16); apply fmt_up; [lia|apply V_fmt]].
  rewrite round_f_ok; [rewrite V2; reflexivity|auto|]. rewrite V2, Rabs_mult, (Rabs_pos_eq 65536) by lra.
  apply Rle_trans with (bpow radix2 80 * 65536); [apply Rmult_le_compat_r; lra|]. change 65536 with (bpow radix2 16). rewrite <- bpow_plus. apply bpow_le. lia.
Qed.
End Format.

(** *** Values out of range *)
Section Overflow.
Variables prec emax : Z.
Context (Hp : Prec_gt_0 prec) (He : Prec_lt_emax prec emax).
Hypothesis P24 : (24 <= prec)%Z.
Hypothesis E128 : (128 <= emax)%Z.
Variable nanop : binary_float prec emax -> binary_float prec emax -> { x : binary_float prec emax | is_nan prec emax x = true }.
Notation fl := (binary_float prec emax).
Notation V := (B2R prec emax).
Notation fin := (is_finite prec emax).
Notation fx := (FLT_exp (3 - emax - prec) prec).
Notation R_ := (round radix2 fx ZnearestE).
Definition unbounded (x : fl) : Prop := fin x = false \/ bpow radix2 70 <= Rabs (V x).

Lemma ovf_inf s x : B2FF prec emax x = binary_overflow prec emax mode_NE s -> fin x = false.
Proof. intros E. destruct x; try discriminate E; reflexivity. Qed.
Lemma unb_Ub x : unbounded x -> toZ prec emax x = Ub.
Proof.
  intros [F|B]; [destruct x; try discriminate F; reflexivity|]. destruct (fin x) eqn:F; [|destruct x; try discriminate F; reflexivity].
  rewrite toZ_ok by auto. unfold i32. assert (B31 : 2147483648 <= bpow radix2 70). { rewrite powZ by lia. apply IZR_le. reflexivity || (vm_compute; discriminate). }
  destruct (Z.leb_spec (-2147483648) (Ztrunc (V x))) as [L1|]; [|reflexivity]. destruct (Z.leb_spec (Ztrunc (V x)) 2147483647) as [L2|]; [|reflexivity]. exfalso.
  apply IZR_le in L1. apply IZR_le in L2. assert (B2 : 2147483650 <= bpow radix2 70). { rewrite powZ by lia. apply IZR_le. reflexivity || (vm_compute; discriminate). }
  unfold Rabs in B. destruct (Rcase_abs (V x)).
  - unfold Ztrunc in L1. rewrite Rlt_bool_true in L1 by auto. pose proof (Zceil_lb (V x)). lra.
  - unfold Ztrunc in L2. rewrite Rlt_bool_false in L2 by lra. pose proof (Zfloor_ub (V x)). lra.
Qed.
Lemma mul_unb x : bpow radix2 80 <= Rabs (V x) \/ fin x = false -> let f := mul_f prec emax Hp He nanop x (ofZ prec emax Hp He one) in bpow radix2 71 <= Rabs (V f) \/ fin f = false.
Proof.
  destruct (ofZ_V prec emax Hp He P24 E128 one) as (F1 & V1); [cbn; lia|].
  rewrite R_id in V1 by (auto; apply fmt_Z; auto; assert (2 ^ 24 <= 2 ^ prec)%Z by (apply Z.pow_le_mono_r; lia); unfold one; cbn [Z.abs]; lia). change (IZR one) with (bpow radix2 16) in V1.
  pose proof (Bmult_correct prec emax Hp He nanop mode_NE x (ofZ prec emax Hp He one)) as H. rewrite fexp_is in H. cbn [round_mode] in H. fold (mul_f prec emax Hp He nanop x (ofZ prec emax Hp He one)) in H.
  cbv zeta. intros [B|N].
  - destruct (Rlt_bool _ _); [|right; apply ovf_inf in H; auto]. destruct H as (W & K & _). left. rewrite W, V1, R_id; auto; [|apply fmt_up; auto; [lia|apply V_fmt]].
    rewrite Rabs_mult, (Rabs_pos_eq (bpow radix2 16)) by (left; apply bpos). apply Rle_trans with (bpow radix2 80 * bpow radix2 16); [rewrite <- bpow_plus; apply bpow_le; lia|apply Rmult_le_compat_r; [left; apply bpos|auto]].
  - destruct (Rlt_bool _ _); [|right; apply ovf_inf in H; auto]. destruct H as (_ & K & _). right. rewrite K, N. reflexivity.
Qed.
Lemma add_unb x y : fin y = true -> Rabs (V y) <= 1 -> bpow radix2 71 <= Rabs (V x) \/ fin x = false -> unbounded (add_f prec emax Hp He nanop x y).
Proof.
  intros Fy By [B|N].
  - destruct (fin x) eqn:F; [|left; unfold add_f; destruct x; try discriminate F; destruct y; try discriminate Fy; cbn; auto; try (destruct (nanop _ _) as (z & Hz); destruct z; try discriminate Hz; reflexivity)].
    pose proof (Bplus_correct prec emax Hp He nanop mode_NE x y F Fy) as H. rewrite fexp_is in H. cbn [round_mode] in H. fold (add_f prec emax Hp He nanop x y) in H.
    destruct (Rlt_bool _ _); [|destruct H as (H & _); left; apply ovf_inf in H; auto]. destruct H as (W & K & _). right. rewrite W.
    assert (FB : generic_format radix2 fx (bpow radix2 70)) by (apply generic_format_bpow; unfold FLT_exp, Prec_gt_0, Prec_lt_emax in *; lia).
    assert (E : bpow radix2 71 = 2 * bpow radix2 70) by (change 71%Z with (1 + 70)%Z; rewrite bpow_plus; reflexivity).
    assert (1 <= bpow radix2 70) by (change 1 with (bpow radix2 0); apply bpow_le; lia). apply Rabs_le_inv in By.
    unfold Rabs in B. destruct (Rcase_abs (V x)).
    + assert (R_ (V x + V y) <= - bpow radix2 70) by (apply R_hi; auto; [apply generic_format_opp; auto|lra]). rewrite Rabs_left1 by lra. lra.
    + assert (bpow radix2 70 <= R_ (V x + V y)) by (apply R_lo; auto; lra). rewrite Rabs_pos_eq by lra. lra.
  - left. unfold add_f. destruct x; try discriminate N; destruct y; try discriminate Fy; cbn; auto; try (destruct (nanop _ _) as (z & Hz); destruct z; try discriminate Hz; reflexivity).
Qed.
Lemma from_f_unb x : bpow radix2 80 <= Rabs (V x) \/ fin x = false -> from_f prec emax Hp He nanop x = Ub.
Proof.
  intros H. unfold from_f. change flag_rounding with true. cbn iota. apply unb_Ub. apply mul_unb in H. cbv zeta in H. set (f := mul_f _ _ _ _ _ x _) in *. unfold round_f.
  destruct (pow2_V prec emax Hp He P24 E128 (-1)) as (F1 & V1); [lia|]. change (bpow radix2 (-1)) with (/ 2) in V1.
  destruct (ge0 _ _ _ _ f); apply add_unb; auto.
  - rewrite V1. apply Rabs_le. lra.
  - destruct (ofZ_V prec emax Hp He P24 E128 (-1)) as (F3 & V3); [cbn; lia|]. rewrite R_id in V3 by (auto; apply fmt_Z; auto; assert (2 ^ 24 <= 2 ^ prec)%Z by (apply Z.pow_le_mono_r; lia); cbn [Z.abs]; lia).
    apply mul_V; auto. rewrite V3, V1. apply big_lt with 0%Z; auto; [|lia]. change (bpow radix2 0) with 1. apply Rabs_le. lra.
  - destruct (ofZ_V prec emax Hp He P24 E128 (-1)) as (F3 & V3); [cbn; lia|]. rewrite R_id in V3 by (auto; apply fmt_Z; auto; assert (2 ^ 24 <= 2 ^ prec)%Z by (apply Z.pow_le_mono_r; lia); cbn [Z.abs]; lia).
    destruct (mul_V prec emax Hp He P24 E128 nanop (ofZ prec emax Hp He (-1)) (pow2 prec emax Hp He (-1)) F3 F1) as (F4 & V4).
    { rewrite V3, V1. apply big_lt with 0%Z; auto; [|lia]. change (bpow radix2 0) with 1. apply Rabs_le. lra. }
    rewrite V4, V3, V1. assert (FB : generic_format radix2 fx 1) by (apply (fmt_Z prec emax Hp P24 E128 1); assert (2 ^ 24 <= 2 ^ prec)%Z by (apply Z.pow_le_mono_r; lia); cbn [Z.abs]; lia).
    apply Rabs_le. split; [apply R_lo; auto; [apply generic_format_opp; auto|lra]|apply R_hi; auto; lra].
Qed.
End Overflow.
