(** factorial, tgamma, lgamma, beta. *)
From Coq Require Import ZArith Reals Lra Lia Psatz Bool List.
From Flocq Require Import Core IEEE754.BinarySingleNaN IEEE754.Binary IEEE754.Bits.
From Verif Require Import Base BaseLemmas Arith Ext32 Bits32 Ffmath_Model Ffmath2_Model Ffmath3_Model Ffmath_Spec Ffmath_Proofs Ffmath_Proofs2 Ffmath_Proofs3 Float32 Ffmath_Proofs4 Ffmath_Proofs7 Ffmath_Proofs8 FloatApp Ffmath_Proofs12 Ffmath_Proofs14.
Import ListNotations.
Open Scope R_scope.

Lemma fin_nan x : finite x -> is_nan 24 128 x = false. Proof. destruct x; auto; discriminate. Qed.
Lemma lt_t x y : finite x -> finite y -> valR x < valR y -> b32_lt x y = true.
Proof. intros Fx Fy H. apply b32_lt_ext; try apply fin_nan; auto. rewrite !ext32_finite by auto. exact H. Qed.
Lemma lt_f x y : finite x -> finite y -> valR y <= valR x -> b32_lt x y = false.
Proof. intros Fx Fy H. destruct (b32_lt x y) eqn:E; auto. apply b32_lt_ext in E; try apply fin_nan; auto. rewrite !ext32_finite in E by auto. lra. Qed.
Lemma le_t x y : finite x -> finite y -> valR x <= valR y -> b32_le x y = true.
Proof. intros Fx Fy H. apply b32_le_ext; try apply fin_nan; auto. rewrite !ext32_finite by auto. exact H. Qed.
Lemma le_f x y : finite x -> finite y -> valR y < valR x -> b32_le x y = false.
Proof. intros Fx Fy H. destruct (b32_le x y) eqn:E; auto. apply b32_le_ext in E; try apply fin_nan; auto. rewrite !ext32_finite in E by auto. lra. Qed.
Lemma le_nan x y : is_nan 24 128 y = true -> b32_le x y = false.
Proof. intros H. destruct x, y; try discriminate; reflexivity. Qed.
Lemma lt_nan_r x y : is_nan 24 128 y = true -> b32_lt x y = false.
Proof. intros H. destruct x, y; try discriminate; reflexivity. Qed.

(** ** Conversion to an integer *)
Lemma toI32_floor x n : finite x -> 0 <= valR x -> is_floor (valR x) n -> (n < T31)%Z -> toI32 x = Ok n.
Proof.
  intros F P [L U] Hn. assert (N0 : (0 <= n)%Z) by (apply le_IZR; destruct (Z.leb_spec 0 n) as [H|H]; [apply IZR_le in H; exact H|]; exfalso; assert (n + 1 <= 0)%Z by lia; apply IZR_le in H0; rewrite plus_IZR in H0; lra).
  unfold toI32. destruct x as [s|s|s pl|s m e H]; try discriminate.
  - cbn in L, U. f_equal. assert (n < 1)%Z by (apply lt_IZR; lra). lia.
  - cbn [B2R] in *. unfold F2R in *. cbn [Fnum Fexp] in *. assert (s = false) as ->.
    { destruct s; auto. exfalso. cbn [cond_Zopp] in P. pose proof (bpow_gt_0 radix2 e). assert (IZR (- Zpos m) < 0) by (apply IZR_lt; lia). nra. }
    cbn [cond_Zopp] in *. set (a := if (0 <=? e)%Z then _ else _). assert (A : n = a).
    { unfold a. destruct (Z.leb_spec 0 e).
      - rewrite pow_Z, <- mult_IZR in L, U by auto. rewrite <- plus_IZR in U. apply le_IZR in L. apply lt_IZR in U. lia.
      - assert (0 < 2 ^ (- e))%Z by (apply Z.pow_pos_nonneg; lia).
        assert (Q : IZR (Zpos m) * bpow radix2 e * IZR (2 ^ (- e)) = IZR (Zpos m)).
        { rewrite <- pow_Z, Rmult_assoc, <- bpow_plus by lia. replace (e + - e)%Z with 0%Z by lia. change (bpow radix2 0) with 1. ring. }
        assert (PP : 0 < IZR (2 ^ (- e))) by (apply IZR_lt; auto). set (v := IZR (Zpos m) * bpow radix2 e) in *.
        apply (Z.div_unique (Zpos m) (2 ^ (- e)) n (Zpos m - 2 ^ (- e) * n)); [|ring]. left. split; [apply Z.le_0_sub, le_IZR|apply Z.lt_sub_lt_add_l, lt_IZR]; rewrite ?plus_IZR, mult_IZR; nra. }
    rewrite <- A. apply i32_ok. unfold T31 in *. lia.
Qed.
Lemma floor_ex v : exists n, is_floor v n.
Proof. exists (Zfloor v). split; [apply Zfloor_lb|apply Zfloor_ub]. Qed.

(** ** factorial *)
Lemma ofZ_nearest n : (Z.abs n <= 2 ^ 128 - 2 ^ 104)%Z -> nearest_float (IZR n) (b32_ofZ n).
Proof.
  intros H. assert (E : F2R (Float radix2 n 0) = IZR n) by (unfold F2R; cbn; ring).
  pose proof (binary_normalize_correct 24 128 eq_refl eq_refl mode_NE n 0 false) as C. fold (b32_ofZ n) in C. rewrite E in C. rewrite fexp_FLT in C. cbn [round_mode] in C.
  assert (VM : valR limMax = IZR (2 ^ 128 - 2 ^ 104)) by (vm_compute; lra).
  rewrite Rlt_bool_true in C.
  - destruct C as (V & F & _). split; auto. intros z Fz. change (valR (b32_ofZ n) = rnd (IZR n)) in V. rewrite V.
    pose proof (round_N_pt radix2 (FLT_exp (-149) 24) (fun x => negb (Z.even x)) (IZR n)) as (_ & K). apply K. apply format_val.
  - change (Rabs (rnd (IZR n)) < bpow radix2 128). rewrite <- rnd_abs, <- abs_IZR. apply Rle_lt_trans with (valR limMax); [apply rnd_le_val; rewrite VM; apply IZR_le; auto|].
    rewrite VM. change (bpow radix2 128) with (IZR (2 ^ 128)). apply IZR_lt. reflexivity.
Qed.
Fixpoint zfact (n : nat) : Z := match n with O => 1%Z | S k => (zfact k * Z.of_nat (S k))%Z end.
Lemma zfact_R n : IZR (zfact n) = INR (fact n).
Proof. induction n as [|n IH]; [reflexivity|]. cbn [zfact]. rewrite mult_IZR, IH, fact_simpl, mult_INR, <- INR_IZR_INZ. ring. Qed.
Lemma bits_inj (x y : binary32) : bits_of_b32 x = bits_of_b32 y -> x = y.
Proof. intros H. apply (f_equal b32_of_bits) in H. unfold b32_of_bits, bits_of_b32 in H. rewrite !binary_float_of_bits_of_binary_float in H. exact H. Qed.
Lemma ft_entry n : (n <= 34)%nat -> get ft (Z.of_nat n) = Ok (b32_ofZ (zfact n)) /\ (Z.abs (zfact n) <= 2 ^ 128 - 2 ^ 104)%Z.
Proof.
  intros H. do 35 (destruct n as [|n]; [split; [|apply Z.leb_le; vm_compute; reflexivity]; cbv [get ft Z.ltb Z.compare Z.of_nat Z.to_nat Pos.to_nat Pos.iter_op Pos.of_succ_nat Pos.succ Nat.add nth_error];
    refine (f_equal Ok (bits_inj _ _ _)); vm_compute; reflexivity|]). lia.
Qed.
Lemma c34 : finite (flit 34 1) /\ valR (flit 34 1) = 34. Proof. cst. Qed.
Lemma c0 : finite (flit 0 1) /\ valR (flit 0 1) = 0. Proof. cst. Qed.
Lemma factorial_ok x n : finite x -> 0 <= valR x <= 34 -> is_floor (valR x) (Z.of_nat n) -> factorial x = Ok (b32_ofZ (zfact n)) /\ nearest_float (INR (fact n)) (b32_ofZ (zfact n)).
Proof.
  intros F B N. destruct c34 as (F34 & V34). destruct c0 as (F0 & V0). unfold factorial. rewrite lt_f, le_t by (auto; lra).
  rewrite (toI32_floor x (Z.of_nat n)); auto; [|lra|].
  - cbn [bind]. assert (n <= 34)%nat. { destruct N as [L _]. assert (Z.of_nat n <= 34)%Z by (apply le_IZR; lra). lia. }
    destruct (ft_entry n H) as (-> & K). split; auto. rewrite <- zfact_R. apply ofZ_nearest. exact K.
  - destruct N as [L _]. assert (Z.of_nat n <= 34)%Z by (apply le_IZR; lra). unfold T31. lia.
Qed.

(** ** tgamma *)
Lemma val_inj x y : finite x -> finite y -> valR x = valR y -> valR x <> 0 -> x = y.
Proof.
  intros Fx Fy E N. assert (S : forall z, finite z -> valR z <> 0 -> is_finite_strict 24 128 z = true) by (intros []; cbn; intros; auto; try discriminate; lra).
  apply B2R_inj; auto. apply S; auto. rewrite <- E. exact N.
Qed.
Lemma sub_exact x j : 1 <= valR x < 12 -> (0 <= j)%Z -> IZR j <= valR x -> generic_format radix2 (FLT_exp (-149) 24) (valR x - IZR j).
Proof.
  intros B J L. pose proof (format_val x) as V. unfold generic_format in V. set (e := cexp radix2 (FLT_exp (-149) 24) (valR x)) in *. set (m := Ztrunc (scaled_mantissa radix2 (FLT_exp (-149) 24) (valR x))) in *.
  assert (Me : (Raux.mag radix2 (valR x) - 24 <= e /\ -149 <= e)%Z) by (unfold e, cexp, FLT_exp; lia).
  assert (Mu : (Raux.mag radix2 (valR x) <= 4)%Z). { apply mag_le_bpow; [lra|]. rewrite Rabs_pos_eq by lra. change (bpow radix2 4) with 16. lra. }
  assert (Me2 : (e <= -20)%Z) by (unfold e, cexp, FLT_exp; lia).
  unfold F2R in V. cbn [Fnum Fexp] in V. assert (Q : IZR j = IZR (j * 2 ^ (- e)) * bpow radix2 e).
  { rewrite mult_IZR, <- pow_Z, Rmult_assoc, <- bpow_plus by lia. replace (- e + e)%Z with 0%Z by lia. change (bpow radix2 0) with 1. ring. }
  assert (P := bpow_gt_0 radix2 e).
  replace (valR x - IZR j) with (IZR (m - j * 2 ^ (- e)) * bpow radix2 e) by (rewrite minus_IZR, Q; rewrite V at 1; ring).
  apply fmt_intro; [|lia]. assert (0 <= j * 2 ^ (- e))%Z by (apply Z.mul_nonneg_nonneg; auto; apply Z.pow_nonneg; lia).
  assert (j * 2 ^ (- e) <= m)%Z. { apply le_IZR. apply Rmult_le_reg_r with (bpow radix2 e); auto. rewrite <- Q, <- V. exact L. }
  assert (m < 2 ^ 24)%Z. { apply lt_IZR. apply Rmult_lt_reg_r with (bpow radix2 e); auto. rewrite <- V. change (IZR (2 ^ 24)) with (bpow radix2 24). rewrite <- bpow_plus.
    apply Rlt_le_trans with (bpow radix2 (Raux.mag radix2 (valR x))); [|apply bpow_le; lia]. pose proof (bpow_mag_gt radix2 (valR x)) as G. rewrite Rabs_pos_eq in G by lra. exact G. }
  lia.
Qed.
Lemma rnd_fmt v : generic_format radix2 (FLT_exp (-149) 24) v -> rnd v = v.
Proof. intros H. apply round_generic; [apply valid_rnd_N|exact H]. Qed.
Lemma small_big v : Rabs v <= 100 -> Rabs v <= big.
Proof. intros H. apply Rle_trans with (1 := H). change (bpow radix2 127) with (IZR (2 ^ 127)). apply IZR_le. vm_compute. discriminate. Qed.
Lemma step_down x j : finite x -> 1 <= valR x < 12 -> (0 <= j)%Z -> IZR j <= valR x -> finite (x - b32_ofZ j)%b32 /\ valR (x - b32_ofZ j)%b32 = valR x - IZR j.
Proof.
  intros F B J L. assert (j < 12)%Z by (apply lt_IZR; lra). destruct (ofZ_R j) as (Fj & Vj); [rewrite Z.abs_eq; lia|].
  destruct (minus_R x (b32_ofZ j) F Fj) as (Fd & Vd). { apply small_big. rewrite Vj, Rabs_pos_eq by lra. pose proof (IZR_le _ _ J). lra. }
  split; auto. rewrite Vd, Vj. apply rnd_fmt, sub_exact; auto.
Qed.
Lemma c1 : finite (flit 1 1) /\ valR (flit 1 1) = 1. Proof. cst. Qed.
Lemma one_Z : flit 1 1 = b32_ofZ 1. Proof. apply bits_inj. vm_compute. reflexivity. Qed.
(** Counting up by ones from [f] to [x] is exact when [f] is [x] less an integer. *)
Lemma step_up x f j : finite x -> 1 <= valR x < 12 -> finite f -> valR f = valR x - IZR j -> (0 < j)%Z -> 0 <= valR f ->
  finite (f + flit 1 1)%b32 /\ valR (f + flit 1 1)%b32 = valR x - IZR (j - 1).
Proof.
  intros F B Ff V J P. destruct c1 as (F1 & V1). destruct (plus_R f (flit 1 1) Ff F1) as (Fd & Vd). { apply small_big. pose proof (IZR_le 1 j ltac:(lia)). rewrite V1, Rabs_pos_eq by lra. lra. }
  split; auto. rewrite Vd, V1, V. replace (valR x - IZR j + 1) with (valR x - IZR (j - 1)) by (rewrite minus_IZR; ring). apply rnd_fmt, sub_exact; auto; [lia|]. rewrite minus_IZR. lra.
Qed.
Fixpoint count_up (n : nat) (f : float) : float := match n with O => f | S k => count_up k (f + flit 1 1)%b32 end.
Lemma gamma_up_S n : forall f r, gamma_up (S n) f r = (gamma_up n f r * count_up n f)%b32.
Proof. induction n as [|n IH]; intros f r; [reflexivity|]. change (gamma_up (S (S n)) f r) with (gamma_up (S n) (f + flit 1 1)%b32 (r * f)%b32). rewrite IH. reflexivity. Qed.
Lemma count_up_ok n : forall x f, finite x -> 1 <= valR x < 12 -> finite f -> valR f = valR x - IZR (Z.of_nat n) -> 0 <= valR f -> count_up n f = x.
Proof.
  induction n as [|n IH]; intros x f F B Ff V P; cbn [count_up].
  - apply val_inj; auto; rewrite V; cbn [Z.of_nat]; lra.
  - destruct (step_up x f (Z.of_nat (S n)) F B Ff V ltac:(lia) P) as (F' & V'). apply IH; auto; rewrite V'; replace (Z.of_nat (S n) - 1)%Z with (Z.of_nat n) by lia; [reflexivity|].
    rewrite V in P. rewrite Nat2Z.inj_succ, succ_IZR in P. lra.
Qed.
Lemma c12 : finite (flit 12 1) /\ valR (flit 12 1) = 12. Proof. cst. Qed.
Lemma cEps : finite limEps /\ valR limEps = / 8388608. Proof. cst. Qed.
(** Between 1 and 12: the fraction, the rational function and the product. *)
Lemma gamma_mid x w n : finite x -> 1 <= valR x < 12 -> is_floor (valR x) (Z.of_nat (S n)) ->
  exists f, finite f /\ valR f = valR x - IZR (Z.of_nat n) /\ tgamma_pos w x = Ok (gamma_up n f (gamma_ratio (f - flit 1 1)%b32)).
Proof.
  intros F B N. destruct c1 as (F1 & V1). destruct c12 as (F12 & V12). destruct cEps as (Fe & Ve).
  exists (x - b32_ofZ (Z.of_nat n))%b32. assert (Ln : IZR (Z.of_nat n) <= valR x) by (destruct N as [N _]; rewrite Nat2Z.inj_succ, succ_IZR in N; lra).
  destruct (step_down x (Z.of_nat n) F B ltac:(lia) Ln) as (Ff & Vf). split; auto. split; auto.
  unfold tgamma_pos. rewrite (lt_f x limEps), (lt_t x (flit 12 1)), (lt_f x (flit 1 1)) by (auto; lra).
  assert (Z.of_nat (S n) < 12)%Z by (apply lt_IZR; destruct N; lra).
  rewrite (toI32_floor x (Z.of_nat (S n))); auto; [|lra|unfold T31; lia]. cbn [bind]. rewrite i32_ok by (unfold T31; lia). cbn [bind]. replace (Z.of_nat (S n) - 1)%Z with (Z.of_nat n) by lia.
  cbv zeta. rewrite lt_f by (auto; pose proof (IZR_le 0 (Z.of_nat n) ltac:(lia)); lra). rewrite Nat2Z.id. destruct n as [|n].
  - rewrite lt_f by (auto; rewrite Vf; cbn [Z.of_nat]; lra). reflexivity.
  - rewrite lt_t; auto. pose proof (IZR_le 1 (Z.of_nat (S n)) ltac:(lia)). lra.
Qed.
Lemma tgamma_positive x : finite x -> bpow radix2 (-126) <= valR x -> tgamma x = tgamma_pos x x.
Proof.
  intros F B. pose proof (bpow_gt_0 radix2 (-126)). destruct c0 as (F0 & V0). assert (N : classify x = FFP_NORMAL) by (apply classify_ok; split; auto; rewrite Rabs_pos_eq by lra; auto).
  unfold tgamma. rewrite N. rewrite le_f by (auto; lra). destruct (tgamma_pos x x) as [r|]; reflexivity.
Qed.
Lemma min_1 : bpow radix2 (-126) <= 1. Proof. change 1 with (bpow radix2 0). apply bpow_le. lia. Qed.
Lemma tgamma_step x y : finite x -> finite y -> 1 <= valR x < 11 -> valR y = valR x + 1 ->
  exists r, tgamma x = Ok r /\ tgamma y = Ok (r * x)%b32.
Proof.
  intros Fx Fy B V. pose proof min_1. rewrite !tgamma_positive by (auto; lra). destruct (floor_ex (valR x)) as (k & K).
  assert (1 <= k)%Z. { destruct K as [_ K]. assert (0 < k)%Z; [|lia]. apply lt_IZR. lra. } set (n := Z.to_nat (k - 1)). assert (Kn : k = Z.of_nat (S n)) by lia. rewrite Kn in K.
  destruct (gamma_mid x x n Fx ltac:(lra) K) as (f & Ff & Vf & ->).
  destruct (gamma_mid y y (S n) Fy ltac:(lra)) as (g & Fg & Vg & ->). { unfold is_floor in *. rewrite V, (Nat2Z.inj_succ (S n)), succ_IZR. lra. }
  assert (f1 : 1 <= valR f) by (rewrite Vf; unfold is_floor in K; rewrite Nat2Z.inj_succ, succ_IZR in K; lra).
  assert (g = f) as ->. { apply val_inj; auto; rewrite Vg, V, Nat2Z.inj_succ, succ_IZR; lra. }
  eexists. split; [reflexivity|]. rewrite gamma_up_S. rewrite (count_up_ok n x f); auto; lra.
Qed.
Lemma tgamma_below x y : finite x -> finite y -> / 8388608 <= valR x < 1 -> valR y = valR x + 1 ->
  exists r, tgamma y = Ok r /\ tgamma x = Ok (r / x)%b32.
Proof.
  intros Fx Fy B V. pose proof min_1. assert (M : bpow radix2 (-126) <= / 8388608) by (change (/ 8388608) with (bpow radix2 (-23)); apply bpow_le; lia).
  rewrite !tgamma_positive by (auto; lra). destruct c1 as (F1 & V1). destruct c12 as (F12 & V12). destruct cEps as (Fe & Ve).
  destruct (gamma_mid y y 0 Fy ltac:(lra)) as (g & Fg & Vg & ->). { unfold is_floor. cbn [Z.of_nat Pos.of_succ_nat]. lra. } cbn [Z.of_nat] in Vg. rewrite Rminus_0_r in Vg.
  destruct (step_down g 1 Fg ltac:(lra) ltac:(lia) ltac:(lra)) as (Fz & Vz). rewrite <- one_Z in Fz, Vz. assert ((g - flit 1 1)%b32 = x) as -> by (apply val_inj; auto; rewrite Vz; lra).
  eexists. split; [reflexivity|]. unfold tgamma_pos. rewrite (lt_f x limEps), (lt_t x (flit 12 1)), (lt_t x (flit 1 1)) by (auto; lra). cbv zeta.
  destruct (plus_R x (flit 1 1) Fx F1) as (Fs & Vs); [apply small_big; rewrite V1, Rabs_pos_eq; lra|]. assert (Vs' : valR (x + flit 1 1)%b32 = valR y) by (rewrite Vs, V1, <- V; apply rnd_val).
  rewrite lt_t by (auto; lra). reflexivity.
Qed.
Lemma tgamma_factorial n : (n <= 10)%nat -> tgamma (b32_ofZ (Z.of_nat (S n))) = Ok (b32_ofZ (zfact n)).
Proof.
  intros H. do 11 (destruct n as [|n]; [match goal with |- tgamma ?x = Ok ?v => assert (K : match tgamma x with Ok r => bits_of_b32 r | Ub => (-1)%Z end = bits_of_b32 v) by (vm_compute; reflexivity);
    destruct (tgamma x) as [r|]; [f_equal; apply bits_inj; exact K|exfalso; vm_compute in K; discriminate K] end|]). lia.
Qed.
Lemma trunc_x x : integral is_trunc x (trunc x).
Proof. destruct (patterned x) as (s & E & M & -> & _ & HE & HM). apply trunc_pat; auto. Qed.
Lemma frac_zero x n : finite x -> valR x = IZR n -> fisEqual0 (flit 0 1) (x - trunc x)%b32 = true.
Proof.
  intros F V. pose proof (trunc_x x) as T. unfold integral in T. rewrite F in T. destruct T as (Ft & _ & k & (S & K1 & K2) & Vk).
  assert (E : valR (trunc x) = valR x).
  { rewrite Vk, V. f_equal. rewrite V in *. rewrite <- !abs_IZR, <- ?plus_IZR, <- ?mult_IZR in *. apply le_IZR in S, K1. apply (lt_IZR (Z.abs n) (Z.abs k + 1)) in K2. nia. }
  destruct (minus_R x (trunc x) F Ft) as (Fd & Vd). { rewrite E, Rminus_diag_eq by reflexivity. rewrite Rabs_R0. apply bpow_ge_0. }
  rewrite E, Rminus_diag_eq, rnd_0 in Vd by reflexivity.
  unfold fisEqual0, fisEqual. destruct (x - trunc x)%b32 as [s|s|s pl|s m e H]; try discriminate Fd.
  - destruct s; vm_compute; reflexivity.
  - exfalso. cbn [B2R] in Vd. apply eq_0_F2R in Vd. destruct s; discriminate Vd.
Qed.
Lemma opp_R x : finite x -> finite (- x)%b32 /\ valR (- x)%b32 = - valR x.
Proof. intros F. split; [apply opp_fin; exact F|apply opp_val]. Qed.
Lemma tgamma_pole x n : finite x -> valR x = IZR n -> (n < 0)%Z -> tgamma x = Ok limNan.
Proof.
  intros F V N. assert (valR x <= -1) by (rewrite V; change (-1) with (IZR (-1)); apply IZR_le; lia). destruct c0 as (F0 & V0).
  assert (C : classify x = FFP_NORMAL) by (apply classify_ok; split; auto; rewrite Rabs_left by lra; pose proof min_1; lra).
  unfold tgamma. rewrite C. rewrite le_t by (auto; lra). destruct (opp_R x F) as (Fo & Vo). rewrite (frac_zero (- x)%b32 (- n)); auto. rewrite Vo, V, opp_IZR. reflexivity.
Qed.

(** ** lgamma *)
Lemma cBig : finite xBig /\ valR xBig = 11247550 / 65536. Proof. cst. Qed.
Lemma lgamma_large x : is_nan 24 128 x = false -> 1716241 / 10000 <= ext32 x -> lgamma x = limInf.
Proof.
  intros Nn H. destruct cBig as (FB & VB). unfold lgamma. destruct (classify x) eqn:C; try reflexivity.
  - apply classify_ok in C. destruct C as (F & C). rewrite ext32_finite in H by auto. exfalso. destruct C as (_ & C). rewrite Rabs_pos_eq in C by lra. pose proof min_1. lra.
  - apply classify_ok in C. destruct C as (F & C). rewrite ext32_finite in H by auto. destruct c0 as (F0 & V0). rewrite lt_f by (auto; lra). unfold lgamma_positive. rewrite lt_t by (auto; lra). reflexivity.
  - apply classify_ok in C. congruence.
Qed.
Lemma lgamma_pole x n : finite x -> valR x = IZR n -> (n <= 0)%Z -> lgamma x = limInf.
Proof.
  intros F V N. unfold lgamma. destruct c0 as (F0 & V0). assert (P126 := bpow_gt_0 radix2 (-126)). destruct (classify x) eqn:C; try reflexivity.
  - apply classify_ok in C. destruct C as (_ & C). exfalso. assert (n <> 0)%Z by (intros ->; rewrite V, Rabs_R0 in C; lra). assert (n <= -1)%Z by lia. apply IZR_le in H0. rewrite <- V in H0. rewrite Rabs_left in C by lra. pose proof min_1. lra.
  - apply classify_ok in C. destruct C as (_ & C). assert (n <> 0)%Z by (intros ->; rewrite V, Rabs_R0 in C; lra). assert (n <= -1)%Z by lia. apply IZR_le in H0. rewrite <- V in H0. rewrite lt_t by (auto; lra).
    destruct (b32_le x _); [reflexivity|]. destruct (opp_R x F) as (Fo & Vo). rewrite (frac_zero (- x)%b32 (- n)); auto. rewrite Vo, V, opp_IZR. reflexivity.
  - apply classify_ok in C. destruct x; discriminate.
Qed.

(** ** beta *)
Lemma plus_comm_num x y : is_nan 24 128 x = false -> is_nan 24 128 y = false -> (x + y)%b32 = (y + x)%b32.
Proof.
  intros Nx Ny. destruct x as [s|s|s pl|s m e H], y as [t|t|t pk|t k g G]; try discriminate; try reflexivity.
  - destruct s, t; reflexivity.
  - destruct s, t; reflexivity.
  - unfold b32_plus, Bplus. cbn. rewrite (Z.min_comm g e). replace (Fplus_naive t k g s m e (Z.min e g)) with (Fplus_naive s m e t k g (Z.min e g)); [reflexivity|]. unfold Fplus_naive. apply Z.add_comm.
Qed.
Lemma plus_nan_r x y : is_nan 24 128 y = true -> is_nan 24 128 (x + y)%b32 = true.
Proof. destruct x, y; intros H; try discriminate; reflexivity. Qed.
Lemma minus_nan_l x y : is_nan 24 128 x = true -> is_nan 24 128 (x - y)%b32 = true.
Proof. destruct x, y; intros H; try discriminate; reflexivity. Qed.
Lemma fexp_nan x : is_nan 24 128 x = true -> fexp x = Ub.
Proof. intros H. unfold fexp. apply exp2_nan. apply mult_nan_r. exact H. Qed.
Lemma beta_comm x y : beta x y = beta y x.
Proof.
  unfold beta. rewrite orb_comm. destruct (isNan y || isNan x) eqn:E; [reflexivity|]. apply orb_false_iff in E. destruct E as [Ny Nx]. rewrite isNan_ok in Nx, Ny.
  rewrite (plus_comm_num x y Nx Ny). set (c := lgamma (y + x)%b32). set (a := lgamma x). set (b := lgamma y).
  destruct (is_nan 24 128 a) eqn:Na; [rewrite !fexp_nan; auto; apply minus_nan_l; [apply plus_nan_r|apply plus_nan_l]; exact Na|].
  destruct (is_nan 24 128 b) eqn:Nb; [rewrite !fexp_nan; auto; apply minus_nan_l; [apply plus_nan_l|apply plus_nan_r]; exact Nb|].
  rewrite (plus_comm_num a b Na Nb). reflexivity.
Qed.
Lemma beta_undefined x y : finite x -> finite y -> 0 <= valR x -> 1716241 / 10000 <= valR y -> valR x + valR y <= big -> beta x y = Ub.
Proof.
  intros Fx Fy Px Py B. unfold beta. rewrite !isNan_ok, !fin_nan by auto. cbn [orb]. apply fexp_nan.
  rewrite (lgamma_large y) by (try apply fin_nan; auto; rewrite ext32_finite; auto).
  destruct (plus_R x y Fx Fy) as (Fs & Vs); [rewrite Rabs_pos_eq by lra; auto|].
  rewrite (lgamma_large (x + y)%b32). { destruct (lgamma x) as [[]|[]|? ?|[] ? ? ?]; reflexivity. } { apply fin_nan; auto. }
  rewrite ext32_finite, Vs by auto. apply Rle_trans with (1 := Py). apply rnd_ge_val. lra.
Qed.
