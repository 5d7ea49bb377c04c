(** The exponential integral of negative arguments: the whole function on (-1, 0) and below -100. *)
From Coq Require Import ZArith Reals Lra Lia Psatz Bool.
From Flocq Require Import Core IEEE754.BinarySingleNaN IEEE754.Binary IEEE754.Bits.
From Verif Require Import Base BaseLemmas Arith Ext32 Bits32 Ffmath_Model Ffmath2_Model Ffmath4_Model Ffmath_Spec Ffmath_Proofs Ffmath_Proofs2 Ffmath_Proofs3 Float32 Ffmath_Proofs4 Ffmath_Proofs7 Ffmath_Proofs8 Ffmath_Proofs9 FloatApp Ffmath_Proofs12 Ffmath_Proofs13 Ffmath_Proofs14 Ffmath_Proofs15 Ffmath_Proofs16 Ellint_Proofs3 Expint_Spec Expint_Proofs Expint_Proofs2 Expint_Proofs3 Expint_Proofs4 Expint_Proofs5 Expint_Proofs6 Expint_Proofs7 Expint_Proofs8.
Open Scope R_scope.

Lemma zero_app : app (flit 0 1) 0 0. Proof. destruct zero_val as (F & V). apply app_const; auto. Qed.
Lemma e1_small x : finite x -> 0 < valR x <= q28 -> forall n, e1_series_loop (S n) 1 x (flit 1 1) (flit 0 1) (flit 0 1) = (flit 0 1, flit 0 1).
Proof.
  intros F H n. cbn [e1_series_loop]. destruct (opp_R x F) as (Fo & Vo). destruct (ofZ_R 1 ltac:(lia)) as (Fj & Vj). destruct one_val as (F1 & V1).
  destruct (div_R (- x)%b32 (b32_ofZ 1) Fo Fj ltac:(lra)) as (F2 & V2). { apply small_big. rewrite Vo, Vj. apply Rabs_le. unfold q28 in *. lra. } rewrite Vj, Vo in V2.
  assert (E : rnd (- valR x / 1) = - valR x) by (replace (- valR x / 1) with (- valR x) by field; rewrite rnd_opp, rnd_val; reflexivity). rewrite E in V2.
  destruct (mult_R (flit 1 1) ((- x) / b32_ofZ 1)%b32 F1 F2) as (F3 & V3). { apply small_big. rewrite V1, V2. apply Rabs_le. unfold q28 in *. lra. }
  rewrite V1, V2, Rmult_1_l, rnd_opp, rnd_val in V3. destruct (abs_R _ F3) as (F4 & V4). destruct eps_near as (Fe & Ve).
  rewrite lt_t; [reflexivity|exact F4|exact Fe|]. rewrite V4, V3, Rabs_Ropp, Rabs_pos_eq by lra. unfold q28 in *. lra.
Qed.
Lemma e1_loop_all x : finite x -> 0 < valR x < 1 -> exists E O a b, let r := e1_series_loop 999 1 x (flit 1 1) (flit 0 1) (flit 0 1) in
  app (fst r) E a /\ app (snd r) O b /\ Rabs E + Rabs O <= 2 /\ 0 <= a /\ 0 <= b /\ a + b <= 4 / 1000000 /\ Rabs (E + O - ei_sum (- valR x)) <= 1 / 1000000.
Proof.
  intros F H. destruct (Rle_lt_dec (valR x) q28) as [L|L].
  - change 999%nat with (S 998). rewrite e1_small by (auto; lra). exists 0, 0, 0, 0. cbv zeta. cbn [fst snd]. split; [apply zero_app|]. split; [apply zero_app|]. rewrite Rabs_R0. split; [lra|]. split; [lra|]. split; [lra|]. split; [lra|].
    pose proof (ei_tail (- valR x) 1 ltac:(lra)) as B. rewrite Rabs_Ropp, Rabs_pos_eq in B by lra. specialize (B ltac:(cbn [INR]; lra)). rewrite P_1 in B. replace (T (valR x) 1) with (valR x) in B by (unfold T; cbn; field). apply Rabs_le_inv in B. unfold q28 in *. apply Rabs_le. lra.
  - destruct one_val as (F1 & V1). apply (e1_loop (valR x) x) with (k := 0%nat) (E := 0) (O := 0) (a := 0) (b := 0); auto; try lia; try lra.
    + unfold q28 in *. lra.
    + split; [exact F1|]. rewrite T_0, V1. cbn [odd sg]. unfold dT. cbn [INR]. lra.
    + apply zero_app.
    + apply zero_app.
    + cbn [P]. ring.
    + rewrite Rabs_R0. cbn [P]. lra.
    + cbn [INR]. lra.
Qed.
Lemma app_opp x v e : app x v e -> app (- x)%b32 (- v) e.
Proof. intros (F & H). destruct (opp_R x F) as (F2 & V2). split; [exact F2|]. rewrite V2. replace (- valR x - - v) with (- (valR x - v)) by ring. rewrite Rabs_Ropp. exact H. Qed.
Lemma one_lt x : finite x -> valR x < 1 -> (x <? flit 1 1)%b32 = true. Proof. intros F H. destruct one_val as (F1 & V1). apply lt_t; auto. lra. Qed.
Lemma expint_unit_neg x : is_normal x -> -1 < valR x < 0 -> exists r, expint x = Ok r /\ finite r /\ Rabs (valR r + Ei (valR x)) <= / 100000 * (1 + Rabs (ln (Rabs (valR x)))).
Proof.
  intros N H. assert (F : finite x) by apply N. destruct (opp_R x F) as (Fo & Vo). set (y := (- x)%b32) in *. set (t := - valR x) in *. assert (Ht : 0 < t < 1) by (unfold t; lra).
  exists (expint_E1_series y). split.
  { unfold expint, expint_Ei. rewrite isNan_ok, fin_nan by exact F. destruct zero_val as (F0 & V0). rewrite (lt_t x (flit 0 1)) by (auto; lra). fold y. cbv zeta. rewrite one_lt; [reflexivity|exact Fo|lra]. }
  assert (Ny : is_normal y). { split; [exact Fo|]. rewrite Vo. unfold t. rewrite Rabs_Ropp. apply N. }
  destruct (flog_acc y Ny ltac:(lra)) as (Fl & Al). rewrite Vo in Al.
  destruct (e1_loop_all y Fo ltac:(lra)) as (E & O & a & b & R). cbv zeta in R. unfold expint_E1_series. destruct (e1_series_loop 999 1 y (flit 1 1) (flit 0 1) (flit 0 1)) as (es & os). cbn [fst snd] in R. rewrite Vo in R.
  destruct R as (AE & AO & B & Ha & Hb & Hab & D). pose proof u32_v as Eu. pose proof gamma_crude as G.
  pose proof (Rabs_pos E). pose proof (Rabs_pos O).
  assert (EE : - Rabs E <= E <= Rabs E) by (apply Rabs_le_inv, Rle_refl). assert (OO : - Rabs O <= O <= Rabs O) by (apply Rabs_le_inv, Rle_refl).
  assert (A1 : app (- es - os)%b32 (- E - O) (a + b + 2 / 10000000)). { apply (app_sub (- es)%b32 (- E) a os O b 2); [apply app_opp; exact AE|exact AO|apply Rabs_le; lra| |]; unfold huge, tiny in *; rewrite ?Eu; lra. }
  assert (A2 : app (- es - os - fGAMMA_E)%b32 (- E - O - euler_gamma) (a + b + 24 / 10000000)). { apply (app_sub (- es - os)%b32 (- E - O) (a + b + 2 / 10000000) fGAMMA_E euler_gamma (2 / 1000000) (26 / 10)); [exact A1|apply gammaF|apply Rabs_le; lra| |]; unfold huge, tiny in *; rewrite ?Eu; lra. }
  set (L := Rabs (ln t)) in *. pose proof (Rabs_pos (ln t)) as L0. fold L in L0. assert (LL : - L <= ln t <= L) by (apply Rabs_le_inv, Rle_refl).
  assert (LX : L <= 100).
  { assert (A : ln t <= 36) by (pose proof (ln_lin t ltac:(lra)); lra). assert (Bl : -89 <= ln t).
    { pose proof ln2_bnd as L2. apply Rle_trans with (ln (bpow radix2 (-126))); [rewrite bpow_exp; rewrite ln_exp; change (IZR (-126)) with (-126); change (IZR radix2) with 2; lra|].
      apply Rcomplements.ln_le; [apply bpow_gt_0|]. destruct Ny as (_ & Ny). rewrite Vo, Rabs_pos_eq in Ny by lra. exact Ny. }
    unfold L. apply Rabs_le. lra. }
  assert (A3 : app (- es - os - fGAMMA_E - flog y)%b32 (- E - O - euler_gamma - ln t) (a + b + 27 / 10000000 + 102 / 100000000 * L)).
  { apply (app_sub (- es - os - fGAMMA_E)%b32 (- E - O - euler_gamma) (a + b + 24 / 10000000) (flog y) (ln t) (952 / 1000000000 * L) (26 / 10 + L)); [exact A2|split; [exact Fl|exact Al]|apply Rabs_le; lra| |]; unfold huge, tiny in *; rewrite ?Eu; lra. }
  destruct A3 as (F3 & V3). split; [exact F3|]. unfold Ei. replace (Rabs (valR x)) with t by (unfold t; rewrite Rabs_left; lra). fold L. replace (ei_sum (valR x)) with (ei_sum (- t)) by (f_equal; unfold t; ring).
  apply Rabs_le_inv in V3. apply Rabs_le_inv in D. apply Rabs_le. lra.
Qed.
Lemma expint_wrong_sign x : is_normal x -> -1 < valR x < 0 -> exists r, expint x = Ok r /\ finite r /\ 0 < valR r /\ Ei (valR x) < 0.
Proof.
  intros N H. destruct (expint_unit_neg x N H) as (r & E & F & A). exists r. split; [exact E|]. split; [exact F|]. pose proof (Ei_neg (valR x) H) as G. apply Rabs_le_inv in A.
  assert (LX : Rabs (ln (Rabs (valR x))) <= 100).
  { assert (Px : 0 < Rabs (valR x) < 1) by (rewrite Rabs_left; lra). pose proof (ln_lin (Rabs (valR x)) ltac:(lra)). assert (Bl : -89 <= ln (Rabs (valR x))).
    { pose proof ln2_bnd as L2. apply Rle_trans with (ln (bpow radix2 (-126))); [rewrite bpow_exp; rewrite ln_exp; change (IZR (-126)) with (-126); change (IZR radix2) with 2; lra|].
      apply Rcomplements.ln_le; [apply bpow_gt_0|]. apply N. }
    apply Rabs_le. lra. }
  lra.
Qed.

(** far negative arguments: the result is a zero *)
Lemma int_le v m : (0 <= m <= 2000)%Z -> Rabs v <= IZR m -> Rabs (rnd v) <= IZR m.
Proof.
  intros Hm H. destruct (ofZ_R m ltac:(lia)) as (F & V). rewrite <- V in *. apply Rabs_le_inv in H. apply Rabs_le. split; [|apply rnd_le_val; lra].
  rewrite <- (Ropp_involutive (rnd v)), <- rnd_opp. apply Ropp_le_contravar. apply rnd_le_val. lra.
Qed.
Lemma nan_opp' (k : float) : is_nan 24 128 (- k)%b32 = is_nan 24 128 k. Proof. destruct k; reflexivity. Qed.
Definition far (y : float) : Prop := y = B754_infinity 24 128 false \/ (finite y /\ 100 <= valR y).
Lemma far_ratio y i : far y -> (1 <= i <= 1000)%Z -> finite ((- b32_ofZ i) / y)%b32 /\ Rabs (valR ((- b32_ofZ i) / y)%b32) <= 10.
Proof.
  intros H Hi. destruct (ofZ_R i ltac:(lia)) as (Fi & Vi). destruct (opp_R _ Fi) as (Fo & Vo). rewrite Vi in Vo. assert (I : 1 <= IZR i <= 1000) by (split; apply IZR_le; lia).
  destruct H as [->|(Fy & Hy)].
  - set (o := (- b32_ofZ i)%b32) in *. clearbody o. destruct o as [s|s|s p|s m e q]; try discriminate; split; try reflexivity; cbn; rewrite Rabs_R0; lra.
  - assert (J : 0 < / valR y <= / 100) by (split; [apply Rinv_0_lt_compat; lra|apply Rinv_le_contravar; lra]).
    assert (B : Rabs (valR (- b32_ofZ i)%b32 / valR y) <= 10). { rewrite Vo. unfold Rdiv. rewrite Rabs_mult, Rabs_Ropp, (Rabs_pos_eq (IZR i)), (Rabs_pos_eq (/ _)) by lra. apply Rle_trans with (1000 * / 100); [apply Rmult_le_compat; lra|lra]. }
    destruct (div_R (- b32_ofZ i)%b32 y Fo Fy ltac:(lra)) as (F2 & V2). { apply small_big. lra. } split; [exact F2|]. rewrite V2. apply (int_le _ 10); [lia|exact B].
Qed.
Lemma far_loop y : far y -> forall n i m term es os, (1 <= i)%Z -> (i + Z.of_nat n <= 1000)%Z -> (0 <= m)%Z -> (m + Z.of_nat n <= 1000)%Z -> finite term -> Rabs (valR term) <= 1 -> finite es -> Rabs (valR es) <= IZR m -> finite os -> Rabs (valR os) <= IZR m ->
  let r := e1_asymp_loop n i y term es os in finite (fst r) /\ finite (snd r) /\ Rabs (valR (fst r)) <= 1000 /\ Rabs (valR (snd r)) <= 1000.
Proof.
  intros Hy. induction n as [|n IH]; intros i m term es os Hi Hin Hm Hmn Ft Bt Fe Be Fo Bo.
  - cbn [e1_asymp_loop fst snd]. assert (IZR m <= 1000) by (apply (IZR_le m 1000); lia). repeat split; auto; lra.
  - cbn [e1_asymp_loop]. destruct (far_ratio y i Hy ltac:(lia)) as (Fq & Bq). assert (M : 0 <= IZR m <= 1000) by (split; [apply (IZR_le 0 m)|apply (IZR_le m 1000)]; lia).
    destruct (mult_R term _ Ft Fq) as (F2 & V2). { apply small_big. rewrite Rabs_mult. apply Rle_trans with (1 * 10); [apply Rmult_le_compat; auto using Rabs_pos|lra]. }
    set (term' := (term * ((- b32_ofZ i) / y))%b32) in *. clearbody term'. destruct (abs_R term Ft) as (Fa & Va). destruct (abs_R term' F2) as (Fb & Vb).
    destruct (Rlt_le_dec (Rabs (valR term)) (Rabs (valR term'))) as [L|L].
    + rewrite (lt_t (absolute term) (absolute term') Fa Fb) by lra. cbn [fst snd]. repeat split; auto; lra.
    + rewrite (lt_f (absolute term) (absolute term') Fa Fb) by lra.
      assert (Add : forall s, finite s -> Rabs (valR s) <= IZR m -> finite (s + term')%b32 /\ Rabs (valR (s + term')%b32) <= IZR (m + 1)).
      { intros s Fs Bs. assert (Q : Rabs (valR s + valR term') <= IZR (m + 1)). { rewrite plus_IZR. eapply Rle_trans; [apply Rabs_triang|]. lra. }
        destruct (plus_R s term' Fs F2) as (F3 & V3). { pose proof huge_ok. unfold huge in *. rewrite plus_IZR in Q. lra. } split; [exact F3|]. rewrite V3. apply int_le; [lia|exact Q]. }
      assert (Up : IZR m <= IZR (m + 1)) by (apply IZR_le; lia).
      destruct (b32_le (flit 0 1) term').
      * destruct (Add es Fe Be) as (F3 & B3). apply (IH (i + 1)%Z (m + 1)%Z); auto; try lia; lra.
      * destruct (Add os Fo Bo) as (F3 & B3). apply (IH (i + 1)%Z (m + 1)%Z); auto; try lia; lra.
Qed.
Lemma far_neg x : is_nan 24 128 x = false -> ext32 x <= -100 -> far (- x)%b32.
Proof.
  intros N H. destruct x as [s|s|s p|s m e q]; [cbn [ext32 B2R] in H; lra| |discriminate|].
  - destruct s; [left; reflexivity|]. cbn [ext32] in H. pose proof (bp 128). lra.
  - right. rewrite ext32_finite in H by reflexivity. destruct (opp_R (B754_finite 24 128 s m e q) eq_refl) as (F & V). split; [exact F|]. rewrite V. change (B2R 24 128 (B754_finite 24 128 s m e q)) with (valR (B754_finite 24 128 s m e q)) in H. lra.
Qed.
Lemma expint_far x : is_nan 24 128 x = false -> ext32 x <= -100 -> exists r, expint x = Ok r /\ is_zero r.
Proof.
  intros N H. pose proof (far_neg x N H) as Y. unfold expint, expint_Ei. rewrite isNan_ok, N. destruct zero_val as (F0 & V0). destruct one_val as (F1 & V1).
  assert (E1 : (x <? flit 0 1)%b32 = true). { apply b32_lt_ext; auto. rewrite (ext32_finite (flit 0 1)) by auto. change (B2R 24 128 (flit 0 1)) with (valR (flit 0 1)). lra. } rewrite E1. cbv zeta.
  set (y := (- x)%b32) in *.
  assert (Ny : is_nan 24 128 y = false) by (destruct Y as [->|(F & _)]; [reflexivity|apply fin_nan; exact F]).
  assert (Hy : 100 <= ext32 y). { destruct Y as [->|(F & V)]; [cbn [ext32]; rewrite b128; pose proof huge_ok; unfold huge in *; lra|]. rewrite ext32_finite by exact F. exact V. }
  assert (V100 : finite (flit 100 1) /\ valR (flit 100 1) = 100) by cst. destruct V100 as (F100 & V100).
  assert (E2 : (y <? flit 1 1)%b32 = false). { destruct (y <? flit 1 1)%b32 eqn:E; auto. apply b32_lt_ext in E; auto. rewrite (ext32_finite (flit 1 1)) in E by auto. change (B2R 24 128 (flit 1 1)) with (valR (flit 1 1)) in E. lra. }
  assert (E3 : (y <? flit 100 1)%b32 = false). { destruct (y <? flit 100 1)%b32 eqn:E; auto. apply b32_lt_ext in E; auto. rewrite (ext32_finite (flit 100 1)) in E by auto. change (B2R 24 128 (flit 100 1)) with (valR (flit 100 1)) in E. lra. }
  rewrite E2, E3. unfold expint_E1_asymp.
  pose proof (far_loop y Y 999 1 1 (flit 1 1) (flit 1 1) (flit 0 1) ltac:(lia) ltac:(lia) ltac:(lia) ltac:(lia) F1 ltac:(rewrite V1, Rabs_R1; lra) F1 ltac:(rewrite V1, Rabs_R1; lra) F0 ltac:(rewrite V0, Rabs_R0; lra)) as R. cbv zeta in R.
  destruct (e1_asymp_loop 999 1 y (flit 1 1) (flit 1 1) (flit 0 1)) as (es & os). cbn [fst snd] in R. destruct R as (Fe & Fo & Be & Bo).
  assert (L : fexp (- y)%b32 = Ok (flit 0 1)).
  { apply fexp_low; [unfold y; rewrite !nan_opp'; exact N|]. destruct Y as [->|(F & V)]; [change (- bpow radix2 128 <= -89); rewrite b128; pose proof huge_ok; unfold huge, big in *; lra|]. destruct (opp_R y F) as (Fy & Vy). rewrite ext32_finite by exact Fy. change (B2R 24 128 (- y)%b32) with (valR (- y)%b32). lra. }
  rewrite L. cbn [bind]. eexists. split; [reflexivity|].
  destruct (plus_R es os Fe Fo) as (F2 & _). { eapply Rle_trans; [apply Rabs_triang|]. pose proof huge_ok. unfold huge in *. lra. }
  destruct (mult_R (flit 0 1) (es + os)%b32 F0 F2) as (F3 & V3). { apply small_big. rewrite V0, Rmult_0_l, Rabs_R0. lra. } rewrite V0, Rmult_0_l, rnd_0' in V3.
  set (z := (flit 0 1 * (es + os))%b32) in *. clearbody z.
  assert (Q : finite (z / y)%b32 /\ valR (z / y)%b32 = 0).
  { destruct Y as [->|(F & V)]. - destruct z as [s|s|s p|s m e q]; try discriminate; split; reflexivity.
    - destruct (div_R z y F3 F ltac:(lra)) as (F4 & V4). { apply small_big. rewrite V3. unfold Rdiv. rewrite Rmult_0_l, Rabs_R0. lra. } split; [exact F4|]. rewrite V4, V3. unfold Rdiv. rewrite Rmult_0_l. apply rnd_0'. }
  destruct Q as (F4 & V4). destruct (opp_R _ F4) as (F5 & V5). split; [exact F5|]. rewrite V5, V4. ring.
Qed.
