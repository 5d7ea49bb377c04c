(** sin and cos: range reduction, accuracy, symmetry. *)
From Coq Require Import ZArith Reals Lra Lia Psatz Bool.
From Flocq Require Import Core IEEE754.BinarySingleNaN IEEE754.Binary IEEE754.Bits.
From Verif Require Import Base BaseLemmas Arith Ext32 Bits32 PolyBound TrigBound Ffmath_Model Ffmath2_Model Ffmath_Spec Ffmath_Proofs Ffmath_Proofs2 Ffmath_Proofs3 Float32 Ffmath_Proofs4 Ffmath_Proofs7 FloatApp Ffmath_Proofs12 Ffmath_Proofs16.
Open Scope R_scope.

Lemma cM : finite (flit 25165824 1) /\ valR (flit 25165824 1) = 25165824. Proof. cst. Qed.
Lemma cIPI : finite f1_PI /\ valR f1_PI = 10680707 / 33554432. Proof. cst. Qed.
Lemma cPI2 : finite fPI_2 /\ valR fPI_2 = 13176795 / 8388608. Proof. cst. Qed.
Lemma cA : finite (ofU 1080386149) /\ valR (ofU 1080386149) = sinA. Proof. unfold sinA. cst. Qed.
Lemma cB : finite (ofU 1078372199) /\ valR (ofU 1078372199) = sinB. Proof. unfold sinB. cst. Qed.
Lemma cThr : finite (ofU 1004029136) /\ valR (ofU 1004029136) = 885837 / 134217728. Proof. cst. Qed.

(** ** rounding to even integers by adding and subtracting 1.5 * 2^24 *)
Lemma floor_shift x n : Zfloor (x + IZR n) = (Zfloor x + n)%Z.
Proof. apply Zfloor_imp. rewrite !plus_IZR. pose proof (Zfloor_lb x). pose proof (Zfloor_ub x). lra. Qed.
Lemma ceil_shift x n : Zceil (x + IZR n) = (Zceil x + n)%Z.
Proof. unfold Zceil. replace (- (x + IZR n)) with (- x + IZR (- n)) by (rewrite opp_IZR; ring). rewrite floor_shift. lia. Qed.
Lemma near_shift x n : Z.even n = true -> ZnearestE (x + IZR n) = (ZnearestE x + n)%Z.
Proof.
  intros H. unfold Znearest. rewrite floor_shift, ceil_shift, plus_IZR. replace (x + IZR n - (IZR (Zfloor x) + IZR n)) with (x - IZR (Zfloor x)) by ring.
  rewrite Z.even_add, H.
  destruct (Rcompare _ _); auto. destruct (Z.even (Zfloor x)); auto.
Qed.
Definition half_turns (t : R) : Z := ZnearestE (t / 2).
Lemma half_turns_near t : Rabs (t - 2 * IZR (half_turns t)) <= 1.
Proof. pose proof (Znearest_half (fun n => negb (Z.even n)) (t / 2)) as H. fold (half_turns t) in H. apply Rabs_le_inv in H. apply Rabs_le. lra. Qed.
Lemma half_turns_opp t : half_turns (- t) = (- half_turns t)%Z.
Proof.
  unfold half_turns. replace (- t / 2) with (- (t / 2)) by field. rewrite Znearest_opp. f_equal. unfold Znearest. destruct (Rcompare _ _); auto. rewrite Z.even_opp, Z.even_add.
  destruct (Z.even _); reflexivity.
Qed.
Lemma rnd_magic t : Rabs t <= 4194304 -> rnd (t + 25165824) = 2 * IZR (half_turns t) + 25165824.
Proof.
  intros B. apply Rabs_le_inv in B. unfold rnd, round. unfold scaled_mantissa, cexp. rewrite (mag_unique_pos radix2 (t + 25165824) 25).
  2: { change (bpow radix2 (25 - 1)) with 16777216. change (bpow radix2 25) with 33554432. lra. }
  change (FLT_exp (-149) 24 25) with 1%Z. unfold F2R. cbn [Fnum Fexp]. change (bpow radix2 1) with 2. change (bpow radix2 (- (1))) with (/ 2).
  replace ((t + 25165824) * / 2) with (t / 2 + IZR 12582912) by field. rewrite near_shift by reflexivity. rewrite plus_IZR. unfold half_turns. ring.
Qed.
Lemma half_turns_bound t : Rabs t <= 4194304 -> (Z.abs (2 * half_turns t) <= 4194305)%Z.
Proof.
  intros B. apply le_IZR. rewrite abs_IZR, mult_IZR. pose proof (half_turns_near t) as H. apply Rabs_le_inv in H. apply Rabs_le_inv in B. apply Rabs_le. lra.
Qed.
Lemma fmt_int n : (Z.abs n < 2 ^ 24)%Z -> fmt (IZR n).
Proof. intros H. replace (IZR n) with (IZR n * bpow radix2 0) by (change (bpow radix2 0) with 1; ring). apply fmt_intro; auto. lia. Qed.
Lemma reduce_exact t : Rabs (valR t) <= 4194304 -> fmt (valR t - 2 * IZR (half_turns (valR t))).
Proof.
  intros B. pose proof (half_turns_near (valR t)) as N. destruct (Z.eq_dec (half_turns (valR t)) 0) as [Z0|Z0].
  { rewrite Z0. replace (valR t - 2 * 0) with (valR t) by ring. apply format_val. }
  assert (T1 : 1 <= Rabs (valR t)).
  { destruct (Z_le_dec 1 (half_turns (valR t))) as [L|L].
    - apply IZR_le in L. apply Rabs_le_inv in N. pose proof (Rle_abs (valR t)). lra.
    - assert (L2 : (half_turns (valR t) <= -1)%Z) by lia. apply IZR_le in L2. apply Rabs_le_inv in N. pose proof (Rle_abs (- valR t)). rewrite Rabs_Ropp in *. lra. }
  set (j := (2 * half_turns (valR t))%Z). replace (2 * IZR (half_turns (valR t))) with (IZR j) in * by (unfold j; rewrite mult_IZR; ring).
  pose proof (format_val t) as V. unfold generic_format in V. set (e := cexp radix2 (FLT_exp (-149) 24) (valR t)) in *. set (m := Ztrunc (scaled_mantissa radix2 (FLT_exp (-149) 24) (valR t))) in *.
  assert (Ht : valR t <> 0) by (intros E; rewrite E, Rabs_R0 in T1; lra).
  assert (Me : (Raux.mag radix2 (valR t) - 24 <= e /\ -149 <= e)%Z) by (unfold e, cexp, FLT_exp; lia).
  assert (Mu : (Raux.mag radix2 (valR t) <= 23)%Z). { apply mag_le_bpow; [exact Ht|]. change (bpow radix2 23) with 8388608. lra. }
  assert (Me2 : (e <= -1)%Z) by (unfold e, cexp, FLT_exp; lia).
  unfold F2R in V. cbn [Fnum Fexp] in V. assert (Q : IZR j = IZR (j * 2 ^ (- e)) * bpow radix2 e).
  { rewrite mult_IZR, <- pow_Z, Rmult_assoc, <- bpow_plus by lia. replace (- e + e)%Z with 0%Z by lia. change (bpow radix2 0) with 1. ring. }
  assert (P := bpow_gt_0 radix2 e).
  assert (E : valR t - IZR j = IZR (m - j * 2 ^ (- e)) * bpow radix2 e) by (rewrite minus_IZR, Q; rewrite V at 1; ring).
  rewrite E. apply fmt_intro; [|lia].
  assert (S : (Z.abs (m - j * 2 ^ (- e)) <= Z.abs m)%Z).
  { apply le_IZR. apply Rmult_le_reg_r with (bpow radix2 e); auto. rewrite !abs_IZR. rewrite <- (Rabs_pos_eq (bpow radix2 e)) by lra. rewrite <- !Rabs_mult. rewrite <- E, <- V. lra. }
  assert (Z.abs m < 2 ^ 24)%Z; [|lia]. apply lt_IZR. apply Rmult_lt_reg_r with (bpow radix2 e); auto. rewrite abs_IZR. rewrite <- (Rabs_pos_eq (bpow radix2 e)) at 1 by lra.
  rewrite <- Rabs_mult, <- V. change (IZR (2 ^ 24)) with (bpow radix2 24). rewrite <- bpow_plus.
  apply Rlt_le_trans with (bpow radix2 (Raux.mag radix2 (valR t))); [apply bpow_mag_gt|apply bpow_le; lia].
Qed.

(** ** the polynomial *)
Definition sin_poly (x : float) : float :=
  let x := (x * (absolute x - flit 1 1))%b32 in (x * ((ofU 1080386149 * absolute x) + ofU 1078372199))%b32.
Lemma big_ge v : Rabs v <= 100000000 -> Rabs v <= big.
Proof. intros H. apply Rle_trans with (1 := H). change big with (IZR (2 ^ 127)). apply IZR_le. vm_compute. discriminate. Qed.
Lemma fsin_core x : finite x -> 885837 / 134217728 < Rabs (valR x) <= 8388608 ->
  exists r t, fsin x = sin_poly r /\ finite r /\ t = rnd (- (valR x * (10680707 / 33554432))) /\ valR r = t - 2 * IZR (half_turns t) /\ Rabs t <= 4194304.
Proof.
  intros F B. destruct cM as (FM & VM). destruct cIPI as (FI & VI). destruct cThr as (Ft & Vt). destruct (abs_R x F) as (Fa & Va). destruct (opp_R _ FI) as (Fo & Vo).
  unfold fsin. rewrite le_f by (auto; rewrite Va, Vt; lra).
  set (t := (x * - f1_PI)%b32). assert (Bx : Rabs (valR x * valR (- f1_PI)%b32) <= 4000000).
  { rewrite Vo, VI, Rabs_mult, Rabs_Ropp, (Rabs_pos_eq (10680707 / 33554432)) by lra. lra. }
  destruct (mult_R x (- f1_PI)%b32 F Fo) as (F1 & V1); [apply big_ge; lra|]. fold t in F1, V1.
  assert (Bt : Rabs (valR t) <= 4194304). { rewrite V1. change 4194304 with (bpow radix2 22). apply rnd_abs_le; [lia|]. change (bpow radix2 22) with 4194304. lra. }
  pose proof (half_turns_near (valR t)) as N. pose proof (half_turns_bound _ Bt) as NB. pose proof Bt as Bt'. apply Rabs_le_inv in Bt'.
  destruct (plus_R t (flit 25165824 1) F1 FM) as (F2 & V2); [apply big_ge, Rabs_le; rewrite VM; lra|].
  rewrite VM, rnd_magic in V2 by auto. set (y := (t + flit 25165824 1)%b32) in *.
  pose proof (IZR_le _ _ NB) as NB'. rewrite abs_IZR, mult_IZR in NB'.
  destruct (minus_R y (flit 25165824 1) F2 FM) as (F3 & V3). { rewrite V2, VM. apply big_ge. replace (2 * IZR (half_turns (valR t)) + 25165824 - 25165824) with (2 * IZR (half_turns (valR t))) by ring. lra. }
  rewrite V2, VM in V3. replace (2 * IZR (half_turns (valR t)) + 25165824 - 25165824) with (IZR (2 * half_turns (valR t))) in V3 by (rewrite mult_IZR; ring).
  rewrite rnd_fmt in V3 by (apply fmt_int; lia). rewrite mult_IZR in V3. set (n := (y - flit 25165824 1)%b32) in *.
  destruct (minus_R t n F1 F3) as (F4 & V4); [rewrite V3; apply big_ge; lra|]. rewrite V3, rnd_fmt in V4 by (apply reduce_exact; auto).
  exists (t - n)%b32, (valR t). repeat split; auto. rewrite V1. f_equal. rewrite Vo, VI. ring.
Qed.
Lemma sin_poly_app r : finite r -> Rabs (valR r) <= 1 ->
  app (sin_poly r) (if Rle_dec 0 (valR r) then - sin_q (valR r * (1 - valR r)) else sin_q (- valR r * (1 + valR r))) (8 / 10000000).
Proof.
  intros F B. destruct c1 as (F1 & V1). destruct cA as (FA & VA). destruct cB as (FB & VB). destruct (abs_R r F) as (Fa & Va). unfold sin_poly.
  set (v := valR r) in *. pose proof (Rabs_pos v).
  assert (A0 : app (absolute r - flit 1 1)%b32 (Rabs v - 1) (/ 16000000)).
  { apply app_sub with 0 0 1; [apply app_const; auto|apply app_const; auto|apply Rabs_le; lra|num|num]. }
  assert (B0 : Rabs (Rabs v - 1) <= 1) by (apply Rabs_le; lra).
  assert (A1 : app (r * (absolute r - flit 1 1))%b32 (v * (Rabs v - 1)) (/ 7900000)).
  { apply app_mul with 0 1 (/ 16000000) 1; auto; [apply app_const; auto|num|num]. }
  set (s := (r * (absolute r - flit 1 1))%b32) in *. set (w := v * (Rabs v - 1)) in *.
  assert (B1 : Rabs w <= / 4).
  { unfold w. rewrite Rabs_mult, (Rabs_minus_sym (Rabs v) 1), (Rabs_pos_eq (1 - Rabs v)) by lra. pose proof (Rle_0_sqr (Rabs v - / 2)) as Q. unfold Rsqr in Q. lra. }
  assert (A2 : app (absolute s) (Rabs w) (/ 7900000)).
  { destruct A1 as (Fs & Es). destruct (abs_R s Fs) as (Fb & Vb). split; [exact Fb|]. rewrite Vb. eapply Rle_trans; [apply Rabs_triang_inv2|]. exact Es. }
  assert (A3 : app (ofU 1080386149 * absolute s)%b32 (sinA * Rabs w) (55 / 100000000)).
  { apply app_mul with 0 sinA (/ 7900000) (/ 4); [apply app_const; auto|unfold sinA; rewrite Rabs_pos_eq by lra; lra|exact A2|rewrite Rabs_Rabsolu; exact B1|unfold sinA; num|unfold sinA; num]. }
  assert (B3 : 0 <= sinA * Rabs w <= 9 / 10) by (pose proof (Rabs_pos w); unfold sinA; lra).
  assert (A4 : app (ofU 1080386149 * absolute s + ofU 1078372199)%b32 (sinA * Rabs w + sinB) (82 / 100000000)).
  { apply app_add with (55 / 100000000) 0 (401 / 100); [exact A3|apply app_const; auto|apply Rabs_le; unfold sinB; lra|num|num]. }
  assert (A5 : app (s * (ofU 1080386149 * absolute s + ofU 1078372199))%b32 (w * (sinA * Rabs w + sinB)) (8 / 10000000)).
  { apply app_mul with (/ 7900000) (/ 4) (82 / 100000000) (401 / 100); auto; [apply Rabs_le; unfold sinB; lra|num|num]. }
  replace (if Rle_dec 0 v then _ else _) with (w * (sinA * Rabs w + sinB)); [exact A5|].
  unfold sin_q, w in *. pose proof B as B'. destruct (Rle_dec 0 v) as [P|P].
  - rewrite (Rabs_pos_eq v) in * by lra. rewrite (Rabs_left1 (v * (v - 1))) by nra. ring.
  - rewrite (Rabs_left1 v) in * by lra. rewrite (Rabs_pos_eq (v * (- v - 1))) by nra. ring.
Qed.
Lemma sin_poly_sin r : finite r -> Rabs (valR r) <= 1 -> finite (sin_poly r) /\ Rabs (valR (sin_poly r) + sin (PI * valR r)) <= 9208 / 10000000.
Proof.
  intros F B. destruct (sin_poly_app r F B) as (F1 & E). split; [exact F1|]. apply Rabs_le_inv in B. destruct (Rle_dec 0 (valR r)) as [P|P].
  - pose proof (sin_quartic (valR r) ltac:(lra)) as Q. apply Rabs_le_inv in Q. apply Rabs_le_inv in E. apply Rabs_le. lra.
  - pose proof (sin_quartic (- valR r) ltac:(lra)) as Q. replace (PI * - valR r) with (- (PI * valR r)) in Q by ring. rewrite sin_neg in Q. replace (1 - - valR r) with (1 + valR r) in Q by ring.
    apply Rabs_le_inv in Q. apply Rabs_le_inv in E. apply Rabs_le. lra.
Qed.
Lemma sin_small v : Rabs v <= 1 / 100 -> Rabs (v - sin v) <= 1 / 1000000.
Proof.
  assert (K : forall v, 0 <= v <= 1 / 100 -> Rabs (v - sin v) <= 1 / 1000000).
  { intros w H. destruct (pre_sin_bound w 0) as (L & U); [lra|lra|]. unfold sin_approx, sin_term in L, U. cbn [sum_f_R0 Nat.add Nat.mul] in L, U. destruct facts as (_ & E1 & _ & E3 & _ & E5 & _). rewrite E1, E3 in L, U. rewrite E5 in U. cbn [pow] in L, U.
    assert (0 <= w * w * w <= 1 / 1000000) by (split; [apply Rmult_le_pos; [apply Rmult_le_pos|]; lra|]; assert (w * w <= 1 / 10000) by nra; nra). 
    assert (0 <= w * w <= 1 / 10000) by nra. assert (0 <= w * w * w * (w * w) <= 1 / 1000000 * (1 / 10000)) by (split; [apply Rmult_le_pos; lra|apply Rmult_le_compat; lra]). apply Rabs_le. lra. }
  intros H. apply Rabs_le_inv in H. destruct (Rle_dec 0 v) as [P|P]; [apply K; lra|].
  replace (v - sin v) with (- (- v - sin (- v))) by (rewrite sin_neg; ring). rewrite Rabs_Ropp. apply K. lra.
Qed.
Lemma fsin_accurate x : finite x -> Rabs (valR x) <= 8388608 ->
  finite (fsin x) /\ Rabs (valR (fsin x) - sin (valR x)) <= 921 / 1000000 + / 6000000 * Rabs (valR x).
Proof.
  intros F B. destruct (Rle_or_lt (Rabs (valR x)) (885837 / 134217728)) as [L|L].
  - destruct cThr as (Ft & Vt). destruct (abs_R x F) as (Fa & Va). unfold fsin. rewrite le_t by (auto; rewrite Va, Vt; lra). split; [exact F|].
    eapply Rle_trans; [apply sin_small; lra|]. pose proof (Rabs_pos (valR x)). lra.
  - destruct (fsin_core x F (conj L B)) as (r & t & -> & Fr & Et & Er & Bt). pose proof (half_turns_near t) as N. rewrite <- Er in N.
    destruct (sin_poly_sin r Fr N) as (F1 & E). split; [exact F1|].
    assert (S1 : sin (PI * valR r) = sin (PI * t)).
    { rewrite Er. rewrite <- (sin_periodZ (PI * t) (- half_turns t)). f_equal. rewrite opp_IZR. ring. }
    rewrite S1 in E. assert (S2 : Rabs (sin (- (PI * t)) - sin (valR x)) <= / 6000000 * Rabs (valR x) + 1 / 100000000).
    { eapply Rle_trans; [apply sin_lip|]. pose proof PI_bounds as P. unfold PIlo, PIhi in P. pose proof (rnd_err (- (valR x * (10680707 / 33554432)))) as R. rewrite <- Et in R.
      rewrite Rabs_Ropp, Rabs_mult, (Rabs_pos_eq (10680707 / 33554432)) in R by lra. change u32 with (/ 16777216) in R. pose proof tiny_ok as T. unfold tiny in T.
      set (d := t - - (valR x * (10680707 / 33554432))) in *.
      replace (- (PI * t) - valR x) with (- (PI * d) + valR x * (PI * (10680707 / 33554432) - 1)) by (unfold d; ring).
      eapply Rle_trans; [apply Rabs_triang|]. rewrite Rabs_Ropp, !Rabs_mult, (Rabs_pos_eq PI) by lra.
      assert (Q : Rabs (PI * (10680707 / 33554432) - 1) <= 8 / 100000000) by (apply Rabs_le; lra).
      assert (PI * Rabs d <= 31415927 / 10000000 * (/ 16777216 * (Rabs (valR x) * (10680707 / 33554432)) + bpow radix2 (-150))) by (apply Rmult_le_compat; try lra; apply Rabs_pos).
      pose proof (Rabs_pos (valR x)). assert (Rabs (valR x) * Rabs (PI * (10680707 / 33554432) - 1) <= Rabs (valR x) * (8 / 100000000)) by (apply Rmult_le_compat_l; lra). lra. }
    rewrite sin_neg in S2. apply Rabs_le_inv in S2. apply Rabs_le_inv in E. apply Rabs_le. lra.
Qed.
Lemma sin_poly_odd r q : finite r -> finite q -> Rabs (valR r) <= 1 -> valR q = - valR r -> valR (sin_poly q) = - valR (sin_poly r).
Proof.
  intros Fr Fq B E. destruct c1 as (F1 & V1). destruct cA as (FA & VA). destruct cB as (FB & VB). destruct (abs_R r Fr) as (Fa & Va). destruct (abs_R q Fq) as (Fa' & Va').
  rewrite E, Rabs_Ropp in Va'. pose proof (Rabs_pos (valR r)). unfold sin_poly.
  destruct (minus_R (absolute r) (flit 1 1) Fa F1) as (F2 & V2); [rewrite Va, V1; apply big_ge, Rabs_le; lra|].
  destruct (minus_R (absolute q) (flit 1 1) Fa' F1) as (F2' & V2'); [rewrite Va', V1; apply big_ge, Rabs_le; lra|]. rewrite Va', <- Va, <- V2 in V2'.
  set (d := (absolute r - flit 1 1)%b32) in *. set (d' := (absolute q - flit 1 1)%b32) in *.
  assert (Bd : Rabs (valR d) <= 1). { rewrite V2, Va, V1. apply (rnd_abs_le _ 0); [lia|]. change (bpow radix2 0) with 1. apply Rabs_le. lra. }
  assert (Bm : Rabs (valR r * valR d) <= 1) by (rewrite Rabs_mult; pose proof (Rabs_pos (valR d)); nra).
  destruct (mult_R r d Fr F2) as (F3 & V3); [apply big_ge; lra|]. destruct (mult_R q d' Fq F2') as (F3' & V3'); [rewrite E, V2'; rewrite Ropp_mult_distr_l_reverse, Rabs_Ropp; apply big_ge; lra|].
  rewrite E, V2', Ropp_mult_distr_l_reverse, rnd_opp, <- V3 in V3'. set (s := (r * d)%b32) in *. set (s' := (q * d')%b32) in *.
  assert (Bs : Rabs (valR s) <= 1). { rewrite V3. apply (rnd_abs_le _ 0); [lia|exact Bm]. }
  destruct (abs_R s F3) as (F4 & V4). destruct (abs_R s' F3') as (F4' & V4'). rewrite V3', Rabs_Ropp, <- V4 in V4'.
  assert (B4 : 0 <= valR (ofU 1080386149) * valR (absolute s) <= 4). { rewrite VA, V4. pose proof (Rabs_pos (valR s)). unfold sinA. lra. }
  destruct (mult_R (ofU 1080386149) (absolute s) FA F4) as (F5 & V5); [apply big_ge, Rabs_le; lra|]. destruct (mult_R (ofU 1080386149) (absolute s') FA F4') as (F5' & V5'); [rewrite V4'; apply big_ge, Rabs_le; lra|].
  rewrite V4', <- V5 in V5'. set (a := (ofU 1080386149 * absolute s)%b32) in *. set (a' := (ofU 1080386149 * absolute s')%b32) in *.
  assert (B5 : Rabs (valR a) <= 4). { rewrite V5. apply (rnd_abs_le _ 2); [lia|]. change (bpow radix2 2) with 4. apply Rabs_le. lra. } apply Rabs_le_inv in B5.
  assert (SB : 3 <= sinB <= 4) by (unfold sinB; lra).
  destruct (plus_R a (ofU 1078372199) F5 FB) as (F6 & V6); [rewrite VB; apply big_ge, Rabs_le; lra|]. destruct (plus_R a' (ofU 1078372199) F5' FB) as (F6' & V6'); [rewrite V5', VB; apply big_ge, Rabs_le; lra|].
  rewrite V5', <- V6 in V6'. set (p := (a + ofU 1078372199)%b32) in *. set (p' := (a' + ofU 1078372199)%b32) in *.
  assert (B6 : Rabs (valR p) <= 8). { rewrite V6. apply (rnd_abs_le _ 3); [lia|]. change (bpow radix2 3) with 8. rewrite VB. apply Rabs_le. lra. }
  assert (B7 : Rabs (valR s * valR p) <= 8) by (rewrite Rabs_mult; pose proof (Rabs_pos (valR p)); pose proof (Rabs_pos (valR s)); nra).
  destruct (mult_R s p F3 F6) as (_ & ->); [apply big_ge; lra|]. destruct (mult_R s' p' F3' F6') as (_ & ->); [rewrite V3', V6', Ropp_mult_distr_l_reverse, Rabs_Ropp; apply big_ge; lra|].
  rewrite V3', V6', Ropp_mult_distr_l_reverse. apply rnd_opp.
Qed.
Lemma fsin_odd x : finite x -> Rabs (valR x) <= 8388608 -> valR (fsin (- x)%b32) = - valR (fsin x).
Proof.
  intros F B. destruct (opp_R x F) as (Fo & Vo). destruct cThr as (Ft & Vt). destruct (abs_R x F) as (Fa & Va). destruct (abs_R _ Fo) as (Fao & Vao). rewrite Vo, Rabs_Ropp in Vao.
  destruct (Rle_or_lt (Rabs (valR x)) (885837 / 134217728)) as [L|L].
  - unfold fsin. rewrite !le_t by (auto; rewrite ?Vao, ?Va, Vt; lra). exact Vo.
  - destruct (fsin_core x F (conj L B)) as (r & t & -> & Fr & Et & Er & Bt). destruct (fsin_core (- x)%b32 Fo) as (r' & t' & -> & Fr' & Et' & Er' & Bt'); [rewrite Vo, Rabs_Ropp; auto|].
    assert (t' = - t). { rewrite Et', Et, Vo. rewrite <- rnd_opp. f_equal. ring. }
    subst t'. apply sin_poly_odd; auto; [rewrite Er; apply half_turns_near|]. rewrite Er', Er. rewrite H, half_turns_opp, opp_IZR. ring.
Qed.
Lemma c1em12 : finite (ofU 730643660) /\ 0 <= valR (ofU 730643660) <= 2 / 1000000000000. Proof. split; [reflexivity|vm_compute; lra]. Qed.
Lemma fcos_accurate x : finite x -> Rabs (valR x) <= 8388000 ->
  finite (fcos x) /\ Rabs (valR (fcos x) - cos (valR x)) <= 922 / 1000000 + / 4000000 * Rabs (valR x).
Proof.
  intros F B. destruct cPI2 as (FP & VP). destruct (abs_R x F) as (Fa & Va). pose proof PI_bounds as P. unfold PIlo, PIhi in P. pose proof (Rabs_pos (valR x)).
  unfold fcos. destruct (fisEqual0 (absolute x) fPI_2) eqn:E.
  - destruct c1em12 as (F1 & V1). split; [exact F1|]. unfold fisEqual0, fisEqual in E.
    destruct (minus_R (absolute x) fPI_2 Fa FP) as (F2 & V2); [rewrite Va, VP; apply big_ge, Rabs_le; lra|].
    assert (S : Rabs (Rabs (valR x) - PI / 2) <= 1 / 1000000).
    { destruct (Rle_or_lt (Rabs (Rabs (valR x) - PI / 2)) (1 / 1000000)) as [Q|Q]; [exact Q|exfalso].
      destruct (abs_R _ F2) as (F3 & V3). destruct limMin_R as (FL & VL). destruct (abs_R _ FL) as (FL' & VL'). rewrite VL, (Rabs_pos_eq (bpow radix2 (-126))) in VL' by apply bpow_ge_0.
      assert (K : bpow radix2 (-22) <= Rabs (rnd (valR (absolute x) - valR fPI_2))).
      { rewrite <- rnd_abs. rewrite <- (rnd_bpow (-22)) by lia. apply rnd_le. rewrite Va, VP. change (bpow radix2 (-22)) with (/ 4194304).
        assert (Rabs (Rabs (valR x) - PI / 2) <= Rabs (Rabs (valR x) - 13176795 / 8388608) + Rabs (13176795 / 8388608 - PI / 2)).
        { replace (Rabs (valR x) - PI / 2) with ((Rabs (valR x) - 13176795 / 8388608) + (13176795 / 8388608 - PI / 2)) by ring. apply Rabs_triang. }
        assert (Rabs (13176795 / 8388608 - PI / 2) <= 1 / 10000000) by (apply Rabs_le; lra). lra. }
      rewrite le_f in E; [discriminate E|exact F3|exact FL'|]. rewrite V3, V2, VL'. apply Rlt_le_trans with (2 := K). apply bpow_lt. lia. }
    assert (C : cos (valR x) = cos (Rabs (valR x))). { destruct (Rle_dec 0 (valR x)); [rewrite Rabs_pos_eq by lra; reflexivity|rewrite Rabs_left1, cos_neg by lra; reflexivity]. }
    pose proof (cos_lip (Rabs (valR x)) (PI / 2)) as L. rewrite cos_PI2, <- C in L. assert (L2 := Rle_trans _ _ _ L S). apply Rabs_le_inv in L2. apply Rabs_le. lra.
  - apply Rabs_le_inv in B as B'.
    destruct (plus_R x fPI_2 F FP) as (F2 & V2); [rewrite VP; apply big_ge, Rabs_le; lra|].
    pose proof (rnd_err (valR x + valR fPI_2)) as R. rewrite <- V2, VP in R. change u32 with (/ 16777216) in R. pose proof tiny_ok as T. unfold tiny in T.
    assert (T1 : Rabs (valR x + 13176795 / 8388608) <= Rabs (valR x) + 16 / 10). { eapply Rle_trans; [apply Rabs_triang|]. rewrite (Rabs_pos_eq (13176795 / 8388608)) by lra. lra. }
    set (z := (x + fPI_2)%b32) in *.
    assert (Dz : Rabs (valR z - (valR x + PI / 2)) <= / 16777216 * Rabs (valR x) + 2 / 10000000).
    { replace (valR z - (valR x + PI / 2)) with ((valR z - (valR x + 13176795 / 8388608)) + (13176795 / 8388608 - PI / 2)) by ring. eapply Rle_trans; [apply Rabs_triang|].
      assert (Rabs (13176795 / 8388608 - PI / 2) <= 1 / 10000000) by (apply Rabs_le; lra). lra. }
    assert (Bz : Rabs (valR z) <= Rabs (valR x) + 3).
    { replace (valR z) with ((valR z - (valR x + 13176795 / 8388608)) + (valR x + 13176795 / 8388608)) by ring. eapply Rle_trans; [apply Rabs_triang|]. lra. }
    destruct (fsin_accurate z F2) as (F3 & E3); [lra|]. split; [exact F3|].
    pose proof (sin_lip (valR z) (valR x + PI / 2)) as L. replace (sin (valR x + PI / 2)) with (cos (valR x)) in L by (rewrite cos_sin; f_equal; ring).
    assert (L2 := Rle_trans _ _ _ L Dz). apply Rabs_le_inv in L2. apply Rabs_le_inv in E3. apply Rabs_le. lra.
Qed.
