(** exp2: accuracy in binary32. *)
From Coq Require Import ZArith Reals Lra Lia Bool List.
From Flocq Require Import Core IEEE754.BinarySingleNaN IEEE754.Binary IEEE754.Bits.
From Verif Require Import Base BaseLemmas Arith Ext32 Bits32 PolyBound Ffmath_Model Ffmath2_Model Ffmath_Spec Ffmath_Proofs Ffmath_Proofs2 Ffmath_Proofs3 Float32 Ffmath_Proofs4 Ffmath_Proofs5 Ffmath_Proofs7 Ffmath_Proofs8 Ffmath_Proofs9 Ffmath_Proofs10 FloatApp.
Import ListNotations.
Open Scope R_scope.

(** ** The polynomial *)
Definition exp2_poly (f : R) : R :=
  (((((5275375 / 34359738368 * f + 11509545 / 8589934592) * f + 5163859 / 536870912) * f + 3724765 / 67108864) * f + 8060663 / 33554432) * f + 1453635 / 2097152) * f + 1.

Lemma exp_small d : Rabs d <= / 4 -> Rabs (exp d - 1) <= 2 * Rabs d.
Proof.
  intros H. pose proof (exp_taylor 0 d ltac:(lra)) as T. cbn [sum_f_R0 pow] in T. destruct facts as (E0 & E1 & _). rewrite E0, E1 in T.
  pose proof (Rabs_pos d). pose proof (exp_ineq1_le d). pose proof (Rabs_le_inv _ _ H).
  destruct (Rle_or_lt 0 d) as [L|L].
  - rewrite (Rabs_pos_eq d) in * by lra. pose proof (exp_taylor 1 d) as T1. rewrite (Rabs_pos_eq d) in T1 by lra. specialize (T1 ltac:(lra)). cbn [sum_f_R0 pow] in T1. destruct facts as (_ & _ & E2 & _). rewrite E0, E1, E2 in T1.
    apply Rabs_le_inv in T1. apply Rabs_le. nra.
  - rewrite (Rabs_left d) in * by lra. rewrite Rabs_left1; [lra|]. assert (exp d < exp 0) by (apply exp_increasing; auto). rewrite exp_0 in *. lra.
Qed.
Lemma exp2_poly_ok f : Rabs f <= 51 / 100 -> Rabs (exp2_poly f - exp (f * ln 2)) <= 22 / 1000000000.
Proof.
  intros H. apply Rabs_le_inv in H.
  set (T := sum_f_R0 (fun k => (f * L2) ^ k / INR (fact k)) 8).
  assert (HL : 693 / 1000 <= L2 <= 694 / 1000) by (unfold L2; lra).
  assert (Hy : Rabs (f * L2) <= 354 / 1000) by (apply Rabs_le; nra).
  assert (K1 : Rabs (exp (f * L2) - T) <= / 1000000000).
  { pose proof (exp_taylor 8 (f * L2) ltac:(lra)) as K. fold T in K. eapply Rle_trans; [exact K|]. destruct facts as (_ & _ & _ & _ & _ & _ & _ & _ & _ & E9 & _). rewrite E9.
    assert (Rabs (f * L2) ^ 9 <= (354 / 1000) ^ 9) by (apply pow_incr; split; [apply Rabs_pos|auto]). lra. }
  assert (K2 : Rabs (exp (f * ln 2) - exp (f * L2)) <= 2 / 1000000000).
  { replace (f * ln 2) with (f * L2 + f * (ln 2 - L2)) by ring. rewrite exp_plus. 
    replace (exp (f * L2) * exp (f * (ln 2 - L2)) - exp (f * L2)) with (exp (f * L2) * (exp (f * (ln 2 - L2)) - 1)) by ring. rewrite Rabs_mult.
    assert (D : Rabs (f * (ln 2 - L2)) <= 51 / 100 * / 1000000000). { rewrite Rabs_mult. apply Rmult_le_compat; try apply Rabs_pos; [apply Rabs_le; lra|apply ln2_L2]. }
    pose proof (exp_small (f * (ln 2 - L2)) ltac:(lra)) as S. 
    assert (E : Rabs (exp (f * L2)) <= 15 / 10). { assert (TT : Rabs T <= 1499 / 1000).
      { assert (Rabs T <= sum_f_R0 (fun k => (354 / 1000) ^ k / INR (fact k)) 8).
        { eapply Rle_trans; [apply Rsum_abs|]. apply sum_Rle. intros n _. unfold Rdiv. rewrite Rabs_mult, (Rabs_pos_eq (/ INR (fact n))) by (left; apply Rinv_0_lt_compat, INR_fact_lt_0).
          apply Rmult_le_compat_r; [left; apply Rinv_0_lt_compat, INR_fact_lt_0|]. rewrite <- RPow_abs. apply pow_incr. split; [apply Rabs_pos|auto]. }
        eapply Rle_trans; [exact H0|]. cbn [sum_f_R0]. destruct facts as (E0 & E1 & E2 & E3 & E4 & E5 & E6 & E7 & E8 & _). rewrite E0, E1, E2, E3, E4, E5, E6, E7, E8. lra. }
      replace (exp (f * L2)) with (T + (exp (f * L2) - T)) by ring. eapply Rle_trans; [apply Rabs_triang|]. lra. }
    assert (Rabs (exp (f * L2)) * Rabs (exp (f * (ln 2 - L2)) - 1) <= 15 / 10 * (2 * (51 / 100 * / 1000000000))). { apply Rmult_le_compat; try apply Rabs_pos; auto. lra. } lra. }
  assert (K3 : Rabs (exp2_poly f - T) <= 17 / 1000000000).
  { set (D := 40320000000000000000000000000000000000000000000000000000000000000000000000000).
    assert (P : pe [0; 59052656250000000000000000000000000000000000000000000000000000000000; -1204743702748635000000000000000000000000000000000000000000000000000000; -31655084123008196546579520000000000000000000000000000000000000000000000; 12409915766975783256986508254916720000000000000000000000000000000000000; 263352756491648524793195025287885750771553264000000000000000000000000000; -20227936170920455196957945309928671400438213344508536000000000000000000; -614990229712741952316351061939416898913184152820631810508405288000000000; -53284843008491190503564394848707902033179444907686767261603412772836641]%Z f = D * (exp2_poly f - T)).
    { unfold T. cbn [sum_f_R0 pow pe]. destruct facts as (E0 & E1 & E2 & E3 & E4 & E5 & E6 & E7 & E8 & _). rewrite E0, E1, E2, E3, E4, E5, E6, E7, E8. unfold exp2_poly, L2, D. field. }
    match type of P with pe ?p f = _ => assert (B : Rabs (pe p f) <= IZR (685440000000000000000000000000000000000000000000000000000000000000000)) by (apply (check_ok 8 100 p (-51) 51); [discriminate|vm_compute; reflexivity|lra]) end.
    rewrite P, Rabs_mult, (Rabs_pos_eq D) in B by (unfold D; lra). apply Rmult_le_reg_l with D; [unfold D; lra|]. unfold D in *. lra. }
  replace (exp2_poly f - exp (f * ln 2)) with ((exp2_poly f - T) - (exp (f * L2) - T) - (exp (f * ln 2) - exp (f * L2))) by ring.
  apply Rabs_le_inv in K1. apply Rabs_le_inv in K2. apply Rabs_le_inv in K3. apply Rabs_le. lra.
Qed.

(** ** The float evaluation *)
Definition exp2_horner (fp : float) : float :=
    let x := ofU 958463454 in
    let x := ((x * fp) + ofU 984588073)%b32 in
    let x := ((x * fp) + ofU 1008572070)%b32 in
    let x := ((x * fp) + ofU 1029920628)%b32 in
    let x := ((x * fp) + ofU 1047920110)%b32 in
    let x := ((x * fp) + ofU 1060205080)%b32 in
    ((x * fp) + flit 1 1)%b32.
Ltac cst := split; [reflexivity|vm_compute; lra].
Lemma c6_R : finite (ofU 958463454) /\ valR (ofU 958463454) = 5275375 / 34359738368. Proof. cst. Qed.
Lemma c5_R : finite (ofU 984588073) /\ valR (ofU 984588073) = 11509545 / 8589934592. Proof. cst. Qed.
Lemma c4_R : finite (ofU 1008572070) /\ valR (ofU 1008572070) = 5163859 / 536870912. Proof. cst. Qed.
Lemma c3_R : finite (ofU 1029920628) /\ valR (ofU 1029920628) = 3724765 / 67108864. Proof. cst. Qed.
Lemma c2_R : finite (ofU 1047920110) /\ valR (ofU 1047920110) = 8060663 / 33554432. Proof. cst. Qed.
Lemma c1_R : finite (ofU 1060205080) /\ valR (ofU 1060205080) = 1453635 / 2097152. Proof. cst. Qed.
Lemma exp2_horner_ok fp : finite fp -> Rabs (valR fp) <= 51 / 100 -> app (exp2_horner fp) (exp2_poly (valR fp)) (146 / 1000000000).
Proof.
  intros Ff HF. destruct c6_R as (F6 & V6). destruct c5_R as (F5 & V5). destruct c4_R as (F4 & V4). destruct c3_R as (F3 & V3). destruct c2_R as (F2 & V2). destruct c1_R as (F1 & V1). destruct one_R as (F0 & V0).
  unfold exp2_horner, exp2_poly.
  assert (A6 : app (ofU 958463454) (5275375 / 34359738368) 0) by (apply app_const; auto).
  assert (B6 : Rabs (5275375 / 34359738368) <= 16 / 100000) by (rewrite Rabs_pos_eq; lra).
  destruct (horner _ _ _ _ fp _ (51 / 100) _ _ (1422 / 1000000) (9 / 100000000000) A6 B6 Ff eq_refl HF F5 V5) as (A5 & B5); [num..|].
  destruct (horner _ _ _ _ fp _ (51 / 100) _ _ (10344 / 1000000) (71 / 100000000000) A5 B5 Ff eq_refl HF F4 V4) as (A4 & B4); [num..|].
  destruct (horner _ _ _ _ fp _ (51 / 100) _ _ (60779 / 1000000) (432 / 100000000000) A4 B4 Ff eq_refl HF F3 V3) as (A3 & B3); [num..|].
  destruct (horner _ _ _ _ fp _ (51 / 100) _ _ (271225 / 1000000) (2023 / 100000000000) A3 B3 Ff eq_refl HF F2 V2) as (A2 & B2); [num..|].
  destruct (horner _ _ _ _ fp _ (51 / 100) _ _ (831473 / 1000000) (6815 / 100000000000) A2 B2 Ff eq_refl HF F1 V1) as (A1 & B1); [num..|].
  destruct (horner _ _ _ _ fp _ (51 / 100) _ _ (1424052 / 1000000) (146 / 1000000000) A1 B1 Ff eq_refl HF F0 V0) as (A0 & B0); [num..|].
  exact A0.
Qed.

(** ** Reduction *)
Lemma i32_ok n : (- T31 <= n < T31)%Z -> i32 n = Ok n.
Proof. unfold i32, T31. intros H. replace ((-2147483648 <=? n) && (n <? 2147483648))%Z with true by lia. reflexivity. Qed.
Lemma floor_x x : exists r, floor x = Ok r /\ integral is_floor x r.
Proof. destruct (patterned x) as (s & E & M & -> & _ & HE & HM). apply floor_pat; auto. Qed.
Lemma toI32_int r n : finite r -> valR r = IZR n -> (- T31 <= n < T31)%Z -> toI32 r = Ok n.
Proof.
  intros F V Hn. unfold toI32. destruct r as [s|s|s pl|s m e H]; try discriminate.
  - cbn in V. f_equal. apply eq_IZR. auto.
  - set (a := if (0 <=? e)%Z then _ else _). assert (A : n = if s then (- a)%Z else a).
    { cbn [B2R] in V. unfold F2R in V. cbn [Fnum Fexp] in V. unfold a. destruct (Z.leb_spec 0 e).
      - rewrite pow_Z, <- mult_IZR in V by auto. apply eq_IZR in V. rewrite <- V. destruct s; cbn [cond_Zopp]; [rewrite Zopp_mult_distr_l|]; reflexivity.
      - assert (V' : IZR (cond_Zopp s (Zpos m)) = IZR (n * 2 ^ (- e))). { rewrite mult_IZR, <- V, <- pow_Z, Rmult_assoc, <- bpow_plus by lia. replace (e + - e)%Z with 0%Z by lia. change (bpow radix2 0) with 1. ring. }
        apply eq_IZR in V'. assert (0 < 2 ^ (- e))%Z by (apply Z.pow_pos_nonneg; lia). destruct s; cbn [cond_Zopp] in V'.
        + replace (Zpos m) with ((- n) * 2 ^ (- e))%Z by lia. rewrite Z.div_mul by lia. lia.
        + rewrite V'. rewrite Z.div_mul by lia. auto. }
    rewrite <- A. apply i32_ok. auto.
Qed.
Lemma half127 x : finite x -> valR x < 255 / 2 -> valR x <= 255 / 2 - / 131072.
Proof.
  intros F H. destruct (Rle_or_lt (valR x) (255 / 2 - / 131072)) as [L|L]; auto. exfalso.
  set (y := ofU 1124007936). set (y' := ofU 1124007935).
  assert (Vy : finite y /\ valR y = 255 / 2) by cst. assert (Vy' : finite y' /\ valR y' = 255 / 2 - / 131072) by cst.
  assert (N : forall z, finite z -> is_nan 24 128 z = false) by (intros []; auto; discriminate). destruct Vy as (Fy & Vy). destruct Vy' as (Fy' & Vy').
  assert (K1 : (key x < key y)%Z) by (apply key_lt; auto; rewrite !ext32_finite by auto; lra).
  assert (K2 : (key y' < key x)%Z) by (apply key_lt; auto; rewrite !ext32_finite by auto; lra).
  change (key y) with 1124007936%Z in K1. change (key y') with 1124007935%Z in K2. lia.
Qed.
Lemma pow_pat n : (-126 <= n <= 127)%Z -> ofI ((n + 127) * T23) = pat false (n + 127) 0 /\ finite (pat false (n + 127) 0) /\ valR (pat false (n + 127) 0) = bpow radix2 n.
Proof.
  intros H. unfold ofI, pat. rewrite w32_id by (unfold T23, M32; lia). split; [f_equal; cbn; lia|]. split.
  - rewrite pat_finite by (unfold T23; lia). destruct (Z.eqb_spec (n + 127) 255); auto; lia.
  - rewrite pat_R by (unfold T23; lia). unfold mag. destruct (Z.eqb_spec (n + 127) 0); [lia|]. cbn [sgnR]. change (IZR (T23 + 0)) with (bpow radix2 23). rewrite Rmult_1_l, <- bpow_plus. f_equal. lia.
Qed.
Lemma exp2_core x : finite x -> -126 < valR x < 255 / 2 -> exists n fp, exp2 x = Ok (exp2_horner fp * pat false (n + 127) 0)%b32 /\ (-126 <= n <= 127)%Z /\
  Rabs (valR x - IZR n) <= 50001 / 100000 /\ finite fp /\ valR fp = rnd (valR x - IZR n).
Proof.
  intros F (L & U). pose proof (half127 x F U) as U'. 
  assert (V1 : finite (flit (-126) 1) /\ valR (flit (-126) 1) = -126) by cst. assert (V2 : finite (flit 128 1) /\ valR (flit 128 1) = 128) by cst.
  destruct V1 as (F1 & V1). destruct V2 as (F2 & V2). destruct flit_half as (Fh & Vh).
  unfold exp2. destruct (le_dec x (flit (-126) 1) F F1) as [(E & B)|(E & B)]; [lra|]. rewrite E. 
  destruct (lt_dec (flit 128 1) x F2 F) as [(E2 & B2)|(E2 & B2)]; [lra|]. rewrite E2. cbn [negb].
  assert (BG : 1000 <= big) by apply big1.
  destruct (plus_R x (flit 1 2) F Fh) as (Fs & Vs). { rewrite Vh. apply Rabs_le. lra. } rewrite Vh in Vs.
  set (s := (x + flit 1 2)%b32) in *.
  destruct (floor_x s) as (r & Er & Ir). rewrite Er. cbn [bind]. unfold integral in Ir. rewrite Fs in Ir. destruct Ir as (Fr & _ & n & Hn & Vr). unfold is_floor in Hn.
  assert (S1 : -125.5 <= valR s). { rewrite Vs. assert (Q : finite (ofU 3271229440) /\ valR (ofU 3271229440) = -125.5) by cst. destruct Q as (_ & Q). rewrite <- Q. apply rnd_ge_val. rewrite Q. lra. }
  assert (S2 : valR s <= 128 - / 131072). { rewrite Vs. assert (Q : finite (ofU 1124073471) /\ valR (ofU 1124073471) = 128 - / 131072) by cst. destruct Q as (_ & Q). rewrite <- Q. apply rnd_le_val. rewrite Q. lra. }
  assert (N : (-126 <= n <= 127)%Z). { split; [apply Zlt_succ_le; apply lt_IZR; unfold Z.succ; rewrite plus_IZR; lra|apply Zlt_succ_le; apply lt_IZR; unfold Z.succ; rewrite plus_IZR; lra]. }
  assert (D : Rabs (valR x - IZR n) <= 50001 / 100000). { pose proof (rnd_err (valR x + 1 / 2)) as RE. rewrite <- Vs, u32_val in RE. pose proof tiny_150. assert (Rabs (valR x + 1 / 2) <= 128) by (apply Rabs_le; lra). apply Rabs_le_inv in RE. apply Rabs_le. lra. }
  rewrite (toI32_int r n Fr Vr) by (unfold T31; lia). cbn [bind]. rewrite i32_ok by (unfold T31; lia). cbn [bind].
  rewrite Z.shiftl_mul_pow2 by lia. change (2 ^ 23)%Z with T23. rewrite i32_ok by (unfold T31, T23; lia). cbn [bind].
  destruct (pow_pat n N) as (PE & _). rewrite PE.
  destruct (minus_R x r F Fr) as (Ff & Vf). { rewrite Vr. lra. } rewrite Vr in Vf.
  exists n, (x - r)%b32. split; [unfold exp2_horner; cbv zeta; reflexivity|]. auto.
Qed.

(** ** Accuracy *)
Lemma rpow_split x n : Rpower 2 x = bpow radix2 n * exp ((x - IZR n) * ln 2).
Proof. unfold Rpower. rewrite bpow_exp. change (IZR radix2) with 2. rewrite <- exp_plus. f_equal. ring. Qed.
Lemma ln2_bnd : 6931 / 10000 <= ln 2 <= 6932 / 10000.
Proof. pose proof ln2_L2 as H. apply Rabs_le_inv in H. unfold L2 in H. lra. Qed.
(** the perturbation of the argument *)
Lemma exp2_shift g F : Rabs (F - g) <= 31 / 1000000000 -> Rabs (exp (F * ln 2) - exp (g * ln 2)) <= 43 / 1000000000 * exp (g * ln 2).
Proof.
  intros H. pose proof ln2_bnd. replace (F * ln 2) with (g * ln 2 + (F - g) * ln 2) by ring. rewrite exp_plus.
  replace (exp (g * ln 2) * exp ((F - g) * ln 2) - exp (g * ln 2)) with ((exp ((F - g) * ln 2) - 1) * exp (g * ln 2)) by ring.
  pose proof (exp_pos (g * ln 2)). rewrite Rabs_mult, (Rabs_pos_eq (exp (g * ln 2))) by lra. apply Rmult_le_compat_r; [lra|].
  assert (K : Rabs ((F - g) * ln 2) <= 31 / 1000000000 * (6932 / 10000)). { rewrite Rabs_mult, (Rabs_pos_eq (ln 2)) by lra. apply Rmult_le_compat; try apply Rabs_pos; lra. }
  pose proof (exp_small ((F - g) * ln 2) ltac:(lra)). lra.
Qed.
Lemma exp2_lower g : -51 / 100 <= g -> 701 / 1000 <= exp (g * ln 2).
Proof.
  intros H. pose proof ln2_bnd. apply Rle_trans with (exp (-354 / 1000)).
  - pose proof (exp_taylor 5 (-354 / 1000)) as T. rewrite Rabs_left in T by lra. specialize (T ltac:(lra)). cbn [sum_f_R0 pow] in T. destruct facts as (E0 & E1 & E2 & E3 & E4 & E5 & E6 & _). rewrite E0, E1, E2, E3, E4, E5, E6 in T. apply Rabs_le_inv in T. lra.
  - destruct (Req_dec (-354 / 1000) (g * ln 2)) as [->|N]; [lra|]. left. apply exp_increasing. nra.
Qed.
Lemma exp2_upper g : g <= 51 / 100 -> exp (g * ln 2) <= 1425 / 1000.
Proof.
  intros H. pose proof ln2_bnd. apply Rle_trans with (exp (354 / 1000)).
  - destruct (Req_dec (g * ln 2) (354 / 1000)) as [->|N]; [lra|]. left. apply exp_increasing. nra.
  - pose proof (exp_taylor 5 (354 / 1000)) as T. rewrite Rabs_pos_eq in T by lra. specialize (T ltac:(lra)). cbn [sum_f_R0 pow] in T. destruct facts as (E0 & E1 & E2 & E3 & E4 & E5 & E6 & _). rewrite E0, E1, E2, E3, E4, E5, E6 in T. apply Rabs_le_inv in T. lra.
Qed.
Lemma bpow_lo n : (-126 <= n)%Z -> bpow radix2 (-126) <= bpow radix2 n. Proof. apply bpow_le. Qed.
Lemma b126 : bpow radix2 (-150) = / 16777216 * bpow radix2 (-126).
Proof. change (-150)%Z with (-24 + -126)%Z. rewrite bpow_plus. reflexivity. Qed.
Lemma b128 : bpow radix2 128 = 2 * bpow radix2 127.
Proof. change 128%Z with (1 + 127)%Z. rewrite bpow_plus. reflexivity. Qed.
Lemma fmax_15 : 15 / 10 * bpow radix2 127 <= fmax.
Proof.
  rewrite fmax_val, b128. assert (bpow radix2 104 <= bpow radix2 127 / 4). { change 127%Z with (23 + 104)%Z. rewrite bpow_plus. change (bpow radix2 23) with 8388608. pose proof (bp 104). lra. }
  pose proof (bp 127). lra.
Qed.
Lemma scale_rel h G n k c : (-126 <= n)%Z -> 7 / 10 <= h -> Rabs (h - G) <= k * G -> 701 / 1000 <= G -> k + / 16777216 * (1 + k) + / 11700000 <= c -> 0 <= k ->
  Rabs (rnd (h * bpow radix2 n) - bpow radix2 n * G) <= c * (bpow radix2 n * G).
Proof.
  intros N Hh HH LO C K. pose proof (rnd_err (h * bpow radix2 n)) as RE. rewrite u32_val, b126 in RE. pose proof (bpow_lo n N) as B1.
  pose proof (bp n) as BN. rewrite (Rabs_pos_eq (h * bpow radix2 n)) in RE by (apply Rmult_le_pos; lra).
  set (b := bpow radix2 n) in *. set (a := bpow radix2 (-126)) in *. clearbody a b.
  assert (M : Rabs (h * b - b * G) <= k * (b * G)).
  { replace (h * b - b * G) with ((h - G) * b) by ring. rewrite Rabs_mult, (Rabs_pos_eq b) by lra. replace (k * (b * G)) with (k * G * b) by ring. apply Rmult_le_compat_r; lra. }
  assert (M2 : 701 / 1000 * b <= b * G) by (rewrite Rmult_comm; apply Rmult_le_compat_l; lra).
  assert (M3 : h * b <= (1 + k) * (b * G)). { apply Rabs_le_inv in M. lra. }
  assert (M4 : (k + / 16777216 * (1 + k) + / 11700000) * (b * G) <= c * (b * G)). { apply Rmult_le_compat_r; lra. }
  apply Rabs_le_inv in RE. apply Rabs_le_inv in M. apply Rabs_le. lra.
Qed.
Lemma exp2_accurate x : finite x -> -126 < valR x < 255 / 2 -> exists r, exp2 x = Ok r /\ finite r /\ Rabs (valR r - Rpower 2 (valR x)) <= bpow radix2 (-21) * Rpower 2 (valR x).
Proof.
  intros F H. destruct (exp2_core x F H) as (n & fp & E & N & D & Ff & Vf). exists (exp2_horner fp * pat false (n + 127) 0)%b32. split; [exact E|]. clear E.
  destruct (pow_pat n N) as (_ & Fp & Vp).
  assert (DF : Rabs (valR fp - (valR x - IZR n)) <= 31 / 1000000000). { rewrite Vf. pose proof (rnd_err (valR x - IZR n)) as RE. rewrite u32_val in RE. pose proof tiny_150. lra. }
  rewrite (rpow_split (valR x) n). clear Vf. generalize dependent (valR x - IZR n). intros g D DF.
  assert (HF : Rabs (valR fp) <= 51 / 100). { replace (valR fp) with ((valR fp - g) + g) by ring. eapply Rle_trans; [apply Rabs_triang|]. lra. }
  destruct (exp2_horner_ok fp Ff HF) as (Fh & Vh). pose proof (exp2_poly_ok _ HF) as P. pose proof (exp2_shift g _ DF) as S.
  apply Rabs_le_inv in D. pose proof (exp2_lower g ltac:(lra)) as LO. pose proof (exp2_upper g ltac:(lra)) as UP. generalize dependent (exp (g * ln 2)). intros G S LO UP.
  generalize dependent (exp2_horner fp). intros h Fh Vh. assert (HH : Rabs (valR h - G) <= 283 / 1000000000 * G).
  { apply Rabs_le_inv in Vh. apply Rabs_le_inv in P. apply Rabs_le_inv in S. apply Rabs_le. lra. }
  assert (HV : 7/10 <= valR h <= 15/10). { apply Rabs_le_inv in HH. lra. }
  generalize dependent (pat false (n + 127) 0). intros q Fp Vp. destruct (mult_M h q Fh Fp) as (Fr & Vr).
  { rewrite Vp. rewrite Rabs_pos_eq. 2: { apply Rmult_le_pos; [lra|apply bpow_ge_0]. } eapply Rle_trans; [|apply fmax_15]. apply Rmult_le_compat; try lra; [apply bpow_ge_0|apply bpow_le; lia]. }
  split; [exact Fr|]. rewrite Vr, Vp, e21. apply (scale_rel (valR h) G n (283 / 1000000000)); auto; lra || lia.
Qed.
Lemma exp2_integer x k : finite x -> valR x = IZR k -> (-125 <= k <= 127)%Z -> exists r, exp2 x = Ok r /\ finite r /\ valR r = bpow radix2 k.
Proof.
  intros F V K. assert (H : -125 <= valR x <= 127) by (rewrite V; split; apply IZR_le; lia). destruct (exp2_core x F ltac:(lra)) as (n & fp & E & N & D & Ff & Vf).
  assert (n = k). { rewrite V, <- minus_IZR, <- abs_IZR in D. assert (IZR (Z.abs (k - n)) < 1) by lra. apply lt_IZR in H0. lia. } subst n.
  rewrite V in Vf. replace (IZR k - IZR k) with 0 in Vf by ring. rewrite rnd_0 in Vf.
  eexists; split; [exact E|]. destruct (pow_pat k ltac:(lia)) as (_ & Fp & Vp).
  assert (HH : finite (exp2_horner fp) /\ valR (exp2_horner fp) = 1). { destruct fp as [s|s|s pl|s m e q]; try discriminate. - destruct s; (split; [reflexivity|vm_compute; lra]). - exfalso. cbn [B2R] in Vf. apply eq_0_F2R in Vf. destruct s; discriminate. }
  destruct HH as (Fh & Vh). destruct (mult_M (exp2_horner fp) (pat false (k + 127) 0) Fh Fp) as (Fr & Vr).
  { rewrite Vp, Vh, Rmult_1_l, Rabs_pos_eq by apply bpow_ge_0. apply Rle_trans with (fmax / 2 * 2); [|lra]. apply Rle_trans with (bpow radix2 127); [apply bpow_le; lia|]. pose proof fmax_125. change 127%Z with (1 + 126)%Z. rewrite bpow_plus. change (bpow radix2 1) with 2. lra. }
  split; auto. rewrite Vr, Vp, Vh, Rmult_1_l. apply rnd_bpow. lia.
Qed.
Lemma exp2_low x : is_nan 24 128 x = false -> ext32 x <= -126 -> exp2 x = Ok (flit 0 1).
Proof.
  intros N H. unfold exp2. assert (E : b32_le x (flit (-126) 1) = true). { apply b32_le_ext; auto. replace (ext32 (flit (-126) 1)) with (-126); auto. rewrite ext32_finite by reflexivity. vm_compute. lra. } rewrite E. reflexivity.
Qed.
Lemma exp2_high x : is_nan 24 128 x = false -> 128 < ext32 x -> exp2 x = Ok limInf.
Proof.
  intros N H. unfold exp2. 
  destruct (b32_le x (flit (-126) 1)) eqn:E. { apply b32_le_ext in E; auto. exfalso. replace (ext32 (flit (-126) 1)) with (-126) in E; [lra|]. rewrite ext32_finite by reflexivity. vm_compute. lra. }
  assert (E2 : b32_lt (flit 128 1) x = true). { apply b32_lt_ext; auto. replace (ext32 (flit 128 1)) with 128; auto. rewrite ext32_finite by reflexivity. vm_compute. lra. } rewrite E2. reflexivity.
Qed.
Lemma exp2_nan x : is_nan 24 128 x = true -> exp2 x = Ub.
Proof.
  intros N. destruct x as [|s|s pl q|]; try discriminate. unfold exp2. set (x := B754_nan 24 128 s pl q) in *.
  assert (L1 : b32_le x (flit (-126) 1) = false) by reflexivity. assert (L2 : b32_lt (flit 128 1) x = false) by reflexivity. rewrite L1, L2. cbn [negb].
  destruct (floor_x (x + flit 1 2)%b32) as (r & E & I). rewrite E. cbn [bind]. unfold integral in I. change (is_finite 24 128 (x + flit 1 2)%b32) with false in I. rewrite I.
  pose proof (plus_nan_l x (flit 1 2) eq_refl) as P. destruct (x + flit 1 2)%b32; try discriminate. reflexivity.
Qed.
