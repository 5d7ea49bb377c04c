(** Accuracy of the square root. *)
From Coq Require Import ZArith Reals Lra Lia Psatz Bool.
From Flocq Require Import Core IEEE754.BinarySingleNaN IEEE754.Binary IEEE754.Bits.
From Verif Require Import Base Arith Ext32 Bits32 Ffmath_Model Ffmath_Spec Ffmath_Proofs Ffmath_Proofs2 Ffmath_Proofs3 Float32.
Open Scope R_scope.

Lemma u32_val : u32 = / 16777216. Proof. reflexivity. Qed.
Lemma flit_half : finite (flit 1 2) /\ valR (flit 1 2) = 1 / 2.
Proof. split; [reflexivity|]. vm_compute. lra. Qed.

Lemma abs_bound e : Rabs e <= u32 -> - u32 <= e <= u32.
Proof. intros H. apply Rabs_def2b in H || (apply Rabs_le_inv in H). lra. Qed.

(** ** One Newton step in exact and in rounded arithmetic *)
Lemma avg_perturbed q a e1 e2 e3 : 0 <= q <= 101 / 100 -> 0 <= (q + a) / 2 <= 101 / 100 ->
  - u32 <= e1 <= u32 -> - u32 <= e2 <= u32 -> - u32 <= e3 <= u32 ->
  - (3 * u32) <= (q * (1 + e1) + a) / 2 * (1 + e2) * (1 + e3) - (q + a) / 2 <= 3 * u32.
Proof.
  rewrite u32_val. intros Hq Ha H1 H2 H3. set (h := (q + a) / 2) in *.
  replace ((q * (1 + e1) + a) / 2) with (h + q * e1 / 2) by (unfold h; field).
  set (d := q * e1 / 2). assert (D : - (51 / 100 / 16777216) <= d <= 51 / 100 / 16777216) by (unfold d; split; nra).
  replace ((h + d) * (1 + e2) * (1 + e3)) with (h + d + (h + d) * (e2 + e3 + e2 * e3)) by ring.
  set (p := e2 + e3 + e2 * e3). assert (P : - (2001 / 1000 / 16777216) <= p <= 2001 / 1000 / 16777216) by (unfold p; split; nra).
  split; nra.
Qed.

Lemma heron a k : 0 < a -> (a - 1) * (a - 1) <= 2 * k * a -> 1 <= (/ a + a) / 2 <= 1 + k.
Proof.
  intros Ha H. assert (E : (/ a + a) / 2 = 1 + (a - 1) * (a - 1) / (2 * a)) by (field; lra). rewrite E.
  assert (0 <= (a - 1) * (a - 1) / (2 * a)). { apply Rmult_le_pos; [apply Rle_0_sqr|]. left. apply Rinv_0_lt_compat. lra. }
  assert ((a - 1) * (a - 1) / (2 * a) <= k); [|lra].
  apply Rmult_le_reg_r with (2 * a); [lra|]. unfold Rdiv. rewrite Rmult_assoc, Rinv_l by lra. lra.
Qed.

(** Two steps from a guess 6.1 % too large, or a hair too small *)
Lemma two_steps a e1 e2 e3 f1 f2 f3 : 1 - 1 / 8388608 <= a <= 106067 / 100000 ->
  - u32 <= e1 <= u32 -> - u32 <= e2 <= u32 -> - u32 <= e3 <= u32 -> - u32 <= f1 <= u32 -> - u32 <= f2 <= u32 -> - u32 <= f3 <= u32 ->
  let b := (/ a * (1 + e1) + a) / 2 * (1 + e2) * (1 + e3) in
  let c := (/ b * (1 + f1) + b) / 2 * (1 + f2) * (1 + f3) in
  99 / 100 <= b <= 101 / 100 /\ - / 524288 <= c - 1 <= / 524288.
Proof.
  intros Ha H1 H2 H3 K1 K2 K3 b c. assert (U := u32_val).
  assert (IA : 9 / 10 <= / a <= 101 / 100).
  { split; (apply Rmult_le_reg_r with a; [lra|rewrite Rinv_l by lra; nra]). }
  destruct (heron a (175 / 100000)) as (A1 & A2); [lra|nra|].
  assert (B : - (3 * u32) <= b - (/ a + a) / 2 <= 3 * u32) by (apply avg_perturbed; lra).
  assert (B' : 1 - 3 / 16777216 <= b <= 1001751 / 1000000) by lra. 
  assert (IB : 9 / 10 <= / b <= 101 / 100).
  { split; (apply Rmult_le_reg_r with b; [lra|rewrite Rinv_l by lra; nra]). }
  split; [lra|].
  destruct (heron b (1535 / 1000000000)) as (C1 & C2); [lra| |].
  { assert (L : (b - 1) * (b - 1) <= 1751 / 1000000 * (1751 / 1000000)) by (clearbody b; nra). lra. }
  assert (C : - (3 * u32) <= c - (/ b + b) / 2 <= 3 * u32) by (apply avg_perturbed; lra).
  lra.
Qed.

(** ** The rounded step *)
Definition step (x z : binary32) : binary32 := (flit 1 2 * ((x / z) + z))%b32.
Lemma bp e : 0 < bpow radix2 e. Proof. apply bpow_gt_0. Qed.

Lemma step_R x z lo : finite x -> finite z -> 0 < valR x -> 0 < valR z ->
  (-100 <= lo <= 100)%Z -> bpow radix2 lo <= valR z <= bpow radix2 (lo + 4) -> bpow radix2 lo <= valR x / valR z <= bpow radix2 (lo + 4) ->
  finite (step x z) /\ exists e1 e2 e3, (- u32 <= e1 <= u32) /\ (- u32 <= e2 <= u32) /\ (- u32 <= e3 <= u32) /\
    valR (step x z) = (valR x / valR z * (1 + e1) + valR z) / 2 * (1 + e2) * (1 + e3).
Proof.
  intros Fx Fz Px Pz HL Bz Bq. unfold step. destruct flit_half as (Fh & Vh).
  assert (H4 : bpow radix2 (lo + 4) = 16 * bpow radix2 lo) by (rewrite bpow_plus; change (bpow radix2 4) with 16; ring).
  assert (L1 : bpow radix2 (lo + 10) <= big) by (apply bpow_le; lia).
  assert (H10 : bpow radix2 (lo + 10) = 1024 * bpow radix2 lo) by (rewrite bpow_plus; change (bpow radix2 10) with 1024; ring).
  assert (L2 : bpow radix2 (-126) <= bpow radix2 (lo - 10)) by (apply bpow_le; lia).
  assert (H11 : bpow radix2 lo = 1024 * bpow radix2 (lo - 10)). { replace lo with (10 + (lo - 10))%Z at 1 by lia. rewrite bpow_plus. reflexivity. }
  pose proof (bp lo) as PL. pose proof (bp (lo - 10)) as PL'. pose proof u32_val as U.
  destruct (div_R x z Fx Fz ltac:(lra)) as (F1 & V1); [rewrite Rabs_pos_eq; lra|].
  destruct (rnd_rel (valR x / valR z)) as (e1 & He1 & W1); [rewrite Rabs_pos_eq; lra|]. apply abs_bound in He1. rewrite W1 in V1.
  set (q := valR x / valR z) in *.
  assert (Q : bpow radix2 lo * (99 / 100) <= valR (b32_div mode_NE x z) <= bpow radix2 lo * 17).
  { rewrite V1. split; nra. }
  destruct (plus_R (b32_div mode_NE x z) z F1 Fz) as (F2 & V2); [rewrite Rabs_pos_eq; lra|].
  destruct (rnd_rel (valR (b32_div mode_NE x z) + valR z)) as (e2 & He2 & W2); [rewrite Rabs_pos_eq; lra|]. apply abs_bound in He2. rewrite W2 in V2.
  set (t := valR (b32_div mode_NE x z) + valR z) in *.
  assert (T : bpow radix2 lo <= t <= bpow radix2 lo * 40) by (unfold t; lra).
  set (sm := b32_plus mode_NE (b32_div mode_NE x z) z) in *.
  assert (S2 : bpow radix2 lo * (99 / 100) <= valR sm <= bpow radix2 lo * 41) by (rewrite V2; split; nra).
  destruct (mult_R (flit 1 2) sm Fh F2) as (F3 & V3); [rewrite Vh, Rabs_pos_eq; lra|].
  destruct (rnd_rel (valR (flit 1 2) * valR sm)) as (e3 & He3 & W3); [rewrite Vh, Rabs_pos_eq; lra|]. apply abs_bound in He3.
  split; [exact F3|]. exists e1, e2, e3. split; [auto|]. split; [auto|]. split; [auto|].
  rewrite V3, W3, Vh, V2. unfold t. rewrite V1. field.
Qed.

(** ** The initial guess *)
Lemma guess_bits E M : (1 <= E < 255)%Z -> (0 <= M < T23)%Z -> 
  ofU (w32 (Z.shiftr (w32 (sbit false + E * T23 + M - 8388608)) 1 + 536870912)) =
  if Z.odd E then pat false ((E - 1) / 2 + 64) (M / 2) else pat false ((E - 2) / 2 + 64) (T23 / 2 + M / 2).
Proof.
  intros HE HM. unfold ofU. assert (M2 : M = (2 * (M / 2) + M mod 2)%Z) by (apply Z.div_mod; lia). pose proof (Z.mod_pos_bound M 2 ltac:(lia)).
  change 8388608%Z with T23. replace (sbit false + E * T23 + M - T23)%Z with ((E - 1) * T23 + M)%Z by (unfold sbit; ring).
  assert (W : w32 ((E - 1) * T23 + M) = ((E - 1) * T23 + M)%Z) by (unfold w32; apply Z.mod_small; unfold M32, T23 in *; lia). rewrite W.
  rewrite Z.shiftr_div_pow2 by lia. change (2 ^ 1)%Z with 2%Z. change 536870912%Z with (64 * T23)%Z.
  destruct (Z.odd E) eqn:O.
  - assert (E = 2 * ((E - 1) / 2) + 1)%Z. { rewrite Zodd_mod in O. apply Zeq_bool_eq in O. pose proof (Z.div_mod E 2 ltac:(lia)). 
      replace ((E - 1) / 2)%Z with (E / 2)%Z; [lia|]. apply (Z.div_unique _ _ _ 0); lia. }
    set (j := ((E - 1) / 2)%Z) in *. assert (K : (((E - 1) * T23 + M) / 2 = j * T23 + M / 2)%Z). { symmetry. apply (Z.div_unique _ _ _ (M mod 2)); lia. }
    rewrite K. f_equal. unfold w32. rewrite Z.mod_small by (unfold M32, T23 in *; lia). unfold sbit. ring.
  - assert (E = 2 * ((E - 2) / 2) + 2)%Z. { rewrite Zodd_even_bool in O. apply negb_false_iff in O. rewrite Zeven_mod in O. apply Zeq_bool_eq in O. pose proof (Z.div_mod E 2 ltac:(lia)).
      replace ((E - 2) / 2)%Z with (E / 2 - 1)%Z; [lia|]. apply (Z.div_unique _ _ _ 0); lia. }
    set (j := ((E - 2) / 2)%Z) in *. assert (K : (((E - 1) * T23 + M) / 2 = j * T23 + (T23 / 2 + M / 2))%Z). { symmetry. change (T23 / 2)%Z with 4194304%Z. apply (Z.div_unique _ _ _ (M mod 2)); unfold T23; lia. }
    rewrite K. f_equal. unfold w32. change (T23 / 2)%Z with 4194304%Z. rewrite Z.mod_small by (unfold M32, T23 in *; lia). unfold sbit. ring.
Qed.

(** m in [0,1) the fraction of x; d what the shift drops *)
Lemma guess_odd m d : 0 <= m <= 1 -> 0 <= d <= / 16777216 -> 
  (1 - 1 / 8388608) * (1 + m) <= (1 + m / 2 - d) * (1 + m / 2 - d) <= 9 / 8 * (1 + m).
Proof. intros. split; nra. Qed.
Lemma guess_even m d : 0 <= m <= 1 -> 0 <= d <= / 16777216 -> 
  (1 - 1 / 8388608) * (2 * (1 + m)) <= (3 / 2 + m / 2 - d) * (3 / 2 + m / 2 - d) <= 9 / 8 * (2 * (1 + m)).
Proof. intros. split; nra. Qed.

Lemma guess_val E M : (1 <= E < 255)%Z -> (0 <= M < T23)%Z -> exists z j, 
  ofU (w32 (Z.shiftr (w32 (sbit false + E * T23 + M - 8388608)) 1 + 536870912)) = z /\ finite z /\ 0 < valR z /\
  (0 <= j <= 126)%Z /\ bpow radix2 (j - 63) <= valR z <= bpow radix2 (j - 62) /\ bpow radix2 (2 * (j - 63)) <= mag E M <= 4 * bpow radix2 (2 * (j - 63)) /\
  (1 - 1 / 8388608) * mag E M <= valR z * valR z <= 9 / 8 * mag E M.
Proof.
  intros HE HM. rewrite guess_bits by auto.
  assert (M2 : M = (2 * (M / 2) + M mod 2)%Z) by (apply Z.div_mod; lia). pose proof (Z.mod_pos_bound M 2 ltac:(lia)) as HM2.
  set (m := IZR M / IZR T23). assert (Hm : 0 <= m <= 1).
  { unfold m. split; [apply Rmult_le_pos; [apply IZR_le; lia|left; apply Rinv_0_lt_compat; unfold T23; lra]|].
    apply Rmult_le_reg_r with (IZR T23); [unfold T23; lra|]. unfold Rdiv. rewrite Rmult_assoc, Rinv_l by (unfold T23; lra). rewrite Rmult_1_r, Rmult_1_l. apply IZR_le. lia. }
  set (d := IZR (M mod 2) / 2 / IZR T23). assert (Hd : 0 <= d <= / 16777216).
  { unfold d, T23. assert (0 <= IZR (M mod 2) <= 1) by (split; apply IZR_le; lia). lra. }
  assert (VM : IZR (M / 2) = IZR T23 * (m / 2 - d)).
  { unfold m, d. assert (IZR M = 2 * IZR (M / 2) + IZR (M mod 2)) by (rewrite M2 at 1; rewrite plus_IZR, mult_IZR; ring). rewrite H. unfold T23. field. }
  assert (VME : forall e, (0 < e)%Z -> mag e M = (1 + m) * bpow radix2 (e - 127)).
  { intros e He. unfold mag. destruct (Z.eqb_spec e 0); [lia|]. replace (e - 127)%Z with (23 + (e - 150))%Z by ring. rewrite bpow_plus. change (bpow radix2 23) with (IZR T23).
    rewrite plus_IZR. unfold m. unfold T23. field. }
  destruct (Z.odd E) eqn:O.
  - assert (HJ : E = (2 * ((E - 1) / 2) + 1)%Z). { rewrite Zodd_mod in O. apply Zeq_bool_eq in O. pose proof (Z.div_mod E 2 ltac:(lia)). 
      replace ((E - 1) / 2)%Z with (E / 2)%Z; [lia|]. apply (Z.div_unique _ _ _ 0); lia. }
    set (j := ((E - 1) / 2)%Z) in *. exists (pat false (j + 64) (M / 2)), j. split; [reflexivity|].
    assert (R2 : (0 <= M / 2 < T23)%Z) by lia.
    assert (VZ : valR (pat false (j + 64) (M / 2)) = (1 + m / 2 - d) * bpow radix2 (j - 63)).
    { rewrite pat_R by (unfold T23 in *; lia). cbn [sgnR]. unfold mag. destruct (Z.eqb_spec (j + 64) 0); [lia|].
      replace (j - 63)%Z with (23 + (j + 64 - 150))%Z by ring. rewrite bpow_plus. change (bpow radix2 23) with (IZR T23). rewrite plus_IZR, VM. ring. }
    rewrite VZ. rewrite (VME E) by lia. replace (E - 127)%Z with (2 * (j - 63))%Z by lia.
    assert (SQ : bpow radix2 (2 * (j - 63)) = bpow radix2 (j - 63) * bpow radix2 (j - 63)) by (rewrite <- bpow_plus; f_equal; lia).
    assert (H62 : bpow radix2 (j - 62) = 2 * bpow radix2 (j - 63)). { replace (j - 62)%Z with (1 + (j - 63))%Z by ring. rewrite bpow_plus. reflexivity. }
    rewrite H62, SQ. pose proof (bp (j - 63)) as PB. set (sg := bpow radix2 (j - 63)) in *. assert (0 < sg * sg) by nra.
    split; [rewrite pat_finite by (unfold T23 in *; lia); destruct (Z.eqb_spec (j + 64) 255); auto; lia|].
    assert (LB : 1 <= 1 + m / 2 - d). { assert (0 <= m / 2 - d); [|lra]. apply Rmult_le_reg_l with (IZR T23); [unfold T23; lra|]. rewrite <- VM, Rmult_0_r. apply IZR_le. lia. }
    destruct (guess_odd m d Hm Hd) as (G1 & G2).
    split; [apply Rmult_lt_0_compat; lra|]. split; [lia|]. split; [split; nra|]. split; [split; nra|].
    replace ((1 + m / 2 - d) * sg * ((1 + m / 2 - d) * sg)) with ((1 + m / 2 - d) * (1 + m / 2 - d) * (sg * sg)) by ring.
    split.
    + assert ((1 - 1 / 8388608) * (1 + m) * (sg * sg) <= (1 + m / 2 - d) * (1 + m / 2 - d) * (sg * sg)) by (apply Rmult_le_compat_r; lra). lra.
    + assert ((1 + m / 2 - d) * (1 + m / 2 - d) * (sg * sg) <= 9 / 8 * (1 + m) * (sg * sg)) by (apply Rmult_le_compat_r; lra). lra.
  - assert (HJ : E = (2 * ((E - 2) / 2) + 2)%Z). { rewrite Zodd_even_bool in O. apply negb_false_iff in O. rewrite Zeven_mod in O. apply Zeq_bool_eq in O. pose proof (Z.div_mod E 2 ltac:(lia)).
      replace ((E - 2) / 2)%Z with (E / 2 - 1)%Z; [lia|]. apply (Z.div_unique _ _ _ 0); lia. }
    set (j := ((E - 2) / 2)%Z) in *. exists (pat false (j + 64) (T23 / 2 + M / 2)), j. split; [reflexivity|].
    assert (R2 : (0 <= T23 / 2 + M / 2 < T23)%Z) by (change (T23 / 2)%Z with 4194304%Z; unfold T23 in *; lia).
    assert (VZ : valR (pat false (j + 64) (T23 / 2 + M / 2)) = (3 / 2 + m / 2 - d) * bpow radix2 (j - 63)).
    { rewrite pat_R by lia. cbn [sgnR]. unfold mag. destruct (Z.eqb_spec (j + 64) 0); [lia|].
      replace (j - 63)%Z with (23 + (j + 64 - 150))%Z by ring. rewrite bpow_plus. change (bpow radix2 23) with (IZR T23). rewrite !plus_IZR, VM. change (IZR (T23 / 2)) with (IZR 4194304). unfold T23. field. }
    rewrite VZ. rewrite (VME E) by lia. replace (E - 127)%Z with (1 + 2 * (j - 63))%Z by lia.
    assert (SQ : bpow radix2 (2 * (j - 63)) = bpow radix2 (j - 63) * bpow radix2 (j - 63)) by (rewrite <- bpow_plus; f_equal; lia).
    assert (H62 : bpow radix2 (j - 62) = 2 * bpow radix2 (j - 63)). { replace (j - 62)%Z with (1 + (j - 63))%Z by ring. rewrite bpow_plus. reflexivity. }
    rewrite bpow_plus. change (bpow radix2 1) with 2. rewrite H62, SQ. pose proof (bp (j - 63)) as PB. set (sg := bpow radix2 (j - 63)) in *. assert (0 < sg * sg) by nra.
    split; [rewrite pat_finite by lia; destruct (Z.eqb_spec (j + 64) 255); auto; lia|].
    destruct (guess_even m d Hm Hd) as (G1 & G2).
    split; [apply Rmult_lt_0_compat; lra|]. split; [lia|]. split; [split; nra|]. split; [split; nra|].
    replace ((3 / 2 + m / 2 - d) * sg * ((3 / 2 + m / 2 - d) * sg)) with ((3 / 2 + m / 2 - d) * (3 / 2 + m / 2 - d) * (sg * sg)) by ring.
    split.
    + assert ((1 - 1 / 8388608) * (2 * (1 + m)) * (sg * sg) <= (3 / 2 + m / 2 - d) * (3 / 2 + m / 2 - d) * (sg * sg)) by (apply Rmult_le_compat_r; lra). lra.
    + assert ((3 / 2 + m / 2 - d) * (3 / 2 + m / 2 - d) * (sg * sg) <= 9 / 8 * (2 * (1 + m)) * (sg * sg)) by (apply Rmult_le_compat_r; lra). lra.
Qed.

Lemma sqrt_accurate x : is_normal x -> 0 < valR x ->
  finite (sqrt x) /\ Rabs (valR (sqrt x) - R_sqrt.sqrt (valR x)) <= bpow radix2 (-19) * R_sqrt.sqrt (valR x).
Proof.
  intros N P. destruct (normal_pat x N) as (s & E & M & -> & HE & HM). rewrite pat_R in P by lia.
  assert (s = false) as ->. { destruct s; auto. cbn [sgnR] in P. pose proof (mag_nonneg E M ltac:(lia)). lra. }
  unfold sqrt. 
  assert (b32_lt (pat false E M) (flit 0 1) = false) as ->.
  { destruct (b32_lt (pat false E M) (flit 0 1)) eqn:L; auto. exfalso. pose proof (b32_lt_nan _ _ L) as (Nn & _). apply gt_0 in L; auto. rewrite ext_pat in L by lia. cbn [sgnR] in *. lra. }
  assert (isZero (pat false E M) = false) as ->.
  { destruct (isZero (pat false E M)) eqn:Z0; auto. apply isZero_ok in Z0. destruct Z0 as (_ & Z0). rewrite pat_R in Z0 by lia. lra. }
  cbv zeta. rewrite asU_pat by lia. destruct (guess_val E M HE HM) as (z & j & -> & Fz & Pz & Hj & Bz & Bv & Bq).
  set (x := pat false E M). assert (VX : valR x = mag E M) by (unfold x; rewrite pat_R by lia; cbn [sgnR]; ring).
  assert (FX : finite x) by (unfold x; rewrite pat_finite by lia; destruct (Z.eqb_spec E 255); auto; lia).
  change (finite (step x (step x z)) /\ Rabs (valR (step x (step x z)) - R_sqrt.sqrt (valR x)) <= bpow radix2 (-19) * R_sqrt.sqrt (valR x)).
  rewrite <- VX in Bv, Bq, P. clear VX. clearbody x. set (v := valR x) in *. set (w := valR z) in *.
  assert (SQ : bpow radix2 (2 * (j - 63)) = bpow radix2 (j - 63) * bpow radix2 (j - 63)) by (rewrite <- bpow_plus; f_equal; lia).
  assert (H62 : bpow radix2 (j - 62) = 2 * bpow radix2 (j - 63)). { replace (j - 62)%Z with (1 + (j - 63))%Z by ring. rewrite bpow_plus. reflexivity. }
  assert (H64 : bpow radix2 (j - 63) = 2 * bpow radix2 (j - 64)). { replace (j - 63)%Z with (1 + (j - 64))%Z by ring. rewrite bpow_plus. reflexivity. }
  assert (H60 : bpow radix2 (j - 64 + 4) = 16 * bpow radix2 (j - 64)). { rewrite bpow_plus. change (bpow radix2 4) with 16. ring. }
  pose proof (bp (j - 64)) as PG. set (g := bpow radix2 (j - 64)) in *.
  assert (PV : 0 < v) by (cbn [sgnR] in P; lra).
  set (S := R_sqrt.sqrt v). assert (PS : 0 < S) by (apply sqrt_lt_R0; auto). assert (SS : S * S = v) by (apply sqrt_sqrt; lra).
  rewrite SQ, H64 in Bv. rewrite H62, H64 in Bz.
  assert (BS : 2 * g <= S <= 4 * g) by (split; nra).
  set (a := w / S). assert (AW : w = a * S) by (unfold a; field; lra).
  assert (PA : 0 < a) by (unfold a; apply Rdiv_lt_0_compat; auto).
  assert (A2 : 1 - 1 / 8388608 <= a * a <= 9 / 8).
  { rewrite AW, <- SS in Bq. replace (a * S * (a * S)) with (a * a * (S * S)) in Bq by ring. split; (apply Rmult_le_reg_r with (S * S); [nra|lra]). }
  assert (A1 : 1 - 1 / 8388608 <= a <= 106067 / 100000).
  { split; [|nra]. destruct (Rle_or_lt a 1); [nra|lra]. }
  assert (Q : v / w = / a * S) by (rewrite AW, <- SS; field; lra).
  assert (IA : 9 / 10 <= / a <= 101 / 100).
  { split; (apply Rmult_le_reg_r with a; [lra|rewrite Rinv_l by lra; nra]). }
  assert (QB : bpow radix2 (j - 64) <= v / w <= bpow radix2 (j - 64 + 4)). { rewrite Q, H60. fold g. split; nra. }
  destruct (step_R x z (j - 64) FX Fz PV Pz) as (F1 & e1 & e2 & e3 & E1 & E2 & E3 & V1); [lia| |exact QB|].
  { rewrite H60. fold g. fold w. lra. }
  fold v w in V1. 
  set (b := (/ a * (1 + e1) + a) / 2 * (1 + e2) * (1 + e3)).
  assert (VB : valR (step x z) = b * S). { rewrite V1, Q. unfold b. rewrite AW at 1. field. lra. }
  assert (TS : forall f1 f2 f3, - u32 <= f1 <= u32 -> - u32 <= f2 <= u32 -> - u32 <= f3 <= u32 ->
    99 / 100 <= b <= 101 / 100 /\ - / 524288 <= (/ b * (1 + f1) + b) / 2 * (1 + f2) * (1 + f3) - 1 <= / 524288).
  { intros f1 f2 f3 K1 K2 K3. exact (two_steps a e1 e2 e3 f1 f2 f3 A1 E1 E2 E3 K1 K2 K3). }
  assert (Z0 : - u32 <= 0 <= u32) by (rewrite u32_val; lra). destruct (TS 0 0 0 Z0 Z0 Z0) as (BB & _).
  assert (IB : 9 / 10 <= / b <= 102 / 100).
  { split; (apply Rmult_le_reg_r with b; [lra|rewrite Rinv_l by lra; nra]). }
  assert (Q2 : v / valR (step x z) = / b * S) by (rewrite VB, <- SS; field; lra).
  clearbody b. assert (PZ : 0 < b * S) by (apply Rmult_lt_0_compat; lra).
  destruct (step_R x (step x z) (j - 64) FX F1 PV) as (F2 & f1 & f2 & f3 & K1 & K2 & K3 & V2); [rewrite VB; auto|lia| | |].
  { rewrite VB, H60. fold g. split; nra. }
  { fold v. rewrite Q2, H60. fold g. split; nra. }
  fold v in V2. rewrite Q2, VB in V2. split; [exact F2|]. rewrite V2.
  destruct (TS f1 f2 f3 K1 K2 K3) as (_ & C).
  replace ((/ b * S * (1 + f1) + b * S) / 2 * (1 + f2) * (1 + f3) - S) with (((/ b * (1 + f1) + b) / 2 * (1 + f2) * (1 + f3) - 1) * S) by (field; lra).
  set (c := (/ b * (1 + f1) + b) / 2 * (1 + f2) * (1 + f3) - 1) in *. rewrite Rabs_mult, (Rabs_pos_eq S) by lra.
  apply Rmult_le_compat_r; [lra|]. apply Rabs_le. change (bpow radix2 (-19)) with (/ 524288). lra.
Qed.
