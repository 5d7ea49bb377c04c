(** Accuracy of the reciprocal and of the reciprocal square root. *)
From Coq Require Import ZArith Reals Lra Lia Psatz Bool.
From Flocq Require Import Core IEEE754.BinarySingleNaN IEEE754.Binary IEEE754.Bits.
From Verif Require Import Base Arith Ext32 Bits32 Ffmath_Model Ffmath_Spec Ffmath_Proofs Ffmath_Proofs2 Ffmath_Proofs3 Float32 Ffmath_Proofs4.
Open Scope R_scope.

Lemma flit_2 : finite (flit 2 1) /\ valR (flit 2 1) = 2.
Proof. split; [reflexivity|]. vm_compute. lra. Qed.
Lemma flit_32 : finite (flit 3 2) /\ valR (flit 3 2) = 3 / 2.
Proof. split; [reflexivity|]. vm_compute. lra. Qed.

Definition frac (M : Z) : R := IZR M / IZR T23.
Lemma frac_range M : (0 <= M < T23)%Z -> 0 <= frac M < 1.
Proof.
  intros HM. unfold frac. split; [apply Rmult_le_pos; [apply IZR_le; lia|left; apply Rinv_0_lt_compat; unfold T23; lra]|].
  apply Rmult_lt_reg_r with (IZR T23); [unfold T23; lra|]. unfold Rdiv. rewrite Rmult_assoc, Rinv_l by (unfold T23; lra). rewrite Rmult_1_r, Rmult_1_l. apply IZR_lt. lia.
Qed.
Lemma frac_le M N : (M <= N)%Z -> frac M <= frac N.
Proof. intros H. unfold frac, T23. apply IZR_le in H. lra. Qed.
Lemma mag_frac E M : (0 < E)%Z -> mag E M = (1 + frac M) * bpow radix2 (E - 127).
Proof.
  intros He. unfold mag. destruct (Z.eqb_spec E 0); [lia|]. replace (E - 127)%Z with (23 + (E - 150))%Z by ring. rewrite bpow_plus. change (bpow radix2 23) with (IZR T23).
  rewrite plus_IZR. unfold frac, T23. field.
Qed.
Lemma frac_sub M N : frac (M - N) = frac M - frac N.
Proof. unfold frac. rewrite minus_IZR. unfold T23. field. Qed.
Lemma frac_add M N : frac (M + N) = frac M + frac N.
Proof. unfold frac. rewrite plus_IZR. unfold T23. field. Qed.
Lemma frac_T : frac T23 = 1. Proof. unfold frac, T23. field. Qed.

(** ** The reciprocal *)
Definition RC : Z := 7541191.
Lemma recip_bits s E M : (1 <= E <= 251)%Z -> (0 <= M < T23)%Z ->
  ofU (w32 (2129859015 - (sbit s + E * T23 + M))) = if (M <=? RC)%Z then pat s (253 - E) (RC - M) else pat s (252 - E) (T23 + RC - M).
Proof.
  intros HE HM. unfold ofU. 
  assert (W : w32 (2129859015 - (sbit s + E * T23 + M)) = (sbit s + (2129859015 - E * T23 - M))%Z).
  { unfold w32, sbit, T31, M32, T23 in *. destruct s; [symmetry; apply (Z.mod_unique _ _ (-1)); lia|rewrite Z.mod_small; lia]. }
  rewrite W. change 2129859015%Z with (253 * T23 + RC)%Z. destruct (M <=? RC)%Z; f_equal; ring.
Qed.
Lemma RC_val : frac RC = 7541191 / 8388608. Proof. reflexivity. Qed.

Lemma recip_guess s E M : (1 <= E <= 250)%Z -> (0 <= M < T23)%Z -> exists z w, ofU (w32 (2129859015 - (sbit s + E * T23 + M))) = z /\ finite z /\
  valR z = sgnR s * w /\ 9494 / 10000 <= mag E M * w <= 10506 / 10000 /\ bpow radix2 (125 - E) <= w <= bpow radix2 (127 - E).
Proof.
  intros HE HM. rewrite recip_bits by lia. pose proof (frac_range M HM) as Hm.
  assert (B1 : bpow radix2 (127 - E) = 2 * bpow radix2 (126 - E)). { replace (127 - E)%Z with (1 + (126 - E))%Z by ring. rewrite bpow_plus. reflexivity. }
  assert (B2 : bpow radix2 (126 - E) = 2 * bpow radix2 (125 - E)). { replace (126 - E)%Z with (1 + (125 - E))%Z by ring. rewrite bpow_plus. reflexivity. }
  pose proof (bp (125 - E)) as PB. rewrite (mag_frac E) by lia. set (m := frac M) in *.
  destruct (Z.leb_spec M RC) as [L|L].
  - eexists. exists (mag (253 - E) (RC - M)). split; [reflexivity|]. assert (0 <= RC - M < T23)%Z by (unfold RC, T23 in *; lia).
    split; [rewrite pat_finite by lia; destruct (Z.eqb_spec (253 - E) 255); auto; lia|]. split; [apply pat_R; lia|].
    rewrite mag_frac by lia. rewrite frac_sub, RC_val. fold m. replace (253 - E - 127)%Z with (126 - E)%Z by ring.
    apply frac_le in L. rewrite RC_val in L. fold m in L.
    assert (PQ : bpow radix2 (E - 127) * bpow radix2 (126 - E) = / 2). { rewrite <- bpow_plus. replace (E - 127 + (126 - E))%Z with (-1)%Z by ring. reflexivity. }
    split.
    + replace ((1 + m) * bpow radix2 (E - 127) * ((1 + (7541191 / 8388608 - m)) * bpow radix2 (126 - E))) with ((1 + m) * (1 + (7541191 / 8388608 - m)) * (bpow radix2 (E - 127) * bpow radix2 (126 - E))) by ring.
      rewrite PQ. assert (0 <= m * (7541191 / 8388608 - m)) by (apply Rmult_le_pos; lra). pose proof (Rle_0_sqr (m - 7541191 / 16777216)) as SQ. unfold Rsqr in SQ. lra.
    + rewrite B1, B2. split; nra.
  - eexists. exists (mag (252 - E) (T23 + RC - M)). split; [reflexivity|]. assert (0 <= T23 + RC - M < T23)%Z by (unfold RC, T23 in *; lia).
    split; [rewrite pat_finite by lia; destruct (Z.eqb_spec (252 - E) 255); auto; lia|]. split; [apply pat_R; lia|].
    rewrite mag_frac by lia. rewrite frac_sub, frac_add, frac_T, RC_val. fold m. replace (252 - E - 127)%Z with (125 - E)%Z by ring.
    assert (L' : frac RC <= m) by (apply frac_le; lia). rewrite RC_val in L'.
    assert (PQ : bpow radix2 (E - 127) * bpow radix2 (125 - E) = / 4). { rewrite <- bpow_plus. replace (E - 127 + (125 - E))%Z with (-2)%Z by ring. reflexivity. }
    split.
    + replace ((1 + m) * bpow radix2 (E - 127) * ((1 + (1 + 7541191 / 8388608 - m)) * bpow radix2 (125 - E))) with ((1 + m) * (1 + (1 + 7541191 / 8388608 - m)) * (bpow radix2 (E - 127) * bpow radix2 (125 - E))) by ring.
      rewrite PQ. assert (0 <= (m - 7541191 / 8388608) * (1 - m)) by (apply Rmult_le_pos; lra). pose proof (Rle_0_sqr (m - 95 / 100)) as SQ. unfold Rsqr in SQ. lra.
    + rewrite B1, B2. split; nra.
Qed.

Lemma recip_real g e1 e2 e3 : 9494 / 10000 <= g <= 10506 / 10000 -> - u32 <= e1 <= u32 -> - u32 <= e2 <= u32 -> - u32 <= e3 <= u32 ->
  9 / 10 <= g * (1 + e1) <= 11 / 10 /\ 8 / 10 <= (2 - g * (1 + e1)) * (1 + e2) <= 12 / 10 /\
  - (26 / 10000) <= g * ((2 - g * (1 + e1)) * (1 + e2)) * (1 + e3) - 1 <= 26 / 10000.
Proof.
  rewrite u32_val. intros Hg H1 H2 H3. set (k := g * (1 + e1)).
  assert (K : - (2 / 16777216) <= k - g <= 2 / 16777216) by (unfold k; split; nra).
  set (f := (2 - k) * (1 + e2)). assert (Fb : - (2 / 16777216) <= f - (2 - k) <= 2 / 16777216) by (unfold f; split; nra).
  split; [lra|]. split; [lra|]. clearbody f k.
  assert (A : - (5 / 16777216) <= g * f - g * (2 - g) <= 5 / 16777216) by (split; nra).
  assert (B : 0 <= 1 - g * (2 - g) <= 2562 / 1000000).
  { pose proof (Rle_0_sqr (1 - g)) as SQ. unfold Rsqr in SQ. assert (0 <= (506 / 10000 - (1 - g)) * (506 / 10000 + (1 - g))) by (apply Rmult_le_pos; lra). lra. }
  set (h := g * f) in *. clearbody h. split; nra.
Qed.

Lemma recip_accurate x : is_normal x -> Rabs (valR x) < bpow radix2 124 ->
  finite (recip x) /\ Rabs (valR (recip x) - / valR x) <= 26 / 10000 * Rabs (/ valR x).
Proof.
  intros N B. destruct (normal_pat x N) as (s & E & M & -> & HE & HM). rewrite abs_pat in B by lia.
  assert (HE2 : (E <= 250)%Z).
  { pose proof (proj1 (mag_bounds E M ltac:(lia) HM)) as L. assert (E - 127 < 124)%Z; [|lia]. apply (lt_bpow radix2). lra. }
  unfold recip. cbv zeta. rewrite asU_pat by lia. destruct (recip_guess s E M ltac:(lia) HM) as (z & w & -> & Fz & Vz & Bg & Bw).
  set (x := pat s E M). assert (VX : valR x = sgnR s * mag E M) by (apply pat_R; lia).
  assert (FX : finite x) by (unfold x; rewrite pat_finite by lia; destruct (Z.eqb_spec E 255); auto; lia). clearbody x.
  destruct (mag_bounds E M ltac:(lia) HM) as (LV & UV). set (v := mag E M) in *.
  pose proof (bp (E - 127)) as P1. pose proof (bp (125 - E)) as P2. destruct flit_2 as (F2 & V2). pose proof u32_val as U.
  assert (BIG : 1000 <= big) by (apply Rle_trans with (bpow radix2 10); [change (bpow radix2 10) with 1024; lra|apply bpow_le; lia]).
  assert (SM : bpow radix2 (-126) <= 1 / 10) by (apply Rle_trans with (bpow radix2 (-10)); [apply bpow_le; lia|change (bpow radix2 (-10)) with (/ 1024); lra]).
  assert (XZ : valR x * valR z = v * w) by (rewrite VX, Vz; destruct s; cbn [sgnR]; ring).
  destruct (mult_R x z FX Fz) as (G1 & W1); [rewrite XZ, Rabs_pos_eq; lra|]. rewrite XZ in W1.
  destruct (rnd_rel (v * w)) as (e1 & H1 & Q1); [rewrite Rabs_pos_eq; lra|]. apply abs_bound in H1. rewrite Q1 in W1.
  assert (Z0 : - u32 <= 0 <= u32) by lra.
  destruct (recip_real (v * w) e1 0 0 Bg H1 Z0 Z0) as (K1 & K2 & _). rewrite Rplus_0_r, Rmult_1_r in K2.
  destruct (minus_R (flit 2 1) _ F2 G1) as (G2 & W2); [rewrite V2, W1, Rabs_pos_eq; lra|]. rewrite V2, W1 in W2.
  destruct (rnd_rel (2 - v * w * (1 + e1))) as (e2 & H2 & Q2); [rewrite Rabs_pos_eq; lra|]. apply abs_bound in H2. rewrite Q2 in W2.
  destruct (recip_real (v * w) e1 e2 0 Bg H1 H2 Z0) as (_ & K3 & _).
  set (f := (2 - v * w * (1 + e1)) * (1 + e2)) in *.
  assert (BT : bpow radix2 (-126) * 2 <= bpow radix2 (125 - E)).
  { replace (bpow radix2 (-126) * 2) with (bpow radix2 (-125)); [apply bpow_le; lia|]. change (-125)%Z with (-126 + 1)%Z. rewrite bpow_plus. reflexivity. }
  assert (BU : bpow radix2 (127 - E) * 2 <= big).
  { replace (bpow radix2 (127 - E) * 2) with (bpow radix2 (128 - E)); [apply bpow_le; lia|]. replace (128 - E)%Z with (127 - E + 1)%Z by ring. rewrite bpow_plus. reflexivity. }
  assert (AB : Rabs (valR z * f) = w * f). { rewrite Vz, Rmult_assoc. apply sgn_abs. apply Rmult_le_pos; lra. }
  assert (WF : bpow radix2 (-126) <= w * f <= big) by (split; nra).
  destruct (mult_R z (b32_minus mode_NE (flit 2 1) (b32_mult mode_NE x z)) Fz G2) as (G3 & W3); [rewrite W2, AB; lra|]. rewrite W2 in W3.
  destruct (rnd_rel (valR z * f)) as (e3 & H3 & Q3); [rewrite AB; lra|]. apply abs_bound in H3.
  split; [exact G3|]. rewrite W3, Q3, VX, Vz.
  destruct (recip_real (v * w) e1 e2 e3 Bg H1 H2 H3) as (_ & _ & K4). fold f in K4. assert (PV : 0 < v) by lra.
  assert (SG : / (sgnR s * v) = sgnR s * / v) by (destruct s; cbn [sgnR]; field; lra). rewrite SG.
  replace (sgnR s * w * f * (1 + e3) - sgnR s * / v) with (sgnR s * / v * (v * w * f * (1 + e3) - 1)) by (field; lra).
  rewrite Rabs_mult. rewrite Rmult_comm. apply Rmult_le_compat_r; [apply Rabs_pos|]. apply Rabs_le. exact K4.
Qed.
