(** Accuracy of the reciprocal square root. *)
From Coq Require Import ZArith Reals Lra Lia Psatz Bool.
From Flocq Require Import Core IEEE754.BinarySingleNaN IEEE754.Binary IEEE754.Bits.
From Verif Require Import Base Arith Ext32 Bits32 Ffmath_Model Ffmath_Spec Ffmath_Proofs Ffmath_Proofs2 Ffmath_Proofs3 Float32 Ffmath_Proofs4 Ffmath_Proofs5.
Open Scope R_scope.

Definition SC : Z := 3627654.
Lemma SC_val : frac SC = 3627654 / 8388608. Proof. reflexivity. Qed.

Lemma odd_half E : Z.odd E = true -> E = (2 * (E / 2) + 1)%Z.
Proof. intros O. rewrite Zodd_mod in O. apply Zeq_bool_eq in O. pose proof (Z.div_mod E 2 ltac:(lia)). lia. Qed.
Lemma even_half E : Z.odd E = false -> E = (2 * (E / 2))%Z.
Proof. intros O. rewrite Zodd_even_bool in O. apply negb_false_iff in O. rewrite Zeven_mod in O. apply Zeq_bool_eq in O. pose proof (Z.div_mod E 2 ltac:(lia)). lia. Qed.

Lemma rsqrt_bits E M : (1 <= E < 255)%Z -> (0 <= M < T23)%Z -> let j := (E / 2)%Z in
  ofU (w32 (1597463174 - Z.shiftr (sbit false + E * T23 + M) 1)) =
  if Z.odd E then pat false (189 - j) (T23 / 2 + SC - M / 2)
  else if (M / 2 <=? SC)%Z then pat false (190 - j) (SC - M / 2) else pat false (189 - j) (T23 + SC - M / 2).
Proof.
  intros HE HM j. unfold ofU. assert (M2 : M = (2 * (M / 2) + M mod 2)%Z) by (apply Z.div_mod; lia). pose proof (Z.mod_pos_bound M 2 ltac:(lia)).
  assert (HJ : (0 <= j <= 127)%Z) by (unfold j; split; [apply Z.div_pos; lia|apply Z.div_le_upper_bound; lia]).
  rewrite Z.shiftr_div_pow2 by lia. change (2 ^ 1)%Z with 2%Z. change 1597463174%Z with (190 * T23 + SC)%Z. unfold sbit. change (T23 / 2)%Z with 4194304%Z.
  destruct (Z.odd E) eqn:O.
  - apply odd_half in O. fold j in O. 
    assert (K : ((0 + E * T23 + M) / 2 = j * T23 + 4194304 + M / 2)%Z). { symmetry. apply (Z.div_unique _ _ _ (M mod 2)); unfold T23 in *; lia. }
    rewrite K. f_equal. unfold w32. rewrite Z.mod_small by (unfold M32, T23, SC in *; lia). unfold T23; ring.
  - apply even_half in O. fold j in O. 
    assert (K : ((0 + E * T23 + M) / 2 = j * T23 + M / 2)%Z). { symmetry. apply (Z.div_unique _ _ _ (M mod 2)); unfold T23 in *; lia. }
    rewrite K. unfold w32. rewrite Z.mod_small by (unfold M32, T23, SC in *; lia). destruct (M / 2 <=? SC)%Z; f_equal; ring.
Qed.

(** c = SC / 2^23, h = M/2 with the last bit dropped *)
Lemma cubic k m : 1 <= k <= 2 -> 0 <= m <= 1 -> (1 + m) * (k - m / 2) * (k - m / 2) <= 4 * ((2 * k + 1) / 3) * ((2 * k + 1) / 3) * ((2 * k + 1) / 3) / 4.
Proof.
  intros Hk Hm. set (b := (2 * k + 1) / 3). assert (k = (3 * b - 1) / 2) by (unfold b; field). 
  (* with t = 1 + m: t (3b - t)^2 / 4 <= b^3, difference (t - b)^2 (4b - t) / 4 *)
  set (t := 1 + m). replace (k - m / 2) with ((3 * b - t) / 2) by (unfold t; rewrite H; field).
  assert (0 <= (t - b) * (t - b) * (4 * b - t)). { apply Rmult_le_pos; [apply Rle_0_sqr|]. unfold b, t. lra. }
  nra.
Qed.
Lemma cubic_low k m m1 : 0 <= m <= m1 -> m1 <= 1 -> 1 <= k <= 2 -> forall L, L <= k * k -> L <= (1 + m1) * (k - m1 / 2) * (k - m1 / 2) ->
  L <= (1 + m) * (k - m / 2) * (k - m / 2).
Proof.
  intros Hm H1 Hk L L0 L1. destruct (Req_dec m1 0) as [->|N]; [assert (m = 0) as -> by lra; nra|].
  (* f is concave on the interval: m1 f(m) - (m1 - m) f(0) - m f(m1) = m (m1 - m) m1 (4k - 1 - m - m1) / 4 *)
  set (f := fun t => (1 + t) * (k - t / 2) * (k - t / 2)). fold (f m) (f m1) in *. 
  assert (D : m1 * f m - (m1 - m) * f 0 - m * f m1 = m * (m1 - m) * m1 * (4 * k - 1 - m - m1) / 4) by (unfold f; field).
  assert (P : 0 <= m * (m1 - m) * m1 * (4 * k - 1 - m - m1) / 4).
  { apply Rmult_le_pos; [|lra]. repeat apply Rmult_le_pos; lra. }
  assert (F0 : f 0 = k * k) by (unfold f; field).
  apply Rmult_le_reg_l with m1; [lra|]. assert ((m1 - m) * L <= (m1 - m) * f 0) by (apply Rmult_le_compat_l; lra). assert (m * L <= m * f m1) by (apply Rmult_le_compat_l; lra). lra.
Qed.

Notation LO := (9324 / 10000). Notation HI := (10692 / 10000).

Lemma piece k m h div lo hi : div = 2 \/ div = 4 \/ div = 8 -> 0 <= m <= 1 -> 1 <= k - 1/10000 -> k + 1 / 10000 <= 2 -> m / 2 - / 16777216 <= h <= m / 2 ->
  lo <= (1 + m) * (k - m / 2) * (k - m / 2) <= hi - 1 / 100000 -> 0 < k - m/2 -> 
  lo / div <= (1 + m) * (k - h) * (k - h) / div <= hi / div.
Proof.
  intros D Hm K1 K2 Hh B PK. set (e := m / 2 - h). replace (k - h) with (k - m / 2 + e) by (unfold e; ring). assert (He : 0 <= e <= / 16777216) by (unfold e; lra).
  set (q := k - m / 2) in *. assert (Q : 0 < q <= 2) by (unfold q in *; lra).
  assert (W : 0 <= (1 + m) * (e * (2 * q + e)) <= 2 * (/ 16777216 * 5)).
  { split; [repeat apply Rmult_le_pos; lra|]. apply Rmult_le_compat; try lra; [apply Rmult_le_pos; lra|]. apply Rmult_le_compat; lra. }
  assert (lo <= (1 + m) * (q + e) * (q + e) <= hi).
  { replace ((1 + m) * (q + e) * (q + e)) with ((1 + m) * q * q + (1 + m) * (e * (2 * q + e))) by ring. lra. }
  destruct D as [->|[->| ->]]; lra.
Qed.

Lemma rsqrt_guess E M : (1 <= E < 255)%Z -> (0 <= M < T23)%Z -> exists z j, ofU (w32 (1597463174 - Z.shiftr (sbit false + E * T23 + M) 1)) = z /\ finite z /\
  (0 <= j <= 127)%Z /\ bpow radix2 (62 - j) <= valR z <= bpow radix2 (64 - j) /\ LO <= mag E M * valR z * valR z <= HI.
Proof.
  intros HE HM. rewrite rsqrt_bits by auto. set (j := (E / 2)%Z).
  assert (HJ : (0 <= j <= 127)%Z) by (unfold j; split; [apply Z.div_pos; lia|apply Z.div_le_upper_bound; lia]).
  assert (M2 : M = (2 * (M / 2) + M mod 2)%Z) by (apply Z.div_mod; lia). pose proof (Z.mod_pos_bound M 2 ltac:(lia)) as HM2.
  pose proof (frac_range M HM) as Hm. set (m := frac M) in *. set (h := frac (M / 2)).
  assert (Hh : m / 2 - / 16777216 <= h <= m / 2).
  { unfold m, h, frac, T23. assert (IZR M = 2 * IZR (M / 2) + IZR (M mod 2)) as -> by (rewrite M2 at 1; rewrite plus_IZR, mult_IZR; ring).
    assert (0 <= IZR (M mod 2) <= 1) by (split; apply IZR_le; lia). lra. }
  assert (H0 : 0 <= h). { unfold h, frac, T23. assert (0 <= IZR (M / 2)) by (apply IZR_le; lia). lra. }
  assert (B1 : bpow radix2 (64 - j) = 2 * bpow radix2 (63 - j)). { replace (64 - j)%Z with (1 + (63 - j))%Z by ring. rewrite bpow_plus. reflexivity. }
  assert (B2 : bpow radix2 (63 - j) = 2 * bpow radix2 (62 - j)). { replace (63 - j)%Z with (1 + (62 - j))%Z by ring. rewrite bpow_plus. reflexivity. }
  pose proof (bp (62 - j)) as PB. rewrite (mag_frac E) by lia. fold m. change (T23 / 2)%Z with 4194304%Z. assert (FH : frac 4194304 = 1 / 2) by (unfold frac, T23; field).
  destruct (Z.odd E) eqn:O.
  - apply odd_half in O. fold j in O. exists (pat false (189 - j) (4194304 + SC - M / 2)), j. split; [reflexivity|].
    assert (R : (0 <= 4194304 + SC - M / 2 < T23)%Z) by (unfold T23, SC in *; lia).
    split; [rewrite pat_finite by lia; destruct (Z.eqb_spec (189 - j) 255); auto; lia|]. split; [auto|].
    rewrite pat_R by lia. cbn [sgnR]. rewrite mag_frac by lia. rewrite frac_sub, frac_add, FH, SC_val. fold h. replace (189 - j - 127)%Z with (62 - j)%Z by ring. rewrite Rmult_1_l.
    replace (1 + (1 / 2 + 3627654 / 8388608 - h)) with (3 / 2 + 3627654 / 8388608 - h) by field.
    split; [rewrite B1, B2; split; nra|].
    assert (PQ : bpow radix2 (E - 127) * bpow radix2 (62 - j) * bpow radix2 (62 - j) = / 4). { rewrite <- !bpow_plus. replace (E - 127 + (62 - j) + (62 - j))%Z with (-2)%Z by lia. reflexivity. }
    set (k := 3 / 2 + 3627654 / 8388608) in *. 
    replace ((1 + m) * bpow radix2 (E - 127) * ((k - h) * bpow radix2 (62 - j)) * ((k - h) * bpow radix2 (62 - j))) with ((1 + m) * (k - h) * (k - h) * (bpow radix2 (E - 127) * bpow radix2 (62 - j) * bpow radix2 (62 - j))) by ring.
    rewrite PQ. change (/ 4) with (1 / 4)%R || idtac. 
    destruct (piece k m h 4 (LO * 4) (HI * 4)) as (G1 & G2); auto; try (unfold k; lra).
    + split; [apply (cubic_low k m 1); unfold k; lra|]. apply Rle_trans with (1 := cubic k m ltac:(unfold k; lra) ltac:(lra)). unfold k. lra.
    + lra.
  - apply even_half in O. fold j in O. destruct (Z.leb_spec (M / 2) SC) as [L|L].
    + exists (pat false (190 - j) (SC - M / 2)), j. split; [reflexivity|].
      assert (R : (0 <= SC - M / 2 < T23)%Z) by (unfold T23, SC in *; lia).
      split; [rewrite pat_finite by lia; destruct (Z.eqb_spec (190 - j) 255); auto; lia|]. split; [auto|].
      apply frac_le in L. rewrite SC_val in L. fold h in L.
      rewrite pat_R by lia. cbn [sgnR]. rewrite mag_frac by lia. rewrite frac_sub, SC_val. fold h. replace (190 - j - 127)%Z with (63 - j)%Z by ring. rewrite Rmult_1_l.
      replace (1 + (3627654 / 8388608 - h)) with (1 + 3627654 / 8388608 - h) by field.
      split; [rewrite B1, B2; split; nra|].
      assert (PQ : bpow radix2 (E - 127) * bpow radix2 (63 - j) * bpow radix2 (63 - j) = / 2). { rewrite <- !bpow_plus. replace (E - 127 + (63 - j) + (63 - j))%Z with (-1)%Z by lia. reflexivity. }
      set (k := 1 + 3627654 / 8388608) in *. 
      replace ((1 + m) * bpow radix2 (E - 127) * ((k - h) * bpow radix2 (63 - j)) * ((k - h) * bpow radix2 (63 - j))) with ((1 + m) * (k - h) * (k - h) * (bpow radix2 (E - 127) * bpow radix2 (63 - j) * bpow radix2 (63 - j))) by ring.
      rewrite PQ. 
      destruct (piece k m h 2 (LO * 2) (HI * 2)) as (G1 & G2); auto; try (unfold k; lra).
      * split; [apply (cubic_low k m (86491 / 100000)); unfold k; lra|]. apply Rle_trans with (1 := cubic k m ltac:(unfold k; lra) ltac:(lra)). unfold k. lra.
      * lra.
    + exists (pat false (189 - j) (T23 + SC - M / 2)), j. split; [reflexivity|].
      assert (R : (0 <= T23 + SC - M / 2 < T23)%Z) by (unfold T23, SC in *; lia).
      split; [rewrite pat_finite by lia; destruct (Z.eqb_spec (189 - j) 255); auto; lia|]. split; [auto|].
      assert (L' : frac SC <= h) by (apply frac_le; lia). rewrite SC_val in L'.
      rewrite pat_R by lia. cbn [sgnR]. rewrite mag_frac by lia. rewrite frac_sub, frac_add, frac_T, SC_val. fold h. replace (189 - j - 127)%Z with (62 - j)%Z by ring. rewrite Rmult_1_l.
      replace (1 + (1 + 3627654 / 8388608 - h)) with (2 + 3627654 / 8388608 - h) by field.
      split; [rewrite B1, B2; split; nra|].
      assert (PQ : bpow radix2 (E - 127) * bpow radix2 (62 - j) * bpow radix2 (62 - j) = / 8). { rewrite <- !bpow_plus. replace (E - 127 + (62 - j) + (62 - j))%Z with (-3)%Z by lia. reflexivity. }
      set (k := 2 + 3627654 / 8388608) in *. 
      replace ((1 + m) * bpow radix2 (E - 127) * ((k - h) * bpow radix2 (62 - j)) * ((k - h) * bpow radix2 (62 - j))) with ((1 + m) * (k - h) * (k - h) * (bpow radix2 (E - 127) * bpow radix2 (62 - j) * bpow radix2 (62 - j))) by ring.
      rewrite PQ. assert (Q : 19324 / 10000 <= k - h <= 2) by (unfold k; lra). assert (1864 / 1000 <= 1 + m <= 2) by lra.
      set (q := k - h) in *. assert (m = 2 * (k - q) - 2 * (k - q - m / 2)) by lra.
      assert (QM : k - m / 2 <= q <= k - m / 2 + / 16777216) by (unfold q; lra). unfold k in QM.
      assert (QQ : 3734 / 1000 <= q * q <= 4) by nra.
      assert (GE : 0 <= (2 - q) * (2 * (q * q) + (4 - 58649 / 10000) * q + (8 - 2 * (58649 / 10000)))) by (apply Rmult_le_pos; lra).
      assert (G1 : (58648 / 10000 - 2 * q) * (q * q) <= (1 + m) * (q * q)) by (apply Rmult_le_compat_r; lra).
      assert (G2 : (1 + m) * (q * q) <= 2 * 4) by (apply Rmult_le_compat; lra).
      replace ((1 + m) * q * q) with ((1 + m) * (q * q)) by ring.
      set (w := (1 + m) * (q * q)) in *.
      assert (G3 : (58649 / 10000 - 2 * q) * (q * q) - 18649 / 10000 * 4 = (2 - q) * (2 * (q * q) + (4 - 58649 / 10000) * q + (8 - 2 * (58649 / 10000)))) by field.
      assert (G4 : (58648 / 10000 - 2 * q) * (q * q) = (58649 / 10000 - 2 * q) * (q * q) - 1 / 10000 * (q * q)) by field.
      lra.
Qed.

Lemma flit_3h : finite (flit 3 2) /\ valR (flit 3 2) = 3 / 2.
Proof. split; [reflexivity|]. vm_compute. lra. Qed.

Lemma rsqrt_real t e0 e1 e2 e3 e4 : 0 < t -> LO <= t * t <= HI -> - (3 * u32) <= e0 <= 3 * u32 ->
  - u32 <= e1 <= u32 -> - u32 <= e2 <= u32 -> - u32 <= e3 <= u32 -> - u32 <= e4 <= u32 ->
  let p := t * t / 2 * (1 + e0) * (1 + e1) * (1 + e2) in
  4 / 10 <= p <= 6 / 10 /\ 8 / 10 <= (3 / 2 - p) * (1 + e3) <= 12 / 10 /\
  - (18 / 10000) <= t * ((3 / 2 - p) * (1 + e3)) * (1 + e4) - 1 <= 18 / 10000.
Proof.
  rewrite u32_val. intros Pt Hg H0 H1 H2 H3 H4 p.
  assert (Ht : 9656 / 10000 <= t <= 10341 / 10000) by (split; nra).
  set (g := t * t) in *. 
  set (a := (1 + e0) * (1 + e1)). assert (A : - (41 / 10 / 16777216) <= a - 1 <= 41 / 10 / 16777216) by (unfold a; split; nra).
  set (b := a * (1 + e2)). assert (B : - (52 / 10 / 16777216) <= b - 1 <= 52 / 10 / 16777216) by (unfold b; clearbody a; split; nra).
  assert (P : p = g / 2 * b) by (unfold p, b, a; ring). 
  assert (D : - (3 / 16777216) <= p - g / 2 <= 3 / 16777216) by (rewrite P; clear P; clearbody b; split; nra).
  clear P. clearbody p. clear a b A B. set (f := (3 / 2 - p) * (1 + e3)). 
  assert (Fb : - (2 / 16777216) <= f - (3 / 2 - p) <= 2 / 16777216) by (unfold f; split; nra).
  split; [lra|]. split; [lra|]. clearbody f.
  assert (C : - (6 / 16777216) <= t * f - t * (3 - g) / 2 <= 6 / 16777216) by (split; nra).
  assert (E : 1 - t * (3 - g) / 2 = (1 - t) * (1 - t) * (2 + t) / 2) by (unfold g; field).
  assert (S1 : 0 <= (1 - t) * (1 - t) <= 344 / 10000 * (344 / 10000)) by (split; [apply Rle_0_sqr|nra]).
  assert (S2 : 0 <= (1 - t) * (1 - t) * (2 + t) / 2 <= 344 / 10000 * (344 / 10000) * 3035 / 1000 / 2).
  { split; [apply Rmult_le_pos; [apply Rmult_le_pos; lra|lra]|]. set (k := (1 - t) * (1 - t)) in *. clearbody k. nra. }
  set (h := t * f) in *. clearbody h. split; nra.
Qed.

Lemma rsqrt_accurate x : is_normal x -> 0 < valR x ->
  finite (rSqrt x) /\ Rabs (valR (rSqrt x) - / R_sqrt.sqrt (valR x)) <= 18 / 10000 * / R_sqrt.sqrt (valR x).
Proof.
  intros N P. destruct (normal_pat x N) as (s & E & M & -> & HE & HM). rewrite pat_R in P by lia.
  assert (s = false) as ->. { destruct s; auto. cbn [sgnR] in P. pose proof (mag_nonneg E M ltac:(lia)). lra. }
  unfold rSqrt. 
  assert (b32_lt (pat false E M) (flit 0 1) = false) as ->.
  { destruct (b32_lt (pat false E M) (flit 0 1)) eqn:L; auto. exfalso. pose proof (b32_lt_nan _ _ L) as (Nn & _). apply gt_0 in L; auto. rewrite ext_pat in L by lia. cbn [sgnR] in *. lra. }
  assert (isZero (pat false E M) = false) as ->.
  { destruct (isZero (pat false E M)) eqn:Z0; auto. apply isZero_ok in Z0. destruct Z0 as (_ & Z0). rewrite pat_R in Z0 by lia. lra. }
  cbv zeta. rewrite asU_pat by lia. destruct (rsqrt_guess E M HE HM) as (z & j & -> & Fz & Hj & Bw & Bg).
  destruct (mag_bounds E M ltac:(lia) HM) as (LV & UV).
  set (x := pat false E M). assert (VX : valR x = mag E M) by (unfold x; rewrite pat_R by lia; cbn [sgnR]; ring).
  assert (FX : finite x) by (unfold x; rewrite pat_finite by lia; destruct (Z.eqb_spec E 255); auto; lia).
  assert (PV : 0 < mag E M) by (cbn [sgnR] in P; lra). clear P. rewrite VX. clearbody x. set (v := mag E M) in *. set (w := valR z) in *.
  assert (LO126 : bpow radix2 (-126) <= v) by (apply Rle_trans with (2 := LV); apply bpow_le; lia).
  assert (HIv : v <= 2 * big).
  { apply Rle_trans with (bpow radix2 (E - 126)); [lra|].
    replace (2 * big) with (bpow radix2 128) by (change 128%Z with (127 + 1)%Z; rewrite bpow_plus; change (bpow radix2 1) with 2; ring). apply bpow_le. lia. }
  set (S := R_sqrt.sqrt v). assert (PS : 0 < S) by (apply sqrt_lt_R0; auto). assert (SS : S * S = v) by (apply sqrt_sqrt; lra).
  pose proof (bp (62 - j)) as PB. pose proof u32_val as U.
  assert (B4 : bpow radix2 (64 - j) = 4 * bpow radix2 (62 - j)). { replace (64 - j)%Z with (2 + (62 - j))%Z by ring. rewrite bpow_plus. reflexivity. }
  rewrite B4 in Bw. clear B4.
  set (t := w * S). assert (Pt : 0 < t) by (apply Rmult_lt_0_compat; lra). assert (TT : t * t = v * w * w) by (unfold t; rewrite <- SS; ring).
  assert (Bt : LO <= t * t <= HI) by (rewrite TT; auto).
  assert (BIG : 1000 <= big) by (apply Rle_trans with (bpow radix2 10); [change (bpow radix2 10) with 1024; lra|apply bpow_le; lia]).
  assert (SM : bpow radix2 (-126) <= 1 / 10) by (apply Rle_trans with (bpow radix2 (-10)); [apply bpow_le; lia|change (bpow radix2 (-10)) with (/ 1024); lra]).
  destruct flit_half as (Fh & Vh). destruct flit_3h as (F3 & V3).
  (* z = 0.5 x *)
  destruct (mult_R (flit 1 2) x Fh FX) as (G0 & W0); [rewrite Vh, VX, Rabs_pos_eq; lra|]. rewrite Vh, VX in W0.
  assert (HE0 : exists e0, - (3 * u32) <= e0 <= 3 * u32 /\ rnd (1 / 2 * v) = v / 2 * (1 + e0)).
  { exists ((rnd (1 / 2 * v) - 1 / 2 * v) / (1 / 2 * v)). split; [|field; lra].
    pose proof (rnd_err (1 / 2 * v)) as ER. rewrite (Rabs_pos_eq (1 / 2 * v)) in ER by lra.
    assert (T : bpow radix2 (-150) <= 2 * u32 * (1 / 2 * v)).
    { replace (bpow radix2 (-150)) with (u32 * bpow radix2 (-126)) by (rewrite <- bpow_plus; reflexivity). rewrite U. lra. }
    assert (Rabs (rnd (1 / 2 * v) - 1 / 2 * v) <= 3 * u32 * (1 / 2 * v)) by lra. apply Rabs_le_inv in H.
    split; (apply Rmult_le_reg_r with (1 / 2 * v); [lra|]; unfold Rdiv at 2; rewrite ?Rmult_assoc; unfold Rdiv; rewrite ?Rmult_assoc).
    - replace ((rnd (1 * (/ 2 * v)) - 1 * (/ 2 * v)) * (/ (1 * (/ 2 * v)) * (1 * (/ 2 * v)))) with (rnd (1 / 2 * v) - 1 / 2 * v); [lra|].
      unfold Rdiv. rewrite ?Rmult_assoc. rewrite Rinv_l by lra. ring.
    - replace ((rnd (1 * (/ 2 * v)) - 1 * (/ 2 * v)) * (/ (1 * (/ 2 * v)) * (1 * (/ 2 * v)))) with (rnd (1 / 2 * v) - 1 / 2 * v); [lra|].
      unfold Rdiv. rewrite ?Rmult_assoc. rewrite Rinv_l by lra. ring. }
  destruct HE0 as (e0 & H0 & Q0). rewrite Q0 in W0. set (y := b32_mult mode_NE (flit 1 2) x) in *.
  (* z * w, about sqrt v / 2 *)
  set (a := v / 2 * (1 + e0)) in *.
  assert (IB : exists k, k = bpow radix2 (j - 62) /\ 0 < k /\ k * bpow radix2 (62 - j) = 1).
  { eexists; split; [reflexivity|]. split; [apply bp|]. rewrite <- bpow_plus. replace (j - 62 + (62 - j))%Z with 0%Z by ring. reflexivity. }
  destruct IB as (k & Hk & Pk & KI). set (q := bpow radix2 (62 - j)) in *.
  assert (VW : k * (23 / 100) <= v * w <= k * (11 / 10)).
  { assert (L : LO * k <= v * w * w * k) by (rewrite (Rmult_comm LO); apply Rle_trans with (k * LO); [lra|rewrite (Rmult_comm _ k); apply Rmult_le_compat_l; lra]).
    assert (M1 : v * w * w * k <= HI * k) by (apply Rmult_le_compat_r; lra).
    assert (WK : 1 <= w * k <= 4). { split; [rewrite <- KI; rewrite (Rmult_comm k); apply Rmult_le_compat_r; lra|]. apply Rle_trans with (4 * q * k); [apply Rmult_le_compat_r; lra|]. rewrite Rmult_assoc, (Rmult_comm q), KI. lra. }
    replace (v * w * w * k) with (v * w * (w * k)) in L, M1 by ring. assert (0 < v * w) by (apply Rmult_lt_0_compat; lra). set (vw := v * w) in *. set (wk := w * k) in *. clearbody vw wk. split; nra. }
  assert (LK : bpow radix2 (-126) * 1000 <= k).
  { apply Rle_trans with (bpow radix2 (-126) * bpow radix2 10); [change (bpow radix2 10) with 1024; pose proof (bp (-126)); lra|]. rewrite <- bpow_plus, Hk. apply bpow_le. lia. }
  assert (UK : k * 1000 <= big).
  { apply Rle_trans with (k * bpow radix2 10); [change (bpow radix2 10) with 1024; lra|]. rewrite Hk, <- bpow_plus. apply bpow_le. lia. }
  assert (AW : a * w = v * w / 2 * (1 + e0)) by (unfold a; field). assert (AWB : k * (11 / 100) <= a * w <= k * (6 / 10)) by (rewrite AW; split; nra).
  destruct (mult_R y z G0 Fz) as (G1 & W1); [rewrite W0; fold w; rewrite Rabs_pos_eq; lra|]. rewrite W0 in W1. fold w in W1.
  destruct (rnd_rel (a * w)) as (e1 & H1 & Q1); [rewrite Rabs_pos_eq; lra|]. apply abs_bound in H1. rewrite Q1 in W1.
  assert (Z0 : - u32 <= 0 <= u32) by lra.
  assert (PP : forall e2, a * w * (1 + e1) * w * (1 + e2) = t * t / 2 * (1 + e0) * (1 + e1) * (1 + e2)) by (intros e2; rewrite TT; unfold a; field).
  destruct (rsqrt_real t e0 e1 0 0 0 Pt Bt H0 H1 Z0 Z0 Z0) as (K1 & _). rewrite <- PP, Rplus_0_r, Rmult_1_r in K1.
  destruct (mult_R (b32_mult mode_NE y z) z G1 Fz) as (G2 & W2); [rewrite W1; fold w; rewrite Rabs_pos_eq; lra|]. rewrite W1 in W2. fold w in W2.
  destruct (rnd_rel (a * w * (1 + e1) * w)) as (e2 & H2 & Q2); [rewrite Rabs_pos_eq; lra|]. apply abs_bound in H2. rewrite Q2, PP in W2.
  destruct (rsqrt_real t e0 e1 e2 0 0 Pt Bt H0 H1 H2 Z0 Z0) as (K2 & K3 & _). rewrite Rplus_0_r, Rmult_1_r in K3.
  set (p := t * t / 2 * (1 + e0) * (1 + e1) * (1 + e2)) in *.
  destruct (minus_R (flit 3 2) (b32_mult mode_NE (b32_mult mode_NE y z) z) F3 G2) as (G3 & W3); [rewrite V3, W2, Rabs_pos_eq; lra|]. rewrite V3, W2 in W3.
  destruct (rnd_rel (3 / 2 - p)) as (e3 & H3 & Q3); [rewrite Rabs_pos_eq; lra|]. apply abs_bound in H3. rewrite Q3 in W3.
  destruct (rsqrt_real t e0 e1 e2 e3 0 Pt Bt H0 H1 H2 H3 Z0) as (_ & K4 & _). fold p in K4.
  set (f := (3 / 2 - p) * (1 + e3)) in *.
  assert (LQ : bpow radix2 (-126) * 1000 <= q).
  { apply Rle_trans with (bpow radix2 (-126) * bpow radix2 10); [change (bpow radix2 10) with 1024; pose proof (bp (-126)); lra|]. unfold q. rewrite <- bpow_plus. apply bpow_le. lia. }
  assert (UQ : q * 1000 <= big).
  { apply Rle_trans with (q * bpow radix2 10); [change (bpow radix2 10) with 1024; lra|]. unfold q. rewrite <- bpow_plus. apply bpow_le. lia. }
  assert (WF : q * (8 / 10) <= w * f <= q * 5) by (clear - Bw K4 PB; split; nra).
  destruct (mult_R z (b32_minus mode_NE (flit 3 2) (b32_mult mode_NE (b32_mult mode_NE y z) z)) Fz G3) as (G4 & W4); [rewrite W3; fold w; rewrite Rabs_pos_eq; lra|]. rewrite W3 in W4. fold w in W4.
  destruct (rnd_rel (w * f)) as (e4 & H4 & Q4); [rewrite Rabs_pos_eq; lra|]. apply abs_bound in H4.
  split; [exact G4|]. rewrite W4, Q4.
  destruct (rsqrt_real t e0 e1 e2 e3 e4 Pt Bt H0 H1 H2 H3 H4) as (_ & _ & K5). fold p in K5. fold f in K5.
  replace (w * f * (1 + e4) - / S) with (/ S * (t * f * (1 + e4) - 1)) by (unfold t; field; lra).
  assert (0 < / S) by (apply Rinv_0_lt_compat; auto).
  rewrite Rabs_mult, (Rabs_pos_eq (/ S)) by lra. rewrite Rmult_comm. apply Rmult_le_compat_r; [lra|]. apply Rabs_le. exact K5.
Qed.
