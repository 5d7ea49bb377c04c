(** Constants, signs, and the statements of C67 and C68. *)
From Coq Require Import ZArith Reals Lra Lia Bool.
From Flocq Require Import Core IEEE754.BinarySingleNaN IEEE754.Binary IEEE754.Bits.
From Verif Require Import Base Arith Ext32 Bits32 Ffmath_Model Ffmath_Spec Ffmath_Proofs Ffmath_Proofs2.
Open Scope Z_scope.

Lemma flit_0 : flit 0 1 = B754_zero 24 128 false.
Proof. apply B2FF_inj. vm_compute. reflexivity. Qed.
Lemma flit_1 : finite (flit 1 1) /\ valR (flit 1 1) = 1%R.
Proof. split; [reflexivity|]. vm_compute. lra. Qed.
Lemma flit_m1 : finite (flit (-1) 1) /\ valR (flit (-1) 1) = (-1)%R.
Proof. split; [reflexivity|]. vm_compute. lra. Qed.
Lemma limNan_nan : is_nan 24 128 limNan = true.
Proof. reflexivity. Qed.
Lemma limInf_inf : limInf = B754_infinity 24 128 false.
Proof. apply B2FF_inj. vm_compute. reflexivity. Qed.

Lemma lt_0 x : is_nan 24 128 x = false -> b32_lt (flit 0 1) x = true <-> (0 < ext32 x)%R.
Proof. intros H. rewrite flit_0, b32_lt_ext by auto. reflexivity. Qed.
Lemma gt_0 x : is_nan 24 128 x = false -> b32_lt x (flit 0 1) = true <-> (ext32 x < 0)%R.
Proof. intros H. rewrite flit_0, b32_lt_ext by auto. reflexivity. Qed.
Lemma isZero_ok x : isZero x = true <-> is_zero x.
Proof.
  destruct (classify_ok x) as (H & _). rewrite <- H. unfold isZero. destruct (classify x); split; intros; auto; discriminate.
Qed.
Lemma sign_ok x : 
  (is_nan 24 128 x = true -> is_nan 24 128 (sign x) = true) /\
  (is_nan 24 128 x = false -> finite (sign x) /\
     ((0 < ext32 x)%R -> valR (sign x) = 1%R) /\ ((ext32 x < 0)%R -> valR (sign x) = (-1)%R) /\ (ext32 x = 0%R -> valR (sign x) = 0%R)).
Proof.
  destruct (is_nan 24 128 x) eqn:N; (split; intros H; [try discriminate|try discriminate]).
  - unfold sign. 
    assert (b32_lt (flit 0 1) x = false) as ->. { destruct (b32_lt (flit 0 1) x) eqn:K; auto. apply b32_lt_nan in K. destruct K; congruence. }
    assert (b32_lt x (flit 0 1) = false) as ->. { destruct (b32_lt x (flit 0 1)) eqn:K; auto. apply b32_lt_nan in K. destruct K; congruence. }
    destruct (isZero x) eqn:Z; [|reflexivity]. apply isZero_ok in Z. destruct Z as (Z & _). destruct x; discriminate.
  - unfold sign. pose proof (lt_0 x N) as [A1 A2]. pose proof (gt_0 x N) as [B1 B2]. pose proof flit_1 as (F1 & V1). pose proof flit_m1 as (F2 & V2).
    destruct (b32_lt (flit 0 1) x). { split; auto. specialize (A1 eq_refl). repeat split; intros; auto; lra. }
    destruct (b32_lt x (flit 0 1)). { split; auto. specialize (B1 eq_refl). repeat split; intros; auto; lra. }
    assert (Z0 : ext32 x = 0%R). { destruct (Rtotal_order (ext32 x) 0) as [L|[L|L]]; auto; [discriminate (B2 L)|discriminate (A2 L)]. }
    assert (isZero x = true) as ->.
    { apply isZero_ok. destruct (is_finite 24 128 x) eqn:Fx.
      - split; auto. rewrite <- ext32_finite; auto.
      - exfalso. destruct x as [s|s|s p Hp|s m e He]; try discriminate. cbn [ext32] in Z0. pose proof (bpow_pos 128). destruct s; lra. }
    rewrite flit_0. split; [reflexivity|]. repeat split; intros; auto; lra.
Qed.

Lemma not_finite_R x : is_finite 24 128 x = false -> valR x = 0%R.
Proof. destruct x; auto; discriminate. Qed.
Lemma nan_ext x : is_nan 24 128 x = true -> ext32 x = 0%R.
Proof. destruct x; auto; discriminate. Qed.
Lemma copysign_ok mag sgn : let r := copysign mag sgn in
  Bsign 24 128 r = Bsign 24 128 sgn /\ is_nan 24 128 r = is_nan 24 128 mag /\ is_finite 24 128 r = is_finite 24 128 mag /\
  Rabs (valR r) = Rabs (valR mag) /\ bits_of_b32 r mod 2 ^ 31 = bits_of_b32 mag mod 2 ^ 31.
Proof.
  cbv zeta. destruct (patterned mag) as (s & E & M & -> & _ & HE & HM). destruct (patterned sgn) as (s' & E' & M' & -> & _ & HE' & HM').
  rewrite copysign_pat by auto. rewrite !pat_sign, !pat_nan, !pat_finite, !of_bits_inv by (try apply pat_range; auto). change (2 ^ 31) with T31. rewrite !mod_pat by auto.
  repeat split; auto. destruct (Z.eq_dec E 255) as [->|N]; [|rewrite !abs_pat by lia; auto].
  assert (NF : forall t, valR (pat t 255 M) = 0%R).
  { intros t. apply not_finite_R. rewrite pat_finite by auto. reflexivity. }
  rewrite !NF. auto.
Qed.
Lemma absf_ok x : Bsign 24 128 (absf x) = false /\ is_nan 24 128 (absf x) = is_nan 24 128 x /\ is_finite 24 128 (absf x) = is_finite 24 128 x /\
  valR (absf x) = Rabs (valR x) /\ ext32 (absf x) = Rabs (ext32 x).
Proof.
  unfold absf. destruct (patterned x) as (s & E & M & -> & _ & HE & HM). rewrite abs_pat_eq by auto.
  rewrite !pat_sign, !pat_nan, !pat_finite by auto. repeat split; auto.
  - destruct (Z.eq_dec E 255) as [->|N]; [|rewrite abs_pat, pat_R by lia; cbn [sgnR]; ring].
    assert (NF : forall t, valR (pat t 255 M) = 0%R).
    { intros t. apply not_finite_R. rewrite pat_finite by auto. reflexivity. }
    rewrite !NF. rewrite Rabs_R0. auto.
  - destruct (Z.eq_dec E 255) as [->|N].
    + destruct (Z.eq_dec M 0) as [->|NM]; [rewrite !pat_inf; cbn [ext32]; pose proof (bpow_pos 128); destruct s; [rewrite Rabs_Ropp|]; rewrite Rabs_pos_eq; lra|].
      assert (NF : forall t, ext32 (pat t 255 M) = 0%R).
      { intros t. apply nan_ext. rewrite pat_nan by auto. destruct (Z.eqb_spec M 0); [lia|]. reflexivity. }
      rewrite !NF. rewrite Rabs_R0. auto.
    + rewrite !ext_pat by lia. rewrite sgn_abs by (apply mag_nonneg; lia). cbn [sgnR]. ring.
Qed.

Lemma next_ok x y : is_nan 24 128 x = false -> is_nan 24 128 y = false -> let r := nextAfter x y in
  is_nan 24 128 r = false /\
  (ext32 x = ext32 y -> r = y)%R /\
  ((ext32 x < ext32 y)%R -> (ext32 x < ext32 r <= ext32 y)%R /\ forall z, is_nan 24 128 z = false -> (ext32 x < ext32 z -> ext32 r <= ext32 z)%R) /\
  ((ext32 y < ext32 x)%R -> (ext32 y <= ext32 r < ext32 x)%R /\ forall z, is_nan 24 128 z = false -> (ext32 z < ext32 x -> ext32 z <= ext32 r)%R).
Proof.
  intros Nx Ny r. destruct (next_key x y Nx Ny) as (Nr & K0 & K1 & K2). fold r in Nr, K0, K1, K2.
  assert (LE : forall a b, is_nan 24 128 a = false -> is_nan 24 128 b = false -> key a <= key b -> (ext32 a <= ext32 b)%R).
  { intros a b Na Nb H. destruct (Rle_or_lt (ext32 a) (ext32 b)); auto. apply key_lt in H0; auto. lia. }
  split; [auto|]. split; [|split].
  - intros H. apply K0. apply key_eq; auto.
  - intros H. apply key_lt in H; auto. specialize (K1 H). split; [split; [apply key_lt; auto; lia|apply LE; auto; lia]|].
    intros z Nz Hz. apply key_lt in Hz; auto. apply LE; auto. lia.
  - intros H. apply key_lt in H; auto. specialize (K2 H). split; [split; [apply LE; auto; lia|apply key_lt; auto; lia]|].
    intros z Nz Hz. apply key_lt in Hz; auto. apply LE; auto. lia.
Qed.
Lemma next_nan x y : is_nan 24 128 x = true \/ is_nan 24 128 y = true -> is_nan 24 128 (nextAfter x y) = true.
Proof. intros H. unfold nextAfter. cbv zeta. rewrite !isNan_ok. destruct H as [->| ->]; [reflexivity|]. rewrite orb_true_r. reflexivity. Qed.

(** ** Exponents *)
Lemma normal_pat x : is_normal x -> exists s E M, x = pat s E M /\ 1 <= E < 255 /\ 0 <= M < T23.
Proof.
  intros (Fx & Nx). destruct (patterned x) as (s & E & M & -> & _ & HE & HM). exists s, E, M. split; [auto|]. split; [|auto].
  rewrite pat_finite in Fx by auto. destruct (Z.eqb_spec E 255); [discriminate|]. destruct (Z.eq_dec E 0) as [->|]; [|lia].
  rewrite abs_pat in Nx by lia. pose proof (mag_small M HM). lra.
Qed.
Lemma mag_bounds E M : 0 < E -> 0 <= M < T23 -> (bpow radix2 (E - 127) <= mag E M < bpow radix2 (E - 126))%R.
Proof.
  intros HE HM. unfold mag. destruct (Z.eqb_spec E 0); [lia|]. pose proof (bpow_pos (E - 150)).
  replace (E - 127) with (23 + (E - 150)) by ring. replace (E - 126) with (24 + (E - 150)) by ring. rewrite !bpow_plus.
  change (bpow radix2 23) with (IZR T23). change (bpow radix2 24) with (IZR (T23 + T23)). split.
  - apply Rmult_le_compat_r; [lra|]. apply IZR_le. lia.
  - apply Rmult_lt_compat_r; [lra|]. apply IZR_lt. lia.
Qed.
Lemma rexp_ok x : is_normal x -> let (r, e) := rexp x in
  finite r /\ Bsign 24 128 r = Bsign 24 128 x /\ (1 / 2 <= Rabs (valR r) < 1)%R /\ (valR x = valR r * bpow radix2 e)%R /\ ldexp r e = Ok x.
Proof.
  intros H. destruct (normal_pat x H) as (s & E & M & -> & HE & HM). rewrite rexp_pat by lia.
  rewrite pat_finite, !pat_sign, abs_pat, !pat_R by lia. pose proof (mag_bounds 126 M ltac:(lia) HM) as B.
  repeat split; auto.
  - change (bpow radix2 (126 - 127)) with (/ IZR 2)%R in B. lra.
  - change (bpow radix2 (126 - 126)) with 1%R in B. lra.
  - rewrite Rmult_assoc, <- mag_scale by lia. do 2 f_equal. lia.
  - rewrite ldexp_pat by (unfold T31; lia). replace (126 + (E - 126)) with E by ring. rewrite Z.mod_small by lia. auto.
Qed.
Lemma ldexp_ok x k : is_normal x -> (bpow radix2 (-126) <= Rabs (valR x) * bpow radix2 k < bpow radix2 128)%R ->
  exists r, ldexp x k = Ok r /\ is_normal r /\ (valR r = valR x * bpow radix2 k)%R.
Proof.
  intros H B. destruct (normal_pat x H) as (s & E & M & -> & HE & HM). rewrite abs_pat in B by lia.
  destruct (mag_bounds E M ltac:(lia) HM) as (B1 & B2). pose proof (bpow_pos k).
  assert (K1 : -126 < E - 126 + k). { apply (lt_bpow radix2). rewrite bpow_plus. apply Rle_lt_trans with (1 := proj1 B). apply Rmult_lt_compat_r; auto. }
  assert (K2 : E - 127 + k < 128). { apply (lt_bpow radix2). rewrite bpow_plus. apply Rle_lt_trans with (2 := proj2 B). apply Rmult_le_compat_r; lra. }
  rewrite ldexp_pat by (unfold T31; lia). rewrite Z.mod_small by lia. eexists. split; [reflexivity|].
  assert (V : valR (pat s (E + k) M) = (valR (pat s E M) * bpow radix2 k)%R) by (rewrite !pat_R by lia; rewrite mag_scale by lia; ring).
  split; auto. unfold is_normal. rewrite pat_finite by lia. destruct (Z.eqb_spec (E + k) 255); [lia|]. split; auto.
  rewrite V, Rabs_mult, (Rabs_pos_eq (bpow radix2 k)), abs_pat by (lra || lia). apply (proj1 B).
Qed.
Lemma ldexp_wraps x k j : - 2 ^ 31 <= k -> - 2 ^ 31 <= k + 256 * j -> k < 2 ^ 31 - 255 -> k + 256 * j < 2 ^ 31 - 255 -> ldexp x (k + 256 * j) = ldexp x k.
Proof.
  change (2 ^ 31) with T31. intros. destruct (patterned x) as (s & E & M & -> & _ & HE & HM). rewrite !ldexp_pat by lia.
  replace (E + (k + 256 * j)) with (E + k + j * 256) by ring. rewrite Z_mod_plus_full. auto.
Qed.
