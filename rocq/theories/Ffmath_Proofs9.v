(** Midpoint, linear interpolation, normalisation: binary32 values. *)
From Coq Require Import ZArith Reals Lra Lia Bool.
From Flocq Require Import Core Plus_error IEEE754.BinarySingleNaN IEEE754.Binary IEEE754.Bits.
From Verif Require Import Base Arith Ext32 Bits32 Ffmath_Model Ffmath_Spec Ffmath_Proofs3 Float32 Ffmath_Proofs4 Ffmath_Proofs5 Ffmath_Proofs7 Ffmath_Proofs8.
Open Scope R_scope.

(** ** Operations up to the largest float *)
Notation fmax := (valR limMax).
Lemma fmax_val : fmax = bpow radix2 128 - bpow radix2 104.
Proof.
  assert (fmax = IZR (2 ^ 128 - 2 ^ 104)) as ->.
  { unfold limMax. replace (valR (ofU 2139095039)) with (IZR 16777215 * bpow radix2 104) by reflexivity.
    change (bpow radix2 104) with (IZR (2 ^ 104)). rewrite <- mult_IZR. reflexivity. }
  rewrite minus_IZR. reflexivity.
Qed.
Lemma finite_le x : Rabs (valR x) <= fmax.
Proof. rewrite fmax_val. apply (abs_B2R_le_emax_minus_prec 24 128 eq_refl). Qed.
Lemma finite_bnd x : - fmax <= valR x <= fmax.
Proof. pose proof (finite_le x). apply Rabs_le_inv. auto. Qed.
Lemma fmax_pos : 0 < fmax.
Proof. rewrite fmax_val. pose proof (bpow_lt radix2 104 128 eq_refl). lra. Qed.
Lemma ok_M x : Rabs x <= fmax -> Rlt_bool (Rabs (rnd x)) (bpow radix2 128) = true.
Proof.
  intros H. apply Rlt_bool_true. rewrite <- rnd_abs. apply Rle_lt_trans with fmax; [apply rnd_le_val; auto|].
  rewrite fmax_val. pose proof (bp 104). lra.
Qed.
Lemma mult_M x y : finite x -> finite y -> Rabs (valR x * valR y) <= fmax ->
  finite (b32_mult mode_NE x y) /\ valR (b32_mult mode_NE x y) = rnd (valR x * valR y).
Proof.
  intros Fx Fy B. pose proof (Bmult_correct 24 128 eq_refl eq_refl binop_nan_pl32 mode_NE x y) as H.
  rewrite fexp_FLT in H. change (round_mode mode_NE) with ZnearestE in H.
  rewrite (ok_M _ B) in H. destruct H as (V & F1 & _). rewrite Fx, Fy in F1. split; [exact F1|exact V].
Qed.
Lemma div_M x y : finite x -> finite y -> valR y <> 0 -> Rabs (valR x / valR y) <= fmax ->
  finite (b32_div mode_NE x y) /\ valR (b32_div mode_NE x y) = rnd (valR x / valR y).
Proof.
  intros Fx Fy Ny B. pose proof (Bdiv_correct 24 128 eq_refl eq_refl binop_nan_pl32 mode_NE x y Ny) as H.
  rewrite fexp_FLT in H. change (round_mode mode_NE) with ZnearestE in H.
  rewrite (ok_M _ B) in H. destruct H as (V & F1 & _). rewrite Fx in F1. split; [exact F1|exact V].
Qed.
Lemma plus_M x y : finite x -> finite y -> Rabs (valR x + valR y) <= fmax ->
  finite (b32_plus mode_NE x y) /\ valR (b32_plus mode_NE x y) = rnd (valR x + valR y).
Proof.
  intros Fx Fy B. pose proof (Bplus_correct 24 128 eq_refl eq_refl binop_nan_pl32 mode_NE x y Fx Fy) as H.
  rewrite fexp_FLT in H. change (round_mode mode_NE) with ZnearestE in H.
  rewrite (ok_M _ B) in H. destruct H as (V & F1 & _). split; [exact F1|exact V].
Qed.
Lemma minus_M x y : finite x -> finite y -> Rabs (valR x - valR y) <= fmax ->
  finite (b32_minus mode_NE x y) /\ valR (b32_minus mode_NE x y) = rnd (valR x - valR y).
Proof.
  intros Fx Fy B. pose proof (Bminus_correct 24 128 eq_refl eq_refl binop_nan_pl32 mode_NE x y Fx Fy) as H.
  rewrite fexp_FLT in H. change (round_mode mode_NE) with ZnearestE in H.
  rewrite (ok_M _ B) in H. destruct H as (V & F1 & _). split; [exact F1|exact V].
Qed.

(** ** Exact scalings *)
Lemma dbl_fmt x : fmt (2 * valR x).
Proof.
  destruct (fmt_elim x) as (m & e & V & Hm & He). rewrite V. replace (2 * (IZR m * bpow radix2 e)) with (IZR m * bpow radix2 (e + 1)).
  - apply fmt_intro; auto; lia.
  - rewrite bpow_plus. change (bpow radix2 1) with 2. ring.
Qed.
Lemma half_fmt x : bpow radix2 (-125) <= Rabs (valR x) -> fmt (valR x / 2).
Proof.
  intros H. destruct (fmt_elim x) as (m & e & V & Hm & He). destruct (Z.eq_dec e (-149)) as [->|N].
  - exfalso. rewrite V, Rabs_mult, (Rabs_pos_eq (bpow _ _)) in H by apply bpow_ge_0. rewrite <- abs_IZR in H.
    replace (-125)%Z with (24 + -149)%Z in H by reflexivity. rewrite bpow_plus in H. change (bpow radix2 24) with (IZR (2 ^ 24)) in H.
    apply Rmult_le_reg_r in H; [|apply bp]. apply le_IZR in H. lia.
  - replace (valR x / 2) with (IZR m * bpow radix2 (e - 1)); [apply fmt_intro; auto; lia|].
    rewrite V. unfold Z.sub. rewrite bpow_plus. change (bpow radix2 (-(1))) with (/ 2). field.
Qed.
Lemma half_err x : Rabs (rnd (valR x / 2) - valR x / 2) <= bpow radix2 (-150).
Proof.
  destruct (Rle_or_lt (bpow radix2 (-125)) (Rabs (valR x))) as [H|H].
  - rewrite rnd_fmt by (apply half_fmt; auto). rewrite Rminus_diag_eq, Rabs_R0 by auto. apply bpow_ge_0.
  - eapply Rle_trans; [apply error_le_half_ulp; apply FLT_exp_valid; reflexivity|].
    assert (L : Rabs (valR x / 2) < bpow radix2 (-126)).
    { unfold Rdiv. rewrite Rabs_mult, (Rabs_pos_eq (/ 2)) by lra. change (-126)%Z with (-125 + -1)%Z. rewrite bpow_plus. change (bpow radix2 (-1)) with (/ 2). lra. }
    rewrite ulp_FLT_small; [|reflexivity|apply Rlt_trans with (1 := L); apply bpow_lt; lia]. change (-150)%Z with (-1 + -149)%Z. rewrite bpow_plus. change (bpow radix2 (-1)) with (/ 2). lra.
Qed.
Lemma plus_rel x y : Rabs (rnd (valR x + valR y) - (valR x + valR y)) <= u32 * Rabs (valR x + valR y).
Proof.
  destruct (FLT_plus_error_N_ex radix2 (-149) 24 (fun n => negb (Z.even n)) (valR x) (valR y) (format_val x) (format_val y)) as (e & He & V).
  change (Rabs (rnd (valR x + valR y) - (valR x + valR y)) <= u32 * Rabs (valR x + valR y)). rewrite V.
  replace ((valR x + valR y) * (1 + e) - (valR x + valR y)) with (e * (valR x + valR y)) by ring. rewrite Rabs_mult.
  apply Rmult_le_compat_r; [apply Rabs_pos|]. eapply Rle_trans; [exact He|].
  unfold Relative.u_ro. change (bpow radix2 (- (24) + 1)) with (/ 8388608). change u32 with (/ 16777216).
  assert (K : 0 < / (1 + / 2 * / 8388608) <= 1). { split; [apply Rinv_0_lt_compat; lra|]. rewrite <- Rinv_1. apply Rinv_le; lra. }
  unfold Rdiv. nra.
Qed.

(** ** midpoint *)
Lemma Rabs_le_of a b : - b <= a <= b -> Rabs a <= b. Proof. apply Rabs_le. Qed.
Lemma hi_R : finite (flit 1 2 * limMax)%b32 /\ valR (flit 1 2 * limMax)%b32 = fmax / 2.
Proof. 
  split; [reflexivity|]. rewrite fmax_val. replace (valR (flit 1 2 * limMax)%b32) with (IZR 16777215 * bpow radix2 103) by (vm_compute; reflexivity).
  change 128%Z with (25 + 103)%Z. change 104%Z with (1 + 103)%Z. rewrite !bpow_plus. change (bpow radix2 25) with 33554432. change (bpow radix2 1) with 2. field.
Qed.
Lemma lo_R : finite (flit 2 1 * limMin)%b32 /\ valR (flit 2 1 * limMin)%b32 = bpow radix2 (-125).
Proof. split; [reflexivity|]. vm_compute. lra. Qed.
Lemma half_R x : finite x -> finite (flit 1 2 * x)%b32 /\ valR (flit 1 2 * x)%b32 = rnd (valR x / 2).
Proof.
  intros Fx. destruct flit_half as (Fh & Vh). pose proof (finite_bnd x). pose proof fmax_pos.
  destruct (mult_M (flit 1 2) x Fh Fx) as (F1 & V1). { rewrite Vh. apply Rabs_le. lra. }
  split; [exact F1|]. rewrite V1, Vh. f_equal. field.
Qed.
Lemma rnd_btw a b v : valR a <= v <= valR b -> valR a <= rnd v <= valR b.
Proof. intros (H1 & H2). split; [apply rnd_ge_val|apply rnd_le_val]; auto. Qed.
Lemma fmax_125 : bpow radix2 126 <= fmax / 2.
Proof. 
  rewrite fmax_val. change 128%Z with (2 + 126)%Z. change 104%Z with (-22 + 126)%Z. rewrite !bpow_plus. change (bpow radix2 2) with 4. change (bpow radix2 (-22)) with (/ 4194304).
  pose proof (bp 126). lra.
Qed.
Definition btw (a b v : R) : Prop := (a <= b -> a <= v <= b) /\ (b <= a -> b <= v <= a).

Lemma tiny_mid a b : Rabs (valR a) < bpow radix2 (-125) -> fmax / 2 < Rabs (valR b) ->
  rnd (valR b / 2) = valR b / 2 /\ Rabs (valR a + valR b / 2) <= fmax /\ btw (valR a) (valR b) (rnd (valR a + valR b / 2)) /\
  Rabs (rnd (valR a + valR b / 2) - (valR a + valR b) / 2) <= u32 * Rabs (valR a + valR b) + bpow radix2 (-150).
Proof.
  intros L3 L2. pose proof (finite_bnd a) as Ba. pose proof (finite_bnd b) as Bb. pose proof fmax_pos as Fp. pose proof fmax_125 as F125.
  pose proof (bp (-150)) as B150. pose proof (bp (-24)) as B24. pose proof (bp (-125)) as B125.
  split. { apply rnd_fmt, half_fmt. apply Rle_trans with (bpow radix2 126); [apply bpow_le; lia|lra]. }
  apply Rabs_def2 in L3.
  assert (S2 : valR b < - fmax / 2 \/ fmax / 2 < valR b). { unfold Rabs in L2. destruct (Rcase_abs (valR b)); lra. }
  assert (P125 : bpow radix2 (-125) <= bpow radix2 124) by (apply bpow_le; lia).
  assert (P126 : bpow radix2 126 = 4 * bpow radix2 124). { change 126%Z with (2 + 124)%Z. rewrite bpow_plus. reflexivity. }
  assert (P125' : bpow radix2 125 = 2 * bpow radix2 124). { change 125%Z with (1 + 124)%Z. rewrite bpow_plus. reflexivity. }
  split; [apply Rabs_le; lra|]. split.
  - split; intros H; apply rnd_btw; lra.
  - pose proof (rnd_err (valR a + valR b / 2)) as H1. set (A := valR a) in *. set (B := valR b) in *. clearbody A B.
    assert (K : Rabs (A + B / 2) <= Rabs (A + B) / 2 + bpow radix2 (-125)).
    { replace (A + B / 2) with ((A + B) / 2 + A / 2) by field. eapply Rle_trans; [apply Rabs_triang|]. apply Rplus_le_compat.
      - unfold Rdiv. rewrite Rabs_mult, (Rabs_pos_eq (/ 2)); lra.
      - apply Rabs_le. lra. }
    assert (K2 : bpow radix2 125 <= Rabs (A + B)). { unfold Rabs. destruct (Rcase_abs (A + B)); lra. }
    assert (K3 : bpow radix2 (-125) * 2097152 <= u32 * Rabs (A + B)).
    { apply Rle_trans with (u32 * bpow radix2 125); [|apply Rmult_le_compat_l; lra]. change 2097152 with (bpow radix2 21). rewrite <- !bpow_plus. apply bpow_le. lia. }
    replace (rnd (A + B / 2) - (A + B) / 2) with ((rnd (A + B / 2) - (A + B / 2)) + A / 2) by field.
    eapply Rle_trans; [apply Rabs_triang|]. assert (Rabs (A / 2) <= bpow radix2 (-125)) by (apply Rabs_le; lra).
    assert (u32 * Rabs (A + B / 2) <= u32 * (Rabs (A + B) / 2 + bpow radix2 (-125))) by (apply Rmult_le_compat_l; lra).
    assert (u32 * bpow radix2 (-125) <= bpow radix2 (-125)). { rewrite u32_val. lra. }
    lra.
Qed.

Lemma midpoint_ok a b : finite a -> finite b -> let m := midpoint a b in
  finite m /\ btw (valR a) (valR b) (valR m) /\ Rabs (valR m - (valR a + valR b) / 2) <= u32 * Rabs (valR a + valR b) + bpow radix2 (-150).
Proof.
  intros Fa Fb m. destruct hi_R as (Fhi & Vhi). destruct lo_R as (Flo & Vlo).
  destruct (abs_R a Fa) as (Faa & Vaa). destruct (abs_R b Fb) as (Fab & Vab).
  pose proof (finite_bnd a) as Ba. pose proof (finite_bnd b) as Bb. pose proof fmax_pos as Fp. pose proof fmax_125 as F125.
  pose proof (bp (-150)) as B150. pose proof (bp (-24)) as B24. pose proof (bp (-125)) as B125.
  assert (P125 : bpow radix2 (-125) <= bpow radix2 126) by (apply bpow_le; lia).
  assert (HA : forall x y, finite x -> finite y -> Rabs (valR x) < bpow radix2 (-125) -> fmax / 2 < Rabs (valR y) -> 
    finite (x + flit 1 2 * y)%b32 /\ finite (flit 1 2 * y + x)%b32 /\ valR (x + flit 1 2 * y)%b32 = rnd (valR x + valR y / 2) /\ valR (flit 1 2 * y + x)%b32 = rnd (valR x + valR y / 2)).
  { intros x y Fx Fy H1 H2. destruct (tiny_mid x y H1 H2) as (E & B & _). destruct (half_R y Fy) as (Fh & Vh). rewrite E in Vh.
    destruct (plus_M x _ Fx Fh) as (F1 & V1); [rewrite Vh; exact B|]. destruct (plus_M _ x Fh Fx) as (F2 & V2); [rewrite Vh, Rplus_comm; exact B|].
    rewrite Vh in *. rewrite (Rplus_comm (valR y / 2)) in V2. auto. }
  subst m. unfold midpoint. 
  destruct (le_dec _ _ Faa Fhi) as [(-> & L1)|(-> & L1)]; [destruct (le_dec _ _ Fab Fhi) as [(-> & L2)|(-> & L2)]|]; cbn [andb]; rewrite Vaa, Vhi in L1.
  - rewrite Vab, Vhi in L2. apply Rabs_le_inv in L1. apply Rabs_le_inv in L2.
    destruct (plus_M a b Fa Fb) as (Fs & Vs). { apply Rabs_le. lra. }
    destruct (half_R _ Fs) as (Fm & Vm). split; [exact Fm|]. rewrite Vm. split.
    + pose proof (rnd_fmt _ (dbl_fmt a)) as Ra. pose proof (rnd_fmt _ (dbl_fmt b)) as Rb. 
      split; intros H; apply rnd_btw; rewrite Vs.
      * pose proof (rnd_le (2 * valR a) (valR a + valR b)). pose proof (rnd_le (valR a + valR b) (2 * valR b)). lra.
      * pose proof (rnd_le (2 * valR b) (valR a + valR b)). pose proof (rnd_le (valR a + valR b) (2 * valR a)). lra.
    + pose proof (half_err (a + b)%b32) as H1. pose proof (plus_rel a b) as H2. rewrite Vs in *. clear - H1 H2 B24 B150.
      set (S := rnd (valR a + valR b)) in *. set (T := valR a + valR b) in *. clearbody S T. pose proof (Rabs_pos T).
      assert (E : rnd (S / 2) - T / 2 = (rnd (S / 2) - S / 2) + (S - T) * / 2) by field. rewrite E.
      eapply Rle_trans; [apply Rabs_triang|]. rewrite (Rabs_mult (S - T)), (Rabs_pos_eq (/ 2)) by lra.
      assert (0 <= u32 * Rabs T) by (apply Rmult_le_pos; lra). lra.
  - rewrite Vab, Vhi in L2. destruct (lt_dec _ _ Faa Flo) as [(-> & L3)|(-> & L3)]; rewrite Vaa, Vlo in L3.
    + destruct (HA a b Fa Fb L3 L2) as (F1 & _ & V1 & _). rewrite V1. destruct (tiny_mid a b L3 L2) as (_ & _ & T). auto.
    + destruct (lt_dec _ _ Fab Flo) as [(-> & L4)|(-> & L4)]; rewrite Vab, Vlo in L4; [lra|].
      destruct (half_R a Fa) as (Fha & Vha). destruct (half_R b Fb) as (Fhb & Vhb). rewrite rnd_fmt in Vha, Vhb by (apply half_fmt; auto).
      destruct (plus_M _ _ Fha Fhb) as (Fs & Vs). { rewrite Vha, Vhb. apply Rabs_le. lra. }
      split; [exact Fs|]. pose proof (rnd_err (valR a / 2 + valR b / 2)) as H1. rewrite Vs, Vha, Vhb. split; [split; intros H; apply rnd_btw; lra|].
      replace ((valR a + valR b) / 2) with (valR a / 2 + valR b / 2) by field. eapply Rle_trans; [exact H1|]. 
      replace (valR a / 2 + valR b / 2) with ((valR a + valR b) * / 2) by field. rewrite Rabs_mult, (Rabs_pos_eq (/ 2)) by lra.
      pose proof (Rabs_pos (valR a + valR b)). assert (0 <= u32 * Rabs (valR a + valR b)) by (apply Rmult_le_pos; lra). lra.
  - destruct (lt_dec _ _ Faa Flo) as [(-> & L3)|(-> & L3)]; rewrite Vaa, Vlo in L3; [lra|].
    destruct (lt_dec _ _ Fab Flo) as [(-> & L4)|(-> & L4)]; rewrite Vab, Vlo in L4.
    + destruct (HA b a Fb Fa L4 L1) as (_ & F1 & _ & V1). rewrite V1. destruct (tiny_mid b a L4 L1) as (_ & _ & (T1 & T2) & T3). 
      rewrite (Rplus_comm (valR a) (valR b)). split; [exact F1|]. split; [split; auto|auto].
    + destruct (half_R a Fa) as (Fha & Vha). destruct (half_R b Fb) as (Fhb & Vhb). rewrite rnd_fmt in Vha, Vhb by (apply half_fmt; auto).
      destruct (plus_M _ _ Fha Fhb) as (Fs & Vs). { rewrite Vha, Vhb. apply Rabs_le. lra. }
      split; [exact Fs|]. pose proof (rnd_err (valR a / 2 + valR b / 2)) as H1. rewrite Vs, Vha, Vhb. split; [split; intros H; apply rnd_btw; lra|].
      replace ((valR a + valR b) / 2) with (valR a / 2 + valR b / 2) by field. eapply Rle_trans; [exact H1|]. 
      replace (valR a / 2 + valR b / 2) with ((valR a + valR b) * / 2) by field. rewrite Rabs_mult, (Rabs_pos_eq (/ 2)) by lra.
      pose proof (Rabs_pos (valR a + valR b)). assert (0 <= u32 * Rabs (valR a + valR b)) by (apply Rmult_le_pos; lra). lra.
Qed.
