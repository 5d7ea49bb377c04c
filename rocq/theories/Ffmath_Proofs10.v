(** Linear interpolation: binary32 values. *)
From Coq Require Import ZArith Reals Lra Lia Bool.
From Flocq Require Import Core Plus_error IEEE754.BinarySingleNaN IEEE754.Binary IEEE754.Bits.
From Verif Require Import Base Arith Ext32 Bits32 Ffmath_Model Ffmath_Spec Ffmath_Proofs3 Float32 Ffmath_Proofs4 Ffmath_Proofs5 Ffmath_Proofs7 Ffmath_Proofs8 Ffmath_Proofs9.
Open Scope R_scope.

Definition opp_sign (A B : R) : Prop := (A <= 0 /\ 0 <= B) \/ (0 <= A /\ B <= 0).
Definition lerp_cross (A B T : R) : R := rnd (rnd (T * B) + rnd (A * rnd (1 - T))).
Definition lerp_line (A B T : R) : R := rnd (A + rnd (T * rnd (B - A))).

Lemma one_R : finite (flit 1 1) /\ valR (flit 1 1) = 1.
Proof. split; [reflexivity|]. vm_compute. lra. Qed.
Lemma minM_R : finite (absolute limMin) /\ valR (absolute limMin) = bpow radix2 (-126).
Proof. destruct limMin_R as (F & V). destruct (abs_R _ F) as (F1 & V1). split; [exact F1|]. rewrite V1, V. apply Rabs_pos_eq, bpow_ge_0. Qed.
Lemma rnd_1 : rnd 1 = 1. Proof. apply (rnd_bpow 0). lia. Qed.
Lemma rnd_itv x l u : fmt l -> fmt u -> l <= x <= u -> l <= rnd x <= u.
Proof. intros Hl Hu (H1 & H2). split; [rewrite <- (rnd_fmt l) by auto|rewrite <- (rnd_fmt u) by auto]; apply rnd_le; auto. Qed.
Lemma fmt_0 : fmt 0. Proof. apply generic_format_0. Qed.
Lemma fmt_1 : fmt 1. Proof. apply (format_bpow 0). lia. Qed.
Lemma fmt_opp x : fmt x -> fmt (- x). Proof. apply generic_format_opp. Qed.
Lemma fmt_rnd x : fmt (rnd x). Proof. apply generic_format_round; [apply FLT_exp_valid; reflexivity|apply valid_rnd_N]. Qed.

(** signs and bounds of the intermediate results *)
Lemma scale_itv A W : fmt A -> 0 <= W <= 1 -> (0 <= A -> 0 <= rnd (A * W) <= A) /\ (A <= 0 -> A <= rnd (A * W) <= 0).
Proof. intros FA HW. split; intros H; apply rnd_itv; auto using fmt_0; nra. Qed.

(** a sum is the rounded sum or, past the largest float, an infinity *)
Lemma inf_lt b : b32_lt (B754_infinity 24 128 false) b = false.
Proof. destruct b as [[]|[]|[]|[]]; reflexivity. Qed.
Lemma lt_ninf b : b32_lt b (B754_infinity 24 128 true) = false.
Proof. destruct b as [[]|[]|[]|[]]; reflexivity. Qed.
Lemma sign_R x : finite x -> if Bsign 24 128 x then valR x <= 0 else 0 <= valR x.
Proof.
  destruct x as [s|s|s pl e|s m e H]; intros F; try discriminate F; cbn [Bsign B2R].
  - destruct s; lra.
  - destruct s; [apply F2R_le_0|apply F2R_ge_0]; cbn; lia.
Qed.
Lemma plus_or x y : finite x -> finite y ->
  (finite (x + y)%b32 /\ valR (x + y)%b32 = rnd (valR x + valR y)) \/
  (fmax < Rabs (valR x + valR y) /\
   ((0 < valR x + valR y /\ fmax < rnd (valR x + valR y) /\ (x + y)%b32 = B754_infinity 24 128 false) \/
    (valR x + valR y < 0 /\ rnd (valR x + valR y) < - fmax /\ (x + y)%b32 = B754_infinity 24 128 true))).
Proof.
  intros Fx Fy. pose proof (Bplus_correct 24 128 eq_refl eq_refl binop_nan_pl32 mode_NE x y Fx Fy) as H.
  rewrite fexp_FLT in H. change (round_mode mode_NE) with ZnearestE in H. destruct (Rlt_bool_spec (Rabs (rnd (valR x + valR y))) (bpow radix2 128)) as [L|L].
  - destruct H as (V & F1 & _). left. split; [exact F1|exact V].
  - right. destruct H as (V & Sg).
    assert (M : fmax < Rabs (valR x + valR y)). { destruct (Rle_or_lt (Rabs (valR x + valR y)) fmax) as [K|K]; [|exact K]. pose proof (ok_M _ K) as K2. rewrite Rlt_bool_false in K2 by exact L. discriminate K2. }
    split; [exact M|]. assert (L2 : fmax < Rabs (rnd (valR x + valR y))). { apply Rlt_le_trans with (2 := L). rewrite fmax_val. pose proof (bp 104). lra. }
    assert (I : (x + y)%b32 = B754_infinity 24 128 (Bsign 24 128 x)).
    { unfold b32_plus. destruct (Bplus 24 128 eq_refl eq_refl binop_nan_pl32 mode_NE x y) eqn:E; cbn [B2FF binary_overflow overflow_to_inf] in V; try discriminate V. inversion V. reflexivity. }
    pose proof (sign_R x Fx) as Sx. pose proof (sign_R y Fy) as Sy. rewrite <- Sg in Sy. rewrite I. destruct (Bsign 24 128 x).
    + right. assert (valR x + valR y < 0). { unfold Rabs in M. destruct (Rcase_abs (valR x + valR y)); [lra|]. pose proof fmax_pos. lra. } 
      pose proof (rnd_le (valR x + valR y) 0 (Rlt_le _ _ H)) as K. rewrite rnd_0 in K. rewrite Rabs_left1 in L2 by lra. repeat split; lra.
    + left. assert (0 < valR x + valR y). { unfold Rabs in M. destruct (Rcase_abs (valR x + valR y)); pose proof fmax_pos; lra. }
      pose proof (rnd_nonneg _ (Rlt_le _ _ H)) as K. rewrite Rabs_pos_eq in L2 by lra. repeat split; lra.
Qed.
Lemma lerp_cases a b t : finite a -> finite b -> finite t -> 0 <= valR t <= 1 ->
  finite (lerp a b t) /\
  ((opp_sign (valR a) (valR b) /\ valR (lerp a b t) = lerp_cross (valR a) (valR b) (valR t)) \/
   (~ opp_sign (valR a) (valR b) /\ Rabs (rnd (valR t - 1)) <= bpow radix2 (-126) /\ valR (lerp a b t) = valR b) \/
   (~ opp_sign (valR a) (valR b) /\ bpow radix2 (-126) < Rabs (rnd (valR t - 1)) /\ valR a < valR b /\ valR (lerp a b t) = Rmin (lerp_line (valR a) (valR b) (valR t)) (valR b)) \/
   (~ opp_sign (valR a) (valR b) /\ bpow radix2 (-126) < Rabs (rnd (valR t - 1)) /\ valR b <= valR a /\ valR (lerp a b t) = Rmax (lerp_line (valR a) (valR b) (valR t)) (valR b))).
Proof.
  intros Fa Fb Ft Ht. destruct zero_R as (F0 & V0). destruct one_R as (F1 & V1). destruct minM_R as (Fm & Vm).
  pose proof (finite_bnd a) as Ba. pose proof (finite_bnd b) as Bb. pose proof fmax_pos as Fp. pose proof (format_val a) as Ga. pose proof (format_val b) as Gb. pose proof (format_val t) as Gt.
  assert (B1 : 1 <= fmax). { rewrite fmax_val. apply Rle_trans with (bpow radix2 127); [apply (bpow_le radix2 0 127); lia|]. change 128%Z with (1 + 127)%Z. rewrite bpow_plus. change (bpow radix2 1) with 2. pose proof (bpow_lt radix2 104 127 eq_refl). lra. }
  assert (E : ((a <=? flit 0 1)%b32 && (b >=? flit 0 1)%b32 || (a >=? flit 0 1)%b32 && (b <=? flit 0 1)%b32 = true /\ opp_sign (valR a) (valR b)) \/
              ((a <=? flit 0 1)%b32 && (b >=? flit 0 1)%b32 || (a >=? flit 0 1)%b32 && (b <=? flit 0 1)%b32 = false /\ ~ opp_sign (valR a) (valR b))).
  { unfold opp_sign. destruct (le_dec a _ Fa F0) as [(-> & H1)|(-> & H1)], (le_dec _ a F0 Fa) as [(-> & H2)|(-> & H2)], (le_dec b _ Fb F0) as [(-> & H3)|(-> & H3)], (le_dec _ b F0 Fb) as [(-> & H4)|(-> & H4)];
    rewrite V0 in *; cbn [andb orb]; first [left; split; [reflexivity|lra]|right; split; [reflexivity|lra]]. }
  unfold lerp. destruct E as [(-> & O)|(-> & O)].
  - destruct (mult_M t b Ft Fb) as (Fp1 & Vp1). { apply Rabs_le. nra. }
    destruct (minus_M _ t F1 Ft) as (Fw & Vw). { rewrite V1. apply Rabs_le. lra. } rewrite V1 in Vw.
    assert (HW : 0 <= rnd (1 - valR t) <= 1). { apply rnd_itv; auto using fmt_0, fmt_1. lra. }
    destruct (mult_M a _ Fa Fw) as (Fp2 & Vp2). { rewrite Vw. apply Rabs_le. nra. } rewrite Vw in Vp2.
    destruct (scale_itv _ _ Ga HW) as (SA1 & SA2). destruct (scale_itv _ _ Gb Ht) as (SB1 & SB2). rewrite (Rmult_comm (valR b)) in SB1, SB2.
    destruct (plus_M _ _ Fp1 Fp2) as (Fs & Vs). { rewrite Vp1, Vp2. apply Rabs_le. destruct O as [(O1 & O2)|(O1 & O2)]; [specialize (SA2 O1); specialize (SB1 O2)|specialize (SA1 O1); specialize (SB2 O2)]; lra. }
    split; [exact Fs|]. left. split; [exact O|]. rewrite Vs, Vp1, Vp2. reflexivity.
  - assert (O' : (0 < valR a /\ 0 < valR b) \/ (valR a < 0 /\ valR b < 0)). { unfold opp_sign in O. destruct (Rlt_or_le 0 (valR a)), (Rlt_or_le 0 (valR b)), (Rle_or_lt 0 (valR a)), (Rle_or_lt 0 (valR b)); lra. }
    unfold fisEqual0, fisEqual. destruct (minus_M t _ Ft F1) as (Fd & Vd). { rewrite V1. apply Rabs_le. lra. } rewrite V1 in Vd.
    destruct (abs_R _ Fd) as (Fda & Vda). rewrite Vd in Vda. destruct (le_dec _ _ Fda Fm) as [(-> & H1)|(-> & H1)]; rewrite Vda, Vm in H1.
    + split; [exact Fb|]. auto.
    + destruct (minus_M b a Fb Fa) as (Fw & Vw). { apply Rabs_le. lra. }
      assert (HD : (valR a <= valR b -> 0 <= rnd (valR b - valR a) <= fmax /\ (0 < valR a -> rnd (valR b - valR a) <= valR b) /\ (valR a < 0 -> rnd (valR b - valR a) <= - valR a)) /\
                   (valR b <= valR a -> - fmax <= rnd (valR b - valR a) <= 0 /\ (0 < valR a -> - valR a <= rnd (valR b - valR a)) /\ (valR a < 0 -> valR b <= rnd (valR b - valR a)))).
      { split; intros L; split.
        - apply rnd_itv; auto using fmt_0, format_val. lra.
        - split; intros HH; [destruct (rnd_itv (valR b - valR a) 0 (valR b))|destruct (rnd_itv (valR b - valR a) 0 (- valR a))]; auto using fmt_0, fmt_opp; lra.
        - apply rnd_itv; auto using fmt_0, fmt_opp, format_val. lra.
        - split; intros HH; [destruct (rnd_itv (valR b - valR a) (- valR a) 0 )|destruct (rnd_itv (valR b - valR a) (valR b) 0)]; auto using fmt_0, fmt_opp; lra. }
      destruct HD as (HD1 & HD2).
      assert (BD : - fmax <= rnd (valR b - valR a) <= fmax) by (destruct (Rle_or_lt (valR a) (valR b)); [destruct HD1|destruct HD2]; lra).
      destruct (mult_M t _ Ft Fw) as (Fp1 & Vp1). { rewrite Vw. apply Rabs_le. nra. } rewrite Vw in Vp1.
      destruct (scale_itv _ _ (fmt_rnd (valR b - valR a)) Ht) as (S1 & S2). rewrite (Rmult_comm (rnd (valR b - valR a))) in S1, S2.
      change (lerp_line (valR a) (valR b) (valR t)) with (rnd (valR a + rnd (valR t * rnd (valR b - valR a)))).
      assert (Et : (t >? flit 1 1)%b32 = false). { destruct (lt_dec _ t F1 Ft) as [(_ & H2)|(-> & H2)]; [rewrite V1 in H2; lra|reflexivity]. } rewrite Et.
      destruct (lt_dec a b Fa Fb) as [(-> & L)|(-> & L)]; cbn [Bool.eqb].
      * destruct (HD1 (Rlt_le _ _ L)) as (L1 & L2 & L3). specialize (S1 (proj1 L1)). rewrite <- Vp1 in S1 |- *.
        assert (X : 0 < valR a \/ Rabs (valR a + valR (t * (b - a))%b32) <= fmax).
        { destruct O' as [(O1 & O2)|(O1 & O2)]; [lra|right]. specialize (L3 O1). apply Rabs_le. lra. }
        destruct (plus_or a _ Fa Fp1) as [(Fs & Vs)|(Hb & [(H2 & H3 & I)|(H2 & H3 & I)])].
        -- rewrite <- Vs. destruct (lt_dec _ b Fs Fb) as [(-> & H2)|(-> & H2)]; (split; [assumption|]); right; right; left; repeat split; auto.
           ++ rewrite Rmin_left by lra. reflexivity.
           ++ rewrite Rmin_right by lra. reflexivity.
        -- rewrite I. rewrite inf_lt. split; [exact Fb|]. right; right; left. repeat split; auto. rewrite Rmin_right; [reflexivity|]. lra.
        -- exfalso. destruct X as [X|X]; [lra|]. apply Rabs_le_inv in X. pose proof (rnd_ge_opp (valR a + valR (t * (b - a))%b32) limMax (proj1 X)). lra.
      * destruct (HD2 L) as (L1 & L2 & L3). specialize (S2 (proj2 L1)). rewrite <- Vp1 in S2 |- *.
        assert (X : valR a < 0 \/ Rabs (valR a + valR (t * (b - a))%b32) <= fmax).
        { destruct O' as [(O1 & O2)|(O1 & O2)]; [right|lra]. specialize (L2 O1). apply Rabs_le. lra. }
        destruct (plus_or a _ Fa Fp1) as [(Fs & Vs)|(Hb & [(H2 & H3 & I)|(H2 & H3 & I)])].
        -- rewrite <- Vs. destruct (lt_dec b _ Fb Fs) as [(-> & H2)|(-> & H2)]; (split; [assumption|]); right; right; right; repeat split; auto.
           ++ rewrite Rmax_left by lra. reflexivity.
           ++ rewrite Rmax_right by lra. reflexivity.
        -- exfalso. destruct X as [X|X]; [lra|]. apply Rabs_le_inv in X. pose proof (rnd_le_val (valR a + valR (t * (b - a))%b32) limMax (proj2 X)). lra.
        -- rewrite I. rewrite lt_ninf. split; [exact Fb|]. right; right; right. repeat split; auto. rewrite Rmax_right; [reflexivity|]. lra.
Qed.

(** ** Range, monotonicity, ends, accuracy *)
Lemma W_itv T : 0 <= T <= 1 -> 0 <= rnd (1 - T) <= 1.
Proof. intros H. apply rnd_itv; auto using fmt_0, fmt_1. lra. Qed.
Lemma cross_btw A B T : fmt A -> fmt B -> 0 <= T <= 1 -> opp_sign A B -> btw A B (lerp_cross A B T).
Proof.
  intros FA FB HT O. destruct (scale_itv A _ FA (W_itv T HT)) as (SA1 & SA2). destruct (scale_itv B T FB HT) as (SB1 & SB2). rewrite (Rmult_comm B) in SB1, SB2.
  unfold lerp_cross. split; intros H; apply rnd_itv; auto.
  - assert (A <= 0 /\ 0 <= B) as (O1 & O2) by (destruct O; lra). specialize (SA2 O1). specialize (SB1 O2). lra.
  - assert (0 <= A /\ B <= 0) as (O1 & O2) by (destruct O; lra). specialize (SA1 O1). specialize (SB2 O2). lra.
Qed.
Lemma line_ge A B T : fmt A -> 0 <= T -> A <= B -> A <= lerp_line A B T.
Proof.
  intros FA HT H. unfold lerp_line. rewrite <- (rnd_fmt A) at 1 by auto. apply rnd_le.
  assert (0 <= rnd (T * rnd (B - A))). { apply rnd_nonneg. apply Rmult_le_pos; auto. apply rnd_nonneg. lra. } lra.
Qed.
Lemma rnd_nonpos x : x <= 0 -> rnd x <= 0. Proof. intros H. rewrite <- rnd_0. apply rnd_le; auto. Qed.
Lemma line_le A B T : fmt A -> 0 <= T -> B <= A -> lerp_line A B T <= A.
Proof.
  intros FA HT H. unfold lerp_line. apply Rle_trans with (rnd A); [apply rnd_le|rewrite rnd_fmt; auto; lra].
  assert (rnd (T * rnd (B - A)) <= 0). { apply rnd_nonpos. assert (rnd (B - A) <= 0) by (apply rnd_nonpos; lra). nra. } lra.
Qed.
Lemma lerp_btw a b t : finite a -> finite b -> finite t -> 0 <= valR t <= 1 -> btw (valR a) (valR b) (valR (lerp a b t)).
Proof.
  intros Fa Fb Ft Ht. destruct (lerp_cases a b t Fa Fb Ft Ht) as (_ & [(O & ->)|[(O & _ & ->)|[(O & _ & L & ->)|(O & _ & L & ->)]]]).
  - apply cross_btw; auto using format_val.
  - split; lra.
  - pose proof (line_ge (valR a) (valR b) (valR t) (format_val a) (proj1 Ht) (Rlt_le _ _ L)). split; [intros _|lra]. split; [apply Rmin_glb; lra|apply Rmin_r].
  - pose proof (line_le (valR a) (valR b) (valR t) (format_val a) (proj1 Ht) L). 
    assert (valR b <= Rmax (lerp_line (valR a) (valR b) (valR t)) (valR b) <= valR a) by (split; [apply Rmax_r|apply Rmax_lub; lra]). split; intros; lra.
Qed.

Lemma cross_mono A B T T' : 0 <= T <= T' -> T' <= 1 -> opp_sign A B -> (A <= B -> lerp_cross A B T <= lerp_cross A B T') /\ (B <= A -> lerp_cross A B T' <= lerp_cross A B T).
Proof.
  intros HT HT' O. assert (W : rnd (1 - T') <= rnd (1 - T)) by (apply rnd_le; lra). unfold lerp_cross. split; intros H; apply rnd_le; apply Rplus_le_compat; apply rnd_le; destruct O; nra.
Qed.
Lemma line_mono A B T T' : 0 <= T <= T' -> (A <= B -> lerp_line A B T <= lerp_line A B T') /\ (B <= A -> lerp_line A B T' <= lerp_line A B T).
Proof.
  intros HT. unfold lerp_line. split; intros H; apply rnd_le; apply Rplus_le_compat_l; apply rnd_le.
  - assert (0 <= rnd (B - A)) by (apply rnd_nonneg; lra). nra.
  - assert (rnd (B - A) <= 0) by (apply rnd_nonpos; lra). nra.
Qed.
Lemma gap_mono T T' : T <= T' <= 1 -> Rabs (rnd (T' - 1)) <= Rabs (rnd (T - 1)).
Proof.
  intros H. pose proof (rnd_le (T - 1) (T' - 1) ltac:(lra)). pose proof (rnd_nonpos (T' - 1) ltac:(lra)). rewrite !Rabs_left1 by lra. lra.
Qed.
Lemma lerp_mono a b t t' : finite a -> finite b -> finite t -> finite t' -> 0 <= valR t <= valR t' -> valR t' <= 1 ->
  (valR a <= valR b -> valR (lerp a b t) <= valR (lerp a b t')) /\ (valR b <= valR a -> valR (lerp a b t') <= valR (lerp a b t)).
Proof.
  intros Fa Fb Ft Ft' Ht Ht'. pose proof (gap_mono (valR t) (valR t') ltac:(lra)) as G.
  destruct (lerp_btw a b t Fa Fb Ft ltac:(lra)) as (B1 & B2). destruct (lerp_btw a b t' Fa Fb Ft' ltac:(lra)) as (B1' & B2').
  pose proof (line_mono (valR a) (valR b) _ _ Ht) as (M1 & M2).
  destruct (lerp_cases a b t Fa Fb Ft ltac:(lra)) as (_ & [(O & E)|[(O & H & E)|[(O & H & L & E)|(O & H & L & E)]]]);
  destruct (lerp_cases a b t' Fa Fb Ft' ltac:(lra)) as (_ & [(O' & E')|[(O' & H' & E')|[(O' & H' & L' & E')|(O' & H' & L' & E')]]]); try tauto; try lra.
  - rewrite E, E'. apply cross_mono; auto.
  - rewrite E, E'. split; [intros _|lra]. specialize (M1 (Rlt_le _ _ L)). apply Rle_min_compat_r. auto.
  - rewrite E, E'. specialize (M2 L). split; intros ?; [|apply Rle_max_compat_r; auto]. 
    assert (EE : valR a = valR b) by lra. pose proof (B2 L). pose proof (B2' L). lra.
Qed.

Lemma lerp_ends a b : finite a -> finite b -> valR (lerp a b (flit 0 1)) = valR a /\ valR (lerp a b (flit 1 1)) = valR b.
Proof.
  intros Fa Fb. destruct zero_R as (F0 & V0). destruct one_R as (F1 & V1). split.
  - destruct (lerp_cases a b _ Fa Fb F0 ltac:(rewrite V0; lra)) as (_ & [(O & ->)|[(O & H & E)|[(O & H & L & ->)|(O & H & L & ->)]]]); rewrite V0 in *.
    + unfold lerp_cross. rewrite Rmult_0_l, rnd_0, Rplus_0_l, Rminus_0_r, rnd_1, Rmult_1_r, !rnd_val. reflexivity.
    + exfalso. replace (0 - 1) with (- (1)) in H by ring. rewrite rnd_opp, rnd_1, Rabs_Ropp, Rabs_R1 in H. pose proof (bpow_lt radix2 (-126) 0 eq_refl) as K. change (bpow radix2 0) with 1 in K. lra.
    + unfold lerp_line. rewrite Rmult_0_l, rnd_0, Rplus_0_r, rnd_val, Rmin_left; lra.
    + unfold lerp_line. rewrite Rmult_0_l, rnd_0, Rplus_0_r, rnd_val, Rmax_left; lra.
  - destruct (lerp_cases a b _ Fa Fb F1 ltac:(rewrite V1; lra)) as (_ & [(O & ->)|[(O & H & E)|[(O & H & L & ->)|(O & H & L & ->)]]]); rewrite V1 in *.
    + unfold lerp_cross. rewrite Rmult_1_l, (Rminus_diag_eq 1 1), rnd_0, Rmult_0_r, rnd_0, Rplus_0_r, !rnd_val by auto. reflexivity.
    + exact E.
    + exfalso. rewrite (Rminus_diag_eq 1 1), rnd_0, Rabs_R0 in H by auto. pose proof (bp (-126)). lra.
    + exfalso. rewrite (Rminus_diag_eq 1 1), rnd_0, Rabs_R0 in H by auto. pose proof (bp (-126)). lra.
Qed.

(** error of a clipped value *)
Lemma fmt_plus_rel x y : fmt x -> fmt y -> Rabs (rnd (x + y) - (x + y)) <= u32 * Rabs (x + y).
Proof.
  intros Fx Fy. destruct (FLT_plus_error_N_ex radix2 (-149) 24 (fun n => negb (Z.even n)) x y Fx Fy) as (e & He & V).
  change (Rabs (rnd (x + y) - (x + y)) <= u32 * Rabs (x + y)). rewrite V.
  replace ((x + y) * (1 + e) - (x + y)) with (e * (x + y)) by ring. rewrite Rabs_mult.
  apply Rmult_le_compat_r; [apply Rabs_pos|]. eapply Rle_trans; [exact He|].
  unfold Relative.u_ro. change (bpow radix2 (- (24) + 1)) with (/ 8388608). change u32 with (/ 16777216).
  assert (K : 0 < / (1 + / 2 * / 8388608) <= 1). { split; [apply Rinv_0_lt_compat; lra|]. rewrite <- Rinv_1. apply Rinv_le; lra. }
  unfold Rdiv. nra.
Qed.
Lemma fmt_sub_rel x y : fmt x -> fmt y -> Rabs (rnd (x - y) - (x - y)) <= u32 * Rabs (x - y).
Proof. intros Fx Fy. apply (fmt_plus_rel x (- y)); auto using fmt_opp. Qed.

Lemma cross_err A B T M : fmt A -> fmt B -> fmt T -> 0 <= T <= 1 -> opp_sign A B -> Rabs A <= M -> Rabs B <= M ->
  Rabs (lerp_cross A B T - (A + T * (B - A))) <= 4 * u32 * M + bpow radix2 (-148).
Proof.
  intros FA FB FT HT O HA HB. pose proof (W_itv T HT) as HW. destruct (scale_itv A _ FA HW) as (SA1 & SA2). destruct (scale_itv B T FB HT) as (SB1 & SB2). rewrite (Rmult_comm B) in SB1, SB2.
  pose proof (rnd_err (T * B)) as E1. pose proof (fmt_sub_rel 1 T fmt_1 FT) as E2. pose proof (rnd_err (A * rnd (1 - T))) as E3.
  pose proof (fmt_plus_rel _ _ (fmt_rnd (T * B)) (fmt_rnd (A * rnd (1 - T)))) as E4. unfold lerp_cross.
  set (W := rnd (1 - T)) in *. set (p := rnd (T * B)) in *. set (q := rnd (A * W)) in *. set (s := rnd (p + q)) in *. clearbody s q p W.
  pose proof (Rabs_pos A). pose proof (Rabs_pos B).
  assert (S : Rabs (p + q) <= M). { apply Rabs_le_inv in HA. apply Rabs_le_inv in HB. apply Rabs_le. destruct O as [(O1 & O2)|(O1 & O2)]; [specialize (SA2 O1); specialize (SB1 O2)|specialize (SA1 O1); specialize (SB2 O2)]; lra. }
  rewrite Rabs_mult, (Rabs_pos_eq T) in E1 by lra. rewrite Rabs_mult, (Rabs_pos_eq W) in E3 by lra. rewrite (Rabs_pos_eq (1 - T)) in E2 by lra.
  assert (B148 : bpow radix2 (-148) = 4 * bpow radix2 (-150)). { change (-148)%Z with (2 + -150)%Z. rewrite bpow_plus. reflexivity. }
  pose proof (bp (-150)) as B150. rewrite B148. rewrite u32_val in *.
  replace (s - (A + T * (B - A))) with ((s - (p + q)) + ((p - T * B) + ((q - A * W) + A * (W - (1 - T))))) by ring.
  eapply Rle_trans; [apply Rabs_triang|]. eapply Rle_trans; [apply Rplus_le_compat_l, Rabs_triang|]. eapply Rle_trans; [apply Rplus_le_compat_l, Rplus_le_compat_l, Rabs_triang|].
  rewrite (Rabs_mult A (W - _)).
  assert (Rabs A * Rabs (W - (1 - T)) <= Rabs A * (/ 16777216 * (1 - T))) by (apply Rmult_le_compat_l; auto).
  assert (T * Rabs B <= T * M) by (apply Rmult_le_compat_l; lra). assert ((1 - T) * Rabs A <= (1 - T) * M) by (apply Rmult_le_compat_l; lra).
  assert (Rabs A * W <= M * 1) by (apply Rmult_le_compat; lra). lra.
Qed.
Lemma line_err A B T M : fmt A -> fmt B -> fmt T -> 0 <= T <= 1 -> ~ opp_sign A B -> fmt M -> Rabs A <= M -> Rabs B <= M ->
  Rabs (lerp_line A B T - (A + T * (B - A))) <= 4 * u32 * M + bpow radix2 (-148).
Proof.
  intros FA FB FT HT O FM HA HB. pose proof (fmt_sub_rel B A FB FA) as E1. pose proof (rnd_err (T * rnd (B - A))) as E2. 
  pose proof (fmt_plus_rel _ _ FA (fmt_rnd (T * rnd (B - A)))) as E3. apply Rabs_le_inv in HA. apply Rabs_le_inv in HB.
  assert (O' : (0 < A /\ 0 < B) \/ (A < 0 /\ B < 0)). { unfold opp_sign in O. destruct (Rlt_or_le 0 A), (Rlt_or_le 0 B), (Rle_or_lt 0 A), (Rle_or_lt 0 B); lra. }
  assert (HD : - M <= B - A <= M) by lra. assert (Hd : - M <= rnd (B - A) <= M) by (apply rnd_itv; auto using fmt_opp).
  assert (HE : Rabs (A + T * (B - A)) <= M) by (apply Rabs_le; nra).
  unfold lerp_line. set (d := rnd (B - A)) in *. set (p := rnd (T * d)) in *. set (x := rnd (A + p)) in *. clearbody x p d.
  apply Rabs_le in HD. apply Rabs_le in Hd. pose proof (Rabs_pos (B - A)). pose proof (Rabs_pos d).
  rewrite Rabs_mult, (Rabs_pos_eq T) in E2 by lra.
  assert (B148 : bpow radix2 (-148) = 4 * bpow radix2 (-150)). { change (-148)%Z with (2 + -150)%Z. rewrite bpow_plus. reflexivity. }
  pose proof (bp (-150)) as B150. rewrite B148. rewrite u32_val in *.
  assert (K : Rabs (p - T * (B - A)) <= 2 * / 16777216 * M + bpow radix2 (-150)).
  { replace (p - T * (B - A)) with ((p - T * d) + T * (d - (B - A))) by ring. eapply Rle_trans; [apply Rabs_triang|]. rewrite (Rabs_mult T), (Rabs_pos_eq T) by lra.
    assert (T * Rabs (d - (B - A)) <= 1 * (/ 16777216 * M)). { apply Rmult_le_compat; try lra. apply Rabs_pos. }
    assert (T * Rabs d <= 1 * M) by (apply Rmult_le_compat; lra). lra. }
  assert (K2 : Rabs (A + p) <= Rabs (A + T * (B - A)) + Rabs (p - T * (B - A))). { replace (A + p) with ((A + T * (B - A)) + (p - T * (B - A))) by ring. apply Rabs_triang. }
  replace (x - (A + T * (B - A))) with ((x - (A + p)) + (p - T * (B - A))) by ring. eapply Rle_trans; [apply Rabs_triang|]. lra.
Qed.
Lemma lerp_err a b t : finite a -> finite b -> finite t -> 0 <= valR t <= 1 ->
  Rabs (valR (lerp a b t) - (valR a + valR t * (valR b - valR a))) <= 4 * u32 * Rmax (Rabs (valR a)) (Rabs (valR b)) + bpow radix2 (-148).
Proof.
  intros Fa Fb Ft Ht. pose proof (format_val a) as GA. pose proof (format_val b) as GB. pose proof (format_val t) as GT.
  pose proof (Rmax_l (Rabs (valR a)) (Rabs (valR b))) as HA. pose proof (Rmax_r (Rabs (valR a)) (Rabs (valR b))) as HB.
  assert (GM : fmt (Rmax (Rabs (valR a)) (Rabs (valR b)))). { unfold Rmax. destruct Rle_dec; apply generic_format_abs; auto. }
  pose proof (fun M => cross_err _ _ _ M GA GB GT Ht) as C. pose proof (fun M => line_err _ _ _ M GA GB GT Ht) as L. 
  destruct (lerp_cases a b t Fa Fb Ft Ht) as (_ & Q).
  set (A := valR a) in *. set (B := valR b) in *. set (T := valR t) in *. set (M := Rmax (Rabs A) (Rabs B)) in *. 
  pose proof (Rabs_pos A). pose proof (bp (-148)) as B148.
  destruct Q as [(O & ->)|[(O & G & ->)|[(O & _ & Q & ->)|(O & _ & Q & ->)]]].
  - apply C; auto.
  - pose proof (fmt_sub_rel T 1 GT fmt_1) as E. replace (Rabs (T - 1)) with (1 - T) in E. 2: { rewrite Rabs_left1 by lra. ring. }
    assert (K : 1 - T <= 2 * bpow radix2 (-126)). { assert (1 - T <= Rabs (rnd (T - 1)) + Rabs (rnd (T - 1) - (T - 1))). { rewrite Rabs_minus_sym. replace (1 - T) with (Rabs (T - 1)) by (rewrite Rabs_left1 by lra; ring). 
      replace (T - 1) with (rnd (T - 1) + (T - 1 - rnd (T - 1))) at 1 by ring. apply Rabs_triang. } rewrite u32_val in E. lra. }
    assert (K2 : 2 * bpow radix2 (-126) <= u32). { change 2 with (bpow radix2 1). rewrite <- bpow_plus. apply bpow_le. lia. }
    replace (B - (A + T * (B - A))) with ((1 - T) * (B - A)) by ring. rewrite Rabs_mult, (Rabs_pos_eq (1 - T)) by lra.
    assert (Rabs (B - A) <= 2 * M). { eapply Rle_trans; [apply Rabs_triang|]. rewrite Rabs_Ropp. lra. }
    assert ((1 - T) * Rabs (B - A) <= u32 * (2 * M)). { apply Rmult_le_compat; try lra. apply Rabs_pos. } rewrite u32_val in *. lra.
  - specialize (L M O GM HA HB). unfold Rmin. destruct Rle_dec as [D|D]; [exact L|]. eapply Rle_trans; [|exact L]. apply Rnot_le_lt in D.
    assert (A + T * (B - A) <= B) by nra. rewrite !Rabs_pos_eq by lra. lra.
  - specialize (L M O GM HA HB). unfold Rmax at 1. destruct Rle_dec as [D|D]; [|exact L]. eapply Rle_trans; [|exact L].
    assert (B <= A + T * (B - A)) by nra. rewrite !Rabs_left1 by lra. lra.
Qed.
