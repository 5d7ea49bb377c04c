(** log2: accuracy in binary32. *)
From Coq Require Import ZArith Reals Lra Lia Bool List.
From Flocq Require Import Core IEEE754.BinarySingleNaN IEEE754.Binary IEEE754.Bits.
From Verif Require Import Base BaseLemmas Arith Ext32 Bits32 PolyBound Ffmath_Model Ffmath2_Model Ffmath_Spec Ffmath_Proofs Ffmath_Proofs2 Ffmath_Proofs3 Float32 Ffmath_Proofs4 Ffmath_Proofs5 Ffmath_Proofs7 Ffmath_Proofs8 Ffmath_Proofs9 Ffmath_Proofs10 FloatApp Ffmath_Proofs12 Ffmath_Proofs13.
Import ListNotations.
Open Scope R_scope.

(** ** The polynomial *)
Definition log_P (t : R) : R :=
  (((((((9445819 / 134217728 * t - 1931831 / 16777216) * t + 7836301 / 67108864) * t - 16670031 / 134217728) * t + 9562559 / 67108864) * t - 699109 / 4194304) * t + 3355563 / 16777216) * t - 4194303 / 16777216) * t + 5592405 / 16777216.
Definition log_q (t : R) : R := t * (t * t) * log_P t - / 2 * (t * t) + t.
Definition log_N : list Z := [0; 0; 8; -24; -4824; 6408; 353102; -515578; -7693170; 13493062; 50642471; -103904009]%Z.

Lemma log_q_deriv t : -1 < t -> derivable_pt_lim (fun t => ln (1 + t) - log_q t) t (pe log_N t / 134217728 / (1 + t)).
Proof.
  intros H.
  assert (D1 : derivable_pt_lim (fun t => ln (1 + t)) t (/ (1 + t) * (0 + 1))).
  { apply (derivable_pt_lim_comp (fun t => 1 + t) ln). - apply derivable_pt_lim_plus; [apply derivable_pt_lim_const|apply derivable_pt_lim_id]. - apply derivable_pt_lim_ln. lra. }
  set (Q := fun t : R => 9445819 / 134217728 * t ^ 11 - 1931831 / 16777216 * t ^ 10 + 7836301 / 67108864 * t ^ 9 - 16670031 / 134217728 * t ^ 8 + 9562559 / 67108864 * t ^ 7 - 699109 / 4194304 * t ^ 6 + 3355563 / 16777216 * t ^ 5 - 4194303 / 16777216 * t ^ 4 + 5592405 / 16777216 * t ^ 3 - / 2 * t ^ 2 + 1 * t ^ 1).
  assert (M : forall c n x, derivable_pt_lim (fun t => c * t ^ n) x (c * (INR n * x ^ Nat.pred n))). { intros. apply derivable_pt_lim_scal. apply derivable_pt_lim_pow. }
  assert (D2 : derivable_pt_lim Q t (9445819 / 134217728 * (INR 11 * t ^ 10) - 1931831 / 16777216 * (INR 10 * t ^ 9) + 7836301 / 67108864 * (INR 9 * t ^ 8) - 16670031 / 134217728 * (INR 8 * t ^ 7) + 9562559 / 67108864 * (INR 7 * t ^ 6) - 699109 / 4194304 * (INR 6 * t ^ 5) + 3355563 / 16777216 * (INR 5 * t ^ 4) - 4194303 / 16777216 * (INR 4 * t ^ 3) + 5592405 / 16777216 * (INR 3 * t ^ 2) - / 2 * (INR 2 * t ^ 1) + 1 * (INR 1 * t ^ 0))).
  { unfold Q. apply derivable_pt_lim_plus; [|apply (M _ 1%nat)]. repeat (first [apply derivable_pt_lim_plus; [|apply M]|apply derivable_pt_lim_minus; [|apply M]]). apply M. }
  assert (D3 := derivable_pt_lim_minus _ _ _ _ _ D1 D2).
  assert (E : forall x, (fun t => ln (1 + t) - log_q t) x = ((fun t => ln (1 + t)) - Q)%F x). { intros x. unfold minus_fct, Q, log_q, log_P. cbv beta. field. }
  match goal with |- derivable_pt_lim _ _ ?l => match type of D3 with derivable_pt_lim _ _ ?m => replace l with m end end.
  - intros eps He. destruct (D3 eps He) as (d & Hd). exists d. intros h Hh Hl. rewrite !E. apply Hd; auto.
  - cbn [INR]. unfold log_N. cbn [pe]. field. lra.
Qed.
Lemma log_q_ok t : -293 / 1000 <= t <= 41422 / 100000 -> Rabs (ln (1 + t) - log_q t) <= 395 / 1000000000 * Rabs t.
Proof.
  intros H. set (g := fun t => ln (1 + t) - log_q t). change (Rabs (g t) <= 395 / 1000000000 * Rabs t). set (g' := fun t => pe log_N t / 134217728 / (1 + t)).
  assert (G0 : g 0 = 0). { unfold g, log_q. rewrite Rplus_0_r, ln_1. ring. }
  assert (B : forall c, -293 / 1000 <= c <= 41422 / 100000 -> Rabs (g' c) <= 395 / 1000000000).
  { intros c Hc. unfold g', Rdiv at 1. rewrite Rabs_mult, (Rabs_pos_eq (/ (1 + c))) by (left; apply Rinv_0_lt_compat; lra). unfold Rdiv at 1. rewrite Rabs_mult, (Rabs_pos_eq (/ 134217728)) by lra.
    destruct (Rle_or_lt 0 c) as [L|L].
    - assert (K : Rabs (pe log_N c) <= IZR 53) by (apply (check_ok 12 100000 log_N 0 41422); [discriminate|vm_compute; reflexivity|lra]).
      assert (/ (1 + c) <= 1). { apply Rle_trans with (/ 1); [apply Rinv_le|]; lra. } pose proof (Rabs_pos (pe log_N c)).
      assert (Rabs (pe log_N c) * / 134217728 * / (1 + c) <= 395 / 1000000000 * 1). { apply Rmult_le_compat; [| |lra|lra]; [lra|left; apply Rinv_0_lt_compat; lra]. } lra.
    - assert (K : Rabs (pe log_N c) <= IZR 17) by (apply (check_ok 12 1000 log_N (-293) 0); [discriminate|vm_compute; reflexivity|lra]).
      assert (/ (1 + c) <= / (707 / 1000)). { apply Rinv_le; lra. } pose proof (Rabs_pos (pe log_N c)).
      assert (Rabs (pe log_N c) * / 134217728 * / (1 + c) <= 127 / 1000000000 * / (707 / 1000)). { apply Rmult_le_compat; [| |lra|lra]; [lra|left; apply Rinv_0_lt_compat; lra]. } lra. }
  destruct (Rtotal_order t 0) as [L|[->|L]].
  - destruct (MVT_cor2 g g' t 0 L) as (c & E & Hc). { intros c Hc. apply log_q_deriv. lra. } rewrite G0 in E. replace (g t) with (- (g' c * (0 - t))) by lra.
    rewrite Rabs_Ropp, Rabs_mult. replace (Rabs (0 - t)) with (Rabs t) by (rewrite <- Rabs_Ropp; f_equal; ring). apply Rmult_le_compat_r; [apply Rabs_pos|]. apply B. lra.
  - rewrite G0, Rabs_R0. lra.
  - destruct (MVT_cor2 g g' 0 t L) as (c & E & Hc). { intros c Hc. apply log_q_deriv. lra. } rewrite G0 in E. replace (g t) with (g' c * (t - 0)) by lra.
    rewrite Rabs_mult, Rminus_0_r. apply Rmult_le_compat_r; [apply Rabs_pos|]. apply B. lra.
Qed.
Lemma ln_1p_low t : 0 <= t <= 41422 / 100000 -> 8284 / 10000 * t <= ln (1 + t).
Proof.
  intros H. pose proof (log_q_ok t ltac:(lra)) as G. rewrite (Rabs_pos_eq t) in G by lra. apply Rabs_le_inv in G.
  set (p := [1073741824; -6710886400; 4473924000; -3355442400; 2684450400; -2237148800; 1912511800; -1667003100; 1567260200; -1545464800; 944581900]%Z).
  assert (B : Rabs (pe p t) <= IZR 1228092211) by (apply (check_ok 12 100000 p 0 41422); [discriminate|vm_compute; reflexivity|lra]).
  assert (E : log_q t = t * (92 / 100 + pe p t / 13421772800)) by (unfold p, log_q, log_P; cbn [pe]; field).
  apply Rabs_le_inv in B. assert (t * (8285 / 10000) <= t * (92 / 100 + pe p t / 13421772800)) by (apply Rmult_le_compat_l; lra). lra.
Qed.
Lemma ln_1p_abs t : -293 / 1000 <= t <= 41422 / 100000 -> 8284 / 10000 * Rabs t <= Rabs (ln (1 + t)) <= 1415 / 1000 * Rabs t.
Proof.
  intros H. pose proof (log_q_ok t H) as G. apply Rabs_le_inv in G. destruct (Rle_or_lt 0 t) as [L|L].
  - pose proof (ln_1p_low t ltac:(lra)). assert (ln (1 + t) <= t). { pose proof (exp_ineq1_le t). rewrite <- (ln_exp t) at 2. destruct H1; [left; apply ln_increasing; lra|rewrite H1; lra]. }
    rewrite (Rabs_pos_eq t), (Rabs_pos_eq (ln _)) by lra. lra.
  - assert (ln (1 + t) <= t). { pose proof (exp_ineq1_le t). rewrite <- (ln_exp t) at 2. destruct H0; [left; apply ln_increasing; lra|rewrite H0; lra]. }
    rewrite (Rabs_left t), (Rabs_left (ln _)) by lra. split; [lra|].
    assert (Q : ln (1 + t) = - ln (/ (1 + t))) by (rewrite ln_Rinv; lra). rewrite Q.
    assert (ln (/ (1 + t)) <= / (1 + t) - 1). { assert (0 < / (1 + t)) by (apply Rinv_0_lt_compat; lra). pose proof (exp_ineq1_le (/ (1 + t) - 1)). rewrite <- (ln_exp (/ (1 + t) - 1)). destruct H2; [left; apply ln_increasing; lra|rewrite <- H2 at 1; right; f_equal; lra]. }
    assert (/ (1 + t) - 1 = - t * / (1 + t)) by (field; lra).
    assert (/ (1 + t) <= / (707 / 1000)) by (apply Rinv_le; lra). assert (- t * / (1 + t) <= - t * (1415 / 1000)) by (apply Rmult_le_compat_l; lra). lra.
Qed.

(** ** The float evaluation *)
Definition log2_px (x : float) : float :=
    let px := ofU 1032855995 in
    let px := ((px * x) - ofU 1038864824)%b32 in
    let px := ((px * x) + ofU 1039082778)%b32 in
    let px := ((px * x) - ofU 1040080207)%b32 in
    let px := ((px * x) + ofU 1041361343)%b32 in
    let px := ((px * x) - ofU 1042984528)%b32 in
    let px := ((px * x) + ofU 1045221036)%b32 in
    let px := ((px * x) - ofU 1048575996)%b32 in
    ((px * x) + ofU 1051372202)%b32.
Lemma d8_R : finite (ofU 1032855995) /\ valR (ofU 1032855995) = 9445819 / 134217728. Proof. cst. Qed.
Lemma d7_R : finite (ofU 1038864824) /\ valR (ofU 1038864824) = 1931831 / 16777216. Proof. cst. Qed.
Lemma d6_R : finite (ofU 1039082778) /\ valR (ofU 1039082778) = 7836301 / 67108864. Proof. cst. Qed.
Lemma d5_R : finite (ofU 1040080207) /\ valR (ofU 1040080207) = 16670031 / 134217728. Proof. cst. Qed.
Lemma d4_R : finite (ofU 1041361343) /\ valR (ofU 1041361343) = 9562559 / 67108864. Proof. cst. Qed.
Lemma d3_R : finite (ofU 1042984528) /\ valR (ofU 1042984528) = 699109 / 4194304. Proof. cst. Qed.
Lemma d2_R : finite (ofU 1045221036) /\ valR (ofU 1045221036) = 3355563 / 16777216. Proof. cst. Qed.
Lemma d1_R : finite (ofU 1048575996) /\ valR (ofU 1048575996) = 4194303 / 16777216. Proof. cst. Qed.
Lemma d0_R : finite (ofU 1051372202) /\ valR (ofU 1051372202) = 5592405 / 16777216. Proof. cst. Qed.
Lemma log2_px_ok x : finite x -> Rabs (valR x) <= 41422 / 100000 -> app (log2_px x) (log_P (valR x)) (58 / 1000000000) /\ Rabs (log_P (valR x)) <= 4898 / 10000.
Proof.
  intros Ff HF. destruct d8_R as (F8 & V8). destruct d7_R as (F7 & V7). destruct d6_R as (F6 & V6). destruct d5_R as (F5 & V5). destruct d4_R as (F4 & V4). destruct d3_R as (F3 & V3). destruct d2_R as (F2 & V2). destruct d1_R as (F1 & V1). destruct d0_R as (F0 & V0).
  unfold log2_px, log_P.
  assert (A8 : app (ofU 1032855995) (9445819 / 134217728) 0) by (apply app_const; auto).
  assert (B8 : Rabs (9445819 / 134217728) <= 704 / 10000) by (rewrite Rabs_pos_eq; lra).
  destruct (horner_m _ _ _ _ x _ (41422 / 100000) _ _ (1444 / 10000) (106 / 10000000000) A8 B8 Ff eq_refl HF F7 V7) as (A7 & B7); [num..|].
  destruct (horner _ _ _ _ x _ (41422 / 100000) _ _ (1767 / 10000) (187 / 10000000000) A7 B7 Ff eq_refl HF F6 V6) as (A6 & B6); [num..|].
  destruct (horner_m _ _ _ _ x _ (41422 / 100000) _ _ (1975 / 10000) (241 / 10000000000) A6 B6 Ff eq_refl HF F5 V5) as (A5 & B5); [num..|].
  destruct (horner _ _ _ _ x _ (41422 / 100000) _ _ (2244 / 10000) (285 / 10000000000) A5 B5 Ff eq_refl HF F4 V4) as (A4 & B4); [num..|].
  destruct (horner_m _ _ _ _ x _ (41422 / 100000) _ _ (2597 / 10000) (330 / 10000000000) A4 B4 Ff eq_refl HF F3 V3) as (A3 & B3); [num..|].
  destruct (horner _ _ _ _ x _ (41422 / 100000) _ _ (3077 / 10000) (386 / 10000000000) A3 B3 Ff eq_refl HF F2 V2) as (A2 & B2); [num..|].
  destruct (horner_m _ _ _ _ x _ (41422 / 100000) _ _ (3775 / 10000) (463 / 10000000000) A2 B2 Ff eq_refl HF F1 V1) as (A1 & B1); [num..|].
  destruct (horner _ _ _ _ x _ (41422 / 100000) _ _ (4898 / 10000) (580 / 10000000000) A1 B1 Ff eq_refl HF F0 V0) as (A0 & B0); [num..|].
  split; [apply app_le with (1 := A0); lra|exact B0].
Qed.
Definition log2_z (x : float) : float := let z := (x * x)%b32 in (((x * z * log2_px x) - (flit 1 2 * z) + x) * fLOG2E)%b32.
Ltac numt := unfold huge, tiny in *; change u32 with (/ 16777216) in *; nra.
Lemma zero_mul x y : finite x -> finite y -> valR x = 0 \/ valR y = 0 -> finite (x * y)%b32 /\ valR (x * y)%b32 = 0.
Proof.
  intros Fx Fy H. assert (E : valR x * valR y = 0) by (destruct H as [-> | ->]; ring). assert (BG : 1000 <= big) by apply big1.
  destruct (mult_R x y Fx Fy) as (F & V). { rewrite E, Rabs_R0. lra. } split; auto. rewrite V, E. apply rnd_0.
Qed.
Lemma log2_z_0 x : finite x -> valR x = 0 -> finite (log2_z x) /\ valR (log2_z x) = 0.
Proof.
  intros F Z. destruct (log2_px_ok x F ltac:(rewrite Z, Rabs_R0; lra)) as ((FP & _) & _). destruct log2e_R as (FL & VL). destruct flit_half as (Fh & Vh). assert (BG : 1000 <= big) by apply big1.
  destruct (zero_mul x x F F (or_introl Z)) as (F1 & V1). destruct (zero_mul x _ F F1 (or_introl Z)) as (F2 & V2). destruct (zero_mul _ _ F2 FP (or_introl V2)) as (F3 & V3). destruct (zero_mul _ _ Fh F1 (or_intror V1)) as (F4 & V4).
  destruct (minus_R _ _ F3 F4) as (F5 & V5). { rewrite V3, V4, Rminus_0_r, Rabs_R0. lra. } rewrite V3, V4, Rminus_0_r in V5. rewrite rnd_0 in V5.
  destruct (plus_R _ x F5 F) as (F6 & V6). { rewrite V5, Z, Rplus_0_r, Rabs_R0. lra. } rewrite V5, Z, Rplus_0_r in V6. rewrite rnd_0 in V6.
  unfold log2_z. cbv zeta. apply zero_mul; auto.
Qed.
Lemma log2_z_ok x : finite x -> -293 / 1000 <= valR x <= 41422 / 100000 -> valR x = 0 \/ / 16777216 <= Rabs (valR x) -> 
  app (log2_z x) (ln (1 + valR x) / ln 2) (777 / 1000000000 * Rabs (ln (1 + valR x) / ln 2)).
Proof.
  intros F H Hz. assert (HA : Rabs (valR x) <= 41422 / 100000) by (apply Rabs_le; lra). destruct (log2_px_ok x F HA) as (AP & BP).
  destruct (log2e_R) as (FL & VL). destruct flit_half as (Fh & Vh).
  set (T := valR x) in *. 
  assert (Ax : app x T 0) by (apply app_const; auto).
  assert (Q : app (log2_z x) (log_q T * (12102203 / 8388608)) (323 / 1000000000 * Rabs T) /\ Rabs (log_q T) <= 1292 / 1000 * Rabs T).
  { destruct Hz as [Z0|Nz].
    - destruct (log2_z_0 x F Z0) as (Fz & Vz). split.
      + split; auto. rewrite Vz. replace (log_q T) with 0 by (rewrite Z0; unfold log_q; ring). rewrite Rmult_0_l, Rminus_0_r, Z0, Rabs_R0. lra.
      + replace (log_q T) with 0 by (rewrite Z0; unfold log_q; ring). rewrite Z0, Rabs_R0. lra.
    - set (tau := Rabs T) in *. assert (HT : 0 < tau) by lra. assert (BT : Rabs T <= tau) by (unfold tau; lra).
      assert (tiny <= tau * / 100000000000000000000000000000). { unfold tiny. lra. }
      assert (A1 : app (x * x)%b32 (T * T) (25 / 1000000000 * tau)). { apply app_mul with 0 (41422 / 100000) 0 tau; auto; numt. }
      assert (B1 : Rabs (T * T) <= 41422 / 100000 * tau). { rewrite Rabs_mult. fold tau. apply Rmult_le_compat_r; lra. }
      assert (A2 : app (x * (x * x))%b32 (T * (T * T)) (21 / 1000000000 * tau)). { apply app_mul with 0 (41422 / 100000) (25 / 1000000000 * tau) (41422 / 100000 * tau); auto; numt. }
      assert (B2 : Rabs (T * (T * T)) <= 17158 / 100000 * tau). { rewrite Rabs_mult. fold tau. nra. }
      assert (A3 : app (x * (x * x) * log2_px x)%b32 (T * (T * T) * log_P T) (256 / 10000000000 * tau)). { apply app_mul with (21 / 1000000000 * tau) (17158 / 100000 * tau) (58 / 1000000000) (4898 / 10000); auto; numt. }
      assert (B3 : Rabs (T * (T * T) * log_P T) <= 8405 / 100000 * tau). { rewrite Rabs_mult. pose proof (Rabs_pos (log_P T)). pose proof (Rabs_pos (T * (T * T))). nra. }
      assert (Ah : app (flit 1 2) (/ 2) 0) by (apply app_const; auto; lra).
      assert (A4 : app (flit 1 2 * (x * x))%b32 (/ 2 * (T * T)) (252 / 10000000000 * tau)). { apply app_mul with 0 (/ 2) (25 / 1000000000 * tau) (41422 / 100000 * tau); auto; [rewrite Rabs_pos_eq; lra|numt|numt]. }
      assert (B4 : Rabs (/ 2 * (T * T)) <= 20711 / 100000 * tau). { rewrite Rabs_mult, (Rabs_pos_eq (/ 2)) by lra. lra. }
      assert (B5 : Rabs (T * (T * T) * log_P T - / 2 * (T * T)) <= 2912 / 10000 * tau). { eapply Rle_trans; [apply Rabs_triang|]. rewrite Rabs_Ropp. lra. }
      assert (A5 : app ((x * (x * x) * log2_px x) - (flit 1 2 * (x * x)))%b32 (T * (T * T) * log_P T - / 2 * (T * T)) (683 / 10000000000 * tau)). { apply app_sub with (256 / 10000000000 * tau) (252 / 10000000000 * tau) (2912 / 10000 * tau); auto; numt. }
      assert (B6 : Rabs (log_q T) <= 1292 / 1000 * tau). { unfold log_q. eapply Rle_trans; [apply Rabs_triang|]. fold tau. lra. }
      assert (A6 : app ((x * (x * x) * log2_px x) - (flit 1 2 * (x * x)) + x)%b32 (log_q T) (146 / 1000000000 * tau)). { apply app_add with (683 / 10000000000 * tau) 0 (1292 / 1000 * tau); auto; numt. }
      split; [|exact B6].
      apply app_mul with (146 / 1000000000 * tau) (1292 / 1000 * tau) 0 (14427 / 10000); auto; [apply app_const; auto|rewrite Rabs_pos_eq; lra|numt|numt]. }
  destruct Q as ((FZ & Q) & BQ). split; auto. pose proof (log_q_ok T H) as G. pose proof (ln_1p_abs T H) as (LN & _). pose proof log2e_err as LE.
  assert (P2 : 14426 / 10000 <= / ln 2 <= 14428 / 10000) by (apply Rabs_le_inv in LE; lra).
  replace (ln (1 + T) / ln 2) with (ln (1 + T) * / ln 2) by reflexivity. rewrite (Rabs_mult (ln (1 + T))), (Rabs_pos_eq (/ ln 2)) by lra. generalize dependent (valR (log2_z x)). intros v Q. clear AP BP Ax FL VL Fh Vh. generalize dependent (ln (1 + T)). intros L G LN. 
  generalize dependent (log_q T). intros q Q BQ G. generalize dependent (/ ln 2). intros k LE P2. generalize dependent (12102203 / 8388608). intros c. intros.
  replace (v - L * k) with ((v - q * c) + q * (c - k) + (q - L) * k) by ring.
  eapply Rle_trans; [apply Rabs_triang|]. eapply Rle_trans; [apply Rplus_le_compat_r, Rabs_triang|]. rewrite (Rabs_mult q), (Rabs_mult (q - L)), (Rabs_pos_eq k) by lra.
  pose proof (Rabs_pos T). pose proof (Rabs_pos q). pose proof (Rabs_pos (c - k)). rewrite (Rabs_minus_sym q L).
  assert (Rabs q * Rabs (c - k) <= 1292 / 1000 * Rabs T * (23 / 1000000000)) by (apply Rmult_le_compat; auto).
  assert (Rabs (L - q) * k <= 395 / 1000000000 * Rabs T * (14428 / 10000)) by (apply Rmult_le_compat; [apply Rabs_pos|lra|lra|lra]).
  assert (8284 / 10000 * Rabs T * (14426 / 10000) <= Rabs L * k) by (apply Rmult_le_compat; lra). lra.
Qed.

(** ** Reduction *)
Lemma ofZ_R n : (Z.abs n < 2 ^ 24)%Z -> finite (b32_ofZ n) /\ valR (b32_ofZ n) = IZR n.
Proof.
  intros H. assert (E : F2R (Float radix2 n 0) = IZR n) by (unfold F2R; cbn; ring).
  pose proof (binary_normalize_correct 24 128 eq_refl eq_refl mode_NE n 0 false) as C. fold (b32_ofZ n) in C.
  assert (R : round radix2 (SpecFloat.fexp 24 128) (round_mode mode_NE) (F2R (Float radix2 n 0)) = IZR n).
  { rewrite E. apply round_generic; [apply valid_rnd_N|]. pose proof (fmt_intro n 0 H ltac:(lia)) as K. change (bpow radix2 0) with 1 in K. rewrite Rmult_1_r in K. exact K. }
  rewrite R in C. rewrite Rlt_bool_true in C. - destruct C as (V & F & _). split; auto.
  - rewrite <- abs_IZR. apply Rlt_le_trans with (IZR (2 ^ 24)); [apply IZR_lt; auto|]. change (bpow radix2 128) with (IZR (2 ^ 128)). apply IZR_le. vm_compute. discriminate.
Qed.
Definition lb (x : R) : R := ln x / ln 2.
Lemma log2_core E M : (1 <= E <= 254)%Z -> (0 <= M < T23)%Z -> exists t ip, log2 (pat false E M) = (b32_ofZ ip + log2_z t)%b32 /\ finite t /\ (-126 <= ip <= 128)%Z /\
   -293 / 1000 <= valR t <= 41422 / 100000 /\ (valR t = 0 \/ / 16777216 <= Rabs (valR t)) /\ lb (mag E M) = IZR ip + lb (1 + valR t) /\ (M = 0%Z -> valR t = 0).
Proof.
  intros HE HM. set (x := pat false E M).
  assert (Fx : finite x) by (unfold x; rewrite pat_finite by (unfold T23 in *; lia); destruct (Z.eqb_spec E 255); auto; lia).
  assert (Px : 0 < valR x). { unfold x. rewrite pat_R, mag_frac by (unfold T23 in *; lia). cbn [sgnR]. pose proof (frac_range M HM). pose proof (bp (E - 127)). apply Rmult_lt_0_compat; [lra|]. apply Rmult_lt_0_compat; lra. }
  assert (V0 : finite (flit 0 1) /\ valR (flit 0 1) = 0) by cst. destruct V0 as (F0 & V0).
  unfold log2. cbv zeta. destruct (lt_dec x (flit 0 1) Fx F0) as [(L & B)|(L & B)]; [lra|]. rewrite L.
  assert (NZ : isZero x = false). { destruct (isZero x) eqn:Z; auto. apply isZero_ok in Z. destruct Z as (_ & Z). lra. } rewrite NZ.
  assert (AX : asI x = (E * T23 + M)%Z) by (unfold x; rewrite asI_pat by lia; cbn [sbit]; lia). rewrite !AX.
  assert (E1 : Z.land (E * T23 + M) 8388607 = M). { change 8388607%Z with (2 ^ 23 - 1)%Z. rewrite land_low by lia. change (2 ^ 23)%Z with T23. symmetry. apply (Z.mod_unique _ _ E); lia. }
  assert (E2 : Z.shiftr (Z.land (E * T23 + M) 2139095040) 23 = E). { rewrite Z.shiftr_land. change (Z.shiftr 2139095040 23) with 255%Z. apply (field false); lia. }
  assert (E3 : Z.lor M 1065353216 = (127 * T23 + M)%Z). { rewrite Z.lor_comm. apply (lor_field false 127 M); lia. }
  rewrite E1, E2, E3. assert (E4 : ofI (127 * T23 + M) = pat false 127 M). { unfold ofI. rewrite w32_id by (unfold T23, M32 in *; lia). reflexivity. } rewrite E4.
  set (y := pat false 127 M). pose proof (frac_range M HM) as HF.
  assert (Fy : finite y) by (unfold y; rewrite pat_finite by (unfold T23 in *; lia); reflexivity).
  assert (Vy : valR y = 1 + frac M). { unfold y. rewrite pat_R, mag_frac by (unfold T23 in *; lia). cbn [sgnR]. change (bpow radix2 (127 - 127)) with 1. ring. }
  assert (VS : finite fSQRT2 /\ valR fSQRT2 = 11863283 / 8388608) by cst. destruct VS as (FS & VS). destruct one_R as (F1 & V1). destruct flit_half as (Fh & Vh). assert (BG : 1000 <= big) by apply big1.
  assert (LX : lb (mag E M) = IZR (E - 127) + lb (1 + frac M)). { unfold lb. rewrite mag_frac by lia. rewrite ln_mult by (try apply bp; lra). rewrite bpow_exp, ln_exp. change (IZR radix2) with 2. pose proof ln2_bnd. field. lra. }
  destruct (lt_dec fSQRT2 y FS Fy) as [(L2 & B2)|(L2 & B2)]; rewrite L2.
  - destruct (mult_R y (flit 1 2) Fy Fh) as (Fz & Vz). { rewrite Vy, Vh. apply Rabs_le. lra. }
    rewrite Vy, Vh in Vz. replace ((1 + frac M) * (1 / 2)) with (IZR (T23 + M) * bpow radix2 (-24)) in Vz.
    2:{ unfold frac. change (bpow radix2 (-24)) with (/ 16777216). rewrite plus_IZR. unfold T23. field. }
    rewrite rnd_fmt in Vz by (apply fmt_intro; [unfold T23 in *; lia|lia]).
    set (z := (y * flit 1 2)%b32) in *. change (bpow radix2 (-24)) with (/ 16777216) in Vz.
    assert (Vz' : valR z = (1 + frac M) / 2). { rewrite Vz. unfold frac. rewrite plus_IZR. unfold T23. field. }
    destruct (minus_R z (flit 1 1) Fz F1) as (Ft & Vt). { rewrite Vz', V1. apply Rabs_le. lra. }
    rewrite V1, Vz in Vt. replace (IZR (T23 + M) * / 16777216 - 1) with (IZR (M - T23) * bpow radix2 (-24)) in Vt.
    2:{ change (bpow radix2 (-24)) with (/ 16777216). rewrite minus_IZR, plus_IZR. unfold T23. field. }
    rewrite rnd_fmt in Vt by (apply fmt_intro; [unfold T23 in *; lia|lia]). change (bpow radix2 (-24)) with (/ 16777216) in Vt.
    assert (Vt' : valR (z - flit 1 1)%b32 = (1 + frac M) / 2 - 1). { rewrite Vt. unfold frac. rewrite minus_IZR. unfold T23. field. }
    exists (z - flit 1 1)%b32, (E - 127 + 1)%Z. split; [unfold log2_z, log2_px; cbv beta iota zeta; reflexivity|]. split; [exact Ft|]. split; [lia|].
    rewrite VS, Vy in B2. split; [lra|]. split.
    + right. rewrite Vt, Rabs_mult, (Rabs_pos_eq (/ 16777216)) by lra. rewrite <- abs_IZR. assert (1 <= IZR (Z.abs (M - T23))) by (apply IZR_le; lia). lra.
    + split.
      * rewrite LX, Vt'. replace (1 + ((1 + frac M) / 2 - 1)) with ((1 + frac M) * / 2) by field. unfold lb. rewrite ln_mult, ln_Rinv by lra. rewrite (plus_IZR (E - 127) 1). pose proof ln2_bnd. field. lra.
      * intros ->. exfalso. unfold frac in B2. cbn in B2. lra.
  - destruct (minus_R y (flit 1 1) Fy F1) as (Ft & Vt). { rewrite Vy, V1. apply Rabs_le. lra. }
    rewrite V1, Vy in Vt. replace (1 + frac M - 1) with (IZR M * bpow radix2 (-23)) in Vt.
    2:{ unfold frac. change (bpow radix2 (-23)) with (/ 8388608). unfold T23. field. }
    rewrite rnd_fmt in Vt by (apply fmt_intro; [unfold T23 in *; lia|lia]). change (bpow radix2 (-23)) with (/ 8388608) in Vt.
    assert (Vt' : valR (y - flit 1 1)%b32 = frac M). { rewrite Vt. unfold frac. unfold T23. field. }
    exists (y - flit 1 1)%b32, (E - 127)%Z. split; [unfold log2_z, log2_px; cbv beta iota zeta; reflexivity|]. split; [exact Ft|]. split; [lia|].
    rewrite VS, Vy in B2. split; [lra|]. split.
    + destruct (Z.eq_dec M 0) as [->|NM]; [left; rewrite Vt; ring|]. right. rewrite Vt, Rabs_mult, (Rabs_pos_eq (/ 8388608)) by lra. rewrite <- abs_IZR. assert (1 <= IZR (Z.abs M)) by (apply IZR_le; lia). lra.
    + split; [rewrite LX, Vt'; reflexivity|]. intros ->. rewrite Vt. ring.
Qed.
Lemma lb_half t : -293 / 1000 <= t <= 41422 / 100000 -> Rabs (lb (1 + t)) <= 5004 / 10000.
Proof.
  intros H. pose proof ln2_bnd as LB. assert (D : 2 * ln (1 + t) = ln ((1 + t) * (1 + t))) by (rewrite ln_mult by lra; ring).
  assert (U : ln ((1 + t) * (1 + t)) <= ln 2 + 5 / 10000).
  { apply Rle_trans with (ln (2 * exp (5 / 10000))); [|rewrite ln_mult, ln_exp by (try apply exp_pos; lra); lra]. apply Rcomplements.ln_le; [nra|]. pose proof (exp_ineq1_le (5 / 10000)). nra. }
  assert (V : - (ln 2 + 5 / 10000) <= ln ((1 + t) * (1 + t))).
  { replace (- (ln 2 + 5 / 10000)) with (ln (/ 2 * exp (- (5 / 10000)))) by (rewrite ln_mult, ln_exp, ln_Rinv by (try apply exp_pos; lra); lra).
    apply Rcomplements.ln_le; [apply Rmult_lt_0_compat; [lra|apply exp_pos]|]. rewrite exp_Ropp. pose proof (exp_ineq1_le (5 / 10000)) as X. assert (/ exp (5 / 10000) <= / (1 + 5 / 10000)) by (apply Rinv_le; lra). nra. }
  unfold lb, Rdiv. rewrite Rabs_mult, (Rabs_pos_eq (/ ln 2)) by (left; apply Rinv_0_lt_compat; lra). apply Rmult_le_reg_r with (ln 2); [lra|]. rewrite Rmult_assoc, Rinv_l, Rmult_1_r by lra.
  apply Rabs_le. lra.
Qed.
Lemma log2_acc x : is_normal x -> 0 < valR x -> finite (log2 x) /\ Rabs (valR (log2 x) - lb (valR x)) <= 839 / 1000000000 * Rabs (lb (valR x)) /\ (lb (valR x) = 0 \/ / 100000000 <= Rabs (lb (valR x))).
Proof.
  intros N P. destruct (normal_pat x N) as (s & E & M & -> & HE & HM). destruct s.
  { exfalso. rewrite pat_R in P by lia. cbn [sgnR] in P. pose proof (mag_normal E M ltac:(lia) ltac:(lia)). pose proof (bp (-126)). lra. }
  assert (VX : valR (pat false E M) = mag E M) by (rewrite pat_R by lia; cbn [sgnR]; ring). rewrite VX. clear VX N P.
  destruct (log2_core E M ltac:(lia) HM) as (t & ip & -> & Ft & Hip & Ht & Hz & -> & _).
  destruct (log2_z_ok t Ft Ht Hz) as (Fz & Vz). pose proof (lb_half (valR t) Ht) as LH. pose proof (ln_1p_abs (valR t) Ht) as (LL & _).
  destruct (ofZ_R ip ltac:(lia)) as (Fi & Vi). fold (lb (1 + valR t)) in Vz.
  assert (LL2 : valR t = 0 \/ / 100000000 <= Rabs (lb (1 + valR t))). { destruct Hz as [Z|Z]; [left; auto|right]. unfold lb, Rdiv. pose proof ln2_bnd. rewrite Rabs_mult, (Rabs_pos_eq (/ ln 2)) by (left; apply Rinv_0_lt_compat; lra).
    assert (1 <= / ln 2). { rewrite <- Rinv_1 at 1. apply Rinv_le; lra. } assert (8284 / 10000 * / 16777216 * 1 <= Rabs (ln (1 + valR t)) * / ln 2) by (apply Rmult_le_compat; lra). lra. }
  assert (LZ : valR t = 0 -> lb (1 + valR t) = 0). { intros ->. unfold lb. rewrite Rplus_0_r, ln_1. unfold Rdiv. ring. }
  set (l := lb (1 + valR t)) in *. set (z := log2_z t) in *.
  assert (Lip : ip = 0%Z \/ 1 <= Rabs (IZR ip)). { destruct (Z.eq_dec ip 0); [left; auto|right]. rewrite <- abs_IZR. apply IZR_le. lia. }
  assert (Rl : Rabs l <= 1002 / 1000 * Rabs (IZR ip + l)).
  { destruct Lip as [->|Lip]; [rewrite Rplus_0_l; pose proof (Rabs_pos l); lra|]. pose proof (Rabs_triang_inv (IZR ip) (- l)) as T. rewrite Rabs_Ropp in T. replace (IZR ip - - l) with (IZR ip + l) in T by ring. lra. }
  assert (Bip : Rabs (IZR ip) <= 128) by (rewrite <- abs_IZR; apply IZR_le; lia). assert (BG : 1000 <= big) by apply big1.
  assert (Bz : Rabs (valR z) <= 1). { replace (valR z) with (l + (valR z - l)) by ring. eapply Rle_trans; [apply Rabs_triang|]. lra. }
  destruct (plus_R (b32_ofZ ip) z Fi Fz) as (F & V). { rewrite Vi. eapply Rle_trans; [apply Rabs_triang|]. lra. } rewrite Vi in V.
  split; [exact F|]. split.
  - rewrite V. pose proof (plus_rel (b32_ofZ ip) z) as PR. rewrite Vi in PR. set (r := rnd (IZR ip + valR z)) in *. change u32 with (/ 16777216) in PR.
    replace (r - (IZR ip + l)) with ((r - (IZR ip + valR z)) + (valR z - l)) by ring. eapply Rle_trans; [apply Rabs_triang|].
    assert (Rabs (IZR ip + valR z) <= Rabs (IZR ip + l) + Rabs (valR z - l)). { replace (IZR ip + valR z) with ((IZR ip + l) + (valR z - l)) by ring. apply Rabs_triang. }
    pose proof (Rabs_pos (IZR ip + l)). lra.
  - destruct Lip as [->|Lip].
    + rewrite Rplus_0_l. destruct LL2 as [Z|Z]; [left; auto|right; auto].
    + right. pose proof (Rabs_triang_inv (IZR ip) (- l)) as T. rewrite Rabs_Ropp in T. replace (IZR ip - - l) with (IZR ip + l) in T by ring. lra.
Qed.
Lemma log2_accurate x : is_normal x -> 0 < valR x -> finite (log2 x) /\ Rabs (valR (log2 x) - ln (valR x) / ln 2) <= bpow radix2 (-20) * Rabs (ln (valR x) / ln 2).
Proof.
  intros N P. destruct (log2_acc x N P) as (F & A & _). split; [exact F|]. change (bpow radix2 (-20)) with (/ 1048576). fold (lb (valR x)). pose proof (Rabs_pos (lb (valR x))). lra.
Qed.
(** powers of two are exact *)
Lemma log2_power x k : finite x -> valR x = bpow radix2 k -> (-126 <= k <= 127)%Z -> finite (log2 x) /\ valR (log2 x) = IZR k.
Proof.
  intros Fx Vx Hk. destruct (pow_pat k Hk) as (_ & Fp & Vp).
  assert (EX : x = pat false (k + 127) 0). { pose proof (bp k). apply (B2R_inj 24 128); [| |congruence]; [destruct x|destruct (pat false (k + 127) 0)]; try discriminate; auto; cbn in *; lra. }
  rewrite EX. destruct (log2_core (k + 127) 0 ltac:(lia) ltac:(unfold T23; lia)) as (t & ip & -> & Ft & Hip & Ht & Hz & LE & T0). specialize (T0 eq_refl).
  destruct (log2_z_0 t Ft T0) as (Fz & Vz). destruct (ofZ_R ip ltac:(lia)) as (Fi & Vi). assert (BG : 1000 <= big) by apply big1.
  destruct (plus_R (b32_ofZ ip) (log2_z t) Fi Fz) as (F & V). { rewrite Vi, Vz, Rplus_0_r. rewrite <- abs_IZR. apply Rle_trans with 128; [apply IZR_le; lia|lra]. }
  split; [exact F|]. rewrite V, Vi, Vz, Rplus_0_r. rewrite rnd_fmt. 2:{ pose proof (fmt_intro ip 0 ltac:(lia) ltac:(lia)) as K. change (bpow radix2 0) with 1 in K. rewrite Rmult_1_r in K. exact K. }
  rewrite T0, Rplus_0_r in LE. unfold lb in LE. rewrite ln_1 in LE. unfold Rdiv in LE. rewrite Rmult_0_l, Rplus_0_r in LE. rewrite <- LE.
  assert (MB : mag (k + 127) 0 = bpow radix2 k) by (rewrite <- Vp, pat_R by (unfold T23; lia); cbn [sgnR]; ring). rewrite MB, bpow_exp, ln_exp. change (IZR radix2) with 2. pose proof ln2_bnd. field. lra.
Qed.
Lemma log2_special x : (is_zero x -> log2 x = B754_infinity 24 128 true) /\ (is_nan 24 128 x = false -> ext32 x < 0 -> is_nan 24 128 (log2 x) = true).
Proof.
  split.
  - intros (F & V). destruct x as [s| | |s m e H]; try discriminate. + destruct s; reflexivity. + exfalso. cbn in V. apply eq_0_F2R in V. cbn in V. destruct s; discriminate.
  - intros N H. destruct x as [s|s|s pl|s m e H0]; try discriminate. + cbn in H. lra. + cbn [ext32] in H. destruct s; [reflexivity|]. pose proof (bp 128). lra.
    + rewrite ext32_finite in H by reflexivity. unfold log2. assert (b32_lt (B754_finite 24 128 s m e H0) (flit 0 1) = true) as ->. { destruct (lt_dec (B754_finite 24 128 s m e H0) (flit 0 1) eq_refl eq_refl) as [(E & _)|(_ & B)]; auto. exfalso. assert (valR (flit 0 1) = 0) by (vm_compute; lra). lra. } reflexivity.
Qed.
