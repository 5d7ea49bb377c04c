(** The natural logarithm of Q16.16 numbers: Newton's iteration. *)
From Coq Require Import ZArith Reals Lra Lia Bool.
From Flocq Require Import Raux.
From Verif Require Import Base BaseLemmas Fp16_Model Fp16_Spec Fp16_Proofs Fp16_Proofs2 Fp16Fun_Spec Fp16Fun_Proofs Fp16Fun_Proofs2 Expint_Proofs3 Fp16Fun_Proofs3 Fp16Fun_Proofs4 Fp16Fun_Proofs5 Fp16Fun_Proofs6 Fp16Log_Proofs.
Open Scope R_scope.
Local Notation expR := Rtrigo_def.exp.

(** ** The exponential, relative error *)
Lemma exp_rel g : (-300 <= g <= 450000)%Z -> exists e, Fp16_Model.exp g = Ok e /\ Rabs (fxR e - expR (fxR g)) <= 0.00095 * expR (fxR g).
Proof.
  intros H. destruct (Z_lt_ge_dec g 0) as [N|P].
  - destruct (exp_neg_ok (- g) ltac:(lia)) as (e & E & V). rewrite Z.opp_involutive in E. exists e. split; [exact E|]. rewrite fx_opp, Ropp_involutive in V. pose proof (exp_ineq1_le (fxR g)) as X. pose proof (fx_pos_le (-300) g ltac:(lia)) as G. unfold fxR in G at 1. lra.
  - destruct (exp_nonneg_ok g ltac:(lia)) as (e & E & V). exists e. split; [exact E|]. destruct (exp_range g ltac:(lia)) as (L & _). unfold ulp16 in V. lra.
Qed.
(** ** One step; [D] is the error of the guess *)
Lemma step_ok x g : (65536 <= x <= 6553600)%Z -> (-300 <= g <= 450000)%Z -> let D := fxR g - ln (fxR x) in
  exists e d, Fp16_Model.exp g = Ok e /\ i32 (x - e) = Ok (x - e)%Z /\ div (x - e) e = Ok d /\ Rabs (fxR d - (expR (- D) - 1)) <= 0.000952 * expR (- D) + / 131072.
Proof.
  intros Hx Hg D. destruct (exp_rel g Hg) as (e & E & V). exists e. assert (X : 1 <= fxR x <= 100) by (split; [pose proof (fx_pos_le 65536 x ltac:(lia))|pose proof (fx_pos_le x 6553600 ltac:(lia))]; unfold fxR in *; lra).
  set (G := expR (fxR g)) in *. assert (GP : 0 < G) by apply exp_pos. assert (G1 : 0.99 <= G). { unfold G. pose proof (exp_ineq1_le (fxR g)). pose proof (fx_pos_le (-300) g ltac:(lia)) as K. unfold fxR in K at 1. lra. } assert (G2 : G <= 1100).
  { unfold G. apply Rle_trans with (expR 7); [apply exp_mono; pose proof (fx_pos_le g 450000 ltac:(lia)) as K; unfold fxR in K at 2; lra|]. replace (expR 7) with (expR 1 ^ 7). 2:{ rewrite <- Rpower_pow by apply exp_pos. unfold Rpower. rewrite ln_exp. f_equal. rewrite INR_IZR_INZ. simpl. ring. } pose proof exp_one as O. apply Rabs_le_inv in O. unfold fxR, ulp16 in O. apply Rle_trans with (2.71831 ^ 7); [|lra]. apply pow_incr. split; [left; apply exp_pos|lra]. }
  apply Rabs_le_inv in V. assert (F : 0.98 <= fxR e <= 1102) by lra.
  assert (ED : expR (- D) = fxR x / G). { unfold D. replace (- (fxR g - ln (fxR x))) with (ln (fxR x) + - fxR g) by ring. rewrite exp_plus, exp_ln, exp_Ropp by lra. reflexivity. } rewrite ED.
  assert (S1 : i32 (x - e) = Ok (x - e)%Z) by (apply fx_i32; rewrite fx_sub; apply Rabs_le; lra).
  assert (Q : Rabs (fxR (x - e) / fxR e - (fxR x / G - 1)) <= 0.000952 * (fxR x / G)).
  { rewrite fx_sub. replace ((fxR x - fxR e) / fxR e - (fxR x / G - 1)) with (fxR x / G * ((G - fxR e) / fxR e)) by (field; lra). assert (P : 0 <= fxR x / G) by (apply Rcomplements.Rle_div_r; lra). rewrite Rabs_mult, (Rabs_pos_eq _ P), Rmult_comm. apply Rmult_le_compat_r; [exact P|]. apply Rabs_le. split; [apply Rcomplements.Rle_div_r|apply Rcomplements.Rle_div_l]; lra. }
  assert (XG : fxR x / G <= 102) by (apply Rcomplements.Rle_div_l; lra). assert (XG0 : 0 <= fxR x / G) by (apply Rcomplements.Rle_div_r; lra).
  assert (Er : (0 < e)%Z) by (apply lt_IZR; unfold fxR in F; lra). pose proof Q as Q'. apply Rabs_le_inv in Q'.
  destruct (div_fx (x - e) e) as (d & Ed & Vd & _).
  - apply fx_raw. rewrite fx_sub. apply Rabs_le. lra.
  - apply fx_raw. apply Rabs_le. lra.
  - lia.
  - intros Z0. apply (f_equal fxR) in Z0. rewrite fx_sub in Z0. change sentinel with (-2147483648)%Z in Z0. replace (fxR (-2147483648)) with (-32768) in Z0 by (unfold fxR; lra). lra.
  - unfold sentinel. lia.
  - apply Rabs_le. lra.
  - exists d. split; [exact E|]. split; [exact S1|]. split; [exact Ed|]. replace (fxR d - (fxR x / G - 1)) with ((fxR d - fxR (x - e) / fxR e) + (fxR (x - e) / fxR e - (fxR x / G - 1))) by ring. eapply Rle_trans; [apply Rabs_triang|]. lra.
Qed.
(** D - 1 + e^-D *)
Lemma f_low D : 0 <= D - 1 + expR (- D). Proof. pose proof (exp_ineq1_le (- D)). lra. Qed.
Lemma exp_sq t : 0 <= t -> expR (- t) <= 1 - t + t * t / 2.
Proof.
  intros H. destruct H as [H| <-]; [|rewrite Ropp_0, exp_0; lra].
  assert (L : 1 + t + t * t / 2 <= expR t). { eapply Rle_trans; [|apply (Sm_exp t 3 H)]. cbn [Sm]. unfold T. destruct PolyBound.facts as (-> & -> & -> & _). rewrite pow_O, pow_1. replace (t ^ 2) with (t * t) by ring. lra. }
  set (q := 1 - t + t * t / 2). assert (Q : 0 < q) by (unfold q; nra). rewrite exp_Ropp, <- (Rinv_inv q). apply Rinv_le_contravar; [apply Rinv_0_lt_compat, Q|]. eapply Rle_trans; [|exact L]. apply (Rmult_le_reg_r q); [exact Q|]. rewrite Rinv_l by lra. replace ((1 + t + t * t / 2) * q) with (1 + (t * t / 2) * (t * t / 2)) by (unfold q; field). pose proof (Rle_0_sqr (t * t / 2)) as K. unfold Rsqr in K. lra.
Qed.
Lemma f_high D b : -0.004 <= D <= b -> D - 1 + expR (- D) <= b * b / 2 + 0.000009 \/ D < 0 /\ D - 1 + expR (- D) <= 0.000009.
Proof.
  intros H. destruct (Rle_dec 0 D) as [P|N].
  - left. pose proof (exp_sq D P). assert (D * D <= b * b) by nra. lra.
  - right. split; [lra|]. pose proof (exp_tail (- D) 3 ltac:(lra) ltac:(rewrite INR_IZR_INZ; simpl; lra)) as U. cbn [Sm] in U. unfold T in U. destruct PolyBound.facts as (F0 & F1 & F2 & F3 & _). rewrite F0, F1, F2, F3, pow_O, pow_1 in U. assert (A2 : (- D) ^ 2 <= 0.004 ^ 2) by (apply pow_incr; lra). assert (A3 : (- D) ^ 3 <= 0.004 ^ 3) by (apply pow_incr; lra). lra.
Qed.

Definition near g x b : Prop := -0.004 <= fxR g - ln (fxR x) <= b.
Definition done g x : Prop := Rabs (fxR g - ln (fxR x)) <= / 1000.
Lemma lx_range x : (65536 <= x <= 6553600)%Z -> 0 <= ln (fxR x) <= 4.61.
Proof.
  intros Hx. assert (X : 1 <= fxR x <= 100) by (split; [pose proof (fx_pos_le 65536 x ltac:(lia))|pose proof (fx_pos_le x 6553600 ltac:(lia))]; unfold fxR in *; lra). split.
  - rewrite <- ln_1. destruct X as ([K| <-] & _); [left; apply ln_increasing; lra|lra].
  - rewrite <- (ln_exp 4.61). assert (K : 100 < expR 4.61). { replace 4.61 with (8 * 0.57625) by lra. rewrite exp_pow8. assert (A : 1.7784 <= expR 0.57625). { eapply Rle_trans; [|apply (Sm_exp _ 6); lra]. cbn [Sm]. unfold T. destruct PolyBound.facts as (-> & -> & -> & -> & -> & -> & _). lra. } apply Rlt_le_trans with (1.7784 ^ 8); [lra|]. apply pow_incr. lra. }
    left. apply ln_increasing; lra.
Qed.
Lemma near_range g x b : (65536 <= x <= 6553600)%Z -> near g x b -> b <= 1.63 -> (-300 <= g <= 450000)%Z.
Proof.
  intros Hx (L & U) B. pose proof (lx_range x Hx) as K. assert (E : fxR g = IZR g / 65536) by reflexivity. split; apply le_IZR; lra.
Qed.
(** one step of the loop *)
Lemma newton_step k x g b : (65536 <= x <= 6553600)%Z -> near g x b -> b <= 1.63 ->
  exists g', (log_newton (S k) x g = Ok g' /\ done g' x \/ log_newton (S k) x g = log_newton k x g') /\ - / 1000 <= fxR g' - ln (fxR x) <= Rmax (b * b / 2) 0 + 0.00098.
Proof.
  intros Hx Nr B. pose proof (near_range g x b Hx Nr B) as Rg. destruct (step_ok x g Hx Rg) as (e & d & E & S1 & Ed & V). set (D := fxR g - ln (fxR x)) in *. destruct Nr as (L & U). fold D in L, U.
  assert (EP : 0 < expR (- D)) by apply exp_pos. assert (EB : expR (- D) <= 1.0041). { apply Rle_trans with (expR 0.004); [apply exp_mono; lra|]. eapply Rle_trans; [apply (exp_tail _ 2); [lra|rewrite INR_IZR_INZ; simpl; lra]|]. cbn [Sm]. unfold T. destruct PolyBound.facts as (-> & -> & -> & _). lra. }
  apply Rabs_le_inv in V. pose proof (f_low D) as FL. pose proof (lx_range x Hx) as LX.
  assert (Dn : fxR (g + d) - ln (fxR x) = D + fxR d) by (rewrite fx_add; unfold D; ring).
  assert (RB : - / 1000 <= D + fxR d <= Rmax (b * b / 2) 0 + 0.00098). { split; [lra|]. pose proof (Rmax_l (b * b / 2) 0). pose proof (Rmax_r (b * b / 2) 0). destruct (f_high D b ltac:(lra)) as [F|(_ & F)]; lra. }
  assert (RM : Rmax (b * b / 2) 0 <= 8). { apply Rmax_lub; [|lra]. assert (-0.004 <= b) by lra. nra. }
  exists (g + d)%Z. rewrite Dn. split; [|exact RB]. cbn [log_newton]. rewrite E. cbn [bind]. rewrite S1. cbn [bind]. rewrite Ed. cbn [bind].
  assert (dL : (d <= 196608)%Z). { apply le_IZR. unfold fxR in V. lra. } rewrite (proj2 (Z.ltb_ge 196608 d)) by exact dL.
  rewrite (fx_i32 (g + d)). 2:{ replace (fxR (g + d)) with ((D + fxR d) + ln (fxR x)) by (rewrite <- Dn; ring). apply Rabs_le. lra. } cbn [bind].
  destruct ((1 <? d)%Z || (d <? -1)%Z) eqn:C; [right; reflexivity|]. left. split; [reflexivity|]. unfold done. rewrite Dn. apply orb_false_elim in C as (C1 & C2). apply Z.ltb_ge in C1. apply Z.ltb_ge in C2. assert (DD : - / 65536 <= fxR d <= / 65536) by (apply IZR_le in C1; apply IZR_le in C2; unfold fxR; lra).
  assert (DB : D <= 0.00099). { apply Rnot_lt_le. intros K. assert (expR (- D) <= / 1.00099). { rewrite exp_Ropp. apply Rinv_le_contravar; [lra|]. pose proof (exp_ineq1_le D). lra. } lra. }
  destruct (f_high D 0.00099 ltac:(lra)) as [F|(_ & F)]; apply Rabs_le; lra.
Qed.
Lemma newton_done : forall k x g, (65536 <= x <= 6553600)%Z -> done g x -> exists g', log_newton k x g = Ok g' /\ done g' x.
Proof.
  induction k as [|k IH]; intros x g Hx Dn; [exists g; split; [reflexivity|exact Dn]|]. pose proof Dn as Dn'. unfold done in Dn'. apply Rabs_le_inv in Dn'.
  destruct (newton_step k x g (/ 1000) Hx ltac:(split; lra) ltac:(lra)) as (g' & [(E & Q)|E] & R); [exists g'; auto|]. rewrite E. apply IH; [exact Hx|]. unfold done. apply Rabs_le. rewrite Rmax_left in R by lra. lra.
Qed.
Lemma newton_chain k x g b b' : (65536 <= x <= 6553600)%Z -> 0 <= b <= 1.63 -> b * b / 2 + 0.00098 <= b' -> near g x b -> (forall g', near g' x b' -> exists r, log_newton k x g' = Ok r /\ done r x) ->
  exists r, log_newton (S k) x g = Ok r /\ done r x.
Proof.
  intros Hx B B' Nr Next. destruct (newton_step k x g b Hx Nr ltac:(lra)) as (g' & [(E & Q)|E] & R); [exists g'; auto|]. rewrite E. apply Next. rewrite Rmax_left in R by nra. split; lra.
Qed.
Lemma newton_10 x g : (65536 <= x <= 6553600)%Z -> near g x 1.63 -> exists r, log_newton 10 x g = Ok r /\ done r x.
Proof.
  intros Hx N. apply (newton_chain 9 x g 1.63 1.3295 Hx); [lra|lra|exact N|]. clear g N. intros g N. apply (newton_chain 8 x g 1.3295 0.885 Hx); [lra|lra|exact N|]. clear g N. intros g N. apply (newton_chain 7 x g 0.885 0.393 Hx); [lra|lra|exact N|]. clear g N. intros g N. apply (newton_chain 6 x g 0.393 0.0783 Hx); [lra|lra|exact N|]. clear g N. intros g N. apply (newton_chain 5 x g 0.0783 0.00406 Hx); [lra|lra|exact N|]. clear g N. intros g N.
  destruct (newton_step 4 x g 0.00406 Hx N ltac:(lra)) as (g' & [(E & Q)|E] & R); [exists g'; auto|]. rewrite E. apply newton_done; [exact Hx|]. unfold done. rewrite Rmax_left in R by lra. apply Rabs_le. lra.
Qed.
(** the first step, from the guess 2 *)
Lemma exp137 t : 0 <= t <= 1.37 -> expR t - 1 - t <= 1.6.
Proof.
  intros ([P| <-] & U); [|rewrite exp_0; lra]. pose proof (exp_tail t 5 P ltac:(rewrite INR_IZR_INZ; simpl; lra)) as K. cbn [Sm] in K. unfold T in K. destruct PolyBound.facts as (F0 & F1 & F2 & F3 & F4 & F5 & _). rewrite F0, F1, F2, F3, F4, F5 in K.
  assert (A2 : t ^ 2 <= 1.37 ^ 2) by (apply pow_incr; lra). assert (A3 : t ^ 3 <= 1.37 ^ 3) by (apply pow_incr; lra). assert (A4 : t ^ 4 <= 1.37 ^ 4) by (apply pow_incr; lra). assert (A5 : t ^ 5 <= 1.37 ^ 5) by (apply pow_incr; lra). rewrite pow_O, pow_1 in K. lra.
Qed.
Lemma newton_ok x : (65536 <= x <= 6553600)%Z -> exists r, log_newton 11 x f2 = Ok r /\ done r x.
Proof.
  intros Hx. destruct (step_ok x f2 Hx ltac:(unfold f2; lia)) as (e & d & E & S1 & Ed & V). pose proof (lx_range x Hx) as LX. replace (fxR f2) with 2 in V by (unfold fxR, f2; lra). set (lx := ln (fxR x)) in *. set (D := 2 - lx) in *.
  apply Rabs_le_inv in V. pose proof (f_low D) as FL. pose proof (exp_pos (- D)) as EP. cbn [log_newton]. rewrite E. cbn [bind]. rewrite S1. cbn [bind]. rewrite Ed. cbn [bind]. change (exists r, (guess <- i32 (f2 + (if (196608 <? d)%Z then 196608 else d)) ;; if (1 <? (if (196608 <? d)%Z then 196608 else d))%Z || ((if (196608 <? d)%Z then 196608 else d) <? -1)%Z then log_newton 10 x guess else Ok guess) = Ok r /\ done r x).
  assert (F2 : forall z, fxR (f2 + z) = 2 + fxR z) by (intros z; rewrite fx_add; unfold f2; unfold fxR at 1; lra).
  destruct (Z.ltb_spec 196608 d) as [C|C].
  - rewrite i32_ok by (unfold raw, f2; lia). cbn [bind]. change (1 <? 196608)%Z with true. cbn [orb]. apply newton_10; [exact Hx|]. split; rewrite F2; unfold fxR at 1; fold lx; [lra|].
    assert (K : D <= -1.37); [|unfold D in K; lra]. apply Rnot_lt_le. intros K. apply IZR_lt in C. unfold fxR in V. assert (X : 3.99 <= expR (- D)) by lra. destruct (Rle_dec 0 D) as [P|P]; [pose proof (exp_mono (- D) 0 ltac:(lra)) as Y; rewrite exp_0 in Y; lra|]. pose proof (exp137 (- D) ltac:(lra)). lra.
  - assert (C' : fxR d <= 3) by (apply IZR_le in C; unfold fxR; lra).
    assert (NN : near (f2 + d) x 1.63).
    { unfold near. rewrite F2. fold lx. replace (2 + fxR d - lx) with (D + fxR d) by (unfold D; ring). split; [lra|]. destruct (Rle_dec D (-1.37)) as [P|P]; [lra|]. destruct (Rle_dec 0 D) as [Q|Q].
      - assert (X : expR (- D) <= / (1 + D)) by (rewrite exp_Ropp; apply Rinv_le_contravar; [lra|apply exp_ineq1_le]). assert (Y : D <= 2) by (unfold D; lra). assert (Z : (/ (1 + D)) <= 1 - D / 3). { apply (Rmult_le_reg_r (1 + D)); [lra|]. rewrite Rinv_l by lra. nra. } lra.
      - pose proof (exp137 (- D) ltac:(lra)). lra. }
    rewrite (fx_i32 (f2 + d)). 2:{ destruct NN as (A & B). fold lx in A, B. apply Rabs_le. lra. } cbn [bind].
    destruct (_ || _) eqn:W; [apply newton_10; [exact Hx|exact NN]|]. exists (f2 + d)%Z. split; [reflexivity|]. apply orb_false_elim in W as (C1 & C2). apply Z.ltb_ge in C1. apply Z.ltb_ge in C2. assert (DD : - / 65536 <= fxR d <= / 65536) by (apply IZR_le in C1; apply IZR_le in C2; unfold fxR; lra).
    unfold done. rewrite F2. fold lx. replace (2 + fxR d - lx) with (D + fxR d) by (unfold D; ring).
    assert (DB : D <= 0.00099). { apply Rnot_lt_le. intros K. assert (expR (- D) <= / 1.00099). { rewrite exp_Ropp. apply Rinv_le_contravar; [lra|]. pose proof (exp_ineq1_le D). lra. } lra. }
    assert (DL : -0.004 <= D) by lra. destruct (f_high D 0.00099 ltac:(lra)) as [F|(_ & F)]; apply Rabs_le; lra.
Qed.
