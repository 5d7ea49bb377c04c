(** The exponential of negative Q16.16 numbers and the hyperbolic functions. *)
From Coq Require Import ZArith Reals Lra Lia Bool.
From Flocq Require Import Raux.
From Verif Require Import Base BaseLemmas Fp16_Model Fp16_Spec Fp16_Proofs Fp16_Proofs2 Fp16Fun_Spec Fp16Fun_Proofs Fp16Fun_Proofs2 Expint_Proofs3 Fp16Fun_Proofs3 Fp16Fun_Proofs4 Fp16Fun_Proofs5.
Open Scope R_scope.
Local Notation expR := Rtrigo_def.exp.

Lemma fx_opp x : fxR (- x) = - fxR x. Proof. unfold fxR. rewrite opp_IZR. field. Qed.
Lemma fx_pos_le a b : (a <= b)%Z -> fxR a <= fxR b. Proof. intros H. apply IZR_le in H. unfold fxR. lra. Qed.
Lemma exp_range X : (0 <= X <= 680919)%Z -> 1 <= expR (fxR X) <= 32545.
Proof.
  intros H. split; [rewrite <- exp_0; apply exp_mono; pose proof (fx_pos_le 0 X ltac:(lia)); unfold fxR in *; lra|].
  eapply Rle_trans; [|exact exp_top]. apply exp_mono. pose proof (fx_pos_le X 680919 ltac:(lia)). unfold fxR in *. lra.
Qed.
Lemma exp_pos_run X : (0 < X <= 680919)%Z -> X <> one -> exists r0, i32 (X + one) = Ok r0 /\ Fp16_Model.exp X = exp_loop 28 2 X r0 X.
Proof.
  intros H N. exists (X + one)%Z. split; [apply i32_ok; unfold raw, one; lia|]. unfold Fp16_Model.exp. rewrite (proj2 (Z.eqb_neq X 0)) by lia. rewrite (proj2 (Z.eqb_neq X one)) by lia. rewrite (proj2 (Z.leb_gt exp_max X)) by (unfold exp_max; lia). rewrite (proj2 (Z.leb_gt X (- exp_max))) by (unfold exp_max; lia). rewrite (proj2 (Z.ltb_ge X 0)) by lia. cbn [bind]. rewrite i32_ok by (unfold raw, one; lia). cbn [bind]. destruct (exp_loop 28 2 X (X + one) X); reflexivity.
Qed.
Lemma exp_neg_run X : (0 < X <= 680919)%Z -> Fp16_Model.exp (- X) = (r0 <- i32 (X + one) ;; r <- exp_loop 28 2 X r0 X ;; div one r).
Proof.
  intros H. unfold Fp16_Model.exp. rewrite (proj2 (Z.eqb_neq (- X) 0)) by lia. rewrite (proj2 (Z.eqb_neq (- X) one)) by (unfold one; lia). rewrite (proj2 (Z.leb_gt exp_max (- X))) by (unfold exp_max; lia). rewrite (proj2 (Z.leb_gt (- X) (- exp_max))) by (unfold exp_max; lia). rewrite (proj2 (Z.ltb_lt (- X) 0)) by lia. rewrite Z.opp_involutive. rewrite (i32_ok X) by (unfold raw; lia). cbn [bind]. reflexivity.
Qed.
(** the quotient of 1 and a result close to the exponential *)
Lemma inv_close E r : 1 <= E -> Rabs (r - E) <= E / 1600 + 20 * ulp16 -> 0.99 <= r /\ Rabs (1 / r - / E) <= / E / 1065.
Proof.
  intros H V. apply Rabs_le_inv in V. unfold ulp16 in V. assert (L : r >= E * (1 - / 1600 - 20 / 65536)) by nra. assert (P : 0 < / E) by (apply Rinv_0_lt_compat; lra). split; [nra|]. assert (R : 0 < r) by nra.
  replace (1 / r - / E) with (/ E * ((E - r) / r)) by (field; split; lra). rewrite Rabs_mult, (Rabs_pos_eq (/ E)) by lra. apply Rmult_le_compat_l; [lra|]. unfold Rdiv. rewrite Rabs_mult, (Rabs_pos_eq (/ r)) by (left; apply Rinv_0_lt_compat, R).
  apply Rcomplements.Rle_div_l; [exact R|]. apply Rabs_le. nra.
Qed.
Lemma exp_loop_one : exp_loop 28 2 one (one + one) one = Ok 178144%Z. Proof. vm_compute. reflexivity. Qed.
Lemma exp_neg_ok X : (0 < X <= 680919)%Z -> exists r, Fp16_Model.exp (- X) = Ok r /\ Rabs (fxR r - expR (- fxR X)) <= expR (- fxR X) / 1065 + / 131072.
Proof.
  intros H. rewrite exp_neg_run by exact H. assert (R : exists r, exp_loop 28 2 X (X + one) X = Ok r /\ Rabs (fxR r - expR (fxR X)) <= expR (fxR X) / 1600 + 20 * ulp16).
  { destruct (Z.eq_dec X one) as [->|N].
    - exists 178144%Z. split; [exact exp_loop_one|]. replace (fxR one) with 1 by (unfold fxR, one; lra). pose proof exp_one as O. apply Rabs_le_inv in O. pose proof (exp_pos 1). apply Rabs_le. unfold fxR, ulp16 in *. lra.
    - destruct (exp_nonneg_ok X ltac:(lia)) as (r & E & V). destruct (exp_pos_run X H N) as (r0 & E0 & E1). exists r. rewrite i32_ok in E0 by (unfold raw, one; lia). injection E0 as <-. rewrite <- E1. auto. }
  destruct R as (r & E & V). rewrite i32_ok by (unfold raw, one; lia). cbn [bind]. rewrite E. cbn [bind]. destruct (exp_range X ltac:(lia)) as (E1 & E2). destruct (inv_close _ _ E1 V) as (L & I). apply Rabs_le_inv in V.
  assert (RR : fxR r <= 32600) by (unfold ulp16 in V; lra). assert (Zr : (0 < r)%Z) by (apply lt_IZR; unfold fxR in L; lra). assert (Rw : raw r) by (apply fx_raw; apply Rabs_le; lra).
  assert (O : fxR one = 1) by (unfold fxR, one; lra).
  destruct (div_fx one r) as (q & Eq & Vq & _); [unfold raw, one; lia|exact Rw|lia|unfold one, sentinel; lia|unfold sentinel; unfold raw in *; lia| |].
  - rewrite O. rewrite Rabs_pos_eq; [apply Rcomplements.Rle_div_l; nra|]. apply Rcomplements.Rle_div_r; lra.
  - exists q. split; [exact Eq|]. rewrite O in Vq. rewrite exp_Ropp. replace (fxR q - / expR (fxR X)) with ((fxR q - 1 / fxR r) + (1 / fxR r - / expR (fxR X))) by ring. eapply Rle_trans; [apply Rabs_triang|]. lra.
Qed.

(** ** Hyperbolic functions *)
Definition ep_en X ep en : Prop := Fp16_Model.exp X = Ok ep /\ Fp16_Model.exp (- X) = Ok en /\ Rabs (fxR ep - expR (fxR X)) <= expR (fxR X) / 1600 + 20 * ulp16 /\ Rabs (fxR en - expR (- fxR X)) <= expR (- fxR X) / 1065 + / 131072.
Lemma both X : (0 < X <= 680919)%Z -> exists ep en, ep_en X ep en.
Proof. intros H. destruct (exp_nonneg_ok X ltac:(lia)) as (ep & E1 & V1). destruct (exp_neg_ok X H) as (en & E2 & V2). exists ep, en. split; auto. Qed.
Lemma ep_en_bnd X ep en : (0 < X <= 680919)%Z -> ep_en X ep en -> 0.99 <= fxR ep <= 32600 /\ - / 65536 <= fxR en <= 1.01 /\ 1 <= expR (fxR X) <= 32545 /\ 0 < expR (- fxR X) <= 1 /\ expR (- fxR X) = / expR (fxR X).
Proof.
  intros H (_ & _ & V1 & V2). destruct (exp_range X ltac:(lia)) as (L & U). assert (N : expR (- fxR X) = / expR (fxR X)) by apply exp_Ropp. assert (N1 : / expR (fxR X) <= 1) by (rewrite <- Rinv_1; apply Rinv_le_contravar; lra). pose proof (exp_pos (- fxR X)). apply Rabs_le_inv in V1. apply Rabs_le_inv in V2. unfold ulp16 in *. repeat split; lra.
Qed.
Lemma not_over r : -1 <= fxR r -> (overflow =? r)%Z = false. Proof. intros H. apply Z.eqb_neq. intros <-. unfold fxR, overflow in H. lra. Qed.
Lemma half_fx s : Rabs (fxR (Z.shiftr s 1) - fxR s / 2) <= ulp16 / 2.
Proof. rewrite Z.shiftr_div_pow2 by lia. change (2 ^ 1)%Z with 2%Z. pose proof (Z.div_mod s 2 ltac:(lia)) as D. pose proof (Z.mod_pos_bound s 2 ltac:(lia)) as M. unfold fxR, ulp16. rewrite D at 2. rewrite plus_IZR, mult_IZR. assert (0 <= IZR (s mod 2) <= 1) by (split; apply IZR_le; lia). apply Rabs_le. lra. Qed.
Lemma cosh_ok x : (Z.abs x <= 680919)%Z -> exists r, Fp16_Model.cosh x = Ok r /\ Rabs (fxR r - Rtrigo_def.cosh (fxR x)) <= Rtrigo_def.cosh (fxR x) / 1065 + 12 * ulp16.
Proof.
  intros H. destruct (Z.eq_dec x 0) as [->|N].
  - exists one. split; [reflexivity|]. replace (fxR 0) with 0 by (unfold fxR; lra). rewrite cosh_0. replace (fxR one - 1) with 0 by (unfold fxR, one; lra). rewrite Rabs_R0. unfold ulp16. lra.
  - set (X := Z.abs x) in *. assert (HX : (0 < X <= 680919)%Z) by (unfold X in *; lia). destruct (both X HX) as (ep & en & P). pose proof (ep_en_bnd _ _ _ HX P) as (B1 & B2 & B3 & B4 & B5). destruct P as (E1 & E2 & V1 & V2).
    assert (Hd : forall a b, Rabs (fxR a - expR (fxR X)) <= expR (fxR X) / 1600 + 20 * ulp16 -> Rabs (fxR b - expR (- fxR X)) <= expR (- fxR X) / 1065 + / 131072 -> Rabs (fxR (a + b) - 2 * Rtrigo_def.cosh (fxR X)) <= 2 * Rtrigo_def.cosh (fxR X) / 1065 + 21 * ulp16).
    { intros a b A B. rewrite fx_add. unfold Rtrigo_def.cosh. apply Rabs_le_inv in A. apply Rabs_le_inv in B. apply Rabs_le. unfold ulp16 in *. lra. }
    pose proof (Hd ep en V1 V2) as S. assert (SB : Rabs (fxR (ep + en)) <= 32767) by (rewrite fx_add; apply Rabs_le; lra).
    assert (EC : Rtrigo_def.cosh (fxR x) = Rtrigo_def.cosh (fxR X)). { unfold X. destruct (Zabs_spec x) as [(_ & ->)|(_ & ->)]; [reflexivity|]. rewrite fx_opp. unfold Rtrigo_def.cosh. rewrite Ropp_involutive. lra. }
    rewrite EC. exists (Z.shiftr (ep + en) 1). split.
    + unfold Fp16_Model.cosh. rewrite (proj2 (Z.eqb_neq x 0)) by exact N. rewrite (proj2 (Z.leb_gt exp_max x)) by (unfold exp_max; lia). rewrite (proj2 (Z.leb_gt x (- exp_max))) by (unfold exp_max; lia). cbn [orb]. rewrite (i32_ok (- x)) by (unfold raw; lia).
      destruct (Zabs_spec x) as [(_ & A)|(_ & A)]; fold X in A; [rewrite <- A|replace x with (- X)%Z by lia; rewrite Z.opp_involutive]; (rewrite E1; cbn [bind]; rewrite E2) || (rewrite E2; cbn [bind]; rewrite E1); cbn [bind]; rewrite !not_over by lra; cbn [negb andb]; rewrite ?(Z.add_comm en ep); rewrite (fx_i32 (ep + en)) by exact SB; reflexivity.
    + pose proof (half_fx (ep + en)) as Hh. apply Rabs_le_inv in Hh. apply Rabs_le_inv in S. apply Rabs_le. unfold ulp16 in *. lra.
Qed.
Lemma sinh_ok x : (Z.abs x <= 680919)%Z -> x <> 0%Z -> exists r, Fp16_Model.sinh x = Ok r /\ Rabs (fxR r - Rtrigo_def.sinh (fxR x)) <= Rtrigo_def.cosh (fxR x) / 1065 + 12 * ulp16.
Proof.
  intros H N. set (X := Z.abs x) in *. assert (HX : (0 < X <= 680919)%Z) by (unfold X in *; lia). destruct (both X HX) as (ep & en & P). pose proof (ep_en_bnd _ _ _ HX P) as (B1 & B2 & B3 & B4 & B5). destruct P as (E1 & E2 & V1 & V2). apply Rabs_le_inv in V1. apply Rabs_le_inv in V2.
  unfold Fp16_Model.sinh. rewrite (proj2 (Z.eqb_neq x 0)) by exact N. rewrite (proj2 (Z.leb_gt exp_max x)) by (unfold exp_max; lia). rewrite (proj2 (Z.leb_gt x (- exp_max))) by (unfold exp_max; lia). rewrite (i32_ok (- x)) by (unfold raw; lia).
  destruct (Zabs_spec x) as [(_ & A)|(_ & A)]; fold X in A.
  - rewrite <- A. rewrite E1. cbn [bind]. rewrite E2. cbn [bind]. rewrite !not_over by lra. cbn [negb andb]. rewrite (fx_i32 (ep - en)) by (rewrite fx_sub; apply Rabs_le; lra). exists (Z.shiftr (ep - en) 1). split; [reflexivity|].
    pose proof (half_fx (ep - en)) as Hh. rewrite fx_sub in Hh. apply Rabs_le_inv in Hh. apply Rabs_le. unfold Rtrigo_def.sinh, Rtrigo_def.cosh. unfold ulp16 in *. lra.
  - replace x with (- X)%Z by lia. rewrite Z.opp_involutive. rewrite E2. cbn [bind]. rewrite E1. cbn [bind]. rewrite !not_over by lra. cbn [negb andb]. rewrite (fx_i32 (en - ep)) by (rewrite fx_sub; apply Rabs_le; lra). exists (Z.shiftr (en - ep) 1). split; [reflexivity|].
    pose proof (half_fx (en - ep)) as Hh. rewrite fx_sub in Hh. apply Rabs_le_inv in Hh. rewrite fx_opp. apply Rabs_le. unfold Rtrigo_def.sinh, Rtrigo_def.cosh. rewrite Ropp_involutive. unfold ulp16 in *. lra.
Qed.
Lemma tanh_form w : Rtrigo_def.tanh w = (expR w - expR (- w)) / (expR w + expR (- w)).
Proof. unfold Rtrigo_def.tanh, Rtrigo_def.sinh, Rtrigo_def.cosh. pose proof (exp_pos w). pose proof (exp_pos (- w)). field. lra. Qed.
Lemma tanh_odd w : Rtrigo_def.tanh (- w) = - Rtrigo_def.tanh w.
Proof. rewrite !tanh_form, Ropp_involutive. pose proof (exp_pos w). pose proof (exp_pos (- w)). field. lra. Qed.
Lemma tanh_bnd w : 0 <= w -> 0 <= Rtrigo_def.tanh w <= 1.
Proof.
  intros H. rewrite tanh_form. pose proof (exp_pos w). pose proof (exp_pos (- w)). pose proof (exp_mono (- w) w ltac:(lra)). split; [apply Rcomplements.Rle_div_r; lra|apply Rcomplements.Rle_div_l; lra].
Qed.
Lemma tanh_far w : 6.5 <= w -> 1 - ulp16 / 2 <= Rtrigo_def.tanh w <= 1.
Proof.
  intros H. split; [|apply tanh_bnd; lra]. rewrite tanh_form. pose proof (exp_pos w). pose proof (exp_pos (- w)) as P. apply Rcomplements.Rle_div_r; [lra|].
  assert (K : 262144 * expR (- w) <= expR w). { replace (expR w) with (expR (w + w) * expR (- w)) by (rewrite <- exp_plus; f_equal; ring). apply Rmult_le_compat_r; [lra|]. apply Rle_trans with (expR 13); [|apply exp_mono; lra].
    replace (expR 13) with (expR 1 ^ 13). 2:{ rewrite <- Rpower_pow by apply exp_pos. unfold Rpower. rewrite ln_exp. f_equal. rewrite INR_IZR_INZ. simpl. ring. } pose proof exp_one as O. apply Rabs_le_inv in O. apply Rle_trans with (2.7 ^ 13); [lra|]. apply pow_incr. unfold fxR, ulp16 in O. lra. }
  unfold ulp16. lra.
Qed.
Lemma quot_close E a b : 1 <= E <= 32545 -> Rabs (a - E) <= E / 1600 + 20 * ulp16 -> Rabs (b - / E) <= / E / 1065 + / 131072 -> 0.9 < a + b /\ Rabs ((a - b) / (a + b) - (E - / E) / (E + / E)) <= / 1000.
Proof.
  intros H Va Vb. set (e := / E) in *. assert (P : E * e = 1) by (unfold e; apply Rinv_r; lra). assert (e0 : 0 < e) by (apply Rinv_0_lt_compat; lra). assert (e1 : e <= 1) by nra. 
  assert (Na : Rabs ((a - E) * e) <= / 1600 + 20 / 65536). { rewrite Rabs_mult, (Rabs_pos_eq e) by lra. apply Rle_trans with ((E / 1600 + 20 * ulp16) * e); [apply Rmult_le_compat_r; lra|]. unfold ulp16. nra. }
  assert (Nb : Rabs ((b - e) * E) <= / 1065 + E / 131072). { rewrite Rabs_mult, (Rabs_pos_eq E) by lra. apply Rle_trans with ((e / 1065 + / 131072) * E); [apply Rmult_le_compat_r; lra|]. nra. }
  clearbody e. apply Rabs_le_inv in Va. apply Rabs_le_inv in Vb. apply Rabs_le_inv in Na. apply Rabs_le_inv in Nb. unfold ulp16 in *. set (D0 := E + e). assert (D2 : 2 <= D0) by (unfold D0; nra). assert (D : 0.998 * D0 <= a + b) by (unfold D0 in *; lra). split; [lra|].
  replace ((a - b) / (a + b) - (E - e) / D0) with (2 * ((a - E) * e - (b - e) * E) / ((a + b) * D0)) by (unfold D0 in *; field; lra).
  unfold Rdiv. rewrite Rabs_mult, (Rabs_pos_eq (/ _)). 2:{ left. apply Rinv_0_lt_compat, Rmult_lt_0_compat; lra. } apply Rcomplements.Rle_div_l; [apply Rmult_lt_0_compat; lra|].
  assert (Q : 0.998 * (D0 * D0) <= (a + b) * D0) by nra. assert (S4 : 4 <= D0 * D0) by nra. assert (SE : 2 * E <= D0 * D0) by (unfold D0; nra). apply Rle_trans with (/ 1000 * (0.998 * (D0 * D0))); [|lra]. set (S := D0 * D0) in *. clearbody S. apply Rabs_le. lra.
Qed.
Lemma tanh_pos_run X : (0 < X <= 425984)%Z -> exists r, (epx <- Fp16_Model.exp X ;; nax <- i32 (- X) ;; enx <- Fp16_Model.exp nax ;; n <- i32 (epx - enx) ;; d <- i32 (epx + enx) ;; div n d) = Ok r /\ Rabs (fxR r - Rtrigo_def.tanh (fxR X)) <= / 1000 + ulp16 / 2.
Proof.
  intros H. assert (HX : (0 < X <= 680919)%Z) by lia. destruct (both X HX) as (ep & en & P). pose proof (ep_en_bnd _ _ _ HX P) as (B1 & B2 & B3 & B4 & B5). destruct P as (E1 & E2 & V1 & V2). rewrite E1. cbn [bind]. rewrite (i32_ok (- X)) by (unfold raw; lia). cbn [bind]. rewrite E2. cbn [bind]. rewrite (fx_i32 (ep - en)) by (rewrite fx_sub; apply Rabs_le; lra). cbn [bind]. rewrite (fx_i32 (ep + en)) by (rewrite fx_add; apply Rabs_le; lra). cbn [bind].
  rewrite B5 in V2. destruct (quot_close _ _ _ B3 V1 V2) as (D & Q). assert (TF : (expR (fxR X) - / expR (fxR X)) / (expR (fxR X) + / expR (fxR X)) = Rtrigo_def.tanh (fxR X)) by (rewrite tanh_form, B5; reflexivity). rewrite TF in Q.
  pose proof (tanh_bnd (fxR X) ltac:(pose proof (fx_pos_le 0 X ltac:(lia)); unfold fxR in *; lra)) as TB.
  destruct (div_fx (ep - en) (ep + en)) as (r & Er & Vr & _).
  - apply fx_raw. rewrite fx_sub. apply Rabs_le. lra.
  - apply fx_raw. rewrite fx_add. apply Rabs_le. lra.
  - intros Z0. apply (f_equal fxR) in Z0. rewrite fx_add in Z0. replace (fxR 0) with 0 in Z0 by (unfold fxR; lra). lra.
  - intros Z0. apply (f_equal fxR) in Z0. rewrite fx_sub in Z0. change sentinel with (-2147483648)%Z in Z0. replace (fxR (-2147483648)) with (-32768) in Z0 by (unfold fxR; lra). lra.
  - intros Z0. apply (f_equal fxR) in Z0. rewrite fx_add in Z0. change sentinel with (-2147483648)%Z in Z0. replace (fxR (-2147483648)) with (-32768) in Z0 by (unfold fxR; lra). lra.
  - rewrite fx_sub, fx_add. apply Rabs_le_inv in Q. apply Rabs_le. lra.
  - exists r. split; [exact Er|]. rewrite fx_sub, fx_add in Vr. apply Rabs_le_inv in Q. apply Rabs_le_inv in Vr. apply Rabs_le. unfold ulp16. lra.
Qed.
Lemma tanh_ok x : raw x -> exists r, Fp16_Model.tanh x = Ok r /\ Rabs (fxR r - Rtrigo_def.tanh (fxR x)) <= / 1000 + ulp16 / 2.
Proof.
  intros R. unfold Fp16_Model.tanh. assert (U : 0 < ulp16) by (unfold ulp16; lra). destruct (Z.eqb_spec x 0) as [->|N].
  { exists 0%Z. split; [reflexivity|]. replace (fxR 0) with 0 by (unfold fxR; lra). rewrite tanh_form, Ropp_0, exp_0. replace (0 - (1 - 1) / (1 + 1)) with 0 by field. rewrite Rabs_R0. lra. }
  assert (F : forall w, 425985 / 65536 <= w -> Rabs (1 - Rtrigo_def.tanh w) <= / 1000 + ulp16 / 2) by (intros w Hw; pose proof (tanh_far w ltac:(lra)); apply Rabs_le; lra).
  destruct (Z.ltb_spec 425984 x) as [G|G].
  { exists one. split; [reflexivity|]. replace (fxR one) with 1 by (unfold fxR, one; lra). apply F. pose proof (fx_pos_le 425985 x ltac:(lia)). exact H. }
  destruct (Z.ltb_spec x (-425984)) as [L|L].
  { exists (- one)%Z. split; [reflexivity|]. replace (fxR (- one)) with (- (1)) by (unfold fxR, one; simpl; lra). replace (fxR x) with (- fxR (- x)) by (rewrite fx_opp; ring). rewrite tanh_odd. replace (- (1) - - Rtrigo_def.tanh (fxR (- x))) with (- (1 - Rtrigo_def.tanh (fxR (- x)))) by ring. rewrite Rabs_Ropp. apply F. exact (fx_pos_le 425985 (- x) ltac:(lia)). }
  unfold absolute. rewrite (proj2 (Z.eqb_neq x fMin)) by (unfold fMin; lia).
  destruct (Z.leb_spec 0 x) as [P|P].
  - cbn [bind]. destruct (tanh_pos_run x ltac:(lia)) as (r & E & V). exists r. split; [|exact V]. rewrite (proj2 (Z.ltb_lt 0 x)) by lia. revert E. unfold bind. destruct (Fp16_Model.exp x) as [a|]; [|discriminate]. destruct (i32 (- x)) as [b|]; [|discriminate]. destruct (Fp16_Model.exp b) as [c|]; [|discriminate]. destruct (i32 (a - c)) as [d|]; [|discriminate]. destruct (i32 (a + c)) as [e|]; [|discriminate]. intros ->. reflexivity.
  - rewrite (i32_ok (- x)) by (unfold raw in *; lia). cbn [bind]. destruct (tanh_pos_run (- x) ltac:(lia)) as (r & E & V). rewrite (proj2 (Z.ltb_ge 0 x)) by lia.
    assert (RB : Rabs (fxR (- r)) <= 32767). { rewrite fx_opp, Rabs_Ropp. pose proof (rab _ _ _ V) as K. pose proof (tanh_bnd (fxR (- x)) ltac:(pose proof (fx_pos_le 0 (- x) ltac:(lia)); unfold fxR in *; lra)) as TB. rewrite (Rabs_pos_eq (Rtrigo_def.tanh _)) in K by lra. unfold ulp16 in *. lra. }
    exists (- r)%Z. split.
    + revert E. unfold bind. destruct (Fp16_Model.exp (- x)) as [a|]; [|discriminate]. destruct (i32 (- - x)) as [b|]; [|discriminate]. destruct (Fp16_Model.exp b) as [c|]; [|discriminate]. destruct (i32 (a - c)) as [d|]; [|discriminate]. destruct (i32 (a + c)) as [e|]; [|discriminate]. intros ->. apply fx_i32, RB.
    + rewrite fx_opp in V. rewrite tanh_odd in V. rewrite fx_opp. replace (- fxR r - Rtrigo_def.tanh (fxR x)) with (- (fxR r - - Rtrigo_def.tanh (fxR x))) by ring. rewrite Rabs_Ropp. exact V.
Qed.
