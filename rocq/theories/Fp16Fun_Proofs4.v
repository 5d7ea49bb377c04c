(** The exponential of Q16.16 numbers: accuracy. *)
From Coq Require Import ZArith Reals Lra Lia Bool.
From Flocq Require Import Raux.
From Verif Require Import Base BaseLemmas Fp16_Model Fp16_Spec Fp16_Proofs Fp16_Proofs2 Fp16Fun_Spec Fp16Fun_Proofs Fp16Fun_Proofs2 Expint_Proofs3 Fp16Fun_Proofs3.
Open Scope R_scope.
Local Notation expR := Rtrigo_def.exp.

(** 10.3903 is above every argument plus 30 half steps *)
Lemma exp_top : expR 10.3903 <= 32545.
Proof.
  assert (A : expR 0.64939375 <= 1.91438). { eapply Rle_trans; [apply (exp_tail _ 9); [lra|rewrite INR_IZR_INZ; simpl; lra]|]. cbn [Sm]. unfold T. destruct PolyBound.facts as (-> & -> & -> & -> & -> & -> & -> & -> & -> & -> & _). lra. }
  replace 10.3903 with (16 * 0.64939375) by lra. replace (expR (16 * 0.64939375)) with (expR 0.64939375 ^ 16). 2:{ rewrite <- Rpower_pow by apply exp_pos. unfold Rpower. rewrite ln_exp. f_equal. rewrite INR_IZR_INZ. reflexivity. }
  eapply Rle_trans; [apply pow_incr; split; [left; apply exp_pos|exact A]|]. lra.
Qed.

Section Loop.
Variable X : Z.
Hypothesis HX : (0 < X <= 680919)%Z.
Let x := fxR X.
Let y := x + 30 * u.
Lemma x_bnd : 0 < x <= 10.39. Proof. unfold x, fxR. assert (0 < IZR X <= 680919) by (split; [apply IZR_lt|apply IZR_le]; lia). lra. Qed.
Lemma y_bnd : x < y <= 10.3903. Proof. unfold y, u. pose proof x_bnd. lra. Qed.
Lemma y_pos : 0 < y. Proof. pose proof x_bnd. pose proof y_bnd. lra. Qed.
Lemma EX_le : expR y <= 32545. Proof. eapply Rle_trans; [|exact exp_top]. pose proof y_bnd as (_ & H). destruct H as [H| ->]; [left; apply exp_increasing, H|lra]. Qed.
Lemma Tx_le n : 0 < T x n <= expR y.
Proof. pose proof x_bnd. pose proof y_bnd. split; [apply T_pos; lra|]. eapply Rle_trans; [apply (T_mono x y); lra|apply T_le_exp; lra]. Qed.
Lemma Sx_le n : 0 <= Sm x n <= expR y.
Proof. pose proof x_bnd. pose proof y_bnd. split; [apply Sm_nonneg; lra|]. eapply Rle_trans; [apply (Sm_mono x y); lra|apply Sm_exp; lra]. Qed.
Lemma dd2 m : 0 <= dd y m <= 2.
Proof. split; [apply dd_nonneg, y_pos|]. eapply Rle_trans; [apply dd_le, y_pos|]. pose proof EX_le. pose proof (exp_pos y). pose proof y_pos. pose proof y_bnd. assert (expR y * (y / 2 + 2) <= 32545 * 7.2) by (apply Rmult_le_compat; lra). unfold u. lra. Qed.
Lemma DD10 n : (n <= 29)%nat -> 0 <= DD y n <= 10.
Proof.
  intros Hn. split; [clear Hn; induction n as [|n IH]; cbn [DD]; [lra|pose proof (dd2 n); lra]|]. eapply Rle_trans; [apply DD_le, y_pos|]. pose proof EX_le. pose proof (exp_pos y). pose proof y_pos. pose proof y_bnd. assert (INR n <= 29) by (apply le_INR in Hn; rewrite (INR_IZR_INZ 29) in Hn; exact Hn). pose proof (pos_INR n). assert (expR y * (y / 2 + 1 + INR n) <= 32545 * 35.2) by (apply Rmult_le_compat; lra). unfold u. lra.
Qed.
Lemma Xraw : raw X. Proof. unfold raw. lia. Qed.

Lemma loop_step m t : (m <= 27)%nat -> Rabs (fxR t - T x (S m)) <= dd y m ->
  exists q t', div X (fromInt (Z.of_nat (m + 2))) = Ok q /\ mul t q = Ok t' /\ Rabs (fxR t' - T x (S (S m))) <= dd y (S m).
Proof.
  intros Hm Ht. pose proof x_bnd as Xb. pose proof y_bnd as Yb. pose proof y_pos as Yp. set (I := INR (S (S m))). assert (Ib : 2 <= I <= 29). { unfold I. split; [change 2 with (INR 2)|replace 29 with (INR 29) by (rewrite INR_IZR_INZ; reflexivity)]; apply le_INR; lia. }
  assert (EI : IZR (Z.of_nat (m + 2)) = I) by (rewrite <- INR_IZR_INZ; unfold I; f_equal; lia).
  rewrite fromInt_ok by lia. assert (FI : fxR (Z.of_nat (m + 2) * 65536) = I) by (unfold fxR; rewrite mult_IZR, EI; field).
  destruct (div_fx X (Z.of_nat (m + 2) * 65536)) as (q & Eq & Vq & _).
  - exact Xraw.
  - unfold raw. lia.
  - lia.
  - unfold sentinel. lia.
  - unfold sentinel. lia.
  - rewrite FI. fold x. unfold Rdiv. rewrite Rabs_mult, !Rabs_pos_eq by (try lra; left; apply Rinv_0_lt_compat; lra). assert (/ I <= / 2) by (apply Rinv_le_contravar; lra). assert (0 < / I) by (apply Rinv_0_lt_compat; lra). nra.
  - rewrite FI in Vq. fold x in Vq. change (/ 131072) with u in Vq. exists q.
    pose proof (Tx_le (S m)) as T1. pose proof (Tx_le (S (S m))) as T2. pose proof (dd2 m) as D1. pose proof (dd2 (S m)) as D2. pose proof EX_le as EX. assert (U : 0 < u < / 100000) by (unfold u; lra).
    assert (Qy : x / I + u <= y / I). { unfold y. replace ((x + 30 * u) / I) with (x / I + 30 * u / I) by (field; lra). assert (u <= 30 * u / I); [|lra]. apply Rcomplements.Rle_div_r; [lra|]. nra. }
    assert (Q0 : 0 < x / I) by (apply Rmult_lt_0_compat; [lra|apply Rinv_0_lt_compat; lra]). assert (Q6 : x / I <= 5.2) by (apply Rcomplements.Rle_div_l; nra).
    pose proof (rab _ _ _ Vq) as Aq. rewrite (Rabs_pos_eq (x / I)) in Aq by lra. pose proof (rab _ _ _ Ht) as At. rewrite (Rabs_pos_eq (T x (S m))) in At by lra.
    assert (ES : T x (S (S m)) = T x (S m) * (x / I)) by (unfold I; rewrite (T_S x (S m)); reflexivity).
    assert (P : Rabs (fxR t * fxR q - T x (S (S m))) <= dd y m * (y / I) + u * T y (S m)).
    { rewrite ES. replace (fxR t * fxR q - T x (S m) * (x / I)) with ((fxR t - T x (S m)) * fxR q + T x (S m) * (fxR q - x / I)) by ring. eapply Rle_trans; [apply Rabs_triang|]. rewrite !Rabs_mult, (Rabs_pos_eq (T x (S m))) by lra. apply Rplus_le_compat; [apply Rmult_le_compat; try apply Rabs_pos; lra|]. rewrite Rmult_comm. apply Rmult_le_compat; try apply Rabs_pos; try lra. apply T_mono. lra. }
    pose proof (dd_step y m Yp) as St. fold I in St. pose proof (rab _ _ _ P) as Ap. rewrite (Rabs_pos_eq (T x (S (S m)))) in Ap by lra.
    destruct (mul_fx t q) as (t' & Et & Vt & _).
    + apply fx_raw. lra.
    + apply fx_raw. lra.
    + apply safe_fx. lra.
    + lra.
    + exists t'. split; [exact Eq|]. split; [exact Et|]. change (/ 131072) with u in Vt. replace (fxR t' - T x (S (S m))) with ((fxR t' - fxR t * fxR q) + (fxR t * fxR q - T x (S (S m)))) by ring. eapply Rle_trans; [apply Rabs_triang|lra].
Qed.

Definition stops (n : nat) : Prop := n = 29%nat \/ exists t, Rabs (fxR t - T x n) <= dd y (pred n) /\ fxR t < 500 * ulp16 /\ ((15 < n)%nat \/ fxR t < 20 * ulp16).
Definition not15 (n : nat) : Prop := (15 < n)%nat -> 20 * ulp16 <= T x 15 + dd y 14.
Lemma fx_lt t n : (t < n)%Z -> fxR t < IZR n * ulp16. Proof. intros H. apply IZR_lt in H. unfold fxR, ulp16. lra. Qed.
Lemma fx_ge t n : (n <= t)%Z -> IZR n * ulp16 <= fxR t. Proof. intros H. apply IZR_le in H. unfold fxR, ulp16. lra. Qed.
Lemma loop_ok : forall k m t r, (m + k = 28)%nat -> (0 < k)%nat -> Rabs (fxR t - T x (S m)) <= dd y m -> Rabs (fxR r - Sm x (S (S m))) <= DD y (S m) -> not15 (S (S m)) ->
  exists n r', (S (S m) <= n <= 29)%nat /\ exp_loop k (Z.of_nat (m + 2)) X r t = Ok r' /\ Rabs (fxR r' - Sm x (S n)) <= DD y n /\ stops n /\ not15 n.
Proof.
  induction k as [|k IH]; intros m t r Hk K Ht Hr N15; [lia|]. destruct (loop_step m t ltac:(lia) Ht) as (q & t' & Eq & Et & Vt). cbn [exp_loop]. rewrite Eq. cbn [bind]. rewrite Et. cbn [bind].
  pose proof (Tx_le (S (S m))) as T2. pose proof (dd2 (S m)) as D2. pose proof EX_le as EX. pose proof (Sx_le (S (S m))) as S2. pose proof (DD10 (S m) ltac:(lia)) as D3. pose proof (Sx_le (S (S (S m)))) as S3. pose proof (DD10 (S (S m)) ltac:(lia)) as D4.
  assert (Vr : Rabs (fxR (r + t') - Sm x (S (S (S m)))) <= DD y (S (S m))). { rewrite fx_add. change (Sm x (S (S (S m)))) with (Sm x (S (S m)) + T x (S (S m))). change (DD y (S (S m))) with (DD y (S m) + dd y (S m)). replace (fxR r + fxR t' - (Sm x (S (S m)) + T x (S (S m)))) with ((fxR r - Sm x (S (S m))) + (fxR t' - T x (S (S m)))) by ring. eapply Rle_trans; [apply Rabs_triang|lra]. }
  rewrite fx_i32. 2:{ pose proof (rab _ _ _ Vr) as K2. rewrite (Rabs_pos_eq (Sm x (S (S (S m))))) in K2 by lra. lra. } cbn [bind].
  destruct ((t' <? 500)%Z && ((15 <? Z.of_nat (m + 2))%Z || (t' <? 20)%Z)) eqn:C.
  - exists (S (S m)), (r + t')%Z. split; [lia|]. split; [reflexivity|]. split; [exact Vr|]. split; [|exact N15].
    right. exists t'. split; [exact Vt|]. apply andb_prop in C as (C1 & C2). apply Z.ltb_lt in C1. split; [apply fx_lt, C1|]. apply orb_prop in C2 as [C2|C2]; apply Z.ltb_lt in C2; [left; lia|right; apply fx_lt, C2].
  - destruct k as [|k].
    + exists (S (S m)), (r + t')%Z. split; [lia|]. split; [reflexivity|]. split; [exact Vr|]. split; [left; lia|exact N15].
    + assert (N16 : not15 (S (S (S m)))). { intros H. destruct (Nat.eq_dec m 13) as [->|E]; [|apply N15; lia].
        assert (Q : (20 <= t')%Z). { apply Z.nlt_ge. intros Q. revert C. rewrite (proj2 (Z.ltb_lt t' 500)) by lia. rewrite (proj2 (Z.ltb_lt t' 20)) by lia. rewrite orb_true_r. discriminate. }
        apply fx_ge in Q. apply Rabs_le_inv in Vt. change (S (S 13)) with 15%nat in Vt. change (S 13) with 14%nat in Vt. lra. }
      destruct (IH (S m) t' (r + t')%Z) as (n & r' & Hn & E & R); [lia|lia|exact Vt|exact Vr|exact N16|].
      exists n, r'. split; [lia|]. split; [|exact R]. replace (Z.of_nat (m + 2) + 1)%Z with (Z.of_nat (S m + 2)) by lia. exact E.
Qed.
End Loop.
