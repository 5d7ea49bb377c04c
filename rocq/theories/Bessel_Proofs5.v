(** The Bessel functions of the specification; the arguments at which the code misses them;
    the special arguments of the Bessel functions. *)
From Coq Require Import ZArith Reals Lra Lia Psatz Bool Factorial.
From Coquelicot Require Import Coquelicot.
From Flocq Require Import Core IEEE754.BinarySingleNaN IEEE754.Binary IEEE754.Bits.
From Verif Require Import Base BaseLemmas Arith Ext32 Bits32 Ffmath_Model Ffmath2_Model Ffmath3_Model Ffmath5_Model Ffmath_Spec Ffmath_Proofs Ffmath_Proofs2 Ffmath_Proofs3 Float32 Ffmath_Proofs4 Ffmath_Proofs7 Ffmath_Proofs8 Ffmath_Proofs9 FloatApp Ffmath_Proofs12 Ffmath_Proofs16 Ellint_Proofs3 Expint_Spec Expint_Proofs Expint_Proofs2 Bessel_Spec Bessel_Proofs Bessel_Proofs2 Bessel_Proofs3 Bessel_Proofs4.
Open Scope R_scope.

(** ** The power series *)
Definition c0 (k : nat) : R := / (INR (fact k) * INR (fact k)).
Definition c1 (k : nat) : R := / (INR (fact k) * INR (fact (S k))).
Lemma bT0_ps z : Series (bT 0 z) = PSeries c0 z.
Proof. unfold PSeries. apply Series_ext. intros k. unfold bT, c0. rewrite Nat.add_0_r. unfold Rdiv. ring. Qed.
Lemma bT1_ps z : Series (bT 1 z) = PSeries c1 z.
Proof. unfold PSeries. apply Series_ext. intros k. unfold bT, c1. replace (k + 1)%nat with (S k) by lia. unfold Rdiv. ring. Qed.
Lemma fact_S_R k : INR (fact (S k)) = INR (S k) * INR (fact k).
Proof. change (fact (S k)) with (S k * fact k)%nat. apply mult_INR. Qed.
Lemma S_p k : 0 < INR (S k). Proof. apply lt_0_INR. lia. Qed.
Lemma inv_lim : is_lim_seq (fun n => / INR (S n)) 0.
Proof. apply (is_lim_seq_inv _ p_infty); [|discriminate]. apply -> is_lim_seq_incr_1. apply is_lim_seq_INR. Qed.
Lemma cv_inf c : (forall k, c k <> 0) -> (forall k, Rabs (c (S k) / c k) <= / INR (S k)) -> CV_radius c = p_infty.
Proof.
  intros H0 H1. apply CV_radius_infinite_DAlembert; [exact H0|]. apply (is_lim_seq_le_le (fun _ => 0) _ (fun n => / INR (S n))); [|apply is_lim_seq_const|apply inv_lim].
  intros n. split; [apply Rabs_pos|apply H1].
Qed.
Lemma cv0 : CV_radius c0 = p_infty.
Proof.
  assert (P : forall k, 0 < c0 k). { intros k. unfold c0. apply Rinv_0_lt_compat. pose proof (fact_p k). nra. }
  apply cv_inf; [intros k; pose proof (P k); lra|]. intros k. pose proof (S_p k) as Pk. pose proof (fact_p k) as Pf.
  assert (E : c0 (S k) / c0 k = / INR (S k) * / INR (S k)). { unfold c0. rewrite fact_S_R. field. split; lra. }
  rewrite E. assert (I : 0 < / INR (S k) <= 1). { split; [apply Rinv_0_lt_compat; exact Pk|]. rewrite <- Rinv_1. apply Rinv_le_contravar; [lra|]. change 1 with (INR 1). apply le_INR. lia. } rewrite Rabs_pos_eq by nra. nra.
Qed.
Lemma cv1 : CV_radius c1 = p_infty.
Proof.
  assert (P : forall k, 0 < c1 k). { intros k. unfold c1. apply Rinv_0_lt_compat. pose proof (fact_p k). pose proof (fact_p (S k)). nra. }
  apply cv_inf; [intros k; pose proof (P k); lra|]. intros k. pose proof (S_p k) as Pk. pose proof (S_p (S k)) as Pk2. pose proof (fact_p k) as Pf.
  assert (E : c1 (S k) / c1 k = / INR (S k) * / INR (S (S k))). { unfold c1. rewrite (fact_S_R (S k)), (fact_S_R k). field. split; lra. }
  rewrite E. assert (I : 0 < / INR (S (S k)) <= 1). { split; [apply Rinv_0_lt_compat; exact Pk2|]. rewrite <- Rinv_1. apply Rinv_le_contravar; [lra|]. change 1 with (INR 1). apply le_INR. lia. } assert (I2 : 0 < / INR (S k)) by (apply Rinv_0_lt_compat; exact Pk). rewrite Rabs_pos_eq by nra. nra.
Qed.
Lemma d0 z : is_derive (PSeries c0) z (PSeries c1 z).
Proof.
  replace (PSeries c1 z) with (PSeries (PS_derive c0) z); [apply is_derive_PSeries; rewrite cv0; exact I|]. apply PSeries_ext. intros k. unfold PS_derive, c0, c1. rewrite fact_S_R. pose proof (S_p k). pose proof (fact_p k). field. split; lra.
Qed.
Lemma d1 z : is_derive (fun t => t * PSeries c1 t) z (PSeries c0 z).
Proof.
  apply (is_derive_ext (PSeries (PS_incr_1 c1))); [intros t; apply PSeries_incr_1|].
  replace (PSeries c0 z) with (PSeries (PS_derive (PS_incr_1 c1)) z); [apply is_derive_PSeries; rewrite CV_radius_incr_1, cv1; exact I|]. apply PSeries_ext. intros k. unfold PS_derive. cbn [PS_incr_1]. unfold c0, c1. rewrite fact_S_R. pose proof (S_p k). pose proof (fact_p k). field. split; lra.
Qed.
Lemma der_eq (f : R -> R) (x l l' : R) : is_derive f x l -> l = l' -> is_derive f x l'.
Proof. intros H <-. exact H. Qed.
Lemma sq_der s x : is_derive (fun t => s * (t / 2) ^ 2) x (s * (x / 2)).
Proof. auto_derive; [auto|]. cbn [Nat.pred pow]. field. Qed.
Lemma I0_der x : derivable_pt_lim (bessel_I 0) x (bessel_I 1 x).
Proof.
  apply is_derive_Reals. apply (is_derive_ext (fun t => PSeries c0 (1 * (t / 2) ^ 2))). { intros t. rewrite I_series, bT0_ps, Rmult_1_l. cbn [pow]. ring_simplify. reflexivity. }
  rewrite I_series, bT1_ps, pow_1. pose proof (is_derive_comp (PSeries c0) (fun t => 1 * (t / 2) ^ 2) x _ _ (d0 (1 * (x / 2) ^ 2)) (sq_der 1 x)) as H. rewrite !Rmult_1_l in H. exact H.
Qed.
Lemma J0_der x : derivable_pt_lim (bessel_J 0) x (- bessel_J 1 x).
Proof.
  apply is_derive_Reals. apply (is_derive_ext (fun t => PSeries c0 (-1 * (t / 2) ^ 2))). { intros t. rewrite J_series, bT0_ps. change ((t / 2) ^ 0) with 1. rewrite Rmult_1_l. f_equal. ring. }
  rewrite J_series, bT1_ps, pow_1. pose proof (is_derive_comp (PSeries c0) (fun t => -1 * (t / 2) ^ 2) x _ _ (d0 (-1 * (x / 2) ^ 2)) (sq_der (-1) x)) as H. replace (- (x / 2) ^ 2) with (-1 * (x / 2) ^ 2) by ring.
  apply (der_eq _ x ((-1 * (x / 2)) * (PSeries c1 (-1 * (x / 2) ^ 2)))); [exact H|]. ring.
Qed.
Lemma I1_der x : derivable_pt_lim (fun t => t * bessel_I 1 t) x (x * bessel_I 0 x).
Proof.
  apply is_derive_Reals. apply (is_derive_ext (fun t => 2 * (fun u => u * PSeries c1 u) (1 * (t / 2) ^ 2))). { intros t. rewrite I_series, bT1_ps, pow_1, Rmult_1_l. match goal with |- ?a = ?b => change (@eq R a b) end. field. }
  pose proof (is_derive_comp (fun u => u * PSeries c1 u) (fun t => 1 * (t / 2) ^ 2) x _ _ (d1 (1 * (x / 2) ^ 2)) (sq_der 1 x)) as H. apply (is_derive_scal _ _ 2) in H.
  apply (der_eq _ x (2 * ((1 * (x / 2)) * PSeries c0 (1 * (x / 2) ^ 2)))); [exact H|]. rewrite I_series, bT0_ps. change ((x / 2) ^ 0) with 1. replace (1 * (x / 2) ^ 2) with ((x / 2) ^ 2) by ring. field.
Qed.
Lemma J1_der x : derivable_pt_lim (fun t => t * bessel_J 1 t) x (x * bessel_J 0 x).
Proof.
  apply is_derive_Reals. apply (is_derive_ext (fun t => -2 * (fun u => u * PSeries c1 u) (-1 * (t / 2) ^ 2))). { intros t. rewrite J_series, bT1_ps, pow_1. replace (- (t / 2) ^ 2) with (-1 * (t / 2) ^ 2) by ring. match goal with |- ?a = ?b => change (@eq R a b) end. field. }
  pose proof (is_derive_comp (fun u => u * PSeries c1 u) (fun t => -1 * (t / 2) ^ 2) x _ _ (d1 (-1 * (x / 2) ^ 2)) (sq_der (-1) x)) as H. apply (is_derive_scal _ _ (-2)) in H.
  apply (der_eq _ x (-2 * ((-1 * (x / 2)) * PSeries c0 (-1 * (x / 2) ^ 2)))); [exact H|]. rewrite J_series, bT0_ps. change ((x / 2) ^ 0) with 1. replace (- (x / 2) ^ 2) with (-1 * (x / 2) ^ 2) by ring. field.
Qed.
Lemma at_zero : bessel_I 0 0 = 1 /\ bessel_J 0 0 = 1 /\ bessel_I 1 0 = 0 /\ bessel_J 1 0 = 0.
Proof.
  assert (Z : PSeries c0 0 = 1). { rewrite PSeries_0. unfold c0. cbn. lra. }
  rewrite !I_series, !J_series, !bT0_ps, !pow_1. replace ((0 / 2) ^ 2) with 0 by field. rewrite Ropp_0, Z. change ((0 / 2) ^ 0) with 1. repeat split; lra.
Qed.

(** ** Series of terms that shrink by four *)
Lemma tail4 (a : nat -> R) N : (forall k, 0 <= a k) -> (forall k, (N <= k)%nat -> a (S k) <= a k / 4) -> ex_series a /\ sum_f_R0 a N <= Series a <= sum_f_R0 a N + a N / 3.
Proof.
  intros P H. assert (G : forall j, a (N + j)%nat <= a N * (/ 4) ^ j). { induction j as [|j IH]; [rewrite Nat.add_0_r; cbn; lra|]. replace (N + S j)%nat with (S (N + j)) by lia. cbn [pow]. eapply Rle_trans; [apply H; lia|]. lra. }
  assert (Eg : is_series (fun j => a N * (/ 4) ^ j) (a N * (4 / 3))). { replace (a N * (4 / 3)) with (a N * / (1 - / 4)) by field. apply (is_series_scal_l (a N) (fun j => (/ 4) ^ j)). apply is_series_geom. rewrite Rabs_pos_eq; lra. }
  assert (E1 : ex_series (fun j => a (N + j)%nat)). { apply (@ex_series_le R_AbsRing R_CompleteNormedModule _ (fun j => a N * (/ 4) ^ j)); [|eexists; exact Eg]. intros j. unfold norm. simpl. unfold abs. simpl. rewrite Rabs_pos_eq by apply P. apply G. }
  assert (Ea : ex_series a) by (apply (ex_series_incr_n a N); exact E1). split; [exact Ea|].
  assert (E2 : ex_series (fun k => a (S N + k)%nat)) by (apply (ex_series_incr_n a (S N)); exact Ea). rewrite (Series_incr_n a (S N) ltac:(lia) Ea). cbn [pred].
  assert (S0 : 0 <= Series (fun k => a (S N + k)%nat)). { replace 0 with (Series (fun _ => 0)) by (apply is_series_unique; rewrite <- (Rmult_0_l 0); apply (is_series_scal_l 0 (fun _ => 0)) with (l := 0); apply is_series_Reals; intros e He; exists 0%nat; intros n _; rewrite sum_eq_R0 by auto; unfold R_dist; rewrite Rminus_0_r, Rabs_R0; exact He). apply Series_le; [intros n; split; [lra|apply P]|exact E2]. }
  assert (S1 : Series (fun k => a (S N + k)%nat) <= a N / 3). { replace (a N / 3) with (Series (fun j => a N / 4 * (/ 4) ^ j)). 2:{ apply is_series_unique. replace (a N / 3) with (a N / 4 * / (1 - / 4)) by field. apply (is_series_scal_l (a N / 4) (fun j => (/ 4) ^ j)). apply is_series_geom. rewrite Rabs_pos_eq; lra. }
    apply Series_le; [intros n; split; [apply P|]|]. { replace (S N + n)%nat with (N + S n)%nat by lia. eapply Rle_trans; [apply G|]. cbn [pow]. lra. } exists (a N / 4 * / (1 - / 4)). apply (is_series_scal_l (a N / 4) (fun j => (/ 4) ^ j)). apply is_series_geom. rewrite Rabs_pos_eq; lra. }
  change (Init.Nat.pred (S N)) with N. split; lra.
Qed.
(** I_0(5) *)
Lemma I0_5 : bessel_I 0 5 <= 274 / 10.
Proof.
  rewrite I_series. change ((5 / 2) ^ 0) with 1. rewrite Rmult_1_l. destruct (tail4 (bT 0 ((5 / 2) ^ 2)) 4) as (_ & _ & H).
  - intros k. apply bT_nonneg. apply pow2_ge_0.
  - intros k Hk. rewrite bT_S. pose proof (bT_nonneg 0 ((5 / 2) ^ 2) k (pow2_ge_0 _)) as P. unfold Rdiv at 3. apply Rmult_le_compat_l; [exact P|]. rewrite Nat.add_0_r. assert (5 <= INR (S k)) by (replace 5 with (INR 5) by (rewrite INR_IZR_INZ; reflexivity); apply le_INR; lia). pose proof (S_p k). apply Rcomplements.Rle_div_l; nra.
  - eapply Rle_trans; [exact H|]. unfold bT. cbn [sum_f_R0 pow fact Nat.add Nat.mul]. rewrite !INR_IZR_INZ. cbn [Z.of_nat Pos.of_succ_nat Pos.succ]. lra.
Qed.
Lemma I0_2 : 2279 / 1000 <= bessel_I 0 2.
Proof.
  rewrite I_series. change ((2 / 2) ^ 0) with 1. rewrite Rmult_1_l. destruct (tail4 (bT 0 ((2 / 2) ^ 2)) 4) as (_ & H & _).
  - intros k. apply bT_nonneg. apply pow2_ge_0.
  - intros k Hk. rewrite bT_S. pose proof (bT_nonneg 0 ((2 / 2) ^ 2) k (pow2_ge_0 _)) as P. unfold Rdiv at 3. apply Rmult_le_compat_l; [exact P|]. rewrite Nat.add_0_r. assert (5 <= INR (S k)) by (replace 5 with (INR 5) by (rewrite INR_IZR_INZ; reflexivity); apply le_INR; lia). pose proof (S_p k). apply Rcomplements.Rle_div_l; nra.
  - eapply Rle_trans; [|exact H]. unfold bT. cbn [sum_f_R0 pow fact Nat.add Nat.mul]. rewrite !INR_IZR_INZ. cbn [Z.of_nat Pos.of_succ_nat Pos.succ]. lra.
Qed.
Lemma harm_pos k : 0 <= harmonic k.
Proof. induction k as [|k IH]; cbn [harmonic]; [lra|]. pose proof (Rinv_0_lt_compat _ (S_p k)). lra. Qed.
Lemma harm_ge k : (1 <= k)%nat -> 1 <= harmonic k.
Proof. intros H. induction k as [|k IH]; [lia|]. cbn [harmonic]. pose proof (Rinv_0_lt_compat _ (S_p k)). destruct k as [|k]; [cbn; lra|]. pose proof (IH ltac:(lia)). lra. Qed.
Lemma K0_2 : bessel_K0 euler_gamma 2 <= 1147 / 10000.
Proof.
  unfold bessel_K0. replace (2 / 2) with 1 by field. rewrite ln_1, Rplus_0_l. set (a := fun k : nat => _).
  assert (Pa : forall k, 0 <= a k). { intros k. unfold a. rewrite pow1. pose proof (harm_pos k). pose proof (fact_p k). apply Rmult_le_pos; [lra|]. left. apply Rinv_0_lt_compat. nra. }
  destruct (tail4 a 5 Pa) as (_ & _ & H).
  - intros k Hk. unfold a. rewrite !pow1. rewrite fact_S_R. cbn [harmonic]. pose proof (harm_ge k ltac:(lia)) as G. pose proof (fact_p k) as Pf. assert (5 <= INR (S k)) by (replace 5 with (INR 5) by (rewrite INR_IZR_INZ; reflexivity); apply le_INR; lia). pose proof (S_p k) as Ps.
    assert (Q : / INR (S k) <= harmonic k). { apply Rle_trans with 1; [|exact G]. rewrite <- Rinv_1. apply Rinv_le_contravar; lra. }
    set (n := INR (S k)) in *. set (f := INR (fact k)) in *. set (h := harmonic k) in *. clearbody n f h. replace ((h + / n) * 1 / (n * f * (n * f))) with ((h + / n) * (/ (n * n) * / (f * f))) by (field; split; lra). replace (h * 1 / (f * f) / 4) with (h / 4 * / (f * f)) by (field; lra).
    assert (W : 0 < / (f * f)) by (apply Rinv_0_lt_compat; nra). assert (W2 : / (n * n) <= / 25) by (apply Rinv_le_contravar; nra). assert (W3 : 0 < / (n * n)) by (apply Rinv_0_lt_compat; nra). rewrite <- Rmult_assoc. apply Rmult_le_compat_r; [lra|]. nra.
  - assert (Hs : Series a <= 142982 / 100000). { eapply Rle_trans; [exact H|]. unfold a. rewrite !pow1. cbn [sum_f_R0 harmonic pow fact Nat.add Nat.mul]. rewrite !INR_IZR_INZ. cbn [Z.of_nat Pos.of_succ_nat Pos.succ]. lra. }
    pose proof I0_2. pose proof gamma_val as Gv. apply Rabs_le_inv in Gv. nra.
Qed.
Definition i05 : float := ofU 1105315130.
Definition ob (r : res float) : Z := match r with Ok y => bits_of_b32 y | Ub => (-1)%Z end.
Lemma ob_ok r b : ob r = bits_of_b32 b -> bits_of_b32 b <> (-1)%Z -> r = Ok b. Proof. apply res_bits. Qed.
Lemma i05_R : finite i05 /\ 28 <= valR i05. Proof. assert (H : finite i05 /\ valR i05 = 7398045 / 262144) by (unfold i05; cst). destruct H as (F & ->). split; [exact F|lra]. Qed.
