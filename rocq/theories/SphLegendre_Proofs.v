(** The spherical associated Legendre function in exact arithmetic. *)
From Coq Require Import ZArith Reals Lra Lia Psatz Bool.
From Verif Require Import Base Arith Interp1_Model Interp1_Proofs2 Poly_Model Poly_Spec Poly_Proofs Poly_Proofs2 SphLegendre_Model SphLegendre_Spec.
Open Scope R_scope.

Lemma DLe_rec m : forall n x, (INR (S (S n)) - INR m) * DLe m (S (S n)) x = (2 * INR (S n) + 1) * x * DLe m (S n) x - (INR (S n) + INR m) * DLe m n x.
Proof.
  induction m as [|m IH]; intros n x.
  - cbn [DLe]. rewrite Le_SS. pose proof (pos_INR n). rewrite !S_INR. cbn [INR]. field. lra.
  - assert (E : (INR (S (S n)) - INR m) * DLe (S m) (S (S n)) x = ((2 * INR (S n) + 1) * 1 * DLe m (S n) x + (2 * INR (S n) + 1) * x * DLe (S m) (S n) x) - (INR (S n) + INR m) * DLe (S m) n x).
    { apply (uniqueness_limite (fun t => (INR (S (S n)) - INR m) * DLe m (S (S n)) t) x); [apply deriv_scal, DLe_deriv|].
      apply (deriv_ext (fun t => (2 * INR (S n) + 1) * t * DLe m (S n) t - (INR (S n) + INR m) * DLe m n t)); [intros t; symmetry; apply IH|].
      apply deriv_sub; [|apply deriv_scal, DLe_deriv]. apply (deriv_mul (fun t => (2 * INR (S n) + 1) * t)); [apply deriv_scal, deriv_id|apply DLe_deriv]. }
    pose proof (DLe_SSS m n x) as Q. rewrite (S_INR m). assert (Q2 : (2 * INR (S n) + 1) * DLe m (S n) x = DLe (S m) (S (S n)) x - DLe (S m) n x) by lra. lra.
Qed.
Lemma sqrt_pair a b c d : 0 <= a -> 0 <= b -> 0 <= c -> 0 <= d -> a * b = c * c * d -> sqrt a * sqrt b = c * sqrt d.
Proof. intros Ha Hb Hc Hd E. rewrite <- sqrt_mult by assumption. rewrite E, sqrt_mult by (try assumption; nra). rewrite sqrt_square by exact Hc. reflexivity. Qed.
Lemma fp n : 0 < INR (fact n). Proof. apply INR_fact_lt_0. Qed.
Lemma fS k : INR (fact (S k)) = (INR k + 1) * INR (fact k).
Proof. change (fact (S k)) with (S k * fact k)%nat. rewrite mult_INR, S_INR. reflexivity. Qed.

(** the normalising factor *)
Definition nrm (l m : nat) : R := (2 * INR l + 1) / (4 * PI) * (INR (fact (l - m)) / INR (fact (l + m))).
Lemma div_pos_nn a b : 0 <= a -> 0 < b -> 0 <= a / b.
Proof. intros. apply Rmult_le_pos; [assumption|]. left. apply Rinv_0_lt_compat. assumption. Qed.
Lemma nrm_pos l m : 0 <= nrm l m.
Proof. unfold nrm. pose proof (pos_INR l). pose proof PI_RGT_0. pose proof (fp (l - m)). apply Rmult_le_pos; apply div_pos_nn; try lra. apply fp. Qed.
Lemma odd_fact m : odd_product m * (2 ^ m * INR (fact m)) = INR (fact (2 * m)).
Proof.
  induction m as [|m IH]; [cbn; lra|]. replace (2 * S m)%nat with (S (S (2 * m))) by lia. rewrite !fS, <- IH, (S_INR (2 * m)), mult_INR. cbn [odd_product pow]. change (INR 2) with (1 + 1). ring.
Qed.
Lemma odd_pos m : 0 < odd_product m.
Proof. induction m as [|m IH]; cbn [odd_product]; [lra|]. pose proof (pos_INR m). nra. Qed.
Lemma exp_half t : exp (t / 2) = sqrt (exp t).
Proof. replace t with (t / 2 + t / 2) at 2 by field. rewrite exp_plus. symmetry. apply sqrt_square. left. apply exp_pos. Qed.
Lemma exp_pow_ln u n : 0 < u -> exp (INR n * ln u) = u ^ n.
Proof. intros H. change (Rpower u (INR n) = u ^ n). apply Rpower_pow. exact H. Qed.

Section Interior.
Variables (lg : R -> R) (m : nat) (x : R).
Hypothesis Hg : log_gamma lg.
Hypothesis Hm : (0 < m)%nat.
Hypothesis Hx : -1 < x < 1.
Let root : R := sqrt (1 - x ^ 2).
Definition Yv (l : nat) : R := (-1) ^ m * sqrt (nrm l m) * (root ^ m * DLe m l x).
Lemma u_pos : 0 < 1 - x * x. Proof. nra. Qed.

Lemma start_R : (-1) ^ m * sqrt ((2 + 1 / INR m) / (4 * PI)) * exp (- (1 / 4) * ln PI + 1 / 2 * (lg (INR m + 1 / 2) - lg (INR m) + INR m * ln (1 - x * x))) = Yv m.
Proof.
  unfold Yv. rewrite DLe_diag. pose proof u_pos as U. pose proof PI_RGT_0 as Pp. destruct (Hg m Hm) as (G1 & G2).
  replace (- (1 / 4) * ln PI + 1 / 2 * (lg (INR m + 1 / 2) - lg (INR m) + INR m * ln (1 - x * x))) with ((lg (INR m + 1 / 2) + - lg (INR m) + INR m * ln (1 - x * x) + - (ln PI / 2)) / 2) by field.
  rewrite exp_half, !exp_plus, !exp_Ropp, exp_half, (exp_ln PI Pp), G1, G2, (exp_pow_ln _ m U).
  assert (S0 : 0 < sqrt PI) by (apply sqrt_lt_R0; exact Pp). assert (Mp : 0 < INR m) by (apply lt_0_INR; exact Hm). assert (Up : 0 < (1 - x * x) ^ m) by (apply pow_lt; exact U).
  assert (R1 : root ^ m = sqrt ((1 - x * x) ^ m)). { unfold root. replace (1 - x ^ 2) with (1 - x * x) by ring. clear -U. induction m as [|k IH]; [cbn; rewrite sqrt_1; reflexivity|]. cbn [pow]. rewrite IH, sqrt_mult; [reflexivity|lra|]. apply pow_le. lra. }
  rewrite R1. rewrite !Rmult_assoc. f_equal. pose proof (odd_pos m) as Op. pose proof (odd_fact m) as Of. pose proof (fp m) as F1. pose proof (fp (m - 1)) as F2. pose proof (fp (2 * m)) as F3.
  assert (Fm : INR (fact m) = INR m * INR (fact (m - 1))). { replace m with (S (m - 1)) at 1 2 by lia. rewrite fS. f_equal. rewrite S_INR. reflexivity. }
  assert (P4 : 4 ^ m = 2 ^ m * 2 ^ m) by (rewrite <- Rpow_mult_distr; f_equal; lra). assert (P2 : 0 < 2 ^ m) by (apply pow_lt; lra).
  rewrite <- Rmult_assoc. 
  transitivity (odd_product m * sqrt (nrm m m * (1 - x * x) ^ m)).
  2:{ rewrite sqrt_mult by (try apply nrm_pos; lra). ring. }
  rewrite <- (Rmult_1_l (sqrt ((2 + 1 / INR m) / (4 * PI)) * _)). rewrite (Rmult_1_l (sqrt ((2 + 1 / INR m) / (4 * PI)) * _)).
  apply sqrt_pair.
  - apply div_pos_nn; [|lra]. assert (0 <= 1 / INR m) by (apply div_pos_nn; lra). lra.
  - repeat apply Rmult_le_pos; try lra; left; try apply Rinv_0_lt_compat; try lra. apply Rmult_lt_0_compat; [rewrite P4; nra|exact F1].
  - lra.
  - apply Rmult_le_pos; [apply nrm_pos|lra].
  - unfold nrm. rewrite Nat.sub_diag. replace (m + m)%nat with (2 * m)%nat by lia. rewrite P4, <- Of, Fm. change (INR (fact 0)) with 1. field. repeat split; lra.
Qed.
Lemma next_R : x * sqrt (2 * INR m + 3) * Yv m = Yv (S m).
Proof.
  unfold Yv. rewrite DLe_diag, DLe_next. cbn [odd_product]. pose proof PI_RGT_0 as Pp. pose proof (pos_INR m) as Mp.
  assert (E : sqrt (2 * INR m + 3) * sqrt (nrm m m) = (2 * INR m + 1) * sqrt (nrm (S m) m)).
  { apply sqrt_pair; try apply nrm_pos; try lra. unfold nrm. rewrite Nat.sub_diag. replace (S m - m)%nat with 1%nat by lia. replace (S m + m)%nat with (S (m + m)) by lia. rewrite (fS (m + m)), plus_INR, (S_INR m). change (INR (fact 0)) with 1. change (INR (fact 1)) with 1. pose proof (fp (m + m)). field. repeat split; lra. }
  replace (x * sqrt (2 * INR m + 3) * ((-1) ^ m * sqrt (nrm m m) * (root ^ m * odd_product m))) with (x * (-1) ^ m * (root ^ m * odd_product m) * (sqrt (2 * INR m + 3) * sqrt (nrm m m))) by ring. rewrite E. ring.
Qed.
Lemma step_R k : let l := (m + S (S k))%nat in
  (x * Yv (l - 1) * sqrt (INR (l - m) / INR (l + m) * INR (2 * l + 1) * INR (2 * l - 1)) -
   INR (l + m - 1) * Yv (l - 2) * sqrt (INR (l - m) / INR (l + m) * (INR (l - m - 1) / INR (l + m - 1)) * INR (2 * l + 1) / INR (2 * l - 3))) / INR (l - m) = Yv l.
Proof.
  intros l. unfold l. clear l. pose proof PI_RGT_0 as Pp. pose proof (pos_INR m) as Mp. pose proof (pos_INR k) as Kp. assert (M1 : 1 <= INR m) by (change 1 with (INR 1); apply le_INR; lia).
  replace (m + S (S k) - 1)%nat with (S (m + k)) by lia. replace (m + S (S k) - 2)%nat with (m + k)%nat by lia. replace (m + S (S k) - m - 1)%nat with (S k) by lia. replace (m + S (S k) - m)%nat with (S (S k)) by lia.
  replace (m + S (S k) + m - 1)%nat with (S (m + k + m)) by lia. replace (m + S (S k) + m)%nat with (S (S (m + k + m))) by lia. replace (2 * (m + S (S k)) + 1)%nat with (2 * m + 2 * k + 5)%nat by lia. replace (2 * (m + S (S k)) - 1)%nat with (2 * m + 2 * k + 3)%nat by lia. replace (2 * (m + S (S k)) - 3)%nat with (2 * m + 2 * k + 1)%nat by lia. replace (m + S (S k))%nat with (S (S (m + k))) by lia.
  assert (A1 : INR (2 * m + 2 * k + 5) = 2 * INR m + 2 * INR k + 5) by (rewrite !plus_INR, !mult_INR; cbn [INR]; ring). assert (A2 : INR (2 * m + 2 * k + 3) = 2 * INR m + 2 * INR k + 3) by (rewrite !plus_INR, !mult_INR; cbn [INR]; ring). assert (A3 : INR (2 * m + 2 * k + 1) = 2 * INR m + 2 * INR k + 1) by (rewrite !plus_INR, !mult_INR; cbn [INR]; ring).
  rewrite A1, A2, A3. pose proof (DLe_rec m (m + k) x) as R. unfold Yv.
  assert (B1 : INR (S (S k)) = INR k + 2) by (rewrite !S_INR; ring). assert (B2 : INR (S k) = INR k + 1) by apply S_INR. assert (B3 : INR (S (m + k + m)) = 2 * INR m + INR k + 1) by (rewrite S_INR, !plus_INR; ring). assert (B4 : INR (S (S (m + k + m))) = 2 * INR m + INR k + 2) by (rewrite !S_INR, !plus_INR; ring).
  assert (B5 : INR (S (S (m + k))) = INR m + INR k + 2) by (rewrite !S_INR, !plus_INR; ring). assert (B6 : INR (S (m + k)) = INR m + INR k + 1) by (rewrite !S_INR, !plus_INR; ring). rewrite B5, B6 in R. rewrite B1, B2, B3, B4.
  assert (N0 : nrm (m + k) m = (2 * INR m + 2 * INR k + 1) / (4 * PI) * (INR (fact k) / INR (fact (m + k + m)))). { unfold nrm. rewrite plus_INR. replace (m + k - m)%nat with k by lia. f_equal. f_equal. ring. }
  assert (N1 : nrm (S (m + k)) m = (2 * INR m + 2 * INR k + 3) / (4 * PI) * ((INR k + 1) * INR (fact k) / ((2 * INR m + INR k + 1) * INR (fact (m + k + m))))). { unfold nrm. rewrite B6. replace (S (m + k) - m)%nat with (S k) by lia. replace (S (m + k) + m)%nat with (S (m + k + m)) by lia. rewrite !fS, !plus_INR. pose proof (fp (m + k + m)). pose proof (fp k). field. repeat split; lra. }
  assert (N2 : nrm (S (S (m + k))) m = (2 * INR m + 2 * INR k + 5) / (4 * PI) * ((INR k + 2) * ((INR k + 1) * INR (fact k)) / ((2 * INR m + INR k + 2) * ((2 * INR m + INR k + 1) * INR (fact (m + k + m)))))). { unfold nrm. rewrite B5. replace (S (S (m + k)) - m)%nat with (S (S k)) by lia. replace (S (S (m + k)) + m)%nat with (S (S (m + k + m))) by lia. rewrite !fS, !S_INR, !plus_INR. pose proof (fp (m + k + m)). pose proof (fp k). field. repeat split; lra. }
  pose proof (fp k) as F1. pose proof (fp (m + k + m)) as F2. set (M := INR m) in *. set (K := INR k) in *. set (q := INR (fact (m + k + m))) in *. set (f := INR (fact k)) in *.
  assert (E1 : sqrt ((K + 2) / (2 * M + K + 2) * (2 * M + 2 * K + 5) * (2 * M + 2 * K + 3)) * sqrt (nrm (S (m + k)) m) = (2 * M + 2 * K + 3) * sqrt (nrm (S (S (m + k))) m)).
  { apply sqrt_pair; try apply nrm_pos; try lra.
    - repeat apply Rmult_le_pos; try lra. left. apply Rinv_0_lt_compat. lra.
    - rewrite N1, N2. field. repeat split; lra. }
  assert (E2 : sqrt ((K + 2) / (2 * M + K + 2) * ((K + 1) / (2 * M + K + 1)) * (2 * M + 2 * K + 5) / (2 * M + 2 * K + 1)) * sqrt (nrm (m + k) m) = 1 * sqrt (nrm (S (S (m + k))) m)).
  { apply sqrt_pair; try apply nrm_pos; try lra.
    - repeat apply Rmult_le_pos; try lra; left; apply Rinv_0_lt_compat; lra.
    - rewrite N0, N2. field. repeat split; lra. }
  set (s1 := sqrt (_ * _ * (2 * M + 2 * K + 3))) in *. set (s2 := sqrt (_ / (2 * M + 2 * K + 1))) in *. set (n0 := sqrt (nrm (m + k) m)) in *. set (n1 := sqrt (nrm (S (m + k)) m)) in *. set (n2 := sqrt (nrm (S (S (m + k))) m)) in *. clearbody s1 s2 n0 n1 n2.
  apply (Rmult_eq_reg_r (K + 2)); [|lra]. unfold Rdiv. rewrite Rmult_assoc, Rinv_l, Rmult_1_r by lra.
  replace (x * ((-1) ^ m * n1 * (root ^ m * DLe m (S (m + k)) x)) * s1) with ((-1) ^ m * root ^ m * x * DLe m (S (m + k)) x * (s1 * n1)) by ring.
  replace ((2 * M + K + 1) * ((-1) ^ m * n0 * (root ^ m * DLe m (m + k) x)) * s2) with ((2 * M + K + 1) * (-1) ^ m * root ^ m * DLe m (m + k) x * (s2 * n0)) by ring. rewrite E1, E2.
  replace ((-1) ^ m * n2 * (root ^ m * DLe m (S (S (m + k))) x) * (K + 2)) with ((-1) ^ m * n2 * root ^ m * ((M + K + 2 - M) * DLe m (S (S (m + k))) x)) by ring. rewrite R. ring.
Qed.
Lemma sph_loop_S k ll (a b y : R) : sph_loop (A := RA) (S k) ll m x a b y =
  let y := (x * b * sqrt (INR (ll - m) / INR (ll + m) * INR (2 * ll + 1) * INR (2 * ll - 1)) -
   INR (ll + m - 1) * a * sqrt (INR (ll - m) / INR (ll + m) * (INR (ll - m - 1) / INR (ll + m - 1)) * INR (2 * ll + 1) / INR (2 * ll - 3))) / INR (ll - m) in sph_loop (A := RA) k (S ll) m x b y y.
Proof. cbn [sph_loop]. cbv zeta. rewrite !ofN_R. reflexivity. Qed.
Lemma sph_loop_R k : forall j y, sph_loop (A := RA) (S k) (m + S (S j)) m x (Yv (m + j)) (Yv (S (m + j))) y = Yv (m + S (S (j + k))).
Proof.
  induction k as [|k IH]; intros j y; rewrite sph_loop_S; cbv zeta; pose proof (step_R j) as St; cbv zeta in St; replace (m + S (S j) - 1)%nat with (S (m + j)) in St by lia; replace (m + S (S j) - 2)%nat with (m + j)%nat in St by lia; rewrite St.
  - rewrite Nat.add_0_r. reflexivity.
  - replace (S (m + S (S j))) with (m + S (S (S j)))%nat by lia. replace (S (m + j)) with (m + S j)%nat by lia. replace (Yv (m + S (S j))) with (Yv (S (m + S j))) by (f_equal; lia). rewrite IH. f_equal. lia.
Qed.
End Interior.

Ltac eqR := match goal with |- @eq _ ?a ?b => change (@eq R a b) end.
Lemma sph_legendre_R lg l m theta : log_gamma lg -> (m <= l)%nat -> (cos theta = 1 \/ / 2 ^ 126 < Rabs (1 - cos theta)) -> (cos theta = -1 \/ / 2 ^ 126 < Rabs (-1 - cos theta)) ->
  sph_legendre (A := RA) lg PI (ln PI) l m theta = spherical l m (DLe m l) theta.
Proof.
  intros Hg Hl H1 H2. unfold sph_legendre. rewrite nan_R. replace (l <? m)%nat with false by (symmetry; apply Nat.ltb_ge; exact Hl). unfold spherical. fold (nrm l m). change (o_cos (lib (a := RA)) theta) with (cos theta). set (x := cos theta) in *. cbv zeta. pose proof PI_RGT_0 as Pp. change (o_sqrt (lib (a := RA))) with sqrt. change (o_log (lib (a := RA))) with ln. change (o_exp (lib (a := RA))) with exp.
  destruct m as [|m'].
  - rewrite legendre_R; [|exact H1|destruct H2 as [-> | H2]; [left; lra|right; replace (- (1) - x) with (-1 - x) by lra; exact H2]]. rewrite !ofN_R. ra. cbn [pow DLe]. unfold nrm. rewrite Nat.sub_0_r, Nat.add_0_r. pose proof (fp l). rewrite plus_INR, mult_INR. change (INR 2) with 2. change (INR 1) with 1.
    replace ((2 * INR l + 1) / (4 * PI) * (INR (fact l) / INR (fact l))) with ((2 * INR l + 1) / (4 / 1 * PI)) by (field; split; lra). eqR. ring.
  - set (m := S m') in *. assert (Hm : (0 < m)%nat) by (unfold m; lia). clearbody m. pose proof (COS_bound theta) as Cb. fold x in Cb.
    destruct H1 as [E1 | H1]; [|destruct H2 as [E2 | H2]].
    + rewrite isEqual_true by (ra; rewrite E1; field). rewrite E1. cbn [orb]. ra. replace (1 - 1 ^ 2) with 0 by ring. rewrite sqrt_0, pow_i by exact Hm. field.
    + rewrite (isEqual_true (- (1 / 1))) by (ra; rewrite E2; field). rewrite orb_true_r. rewrite E2. ra. replace (1 - (-1) ^ 2) with 0 by ring. rewrite sqrt_0, pow_i by exact Hm. field.
    + rewrite !isEqual_false by (ra; rewrite ?div1; try exact H1; replace (- (1) - x) with (-1 - x) by lra; exact H2). cbn [orb]. rewrite parity_R, !ofN_R. ra. change (lit (a := RA) 1 2) with (1 / 2). change (lit (a := RA) 1 4) with (1 / 4). rewrite !div1.
      assert (P126 : 0 < / 2 ^ 126) by (apply Rinv_0_lt_compat, pow_lt; lra).
      assert (Hx : -1 < x < 1). { split. - destruct (Rle_lt_or_eq_dec (-1) x) as [L|E]; [lra|exact L|]. exfalso. rewrite <- E in H2. replace (-1 - -1) with 0 in H2 by ring. rewrite Rabs_R0 in H2. lra. - destruct (Rle_lt_or_eq_dec x 1) as [L|E]; [lra|exact L|]. exfalso. rewrite E, Rminus_diag_eq, Rabs_R0 in H1 by reflexivity. lra. }
      replace (INR (2 * m + 3)) with (2 * INR m + 3) by (rewrite plus_INR, mult_INR; cbn [INR]; ring).
      rewrite (start_R lg m x Hg Hm Hx). rewrite (next_R m x Hm). fold (Yv m x l).
      remember (l - m)%nat as d eqn:Ed. destruct d as [|[|k]].
      * replace l with m by lia. reflexivity.
      * replace l with (S m) by lia. reflexivity.
      * replace (m + 2)%nat with (m + S (S 0))%nat by lia. replace (Yv m x m) with (Yv m x (m + 0)) by (f_equal; lia). replace (Yv m x (S m)) with (Yv m x (S (m + 0))) by (f_equal; lia). rewrite (sph_loop_R m x Hm k 0). unfold Yv. replace (m + S (S (0 + k)))%nat with l by lia. reflexivity.
Qed.
