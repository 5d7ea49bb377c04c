(** Laguerre, associated Legendre, extrema and the polygon test. *)
From Coq Require Import ZArith List Bool Lia Reals Lra Psatz.
From Flocq Require Import Core IEEE754.Binary IEEE754.Bits.
From Verif Require Import Base BaseLemmas Ext32 Arith ArithLemmas Interp1_Model Interp1_Proofs2 Poly_Model Poly_Spec Poly_Proofs.
Import ListNotations.
Open Scope R_scope.

(** ** Laguerre *)
Lemma C_step n j : (S j <= n)%nat -> Binomial.C n (S j) * INR (S j) = Binomial.C n j * INR (n - j).
Proof.
  intros H. unfold Binomial.C. replace (n - j)%nat with (S (n - S j)) by lia. set (m := (n - S j)%nat). rewrite (fact_simpl j), (fact_simpl m), !mult_INR.
  pose proof (INR_fact_neq_0 j). pose proof (INR_fact_neq_0 m). assert (INR (S j) <> 0) by (apply not_0_INR; lia). assert (INR (S m) <> 0) by (apply not_0_INR; lia). field. auto.
Qed.
Lemma C_0 n : Binomial.C n 0 = 1.
Proof. unfold Binomial.C. rewrite Nat.sub_0_r. cbn [fact INR]. field. apply INR_fact_neq_0. Qed.
Lemma C_1 m : Binomial.C (S m) 1 = INR m + 1.
Proof. pose proof (C_step (S m) 0 ltac:(lia)) as Q. rewrite C_0, Nat.sub_0_r, (S_INR m) in Q. change (INR 1) with 1 in Q. rewrite Rmult_1_r, Rmult_1_l in Q. exact Q. Qed.
Section Laguerre.
Variables n a : nat.
Variable x : R.
Hypothesis Hx : 0 < x.
Definition lag_term (i : nat) : R := (- 1) ^ i * Binomial.C (n + a) (n - i) / INR (fact i) * x ^ i.
Lemma lag_step i : (i < n)%nat -> lag_term (S i) * ((INR a + 1 + INR i) / INR (n - i) * (INR i + 1) / - x) = lag_term i.
Proof.
  intros Hi. unfold lag_term. pose proof (C_step (n + a) (n - S i)) as Cs. replace (S (n - S i)) with (n - i)%nat in Cs by lia.
  replace (n + a - (n - S i))%nat with (S (a + i)) in Cs by lia. specialize (Cs ltac:(lia)). rewrite S_INR, plus_INR in Cs.
  rewrite fact_simpl, mult_INR, (S_INR i). cbn [pow]. assert (INR (n - i) <> 0) by (apply not_0_INR; lia). pose proof (INR_fact_neq_0 i). pose proof (pos_INR i).
  assert (E : Binomial.C (n + a) (n - i) = Binomial.C (n + a) (n - S i) * (INR a + INR i + 1) / INR (n - i)).
  { apply (Rmult_eq_reg_r (INR (n - i))); [|exact H]. rewrite Cs. field. exact H. }
  rewrite E. field. repeat split; auto; lra.
Qed.
Lemma hyperg_start_R k : forall i tc, hyperg_start (A := RA) k (S i) x tc = tc * x ^ k * (INR (fact i) / INR (fact (i + k))).
Proof.
  induction k as [|k IH]; intros i tc; cbn [hyperg_start].
  - rewrite Nat.add_0_r. cbn [pow]. ra. field. apply INR_fact_neq_0.
  - rewrite ofN_R. ra. etransitivity; [exact (IH (S i) (tc * (x / INR (S i))))|]. replace (S i + k)%nat with (i + S k)%nat by lia. rewrite fact_simpl, mult_INR. cbn [pow].
    field. split; [apply INR_fact_neq_0|apply not_0_INR; lia].
Qed.
Lemma hyperg_loop_R k : forall s, (k <= n)%nat -> hyperg_loop (A := RA) k n (INR a + 1) (- x) (lag_term k) s = s + (sum_f_R0 lag_term k - lag_term k).
Proof.
  induction k as [|k IH]; intros s Hk; cbn [hyperg_loop].
  - cbn [sum_f_R0]. ra. ring.
  - rewrite !ofN_R. ra. rewrite div1.
    match goal with |- hyperg_loop k n _ _ ?t (s + ?t) = _ => replace t with (lag_term k) by (symmetry; apply lag_step; lia) end.
    rewrite IH by lia. rewrite tech5. ring.
Qed.
Lemma laguerre_hyperg_R : poly_laguerre_hyperg (A := RA) n (INR a) x = laguerre_sum n a x.
Proof.
  unfold poly_laguerre_hyperg. ra. rewrite !div1. unfold Rltb. destruct (Rlt_dec x 0); [lra|]. rewrite Rabs_pos_eq by lra. rewrite parity_R.
  rewrite hyperg_start_R. cbn [fact plus INR].
  replace (1 * x ^ n * (1 / INR (fact n)) * (-1) ^ n) with (lag_term n).
  - rewrite hyperg_loop_R by lia. unfold laguerre_sum. fold lag_term. change (fun i : nat => (-1) ^ i * Binomial.C (n + a) (n - i) / INR (fact i) * x ^ i) with lag_term. ring.
  - unfold lag_term. rewrite Nat.sub_diag, C_0. field. apply INR_fact_neq_0.
Qed.
End Laguerre.
Lemma Rltb_t (x y : R) : x < y -> Rltb x y = true. Proof. intros. unfold Rltb. destruct (Rlt_dec x y); [reflexivity|lra]. Qed.
Lemma Rltb_f (x y : R) : y <= x -> Rltb x y = false. Proof. intros. unfold Rltb. destruct (Rlt_dec x y); [lra|reflexivity]. Qed.

Lemma laguerre_low large n m x : (n <= 1)%nat -> 0 <= x -> assoc_laguerre (A := RA) large n m x = laguerre_sum n m x.
Proof.
  intros Hn Hx. unfold assoc_laguerre. cbv zeta. rewrite nan_R. ra. rewrite div1, (Rltb_f x 0) by lra. cbn [orb]. unfold laguerre_sum. destruct n as [|[|n]]; [| |lia].
  - cbn [sum_f_R0 Nat.sub fact INR pow]. rewrite C_0. field.
  - rewrite ofN_R. cbn [sum_f_R0 Nat.sub fact INR pow Nat.mul Nat.add]. rewrite C_0. rewrite C_1. field.
Qed.
Lemma laguerre_far large n m x : (2 <= n)%nat -> 2 * (INR m + 1) + 4 * INR n <= x -> assoc_laguerre (A := RA) large n m x = laguerre_sum n m x.
Proof.
  intros Hn Hx. pose proof (pos_INR m). assert (2 <= INR n) by (apply le_INR in Hn; cbn in Hn; lra). assert (Tol : / 2 ^ 126 < 1).
  { rewrite <- Rinv_1. apply Rinv_lt_contravar; [|apply Rlt_pow_R1; [lra|lia]]. rewrite Rmult_1_l. apply pow_lt. lra. }
  rewrite <- laguerre_hyperg_R by lra. unfold assoc_laguerre. cbv zeta. rewrite nan_R, !ofN_R. rewrite isEqual_false by (ra; rewrite div1, Rabs_left by lra; lra).
  ra. rewrite !div1, (Rltb_f x 0) by lra. cbn [orb]. destruct n as [|[|k]]; try lia.
  rewrite (Rltb_f x (2 * (INR m + 1) + 4 * INR (S (S k)))) by lra. rewrite andb_false_r. rewrite (Rltb_f (INR m)) by lra. rewrite andb_false_r. reflexivity.
Qed.
Lemma laguerre0_R k : forall i a p, (1 <= i)%nat -> laguerre0_loop (A := RA) k i (INR a) p = p * (INR (fact (a + i + k - 1)) / INR (fact (a + i - 1)) * (INR (fact (i - 1)) / INR (fact (i + k - 1)))).
Proof.
  induction k as [|k IH]; intros i a p Hi; cbn [laguerre0_loop].
  - rewrite !Nat.add_0_r. ra. field. split; apply INR_fact_neq_0.
  - rewrite !ofN_R. ra. etransitivity; [exact (IH (S i) a (p * ((INR a + INR i) / INR i)) ltac:(lia))|]. replace (a + S i + k - 1)%nat with (a + i + S k - 1)%nat by lia.
    replace (S i + k - 1)%nat with (i + S k - 1)%nat by lia. replace (a + S i - 1)%nat with (S (a + i - 1)) by lia. replace (S i - 1)%nat with (S (i - 1)) by lia.
    rewrite (fact_simpl (a + i - 1)), (fact_simpl (i - 1)), !mult_INR. replace (S (a + i - 1)) with (a + i)%nat by lia. replace (S (i - 1)) with i by lia. rewrite plus_INR.
    pose proof (pos_INR a). assert (1 <= INR i) by (apply le_INR in Hi; cbn in Hi; lra). field. repeat split; try apply INR_fact_neq_0; lra.
Qed.
(** At zero the loop stops one factor early: C(m + n - 1, n - 1) instead of C(m + n, n). *)
Lemma laguerre_zero large n m : (2 <= n)%nat -> assoc_laguerre (A := RA) large n m 0 = Binomial.C (m + n - 1) (n - 1).
Proof.
  intros Hn. unfold assoc_laguerre. cbv zeta. rewrite nan_R, !ofN_R. rewrite isEqual_true by (ra; field). ra. rewrite !div1, (Rltb_f 0 0) by lra. cbn [orb].
  destruct n as [|[|k]]; try lia. rewrite (laguerre0_R k 2 m (INR m + 1)) by lia. unfold Binomial.C. replace (2 + k - 1)%nat with (S k) by lia. replace (S (S k) - 1)%nat with (S k) by lia. change (INR (fact (2 - 1))) with 1.
  replace (m + 2 + k - 1)%nat with (m + S k)%nat by lia. replace (m + 2 - 1)%nat with (S m) by lia. replace (m + S (S k) - 1)%nat with (m + S k)%nat by lia.
  replace (m + S k - S k)%nat with m by lia. rewrite (fact_simpl m), mult_INR, S_INR. pose proof (pos_INR m). field. repeat split; try apply INR_fact_neq_0. lra.
Qed.
Lemma laguerre_sum_0 n m : laguerre_sum n m 0 = Binomial.C (n + m) n.
Proof.
  unfold laguerre_sum. destruct n as [|n]; [cbn [sum_f_R0 Nat.sub fact INR pow]; field|].
  rewrite decomp_sum by lia. cbn [Nat.sub fact INR pow]. rewrite (sum_eq_R0 _ (Nat.pred (S n))); [field|]. intros i Hi. ring.
Qed.

(** ** Associated Legendre *)
Lemma assoc_start_R k : forall j root p, assoc_start (A := RA) k root (2 * INR j + 1) p * odd_product j = p * odd_product (j + k) * root ^ k.
Proof.
  induction k as [|k IH]; intros j root p; cbn [assoc_start].
  - rewrite Nat.add_0_r. cbn [pow]. ra. ring.
  - ra. replace (2 * INR j + 1 + 2 / 1) with (2 * INR (S j) + 1) by (rewrite S_INR; field). rewrite div1.
    apply (Rmult_eq_reg_r (2 * INR j + 1)); [|pose proof (pos_INR j); lra].
    transitivity (assoc_start (A := RA) k root (2 * INR (S j) + 1) (p * (1 * (2 * INR j + 1) * root)) * odd_product (S j)); [cbn [odd_product]; ring|].
    rewrite IH. replace (j + S k)%nat with (S j + k)%nat by lia. cbn [pow]. ring.
Qed.
Lemma assoc_start_0 k root : assoc_start (A := RA) k root 1 1 = odd_product k * root ^ k.
Proof. pose proof (assoc_start_R k 0 root 1) as H. cbn [INR odd_product plus] in H. replace (2 * 0 + 1) with 1 in H by ring. lra. Qed.
Lemma root_R x : - 1 <= x <= 1 -> sqrt (1 - x) * sqrt (1 + x) = sqrt (1 - x ^ 2).
Proof. intros H. rewrite <- sqrt_mult by lra. f_equal. ring. Qed.
Lemma assoc_diag m x : (0 < m)%nat -> - 1 <= x <= 1 -> assoc_legendre (A := RA) m m x = odd_product m * sqrt (1 - x ^ 2) ^ m.
Proof.
  intros Hm Hx. unfold assoc_legendre. rewrite Nat.ltb_irrefl, nan_R. destruct m as [|m]; [lia|]. rewrite Nat.sub_diag. cbv zeta. ra. rewrite !div1. change (o_sqrt (lib (a := RA))) with sqrt.
  rewrite root_R by exact Hx. apply assoc_start_0.
Qed.
Lemma assoc_next m x : (0 < m)%nat -> - 1 <= x <= 1 -> assoc_legendre (A := RA) (S m) m x = (2 * INR m + 1) * x * (odd_product m * sqrt (1 - x ^ 2) ^ m).
Proof.
  intros Hm Hx. unfold assoc_legendre. replace (S m <? m)%nat with false by (symmetry; apply Nat.ltb_ge; lia). rewrite nan_R. destruct m as [|m]; [lia|]. replace (S (S m) - S m)%nat with 1%nat by lia.
  cbv zeta. rewrite ofN_R. ra. rewrite !div1. change (o_sqrt (lib (a := RA))) with sqrt.
  rewrite root_R by exact Hx. rewrite assoc_start_0. reflexivity.
Qed.

(** ** Max and Min *)
Lemma Max_in {A : arith} args : forall first : F A, In (Max first args) (first :: args).
Proof. induction args as [|a t IH]; intros first; cbn [Max]; [left; reflexivity|]. destruct (flt (Max a t) first); [left; reflexivity|right; apply IH]. Qed.
Lemma Min_in {A : arith} args : forall first : F A, In (Min first args) (first :: args).
Proof. induction args as [|a t IH]; intros first; cbn [Min]; [left; reflexivity|]. destruct (flt first (Min a t)); [left; reflexivity|right; apply IH]. Qed.

(** ** inPolygon *)
Lemma get_some {T} (l : list T) i : (0 <= i < zlen l)%Z -> exists v, get l i = Ok v.
Proof. intros H. destruct l as [|d l']; [unfold zlen in H; cbn in H; lia|]. exists (nth (Z.to_nat i) (d :: l') d). apply get_ok_nth. exact H. Qed.
Section Polygon.
Context {A : arith}.
Lemma box_ok k : forall i (px py : list (F A)) a b c d, (0 <= i)%Z -> (i + Z.of_nat k <= zlen px)%Z -> (i + Z.of_nat k <= zlen py)%Z -> In a py -> In c py -> In b px -> In d px ->
  exists a' b' c' d', box_loop k i px py a b c d = Ok (a', b', c', d') /\ In a' py /\ In c' py /\ In b' px /\ In d' px.
Proof.
  induction k as [|k IH]; intros i px py a b c d Hi Hx Hy Ia Ic Ib Id; cbn [box_loop]; [exists a, b, c, d; auto|].
  destruct (get_some py i) as [yi Ey]; [lia|]. destruct (get_some px i) as [xi Ex]; [lia|]. rewrite Ey, Ex. cbn [bind].
  assert (In yi py) by (apply get_ok_iff in Ey; destruct Ey as [_ Ey]; apply nth_error_In in Ey; exact Ey).
  assert (In xi px) by (apply get_ok_iff in Ex; destruct Ex as [_ Ex]; apply nth_error_In in Ex; exact Ex).
  apply IH; try lia; match goal with |- In (if ?c then _ else _) _ => destruct c; auto end.
Qed.
Lemma cross_ok k : forall i j x y (px py : list (F A)) r, (0 <= i)%Z -> (i + Z.of_nat k <= zlen px)%Z -> zlen py = zlen px -> (0 <= j < zlen px)%Z ->
  exists b, cross_loop k i j x y px py r = Ok b.
Proof.
  induction k as [|k IH]; intros i j x y px py r Hi Hx Hy Hj; cbn [cross_loop]; [eauto|].
  destruct (get_some px i) as [xi ->]; [lia|]. destruct (get_some px j) as [xj ->]; [lia|]. destruct (get_some py i) as [yi ->]; [lia|]. destruct (get_some py j) as [yj ->]; [lia|]. cbn [bind].
  match goal with |- exists b, bind (if ?c then _ else _) _ = _ => destruct c end; cbn [bind]; apply IH; lia.
Qed.
End Polygon.

(** ** Derivatives of the Legendre polynomials *)
Fixpoint DLe (k : nat) : nat -> R -> R :=
  match k with
  | O => Le
  | S k' => fix D (n : nat) : R -> R := match n with O => fun _ => 0 | S O => DLe k' O | S (S j as n') => fun x => D j x + (2 * INR (S j) + 1) * DLe k' n' x end
  end.
Lemma DLe_S0 k x : DLe (S k) 0 x = 0. Proof. reflexivity. Qed.
Lemma DLe_S1 k x : DLe (S k) 1 x = DLe k 0 x. Proof. reflexivity. Qed.
Lemma DLe_SSS k n x : DLe (S k) (S (S n)) x = DLe (S k) n x + (2 * INR (S n) + 1) * DLe k (S n) x. Proof. reflexivity. Qed.
Lemma nat_ind2 (P : nat -> Prop) : P O -> P 1%nat -> (forall n, P n -> P (S n) -> P (S (S n))) -> forall n, P n.
Proof. intros H0 H1 H n. assert (P n /\ P (S n)) as [Q _]; [|exact Q]. induction n as [|n [I J]]; split; auto. Qed.
Lemma DLe_1 n x : DLe 1 n x = dLe n x.
Proof.
  revert n. apply nat_ind2; [reflexivity|reflexivity|]. intros n I _. rewrite DLe_SSS, I. cbn [DLe].
  pose proof (proj1 (Le_ids n x)). pose proof (proj2 (Le_ids (S n) x)). rewrite (S_INR (S n)) in H0. lra.
Qed.
Lemma DLe_deriv k : forall n x, derivable_pt_lim (DLe k n) x (DLe (S k) n x).
Proof.
  induction k as [|k IH].
  - intros n x. apply (deriv_eq _ _ (dLe n x)); [apply Le_deriv|]. symmetry. apply DLe_1.
  - refine (nat_ind2 _ _ _ _).
    + intros x. exact (deriv_const 0 x).
    + intros x. apply (deriv_ext (DLe k 0)); [reflexivity|]. apply (deriv_eq _ _ _ _ (IH 0%nat x)). reflexivity.
    + intros n I J x. apply (deriv_ext (fun t => DLe (S k) n t - (- (2 * INR (S n) + 1)) * DLe k (S n) t)); [intros t; rewrite DLe_SSS; ring|].
      eapply deriv_eq; [apply deriv_sub; [apply I|apply deriv_scal; apply IH]|]. rewrite (DLe_SSS (S k) n). ring.
Qed.
Lemma DLe_zero k : forall n x, (n < k)%nat -> DLe k n x = 0.
Proof.
  induction k as [|k IH]; [intros; lia|]. refine (nat_ind2 _ _ _ _).
  - intros x H. exact (DLe_S0 k x).
  - intros x H. rewrite DLe_S1. apply IH. lia.
  - intros n I J x H. rewrite DLe_SSS, I, IH by lia. ring.
Qed.
Lemma DLe_diag n x : DLe n n x = odd_product n.
Proof.
  induction n as [|n IH]; [reflexivity|]. destruct n as [|n]; [rewrite DLe_S1; cbn [DLe Le odd_product INR]; ring|].
  rewrite DLe_SSS, IH, DLe_zero by lia. cbn [odd_product]. ring.
Qed.
Lemma DLe_next n x : DLe n (S n) x = odd_product (S n) * x.
Proof.
  induction n as [|n IH]; [cbn [DLe Le odd_product INR]; ring|]. rewrite DLe_SSS, IH, DLe_zero by lia. cbn [odd_product]. ring.
Qed.
Lemma DLe_all n : derivatives (Le n) (fun k => DLe k n).
Proof. split; [reflexivity|]. intros k x. apply DLe_deriv. Qed.
Lemma Le_legendre n : legendre_polynomial n (Le n).
Proof. split; [apply Le_poly|]. split; [apply Le_1|apply Le_equation]. Qed.
Lemma legendre_p_R n x : x = - 1 \/ / 2 ^ 126 < Rabs (- 1 - x) -> poly_legendre_p (A := RA) n x = Le n x.
Proof.
  intros H. unfold poly_legendre_p. rewrite nan_R. destruct H as [->|H].
  - rewrite isEqual_true by (ra; field). rewrite parity_R, Le_m1. reflexivity.
  - rewrite isEqual_false by (ra; rewrite div1; exact H). apply legendre_rec_R.
Qed.
Lemma legendre_R n x : x = 1 \/ / 2 ^ 126 < Rabs (1 - x) -> x = - 1 \/ / 2 ^ 126 < Rabs (- 1 - x) -> legendre (A := RA) n x = Le n x.
Proof.
  intros H1 H2. unfold legendre. rewrite nan_R. destruct H1 as [->|H1].
  - rewrite isEqual_true by (ra; field). rewrite Le_1. ra. apply div1.
  - rewrite isEqual_false by (ra; rewrite div1; exact H1). etransitivity; [|apply (legendre_p_R n x H2)]. unfold poly_legendre_p. rewrite nan_R. reflexivity.
Qed.

(** ** The order of binary32 *)
Lemma b32_le_trans o (x y z : F (B32 o)) : fisnan x = false -> fisnan y = false -> fisnan z = false -> fle x y = true -> fle y z = true -> fle x z = true.
Proof. rewrite !b32_isnan. cbn. intros Hx Hy Hz. rewrite !b32_le_ext by assumption. apply Rle_trans. Qed.
Lemma b32_le_refl o (x : F (B32 o)) : fisnan x = false -> fle x x = true.
Proof. rewrite !b32_isnan. cbn. intros Hx. apply b32_le_ext; auto. lra. Qed.
Lemma Max_upper o args : forall first a : F (B32 o), (forall v, In v (first :: args) -> fisnan v = false) -> In a (first :: args) -> fle a (Max first args) = true.
Proof.
  induction args as [|b t IH]; intros first a N I.
  - destruct I as [<-|[]]. apply b32_le_refl. apply N. left; reflexivity.
  - assert (Nt : forall v, In v (b :: t) -> fisnan v = false) by (intros v Hv; apply N; right; exact Hv).
    pose proof (Max_in t b) as Mi. cbn [Max]. destruct (flt (Max b t) first) eqn:E.
    + destruct (B32_lt_numbers o _ _ E) as (_ & _ & L). destruct I as [<-|I]; [apply b32_le_refl; apply N; left; reflexivity|].
      apply (b32_le_trans o a (Max b t) first); auto; try (apply N; left; reflexivity); apply IH; auto.
    + destruct I as [<-|I]; [|apply IH; auto]. apply (B32_ordered o (Max b t) first); auto; apply N; left; reflexivity.
Qed.
Lemma Min_lower o args : forall first a : F (B32 o), (forall v, In v (first :: args) -> fisnan v = false) -> In a (first :: args) -> fle (Min first args) a = true.
Proof.
  induction args as [|b t IH]; intros first a N I.
  - destruct I as [<-|[]]. apply b32_le_refl. apply N. left; reflexivity.
  - assert (Nt : forall v, In v (b :: t) -> fisnan v = false) by (intros v Hv; apply N; right; exact Hv).
    pose proof (Min_in t b) as Mi. cbn [Min]. destruct (flt first (Min b t)) eqn:E.
    + destruct (B32_lt_numbers o _ _ E) as (_ & _ & L). destruct I as [<-|I]; [apply b32_le_refl; apply N; left; reflexivity|].
      apply (b32_le_trans o first (Min b t) a); auto; try (apply N; left; reflexivity); apply IH; auto.
    + destruct I as [<-|I]; [|apply IH; auto]. apply (B32_ordered o first (Min b t)); auto; apply N; left; reflexivity.
Qed.
