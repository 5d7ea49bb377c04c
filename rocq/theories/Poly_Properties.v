(** Orthogonal polynomials, extrema and the polygon test: C96-C100. *)
From Coq Require Import ZArith List Bool Lia Reals Lra Psatz.
From Flocq Require Import IEEE754.Binary IEEE754.Bits.
From Verif Require Import Base BaseLemmas Arith ArithLemmas Interp1_Model Interp1_Proofs2 Poly_Model Poly_Spec Poly_Proofs Poly_Proofs2.
Import ListNotations.
Open Scope R_scope.
Ltac eqR := match goal with |- @eq _ ?a ?b => change (@eq R a b) end.

(** ** C96: hermite *)
(** Rodrigues' formula: H_n(x) = (-1)^n e^(x^2) (d/dx)^n e^(-x^2). *)
Theorem C96_hermite : exists D, derivatives (fun x => exp (- x ^ 2)) D /\ forall n x, hermite (A := RA) n x = (- 1) ^ n * exp (x ^ 2) * D n x.
Proof.
  eexists. split; [exact hermite_rodrigues|]. intros n x. rewrite hermite_R. cbv beta. eqR.
  assert (E : exp (x ^ 2) * exp (- x ^ 2) = 1) by (rewrite <- exp_plus, Rplus_opp_r; apply exp_0).
  assert (Q : (- 1) ^ n * (- 1) ^ n = 1) by (rewrite <- Rpow_mult_distr; replace (- 1 * - 1) with 1 by ring; apply pow1).
  replace ((-1) ^ n * exp (x ^ 2) * ((-1) ^ n * He n x * exp (- x ^ 2))) with ((- 1) ^ n * (- 1) ^ n * (exp (x ^ 2) * exp (- x ^ 2)) * He n x) by ring.
  rewrite E, Q. ring.
Qed.
Print Assumptions C96_hermite.

Theorem C96_hermite_nan : forall (A : arith) n (x : F A), fisnan x = true -> hermite n x = fnan.
Proof. intros A n x H. unfold hermite. rewrite H. reflexivity. Qed.
Print Assumptions C96_hermite_nan.
Example C96_nonvacuous : hermite (A := RA) 3 2 = 40.
Proof. rewrite hermite_R. eqR. cbn [He INR]. ring. Qed.

(** ** C97: legendre and assoc_legendre *)
Definition off_ends (x : R) : Prop := (x = 1 \/ / 2 ^ 126 < Rabs (1 - x)) /\ (x = - 1 \/ / 2 ^ 126 < Rabs (- 1 - x)).

Theorem C97_legendre : forall n, exists P, legendre_polynomial n P /\ forall x, off_ends x -> legendre (A := RA) n x = P x.
Proof. intros n. exists (Le n). split; [apply Le_legendre|]. intros x [H1 H2]. apply legendre_R; assumption. Qed.
Print Assumptions C97_legendre.

(** P_n^m(x) = (1 - x^2)^(m/2) P_n^(m)(x). *)
Definition associated (n m : nat) (D : nat -> R -> R) (x : R) : R := sqrt (1 - x ^ 2) ^ m * D m x.

Theorem C97_associated : forall n m, m = O \/ n = m \/ n = S m -> exists P D, legendre_polynomial n P /\ derivatives P D /\
  forall x, - 1 <= x <= 1 -> off_ends x -> assoc_legendre (A := RA) n m x = associated n m D x.
Proof.
  intros n m H. exists (Le n), (fun k => DLe k n). split; [apply Le_legendre|]. split; [apply DLe_all|].
  intros x Hx [_ H2]. unfold associated. destruct m as [|m].
  - unfold assoc_legendre. rewrite nan_R. replace (n <? 0)%nat with false by (symmetry; apply Nat.ltb_ge; lia). rewrite legendre_p_R by exact H2. eqR. cbn [pow DLe]. ring.
  - destruct H as [H|[->| ->]]; [discriminate| |].
    + rewrite assoc_diag, DLe_diag by (auto; lia). eqR. ring.
    + rewrite assoc_next, DLe_next by (auto; lia). eqR. cbn [odd_product]. ring.
Qed.
Print Assumptions C97_associated.

Theorem C97_order_above_degree : forall (A : arith) n m (x : F A), (n < m)%nat -> assoc_legendre n m x = lit 0 1.
Proof. intros A n m x H. unfold assoc_legendre. replace (n <? m)%nat with true by (symmetry; apply Nat.ltb_lt; exact H). reflexivity. Qed.
Print Assumptions C97_order_above_degree.

(** From degree m + 2 on the recurrence divides only its second term. *)
Theorem C97_associated_refuted : exists P, legendre_polynomial 3 P /\
  forall D, derivatives P D -> assoc_legendre (A := RA) 3 1 (3 / 5) <> associated 3 1 D (3 / 5).
Proof.
  exists (Le 3). split; [apply Le_legendre|]. intros D [D0 D1] H. unfold associated in H.
  assert (E1 : D 1%nat (3 / 5) = 6 / 5).
  { apply (uniqueness_limite (D 0%nat) (3 / 5)); [apply D1|]. apply (deriv_ext (Le 3)); [intros t; symmetry; apply D0|].
    apply (deriv_eq _ _ _ _ (Le_deriv 3 (3 / 5))). rewrite dLe_SS. cbn [dLe Le INR]. field. }
  assert (E2 : assoc_legendre (A := RA) 3 1 (3 / 5) = 78 / 25).
  { unfold assoc_legendre. rewrite nan_R. cbn [Nat.ltb Nat.leb Nat.sub]. cbv zeta. cbn [assoc_start assoc_loop Nat.add]. rewrite !ofN_R. ra. change (o_sqrt (lib (a := RA))) with sqrt.
    replace (1 / 1 - 3 / 5) with (2 / 5) by field. replace (1 / 1 + 3 / 5) with (8 / 5) by field. rewrite <- sqrt_mult by lra. replace (2 / 5 * (8 / 5)) with ((4 / 5) * (4 / 5)) by field. rewrite sqrt_square by lra. cbn [INR]. eqR. field. }
  rewrite E1, E2 in H. replace (1 - (3 / 5) ^ 2) with ((4 / 5) * (4 / 5)) in H by field. rewrite sqrt_square in H by lra. cbn [pow] in H. lra.
Qed.
Print Assumptions C97_associated_refuted.
Example C97_nonvacuous : off_ends (1 / 2) /\ legendre (A := RA) 2 (1 / 2) = - 1 / 8 /\ assoc_legendre (A := RA) 2 2 (3 / 5) = 48 / 25.
Proof.
  assert (Tol : / 2 ^ 126 < 1 / 2) by (replace (1 / 2) with (/ 2) by field; apply Rinv_lt_contravar; [apply Rmult_lt_0_compat; [lra|apply pow_lt; lra]|]; rewrite <- (pow_1 2) at 1; apply Rlt_pow; [lra|lia]).
  assert (O1 : off_ends (1 / 2)) by (split; right; [rewrite Rabs_pos_eq by lra|rewrite Rabs_left by lra]; lra).
  split; [exact O1|]. split.
  - rewrite legendre_R by apply O1. eqR. cbn [Le INR]. field.
  - rewrite assoc_diag by (lia || lra). cbn [odd_product INR]. replace (1 - (3 / 5) ^ 2) with ((4 / 5) * (4 / 5)) by field. rewrite sqrt_square by lra. eqR. field.
Qed.

(** ** C98: laguerre and assoc_laguerre *)
(** [large] is the asymptotic formula the code uses in between. *)
Theorem C98_laguerre : forall large n m x, 0 <= x -> (n <= 1)%nat \/ 2 * (INR m + 1) + 4 * INR n <= x ->
  assoc_laguerre (A := RA) large n m x = laguerre_sum n m x.
Proof.
  intros large n m x Hx [H|H]; [apply laguerre_low; assumption|]. destruct (Nat.le_gt_cases n 1); [apply laguerre_low; assumption|]. apply laguerre_far; [lia|assumption].
Qed.
Print Assumptions C98_laguerre.

Theorem C98_refused : forall (A : arith) large n m (x : F A), flt x (lit 0 1) = true \/ fisnan x = true -> assoc_laguerre large n m x = fnan /\ laguerre large n x = fnan.
Proof. intros A large n m x H. unfold laguerre, assoc_laguerre. cbv zeta. destruct H as [-> | ->]; [|rewrite orb_true_r]; split; reflexivity. Qed.
Print Assumptions C98_refused.

Theorem C98_at_zero : forall large n, laguerre (A := RA) large n 0 = 1 /\ laguerre_sum n 0 0 = 1.
Proof.
  intros large n. assert (E : laguerre_sum n 0 0 = 1) by (rewrite laguerre_sum_0, Nat.add_0_r; unfold Binomial.C; rewrite Nat.sub_diag; cbn [fact INR]; field; apply INR_fact_neq_0).
  split; [|exact E]. unfold laguerre. destruct (Nat.le_gt_cases n 1); [rewrite laguerre_low by (auto; lra); exact E|].
  rewrite laguerre_zero by lia. unfold Binomial.C. cbn [Nat.add]. rewrite Nat.sub_diag. eqR. cbn [fact INR]. field. apply INR_fact_neq_0.
Qed.
Print Assumptions C98_at_zero.

(** At zero every associated polynomial of degree two or more is wrong: the product lacks its last factor. *)
Theorem C98_associated_at_zero_refuted : forall large n m, (2 <= n)%nat -> (1 <= m)%nat -> assoc_laguerre (A := RA) large n m 0 <> laguerre_sum n m 0.
Proof.
  intros large n m Hn Hm. rewrite laguerre_zero, laguerre_sum_0 by exact Hn. unfold Binomial.C.
  replace (m + n - 1)%nat with (n - 1 + m)%nat by lia. replace (n - 1 + m - (n - 1))%nat with m by lia. replace (n + m - n)%nat with m by lia. replace (n + m)%nat with (S (n - 1 + m)) by lia.
  replace (fact n) with (fact (S (n - 1))) by (f_equal; lia). rewrite !fact_simpl, !mult_INR, !S_INR, plus_INR.
  pose proof (lt_0_INR _ (lt_O_fact (n - 1))) as A1. pose proof (lt_0_INR _ (lt_O_fact m)) as A2. pose proof (lt_0_INR _ (lt_O_fact (n - 1 + m))) as A3. pose proof (pos_INR (n - 1)) as A4.
  assert (A5 : 1 <= INR m) by (apply le_INR in Hm; exact Hm). set (N := INR (n - 1)) in *. set (M := INR m) in *. set (f := INR (fact (n - 1 + m))) in *. set (g := INR (fact (n - 1))) in *. set (h := INR (fact m)) in *.
  intros H. apply (Rmult_eq_compat_r ((N + 1) * g * h)) in H.
  replace (f / (g * h) * ((N + 1) * g * h)) with (f * (N + 1)) in H by (field; lra). replace ((N + M + 1) * f / ((N + 1) * g * h) * ((N + 1) * g * h)) with (f * (N + M + 1)) in H by (field; lra). nra.
Qed.
Print Assumptions C98_associated_at_zero_refuted.
Example C98_nonvacuous : forall large, assoc_laguerre (A := RA) large 2 1 20 = 143 /\ 2 * (INR 1 + 1) + 4 * INR 2 <= 20.
Proof.
  intros large. assert (2 * (INR 1 + 1) + 4 * INR 2 <= 20) by (cbn; lra). split; [|assumption]. rewrite laguerre_far by (auto; lra).
  unfold laguerre_sum, Binomial.C. eqR. cbn [sum_f_R0 Nat.sub Nat.add fact Nat.mul INR pow]. field.
Qed.

(** ** C99: Max and Min *)
Theorem C99_an_argument : forall (A : arith) (first : F A) args, In (Max first args) (first :: args) /\ In (Min first args) (first :: args).
Proof. intros A first args. split; [apply Max_in|apply Min_in]. Qed.
Print Assumptions C99_an_argument.

Theorem C99_extremal : forall o (first : F (B32 o)) args, (forall v, In v (first :: args) -> fisnan v = false) ->
  forall a, In a (first :: args) -> fle a (Max first args) = true /\ fle (Min first args) a = true.
Proof. intros o first args N a I. split; [apply Max_upper|apply Min_lower]; assumption. Qed.
Print Assumptions C99_extremal.

(** A NaN is not ignored and does not always come through: with two arguments the second one is returned. *)
Theorem C99_nan : forall o (a b : F (B32 o)), fisnan a = true \/ fisnan b = true -> Max a [b] = b /\ Min a [b] = b.
Proof.
  intros o a b H. cbn [Max Min]. split.
  - destruct (flt b a) eqn:E; [|reflexivity]. apply B32_lt_numbers in E. destruct E as (E1 & E2 & _). destruct H; congruence.
  - destruct (flt a b) eqn:E; [|reflexivity]. apply B32_lt_numbers in E. destruct E as (E1 & E2 & _). destruct H; congruence.
Qed.
Print Assumptions C99_nan.
Example C99_nonvacuous : forall o, Max (A := B32 o) (lit 3 1) [lit (-7) 2; lit 5 1; lit 4 1] = lit 5 1 /\ Min (A := B32 o) (lit 3 1) [lit (-7) 2; lit 5 1; lit 4 1] = lit (-7) 2 /\
  forall v, In v [lit 3 1; lit (-7) 2; lit 5 1; lit 4 1] -> fisnan (A := B32 o) v = false.
Proof. intros o. split; [reflexivity|]. split; [reflexivity|]. intros v [<-|[<-|[<-|[<-|[]]]]]; reflexivity. Qed.

(** ** C100: inPolygon *)
Definition vertices {A : arith} (px py : list (F A)) (p : nat) : Prop := length px = p /\ length py = p /\ (1 <= p)%nat.

Theorem C100_total : forall (A : arith) (x y : F A) px py p, vertices px py p -> exists b, inPolygon x y px py p = Ok b.
Proof.
  intros A x y px py p (Lx & Ly & Hp). unfold inPolygon. destruct (get_some py 0) as [y0 Ey]; [unfold zlen; lia|]. destruct (get_some px 0) as [x0 Ex]; [unfold zlen; lia|].
  rewrite Ey, Ex. cbn [bind].
  assert (In y0 py) by (apply get_ok_iff in Ey; destruct Ey as [_ Ey]; apply nth_error_In in Ey; exact Ey).
  assert (In x0 px) by (apply get_ok_iff in Ex; destruct Ex as [_ Ex]; apply nth_error_In in Ex; exact Ex).
  destruct (box_ok p 0 px py y0 x0 y0 x0) as (a & b & c & d & -> & _); auto; try (unfold zlen; lia). cbn [bind].
  destruct (_ && _ && _ && _); [|eauto]. apply cross_ok; unfold zlen; lia.
Qed.
Print Assumptions C100_total.

(** Accepted points are within the bounding box of the vertices. *)
Theorem C100_within_box : forall (A : arith) (x y : F A) px py p, vertices px py p -> inPolygon x y px py p = Ok true ->
  (exists a b, In a px /\ In b px /\ fle a x = true /\ fle x b = true) /\ (exists a b, In a py /\ In b py /\ fle a y = true /\ fle y b = true).
Proof.
  intros A x y px py p (Lx & Ly & Hp). unfold inPolygon. destruct (get_some py 0) as [y0 Ey]; [unfold zlen; lia|]. destruct (get_some px 0) as [x0 Ex]; [unfold zlen; lia|].
  rewrite Ey, Ex. cbn [bind].
  assert (In y0 py) by (apply get_ok_iff in Ey; destruct Ey as [_ Ey]; apply nth_error_In in Ey; exact Ey).
  assert (In x0 px) by (apply get_ok_iff in Ex; destruct Ex as [_ Ex]; apply nth_error_In in Ex; exact Ex).
  destruct (box_ok p 0 px py y0 x0 y0 x0) as (a & b & c & d & -> & Ia & Ic & Ib & Id); auto; try (unfold zlen; lia). cbn [bind].
  destruct (_ && _ && _ && _) eqn:E; [|discriminate]. rewrite !andb_true_iff in E. destruct E as [[[E1 E2] E3] E4]. intros _. split; [exists d, b|exists c, a]; auto.
Qed.
Print Assumptions C100_within_box.

(** Without vertices the first one is read all the same. *)
Theorem C100_empty_refuted : forall (A : arith) (x y : F A), inPolygon x y [] [] 0 = Ub.
Proof. reflexivity. Qed.
Print Assumptions C100_empty_refuted.

(** The crossing test is wrong: every point strictly inside an upright
    rectangle counts as outside (the two conditions only keep the code from
    dividing by zero). *)
Theorem C100_rectangle_refuted : forall a b c d x y, a < x < b -> c < y < d -> c <> b - a -> d <> a - b ->
  inPolygon (A := RA) x y [a; b; b; a] [c; c; d; d] 4 = Ok false.
Proof.
  intros a b c d x y Hx Hy N1 N2.
  assert (G : forall a b c d : R, get [a; b; c; d] 0 = Ok a /\ get [a; b; c; d] 1 = Ok b /\ get [a; b; c; d] 2 = Ok c /\ get [a; b; c; d] 3 = Ok d) by (intros; repeat split; reflexivity).
  destruct (G a b b a) as (X0 & X1 & X2 & X3). destruct (G c c d d) as (Y0 & Y1 & Y2 & Y3).
  unfold inPolygon. cbn [box_loop cross_loop]. change (Z.of_nat 4 - 1)%Z with 3%Z. change (0 + 1)%Z with 1%Z. change (1 + 1)%Z with 2%Z. change (2 + 1)%Z with 3%Z.
  change (@get (F RA)) with (@get R). rewrite X0, Y0, X1, Y1, X2, Y2, X3, Y3. cbn [bind]. ra. change (F RA) with R.
  replace ((c - c) * (x - b) / (a - b + c)) with 0 by (field; lra). replace ((d - d) * (x - a) / (b - a + d)) with 0 by (field; lra).
  rewrite (Rltb_t x b), (Rltb_f x a) by lra. cbn [eqb bind]. match goal with |- (if ?t then _ else _) = _ => destruct t; [|reflexivity] end.
  destruct (Rltb y 0); reflexivity.
Qed.
Print Assumptions C100_rectangle_refuted.
(** Some points are accepted: (1, 1) in the triangle (0, 3), (4, 1), (0, 0). *)
Example C100_nonvacuous : inPolygon (A := RA) 1 1 [0; 4; 0] [3; 1; 0] 3 = Ok true /\ vertices (A := RA) [0; 4; 0] [3; 1; 0] 3.
Proof.
  split; [|repeat split; lia].
  assert (G : forall a b c : R, get [a; b; c] 0 = Ok a /\ get [a; b; c] 1 = Ok b /\ get [a; b; c] 2 = Ok c) by (intros; repeat split; reflexivity).
  destruct (G 0 4 0) as (X0 & X1 & X2). destruct (G 3 1 0) as (Y0 & Y1 & Y2).
  unfold inPolygon. cbn [box_loop cross_loop]. change (Z.of_nat 3 - 1)%Z with 2%Z. change (0 + 1)%Z with 1%Z. change (1 + 1)%Z with 2%Z.
  change (@get (F RA)) with (@get R). rewrite X0, Y0, X1, Y1, X2, Y2. cbn [bind]. ra. change (F RA) with R.
  repeat match goal with
  | |- context [Rltb ?a ?b] => first [rewrite (Rltb_t a b) by lra | rewrite (Rltb_f a b) by lra]
  end.
  assert (L : forall a b, a <= b -> Rleb a b = true) by (intros a b K; unfold Rleb; destruct (Rle_dec a b); [reflexivity|lra]).
  rewrite !L by lra. reflexivity.
Qed.
