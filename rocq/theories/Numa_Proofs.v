From Coq Require Import ZArith Reals Lra Lia List.
From Verif Require Import Arith ArithLemmas Numa_Model Numa_Spec.
Import ListNotations.
Open Scope R_scope.

(** ** Antiderivatives are unique up to a constant *)

Lemma anti_unique P Q f : antiderivative_of P f -> antiderivative_of Q f ->
  forall s t, P s - P t = Q s - Q t.
Proof.
  intros HP HQ s t.
  set (D := fun x => P x - Q x).
  assert (HD : forall x, derivable_pt_lim D x 0).
  { intros x. replace 0 with (f x - f x) by ring. apply (derivable_pt_lim_minus P Q); auto. }
  assert (pr : derivable D) by (intros x; exists 0; apply HD).
  assert (C : constant D).
  { apply null_derivative_1 with pr. intros x.
    apply (derive_pt_eq_0 D x 0 (pr x)). apply HD. }
  specialize (C s t). unfold D in C. lra.
Qed.

Lemma anti_poly3 a b c d :
  antiderivative_of (fun t => a * t + b / 2 * (t * t) + c / 3 * (t * t * t) + d / 4 * (t * t * t * t)) (poly3 a b c d).
Proof.
  intros t. unfold poly3.
  assert (I : derivable_pt_lim (fun t => t) t 1) by apply derivable_pt_lim_id.
  assert (S2 : derivable_pt_lim (fun t => t * t) t (1 * t + t * 1)) by (apply (derivable_pt_lim_mult (fun t => t) (fun t => t)); auto).
  assert (S3 : derivable_pt_lim (fun t => t * t * t) t ((1 * t + t * 1) * t + t * t * 1))
    by (apply (derivable_pt_lim_mult (fun t => t * t) (fun t => t)); auto).
  assert (S4 : derivable_pt_lim (fun t => t * t * t * t) t (((1 * t + t * 1) * t + t * t * 1) * t + t * t * t * 1))
    by (apply (derivable_pt_lim_mult (fun t => t * t * t) (fun t => t)); auto).
  pose proof (derivable_pt_lim_scal _ a _ _ I) as Q1.
  pose proof (derivable_pt_lim_scal _ (b/2) _ _ S2) as Q2.
  pose proof (derivable_pt_lim_scal _ (c/3) _ _ S3) as Q3.
  pose proof (derivable_pt_lim_scal _ (d/4) _ _ S4) as Q4.
  pose proof (derivable_pt_lim_plus _ _ _ _ _ (derivable_pt_lim_plus _ _ _ _ _ (derivable_pt_lim_plus _ _ _ _ _ Q1 Q2) Q3) Q4) as H.
  unfold plus_fct, mult_real_fct in H.
  match goal with |- derivable_pt_lim _ _ ?l => match type of H with derivable_pt_lim _ _ ?l' => replace l with l' by field end end.
  exact H.
Qed.

Lemma tk_S t0 h k : tk t0 h (Z.of_nat (S k)) = tk (t0 + h) h (Z.of_nat k).
Proof. unfold tk. rewrite Nat2Z.inj_succ, succ_IZR. ring. Qed.

Lemma samples_S f t0 h n : samples f t0 h (S n) = f (t0 + h) :: samples f (t0 + h) h n.
Proof.
  unfold samples. cbn [seq map]. f_equal.
  - f_equal. unfold tk. cbn. ring.
  - rewrite <- seq_shift, map_map. apply map_ext. intros k. f_equal. apply tk_S.
Qed.

Lemma exact_S P t0 h x n : exact_integrals P t0 h x (S n) =
  (x + (P (t0 + h) - P t0)) :: exact_integrals P (t0 + h) h (x + (P (t0 + h) - P t0)) n.
Proof.
  unfold exact_integrals. cbn [seq map]. f_equal.
  - unfold tk. cbn. do 3 f_equal. ring.
  - rewrite <- seq_shift, map_map. apply map_ext. intros k. rewrite tk_S. ring.
Qed.

(** One step of the integrator from a primed object. *)
Lemma feed_exact (f P : R -> R) im dm h :
  (im <> IOther) ->
  (forall t0 x, n_increment (A := RA) (f (t0 + h)) h (primed f t0 h x im dm) = P (t0 + h) - P t0) ->
  forall n t0 x, fst (n_feed (A := RA) h (samples f t0 h n) (primed f t0 h x im dm)) = exact_integrals P t0 h x n.
Proof.
  intros Hm Hs n. induction n; intros; [reflexivity|].
  rewrite samples_S, exact_S. cbn [n_feed].
  assert (E : n_integrate (A := RA) (f (t0 + h)) h true (primed f t0 h x im dm) =
     (x + (P (t0 + h) - P t0), primed f (t0 + h) h (x + (P (t0 + h) - P t0)) im dm)).
  { unfold n_integrate. rewrite <- (Hs t0 x).
    assert (T : tk (t0 + h) h (-1) = t0) by (unfold tk; ring).
    generalize (n_increment (A := RA) (f (t0 + h)) h (primed f t0 h x im dm)). intros v.
    unfold primed. rewrite T. destruct im; try reflexivity. contradiction. }
  rewrite E. cbn beta iota.
  destruct (n_feed (A := RA) h (samples f (t0 + h) h n) _) as [ys n2] eqn:Q.
  cbn [fst]. f_equal. rewrite <- IHn, Q. reflexivity.
Qed.

Lemma poly0_3 a : forall t, poly0 a t = poly3 a 0 0 0 t.
Proof. intros; unfold poly0, poly3; ring. Qed.
Lemma poly1_3 a b : forall t, poly1 a b t = poly3 a b 0 0 t.
Proof. intros; unfold poly1, poly3; ring. Qed.
Lemma poly2_3 a b c : forall t, poly2 a b c t = poly3 a b c 0 t.
Proof. intros; unfold poly2, poly3; ring. Qed.

Lemma anti_ext P f g : (forall t, f t = g t) -> antiderivative_of P f -> antiderivative_of P g.
Proof. intros E H t. rewrite <- E. apply H. Qed.

Lemma anti_val P a b c d : antiderivative_of P (poly3 a b c d) -> forall s t,
  P s - P t = a * (s - t) + b / 2 * (s * s - t * t) + c / 3 * (s * s * s - t * t * t) + d / 4 * (s * s * s * s - t * t * t * t).
Proof. intros H s t. rewrite (anti_unique _ _ _ H (anti_poly3 a b c d)). field. Qed.

Lemma rectangular_exact a P dm h t0 x n : antiderivative_of P (poly0 a) ->
  fst (n_feed (A := RA) h (samples (poly0 a) t0 h n) (primed (poly0 a) t0 h x IRectangular dm)) = exact_integrals P t0 h x n.
Proof.
  intros H. apply feed_exact; [discriminate|]. intros.
  rewrite (anti_val P a 0 0 0) by (eapply anti_ext; [apply poly0_3 | exact H]).
  cbn. unfold poly0. field.
Qed.

Lemma trapezoidal_exact a b P dm h t0 x n : antiderivative_of P (poly1 a b) ->
  fst (n_feed (A := RA) h (samples (poly1 a b) t0 h n) (primed (poly1 a b) t0 h x ITrapezoidal dm)) = exact_integrals P t0 h x n.
Proof.
  intros H. apply feed_exact; [discriminate|]. intros.
  rewrite (anti_val P a b 0 0) by (eapply anti_ext; [apply poly1_3 | exact H]).
  cbn. unfold poly1. field.
Qed.

Lemma quadratic_exact a b c P dm h t0 x n : antiderivative_of P (poly2 a b c) ->
  fst (n_feed (A := RA) h (samples (poly2 a b c) t0 h n) (primed (poly2 a b c) t0 h x IQuadratic dm)) = exact_integrals P t0 h x n.
Proof.
  intros H. apply feed_exact; [discriminate|]. intros.
  rewrite (anti_val P a b c 0) by (eapply anti_ext; [apply poly2_3 | exact H]).
  cbn. unfold poly2, tk. field.
Qed.

Lemma simpson_average a b c d P dm h t0 x n : antiderivative_of P (poly3 a b c d) ->
  fst (n_feed (A := RA) h (samples (poly3 a b c d) t0 h n) (primed (poly3 a b c d) t0 h x ISimpson dm)) =
  exact_integrals (fun t => (P t + P (t - h)) / 2) t0 h x n.
Proof.
  intros H. apply feed_exact; [discriminate|]. intros.
  replace ((P (t1 + h) + P (t1 + h - h)) / 2 - (P t1 + P (t1 - h)) / 2)
    with (((P (t1 + h) - P t1) + (P (t1 + h - h) - P (t1 - h))) / 2) by field.
  rewrite !(anti_val P a b c d) by exact H.
  cbn. unfold poly3, tk. field.
Qed.

Lemma simpson_constant a P dm h t0 x n : antiderivative_of P (poly0 a) ->
  fst (n_feed (A := RA) h (samples (poly0 a) t0 h n) (primed (poly0 a) t0 h x ISimpson dm)) = exact_integrals P t0 h x n.
Proof.
  intros H. apply feed_exact; [discriminate|]. intros.
  rewrite (anti_val P a 0 0 0) by (eapply anti_ext; [apply poly0_3 | exact H]).
  cbn. unfold poly0. field.
Qed.

Lemma simpson_ramp_late : fst (n_feed (A := RA) 1 (samples (poly1 0 1) 0 1 1) (primed (poly1 0 1) 0 1 0 ISimpson D2Points)) = [0]
  /\ exact_integrals (fun t => t * t / 2) 0 1 0 1 = [1/2].
Proof.
  split.
  - rewrite (simpson_average 0 1 0 0 (fun t => t * t / 2)) || idtac.
    cbn. unfold poly1, tk. cbn. f_equal. field.
  - unfold exact_integrals, tk. cbn. f_equal. field.
Qed.

(** ** Weights and history *)

Lemma feed_app dt l1 : forall l2 (n : nstate RA),
  n_feed (A := RA) dt (l1 ++ l2) n =
  (fst (n_feed dt l1 n) ++ fst (n_feed dt l2 (snd (n_feed dt l1 n))), snd (n_feed dt l2 (snd (n_feed dt l1 n)))).
Proof.
  induction l1 as [|s r IH]; intros l2 n.
  - cbn. destruct (n_feed (A := RA) dt l2 n); reflexivity.
  - cbn [n_feed app]. destruct (n_integrate (A := RA) s dt true n) as [y n1].
    rewrite IH. destruct (n_feed (A := RA) dt r n1). reflexivity.
Qed.

Lemma feed_hist dt ss : forall x s1 s2 im dm,
  let n := snd (n_feed (A := RA) dt ss (@mkN RA x s1 s2 im dm)) in
  nx1 n = nth 0 (rev ss ++ [s1; s2]) 0 /\ nx2 n = nth 1 (rev ss ++ [s1; s2]) 0 /\ nim n = im /\ ndm n = dm
  /\ nx0 n = last (fst (n_feed (A := RA) dt ss (@mkN RA x s1 s2 im dm))) x.
Proof.
  induction ss as [|s r IH] using rev_ind; intros.
  - cbn. auto.
  - unfold n. clear n. rewrite feed_app. cbn [fst snd].
    destruct (IH x s1 s2 im dm) as (E1 & E2 & E3 & E4 & E5).
    set (n := snd (n_feed (A := RA) dt r _)) in *.
    cbn [n_feed]. destruct (n_integrate (A := RA) s dt true n) as [y n1] eqn:Q. cbn [fst snd].
    rewrite rev_app_distr. cbn [rev app nth]. rewrite last_last.
    unfold n_integrate in Q. rewrite E3 in Q.
    destruct im; injection Q as <- <-; cbn; auto.
Qed.

Lemma integrate_weights dt ss s x s1 s2 im dm :
  let n := snd (n_feed (A := RA) dt ss (@mkN RA x s1 s2 im dm)) in
  let '(w0, w1, w2) := weights im in
  let '(a0, a1, a2) := last3 (ss ++ [s]) s1 s2 in
  fst (n_integrate (A := RA) s dt true n) = last (fst (n_feed (A := RA) dt ss (@mkN RA x s1 s2 im dm))) x + dt * (w0 * a0 + w1 * a1 + w2 * a2).
Proof.
  intros n. destruct (feed_hist dt ss x s1 s2 im dm) as (E1 & E2 & E3 & E4 & E5). fold n in E1, E2, E3, E4, E5.
  unfold last3. rewrite rev_app_distr. cbn [rev app nth].
  rewrite <- E5. 
  assert (G : forall w0 w1 w2, weights im = (w0, w1, w2) ->
     fst (n_integrate (A := RA) s dt true n) = nx0 n + dt * (w0 * s + w1 * nth 0 (rev ss ++ [s1; s2]) 0 + w2 * nth 1 (rev ss ++ [s1; s2]) 0)).
  { intros. cbn [F RA] in *. rewrite <- E1, <- E2. unfold n_integrate, n_increment. rewrite E3.
    destruct im; injection H as <- <- <-; cbn; try (generalize (nx0 n), (nx1 n), (nx2 n); change (F RA) with R; intros; field). }
  destruct (weights im) as [[w0 w1] w2]. apply G. reflexivity.
Qed.

(** ** Derivatives *)

Lemma feedd_step (f D : R -> R) dm im h :
  (forall t0 x, fst (n_derive (A := RA) (f (t0 + h)) h true (primed f t0 h x im dm)) = D (t0 + h)) ->
  forall n t0 x, fst (n_feedd (A := RA) h (samples f t0 h n) (primed f t0 h x im dm)) =
                 map (fun k => D (tk t0 h (Z.of_nat k))) (seq 1 n)
   /\ n_value (snd (n_feedd (A := RA) h (samples f t0 h n) (primed f t0 h x im dm))) = x.
Proof.
  intros Hs n. induction n; intros; [split; reflexivity|].
  rewrite samples_S. cbn [n_feedd seq map].
  assert (E : n_derive (A := RA) (f (t0 + h)) h true (primed f t0 h x im dm) =
     (D (t0 + h), primed f (t0 + h) h x im dm)).
  { rewrite <- (Hs t0 x). 
    assert (T : tk (t0 + h) h (-1) = t0) by (unfold tk; ring).
    unfold n_derive. cbn [fst]. f_equal. unfold n_update, primed. cbn. rewrite T. reflexivity. }
  rewrite E. cbn beta iota.
  destruct (IHn (t0 + h) x) as [I1 I2].
  destruct (n_feedd (A := RA) h (samples f (t0 + h) h n) _) as [ys n2] eqn:Q.
  cbn [fst snd] in *. split; [|exact I2]. f_equal.
  - f_equal. unfold tk. cbn. ring.
  - rewrite I1. rewrite <- (seq_shift n 1), map_map. apply map_ext. intros k. rewrite tk_S. reflexivity.
Qed.

Lemma deriv_unique f t l l' : derivable_pt_lim f t l -> derivable_pt_lim f t l' -> l = l'.
Proof. apply uniqueness_limite. Qed.

Lemma poly3_deriv a b c d t : derivable_pt_lim (poly3 a b c d) t (b + 2 * c * t + 3 * d * t * t).
Proof.
  unfold poly3.
  assert (I : derivable_pt_lim (fun t => t) t 1) by apply derivable_pt_lim_id.
  assert (S1 := derivable_pt_lim_scal _ b _ _ I).
  assert (S2 := derivable_pt_lim_mult _ _ _ _ _ (derivable_pt_lim_scal _ c _ _ I) I).
  assert (S3 := derivable_pt_lim_mult _ _ _ _ _ (derivable_pt_lim_mult _ _ _ _ _ (derivable_pt_lim_scal _ d _ _ I) I) I).
  assert (H := derivable_pt_lim_plus _ _ _ _ _ (derivable_pt_lim_plus _ _ _ _ _ (derivable_pt_lim_plus _ _ _ _ _ (derivable_pt_lim_const a t) S1) S2) S3).
  unfold plus_fct, mult_fct, mult_real_fct, fct_cte in H.
  match goal with |- derivable_pt_lim _ _ ?l => match type of H with derivable_pt_lim _ _ ?l' => replace l with l' by ring end end.
  exact H.
Qed.

Lemma deriv_ext f g t l : (forall t, f t = g t) -> derivable_pt_lim f t l -> derivable_pt_lim g t l.
Proof. intros E H eps He. destruct (H eps He) as [d Hd]. exists d. intros. rewrite <- !E. auto. Qed.

Lemma poly1_deriv_val a b D : (forall t, derivable_pt_lim (poly1 a b) t (D t)) -> forall t, D t = b.
Proof.
  intros H t. apply (deriv_unique (poly1 a b) t); auto.
  replace b with (b + 2 * 0 * t + 3 * 0 * t * t) at 2 by ring.
  eapply deriv_ext; [|apply (poly3_deriv a b 0 0)]. intros; unfold poly3, poly1; ring.
Qed.
Lemma poly2_deriv_val a b c D : (forall t, derivable_pt_lim (poly2 a b c) t (D t)) -> forall t, D t = b + 2 * c * t.
Proof.
  intros H t. apply (deriv_unique (poly2 a b c) t); auto.
  replace (b + 2 * c * t) with (b + 2 * c * t + 3 * 0 * t * t) by ring.
  eapply deriv_ext; [|apply (poly3_deriv a b c 0)]. intros; unfold poly3, poly2; ring.
Qed.

Lemma derive_2points a b D im h t0 x n : h <> 0 -> (forall t, derivable_pt_lim (poly1 a b) t (D t)) ->
  fst (n_feedd (A := RA) h (samples (poly1 a b) t0 h n) (primed (poly1 a b) t0 h x im D2Points)) =
  map (fun k => D (tk t0 h (Z.of_nat k))) (seq 1 n).
Proof.
  intros Hh H. apply feedd_step. intros. rewrite (poly1_deriv_val a b D H). cbn. unfold poly1. field. auto.
Qed.
Lemma derive_backward a b c D im h t0 x n : h <> 0 -> (forall t, derivable_pt_lim (poly2 a b c) t (D t)) ->
  fst (n_feedd (A := RA) h (samples (poly2 a b c) t0 h n) (primed (poly2 a b c) t0 h x im DBackward)) =
  map (fun k => D (tk t0 h (Z.of_nat k))) (seq 1 n).
Proof.
  intros Hh H. apply feedd_step. intros. rewrite (poly2_deriv_val a b c D H). cbn. unfold poly2, tk. field. auto.
Qed.
Lemma derive_forward a b c D im h t0 x n : h <> 0 -> (forall t, derivable_pt_lim (poly2 a b c) t (D t)) ->
  fst (n_feedd (A := RA) h (samples (poly2 a b c) t0 h n) (primed (poly2 a b c) t0 h x im DForward)) =
  map (fun k => D (tk t0 h (Z.of_nat k - 2))) (seq 1 n).
Proof.
  intros Hh H.
  destruct (feedd_step (poly2 a b c) (fun t => D (t - 2 * h)) DForward im h) with (n := n) (t0 := t0) (x := x) as [E _].
  - intros. rewrite (poly2_deriv_val a b c D H). cbn. unfold poly2, tk. field. auto.
  - rewrite E. apply map_ext. intros k. f_equal. unfold tk. rewrite minus_IZR. ring.
Qed.

(** Facts for every arithmetic. *)
Lemma derive_value {A : arith} (s dt : F A) u n : n_value (snd (n_derive s dt u n)) = n_value n.
Proof. unfold n_derive, n_update, n_value. destruct u; reflexivity. Qed.

Lemma no_update {A : arith} (s dt : F A) n :
  snd (n_derive s dt false n) = n /\
  let n' := snd (n_integrate s dt false n) in nx1 n' = nx1 n /\ nx2 n' = nx2 n.
Proof. unfold n_derive, n_integrate. split; auto. destruct (nim n); cbn; auto. Qed.
