(** C32, C33: numerical integration and differentiation. *)
From Coq Require Import ZArith Reals Lra Lia List.
From Verif Require Import Arith ArithLemmas Numa_Model Numa_Spec Numa_Proofs.
Import ListNotations.
Open Scope R_scope.

(** C32: fed with the samples of a constant, the rectangular rule returns the
    exact integral at every step. *)
Theorem C32_rectangular_exact : forall a P dm h t0 x n, antiderivative_of P (poly0 a) ->
  fst (n_feed (A := RA) h (samples (poly0 a) t0 h n) (primed (poly0 a) t0 h x IRectangular dm)) = exact_integrals P t0 h x n.
Proof. exact rectangular_exact. Qed.
Print Assumptions C32_rectangular_exact.

(** C32: the trapezoidal rule is exact on every input of degree at most 1. *)
Theorem C32_trapezoidal_exact : forall a b P dm h t0 x n, antiderivative_of P (poly1 a b) ->
  fst (n_feed (A := RA) h (samples (poly1 a b) t0 h n) (primed (poly1 a b) t0 h x ITrapezoidal dm)) = exact_integrals P t0 h x n.
Proof. exact trapezoidal_exact. Qed.
Print Assumptions C32_trapezoidal_exact.

(** C32: the quadratic rule is exact on every input of degree at most 2. *)
Theorem C32_quadratic_exact : forall a b c P dm h t0 x n, antiderivative_of P (poly2 a b c) ->
  fst (n_feed (A := RA) h (samples (poly2 a b c) t0 h n) (primed (poly2 a b c) t0 h x IQuadratic dm)) = exact_integrals P t0 h x n.
Proof. exact quadratic_exact. Qed.
Print Assumptions C32_quadratic_exact.

(** C32: the Simpson rule returns, on every input of degree at most 3, the
    exact integral averaged over the current and the previous step. *)
Theorem C32_simpson_average : forall a b c d P dm h t0 x n, antiderivative_of P (poly3 a b c d) ->
  fst (n_feed (A := RA) h (samples (poly3 a b c d) t0 h n) (primed (poly3 a b c d) t0 h x ISimpson dm)) =
  exact_integrals (fun t => (P t + P (t - h)) / 2) t0 h x n.
Proof. exact simpson_average. Qed.
Print Assumptions C32_simpson_average.

(** C32: hence it is exact on constants ... *)
Theorem C32_simpson_constant : forall a P dm h t0 x n, antiderivative_of P (poly0 a) ->
  fst (n_feed (A := RA) h (samples (poly0 a) t0 h n) (primed (poly0 a) t0 h x ISimpson dm)) = exact_integrals P t0 h x n.
Proof. exact simpson_constant. Qed.
Print Assumptions C32_simpson_constant.

(** C32, refuted for Simpson's rule on a ramp: f(t) = t from 0 to 1 is
    integrated to 0 instead of 1/2. *)
Theorem C32_simpson_ramp_refuted :
  fst (n_feed (A := RA) 1 (samples (poly1 0 1) 0 1 1) (primed (poly1 0 1) 0 1 0 ISimpson D2Points)) = [0]
  /\ exact_integrals (fun t => t * t / 2) 0 1 0 1 = [1/2].
Proof. exact simpson_ramp_late. Qed.
Print Assumptions C32_simpson_ramp_refuted.

(** C32: whatever was fed before, a call adds the step times the weighted sum
    of the last three samples. *)
Theorem C32_rule_weights : forall dt ss s x s1 s2 im dm,
  let n := snd (n_feed (A := RA) dt ss (@mkN RA x s1 s2 im dm)) in
  let '(w0, w1, w2) := weights im in
  let '(a0, a1, a2) := last3 (ss ++ [s]) s1 s2 in
  fst (n_integrate (A := RA) s dt true n) = last (fst (n_feed (A := RA) dt ss (@mkN RA x s1 s2 im dm))) x + dt * (w0 * a0 + w1 * a1 + w2 * a2).
Proof. exact integrate_weights. Qed.
Print Assumptions C32_rule_weights.

(** The hypotheses are met: t + t^2/2... is an antiderivative of 1 + t, and the
    integral of 1 + t over [0,1], [0,2] is 3/2, 4. *)
Example C32_case : antiderivative_of (fun t => 1 * t + 1 / 2 * (t * t) + 0 / 3 * (t * t * t) + 0 / 4 * (t * t * t * t)) (poly1 1 1)
  /\ fst (n_feed (A := RA) 1 (samples (poly1 1 1) 0 1 2) (primed (poly1 1 1) 0 1 0 ITrapezoidal D2Points)) = [3/2; 4].
Proof.
  split.
  - eapply anti_ext; [|apply (anti_poly3 1 1 0 0)]. intros; unfold poly3, poly1; ring.
  - cbn. unfold poly1, tk. cbn. f_equal; [field | f_equal; field].
Qed.
Example C32_case_quadratic :
  fst (n_feed (A := RA) 1 (samples (poly2 0 0 3) 0 1 2) (primed (poly2 0 0 3) 0 1 0 IQuadratic D2Points)) = [1; 8].
Proof. cbn. unfold poly2, tk. cbn. f_equal; [field | f_equal; field]. Qed.

(** C33: the two-point derivative of a linear signal is its derivative, at
    every step. *)
Theorem C33_two_points_exact : forall a b D im h t0 x n, h <> 0 -> (forall t, derivable_pt_lim (poly1 a b) t (D t)) ->
  fst (n_feedd (A := RA) h (samples (poly1 a b) t0 h n) (primed (poly1 a b) t0 h x im D2Points)) =
  map (fun k => D (tk t0 h (Z.of_nat k))) (seq 1 n).
Proof. exact derive_2points. Qed.
Print Assumptions C33_two_points_exact.

(** C33: the backward three-point formula on quadratics. *)
Theorem C33_backward_exact : forall a b c D im h t0 x n, h <> 0 -> (forall t, derivable_pt_lim (poly2 a b c) t (D t)) ->
  fst (n_feedd (A := RA) h (samples (poly2 a b c) t0 h n) (primed (poly2 a b c) t0 h x im DBackward)) =
  map (fun k => D (tk t0 h (Z.of_nat k))) (seq 1 n).
Proof. exact derive_backward. Qed.
Print Assumptions C33_backward_exact.

(** C33: the forward formula yields the derivative two steps earlier. *)
Theorem C33_forward_exact : forall a b c D im h t0 x n, h <> 0 -> (forall t, derivable_pt_lim (poly2 a b c) t (D t)) ->
  fst (n_feedd (A := RA) h (samples (poly2 a b c) t0 h n) (primed (poly2 a b c) t0 h x im DForward)) =
  map (fun k => D (tk t0 h (Z.of_nat k - 2))) (seq 1 n).
Proof. exact derive_forward. Qed.
Print Assumptions C33_forward_exact.

(** C33: in every arithmetic, derive never changes the stored state value, and
    without the update flag it changes nothing and integrate keeps the history. *)
Theorem C33_derive_keeps_value : forall (A : arith) (s dt : F A) u n,
  n_value (snd (n_derive s dt u n)) = n_value n.
Proof. exact @derive_value. Qed.
Print Assumptions C33_derive_keeps_value.

Theorem C33_no_update_keeps_history : forall (A : arith) (s dt : F A) n,
  snd (n_derive s dt false n) = n /\
  let n' := snd (n_integrate s dt false n) in nx1 n' = nx1 n /\ nx2 n' = nx2 n.
Proof. exact @no_update. Qed.
Print Assumptions C33_no_update_keeps_history.

Example C33_case : (forall t, derivable_pt_lim (poly2 0 0 1) t (0 + 2 * 1 * t + 3 * 0 * t * t))
  /\ fst (n_feedd (A := RA) 1 (samples (poly2 0 0 1) 0 1 2) (primed (poly2 0 0 1) 0 1 0 ITrapezoidal DBackward)) = [2; 4]
  /\ fst (n_feedd (A := RA) 1 (samples (poly2 0 0 1) 0 1 2) (primed (poly2 0 0 1) 0 1 0 ITrapezoidal DForward)) = [-2; 0].
Proof.
  split; [|split].
  - intros. eapply deriv_ext; [|apply (poly3_deriv 0 0 1 0)]. intros; unfold poly3, poly2; ring.
  - cbn. unfold poly2, tk. cbn. f_equal; [field | f_equal; field].
  - cbn. unfold poly2, tk. cbn. f_equal; [field | f_equal; field].
Qed.
