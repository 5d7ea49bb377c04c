(** C46-C50: transfer-function systems. *)
From Coq Require Import ZArith Reals Lra Lia List Bool.
From Flocq Require Import IEEE754.Binary IEEE754.Bits.
From Verif Require Import Base Arith ArithLemmas Numa_Model Tdl_Model Tdl_Spec Ltisys_Model Ltisys_Spec Ltisys_Proofs Ltisys_Proofs2 Ltisys_Proofs3 Ltisys_Proofs4.
Import ListNotations.
Open Scope R_scope.

(** C46: for equally long coefficient arrays setup() succeeds and the outputs
    are the limited response of num/den to the inputs, from rest. *)
Theorem C46_difference_equation : forall (num den x us : list R) (d : dsys RA),
  let N := length num in
  (1 <= N)%nat -> (Z.of_nat N < 2 ^ 64)%Z -> length den = N -> (N <= length x)%nat -> nth 0 den 0 <> 0 ->
  l_delay (d_base d) = None ->
  exists d1 ys d2,
    d_setup (A := RA) (Some num) (Some den) (Some x) (zlen num) (zlen den) d = Ok (true, d1) /\
    d_stream (A := RA) us d1 = Ok (map (limit (l_min (d_base d)) (l_max (d_base d))) ys, d2) /\
    response num den us ys.
Proof. exact discrete_response. Qed.
Print Assumptions C46_difference_equation.

(** C46: the response is determined by the input. *)
Theorem C46_response_unique : forall num den us ys ys', nth 0 den 0 <> 0 ->
  response num den us ys -> response num den us ys' -> ys = ys'.
Proof. exact response_unique. Qed.
Print Assumptions C46_response_unique.

(** C46: setInitStates() without argument brings a used system back to rest. *)
Theorem C46_restart : forall (num den x us us2 : list R) (d : dsys RA),
  let N := length num in
  (1 <= N)%nat -> (Z.of_nat N < 2 ^ 64)%Z -> length den = N -> (N <= length x)%nat -> nth 0 den 0 <> 0 ->
  l_delay (d_base d) = None ->
  exists d1 o d2 d3 ys d4,
    d_setup (A := RA) (Some num) (Some den) (Some x) (zlen num) (zlen den) d = Ok (true, d1) /\
    d_stream (A := RA) us d1 = Ok (o, d2) /\
    d_setInitStates None d2 = Ok (true, d3) /\
    d_stream (A := RA) us2 d3 = Ok (map (limit (l_min (d_base d)) (l_max (d_base d))) ys, d4) /\
    response num den us2 ys.
Proof. exact discrete_restart. Qed.
Print Assumptions C46_restart.

(** C46: with setDelay( w, nD ) the response is that to the input delayed by
    nD - 1 samples (not nD). *)
Theorem C46_delay : forall (num den x us w : list R) (v : R) (nD : nat) (d : dsys RA),
  let N := length num in
  (1 <= N)%nat -> (Z.of_nat N < 2 ^ 64)%Z -> length den = N -> (N <= length x)%nat -> nth 0 den 0 <> 0 ->
  l_delay (d_base d) = None -> (1 <= nD <= length w)%nat ->
  exists d1 d2 ys d3,
    d_setup (A := RA) (Some num) (Some den) (Some x) (zlen num) (zlen den) d = Ok (true, d1) /\
    d_setDelay (A := RA) w (Z.of_nat nD) v d1 = Ok (true, d2) /\
    d_stream (A := RA) us d2 = Ok (map (limit (l_min (d_base d)) (l_max (d_base d))) ys, d3) /\
    response num den (delayed (nD - 1) v us) ys.
Proof. exact discrete_delay. Qed.
Print Assumptions C46_delay.

(** A leaky accumulator: y(k) = y(k-1)/2 + u(k). *)
Example C46_case : response [2; 0] [2; -1] [1; 0; 4] [1; 1/2; 17/4].
Proof.
  split; [reflexivity|]. intros k Hk. unfold zlen in Hk. cbn in Hk.
  assert (K : (k = 0 \/ k = 1 \/ k = 2)%Z) by lia. destruct K as [-> | [-> | ->]]; unfold filter, at_; cbn; unfold Pos.to_nat; cbn; lra.
Qed.
Example C46_case_hyps : let num := [2; 0] in let den := [2; -1] in
  (1 <= length num)%nat /\ length den = length num /\ nth 0 den 0 <> 0 /\ l_delay (d_base (@d_blank RA)) = None.
Proof. cbn. repeat split; auto; lra. Qed.

(** C47: whatever calls were made before, what excite() returns on an
    initialised system is within the limits, unless it is NaN (binary32). *)
Theorem C47_discrete_output_within_limits : forall o cs (d d' : dsys (B32 o)) outs u y,
  d_run cs d_blank = Ok (outs, d) -> d_isInitialized d = true -> d_excite u d = Ok (y, d') -> fisnan y = false ->
  fle (l_min (d_base d)) y = true /\ fle y (l_max (d_base d)) = true.
Proof.
  intros o cs d d' outs u y H I E N. destruct (d_excite_base u d d' y E) as (_ & _ & _ & S).
  destruct (S I) as [v ->]. apply limits_sat; auto.
  - apply B32_ordered.
  - apply B32_lt_numbers.
  - apply b32_le_refl.
  - eapply d_run_limits; [exact H|]. vm_compute. reflexivity.
Qed.
Print Assumptions C47_discrete_output_within_limits.

Theorem C47_continuous_output_within_limits : forall o ks (c c' : csys (B32 o)) outs u y,
  c_run ks c_blank = Ok (outs, c) -> c_isInitialized c = true -> c_excite u c = Ok (y, c') -> fisnan y = false ->
  fle (l_min (c_base c)) y = true /\ fle y (l_max (c_base c)) = true.
Proof.
  intros o ks c c' outs u y H I E N. destruct (c_excite_base u c c' y E) as (_ & _ & _ & S).
  destruct (S I) as [v ->]. apply limits_sat; auto.
  - apply B32_ordered.
  - apply B32_lt_numbers.
  - apply b32_le_refl.
  - eapply c_run_limits; [exact H|]. vm_compute. reflexivity.
Qed.
Print Assumptions C47_continuous_output_within_limits.

(** C47: setSaturation() accepts exactly an increasing pair on an initialised
    system and then sets both limits; otherwise nothing changes (any arithmetic). *)
Theorem C47_setSaturation : forall (A : arith) (d : dsys A) lo hi,
  let r := d_setSaturation lo hi d in
  (fst r = true <-> d_isInitialized d = true /\ flt lo hi = true) /\
  (fst r = true -> l_min (d_base (snd r)) = lo /\ l_max (d_base (snd r)) = hi) /\
  (fst r = false -> snd r = d).
Proof.
  intros A d lo hi r. unfold r, d_setSaturation, setSaturation.
  destruct (d_isInitialized d), (flt lo hi); cbn; repeat split; auto; try discriminate; try (intros [? ?]; discriminate);
  intros _; destruct d; reflexivity.
Qed.
Print Assumptions C47_setSaturation.

(** C47 (deviation): with the limits a system is born with, every output that
    should be zero or negative is replaced by the smallest positive normal
    float. *)
Theorem C47_default_limits_hide_negative_outputs : forall o (y : binary32),
  fle (a := B32 o) y (lit 0 1) = true -> saturate (l_blank (A := B32 o)) y = real_min.
Proof.
  intros o y H. unfold saturate, l_blank. cbn [l_min l_max]. rewrite (b32_below_min o y H). reflexivity.
Qed.
Print Assumptions C47_default_limits_hide_negative_outputs.

(** C47 (deviation): so a unit gain does not return its input. *)
Theorem C47_unit_gain_refuted : exists d1 d2 : dsys RA,
  d_setup (A := RA) (Some [1]) (Some [1]) (Some [0]) 1 1 d_blank = Ok (true, d1) /\
  d_excite (A := RA) (-1) d1 = Ok (real_min (a := RA), d2) /\ 0 < real_min (a := RA).
Proof.
  destruct (C46_difference_equation [1] [1] [0] [-1] d_blank) as (d1 & ys & d2 & E1 & E2 & Rs); try (cbn; lra); try (cbn; lia); auto.
  exists d1, d2. split; [exact E1|]. split.
  - cbn [d_stream] in E2. destruct (d_excite (A := RA) (-1) d1) as [[y e]|] eqn:E; cbn [bind fst snd] in E2; [|discriminate].
    assert (Y : ys = [-1]).
    { apply (response_unique [1] [1] [-1]); auto; [cbn; lra|]. split; [reflexivity|]. intros k Hk. reflexivity. }
    subst ys. cbn [map] in E2.
    assert (P : forall (a b : R) (e f : dsys RA), Ok ([a], e) = Ok ([b], f) -> a = b /\ e = f) by (intros a b e0 f H; inversion H; auto).
    destruct (P _ _ _ _ E2) as [-> ->]. apply f_equal. apply f_equal2; [|reflexivity].
    change (l_min (d_base d_blank)) with (real_min (a := RA)). unfold limit.
    destruct (Rlt_dec (-1) (real_min (a := RA))) as [|n]; [reflexivity|]. exfalso. apply n.
    apply Rlt_trans with 0; [lra|]. apply Rinv_0_lt_compat. apply pow_lt. lra.
  - apply Rinv_0_lt_compat. apply pow_lt. lra.
Qed.
Print Assumptions C47_unit_gain_refuted.

Example C47_case : forall o, exists d d' : dsys (B32 o), exists y,
  d_run [DSetup (Some [lit 1 1]) (Some [lit 2 1]) (Some [lit 0 1]) 1 1; DSat (lit (-1) 1) (lit 1 1)] d_blank = Ok ([], d) /\
  d_isInitialized d = true /\ d_excite (lit 1 1) d = Ok (y, d') /\ fisnan y = false /\ feq y (lit 1 2) = true.
Proof.
  intros o. eexists. eexists. eexists.
  split; [cbn [d_run]; reflexivity|]. split; [reflexivity|]. split; [reflexivity|]. split; vm_compute; reflexivity.
Qed.

(** C48: updateFIR() shifts the window and returns the weighted sum of the
    shifted window (exact arithmetic), or its plain sum without coefficients;
    the shift holds in every arithmetic. *)
Theorem C48_shift : forall (A : arith) c (w : list (F A)) n x, (1 <= n <= length w)%nat ->
  match c with Some c => (n <= length c)%nat | None => True end -> (Z.of_nat n <= 2 ^ 64)%Z ->
  exists y, updateFIR w (Z.of_nat n) x c = Ok (x :: firstn (n - 1) w ++ skipn n w, y).
Proof. intros A c w n x H Hc Hb. eexists. apply updateFIR_ok; auto. Qed.
Print Assumptions C48_shift.

Theorem C48_weighted_sum : forall (c w : list R) n (x : R), (1 <= n <= length w)%nat -> (n <= length c)%nat -> (Z.of_nat n <= 2 ^ 64)%Z ->
  let w' := x :: firstn (n - 1) w ++ skipn n w in
  updateFIR (A := RA) w (Z.of_nat n) x (Some c) = Ok (w', dot n c w').
Proof.
  intros c w n x H Hc Hb w'. rewrite (updateFIR_ok (A := RA) (Some c) w n x H Hc Hb). f_equal. f_equal.
  rewrite fir_value_R by lia. unfold dot. apply sum_ext. intros i Hi. f_equal. unfold w'. destruct i; cbn [nth]; [reflexivity|].
  rewrite app_nth1 by (rewrite firstn_length; lia). rewrite nth_firstn by lia. reflexivity.
Qed.
Print Assumptions C48_weighted_sum.

Theorem C48_plain_sum : forall (w : list R) n (x : R), (1 <= n <= length w)%nat -> (Z.of_nat n <= 2 ^ 64)%Z ->
  let w' := x :: firstn (n - 1) w ++ skipn n w in
  updateFIR (A := RA) w (Z.of_nat n) x None = Ok (w', sum n (fun i => nth i w' 0)).
Proof.
  intros w n x H Hb w'. rewrite (updateFIR_ok (A := RA) None w n x H I Hb). f_equal. f_equal.
  rewrite fir_value_plain by lia. apply sum_ext. intros i Hi. unfold w'. destruct i; cbn [nth]; [reflexivity|].
  rewrite app_nth1 by (rewrite firstn_length; lia). rewrite nth_firstn by lia. reflexivity.
Qed.
Print Assumptions C48_plain_sum.

(** C48: no window, or a size beyond the window, is undefined. *)
Theorem C48_bad_size_undefined : forall (A : arith) c (w : list (F A)) n x, (n = 0 /\ zlen w < 2 ^ 64)%Z \/ (zlen w < n <= 2 ^ 64)%Z ->
  updateFIR w n x c = Ub.
Proof. intros A c w n x [[-> H]|H]; [apply updateFIR_zero | apply updateFIR_oob]; auto. Qed.
Print Assumptions C48_bad_size_undefined.

Example C48_case : let w := [1; 2; 3; 9] in (1 <= 3 <= length w)%nat /\ (3 <= length [1; 1; 1])%nat.
Proof. cbn. lia. Qed.

(** C49: a continuous system performs, at every call, one step of the
    controllable canonical form of num/den, and returns the part of the output
    that depends on the states: the term b0*u is missing. *)
Theorem C49_canonical_form : forall (num den : list R) (x : list (nstate RA)) (dT : R) (us : list R) (c : csys RA),
  let n := length x in (1 <= n)%nat -> (Z.of_nat n < 2 ^ 64)%Z -> length num = S n -> length den = S n -> nth 0 den 0 <> 0 ->
  l_delay (c_base c) = None ->
  exists c1 c2, c_setup (A := RA) (Some num) (Some den) (Some x) (zlen x) dT c = Ok (true, c1) /\
    c_stream (A := RA) us c1 =
    Ok (map (limit (l_min (c_base c)) (l_max (c_base c)))
         (ccf_run n (fun i => nth i den 0 / nth 0 den 0) (fun i => nth i num 0 / nth 0 den 0) dT us (map n_init0 x)), c2).
Proof. exact continuous_run. Qed.
Print Assumptions C49_canonical_form.

(** C49: with the rectangular method that step is Euler's, with the trapezoidal
    method the slope is averaged with the one of the previous step. *)
Theorem C49_euler_step : forall (n : nat) (a b : nat -> R) (dt u : R) (x : list (nstate RA)) i,
  length x = n -> (i < n)%nat -> nim (nth i x dN) = IRectangular ->
  nth i (values (fst (ccf_step n a b dt u x))) 0 = nth i (values x) 0 + nth i (derivatives n a u (values x)) 0 * dt.
Proof. exact euler_step. Qed.
Print Assumptions C49_euler_step.

Theorem C49_trapezoidal_step : forall (n : nat) (a b : nat -> R) (dt u : R) (x : list (nstate RA)) i,
  length x = n -> (i < n)%nat -> nim (nth i x dN) = ITrapezoidal ->
  nth i (values (fst (ccf_step n a b dt u x))) 0 =
    nth i (values x) 0 + (nth i (derivatives n a u (values x)) 0 + nx1 (nth i x dN)) / 2 * dt /\
  nx1 (nth i (fst (ccf_step n a b dt u x)) dN) = nth i (derivatives n a u (values x)) 0.
Proof. exact trapezoid_step. Qed.
Print Assumptions C49_trapezoidal_step.

(** C49 (deviation): at the equilibrium for a constant input u the output is
    (bn/an - b0) u, where the transfer function has the gain bn/an. *)
Theorem C49_steady_output_refuted : forall (n : nat) (a b : nat -> R) (dt u : R) (x : list (nstate RA)),
  (1 <= n)%nat -> length x = n -> a n <> 0 ->
  (forall i, (i < n)%nat -> nx0 (nth i x dN) = (if (i =? n - 1)%nat then u / a n else 0) /\ nx1 (nth i x dN) = 0 /\ nx2 (nth i x dN) = 0) ->
  (forall i, (i < n)%nat -> nim (nth i x dN) <> IOther) ->
  values (fst (ccf_step n a b dt u x)) = values x /\
  snd (ccf_step n a b dt u x) = (b n / a n - b 0%nat) * u.
Proof. exact equilibrium. Qed.
Print Assumptions C49_steady_output_refuted.

(** (s + 2)/(s + 1) has gain 2, but its simulation rests at 1 for u = 1. *)
Example C49_case : let a := fun i => nth i [1; 1] 0 in let b := fun i => nth i [1; 2] 0 in
  snd (ccf_step 1 a b (1 / 10) 1 [@mkN RA 1 0 0 ITrapezoidal D2Points]) = 1 /\ b 1%nat / a 1%nat = 2.
Proof.
  intros a b. split; [|cbn; lra].
  destruct (equilibrium 1 a b (1/10) 1 [@mkN RA 1 0 0 ITrapezoidal D2Points]) as [_ ->]; auto.
  - cbn; lra.
  - intros [|i] Hi; [cbn; repeat split; lra|lia].
  - intros [|i] Hi; [cbn; discriminate|lia].
  - cbn. lra.
Qed.

(** C49 (deviation): setInitStates( xi ) gives every state the first element of
    xi (any arithmetic). *)
Theorem C49_init_uses_first_element : forall (A : arith) (xi : list (F A)) (c : csys A) x,
  c_x c = Some x -> c_n c = zlen x -> (1 <= length xi)%nat ->
  exists c', c_setInitStates (Some xi) c = Ok (true, c') /\
    c_x c' = Some (map (n_init (nth 0 xi (lit 0 1)) (nth 0 xi (lit 0 1)) (nth 0 xi (lit 0 1))) x).
Proof. intros A xi c x Ex En L. rewrite (c_setInitStates_ok (Some xi) c x Ex En L). eexists. split; reflexivity. Qed.
Print Assumptions C49_init_uses_first_element.

(** C49: setIntegrationMethod() accepts every method of nState except the
    quadratic one, which it refuses without effect. *)
Theorem C49_integration_method : forall (A : arith) m (c : csys A) x, c_x c = Some x -> c_n c = zlen x ->
  c_setIntegrationMethod m c =
  match m with
  | IRectangular | ITrapezoidal | ISimpson =>
      Ok (true, mkC (c_num c) (c_den c) (Some (map (n_set_imethod m) x)) (c_n c) (c_dt c) (c_b0 c) (c_base c))
  | _ => Ok (false, c)
  end.
Proof. exact @c_setMethod_ok. Qed.
Print Assumptions C49_integration_method.

(** C50: coefficient arrays of different lengths make setup() write past the
    end of the shorter one. *)
Theorem C50_lengths_must_agree : forall (A : arith) (num den x : list (F A)) (d : dsys A),
  length num <> length den -> (1 <= length num)%nat ->
  d_setup (Some num) (Some den) (Some x) (zlen num) (zlen den) d = Ub.
Proof. exact @d_setup_mismatch. Qed.
Print Assumptions C50_lengths_must_agree.

Theorem C50_states_must_fit : forall (A : arith) (num den x : list (F A)) N (d : dsys A),
  (1 <= N)%nat -> (Z.of_nat N < 2 ^ 64)%Z -> length num = N -> length den = N -> (length x < N)%nat ->
  d_setup (Some num) (Some den) (Some x) (Z.of_nat N) (Z.of_nat N) d = Ub.
Proof. exact @d_setup_short. Qed.
Print Assumptions C50_states_must_fit.

(** C50: a null array or an empty numerator is refused without effect. *)
Theorem C50_refused : forall (A : arith) (num den x : option (list (F A))) n_b n_a (d : dsys A),
  num = None \/ den = None \/ x = None \/ (n_b <= 0)%Z -> d_setup num den x n_b n_a d = Ok (false, d).
Proof.
  intros A num den x n_b n_a d H. unfold d_setup.
  destruct num, den, x; auto. destruct (Z.gtb_spec n_b 0); auto.
  destruct H as [H|[H|[H|H]]]; try discriminate. lia.
Qed.
Print Assumptions C50_refused.

Example C50_case : length [1; 2; 3] <> length [1; 2] /\ (1 <= length [1; 2; 3])%nat.
Proof. cbn. lia. Qed.
