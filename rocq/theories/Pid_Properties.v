(** C34-C38, C72: the PID controller and its auto-tuner. *)
From Coq Require Import ZArith Reals Lra Lia List Bool.
From Flocq Require Import IEEE754.Binary IEEE754.Bits.
From Verif Require Import Arith ArithLemmas Numa_Model Numa_Proofs Pid_Model Pid_Spec Pid_Proofs Pid_Proofs2 Pid_Proofs3.
Import ListNotations.
Open Scope R_scope.

Lemma b32_100 o : flt (a := B32 o) (lit 0 1) (lit 100 1) = true.
Proof. vm_compute. reflexivity. Qed.

(** C34 in binary32, whatever ffmath computes: after any history of calls on a
    new controller that includes an accepted setup(), control() returns NaN or a
    value between the limits configured by that history. *)
Theorem C34_output_within_limits : forall (o : oracles binary32) (p : pid (B32 o)) cs lo hi w y yr,
  fresh p -> limits cs p None = Some (lo, hi) ->
  let u := fst (control w y yr (p_run cs p)) in
  is_nan 24 128 u = true \/ (b32_le lo u = true /\ b32_le u hi = true).
Proof.
  intros o p cs lo hi w y yr Hf Hl u. rewrite <- (b32_isnan o).
  exact (in_limits (A := B32 o) (B32_ordered o) (B32_lt_numbers o) (b32_100 o) p cs lo hi w y yr Hf Hl).
Qed.
Print Assumptions C34_output_within_limits.

(** C34: the limits are configured from the first accepted setup() on, and the
    lower one is below the upper one. *)
Theorem C34_limits_configured : forall (o : oracles binary32) (p : pid (B32 o)) cs, fresh p ->
  (was_setup cs p = true <-> exists lo hi, limits cs p None = Some (lo, hi) /\ b32_lt lo hi = true).
Proof. intros o p cs H. exact (limits_some (A := B32 o) (b32_100 o) p cs H). Qed.
Print Assumptions C34_limits_configured.

(** C34 in exact arithmetic: always inside. *)
Theorem C34_exact_output_within_limits : forall (p : pid RA) cs lo hi w y yr,
  fresh p -> limits cs p None = Some (lo, hi) ->
  lo <= fst (control (A := RA) w y yr (p_run cs p)) <= hi.
Proof.
  intros p cs lo hi w y yr Hf Hl.
  destruct (in_limits (A := RA) RA_ordered RA_lt_numbers ok_100 p cs lo hi w y yr Hf Hl) as [H|[H1 H2]].
  - rewrite RA_isnan in H. discriminate.
  - cbn in H1, H2. split; apply Rleb_inv; assumption.
Qed.
Print Assumptions C34_exact_output_within_limits.

(** A case: limits -1 and 1, and an error of 1000 gives the output 1. *)
Definition some_oracles : oracles binary32 := mkOracles _ (fun x => x) (fun x => x) (fun x => x) (fun x => x) (fun x _ => x).
Definition z32 (n : Z) : binary32 := b32_ofZ n.
Example C34_case :
  let cs := [@CSetup (B32 some_oracles) (z32 2) (z32 1) (z32 0) (z32 1); @CSaturation (B32 some_oracles) (z32 (-1)) (z32 1); @CControl (B32 some_oracles) (z32 5) (z32 3) (z32 0)] in
  let p := blank (B32 some_oracles) in
  fresh p /\ limits cs p None = Some (z32 (-1), z32 1) /\
  bits_of_b32 (fst (control (A := B32 some_oracles) (z32 1000) (z32 0) (z32 0) (p_run cs p))) = bits_of_b32 (z32 1).
Proof.
  intros cs p. split; [apply blank_fresh|]. split; [|vm_compute; reflexivity].
  cbn [limits cs p_do]. unfold rb. rewrite setup_fst. unfold setSaturation.
  replace (flt (lit 0 1) (p_dt p)) with true by (vm_compute; reflexivity).
  rewrite guarded_go; [|apply setup_dt; vm_compute; reflexivity | vm_compute; reflexivity].
  cbn [fst snd]. destruct (control _ _ _ _). reflexivity.
Qed.

(** C35: the exact control law of every run after a reset, for every history of
    calls before it (apart from calls of the nState interface and without a
    tuner bound): the documented law, except that the derivative is taken
    against the previous integrand instead of the previous weighted error. *)
Theorem C35_control_law : forall p cs w y ym n, fresh p -> existsb is_base cs = false -> was_setup (A := RA) cs p = true ->
  p_adapt (p_run cs p) = None ->
  let q := p_run cs p in
  fst (p_controls (A := RA) (inputs w y ym n) (snd (reset q))) = map (fun k => s_u (law (config_of q) false w y ym (S k))) (seq 0 n).
Proof. exact control_law. Qed.
Print Assumptions C35_control_law.

(** C35: it is the documented law whenever there is no derivative gain, or the
    derivative weight is 1 and the output never saturates. *)
Theorem C35_documented_law : forall p cs w y ym n, fresh p -> existsb is_base cs = false -> was_setup (A := RA) cs p = true ->
  p_adapt (p_run cs p) = None ->
  let q := p_run cs p in let f := config_of q in
  f_kd f = 0 \/ (f_c f = 1 /\ forall k, s_c (law f true w y ym k) = 0) ->
  fst (p_controls (A := RA) (inputs w y ym n) (snd (reset q))) = map (fun k => s_u (law f true w y ym (S k))) (seq 0 n).
Proof.
  intros p cs w y ym n H1 H2 H3 H4 q f H5. etransitivity; [exact (control_law p cs w y ym n H1 H2 H3 H4)|].
  apply map_ext. intros k. apply law_documented. exact H5.
Qed.
Print Assumptions C35_documented_law.

(** C35, refuted with a derivative gain and the default weights: set point and
    measurement constantly -1, the documented output decays, the actual one
    keeps growing. *)
Theorem C35_derivative_refuted : let q := p_run [CSetup (A := RA) 0 0 1 1] (blank RA) in
  let w := fun _ : nat => -1 in
  map (fun k => s_u (law (config_of q) true w w w (S k))) (seq 0 2) = [2/100; 196/10000] /\
  fst (p_controls (A := RA) (inputs w w w 2) q) = [2/100; 396/10000].
Proof. exact derivative_kick. Qed.
Print Assumptions C35_derivative_refuted.

(** The hypotheses of the two laws are met by a new controller set up with a
    proportional and an integral gain. *)
Example C35_case : let cs := [CSetup (A := RA) 2 1 0 1] in let q := p_run cs (blank RA) in
  fresh (blank RA) /\ existsb is_base cs = false /\ was_setup cs (blank RA) = true /\ p_adapt q = None /\ f_kd (config_of q) = 0.
Proof.
  destruct (blank_setup 2 1 0 1) as (E1 & E2 & E3 & E4 & E5). repeat split; auto.
  rewrite E1. reflexivity.
Qed.

(** C36, in every arithmetic: a refused call changes nothing. *)
Theorem C36_refused_changes_nothing : forall (A : arith) c (p p' : pid A), p_do c p = (RBool false, p') -> p' = p.
Proof. exact @refused_same. Qed.
Print Assumptions C36_refused_changes_nothing.

(** C36: exactly when each call is accepted. *)
Theorem C36_accepted_iff : forall (A : arith) c (p : pid A), match accepts c (p_init p) (p_dt p) (tuning p) with
  | Some b => fst (p_do c p) = RBool b
  | None => forall b, fst (p_do c p) <> RBool b end.
Proof. exact @accepts_spec. Qed.
Print Assumptions C36_accepted_iff.

(** C36: the controller counts as initialised from the first accepted setup(). *)
Theorem C36_initialised_iff : forall (A : arith) (p : pid A) cs, fresh p -> p_init (p_run cs p) = was_setup cs p.
Proof. exact @init_iff. Qed.
Print Assumptions C36_initialised_iff.

(** C36: before that, control() returns the set point and changes nothing. *)
Theorem C36_uninitialised_control : forall (A : arith) (p : pid A) cs w y yr, fresh p -> was_setup cs p = false ->
  control w y yr (p_run cs p) = (w, p_run cs p).
Proof. exact @uninitialised. Qed.
Print Assumptions C36_uninitialised_control.

(** C36: setup() looks at the time step of the previous accepted setup() (1
    before any), not at its argument. *)
Theorem C36_setup_tests_previous_step : forall (A : arith) (p : pid A) cs kc ki kd dT, fresh p ->
  fst (p_do (CSetup kc ki kd dT) (p_run cs p)) = RBool (flt (lit 0 1) (last_step cs p (lit 1 1))).
Proof. exact @setup_returns. Qed.
Print Assumptions C36_setup_tests_previous_step.

(** So setup( ..., -1 ) is accepted, and the next one refused. *)
Example C36_negative_step : 
  let C k := @CSetup (B32 some_oracles) (z32 1) (z32 0) (z32 0) (z32 k) in
  fst (p_do (C (-1)%Z) (blank (B32 some_oracles))) = RBool true /\
  fst (p_do (C 1%Z) (p_run [C (-1)%Z] (blank (B32 some_oracles)))) = RBool false.
Proof.
  intros C. split; cbn [p_do C rb fst]; unfold rb; cbn [fst]; rewrite setup_fst; f_equal; vm_compute; reflexivity.
Qed.

(** C36: what every accepted call configures, and that it configures nothing
    else.  setSeries is stated for gains that are not zero. *)
Theorem C36_settings : forall (c : pcall RA) (p p' : pid RA), p_do c p = (RBool true, p') ->
  (c = CSeries -> gc_ (p_gains p) <> 0 /\ gi_ (p_gains p) <> 0 /\ gi_ (p_gains p) * gd_ (p_gains p) <> - (gc_ (p_gains p) * gc_ (p_gains p))) ->
  settings_of p' = configure c (settings_of p).
Proof. exact settings_configured. Qed.
Print Assumptions C36_settings.
(** Without a tuner, control() changes no setting. *)
Theorem C36_control_keeps_settings : forall (p : pid RA) (w y yr : R), p_adapt p = None -> settings_of (snd (control (A := RA) w y yr p)) = settings_of p.
Proof. exact control_settings. Qed.
Print Assumptions C36_control_keeps_settings.
Example C36_settings_case : let p := snd (p_do (CSetup (A := RA) 2 1 3 1) (blank RA)) in
  exists p', p_do (CSeries (A := RA)) p = (RBool true, p') /\ c_gains (settings_of p') = (2 + 3 * 1 / 2, 1, 3).
Proof.
  intros p. destruct (blank_setup 2 1 3 1) as (_ & _ & _ & _ & _).
  assert (I : p_init p = true) by (apply setup_dt; cbn; apply Rltb_true; lra).
  assert (S : settings_of p = configure (CSetup (A := RA) 2 1 3 1) (settings_of (blank RA))).
  { apply settings_configured; [|discriminate]. unfold p. cbn [p_do]. unfold rb. rewrite setup_fst. cbn [fst snd]. f_equal. f_equal. cbn. apply Rltb_true. lra. }
  assert (E : c_gains (settings_of p) = (2, 1, 3)) by (rewrite S; reflexivity). 
  exists (snd (setSeries p)). assert (D : p_do (CSeries (A := RA)) p = (RBool true, snd (setSeries p))). { cbn [p_do]. unfold rb, setSeries. rewrite guarded_go by auto. reflexivity. }
  split; [exact D|]. rewrite (settings_configured _ _ _ D).
  - cbn [configure c_gains]. rewrite E. reflexivity.
  - intros _. unfold settings_of in E. cbn [c_gains] in E. injection E as -> -> ->. repeat split; lra.
Qed.

(** C37: inside the dead band control() behaves as for set point and
    measurement 0, on the output and on the whole state. *)
Theorem C37_dead_band : forall (p : pid RA) (w y yr : R), p_mrac p = false -> p_adapt p = None -> 0 <= p_eps p ->
  Rabs (w - y) <= p_eps p -> Rabs (p_b p * w - y) <= p_eps p -> Rabs (p_c p * w - y) <= p_eps p ->
  p_init p = true -> control (A := RA) w y yr p = control (A := RA) 0 0 yr p.
Proof. exact inside_band. Qed.
Print Assumptions C37_dead_band.

(** C37: reset() makes two controllers with the same configuration equal,
    whatever they did before. *)
Theorem C37_reset_forgets : forall (A : arith) (p q : pid A), same_config p q -> p_init p = true ->
  fst (reset p) = true /\ reset p = reset q.
Proof. exact @reset_forgets. Qed.
Print Assumptions C37_reset_forgets.

(** C37: in manual mode the output after a reset is the integral of the manual
    input, a ramp, as long as it stays inside the limits. *)
Theorem C37_manual_ramp : forall p cs w y ym n, fresh p -> existsb is_base cs = false -> was_setup (A := RA) cs p = true ->
  p_adapt (p_run cs p) = None -> p_mode (p_run cs p) = Manual ->
  let q := p_run cs p in
  (forall k, (1 <= k <= n)%nat -> p_smin q <= (INR k - 1 / 2) * (p_dt q * p_kt q * p_minput q) <= p_smax q) ->
  fst (p_controls (A := RA) (inputs w y ym n) (snd (reset q))) =
  map (fun k => (INR (S k) - 1 / 2) * (p_dt q * p_kt q * p_minput q)) (seq 0 n).
Proof.
  intros p cs w y ym n H1 H2 H3 H4 H5 q Hr. etransitivity; [exact (control_law p cs w y ym n H1 H2 H3 H4)|].
  apply map_ext_in. intros k Hk. apply in_seq in Hk.
  destruct (manual_law (config_of q) w y ym (S k)) as (M1 & M2 & _).
  - unfold config_of. cbn [f_auto]. fold q in H5. rewrite H5. reflexivity.
  - intros j Hj. unfold config_of. cbn [f_lo f_hi f_dt f_kt f_manual]. unfold ramp. destruct j; [lia|]. apply Hr. lia.
  - fold q. rewrite M2, M1. reflexivity.
Qed.
Print Assumptions C37_manual_ramp.

(** C37, refuted: "bumpless transfer is guaranteed".  However long the
    controller ran in manual mode at output 0, the switch gives output 10. *)
Theorem C37_bumpless_refuted : forall n, let q := p_run [CSetup (A := RA) 1 0 0 1; CMode Manual] (blank RA) in
  let w := fun _ : nat => 10 in let z := fun _ : nat => 0 in
  let '(us, q') := p_controls (A := RA) (inputs w z z n) q in
  us = repeat 0 n /\ fst (control (A := RA) 10 0 0 (snd (setMode Automatic q'))) = 10.
Proof. exact not_bumpless. Qed.
Print Assumptions C37_bumpless_refuted.

Example C37_dead_band_case : let q := snd (setEpsilon (A := RA) 1 (p_run [CSetup (A := RA) 1 1 1 1] (blank RA))) in
  p_mrac q = false /\ p_adapt q = None /\ p_init q = true /\ p_eps q = 1 /\
  Rabs (1/2 - 1/4) <= p_eps q /\ Rabs (p_b q * (1/2) - 1/4) <= p_eps q /\ Rabs (p_c q * (1/2) - 1/4) <= p_eps q.
Proof.
  destruct (blank_setup 1 1 1 1) as (E1 & E2 & E3 & E4 & E5).
  set (p := p_run [CSetup (A := RA) 1 1 1 1] (blank RA)) in *.
  unfold setEpsilon. rewrite guarded_go by auto. cbn [snd p_mrac p_adapt p_init p_eps p_b p_c set_eps].
  assert (B1 : p_b p = 1) by (change (f_b (config_of p) = 1); rewrite E1; reflexivity).
  assert (C0 : p_c p = 0) by (change (f_c (config_of p) = 0); rewrite E1; reflexivity).
  assert (M0 : p_mrac p = false) by (change (f_mrac (config_of p) = false); rewrite E1; reflexivity).
  rewrite B1, C0. repeat split; auto; apply Rabs_le; lra.
Qed.
Example C37_reset_case : let C := @CSetup (B32 some_oracles) (z32 1) (z32 1) (z32 0) (z32 1) in
  let p := p_run [C] (blank (B32 some_oracles)) in
  let q := p_run [C; @CControl (B32 some_oracles) (z32 3) (z32 1) (z32 0)] (blank (B32 some_oracles)) in
  same_config q p /\ p_init q = true /\ bits_of_b32 (fst (control (A := B32 some_oracles) (z32 1) (z32 0) (z32 0) p)) <> bits_of_b32 (fst (control (A := B32 some_oracles) (z32 1) (z32 0) (z32 0) q)).
Proof.
  intros C p q. split; [|split; [vm_compute; reflexivity | vm_compute; discriminate]].
  unfold q. rewrite (run_control (A := B32 some_oracles)). apply control_same_config.
  exact (setup_adapt (A := B32 some_oracles) _ _ _ _ (blank (B32 some_oracles))).
Qed.

(** C38, in every arithmetic: as long as tuning is not complete, and after it
    is, control() leaves the gains alone; once complete it stays complete. *)
Theorem C38_gains_kept : forall (A : arith) ins (p : pid A) t, p_init p = true -> p_adapt p = Some t -> (0 <= t_it t)%Z ->
  isAutoTuningComplete p = true \/ isAutoTuningComplete (snd (p_controls ins p)) = false ->
  p_gains (snd (p_controls ins p)) = p_gains p /\ (isAutoTuningComplete p = true -> isAutoTuningComplete (snd (p_controls ins p)) = true).
Proof. exact @gains_kept. Qed.
Print Assumptions C38_gains_kept.

(** C38: the window shrinks by one for each call of control() whose estimates
    are usable. *)
Theorem C38_window : forall (A : arith) ins (p : pid A) t, p_init p = true -> p_adapt p = Some t -> (0 <= t_it t)%Z ->
  remaining (snd (p_controls ins p)) = Z.max 0 (t_it t - count_ok ins p).
Proof. exact @counter. Qed.
Print Assumptions C38_window.

(** C38: the usable step that ends the window installs the estimated gains. *)
Theorem C38_gains_installed : forall (A : arith) (w y yr : F A) (p : pid A) t, p_init p = true -> p_adapt p = Some t -> t_it t = 1%Z ->
  tuner_ok (snd (control w y yr p)) = true ->
  isAutoTuningComplete (snd (control w y yr p)) = true /\
  exists t', p_adapt (snd (control w y yr p)) = Some t' /\ p_gains (snd (control w y yr p)) = getEstimates t'.
Proof. exact @new_gains. Qed.
Print Assumptions C38_gains_installed.

(** C38: enableAutoTuning( n ) opens a window of n steps ... *)
Theorem C38_enable : forall (A : arith) (p : pid A) n t, p_adapt p = Some t -> (0 < n < 2^32)%Z ->
  let '(r, p') := enableAutoTuning n p in r = true /\ remaining p' = n /\ p_init p' = p_init p.
Proof. exact @enable_remaining. Qed.
Print Assumptions C38_enable.

(** ... and enableAutoTuning( 0 ) does not disable tuning: it opens the same
    window of 2^32-2 usable steps as pidAutoTuning::UNDEFINED. *)
Theorem C38_enable_zero : forall (A : arith) (p : pid A) t, p_adapt p = Some t ->
  enableAutoTuning 0 p = enableAutoTuning UNDEFINED p /\ remaining (snd (enableAutoTuning 0 p)) = 4294967294%Z.
Proof.
  intros A p t H. split; [exact (enable_zero p)|]. unfold enableAutoTuning, with_tuner. rewrite H. reflexivity.
Qed.
Print Assumptions C38_enable_zero.

(** C38: a tuner is bound and, after its window of one usable step, the gains
    are new ones (binary32, with the identity in place of log). *)
Example C38_case : let A := B32 (mkOracles _ (fun x => b32_of_bits 1056964608) (fun x => b32_ofZ (-1)) (fun x => x) (fun x => x) (fun x _ => x)) in
  let p := p_run [@CSetup A (z32 1) (z32 1) (z32 0) (z32 1); @CBind A TypePI; @CEnable A 1] (blank A) in
  let q := snd (control (A := A) (z32 1) (z32 0) (z32 0) p) in
  p_init p = true /\ remaining p = 1%Z /\ tuner_ok q = true /\ isAutoTuningComplete q = true /\
  bits_of_b32 (gc_ (p_gains q)) <> bits_of_b32 (gc_ (p_gains p)).
Proof. split; [|split; [|split; [|split]]]; try (vm_compute; reflexivity). vm_compute. discriminate. Qed.

(** C72: in exact arithmetic the tuner is recursive least squares with
    forgetting factor and a ridge of 1e-10, for the model
    y(k) = b1 u(k-1) - a1 y(k-1). *)
Theorem C72_tuner_is_rls : forall (u y dt : R) (t : tuner RA), let t' := snd (t_step (A := RA) u y dt t) in
  (t_cov t', t_theta t') = rls (t_l t) (/ 10000000000) (t_phi t) y (t_cov t) (t_theta t) /\
  t_phi t' = mkV u (- y).
Proof. exact step_rls. Qed.
Print Assumptions C72_tuner_is_rls.

(** C72: estimates that explain the data are kept. *)
Theorem C72_exact_estimates_kept : forall (u y dt : R) (t : tuner RA), y = t_b1 t * t_uk t - t_a1 t * t_yk t ->
  t_theta (snd (t_step (A := RA) u y dt t)) = t_theta t.
Proof. exact rls_fixed. Qed.
Print Assumptions C72_exact_estimates_kept.

(** C72: for a positive process gain, time constant and speed the tuned gains
    are positive, and those of absent actions are zero. *)
Theorem C72_tuned_gains_positive : forall (t : tuner RA), 0 < t_k t -> 0 < t_tao t -> 0 < t_speed t ->
  let g := getEstimates t in
  0 < gc_ g /\ (match t_type t with TypePI | TypePID => 0 < gi_ g | _ => gi_ g = 0 end) /\
  (match t_type t with TypePD | TypePID => 0 < gd_ g | _ => gd_ g = 0 end).
Proof. exact estimates_positive. Qed.
Print Assumptions C72_tuned_gains_positive.

(** C72: setSeries() adds Ki*Kd/Kc to the proportional gain and leaves the other
    two as they were. *)
Theorem C72_series_gains : forall (p : pid RA), p_init p = true ->
  let g := p_gains p in gc_ g <> 0 -> gi_ g <> 0 -> gc_ g * gc_ g + gi_ g * gd_ g <> 0 ->
  p_gains (snd (setSeries p)) = @mkG RA (gc_ g + gi_ g * gd_ g / gc_ g) (gi_ g) (gd_ g).
Proof. exact series_gains. Qed.
Print Assumptions C72_series_gains.

Example C72_case : let t := @mkT RA 1000 0 0 1000 (1/2) (-1/2) 1 1 (9/10) 1 2 (95/100) (1/4) 10 TypePID in
  0 < t_k t /\ 0 < t_tao t /\ 0 < t_speed t /\ 1 = t_b1 t * t_uk t - t_a1 t * t_yk t.
Proof. cbn. lra. Qed.
