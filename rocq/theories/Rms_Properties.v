(** The RMS estimator property C65. *)
From Coq Require Import ZArith List Bool Lia Reals Lra.
From Flocq Require Import Core IEEE754.BinarySingleNaN IEEE754.Binary IEEE754.Bits.
From Verif Require Import Base BaseLemmas Arith ArithLemmas Tdl_Model Tdl_Proofs Ltisys_Model Ltisys_Spec Ltisys_Proofs Ltisys_Proofs2
  Smoother_Model Smoother_Spec Smoother_Proofs Smoother_Proofs2 Smoother_Proofs3 Smoother_Proofs4 Smoother_Proofs5 Smoother_Properties
  Rms_Model Rms_Spec Rms_Proofs.
Import ListNotations.
Open Scope R_scope.

(** ** C65: which calls are accepted, in binary32 *)
Theorem C65_setup : forall o (w : list binary32) (n : Z) (s : rms (B32 o)), (n <= zlen w)%Z ->
  (exists r, rms_setup (A := B32 o) (Some w) n s = Ok r /\ decides (0 < n)%Z r s) /\
  rms_setup (A := B32 o) None n s = Ok (false, s).
Proof.
  intros o w n s Hw. split; [|reflexivity]. unfold decides, rms_setup, mwm2_setup. setoid_rewrite <- Z.gtb_lt.
  destruct (n >? 0)%Z eqn:E.
  - apply Z.gtb_lt in E. destruct (setup_ok w n (lit (a := B32 o) 0 1)) as (t & Et & _); [lia|].
    change (F (B32 o)) with binary32. rewrite Et. cbn [bind]. eexists. split; [reflexivity|]. cbn. intuition discriminate.
  - eexists. split; [reflexivity|]. cbn. intuition discriminate.
Qed.
Print Assumptions C65_setup.

(** setParams accepts exactly (0,1] x (0,1], refuses everything else (NaN and the
    infinities included) without effect, and touches nothing but the two
    parameters. *)
Theorem C65_params : forall o (l al : binary32) (s : rms (B32 o)),
  decides (in_unit l /\ in_unit al) (rms_setParams (A := B32 o) l al s) s /\
  (in_unit l -> in_unit al ->
     snd (rms_setParams (A := B32 o) l al s) =
       mkRMS (A := B32 o) (mkEXPW (A := B32 o) l (e_m (r_expw s)) (e_w (r_expw s)) (e_init (r_expw s))) (r_mwm2 s)
         (mkLPF1 (A := B32 o) al (f1_y1 (r_lpf1 s)) (f1_init (r_lpf1 s)))).
Proof.
  intros o l al s. unfold decides, in_unit, rms_setParams. rewrite <- !(unit_closed_b32 o), <- andb_assoc.
  destruct (flt (a := B32 o) (lit 0 1) l && fle (a := B32 o) l (lit 1 1)), (flt (a := B32 o) (lit 0 1) al && fle (a := B32 o) al (lit 1 1));
    cbn; intuition discriminate.
Qed.
Print Assumptions C65_params.

Example C65_params_example : in_unit (b32_ofZ 1) /\ ~ in_unit (b32_ofZ 2) /\ ~ in_unit (B754_infinity 24 128 false).
Proof.
  unfold in_unit. split; [|split].
  - split; [reflexivity|]. replace (B2R 24 128 (b32_ofZ 1)) with 1; [lra|]. vm_compute. lra.
  - intros [_ H]. replace (B2R 24 128 (b32_ofZ 2)) with 2 in H; [lra|]. vm_compute. lra.
  - intros [H _]. discriminate H.
Qed.

(** ** C65: the estimate lies between the smallest and the largest magnitude *)
Definition samples_in (lo hi : R) (h : list (rms_call RA)) : Prop :=
  forall x : R, In (Update (A := RA) x) h -> lo <= Rabs x <= hi.

(** The number of samples in a history. *)
Fixpoint updates (h : list (rms_call RA)) : nat := match h with [] => O | Update _ :: r => S (updates r) | _ :: r => updates r end.

Lemma rms_run_in m n lo hi : (1 <= n)%nat -> 0 <= lo -> forall (h : list (rms_call RA)) (s : rms RA), rms_in m n lo hi s -> samples_in lo hi h ->
  exists ys s', rms_run (A := RA) h s = Ok (ys, s') /\ Forall (fun y : R => lo <= y <= hi) ys /\
    length ys = updates h.
Proof.
  intros Hn Hlo. induction h as [|[x|l al] h IH]; intros s K Hh.
  - exists [], s. repeat split. constructor.
  - destruct (rms_in_update m n lo hi x s Hn Hlo K) as (y & s1 & E & Hy & K1); [apply Hh; now left|].
    destruct (IH s1 K1) as (ys & s2 & E2 & Hys & L); [intros z Hz; apply Hh; now right|].
    exists (y :: ys), s2. cbn [rms_run]. rewrite E. cbn [bind fst snd]. rewrite E2. cbn [bind fst snd updates length].
    repeat split; auto.
  - destruct (IH (snd (rms_setParams (A := RA) l al s))) as (ys & s2 & E2 & Hys & L); [now apply rms_in_params|intros z Hz; apply Hh; now right|].
    exists ys, s2. repeat split; auto.
Qed.

(** Whatever the object went through before, after a successful setup every
    history of samples and (accepted or refused) parameter changes is defined
    and returns one estimate per sample, never negative, never above the peak
    magnitude and never below the smallest magnitude seen. *)
Theorem C65_range : forall (w : list R) (n : nat) (s0 : rms RA) (lo hi : R) (h : list (rms_call RA)),
  (1 <= n <= length w)%nat -> 0 <= lo -> samples_in lo hi h ->
  exists s, rms_setup (A := RA) (Some w) (Z.of_nat n) s0 = Ok (true, s) /\
  exists ys s', rms_run (A := RA) h s = Ok (ys, s') /\ Forall (fun y : R => lo <= y <= hi) ys /\
    length ys = updates h.
Proof.
  intros w n s0 lo hi h Hn Hlo Hh. destruct (rms_in_setup w n s0 lo hi) as (s & E & K & _); try lia.
  exists s. split; auto. apply (rms_run_in w n); auto. lia.
Qed.
Print Assumptions C65_range.

(** A signal of constant magnitude [c] (a dc level, a square wave) is estimated
    as [c] from the first sample on. *)
Theorem C65_constant : forall (w : list R) (n : nat) (s0 : rms RA) (c : R) (h : list (rms_call RA)),
  (1 <= n <= length w)%nat -> samples_in (Rabs c) (Rabs c) h ->
  exists s, rms_setup (A := RA) (Some w) (Z.of_nat n) s0 = Ok (true, s) /\
  exists ys s', rms_run (A := RA) h s = Ok (ys, s') /\ Forall (fun y : R => y = Rabs c) ys /\
    length ys = updates h.
Proof.
  intros w n s0 c h Hn Hh. destruct (C65_range w n s0 (Rabs c) (Rabs c) h Hn (Rabs_pos c) Hh) as (s & E & ys & s' & E' & H & L).
  exists s. split; auto. exists ys, s'. repeat split; auto. eapply Forall_impl; [|exact H]. cbn. intros; lra.
Qed.
Print Assumptions C65_constant.

Example C65_range_example : samples_in 1 2 [Update (A := RA) (-1); SetParams (A := RA) (1/2) 3; Update (A := RA) 2].
Proof. intros x [H|[H|[H|[]]]]; try discriminate H; injection H as <-; unfold Rabs; destruct Rcase_abs; lra. Qed.

(** ** C65: the estimate itself *)
(** With the parameters chosen before the first sample (or the defaults), the
    estimates are the low-passed moving mean of the root of the exponentially
    weighted mean square. *)
Theorem C65_estimate : forall (w : list R) (n : nat) (s0 : rms RA) (params : option (R * R)) (xs : list R),
  (1 <= n <= length w)%nat ->
  (forall l al, params = Some (l, al) -> 0 < l <= 1 /\ 0 < al <= 1) ->
  exists s, rms_setup (A := RA) (Some w) (Z.of_nat n) s0 = Ok (true, s) /\
  exists s', feed_res (rms_update (A := RA)) xs
      (match params with Some (l, al) => snd (rms_setParams (A := RA) l al s) | None => s end) =
    Ok (match params with Some (l, al) => rms_estimate l al n xs | None => rms_estimate (99 / 100) (75 / 100) n xs end, s').
Proof.
  intros w n s0 params xs Hn Hp. destruct (rms_in_setup w n s0 0 0) as (s & E & K & I1 & I2 & I3 & L & Al); try lia.
  exists s. split; auto.
  assert (G : forall l al (s1 : rms RA), rms_in w n 0 0 s1 -> e_init (r_expw s1) = true -> m2_init (r_mwm2 s1) = true ->
    f1_init (r_lpf1 s1) = true -> e_lambda (r_expw s1) = l -> f1_alpha (r_lpf1 s1) = al ->
    exists s', feed_res (rms_update (A := RA)) xs s1 = Ok (rms_estimate l al n xs, s')).
  { clear. intros l al s1 K I1 I2 I3 L Al. destruct s1 as [e m f]. cbn [r_expw r_mwm2 r_lpf1] in *.
    destruct K as ((Hl & _) & (t & h & Et & T & _) & _). cbn [r_expw r_mwm2 r_lpf1] in *.
    assert (Hn : (1 <= n)%nat). { destruct T as (H & _). lia. }
    destruct (mwm2_any w n (map sqrt (fst (feed (expw_smooth (A := RA)) (map (fun x => x * x) xs) e))) m Hn) as (ys & m' & E2 & _ & Y).
    { exists t, h. auto. }
    specialize (Y I2).
    pose proof (rms_pipeline (A := RA) xs e m f ys m' E2) as P. eexists. etransitivity; [exact P|]. apply f_equal. apply f_equal2; [|reflexivity].
    rewrite lpf1_lowpass by auto. rewrite Al, Y. rewrite tab_length, map_length, (feed_length (A := RA)), map_length.
    unfold rms_estimate. rewrite (expw_mean e (map (fun x : R => x * x) xs)) by (auto; lra). rewrite L, map_length. unfold mean_square.
    f_equal. f_equal. f_equal. f_equal. unfold tabulate. rewrite map_map. apply map_ext. intros k. do 2 f_equal.
    f_equal; [|f_equal].
    - f_equal. apply map_ext. intros; cbn; ring.
    - replace 0 with ((fun x => x * x) 0) at 1 by (cbn; ring). rewrite (map_nth (fun x : R => x * x)). cbn. change (F RA) with R. ring. }
  destruct params as [[l al]|].
  - destruct (Hp l al eq_refl) as [H1 H2].
    assert (E1 : snd (rms_setParams (A := RA) l al s) = mkRMS (A := RA) (mkEXPW (A := RA) l (e_m (r_expw s)) (e_w (r_expw s)) (e_init (r_expw s))) (r_mwm2 s)
                 (mkLPF1 (A := RA) al (f1_y1 (r_lpf1 s)) (f1_init (r_lpf1 s)))).
    { unfold rms_setParams. rewrite <- andb_assoc. rewrite (proj2 (unit_closed_R l)), (proj2 (unit_closed_R al)); auto. }
    apply G; rewrite ?E1; auto. rewrite <- E1. now apply rms_in_params.
  - apply G; auto.
Qed.
Print Assumptions C65_estimate.

(** For equal weights the mean square of 3, 4 (first sample counted twice). *)
Example C65_estimate_example : mean_square 1 [3; 4] 1 = (9 + 9 + 16) / 3.
Proof. unfold mean_square, discounted, discount. cbn. field. Qed.

Lemma map_seq_const {B} (c : B) n : forall s, map (fun _ => c) (seq s n) = repeat c n.
Proof. induction n; intros s; cbn; [reflexivity|]. now rewrite IHn. Qed.

(** Finding: setParams accepts a = 1, outside the documented 0 < a < 1; the
    estimate then stays at the root mean square of the first sample for ever. *)
Theorem C65_frozen_refuted : exists (w : list R) (n : nat) (s0 s : rms RA), (1 <= n <= length w)%nat /\
  rms_setup (A := RA) (Some w) (Z.of_nat n) s0 = Ok (true, s) /\
  fst (rms_setParams (A := RA) 1 1 s) = true /\
  forall x xs, exists s', feed_res (rms_update (A := RA)) (x :: xs) (snd (rms_setParams (A := RA) 1 1 s)) = Ok (repeat (Rabs x) (S (length xs)), s').
Proof.
  destruct (C65_estimate [0] 1 rms_new (Some (1, 1)) [] ltac:(cbn; lia)) as (s & E & _).
  { intros l al H. injection H as <- <-. lra. }
  exists [0], 1%nat, rms_new, s. split; [cbn; lia|]. split; [exact E|]. split.
  { unfold rms_setParams. rewrite <- andb_assoc. rewrite (proj2 (unit_closed_R 1)) by lra. reflexivity. }
  intros x xs. destruct (C65_estimate [0] 1 rms_new (Some (1, 1)) (x :: xs) ltac:(cbn; lia)) as (s2 & E2 & s' & E').
  { intros l al H. injection H as <- <-. lra. }
  assert (s2 = s) by congruence. subst s2. exists s'. etransitivity; [exact E'|]. apply f_equal. apply f_equal2; [|reflexivity].
  unfold rms_estimate. cbn [length]. set (N := S (length xs)). unfold tabulate at 1.
  replace (repeat (Rabs x) N) with (map (fun _ : nat => Rabs x) (seq 0 N)) by apply map_seq_const.
  apply map_ext_in. intros k Hk. unfold lowpass. rewrite pow1.
  rewrite (sum_ext k _ (fun _ => 0)), sum_0 by (intros; ring).
  rewrite tab_nth by (unfold N; lia). unfold moving_mean, ago. cbn [sum INR]. rewrite tab_nth by (unfold N; lia).
  assert (Q : mean_square 1 (x :: xs) 0 = x²) by (unfold mean_square, discounted, discount, Rsqr; cbn; field).
  replace (0 - 0)%nat with 0%nat by lia. rewrite Q, sqrt_Rsqr_abs. field.
Qed.
Print Assumptions C65_frozen_refuted.
