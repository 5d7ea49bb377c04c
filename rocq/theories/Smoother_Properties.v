(** The smoother properties C39-C45, C73 and C74. *)
From Coq Require Import ZArith List Bool Lia Reals Lra.
From Flocq Require Import Core IEEE754.BinarySingleNaN IEEE754.Binary IEEE754.Bits.
From Verif Require Import Base BaseLemmas Arith ArithLemmas Tdl_Model Tdl_Proofs Ltisys_Model Ltisys_Spec Ltisys_Proofs Ltisys_Proofs2
  Smoother_Model Smoother_Spec Smoother_Proofs Smoother_Proofs2 Smoother_Proofs3 Smoother_Proofs4 Smoother_Proofs5.
Import ListNotations.
Open Scope R_scope.

(** A refused setup leaves the filter as it was. *)
Definition decides {S} (P : Prop) (r : bool * S) (f : S) : Prop := (fst r = true <-> P) /\ (fst r = false -> snd r = f).

(** ** C39: which parameters setup() accepts, in binary32 *)
Theorem C39_lowpass_setup : forall o (a : binary32),
  (forall f : lpf1 (B32 o), decides (between 0 1 a) (lpf1_setup (A := B32 o) a f) f) /\
  (forall f : lpf2 (B32 o), decides (between 0 1 a) (lpf2_setup (A := B32 o) a f) f) /\
  (forall f : expw (B32 o), decides (between 0 1 a) (expw_setup (A := B32 o) a f) f).
Proof.
  intros o a. pose proof (unit_open_b32 o a) as H. unfold decides, lpf1_setup, lpf2_setup, expw_setup.
  repeat split; intros; destruct (unit_open (A := B32 o) a) eqn:E; cbn in *; auto; try discriminate; try (apply H; auto); try (apply H in H0; discriminate).
Qed.
Print Assumptions C39_lowpass_setup.

Theorem C39_kalman_setup : forall o (q r p : binary32) (f : klmn (B32 o)),
  decides (positive_or_inf q /\ positive_or_inf r /\ positive_or_inf p) (klmn_setup (A := B32 o) q r p f) f.
Proof.
  intros o q r p f. pose proof (pos_b32 o q) as Hq. pose proof (pos_b32 o r) as Hr. pose proof (pos_b32 o p) as Hp.
  unfold decides, klmn_setup. rewrite <- Hq, <- Hr, <- Hp.
  destruct (flt (a := B32 o) (lit 0 1) q), (flt (a := B32 o) (lit 0 1) r), (flt (a := B32 o) (lit 0 1) p); cbn; intuition discriminate.
Qed.
Print Assumptions C39_kalman_setup.

Theorem C39_double_exponential_setup : forall o (a b : binary32) n (f : desf (B32 o)),
  decides (between 0 1 a /\ between 0 1 b) (desf_setup (A := B32 o) a b n f) f.
Proof.
  intros o a b n f. unfold decides, desf_setup. rewrite <- !(unit_open_b32 o).
  destruct (unit_open (A := B32 o) a), (unit_open (A := B32 o) b); cbn; intuition discriminate.
Qed.
Print Assumptions C39_double_exponential_setup.

Theorem C39_outlier_setup : forall o (w : option (list binary32)) n (a : binary32) (f : mor1 (B32 o)),
  decides (w <> None /\ (0 < n)%Z /\ between 0 1 a) (mor1_setup (A := B32 o) w n a f) f.
Proof.
  intros o w n a f. unfold decides, mor1_setup. rewrite <- (unit_open_b32 o a). rewrite <- Z.gtb_lt.
  destruct w as [w|]; [|cbn; intuition discriminate].
  destruct (n >? 0)%Z, (unit_open (A := B32 o) a); cbn; intuition discriminate.
Qed.
Print Assumptions C39_outlier_setup.

(** The delay-line filters run on the [n] cells handed over: with a window of at
    least [n] cells setup is defined and accepts exactly the valid parameters. *)
Theorem C39_line_setup : forall o (w : list binary32) (n : Z) (a : binary32), (n <= zlen w)%Z ->
  (forall f : mwm2 (B32 o), exists r, mwm2_setup (A := B32 o) (Some w) n f = Ok r /\ decides (0 < n)%Z r f) /\
  (forall f : mor2 (B32 o), exists r, mor2_setup (A := B32 o) (Some w) n a f = Ok r /\ decides ((0 < n)%Z /\ between 0 1 a) r f) /\
  (forall f : mwm2 (B32 o), mwm2_setup (A := B32 o) None n f = Ok (false, f)) /\
  (forall f : mor2 (B32 o), mor2_setup (A := B32 o) None n a f = Ok (false, f)).
Proof.
  intros o w n a Hw. unfold decides, mwm2_setup, mor2_setup.
  assert (Hs : (n >? 0)%Z = true -> exists t, setup w n (lit (a := B32 o) 0 1) = Ok t).
  { intros H. apply Z.gtb_lt in H. destruct (setup_ok w n (lit (a := B32 o) 0 1)) as (t & E & _); [lia|]. exists t. exact E. }
  repeat split; intros f.
  - setoid_rewrite <- Z.gtb_lt. destruct (n >? 0)%Z.
    + destruct (Hs eq_refl) as (t & E). change (F (B32 o)) with binary32. rewrite E. cbn. eexists. split; [reflexivity|]. cbn. intuition discriminate.
    + eexists. split; [reflexivity|]. cbn. intuition discriminate.
  - setoid_rewrite <- (unit_open_b32 o a). setoid_rewrite <- Z.gtb_lt. destruct (n >? 0)%Z; [destruct (unit_open (A := B32 o) a)|]; cbn [andb].
    + destruct (Hs eq_refl) as (t & E). change (F (B32 o)) with binary32. rewrite E. cbn. eexists. split; [reflexivity|]. cbn. intuition discriminate.
    + eexists. split; [reflexivity|]. cbn. intuition discriminate.
    + eexists. split; [reflexivity|]. cbn. intuition discriminate.
Qed.
Print Assumptions C39_line_setup.

Theorem C39_adaptive_setup : forall o (a m : binary32) n w (weights : list binary32) w1 (f : alnf (B32 o)),
  decides (w <> None /\ (0 < n)%Z /\ between 0 1 a /\ between 0 1 m) (alnf_setup (A := B32 o) a m n w weights w1 f) f /\
  (* finding: the overload that takes no momentum always refuses *)
  (forall win, alnf_setup_plain (A := B32 o) a n win weights f = (false, f)).
Proof.
  intros o a m n w weights w1 f. split.
  - unfold decides, alnf_setup. rewrite <- (unit_open_b32 o a), <- (unit_open_b32 o m). rewrite <- Z.gtb_lt.
    destruct w as [w|]; [|cbn; intuition discriminate].
    destruct (n >? 0)%Z, (unit_open (A := B32 o) a), (unit_open (A := B32 o) m); cbn; intuition discriminate.
  - intros win. unfold alnf_setup_plain, alnf_setup.
    assert (E : unit_open (A := B32 o) (lit (a := B32 o) 0 1) = false) by (vm_compute; reflexivity).
    rewrite E, andb_false_r. reflexivity.
Qed.
Print Assumptions C39_adaptive_setup.

(** The Gaussian filter, over the reals. *)
Theorem C39_gaussian_setup : forall (s c : R) (w : option (list R)) (kern : list R) n (f : gmwf RA),
  (forall v, w = Some v -> (n <= length v)%nat) -> (n <= length kern)%nat ->
  exists r, gmwf_setup (A := RA) s c w kern (Z.of_nat n) f = Ok r /\ decides (w <> None /\ (1 <= n)%nat /\ c < INR n /\ 0 < s) r f.
Proof.
  intros s c w kern n f Hw Hk. destruct w as [w|]; [|eexists; split; [reflexivity|]; unfold decides; cbn; intuition discriminate].
  specialize (Hw w eq_refl).
  destruct (Nat.le_gt_cases 1 n) as [Hn|Hn]; [destruct (Rlt_dec c (INR n)) as [Hc|Hc]; [destruct (Rlt_dec 0 s) as [Hs|Hs]|]|].
  - destruct (gmwf_setup_ok s c w kern n f Hn Hw Hk Hc Hs) as (g & E & _). exists (true, g). split; [exact E|].
    unfold decides. cbn. intuition discriminate.
  - exists (false, f). split; [|unfold decides; cbn; intuition discriminate]. unfold gmwf_setup.
    destruct (flt (a := RA) (lit 0 1) s) eqn:E; [exfalso; apply Hs; apply pos_R; exact E|]. rewrite andb_false_r. reflexivity.
  - exists (false, f). split; [|unfold decides; cbn; intuition discriminate]. unfold gmwf_setup.
    assert (E : flt (a := RA) c (ofsize (Z.of_nat n)) = false).
    { apply Rltb_false. unfold ofsize. change (lit (a := RA) (Z.of_nat n) 1) with (IZR (Z.of_nat n) / 1). rewrite <- INR_IZR_INZ. lra. }
    rewrite E, andb_false_r. reflexivity.
  - exists (false, f). split; [|unfold decides; cbn; intuition (discriminate || lia)]. unfold gmwf_setup.
    replace n with O by lia. reflexivity.
Qed.
Print Assumptions C39_gaussian_setup.

(** Finding: a MWM1 filter can never be set up, and using it is undefined. *)
Theorem C39_moving_window_setup_refuted : forall (A : arith) (calls : list (option (list (F A)) * Z)),
  let f := fold_left (fun f c => snd (mwm1_setup (fst c) (snd c) f)) calls mwm1_new in
  (forall w n, fst (mwm1_setup w n f) = false) /\ (forall x, mwm1_smooth x f = Ub).
Proof. intros A calls. split; [exact (mwm1_refuses calls)|exact (mwm1_ub calls)]. Qed.
Print Assumptions C39_moving_window_setup_refuted.

(** 0.25 is accepted, 1 and NaN are refused. *)
Example C39_example : forall o, between 0 1 (lit (a := B32 o) 1 4) /\ fst (lpf1_setup (A := B32 o) (lit (a := B32 o) 1 4) lpf1_new) = true /\
  fst (lpf1_setup (A := B32 o) (lit (a := B32 o) 1 1) lpf1_new) = false /\ fst (lpf1_setup (A := B32 o) fnan lpf1_new) = false.
Proof.
  intros o. assert (E : unit_open (A := B32 o) (lit (a := B32 o) 1 4) = true) by (vm_compute; reflexivity).
  split; [apply (unit_open_b32 o); exact E|]. repeat split; vm_compute; reflexivity.
Qed.

(** ** C40: first-order filters *)

(** LPF1: y(k) = (1-a) x(k) + a y(k-1), in closed form, inside the hull of the
    samples, and settling geometrically on a constant after any history. *)
Theorem C40_lowpass : forall (a : R) (f0 f : lpf1 RA) (xs : list (F RA)), lpf1_setup (A := RA) a f0 = (true, f) ->
  let run zs := fst (feed (lpf1_smooth (A := RA)) zs f) in
  run xs = tabulate (length xs) (lowpass a xs) /\
  (forall lo hi : R, Forall (fun x : F RA => lo <= x <= hi) xs -> Forall (fun y : F RA => lo <= y <= hi) (run xs)) /\
  (forall (c : R) n j, xs <> [] -> (j <= n)%nat ->
    Rabs (nth (length xs - 1 + j) (run (xs ++ repeat (c : F RA) n)) 0 - c) <= a ^ j * Rabs (nth (length xs - 1) (run xs) 0 - c)).
Proof.
  intros a f0 f xs H. apply lpf1_setup_inv in H. destruct H as (Ha & Ea & Hi). cbv zeta. split; [|split].
  - rewrite <- Ea. apply lpf1_lowpass. exact Hi.
  - intros lo hi Hx. apply lpf1_hull; auto. rewrite Ea. lra.
  - intros c n j Hne Hj. rewrite <- Ea. apply lpf1_settle; auto. rewrite Ea. exact Ha.
Qed.
Print Assumptions C40_lowpass.

(** EXPW.  Finding: the first sample is counted twice, so the value is not the
    exponentially weighted mean of the samples but of the samples with the first
    one repeated. *)
Theorem C40_exponential_weighting : forall (lam : R) (f0 f : expw RA) (xs : list (F RA)), expw_setup (A := RA) lam f0 = (true, f) ->
  let run zs := fst (feed (expw_smooth (A := RA)) zs f) in
  run xs = tabulate (length xs) (fun k => (discounted lam xs k + lam ^ S k * nth 0 xs 0) / discount lam (S (S k))) /\
  (forall lo hi : R, Forall (fun x : F RA => lo <= x <= hi) xs -> Forall (fun y : F RA => lo <= y <= hi) (run xs)) /\
  (forall (c : R) n j, xs <> [] -> (j <= n)%nat ->
    Rabs (nth (length xs - 1 + j) (run (xs ++ repeat (c : F RA) n)) 0 - c) <= lam ^ j * Rabs (nth (length xs - 1) (run xs) 0 - c)).
Proof.
  intros a f0 f xs H. apply expw_setup_inv in H. destruct H as (Ha & Ea & Hi). cbv zeta. split; [|split].
  - rewrite <- Ea. apply expw_mean; auto. rewrite Ea. apply Ha.
  - intros lo hi Hx. apply expw_hull; auto. rewrite Ea. apply Ha.
  - intros c n j Hne Hj. rewrite <- Ea. apply expw_settle; auto. rewrite Ea. exact Ha.
Qed.
Print Assumptions C40_exponential_weighting.

Theorem C40_exponential_mean_refuted : exists (f : expw RA) (xs : list (F RA)) k,
  expw_setup (A := RA) (1 / 2) expw_new = (true, f) /\ (k < length xs)%nat /\
  nth k (fst (feed (expw_smooth (A := RA)) xs f)) 0 <> discounted (1 / 2) xs k / discount (1 / 2) (S k).
Proof.
  destruct (expw_setup (A := RA) (1 / 2) expw_new) as [b f] eqn:E. unfold expw_setup in E.
  rewrite (proj2 (unit_open_R (1 / 2))) in E by lra. injection E as <- Ef. exists f, [(1 : R) : F RA; (0 : R) : F RA], 1%nat.
  split; [reflexivity|]. split; [cbn; lia|].
  rewrite expw_mean; [|rewrite <- Ef; reflexivity|rewrite <- Ef; cbn; lra].
  rewrite tab_nth by (cbn; lia). rewrite <- Ef. cbn [e_lambda]. unfold discounted, discount, sum. cbn. lra.
Qed.
Print Assumptions C40_exponential_mean_refuted.

(** KLMN *)
Theorem C40_kalman : forall (q r p : R) (f0 f : klmn RA) (xs : list (F RA)), klmn_setup (A := RA) q r p f0 = (true, f) ->
  let run zs := fst (feed (klmn_smooth (A := RA)) zs f) in
  (forall lo hi : R, Forall (fun x : F RA => lo <= x <= hi) xs -> Forall (fun y : F RA => lo <= y <= hi) (run xs)) /\
  (forall (c : R) n j, xs <> [] -> (j <= n)%nat ->
    Rabs (nth (length xs - 1 + j) (run (xs ++ repeat (c : F RA) n)) 0 - c) <= (r / (r + q)) ^ j * Rabs (nth (length xs - 1) (run xs) 0 - c)).
Proof.
  intros q r p f0 f xs H. apply klmn_setup_inv in H. destruct H as (Hok & Eq & Er & Ep & Hi). cbv zeta. split.
  - intros lo hi Hx. apply klmn_hull; auto.
  - intros c n j Hne Hj. rewrite <- Eq, <- Er. apply klmn_settle; auto.
Qed.
Print Assumptions C40_kalman.

Example C40_example : exists f : lpf1 RA, lpf1_setup (A := RA) (1 / 2) lpf1_new = (true, f) /\
  fst (feed (lpf1_smooth (A := RA)) [(4 : R) : F RA; (0 : R) : F RA] f) = [4; 2].
Proof.
  destruct (lpf1_setup (A := RA) (1 / 2) lpf1_new) as [b f] eqn:E. pose proof E as E'. unfold lpf1_setup in E'.
  rewrite (proj2 (unit_open_R (1 / 2))) in E' by lra. assert (b = true) by congruence. subst b. exists f. split; auto.
  destruct (C40_lowpass _ _ _ [(4 : R) : F RA; (0 : R) : F RA] E) as (H & _). etransitivity; [exact H|].
  unfold lowpass, tabulate, sum. cbn. f_equal; [lra|]. f_equal. lra.
Qed.

(** ** C41: the second-order low-pass *)

(** A constant is reproduced exactly; the output obeys its difference equation;
    and after any history a constant input is approached in the limit. *)
Theorem C41_second_order : forall (a : R) (f0 f : lpf2 RA), lpf2_setup (A := RA) a f0 = (true, f) ->
  let run zs := fst (feed (lpf2_smooth (A := RA)) zs f) in
  (forall (c : R) n, run (repeat (c : F RA) n) = repeat c n) /\
  (forall (xs : list (F RA)) (c : R), Un_cv (fun j => nth (length xs + j) (run (xs ++ repeat (c : F RA) (S j))) 0) c) /\
  (let s := 1 + sqrt (2 * a) + a * a in
   forall (xs : list (F RA)) k, (k < length xs)%nat ->
     s * nth k (run xs) 0 = a * a * (ago xs k 0 + 2 * ago xs k 1 + ago xs k 2)
       - 2 * (a * a - 1) * (if (k =? 0)%nat then ago xs 0 0 else ago (run xs) k 1)
       - (1 - sqrt (2 * a) + a * a) * (if (k =? 0)%nat then ago xs 0 0 else ago (run xs) k 2)).
Proof.
  intros a f0 f H. cbv zeta. split; [|split].
  - intros c n. apply (lpf2_constant a f0). exact H.
  - intros xs c. apply (lpf2_converges a f0). exact H.
  - intros xs k Hk. pose proof (lpf2_equation a f0 f xs k H Hk) as E. cbv zeta in E. rewrite E.
    unfold lpf2_setup in H. destruct (unit_open (A := RA) a) eqn:U; [|discriminate]. injection H as <-. apply unit_open_R in U.
    cbn [f2_k f2_a1 f2_a2]. change (o_sqrt lib) with sqrt. change (lit (a := RA) 1 1) with (1 / 1). change (lit (a := RA) 2 1) with (2 / 1). ops.
    replace (1 / 1) with 1 by field. replace (2 / 1) with 2 by field.
    pose proof (sqrt_pos (2 * a)). assert (0 < a * a) by (apply Rmult_lt_0_compat; lra).
    field. lra.
Qed.
Print Assumptions C41_second_order.

Example C41_example : exists f : lpf2 RA, lpf2_setup (A := RA) (1 / 2) lpf2_new = (true, f) /\
  fst (feed (lpf2_smooth (A := RA)) [(3 : R) : F RA; (3 : R) : F RA; (3 : R) : F RA] f) = [3; 3; 3].
Proof.
  destruct (lpf2_setup (A := RA) (1 / 2) lpf2_new) as [b f] eqn:E. pose proof E as E'. unfold lpf2_setup in E'.
  rewrite (proj2 (unit_open_R (1 / 2))) in E' by lra. assert (b = true) by congruence. subst b. exists f. split; auto.
  destruct (C41_second_order _ _ _ E) as (H & _). exact (H 3 3%nat).
Qed.

(** ** C42: moving means *)

(** MWM2: after setup, whatever came before the last reset, the outputs are the
    means of the last [n] samples. *)
Theorem C42_moving_mean : forall (w : list R) n (f0 : mwm2 RA) (pre xs : list (F RA)), (1 <= n <= length w)%nat ->
  exists f, mwm2_setup (A := RA) (Some w) (Z.of_nat n) f0 = Ok (true, f) /\
  (exists f', feed_res (mwm2_smooth (A := RA)) xs f = Ok (tabulate (length xs) (moving_mean n xs), f')) /\
  exists ys f1 f2, feed_res (mwm2_smooth (A := RA)) pre f = Ok (ys, f1) /\
    feed_res (mwm2_smooth (A := RA)) xs (mwm2_reset f1) = Ok (tabulate (length xs) (moving_mean n xs), f2).
Proof.
  intros w n f0 pre xs H. destruct (mwm2_setup_ok w n f0 H) as (f & E & Hok & Hi). exists f. split; [exact E|].
  destruct (mwm2_any w n xs f (proj1 H) Hok) as (zs & f' & E1 & _ & Ez). specialize (Ez Hi). subst zs. split; [exists f'; exact E1|].
  destruct (mwm2_any w n pre f (proj1 H) Hok) as (ys & f1 & E2 & Hok1 & _). exists ys, f1.
  assert (Hr : mwm2_ok w n (mwm2_reset f1)).
  { destruct Hok1 as (t & h & Et & T & _). exists t, h. split; [exact Et|]. split; [exact T|]. left. reflexivity. }
  destruct (mwm2_any w n xs _ (proj1 H) Hr) as (zs & f2 & E3 & _ & Ez). specialize (Ez eq_refl). subst zs. exists f2. split; [exact E2|exact E3].
Qed.
Print Assumptions C42_moving_mean.

(** Finding: in binary32 one NaN sample makes every later output NaN, long after
    it has left the window. *)
Theorem C42_nan_never_leaves : forall o (x : binary32) (xs : list binary32) (f f' : mwm2 (B32 o)) ys,
  is_nan 24 128 x = true -> feed_res (mwm2_smooth (A := B32 o)) (x :: xs) f = Ok (ys, f') -> Forall (fun y => is_nan 24 128 y = true) ys.
Proof.
  intros o x xs f f' ys Hx H. cbn [feed_res] in H. destruct (mwm2_smooth (A := B32 o) x f) as [[y f1]|] eqn:E; [|discriminate].
  cbn [bind fst snd] in H. destruct (feed_res (mwm2_smooth (A := B32 o)) xs f1) as [[zs f2]|] eqn:E2; [|discriminate].
  cbn [bind fst snd] in H. injection H as <- _. destruct (mwm2_nan_in o x y f f1 Hx E) as (H1 & H2 & H3).
  constructor; [exact H1|]. exact (mwm2_nan_run o xs f1 f2 zs H2 H3 E2).
Qed.
Print Assumptions C42_nan_never_leaves.

Example C42_example : exists f f', mwm2_setup (A := RA) (Some [7; 7]) 2 mwm2_new = Ok (true, f) /\
  feed_res (mwm2_smooth (A := RA)) [(2 : R) : F RA; (4 : R) : F RA; (8 : R) : F RA] f = Ok ([2; 3; 6], f').
Proof.
  destruct (C42_moving_mean [7; 7] 2 mwm2_new [] [(2 : R) : F RA; (4 : R) : F RA; (8 : R) : F RA]) as (f & E & (f' & H) & _); [cbn; lia|].
  exists f, f'. split; [exact E|]. etransitivity; [exact H|].
  unfold moving_mean, tabulate, ago, sum. cbn. apply f_equal. apply f_equal2; [|reflexivity].
  apply f_equal2; [lra|]. apply f_equal2; [lra|]. apply f_equal2; [lra|reflexivity].
Qed.

(** ** C43: outlier removal *)

Theorem C43_outliers : forall (w : list R) n (a : R) (f0 : mor1 RA) (pre xs : list (F RA)),
  (1 <= n <= length w)%nat -> (Z.of_nat n < 2 ^ 64)%Z -> 0 < a < 1 ->
  exists f, mor1_setup (A := RA) (Some w) (Z.of_nat n) a f0 = (true, f) /\
  (exists f', feed_res (mor1_smooth (A := RA)) xs f = Ok (outlier_filter a n xs, f')) /\
  exists ys f1 f2, feed_res (mor1_smooth (A := RA)) pre f = Ok (ys, f1) /\
    feed_res (mor1_smooth (A := RA)) xs (mor1_reset f1) = Ok (outlier_filter a n xs, f2).
Proof.
  intros w n a f0 pre xs H Hn Ha. destruct (mor1_setup_ok a w n f0 H Ha) as (f & E & Hok & Hi). exists f. split; [exact E|].
  destruct (mor1_any a n xs f (proj1 H) Hn Hok) as (zs & f' & E1 & _ & Ez). specialize (Ez Hi). subst zs. split; [exists f'; exact E1|].
  destruct (mor1_any a n pre f (proj1 H) Hn Hok) as (ys & f1 & E2 & Hok1 & _). exists ys, f1.
  assert (Hr : mor1_ok a n (mor1_reset f1)) by exact Hok1.
  destruct (mor1_any a n xs _ (proj1 H) Hn Hr) as (zs & f2 & E3 & _ & Ez). specialize (Ez eq_refl). subst zs. exists f2. split; [exact E2|exact E3].
Qed.
Print Assumptions C43_outliers.

Theorem C43_outliers_hull : forall (a : R) n (lo hi : R) (xs : list R),
  Forall (fun x => lo <= x <= hi) xs -> Forall (fun y => lo <= y <= hi) (outlier_filter a n xs).
Proof. exact outlier_hull. Qed.
Print Assumptions C43_outliers_hull.

(** Finding: MOR2 removes nothing, it returns every sample unchanged. *)
Theorem C43_constant_time_refuted : forall (w : list R) n (a : R) (f0 : mor2 RA) (xs : list (F RA)),
  (1 <= n <= length w)%nat -> 0 < a < 1 ->
  exists f f', mor2_setup (A := RA) (Some w) (Z.of_nat n) a f0 = Ok (true, f) /\ feed_res (mor2_smooth (A := RA)) xs f = Ok (xs, f').
Proof.
  intros w n a f0 xs H Ha. destruct (mor2_setup_ok a w n f0 H Ha) as (f & E & Hok & _).
  destruct (mor2_any w n xs (proj1 H) f Hok) as (f' & E' & _). exists f, f'. split; [exact E|exact E'].
Qed.
Print Assumptions C43_constant_time_refuted.

(** A spike of 100 over a mean of 10 is replaced by the mean. *)
Example C43_example : outlier_filter (1 / 2) 2 [10; 100; 12] = [10; 10; 12].
Proof.
  assert (E0 : accept (1 / 2) 10 10 = 10) by (unfold accept; destruct (Rlt_dec _ _); reflexivity).
  unfold outlier_filter. cbn [outliers repeat removelast]. rewrite E0.
  assert (M : mean [10; 10] = 10) by (unfold mean; cbn; lra). rewrite M.
  assert (E1 : accept (1 / 2) 10 100 = 10).
  { unfold accept. destruct (Rlt_dec _ _) as [H1|H1]; auto. exfalso. apply H1. rewrite (Rabs_right 10) by lra. rewrite Rabs_left by lra. lra. }
  rewrite E1, M.
  assert (E2 : accept (1 / 2) 10 12 = 12).
  { unfold accept. destruct (Rlt_dec _ _) as [H1|H1]; auto. exfalso. rewrite (Rabs_right 10) in H1 by lra. rewrite Rabs_left in H1 by lra. lra. }
  rewrite E2. reflexivity.
Qed.

(** ** C44: the Gaussian window *)

Theorem C44_gaussian_window : forall (s c : R) (w kern : list R) n (f0 : gmwf RA) (pre xs : list (F RA)),
  (1 <= n)%nat -> (Z.of_nat n < 2 ^ 64)%Z -> (n <= length w)%nat -> (n <= length kern)%nat -> c < INR n -> 0 < s ->
  let ys := tabulate (length xs) (moving_weighted (gaussian c s n) n xs) in
  exists f, gmwf_setup (A := RA) s c (Some w) kern (Z.of_nat n) f0 = Ok (true, f) /\
  (exists f', feed_res (gmwf_smooth (A := RA)) xs f = Ok (ys, f')) /\
  exists zs f1 f2, feed_res (gmwf_smooth (A := RA)) pre f = Ok (zs, f1) /\ feed_res (gmwf_smooth (A := RA)) xs (gmwf_reset f1) = Ok (ys, f2).
Proof.
  intros s c w kern n f0 pre xs H1 Hn Hw Hk Hc Hs. cbv zeta.
  destruct (gmwf_setup_ok s c w kern n f0 H1 Hw Hk Hc Hs) as (f & E & Hok & Hi). exists f. split; [exact E|].
  destruct (gmwf_any c s n xs f H1 Hn Hok) as (zs & f' & E1 & _ & Ez). specialize (Ez Hi). subst zs. split; [exists f'; exact E1|].
  destruct (gmwf_any c s n pre f H1 Hn Hok) as (ys & f1 & E2 & Hok1 & _). exists ys, f1.
  assert (Hr : gmwf_ok c s n (gmwf_reset f1)) by exact Hok1.
  destruct (gmwf_any c s n xs _ H1 Hn Hr) as (zs & f2 & E3 & _ & Ez). specialize (Ez eq_refl). subst zs. exists f2. split; [exact E2|exact E3].
Qed.
Print Assumptions C44_gaussian_window.

(** The weights are positive and sum to 1, so the outputs stay in the hull of
    the samples and a constant is reproduced. *)
Theorem C44_weights : forall (s c : R) n, (1 <= n)%nat ->
  (forall i, 0 < gaussian c s n i) /\ sum n (gaussian c s n) = 1 /\
  (forall lo hi (xs : list R) k, (k < length xs)%nat -> Forall (fun x => lo <= x <= hi) xs -> lo <= moving_weighted (gaussian c s n) n xs k <= hi).
Proof.
  intros s c n Hn. split; [intros i; apply gaussian_pos; auto|]. split; [apply gaussian_sum; auto|].
  intros lo hi xs k Hk H. unfold moving_weighted.
  assert (G : forall i, lo <= ago xs k i <= hi).
  { intros i. unfold ago. rewrite Forall_forall in H. apply H. apply nth_In. lia. }
  assert (P : forall i, 0 < gaussian c s n i) by (intros i; apply gaussian_pos; auto).
  assert (B : forall m, lo * sum m (gaussian c s n) <= sum m (fun i => gaussian c s n i * ago xs k i) <= hi * sum m (gaussian c s n)).
  { intros m. induction m as [|m IH]; cbn [sum]; [lra|]. pose proof (P m). pose proof (G m). nra. }
  specialize (B n). rewrite gaussian_sum in B by auto. lra.
Qed.
Print Assumptions C44_weights.

Example C44_example : exists f, gmwf_setup (A := RA) 1 0 (Some [0; 0; 0]) [0; 0; 0] 3 (gmwf_new 0) = Ok (true, f).
Proof.
  destruct (C44_gaussian_window 1 0 [0; 0; 0] [0; 0; 0] 3 (gmwf_new 0) [] []) as (f & E & _); try (cbn; lia); try (cbn; lra).
  exists f. exact E.
Qed.

(** ** C45: the scalar Kalman filter *)

(** After any history the covariance is positive; the next sample updates it in
    information form, with a gain strictly between 0 and 1. *)
Theorem C45_kalman : forall (q r p : R) (f0 f : klmn RA) (xs : list (F RA)) (x : R), klmn_setup (A := RA) q r p f0 = (true, f) ->
  let g := snd (feed (klmn_smooth (A := RA)) xs f) in
  let g' := snd (klmn_smooth (A := RA) x g) in
  0 < k_p g /\ 0 < k_gain g' < 1 /\ q / (r + q) < k_gain g' /\ k_p g' = k_gain g' * r /\ / k_p g' = / (k_p g + q) + / r /\ k_p g' < r.
Proof.
  intros q r p f0 f xs x H. cbv zeta. apply klmn_setup_inv in H. destruct H as (Hok & Eq & Er & Ep & Hi).
  pose proof (klmn_run_ok f xs Hok) as Hg. set (g := snd (feed (klmn_smooth (A := RA)) xs f)) in *.
  assert (K : k_q g = q /\ k_r g = r).
  { rewrite <- Eq, <- Er. split; unfold g; apply (feed_keep (klmn_smooth (A := RA))); reflexivity. }
  destruct K as [Kq Kr]. destruct (klmn_keeps x g Hg) as (_ & E1 & E2 & _). destruct Hg as (_ & _ & Hq & Hr & Hp).
  rewrite Kq, Kr in *. rewrite E2, E1. change (F RA) with R in *.
  assert (D : 0 < r + (k_p g + q)) by lra.
  destruct (ratio01 (k_p g + q) r) as [R1 R2]; [lra|lra|].
  split; [exact Hp|]. split; [split; [exact R1|exact R2]|]. split; [|split; [reflexivity|split]].
  - apply (Rmult_lt_reg_r ((r + q) * (r + (k_p g + q)))); [apply Rmult_lt_0_compat; lra|].
    replace (q / (r + q) * ((r + q) * (r + (k_p g + q)))) with (q * (r + (k_p g + q))) by (field; lra).
    replace ((k_p g + q) / (r + (k_p g + q)) * ((r + q) * (r + (k_p g + q)))) with ((k_p g + q) * (r + q)) by (field; lra). nra.
  - field. lra.
  - nra.
Qed.
Print Assumptions C45_kalman.

Example C45_example : exists f : klmn RA, klmn_setup (A := RA) 1 1 1 (klmn_new (A := RA) 0) = (true, f) /\
  k_gain (snd (klmn_smooth (A := RA) 5 f)) = 2 / 3.
Proof.
  destruct (klmn_setup (A := RA) 1 1 1 (klmn_new (A := RA) 0)) as [b f] eqn:E. pose proof E as E'. unfold klmn_setup in E'.
  rewrite !(proj2 (pos_R 1)) in E' by lra. cbn [andb] in E'. assert (b = true) by congruence. subst b. exists f. split; auto.
  apply klmn_setup_inv in E. destruct E as (Hok & Eq & Er & Ep & _). destruct (klmn_keeps 5 f Hok) as (_ & E1 & _). rewrite E1, Eq, Er, Ep. change (F RA) with R in *. field.
Qed.

(** ** C73: double exponential and adaptive filters *)

(** DESF.  Findings: the level ignores the trend, and the trend starts at the
    first sample, so a constant is overshot at first. *)
Theorem C73_double_exponential : forall (a b : R) n (f0 f : desf RA), desf_setup (A := RA) a b n f0 = (true, f) ->
  let run zs := fst (feed (desf_smooth (A := RA)) zs f) in
  (forall (x : R) (xs : list (F RA)), run ((x : F RA) :: xs) = map (fun p => fst p + IZR n * snd p) (level_trend a b x x ((x : F RA) :: xs))) /\
  (forall (c : R) m, run (repeat (c : F RA) m) = tabulate m (fun k => c + IZR n * (1 - b) ^ S k * c)).
Proof.
  intros a b n f0 f H. cbv zeta. apply desf_setup_inv in H. destruct H as (_ & _ & Ea & Eb & En & Hi). split.
  - intros x xs. rewrite desf_run by auto. rewrite Ea, Eb, En. reflexivity.
  - intros c m. rewrite desf_constant by auto. rewrite Eb, En. reflexivity.
Qed.
Print Assumptions C73_double_exponential.

(** ALNF without momentum memory is the least-mean-squares filter. *)
Theorem C73_adaptive : forall (a m : R) (x w : list R) n (f0 : alnf RA) (pre xs : list (F RA)),
  (1 <= n)%nat -> (Z.of_nat n < 2 ^ 64)%Z -> (n <= length x)%nat -> (n <= length w)%nat -> 0 < a < 1 -> 0 < m < 1 ->
  exists f, alnf_setup (A := RA) a m (Z.of_nat n) (Some x) w None f0 = (true, f) /\
  (exists f', feed_res (alnf_smooth (A := RA)) xs f = Ok (lms_filter a n xs, f')) /\
  exists zs f1 f2, feed_res (alnf_smooth (A := RA)) pre f = Ok (zs, f1) /\ feed_res (alnf_smooth (A := RA)) xs (alnf_reset f1) = Ok (lms_filter a n xs, f2).
Proof.
  intros a m x w n f0 pre xs H1 Hn Hx Hw Ha Hm.
  destruct (alnf_setup_ok a m x w n f0 Hx Hw H1 Ha Hm) as (f & E & Hok & Hi). exists f. split; [exact E|].
  destruct (alnf_any a n xs f H1 Hn Hok) as (zs & f' & E1 & _ & Ez). specialize (Ez Hi). subst zs. split; [exists f'; exact E1|].
  destruct (alnf_any a n pre f H1 Hn Hok) as (ys & f1 & E2 & Hok1 & _). exists ys, f1.
  assert (Hr : alnf_ok a n (alnf_reset f1)) by exact Hok1.
  destruct (alnf_any a n xs _ H1 Hn Hr) as (zs & f2 & E3 & _ & Ez). specialize (Ez eq_refl). subst zs. exists f2. split; [exact E2|exact E3].
Qed.
Print Assumptions C73_adaptive.

(** Finding: with a momentum buffer the filter reads past the weights, so arrays
    of exactly [n] cells make the first smooth() undefined. *)
Theorem C73_momentum_refuted : forall (a m s : R) (x w w1 : list R) n (f0 : alnf RA),
  (1 <= n)%nat -> length x = n -> length w = n -> length w1 = n -> 0 < a < 1 -> 0 < m < 1 ->
  exists f, alnf_setup (A := RA) a m (Z.of_nat n) (Some x) w (Some w1) f0 = (true, f) /\ alnf_smooth (A := RA) s f = Ub.
Proof.
  intros a m s x w w1 n f0 Hn Hx Hw H1 Ha Hm. unfold alnf_setup. rewrite (proj2 (Z.gtb_lt _ _)) by lia.
  rewrite (proj2 (unit_open_R a)), (proj2 (unit_open_R m)) by auto. cbn [andb].
  rewrite (proj2 (pos_R m)) by apply Hm. eexists. split; [reflexivity|].
  unfold alnf_smooth. cbn [a_alpha a_mu a_w a_w1 a_xx a_n a_init].
  assert (W : forall (l : list R) v, length l = n -> exists l', windowSet (A := RA) l (Z.of_nat n) v = Ok l' /\ length l' = n).
  { intros l v Hl. eexists. split; [apply windowSet_ok; lia|]. rewrite rep_length by lia. exact Hl. }
  destruct (W x s Hx) as (xx & E1 & L1). rewrite E1. cbn [bind].
  match goal with |- context [windowSet w _ ?v] => destruct (W w v Hw) as (ww & E2 & L2); destruct (W w1 v H1) as (ww1 & E3 & L3) end.
  rewrite E2. cbn [bind]. rewrite E3. cbn [bind].
  match goal with |- context [updateFIR ?p ?q ?r ?s] => destruct (updateFIR p q r s) as [[u v]|] end; [|reflexivity]. cbn [bind fst snd].
  rewrite Nat2Z.id, momentum_oob; auto. unfold zlen. f_equal. exact L2.
Qed.
Print Assumptions C73_momentum_refuted.

Example C73_example : exists f : desf RA, desf_setup (A := RA) (1 / 2) (1 / 2) 1 (mkDESF (A := RA) 0 0 0 0 0 true) = (true, f) /\
  fst (feed (desf_smooth (A := RA)) [(8 : R) : F RA; (8 : R) : F RA] f) = [12; 10].
Proof.
  destruct (desf_setup (A := RA) (1 / 2) (1 / 2) 1 (mkDESF (A := RA) 0 0 0 0 0 true)) as [b f] eqn:E. pose proof E as E'. unfold desf_setup in E'.
  rewrite !(proj2 (unit_open_R (1 / 2))) in E' by lra. cbn [andb] in E'. assert (b = true) by congruence. subst b. exists f. split; auto.
  destruct (C73_double_exponential _ _ _ _ _ E) as (_ & H). etransitivity; [exact (H 8 2%nat)|].
  unfold tabulate. cbn. apply f_equal2; [lra|]. apply f_equal2; [lra|reflexivity].
Qed.

(** ** C74: reset() forgets *)

(** In any arithmetic, binary32 included: a filter that was set up, used and
    reset then behaves as the filter that was just set up. *)
Theorem C74_reset_forgets : forall (A : arith) (a b : F A) n (pre xs : list (F A)),
  (forall f0 f, lpf1_setup a f0 = (true, f) ->
    fst (feed lpf1_smooth xs (lpf1_reset (snd (feed lpf1_smooth pre f)))) = fst (feed lpf1_smooth xs f)) /\
  (forall f0 f, lpf2_setup a f0 = (true, f) ->
    fst (feed lpf2_smooth xs (lpf2_reset (snd (feed lpf2_smooth pre f)))) = fst (feed lpf2_smooth xs f)) /\
  (forall f0 f, expw_setup a f0 = (true, f) ->
    fst (feed expw_smooth xs (expw_reset (snd (feed expw_smooth pre f)))) = fst (feed expw_smooth xs f)) /\
  (forall f0 f, desf_setup a b n f0 = (true, f) ->
    fst (feed desf_smooth xs (desf_reset (snd (feed desf_smooth pre f)))) = fst (feed desf_smooth xs f)).
Proof.
  intros A a b n pre xs. repeat split; intros f0 f H.
  - apply lpf1_reset_ok. unfold lpf1_setup in H. destruct (unit_open a); [|discriminate]. injection H as <-. reflexivity.
  - apply lpf2_reset_ok. unfold lpf2_setup in H. destruct (unit_open a); [|discriminate]. injection H as <-. reflexivity.
  - apply expw_reset_ok. unfold expw_setup in H. destruct (unit_open a); [|discriminate]. injection H as <-. reflexivity.
  - apply desf_reset_ok. unfold desf_setup in H. destruct (unit_open a && unit_open b)%bool; [|discriminate]. injection H as <-. reflexivity.
Qed.
Print Assumptions C74_reset_forgets.

(** Finding: the Kalman filter keeps its covariance through reset(). *)
Theorem C74_kalman_reset_refuted : exists (f : klmn RA) (pre xs : list (F RA)),
  klmn_setup (A := RA) 1 1 1 (klmn_new (A := RA) 0) = (true, f) /\
  fst (feed (klmn_smooth (A := RA)) xs (klmn_reset (snd (feed (klmn_smooth (A := RA)) pre f)))) <> fst (feed (klmn_smooth (A := RA)) xs f).
Proof.
  assert (T : forall p g s : R, 0 < p -> fst (feed (klmn_smooth (A := RA)) [(0 : R) : F RA; (1 : R) : F RA] (mkKLMN (A := RA) s 1 1 1 1 p g true)) =
    [0; (2 * p + 3) / (3 * p + 5)]).
  { intros p g s Hp. rewrite !feed_cons. rewrite klmn_first by reflexivity. cbn [k_A k_H k_q k_r k_p k_gain]. rewrite klmn_step by lra. cbn [fst snd].
    assert (0 < (p + 1) / (1 + (p + 1))) by (apply ratio01; lra).
    rewrite klmn_step by lra. cbn [fst snd feed]. change (F RA) with R. apply f_equal2; [field; lra|]. apply f_equal2; [|reflexivity]. field. lra. }
  assert (E : klmn_setup (A := RA) 1 1 1 (klmn_new (A := RA) 0) = (true, mkKLMN (A := RA) (lit 0 1) 1 1 1 1 1 0 true)).
  { unfold klmn_setup. rewrite !(proj2 (pos_R 1)) by lra. cbn [andb k_x k_gain klmn_new].
    assert (L : lit (a := RA) 1 1 = (1 : F RA)) by (change (@eq R (1 / 1) 1); field). rewrite L. reflexivity. }
  exists (mkKLMN (A := RA) (lit 0 1) 1 1 1 1 1 0 true), [(0 : R) : F RA], [(0 : R) : F RA; (1 : R) : F RA]. split; [exact E|].
  assert (P : snd (feed (klmn_smooth (A := RA)) [(0 : R) : F RA] (mkKLMN (A := RA) (lit 0 1) 1 1 1 1 1 0 true)) =
    mkKLMN (A := RA) ((1 * 0 + (1 + 1) * 0) / (1 + (1 + 1))) 1 1 1 1 ((1 + 1) / (1 + (1 + 1)) * 1) ((1 + 1) / (1 + (1 + 1))) false).
  { rewrite feed_cons. rewrite klmn_first by reflexivity. cbn [k_A k_H k_q k_r k_p k_gain]. rewrite klmn_step by lra. reflexivity. }
  rewrite P. unfold klmn_reset. cbn [k_x k_A k_H k_q k_r k_p k_gain]. rewrite !T by lra. intros H. injection H as H. lra.
Qed.
Print Assumptions C74_kalman_reset_refuted.

(** The windowed filters forget as well: C42_moving_mean, C43_outliers,
    C44_gaussian_window and C73_adaptive hold after any history and a reset. *)
Example C74_example : exists f : lpf1 RA, lpf1_setup (A := RA) (1 / 2) lpf1_new = (true, f) /\
  fst (feed (lpf1_smooth (A := RA)) [(4 : R) : F RA; (0 : R) : F RA] (lpf1_reset (snd (feed (lpf1_smooth (A := RA)) [(100 : R) : F RA] f)))) = [4; 2].
Proof.
  destruct C40_example as (f & E & H). exists f. split; [exact E|]. etransitivity; [|exact H].
  apply (proj1 (C74_reset_forgets RA (1 / 2) (1 / 2) 0 [(100 : R) : F RA] [(4 : R) : F RA; (0 : R) : F RA]) _ _ E).
Qed.
