From Coq Require Import ZArith Reals Lra Lia List Bool.
From Verif Require Import Arith ArithLemmas Numa_Model Numa_Proofs Pid_Model Pid_Spec Pid_Proofs.
Import ListNotations.
Open Scope R_scope.

Lemma error_deadband (eps w y k : R) : error (A := RA) eps w y k = deadband eps (k * w - y).
Proof. unfold error, deadband. cbn. unfold Rleb. destruct (Rle_dec _ _); [field | reflexivity]. Qed.

Lemma saturate_clamp (x lo hi : R) : saturate (A := RA) x lo hi = clamp lo hi x.
Proof. unfold saturate, clamp. cbn. unfold Rltb. destruct (Rlt_dec hi x); auto. destruct (Rlt_dec x lo); auto. Qed.

Lemma reverse_directed (d : pdir) (k : R) : match d with Backward => reverse (A := RA) k | Forward => k end = directed d k.
Proof.
  destruct d; auto. unfold reverse, directed. cbn. unfold Rltb.
  destruct (Rlt_dec (0 / 1) k) as [H|H]; unfold Rdiv in *; rewrite Rmult_0_l in H; unfold Rabs; destruct (Rcase_abs k); lra.
Qed.

Definition rel (p0 : pid RA) (s : signals) (p : pid RA) : Prop := exists x2 y2 z2,
  p = set_memory (@mkN RA (s_i s) (s_j s) x2 ITrapezoidal D2Points) (s_d s) (s_c s) (s_u s) (s_m s)
       (@mkN RA (s_psi s) (s_delta s) y2 ITrapezoidal (ndm (p_mstate p0))) (@mkN RA (s_m s) (s_mt s) z2 ITrapezoidal (ndm (p_bstate p0))) p0.

Lemma lit1 : lit (a := RA) 1 1 = 1. Proof. cbn. field. Qed.
Lemma lit0 : lit (a := RA) 0 1 = 0. Proof. cbn. field. Qed.

Lemma trap (x0 x1 x2 s dt : R) dm : n_integrate (A := RA) s dt true (@mkN RA x0 x1 x2 ITrapezoidal dm) =
  (x0 + dt / 2 * (s + x1), @mkN RA (x0 + dt / 2 * (s + x1)) s x1 ITrapezoidal dm).
Proof. unfold n_integrate. cbn. replace (x0 + 1 / 2 * (s + x1) * dt) with (x0 + dt / 2 * (s + x1)) by field. reflexivity. Qed.

Lemma law_one p0 s p w y ym : p_init p0 = true -> p_adapt p0 = None -> rel p0 s p ->
  let s' := law_step (config_of p0) false s w y ym in
  fst (control (A := RA) w y ym p) = s_u s' /\ rel p0 s' (snd (control (A := RA) w y ym p)).
Proof.
  intros Hi Ha (x2 & y2 & z2 & ->). intros s'.
  unfold control. cbn [p_init set_memory]. rewrite Hi.
  unfold n_derive. cbn [p_n p_gains p_b p_c p_smin p_smax p_eps p_kw p_kt p_D p_u1 p_beta p_usat p_dt p_m p_minput p_mrac p_alpha p_gamma p_mstate p_bstate p_adapt p_mode p_dir ndm nx1 set_memory].
  rewrite !reverse_directed. change (F RA) with R. rewrite !error_deadband, lit1. rewrite !trap.
  unfold adaptGains. cbn [p_adapt set_memory]. rewrite Ha.
  assert (Ei : s_i s + p_dt p0 / 2 * (fadd (a := RA) (deadband (p_eps p0) (1 * w - y)) (s_c s) + s_j s) = s_i s') by reflexivity.
  assert (Ed : fadd (a := RA) (fdiv (a := RA) (fsub (a := RA) (deadband (p_eps p0) (p_c p0 * w - y)) (s_j s)) (p_dt p0)) (fmul (a := RA) (p_beta p0) (fsub (a := RA) (s_d s) (fdiv (a := RA) (fsub (a := RA) (deadband (p_eps p0) (p_c p0 * w - y)) (s_j s)) (p_dt p0)))) = s_d s') by reflexivity.
  rewrite Ei, Ed.
  match goal with |- context [if p_mrac p0 then ?a else ?b] => assert (E : (if p_mrac p0 then a else b) = (s_v s', @mkN RA (s_psi s') (s_delta s') (if p_mrac p0 then if Rle_dec (Rabs (s_c s)) (p_eps p0) then s_delta s else y2 else y2) ITrapezoidal (ndm (p_mstate p0)))) end.
  { cbn [F fle fabs RA]. unfold Rleb.
    unfold s', law_step. cbn [f_mrac config_of f_eps s_v s_psi s_delta s_i s_d f_kc f_ki f_kd f_b f_dt f_gamma f_alpha].
    destruct (p_mrac p0).
    - destruct (Rle_dec (Rabs (s_c s)) (p_eps p0)).
      + cbn [fadd fsub fmul fdiv fopp RA]. 
        assert (Q : - p_gamma p0 * (y - ym) * ym / (p_alpha p0 + ym * ym) = - p_gamma p0 * ((y - ym) * ym) / (p_alpha p0 + ym * ym))
          by (unfold Rdiv; ring).
        f_equal.
        * rewrite Q. ring.
        * f_equal; rewrite Q; ring.
      + cbn [fadd fsub fmul fdiv fopp RA lit]. f_equal; try reflexivity; unfold Rdiv; ring.
    - cbn [fadd fsub fmul fdiv fopp RA lit]. f_equal; try reflexivity; ring. }
  rewrite E. cbv iota beta.
  assert (Em : s_m s + p_dt p0 / 2 * (fadd (a := RA) (fmul (a := RA) (p_kt p0) (p_minput p0)) (fmul (a := RA) (p_kw p0) (fsub (a := RA) (s_u s) (s_m s))) + s_mt s) = s_m s') by reflexivity.
  rewrite Em. change (F RA) with R. rewrite saturate_clamp.
  assert (Eu : clamp (p_smin p0) (p_smax p0) (match p_mode p0 with Automatic => s_v s' | Manual => s_m s' end) = s_u s').
  { unfold s' at 3. unfold law_step. cbn [s_u config_of f_lo f_hi f_auto]. destruct (p_mode p0); reflexivity. }
  rewrite Eu. cbn [fst snd]. split; [reflexivity|].
  eexists _, _, _. unfold set_memory. cbn. reflexivity.
Qed.

Lemma controls_fst w y yr ins (p : pid RA) :
  fst (p_controls ((w, y, yr) :: ins) p) = fst (control w y yr p) :: fst (p_controls ins (snd (control w y yr p))).
Proof. cbn. destruct (control w y yr p) as [u p1]. cbn. destruct (p_controls ins p1). reflexivity. Qed.

Lemma law_from (p0 : pid RA) w y ym n : p_init p0 = true -> p_adapt p0 = None ->
  forall k p, rel p0 (law (config_of p0) false w y ym k) p ->
  fst (p_controls (A := RA) (map (fun k => (w k, y k, ym k)) (seq k n)) p) =
  map (fun k => s_u (law (config_of p0) false w y ym (S k))) (seq k n).
Proof.
  intros Hi Ha. induction n; intros k p H; [reflexivity|].
  cbn [seq map]. rewrite controls_fst.
  destruct (law_one p0 _ p (w k) (y k) (ym k) Hi Ha H) as [E1 E2].
  f_equal; [exact E1|]. apply IHn. exact E2.
Qed.

Lemma reset_rel (p : pid RA) : p_init p = true -> nim (p_n p) = ITrapezoidal -> ndm (p_n p) = D2Points ->
  nim (p_mstate p) = ITrapezoidal -> nim (p_bstate p) = ITrapezoidal ->
  rel p at_rest (snd (reset p)).
Proof.
  intros Hi H1 H2 H3 H4. unfold reset. rewrite guarded_go by auto. cbn [snd].
  exists 0, 0, 0. unfold n_init0, n_init. rewrite H1, H2, H3, H4.
  change (lit (a := RA) 0 1) with (0 / 1). replace (0 / 1) with 0 by field. reflexivity.
Qed.

Lemma default_methods (cs : list (pcall RA)) : forall p, existsb is_base cs = false ->
  nim (p_n p) = ITrapezoidal -> ndm (p_n p) = D2Points -> nim (p_mstate p) = ITrapezoidal -> nim (p_bstate p) = ITrapezoidal ->
  let q := p_run cs p in
  nim (p_n q) = ITrapezoidal /\ ndm (p_n q) = D2Points /\ nim (p_mstate q) = ITrapezoidal /\ nim (p_bstate q) = ITrapezoidal.
Proof.
  induction cs as [|c cs IH]; intros p Hb H1 H2 H3 H4; [cbn; auto|].
  rewrite prun_cons. cbn [existsb] in Hb. apply orb_false_elim in Hb as [Hc Hb].
  assert (Q : nim (p_n (snd (p_do c p))) = ITrapezoidal /\ ndm (p_n (snd (p_do c p))) = D2Points /\
    nim (p_mstate (snd (p_do c p))) = ITrapezoidal /\ nim (p_bstate (snd (p_do c p))) = ITrapezoidal).
  { destruct (is_setup_dec c) as [[[[[kc ki] kd] dT] ->]|Hs].
    - cbn [p_do]. unfold rb. cbn [snd].
      destruct (flt (lit 0 1) (p_dt p)) eqn:E.
      + destruct (setup_true kc ki kd dT p E) as (_ & _ & Q1 & Q2 & Q3 & Q4 & _). rewrite Q1, Q2, Q3, Q4. auto.
      + unfold setup. rewrite E. auto.
    - destruct (do_frame c p Hs) as (_ & _ & Q1 & Q2 & Q3 & _). destruct (Q3 Hc) as [Q4 Q5].
      rewrite Q1, Q2, Q4, Q5. auto. }
  destruct Q as (? & ? & ? & ?). apply IH; auto.
Qed.

Lemma control_law p cs w y ym n : fresh p -> existsb is_base cs = false -> was_setup (A := RA) cs p = true ->
  p_adapt (p_run cs p) = None ->
  let q := p_run cs p in
  fst (p_controls (A := RA) (inputs w y ym n) (snd (reset q))) = map (fun k => s_u (law (config_of q) false w y ym (S k))) (seq 0 n).
Proof.
  intros Hf Hb Hs Ha q. rewrite <- init_iff in Hs by auto. fold q in Hs, Ha.
  assert (D := default_methods cs p Hb).
  destruct Hf as (_ & _ & _ & _ & _ & _ & F1 & F2 & F3). rewrite F1, F2, F3 in D.
  destruct (D eq_refl eq_refl eq_refl eq_refl) as (D1 & D2 & D3 & D4). fold q in D1, D2, D3, D4.
  unfold inputs. apply law_from; auto. apply reset_rel; auto.
Qed.

Lemma law_documented f w y ym : 
  (f_kd f = 0 \/ (f_c f = 1 /\ forall k, s_c (law f true w y ym k) = 0)) ->
  forall n, s_u (law f false w y ym n) = s_u (law f true w y ym n).
Proof.
  intros H.
  assert (G : forall n, let a := law f false w y ym n in let b := law f true w y ym n in
    s_u a = s_u b /\ s_v a = s_v b /\ s_c a = s_c b /\ s_j a = s_j b /\ s_i a = s_i b /\ s_ec a = s_ec b /\
    s_delta a = s_delta b /\ s_psi a = s_psi b /\ s_mt a = s_mt b /\ s_m a = s_m b /\
    (f_kd f = 0 \/ (s_d a = s_d b /\ s_ec b = s_j b))).
  { induction n.
    - cbn. repeat split; auto.
    - cbn [law]. set (a := law f false w y ym n) in *. set (b := law f true w y ym n) in *.
      cbv zeta in *. destruct IHn as (E1 & E2 & E3 & E4 & E5 & E6 & E7 & E8 & E9 & E10 & E11).
      assert (Hv : s_v (law_step f false a (w n) (y n) (ym n)) = s_v (law_step f true b (w n) (y n) (ym n))).
      { unfold law_step. cbn [s_v]. rewrite E3, E4, E5, E7, E8.
        destruct E11 as [K|[K1 K2]]; [rewrite K; ring | rewrite K1, K2; reflexivity]. }
      assert (Hm : s_m (law_step f false a (w n) (y n) (ym n)) = s_m (law_step f true b (w n) (y n) (ym n))).
      { unfold law_step. cbn [s_m]. rewrite E1, E9, E10. reflexivity. }
      assert (Hu : s_u (law_step f false a (w n) (y n) (ym n)) = s_u (law_step f true b (w n) (y n) (ym n))).
      { change (clamp (f_lo f) (f_hi f) (if f_auto f then s_v (law_step f false a (w n) (y n) (ym n)) else s_m (law_step f false a (w n) (y n) (ym n))) =
                clamp (f_lo f) (f_hi f) (if f_auto f then s_v (law_step f true b (w n) (y n) (ym n)) else s_m (law_step f true b (w n) (y n) (ym n)))).
        rewrite Hv, Hm. reflexivity. }
      split; [exact Hu|]. split; [exact Hv|]. split.
      { change (f_kw f * (s_u (law_step f false a (w n) (y n) (ym n)) - s_v (law_step f false a (w n) (y n) (ym n))) =
                f_kw f * (s_u (law_step f true b (w n) (y n) (ym n)) - s_v (law_step f true b (w n) (y n) (ym n)))).
        rewrite Hu, Hv. reflexivity. }
      split. { unfold law_step. cbn [s_j]. rewrite E3. reflexivity. }
      split. { unfold law_step. cbn [s_i]. rewrite E3, E4, E5. reflexivity. }
      split. { reflexivity. }
      split. { unfold law_step. cbn [s_delta]. rewrite E3, E7. reflexivity. }
      split. { unfold law_step. cbn [s_psi]. rewrite E3, E7, E8. reflexivity. }
      split. { unfold law_step. cbn [s_mt]. rewrite E1, E10. reflexivity. }
      split. { exact Hm. }
      destruct H as [H|[Hc Hz]]; [left; auto|].
      destruct E11 as [K|[K1 K2]]; [left; auto|]. right. split.
      + unfold law_step. cbn [s_d]. rewrite E4, K1, K2. reflexivity.
      + unfold law_step. cbn [s_ec s_j]. rewrite Hc. unfold b. rewrite Hz. ring. }
  intros n. apply G.
Qed.

(** ** Dead band *)

Lemma deadband_zero eps e : Rabs e <= eps -> deadband eps e = 0.
Proof. intros H. unfold deadband. destruct (Rle_dec _ _); tauto. Qed.

Lemma deadband_outside eps e : eps < Rabs e -> deadband eps e = e.
Proof. intros H. unfold deadband. destruct (Rle_dec _ _); auto; lra. Qed.

Lemma inside_band (p : pid RA) (w y yr : R) : p_mrac p = false -> p_adapt p = None -> 0 <= p_eps p ->
  Rabs (w - y) <= p_eps p -> Rabs (p_b p * w - y) <= p_eps p -> Rabs (p_c p * w - y) <= p_eps p ->
  p_init p = true -> control (A := RA) w y yr p = control (A := RA) 0 0 yr p.
Proof.
  intros Hm Ha He H1 H2 H3 Hi. unfold control. rewrite Hi, Hm.
  unfold adaptGains. cbn [p_adapt set_memory]. rewrite Ha.
  assert (Z : forall k, error (A := RA) (p_eps p) 0 0 k = 0).
  { intros. rewrite error_deadband. apply deadband_zero. replace (k * 0 - 0) with 0 by ring. rewrite Rabs_R0. lra. }
  assert (N : forall k, Rabs (k * w - y) <= p_eps p -> error (A := RA) (p_eps p) w y k = 0).
  { intros. rewrite error_deadband. apply deadband_zero. auto. }
  rewrite !Z. rewrite (N (p_b p)), (N (p_c p)), (N (lit (a := RA) 1 1)); auto.
  rewrite lit1. rewrite Rmult_1_l. auto.
Qed.

(** ** Manual mode *)

Lemma clamp_id lo hi x : lo <= x <= hi -> clamp lo hi x = x.
Proof. unfold clamp. intros. destruct (Rlt_dec hi x); try lra. destruct (Rlt_dec x lo); lra. Qed.

Definition ramp (r : R) (k : nat) : R := match k with O => 0 | S _ => (INR k - 1 / 2) * r end.

Lemma manual_law f w y ym n : f_auto f = false ->
  (forall k, (1 <= k <= n)%nat -> f_lo f <= ramp (f_dt f * f_kt f * f_manual f) k <= f_hi f) ->
  let s := law f false w y ym n in
  s_m s = ramp (f_dt f * f_kt f * f_manual f) n /\ s_u s = s_m s /\ s_mt s = (if Nat.eqb n 0 then 0 else f_kt f * f_manual f).
Proof.
  intros Ha. induction n; intros Hr s.
  - unfold s. cbn. auto.
  - destruct IHn as (I1 & I2 & I3); [intros; apply Hr; lia|].
    assert (Em : s_m s = ramp (f_dt f * f_kt f * f_manual f) (S n)).
    { unfold s. cbn [law]. unfold law_step. cbn [s_m]. rewrite I2, I3, I1. 
      destruct n; cbn [Nat.eqb]; unfold ramp; rewrite !S_INR; cbn; field. }
    assert (Eu : s_u s = clamp (f_lo f) (f_hi f) (s_m s)).
    { unfold s at 1. cbn [law]. unfold law_step. cbn [s_u]. rewrite Ha. reflexivity. }
    split; [exact Em|]. split.
    + rewrite Eu, clamp_id; auto. rewrite Em. apply Hr. lia.
    + unfold s. cbn [law]. unfold law_step. cbn [s_mt Nat.eqb]. rewrite I2. ring.
Qed.

(** ** Recursive least squares *)

Lemma step_rls (u y dt : R) (t : tuner RA) : let t' := snd (t_step (A := RA) u y dt t) in
  (t_cov t', t_theta t') = rls (t_l t) (/ 10000000000) (t_phi t) y (t_cov t) (t_theta t) /\
  t_phi t' = mkV u (- y).
Proof.
  destruct t as [p00 p01 p10 p11 b1 a1 uk yk l k tao mu sp it ty]. cbn zeta.
  assert (G : forall t1 t2 c, let t' := snd (if (c : bool) then (t1 : bool * tuner RA) else t2) in
     t' = if c then snd t1 else snd t2) by (intros; destruct c; reflexivity).
  unfold t_step. match goal with |- context [if ?c then _ else _] => destruct c end.
  all: cbn; unfold t_cov, t_theta, t_phi, rls; cbn; split; [|reflexivity].
  all: change (F RA) with R in *; unfold mdiag, mscale, msub, mm, outer, vscale, mv, vadd, dot; cbn.
  all: f_equal; f_equal; unfold Rdiv; try (rewrite Rinv_1 || rewrite ?Rmult_1_l).
  all: set (q := / (l + (uk * (p00 * uk + p01 * - yk) + - yk * (p10 * uk + p11 * - yk)))).
  all: assert (Q : / (l + uk * (p00 * uk - p10 * yk) - yk * (p01 * uk - p11 * yk)) = q) by (unfold q; f_equal; ring).
  all: rewrite ?Q, ?Rinv_1; clearbody q; ring.
Qed.

Lemma rls_fixed (u y dt : R) (t : tuner RA) : y = t_b1 t * t_uk t - t_a1 t * t_yk t ->
  t_theta (snd (t_step (A := RA) u y dt t)) = t_theta t.
Proof.
  intros H. destruct (step_rls u y dt t) as [E _].
  assert (E2 : t_theta (snd (t_step (A := RA) u y dt t)) = snd (rls (t_l t) (/ 10000000000) (t_phi t) y (t_cov t) (t_theta t))) by (rewrite <- E; reflexivity).
  rewrite E2. unfold rls. cbn [snd]. unfold dot, t_phi, t_theta, vadd, vscale. cbn [v0 v1].
  rewrite H. f_equal; ring.
Qed.

(** ** Tuned gains *)

Lemma estimates_positive (t : tuner RA) : 0 < t_k t -> 0 < t_tao t -> 0 < t_speed t ->
  let g := getEstimates t in
  0 < gc_ g /\ (match t_type t with TypePI | TypePID => 0 < gi_ g | _ => gi_ g = 0 end) /\
  (match t_type t with TypePD | TypePID => 0 < gd_ g | _ => gd_ g = 0 end).
Proof.
  destruct t as [p00 p01 p10 p11 b1 a1 uk yk l k tao mu sp it ty]. cbn [t_k t_tao t_speed t_type].
  change (F RA) with R in *. intros H1 H2 H3.
  assert (T : tao / (tao * (1 / 10)) = 10) by (field; lra).
  assert (Kc : forall a b, 0 < a -> 0 < b -> 0 < sp * (a / k) * (tao / (tao * (1 / 10)) + b)).
  { intros. rewrite T. apply Rmult_lt_0_compat; [|lra]. apply Rmult_lt_0_compat; auto. apply Rdiv_lt_0_compat; auto. }
  assert (Pm : forall a b, 0 < a -> 0 < b -> 0 < a * b) by (intros; apply Rmult_lt_0_compat; auto).
  assert (Pd : forall a b, 0 < a -> 0 < b -> 0 < a / b) by (intros; apply Rdiv_lt_0_compat; auto).
  unfold getEstimates. destruct ty; cbn.
  - repeat split; try field. apply Kc; lra.
  - repeat split; try field; try (apply Kc; lra). apply Pd; [apply Pm; [apply Kc; lra | lra] | apply Pm; lra].
  - repeat split; try field; try (apply Kc; lra). apply Pd; [|lra]. apply Pm; [apply Pm; [apply Kc; lra | lra] | lra].
  - repeat split; try (apply Kc; lra).
    + apply Pd; [apply Pm; [apply Kc; lra | lra] | apply Pm; lra].
    + apply Pd; [|lra]. apply Pm; [apply Pm; [apply Pm; [lra | apply Kc; lra] | lra] | lra].
Qed.

(** ** Series form *)

Lemma series_gains (p : pid RA) : p_init p = true ->
  let g := p_gains p in gc_ g <> 0 -> gi_ g <> 0 -> gc_ g * gc_ g + gi_ g * gd_ g <> 0 ->
  p_gains (snd (setSeries p)) = @mkG RA (gc_ g + gi_ g * gd_ g / gc_ g) (gi_ g) (gd_ g).
Proof.
  intros Hi g H1 H2 H3. unfold setSeries. rewrite guarded_go by auto. cbn.
  fold g. destruct g as [kc ki kd]. cbn in *. change (F RA) with R in *.
  f_equal; field; repeat split; auto.
  all: intro; apply H3; lra.
Qed.

(** ** The configuration after setup() *)

Ltac frames pr := repeat (rewrite (guarded_proj pr) by (intros; reflexivity)).
Ltac setters := unfold setDerivativeFilter, setEpsilon, setGains, setSaturation, setMode, setManualInput,
  setExtraGains, setDirection, setReferenceWeighting, reset.

Lemma ok_filter : (fle (a := RA) (lit 0 1) (lit 98 100) && flt (a := RA) (lit 98 100) (lit 1 1))%bool = true.
Proof. cbn. rewrite Rleb_true, Rltb_true by lra. reflexivity. Qed.
Lemma ok_100 : flt (a := RA) (lit 0 1) (lit 100 1) = true.
Proof. cbn. apply Rltb_true. lra. Qed.

Lemma setup_config (kc ki kd dT : R) (p : pid RA) : 0 < p_dt p ->
  let q := snd (setup (A := RA) kc ki kd dT p) in
  fst (setup (A := RA) kc ki kd dT p) = true /\ p_init q = true /\ p_adapt q = p_adapt p /\
  config_of q = mkConfig kc ki kd 1 0 0 100 (/ 2 ^ 126) 1 1 (98 / 100) dT 0 (p_mrac p) (p_alpha p) (p_gamma p) true /\
  reset q = (true, q).
Proof.
  intros H. assert (Q : flt (a := RA) (lit 0 1) (p_dt p) = true).
  { cbn. apply Rltb_true. lra. }
  unfold setup. rewrite Q. cbv zeta. setters.
  assert (S1 : saturate (A := RA) (lit 1 1) (lit 0 1) (lit 1 1) = 1).
  { change (F RA) with R. rewrite saturate_clamp, lit1, lit0. apply clamp_id. lra. }
  assert (S0 : saturate (A := RA) (lit 0 1) (lit 0 1) (lit 1 1) = 0).
  { change (F RA) with R. rewrite saturate_clamp, lit1, lit0. apply clamp_id. lra. }
  rewrite S1, S0.
  repeat (rewrite guarded_go; [cbn [snd fst] | frames (@p_init RA); reflexivity | first [reflexivity | exact ok_filter | exact ok_100]]).
  split; [reflexivity|]. split; [reflexivity|]. split; [reflexivity|]. split.
  - unfold config_of. cbn. f_equal; field.
  - reflexivity.
Qed.

(** An object as the constructor may leave it. *)
Definition blank (A : arith) : pid A :=
  let z := lit 0 1 in let n := n_make z z z in
  mkP (mkG z z z) n z z z z z z z z z z z (lit 1 1) z z false z z n n None Automatic Forward false.

Lemma blank_fresh A : fresh (blank A).
Proof. repeat split. Qed.

Lemma blank_setup (kc ki kd dT : R) : let q := p_run [CSetup (A := RA) kc ki kd dT] (blank RA) in
  config_of q = mkConfig kc ki kd 1 0 0 100 (/ 2 ^ 126) 1 1 (98 / 100) dT 0 false 0 0 true /\
  p_init q = true /\ p_adapt q = None /\ snd (reset q) = q /\ was_setup [CSetup (A := RA) kc ki kd dT] (blank RA) = true.
Proof.
  assert (H : 0 < p_dt (blank RA)) by (cbn; lra).
  destruct (setup_config kc ki kd dT (blank RA) H) as (E1 & E2 & E3 & E4 & E5).
  cbv zeta. change (p_run [CSetup (A := RA) kc ki kd dT] (blank RA)) with (snd (setup (A := RA) kc ki kd dT (blank RA))).
  repeat split; auto.
  - rewrite E4. cbn. f_equal; field.
  - rewrite E5. reflexivity.
  - cbn [was_setup p_do]. unfold rb. rewrite E1. reflexivity.
Qed.

Lemma eps_pos : 0 < / 2 ^ 126 < 1 / 100.
Proof.
  assert (100 < 2 ^ 126). { apply Rlt_le_trans with (2 ^ 7). lra. apply Rle_pow; [lra | lia]. }
  split; [apply Rinv_0_lt_compat; lra|]. unfold Rdiv. rewrite Rmult_1_l. apply Rinv_lt_contravar; lra.
Qed.

Ltac dbz := apply deadband_zero; match goal with |- Rabs ?x <= _ => replace x with 0 by ring end; rewrite Rabs_R0; pose proof eps_pos; lra.

(** A derivative term that stays on although nothing moves. *)
Lemma derivative_kick : let q := p_run [CSetup (A := RA) 0 0 1 1] (blank RA) in
  let w := fun _ : nat => -1 in
  map (fun k => s_u (law (config_of q) true w w w (S k))) (seq 0 2) = [2/100; 196/10000] /\
  fst (p_controls (A := RA) (inputs w w w 2) q) = [2/100; 396/10000].
Proof.
  destruct (blank_setup 0 0 1 1) as (E1 & E2 & E3 & E4 & E5). intros q w.
  assert (D0 : deadband (/ 2 ^ 126) (1 * -1 - -1) = 0) by dbz.
  assert (D1 : deadband (/ 2 ^ 126) (0 * -1 - -1) = 1).
  { replace (0 * -1 - -1) with 1 by ring. apply deadband_outside. rewrite Rabs_R1. pose proof eps_pos. lra. }
  assert (L1 : forall doc, law (config_of q) doc w w w 1 =
     mkSig (2/100) (2/100) 0 0 0 1 (2/100) 0 0 0 0).
  { intros. cbn [law]. unfold law_step, w. fold q in E1. rewrite E1.
    cbn [f_kc f_ki f_kd f_b f_c f_lo f_hi f_eps f_kw f_kt f_beta f_dt f_manual f_mrac f_alpha f_gamma f_auto at_rest s_u s_v s_c s_j s_i s_ec s_d s_delta s_psi s_mt s_m].
    rewrite D0, D1. destruct doc.
    all: replace (0 + (0 * 0 + 0 * (0 + 1 / 2 * (0 + 0 + 0)) + 1 * ((1 - 0) / 1 + 98 / 100 * (0 - (1 - 0) / 1)))) with (2/100) by field.
    all: rewrite !(clamp_id 0 100 (2/100)) by lra; f_equal; field. }
  split.
  - cbn [map seq]. rewrite L1. apply f_equal2; [reflexivity|]. apply f_equal2; [|reflexivity].
    cbn [law]. change (law_step (config_of q) true at_rest (w O) (w O) (w O)) with (law (config_of q) true w w w 1). rewrite L1.
    unfold law_step, w. fold q in E1. rewrite E1. 
    cbn [f_kc f_ki f_kd f_b f_c f_lo f_hi f_eps f_kw f_kt f_beta f_dt f_manual f_mrac f_alpha f_gamma f_auto at_rest s_u s_v s_c s_j s_i s_ec s_d s_delta s_psi s_mt s_m].
    rewrite D0, D1. rewrite clamp_id; [field | split; lra].
  - fold q in E1, E2, E3, E5, E4.
    replace (p_controls (A := RA) (inputs w w w 2) q) with (p_controls (A := RA) (inputs w w w 2) (snd (reset q))) by (rewrite E4; reflexivity).
    unfold q. rewrite (control_law (blank RA) [CSetup (A := RA) 0 0 1 1] w w w 2 (blank_fresh RA)); auto. fold q.
    cbn [map seq]. rewrite L1. apply f_equal2; [reflexivity|]. apply f_equal2; [|reflexivity].
    cbn [law]. change (law_step (config_of q) false at_rest (w O) (w O) (w O)) with (law (config_of q) false w w w 1). rewrite L1.
    unfold law_step, w. rewrite E1. 
    cbn [f_kc f_ki f_kd f_b f_c f_lo f_hi f_eps f_kw f_kt f_beta f_dt f_manual f_mrac f_alpha f_gamma f_auto at_rest s_u s_v s_c s_j s_i s_ec s_d s_delta s_psi s_mt s_m].
    rewrite D0, D1. rewrite clamp_id; [field | split; lra].
Qed.

Lemma controls_snd (w y yr : R) (ins : list (R * R * R)) (p : pid RA) :
  snd (p_controls (A := RA) ((w, y, yr) :: ins) p) = snd (p_controls (A := RA) ins (snd (control (A := RA) w y yr p))).
Proof. apply (controls_cons (A := RA)). Qed.

Lemma law_from_rel (p0 : pid RA) w y ym n : p_init p0 = true -> p_adapt p0 = None ->
  forall k p, rel p0 (law (config_of p0) false w y ym k) p ->
  rel p0 (law (config_of p0) false w y ym (k + n)) (snd (p_controls (A := RA) (map (fun k => (w k, y k, ym k)) (seq k n)) p)).
Proof.
  intros Hi Ha. induction n; intros k p H; [rewrite Nat.add_0_r; exact H|].
  cbn [seq map]. rewrite controls_snd.
  destruct (law_one p0 _ p (w k) (y k) (ym k) Hi Ha H) as [E1 E2].
  replace (k + S n)%nat with (S k + n)%nat by lia. apply IHn. exact E2.
Qed.

(** The switch from manual to automatic is a jump. *)
Lemma not_bumpless n : let q := p_run [CSetup (A := RA) 1 0 0 1; CMode Manual] (blank RA) in
  let w := fun _ : nat => 10 in let z := fun _ : nat => 0 in
  let '(us, q') := p_controls (A := RA) (inputs w z z n) q in
  us = repeat 0 n /\ fst (control (A := RA) 10 0 0 (snd (setMode Automatic q'))) = 10.
Proof.
  intros q w z. destruct (blank_setup 1 0 0 1) as (E1 & E2 & E3 & E4 & E5).
  set (p := p_run [CSetup (A := RA) 1 0 0 1] (blank RA)) in *.
  assert (Q : q = set_mode Manual p).
  { change (snd (setMode Manual p) = set_mode Manual p). unfold setMode. rewrite guarded_go by auto. reflexivity. }
  assert (R0 : rel q at_rest q).
  { assert (S : snd (reset q) = q).
    { rewrite Q. transitivity (set_mode Manual (snd (reset p))); [|rewrite E4; reflexivity].
      unfold reset. rewrite !guarded_go by auto. reflexivity. }
    rewrite <- S at 2.
    assert (D := default_methods [CSetup (A := RA) 1 0 0 1; CMode Manual] (blank RA) eq_refl eq_refl eq_refl eq_refl eq_refl).
    cbv zeta in D. fold q in D. destruct D as (D1 & D2 & D3 & D4).
    apply reset_rel; auto. rewrite Q. exact E2. }
  assert (Iq : p_init q = true) by (rewrite Q; exact E2).
  assert (Aq : p_adapt q = None) by (rewrite Q; exact E3).
  assert (Cq : config_of q = mkConfig 1 0 0 1 0 0 100 (/ 2 ^ 126) 1 1 (98 / 100) 1 0 false 0 0 false).
  { rewrite Q. change (config_of (set_mode Manual p)) with
      (let c := config_of p in mkConfig (f_kc c) (f_ki c) (f_kd c) (f_b c) (f_c c) (f_lo c) (f_hi c) (f_eps c) (f_kw c) (f_kt c) (f_beta c) (f_dt c) (f_manual c) (f_mrac c) (f_alpha c) (f_gamma c) false).
    rewrite E1. reflexivity. }
  pose proof (law_from q w z z n Iq Aq 0 q R0) as U. pose proof (law_from_rel q w z z n Iq Aq 0 q R0) as V.
  unfold inputs. destruct (p_controls (A := RA) (map (fun k => (w k, z k, z k)) (seq 0 n)) q) as [us q'] eqn:C.
  cbn [fst snd] in U, V. split.
  - change (F RA) with R. etransitivity; [exact U|]. clear - Cq.
    assert (M : forall k, s_u (law (config_of q) false w z z (S k)) = 0).
    { intros k. destruct (manual_law (config_of q) w z z (S k)) as (M1 & M2 & _).
      - rewrite Cq. reflexivity.
      - rewrite Cq. cbn [f_lo f_hi f_dt f_kt f_manual]. intros j Hj. unfold ramp. destruct j; [lra|]. replace ((INR (S j) - 1 / 2) * (1 * 1 * 0)) with 0 by ring. lra.
      - rewrite M2, M1, Cq. cbn [f_lo f_hi f_dt f_kt f_manual]. unfold ramp. ring. }
    rewrite (map_ext _ _ M). rewrite <- (seq_length n 0) at 2. generalize (seq 0 n). induction l; cbn; congruence.
  - cbn [Nat.add] in V. set (s := law (config_of q) false w z z n) in *.
    assert (V' : rel (set_mode Automatic q) s (snd (setMode Automatic q'))).
    { destruct V as (a & b & c & ->). exists a, b, c. unfold setMode. rewrite guarded_go; auto. }
    destruct (law_one (set_mode Automatic q) s _ 10 0 0 Iq Aq V') as [L _].
    etransitivity; [exact L|]. clear - Cq.
    change (config_of (set_mode Automatic q)) with
      (let c := config_of q in mkConfig (f_kc c) (f_ki c) (f_kd c) (f_b c) (f_c c) (f_lo c) (f_hi c) (f_eps c) (f_kw c) (f_kt c) (f_beta c) (f_dt c) (f_manual c) (f_mrac c) (f_alpha c) (f_gamma c) true).
    rewrite Cq. unfold law_step.
    cbn [f_kc f_ki f_kd f_b f_c f_lo f_hi f_eps f_kw f_kt f_beta f_dt f_manual f_mrac f_alpha f_gamma f_auto s_u].
    rewrite (deadband_outside _ (1 * 10 - 0)).
    + match goal with |- clamp _ _ ?x = _ => replace x with 10 by ring end; apply clamp_id; lra.
    + rewrite Rabs_right by lra. pose proof eps_pos. lra.
Qed.

Lemma run_control {A : arith} c (w y yr : F A) (p : pid A) : p_run [c; CControl w y yr] p = snd (control w y yr (p_run [c] p)).
Proof. cbn. destruct (control w y yr (snd (p_do c p))). reflexivity. Qed.

Lemma setup_adapt {A : arith} (kc ki kd dT : F A) (p : pid A) : p_adapt (p_run [CSetup kc ki kd dT] p) = p_adapt p.
Proof.
  cbn [p_run fold_left p_do]. unfold rb. cbn [snd]. unfold setup. destruct (flt (lit 0 1) (p_dt p)); [|reflexivity].
  cbv zeta. setters. frames (@p_adapt A). reflexivity.
Qed.
