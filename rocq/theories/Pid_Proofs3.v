(** What the setters of the PID controller store. *)
From Coq Require Import ZArith Reals Lra Lia List Bool.
From Verif Require Import Arith ArithLemmas Numa_Model Numa_Proofs Pid_Model Pid_Spec Pid_Proofs Pid_Proofs2.
Import ListNotations.
Open Scope R_scope.

Lemma setup_settings (kc ki kd dT : R) (p : pid RA) : 0 < p_dt p ->
  settings_of (snd (setup (A := RA) kc ki kd dT p)) = configure (CSetup (A := RA) kc ki kd dT) (settings_of p).
Proof.
  intros H. assert (Q : flt (a := RA) (lit 0 1) (p_dt p) = true). { cbn. apply Rltb_true. lra. }
  unfold setup. rewrite Q. cbv zeta. setters.
  assert (S1 : saturate (A := RA) (lit 1 1) (lit 0 1) (lit 1 1) = 1).
  { change (F RA) with R. rewrite saturate_clamp, lit1, lit0. apply clamp_id. lra. }
  assert (S0 : saturate (A := RA) (lit 0 1) (lit 0 1) (lit 1 1) = 0).
  { change (F RA) with R. rewrite saturate_clamp, lit1, lit0. apply clamp_id. lra. }
  rewrite S1, S0.
  repeat (rewrite guarded_go; [cbn [snd fst] | frames (@p_init RA); reflexivity | first [reflexivity | exact ok_filter | exact ok_100]]).
  unfold settings_of. cbn [p_gains gc_ gi_ gd_ p_dir p_b p_c p_smin p_smax p_eps p_kw p_kt p_beta p_dt p_minput p_mrac p_gamma p_alpha p_mode p_adapt c_adaptive c_tuning configure
    set_memory set_bc set_dir set_kwt set_minput set_mode set_sat set_gains set_eps set_beta set_dt_init].
  assert (E0 : lit (a := RA) 0 1 = (0 : R)) by exact lit0. assert (E1 : lit (a := RA) 1 1 = (1 : R)) by exact lit1.
  assert (E98 : lit (a := RA) 98 100 = (98 / 100 : R)) by reflexivity. assert (E100 : lit (a := RA) 100 1 = (100 : R)) by (change (@eq R (100 / 1) 100); field).
  rewrite E0, E1, E98, E100. reflexivity.
Qed.
Lemma unit_clamp_ok x : saturate (A := RA) x (lit 0 1) (lit 1 1) = unit_clamp x.
Proof. unfold unit_clamp. rewrite <- lit0, <- lit1. apply saturate_clamp. Qed.
Lemma settings_configured (c : pcall RA) (p p' : pid RA) : p_do c p = (RBool true, p') ->
  (c = CSeries -> gc_ (p_gains p) <> 0 /\ gi_ (p_gains p) <> 0 /\ gi_ (p_gains p) * gd_ (p_gains p) <> - (gc_ (p_gains p) * gc_ (p_gains p))) ->
  settings_of p' = configure c (settings_of p).
Proof.
  assert (G : forall ok f q, guarded ok f p = (true, q) -> q = f p). { intros ok f q. unfold guarded. destruct (p_init p && ok); intros E; [injection E as <-; auto|discriminate]. }
  assert (T : forall ok f q, with_tuner ok f p = (true, q) -> exists t, p_adapt p = Some t /\ q = set_adapt (Some (f t)) p).
  { intros ok f q. unfold with_tuner. destruct (p_adapt p) as [t|]; [|discriminate]. destruct ok; intros E; [injection E as <-; eauto|discriminate]. }
  assert (RB : forall (r : bool * pid RA) q, rb r = (RBool true, q) -> r = (true, q)). { intros [b r] q E. unfold rb in E. cbn [fst snd] in E. injection E as -> ->. reflexivity. }
  assert (E0 : lit (a := RA) 0 1 = (0 : R)) by exact lit0. assert (E1 : lit (a := RA) 1 1 = (1 : R)) by exact lit1.
  destruct c; unfold p_do; intros E HS; try apply RB in E.
  - assert (H : 0 < p_dt p). { pose proof (setup_fst kc ki kd dT p) as K. rewrite E in K. cbn [fst] in K. symmetry in K. rewrite E0 in K. apply Rltb_inv in K. exact K. }
    rewrite <- (setup_settings kc ki kd dT p H), E. reflexivity.
  - apply G in E. subst p'. reflexivity.
  - apply G in E. subst p'. reflexivity.
  - apply G in E. subst p'. reflexivity.
  - apply G in E. subst p'. reflexivity.
  - apply G in E. subst p'. reflexivity.
  - apply G in E. subst p'. destruct (HS eq_refl) as (H1 & H2 & H3). unfold settings_of, configure, set_gains.
    cbn [p_gains gc_ gi_ gd_ p_dir p_b p_c p_smin p_smax p_eps p_kw p_kt p_beta p_dt p_minput p_mrac p_gamma p_alpha p_mode p_adapt c_adaptive c_tuning c_gains fst snd c_dir c_weights c_limits c_eps c_extra c_beta c_dt c_manual c_mode].
    rewrite E1. generalize dependent (gc_ (p_gains p)). generalize dependent (gi_ (p_gains p)). generalize dependent (gd_ (p_gains p)). intros (* *) kd ki H kc H1 H2 H3. cbn [fadd fsub fmul fdiv RA].
    change (F RA) with R in *.
    assert (N : kc * kc + kd * ki <> 0). { intros N. apply H3. lra. }
    f_equal. f_equal; [f_equal|]; field; repeat split; auto; intros K; apply N; (rewrite <- K || idtac); lra.
  - apply G in E. subst p'. reflexivity.
  - apply G in E. subst p'. reflexivity.
  - apply G in E. subst p'. reflexivity.
  - apply G in E. subst p'. reflexivity.
  - apply G in E. subst p'. unfold settings_of, configure, set_bc. cbn [p_b p_c]. rewrite !unit_clamp_ok. reflexivity.
  - apply G in E. subst p'. reflexivity.
  - apply G in E. subst p'. reflexivity.
  - apply G in E. subst p'. reflexivity.
  - apply G in E. subst p'. reflexivity.
  - apply G in E. subst p'. reflexivity.
  - unfold unbindAutoTuning in E. apply (f_equal snd) in E. cbn [snd] in E. subst p'. reflexivity.
  - apply T in E. destruct E as (t & Et & ->). unfold settings_of, configure. cbn [p_adapt set_adapt c_tuning]. rewrite Et. reflexivity.
  - apply T in E. destruct E as (t & Et & ->). unfold settings_of, configure. cbn [p_adapt set_adapt c_tuning]. rewrite Et. reflexivity.
  - apply T in E. destruct E as (t & Et & ->). unfold settings_of, configure. cbn [p_adapt set_adapt c_tuning]. rewrite Et. reflexivity.
  - destruct (control w y yr p). discriminate.
  - discriminate.
Qed.
Lemma control_settings (p : pid RA) (w y yr : R) : p_adapt p = None -> settings_of (snd (control (A := RA) w y yr p)) = settings_of p.
Proof.
  intros H. unfold control. destruct (p_init p); [|reflexivity].
  cbv zeta. destruct (n_derive _ _ _ _) as [de n1]. destruct (n_integrate _ _ _ _) as [ie n2].
  match goal with |- context [if p_mrac p then ?a else ?b] => destruct (if p_mrac p then a else b) as [v ms] end.
  destruct (n_integrate _ _ _ (p_bstate p)) as [m bs]. cbn [snd]. unfold adaptGains, set_memory. cbn [p_adapt]. rewrite H. unfold settings_of. cbn. rewrite H. reflexivity.
Qed.
