From Coq Require Import ZArith Reals Lra Lia List Bool.
From Verif Require Import Arith ArithLemmas Numa_Model Numa_Proofs Pid_Model Pid_Spec.
Import ListNotations.

(** ** Shape of control() *)

Section Any.
Context {A : arith}.
Notation X := (F A).

Lemma integrate_methods (s dt : X) u n : nim (snd (n_integrate s dt u n)) = nim n /\ ndm (snd (n_integrate s dt u n)) = ndm n.
Proof. unfold n_integrate, n_update. destruct (nim n) eqn:E, u; cbn; auto. Qed.

Lemma adapt_shape (u y : X) p : exists g t, adaptGains u y p = set_gains g (set_adapt t p) /\
  (match t with Some _ => true | None => false end) = tuning p /\ (tuning p = false -> g = p_gains p /\ t = None).
Proof.
  unfold adaptGains, tuning. destruct (p_adapt p) as [t|] eqn:E.
  - destruct (t_step u y (p_dt p) t) as [[|] t']; [exists (getEstimates t') | exists (p_gains p)]; exists (Some t'); repeat split; auto; discriminate.
  - exists (p_gains p), None. repeat split; auto. destruct p; cbn in *; subst; reflexivity.
Qed.

Lemma control_shape (w y yr : X) p : p_init p = true -> exists sw n D u1 m ms bs,
  let u := saturate sw (p_smin p) (p_smax p) in
  control w y yr p = (u, adaptGains u y (set_memory n D u1 u m ms bs p)) /\
  nim n = nim (p_n p) /\ ndm n = ndm (p_n p) /\ nim ms = nim (p_mstate p) /\ ndm ms = ndm (p_mstate p) /\
  nim bs = nim (p_bstate p) /\ ndm bs = ndm (p_bstate p).
Proof.
  intros Hi. unfold control. rewrite Hi.
  destruct (n_derive _ (p_dt p) false (p_n p)) as [de n1] eqn:E1.
  assert (n1 = p_n p) by (unfold n_derive in E1; congruence). subst n1.
  destruct (n_integrate _ (p_dt p) true (p_n p)) as [ie n2] eqn:E2.
  match goal with |- context [if p_mrac p then ?a else ?b] => destruct (if p_mrac p then a else b) as [v ms] eqn:E3 end.
  destruct (n_integrate _ (p_dt p) true (p_bstate p)) as [m bs] eqn:E4.
  eexists _, n2, _, _, m, ms, bs. cbn zeta. split; [reflexivity|].
  split; [|split; [|split; [|split; [|split]]]].
  - pose proof (integrate_methods (error (p_eps p) w y (lit 1 1) + p_u1 p)%fl (p_dt p) true (p_n p)) as H. rewrite E2 in H. apply H.
  - pose proof (integrate_methods (error (p_eps p) w y (lit 1 1) + p_u1 p)%fl (p_dt p) true (p_n p)) as H. rewrite E2 in H. apply H.
  - destruct (p_mrac p); [destruct (fle (fabs (p_u1 p)) (p_eps p))|]; try (injection E3 as _ <-; reflexivity).
    destruct (n_integrate _ (p_dt p) true (p_mstate p)) as [th ms'] eqn:E5. injection E3 as _ <-.
    match type of E5 with n_integrate ?s ?d ?u ?n = _ => pose proof (integrate_methods s d u n) as H end. rewrite E5 in H. apply H.
  - destruct (p_mrac p); [destruct (fle (fabs (p_u1 p)) (p_eps p))|]; try (injection E3 as _ <-; reflexivity).
    destruct (n_integrate _ (p_dt p) true (p_mstate p)) as [th ms'] eqn:E5. injection E3 as _ <-.
    match type of E5 with n_integrate ?s ?d ?u ?n = _ => pose proof (integrate_methods s d u n) as H end. rewrite E5 in H. apply H.
  - match type of E4 with n_integrate ?s ?d ?u ?n = _ => pose proof (integrate_methods s d u n) as H end. rewrite E4 in H. apply H.
  - match type of E4 with n_integrate ?s ?d ?u ?n = _ => pose proof (integrate_methods s d u n) as H end. rewrite E4 in H. apply H.
Qed.

(** What control() never changes. *)
Lemma control_frame (w y yr : X) p : let q := snd (control w y yr p) in
  p_init q = p_init p /\ p_smin q = p_smin p /\ p_smax q = p_smax p /\ p_dt q = p_dt p /\ tuning q = tuning p /\
  nim (p_n q) = nim (p_n p) /\ ndm (p_n q) = ndm (p_n p) /\
  nim (p_mstate q) = nim (p_mstate p) /\ nim (p_bstate q) = nim (p_bstate p).
Proof.
  destruct (p_init p) eqn:Hi.
  - destruct (control_shape w y yr p Hi) as (sw & n & D & u1 & m & ms & bs & E & H1 & H2 & H3 & H4 & H5 & H6).
    cbn zeta in *. rewrite E. cbn [snd].
    destruct (adapt_shape (saturate sw (p_smin p) (p_smax p)) y (set_memory n D u1 (saturate sw (p_smin p) (p_smax p)) m ms bs p)) as (g & t & Q & T & _).
    rewrite Q. cbn. repeat split; auto.
  - unfold control. rewrite Hi. cbn. repeat split; auto.
Qed.

(** ** Setters *)

Lemma guarded_false (ok : bool) f (p : pid A) : fst (guarded ok f p) = false -> snd (guarded ok f p) = p.
Proof. unfold guarded. destruct (p_init p && ok); cbn; auto; discriminate. Qed.
Lemma with_tuner_false (ok : bool) f (p : pid A) : fst (with_tuner ok f p) = false -> snd (with_tuner ok f p) = p.
Proof. unfold with_tuner. destruct (p_adapt p), ok; cbn; auto; discriminate. Qed.

Lemma guarded_proj {T} (pr : pid A -> T) ok f p : (forall q, pr (f q) = pr q) -> pr (snd (guarded ok f p)) = pr p.
Proof. intros H. unfold guarded. destruct (p_init p && ok); cbn; auto. Qed.

Lemma guarded_go ok f (p : pid A) : p_init p = true -> ok = true -> guarded ok f p = (true, f p).
Proof. intros H ->. unfold guarded. rewrite H. reflexivity. Qed.

Ltac frames pr := repeat (rewrite (guarded_proj pr) by (intros; reflexivity)).
Ltac setters := unfold setDerivativeFilter, setEpsilon, setGains, setSaturation, setMode, setManualInput,
  setExtraGains, setDirection, setReferenceWeighting, reset.

Lemma setup_fst (kc ki kd dT : X) p : fst (setup kc ki kd dT p) = flt (lit 0 1) (p_dt p).
Proof.
  unfold setup. destruct (flt (lit 0 1) (p_dt p)); [|reflexivity].
  cbv zeta. setters. rewrite guarded_go; [reflexivity| |reflexivity]. frames (@p_init A). reflexivity.
Qed.

Lemma unbind_none (p : pid A) : p_adapt p = None -> set_adapt None p = p.
Proof. intros H. destruct p; cbn in *; subst; reflexivity. Qed.

Lemma refused_same c (p p' : pid A) : p_do c p = (RBool false, p') -> p' = p.
Proof.
  assert (G : forall r : bool * pid A, (fst r = false -> snd r = p) -> rb r = (RBool false, p') -> p' = p).
  { intros [b q] H E. cbn in *. injection E as -> ->. auto. }
  destruct c; unfold p_do; try (apply G; first [apply guarded_false | apply with_tuner_false]).
  - apply G. intros H. rewrite setup_fst in H. unfold setup. rewrite H. reflexivity.
  - apply G. unfold unbindAutoTuning. cbn. destruct (p_adapt p) eqn:E; try discriminate. intros _. apply unbind_none. auto.
  - destruct (control w y yr p). discriminate.
  - discriminate.
Qed.

Lemma accepts_spec c (p : pid A) : match accepts c (p_init p) (p_dt p) (tuning p) with
  | Some b => fst (p_do c p) = RBool b
  | None => forall b, fst (p_do c p) <> RBool b end.
Proof.
  assert (Gt : forall (ok : bool) f, fst (rb (guarded ok f p)) = RBool (p_init p && ok)).
  { intros. unfold guarded. destruct (p_init p && ok); reflexivity. }
  assert (G1 : forall f, fst (rb (guarded true f p)) = RBool (p_init p)).
  { intros. rewrite Gt, andb_true_r. reflexivity. }
  assert (Gw : forall (ok : bool) f, fst (rb (with_tuner ok f p)) = RBool (tuning p && ok)).
  { intros. unfold with_tuner, tuning. destruct (p_adapt p), ok; reflexivity. }
  assert (Gw1 : forall f, fst (rb (with_tuner true f p)) = RBool (tuning p)).
  { intros. rewrite Gw, andb_true_r. reflexivity. }
  destruct c; unfold p_do, accepts; try apply G1; try apply Gt; try apply Gw1; try apply Gw.
  - unfold rb. cbn [fst]. rewrite setup_fst. reflexivity.
  - unfold unbindAutoTuning, tuning. cbn. destruct (p_adapt p); reflexivity.
  - destruct (control w y yr p). discriminate.
  - discriminate.
Qed.

(** Effects of an arbitrary call on a few members. *)
Lemma do_frame c (p : pid A) : (forall kc ki kd dT, c <> CSetup kc ki kd dT) -> let q := snd (p_do c p) in
  p_init q = p_init p /\ p_dt q = p_dt p /\
  nim (p_mstate q) = nim (p_mstate p) /\ nim (p_bstate q) = nim (p_bstate p) /\
  (is_base c = false -> nim (p_n q) = nim (p_n p) /\ ndm (p_n q) = ndm (p_n p)) /\
  ((forall lo hi, c <> CSaturation lo hi) -> p_smin q = p_smin p /\ p_smax q = p_smax p).
Proof.
  intros Hc. assert (G : forall ok f (p : pid A), (forall p, let q := f p in p_init q = p_init p /\ p_dt q = p_dt p /\
     nim (p_mstate q) = nim (p_mstate p) /\ nim (p_bstate q) = nim (p_bstate p) /\ (nim (p_n q) = nim (p_n p) /\ ndm (p_n q) = ndm (p_n p)) /\
     ((forall lo hi, c <> CSaturation lo hi) -> p_smin q = p_smin p /\ p_smax q = p_smax p)) ->
     let q := snd (rb (guarded ok f p)) in p_init q = p_init p /\ p_dt q = p_dt p /\
     nim (p_mstate q) = nim (p_mstate p) /\ nim (p_bstate q) = nim (p_bstate p) /\
     (is_base c = false -> nim (p_n q) = nim (p_n p) /\ ndm (p_n q) = ndm (p_n p)) /\
     ((forall lo hi, c <> CSaturation lo hi) -> p_smin q = p_smin p /\ p_smax q = p_smax p)).
  { intros ok f p0 H. unfold guarded. destruct (p_init p0 && ok); cbn; [|repeat split; auto].
    destruct (H p0) as (? & ? & ? & ? & ? & ?). repeat split; try tauto; auto; intros; apply H5; auto. }
  assert (W : forall ok f, let q := snd (rb (with_tuner ok f p)) in p_init q = p_init p /\ p_dt q = p_dt p /\
     nim (p_mstate q) = nim (p_mstate p) /\ nim (p_bstate q) = nim (p_bstate p) /\
     (is_base c = false -> nim (p_n q) = nim (p_n p) /\ ndm (p_n q) = ndm (p_n p)) /\
     ((forall lo hi, c <> CSaturation lo hi) -> p_smin q = p_smin p /\ p_smax q = p_smax p)).
  { intros ok f. unfold with_tuner. destruct (p_adapt p), ok; cbn; repeat split; auto. }
  destruct c; unfold p_do; try (apply W);
    try (apply G; intros; cbn; repeat split; auto; intros; exfalso; eapply H; reflexivity).
  - exfalso. eapply Hc. reflexivity.
  - cbn. repeat split; auto.
  - pose proof (control_frame w y yr p) as H. destruct (control w y yr p) as [u q]. cbn in *.
    destruct H as (? & ? & ? & ? & ? & ? & ? & ? & ?). repeat split; auto.
  - cbn. repeat split; auto; discriminate.
Qed.

Lemma setup_true (kc ki kd dT : X) p : flt (lit 0 1) (p_dt p) = true ->
  let q := snd (setup kc ki kd dT p) in
  p_init q = true /\ p_dt q = dT /\
  nim (p_mstate q) = nim (p_mstate p) /\ nim (p_bstate q) = nim (p_bstate p) /\ nim (p_n q) = nim (p_n p) /\ ndm (p_n q) = ndm (p_n p) /\
  (flt (lit 0 1) (lit 100 1 : X) = true -> p_smin q = lit 0 1 /\ p_smax q = lit 100 1).
Proof.
  intros H. unfold setup. rewrite H. cbv zeta. setters.
  frames (@p_init A). frames (@p_dt A). frames (fun p : pid A => nim (p_mstate p)).
  frames (fun p : pid A => nim (p_bstate p)). frames (fun p : pid A => nim (p_n p)). frames (fun p : pid A => ndm (p_n p)).
  frames (@p_smin A). frames (@p_smax A). repeat split; auto.
  - rewrite (guarded_go (flt (lit 0 1) (lit 100 1))); auto. frames (@p_init A). reflexivity.
  - rewrite (guarded_go (flt (lit 0 1) (lit 100 1))); auto. frames (@p_init A). reflexivity.
Qed.

Lemma setup_dt (kc ki kd dT : X) p : flt (lit 0 1) (p_dt p) = true ->
  let q := snd (setup kc ki kd dT p) in p_init q = true /\ p_dt q = dT.
Proof. intros H. destruct (setup_true kc ki kd dT p H) as (? & ? & _). auto. Qed.

Lemma is_setup_dec (c : pcall A) : {x | let '(kc, ki, kd, dT) := x in c = CSetup kc ki kd dT} + {forall kc ki kd dT, c <> CSetup kc ki kd dT}.
Proof. destruct c; try (right; intros; discriminate). left. exists (kc, ki, kd, dT). reflexivity. Qed.

Lemma prun_cons c cs (p : pid A) : p_run (c :: cs) p = p_run cs (snd (p_do c p)).
Proof. reflexivity. Qed.

Lemma run_step (p : pid A) cs : forall last_d (Hd : p_dt p = last_d),
  p_dt (p_run cs p) = last_step cs p last_d /\ p_init (p_run cs p) = p_init p || was_setup cs p.
Proof.
  revert p. induction cs as [|c cs IH]; intros p d Hd.
  - cbn. rewrite orb_false_r. auto.
  - rewrite prun_cons. cbn [last_step was_setup].
    destruct (is_setup_dec c) as [[[[[kc ki] kd] dT] ->]|Hc].
    + cbn [p_do]. unfold rb. rewrite setup_fst.
      destruct (flt (lit 0 1) (p_dt p)) eqn:E.
      * destruct (setup_dt kc ki kd dT p E) as [H1 H2].
        destruct (IH (snd (setup kc ki kd dT p)) dT H2) as [I1 I2].
        cbn [snd]. rewrite I1, I2, H1, orb_true_r. auto.
      * unfold setup. rewrite E. cbn [snd]. apply IH; auto.
    + destruct (p_do c p) as [ret q] eqn:E.
      pose proof (do_frame c p Hc) as F. rewrite E in F. cbn in F. destruct F as (F1 & F2 & _).
      cbn [snd]. destruct (IH q d) as [I1 I2]; [congruence|].
      rewrite I1, I2, F1. destruct c; try (split; reflexivity). exfalso; eapply Hc; reflexivity.
Qed.

Lemma setup_returns (p : pid A) cs (kc ki kd dT : X) : fresh p ->
  fst (p_do (CSetup kc ki kd dT) (p_run cs p)) = RBool (flt (lit 0 1) (last_step cs p (lit 1 1))).
Proof.
  intros H. destruct (run_step p cs (lit 1 1)) as [E _]; [apply H|].
  cbn. rewrite setup_fst, E. reflexivity.
Qed.

Lemma init_iff (p : pid A) cs : fresh p -> p_init (p_run cs p) = was_setup cs p.
Proof.
  intros H. destruct (run_step p cs (lit 1 1)) as [_ E]; [apply H|]. rewrite E.
  destruct H as (_ & _ & _ & _ & _ & -> & _). reflexivity.
Qed.

Lemma uninitialised p cs (w y yr : X) : fresh p -> was_setup cs p = false -> control w y yr (p_run cs p) = (w, p_run cs p).
Proof. intros H E. rewrite <- init_iff in E by auto. unfold control. rewrite E. reflexivity. Qed.

(** ** Limits *)

Definition lim_inv (p : pid A) (l : option (X * X)) : Prop :=
  match l with
  | Some (lo, hi) => p_init p = true /\ p_smin p = lo /\ p_smax p = hi /\ flt lo hi = true
  | None => p_init p = false
  end.

Lemma limits_inv (H100 : flt (lit 0 1) (lit 100 1 : X) = true) cs : forall p l,
  lim_inv p l -> lim_inv (p_run cs p) (limits cs p l).
Proof.
  induction cs as [|c cs IH]; intros p l Hl; [exact Hl|].
  rewrite prun_cons. cbn [limits]. destruct (p_do c p) as [ret q] eqn:E.
  cbn [snd]. apply IH.
  destruct (is_setup_dec c) as [[[[[kc ki] kd] dT] ->]|Hc].
  - cbn [p_do] in E. unfold rb in E. injection E as <- <-. rewrite setup_fst.
    destruct (flt (lit 0 1) (p_dt p)) eqn:Q.
    + destruct (setup_true kc ki kd dT p Q) as (H1 & H2 & _ & _ & _ & _ & H3). destruct (H3 H100). cbn [lim_inv]. auto.
    + unfold setup. rewrite Q. exact Hl.
  - pose proof (do_frame c p Hc) as Fr. rewrite E in Fr. cbn in Fr. destruct Fr as (F1 & F2 & F3 & F4 & F5 & F6).
    assert (K : (forall lo hi, c <> CSaturation lo hi) -> lim_inv q l).
    { intros N. destruct (F6 N) as [S1 S2]. unfold lim_inv in *. destruct l as [[lo hi]|]; [|congruence].
      rewrite F1, S1, S2. auto. }
    destruct c; try (apply K; discriminate); try (exfalso; eapply Hc; reflexivity).
    cbn [p_do] in E. unfold rb, setSaturation, guarded in E. 
    destruct (p_init p && flt lo hi) eqn:G; cbn in E; injection E as <- <-; [|exact Hl].
    apply andb_prop in G. cbn. tauto.
Qed.

Lemma saturate_in (HO : ordered A) (HL : lt_numbers A) (x lo hi : X) : flt lo hi = true ->
  fisnan (saturate x lo hi) = true \/ (fle lo (saturate x lo hi) = true /\ fle (saturate x lo hi) hi = true).
Proof.
  intros H. destruct (HL _ _ H) as (N1 & N2 & L). unfold saturate.
  assert (R : forall z : X, fisnan z = false -> flt z z = false -> fle z z = true) by (intros; apply HO; auto).
  destruct (flt hi x) eqn:E1; [|destruct (flt x lo) eqn:E2].
  - right. split; auto. destruct (flt hi hi) eqn:S; [apply HL in S; tauto | apply R; auto].
  - right. split; auto. destruct (flt lo lo) eqn:S; [apply HL in S; tauto | apply R; auto].
  - destruct (fisnan x) eqn:E3; [left; reflexivity | right; split; apply HO; auto].
Qed.

Lemma in_limits (HO : ordered A) (HL : lt_numbers A) (H100 : flt (lit 0 1) (lit 100 1 : X) = true) p cs lo hi (w y yr : X) :
  fresh p -> limits cs p None = Some (lo, hi) ->
  let u := fst (control w y yr (p_run cs p)) in
  fisnan u = true \/ (fle lo u = true /\ fle u hi = true).
Proof.
  intros Hf E. assert (I : lim_inv (p_run cs p) (limits cs p None)).
  { apply limits_inv; auto. apply Hf. }
  rewrite E in I. destruct I as (Hi & S1 & S2 & L).
  destruct (control_shape w y yr _ Hi) as (sw & n & D & u1 & m & ms & bs & C & _). cbn zeta in *.
  rewrite C, S1, S2. cbn [fst]. apply saturate_in; auto.
Qed.

Lemma limits_some (H100 : flt (lit 0 1) (lit 100 1 : X) = true) (p : pid A) cs : fresh p ->
  (was_setup cs p = true <-> exists lo hi : X, limits cs p None = Some (lo, hi) /\ flt lo hi = true).
Proof.
  intros Hf. rewrite <- init_iff by auto.
  assert (I : lim_inv (p_run cs p) (limits cs p None)) by (apply limits_inv; auto; apply Hf).
  destruct (limits cs p None) as [[lo hi]|]; cbn in I; split.
  - intros _. exists lo, hi. tauto.
  - tauto.
  - congruence.
  - intros (? & ? & ? & _). discriminate.
Qed.

(** ** Auto-tuning *)

Lemma step_spec (u y dt : X) t : let '(ready, t') := t_step u y dt t in
  t_it t' = (if estimates_ok dt t' && (0 <? t_it t)%Z then t_it t - 1 else t_it t)%Z /\
  ready = estimates_ok dt t' && (t_it t =? 1)%Z /\ t_type t' = t_type t.
Proof.
  unfold t_step, estimates_ok, isValidValue, usable.
  match goal with |- context [if ?a && ?b && ?c then _ else _] => set (V1 := a); set (V2 := b) end.
  destruct (V1 && V2 && (0 <? t_it t)%Z) eqn:E; cbn [t_it t_type t_a1 t_b1]; fold V1 V2; clearbody V1 V2.
  - apply andb_prop in E as [E E3]. rewrite E, E3. cbn. repeat split; auto.
    apply Z.ltb_lt in E3. destruct (Z.eqb_spec (t_it t - 1) 0), (Z.eqb_spec (t_it t) 1); try lia; auto.
    rewrite e. reflexivity.
  - split; [|split]; auto.
    + rewrite E. reflexivity.
    + destruct (Z.eqb_spec (t_it t) 1); [|rewrite andb_false_r; auto].
      rewrite e in E. cbn in E. rewrite andb_true_r in E. rewrite E. reflexivity.
Qed.

Lemma control_tuner (w y yr : X) p t : p_init p = true -> p_adapt p = Some t ->
  let p' := snd (control w y yr p) in exists t', p_adapt p' = Some t' /\ p_dt p' = p_dt p /\ p_init p' = true /\
  t_it t' = (if estimates_ok (p_dt p) t' && (0 <? t_it t)%Z then t_it t - 1 else t_it t)%Z /\
  p_gains p' = (if estimates_ok (p_dt p) t' && (t_it t =? 1)%Z then getEstimates t' else p_gains p).
Proof.
  intros Hi Ht. destruct (control_shape w y yr p Hi) as (sw & n & D & u1 & m & ms & bs & C & _). cbn zeta in *.
  rewrite C. cbn [snd]. unfold adaptGains. cbn [p_adapt set_memory p_dt]. rewrite Ht.
  pose proof (step_spec (saturate sw (p_smin p) (p_smax p)) y (p_dt p) t) as S.
  destruct (t_step _ y (p_dt p) t) as [ready t']. destruct S as (S1 & S2 & _).
  exists t'. destruct ready; cbn; repeat split; auto; rewrite <- S2; reflexivity.
Qed.

Lemma controls_cons w y yr ins (p : pid A) : snd (p_controls ((w, y, yr) :: ins) p) = snd (p_controls ins (snd (control w y yr p))).
Proof. cbn. destruct (control w y yr p) as [u p1]. cbn. destruct (p_controls ins p1). reflexivity. Qed.

Lemma complete_it (p : pid A) t : p_adapt p = Some t -> isAutoTuningComplete p = (t_it t =? 0)%Z.
Proof.
  intros H. unfold isAutoTuningComplete, t_complete. rewrite H. destruct (Z.eqb_spec (t_it t) 0) as [->|]; reflexivity.
Qed.

Lemma gains_kept ins : forall (p : pid A) t, p_init p = true -> p_adapt p = Some t -> (0 <= t_it t)%Z ->
  isAutoTuningComplete p = true \/ isAutoTuningComplete (snd (p_controls ins p)) = false ->
  p_gains (snd (p_controls ins p)) = p_gains p /\ (isAutoTuningComplete p = true -> isAutoTuningComplete (snd (p_controls ins p)) = true).
Proof.
  induction ins as [|[[w y] yr] ins IH]; intros p t Hi Ht H0 H; [split; auto|].
  rewrite controls_cons in *.
  destruct (control_tuner w y yr p t Hi Ht) as (t' & A1 & A2 & A3 & A4 & A5).
  set (q := snd (control w y yr p)) in *.
  pose proof (complete_it p t Ht) as Cp. pose proof (complete_it q t' A1) as Cq.
  assert (B : (0 <= t_it t')%Z). { rewrite A4. destruct (estimates_ok _ _ && _) eqn:E; auto. apply andb_prop in E as [_ E]. apply Z.ltb_lt in E. lia. }
  destruct (Z.eqb_spec (t_it t) 0) as [Z0|NZ].
  - assert (t_it t' = 0)%Z. { rewrite A4, Z0. cbn. rewrite andb_false_r. auto. }
    rewrite H1 in Cq. cbn in Cq. destruct (IH q t' A3 A1 B) as [I1 I2]; [auto|].
    split; [|auto]. rewrite I1, A5, Z0. cbn. rewrite andb_false_r. reflexivity.
  - rewrite Cp in H. destruct H as [H|H]; [discriminate|].
    assert (NQ : isAutoTuningComplete q = false).
    { destruct (isAutoTuningComplete q) eqn:E; auto. destruct (IH q t' A3 A1 B) as [_ I2]; [auto|]. rewrite I2 in H; auto. }
    destruct (IH q t' A3 A1 B) as [I1 _]; [auto|]. split; [|rewrite Cp; discriminate].
    rewrite I1, A5. rewrite Cq in NQ.
    destruct (estimates_ok (p_dt p) t' && (t_it t =? 1)%Z) eqn:E; auto.
    apply andb_prop in E as [E1 E2]. apply Z.eqb_eq in E2. rewrite E1, E2 in A4. cbn in A4. rewrite A4 in NQ. discriminate.
Qed.

Lemma count_bound ins : forall p : pid A, (0 <= count_ok ins p <= Z.of_nat (length ins))%Z.
Proof.
  induction ins as [|[[w y] yr] ins IH]; intros; cbn [count_ok length]; [lia|].
  specialize (IH (snd (control w y yr p))). destruct (tuner_ok _); lia.
Qed.

Lemma counter ins : forall (p : pid A) t, p_init p = true -> p_adapt p = Some t -> (0 <= t_it t)%Z ->
  remaining (snd (p_controls ins p)) = Z.max 0 (t_it t - count_ok ins p).
Proof.
  induction ins as [|[[w y] yr] ins IH]; intros p t Hi Ht H0.
  - cbn. unfold remaining. rewrite Ht. lia.
  - rewrite controls_cons. cbn [count_ok].
    destruct (control_tuner w y yr p t Hi Ht) as (t' & A1 & A2 & A3 & A4 & A5).
    set (q := snd (control w y yr p)) in *.
    unfold tuner_ok at 1. rewrite A1, A2.
    destruct (estimates_ok (p_dt p) t') eqn:E; cbn in A4.
    + pose proof (count_bound ins q).
      destruct (Z.ltb_spec 0 (t_it t)).
      * rewrite (IH q t') by (auto; lia). lia.
      * rewrite (IH q t') by (auto; lia). lia.
    + rewrite (IH q t') by (auto; lia). lia.
Qed.

Lemma new_gains (w y yr : X) (p : pid A) t : p_init p = true -> p_adapt p = Some t -> t_it t = 1%Z ->
  tuner_ok (snd (control w y yr p)) = true ->
  isAutoTuningComplete (snd (control w y yr p)) = true /\
  exists t', p_adapt (snd (control w y yr p)) = Some t' /\ p_gains (snd (control w y yr p)) = getEstimates t'.
Proof.
  intros Hi Ht H1 Hok. destruct (control_tuner w y yr p t Hi Ht) as (t' & A1 & A2 & A3 & A4 & A5).
  unfold tuner_ok in Hok. rewrite A1, A2 in Hok. rewrite Hok, H1 in A4, A5. cbn in A4, A5.
  split; [|eauto]. rewrite (complete_it _ t' A1), A4. reflexivity.
Qed.

Lemma enable_zero (p : pid A) : enableAutoTuning 0 p = enableAutoTuning UNDEFINED p.
Proof. unfold enableAutoTuning, with_tuner. destruct (p_adapt p); reflexivity. Qed.

Lemma enable_remaining (p : pid A) n t : p_adapt p = Some t -> (0 < n < 2^32)%Z ->
  let '(r, p') := enableAutoTuning n p in r = true /\ remaining p' = n /\ p_init p' = p_init p.
Proof.
  intros H Hn. unfold enableAutoTuning, with_tuner. rewrite H. cbn. unfold remaining. cbn.
  destruct (Z.eqb_spec n 0); [lia|]. auto.
Qed.

End Any.

Lemma reset_forgets {A : arith} (p q : pid A) : same_config p q -> p_init p = true ->
  fst (reset p) = true /\ reset p = reset q.
Proof.
  intros H Hi. unfold same_config in H.
  decompose [and] H. clear H. unfold reset, guarded. 
  assert (Hq : p_init q = true) by congruence. rewrite Hi, Hq. cbn [andb fst]. split; auto. f_equal.
  unfold set_memory, n_init0, n_init.
  repeat match goal with H : ?a p = ?a q |- _ => rewrite H; clear H | H : ?a (?b p) = ?a (?b q) |- _ => rewrite H; clear H end.
  reflexivity.
Qed.

Lemma control_same_config {A : arith} (w y yr : F A) (p : pid A) : p_adapt p = None ->
  same_config (snd (control w y yr p)) p.
Proof.
  intros Ha. destruct (p_init p) eqn:Hi.
  - destruct (control_shape w y yr p Hi) as (sw & n & D & u1 & m & ms & bs & E & H1 & H2 & H3 & H4 & H5 & H6).
    cbv zeta in E. rewrite E. cbn [snd]. unfold adaptGains. cbn [p_adapt set_memory]. rewrite Ha.
    unfold same_config. cbn. repeat split; auto.
  - unfold control. rewrite Hi. unfold same_config. repeat split; auto.
Qed.
