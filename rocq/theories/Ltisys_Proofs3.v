(** Proofs about discrete systems after setup(), delays, limits, and about
    continuous systems. *)
From Coq Require Import ZArith Reals Lra Lia List Bool.
From Flocq Require Import IEEE754.Binary IEEE754.Bits.
From Verif Require Import Base BaseLemmas Arith ArithLemmas Numa_Model Tdl_Model Tdl_Spec Tdl_Proofs Algorithm_Proofs Ltisys_Model Ltisys_Spec Ltisys_Proofs Ltisys_Proofs2.
Import ListNotations.
Open Scope R_scope.

(** ** setup() of a discrete system *)
Section AnyArith.
Context {A : arith}.
Notation X := (F A).
Local Notation z := (lit 0 1 : X).

Definition zeroed (N : nat) (x : list X) : list X := gloop z N 0 (fun _ _ => z) x.

Lemma zeroed_nth N x i : (N <= length x)%nat -> (i < N)%nat -> nth i (zeroed N x) z = z.
Proof.
  intros L H. unfold zeroed. rewrite gloop_nth by lia. cbn [Nat.leb andb Nat.add].
  rewrite (proj2 (Nat.ltb_lt i N)) by lia. reflexivity.
Qed.

Lemma d_setup_ok (num den x : list X) N (d : dsys A) :
  (1 <= N)%nat -> (Z.of_nat N < 2 ^ 64)%Z -> length num = N -> length den = N -> (N <= length x)%nat ->
  let a0 := nth 0 den z in
  d_setup (Some num) (Some den) (Some x) (Z.of_nat N) (Z.of_nat N) d =
    Ok (true, mkD (map (fun v => fdiv v a0) num) (map (fun v => fdiv v a0) den) (Some (zeroed N x))
                  (Z.of_nat N) (Z.of_nat N - 1) (Z.of_nat N) (fdiv (nth 0 num z) a0) (d_base d)).
Proof.
  intros HN HB Ln Ld Lx a0. unfold d_setup.
  destruct (Z.gtb_spec (Z.of_nat N) 0); [|lia].
  rewrite normalizeTF_ok by lia. cbn [bind]. fold a0.
  replace (gloop z N 0 (fun _ v => fdiv v a0) num) with (map (fun v => fdiv v a0) num)
    by (rewrite <- Ln; symmetry; apply gloop_all).
  replace (gloop z N 0 (fun _ v => fdiv v a0) den) with (map (fun v => fdiv v a0) den)
    by (rewrite <- Ld; symmetry; apply gloop_all).
  rewrite size_dec_pos by lia.
  destruct (Z.gtb_spec (Z.of_nat N - 1) (Z.of_nat N)); [lia|].
  unfold d_setInitStates. cbn [d_x d_n]. rewrite Nat2Z.id. change 0%Z with (Z.of_nat 0).
  rewrite init_loop_ok by (cbn; auto; lia). cbn [bind snd d_num d_den d_n d_na d_nb d_b0 d_base]. reflexivity.
Qed.

(** Arrays of different lengths are overrun by the normalisation. *)
Lemma d_setup_mismatch (num den x : list X) (d : dsys A) :
  length num <> length den -> (1 <= length num)%nat ->
  d_setup (Some num) (Some den) (Some x) (zlen num) (zlen den) d = Ub.
Proof.
  intros H H1. unfold d_setup. destruct (Z.gtb_spec (zlen num) 0); [|unfold zlen in *; lia].
  unfold zlen at 1 2. rewrite normalizeTF_oob by lia. reflexivity.
Qed.

(** A state array that is too short is overrun. *)
Lemma d_setup_short (num den x : list X) N (d : dsys A) :
  (1 <= N)%nat -> (Z.of_nat N < 2 ^ 64)%Z -> length num = N -> length den = N -> (length x < N)%nat ->
  d_setup (Some num) (Some den) (Some x) (Z.of_nat N) (Z.of_nat N) d = Ub.
Proof.
  intros HN HB Ln Ld Lx. unfold d_setup.
  destruct (Z.gtb_spec (Z.of_nat N) 0); [|lia].
  rewrite normalizeTF_ok by lia. cbn [bind].
  rewrite size_dec_pos by lia.
  destruct (Z.gtb_spec (Z.of_nat N - 1) (Z.of_nat N)); [lia|].
  unfold d_setInitStates. cbn [d_x d_n]. rewrite Nat2Z.id. change 0%Z with (Z.of_nat 0).
  rewrite init_loop_oob by lia. reflexivity.
Qed.

(** ** Limits *)
Lemma saturate_bounds (O : ordered A) (b : lbase A) (y : X) :
  fisnan (l_min b) = false -> fisnan (l_max b) = false -> fle (l_min b) (l_max b) = true ->
  fle (l_min b) (l_min b) = true -> fle (l_max b) (l_max b) = true ->
  let s := saturate b y in
  fisnan s = false -> fle (l_min b) s = true /\ fle s (l_max b) = true.
Proof.
  intros N1 N2 H H1 H2 s. unfold s, saturate.
  destruct (flt y (l_min b)) eqn:E1; auto.
  destruct (flt (l_max b) y) eqn:E2; auto.
Qed.

Definition limits_ok (b : lbase A) : Prop := flt (l_min b) (l_max b) = true.

Lemma setSaturation_limits i lo hi (b : lbase A) : limits_ok b -> limits_ok (snd (setSaturation i lo hi b)).
Proof.
  unfold setSaturation, limits_ok. intros H. destruct i; cbn [andb snd]; auto.
  destruct (flt lo hi) eqn:E; cbn; auto.
Qed.
Lemma delay_input_limits u (b b' : lbase A) v : delay_input u b = Ok (v, b') -> l_min b' = l_min b /\ l_max b' = l_max b.
Proof.
  unfold delay_input. destruct (l_delay b) as [t|].
  - destruct (insertSample t u) as [t'|]; cbn [bind]; [|discriminate].
    destruct (getOldest t'); cbn [bind]; [|discriminate]. intros E. inversion E; subst. auto.
  - intros E. inversion E; subst. auto.
Qed.
Lemma setDelay_limits i w n v (b b' : lbase A) r : setDelay i w n v b = Ok (r, b') -> l_min b' = l_min b /\ l_max b' = l_max b.
Proof.
  unfold setDelay. destruct i; [destruct (setup w n v); cbn [bind]; [|discriminate]|]; intros E; inversion E; subst; auto.
Qed.

Ltac peel := repeat match goal with
  | H : (bind ?e _) = Ok _ |- _ => let E := fresh "E" in let p := fresh "p" in destruct e as [p|] eqn:E; cbn [bind] in H; [|discriminate H]
  | H : Ok _ = Ok _ |- _ => inversion H; subst; clear H
  end.

Lemma d_excite_base u (d d' : dsys A) y : d_excite u d = Ok (y, d') ->
  l_min (d_base d') = l_min (d_base d) /\ l_max (d_base d') = l_max (d_base d) /\
  (d_isInitialized d = false -> y = z) /\ (d_isInitialized d = true -> exists v, y = saturate (d_base d) v).
Proof.
  unfold d_excite, d_isInitialized. destruct (d_x d) as [x|].
  - intros H. peel. destruct p as [v b]. destruct p0 as [w y]. cbn [fst snd d_base] in *.
    destruct (delay_input_limits _ _ _ _ E) as [-> ->]. repeat split; auto; [discriminate|].
    intros _. exists y. unfold saturate. destruct (delay_input_limits _ _ _ _ E) as [-> ->]. reflexivity.
  - intros H. peel. repeat split; auto. discriminate.
Qed.

Lemma d_do_limits c (d d' : dsys A) o : d_do c d = Ok (o, d') -> limits_ok (d_base d) -> limits_ok (d_base d').
Proof.
  unfold limits_ok. destruct c; cbn [d_do]; intros H L; peel.
  - destruct p as [r d1]. cbn [snd]. unfold d_setup in E.
    destruct num as [nu|], den as [de|], x as [x|]; peel; auto.
    destruct (n_b >? 0)%Z; peel; auto. destruct p as [[nu' de'] b0]. peel.
    unfold d_setInitStates in E1. cbn in E1. peel. exact L.
  - destruct p as [r d1]. unfold d_setInitStates in E. destruct (d_x d); peel; exact L.
  - destruct p as [r d1]. unfold d_setDelay in E. peel. destruct p as [r1 b1]. cbn [snd d_with_base d_base].
    destruct (setDelay_limits _ _ _ _ _ _ _ E0) as [-> ->]. exact L.
  - apply setSaturation_limits. exact L.
  - destruct p as [y d1]. cbn [snd]. destruct (d_excite_base _ _ _ _ E) as (-> & -> & _). exact L.
Qed.

Lemma d_run_limits cs : forall (d d' : dsys A) o, d_run cs d = Ok (o, d') -> limits_ok (d_base d) -> limits_ok (d_base d').
Proof.
  induction cs as [|c cs IH]; intros d d' o H L; cbn [d_run] in H; peel; auto.
  destruct p as [o1 d1], p0 as [o2 d2]. cbn [fst snd] in *. eapply IH; [exact E0|]. eapply d_do_limits; eauto.
Qed.

Lemma limits_sat (O : ordered A) (L : lt_numbers A) (R : forall x : X, fisnan x = false -> fle x x = true) (b : lbase A) v :
  limits_ok b -> fisnan (saturate b v) = false ->
  fle (l_min b) (saturate b v) = true /\ fle (saturate b v) (l_max b) = true.
Proof.
  intros H N. destruct (L _ _ H) as (N1 & N2 & H1). apply saturate_bounds; auto.
Qed.

Lemma c_excite_base u (c c' : csys A) y : c_excite u c = Ok (y, c') ->
  l_min (c_base c') = l_min (c_base c) /\ l_max (c_base c') = l_max (c_base c) /\
  (c_isInitialized c = false -> y = z) /\ (c_isInitialized c = true -> exists v, y = saturate (c_base c) v).
Proof.
  unfold c_excite, c_isInitialized. destruct (c_x c) as [x|].
  - intros H. peel. destruct p as [v b]. destruct p0 as [w y]. cbn [fst snd c_base] in *.
    destruct (delay_input_limits _ _ _ _ E) as [-> ->]. repeat split; auto; [discriminate|].
    intros _. exists y. unfold saturate. destruct (delay_input_limits _ _ _ _ E) as [-> ->]. reflexivity.
  - intros H. peel. repeat split; auto. discriminate.
Qed.

Lemma c_do_limits k (c c' : csys A) o : c_do k c = Ok (o, c') -> limits_ok (c_base c) -> limits_ok (c_base c').
Proof.
  unfold limits_ok. destruct k; cbn [c_do]; intros H L; peel.
  - destruct p as [r c1]. cbn [snd]. unfold c_setup in E.
    destruct num as [nu|], den as [de|], x as [x|]; peel; auto.
    destruct (nD >=? 1)%Z; peel; auto. destruct p as [[nu' de'] b0]. peel.
    unfold c_setInitStates in E1. cbn [c_x] in E1. peel. exact L.
  - destruct p as [r c1]. unfold c_setInitStates in E. destruct (c_x c); peel; exact L.
  - destruct p as [r c1]. unfold c_setDelay in E. peel. destruct p as [r1 b1]. cbn [snd c_with_base c_base].
    destruct (setDelay_limits _ _ _ _ _ _ _ E0) as [-> ->]. exact L.
  - apply setSaturation_limits. exact L.
  - destruct p as [r c1]. unfold c_setIntegrationMethod in E. destruct (c_x c); [destruct m|]; peel; exact L.
  - destruct p as [y c1]. cbn [snd]. destruct (c_excite_base _ _ _ _ E) as (-> & -> & _). exact L.
Qed.

Lemma c_run_limits ks : forall (c c' : csys A) o, c_run ks c = Ok (o, c') -> limits_ok (c_base c) -> limits_ok (c_base c').
Proof.
  induction ks as [|k ks IH]; intros c c' o H L; cbn [c_run] in H; peel; auto.
  destruct p as [o1 d1], p0 as [o2 d2]. cbn [fst snd] in *. eapply IH; [exact E0|]. eapply c_do_limits; eauto.
Qed.

(** ** Delays *)
Definition undelayed (d : dsys A) : dsys A := d_with_base (mkL (l_min (d_base d)) (l_max (d_base d)) None) d.

Lemma stream_delay us : forall (d : dsys A) t us' ys e,
  l_delay (d_base d) = Some t -> d_isInitialized d = true -> delay_stream t us = Ok us' ->
  d_stream us' (undelayed d) = Ok (ys, e) -> exists e', d_stream us d = Ok (ys, e').
Proof.
  induction us as [|u us IH]; intros d t us' ys e Et Ei Es H.
  - cbn in Es. inversion Es; subst. cbn in H. inversion H; subst. exists d. reflexivity.
  - cbn [delay_stream] in Es. unfold transportDelay_call in Es.
    destruct (insertSample t u) as [t'|] eqn:I1; cbn [bind] in Es; [|discriminate].
    destruct (getOldest t') as [v|] eqn:I2; cbn [bind] in Es; [|discriminate]. cbn [fst snd] in Es.
    destruct (delay_stream t' us) as [vs|] eqn:I3; cbn [bind] in Es; [|discriminate].
    inversion Es; subst us'. clear Es.
    cbn [d_stream] in *. unfold d_excite in *. unfold d_isInitialized in Ei.
    destruct d as [num den x n na nb b0 [lo hi dl]]. cbn [d_x d_base l_delay undelayed d_with_base l_min l_max d_num d_den d_n d_na d_nb d_b0] in *. subst dl.
    destruct x as [x|]; [|discriminate].
    unfold delay_input in *. cbn [l_delay bind fst snd l_min l_max] in *. rewrite I1. cbn [bind]. rewrite I2. cbn [bind fst snd].
    change (d_update v (undelayed (mkD num den (Some x) n na nb b0 (mkL lo hi (Some t)))) x)
      with (d_update v (mkD num den (Some x) n na nb b0 (mkL lo hi (Some t))) x) in H.
    destruct (d_update v (mkD num den (Some x) n na nb b0 (mkL lo hi (Some t))) x) as [[x1 y]|] eqn:U; cbn [bind fst snd] in *; [|discriminate].
    match type of H with context [d_stream vs ?D] => destruct (d_stream vs D) as [[ys1 e1]|] eqn:S end; cbn [bind fst snd] in H; [|discriminate].
    inversion H; subst. clear H.
    destruct (IH (mkD num den (Some x1) n na nb b0 (mkL lo hi (Some t'))) t' vs ys1 e eq_refl eq_refl I3 S) as [e' R].
    rewrite R. cbn [bind fst snd]. exists e'. reflexivity.
Qed.

End AnyArith.

(** ** Discrete systems, exact arithmetic *)
Lemma response_scale num den us ys q : q <> 0 ->
  response (map (fun v => v / q) num) (map (fun v => v / q) den) us ys <-> response num den us ys.
Proof.
  intros Hq. unfold response.
  assert (E : forall c s k, filter (map (fun v => v / q) c) s k = / q * filter c s k).
  { intros. rewrite <- filter_scale. f_equal. apply map_ext. intros. unfold Rdiv. ring. }
  split; intros [L H]; split; auto; intros k Hk; specialize (H k Hk); rewrite !E in *.
  - apply Rmult_eq_reg_l with (/ q); auto. apply Rinv_neq_0_compat; auto.
  - rewrite H. reflexivity.
Qed.

Lemma discrete_response (num den x us : list R) (d : dsys RA) :
  let N := length num in
  (1 <= N)%nat -> (Z.of_nat N < 2 ^ 64)%Z -> length den = N -> (N <= length x)%nat -> nth 0 den 0 <> 0 ->
  l_delay (d_base d) = None ->
  exists d1 ys d2,
    d_setup (A := RA) (Some num) (Some den) (Some x) (zlen num) (zlen den) d = Ok (true, d1) /\
    d_stream (A := RA) us d1 = Ok (map (limit (l_min (d_base d)) (l_max (d_base d))) ys, d2) /\
    response num den us ys.
Proof.
  intros N HN HB Ld Lx Ha Hdl. unfold zlen. rewrite Ld. fold N.
  eexists. 
  pose proof (d_setup_ok (A := RA) num den x N d HN HB eq_refl Ld Lx) as E. cbv zeta in E.
  match type of E with _ = Ok (true, ?d1) => set (D := d1) in * end.
  destruct (stream_response (map (fun v => v / nth 0 den 0) num) (map (fun v => v / nth 0 den 0) den) N us (zeroed (A := RA) N x) D) as (ys & d2 & S & Rp); auto.
  - rewrite map_length. reflexivity.
  - rewrite map_length. exact Ld.
  - rewrite (nth_indep _ 0 (0 / nth 0 den 0)) by (rewrite map_length; lia).
    rewrite (map_nth (fun v => v / nth 0 den 0)). field. exact Ha.
  - apply holds0; [unfold zeroed; rewrite gloop_length; exact Lx|].
    intros i Hi. pose proof (zeroed_nth (A := RA) N x i Lx Hi) as Z0. 
    replace (lit (a := RA) 0 1) with 0 in Z0 by (cbn; lra). exact Z0.
  - unfold D. cbn [d_num]. apply map_ext. intros v. cbn. replace (0 / 1) with 0 by lra. reflexivity.
  - unfold D. cbn [d_den]. apply map_ext. intros v. cbn. replace (0 / 1) with 0 by lra. reflexivity.
  - exists ys, d2. split; [exact E|]. split; [exact S|]. apply response_scale in Rp; auto.
Qed.
