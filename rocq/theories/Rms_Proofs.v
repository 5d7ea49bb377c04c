From Coq Require Import ZArith List Bool Lia Reals Lra.
From Flocq Require Import Core IEEE754.BinarySingleNaN IEEE754.Binary IEEE754.Bits.
From Verif Require Import Base BaseLemmas Arith ArithLemmas Tdl_Model Tdl_Proofs Ltisys_Model Ltisys_Spec Ltisys_Proofs Ltisys_Proofs2
  Smoother_Model Smoother_Spec Smoother_Proofs Smoother_Proofs2 Smoother_Proofs3 Smoother_Proofs4 Smoother_Proofs5 Rms_Model.
Import ListNotations.
Open Scope R_scope.

Lemma b32_le_R x y : is_finite 24 128 x = true -> is_finite 24 128 y = true ->
  b32_le x y = true <-> B2R 24 128 x <= B2R 24 128 y.
Proof.
  intros Hx Hy. unfold b32_le, b32_compare. rewrite Bcompare_correct by auto.
  destruct (Rcompare_spec (B2R 24 128 x) (B2R 24 128 y)); split; intros; try discriminate; try lra; auto.
Qed.

Lemma unit_closed_b32 o (x : binary32) : flt (a := B32 o) (lit 0 1) x && fle (a := B32 o) x (lit 1 1) = true <->
  is_finite 24 128 x = true /\ 0 < B2R 24 128 x <= 1.
Proof.
  change (flt (a := B32 o)) with b32_lt. change (fle (a := B32 o)) with b32_le. rewrite andb_true_iff.
  destruct (is_finite 24 128 x) eqn:Fx.
  - rewrite b32_lt_R, b32_le_R; auto.
    rewrite b32_one_R, b32_zero. cbn [B2R]. tauto.
  - split; [|intros [H _]; discriminate]. intros [H1 H2]. exfalso.
    rewrite b32_one in H2. rewrite b32_zero in H1. destruct x as [s|s|s p H|s m e H]; try discriminate Fx; destruct s; cbn in H1, H2; discriminate.
Qed.

Lemma unit_closed_R (x : R) : flt (a := RA) (lit 0 1) x && fle (a := RA) x (lit 1 1) = true <-> 0 < x <= 1.
Proof.
  change (flt (a := RA)) with Rltb. change (fle (a := RA)) with Rleb.
  change (lit (a := RA) 0 1) with (0 / 1). change (lit (a := RA) 1 1) with (1 / 1).
  rewrite andb_true_iff. Rcases; intuition (try discriminate; try lra).
Qed.

(** ** The pipeline: the three stages run one after the other *)
Lemma rms_pipeline {A : arith} (xs : list (F A)) : forall (e : expw A) m l ys m',
  feed_res mwm2_smooth (map (o_sqrt lib) (fst (feed expw_smooth (map (fun x => (x * x)%fl) xs) e))) m = Ok (ys, m') ->
  feed_res rms_update xs (mkRMS e m l) =
    Ok (fst (feed lpf1_smooth ys l), mkRMS (snd (feed expw_smooth (map (fun x => (x * x)%fl) xs) e)) m' (snd (feed lpf1_smooth ys l))).
Proof.
  induction xs as [|x xs IH]; intros e m l ys m' H.
  - cbn in H. injection H as <- <-. reflexivity.
  - cbn [map feed] in H. destruct (expw_smooth (x * x)%fl e) as [q e1] eqn:E1. cbn [feed map]. rewrite E1.
    destruct (feed expw_smooth (map (fun x => (x * x)%fl) xs) e1) as [qs e2] eqn:E2. cbn [fst snd map feed_res] in *.
    destruct (mwm2_smooth (o_sqrt lib q) m) as [[v m1]|] eqn:E3; cbn [bind fst snd] in H; [|discriminate].
    destruct (feed_res mwm2_smooth (map (o_sqrt lib) qs) m1) as [[vs m2]|] eqn:E4; cbn [bind fst snd] in H; [|discriminate].
    injection H as <- <-. unfold rms_update at 1. cbn [r_expw r_mwm2 r_lpf1]. rewrite E1. cbn [bind]. rewrite E3. cbn [bind fst snd feed].
    destruct (lpf1_smooth v l) as [y l1] eqn:E5. cbn [bind fst snd].
    rewrite (IH e1 m1 l1 vs m2) by (rewrite E2; exact E4). rewrite E2.
    destruct (feed lpf1_smooth vs l1) as [zs l2] eqn:E6. reflexivity.
Qed.

(** ** The invariant: every stage holds values of the range *)
Definition mwm2_in (m : list R) (n : nat) (lo hi : R) (f : mwm2 RA) : Prop :=
  exists t h, m2_line f = Some t /\ tinv (A := R) m (Z.of_nat n) h t /\
    (m2_init f = true \/ (m2_sum f = total h /\ Forall (fun x => lo <= x <= hi) h)).

Definition rms_in (m : list R) (n : nat) (lo hi : R) (s : rms RA) : Prop :=
  (0 < e_lambda (r_expw s) <= 1 /\ (e_init (r_expw s) = true \/ (0 < e_w (r_expw s) /\ lo ^ 2 <= e_m (r_expw s) <= hi ^ 2))) /\
  mwm2_in m n lo hi (r_mwm2 s) /\
  (0 <= f1_alpha (r_lpf1 s) <= 1 /\ (f1_init (r_lpf1 s) = true \/ lo <= f1_y1 (r_lpf1 s) <= hi)).

Lemma Forall_removelast {B} (P : B -> Prop) l : Forall P l -> Forall P (removelast l).
Proof.
  intros H. rewrite removelast_firstn_len. rewrite <- (firstn_skipn (Init.Nat.pred (length l)) l) in H. apply Forall_app in H. tauto.
Qed.

Lemma mwm2_in_step m n lo hi x f : (1 <= n)%nat -> mwm2_in m n lo hi f -> lo <= x <= hi ->
  exists y f', mwm2_smooth (A := RA) x f = Ok (y, f') /\ lo <= y <= hi /\ mwm2_in m n lo hi f'.
Proof.
  intros Hn K Hx.
  assert (G : forall t h, tinv (A := R) m (Z.of_nat n) h t -> Forall (fun x => lo <= x <= hi) h ->
    exists y f', mwm2_smooth (A := RA) x (mkMWM2 (A := RA) (Some t) (total h) false) = Ok (y, f') /\ lo <= y <= hi /\ mwm2_in m n lo hi f').
  { intros t h T Fh. destruct (mwm2_step m n x t h _ Hn T eq_refl) as (t' & E & T').
    eexists _, _. split; [exact E|].
    assert (Fh' : Forall (fun x => lo <= x <= hi) (x :: removelast h)) by (constructor; auto; now apply Forall_removelast).
    split.
    - assert (L : length (x :: removelast h) = n). { destruct T' as (_ & _ & _ & _ & _ & _ & H & _). unfold zlen in H. lia. }
      pose proof (mean_bounds lo hi (x :: removelast h) ltac:(discriminate) Fh') as M. unfold mean in M. rewrite L in M. exact M.
    - exists t', (x :: removelast h). split; [reflexivity|]. split; auto. }
  destruct K as (t & h & E & T & D).
  destruct (m2_init f) eqn:I.
  - destruct (mwm2_first m n x f Hn) as (t0 & E0 & T0); auto.
    { exists t, h. auto. }
    rewrite E0. apply G; auto. apply Forall_forall. intros y Hy. apply repeat_spec in Hy. now subst.
  - destruct D as [D|[D Fh]]; [discriminate|]. destruct f as [fl fs fi]. cbn in E, I, D. subst. apply G; auto.
Qed.

Lemma expw_in_step lam x (f : expw RA) lo hi : e_lambda f = lam -> 0 < lam ->
  e_init f = true \/ (0 < e_w f /\ lo <= e_m f <= hi) -> lo <= x <= hi ->
  exists y w, expw_smooth (A := RA) x f = (y, mkEXPW (A := RA) lam y w false) /\ 0 < w /\ lo <= y <= hi.
Proof.
  intros El L D Hx.
  assert (G : forall m w, 0 < w -> lo <= m <= hi ->
    exists y w', expw_smooth (A := RA) x (mkEXPW (A := RA) lam m w false) = (y, mkEXPW (A := RA) lam y w' false) /\ 0 < w' /\ lo <= y <= hi).
  { intros m w Hw Hm. assert (0 < lam * w) by (apply Rmult_lt_0_compat; auto).
    rewrite expw_step by lra. eexists _, _. split; [reflexivity|]. split; [lra|].
    assert (lam * w * lo <= lam * w * m <= lam * w * hi) by (split; apply Rmult_le_compat_l; lra).
    split.
    - apply Rmult_le_reg_r with (lam * w + 1); [lra|]. unfold Rdiv. rewrite Rmult_assoc, Rinv_l by lra. lra.
    - apply Rmult_le_reg_r with (lam * w + 1); [lra|]. unfold Rdiv. rewrite Rmult_assoc, Rinv_l by lra. lra. }
  destruct (e_init f) eqn:I.
  - rewrite expw_first by auto. rewrite El. apply G; auto; lra.
  - destruct D as [D|[Dw Dm]]; [discriminate|]. destruct f as [fl fm fw fi]. cbn in El, I, Dw, Dm. subst. apply G; auto.
Qed.

Lemma rms_in_update m n lo hi x (s : rms RA) : (1 <= n)%nat -> 0 <= lo -> rms_in m n lo hi s -> lo <= Rabs x <= hi ->
  exists y s', rms_update (A := RA) x s = Ok (y, s') /\ lo <= y <= hi /\ rms_in m n lo hi s'.
Proof.
  intros Hn Hlo ((L & De) & Dm & (Al & Dl)) Hx. destruct s as [e mw l]. cbn [r_expw r_mwm2 r_lpf1] in *.
  assert (Hq : lo ^ 2 <= x * x <= hi ^ 2).
  { replace (x * x) with (Rabs x ^ 2) by (rewrite <- Rsqr_pow2, <- Rsqr_abs; reflexivity).
    split; apply pow_incr; lra. }
  destruct (expw_in_step _ (x * x) e (lo ^ 2) (hi ^ 2) eq_refl (proj1 L) De Hq) as (q & w & E1 & Hw & Hq').
  assert (Hv : lo <= sqrt q <= hi).
  { split.
    - rewrite <- (sqrt_pow2 lo) by auto. apply sqrt_le_1_alt. tauto.
    - rewrite <- (sqrt_pow2 hi) by lra. apply sqrt_le_1_alt. tauto. }
  destruct (mwm2_in_step m n lo hi (sqrt q) mw Hn Dm Hv) as (v & mw' & E2 & Hv' & Dm').
  assert (Ey : exists y, lpf1_smooth (A := RA) v l = (y, mkLPF1 (A := RA) (f1_alpha l) y false) /\ lo <= y <= hi).
  { set (a := f1_alpha l) in *.
    assert (G : forall y1, lo <= y1 <= hi -> lo <= (1 - a) * v + a * y1 <= hi).
    { intros y1 H1. assert ((1 - a) * lo <= (1 - a) * v <= (1 - a) * hi) by (split; apply Rmult_le_compat_l; lra).
      assert (a * lo <= a * y1 <= a * hi) by (split; apply Rmult_le_compat_l; lra). lra. }
    destruct (f1_init l) eqn:I.
    - rewrite lpf1_first by auto. rewrite lpf1_step. eexists. split; [reflexivity|]. apply G; auto.
    - destruct Dl as [Dl|Dl]; [discriminate|]. exists ((1 - a) * v + a * f1_y1 l). split; [|apply G; auto].
      rewrite <- lpf1_step. destruct l as [la ly li]. cbn in I. subst. reflexivity. }
  destruct Ey as (y & E3 & Hy).
  exists y, (mkRMS (A := RA) (mkEXPW (A := RA) (e_lambda e) q w false) mw' (mkLPF1 (A := RA) (f1_alpha l) y false)).
  split; [|split; [exact Hy|]].
  - unfold rms_update. cbn [r_expw r_mwm2 r_lpf1]. change (fmul (a := RA) x x) with (x * x). rewrite E1.
    change (o_sqrt lib q) with (sqrt q). rewrite E2. cbn [bind fst snd]. rewrite E3. reflexivity.
  - repeat split; cbn; auto; tauto.
Qed.

Lemma rms_in_params m n lo hi l al (s : rms RA) : rms_in m n lo hi s -> rms_in m n lo hi (snd (rms_setParams (A := RA) l al s)).
Proof.
  intros H. unfold rms_setParams. rewrite <- andb_assoc.
  destruct (flt (a := RA) (lit 0 1) l && fle (a := RA) l (lit 1 1)) eqn:E1; cbn [andb]; [|exact H].
  destruct (flt (a := RA) (lit 0 1) al && fle (a := RA) al (lit 1 1)) eqn:E2; [|exact H].
  apply unit_closed_R in E1, E2. destruct H as ((L & De) & Dm & (Al & Dl)).
  repeat split; cbn; auto; try tauto; lra.
Qed.

Lemma rms_in_setup (w : list R) n (s0 : rms RA) lo hi : (1 <= n)%nat -> (n <= length w)%nat ->
  exists s, rms_setup (A := RA) (Some w) (Z.of_nat n) s0 = Ok (true, s) /\ rms_in w n lo hi s /\
    e_init (r_expw s) = true /\ m2_init (r_mwm2 s) = true /\ f1_init (r_lpf1 s) = true /\
    e_lambda (r_expw s) = 99 / 100 /\ f1_alpha (r_lpf1 s) = 75 / 100.
Proof.
  intros Hn Hw. unfold rms_setup. rewrite (proj2 (Z.gtb_lt _ _)) by lia. unfold mwm2_setup. rewrite (proj2 (Z.gtb_lt _ _)) by lia.
  destruct (setup_ok w (Z.of_nat n) (lit (a := RA) 0 1)) as (t & E & T); [unfold zlen; lia|].
  change (F RA) with R in *. rewrite E. cbn [bind snd].
  assert (U1 : unit_open (A := RA) (lit 99 100) = true) by (apply unit_open_R; cbn; lra).
  assert (U2 : unit_open (A := RA) (lit 75 100) = true) by (apply unit_open_R; cbn; lra).
  unfold expw_setup, lpf1_setup. rewrite U1, U2. cbn [snd]. eexists. split; [reflexivity|].
  cbn [r_expw r_mwm2 r_lpf1 e_init e_lambda m2_init f1_init f1_alpha].
  split; [|repeat split; reflexivity].
  repeat split; cbn; auto; try lra.
  exists t. eexists. split; [reflexivity|]. split; [exact T|]. auto.
Qed.
