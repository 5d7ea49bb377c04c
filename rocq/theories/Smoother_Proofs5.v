(** What setup() and reset() do. *)
From Coq Require Import ZArith List Bool Lia Reals Lra.
From Flocq Require Import Core IEEE754.BinarySingleNaN IEEE754.Binary IEEE754.Bits.
From Verif Require Import Base BaseLemmas Arith ArithLemmas Tdl_Model Tdl_Proofs Ltisys_Model Ltisys_Spec Ltisys_Proofs Ltisys_Proofs2
  Smoother_Model Smoother_Spec Smoother_Proofs Smoother_Proofs2 Smoother_Proofs3 Smoother_Proofs4.
Import ListNotations.
Open Scope R_scope.

Lemma unit_open_R (x : R) : unit_open (A := RA) x = true <-> 0 < x < 1.
Proof.
  unfold unit_open. change (flt (a := RA)) with Rltb. change (lit (a := RA) 0 1) with (0 / 1). change (lit (a := RA) 1 1) with (1 / 1).
  replace (0 / 1) with 0 by field. replace (1 / 1) with 1 by field. rewrite andb_true_iff. split.
  - intros [H1 H2]. apply Rltb_inv in H1, H2. auto.
  - intros [H1 H2]. split; apply Rltb_true; auto.
Qed.
Lemma pos_R (x : R) : flt (a := RA) (lit 0 1) x = true <-> 0 < x.
Proof.
  change (flt (a := RA)) with Rltb. change (lit (a := RA) 0 1) with (0 / 1). replace (0 / 1) with 0 by field. split; [apply Rltb_inv|apply Rltb_true].
Qed.

(** ** setup *)
Lemma lpf1_setup_inv (a : R) (f0 f : lpf1 RA) : lpf1_setup (A := RA) a f0 = (true, f) -> 0 < a < 1 /\ f1_alpha f = a /\ f1_init f = true.
Proof.
  unfold lpf1_setup. destruct (unit_open (A := RA) a) eqn:E; [|discriminate]. intros H. injection H as <-. apply unit_open_R in E. auto.
Qed.
Lemma expw_setup_inv (a : R) (f0 f : expw RA) : expw_setup (A := RA) a f0 = (true, f) -> 0 < a < 1 /\ e_lambda f = a /\ e_init f = true.
Proof.
  unfold expw_setup. destruct (unit_open (A := RA) a) eqn:E; [|discriminate]. intros H. injection H as <-. apply unit_open_R in E. auto.
Qed.
Lemma klmn_setup_inv (q r p : R) (f0 f : klmn RA) : klmn_setup (A := RA) q r p f0 = (true, f) ->
  klmn_ok f /\ k_q f = q /\ k_r f = r /\ k_p f = p /\ k_init f = true.
Proof.
  unfold klmn_setup. destruct (flt (lit 0 1) (q : F RA) && flt (lit 0 1) (r : F RA) && flt (lit 0 1) (p : F RA)) eqn:E; [|discriminate].
  intros H. injection H as <-. apply andb_true_iff in E. destruct E as [E E3]. apply andb_true_iff in E. destruct E as [E1 E2].
  apply pos_R in E1, E2, E3. unfold klmn_ok. cbn [k_A k_H k_q k_r k_p k_init]. change (lit (a := RA) 1 1) with (1 / 1). ops.
  repeat split; auto; change (F RA) with R; field.
Qed.
Lemma desf_setup_inv (a b : R) n (f0 f : desf RA) : desf_setup (A := RA) a b n f0 = (true, f) ->
  0 < a < 1 /\ 0 < b < 1 /\ s_alpha f = a /\ s_beta f = b /\ s_n f = IZR n /\ s_init f = true.
Proof.
  unfold desf_setup. destruct (unit_open (A := RA) a && unit_open (A := RA) b) eqn:E; [|discriminate]. intros H. injection H as <-.
  apply andb_true_iff in E. destruct E as [E1 E2]. apply unit_open_R in E1, E2. cbn [s_alpha s_beta s_n s_init].
  unfold ofsize. change (lit (a := RA) n 1) with (IZR n / 1). split; [exact E1|]. split; [exact E2|]. repeat split. change (F RA) with R. field.
Qed.

Lemma mwm2_setup_ok (w : list R) n (f0 : mwm2 RA) : (1 <= n <= length w)%nat ->
  exists f, mwm2_setup (A := RA) (Some w) (Z.of_nat n) f0 = Ok (true, f) /\ mwm2_ok w n f /\ m2_init f = true.
Proof.
  intros H. unfold mwm2_setup. rewrite (proj2 (Z.gtb_lt _ _)) by lia.
  destruct (setup_ok w (Z.of_nat n) (lit (a := RA) 0 1)) as (t & E & T); [unfold zlen; change (F RA) with R; lia|].
  change (F RA) with R in *. rewrite E. cbn [bind]. eexists. split; [reflexivity|]. split; [|reflexivity].
  exists t. eexists. split; [reflexivity|]. split; [exact T|auto].
Qed.
Lemma mor1_setup_ok (a : R) (w : list R) n (f0 : mor1 RA) : (1 <= n <= length w)%nat -> 0 < a < 1 ->
  exists f, mor1_setup (A := RA) (Some w) (Z.of_nat n) a f0 = (true, f) /\ mor1_ok a n f /\ r1_init f = true.
Proof.
  intros H Ha. unfold mor1_setup. rewrite (proj2 (Z.gtb_lt _ _)) by lia. rewrite (proj2 (unit_open_R a)) by auto. cbn [andb].
  eexists. split; [reflexivity|]. split; [|reflexivity]. exists w. repeat split. lia.
Qed.
Lemma mor2_setup_ok (a : R) (w : list R) n (f0 : mor2 RA) : (1 <= n <= length w)%nat -> 0 < a < 1 ->
  exists f, mor2_setup (A := RA) (Some w) (Z.of_nat n) a f0 = Ok (true, f) /\ mor2_ok w n f /\ r2_init f = true.
Proof.
  intros H Ha. unfold mor2_setup. rewrite (proj2 (Z.gtb_lt _ _)) by lia. rewrite (proj2 (unit_open_R a)) by auto. cbn [andb].
  destruct (setup_ok w (Z.of_nat n) (lit (a := RA) 0 1)) as (t & E & T); [unfold zlen; change (F RA) with R; lia|].
  change (F RA) with R in *. rewrite E. cbn [bind]. eexists. split; [reflexivity|]. split; [|reflexivity].
  exists t. eexists. split; [reflexivity|exact T].
Qed.
Lemma alnf_setup_ok (a m : R) (x w : list R) n (f0 : alnf RA) : (n <= length x)%nat -> (n <= length w)%nat -> (1 <= n)%nat -> 0 < a < 1 -> 0 < m < 1 ->
  exists f, alnf_setup (A := RA) a m (Z.of_nat n) (Some x) w None f0 = (true, f) /\ alnf_ok a n f /\ a_init f = true.
Proof.
  intros H1 H2 Hn Ha Hm. unfold alnf_setup. rewrite (proj2 (Z.gtb_lt _ _)) by lia. rewrite (proj2 (unit_open_R a)), (proj2 (unit_open_R m)) by auto. cbn [andb].
  eexists. split; [reflexivity|]. split; [|reflexivity]. unfold alnf_ok. cbn [a_alpha a_w1 a_n a_w a_xx]. destruct (flt (lit 0 1) (m : F RA)); auto.
Qed.

(** ** reset, in any arithmetic *)
Section Reset.
Context {A : arith}.

Lemma same_start {S} (step : F A -> S -> F A * S) f g xs : (forall x, step x f = step x g) -> fst (feed step xs f) = fst (feed step xs g).
Proof. intros H. destruct xs as [|x xs]; [reflexivity|]. rewrite !feed_cons, H. reflexivity. Qed.

Lemma feed_keep {S B} (step : F A -> S -> F A * S) (p : S -> B) : (forall x f, p (snd (step x f)) = p f) ->
  forall xs f, p (snd (feed step xs f)) = p f.
Proof. intros H xs. induction xs as [|x xs IH]; intros f; [reflexivity|]. rewrite feed_cons. cbn [snd]. rewrite IH. apply H. Qed.

Lemma lpf1_reset_ok (f : lpf1 A) pre xs : f1_init f = true ->
  fst (feed lpf1_smooth xs (lpf1_reset (snd (feed lpf1_smooth pre f)))) = fst (feed lpf1_smooth xs f).
Proof.
  intros H. apply same_start. intros x. unfold lpf1_smooth at 1 3. cbn [lpf1_reset f1_init f1_alpha f1_y1]. rewrite H.
  rewrite (feed_keep lpf1_smooth f1_alpha) by reflexivity. reflexivity.
Qed.
Lemma lpf2_reset_ok (f : lpf2 A) pre xs : f2_init f = true ->
  fst (feed lpf2_smooth xs (lpf2_reset (snd (feed lpf2_smooth pre f)))) = fst (feed lpf2_smooth xs f).
Proof.
  intros H. apply same_start. intros x. set (g := snd (feed lpf2_smooth pre f)).
  assert (E : f2_k g = f2_k f /\ f2_a1 g = f2_a1 f /\ f2_a2 g = f2_a2 f /\ f2_b1 g = f2_b1 f).
  { unfold g. repeat split; apply (feed_keep lpf2_smooth); intros y h; unfold lpf2_smooth; destruct (f2_init h); reflexivity. }
  destruct E as (E1 & E2 & E3 & E4). unfold lpf2_smooth. cbn [lpf2_reset f2_init f2_k f2_a1 f2_a2 f2_b1]. rewrite H, E1, E2, E3, E4. reflexivity.
Qed.
Lemma expw_reset_ok (f : expw A) pre xs : e_init f = true ->
  fst (feed expw_smooth xs (expw_reset (snd (feed expw_smooth pre f)))) = fst (feed expw_smooth xs f).
Proof.
  intros H. apply same_start. intros x. set (g := snd (feed expw_smooth pre f)).
  assert (E : e_lambda g = e_lambda f) by (apply (feed_keep expw_smooth); reflexivity).
  unfold expw_smooth. cbn [expw_reset e_init e_lambda e_m e_w]. rewrite H, E. reflexivity.
Qed.
Lemma desf_reset_ok (f : desf A) pre xs : s_init f = true ->
  fst (feed desf_smooth xs (desf_reset (snd (feed desf_smooth pre f)))) = fst (feed desf_smooth xs f).
Proof.
  intros H. apply same_start. intros x. set (g := snd (feed desf_smooth pre f)).
  assert (E : s_alpha g = s_alpha f /\ s_beta g = s_beta f /\ s_n g = s_n f).
  { unfold g. repeat split; apply (feed_keep desf_smooth); reflexivity. }
  destruct E as (E1 & E2 & E3). unfold desf_smooth. cbn [desf_reset s_init s_alpha s_beta s_lt s_bt s_n]. rewrite H, E1, E2, E3. reflexivity.
Qed.
End Reset.

(** ** MWM1 *)
Section Mwm1.
Context {A : arith}.
Definition mwm1_try (f : mwm1 A) (c : option (list (F A)) * Z) : mwm1 A := snd (mwm1_setup (fst c) (snd c) f).
Lemma mwm1_stuck (calls : list (option (list (F A)) * Z)) : fold_left mwm1_try calls mwm1_new = mwm1_new.
Proof.
  assert (H : forall c, mwm1_try mwm1_new c = mwm1_new) by (intros [[w|] n]; reflexivity).
  induction calls as [|c calls IH]; cbn; auto. rewrite H. exact IH.
Qed.
Lemma mwm1_refuses (calls : list (option (list (F A)) * Z)) w n : fst (mwm1_setup w n (fold_left mwm1_try calls mwm1_new)) = false.
Proof. rewrite mwm1_stuck. destruct w; reflexivity. Qed.
Lemma mwm1_ub (calls : list (option (list (F A)) * Z)) (x : F A) : mwm1_smooth x (fold_left mwm1_try calls mwm1_new) = Ub.
Proof.
  rewrite mwm1_stuck. unfold mwm1_smooth. cbn [m1_w m1_size m1_init mwm1_new windowSet windowSet_loop Z.to_nat bind].
  rewrite updateFIR_zero; [reflexivity|]. reflexivity.
Qed.
End Mwm1.
