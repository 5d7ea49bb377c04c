From Coq Require Import ZArith List Bool Lia Reals Lra.
From Verif Require Import Base BaseLemmas Arith ArithLemmas Tdl_Model Ltisys_Model Ltisys_Spec Ltisys_Proofs Ltisys_Proofs2 Smoother_Model Smoother_Spec Smoother_Proofs.
Import ListNotations.
Open Scope R_scope.

(** ** Settling of the first-order smoothers *)

Section Settle.
Context {S : Type} (step : F RA -> S -> F RA * S) (I0 I : S -> Prop) (val : S -> R) (rho : R).
Hypothesis rho0 : 0 <= rho.
Hypothesis I_I0 : forall f, I f -> I0 f.
Hypothesis keep : forall x f, I0 f -> I (snd (step x f)) /\ val (snd (step x f)) = fst (step x f).
Hypothesis contract : forall c f, I f -> Rabs (fst (step c f) - c) <= rho * Rabs (val f - c).

Lemma settle_const c n : forall f, I f -> forall j, (j < n)%nat ->
  Rabs (nth j (fst (feed step (repeat c n) f)) 0 - c) <= rho ^ Datatypes.S j * Rabs (val f - c).
Proof.
  induction n; intros f Hf j Hj; [lia|]. cbn [repeat]. rewrite feed_cons. cbn [fst].
  destruct j.
  - change (Rabs (fst (step c f) - c) <= rho ^ 1 * Rabs (val f - c)). rewrite pow_1. auto.
  - destruct (keep c f (I_I0 _ Hf)) as [K V].
    change (Rabs (nth j (fst (feed step (repeat c n) (snd (step c f)))) 0 - c) <= rho ^ Datatypes.S (Datatypes.S j) * Rabs (val f - c)).
    eapply Rle_trans; [apply IHn; [auto|lia]|]. rewrite V.
    change (rho ^ Datatypes.S (Datatypes.S j)) with (rho * rho ^ Datatypes.S j).
    rewrite (Rmult_comm rho), Rmult_assoc. apply Rmult_le_compat_l; [apply pow_le; auto|]. auto.
Qed.

Lemma settle_last (xs : list (F RA)) x f : I0 f ->
  I (snd (feed step (xs ++ [x]) f)) /\ val (snd (feed step (xs ++ [x]) f)) = nth (length xs) (fst (feed step (xs ++ [x]) f)) 0.
Proof.
  revert f. induction xs as [|y xs IH]; intros f Hf.
  - cbn [app]. rewrite feed_cons. cbn [feed fst snd length nth]. apply keep; auto.
  - rewrite <- app_comm_cons, feed_cons. cbn [snd fst length].
    change (I (snd (feed step (xs ++ [x]) (snd (step y f)))) /\
      val (snd (feed step (xs ++ [x]) (snd (step y f)))) = nth (length xs) (fst (feed step (xs ++ [x]) (snd (step y f)))) 0).
    apply IH. apply I_I0. apply keep. auto.
Qed.

(** The outputs after [xs] approach a constant input geometrically, from the
    last output. *)
Lemma settle (xs : list (F RA)) f c n j : I0 f -> xs <> [] -> (j <= n)%nat ->
  Rabs (nth (length xs - 1 + j) (fst (feed step (xs ++ repeat c n) f)) 0 - c) <=
    rho ^ j * Rabs (nth (length xs - 1) (fst (feed step xs f)) 0 - c).
Proof.
  intros Hf Hx Hj. destruct (exists_last Hx) as (ys & x & E). subst xs.
  destruct (settle_last ys x f Hf) as [K V]. rewrite app_length. cbn [length].
  replace (length ys + 1 - 1)%nat with (length ys) by lia. rewrite feed_app. cbn [fst].
  destruct j.
  - rewrite Nat.add_0_r. rewrite app_nth1 by (rewrite feed_length, app_length; cbn; lia). cbn [pow]. lra.
  - rewrite app_nth2 by (rewrite feed_length, app_length; cbn; lia).
    rewrite feed_length, app_length. cbn [length]. replace (length ys + Datatypes.S j - (length ys + 1))%nat with j by lia.
    rewrite <- V. apply settle_const; auto.
Qed.
End Settle.

Lemma lpf1_settle (f : lpf1 RA) (xs : list (F RA)) c n j : 0 < f1_alpha f < 1 -> xs <> [] -> (j <= n)%nat ->
  Rabs (nth (length xs - 1 + j) (fst (feed (lpf1_smooth (A := RA)) (xs ++ repeat c n) f)) 0 - c) <=
    f1_alpha f ^ j * Rabs (nth (length xs - 1) (fst (feed (lpf1_smooth (A := RA)) xs f)) 0 - c).
Proof.
  intros Ha Hx Hj. set (a := f1_alpha f) in *.
  apply (settle (lpf1_smooth (A := RA)) (fun g => f1_alpha g = a) (fun g => f1_alpha g = a /\ f1_init g = false) (fun g => f1_y1 g)); auto.
  - lra.
  - intros g [H _]; auto.
  - intros k g [H H1]. destruct g as [al y ini]. cbn in H, H1. subst. rewrite lpf1_step. cbn [fst snd f1_y1]. ops.
    replace ((1 - a) * k + a * y - k) with (a * (y - k)) by ring. rewrite Rabs_mult, (Rabs_right a) by lra. lra.
Qed.

Lemma expw_settle (f : expw RA) (xs : list (F RA)) c n j : 0 < e_lambda f < 1 -> e_init f = true -> xs <> [] -> (j <= n)%nat ->
  Rabs (nth (length xs - 1 + j) (fst (feed (expw_smooth (A := RA)) (xs ++ repeat c n) f)) 0 - c) <=
    e_lambda f ^ j * Rabs (nth (length xs - 1) (fst (feed (expw_smooth (A := RA)) xs f)) 0 - c).
Proof.
  intros Ha Hi Hx Hj. set (a := e_lambda f) in *.
  apply (settle (expw_smooth (A := RA))
           (fun g => e_lambda g = a /\ (e_init g = true \/ (1 <= e_w g /\ e_w g * (1 - a) <= 1)))
           (fun g => e_lambda g = a /\ e_init g = false /\ 1 <= e_w g /\ e_w g * (1 - a) <= 1) (fun g => e_m g)); auto.
  - lra.
  - intros g (H & _ & H1). auto.
  - intros x g [H H1].
    assert (E : exists m w : R, 1 <= w /\ w * (1 - a) <= 1 /\ expw_smooth (A := RA) x g = expw_smooth (A := RA) x (mkEXPW (A := RA) a m w false)).
    { destruct (e_init g) eqn:G.
      - exists x, 1. rewrite expw_first by auto. rewrite H. repeat split; auto; lra.
      - destruct H1 as [H1|[H1 H2]]; [discriminate|]. exists (e_m g), (e_w g). repeat split; auto. destruct g; cbn in *; subst; reflexivity. }
    destruct E as (m & w & W1 & W2 & E). rewrite E. assert (0 < a * w) by (apply Rmult_lt_0_compat; lra).
    rewrite expw_step by lra. cbn [fst snd e_lambda e_init e_w e_m]. ops. repeat split; nra.
  - intros k g (H & H1 & W1 & W2). destruct g as [al m w ini]. cbn in H, H1, W1, W2. subst.
    assert (0 < a * w) by (apply Rmult_lt_0_compat; lra).
    rewrite expw_step by lra. cbn [fst e_m]. ops.
    replace ((a * (w * m) + k) / (a * w + 1) - k) with ((a * w) / (a * w + 1) * (m - k)) by (field; lra).
    rewrite Rabs_mult. apply Rmult_le_compat_r; [apply Rabs_pos|].
    assert (a * w / (a * w + 1) <= a).
    { apply Rmult_le_reg_r with (a * w + 1); [lra|]. unfold Rdiv. rewrite Rmult_assoc, Rinv_l by lra. nra. }
    rewrite Rabs_right; auto. apply Rle_ge. left. apply Rdiv_lt_0_compat; lra.
Qed.

Lemma klmn_settle (f : klmn RA) (xs : list (F RA)) c n j : klmn_ok f -> xs <> [] -> (j <= n)%nat ->
  Rabs (nth (length xs - 1 + j) (fst (feed (klmn_smooth (A := RA)) (xs ++ repeat c n) f)) 0 - c) <=
    (k_r f / (k_r f + k_q f)) ^ j * Rabs (nth (length xs - 1) (fst (feed (klmn_smooth (A := RA)) xs f)) 0 - c).
Proof.
  intros Ha Hx Hj. set (r := k_r f) in *. set (q := k_q f) in *.
  assert (Hq : 0 < q) by apply Ha. assert (Hr : 0 < r) by apply Ha.
  apply (settle (klmn_smooth (A := RA))
           (fun g => klmn_ok g /\ k_q g = q /\ k_r g = r)
           (fun g => klmn_ok g /\ k_q g = q /\ k_r g = r /\ k_init g = false) (fun g => k_x g)); auto.
  - left. apply Rdiv_lt_0_compat; lra.
  - intros g (H & H1 & H2 & _). auto.
  - intros x g (H & H1 & H2). destruct (klmn_keeps x g H) as (K & _ & _ & Kq & Kr & Ki).
    repeat split; auto; try apply K; try congruence.
  - intros k g (H & H1 & H2 & H3). destruct (klmn_norm k g H) as (s & Hs & E). rewrite H3 in Hs. subst s. rewrite E.
    assert (Hp : 0 < k_p g) by apply H. assert (0 < k_q g) by apply H. assert (0 < k_r g) by apply H. rewrite klmn_step by auto. cbn [fst].
    rewrite H1, H2. ops.
    replace ((r * k_x g + (k_p g + q) * k) / (r + (k_p g + q)) - k) with (r / (r + (k_p g + q)) * (k_x g - k)) by (field; ops; lra).
    rewrite Rabs_mult. apply Rmult_le_compat_r; [apply Rabs_pos|].
    rewrite Rabs_right by (apply Rle_ge; left; apply Rdiv_lt_0_compat; lra).
    apply Rmult_le_compat_l; [lra|]. apply Rinv_le_contravar; lra.
Qed.

(** ** Second-order sequences *)

Fixpoint hpair (a1 a2 : R) (e0 e1 : R) (j : nat) : R * R :=
  match j with O => (e0, e1) | S j' => let p := hpair a1 a2 e0 e1 j' in (snd p, - a1 * snd p - a2 * fst p) end.
Definition hseq a1 a2 e0 e1 j : R := fst (hpair a1 a2 e0 e1 j).

Lemma hseq_SS a1 a2 e0 e1 j : hseq a1 a2 e0 e1 (S (S j)) = - a1 * hseq a1 a2 e0 e1 (S j) - a2 * hseq a1 a2 e0 e1 j.
Proof. reflexivity. Qed.
Lemma hseq_shift a1 a2 e0 e1 j : hseq a1 a2 e0 e1 (S j) = hseq a1 a2 e1 (- a1 * e1 - a2 * e0) j.
Proof.
  unfold hseq. assert (E : hpair a1 a2 e0 e1 (S j) = hpair a1 a2 e1 (- a1 * e1 - a2 * e0) j).
  { induction j; [reflexivity|]. change (hpair a1 a2 e0 e1 (S (S j))) with
      (let p := hpair a1 a2 e0 e1 (S j) in (snd p, - a1 * snd p - a2 * fst p)). rewrite IHj. reflexivity. }
  now rewrite E.
Qed.

Lemma contraction_cv (u e : nat -> R) rho : 0 <= rho < 1 -> Un_cv e 0 ->
  (forall k, Rabs (u (S k)) <= rho * Rabs (u k) + e k) -> Un_cv u 0.
Proof.
  intros Hr He H eps Heps.
  destruct (He (eps * (1 - rho) / 2)) as [N HN]; [apply Rlt_gt; apply Rdiv_lt_0_compat; [apply Rmult_lt_0_compat|]; lra|].
  assert (B : forall j, Rabs (u (N + j)%nat) <= rho ^ j * Rabs (u N) + eps / 2).
  { induction j; [rewrite Nat.add_0_r; cbn; lra|]. rewrite Nat.add_succ_r. eapply Rle_trans; [apply H|].
    specialize (HN (N + j)%nat). assert (G : (N + j >= N)%nat) by lia. specialize (HN G). unfold R_dist in HN.
    rewrite Rminus_0_r in HN. pose proof (Rle_abs (e (N + j)%nat)). cbn [pow].
    assert (rho * Rabs (u (N + j)%nat) <= rho * (rho ^ j * Rabs (u N) + eps / 2)) by (apply Rmult_le_compat_l; lra).
    lra. }
  destruct (pow_lt_1_zero rho) with (y := eps / (2 * (Rabs (u N) + 1))) as [M HM]; [rewrite Rabs_right; lra| |].
  { pose proof (Rabs_pos (u N)). apply Rdiv_lt_0_compat; lra. }
  exists (N + M)%nat. intros n Hn. unfold R_dist. rewrite Rminus_0_r.
  replace n with (N + (n - N))%nat by lia. eapply Rle_lt_trans; [apply B|].
  specialize (HM (n - N)%nat ltac:(lia)). rewrite Rabs_right in HM by (apply Rle_ge, pow_le; lra).
  pose proof (Rabs_pos (u N)).
  assert (rho ^ (n - N) * Rabs (u N) < eps / 2); [|lra].
  apply Rle_lt_trans with (rho ^ (n - N) * (Rabs (u N) + 1)); [apply Rmult_le_compat_l; [apply pow_le|]; lra|].
  apply Rmult_lt_compat_r with (r := Rabs (u N) + 1) in HM; [|lra].
  replace (eps / (2 * (Rabs (u N) + 1)) * (Rabs (u N) + 1)) with (eps / 2) in HM by (field; lra). lra.
Qed.

(** Nonnegative terms with bounded sums tend to 0. *)
Lemma terms_cv (t : nat -> R) B : (forall k, 0 <= t k) -> (forall n, sum n t <= B) -> Un_cv t 0.
Proof.
  intros Ht HB.
  destruct (growing_cv (fun n => sum n t)) as [l Hl].
  - intros n. cbn. specialize (Ht n). lra.
  - exists B. intros y [n ->]. apply HB.
  - intros eps He. destruct (Hl (eps / 2)) as [N HN]; [lra|].
    exists N. intros n Hn. pose proof (HN n Hn) as A. pose proof (HN (S n) ltac:(lia)) as A'.
    unfold R_dist in *. cbn [sum] in A'. rewrite Rminus_0_r.
    apply Rabs_def2 in A. apply Rabs_def2 in A'. apply Rabs_def1; lra.
Qed.

Lemma sqr_cv (d : nat -> R) : Un_cv (fun k => d k * d k) 0 -> Un_cv (fun k => Rabs (d k)) 0.
Proof.
  intros H eps He. destruct (H (eps * eps)) as [N HN]; [nra|]. exists N. intros n Hn. specialize (HN n Hn).
  unfold R_dist in *. rewrite Rminus_0_r in *. rewrite Rabs_Rabsolu. rewrite Rabs_mult in HN.
  pose proof (Rabs_pos (d n)). nra.
Qed.

Lemma schur_cv a1 a2 e0 e1 : a2 < 1 -> Rabs a1 < 1 + a2 -> Un_cv (hseq a1 a2 e0 e1) 0.
Proof.
  intros H2 H1. set (h := hseq a1 a2 e0 e1). set (c := 1 + a2) in *.
  assert (Hc : 0 < c) by (pose proof (Rabs_pos a1); lra).
  assert (Ha : - c < a1 < c) by (apply Rabs_def2 in H1; lra).
  set (V := fun k => c * (h (S k) * h (S k) + h k * h k) + 2 * a1 * (h (S k) * h k)).
  set (d := fun k => h (S (S k)) - h k).
  assert (V0 : forall k, 0 <= V k).
  { intros k. unfold V. set (y := h (S k)). set (y' := h k). clearbody y y'.
    replace (c * (y * y + y' * y') + 2 * a1 * (y * y')) with ((c + a1) / 2 * ((y + y') * (y + y')) + (c - a1) / 2 * ((y - y') * (y - y'))) by field.
    apply Rplus_le_le_0_compat; (apply Rmult_le_pos; [lra|apply Rle_0_sqr]). }
  assert (VS : forall k, V (S k) = V k - (1 - a2) * (d k * d k)).
  { intros k. unfold V, d. unfold h. rewrite !hseq_SS. unfold c. ring. }
  assert (D : Un_cv (fun k => d k * d k) 0).
  { apply terms_cv with (B := V O / (1 - a2)).
    - intros k. nra.
    - intros n. assert (E : (1 - a2) * sum n (fun k => d k * d k) = V O - V n).
      { induction n; cbn [sum]; [lra|]. rewrite VS. lra. }
      apply Rmult_le_reg_l with (1 - a2); [lra|]. rewrite E.
      replace ((1 - a2) * (V O / (1 - a2))) with (V O) by (field; lra). specialize (V0 n). lra. }
  apply sqr_cv in D.
  assert (U : Un_cv (fun k => h (S k)) 0).
  { apply contraction_cv with (e := fun k => Rabs (1 - / c) * Rabs (d k)) (rho := Rabs a1 / c).
    - split.
      + apply Rmult_le_pos; [apply Rabs_pos|]. left. apply Rinv_0_lt_compat; auto.
      + apply Rmult_lt_reg_r with c; auto. unfold Rdiv. rewrite Rmult_assoc, Rinv_l by lra. lra.
    - intros eps He. pose proof (Rabs_pos (1 - / c)) as P.
      destruct (D (eps / (Rabs (1 - / c) + 1))) as [N HN]; [apply Rdiv_lt_0_compat; lra|].
      exists N. intros n Hn. specialize (HN n Hn). unfold R_dist in *. rewrite Rminus_0_r in *.
      rewrite Rabs_Rabsolu in HN. rewrite Rabs_mult, !Rabs_Rabsolu.
      apply Rmult_lt_compat_l with (r := Rabs (1 - / c) + 1) in HN; [|lra].
      replace ((Rabs (1 - / c) + 1) * (eps / (Rabs (1 - / c) + 1))) with eps in HN by (field; lra).
      pose proof (Rabs_pos (d n)). nra.
    - intros k. replace (h (S (S k))) with ((- a1 / c) * h (S k) + (1 - / c) * d k).
      + eapply Rle_trans; [apply Rabs_triang|]. rewrite !Rabs_mult.
        replace (Rabs (- a1 / c)) with (Rabs a1 / c); [lra|].
        unfold Rdiv. rewrite Rabs_mult, Rabs_Ropp, (Rabs_right (/ c)); auto. apply Rle_ge. left. apply Rinv_0_lt_compat; auto.
      + unfold d, h. rewrite !hseq_SS. unfold c. field. unfold c in Hc. lra. }
  intros eps He. destruct (U eps He) as [N HN]. exists (S N). intros n Hn. destruct n; [lia|]. apply HN. lia.
Qed.

(** ** LPF2 *)

Lemma lpf2_coeffs (al : R) (f0 f : lpf2 RA) : lpf2_setup (A := RA) al f0 = (true, f) ->
  f2_init f = true /\
  f2_b1 f = 2 * f2_k f /\ 4 * f2_k f = 1 + f2_a1 f + f2_a2 f /\ f2_a2 f < 1 /\ Rabs (f2_a1 f) < 1 + f2_a2 f.
Proof.
  unfold lpf2_setup, unit_open.
  intros E. destruct (flt (lit 0 1) (al : F RA) && flt (al : F RA) (lit 1 1)) eqn:C; [|discriminate].
  inversion E; subst; clear E. apply andb_true_iff in C. destruct C as [C1 C2].
  cbn [flt RA] in C1, C2. apply Rltb_inv in C1, C2.
  change (lit (a := RA) 0 1) with (0 / 1) in C1. change (lit (a := RA) 1 1) with (1 / 1) in C2.
  cbn [f2_init f2_b1 f2_k f2_a1 f2_a2]. ra. replace (1 / 1) with 1 in * by field. replace (2 / 1) with 2 by field. replace (0 / 1) with 0 in * by field.
  change (o_sqrt (lib (a := RA))) with sqrt.
  assert (P : 0 < sqrt (2 * al)) by (apply sqrt_lt_R0; lra). set (p := sqrt (2 * al)) in *. clearbody p.
  assert (Hr : 0 < 1 + p + al * al) by nra.
  repeat split.
  - field. lra.
  - apply Rmult_lt_reg_r with (1 + p + al * al); auto. unfold Rdiv. rewrite Rmult_assoc, Rinv_l by lra. lra.
  - replace (1 + (1 - p + al * al) / (1 + p + al * al)) with (2 * (1 + al * al) / (1 + p + al * al)) by (field; lra).
    unfold Rdiv. rewrite Rabs_mult, (Rabs_right (/ _)) by (apply Rle_ge; left; apply Rinv_0_lt_compat; auto).
    apply Rmult_lt_compat_r; [apply Rinv_0_lt_compat; auto|]. rewrite Rabs_left by nra. nra.
Qed.

Lemma lpf2_step (x y1 y2 x1 x2 k a1 a2 b1 : R) :
  lpf2_smooth (A := RA) x (mkLPF2 (A := RA) y1 y2 x1 x2 k a1 a2 b1 false) =
    (k * x + b1 * x1 + k * x2 - a1 * y1 - a2 * y2, mkLPF2 (A := RA) (k * x + b1 * x1 + k * x2 - a1 * y1 - a2 * y2) y1 x x1 k a1 a2 b1 false).
Proof. reflexivity. Qed.

(** Once the input has been [c] for two samples, the distance to c is a free
    second-order sequence. *)
Lemma lpf2_free (k a1 a2 c : R) n : 4 * k = 1 + a1 + a2 -> forall y1 y2 j, (j < n)%nat ->
  nth j (fst (feed (lpf2_smooth (A := RA)) (repeat (c : F RA) n) (mkLPF2 (A := RA) y1 y2 c c k a1 a2 (2 * k) false))) 0 =
    c + hseq a1 a2 (y2 - c) (y1 - c) (S (S j)).
Proof.
  intros HK. induction n; intros y1 y2 j Hj; [lia|]. cbn [repeat]. rewrite feed_cons. cbn [fst].
  rewrite lpf2_step. cbn [fst snd].
  replace (k * c + 2 * k * c + k * c - a1 * y1 - a2 * y2) with (c + (- a1 * (y1 - c) - a2 * (y2 - c))) by (replace a2 with (4 * k - 1 - a1) by lra; ring).
  destruct j.
  - reflexivity.
  - etransitivity; [apply IHn; lia|]. rewrite (hseq_shift a1 a2 (y2 - c) (y1 - c)).
    replace (c + (- a1 * (y1 - c) - a2 * (y2 - c)) - c) with (- a1 * (y1 - c) - a2 * (y2 - c)) by ring. reflexivity.
Qed.

Lemma lpf2_converges (al : R) (f0 f : lpf2 RA) (xs : list (F RA)) (c : R) : lpf2_setup (A := RA) al f0 = (true, f) ->
  Un_cv (fun j => nth (length xs + j) (fst (feed (lpf2_smooth (A := RA)) (xs ++ repeat (c : F RA) (S j)) f)) 0) c.
Proof.
  intros E. destruct (lpf2_coeffs al f0 f E) as (Hi & Hb & Hk & H2 & H1). clear E.
  set (g := snd (feed (lpf2_smooth (A := RA)) xs f)).
  assert (G : f2_b1 g = 2 * f2_k f /\ f2_k g = f2_k f /\ f2_a1 g = f2_a1 f /\ f2_a2 g = f2_a2 f).
  { unfold g. apply (feed_inv (lpf2_smooth (A := RA)) (fun g => f2_b1 g = 2 * f2_k f /\ f2_k g = f2_k f /\ f2_a1 g = f2_a1 f /\ f2_a2 g = f2_a2 f) (fun _ => True) (fun _ => True)); auto.
    - intros x h _ H. split; auto. unfold lpf2_smooth. destruct (f2_init h); cbn [snd f2_b1 f2_k f2_a1 f2_a2]; auto.
    - apply Forall_forall; auto. }
  (* after two samples of c *)
  set (g2 := snd (feed (lpf2_smooth (A := RA)) [(c : F RA); (c : F RA)] g)).
  assert (G2 : exists y1 y2 : R, g2 = mkLPF2 (A := RA) y1 y2 c c (f2_k f) (f2_a1 f) (f2_a2 f) (2 * f2_k f) false).
  { unfold g2. destruct G as (Gb & Gk & G1 & G2). rewrite !feed_cons. cbn [feed snd].
    unfold lpf2_smooth. destruct (f2_init g) eqn:Ig; cbn [snd fst f2_init f2_y1 f2_y2 f2_x1 f2_x2 f2_k f2_a1 f2_a2 f2_b1]; ops; rewrite Gb, Gk, G1, G2; eauto. }
  destruct G2 as (y1 & y2 & G2).
  pose proof (schur_cv (f2_a1 f) (f2_a2 f) (y2 - c) (y1 - c) H2 H1) as CV.
  intros eps He. destruct (CV eps He) as [N HN]. exists (S (S N)). intros n Hn.
  destruct n as [|[|n]]; [lia|lia|]. rewrite feed_app. cbn [fst].
  assert (L : length (fst (feed (lpf2_smooth (A := RA)) xs f)) = length xs) by apply (feed_length (A := RA)).
  assert (Q : nth (length xs + S (S n)) (fst (feed (lpf2_smooth (A := RA)) xs f) ++
             fst (feed (lpf2_smooth (A := RA)) (repeat (c : F RA) (S (S (S n)))) g)) 0 = c + hseq (f2_a1 f) (f2_a2 f) (y2 - c) (y1 - c) (S (S n))).
  { rewrite app_nth2 by (rewrite L; lia). rewrite L. replace (length xs + S (S n) - length xs)%nat with (S (S n)) by lia.
    change (repeat (c : F RA) (S (S (S n)))) with ([(c : F RA); (c : F RA)] ++ repeat (c : F RA) (S n)). rewrite feed_app. cbn [fst].
    assert (L2 : length (fst (feed (lpf2_smooth (A := RA)) [(c : F RA); (c : F RA)] g)) = 2%nat) by apply (feed_length (A := RA)).
    rewrite app_nth2 by (rewrite L2; lia). rewrite L2. replace (S (S n) - 2)%nat with n by lia.
    change (snd (feed (lpf2_smooth (A := RA)) [(c : F RA); (c : F RA)] g)) with g2. rewrite G2. apply lpf2_free; [lra|lia]. }
  pose proof (HN (S (S n)) ltac:(lia)) as B. unfold R_dist in *. rewrite Rminus_0_r in B.
  eapply Rle_lt_trans; [|exact B]. right. apply f_equal. etransitivity; [apply (f_equal (fun v => v - c) Q)|]. ring.
Qed.

Lemma lpf2_first (x : R) (f : lpf2 RA) : f2_init f = true ->
  lpf2_smooth (A := RA) x f = lpf2_smooth (A := RA) x (mkLPF2 (A := RA) x x x x (f2_k f) (f2_a1 f) (f2_a2 f) (f2_b1 f) false).
Proof. intros H. unfold lpf2_smooth. rewrite H. reflexivity. Qed.

Lemma lpf2_constant (al : R) (f0 f : lpf2 RA) (c : R) n : lpf2_setup (A := RA) al f0 = (true, f) ->
  fst (feed (lpf2_smooth (A := RA)) (repeat (c : F RA) n) f) = repeat c n.
Proof.
  intros E. destruct (lpf2_coeffs al f0 f E) as (Hi & Hb & Hk & H2 & H1). clear E.
  destruct n; [reflexivity|]. 
  assert (S1 : feed (lpf2_smooth (A := RA)) (repeat (c : F RA) (S n)) f =
    feed (lpf2_smooth (A := RA)) (repeat (c : F RA) (S n)) (mkLPF2 (A := RA) c c c c (f2_k f) (f2_a1 f) (f2_a2 f) (2 * f2_k f) false)).
  { cbn [repeat]. rewrite !feed_cons. rewrite <- Hb, (lpf2_first c f Hi). reflexivity. }
  rewrite S1. apply nth_ext with (d := 0) (d' := 0).
  - rewrite repeat_length. etransitivity; [apply (feed_length (A := RA))|apply repeat_length].
  - intros j Hj. assert (L : (j < S n)%nat).
    { assert (LL : length (fst (feed (lpf2_smooth (A := RA)) (repeat (c : F RA) (S n)) (mkLPF2 (A := RA) c c c c (f2_k f) (f2_a1 f) (f2_a2 f) (2 * f2_k f) false))) = S n).
      { etransitivity; [apply (feed_length (A := RA))|apply repeat_length]. } rewrite <- LL. exact Hj. }
    etransitivity; [apply lpf2_free; [lra|exact L]|].
    assert (Z : forall i, hseq (f2_a1 f) (f2_a2 f) (c - c) (c - c) i = 0).
    { assert (ZZ : forall i, hpair (f2_a1 f) (f2_a2 f) (c - c) (c - c) i = (0, 0)).
      { induction i; cbn [hpair]; [f_equal; ring|]. rewrite IHi. cbn [fst snd]. f_equal. ops. ring. }
      intros i. unfold hseq. now rewrite ZZ. }
    rewrite Z, Rplus_0_r. symmetry. rewrite (nth_indep _ 0 c) by (rewrite repeat_length; exact L). apply nth_repeat.
Qed.

(** ** DESF *)

Lemma desf_level_trend (xs : list (F RA)) : forall a b l t n : R,
  fst (feed (desf_smooth (A := RA)) xs (mkDESF (A := RA) a b l t n false)) = map (fun p => fst p + n * snd p) (level_trend a b l t xs).
Proof.
  induction xs as [|x xs IH]; intros a b l t n; [reflexivity|].
  rewrite feed_cons. cbn [level_trend map fst snd].
  change (desf_smooth (A := RA) x (mkDESF (A := RA) a b l t n false)) with
    (let l' := (1 / 1 - a) * l + a * x in let t' := (1 / 1 - b) * t + b * (l' - l) in (l' + n * t', mkDESF (A := RA) a b l' t' n false)).
  cbv zeta. cbn [fst snd]. replace (1 / 1) with 1 by field. apply f_equal2; [reflexivity|]. apply IH.
Qed.

Lemma desf_first (x : R) (f : desf RA) : s_init f = true ->
  desf_smooth (A := RA) x f = desf_smooth (A := RA) x (mkDESF (A := RA) (s_alpha f) (s_beta f) x x (s_n f) false).
Proof. intros H. unfold desf_smooth. rewrite H. reflexivity. Qed.

Lemma desf_run (f : desf RA) (x : R) (xs : list (F RA)) : s_init f = true ->
  fst (feed (desf_smooth (A := RA)) ((x : F RA) :: xs) f) =
    map (fun p => fst p + s_n f * snd p) (level_trend (s_alpha f) (s_beta f) x x ((x : F RA) :: xs)).
Proof.
  intros H. etransitivity; [|apply (desf_level_trend ((x : F RA) :: xs))]. rewrite !feed_cons. rewrite desf_first by auto. reflexivity.
Qed.

Lemma level_trend_const a b c n : forall t, level_trend a b c t (repeat c n) = map (fun k => (c, (1 - b) ^ S k * t)) (seq 0 n).
Proof.
  induction n; intros t; [reflexivity|]. cbn [repeat level_trend seq map]. apply f_equal2.
  - f_equal; cbn; ring.
  - replace ((1 - a) * c + a * c) with c by ring. rewrite IHn. rewrite <- seq_shift, map_map. apply map_ext. intros k. f_equal. cbn [pow]. ring.
Qed.

Lemma desf_constant (f : desf RA) (c : R) n : s_init f = true ->
  fst (feed (desf_smooth (A := RA)) (repeat (c : F RA) n) f) = tabulate n (fun k => c + s_n f * (1 - s_beta f) ^ S k * c).
Proof.
  intros H. destruct n; [reflexivity|]. etransitivity; [apply (desf_run f c (repeat (c : F RA) n) H)|].
  change ((c : F RA) :: repeat (c : F RA) n) with (repeat c (S n)). rewrite level_trend_const, map_map. unfold tabulate. apply map_ext.
  intros k. cbn [fst snd]. ops. ring.
Qed.

(** ** The difference equation of LPF2 *)

Lemma lpf2_recur (xs : list (F RA)) : forall (y1 y2 x1 x2 k a1 a2 b1 : R) i, (i < length xs)%nat ->
  let ys := fst (feed (lpf2_smooth (A := RA)) xs (mkLPF2 (A := RA) y1 y2 x1 x2 k a1 a2 b1 false)) in
  nth (i + 2) (y2 :: y1 :: ys) 0 = k * nth (i + 2) (x2 :: x1 :: xs) 0 + b1 * nth (i + 1) (x2 :: x1 :: xs) 0 + k * nth i (x2 :: x1 :: xs) 0
    - a1 * nth (i + 1) (y2 :: y1 :: ys) 0 - a2 * nth i (y2 :: y1 :: ys) 0.
Proof.
  induction xs as [|x xs IH]; intros y1 y2 x1 x2 k a1 a2 b1 i Hi; [cbn in Hi; lia|].
  cbv zeta. rewrite feed_cons, lpf2_step. cbn [fst snd]. destruct i; [reflexivity|].
  cbn [length] in Hi.
  exact (IH (k * x + b1 * x1 + k * x2 - a1 * y1 - a2 * y2) y1 x x1 k a1 a2 b1 i ltac:(lia)).
Qed.

Lemma lpf2_equation (al : R) (f0 f : lpf2 RA) (xs : list (F RA)) k : lpf2_setup (A := RA) al f0 = (true, f) -> (k < length xs)%nat ->
  let ys := fst (feed (lpf2_smooth (A := RA)) xs f) in
  nth k ys 0 = f2_k f * (ago xs k 0 + 2 * ago xs k 1 + ago xs k 2) - f2_a1 f * (if (k =? 0)%nat then ago xs 0 0 else ago ys k 1) - f2_a2 f * (if (k =? 0)%nat then ago xs 0 0 else ago ys k 2).
Proof.
  intros E Hk. destruct (lpf2_coeffs al f0 f E) as (Hi & Hb & HK & _).
  destruct xs as [|x xs]; [cbn in Hk; lia|]. cbv zeta.
  assert (S1 : feed (lpf2_smooth (A := RA)) (x :: xs) f =
    feed (lpf2_smooth (A := RA)) (x :: xs) (mkLPF2 (A := RA) x x x x (f2_k f) (f2_a1 f) (f2_a2 f) (2 * f2_k f) false)).
  { rewrite !feed_cons. rewrite <- Hb, (lpf2_first x f Hi). reflexivity. }
  rewrite S1. pose proof (lpf2_recur (x :: xs) x x x x (f2_k f) (f2_a1 f) (f2_a2 f) (2 * f2_k f) k Hk) as Q. cbv zeta in Q.
  pose proof (lpf2_recur (x :: xs) x x x x (f2_k f) (f2_a1 f) (f2_a2 f) (2 * f2_k f) 0 ltac:(cbn; lia)) as Q0. cbv zeta in Q0.
  cbn [Nat.add nth] in Q0.
  set (ys := fst (feed (lpf2_smooth (A := RA)) (x :: xs) (mkLPF2 (A := RA) x x x x (f2_k f) (f2_a1 f) (f2_a2 f) (2 * f2_k f) false))) in *. clearbody ys.
  assert (Y0 : nth 0 ys 0 = x) by (change (F RA) with R in *; rewrite Q0; replace (f2_a2 f) with (4 * f2_k f - 1 - f2_a1 f) by lra; ops; ring).
  unfold ago. change (F RA) with R in *. destruct k as [|[|k]].
  - cbn [Nat.add nth Nat.eqb Nat.sub] in *. rewrite Q. ring.
  - cbn [Nat.add nth Nat.eqb Nat.sub] in *. change (F RA) with R in *. rewrite Q, Y0. ring.
  - replace (S (S k) - 0)%nat with (S (S k)) by lia. replace (S (S k) - 1)%nat with (S k) by lia. replace (S (S k) - 2)%nat with k by lia.
    replace (S (S k) + 2)%nat with (S (S (S (S k)))) in Q by lia. replace (S (S k) + 1)%nat with (S (S (S k))) in Q by lia.
    change (nth (S (S (S (S k)))) (x :: x :: ys) 0) with (nth (S (S k)) ys 0) in Q.
    change (nth (S (S (S k))) (x :: x :: ys) 0) with (nth (S k) ys 0) in Q.
    change (nth (S (S k)) (x :: x :: ys) 0) with (nth k ys 0) in Q.
    change (nth (S (S (S (S k)))) (x :: x :: x :: xs) 0) with (nth (S (S k)) (x :: xs) 0) in Q.
    change (nth (S (S (S k))) (x :: x :: x :: xs) 0) with (nth (S k) (x :: xs) 0) in Q.
    change (nth (S (S k)) (x :: x :: x :: xs) 0) with (nth k (x :: xs) 0) in Q.
    change ((S (S k) =? 0)%nat) with false. cbv iota. rewrite Q. ring.
Qed.
