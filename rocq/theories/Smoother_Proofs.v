From Coq Require Import ZArith List Bool Lia Reals Lra.
From Verif Require Import Base BaseLemmas Arith ArithLemmas Tdl_Model Ltisys_Model Ltisys_Spec Ltisys_Proofs Ltisys_Proofs2 Smoother_Model Smoother_Spec.
Import ListNotations.
Open Scope R_scope.

Lemma tab_length n f : length (tabulate n f) = n.
Proof. unfold tabulate. now rewrite map_length, seq_length. Qed.
Lemma tab_nth n f k d : (k < n)%nat -> nth k (tabulate n f) d = f k.
Proof.
  intros H. unfold tabulate. rewrite (nth_indep _ d (f O)) by (rewrite map_length, seq_length; lia).
  rewrite map_nth, seq_nth by lia. reflexivity.
Qed.
Lemma eq_tabulate (l : list R) n f : length l = n -> (forall k, (k < n)%nat -> nth k l 0 = f k) -> l = tabulate n f.
Proof.
  intros L H. apply nth_ext with (d := 0) (d' := 0); [now rewrite tab_length|].
  intros k Hk. rewrite L in Hk. rewrite tab_nth by auto. auto.
Qed.

Lemma feed_length {A : arith} {S} (step : F A -> S -> F A * S) xs : forall f, length (fst (feed step xs f)) = length xs.
Proof.
  induction xs as [|x xs IH]; intros f; cbn [feed]; [reflexivity|].
  destruct (step x f) as [y f1]. specialize (IH f1). destruct (feed step xs f1) as [ys f2]. cbn in *. lia.
Qed.
Lemma feed_cons {A : arith} {S} (step : F A -> S -> F A * S) x xs f :
  feed step (x :: xs) f = (fst (step x f) :: fst (feed step xs (snd (step x f))), snd (feed step xs (snd (step x f)))).
Proof. cbn [feed]. destruct (step x f) as [y f1]. cbn. destruct (feed step xs f1). reflexivity. Qed.
Lemma feed_app {A : arith} {S} (step : F A -> S -> F A * S) xs ys f :
  feed step (xs ++ ys) f = (fst (feed step xs f) ++ fst (feed step ys (snd (feed step xs f))), snd (feed step ys (snd (feed step xs f)))).
Proof.
  revert f; induction xs as [|x xs IH]; intros f; [cbn; now destruct (feed step ys f)|].
  rewrite <- app_comm_cons, !feed_cons, IH. reflexivity.
Qed.
(** A property of the state gives a property of the outputs. *)
Lemma feed_inv {A : arith} {S} (step : F A -> S -> F A * S) (I : S -> Prop) (P Q : F A -> Prop) :
  (forall x f, P x -> I f -> I (snd (step x f)) /\ Q (fst (step x f))) ->
  forall xs f, Forall P xs -> I f -> I (snd (feed step xs f)) /\ Forall Q (fst (feed step xs f)).
Proof.
  intros H xs. induction xs as [|x xs IH]; intros f HP HI; [cbn; auto|].
  rewrite feed_cons. cbn [fst snd]. inversion_clear HP as [|? ? Hx Hxs].
  destruct (H x f Hx HI) as [HI1 HQ]. destruct (IH _ Hxs HI1). auto.
Qed.

Ltac ra := repeat match goal with |- context [lit (a := RA) ?n ?d] => change (lit (a := RA) n d) with (IZR n / IZR (Zpos d)) end; ops.

Lemma conv_cons (g : nat -> R) x (xs : list R) k :
  sum (S (S k)) (fun i => g i * nth (S k - i) (x :: xs) 0) = sum (S k) (fun i => g i * nth (k - i) xs 0) + g (S k) * x.
Proof.
  change (sum (S (S k)) (fun i => g i * nth (S k - i) (x :: xs) 0)) with
    (sum (S k) (fun i => g i * nth (S k - i) (x :: xs) 0) + g (S k) * nth (S k - S k) (x :: xs) 0).
  rewrite Nat.sub_diag. f_equal. apply sum_ext. intros i Hi. replace (S k - i)%nat with (S (k - i)) by lia. reflexivity.
Qed.

(** ** LPF1 *)

Lemma lpf1_step a (x y : R) : lpf1_smooth (A := RA) x (mkLPF1 (A := RA) a y false) =
  ((1 - a) * x + a * y, mkLPF1 (A := RA) a ((1 - a) * x + a * y) false).
Proof. unfold lpf1_smooth. cbn [f1_init f1_alpha f1_y1]. ops. replace (x + a * (y - x)) with ((1 - a) * x + a * y) by ring. reflexivity. Qed.

Lemma lpf1_first (x : R) (f : lpf1 RA) : f1_init f = true ->
  lpf1_smooth (A := RA) x f = lpf1_smooth (A := RA) x (mkLPF1 (A := RA) (f1_alpha f) x false).
Proof. intros H. unfold lpf1_smooth. rewrite H. reflexivity. Qed.

Lemma lpf1_closed a (xs : list (F RA)) : forall (y : R) k, (k < length xs)%nat ->
  nth k (fst (feed (lpf1_smooth (A := RA)) xs (mkLPF1 (A := RA) a y false))) 0 =
    a ^ S k * y + sum (S k) (fun i => (1 - a) * a ^ i * nth (k - i) xs 0).
Proof.
  induction xs as [|x xs IH]; intros y k Hk; [cbn in Hk; lia|].
  rewrite feed_cons, lpf1_step. cbn [fst snd]. destruct k.
  - cbn. ops. ring.
  - cbn [length] in Hk. etransitivity; [apply IH; lia|]. change (F RA) with R in *.
    rewrite (conv_cons (fun i => (1 - a) * a ^ i)). cbn [pow]. ring.
Qed.

Lemma lpf1_lowpass (f : lpf1 RA) (xs : list (F RA)) : f1_init f = true ->
  fst (feed (lpf1_smooth (A := RA)) xs f) = tabulate (length xs) (lowpass (f1_alpha f) xs).
Proof.
  intros H. apply eq_tabulate; [apply (feed_length (A := RA))|]. intros k Hk.
  destruct xs as [|x xs]; [cbn in Hk; lia|].
  rewrite feed_cons, lpf1_first by auto. rewrite <- feed_cons. etransitivity; [apply lpf1_closed; auto|].
  unfold lowpass. cbn [sum]. rewrite Nat.sub_diag. cbn [nth pow]. ops. ring.
Qed.

Lemma lpf1_hull (f : lpf1 RA) (xs : list (F RA)) (lo hi : R) : 0 <= f1_alpha f <= 1 ->
  f1_init f = true \/ lo <= f1_y1 f <= hi -> Forall (fun x : F RA => lo <= x <= hi) xs ->
  Forall (fun y : F RA => lo <= y <= hi) (fst (feed (lpf1_smooth (A := RA)) xs f)).
Proof.
  intros Ha Hi Hx.
  apply (feed_inv (lpf1_smooth (A := RA)) (fun f : lpf1 RA => 0 <= f1_alpha f <= 1 /\ (f1_init f = true \/ lo <= f1_y1 f <= hi)) (fun x => lo <= x <= hi)); auto.
  clear. intros x f Hx [Ha Hi].
  assert (E : exists y : R, lo <= y <= hi /\ lpf1_smooth x f = lpf1_smooth (A := RA) x (mkLPF1 (A := RA) (f1_alpha f) y false)).
  { destruct (f1_init f) eqn:I.
    - exists x. split; auto. now apply lpf1_first.
    - destruct Hi as [Hi|Hi]; [discriminate|]. exists (f1_y1 f). split; auto. destruct f; cbn in *; subst; reflexivity. }
  destruct E as (y & Hy & E). rewrite E, lpf1_step. cbn [fst snd f1_alpha f1_y1 f1_init]. ops.
  assert (lo <= (1 - f1_alpha f) * x + f1_alpha f * y <= hi) by nra. auto.
Qed.

(** Two runs on the same samples differ by a geometrically vanishing amount. *)
Lemma lpf1_forgets a (y y' : R) (xs : list (F RA)) k : (k < length xs)%nat ->
  nth k (fst (feed (lpf1_smooth (A := RA)) xs (mkLPF1 (A := RA) a y false))) 0 -
  nth k (fst (feed (lpf1_smooth (A := RA)) xs (mkLPF1 (A := RA) a y' false))) 0 = a ^ S k * (y - y').
Proof. intros H. rewrite !lpf1_closed by auto. ring. Qed.

(** ** EXPW *)

Lemma expw_step lam (x m w : R) : lam * w + 1 <> 0 ->
  expw_smooth (A := RA) x (mkEXPW (A := RA) lam m w false) =
    ((lam * (w * m) + x) / (lam * w + 1), mkEXPW (A := RA) lam ((lam * (w * m) + x) / (lam * w + 1)) (lam * w + 1) false).
Proof.
  intros H. unfold expw_smooth. cbn [e_init e_lambda e_m e_w]. ra.
  replace (lam * w + 1 / 1) with (lam * w + 1) by field.
  replace (m * (1 / 1 - 1 / 1 / (lam * w + 1)) + 1 / 1 / (lam * w + 1) * x) with ((lam * (w * m) + x) / (lam * w + 1)) by (field; auto).
  reflexivity.
Qed.
Lemma expw_first (x : R) (f : expw RA) : e_init f = true ->
  expw_smooth (A := RA) x f = expw_smooth (A := RA) x (mkEXPW (A := RA) (e_lambda f) x 1 false).
Proof. intros H. unfold expw_smooth. rewrite H. cbn [e_init e_lambda e_m e_w]. ra. replace (1 / 1) with 1 by field. reflexivity. Qed.

Lemma discount_S lam n : discount lam (S n) = 1 + lam * discount lam n.
Proof.
  unfold discount. rewrite sum_first. cbn [pow]. rewrite <- sum_scal. f_equal.
Qed.
Lemma discount_pos lam n : 0 < lam -> 0 <= discount lam n.
Proof. intros H. unfold discount. induction n; cbn; [lra|]. pose proof (pow_lt lam n H). lra. Qed.

Lemma expw_closed lam (xs : list (F RA)) : 0 < lam -> forall (m w : R) k, 0 < w -> (k < length xs)%nat ->
  nth k (fst (feed (expw_smooth (A := RA)) xs (mkEXPW (A := RA) lam m w false))) 0 =
    (lam ^ S k * (w * m) + discounted lam xs k) / (lam ^ S k * w + discount lam (S k)).
Proof.
  intros L. induction xs as [|x xs IH]; intros m w k Hw Hk; [cbn in Hk; lia|].
  assert (0 < lam * w) by (apply Rmult_lt_0_compat; auto).
  rewrite feed_cons, expw_step by lra. cbn [fst snd]. destruct k.
  - cbn. ops. f_equal; [ring|f_equal; ring].
  - cbn [length] in Hk. etransitivity; [apply IH; [lra|lia]|]. change (F RA) with R in *.
    replace ((lam * w + 1) * ((lam * (w * m) + x) / (lam * w + 1))) with (lam * (w * m) + x) by (field; lra).
    f_equal.
    + unfold discounted. rewrite (conv_cons (fun i => lam ^ i)). cbn [pow]. ring.
    + change (discount lam (S (S k))) with (discount lam (S k) + lam ^ S k). cbn [pow]. ring.
Qed.

Lemma expw_mean (f : expw RA) (xs : list (F RA)) : e_init f = true -> 0 < e_lambda f ->
  fst (feed (expw_smooth (A := RA)) xs f) =
    tabulate (length xs) (fun k => (discounted (e_lambda f) xs k + e_lambda f ^ S k * nth 0 xs 0) / discount (e_lambda f) (S (S k))).
Proof.
  intros H L. apply eq_tabulate; [apply (feed_length (A := RA))|]. intros k Hk.
  destruct xs as [|x xs]; [cbn in Hk; lia|].
  rewrite feed_cons, expw_first by auto. rewrite <- feed_cons. etransitivity; [apply expw_closed; auto; lra|].
  cbn [nth]. f_equal; [ring|]. change (discount (e_lambda f) (S (S k))) with (discount (e_lambda f) (S k) + e_lambda f ^ S k). ops. ring.
Qed.

Lemma convex (lo hi x y p q : R) : lo <= x <= hi -> lo <= y <= hi -> 0 <= p -> 0 < q -> lo <= (p * y + q * x) / (p + q) <= hi.
Proof.
  intros Hx Hy Hp Hq. split.
  - apply Rmult_le_reg_r with (p + q); [lra|]. unfold Rdiv. rewrite Rmult_assoc, Rinv_l by lra. nra.
  - apply Rmult_le_reg_r with (p + q); [lra|]. unfold Rdiv. rewrite Rmult_assoc, Rinv_l by lra. nra.
Qed.

Lemma expw_hull (f : expw RA) (xs : list (F RA)) (lo hi : R) : 0 < e_lambda f ->
  e_init f = true \/ (0 < e_w f /\ lo <= e_m f <= hi) -> Forall (fun x : F RA => lo <= x <= hi) xs ->
  Forall (fun y : F RA => lo <= y <= hi) (fst (feed (expw_smooth (A := RA)) xs f)).
Proof.
  intros Ha Hi Hx.
  apply (feed_inv (expw_smooth (A := RA)) (fun f : expw RA => 0 < e_lambda f /\ (e_init f = true \/ (0 < e_w f /\ lo <= e_m f <= hi))) (fun x => lo <= x <= hi)); auto.
  clear. intros x f Hx [Ha Hi].
  assert (E : exists y w : R, 0 < w /\ lo <= y <= hi /\ expw_smooth x f = expw_smooth (A := RA) x (mkEXPW (A := RA) (e_lambda f) y w false)).
  { destruct (e_init f) eqn:I.
    - exists x, 1. split; [lra|]. split; auto. now apply expw_first.
    - destruct Hi as [Hi|[Hw Hi]]; [discriminate|]. exists (e_m f), (e_w f). repeat split; auto; try apply Hi. destruct f; cbn in *; subst; reflexivity. }
  destruct E as (y & w & Hw & Hy & E). assert (0 < e_lambda f * w) by (apply Rmult_lt_0_compat; auto).
  rewrite E, expw_step by (ops; lra). cbn [fst snd e_lambda e_m e_w e_init].
  assert (B : lo <= (e_lambda f * (w * y) + x) / (e_lambda f * w + 1) <= hi).
  { replace (e_lambda f * (w * y) + x) with ((e_lambda f * w) * y + 1 * x) by (ops; ring). apply convex; auto; lra. }
  split; auto. split; auto. right. split; auto. ops. lra.
Qed.

(** ** KLMN *)

Lemma klmn_step (q r p g s x : R) : 0 < q -> 0 < r -> 0 < p ->
  klmn_smooth (A := RA) x (mkKLMN (A := RA) s 1 1 q r p g false) =
    ((r * s + (p + q) * x) / (r + (p + q)),
     mkKLMN (A := RA) ((r * s + (p + q) * x) / (r + (p + q))) 1 1 q r ((p + q) / (r + (p + q)) * r) ((p + q) / (r + (p + q))) false).
Proof.
  intros Hq Hr Hp. unfold klmn_smooth. cbn [k_init k_x k_A k_H k_q k_r k_p]. ra.
  replace ((1 * 1 * p + q) * 1) with (p + q) by ring. replace (r + 1 * (p + q)) with (r + (p + q)) by ring.
  replace (1 * s + (p + q) / (r + (p + q)) * (x - 1 * (1 * s))) with ((r * s + (p + q) * x) / (r + (p + q))) by (field; lra).
  replace ((1 / 1 - (p + q) / (r + (p + q)) * 1) * (1 * 1 * p + q)) with ((p + q) / (r + (p + q)) * r) by (field; lra).
  reflexivity.
Qed.
Lemma klmn_first (x : R) (f : klmn RA) : k_init f = true ->
  klmn_smooth (A := RA) x f = klmn_smooth (A := RA) x (mkKLMN (A := RA) x (k_A f) (k_H f) (k_q f) (k_r f) (k_p f) (k_gain f) false).
Proof. intros H. unfold klmn_smooth. rewrite H. reflexivity. Qed.

(** What every reachable Kalman smoother satisfies. *)
Definition klmn_ok (f : klmn RA) : Prop := k_A f = 1 /\ k_H f = 1 /\ 0 < k_q f /\ 0 < k_r f /\ 0 < k_p f.

Lemma klmn_norm (x : R) (f : klmn RA) : klmn_ok f ->
  exists s : R, (if k_init f then s = x else s = k_x f) /\
    klmn_smooth (A := RA) x f = klmn_smooth (A := RA) x (mkKLMN (A := RA) s 1 1 (k_q f) (k_r f) (k_p f) (k_gain f) false).
Proof.
  intros (HA & HH & Hq & Hr & Hp). destruct (k_init f) eqn:I.
  - exists x. split; auto. rewrite klmn_first by auto. rewrite HA, HH. reflexivity.
  - exists (k_x f). split; auto. destruct f; cbn in *. subst. reflexivity.
Qed.

Lemma ratio01 (a b : R) : 0 < a -> 0 < b -> 0 < a / (b + a) < 1.
Proof.
  intros. split; [apply Rdiv_lt_0_compat; lra|].
  apply Rmult_lt_reg_r with (b + a); [lra|]. unfold Rdiv. rewrite Rmult_assoc, Rinv_l by lra. lra.
Qed.

Lemma klmn_keeps (x : R) (f : klmn RA) : klmn_ok f -> klmn_ok (snd (klmn_smooth (A := RA) x f)) /\
  k_gain (snd (klmn_smooth (A := RA) x f)) = (k_p f + k_q f) / (k_r f + (k_p f + k_q f)) /\
  k_p (snd (klmn_smooth (A := RA) x f)) = k_gain (snd (klmn_smooth (A := RA) x f)) * k_r f /\
  k_q (snd (klmn_smooth (A := RA) x f)) = k_q f /\ k_r (snd (klmn_smooth (A := RA) x f)) = k_r f /\
  k_init (snd (klmn_smooth (A := RA) x f)) = false.
Proof.
  intros H. destruct (klmn_norm x f H) as (s & _ & E). rewrite E. destruct H as (HA & HH & Hq & Hr & Hp).
  rewrite klmn_step by auto. cbn [snd k_gain k_p k_q k_r k_init]. ops.
  split; [|repeat split]. unfold klmn_ok. cbn [k_A k_H k_q k_r k_p]. repeat split; auto.
  apply Rmult_lt_0_compat; auto. apply ratio01; auto. lra.
Qed.

Lemma klmn_hull (f : klmn RA) (xs : list (F RA)) (lo hi : R) : klmn_ok f ->
  k_init f = true \/ lo <= k_x f <= hi -> Forall (fun x : F RA => lo <= x <= hi) xs ->
  Forall (fun y : F RA => lo <= y <= hi) (fst (feed (klmn_smooth (A := RA)) xs f)).
Proof.
  intros Ha Hi Hx.
  apply (feed_inv (klmn_smooth (A := RA)) (fun f : klmn RA => klmn_ok f /\ (k_init f = true \/ lo <= k_x f <= hi)) (fun x => lo <= x <= hi)); auto.
  clear. intros x f Hx [Ha Hi]. destruct (klmn_norm x f Ha) as (s & Hs & E).
  pose proof (klmn_keeps x f Ha) as (K & _). split; [split; [exact K|]|]; rewrite E; destruct Ha as (HA & HH & Hq & Hr & Hp); rewrite klmn_step by auto; cbn [fst snd k_x].
  - right. assert (lo <= s <= hi). { destruct (k_init f); [subst; auto|]. destruct Hi; [discriminate|]. subst; auto. }
    apply convex; auto; ops; lra.
  - assert (lo <= s <= hi). { destruct (k_init f); [subst; auto|]. destruct Hi; [discriminate|]. subst; auto. }
    apply convex; auto; ops; lra.
Qed.

Lemma klmn_run_ok (f : klmn RA) (xs : list (F RA)) : klmn_ok f -> klmn_ok (snd (feed (klmn_smooth (A := RA)) xs f)).
Proof.
  intros H. apply (feed_inv (klmn_smooth (A := RA)) klmn_ok (fun _ => True) (fun _ => True)); auto.
  - intros x g _ Hg. split; auto. apply klmn_keeps; auto.
  - apply Forall_forall. auto.
Qed.
