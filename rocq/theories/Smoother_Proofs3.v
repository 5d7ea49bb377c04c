(** The smoothers that keep a window of samples. *)
From Coq Require Import ZArith List Bool Lia Reals Lra.
From Verif Require Import Base BaseLemmas Arith ArithLemmas Tdl_Model Tdl_Proofs Ltisys_Model Ltisys_Spec Ltisys_Proofs Ltisys_Proofs2 Smoother_Model Smoother_Spec Smoother_Proofs.
Import ListNotations.
Open Scope R_scope.

(** ** Sliding windows *)

Fixpoint slide (w xs : list R) : list (list R) :=
  match xs with [] => [] | x :: r => (x :: removelast w) :: slide (x :: removelast w) r end.

Lemma removelast_length {B} (w : list B) : length (removelast w) = (length w - 1)%nat.
Proof. rewrite removelast_firstn_len, firstn_length. lia. Qed.

Lemma nth_removelast (w : list R) i d : (S i < length w)%nat -> nth i (removelast w) d = nth i w d.
Proof.
  intros H. destruct (exists_last (l := w)) as (l & y & ->); [destruct w; [cbn in H; lia|discriminate]|].
  rewrite removelast_last. symmetry. apply app_nth1. rewrite app_length in H. cbn in H. lia.
Qed.

Lemma slide_nth n xs : forall w k, length w = n -> (1 <= n)%nat -> (k < length xs)%nat ->
  nth k (slide w xs) [] = tabulate n (fun i => if (i <=? k)%nat then nth (k - i) xs 0 else nth (i - k - 1) w 0).
Proof.
  induction xs as [|x xs IH]; intros w k L Hn Hk; [cbn in Hk; lia|]. cbn [slide].
  destruct k.
  - change (x :: removelast w = tabulate n (fun i => if (i <=? 0)%nat then nth (0 - i) (x :: xs) 0 else nth (i - 0 - 1) w 0)).
    apply eq_tabulate; [cbn [length]; rewrite removelast_length; lia|].
    intros i Hi. destruct i; [reflexivity|]. rewrite (proj2 (Nat.leb_gt (S i) 0)) by lia.
    replace (S i - 0 - 1)%nat with i by lia. apply (nth_removelast w i 0). lia.
  - change (nth k (slide (x :: removelast w) xs) [] = tabulate n (fun i => if (i <=? S k)%nat then nth (S k - i) (x :: xs) 0 else nth (i - S k - 1) w 0)).
    rewrite IH; [|cbn [length]; rewrite removelast_length; lia|auto|cbn [length] in Hk; lia].
    apply eq_tabulate; [apply tab_length|]. intros i Hi. rewrite tab_nth by auto.
    destruct (Nat.leb_spec i k).
    + rewrite (proj2 (Nat.leb_le i (S k))) by lia. replace (S k - i)%nat with (S (k - i)) by lia. reflexivity.
    + destruct (Nat.eq_dec i (S k)) as [->|].
      * rewrite Nat.leb_refl, Nat.sub_diag. replace (S k - k - 1)%nat with O by lia. reflexivity.
      * rewrite (proj2 (Nat.leb_gt i (S k))) by lia. replace (i - k - 1)%nat with (S (i - S k - 1)) by lia.
        apply (nth_removelast w (i - S k - 1) 0). lia.
Qed.

Lemma nth_rep (x : R) n i : (i < n)%nat -> nth i (repeat x n) 0 = x.
Proof. intros. rewrite (nth_indep _ 0 x) by (rewrite repeat_length; auto). apply nth_repeat. Qed.

(** A window that starts full of the first sample. *)
Lemma slide_start n x xs k : (1 <= n)%nat -> (k < S (length xs))%nat ->
  nth k (slide (repeat x n) (x :: xs)) [] = tabulate n (ago (x :: xs) k).
Proof.
  intros Hn Hk. rewrite (slide_nth n); auto; [|apply repeat_length].
  apply eq_tabulate; [apply tab_length|]. intros i Hi. rewrite tab_nth by auto. unfold ago.
  destruct (Nat.leb_spec i k); [reflexivity|]. replace (k - i)%nat with O by lia. apply nth_rep. lia.
Qed.

Lemma slide_length w xs : length (slide w xs) = length xs.
Proof. revert w; induction xs; intros w; cbn; auto. Qed.

Lemma map_slide_start {B} n (g : list R -> B) x xs : (1 <= n)%nat ->
  map g (slide (repeat x n) (x :: xs)) = map (fun k => g (tabulate n (ago (x :: xs) k))) (seq 0 (length (x :: xs))).
Proof.
  intros Hn. apply nth_ext with (d := g []) (d' := g (tabulate n (ago (x :: xs) 0))).
  - rewrite !map_length, seq_length. apply slide_length.
  - intros k Hk. rewrite map_length, slide_length in Hk. rewrite map_nth.
    rewrite (map_nth (fun k => g (tabulate n (ago (x :: xs) k)))). rewrite seq_nth by auto. cbn [Nat.add].
    f_equal. apply slide_start; auto.
Qed.

Definition total (l : list R) : R := fold_right Rplus 0 l.

Lemma total_app l r : total (l ++ r) = total l + total r.
Proof.
  induction l as [|x l IH]; [unfold total; cbn; lra|].
  change (total ((x :: l) ++ r)) with (x + total (l ++ r)). change (total (x :: l)) with (x + total l). lra.
Qed.
Lemma total_sum (l : list R) : total l = sum (length l) (fun i => nth i l 0).
Proof.
  induction l as [|x l IH]; [reflexivity|]. cbn [length]. rewrite sum_first.
  change (total (x :: l)) with (x + total l). rewrite IH. reflexivity.
Qed.
Lemma total_tab n f : total (tabulate n f) = sum n f.
Proof. rewrite total_sum, tab_length. apply sum_ext. intros i Hi. now apply tab_nth. Qed.
Lemma total_repeat x n : total (repeat x n) = x * INR n.
Proof. induction n; [cbn; lra|]. rewrite S_INR. change (total (repeat x (S n))) with (x + total (repeat x n)). rewrite IHn. lra. Qed.
Lemma total_slide x w : w <> [] -> total (x :: removelast w) = total w + (x - last w 0).
Proof.
  intros H. rewrite (app_removelast_last 0 H) at 2. rewrite total_app. unfold total. cbn. lra.
Qed.

Lemma last_nth (w : list R) : last w 0 = nth (length w - 1) w 0.
Proof.
  destruct w as [|x w]; [reflexivity|]. destruct (exists_last (l := x :: w)) as (l & y & E); [discriminate|]. rewrite E.
  rewrite last_last, app_length. cbn [length]. replace (length l + 1 - 1)%nat with (length l) by lia.
  rewrite app_nth2, Nat.sub_diag by lia. reflexivity.
Qed.

Lemma feed_res_cons {A : arith} {S} (step : F A -> S -> res (F A * S)) x xs f y f1 ys f2 :
  step x f = Ok (y, f1) -> feed_res step xs f1 = Ok (ys, f2) -> feed_res step (x :: xs) f = Ok (y :: ys, f2).
Proof. intros H H1. cbn [feed_res]. rewrite H. cbn [bind fst snd]. rewrite H1. reflexivity. Qed.

(** ** MWM2 *)

Definition mwm2_ok (m : list R) (n : nat) (f : mwm2 RA) : Prop :=
  exists t h, m2_line f = Some t /\ tinv (A := R) m (Z.of_nat n) h t /\ (m2_init f = true \/ m2_sum f = total h).

Lemma tinv_step (m : list R) n h t x : (1 <= n)%nat -> tinv m (Z.of_nat n) h t ->
  getOldest t = Ok (last h 0) /\ exists t', insertSample t x = Ok t' /\ tinv m (Z.of_nat n) (x :: removelast h) t'.
Proof.
  intros Hn T. assert (L : length h = n). { destruct T as (_ & _ & _ & _ & _ & _ & H & _). unfold zlen in H. lia. }
  split.
  - rewrite (getOldest_ok m _ h t T). replace (Z.of_nat n - 1)%Z with (Z.of_nat (n - 1)) by lia.
    rewrite (get_nth 0) by lia. rewrite last_nth, L. reflexivity.
  - destruct (insertSample_ok m _ h t x T) as (t' & E & T'). exists t'. split; auto.
    rewrite Nat2Z.id, last_firstn_cons in T' by auto. exact T'.
Qed.

Lemma mwm2_step m n (x : R) (t : tdl R) h (s : R) : (1 <= n)%nat -> tinv m (Z.of_nat n) h t -> s = total h ->
  exists t', mwm2_smooth (A := RA) x (mkMWM2 (A := RA) (Some t) s false) =
    Ok (total (x :: removelast h) / INR n, mkMWM2 (A := RA) (Some t') (total (x :: removelast h)) false) /\ tinv m (Z.of_nat n) (x :: removelast h) t'.
Proof.
  intros Hn T Hs. destruct (tinv_step m n h t x Hn T) as (O & t' & E & T').
  assert (L : length h = n) by (destruct T as (_ & _ & _ & _ & _ & _ & H & _); unfold zlen in H; lia).
  assert (C : itemCount t = Z.of_nat n) by (destruct T as (_ & _ & H & _); exact H).
  exists t'. split; auto. unfold mwm2_smooth. cbn [m2_line m2_init m2_sum bind].
  change (F RA) with R in *. rewrite O. cbn [bind]. rewrite E. cbn [bind]. rewrite C.
  unfold ofsize. change (lit (a := RA) (Z.of_nat n) 1) with (IZR (Z.of_nat n) / 1). rewrite <- INR_IZR_INZ.
  rewrite total_slide by (destruct h; [cbn in L; lia|discriminate]). rewrite Hs. ops.
  replace (INR n / 1) with (INR n) by field. reflexivity.
Qed.

Lemma mwm2_run m n : (1 <= n)%nat -> forall (xs : list (F RA)) (t : tdl R) h (s : R), tinv m (Z.of_nat n) h t -> s = total h ->
  exists f', feed_res (mwm2_smooth (A := RA)) xs (mkMWM2 (A := RA) (Some t) s false) = Ok (map (fun w => total w / INR n) (slide h xs), f') /\ mwm2_ok m n f'.
Proof.
  intros Hn xs. induction xs as [|x xs IH]; intros t h s T Hs.
  - eexists. split; [reflexivity|]. exists t, h. auto.
  - destruct (mwm2_step m n x t h s Hn T Hs) as (t' & E & T'). destruct (IH t' _ _ T' eq_refl) as (f' & E' & K).
    exists f'. split; auto. cbn [slide map]. eapply (feed_res_cons (A := RA)); [exact E|exact E'].
Qed.

Lemma mwm2_first m n (x : R) (f : mwm2 RA) : (1 <= n)%nat -> mwm2_ok m n f -> m2_init f = true ->
  exists t0, mwm2_smooth (A := RA) x f = mwm2_smooth (A := RA) x (mkMWM2 (A := RA) (Some t0) (total (repeat x n)) false) /\
    tinv m (Z.of_nat n) (repeat x n) t0.
Proof.
  intros Hn (t & h & E & T & _) I.
  pose proof T as (H1 & H2 & H3 & _ & _ & _ & _ & _ & H9).
  destruct (flush_ok m (Z.of_nat n) x t H1 H2 H3 H9) as (t0 & F0 & T0). rewrite Nat2Z.id in T0.
  exists t0. split; auto. unfold mwm2_smooth. rewrite E, I. cbn [m2_line m2_init m2_sum]. change (F RA) with R. rewrite F0. cbn [bind].
  assert (C : itemCount t0 = Z.of_nat n) by (destruct T0 as (_ & _ & H & _); exact H). rewrite H3, C.
  rewrite total_repeat. unfold ofsize. change (lit (a := RA) (Z.of_nat n) 1) with (IZR (Z.of_nat n) / 1). rewrite <- INR_IZR_INZ.
  replace (INR n / 1) with (INR n) by field. reflexivity.
Qed.

Lemma mwm2_any m n (xs : list (F RA)) (f : mwm2 RA) : (1 <= n)%nat -> mwm2_ok m n f ->
  exists ys f', feed_res (mwm2_smooth (A := RA)) xs f = Ok (ys, f') /\ mwm2_ok m n f' /\
    (m2_init f = true -> ys = tabulate (length xs) (moving_mean n xs)).
Proof.
  intros Hn K. destruct xs as [|x xs].
  - exists [], f. repeat split; auto.
  - destruct (m2_init f) eqn:I.
    + destruct (mwm2_first m n x f Hn K I) as (t0 & E & T0).
      destruct (mwm2_run m n Hn (x :: xs) t0 (repeat x n) _ T0 eq_refl) as (f' & E' & K').
      exists (map (fun w => total w / INR n) (slide (repeat x n) (x :: xs))), f'. split; [|split; auto].
      * cbn [feed_res]. rewrite E. cbn [feed_res] in E'. exact E'.
      * intros _. rewrite map_slide_start by auto. unfold tabulate at 2. apply map_ext. intros k. unfold moving_mean. f_equal. apply total_tab.
    + destruct K as (t & h & E & T & [Hi|Hs]); [congruence|].
      destruct (mwm2_run m n Hn (x :: xs) t h _ T Hs) as (f' & E' & K').
      exists (map (fun w => total w / INR n) (slide h (x :: xs))), f'. split; [|split; auto; discriminate].
      etransitivity; [|exact E']. f_equal. destruct f; cbn in *; subst; reflexivity.
Qed.

(** ** Arrays *)

Lemma skipn_skipn {B} (l : list B) i j : skipn i (skipn j l) = skipn (i + j) l.
Proof. revert l; induction j; intros l; [now rewrite Nat.add_0_r|]. rewrite Nat.add_succ_r. destruct l; [now rewrite !skipn_nil|]. apply IHj. Qed.

Lemma windowSet_loop_ok (x : R) k : forall i (w : list R), (i + k <= length w)%nat ->
  windowSet_loop (A := RA) k (Z.of_nat i) x w = Ok (firstn i w ++ repeat x k ++ skipn (i + k) w).
Proof.
  induction k; intros i w H.
  - cbn [windowSet_loop repeat]. rewrite Nat.add_0_r. change (app [] (skipn i w)) with (skipn i w). rewrite firstn_skipn. reflexivity.
  - cbn [windowSet_loop]. change (F RA) with R. rewrite set_nth by lia. cbn [bind]. replace (Z.of_nat i + 1)%Z with (Z.of_nat (S i)) by lia.
    rewrite IHk by (rewrite upd_length; lia). f_equal. rewrite upd_split by lia.
    replace (S i) with (length (firstn i w ++ [x])) at 1 by (rewrite app_length, firstn_length; cbn; lia).
    replace (firstn i w ++ x :: skipn (S i) w) with ((firstn i w ++ [x]) ++ skipn (S i) w) by (rewrite <- app_assoc; reflexivity).
    rewrite firstn_app, Nat.sub_diag, firstn_O, app_nil_r, firstn_all. rewrite <- app_assoc. f_equal. cbn [app repeat]. f_equal. f_equal.
    rewrite skipn_app, (skipn_all2 (firstn i w ++ [x])) by (rewrite app_length, firstn_length; cbn; lia).
    rewrite app_nil_l, app_length, firstn_length, skipn_skipn. cbn [length]. f_equal. lia.
Qed.
Lemma windowSet_ok (x : R) n (w : list R) : (n <= length w)%nat ->
  windowSet (A := RA) w (Z.of_nat n) x = Ok (repeat x n ++ skipn n w).
Proof. intros H. unfold windowSet. rewrite Nat2Z.id. apply (windowSet_loop_ok x n 0 w). auto. Qed.

Lemma firstn_rep (x : R) n w : firstn n (repeat x n ++ w) = repeat x n.
Proof. rewrite <- (repeat_length x n) at 1. rewrite firstn_app, Nat.sub_diag, firstn_O, app_nil_r. apply firstn_all. Qed.
Lemma rep_length (x : R) n (w : list R) : (n <= length w)%nat -> length (repeat x n ++ skipn n w) = length w.
Proof. intros. rewrite app_length, repeat_length, skipn_length. lia. Qed.

(** The first [n] elements of the array after a FIR update. *)
Lemma shifted n (x : R) (w : list R) : (1 <= n <= length w)%nat ->
  firstn n (x :: firstn (n - 1) w ++ skipn n w) = x :: removelast (firstn n w) /\
  length (x :: firstn (n - 1) w ++ skipn n w) = length w.
Proof.
  intros H. destruct n as [|n]; [lia|]. replace (S n - 1)%nat with n by lia. split.
  - change (firstn (S n) (x :: firstn n w ++ skipn (S n) w)) with (x :: firstn n (firstn n w ++ skipn (S n) w)). f_equal.
    rewrite firstn_app, firstn_length. replace (n - Nat.min n (length w))%nat with O by lia.
    rewrite firstn_O, app_nil_r, firstn_firstn, Nat.min_id.
    rewrite removelast_firstn_len, firstn_length. replace (pred (Nat.min (S n) (length w))) with n by lia.
    rewrite firstn_firstn. f_equal. lia.
  - cbn [length]. rewrite app_length, firstn_length, skipn_length. lia.
Qed.

Lemma dot_window n (c w : list R) x : (1 <= n <= length w)%nat ->
  dot n c (x :: w) = sum n (fun i => nth i c 0 * nth i (x :: removelast (firstn n w)) 0).
Proof.
  intros H. apply sum_ext. intros i Hi. f_equal. destruct i; [reflexivity|].
  change (nth i w 0 = nth i (removelast (firstn n w)) 0).
  rewrite (nth_removelast (firstn n w) i 0) by (rewrite firstn_length; lia).
  rewrite <- (firstn_skipn n w) at 1. apply app_nth1. rewrite firstn_length. lia.
Qed.

(** ** GMWF *)

Lemma gauss_loop_ok (l ce r : R) k : forall i (kern : list R) (s : R), (i + k <= length kern)%nat ->
  let v j := exp (- ((INR j - l - ce) * (INR j - l - ce)) / r) in
  gauss_loop (A := RA) k (Z.of_nat i) l ce r kern s = Ok (gloop 0 k i (fun j _ => v j) kern, s + sum k (fun j => v (i + j)%nat)).
Proof.
  induction k; intros i kern s H v; cbn [gauss_loop gloop sum].
  - f_equal. f_equal. ring.
  - change (F RA) with R. rewrite set_nth by lia. cbn [bind]. replace (Z.of_nat i + 1)%Z with (Z.of_nat (S i)) by lia.
    unfold ofsize. change (lit (a := RA) (Z.of_nat i) 1) with (IZR (Z.of_nat i) / 1). rewrite <- INR_IZR_INZ.
    change (fopp (a := RA)) with Ropp. change (o_exp (lib (a := RA))) with exp. ops. replace (INR i / 1) with (INR i) by field.
    rewrite IHk by (rewrite upd_length; lia). f_equal. f_equal.
    change (sum k (fun j => v (i + j)%nat) + v (i + k)%nat) with (sum (S k) (fun j => v (i + j)%nat)). rewrite sum_first.
    rewrite Nat.add_0_r. unfold v. rewrite (sum_ext k _ (fun i0 => exp (- ((INR (i + S i0) - l - ce) * (INR (i + S i0) - l - ce)) / r))).
    + ring.
    + intros j _. replace (S i + j)%nat with (i + S j)%nat by lia. reflexivity.
Qed.

Definition gmwf_ok (c s : R) (n : nat) (f : gmwf RA) : Prop :=
  exists w k : list R, g_w f = Some w /\ g_k f = Some k /\ g_size f = Z.of_nat n /\ (n <= length w)%nat /\ (n <= length k)%nat /\
    forall i, (i < n)%nat -> nth i k 0 = gaussian c s n i.

Lemma gauss_pos c s i : 0 < gauss c s i.
Proof. apply exp_pos. Qed.
Lemma sum_pos n f : (forall i, (i < n)%nat -> 0 < f i) -> (1 <= n)%nat -> 0 < sum n f.
Proof.
  intros H. destruct n; [lia|]. intros _. induction n; cbn [sum]; [pose proof (H O ltac:(lia)); lra|].
  pose proof (H (S n) ltac:(lia)). assert (0 < sum (S n) f) by (apply IHn; intros; apply H; lia). cbn [sum] in H1. lra.
Qed.

Lemma gaussian_pos c s n i : (1 <= n)%nat -> 0 < gaussian c s n i.
Proof. intros H. apply Rdiv_lt_0_compat; [apply gauss_pos|]. apply sum_pos; auto. intros; apply gauss_pos. Qed.
Lemma gaussian_sum c s n : (1 <= n)%nat -> sum n (gaussian c s n) = 1.
Proof.
  intros H. assert (P : 0 < sum n (gauss c s)) by (apply sum_pos; auto; intros; apply gauss_pos).
  unfold gaussian. rewrite (sum_ext n _ (fun i => / sum n (gauss c s) * gauss c s i)) by (intros; unfold Rdiv; ring).
  rewrite sum_scal. field. lra.
Qed.

Lemma gmwf_setup_ok (s c : R) (w kern : list R) n (f0 : gmwf RA) : (1 <= n)%nat -> (n <= length w)%nat -> (n <= length kern)%nat ->
  c < INR n -> 0 < s ->
  exists f, gmwf_setup (A := RA) s c (Some w) kern (Z.of_nat n) f0 = Ok (true, f) /\ gmwf_ok c s n f /\ g_init f = true.
Proof.
  intros Hn Hw Hk Hc Hs. unfold gmwf_setup.
  assert (C : (Z.of_nat n >? 0)%Z && flt (c : F RA) (ofsize (Z.of_nat n)) && flt (lit 0 1) (s : F RA) = true).
  { rewrite (proj2 (Z.gtb_lt _ _)) by lia. cbn [andb]. apply andb_true_iff. unfold ofsize. cbn [flt RA lit]. split; apply Rltb_true.
    - rewrite <- INR_IZR_INZ. unfold Rdiv. rewrite Rinv_1. lra.
    - lra. }
  rewrite C. rewrite !Nat2Z.id. change (F RA) with R in *.
  replace (Z.of_nat n - 1)%Z with (Z.of_nat (n - 1)) by lia.
  match goal with |- context [gauss_loop n 0 ?l ?ce ?r kern ?s0] =>
    pose proof (gauss_loop_ok l ce r n 0 kern s0 ltac:(lia)) as G end. cbv zeta in G. change (Z.of_nat 0) with 0%Z in G.
  change (F RA) with R in *. rewrite G. cbn [bind fst snd]. clear G.
  match goal with |- context [div_loop n 0 ?d ?l] =>
    assert (LL : length l = length kern) by apply gloop_length;
    pose proof (div_loop_ok (A := RA) d n 0 l ltac:(change (F RA) with R; lia)) as D end.
  change (Z.of_nat 0) with 0%Z in D. change (F RA) with R in *. rewrite D. cbn [bind]. clear D.
  eexists. split; [reflexivity|]. split; [|reflexivity].
  exists w. eexists. cbn [g_w g_k g_size]. split; [reflexivity|]. split; [reflexivity|]. split; [reflexivity|]. split; auto.
  split; [rewrite !gloop_length; auto|].
  assert (V : forall j, exp (- ((INR j - ofsize (A := RA) (Z.of_nat (n - 1)) - (fsub (a := RA) c (ofsize (A := RA) (Z.of_nat (n - 1))))) *
       (INR j - ofsize (A := RA) (Z.of_nat (n - 1)) - (fsub (a := RA) c (ofsize (A := RA) (Z.of_nat (n - 1)))))) / (fmul (a := RA) (fmul (a := RA) (lit (a := RA) 2 1) s) s)) = gauss c s j).
  { intros j. unfold gauss. f_equal. change (fsub (a := RA)) with Rminus. change (fmul (a := RA)) with Rmult. change (lit (a := RA) 2 1) with (2 / 1).
    set (q := ofsize (A := RA) (Z.of_nat (n - 1))). change (F RA) with R in *. field. lra. }
  intros i Hi. etransitivity.
  { rewrite (nth_indep _ 0 (lit (a := RA) 0 1)) by (rewrite ?gloop_length; change (F RA) with R in *; rewrite ?gloop_length; lia). apply (gloop_nth (B := R)). rewrite gloop_length. lia. }
  cbn [Nat.add]. rewrite (proj2 (Nat.ltb_lt i n)) by auto. cbn [andb Nat.leb].
  rewrite (nth_indep _ (lit (a := RA) 0 1) 0) by (rewrite ?gloop_length; exact (Nat.lt_le_trans _ _ _ Hi Hk)). rewrite gloop_nth by exact Hk. cbn [Nat.add]. rewrite (proj2 (Nat.ltb_lt i n)) by auto. cbn [andb Nat.leb].
  rewrite V. rewrite (sum_ext n _ (gauss c s)) by (intros; apply V). unfold gaussian. ops. f_equal. ring.
Qed.

Lemma gmwf_run (c s : R) n (kern : list R) : (1 <= n)%nat -> (Z.of_nat n < 2 ^ 64)%Z -> (n <= length kern)%nat ->
  forall (xs : list (F RA)) (w : list R), (n <= length w)%nat ->
  exists w', feed_res (gmwf_smooth (A := RA)) xs (mkGMWF (A := RA) (Some w) (Some kern) (Z.of_nat n) false) =
    Ok (map (fun h => sum n (fun i => nth i kern 0 * nth i h 0)) (slide (firstn n w) xs), mkGMWF (A := RA) (Some w') (Some kern) (Z.of_nat n) false) /\ (n <= length w')%nat.
Proof.
  intros Hn Hb Hk xs. induction xs as [|x xs IH]; intros w Hw.
  - exists w. split; auto.
  - change (F RA) with R in *. destruct (shifted n x w ltac:(lia)) as [S1 S2].
    destruct (IH (x :: firstn (n - 1) w ++ skipn n w)) as (w' & E' & L'); [rewrite S2; auto|].
    exists w'. split; auto. cbn [slide map]. rewrite S1 in E'. eapply (feed_res_cons (A := RA)); [|exact E'].
    unfold gmwf_smooth. cbn [g_w g_init g_size g_k bind]. change (F RA) with R in *.
    pose proof (updateFIR_ok (A := RA) (Some kern) w n x ltac:(change (F RA) with R; lia) Hk ltac:(lia)) as U. change (F RA) with R in *.
    rewrite U. cbn [bind fst snd]. rewrite fir_value_R by auto. rewrite dot_window by lia. reflexivity.
Qed.

Lemma gmwf_any (c s : R) n (xs : list (F RA)) (f : gmwf RA) : (1 <= n)%nat -> (Z.of_nat n < 2 ^ 64)%Z -> gmwf_ok c s n f ->
  exists ys f', feed_res (gmwf_smooth (A := RA)) xs f = Ok (ys, f') /\ gmwf_ok c s n f' /\
    (g_init f = true -> ys = tabulate (length xs) (moving_weighted (gaussian c s n) n xs)).
Proof.
  intros Hn Hb (w & k & Ew & Ek & Es & Lw & Lk & G). destruct xs as [|x xs].
  - exists [], f. repeat split; auto. exists w, k. auto 10.
  - destruct (g_init f) eqn:I.
    + destruct (gmwf_run c s n k Hn Hb Lk (x :: xs) (repeat x n ++ skipn n w)) as (w' & E & L); [rewrite rep_length; auto|].
      exists (map (fun h => sum n (fun i => nth i k 0 * nth i h 0)) (slide (repeat x n) (x :: xs))), (mkGMWF (A := RA) (Some w') (Some k) (Z.of_nat n) false).
      split; [|split].
      * rewrite firstn_rep in E. etransitivity; [|exact E]. cbn [feed_res]. f_equal. unfold gmwf_smooth. rewrite Ew, Ek, Es, I. cbn [g_w g_k g_size g_init].
        rewrite (windowSet_ok x n w Lw). reflexivity.
      * exists w', k. auto 10.
      * intros _. rewrite map_slide_start by auto. unfold tabulate at 2. apply map_ext. intros j. unfold moving_weighted. apply sum_ext.
        intros i Hi. rewrite tab_nth by auto. rewrite G by auto. reflexivity.
    + destruct (gmwf_run c s n k Hn Hb Lk (x :: xs) w Lw) as (w' & E & L).
      eexists. exists (mkGMWF (A := RA) (Some w') (Some k) (Z.of_nat n) false). split; [|split].
      * etransitivity; [|exact E]. f_equal. destruct f; cbn in *; subst; reflexivity.
      * exists w', k. auto 10.
      * discriminate.
Qed.
