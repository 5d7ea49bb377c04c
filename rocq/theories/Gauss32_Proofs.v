(** The Gaussian smoother in binary32 (C139). *)
From Coq Require Import ZArith Reals Lra Lia Bool List.
From Flocq Require Import Core IEEE754.BinarySingleNaN IEEE754.Binary IEEE754.Bits.
From Verif Require Import Base BaseLemmas Arith Ffmath_Spec Float32 Ltisys_Model Ltisys_Spec Ltisys_Proofs Ltisys_Proofs2 Ltisys_Proofs4 Smoother_Model Smoother_Proofs3 Fir32_Spec Fir32_Proofs.
Import ListNotations.
Open Scope R_scope.

Lemma windowSet_loop_gen {A : arith} (x : F A) k : forall i (w : list (F A)), (i + k <= length w)%nat ->
  windowSet_loop k (Z.of_nat i) x w = Ok (firstn i w ++ repeat x k ++ skipn (i + k) w).
Proof.
  induction k; intros i w H.
  - cbn [windowSet_loop repeat]. rewrite Nat.add_0_r. change (app [] (skipn i w)) with (skipn i w). rewrite firstn_skipn. reflexivity.
  - cbn [windowSet_loop]. rewrite set_nth by lia. cbn [bind]. replace (Z.of_nat i + 1)%Z with (Z.of_nat (S i)) by lia.
    rewrite IHk by (rewrite upd_length; lia). f_equal. rewrite upd_split by lia.
    replace (S i) with (length (firstn i w ++ [x])) at 1 by (rewrite app_length, firstn_length; cbn; lia).
    replace (firstn i w ++ x :: skipn (S i) w) with ((firstn i w ++ [x]) ++ skipn (S i) w) by (rewrite <- app_assoc; reflexivity).
    rewrite firstn_app, Nat.sub_diag, firstn_O, app_nil_r, firstn_all. rewrite <- app_assoc. f_equal. cbn [app repeat]. f_equal. f_equal.
    rewrite skipn_app, (skipn_all2 (firstn i w ++ [x])) by (rewrite app_length, firstn_length; cbn; lia).
    rewrite app_nil_l, app_length, firstn_length, skipn_skipn. cbn [length]. f_equal. lia.
Qed.
Lemma windowSet_gen {A : arith} (x : F A) n (w : list (F A)) : (n <= length w)%nat -> windowSet w (Z.of_nat n) x = Ok (repeat x n ++ skipn n w).
Proof. intros H. unfold windowSet. rewrite Nat2Z.id. apply (windowSet_loop_gen x n 0 w). auto. Qed.

(** The window holds the last [n] samples, the first sample standing for those before it: in any arithmetic. *)
Section Run.
Context {A : arith}.
Variables (c : list (F A)) (n : nat) (d : F A).
Hypothesis Hn : (1 <= n)%nat.
Hypothesis Hc : (n <= length c)%nat.
Hypothesis Hb : (Z.of_nat n <= 2 ^ 64)%Z.
Lemma shift_nth (x : F A) w i : (n <= length w)%nat -> (i < n)%nat -> nth i (x :: firstn (n - 1) w ++ skipn n w) d = nth i (x :: w) d.
Proof.
  intros Hw Hi. destruct i; cbn [nth]; [reflexivity|]. rewrite app_nth1 by (rewrite firstn_length; lia). apply nth_firstn. lia.
Qed.
Lemma shift_length (x : F A) w : (n <= length w)%nat -> (n <= length (x :: firstn (n - 1) w ++ skipn n w))%nat.
Proof. intros Hw. cbn [length]. rewrite app_length, firstn_length, skipn_length. lia. Qed.
Lemma run_window xs : forall w h x0, (n <= length w)%nat -> (forall i, (i < n)%nat -> nth i w d = nth i h x0) ->
  exists ys f', feed_res gmwf_smooth xs (mkGMWF (Some w) (Some c) (Z.of_nat n) false) = Ok (ys, f') /\ length ys = length xs /\
  forall k, (k < length xs)%nat -> exists w' x, nth k ys d = fir_value (Some c) n x w' /\ forall i, (i < n)%nat -> nth i (x :: w') d = nth i (rev (firstn (S k) xs) ++ h) x0.
Proof.
  induction xs as [|x xs IH]; intros w h x0 Hw Hh; cbn [feed_res].
  - eexists _, _. split; [reflexivity|]. split; [reflexivity|]. cbn; lia.
  - unfold gmwf_smooth at 1. cbn [g_w g_init g_size g_k bind]. rewrite (updateFIR_ok (Some c) w n x) by (auto; lia). cbn [bind fst snd].
    destruct (IH (x :: firstn (n - 1) w ++ skipn n w) (x :: h) x0) as (ys & f' & E & L & H).
    { apply shift_length; exact Hw. }
    { intros i Hi. rewrite shift_nth by auto. destruct i; cbn [nth]; [reflexivity|]. apply Hh. lia. }
    rewrite E. cbn [bind fst snd]. eexists _, _. split; [reflexivity|]. split; [cbn [length]; lia|].
    intros k Hk. destruct k as [|k].
    + exists w, x. split; [reflexivity|]. intros i Hi. cbn [firstn rev app]. destruct i; cbn [nth]; [reflexivity|]. apply Hh. lia.
    + cbn [length] in Hk. destruct (H k ltac:(lia)) as (w' & x' & E1 & E2). exists w', x'. split; [exact E1|]. intros i Hi. rewrite (E2 i Hi).
      change (firstn (S (S k)) (x :: xs)) with (x :: firstn (S k) xs). cbn [rev]. rewrite <- app_assoc. reflexivity.
Qed.
Lemma recent x0 (xs : list (F A)) k i : (k < length xs)%nat -> nth 0 xs d = x0 -> nth i (rev (firstn (S k) xs) ++ []) x0 = nth (k - i) xs d.
Proof.
  intros Hk H0. rewrite app_nil_r. assert (L : length (firstn (S k) xs) = S k) by (rewrite firstn_length; lia).
  destruct (Nat.le_gt_cases i k) as [Hi|Hi].
  - rewrite rev_nth by lia. rewrite L. replace (S k - S i)%nat with (k - i)%nat by lia. rewrite nth_firstn by lia. apply nth_indep. lia.
  - rewrite nth_overflow by (rewrite rev_length; lia). replace (k - i)%nat with 0%nat by lia. symmetry. exact H0.
Qed.
Lemma run_start w xs : (n <= length w)%nat -> exists ys f', feed_res gmwf_smooth xs (mkGMWF (Some w) (Some c) (Z.of_nat n) true) = Ok (ys, f') /\ length ys = length xs /\
  forall k, (k < length xs)%nat -> exists w' x, nth k ys d = fir_value (Some c) n x w' /\ forall i, (i < n)%nat -> nth i (x :: w') d = nth (k - i) xs d.
Proof.
  intros Hw. destruct xs as [|x xs].
  - cbn [feed_res]. eexists _, _. split; [reflexivity|]. split; [reflexivity|]. cbn; lia.
  - assert (Hw' : (n <= length (repeat x n ++ skipn n w))%nat) by (rewrite app_length, repeat_length; lia).
    destruct (run_window (x :: xs) (repeat x n ++ skipn n w) [] x Hw') as (ys & f' & E & L & H).
    { intros i Hi. rewrite app_nth1 by (rewrite repeat_length; exact Hi). rewrite (nth_indep _ d x) by (rewrite repeat_length; exact Hi). rewrite nth_repeat. destruct i; reflexivity. }
    exists ys, f'. split; [|split; [exact L|]].
    + rewrite <- E. cbn [feed_res]. unfold gmwf_smooth at 1 3. cbn [g_w g_init g_size g_k]. rewrite windowSet_gen by exact Hw. reflexivity.
    + intros k Hk. destruct (H k Hk) as (w' & x' & E1 & E2). exists w', x'. split; [exact E1|]. intros i Hi. rewrite (E2 i Hi). apply recent; auto.
Qed.
End Run.

(** What an accepted set-up leaves behind. *)
Lemma set_len {B} (l l' : list B) i v : set l i v = Ok l' -> length l' = length l.
Proof. unfold set. intros H. destruct ((0 <=? i)%Z && (i <? zlen l)%Z); [|discriminate]. injection H as <-. apply upd_length. Qed.
Lemma gauss_len {A : arith} k : forall i (l ce r : F A) kern s q, gauss_loop k i l ce r kern s = Ok q -> length (fst q) = length kern.
Proof.
  induction k as [|k IH]; intros i l ce r kern s q; cbn [gauss_loop]; [intros H; injection H as <-; reflexivity|].
  cbv zeta. match goal with |- bind (set kern i ?v) _ = _ -> _ => destruct (set kern i v) as [kern'|] eqn:E; [|discriminate] end. cbn [bind]. intros H. rewrite (IH _ _ _ _ _ _ _ H). exact (set_len _ _ _ _ E).
Qed.
Lemma div_len {A : arith} k : forall i (a0 : F A) l l', Ltisys_Model.div_loop k i a0 l = Ok l' -> length l' = length l.
Proof.
  induction k as [|k IH]; intros i a0 l l'; cbn [Ltisys_Model.div_loop]; [intros H; injection H as <-; reflexivity|].
  destruct (get l i) as [v|]; [|discriminate]. cbn [bind]. destruct (set l i (fdiv v a0)) as [l1|] eqn:E; [|discriminate]. cbn [bind]. intros H. rewrite (IH _ _ _ _ H). exact (set_len _ _ _ _ E).
Qed.
Lemma setup_state {A : arith} (sg ce : F A) w kernel wk f0 f : gmwf_setup sg ce (Some w) kernel wk f0 = Ok (true, f) ->
  (0 < wk)%Z /\ exists c, f = mkGMWF (Some w) (Some c) wk true /\ length c = length kernel.
Proof.
  unfold gmwf_setup. destruct ((wk >? 0)%Z && flt ce (ofsize wk) && flt (lit 0 1) sg) eqn:C; [|discriminate].
  cbv zeta. match goal with |- bind ?g _ = _ -> _ => destruct g as [q|] eqn:G; [|discriminate] end. cbn [bind].
  match goal with |- bind ?g _ = _ -> _ => destruct g as [kern|] eqn:D; [|discriminate] end. cbn [bind]. intros H. injection H as <-.
  apply andb_true_iff in C. destruct C as (C & _). apply andb_true_iff in C. destruct C as (C & _). split; [lia|].
  exists kern. split; [reflexivity|]. rewrite (div_len _ _ _ _ _ D). exact (gauss_len _ _ _ _ _ _ _ _ G).
Qed.
Lemma gauss_total {A : arith} k : forall i (l ce r : F A) kern s, (i + k <= length kern)%nat -> exists q, gauss_loop k (Z.of_nat i) l ce r kern s = Ok q.
Proof.
  induction k as [|k IH]; intros i l ce r kern s H; cbn [gauss_loop]; [eauto|]. rewrite set_nth by lia. cbn [bind].
  replace (Z.of_nat i + 1)%Z with (Z.of_nat (S i)) by lia. apply IH. rewrite upd_length. lia.
Qed.
Lemma setup_total {A : arith} (sg ce : F A) w kernel n f0 : (1 <= n <= length kernel)%nat -> flt ce (ofsize (Z.of_nat n)) = true -> flt (lit 0 1) sg = true ->
  exists f, gmwf_setup sg ce (Some w) kernel (Z.of_nat n) f0 = Ok (true, f).
Proof.
  intros Hn H1 H2. unfold gmwf_setup. rewrite H1, H2, (proj2 (Z.gtb_lt _ _)) by lia. cbn [andb]. rewrite Nat2Z.id.
  destruct (gauss_total n 0 (ofsize (Z.of_nat n - 1)) (fsub ce (ofsize (Z.of_nat n - 1))) (fmul (fmul (lit 2 1) sg) sg) kernel (lit 0 1)) as (q & G); [lia|].
  change (Z.of_nat 0) with 0%Z in G. cbv zeta. rewrite G. cbn [bind]. change 0%Z with (Z.of_nat 0). rewrite div_loop_ok by (rewrite (gauss_len _ _ _ _ _ _ _ _ G); lia). cbn [bind]. eauto.
Qed.
Lemma fir_value_ext {A : arith} c n (x x' : F A) w w' : (1 <= n)%nat -> (forall i, (i < n)%nat -> nth i (x :: w) (lit 0 1) = nth i (x' :: w') (lit 0 1)) ->
  fir_value c n x w = fir_value c n x' w'.
Proof.
  intros Hn H. unfold fir_value. rewrite (fir_acc_ext c (n - 1) w w'); [|intros i Hi; apply (H (S i)); lia]. pose proof (H 0%nat ltac:(lia)) as H0. cbn [nth] in H0. rewrite H0. reflexivity.
Qed.

(** The two weights of a window of two. *)
Lemma setup_two {A : arith} (sg ce w0 w1 k0 k1 : F A) f0 : flt ce (ofsize 2) = true -> flt (lit 0 1) sg = true ->
  let r := fmul (fmul (lit 2 1) sg) sg in
  let e := fun i => fsub (fsub (ofsize i) (ofsize 1)) (fsub ce (ofsize 1)) in
  let g := fun i => o_exp lib (fdiv (fopp (fmul (e i) (e i))) r) in
  let s := fadd (fadd (lit 0 1) (g 0%Z)) (g 1%Z) in
  gmwf_setup sg ce (Some [w0; w1]) [k0; k1] 2 f0 = Ok (true, mkGMWF (Some [w0; w1]) (Some [fdiv (g 0%Z) s; fdiv (g 1%Z) s]) 2 true).
Proof. intros H1 H2. unfold gmwf_setup. rewrite H1, H2. reflexivity. Qed.
Lemma setup_same {A : arith} (sg ce w0 w1 k0 k1 a g q : F A) f0 : flt ce (ofsize 2) = true -> flt (lit 0 1) sg = true ->
  let r := fmul (fmul (lit 2 1) sg) sg in
  let e := fun i => fsub (fsub (ofsize i) (ofsize 1)) (fsub ce (ofsize 1)) in
  fdiv (fopp (fmul (e 0%Z) (e 0%Z))) r = a -> fdiv (fopp (fmul (e 1%Z) (e 1%Z))) r = a -> o_exp lib a = g -> fdiv g (fadd (fadd (lit 0 1) g) g) = q ->
  gmwf_setup sg ce (Some [w0; w1]) [k0; k1] 2 f0 = Ok (true, mkGMWF (Some [w0; w1]) (Some [q; q]) 2 true).
Proof. intros H1 H2 r e E0 E1 Eg Eq. rewrite setup_two by assumption. cbv zeta. fold r. unfold e in *. rewrite E0, E1, Eg, Eq. reflexivity. Qed.
