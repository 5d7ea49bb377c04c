(** Proofs about the tapped delay line. *)
From Coq Require Import ZArith List Bool Lia ZifyBool.
From Verif Require Import Base BaseLemmas Tdl_Model Tdl_Spec.
Import ListNotations.
Open Scope Z_scope.

(** Where the sample inserted [i] steps ago lives. *)
Definition pos (n r i : Z) : Z := if i <=? r then r - i else r - i + n.
Definition nxt (n r : Z) : Z := if r + 1 =? n then 0 else r + 1.

Ltac pn := unfold pos, nxt in *;
  repeat match goal with
  | |- context [if ?b then _ else _] => destruct b eqn:?
  | H : context [if ?b then _ else _] |- _ => destruct b eqn:?
  end; try lia.

Definition tinv {A} (m : list A) (n : Z) (h : list A) (t : tdl A) : Prop :=
  1 <= n <= zlen m /\ zlen (area t) = zlen m /\ itemCount t = n /\ tail t = n /\
  0 <= rd t < n /\ wr t = nxt n (rd t) /\ zlen h = n /\
  (forall i, 0 <= i < n -> get (area t) (pos n (rd t) i) = get h i) /\
  (forall j, n <= j -> get (area t) j = get m j).

Lemma ptr_ok {A} (m : list A) k : 0 <= k <= zlen m -> ptr m k = Ok k.
Proof. intros H. unfold ptr. replace ((0 <=? k) && (k <=? zlen m)) with true by lia. reflexivity. Qed.

Lemma get_cons_0 {A} (x : A) l : get (x :: l) 0 = Ok x.
Proof. reflexivity. Qed.

Lemma get_cons_S {A} (x : A) l i : 0 < i -> get (x :: l) i = get l (i - 1).
Proof.
  intros H. unfold get. replace (i <? 0) with false by lia. replace (i - 1 <? 0) with false by lia.
  replace (Z.to_nat i) with (S (Z.to_nat (i - 1))) by lia. reflexivity.
Qed.

Lemma get_firstn {A} n (l : list A) i : i < Z.of_nat n -> get (firstn n l) i = get l i.
Proof.
  intros H. unfold get. destruct (Z.ltb_spec i 0); auto.
  assert (E : nth_error (firstn n l) (Z.to_nat i) = nth_error l (Z.to_nat i)); [|now rewrite E].
  rewrite <- (firstn_skipn n l) at 2.
  destruct (Nat.lt_ge_cases (Z.to_nat i) (length (firstn n l))) as [L|L].
  - now rewrite nth_error_app1.
  - rewrite firstn_length in L.
    rewrite (proj2 (nth_error_None _ _)) by (rewrite firstn_length; lia).
    symmetry. apply nth_error_None. rewrite app_length, firstn_length, skipn_length. lia.
Qed.

Lemma get_repeat {A} (x : A) n i : 0 <= i < Z.of_nat n -> get (repeat x n) i = Ok x.
Proof.
  intros H. rewrite (get_ok_nth _ i x) by (unfold zlen; rewrite repeat_length; lia). f_equal.
  apply nth_repeat.
Qed.

Lemma insertNewest_ok {A} (t : tdl A) x n :
  n <= zlen (area t) -> tail t = n -> 0 <= wr t < n ->
  insertNewest t x = Ok (mktdl (upd (area t) (Z.to_nat (wr t)) x) (itemCount t) (tail t) (rd t) (nxt n (wr t))).
Proof.
  intros Hn Ht Hw. unfold insertNewest. rewrite set_ok by lia. cbn [bind].
  rewrite ptr_ok by (rewrite zlen_upd; lia). cbn [bind]. rewrite Ht. unfold nxt.
  destruct (Z.eqb_spec (wr t + 1) n).
  - replace (n <=? wr t + 1) with true by lia. reflexivity.
  - replace (n <=? wr t + 1) with false by lia. reflexivity.
Qed.

Lemma fill_ok {A} n x k : forall (t : tdl A),
  (1 <= k)%nat -> n <= zlen (area t) -> tail t = n -> 0 <= wr t -> wr t + Z.of_nat k = n ->
  exists m', fill_loop k t x = Ok (mktdl m' (itemCount t) (tail t) (rd t) 0) /\ zlen m' = zlen (area t) /\
    (forall i, get m' i = if (wr t <=? i) && (i <? n) then Ok x else get (area t) i).
Proof.
  induction k as [|k IH]; intros t Hk Hn Ht Hw Hs; [lia|].
  cbn [fill_loop]. rewrite (insertNewest_ok t x n) by lia. cbn [bind].
  destruct k as [|k].
  - cbn [fill_loop]. eexists. unfold nxt. replace (wr t + 1 =? n) with true by lia.
    split; [reflexivity|]. split; [apply zlen_upd|]. intros i.
    rewrite get_upd by lia. replace ((wr t <=? i) && (i <? n)) with (i =? wr t) by lia. reflexivity.
  - unfold nxt. replace (wr t + 1 =? n) with false by lia.
    destruct (IH (mktdl (upd (area t) (Z.to_nat (wr t)) x) (itemCount t) (tail t) (rd t) (wr t + 1)))
      as (m' & E & Hl & Hg); cbn [area tail wr] in *; try lia.
    { rewrite zlen_upd; lia. }
    exists m'. split; [exact E|]. split; [rewrite Hl; apply zlen_upd|].
    intros i. rewrite Hg, get_upd by lia.
    destruct (Z.eqb_spec i (wr t)).
    + replace ((wr t + 1 <=? i) && (i <? n)) with false by lia.
      replace ((wr t <=? i) && (i <? n)) with true by lia. reflexivity.
    + replace ((wr t + 1 <=? i) && (i <? n)) with ((wr t <=? i) && (i <? n)) by lia. reflexivity.
Qed.

Lemma flush_ok {A} (m : list A) n x t :
  1 <= n <= zlen m -> zlen (area t) = zlen m -> itemCount t = n ->
  (forall j, n <= j -> get (area t) j = get m j) ->
  exists t', flush t x = Ok t' /\ tinv m n (repeat x (Z.to_nat n)) t'.
Proof.
  intros Hn Hl Hc Hpost. unfold flush. rewrite !ptr_ok by lia. cbn [bind].
  destruct (fill_ok n x (Z.to_nat (itemCount t))
    (mktdl (area t) (itemCount t) (itemCount t) (itemCount t - 1) 0)) as (m' & E & Hl' & Hg);
    cbn [area tail wr itemCount] in *; try lia.
  rewrite E. eexists; split; [reflexivity|].
  unfold tinv; cbn [area tail wr rd itemCount].
  split; [lia|]. split; [lia|]. split; [lia|]. split; [lia|]. split; [lia|].
  split; [pn|].
  split; [unfold zlen; rewrite repeat_length; lia|]. split.
  - intros i Hi. rewrite get_repeat by lia. rewrite Hg. unfold pos.
    destruct (i <=? itemCount t - 1) eqn:E1; [|lia].
    replace ((0 <=? itemCount t - 1 - i) && (itemCount t - 1 - i <? n)) with true by lia. reflexivity.
  - intros j Hj. rewrite Hg. replace ((0 <=? j) && (j <? n)) with false by lia. auto.
Qed.

Lemma insertSample_ok {A} (m : list A) n h t x :
  tinv m n h t -> exists t', insertSample t x = Ok t' /\ tinv m n (firstn (Z.to_nat n) (x :: h)) t'.
Proof.
  intros (Hn & Hl & Hc & Ht & Hr & Hw & Hh & Hg & Hp). unfold insertSample, removeOldest.
  rewrite ptr_ok by lia. cbn [bind]. rewrite Ht.
  replace (if n <=? rd t + 1 then 0 else rd t + 1) with (nxt n (rd t)) by pn.
  rewrite <- Hw. assert (Hwr : 0 <= wr t < n) by (pn).
  rewrite (insertNewest_ok _ x n); cbn [area tail wr itemCount rd]; try lia.
  eexists; split; [reflexivity|]. unfold tinv; cbn [area tail wr rd itemCount].
  rewrite zlen_upd. split; [lia|]. split; [lia|]. split; [lia|]. split; [lia|]. split; [lia|].
  split; [reflexivity|]. split.
  { unfold zlen in *. rewrite firstn_length. cbn [length]. lia. }
  split.
  - intros i Hi. rewrite get_firstn by lia. rewrite get_upd by lia.
    destruct (Z.eqb_spec i 0) as [->|Hi0].
    + replace (pos n (wr t) 0) with (wr t) by (pn). rewrite Z.eqb_refl. reflexivity.
    + rewrite get_cons_S by lia. rewrite <- Hg by lia.
      assert (E : pos n (wr t) i = pos n (rd t) (i - 1)) by (pn).
      rewrite E. replace (pos n (rd t) (i - 1) =? wr t) with false; [reflexivity|].
      pn.
  - intros j Hj. rewrite get_upd by lia. replace (j =? wr t) with false by lia. auto.
Qed.

Lemma step_ok {A} (m : list A) n h t o :
  tinv m n h t -> exists t', tdl_step t o = Ok t' /\ tinv m n (line_step (Z.to_nat n) h o) t'.
Proof.
  intros H. destruct o as [x|x]; cbn [tdl_step line_step].
  - apply (insertSample_ok m n h t x H).
  - destruct H as (Hn & Hl & Hc & Ht & Hr & Hw & Hh & Hg & Hp). now apply flush_ok.
Qed.

Lemma run_ok {A} (m : list A) n ops : forall h t,
  tinv m n h t -> exists t', run tdl_step t ops = Ok t' /\ tinv m n (fold_left (line_step (Z.to_nat n)) ops h) t'.
Proof.
  induction ops as [|o ops IH]; intros h t H; cbn [run fold_left]; [eauto|].
  destruct (step_ok m n h t o H) as (t1 & E & H1). rewrite E. cbn [bind]. now apply IH.
Qed.

Lemma setup_ok {A} (m : list A) n x :
  1 <= n <= zlen m -> exists t, setup m n x = Ok t /\ tinv m n (repeat x (Z.to_nat n)) t.
Proof. intros H. unfold setup. apply flush_ok; cbn [area itemCount]; auto. Qed.

Lemma reached_inv {A} (m : list A) n v ops :
  (1 <= n <= length m)%nat ->
  exists t, reached m n v ops t /\ tinv m (Z.of_nat n) (line n v ops) t.
Proof.
  intros Hn. unfold reached.
  destruct (setup_ok m (Z.of_nat n) v) as (t0 & E & H0); [unfold zlen; lia|].
  rewrite E. cbn [bind]. rewrite Nat2Z.id in H0.
  destruct (run_ok m (Z.of_nat n) ops _ _ H0) as (t & Er & H). rewrite Nat2Z.id in H.
  exists t. split; auto.
Qed.

Lemma getRecent_ok {A} (m : list A) n h t : tinv m n h t -> getRecent t = get h 0.
Proof.
  intros (Hn & Hl & Hc & Ht & Hr & Hw & Hh & Hg & Hp). unfold getRecent.
  rewrite <- Hg by lia. f_equal. pn.
Qed.

Lemma getOldest_ok {A} (m : list A) n h t : tinv m n h t -> getOldest t = get h (n - 1).
Proof.
  intros (Hn & Hl & Hc & Ht & Hr & Hw & Hh & Hg & Hp). unfold getOldest.
  rewrite ptr_ok by lia. cbn [bind]. rewrite <- Hg by lia. rewrite Ht.
  destruct (Z.leb_spec n (rd t + 1)); f_equal; pn.
Qed.

Lemma getAtIndex_ok {A} (m : list A) n h t i :
  tinv m n h t -> 2 <= n -> 0 <= i < n -> getAtIndex t i = get h i.
Proof.
  intros (Hn & Hl & Hc & Ht & Hr & Hw & Hh & Hg & Hp) H2 Hi. unfold getAtIndex.
  rewrite <- Hg by lia. rewrite Hc, Hw.
  destruct (Z.leb_spec (rd t) (nxt n (rd t))) as [H|H].
  - rewrite ptr_ok by lia. cbn [bind].
    destruct (Z.leb_spec (nxt n (rd t)) i) as [H'|H']; f_equal; pn.
  - cbn [bind]. f_equal; pn.
Qed.

Lemma tdl_history {A} (nanv : A) m n v ops :
  (2 <= n <= length m)%nat ->
  exists t, reached m n v ops t /\ length (line n v ops) = n /\
    (forall i, (i < n)%nat ->
       getAtIndex t (Z.of_nat i) = Ok (nth i (line n v ops) nanv) /\
       index_op nanv t (Z.of_nat i) = Ok (nth i (line n v ops) nanv)) /\
    getRecent t = Ok (nth 0 (line n v ops) nanv) /\
    getOldest t = Ok (nth (n - 1) (line n v ops) nanv) /\
    index_op nanv t (-1) = Ok (nth (n - 1) (line n v ops) nanv) /\
    length (area t) = length m /\ (forall j, Z.of_nat n <= j -> get (area t) j = get m j).
Proof.
  intros Hn. destruct (reached_inv m n v ops) as (t & Hr & H); [lia|].
  exists t. split; [exact Hr|]. pose proof H as (Hn' & Hl & Hc & Ht & Hrd & Hw & Hh & Hg & Hp).
  assert (G : forall i, (i < n)%nat -> get (line n v ops) (Z.of_nat i) = Ok (nth i (line n v ops) nanv)).
  { intros i Hi. rewrite (get_ok_nth _ _ nanv) by lia. now rewrite Nat2Z.id. }
  split; [unfold zlen in Hh; lia|]. split; [|split; [|split; [|split; [|split]]]].
  - intros i Hi. unfold index_op. rewrite Hc.
    replace ((0 <=? Z.of_nat i) && (Z.of_nat i <? Z.of_nat n)) with true by lia.
    rewrite (getAtIndex_ok _ _ _ _ _ H) by lia. rewrite G by lia. auto.
  - rewrite (getRecent_ok _ _ _ _ H). apply (G 0%nat). lia.
  - rewrite (getOldest_ok _ _ _ _ H). rewrite <- G by lia. f_equal. lia.
  - change (index_op nanv t (-1)) with (getOldest t). rewrite (getOldest_ok _ _ _ _ H).
    rewrite <- G by lia. f_equal. lia.
  - unfold zlen in Hl. lia.
  - exact Hp.
Qed.

Lemma tdl_single {A} m v ops :
  length m = 1%nat ->
  exists (t : tdl A), reached m 1 v ops t /\ getAtIndex t 0 = Ub /\
    (forall nanv, index_op nanv t 0 = Ub) /\
    (exists y, getRecent t = Ok y /\ getOldest t = Ok y /\ line 1 v ops = [y]).
Proof.
  intros Hm. destruct (reached_inv m 1 v ops) as (t & Hr & H); [lia|].
  exists t. split; [exact Hr|]. pose proof H as (Hn' & Hl & Hc & Ht & Hrd & Hw & Hh & Hg & Hp).
  assert (E0 : rd t = 0) by lia. assert (E1 : wr t = 0) by (rewrite Hw, E0; reflexivity).
  assert (U : getAtIndex t 0 = Ub).
  { unfold getAtIndex. rewrite E0, E1, Hc. cbn [Z.leb Z.compare]. rewrite ptr_ok by (unfold zlen in *; lia).
    cbn [bind Z.leb Z.compare]. apply get_oob. unfold zlen in *; lia. }
  split; [exact U|]. split.
  - intros nanv. unfold index_op. rewrite Hc. exact U.
  - assert (L : length (line 1 v ops) = 1%nat) by (unfold zlen in Hh; lia).
    destruct (line 1 v ops) as [|y [|]]; try discriminate.
    exists y. rewrite (getRecent_ok _ _ _ _ H), (getOldest_ok _ _ _ _ H). auto.
Qed.

Lemma index_undefined {A} (nanv : A) t i :
  i < -1 \/ (0 <= i /\ itemCount t <= i) -> index_op nanv t i = Ok nanv.
Proof.
  intros H. unfold index_op.
  replace ((0 <=? i) && (i <? itemCount t)) with false by lia.
  replace (i =? -1) with false by lia. reflexivity.
Qed.

(** ** Streams *)

Lemma last_firstn_cons {A} (h : list A) x n :
  length h = n -> (1 <= n)%nat ->
  firstn n (x :: h) = x :: removelast h.
Proof.
  intros Hl Hn. destruct n as [|n]; [lia|]. cbn [firstn]. f_equal.
  rewrite removelast_firstn_len, Hl. reflexivity.
Qed.

(** The queue read oldest first: inserting appends at the end, drops the front. *)
Lemma delay_stream_ok {A} (m : list A) n : (1 <= n)%nat -> forall xs q t,
  tinv m (Z.of_nat n) (rev q) t ->
  delay_stream t xs = Ok (firstn (length xs) (tl q ++ xs)).
Proof.
  intros Hn xs. induction xs as [|x xs IH]; intros q t H; [reflexivity|].
  cbn [delay_stream]. unfold transportDelay_call.
  pose proof H as (_ & _ & _ & _ & _ & _ & Hh & _ & _).
  assert (Lq : length q = n) by (unfold zlen in Hh; rewrite rev_length in Hh; lia).
  destruct (insertSample_ok m _ _ t x H) as (t' & E & H'). rewrite E. cbn [bind].
  rewrite Nat2Z.id in H'.
  assert (E2 : firstn n (x :: rev q) = rev (tl q ++ [x])).
  { destruct q as [|z q]; [cbn in Lq; lia|]. cbn [tl rev]. rewrite rev_app_distr. cbn [rev app].
    destruct n as [|n]; [lia|]. cbn [firstn]. f_equal. cbn [length] in Lq.
    rewrite firstn_app, rev_length. replace (n - length q)%nat with 0%nat by lia.
    cbn [firstn]. rewrite app_nil_r. apply firstn_all2. rewrite rev_length; lia. }
  rewrite E2 in H'.
  rewrite (getOldest_ok _ _ _ _ H').
  destruct (tl q ++ [x]) as [|y r] eqn:Eq; [destruct (tl q); discriminate|].
  assert (Ly : length (y :: r) = n).
  { rewrite <- Eq, app_length. destruct q; cbn in *; lia. }
  replace (get (rev (y :: r)) (Z.of_nat n - 1)) with (Ok y).
  2:{ symmetry. rewrite (get_ok_nth _ _ y) by (unfold zlen; rewrite rev_length; cbn in *; lia).
      f_equal. rewrite rev_nth by (cbn in *; lia). rewrite Ly.
      replace (n - S (Z.to_nat (Z.of_nat n - 1)))%nat with 0%nat by lia. reflexivity. }
  cbn [bind fst snd]. rewrite (IH _ _ H'). cbn [bind tl length].
  replace (tl q ++ x :: xs) with ((tl q ++ [x]) ++ xs) by (rewrite <- app_assoc; reflexivity).
  rewrite Eq. reflexivity.
Qed.

Lemma rev_repeat {A} (v : A) n : rev (repeat v n) = repeat v n.
Proof.
  induction n as [|n IH]; cbn; auto. rewrite IH.
  clear IH. induction n as [|n IH]; cbn; auto. now rewrite IH.
Qed.

(** Insert-then-read-oldest on a line of [n] taps delays by [n-1] samples. *)
Lemma line_delay {A} (m : list A) n v xs :
  (1 <= n <= length m)%nat ->
  (t <- setup m (Z.of_nat n) v ;; delay_stream t xs) = Ok (delayed (n - 1) v xs).
Proof.
  intros Hn. destruct (setup_ok m (Z.of_nat n) v) as (t & E & H); [unfold zlen; lia|].
  rewrite E. cbn [bind]. rewrite Nat2Z.id in H.
  rewrite <- rev_repeat in H. rewrite (delay_stream_ok m n ltac:(lia) xs _ t H).
  unfold delayed. destruct n as [|n]; [lia|]. cbn [repeat tl]. now rewrite Nat.sub_succ, Nat.sub_0_r.
Qed.

Lemma transportDelay_ok {A} (buf : list A) N v xs :
  length buf = (N + 1)%nat -> (1 <= N)%nat ->
  (t <- transportDelay_new buf v ;; delay_stream t xs) = Ok (delayed N v xs).
Proof.
  intros Hl HN. unfold transportDelay_new. pose proof (line_delay buf (N + 1) v xs ltac:(lia)) as E.
  replace (zlen buf) with (Z.of_nat (N + 1)) by (unfold zlen; lia).
  rewrite E. do 2 f_equal. lia.
Qed.

Lemma delayed_nth {A} N (v d : A) xs k :
  (k < length xs)%nat ->
  nth k (delayed N v xs) d = if (k <? N)%nat then v else nth (k - N) xs d.
Proof.
  intros Hk. unfold delayed.
  assert (F : forall (l : list A) j n, (j < n)%nat -> nth j (firstn n l) d = nth j l d).
  { induction l as [|a l IH]; intros [|j] [|n] Hj; cbn; auto; try lia. apply IH. lia. }
  rewrite F by auto. destruct (Nat.ltb_spec k N).
  - rewrite app_nth1 by (rewrite repeat_length; lia).
    rewrite nth_indep with (d' := v) by (rewrite repeat_length; lia). apply nth_repeat.
  - rewrite app_nth2 by (rewrite repeat_length; lia). now rewrite repeat_length.
Qed.

Lemma line_inserts {A} n (v : A) xs :
  line n v (map Insert xs) = firstn n (rev xs ++ repeat v n).
Proof.
  unfold line. revert v. induction xs as [|x xs IH] using rev_ind; intros v.
  - cbn. symmetry. apply firstn_all2. now rewrite repeat_length.
  - rewrite map_app, fold_left_app, IH. cbn [map fold_left line_step].
    rewrite rev_app_distr. cbn [rev app]. destruct n as [|n]; [reflexivity|].
    change (firstn (S n) (x :: firstn (S n) (rev xs ++ repeat v (S n)))) with
      (x :: firstn n (firstn (S n) (rev xs ++ repeat v (S n)))).
    change (firstn (S n) (x :: rev xs ++ repeat v (S n))) with (x :: firstn n (rev xs ++ repeat v (S n))).
    f_equal. rewrite firstn_firstn. f_equal. lia.
Qed.

Lemma setup_bad {A} (m : list A) n v : n <= 0 \/ zlen m < n -> setup m n v = Ub.
Proof.
  intros H. unfold setup, flush. cbn [area itemCount]. unfold ptr.
  destruct H as [H|H].
  - replace ((0 <=? n - 1) && (n - 1 <=? zlen m)) with false by lia.
    destruct ((0 <=? n) && (n <=? zlen m)); reflexivity.
  - replace ((0 <=? n) && (n <=? zlen m)) with false by lia. reflexivity.
Qed.
