(** Proofs about matrices, over any arithmetic. *)
From Coq Require Import ZArith List Bool Lia.
From Verif Require Import Base BaseLemmas Arith Ltisys_Proofs Mat_Model Mat_Spec.
Import ListNotations.

(** ** Loops *)
Lemma floop_inv {S} (P : nat -> S -> Prop) body k : forall i s,
  (forall j t, (i <= j < i + k)%nat -> P j t -> exists t', body (Z.of_nat j) t = Ok t' /\ P (Datatypes.S j) t') ->
  P i s -> exists s', floop k (Z.of_nat i) body s = Ok s' /\ P (i + k)%nat s'.
Proof.
  induction k as [|k IH]; intros i s H P0; cbn [floop].
  - exists s. rewrite Nat.add_0_r. auto.
  - destruct (H i s) as (t & E & Pt); [lia|auto|]. rewrite E. cbn [bind].
    replace (Z.of_nat i + 1)%Z with (Z.of_nat (Datatypes.S i)) by lia.
    destruct (IH (Datatypes.S i) t) as (s' & E' & P'); auto; [intros; apply H; auto; lia|].
    exists s'. split; auto. replace (i + Datatypes.S k)%nat with (Datatypes.S i + k)%nat by lia. exact P'.
Qed.
Lemma floop_inv0 {S} (P : nat -> S -> Prop) body k s :
  (forall j t, (j < k)%nat -> P j t -> exists t', body (Z.of_nat j) t = Ok t' /\ P (Datatypes.S j) t') ->
  P 0%nat s -> exists s', floop k 0 body s = Ok s' /\ P k s'.
Proof. intros H P0. apply (floop_inv P body k 0 s); auto. intros; apply H; auto; lia. Qed.
Lemma each_inv {S} (Q : nat -> nat -> S -> Prop) R C body s :
  (forall i j t, (i < R)%nat -> (j < C)%nat -> Q i j t -> exists t', body (Z.of_nat i) (Z.of_nat j) t = Ok t' /\ Q i (Datatypes.S j) t') ->
  (forall i t, (i < R)%nat -> Q i C t -> Q (Datatypes.S i) 0%nat t) ->
  Q 0%nat 0%nat s -> exists s', each R C body s = Ok s' /\ Q R 0%nat s'.
Proof.
  intros H N Q0. unfold each. apply (floop_inv0 (fun i t => Q i 0%nat t)); auto.
  intros i t Hi Qi. destruct (floop_inv0 (Q i) (body (Z.of_nat i)) C t) as (t' & E & Qt); auto. exists t'. auto.
Qed.

Section Mat.
Context {A : arith}.
Notation X := (F A).
Variable d : X.
Notation el := (entry d).

Lemma shaped_row R C (m : matrix A) i : shaped R C m -> (i < R)%nat -> length (nth i m []) = C.
Proof. intros [L H] Hi. apply H. apply nth_In. lia. Qed.
Lemma mget_ok R C (m : matrix A) i j : shaped R C m -> (i < R)%nat -> (j < C)%nat -> mget m (Z.of_nat i) (Z.of_nat j) = Ok (el m i j).
Proof.
  intros W Hi Hj. unfold mget. pose proof (shaped_row R C m i W Hi) as LR. destruct W as [L H]. rewrite (get_nth []) by lia. cbn [bind].
  apply get_nth. lia.
Qed.
Lemma mset_ok R C (m : matrix A) i j v : shaped R C m -> (i < R)%nat -> (j < C)%nat -> exists m', mset m (Z.of_nat i) (Z.of_nat j) v = Ok m' /\ shaped R C m' /\
  forall a b, el m' a b = if (a =? i)%nat && (b =? j)%nat then v else el m a b.
Proof.
  intros W Hi Hj. unfold mset. pose proof (shaped_row R C m i W Hi) as LR. destruct W as [L H].
  rewrite (get_nth []) by lia. cbn [bind]. rewrite set_nth by lia. cbn [bind]. rewrite set_nth by lia.
  eexists. split; [reflexivity|]. split.
  - split; [rewrite upd_length; auto|]. intros r Hr. apply (In_nth _ _ []) in Hr. destruct Hr as (q & Hq & <-). rewrite upd_length in Hq.
    destruct (Nat.eq_dec i q) as [->|]; [rewrite nth_upd_eq by lia; rewrite upd_length; auto|]. rewrite nth_upd_ne by auto. apply H. apply nth_In. lia.
  - intros a b. unfold entry. destruct (Nat.eqb_spec a i) as [->|]; cbn [andb]; [|rewrite nth_upd_ne by auto; reflexivity].
    rewrite nth_upd_eq by lia. destruct (Nat.eqb_spec b j) as [->|]; [rewrite nth_upd_eq by lia; reflexivity|]. rewrite nth_upd_ne by auto. reflexivity.
Qed.
Lemma mset_oob_row (m : matrix A) i j v : (zlen m <= i)%Z -> mset m i j v = Ub.
Proof. intros H. unfold mset. rewrite get_oob by (right; exact H). reflexivity. Qed.

Lemma matrix_ext R C (m m' : matrix A) : shaped R C m -> shaped R C m' -> (forall i j, (i < R)%nat -> (j < C)%nat -> el m i j = el m' i j) -> m = m'.
Proof.
  intros W W' H. pose proof W as [L _]. pose proof W' as [L' _]. apply (nth_ext _ _ [] []); [lia|]. intros i Hi.
  pose proof (shaped_row R C m i W ltac:(lia)). pose proof (shaped_row R C m' i W' ltac:(lia)).
  apply (nth_ext _ _ d d); [lia|]. intros j Hj. apply H; lia.
Qed.

Lemma blank_shaped R C : shaped R C (blank (A := A) R C).
Proof. split; [apply repeat_length|]. intros r Hr. apply repeat_spec in Hr. subst r. apply repeat_length. Qed.

(** A loop that sets each element once, from what it finds there. *)
Definition done (i j a b : nat) : bool := (a <? i)%nat || ((a =? i)%nat && (b <? j)%nat).
Lemma done_step i j a b : done i (S j) a b = done i j a b || ((a =? i)%nat && (b =? j)%nat).
Proof. unfold done. destruct (Nat.ltb_spec a i), (Nat.eqb_spec a i), (Nat.ltb_spec b j), (Nat.ltb_spec b (S j)), (Nat.eqb_spec b j); cbn; auto; lia. Qed.
Lemma done_row i C a b : (b < C)%nat -> done (S i) 0 a b = done i C a b.
Proof. intros H. unfold done. destruct (Nat.ltb_spec a (S i)), (Nat.ltb_spec a i), (Nat.eqb_spec a i), (Nat.eqb_spec a (S i)), (Nat.ltb_spec b C), (Nat.ltb_spec b 0); cbn; auto; lia. Qed.
Lemma done_self i j : done i j i j = false.
Proof. unfold done. rewrite !Nat.ltb_irrefl, andb_false_r. reflexivity. Qed.
Lemma done_all R a b : (a < R)%nat -> done R 0 a b = true.
Proof. intros H. unfold done. destruct (Nat.ltb_spec a R); [reflexivity|lia]. Qed.
Lemma done_none a b : done 0 0 a b = false.
Proof. unfold done. destruct (Nat.ltb_spec a 0), (Nat.ltb_spec b 0); lia. Qed.

Lemma update_ok R C (m0 : matrix A) (body : Z -> Z -> matrix A -> res (matrix A)) (g : nat -> nat -> X -> X) :
  shaped R C m0 ->
  (forall i j m, (i < R)%nat -> (j < C)%nat -> shaped R C m -> (forall a b, (a < R)%nat -> (b < C)%nat -> el m a b = if done i j a b then g a b (el m0 a b) else el m0 a b) ->
     body (Z.of_nat i) (Z.of_nat j) m = mset m (Z.of_nat i) (Z.of_nat j) (g i j (el m i j))) ->
  exists m', each R C body m0 = Ok m' /\ shaped R C m' /\ forall a b, (a < R)%nat -> (b < C)%nat -> el m' a b = g a b (el m0 a b).
Proof.
  intros W H.
  destruct (each_inv (fun i j m => shaped R C m /\ forall a b, (a < R)%nat -> (b < C)%nat -> el m a b = if done i j a b then g a b (el m0 a b) else el m0 a b) R C body m0)
    as (m' & E & W' & H').
  - intros i j m Hi Hj [Wm Hm]. rewrite H by auto. destruct (mset_ok R C m i j (g i j (el m i j)) Wm Hi Hj) as (m' & E & W' & H').
    exists m'. split; [exact E|]. split; [exact W'|]. intros a b Ha Hb. rewrite H', done_step.
    destruct (Nat.eqb_spec a i) as [->|]; destruct (Nat.eqb_spec b j) as [->|]; cbn [andb]; rewrite ?orb_false_r; auto.
    rewrite orb_true_r. rewrite Hm, done_self by auto. reflexivity.
  - intros i m Hi [Wm Hm]. split; auto. intros a b Ha Hb. rewrite (done_row i C) by auto. auto.
  - split; auto. intros a b Ha Hb. rewrite done_none. reflexivity.
  - exists m'. split; auto. split; auto. intros a b Ha Hb. rewrite H', done_all by auto. reflexivity.
Qed.

Definition has (R C : nat) (r : res (matrix A)) (g : nat -> nat -> X) : Prop :=
  exists m, r = Ok m /\ shaped R C m /\ forall i j, (i < R)%nat -> (j < C)%nat -> el m i j = g i j.

Lemma mat_zero_ok R C : has R C (mat_zero R C) (fun _ _ => lit 0 1).
Proof. apply (update_ok R C _ _ (fun _ _ _ => lit 0 1)); [apply blank_shaped|]. intros. reflexivity. Qed.
Lemma mat_special_ok R C t v : t <> MAT_MAGIC -> exists m, mat_special R C t v = Ok (Some m) /\ shaped R C m /\
  forall i j, (i < R)%nat -> (j < C)%nat -> el m i j = match t with MAT_IDENTITY => if (i =? j)%nat then v else lit 0 1 | MAT_ALL => v | _ => lit 0 1 end.
Proof.
  intros Ht. unfold mat_special. destruct t; try congruence.
  - destruct (mat_zero_ok R C) as (m & -> & W & H). exists m. auto.
  - destruct (update_ok R C (blank R C) (fun i j m => mset m i j (if (i =? j)%Z then v else lit 0 1)) (fun i j _ => if (i =? j)%nat then v else lit 0 1)) as (m & -> & W & H); [apply blank_shaped| |].
    + intros i j m Hi Hj _ _. destruct (Z.eqb_spec (Z.of_nat i) (Z.of_nat j)), (Nat.eqb_spec i j); auto; lia.
    + exists m. auto.
  - destruct (update_ok R C (blank R C) (fun i j m => mset m i j v) (fun _ _ _ => v)) as (m & -> & W & H); [apply blank_shaped|auto|]. exists m. auto.
Qed.
Lemma mat_list_ok R C l : length l = (R * C)%nat -> has R C (mat_list R C l) (fun i j => nth (i * C + j) l d).
Proof.
  intros L. apply (update_ok R C _ _ (fun i j _ => nth (i * C + j) l d)); [apply blank_shaped|]. intros i j m Hi Hj _ _.
  replace (Z.of_nat i * Z.of_nat C + Z.of_nat j)%Z with (Z.of_nat (i * C + j)) by lia. rewrite (get_nth d) by (rewrite L; nia). reflexivity.
Qed.
Lemma at_index_ok R C (m : matrix A) i j : shaped R C m -> (i < R)%nat -> (j < C)%nat -> at_index C m (Z.of_nat (i * C + j)) = Ok (el m i j).
Proof.
  intros W Hi Hj. unfold at_index. rewrite <- Nat2Z.inj_div, <- Nat2Z.inj_mod.
  replace ((i * C + j) / C)%nat with i by (apply (Nat.div_unique _ C i j); lia).
  replace ((i * C + j) mod C)%nat with j by (apply (Nat.mod_unique _ C i j); lia).
  apply (mget_ok R C); auto.
Qed.
Lemma mat_copy_ok R C (m : matrix A) : shaped R C m -> mat_copy R C m = Ok m.
Proof.
  intros W. destruct (update_ok R C (blank R C) (fun i j r => v <- mget m i j ;; mset r i j v) (fun i j _ => el m i j)) as (r & E & W' & H); [apply blank_shaped| |].
  - intros i j r Hi Hj _ _. rewrite (mget_ok R C) by auto. reflexivity.
  - unfold mat_copy. rewrite E. f_equal. apply (matrix_ext R C); auto.
Qed.
Lemma build_ok R C (f : Z -> Z -> res X) (g : nat -> nat -> X) : (forall i j, (i < R)%nat -> (j < C)%nat -> f (Z.of_nat i) (Z.of_nat j) = Ok (g i j)) -> has R C (build R C f) g.
Proof.
  intros H. unfold build. destruct (mat_zero_ok R C) as (z & -> & W & _). cbn [bind]. apply (update_ok R C z _ (fun i j _ => g i j)); auto.
  intros i j m Hi Hj _ _. rewrite H by auto. reflexivity.
Qed.
Lemma build1 R C (m : matrix A) (f : X -> X) : shaped R C m -> has R C (build R C (fun i j => a <- mget m i j ;; Ok (f a))) (fun i j => f (el m i j)).
Proof. intros W. apply build_ok. intros i j Hi Hj. rewrite (mget_ok R C) by auto. reflexivity. Qed.
Lemma build2 R C (m o : matrix A) (f : X -> X -> X) : shaped R C m -> shaped R C o ->
  has R C (build R C (fun i j => a <- mget m i j ;; b <- mget o i j ;; Ok (f a b))) (fun i j => f (el m i j) (el o i j)).
Proof. intros W V. apply build_ok. intros i j Hi Hj. rewrite !(mget_ok R C) by auto. reflexivity. Qed.

Lemma transpose_ok R C (m : matrix A) : shaped R C m -> has C R (mat_transpose R C m) (fun i j => el m j i).
Proof.
  intros W. unfold mat_transpose. destruct (mat_zero_ok C R) as (z & -> & Wz & Hz). cbn [bind].
  destruct (each_inv (fun i j r => shaped C R r /\ forall a b, (a < R)%nat -> (b < C)%nat -> done i j a b = true -> el r b a = el m a b) R C
    (fun i j r => v <- mget m i j ;; mset r j i v) z) as (r & E & Wr & Hr).
  - intros i j r Hi Hj [Wr Hr]. rewrite (mget_ok R C) by auto. cbn [bind]. destruct (mset_ok C R r j i (el m i j) Wr Hj Hi) as (r' & -> & W' & H').
    exists r'. split; auto. split; auto. intros a b Ha Hb Hd. rewrite H'. rewrite done_step in Hd.
    destruct (Nat.eqb_spec b j) as [->|], (Nat.eqb_spec a i) as [->|]; cbn [andb] in *; auto; apply Hr; auto; rewrite orb_false_r in Hd; exact Hd.
  - intros i r Hi [Wr Hr]. split; auto. intros a b Ha Hb. rewrite (done_row i C) by auto. auto.
  - split; auto. intros a b _ _ Hd. rewrite done_none in Hd. discriminate.
  - exists r. split; auto. split; auto. intros a b Ha Hb. apply Hr; auto. apply done_all. auto.
Qed.

(** The product: the sum in the order of the loop. *)
Fixpoint acc (k : nat) (f : nat -> X) : X := match k with O => lit 0 1 | S k' => (acc k' f + f k')%fl end.
Lemma mul_ok R C N (m o : matrix A) : shaped R C m -> shaped C N o -> has R N (mat_mul R C N m o) (fun i j => acc C (fun k => (el m i k * el o k j)%fl)).
Proof.
  intros W V. unfold mat_mul. destruct (mat_zero_ok R N) as (z & -> & Wz & Hz). cbn [bind].
  destruct (each_inv (fun i j r => shaped R N r /\ forall a b, (a < R)%nat -> (b < N)%nat -> done i j a b = true -> el r a b = acc C (fun k => (el m a k * el o k b)%fl)) R N
    (mul_cell C m o) z) as (r & E & Wr & Hr).
  - intros i j r Hi Hj [Wr Hr]. unfold mul_cell. destruct (mset_ok R N r i j (lit 0 1) Wr Hi Hj) as (r0 & -> & W0 & H0). cbn [bind].
    destruct (floop_inv0 (fun k q => shaped R N q /\ forall a b, el q a b = if (a =? i)%nat && (b =? j)%nat then acc k (fun k => (el m i k * el o k j)%fl) else el r a b)
      (fun k r => v <- mget r (Z.of_nat i) (Z.of_nat j) ;; a <- mget m (Z.of_nat i) k ;; b <- mget o k (Z.of_nat j) ;; mset r (Z.of_nat i) (Z.of_nat j) (v + a * b)%fl) C r0) as (r' & E' & W' & H').
    + intros k q Hk [Wq Hq]. rewrite (mget_ok R N), (mget_ok R C), (mget_ok C N) by auto. cbn [bind].
      destruct (mset_ok R N q i j (el q i j + el m i k * el o k j)%fl Wq Hi Hj) as (q' & -> & Wq' & Hq'). exists q'. split; auto. split; auto.
      intros a b. rewrite Hq', (Hq i j), !Nat.eqb_refl. cbn [andb acc]. destruct ((a =? i)%nat && (b =? j)%nat) eqn:E; auto. rewrite Hq, E. reflexivity.
    + split; auto.
    + exists r'. split; [exact E'|]. split; auto. intros a b Ha Hb Hd. rewrite H'. rewrite done_step in Hd.
      destruct (Nat.eqb_spec a i) as [->|], (Nat.eqb_spec b j) as [->|]; cbn [andb] in *; auto; apply Hr; auto; rewrite orb_false_r in Hd; exact Hd.
  - intros i r Hi [Wr Hr]. split; auto. intros a b Ha Hb. rewrite (done_row i N) by auto. auto.
  - split; auto. intros a b _ _ Hd. rewrite done_none in Hd. discriminate.
  - exists r. split; auto. split; auto. intros a b Ha Hb. apply Hr; auto. apply done_all. auto.
Qed.

(** In place, from the element and values that do not change meanwhile. *)
Lemma inplace_ok R C (m : matrix A) (f : Z -> Z -> matrix A -> X -> res X) (g : nat -> nat -> X -> X) : shaped R C m ->
  (forall i j m, (i < R)%nat -> (j < C)%nat -> shaped R C m -> f (Z.of_nat i) (Z.of_nat j) m (el m i j) = Ok (g i j (el m i j))) ->
  has R C (inplace R C f m) (fun i j => g i j (el m i j)).
Proof.
  intros W H. apply (update_ok R C m _ g); auto. intros i j q Hi Hj Wq _. rewrite (mget_ok R C) by auto. cbn [bind]. rewrite H by auto. reflexivity.
Qed.

(** A scalar that is an element of the matrix: the elements before it use its
    old value, the elements after it its new value. *)
Lemma alias_ok R C (m : matrix A) p q (op : X -> X -> X) : shaped R C m -> (p < R)%nat -> (q < C)%nat ->
  has R C (inplace R C (fun _ _ m a => v <- scalar_now (At (Z.of_nat p) (Z.of_nat q)) m ;; Ok (op a v)) m)
    (fun i j => op (el m i j) (if done i j p q then op (el m p q) (el m p q) else el m p q)).
Proof.
  intros W Hp Hq. unfold inplace.
  assert (T : forall i j a b, done i j a b = true -> (i =? a)%nat && (j =? b)%nat = false).
  { intros i j a b H. unfold done in H. destruct (Nat.eqb_spec i a); cbn [andb]; auto. destruct (Nat.eqb_spec j b); auto. subst. rewrite !Nat.ltb_irrefl in H. rewrite andb_false_r in H. discriminate. }
  set (g := fun i j a => op a (if done i j p q then op (el m p q) (el m p q) else el m p q)).
  destruct (update_ok R C m (fun i j m => a <- mget m i j ;; v <- (v <- scalar_now (At (Z.of_nat p) (Z.of_nat q)) m ;; Ok (op a v)) ;; mset m i j v) g) as (r & E & Wr & Hr); auto.
  - intros i j k Hi Hj Wk Hk. rewrite (mget_ok R C) by auto. cbn [bind scalar_now]. rewrite (mget_ok R C) by auto. cbn [bind]. unfold g. f_equal. f_equal.
    rewrite (Hk p q) by auto. unfold g. rewrite done_self. reflexivity.
  - exists r. split; [exact E|]. split; auto.
Qed.

(** ** Gauss-Jordan, element by element *)
Lemma scale_row_ok n i pivot (x y : matrix A) : (i < n)%nat -> shaped n n x -> shaped n n y ->
  exists x' y', scale_row n (Z.of_nat i) pivot (x, y) = Ok (x', y') /\ shaped n n x' /\ shaped n n y' /\
  forall a b, (b < n)%nat -> el x' a b = (if (a =? i)%nat then el x i b / pivot else el x a b)%fl /\ el y' a b = (if (a =? i)%nat then el y i b / pivot else el y a b)%fl.
Proof.
  intros Hi Wx Wy. unfold scale_row.
  destruct (floop_inv0 (fun j s => shaped n n (fst s) /\ shaped n n (snd s) /\
    forall a b, el (fst s) a b = (if (a =? i)%nat && (b <? j)%nat then el x i b / pivot else el x a b)%fl /\ el (snd s) a b = (if (a =? i)%nat && (b <? j)%nat then el y i b / pivot else el y a b)%fl)
    (fun j '(x, y) => a <- mget x (Z.of_nat i) j ;; x' <- mset x (Z.of_nat i) j (a / pivot)%fl ;; b <- mget y (Z.of_nat i) j ;; y' <- mset y (Z.of_nat i) j (b / pivot)%fl ;; Ok (x', y')) n (x, y)) as ([x' y'] & E & W1 & W2 & H).
  - intros j [u v] Hj (Wu & Wv & Huv). cbn [fst snd] in *. rewrite (mget_ok n n) by auto. cbn [bind].
    destruct (mset_ok n n u i j (el u i j / pivot)%fl Wu Hi Hj) as (u' & -> & Wu' & Hu'). cbn [bind]. rewrite (mget_ok n n) by auto. cbn [bind].
    destruct (mset_ok n n v i j (el v i j / pivot)%fl Wv Hi Hj) as (v' & -> & Wv' & Hv'). cbn [bind]. exists (u', v'). split; auto. cbn [fst snd]. split; auto. split; auto.
    intros a b. rewrite Hu', Hv'. destruct (Huv a b) as [E1 E2]. destruct (Huv i j) as [F1 F2]. rewrite Nat.eqb_refl, Nat.ltb_irrefl in F1, F2. cbn [andb] in *. rewrite E1, E2, F1, F2.
    destruct (Nat.eqb_spec a i) as [->|]; cbn [andb]; auto. destruct (Nat.eqb_spec b j) as [->|].
    + destruct (Nat.ltb_spec j (S j)); [auto|lia].
    + destruct (Nat.ltb_spec b j), (Nat.ltb_spec b (S j)); auto; lia.
  - cbn [fst snd]. split; auto. split; auto. intros a b. destruct (Nat.ltb_spec b 0); [lia|]. rewrite andb_false_r. auto.
  - exists x', y'. split; [exact E|]. cbn [fst snd] in *. split; auto. split; auto. intros a b Hb. destruct (H a b) as [-> ->]. destruct (Nat.ltb_spec b n); [|lia]. rewrite andb_true_r. auto.
Qed.
Lemma sub_row_ok n i j factor (x y : matrix A) : (i < n)%nat -> (j < n)%nat -> i <> j -> shaped n n x -> shaped n n y ->
  exists x' y', sub_row n (Z.of_nat i) (Z.of_nat j) factor (x, y) = Ok (x', y') /\ shaped n n x' /\ shaped n n y' /\
  forall a b, (b < n)%nat -> el x' a b = (if (a =? j)%nat then el x j b - factor * el x i b else el x a b)%fl /\ el y' a b = (if (a =? j)%nat then el y j b - factor * el y i b else el y a b)%fl.
Proof.
  intros Hi Hj Hne Wx Wy. unfold sub_row.
  destruct (floop_inv0 (fun k s => shaped n n (fst s) /\ shaped n n (snd s) /\
    forall a b, el (fst s) a b = (if (a =? j)%nat && (b <? k)%nat then el x j b - factor * el x i b else el x a b)%fl /\ el (snd s) a b = (if (a =? j)%nat && (b <? k)%nat then el y j b - factor * el y i b else el y a b)%fl)
    (fun k '(x, y) => a <- mget x (Z.of_nat j) k ;; b <- mget x (Z.of_nat i) k ;; x' <- mset x (Z.of_nat j) k (a - factor * b)%fl ;;
      c <- mget y (Z.of_nat j) k ;; d <- mget y (Z.of_nat i) k ;; y' <- mset y (Z.of_nat j) k (c - factor * d)%fl ;; Ok (x', y')) n (x, y)) as ([x' y'] & E & W1 & W2 & H).
  - intros k [u v] Hk (Wu & Wv & Huv). cbn [fst snd] in *. rewrite !(mget_ok n n) by auto. cbn [bind].
    destruct (mset_ok n n u j k (el u j k - factor * el u i k)%fl Wu Hj Hk) as (u' & -> & Wu' & Hu'). cbn [bind].
    destruct (mset_ok n n v j k (el v j k - factor * el v i k)%fl Wv Hj Hk) as (v' & -> & Wv' & Hv'). cbn [bind]. exists (u', v'). split; auto. cbn [fst snd]. split; auto. split; auto.
    intros a b. rewrite Hu', Hv'. destruct (Huv a b) as [E1 E2]. destruct (Huv j k) as [F1 F2]. destruct (Huv i k) as [G1 G2].
    destruct (Nat.eqb_spec i j); [lia|]. rewrite Nat.eqb_refl, Nat.ltb_irrefl in F1, F2. cbn [andb] in *. rewrite E1, E2, F1, F2, G1, G2.
    destruct (Nat.eqb_spec a j) as [->|]; cbn [andb]; auto. destruct (Nat.eqb_spec b k) as [->|].
    + destruct (Nat.ltb_spec k (S k)); [auto|lia].
    + destruct (Nat.ltb_spec b k), (Nat.ltb_spec b (S k)); auto; lia.
  - cbn [fst snd]. split; auto. split; auto. intros a b. destruct (Nat.ltb_spec b 0); [lia|]. rewrite andb_false_r. auto.
  - exists x', y'. split; [exact E|]. cbn [fst snd] in *. split; auto. split; auto. intros a b Hb. destruct (H a b) as [-> ->]. destruct (Nat.ltb_spec b n); [|lia]. rewrite andb_true_r. auto.
Qed.
(** One step of the elimination. *)
Lemma inv_step_ok n i (x y : matrix A) : (i < n)%nat -> shaped n n x -> shaped n n y ->
  exists x' y', inv_step n (Z.of_nat i) (x, y) = Ok (x', y') /\ shaped n n x' /\ shaped n n y' /\
  forall a b, (a < n)%nat -> (b < n)%nat ->
    el x' a b = (if (a =? i)%nat then el x i b / el x i i else el x a b - el x a i * (el x i b / el x i i))%fl /\
    el y' a b = (if (a =? i)%nat then el y i b / el x i i else el y a b - el x a i * (el y i b / el x i i))%fl.
Proof.
  intros Hi Wx Wy. unfold inv_step. cbn [fst]. rewrite (mget_ok n n) by auto. cbn [bind]. set (p := el x i i).
  destruct (scale_row_ok n i p x y Hi Wx Wy) as (x1 & y1 & -> & W1 & V1 & H1). cbn [bind].
  destruct (floop_inv0 (fun j s => shaped n n (fst s) /\ shaped n n (snd s) /\
    forall a b, (a < n)%nat -> (b < n)%nat ->
      el (fst s) a b = (if (a =? i)%nat then el x i b / p else if (a <? j)%nat then el x a b - el x a i * (el x i b / p) else el x a b)%fl /\
      el (snd s) a b = (if (a =? i)%nat then el y i b / p else if (a <? j)%nat then el y a b - el x a i * (el y i b / p) else el y a b)%fl)
    (fun j s => if (j =? Z.of_nat i)%Z then Ok s else factor <- mget (fst s) j (Z.of_nat i) ;; sub_row n (Z.of_nat i) j factor s) n (x1, y1)) as ([x' y'] & E & W2 & V2 & H2).
  - intros j [u v] Hj (Wu & Wv & Huv). cbn [fst snd] in *. destruct (Z.eqb_spec (Z.of_nat j) (Z.of_nat i)) as [e|e].
    + assert (j = i) by lia. subst j. exists (u, v). split; auto. cbn [fst snd]. split; auto. split; auto. intros a b Ha Hb. destruct (Huv a b Ha Hb) as [-> ->].
      destruct (Nat.eqb_spec a i); auto. destruct (Nat.ltb_spec a i), (Nat.ltb_spec a (S i)); auto; lia.
    + assert (j <> i) by lia. rewrite (mget_ok n n) by auto. cbn [bind].
      destruct (sub_row_ok n i j (el u j i) u v) as (u' & v' & Es & Wu' & Wv' & Hs); auto. exists (u', v'). split; [exact Es|]. cbn [fst snd]. split; auto. split; auto.
      intros a b Ha Hb. destruct (Hs a b Hb) as [-> ->].
      destruct (Huv a b Ha Hb) as [E1 E2]. destruct (Huv j b Hj Hb) as [F1 F2]. destruct (Huv i b Hi Hb) as [G1 G2]. destruct (Huv j i Hj Hi) as [K1 _].
      rewrite Nat.eqb_refl in G1, G2. destruct (Nat.eqb_spec j i); [lia|]. rewrite Nat.ltb_irrefl in F1, F2, K1. rewrite E1, E2, F1, F2, G1, G2, K1.
      destruct (Nat.eqb_spec a j) as [->|].
      * destruct (Nat.eqb_spec j i); [lia|]. destruct (Nat.ltb_spec j (S j)); [auto|lia].
      * destruct (Nat.eqb_spec a i); auto. destruct (Nat.ltb_spec a j), (Nat.ltb_spec a (S j)); auto; lia.
  - cbn [fst snd]. split; auto. split; auto. intros a b Ha Hb. destruct (H1 a b Hb) as [-> ->]. destruct (Nat.ltb_spec a 0); [lia|]. auto.
  - exists x', y'. split; [exact E|]. cbn [fst snd] in *. split; auto. split; auto. intros a b Ha Hb. destruct (H2 a b Ha Hb) as [-> ->]. destruct (Nat.ltb_spec a n); [auto|lia].
Qed.
(** The inverse is always defined, in the sense of the language. *)
Lemma inv_total n (m : matrix A) : shaped n n m -> exists r, mat_inv n m = Ok r /\ shaped n n r.
Proof.
  intros W. unfold mat_inv. rewrite (mat_copy_ok n n) by auto. cbn [bind].
  destruct (mat_special_ok n n MAT_IDENTITY (lit 1 1)) as (e & -> & We & _); [discriminate|]. cbn [bind].
  destruct (floop_inv0 (fun _ s => shaped n n (fst s) /\ shaped n n (snd s)) (inv_step n) n (m, e)) as ([x y] & E & Wx & Wy); auto.
  - intros j [u v] Hj [Wu Wv]. cbn [fst snd] in *. destruct (inv_step_ok n j u v Hj Wu Wv) as (u' & v' & E & ? & ? & _). exists (u', v'). auto.
  - change (list (list X)) with (matrix A) in E. rewrite E. exists y. auto.
Qed.

(** ** The norm *)
Definition mag (a : X) : X := if flt a (lit 0 1) then fopp a else a.
Lemma norm_sum_ok R C (m : matrix A) i k : shaped R C m -> (i < R)%nat -> (k <= C)%nat -> norm_sum k m (Z.of_nat i) = Ok (acc k (fun j => mag (el m i j))).
Proof.
  intros W Hi Hk. unfold norm_sum.
  destruct (floop_inv0 (fun k s => s = acc k (fun j => mag (el m i j))) (fun j s => a <- mget m (Z.of_nat i) j ;; Ok (s + (if a <? lit 0 1 then - a else a))%fl) k (lit 0 1)) as (s & E & ->); auto.
  intros j s Hj ->. rewrite (mget_ok R C) by (auto; lia). cbn [bind]. eexists. split; reflexivity.
Qed.
End Mat.
