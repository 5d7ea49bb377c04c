(** Proofs about the raw-array algorithms. *)
From Coq Require Import ZArith List Bool Lia ZifyBool Permutation.
From Verif Require Import Base BaseLemmas Algorithm_Model Algorithm_Spec.
Import ListNotations.
Open Scope Z_scope.

Lemma nth_error_ext {T} : forall a b : list T, (forall n, nth_error a n = nth_error b n) -> a = b.
Proof.
  induction a as [|x a IH]; intros [|y b] H; auto; try (specialize (H 0%nat); discriminate).
  pose proof (H 0%nat) as H0. injection H0 as ->. f_equal. apply IH. intros n. apply (H (S n)).
Qed.

Lemma list_ext {T} (a b : list T) : zlen a = zlen b -> (forall i, get a i = get b i) -> a = b.
Proof.
  intros Hl H. apply nth_error_ext. intros n. specialize (H (Z.of_nat n)). unfold get in H.
  replace (Z.of_nat n <? 0) with false in H by lia. rewrite Nat2Z.id in H.
  destruct (nth_error a n), (nth_error b n); congruence.
Qed.

Lemma get_ex {T} (a : list T) i : 0 <= i < zlen a -> exists x, get a i = Ok x.
Proof.
  intros H. unfold get. replace (i <? 0) with false by lia.
  destruct (nth_error a (Z.to_nat i)) eqn:E; [eauto|].
  apply nth_error_None in E. unfold zlen in H. lia.
Qed.

(** ** swap *)

Lemma upd_split {T} (a : list T) n v : (n < length a)%nat ->
  upd a n v = firstn n a ++ v :: skipn (S n) a.
Proof.
  revert n; induction a as [|h t IH]; intros [|n] H; cbn in *; try lia; auto.
  f_equal. apply IH. lia.
Qed.

Lemma perm_upd {T} (a : list T) n x v :
  nth_error a n = Some x -> Permutation (v :: a) (x :: upd a n v).
Proof.
  revert n; induction a as [|h t IH]; intros [|n] H; cbn in *; try discriminate.
  - injection H as ->. apply perm_swap.
  - etransitivity; [apply perm_swap|]. etransitivity; [|apply perm_swap].
    apply perm_skip. now apply IH.
Qed.

Lemma swap_ok {T} (a : list T) i j :
  0 <= i < zlen a -> 0 <= j < zlen a ->
  exists a', swap a i j = Ok a' /\ Permutation a a' /\ zlen a' = zlen a /\
    (forall k, get a' k = if k =? i then get a j else if k =? j then get a i else get a k).
Proof.
  intros Hi Hj. destruct (get_ex a i Hi) as [x Ex]. destruct (get_ex a j Hj) as [y Ey].
  unfold swap. rewrite Ex, Ey. cbn [bind]. rewrite set_ok by lia. cbn [bind].
  rewrite set_ok by (rewrite zlen_upd; lia). eexists. split; [reflexivity|].
  split; [|split; [rewrite !zlen_upd; reflexivity|]].
  - destruct (Z.eq_dec i j) as [<-|Hne].
    + rewrite Ex in Ey. injection Ey as <-.
      replace (upd (upd a (Z.to_nat i) x) (Z.to_nat i) x) with a; [reflexivity|].
      apply list_ext; [rewrite !zlen_upd; reflexivity|]. intros k.
      rewrite get_upd by (rewrite zlen_upd; lia). rewrite get_upd by lia.
      destruct (Z.eqb_spec k i) as [->|]; auto.
    + apply get_ok_iff in Ex as [_ Ex]. apply get_ok_iff in Ey as [_ Ey].
      pose proof (perm_upd a (Z.to_nat i) x y Ex) as P1.
      assert (Ey' : nth_error (upd a (Z.to_nat i) y) (Z.to_nat j) = Some y)
        by (rewrite nth_error_upd_ne by lia; exact Ey).
      pose proof (perm_upd _ (Z.to_nat j) y x Ey') as P2.
      apply Permutation_cons_inv with y. etransitivity; [exact P1 | exact P2].
  - intros k. rewrite get_upd by (rewrite zlen_upd; lia). rewrite get_upd by lia.
    destruct (Z.eqb_spec k j) as [->|Hj'].
    + destruct (Z.eqb_spec j i) as [->|]; congruence.
    + destruct (Z.eqb_spec k i); auto.
Qed.

Lemma swap_oob {T} (a : list T) i j : 
  ~ (0 <= i < zlen a) \/ ~ (0 <= j < zlen a) -> swap a i j = Ub.
Proof.
  intros H. unfold swap. destruct (get a i) eqn:E; auto. cbn [bind].
  destruct (get a j) eqn:E'; auto. apply get_range in E. apply get_range in E'. lia.
Qed.

(** [a'] rearranges [a] inside [s..e]. *)
Definition perm_in {T} (s e : Z) (a a' : list T) : Prop :=
  Permutation a a' /\ zlen a' = zlen a /\ 
  (forall i, i < s \/ e < i -> get a' i = get a i) /\
  (forall i, s <= i <= e -> exists k, s <= k <= e /\ get a' i = get a k).

Lemma perm_in_refl {T} s e (a : list T) : perm_in s e a a.
Proof. repeat split; auto. intros i Hi. exists i. auto. Qed.

Lemma perm_in_trans {T} s e (a b c : list T) : perm_in s e a b -> perm_in s e b c -> perm_in s e a c.
Proof.
  intros (P1 & L1 & O1 & I1) (P2 & L2 & O2 & I2). split; [etransitivity; eauto|].
  split; [congruence|]. split.
  - intros i Hi. rewrite O2, O1; auto.
  - intros i Hi. destruct (I2 i Hi) as (k & Hk & E). destruct (I1 k Hk) as (k' & Hk' & E').
    exists k'. split; auto. congruence.
Qed.

Lemma swap_perm_in {T} (a : list T) s e i j :
  0 <= i < zlen a -> 0 <= j < zlen a -> s <= i <= e -> s <= j <= e ->
  exists a', swap a i j = Ok a' /\ perm_in s e a a' /\
    (forall k, get a' k = if k =? i then get a j else if k =? j then get a i else get a k).
Proof.
  intros Hi Hj Hi' Hj'. destruct (swap_ok a i j Hi Hj) as (a' & E & P & L & G).
  exists a'. split; [exact E|]. split; [|exact G]. split; [exact P|]. split; [exact L|]. split.
  - intros k Hk. rewrite G. replace (k =? i) with false by lia. replace (k =? j) with false by lia. auto.
  - intros k Hk. rewrite G. destruct (k =? i); [exists j; auto|].
    destruct (k =? j); [exists i; auto | exists k; auto].
Qed.

(** ** Partition *)

Lemma partition_ok {T} lt comp (pv : T) s e : forall k i p a,
  s <= p <= i -> i + Z.of_nat k = e -> 0 <= s -> e < zlen a ->
  exists p' a', partition_loop lt comp pv k i p a = Ok (p', a') /\ s <= p' <= e /\
    perm_in s (e - 1) a a' /\ get a' e = get a e /\
    (comp = None -> 
      (forall j x, s <= j < p -> get a j = Ok x -> lt x pv = true) ->
      (forall j x, p <= j < i -> get a j = Ok x -> lt x pv = false) ->
      (forall j x, s <= j < p' -> get a' j = Ok x -> lt x pv = true) /\
      (forall j x, p' <= j < e -> get a' j = Ok x -> lt x pv = false)).
Proof.
  induction k as [|k IH]; intros i p a Hp Hk Hs He.
  - cbn [partition_loop]. exists p, a. split; [reflexivity|]. split; [lia|].
    split; [apply perm_in_refl|]. split; [reflexivity|]. intros _ H1 H2. split; auto.
    intros j x Hj. apply H2. lia.
  - cbn [partition_loop]. destruct (get_ex a i) as [x Ex]; [lia|]. destruct (get_ex a p) as [y Ey]; [lia|].
    rewrite Ex. cbn [bind].
    assert (C : exists c : bool, match comp with
           | Some cmp => y <- get a p ;; Ok (cmp x y)
           | None => Ok (lt x pv) end = Ok c /\ (comp = None -> c = lt x pv)).
    { destruct comp as [cmp|]; [rewrite Ey; cbn [bind]; eauto |eauto].
      exists (cmp x y). split; auto. discriminate. }
    destruct C as (c & -> & Hc). cbn [bind]. destruct c.
    + destruct (swap_perm_in a s (e - 1) i p) as (a1 & E1 & P1 & G1); try lia.
      rewrite E1. cbn [bind].
      destruct (IH (i + 1) (p + 1) a1) as (p' & a' & E & Hp' & P & Ge & HH); try lia.
      { destruct P1 as (_ & L & _). lia. }
      exists p', a'. split; [exact E|]. split; [exact Hp'|]. split; [eapply perm_in_trans; eauto|].
      split; [rewrite Ge; apply P1; lia|].
      intros Hn H1 H2. apply HH; auto.
      * intros j z Hj. rewrite G1. destruct (Z.eqb_spec j i) as [->|].
        -- replace i with p by lia. rewrite Ey. intros [= <-].
           assert (p = i) by lia. subst. rewrite Ex in Ey. injection Ey as <-. symmetry. auto.
        -- destruct (Z.eqb_spec j p).
           ++ rewrite Ex. intros [= <-]. symmetry; auto.
           ++ intros. apply (H1 j); auto. lia.
      * intros j z Hj. rewrite G1. destruct (Z.eqb_spec j i) as [->|].
        -- intros Ez. apply (H2 p); auto. lia.
        -- replace (j =? p) with false by lia. intros. apply (H2 j); auto. lia.
    + destruct (IH (i + 1) p a) as (p' & a' & E & Hp' & P & Ge & HH); try lia.
      exists p', a'. split; [exact E|]. split; [exact Hp'|]. split; [exact P|]. split; [exact Ge|].
      intros Hn H1 H2. apply HH; auto.
      intros j z Hj Ez. destruct (Z.eq_dec j i) as [->|].
      * rewrite Ex in Ez. injection Ez as <-. symmetry; auto.
      * apply (H2 j); auto. lia.
Qed.

(** One iteration of the main loop: split [s..e] at [p]. *)
Lemma split_ok {T} lt comp (a : list T) s e :
  0 <= s <= e -> e < zlen a ->
  exists pv pa a' p, get a e = Ok pv /\
    partition_loop lt comp pv (Z.to_nat (e - s)) s s a = Ok (p, pa) /\
    swap pa p e = Ok a' /\ s <= p <= e /\ perm_in s e a a' /\
    (comp = None -> weak_order lt ->
      exists q, get a' p = Ok q /\
      (forall j x, s <= j < p -> get a' j = Ok x -> lt x q = true) /\
      (forall j x, p < j <= e -> get a' j = Ok x -> lt x q = false)).
Proof.
  intros Hs He. destruct (get_ex a e) as [pv Epv]; [lia|].
  destruct (partition_ok lt comp pv s e (Z.to_nat (e - s)) s s a) as (p & pa & E & Hp & P & Ge & HH); try lia.
  assert (Lp : zlen pa = zlen a) by apply P.
  destruct (swap_perm_in pa s e p e) as (a' & E' & P' & G'); try lia.
  exists pv, pa, a', p. split; [exact Epv|]. split; [exact E|]. split; [exact E'|]. split; [exact Hp|].
  split.
  - eapply perm_in_trans; [|exact P']. destruct P as (Q1 & Q2 & Q3 & Q4). split; [exact Q1|]. split; [exact Q2|].
    split; [intros i Hi; apply Q3; lia|]. intros i Hi.
    destruct (Z.eq_dec i e) as [->|]; [exists e; split; auto; lia|].
    destruct (Q4 i ltac:(lia)) as (k & Hk & Ek). exists k. split; auto. lia.
  - intros Hn [Hasym _]. destruct (HH Hn) as [H1 H2]; try (intros; lia).
    exists pv. split; [rewrite G', Z.eqb_refl, Ge; exact Epv|]. split.
    + intros j x Hj. rewrite G'. replace (j =? p) with false by lia. replace (j =? e) with false by lia.
      apply H1. lia.
    + intros j x Hj. rewrite G'. replace (j =? p) with false by lia.
      destruct (Z.eqb_spec j e) as [->|].
      * intros Ex. apply (H2 p); auto. lia.
      * apply H2. lia.
Qed.

(** ** The main loop *)

Fixpoint total (st : list (Z * Z)) : Z :=
  match st with [] => 0 | (s, e) :: st' => (e - s + 1) + total st' end.

Definition seg_ok (f l : Z) (p : Z * Z) : Prop := f <= fst p <= snd p /\ snd p <= l.
Definition big (p : Z * Z) : Prop := fst p < snd p.

Lemma total_big st : Forall big st -> 2 * zlen st <= total st.
Proof.
  induction st as [|[s e] st IH]; intros H; [reflexivity|].
  inversion H as [|? ? H1 H2]; subst. specialize (IH H2). unfold big in H1. cbn [fst snd] in H1.
  unfold zlen in *. cbn [total length]. lia.
Qed.

Lemma total_nonneg f l st : Forall (seg_ok f l) st -> 0 <= total st.
Proof.
  induction st as [|[s e] st IH]; intros H; [reflexivity|].
  inversion H as [|? ? H1 H2]; subst. specialize (IH H2). unfold seg_ok in H1. cbn in *. lia.
Qed.

Definition disj (p q : Z * Z) : Prop := snd p < fst q \/ snd q < fst p.

Fixpoint all_disj (st : list (Z * Z)) : Prop :=
  match st with [] => True | p :: st' => Forall (disj p) st' /\ all_disj st' end.

(** Pairs still allowed to be out of order lie in one pending segment. *)
Definition ordered_upto {T} (lt : T -> T -> bool) (st : list (Z * Z)) (f l : Z) (a : list T) : Prop :=
  forall i j x y, f <= i -> i < j -> j <= l -> get a i = Ok x -> get a j = Ok y ->
    lt y x = false \/ exists p, In p st /\ fst p <= i /\ j <= snd p.

Definition pushes (s e p : Z) (st : list (Z * Z)) : list (Z * Z) :=
  let st1 := if s <? p - 1 then (s, p - 1) :: st else st in
  if p + 1 <? e then (p + 1, e) :: st1 else st1.

Lemma pushes_in s e p st q : In q (pushes s e p st) ->
  In q st \/ (q = (s, p - 1) /\ s < p - 1) \/ (q = (p + 1, e) /\ p + 1 < e).
Proof.
  unfold pushes. destruct (Z.ltb_spec s (p - 1)), (Z.ltb_spec (p + 1) e); cbn; intuition.
Qed.

Lemma pushes_has s e p st :
  (forall q, In q st -> In q (pushes s e p st)) /\
  (s < p - 1 -> In (s, p - 1) (pushes s e p st)) /\ (p + 1 < e -> In (p + 1, e) (pushes s e p st)).
Proof.
  unfold pushes. destruct (Z.ltb_spec s (p - 1)), (Z.ltb_spec (p + 1) e); cbn; intuition; try lia.
Qed.

Lemma pushes_total s e p st : s <= p <= e -> total (pushes s e p st) <= (e - s) + total st.
Proof.
  intros H. unfold pushes. destruct (Z.ltb_spec s (p - 1)), (Z.ltb_spec (p + 1) e); cbn; lia.
Qed.

Lemma pushes_seg f l s e p st : Forall (seg_ok f l) st -> f <= s -> e <= l -> s <= p <= e ->
  Forall (seg_ok f l) (pushes s e p st).
Proof.
  intros H Hf Hl Hp. apply Forall_forall. intros q Hq. rewrite Forall_forall in H.
  apply pushes_in in Hq as [Hq|[[-> Hq]|[-> Hq]]]; auto; unfold seg_ok; cbn; lia.
Qed.

Lemma pushes_big s e p st : Forall big st -> Forall big (pushes s e p st).
Proof.
  intros H. apply Forall_forall. intros q Hq. rewrite Forall_forall in H.
  apply pushes_in in Hq as [Hq|[[-> Hq]|[-> Hq]]]; auto.
Qed.

Lemma pushes_disj s e p st : Forall (disj (s, e)) st -> all_disj st -> s <= p <= e ->
  all_disj (pushes s e p st).
Proof.
  intros H D Hp. 
  assert (W : forall u v, s <= u -> v <= e -> Forall (disj (u, v)) st).
  { intros u v Hu Hv. eapply Forall_impl; [|exact H]. unfold disj; cbn. lia. }
  unfold pushes. destruct (Z.ltb_spec s (p - 1)), (Z.ltb_spec (p + 1) e); cbn.
  - split; [|split; auto; apply W; lia]. constructor; [unfold disj; cbn; lia | apply W; lia].
  - split; auto. apply W; lia.
  - split; auto. apply W; lia.
  - exact D.
Qed.

Lemma pushes_push cap s e p st :
  Forall big st -> s <= p <= e -> (e - s + 1) + total st <= 2 * cap -> 
  (let st1 := if s <? p - 1 then push cap st (s, p - 1) else st in
   if p + 1 <? e then push cap st1 (p + 1, e) else st1) = pushes s e p st.
Proof.
  intros Hb Hp Hc. pose proof (total_big st Hb) as Ht. unfold pushes, push.
  destruct (Z.ltb_spec s (p - 1)), (Z.ltb_spec (p + 1) e); cbv zeta.
  - replace (zlen st <? cap) with true by lia.
    replace (zlen ((s, p - 1) :: st) <? cap) with true by (unfold zlen in *; cbn [length]; lia). reflexivity.
  - replace (zlen st <? cap) with true by lia. reflexivity.
  - replace (zlen st <? cap) with true by lia. reflexivity.
  - reflexivity.
Qed.

Lemma disj_other p st q i : Forall (disj p) st -> In q st -> fst p <= i <= snd p -> fst q <= i <= snd q -> False.
Proof. intros H Hq Hi Hi'. rewrite Forall_forall in H. specialize (H q Hq). unfold disj in H. lia. Qed.

(** Sortedness is preserved by one split. *)
Lemma ordered_step {T} (lt : T -> T -> bool) st f l s e p (a a' : list T) q :
  weak_order lt -> f <= s -> e <= l -> 0 <= f -> l < zlen a -> s <= p <= e ->
  Forall (disj (s, e)) st ->
  ordered_upto lt ((s, e) :: st) f l a -> perm_in s e a a' ->
  get a' p = Ok q ->
  (forall j x, s <= j < p -> get a' j = Ok x -> lt x q = true) ->
  (forall j x, p < j <= e -> get a' j = Ok x -> lt x q = false) ->
  ordered_upto lt (pushes s e p st) f l a'.
Proof.
  intros [Hasym Htr] Hf Hl Hf0 Hla Hp Hd Ho (P & L & O & I) Eq Hlo Hhi i j x y Hi Hij Hj Ex Ey.
  destruct (pushes_has s e p st) as (PI & P1 & P2).
  assert (In2 : forall k, s <= k <= e -> forall q', In q' ((s, e) :: st) -> fst q' <= k <= snd q' -> q' = (s, e)).
  { intros k Hk q' [<-|Hq'] Hk'; auto. exfalso. eapply disj_other; eauto. }
  destruct (Z_lt_dec i s) as [Ci|Ci]; [|destruct (Z_lt_dec e i) as [Ci'|Ci']].
  - rewrite O in Ex by lia. destruct (Z_lt_dec e j) as [Cj|Cj]; [|destruct (Z_lt_dec j s) as [Cj'|Cj']].
    + rewrite O in Ey by lia. destruct (Ho i j x y) as [H|(q' & Hq & H1 & H2)]; auto.
      right. exists q'. split; auto. destruct Hq as [<-|Hq]; auto. cbn in *; lia.
    + rewrite O in Ey by lia. destruct (Ho i j x y) as [H|(q' & Hq & H1 & H2)]; auto.
      right. exists q'. split; auto. destruct Hq as [<-|Hq]; auto. cbn in *; lia.
    + destruct (I j ltac:(lia)) as (k & Hk & Ek). rewrite Ek in Ey.
      destruct (Ho i k x y) as [H|(q' & Hq & H1 & H2)]; auto; try lia.
      left. exfalso. rewrite (In2 k Hk q') in H1; auto; cbn in *; lia.
  - rewrite O in Ex by lia. rewrite O in Ey by lia.
    destruct (Ho i j x y) as [H|(q' & Hq & H1 & H2)]; auto.
    right. exists q'. split; auto. destruct Hq as [<-|Hq]; auto. cbn in *; lia.
  - destruct (Z_lt_dec e j) as [Cj|Cj].
    + rewrite O in Ey by lia. destruct (I i ltac:(lia)) as (k & Hk & Ek). rewrite Ek in Ex.
      destruct (Ho k j x y) as [H|(q' & Hq & H1 & H2)]; auto; try lia.
      left. exfalso. rewrite (In2 k Hk q') in H2; auto; cbn in *; lia.
    + (* both inside [s..e] *)
      destruct (Z_lt_dec j p) as [Cjp|Cjp].
      * right. exists (s, p - 1). cbn. split; [apply P1; lia | lia].
      * destruct (Z_lt_dec p i) as [Cip|Cip].
        -- right. exists (p + 1, e). cbn. split; [apply P2; lia | lia].
        -- left. destruct (Z.eq_dec i p) as [->|].
           ++ rewrite Eq in Ex. injection Ex as <-. apply (Hhi j); auto. lia.
           ++ assert (lt x q = true) by (apply (Hlo i); auto; lia).
              destruct (Z.eq_dec j p) as [->|].
              ** rewrite Eq in Ey. injection Ey as <-. now apply Hasym.
              ** assert (Hy : lt y q = false) by (apply (Hhi j); auto; lia).
                 destruct (lt y x) eqn:Eyx; auto.
                 destruct (Htr y x q Eyx) as [C|C]; [congruence|].
                 rewrite Hasym in C by assumption. discriminate.
Qed.

Lemma sort_loop_ok {T} lt comp cap f l : forall fuel st (a : list T),
  0 <= f -> l < zlen a -> total st <= Z.of_nat fuel -> total st <= 2 * cap ->
  Forall (seg_ok f l) st -> Forall big (tl st) -> all_disj st ->
  exists a', sort_loop lt comp cap fuel st a = Ok (Some a') /\ perm_in f l a a' /\
    (comp = None -> weak_order lt -> ordered_upto lt st f l a -> ordered_upto lt [] f l a').
Proof.
  induction fuel as [|fuel IH]; intros st a Hf Hl Hfu Hcap Hseg Hbig Hd.
  - destruct st as [|[s e] st].
    + cbn. exists a. split; [reflexivity|]. split; [apply perm_in_refl | auto].
    + exfalso. inversion Hseg as [|? ? H1 H2]; subst. pose proof (total_nonneg _ _ _ H2).
      unfold seg_ok in H1. cbn in *. lia.
  - destruct st as [|[s e] st].
    + cbn. exists a. split; [reflexivity|]. split; [apply perm_in_refl | auto].
    + inversion Hseg as [|? ? H1 H2]; subst. unfold seg_ok in H1. cbn [fst snd] in H1.
      cbn [tl] in Hbig. cbn [total] in Hfu, Hcap. destruct Hd as [Hd1 Hd2].
      destruct (split_ok lt comp a s e) as (pv & pa & a1 & p & Epv & Ep & Es & Hp & P & HH); try lia.
      cbn [sort_loop]. rewrite Epv. cbn [bind]. rewrite Ep. cbn [bind fst snd]. rewrite Es. cbn [bind].
      pose proof (pushes_push cap s e p st Hbig Hp ltac:(lia)) as EE. cbv zeta in EE. rewrite EE.
      destruct (IH (pushes s e p st) a1) as (a' & E & P' & H'); auto.
      * destruct P as (_ & L & _). lia.
      * pose proof (pushes_total s e p st Hp). lia.
      * pose proof (pushes_total s e p st Hp). lia.
      * apply pushes_seg; auto; lia.
      * pose proof (pushes_big s e p st Hbig) as B. destruct (pushes s e p st); cbn [tl]; auto. now inversion B.
      * now apply pushes_disj.
      * exists a'. split; [exact E|]. split.
        -- eapply perm_in_trans; [|exact P']. destruct P as (Q1 & Q2 & Q3 & Q4).
           split; [exact Q1|]. split; [exact Q2|]. split; [intros i Hi; apply Q3; lia|].
           intros i Hi. destruct (Z_lt_dec i s) as [C|C]; [exists i; split; [lia | apply Q3; lia]|].
           destruct (Z_lt_dec e i) as [C'|C']; [exists i; split; [lia | apply Q3; lia]|].
           destruct (Q4 i ltac:(lia)) as (k & Hk & Ek). exists k. split; auto. lia.
        -- intros Hn Hw Ho. destruct (HH Hn Hw) as (q & Eq & Hlo & Hhi).
           apply H'; auto. apply (ordered_step lt st f l s e p a a1 q); auto; lia.
Qed.

Lemma sort_cap_ok {T} lt comp cap (a : list T) f l :
  0 <= f <= l -> l < zlen a -> zlen a <= cap ->
  exists a', sort_cap lt comp cap a f l = Ok (Some a') /\ perm_in f l a a' /\
    (comp = None -> weak_order lt -> sorted_range lt a' f l).
Proof.
  intros Hf Hl Hc. unfold sort_cap. destruct (Z.ltb_spec 1 (zlen a)) as [H1|H1].
  - unfold push. replace (zlen (@nil (Z * Z)) <? cap) with true by (unfold zlen at 1; cbn; lia).
    destruct (sort_loop_ok lt comp cap f l (length a) [(f, l)] a) as (a' & E & P & H); try lia; cbn [total tl].
    + unfold zlen in *. lia.
    + lia.
    + repeat constructor; cbn; lia.
    + constructor.
    + cbn. auto.
    + exists a'. split; [exact E|]. split; [exact P|].
      intros Hn Hw. assert (Ho : ordered_upto lt [] f l a').
      { apply H; auto. intros i j x y Hi Hij Hj _ _. right. exists (f, l). cbn. auto. }
      intros i j x y Hi Hij Hj Ex Ey. destruct (Ho i j x y Hi Hij Hj Ex Ey) as [|(p & [] & _)]; auto.
  - exists a. split; [reflexivity|]. split; [apply perm_in_refl|].
    intros _ _ i j x y Hi Hij Hj. lia.
Qed.

Lemma sort_correct {T} (lt : T -> T -> bool) a first last :
  weak_order lt -> 0 <= first <= last -> last < zlen a ->
  exists a', sort lt None a first last = Ok (Some a') /\
    sorted_range lt a' first last /\ rearranges a a' first last.
Proof.
  intros Hw Hf Hl. destruct (sort_cap_ok lt None (zlen a) a first last Hf Hl ltac:(lia)) as (a' & E & P & H).
  exists a'. split; [exact E|]. split; [auto|]. destruct P as (P1 & P2 & P3 & P4). split; auto.
Qed.

Lemma sort_comp_correct {T} (lt : T -> T -> bool) comp a first last :
  0 <= first <= last -> last < zlen a ->
  exists a', sort lt comp a first last = Ok (Some a') /\ rearranges a a' first last.
Proof.
  intros Hf Hl. destruct (sort_cap_ok lt comp (zlen a) a first last Hf Hl ltac:(lia)) as (a' & E & P & H).
  exists a'. split; [exact E|]. destruct P as (P1 & P2 & P3 & P4). split; auto.
Qed.

(** The capacity does not matter from n on: no push is ever dropped. *)
Lemma sort_loop_cap {T} (lt : T -> T -> bool) comp cap cap' f l : forall fuel st (a : list T),
  0 <= f -> l < zlen a -> total st <= 2 * cap -> total st <= 2 * cap' ->
  Forall (seg_ok f l) st -> Forall big (tl st) ->
  sort_loop lt comp cap fuel st a = sort_loop lt comp cap' fuel st a.
Proof.
  induction fuel as [|fuel IH]; intros st a Hf Hl Hc Hc' Hseg Hbig; destruct st as [|[s e] st]; auto.
  inversion Hseg as [|? ? H1 H2]; subst. unfold seg_ok in H1. cbn [fst snd] in H1.
  cbn [tl] in Hbig. cbn [total] in Hc, Hc'.
  destruct (split_ok lt comp a s e) as (pv & pa & a1 & p & Epv & Ep & Es & Hp & P & HH); try lia.
  cbn [sort_loop]. rewrite Epv. cbn [bind]. rewrite Ep. cbn [bind fst snd]. rewrite Es. cbn [bind].
  pose proof (pushes_push cap s e p st Hbig Hp ltac:(lia)) as EE. cbv zeta in EE. rewrite EE.
  pose proof (pushes_push cap' s e p st Hbig Hp ltac:(lia)) as EE'. cbv zeta in EE'. rewrite EE'.
  apply IH; auto.
  - destruct P as (_ & L & _). lia.
  - pose proof (pushes_total s e p st Hp). lia.
  - pose proof (pushes_total s e p st Hp). lia.
  - apply pushes_seg; auto; lia.
  - pose proof (pushes_big s e p st Hbig) as B. destruct (pushes s e p st); cbn [tl]; auto. now inversion B.
Qed.

Lemma sort_stack_ok {T} (lt : T -> T -> bool) comp a first last cap :
  0 <= first <= last -> last < zlen a -> zlen a <= cap ->
  sort_cap lt comp cap a first last = sort lt comp a first last.
Proof.
  intros Hf Hl Hc. unfold sort, sort_cap. destruct (Z.ltb_spec 1 (zlen a)) as [H1|H1]; auto.
  unfold push. replace (zlen (@nil (Z * Z)) <? cap) with true by (unfold zlen at 1; cbn; lia).
  replace (zlen (@nil (Z * Z)) <? zlen a) with true by (unfold zlen at 1; cbn; lia).
  apply sort_loop_cap with first last; cbn [total tl]; try lia; auto. repeat constructor; cbn; lia.
Qed.

(** A reversed range swaps its two end points. *)
Lemma sort_reversed_range {T} (lt : T -> T -> bool) comp a first last :
  0 <= last < first -> first < zlen a ->
  exists a', sort lt comp a first last = Ok (Some a') /\ swap a first last = Ok a'.
Proof.
  intros Hf Hl. unfold sort, sort_cap. replace (1 <? zlen a) with true by lia.
  unfold push. replace (zlen (@nil (Z * Z)) <? zlen a) with true by (unfold zlen at 1; cbn; lia).
  destruct (length a) as [|n] eqn:El; [unfold zlen in *; lia|].
  destruct (get_ex a last ltac:(lia)) as [x Ex].
  destruct (swap_ok a first last) as (a' & E & _); try lia.
  exists a'. split; [|exact E]. cbn [sort_loop]. rewrite Ex. cbn [bind].
  replace (Z.to_nat (last - first)) with 0%nat by lia. cbn [partition_loop bind fst snd]. rewrite E. cbn [bind].
  replace (first <? first - 1) with false by lia. replace (first + 1 <? last) with false by lia.
  destruct n; reflexivity.
Qed.

(** ** reverse and rotate *)

Lemma reverse_loop_ok {T} : forall fuel s e (a : list T),
  0 <= s -> e < zlen a -> s <= e + 1 -> e - s < 2 * Z.of_nat fuel ->
  exists a', reverse_loop fuel s e a = Ok a' /\ zlen a' = zlen a /\
    forall k, get a' k = if (s <=? k) && (k <=? e) then get a (s + e - k) else get a k.
Proof.
  induction fuel as [|fuel IH]; intros s e a Hs He Hse Hf.
  - exists a. split; [reflexivity|]. split; [reflexivity|]. intros k.
    destruct (Z.leb_spec s k), (Z.leb_spec k e); cbn [andb]; auto. lia.
  - cbn [reverse_loop]. destruct (Z.ltb_spec s e) as [H|H].
    + destruct (swap_ok a s e) as (a1 & E & _ & L & G); try lia. rewrite E. cbn [bind].
      destruct (IH (s + 1) (e - 1) a1) as (a' & E' & L' & G'); try lia.
      exists a'. split; [exact E'|]. split; [congruence|]. intros k. rewrite G', !G.
      destruct (Z.eqb_spec k s) as [->|Hks].
      * replace ((s + 1 <=? s) && (s <=? e - 1)) with false by lia.
        replace ((s <=? s) && (s <=? e)) with true by lia. f_equal. lia.
      * destruct (Z.eqb_spec k e) as [->|Hke].
        -- replace ((s + 1 <=? e) && (e <=? e - 1)) with false by lia.
           replace ((s <=? e) && (e <=? e)) with true by lia. f_equal. lia.
        -- replace ((s + 1 <=? k) && (k <=? e - 1)) with ((s <=? k) && (k <=? e)) by lia.
           destruct ((s <=? k) && (k <=? e)) eqn:Ek; auto.
           replace (s + 1 + (e - 1) - k =? s) with false by lia.
           replace (s + 1 + (e - 1) - k =? e) with false by lia. f_equal. lia.
    + exists a. split; [reflexivity|]. split; [reflexivity|]. intros k.
      destruct (Z.leb_spec s k), (Z.leb_spec k e); cbn [andb]; auto. f_equal. lia.
Qed.

Lemma reverse_ok {T} (a : list T) first last :
  0 <= first -> first <= last + 1 -> last < zlen a ->
  exists a', reverse a first last = Ok a' /\ zlen a' = zlen a /\
    forall k, get a' k = if (first <=? k) && (k <=? last) then get a (first + last - k) else get a k.
Proof.
  intros Hf Hfl Hl. unfold reverse. destruct (Z.ltb_spec first last).
  - apply reverse_loop_ok; try lia; unfold zlen in *; lia.
  - exists a. split; [reflexivity|]. split; [reflexivity|]. intros k.
    destruct (Z.leb_spec first k), (Z.leb_spec k last); cbn [andb]; auto. f_equal. lia.
Qed.

Lemma reverse_oob {T} (a : list T) first last :
  0 <= first < last -> zlen a <= last -> reverse a first last = Ub.
Proof.
  intros H Hl. unfold reverse. replace (first <? last) with true by lia. cbn [reverse_loop].
  replace (first <? last) with true by lia. rewrite swap_oob by lia. reflexivity.
Qed.

Lemma szsub_ok a b : 0 <= b <= a -> a < 2 ^ 64 -> szsub a b = a - b.
Proof. intros. unfold szsub. apply Z.mod_small. lia. Qed.

Lemma rotate_ok {T} (a : list T) k :
  0 < zlen a < 2 ^ 31 -> - 2 ^ 31 < k < 2 ^ 31 -> (0 <= k \/ k mod zlen a <> 0) ->
  exists a', rotate a k = Ok a' /\ zlen a' = zlen a /\
    forall i, 0 <= i < zlen a -> get a' ((i + k) mod zlen a) = get a i.
Proof.
  intros Hn Hk Hneg. unfold rotate. destruct (Z.eqb_spec k 0) as [->|Hk0].
  { exists a. split; [reflexivity|]. split; [reflexivity|]. intros i Hi.
    rewrite Z.add_0_r, Z.mod_small by lia. reflexivity. }
  set (n := zlen a) in *.
  destruct (Z.ltb_spec 0 k) as [Hpos|Hpos].
  - pose proof (Z.mod_pos_bound k n ltac:(lia)) as Hr. set (r := k mod n) in *. cbv zeta.
    rewrite (szsub_ok n r), (szsub_ok n 1), (szsub_ok (n - r) 1) by lia.
    destruct (reverse_ok a (n - r) (n - 1)) as (a1 & E1 & L1 & G1); try lia. rewrite E1. cbn [bind].
    destruct (reverse_ok a1 0 (n - r - 1)) as (a2 & E2 & L2 & G2); try lia. rewrite E2. cbn [bind].
    destruct (reverse_ok a2 0 (n - 1)) as (a3 & E3 & L3 & G3); try lia. rewrite E3.
    exists a3. split; [reflexivity|]. split; [lia|]. intros i Hi.
    assert (Em : (i + k) mod n = if i + r <? n then i + r else i + r - n).
    { rewrite <- Zplus_mod_idemp_r. fold r. destruct (Z.ltb_spec (i + r) n).
      - apply Z.mod_small; lia.
      - symmetry. apply Z.mod_unique_pos with 1; lia. }
    rewrite Em, G3. destruct (Z.ltb_spec (i + r) n).
    + replace ((0 <=? i + r) && (i + r <=? n - 1)) with true by lia.
      rewrite G2. replace ((0 <=? 0 + (n - 1) - (i + r)) && (0 + (n - 1) - (i + r) <=? n - r - 1)) with true by lia.
      rewrite G1.
      replace ((n - r <=? 0 + (n - r - 1) - (0 + (n - 1) - (i + r))) && (0 + (n - r - 1) - (0 + (n - 1) - (i + r)) <=? n - 1)) with false by lia.
      f_equal. lia.
    + replace ((0 <=? i + r - n) && (i + r - n <=? n - 1)) with true by lia.
      rewrite G2. replace ((0 <=? 0 + (n - 1) - (i + r - n)) && (0 + (n - 1) - (i + r - n) <=? n - r - 1)) with false by lia.
      rewrite G1. replace ((n - r <=? 0 + (n - 1) - (i + r - n)) && (0 + (n - 1) - (i + r - n) <=? n - 1)) with true by lia.
      f_equal. lia.
  - replace (k =? - 2 ^ 31) with false by lia.
    pose proof (Z.mod_pos_bound (- k) n ltac:(lia)) as Hr.
    assert (Hr0 : (- k) mod n <> 0).
    { destruct Hneg as [|Hneg]; [lia|]. intros C. apply Hneg. apply Z.mod_divide; [lia|].
      apply Z.mod_divide in C; [|lia]. apply Z.divide_opp_r in C. now rewrite Z.opp_involutive in C. }
    set (r := (- k) mod n) in *. cbv zeta.
    rewrite (szsub_ok r 1), (szsub_ok n 1) by lia.
    destruct (reverse_ok a 0 (r - 1)) as (a1 & E1 & L1 & G1); try lia. rewrite E1. cbn [bind].
    destruct (reverse_ok a1 r (n - 1)) as (a2 & E2 & L2 & G2); try lia. rewrite E2. cbn [bind].
    destruct (reverse_ok a2 0 (n - 1)) as (a3 & E3 & L3 & G3); try lia. rewrite E3.
    exists a3. split; [reflexivity|]. split; [lia|]. intros i Hi.
    assert (Em : (i + k) mod n = if r <=? i then i - r else i - r + n).
    { replace (i + k) with (i - (- k)) by lia. rewrite <- Zminus_mod_idemp_r. fold r. destruct (Z.leb_spec r i).
      - apply Z.mod_small; lia.
      - symmetry. apply Z.mod_unique_pos with (-1); lia. }
    rewrite Em, G3. destruct (Z.leb_spec r i).
    + replace ((0 <=? i - r) && (i - r <=? n - 1)) with true by lia.
      rewrite G2. replace ((r <=? 0 + (n - 1) - (i - r)) && (0 + (n - 1) - (i - r) <=? n - 1)) with true by lia.
      rewrite G1.
      replace ((0 <=? r + (n - 1) - (0 + (n - 1) - (i - r))) && (r + (n - 1) - (0 + (n - 1) - (i - r)) <=? r - 1)) with false by lia.
      f_equal. lia.
    + replace ((0 <=? i - r + n) && (i - r + n <=? n - 1)) with true by lia.
      rewrite G2. replace ((r <=? 0 + (n - 1) - (i - r + n)) && (0 + (n - 1) - (i - r + n) <=? n - 1)) with false by lia.
      rewrite G1. replace ((0 <=? 0 + (n - 1) - (i - r + n)) && (0 + (n - 1) - (i - r + n) <=? r - 1)) with true by lia.
      f_equal. lia.
Qed.

Lemma rotate_ub {T} (a : list T) k :
  0 < zlen a < 2 ^ 31 -> - 2 ^ 31 <= k < 0 -> (k mod zlen a = 0 \/ k = - 2 ^ 31) -> rotate a k = Ub.
Proof.
  intros Hn Hk H. unfold rotate. replace (k =? 0) with false by lia. replace (0 <? k) with false by lia.
  destruct (Z.eqb_spec k (- 2 ^ 31)); auto. cbv zeta.
  destruct H as [H|H]; [|lia].
  assert (E : (- k) mod zlen a = 0).
  { apply Z.mod_divide in H; [|lia]. apply Z.mod_divide; [lia|]. now apply Z.divide_opp_r. }
  rewrite E. unfold szsub at 1. change ((0 - 1) mod 2 ^ 64) with (2 ^ 64 - 1).
  rewrite reverse_oob by lia. reflexivity.
Qed.

(** ** Linear scans *)

Lemma fill_loop_ok {T} (v : T) : forall k i a,
  0 <= i -> i + Z.of_nat k <= zlen a ->
  exists a', fill_loop k i v a = Ok a' /\ zlen a' = zlen a /\
    forall j, get a' j = if (i <=? j) && (j <? i + Z.of_nat k) then Ok v else get a j.
Proof.
  induction k as [|k IH]; intros i a Hi Hk.
  - exists a. split; [reflexivity|]. split; [reflexivity|]. intros j.
    replace ((i <=? j) && (j <? i + Z.of_nat 0)) with false by lia. reflexivity.
  - cbn [fill_loop]. rewrite set_ok by lia. cbn [bind].
    destruct (IH (i + 1) (upd a (Z.to_nat i) v)) as (a' & E & L & G); try lia.
    { rewrite zlen_upd; lia. }
    exists a'. split; [exact E|]. split; [rewrite L; apply zlen_upd|]. intros j. rewrite G, get_upd by lia.
    destruct (Z.eqb_spec j i) as [->|].
    + replace ((i + 1 <=? i) && (i <? i + 1 + Z.of_nat k)) with false by lia.
      replace ((i <=? i) && (i <? i + Z.of_nat (S k))) with true by lia. reflexivity.
    + replace ((i + 1 <=? j) && (j <? i + 1 + Z.of_nat k)) with ((i <=? j) && (j <? i + Z.of_nat (S k))) by lia.
      reflexivity.
Qed.

Lemma fill_ok {T} (a : list T) v first last :
  0 <= first -> last < zlen a ->
  exists a', fill a v first last = Ok a' /\ zlen a' = zlen a /\
    forall j, get a' j = if (first <=? j) && (j <=? last) then Ok v else get a j.
Proof.
  intros Hf Hl. unfold fill, range_count. destruct (Z_le_gt_dec first last) as [H|H].
  - destruct (fill_loop_ok v (Z.to_nat (last - first + 1)) first a) as (a' & E & L & G); try lia.
    exists a'. split; [exact E|]. split; [exact L|]. intros j. rewrite G.
    replace (j <? first + Z.of_nat (Z.to_nat (last - first + 1))) with (j <=? last) by lia. reflexivity.
  - replace (Z.to_nat (last - first + 1)) with 0%nat by lia. exists a. split; [reflexivity|].
    split; [reflexivity|]. intros j. replace ((first <=? j) && (j <=? last)) with false by lia. reflexivity.
Qed.

(** Positions scanned by the loops. *)
Definition in_range (i : Z) (k : nat) (j : Z) : Prop := i <= j < i + Z.of_nat k.

Lemma find_loop_ok {T} (p : T -> bool) a : forall k i,
  0 <= i -> i + Z.of_nat k <= zlen a ->
  (exists j x, find_loop p k i a = Ok (Some j) /\ in_range i k j /\ get a j = Ok x /\ p x = true /\
     forall j' x', in_range i k j' -> j' < j -> get a j' = Ok x' -> p x' = false) \/
  (find_loop p k i a = Ok None /\ forall j' x', in_range i k j' -> get a j' = Ok x' -> p x' = false).
Proof.
  unfold in_range. induction k as [|k IH]; intros i Hi Hk.
  - right. split; [reflexivity|]. intros; lia.
  - cbn [find_loop]. destruct (get_ex a i) as [x Ex]; [lia|]. rewrite Ex. cbn [bind].
    destruct (p x) eqn:Ep.
    + left. exists i, x. split; [reflexivity|]. split; [lia|]. split; auto. split; auto. intros; lia.
    + assert (Hstep : forall j' x', j' = i -> get a j' = Ok x' -> p x' = false)
        by (intros j' x' -> E'; rewrite Ex in E'; injection E' as <-; exact Ep).
      destruct (IH (i + 1)) as [(j & y & E & Hj & Ey & Epy & HH)|(E & HH)]; try lia.
      * left. exists j, y. split; [exact E|]. split; [lia|]. split; auto. split; auto.
        intros j' x' Hj' Hlt E'. destruct (Z.eq_dec j' i); [eapply Hstep; eauto|]. apply (HH j'); auto; lia.
      * right. split; [exact E|]. intros j' x' Hj' E'.
        destruct (Z.eq_dec j' i); [eapply Hstep; eauto|]. apply (HH j'); auto; lia.
Qed.

Lemma range_in first last j : first <= last -> in_range first (range_count first last) j <-> first <= j <= last.
Proof. unfold in_range, range_count. lia. Qed.

Lemma find_p_ok {T} (p : T -> bool) (a : list T) first last :
  0 <= first <= last -> last < zlen a ->
  (exists j x, find_loop p (range_count first last) first a = Ok (Some j) /\ first <= j <= last /\ get a j = Ok x /\ p x = true /\
     forall j' x', first <= j' < j -> get a j' = Ok x' -> p x' = false) \/
  (find_loop p (range_count first last) first a = Ok None /\ forall j' x', first <= j' <= last -> get a j' = Ok x' -> p x' = false).
Proof.
  intros Hf Hl.
  destruct (find_loop_ok p a (range_count first last) first) as [(j & x & E & Hj & Ex & Ep & HH)|(E & HH)];
    try (unfold range_count; lia).
  - left. exists j, x. apply range_in in Hj; [|lia]. split; [exact E|]. split; auto. split; auto. split; auto.
    intros j' x' Hj' E'. apply (HH j'); auto; [apply range_in; lia | lia].
  - right. split; [exact E|]. intros j' x' Hj' E'. apply (HH j'); auto. apply range_in; lia.
Qed.

Lemma find_ok {T} (eqb : T -> T -> bool) (a : list T) key first last :
  0 <= first <= last -> last < zlen a ->
  (exists j x, find eqb a key first last = Ok (Some j) /\ first <= j <= last /\ get a j = Ok x /\ eqb x key = true /\
     forall j' x', first <= j' < j -> get a j' = Ok x' -> eqb x' key = false) \/
  (find eqb a key first last = Ok None /\ forall j' x', first <= j' <= last -> get a j' = Ok x' -> eqb x' key = false).
Proof. exact (find_p_ok (fun x => eqb x key) a first last). Qed.

Lemma any_find {T} (p : T -> bool) a : forall k i,
  any_loop p k i a = (r <- find_loop p k i a ;; Ok match r with Some _ => true | None => false end).
Proof.
  induction k as [|k IH]; intros i; cbn [any_loop find_loop]; [reflexivity|].
  destruct (get a i); cbn [bind]; auto. destruct (p a0); auto.
Qed.

Lemma all_find {T} (p : T -> bool) a : forall k i,
  all_loop p k i a = (r <- find_loop (fun x => negb (p x)) k i a ;; Ok match r with Some _ => false | None => true end).
Proof.
  induction k as [|k IH]; intros i; cbn [all_loop find_loop]; [reflexivity|].
  destruct (get a i); cbn [bind]; auto. destruct (p a0); cbn [negb]; auto.
Qed.

Lemma any_of_ok {T} (p : T -> bool) (a : list T) first last :
  0 <= first <= last -> last < zlen a ->
  exists r, any_of a p first last = Ok r /\
    (r = true <-> exists j x, first <= j <= last /\ get a j = Ok x /\ p x = true).
Proof.
  intros Hf Hl. unfold any_of. rewrite any_find.
  destruct (find_p_ok p a first last Hf Hl) as [(j & x & -> & Hj & Ex & Ep & HH)|(-> & HH)]; cbn [bind].
  - exists true. split; auto. split; auto. intros _. eauto.
  - exists false. split; auto. split; [discriminate|]. intros (j & x & Hj & Ex & Ep).
    rewrite (HH j x Hj Ex) in Ep. discriminate.
Qed.

Lemma all_of_ok {T} (p : T -> bool) (a : list T) first last :
  0 <= first <= last -> last < zlen a ->
  exists r, all_of a p first last = Ok r /\
    (r = true <-> forall j x, first <= j <= last -> get a j = Ok x -> p x = true).
Proof.
  intros Hf Hl. unfold all_of. rewrite all_find.
  destruct (find_p_ok (fun x => negb (p x)) a first last Hf Hl) as [(j & x & -> & Hj & Ex & Ep & HH)|(-> & HH)]; cbn [bind].
  - exists false. split; auto. split; [discriminate|]. intros H. rewrite (H j x) in Ep; auto. 
  - exists true. split; auto. split; auto. intros _ j x Hj Ex. specialize (HH j x Hj Ex).
    now apply negb_false_iff in HH.
Qed.

Lemma replace_find {T} (p : T -> bool) v a : forall k i,
  replace_loop p v k i a = (r <- find_loop p k i a ;; match r with Some j => set a j v | None => Ok a end).
Proof.
  induction k as [|k IH]; intros i; cbn [replace_loop find_loop]; [reflexivity|].
  destruct (get a i); cbn [bind]; auto. destruct (p a0); auto.
Qed.

(** Only the first match is replaced. *)
Lemma replace_p_ok {T} (p : T -> bool) v (a : list T) first last :
  0 <= first <= last -> last < zlen a ->
  (exists j x a', replace_loop p v (range_count first last) first a = Ok a' /\
     first <= j <= last /\ get a j = Ok x /\ p x = true /\
     (forall j' x', first <= j' < j -> get a j' = Ok x' -> p x' = false) /\
     forall i, get a' i = if i =? j then Ok v else get a i) \/
  (replace_loop p v (range_count first last) first a = Ok a /\
     forall j' x', first <= j' <= last -> get a j' = Ok x' -> p x' = false).
Proof.
  intros Hf Hl. rewrite replace_find.
  destruct (find_p_ok p a first last Hf Hl) as [(j & x & -> & Hj & Ex & Ep & HH)|(-> & HH)]; cbn [bind].
  - left. exists j, x. rewrite set_ok by lia. eexists. split; [reflexivity|]. split; auto. split; auto. split; auto.
    split; auto. intros i. rewrite get_upd by lia. reflexivity.
  - right. auto.
Qed.

(** The sub-list first..last. *)
Definition slice {T} (a : list T) (i : Z) (k : nat) : list T := firstn k (skipn (Z.to_nat i) a).

Lemma slice_S {T} (a : list T) i k x : 0 <= i -> get a i = Ok x -> slice a i (S k) = x :: slice a (i + 1) k.
Proof.
  intros Hi E. apply get_ok_iff in E as [_ E]. unfold slice.
  replace (Z.to_nat (i + 1)) with (S (Z.to_nat i)) by lia. revert E. generalize (Z.to_nat i). clear.
  intros m. revert a. induction m as [|m IH]; intros [|h t] E; cbn in *; try discriminate.
  - injection E as ->. reflexivity.
  - apply (IH t E).
Qed.

Lemma count_loop_ok {T} (p : T -> bool) a : forall k i c,
  0 <= i -> i + Z.of_nat k <= zlen a ->
  count_loop p k i c a = Ok (c + zlen (filter p (slice a i k))).
Proof.
  induction k as [|k IH]; intros i c Hi Hk.
  - cbn. f_equal. unfold slice, zlen; cbn. lia.
  - cbn [count_loop]. destruct (get_ex a i) as [x Ex]; [lia|]. rewrite Ex. cbn [bind].
    rewrite (slice_S a i k x) by auto. cbn [filter]. rewrite IH by lia. f_equal.
    destruct (p x); unfold zlen; cbn [length]; lia.
Qed.

Lemma count_if_ok {T} (p : T -> bool) (a : list T) first last :
  0 <= first <= last -> last < zlen a ->
  count_if a p first last = Ok (zlen (filter p (slice a first (range_count first last)))).
Proof. intros Hf Hl. unfold count_if. rewrite count_loop_ok; [reflexivity | lia | unfold range_count; lia]. Qed.

Lemma find_if_loop_ok {T} (p : T -> bool) a : forall k i found,
  0 <= i -> i + Z.of_nat k <= zlen a ->
  (exists j x, find_if_loop p k i found a = Ok (Some j) /\ in_range i k j /\ get a j = Ok x /\ p x = true /\
     forall j' x', in_range i k j' -> j < j' -> get a j' = Ok x' -> p x' = false) \/
  (find_if_loop p k i found a = Ok found /\ forall j' x', in_range i k j' -> get a j' = Ok x' -> p x' = false).
Proof.
  unfold in_range. induction k as [|k IH]; intros i found Hi Hk.
  - right. split; [reflexivity|]. intros; lia.
  - cbn [find_if_loop]. destruct (get_ex a i) as [x Ex]; [lia|]. rewrite Ex. cbn [bind].
    destruct (IH (i + 1) (if p x then Some i else found)) as [(j & y & E & Hj & Ey & Epy & HH)|(E & HH)]; try lia.
    + left. exists j, y. split; [exact E|]. split; [lia|]. split; auto. split; auto.
      intros j' x' Hj' Hlt. apply HH; lia.
    + rewrite E. destruct (p x) eqn:Ep.
      * left. exists i, x. split; [reflexivity|]. split; [lia|]. split; auto. split; auto.
        intros j' x' Hj' Hlt. apply HH; lia.
      * right. split; [reflexivity|]. intros j' x' Hj' E'.
        destruct (Z.eq_dec j' i) as [->|]; [congruence|]. apply (HH j'); auto; lia.
Qed.

Lemma find_if_ok {T} (p : T -> bool) (a : list T) first last :
  0 <= first <= last -> last < zlen a ->
  (exists j x, find_if a p first last = Ok (Some j) /\ first <= j <= last /\ get a j = Ok x /\ p x = true /\
     forall j' x', j < j' <= last -> get a j' = Ok x' -> p x' = false) \/
  (find_if a p first last = Ok None /\ forall j' x', first <= j' <= last -> get a j' = Ok x' -> p x' = false).
Proof.
  intros Hf Hl. unfold find_if.
  destruct (find_if_loop_ok p a (range_count first last) first None) as [(j & x & E & Hj & Ex & Ep & HH)|(E & HH)];
    try (unfold range_count; lia).
  - left. exists j, x. apply range_in in Hj; [|lia]. split; [exact E|]. split; auto. split; auto. split; auto.
    intros j' x' Hj' E'. apply (HH j'); auto; [apply range_in; lia | lia].
  - right. split; [exact E|]. intros j' x' Hj' E'. apply (HH j'); auto. apply range_in; lia.
Qed.

(** for_each is a left-to-right state-threading map over the slice. *)
Lemma thread_length {S T} (fn : S -> T -> S * T) l : forall s, length (snd (thread fn s l)) = length l.
Proof.
  induction l as [|x l IH]; intros s; cbn; auto. destruct (fn s x) as [s1 y].
  specialize (IH s1). destruct (thread fn s1 l). cbn in *. lia.
Qed.

Lemma for_each_split {S T} (fn : S -> T -> S * T) : forall mid pre post s,
  for_each_loop fn (length mid) (zlen pre) s (pre ++ mid ++ post) =
  Ok (fst (thread fn s mid), pre ++ snd (thread fn s mid) ++ post).
Proof.
  induction mid as [|x mid IH]; intros pre post s; [reflexivity|].
  cbn [length for_each_loop app thread].
  assert (G : get (pre ++ x :: mid ++ post) (zlen pre) = Ok x).
  { apply get_ok_iff. unfold zlen. split; [lia|]. rewrite Nat2Z.id, nth_error_app2, Nat.sub_diag by lia. reflexivity. }
  rewrite G. cbn [bind]. destruct (fn s x) as [s1 y].
  rewrite set_ok by (unfold zlen; rewrite app_length; cbn [length]; lia). cbn [bind].
  replace (upd (pre ++ x :: mid ++ post) (Z.to_nat (zlen pre)) y) with ((pre ++ [y]) ++ mid ++ post).
  2:{ unfold zlen. rewrite Nat2Z.id. clear. induction pre as [|h pre IH]; cbn; auto. now rewrite IH. }
  replace (zlen pre + 1) with (zlen (pre ++ [y])) by (unfold zlen; rewrite app_length; cbn [length]; lia).
  rewrite IH. destruct (thread fn s1 mid) as [s2 l2]. cbn [fst snd].
  rewrite <- app_assoc. reflexivity.
Qed.

(** ** Binary search *)

Lemma bsearch_ok {T} (lt eqb : T -> T -> bool) key a : forall fuel l r,
  0 <= l -> r < zlen a -> r - l + 1 < Z.of_nat fuel ->
  exists res, bsearch_loop lt eqb key fuel l r a = Ok res /\
    (forall j, res = Some j -> l <= j <= r /\ exists x, get a j = Ok x /\ eqb x key = true) /\
    (weak_order lt -> order_eq lt eqb -> sorted_range lt a l r -> res = None ->
       forall j x, l <= j <= r -> get a j = Ok x -> eqb x key = false).
Proof.
  induction fuel as [|fuel IH]; intros l r Hl Hr Hf.
  - exists None. split; [reflexivity|]. split; [discriminate|]. intros; lia.
  - cbn [bsearch_loop]. destruct (Z.leb_spec l r) as [H|H].
    + rewrite Z.quot_div_nonneg by lia. set (mid := l + (r - l) / 2).
      assert (Hm : l <= mid <= r) by (unfold mid; pose proof (Z.div_le_upper_bound (r-l) 2 (r-l)); 
        pose proof (Z.div_pos (r - l) 2); lia).
      destruct (get_ex a mid) as [x Ex]; [lia|]. cbv zeta. rewrite Ex. cbn [bind].
      destruct (eqb x key) eqn:Ee.
      * exists (Some mid). split; [reflexivity|]. split; [intros j [= <-]; eauto|]. discriminate.
      * destruct (lt x key) eqn:El.
        -- destruct (IH (mid + 1) r) as (res & E & HS & HN); try lia.
           exists res. split; [exact E|]. split.
           { intros j Hj. destruct (HS j Hj) as (Hj' & HS'). split; [lia | exact HS']. }
           intros Hw He Hs Hn j y Hj Ey.
           destruct (Z_le_gt_dec j mid) as [C|C].
           ++ destruct (eqb y key) eqn:Ek; auto. exfalso. destruct (proj1 (He _ _) Ek) as [K1 K2].
              destruct (Z.eq_dec j mid) as [->|]; [congruence|].
              assert (lt x y = false) by (apply (Hs j mid y x); auto; lia).
              destruct Hw as [Ha Ht]. destruct (Ht x key y El); congruence.
           ++ apply (HN Hw He) with j; auto; try lia. intros i' j' x' y' H1 H2 H3. apply Hs; lia.
        -- destruct (IH l (mid - 1)) as (res & E & HS & HN); try lia.
           exists res. split; [exact E|]. split.
           { intros j Hj. destruct (HS j Hj) as (Hj' & HS'). split; [lia | exact HS']. }
           intros Hw He Hs Hn j y Hj Ey.
           destruct (Z_le_gt_dec mid j) as [C|C].
           ++ destruct (eqb y key) eqn:Ek; auto. exfalso. destruct (proj1 (He _ _) Ek) as [K1 K2].
              destruct (Z.eq_dec j mid) as [->|]; [congruence|].
              assert (lt y x = false) by (apply (Hs mid j x y); auto; lia).
              assert (lt key x = true).
              { destruct (lt key x) eqn:Ekx; auto.
                assert (eqb x key = true) by (apply He; auto). congruence. }
              destruct Hw as [Ha Ht]. destruct (Ht key x y H1); congruence.
           ++ apply (HN Hw He) with j; auto; try lia. intros i' j' x' y' H1 H2 H3. apply Hs; lia.
    + exists None. split; [reflexivity|]. split; [discriminate|]. intros; lia.
Qed.

(** ** Statements in the vocabulary of the specification *)

Lemma find_spec {T} (eqb : T -> T -> bool) (a : list T) key first last :
  0 <= first <= last -> last < zlen a ->
  exists r, find eqb a key first last = Ok r /\
    match r with
    | Some j => first_match (fun x => eqb x key) a first last j
    | None => no_match (fun x => eqb x key) a first last
    end.
Proof.
  intros Hf Hl. destruct (find_ok eqb a key first last Hf Hl) as [(j & x & E & Hj & Ex & Ep & HH)|(E & HH)].
  - exists (Some j). split; [exact E|]. split; [exact Hj|]. split; [eauto | exact HH].
  - exists None. split; [exact E | exact HH].
Qed.

Lemma find_if_spec {T} (p : T -> bool) (a : list T) first last :
  0 <= first <= last -> last < zlen a ->
  exists r, find_if a p first last = Ok r /\
    match r with
    | Some j => last_match p a first last j
    | None => no_match p a first last
    end.
Proof.
  intros Hf Hl. destruct (find_if_ok p a first last Hf Hl) as [(j & x & E & Hj & Ex & Ep & HH)|(E & HH)].
  - exists (Some j). split; [exact E|]. split; [exact Hj|]. split; [eauto | exact HH].
  - exists None. split; [exact E | exact HH].
Qed.

Lemma replace_p_spec {T} (p : T -> bool) v (a : list T) first last :
  0 <= first <= last -> last < zlen a ->
  exists a', replace_loop p v (range_count first last) first a = Ok a' /\ length a' = length a /\
    ((no_match p a first last /\ a' = a) \/
     (exists j, first_match p a first last j /\ forall i, get a' i = if i =? j then Ok v else get a i)).
Proof.
  intros Hf Hl. destruct (replace_p_ok p v a first last Hf Hl) as [(j & x & a' & E & Hj & Ex & Ep & HH & G)|(E & HH)].
  - exists a'. split; [exact E|]. split.
    + rewrite replace_find in E. destruct (find_loop _ _ _ _) as [[k|]|]; cbn [bind] in E; try congruence.
      apply set_inv in E as [_ ->]. apply upd_length.
    + right. exists j. split; [|exact G]. split; [exact Hj|]. split; [eauto | exact HH].
  - exists a. split; [exact E|]. split; auto.
Qed.

Lemma replace_if_spec {T} (p : T -> bool) v (a : list T) first last :
  0 <= first <= last -> last < zlen a ->
  exists a', replace_if a p v first last = Ok a' /\ length a' = length a /\
    ((no_match p a first last /\ a' = a) \/
     (exists j, first_match p a first last j /\ forall i, get a' i = if i =? j then Ok v else get a i)).
Proof. exact (replace_p_spec p v a first last). Qed.

Lemma replace_spec {T} (eqb : T -> T -> bool) old v (a : list T) first last :
  0 <= first <= last -> last < zlen a ->
  exists a', replace eqb a old v first last = Ok a' /\ length a' = length a /\
    ((no_match (eqb old) a first last /\ a' = a) \/
     (exists j, first_match (eqb old) a first last j /\ forall i, get a' i = if i =? j then Ok v else get a i)).
Proof. exact (replace_p_spec (eqb old) v a first last). Qed.

Lemma count_spec {T} (p : T -> bool) (a : list T) first last :
  0 <= first <= last -> last < zlen a ->
  count_if a p first last = Ok (zlen (filter p (segment a first last))).
Proof. exact (count_if_ok p a first last). Qed.

Lemma skipn_skipn {T} : forall n m (l : list T), skipn n (skipn m l) = skipn (m + n) l.
Proof. intros n m. induction m as [|m IH]; intros [|x l]; cbn [skipn Nat.add]; auto. apply skipn_nil. Qed.

Lemma for_each_spec {S T} (fn : S -> T -> S * T) (a : list T) s first last :
  0 <= first <= last -> last < zlen a ->
  for_each a fn s first last =
  Ok (fst (thread fn s (segment a first last)),
      firstn (Z.to_nat first) a ++ snd (thread fn s (segment a first last)) ++ skipn (Z.to_nat (last + 1)) a).
Proof.
  intros Hf Hl. unfold for_each, segment, range_count.
  set (k := Z.to_nat (last - first + 1)). set (m := Z.to_nat first).
  assert (Ea : a = firstn m a ++ firstn k (skipn m a) ++ skipn (Z.to_nat (last + 1)) a).
  { rewrite <- (firstn_skipn m a) at 1. f_equal. rewrite <- (firstn_skipn k (skipn m a)) at 1. f_equal.
    rewrite skipn_skipn. f_equal. unfold k, m. lia. }
  assert (Ek : k = length (firstn k (skipn m a))).
  { rewrite firstn_length, skipn_length. unfold k, m, zlen in *. lia. }
  assert (Em : first = zlen (firstn m a)).
  { unfold zlen. rewrite firstn_length. unfold m, zlen in *. lia. }
  pose proof (for_each_split fn (firstn k (skipn m a)) (firstn m a) (skipn (Z.to_nat (last + 1)) a) s) as H.
  rewrite <- Ea, <- Ek, <- Em in H. exact H.
Qed.

Lemma binary_search_spec {T} (lt eqb : T -> T -> bool) (a : list T) key first last :
  0 <= first -> last < zlen a ->
  exists r, binary_search lt eqb a key first last = Ok r /\
    (forall j, r = Some j -> first <= j <= last /\ exists x, get a j = Ok x /\ eqb x key = true) /\
    (weak_order lt -> order_eq lt eqb -> sorted_range lt a first last ->
       (r <> None <-> exists j x, first <= j <= last /\ get a j = Ok x /\ eqb x key = true)).
Proof.
  intros Hf Hl. unfold binary_search.
  destruct (Z_le_gt_dec first last) as [C|C].
  2:{ exists None. cbn [bsearch_loop]. replace (first <=? last) with false by lia. split; [reflexivity|].
      split; [discriminate|]. intros. split; [congruence|]. intros (j & x & Hj & _). lia. }
  destruct (bsearch_ok lt eqb key a (S (range_count first last)) first last) as (r & E & HS & HN); try lia.
  { unfold range_count. lia. }
  exists r. split; [exact E|]. split; [exact HS|]. intros Hw He Hs. split.
  - intros Hr. destruct r as [j|]; [|congruence]. destruct (HS j eq_refl) as (Hj & x & Ex & Ee). eauto.
  - intros (j & x & Hj & Ex & Ee) ->. rewrite (HN Hw He Hs eq_refl j x Hj Ex) in Ee. discriminate.
Qed.

Lemma reverse_spec {T} (a : list T) first last :
  0 <= first <= last -> last < zlen a ->
  exists a', reverse a first last = Ok a' /\ length a' = length a /\
    (forall i, first <= i <= last -> get a' i = get a (first + last - i)) /\
    (forall i, i < first \/ last < i -> get a' i = get a i).
Proof.
  intros Hf Hl. destruct (reverse_ok a first last) as (a' & E & L & G); try lia.
  exists a'. split; [exact E|]. split; [unfold zlen in L; lia|]. split; intros i Hi; rewrite G.
  - replace ((first <=? i) && (i <=? last)) with true by lia. reflexivity.
  - replace ((first <=? i) && (i <=? last)) with false by lia. reflexivity.
Qed.

(** ** Witnesses *)

Lemma comparator_witness : exists (comp : Z -> Z -> bool) a a',
  weak_order comp /\ sort Z.ltb (Some comp) a 0 (zlen a - 1) = Ok (Some a') /\
  ~ sorted_range comp a' 0 (zlen a - 1).
Proof.
  exists Z.ltb, [1; 2; 3], [3; 1; 2]. split; [split; intros *; rewrite ?Z.ltb_lt, ?Z.ltb_ge; lia|].
  split; [vm_compute; reflexivity|]. intros H. specialize (H 0 1 3 1).
  assert (C : (1 <? 3) = false) by (apply H; try reflexivity; cbn; lia). discriminate.
Qed.

Lemma find_if_witness : exists (p : Z -> bool) a j,
  find_if a p 0 (zlen a - 1) = Ok (Some j) /\ ~ first_match p a 0 (zlen a - 1) j.
Proof.
  exists (Z.ltb 5), [1; 8; 2; 9; 3], 3. split; [vm_compute; reflexivity|].
  intros (_ & _ & H). specialize (H 1 8 ltac:(lia) eq_refl). discriminate.
Qed.

Lemma replace_witness : exists (a a' : list Z) old v,
  old <> v /\ replace Z.eqb a old v 0 (zlen a - 1) = Ok a' /\
  exists j, 0 <= j <= zlen a - 1 /\ get a' j = Ok old.
Proof.
  exists [7; 1; 7], [0; 1; 7], 7, 0. split; [lia|]. split; [vm_compute; reflexivity|].
  exists 2. split; [cbn; lia | reflexivity].
Qed.
