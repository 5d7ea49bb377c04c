(** Which reads the interpolators perform, in any arithmetic. *)
From Coq Require Import ZArith List Bool Lia.
From Verif Require Import Base BaseLemmas Arith ArithLemmas Interp1_Model.
Import ListNotations.
Open Scope Z_scope.

Lemma get_some {B} (l : list B) i : 0 <= i < zlen l -> exists v, get l i = Ok v.
Proof.
  intros H. unfold get. destruct (Z.ltb_spec i 0); [lia|]. destruct (nth_error l (Z.to_nat i)) eqn:E; [eauto|].
  apply nth_error_None in E. unfold zlen in H. lia.
Qed.

Ltac gs1 :=
  match goal with
  | |- context [get ?l ?z] => let v := fresh "v" in let E := fresh "E" in destruct (get_some l z) as [v E]; [lia|]; rewrite E; cbn [bind]
  end.

Section Any.
Context {A : arith}.
Notation X := (F A).
Implicit Types (x : X) (tx ty : list X).

Lemma next_search_ok x tx k : forall i, 0 <= i -> i + Z.of_nat k < zlen tx -> exists r, next_search k i x tx = Ok r /\
  match r with
  | Some j => i <= j < i + Z.of_nat k /\ (forall m, i <= m < j -> exists v, get tx (m + 1) = Ok v /\ flt x v = false) /\ exists v, get tx (j + 1) = Ok v /\ flt x v = true
  | None => forall m, i <= m < i + Z.of_nat k -> exists v, get tx (m + 1) = Ok v /\ flt x v = false
  end.
Proof.
  induction k as [|k IH]; intros i H0 H; cbn [next_search].
  - eexists. split; [reflexivity|]. cbn. intros; lia.
  - gs1. destruct (flt x v) eqn:Ev.
    + eexists. split; [reflexivity|]. cbn. split; [lia|]. split; [intros; lia|]. eauto.
    + destruct (IH (i + 1)) as (r & Er & Hr); [lia|lia|]. exists r. split; [exact Er|]. destruct r as [j|].
      * destruct Hr as (H1 & H2 & H3). split; [lia|]. split; [|exact H3]. intros m Hm.
        destruct (Z.eq_dec m i) as [->|Hne]; [eauto|]. apply H2. lia.
      * intros m Hm. destruct (Z.eq_dec m i) as [->|Hne]; [eauto|]. apply Hr. lia.
Qed.

(** next() is undefined exactly when no comparison with the table succeeds. *)
Lemma next_ub x tx ty n : 2 <= n -> zlen tx = n -> zlen ty = n ->
  next x tx ty n = Ub <->
  (forall i, 1 <= i < n -> exists v, get tx i = Ok v /\ flt x v = false) /\ (exists v, get tx (n - 1) = Ok v /\ fle v x = false).
Proof.
  intros Hn Hx Hy. unfold next. rewrite Z.geb_leb. destruct (Z.leb_spec 2 n); [|lia].
  destruct (next_search_ok x tx (Z.to_nat (n - 1)) 0) as (r & Er & Hr); [lia|lia|]. rewrite Er. cbn [bind].
  destruct (get_some tx (n - 1)) as [l El]; [lia|]. rewrite El. cbn [bind]. destruct (fle l x) eqn:Ex.
  - split.
    + gs1. discriminate.
    + intros (_ & v & Ev & Hv). congruence.
  - destruct r as [j|].
    + destruct Hr as (H1 & _ & v & Ev & Hv). split.
      * gs1. discriminate.
      * intros (Hall & _). destruct (Hall (j + 1)) as (w & Ew & Hw); [lia|]. congruence.
    + rewrite get_oob by lia. split; [|reflexivity]. intros _. split.
      * intros i Hi. destruct (Hr (i - 1)) as (v & Ev & Hv); [lia|]. replace (i - 1 + 1) with i in Ev by lia. eauto.
      * exists l. auto.
Qed.

Lemma previous_search_ok x tx k : forall i near, 0 <= i -> i + Z.of_nat k <= zlen tx -> exists r, previous_search k i near x tx = Ok r /\
  ((r = near /\ (k = O \/ exists v, get tx i = Ok v /\ flt x v = true)) \/
   (i <= r < i + Z.of_nat k /\ (forall m, i <= m <= r -> exists v, get tx m = Ok v /\ flt x v = false) /\
    (r + 1 = i + Z.of_nat k \/ exists v, get tx (r + 1) = Ok v /\ flt x v = true))).
Proof.
  induction k as [|k IH]; intros i near H0 H; cbn [previous_search].
  - eexists. split; [reflexivity|]. left. auto.
  - gs1. destruct (flt x v) eqn:Ev.
    + eexists. split; [reflexivity|]. left. eauto.
    + destruct (IH (i + 1) i) as (r & Er & Hr); [lia|lia|]. exists r. split; [exact Er|]. right.
      destruct Hr as [(-> & Hk)|(H1 & H2 & H3)].
      * split; [lia|]. split; [intros m Hm; replace m with i by lia; eauto|]. destruct Hk as [->|Hk]; [left; lia|right; exact Hk].
      * split; [lia|]. split; [|destruct H3; [left; lia|right; auto]].
        intros m Hm. destruct (Z.eq_dec m i) as [->|Hne]; [eauto|]. apply H2. lia.
Qed.

Lemma previous_total x tx ty n : zlen tx = n -> zlen ty = n -> exists y, previous x tx ty n = Ok y.
Proof.
  intros Hx Hy. unfold previous. rewrite Z.geb_leb. destruct (Z.leb_spec 2 n); [|eauto]. gs1.
  destruct (fle x v); [gs1; eauto|].
  destruct (previous_search_ok x tx (Z.to_nat (n - 1)) 1 0) as (r & Er & Hr); [lia|lia|]. rewrite Er. cbn [bind].
  destruct (get_some ty r) as [w Ew]; [|eauto]. destruct Hr as [(-> & _)|(H1 & _)]; lia.
Qed.

Lemma nearest_search_ok x tx k : forall i near best, 0 <= i -> i + Z.of_nat k <= zlen tx ->
  exists r, nearest_search k i near best x tx = Ok r /\ (r = near \/ i <= r < i + Z.of_nat k).
Proof.
  induction k as [|k IH]; intros i near best H0 H; cbn [nearest_search].
  - eexists. split; [reflexivity|]. auto.
  - gs1. cbv zeta. destruct (fle _ best).
    + destruct (IH (i + 1) i (fabs (fsub x v))) as (r & Er & Hr); [lia|lia|]. exists r. split; [exact Er|]. right. destruct Hr; lia.
    + destruct (IH (i + 1) near best) as (r & Er & Hr); [lia|lia|]. exists r. split; [exact Er|]. destruct Hr; [left; auto|right; lia].
Qed.

Lemma nearest_total x tx ty n : zlen tx = n -> zlen ty = n -> exists y, nearest x tx ty n = Ok y.
Proof.
  intros Hx Hy. unfold nearest. rewrite Z.geb_leb. destruct (Z.leb_spec 2 n); [|eauto]. gs1.
  destruct (nearest_search_ok x tx (Z.to_nat (n - 1)) 1 0 (fabs (fsub x v))) as (r & Er & Hr); [lia|lia|]. rewrite Er. cbn [bind].
  destruct (get_some ty r) as [w Ew]; [|eauto]. destruct Hr; lia.
Qed.

Lemma to_int_small n : 0 <= n < 2147483648 -> to_int n = n.
Proof. intros H. unfold to_int. rewrite Z.mod_small; lia. Qed.

Lemma linear_search_total x tx ty k : forall i, 0 <= i -> i + Z.of_nat k < zlen tx -> zlen ty = zlen tx -> exists y, linear_search k i x tx ty = Ok y.
Proof.
  induction k as [|k IH]; intros i H0 H Hy; cbn [linear_search]; [eauto|]. do 2 gs1.
  destruct (fle v x && fle x v0); [do 2 gs1; eauto|]. apply IH; lia.
Qed.

Lemma linear_total x tx ty n : n < 2147483648 -> zlen tx = n -> zlen ty = n -> exists y, linear x tx ty n = Ok y.
Proof.
  intros Hn Hx Hy. unfold linear. rewrite Z.geb_leb. destruct (Z.leb_spec 2 n); [|eauto]. gs1.
  destruct (flt x v); [unfold first_line; rewrite E; cbn [bind]; repeat gs1; eauto|]. gs1.
  destruct (flt v0 x); [unfold last_line; do 4 gs1; eauto|]. rewrite to_int_small by lia.
  destruct (Z.eqb_spec n (-2147483648)); [lia|]. apply linear_search_total; lia.
Qed.

Lemma sine_loop_total x tx ty k : forall i y, 1 <= i -> i + Z.of_nat k <= zlen tx -> zlen ty = zlen tx -> exists r, sine_loop k i x y tx ty = Ok r.
Proof.
  induction k as [|k IH]; intros i y H0 H Hy; cbn [sine_loop]; [eauto|]. gs1.
  destruct (fle x v); [do 3 gs1|]; apply IH; lia.
Qed.
Lemma sine_total x tx ty n : zlen tx = n -> zlen ty = n -> exists y, sine x tx ty n = Ok y.
Proof.
  intros Hx Hy. unfold sine. rewrite Z.geb_leb. destruct (Z.leb_spec 2 n); [|eauto]. gs1.
  destruct (flt x v); [repeat gs1; eauto|]. gs1.
  destruct (flt v0 x); [do 3 gs1; eauto|]. apply sine_loop_total; lia.
Qed.

Lemma cubic_search_total x tx ty k : forall i, 2 <= i -> i + Z.of_nat k <= zlen tx -> zlen ty = zlen tx -> exists r, cubic_search k i x tx ty = Ok r.
Proof.
  induction k as [|k IH]; intros i H0 H Hy; cbn [cubic_search]; [eauto|]. gs1.
  destruct (fle x v); [do 4 gs1; eauto|]; apply IH; lia.
Qed.
(** cubic() is undefined exactly when x is found in the first interval. *)
Lemma cubic_ub x tx ty n t0 t1 tl : 4 <= n -> zlen tx = n -> zlen ty = n ->
  get tx 0 = Ok t0 -> get tx 1 = Ok t1 -> get tx (n - 1) = Ok tl ->
  cubic x tx ty n = Ub <-> flt x t0 = false /\ flt tl x = false /\ fle x t1 = true.
Proof.
  intros Hn Hx Hy E0 E1 El. unfold cubic. rewrite Z.geb_leb. destruct (Z.leb_spec 4 n); [|lia]. rewrite E0. cbn [bind].
  destruct (flt x t0); [rewrite E1; cbn [bind]; do 2 gs1; split; [discriminate|intros (F & _); discriminate]|].
  rewrite El. cbn [bind]. destruct (flt tl x); [do 4 gs1; split; [discriminate|intros (_ & F & _); discriminate]|].
  replace (Z.to_nat (n - 1)) with (S (Z.to_nat (n - 2))) by lia. cbn [cubic_search]. rewrite E1. cbn [bind].
  destruct (fle x t1).
  - do 3 gs1. rewrite get_oob by lia. cbn [bind]. split; auto.
  - destruct (cubic_search_total x tx ty (Z.to_nat (n - 2)) 2) as [r Er]; [lia|lia|lia|]. change (1 + 1) with 2. rewrite Er.
    split; [discriminate|intros (_ & _ & F); discriminate].
Qed.
Lemma cubic_short x tx ty n : n < 4 -> cubic x tx ty n = Ok fnan.
Proof. intros H. unfold cubic. rewrite Z.geb_leb. destruct (Z.leb_spec 4 n); [lia|reflexivity]. Qed.

Lemma lagrange_term_total i x xi tx k : forall j t, 0 <= j -> j + Z.of_nat k <= zlen tx -> exists r, lagrange_term k i j x xi t tx = Ok r.
Proof.
  induction k as [|k IH]; intros j t H0 H; cbn [lagrange_term]; [eauto|].
  destruct (i =? j); [|gs1]; apply IH; lia.
Qed.
Lemma lagrange_sum_total x tx ty n k : Z.of_nat n <= zlen tx -> zlen ty = zlen tx -> forall i y, 0 <= i -> i + Z.of_nat k <= zlen tx -> exists r, lagrange_sum k n i x y tx ty = Ok r.
Proof.
  intros Hn Hy. induction k as [|k IH]; intros i y H0 H; cbn [lagrange_sum]; [eauto|]. do 2 gs1.
  destruct (lagrange_term_total i x v0 tx n 0 v) as [r Er]; [lia|lia|]. rewrite Er. cbn [bind]. apply IH; lia.
Qed.
Lemma hermite_total x tx ty n : zlen tx = n -> zlen ty = n -> exists y, hermite x tx ty n = Ok y.
Proof.
  intros Hx Hy. unfold hermite. rewrite Z.geb_leb. destruct (Z.leb_spec 2 n); [|eauto]. gs1.
  destruct (flt x v); [unfold first_line; rewrite E; cbn [bind]; repeat gs1; eauto|]. gs1.
  destruct (flt v0 x); [unfold last_line; do 4 gs1; eauto|]. apply lagrange_sum_total; lia.
Qed.

Lemma while_ge_ok x tx l k : forall i, 0 <= i -> get tx (zlen tx - 1) = Ok l -> fle l x = false -> i + 1 < zlen tx -> zlen tx <= i + 1 + Z.of_nat k ->
  exists j, while_ge k i x tx = Ok j /\ i <= j /\ j + 1 < zlen tx /\
    (forall m, i < m <= j -> exists v, get tx m = Ok v /\ fle v x = true) /\ exists v, get tx (j + 1) = Ok v /\ fle v x = false.
Proof.
  induction k as [|k IH]; intros i H0 El Hl H Hk; cbn [while_ge]; [lia|]. gs1. destruct (fle v x) eqn:Ev.
  - destruct (IH (i + 1)) as (j & Ej & H1 & H2 & H3 & H4); auto; try lia.
    { destruct (Z.eq_dec (i + 1) (zlen tx - 1)) as [e|e]; [|lia]. rewrite e in E. congruence. }
    exists j. split; [exact Ej|]. split; [lia|]. split; [exact H2|]. split; [|exact H4].
    intros m Hm. destruct (Z.eq_dec m (i + 1)) as [->|]; [eauto|]. apply H3. lia.
  - exists i. split; [reflexivity|]. split; [lia|]. split; [exact H|]. split; [intros; lia|eauto].
Qed.
Lemma interval_ok x tx n : 2 <= n -> zlen tx = n -> exists i, interval x tx n = Ok i /\ 0 <= i <= n - 2.
Proof.
  intros Hn Hx. unfold interval. gs1. destruct (fle x v); [exists 0; split; [reflexivity|lia]|]. gs1.
  destruct (fle v0 x) eqn:El; [exists (n - 2); split; [reflexivity|lia]|].
  destruct (while_ge_ok x tx v0 (length tx) 0) as (j & Ej & H1 & H2 & _); try lia; auto.
  - rewrite Hx. auto.
  - unfold zlen. lia.
  - exists j. split; [exact Ej|lia].
Qed.

Lemma chord_total tx ty i j : 0 <= i < zlen tx -> 0 <= j < zlen tx -> zlen ty = zlen tx -> exists m, chord tx ty i j = Ok m.
Proof. intros. unfold chord. do 4 gs1. eauto. Qed.
Lemma slope_total tx ty i : 0 < i < zlen tx - 1 -> zlen ty = zlen tx -> exists m, slope tx ty i = Ok m.
Proof. intros. unfold slope. do 2 gs1. destruct (isEqual v v0); [eauto|]. do 2 gs1. eauto. Qed.

Lemma spline_total x tx ty n : zlen tx = n -> zlen ty = n -> exists y, spline x tx ty n = Ok y.
Proof.
  intros Hx Hy. unfold spline. rewrite Z.geb_leb. destruct (Z.leb_spec 4 n); [|eauto].
  destruct (interval_ok x tx n) as (i & Ei & Hi); [lia|auto|]. rewrite Ei. cbn [bind]. gs1.
  destruct (isEqual x v); [gs1; eauto|]. do 3 gs1.
  assert (M : forall (b : bool) (p q : res X), (exists m, p = Ok m) -> (exists m, q = Ok m) -> exists m, (if b then p else q) = Ok m) by (intros [|]; auto).
  assert (C1 : exists m0, (if i =? 0 then chord tx ty 1 0 else if n - 2 =? i then chord tx ty (n - 1) (n - 3) else slope tx ty i) = Ok m0).
  { destruct (Z.eqb_spec i 0); [apply chord_total; lia|]. destruct (Z.eqb_spec (n - 2) i); [apply chord_total; lia|apply slope_total; lia]. }
  assert (C2 : exists m0, (if i =? 0 then chord tx ty 2 0 else if n - 2 =? i then chord tx ty (n - 1) (n - 2) else slope tx ty (i + 1)) = Ok m0).
  { destruct (Z.eqb_spec i 0); [apply chord_total; lia|]. destruct (Z.eqb_spec (n - 2) i); [apply chord_total; lia|apply slope_total; lia]. }
  destruct C1 as [m0 ->], C2 as [m1 ->]. cbn [bind]. eauto.
Qed.

Lemma firstDerivate_total tx ty n i : 2 <= n -> n < zlen tx -> 0 <= i <= n -> zlen ty = zlen tx -> exists m, firstDerivate tx ty n i = Ok m.
Proof.
  intros Hn Hx Hi Hy. unfold firstDerivate. destruct (Z.eqb_spec i 0); [do 6 gs1; eauto|].
  destruct (Z.eqb_spec n i); do 6 gs1; eauto.
Qed.
Lemma second_total tx ty n i : 2 <= n -> n < zlen tx -> 1 <= i <= n -> zlen ty = zlen tx ->
  (exists m, leftSecondDerivate tx ty n i = Ok m) /\ (exists m, rightSecondDerivate tx ty n i = Ok m).
Proof.
  intros Hn Hx Hi Hy. unfold leftSecondDerivate, rightSecondDerivate.
  destruct (firstDerivate_total tx ty n i) as [a ->]; try lia. destruct (firstDerivate_total tx ty n (i - 1)) as [b ->]; try lia.
  cbn [bind]. split; do 4 gs1; eauto.
Qed.
Lemma cSpline_total x tx ty n : zlen tx = n -> zlen ty = n -> exists y, cSpline x tx ty n = Ok y.
Proof.
  intros Hx Hy. unfold cSpline. rewrite Z.geb_leb. destruct (Z.leb_spec 4 n); [|eauto].
  destruct (interval_ok x tx n) as (i & Ei & Hi); [lia|auto|]. rewrite Ei. cbn [bind]. gs1.
  destruct (isEqual x v); [gs1; eauto|]. do 3 gs1.
  destruct (second_total tx ty (n - 1) (i + 1)) as [[a ->] [b ->]]; try lia. cbn [bind]. eauto.
Qed.

(** Too few points: every method answers NaN. *)
Lemma short_table x tx ty n m f : n < 2 -> method_at m = Some f -> f x tx ty n = Ok (fnan (a := A)).
Proof.
  intros Hn H. assert (D : f = next \/ f = previous \/ f = nearest \/ f = linear \/ f = sine \/ f = cubic \/ f = hermite \/ f = spline \/ f = cSpline).
  { unfold method_at in H. repeat (match goal with H : context [match ?z with _ => _ end] |- _ => destruct z; try discriminate end); injection H as <-; tauto. }
  destruct D as [D|[D|[D|[D|[D|[D|[D|[D|D]]]]]]]]; subst f;
  unfold next, previous, nearest, linear, sine, cubic, hermite, spline, cSpline; rewrite Z.geb_leb;
  match goal with |- context [?k <=? n] => destruct (Z.leb_spec k n) end; try lia; reflexivity.
Qed.
End Any.
