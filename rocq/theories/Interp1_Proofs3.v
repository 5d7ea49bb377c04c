(** hermite() is Lagrange interpolation; NaN arguments. *)
From Coq Require Import ZArith List Bool Lia Reals Lra.
From Flocq Require Import IEEE754.Binary IEEE754.Bits.
From Verif Require Import Base BaseLemmas Arith ArithLemmas Ltisys_Spec Ltisys_Proofs Ltisys_Proofs2 Interp1_Model Interp1_Spec Interp1_Proofs Interp1_Proofs2.
Import ListNotations.
Open Scope R_scope.

(** ** Polynomials *)
Lemma poly_divide c r : c <> [] -> exists q, length q = (length c - 1)%nat /\ forall x, poly c x = poly c r + (x - r) * poly q x.
Proof.
  induction c as [|a c IH]; [congruence|]. intros _. destruct c as [|b c].
  - exists []. split; [reflexivity|]. intros x. unfold poly. cbn. ring.
  - destruct IH as (q & Lq & Hq); [discriminate|]. exists (poly (b :: c) r :: q). split; [cbn [length] in *; lia|].
    intros x. change (poly (a :: b :: c) x) with (a + x * poly (b :: c) x). change (poly (a :: b :: c) r) with (a + r * poly (b :: c) r).
    change (poly (poly (b :: c) r :: q) x) with (poly (b :: c) r + x * poly q x). rewrite (Hq x). ring.
Qed.
Lemma poly_roots rs : NoDup rs -> forall c, (length c <= length rs)%nat -> (forall r, In r rs -> poly c r = 0) -> forall x, poly c x = 0.
Proof.
  induction 1 as [|r rs Hr Hnd IH]; intros c Hl H0 x.
  - destruct c; [reflexivity|cbn in Hl; lia].
  - destruct c as [|a c]; [reflexivity|]. destruct (poly_divide (a :: c) r) as (q & Lq & Hq); [discriminate|].
    rewrite Hq. rewrite (H0 r) by (left; auto). rewrite (IH q); [ring|cbn [length] in *; lia|].
    intros s Hs. pose proof (H0 s (or_intror Hs)) as Es. rewrite Hq, (H0 r) in Es by (left; auto).
    assert (s - r <> 0). { intros e. apply Hr. replace r with s by lra. exact Hs. }
    apply Rmult_eq_reg_l with (s - r); [lra|auto].
Qed.

Fixpoint padd (p q : list R) : list R :=
  match p, q with [], _ => q | _, [] => p | a :: p', b :: q' => a + b :: padd p' q' end.
Lemma padd_eval p : forall q x, poly (padd p q) x = poly p x + poly q x.
Proof.
  induction p as [|a p IH]; intros [|b q] x; try (unfold poly; cbn; ring).
  change (poly (padd (a :: p) (b :: q)) x) with (a + b + x * poly (padd p q) x). rewrite IH.
  change (poly (a :: p) x) with (a + x * poly p x). change (poly (b :: q) x) with (b + x * poly q x). ring.
Qed.
Lemma padd_length p : forall q, length (padd p q) = Nat.max (length p) (length q).
Proof. induction p as [|a p IH]; intros [|b q]; cbn [padd length]; auto. rewrite IH. lia. Qed.
Definition pscal (k : R) (p : list R) : list R := map (Rmult k) p.
Lemma pscal_eval k p x : poly (pscal k p) x = k * poly p x.
Proof. induction p as [|a p IH]; [unfold poly; cbn; ring|]. change (k * a + x * poly (pscal k p) x = k * (a + x * poly p x)). rewrite IH. ring. Qed.
Lemma pscal_length k p : length (pscal k p) = length p.
Proof. apply map_length. Qed.
(** (x - a) p *)
Definition plin (a : R) (p : list R) : list R := padd (0 :: p) (pscal (- a) p).
Lemma plin_eval a p x : poly (plin a p) x = (x - a) * poly p x.
Proof. unfold plin. rewrite padd_eval, pscal_eval. change (poly (0 :: p) x) with (0 + x * poly p x). ring. Qed.
Lemma plin_length a p : length (plin a p) = S (length p).
Proof. unfold plin. rewrite padd_length, pscal_length. cbn [length]. lia. Qed.

(** f(j) f(j+1) ... f(j+k-1) *)
Fixpoint prod (k j : nat) (f : nat -> R) : R := match k with O => 1 | S k' => f j * prod k' (S j) f end.
Lemma prod_ext k : forall j f g, (forall i, (j <= i < j + k)%nat -> f i = g i) -> prod k j f = prod k j g.
Proof. induction k as [|k IH]; intros j f g H; cbn [prod]; [reflexivity|]. rewrite (H j), (IH (S j) f g); auto; try lia. intros; apply H; lia. Qed.
Lemma prod_zero k : forall j f i, (j <= i < j + k)%nat -> f i = 0 -> prod k j f = 0.
Proof.
  induction k as [|k IH]; intros j f i Hi H; cbn [prod]; [lia|]. destruct (Nat.eq_dec i j) as [->|]; [rewrite H; ring|].
  rewrite (IH (S j) f i); [ring|lia|auto].
Qed.
Lemma prod_one k : forall j f, (forall i, (j <= i < j + k)%nat -> f i = 1) -> prod k j f = 1.
Proof. induction k as [|k IH]; intros j f H; cbn [prod]; [reflexivity|]. rewrite (H j), (IH (S j)); [ring|intros; apply H; lia|lia]. Qed.

Section Table.
Variables (n : nat) (tx ty : list (F RA)).
Hypothesis T : table n tx ty.
Notation X i := (nth i (tx : list R) 0).
Notation Y i := (nth i (ty : list R) 0).

Definition factor (i : nat) (x : R) (j : nat) : R := if (i =? j)%nat then 1 else (x - X j) / (X i - X j).
Definition base (i : nat) (x : R) : R := prod n 0 (factor i x).

Lemma lagrange_term_at i (x : R) k : forall j (t : R), (j + k <= n)%nat ->
  lagrange_term (A := RA) k (Z.of_nat i) (Z.of_nat j) x (X i) t tx = Ok (t * prod k j (factor i x)).
Proof.
  induction k as [|k IH]; intros j t Hk; cbn [lagrange_term prod]; [rewrite Rmult_1_r; reflexivity|].
  replace (Z.of_nat j + 1)%Z with (Z.of_nat (S j)) by lia. unfold factor at 1. destruct (Z.eqb_spec (Z.of_nat i) (Z.of_nat j)) as [E|E].
  - destruct (Nat.eqb_spec i j); [|lia]. rewrite IH by lia. apply f_equal. change (F RA) with R. ring.
  - destruct (Nat.eqb_spec i j); [lia|]. rewrite (gx n tx ty T _ j) by lia. cbn [bind]. rewrite IH by lia. apply f_equal. ops. ring.
Qed.
Lemma lagrange_sum_at (x : R) k : forall i (y : R), (i + k <= n)%nat ->
  lagrange_sum (A := RA) k n (Z.of_nat i) x y tx ty = Ok (y + sum k (fun m => Y (i + m) * base (i + m) x)).
Proof.
  induction k as [|k IH]; intros i y Hk; cbn [lagrange_sum]; [cbn [sum]; rewrite Rplus_0_r; reflexivity|].
  rewrite (gy n tx ty T _ i), (gx n tx ty T _ i) by lia. cbn [bind]. change 0%Z with (Z.of_nat 0) at 1. rewrite lagrange_term_at by lia. change (Z.of_nat 0) with 0%Z. cbn [bind].
  replace (Z.of_nat i + 1)%Z with (Z.of_nat (S i)) by lia. rewrite IH by lia. 
  assert (E0 : sum (S k) (fun m => Y (i + m) * base (i + m) x) = Y (i + 0) * base (i + 0) x + sum k (fun m => Y (i + S m) * base (i + S m) x)) by apply (sum_first k (fun m => Y (i + m) * base (i + m) x)).
  apply f_equal. etransitivity; [|apply (f_equal (Rplus y)); symmetry; exact E0].
  replace (i + 0)%nat with i by lia. fold (base i x).
  assert (E : sum k (fun m => Y (S i + m) * base (S i + m) x) = sum k (fun m => Y (i + S m) * base (i + S m) x)).
  { apply sum_ext. intros m _. replace (i + S m)%nat with (S i + m)%nat by lia. reflexivity. }
  unfold base in *. ops. cbv beta. change (F RA) with R in *. rewrite E. ring.
Qed.
Lemma hermite_inside (x : R) : (2 <= n)%nat -> X 0 <= x <= X (n - 1) ->
  hermite (A := RA) x tx ty (Z.of_nat n) = Ok (sum n (fun i => Y i * base i x)).
Proof.
  intros Hn Hx. unfold hermite. rewrite Z.geb_leb. destruct (Z.leb_spec 2 (Z.of_nat n)); [|lia].
  rewrite (gx n tx ty T 0 0) by lia. cbn [bind]. change (flt (a := RA)) with Rltb. rewrite Rltb_false by lra.
  rewrite (gx n tx ty T _ (n - 1)) by lia. cbn [bind]. rewrite Rltb_false by lra.
  rewrite Nat2Z.id. change 0%Z with (Z.of_nat 0) at 1. rewrite lagrange_sum_at by lia. change (Z.of_nat 0) with 0%Z. apply f_equal.
  replace (lit (a := RA) 0 1) with 0 by (cbn; lra). ops. rewrite Rplus_0_l. reflexivity.
Qed.

Lemma base_at i m : (i < n)%nat -> (m < n)%nat -> base i (X m) = if (i =? m)%nat then 1 else 0.
Proof.
  intros Hi Hm. unfold base. destruct (Nat.eqb_spec i m) as [->|Hne].
  - apply prod_one. intros j Hj. unfold factor. destruct (Nat.eqb_spec m j) as [->|]; auto.
    assert (X m <> X j). { destruct (Nat.lt_trichotomy m j) as [C|[C|C]]; [|lia|]; [pose proof (knot_lt n tx ty T m j C)|pose proof (knot_lt n tx ty T j m C)]; intros e; rewrite e in *; assert (X j < X j) by (apply H; lia); lra. }
    field. lra.
  - apply (prod_zero n 0 _ m); [lia|]. unfold factor. destruct (Nat.eqb_spec i m); [lia|]. unfold Rdiv. ring.
Qed.
Lemma sum_pick k f m : (m < k)%nat -> (forall i, (i < k)%nat -> i <> m -> f i = 0) -> sum k f = f m.
Proof.
  induction k as [|k IH]; intros Hm H; [lia|]. cbn [sum]. destruct (Nat.eq_dec m k) as [->|].
  - rewrite (sum_ext k f (fun _ => 0)); [|intros i Hi; apply H; lia].
    assert (Z : forall q, sum q (fun _ => 0) = 0) by (intros q; induction q as [|q IHq]; cbn [sum]; lra). rewrite Z. ring.
  - rewrite IH; [|lia|intros; apply H; lia]. rewrite (H k) by lia. ring.
Qed.

(** The basis functions and their combinations are polynomials. *)
Lemma base_poly i k : forall j, exists c, (length c <= S (if (j <=? i) && (i <? j + k) then k - 1 else k))%nat /\ forall x, prod k j (factor i x) = poly c x.
Proof.
  induction k as [|k IH]; intros j.
  - exists [1]. split; [cbn; destruct (_ && _)%bool; lia|]. intros x. unfold poly. cbn. ring.
  - destruct (IH (S j)) as (c & Lc & Hc). cbn [prod]. unfold factor at 1. destruct (Nat.eqb_spec i j) as [->|Hne].
    + exists c. split; [|intros x; rewrite Hc; ring].
      destruct (Nat.leb_spec (S j) j); [lia|]. cbn [andb] in Lc. destruct (Nat.leb_spec j j); [|lia]. destruct (Nat.ltb_spec j (j + S k)); [|lia]. cbn [andb]. lia.
    + exists (pscal (/ (X i - X j)) (plin (X j) c)). split.
      * rewrite pscal_length, plin_length. revert Lc.
        destruct (Nat.leb_spec (S j) i), (Nat.ltb_spec i (S j + k)), (Nat.leb_spec j i), (Nat.ltb_spec i (j + S k)); cbn [andb]; try lia; try (intros; exfalso; lia).
      * intros x. rewrite pscal_eval, plin_eval, <- Hc. unfold Rdiv. ring.
Qed.
Lemma sum_poly k : (k <= n)%nat -> exists c, (length c <= n)%nat /\ forall x, sum k (fun i => Y i * base i x) = poly c x.
Proof.
  induction k as [|k IH]; intros Hk.
  - exists []. split; [cbn; lia|]. reflexivity.
  - destruct IH as (c & Lc & Hc); [lia|]. destruct (base_poly k n 0) as (b & Lb & Hb).
    exists (padd c (pscal (Y k) b)). split.
    + rewrite padd_length, pscal_length. destruct (Nat.leb_spec 0 k); [|lia]. destruct (Nat.ltb_spec k (0 + n)); [|lia]. cbn [andb] in Lb. lia.
    + intros x. cbn [sum]. rewrite padd_eval, pscal_eval, <- Hc, <- Hb. reflexivity.
Qed.

Lemma NoDup_knots : NoDup (tx : list R).
Proof.
  apply (NoDup_nth _ 0). intros i j Hi Hj E. pose proof (Ltx n tx ty T) as L. change (length tx) with (@length R tx) in L.
  destruct (Nat.lt_trichotomy i j) as [C|[C|C]]; auto; exfalso.
  - assert (X i < X j) by (apply (knot_lt n tx ty T); [auto|rewrite <- L; exact Hj]). lra.
  - assert (X j < X i) by (apply (knot_lt n tx ty T); [auto|rewrite <- L; exact Hi]). lra.
Qed.

Lemma hermite_poly (c : list R) (x : R) : (2 <= n)%nat -> (length c <= n)%nat -> (forall i, (i < n)%nat -> Y i = poly c (X i)) ->
  X 0 <= x <= X (n - 1) -> hermite (A := RA) x tx ty (Z.of_nat n) = Ok (poly c x).
Proof.
  intros Hn Hc Hy Hx. rewrite hermite_inside by auto. apply f_equal. destruct (sum_poly n (Nat.le_refl n)) as (b & Lb & Hb). rewrite Hb.
  assert (Z : forall z, poly (padd b (pscal (- 1) c)) z = 0).
  { pose proof (Ltx n tx ty T) as L. apply (poly_roots (tx : list R) NoDup_knots).
    - rewrite padd_length, pscal_length. change (@length R tx) with (length tx). rewrite L. lia.
    - intros r Hr. apply (In_nth _ _ 0) in Hr. destruct Hr as (m & Hm & <-). change (@length R tx) with (length tx) in Hm. rewrite L in Hm.
      rewrite padd_eval, pscal_eval, <- Hb. rewrite (sum_pick n _ m); auto.
      + rewrite base_at, Nat.eqb_refl by auto. rewrite (Hy m Hm). ring.
      + intros i Hi Hne. rewrite base_at by auto. destruct (Nat.eqb_spec i m); [lia|ring]. }
  specialize (Z x). rewrite padd_eval, pscal_eval in Z. change (F RA) with R. lra.
Qed.
Lemma hermite_knot i : (2 <= n)%nat -> (i < n)%nat -> hermite (A := RA) (X i) tx ty (Z.of_nat n) = Ok (Y i).
Proof.
  intros Hn Hi. rewrite hermite_inside; auto.
  - apply f_equal. rewrite (sum_pick n _ i); auto.
    + rewrite base_at, Nat.eqb_refl by auto. ops. ring.
    + intros m Hm Hne. rewrite base_at by auto. destruct (Nat.eqb_spec m i); [lia|ring].
  - split; apply (knot_le n tx ty T); lia.
Qed.
Lemma hermite_below (x : R) : (2 <= n)%nat -> x < X 0 -> hermite (A := RA) x tx ty (Z.of_nat n) = Ok (segment tx ty 0 x).
Proof.
  intros Hn H. unfold hermite. rewrite Z.geb_leb. destruct (Z.leb_spec 2 (Z.of_nat n)); [|lia].
  rewrite (gx n tx ty T 0 0) by lia. cbn [bind]. change (flt (a := RA)) with Rltb. rewrite Rltb_true by exact H. apply (first_line_at n); auto.
Qed.
Lemma hermite_above (x : R) : (2 <= n)%nat -> X (n - 1) < x -> hermite (A := RA) x tx ty (Z.of_nat n) = Ok (segment tx ty (n - 2) x).
Proof.
  intros Hn H. unfold hermite. rewrite Z.geb_leb. destruct (Z.leb_spec 2 (Z.of_nat n)); [|lia].
  assert (X 0 <= X (n - 1)) by (apply (knot_le n tx ty T); lia).
  rewrite (gx n tx ty T 0 0) by lia. cbn [bind]. change (flt (a := RA)) with Rltb. rewrite Rltb_false by lra.
  rewrite (gx n tx ty T _ (n - 1)) by lia. cbn [bind]. rewrite Rltb_true by exact H. apply (last_line_at n); auto.
Qed.
End Table.

(** ** NaN arguments *)
Section Nan.
Variables (o : oracles binary32) (x : binary32).
Hypothesis Hx : is_nan 24 128 x = true.
Lemma nan_lt_l v : flt (a := B32 o) x v = false.
Proof. unfold flt, B32, b32_lt. rewrite (proj2 (b32_compare_nan x v)); auto. Qed.
Lemma nan_lt_r v : flt (a := B32 o) v x = false.
Proof. unfold flt, B32, b32_lt. rewrite (proj2 (b32_compare_nan v x)); auto. Qed.
Lemma nan_le_l v : fle (a := B32 o) x v = false.
Proof. unfold fle, B32, b32_le. rewrite (proj2 (b32_compare_nan x v)); auto. Qed.
Lemma nan_le_r v : fle (a := B32 o) v x = false.
Proof. unfold fle, B32, b32_le. rewrite (proj2 (b32_compare_nan v x)); auto. Qed.

Lemma nan_minus v : is_nan 24 128 (b32_minus BinarySingleNaN.mode_NE x v) = true.
Proof. destruct x; try discriminate Hx. destruct v; reflexivity. Qed.
Lemma nan_abs v : is_nan 24 128 v = true -> is_nan 24 128 (b32_abs v) = true.
Proof. destruct v; auto; discriminate. Qed.

Open Scope Z_scope.
Lemma nan_linear tx ty n : 2 <= n < 2147483648 -> zlen tx = n -> zlen ty = n -> linear (A := B32 o) x tx ty n = Ok fnan.
Proof.
  intros Hn Lx Ly. unfold linear. rewrite Z.geb_leb. destruct (Z.leb_spec 2 n); [|lia]. gs1. rewrite nan_lt_l. gs1. rewrite nan_lt_r.
  rewrite to_int_small by lia. destruct (Z.eqb_spec n (-2147483648)); [lia|].
  assert (S : forall k i, 0 <= i -> i + Z.of_nat k < n -> linear_search (A := B32 o) k i x tx ty = Ok fnan).
  { induction k as [|k IH]; intros i Hi Hk; cbn [linear_search]; [reflexivity|]. do 2 gs1. rewrite nan_le_r. cbn [andb]. apply IH; lia. }
  apply S; lia.
Qed.
Lemma nan_previous tx ty n : 2 <= n -> zlen tx = n -> zlen ty = n -> previous (A := B32 o) x tx ty n = get ty (n - 1).
Proof.
  intros Hn Lx Ly. unfold previous. rewrite Z.geb_leb. destruct (Z.leb_spec 2 n); [|lia]. gs1. rewrite nan_le_l.
  assert (S : forall k i, 1 <= i -> i + Z.of_nat k <= n -> previous_search (A := B32 o) k i (i - 1) x tx = Ok (i + Z.of_nat k - 1)).
  { induction k as [|k IH]; intros i Hi Hk; cbn [previous_search]; [f_equal; lia|]. gs1. rewrite nan_lt_l.
    replace i with (i + 1 - 1) at 2 by lia. rewrite IH by lia. f_equal. lia. }
  change 0 with (1 - 1). rewrite S by lia. cbn [bind]. f_equal. lia.
Qed.
Lemma nan_nearest tx ty n : 2 <= n -> zlen tx = n -> zlen ty = n -> nearest (A := B32 o) x tx ty n = get ty 0.
Proof.
  intros Hn Lx Ly. unfold nearest. rewrite Z.geb_leb. destruct (Z.leb_spec 2 n); [|lia]. gs1.
  assert (S : forall k i b, 1 <= i -> i + Z.of_nat k <= n -> nearest_search (A := B32 o) k i 0 b x tx = Ok 0).
  { induction k as [|k IH]; intros i b Hi Hk; cbn [nearest_search]; [reflexivity|]. gs1. cbv zeta.
    match goal with |- context [fle ?p b] => replace (fle p b) with false end; [apply IH; lia|].
    unfold fle, B32, b32_le. rewrite (proj2 (b32_compare_nan _ b)); [reflexivity|]. left. apply nan_abs. apply nan_minus. }
  rewrite S by lia. reflexivity.
Qed.
Lemma nan_next tx ty n : 2 <= n -> zlen tx = n -> zlen ty = n -> next (A := B32 o) x tx ty n = Ub.
Proof.
  intros Hn Lx Ly. apply (next_ub (A := B32 o)); auto. split.
  - intros i Hi. destruct (get_some tx i) as [v E]; [lia|]. exists v. split; [exact E|apply nan_lt_l].
  - destruct (get_some tx (n - 1)) as [v E]; [lia|]. exists v. split; [exact E|apply nan_le_r].
Qed.
End Nan.

(** On numbers, next() is defined. *)
Lemma number_next o (x : binary32) tx ty n : (2 <= n)%Z -> zlen tx = n -> zlen ty = n -> is_nan 24 128 x = false -> Forall (fun v => is_nan 24 128 v = false) tx ->
  exists y, next (A := B32 o) x tx ty n = Ok y.
Proof.
  intros Hn Lx Ly Hx Ht. destruct (next (A := B32 o) x tx ty n) as [y|] eqn:E; [eauto|]. exfalso.
  apply (next_ub (A := B32 o)) in E; auto. destruct E as [Hall (v & Ev & Hv)]. destruct (Hall (n - 1)%Z) as (w & Ew & Hw); [lia|].
  assert (w = v) as -> by congruence. assert (Nv : is_nan 24 128 v = false).
  { apply get_ok_iff in Ev. destruct Ev as [_ Ev]. apply nth_error_In in Ev. rewrite Forall_forall in Ht. auto. }
  pose proof (B32_ordered o x v) as O. rewrite !b32_isnan in O. specialize (O Hx Nv Hw). congruence.
Qed.
