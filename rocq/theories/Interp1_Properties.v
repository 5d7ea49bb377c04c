(** The interpolation properties C51-C55 and C75. *)
From Coq Require Import ZArith List Bool Lia Reals Lra.
From Flocq Require Import IEEE754.Binary IEEE754.Bits.
From Verif Require Import Base BaseLemmas Arith ArithLemmas Ltisys_Proofs Ltisys_Proofs2 Interp1_Model Interp1_Spec Interp1_Proofs Interp1_Proofs2 Interp1_Proofs3.
Import ListNotations.
Open Scope R_scope.

(** interp1 obj( tx, ty ); obj.setMethod( m ); obj.get( x ) *)
Definition interpolate {A : arith} (m : Z) (tx ty : list (F A)) (x : F A) : res (F A) :=
  interp_get x (snd (setMethod m (interp_new (Some tx) (Some ty) (zlen tx)))).
(** The enumeration interp1Method. *)
Definition NEXT := 0%Z. Definition PREVIOUS := 1%Z. Definition NEAREST := 2%Z. Definition LINEAR := 3%Z. Definition SINE := 4%Z.
Definition CUBIC := 5%Z. Definition HERMITE := 6%Z. Definition SPLINE := 7%Z. Definition CONSTRAINED_SPLINE := 8%Z.

(** Gaps between neighbouring abscissas beyond the tolerance of the comparison. *)
Definition wide (n : nat) (tx : list R) : Prop := forall i, (S i < n)%nat -> nth i tx 0 + / 2 ^ 126 < nth (S i) tx 0.

Ltac api n tx ty T := unfold interpolate; cbn [interp_get setMethod method_at interp_new snd i_x i_y i_n i_m NEXT PREVIOUS NEAREST LINEAR SINE CUBIC HERMITE SPLINE CONSTRAINED_SPLINE];
  rewrite (Ztx n tx ty T).

(** A table used by the examples. *)
Definition ex_x : list R := [0; 1; 2; 3].
Definition ex_y : list R := [0; 0; 1; 1].
Lemma ex_table : table 4 ex_x ex_y.
Proof. repeat split. intros i Hi. do 4 (destruct i as [|i]; cbn in *; [lra || lia|]). lia. Qed.
Lemma ex_wide : wide 4 ex_x.
Proof.
  assert (/ 2 ^ 126 < 1). { rewrite <- Rinv_1. apply Rinv_lt_contravar; [|apply Rlt_pow_R1; [lra|lia]]. rewrite Rmult_1_l. apply pow_lt. lra. }
  intros i Hi. do 4 (destruct i as [|i]; cbn [nth ex_x] in *; [lra || lia|]). lia.
Qed.

(** ** C51: the data points are reproduced *)
Theorem C51_knots : forall n tx ty i, table n tx ty -> (2 <= n)%nat -> (Z.of_nat n < 2147483648)%Z -> (i < n)%nat ->
  interpolate (A := RA) LINEAR tx ty (nth i tx 0) = Ok (nth i ty 0) /\
  interpolate (A := RA) PREVIOUS tx ty (nth i tx 0) = Ok (nth i ty 0) /\
  interpolate (A := RA) NEAREST tx ty (nth i tx 0) = Ok (nth i ty 0) /\
  interpolate (A := RA) HERMITE tx ty (nth i tx 0) = Ok (nth i ty 0) /\
  ((4 <= n)%nat -> (2 <= i)%nat -> interpolate (A := RA) CUBIC tx ty (nth i tx 0) = Ok (nth i ty 0)) /\
  ((4 <= n)%nat -> wide n tx -> interpolate (A := RA) SPLINE tx ty (nth i tx 0) = Ok (nth i ty 0)).
Proof.
  intros n tx ty i T Hn Hz Hi. repeat split; intros; api n tx ty T.
  - destruct (Nat.eq_dec i (n - 1)) as [->|].
    + etransitivity; [apply (linear_inside n tx ty T _ (n - 2)); auto; try lia|].
      * split; [apply (knot_le n tx ty T); lia|]. replace (S (n - 2)) with (n - 1)%nat by lia. apply Rle_refl.
      * apply f_equal. replace (n - 1)%nat with (S (n - 2)) by lia. apply (segment_right n); auto. lia.
    + etransitivity; [apply (linear_inside n tx ty T _ i); auto; try lia|].
      * split; [apply Rle_refl|apply (knot_le n tx ty T); lia].
      * apply f_equal. apply (segment_left n); auto. lia.
  - apply (previous_at n tx ty T _ i); auto; [apply Rle_refl|]. intros. apply (knot_lt n tx ty T); lia.
  - destruct (nearest_at n tx ty T (nth i tx 0) Hn) as (r & Hr & E & M). etransitivity; [exact E|].
    destruct (M i Hi) as [M1 _]. rewrite Rminus_eq_0, Rabs_R0 in M1. destruct (Nat.lt_trichotomy r i) as [C|[->|C]]; auto; exfalso.
    + assert (nth r tx 0 < nth i tx 0) by (apply (knot_lt n tx ty T); lia). rewrite Rabs_pos_eq in M1; lra.
    + assert (nth i tx 0 < nth r tx 0) by (apply (knot_lt n tx ty T); lia). rewrite Rabs_left in M1; lra.
  - apply (hermite_knot n); auto.
  - apply (cubic_knot n); auto.
  - apply (spline_knot n); auto.
Qed.
Print Assumptions C51_knots.

(** The constrained spline divides by differences of ordinates: none of these
    divisors, and neither of the two end sums, may vanish. *)
Definition steep (n : nat) (tx ty : list R) : Prop :=
  (forall i, (S i < n)%nat -> nth i ty 0 <> nth (S i) ty 0) /\ nth 0 ty 0 <> nth 2 ty 0 /\ nth (n - 1) ty 0 <> nth (n - 3) ty 0 /\
  / rise tx ty 0 2 + / rise tx ty 0 1 <> 0 /\ / rise tx ty (n - 3) (n - 1) + / rise tx ty (n - 2) (n - 1) <> 0.
Theorem C51_constrained_spline_knots : forall n tx ty i, table n tx ty -> (4 <= n)%nat -> wide n tx -> steep n tx ty -> (i < n)%nat ->
  interpolate (A := RA) CONSTRAINED_SPLINE tx ty (nth i tx 0) = Ok (nth i ty 0).
Proof. intros n tx ty i T Hn G _ Hi. api n tx ty T. apply (cSpline_knot n); auto. Qed.
Print Assumptions C51_constrained_spline_knots.
Example C51_constrained_spline_nonvacuous : table 4 ex_x [0; 1; 3; 4] /\ wide 4 ex_x /\ steep 4 ex_x [0; 1; 3; 4].
Proof.
  split; [|split; [exact ex_wide|]].
  - destruct ex_table as (A1 & _ & A3). repeat split; auto.
  - unfold steep, rise, ex_x. cbn [nth Nat.sub]. repeat split; try lra. intros i Hi. do 4 (destruct i as [|i]; cbn in *; [lra || lia|]). lia.
Qed.

(** Where one of the end sums vanishes, binary32 divides by zero: at the first
    point of 0, 1, -2, 0 the constrained spline is not the ordinate, but NaN. *)
Theorem C51_constrained_spline_refuted : exists tx ty : list binary32, forall o,
  exists y x0, interpolate (A := B32 o) CONSTRAINED_SPLINE tx ty x0 = Ok y /\ get tx 0 = Ok x0 /\ is_nan 24 128 y = true /\
    Forall (fun v => is_finite 24 128 v = true) (tx ++ ty).
Proof.
  exists (map b32_ofZ [0; 1; 2; 3]%Z), (map b32_ofZ [0; 1; -2; 0]%Z). intros o.
  assert (E : exists y, interpolate (A := B32 o) CONSTRAINED_SPLINE (map b32_ofZ [0; 1; 2; 3]%Z) (map b32_ofZ [0; 1; -2; 0]%Z) (b32_ofZ 0) = Ok y /\ is_nan 24 128 y = true).
  { eexists. split; [vm_compute; reflexivity|reflexivity]. }
  destruct E as (y & E & N). exists y, (b32_ofZ 0). split; [exact E|]. split; [reflexivity|]. split; [exact N|].
  cbn [map app]. repeat (apply Forall_cons; [vm_compute; reflexivity|]). apply Forall_nil.
Qed.
Print Assumptions C51_constrained_spline_refuted.

(** next() answers with the following ordinate; sine() with a value of the last
    interval; cubic() reads before the table at the first two points. *)
Theorem C51_next_refuted : forall n tx ty i, table n tx ty -> (S i < n)%nat ->
  interpolate (A := RA) NEXT tx ty (nth i tx 0) = Ok (nth (S i) ty 0).
Proof.
  intros n tx ty i T Hi. api n tx ty T. apply (next_at n tx ty T); auto; [right; apply Rle_refl|apply (knot_lt n tx ty T); lia].
Qed.
Print Assumptions C51_next_refuted.
Theorem C51_cubic_refuted : forall n tx ty i, table n tx ty -> (4 <= n)%nat -> (i < 2)%nat -> interpolate (A := RA) CUBIC tx ty (nth i tx 0) = Ub.
Proof.
  intros n tx ty i T Hn Hi. api n tx ty T. assert (nth 0 tx 0 < nth 1 tx 0) by (apply (knot_lt n tx ty T); lia).
  assert (nth 1 tx 0 < nth (n - 1) tx 0) by (apply (knot_lt n tx ty T); lia).
  rewrite (cubic_ub (A := RA) _ tx ty (Z.of_nat n) (nth 0 tx 0) (nth 1 tx 0) (nth (n - 1) tx 0));
    [|lia|apply (Ztx n tx ty T)|apply (Zty n tx ty T)|apply (gx n tx ty T); lia|apply (gx n tx ty T); lia|apply (gx n tx ty T); lia].
  change (flt (a := RA)) with Rltb. change (fle (a := RA)) with Rleb.
  assert (nth 0 tx 0 <= nth i tx 0 <= nth 1 tx 0) by (destruct i as [|[|]]; [lra|lra|lia]).
  rewrite !Rltb_false, Rleb_true by lra. auto.
Qed.
Print Assumptions C51_cubic_refuted.
Example C51_nonvacuous : table 4 ex_x ex_y /\ wide 4 ex_x /\ nth 1 ex_y 0 <> nth 2 ex_y 0.
Proof. split; [exact ex_table|]. split; [exact ex_wide|]. cbn. lra. Qed.

(** ** C52: linear interpolation *)
Theorem C52_linear : forall n tx ty x, table n tx ty -> (2 <= n)%nat -> (Z.of_nat n < 2147483648)%Z ->
  (forall i, (S i < n)%nat -> nth i tx 0 <= x <= nth (S i) tx 0 ->
     exists y, interpolate (A := RA) LINEAR tx ty x = Ok y /\
       y = through (nth i tx 0) (nth i ty 0) (nth (S i) tx 0) (nth (S i) ty 0) x /\ Rmin (nth i ty 0) (nth (S i) ty 0) <= y <= Rmax (nth i ty 0) (nth (S i) ty 0)) /\
  (x < nth 0 tx 0 -> interpolate (A := RA) LINEAR tx ty x = Ok (through (nth 0 tx 0) (nth 0 ty 0) (nth 1 tx 0) (nth 1 ty 0) x)) /\
  (nth (n - 1) tx 0 < x -> interpolate (A := RA) LINEAR tx ty x = Ok (through (nth (n - 2) tx 0) (nth (n - 2) ty 0) (nth (n - 1) tx 0) (nth (n - 1) ty 0) x)).
Proof.
  intros n tx ty x T Hn Hz. repeat split; intros; api n tx ty T.
  - exists (segment tx ty i x). repeat split; try (apply (segment_between n); auto). apply (linear_inside n); auto.
  - apply (linear_below n); auto.
  - etransitivity; [apply (linear_above n); auto|]. unfold segment. replace (S (n - 2)) with (n - 1)%nat by lia. reflexivity.
Qed.
Print Assumptions C52_linear.

Lemma table_cover n tx ty (x : R) : table n tx ty -> (2 <= n)%nat -> nth 0 tx 0 <= x <= nth (n - 1) tx 0 -> exists i, (S i < n)%nat /\ nth i tx 0 <= x <= nth (S i) tx 0.
Proof.
  intros T Hn Hx. assert (P : forall k, (k < n)%nat -> x <= nth k tx 0 -> (k = 0%nat \/ exists i, (S i < n)%nat /\ nth i tx 0 <= x <= nth (S i) tx 0)).
  { induction k as [|k IH]; intros Hk H; [auto|]. destruct (Rle_dec x (nth k tx 0)) as [L|L].
    - destruct IH as [->|E]; auto; [lia|]. right. exists 0%nat. split; [lia|]. lra.
    - right. exists k. split; auto. lra. }
  destruct (P (n - 1)%nat) as [E|E]; auto; [lia|lra|lia].
Qed.
(** A straight line through the data is reproduced everywhere. *)
Theorem C52_affine : forall n tx ty a b x, table n tx ty -> (2 <= n)%nat -> (Z.of_nat n < 2147483648)%Z ->
  (forall i, (i < n)%nat -> nth i ty 0 = a + b * nth i tx 0) -> interpolate (A := RA) LINEAR tx ty x = Ok (a + b * x).
Proof.
  intros n tx ty a b x T Hn Hz H. destruct (C52_linear n tx ty x T Hn Hz) as (H1 & H2 & H3).
  assert (W : forall i j, (i < n)%nat -> (j < n)%nat -> nth i tx 0 < nth j tx 0 -> through (nth i tx 0) (nth i ty 0) (nth j tx 0) (nth j ty 0) x = a + b * x).
  { intros i j Hi Hj L. unfold through. rewrite (H i Hi), (H j Hj). field. lra. }
  destruct (Rlt_dec x (nth 0 tx 0)) as [L|L].
  { etransitivity; [apply H2; exact L|]. apply f_equal. apply W; try lia. apply (knot_lt n tx ty T); lia. }
  destruct (Rlt_dec (nth (n - 1) tx 0) x) as [U|U].
  { etransitivity; [apply H3; exact U|]. apply f_equal. apply W; try lia. apply (knot_lt n tx ty T); lia. }
  destruct (table_cover n tx ty x T Hn) as (i & Hi & Hx); [lra|]. destruct (H1 i Hi Hx) as (y & E & -> & _). etransitivity; [exact E|].
  apply f_equal. apply W; try lia. apply (knot_lt n tx ty T); lia.
Qed.
Print Assumptions C52_affine.
(** In binary32 a NaN argument gives a NaN. *)
Theorem C52_nan : forall o (x : binary32) tx ty, is_nan 24 128 x = true -> (2 <= zlen tx < 2147483648)%Z -> zlen ty = zlen tx ->
  exists y, interpolate (A := B32 o) LINEAR tx ty x = Ok y /\ is_nan 24 128 y = true.
Proof. intros o x tx ty Hx Hn Hl. exists (fnan (a := B32 o)). split; [apply (nan_linear o x Hx); auto|reflexivity]. Qed.
Print Assumptions C52_nan.
Example C52_nonvacuous : interpolate (A := RA) LINEAR ex_x ex_y (3 / 2) = Ok (1 / 2) /\ interpolate (A := RA) LINEAR [0; 1; 2; 3] [1; 3; 5; 7] (- 5) = Ok (- 9).
Proof.
  split.
  - destruct (C52_linear 4 ex_x ex_y (3 / 2) ex_table) as (H & _); [lia|lia|].
    destruct (H 1%nat) as (y & E & -> & _); [lia|cbn; lra|]. etransitivity; [exact E|]. apply f_equal. unfold through. cbn. change (F RA) with R. field.
  - replace (- 9) with (1 + 2 * - 5) by ring. apply (C52_affine 4); try lia.
    + destruct ex_table as (A1 & _ & A3). repeat split; auto.
    + intros i Hi. do 4 (destruct i as [|i]; [cbn; lra|]). lia.
Qed.

(** ** C53: the neighbour methods *)
(** [i] is the greatest knot not above [x] / the least knot above [x]. *)
Definition greatest_not_above (n : nat) (tx : list R) (x : R) (i : nat) : Prop :=
  (i < n)%nat /\ nth i tx 0 <= x /\ forall j, (j < n)%nat -> nth j tx 0 <= x -> nth j tx 0 <= nth i tx 0.
Definition least_above (n : nat) (tx : list R) (x : R) (i : nat) : Prop :=
  (i < n)%nat /\ x < nth i tx 0 /\ forall j, (j < n)%nat -> x < nth j tx 0 -> nth i tx 0 <= nth j tx 0.

Theorem C53_previous : forall n tx ty x, table n tx ty -> (2 <= n)%nat ->
  (forall i, greatest_not_above n tx x i -> interpolate (A := RA) PREVIOUS tx ty x = Ok (nth i ty 0)) /\
  (x < nth 0 tx 0 -> interpolate (A := RA) PREVIOUS tx ty x = Ok (nth 0 ty 0)).
Proof.
  intros n tx ty x T Hn. split; [intros i (Hi & Hx & Hg)|intros Hx]; api n tx ty T.
  - apply (previous_at n); auto. intros HS. destruct (Rlt_dec x (nth (S i) tx 0)) as [L|L]; auto. exfalso.
    assert (nth i tx 0 < nth (S i) tx 0) by (apply (knot_lt n tx ty T); lia). specialize (Hg (S i) HS). lra.
  - apply (previous_below n); auto. lra.
Qed.
Print Assumptions C53_previous.

Theorem C53_nearest : forall n tx ty x, table n tx ty -> (2 <= n)%nat -> exists i, (i < n)%nat /\ interpolate (A := RA) NEAREST tx ty x = Ok (nth i ty 0) /\
  (forall j, (j < n)%nat -> Rabs (x - nth i tx 0) <= Rabs (x - nth j tx 0)) /\
  (forall j, (j < n)%nat -> Rabs (x - nth j tx 0) = Rabs (x - nth i tx 0) -> nth j tx 0 <= nth i tx 0).
Proof.
  intros n tx ty x T Hn. destruct (nearest_at n tx ty T x Hn) as (i & Hi & E & M). exists i. split; [exact Hi|]. split; [api n tx ty T; exact E|]. split; intros j Hj.
  - apply M; auto.
  - intros Eq. destruct (Nat.le_gt_cases j i) as [L|L]; [apply (knot_le n tx ty T); auto|]. destruct (M j Hj) as [_ M2]. specialize (M2 L). lra.
Qed.
Print Assumptions C53_nearest.

(** next() takes the least knot strictly above [x], not the least knot at or
    above it, and below the table it takes the second ordinate, not the first. *)
Theorem C53_next : forall n tx ty x, table n tx ty -> (2 <= n)%nat ->
  (nth 0 tx 0 <= x -> forall i, least_above n tx x i -> interpolate (A := RA) NEXT tx ty x = Ok (nth i ty 0)) /\
  (nth (n - 1) tx 0 <= x -> interpolate (A := RA) NEXT tx ty x = Ok (nth (n - 1) ty 0)) /\
  (x < nth 0 tx 0 -> interpolate (A := RA) NEXT tx ty x = Ok (nth 1 ty 0)).
Proof.
  intros n tx ty x T Hn. repeat split; [intros H0 i (Hi & Hx & Hl)|intros H0|intros H0]; api n tx ty T.
  - destruct i as [|i]; [lra|]. apply (next_at n); auto. right. destruct (Rle_dec (nth i tx 0) x) as [L|L]; auto. exfalso.
    assert (nth i tx 0 < nth (S i) tx 0) by (apply (knot_lt n tx ty T); lia). specialize (Hl i ltac:(lia)). lra.
  - apply (next_above n); auto.
  - apply (next_at n); auto. assert (nth 0 tx 0 < nth 1 tx 0) by (apply (knot_lt n tx ty T); lia). lra.
Qed.
Print Assumptions C53_next.
Theorem C53_next_refuted : exists n tx ty x i, table n tx ty /\ least_above n tx x i /\ interpolate (A := RA) NEXT tx ty x <> Ok (nth i ty 0).
Proof.
  exists 4%nat, ex_x, [5; 6; 7; 8], (- 1), 0%nat. assert (T : table 4 ex_x [5; 6; 7; 8]) by (destruct ex_table as (A1 & _ & A3); repeat split; auto).
  split; [exact T|]. split.
  - split; [lia|]. split; [cbn; lra|]. intros j Hj _. do 4 (destruct j as [|j]; [cbn; lra|]). lia.
  - intros E. rewrite (proj2 (proj2 (C53_next 4 ex_x [5; 6; 7; 8] (- 1) T ltac:(lia)))) in E by (cbn; lra). injection E. cbn. lra.
Qed.
Print Assumptions C53_next_refuted.
(** NaN arguments in binary32: previous() takes the last ordinate, nearest() the first. *)
Theorem C53_nan : forall o (x : binary32) tx ty, is_nan 24 128 x = true -> (2 <= zlen tx)%Z -> zlen ty = zlen tx ->
  interpolate (A := B32 o) PREVIOUS tx ty x = get ty (zlen ty - 1) /\ interpolate (A := B32 o) NEAREST tx ty x = get ty 0.
Proof.
  intros o x tx ty Hx Hn Hl. split.
  - rewrite Hl. apply (nan_previous o x Hx); auto.
  - apply (nan_nearest o x Hx) with (n := zlen tx); auto.
Qed.
Print Assumptions C53_nan.
Example C53_nonvacuous : greatest_not_above 4 ex_x (3 / 2) 1 /\ least_above 4 ex_x (3 / 2) 2 /\ interpolate (A := RA) NEXT ex_x ex_y (3 / 2) = Ok 1 /\ interpolate (A := RA) PREVIOUS ex_x ex_y (3 / 2) = Ok 0.
Proof.
  assert (G : greatest_not_above 4 ex_x (3 / 2) 1) by (split; [lia|split; [cbn; lra|intros j Hj; do 4 (destruct j as [|j]; [cbn; lra|]); lia]]).
  assert (L : least_above 4 ex_x (3 / 2) 2) by (split; [lia|split; [cbn; lra|intros j Hj; do 4 (destruct j as [|j]; [cbn; lra|]); lia]]).
  repeat split; try apply G; try apply L.
  - apply (proj1 (C53_next 4 ex_x ex_y (3 / 2) ex_table ltac:(lia))) with (i := 2%nat); [cbn; lra|exact L].
  - apply (proj1 (C53_previous 4 ex_x ex_y (3 / 2) ex_table ltac:(lia))) with (i := 1%nat); exact G.
Qed.

(** ** C54: reads stay inside the tables, in any arithmetic *)
Open Scope Z_scope.
Theorem C54_configuration : forall {A : arith} (o : interp A) m x y n,
  (fst (setMethod m o) = true <-> 0 <= m <= 8) /\ (fst (setMethod m o) = false -> snd (setMethod m o) = o) /\
  (fst (setData x y n o) = true <-> x <> None /\ y <> None /\ 4 <= n) /\ (fst (setData x y n o) = false -> snd (setData x y n o) = o) /\
  (fst (setData x y n o) = true -> snd (setData x y n o) = mkInterp x y n (i_m o)).
Proof.
  intros A o m x y n.
  assert (M : (match method_at (A := A) m with Some _ => true | None => false end = true <-> 0 <= m <= 8)).
  { unfold method_at. destruct m as [|p|p]; [split; auto; lia| |split; [discriminate|lia]].
    do 4 (destruct p as [p|p|]; try (split; [discriminate|lia]); try (split; [lia|reflexivity])). }
  unfold setMethod, setData. split; [|split]; [destruct (method_at m); cbn in *; exact M|destruct (method_at m); cbn; [discriminate|reflexivity]|].
  destruct x as [x|], y as [y|]; cbn [fst snd]; try (split; [split; [discriminate|intros (?&?&?); congruence]|split; [reflexivity|discriminate]]).
  rewrite Z.geb_leb. destruct (Z.leb_spec 4 n); cbn [fst snd]; (split; [split; [intros; try discriminate|intros (_&_&?); auto; lia]|split; [auto; discriminate|intros; try discriminate; reflexivity]]).
  repeat split; auto; discriminate.
Qed.
Print Assumptions C54_configuration.

Theorem C54_defined : forall {A : arith} (tx ty : list (F A)) x m, zlen ty = zlen tx -> zlen tx < 2147483648 -> 0 <= m <= 8 -> m <> NEXT -> m <> CUBIC ->
  exists y, interpolate m tx ty x = Ok y.
Proof.
  intros A tx ty x m Hl Hn Hm H0 H5. unfold interpolate, NEXT, CUBIC in *.
  assert (D : m = 1 \/ m = 2 \/ m = 3 \/ m = 4 \/ m = 6 \/ m = 7 \/ m = 8) by lia.
  destruct D as [->|[->|[->|[->|[->|[->| ->]]]]]]; cbn [interp_get setMethod method_at interp_new snd i_x i_y i_n i_m].
  - apply previous_total; auto.
  - apply nearest_total; auto.
  - apply linear_total; auto.
  - apply sine_total; auto.
  - apply hermite_total; auto.
  - apply spline_total; auto.
  - apply cSpline_total; auto.
Qed.
Print Assumptions C54_defined.
(** The two methods that read outside, and exactly when. *)
Theorem C54_next_undefined : forall o (x : binary32) tx ty, 2 <= zlen tx -> zlen ty = zlen tx -> Forall (fun v => is_nan 24 128 v = false) tx ->
  (interpolate (A := B32 o) NEXT tx ty x = Ub <-> is_nan 24 128 x = true).
Proof.
  intros o x tx ty Hn Hl Ht. split.
  - destruct (is_nan 24 128 x) eqn:N; auto. intros E. destruct (number_next o x tx ty (zlen tx)) as [y Ey]; auto.
    change (next (A := B32 o) x tx ty (zlen tx) = Ub) in E. congruence.
  - intros N. apply (nan_next o x N); auto.
Qed.
Print Assumptions C54_next_undefined.
Theorem C54_cubic_undefined : forall {A : arith} (tx ty : list (F A)) x t0 t1 tl, 4 <= zlen tx -> zlen ty = zlen tx ->
  get tx 0 = Ok t0 -> get tx 1 = Ok t1 -> get tx (zlen tx - 1) = Ok tl ->
  (interpolate CUBIC tx ty x = Ub <-> flt x t0 = false /\ flt tl x = false /\ fle x t1 = true).
Proof. intros A tx ty x t0 t1 tl Hn Hl E0 E1 El. apply (cubic_ub x tx ty (zlen tx) t0 t1 tl); auto. Qed.
Print Assumptions C54_cubic_undefined.
(** Short or absent tables give NaN with every method. *)
Theorem C54_short : forall {A : arith} (o : interp A) x m, fst (setMethod m o) = true ->
  (i_x o = None \/ i_y o = None \/ i_n o < 2 \/ (i_n o < 4 /\ In m [CUBIC; SPLINE; CONSTRAINED_SPLINE])) -> interp_get x (snd (setMethod m o)) = Ok (fnan (a := A)).
Proof.
  intros A o x m Hm H. unfold setMethod in *. destruct (method_at m) as [f|] eqn:Em; [|discriminate]. unfold interp_get. cbn [snd i_x i_y i_n i_m].
  destruct (i_x o) as [tx|]; [|reflexivity]. destruct (i_y o) as [ty|]; [|reflexivity].
  destruct H as [H|[H|[H|[H D]]]]; try discriminate; [eapply short_table; eauto|].
  cbn [In] in D. unfold CUBIC, SPLINE, CONSTRAINED_SPLINE in D. destruct D as [<-|[<-|[<-|[]]]]; injection Em as <-.
  - apply cubic_short; auto.
  - unfold spline. rewrite Z.geb_leb. destruct (Z.leb_spec 4 (i_n o)); [lia|reflexivity].
  - unfold cSpline. rewrite Z.geb_leb. destruct (Z.leb_spec 4 (i_n o)); [lia|reflexivity].
Qed.
Print Assumptions C54_short.
Example C54_nonvacuous : forall o, interpolate (A := B32 o) NEXT (map b32_ofZ [0; 1; 2; 3]) (map b32_ofZ [4; 5; 6; 7]) (fnan (a := B32 o)) = Ub /\
  interpolate (A := B32 o) CUBIC (map b32_ofZ [0; 1; 2; 3]) (map b32_ofZ [4; 5; 6; 7]) (b32_ofZ 1) = Ub /\
  exists y, interpolate (A := B32 o) SPLINE (map b32_ofZ [0; 1; 2; 3]) (map b32_ofZ [4; 5; 6; 7]) (b32_ofZ 1) = Ok y.
Proof. intros o. split; [reflexivity|]. split; [reflexivity|]. apply C54_defined; unfold SPLINE, NEXT, CUBIC; cbn; lia. Qed.
Close Scope Z_scope.

(** ** C55: hermite() is Lagrange interpolation *)
Theorem C55_polynomial : forall n tx ty c x, table n tx ty -> (2 <= n)%nat -> (length c <= n)%nat ->
  (forall i, (i < n)%nat -> nth i ty 0 = poly c (nth i tx 0)) -> nth 0 tx 0 <= x <= nth (n - 1) tx 0 ->
  interpolate (A := RA) HERMITE tx ty x = Ok (poly c x).
Proof. intros n tx ty c x T Hn Hc Hy Hx. api n tx ty T. apply (hermite_poly n); auto. Qed.
Print Assumptions C55_polynomial.
Theorem C55_extrapolation : forall n tx ty x, table n tx ty -> (2 <= n)%nat ->
  (x < nth 0 tx 0 -> interpolate (A := RA) HERMITE tx ty x = Ok (through (nth 0 tx 0) (nth 0 ty 0) (nth 1 tx 0) (nth 1 ty 0) x)) /\
  (nth (n - 1) tx 0 < x -> interpolate (A := RA) HERMITE tx ty x = Ok (through (nth (n - 2) tx 0) (nth (n - 2) ty 0) (nth (n - 1) tx 0) (nth (n - 1) ty 0) x)).
Proof.
  intros n tx ty x T Hn. split; intros H; api n tx ty T.
  - apply (hermite_below n); auto.
  - etransitivity; [apply (hermite_above n); auto|]. unfold segment. replace (S (n - 2)) with (n - 1)%nat by lia. reflexivity.
Qed.
Print Assumptions C55_extrapolation.
(** A Hermite interpolant of increasing data would increase; this one leaves the range of the ordinates. *)
Theorem C55_overshoot : exists n tx ty x, table n tx ty /\ nth 0 tx 0 <= x <= nth (n - 1) tx 0 /\ Forall (fun y => 0 <= y <= 1) ty /\
  exists y, interpolate (A := RA) HERMITE tx ty x = Ok y /\ y < - (1 / 5).
Proof.
  exists 4%nat, ex_x, ex_y, (1 / 2). split; [exact ex_table|]. split; [cbn; lra|].
  split; [unfold ex_y; repeat (apply Forall_cons; [lra|]); apply Forall_nil|].
  exists (poly [0; - 7 / 6; 3 / 2; - 1 / 3] (1 / 2)). split.
  - apply (C55_polynomial 4); [exact ex_table|lia|cbn; lia| |cbn; lra].
    intros i Hi. do 4 (destruct i as [|i]; [unfold ex_x, ex_y, poly; cbn [nth fold_right]; lra|]). lia.
  - unfold poly. cbn [fold_right]. lra.
Qed.
Print Assumptions C55_overshoot.

(** sine() evaluates the last interval wherever [x] lies inside the table. *)
Theorem C55_sine_last_interval : forall n tx ty x, table n tx ty -> (2 <= n)%nat -> nth 0 tx 0 <= x <= nth (n - 1) tx 0 ->
  exists y w, interpolate (A := RA) SINE tx ty x = Ok y /\ y = (1 - w) * nth (n - 2) ty 0 + w * nth (n - 1) ty 0 /\
    w = (1 - cos (13176795 / 4194304 * (x - nth (n - 2) tx 0) / (nth (n - 1) tx 0 - nth (n - 2) tx 0))) / 2 /\
    Rmin (nth (n - 2) ty 0) (nth (n - 1) ty 0) <= y <= Rmax (nth (n - 2) ty 0) (nth (n - 1) ty 0).
Proof.
  intros n tx ty x T Hn Hx. eexists. eexists. split; [api n tx ty T; exact (sine_inside n tx ty T x Hn Hx)|].
  split; [|split; [reflexivity|apply sine_blend_between]].
  unfold sine_blend, ffp_pi. change (o_cos (lib (a := RA))) with cos. change (lit (a := RA) 1 2) with (1 / 2).
  change (lit (a := RA) 13176795 4194304) with (13176795 / 4194304). cbv zeta. ops.
  set (c := cos _). field.
Qed.
Print Assumptions C55_sine_last_interval.
(** So it does not reproduce a data point away from the last two ordinates. *)
Theorem C55_sine_refuted : exists n tx ty i, table n tx ty /\ (i < n)%nat /\ interpolate (A := RA) SINE tx ty (nth i tx 0) <> Ok (nth i ty 0).
Proof.
  exists 4%nat, ex_x, ex_y, 1%nat. split; [exact ex_table|]. split; [lia|]. intros E.
  destruct (C55_sine_last_interval 4 ex_x ex_y (nth 1 ex_x 0) ex_table) as (y & w & E' & _ & _ & B); [lia|cbn; lra|].
  rewrite E' in E. injection E as ->. cbn in B. unfold Rmin, Rmax in B. destruct (Rle_dec 1 1); lra.
Qed.
Print Assumptions C55_sine_refuted.
Example C55_nonvacuous : interpolate (A := RA) HERMITE [0; 1; 2; 3] [0; 1; 8; 27] (1 / 2) = Ok (1 / 8).
Proof.
  replace (1 / 8) with (poly [0; 0; 0; 1] (1 / 2)) by (unfold poly; cbn [fold_right]; lra).
  apply (C55_polynomial 4); [destruct ex_table as (A1 & _ & A3); repeat split; auto|lia|cbn; lia| |cbn; lra].
  intros i Hi. do 4 (destruct i as [|i]; [unfold poly; cbn [nth fold_right]; lra|]). lia.
Qed.

(** ** C75: spline() is a C1 piecewise cubic *)
Theorem C75_spline_pieces : forall n tx ty i x, table n tx ty -> (4 <= n)%nat -> wide n tx -> (S i < n)%nat ->
  (i = 0%nat \/ nth i tx 0 <= x) -> (i = (n - 2)%nat \/ x < nth (S i) tx 0) -> / 2 ^ 126 < Rabs (x - nth (S i) tx 0) ->
  interpolate (A := RA) SPLINE tx ty x =
    Ok (cubic_hermite (nth i tx 0) (nth (S i) tx 0) (nth i ty 0) (nth (S i) ty 0) (knot_slope n tx ty i) (knot_slope n tx ty (S i)) x).
Proof. intros n tx ty i x T Hn G Hi H1 H2 H3. api n tx ty T. apply (spline_at n); auto. Qed.
Print Assumptions C75_spline_pieces.
(** Neighbouring pieces meet with the value of the table and one common slope. *)
Theorem C75_spline_smooth : forall n tx ty i, table n tx ty -> (S (S i) < n)%nat ->
  let piece j := cubic_hermite (nth j tx 0) (nth (S j) tx 0) (nth j ty 0) (nth (S j) ty 0) (knot_slope n tx ty j) (knot_slope n tx ty (S j)) in
  piece i (nth (S i) tx 0) = nth (S i) ty 0 /\ piece (S i) (nth (S i) tx 0) = nth (S i) ty 0 /\
  derivable_pt_lim (piece i) (nth (S i) tx 0) (knot_slope n tx ty (S i)) /\ derivable_pt_lim (piece (S i)) (nth (S i) tx 0) (knot_slope n tx ty (S i)).
Proof.
  intros n tx ty i T Hi piece. unfold piece.
  assert (nth i tx 0 < nth (S i) tx 0) by (apply (knot_lt n tx ty T); lia). assert (nth (S i) tx 0 < nth (S (S i)) tx 0) by (apply (knot_lt n tx ty T); lia).
  destruct (cubic_hermite_ends (nth i tx 0) (nth (S i) tx 0) (nth i ty 0) (nth (S i) ty 0) (knot_slope n tx ty i) (knot_slope n tx ty (S i))) as (_ & A2 & _ & A4); [lra|].
  destruct (cubic_hermite_ends (nth (S i) tx 0) (nth (S (S i)) tx 0) (nth (S i) ty 0) (nth (S (S i)) ty 0) (knot_slope n tx ty (S i)) (knot_slope n tx ty (S (S i)))) as (B1 & _ & B3 & _); [lra|].
  auto.
Qed.
Print Assumptions C75_spline_smooth.
(** A straight line is reproduced, outside the table too. *)
Theorem C75_spline_affine : forall n tx ty a b x, table n tx ty -> (4 <= n)%nat -> wide n tx ->
  (forall i, (i < n)%nat -> nth i ty 0 = a + b * nth i tx 0) ->
  (forall i, (i < n)%nat -> x = nth i tx 0 \/ / 2 ^ 126 < Rabs (x - nth i tx 0)) ->
  interpolate (A := RA) SPLINE tx ty x = Ok (a + b * x).
Proof.
  intros n tx ty a b x T Hn G H Far.
  assert (Hk : (exists k, (k < n)%nat /\ x = nth k tx 0) \/ forall i, (i < n)%nat -> / 2 ^ 126 < Rabs (x - nth i tx 0)).
  { assert (P : forall k, (k <= n)%nat -> (exists j, (j < n)%nat /\ x = nth j tx 0) \/ forall i, (i < k)%nat -> / 2 ^ 126 < Rabs (x - nth i tx 0)).
    { induction k as [|k IH]; intros Hk; [right; lia|]. destruct IH as [E|E]; [lia|auto|]. destruct (Far k) as [Fk|Fk]; [lia|left; eauto|].
      right. intros i Hi. destruct (Nat.eq_dec i k) as [->|]; auto. apply E. lia. }
    apply P. lia. }
  destruct Hk as [(k & Hk & ->)|Hk].
  { etransitivity; [|apply f_equal; exact (H k Hk)]. api n tx ty T. apply (spline_knot n); auto. }
  assert (KS : forall i, (i < n)%nat -> knot_slope n tx ty i = b).
  { intros i Hi. assert (Q : forall p q, (p < q < n)%nat -> rise tx ty p q = b).
    { intros p q Hpq. unfold rise. rewrite (H p), (H q) by lia. assert (nth p tx 0 < nth q tx 0) by (apply (knot_lt n tx ty T); lia). field. lra. }
    unfold knot_slope. destruct (Nat.eqb_spec i 0); [apply Q; lia|]. destruct (Nat.eqb_spec i (n - 1)); apply Q; lia. }
  assert (I : exists i, (S i < n)%nat /\ (i = 0%nat \/ nth i tx 0 <= x) /\ (i = (n - 2)%nat \/ x < nth (S i) tx 0)).
  { destruct (Rlt_dec x (nth 0 tx 0)) as [L|L].
    - exists 0%nat. split; [lia|]. split; auto. right. assert (nth 0 tx 0 < nth 1 tx 0) by (apply (knot_lt n tx ty T); lia). lra.
    - destruct (Rlt_dec (nth (n - 1) tx 0) x) as [U|U].
      + exists (n - 2)%nat. split; [lia|]. split; auto. right. assert (nth (n - 2) tx 0 < nth (n - 1) tx 0) by (apply (knot_lt n tx ty T); lia). lra.
      + destruct (table_cover n tx ty x T) as (i & Hi & Hx); [lia|lra|]. exists i. split; [exact Hi|]. split; [right; lra|]. right. specialize (Hk _ Hi).
        destruct (Req_dec x (nth (S i) tx 0)) as [e|e]; [|lra]. rewrite e, Rminus_eq_0, Rabs_R0 in Hk. pose proof tolerance. lra. }
  destruct I as (i & Hi & H1 & H2). rewrite (C75_spline_pieces n tx ty i x) by auto.
  rewrite (KS i), (KS (S i)), (H i), (H (S i)) by lia.
  assert (nth i tx 0 < nth (S i) tx 0) by (apply (knot_lt n tx ty T); lia).
  apply f_equal. unfold cubic_hermite. cbv zeta. change (F RA) with R. field. lra.
Qed.
Print Assumptions C75_spline_affine.
Example C75_nonvacuous : interpolate (A := RA) SPLINE ex_x ex_y (3 / 2) = Ok (1 / 2).
Proof.
  assert (/ 2 ^ 126 < 1 / 2). { replace (1 / 2) with (/ 2) by lra. apply Rinv_lt_contravar; [|apply Rlt_le_trans with (2 ^ 2); [lra|apply Rle_pow; [lra|lia]]]. apply Rmult_lt_0_compat; [lra|]. apply pow_lt. lra. }
  rewrite (C75_spline_pieces 4 ex_x ex_y 1 (3 / 2)); [|exact ex_table|lia|exact ex_wide|lia|right; cbn; lra|right; cbn; lra|].
  - apply f_equal. unfold cubic_hermite, knot_slope, rise, ex_x, ex_y. cbn [nth Nat.eqb Nat.sub Nat.add]. change (F RA) with R. field.
  - unfold ex_x. cbn [nth]. rewrite Rabs_left by lra. lra.
Qed.
