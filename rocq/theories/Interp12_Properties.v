(** The constrained spline between the knots: C95. *)
From Coq Require Import ZArith List Bool Lia Reals Lra Psatz.
From Flocq Require Import Core.Raux.
From Verif Require Import Base BaseLemmas Arith ArithLemmas Ltisys_Proofs Ltisys_Proofs2 Interp1_Model Interp1_Spec Interp1_Proofs Interp1_Proofs2 Interp1_Proofs4 Interp1_Properties.
Import ListNotations.
Open Scope R_scope.

(** The four knots around interval [i] have pairwise different neighbouring
    ordinates: the code divides by the differences. *)
Definition inner (n : nat) (ty : list R) (i : nat) : Prop :=
  (0 < i)%nat /\ (S (S i) < n)%nat /\ nth (i - 1) ty 0 <> nth i ty 0 /\ nth i ty 0 <> nth (S i) ty 0 /\ nth (S i) ty 0 <> nth (S (S i)) ty 0.
(** Deviation allowed for: the source writes one sixth as 0.166666667F. *)
Definition slack (tx ty : list R) (i : nat) : R :=
  / 2 ^ 24 * (Rabs (nth (S i) ty 0 - nth i ty 0) * Rmax (Rabs (nth i tx 0)) (Rabs (nth (S i) tx 0)) / (nth (S i) tx 0 - nth i tx 0)).

Lemma slope_bounds tx ty i : nth i tx 0 < nth (S i) tx 0 -> nth i ty 0 < nth (S i) ty 0 -> (0 < i)%nat ->
  0 <= constrained_slope tx ty i <= 2 * rise tx ty i (S i) /\ 0 <= constrained_slope tx ty (S i) <= 2 * rise tx ty i (S i).
Proof.
  intros Hx Hy Hi. assert (R0 : 0 < rise tx ty i (S i)) by (unfold rise; apply Rmult_lt_0_compat; [lra|apply Rinv_0_lt_compat; lra]).
  unfold constrained_slope. replace (i + 1)%nat with (S i) by lia. replace (S i - 1)%nat with i by lia.
  split; [rewrite harmonic_comm|]; apply harmonic_pos; exact R0.
Qed.
Lemma slope_bounds_neg tx ty i : nth i tx 0 < nth (S i) tx 0 -> nth (S i) ty 0 < nth i ty 0 -> (0 < i)%nat ->
  0 <= - constrained_slope tx ty i <= 2 * - rise tx ty i (S i) /\ 0 <= - constrained_slope tx ty (S i) <= 2 * - rise tx ty i (S i).
Proof.
  intros Hx Hy Hi. assert (R0 : 0 < - rise tx ty i (S i)).
  { unfold rise. replace (- ((nth (S i) ty 0 - nth i ty 0) / (nth (S i) tx 0 - nth i tx 0))) with ((nth i ty 0 - nth (S i) ty 0) * / (nth (S i) tx 0 - nth i tx 0)) by (field; lra).
    apply Rmult_lt_0_compat; [lra|apply Rinv_0_lt_compat; lra]. }
  unfold constrained_slope. replace (i + 1)%nat with (S i) by lia. replace (S i - 1)%nat with i by lia. rewrite <- !harmonic_neg.
  split; [rewrite harmonic_comm|]; apply harmonic_pos; exact R0.
Qed.

(** ** C95: between inner knots the constrained spline stays within the ordinates *)
Theorem C95_no_overshoot : forall n tx ty i x, table n tx ty -> wide n tx -> inner n ty i -> nth i tx 0 <= x <= nth (S i) tx 0 ->
  x = nth (S i) tx 0 \/ / 2 ^ 126 < nth (S i) tx 0 - x ->
  exists y, interpolate (A := RA) CONSTRAINED_SPLINE tx ty x = Ok y /\
    Rmin (nth i ty 0) (nth (S i) ty 0) - slack tx ty i <= y <= Rmax (nth i ty 0) (nth (S i) ty 0) + slack tx ty i.
Proof.
  intros n tx ty i x T W (H0 & H1 & D1 & D2 & D3) Hx Hf.
  assert (XX : nth i tx 0 < nth (S i) tx 0) by (apply (knot_lt n tx ty T); lia).
  assert (S0 : 0 <= slack tx ty i).
  { unfold slack. apply Rmult_le_pos; [left; apply Rinv_0_lt_compat; apply pow_lt; lra|]. apply Rmult_le_pos; [|left; apply Rinv_0_lt_compat; lra].
    apply Rmult_le_pos; [apply Rabs_pos|]. apply Rle_trans with (Rabs (nth i tx 0)); [apply Rabs_pos|apply Rmax_l]. }
  destruct Hf as [->|Hf].
  { exists (nth (S i) ty 0). split; [|pose proof (Rmin_r (nth i ty 0) (nth (S i) ty 0)); pose proof (Rmax_r (nth i ty 0) (nth (S i) ty 0)); lra].
    api n tx ty T. apply (cSpline_knot n tx ty T W); lia. }
  exists (con_piece (nth i tx 0) (nth (S i) tx 0) (nth i ty 0) (nth (S i) ty 0) (constrained_slope tx ty i) (constrained_slope tx ty (S i)) x). split.
  { api n tx ty T. pose proof tolerance. apply (cSpline_pieces n tx ty T); auto; [lia|lra|]. rewrite Rabs_left by lra. lra. }
  destruct (Rlt_dec (nth i ty 0) (nth (S i) ty 0)) as [L|L].
  - rewrite Rmin_left, Rmax_right by lra. destruct (slope_bounds tx ty i XX L H0) as [B1 B2]. unfold slack. rewrite Rabs_pos_eq by lra. apply con_piece_up; auto; lra.
  - rewrite Rmin_right, Rmax_left by lra. destruct (slope_bounds_neg tx ty i) as [B1 B2]; [lra|lra|exact H0|].
    pose proof (con_piece_up (nth i tx 0) (nth (S i) tx 0) (- nth i ty 0) (- nth (S i) ty 0) (- constrained_slope tx ty i) (- constrained_slope tx ty (S i)) x XX) as K.
    cbv zeta in K. rewrite con_piece_neg in K by exact XX.
    assert (E : (- nth (S i) ty 0 - - nth i ty 0) / (nth (S i) tx 0 - nth i tx 0) = - rise tx ty i (S i)) by (unfold rise; field; lra).
    rewrite E in K. specialize (K ltac:(lra) B1 B2 Hx).
    unfold slack. rewrite Rabs_left by lra. replace (- (nth (S i) ty 0 - nth i ty 0)) with (- nth (S i) ty 0 - - nth i ty 0) by ring. lra.
Qed.
Print Assumptions C95_no_overshoot.

(** The exact shape: the cubic through the two points whose slope at either end
    is twice the chord's minus the constrained slope of the opposite end. *)
Theorem C95_pieces : forall n tx ty i x, table n tx ty -> wide n tx -> inner n ty i -> nth i tx 0 <= x -> / 2 ^ 126 < nth (S i) tx 0 - x ->
  exists y, interpolate (A := RA) CONSTRAINED_SPLINE tx ty x = Ok y /\
    Rabs (y - cubic_hermite (nth i tx 0) (nth (S i) tx 0) (nth i ty 0) (nth (S i) ty 0)
              (2 * rise tx ty i (S i) - constrained_slope tx ty (S i)) (2 * rise tx ty i (S i) - constrained_slope tx ty i) x) <= slack tx ty i.
Proof.
  intros n tx ty i x T W (H0 & H1 & D1 & D2 & D3) Hx Hf. pose proof tolerance as Tol.
  assert (XX : nth i tx 0 < nth (S i) tx 0) by (apply (knot_lt n tx ty T); lia).
  exists (con_piece (nth i tx 0) (nth (S i) tx 0) (nth i ty 0) (nth (S i) ty 0) (constrained_slope tx ty i) (constrained_slope tx ty (S i)) x). split.
  { api n tx ty T. apply (cSpline_pieces n tx ty T); auto; [lia|lra|]. rewrite Rabs_left by lra. lra. }
  assert (B : Rabs (2 * rise tx ty i (S i) - constrained_slope tx ty i - constrained_slope tx ty (S i)) <= 2 * Rabs (rise tx ty i (S i))).
  { destruct (Rlt_dec (nth i ty 0) (nth (S i) ty 0)) as [L|L].
    - destruct (slope_bounds tx ty i XX L H0) as [B1 B2]. rewrite (Rabs_pos_eq (rise tx ty i (S i))) by lra. apply Rabs_le. lra.
    - destruct (slope_bounds_neg tx ty i) as [B1 B2]; [lra|lra|exact H0|]. rewrite (Rabs_left1 (rise tx ty i (S i))) by lra. apply Rabs_le. lra. }
  unfold con_piece. cbv zeta. fold (rise tx ty i (S i)). match goal with |- Rabs (?a + ?b - ?a) <= _ => replace (a + b - a) with b by ring end.
  apply con_dev; auto. lra.
Qed.
Print Assumptions C95_pieces.

(** So the curve has corners at the knots: here its slope jumps from about 1 to about 3. *)
Definition kx : list R := [0; 1; 2; 3; 4].
Definition ky : list R := [0; 1; 2; 5; 8].
Lemma k_table : table 5 kx ky.
Proof. repeat split. intros i Hi. do 5 (destruct i as [|i]; cbn in *; [lra || lia|]). lia. Qed.
Lemma k_wide : wide 5 kx.
Proof.
  assert (/ 2 ^ 126 < 1). { rewrite <- Rinv_1. apply Rinv_lt_contravar; [|apply Rlt_pow_R1; [lra|lia]]. rewrite Rmult_1_l. apply pow_lt. lra. }
  intros i Hi. do 5 (destruct i as [|i]; cbn [nth kx] in *; [lra || lia|]). lia.
Qed.
Lemma k_inner i : (i = 1 \/ i = 2)%nat -> inner 5 ky i.
Proof. intros [-> | ->]; unfold inner; cbn [nth ky Nat.sub]; repeat split; try lia; lra. Qed.
Theorem C95_smooth_refuted : exists n tx ty i, table n tx ty /\ wide n tx /\ inner n ty i /\ inner n ty (S i) /\
  forall t, / 2 ^ 126 < t <= / 100 -> exists a b,
    interpolate (A := RA) CONSTRAINED_SPLINE tx ty (nth (S i) tx 0 - t) = Ok a /\ interpolate (A := RA) CONSTRAINED_SPLINE tx ty (nth (S i) tx 0 + t) = Ok b /\
    nth (S i) ty 0 - a <= 6 / 5 * t /\ 14 / 5 * t <= b - nth (S i) ty 0.
Proof.
  exists 5%nat, kx, ky, 1%nat. split; [exact k_table|]. split; [exact k_wide|]. split; [apply k_inner; auto|]. split; [apply k_inner; auto|].
  intros t Ht. pose proof tolerance as Tol. cbn [nth kx ky].
  assert (S1 : constrained_slope kx ky 1 = 1). { unfold constrained_slope, harmonic, rise. cbn [nth kx ky Nat.sub Nat.add]. destruct (Rle_dec _ 0) as [C|C]; [exfalso; lra|lra]. }
  assert (S2 : constrained_slope kx ky 2 = 3 / 2). { unfold constrained_slope, harmonic, rise. cbn [nth kx ky Nat.sub Nat.add]. destruct (Rle_dec _ 0) as [C|C]; [exfalso; lra|lra]. }
  assert (S3 : constrained_slope kx ky 3 = 3). { unfold constrained_slope, harmonic, rise. cbn [nth kx ky Nat.sub Nat.add]. destruct (Rle_dec _ 0) as [C|C]; [exfalso; lra|lra]. }
  exists (con_piece 1 2 1 2 1 (3 / 2) (2 - t)), (con_piece 2 3 2 5 (3 / 2) 3 (2 + t)).
  assert (E25 : / 2 ^ 25 = / 33554432) by (f_equal; ring).
  split; [|split; [|split]].
  - transitivity (Ok (con_piece 1 2 1 2 (constrained_slope kx ky 1) (constrained_slope kx ky 2) (2 - t))); [|rewrite S1, S2; reflexivity]. api 5%nat kx ky k_table. apply (cSpline_pieces 5 kx ky k_table _ 1); try lia; cbn [nth kx ky Nat.sub]; try lra. rewrite Rabs_left by lra. lra.
  - transitivity (Ok (con_piece 2 3 2 5 (constrained_slope kx ky 2) (constrained_slope kx ky 3) (2 + t))); [|rewrite S2, S3; reflexivity]. api 5%nat kx ky k_table. apply (cSpline_pieces 5 kx ky k_table _ 2); try lia; cbn [nth kx ky Nat.sub]; try lra. rewrite Rabs_left by lra. lra.
  - unfold con_piece, cubic_hermite. cbv zeta. rewrite E25. field_simplify. nra.
  - unfold con_piece, cubic_hermite. cbv zeta. rewrite E25. field_simplify. nra.
Qed.
Print Assumptions C95_smooth_refuted.
Example C95_nonvacuous : table 5 kx ky /\ wide 5 kx /\ inner 5 ky 2.
Proof. split; [exact k_table|]. split; [exact k_wide|]. apply k_inner. auto. Qed.
