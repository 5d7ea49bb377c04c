(** The pieces of the constrained spline over the reals. *)
From Coq Require Import ZArith List Bool Lia Reals Lra Psatz.
From Flocq Require Import Core.Raux.
From Verif Require Import Base BaseLemmas Arith ArithLemmas Ltisys_Proofs Ltisys_Proofs2 Interp1_Model Interp1_Spec Interp1_Proofs Interp1_Proofs2.
Import ListNotations.
Open Scope R_scope.

Section Table.
Variable n : nat.
Variables tx ty : list R.
Hypothesis T : table n tx ty.
Let X i := nth i tx 0.
Let Y i := nth i ty 0.
Hypothesis G : forall i, (S i < n)%nat -> X i + / 2 ^ 126 < X (S i).

Lemma rise_inv i j : X i <> X j -> Y i <> Y j -> (X j - X i) / (Y j - Y i) = / rise tx ty i j.
Proof. intros H1 H2. unfold rise. fold (X i) (X j) (Y i) (Y j). field. split; lra. Qed.

Lemma first_inner i : (0 < i)%nat -> (S i < n)%nat -> Y (i - 1) <> Y i -> Y i <> Y (i + 1) ->
  firstDerivate (A := RA) tx ty (Z.of_nat n - 1) (Z.of_nat i) = Ok (constrained_slope tx ty i).
Proof.
  intros H0 H1 D1 D2. unfold firstDerivate. destruct (Z.eqb_spec (Z.of_nat i) 0); [lia|]. destruct (Z.eqb_spec (Z.of_nat n - 1) (Z.of_nat i)); [lia|].
  rewrite (gx n tx ty T _ (i - 1)), (gx n tx ty T _ i), (gx n tx ty T _ (i + 1)), (gy n tx ty T _ (i - 1)), (gy n tx ty T _ i), (gy n tx ty T _ (i + 1)) by lia. cbn [bind]. cbv zeta.
  apply f_equal. fold (X (i - 1)) (X i) (X (i + 1)) (Y (i - 1)) (Y i) (Y (i + 1)).
  assert (X (i - 1) < X i) by (apply (knot_lt n tx ty T); lia). assert (X i < X (i + 1)) by (apply (knot_lt n tx ty T); lia).
  change (fsub (a := RA)) with Rminus. change (fdiv (a := RA)) with Rdiv. change (fmul (a := RA)) with Rmult. change (fadd (a := RA)) with Rplus. change (flt (a := RA)) with Rltb.
  change (lit (a := RA) 0 1) with (0 / 1). change (lit (a := RA) 2 1) with (2 / 1). replace (0 / 1) with 0 by field.
  change (F RA) with R. rewrite !rise_inv by lra. unfold constrained_slope, harmonic.
  assert (rise tx ty (i - 1) i <> 0). { unfold rise. fold (X (i - 1)) (X i) (Y (i - 1)) (Y i). unfold Rdiv. apply Rmult_integral_contrapositive_currified; [lra|apply Rinv_neq_0_compat; lra]. }
  assert (rise tx ty i (i + 1) <> 0). { unfold rise. fold (X (i + 1)) (X i) (Y (i + 1)) (Y i). unfold Rdiv. apply Rmult_integral_contrapositive_currified; [lra|apply Rinv_neq_0_compat; lra]. }
  revert H2 H3 H4. generalize (rise tx ty (i - 1) i) (rise tx ty i (i + 1)). intros a b _ Ha Hb.
  unfold Rltb. destruct (Rlt_dec (/ b * / a) 0) as [L|L]; destruct (Rle_dec (a * b) 0) as [M|M]; try reflexivity; try lra.
  - exfalso. apply M. rewrite <- Rinv_mult in L. destruct (Rtotal_order (b * a) 0) as [K|[K|K]]; try nra. apply Rinv_0_lt_compat in K. lra.
  - exfalso. apply L. rewrite <- Rinv_mult. apply Rinv_lt_0_compat. assert (a * b <> 0) by (apply Rmult_integral_contrapositive_currified; auto). nra.
  - assert (a + b <> 0) by nra. field. repeat split; auto; lra.
Qed.

(** What the code puts between two knots whose slopes it computed as [d0] and [d1]. *)
Definition con_piece (x0 x1 y0 y1 d0 d1 x : R) : R :=
  let s := (y1 - y0) / (x1 - x0) in
  cubic_hermite x0 x1 y0 y1 (2 * s - d1) (2 * s - d0) x + / 2 ^ 25 * ((2 * s - d0 - d1) / (x1 - x0) ^ 2 * (x - x0) * (x - x1) * (x + x0 + x1)).

Lemma cspline_piece x x0 x1 y0 y1 d0 d1 : x0 < x1 ->
  let h := x1 - x0 in
  cspline_form (A := RA) x x0 x1 y0 y1 (- 2 * (d1 + 2 * d0) / h + 6 * (y1 - y0) / (h * h)) (2 * (2 * d1 + d0) / h - 6 * (y1 - y0) / (h * h)) = con_piece x0 x1 y0 y1 d0 d1 x.
Proof.
  intros H h. unfold cspline_form, con_piece, cubic_hermite, h. cbv zeta.
  change (fsub (a := RA)) with Rminus. change (fdiv (a := RA)) with Rdiv. change (fmul (a := RA)) with Rmult. change (fadd (a := RA)) with Rplus.
  change (sixth (A := RA)) with (11184811 / 67108864). change (lit (a := RA) 1 2) with (1 / 2). change (lit (a := RA) 1 1) with (1 / 1). change (F RA) with R.
  replace (/ 2 ^ 25) with (/ 33554432) by (f_equal; ring). field. lra.
Qed.

Lemma cSpline_pieces (x : R) i : (4 <= n)%nat -> (0 < i)%nat -> (S (S i) < n)%nat -> X i <= x < X (S i) -> / 2 ^ 126 < Rabs (x - X (S i)) ->
  Y (i - 1) <> Y i -> Y i <> Y (S i) -> Y (S i) <> Y (S (S i)) ->
  cSpline (A := RA) x tx ty (Z.of_nat n) = Ok (con_piece (X i) (X (S i)) (Y i) (Y (S i)) (constrained_slope tx ty i) (constrained_slope tx ty (S i)) x).
Proof.
  intros Hn H0 Hi Hx Hf D1 D2 D3.
  destruct (cSpline_at n tx ty T x i) as (l & r & El & Er & E); [exact Hn|lia|right; apply Hx|right; apply Hx|exact Hf|]. rewrite E. apply f_equal.
  fold (X i) (X (S i)) (Y i) (Y (S i)). assert (XX : X i < X (S i)) by (apply (knot_lt n tx ty T); lia).
  rewrite <- cspline_piece by exact XX. cbv zeta.
  assert (F1 : firstDerivate (A := RA) tx ty (Z.of_nat n - 1) (Z.of_nat i + 1) = Ok (constrained_slope tx ty (S i))).
  { replace (Z.of_nat i + 1)%Z with (Z.of_nat (S i)) by lia. apply first_inner; try lia; replace (S i - 1)%nat with i by lia; replace (S i + 1)%nat with (S (S i)) by lia; auto. }
  assert (F0 : firstDerivate (A := RA) tx ty (Z.of_nat n - 1) (Z.of_nat i + 1 - 1) = Ok (constrained_slope tx ty i)).
  { replace (Z.of_nat i + 1 - 1)%Z with (Z.of_nat i) by lia. apply first_inner; try lia; replace (i + 1)%nat with (S i) by lia; auto. }
  unfold leftSecondDerivate in El. unfold rightSecondDerivate in Er. rewrite F0, F1 in El, Er. cbn [bind] in El, Er.
  rewrite (gx n tx ty T _ (S i)), (gx n tx ty T _ i), (gy n tx ty T _ (S i)), (gy n tx ty T _ i) in El, Er by lia. cbn [bind] in El, Er. cbv zeta in El, Er.
  injection El as <-. injection Er as <-. fold (X i) (X (S i)) (Y i) (Y (S i)).
  change (fsub (a := RA)) with Rminus. change (fdiv (a := RA)) with Rdiv. change (fmul (a := RA)) with Rmult. change (fadd (a := RA)) with Rplus. change (fopp (a := RA)) with Ropp.
  change (lit (a := RA) 2 1) with (2 / 1). change (lit (a := RA) 6 1) with (6 / 1). replace (2 / 1) with 2 by field. replace (6 / 1) with 6 by field.
  reflexivity.
Qed.
End Table.

(** The harmonic mean has the sign of its arguments and is at most twice either. *)
Lemma harmonic_pos a b : 0 < a -> 0 <= harmonic a b <= 2 * a.
Proof.
  intros Ha. unfold harmonic. destruct (Rle_dec (a * b) 0); [lra|]. assert (0 < b) by nra. assert (S : 0 < a + b) by lra.
  split; [apply Rmult_le_pos; [nra|left; apply Rinv_0_lt_compat; lra]|]. apply (Rmult_le_reg_r (a + b)); [lra|]. unfold Rdiv. rewrite Rmult_assoc, Rinv_l by lra. nra.
Qed.
Lemma harmonic_comm a b : harmonic a b = harmonic b a.
Proof. unfold harmonic. rewrite (Rmult_comm b a), (Rplus_comm b a). destruct (Rle_dec (a * b) 0); auto. replace (2 * a * b) with (2 * b * a) by ring. reflexivity. Qed.
Lemma harmonic_neg a b : harmonic (- a) (- b) = - harmonic a b.
Proof.
  unfold harmonic. replace (- a * - b) with (a * b) by ring. destruct (Rle_dec (a * b) 0) as [|N]; [lra|].
  assert (a + b <> 0) by nra. field. split; lra.
Qed.

(** A cubic whose end slopes lie between zero and twice the chord's stays between its ends. *)
Lemma hermite_between x0 x1 y0 y1 p q x : x0 < x1 -> y0 <= y1 -> let s := (y1 - y0) / (x1 - x0) in 0 <= p <= 2 * s -> 0 <= q <= 2 * s -> x0 <= x <= x1 ->
  y0 <= cubic_hermite x0 x1 y0 y1 p q x <= y1.
Proof.
  intros Hx Hy s Hp Hq Hr. unfold cubic_hermite. cbv zeta. set (h := x1 - x0). set (t := (x - x0) / h).
  assert (Hh : 0 < h) by (unfold h; lra). assert (Es : y1 - y0 = h * s) by (unfold s, h; field; unfold h in Hh; lra).
  assert (Ht : 0 <= t <= 1). { unfold t. split; [apply Rmult_le_pos; [lra|left; apply Rinv_0_lt_compat; lra]|]. apply (Rmult_le_reg_r h); [lra|]. unfold Rdiv. rewrite Rmult_assoc, Rinv_l by lra. unfold h in *. lra. }
  clearbody s t h. assert (y1 = y0 + h * s) as -> by lra. clear Es Hy.
  assert (Hs : 0 <= s) by lra.
  replace ((1 + 2 * t) * (1 - t) ^ 2 * y0 + t * (1 - t) ^ 2 * h * p + t ^ 2 * (3 - 2 * t) * (y0 + h * s) + t ^ 2 * (t - 1) * h * q)
    with (y0 + h * (s * t ^ 2 + p * (t * (1 - t) ^ 2) + (2 * s - q) * (t ^ 2 * (1 - t)))) by ring.
  assert (A1 : 0 <= t ^ 2) by (apply pow2_ge_0). assert (A2 : 0 <= (1 - t) ^ 2) by (apply pow2_ge_0).
  assert (A3 : 0 <= t * (1 - t) ^ 2) by (apply Rmult_le_pos; lra). assert (A4 : 0 <= t ^ 2 * (1 - t)) by (apply Rmult_le_pos; lra).
  assert (B1 : 0 <= s * t ^ 2 + p * (t * (1 - t) ^ 2) + (2 * s - q) * (t ^ 2 * (1 - t))).
  { assert (0 <= s * t ^ 2) by (apply Rmult_le_pos; lra). assert (0 <= p * (t * (1 - t) ^ 2)) by (apply Rmult_le_pos; lra).
    assert (0 <= (2 * s - q) * (t ^ 2 * (1 - t))) by (apply Rmult_le_pos; lra). lra. }
  assert (B2 : s * t ^ 2 + p * (t * (1 - t) ^ 2) + (2 * s - q) * (t ^ 2 * (1 - t)) <= s).
  { assert (K : 0 <= s * (1 - t) ^ 2 + (2 * s - p) * (t * (1 - t) ^ 2) + q * (t ^ 2 * (1 - t))).
    { assert (0 <= s * (1 - t) ^ 2) by (apply Rmult_le_pos; lra). assert (0 <= (2 * s - p) * (t * (1 - t) ^ 2)) by (apply Rmult_le_pos; lra).
      assert (0 <= q * (t ^ 2 * (1 - t))) by (apply Rmult_le_pos; lra). lra. }
    lra. }
  split; nra.
Qed.

(** The deviation due to the rounded one sixth. *)
Lemma con_dev x0 x1 y0 y1 d0 d1 x : x0 < x1 -> x0 <= x <= x1 -> let s := (y1 - y0) / (x1 - x0) in Rabs (2 * s - d0 - d1) <= 2 * Rabs s ->
  Rabs (/ 2 ^ 25 * ((2 * s - d0 - d1) / (x1 - x0) ^ 2 * (x - x0) * (x - x1) * (x + x0 + x1))) <= / 2 ^ 24 * (Rabs (y1 - y0) * Rmax (Rabs x0) (Rabs x1) / (x1 - x0)).
Proof.
  intros Hx Hr s P1. set (h := x1 - x0) in *. assert (Hh : 0 < h) by (unfold h; lra). set (M := Rmax (Rabs x0) (Rabs x1)) in *.
  assert (M0 : Rabs x0 <= M) by apply Rmax_l. assert (M1 : Rabs x1 <= M) by apply Rmax_r.
  assert (Mx : Rabs x <= M). { apply Rabs_le. apply Rabs_le_inv in M0. apply Rabs_le_inv in M1. lra. }
  assert (Es : Rabs (y1 - y0) * M / h = Rabs s * M). { unfold s, Rdiv. rewrite Rabs_mult, (Rabs_pos_eq (/ h)) by (left; apply Rinv_0_lt_compat; lra). ring. }
  rewrite Es. clear Es. clearbody s.
  assert (K : Rabs ((2 * s - d0 - d1) / h ^ 2 * (x - x0) * (x - x1) * (x + x0 + x1)) <= 2 * (Rabs s * M)).
  { replace ((2 * s - d0 - d1) / h ^ 2 * (x - x0) * (x - x1) * (x + x0 + x1)) with ((2 * s - d0 - d1) * (((x - x0) / h) * ((x - x1) / h)) * (x + x0 + x1)) by (field; lra).
    rewrite !Rabs_mult.
    assert (P2 : Rabs (x + x0 + x1) <= 3 * M). { apply Rabs_le. apply Rabs_le_inv in M0. apply Rabs_le_inv in M1. apply Rabs_le_inv in Mx. lra. }
    assert (P3 : Rabs ((x - x0) / h) * Rabs ((x - x1) / h) <= / 4).
    { assert (E1 : Rabs ((x - x0) / h) = (x - x0) / h) by (apply Rabs_pos_eq; apply Rmult_le_pos; [lra|left; apply Rinv_0_lt_compat; lra]).
      assert (E2 : Rabs ((x - x1) / h) = 1 - (x - x0) / h). { replace ((x - x1) / h) with (- (1 - (x - x0) / h)) by (unfold h in *; field; lra). rewrite Rabs_Ropp. apply Rabs_pos_eq.
        replace (1 - (x - x0) / h) with ((x1 - x) / h) by (unfold h in *; field; lra). apply Rmult_le_pos; [lra|left; apply Rinv_0_lt_compat; lra]. }
      rewrite E1, E2. generalize ((x - x0) / h). intros t. pose proof (pow2_ge_0 (t - / 2)) as Sq. lra. }
    pose proof (Rabs_pos (2 * s - d0 - d1)). pose proof (Rabs_pos (x + x0 + x1)). pose proof (Rabs_pos ((x - x0) / h)). pose proof (Rabs_pos ((x - x1) / h)). pose proof (Rabs_pos x0). pose proof (Rabs_pos s).
    assert (0 <= Rabs ((x - x0) / h) * Rabs ((x - x1) / h)) by (apply Rmult_le_pos; lra).
    apply Rle_trans with (2 * Rabs s * / 4 * (3 * M)); [|assert (0 <= Rabs s * M) by (apply Rmult_le_pos; lra); lra].
    apply Rmult_le_compat; try lra; [apply Rmult_le_pos; lra|]. apply Rmult_le_compat; lra. }
  rewrite Rabs_mult. rewrite (Rabs_pos_eq (/ 2 ^ 25)) by (left; apply Rinv_0_lt_compat; apply pow_lt; lra).
  replace (/ 2 ^ 24) with (/ 2 ^ 25 * 2) by (replace (/ 2 ^ 24) with (/ 16777216) by (f_equal; ring); replace (/ 2 ^ 25) with (/ 33554432) by (f_equal; ring); lra).
  rewrite (Rmult_assoc (/ 2 ^ 25) 2). apply Rmult_le_compat_l; [left; apply Rinv_0_lt_compat; apply pow_lt; lra|exact K].
Qed.
Lemma con_piece_up x0 x1 y0 y1 d0 d1 x : x0 < x1 -> y0 <= y1 -> let s := (y1 - y0) / (x1 - x0) in 0 <= d0 <= 2 * s -> 0 <= d1 <= 2 * s -> x0 <= x <= x1 ->
  let e := / 2 ^ 24 * ((y1 - y0) * Rmax (Rabs x0) (Rabs x1) / (x1 - x0)) in
  y0 - e <= con_piece x0 x1 y0 y1 d0 d1 x <= y1 + e.
Proof.
  intros Hx Hy s H0 H1 Hr e. unfold con_piece. cbv zeta. fold s.
  pose proof (hermite_between x0 x1 y0 y1 (2 * s - d1) (2 * s - d0) x Hx Hy) as Hb. cbv zeta in Hb. fold s in Hb.
  assert (Hc : y0 <= cubic_hermite x0 x1 y0 y1 (2 * s - d1) (2 * s - d0) x <= y1) by (apply Hb; lra). clear Hb.
  pose proof (con_dev x0 x1 y0 y1 d0 d1 x Hx Hr) as K. cbv zeta in K. fold s in K. rewrite (Rabs_pos_eq s), (Rabs_pos_eq (y1 - y0)) in K by lra. fold e in K.
  assert (P1 : Rabs (2 * s - d0 - d1) <= 2 * s) by (apply Rabs_le; lra). specialize (K P1). apply Rabs_le_inv in K. lra.
Qed.
Lemma con_piece_neg x0 x1 y0 y1 d0 d1 x : x0 < x1 -> con_piece x0 x1 (- y0) (- y1) (- d0) (- d1) x = - con_piece x0 x1 y0 y1 d0 d1 x.
Proof. intros H. unfold con_piece, cubic_hermite. cbv zeta. field. lra. Qed.
