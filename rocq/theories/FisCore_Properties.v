(** The fuzzy operators and membership functions: C59, C60, C69 and C77. *)
From Coq Require Import ZArith List Bool Lia Reals Lra Psatz.
From Flocq Require Import Core IEEE754.BinarySingleNaN IEEE754.Binary IEEE754.Bits.
From Verif Require Import Base BaseLemmas Arith ArithLemmas Ltisys_Proofs2 Smoother_Proofs Smoother_Proofs4 Rms_Proofs Interp1_Model Interp1_Proofs2
  Ext32 FisCore_Model Fis_Spec FisCore_Proofs FisCore_Proofs2.
Import ListNotations.
Open Scope R_scope.

(** ** C69: clamping into a range *)
(** For numeric limits in order (infinities allowed) every float, NaN included,
    ends up inside, and true is returned exactly when it already was there. *)
Theorem C69_coerce : forall o (x lo hi : binary32), b32_le lo hi = true ->
  let r := inRangeCoerce (A := B32 o) x lo hi in
  b32_le lo (snd r) = true /\ b32_le (snd r) hi = true /\
  (fst r = true <-> b32_le lo x = true /\ b32_le x hi = true) /\
  (fst r = true -> snd r = x) /\
  (is_nan 24 128 x = true -> snd r = lo) /\ (b32_lt x lo = true -> snd r = lo) /\ (b32_lt hi x = true -> snd r = hi).
Proof.
  intros o x lo hi H r. pose proof (b32_le_nan _ _ H) as [Nl Nh]. apply b32_le_ext in H; auto.
  unfold r, inRangeCoerce. rewrite b32_isnan. change (flt (a := B32 o)) with b32_lt.
  destruct (is_nan 24 128 x) eqn:N.
  - cbn [fst snd]. rewrite !b32_le_ext by auto. repeat split; try lra; try discriminate; try tauto.
    all: try (intros [G _]; apply b32_le_nan in G; destruct G; congruence).
    all: intros L; apply b32_lt_nan in L; destruct L; congruence.
  - destruct (b32_lt x lo) eqn:L; [|destruct (b32_lt hi x) eqn:U]; cbn [fst snd].
    + apply b32_lt_ext in L; auto. rewrite !b32_le_ext by auto. repeat split; try lra; try discriminate; try tauto; intros K; apply b32_lt_ext in K; auto; lra.
    + apply b32_lt_ext in U; auto. rewrite !b32_le_ext by auto. repeat split; try lra; try discriminate; try tauto; intros K; apply b32_lt_ext in K; auto; lra.
    + assert (L' : ~ ext32 x < ext32 lo) by (intros K; apply b32_lt_ext in K; auto; congruence).
      assert (U' : ~ ext32 hi < ext32 x) by (intros K; apply b32_lt_ext in K; auto; congruence).
      rewrite !b32_le_ext by auto. repeat split; try lra; try discriminate; try tauto; intros K; apply b32_lt_ext in K; auto; lra.
Qed.
Print Assumptions C69_coerce.

Example C69_coerce_example : forall o, b32_le (b32_ofZ (-3)) (b32_ofZ 5) = true /\
  inRangeCoerce (A := B32 o) (B754_infinity 24 128 false) (b32_ofZ (-3)) (b32_ofZ 5) = (false, b32_ofZ 5) /\
  fst (inRangeCoerce (A := B32 o) (b32_ofZ 4) (b32_ofZ (-3)) (b32_ofZ 5)) = true.
Proof. intros o. repeat split. Qed.

(** ** C59: the operators *)
(** In binary32 every operator yields a number of [0,1] for any two operands,
    NaN and the infinities included. *)
Theorem C59_closed : forall o (a b : binary32),
  unit32 (Min (A := B32 o) a b) /\ unit32 (Prod (A := B32 o) a b) /\ unit32 (Max (A := B32 o) a b) /\
  unit32 (ProbOr (A := B32 o) a b) /\ unit32 (Sum (A := B32 o) a b).
Proof. intros o a b. repeat split; apply bound01_unit32. Qed.
Print Assumptions C59_closed.

(** On degrees Min and Max are exact in binary32: the smaller and the larger
    operand itself. *)
Theorem C59_exact : forall o (a b : binary32), unit32 a -> unit32 b ->
  (Min (A := B32 o) a b = a \/ Min (A := B32 o) a b = b) /\ B2R 24 128 (Min (A := B32 o) a b) = Rmin (B2R 24 128 a) (B2R 24 128 b) /\
  (Max (A := B32 o) a b = a \/ Max (A := B32 o) a b = b) /\ B2R 24 128 (Max (A := B32 o) a b) = Rmax (B2R 24 128 a) (B2R 24 128 b).
Proof.
  intros o a b Ha Hb. pose proof Ha as [Fa _]. pose proof Hb as [Fb _]. unfold Min, Max. change (flt (a := B32 o)) with b32_lt.
  assert (E1 : b32_lt a b = true <-> B2R 24 128 a < B2R 24 128 b) by (apply b32_lt_R; auto).
  assert (E2 : b32_lt b a = true <-> B2R 24 128 b < B2R 24 128 a) by (apply b32_lt_R; auto).
  destruct (b32_lt a b), (b32_lt b a); rewrite !bound01_id32 by auto; repeat split; auto;
    unfold Rmin, Rmax; destruct Rle_dec; try lra; try (apply Rnot_lt_le in n; exfalso);
    destruct E1 as [E1 E1'], E2 as [E2 E2'];
    try (pose proof (E1 eq_refl)); try (pose proof (E2 eq_refl)); try lra;
    try (destruct (Rlt_dec (B2R 24 128 a) (B2R 24 128 b)); [specialize (E1' r0); discriminate|]);
    try (destruct (Rlt_dec (B2R 24 128 b) (B2R 24 128 a)); [specialize (E2' r0); discriminate|]); try lra.
Qed.
Print Assumptions C59_exact.

Example C59_exact_example : unit32 (b32_div mode_NE (b32_ofZ 1) (b32_ofZ 2)) /\ unit32 (b32_ofZ 1).
Proof. split; (split; [reflexivity|]; unfold unit; vm_compute; lra). Qed.

(** Min and Prod are the minimum and the product, triangular norms; Max, ProbOr
    and Sum the maximum, the probabilistic and the bounded sum, conorms. *)
Theorem C59_norms :
  (norm 1 (Min (A := RA)) /\ norm 1 (Prod (A := RA)) /\ norm 0 (Max (A := RA)) /\ norm 0 (ProbOr (A := RA)) /\ norm 0 (Sum (A := RA))) /\
  forall a b : R, unit a -> unit b ->
    Min (A := RA) a b = Rmin a b /\ Prod (A := RA) a b = a * b /\ Max (A := RA) a b = Rmax a b /\
    ProbOr (A := RA) a b = 1 - (1 - a) * (1 - b) /\ Sum (A := RA) a b = Rmin (a + b) 1.
Proof.
  split.
  - split; [exact norm_min|]. split; [exact norm_prod|]. split; [exact norm_max|]. split; [exact norm_probor|exact norm_sum].
  - intros a b Ha Hb. rewrite Min_unit, Prod_unit, Max_unit, ProbOr_unit, Sum_unit by auto. repeat split; change (F RA) with R; ring.
Qed.
Print Assumptions C59_norms.
Example C59_norms_example : unit (1 / 4) /\ unit (3 / 4). Proof. unfold unit. lra. Qed.

(** ** C60: membership functions *)
(** [at_ g p x y]: the function [g] with the parameters [p] (and anything after
    them) has degree [y] at [x]. *)
Theorem C60_straight : forall (a b c d : R) (q : list R) (x : R),
  (a < b < c -> at_ TriMF (a :: b :: c :: q) x (triangle a b c x) /\ unit (triangle a b c x)) /\
  (a < b -> c < d -> at_ TrapMF (a :: b :: c :: d :: q) x (trapezium a b c d x) /\ unit (trapezium a b c d x)) /\
  (a < b -> at_ LinSMF (a :: b :: q) x (ramp_up a b x) /\ unit (ramp_up a b x)) /\
  at_ LinSMF (a :: a :: q) x (step_up a x) /\
  at_ RectangleMF (a :: b :: q) x (rectangle a b x) /\
  at_ SingletonMF (a :: q) a 1 /\ (/ 2 ^ 126 < Rabs (x - a) -> at_ SingletonMF (a :: q) x 0).
Proof.
  intros a b c d q x.
  assert (M : forall u v, unit u -> unit v -> unit (Rmin u v)) by (unfold unit; intros; unfold Rmin; destruct Rle_dec; lra).
  assert (D : forall a b, a < b -> unit (ramp_down a b x)) by (intros a' b' H; pose proof (ramp_up_unit a' b' x H); unfold unit, ramp_down in *; lra).
  split; [|split; [|split; [|split; [|split; [|split]]]]].
  - intros H. split; [now apply TriMF_ok|]. apply M; [apply ramp_up_unit|apply D]; lra.
  - intros H H'. split; [now apply TrapMF_ok|]. apply M; [apply ramp_up_unit|apply D]; lra.
  - intros H. split; [now apply LinSMF_ok|now apply ramp_up_unit].
  - apply LinSMF_step.
  - apply RectangleMF_ok.
  - pose proof (SingletonMF_ok a q a) as H. destruct Rle_dec as [L|L]; [exact H|]. exfalso. apply L.
    replace (a - a) with 0 by ring. rewrite Rabs_R0. apply Rlt_le, Rinv_0_lt_compat, pow_lt. lra.
  - intros G. pose proof (SingletonMF_ok a q x) as H. destruct Rle_dec as [L|L]; [lra|exact H].
Qed.
Print Assumptions C60_straight.

(** Core and support of the shapes used above. *)
Theorem C60_core_support : forall a b c d x : R, a < b ->
  (b < c -> (triangle a b c x = 1 <-> x = b) /\ (0 < triangle a b c x <-> a < x < c)) /\
  (b <= c < d -> (trapezium a b c d x = 1 <-> b <= x <= c) /\ (0 < trapezium a b c d x <-> a < x < d)) /\
  (b <= c < d -> (pi_shape a b c d x = 1 <-> b <= x <= c) /\ (0 < pi_shape a b c d x <-> a < x < d)) /\
  (curve_up a b ((a + b) / 2) = 1 / 2 /\ ramp_up a b ((a + b) / 2) = 1 / 2).
Proof.
  intros a b c d x H.
  assert (Up : forall a b, a < b -> (ramp_up a b x = 1 <-> b <= x) /\ (0 < ramp_up a b x <-> a < x) /\ (ramp_up a b x = 0 <-> x <= a) /\ unit (ramp_up a b x)
                                  /\ (ramp_up a b x < 1 <-> x < b)).
  { clear. intros a b H. pose proof (ramp_up_unit a b x H) as U. unfold unit, ramp_up in *.
    destruct (Rle_dec x a); [repeat split; intros; lra|]. destruct (Rle_dec b x); [repeat split; intros; lra|].
    assert (0 < (x - a) / (b - a)) by (apply Rdiv_lt_0_compat; lra). assert ((x - a) / (b - a) < 1) by (apply frac_lt1; lra). repeat split; intros; lra. }
  assert (Cu : forall a b, a < b -> (curve_up a b x = 1 <-> b <= x) /\ (0 < curve_up a b x <-> a < x) /\ unit (curve_up a b x)
                                  /\ (curve_up a b x < 1 <-> x < b) /\ (curve_up a b x = 0 <-> x <= a)).
  { clear. intros a b H. pose proof (curve_up_unit a b x H) as U. unfold unit, curve_up in *.
    destruct (Rle_dec x a); [repeat split; intros; lra|]. destruct (Rle_dec b x); [repeat split; intros; lra|].
    destruct (Rle_dec x ((a + b) / 2)).
    - assert (0 < (x - a) / (b - a)) by (apply Rdiv_lt_0_compat; lra).
      assert ((x - a) / (b - a) <= 1 / 2).
      { apply Rmult_le_reg_r with (b - a); [lra|]. unfold Rdiv at 1. rewrite Rmult_assoc, Rinv_l by lra. lra. }
      assert (0 < 2 * ((x - a) / (b - a)) ^ 2 < 1) by nra. repeat split; intros; lra.
    - assert (0 < (b - x) / (b - a)) by (apply Rdiv_lt_0_compat; lra).
      assert ((b - x) / (b - a) <= 1 / 2).
      { apply Rmult_le_reg_r with (b - a); [lra|]. unfold Rdiv at 1. rewrite Rmult_assoc, Rinv_l by lra. lra. }
      assert (0 < 1 - 2 * ((b - x) / (b - a)) ^ 2 < 1) by nra. repeat split; intros; lra. }
  split; [|split; [|split]].
  - intros Hc. unfold triangle, ramp_down. pose proof (Up a b H). pose proof (Up b c Hc). unfold unit in *.
    assert (C1 : ramp_up a b x = 1 \/ ramp_up a b x < 1) by lra. assert (C2 : 0 < ramp_up b c x \/ ramp_up b c x = 0) by lra.
    unfold Rmin; destruct Rle_dec; split; split; intros; try split; try lra; intuition lra.
  - intros Hc. unfold trapezium, ramp_down. pose proof (Up a b H). pose proof (Up c d ltac:(lra)). unfold unit in *.
    unfold Rmin; destruct Rle_dec; split; split; intros; try split; try lra; intuition lra.
  - intros Hc. unfold pi_shape, curve_down. destruct (Cu a b H) as (A1 & A2 & A3 & A4 & A5). destruct (Cu c d ltac:(lra)) as (B1 & B2 & B3 & B4 & B5). unfold unit in *.
    set (u := curve_up a b x) in *. set (v := curve_up c d x) in *.
    split; split; intros G.
    + assert (u = 1) by nra. assert (v = 0) by nra. split; [apply A1|apply B5]; auto.
    + assert (u = 1) by (apply A1; lra). assert (v = 0) by (apply B5; lra). subst. rewrite H0, H1. ring.
    + assert (0 < u) by nra. assert (v < 1) by nra. split; [apply A2|apply B4]; auto.
    + assert (0 < u) by (apply A2; lra). assert (v < 1) by (apply B4; lra). apply Rmult_lt_0_compat; lra.
  - unfold curve_up, ramp_up. destruct (Rle_dec ((a + b) / 2) a); [lra|]. destruct (Rle_dec b ((a + b) / 2)); [lra|]. destruct (Rle_dec ((a + b) / 2) ((a + b) / 2)); [|lra].
    split; field; lra.
Qed.
Print Assumptions C60_core_support.

Theorem C60_curved : forall (a b c d : R) (q : list R) (x : R),
  (a < b -> at_ SMF (a :: b :: q) x (curve_up a b x) /\ unit (curve_up a b x)) /\
  (a < b -> at_ ZMF (a :: b :: q) x (curve_down a b x) /\ unit (curve_down a b x)) /\
  (a < b -> c < d -> at_ PiMF (a :: b :: c :: d :: q) x (pi_shape a b c d x) /\ unit (pi_shape a b c d x)) /\
  (a < b -> at_ ConcaveMF (a :: b :: q) x (concave_up a b x) /\ unit (concave_up a b x)) /\
  (b < a -> at_ ConcaveMF (a :: b :: q) x (concave_up (- a) (- b) (- x)) /\ unit (concave_up (- a) (- b) (- x))).
Proof.
  intros a b c d q x.
  split; [|split; [|split; [|split]]].
  - intros H. split; [now apply SMF_ok|now apply curve_up_unit].
  - intros H. split; [now apply ZMF_ok|]. pose proof (curve_up_unit a b x H). unfold unit, curve_down in *. lra.
  - intros H H'. split; [now apply PiMF_ok|]. pose proof (curve_up_unit a b x H). pose proof (curve_up_unit c d x H'). unfold unit, pi_shape, curve_down in *. nra.
  - intros H. split; [now apply ConcaveMF_ok|]. pose proof (concave_up_unit a b x H). unfold unit. lra.
  - intros H. split; [now apply ConcaveMF_down|]. pose proof (concave_up_unit (- a) (- b) (- x) ltac:(lra)). unfold unit. lra.
Qed.
Print Assumptions C60_curved.

(** The rising shapes never fall. *)
Theorem C60_monotone : forall a b x y : R, a < b -> x <= y ->
  ramp_up a b x <= ramp_up a b y /\ curve_up a b x <= curve_up a b y /\ concave_up a b x <= concave_up a b y /\
  (forall k, 0 < k -> logistic k a x <= logistic k a y).
Proof.
  intros a b x y H L. split; [now apply ramp_up_mono|]. split; [now apply curve_up_mono|]. split; [now apply concave_up_mono|].
  intros k Hk. unfold logistic. apply Rinv_le_contravar; [pose proof (exp_pos (- (k * (y - a)))); lra|].
  assert (exp (- (k * (y - a))) <= exp (- (k * (x - a)))); [|lra].
  assert (k * (x - a) <= k * (y - a)) by (apply Rmult_le_compat_l; lra).
  destruct (Req_dec (k * (x - a)) (k * (y - a))) as [E|N]; [rewrite E; lra|]. apply Rlt_le, exp_increasing. lra.
Qed.
Print Assumptions C60_monotone.

Theorem C60_smooth : forall (a b c d : R) (q : list R) (x : R),
  (a <> 0 -> at_ GaussMF (a :: c :: q) x (normal a c x) /\ 0 < normal a c x <= 1 /\ (normal a c x = 1 <-> x = c)) /\
  (at_ SigMF (a :: b :: q) x (logistic a b x) /\ 0 < logistic a b x < 1 /\ logistic a b b = 1 / 2) /\
  (at_ DSigMF (a :: b :: c :: d :: q) x (Rabs (logistic a b x - logistic c d x)) /\ unit (Rabs (logistic a b x - logistic c d x))) /\
  (at_ PSigMF (a :: b :: c :: d :: q) x (logistic a b x * logistic c d x) /\ unit (logistic a b x * logistic c d x)) /\
  (a <> 0 -> x <> c -> at_ GBellMF (a :: b :: c :: q) x (/ (1 + Rpower (Rabs ((x - c) / a)) (2 * b))) /\
     0 < / (1 + Rpower (Rabs ((x - c) / a)) (2 * b)) < 1) /\
  (a <> 0 -> at_ SpikeMF (a :: c :: q) x (spike a c x) /\ 0 < spike a c x <= 1 /\ (spike a c x = 1 <-> x = c)) /\
  (exists y, at_ CosineMF (c :: a :: q) x y /\ unit y /\ (x = c -> 0 < a -> y = 1) /\ (0 < a -> a / 2 < Rabs (x - c) -> y = 0)).
Proof.
  intros a b c d q x.
  assert (E1 : forall u, exp u = 1 <-> u = 0).
  { intros u. split; [|intros ->; apply exp_0]. intros E. apply exp_inv. rewrite E, exp_0. reflexivity. }
  split; [|split; [|split; [|split; [|split; [|split]]]]].
  - intros H. split; [now apply GaussMF_ok|]. split; [apply normal_unit|]. unfold normal. rewrite E1.
    assert (0 < a ^ 2) by (pose proof (Rsqr_pos_lt a H) as P; rewrite Rsqr_pow2 in P; exact P).
    split.
    + intros E. apply Rmult_integral in E. destruct E as [E|E].
      * assert ((x - c) * (x - c) = 0) by (cbn in E; lra). apply Rmult_integral in H1. lra.
      * exfalso. assert (0 < / (2 * a ^ 2)) by (apply Rinv_0_lt_compat; lra). lra.
    + intros ->. unfold Rdiv. ring.
  - split; [apply SigMF_ok|]. split; [apply logistic_unit|]. unfold logistic. replace (- (a * (b - b))) with 0 by ring. rewrite exp_0. lra.
  - split; [apply DSigMF_ok|]. pose proof (logistic_unit a b x). pose proof (logistic_unit c d x). unfold unit. split; [apply Rabs_pos|]. apply Rabs_le. lra.
  - split; [apply PSigMF_ok|]. pose proof (logistic_unit a b x). pose proof (logistic_unit c d x). unfold unit. nra.
  - intros H N. split; [now apply GBellMF_ok|].
    assert (P : 0 < Rpower (Rabs ((x - c) / a)) (2 * b)) by apply exp_pos.
    split; [apply Rinv_0_lt_compat; lra|]. rewrite <- Rinv_1 at 2. apply Rinv_lt_contravar; lra.
  - intros H. split; [now apply SpikeMF_ok|]. unfold spike.
    assert (0 < Rabs a) by (apply Rabs_pos_lt; auto). pose proof (Rabs_pos (x - c)).
    split; [apply exp_neg_unit, frac_pos; lra|]. rewrite E1. split.
    + intros E. assert (Z0 : 10 * Rabs (x - c) / Rabs a = 0) by lra. apply Rmult_integral in Z0. destruct Z0 as [Z0|Z0].
      * destruct (Req_dec (x - c) 0); [lra|]. assert (0 < Rabs (x - c)) by (apply Rabs_pos_lt; auto). lra.
      * exfalso. assert (0 < / Rabs a) by (apply Rinv_0_lt_compat; auto). lra.
    + intros ->. replace (c - c) with 0 by ring. rewrite Rabs_R0. unfold Rdiv. ring.
  - eexists. split; [apply CosineMF_ok|]. pose proof (COS_bound (2 / a * pi32 * (x - c))) as [B1 B2]. unfold unit.
    split; [|split].
    + destruct Rlt_dec; [lra|]. destruct Rlt_dec; lra.
    + intros -> Ha. destruct Rlt_dec; [lra|]. destruct Rlt_dec; [lra|]. replace (2 / a * pi32 * (c - c)) with 0 by ring. rewrite cos_0. lra.
    + intros Ha G. destruct Rlt_dec; [reflexivity|]. destruct Rlt_dec; [reflexivity|]. exfalso.
      unfold Rabs in G. destruct Rcase_abs in G; lra.
Qed.
Print Assumptions C60_smooth.

(** In binary32 the triangle and the trapezium yield a degree for any parameters
    and any input whatever, NaN, infinities and degenerate corners included. *)
Theorem C60_degrees_binary32 : forall o (i : io (B32 o)) rest (a b c d : binary32) q n,
  (exists y, TriMF (A := B32 o) (i :: rest) (a :: b :: c :: q) n = Ok y /\ unit32 y) /\
  (exists y, TrapMF (A := B32 o) (i :: rest) (a :: b :: c :: d :: q) n = Ok y /\ unit32 y) /\
  (exists y, RectangleMF (A := B32 o) (i :: rest) (a :: b :: q) n = Ok y /\ unit32 y) /\
  (exists y, SingletonMF (A := B32 o) (i :: rest) (a :: q) n = Ok y /\ unit32 y).
Proof.
  intros o i rest a b c d q n.
  assert (Z0 : unit32 (lit (a := B32 o) 0 1)) by (rewrite b32_zero; split; [reflexivity|unfold unit; cbn [B2R]; lra]).
  assert (Z1 : unit32 (lit (a := B32 o) 1 1)) by (split; [rewrite b32_one; reflexivity|rewrite b32_one_R; unfold unit; lra]).
  split; [|split; [|split]].
  - eexists. split; [reflexivity|apply bound01_unit32].
  - eexists. split; [reflexivity|apply bound01_unit32].
  - eexists. split; [reflexivity|]. destruct (_ && _); auto.
  - eexists. split; [reflexivity|]. destruct (isEqual _ _); auto.
Qed.
Print Assumptions C60_degrees_binary32.

Example C60_example : triangle 0 1 3 2 = 1 / 2 /\ trapezium 0 1 2 4 3 = 1 / 2 /\ curve_up 0 2 (1 / 2) = 1 / 8.
Proof.
  unfold triangle, trapezium, ramp_down, ramp_up, curve_up, Rmin. repeat split; repeat (destruct Rle_dec; try lra).
Qed.

(** Finding: the falling ramp LinZMF(a,b) rises from 0 at [a] to 1 at [b] (the
    numerator should be b - x), so it is 1 below a, 0 just at a, 1 at b and 0
    above b. *)
Theorem C60_linz_refuted : forall a b q, a < b ->
  at_ LinZMF (a :: b :: q) a 0 /\ at_ LinZMF (a :: b :: q) b 1 /\
  (forall x, a <= x <= b -> at_ LinZMF (a :: b :: q) x (1 - ramp_down a b x)) /\
  ~ (forall x, at_ LinZMF (a :: b :: q) x (ramp_down a b x)).
Proof.
  intros a b q H.
  assert (G : forall x, a <= x <= b -> at_ LinZMF (a :: b :: q) x (1 - ramp_down a b x)).
  { intros x Hx. pose proof (LinZMF_code a b q x H) as E. destruct Rlt_dec in E; [lra|]. destruct Rlt_dec in E; [lra|].
    unfold ramp_down. replace (1 - (1 - ramp_up a b x)) with (ramp_up a b x) by ring. exact E. }
  assert (E0 : ramp_down a b a = 1) by (unfold ramp_down, ramp_up; destruct Rle_dec; lra).
  assert (E1 : ramp_down a b b = 0) by (unfold ramp_down, ramp_up; destruct Rle_dec; [lra|]; destruct Rle_dec; lra).
  split; [|split; [|split; [exact G|]]].
  - pose proof (G a ltac:(lra)) as K. rewrite E0 in K. replace (1 - 1) with 0 in K by ring. exact K.
  - pose proof (G b ltac:(lra)) as K. rewrite E1 in K. replace (1 - 0) with 1 in K by ring. exact K.
  - intros N. pose proof (G a ltac:(lra)) as K. specialize (N a). rewrite E0 in *.
    specialize (K (mkIO (A := RA) 0 0 a) [] 1%Z eq_refl). specialize (N (mkIO (A := RA) 0 0 a) [] 1%Z eq_refl). rewrite N in K. injection K as K. lra.
Qed.
Print Assumptions C60_linz_refuted.

(** Finding: Gauss2MF compares with x <= c2 where x >= c2 is meant.  Strictly
    between the centres the degree is below 1 and above the second centre it
    stays 1 for ever, instead of the documented two-sided shape. *)
Theorem C60_gauss2_refuted : forall s1 c1 s2 c2 q, s1 <> 0 -> s2 <> 0 -> c1 < c2 ->
  (forall x, c1 < x < c2 -> exists y, at_ Gauss2MF (s1 :: c1 :: s2 :: c2 :: q) x y /\ y < 1 /\ normal2 s1 c1 s2 c2 x = 1) /\
  (forall x, c2 < x -> at_ Gauss2MF (s1 :: c1 :: s2 :: c2 :: q) x 1 /\ normal2 s1 c1 s2 c2 x < 1).
Proof.
  intros s1 c1 s2 c2 q H1 H2 Hc.
  assert (N : forall x, x <> c2 -> normal s2 c2 x < 1).
  { intros x Hx. destruct (C60_smooth s2 0 c2 0 q x) as (G & _). destruct (G H2) as (_ & [_ G1] & G2). destruct (Req_dec (normal s2 c2 x) 1) as [E|E]; [exfalso; apply Hx, G2, E|lra]. }
  split; intros x Hx.
  - eexists. split; [apply Gauss2MF_code; auto|]. unfold normal2. split.
    + destruct Rle_dec; [lra|]. destruct Rle_dec; [|lra]. pose proof (N x ltac:(lra)). lra.
    + destruct Rle_dec; [lra|]. destruct Rle_dec; lra.
  - split.
    + pose proof (Gauss2MF_code s1 c1 s2 c2 q x H1 H2) as E. destruct Rle_dec in E; [lra|]. destruct Rle_dec in E; [lra|].
      replace (1 * 1) with 1 in E by ring. exact E.
    + unfold normal2. destruct Rle_dec; [lra|]. destruct Rle_dec; [|lra]. pose proof (N x ltac:(lra)). lra.
Qed.
Print Assumptions C60_gauss2_refuted.

(** ** C77: the inverse membership functions of the Tsukamoto systems *)
(** For a firing strength [w] they should name the point of degree [w]. *)
Theorem C77_inverses : forall (a b : R) (q : list R) (w : R), a < b ->
  (unit w -> exists x, at_ TLinSMF (a :: b :: q) w x /\ at_ TRampMF (a :: b :: q) w x /\ a <= x <= b /\ ramp_up a b x = w) /\
  (forall k, k <> 0 -> / 2 ^ 126 < w < 1 - / 2 ^ 126 -> exists x, at_ TSigMF (k :: b :: q) w x /\ logistic k b x = w) /\
  (0 <= w <= 1 / 2 -> exists x, at_ TSMF (a :: b :: q) w x /\ a <= x <= b /\ curve_up a b x = w).
Proof.
  intros a b q w H. split; [|split].
  - intros [W0 W1]. exists (a + (b - a) * w). split; [apply TLinSMF_ok|]. split; [apply TRampMF_ok|].
    assert (B : a <= a + (b - a) * w <= b) by nra. split; auto.
    rewrite ramp_up_clip by auto. replace ((a + (b - a) * w - a) / (b - a)) with w by (field; lra). mm.
  - intros k Hk Hw. assert (P : 0 < / 2 ^ 126) by (apply Rinv_0_lt_compat, pow_lt; lra).
    eexists. split; [apply TSigMF_ok; auto|]. unfold logistic.
    replace (- (k * (b - ln (/ w - 1) / k - b))) with (ln (/ w - 1)) by (field; auto).
    rewrite exp_ln. { replace (1 + (/ w - 1)) with (/ w) by ring. apply Rinv_inv. }
    assert (1 < / w); [|lra]. rewrite <- Rinv_1 at 1. apply Rinv_lt_contravar; lra.
  - intros Hw. pose proof (TSMF_ok a b q w H) as E. cbv zeta in E.
    set (t := sqrt (w / 2)). assert (T0 : 0 <= t) by apply sqrt_pos.
    assert (TT : t * t = w / 2) by (apply sqrt_sqrt; lra).
    assert (T1 : t <= 1 / 2). { apply Rnot_lt_le. intros L. assert (1 / 4 < t * t) by nra. lra. }
    assert (Es : sqrt (w * (1 / 2 * (b - a) * (b - a))) = (b - a) * t).
    { replace (w * (1 / 2 * (b - a) * (b - a))) with (Rsqr ((b - a) * t)) by (unfold Rsqr; replace ((b - a) * t * ((b - a) * t)) with ((b - a) * (b - a) * (t * t)) by ring; rewrite TT; field).
      apply sqrt_Rsqr. apply Rmult_le_pos; lra. }
    rewrite Es in E. set (ta := a + (b - a) * t) in E.
    assert (Ba : a <= ta <= b) by (unfold ta; nra).
    assert (Ca : curve_up a b ta = w).
    { unfold curve_up. destruct (Rle_dec ta a).
      - assert ((b - a) * t = 0) by (unfold ta in *; nra). assert (t = 0) by nra. assert (t * t = 0) by (rewrite H1; ring). lra.
      - destruct (Rle_dec b ta); [unfold ta in *; nra|]. destruct (Rle_dec ta ((a + b) / 2)); [|unfold ta in *; nra].
        replace ((ta - a) / (b - a)) with t by (unfold ta; field; lra). replace (2 * t ^ 2) with (2 * (t * t)) by ring. lra. }
    rewrite Ca in E. replace (w - w) with 0 in E by ring. rewrite Rabs_R0 in E.
    set (tb := b + _) in E. assert (Bb : b <= tb) by (unfold tb; pose proof (sqrt_pos (- (w - 1) * (1 / 2 * (b - a) * (b - a)))); lra).
    assert (Cb : curve_up a b tb = 1) by (unfold curve_up; destruct Rle_dec; [lra|]; destruct Rle_dec; lra).
    rewrite Cb in E. destruct Rlt_dec as [L|L] in E.
    + exists ta. auto.
    + exfalso. apply L. apply Rabs_pos_lt. lra.
Qed.
Print Assumptions C77_inverses.
Example C77_inverses_example : (0 < 1) /\ unit (1 / 4) /\ / 2 ^ 126 < 1 / 4 < 1 - / 2 ^ 126.
Proof.
  assert (/ 2 ^ 126 < 1 / 4); [|unfold unit; lra]. replace (1 / 4) with (/ 2 ^ 2) by (cbn; lra). apply Rinv_lt_contravar; [|apply Rlt_pow; [lra|lia]].
  apply Rmult_lt_0_compat; apply pow_lt; lra.
Qed.

(** Findings.  TLinZMF is the same map as TLinSMF, so the point it names has
    degree 1 - w on the falling ramp.  TSMF names a point of another degree for
    every 1/2 < w < 1.  TZMF leaves the ramp (a point above [b], degree 0)
    for every w >= 2/3.  TConcaveMF returns w itself. *)
Theorem C77_inverses_refuted : forall (a b : R) (q : list R) (w : R), a < b ->
  (unit w -> exists x, at_ TLinZMF (a :: b :: q) w x /\ ramp_down a b x = 1 - w) /\
  (1 / 2 < w < 1 -> exists x, at_ TSMF (a :: b :: q) w x /\ curve_up a b x <> w) /\
  (2 / 3 <= w <= 1 -> exists x, at_ TZMF (a :: b :: q) w x /\ b < x /\ curve_down a b x = 0) /\
  (w < b -> at_ TConcaveMF (a :: b :: q) w w).
Proof.
  intros a b q w H. split; [|split; [|split]].
  - intros [W0 W1]. eexists. split; [apply TLinZMF_ok|]. unfold ramp_down. rewrite ramp_up_clip by auto.
    replace ((a - (a - b) * w - a) / (b - a)) with w by (field; lra). mm.
  - intros Hw. pose proof (TSMF_ok a b q w H) as E. cbv zeta in E. eexists. split; [exact E|].
    set (t := sqrt (w / 2)). assert (T0 : 0 <= t) by apply sqrt_pos.
    assert (TT : t * t = w / 2) by (apply sqrt_sqrt; lra).
    assert (T1 : 1 / 2 < t) by (apply Rnot_le_lt; intros L; assert (t * t <= 1 / 4) by nra; lra).
    assert (T2 : t < 1) by (apply Rnot_le_lt; intros L; assert (1 <= t * t) by nra; lra).
    assert (Es : sqrt (w * (1 / 2 * (b - a) * (b - a))) = (b - a) * t).
    { replace (w * (1 / 2 * (b - a) * (b - a))) with (Rsqr ((b - a) * t)) by (unfold Rsqr; replace ((b - a) * t * ((b - a) * t)) with ((b - a) * (b - a) * (t * t)) by ring; rewrite TT; field).
      apply sqrt_Rsqr. apply Rmult_le_pos; lra. }
    rewrite Es. set (ta := a + (b - a) * t).
    set (tb := b + _). assert (Bb : b <= tb) by (unfold tb; pose proof (sqrt_pos (- (w - 1) * (1 / 2 * (b - a) * (b - a)))); lra).
    assert (Cb : curve_up a b tb = 1) by (unfold curve_up; destruct Rle_dec; [lra|]; destruct Rle_dec; lra).
    assert (Ca : curve_up a b ta <> w).
    { unfold curve_up. destruct (Rle_dec ta a); [unfold ta in *; nra|]. destruct (Rle_dec b ta); [unfold ta in *; nra|]. destruct (Rle_dec ta ((a + b) / 2)); [unfold ta in *; nra|].
      replace ((b - ta) / (b - a)) with (1 - t) by (unfold ta; field; lra). intros K. assert ((2 * t - 1) * (2 * t - 1) = 0) by nra. nra. }
    clear E; match goal with |- context [Rlt_dec ?u ?v] => destruct (Rlt_dec u v) end; [exact Ca|rewrite Cb; lra].
  - intros Hw. pose proof (TZMF_ok a b q w H) as E. cbv zeta in E.
    set (t := sqrt ((1 - w) / 2)). assert (T0 : 0 <= t) by apply sqrt_pos.
    assert (TT : t * t = (1 - w) / 2) by (apply sqrt_sqrt; lra).
    assert (T1 : t <= 1 / 2) by (apply Rnot_lt_le; intros L; assert (1 / 4 < t * t) by nra; lra).
    assert (Es : sqrt (- (w - 1) * (1 / 2 * (b - a) * (b - a))) = (b - a) * t).
    { replace (- (w - 1) * (1 / 2 * (b - a) * (b - a))) with (Rsqr ((b - a) * t)) by (unfold Rsqr; replace ((b - a) * t * ((b - a) * t)) with ((b - a) * (b - a) * (t * t)) by ring; rewrite TT; field).
      apply sqrt_Rsqr. apply Rmult_le_pos; lra. }
    rewrite Es in E. set (ta := a + (b - a) * t) in E. set (tb := b + _) in E.
    assert (Bb : b < tb). { unfold tb. assert (0 < sqrt (w * (1 / 2 * (b - a) * (b - a)))); [|lra]. apply sqrt_lt_R0. assert (0 < (b - a) * (b - a)) by nra. nra. }
    assert (Cb : curve_up a b tb = 1) by (unfold curve_up; destruct Rle_dec; [lra|]; destruct Rle_dec; lra).
    assert (Ca : curve_up a b ta = 1 - w).
    { unfold curve_up. destruct (Rle_dec ta a).
      - assert ((b - a) * t = 0) by (unfold ta in *; nra). assert (t = 0) by nra. assert (t * t = 0) by (rewrite H1; ring). lra.
      - destruct (Rle_dec b ta); [unfold ta in *; nra|]. destruct (Rle_dec ta ((a + b) / 2)); [|unfold ta in *; nra].
        replace ((ta - a) / (b - a)) with t by (unfold ta; field; lra). replace (2 * t ^ 2) with (2 * (t * t)) by ring. lra. }
    rewrite Ca, Cb in E. destruct Rlt_dec as [L|L] in E.
    + exfalso. rewrite Rabs_pos_eq in L by lra. rewrite Rabs_left1 in L by lra. lra.
    + exists tb. split; [exact E|]. split; auto. unfold curve_down. rewrite Cb. ring.
  - intros Hw. pose proof (TConcaveMF_ok a b q w H) as E. unfold concave_up in E. destruct Rlt_dec in E; [|lra].
    replace ((a - b) / ((b - a) / (2 * b - a - w)) + 2 * b - a) with w in E by (field; lra). exact E.
Qed.
Print Assumptions C77_inverses_refuted.
