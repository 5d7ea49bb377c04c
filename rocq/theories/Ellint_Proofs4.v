(** Carlson's duplication loop in binary32: the whole loop, and comp_ellint_1. *)
From Coq Require Import ZArith Reals Lra Lia Psatz Bool.
From Flocq Require Import Core IEEE754.BinarySingleNaN IEEE754.Binary IEEE754.Bits.
From Flocq Require Sterbenz.
From Verif Require Import Base BaseLemmas Arith Ext32 Bits32 PolyBound Ffmath_Model Ffmath2_Model Ffmath4_Model Ffmath_Spec Ffmath_Proofs Ffmath_Proofs2 Ffmath_Proofs3 Float32 Ffmath_Proofs4 Ffmath_Proofs7 Ffmath_Proofs8 Ffmath_Proofs9 FloatApp Ffmath_Proofs11 Ffmath_Proofs12 Ffmath_Proofs15 Ffmath_Proofs16 Ffmath_Proofs20 Ffmath_Proofs21 Ellint_Proofs Ellint_Proofs2 Ellint_Proofs3.
Open Scope R_scope.

Lemma inr_i v : / 1000000000000 <= v <= 1000000000000 -> inr v. Proof. auto. Qed.
Definition mid (v : R) : Prop := / 1000000 <= v <= 10.
Lemma root_mid v : mid v -> / 1000 <= R_sqrt.sqrt v <= 4 /\ R_sqrt.sqrt v * R_sqrt.sqrt v = v.
Proof.
  intros (L & U). split; [|apply sqrt_sqrt; lra]. split.
  - rewrite <- (sqrt_square (/ 1000)) by lra. apply sqrt_le_1_alt. lra.
  - rewrite <- (sqrt_square 4) by lra. apply sqrt_le_1_alt. lra.
Qed.
Lemma quarter_R : finite (flit 1 4) /\ valR (flit 1 4) = / 4. Proof. cst. Qed.
Lemma quarter_near : near (flit 1 4) (/ 4) 0. Proof. destruct quarter_R as (F & V). split; auto. rewrite V. lra. Qed.

(** The error of one turn *)
Definition dstep : R := 44 / 10000000.
Lemma lam_lower x y z : mid x -> mid y -> mid z -> / 1000000 <= lam x y z <= 100.
Proof.
  intros Hx Hy Hz. destruct (root_mid x Hx) as (Bx & Ex). destruct (root_mid y Hy) as (By & Ey). destruct (root_mid z Hz) as (Bz & Ez). unfold lam.
  set (a := R_sqrt.sqrt x) in *. set (b := R_sqrt.sqrt y) in *. set (c := R_sqrt.sqrt z) in *. clearbody a b c. split; nra.
Qed.
Lemma lambda_near x y z : finite x -> finite y -> finite z -> mid (valR x) -> mid (valR y) -> mid (valR z) ->
  near (sqrt x * (sqrt y + sqrt z) + sqrt y * sqrt z)%b32 (lam (valR x) (valR y) (valR z)) (42 / 10000000).
Proof.
  intros Fx Fy Fz Hx Hy Hz. destruct (root_mid _ Hx) as (Bx & Ex). destruct (root_mid _ Hy) as (By & Ey). destruct (root_mid _ Hz) as (Bz & Ez).
  pose proof u32_v as U. unfold mid in *.
  assert (Nx : near (sqrt x) (R_sqrt.sqrt (valR x)) (/ 524288)) by (apply near_sqrt with 0; [apply near_self; auto|unfold inr; lra|lra|lra]).
  assert (Ny : near (sqrt y) (R_sqrt.sqrt (valR y)) (/ 524288)) by (apply near_sqrt with 0; [apply near_self; auto|unfold inr; lra|lra|lra]).
  assert (Nz : near (sqrt z) (R_sqrt.sqrt (valR z)) (/ 524288)) by (apply near_sqrt with 0; [apply near_self; auto|unfold inr; lra|lra|lra]).
  unfold lam. set (a := R_sqrt.sqrt (valR x)) in *. set (b := R_sqrt.sqrt (valR y)) in *. set (c := R_sqrt.sqrt (valR z)) in *. clearbody a b c.
  assert (A1 : near (sqrt y + sqrt z)%b32 (b + c) (/ 524288 + 6 / 100000000)) by (apply near_add with (/ 524288); auto; [lra|unfold inr; lra|lra]).
  assert (Q1 : / 1000000 <= a * (b + c) <= 100) by (split; nra). assert (Q2 : / 1000000 <= b * c <= 100) by (split; nra).
  assert (A2 : near (sqrt x * (sqrt y + sqrt z))%b32 (a * (b + c)) (399 / 100000000)) by (apply near_mul with (/ 524288) (/ 524288 + 6 / 100000000); auto; try lra; unfold inr; lra).
  assert (A3 : near (sqrt y * sqrt z)%b32 (b * c) (399 / 100000000)) by (apply near_le with (/ 524288 + / 524288 + 7 / 100000000); [lra| |lra]; apply near_mul with (/ 524288) (/ 524288); auto; try lra; unfold inr; lra).
  replace (a * b + b * c + c * a) with (a * (b + c) + b * c) by ring. apply near_add with (399 / 100000000); auto; try lra. unfold inr; lra.
Qed.
Lemma quarter_step x l v w : near x v (42 / 10000000) -> near l w (42 / 10000000) -> / 10000000 <= v + w <= 1000 -> near (flit 1 4 * (x + l))%b32 ((v + w) / 4) dstep.
Proof.
  intros Nx Nl B. pose proof u32_v as U. assert (A : near (x + l)%b32 (v + w) (427 / 100000000)) by (apply near_add with (42 / 10000000); auto; try lra; unfold inr; lra).
  replace ((v + w) / 4) with (/ 4 * (v + w)) by field. apply near_mul with 0 (427 / 100000000); auto; [apply quarter_near|lra|lra|lra|lra|unfold inr; lra|unfold dstep; lra].
Qed.

(** ** The mean and the deviations *)
Lemma near_app x v d V : near x v d -> 0 <= v <= V -> 0 <= d -> app x v (d * V).
Proof. intros (F & H) B Hd. split; [exact F|]. assert (v * d <= V * d) by (apply Rmult_le_compat_r; lra). apply Rabs_le. lra. Qed.
Lemma third_near : near (flit 1 3) (/ 3) (3 / 100000000). Proof. split; [reflexivity|]. vm_compute. lra. Qed.
Lemma two_app : app (flit 2 1) 2 0. Proof. apply app_const; [reflexivity|vm_compute; lra]. Qed.
Lemma mu_near x y z : finite x -> finite y -> finite z -> 0 <= valR x <= 10 -> 0 <= valR y <= 10 -> 0 <= valR z <= 10 -> / 100000000 <= valR x + valR y ->
  near ((x + y + z) * flit 1 3)%b32 ((valR x + valR y + valR z) / 3) (22 / 100000000).
Proof.
  intros Fx Fy Fz Hx Hy Hz L. pose proof u32_v as U.
  assert (A : near (x + y)%b32 (valR x + valR y) (6 / 100000000)) by (apply near_add with 0; try apply near_self; auto; unfold inr; lra).
  assert (B : near (x + y + z)%b32 (valR x + valR y + valR z) (12 / 100000000)) by (apply near_add with (6 / 100000000); auto; [apply near_le with 0; [lra|apply near_self; auto|lra]|lra|unfold inr; lra|lra]).
  unfold Rdiv. apply near_mul with (12 / 100000000) (3 / 100000000); auto; try apply third_near; unfold inr; lra.
Qed.
Lemma dev_app x m v a : finite x -> valR x = v -> near m a (22 / 100000000) -> 0 <= v <= 3 * a -> / 1000000000 <= a <= 100 -> app (flit 2 1 - (m + x) / m)%b32 (1 - v / a) (3 / 1000000).
Proof.
  intros Fx Vx Nm B Ba. pose proof u32_v as U.
  assert (A : near (m + x)%b32 (a + v) (29 / 100000000)) by (apply near_add with (22 / 100000000); auto; [apply near_le with 0; [lra|rewrite <- Vx; apply near_self; auto|lra]|lra|unfold inr; lra|lra]).
  assert (Q : 1 <= (a + v) / a <= 4) by (replace ((a + v) / a) with (1 + v / a) by (field; lra); split; [assert (0 <= v / a) by (apply Rmult_le_pos; [lra|left; apply Rinv_0_lt_compat; lra]); lra|assert (v / a <= 3) by (apply Rmult_le_reg_r with a; [lra|]; unfold Rdiv; rewrite Rmult_assoc, Rinv_l by lra; lra); lra]).
  assert (D : near ((m + x) / m)%b32 ((a + v) / a) (58 / 100000000)) by (apply near_div with (29 / 100000000) (22 / 100000000); auto; try lra; unfold inr; lra).
  assert (E : app ((m + x) / m)%b32 ((a + v) / a) (232 / 100000000)) by (replace (232 / 100000000) with (58 / 100000000 * 4) by field; apply near_app; auto; lra).
  replace (1 - v / a) with (2 - (a + v) / a) by (field; lra). apply app_sub with 0 (232 / 100000000) 2; auto; [apply two_app|apply Rabs_le; lra|num|num].
Qed.

(** ** The test of the loop *)
Lemma larger_R a b : finite a -> finite b -> finite (larger a b) /\ valR (larger a b) = Rmax (valR a) (valR b).
Proof.
  intros Fa Fb. unfold larger. destruct (lt_dec b a Fb Fa) as [(E & L)|(E & L)]; rewrite E; [rewrite Rmax_left by lra|rewrite Rmax_right by lra]; auto.
Qed.
Definition tolR : R := valR (ofU 992036120).
Lemma tol_R : finite (ofU 992036120) /\ 24607 / 10000000 <= tolR <= 24608 / 10000000. Proof. split; [reflexivity|]. unfold tolR. vm_compute. lra. Qed.
Lemma test_ok X Y Z : finite X -> finite Y -> finite Z ->
  let t := b32_lt (larger (absolute Z) (larger (absolute X) (absolute Y))) (ofU 992036120) in
  (t = true /\ Rabs (valR X) < tolR /\ Rabs (valR Y) < tolR /\ Rabs (valR Z) < tolR) \/
  (t = false /\ (tolR <= Rabs (valR X) \/ tolR <= Rabs (valR Y) \/ tolR <= Rabs (valR Z))).
Proof.
  intros FX FY FZ t. destruct (abs_R X FX) as (F1 & V1). destruct (abs_R Y FY) as (F2 & V2). destruct (abs_R Z FZ) as (F3 & V3).
  destruct (larger_R _ _ F1 F2) as (F4 & V4). destruct (larger_R _ _ F3 F4) as (F5 & V5). destruct tol_R as (Ft & _).
  unfold t. destruct (lt_dec _ _ F5 Ft) as [(E & L)|(E & L)]; rewrite E; [left|right]; (split; [reflexivity|]); rewrite V5, V4, V1, V2, V3 in L; fold tolR in L.
  - pose proof (Rmax_l (Rabs (valR Z)) (Rmax (Rabs (valR X)) (Rabs (valR Y)))). pose proof (Rmax_r (Rabs (valR Z)) (Rmax (Rabs (valR X)) (Rabs (valR Y)))). pose proof (Rmax_l (Rabs (valR X)) (Rabs (valR Y))). pose proof (Rmax_r (Rabs (valR X)) (Rabs (valR Y))). lra.
  - unfold Rmax in L. destruct (Rle_dec (Rabs (valR X)) (Rabs (valR Y))); destruct (Rle_dec _ _) in L; auto.
Qed.

(** ** The series at the end *)
Lemma end_near st a : near (rf_mu st) a (22 / 100000000) -> / 10000000 <= a <= 100 ->
  finite (rf_x st) -> finite (rf_y st) -> finite (rf_z st) -> Rabs (valR (rf_x st)) <= 25 / 10000 -> Rabs (valR (rf_y st)) <= 25 / 10000 -> Rabs (valR (rf_z st)) <= 25 / 10000 ->
  near (rf_end st) (/ R_sqrt.sqrt a) (37 / 10000000).
Proof.
  intros Nm Ba FX FY FZ BX BY BZ. pose proof u32_v as U. unfold rf_end. set (X := rf_x st) in *. set (Y := rf_y st) in *. set (Z := rf_z st) in *. set (e := 25 / 10000) in *.
  assert (AX : app X 0 e) by (split; [auto|rewrite Rminus_0_r; auto]). assert (AY : app Y 0 e) by (split; [auto|rewrite Rminus_0_r; auto]). assert (AZ : app Z 0 e) by (split; [auto|rewrite Rminus_0_r; auto]).
  assert (R0 : Rabs 0 <= 0) by (rewrite Rabs_R0; lra).
  assert (A1 : app (X * Y)%b32 0 (626 / 100000000)). { replace 0 with (0 * 0) by ring. apply app_mul with e 0 e 0; auto; unfold e; num. }
  assert (A2 : app (X * Y * Z)%b32 0 (2 / 100000000)). { replace 0 with (0 * 0) by ring. apply app_mul with (626 / 100000000) 0 e 0; auto; unfold e; num. }
  assert (A3 : app (Z * Z)%b32 0 (626 / 100000000)). { replace 0 with (0 * 0) by ring. apply app_mul with e 0 e 0; auto; unfold e; num. }
  assert (A4 : app (X * Y - Z * Z)%b32 0 (126 / 10000000)). { replace 0 with (0 - 0) by ring. apply app_sub with (626 / 100000000) (626 / 100000000) 0; auto; [rewrite Rminus_0_r; auto|num|num]. }
  set (E2 := (X * Y - Z * Z)%b32) in *. set (E3 := (X * Y * Z)%b32) in *.
  assert (C1 : app (flit 1 24) 0 (42 / 1000)). { split; [reflexivity|]. apply Rabs_le. vm_compute. lra. }
  assert (C2 : app (flit 1 10) (1 / 10) (1 / 100000000)). { split; [reflexivity|]. apply Rabs_le. vm_compute. lra. }
  assert (C3 : app (flit 3 44) 0 (69 / 1000)). { split; [reflexivity|]. apply Rabs_le. vm_compute. lra. }
  assert (C4 : app (flit 1 14) 0 (72 / 1000)). { split; [reflexivity|]. apply Rabs_le. vm_compute. lra. }
  assert (A5 : app (flit 1 24 * E2)%b32 0 (6 / 10000000)). { replace 0 with (0 * 0) by ring. apply app_mul with (42 / 1000) 0 (126 / 10000000) 0; auto; num. }
  assert (A6 : app (flit 1 24 * E2 - flit 1 10)%b32 (0 - 1 / 10) (7 / 10000000)). { apply app_sub with (6 / 10000000) (1 / 100000000) (1 / 10); auto; [apply Rabs_le; lra|num|num]. }
  assert (A7 : app (flit 3 44 * E3)%b32 0 (1 / 100000000)). { replace 0 with (0 * 0) by ring. apply app_mul with (69 / 1000) 0 (2 / 100000000) 0; auto; num. }
  assert (A8 : app (flit 1 24 * E2 - flit 1 10 - flit 3 44 * E3)%b32 (0 - 1 / 10 - 0) (8 / 10000000)). { apply app_sub with (7 / 10000000) (1 / 100000000) (1 / 10); auto; [apply Rabs_le; lra|num|num]. }
  assert (A9 : app ((flit 1 24 * E2 - flit 1 10 - flit 3 44 * E3) * E2)%b32 0 (127 / 100000000)). { replace 0 with ((0 - 1 / 10 - 0) * 0) by ring. apply app_mul with (8 / 10000000) (1 / 10) (126 / 10000000) 0; auto; [apply Rabs_le; lra|num|num]. }
  assert (A10 : app (flit 1 1 + (flit 1 24 * E2 - flit 1 10 - flit 3 44 * E3) * E2)%b32 (1 + 0) (134 / 100000000)). { apply app_add with 0 (127 / 100000000) 1; auto; [apply one_app|apply Rabs_le; lra|num|num]. }
  assert (A11 : app (flit 1 14 * E3)%b32 0 (1 / 100000000)). { replace 0 with (0 * 0) by ring. apply app_mul with (72 / 1000) 0 (2 / 100000000) 0; auto; num. }
  assert (A12 : app (flit 1 1 + (flit 1 24 * E2 - flit 1 10 - flit 3 44 * E3) * E2 + flit 1 14 * E3)%b32 (1 + 0 + 0) (142 / 100000000)). { apply app_add with (134 / 100000000) (1 / 100000000) 1; auto; [apply Rabs_le; lra|num|num]. }
  set (S := (flit 1 1 + (flit 1 24 * E2 - flit 1 10 - flit 3 44 * E3) * E2 + flit 1 14 * E3)%b32) in *.
  assert (NS : near S 1 (142 / 100000000)). { destruct A12 as (F & H). apply Rabs_le_inv in H. split; [exact F|lra]. }
  assert (NR : near (sqrt (rf_mu st)) (R_sqrt.sqrt a) (214 / 100000000)) by (apply near_sqrt with (22 / 100000000); auto; try lra; unfold inr; lra).
  assert (PR : / 10000 <= R_sqrt.sqrt a <= 10). { split; [rewrite <- (sqrt_square (/ 10000)) by lra|rewrite <- (sqrt_square 10) by lra]; apply sqrt_le_1_alt; lra. }
  replace (/ R_sqrt.sqrt a) with (1 / R_sqrt.sqrt a) by (field; lra). apply near_div with (142 / 100000000) (214 / 100000000); auto; try lra.
  unfold inr, Rdiv. rewrite Rmult_1_l. split; [apply Rinv_le; lra|]. apply Rle_trans with (/ / 10000); [apply Rinv_le; lra|]. rewrite Rinv_inv. lra.
Qed.

(** ** The spread of the three numbers shrinks *)
Definition spread (T x y z : R) : Prop := x <= T * y /\ x <= T * z /\ y <= T * x /\ y <= T * z /\ z <= T * x /\ z <= T * y.
Lemma pair_shrink p q r S : 0 < p -> 0 < q -> 0 < r -> 1 <= S -> p * p <= S * S * (q * q) -> p * p <= S * S * (r * r) ->
  p * p + (p * q + q * r + r * p) <= (1 + S) / 2 * (q * q + (p * q + q * r + r * p)).
Proof.
  intros Hp Hq Hr HS A B.
  assert (P1 : p <= S * q) by (apply Rnot_lt_le; intros X; assert (S * q * (S * q) < p * p) by (apply Rmult_le_0_lt_compat; nra); lra).
  assert (P2 : p <= S * r) by (apply Rnot_lt_le; intros X; assert (S * r * (S * r) < p * p) by (apply Rmult_le_0_lt_compat; nra); lra).
  assert (K : p - q <= (S - 1) / 2 * (q + r)) by (destruct (Rle_dec q r); nra).
  replace (q * q + (p * q + q * r + r * p)) with ((p + q) * (q + r)) by ring.
  replace (p * p + (p * q + q * r + r * p)) with ((p + q) * (p + r)) by ring.
  replace ((1 + S) / 2 * ((p + q) * (q + r))) with ((p + q) * ((1 + S) / 2 * (q + r))) by ring. apply Rmult_le_compat_l; lra.
Qed.
Lemma spread_shrink S x y z : 0 < x -> 0 < y -> 0 < z -> 1 <= S -> spread (S * S) x y z -> spread ((1 + S) / 2) ((x + lam x y z) / 4) ((y + lam x y z) / 4) ((z + lam x y z) / 4).
Proof.
  intros Hx Hy Hz HS (A1 & A2 & A3 & A4 & A5 & A6). unfold lam.
  pose proof (sqrt_lt_R0 _ Hx) as Pa. pose proof (sqrt_lt_R0 _ Hy) as Pb. pose proof (sqrt_lt_R0 _ Hz) as Pc.
  pose proof (sqrt_sqrt x ltac:(lra)) as Ea. pose proof (sqrt_sqrt y ltac:(lra)) as Eb. pose proof (sqrt_sqrt z ltac:(lra)) as Ec.
  set (a := R_sqrt.sqrt x) in *. set (b := R_sqrt.sqrt y) in *. set (c := R_sqrt.sqrt z) in *. clearbody a b c. subst x y z.
  pose proof (pair_shrink a b c S Pa Pb Pc HS A1 A2). pose proof (pair_shrink a c b S Pa Pc Pb HS A2 A1). pose proof (pair_shrink b a c S Pb Pa Pc HS A3 A4). pose proof (pair_shrink b c a S Pb Pc Pa HS A4 A3). pose proof (pair_shrink c a b S Pc Pa Pb HS A5 A6). pose proof (pair_shrink c b a S Pc Pb Pa HS A6 A5).
  unfold spread. repeat split; lra.
Qed.
Lemma spread_near T d x y z x' y' z' : 0 < x -> 0 < y -> 0 < z -> 0 < T -> 0 <= d <= / 100 -> spread T x y z ->
  x * (1 - d) <= x' <= x * (1 + d) -> y * (1 - d) <= y' <= y * (1 + d) -> z * (1 - d) <= z' <= z * (1 + d) -> spread (T * (1 + 205 / 100 * d)) x' y' z'.
Proof.
  intros Hx Hy Hz HT Hd (A1 & A2 & A3 & A4 & A5 & A6) Bx By Bz.
  assert (G : forall p q p' q', 0 < q -> p <= T * q -> p' <= p * (1 + d) -> q * (1 - d) <= q' -> p' <= T * (1 + 205 / 100 * d) * q').
  { intros p q p' q' Hq H1 H2 H3. assert (p * (1 + d) <= T * q * (1 + d)) by (apply Rmult_le_compat_r; lra).
    assert (1 + d <= (1 + 205 / 100 * d) * (1 - d)) by nra. assert (T * q * (1 + d) <= T * q * ((1 + 205 / 100 * d) * (1 - d))) by (apply Rmult_le_compat_l; nra).
    assert (T * (1 + 205 / 100 * d) * (q * (1 - d)) <= T * (1 + 205 / 100 * d) * q') by (apply Rmult_le_compat_l; nra). lra. }
  split; [apply G with x y; lra|]. split; [apply G with x z; lra|]. split; [apply G with y x; lra|]. split; [apply G with y z; lra|]. split; [apply G with z x; lra|]. apply G with z y; lra.
Qed.
Lemma spread_le T T' x y z : 0 < x -> 0 < y -> 0 < z -> T <= T' -> spread T x y z -> spread T' x y z.
Proof. intros Hx Hy Hz H (A1 & A2 & A3 & A4 & A5 & A6). unfold spread. repeat split; nra. Qed.
Lemma spread_mean T x y z : 0 < x -> 0 < y -> 0 < z -> spread T x y z -> 1 <= T -> let a := (x + y + z) / 3 in Rabs (1 - x / a) <= T - 1 /\ Rabs (1 - y / a) <= T - 1 /\ Rabs (1 - z / a) <= T - 1.
Proof.
  intros Hx Hy Hz (A1 & A2 & A3 & A4 & A5 & A6) HT a. assert (Pa : 0 < a) by (unfold a; lra).
  assert (G : forall v, - ((T - 1) * a) <= a - v <= (T - 1) * a -> Rabs (1 - v / a) <= T - 1).
  { intros v H. apply Rabs_le. assert (E : (1 - v / a) * a = a - v) by (field; lra). set (r := 1 - v / a) in *. clearbody r. split; apply Rmult_le_reg_r with a; lra. }
  repeat split; apply G; unfold a; split; nra.
Qed.

(** ** The loop *)
Lemma mid_pos v : mid v -> 0 < v. Proof. unfold mid. lra. Qed.
Lemma devs_app x y z : finite x -> finite y -> finite z -> 0 <= valR x <= 10 -> 0 <= valR y <= 10 -> 0 <= valR z <= 10 -> / 100000000 <= valR x + valR y ->
  let a := (valR x + valR y + valR z) / 3 in let st := rf_dev x y z in
  near (rf_mu st) a (22 / 100000000) /\ app (rf_x st) (1 - valR x / a) (3 / 1000000) /\ app (rf_y st) (1 - valR y / a) (3 / 1000000) /\ app (rf_z st) (1 - valR z / a) (3 / 1000000).
Proof.
  intros Fx Fy Fz Hx Hy Hz L a st. pose proof (mu_near x y z Fx Fy Fz Hx Hy Hz L) as N. fold a in N. unfold st, rf_dev. cbn [rf_mu rf_x rf_y rf_z].
  split; [exact N|]. split; [|split]; (apply dev_app; auto; unfold a; lra).
Qed.
Definition good (n : nat) (T L H E : R) : Prop := forall x y z st, finite x -> finite y -> finite z -> L <= valR x <= H -> L <= valR y <= H -> L <= valR z <= H ->
  spread T (valR x) (valR y) (valR z) ->
  let r := rf_end (rf_loop n x y z st) in let v := RF (valR x) (valR y) (valR z) in finite r /\ Rabs (valR r - v) <= E * v.

Lemma rel_small a b r v c : 0 < c -> 0 <= a -> 0 <= b <= / 100 -> c * (1 - a) <= r <= c * (1 + a) -> Rabs (v / c - 1) <= b -> Rabs (r - v) <= (a + b) * (1 + 102 / 100 * b) * v.
Proof.
  intros Hc Ha Hb Hr Hv. assert (E : v = c * (1 + (v / c - 1))) by (field; lra). set (w := v / c - 1) in *. apply Rabs_le_inv in Hv. clearbody w. subst v.
  assert (K : (a + b) * c <= (a + b) * (1 + 102 / 100 * b) * (c * (1 + w))). { assert (1 <= (1 + 102 / 100 * b) * (1 + w)) by nra. assert ((a + b) * c * 1 <= (a + b) * c * ((1 + 102 / 100 * b) * (1 + w))) by (apply Rmult_le_compat_l; nra). lra. }
  assert (c * (- b) <= c * w <= c * b) by (split; apply Rmult_le_compat_l; lra). apply Rabs_le. split; lra.
Qed.
Lemma break_ok x y z : finite x -> finite y -> finite z -> mid (valR x) -> mid (valR y) -> mid (valR z) ->
  Rabs (valR (rf_x (rf_dev x y z))) < tolR -> Rabs (valR (rf_y (rf_dev x y z))) < tolR -> Rabs (valR (rf_z (rf_dev x y z))) < tolR ->
  let r := rf_end (rf_dev x y z) in let v := RF (valR x) (valR y) (valR z) in finite r /\ Rabs (valR r - v) <= 1 / 100000 * v.
Proof.
  intros Fx Fy Fz Hx Hy Hz TX TY TZ r v. destruct tol_R as (_ & Bt). unfold mid in *.
  destruct (devs_app x y z) as (N & AX & AY & AZ); auto; try lra. set (a := (valR x + valR y + valR z) / 3) in *. assert (Pa : / 1000000 <= a <= 10) by (unfold a; lra).
  assert (NE : near r (/ R_sqrt.sqrt a) (37 / 10000000)). { apply end_near; auto; try lra; [apply AX|apply AY|apply AZ]. }
  set (e := 2464 / 1000000).
  assert (G : forall X w, app X (1 - w / a) (3 / 1000000) -> Rabs (valR X) < tolR -> Rabs (w - a) <= e * a).
  { intros X w (_ & H) T. apply Rabs_le_inv in H. assert (T' := Rlt_le _ _ T). apply Rabs_le_inv in T'. apply Rabs_le. assert (E : (1 - w / a) * a = a - w) by (field; lra). set (q := 1 - w / a) in *. clearbody q. unfold e. split; nra. }
  pose proof (RF_mean (valR x) (valR y) (valR z) e) as M. cbv zeta in M. fold a in M. specialize (M ltac:(lra) ltac:(unfold e; lra) (G _ _ AX TX) (G _ _ AY TY) (G _ _ AZ TZ)). fold v in M.
  split; [apply NE|]. destruct NE as (_ & HR). assert (Ps : 0 < R_sqrt.sqrt a) by (apply sqrt_lt_R0; lra).
  assert (Pv : 0 < v) by (apply RF_pos; lra). apply Rle_trans with ((37 / 10000000 + e * e) * (1 + 102 / 100 * (e * e)) * v).
  - apply rel_small with (/ R_sqrt.sqrt a); [apply Rinv_0_lt_compat; auto|lra|unfold e; lra|exact HR|]. unfold Rdiv. rewrite Rinv_inv. exact M.
  - apply Rmult_le_compat_r; [lra|unfold e; lra].
Qed.
Lemma good_base n : good (S n) (10024 / 10000) (/ 1000000) 10 (1 / 100000).
Proof.
  intros x y z st Fx Fy Fz Hx Hy Hz Sp. cbv zeta. destruct tol_R as (_ & Bt).
  destruct (devs_app x y z) as (N & AX & AY & AZ); auto; try lra. 
  destruct (spread_mean (10024 / 10000) (valR x) (valR y) (valR z)) as (MX & MY & MZ); auto; try lra.
  set (a := (valR x + valR y + valR z) / 3) in *. cbn [rf_loop].
  assert (G : forall X w, app X (1 - w / a) (3 / 1000000) -> Rabs (1 - w / a) <= 10024 / 10000 - 1 -> Rabs (valR X) < tolR).
  { intros X w H B. pose proof (app_abs _ _ _ _ H B). lra. }
  apply (G _ _ AX) in MX. apply (G _ _ AY) in MY. apply (G _ _ AZ) in MZ.
  destruct (test_ok (rf_x (rf_dev x y z)) (rf_y (rf_dev x y z)) (rf_z (rf_dev x y z))) as [(E & _)|(E & [C|[C|C]])]; [apply AX|apply AY|apply AZ| |lra|lra|lra].
  rewrite E. apply break_ok; auto; unfold mid; lra.
Qed.
Lemma good_step n S T' L' H' L H E E' : 1 <= S -> 0 < T' -> (1 + S) / 2 * (1 + 205 / 100 * dstep) <= T' -> / 1000000 <= L -> H <= 10 -> L' <= L * (1 - dstep) -> H * (1 + dstep) <= H' -> L <= H ->
  1 / 100000 <= E -> E * (1 + dstep) + dstep <= E' -> good n T' L' H' E -> good (Datatypes.S n) (S * S) L H E'.
Proof.
  intros HS HT' HT HL HH HL' HH' HLH HE HE' IH x y z st Fx Fy Fz Hx Hy Hz Sp. cbv zeta. assert (D : 0 < dstep <= / 1000) by (unfold dstep; lra).
  assert (Mx : mid (valR x)) by (unfold mid; lra). assert (My : mid (valR y)) by (unfold mid; lra). assert (Mz : mid (valR z)) by (unfold mid; lra).
  pose proof (mid_pos _ Mx) as Px. pose proof (mid_pos _ My) as Py. pose proof (mid_pos _ Mz) as Pz.
  pose proof (RF_pos _ _ _ Px Py Pz) as PR. cbn [rf_loop].
  assert (E1 : 1 / 100000 <= E') by nra.
  destruct (devs_app x y z) as (N & AX & AY & AZ); auto; unfold mid in *; try lra.
  destruct (test_ok (rf_x (rf_dev x y z)) (rf_y (rf_dev x y z)) (rf_z (rf_dev x y z))) as [(Et & T1 & T2 & T3)|(Et & _)]; [apply AX|apply AY|apply AZ| |]; rewrite Et.
  - destruct (break_ok x y z) as (F & B); auto. split; [exact F|]. eapply Rle_trans; [exact B|]. apply Rmult_le_compat_r; lra.
  - pose proof (lambda_near x y z Fx Fy Fz Mx My Mz) as NL. pose proof (lam_lower _ _ _ Mx My Mz) as BL.
    set (lf := (sqrt x * (sqrt y + sqrt z) + sqrt y * sqrt z)%b32) in *. set (l := lam (valR x) (valR y) (valR z)) in *.
    assert (Q : forall w, finite w -> / 1000000 <= valR w <= 10 -> near (flit 1 4 * (w + lf))%b32 ((valR w + l) / 4) dstep).
    { intros w Fw Bw. apply quarter_step; auto; [apply near_le with 0; [lra|apply near_self; auto|lra]|lra]. }
    destruct (Q x Fx Mx) as (Fx' & Bx). destruct (Q y Fy My) as (Fy' & By). destruct (Q z Fz Mz) as (Fz' & Bz).
    set (x' := (flit 1 4 * (x + lf))%b32) in *. set (y' := (flit 1 4 * (y + lf))%b32) in *. set (z' := (flit 1 4 * (z + lf))%b32) in *.
    assert (LL : 3 * L <= l <= 3 * H).
    { unfold l, lam. assert (G : forall v, L <= v <= H -> R_sqrt.sqrt L <= R_sqrt.sqrt v <= R_sqrt.sqrt H) by (intros v Hv; split; apply sqrt_le_1_alt; lra).
      pose proof (G _ Hx). pose proof (G _ Hy). pose proof (G _ Hz). pose proof (sqrt_sqrt L ltac:(lra)). pose proof (sqrt_sqrt H ltac:(lra)). pose proof (sqrt_pos L).
      set (s := R_sqrt.sqrt L) in *. set (t := R_sqrt.sqrt H) in *. split.
      - assert (s * s <= R_sqrt.sqrt (valR x) * R_sqrt.sqrt (valR y)) by (apply Rmult_le_compat; lra). assert (s * s <= R_sqrt.sqrt (valR y) * R_sqrt.sqrt (valR z)) by (apply Rmult_le_compat; lra). assert (s * s <= R_sqrt.sqrt (valR z) * R_sqrt.sqrt (valR x)) by (apply Rmult_le_compat; lra). lra.
      - assert (R_sqrt.sqrt (valR x) * R_sqrt.sqrt (valR y) <= t * t) by (apply Rmult_le_compat; lra). assert (R_sqrt.sqrt (valR y) * R_sqrt.sqrt (valR z) <= t * t) by (apply Rmult_le_compat; lra). assert (R_sqrt.sqrt (valR z) * R_sqrt.sqrt (valR x) <= t * t) by (apply Rmult_le_compat; lra). lra. }
    assert (RG : forall v w, L <= v <= H -> (v + l) / 4 * (1 - dstep) <= w <= (v + l) / 4 * (1 + dstep) -> L' <= w <= H').
    { intros v w Hv Hw. assert (L * (1 - dstep) <= (v + l) / 4 * (1 - dstep)) by (apply Rmult_le_compat_r; lra). assert ((v + l) / 4 * (1 + dstep) <= H * (1 + dstep)) by (apply Rmult_le_compat_r; lra). lra. }
    assert (PX : 0 < (valR x + l) / 4) by lra. assert (PY : 0 < (valR y + l) / 4) by lra. assert (PZ : 0 < (valR z + l) / 4) by lra.
    assert (PG : forall v w, 0 < v -> v * (1 - dstep) <= w <= v * (1 + dstep) -> 0 < w) by (intros v w Pv Hw; assert (0 < v * (1 - dstep)) by (apply Rmult_lt_0_compat; lra); lra).
    pose proof (PG _ _ PX Bx). pose proof (PG _ _ PY By). pose proof (PG _ _ PZ Bz).
    assert (Sp' : spread T' (valR x') (valR y') (valR z')).
    { apply spread_le with ((1 + S) / 2 * (1 + 205 / 100 * dstep)); auto. apply spread_near with ((valR x + l) / 4) ((valR y + l) / 4) ((valR z + l) / 4); auto; try lra. apply spread_shrink; auto. }
    destruct (IH x' y' z' (rf_dev x y z) Fx' Fy' Fz' (RG _ _ Hx Bx) (RG _ _ Hy By) (RG _ _ Hz Bz) Sp') as (Fr & Br). split; [exact Fr|].
    pose proof (RF_pert ((valR x + l) / 4) ((valR y + l) / 4) ((valR z + l) / 4) (valR x') (valR y') (valR z') dstep PX PY PZ ltac:(lra)) as PT.
    assert (AB : forall v w, v * (1 - dstep) <= w <= v * (1 + dstep) -> Rabs (w - v) <= dstep * v) by (intros v w Hw; apply Rabs_le; lra).
    specialize (PT (AB _ _ Bx) (AB _ _ By) (AB _ _ Bz)). unfold l in PT. rewrite <- (RF_dup _ _ _ Px Py Pz) in PT.
    set (V := RF (valR x) (valR y) (valR z)) in *. set (W := RF (valR x') (valR y') (valR z')) in *. set (r := valR _) in Br |- *.
    apply Rabs_le_inv in PT. apply Rabs_le_inv in Br. assert (E * W <= E * (V * (1 + dstep))) by (apply Rmult_le_compat_l; lra). assert ((E * (1 + dstep) + dstep) * V <= E' * V) by (apply Rmult_le_compat_r; lra).
    apply Rabs_le. lra.
Qed.
Lemma good_le n T T' L L' H H' E : 0 < L -> T' <= T -> L <= L' -> H' <= H -> good n T L H E -> good n T' L' H' E.
Proof. intros HL HT HL' HH' G x y z st Fx Fy Fz Hx Hy Hz Sp. apply G; auto; try lra. apply spread_le with T'; auto; lra. Qed.
Lemma loop_good n : good (8 + n) 41000 (/ 100000) 5 (415 / 10000000).
Proof.
  pose proof (good_base n) as G0.
  assert (G1 : good (2 + n) (10047 / 10000 * (10047 / 10000)) (2 / 1000000) (9) (145 / 10000000)) by (refine (good_step _ _ _ _ _ _ _ _ _ _ _ _ _ _ _ _ _ _ _ G0); unfold dstep; lra).
  assert (G2 : good (3 + n) (1018 / 1000 * (1018 / 1000)) (3 / 1000000) 8 (190 / 10000000)) by (refine (good_step _ _ _ _ _ _ _ _ _ _ _ _ _ _ _ _ _ _ _ G1); unfold dstep; lra).
  assert (G3 : good (4 + n) (1072 / 1000 * (1072 / 1000)) (4 / 1000000) (15 / 2) (235 / 10000000)) by (refine (good_step _ _ _ _ _ _ _ _ _ _ _ _ _ _ _ _ _ _ _ G2); unfold dstep; lra).
  assert (G4 : good (5 + n) (1298 / 1000 * (1298 / 1000)) (5 / 1000000) 7 (280 / 10000000)) by (refine (good_step _ _ _ _ _ _ _ _ _ _ _ _ _ _ _ _ _ _ _ G3); unfold dstep; lra).
  assert (G5 : good (6 + n) (236 / 100 * (236 / 100)) (6 / 1000000) (13 / 2) (325 / 10000000)) by (refine (good_step _ _ _ _ _ _ _ _ _ _ _ _ _ _ _ _ _ _ _ G4); unfold dstep; lra).
  assert (G6 : good (7 + n) (101 / 10 * (101 / 10)) (7 / 1000000) 6 (370 / 10000000)) by (refine (good_step _ _ _ _ _ _ _ _ _ _ _ _ _ _ _ _ _ _ _ G5); unfold dstep; lra).
  assert (G7 : good (8 + n) (203 * 203) (8 / 1000000) (11 / 2) (415 / 10000000)) by (refine (good_step _ _ _ _ _ _ _ _ _ _ _ _ _ _ _ _ _ _ _ G6); unfold dstep; lra).
  apply good_le with (203 * 203) (8 / 1000000) (11 / 2); auto; lra.
Qed.
