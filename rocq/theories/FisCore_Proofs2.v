(** The membership functions over the reals. *)
From Coq Require Import ZArith List Bool Lia Reals Lra Psatz.
From Verif Require Import Base BaseLemmas Arith ArithLemmas Ltisys_Proofs2 Smoother_Proofs Interp1_Model Interp1_Proofs2 FisCore_Model Fis_Spec FisCore_Proofs.
Import ListNotations.
Open Scope R_scope.

Lemma get0 {B} (a : B) l : get (a :: l) 0 = Ok a. Proof. reflexivity. Qed.
Lemma get1 {B} (a b : B) l : get (a :: b :: l) 1 = Ok b. Proof. reflexivity. Qed.
Lemma get2 {B} (a b c : B) l : get (a :: b :: c :: l) 2 = Ok c. Proof. reflexivity. Qed.
Lemma get3 {B} (a b c d : B) l : get (a :: b :: c :: d :: l) 3 = Ok d. Proof. reflexivity. Qed.

(** The degree function [g] with parameters [p] takes the value [y] at [x],
    whatever the range of the variable and whatever follows it. *)
Definition at_ (g : mfFunction RA) (p : list R) (x y : R) : Prop :=
  forall (i : io RA) rest n, io_value i = x -> g (i :: rest) p n = Ok y.

Ltac params := unfold at_, in0; intros i rest n <-; rewrite ?get0; cbn [bind]; rewrite ?get0, ?get1, ?get2, ?get3; cbn [bind].
Ltac fin := repeat match goal with |- context [lit (a := RA) ?n ?d] => change (lit (a := RA) n d) with (IZR n / IZR (Zpos d)) end; ops;
  change (fopp (a := RA)) with Ropp in *; change (fabs (a := RA)) with Rabs in *; change (flt (a := RA)) with Rltb in *; change (fle (a := RA)) with Rleb in *; change (F RA) with R in *.

Lemma frac_lt1 u v : 0 < v -> u < v -> u / v < 1.
Proof. intros. apply Rmult_lt_reg_r with v; auto. unfold Rdiv. rewrite Rmult_assoc, Rinv_l by lra. lra. Qed.
Lemma frac_le1 u v : 0 < v -> u <= v -> u / v <= 1.
Proof. intros. apply Rmult_le_reg_r with v; auto. unfold Rdiv. rewrite Rmult_assoc, Rinv_l by lra. lra. Qed.
Lemma frac_ge1 u v : 0 < v -> v <= u -> 1 <= u / v.
Proof. intros. apply Rmult_le_reg_r with v; auto. unfold Rdiv. rewrite Rmult_assoc, Rinv_l by lra. lra. Qed.
Lemma frac_pos u v : 0 < v -> 0 <= u -> 0 <= u / v.
Proof. intros. apply Rmult_le_pos; auto. apply Rlt_le, Rinv_0_lt_compat; auto. Qed.
Lemma frac_neg u v : 0 < v -> u <= 0 -> u / v <= 0.
Proof. intros. apply Rmult_le_reg_r with v; auto. unfold Rdiv. rewrite Rmult_assoc, Rinv_l by lra. lra. Qed.

(** ** Ramps *)
Lemma ramp_up_unit a b x : a < b -> unit (ramp_up a b x).
Proof.
  intros H. unfold unit, ramp_up. destruct (Rle_dec x a); [lra|]. destruct (Rle_dec b x); [lra|].
  split; [apply frac_pos; lra|apply frac_le1; lra].
Qed.
Lemma ramp_up_clip a b x : a < b -> ramp_up a b x = Rmax 0 (Rmin ((x - a) / (b - a)) 1).
Proof.
  intros H. unfold ramp_up. destruct (Rle_dec x a) as [H1|H1].
  - assert ((x - a) / (b - a) <= 0) by (apply frac_neg; lra). mm.
  - destruct (Rle_dec b x) as [H2|H2].
    + assert (1 <= (x - a) / (b - a)) by (apply frac_ge1; lra). mm.
    + assert (0 <= (x - a) / (b - a)) by (apply frac_pos; lra). assert ((x - a) / (b - a) <= 1) by (apply frac_le1; lra). mm.
Qed.
Lemma ramp_down_clip a b x : a < b -> ramp_down a b x = Rmax 0 (Rmin ((b - x) / (b - a)) 1).
Proof.
  intros H. unfold ramp_down. rewrite ramp_up_clip by auto. replace ((b - x) / (b - a)) with (1 - (x - a) / (b - a)) by (field; lra). mm.
Qed.

Lemma TriMF_ok a b c q x : a < b < c -> at_ TriMF (a :: b :: c :: q) x (triangle a b c x).
Proof.
  intros H. unfold TriMF. params. apply f_equal. rewrite Max_R, Min_R. fin. unfold triangle. rewrite ramp_up_clip, ramp_down_clip by lra.
  set (x := io_value i). set (u := (x - a) / (b - a)). set (v := (c - x) / (c - b)).
  assert (u <= 1 \/ v <= 1).
  { destruct (Rle_dec x b); [left; unfold u; apply frac_le1; lra|right; unfold v; apply frac_le1; lra]. }
  replace (0 / 1) with 0 by field. mm.
Qed.
Lemma TrapMF_ok a b c d q x : a < b -> c < d -> at_ TrapMF (a :: b :: c :: d :: q) x (trapezium a b c d x).
Proof.
  intros H H'. unfold TrapMF. params. apply f_equal. rewrite Max_R, !Min_R. fin. unfold trapezium. rewrite ramp_up_clip, ramp_down_clip by lra.
  set (x := io_value i). set (u := (x - a) / (b - a)). set (v := (d - x) / (d - c)).
  replace (0 / 1) with 0 by field. replace (1 / 1) with 1 by field. mm.
Qed.
Lemma LinSMF_ok a b q x : a < b -> at_ LinSMF (a :: b :: q) x (ramp_up a b x).
Proof.
  intros H. unfold LinSMF. params. fin. unfold ramp_up. set (x := io_value i).
  Rcases; destruct (Rle_dec x a); destruct (Rle_dec b x); try lra; apply f_equal; try lra.
  - replace x with a by lra. field. lra.
  - replace x with b by lra. field. lra.
Qed.
(** The Z ramp of the code rises between its corners. *)
Lemma LinZMF_code a b q x : a < b -> at_ LinZMF (a :: b :: q) x (if Rlt_dec x a then 1 else if Rlt_dec b x then 0 else ramp_up a b x).
Proof.
  intros H. unfold LinZMF. params. fin. unfold ramp_up. set (x := io_value i).
  Rcases; destruct (Rlt_dec x a); destruct (Rlt_dec b x); destruct (Rle_dec x a); destruct (Rle_dec b x); try lra; apply f_equal; try lra.
  - replace x with a by lra. field. lra.
  - replace x with b by lra. field. lra.
  - field. lra.
Qed.
(** With equal corners both are steps. *)
Lemma LinSMF_step a q x : at_ LinSMF (a :: a :: q) x (step_up a x).
Proof.
  unfold LinSMF. params. rewrite isEqual_true by reflexivity. fin. unfold step_up. set (x := io_value i).
  Rcases; destruct (Rlt_dec x a); try lra; apply f_equal; lra.
Qed.
Lemma LinZMF_step a q x : at_ LinZMF (a :: a :: q) x (1 - step_up a x).
Proof.
  unfold LinZMF. params. rewrite isEqual_true by reflexivity. fin. unfold step_up. set (x := io_value i).
  Rcases; destruct (Rlt_dec x a); try lra; apply f_equal; lra.
Qed.

(** ** Curves *)
Lemma curve_up_unit a b x : a < b -> unit (curve_up a b x).
Proof.
  intros H. unfold unit, curve_up. destruct (Rle_dec x a); [lra|]. destruct (Rle_dec b x); [lra|]. destruct (Rle_dec x ((a + b) / 2)).
  - assert (0 <= (x - a) / (b - a)) by (apply frac_pos; lra).
    assert ((x - a) / (b - a) <= 1 / 2).
    { apply Rmult_le_reg_r with (b - a); [lra|]. unfold Rdiv at 1. rewrite Rmult_assoc, Rinv_l by lra. lra. }
    split; nra.
  - assert (0 <= (b - x) / (b - a)) by (apply frac_pos; lra).
    assert ((b - x) / (b - a) <= 1 / 2).
    { apply Rmult_le_reg_r with (b - a); [lra|]. unfold Rdiv at 1. rewrite Rmult_assoc, Rinv_l by lra. lra. }
    split; nra.
Qed.
Lemma SMF_ok a b q x : a < b -> at_ SMF (a :: b :: q) x (curve_up a b x).
Proof.
  intros H. unfold SMF. params. fin. unfold curve_up. set (x := io_value i).
  Rcases; cbn [andb]; destruct (Rle_dec x a); destruct (Rle_dec b x); destruct (Rle_dec x ((a + b) / 2)); try lra; apply f_equal; try lra; field; lra.
Qed.
Lemma ZMF_ok a b q x : a < b -> at_ ZMF (a :: b :: q) x (curve_down a b x).
Proof.
  intros H. unfold ZMF. params. fin. unfold curve_down, curve_up. set (x := io_value i).
  Rcases; cbn [andb]; destruct (Rle_dec x a); destruct (Rle_dec b x); destruct (Rle_dec x ((a + b) / 2)); try lra; apply f_equal; try lra; field; lra.
Qed.
Lemma PiMF_ok a b c d q x : a < b -> c < d -> at_ PiMF (a :: b :: c :: d :: q) x (pi_shape a b c d x).
Proof.
  intros H H'. unfold at_. intros i rest n E. unfold PiMF. rewrite (SMF_ok a b (c :: d :: q) x H i rest n E). cbn [bind skipn].
  rewrite (ZMF_ok c d q x H' i rest n E). cbn [bind]. apply f_equal. fin. unfold pi_shape.
  apply Rabs_pos_eq. pose proof (curve_up_unit a b x H). pose proof (curve_up_unit c d x H'). unfold unit, curve_down in *. apply Rmult_le_pos; lra.
Qed.

Lemma ramp_up_mono a b x y : a < b -> x <= y -> ramp_up a b x <= ramp_up a b y.
Proof.
  intros H L. rewrite !ramp_up_clip by auto.
  assert ((x - a) / (b - a) <= (y - a) / (b - a)) by (apply Rmult_le_compat_r; [apply Rlt_le, Rinv_0_lt_compat|]; lra). mm.
Qed.
Lemma curve_up_mono a b x y : a < b -> x <= y -> curve_up a b x <= curve_up a b y.
Proof.
  intros H L. pose proof (curve_up_unit a b x H) as Ux. pose proof (curve_up_unit a b y H) as Uy. unfold unit, curve_up in *.
  assert (K : forall z, z / (b - a) = z * / (b - a)) by reflexivity. rewrite !K in *.
  assert (P : 0 < / (b - a)) by (apply Rinv_0_lt_compat; lra). set (k := / (b - a)) in *.
  assert (KK : (b - a) * k = 1) by (unfold k; apply Rinv_r; lra).
  destruct (Rle_dec x a); [lra|]. destruct (Rle_dec y a); [lra|]. destruct (Rle_dec b y); [lra|]. destruct (Rle_dec b x); [lra|].
  destruct (Rle_dec x ((a + b) / 2)), (Rle_dec y ((a + b) / 2)); try lra.
  - assert (0 <= (x - a) * k) by (apply Rmult_le_pos; lra). assert ((x - a) * k <= (y - a) * k) by (apply Rmult_le_compat_r; lra). nra.
  - assert (0 <= (x - a) * k) by (apply Rmult_le_pos; lra). assert (0 <= (b - y) * k) by (apply Rmult_le_pos; lra).
    assert ((x - a) * k <= (b - a) / 2 * k) by (apply Rmult_le_compat_r; lra).
    assert ((b - y) * k <= (b - a) / 2 * k) by (apply Rmult_le_compat_r; lra). nra.
  - assert (0 <= (b - y) * k) by (apply Rmult_le_pos; lra). assert ((b - y) * k <= (b - x) * k) by (apply Rmult_le_compat_r; lra). nra.
Qed.

(** ** Rectangle, singleton, concave, spike, cosine *)
Lemma RectangleMF_ok s e q x : at_ RectangleMF (s :: e :: q) x (rectangle s e x).
Proof.
  unfold RectangleMF. params. fin. unfold rectangle. set (x := io_value i).
  Rcases; cbn [andb]; destruct (Rle_dec s x); destruct (Rle_dec x e); try lra; apply f_equal; lra.
Qed.
Lemma SingletonMF_ok a q x : at_ SingletonMF (a :: q) x (if Rle_dec (Rabs (x - a)) (/ 2 ^ 126) then 1 else 0).
Proof.
  unfold SingletonMF. params. set (x := io_value i). apply f_equal.
  destruct (Rle_dec (Rabs (x - a)) (/ 2 ^ 126)) as [L|L].
  - unfold isEqual. change (fle (a := RA)) with Rleb. change (fabs (a := RA)) with Rabs. change (fsub (a := RA)) with Rminus. change (real_min (a := RA)) with (/ 2 ^ 126).
    rewrite (Rabs_pos_eq (/ 2 ^ 126)) by (apply Rlt_le, Rinv_0_lt_compat, pow_lt; lra).
    destruct (Rleb_spec (Rabs (x - a)) (/ 2 ^ 126)); [fin; lra|contradiction].
  - rewrite isEqual_false by lra. fin. lra.
Qed.
Lemma ConcaveMF_ok i0 e q x : i0 < e -> at_ ConcaveMF (i0 :: e :: q) x (concave_up i0 e x).
Proof.
  intros H. unfold ConcaveMF. params. fin. unfold concave_up. set (x := io_value i).
  Rcases; cbn [andb]; destruct (Rlt_dec x e); try lra; apply f_equal; try lra. field. lra.
Qed.
Lemma ConcaveMF_down i0 e q x : e < i0 -> at_ ConcaveMF (i0 :: e :: q) x (concave_up (- i0) (- e) (- x)).
Proof.
  intros H. unfold ConcaveMF. params. fin. unfold concave_up. set (x := io_value i).
  Rcases; cbn [andb]; destruct (Rlt_dec (- x) (- e)); try lra; apply f_equal; try lra. field. lra.
Qed.
Lemma concave_up_unit i0 e x : i0 < e -> 0 < concave_up i0 e x <= 1.
Proof.
  intros H. unfold concave_up. destruct (Rlt_dec x e); [|lra]. split; [apply Rdiv_lt_0_compat; lra|apply frac_le1; lra].
Qed.
Lemma concave_up_mono i0 e x y : i0 < e -> x <= y -> concave_up i0 e x <= concave_up i0 e y.
Proof.
  intros H L. pose proof (concave_up_unit i0 e x H) as U. unfold concave_up in *. destruct (Rlt_dec x e), (Rlt_dec y e); try lra.
  apply Rmult_le_compat_l; [lra|]. apply Rinv_le_contravar; lra.
Qed.
Lemma SpikeMF_ok w c q x : w <> 0 -> at_ SpikeMF (w :: c :: q) x (spike w c x).
Proof.
  intros H. unfold SpikeMF. params. fin. change (o_exp lib) with exp. unfold spike. apply f_equal, f_equal. set (x := io_value i).
  replace (10 / 1) with 10 by field. unfold Rdiv. rewrite !Rabs_mult, Rabs_inv, (Rabs_pos_eq 10) by lra. reflexivity.
Qed.

Lemma exp_neg_unit u : 0 <= u -> 0 < exp (- u) <= 1.
Proof.
  intros H. split; [apply exp_pos|]. rewrite <- exp_0. destruct (Req_dec u 0) as [->|N]; [rewrite Ropp_0; lra|]. apply Rlt_le, exp_increasing. lra.
Qed.

(** ** Exponential shapes *)
Lemma GaussMF_ok s c q x : s <> 0 -> at_ GaussMF (s :: c :: q) x (normal s c x).
Proof.
  intros H. unfold GaussMF. params. fin. change (o_exp lib) with exp. unfold normal. apply f_equal, f_equal. field. auto.
Qed.
Lemma normal_unit s c x : 0 < normal s c x <= 1.
Proof.
  unfold normal. replace (- (x - c) ^ 2 / (2 * s ^ 2)) with (- ((x - c) ^ 2 / (2 * s ^ 2))) by (unfold Rdiv; ring). apply exp_neg_unit.
  destruct (Req_dec s 0) as [->|N].
  - replace (2 * 0 ^ 2) with 0 by ring. unfold Rdiv. rewrite Rinv_0. lra.
  - apply frac_pos; [pose proof (Rsqr_pos_lt s N) as P; rewrite Rsqr_pow2 in P; lra|apply pow2_ge_0].
Qed.
Lemma SigMF_ok a b q x : at_ SigMF (a :: b :: q) x (logistic a b x).
Proof.
  unfold SigMF. params. fin. change (o_exp lib) with exp. unfold logistic. apply f_equal.
  replace (1 / 1) with 1 by field. unfold Rdiv. rewrite Rmult_1_l. f_equal. f_equal. f_equal. ring.
Qed.
Lemma logistic_unit a b x : 0 < logistic a b x < 1.
Proof.
  unfold logistic. pose proof (exp_pos (- (a * (x - b)))). split; [apply Rinv_0_lt_compat; lra|].
  apply Rmult_lt_reg_r with (1 + exp (- (a * (x - b)))); [lra|]. rewrite Rinv_l by lra. lra.
Qed.
Lemma DSigMF_ok a b c d q x : at_ DSigMF (a :: b :: c :: d :: q) x (Rabs (logistic a b x - logistic c d x)).
Proof.
  unfold at_. intros i rest n E. unfold DSigMF. rewrite (SigMF_ok a b (c :: d :: q) x i rest n E). cbn [bind skipn].
  rewrite (SigMF_ok c d q x i rest n E). reflexivity.
Qed.
Lemma PSigMF_ok a b c d q x : at_ PSigMF (a :: b :: c :: d :: q) x (logistic a b x * logistic c d x).
Proof.
  unfold at_. intros i rest n E. unfold PSigMF. rewrite (SigMF_ok a b (c :: d :: q) x i rest n E). cbn [bind skipn].
  rewrite (SigMF_ok c d q x i rest n E). cbn [bind]. apply f_equal. fin. apply Rabs_pos_eq.
  pose proof (logistic_unit a b x). pose proof (logistic_unit c d x). apply Rmult_le_pos; lra.
Qed.
Lemma GBellMF_ok a b c q x : a <> 0 -> x <> c -> at_ GBellMF (a :: b :: c :: q) x (/ (1 + Rpower (Rabs ((x - c) / a)) (2 * b))).
Proof.
  intros H N. unfold GBellMF. params. fin. change (o_pow lib) with Rpower. apply f_equal.
  replace (1 / 1) with 1 by field. replace (2 / 1) with 2 by field. unfold Rdiv. rewrite Rmult_1_l. reflexivity.
Qed.
Lemma Gauss2MF_code s1 c1 s2 c2 q x : s1 <> 0 -> s2 <> 0 ->
  at_ Gauss2MF (s1 :: c1 :: s2 :: c2 :: q) x
    ((if Rle_dec x c1 then normal s1 c1 x else 1) * (if Rle_dec x c2 then normal s2 c2 x else 1)).
Proof.
  intros H1 H2. unfold at_. intros i rest n E. unfold Gauss2MF.
  pose proof (GaussMF_ok s1 c1 (s2 :: c2 :: q) x H1 i rest n E) as G1. pose proof (GaussMF_ok s2 c2 q x H2 i rest n E) as G2.
  unfold in0. rewrite get0. cbn [bind]. rewrite get1, get3. cbn [bind skipn]. rewrite E, G1, G2. fin.
  Rcases; cbn [bind]; destruct (Rle_dec x c1); destruct (Rle_dec x c2); try lra; apply f_equal; fin; replace (1 / 1) with 1 by field; reflexivity.
Qed.

(** The float nearest to pi, and the cosine bell. *)
Definition pi32 : R := 13176795 / 4194304.
Lemma CosineMF_ok c w q x : at_ CosineMF (c :: w :: q) x
  (if Rlt_dec x (c - w / 2) then 0 else if Rlt_dec (c + w / 2) x then 0 else (1 + cos (2 / w * pi32 * (x - c))) / 2).
Proof.
  unfold CosineMF. params. unfold ffp_pi. fin. change (o_cos lib) with cos. set (x := io_value i). unfold pi32.
  Rcases; cbn [orb]; destruct (Rlt_dec x (c - w / 2)); destruct (Rlt_dec (c + w / 2) x); try lra; apply f_equal; try lra.
  replace (2 / 1 / w) with (2 / w) by (unfold Rdiv; rewrite Rinv_1; ring). lra.
Qed.

(** ** The inverses used by Tsukamoto systems *)
Lemma TLinSMF_ok a b q x : at_ TLinSMF (a :: b :: q) x (a + (b - a) * x).
Proof. unfold TLinSMF. params. fin. apply f_equal. ring. Qed.
Lemma TLinZMF_ok a b q x : at_ TLinZMF (a :: b :: q) x (a - (a - b) * x).
Proof. unfold TLinZMF. params. fin. apply f_equal. ring. Qed.
Lemma TRampMF_ok a b q x : at_ TRampMF (a :: b :: q) x (a + (b - a) * x).
Proof. unfold TRampMF. params. fin. apply f_equal. ring. Qed.
Lemma TSigMF_ok a b q w : / 2 ^ 126 < w < 1 - / 2 ^ 126 -> at_ TSigMF (a :: b :: q) w (b - ln (/ w - 1) / a).
Proof.
  intros H. assert (P : 0 < / 2 ^ 126) by (apply Rinv_0_lt_compat, pow_lt; lra).
  unfold TSigMF. params. change (lit (a := RA) 1 1) with (1 / 1). change (lit (a := RA) 0 1) with (0 / 1).
  rewrite isEqual_false by (rewrite Rabs_left; lra). rewrite isEqual_false by (rewrite Rabs_pos_eq; lra).
  fin. change (o_log lib) with ln. apply f_equal. replace (1 / 1) with 1 by field. unfold Rdiv. rewrite Rmult_1_l. reflexivity.
Qed.
Lemma TConcaveMF_ok i0 e q x : i0 < e -> at_ TConcaveMF (i0 :: e :: q) x ((i0 - e) / concave_up i0 e x + 2 * e - i0).
Proof.
  intros H i rest n E. unfold TConcaveMF. rewrite (ConcaveMF_ok i0 e q x H i rest n E). rewrite get0, get1. cbn [bind]. fin.
  replace (2 / 1) with 2 by field. reflexivity.
Qed.
Lemma TSMF_ok a b q w : a < b ->
  let ta := a + sqrt (w * (1 / 2 * (b - a) * (b - a))) in
  let tb := b + sqrt (- (w - 1) * (1 / 2 * (b - a) * (b - a))) in
  at_ TSMF (a :: b :: q) w (if Rlt_dec (Rabs (w - curve_up a b ta)) (Rabs (w - curve_up a b tb)) then ta else tb).
Proof.
  intros H ta tb i rest n E. unfold TSMF, in0. rewrite !get0, get1. cbn [bind]. rewrite E.
  change (o_sqrt lib) with sqrt. fin. replace (1 / 1) with 1 by field. fold ta. fold tb.
  rewrite (SMF_ok a b q ta H (mkIO (A := RA) _ _ ta) [] n eq_refl). cbn [bind]. rewrite (SMF_ok a b q tb H (mkIO (A := RA) _ _ tb) [] n eq_refl). cbn [bind].
  apply f_equal. Rcases; destruct Rlt_dec; auto; contradiction.
Qed.
Lemma TZMF_ok a b q w : a < b ->
  let ta := a + sqrt (- (w - 1) * (1 / 2 * (b - a) * (b - a))) in
  let tb := b + sqrt (w * (1 / 2 * (b - a) * (b - a))) in
  at_ TZMF (a :: b :: q) w (if Rlt_dec (Rabs (w - curve_up a b ta)) (Rabs (w - curve_up a b tb)) then ta else tb).
Proof.
  intros H ta tb i rest n E. unfold TZMF, in0. rewrite !get0, get1. cbn [bind]. rewrite E.
  change (o_sqrt lib) with sqrt. fin. replace (1 / 1) with 1 by field. fold ta. fold tb.
  rewrite (SMF_ok a b q ta H (mkIO (A := RA) _ _ ta) [] n eq_refl). cbn [bind]. rewrite (SMF_ok a b q tb H (mkIO (A := RA) _ _ tb) [] n eq_refl). cbn [bind].
  apply f_equal. Rcases; destruct Rlt_dec; auto; contradiction.
Qed.
