From Coq Require Import ZArith List Bool Lia Reals Lra Psatz.
From Flocq Require Import Core IEEE754.BinarySingleNaN IEEE754.Binary IEEE754.Bits.
From Verif Require Import Base BaseLemmas Arith ArithLemmas Ltisys_Proofs2 Smoother_Proofs Smoother_Proofs4 Rms_Proofs Interp1_Model Interp1_Proofs2 FisCore_Model Fis_Spec.
Import ListNotations.
Open Scope R_scope.

(** Case analysis on the minima and maxima of the goal, innermost first. *)
Ltac simple_term a := lazymatch a with context [Rmin _ _] => fail | context [Rmax _ _] => fail | _ => idtac end.
Ltac mm := repeat match goal with
  | |- context [Rmin ?a ?b] => simple_term a; simple_term b; destruct (Rle_dec a b); [rewrite (Rmin_left a b) by assumption|rewrite (Rmin_right a b) by lra]
  | |- context [Rmax ?a ?b] => simple_term a; simple_term b; destruct (Rle_dec a b); [rewrite (Rmax_right a b) by assumption|rewrite (Rmax_left a b) by lra]
  end; lra.

(** ** Clamping *)
Lemma bound_R (y lo hi : R) : lo <= hi -> bound (A := RA) y lo hi = Rmax lo (Rmin y hi).
Proof.
  intros H. unfold bound, inRangeCoerce. rewrite RA_isnan. change (flt (a := RA)) with Rltb.
  Rcases; cbn [snd]; unfold Rmax, Rmin; repeat destruct Rle_dec; lra.
Qed.
Lemma bound01_R (y : R) : bound01 (A := RA) y = Rmax 0 (Rmin y 1).
Proof. unfold bound01. replace (lit (a := RA) 0 1) with 0 by (cbn; lra). replace (lit (a := RA) 1 1) with 1 by (cbn; lra). apply bound_R; lra. Qed.
Lemma bound01_id (y : R) : unit y -> bound01 (A := RA) y = y.
Proof. intros [H1 H2]. rewrite bound01_R. unfold Rmax, Rmin; repeat destruct Rle_dec; lra. Qed.
Lemma bound01_unit (y : R) : unit (bound01 (A := RA) y).
Proof. rewrite bound01_R. unfold unit, Rmax, Rmin; repeat destruct Rle_dec; lra. Qed.

Lemma Min_R (a b : R) : Min (A := RA) a b = Rmax 0 (Rmin (Rmin a b) 1).
Proof. unfold Min. change (flt (a := RA)) with Rltb. rewrite bound01_R. do 2 f_equal. Rcases; unfold Rmin; destruct Rle_dec; auto; lra. Qed.
Lemma Max_R (a b : R) : Max (A := RA) a b = Rmax 0 (Rmin (Rmax a b) 1).
Proof. unfold Max. change (flt (a := RA)) with Rltb. rewrite bound01_R. do 2 f_equal. Rcases; unfold Rmax; destruct Rle_dec; auto; lra. Qed.
Lemma Min_unit (a b : R) : unit a -> unit b -> Min (A := RA) a b = Rmin a b.
Proof. intros [? ?] [? ?]. rewrite Min_R. unfold Rmax, Rmin; repeat destruct Rle_dec; lra. Qed.
Lemma Max_unit (a b : R) : unit a -> unit b -> Max (A := RA) a b = Rmax a b.
Proof. intros [? ?] [? ?]. rewrite Max_R. unfold Rmax, Rmin; repeat destruct Rle_dec; lra. Qed.
Lemma Prod_unit (a b : R) : unit a -> unit b -> Prod (A := RA) a b = a * b.
Proof. intros [? ?] [? ?]. unfold Prod. change (fmul (a := RA) a b) with (a * b). apply bound01_id. unfold unit. nra. Qed.
Lemma probor_unit a b : unit a -> unit b -> unit (a + b - a * b).
Proof.
  unfold unit. intros [? ?] [? ?]. assert (0 <= (1 - a) * (1 - b)) by (apply Rmult_le_pos; lra).
  assert (0 <= a * (1 - b)) by (apply Rmult_le_pos; lra). lra.
Qed.
Lemma ProbOr_unit (a b : R) : unit a -> unit b -> ProbOr (A := RA) a b = a + b - a * b.
Proof. intros [? ?] [? ?]. unfold ProbOr. ops. apply bound01_id. apply probor_unit; split; auto. Qed.
Lemma Sum_unit (a b : R) : unit a -> unit b -> Sum (A := RA) a b = Rmin (a + b) 1.
Proof. intros [? ?] [? ?]. unfold Sum. ops. rewrite bound01_R. unfold Rmax, Rmin; repeat destruct Rle_dec; lra. Qed.

(** ** The norms *)
Lemma norm_min : norm 1 (Min (A := RA)).
Proof.
  assert (C : forall a b, unit a -> unit b -> unit (Rmin a b)) by (unfold unit; intros; unfold Rmin; destruct Rle_dec; lra).
  assert (Cl : forall a b, unit (Min (A := RA) a b)) by (intros; apply bound01_unit).
  assert (U : unit 1) by (unfold unit; lra).
  split; [intros a b Ha Hb|intros a b Ha Hb|intros a b c Ha Hb Hc|intros a b c Ha Hb Hc Hbc|intros a Ha]; repeat rewrite Min_unit by auto; auto; unfold unit in *; mm.
Qed.
Lemma norm_prod : norm 1 (Prod (A := RA)).
Proof.
  assert (C : forall a b, unit a -> unit b -> unit (a * b)) by (unfold unit; intros; nra).
  assert (Cl : forall a b, unit (Prod (A := RA) a b)) by (intros; apply bound01_unit).
  assert (U : unit 1) by (unfold unit; lra).
  split; [intros a b Ha Hb|intros a b Ha Hb|intros a b c Ha Hb Hc|intros a b c Ha Hb Hc Hbc|intros a Ha]; repeat rewrite Prod_unit by auto; auto; unfold unit in *; try ring; try lra; nra.
Qed.
Lemma norm_max : norm 0 (Max (A := RA)).
Proof.
  assert (C : forall a b, unit a -> unit b -> unit (Rmax a b)) by (unfold unit; intros; unfold Rmax; destruct Rle_dec; lra).
  assert (Cl : forall a b, unit (Max (A := RA) a b)) by (intros; apply bound01_unit).
  assert (U : unit 0) by (unfold unit; lra).
  split; [intros a b Ha Hb|intros a b Ha Hb|intros a b c Ha Hb Hc|intros a b c Ha Hb Hc Hbc|intros a Ha]; repeat rewrite Max_unit by auto; auto; unfold unit in *; mm.
Qed.
Lemma norm_probor : norm 0 (ProbOr (A := RA)).
Proof.
  assert (C : forall a b, unit a -> unit b -> unit (a + b - a * b)) by (exact probor_unit).
  assert (Cl : forall a b, unit (ProbOr (A := RA) a b)) by (intros; apply bound01_unit).
  assert (U : unit 0) by (unfold unit; lra).
  split; [intros a b Ha Hb|intros a b Ha Hb|intros a b c Ha Hb Hc|intros a b c Ha Hb Hc Hbc|intros a Ha]; repeat rewrite ProbOr_unit by auto; auto; unfold unit in *; try ring; try lra; assert (0 <= (1 - a) * (c - b)) by (apply Rmult_le_pos; lra); lra.
Qed.
Lemma norm_sum : norm 0 (Sum (A := RA)).
Proof.
  assert (C : forall a b, unit a -> unit b -> unit (Rmin (a + b) 1)) by (unfold unit; intros; unfold Rmin; destruct Rle_dec; lra).
  assert (Cl : forall a b, unit (Sum (A := RA) a b)) by (intros; apply bound01_unit).
  assert (U : unit 0) by (unfold unit; lra).
  split; [intros a b Ha Hb|intros a b Ha Hb|intros a b c Ha Hb Hc|intros a b c Ha Hb Hc Hbc|intros a Ha]; repeat rewrite Sum_unit by auto; auto; unfold unit in *; mm.
Qed.

(** ** Clamping in binary32 *)
Lemma bound01_unit32 o (x : binary32) : unit32 (bound01 (A := B32 o) x).
Proof.
  assert (Z0 : unit32 (lit (a := B32 o) 0 1)) by (rewrite b32_zero; split; [reflexivity|unfold unit; cbn [B2R]; lra]).
  assert (Z1 : unit32 (lit (a := B32 o) 1 1)) by (split; [rewrite b32_one; reflexivity|rewrite b32_one_R; unfold unit; lra]).
  unfold bound01, bound, inRangeCoerce. rewrite b32_isnan. change (flt (a := B32 o)) with b32_lt.
  destruct (is_nan 24 128 x) eqn:N; [exact Z0|].
  destruct (b32_lt x (lit (a := B32 o) 0 1)) eqn:L; [exact Z0|].
  destruct (b32_lt (lit (a := B32 o) 1 1) x) eqn:U; [exact Z1|]. cbn [snd].
  assert (Fx : is_finite 24 128 x = true).
  { destruct x as [s|s|s p H|s m e H]; auto; try discriminate N. rewrite b32_zero in L. rewrite b32_one in U. destruct s; cbn in L, U; discriminate. }
  split; auto. unfold unit.
  assert (F0 : is_finite 24 128 (lit (a := B32 o) 0 1) = true) by (rewrite b32_zero; reflexivity).
  assert (F1 : is_finite 24 128 (lit (a := B32 o) 1 1) = true) by (rewrite b32_one; reflexivity).
  split; apply Rnot_lt_le; intros H.
  - assert (E : b32_lt x (lit (a := B32 o) 0 1) = true); [|congruence]. apply b32_lt_R; auto.
  - assert (E : b32_lt (lit (a := B32 o) 1 1) x = true); [|congruence]. apply b32_lt_R; auto. rewrite b32_one_R. exact H.
Qed.

Lemma bound01_id32 o (x : binary32) : unit32 x -> bound01 (A := B32 o) x = x.
Proof.
  intros [Fx [H0 H1]]. unfold bound01, bound, inRangeCoerce. rewrite b32_isnan. change (flt (a := B32 o)) with b32_lt.
  assert (N : is_nan 24 128 x = false) by (destruct x; auto; discriminate Fx). rewrite N.
  assert (F0 : is_finite 24 128 (lit (a := B32 o) 0 1) = true) by (rewrite b32_zero; reflexivity).
  assert (F1 : is_finite 24 128 (lit (a := B32 o) 1 1) = true) by (rewrite b32_one; reflexivity).
  destruct (b32_lt x (lit (a := B32 o) 0 1)) eqn:L.
  { apply b32_lt_R in L; auto. rewrite b32_zero in L. cbn [B2R] in L. lra. }
  destruct (b32_lt (lit (a := B32 o) 1 1) x) eqn:U; [|reflexivity].
  apply b32_lt_R in U; auto. rewrite b32_one_R in U. lra.
Qed.
