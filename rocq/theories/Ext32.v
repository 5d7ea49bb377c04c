(** The order of binary32, infinities included, as an order of real numbers. *)
From Coq Require Import ZArith Reals Lra Bool.
From Flocq Require Import Core IEEE754.BinarySingleNaN IEEE754.Binary IEEE754.Bits.
From Verif Require Import Arith ArithLemmas.
Open Scope R_scope.

(** The value of a float, with the infinities at +-2^128. *)
Definition ext32 (x : binary32) : R :=
  match x with B754_infinity _ _ s => if s then - bpow radix2 128 else bpow radix2 128 | _ => B2R 24 128 x end.

Lemma ext32_finite x : is_finite 24 128 x = true -> ext32 x = B2R 24 128 x.
Proof. destruct x; auto; discriminate. Qed.
Lemma ext32_bounds x : - bpow radix2 128 <= ext32 x <= bpow radix2 128.
Proof.
  assert (P : 0 < bpow radix2 128) by apply bpow_gt_0.
  destruct (is_finite 24 128 x) eqn:E.
  - rewrite ext32_finite by auto. pose proof (abs_B2R_lt_emax 24 128 x) as H. apply Rabs_def2 in H. lra.
  - destruct x as [s|s|s p H|s m e H]; try discriminate; cbn [ext32 B2R]; try destruct s; lra.
Qed.

Lemma ext32_compare x y : is_nan 24 128 x = false -> is_nan 24 128 y = false ->
  b32_compare x y = Some (Rcompare (ext32 x) (ext32 y)).
Proof.
  intros Hx Hy. unfold b32_compare.
  assert (P : 0 < bpow radix2 128) by apply bpow_gt_0.
  destruct (is_finite 24 128 x) eqn:Ex, (is_finite 24 128 y) eqn:Ey.
  - rewrite !ext32_finite by auto. apply Bcompare_correct; auto.
  - rewrite (ext32_finite x) by auto. pose proof (abs_B2R_lt_emax 24 128 x) as B. apply Rabs_def2 in B.
    destruct y as [s|s|s p H|s m e H]; try discriminate. cbn [ext32].
    destruct x as [s'|s'|s' p' H'|s' m' e' H']; try discriminate; (destruct s; [transitivity (Some Gt); [destruct s'; reflexivity|apply f_equal; symmetry; apply Rcompare_Gt; lra]|transitivity (Some Lt); [destruct s'; reflexivity|apply f_equal; symmetry; apply Rcompare_Lt; lra]]).
  - rewrite (ext32_finite y) by auto. pose proof (abs_B2R_lt_emax 24 128 y) as B. apply Rabs_def2 in B.
    destruct x as [s|s|s p H|s m e H]; try discriminate. cbn [ext32].
    destruct y as [s'|s'|s' p' H'|s' m' e' H']; try discriminate; (destruct s; [transitivity (Some Lt); [destruct s'; reflexivity|apply f_equal; symmetry; apply Rcompare_Lt; lra]|transitivity (Some Gt); [destruct s'; reflexivity|apply f_equal; symmetry; apply Rcompare_Gt; lra]]).
  - destruct x as [s|s|s p H|s m e H]; try discriminate. destruct y as [s'|s'|s' p' H'|s' m' e' H']; try discriminate. cbn [ext32].
    destruct s, s'; (transitivity (Some Eq); [reflexivity|apply f_equal; symmetry; apply Rcompare_Eq; lra]) ||
      (transitivity (Some Lt); [reflexivity|apply f_equal; symmetry; apply Rcompare_Lt; lra]) || (transitivity (Some Gt); [reflexivity|apply f_equal; symmetry; apply Rcompare_Gt; lra]).
Qed.

Lemma b32_lt_ext x y : is_nan 24 128 x = false -> is_nan 24 128 y = false -> b32_lt x y = true <-> ext32 x < ext32 y.
Proof.
  intros Hx Hy. unfold b32_lt. rewrite ext32_compare by auto. destruct (Rcompare_spec (ext32 x) (ext32 y)); split; intros; auto; try discriminate; lra.
Qed.
Lemma b32_le_ext x y : is_nan 24 128 x = false -> is_nan 24 128 y = false -> b32_le x y = true <-> ext32 x <= ext32 y.
Proof.
  intros Hx Hy. unfold b32_le. rewrite ext32_compare by auto. destruct (Rcompare_spec (ext32 x) (ext32 y)); split; intros; auto; try discriminate; lra.
Qed.
Lemma b32_lt_nan x y : b32_lt x y = true -> is_nan 24 128 x = false /\ is_nan 24 128 y = false.
Proof.
  unfold b32_lt. intros H. destruct (b32_compare x y) as [c|] eqn:C; [|discriminate].
  assert (N : b32_compare x y <> None) by congruence. rewrite b32_compare_nan in N.
  destruct (is_nan 24 128 x), (is_nan 24 128 y); auto; exfalso; auto.
Qed.
Lemma b32_le_nan x y : b32_le x y = true -> is_nan 24 128 x = false /\ is_nan 24 128 y = false.
Proof.
  unfold b32_le. intros H. destruct (b32_compare x y) as [c|] eqn:C; [|discriminate].
  assert (N : b32_compare x y <> None) by congruence. rewrite b32_compare_nan in N.
  destruct (is_nan 24 128 x), (is_nan 24 128 y); auto; exfalso; auto.
Qed.
