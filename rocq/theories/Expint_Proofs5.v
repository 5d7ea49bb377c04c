(** The series of the exponential integral in binary32, positive arguments. *)
From Coq Require Import ZArith Reals Lra Lia Psatz Bool.
From Flocq Require Import Core IEEE754.BinarySingleNaN IEEE754.Binary IEEE754.Bits.
From Verif Require Import Base BaseLemmas Arith Ext32 Bits32 Ffmath_Model Ffmath2_Model Ffmath4_Model Ffmath_Spec Ffmath_Proofs Ffmath_Proofs2 Ffmath_Proofs3 Float32 Ffmath_Proofs4 Ffmath_Proofs7 Ffmath_Proofs8 Ffmath_Proofs9 FloatApp Ffmath_Proofs12 Ffmath_Proofs13 Ffmath_Proofs14 Ffmath_Proofs15 Ffmath_Proofs16 Ellint_Proofs3 Expint_Spec Expint_Proofs Expint_Proofs2 Expint_Proofs3 Expint_Proofs4.
Open Scope R_scope.

Definition wide (v : R) : Prop := / 100000000000000000000000000000 <= v <= 100000000000000000000000000000.
Lemma wide_add x y v w d k : near x v d -> near y w d -> 0 <= d <= / 10 -> wide (v + w) -> d + u32 + d * u32 <= k -> near (x + y)%b32 (v + w) k.
Proof.
  intros (Fx & Hx) (Fy & Hy) Hd (L & U) Hk. assert (S : (v + w) * (1 - d) <= valR x + valR y <= (v + w) * (1 + d)) by lra.
  assert (B : 0 <= valR x + valR y <= 1000000000000000000000000000000) by (split; nra).
  destruct (plus_R x y Fx Fy (e30_big _ B)) as (F & V). eapply near_rnd; eauto; lra.
Qed.
Lemma wide_mul x y v w d e k : near x v d -> near y w e -> 0 < v -> 0 < w -> 0 <= d <= / 100 -> 0 <= e <= / 100 -> wide (v * w) -> d + e + d * e + u32 * (1 + d + e + d * e) <= k -> near (x * y)%b32 (v * w) k.
Proof.
  intros (Fx & Hx) (Fy & Hy) Pv Pw Hd He (L & U) Hk. set (g := d + e + d * e). assert (Hg : 0 <= g <= / 10) by (unfold g; nra).
  assert (A : v * (1 - d) * (w * (1 - e)) <= valR x * valR y) by (apply Rmult_le_compat; nra). assert (B : valR x * valR y <= v * (1 + d) * (w * (1 + e))) by (apply Rmult_le_compat; nra).
  assert (Pvw : 0 < v * w) by (apply Rmult_lt_0_compat; auto). assert (0 <= v * w * (d * e)) by (apply Rmult_le_pos; [lra|nra]).
  assert (S : v * w * (1 - g) <= valR x * valR y <= v * w * (1 + g)) by (unfold g; split; lra).
  assert (Q : 0 <= valR x * valR y <= 1000000000000000000000000000000). { split; [nra|]. assert (v * w * (1 + g) <= 100000000000000000000000000000 * (11 / 10)) by (apply Rmult_le_compat; lra). lra. }
  destruct (mult_R x y Fx Fy (e30_big _ Q)) as (F & V). eapply near_rnd with (d := g); eauto; unfold g in *; lra.
Qed.
Lemma wide_div x y v w d e k : near x v d -> near y w e -> 0 < v -> 0 < w -> 0 <= d <= / 100 -> 0 <= e <= / 100 -> wide (v / w) -> d + (102 / 100 * e) * (1 + d) + u32 * (1 + d + (102 / 100 * e) * (1 + d)) <= k -> near (x / y)%b32 (v / w) k.
Proof.
  intros (Fx & Hx) (Fy & Hy) Pv Pw Hd He (L & U) Hk. set (f := 102 / 100 * e) in *. set (g := d + f * (1 + d)). assert (Hf : 0 <= f <= 2 / 100) by (unfold f; lra). assert (Hg : 0 <= g <= / 10) by (unfold g; nra).
  assert (Py : 0 < valR y) by nra. assert (I : / w * (1 - f) <= / valR y <= / w * (1 + f)).
  { assert (W : / valR y = / w * (w * / valR y)) by (field; lra). rewrite W. pose proof (Rinv_0_lt_compat _ Pw). set (r := w * / valR y). assert (R : r * valR y = w) by (unfold r; field; lra).
    assert (Pr : 0 < r) by (unfold r; apply Rmult_lt_0_compat; [lra|apply Rinv_0_lt_compat; lra]). clearbody r.
    assert (1 - f <= r <= 1 + f).
    { split; apply Rnot_lt_le; intros X.
      - assert (r * valR y <= r * (w * (1 + e))) by (apply Rmult_le_compat_l; lra). assert (r * (1 + e) < 1). { apply Rlt_le_trans with ((1 - f) * (1 + e)); [apply Rmult_lt_compat_r; lra|]. unfold f in *. nra. }
        assert (w * (r * (1 + e)) < w * 1) by (apply Rmult_lt_compat_l; lra). lra.
      - assert (r * (w * (1 - e)) <= r * valR y) by (apply Rmult_le_compat_l; lra). assert (1 < r * (1 - e)). { apply Rlt_le_trans with ((1 + f) * (1 - e) + (r - (1 + f)) * (1 - e)); [|right; ring]. assert (0 < (r - (1 + f)) * (1 - e)) by (apply Rmult_lt_0_compat; lra). assert (1 <= (1 + f) * (1 - e)) by (unfold f; nra). lra. }
        assert (w * 1 < w * (r * (1 - e))) by (apply Rmult_lt_compat_l; lra). lra. }
    split; apply Rmult_le_compat_l; lra. }
  assert (Pi : 0 < / w) by (apply Rinv_0_lt_compat; auto). set (iw := / w) in *. set (iy := / valR y) in *. unfold Rdiv in L, U |- *. fold iw in L, U |- *.
  assert (A : v * (1 - d) * (iw * (1 - f)) <= valR x * iy) by (apply Rmult_le_compat; nra). assert (B : valR x * iy <= v * (1 + d) * (iw * (1 + f))) by (apply Rmult_le_compat; nra).
  assert (Pvw : 0 < v * iw) by (apply Rmult_lt_0_compat; auto). assert (0 <= v * iw * (d * f)) by (apply Rmult_le_pos; [lra|nra]).
  assert (S : v * iw * (1 - g) <= valR x * iy <= v * iw * (1 + g)) by (unfold g; split; lra).
  assert (Q : 0 <= valR x * iy <= 1000000000000000000000000000000). { split; [nra|]. assert (v * iw * (1 + g) <= 100000000000000000000000000000 * (11 / 10)) by (apply Rmult_le_compat; lra). lra. }
  destruct (div_R x y Fx Fy ltac:(lra) (e30_big _ Q)) as (F & V). eapply near_rnd with (d := g); eauto; unfold g in *; try lra.
Qed.

(** the factorial as an integer *)
Fixpoint fZ (k : nat) : Z := match k with O => 1%Z | S m => (Z.of_nat (S m) * fZ m)%Z end.
Lemma fZ_R k : INR (fact k) = IZR (fZ k).
Proof. induction k as [|k IH]; [reflexivity|]. rewrite fact_simpl, mult_INR, IH, INR_IZR_INZ, <- mult_IZR. reflexivity. Qed.
(** by 110 terms the terms are small *)
Lemma T_110 x : 0 < x <= 3605 / 100 -> T x 110 <= x * / 10000000.
Proof.
  intros H. unfold T. rewrite fZ_R. change 110%nat with (S 109) at 1. cbn [pow]. unfold Rdiv. rewrite Rmult_assoc. apply Rmult_le_compat_l; [lra|].
  assert (B : x ^ 109 <= (3605 / 100) ^ 109) by (apply pow_incr; lra).
  assert (F : 0 < IZR (fZ 110)) by (apply IZR_lt; vm_compute; reflexivity).
  apply Rmult_le_reg_r with (IZR (fZ 110)); [exact F|]. rewrite Rmult_assoc, Rinv_l, Rmult_1_r by lra. apply Rle_trans with (1 := B).
  unfold Rdiv. rewrite Rpow_mult_distr, pow_inv by lra. rewrite !pow_IZR.
  assert (H1 : 0 < IZR (100 ^ Z.of_nat 109)) by (apply IZR_lt; vm_compute; reflexivity).
  assert (H2 : IZR (3605 ^ Z.of_nat 109) * 10000000 <= IZR (fZ 110) * IZR (100 ^ Z.of_nat 109)) by (rewrite <- !mult_IZR; apply IZR_le; vm_compute; discriminate).
  set (A := IZR (3605 ^ Z.of_nat 109)) in *. set (B2 := IZR (100 ^ Z.of_nat 109)) in *. set (C := IZR (fZ 110)) in *. clearbody A B2 C.
  apply Rmult_le_reg_r with B2; [exact H1|]. rewrite Rmult_assoc, Rinv_l by lra. lra.
Qed.
