(** Carlson's duplication loop in binary32: one turn, and the series at the end. *)
From Coq Require Import ZArith Reals Lra Lia Psatz Bool.
From Flocq Require Import Core IEEE754.BinarySingleNaN IEEE754.Binary IEEE754.Bits.
From Verif Require Import Base BaseLemmas Arith Ext32 Bits32 PolyBound Ffmath_Model Ffmath2_Model Ffmath4_Model Ffmath_Spec Ffmath_Proofs Ffmath_Proofs2 Ffmath_Proofs3 Float32 Ffmath_Proofs4 Ffmath_Proofs7 Ffmath_Proofs8 Ffmath_Proofs9 FloatApp Ffmath_Proofs11 Ffmath_Proofs12 Ffmath_Proofs15 Ffmath_Proofs16 Ffmath_Proofs20 Ffmath_Proofs21 Ellint_Proofs Ellint_Proofs2.
Open Scope R_scope.

(** x is finite and within the relative error d of the positive v *)
Definition near (x : float) (v d : R) : Prop := finite x /\ v * (1 - d) <= valR x <= v * (1 + d).
Definition inr (v : R) : Prop := / 1000000000000 <= v <= 1000000000000.
Lemma u32_v : u32 = / 16777216. Proof. apply u32_val. Qed.
Lemma rnd_pos v : / 1000000000000000000000000000000 <= v -> exists e, - u32 <= e <= u32 /\ rnd v = v * (1 + e).
Proof.
  intros H. destruct (rnd_rel v) as (e & He & E).
  { rewrite Rabs_pos_eq by lra. apply Rle_trans with (2 := H). change (bpow radix2 (-126)) with (/ IZR (2 ^ 126)). apply Rinv_le; [lra|]. apply IZR_le. vm_compute. discriminate. }
  exists e. split; [|exact E]. apply Rabs_le_inv. exact He.
Qed.
Lemma e30_big v : 0 <= v <= 1000000000000000000000000000000 -> Rabs v <= big.
Proof. intros H. rewrite Rabs_pos_eq by lra. pose proof huge_ok. unfold huge in *. lra. Qed.
Lemma near_self x : finite x -> near x (valR x) 0. Proof. intros F. split; [auto|lra]. Qed.
Lemma near_le x v d d' : 0 <= v -> near x v d -> d <= d' -> near x v d'.
Proof. intros Hv (F & H) L. split; auto. assert (v * d <= v * d') by (apply Rmult_le_compat_l; auto). lra. Qed.
Lemma near_rnd x w v d k : finite x -> valR x = rnd w -> 0 < v -> 0 <= d <= / 10 -> / 100000000000000000000000000000 <= v -> v * (1 - d) <= w <= v * (1 + d) -> d + u32 + d * u32 <= k -> near x v k.
Proof.
  intros F V Pv Hd Lv Hw Hk. assert (0 <= v * d <= v * / 10) by (split; nra). destruct (rnd_pos w) as (e & He & E); [lra|]. split; [exact F|]. rewrite V, E. pose proof u32_v.
  assert (Pu : 0 <= u32 <= / 10) by lra. assert (W : 0 < w) by nra.
  assert (w * (1 - u32) <= w * (1 + e) <= w * (1 + u32)) by (split; apply Rmult_le_compat_l; lra).
  assert (v * (1 - d) * (1 - u32) <= w * (1 - u32)) by (apply Rmult_le_compat_r; lra). assert (w * (1 + u32) <= v * (1 + d) * (1 + u32)) by (apply Rmult_le_compat_r; lra).
  assert (v * (d + u32 + d * u32) <= v * k) by (apply Rmult_le_compat_l; lra). assert (0 <= v * (d * u32)) by (apply Rmult_le_pos; [lra|nra]). split; nra.
Qed.
Lemma near_add x y v w d k : near x v d -> near y w d -> 0 <= d <= / 10 -> inr (v + w) -> d + u32 + d * u32 <= k -> near (x + y)%b32 (v + w) k.
Proof.
  intros (Fx & Hx) (Fy & Hy) Hd (L & U) Hk. assert (S : (v + w) * (1 - d) <= valR x + valR y <= (v + w) * (1 + d)) by lra.
  assert (B : 0 <= valR x + valR y <= 1000000000000000000000000000000) by (split; nra).
  destruct (plus_R x y Fx Fy (e30_big _ B)) as (F & V). eapply near_rnd; eauto; lra.
Qed.
Lemma near_mul x y v w d e k : near x v d -> near y w e -> 0 < v -> 0 < w -> 0 <= d <= / 100 -> 0 <= e <= / 100 -> inr (v * w) -> d + e + d * e + u32 * (1 + d + e + d * e) <= k -> near (x * y)%b32 (v * w) k.
Proof.
  intros (Fx & Hx) (Fy & Hy) Pv Pw Hd He (L & U) Hk. set (g := d + e + d * e). assert (Hg : 0 <= g <= / 10) by (unfold g; nra).
  assert (A : v * (1 - d) * (w * (1 - e)) <= valR x * valR y) by (apply Rmult_le_compat; nra). assert (B : valR x * valR y <= v * (1 + d) * (w * (1 + e))) by (apply Rmult_le_compat; nra).
  assert (Pvw : 0 < v * w) by (apply Rmult_lt_0_compat; auto). assert (0 <= v * w * (d * e)) by (apply Rmult_le_pos; [lra|nra]).
  assert (S : v * w * (1 - g) <= valR x * valR y <= v * w * (1 + g)) by (unfold g; split; lra).
  assert (Q : 0 <= valR x * valR y <= 1000000000000000000000000000000). { split; [nra|]. assert (v * w * (1 + g) <= 1000000000000 * (11 / 10)) by (apply Rmult_le_compat; lra). lra. }
  destruct (mult_R x y Fx Fy (e30_big _ Q)) as (F & V). eapply near_rnd with (d := g); eauto; unfold g in *; lra.
Qed.
Lemma near_div x y v w d e k : near x v d -> near y w e -> 0 < v -> 0 < w -> 0 <= d <= / 100 -> 0 <= e <= / 100 -> inr (v / w) -> d + (102 / 100 * e) * (1 + d) + u32 * (1 + d + (102 / 100 * e) * (1 + d)) <= k -> near (x / y)%b32 (v / w) k.
Proof.
  intros (Fx & Hx) (Fy & Hy) Pv Pw Hd He (L & U) Hk. set (f := 102 / 100 * e) in *. set (g := d + f * (1 + d)). assert (Hf : 0 <= f <= 2 / 100) by (unfold f; lra). assert (Hg : 0 <= g <= / 10) by (unfold g; nra).
  assert (Py : 0 < valR y) by nra. assert (I : / w * (1 - f) <= / valR y <= / w * (1 + f)).
  { assert (W : / valR y = / w * (w * / valR y)) by (field; lra). rewrite W. pose proof (Rinv_0_lt_compat _ Pw). set (r := w * / valR y). assert (R : r * valR y = w) by (unfold r; field; lra).
    assert (Pr : 0 < r) by (unfold r; apply Rmult_lt_0_compat; [lra|apply Rinv_0_lt_compat; lra]). clearbody r.
    assert (1 - f <= r <= 1 + f).
    { split; apply Rnot_lt_le; intros X.
      - assert (r * valR y <= r * (w * (1 + e))) by (apply Rmult_le_compat_l; lra). assert (r * (1 + e) < 1). { apply Rlt_le_trans with ((1 - f) * (1 + e)); [apply Rmult_lt_compat_r; lra|]. unfold f in *. nra. }
        assert (w * (r * (1 + e)) < w * 1) by (apply Rmult_lt_compat_l; lra). lra.
      - assert (r * (w * (1 - e)) <= r * valR y) by (apply Rmult_le_compat_l; lra). assert (1 < r * (1 - e)). { apply Rlt_le_trans with ((1 + f) * (1 - e) + (r - (1 + f)) * (1 - e)); [|right; ring]. assert (0 < (r - (1 + f)) * (1 - e)) by (apply Rmult_lt_0_compat; lra). assert (1 <= (1 + f) * (1 - e)) by (unfold f; nra). lra. }
        assert (w * 1 < w * (r * (1 - e))) by (apply Rmult_lt_compat_l; lra). lra. }
    split; apply Rmult_le_compat_l; lra. }
  assert (Pi : 0 < / w) by (apply Rinv_0_lt_compat; auto). set (iw := / w) in *. set (iy := / valR y) in *. unfold Rdiv in L, U |- *. fold iw in L, U |- *.
  assert (A : v * (1 - d) * (iw * (1 - f)) <= valR x * iy) by (apply Rmult_le_compat; nra). assert (B : valR x * iy <= v * (1 + d) * (iw * (1 + f))) by (apply Rmult_le_compat; nra).
  assert (Pvw : 0 < v * iw) by (apply Rmult_lt_0_compat; auto). assert (0 <= v * iw * (d * f)) by (apply Rmult_le_pos; [lra|nra]).
  assert (S : v * iw * (1 - g) <= valR x * iy <= v * iw * (1 + g)) by (unfold g; split; lra).
  assert (Q : 0 <= valR x * iy <= 1000000000000000000000000000000). { split; [nra|]. assert (v * iw * (1 + g) <= 1000000000000 * (11 / 10)) by (apply Rmult_le_compat; lra). lra. }
  destruct (div_R x y Fx Fy ltac:(lra) (e30_big _ Q)) as (F & V). eapply near_rnd with (d := g); eauto; unfold g in *; try lra.
Qed.
Lemma near_sqrt x v d k : near x v d -> inr v -> 0 <= d <= / 100 -> d + / 524288 * (1 + d) <= k -> near (sqrt x) (R_sqrt.sqrt v) k.
Proof.
  intros (F & H) (L & U) Hd Hk. assert (Lx : / 10000000000000 <= valR x) by nra.
  assert (N : is_normal x). { apply normal_ge with (/ 10000000000000); auto. change (bpow radix2 (-126)) with (/ IZR (2 ^ 126)). apply Rinv_le; [lra|]. apply IZR_le. vm_compute. discriminate. }
  destruct (sqrt_accurate x N ltac:(lra)) as (Fs & As). split; [exact Fs|]. change (bpow radix2 (-19)) with (/ 524288) in As. apply Rabs_le_inv in As.
  set (s := R_sqrt.sqrt (valR x)) in *. assert (Pv : 0 < R_sqrt.sqrt v) by (apply sqrt_lt_R0; lra). set (r := R_sqrt.sqrt v) in *.
  assert (S : r * (1 - d) <= s <= r * (1 + d)).
  { assert (Q : r * r = v) by (apply sqrt_sqrt; lra). assert (P : s * s = valR x) by (apply sqrt_sqrt; lra). assert (0 <= s) by apply sqrt_pos. clearbody r s. subst v. rewrite <- P in H. split; apply Rnot_lt_le; intros X.
    - assert (s * s < (r * (1 - d)) * (r * (1 - d))) by (apply Rmult_le_0_lt_compat; lra). assert ((r * (1 - d)) * (r * (1 - d)) <= r * r * (1 - d)) by (replace ((r * (1 - d)) * (r * (1 - d))) with (r * r * ((1 - d) * (1 - d))) by ring; apply Rmult_le_compat_l; nra). lra.
    - assert (0 <= r * (1 + d)) by nra. assert ((r * (1 + d)) * (r * (1 + d)) < s * s) by (apply Rmult_le_0_lt_compat; lra). assert (r * r * (1 + d) <= (r * (1 + d)) * (r * (1 + d))) by (replace ((r * (1 + d)) * (r * (1 + d))) with (r * r * ((1 + d) * (1 + d))) by ring; apply Rmult_le_compat_l; nra). lra. }
  assert (r * (d + / 524288 * (1 + d)) <= r * k) by (apply Rmult_le_compat_l; lra).
  assert (0 <= r * d) by nra. split; nra.
Qed.
