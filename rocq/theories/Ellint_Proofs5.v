(** comp_ellint_1 in binary32. *)
From Coq Require Import ZArith Reals Lra Lia Psatz Bool.
From Flocq Require Import Core IEEE754.BinarySingleNaN IEEE754.Binary IEEE754.Bits.
From Flocq Require Sterbenz.
From Verif Require Import Base BaseLemmas Arith Ext32 Bits32 PolyBound Ffmath_Model Ffmath2_Model Ffmath4_Model Ffmath_Spec Ffmath_Proofs Ffmath_Proofs2 Ffmath_Proofs3 Float32 Ffmath_Proofs4 Ffmath_Proofs7 Ffmath_Proofs8 Ffmath_Proofs9 FloatApp Ffmath_Proofs11 Ffmath_Proofs12 Ffmath_Proofs15 Ffmath_Proofs16 Ffmath_Proofs20 Ffmath_Proofs21 Ellint_Spec Ellint_Proofs Ellint_Proofs2 Ellint_Proofs3 Ellint_Proofs4.
Open Scope R_scope.

(** The first turn, from ( 0, y, 1 ) *)
Lemma sqrt_zero : sqrt (flit 0 1) = flit 0 1. Proof. reflexivity. Qed.
Lemma rf_turn n x y z st : rf_loop (S n) x y z st =
  if b32_lt (larger (absolute (rf_z (rf_dev x y z))) (larger (absolute (rf_x (rf_dev x y z))) (absolute (rf_y (rf_dev x y z))))) (ofU 992036120) then rf_dev x y z
  else let lf := (sqrt x * (sqrt y + sqrt z) + sqrt y * sqrt z)%b32 in rf_loop n (flit 1 4 * (x + lf))%b32 (flit 1 4 * (y + lf))%b32 (flit 1 4 * (z + lf))%b32 (rf_dev x y z).
Proof. reflexivity. Qed.
Lemma start_good n y st : finite y -> / 12000000 <= valR y <= 1 ->
  let s := R_sqrt.sqrt (valR y) in let v := RF (s / 4) ((valR y + s) / 4) ((1 + s) / 4) in
  finite (rf_end (rf_loop (S (8 + n)) (flit 0 1) y (flit 1 1) st)) /\ Rabs (valR (rf_end (rf_loop (S (8 + n)) (flit 0 1) y (flit 1 1) st)) - v) <= 46 / 1000000 * v.
Proof.
  intros Fy By s v. destruct c0 as (F0 & V0). destruct c1 as (F1 & V1). destruct tol_R as (_ & Bt). pose proof u32_v as U.
  assert (Bs : 28 / 100000 <= s <= 1). { unfold s. split; [rewrite <- (sqrt_square (28 / 100000)) by lra|rewrite <- (sqrt_square 1) by lra]; apply sqrt_le_1_alt; lra. }
  assert (Es : s * s = valR y) by (apply sqrt_sqrt; lra).
  rewrite rf_turn.
  destruct (devs_app (flit 0 1) y (flit 1 1)) as (N & AX & AY & AZ); auto; rewrite ?V0, ?V1; try lra. rewrite V0, V1 in N, AX, AY, AZ.
  set (D := rf_dev (flit 0 1) y (flit 1 1)) in *.
  destruct (test_ok (rf_x D) (rf_y D) (rf_z D)) as [(Et & T1 & _)|(Et & _)]; [apply AX|apply AY|apply AZ| |]; rewrite Et.
  { exfalso. destruct AX as (_ & H). unfold Rdiv in H. rewrite Rmult_0_l in H. apply Rabs_le_inv in H. pose proof (RRle_abs (valR (rf_x D))). lra. }
  rewrite sqrt_zero. cbv zeta.
  assert (Ny : near (sqrt y) s (/ 524288)) by (apply near_sqrt with 0; [apply near_self; auto|unfold inr; lra|lra|lra]).
  assert (No : near (sqrt (flit 1 1)) 1 (/ 524288)). { replace 1 with (R_sqrt.sqrt (valR (flit 1 1))) by (rewrite V1; apply sqrt_1). apply near_sqrt with 0; [apply near_self; auto|unfold inr; lra|lra|lra]. }
  assert (NP : near (sqrt y * sqrt (flit 1 1))%b32 s (388 / 100000000)) by (rewrite <- (Rmult_1_r s); apply near_mul with (/ 524288) (/ 524288); auto; try lra; unfold inr; lra).
  assert (NA : near (sqrt y + sqrt (flit 1 1))%b32 (s + 1) (2 / 1000000)) by (apply near_add with (/ 524288); auto; try lra; unfold inr; lra).
  assert (Z0 : finite (flit 0 1 * (sqrt y + sqrt (flit 1 1)))%b32 /\ valR (flit 0 1 * (sqrt y + sqrt (flit 1 1)))%b32 = 0).
  { destruct NA as (FA & _). destruct (mult_R (flit 0 1) _ F0 FA) as (Fm & Vm); [rewrite V0, Rmult_0_l, Rabs_R0; pose proof big1; lra|]. split; [exact Fm|]. rewrite Vm, V0, Rmult_0_l. apply rnd_0. }
  assert (NL : near (flit 0 1 * (sqrt y + sqrt (flit 1 1)) + sqrt y * sqrt (flit 1 1))%b32 s (42 / 10000000)).
  { rewrite <- (Rplus_0_l s). apply near_add with (388 / 100000000); auto; [split; [apply Z0|destruct Z0 as (_ & ->); lra]|lra|unfold inr; lra|lra]. }
  set (lf := (flit 0 1 * (sqrt y + sqrt (flit 1 1)) + sqrt y * sqrt (flit 1 1))%b32) in *.
  assert (Q : forall w u, finite w -> valR w = u -> 0 <= u <= 10 -> near (flit 1 4 * (w + lf))%b32 ((u + s) / 4) dstep).
  { intros w u Fw Vw Bw. apply quarter_step; auto; [apply near_le with 0; [lra|rewrite <- Vw; apply near_self; auto|lra]|lra]. }
  destruct (Q _ _ F0 V0 ltac:(lra)) as (Fx' & Bx). destruct (Q y _ Fy eq_refl ltac:(lra)) as (Fy' & By'). destruct (Q _ _ F1 V1 ltac:(lra)) as (Fz' & Bz).
  set (x' := (flit 1 4 * (flit 0 1 + lf))%b32) in *. set (y' := (flit 1 4 * (y + lf))%b32) in *. set (z' := (flit 1 4 * (flit 1 1 + lf))%b32) in *.
  rewrite Rplus_0_l in Bx. assert (DD : 0 < dstep <= / 1000) by (unfold dstep; lra).
  assert (Sp : spread 40000 (s / 4) ((valR y + s) / 4) ((1 + s) / 4)) by (unfold spread; repeat split; lra).
  assert (Sp' : spread 41000 (valR x') (valR y') (valR z')).
  { apply spread_le with (40000 * (1 + 205 / 100 * dstep)); try (unfold dstep in *; lra). apply spread_near with (s / 4) ((valR y + s) / 4) ((1 + s) / 4); auto; lra. }
  assert (RG : forall u w, s / 4 <= u <= (1 + s) / 4 -> u * (1 - dstep) <= w <= u * (1 + dstep) -> / 100000 <= w <= 5) by (intros u w Hu Hw; unfold dstep in *; lra).
  destruct (loop_good n x' y' z' D Fx' Fy' Fz' (RG (s / 4) _ ltac:(lra) Bx) (RG ((valR y + s) / 4) _ ltac:(lra) By') (RG ((1 + s) / 4) _ ltac:(lra) Bz) Sp') as (Fr & Br). split; [exact Fr|].
  assert (AB : forall v w, v * (1 - dstep) <= w <= v * (1 + dstep) -> Rabs (w - v) <= dstep * v) by (intros u w Hw; apply Rabs_le; lra).
  pose proof (RF_pert (s / 4) ((valR y + s) / 4) ((1 + s) / 4) (valR x') (valR y') (valR z') dstep ltac:(lra) ltac:(lra) ltac:(lra) ltac:(lra) (AB _ _ Bx) (AB _ _ By') (AB _ _ Bz)) as PT. fold v in PT.
  assert (Pv : 0 < v) by (apply RF_pos; lra). set (W := RF (valR x') (valR y') (valR z')) in *. set (rr := valR _) in Br |- *.
  apply Rabs_le_inv in PT. apply Rabs_le_inv in Br. apply Rabs_le. unfold dstep in *. lra.
Qed.
Lemma lo_R : finite (flit 5 1 * limMin)%b32 /\ 0 < valR (flit 5 1 * limMin)%b32 <= / 10000000000.
Proof. split; [reflexivity|]. vm_compute. lra. Qed.
Lemma plus0_l y : finite y -> Rabs (valR y) <= big -> finite (flit 0 1 + y)%b32 /\ valR (flit 0 1 + y)%b32 = valR y.
Proof. intros F B. destruct c0 as (F0 & V0). destruct (plus_R _ _ F0 F) as (Fp & Vp); [rewrite V0, Rplus_0_l; auto|]. split; [exact Fp|]. rewrite Vp, V0, Rplus_0_l. apply rnd_val. Qed.
Lemma rf_ok y : finite y -> / 12000000 <= valR y <= 1 ->
  let s := R_sqrt.sqrt (valR y) in let v := RF (s / 4) ((valR y + s) / 4) ((1 + s) / 4) in
  let r := ellint_rf (flit 0 1) y (flit 1 1) in finite r /\ Rabs (valR r - v) <= 46 / 1000000 * v.
Proof.
  intros Fy By s v r. destruct c0 as (F0 & V0). destruct c1 as (F1 & V1). destruct lo_R as (Fl & Bl). unfold r, ellint_rf. cbv zeta. set (lo := (flit 5 1 * limMin)%b32) in *.
  destruct (plus0_l y Fy) as (Fp & Vp); [apply small_big, Rabs_le; lra|]. destruct (plus0_l (flit 1 1) F1) as (Fo & Vo); [apply small_big, Rabs_le; lra|].
  destruct (plus_R y (flit 1 1) Fy F1) as (Fs & Vs); [apply small_big, Rabs_le; lra|].
  assert (Gs : 1 <= valR (y + flit 1 1)%b32). { rewrite Vs. rewrite <- V1. apply rnd_ge_val. lra. }
  rewrite (lt_f (flit 0 1) (flit 0 1)), (lt_f y (flit 0 1)), (lt_f (flit 1 1) (flit 0 1)), (lt_f (flit 0 1 + y)%b32 lo), (lt_f (flit 0 1 + flit 1 1)%b32 lo), (lt_f (y + flit 1 1)%b32 lo) by (auto; lra).
  cbn [orb]. exact (start_good 91 y (rf_dev (flit 0 1) y (flit 1 1)) Fy By).
Qed.

(** 1 - k*k *)
Lemma rnd_half_ulp c : Rabs c < 1 -> Rabs (rnd c - c) <= / 33554432.
Proof.
  intros H. apply Rle_trans with (/ 2 * ulp radix2 (FLT_exp (-149) 24) c); [apply error_le_half_ulp; apply FLT_exp_valid; reflexivity|].
  destruct (Req_dec c 0) as [->|N].
  - rewrite ulp_FLT_0 by reflexivity. replace (/ 33554432) with (/ 2 * bpow radix2 (-24)) by (change (bpow radix2 (-24)) with (/ 16777216); lra). apply Rmult_le_compat_l; [lra|]. apply bpow_le. lia.
  - rewrite ulp_neq_0 by auto. replace (/ 33554432) with (/ 2 * bpow radix2 (-24)) by (change (bpow radix2 (-24)) with (/ 16777216); lra). apply Rmult_le_compat_l; [lra|]. apply bpow_le.
    unfold cexp, FLT_exp. assert (M : (Raux.mag radix2 c <= 0)%Z) by (apply mag_le_bpow; [exact N|change (bpow radix2 0) with 1; exact H]). lia.
Qed.
Lemma below_1 x : valR x < 1 -> valR x <= 1 - / 16777216.
Proof.
  intros H. destruct (Rle_or_lt (valR x) (/ 2)) as [L|L]; [lra|].
  pose proof (format_val x) as V. unfold generic_format in V. unfold cexp in V. rewrite (mag_unique radix2 (valR x) 0) in V.
  2: { rewrite Rabs_pos_eq by lra. change (bpow radix2 (0 - 1)) with (/ 2). change (bpow radix2 0) with 1. lra. }
  change (FLT_exp (-149) 24 0) with (-24)%Z in V. unfold F2R in V. cbn [Fnum Fexp] in V. set (m := Ztrunc _) in V. clearbody m.
  change (bpow radix2 (-24)) with (/ 16777216) in *. assert (K : (m < 16777216)%Z). { apply lt_IZR. rewrite V in H. lra. }
  assert (K2 : (m <= 16777215)%Z) by lia. apply IZR_le in K2. rewrite V. lra.
Qed.
Lemma comp_arg k : finite k -> Rabs (valR k) < 1 -> let y := (flit 1 1 - k * k)%b32 in let v := 1 - valR k * valR k in
  finite y /\ / 12000000 <= valR y <= 1 /\ / 10000000 <= v <= 1 /\ exists d, Rabs (valR y - v) <= d * v /\ 0 <= d <= / 2 /\ (d <= / 33554432 / v \/ d <= / 8000000 /\ d <= / 16777216 / v).
Proof.
  intros F H y v. destruct c1 as (F1 & V1). set (a := Rabs (valR k)). assert (Pa : 0 <= a) by apply Rabs_pos. destruct (abs_R k F) as (Fa & Va).
  assert (La : a <= 1 - / 16777216) by (unfold a; rewrite <- Va; apply below_1; rewrite Va; auto).
  assert (E : valR k * valR k = a * a) by (unfold a; rewrite <- Rabs_mult; symmetry; apply Rabs_pos_eq; apply Rle_0_sqr).
  unfold v. rewrite E. assert (La2 : a * a <= (1 - / 16777216) * (1 - / 16777216)) by (apply Rmult_le_compat; lra). assert (P2 : 0 <= a * a) by nra.
  destruct (mult_R k k F F) as (Fc & Vc); [apply small_big; rewrite E; apply Rabs_le; lra|]. rewrite E in Vc. set (c := (k * k)%b32) in *.
  pose proof (rnd_half_ulp (a * a) ltac:(rewrite Rabs_pos_eq; lra)) as Ec. rewrite <- Vc in Ec. apply Rabs_le_inv in Ec.
  assert (Pc : 0 <= valR c) by (rewrite Vc; apply rnd_nonneg; lra).
  destruct (minus_R (flit 1 1) c F1 Fc) as (Fy & Vy); [rewrite V1; apply small_big, Rabs_le; lra|]. rewrite V1 in Vy. split; [exact Fy|].
  destruct (Rle_or_lt (/ 2) (valR c)) as [L|L].
  - assert (X : valR y = 1 - valR c). { unfold y. rewrite Vy. apply rnd_fmt. rewrite <- V1. apply Sterbenz.sterbenz; [apply FLT_exp_valid; reflexivity|apply FLT_exp_monotone|apply format_val|apply format_val|lra]. }
    rewrite X. split; [lra|]. split; [lra|]. exists (/ 33554432 / (1 - a * a)). assert (Pv : 0 < 1 - a * a) by lra.
    split; [apply Rabs_le; unfold Rdiv; rewrite Rmult_assoc, Rinv_l by lra; lra|]. split; [|left; lra].
    split; [apply Rmult_le_pos; [lra|left; apply Rinv_0_lt_compat; auto]|]. apply Rmult_le_reg_r with (1 - a * a); auto. unfold Rdiv. rewrite Rmult_assoc, Rinv_l by lra. lra.
  - assert (Ey : Rabs (valR y - (1 - valR c)) <= / 33554432 \/ valR y = 1 - valR c).
    { destruct (Req_dec (valR c) 0) as [Z|Z]; [right; unfold y; rewrite Vy, Z, Rminus_0_r; rewrite <- V1; apply rnd_val|left; unfold y; rewrite Vy; apply rnd_half_ulp; rewrite Rabs_pos_eq; lra]. }
    assert (Ey' : - / 33554432 <= valR y - (1 - valR c) <= / 33554432) by (destruct Ey as [Ey| ->]; [apply Rabs_le_inv; exact Ey|lra]).
    assert (U1 : valR y <= 1) by (unfold y; rewrite Vy; rewrite <- V1; apply rnd_le_val; lra).
    split; [lra|]. split; [lra|]. exists (/ 16777216 / (1 - a * a)). assert (Pv : 499 / 1000 < 1 - a * a) by lra. set (w := 1 - a * a) in *.
    assert (Dw : / 16777216 / w * w = / 16777216) by (field; lra).
    split; [apply Rabs_le; rewrite Dw; unfold w; lra|]. assert (0 <= / 16777216 / w) by (apply Rmult_le_pos; [lra|left; apply Rinv_0_lt_compat; lra]). set (d := / 16777216 / w) in *.
    assert (d <= / 8000000) by nra. split; [lra|]. right. lra.
Qed.
Lemma comp_ellint_1_ok k : finite k -> Rabs (valR k) < 1 ->
  finite (comp_ellint_1 k) /\ Rabs (valR (comp_ellint_1 k) - complete_first_kind (valR k)) <= (/ 16384 + / 16777216 / (1 - valR k * valR k)) * complete_first_kind (valR k).
Proof.
  intros F H. destruct c1 as (F1 & V1). destruct (abs_R k F) as (Fa & Va).
  assert (E : comp_ellint_1 k = ellint_rf (flit 0 1) (flit 1 1 - k * k)%b32 (flit 1 1)).
  { unfold comp_ellint_1. rewrite isNan_ok, fin_nan by auto. cbn [orb]. rewrite (le_f (flit 1 1) (absolute k)) by (auto; lra). reflexivity. }
  rewrite E. destruct (comp_arg k F H) as (Fy & By & Bv & d & Dy & Bd & Cd). set (y := (flit 1 1 - k * k)%b32) in *.
  assert (Kp : valR k * valR k < 1) by lra. rewrite complete_is_RF by exact Kp. set (v := 1 - valR k * valR k) in *.
  destruct (rf_ok y Fy By) as (Fr & Br). split; [exact Fr|]. set (r := valR (ellint_rf (flit 0 1) y (flit 1 1))) in *.
  set (s := R_sqrt.sqrt (valR y)) in *. set (t := R_sqrt.sqrt v). assert (Pt : 0 < t) by (apply sqrt_lt_R0; lra). assert (Et : t * t = v) by (apply sqrt_sqrt; lra). assert (Es : s * s = valR y) by (apply sqrt_sqrt; lra). assert (Ps : 0 <= s) by apply sqrt_pos.
  assert (Ds : Rabs (s - t) <= d * t).
  { apply Rabs_le_inv in Dy. rewrite <- Es, <- Et in Dy. clearbody s t. apply Rabs_le. split; apply Rnot_lt_le; intros X.
    - assert (s * s < (t * (1 - d)) * (t * (1 - d))) by (apply Rmult_le_0_lt_compat; lra). assert ((t * (1 - d)) * (t * (1 - d)) <= t * t * (1 - d)) by (replace ((t * (1 - d)) * (t * (1 - d))) with (t * t * ((1 - d) * (1 - d))) by ring; apply Rmult_le_compat_l; nra). lra.
    - assert (0 <= t * (1 + d)) by nra. assert ((t * (1 + d)) * (t * (1 + d)) < s * s) by (apply Rmult_le_0_lt_compat; lra). assert (t * t * (1 + d) <= (t * (1 + d)) * (t * (1 + d))) by (replace ((t * (1 + d)) * (t * (1 + d))) with (t * t * ((1 + d) * (1 + d))) by ring; apply Rmult_le_compat_l; nra). lra. }
  assert (PT : Rabs (RF (s / 4) ((valR y + s) / 4) ((1 + s) / 4) - RF (t / 4) ((v + t) / 4) ((1 + t) / 4)) <= d * RF (t / 4) ((v + t) / 4) ((1 + t) / 4)).
  { apply Rabs_le_inv in Dy. apply Rabs_le_inv in Ds. apply RF_pert; try lra; apply Rabs_le; lra. }
  set (W := RF (s / 4) ((valR y + s) / 4) ((1 + s) / 4)) in *. set (V := RF (t / 4) ((v + t) / 4) ((1 + t) / 4)) in *. assert (PV : 0 < V) by (apply RF_pos; lra).
  apply Rabs_le_inv in PT. apply Rabs_le_inv in Br. set (D := / 16777216 / v) in *. assert (ED : / 33554432 / v = D / 2) by (unfold D; field; lra). rewrite ED in Cd.
  assert (K : d + 46 / 1000000 * (1 + d) <= / 16384 + D) by (destruct Cd as [Cd|(Cd & Cd')]; lra).
  assert ((d + 46 / 1000000 * (1 + d)) * V <= (/ 16384 + D) * V) by (apply Rmult_le_compat_r; lra). apply Rabs_le. lra.
Qed.
