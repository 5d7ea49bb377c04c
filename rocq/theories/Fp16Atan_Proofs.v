(** Accuracy of the inverse tangent of Q16.16 numbers (C124). *)
From Coq Require Import ZArith Reals Lra Lia Bool List Psatz.
From Coquelicot Require Import Coquelicot.
From Verif Require Import Base BaseLemmas Fp16_Model Fp16_Spec Fp16_Proofs Fp16_Proofs2 Fp16Fun_Spec Fp16Fun_Proofs Fp16Fun_Proofs2 Fp16Fun_Proofs6 PolyBound TrigBound.
Import ListNotations.
Open Scope R_scope.

Local Notation ratan := Ratan.atan.
Local Notation cos := Rtrigo_def.cos.
Local Notation sin := Rtrigo_def.sin.
Local Notation tan := Rtrigo1.tan.
Local Notation u := (/ 131072).
Definition cA : R := 64336 / 65536.
Definition cB : R := 12864 / 65536.

Lemma cubic r : -1 <= r <= 1 -> Rabs (ratan r - cA * r + cB * r ^ 3) <= 0.01022.
Proof.
  intros H. pose proof (atan_p_ok r H) as A.
  assert (C : Rabs (pe [0; 5079617235; 0; -37778982780; 0; 53046411264; 0; -30623662080; 0; 12918456320; 0; -2642411520]%Z r) <= IZR 2826409756).
  { apply check_ok with (n := 14%nat) (s := 1024%Z) (a := (-1024)%Z) (b := 1024%Z); [discriminate|vm_compute; reflexivity|lra]. }
  assert (E : pe [0; 5079617235; 0; -37778982780; 0; 53046411264; 0; -30623662080; 0; 12918456320; 0; -2642411520]%Z r = 278189936640 * (atan_p r - cA * r + cB * r ^ 3)) by (unfold atan_p, cA, cB; cbn [pe]; field).
  rewrite E in C. clear E. set (k := cA * r) in *. set (m := cB * r ^ 3) in *. apply Rabs_le_between in C. apply Rabs_le_between in A. apply Rabs_le. lra.
Qed.

Lemma atan_lip a b : Rabs (ratan a - ratan b) <= Rabs (a - b).
Proof.
  destruct (MVT_gen ratan b a (fun x => / (1 + x ^ 2))) as (c & _ & E).
  - intros x _. auto_derive; auto. field. nra.
  - intros x _. apply continuity_pt_filterlim. apply (ex_derive_continuous ratan). auto_derive; auto.
  - rewrite E, Rabs_mult. pose proof (Rabs_pos (a - b)). assert (0 < / (1 + c ^ 2) <= 1). { pose proof (pow2_ge_0 c). split; [apply Rinv_0_lt_compat; lra|]. rewrite <- Rinv_1. apply Rinv_le_contravar; lra. }
    rewrite Rabs_pos_eq by lra. nra.
Qed.

Lemma core r : (Z.abs r <= 65536)%Z -> exists rr r3 p q, mul r r = Ok rr /\ mul rr r = Ok r3 /\ mul 12864 r3 = Ok p /\ mul 64336 r = Ok q /\
  Rabs (fxR p - fxR q + ratan (fxR r)) <= 0.01022 + 2.5 * u /\ Rabs (fxR p - fxR q) <= 2.
Proof.
  intros H. pose proof (fx_abs _ _ H) as F. replace (65536 / 65536) with 1 in F by field. set (x := fxR r) in *.
  assert (Rr : raw r) by (apply fx_raw; fold x; lra).
  destruct (mul_fx r r) as (rr & E1 & V1 & _); [assumption|assumption|apply safe_fx; fold x; lra|fold x; rewrite Rabs_mult; pose proof (Rabs_pos x); nra|]. fold x in V1.
  assert (B1 : Rabs (x * x) <= 1) by (rewrite Rabs_mult; pose proof (Rabs_pos x); nra). pose proof (rab _ _ _ V1) as A1.
  destruct (mul_fx rr r) as (r3 & E2 & V2 & _); [apply fx_raw; lra|assumption|apply safe_fx; fold x; lra|fold x; rewrite Rabs_mult; pose proof (Rabs_pos x); pose proof (Rabs_pos (fxR rr)); nra|]. fold x in V2.
  assert (W2 : Rabs (fxR r3 - x ^ 3) <= 2 * u).
  { replace (fxR r3 - x ^ 3) with ((fxR r3 - fxR rr * x) + (fxR rr - x * x) * x) by ring. eapply Rle_trans; [apply Rabs_triang|]. rewrite Rabs_mult. pose proof (Rabs_pos x). pose proof (Rabs_pos (fxR rr - x * x)). nra. }
  assert (B2 : Rabs (x ^ 3) <= 1) by (rewrite <- RPow_abs; rewrite <- (pow1 3); apply pow_incr; pose proof (Rabs_pos x); lra). pose proof (rab _ _ _ W2) as A2.
  assert (FB : fxR 12864 = cB) by reflexivity. assert (FA : fxR 64336 = cA) by reflexivity.
  assert (QB : 0 < cB < 0.2) by (unfold cB; lra). assert (QA : 0 < cA < 1) by (unfold cA; lra).
  destruct (mul_fx 12864 r3) as (p & E3 & V3 & _); [unfold raw; lia|apply fx_raw; lra|apply safe_fx; rewrite FB, Rabs_pos_eq; lra|rewrite FB, Rabs_mult, (Rabs_pos_eq cB) by lra; pose proof (Rabs_pos (fxR r3)); nra|]. rewrite FB in V3.
  destruct (mul_fx 64336 r) as (q & E4 & V4 & _); [unfold raw; lia|assumption|apply safe_fx; rewrite FA; fold x; rewrite Rabs_pos_eq; lra|rewrite FA; fold x; rewrite Rabs_mult, (Rabs_pos_eq cA) by lra; pose proof (Rabs_pos x); nra|]. rewrite FA in V4. fold x in V4.
  exists rr, r3, p, q. repeat split; try assumption.
  - pose proof (cubic x ltac:(apply Rabs_le_between in F; lra)) as C.
    replace (fxR p - fxR q + ratan x) with ((fxR p - cB * fxR r3) - (fxR q - cA * x) + cB * (fxR r3 - x ^ 3) + (ratan x - cA * x + cB * x ^ 3)) by ring.
    assert (Rabs (cB * (fxR r3 - x ^ 3)) <= 0.4 * u) by (rewrite Rabs_mult, (Rabs_pos_eq cB) by lra; pose proof (Rabs_pos (fxR r3 - x ^ 3)); nra).
    set (k1 := cB * (fxR r3 - x ^ 3)) in *. set (k2 := ratan x - cA * x + cB * x ^ 3) in *. apply Rabs_le_between in V3, V4, H0, C. apply Rabs_le. lra.
  - assert (Rabs (cB * fxR r3) <= 0.3) by (rewrite Rabs_mult, (Rabs_pos_eq cB) by lra; pose proof (Rabs_pos (fxR r3)); nra).
    assert (Rabs (cA * x) <= 1) by (rewrite Rabs_mult, (Rabs_pos_eq cA) by lra; pose proof (Rabs_pos x); nra).
    apply Rabs_le_between in V3, V4, H0, H1. apply Rabs_le. lra.
Qed.

(** the quotient *)
Lemma quot_ok n d : raw n -> raw d -> (Z.abs n <= d)%Z -> (0 < d)%Z -> exists r, div n d = Ok r /\ (Z.abs r <= 65536)%Z /\ Rabs (fxR r - IZR n / IZR d) <= u.
Proof.
  intros Hn Hd H D. assert (P : 0 < IZR d) by (apply IZR_lt; exact D).
  assert (E : fxR n / fxR d = IZR n / IZR d) by (unfold fxR; field; lra).
  assert (B : Rabs (IZR n / IZR d) <= 1). { unfold Rdiv. rewrite Rabs_mult, <- abs_IZR, (Rabs_pos_eq (/ _)) by (left; apply Rinv_0_lt_compat; exact P). apply Rmult_le_reg_r with (IZR d); [exact P|]. rewrite Rmult_assoc, Rinv_l, Rmult_1_r, Rmult_1_l by lra. apply IZR_le; exact H. }
  destruct (div_fx n d) as (r & E1 & V & _); [assumption|assumption|lia|unfold sentinel, raw in *; lia|unfold sentinel; lia|rewrite E; lra|].
  rewrite E in V. exists r. split; [exact E1|]. split; [|exact V].
  pose proof (rab _ _ _ V) as A. unfold fxR, Rdiv in A. rewrite Rabs_mult, <- abs_IZR, (Rabs_pos_eq (/ 65536)) in A by lra.
  assert (IZR (Z.abs r) < 65537) by lra. apply lt_IZR in H0. lia.
Qed.

(** the polar angle from the quotients *)
Lemma angle_q1 x y t r : 0 <= t <= PI / 2 -> 0 < r -> x = r * cos t -> y = r * sin t -> t = PI / 4 - ratan ((x - y) / (x + y)).
Proof.
  intros T P -> ->. pose proof PI_RGT_0.
  assert (S0 : 0 <= sin t) by (apply sin_ge_0; lra). assert (C0 : 0 <= cos t) by (apply cos_ge_0; lra). pose proof (sin2_cos2 t) as SC. unfold Rsqr in SC.
  assert (N : 0 < cos t + sin t) by nra.
  assert (Q : tan (PI / 4 - t) = (r * cos t - r * sin t) / (r * cos t + r * sin t)).
  { unfold tan. rewrite sin_minus, cos_minus, sin_PI4, cos_PI4. pose proof Rlt_sqrt2_0. field. repeat split; nra. }
  rewrite <- Q, atan_tan by lra. ring.
Qed.
Lemma angle_q2 x y t r : PI / 2 <= t <= PI -> 0 < r -> x = r * cos t -> y = r * sin t -> t = 3 * (PI / 4) - ratan ((x + y) / (y - x)).
Proof.
  intros T P -> ->. pose proof PI_RGT_0.
  pose proof (angle_q1 (r * cos (t - PI / 2)) (r * sin (t - PI / 2)) (t - PI / 2) r ltac:(lra) P eq_refl eq_refl) as E.
  assert (C : cos (t - PI / 2) = sin t) by (rewrite cos_minus, cos_PI2, sin_PI2; ring).
  assert (S : sin (t - PI / 2) = - cos t) by (rewrite sin_minus, cos_PI2, sin_PI2; ring).
  rewrite C, S in E. replace (r * sin t - r * - cos t) with (r * cos t + r * sin t) in E by ring. replace (r * sin t + r * - cos t) with (r * sin t - r * cos t) in E by ring. lra.
Qed.

(** the part after the sign of y has been taken *)
Definition tail (angle r : Z) : res Z :=
  rr <- mul r r ;; r_3 <- mul rr r ;; p <- mul 12864 r_3 ;; q <- mul 64336 r ;; t <- i32 (p - q) ;; i32 (angle + t).
Lemma tail_ok r a z C : (Z.abs r <= 65536)%Z -> (0 <= a <= 154415)%Z -> Rabs (fxR r - z) <= 1.1 * u -> Rabs (fxR a - C) <= 2 * u ->
  exists v, tail a r = Ok v /\ Rabs (fxR v - (C - ratan z)) <= 0.0103 /\ Rabs (fxR v) <= 5.
Proof.
  intros H A V VC. destruct (core r H) as (rr & r3 & p & q & E1 & E2 & E3 & E4 & K & B).
  unfold tail. rewrite E1. cbn [bind]. rewrite E2. cbn [bind]. rewrite E3. cbn [bind]. rewrite E4. cbn [bind].
  rewrite fx_i32 by (rewrite fx_sub; lra). cbn [bind].
  assert (FA : 0 <= fxR a <= 3) by (destruct A as (A0 & A1); apply IZR_le in A0; apply IZR_le in A1; unfold fxR; lra).
  apply Rabs_le_between in B.
  assert (FV : Rabs (fxR (a + (p - q))) <= 5) by (rewrite fx_add, fx_sub; apply Rabs_le; lra).
  rewrite fx_i32 by lra. exists (a + (p - q))%Z. split; [reflexivity|]. split; [|exact FV].
  rewrite fx_add, fx_sub. pose proof (atan_lip (fxR r) z) as L. apply Rabs_le_between in K, VC. assert (L2 : Rabs (ratan (fxR r) - ratan z) <= 1.1 * u) by lra. apply Rabs_le_between in L2. apply Rabs_le. lra.
Qed.

Definition upper (y x : Z) : res Z :=
  ra <- (if (0 <=? x)%Z then
           n <- i32 (x - y) ;; d <- i32 (x + y) ;; r <- div n d ;; Ok (r, 51471%Z)
         else
           n <- i32 (x + y) ;; d <- i32 (y - x) ;; r <- div n d ;; Ok (r, 154415%Z)) ;;
  let '(r, angle) := ra in tail angle r.

(** the absolute value by shift and exclusive or: exact below 2^28, at most 14 units too large beyond *)
Definition absY (y : Z) : res Z := t <- i32 (y + Z.shiftr y 28) ;; Ok (Z.lxor t (Z.shiftr y 28)).
Lemma lxor_near a m : (0 <= m)%Z -> (a - m <= Z.lxor a m <= a + m)%Z.
Proof.
  intros H. assert (0 <= Z.land a m)%Z by (apply Z.land_nonneg; lia). assert (0 <= Z.ldiff m a)%Z by (apply Z.ldiff_nonneg; lia).
  assert (E1 : (a - Z.land a m = Z.ldiff a m)%Z). { rewrite Z.sub_nocarry_ldiff; apply Z.bits_inj'; intros k _; rewrite ?Z.ldiff_spec, ?Z.land_spec, ?Z.bits_0; destruct (Z.testbit a k), (Z.testbit m k); reflexivity. }
  assert (E2 : (m - Z.land a m = Z.ldiff m a)%Z). { rewrite Z.sub_nocarry_ldiff; apply Z.bits_inj'; intros k _; rewrite ?Z.ldiff_spec, ?Z.land_spec, ?Z.bits_0; destruct (Z.testbit a k), (Z.testbit m k); reflexivity. }
  assert (E3 : (Z.ldiff a m + Z.ldiff m a = Z.lxor a m)%Z). { rewrite Z.add_nocarry_lxor; apply Z.bits_inj'; intros k _; rewrite ?Z.lxor_spec, ?Z.land_spec, ?Z.ldiff_spec, ?Z.bits_0; destruct (Z.testbit a k), (Z.testbit m k); reflexivity. }
  lia.
Qed.
Lemma absY_ok y : (Z.abs y < 2 ^ 31 - 14)%Z -> exists a, absY y = Ok a /\ (Z.abs y <= a <= Z.abs y + 14)%Z /\ (a = Z.abs y \/ 2 ^ 28 <= Z.abs y)%Z.
Proof.
  intros H. unfold absY. set (m := Z.shiftr y 28). assert (M : (m = y / 2 ^ 28)%Z) by (unfold m; rewrite Z.shiftr_div_pow2 by lia; reflexivity).
  pose proof (Z.div_mod y (2 ^ 28) ltac:(lia)) as E. pose proof (Z.mod_pos_bound y (2 ^ 28) ltac:(lia)) as B. rewrite <- M in E.
  assert (MB : (-8 <= m <= 7)%Z) by lia. rewrite Fp16_Proofs.i32_ok by (unfold raw; lia). cbn [bind]. eexists. split; [reflexivity|].
  destruct (Z_lt_le_dec y 0) as [N|N].
  - assert (m < 0)%Z by lia. replace (Z.lxor (y + m) m) with (Z.lxor (- (y + m) - 1) (- m - 1)).
    2: { change (- (y + m) - 1)%Z with (Z.pred (- (y + m))). change (- m - 1)%Z with (Z.pred (- m)). unfold Z.pred. replace (- (y + m) + -1)%Z with (Z.lnot (y + m)) by (unfold Z.lnot; lia). replace (- m + -1)%Z with (Z.lnot m) by (unfold Z.lnot; lia). apply Z.bits_inj'. intros k Hk. rewrite !Z.lxor_spec, !Z.lnot_spec by lia. destruct (Z.testbit (y + m) k), (Z.testbit m k); reflexivity. }
    pose proof (lxor_near (- (y + m) - 1) (- m - 1) ltac:(lia)). split; [lia|]. destruct (Z.eq_dec m (-1)) as [->|]; [left|right; lia]. cbn. rewrite Z.lxor_0_r. lia.
  - pose proof (lxor_near (y + m) m ltac:(lia)). split; [lia|]. destruct (Z.eq_dec m 0) as [->|]; [left|right; lia]. rewrite Z.lxor_0_r. lia.
Qed.
Lemma atan2_upper y x : atan2 y x = (a <- absY y ;; v <- upper a x ;; if (y <? 0)%Z then i32 (- v) else Ok v).
Proof.
  unfold atan2, absY, upper, tail. destruct (i32 (y + Z.shiftr y 28)) as [t|]; cbn [bind]; [|reflexivity]. set (w := Z.lxor _ _).
  destruct (0 <=? x)%Z.
  - destruct (i32 (x - w)); cbn [bind]; [|reflexivity]. destruct (i32 (x + w)); cbn [bind]; [|reflexivity]. destruct (div a a0) as [r|]; cbn [bind]; [|reflexivity].
    destruct (mul r r) as [rr|]; cbn [bind]; [|reflexivity]. destruct (mul rr r) as [r3|]; cbn [bind]; [|reflexivity]. destruct (mul 12864 r3) as [p|]; cbn [bind]; [|reflexivity]. destruct (mul 64336 r) as [q|]; cbn [bind]; [|reflexivity]. destruct (i32 (p - q)) as [z|]; cbn [bind]; reflexivity.
  - destruct (i32 (x + w)); cbn [bind]; [|reflexivity]. destruct (i32 (w - x)); cbn [bind]; [|reflexivity]. destruct (div a a0) as [r|]; cbn [bind]; [|reflexivity].
    destruct (mul r r) as [rr|]; cbn [bind]; [|reflexivity]. destruct (mul rr r) as [r3|]; cbn [bind]; [|reflexivity]. destruct (mul 12864 r3) as [p|]; cbn [bind]; [|reflexivity]. destruct (mul 64336 r) as [q|]; cbn [bind]; [|reflexivity]. destruct (i32 (p - q)) as [z|]; cbn [bind]; reflexivity.
Qed.
(** the quotients hardly move *)
Lemma quot_near x y e : 0 <= x -> 0 <= e <= 14 -> (e = 0 \/ 268435456 <= y) -> 0 <= y -> 0 < x + y -> Rabs ((x - (y + e)) / (x + (y + e)) - (x - y) / (x + y)) <= 0.1 * u.
Proof.
  intros X Ee Y Y0 P. destruct Y as [->|Y]; [rewrite Rplus_0_r, Rminus_diag_eq, Rabs_R0 by reflexivity; lra|].
  replace ((x - (y + e)) / (x + (y + e)) - (x - y) / (x + y)) with (- (2 * e * (x * / (x + (y + e)) * / (x + y)))) by (field; lra).
  rewrite Rabs_Ropp. assert (I1 : 0 < / (x + (y + e))) by (apply Rinv_0_lt_compat; lra). assert (I2 : 0 < / (x + y)) by (apply Rinv_0_lt_compat; lra).
  assert (K1 : x * / (x + (y + e)) <= 1) by (apply Rmult_le_reg_r with (x + (y + e)); [lra|]; rewrite Rmult_assoc, Rinv_l by lra; lra).
  assert (K2 : / (x + y) <= / 268435456) by (apply Rinv_le_contravar; lra).
  assert (K0 : 0 <= x * / (x + (y + e))) by (apply Rmult_le_pos; lra). set (c := x * / (x + (y + e))) in *. set (d := / (x + y)) in *.
  assert (CD : 0 <= c * d <= / 268435456) by nra. rewrite Rabs_pos_eq by nra. nra.
Qed.

Lemma upper_ok a y x t r : (0 <= y)%Z -> (y <= a <= y + 14)%Z -> (a = y \/ 2 ^ 28 <= y)%Z -> (Z.abs x + a < 2 ^ 31)%Z -> 0 <= t <= PI -> 0 < r -> IZR x = r * cos t -> IZR y = r * sin t ->
  exists v, upper a x = Ok v /\ Rabs (fxR v - t) <= 0.0103 /\ Rabs (fxR v) <= 5.
Proof.
  intros Y AY AE S T P Ex Ey. unfold upper. pose proof PI_bounds as PB. unfold PIlo, PIhi in PB. pose proof (sin2_cos2 t) as SC. unfold Rsqr in SC.
  assert (NZ : (0 < Z.abs x + y)%Z). { destruct (Z.eq_dec (Z.abs x + y) 0) as [Z0|]; [|lia]. exfalso. assert (x = 0%Z) by lia. assert (y = 0%Z) by lia. subst. assert (cos t = 0) by nra. assert (sin t = 0) by nra. nra. }
  assert (EA : exists e, IZR a = IZR y + e /\ 0 <= e <= 14 /\ (e = 0 \/ 268435456 <= IZR y)).
  { exists (IZR (a - y)). rewrite minus_IZR. split; [ring|]. rewrite <- minus_IZR. split; [split; apply IZR_le; lia|]. destruct AE as [->|AE]; [left; rewrite Z.sub_diag; reflexivity|right; apply IZR_le; lia]. }
  destruct EA as (e & EA & Eb & Ec). pose proof (IZR_le _ _ Y) as Y0.
  destruct (Z.leb_spec 0 x) as [X|X].
  - assert (TT : t <= PI / 2). { destruct (Rle_dec t (PI / 2)); [assumption|]. exfalso. assert (cos t < 0) by (apply cos_lt_0; lra). apply IZR_le in X. nra. }
    rewrite !Fp16_Proofs.i32_ok by (unfold raw; lia). cbn [bind]. destruct (quot_ok (x - a) (x + a)) as (q & E & B & V); [unfold raw; lia|unfold raw; lia|lia|lia|]. rewrite E. cbn [bind].
    rewrite minus_IZR, plus_IZR, EA in V. assert (QN : Rabs ((IZR x - (IZR y + e)) / (IZR x + (IZR y + e)) - (IZR x - IZR y) / (IZR x + IZR y)) <= 0.1 * u) by (apply quot_near; [apply IZR_le; lia|exact Eb|exact Ec|exact Y0|rewrite <- plus_IZR; apply IZR_lt; lia]).
    assert (V' : Rabs (fxR q - (IZR x - IZR y) / (IZR x + IZR y)) <= 1.1 * u) by (apply Rabs_le_between in V; apply Rabs_le_between in QN; apply Rabs_le; lra).
    destruct (tail_ok q 51471 _ (PI / 4) B ltac:(lia) V') as (v & Ev & Hv & Bv); [unfold fxR; apply Rabs_le; lra|]. exists v. split; [exact Ev|]. split; [|exact Bv].
    rewrite (angle_q1 (IZR x) (IZR y) t r); [exact Hv|lra|exact P|exact Ex|exact Ey].
  - assert (TT : PI / 2 <= t). { destruct (Rle_dec (PI / 2) t); [assumption|]. exfalso. assert (0 <= cos t) by (apply cos_ge_0; lra). apply IZR_lt in X. nra. }
    rewrite !Fp16_Proofs.i32_ok by (unfold raw; lia). cbn [bind]. destruct (quot_ok (x + a) (a - x)) as (q & E & B & V); [unfold raw; lia|unfold raw; lia|lia|lia|]. rewrite E. cbn [bind].
    rewrite minus_IZR, plus_IZR, EA in V. assert (X0 : IZR x < 0) by (apply IZR_lt; exact X).
    pose proof (quot_near (- IZR x) (IZR y) e ltac:(lra) Eb Ec Y0 ltac:(lra)) as QN.
    replace ((- IZR x - (IZR y + e)) / (- IZR x + (IZR y + e))) with (- ((IZR x + (IZR y + e)) / (IZR y + e - IZR x))) in QN by (field; lra).
    replace ((- IZR x - IZR y) / (- IZR x + IZR y)) with (- ((IZR x + IZR y) / (IZR y - IZR x))) in QN by (field; lra).
    assert (V' : Rabs (fxR q - (IZR x + IZR y) / (IZR y - IZR x)) <= 1.1 * u) by (apply Rabs_le_between in V; apply Rabs_le_between in QN; apply Rabs_le; lra).
    destruct (tail_ok q 154415 _ (3 * (PI / 4)) B ltac:(lia) V') as (v & Ev & Hv & Bv); [unfold fxR; apply Rabs_le; lra|]. exists v. split; [exact Ev|]. split; [|exact Bv].
    rewrite (angle_q2 (IZR x) (IZR y) t r); [exact Hv|lra|exact P|exact Ex|exact Ey].
Qed.

Lemma atan2_ok y x t r : (Z.abs x + Z.abs y < 2 ^ 31 - 14)%Z -> - PI < t <= PI -> 0 < r -> IZR x = r * cos t -> IZR y = r * sin t ->
  exists v, atan2 y x = Ok v /\ Rabs (fxR v - t) <= 0.0103.
Proof.
  intros S T P Ex Ey. rewrite (atan2_upper y x). destruct (absY_ok y ltac:(lia)) as (a & Ea & Ba & Ca). rewrite Ea. cbn [bind]. destruct (Z.ltb_spec y 0) as [N|N].
  - assert (T0 : t < 0). { destruct (Rlt_dec t 0); [assumption|]. exfalso. assert (0 <= sin t) by (apply sin_ge_0; lra). apply IZR_lt in N. nra. }
    destruct (upper_ok a (Z.abs y) x (- t) r) as (v & Ev & Hv & Bv); [lia|lia|lia|lia|lra|exact P|rewrite cos_neg; exact Ex|rewrite sin_neg; replace (Z.abs y) with (- y)%Z by lia; rewrite opp_IZR; lra|].
    rewrite Ev. cbn [bind]. rewrite fx_i32 by (rewrite fx_opp, Rabs_Ropp; lra). exists (- v)%Z. split; [reflexivity|]. rewrite fx_opp. replace (- fxR v - t) with (- (fxR v - - t)) by ring. rewrite Rabs_Ropp. exact Hv.
  - assert (T0 : 0 <= t). { destruct (Rle_dec 0 t); [assumption|]. exfalso. assert (0 < sin (- t)) by (apply sin_gt_0; lra). rewrite sin_neg in H. apply IZR_le in N. nra. }
    destruct (upper_ok a (Z.abs y) x t r) as (v & Ev & Hv & Bv); [lia|lia|lia|lia|lra|exact P|exact Ex|replace (Z.abs y) with y by lia; exact Ey|].
    rewrite Ev. cbn [bind]. exists v. split; [reflexivity|exact Hv].
Qed.

Lemma atan_ok x : (Z.abs x < 2 ^ 31 - 65550)%Z -> exists v, Fp16_Model.atan x = Ok v /\ Rabs (fxR v - ratan (fxR x)) <= 0.0103.
Proof.
  intros H. unfold Fp16_Model.atan, one. set (t := ratan (fxR x)). pose proof (atan_bound (fxR x)) as B. fold t in B. pose proof PI_RGT_0.
  assert (C : 0 < cos t) by (apply cos_gt_0; lra).
  apply (atan2_ok x 65536 t (65536 / cos t)); [lia|lra|apply Rdiv_lt_0_compat; lra|field; lra|].
  replace (65536 / cos t * sin t) with (65536 * tan t) by (unfold tan; field; lra). unfold t. rewrite tan_atan. unfold fxR. field.
Qed.

(** where the sum of the magnitudes does not fit the code overflows *)
Lemma absY_ge y a : raw y -> absY y = Ok a -> (Z.abs y <= a)%Z.
Proof.
  intros R E. unfold absY in E. set (m := Z.shiftr y 28) in *. assert (M : (m = y / 2 ^ 28)%Z) by (unfold m; rewrite Z.shiftr_div_pow2 by lia; reflexivity).
  pose proof (Z.div_mod y (2 ^ 28) ltac:(lia)) as D. pose proof (Z.mod_pos_bound y (2 ^ 28) ltac:(lia)) as B. rewrite <- M in D.
  assert (MB : (-8 <= m <= 7)%Z) by (unfold raw in R; lia). destruct (i32 (y + m)) as [t|] eqn:I; cbn [bind] in E; [|discriminate].
  assert (t = y + m)%Z. { unfold i32 in I. destruct (_ && _); [injection I as <-; reflexivity|discriminate]. } subst t. injection E as <-.
  destruct (Z_lt_le_dec y 0) as [N|N].
  - replace (Z.lxor (y + m) m) with (Z.lxor (- (y + m) - 1) (- m - 1)).
    2: { replace (- (y + m) - 1)%Z with (Z.lnot (y + m)) by (unfold Z.lnot; lia). replace (- m - 1)%Z with (Z.lnot m) by (unfold Z.lnot; lia). apply Z.bits_inj'. intros k Hk. rewrite !Z.lxor_spec, !Z.lnot_spec by lia. destruct (Z.testbit (y + m) k), (Z.testbit m k); reflexivity. }
    pose proof (lxor_near (- (y + m) - 1) (- m - 1) ltac:(lia)). lia.
  - pose proof (lxor_near (y + m) m ltac:(lia)). lia.
Qed.
Lemma atan2_over y x : raw x -> raw y -> (2 ^ 31 <= Z.abs x + Z.abs y)%Z -> atan2 y x = Ub.
Proof.
  intros Rx Ry H. rewrite atan2_upper. destruct (absY y) as [a|] eqn:E; cbn [bind]; [|reflexivity]. apply absY_ge in E; [|exact Ry]. unfold upper.
  destruct (Z.leb_spec 0 x) as [X|X].
  - destruct (i32 (x - a)); cbn [bind]; [|reflexivity]. rewrite Fp16_Proofs.i32_ub by (unfold raw; lia). reflexivity.
  - destruct (i32 (x + a)); cbn [bind]; [|reflexivity]. rewrite Fp16_Proofs.i32_ub by (unfold raw; lia). reflexivity.
Qed.
