(** asin, acos, atan, atan2, tan: accuracy. *)
From Coq Require Import ZArith Reals Lra Lia Psatz Bool.
From Flocq Require Import Core IEEE754.BinarySingleNaN IEEE754.Binary IEEE754.Bits.
From Verif Require Import Base BaseLemmas Arith Ext32 Bits32 PolyBound TrigBound Ffmath_Model Ffmath2_Model Ffmath_Spec Ffmath_Proofs Ffmath_Proofs2 Ffmath_Proofs3 Float32 Ffmath_Proofs4 Ffmath_Proofs7 Ffmath_Proofs8 Ffmath_Proofs9 FloatApp Ffmath_Proofs11 Ffmath_Proofs12 Ffmath_Proofs16 Ffmath_Proofs17.
Open Scope R_scope.

Lemma cA1 : finite (ofU 1040640679) /\ valR (ofU 1040640679) = asA. Proof. unfold asA. cst. Qed.
Lemma cB1 : finite (ofU 1064084720) /\ valR (ofU 1064084720) = asB. Proof. unfold asB. cst. Qed.
Lemma cTa : finite (ofU 1069184083) /\ valR (ofU 1069184083) = atA. Proof. unfold atA. cst. Qed.
Lemma cTb : finite (ofU 1074517823) /\ valR (ofU 1074517823) = atB. Proof. unfold atB. cst. Qed.
Lemma cTc : finite (ofU 1062710114) /\ valR (ofU 1062710114) = atC. Proof. unfold atC. cst. Qed.

(** ** asin *)
Lemma above_m1 x : -1 < valR x -> bpow radix2 (-24) <= 1 + valR x.
Proof.
  intros H. destruct (Rle_or_lt (- / 2) (valR x)) as [L|L]; [change (bpow radix2 (-24)) with (/ 16777216); lra|].
  pose proof (format_val x) as V. unfold generic_format in V. unfold cexp in V. rewrite (mag_unique radix2 (valR x) 0) in V.
  2: { rewrite Rabs_left by lra. change (bpow radix2 (0 - 1)) with (/ 2). change (bpow radix2 0) with 1. lra. }
  change (FLT_exp (-149) 24 0) with (-24)%Z in V. unfold F2R in V. cbn [Fnum Fexp] in V. set (m := Ztrunc _) in V. clearbody m.
  change (bpow radix2 (-24)) with (/ 16777216) in *. assert (K : (- 16777216 < m)%Z). { apply lt_IZR. rewrite V in H. lra. }
  assert (K2 : (- 16777215 <= m)%Z) by lia. apply IZR_le in K2. rewrite V. lra.
Qed.
Lemma root_app p v : finite p -> valR p = rnd v -> 0 <= v <= 2 -> (v = 0 \/ bpow radix2 (-24) <= v) -> app (sqrt p) (R_sqrt.sqrt v) (3 / 1000000).
Proof.
  intros F V B [->|N].
  - rewrite rnd_0 in V. rewrite sqrt_0. assert (Z : is_zero p) by (split; auto).
    destruct (sqrt_special p) as (S & _). rewrite S by exact Z. destruct c0 as (F0 & V0). split; [exact F0|]. rewrite V0, Rminus_0_r, Rabs_R0. lra.
  - assert (B2 : 0 < bpow radix2 (-24)) by apply bpow_gt_0. destruct (rnd_rel v) as (d & Hd & E). { rewrite Rabs_pos_eq by lra. apply Rle_trans with (2 := N). apply bpow_le. lia. }
    rewrite E in V. change u32 with (/ 16777216) in Hd. apply Rabs_le_inv in Hd as Hd'.
    assert (Pp : bpow radix2 (-126) <= valR p). { rewrite V. apply Rle_trans with (/ 2 * bpow radix2 (-24)); [|nra]. change (/ 2) with (bpow radix2 (-1)). rewrite <- bpow_plus. apply bpow_le. lia. }
    pose proof (bpow_gt_0 radix2 (-126)). destruct (sqrt_accurate p) as (Fs & As); [split; [exact F|rewrite Rabs_pos_eq by lra; exact Pp]|lra|]. split; [exact Fs|].
    pose proof (sqrt_rel v (valR p) d ltac:(lra) V ltac:(lra)) as S. change (bpow radix2 (-19)) with (/ 524288) in As.
    assert (Sv : 0 <= R_sqrt.sqrt v <= 142 / 100). { split; [apply sqrt_pos|]. rewrite <- (sqrt_square (142 / 100)) by lra. apply sqrt_le_1_alt. lra. }
    assert (S1 : Rabs d * R_sqrt.sqrt v <= / 16777216 * (142 / 100)) by (apply Rmult_le_compat; try lra; apply Rabs_pos).
    assert (S2 := Rle_trans _ _ _ S S1). apply Rabs_le_inv in S2. apply Rabs_le_inv in As. apply Rabs_le. lra.
Qed.
Lemma fasin_accurate x : finite x -> -1 <= valR x <= 1 -> finite (fasin x) /\ Rabs (valR (fasin x) - asin (valR x)) <= 1233 / 100000.
Proof.
  intros F B. destruct c1 as (F1 & V1). destruct cA1 as (FA & VA). destruct cB1 as (FB & VB). unfold fasin. set (v := valR x) in *.
  destruct (opp_R x F) as (Fo & Vo).
  destruct (plus_R (flit 1 1) x F1 F) as (Fp & Vp); [rewrite V1; apply big_ge, Rabs_le; fold v; lra|]. destruct (minus_R (flit 1 1) x F1 F) as (Fm & Vm); [rewrite V1; apply big_ge, Rabs_le; fold v; lra|].
  rewrite V1 in Vp, Vm. fold v in Vp, Vm.
  assert (R1 : app (sqrt (flit 1 1 + x)%b32) (R_sqrt.sqrt (1 + v)) (3 / 1000000)).
  { apply root_app; auto; [lra|]. destruct (Req_dec v (-1)) as [E|E]; [left; lra|right; apply above_m1; fold v; lra]. }
  assert (R2 : app (sqrt (flit 1 1 - x)%b32) (R_sqrt.sqrt (1 - v)) (3 / 1000000)).
  { apply root_app; auto; [lra|]. destruct (Req_dec v 1) as [E|E]; [left; lra|right]. replace (1 - v) with (1 + valR (- x)%b32) by (rewrite Vo; fold v; ring). apply above_m1. rewrite Vo. fold v. lra. }
  destruct (asin_ok v B) as (E & Bs). set (s := R_sqrt.sqrt (1 + v) - R_sqrt.sqrt (1 - v)) in *.
  assert (A1 : app (sqrt (flit 1 1 + x) - sqrt (flit 1 1 - x))%b32 s (62 / 10000000)).
  { apply app_sub with (3 / 1000000) (3 / 1000000) (142 / 100); auto; num. }
  set (X := (sqrt (flit 1 1 + x) - sqrt (flit 1 1 - x))%b32) in *.
  assert (A2 : app (absolute X) (Rabs s) (62 / 10000000)).
  { destruct A1 as (Fs & Es). destruct (abs_R X Fs) as (Fb & Vb). split; [exact Fb|]. rewrite Vb. eapply Rle_trans; [apply Rabs_triang_inv2|]. exact Es. }
  assert (A3 : app (ofU 1040640679 * absolute X)%b32 (asA * Rabs s) (85 / 100000000)).
  { apply app_mul with 0 asA (62 / 10000000) (142 / 100); [apply app_const; auto|unfold asA; rewrite Rabs_pos_eq by lra; lra|exact A2|rewrite Rabs_Rabsolu; exact Bs|unfold asA; num|unfold asA; num]. }
  assert (B3 : 0 <= asA * Rabs s <= 2 / 10) by (pose proof (Rabs_pos s); unfold asA; lra).
  assert (A4 : app (ofU 1040640679 * absolute X + ofU 1064084720)%b32 (asA * Rabs s + asB) (93 / 100000000)).
  { apply app_add with (85 / 100000000) 0 (113 / 100); [exact A3|apply app_const; auto|apply Rabs_le; unfold asB; lra|num|num]. }
  assert (A5 : app (X * (ofU 1040640679 * absolute X + ofU 1064084720))%b32 (s * (asA * Rabs s + asB)) (1 / 100000)).
  { apply app_mul with (62 / 10000000) (142 / 100) (93 / 100000000) (113 / 100); auto; [apply Rabs_le; unfold asB; lra|num|num]. }
  destruct A5 as (F5 & E5). split; [exact F5|]. apply Rabs_le_inv in E5. apply Rabs_le_inv in E. apply Rabs_le. lra.
Qed.
Lemma facos_accurate x : finite x -> -1 <= valR x <= 1 -> finite (facos x) /\ Rabs (valR (facos x) - acos (valR x)) <= 1234 / 100000.
Proof.
  intros F B. destruct (fasin_accurate x F B) as (Fa & Ea). destruct cPI2 as (FP & VP). pose proof PI_bounds as P. unfold PIlo, PIhi in P. unfold facos.
  pose proof (asin_bound (valR x)) as AB. assert (A : app (fPI_2 - fasin x)%b32 (PI / 2 - asin (valR x)) (1234 / 100000)).
  { apply app_sub with (/ 10000000) (1233 / 100000) (32 / 10); [split; [exact FP|rewrite VP; apply Rabs_le; lra]|split; auto|apply Rabs_le; lra|num|num]. }
  rewrite acos_asin by lra. exact A.
Qed.

(** ** atan *)
Lemma plus_one a : finite a -> 0 <= valR a -> finite (a + flit 1 1)%b32 /\ valR (a + flit 1 1)%b32 = rnd (valR a + 1).
Proof.
  intros F P. destruct c1 as (F1 & V1). pose proof (finite_le a) as M. rewrite Rabs_pos_eq in M by auto. destruct (Rle_or_lt (valR a) (bpow radix2 126)) as [L|L].
  - destruct (plus_R a (flit 1 1) F F1) as (Fp & Vp).
    + rewrite V1, Rabs_pos_eq by lra. change big with (bpow radix2 (126 + 1)). rewrite bpow_plus. change (bpow radix2 1) with 2. assert (1 <= bpow radix2 126) by (change 1 with (bpow radix2 0); apply bpow_le; lia). lra.
    + rewrite V1 in Vp. auto.
  - assert (R : rnd (valR a + 1) <= valR a).
    { apply round_N_le_midp; [apply (FLT_exp_valid (-149) 24)|apply format_val|]. rewrite succ_eq_pos by auto. 
      assert (bpow radix2 2 <= ulp radix2 (FLT_exp (-149) 24) (valR a)). { pose proof (bpow_gt_0 radix2 126). rewrite ulp_neq_0 by lra. apply bpow_le.
        assert (127 <= Raux.mag radix2 (valR a))%Z. { apply mag_ge_bpow. rewrite Rabs_pos_eq by auto. change (127 - 1)%Z with 126%Z. lra. } unfold cexp, FLT_exp. lia. }
      change (bpow radix2 2) with 4 in *. lra. }
    pose proof (Bplus_correct 24 128 eq_refl eq_refl binop_nan_pl32 mode_NE a (flit 1 1) F F1) as H.
    rewrite fexp_FLT in H. cbn [round_mode] in H. rewrite V1 in H. fold (rnd (valR a + 1)) in H. rewrite Rlt_bool_true in H; [destruct H as (V & K & _); auto|].
    rewrite Rabs_pos_eq by (apply rnd_nonneg; lra). apply Rle_lt_trans with (1 := R). rewrite fmax_val in M. pose proof (bpow_gt_0 radix2 104). lra.
Qed.

Lemma atan_q_odd u : (if Rle_dec 0 u then atan_q u else - atan_q (- u)) = u * (Rabs u * (- atA * Rabs u + atB) + atC).
Proof. unfold atan_q. destruct (Rle_dec 0 u); [rewrite Rabs_pos_eq by lra|rewrite Rabs_left by lra]; ring. Qed.
Lemma atan_cubic_odd x : Rabs (atan x - (let u := x / (Rabs x + 1) in u * (Rabs u * (- atA * Rabs u + atB) + atC))) <= 622 / 100000.
Proof.
  cbv zeta. destruct (Rle_dec 0 x) as [L|L].
  - pose proof (atan_cubic x L) as Q. rewrite (Rabs_pos_eq x) by auto. rewrite <- atan_q_odd. assert (0 <= x / (x + 1)) by (apply Rmult_le_pos; [auto|left; apply Rinv_0_lt_compat; lra]).
    destruct (Rle_dec 0 (x / (x + 1))); [|lra]. rewrite (Rplus_comm x 1). exact Q.
  - pose proof (atan_cubic (- x) ltac:(lra)) as Q. rewrite (Rabs_left x) by lra. set (u := x / (- x + 1)). assert (Eu : - u = - x / (1 + - x)) by (unfold u; field; lra).
    assert (u < 0). { assert (0 < - u); [|lra]. rewrite Eu. apply Rmult_lt_0_compat; [lra|apply Rinv_0_lt_compat; lra]. }
    rewrite <- atan_q_odd. destruct (Rle_dec 0 u); [lra|]. rewrite <- Eu, atan_opp in Q. replace (atan x - - atan_q (- u)) with (- (- atan x - atan_q (- u))) by ring. rewrite Rabs_Ropp. exact Q.
Qed.
Lemma fatan_app x : finite x -> let u := valR x / (Rabs (valR x) + 1) in app (fatan x) (u * (Rabs u * (- atA * Rabs u + atB) + atC)) (24 / 10000000).
Proof.
  intros F. destruct cTa as (FA & VA). destruct cTb as (FB & VB). destruct cTc as (FC & VC). destruct (abs_R x F) as (Fa & Va). intros u. unfold fatan.
  set (v := valR x) in *. pose proof (Rabs_pos v) as Pv. destruct (plus_one (absolute x) Fa) as (Fd & Vd); [rewrite Va; exact Pv|]. rewrite Va in Vd.
  set (d := (absolute x + flit 1 1)%b32) in *. destruct (rnd_rel (Rabs v + 1)) as (e & He & Ee). { rewrite Rabs_pos_eq by lra. apply Rle_trans with 1; [apply min_1|lra]. }
  rewrite Ee in Vd. change u32 with (/ 16777216) in He. apply Rabs_le_inv in He. fold v in u.
  assert (Bu : Rabs u <= 1). { unfold u, Rdiv. rewrite Rabs_mult, (Rabs_pos_eq (/ _)) by (left; apply Rinv_0_lt_compat; lra). apply Rmult_le_reg_r with (Rabs v + 1); [lra|]. rewrite Rmult_assoc, Rinv_l by lra. lra. }
  assert (Ie : Rabs (/ (1 + e) - 1) <= / 16000000).
  { replace (/ (1 + e) - 1) with (- e * / (1 + e)) by (field; lra). rewrite Rabs_mult, Rabs_Ropp. assert (0 < / (1 + e) <= 101 / 100). { split; [apply Rinv_0_lt_compat; lra|]. replace (101 / 100) with (/ (100 / 101)) by field. apply Rinv_le_contravar; lra. }
    rewrite (Rabs_pos_eq (/ _)) by lra. assert (Rabs e <= / 16777216) by (apply Rabs_le; lra). pose proof (Rabs_pos e). nra. }
  assert (Eq : v / valR d = u * (/ (1 + e))). { rewrite Vd. unfold u. field. split; lra. }
  assert (Dq : Rabs (v / valR d - u) <= / 16000000). { rewrite Eq. replace (u * / (1 + e) - u) with (u * (/ (1 + e) - 1)) by ring. rewrite Rabs_mult. pose proof (Rabs_pos u). pose proof (Rabs_pos (/ (1 + e) - 1)). nra. }
  assert (Bq : Rabs (v / valR d) <= 2). { replace (v / valR d) with (u + (v / valR d - u)) by ring. eapply Rle_trans; [apply Rabs_triang|]. lra. }
  destruct (div_R x d F Fd) as (Fq & Vq); [rewrite Vd; nra|fold v; apply big_ge; lra|]. fold v in Vq.
  assert (A1 : app (x / d)%b32 u (2 / 10000000)).
  { split; [exact Fq|]. rewrite Vq. pose proof (rnd_err (v / valR d)) as R. change u32 with (/ 16777216) in R. pose proof tiny_ok as T. unfold tiny in T. apply Rabs_le_inv in R. apply Rabs_le_inv in Dq. apply Rabs_le. lra. }
  set (X := (x / d)%b32) in *. assert (A2 : app (absolute X) (Rabs u) (2 / 10000000)).
  { destruct A1 as (Fs & Es). destruct (abs_R X Fs) as (Fb & Vb). split; [exact Fb|]. rewrite Vb. eapply Rle_trans; [apply Rabs_triang_inv2|]. exact Es. }
  pose proof (Rabs_pos u) as Pu. destruct (opp_R _ FA) as (FAo & VAo). rewrite VA in VAo.
  assert (BA : 145 / 100 <= atA <= 146 / 100) by (unfold atA; lra). assert (BB : 218 / 100 <= atB <= 219 / 100) by (unfold atB; lra). assert (BC : 84 / 100 <= atC <= 85 / 100) by (unfold atC; lra).
  assert (A3 : app (- ofU 1069184083 * absolute X)%b32 (- atA * Rabs u) (4 / 10000000)).
  { apply app_mul with 0 (146 / 100) (2 / 10000000) 1; [apply app_const; auto|apply Rabs_le; lra|exact A2|rewrite Rabs_Rabsolu; exact Bu|num|num]. }
  assert (B3 : - (146 / 100) <= - atA * Rabs u <= 0) by nra.
  assert (A4 : app (- ofU 1069184083 * absolute X + ofU 1074517823)%b32 (- atA * Rabs u + atB) (6 / 10000000)).
  { apply app_add with (4 / 10000000) 0 (219 / 100); [exact A3|apply app_const; auto|apply Rabs_le; lra|num|num]. }
  assert (B4 : 0 <= - atA * Rabs u + atB <= 219 / 100) by lra.
  assert (A5 : app (absolute X * (- ofU 1069184083 * absolute X + ofU 1074517823))%b32 (Rabs u * (- atA * Rabs u + atB)) (12 / 10000000)).
  { apply app_mul with (2 / 10000000) 1 (6 / 10000000) (219 / 100); [exact A2|rewrite Rabs_Rabsolu; exact Bu|exact A4|apply Rabs_le; lra|num|num]. }
  assert (B5 : 0 <= Rabs u * (- atA * Rabs u + atB) <= 219 / 100) by nra.
  assert (A6 : app (absolute X * (- ofU 1069184083 * absolute X + ofU 1074517823) + ofU 1062710114)%b32 (Rabs u * (- atA * Rabs u + atB) + atC) (14 / 10000000)).
  { apply app_add with (12 / 10000000) 0 (304 / 100); [exact A5|apply app_const; auto|apply Rabs_le; lra|num|num]. }
  assert (A7 : app (X * (absolute X * (- ofU 1069184083 * absolute X + ofU 1074517823) + ofU 1062710114))%b32 (u * (Rabs u * (- atA * Rabs u + atB) + atC)) (24 / 10000000)).
  { apply app_mul with (2 / 10000000) 1 (14 / 10000000) (304 / 100); [exact A1|exact Bu|exact A6|apply Rabs_le; lra|num|num]. }
  exact A7.
Qed.
Lemma fatan_accurate x : finite x -> finite (fatan x) /\ Rabs (valR (fatan x) - atan (valR x)) <= 623 / 100000.
Proof.
  intros F. destruct (fatan_app x F) as (F7 & E7). pose proof (atan_cubic_odd (valR x)) as AT. cbv zeta in AT. split; [exact F7|]. apply Rabs_le_inv in E7. apply Rabs_le_inv in AT. apply Rabs_le. lra.
Qed.
Lemma fatan_inf s : is_nan 24 128 (fatan (B754_infinity 24 128 s)) = true.
Proof. destruct s; vm_compute; reflexivity. Qed.

(** ** atan2 *)
Lemma cos_pos_range t : - PI < t <= PI -> 0 < cos t -> - (PI / 2) < t < PI / 2.
Proof.
  intros H C. pose proof PI_RGT_0. destruct (Rle_or_lt (PI / 2) t) as [L|L]; [pose proof (cos_le_0 t L ltac:(lra)); lra|].
  destruct (Rle_or_lt t (- (PI / 2))) as [K|K]; [|lra]. pose proof (cos_le_0 (- t) ltac:(lra) ltac:(lra)) as Q. rewrite cos_neg in Q. lra.
Qed.
Lemma angle_right y x t r : - PI < t <= PI -> 0 < r -> x = r * cos t -> y = r * sin t -> 0 < x -> t = atan (y / x).
Proof.
  intros H Hr -> -> P. assert (C : 0 < cos t) by nra. destruct (cos_pos_range t H C) as (L & U). replace (r * sin t / (r * cos t)) with (tan t) by (unfold tan; field; lra). symmetry. apply atan_tan. lra.
Qed.
Lemma angle_left y x t r : - PI < t <= PI -> 0 < r -> x = r * cos t -> y = r * sin t -> x < 0 -> t = atan (y / x) + (if Rlt_dec y 0 then - PI else PI).
Proof.
  intros H Hr Ex Ey N. assert (C : cos t < 0) by nra. pose proof PI_RGT_0.
  assert (S : forall k, (k = PI \/ k = - PI) -> - PI < t - k <= PI -> t = atan (y / x) + k).
  { intros k Hk Hb. assert (Ck : cos (t - k) = - cos t /\ sin (t - k) = - sin t). { rewrite cos_minus, sin_minus. destruct Hk as [-> | ->]; rewrite ?cos_neg, ?sin_neg, cos_PI, sin_PI; split; ring. }
    destruct Ck as (C1 & S1). replace (y / x) with (- y / - x) by (field; lra). rewrite <- (angle_right (- y) (- x) (t - k) r); [ring| | | | |]; auto; [rewrite C1, Ex; ring|rewrite S1, Ey; ring|lra]. }
  destruct (Rlt_dec y 0) as [L|L].
  - apply S; auto. assert (sin t < 0) by nra. destruct (Rle_or_lt 0 t) as [K|K]; [pose proof (sin_ge_0 t K ltac:(lra)); lra|lra].
  - apply S; auto. destruct (Rlt_or_le 0 t) as [K|K]; [lra|]. exfalso. destruct K as [K|K]; [|subst t; rewrite cos_0 in C; lra]. pose proof (sin_gt_0 (- t) ltac:(lra) ltac:(lra)) as Q. rewrite sin_neg in Q. nra.
Qed.

Lemma angle_up x y t r : - PI < t <= PI -> 0 < r -> x = r * cos t -> y = r * sin t -> x = 0 -> t = if Rlt_dec y 0 then - (PI / 2) else PI / 2.
Proof.
  intros H Hr Ex Ey E0. pose proof PI_RGT_0. assert (C : cos t = 0) by nra. 
  assert (K : t = PI / 2 \/ t = - (PI / 2)).
  { destruct (Rtotal_order t (PI / 2)) as [L|[L|L]]; auto; [|pose proof (cos_lt_0 t L ltac:(lra)); lra]. destruct (Rtotal_order t (- (PI / 2))) as [U|[U|U]]; auto; [|pose proof (cos_gt_0 t U L); lra].
    pose proof (cos_lt_0 (- t) ltac:(lra) ltac:(lra)) as Q. rewrite cos_neg in Q. lra. }
  destruct K as [-> | ->]; [rewrite sin_PI2 in Ey|rewrite sin_neg, sin_PI2 in Ey]; destruct (Rlt_dec y 0); lra.
Qed.
Lemma c1Min : finite limMin /\ valR limMin = bpow radix2 (-126). Proof. apply limMin_R. Qed.
Lemma cT0 : finite (fPI - flit 0 1)%b32 /\ valR (fPI - flit 0 1)%b32 = 13176795 / 4194304. Proof. cst. Qed.
Lemma cT1 : finite (fPI - f2PI)%b32 /\ valR (fPI - f2PI)%b32 = - (13176795 / 4194304). Proof. cst. Qed.
Lemma cH : finite (flit 1 2) /\ valR (flit 1 2) = / 2. Proof. cst. Qed.
Lemma fatan2_t (y : float) : finite y -> let t := (fPI - (if (y <? flit 0 1) then f2PI else flit 0 1))%b32 in
  finite t /\ valR t = (if Rlt_dec (valR y) 0 then - (13176795 / 4194304) else 13176795 / 4194304) /\ finite (flit 1 2 * t)%b32 /\ valR (flit 1 2 * t)%b32 = valR t / 2.
Proof.
  intros F t. destruct c0 as (F0 & V0). unfold t. destruct (Rlt_dec (valR y) 0) as [L|L].
  - rewrite lt_t by (auto; rewrite V0; auto). destruct cT1 as (F1 & V1). repeat split; auto. rewrite V1. vm_compute. lra.
  - rewrite lt_f by (auto; rewrite V0; lra). destruct cT0 as (F1 & V1). repeat split; auto. rewrite V1. vm_compute. lra.
Qed.
Lemma add_zero a z : finite a -> finite z -> valR z = 0 -> finite (a + z)%b32 /\ valR (a + z)%b32 = valR a.
Proof.
  intros Fa Fz Vz. destruct (plus_M a z Fa Fz) as (F & V); [rewrite Vz, Rplus_0_r; apply finite_le|]. split; [exact F|]. rewrite V, Vz, Rplus_0_r. apply rnd_val.
Qed.
Lemma fatan2_accurate y x t r : finite y -> finite x -> bpow radix2 (-126) < Rabs (valR x) -> Rabs (valR y) <= big * Rabs (valR x) ->
  - PI < t <= PI -> 0 < r -> valR x = r * cos t -> valR y = r * sin t -> finite (fatan2 y x) /\ Rabs (valR (fatan2 y x) - t) <= 624 / 100000.
Proof.
  intros Fy Fx HX HY Ht Hr Ex Ey. destruct c0 as (F0 & V0). destruct c1Min as (FM & VM). destruct (abs_R x Fx) as (Fa & Va). destruct (fatan2_t y Fy) as (Ft & Vt & Fh & Vh).
  pose proof (bpow_gt_0 radix2 (-126)). pose proof PI_bounds as P. unfold PIlo, PIhi in P. unfold fatan2. rewrite (le_f (absolute x) limMin) by (auto; rewrite Va, VM; auto).
  set (T := (fPI - _)%b32) in *. destruct (add_zero x (flit 0 1) Fx F0 V0) as (Fs & Vs). set (s := (x + flit 0 1)%b32) in *.
  assert (Nx : valR x <> 0) by (intros E; rewrite E, Rabs_R0 in HX; lra).
  assert (Bq : Rabs (valR y / valR s) <= big). { rewrite Vs. unfold Rdiv. rewrite Rabs_mult, Rabs_inv. apply Rmult_le_reg_r with (Rabs (valR x)); [lra|]. rewrite Rmult_assoc, Rinv_l by lra. lra. }
  destruct (div_R y s Fy Fs) as (Fq & Vq); [rewrite Vs; exact Nx|exact Bq|]. rewrite Vs in Vq. set (q := (y / s)%b32) in *.
  destruct (fatan_accurate q Fq) as (Fg & Eg). assert (Pq : Rabs (atan (valR q) - atan (valR y / valR x)) <= 1 / 10000000).
  { apply atan_pert. rewrite Vq. eapply Rle_trans; [apply rnd_err|]. change u32 with (/ 16777216). pose proof tiny_ok as K. unfold tiny in K. lra. }
  set (a := atan (valR y / valR x)) in *. assert (Ba : - (PI / 2) < a < PI / 2) by (pose proof (atan_bound (valR y / valR x)); fold a in H0; lra).
  assert (Ag : app (fatan q) a (6231 / 1000000)). { split; [exact Fg|]. apply Rabs_le_inv in Eg. apply Rabs_le_inv in Pq. apply Rabs_le. lra. }
  assert (Ay : app (fatan q + (if (x <? flit 0 1) then T else flit 0 1))%b32 t (624 / 100000)).
  { destruct (Rlt_dec (valR x) 0) as [L|L].
    - rewrite lt_t by (auto; rewrite V0; auto). rewrite (angle_left _ _ t r Ht Hr Ex Ey L). fold a.
      assert (AT : app T (if Rlt_dec (valR y) 0 then - PI else PI) (2 / 10000000)). { split; [exact Ft|]. rewrite Vt. destruct (Rlt_dec (valR y) 0); apply Rabs_le; lra. }
      apply app_add with (6231 / 1000000) (2 / 10000000) 5; [exact Ag|exact AT|destruct (Rlt_dec (valR y) 0); apply Rabs_le; lra|num|num].
    - rewrite lt_f by (auto; rewrite V0; lra). rewrite (angle_right _ _ t r Ht Hr Ex Ey) by lra. fold a. destruct Ag as (F1 & E1). destruct (add_zero (fatan q) (flit 0 1) F1 F0 V0) as (F2 & V2). split; [exact F2|]. rewrite V2. lra. }
  set (Y := (fatan q + _)%b32) in *. destruct Ay as (FY & EY). assert (BY : Rabs (valR Y) <= 4). { replace (valR Y) with (t + (valR Y - t)) by ring. eapply Rle_trans; [apply Rabs_triang|]. assert (Rabs t <= 32 / 10) by (apply Rabs_le; lra). lra. }
  destruct (minus_R (flit 1 2 * T)%b32 Y Fh FY) as (Fd & Vd). { rewrite Vh, Vt. apply big_ge. apply Rabs_le_inv in BY. destruct (Rlt_dec (valR y) 0); apply Rabs_le; lra. }
  destruct (mult_R (flit 0 1) ((flit 1 2 * T) - Y)%b32 F0 Fd) as (Fz & Vz); [rewrite V0, Rmult_0_l, Rabs_R0; apply bpow_ge_0|]. rewrite V0, Rmult_0_l, rnd_0 in Vz.
  destruct (add_zero Y _ FY Fz Vz) as (FR & VR). split; [exact FR|]. rewrite VR. exact EY.
Qed.
Lemma fatan2_axis y x t r : finite y -> finite x -> valR x = 0 ->
  - PI < t <= PI -> 0 < r -> valR x = r * cos t -> valR y = r * sin t -> finite (fatan2 y x) /\ Rabs (valR (fatan2 y x) - t) <= 1 / 1000000.
Proof.
  intros Fy Fx HX Ht Hr Ex Ey. destruct c0 as (F0 & V0). destruct c1 as (F1 & V1). destruct c1Min as (FM & VM). destruct (abs_R x Fx) as (Fa & Va). destruct (fatan2_t y Fy) as (Ft & Vt & Fh & Vh).
  pose proof (bpow_gt_0 radix2 (-126)). pose proof PI_bounds as P. unfold PIlo, PIhi in P. unfold fatan2. rewrite (le_t (absolute x) limMin) by (auto; rewrite Va, VM, HX, Rabs_R0; lra).
  rewrite (lt_f x (flit 0 1)) by (auto; rewrite V0, HX; lra). set (T := (fPI - _)%b32) in *.
  destruct (plus_R x (flit 1 1) Fx F1) as (Fs & Vs); [rewrite HX, V1; apply big_ge, Rabs_le; lra|]. rewrite HX, V1, Rplus_0_l in Vs. change 1 with (bpow radix2 0) in Vs. rewrite rnd_bpow in Vs by lia. change (bpow radix2 0) with 1 in Vs. set (s := (x + flit 1 1)%b32) in *.
  destruct (div_M y s Fy Fs) as (Fq & Vq); [rewrite Vs; lra|rewrite Vs; unfold Rdiv; rewrite Rinv_1, Rmult_1_r; apply finite_le|]. set (q := (y / s)%b32) in *.
  destruct (fatan_accurate q Fq) as (Fg & Eg). pose proof (atan_bound (valR q)) as Ba.
  destruct (add_zero (fatan q) (flit 0 1) Fg F0 V0) as (FY & VY). set (Y := (fatan q + flit 0 1)%b32) in *.
  assert (BY : - (158 / 100) <= valR Y <= 158 / 100). { rewrite VY. apply Rabs_le_inv in Eg. lra. }
  rewrite (angle_up _ _ t r Ht Hr Ex Ey HX). set (G := if Rlt_dec (valR y) 0 then - (PI / 2) else PI / 2). assert (BG : - (158 / 100) <= G <= 158 / 100) by (unfold G; destruct (Rlt_dec _ _); lra).
  assert (AH : app (flit 1 2 * T)%b32 G (1 / 10000000)). { split; [exact Fh|]. rewrite Vh, Vt. unfold G. destruct (Rlt_dec (valR y) 0); apply Rabs_le; lra. }
  assert (AD : app ((flit 1 2 * T) - Y)%b32 (G - valR Y) (3 / 10000000)). { apply app_sub with (1 / 10000000) 0 (32 / 10); [exact AH|apply app_self; exact FY|apply Rabs_le; lra|num|num]. }
  assert (AM : app (flit 1 1 * ((flit 1 2 * T) - Y))%b32 (1 * (G - valR Y)) (5 / 10000000)). { apply app_mul with 0 1 (3 / 10000000) (32 / 10); [apply app_const; auto|rewrite Rabs_R1; lra|exact AD|apply Rabs_le; lra|num|num]. }
  assert (AR : app (Y + (flit 1 1 * ((flit 1 2 * T) - Y)))%b32 (valR Y + 1 * (G - valR Y)) (7 / 10000000)). { apply app_add with 0 (5 / 10000000) (16 / 10); [apply app_self; exact FY|exact AM|apply Rabs_le; lra|num|num]. }
  destruct AR as (FR & ER). split; [exact FR|]. replace (valR Y + 1 * (G - valR Y)) with G in ER by ring. lra.
Qed.

(** ** tan *)
Lemma ftan_accurate x : finite x -> Rabs (valR x) <= 1000 -> / 100 <= Rabs (cos (valR x)) ->
  finite (ftan x) /\ Rabs (valR (ftan x) - tan (valR x)) <= 2 / 1000 / (cos (valR x) * cos (valR x)).
Proof.
  intros F B C. destruct (fsin_accurate x F ltac:(lra)) as (Fs & Es). destruct (fcos_accurate x F ltac:(lra)) as (Fc & Ec). unfold ftan, tan.
  pose proof (sin2_cos2 (valR x)) as SC. unfold Rsqr in SC. pose proof (COS_bound (valR x)) as CB. pose proof (SIN_bound (valR x)) as SB.
  set (s := sin (valR x)) in *. set (c := cos (valR x)) in *. set (s' := valR (fsin x)) in *. set (c' := valR (fcos x)) in *.
  assert (Es' : Rabs (s' - s) <= 118 / 100000) by lra. assert (Ec' : Rabs (c' - c) <= 118 / 100000) by lra. clear Es Ec.
  pose proof (Rabs_pos c) as Pc. assert (Bc' : 88 / 100 * Rabs c <= Rabs c'). { assert (Rabs c <= Rabs c' + Rabs (c' - c)). { replace c with (c' - (c' - c)) at 1 by ring. eapply Rle_trans; [apply Rabs_triang|]. rewrite Rabs_Ropp. lra. } lra. }
  assert (Nc : c <> 0) by (intros E; rewrite E, Rabs_R0 in C; lra). assert (Nc' : c' <> 0) by (intros E; rewrite E, Rabs_R0 in Bc'; lra).
  assert (Bs : Rabs s <= 1) by (apply Rabs_le; lra). assert (Bc1 : Rabs c <= 1) by (apply Rabs_le; lra).
  assert (CC : Rabs c * Rabs c = c * c) by (rewrite <- Rabs_mult; apply Rabs_pos_eq; nra). assert (SS : Rabs s * Rabs s = s * s) by (rewrite <- Rabs_mult; apply Rabs_pos_eq; nra).
  assert (Q : Rabs c + Rabs s <= 1415 / 1000). { pose proof (Rle_0_sqr (Rabs c - Rabs s)) as Q. unfold Rsqr in Q. pose proof (Rabs_pos s). nra. }
  set (W := / (c * c)). assert (HW : 1 <= W). { unfold W. rewrite <- Rinv_1. apply Rinv_le_contravar; nra. }
  assert (D : Rabs (s' / c' - s / c) <= 190 / 100000 * W).
  { replace (s' / c' - s / c) with (((s' - s) * c - (c' - c) * s) * / (c * c')) by (field; auto). rewrite Rabs_mult, Rabs_inv, Rabs_mult.
    assert (N1 : Rabs ((s' - s) * c - (c' - c) * s) <= 118 / 100000 * (1415 / 1000)).
    { eapply Rle_trans; [apply Rabs_triang|]. rewrite Rabs_Ropp, !Rabs_mult. pose proof (Rabs_pos s). pose proof (Rabs_pos (s' - s)). pose proof (Rabs_pos (c' - c)). nra. }
    assert (N2 : / (Rabs c * Rabs c') <= W * (100 / 88)). { unfold W. rewrite <- CC. replace (/ (Rabs c * Rabs c) * (100 / 88)) with (/ (Rabs c * (88 / 100 * Rabs c))) by (field; lra). apply Rinv_le_contravar; nra. }
    assert (0 < / (Rabs c * Rabs c')) by (apply Rinv_0_lt_compat; nra). pose proof (Rabs_pos ((s' - s) * c - (c' - c) * s)).
    eapply Rle_trans; [apply Rmult_le_compat; [apply Rabs_pos|lra|exact N1|exact N2]|]. lra. }
  assert (Bq : Rabs (s' / c') <= 200).
  { unfold Rdiv. rewrite Rabs_mult, Rabs_inv. apply Rmult_le_reg_r with (Rabs c'); [lra|]. rewrite Rmult_assoc, Rinv_l by lra. assert (Rabs s' <= 101 / 100). { replace s' with (s + (s' - s)) by ring. eapply Rle_trans; [apply Rabs_triang|]. lra. } lra. }
  destruct (div_R (fsin x) (fcos x) Fs Fc Nc') as (Fd & Vd); [apply big_ge; fold s' c'; lra|]. split; [exact Fd|]. rewrite Vd. fold s' c'.
  pose proof (rnd_err (s' / c')) as R. change u32 with (/ 16777216) in R. pose proof tiny_ok as T. unfold tiny in T. change (2 / 1000 / (c * c)) with (2 / 1000 * W).
  apply Rabs_le_inv in R. apply Rabs_le_inv in D. apply Rabs_le. lra.
Qed.
