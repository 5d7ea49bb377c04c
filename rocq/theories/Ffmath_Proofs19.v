(** asin, acos, atan: symmetry. *)
From Coq Require Import ZArith Reals Lra Lia Psatz Bool.
From Flocq Require Import Core IEEE754.BinarySingleNaN IEEE754.Binary IEEE754.Bits.
From Verif Require Import Base BaseLemmas Arith Ext32 Bits32 PolyBound TrigBound Ffmath_Model Ffmath2_Model Ffmath_Spec Ffmath_Proofs Ffmath_Proofs2 Ffmath_Proofs3 Float32 Ffmath_Proofs4 Ffmath_Proofs7 Ffmath_Proofs8 Ffmath_Proofs9 FloatApp Ffmath_Proofs11 Ffmath_Proofs12 Ffmath_Proofs16 Ffmath_Proofs17 Ffmath_Proofs18.
Open Scope R_scope.

Lemma abs_same x y : finite x -> finite y -> valR y = - valR x -> absolute y = absolute x.
Proof.
  intros Fx Fy E. destruct (absf_ok x) as (S1 & _ & F1 & V1 & _). destruct (absf_ok y) as (S2 & _ & F2 & V2 & _). unfold absf in *.
  apply B2R_Bsign_inj; [rewrite F2; exact Fy|rewrite F1; exact Fx|rewrite V2, V1, E; apply Rabs_Ropp|rewrite S2, S1; reflexivity].
Qed.
Lemma mult_odd x y c : finite x -> finite y -> finite c -> valR y = - valR x -> Rabs (valR x * valR c) <= fmax -> valR (y * c)%b32 = - valR (x * c)%b32.
Proof.
  intros Fx Fy Fc E B. destruct (mult_M x c Fx Fc B) as (_ & V1). destruct (mult_M y c Fy Fc) as (_ & V2); [rewrite E, Ropp_mult_distr_l_reverse, Rabs_Ropp; exact B|].
  rewrite V2, V1, E, Ropp_mult_distr_l_reverse. apply rnd_opp.
Qed.
Lemma fmax_100 v : Rabs v <= 100 -> Rabs v <= fmax.
Proof. intros H. pose proof fmax_15. assert (1000 <= bpow radix2 127). { change (bpow radix2 127) with (IZR (2 ^ 127)). apply IZR_le. vm_compute. discriminate. } lra. Qed.

Lemma fatan_odd x : finite x -> valR (fatan (- x)%b32) = - valR (fatan x).
Proof.
  intros F. destruct (opp_R x F) as (Fo & Vo). destruct (abs_R x F) as (Fa & Va). unfold fatan. rewrite (abs_same x (- x)%b32 F Fo Vo).
  destruct (plus_one (absolute x) Fa) as (Fd & Vd); [rewrite Va; apply Rabs_pos|]. set (d := (absolute x + flit 1 1)%b32) in *. rewrite Va in Vd. pose proof (Rabs_pos (valR x)) as P.
  assert (D1 : Rabs (valR x) <= valR d). { rewrite Vd. rewrite <- Va at 1. apply rnd_ge_val. rewrite Va. lra. }
  assert (D2 : 1 <= valR d). { rewrite Vd. change 1 with (bpow radix2 0) at 1. rewrite <- (rnd_bpow 0) by lia. apply rnd_le. change (bpow radix2 0) with 1. lra. }
  assert (Bq : Rabs (valR x / valR d) <= 1). { unfold Rdiv. rewrite Rabs_mult, (Rabs_pos_eq (/ _)) by (left; apply Rinv_0_lt_compat; lra). apply Rmult_le_reg_r with (valR d); [lra|]. rewrite Rmult_assoc, Rinv_l by lra. lra. }
  destruct (div_R x d F Fd) as (Fq & Vq); [lra|apply big_ge; lra|]. assert (Ed : valR (- x)%b32 / valR d = - (valR x / valR d)) by (rewrite Vo; unfold Rdiv; ring).
  destruct (div_R (- x)%b32 d Fo Fd) as (Fq' & Vq'); [lra|rewrite Ed, Rabs_Ropp; apply big_ge; lra|]. rewrite Ed, rnd_opp, <- Vq in Vq'.
  set (X := (x / d)%b32) in *. set (X' := (- x / d)%b32) in *. rewrite (abs_same X X' Fq Fq' Vq').
  assert (BX : Rabs (valR X) <= 1). { rewrite Vq. apply (rnd_abs_le _ 0); [lia|exact Bq]. }
  destruct cTa as (FA & VA). destruct cTb as (FB & VB). destruct cTc as (FC & VC). destruct (opp_R _ FA) as (FAo & VAo). rewrite VA in VAo. destruct (abs_R X Fq) as (FX & VX). pose proof (Rabs_pos (valR X)) as PX.
  assert (AX : app (absolute X) (Rabs (valR X)) 0) by (apply app_const; auto).
  assert (BA : 145 / 100 <= atA <= 146 / 100) by (unfold atA; lra). assert (BB : 218 / 100 <= atB <= 219 / 100) by (unfold atB; lra). assert (BC : 84 / 100 <= atC <= 85 / 100) by (unfold atC; lra).
  assert (A3 : app (- ofU 1069184083 * absolute X)%b32 (- atA * Rabs (valR X)) (4 / 10000000)).
  { apply app_mul with 0 (146 / 100) 0 1; [apply app_const; auto|apply Rabs_le; lra|exact AX|rewrite Rabs_Rabsolu; exact BX|num|num]. }
  assert (B3 : - (146 / 100) <= - atA * Rabs (valR X) <= 0) by nra.
  assert (A4 : app (- ofU 1069184083 * absolute X + ofU 1074517823)%b32 (- atA * Rabs (valR X) + atB) (6 / 10000000)).
  { apply app_add with (4 / 10000000) 0 (219 / 100); [exact A3|apply app_const; auto|apply Rabs_le; lra|num|num]. }
  assert (A5 : app (absolute X * (- ofU 1069184083 * absolute X + ofU 1074517823))%b32 (Rabs (valR X) * (- atA * Rabs (valR X) + atB)) (12 / 10000000)).
  { apply app_mul with 0 1 (6 / 10000000) (219 / 100); [exact AX|rewrite Rabs_Rabsolu; exact BX|exact A4|apply Rabs_le; lra|num|num]. }
  assert (B5 : 0 <= Rabs (valR X) * (- atA * Rabs (valR X) + atB) <= 219 / 100) by nra.
  assert (A6 : app (absolute X * (- ofU 1069184083 * absolute X + ofU 1074517823) + ofU 1062710114)%b32 (Rabs (valR X) * (- atA * Rabs (valR X) + atB) + atC) (14 / 10000000)).
  { apply app_add with (12 / 10000000) 0 (304 / 100); [exact A5|apply app_const; auto|apply Rabs_le; lra|num|num]. }
  set (c := (absolute X * (- ofU 1069184083 * absolute X + ofU 1074517823) + ofU 1062710114)%b32) in *.
  apply mult_odd; auto; [apply A6|]. apply fmax_100. rewrite Rabs_mult. pose proof (app_abs _ _ _ (304 / 100) A6 ltac:(apply Rabs_le; lra)) as K. pose proof (Rabs_pos (valR c)). nra.
Qed.

Lemma one_minus x : finite x -> -1 <= valR x <= 1 -> (flit 1 1 + - x)%b32 = (flit 1 1 - x)%b32.
Proof.
  intros F B. destruct (opp_R x F) as (Fo & Vo). destruct c1 as (F1 & V1). destruct (Req_dec (valR x) 1) as [E|E].
  - rewrite (val_inj x (flit 1 1)) by (auto; lra). apply bits_inj. vm_compute. reflexivity.
  - destruct (plus_R (flit 1 1) (- x)%b32 F1 Fo) as (Fp & Vp); [rewrite V1, Vo; apply big_ge, Rabs_le; lra|]. destruct (minus_R (flit 1 1) x F1 F) as (Fm & Vm); [rewrite V1; apply big_ge, Rabs_le; lra|].
    rewrite V1, Vo in Vp. rewrite V1 in Vm. apply val_inj; auto; [rewrite Vp, Vm; reflexivity|]. rewrite Vp. intros Z.
    pose proof (above_m1 (- x)%b32) as M. rewrite Vo in M. specialize (M ltac:(lra)). apply rnd_le in M. rewrite rnd_bpow, Z in M by lia. pose proof (bpow_gt_0 radix2 (-24)). lra.
Qed.
Lemma opp_opp (x : float) : is_nan 24 128 x = false -> (- - x)%b32 = x.
Proof. intros H. destruct x as [s|s|s pl|s m e Hb]; cbn; try discriminate H; rewrite ?negb_involutive; reflexivity. Qed.
Lemma fasin_odd x : finite x -> -1 <= valR x <= 1 -> valR (fasin (- x)%b32) = - valR (fasin x).
Proof.
  intros F B. destruct (opp_R x F) as (Fo & Vo). pose proof (one_minus x F B) as E1. pose proof (one_minus (- x)%b32 Fo ltac:(lra)) as E2. rewrite opp_opp in E2 by (apply fin_nan; exact F).
  unfold fasin. rewrite E1, <- E2. destruct c1 as (F1 & V1). destruct cA1 as (FA & VA). destruct cB1 as (FB & VB).
  destruct (plus_R (flit 1 1) x F1 F) as (Fp & Vp); [rewrite V1; apply big_ge, Rabs_le; lra|]. destruct (minus_R (flit 1 1) x F1 F) as (Fm & Vm); [rewrite V1; apply big_ge, Rabs_le; lra|].
  rewrite V1 in Vp, Vm. set (v := valR x) in *.
  assert (R1 : app (sqrt (flit 1 1 + x)%b32) (R_sqrt.sqrt (1 + v)) (3 / 1000000)).
  { apply root_app; auto; [lra|]. destruct (Req_dec v (-1)) as [E|E]; [left; lra|right; apply above_m1; fold v; lra]. }
  assert (R2 : app (sqrt (flit 1 1 - x)%b32) (R_sqrt.sqrt (1 - v)) (3 / 1000000)).
  { apply root_app; auto; [lra|]. destruct (Req_dec v 1) as [E|E]; [left; lra|right]. replace (1 - v) with (1 + valR (- x)%b32) by (rewrite Vo; fold v; ring). apply above_m1. rewrite Vo. fold v. lra. }
  destruct (asin_ok v B) as (_ & Bs). set (a := sqrt (flit 1 1 + x)%b32) in *. set (b := sqrt (flit 1 1 - x)%b32) in *. set (s := R_sqrt.sqrt (1 + v) - R_sqrt.sqrt (1 - v)) in *.
  assert (Bd : Rabs (valR a - valR b) <= 15 / 10). { destruct R1 as (_ & R1). destruct R2 as (_ & R2). apply Rabs_le_inv in R1. apply Rabs_le_inv in R2. apply Rabs_le_inv in Bs. unfold s in Bs. apply Rabs_le. lra. }
  destruct (minus_R a b (proj1 R1) (proj1 R2)) as (FX & VX); [apply big_ge; lra|]. destruct (minus_R b a (proj1 R2) (proj1 R1)) as (FX' & VX'); [rewrite Rabs_minus_sym; apply big_ge; lra|].
  replace (valR b - valR a) with (- (valR a - valR b)) in VX' by ring. rewrite rnd_opp, <- VX in VX'. set (X := (a - b)%b32) in *. set (X' := (b - a)%b32) in *. rewrite (abs_same X X' FX FX' VX').
  assert (BX : Rabs (valR X) <= 2). { rewrite VX. apply (rnd_abs_le _ 1); [lia|]. change (bpow radix2 1) with 2. lra. } destruct (abs_R X FX) as (Fb & Vb). pose proof (Rabs_pos (valR X)).
  assert (A3 : app (ofU 1040640679 * absolute X)%b32 (asA * Rabs (valR X)) (85 / 100000000)).
  { apply app_mul with 0 asA 0 2; [apply app_const; auto|unfold asA; rewrite Rabs_pos_eq by lra; lra|apply app_const; auto|rewrite Rabs_Rabsolu; exact BX|unfold asA; num|unfold asA; num]. }
  assert (B3 : 0 <= asA * Rabs (valR X) <= 3 / 10) by (unfold asA; lra).
  assert (A4 : app (ofU 1040640679 * absolute X + ofU 1064084720)%b32 (asA * Rabs (valR X) + asB) (95 / 100000000)).
  { apply app_add with (85 / 100000000) 0 (123 / 100); [exact A3|apply app_const; auto|apply Rabs_le; unfold asB; lra|num|num]. }
  set (c := (ofU 1040640679 * absolute X + ofU 1064084720)%b32) in *.
  apply mult_odd; auto; [apply A4|]. apply fmax_100. rewrite Rabs_mult. pose proof (app_abs _ _ _ (123 / 100) A4 ltac:(apply Rabs_le; unfold asB; lra)) as K. pose proof (Rabs_pos (valR c)). nra.
Qed.

(** small angles: atan(x) loses more than a tenth *)
Lemma atan_lower x : 0 < x <= / 100 -> 99 / 100 * x <= atan x.
Proof.
  intros H. destruct (Coquelicot.Derive.MVT_gen atan 0 x (fun c => / (1 + c * c))) as (c & Hc & E).
  - intros t _. apply is_derive_atan.
  - intros t _. apply derivable_continuous_pt. apply derivable_pt_atan.
  - rewrite atan_0, !Rminus_0_r in E. rewrite E. apply Rmult_le_compat_r; [lra|]. revert Hc. unfold Rmin, Rmax. destruct (Rle_dec 0 x); [|lra]. intros Hc.
    replace (99 / 100) with (/ (100 / 99)) by field. apply Rinv_le_contravar; nra.
Qed.
Lemma fatan_small x : finite x -> / 1000 <= Rabs (valR x) <= / 100 -> Rabs (valR (fatan x) - atan (valR x)) >= / 10 * Rabs (atan (valR x)).
Proof.
  intros F B. destruct (fatan_app x F) as (_ & E). set (v := valR x) in *. set (u := v / (Rabs v + 1)) in *. pose proof (Rabs_pos v).
  assert (Eu : Rabs u = Rabs v / (Rabs v + 1)). { unfold u, Rdiv. rewrite Rabs_mult, (Rabs_pos_eq (/ _)) by (left; apply Rinv_0_lt_compat; lra). reflexivity. }
  assert (Bu : 0 <= Rabs u <= Rabs v). { rewrite Eu. split; [apply Rmult_le_pos; [lra|left; apply Rinv_0_lt_compat; lra]|]. apply Rmult_le_reg_r with (Rabs v + 1); [lra|]. unfold Rdiv. rewrite Rmult_assoc, Rinv_l by lra. nra. }
  assert (BA : 145 / 100 <= atA <= 146 / 100) by (unfold atA; lra). assert (BB : 218 / 100 <= atB <= 219 / 100) by (unfold atB; lra). assert (BC : 84 / 100 <= atC <= 843 / 1000) by (unfold atC; lra).
  set (k := Rabs u * (- atA * Rabs u + atB) + atC) in *. assert (Bk : 0 <= k <= 866 / 1000) by (unfold k; nra).
  assert (K : Rabs (valR (fatan x)) <= 87 / 100 * Rabs v). { replace (valR (fatan x)) with (u * k + (valR (fatan x) - u * k)) by ring. eapply Rle_trans; [apply Rabs_triang|]. rewrite Rabs_mult, (Rabs_pos_eq k) by lra. nra. }
  assert (A : 99 / 100 * Rabs v <= Rabs (atan v)). { destruct (Rle_dec 0 v) as [L|L]; [rewrite (Rabs_pos_eq v) in * by lra; eapply Rle_trans; [apply atan_lower; lra|apply Rle_abs]|]. rewrite (Rabs_left v) in * by lra. eapply Rle_trans; [apply atan_lower; lra|]. rewrite atan_opp, <- Rabs_Ropp. apply Rle_abs. }
  assert (T : Rabs (atan v) <= Rabs (valR (fatan x)) + Rabs (valR (fatan x) - atan v)). { replace (atan v) with (valR (fatan x) - (valR (fatan x) - atan v)) at 1 by ring. eapply Rle_trans; [apply Rabs_triang|]. rewrite Rabs_Ropp. lra. }
  lra.
Qed.

(** the values of sin stay within one millionth of [-1,1] *)
Lemma fsin_range x : finite x -> Rabs (valR x) <= 8388608 -> Rabs (valR (fsin x)) <= 1000001 / 1000000.
Proof.
  intros F B. destruct (Rle_or_lt (Rabs (valR x)) (885837 / 134217728)) as [L|L].
  - destruct cThr as (Ft & Vt). destruct (abs_R x F) as (Fa & Va). unfold fsin. rewrite le_t by (auto; rewrite Va, Vt; lra). lra.
  - destruct (fsin_core x F (conj L B)) as (r & t & -> & Fr & Et & Er & Bt). pose proof (half_turns_near t) as N. rewrite <- Er in N.
    destruct (sin_poly_app r Fr N) as (_ & E).
    assert (Q : forall w, 0 <= w <= / 4 -> 0 <= sin_q w <= 10000001 / 10000000). { intros w Hw. unfold sin_q, sinA, sinB. nra. }
    assert (K : forall a, 0 <= a <= 1 -> 0 <= a * (1 - a) <= / 4). { intros a Ha. pose proof (Rle_0_sqr (a - / 2)) as S. unfold Rsqr in S. split; [nra|lra]. }
    apply Rabs_le_inv in N. apply Rabs_le_inv in E. destruct (Rle_dec 0 (valR r)) as [P|P].
    + pose proof (Q _ (K (valR r) ltac:(lra))). apply Rabs_le. lra.
    + pose proof (Q _ (K (- valR r) ltac:(lra))) as Q2. replace (1 - - valR r) with (1 + valR r) in Q2 by ring. apply Rabs_le. lra.
Qed.
Lemma fsin_small x : finite x -> Rabs (valR x) <= 6599 / 1000000 -> fsin x = x.
Proof.
  intros F B. destruct cThr as (Ft & Vt). destruct (abs_R x F) as (Fa & Va). unfold fsin. rewrite le_t by (auto; rewrite Va, Vt; lra). reflexivity.
Qed.
Lemma below_m1 x : valR x < -1 -> 1 + valR x <= - bpow radix2 (-23).
Proof.
  intros H. destruct (Rle_or_lt (valR x) (-2)) as [L|L]; [change (bpow radix2 (-23)) with (/ 8388608); lra|].
  pose proof (format_val x) as V. unfold generic_format in V. unfold cexp in V. rewrite (mag_unique radix2 (valR x) 1) in V.
  2: { rewrite Rabs_left by lra. change (bpow radix2 (1 - 1)) with 1. change (bpow radix2 1) with 2. lra. }
  change (FLT_exp (-149) 24 1) with (-23)%Z in V. unfold F2R in V. cbn [Fnum Fexp] in V. set (m := Ztrunc _) in V. clearbody m.
  change (bpow radix2 (-23)) with (/ 8388608) in *. assert (K : (m < - 8388608)%Z). { apply lt_IZR. rewrite V in H. lra. }
  assert (K2 : (m <= - 8388609)%Z) by lia. apply IZR_le in K2. rewrite V. lra.
Qed.
Lemma minus_nan_r x y : is_nan 24 128 y = true -> is_nan 24 128 (x - y)%b32 = true.
Proof. destruct x as [[]|[]|[]|[]], y as [[]|[]|[]|[]]; intros H; try discriminate H; reflexivity. Qed.
Lemma root_nan p v : finite p -> valR p = rnd v -> v <= - bpow radix2 (-23) -> is_nan 24 128 (sqrt p) = true.
Proof.
  intros F V B. destruct (sqrt_special p) as (_ & S & _). apply S; [apply fin_nan; exact F|]. rewrite ext32_finite by exact F. change (B2R 24 128 p) with (valR p). rewrite V. apply rnd_le in B. rewrite rnd_opp, rnd_bpow in B by lia. pose proof (bpow_gt_0 radix2 (-23)). lra.
Qed.
Lemma fasin_domain x : finite x -> 1 < Rabs (valR x) -> is_nan 24 128 (fasin x) = true /\ is_nan 24 128 (facos x) = true.
Proof.
  intros F B. assert (A : is_nan 24 128 (fasin x) = true); [|split; [exact A|]; unfold facos; apply minus_nan_r; exact A].
  destruct c1 as (F1 & V1). destruct (opp_R x F) as (Fo & Vo). pose proof (finite_le x) as M. apply Rabs_le_inv in M. unfold fasin. apply mult_nan_l. destruct (Rle_or_lt 0 (valR x)) as [L|L].
  - rewrite Rabs_pos_eq in B by auto. apply minus_nan_r. destruct (minus_M (flit 1 1) x F1 F) as (Fm & Vm); [rewrite V1; apply Rabs_le; lra|]. rewrite V1 in Vm.
    apply root_nan with (1 - valR x); auto. pose proof (below_m1 (- x)%b32) as K. rewrite Vo in K. specialize (K ltac:(lra)). lra.
  - rewrite Rabs_left in B by auto. apply minus_nan_l. destruct (plus_M (flit 1 1) x F1 F) as (Fm & Vm); [rewrite V1; apply Rabs_le; lra|]. rewrite V1 in Vm.
    apply root_nan with (1 + valR x); auto. apply below_m1. lra.
Qed.
