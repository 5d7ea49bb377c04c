(** The first-order low-pass filter in binary32 (C129). *)
From Coq Require Import ZArith Reals Lra Lia Bool List.
From Flocq Require Import Core IEEE754.BinarySingleNaN IEEE754.Binary IEEE754.Bits.
From Verif Require Import Base Arith Ffmath_Spec Float32 Smoother_Model Smoother_Spec Smoother_Proofs4.
Import ListNotations.
Open Scope R_scope.

Notation fe := (FLT_exp (-149) 24).
Notation fmt32 := (generic_format radix2 fe).
#[export] Instance vfe : Valid_exp fe. Proof. apply FLT_exp_valid. reflexivity. Qed.
Lemma fmt_rnd32 x : fmt32 (rnd x). Proof. apply generic_format_round; typeclasses eauto. Qed.

(** Every sum of two floats that is at most 2^-125 is a float. *)
Lemma fix149 x : fmt32 x -> exists k, x = IZR k * bpow radix2 (-149).
Proof.
  intros H. apply generic_format_FIX_FLT in H. unfold generic_format, scaled_mantissa, F2R, cexp, FIX_exp in H. cbn [Fnum Fexp] in H. eexists. exact H.
Qed.
Lemma tiny_sum x y : fmt32 x -> fmt32 y -> Rabs (x - y) <= bpow radix2 (-125) -> fmt32 (x - y).
Proof.
  intros Fx Fy B. destruct (fix149 x Fx) as (k & Ek). destruct (fix149 y Fy) as (l & El). apply generic_format_FLT_FIX; [reflexivity|exact B|].
  replace (x - y) with (F2R (Float radix2 (k - l) (-149))) by (unfold F2R; cbn [Fnum Fexp]; rewrite minus_IZR, Ek, El; ring). apply generic_format_FIX. eexists; [reflexivity|reflexivity].
Qed.
Lemma pred_le_real v : pred radix2 fe (rnd v) <= v.
Proof.
  assert (D : round radix2 fe Zfloor v <= v) by (apply round_DN_pt; typeclasses eauto).
  destruct (round_DN_or_UP radix2 fe ZnearestE v) as [E|E]; rewrite E.
  - eapply Rle_trans; [|exact D]. apply pred_le_id.
  - eapply Rle_trans; [|exact D]. apply pred_UP_le_DN; typeclasses eauto.
Qed.
(** A factor below one takes a normal float at least to its predecessor. *)
Lemma scale_pred a d : fmt32 d -> bpow radix2 (-125) <= d -> 0 <= a <= 1 - bpow radix2 (-24) -> rnd (a * d) <= pred radix2 fe d.
Proof.
  intros Fd Hd Ha. pose proof (bpow_gt_0 radix2 (-125)) as P0. assert (d0 : d <> 0) by lra.
  pose proof (bpow_mag_le radix2 d d0) as L. rewrite (Rabs_pos_eq d) in L by lra. pose proof (bpow_mag_gt radix2 d) as G. rewrite (Rabs_pos_eq d) in G by lra.
  set (e := mag radix2 d : Z) in *. assert (He : (-124 <= e)%Z). { assert ((-125 < e)%Z); [|lia]. apply (lt_bpow radix2). lra. }
  assert (AD : a * d <= d - d * bpow radix2 (-24)) by nra.
  rewrite pred_eq_pos by lra. unfold pred_pos. fold e. destruct (Req_bool_spec d (bpow radix2 (e - 1))) as [E|E].
  - assert (Q : d - bpow radix2 (fe (e - 1)) = d - d * bpow radix2 (-24)). { f_equal. rewrite E, <- bpow_plus. f_equal. unfold FLT_exp. lia. }
    rewrite Q. assert (Fq : fmt32 (d - d * bpow radix2 (-24))).
    { rewrite <- Q. assert (W : pred radix2 fe d = d - bpow radix2 (fe (e - 1))). { rewrite pred_eq_pos by lra. unfold pred_pos. fold e. rewrite Req_bool_true by exact E. reflexivity. } rewrite <- W. apply generic_format_pred; auto; typeclasses eauto. }
    apply round_le_generic; try typeclasses eauto; [exact Fq|exact AD].
  - assert (U : ulp radix2 fe d = bpow radix2 (e - 24)). { rewrite ulp_neq_0 by exact d0. unfold cexp. fold e. f_equal. unfold FLT_exp. lia. }
    assert (W : pred radix2 fe d = d - ulp radix2 fe d). { rewrite pred_eq_pos by lra. unfold pred_pos. fold e. rewrite Req_bool_false by exact E. reflexivity. }
    assert (Fp : fmt32 (d - ulp radix2 fe d)). { rewrite <- W. apply generic_format_pred; auto; typeclasses eauto. }
    apply round_N_le_midp; try typeclasses eauto; [exact Fp|]. rewrite <- W at 2. rewrite succ_pred by (auto; typeclasses eauto). rewrite U.
    assert (B2 : bpow radix2 (e - 24) = 2 * (bpow radix2 (e - 1) * bpow radix2 (-24))). { rewrite <- bpow_plus. change 2 with (bpow radix2 1). rewrite <- bpow_plus. f_equal. lia. }
    assert (SL : bpow radix2 (e - 1) * bpow radix2 (-24) < d * bpow radix2 (-24)). { apply Rmult_lt_compat_r; [apply bpow_gt_0|]. lra. }
    lra.
Qed.
(** One rounded step x + a (y - x) stays between x and y. *)
Lemma incr_up a x y : fmt32 x -> fmt32 y -> x <= y -> 0 <= a <= 1 - bpow radix2 (-24) -> 0 <= rnd (a * rnd (y - x)) <= y - x.
Proof.
  intros Fx Fy L Ha. set (d := rnd (y - x)). assert (D0 : 0 <= d) by (apply rnd_nonneg; lra). assert (Fd : fmt32 d) by apply fmt_rnd32.
  assert (u0 : 0 < bpow radix2 (-24)) by apply bpow_gt_0.
  split; [apply rnd_nonneg; apply Rmult_le_pos; lra|]. destruct (Rle_or_lt (y - x) (bpow radix2 (-125))) as [S|S].
  - assert (E : d = y - x). { apply round_generic; [typeclasses eauto|]. apply tiny_sum; auto. rewrite Rabs_pos_eq by lra. exact S. }
    rewrite <- E. apply round_le_generic; try typeclasses eauto; [exact Fd|nra].
  - assert (B : bpow radix2 (-125) <= d). { rewrite <- (rnd_bpow (-125)) by lia. apply rnd_le. lra. }
    eapply Rle_trans; [apply (scale_pred a d Fd B Ha)|]. apply pred_le_real.
Qed.
Lemma incr_between a x y : fmt32 x -> fmt32 y -> 0 <= a <= 1 - bpow radix2 (-24) -> Rmin x y <= x + rnd (a * rnd (y - x)) <= Rmax x y.
Proof.
  intros Fx Fy Ha. destruct (Rle_or_lt x y) as [L|L].
  - rewrite Rmin_left, Rmax_right by lra. pose proof (incr_up a x y Fx Fy L Ha). lra.
  - rewrite Rmin_right, Rmax_left by lra. pose proof (incr_up a (- x) (- y) (generic_format_opp _ _ _ Fx) (generic_format_opp _ _ _ Fy) ltac:(lra) Ha) as H.
    replace (- y - - x) with (- (y - x)) in H by ring. rewrite rnd_opp in H. replace (a * - rnd (y - x)) with (- (a * rnd (y - x))) in H by ring. rewrite rnd_opp in H. lra.
Qed.
Lemma fmt_min x y : fmt32 x -> fmt32 y -> fmt32 (Rmin x y). Proof. intros Fx Fy. unfold Rmin. destruct (Rle_dec x y); assumption. Qed.
Lemma fmt_max x y : fmt32 x -> fmt32 y -> fmt32 (Rmax x y). Proof. intros Fx Fy. unfold Rmax. destruct (Rle_dec x y); assumption. Qed.
Lemma step_between a x y : fmt32 x -> fmt32 y -> 0 <= a <= 1 - bpow radix2 (-24) -> Rmin x y <= rnd (x + rnd (a * rnd (y - x))) <= Rmax x y.
Proof.
  intros Fx Fy Ha. pose proof (incr_between a x y Fx Fy Ha) as H. split.
  - apply round_ge_generic; try typeclasses eauto; [apply fmt_min; assumption|lra].
  - apply round_le_generic; try typeclasses eauto; [apply fmt_max; assumption|lra].
Qed.
Lemma below_one a : finite a -> valR a < 1 -> valR a <= 1 - bpow radix2 (-24).
Proof.
  intros F H. assert (F1 : fmt32 1) by (apply (format_bpow 0); lia). replace (1 - bpow radix2 (-24)) with (pred radix2 fe 1).
  - apply pred_ge_gt; try typeclasses eauto; [apply format_val|exact F1|exact H].
  - rewrite pred_eq_pos by lra. unfold pred_pos. assert (E : (mag radix2 1 : Z) = 1%Z) by (apply mag_unique; change (bpow radix2 (1 - 1)) with 1; change (bpow radix2 1) with 2; rewrite Rabs_pos_eq; lra).
    rewrite E. rewrite Req_bool_true by reflexivity. reflexivity.
Qed.

Section Filter.
Variable o : oracles binary32.
Notation A := (B32 o).

Lemma smooth_step (f : lpf1 A) (x : binary32) : finite (f1_alpha f) -> 0 < valR (f1_alpha f) < 1 -> finite x -> (f1_init f = false -> finite (f1_y1 f)) ->
  let y1 := if f1_init f then x else f1_y1 f in Rabs (valR y1 - valR x) <= bpow radix2 127 -> Rabs (valR x) <= bpow radix2 127 -> Rabs (valR y1) <= bpow radix2 127 ->
  exists y, lpf1_smooth (A := A) x f = (y, mkLPF1 (A := A) (f1_alpha f) y false) /\ finite y /\ Rmin (valR x) (valR y1) <= valR y <= Rmax (valR x) (valR y1).
Proof.
  intros Fa Ha Fx Hi y1 W L1 L2. unfold lpf1_smooth. eexists. split; [reflexivity|]. cbn [fadd fsub fmul B32]. fold y1.
  assert (Fy : finite y1) by (unfold y1; destruct (f1_init f); auto).
  destruct (minus_R y1 x Fy Fx W) as (Fd & Vd). assert (Bd : Rabs (rnd (valR y1 - valR x)) <= bpow radix2 127) by (apply rnd_abs_le; [lia|exact W]).
  destruct (mult_R (f1_alpha f) _ Fa Fd) as (Fm & Vm). { rewrite Vd, Rabs_mult, (Rabs_pos_eq (valR (f1_alpha f))) by lra. pose proof (Rabs_pos (rnd (valR y1 - valR x))). nra. }
  pose proof (below_one _ Fa (proj2 Ha)) as B1. assert (Ha' : 0 <= valR (f1_alpha f) <= 1 - bpow radix2 (-24)) by lra.
  pose proof (incr_between _ _ _ (format_val x) (format_val y1) Ha') as S1. pose proof (step_between _ _ _ (format_val x) (format_val y1) Ha') as S2. rewrite Vd in Vm.
  destruct (plus_R x _ Fx Fm) as (Fp & Vp). { rewrite Vm. apply Rabs_le. apply Rabs_le_inv in L1. apply Rabs_le_inv in L2. revert S1. unfold Rmin, Rmax. destruct (Rle_dec _ _); lra. }
  split; [exact Fp|]. change (Rmin (valR x) (valR y1) <= valR (b32_plus mode_NE x (b32_mult mode_NE (f1_alpha f) (b32_minus mode_NE y1 x))) <= Rmax (valR x) (valR y1)). rewrite Vp, Vm. exact S2.
Qed.

Lemma feed_hull lo hi : hi - lo <= bpow radix2 127 -> - bpow radix2 127 <= lo -> hi <= bpow radix2 127 -> forall (xs : list binary32) (f : lpf1 A), finite (f1_alpha f) -> 0 < valR (f1_alpha f) < 1 ->
  Forall (fun x => finite x /\ lo <= valR x <= hi) xs -> (f1_init f = false -> finite (f1_y1 f) /\ lo <= valR (f1_y1 f) <= hi) ->
  Forall (fun y => finite y /\ lo <= valR y <= hi) (fst (feed (A := A) (lpf1_smooth (A := A)) xs f)).
Proof.
  intros W L1 L2. induction xs as [|x xs IH]; intros f Fa Ha Hx Hf; [constructor|]. inversion Hx as [|? ? (Fx & Bx) Hr]; subst.
  set (y1 := if f1_init f then x else f1_y1 f). assert (Y : lo <= valR y1 <= hi) by (unfold y1; destruct (f1_init f); [exact Bx|apply Hf; reflexivity]).
  destruct (smooth_step f x Fa Ha Fx) as (y & E & Fy & By); try (intros; apply Hf; assumption).
  { fold y1. apply Rabs_le. lra. } { apply Rabs_le. lra. } { fold y1. apply Rabs_le. lra. }
  assert (By' : lo <= valR y <= hi) by (fold y1 in By; revert By; unfold Rmin, Rmax; destruct (Rle_dec _ _); lra).
  cbn [feed]. rewrite E. specialize (IH (mkLPF1 (A := A) (f1_alpha f) y false) Fa Ha Hr ltac:(intros; auto)).
  destruct (feed (lpf1_smooth (A := A)) xs (mkLPF1 (A := A) (f1_alpha f) y false)) as (ys & f2). constructor; [auto|exact IH].
Qed.
Notation sm := (lpf1_smooth (A := A)).
Notation eta := (bpow radix2 (-150)).
Definition rate (a : R) : R := a * (1 + u32) * (1 + u32) * (1 + u32).

Lemma step_error (f : lpf1 A) (c : binary32) : finite (f1_alpha f) -> 0 < valR (f1_alpha f) < 1 -> finite c -> f1_init f = false -> finite (f1_y1 f) -> Rabs (valR c) <= bpow radix2 126 -> Rabs (valR (f1_y1 f)) <= bpow radix2 126 ->
  exists y, sm c f = (y, mkLPF1 (A := A) (f1_alpha f) y false) /\ finite y /\ Rabs (valR y) <= bpow radix2 126 /\
    Rabs (valR y - valR c) <= Rabs (valR (f1_y1 f) - valR c) /\
    Rabs (valR y - valR c) <= rate (valR (f1_alpha f)) * Rabs (valR (f1_y1 f) - valR c) + (u32 * Rabs (valR c) + 4 * eta).
Proof.
  intros Fa Ha Fc Hi Fy Bc By. set (y1 := f1_y1 f) in *. assert (P2 : bpow radix2 127 = 2 * bpow radix2 126) by (change 127%Z with (1 + 126)%Z; rewrite bpow_plus; reflexivity).
  assert (W : Rabs (valR y1 - valR c) <= bpow radix2 127). { rewrite P2. replace (valR y1 - valR c) with (valR y1 + - valR c) by ring. eapply Rle_trans; [apply Rabs_triang|]. rewrite Rabs_Ropp. lra. }
  destruct (smooth_step f c Fa Ha Fc) as (y & E & Fv & B); rewrite ?Hi; fold y1; auto; try (pose proof (Rabs_pos (valR c)); lra).
  rewrite Hi in B. fold y1 in B. exists y. split; [exact E|]. split; [exact Fv|].
  assert (Bv : Rabs (valR y) <= bpow radix2 126) by (apply Rabs_le_inv in Bc; apply Rabs_le_inv in By; apply Rabs_le; revert B; unfold Rmin, Rmax; destruct (Rle_dec _ _); lra).
  split; [exact Bv|]. split. { revert B. unfold Rmin, Rmax. destruct (Rle_dec _ _); unfold Rabs; destruct (Rcase_abs (valR y - valR c)); destruct (Rcase_abs (valR y1 - valR c)); lra. }
  assert (V : valR y = rnd (valR c + rnd (valR (f1_alpha f) * rnd (valR y1 - valR c)))).
  { unfold lpf1_smooth in E. rewrite Hi in E. fold y1 in E. injection E as E. rewrite <- E. cbn [fadd fsub fmul B32].
    destruct (minus_R y1 c Fy Fc W) as (Fd & Vd). assert (Bd : Rabs (rnd (valR y1 - valR c)) <= bpow radix2 127) by (apply rnd_abs_le; [lia|exact W]).
    destruct (mult_R (f1_alpha f) _ Fa Fd) as (Fm & Vm). { rewrite Vd, Rabs_mult, (Rabs_pos_eq (valR (f1_alpha f))) by lra. pose proof (Rabs_pos (rnd (valR y1 - valR c))). nra. }
    pose proof (below_one _ Fa (proj2 Ha)) as B1. assert (Ha' : 0 <= valR (f1_alpha f) <= 1 - bpow radix2 (-24)) by lra.
    pose proof (incr_between _ _ _ (format_val c) (format_val y1) Ha') as S1. rewrite Vd in Vm.
    destruct (plus_R c _ Fc Fm) as (Fp & Vp). { rewrite Vm. apply Rabs_le. apply Rabs_le_inv in Bc. apply Rabs_le_inv in By. revert S1. unfold Rmin, Rmax. destruct (Rle_dec _ _); lra. }
    change (valR (b32_plus mode_NE c (b32_mult mode_NE (f1_alpha f) (b32_minus mode_NE y1 c))) = rnd (valR c + rnd (valR (f1_alpha f) * rnd (valR y1 - valR c)))). rewrite Vp, Vm. reflexivity. }
  rewrite V. set (a := valR (f1_alpha f)) in *. set (e := valR y1 - valR c) in *. set (d := rnd e). set (m := rnd (a * d)).
  pose proof (rnd_err e) as E1. fold d in E1. pose proof (rnd_err (a * d)) as E2. fold m in E2. pose proof (rnd_err (valR c + m)) as E3.
  assert (U : 0 < u32 <= / 1000000) by (split; [apply bpow_gt_0|change u32 with (/ 16777216); lra]). assert (H0 : 0 < eta) by apply bpow_gt_0.
  set (u := u32) in *. set (h := eta) in *.
  assert (D : Rabs d <= (1 + u) * Rabs e + h). { replace d with (e + (d - e)) by ring. eapply Rle_trans; [apply Rabs_triang|]. lra. }
  assert (M : Rabs m <= (1 + u) * (a * Rabs d) + h). { replace m with (a * d + (m - a * d)) by ring. eapply Rle_trans; [apply Rabs_triang|]. rewrite Rabs_mult, (Rabs_pos_eq a) in * by lra. lra. }
  assert (C : Rabs (valR c + m) <= Rabs (valR c) + Rabs m) by apply Rabs_triang.
  assert (Y : Rabs (rnd (valR c + m) - valR c) <= (1 + u) * Rabs m + u * Rabs (valR c) + h).
  { replace (rnd (valR c + m) - valR c) with ((rnd (valR c + m) - (valR c + m)) + m) by ring. eapply Rle_trans; [apply Rabs_triang|].
    assert (u * Rabs (valR c + m) <= u * (Rabs (valR c) + Rabs m)) by (apply Rmult_le_compat_l; lra). lra. }
  eapply Rle_trans; [exact Y|]. unfold rate. fold u.
  assert (AD : a * Rabs d <= a * ((1 + u) * Rabs e + h)) by (apply Rmult_le_compat_l; lra).
  assert (MM : (1 + u) * Rabs m <= (1 + u) * ((1 + u) * (a * ((1 + u) * Rabs e + h)) + h)). { apply Rmult_le_compat_l; [lra|]. eapply Rle_trans; [exact M|]. apply Rplus_le_compat_r. apply Rmult_le_compat_l; lra. }
  assert (K : (1 + u) * ((1 + u) * (a * ((1 + u) * Rabs e + h)) + h) <= a * (1 + u) * (1 + u) * (1 + u) * Rabs e + 3 * h).
  { replace ((1 + u) * ((1 + u) * (a * ((1 + u) * Rabs e + h)) + h)) with (a * (1 + u) * (1 + u) * (1 + u) * Rabs e + ((1 + u) * (1 + u) * a + (1 + u)) * h) by ring. apply Rplus_le_compat_l. apply Rmult_le_compat_r; [lra|]. nra. }
  lra.
Qed.

Lemma feed_settle_strong (c : binary32) : finite c -> Rabs (valR c) <= bpow radix2 126 -> forall n (f : lpf1 A), finite (f1_alpha f) -> 0 < valR (f1_alpha f) < 1 -> rate (valR (f1_alpha f)) < 1 ->
  f1_init f = false -> finite (f1_y1 f) -> Rabs (valR (f1_y1 f)) <= bpow radix2 126 ->
  let f' := snd (feed (A := A) sm (repeat c n) f) in
  Rabs (valR (f1_y1 f') - valR c) <= Rabs (valR (f1_y1 f) - valR c) /\
  Rabs (valR (f1_y1 f') - valR c) <= rate (valR (f1_alpha f)) ^ n * Rabs (valR (f1_y1 f) - valR c) + (u32 * Rabs (valR c) + 4 * eta) * (1 - rate (valR (f1_alpha f)) ^ n) / (1 - rate (valR (f1_alpha f))).
Proof.
  intros Fc Bc. induction n as [|n IH]; intros f Fa Ha Hr Hi Fy By; cbv zeta.
  - cbn [repeat feed snd pow]. split; [lra|]. replace (1 - 1) with 0 by ring. unfold Rdiv. rewrite Rmult_0_r, Rmult_0_l. lra.
  - destruct (step_error f c Fa Ha Fc Hi Fy Bc By) as (y & E & Fv & Bv & M & K). cbn [repeat feed]. rewrite E.
    specialize (IH (mkLPF1 (A := A) (f1_alpha f) y false) Fa Ha Hr eq_refl Fv Bv). cbv zeta in IH. cbn [f1_alpha f1_y1] in IH.
    destruct (feed sm (repeat c n) (mkLPF1 (A := A) (f1_alpha f) y false)) as (ys & f2). cbn [snd] in *. destruct IH as (I1 & I2). split; [lra|].
    eapply Rle_trans; [exact I2|]. set (r := rate (valR (f1_alpha f))) in *. set (g := u32 * Rabs (valR c) + 4 * eta) in *. set (e := Rabs (valR (f1_y1 f) - valR c)) in *.
    assert (R0 : 0 <= r). { unfold r, rate. pose proof (bpow_gt_0 radix2 (-24)). repeat apply Rmult_le_pos; lra. }
    assert (P : 0 <= r ^ n) by (apply pow_le; exact R0). cbn [pow].
    replace (r * r ^ n * e + g * (1 - r * r ^ n) / (1 - r)) with (r ^ n * (r * e + g) + g * (1 - r ^ n) / (1 - r)) by (field; lra).
    apply Rplus_le_compat_r. apply Rmult_le_compat_l; [exact P|exact K].
Qed.
Lemma feed_settle (c : binary32) : finite c -> Rabs (valR c) <= bpow radix2 126 -> forall n (f : lpf1 A), finite (f1_alpha f) -> 0 < valR (f1_alpha f) < 1 -> rate (valR (f1_alpha f)) < 1 ->
  f1_init f = false -> finite (f1_y1 f) -> Rabs (valR (f1_y1 f)) <= bpow radix2 126 ->
  let f' := snd (feed (A := A) sm (repeat c n) f) in
  Rabs (valR (f1_y1 f') - valR c) <= Rabs (valR (f1_y1 f) - valR c) /\
  Rabs (valR (f1_y1 f') - valR c) <= rate (valR (f1_alpha f)) ^ n * Rabs (valR (f1_y1 f) - valR c) + (u32 * Rabs (valR c) + 4 * eta) / (1 - rate (valR (f1_alpha f))).
Proof.
  intros Fc Bc n f Fa Ha Hr Hi Fy By f'. destruct (feed_settle_strong c Fc Bc n f Fa Ha Hr Hi Fy By) as (A1 & A2). fold f' in A1, A2. split; [exact A1|]. eapply Rle_trans; [exact A2|]. apply Rplus_le_compat_l.
  set (r := rate (valR (f1_alpha f))) in *. assert (R0 : 0 <= r). { unfold r, rate. pose proof (bpow_gt_0 radix2 (-24)). repeat apply Rmult_le_pos; lra. }
  assert (P : 0 <= r ^ n) by (apply pow_le; exact R0). unfold Rdiv. apply Rmult_le_compat_r; [left; apply Rinv_0_lt_compat; lra|].
  pose proof (bpow_gt_0 radix2 (-24)) as H. pose proof (bpow_gt_0 radix2 (-150)). pose proof (Rmult_le_pos _ _ (Rlt_le _ _ H) (Rabs_pos (valR c))). nra.
Qed.

Lemma feed_app (xs ys : list binary32) : forall f : lpf1 A, feed (A := A) sm (xs ++ ys) f = (fst (feed (A := A) sm xs f) ++ fst (feed (A := A) sm ys (snd (feed (A := A) sm xs f))), snd (feed (A := A) sm ys (snd (feed (A := A) sm xs f)))).
Proof.
  induction xs as [|x xs IH]; intros f. { cbn [app feed fst snd]. destruct (feed sm ys f). reflexivity. }
  change ((x :: xs) ++ ys) with (x :: (xs ++ ys)). cbn [feed]. destruct (sm x f) as (y & f1). rewrite (IH f1). destruct (feed sm xs f1) as (zs & f2). reflexivity.
Qed.
Lemma feed_last (xs : list binary32) d : forall f : lpf1 A, xs <> [] -> last (fst (feed (A := A) sm xs f)) d = f1_y1 (snd (feed (A := A) sm xs f)) /\ f1_init (snd (feed (A := A) sm xs f)) = false /\ f1_alpha (snd (feed (A := A) sm xs f)) = f1_alpha f.
Proof.
  induction xs as [|x xs IH]; intros f H; [congruence|]. cbn [feed]. destruct (sm x f) as (y & f1) eqn:E. assert (Q : f1_y1 f1 = y /\ f1_init f1 = false /\ f1_alpha f1 = f1_alpha f) by (unfold lpf1_smooth in E; injection E as E1 E2; rewrite <- E1, <- E2; auto).
  destruct xs as [|x2 xs]; [cbn; intuition congruence|]. specialize (IH f1 ltac:(congruence)). remember (x2 :: xs) as l. destruct (feed sm l f1) as (ys & f2) eqn:G. cbn [fst snd] in *. destruct Q as (Q1 & Q2 & Q3). rewrite Q3 in IH.
  destruct ys as [|z ys]; [exfalso; subst l; cbn [feed] in G; destruct (sm x2 f1); destruct (feed sm xs l); discriminate|]. change (last (y :: z :: ys) d) with (last (z :: ys) d). exact IH.
Qed.
Lemma setup_ok a (f0 f : lpf1 A) : lpf1_setup (A := A) a f0 = (true, f) -> finite a /\ 0 < valR a < 1 /\ f1_alpha f = a /\ f1_init f = true.
Proof.
  unfold lpf1_setup. destruct (unit_open (A := A) a) eqn:E; [|discriminate]. intros H. injection H as <-. apply unit_open_b32 in E. destruct E as (E1 & E2). auto.
Qed.
Lemma run_settle a (f0 f : lpf1 A) (xs : list binary32) (c : binary32) n : lpf1_setup (A := A) a f0 = (true, f) -> xs <> [] -> Forall (fun x => finite x /\ Rabs (valR x) <= bpow radix2 126) xs -> finite c -> Rabs (valR c) <= bpow radix2 126 -> rate (valR a) < 1 ->
  let y0 := last (fst (feed (A := A) sm xs f)) (lit 0 1) in let yn := last (fst (feed (A := A) sm (xs ++ repeat c n) f)) (lit 0 1) in
  Rabs (valR yn - valR c) <= Rabs (valR y0 - valR c) /\ Rabs (valR yn - valR c) <= rate (valR a) ^ n * Rabs (valR y0 - valR c) + (u32 * Rabs (valR c) + 4 * eta) / (1 - rate (valR a)).
Proof.
  intros HS N HX Fc Bc Hr y0 yn. destruct (setup_ok a f0 f HS) as (Fa & Ha & Ea & Ei). destruct (feed_last xs (lit 0 1) f N) as (L1 & L2 & L3).
  assert (H0 : finite y0 /\ - bpow radix2 126 <= valR y0 <= bpow radix2 126).
  { assert (G : Forall (fun y => finite y /\ - bpow radix2 126 <= valR y <= bpow radix2 126) (fst (feed (A := A) sm xs f))).
    { apply feed_hull; try (rewrite Ea; assumption); try (rewrite Ei; discriminate).
      - change 127%Z with (1 + 126)%Z. rewrite bpow_plus. change (bpow radix2 1) with 2. lra.
      - apply Ropp_le_contravar. apply bpow_le. lia.
      - apply bpow_le. lia.
      - revert HX. apply Forall_impl. intros x (Q1 & Q2). apply Rabs_le_inv in Q2. auto. }
    rewrite Forall_forall in G. apply G. unfold y0. destruct (fst (feed (A := A) sm xs f)) eqn:Z0.
    - exfalso. destruct xs; [congruence|]. cbn [feed] in Z0. destruct (sm _ _). destruct (feed sm xs l). discriminate.
    - rewrite <- Z0. assert (W : fst (feed sm xs f) <> []) by congruence. rewrite (app_removelast_last (lit 0 1) W) at 2. apply in_or_app. right. left. reflexivity. }
  destruct H0 as (F0 & B0). destruct n as [|n].
  - unfold yn. cbn [repeat]. rewrite app_nil_r. fold y0. split; [lra|]. cbn [pow]. assert (0 <= (u32 * Rabs (valR c) + 4 * eta) / (1 - rate (valR a))); [|lra].
    apply Rmult_le_pos; [|left; apply Rinv_0_lt_compat; lra]. pose proof (bpow_gt_0 radix2 (-24)) as H. pose proof (bpow_gt_0 radix2 (-150)). pose proof (Rmult_le_pos _ _ (Rlt_le _ _ H) (Rabs_pos (valR c))). lra.
  - set (g := snd (feed (A := A) sm xs f)) in *.
    assert (EY : yn = f1_y1 (snd (feed (A := A) sm (repeat c (S n)) g))). { unfold yn. destruct (feed_last (xs ++ repeat c (S n)) (lit 0 1) f) as (Q & _); [destruct xs; discriminate|]. rewrite Q, feed_app. reflexivity. }
    assert (E0 : y0 = f1_y1 g) by exact L1. rewrite EY, E0. rewrite <- Ea, <- L3. apply feed_settle; auto; try (rewrite L3, Ea; assumption); rewrite <- E0; [exact F0|]. apply Rabs_le. exact B0.
Qed.
Lemma stall_run (f : lpf1 A) (c y : binary32) n : sm c f = (y, f) -> fst (feed (A := A) sm (repeat c n) f) = repeat y n.
Proof. intros E. induction n as [|n IH]; [reflexivity|]. cbn [repeat feed]. rewrite E. destruct (feed sm (repeat c n) f) as (ys & g). cbn [fst] in *. rewrite IH. reflexivity. Qed.
End Filter.
