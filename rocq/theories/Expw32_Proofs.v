(** The exponentially weighted mean in binary32 (C136). *)
From Coq Require Import ZArith Reals Lra Lia Bool List.
From Flocq Require Import Core IEEE754.BinarySingleNaN IEEE754.Binary IEEE754.Bits.
From Verif Require Import Base Arith Ffmath_Spec Float32 Ffmath_Proofs14 Smoother_Model Smoother_Spec Fir32_Spec Fir32_Proofs Numa32_Proofs Kalman32_Proofs.
Import ListNotations.
Open Scope R_scope.

(** One step with the weight [iw]. *)
Definition blend (iw m x : R) : R := rnd (rnd (m * rnd (1 - iw)) + rnd (iw * x)).

Lemma blend_err iw m x M : 0 <= iw <= 1 -> bpow radix2 (-100) <= M -> Rabs m <= 3 / 2 * M -> Rabs x <= M ->
  Rabs (rnd (m * rnd (1 - iw))) <= 2 * M /\ Rabs (rnd (iw * x)) <= 2 * M /\ Rabs (blend iw m x - (m * (1 - iw) + iw * x)) <= 8 * (u32 * M).
Proof.
  intros Hi HM Bm Bx. unfold blend. pose proof u_pos as U. pose proof eta_pos as E.
  assert (M0 : 0 < M) by (pose proof (bpow_gt_0 radix2 (-100)); lra).
  assert (Eu : 16 * eta <= u32 * M).
  { change 16 with (bpow radix2 4). rewrite <- bpow_plus. apply Rle_trans with (u32 * bpow radix2 (-100)); [change u32 with (bpow radix2 (-24)); rewrite <- bpow_plus; apply bpow_le; lia|]. apply Rmult_le_compat_l; lra. }
  assert (Us : u32 * M <= / 1000 * M). { apply Rmult_le_compat_r; [lra|]. change u32 with (/ 16777216). lra. }
  assert (C : 0 <= rnd (1 - iw) <= 1) by (split; [apply rnd_ge; [apply rnd_0|lra]|apply rnd_le_c; [apply rnd_1|lra]]).
  pose proof (rnd_err (1 - iw)) as E0. rewrite (Rabs_pos_eq (1 - iw)) in E0 by lra.
  set (c := rnd (1 - iw)) in *.
  assert (A1 : Rabs (m * c) <= 3 / 2 * M). { rewrite Rabs_mult, (Rabs_pos_eq c) by lra. pose proof (Rabs_pos m). nra. }
  assert (A2 : Rabs (iw * x) <= M). { rewrite Rabs_mult, (Rabs_pos_eq iw) by lra. pose proof (Rabs_pos x). nra. }
  assert (A3 : Rabs (m * c - m * (1 - iw)) <= 3 / 2 * (u32 * M) + 2 * (eta * M)).
  { replace (m * c - m * (1 - iw)) with (m * (c - (1 - iw))) by ring. rewrite Rabs_mult.
    apply Rle_trans with (3 / 2 * M * (u32 + eta)); [|nra]. apply Rmult_le_compat; try apply Rabs_pos; [exact Bm|]. nra. }
  assert (Ee : eta * M <= / 100 * (u32 * M)). { rewrite <- Rmult_assoc. apply Rmult_le_compat_r; [lra|]. apply Rle_trans with (bpow radix2 (-40)); [apply bpow_le; lia|]. change u32 with (/ 16777216). change (bpow radix2 (-40)) with (/ 1099511627776). lra. }
  pose proof (rnd_err (m * c)) as E1. pose proof (rnd_err (iw * x)) as E2.
  assert (B1 : u32 * Rabs (m * c) <= 3 / 2 * (u32 * M)) by nra. assert (B2 : u32 * Rabs (iw * x) <= u32 * M) by (apply Rmult_le_compat_l; lra).
  set (p := rnd (m * c)) in *. set (q := rnd (iw * x)) in *.
  assert (P : Rabs p <= 2 * M). { replace p with ((p - m * c) + m * c) by ring. eapply Rle_trans; [apply Rabs_triang|]. lra. }
  assert (Q : Rabs q <= 2 * M). { replace q with ((q - iw * x) + iw * x) by ring. eapply Rle_trans; [apply Rabs_triang|]. lra. }
  split; [exact P|]. split; [exact Q|].
  assert (V : Rabs (m * (1 - iw) + iw * x) <= 3 / 2 * M).
  { eapply Rle_trans; [apply Rabs_triang|]. rewrite !Rabs_mult, (Rabs_pos_eq (1 - iw)), (Rabs_pos_eq iw) by lra. nra. }
  assert (D : Rabs (p + q - (m * (1 - iw) + iw * x)) <= 4 * (u32 * M) + / 4 * (u32 * M)).
  { replace (p + q - (m * (1 - iw) + iw * x)) with ((p - m * c) + (q - iw * x) + (m * c - m * (1 - iw))) by ring.
    eapply Rle_trans; [apply Rabs_triang|]. eapply Rle_trans; [apply Rplus_le_compat_r, Rabs_triang|]. lra. }
  assert (S1 : Rabs (p + q) <= 2 * M). { replace (p + q) with ((p + q - (m * (1 - iw) + iw * x)) + (m * (1 - iw) + iw * x)) by ring. eapply Rle_trans; [apply Rabs_triang|]. lra. }
  pose proof (rnd_err (p + q)) as E3. assert (B3 : u32 * Rabs (p + q) <= 2 * (u32 * M)) by nra.
  replace (rnd (p + q) - (m * (1 - iw) + iw * x)) with ((rnd (p + q) - (p + q)) + (p + q - (m * (1 - iw) + iw * x))) by ring. eapply Rle_trans; [apply Rabs_triang|]. lra.
Qed.

Lemma blend_hull (j : Z) iw m x lo hi M : (1 <= j <= 20)%Z -> bpow radix2 (- j) <= iw <= 1 -> bpow radix2 (-100) <= M -> Rabs lo <= M -> Rabs hi <= M ->
  lo <= x <= hi -> lo - bpow radix2 (j - 21) * M <= m <= hi + bpow radix2 (j - 21) * M ->
  lo - bpow radix2 (j - 21) * M <= blend iw m x <= hi + bpow radix2 (j - 21) * M.
Proof.
  intros Hj Hi HM Bl Bh Hx Hm. apply Rabs_le_inv in Bl. apply Rabs_le_inv in Bh.
  assert (M0 : 0 < M) by (pose proof (bpow_gt_0 radix2 (-100)); lra). pose proof (bpow_gt_0 radix2 (- j)) as Pj.
  assert (E1 : bpow radix2 (j - 21) * bpow radix2 (- j) = 8 * u32).
  { rewrite <- bpow_plus. replace (j - 21 + - j)%Z with (-21)%Z by lia. change (bpow radix2 (-21)) with (/ 2097152). change u32 with (/ 16777216). lra. }
  assert (E2 : bpow radix2 (j - 21) <= 1 / 2). { apply Rle_trans with (bpow radix2 (-1)); [apply bpow_le; lia|]. change (bpow radix2 (-1)) with (/ 2). lra. }
  pose proof (bpow_gt_0 radix2 (j - 21)) as Pe. set (b := bpow radix2 (j - 21)) in *. set (e := b * M) in *.
  assert (He : 0 <= e <= 1 / 2 * M) by (unfold e; split; [apply Rmult_le_pos; lra|apply Rmult_le_compat_r; lra]).
  assert (Ei : 8 * (u32 * M) <= e * iw). { unfold e. replace (8 * (u32 * M)) with (b * M * bpow radix2 (- j)) by (rewrite <- Rmult_assoc, <- E1; ring). apply Rmult_le_compat_l; [apply He|apply Hi]. }
  destruct (blend_err iw m x M) as (_ & _ & D); [lra|exact HM|apply Rabs_le; lra|apply Rabs_le; lra|]. apply Rabs_le_inv in D.
  clear Hj E1 E2. split; nra.
Qed.

Section O.
Variable o : oracles binary32.
Local Notation one := (lit (a := B32 o) 1 1 : binary32).

Definition eok (j : Z) (lo hi M : R) (f : expw (B32 o)) : Prop :=
  (finite (e_lambda f) /\ 0 < valR (e_lambda f) <= 1 - bpow radix2 (- j)) /\
  (e_init f = false -> (finite (e_m f) /\ lo - bpow radix2 (j - 21) * M <= valR (e_m f) <= hi + bpow radix2 (j - 21) * M) /\ (finite (e_w f) /\ 1 <= valR (e_w f) <= bpow radix2 j)).

Lemma rnd_pm1 j : (1 <= j <= 20)%Z -> rnd (bpow radix2 j - 1) = bpow radix2 j - 1.
Proof.
  intros Hj. assert (E : bpow radix2 j - 1 = IZR (2 ^ j - 1)) by (rewrite minus_IZR; f_equal; rewrite <- IZR_Zpower by lia; reflexivity).
  rewrite E. assert (B : (2 ^ j <= 2 ^ 20)%Z) by (apply Z.pow_le_mono_r; lia). assert (B0 : (0 < 2 ^ j)%Z) by (apply Z.pow_pos_nonneg; lia).
  destruct (ofZ_R (2 ^ j - 1)) as (_ & V); [change (2 ^ 20)%Z with 1048576%Z in B; lia|]. rewrite <- V. apply rnd_val.
Qed.

Lemma estep (j : Z) (lo hi M : R) (x : binary32) (f : expw (B32 o)) : (1 <= j <= 20)%Z -> bpow radix2 (-100) <= M <= bpow radix2 100 -> Rabs lo <= M -> Rabs hi <= M ->
  finite x -> lo <= valR x <= hi -> eok j lo hi M f ->
  let y := fst (expw_smooth (A := B32 o) x f) in let f' := snd (expw_smooth (A := B32 o) x f) in
  (finite (y : binary32) /\ lo - bpow radix2 (j - 21) * M <= valR y <= hi + bpow radix2 (j - 21) * M) /\ eok j lo hi M f'.
Proof.
  intros Hj HM Bl Bh Fx Hx ((Fl & Hl) & Hi).
  pose proof (rnd_pm1 j Hj) as Rj. assert (Rj1 : rnd (bpow radix2 j) = bpow radix2 j) by (apply rnd_bpow; lia). assert (Rj2 : rnd (bpow radix2 (- j)) = bpow radix2 (- j)) by (apply rnd_bpow; lia).
  assert (J20 : 2 <= bpow radix2 j <= bpow radix2 20) by (split; [change 2 with (bpow radix2 1)|]; apply bpow_le; lia). change (bpow radix2 20) with 1048576 in J20.
  assert (Jinv : bpow radix2 j * bpow radix2 (- j) = 1) by (rewrite <- bpow_plus; replace (j + - j)%Z with 0%Z by lia; reflexivity).
  pose proof (bpow_gt_0 radix2 (- j)) as Pj. assert (E2 : bpow radix2 (j - 21) <= 1 / 2). { apply Rle_trans with (bpow radix2 (-1)); [apply bpow_le; lia|]. change (bpow radix2 (-1)) with (/ 2). lra. }
  pose proof (bpow_gt_0 radix2 (j - 21)) as Pe. assert (HB3 : forall v, Rabs v <= bpow radix2 103 -> Rabs v <= big) by (intros v Hv; eapply Rle_trans; [exact Hv|apply bpow_le; lia]).
  assert (P103 : bpow radix2 103 = 8 * bpow radix2 100) by (change 103%Z with (3 + 100)%Z; rewrite bpow_plus; reflexivity).
  assert (P100 : 1048576 <= bpow radix2 100) by (change 1048576 with (bpow radix2 20); apply bpow_le; lia).
  pose proof (bpow_gt_0 radix2 (-100)) as Pm. pose proof (blend_hull j) as BH. specialize (fun iw m x lo hi M => BH iw m x lo hi M Hj).
  assert (HS : forall v, 0 <= v <= 1048576 -> Rabs v <= big) by (intros v Hv; apply HB3; rewrite Rabs_pos_eq; lra).
  assert (HM4 : forall v, Rabs v <= 4 * M -> Rabs v <= big) by (intros v Hv; apply HB3; lra).
  assert (He : 0 <= bpow radix2 (j - 21) * M <= 1 / 2 * M) by (split; [apply Rmult_le_pos; lra|apply Rmult_le_compat_r; lra]).
  apply Rabs_le_inv in Bl as Bl'. apply Rabs_le_inv in Bh as Bh'. assert (Bx : Rabs (valR x) <= M) by (apply Rabs_le; lra).
  set (e := bpow radix2 (j - 21) * M) in *. assert (F1 : finite one) by reflexivity.
  assert (V1 : valR one = 1) by apply one_R.
  assert (Hm0 : exists m0, m0 = (if e_init f then x else e_m f) /\ finite m0 /\ lo - e <= valR m0 <= hi + e). { eexists. split; [reflexivity|]. destruct (e_init f); [split; [exact Fx|lra]|apply Hi; reflexivity]. }
  assert (Hw0 : exists w0, w0 = (if e_init f then one else e_w f) /\ finite w0 /\ 1 <= valR w0 <= bpow radix2 j). { eexists. split; [reflexivity|]. destruct (e_init f); [split; [exact F1|rewrite V1; lra]|apply Hi; reflexivity]. }
  destruct Hm0 as (m0 & Em0 & Fm0 & Hm0). destruct Hw0 as (w0 & Ew0 & Fw0 & Hw0). assert (Bm0 : Rabs (valR m0) <= 3 / 2 * M) by (apply Rabs_le; lra).
  assert (Q1 : 0 <= valR (e_lambda f) * valR w0 <= bpow radix2 j - 1).
  { split; [apply Rmult_le_pos; lra|]. apply Rle_trans with ((1 - bpow radix2 (- j)) * bpow radix2 j); [apply Rmult_le_compat; lra|lra]. }
  destruct (mult_R (e_lambda f) w0 Fl Fw0) as (Flw & Vlw); [apply HS; lra|].
  assert (Q2 : 0 <= valR (b32_mult mode_NE (e_lambda f) w0) <= bpow radix2 j - 1) by (rewrite Vlw; split; [apply rnd_ge; [apply rnd_0|apply Q1]|apply rnd_le_c; [exact Rj|apply Q1]]).
  remember (b32_mult mode_NE (e_lambda f) w0) as lw eqn:Eqlw.
  destruct (plus_R lw one Flw F1) as (Fw & Vw); [rewrite V1; apply HS; lra|]. rewrite V1 in Vw.
  assert (Hw : 1 <= valR (b32_plus mode_NE lw one) <= bpow radix2 j) by (rewrite Vw; split; [apply rnd_ge; [apply rnd_1|lra]|apply rnd_le_c; [exact Rj1|lra]]).
  remember (b32_plus mode_NE lw one) as w eqn:Eqw. assert (Nw : valR w <> 0) by lra.
  assert (Q3 : bpow radix2 (- j) <= 1 / valR w <= 1).
  { split; apply Rmult_le_reg_r with (valR w); try lra; unfold Rdiv; rewrite Rmult_assoc, Rinv_l by exact Nw; [|lra].
    apply Rle_trans with (bpow radix2 (- j) * bpow radix2 j); [apply Rmult_le_compat_l; lra|lra]. }
  destruct (div_R one w F1 Fw Nw) as (Fi & Vi); [rewrite V1; apply HS; lra|]. rewrite V1 in Vi.
  assert (Hiw : bpow radix2 (- j) <= valR (b32_div mode_NE one w) <= 1) by (rewrite Vi; split; [apply rnd_ge; [exact Rj2|apply Q3]|apply rnd_le_c; [apply rnd_1|apply Q3]]).
  remember (b32_div mode_NE one w) as iw eqn:Eqiw. assert (Hiw0 : 0 <= valR iw <= 1) by lra.
  destruct (minus_R one iw F1 Fi) as (Fc & Vc); [rewrite V1; apply HS; lra|]. rewrite V1 in Vc.
  destruct (blend_err (valR iw) (valR m0) (valR x) M Hiw0 (proj1 HM) Bm0 Bx) as (A1 & A2 & A3).
  assert (C : 0 <= rnd (1 - valR iw) <= 1) by (split; [apply rnd_ge; [apply rnd_0|lra]|apply rnd_le_c; [apply rnd_1|lra]]). rewrite <- Vc in C, A1.
  remember (b32_minus mode_NE one iw) as c eqn:Eqc.
  destruct (mult_R m0 c Fm0 Fc) as (Fp & Vp). { apply HM4. rewrite Rabs_mult, (Rabs_pos_eq (valR c)) by apply C. pose proof (Rabs_pos (valR m0)) as P0. clear - P0 Bm0 C. nra. }
  destruct (mult_R iw x Fi Fx) as (Fq & Vq). { apply HM4. rewrite Rabs_mult, (Rabs_pos_eq (valR iw)) by apply Hiw0. pose proof (Rabs_pos (valR x)) as P0. clear - P0 Bx Hiw0. nra. }
  rewrite <- Vp in A1. rewrite <- Vq in A2. remember (b32_mult mode_NE m0 c) as p eqn:Eqp. remember (b32_mult mode_NE iw x) as q eqn:Eqq.
  destruct (plus_R p q Fp Fq) as (Fy & Vy). { apply HM4. eapply Rle_trans; [apply Rabs_triang|]. clear - A1 A2. lra. }
  assert (Hy : lo - e <= valR (b32_plus mode_NE p q) <= hi + e).
  { rewrite Vy, Vp, Vq, Vc. fold (blend (valR iw) (valR m0) (valR x)). apply BH; [exact Hiw|apply HM|exact Bl|exact Bh|exact Hx|exact Hm0]. }
  assert (E : expw_smooth (A := B32 o) x f = (b32_plus mode_NE p q, mkEXPW (A := B32 o) (e_lambda f) (b32_plus mode_NE p q) w false)).
  { unfold expw_smooth. rewrite Eqp, Eqq, Eqc, Eqiw, Eqw, Eqlw, Em0, Ew0. reflexivity. }
  cbv zeta. rewrite E. cbn [fst snd]. split; [split; [exact Fy|exact Hy]|]. unfold eok. cbn [e_lambda e_init e_m e_w].
  split; [split; [exact Fl|exact Hl]|]. intros _. split; [split; [exact Fy|exact Hy]|split; [exact Fw|exact Hw]].
Qed.

Lemma efeed (j : Z) (lo hi M : R) : (1 <= j <= 20)%Z -> bpow radix2 (-100) <= M <= bpow radix2 100 -> Rabs lo <= M -> Rabs hi <= M ->
  forall (xs : list binary32) (f : expw (B32 o)), eok j lo hi M f -> Forall (fun x => finite x /\ lo <= valR x <= hi) xs ->
  Forall (fun y : binary32 => finite y /\ lo - bpow radix2 (j - 21) * M <= valR y <= hi + bpow radix2 (j - 21) * M) (fst (feed (A := B32 o) (expw_smooth (A := B32 o)) xs f)) /\
  length (fst (feed (A := B32 o) (expw_smooth (A := B32 o)) xs f)) = length xs.
Proof.
  intros Hj HM Bl Bh. induction xs as [|x r IH]; intros f K W; [split; [constructor|reflexivity]|].
  inversion W as [|? ? (Fx & Hx) W']; subst. destruct (estep j lo hi M x f Hj HM Bl Bh Fx Hx K) as (Y & K').
  cbn [feed]. destruct (expw_smooth (A := B32 o) x f) as (y & f1). cbn [fst snd] in *. destruct (IH f1 K' W') as (I1 & I2).
  destruct (feed (A := B32 o) (expw_smooth (A := B32 o)) r f1) as (ys & f2). cbn [fst snd] in *. split; [constructor; assumption|exact (f_equal S I2)].
Qed.
End O.
