(** The scalar Kalman filter in binary32 (C134). *)
From Coq Require Import ZArith Reals Lra Lia Bool List.
From Flocq Require Import Core IEEE754.BinarySingleNaN IEEE754.Binary IEEE754.Bits.
From Verif Require Import Base Arith Ffmath_Spec Float32 Smoother_Model Smoother_Spec Fir32_Spec Fir32_Proofs Numa32_Proofs.
Import ListNotations.
Open Scope R_scope.

Lemma rnd_ge x c : rnd c = c -> c <= x -> c <= rnd x. Proof. intros E H. rewrite <- E. apply rnd_le. exact H. Qed.
Lemma rnd_le_c x c : rnd c = c -> x <= c -> rnd x <= c. Proof. intros E H. rewrite <- E. apply rnd_le. exact H. Qed.
Lemma rnd_idem x : rnd (rnd x) = rnd x. Proof. unfold rnd. apply round_generic; [apply valid_rnd_N|]. apply generic_format_round; [apply FLT_exp_valid; reflexivity|apply valid_rnd_N]. Qed.
Lemma rnd_1 : rnd 1 = 1. Proof. change 1 with (bpow radix2 0). apply rnd_bpow. lia. Qed.
Lemma rnd_half : rnd (1 / 2) = 1 / 2. Proof. replace (1 / 2) with (bpow radix2 (-1)) by (change (bpow radix2 (-1)) with (/ 2); lra). apply rnd_bpow. lia. Qed.

(** One step towards [x] with a gain in [0, 1]. *)
Definition move (g s x : R) : R := rnd (s + rnd (g * rnd (x - s))).

Lemma move_opp g s x : move g (- s) (- x) = - move g s x.
Proof. unfold move. replace (- x - - s) with (- (x - s)) by ring. rewrite rnd_opp. replace (g * - rnd (x - s)) with (- (g * rnd (x - s))) by ring. rewrite rnd_opp.
  replace (- s + - rnd (g * rnd (x - s))) with (- (s + rnd (g * rnd (x - s)))) by ring. apply rnd_opp. Qed.

Lemma move_up g s x M : 0 <= g <= 1 -> rnd s = s -> s <= x -> bpow radix2 (-100) <= M -> Rabs x <= M -> Rabs s <= 2 * M ->
  s <= move g s x <= x + bpow radix2 (-21) * M.
Proof.
  intros Hg Fs Hx HM Bx Bs. unfold move. assert (D0 : 0 <= rnd (x - s)) by (apply rnd_ge; [apply rnd_0|lra]).
  assert (T0 : 0 <= rnd (g * rnd (x - s))) by (apply rnd_ge; [apply rnd_0|apply Rmult_le_pos; lra]).
  assert (T1 : rnd (g * rnd (x - s)) <= rnd (x - s)) by (apply rnd_le_c; [apply rnd_idem|]; nra).
  split; [apply rnd_ge; [exact Fs|lra]|]. pose proof u_pos as U. pose proof eta_pos as E.
  apply Rabs_le_inv in Bx. apply Rabs_le_inv in Bs.
  pose proof (rnd_err (x - s)) as E1. assert (A1 : Rabs (x - s) <= 3 * M) by (apply Rabs_le; lra).
  assert (B1 : u32 * Rabs (x - s) <= 3 * (u32 * M)) by nra.
  assert (Eu : 16 * eta <= u32 * M).
  { change 16 with (bpow radix2 4). rewrite <- bpow_plus. apply Rle_trans with (u32 * bpow radix2 (-100)); [change u32 with (bpow radix2 (-24)); rewrite <- bpow_plus; apply bpow_le; lia|]. apply Rmult_le_compat_l; lra. }
  assert (Us : u32 * M <= / 16 * M). { apply Rmult_le_compat_r; [pose proof (bpow_gt_0 radix2 (-100)); lra|]. change u32 with (/ 16777216). lra. }
  apply Rabs_le_inv in E1. set (d := rnd (x - s)) in *. set (t := rnd (g * d)) in *.
  assert (S1 : s + t <= x + 4 * (u32 * M)) by lra. apply Rle_trans with (rnd (s + d)); [apply rnd_le; lra|].
  pose proof (rnd_err (s + d)) as E2. assert (A2 : Rabs (s + d) <= 2 * M) by (apply Rabs_le; lra).
  assert (B2 : u32 * Rabs (s + d) <= 2 * (u32 * M)) by nra. apply Rabs_le_inv in E2.
  replace (bpow radix2 (-21)) with (8 * u32) by (change (bpow radix2 (-21)) with (/ 2097152); change u32 with (/ 16777216); lra). lra.
Qed.

Lemma move_hull g s x lo hi M : 0 <= g <= 1 -> rnd s = s -> bpow radix2 (-100) <= M -> Rabs lo <= M -> Rabs hi <= M ->
  lo <= x <= hi -> lo - bpow radix2 (-21) * M <= s <= hi + bpow radix2 (-21) * M ->
  lo - bpow radix2 (-21) * M <= move g s x <= hi + bpow radix2 (-21) * M.
Proof.
  intros Hg Fs HM Bl Bh Hx Hs. apply Rabs_le_inv in Bl. apply Rabs_le_inv in Bh.
  assert (M0 : 0 < M) by (pose proof (bpow_gt_0 radix2 (-100)); lra).
  assert (E : 0 <= bpow radix2 (-21) * M <= M) by (change (bpow radix2 (-21)) with (/ 2097152); lra).
  assert (Bx : Rabs x <= M) by (apply Rabs_le; lra). assert (Bs : Rabs s <= 2 * M) by (apply Rabs_le; lra).
  destruct (Rle_lt_dec s x) as [H|H].
  - destruct (move_up g s x M Hg Fs H HM Bx Bs). lra.
  - destruct (move_up g (- s) (- x) M Hg) as (A & B); [rewrite rnd_opp, Fs; reflexivity|lra|exact HM|rewrite Rabs_Ropp; exact Bx|rewrite Rabs_Ropp; exact Bs|].
    rewrite move_opp in A, B. lra.
Qed.

(** The gain and the variance. *)
Definition gain_of (r p1 : R) : R := rnd (p1 / rnd (r + p1)).
Lemma gain_range r p1 : rnd p1 = p1 -> 0 < r -> 0 < p1 -> p1 <= rnd (r + p1) /\ 0 <= gain_of r p1 <= 1.
Proof.
  intros F Hr Hp. assert (D : p1 <= rnd (r + p1)) by (apply rnd_ge; [exact F|lra]). split; [exact D|]. unfold gain_of.
  assert (Q : 0 <= p1 / rnd (r + p1) <= 1). { split; [apply Rlt_le, Rdiv_lt_0_compat; lra|]. apply Rmult_le_reg_r with (rnd (r + p1)); [lra|]. unfold Rdiv. rewrite Rmult_assoc, Rinv_l by lra. lra. }
  split; [apply rnd_ge; [apply rnd_0|lra]|apply rnd_le_c; [apply rnd_1|lra]].
Qed.
Lemma gain_half r p1 : 0 < r -> r <= bpow radix2 60 -> bpow radix2 62 <= p1 -> 1 / 2 <= gain_of r p1.
Proof.
  intros Hr Br Hp. unfold gain_of. apply rnd_ge; [apply rnd_half|].
  assert (P0 : 0 < bpow radix2 60) by apply bpow_gt_0. assert (E : bpow radix2 62 = 4 * bpow radix2 60) by (change 62%Z with (2 + 60)%Z; rewrite bpow_plus; reflexivity).
  pose proof (rnd_err (r + p1)) as R1. rewrite (Rabs_pos_eq (r + p1)) in R1 by lra. apply Rabs_le_inv in R1.
  assert (u32 * (r + p1) <= / 16 * (r + p1)) by (apply Rmult_le_compat_r; [lra|change u32 with (/ 16777216); lra]).
  assert (eta <= bpow radix2 60) by (apply bpow_le; lia).
  assert (0 < rnd (r + p1)) . { apply Rlt_le_trans with (bpow radix2 60); [exact P0|]. apply rnd_ge; [apply rnd_bpow; lia|lra]. }
  apply Rmult_le_reg_r with (rnd (r + p1)); [assumption|]. unfold Rdiv. rewrite (Rmult_assoc p1), Rinv_l by lra. lra.
Qed.
Definition var_of (r p1 : R) : R := rnd (rnd (1 - gain_of r p1) * p1).
Lemma var_range r p1 : rnd p1 = p1 -> 0 < r -> r <= bpow radix2 60 -> 0 < p1 <= bpow radix2 63 -> 0 <= rnd (1 - gain_of r p1) <= 1 /\ 0 <= var_of r p1 <= bpow radix2 62.
Proof.
  intros F Hr Br Hp. destruct (gain_range r p1 F Hr ltac:(lra)) as (_ & G0 & G1). set (g := gain_of r p1) in *. unfold var_of. fold g.
  assert (W : 0 <= rnd (1 - g) <= 1) by (split; [apply rnd_ge; [apply rnd_0|lra]|apply rnd_le_c; [apply rnd_1|lra]]). split; [exact W|].
  split; [apply rnd_ge; [apply rnd_0|apply Rmult_le_pos; lra]|]. apply rnd_le_c; [apply rnd_bpow; lia|].
  destruct (Rle_lt_dec p1 (bpow radix2 62)) as [L|L]; [nra|].
  assert (H : 1 / 2 <= g) by (apply gain_half; lra). assert (W2 : rnd (1 - g) <= 1 / 2) by (apply rnd_le_c; [apply rnd_half|lra]).
  assert (E : bpow radix2 63 = 2 * bpow radix2 62) by (change 63%Z with (1 + 62)%Z; rewrite bpow_plus; reflexivity). nra.
Qed.

Section O.
Variable o : oracles binary32.
Local Notation one := (lit (a := B32 o) 1 1 : binary32).
Lemma one_R : valR one = 1. Proof. vm_compute. lra. Qed.
Lemma one_fin : finite one. Proof. reflexivity. Qed.

Lemma mul1 (x : binary32) : finite x -> Rabs (valR x) <= big -> finite (b32_mult mode_NE one x) /\ valR (b32_mult mode_NE one x) = valR x.
Proof.
  intros Fx B. destruct (mult_R one x one_fin Fx) as (F1 & V1); [rewrite one_R, Rmult_1_l; exact B|]. split; [exact F1|]. rewrite V1, one_R, Rmult_1_l. apply rnd_val.
Qed.
Lemma mul1r (x : binary32) : finite x -> Rabs (valR x) <= big -> finite (b32_mult mode_NE x one) /\ valR (b32_mult mode_NE x one) = valR x.
Proof.
  intros Fx B. destruct (mult_R x one Fx one_fin) as (F1 & V1); [rewrite one_R, Rmult_1_r; exact B|]. split; [exact F1|]. rewrite V1, one_R, Rmult_1_r. apply rnd_val.
Qed.

Definition kok (lo hi M : R) (f : klmn (B32 o)) : Prop :=
  k_A f = one /\ k_H f = one /\ (finite (k_q f) /\ 0 < valR (k_q f) <= bpow radix2 60) /\ (finite (k_r f) /\ 0 < valR (k_r f) <= bpow radix2 60) /\
  (finite (k_p f) /\ 0 <= valR (k_p f) <= bpow radix2 62) /\
  (k_init f = false -> finite (k_x f) /\ lo - bpow radix2 (-21) * M <= valR (k_x f) <= hi + bpow radix2 (-21) * M).

Lemma kstep (lo hi M : R) (x : binary32) (f : klmn (B32 o)) : bpow radix2 (-100) <= M <= bpow radix2 100 -> Rabs lo <= M -> Rabs hi <= M ->
  finite x -> lo <= valR x <= hi -> kok lo hi M f ->
  let y := fst (klmn_smooth (A := B32 o) x f) in let f' := snd (klmn_smooth (A := B32 o) x f) in
  (finite (y : binary32) /\ lo - bpow radix2 (-21) * M <= valR y <= hi + bpow radix2 (-21) * M) /\ kok lo hi M f' /\
  (finite (k_gain f' : binary32) /\ 0 <= valR (k_gain f') <= 1).
Proof.
  intros HM Bl Bh Fx Hx (EA & EH & (Fq & Hq) & (Fr & Hr) & (Fp & Hp) & Hi).
  assert (HB3 : forall v, Rabs v <= bpow radix2 103 -> Rabs v <= big) by (intros v Hv; eapply Rle_trans; [exact Hv|apply bpow_le; lia]).
  assert (HB4 : forall v, Rabs v <= bpow radix2 104 -> Rabs v <= big) by (intros v Hv; eapply Rle_trans; [exact Hv|apply bpow_le; lia]).
  assert (RA3 : forall v, Rabs v <= bpow radix2 103 -> Rabs (rnd v) <= bpow radix2 103) by (intros v Hv; apply rnd_abs_le; [lia|exact Hv]).
  assert (R63 : rnd (bpow radix2 63) = bpow radix2 63) by (apply rnd_bpow; lia).
  assert (HB : forall v a, (a <= 127)%Z -> Rabs v <= bpow radix2 a -> Rabs v <= big) by (intros v a Ha Hv; eapply Rle_trans; [exact Hv|apply bpow_le; exact Ha]).
  assert (HP : forall v, 0 <= v <= bpow radix2 64 -> Rabs v <= big) by (intros v Hv; apply (HB v 64%Z); [lia|rewrite Rabs_pos_eq; lra]).
  pose proof (bpow_gt_0 radix2 60) as P60. 
  assert (P62 : bpow radix2 62 = 4 * bpow radix2 60) by (change 62%Z with (2 + 60)%Z; rewrite bpow_plus; reflexivity).
  assert (P63 : bpow radix2 63 = 8 * bpow radix2 60) by (change 63%Z with (3 + 60)%Z; rewrite bpow_plus; reflexivity).
  assert (P64 : bpow radix2 64 = 16 * bpow radix2 60) by (change 64%Z with (4 + 60)%Z; rewrite bpow_plus; reflexivity).
  assert (P0 : 1 <= bpow radix2 60) by (change 1 with (bpow radix2 0); apply bpow_le; lia).
  pose proof (bpow_gt_0 radix2 (-100)) as Pm. assert (E21 : 0 <= bpow radix2 (-21) * M <= M) by (change (bpow radix2 (-21)) with (/ 2097152); lra).
  assert (P103 : bpow radix2 103 = 8 * bpow radix2 100) by (change 103%Z with (3 + 100)%Z; rewrite bpow_plus; reflexivity).
  apply Rabs_le_inv in Bl as Bl'. apply Rabs_le_inv in Bh as Bh'.
  set (s0 := if k_init f then x else k_x f : binary32).
  assert (S0 : finite s0 /\ lo - bpow radix2 (-21) * M <= valR s0 <= hi + bpow radix2 (-21) * M). { unfold s0. destruct (k_init f); [split; [exact Fx|lra]|apply Hi; reflexivity]. }
  destruct S0 as (Fs0 & Hs0).
  assert (Bs0 : Rabs (valR s0) <= bpow radix2 103) by (apply Rabs_le; lra).
  assert (Bd : Rabs (valR x - valR s0) <= bpow radix2 103) by (apply Rabs_le; lra).
  destruct (mul1 s0 Fs0) as (Fs & Vs); [exact (HB3 _ Bs0)|].
  remember (b32_mult mode_NE one s0) as s eqn:Eqs in *.
  destruct (mul1 one one_fin) as (F11 & V11); [rewrite one_R; apply HP; lra|]. rewrite one_R in V11.
  destruct (mult_R (b32_mult mode_NE one one) (k_p f) F11 Fp) as (Fap & Vap); [rewrite V11, Rmult_1_l; apply HP; lra|]. rewrite V11, Rmult_1_l, rnd_val in Vap.
  destruct (plus_R _ (k_q f) Fap Fq) as (Fp1 & Vp1); [rewrite Vap; apply HP; lra|]. rewrite Vap in Vp1.
  remember (b32_plus mode_NE (b32_mult mode_NE (b32_mult mode_NE one one) (k_p f)) (k_q f)) as p1 eqn:Eqp1 in *.
  assert (Hp1 : 0 < valR p1 <= bpow radix2 63).
  { rewrite Vp1. split; [apply Rlt_le_trans with (valR (k_q f)); [apply Hq|apply rnd_ge; [apply rnd_val|clear - Hp; lra]]|apply rnd_le_c; [exact R63|clear - Hp Hq P62 P63 P60; lra]]. }
  destruct (mul1r p1 Fp1) as (FpH & VpH); [apply HP; lra|]. remember (b32_mult mode_NE p1 one) as pH eqn:EqpH in *.
  destruct (mul1 pH FpH) as (FHp & VHp); [rewrite VpH; apply HP; lra|]. rewrite VpH in VHp.
  destruct (plus_R (k_r f) _ Fr FHp) as (FD & VD); [rewrite VHp; apply HP; lra|]. rewrite VHp in VD.
  remember (b32_plus mode_NE (k_r f) (b32_mult mode_NE one pH)) as D eqn:EqD in *.
  destruct (gain_range (valR (k_r f)) (valR p1) (rnd_val p1) ltac:(lra) ltac:(lra)) as (D1 & G).
  assert (QD : 0 <= valR pH / valR D <= 1).
  { rewrite VpH, VD. split; [apply Rlt_le, Rdiv_lt_0_compat; lra|]. apply Rmult_le_reg_r with (rnd (valR (k_r f) + valR p1)); [lra|]. unfold Rdiv. rewrite Rmult_assoc, Rinv_l by lra. lra. }
  destruct (div_R pH D FpH FD) as (Fg & Vg); [rewrite VD; lra|apply HP; lra|]. rewrite VpH, VD in Vg. fold (gain_of (valR (k_r f)) (valR p1)) in Vg.
  remember (b32_div mode_NE pH D) as g eqn:Eqg in *. rewrite <- Vg in G.
  assert (Bs : Rabs (valR s) <= big) by (rewrite Vs; exact (HB3 _ Bs0)).
  pose proof (mul1 s Fs Bs) as Hm.
  destruct Hm as (FHs & VHs). apply (fun H => eq_trans H Vs) in VHs.
  destruct (minus_R x _ Fx FHs) as (Fd & Vd); [rewrite VHs; exact (HB3 _ Bd)|]. rewrite VHs in Vd.
  remember (b32_minus mode_NE x (b32_mult mode_NE one s)) as d eqn:Eqd in *.
  assert (Bd' : Rabs (valR d) <= bpow radix2 103) by (rewrite Vd; exact (RA3 _ Bd)).
  assert (Bgd : Rabs (valR g * valR d) <= bpow radix2 103). { rewrite Rabs_mult, (Rabs_pos_eq (valR g)) by apply G. pose proof (Rabs_pos (valR d)) as Rd. clear - Bd' G Rd. nra. }
  destruct (mult_R g d Fg Fd) as (Ft & Vt); [exact (HB3 _ Bgd)|].
  assert (Bt : Rabs (valR (b32_mult mode_NE g d)) <= bpow radix2 103) by (rewrite Vt; exact (RA3 _ Bgd)).
  remember (b32_mult mode_NE g d) as t eqn:Eqt in *.
  destruct (plus_R s t Fs Ft) as (Fy & Vy).
  { apply HB4. eapply Rle_trans; [apply Rabs_triang|]. replace (bpow radix2 104) with (2 * bpow radix2 103) by (change 104%Z with (1 + 103)%Z; rewrite bpow_plus; reflexivity).
    rewrite <- Vs in Bs0. clear - Bs0 Bt. lra. }
  assert (Bg : Rabs (valR g) <= big) by (apply HP; clear - G P0 P64; lra). assert (Bg1 : Rabs (1 - valR g) <= big) by (apply HP; clear - G P0 P64; lra).
  destruct (mul1r g Fg) as (FgH & VgH); [exact Bg|].
  destruct (minus_R one _ one_fin FgH) as (Fw & Vw); [rewrite one_R, VgH; exact Bg1|]. rewrite one_R, VgH in Vw.
  destruct (var_range (valR (k_r f)) (valR p1) (rnd_val p1) (proj1 Hr) (proj2 Hr) Hp1) as (W & Var). unfold var_of in Var. rewrite <- Vg, <- Vw in W, Var.
  destruct (mult_R _ p1 Fw Fp1) as (Fv & Vv); [apply HP; clear - W Hp1 P63 P64 P60; split; [apply Rmult_le_pos; lra|nra]|]. rewrite <- Vv in Var.
  assert (Hy : lo - bpow radix2 (-21) * M <= valR (b32_plus mode_NE s t) <= hi + bpow radix2 (-21) * M).
  { rewrite Vy, Vt, Vd, Vs. fold (move (valR g) (valR s0) (valR x)). apply move_hull; [exact G|apply rnd_val|apply HM|exact Bl|exact Bh|exact Hx|exact Hs0]. }
  assert (E : klmn_smooth (A := B32 o) x f = (b32_plus mode_NE s t, mkKLMN (A := B32 o) (b32_plus mode_NE s t) (k_A f) (k_H f) (k_q f) (k_r f) (b32_mult mode_NE (b32_minus mode_NE one (b32_mult mode_NE g one)) p1) g false)).
  { unfold klmn_smooth. rewrite EA, EH. rewrite Eqt, Eqd, Eqg, EqD, EqpH, Eqp1, Eqs. reflexivity. }
  cbv zeta. rewrite E. cbn [fst snd]. split; [split; [exact Fy|exact Hy]|]. split; [|split; [exact Fg|exact G]].
  unfold kok. cbn [k_A k_H k_q k_r k_p k_x k_init]. repeat split; auto; try apply Hq; try apply Hr; try apply Var; apply Hy.
Qed.

Lemma kfeed (lo hi M : R) : bpow radix2 (-100) <= M <= bpow radix2 100 -> Rabs lo <= M -> Rabs hi <= M ->
  forall (xs : list binary32) (f : klmn (B32 o)), kok lo hi M f -> Forall (fun x => finite x /\ lo <= valR x <= hi) xs ->
  Forall (fun y : binary32 => finite y /\ lo - bpow radix2 (-21) * M <= valR y <= hi + bpow radix2 (-21) * M) (fst (feed (A := B32 o) (klmn_smooth (A := B32 o)) xs f)) /\
  length (fst (feed (A := B32 o) (klmn_smooth (A := B32 o)) xs f)) = length xs /\
  kok lo hi M (snd (feed (A := B32 o) (klmn_smooth (A := B32 o)) xs f)) /\
  (xs <> [] -> finite (k_gain (snd (feed (A := B32 o) (klmn_smooth (A := B32 o)) xs f)) : binary32) /\ 0 <= valR (k_gain (snd (feed (A := B32 o) (klmn_smooth (A := B32 o)) xs f))) <= 1).
Proof.
  intros HM Bl Bh. induction xs as [|x r IH]; intros f K W; [split; [constructor|split; [reflexivity|split; [exact K|congruence]]]|].
  inversion W as [|? ? (Fx & Hx) W']; subst. destruct (kstep lo hi M x f HM Bl Bh Fx Hx K) as (Y & K' & G).
  cbn [feed]. destruct (klmn_smooth (A := B32 o) x f) as (y & f1). cbn [fst snd] in *. destruct (IH f1 K' W') as (I1 & I2 & I3 & I4).
  destruct r as [|x2 r]; [cbn [feed fst snd] in *; split; [constructor; [exact Y|constructor]|split; [reflexivity|split; [exact K'|intros _; exact G]]]|].
  assert (NE : x2 :: r <> []) by discriminate. specialize (I4 NE). destruct (feed (A := B32 o) (klmn_smooth (A := B32 o)) (x2 :: r) f1) as (ys & f2). cbn [fst snd] in *.
  split; [constructor; assumption|]. split; [exact (f_equal S I2)|]. split; [exact I3|]. intros _. exact I4.
Qed.
End O.
