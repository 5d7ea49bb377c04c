(** Hypotenuse, normalisation and mapping: binary32 values. *)
From Coq Require Import ZArith Reals Lra Lia Bool.
From Flocq Require Import Core IEEE754.BinarySingleNaN IEEE754.Binary IEEE754.Bits.
From Verif Require Import Base BaseLemmas Arith Ext32 Bits32 Ffmath_Model Ffmath2_Model Ffmath_Spec Ffmath_Proofs Ffmath_Proofs2 Ffmath_Proofs3 Float32 Ffmath_Proofs4 Ffmath_Proofs5 Ffmath_Proofs7 Ffmath_Proofs8 Ffmath_Proofs9 Ffmath_Proofs10.
Open Scope R_scope.

Lemma sqrt_rel Q S d : 0 < Q -> S = Q * (1 + d) -> Rabs d <= / 4 -> Rabs (R_sqrt.sqrt S - R_sqrt.sqrt Q) <= Rabs d * R_sqrt.sqrt Q.
Proof.
  intros HQ -> Hd. apply Rabs_le_inv in Hd. rewrite sqrt_mult by lra. pose proof (sqrt_lt_R0 Q HQ) as P.
  replace (R_sqrt.sqrt Q * R_sqrt.sqrt (1 + d) - R_sqrt.sqrt Q) with ((R_sqrt.sqrt (1 + d) - 1) * R_sqrt.sqrt Q) by ring. rewrite Rabs_mult, (Rabs_pos_eq (R_sqrt.sqrt Q)) by lra.
  apply Rmult_le_compat_r; [lra|]. pose proof (sqrt_pos (1 + d)). pose proof (sqrt_sqrt (1 + d) ltac:(lra)) as E.
  set (s := R_sqrt.sqrt (1 + d)) in *. assert (K : d = (s - 1) * (s + 1)) by lra. rewrite K, Rabs_mult, (Rabs_pos_eq (s + 1)) by lra. pose proof (Rabs_pos (s - 1)). nra.
Qed.

Lemma hypot_core a b an e : is_normal a -> is_normal b -> Rabs (valR a) <= big -> Rabs (valR b) <= big ->
  bpow radix2 (-60) * Rabs (valR a) <= Rabs (valR b) <= bpow radix2 60 * Rabs (valR a) ->
  rexp a = (an, e) -> exists bn r, ldexp b (- e) = Ok bn /\ ldexp (sqrt ((an * an) + (bn * bn))%b32) e = Ok r /\ finite r /\
    Rabs (valR r - R_sqrt.sqrt (valR a * valR a + valR b * valR b)) <= bpow radix2 (-18) * R_sqrt.sqrt (valR a * valR a + valR b * valR b).
Proof.
  intros Na Nb Ba Bb Hr E. pose proof (rexp_ok a Na) as R. rewrite E in R. destruct R as (Fan & _ & Han & Va & _).
  assert (Pe : bpow radix2 e * bpow radix2 (- e) = 1) by (rewrite <- bpow_plus, Z.add_opp_diag_r; reflexivity).
  pose proof (bp e) as Be. pose proof (bp (- e)) as Be'. pose proof (bp (-60)) as B60'. pose proof (bp 60) as B60.
  assert (Vab : Rabs (valR a) = Rabs (valR an) * bpow radix2 e) by (rewrite Va, Rabs_mult, (Rabs_pos_eq (bpow _ _)) by lra; reflexivity).
  assert (Hbn : bpow radix2 (-61) <= Rabs (valR b) * bpow radix2 (- e) <= bpow radix2 60).
  { assert (Rabs (valR a) * bpow radix2 (- e) = Rabs (valR an)) by (rewrite Vab, Rmult_assoc, Pe; ring). split.
    - apply Rle_trans with (bpow radix2 (-60) * Rabs (valR a) * bpow radix2 (- e)); [|apply Rmult_le_compat_r; lra]. rewrite Rmult_assoc, H. change (-61)%Z with (-60 + -1)%Z. rewrite bpow_plus. apply Rmult_le_compat_l; [lra|]. change (bpow radix2 (-1)) with (/ 2). lra.
    - apply Rle_trans with (bpow radix2 60 * Rabs (valR a) * bpow radix2 (- e)); [apply Rmult_le_compat_r; lra|]. rewrite Rmult_assoc, H. rewrite <- (Rmult_1_r (bpow radix2 60)) at 2. apply Rmult_le_compat_l; lra. }
  destruct (ldexp_ok b (- e) Nb) as (bn & Eb & Nbn & Vb). { split; [eapply Rle_trans; [|apply Hbn]; apply bpow_le; lia|eapply Rle_lt_trans; [apply Hbn|]; apply bpow_lt; lia]. }
  exists bn. assert (Hbn2 : bpow radix2 (-61) <= Rabs (valR bn) <= bpow radix2 60). { rewrite Vb, Rabs_mult, (Rabs_pos_eq (bpow radix2 (- e))) by lra. exact Hbn. }
  destruct Nbn as (Fbn & _).
  assert (Sa : / 4 <= valR an * valR an <= 1). { rewrite <- (Rabs_pos_eq (valR an * valR an)) by apply Rle_0_sqr. rewrite Rabs_mult. nra. }
  assert (Sb : bpow radix2 (-122) <= valR bn * valR bn <= bpow radix2 120).
  { rewrite <- (Rabs_pos_eq (valR bn * valR bn)) by apply Rle_0_sqr. rewrite Rabs_mult. change (-122)%Z with (-61 + -61)%Z. change 120%Z with (60 + 60)%Z. rewrite !bpow_plus.
    pose proof (bp (-61)). split; apply Rmult_le_compat; lra. }
  assert (P120 : bpow radix2 120 <= bpow radix2 120 <= big) by (split; [lra|apply bpow_le; lia]).
  assert (P120' : 1 <= bpow radix2 120) by (apply (bpow_le radix2 0 120); lia).
  assert (P121 : 4 * bpow radix2 120 <= big). { change 4 with (bpow radix2 2). rewrite <- bpow_plus. apply bpow_le. lia. }
  assert (P126 : bpow radix2 (-126) <= / 16). { change (/ 16) with (bpow radix2 (-4)). apply bpow_le. lia. }
  assert (P122 : bpow radix2 (-126) <= bpow radix2 (-122)) by (apply bpow_le; lia).
  destruct (mult_R an an Fan Fan) as (F1 & V1). { rewrite Rabs_pos_eq by lra. lra. }
  destruct (mult_R bn bn Fbn Fbn) as (F2 & V2). { rewrite Rabs_pos_eq by (pose proof (bp (-122)); lra). lra. }
  destruct (rnd_rel (valR an * valR an)) as (d1 & D1 & E1). { rewrite Rabs_pos_eq by lra. lra. }
  destruct (rnd_rel (valR bn * valR bn)) as (d2 & D2 & E2). { rewrite Rabs_pos_eq by (pose proof (bp (-122)); lra). lra. }
  rewrite E1 in V1. rewrite E2 in V2. rewrite u32_val in D1, D2. apply Rabs_le_inv in D1. apply Rabs_le_inv in D2.
  set (A2 := valR an * valR an) in *. set (B2 := valR bn * valR bn) in *.
  assert (0 < B2) by (pose proof (bp (-122)); lra).
  destruct (plus_R _ _ F1 F2) as (F3 & V3). { rewrite V1, V2. rewrite Rabs_pos_eq; nra. } rewrite V1, V2 in V3.
  destruct (rnd_rel (A2 * (1 + d1) + B2 * (1 + d2))) as (d3 & D3 & E3). { rewrite Rabs_pos_eq; nra. } rewrite E3 in V3. rewrite u32_val in D3. apply Rabs_le_inv in D3.
  set (Q := A2 + B2). assert (HQ : / 4 <= Q) by (unfold Q; lra).
  assert (exists d, valR (an * an + bn * bn)%b32 = Q * (1 + d) /\ Rabs d <= / 4194304) as (d & VS & Hd).
  { exists ((A2 * (1 + d1) + B2 * (1 + d2)) * (1 + d3) / Q - 1). split; [rewrite V3; field; lra|].
    set (N := A2 * (1 + d1) + B2 * (1 + d2)) in *. assert (N1 : Q * (1 - / 16777216) <= N <= Q * (1 + / 16777216)) by (unfold N, Q; nra).
    replace (N * (1 + d3) / Q - 1) with ((N * (1 + d3) - Q) / Q) by (field; lra). unfold Rdiv. rewrite Rabs_mult, (Rabs_pos_eq (/ Q)) by (left; apply Rinv_0_lt_compat; lra).
    apply Rmult_le_reg_r with Q; [lra|]. rewrite Rmult_assoc, Rinv_l by lra. rewrite Rmult_1_r. apply Rabs_le. nra. }
  pose proof (Rabs_le_inv _ _ Hd) as Hd'.
  assert (NS : is_normal (an * an + bn * bn)%b32 /\ 0 < valR (an * an + bn * bn)%b32). { split; [split; [exact F3|]|]; rewrite VS; [rewrite Rabs_pos_eq; nra|nra]. }
  destruct NS as (NS & PS). destruct (sqrt_accurate _ NS PS) as (Fr & Hr1).
  pose proof (sqrt_rel Q _ d ltac:(lra) VS ltac:(lra)) as Hr2. set (r0 := sqrt (an * an + bn * bn)%b32) in *.
  set (sQ := R_sqrt.sqrt Q) in *. set (sS := R_sqrt.sqrt (valR (an * an + bn * bn)%b32)) in *.
  assert (PsQ : / 2 <= sQ). { unfold sQ. replace (/ 2) with (R_sqrt.sqrt (/ 4)); [apply sqrt_le_1_alt; lra|]. replace (/ 4) with (/ 2 * / 2) by field. apply sqrt_square. lra. }
  assert (Hr3 : Rabs (valR r0 - sQ) <= bpow radix2 (-18) * sQ).
  { assert (Rabs (sS - sQ) <= / 4194304 * sQ). { eapply Rle_trans; [exact Hr2|]. apply Rmult_le_compat_r; lra. }
    assert (sS <= sQ * (1 + / 4194304)). { apply Rabs_le_inv in H0. lra. }
    replace (valR r0 - sQ) with ((valR r0 - sS) + (sS - sQ)) by ring. eapply Rle_trans; [apply Rabs_triang|]. change (bpow radix2 (-19)) with (/ 524288) in Hr1. change (bpow radix2 (-18)) with (/ 262144). lra. }
  assert (Hyp : R_sqrt.sqrt (valR a * valR a + valR b * valR b) = sQ * bpow radix2 e).
  { assert (valR b = valR bn * bpow radix2 e) by (rewrite Vb, Rmult_assoc, (Rmult_comm (bpow radix2 (- e))), Pe; ring). rewrite H0, Va.
    replace (valR an * bpow radix2 e * (valR an * bpow radix2 e) + valR bn * bpow radix2 e * (valR bn * bpow radix2 e)) with (Q * (bpow radix2 e * bpow radix2 e)) by (unfold Q, A2, B2; ring).
    rewrite sqrt_mult_alt by lra. rewrite sqrt_square by lra. reflexivity. }
  assert (Lo : R_sqrt.sqrt 2 * bpow radix2 (-126) <= sQ * bpow radix2 e <= R_sqrt.sqrt 2 * big).
  { rewrite <- Hyp. destruct Na as (_ & Na). destruct Nb as (_ & Nb). pose proof (bp (-126)). pose proof (bp 127).
    rewrite <- (sqrt_square (bpow radix2 (-126))), <- (sqrt_square big) by lra. rewrite <- !sqrt_mult_alt by lra.
    assert (forall v, v * v = Rabs v * Rabs v) as SQ. { intros v. rewrite <- Rabs_mult. rewrite Rabs_pos_eq; [reflexivity|apply Rle_0_sqr]. }
    rewrite (SQ (valR a)), (SQ (valR b)). split; apply sqrt_le_1_alt; nra. }
  assert (S2 : 14 / 10 <= R_sqrt.sqrt 2 <= 15 / 10).
  { split; [replace (14 / 10) with (R_sqrt.sqrt (14 / 10 * (14 / 10))) by (apply sqrt_square; lra)|replace (15 / 10) with (R_sqrt.sqrt (15 / 10 * (15 / 10))) by (apply sqrt_square; lra)]; apply sqrt_le_1_alt; lra. }
  pose proof (Rabs_le_inv _ _ Hr3) as Hr4. change (bpow radix2 (-18)) with (/ 262144) in Hr4.
  destruct (ldexp_ok r0 e) as (r & Er & Nr & Vr).
  { split; [exact Fr|]. rewrite Rabs_pos_eq by lra. lra. }
  { rewrite Rabs_pos_eq by lra. replace (bpow radix2 128) with (2 * big) by (change 2 with (bpow radix2 1); rewrite <- bpow_plus; reflexivity). pose proof (bp 127). pose proof (bp (-126)).
    assert (K1 : sQ * (1 - / 262144) * bpow radix2 e <= valR r0 * bpow radix2 e) by (apply Rmult_le_compat_r; lra).
    assert (K2 : valR r0 * bpow radix2 e <= sQ * (1 + / 262144) * bpow radix2 e) by (apply Rmult_le_compat_r; lra).
    assert (K3 : R_sqrt.sqrt 2 * big <= 15 / 10 * big) by (apply Rmult_le_compat_r; lra). assert (K4 : 14 / 10 * bpow radix2 (-126) <= R_sqrt.sqrt 2 * bpow radix2 (-126)) by (apply Rmult_le_compat_r; lra).
    set (h := sQ * bpow radix2 e) in *. replace (sQ * (1 - / 262144) * bpow radix2 e) with (h * (1 - / 262144)) in K1 by (unfold h; ring). replace (sQ * (1 + / 262144) * bpow radix2 e) with (h * (1 + / 262144)) in K2 by (unfold h; ring). clearbody h. pose proof (bp 127); lra. }
  exists r. split; [exact Eb|]. split; [exact Er|]. split; [apply Nr|]. rewrite Hyp, Vr.
  replace (valR r0 * bpow radix2 e - sQ * bpow radix2 e) with ((valR r0 - sQ) * bpow radix2 e) by ring. rewrite Rabs_mult, (Rabs_pos_eq (bpow radix2 e)) by lra.
  rewrite <- Rmult_assoc. apply Rmult_le_compat_r; lra.
Qed.

Lemma isFinite_ok x : finite x -> isFinite x = true.
Proof.
  intros Fx. destruct (classify_ok x) as (H1 & H2 & H3 & H4 & H5). unfold isFinite. destruct (classify x) eqn:C; auto; exfalso.
  - destruct H4 as [H4 _]. destruct (H4 eq_refl) as (s & ->). discriminate.
  - destruct H5 as [H5 _]. specialize (H5 eq_refl). destruct x; discriminate.
Qed.
Lemma hypot_ok x y : is_normal x -> is_normal y -> Rabs (valR x) <= big -> Rabs (valR y) <= big ->
  bpow radix2 (-60) * Rabs (valR x) <= Rabs (valR y) -> bpow radix2 (-60) * Rabs (valR y) <= Rabs (valR x) ->
  exists r, hypot x y = Ok r /\ finite r /\
    Rabs (valR r - R_sqrt.sqrt (valR x * valR x + valR y * valR y)) <= bpow radix2 (-18) * R_sqrt.sqrt (valR x * valR x + valR y * valR y).
Proof.
  intros Nx Ny Bx By H1 H2. unfold hypot. rewrite !isFinite_ok by (apply Nx || apply Ny). cbn [andb].
  assert (M : bpow radix2 (-60) * bpow radix2 60 = 1) by (rewrite <- bpow_plus; reflexivity). pose proof (bp 60).
  assert (H1' : Rabs (valR x) <= bpow radix2 60 * Rabs (valR y)). { apply (Rmult_le_compat_l (bpow radix2 60)) in H1; [|lra]. rewrite <- Rmult_assoc, (Rmult_comm (bpow radix2 60)), M, Rmult_1_l in H1. exact H1. }
  assert (H2' : Rabs (valR y) <= bpow radix2 60 * Rabs (valR x)). { apply (Rmult_le_compat_l (bpow radix2 60)) in H2; [|lra]. rewrite <- Rmult_assoc, (Rmult_comm (bpow radix2 60)), M, Rmult_1_l in H2. exact H2. }
  destruct (x >=? y)%b32.
  - destruct (rexp x) as (an, e) eqn:E. destruct (hypot_core x y an e) as (bn & r & -> & Er & Q); auto. cbn [bind]. eauto.
  - destruct (rexp y) as (an, e) eqn:E. destruct (hypot_core y x an e) as (bn & r & -> & Er & Q); auto. cbn [bind]. rewrite (Rplus_comm (valR x * valR x)). eauto.
Qed.

(** ** normalize and map *)
Definition normR (X L H : R) : R := rnd (rnd (X - L) / rnd (H - L)).
Lemma rnd_pos_fmt x y : fmt x -> fmt y -> x < y -> 0 < rnd (y - x).
Proof.
  intros Fx Fy H. pose proof (rnd_nonneg (y - x) ltac:(lra)) as [P|E]; [exact P|]. exfalso.
  pose proof (fmt_sub_rel y x Fy Fx) as K. rewrite <- E in K. replace (0 - (y - x)) with (- (y - x)) in K by ring. rewrite Rabs_Ropp, Rabs_pos_eq, u32_val in K by lra. lra.
Qed.
Lemma normalize_R x l h : finite x -> finite l -> finite h -> valR l <= valR x <= valR h -> valR l < valR h -> valR h - valR l <= fmax ->
  finite (normalize x l h) /\ valR (normalize x l h) = normR (valR x) (valR l) (valR h) /\ 0 <= valR (normalize x l h) <= 1.
Proof.
  intros Fx Fl Fh H L B. unfold normalize, normR. destruct (minus_M x l Fx Fl) as (F1 & V1). { rewrite Rabs_pos_eq; lra. }
  destruct (minus_M h l Fh Fl) as (F2 & V2). { rewrite Rabs_pos_eq; lra. }
  pose proof (rnd_pos_fmt _ _ (format_val l) (format_val h) L) as P. pose proof (rnd_nonneg (valR x - valR l) ltac:(lra)) as N. pose proof (rnd_le (valR x - valR l) (valR h - valR l) ltac:(lra)) as M.
  assert (Q : 0 <= rnd (valR x - valR l) / rnd (valR h - valR l) <= 1).
  { split; [apply Rmult_le_pos; [lra|left; apply Rinv_0_lt_compat; lra]|]. apply Rmult_le_reg_r with (rnd (valR h - valR l)); [lra|]. unfold Rdiv. rewrite Rmult_assoc, Rinv_l by lra. lra. }
  destruct (div_M _ _ F1 F2) as (F3 & V3); rewrite ?V1, ?V2 in *; [lra|rewrite Rabs_pos_eq by lra; apply Rle_trans with 1; [lra|]|].
  - rewrite fmax_val. apply Rle_trans with (bpow radix2 127); [apply (bpow_le radix2 0 127); lia|]. change (bpow radix2 128) with (bpow radix2 (1 + 127)). rewrite bpow_plus. change (bpow radix2 1) with 2. pose proof (bpow_lt radix2 104 127 eq_refl). lra.
  - rewrite V3. split; [exact F3|]. split; [reflexivity|]. apply rnd_itv; auto using fmt_0, fmt_1.
Qed.
Lemma normalize_mono x x' l h : finite x -> finite x' -> finite l -> finite h -> valR l <= valR x <= valR x' -> valR x' <= valR h -> valR l < valR h -> valR h - valR l <= fmax ->
  valR (normalize x l h) <= valR (normalize x' l h).
Proof.
  intros Fx Fx' Fl Fh H H' L B. destruct (normalize_R x l h) as (_ & -> & _); auto; [lra|]. destruct (normalize_R x' l h) as (_ & -> & _); auto; [lra|].
  pose proof (rnd_pos_fmt _ _ (format_val l) (format_val h) L) as P. unfold normR. apply rnd_le. apply Rmult_le_compat_r; [left; apply Rinv_0_lt_compat; lra|]. apply rnd_le. lra.
Qed.
Lemma normalize_ends l h : finite l -> finite h -> valR l < valR h -> valR h - valR l <= fmax -> valR (normalize l l h) = 0 /\ valR (normalize h l h) = 1.
Proof.
  intros Fl Fh L B. destruct (normalize_R l l h) as (_ & -> & _); auto; [lra|]. destruct (normalize_R h l h) as (_ & -> & _); auto; [lra|].
  pose proof (rnd_pos_fmt _ _ (format_val l) (format_val h) L) as P. unfold normR. rewrite (Rminus_diag_eq (valR l)), rnd_0 by auto. unfold Rdiv. rewrite Rmult_0_l, rnd_0, Rinv_r, rnd_1 by lra. auto.
Qed.
Lemma normalize_err x l h : finite x -> finite l -> finite h -> valR l <= valR x <= valR h -> valR l < valR h -> valR h - valR l <= fmax ->
  Rabs (valR (normalize x l h) - (valR x - valR l) / (valR h - valR l)) <= 4 * u32 * ((valR x - valR l) / (valR h - valR l)) + bpow radix2 (-150).
Proof.
  intros Fx Fl Fh H L B. destruct (normalize_R x l h) as (_ & -> & _); auto. unfold normR.
  pose proof (fmt_sub_rel _ _ (format_val x) (format_val l)) as E1. pose proof (fmt_sub_rel _ _ (format_val h) (format_val l)) as E2. pose proof (rnd_err (rnd (valR x - valR l) / rnd (valR h - valR l))) as E3.
  pose proof (rnd_pos_fmt _ _ (format_val l) (format_val h) L) as P. pose proof (rnd_nonneg (valR x - valR l) ltac:(lra)) as N.
  set (n := valR x - valR l) in *. set (d := valR h - valR l) in *. set (n' := rnd n) in *. set (d' := rnd d) in *.
  assert (Hn : 0 <= n) by (unfold n; lra). assert (Hd : 0 < d) by (unfold d; lra). rewrite (Rabs_pos_eq n) in E1 by lra. rewrite (Rabs_pos_eq d) in E2 by lra. rewrite u32_val in *.
  assert (Q0 : 0 <= n' / d') by (apply Rmult_le_pos; [lra|left; apply Rinv_0_lt_compat; lra]). rewrite (Rabs_pos_eq (n' / d')) in E3 by lra.
  apply Rabs_le_inv in E1. apply Rabs_le_inv in E2. apply Rabs_le_inv in E3.
  assert (Q : n / d * (1 - 21 / 10 * / 16777216) <= n' / d' <= n / d * (1 + 21 / 10 * / 16777216)).
  { split; apply Rmult_le_reg_r with d'; try lra.
    - replace (n' / d' * d') with n' by (field; lra). apply Rle_trans with (n / d * (1 - 21 / 10 * / 16777216) * (d * (1 + / 16777216))).
      + apply Rmult_le_compat_l; [|lra]. apply Rmult_le_pos; [apply Rmult_le_pos; [lra|left; apply Rinv_0_lt_compat; lra]|lra].
      + replace (n / d * (1 - 21 / 10 * / 16777216) * (d * (1 + / 16777216))) with (n * ((1 - 21 / 10 * / 16777216) * (1 + / 16777216))) by (field; lra). nra.
    - replace (n' / d' * d') with n' by (field; lra). apply Rle_trans with (n / d * (1 + 21 / 10 * / 16777216) * (d * (1 - / 16777216))).
      + replace (n / d * (1 + 21 / 10 * / 16777216) * (d * (1 - / 16777216))) with (n * ((1 + 21 / 10 * / 16777216) * (1 - / 16777216))) by (field; lra). nra.
      + apply Rmult_le_compat_l; [|lra]. apply Rmult_le_pos; [apply Rmult_le_pos; [lra|left; apply Rinv_0_lt_compat; lra]|lra]. }
  assert (0 <= n / d) by (apply Rmult_le_pos; [lra|left; apply Rinv_0_lt_compat; lra]). set (q := n / d) in *. set (q' := n' / d') in *. clearbody q q'. apply Rabs_le. lra.
Qed.

Definition map_R (N L H : R) : R := rnd (rnd (rnd (H - L) * N) + L).
Lemma fmap_R x xl xh yl yh : finite x -> finite xl -> finite xh -> finite yl -> finite yh -> valR xl <= valR x <= valR xh -> valR xl < valR xh -> valR xh - valR xl <= fmax ->
  Rabs (valR yl) <= bpow radix2 126 -> Rabs (valR yh) <= bpow radix2 126 ->
  finite (fmap x xl xh yl yh) /\ valR (fmap x xl xh yl yh) = map_R (valR (normalize x xl xh)) (valR yl) (valR yh).
Proof.
  intros Fx Fxl Fxh Fyl Fyh H L B Bl Bh. destruct (normalize_R x xl xh Fx Fxl Fxh H L B) as (Fn & _ & Hn). unfold fmap, map_R.
  pose proof fmax_125 as M. apply Rabs_le_inv in Bl. apply Rabs_le_inv in Bh. assert (T : big = 2 * bpow radix2 126). { change 127%Z with (1 + 126)%Z. rewrite bpow_plus. reflexivity. }
  assert (M2 : big + bpow radix2 126 <= fmax). { rewrite fmax_val. change (bpow radix2 128) with (bpow radix2 (2 + 126)). rewrite bpow_plus. change (bpow radix2 2) with 4. pose proof (bpow_lt radix2 104 126 eq_refl). lra. } pose proof (bp 126).
  destruct (minus_M yh yl Fyh Fyl) as (F1 & V1). { apply Rabs_le. lra. }
  assert (D : - big <= rnd (valR yh - valR yl) <= big). { apply rnd_itv; [apply fmt_opp| |lra]; apply format_bpow; lia. }
  destruct (mult_M _ _ F1 Fn) as (F2 & V2). { rewrite V1. apply Rabs_le. nra. } rewrite V1 in V2.
  assert (D2 : - big <= rnd (rnd (valR yh - valR yl) * valR (normalize x xl xh)) <= big). { apply rnd_itv; [apply fmt_opp| |nra]; apply format_bpow; lia. }
  destruct (plus_M _ _ F2 Fyl) as (F3 & V3). { rewrite V2. apply Rabs_le. lra. } rewrite V3, V2. auto.
Qed.
Lemma map_mono N N' L H : 0 <= N <= N' -> (L <= H -> map_R N L H <= map_R N' L H) /\ (H <= L -> map_R N' L H <= map_R N L H).
Proof.
  intros HN. unfold map_R. split; intros K; apply rnd_le; apply Rplus_le_compat_r; apply rnd_le.
  - pose proof (rnd_nonneg (H - L) ltac:(lra)). nra.
  - pose proof (rnd_nonpos (H - L) ltac:(lra)). nra.
Qed.
Lemma fmap_mono x x' xl xh yl yh : finite x -> finite x' -> finite xl -> finite xh -> finite yl -> finite yh -> valR xl <= valR x <= valR x' -> valR x' <= valR xh -> valR xl < valR xh -> valR xh - valR xl <= fmax ->
  Rabs (valR yl) <= bpow radix2 126 -> Rabs (valR yh) <= bpow radix2 126 ->
  (valR yl <= valR yh -> valR (fmap x xl xh yl yh) <= valR (fmap x' xl xh yl yh)) /\ (valR yh <= valR yl -> valR (fmap x' xl xh yl yh) <= valR (fmap x xl xh yl yh)).
Proof.
  intros Fx Fx' Fxl Fxh Fyl Fyh H H' L B Bl Bh. destruct (fmap_R x xl xh yl yh) as (_ & ->); auto; [lra|]. destruct (fmap_R x' xl xh yl yh) as (_ & ->); auto; [lra|].
  apply map_mono. split; [|apply normalize_mono; auto]. apply (normalize_R x xl xh); auto. lra.
Qed.
Lemma fmap_first xl xh yl yh : finite xl -> finite xh -> finite yl -> finite yh -> valR xl < valR xh -> valR xh - valR xl <= fmax ->
  Rabs (valR yl) <= bpow radix2 126 -> Rabs (valR yh) <= bpow radix2 126 -> valR (fmap xl xl xh yl yh) = valR yl.
Proof.
  intros Fxl Fxh Fyl Fyh L B Bl Bh. destruct (fmap_R xl xl xh yl yh) as (_ & ->); auto; [lra|]. unfold map_R. rewrite (proj1 (normalize_ends xl xh Fxl Fxh L B)).
  rewrite Rmult_0_r, rnd_0, Rplus_0_l. apply rnd_val.
Qed.
Lemma fmap_err x xl xh yl yh M : finite x -> finite xl -> finite xh -> finite yl -> finite yh -> valR xl <= valR x <= valR xh -> valR xl < valR xh -> valR xh - valR xl <= fmax ->
  M <= bpow radix2 126 -> Rabs (valR yl) <= M -> Rabs (valR yh) <= M ->
  Rabs (valR (fmap x xl xh yl yh) - (valR yl + (valR x - valR xl) / (valR xh - valR xl) * (valR yh - valR yl))) <= 16 * u32 * M + bpow radix2 (-149).
Proof.
  intros Fx Fxl Fxh Fyl Fyh H L B BM Bl Bh. destruct (fmap_R x xl xh yl yh) as (_ & ->); auto; [lra|lra|]. pose proof (normalize_err x xl xh Fx Fxl Fxh H L B) as EN.
  destruct (normalize_R x xl xh Fx Fxl Fxh H L B) as (_ & _ & HN). unfold map_R.
  assert (HQ : 0 <= (valR x - valR xl) / (valR xh - valR xl) <= 1).
  { split; [apply Rmult_le_pos; [lra|left; apply Rinv_0_lt_compat; lra]|]. apply Rmult_le_reg_r with (valR xh - valR xl); [lra|]. unfold Rdiv. rewrite Rmult_assoc, Rinv_l by lra. lra. }
  pose proof (fmt_sub_rel _ _ (format_val yh) (format_val yl)) as E1. pose proof (rnd_err (rnd (valR yh - valR yl) * valR (normalize x xl xh))) as E2.
  pose proof (fmt_plus_rel _ _ (fmt_rnd (rnd (valR yh - valR yl) * valR (normalize x xl xh))) (format_val yl)) as E3.
  set (N := valR (normalize x xl xh)) in *. set (q := (valR x - valR xl) / (valR xh - valR xl)) in *. set (d := rnd (valR yh - valR yl)) in *. set (p := rnd (d * N)) in *. set (s := rnd (p + valR yl)) in *.
  set (Y := valR yl) in *. set (D := valR yh - Y) in *. clearbody N q. clearbody s. clearbody p. clearbody d.
  assert (HD : Rabs D <= 2 * M). { unfold D. eapply Rle_trans; [apply Rabs_triang|]. rewrite Rabs_Ropp. lra. }
  assert (HE : Rabs (Y + q * D) <= M). { replace (Y + q * D) with (q * valR yh + (1 - q) * Y) by (unfold D; ring). apply Rabs_le_inv in Bl. apply Rabs_le_inv in Bh. apply Rabs_le. nra. }
  assert (HM : 0 <= M) by (pose proof (Rabs_pos Y); lra).
  assert (B149 : bpow radix2 (-149) = 2 * bpow radix2 (-150)). { change (-149)%Z with (1 + -150)%Z. rewrite bpow_plus. reflexivity. }
  pose proof (bp (-150)) as B150. assert (B150' : bpow radix2 (-150) <= / 1000000000000). { apply Rle_trans with (bpow radix2 (-40)); [apply bpow_le; lia|]. change (bpow radix2 (-40)) with (/ 1099511627776). lra. } rewrite B149, u32_val in *.
  clearbody D. clear B149 BM Bl Bh Fx Fxl Fxh Fyl Fyh L B H. set (t := bpow radix2 (-150)) in *. clearbody t.
  assert (K1 : Rabs (N - q) <= 5 * / 16777216) by nra.
  assert (K2 : Rabs d <= (1 + / 16777216) * (2 * M)). { replace d with (D + (d - D)) by ring. eapply Rle_trans; [apply Rabs_triang|]. lra. }
  assert (K3 : Rabs (d * N - D * q) <= 2 * / 16777216 * M + 21 / 2 * / 16777216 * M).
  { replace (d * N - D * q) with ((d - D) * q + d * (N - q)) by ring. eapply Rle_trans; [apply Rabs_triang|]. rewrite !Rabs_mult, (Rabs_pos_eq q) by lra.
    assert (Rabs (d - D) * q <= (/ 16777216 * (2 * M)) * 1). { apply Rmult_le_compat; try lra. apply Rabs_pos. }
    assert (Rabs d * Rabs (N - q) <= (1 + / 16777216) * (2 * M) * (5 * / 16777216)) by (apply Rmult_le_compat; try lra; apply Rabs_pos). lra. }
  assert (K4 : Rabs (d * N) <= 21 / 10 * M). { rewrite Rabs_mult, (Rabs_pos_eq N) by lra. assert (Rabs d * N <= (1 + / 16777216) * (2 * M) * 1) by (apply Rmult_le_compat; try lra; apply Rabs_pos). lra. }
  assert (K5 : Rabs (p - D * q) <= (2 + 21 / 2 + 21 / 10) * / 16777216 * M + t). { replace (p - D * q) with ((p - d * N) + (d * N - D * q)) by ring. eapply Rle_trans; [apply Rabs_triang|]. lra. }
  assert (K6 : Rabs (p + Y) <= Rabs (Y + q * D) + Rabs (p - D * q)). { replace (p + Y) with ((Y + q * D) + (p - D * q)) by ring. apply Rabs_triang. }
  replace (s - (Y + q * D)) with ((s - (p + Y)) + (p - D * q)) by ring. eapply Rle_trans; [apply Rabs_triang|]. lra.
Qed.

(** ** inCircle *)
Lemma sq_err x c : finite x -> finite c -> Rabs (valR x) <= bpow radix2 60 -> Rabs (valR c) <= bpow radix2 60 ->
  let D := (valR x - valR c) * (valR x - valR c) in let d := ((x - c) * (x - c))%b32 in
  finite d /\ 0 <= valR d <= bpow radix2 124 /\ Rabs (valR d - D) <= 33 / 10 * u32 * D + bpow radix2 (-150).
Proof.
  intros Fx Fc Bx Bc D d. apply Rabs_le_inv in Bx. apply Rabs_le_inv in Bc. 
  assert (P61 : bpow radix2 61 = 2 * bpow radix2 60). { change 61%Z with (1 + 60)%Z. rewrite bpow_plus. reflexivity. } pose proof (bp 60).
  assert (P61' : bpow radix2 61 <= big) by (apply bpow_le; lia). assert (P124 : bpow radix2 61 * bpow radix2 61 <= bpow radix2 124) by (rewrite <- bpow_plus; apply bpow_le; lia). assert (bpow radix2 124 <= big) by (apply bpow_le; lia).
  destruct (minus_R x c Fx Fc) as (F1 & V1). { apply Rabs_le. lra. }
  assert (H1 : - bpow radix2 61 <= rnd (valR x - valR c) <= bpow radix2 61). { apply rnd_itv; [apply fmt_opp| |lra]; apply format_bpow; lia. }
  assert (H2 : 0 <= rnd (valR x - valR c) * rnd (valR x - valR c) <= bpow radix2 124). { split; [apply Rle_0_sqr|]. apply Rle_trans with (2 := P124). pose proof (bp 61). nra. }
  destruct (mult_R _ _ F1 F1) as (F2 & V2). { rewrite V1, Rabs_pos_eq; lra. } rewrite V1 in V2. split; [exact F2|]. unfold d. rewrite V2.
  split. { apply rnd_itv; auto using fmt_0. apply format_bpow; lia. }
  pose proof (fmt_sub_rel _ _ (format_val x) (format_val c)) as E1. pose proof (rnd_err (rnd (valR x - valR c) * rnd (valR x - valR c))) as E2. unfold D.
  set (w := valR x - valR c) in *. set (w' := rnd w) in *. set (s := rnd (w' * w')) in *. clearbody s. clearbody w'. rewrite (Rabs_pos_eq (w' * w')) in E2 by lra. rewrite u32_val in *.
  assert (K : Rabs (w' * w' - w * w) <= 21 / 10 * / 16777216 * (w * w)).
  { replace (w' * w' - w * w) with ((w' - w) * (2 * w + (w' - w))) by ring. rewrite Rabs_mult. 
    assert (Rabs (2 * w + (w' - w)) <= (2 + / 16777216) * Rabs w). { eapply Rle_trans; [apply Rabs_triang|]. rewrite Rabs_mult, (Rabs_pos_eq 2) by lra. lra. }
    assert (Rabs (w' - w) * Rabs (2 * w + (w' - w)) <= / 16777216 * Rabs w * ((2 + / 16777216) * Rabs w)) by (apply Rmult_le_compat; auto using Rabs_pos).
    replace (/ 16777216 * Rabs w * ((2 + / 16777216) * Rabs w)) with (/ 16777216 * (2 + / 16777216) * (Rabs w * Rabs w)) in H4 by ring.
    assert (W : Rabs w * Rabs w = w * w) by (rewrite <- Rabs_mult; apply Rabs_pos_eq, Rle_0_sqr). pose proof (Rle_0_sqr w) as W0. unfold Rsqr in W0. rewrite W in *. lra. }
  pose proof (Rle_0_sqr w) as W0. unfold Rsqr in W0. set (ww := w * w) in *. clearbody ww. pose proof (Rabs_le_inv _ _ K) as K'.
  replace (s - ww) with ((s - w' * w') + (w' * w' - ww)) by ring. eapply Rle_trans; [apply Rabs_triang|]. lra.
Qed.
Lemma inCircle_ok x y cx cy r D Q : finite x -> finite y -> finite cx -> finite cy -> finite r ->
  Rabs (valR x) <= bpow radix2 60 -> Rabs (valR y) <= bpow radix2 60 -> Rabs (valR cx) <= bpow radix2 60 -> Rabs (valR cy) <= bpow radix2 60 -> Rabs (valR r) <= bpow radix2 60 ->
  D = (valR x - valR cx) * (valR x - valR cx) + (valR y - valR cy) * (valR y - valR cy) -> Q = valR r * valR r ->
  (inCircle x y cx cy r = true -> D <= Q * (1 + 8 * u32) + bpow radix2 (-147)) /\ (inCircle x y cx cy r = false -> Q <= D * (1 + 8 * u32) + bpow radix2 (-147)).
Proof.
  intros Fx Fy Fcx Fcy Fr Bx By Bcx Bcy Br -> ->. destruct (sq_err x cx Fx Fcx Bx Bcx) as (F1 & R1 & E1). destruct (sq_err y cy Fy Fcy By Bcy) as (F2 & R2 & E2).
  assert (P : bpow radix2 124 + bpow radix2 124 <= big). { assert (big = 8 * bpow radix2 124) by (change 127%Z with (3 + 124)%Z; rewrite bpow_plus; reflexivity). pose proof (bp 124). lra. }
  assert (R3 : 0 <= valR r * valR r <= big). { split; [apply Rle_0_sqr|]. apply Rabs_le_inv in Br. apply Rle_trans with (bpow radix2 60 * bpow radix2 60); [pose proof (bp 60); nra|]. rewrite <- bpow_plus. apply bpow_le. lia. }
  destruct (mult_R r r Fr Fr) as (F3 & V3). { rewrite Rabs_pos_eq; lra. } pose proof (rnd_err (valR r * valR r)) as E3. rewrite (Rabs_pos_eq (valR r * valR r)) in E3 by lra.
  destruct (plus_R _ _ F1 F2) as (F4 & V4). { rewrite Rabs_pos_eq; lra. } pose proof (fmt_plus_rel _ _ (format_val ((x - cx) * (x - cx))%b32) (format_val ((y - cy) * (y - cy))%b32)) as E4. rewrite (Rabs_pos_eq (_ + _)) in E4 by lra.
  unfold inCircle. cbv zeta in *. rewrite <- V3 in E3. rewrite <- V4 in E4.
  pose proof (Rle_0_sqr (valR x - valR cx)) as S1. pose proof (Rle_0_sqr (valR y - valR cy)) as S2. unfold Rsqr in S1, S2.
  assert (B147 : bpow radix2 (-147) = 8 * bpow radix2 (-150)) by (change (-147)%Z with (3 + -150)%Z; rewrite bpow_plus; reflexivity). pose proof (bp (-150)) as B150. rewrite B147, u32_val in *.
  set (X2 := (valR x - valR cx) * (valR x - valR cx)) in *. set (Y2 := (valR y - valR cy) * (valR y - valR cy)) in *. set (Q := valR r * valR r) in *.
  apply Rabs_le_inv in E1. apply Rabs_le_inv in E2. apply Rabs_le_inv in E3. apply Rabs_le_inv in E4.
  destruct (le_dec _ _ F4 F3) as [(-> & H)|(-> & H)]; (split; [intros E; try discriminate E|intros E; try discriminate E]); lra.
Qed.
