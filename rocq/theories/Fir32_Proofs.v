(** Sums of products and discrete systems in binary32 (C130, C131). *)
From Coq Require Import ZArith Reals Lra Lia Bool List.
From Flocq Require Import Core IEEE754.BinarySingleNaN IEEE754.Binary IEEE754.Bits.
From Verif Require Import Base Arith Ffmath_Spec Float32 Ltisys_Model Ltisys_Spec Ltisys_Proofs Ltisys_Proofs2 Ltisys_Proofs3 Fir32_Spec.
Import ListNotations.
Open Scope R_scope.

(** ** A finite result is a rounded result *)
Lemma overflow_inf (x : binary32) s : B2FF 24 128 x = binary_overflow 24 128 mode_NE s -> finite x -> False.
Proof. destruct x; cbn; intros H F; try discriminate. Qed.

Lemma plus_fin x y : finite (b32_plus mode_NE x y) -> finite x /\ finite y /\ valR (b32_plus mode_NE x y) = rnd (valR x + valR y).
Proof.
  intros F. assert (finite x /\ finite y) as (Fx & Fy).
  { destruct x as [sx|sx|sx|sx]; destruct y as [sy|sy|sy|sy]; cbn in F; auto; try discriminate; destruct sx, sy; discriminate. }
  split; [exact Fx|]. split; [exact Fy|].
  pose proof (Bplus_correct 24 128 eq_refl eq_refl binop_nan_pl32 mode_NE x y Fx Fy) as H. rewrite fexp_FLT in H. cbn [round_mode] in H.
  destruct (Rlt_bool _ _); [destruct H as (V & _); exact V|]. destruct H as (H & _). destruct (overflow_inf _ _ H F).
Qed.
Lemma minus_fin x y : finite (b32_minus mode_NE x y) -> finite x /\ finite y /\ valR (b32_minus mode_NE x y) = rnd (valR x - valR y).
Proof.
  intros F. assert (finite x /\ finite y) as (Fx & Fy).
  { destruct x as [sx|sx|sx|sx]; destruct y as [sy|sy|sy|sy]; cbn in F; auto; try discriminate; destruct sx, sy; discriminate. }
  split; [exact Fx|]. split; [exact Fy|].
  pose proof (Bminus_correct 24 128 eq_refl eq_refl binop_nan_pl32 mode_NE x y Fx Fy) as H. rewrite fexp_FLT in H. cbn [round_mode] in H.
  destruct (Rlt_bool _ _); [destruct H as (V & _); exact V|]. destruct H as (H & _). destruct (overflow_inf _ _ H F).
Qed.
Lemma mult_fin x y : finite (b32_mult mode_NE x y) -> finite x /\ finite y /\ valR (b32_mult mode_NE x y) = rnd (valR x * valR y).
Proof.
  intros F. assert (finite x /\ finite y) as (Fx & Fy).
  { destruct x as [sx|sx|sx|sx]; destruct y as [sy|sy|sy|sy]; cbn in F; auto; try discriminate. }
  split; [exact Fx|]. split; [exact Fy|].
  pose proof (Bmult_correct 24 128 eq_refl eq_refl binop_nan_pl32 mode_NE x y) as H. rewrite fexp_FLT in H. cbn [round_mode] in H.
  destruct (Rlt_bool _ _); [destruct H as (V & _); exact V|]. destruct (overflow_inf _ _ H F).
Qed.

(** ** One more term *)
Notation eta := (bpow radix2 (-150)).
Lemma u_pos : 0 < u32. Proof. apply bpow_gt_0. Qed.
Lemma eta_pos : 0 < eta. Proof. apply bpow_gt_0. Qed.
Lemma q_pow m : 1 <= (1 + u32) ^ m. Proof. apply pow_R1_Rle. pose proof u_pos. lra. Qed.

Lemma gap_mono m m' S S' : (m <= m')%nat -> 0 <= S <= S' -> gap m S <= gap m' S'.
Proof.
  intros Hm HS. unfold gap. pose proof u_pos. pose proof eta_pos.
  assert (P1 : (1 + u32) ^ (m + 1) <= (1 + u32) ^ (m' + 1)) by (apply Rle_pow; [lra|lia]).
  assert (P2 : (1 + u32) ^ m <= (1 + u32) ^ m') by (apply Rle_pow; [lra|lia]).
  pose proof (q_pow (m + 1)). pose proof (q_pow m). pose proof (pos_INR m). apply le_INR in Hm.
  apply Rplus_le_compat.
  - apply Rmult_le_compat; lra.
  - apply Rmult_le_compat_r; [lra|]. apply Rmult_le_compat; try lra. 
Qed.
Lemma gap_nonneg m S : 0 <= S -> 0 <= gap m S.
Proof.
  intros H. unfold gap. pose proof (q_pow (m + 1)). pose proof (q_pow m). pose proof (pos_INR m). pose proof eta_pos.
  apply Rplus_le_le_0_compat; [apply Rmult_le_pos; lra|]. repeat apply Rmult_le_pos; lra.
Qed.

Lemma gap_step m S p : 0 <= S -> 0 <= p ->
  (1 + u32) * gap m S + (1 + u32) * (u32 * p + eta) + u32 * (S + p) + eta <= gap (m + 1) (S + p).
Proof.
  intros HS Hp. unfold gap. rewrite plus_INR, !pow_add, !pow_1. change (INR 1) with 1.
  pose proof u_pos. pose proof eta_pos. pose proof (q_pow m). set (Q := (1 + u32) ^ m) in *. set (u := u32) in *.
  assert (A1 : p * (1 + u) * (1 + u) <= p * Q * (1 + u) * (1 + u)).
  { assert (p <= p * Q) by (rewrite <- (Rmult_1_r p) at 1; apply Rmult_le_compat_l; lra).
    apply Rmult_le_compat_r; [lra|]. apply Rmult_le_compat_r; lra. }
  assert (U1 : u <= 1) by (unfold u; change 1 with (bpow radix2 0); apply bpow_le; lia).
  assert (A2 : (2 + u) * eta <= 3 * Q * (1 + u) * eta).
  { apply Rmult_le_compat_r; [lra|]. assert (0 <= (Q - 1) * u) by (apply Rmult_le_pos; lra). lra. }
  set (e := eta) in *. nra.
Qed.

Lemma rnd_add m S T p y t : Rabs T <= S -> Rabs (t - p) <= u32 * Rabs p + eta -> Rabs (y - T) <= gap m S ->
  Rabs (rnd (y + t) - (T + p)) <= gap (m + 1) (S + Rabs p) /\ Rabs (y + t) <= S + Rabs p + gap (m + 1) (S + Rabs p).
Proof.
  intros HT Ht Hy. pose proof (rnd_err (y + t)) as Hr. pose proof (Rabs_pos p). pose proof (Rabs_pos T). pose proof u_pos. pose proof eta_pos.
  pose proof (gap_step m S (Rabs p) ltac:(lra) ltac:(lra)) as G.
  assert (A : Rabs (y + t - (T + p)) <= gap m S + (u32 * Rabs p + eta)).
  { replace (y + t - (T + p)) with ((y - T) + (t - p)) by ring. eapply Rle_trans; [apply Rabs_triang|]. lra. }
  assert (B : Rabs (y + t) <= S + Rabs p + (gap m S + (u32 * Rabs p + eta))).
  { replace (y + t) with ((y + t - (T + p)) + (T + p)) by ring. eapply Rle_trans; [apply Rabs_triang|]. pose proof (Rabs_triang T p). lra. }
  assert (GP : 0 <= gap m S) by (apply gap_nonneg; lra).
  assert (E : 0 <= u32 * (gap m S + (u32 * Rabs p + eta))) by (apply Rmult_le_pos; [lra|]; assert (0 <= u32 * Rabs p) by (apply Rmult_le_pos; lra); lra).
  assert (E2 : u32 * Rabs (y + t) <= u32 * (S + Rabs p + (gap m S + (u32 * Rabs p + eta)))) by (apply Rmult_le_compat_l; lra).
  assert (0 <= u32 * (S + Rabs p)) by (apply Rmult_le_pos; lra).
  split; [|lra].
  replace (rnd (y + t) - (T + p)) with ((rnd (y + t) - (y + t)) + (y + t - (T + p))) by ring.
  eapply Rle_trans; [apply Rabs_triang|]. lra.
Qed.

Lemma gap_0 S : 0 <= S -> 0 <= gap 0 S. Proof. apply gap_nonneg. Qed.

(** ** The sum of products *)
Section O.
Variable o : oracles binary32.
Local Notation z := (lit (a := B32 o) 0 1 : binary32).
Lemma z0 : valR z = 0. Proof. vm_compute. reflexivity. Qed.
Lemma zfin : finite z. Proof. reflexivity. Qed.

(** The real value of a term. *)
Definition rterm (c : option (list binary32)) (i : nat) (v : binary32) : R :=
  match c with Some c => valR (nth i c z) * valR v | None => valR v end.

Lemma tap_fin c i v : finite (tap (A := B32 o) c i v) -> finite v /\ (forall l, c = Some l -> finite (nth i l z)) /\
  Rabs (valR (tap (A := B32 o) c i v) - rterm c i v) <= u32 * Rabs (rterm c i v) + eta.
Proof.
  destruct c as [c|]; cbn [tap rterm].
  - destruct (i =? 0)%nat; cbn [B32 fmul]; intros F; destruct (mult_fin _ _ F) as (F1 & F2 & V).
    + split; [exact F2|]. split; [intros l E; injection E as <-; exact F1|]. rewrite V. apply rnd_err.
    + split; [exact F1|]. split; [intros l E; injection E as <-; exact F2|]. rewrite V. rewrite (Rmult_comm (valR v)). apply rnd_err.
  - intros F. split; [exact F|]. split; [discriminate|]. rewrite Rminus_diag_eq, Rabs_R0 by reflexivity. pose proof u_pos. pose proof eta_pos. pose proof (Rabs_pos (valR v)).
    assert (0 <= u32 * Rabs (valR v)) by (apply Rmult_le_pos; lra). lra.
Qed.

Lemma fir_acc_fin c k : forall (w : list binary32) (y : binary32), finite (fir_acc (A := B32 o) c k w y) -> finite y.
Proof.
  induction k; intros w y F; cbn [fir_acc] in F; [exact F|]. apply IHk in F. apply plus_fin in F. apply F.
Qed.

Lemma fir_acc_err c (w : list binary32) k : forall (y : binary32) m S T, finite (fir_acc (A := B32 o) c k w y) ->
  Rabs T <= S -> Rabs (valR y - T) <= gap m S ->
  (forall i, (i < k)%nat -> finite (nth i w z)) /\
  Rabs (valR (fir_acc (A := B32 o) c k w y) - (T + sum k (fun i => rterm c (1 + i) (nth i w z)))) <=
    gap (m + k) (S + sum k (fun i => Rabs (rterm c (1 + i) (nth i w z)))).
Proof.
  induction k; intros y m S T F HT Hy; cbn [fir_acc sum] in *.
  - split; [intros; lia|]. rewrite !Rplus_0_r, Nat.add_0_r. exact Hy.
  - pose proof (fir_acc_fin _ _ _ _ F) as F1. destruct (plus_fin _ _ F1) as (Fy & Ft & V).
    destruct (tap_fin _ _ _ Ft) as (Fv & _ & Et). destruct (rnd_add m S T _ _ _ HT Et Hy) as (N & _). 
    pose proof (Rabs_triang T (rterm c (1 + k) (nth k w z))).
    specialize (IHk (fadd (a := B32 o) y (tap (A := B32 o) c (1 + k) (nth k w z))) (m + 1)%nat (S + Rabs (rterm c (1 + k) (nth k w z))) (T + rterm c (1 + k) (nth k w z)) F).
    destruct IHk as (I1 & I2).
    + lra.
    + change (valR (b32_plus mode_NE y (tap (A := B32 o) c (1 + k) (nth k w z))) = rnd (valR y + valR (tap (A := B32 o) c (1 + k) (nth k w z)))) in V.
      change (fadd (a := B32 o) y) with (b32_plus mode_NE y). rewrite V. exact N.
    + split. { intros i Hi. destruct (Nat.eq_dec i k) as [->|]; [exact Fv|apply I1; lia]. }
      replace (m + Datatypes.S k)%nat with (m + 1 + k)%nat by lia.
      replace (T + (sum k (fun i => rterm c (1 + i) (nth i w z)) + rterm c (1 + k) (nth k w z))) with (T + rterm c (1 + k) (nth k w z) + sum k (fun i => rterm c (1 + i) (nth i w z))) by ring.
      replace (S + (sum k (fun i => Rabs (rterm c (1 + i) (nth i w z))) + Rabs (rterm c (1 + k) (nth k w z)))) with (S + Rabs (rterm c (1 + k) (nth k w z)) + sum k (fun i => Rabs (rterm c (1 + i) (nth i w z)))) by ring.
      exact I2.
Qed.

Lemma fir_value_err c n (x : binary32) (w : list binary32) : (1 <= n)%nat -> finite (fir_value (A := B32 o) c n x w) ->
  (forall i, (i < n)%nat -> finite (nth i (x :: w) z)) /\
  Rabs (valR (fir_value (A := B32 o) c n x w) - sum n (fun i => rterm c i (nth i (x :: w) z))) <= gap n (sum n (fun i => Rabs (rterm c i (nth i (x :: w) z)))).
Proof.
  intros Hn F. unfold fir_value in *. destruct (plus_fin _ _ F) as (F1 & F2 & V). destruct (tap_fin _ _ _ F2) as (Fx & _ & Et).
  destruct (fir_acc_err c w (n - 1) z 0 0 0 F1) as (I1 & I2).
  - rewrite Rabs_R0. lra.
  - rewrite z0, Rminus_diag_eq, Rabs_R0 by reflexivity. apply gap_0. lra.
  - assert (HS : Rabs (0 + sum (n - 1) (fun i => rterm c (1 + i) (nth i w z))) <= 0 + sum (n - 1) (fun i => Rabs (rterm c (1 + i) (nth i w z)))).
    { rewrite !Rplus_0_l. clear. induction (n - 1)%nat; cbn [sum]; [rewrite Rabs_R0; lra|]. eapply Rle_trans; [apply Rabs_triang|]. lra. }
    destruct (rnd_add _ _ _ _ _ _ HS Et I2) as (N & _).
    split. { intros [|i] Hi; [exact Fx|]. apply I1. lia. }
    change (fadd (a := B32 o) (fir_acc c (n - 1) w z) (tap c 0 x)) with (b32_plus mode_NE (fir_acc (A := B32 o) c (n - 1) w z) (tap (A := B32 o) c 0 x)).
    rewrite V. replace (0 + (n - 1) + 1)%nat with n in N by lia.
    destruct n; [lia|]. rewrite !sum_first. cbn [nth]. replace (S n - 1)%nat with n in * by lia. rewrite !Rplus_0_l in N.
    rewrite (Rplus_comm (rterm c 0 x)), (Rplus_comm (Rabs (rterm c 0 x))). exact N.
Qed.

(** ** The sum is finite when nothing can overflow *)
Lemma tap_in c i v : finite v -> (forall l, c = Some l -> finite (nth i l z)) -> Rabs (rterm c i v) <= big ->
  finite (tap (A := B32 o) c i v).
Proof.
  destruct c as [c|]; cbn [tap rterm]; intros Fv Fc B; [|exact Fv]. specialize (Fc c eq_refl).
  destruct (i =? 0)%nat; cbn [B32 fmul].
  - apply mult_R; auto.
  - apply mult_R; auto. rewrite Rmult_comm. exact B.
Qed.

Lemma sum_nonneg k f : (forall i, 0 <= f i) -> 0 <= sum k f.
Proof. intros H. induction k; cbn [sum]; [lra|]. specialize (H k). lra. Qed.

Lemma fir_acc_in c (w : list binary32) k : forall (y : binary32) m S T, finite y ->
  (forall i, (i < k)%nat -> finite (nth i w z) /\ forall l, c = Some l -> finite (nth (1 + i) l z)) ->
  Rabs T <= S -> Rabs (valR y - T) <= gap m S ->
  S + sum k (fun i => Rabs (rterm c (1 + i) (nth i w z))) + gap (m + k) (S + sum k (fun i => Rabs (rterm c (1 + i) (nth i w z)))) <= big ->
  finite (fir_acc (A := B32 o) c k w y).
Proof.
  induction k; intros y m S T Fy Fw HT Hy B; cbn [fir_acc sum] in *; [exact Fy|].
  destruct (Fw k ltac:(lia)) as (Fv & Fc). 
  set (p := rterm c (1 + k) (nth k w z)) in *. set (Q := sum k (fun i => Rabs (rterm c (1 + i) (nth i w z)))) in *.
  assert (0 <= Q) by (apply sum_nonneg; intros; apply Rabs_pos). pose proof (Rabs_pos p). pose proof (Rabs_pos T).
  assert (0 <= gap (m + Datatypes.S k) (S + (Q + Rabs p))) by (apply gap_nonneg; lra).
  assert (Ft : finite (tap (A := B32 o) c (1 + k) (nth k w z))) by (apply tap_in; auto; fold p; lra).
  destruct (tap_fin _ _ _ Ft) as (_ & _ & Et). fold p in Et. destruct (rnd_add m S T _ _ _ HT Et Hy) as (N & B1).
  assert (gap (m + 1) (S + Rabs p) <= gap (m + Datatypes.S k) (S + (Q + Rabs p))) by (apply gap_mono; [lia|lra]).
  destruct (plus_R y _ Fy Ft) as (F1 & V); [lra|].
  apply (IHk _ (m + 1)%nat (S + Rabs p) (T + p)).
  - exact F1.
  - intros i Hi. apply Fw. lia.
  - pose proof (Rabs_triang T p). lra.
  - change (fadd (a := B32 o) y) with (b32_plus mode_NE y). change (tap (A := B32 o) c (Datatypes.S k) (nth k w z)) with (tap (A := B32 o) c (1 + k) (nth k w z)). rewrite V. exact N.
  - replace (m + 1 + k)%nat with (m + Datatypes.S k)%nat by lia. fold Q. replace (S + Rabs p + Q) with (S + (Q + Rabs p)) by ring. exact B.
Qed.

Lemma fir_value_in c n (x : binary32) (w : list binary32) : (1 <= n)%nat ->
  (forall i, (i < n)%nat -> finite (nth i (x :: w) z) /\ forall l, c = Some l -> finite (nth i l z)) ->
  let S := sum n (fun i => Rabs (rterm c i (nth i (x :: w) z))) in S + gap n S <= big ->
  finite (fir_value (A := B32 o) c n x w).
Proof.
  intros Hn Fw S B. unfold fir_value. destruct n as [|n]; [lia|]. unfold S in *. rewrite sum_first in *. cbn [nth] in *. replace (Datatypes.S n - 1)%nat with n by lia.
  set (p := rterm c 0 x) in *. set (Q := sum n (fun i => Rabs (rterm c (Datatypes.S i) (nth i w z)))) in *.
  assert (0 <= Q) by (apply sum_nonneg; intros; apply Rabs_pos). pose proof (Rabs_pos p).
  assert (0 <= gap (Datatypes.S n) (Rabs p + Q)) by (apply gap_nonneg; lra).
  assert (G1 : gap n Q <= gap (Datatypes.S n) (Rabs p + Q)) by (apply gap_mono; [lia|lra]).
  assert (Fa : finite (fir_acc (A := B32 o) c n w z)).
  { apply (fir_acc_in c w n z 0 0 0); [apply zfin|intros i Hi; apply (Fw (Datatypes.S i)); lia|rewrite Rabs_R0; lra|rewrite z0, Rminus_diag_eq, Rabs_R0 by reflexivity; apply gap_0; lra|].
    change (0 + Q + gap (0 + n) (0 + Q) <= big). rewrite Rplus_0_l. cbn [Nat.add]. lra. }
  destruct (Fw 0%nat ltac:(lia)) as (Fx & Fc). assert (Ft : finite (tap (A := B32 o) c 0 x)) by (apply tap_in; auto; fold p; lra).
  destruct (tap_fin _ _ _ Ft) as (_ & _ & Et). fold p in Et.
  destruct (fir_acc_err c w n z 0 0 0 Fa) as (_ & I2); [rewrite Rabs_R0; lra|rewrite z0, Rminus_diag_eq, Rabs_R0 by reflexivity; apply gap_0; lra|].
  rewrite !Rplus_0_l in I2. cbn [Nat.add] in I2. fold Q in I2.
  assert (HS : Rabs (sum n (fun i => rterm c (Datatypes.S i) (nth i w z))) <= Q).
  { unfold Q. clear. induction n; cbn [sum]; [rewrite Rabs_R0; lra|]. eapply Rle_trans; [apply Rabs_triang|]. lra. }
  destruct (rnd_add _ _ _ _ _ _ HS Et I2) as (_ & B1). replace (n + 1)%nat with (Datatypes.S n) in B1 by lia. rewrite (Rplus_comm Q) in B1.
  apply plus_R; auto. lra.
Qed.
End O.

(** ** Simple form of the bound *)
Lemma pow_inv k : INR k * u32 <= 1 -> (1 + u32) ^ k * (1 - INR k * u32) <= 1.
Proof.
  pose proof u_pos as U. set (u := u32) in *. clearbody u. induction k; intros H; [cbn; lra|]. rewrite S_INR in *. cbn [Rpow_def.pow].
  pose proof (pos_INR k). assert (0 <= INR k * u) by (apply Rmult_le_pos; lra).
  assert (P : 0 < (1 + u) ^ k) by (apply pow_lt; lra). specialize (IHk ltac:(lra)).
  replace ((1 + u) * (1 + u) ^ k * (1 - (INR k + 1) * u)) with ((1 + u) ^ k * ((1 + u) * (1 - (INR k + 1) * u))) by ring.
  apply Rle_trans with ((1 + u) ^ k * (1 - INR k * u)); [|exact IHk]. apply Rmult_le_compat_l; [lra|].
  assert (0 <= u * u) by (apply Rmult_le_pos; lra). assert (0 <= (INR k * u) * u) by (apply Rmult_le_pos; lra). nra.
Qed.
Lemma pow_small k : (k <= 4095)%nat -> (1 + u32) ^ k - 1 <= (INR k + 1) * u32.
Proof.
  intros H. pose proof u_pos as U. assert (Hk : INR k <= 4095) by (apply le_INR in H; replace (INR 4095) with 4095 in H by (rewrite INR_IZR_INZ; reflexivity); exact H).
  assert (Eu : u32 = / 16777216) by reflexivity. pose proof (pos_INR k).
  pose proof (pow_inv k ltac:(rewrite Eu; lra)) as P. rewrite Eu in *. set (q := (1 + / 16777216) ^ k) in *. set (a := INR k) in *.
  assert (D : 0 < 1 - a * / 16777216) by lra.
  assert (Q : q <= / (1 - a * / 16777216)). { apply Rmult_le_reg_r with (1 - a * / 16777216); auto. rewrite Rinv_l by lra. exact P. }
  assert (/ (1 - a * / 16777216) <= 1 + (a + 1) * / 16777216); [|lra].
  apply Rmult_le_reg_r with (1 - a * / 16777216); auto. rewrite Rinv_l by lra. 
  assert (a * a <= 4095 * a) by (apply Rmult_le_compat_r; lra). nra.
Qed.
Lemma gap_simple n S : (n <= 4094)%nat -> 0 <= S -> gap n S <= (INR n + 2) * u32 * S + 4 * INR n * eta.
Proof.
  intros H HS. unfold gap. pose proof (pow_small (n + 1) ltac:(lia)) as P. pose proof (pow_small n ltac:(lia)) as P2. rewrite plus_INR in P. change (INR 1) with 1 in P.
  pose proof (pos_INR n). pose proof eta_pos. assert (INR n <= 4094) by (apply le_INR in H; replace (INR 4094) with 4094 in H by (rewrite INR_IZR_INZ; reflexivity); exact H).
  assert (Eu : u32 = / 16777216) by reflexivity. rewrite Eu in *.
  apply Rplus_le_compat; [apply Rmult_le_compat_r; lra|]. apply Rmult_le_compat_r; [lra|].
  assert ((1 + / 16777216) ^ n <= 4 / 3) by lra. nra.
Qed.
