(** The kernel of the Gaussian smoother in binary32 (C140). *)
From Coq Require Import ZArith Reals Lra Lia Bool List.
From Flocq Require Import Core IEEE754.BinarySingleNaN IEEE754.Binary IEEE754.Bits.
From Verif Require Import Base BaseLemmas Arith Ffmath_Spec Float32 Ltisys_Model Ltisys_Spec Ltisys_Proofs Ltisys_Proofs2 Ltisys_Proofs4 Smoother_Model Fir32_Spec Fir32_Proofs Fir32_Proofs2 Fir32_Proofs3 Interp32_Proofs Gauss32_Proofs Kernel32_Spec.
Import ListNotations.
Open Scope R_scope.

(** s + g i + g (i + 1) + ... *)
Fixpoint acc {A : arith} (g : nat -> F A) (k i : nat) (s : F A) : F A := match k with O => s | S k' => acc g k' (S i) (fadd s (g i)) end.

Lemma gauss_rep {A : arith} (l ce r : F A) k : forall i kern s, (i + k <= length kern)%nat ->
  let g := fun j => o_exp lib (fdiv (fopp (fmul (fsub (fsub (ofsize (Z.of_nat j)) l) ce) (fsub (fsub (ofsize (Z.of_nat j)) l) ce))) r) in
  gauss_loop k (Z.of_nat i) l ce r kern s = Ok (gloop (lit 0 1) k i (fun j _ => g j) kern, acc g k i s).
Proof.
  induction k as [|k IH]; intros i kern s H g; cbn [gauss_loop gloop acc]; [reflexivity|]. rewrite set_nth by lia. cbn [bind].
  replace (Z.of_nat i + 1)%Z with (Z.of_nat (S i)) by lia. rewrite IH by (rewrite upd_length; lia). reflexivity.
Qed.
Lemma setup_rep {A : arith} (sg ce : F A) w kernel n f0 f : (n <= length kernel)%nat -> gmwf_setup sg ce (Some w) kernel (Z.of_nat n) f0 = Ok (true, f) ->
  let g := fun j => o_exp lib (weight_arg sg ce n j) in
  (1 <= n)%nat /\ exists c, f = mkGMWF (Some w) (Some c) (Z.of_nat n) true /\ length c = length kernel /\ forall j, (j < n)%nat -> nth j c (lit 0 1) = fdiv (g j) (acc g n 0 (lit 0 1)).
Proof.
  intros Hk S g. destruct (setup_state _ _ _ _ _ _ _ S) as (P & c & Ef & Lc). split; [lia|]. exists c. split; [exact Ef|]. split; [exact Lc|].
  unfold gmwf_setup in S. match type of S with (if ?b then _ else _) = _ => destruct b; [|discriminate] end. rewrite Nat2Z.id in S. cbv zeta in S. change 0%Z with (Z.of_nat 0) in S.
  rewrite gauss_rep in S by lia. cbn [bind fst snd] in S. rewrite div_loop_ok in S by (rewrite gloop_length; lia). cbn [bind] in S. rewrite Ef in S. injection S as S. subst c.
  intros j Hj. rewrite gloop_nth by (rewrite gloop_length; lia). cbn [Nat.leb andb Nat.add]. rewrite (proj2 (Nat.ltb_lt _ _) Hj). rewrite gloop_nth by lia. cbn [Nat.leb andb Nat.add]. rewrite (proj2 (Nat.ltb_lt _ _) Hj). reflexivity.
Qed.

(** Sums of non-negative numbers, term by term. *)
Lemma sum_term n f : (forall i, (i < n)%nat -> 0 <= f i) -> forall j, (j < n)%nat -> f j <= sum n f.
Proof.
  induction n as [|n IH]; intros H j Hj; [lia|]. cbn [sum]. pose proof (H n ltac:(lia)) as Hn. destruct (Nat.eq_dec j n) as [->|N].
  - assert (0 <= sum n f). { destruct n as [|m]; [cbn; lra|]. apply Rle_trans with (f O); [apply H; lia|]. apply IH; [intros i Hi; apply H; lia|lia]. } lra.
  - assert (f j <= sum n f) by (apply IH; [intros i Hi; apply H; lia|lia]). lra.
Qed.
Lemma bern n : 1 - INR n * u32 <= (1 - u32) ^ n.
Proof.
  pose proof u_val as U. induction n as [|n IH]; [cbn; lra|]. rewrite S_INR. cbn [pow]. apply Rle_trans with ((1 - u32) * (1 - INR n * u32)); [|apply Rmult_le_compat_l; [rewrite U; lra|exact IH]].
  assert (0 <= u32 * (INR n * u32)) by (repeat apply Rmult_le_pos; try apply pos_INR; rewrite U; lra). lra.
Qed.
Section Sum.
Variable o : oracles binary32.
Variable g : nat -> binary32.
Notation z := (lit (a := B32 o) 0 1 : binary32).
Lemma acc_err k : forall i s T m, (i + k <= 4094)%nat -> (m + k <= 4094)%nat -> (forall j, (i <= j < i + k)%nat -> finite (g j) /\ 0 <= valR (g j) <= 2) ->
  finite s -> 0 <= T <= 2 * INR i -> T * (1 - u32) ^ m <= valR s <= T * (1 + u32) ^ m -> 
  let Sm := T + sum k (fun j => valR (g (i + j)%nat)) in
  finite (acc (A := B32 o) g k i s) /\ Sm * (1 - u32) ^ (m + k) <= valR (acc (A := B32 o) g k i s : binary32) <= Sm * (1 + u32) ^ (m + k) /\ Sm <= 2 * INR (i + k).
Proof.
  induction k as [|k IH]; intros i s T m Hi Hm Hg Fs HT Hs Sm; cbn [acc].
  - unfold Sm. cbn [sum]. rewrite Rplus_0_r, !Nat.add_0_r. split; [exact Fs|]. split; [exact Hs|lra].
  - destruct (Hg i ltac:(lia)) as (Fg & Bg). pose proof (pow_small m ltac:(lia)) as PS.
    assert (Im : INR m <= 4094). { replace 4094 with (INR 4094) by (rewrite INR_IZR_INZ; reflexivity). apply le_INR. lia. }
    assert (Ii : INR i <= 4094). { replace 4094 with (INR 4094) by (rewrite INR_IZR_INZ; reflexivity). apply le_INR. lia. }
    pose proof u_val as U. pose proof (pos_INR m) as Pm. pose proof (q_pow m) as Q.
    assert (Q0 : 0 <= (1 - u32) ^ m <= 1). { rewrite U. split; [apply pow_le; lra|]. apply Rle_trans with (1 ^ m); [apply pow_incr; lra|rewrite pow1; lra]. }
    assert (PQ : (1 + u32) ^ m <= 2) by (rewrite U in *; lra).
    assert (Hs2 : 0 <= valR s <= 16376 * 2). { split; [apply Rle_trans with (2 := proj1 Hs); apply Rmult_le_pos; lra|]. apply Rle_trans with (1 := proj2 Hs). apply Rmult_le_compat; lra. }
    assert (Bb : 65536 <= big). { apply Rle_trans with (bpow radix2 16); [cbn; lra|apply bpow_le; lia]. }
    destruct (plus_R s (g i) Fs Fg) as (Fp & Vp); [rewrite Rabs_pos_eq; lra|]. destruct (plus_rel s (g i)) as (e & He & Ee). rewrite Ee in Vp. apply Rabs_le_inv in He.
    change (fadd (a := B32 o) s (g i)) with (b32_plus mode_NE s (g i)).
    destruct (IH (S i) (b32_plus mode_NE s (g i)) (T + valR (g i)) (S m)) as (F & B & C); [lia|lia|intros j Hj; apply Hg; lia|exact Fp|rewrite S_INR; lra| |].
    { rewrite Vp. cbn [pow]. split.
      - replace ((T + valR (g i)) * ((1 - u32) * (1 - u32) ^ m)) with ((T * (1 - u32) ^ m + valR (g i) * (1 - u32) ^ m) * (1 - u32)) by ring.
        apply Rmult_le_compat; [apply Rplus_le_le_0_compat; apply Rmult_le_pos; lra|rewrite U; lra| |lra]. assert (valR (g i) * (1 - u32) ^ m <= valR (g i) * 1) by (apply Rmult_le_compat_l; lra). lra.
      - replace ((T + valR (g i)) * ((1 + u32) * (1 + u32) ^ m)) with ((T * (1 + u32) ^ m + valR (g i) * (1 + u32) ^ m) * (1 + u32)) by ring.
        apply Rmult_le_compat; [lra|rewrite U in He; lra| |lra]. assert (valR (g i) * 1 <= valR (g i) * (1 + u32) ^ m) by (apply Rmult_le_compat_l; lra). lra. }
    assert (ES : Sm = T + valR (g i) + sum k (fun j => valR (g (S i + j)%nat))).
    { unfold Sm. rewrite sum_first, Nat.add_0_r, <- Rplus_assoc. f_equal. apply sum_ext. intros j _. do 2 f_equal. lia. }
    rewrite ES. rewrite !Nat.add_succ_r. rewrite <- !Nat.add_succ_l. auto.
Qed.

(** The weights over their rounded sum, and the sum of these quotients. *)
Lemma kernel_err n : (1 <= n)%nat -> (n <= 4094)%nat -> (forall j, (j < n)%nat -> finite (g j) /\ 0 <= valR (g j) <= 2) -> (exists j, (j < n)%nat /\ 0 < valR (g j)) ->
  let c := fun j => b32_div mode_NE (g j) (acc (A := B32 o) g n 0 z) in
  (forall j, (j < n)%nat -> finite (c j) /\ 0 <= valR (c j)) /\ Rabs (sum n (fun j => valR (c j)) - 1) <= (INR n + 4) * u32.
Proof.
  intros Hn Hm Hg (p & Hp & Pp) c. destruct (acc_err n 0 z 0 0 ltac:(lia) ltac:(lia)) as (Fa & Ba & Ca); [intros j Hj; apply Hg; lia|reflexivity|cbn; lra|cbn; lra|].
  cbn [Nat.add] in Ba, Ca. rewrite Rplus_0_l in Ba, Ca. unfold c. clear c. set (s := acc (A := B32 o) g n 0 z : binary32) in *. change (finite s) in Fa.
  set (T := sum n (fun j => valR (g j))) in *.
  assert (In : 1 <= INR n <= 4094). { split; [change 1 with (INR 1); apply le_INR; lia|]. replace 4094 with (INR 4094) by (rewrite INR_IZR_INZ; reflexivity). apply le_INR. lia. }
  pose proof (pow_small n ltac:(lia)) as Pu. pose proof (bern n) as Pl. pose proof u_val as U.
  assert (GT : forall j, (j < n)%nat -> valR (g j) <= T). { intros j Hj. unfold T. apply (sum_term n (fun j => valR (g j))); [intros i Hi; apply Hg; exact Hi|exact Hj]. }
  assert (PT : 0 < T) by (specialize (GT p Hp); lra).
  assert (L1 : T * (1 - INR n * u32) <= valR s). { apply Rle_trans with (2 := proj1 Ba). apply Rmult_le_compat_l; lra. }
  assert (L2 : valR s <= T * (1 + (INR n + 1) * u32)). { apply Rle_trans with (1 := proj2 Ba). apply Rmult_le_compat_l; lra. }
  assert (Ps : 0 < valR s). { apply Rlt_le_trans with (2 := L1). apply Rmult_lt_0_compat; [exact PT|rewrite U; lra]. }
  assert (t1 : 1 - (INR n + 1) * u32 <= T / valR s). { apply Rmult_le_reg_r with (valR s); [exact Ps|]. unfold Rdiv. rewrite Rmult_assoc, Rinv_l, Rmult_1_r by lra.
    apply Rle_trans with ((1 - (INR n + 1) * u32) * (T * (1 + (INR n + 1) * u32))); [apply Rmult_le_compat_l; [rewrite U; lra|exact L2]|].
    replace ((1 - (INR n + 1) * u32) * (T * (1 + (INR n + 1) * u32))) with (T * (1 - ((INR n + 1) * u32) * ((INR n + 1) * u32))) by ring. rewrite <- (Rmult_1_r T) at 2. apply Rmult_le_compat_l; [lra|]. pose proof (Rle_0_sqr ((INR n + 1) * u32)) as Q. unfold Rsqr in Q. lra. }
  assert (t2 : T / valR s <= 1 + (INR n + 2) * u32). { apply Rmult_le_reg_r with (valR s); [exact Ps|]. unfold Rdiv. rewrite Rmult_assoc, Rinv_l, Rmult_1_r by lra.
    apply Rle_trans with ((1 + (INR n + 2) * u32) * (T * (1 - INR n * u32))); [|apply Rmult_le_compat_l; [rewrite U; lra|exact L1]].
    replace ((1 + (INR n + 2) * u32) * (T * (1 - INR n * u32))) with (T * (1 + u32 * (2 - u32 * (INR n * (INR n + 2))))) by ring. rewrite <- (Rmult_1_r T) at 1. apply Rmult_le_compat_l; [lra|].
    assert (Q : INR n * (INR n + 2) <= 4094 * 4096) by (apply Rmult_le_compat; lra). assert (0 <= u32 * (2 - u32 * (INR n * (INR n + 2)))) by (rewrite U; lra). lra. }
  assert (Bb : 65536 <= big). { apply Rle_trans with (bpow radix2 16); [cbn; lra|apply bpow_le; lia]. }
  assert (D : forall j, (j < n)%nat -> finite (b32_div mode_NE (g j) s) /\ 0 <= valR (g j) / valR s /\ valR (b32_div mode_NE (g j) s) = rnd (valR (g j) / valR s)).
  { intros j Hj. destruct (Hg j Hj) as (Fg & Bg). specialize (GT j Hj). assert (Iv : 0 < / valR s) by (apply Rinv_0_lt_compat; exact Ps).
    assert (Q0 : 0 <= valR (g j) / valR s) by (apply Rmult_le_pos; lra). assert (Q1 : valR (g j) / valR s <= T / valR s) by (apply Rmult_le_compat_r; lra).
    destruct (div_R (g j) s Fg Fa) as (F1 & V1); [lra|rewrite Rabs_pos_eq by exact Q0; rewrite U in t2; lra|]. auto. }
  split. { intros j Hj. destruct (D j Hj) as (F1 & Q0 & V1). split; [exact F1|]. rewrite V1. apply rnd_nonneg. exact Q0. }
  assert (E : Rabs (sum n (fun j => valR (b32_div mode_NE (g j) s)) - T / valR s) <= u32 * (T / valR s) + INR n * eta).
  { assert (ET : T / valR s = sum n (fun j => valR (g j) / valR s)). { unfold T, Rdiv. rewrite Rmult_comm, <- sum_scal. apply sum_ext. intros; apply Rmult_comm. }
    rewrite ET. clearbody s. clear - D. induction n as [|m IH]; [cbn; rewrite Rminus_0_r, Rabs_R0; lra|]. specialize (IH ltac:(intros j Hj; apply D; lia)). destruct (D m ltac:(lia)) as (_ & Q0 & V1).
    cbn [sum]. rewrite S_INR, V1. pose proof (rnd_err (valR (g m) / valR s)) as R. rewrite (Rabs_pos_eq (valR (g m) / valR s)) in R by exact Q0.
    match goal with |- Rabs (?a + ?b - (?c + ?d)) <= _ => replace (a + b - (c + d)) with ((a - c) + (b - d)) by ring end. eapply Rle_trans; [apply Rabs_triang|]. lra. }
  assert (Et : INR n * eta <= / 2 * u32). { apply Rle_trans with (4094 * bpow radix2 (-37)); [apply Rmult_le_compat; [lra|apply bpow_ge_0|lra|apply bpow_le; lia]|rewrite U; cbn; lra]. }
  assert (Eu : u32 * (T / valR s) <= u32 * (3 / 2)) by (apply Rmult_le_compat_l; [rewrite U; lra|rewrite U in t2; lra]).
  apply Rabs_le_inv in E. apply Rabs_le. lra.
Qed.
End Sum.
