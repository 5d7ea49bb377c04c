(** How far perturbations of the input travel in a stable discrete system (C131). *)
From Coq Require Import ZArith Reals Lra Lia Bool List.
From Verif Require Import Base Ltisys_Spec Ltisys_Proofs2 Fir32_Spec Fir32_Proofs Fir32_Proofs2.
Import ListNotations.
Open Scope R_scope.

(** Filters on two-sided signals *)
Definition filtf (c : list R) (s : Z -> R) (k : Z) : R := sum (length c) (fun i => nth i c 0 * s (k - Z.of_nat i)%Z).
Definition conv (n : nat) (h x : Z -> R) (k : Z) : R := sum n (fun j => x (Z.of_nat j) * h (k - Z.of_nat j)%Z).

Lemma filtf_neg c s k : (forall j, (j < 0)%Z -> s j = 0) -> (k < 0)%Z -> filtf c s k = 0.
Proof. intros H Hk. unfold filtf. rewrite (sum_ext _ _ (fun _ => 0)); [apply sum_0|]. intros i _. rewrite H by lia. lra. Qed.

Lemma sum_pick n k f : (k < n)%nat -> (forall i, (i < n)%nat -> i <> k -> f i = 0) -> sum n f = f k.
Proof.
  induction n; intros Hk H; [lia|]. cbn [sum]. destruct (Nat.eq_dec k n) as [->|].
  - rewrite (sum_ext n f (fun _ => 0)); [rewrite sum_0; lra|]. intros i Hi. apply H; lia.
  - rewrite IHn; [|lia|intros i Hi Ni; apply H; lia]. rewrite (H n); [lra|lia|auto].
Qed.

Lemma filtf_conv a h x n k : (forall j, (j < 0)%Z -> h j = 0) ->
  (forall j, (0 <= j < Z.of_nat n)%Z -> filtf a h j = if (j =? 0)%Z then 1 else 0) -> (k < n)%nat ->
  filtf a (conv n h x) (Z.of_nat k) = x (Z.of_nat k).
Proof.
  intros Hn Hh Hk. unfold filtf, conv.
  rewrite (sum_ext _ _ (fun i => sum n (fun j => x (Z.of_nat j) * (nth i a 0 * h (Z.of_nat k - Z.of_nat j - Z.of_nat i)%Z)))).
  2:{ intros i _. rewrite <- sum_scal. apply sum_ext. intros j _. replace (Z.of_nat k - Z.of_nat i - Z.of_nat j)%Z with (Z.of_nat k - Z.of_nat j - Z.of_nat i)%Z by lia. ring. }
  rewrite sum_swap. rewrite (sum_ext n _ (fun j => x (Z.of_nat j) * filtf a h (Z.of_nat k - Z.of_nat j))).
  2:{ intros j _. unfold filtf. rewrite sum_scal. reflexivity. }
  rewrite (sum_pick n k); auto.
  - rewrite Z.sub_diag, Hh by lia. cbn. ring.
  - intros j Hj Nj. destruct (Z_lt_le_dec (Z.of_nat k - Z.of_nat j) 0).
    + rewrite filtf_neg by auto. ring.
    + rewrite Hh by lia. destruct (Z.eqb_spec (Z.of_nat k - Z.of_nat j) 0); [lia|ring].
Qed.

(** The inner signal is determined by the filtered one. *)
Lemma inner_unique a v w n : nth 0 a 0 <> 0 -> (forall j, (j < 0)%Z -> v j = w j) ->
  (forall k, (k < n)%nat -> filtf a v (Z.of_nat k) = filtf a w (Z.of_nat k)) -> forall k, (k < n)%nat -> v (Z.of_nat k) = w (Z.of_nat k).
Proof.
  intros Ha Hneg H. assert (P : forall m, (m <= n)%nat -> forall k, (k < Z.of_nat m)%Z -> v k = w k).
  { induction m; intros Hm k Hk; [apply Hneg; lia|]. destruct (Z.eq_dec k (Z.of_nat m)) as [->|]; [|apply IHm; lia].
    pose proof (H m ltac:(lia)) as E. unfold filtf in E. destruct a as [|a0 a]; [cbn in Ha; lra|]. cbn [length] in E. rewrite !sum_first in E. cbn [nth] in E, Ha.
    rewrite (sum_ext (length a) (fun i => nth i a 0 * v (Z.of_nat m - Z.of_nat (S i))%Z) (fun i => nth i a 0 * w (Z.of_nat m - Z.of_nat (S i))%Z)) in E.
    2:{ intros i _. rewrite IHm by lia. reflexivity. }
    replace (Z.of_nat m - Z.of_nat 0)%Z with (Z.of_nat m) in E by lia. apply Rmult_eq_reg_l with a0; auto. lra. }
  intros k Hk. apply (P n); lia.
Qed.

(** The absolute sum of the impulse response bounds the gain. *)
Lemma sum_back (g : Z -> R) n : forall k, (forall j, (j < 0)%Z -> g j = 0) -> (forall j, 0 <= g j) -> (k < n)%nat ->
  sum n (fun j => g (Z.of_nat k - Z.of_nat j)%Z) <= sum n (fun i => g (Z.of_nat i)).
Proof.
  intros k Hn Hp Hk.
  assert (A : forall m, (S k <= m)%nat -> sum m (fun j => g (Z.of_nat k - Z.of_nat j)%Z) = sum (S k) (fun j => g (Z.of_nat k - Z.of_nat j)%Z)).
  { induction m; intros Hm; [lia|]. destruct (Nat.eq_dec (S m) (S k)) as [E|]; [rewrite E; reflexivity|]. cbn [sum] in *. rewrite IHm by lia. rewrite (Hn (Z.of_nat k - Z.of_nat m)%Z) by lia. lra. }
  assert (B : forall m, sum (S m) (fun j => g (Z.of_nat m - Z.of_nat j)%Z) = sum (S m) (fun i => g (Z.of_nat i))).
  { induction m; [cbn [sum]; reflexivity|]. rewrite sum_first. rewrite (sum_ext (S m) (fun i => g (Z.of_nat (S m) - Z.of_nat (S i))%Z) (fun j => g (Z.of_nat m - Z.of_nat j)%Z)).
    2:{ intros i _. f_equal. lia. } rewrite IHm. change (sum (S (S m)) (fun i => g (Z.of_nat i))) with (sum (S m) (fun i => g (Z.of_nat i)) + g (Z.of_nat (S m))).
    replace (Z.of_nat (S m) - Z.of_nat 0)%Z with (Z.of_nat (S m)) by lia. lra. }
  rewrite A, B by lia. clear A B. induction n; [lia|]. destruct (Nat.eq_dec (S n) (S k)) as [E|]; [rewrite E; lra|].
  change (sum (S n) (fun i => g (Z.of_nat i))) with (sum n (fun i => g (Z.of_nat i)) + g (Z.of_nat n)). specialize (IHn ltac:(lia)). specialize (Hp (Z.of_nat n)). lra.
Qed.
Lemma sum_le n f g : (forall i, (i < n)%nat -> f i <= g i) -> sum n f <= sum n g.
Proof. induction n; intros H; cbn [sum]; [lra|]. specialize (IHn ltac:(intros; apply H; lia)). specialize (H n ltac:(lia)). lra. Qed.

Lemma conv_bound n h x X k : (forall j, (j < 0)%Z -> h j = 0) -> (forall j, (j < n)%nat -> Rabs (x (Z.of_nat j)) <= X) -> (k < n)%nat ->
  Rabs (conv n h x (Z.of_nat k)) <= X * sum n (fun i => Rabs (h (Z.of_nat i))).
Proof.
  intros Hn Hx Hk. unfold conv. eapply Rle_trans; [apply sum_abs|].
  apply Rle_trans with (X * sum n (fun j => Rabs (h (Z.of_nat k - Z.of_nat j)%Z))).
  - rewrite <- sum_scal. apply sum_le. intros j Hj. rewrite Rabs_mult. apply Rmult_le_compat_r; [apply Rabs_pos|auto].
  - apply Rmult_le_compat_l; [eapply Rle_trans; [apply Rabs_pos|apply (Hx k Hk)]|].
    apply (sum_back (fun j => Rabs (h j))); auto; [intros; rewrite Hn by auto; apply Rabs_R0|intros; apply Rabs_pos].
Qed.

Lemma filtf_bound c s n X k : 0 <= X -> (forall j, (j < 0)%Z -> s j = 0) -> (forall j, (j < n)%nat -> Rabs (s (Z.of_nat j)) <= X) -> (k < n)%nat ->
  Rabs (filtf c s (Z.of_nat k)) <= sum (length c) (fun i => Rabs (nth i c 0)) * X.
Proof.
  intros HX Hn Hs Hk. unfold filtf. eapply Rle_trans; [apply sum_abs|]. rewrite Rmult_comm, <- sum_scal. apply sum_le. intros i _. rewrite Rabs_mult, Rmult_comm.
  apply Rmult_le_compat_r; [apply Rabs_pos|]. destruct (Z_lt_le_dec (Z.of_nat k - Z.of_nat i) 0).
  - rewrite Hn by lia. rewrite Rabs_R0. exact HX.
  - replace (Z.of_nat k - Z.of_nat i)%Z with (Z.of_nat (k - i)) by lia. apply Hs. lia.
Qed.

(** The largest of finitely many values *)
Lemma max_exists n (f : nat -> R) : (forall k, 0 <= f k) -> exists D, 0 <= D /\ (forall k, (k < n)%nat -> f k <= D) /\ (D = 0 \/ exists k, (k < n)%nat /\ f k = D).
Proof.
  intros Hp. induction n as [|n (D & D0 & A & B)]; [exists 0; split; [lra|]; split; [intros; lia|auto]|].
  destruct (Rle_lt_dec (f n) D) as [L|L].
  - exists D. split; auto. split. { intros k Hk. destruct (Nat.eq_dec k n) as [->|]; [lra|apply A; lia]. }
    destruct B as [->|(k & Hk & E)]; [auto|]. right. exists k. split; [lia|exact E].
  - exists (f n). split; [lra|]. split. { intros k Hk. destruct (Nat.eq_dec k n) as [->|]; [lra|]. specialize (A k ltac:(lia)). lra. }
    right. exists n. split; [lia|reflexivity].
Qed.

Lemma at_nat l k : at_ l (Z.of_nat k) = nth k l 0.
Proof. unfold at_. destruct (Z.ltb_spec (Z.of_nat k) 0); [lia|]. rewrite Nat2Z.id. reflexivity. Qed.
Lemma filter_abs_le c s n X k : 0 <= X -> (forall j, (j < n)%nat -> Rabs (nth j s 0) <= X) -> (k < n)%nat ->
  filter (map Rabs c) (map Rabs s) (Z.of_nat k) <= sum (length c) (fun i => Rabs (nth i c 0)) * X.
Proof.
  intros HX Hs Hk. eapply Rle_trans; [apply Rle_abs|].
  eapply Rle_trans; [apply (filtf_bound (map Rabs c) (at_ (map Rabs s)) n X k HX)|]; auto.
  - intros j Hj. apply at_neg. exact Hj.
  - intros j Hj. rewrite at_abs, at_nat, Rabs_Rabsolu. auto.
  - rewrite map_length. apply Req_le. f_equal. apply sum_ext. intros i _. rewrite nth_abs. apply Rabs_Rabsolu.
Qed.

Lemma forward (a b h us zs ws ys : list R) (N n : nat) (H U : R) :
  nth 0 a 0 <> 0 -> length us = n -> length ws = n -> response [1] a (impulse n) h -> response b a us zs ->
  sum n (fun i => Rabs (nth i h 0)) <= H -> 0 <= U -> (forall k, (k < n)%nat -> Rabs (nth k us 0) <= U) ->
  (forall k, (k < n)%nat -> Rabs (filter a ws (Z.of_nat k) - nth k us 0) <= gap N (Rabs (nth k us 0) + filter (map Rabs a) (map Rabs ws) (Z.of_nat k)) /\
      Rabs (nth k ys 0 - filter b ws (Z.of_nat k)) <= gap N (filter (map Rabs b) (map Rabs ws) (Z.of_nat k))) ->
  let A := total_abs a in let B := total_abs b in let D := input_error N A H U in
  gain N * A * H < 1 ->
  forall k, (k < n)%nat -> Rabs (nth k ys 0 - nth k zs 0) <= B * (H * D) + gap N (B * (H * (U + D))).
Proof.
  intros Ha Lu Lw (Lh & Hh) Hz HH HU Bu P A B D Hg.
  set (hf := at_ h). assert (Hneg : forall j, (j < 0)%Z -> hf j = 0) by (intros j Hj; apply at_neg; exact Hj).
  assert (Ln : length (impulse n) = n) by (unfold impulse; rewrite map_length; apply seq_length).
  assert (Himp : forall j, (0 <= j < Z.of_nat n)%Z -> filtf a hf j = if (j =? 0)%Z then 1 else 0).
  { intros j Hj. change (filtf a hf j) with (filter a h j). rewrite Hh by (unfold zlen; rewrite Ln; exact Hj). unfold filter. cbn [length sum nth].
    replace j with (Z.of_nat (Z.to_nat j)) by lia. replace (Z.of_nat (Z.to_nat j) - Z.of_nat 0)%Z with (Z.of_nat (Z.to_nat j)) by lia. rewrite at_nat.
    unfold impulse. rewrite (nth_indep _ 0 ((fun k => if (k =? 0)%nat then 1 else 0) O)) by (rewrite map_length, seq_length; lia).
    rewrite (map_nth (fun k => if (k =? 0)%nat then 1 else 0)), seq_nth by lia. cbn [Nat.add].
    destruct (Nat.eqb_spec (Z.to_nat j) 0), (Z.eqb_spec (Z.of_nat (Z.to_nat j)) 0); try lia; lra. }
  (* the gain of 1/a *)
  assert (Gain : forall (v x : Z -> R) X, (forall j, (j < 0)%Z -> v j = 0) -> (forall k, (k < n)%nat -> filtf a v (Z.of_nat k) = x (Z.of_nat k)) ->
    (forall k, (k < n)%nat -> Rabs (x (Z.of_nat k)) <= X) -> forall k, (k < n)%nat -> Rabs (v (Z.of_nat k)) <= H * X).
  { intros v x X Hv Hf Hx k Hk. rewrite (inner_unique a v (conv n hf x) n); auto.
    - pose proof (conv_bound n hf x X k Hneg Hx Hk) as C. eapply Rle_trans; [exact C|]. rewrite Rmult_comm. apply Rmult_le_compat_r; [eapply Rle_trans; [apply Rabs_pos|apply (Hx k Hk)]|].
      eapply Rle_trans; [|exact HH]. apply Req_le. apply sum_ext. intros i _. unfold hf. rewrite at_nat. reflexivity.
    - intros j Hj. rewrite Hv by auto. unfold conv. rewrite (sum_ext _ _ (fun _ => 0)); [rewrite sum_0; reflexivity|]. intros i _. rewrite Hneg by lia. ring.
    - intros i Hi. rewrite Hf, filtf_conv by auto. reflexivity. }
  (* the exact inner signal *)
  set (wx := map (fun k => conv n hf (at_ us) (Z.of_nat k)) (seq 0 n)).
  assert (Lx : length wx = n) by (unfold wx; rewrite map_length; apply seq_length).
  assert (Wx : forall k, (k < n)%nat -> nth k wx 0 = conv n hf (at_ us) (Z.of_nat k)).
  { intros k Hk. unfold wx. rewrite (nth_indep _ 0 ((fun k => conv n hf (at_ us) (Z.of_nat k)) O)) by (rewrite map_length, seq_length; exact Hk).
    rewrite (map_nth (fun k => conv n hf (at_ us) (Z.of_nat k))), seq_nth by exact Hk. reflexivity. }
  assert (Fx : forall k, (k < n)%nat -> filter a wx (Z.of_nat k) = nth k us 0).
  { intros k Hk. rewrite <- at_nat, <- (filtf_conv a hf (at_ us) n k Hneg Himp Hk). unfold filter, filtf. apply sum_ext. intros i _. f_equal.
    destruct (Z_lt_le_dec (Z.of_nat k - Z.of_nat i) 0).
    - rewrite at_neg by lia. unfold conv. rewrite (sum_ext _ _ (fun _ => 0)); [rewrite sum_0; reflexivity|]. intros j _. rewrite Hneg by lia. ring.
    - replace (Z.of_nat k - Z.of_nat i)%Z with (Z.of_nat (k - i)) by lia. rewrite at_nat. apply Wx. lia. }
  pose proof (inner_response b a [] wx n Lx) as Rx. cbv zeta in Rx.
  assert (Tab : forall (f : nat -> R) l, length l = n -> (forall k, (k < n)%nat -> f k = nth k l 0) -> map f (seq 0 n) = l).
  { intros f l Ll Hl. apply nth_ext with (d := f O) (d' := 0); [rewrite map_length, seq_length; auto|]. intros k Hk. rewrite map_length, seq_length in Hk.
    rewrite map_nth, seq_nth by exact Hk. apply Hl. exact Hk. }
  rewrite (Tab (fun k => filter a wx (Z.of_nat k)) us Lu Fx) in Rx.
  pose proof (response_unique b a us _ _ Ha Hz Rx) as Ez.
  assert (Zk : forall k, (k < n)%nat -> nth k zs 0 = filter b wx (Z.of_nat k)).
  { intros k Hk. rewrite Ez. rewrite (nth_indep _ 0 ((fun k => filter b wx (Z.of_nat k)) O)) by (rewrite map_length, seq_length; exact Hk).
    rewrite (map_nth (fun k => filter b wx (Z.of_nat k))), seq_nth by exact Hk. reflexivity. }
  (* the perturbation of the input *)
  destruct (max_exists n (fun k => Rabs (filter a ws (Z.of_nat k) - nth k us 0)) ltac:(intros; apply Rabs_pos)) as (E & E0 & EA & EB).
  assert (HH0 : 0 <= H) by (eapply Rle_trans; [|exact HH]; apply sum_nonneg; intros; apply Rabs_pos).
  assert (A0 : 0 <= A) by (apply sum_nonneg; intros; apply Rabs_pos). assert (B0 : 0 <= B) by (apply sum_nonneg; intros; apply Rabs_pos).
  assert (Wb : forall k, (k < n)%nat -> Rabs (nth k ws 0) <= H * (U + E)).
  { intros k Hk. rewrite <- at_nat. apply (Gain (at_ ws) (filtf a (at_ ws)) (U + E)); auto; [intros j Hj; apply at_neg; exact Hj|].
    intros j Hj. change (filtf a (at_ ws) (Z.of_nat j)) with (filter a ws (Z.of_nat j)). specialize (EA j Hj). specialize (Bu j Hj). cbv beta in EA.
    replace (filter a ws (Z.of_nat j)) with ((filter a ws (Z.of_nat j) - nth j us 0) + nth j us 0) by ring. eapply Rle_trans; [apply Rabs_triang|]. lra. }
  assert (W0 : 0 <= H * (U + E)) by (apply Rmult_le_pos; lra).
  assert (G0 : 0 <= gain N) by (unfold gain; pose proof (q_pow (N + 1)); lra).
  assert (F0 : 0 <= floor_ N). { unfold floor_. pose proof (q_pow N). pose proof (pos_INR N). pose proof eta_pos. repeat apply Rmult_le_pos; lra. }
  assert (GE : forall S, gap N S = gain N * S + floor_ N) by reflexivity.
  assert (ED : E <= D).
  { unfold D, input_error. apply Rmult_le_reg_r with (1 - gain N * A * H); [lra|].
    replace ((gain N * (1 + A * H) * U + floor_ N) / (1 - gain N * A * H) * (1 - gain N * A * H)) with (gain N * (1 + A * H) * U + floor_ N) by (field; lra).
    destruct EB as [->|(k & Hk & Ek)].
    - rewrite Rmult_0_l. assert (0 <= A * H) by (apply Rmult_le_pos; auto). assert (0 <= gain N * (1 + A * H) * U) by (repeat apply Rmult_le_pos; lra). lra.
    - cbv beta in Ek. destruct (P k Hk) as (P1 & _). rewrite Ek, GE in P1.
      pose proof (filter_abs_le a ws n (H * (U + E)) k W0 Wb Hk) as FA. change (sum (length a) (fun i => Rabs (nth i a 0))) with A in FA. specialize (Bu k Hk).
      assert (gain N * (Rabs (nth k us 0) + filter (map Rabs a) (map Rabs ws) (Z.of_nat k)) <= gain N * (U + A * (H * (U + E)))) by (apply Rmult_le_compat_l; lra). nra. }
  intros k Hk. destruct (P k Hk) as (_ & P2). rewrite Zk by exact Hk.
  assert (Wb2 : H * (U + E) <= H * (U + D)) by (apply Rmult_le_compat_l; lra).
  pose proof (filter_abs_le b ws n (H * (U + E)) k W0 Wb Hk) as FB. change (sum (length b) (fun i => Rabs (nth i b 0))) with B in FB.
  assert (Q1 : gap N (filter (map Rabs b) (map Rabs ws) (Z.of_nat k)) <= gap N (B * (H * (U + D)))).
  { rewrite !GE. apply Rplus_le_compat_r. apply Rmult_le_compat_l; auto. eapply Rle_trans; [exact FB|]. apply Rmult_le_compat_l; auto. }
  assert (Q2 : Rabs (filter b ws (Z.of_nat k) - filter b wx (Z.of_nat k)) <= B * (H * E)).
  { replace (filter b ws (Z.of_nat k) - filter b wx (Z.of_nat k)) with (filtf b (fun j => at_ ws j - at_ wx j) (Z.of_nat k)).
    - apply (filtf_bound b _ n); auto; [apply Rmult_le_pos; auto|intros j Hj; rewrite !at_neg by exact Hj; ring|].
      intros j Hj. apply (Gain (fun j => at_ ws j - at_ wx j) (fun j => filtf a (at_ ws) j - filtf a (at_ wx) j) E); auto.
      + intros i Hi. rewrite !at_neg by exact Hi. ring.
      + intros i Hi. unfold filtf. unfold Rminus. rewrite <- (Rmult_1_l (sum (length a) (fun i0 => nth i0 a 0 * at_ wx _))), <- Ropp_mult_distr_l_reverse, <- sum_scal, <- sum_plus. apply sum_ext. intros; ring.
      + intros i Hi. cbv beta. change (filtf a (at_ wx) (Z.of_nat i)) with (filter a wx (Z.of_nat i)). rewrite Fx by exact Hi. apply (EA i Hi).
    - unfold filter, filtf, Rminus. rewrite <- (Rmult_1_l (sum (length b) (fun i0 => nth i0 b 0 * at_ wx _))), <- Ropp_mult_distr_l_reverse, <- sum_scal, <- sum_plus. apply sum_ext. intros; ring. }
  assert (Q3 : B * (H * E) <= B * (H * D)) by (apply Rmult_le_compat_l; auto; apply Rmult_le_compat_l; auto).
  replace (nth k ys 0 - filter b wx (Z.of_nat k)) with ((nth k ys 0 - filter b ws (Z.of_nat k)) + (filter b ws (Z.of_nat k) - filter b wx (Z.of_nat k))) by ring.
  eapply Rle_trans; [apply Rabs_triang|]. lra.
Qed.
