(** Property theorems of the numerical integrator in single precision (C133). *)
From Coq Require Import ZArith Reals Lra Lia Bool List.
From Flocq Require Import Core IEEE754.BinarySingleNaN IEEE754.Binary IEEE754.Bits.
From Verif Require Import Base Arith Ffmath_Spec Bits32 Ffmath_Proofs Ffmath_Proofs16 Float32 Numa_Model Numa_Spec Numa32_Spec Fir32_Proofs Mean32_Proofs Numa32_Proofs.
Import ListNotations.
Open Scope R_scope.

(** ** C133: the integrator in binary32 *)
(** For each of the four rules, every initial value, every two previous samples, every step and every stream of samples: as long as
    the outputs are finite numbers, the output of step k (k = 0, 1, ...) is off the exact value of the rule by at most
    ((1 + 2^-24)^(k+7) - 1) times the sum of the magnitudes of everything added up, plus (k+1) (1 + 2^-24)^(k+1) (2|h| + 3) 2^-150. *)
Theorem C133_drift_bound : forall (o : oracles binary32) (m : imethod) (d : dmethod) (x s1 s2 h : binary32) (ss : list binary32),
  m <> IOther ->
  let ys := fst (n_feed (A := B32 o) h ss (n_init (A := B32 o) x s1 s2 (mkN (A := B32 o) x x x m d))) in
  Forall (fun y : binary32 => finite y) ys ->
  length ys = length ss /\
  forall k, (k < length ss)%nat ->
    Rabs (nth k (map (B2R 24 128) ys) 0 - integral m (valR h) (valR x) (valR s1) (valR s2) (map (B2R 24 128) ss) (k + 1)) <=
      ((1 + bpow radix2 (-24)) ^ (k + 7) - 1) * mass m (valR h) (valR x) (valR s1) (valR s2) (map (B2R 24 128) ss) (k + 1) +
      INR (k + 1) * (1 + bpow radix2 (-24)) ^ (k + 1) * ((2 * Rabs (valR h) + 3) * bpow radix2 (-150)).
Proof.
  intros o m d x s1 s2 h ss N ys Fy. unfold ys, n_init in *. cbn [nim ndm] in *.
  destruct (feed_err o h ss (mkN (A := B32 o) x s1 s2 m d) 0 (valR x) (Rabs (valR x)) N) as (L & H); [|exact Fy|].
  - eapply ap_weak; [apply ap_exact|lia|]. unfold budget. cbn. lra.
  - split; [exact L|]. intros k Hk. specialize (H k Hk). cbn [nim nx1 nx2 nx0 Nat.add] in H. exact (proj2 (proj2 H)).
Qed.
Print Assumptions C133_drift_bound.

Example C133_case : forall o, exists x s h y : binary32, valR x = 10 /\ valR s = 3 /\ valR h = 1 / 4 /\
  fst (n_feed (A := B32 o) h [s; s] (n_init (A := B32 o) x s s (mkN (A := B32 o) x x x ISimpson D2Points))) = [y; b32_plus mode_NE y (b32_minus mode_NE y x)] /\
  Rabs (valR y - 43 / 4) <= / 1000000 /\ finite (b32_plus mode_NE y (b32_minus mode_NE y x)).
Proof.
  intros o. assert (H : forall x s h y : binary32, y = b32_plus mode_NE x (n_increment (A := B32 o) s h (mkN (A := B32 o) x s s ISimpson D2Points)) ->
    b32_plus mode_NE y (n_increment (A := B32 o) s h (mkN (A := B32 o) y s s ISimpson D2Points)) = b32_plus mode_NE y (b32_minus mode_NE y x) ->
    fst (n_feed (A := B32 o) h [s; s] (n_init (A := B32 o) x s s (mkN (A := B32 o) x x x ISimpson D2Points))) = [y; b32_plus mode_NE y (b32_minus mode_NE y x)]).
  { intros x s h y E1 E2. rewrite <- E2. rewrite E1. reflexivity. }
  exists (lit (a := B32 o) 10 1), (lit (a := B32 o) 3 1), (lit (a := B32 o) 1 4), (lit (a := B32 o) 43 4).
  split; [vm_compute; lra|]. split; [vm_compute; lra|]. split; [vm_compute; lra|]. split; [|split; [|reflexivity]].
  - apply H; apply bits_inj; vm_compute; reflexivity.
  - apply Rabs_le. vm_compute. split; lra.
Qed.

(** Deviation: small contributions are lost entirely.  For every rule, every step of magnitude at most 2^20 and every stream of
    samples of magnitude at most M: once 3/2 |h| M is at most 2^-25 of the value of the integral, the integral never changes again. *)
Theorem C133_stagnation : forall (o : oracles binary32) (m : imethod) (d : dmethod) (x s1 s2 h : binary32) (M : R) (ss : list binary32),
  finite x -> bpow radix2 (-95) <= Rabs (valR x) -> finite h -> Rabs (valR h) <= bpow radix2 20 -> M <= bpow radix2 100 ->
  Forall (fun s : binary32 => finite s /\ Rabs (valR s) <= M) (s1 :: s2 :: ss) ->
  3 / 2 * (Rabs (valR h) * M) <= Rabs (valR x) * bpow radix2 (-25) ->
  fst (n_feed (A := B32 o) h ss (mkN (A := B32 o) x s1 s2 m d)) = repeat x (length ss).
Proof.
  intros o m d x s1 s2 h M ss Fx Bx Fh Bh HM W Hs. exact (proj1 (feed_stall o h M (conj Fh Bh) HM ss (mkN (A := B32 o) x s1 s2 m d) Fx Bx Hs W)).
Qed.
Print Assumptions C133_stagnation.

Lemma const_integral m h x : m <> IOther -> forall k j, (k <= j)%nat -> integral m h x 1 1 (repeat 1 j) k = x + INR k * h.
Proof.
  intros N. unfold integral. assert (E : forall k j, (k <= j)%nat -> total (firstn k (contributions (weights m) h (repeat 1 j) 1 1)) = INR k * h).
  { induction k as [|k IH]; intros j Hj; [cbn; ring|]. destruct j as [|j]; [lia|]. cbn [repeat contributions firstn]. unfold total in *. cbn [fold_right].
    rewrite IH by lia. rewrite S_INR. destruct m; cbn [weights fst snd]; [field..|congruence]. }
  intros k j Hj. rewrite E by exact Hj. reflexivity.
Qed.

(** Concretely, an integrator fed the constant 1 every millisecond that has reached 65536 stays there for ever, under every rule,
    while the exact integral grows without bound. *)
Theorem C133_growth_refuted : forall o, exists (x one h : binary32), valR x = 65536 /\ valR one = 1 /\ Rabs (valR h - 1 / 1000) <= / 1000000000 /\
  forall (m : imethod) (d : dmethod) (n : nat), m <> IOther ->
    fst (n_feed (A := B32 o) h (repeat one n) (n_init (A := B32 o) x one one (mkN (A := B32 o) x x x m d))) = repeat x n /\
    integral m (valR h) (valR x) (valR one) (valR one) (map (B2R 24 128) (repeat one n)) n = 65536 + INR n * valR h.
Proof.
  intros o. exists (lit (a := B32 o) 65536 1), (lit (a := B32 o) 1 1), (lit (a := B32 o) 1 1000).
  assert (Vx : valR (lit (a := B32 o) 65536 1 : binary32) = 65536) by (vm_compute; lra).
  assert (V1 : valR (lit (a := B32 o) 1 1 : binary32) = 1) by (vm_compute; lra).
  assert (Vh : Rabs (valR (lit (a := B32 o) 1 1000 : binary32) - 1 / 1000) <= / 1000000000) by (apply Rabs_le; vm_compute; split; lra).
  assert (Fx : finite (lit (a := B32 o) 65536 1)) by reflexivity. assert (F1 : finite (lit (a := B32 o) 1 1)) by reflexivity. assert (Fh : finite (lit (a := B32 o) 1 1000)) by reflexivity.
  revert Vx V1 Vh Fx F1 Fh. generalize (lit (a := B32 o) 65536 1) (lit (a := B32 o) 1 1) (lit (a := B32 o) 1 1000). change (F (B32 o)) with binary32. intros x one h Vx V1 Vh Fx F1 Fh.
  split; [exact Vx|]. split; [exact V1|]. split; [exact Vh|]. intros m d n N. apply Rabs_le_inv in Vh.
  assert (Bh : Rabs (valR h) <= 11 / 10000) by (apply Rabs_le; lra). split.
  - unfold n_init. cbn [nim ndm]. rewrite <- (repeat_length one n) at 2. apply (C133_stagnation o m d x one one h 1); auto.
    + rewrite Vx, Rabs_pos_eq by lra. change 65536 with (bpow radix2 16). apply bpow_le. lia.
    + change (bpow radix2 20) with 1048576. lra.
    + change 1 with (bpow radix2 0). apply bpow_le. lia.
    + apply Forall_forall. intros s Hs. assert (s = one). { destruct Hs as [E|[E|Hs]]; auto. apply repeat_spec in Hs. exact Hs. }
      subst. split; [exact F1|]. rewrite V1, Rabs_R1. lra.
    + rewrite Vx, (Rabs_pos_eq 65536) by lra. change 65536 with (bpow radix2 16). rewrite <- bpow_plus. change (bpow radix2 (16 + -25)) with (/ 512). lra.
  - rewrite map_repeat, V1, Vx. apply const_integral; auto.
Qed.
Print Assumptions C133_growth_refuted.
