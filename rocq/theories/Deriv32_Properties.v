(** Property theorems of the numerical differentiator in single precision (C135). *)
From Coq Require Import ZArith Reals Lra Lia Bool List.
From Flocq Require Import Core IEEE754.BinarySingleNaN IEEE754.Binary IEEE754.Bits.
From Verif Require Import Base Arith Ffmath_Spec Bits32 Ffmath_Proofs Ffmath_Proofs16 Float32 Numa_Model Deriv32_Spec Fir32_Proofs Mean32_Proofs Numa32_Proofs Deriv32_Proofs.
Import ListNotations.
Open Scope R_scope.

(** ** C135: the differentiator in binary32 *)
Lemma feedd_cons (o : oracles binary32) (h s : binary32) r (n : nstate (B32 o)) :
  fst (n_feedd (A := B32 o) h (s :: r) n) = fst (n_derive (A := B32 o) s h true n) :: fst (n_feedd (A := B32 o) h r (mkN (A := B32 o) (nx0 n) s (nx1 n) (nim n) (ndm n))).
Proof. cbn [n_feedd]. unfold n_derive, n_update. cbn [fst]. destruct (n_feedd (A := B32 o) h r _) as (ys, n2). reflexivity. Qed.

Lemma feedd_err (o : oracles binary32) (h : binary32) : finite h -> valR h <> 0 -> finite (b32_mult mode_NE (lit (a := B32 o) 2 1) h) ->
  forall (ss : list binary32) (n : nstate (B32 o)), ndm n <> DOther -> Forall (fun y : binary32 => finite y) (fst (n_feedd (A := B32 o) h ss n)) ->
  length (fst (n_feedd (A := B32 o) h ss n)) = length ss /\
  forall k, (k < length ss)%nat -> let l := valR (nx2 n) :: valR (nx1 n) :: map (B2R 24 128) ss in
    ap (nth k (map (B2R 24 128) (fst (n_feedd (A := B32 o) h ss n))) 0) (quotient (ndm n) (valR h) (nth (k + 2) l 0) (nth (k + 1) l 0) (nth k l 0))
      (quotient_mass (ndm n) (valR h) (nth (k + 2) l 0) (nth (k + 1) l 0) (nth k l 0)) 4 ((3 / Rabs (valR h) + 1) * eta).
Proof.
  intros Fh Nh F2. induction ss as [|s r IH]; intros n N Fy; [split; [reflexivity|cbn; lia]|].
  rewrite feedd_cons in Fy |- *. inversion Fy as [|? ? Fy1 Fyr]; subst.
  destruct (IH (mkN (A := B32 o) (nx0 n) s (nx1 n) (nim n) (ndm n)) N Fyr) as (L & H). split; [exact (f_equal S L)|]. intros k Hk. cbv zeta.
  destruct k as [|k].
  - cbn [map nth Nat.add]. apply deriv_err; assumption.
  - cbn [length] in Hk. assert (Hk' : (k < length r)%nat) by lia. exact (H k Hk').
Qed.

(** For each of the three rules, every state, every finite non-zero step whose double does not overflow and every stream of samples:
    if the outputs are finite, output k is off the exact difference quotient of the rule on the last three samples by at most
    ((1 + 2^-24)^4 - 1) times the same quotient of the magnitudes plus (3/|h| + 1) 2^-150: rounding errors do not accumulate. *)
Theorem C135_accuracy : forall (o : oracles binary32) (im : imethod) (m : dmethod) (x s1 s2 h : binary32) (ss : list binary32),
  m <> DOther -> finite h -> valR h <> 0 -> Rabs (valR h) <= bpow radix2 126 ->
  let ys := fst (n_feedd (A := B32 o) h ss (mkN (A := B32 o) x s1 s2 im m)) in
  let l := valR s2 :: valR s1 :: map (B2R 24 128) ss in
  Forall (fun y : binary32 => finite y) ys ->
  length ys = length ss /\
  forall k, (k < length ss)%nat ->
    Rabs (nth k (map (B2R 24 128) ys) 0 - quotient m (valR h) (nth (k + 2) l 0) (nth (k + 1) l 0) (nth k l 0)) <=
      ((1 + bpow radix2 (-24)) ^ 4 - 1) * quotient_mass m (valR h) (nth (k + 2) l 0) (nth (k + 1) l 0) (nth k l 0) + (3 / Rabs (valR h) + 1) * bpow radix2 (-150).
Proof.
  intros o im m x s1 s2 h ss N Fh Nh Bh ys l Fy.
  assert (F2 : finite (b32_mult mode_NE (lit (a := B32 o) 2 1) h)).
  { destruct (mult_R (lit (a := B32 o) 2 1) h eq_refl Fh) as (F2 & _); [|exact F2]. rewrite l2, Rabs_mult, (Rabs_pos_eq 2) by lra.
    change big with (bpow radix2 (1 + 126)). rewrite bpow_plus. change (bpow radix2 1) with 2. lra. }
  destruct (feedd_err o h Fh Nh F2 ss (mkN (A := B32 o) x s1 s2 im m) N Fy) as (L & H). split; [exact L|]. intros k Hk. exact (proj2 (proj2 (H k Hk))).
Qed.
Print Assumptions C135_accuracy.

(** The two-point rule differentiates every constant to exactly zero, for ever. *)
Theorem C135_constant_2points : forall (o : oracles binary32) (im : imethod) (x s s2 h : binary32) (n : nat),
  finite s -> finite h -> valR h <> 0 ->
  Forall (fun y : binary32 => finite y /\ valR y = 0) (fst (n_feedd (A := B32 o) h (repeat s n) (mkN (A := B32 o) x s s2 im D2Points))).
Proof.
  intros o im x s s2 h n Fs Fh Nh. revert s2. induction n as [|n IH]; intros s2; [constructor|]. cbn [repeat]. rewrite feedd_cons. constructor; [|apply IH].
  change (finite (b32_div mode_NE (b32_minus mode_NE s s) h) /\ valR (b32_div mode_NE (b32_minus mode_NE s s) h) = 0).
  assert (Z : valR s - valR s = 0) by ring. assert (B0 : Rabs 0 <= big) by (rewrite Rabs_R0; apply bpow_ge_0).
  destruct (minus_R s s Fs Fs) as (Fd & Vd); [rewrite Z; exact B0|]. rewrite Z, rnd_0 in Vd.
  assert (Q : valR (b32_minus mode_NE s s) / valR h = 0) by (rewrite Vd; unfold Rdiv; ring).
  destruct (div_R _ h Fd Fh Nh) as (Fq & Vq); [rewrite Q; exact B0|]. rewrite Q, rnd_0 in Vq. split; assumption.
Qed.
Print Assumptions C135_constant_2points.

Lemma const_run (o : oracles binary32) (h s d : binary32) (im : imethod) (m : dmethod) (x : binary32) :
  fst (n_derive (A := B32 o) s h true (mkN (A := B32 o) x s s im m)) = d -> forall n, fst (n_feedd (A := B32 o) h (repeat s n) (mkN (A := B32 o) x s s im m)) = repeat d n.
Proof. intros E. induction n as [|n IH]; [reflexivity|]. cbn [repeat]. rewrite feedd_cons, E. cbn [nx0 nx1 nim ndm]. rewrite IH. reflexivity. Qed.

(** Deviation: the three-point rules do not.  With s = 1 + 2^-23 and the step 2^-10 the constant s has the derivative 2^-14
    (backward rule) or -2^-14 (forward rule) for ever. *)
Theorem C135_constant_refuted : forall o, exists s h d d' : binary32, valR s = 1 + bpow radix2 (-23) /\ valR h = bpow radix2 (-10) /\ finite d /\ finite d' /\
  valR d = bpow radix2 (-14) /\ valR d' = - bpow radix2 (-14) /\
  forall (im : imethod) (x : binary32) (n : nat),
    fst (n_feedd (A := B32 o) h (repeat s n) (mkN (A := B32 o) x s s im DBackward)) = repeat d n /\
    fst (n_feedd (A := B32 o) h (repeat s n) (mkN (A := B32 o) x s s im DForward)) = repeat d' n.
Proof.
  intros o. exists (lit (a := B32 o) 8388609 8388608), (lit (a := B32 o) 1 1024), (lit (a := B32 o) 1 16384), (lit (a := B32 o) (-1) 16384).
  split; [change (bpow radix2 (-23)) with (/ 8388608); vm_compute; lra|]. split; [change (bpow radix2 (-10)) with (/ 1024); vm_compute; lra|]. split; [reflexivity|]. split; [reflexivity|].
  split; [change (bpow radix2 (-14)) with (/ 16384); vm_compute; lra|]. split; [change (bpow radix2 (-14)) with (/ 16384); vm_compute; lra|].
  intros im x n. split; apply const_run; apply bits_inj; vm_compute; reflexivity.
Qed.
Print Assumptions C135_constant_refuted.

Example C135_case : forall o, let s := lit (a := B32 o) 3 1 : binary32 in let h := lit (a := B32 o) 1 4 : binary32 in let z := lit (a := B32 o) 0 1 : binary32 in
  finite h /\ valR h = 1 / 4 /\ Rabs (valR h) <= bpow radix2 126 /\ Forall (fun y : binary32 => finite y) (fst (n_feedd (A := B32 o) h [s; s; z] (mkN (A := B32 o) z z s ITrapezoidal DBackward))).
Proof.
  intros o s h z. assert (V : valR h = 1 / 4) by (vm_compute; lra). split; [reflexivity|]. split; [exact V|].
  split; [rewrite V, Rabs_pos_eq by lra; apply Rle_trans with (bpow radix2 0); [cbn; lra|apply bpow_le; lia]|].
  rewrite !feedd_cons. cbn [n_feedd fst]. repeat apply Forall_cons; try apply Forall_nil; vm_compute; reflexivity.
Qed.
