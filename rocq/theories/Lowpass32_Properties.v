(** Property theorems of the first-order low-pass filter in single precision (C129). *)
From Coq Require Import ZArith Reals Lra Lia Bool List.
From Flocq Require Import Core IEEE754.Binary IEEE754.Bits.
From Verif Require Import Base Arith Ffmath_Spec Bits32 Ffmath_Proofs Ffmath_Proofs16 Smoother_Model Smoother_Spec Smoother_Proofs4 Lowpass32_Proofs.
Import ListNotations.
Open Scope R_scope.

(** ** C129: LPF1 in binary32 *)
(** For every accepted constant and every stream of finite samples in [lo, hi], whatever its length, every output is finite
    and lies in [lo, hi]: rounding never takes the filter out of the hull of its inputs. *)
Theorem C129_hull : forall (o : oracles binary32) (a : binary32) (f0 f : lpf1 (B32 o)) (xs : list binary32) (lo hi : R),
  lpf1_setup (A := B32 o) a f0 = (true, f) -> hi - lo <= bpow radix2 127 -> - bpow radix2 127 <= lo -> hi <= bpow radix2 127 ->
  Forall (fun x => finite x /\ lo <= valR x <= hi) xs ->
  Forall (fun y => finite y /\ lo <= valR y <= hi) (fst (feed (A := B32 o) (lpf1_smooth (A := B32 o)) xs f)).
Proof.
  intros o a f0 f xs lo hi S W L1 L2 H. destruct (setup_ok o a f0 f S) as (Fa & Ha & Ea & Ei). apply feed_hull; auto; try (rewrite Ea; assumption). rewrite Ei. discriminate.
Qed.
Print Assumptions C129_hull.
(** On a constant input c, after any history, the distance to c never grows, and after n samples it is at most
    r^n times what it was plus (2^-24 |c| + 2^-148)/(1 - r), with r = a (1 + 2^-24)^3. *)
Theorem C129_settles : forall (o : oracles binary32) (a : binary32) (f0 f : lpf1 (B32 o)) (xs : list binary32) (c : binary32) (n : nat),
  lpf1_setup (A := B32 o) a f0 = (true, f) -> xs <> [] -> Forall (fun x => finite x /\ Rabs (valR x) <= bpow radix2 126) xs ->
  finite c -> Rabs (valR c) <= bpow radix2 126 ->
  let r := valR a * (1 + bpow radix2 (-24)) * (1 + bpow radix2 (-24)) * (1 + bpow radix2 (-24)) in r < 1 ->
  let run zs := last (fst (feed (A := B32 o) (lpf1_smooth (A := B32 o)) zs f)) (lit 0 1) in
  Rabs (valR (run (xs ++ repeat c n)) - valR c) <= Rabs (valR (run xs) - valR c) /\
  Rabs (valR (run (xs ++ repeat c n)) - valR c) <= r ^ n * Rabs (valR (run xs) - valR c) + (bpow radix2 (-24) * Rabs (valR c) + 4 * bpow radix2 (-150)) / (1 - r).
Proof. intros o a f0 f xs c n S N H Fc Bc r Hr run. exact (run_settle o a f0 f xs c n S N H Fc Bc Hr). Qed.
Print Assumptions C129_settles.
(** Deviation: the output need not reach a constant input, not even after arbitrarily many samples.  With the default
    constant 0.9, after one sample 1 + 2^-21 and any number of samples 1 the output is still 1 + 2^-21. *)
Theorem C129_settles_refuted : forall o, exists (f : lpf1 (B32 o)) (x one : binary32), lpf1_setup (A := B32 o) (lit (a := B32 o) 9 10) lpf1_new = (true, f) /\
  finite x /\ valR x = 1 + bpow radix2 (-21) /\ valR one = 1 /\
  forall n, fst (feed (A := B32 o) (lpf1_smooth (A := B32 o)) (x :: repeat one n) f) = x :: repeat x n.
Proof.
  intros o. exists (mkLPF1 (A := B32 o) (lit (a := B32 o) 9 10) (lit (a := B32 o) 0 1) true), (b32_of_bits 1065353220), (b32_of_bits 1065353216).
  split. { unfold lpf1_setup. replace (unit_open (A := B32 o) (lit (a := B32 o) 9 10)) with true by (vm_compute; reflexivity). reflexivity. }
  split; [reflexivity|]. split; [change (bpow radix2 (-21)) with (/ 2097152); vm_compute; lra|]. split; [vm_compute; lra|]. intros n.
  assert (E1 : lpf1_smooth (A := B32 o) (b32_of_bits 1065353220) (mkLPF1 (A := B32 o) (lit (a := B32 o) 9 10) (lit (a := B32 o) 0 1) true) = (b32_of_bits 1065353220, mkLPF1 (A := B32 o) (lit (a := B32 o) 9 10) (b32_of_bits 1065353220) false)).
  { unfold lpf1_smooth. cbn [f1_init f1_alpha]. match goal with |- (?y, _) = _ => replace y with (b32_of_bits 1065353220) by (apply bits_inj; vm_compute; reflexivity) end. reflexivity. }
  assert (E2 : lpf1_smooth (A := B32 o) (b32_of_bits 1065353216) (mkLPF1 (A := B32 o) (lit (a := B32 o) 9 10) (b32_of_bits 1065353220) false) = (b32_of_bits 1065353220, mkLPF1 (A := B32 o) (lit (a := B32 o) 9 10) (b32_of_bits 1065353220) false)).
  { unfold lpf1_smooth. cbn [f1_init f1_alpha f1_y1]. match goal with |- (?y, _) = _ => replace y with (b32_of_bits 1065353220) by (apply bits_inj; vm_compute; reflexivity) end. reflexivity. }
  cbn [feed]. rewrite E1. pose proof (stall_run o _ _ _ n E2) as S. match type of S with fst ?t = _ => destruct t as (ys & g) end. cbn [fst] in *. rewrite S. reflexivity.
Qed.
Print Assumptions C129_settles_refuted.
Example C129_case : forall o, exists (f : lpf1 (B32 o)), lpf1_setup (A := B32 o) (lit (a := B32 o) 9 10) lpf1_new = (true, f) /\
  valR (lit (a := B32 o) 9 10) * (1 + bpow radix2 (-24)) * (1 + bpow radix2 (-24)) * (1 + bpow radix2 (-24)) < 1 /\
  Forall (fun x => finite x /\ -1 <= valR x <= 2) [b32_of_bits 1065353220; b32_of_bits 0].
Proof.
  intros o. eexists. split. { unfold lpf1_setup. replace (unit_open (A := B32 o) (lit (a := B32 o) 9 10)) with true by (vm_compute; reflexivity). reflexivity. } split.
  - assert (V : valR (lit (a := B32 o) 9 10) = 15099494 / 16777216) by (vm_compute; lra). rewrite V. change (bpow radix2 (-24)) with (/ 16777216). lra.
  - repeat constructor; try reflexivity; vm_compute; lra.
Qed.
