(** Property theorems of the scalar Kalman filter in single precision (C134). *)
From Coq Require Import ZArith Reals Lra Lia Bool List.
From Flocq Require Import Core IEEE754.BinarySingleNaN IEEE754.Binary IEEE754.Bits.
From Verif Require Import Base Arith Ffmath_Spec Bits32 Ffmath_Proofs Ffmath_Proofs16 Float32 Smoother_Model Smoother_Spec Smoother_Proofs4 Kalman32_Proofs.
Import ListNotations.
Open Scope R_scope.

(** ** C134: KLMN in binary32 *)
Lemma setup_inv32 (o : oracles binary32) (q r p : binary32) (f0 f : klmn (B32 o)) : klmn_setup (A := B32 o) q r p f0 = (true, f) -> finite q -> finite r -> finite p ->
  (0 < valR q /\ 0 < valR r /\ 0 < valR p) /\ f = mkKLMN (A := B32 o) (k_x f0) (lit 1 1) (lit 1 1) q r p (k_gain f0) true.
Proof.
  intros H Fq Fr Fp. unfold klmn_setup in H.
  destruct (flt (a := B32 o) (lit 0 1) q) eqn:Eq; cbn [andb] in H; [|discriminate].
  destruct (flt (a := B32 o) (lit 0 1) r) eqn:Er; cbn [andb] in H; [|discriminate].
  destruct (flt (a := B32 o) (lit 0 1) p) eqn:Ep; [|discriminate].
  apply pos_b32 in Eq. apply pos_b32 in Er. apply pos_b32 in Ep.
  split; [|congruence]. unfold positive_or_inf in *. split; [|split]; [destruct Eq as [E|(_ & E)]|destruct Er as [E|(_ & E)]|destruct Ep as [E|(_ & E)]]; try exact E; exfalso; subst; discriminate.
Qed.

(** For all accepted finite parameters of at most 2^60, every state of the object before setup and every stream of finite samples in
    [lo, hi], with magnitudes at most M (2^-100 <= M <= 2^100), whatever its length: every output is a finite number within 2^-21 M of
    [lo, hi] (the excess does not accumulate), and after every sample the gain is a finite number in [0, 1] and the error variance a
    finite non-negative number of at most 2^62. *)
Theorem C134_hull : forall (o : oracles binary32) (q r p : binary32) (f0 f : klmn (B32 o)) (xs : list binary32) (lo hi M : R),
  klmn_setup (A := B32 o) q r p f0 = (true, f) ->
  finite q -> finite r -> finite p -> valR q <= bpow radix2 60 -> valR r <= bpow radix2 60 -> valR p <= bpow radix2 60 ->
  bpow radix2 (-100) <= M <= bpow radix2 100 -> Rabs lo <= M -> Rabs hi <= M ->
  Forall (fun x => finite x /\ lo <= valR x <= hi) xs ->
  let run := feed (A := B32 o) (klmn_smooth (A := B32 o)) xs f in
  length (fst run) = length xs /\
  Forall (fun y : binary32 => finite y /\ lo - bpow radix2 (-21) * M <= valR y <= hi + bpow radix2 (-21) * M) (fst run) /\
  (xs <> [] -> finite (k_gain (snd run) : binary32) /\ 0 <= valR (k_gain (snd run)) <= 1) /\
  finite (k_p (snd run) : binary32) /\ 0 <= valR (k_p (snd run)) <= bpow radix2 62.
Proof.
  intros o q r p f0 f xs lo hi M S Fq Fr Fp Bq Br Bp HM Bl Bh W run.
  destruct (setup_inv32 o q r p f0 f S Fq Fr Fp) as ((Pq & Pr & Pp) & Ef).
  assert (B62 : bpow radix2 60 <= bpow radix2 62) by (apply bpow_le; lia).
  assert (K : kok o lo hi M f).
  { rewrite Ef. unfold kok. cbn [k_A k_H k_q k_r k_p k_x k_init]. repeat split; auto; try lra; discriminate. }
  destruct (kfeed o lo hi M HM Bl Bh xs f K W) as (A & B & C & D). split; [exact B|]. split; [exact A|]. split; [exact D|].
  destruct C as (_ & _ & _ & _ & C & _). exact C.
Qed.
Print Assumptions C134_hull.

Example C134_case : forall o, exists f, klmn_setup (A := B32 o) (lit (a := B32 o) 100 1) (lit (a := B32 o) 9 10) (lit (a := B32 o) 100 1) (klmn_new (lit 0 1)) = (true, f) /\
  finite (lit (a := B32 o) 100 1) /\ finite (lit (a := B32 o) 9 10) /\ valR (lit (a := B32 o) 100 1 : binary32) <= bpow radix2 60 /\
  Forall (fun x => finite x /\ -1 <= valR x <= 3) [lit (a := B32 o) (-1) 1 : binary32; lit (a := B32 o) 3 1; lit (a := B32 o) 1 3].
Proof.
  intros o. eexists. split; [unfold klmn_setup; match goal with |- (if ?b then _ else _) = _ => replace b with true by (vm_compute; reflexivity) end; reflexivity|].
  split; [reflexivity|]. split; [reflexivity|]. split.
  - apply Rle_trans with (bpow radix2 7); [vm_compute; lra|apply bpow_le; lia].
  - repeat apply Forall_cons; try apply Forall_nil; (split; [reflexivity|]); vm_compute; lra.
Qed.

Lemma two_steps (o : oracles binary32) (a b y1 y2 : binary32) (f : klmn (B32 o)) :
  fst (klmn_smooth (A := B32 o) a f) = y1 -> fst (klmn_smooth (A := B32 o) b (snd (klmn_smooth (A := B32 o) a f))) = y2 ->
  fst (feed (A := B32 o) (klmn_smooth (A := B32 o)) [a; b] f) = [y1; y2].
Proof.
  intros E1 E2. cbn [feed]. destruct (klmn_smooth (A := B32 o) a f) as (z1 & f1). cbn [fst snd] in *. destruct (klmn_smooth (A := B32 o) b f1) as (z2 & f2). cbn [fst snd] in *. rewrite E1, E2. reflexivity.
Qed.

(** Deviation: unlike with exact arithmetic, the output can leave the hull of the samples.  With q = 10^10 and r = p = 1 the samples
    -1 and 16777218 give -1 and 16777220. *)
Theorem C134_exact_hull_refuted : forall o, exists (q r p x1 x2 y2 : binary32) (f : klmn (B32 o)),
  klmn_setup (A := B32 o) q r p (klmn_new (lit 0 1)) = (true, f) /\ valR q = 10000000000 /\ valR r = 1 /\ valR p = 1 /\
  finite x1 /\ finite x2 /\ valR x1 = -1 /\ valR x2 = 16777218 /\
  fst (feed (A := B32 o) (klmn_smooth (A := B32 o)) [x1; x2] f) = [x1; y2] /\ finite y2 /\ valR y2 = 16777220.
Proof.
  intros o. exists (lit (a := B32 o) 10000000000 1), (lit (a := B32 o) 1 1), (lit (a := B32 o) 1 1), (lit (a := B32 o) (-1) 1), (lit (a := B32 o) 16777218 1), (lit (a := B32 o) 16777220 1).
  eexists. split; [unfold klmn_setup; match goal with |- (if ?b then _ else _) = _ => replace b with true by (vm_compute; reflexivity) end; reflexivity|].
  split; [vm_compute; lra|]. split; [vm_compute; lra|]. split; [vm_compute; lra|]. split; [reflexivity|]. split; [reflexivity|]. split; [vm_compute; lra|]. split; [vm_compute; lra|].
  split; [|split; [reflexivity|vm_compute; lra]].
  apply two_steps; apply bits_inj; vm_compute; reflexivity.
Qed.
Print Assumptions C134_exact_hull_refuted.
