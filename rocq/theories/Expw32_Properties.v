(** Property theorems of the exponentially weighted mean in single precision (C136). *)
From Coq Require Import ZArith Reals Lra Lia Bool List.
From Flocq Require Import Core IEEE754.BinarySingleNaN IEEE754.Binary IEEE754.Bits.
From Verif Require Import Base Arith Ffmath_Spec Bits32 Ffmath_Proofs Ffmath_Proofs16 Float32 Smoother_Model Smoother_Spec Smoother_Proofs4 Expw32_Proofs.
Import ListNotations.
Open Scope R_scope.

(** ** C136: EXPW in binary32 *)
(** For every accepted forgetting factor of at most 1 - 2^-j (1 <= j <= 20), every state of the object before setup and every stream of
    finite samples in [lo, hi], of magnitude at most M (2^-100 <= M <= 2^100), whatever its length: every output is a finite number within
    2^(j-21) M of [lo, hi]. *)
Theorem C136_hull : forall (o : oracles binary32) (j : Z) (lam : binary32) (f0 f : expw (B32 o)) (xs : list binary32) (lo hi M : R),
  expw_setup (A := B32 o) lam f0 = (true, f) -> (1 <= j <= 20)%Z -> valR lam <= 1 - bpow radix2 (- j) ->
  bpow radix2 (-100) <= M <= bpow radix2 100 -> Rabs lo <= M -> Rabs hi <= M ->
  Forall (fun x => finite x /\ lo <= valR x <= hi) xs ->
  let ys := fst (feed (A := B32 o) (expw_smooth (A := B32 o)) xs f) in
  length ys = length xs /\
  Forall (fun y : binary32 => finite y /\ lo - bpow radix2 (j - 21) * M <= valR y <= hi + bpow radix2 (j - 21) * M) ys.
Proof.
  intros o j lam f0 f xs lo hi M S Hj Hl HM Bl Bh W ys. unfold expw_setup in S. destruct (unit_open (A := B32 o) lam) eqn:E; [|discriminate].
  apply unit_open_b32 in E. destruct E as (Fl & L1 & L2).
  assert (Ef : f = mkEXPW (A := B32 o) lam (lit 0 1) (lit 1 1) true) by congruence.
  destruct (efeed o j lo hi M Hj HM Bl Bh xs f) as (A & B); [|exact W|split; [exact B|exact A]].
  rewrite Ef. unfold eok. cbn [e_lambda e_init]. split; [split; [exact Fl|split; [exact L1|exact Hl]]|discriminate].
Qed.
Print Assumptions C136_hull.

Definition pair_step (o : oracles binary32) (lam x : binary32) (s : binary32 * binary32) : binary32 * binary32 :=
  let w := b32_plus mode_NE (b32_mult mode_NE lam (snd s)) (lit (a := B32 o) 1 1) in
  let iw := b32_div mode_NE (lit (a := B32 o) 1 1) w in
  (b32_plus mode_NE (b32_mult mode_NE (fst s) (b32_minus mode_NE (lit (a := B32 o) 1 1) iw)) (b32_mult mode_NE iw x), w).

Lemma feed_fst {A : arith} {S} (step : F A -> S -> F A * S) x r f : fst (feed step (x :: r) f) = fst (step x f) :: fst (feed step r (snd (step x f))).
Proof. cbn [feed]. destruct (step x f) as (y & f1). cbn [fst snd]. destruct (feed step r f1) as (ys & f2). reflexivity. Qed.

Lemma iter_r {B} k (g : B -> B) x : Nat.iter (S k) g x = Nat.iter k g (g x).
Proof. induction k as [|k IH]; [reflexivity|]. change (g (Nat.iter (S k) g x) = g (Nat.iter k g (g x))). rewrite IH. reflexivity. Qed.
Lemma run_pairs (o : oracles binary32) (lam x y : binary32) : forall (k n : nat) (s t : binary32 * binary32),
  Nat.iter k (pair_step o lam x) s = t -> pair_step o lam x t = t -> fst t = y ->
  exists ys, length ys = k /\ fst (feed (A := B32 o) (expw_smooth (A := B32 o)) (repeat x (k + n)) (mkEXPW (A := B32 o) lam (fst s) (snd s) false)) = ys ++ repeat y n.
Proof.
  assert (U : forall s r, fst (feed (A := B32 o) (expw_smooth (A := B32 o)) (x :: r) (mkEXPW (A := B32 o) lam (fst s) (snd s) false)) =
    fst (pair_step o lam x s) :: fst (feed (A := B32 o) (expw_smooth (A := B32 o)) r (mkEXPW (A := B32 o) lam (fst (pair_step o lam x s)) (snd (pair_step o lam x s)) false))).
  { intros s r. exact (feed_fst (A := B32 o) (expw_smooth (A := B32 o)) x r (mkEXPW (A := B32 o) lam (fst s) (snd s) false)). }
  induction k as [|k IH]; intros n s t I P Y.
  - exists []. split; [reflexivity|]. change (s = t) in I. rewrite I. clear I s. cbn [Nat.add app]. induction n as [|n IHn]; [reflexivity|]. cbn [repeat]. rewrite U, P, Y, <- Y, IHn, Y. reflexivity.
  - rewrite iter_r in I. destruct (IH n (pair_step o lam x s) t I P Y) as (ys & L & E). exists (fst (pair_step o lam x s) :: ys).
    split; [exact (f_equal S L)|]. cbn [Nat.add repeat]. rewrite U, E. reflexivity.
Qed.

Lemma start_pair (o : oracles binary32) (lam x m w : binary32) r :
  fst (feed (A := B32 o) (expw_smooth (A := B32 o)) (x :: r) (mkEXPW (A := B32 o) lam m w true)) = fst (feed (A := B32 o) (expw_smooth (A := B32 o)) (x :: r) (mkEXPW (A := B32 o) lam x (lit (a := B32 o) 1 1) false)).
Proof. reflexivity. Qed.

(** Deviation: on a constant input the output leaves the constant and never comes back.  With the forgetting factor 0.6 and the
    constant 1 + 3 2^-23, the output is 1 + 4 2^-23 from the 41st sample on, for ever. *)
Theorem C136_constant_refuted : forall o, exists (lam x y : binary32) (f : expw (B32 o)), valR x = 1 + 3 * bpow radix2 (-23) /\ valR y = 1 + 4 * bpow radix2 (-23) /\
  Rabs (valR lam - 6 / 10) <= / 10000000 /\ expw_setup (A := B32 o) lam expw_new = (true, f) /\
  forall n, exists ys, length ys = 40%nat /\ fst (feed (A := B32 o) (expw_smooth (A := B32 o)) (repeat x (40 + n)) f) = ys ++ repeat y n.
Proof.
  intros o.
  assert (H : exists lam x y w : binary32, (valR x = 1 + 3 * bpow radix2 (-23) /\ valR y = 1 + 4 * bpow radix2 (-23) /\ Rabs (valR lam - 6 / 10) <= / 10000000 /\ unit_open (A := B32 o) lam = true) /\
    fst (Nat.iter 40 (pair_step o lam x) (x, lit (a := B32 o) 1 1)) = y /\ snd (Nat.iter 40 (pair_step o lam x) (x, lit (a := B32 o) 1 1)) = w /\
    fst (pair_step o lam x (y, w)) = y /\ snd (pair_step o lam x (y, w)) = w).
  { exists (lit (a := B32 o) 6 10), (lit (a := B32 o) 8388611 8388608), (lit (a := B32 o) 8388612 8388608), (lit (a := B32 o) 5 2).
    split; [split; [change (bpow radix2 (-23)) with (/ 8388608); vm_compute; lra|split; [change (bpow radix2 (-23)) with (/ 8388608); vm_compute; lra|split; [apply Rabs_le; vm_compute; split; lra|vm_compute; reflexivity]]]|].
    split; [|split; [|split]]; apply bits_inj; vm_compute; reflexivity. }
  destruct H as (lam & x & y & w & (Vx & Vy & Vl & Ul) & I1 & I2 & P1 & P2).
  exists lam, x, y, (mkEXPW (A := B32 o) lam (lit 0 1) (lit 1 1) true). split; [exact Vx|]. split; [exact Vy|]. split; [exact Vl|].
  split; [unfold expw_setup; rewrite Ul; reflexivity|]. intros n.
  destruct (run_pairs o lam x y 40 n (x, lit (a := B32 o) 1 1) (y, w)) as (ys & L & E); [| |reflexivity|].
  - destruct (Nat.iter 40 (pair_step o lam x) (x, lit (a := B32 o) 1 1)) as (a & b). cbn [fst snd] in I1, I2. rewrite I1, I2. reflexivity.
  - destruct (pair_step o lam x (y, w)) as (a & b). cbn [fst snd] in P1, P2. rewrite P1, P2. reflexivity.
  - exists ys. split; [exact L|]. cbn [fst snd] in E. rewrite <- E. change (repeat x (40 + n)) with (x :: repeat x (39 + n)). apply start_pair.
Qed.
Print Assumptions C136_constant_refuted.

Example C136_case : forall o, exists f, expw_setup (A := B32 o) (lit (a := B32 o) 6 10) expw_new = (true, f) /\ valR (lit (a := B32 o) 6 10 : binary32) <= 1 - bpow radix2 (- 2) /\
  Forall (fun x => finite x /\ -1 <= valR x <= 3) [lit (a := B32 o) (-1) 1 : binary32; lit (a := B32 o) 3 1; lit (a := B32 o) 1 3].
Proof.
  intros o. eexists. split; [unfold expw_setup; replace (unit_open (A := B32 o) (lit (a := B32 o) 6 10)) with true by (vm_compute; reflexivity); reflexivity|].
  split; [change (bpow radix2 (- 2)) with (/ 4); vm_compute; lra|].
  repeat apply Forall_cons; try apply Forall_nil; (split; [reflexivity|]); vm_compute; lra.
Qed.
