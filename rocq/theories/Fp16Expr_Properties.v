(** Property theorems of programs written with the fp16 operators (C127, C128). *)
From Coq Require Import ZArith Reals Lra Lia Bool List.
From Verif Require Import Base Fp16_Model Fp16_Spec Fp16Fun_Spec Fp16Expr_Model Fp16Expr_Spec Fp16_Proofs3 Fp16Expr_Proofs Fp16Expr_Proofs2.
Import ListNotations.
Open Scope R_scope.

(** ** C127: programs written with the operators *)
(** Every program (assignments, compound assignments, ++, --, branches, loops) that runs over the real numbers
    without meeting an unrepresentable value runs on fp16 objects to the same result. *)
Theorem C127_program_exact : forall c p q, rexec c p q -> forall s, holds s p ->
  exists n s', run n c s = Some (Ok s') /\ holds s' q.
Proof. exact run_exact. Qed.
Print Assumptions C127_program_exact.
(** There is one result only, however long one waits. *)
Theorem C127_deterministic : forall c s n m r r', run n c s = Some r -> run m c s = Some r' -> r = r'.
Proof.
  intros c s n m r r' H H'. pose proof (run_le n (max n m) c s r (Nat.le_max_l n m) H) as A. pose proof (run_le m (max n m) c s r' (Nat.le_max_r n m) H') as B. congruence.
Qed.
Print Assumptions C127_deterministic.
Theorem C127_comparisons : forall c x y, apply_cmp c x y = true <-> real_cmp c (fxR x) (fxR y).
Proof. exact cmp_real. Qed.
Print Assumptions C127_comparisons.
(** x op= e is x = x op e, also when e names x itself. *)
Theorem C127_compound_is_assignment : forall o i e n s, run (S n) (SCompound o i e) s = run (S n) (SAssign i (EBin o (EVar i) e)) s.
Proof. intros o i e n s. cbn [run eval bind]. destruct (eval s e) as [v|]; [|reflexivity]. cbn [bind]. destruct (apply_op o (s i) v); reflexivity. Qed.
Print Assumptions C127_compound_is_assignment.
(** y = x++ stores the old value in y (so x = x++ changes nothing), y = (++x, x) the new one. *)
Theorem C127_post_increment : forall i j s, exists a b, run 1 (SPostInc j i) s = Some (Ok a) /\ run 1 (SPostDec j i) s = Some (Ok b) /\
  a j = s i /\ b j = s i /\ (i <> j -> a i = incr (s i) /\ b i = decr (s i)) /\ (forall k, k <> i -> k <> j -> a k = s k /\ b k = s k).
Proof.
  intros i j s. eexists. eexists. split; [reflexivity|]. split; [reflexivity|]. unfold upd. rewrite Nat.eqb_refl. repeat split.
  - rewrite (proj2 (Nat.eqb_neq i j) H), Nat.eqb_refl. reflexivity.
  - rewrite (proj2 (Nat.eqb_neq i j) H), Nat.eqb_refl. reflexivity.
  - rewrite (proj2 (Nat.eqb_neq k j) H0), (proj2 (Nat.eqb_neq k i) H). reflexivity.
  - rewrite (proj2 (Nat.eqb_neq k j) H0), (proj2 (Nat.eqb_neq k i) H). reflexivity.
Qed.
Print Assumptions C127_post_increment.
(** Deviation: the overflow flag is not kept.  The sum of an overflowed sum and a positive number is an ordinary,
    wrong number, and the negative of an overflowed sum is undefined. *)
Theorem C127_overflow_lost_refuted : forall x y z, raw x -> raw y -> ~ raw (x + y) -> (0 < z < 2 ^ 31)%Z ->
  eval (fun i => match i with O => x | 1%nat => y | _ => z end) (EBin OAdd (EBin OAdd (EVar 0) (EVar 1)) (EVar 2)) = Ok (sentinel + z)%Z /\ isOverflow (sentinel + z) = false.
Proof.
  intros x y z Hx Hy H Hz. cbn [eval bind apply_op]. rewrite (proj2 (add_spec x y Hx Hy) H). rewrite (proj1 (add_spec sentinel z ltac:(unfold raw, sentinel; lia) ltac:(unfold raw; lia))) by (unfold raw, sentinel; lia).
  split; [reflexivity|]. unfold isOverflow, overflow, sentinel. apply Z.eqb_neq. lia.
Qed.
Print Assumptions C127_overflow_lost_refuted.
Theorem C127_negated_overflow_undefined : forall s a b x y, eval s a = Ok x -> eval s b = Ok y -> raw x -> raw y -> ~ raw (x + y) ->
  eval s (ENeg (EBin OAdd a b)) = Ub.
Proof. intros s a b x y Ea Eb Hx Hy H. cbn [eval]. rewrite Ea, Eb. cbn [bind apply_op]. rewrite (proj2 (add_spec x y Hx Hy) H). reflexivity. Qed.
Print Assumptions C127_negated_overflow_undefined.
(** while (x < y) ++x; never ends when x starts at an integer and y is the largest number: the flag value is the
    smallest number, so the loop starts over. *)
Theorem C127_counting_loop_refuted : forall k s n, s 1%nat = (2 ^ 31 - 1)%Z -> s 0%nat = fromInt k -> (-32767 <= k <= 32767)%Z ->
  run n (SWhile CLt (EVar 0) (EVar 1) (SPreInc 0)) s = None.
Proof.
  intros k s n H1 H0 Hk. destruct (int_trip k Hk) as (_ & E). rewrite E in H0. apply loop_forever; [exact H1|unfold raw; lia|]. rewrite H0. apply Z_mod_mult.
Qed.
Print Assumptions C127_counting_loop_refuted.
(** The hypotheses are met by a loop that adds up 1, 2, ..., k, for every k up to 255. *)
Theorem C127_sum_loop : forall k s, (0 <= k <= 255)%Z -> (forall i, raw (s i)) -> s 0%nat = 0%Z -> s 1%nat = 0%Z -> fxR (s 2%nat) = IZR k ->
  exists n s', run n (SWhile CLt (EVar 0) (EVar 2) (SSeq (SPreInc 0) (SCompound OAdd 1 (EVar 0)))) s = Some (Ok s') /\ fxR (s' 1%nat) = IZR (k * (k + 1)) / 2.
Proof.
  intros k s Hk Hr H0 H1 H2. destruct (sum_run (Z.to_nat k) 0 (fun i => fxR (s i))) as (q & E & V); try lia.
  - rewrite H0. unfold fxR. field.
  - rewrite H1. unfold fxR. cbn. field.
  - rewrite Z2Nat.id, H2 by lia. reflexivity.
  - rewrite Z2Nat.id in V by lia. destruct (run_exact _ _ _ E s) as (n & s' & R1 & R2); [intros i; split; [apply Hr|reflexivity]|]. exists n, s'. split; [exact R1|]. rewrite (proj2 (R2 1%nat)), V. reflexivity.
Qed.
Print Assumptions C127_sum_loop.
Example C127_case : exists s, (forall i, raw (s i)) /\ s 0%nat = 0%Z /\ s 1%nat = 0%Z /\ fxR (s 2%nat) = IZR 200 /\
  ~ raw (2147483647 + 1) /\ fxR (fromInt 3) = 3.
Proof. exists (fun i => match i with 2%nat => 13107200%Z | _ => 0%Z end). repeat split; try (destruct i as [|[|[|i]]]; cbn; lia); try (unfold fxR; cbn; lra). unfold raw. lia. Qed.

(** ** C128: error of expressions *)
(** For every expression tree of + - * / and negation over objects and int constants, as long as value and error stay
    in range at every node, the result is within the accumulated half units of the real value. *)
Theorem C128_forward_error : forall s p e, holds s p -> roomy p e -> exists r, eval s e = Ok r /\ raw r /\ Rabs (fxR r - reval p e) <= err p e.
Proof. exact eval_error. Qed.
Print Assumptions C128_forward_error.
(** Sums, differences and negations of any size are exact. *)
Theorem C128_exact : forall s p e, holds s p -> exact p e -> exists r, eval s e = Ok r /\ raw r /\ fxR r = reval p e.
Proof. intros s p e H X. destruct (eval_exact s p e H X) as (r & E & R1 & V & _). exists r. auto. Qed.
Print Assumptions C128_exact.
(** An inner product of n terms is off by at most n half units. *)
Theorem C128_inner_product : forall s p l, holds s p -> (forall i j, In (i, j) l -> Rabs (p i) + Rabs (p j) <= 32766) ->
  dot_abs p l + INR (length l) * (ulp16 / 2) <= 32767 ->
  exists r, eval s (dot l) = Ok r /\ Rabs (fxR r - dotR p l) <= INR (length l) * (ulp16 / 2).
Proof. intros s p l H A B. destruct (eval_error s p (dot l) H (dot_roomy p l A B)) as (r & E & _ & V). exists r. rewrite dot_err, dot_real in V. auto. Qed.
Print Assumptions C128_inner_product.
(** A polynomial with n coefficients at a point of [-1, 1], evaluated by Horner's scheme, is off by at most n half units. *)
Theorem C128_horner : forall s p x l, holds s p -> Rabs (p x) <= 1 -> coef_abs p l + INR (length l) * (ulp16 / 2) <= 32765 ->
  exists r, eval s (horner x l) = Ok r /\ Rabs (fxR r - hornerR p (p x) l 0) <= INR (length l) * (ulp16 / 2).
Proof.
  intros s p x l H Hx B. destruct (eval_error s p (horner x l) H (horner_roomy p x l Hx B)) as (r & E & _ & V). exists r. split; [exact E|]. rewrite horner_real in V. pose proof (horner_err p x l Hx). lra.
Qed.
Print Assumptions C128_horner.
Example C128_case : let s := fun i : nat => match i with O => 32768%Z | 1%nat => 21845%Z | _ => 65536%Z end in let p := fun i => fxR (s i) in
  holds s p /\ roomy p (EBin ODiv (EBin OMul (EVar 0) (EVar 1)) (EBin OSub (EVar 2) (EVar 1))) /\
  eval s (EBin ODiv (EBin OMul (EVar 0) (EVar 1)) (EBin OSub (EVar 2) (EVar 1))) = Ok 16384%Z /\
  Rabs (p 0%nat) <= 1 /\ coef_abs p [1; 2; 1]%nat + INR (length [1; 2; 1]%nat) * (ulp16 / 2) <= 32765 /\ dot_abs p [(0, 1); (1, 2)]%nat + INR 2 * (ulp16 / 2) <= 32767.
Proof.
  intros s p. assert (P0 : p 0%nat = / 2) by (unfold p, s, fxR; lra). assert (P1 : p 1%nat = 21845 / 65536) by reflexivity. assert (P2 : p 2%nat = 1) by (unfold p, s, fxR; lra).
  split; [intros i; split; [destruct i as [|[|i]]; unfold s, raw; lia|reflexivity]|]. split.
  - cbn [roomy err reval real_op]. rewrite P0, P1, P2. unfold ulp16. replace (/ 2 * (21845 / 65536)) with (21845 / 131072) by lra. replace (1 - 21845 / 65536) with (43691 / 65536) by lra.
    replace (21845 / 131072 / (43691 / 65536)) with (21845 / 87382) by lra. rewrite !(Rabs_pos_eq _) by lra. repeat split; lra.
  - split; [vm_compute; reflexivity|]. cbn [coef_abs dot_abs length INR]. rewrite P0, P1, P2. unfold ulp16. rewrite !Rabs_pos_eq by lra. repeat split; lra.
Qed.
