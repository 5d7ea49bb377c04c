(** Hermite and Legendre polynomials over the reals. *)
From Coq Require Import ZArith List Bool Lia Reals Lra Psatz.
From Verif Require Import Base BaseLemmas Arith ArithLemmas Interp1_Model Interp1_Proofs2 Poly_Model Poly_Spec.
Import ListNotations.
Open Scope R_scope.

Ltac ra := change (fsub (a := RA)) with Rminus in *; change (fdiv (a := RA)) with Rdiv in *; change (fmul (a := RA)) with Rmult in *; change (fadd (a := RA)) with Rplus in *;
  change (fopp (a := RA)) with Ropp in *; change (flt (a := RA)) with Rltb in *; change (fle (a := RA)) with Rleb in *; change (fabs (a := RA)) with Rabs in *;
  change (lit (a := RA) 0 1) with (0 / 1) in *; change (lit (a := RA) 1 1) with (1 / 1) in *; change (lit (a := RA) 2 1) with (2 / 1) in *; change (lit (a := RA) 4 1) with (4 / 1) in *; change (F RA) with R in *.
Lemma ofN_R n : ofN (A := RA) n = INR n.
Proof. unfold ofN. change (IZR (Z.of_nat n) / 1 = INR n). rewrite <- INR_IZR_INZ. field. Qed.
Lemma nan_R (x : R) : fisnan (A := RA) x = false.
Proof. unfold fisnan. change (feq (a := RA)) with Reqb. unfold Reqb. destruct (Req_EM_T x x); [reflexivity|congruence]. Qed.
Lemma div1 x : x / 1 = x. Proof. field. Qed.

(** ** Hermite *)
Fixpoint He (n : nat) (x : R) : R :=
  match n with
  | O => 1
  | S m => match m with O => 2 * x | S k => 2 * x * He m x - 2 * INR m * He k x end
  end.
Lemma He_SS n x : He (S (S n)) x = 2 * x * He (S n) x - 2 * INR (S n) * He n x.
Proof. reflexivity. Qed.
Lemma hermite_loop_S k i (x h1 h2 y : R) : hermite_loop (A := RA) (S k) i x h1 h2 y =
  let y := 2 * (x * h1 - INR (i - 1) * h2) in hermite_loop (A := RA) k (S i) x y h1 y.
Proof. cbn [hermite_loop]. cbv zeta. rewrite ofN_R. ra. rewrite div1. reflexivity. Qed.
Lemma hermite_loop_R k : forall i (x y : R), (2 <= i)%nat -> hermite_loop (A := RA) (S k) i x (He (i - 1) x) (He (i - 2) x) y = He (i + k) x.
Proof.
  assert (St : forall i x, (2 <= i)%nat -> 2 * (x * He (i - 1) x - INR (i - 1) * He (i - 2) x) = He i x).
  { intros i x Hi. destruct i as [|[|i]]; try lia. replace (S (S i) - 1)%nat with (S i) by lia. replace (S (S i) - 2)%nat with i by lia. rewrite He_SS. generalize (INR (S i)). intros. ring. }
  induction k as [|k IH]; intros i x y Hi; rewrite hermite_loop_S, St by exact Hi; cbv zeta.
  - rewrite Nat.add_0_r. reflexivity.
  - replace (i + S k)%nat with (S i + k)%nat by lia. rewrite <- (IH (S i) x (He i x)) by lia. replace (S i - 1)%nat with i by lia. replace (S i - 2)%nat with (i - 1)%nat by lia. reflexivity.
Qed.
Lemma hermite_R n x : hermite (A := RA) n x = He n x.
Proof.
  unfold hermite. rewrite nan_R. destruct n as [|[|k]].
  - ra. cbn [He]. field.
  - ra. cbn [He]. field.
  - change (S (S k)) with (2 + k)%nat. rewrite <- (hermite_loop_R k 2 x (lit (a := RA) 0 1)) by lia. cbn [Nat.sub He]. ra. replace (2 / 1 * x) with (2 * x) by field. replace (1 / 1) with 1 by field. reflexivity.
Qed.

Lemma deriv_eq f x a b : derivable_pt_lim f x a -> a = b -> derivable_pt_lim f x b.
Proof. intros H <-. exact H. Qed.
Lemma deriv_ext f g x a : (forall t, f t = g t) -> derivable_pt_lim f x a -> derivable_pt_lim g x a.
Proof. intros E H eps He'. destruct (H eps He') as [d Hd]. exists d. intros h H1 H2. rewrite <- !E. auto. Qed.
Lemma deriv_mul f g x a b : derivable_pt_lim f x a -> derivable_pt_lim g x b -> derivable_pt_lim (fun t => f t * g t) x (a * g x + f x * b).
Proof. apply derivable_pt_lim_mult. Qed.
Lemma deriv_sub f g x a b : derivable_pt_lim f x a -> derivable_pt_lim g x b -> derivable_pt_lim (fun t => f t - g t) x (a - b).
Proof. apply derivable_pt_lim_minus. Qed.
Lemma deriv_scal c f x a : derivable_pt_lim f x a -> derivable_pt_lim (fun t => c * f t) x (c * a).
Proof. apply derivable_pt_lim_scal. Qed.
Lemma deriv_id x : derivable_pt_lim (fun t => t) x 1.
Proof. apply derivable_pt_lim_id. Qed.
Lemma deriv_const c x : derivable_pt_lim (fun _ => c) x 0.
Proof. apply derivable_pt_lim_const. Qed.

Lemma He_deriv n : forall x, derivable_pt_lim (He n) x (2 * INR n * He (n - 1) x).
Proof.
  induction n as [n IH] using (well_founded_induction Wf_nat.lt_wf). intros x. destruct n as [|[|n]].
  - eapply deriv_eq; [apply (deriv_const 1)|]. cbn. ring.
  - eapply deriv_eq; [apply (deriv_scal 2 (fun t => t)), deriv_id|]. cbn. ring.
  - eapply deriv_ext; [intros t; symmetry; apply He_SS|].
    eapply deriv_eq.
    { apply (deriv_sub (fun t => 2 * t * He (S n) t) (fun t => 2 * INR (S n) * He n t)).
      - apply (deriv_mul (fun t => 2 * t) (He (S n))); [apply (deriv_scal 2 (fun t => t)), deriv_id|apply IH; lia].
      - apply deriv_scal. apply IH. lia. }
    replace (S (S n) - 1)%nat with (S n) by lia. replace (S n - 1)%nat with n by lia. rewrite !S_INR.
    destruct n as [|n]; [cbn; ring|]. replace (S n - 1)%nat with n by lia. rewrite He_SS, !S_INR. ring.
Qed.
Lemma hermite_rodrigues : derivatives (fun x => exp (- x ^ 2)) (fun n x => (- 1) ^ n * He n x * exp (- x ^ 2)).
Proof.
  split; [intros x; cbn; ring|]. intros n x.
  assert (E : derivable_pt_lim (fun t => exp (- t ^ 2)) x (exp (- x ^ 2) * (- (2 * x)))).
  { apply (derivable_pt_lim_comp (fun t => - t ^ 2) exp); [|apply derivable_pt_lim_exp].
    apply (derivable_pt_lim_opp (fun t => t ^ 2)). eapply deriv_eq; [apply derivable_pt_lim_pow|]. cbn. ring. }
  eapply deriv_eq.
  { apply (deriv_mul (fun t => (- 1) ^ n * He n t) (fun t => exp (- t ^ 2))); [apply deriv_scal, He_deriv|exact E]. }
  destruct n as [|n]; [cbn [He INR pow Nat.sub]; ring|].
  rewrite He_SS. replace (S n - 1)%nat with n by lia. change ((-1) ^ S (S n)) with (-1 * (-1) ^ S n). ring.
Qed.

(** ** Legendre *)
Fixpoint Le (n : nat) (x : R) : R :=
  match n with
  | O => 1
  | S m => match m with O => x | S k => ((2 * INR m + 1) * x * Le m x - INR m * Le k x) / INR (S m) end
  end.
Lemma Le_SS n x : Le (S (S n)) x = ((2 * INR (S n) + 1) * x * Le (S n) x - INR (S n) * Le n x) / INR (S (S n)).
Proof. reflexivity. Qed.
Lemma legendre_step i x a b : (2 <= i)%nat -> 2 * x * a - b - (x * a - b) / INR i = ((2 * INR (i - 1) + 1) * x * a - INR (i - 1) * b) / INR i.
Proof.
  intros Hi. destruct i as [|i]; [lia|]. replace (S i - 1)%nat with i by lia. rewrite S_INR. pose proof (pos_INR i). field. lra.
Qed.
Lemma legendre_loop_S k i (x h1 h2 y : R) : legendre_loop (A := RA) (S k) i x h1 h2 y =
  let y := 2 * x * h1 - h2 - (x * h1 - h2) / INR i in legendre_loop (A := RA) k (S i) x y h1 y.
Proof. cbn [legendre_loop]. cbv zeta. rewrite ofN_R. ra. rewrite div1. reflexivity. Qed.
Lemma legendre_loop_R k : forall i (x y : R), (2 <= i)%nat -> legendre_loop (A := RA) (S k) i x (Le (i - 1) x) (Le (i - 2) x) y = Le (i + k) x.
Proof.
  assert (St : forall i x, (2 <= i)%nat -> 2 * x * Le (i - 1) x - Le (i - 2) x - (x * Le (i - 1) x - Le (i - 2) x) / INR i = Le i x).
  { intros i x Hi. rewrite legendre_step by exact Hi. destruct i as [|[|i]]; try lia. replace (S (S i) - 1)%nat with (S i) by lia. replace (S (S i) - 2)%nat with i by lia. symmetry. apply Le_SS. }
  induction k as [|k IH]; intros i x y Hi; rewrite legendre_loop_S, St by exact Hi; cbv zeta.
  - rewrite Nat.add_0_r. reflexivity.
  - replace (i + S k)%nat with (S i + k)%nat by lia. rewrite <- (IH (S i) x (Le i x)) by lia. replace (S i - 1)%nat with i by lia. replace (S i - 2)%nat with (i - 1)%nat by lia. reflexivity.
Qed.
Lemma legendre_rec_R n x : legendre_rec (A := RA) n x = Le n x.
Proof.
  unfold legendre_rec. destruct n as [|[|k]]; [ra; cbn [Le]; field|reflexivity|].
  change (S (S k)) with (2 + k)%nat. rewrite <- (legendre_loop_R k 2 x (lit (a := RA) 0 1)) by lia. cbn [Nat.sub Le]. ra. rewrite div1. reflexivity.
Qed.
Lemma Le_1 n : Le n 1 = 1.
Proof.
  induction n as [n IH] using (well_founded_induction Wf_nat.lt_wf). destruct n as [|[|n]]; [reflexivity|reflexivity|].
  rewrite Le_SS, !IH by lia. rewrite (S_INR (S n)). pose proof (pos_INR (S n)). field. lra.
Qed.
Lemma Le_m1 n : Le n (- 1) = (- 1) ^ n.
Proof.
  induction n as [n IH] using (well_founded_induction Wf_nat.lt_wf). destruct n as [|[|n]]; [reflexivity|cbn; ring|].
  rewrite Le_SS, !IH by lia. rewrite (S_INR (S n)). pose proof (pos_INR (S n)). cbn [pow]. field. lra.
Qed.
Lemma parity_R n : parity (A := RA) n = (- 1) ^ n.
Proof.
  unfold parity. ra. rewrite div1. destruct (Nat.odd n) eqn:E.
  - apply Nat.odd_spec in E. destruct E as [m ->]. rewrite pow_add, pow_mult. replace ((-1) ^ 2) with 1 by ring. rewrite pow1. ring.
  - assert (E' : Nat.even n = true) by (rewrite <- Nat.negb_odd, E; reflexivity). apply Nat.even_spec in E'. destruct E' as [m ->]. rewrite pow_mult. replace ((-1) ^ 2) with 1 by ring. rewrite pow1. ring.
Qed.

(** Its derivative, by differentiating the recurrence. *)
Fixpoint dLe (n : nat) (x : R) : R :=
  match n with
  | O => 0
  | S m => match m with O => 1 | S k => ((2 * INR m + 1) * (Le m x + x * dLe m x) - INR m * dLe k x) / INR (S m) end
  end.
Lemma dLe_SS n x : dLe (S (S n)) x = ((2 * INR (S n) + 1) * (Le (S n) x + x * dLe (S n) x) - INR (S n) * dLe n x) / INR (S (S n)).
Proof. reflexivity. Qed.
Lemma Le_deriv n : forall x, derivable_pt_lim (Le n) x (dLe n x).
Proof.
  induction n as [n IH] using (well_founded_induction Wf_nat.lt_wf). intros x. destruct n as [|[|n]]; [apply (deriv_const 1)|apply deriv_id|].
  assert (K : INR (S (S n)) <> 0) by (apply not_0_INR; lia).
  apply (deriv_ext (fun t => / INR (S (S n)) * ((2 * INR (S n) + 1) * (t * Le (S n) t) - INR (S n) * Le n t))).
  { intros t. rewrite Le_SS. field. exact K. }
  eapply deriv_eq.
  { apply deriv_scal. apply (deriv_sub (fun t => (2 * INR (S n) + 1) * (t * Le (S n) t)) (fun t => INR (S n) * Le n t)).
    - apply deriv_scal. apply (deriv_mul (fun t => t) (Le (S n))); [apply deriv_id|apply IH; lia].
    - apply deriv_scal. apply IH. lia. }
  rewrite dLe_SS. field. exact K.
Qed.
Lemma Le_ids n x : x * dLe (S n) x - dLe n x = INR (S n) * Le (S n) x /\ dLe (S n) x - x * dLe n x = INR (S n) * Le n x.
Proof.
  induction n as [|n [IA IB]]; [cbn; split; ring|].
  assert (K : INR (S (S n)) <> 0) by (apply not_0_INR; lia). assert (K2 : INR (S (S n)) = INR (S n) + 1) by apply S_INR.
  assert (D : INR (S (S n)) * dLe (S (S n)) x = (2 * INR (S n) + 1) * (Le (S n) x + x * dLe (S n) x) - INR (S n) * dLe n x) by (rewrite dLe_SS; field; exact K).
  assert (P : INR (S (S n)) * Le (S (S n)) x = (2 * INR (S n) + 1) * x * Le (S n) x - INR (S n) * Le n x) by (rewrite Le_SS; field; exact K).
  assert (B : dLe (S (S n)) x - x * dLe (S n) x = INR (S (S n)) * Le (S n) x).
  { apply (Rmult_eq_reg_l (INR (S (S n)))); [|exact K]. rewrite Rmult_minus_distr_l, D, K2. revert IA. generalize (INR (S n)) (dLe n x) (dLe (S n) x) (Le (S n) x). intros a b c d IA.
    assert (b = x * c - a * d) as -> by lra. ring. }
  split; [|exact B]. rewrite P. assert (dLe (S (S n)) x = x * dLe (S n) x + INR (S (S n)) * Le (S n) x) as -> by lra. rewrite K2.
  assert (Q : (x * x - 1) * dLe (S n) x = INR (S n) * (x * Le (S n) x - Le n x)).
  { replace ((x * x - 1) * dLe (S n) x) with (x * (x * dLe (S n) x - dLe n x) - (dLe (S n) x - x * dLe n x)) by ring. rewrite IA, IB. ring. }
  replace (x * (x * dLe (S n) x + (INR (S n) + 1) * Le (S n) x) - dLe (S n) x) with ((x * x - 1) * dLe (S n) x + (INR (S n) + 1) * x * Le (S n) x) by ring. rewrite Q. ring.
Qed.
Lemma Le_equation n : legendre_equation n (Le n).
Proof.
  exists (dLe n). split; [apply Le_deriv|]. intros x. destruct n as [|n].
  { apply (deriv_ext (fun _ => 0)); [intros t; cbn; ring|]. eapply deriv_eq; [apply deriv_const|]. cbn. ring. }
  apply (deriv_ext (fun t => INR (S n) * (Le n t - t * Le (S n) t))).
  { intros t. destruct (Le_ids n t) as [A B]. transitivity (- (t * (t * dLe (S n) t - dLe n t) - (dLe (S n) t - t * dLe n t))); [rewrite A, B; ring|ring]. }
  eapply deriv_eq.
  { apply deriv_scal. apply (deriv_sub (Le n) (fun t => t * Le (S n) t)); [apply Le_deriv|]. apply (deriv_mul (fun t => t) (Le (S n))); [apply deriv_id|apply Le_deriv]. }
  destruct (Le_ids n x) as [A _]. replace (dLe n x) with (x * dLe (S n) x - INR (S n) * Le (S n) x) by lra. rewrite plus_INR. cbn [INR]. ring.
Qed.

(** It is a polynomial of degree n. *)
Fixpoint padd (a b : list R) : list R := match a, b with [], _ => b | _, [] => a | u :: s, v :: t => (u + v) :: padd s t end.
Lemma padd_poly a : forall b x, polynomial (padd a b) x = polynomial a x + polynomial b x.
Proof.
  induction a as [|u s IH]; intros b x; [unfold polynomial; cbn [padd fold_right]; ring|]. destruct b as [|v t]; [unfold polynomial; cbn [padd fold_right]; ring|]. cbn [padd polynomial fold_right].
  change (fold_right (fun a r => a + x * r) 0 (padd s t)) with (polynomial (padd s t) x). rewrite IH. unfold polynomial. ring.
Qed.
Lemma padd_len a : forall b, length (padd a b) = Nat.max (length a) (length b).
Proof. induction a as [|u s IH]; intros [|v t]; cbn [padd length]; rewrite ?IH; lia. Qed.
Lemma pscal_poly c a x : polynomial (map (Rmult c) a) x = c * polynomial a x.
Proof. induction a as [|u s IH]; cbn [map polynomial fold_right]; [ring|]. unfold polynomial in IH. rewrite IH. ring. Qed.
Lemma pshift_poly a x : polynomial (0 :: a) x = x * polynomial a x.
Proof. cbn. unfold polynomial. ring. Qed.
Lemma Le_poly n : exists c, length c = S n /\ forall x, Le n x = polynomial c x.
Proof.
  induction n as [n IH] using (well_founded_induction Wf_nat.lt_wf). destruct n as [|[|n]].
  - exists [1]. split; [reflexivity|]. intros x. cbn. ring.
  - exists [0; 1]. split; [reflexivity|]. intros x. cbn. ring.
  - destruct (IH (S n)) as (a & La & Ea); [lia|]. destruct (IH n) as (b & Lb & Eb); [lia|].
    exists (padd (map (Rmult ((2 * INR (S n) + 1) / INR (S (S n)))) (0 :: a)) (map (Rmult (- INR (S n) / INR (S (S n)))) b)).
    split; [rewrite padd_len, !map_length; cbn [length]; lia|]. intros x. rewrite padd_poly, !pscal_poly, pshift_poly, <- Ea, <- Eb, Le_SS. field. apply not_0_INR. lia.
Qed.
