(** Bounds of polynomials with integer coefficients on intervals, by shifting the
    variable to the centre and bisecting; and bounds of exp and ln 2. *)
From Coq Require Import ZArith Reals Lra Lia List Bool.
From Coquelicot Require Import Coquelicot.
Import ListNotations.
Open Scope R_scope.

Fixpoint pe (p : list Z) (x : R) : R := match p with [] => 0 | a :: q => IZR a + x * pe q x end.

Fixpoint padd (p q : list Z) : list Z :=
  match p, q with [], _ => q | _, [] => p | a :: p', b :: q' => (a + b)%Z :: padd p' q' end.
Lemma padd_ok p q x : pe (padd p q) x = pe p x + pe q x.
Proof. revert q. induction p as [|a p IH]; intros [|b q]; cbn [padd pe]; try lra. rewrite plus_IZR, IH. ring. Qed.
Lemma pmul_ok c p x : pe (map (Z.mul c) p) x = IZR c * pe p x.
Proof. induction p as [|a p IH]; cbn [map pe]; [ring|]. rewrite mult_IZR, IH. ring. Qed.

Fixpoint shift (c : Z) (p : list Z) : list Z :=
  match p with [] => [] | a :: q => let s := shift c q in padd [a] (padd (map (Z.mul c) s) (0%Z :: s)) end.
Lemma shift_ok c p h : pe (shift c p) h = pe p (IZR c + h).
Proof.
  induction p as [|a q IH]; [reflexivity|]. cbn [shift]. rewrite !padd_ok, pmul_ok. cbn [pe]. rewrite IH. ring.
Qed.

Fixpoint ab (r : Z) (p : list Z) : Z := match p with [] => 0%Z | a :: q => (Z.abs a + r * ab r q)%Z end.
Lemma ab_ok r p h : Rabs h <= IZR r -> Rabs (pe p h) <= IZR (ab r p).
Proof.
  intros H. induction p as [|a q IH]; cbn [pe ab]; [rewrite Rabs_R0; lra|]. rewrite plus_IZR, mult_IZR, abs_IZR.
  eapply Rle_trans; [apply Rabs_triang|]. apply Rplus_le_compat_l. rewrite Rabs_mult. apply Rmult_le_compat; auto using Rabs_pos.
Qed.

Fixpoint chk (n : nat) (p : list Z) (a b B : Z) : bool :=
  let c := ((a + b) / 2)%Z in
  if (ab (Z.max (c - a) (b - c)) (shift c p) <=? B)%Z then true
  else match n with O => false | S n => chk n p a c B && chk n p c b B end.
Lemma chk_ok n p a b B x : chk n p a b B = true -> IZR a <= x <= IZR b -> Rabs (pe p x) <= IZR B.
Proof.
  revert a b. induction n as [|n IH]; intros a b H Hx; cbn [chk] in H; set (c := ((a + b) / 2)%Z) in *;
    destruct (ab (Z.max (c - a) (b - c)) (shift c p) <=? B)%Z eqn:E.
  1, 3: clear H; apply Z.leb_le in E; apply Rle_trans with (2 := IZR_le _ _ E); replace x with (IZR c + (x - IZR c)) by ring; rewrite <- shift_ok; apply ab_ok;
    apply Rabs_le; pose proof (IZR_le _ _ (Z.le_max_l (c - a) (b - c))) as M1; pose proof (IZR_le _ _ (Z.le_max_r (c - a) (b - c))) as M2; rewrite minus_IZR in M1, M2; lra.
  - discriminate H.
  - apply andb_prop in H. destruct H as (H1 & H2). destruct (Rle_or_lt x (IZR c)); [apply (IH a c)|apply (IH c b)]; auto; lra.
Qed.

(** scaling the variable by 2^s *)
Fixpoint pscale (s : Z) (p : list Z) : list Z := match p with [] => [] | a :: q => (a * s ^ Z.of_nat (length q))%Z :: pscale s q end.
Lemma pscale_ok s p x : pe (pscale s p) (IZR s * x) * IZR s = IZR (s ^ Z.of_nat (length p)) * pe p x.
Proof.
  induction p as [|a q IH]; cbn [pscale pe]; [cbn; ring|]. cbn [length]. rewrite Nat2Z.inj_succ, Z.pow_succ_r by lia. rewrite !mult_IZR.
  rewrite Rmult_plus_distr_r. replace (IZR s * x * pe (pscale s q) (IZR s * x) * IZR s) with (IZR s * x * (pe (pscale s q) (IZR s * x) * IZR s)) by ring. rewrite IH. ring.
Qed.
Definition check (n : nat) (s : Z) (p : list Z) (a b B : Z) : bool := (0 <? s)%Z && chk n (pscale s p) a b (B * s ^ (Z.of_nat (length p) - 1)).
Lemma check_ok n s p a b B x : p <> [] -> check n s p a b B = true -> IZR a <= IZR s * x <= IZR b -> Rabs (pe p x) <= IZR B.
Proof.
  intros Np H Hx. apply andb_prop in H. destruct H as (Hs & H). apply Z.ltb_lt in Hs. apply chk_ok with (x := IZR s * x) in H; [|exact Hx].
  pose proof (pscale_ok s p x) as E. assert (L : exists k, Z.of_nat (length p) = (k + 1)%Z /\ (0 <= k)%Z). { destruct p as [|a0 q]; [congruence|]. exists (Z.of_nat (length q)). cbn [length]. lia. }
  destruct L as (k & L & Hk). rewrite L in *. replace (k + 1 - 1)%Z with k in H by ring. rewrite Z.pow_add_r, Z.pow_1_r, mult_IZR in E by lia. rewrite mult_IZR in H.
  assert (P : 0 < IZR (s ^ k)) by (apply IZR_lt; apply Z.pow_pos_nonneg; lia). assert (P2 : 0 < IZR s) by (apply IZR_lt; lia).
  assert (E2 : pe (pscale s p) (IZR s * x) = IZR (s ^ k) * pe p x). { apply Rmult_eq_reg_r with (IZR s); lra. }
  rewrite E2, Rabs_mult, (Rabs_pos_eq (IZR (s ^ k))) in H by lra. apply Rmult_le_reg_l with (IZR (s ^ k)); lra.
Qed.

(** ** exp *)
Lemma Derive_n_exp_s s n x : ex_derive_n (fun t => exp (s * t)) n x /\ Derive_n (fun t => exp (s * t)) n x = s ^ n * exp (s * x).
Proof.
  revert x. induction n as [|n IH]; intros x; [cbn; split; [auto|ring]|].
  assert (H : is_derive (fun y => s ^ n * exp (s * y)) x (s ^ S n * exp (s * x))). { auto_derive; auto. cbn [pow]. ring. }
  split.
  - cbn [ex_derive_n]. apply ex_derive_ext with (f := fun y => s ^ n * exp (s * y)); [intros t; symmetry; apply IH|]. eexists. exact H.
  - cbn [Derive_n]. rewrite (Derive_ext _ (fun y => s ^ n * exp (s * y))); [|intros t; apply IH]. apply is_derive_unique. exact H.
Qed.
Lemma exp_1_3 x : x <= 1 -> exp x <= 3.
Proof. intros H. apply Rle_trans with (exp 1); [destruct H as [H| ->]; [left; apply exp_increasing; auto|lra]|apply exp_le_3]. Qed.
Lemma exp_taylor_s n s y : (s = 1 \/ s = -1) -> 0 < y <= 1 -> Rabs (exp (s * y) - sum_f_R0 (fun k => (s * y) ^ k / INR (fact k)) n) <= 3 * y ^ S n / INR (fact (S n)).
Proof.
  intros Hs Hy. destruct (Taylor_Lagrange (fun t => exp (s * t)) n 0 y) as (z & Hz & E); [lra|intros t _ k _; apply Derive_n_exp_s|].
  rewrite Rminus_0_r in E. rewrite E. rewrite (proj2 (Derive_n_exp_s s (S n) z)).
  rewrite (sum_eq _ (fun k => (s * y) ^ k / INR (fact k))).
  2: { intros k _. rewrite (proj2 (Derive_n_exp_s s k 0)). rewrite Rmult_0_r, exp_0, Rpow_mult_distr. field. apply INR_fact_neq_0. }
  assert (Ps : Rabs (s ^ S n) = 1). { rewrite <- RPow_abs. destruct Hs as [-> | ->]; [rewrite Rabs_R1|rewrite Rabs_left1 by lra; replace (- -1) with 1 by ring]; apply pow1. }
  match goal with |- Rabs (?a + ?b - ?a) <= _ => replace (a + b - a) with b by ring end.
  assert (P0 : 0 < / INR (fact (S n))) by (apply Rinv_0_lt_compat, INR_fact_lt_0). assert (P1 : 0 <= y ^ S n) by (apply pow_le; lra).
  unfold Rdiv. rewrite !Rabs_mult, Ps, (Rabs_pos_eq (y ^ S n)), (Rabs_pos_eq (/ _)), (Rabs_pos_eq (exp _)) by (auto; try lra; left; apply exp_pos).
  assert (exp (s * z) <= 3). { apply exp_1_3. destruct Hs as [-> | ->]; lra. }
  assert (P2 : 0 <= y ^ S n * / INR (fact (S n))) by (apply Rmult_le_pos; lra). nra.
Qed.
Lemma exp_taylor n y : Rabs y <= 1 -> Rabs (exp y - sum_f_R0 (fun k => y ^ k / INR (fact k)) n) <= 3 * Rabs y ^ S n / INR (fact (S n)).
Proof.
  intros H. destruct (Rtotal_order y 0) as [L|[->|L]].
  - rewrite (Rabs_left y) in H |- * by lra. pose proof (exp_taylor_s n (-1) (- y) ltac:(auto) ltac:(lra)) as K. replace (-1 * - y) with y in K by ring. exact K.
  - rewrite exp_0, Rabs_R0. replace (sum_f_R0 (fun k => 0 ^ k / INR (fact k)) n) with 1.
    + rewrite Rminus_diag_eq, Rabs_R0 by auto. cbn [pow]. unfold Rdiv. rewrite Rmult_0_l, Rmult_0_r, Rmult_0_l. lra.
    + induction n as [|n IH]; [cbn; field|]. rewrite tech5, <- IH. cbn [pow]. unfold Rdiv. rewrite !Rmult_0_l. lra.
  - rewrite (Rabs_pos_eq y) in H |- * by lra. pose proof (exp_taylor_s n 1 y ltac:(auto) ltac:(lra)) as K. rewrite Rmult_1_l in K. exact K.
Qed.

(** ** ln 2 *)
Definition L2 : R := 693147181 / 1000000000.
Lemma facts : INR (fact 0) = 1 /\ INR (fact 1) = 1 /\ INR (fact 2) = 2 /\ INR (fact 3) = 6 /\ INR (fact 4) = 24 /\ INR (fact 5) = 120 /\ INR (fact 6) = 720 /\ INR (fact 7) = 5040 /\ INR (fact 8) = 40320 /\ INR (fact 9) = 362880 /\ INR (fact 10) = 3628800 /\ INR (fact 11) = 39916800 /\ INR (fact 12) = 479001600 /\ INR (fact 13) = 6227020800 /\ INR (fact 14) = 87178291200 /\ INR (fact 15) = 1307674368000.
Proof.
  assert (S : forall n, INR (fact (S n)) = INR (S n) * INR (fact n)). { intros n. rewrite <- mult_INR. reflexivity. }
  repeat match goal with |- _ /\ _ => split end; rewrite ?S; change (fact 0) with 1%nat; rewrite ?INR_IZR_INZ; cbn [Z.of_nat Pos.of_succ_nat Pos.succ]; try lra.
Qed.
Ltac use_facts := destruct facts as (-> & -> & -> & -> & -> & -> & -> & -> & -> & -> & -> & -> & -> & -> & -> & ->).
Lemma ln_between x l h : 0 < x -> exp l <= x <= exp h -> l <= ln x <= h.
Proof.
  intros P (H1 & H2). split.
  - rewrite <- (ln_exp l). destruct H1 as [H1| ->]; [left; apply ln_increasing; auto; apply exp_pos|lra].
  - rewrite <- (ln_exp h). destruct H2 as [H2| ->]; [left; apply ln_increasing; auto; lra|lra].
Qed.
Lemma ln2_L2 : Rabs (ln 2 - L2) <= / 1000000000.
Proof.
  assert (H : L2 - / 1000000000 <= ln 2 <= L2 + / 1000000000); [|apply Rabs_le; lra]. apply ln_between; [lra|].
  pose proof (exp_taylor 11 (L2 - / 1000000000)) as H1. pose proof (exp_taylor 11 (L2 + / 1000000000)) as H2. unfold L2 in *.
  rewrite Rabs_pos_eq in H1, H2 by lra. specialize (H1 ltac:(lra)). specialize (H2 ltac:(lra)).
  cbn [sum_f_R0] in H1, H2. destruct facts as (E0 & E1 & E2 & E3 & E4 & E5 & E6 & E7 & E8 & E9 & E10 & E11 & E12 & _).
  rewrite E0, E1, E2, E3, E4, E5, E6, E7, E8, E9, E10, E11, E12 in H1, H2. apply Rabs_le_between in H1. apply Rabs_le_between in H2. cbn [pow] in H1, H2. split; lra.
Qed.
