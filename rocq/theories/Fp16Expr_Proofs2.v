(** Programs over fp16 objects: inner products, Horner schemes, endless loops (C127, C128). *)
From Coq Require Import ZArith Reals Lra Lia Bool List.
From Coquelicot Require Import Coquelicot.
From Verif Require Import Base BaseLemmas Fp16_Model Fp16_Spec Fp16_Proofs Fp16_Proofs2 Fp16_Proofs3 Fp16Fun_Spec Fp16Fun_Proofs Fp16Fun_Proofs2 Fp16Fun_Proofs6 Fp16Expr_Model Fp16Expr_Spec Fp16Expr_Proofs.
Open Scope R_scope.

Lemma dot_abs_nonneg p l : 0 <= dot_abs p l.
Proof. induction l as [|(i, j) t IH]; cbn; [lra|]. pose proof (Rabs_pos (p i * p j)). lra. Qed.
Lemma dot_real p l : reval p (dot l) = dotR p l.
Proof. induction l as [|(i, j) t IH]; cbn [dot dotR reval real_op]; [reflexivity|rewrite IH; reflexivity]. Qed.
Lemma dot_le p l : Rabs (dotR p l) <= dot_abs p l.
Proof. induction l as [|(i, j) t IH]; cbn [dotR dot_abs]; [rewrite Rabs_R0; lra|]. eapply Rle_trans; [apply Rabs_triang|]. lra. Qed.
Lemma dot_err p l : err p (dot l) = INR (length l) * (ulp16 / 2).
Proof. induction l as [|(i, j) t IH]; [cbn; lra|]. cbn [dot err length]. rewrite IH, S_INR. lra. Qed.
Lemma dot_roomy p l : (forall i j, In (i, j) l -> Rabs (p i) + Rabs (p j) <= 32766) -> dot_abs p l + INR (length l) * (ulp16 / 2) <= 32767 -> roomy p (dot l).
Proof.
  induction l as [|(i, j) t IH]; intros H S.
  - cbn [dot roomy reval err]. rewrite Rabs_R0. split; [lra|exact I].
  - pose proof (H i j (or_introl eq_refl)) as Hij. pose proof (dot_abs_nonneg p t) as Nt. pose proof (pos_INR (length t)) as Nl.
    pose proof (dot_err p ((i, j) :: t)) as Ee. pose proof (dot_real p ((i, j) :: t)) as Er. pose proof (dot_le p ((i, j) :: t)) as El.
    change (length ((i, j) :: t)) with (Datatypes.S (length t)) in *. rewrite S_INR in *. change (dot_abs p ((i, j) :: t)) with (Rabs (p i * p j) + dot_abs p t) in *.
    assert (U : 0 < ulp16 <= 1) by (unfold ulp16; lra). pose proof (Rabs_pos (p i)). pose proof (Rabs_pos (p j)). pose proof (Rabs_pos (p i * p j)).
    assert (P : 0 <= INR (length t) * (ulp16 / 2)) by (apply Rmult_le_pos; lra).
    change (dot ((i, j) :: t)) with (EBin OAdd (EBin OMul (EVar i) (EVar j)) (dot t)) in *. cbn [roomy]. rewrite Ee, Er.
    split; [lra|]. split.
    + cbn [reval real_op err]. rewrite !Rmult_0_r, !Rplus_0_l, !Rplus_0_r. repeat split; try lra.
    + split; [|exact I]. apply IH; [intros a b W; apply H; right; exact W|lra].
Qed.

Lemma coef_abs_nonneg p l : 0 <= coef_abs p l.
Proof. induction l as [|c t IH]; cbn; [lra|]. pose proof (Rabs_pos (p c)). lra. Qed.
Lemma hornerR_shift p x l k : hornerR p x l (S k) = x * hornerR p x l k.
Proof. revert k. induction l as [|c t IH]; intros k; cbn [hornerR]; [ring|]. rewrite (IH (S k)). cbn [Rpow_def.pow]. ring. Qed.
Lemma horner_real p x l : reval p (horner x l) = hornerR p (p x) l 0.
Proof. induction l as [|c t IH]; cbn [horner hornerR reval real_op]; [reflexivity|]. rewrite IH, hornerR_shift. cbn [Rpow_def.pow]. ring. Qed.
Lemma horner_le p x l : Rabs (p x) <= 1 -> Rabs (hornerR p (p x) l 0) <= coef_abs p l.
Proof.
  intros Hx. induction l as [|c t IH]; cbn [hornerR coef_abs]; [rewrite Rabs_R0; lra|]. rewrite hornerR_shift. cbn [Rpow_def.pow]. rewrite Rmult_1_r. eapply Rle_trans; [apply Rabs_triang|]. apply Rplus_le_compat_l.
  rewrite Rabs_mult. pose proof (Rabs_pos (hornerR p (p x) t 0)). pose proof (Rabs_pos (p x)). nra.
Qed.
Lemma horner_err p x l : Rabs (p x) <= 1 -> 0 <= err p (horner x l) <= INR (length l) * (ulp16 / 2).
Proof.
  intros Hx. induction l as [|c t IH]; [cbn; lra|]. change (length (c :: t)) with (S (length t)). rewrite S_INR. cbn [horner err reval].
  assert (U : 0 < ulp16) by (unfold ulp16; lra). pose proof (Rabs_pos (p x)). assert (0 <= Rabs (p x) * err p (horner x t) <= err p (horner x t)) by (split; [apply Rmult_le_pos; lra|]; nra). lra.
Qed.
Lemma horner_roomy p x l : Rabs (p x) <= 1 -> coef_abs p l + INR (length l) * (ulp16 / 2) <= 32765 -> roomy p (horner x l).
Proof.
  intros Hx. induction l as [|c t IH]; intros S.
  - cbn [horner roomy reval err]. rewrite Rabs_R0. split; [lra|exact I].
  - pose proof (coef_abs_nonneg p t) as Nt. pose proof (pos_INR (length t)) as Nl. pose proof (horner_err p x (c :: t) Hx) as Ee. pose proof (horner_real p x (c :: t)) as Er. pose proof (horner_le p x (c :: t) Hx) as El.
    pose proof (horner_err p x t Hx) as Ft. pose proof (horner_real p x t) as Frr. pose proof (horner_le p x t Hx) as Fl. assert (U : 0 < ulp16) by (unfold ulp16; lra).
    change (length (c :: t)) with (Datatypes.S (length t)) in *. rewrite S_INR in *. change (coef_abs p (c :: t)) with (Rabs (p c) + coef_abs p t) in *.
    assert (R1 : roomy p (horner x t)) by (apply IH; pose proof (Rabs_pos (p c)); lra). pose proof (Rabs_pos (p c)) as Pc. pose proof (Rabs_pos (p x)) as Px.
    change (horner x (c :: t)) with (EBin OAdd (EVar c) (EBin OMul (EVar x) (horner x t))) in *.
    assert (G : Rabs (reval p (horner x t)) <= coef_abs p t) by (rewrite Frr; exact Fl).
    assert (Q : 0 <= Rabs (p x) * err p (horner x t) <= err p (horner x t)) by (split; [apply Rmult_le_pos; lra|]; nra).
    assert (Q2 : 0 <= Rabs (p x * reval p (horner x t)) <= Rabs (reval p (horner x t))) by (rewrite Rabs_mult; pose proof (Rabs_pos (reval p (horner x t))); split; [apply Rmult_le_pos; lra|]; nra).
    assert (Q3 : ulp16 <= 1) by (unfold ulp16; lra).
    cbn [roomy]. rewrite Er. split; [lra|]. split; [cbn [reval err]; split; [lra|exact I]|]. split; [|exact I].
    cbn [reval real_op err]. rewrite Rmult_0_r, Rmult_0_l, !Rplus_0_r. split; [lra|]. split; [split; [lra|exact I]|]. split; [exact R1|lra].
Qed.

(** ** An endless loop *)
Lemma incr_mod x : raw x -> (x mod 65536 = 0)%Z -> (incr x mod 65536 = 0)%Z /\ raw (incr x).
Proof.
  intros Rx M. unfold incr. rewrite add_char by (exact Rx || exact one_raw). destruct ((- 2 ^ 31 <=? x + one) && (x + one <? 2 ^ 31))%Z eqn:E.
  - apply andb_true_iff in E. destruct E as (E1 & E2). apply Z.leb_le in E1. apply Z.ltb_lt in E2. split; [|unfold raw; lia]. unfold one. replace (x + 65536)%Z with (x + 1 * 65536)%Z by ring. rewrite Z_mod_plus_full. exact M.
  - split; [reflexivity|unfold raw, sentinel; lia].
Qed.
Lemma loop_forever n : forall s, s 1%nat = 2147483647%Z -> raw (s 0%nat) -> (s 0%nat mod 65536 = 0)%Z -> run n (SWhile CLt (EVar 0) (EVar 1) (SPreInc 0)) s = None.
Proof.
  induction n as [|n IH]; intros s H1 R0 M; [reflexivity|]. cbn [run test eval bind apply_cmp].
  assert (L : flt (s 0%nat) (s 1%nat) = true). { unfold flt. apply Z.ltb_lt. rewrite H1. unfold raw in R0. assert (s 0%nat <> 2147483647%Z); [|lia]. intros E. rewrite E in M. discriminate. }
  rewrite L. destruct n as [|n]; [reflexivity|]. change (run (S n) (SPreInc 0) s) with (Some (Ok (upd s 0 (incr (s 0%nat))))). apply IH; unfold upd; cbn [Nat.eqb]; [exact H1|apply incr_mod; assumption|apply incr_mod; assumption].
Qed.

(** ** A loop that adds up 1, 2, ..., n *)
Definition sum_prog : stmt := SWhile CLt (EVar 0) (EVar 2) (SSeq (SPreInc 0) (SCompound OAdd 1 (EVar 0))).
Lemma sum_run m : forall i p, (0 <= i)%Z -> (i + Z.of_nat m <= 255)%Z -> p 0%nat = IZR i -> p 1%nat = IZR (i * (i + 1)) / 2 -> p 2%nat = IZR (i + Z.of_nat m) ->
  exists q, rexec sum_prog p q /\ q 1%nat = IZR ((i + Z.of_nat m) * (i + Z.of_nat m + 1)) / 2.
Proof.
  assert (F : forall z, (-32768 < z < 32768)%Z -> fitsR (IZR z)) by (intros z (A & B); apply IZR_lt in A, B; unfold fitsR; lra).
  induction m as [|m IH]; intros i p I0 L P0 P1 P2.
  - exists p. change (Z.of_nat 0) with 0%Z in *. rewrite Z.add_0_r in *. split; [|exact P1]. apply RWhileFalse; cbn [exact reval real_cmp]; rewrite ?P0, ?P2; try (apply F; lia). lra.
  - rewrite Nat2Z.inj_succ in *. set (p1 := upd p 0 (p 0%nat + 1)). set (p2 := upd p1 1 (p1 1%nat + p1 0%nat)).
    assert (A0 : p1 0%nat = IZR (i + 1)) by (unfold p1, upd; cbn [Nat.eqb]; rewrite P0, plus_IZR; reflexivity).
    assert (A1 : p1 1%nat = IZR (i * (i + 1)) / 2) by exact P1. assert (A2 : p1 2%nat = IZR (i + Z.succ (Z.of_nat m))) by exact P2.
    assert (S : p2 1%nat = IZR ((i + 1) * (i + 1 + 1)) / 2) by (unfold p2, upd; cbn [Nat.eqb]; rewrite A0, A1, !mult_IZR, !plus_IZR; field).
    assert (BB : 0 <= IZR (i * (i + 1)) <= 254 * 255) by (split; [apply (IZR_le 0); nia|rewrite <- mult_IZR; apply IZR_le; nia]).
    destruct (IH (i + 1)%Z p2) as (q & E & V); try lia; try exact S; try exact A0.
    { change (p2 2%nat) with (p1 2%nat). rewrite A2. f_equal. lia. }
    exists q. split; [|rewrite V; do 2 f_equal; lia]. apply RWhileTrue with p2; [| | | |exact E]; cbn [exact reval real_cmp]; rewrite ?P0, ?P2; try (apply F; lia).
    { apply IZR_lt. lia. }
    apply RSeq with p1.
    + apply RPreInc. rewrite P0, <- plus_IZR. apply F. lia.
    + apply RCompound; cbn [exact exact_op reval real_op]; rewrite ?A0, ?A1; unfold fitsR; [lra|apply F; lia|]. assert (0 <= IZR (i + 1) <= 255) by (split; [apply (IZR_le 0); lia|apply IZR_le; lia]). lra.
Qed.
