(** The elliptic integrals: symmetry in the modulus, domain, end points. *)
From Coq Require Import ZArith Reals Lra Lia Psatz Bool.
From Flocq Require Import Core IEEE754.BinarySingleNaN IEEE754.Binary IEEE754.Bits.
From Verif Require Import Base BaseLemmas Arith Ext32 Bits32 Ffmath_Model Ffmath2_Model Ffmath4_Model Ffmath_Spec Ffmath_Proofs Ffmath_Proofs2 Ffmath_Proofs3 Float32 Ffmath_Proofs4 Ffmath_Proofs7 Ffmath_Proofs8 Ffmath_Proofs9 FloatApp Ffmath_Proofs11 Ffmath_Proofs12 Ffmath_Proofs15 Ffmath_Proofs16 Ffmath_Proofs17 Ffmath_Proofs18 Ffmath_Proofs19 Ellint_Proofs5.
Open Scope R_scope.

Lemma square_opp (k : float) : is_nan 24 128 k = false -> ((- k) * (- k))%b32 = (k * k)%b32.
Proof.
  destruct k as [s|s|s p H|s m e H]; intros N; try discriminate; try (destruct s; reflexivity).
  pose proof (Bmult_correct 24 128 eq_refl eq_refl binop_nan_pl32 mode_NE (B754_finite 24 128 s m e H) (B754_finite 24 128 s m e H)) as A.
  pose proof (Bmult_correct 24 128 eq_refl eq_refl binop_nan_pl32 mode_NE (B754_finite 24 128 (negb s) m e H) (B754_finite 24 128 (negb s) m e H)) as B.
  change (- B754_finite 24 128 s m e H)%b32 with (B754_finite 24 128 (negb s) m e H).
  assert (E : B2R 24 128 (B754_finite 24 128 (negb s) m e H) * B2R 24 128 (B754_finite 24 128 (negb s) m e H) = B2R 24 128 (B754_finite 24 128 s m e H) * B2R 24 128 (B754_finite 24 128 s m e H)).
  { pose proof (opp_val (B754_finite 24 128 s m e H)) as O. change (- B754_finite 24 128 s m e H)%b32 with (B754_finite 24 128 (negb s) m e H) in O. change (valR (B754_finite 24 128 (negb s) m e H) * valR (B754_finite 24 128 (negb s) m e H) = valR (B754_finite 24 128 s m e H) * valR (B754_finite 24 128 s m e H)). rewrite O. ring. }
  rewrite E in B. change (b32_mult mode_NE) with (Bmult 24 128 eq_refl eq_refl binop_nan_pl32 mode_NE).
  destruct (Rlt_bool _ _) in A, B.
  - destruct A as (A1 & A2 & A3). destruct B as (B1 & B2 & B3).
    assert (FA : is_finite 24 128 (Bmult 24 128 eq_refl eq_refl binop_nan_pl32 mode_NE (B754_finite 24 128 s m e H) (B754_finite 24 128 s m e H)) = true) by (rewrite A2; reflexivity).
    assert (FB : is_finite 24 128 (Bmult 24 128 eq_refl eq_refl binop_nan_pl32 mode_NE (B754_finite 24 128 (negb s) m e H) (B754_finite 24 128 (negb s) m e H)) = true) by (rewrite B2; reflexivity).
    apply B2R_Bsign_inj; [exact FB|exact FA|rewrite A1, B1; reflexivity|].
    rewrite (A3 (fin_nan _ FA)), (B3 (fin_nan _ FB)). destruct s; reflexivity.
  - apply B2FF_inj. rewrite A, B. destruct s; reflexivity.
Qed.
Lemma nan_opp (k : float) : is_nan 24 128 (- k)%b32 = is_nan 24 128 k. Proof. destruct k; reflexivity. Qed.
Lemma abs_opp (k : float) : is_nan 24 128 k = false -> absolute (- k)%b32 = absolute k.
Proof.
  intros N. destruct (is_finite 24 128 k) eqn:F.
  - apply abs_same; [exact F|apply opp_fin; exact F|apply opp_val].
  - destruct k as [s|s|s p H|s m e H]; try discriminate. destruct s; reflexivity.
Qed.

Lemma comp1_even k : comp_ellint_1 (- k)%b32 = comp_ellint_1 k.
Proof. unfold comp_ellint_1. rewrite !isNan_ok, nan_opp. destruct (is_nan 24 128 k) eqn:N; [cbn [orb]; try rewrite !orb_true_r; reflexivity|]. rewrite abs_opp, square_opp by auto. reflexivity. Qed.
Lemma comp2_even k : comp_ellint_2 (- k)%b32 = comp_ellint_2 k.
Proof. unfold comp_ellint_2. rewrite !isNan_ok, nan_opp. destruct (is_nan 24 128 k) eqn:N; [cbn [orb]; try rewrite !orb_true_r; reflexivity|]. rewrite abs_opp, square_opp by auto. reflexivity. Qed.
Lemma comp3_even k nu : comp_ellint_3 (- k)%b32 nu = comp_ellint_3 k nu.
Proof. unfold comp_ellint_3. rewrite !isNan_ok, nan_opp. destruct (is_nan 24 128 k) eqn:N; [cbn [orb]; try rewrite !orb_true_r; reflexivity|]. rewrite abs_opp, square_opp by auto. reflexivity. Qed.
Lemma inc1_even k phi : ellint_1 (- k)%b32 phi = ellint_1 k phi.
Proof. unfold ellint_1. rewrite !isNan_ok, nan_opp, comp1_even. destruct (is_nan 24 128 k) eqn:N; [cbn [orb]; try rewrite !orb_true_r; reflexivity|]. rewrite abs_opp, square_opp by auto. reflexivity. Qed.
Lemma inc2_even k phi : ellint_2 (- k)%b32 phi = ellint_2 k phi.
Proof. unfold ellint_2. rewrite !isNan_ok, nan_opp, comp2_even. destruct (is_nan 24 128 k) eqn:N; [cbn [orb]; try rewrite !orb_true_r; reflexivity|]. rewrite abs_opp, square_opp by auto. reflexivity. Qed.
Lemma inc3_even k nu phi : ellint_3 (- k)%b32 nu phi = ellint_3 k nu phi.
Proof. unfold ellint_3. rewrite !isNan_ok, nan_opp, comp3_even. destruct (is_nan 24 128 k) eqn:N; [cbn [orb]; try rewrite !orb_true_r; reflexivity|]. rewrite abs_opp, square_opp by auto. reflexivity. Qed.

(** the modulus is outside the domain: not a number, or larger than one *)
Lemma one_ext : is_nan 24 128 (flit 1 1) = false /\ ext32 (flit 1 1) = 1.
Proof. destruct c1 as (F & V). split; [apply fin_nan; exact F|]. rewrite ext32_finite by exact F. exact V. Qed.
Lemma abs_ge1 k : is_nan 24 128 k = true \/ 1 <= Rabs (ext32 k) -> is_nan 24 128 k || (absolute k >=? flit 1 1)%b32 = true.
Proof.
  intros [N|N]; [rewrite N; reflexivity|]. destruct (is_nan 24 128 k) eqn:E; [reflexivity|]. cbn [orb]. destruct one_ext as (N1 & V1). destruct (absf_ok k) as (_ & Na & _ & _ & Va). unfold absf in *.
  apply b32_le_ext; [exact N1|rewrite Na; exact E|]. rewrite V1, Va. exact N.
Qed.
Lemma abs_gt1 k : is_nan 24 128 k = true \/ 1 < Rabs (ext32 k) -> is_nan 24 128 k || (absolute k >? flit 1 1)%b32 = true.
Proof.
  intros [N|N]; [rewrite N; reflexivity|]. destruct (is_nan 24 128 k) eqn:E; [reflexivity|]. cbn [orb]. destruct one_ext as (N1 & V1). destruct (absf_ok k) as (_ & Na & _ & _ & Va). unfold absf in *.
  apply b32_lt_ext; [exact N1|rewrite Na; exact E|]. rewrite V1, Va. exact N.
Qed.
Lemma comp1_domain k : is_nan 24 128 k = true \/ 1 <= Rabs (ext32 k) -> comp_ellint_1 k = limNan.
Proof. intros H. unfold comp_ellint_1. rewrite isNan_ok, abs_ge1 by exact H. reflexivity. Qed.
Lemma comp2_domain k : is_nan 24 128 k = true \/ 1 < Rabs (ext32 k) -> comp_ellint_2 k = limNan.
Proof. intros H. unfold comp_ellint_2. rewrite isNan_ok, abs_gt1 by exact H. reflexivity. Qed.
Lemma comp3_domain k nu : is_nan 24 128 k = true \/ is_nan 24 128 nu = true \/ 1 < Rabs (ext32 k) -> comp_ellint_3 k nu = limNan.
Proof.
  intros H. unfold comp_ellint_3. rewrite !isNan_ok. replace (is_nan 24 128 k || is_nan 24 128 nu || (absolute k >? flit 1 1)%b32) with true; [reflexivity|]. symmetry.
  destruct H as [H|[H|H]]; [rewrite H; reflexivity|rewrite H, orb_true_r; reflexivity|]. pose proof (abs_gt1 k (or_intror H)) as G. destruct (is_nan 24 128 k); [reflexivity|]. cbn [orb] in *. rewrite G. apply orb_true_r.
Qed.
Lemma inc1_domain k phi : is_nan 24 128 k = true \/ is_nan 24 128 phi = true \/ 1 < Rabs (ext32 k) -> ellint_1 k phi = Ok limNan.
Proof.
  intros H. unfold ellint_1. rewrite !isNan_ok. replace (is_nan 24 128 k || is_nan 24 128 phi || (absolute k >? flit 1 1)%b32) with true; [reflexivity|]. symmetry.
  destruct H as [H|[H|H]]; [rewrite H; reflexivity|rewrite H, orb_true_r; reflexivity|]. pose proof (abs_gt1 k (or_intror H)) as G. destruct (is_nan 24 128 k); [reflexivity|]. cbn [orb] in *. rewrite G. apply orb_true_r.
Qed.
Lemma inc2_domain k phi : is_nan 24 128 k = true \/ is_nan 24 128 phi = true \/ 1 < Rabs (ext32 k) -> ellint_2 k phi = Ok limNan.
Proof.
  intros H. unfold ellint_2. rewrite !isNan_ok. replace (is_nan 24 128 k || is_nan 24 128 phi || (absolute k >? flit 1 1)%b32) with true; [reflexivity|]. symmetry.
  destruct H as [H|[H|H]]; [rewrite H; reflexivity|rewrite H, orb_true_r; reflexivity|]. pose proof (abs_gt1 k (or_intror H)) as G. destruct (is_nan 24 128 k); [reflexivity|]. cbn [orb] in *. rewrite G. apply orb_true_r.
Qed.
Lemma inc3_domain k nu phi : is_nan 24 128 k = true \/ is_nan 24 128 nu = true \/ is_nan 24 128 phi = true \/ 1 < Rabs (ext32 k) -> ellint_3 k nu phi = Ok limNan.
Proof.
  intros H. unfold ellint_3. rewrite !isNan_ok. replace (is_nan 24 128 k || is_nan 24 128 nu || is_nan 24 128 phi || (absolute k >? flit 1 1)%b32) with true; [reflexivity|]. symmetry.
  destruct H as [H|[H|[H|H]]]; [rewrite H; reflexivity|rewrite H, orb_true_r; reflexivity|rewrite H, orb_true_r; reflexivity|]. pose proof (abs_gt1 k (or_intror H)) as G. destruct (is_nan 24 128 k); [reflexivity|]. cbn [orb] in *. rewrite G. apply orb_true_r.
Qed.

(** the end points *)
Lemma unit_cases k : Rabs (ext32 k) = 1 -> is_nan 24 128 k = false -> k = flit 1 1 \/ k = (- flit 1 1)%b32.
Proof.
  intros H N. assert (F : finite k). { destruct k as [s|s|s p Hp|s m e Hm]; try discriminate; auto. cbn [ext32] in H. destruct s; [rewrite Rabs_Ropp in H|]; rewrite Rabs_pos_eq in H by apply bpow_ge_0; change 1 with (bpow radix2 0) in H; apply bpow_inj in H; lia. }
  rewrite ext32_finite in H by exact F. change (B2R 24 128 k) with (valR k) in H. destruct c1 as (F1 & V1). destruct (opp_R _ F1) as (F2 & V2). destruct (Rcase_abs (valR k)).
  - rewrite Rabs_left in H by auto. right. apply val_inj; auto; rewrite ?V2, ?V1; lra.
  - rewrite Rabs_right in H by auto. left. apply val_inj; auto; rewrite ?V1; lra.
Qed.
Lemma comp2_one k : Rabs (ext32 k) = 1 -> is_nan 24 128 k = false -> comp_ellint_2 k = flit 1 1.
Proof. intros H N. destruct (unit_cases k H N) as [->| ->]; [|rewrite comp2_even]; apply bits_inj; vm_compute; reflexivity. Qed.
Lemma comp3_nu1 k : is_nan 24 128 k = false -> Rabs (ext32 k) <= 1 -> comp_ellint_3 k (flit 1 1) = limInf.
Proof.
  intros N H. unfold comp_ellint_3. rewrite !isNan_ok, N. destruct one_ext as (N1 & V1). rewrite N1. destruct (absf_ok k) as (_ & Na & _ & _ & Va). unfold absf in *.
  assert (G : b32_lt (flit 1 1) (absolute k) = false). { apply not_true_is_false. intros C. apply b32_lt_ext in C; [rewrite V1, Va in C; lra|exact N1|rewrite Na; exact N]. }
  rewrite G. reflexivity.
Qed.
Lemma above_one x : 1 < valR x -> 1 + / 8388608 <= valR x.
Proof.
  intros H. destruct (Rle_or_lt 2 (valR x)) as [L|L]; [lra|].
  pose proof (format_val x) as V. unfold generic_format in V. unfold cexp in V. rewrite (mag_unique radix2 (valR x) 1) in V.
  2: { rewrite Rabs_pos_eq by lra. change (bpow radix2 (1 - 1)) with 1. change (bpow radix2 1) with 2. lra. }
  change (FLT_exp (-149) 24 1) with (-23)%Z in V. unfold F2R in V. cbn [Fnum Fexp] in V. set (m := Ztrunc _) in V. clearbody m.
  change (bpow radix2 (-23)) with (/ 8388608) in *. assert (K : (8388608 < m)%Z). { apply lt_IZR. rewrite V in H. lra. }
  assert (K2 : (8388609 <= m)%Z) by lia. apply IZR_le in K2. rewrite V. lra.
Qed.
Lemma differs_1 nu : is_nan 24 128 nu = false -> ext32 nu <> 1 -> fisEqual0 (flit 1 1) nu = false.
Proof.
  intros N H. destruct (is_finite 24 128 nu) eqn:F.
  2:{ destruct nu as [s|s|s p Hp|s m e Hm]; try discriminate. destruct s; reflexivity. }
  rewrite ext32_finite in H by exact F. change (B2R 24 128 nu) with (valR nu) in H. destruct c1 as (F1 & V1). destruct limMin_R as (Fm & Vm). unfold fisEqual0, fisEqual.
  assert (B : / 16777216 <= Rabs (1 - valR nu)).
  { destruct (Rle_or_lt (valR nu) 1) as [L|L]; [pose proof (below_1 nu ltac:(lra)); rewrite Rabs_pos_eq; lra|pose proof (above_one nu L); rewrite Rabs_left; lra]. }
  pose proof (Bminus_correct 24 128 eq_refl eq_refl binop_nan_pl32 mode_NE (flit 1 1) nu F1 F) as Cm. rewrite fexp_FLT in Cm. cbn [round_mode] in Cm.
  destruct (abs_R limMin Fm) as (Fl & Vl). change (Bminus 24 128 eq_refl eq_refl binop_nan_pl32 mode_NE (flit 1 1) nu) with (flit 1 1 - nu)%b32 in Cm. set (D := (flit 1 1 - nu)%b32) in *. clearbody D.
  destruct (Rlt_bool _ _) in Cm.
  - destruct Cm as (Vd & Fd & _). destruct (abs_R D Fd) as (Fa & Va). apply le_f; auto. rewrite Va, Vl, Vm. change (valR D = rnd (valR (flit 1 1) - valR nu)) in Vd. rewrite Vd, V1, <- rnd_abs.
    rewrite Rabs_pos_eq by apply bpow_ge_0. apply Rlt_le_trans with (bpow radix2 (-24)); [apply bpow_lt; lia|]. rewrite <- (rnd_bpow (-24)) by lia. apply rnd_le. exact B.
  - destruct Cm as (Cm & _). destruct D as [s|s|s p Hp|s m e Hm]; try discriminate Cm. destruct s; reflexivity.
Qed.
Lemma comp3_k1 k nu : Rabs (ext32 k) = 1 -> is_nan 24 128 k = false -> ext32 nu <> 1 -> is_nan 24 128 (comp_ellint_3 k nu) = true.
Proof.
  intros H N Hn. destruct (is_nan 24 128 nu) eqn:Nn; [rewrite comp3_domain by auto; reflexivity|].
  assert (W : is_nan 24 128 (comp_ellint_3 (flit 1 1) nu) = true).
  { unfold comp_ellint_3. rewrite !isNan_ok, Nn. destruct one_ext as (N1 & _). rewrite N1. rewrite (differs_1 nu Nn Hn). replace (b32_lt (flit 1 1) (absolute (flit 1 1))) with false by reflexivity. cbn [orb].
    apply plus_nan_l. replace (flit 1 1 - flit 1 1 * flit 1 1)%b32 with (flit 0 1) by (apply bits_inj; vm_compute; reflexivity). replace (ellint_rf (flit 0 1) (flit 0 1) (flit 1 1)) with limNan; [reflexivity|]. apply bits_inj. vm_compute. reflexivity. }
  destruct (unit_cases k H N) as [->| ->]; [|rewrite comp3_even]; exact W.
Qed.
Lemma comp3_nu_large k nu : is_nan 24 128 nu = false -> 1 < ext32 nu -> is_nan 24 128 (comp_ellint_3 k nu) = true.
Proof.
  intros Nn H. unfold comp_ellint_3. rewrite !isNan_ok, Nn, (differs_1 nu Nn) by lra. destruct (_ || _); [reflexivity|]. apply plus_nan_r, mult_nan_r.
  replace (ellint_rj _ _ _ _) with limNan; [reflexivity|]. symmetry. unfold ellint_rj. replace (b32_lt (flit 1 1 - nu)%b32 rdLim) with true; [rewrite orb_true_r; reflexivity|]. symmetry.
  destruct c1 as (F1 & V1). assert (Fr : finite rdLim /\ 0 < valR rdLim) by (split; [reflexivity|vm_compute; lra]). destruct Fr as (Fr & Pr).
  destruct (is_finite 24 128 nu) eqn:F.
  - rewrite ext32_finite in H by exact F. change (B2R 24 128 nu) with (valR nu) in H. destruct (minus_M (flit 1 1) nu F1 F) as (Fd & Vd).
    { rewrite V1, Rabs_left by lra. pose proof (finite_bnd nu). lra. }
    apply lt_t; auto. rewrite Vd, V1. pose proof (rnd_le (1 - valR nu) 0 ltac:(lra)) as L. rewrite rnd_0 in L. lra.
  - destruct nu as [s|s|s p Hp|s m e Hm]; try discriminate. destruct s; [|reflexivity]. exfalso. cbn [ext32] in H. pose proof (bpow_gt_0 radix2 128). lra.
Qed.
