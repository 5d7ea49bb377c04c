(** Special arguments and undefined conversions of the Bessel functions. *)
From Coq Require Import ZArith Reals Lra Lia Bool.
From Flocq Require Import Core IEEE754.BinarySingleNaN IEEE754.Binary IEEE754.Bits.
From Verif Require Import Base BaseLemmas Arith Ext32 Bits32 Ffmath_Model Ffmath2_Model Ffmath5_Model Ffmath_Spec Ffmath_Proofs Ffmath_Proofs2 Ffmath_Proofs3 Float32 Ffmath_Proofs4 Ffmath_Proofs7 Ffmath_Proofs8 Ffmath_Proofs9 FloatApp Ffmath_Proofs12 Ffmath_Proofs14 Ffmath_Proofs16.
Open Scope R_scope.

Lemma inf_cases x : is_nan 24 128 x = false -> finite x \/ x = B754_infinity 24 128 true \/ x = B754_infinity 24 128 false.
Proof. destruct x as [s|s|s p H|s m e H]; intros N; try discriminate; auto. destruct s; auto. Qed.
Lemma p128 : 0 < bpow radix2 128. Proof. apply bpow_gt_0. Qed.
Lemma b126 : 0 < bpow radix2 (-126) <= / 1024. Proof. split; [apply bpow_gt_0|]. change (/ 1024) with (bpow radix2 (-10)). apply bpow_le. lia. Qed.
Lemma b128_big : 1000000 <= bpow radix2 128. Proof. apply Rle_trans with (bpow radix2 20); [change (bpow radix2 20) with 1048576; lra|apply bpow_le; lia]. Qed.

(** isEqual( 0.0F, x ) *)
Lemma zero_diff x : finite x -> finite (flit 0 1 - x)%b32 /\ valR (flit 0 1 - x)%b32 = - valR x.
Proof.
  intros F. destruct zero_R as (F0 & V0). destruct (minus_M (flit 0 1) x F0 F) as (Fd & Vd).
  - rewrite V0, Rminus_0_l, Rabs_Ropp. apply finite_le.
  - split; [exact Fd|]. rewrite Vd, V0, Rminus_0_l, rnd_opp, rnd_val. reflexivity.
Qed.
Lemma eq0_t x : is_nan 24 128 x = false -> Rabs (ext32 x) <= bpow radix2 (-126) -> fisEqual0 (flit 0 1) x = true.
Proof.
  intros N H. pose proof b126. pose proof b128_big. destruct (inf_cases x N) as [F|[-> | ->]].
  - rewrite ext32_finite in H by exact F. destruct (zero_diff x F) as (Fd & Vd). destruct limMin_R as (Fm & Vm). destruct (abs_R _ Fd) as (Fa & Va). destruct (abs_R _ Fm) as (Fl & Vl).
    unfold fisEqual0, fisEqual. apply le_t; auto. rewrite Va, Vl, Vd, Vm, Rabs_Ropp, (Rabs_pos_eq (bpow _ _)) by lra. exact H.
  - cbn [ext32] in H. rewrite Rabs_Ropp, Rabs_pos_eq in H; lra.
  - cbn [ext32] in H. rewrite Rabs_pos_eq in H; lra.
Qed.
Lemma eq0_f x : is_nan 24 128 x = false -> bpow radix2 (-126) < Rabs (ext32 x) -> fisEqual0 (flit 0 1) x = false.
Proof.
  intros N H. pose proof b126. destruct (inf_cases x N) as [F|[-> | ->]]; [|reflexivity|reflexivity].
  rewrite ext32_finite in H by exact F. destruct (zero_diff x F) as (Fd & Vd). destruct limMin_R as (Fm & Vm). destruct (abs_R _ Fd) as (Fa & Va). destruct (abs_R _ Fm) as (Fl & Vl).
  unfold fisEqual0, fisEqual. apply le_f; auto. rewrite Va, Vl, Vd, Vm, Rabs_Ropp, (Rabs_pos_eq (bpow _ _)) by lra. exact H.
Qed.

(** the domain test *)
Lemma not_neg x : is_nan 24 128 x = false -> 0 <= ext32 x -> b32_lt x (flit 0 1) = false.
Proof.
  intros N H. destruct zero_R as (F0 & V0). destruct (b32_lt x (flit 0 1)) eqn:E; auto. exfalso. apply b32_lt_ext in E; auto. rewrite (ext32_finite (flit 0 1)) in E by exact F0. change (B2R 24 128 (flit 0 1)) with (valR (flit 0 1)) in E. lra.
Qed.
Lemma cyl_bad_t nu x : is_nan 24 128 nu = true \/ is_nan 24 128 x = true \/ ext32 nu < 0 \/ ext32 x < 0 -> cyl_bad nu x = true.
Proof.
  intros H. unfold cyl_bad. rewrite !isNan_ok. destruct (is_nan 24 128 nu) eqn:Nn; [rewrite !orb_true_r; reflexivity|]. destruct (is_nan 24 128 x) eqn:Nx; [rewrite !orb_true_r; reflexivity|].
  destruct H as [H|[H|[H|H]]]; try discriminate; [rewrite (neg_lt nu Nn H)|rewrite (neg_lt x Nx H)]; rewrite ?orb_true_r; reflexivity.
Qed.
Lemma cyl_bad_f nu x : is_nan 24 128 nu = false -> is_nan 24 128 x = false -> 0 <= ext32 nu -> 0 <= ext32 x -> cyl_bad nu x = false.
Proof. intros Nn Nx Hn Hx. unfold cyl_bad. rewrite !isNan_ok, Nn, Nx, (not_neg nu), (not_neg x) by auto. reflexivity. Qed.
Lemma sph_bad_t x : is_nan 24 128 x = true \/ ext32 x < 0 -> b32_lt x (flit 0 1) || isNan x = true.
Proof. intros H. rewrite isNan_ok. destruct (is_nan 24 128 x) eqn:Nx; [apply orb_true_r|]. destruct H as [H|H]; [discriminate|]. rewrite (neg_lt x Nx H). reflexivity. Qed.
Lemma sph_bad_f x : is_nan 24 128 x = false -> 0 <= ext32 x -> b32_lt x (flit 0 1) || isNan x = false.
Proof. intros N H. rewrite isNan_ok, N, (not_neg x N H). reflexivity. Qed.

(** conversions to int *)
Lemma toI32_far r : is_nan 24 128 r = false -> 2147483648 <= ext32 r \/ 4294967296 <= Rabs (ext32 r) -> toI32 r = Ub.
Proof.
  intros N H. destruct r as [s|s|s p Hp|s m e Hm]; try discriminate; [|reflexivity|].
  - cbn [ext32 B2R] in H. rewrite Rabs_R0 in H. lra.
  - cbn [ext32] in H. unfold toI32. set (a := if (0 <=? e)%Z then _ else _). set (v := IZR (Zpos m) * bpow radix2 e).
    assert (V : B2R 24 128 (B754_finite 24 128 s m e Hm) = if s then - v else v). { cbn [B2R]. unfold F2R. cbn [Fnum Fexp]. destruct s; cbn [cond_Zopp]; [change (- Zpos m)%Z with (Z.opp (Zpos m)); rewrite opp_IZR|]; unfold v; ring. }
    rewrite V in H. assert (P : 0 < v) by (unfold v; apply Rmult_lt_0_compat; [apply IZR_lt; lia|apply bpow_gt_0]).
    assert (A : forall c, (0 <= c)%Z -> IZR c <= v -> (c <= a)%Z).
    { intros c Hc L. unfold a. destruct (Z.leb_spec 0 e).
      - apply le_IZR. rewrite mult_IZR. unfold v in L. rewrite <- (IZR_Zpower radix2 e) in L by lia. exact L.
      - apply Z.div_le_lower_bound; [apply Z.pow_pos_nonneg; lia|]. apply le_IZR. rewrite mult_IZR. change 2%Z with (radix_val radix2). rewrite (IZR_Zpower radix2 (- e)) by lia.
        unfold v in L. rewrite <- (Rmult_1_r (IZR (Zpos m))). replace 1 with (bpow radix2 e * bpow radix2 (- e)) by (rewrite <- bpow_plus; replace (e + - e)%Z with 0%Z by lia; reflexivity).
        rewrite <- Rmult_assoc. rewrite (Rmult_comm (bpow radix2 (- e))). apply Rmult_le_compat_r; [apply bpow_ge_0|exact L]. }
    unfold i32. destruct s.
    + rewrite Rabs_Ropp, (Rabs_pos_eq v) in H by lra. assert (4294967296 <= a)%Z by (apply A; [lia|lra]). replace (-2147483648 <=? - a)%Z with false by (symmetry; apply Z.leb_gt; lia). reflexivity.
    + rewrite (Rabs_pos_eq v) in H by lra. assert (2147483648 <= a)%Z by (apply A; [lia|lra]). replace (a <? 2147483648)%Z with false by (symmetry; apply Z.ltb_ge; lia). rewrite andb_false_r. reflexivity.
Qed.

(** lower bounds through rounding, overflow included *)
Lemma sign_pos x : 0 < valR x -> Bsign 24 128 x = false.
Proof. intros H. destruct x as [s|s|s p Hp|s m e Hm]; cbn in *; try lra. destruct s; auto. exfalso. unfold F2R in H. cbn [Fnum Fexp cond_Zopp] in H. pose proof (bpow_gt_0 radix2 e). assert (IZR (- Zpos m) < 0) by (apply IZR_lt; lia). nra. Qed.
Lemma plus_low x y c : finite x -> finite y -> 0 < valR x -> valR c <= valR x + valR y -> is_nan 24 128 (x + y)%b32 = false /\ valR c <= ext32 (x + y)%b32.
Proof.
  intros Fx Fy P L. pose proof (Bplus_correct 24 128 eq_refl eq_refl binop_nan_pl32 mode_NE x y Fx Fy) as C. rewrite fexp_FLT in C. cbn [round_mode] in C.
  change (Bplus 24 128 eq_refl eq_refl binop_nan_pl32 mode_NE x y) with (x + y)%b32 in C. set (D := (x + y)%b32) in *. clearbody D. destruct (Rlt_bool _ _) in C.
  - destruct C as (V & F & _). split; [apply fin_nan; exact F|]. rewrite ext32_finite by exact F. rewrite V. apply (rnd_ge_val (valR x + valR y) c). exact L.
  - destruct C as (C & _). rewrite (sign_pos x P) in C. destruct D as [s|s|s p Hp|s m e Hm]; try discriminate C. injection C as ->. split; [reflexivity|]. cbn [ext32]. pose proof (finite_bnd c). rewrite fmax_val in H. pose proof (bpow_gt_0 radix2 104). lra.
Qed.
Lemma lit_half : finite (flit 1 2) /\ valR (flit 1 2) = / 2. Proof. cst. Qed.
Lemma lit_3h : finite (flit 3 2) /\ valR (flit 3 2) = 3 / 2. Proof. cst. Qed.
Lemma lit_2 : finite (flit 2 1) /\ valR (flit 2 1) = 2. Proof. cst. Qed.
Lemma lit_1000 : finite (flit 1000 1) /\ valR (flit 1000 1) = 1000. Proof. cst. Qed.
Definition f31 : float := ofU 1325400064.
Lemma f31_R : finite f31 /\ valR f31 = 2147483648. Proof. cst. Qed.
Lemma nu_far nu h : is_nan 24 128 nu = false -> 2147483648 <= ext32 nu -> finite h -> 0 <= valR h -> toI32 (nu + h)%b32 = Ub.
Proof.
  intros N H Fh Vh. destruct f31_R as (F3 & V3). pose proof b128_big. destruct (inf_cases nu N) as [F|[-> | ->]].
  - rewrite ext32_finite in H by exact F. change (B2R 24 128 nu) with (valR nu) in H. destruct (plus_low nu h f31 F Fh) as (N2 & L2); [lra|lra|]. apply toI32_far; [exact N2|]. left. rewrite V3 in L2. exact L2.
  - cbn [ext32] in H. lra.
  - destruct h as [s|s|s p Hp|s m e Hm]; try discriminate; reflexivity.
Qed.
Lemma lt2_t x : is_nan 24 128 x = false -> ext32 x < 2 -> b32_lt x (flit 2 1) = true.
Proof. intros N H. destruct lit_2 as (F & V). apply b32_lt_ext; auto. rewrite (ext32_finite (flit 2 1)) by exact F. change (B2R 24 128 (flit 2 1)) with (valR (flit 2 1)). lra. Qed.
Lemma lt2_f x : is_nan 24 128 x = false -> 2 <= ext32 x -> b32_lt x (flit 2 1) = false.
Proof. intros N H. destruct lit_2 as (F & V). destruct (b32_lt x (flit 2 1)) eqn:E; auto. exfalso. apply b32_lt_ext in E; auto. rewrite (ext32_finite (flit 2 1)) in E by exact F. change (B2R 24 128 (flit 2 1)) with (valR (flit 2 1)) in E. lra. Qed.
Lemma gt1000_f x : is_nan 24 128 x = false -> ext32 x <= 1000 -> b32_lt (flit 1000 1) x = false.
Proof. intros N H. destruct lit_1000 as (F & V). destruct (b32_lt (flit 1000 1) x) eqn:E; auto. exfalso. apply b32_lt_ext in E; auto. rewrite (ext32_finite (flit 1000 1)) in E by exact F. change (B2R 24 128 (flit 1000 1)) with (valR (flit 1000 1)) in E. lra. Qed.

Lemma ik_ub nu x : is_nan 24 128 nu = false -> 2147483648 <= ext32 nu -> is_nan 24 128 x = false -> bpow radix2 (-126) < ext32 x -> bessel_ik nu x = Ub.
Proof.
  intros Nn Hn Nx Hx. pose proof b126. destruct lit_half as (Fh & Vh). unfold bessel_ik. rewrite (eq0_f x Nx) by (rewrite Rabs_pos_eq; lra). rewrite (nu_far nu (flit 1 2) Nn Hn Fh ltac:(lra)). reflexivity.
Qed.
Lemma jn_ub_small nu x : is_nan 24 128 nu = false -> 2147483648 <= ext32 nu -> is_nan 24 128 x = false -> bpow radix2 (-126) < ext32 x < 2 -> bessel_jn nu x = Ub.
Proof.
  intros Nn Hn Nx Hx. pose proof b126. destruct lit_half as (Fh & Vh). unfold bessel_jn. rewrite (eq0_f x Nx) by (rewrite Rabs_pos_eq; lra). rewrite (lt2_t x Nx) by lra. rewrite (nu_far nu (flit 1 2) Nn Hn Fh ltac:(lra)). reflexivity.
Qed.
(** nu - x + 1.5 out of range *)
Definition f32_ : float := ofU 1333788672.
Lemma f32_R : finite f32_ /\ valR f32_ = 4294967296. Proof. cst. Qed.
Lemma ext_fin x c : is_nan 24 128 x = false -> - c <= ext32 x <= c -> c <= 1000 -> finite x.
Proof. intros N H L. pose proof b128_big. destruct (inf_cases x N) as [F|[-> | ->]]; [exact F| |]; cbn [ext32] in H; lra. Qed.
Lemma jn_ub_mid nu x : is_nan 24 128 nu = false -> 4294967296 <= ext32 nu -> is_nan 24 128 x = false -> 2 <= ext32 x <= 1000 -> bessel_jn nu x = Ub.
Proof.
  intros Nn Hn Nx Hx. pose proof b126. destruct lit_3h as (Fh & Vh). destruct f31_R as (F3 & V3). assert (Fx : finite x) by (apply (ext_fin x 1000); auto; lra).
  unfold bessel_jn. rewrite (eq0_f x Nx) by (rewrite Rabs_pos_eq; lra). rewrite (lt2_f x Nx) by lra.
  rewrite ext32_finite in Hx by exact Fx. change (B2R 24 128 x) with (valR x) in Hx. assert (Nf : is_nan 24 128 (nu - x)%b32 = false /\ 2147483648 <= ext32 (nu - x)%b32).
  { destruct (inf_cases nu Nn) as [F|[-> | ->]].
    - rewrite ext32_finite in Hn by exact F. change (B2R 24 128 nu) with (valR nu) in Hn. pose proof (finite_bnd nu) as Bn. destruct (minus_M nu x F Fx) as (Fd & Vd); [rewrite Rabs_pos_eq; lra|].
      split; [apply fin_nan; exact Fd|]. rewrite ext32_finite by exact Fd. change (B2R 24 128 (nu - x)%b32) with (valR (nu - x)%b32). rewrite Vd, <- V3. apply rnd_ge_val. lra.
    - cbn [ext32] in Hn. pose proof p128. lra.
    - destruct x as [s|s|s p Hp|s m e Hm]; try discriminate; (split; [reflexivity|]); cbn [ext32]; (apply Rle_trans with 4294967296; [lra|exact Hn]). }
  destruct Nf as (N2 & H2). rewrite (nu_far _ (flit 3 2) N2 H2 Fh ltac:(lra)). reflexivity.
Qed.
(** large arguments of the spherical functions *)
Lemma jn_ub_large nu x : finite nu -> 0 <= valR nu <= 2147483648 -> is_nan 24 128 x = false -> 8589934592 <= ext32 x -> bessel_jn nu x = Ub.
Proof.
  intros Fn Hn Nx Hx. pose proof b126. destruct lit_3h as (Fh & Vh). destruct f32_R as (F3 & V3).
  unfold bessel_jn. rewrite (eq0_f x Nx) by (rewrite Rabs_pos_eq; lra). rewrite (lt2_f x Nx) by lra.
  assert (Nf : toI32 (nu - x + flit 3 2)%b32 = Ub).
  { destruct (inf_cases x Nx) as [F|[-> | ->]].
    - rewrite ext32_finite in Hx by exact F. change (B2R 24 128 x) with (valR x) in Hx. pose proof (finite_bnd x) as Bx. destruct (minus_M nu x Fn F) as (Fd & Vd); [rewrite Rabs_left; lra|].
      assert (U : - fmax <= valR (nu - x)%b32 <= - (3 / 2 * 4294967296)). 
      { split; [apply finite_bnd|]. assert (K : finite (ofU 1337982976) /\ valR (ofU 1337982976) = 3 / 2 * 4294967296) by cst. destruct K as (_ & K). assert (K2 : valR (nu - x)%b32 <= - (valR (ofU 1337982976))) by (rewrite Vd; apply rnd_le_opp; lra). lra. }
      set (y := (nu - x)%b32) in *. clearbody y. destruct (plus_M y (flit 3 2) Fd Fh) as (Fs & Vs); [rewrite Vh; apply Rabs_le; lra|].
      apply toI32_far; [apply fin_nan; exact Fs|]. right. rewrite ext32_finite by exact Fs. change (B2R 24 128 (y + flit 3 2)%b32) with (valR (y + flit 3 2)%b32).
      assert (L : valR (y + flit 3 2)%b32 <= - valR f32_) by (rewrite Vs, Vh; apply rnd_le_opp; lra). rewrite V3 in L. rewrite Rabs_left; lra.
    - cbn [ext32] in Hx. pose proof p128. lra.
    - destruct nu as [s|s|s p Hp|s m e Hm]; try discriminate; reflexivity. }
  rewrite Nf. reflexivity.
Qed.

(** values at zero *)
Lemma gt1000_tiny x : is_nan 24 128 x = false -> ext32 x <= bpow radix2 (-126) -> b32_lt (flit 1000 1) x = false.
Proof. intros N H. pose proof b126. apply gt1000_f; auto. lra. Qed.
Lemma ofZ_low n : (2147483648 <= n < 2 ^ 64)%Z -> finite (b32_ofZ n) /\ 2147483648 <= valR (b32_ofZ n).
Proof.
  intros H. assert (E : F2R (Float radix2 n 0) = IZR n) by (unfold F2R; cbn; ring). pose proof (binary_normalize_correct 24 128 eq_refl eq_refl mode_NE n 0 false) as C. fold (b32_ofZ n) in C. rewrite E, fexp_FLT in C. cbn [round_mode] in C.
  rewrite Rlt_bool_true in C.
  - destruct C as (V & F & _). split; [exact F|]. change (valR (b32_ofZ n) = rnd (IZR n)) in V. rewrite V. destruct f31_R as (_ & V3). rewrite <- V3. apply rnd_ge_val. rewrite V3. apply IZR_le. lia.
  - apply Rle_lt_trans with (bpow radix2 64); [|apply bpow_lt; lia]. apply (rnd_abs_le (IZR n) 64); [lia|]. change (bpow radix2 64) with (IZR (2 ^ 64)). rewrite <- abs_IZR. apply IZR_le. lia.
Qed.
Lemma sph_nu n : (2147483648 <= n < 2 ^ 64)%Z -> is_nan 24 128 (b32_ofZ n + flit 1 2)%b32 = false /\ 2147483648 <= ext32 (b32_ofZ n + flit 1 2)%b32.
Proof. intros H. destruct (ofZ_low n H) as (F & L). destruct lit_half as (Fh & Vh). destruct f31_R as (_ & V3). destruct (plus_low (b32_ofZ n) (flit 1 2) f31 F Fh ltac:(lra) ltac:(lra)) as (N & P). split; [exact N|lra]. Qed.
Lemma sph_nu_small n : (0 <= n < 2147483648)%Z -> finite (b32_ofZ n + flit 1 2)%b32 /\ 0 <= valR (b32_ofZ n + flit 1 2)%b32 <= 2147483648.
Proof.
  intros H. assert (B : 0 <= IZR n <= 2147483648) by (split; apply IZR_le; lia). assert (E : F2R (Float radix2 n 0) = IZR n) by (unfold F2R; cbn; ring). pose proof (binary_normalize_correct 24 128 eq_refl eq_refl mode_NE n 0 false) as C. fold (b32_ofZ n) in C. rewrite E, fexp_FLT in C. cbn [round_mode] in C.
  assert (K : Rabs (IZR n) <= bpow radix2 31) by (rewrite Rabs_pos_eq by lra; change (bpow radix2 31) with 2147483648; lra).
  rewrite Rlt_bool_true in C by (apply Rle_lt_trans with (bpow radix2 31); [apply (rnd_abs_le (IZR n) 31); [lia|exact K]|apply bpow_lt; lia]). destruct C as (V & F & _). change (valR (b32_ofZ n) = rnd (IZR n)) in V.
  destruct f31_R as (F3 & V3). assert (Bv : 0 <= valR (b32_ofZ n) <= 2147483648) by (rewrite V; split; [apply rnd_nonneg; lra|rewrite <- V3; apply rnd_le_val; lra]).
  destruct lit_half as (Fh & Vh). destruct (plus_R (b32_ofZ n) (flit 1 2) F Fh) as (Fs & Vs). { rewrite Vh, Rabs_pos_eq by lra. apply Rle_trans with (bpow radix2 40); [change (bpow radix2 40) with 1099511627776; lra|apply bpow_le; lia]. }
  split; [exact Fs|]. rewrite Vs, Vh. split; [apply rnd_nonneg; lra|].
  destruct (Rle_lt_dec (valR (b32_ofZ n)) 2147483000) as [L|L]; [rewrite <- V3; apply rnd_le_val; lra|].
  replace 2147483648 with (rnd (2147483648 + / 2)); [apply rnd_le; lra|]. destruct (plus_R f31 (flit 1 2) F3 Fh) as (Fq & Vq). { rewrite V3, Vh, Rabs_pos_eq by lra. apply Rle_trans with (bpow radix2 40); [change (bpow radix2 40) with 1099511627776; lra|apply bpow_le; lia]. }
  rewrite V3, Vh in Vq. rewrite <- Vq. replace (f31 + flit 1 2)%b32 with f31 by (apply bits_inj; vm_compute; reflexivity). exact V3.
Qed.
