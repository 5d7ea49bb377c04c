(** Legendre's complete integral as a symmetric integral, and the symmetric integral at nearly equal arguments. *)
From Coq Require Import Reals Lra Lia Psatz.
From Coquelicot Require Import Coquelicot.
From Verif Require Import Ellint_Spec Ellint_Proofs.
Open Scope R_scope.

Lemma in_q t : Rmin 0 (PI / 2) <= t <= Rmax 0 (PI / 2) -> 0 <= t <= PI / 2.
Proof. pose proof PI2_RGT_0. rewrite Rmin_left, Rmax_right by lra. auto. Qed.
Lemma in_q' t : Rmin 0 (PI / 2) < t < Rmax 0 (PI / 2) -> 0 <= t <= PI / 2.
Proof. pose proof PI2_RGT_0. rewrite Rmin_left, Rmax_right by lra. lra. Qed.

Lemma complete_RF y : 0 < y -> RInt (fun t => / sqrt (cos t * cos t + y * (sin t * sin t))) 0 (PI / 2) = RF (sqrt y / 4) ((y + sqrt y) / 4) ((1 + sqrt y) / 4).
Proof.
  intros Hy. set (l := sqrt y). assert (Hl : 0 < l) by (apply sqrt_lt_R0; auto). assert (Sl : l * l = y) by (apply sqrt_sqrt; lra).
  set (b := fun t => sqrt (cos t * cos t + y * (sin t * sin t))).
  assert (T : forall t, cos t * cos t = 1 - sin t * sin t) by (intros t; pose proof (sin2_cos2 t) as H; unfold Rsqr in H; lra).
  assert (Hc : forall t, 0 <= t <= PI / 2 -> 0 <= cos t) by (intros t Ht; apply cos_ge_0; lra).
  assert (Hsn : forall t, 0 <= t <= PI / 2 -> 0 <= sin t <= 1) by (intros t Ht; split; [apply sin_ge_0; pose proof PI2_RGT_0; lra|pose proof (SIN_bound t); lra]).
  assert (Qb : forall t, 0 < cos t * cos t + y * (sin t * sin t)).
  { intros t. pose proof (T t). destruct (Req_dec (sin t * sin t) 0) as [E|N]; [rewrite E in *; lra|].
    assert (0 < sin t * sin t) by (assert (0 <= sin t * sin t) by nra; lra). assert (0 < y * (sin t * sin t)) by (apply Rmult_lt_0_compat; auto). nra. }
  assert (Pb : forall t, 0 < b t) by (intros t; apply sqrt_lt_R0; auto).
  assert (Sb : forall t, b t * b t = cos t * cos t + y * (sin t * sin t)) by (intros t; apply sqrt_sqrt; left; auto).
  assert (Gb : forall t, 0 <= t <= PI / 2 -> l * sin t <= b t).
  { intros t Ht. pose proof (Pb t). pose proof (Sb t). pose proof (Hsn t Ht). apply Rnot_lt_le. intros C. assert (b t * b t < (l * sin t) * (l * sin t)) by nra. nra. }
  set (D := fun t => 1 + (3 - l) * (sin t * sin t) + (cos t * b t + b t + cos t)).
  assert (HD : forall t, 0 <= t <= PI / 2 -> 0 < D t).
  { intros t Ht. pose proof (Pb t). pose proof (Hc t Ht). pose proof (Hsn t Ht). pose proof (Gb t Ht). unfold D.
    assert (0 <= cos t * b t) by (apply Rmult_le_pos; lra). assert (l * (sin t * sin t) <= l * sin t) by (apply Rmult_le_compat_l; nra). assert (0 <= sin t * sin t) by nra. lra. }
  set (f := fun t => 2 * sin t / sqrt (D t)).
  set (df := fun t => (cos t + b t) * (b t + 1) * (1 + cos t) / (b t * (D t * sqrt (D t)))).
  assert (Q : forall w t, 0 <= t <= PI / 2 -> q ((w + l) / 4) (f t) = (cos t * cos t + w * (sin t * sin t) + (cos t * b t + b t + cos t)) / D t).
  { intros w t Ht. pose proof (HD t Ht) as H. pose proof (sqrt_lt_R0 _ H). unfold q, f.
    replace (2 * sin t / sqrt (D t) * (2 * sin t / sqrt (D t))) with (4 * (sin t * sin t) / (sqrt (D t) * sqrt (D t))) by (field; lra).
    rewrite sqrt_sqrt by lra. replace (1 - 4 * (sin t * sin t) / D t + (w + l) / 4 * (4 * (sin t * sin t) / D t)) with ((D t - 4 * (sin t * sin t) + (w + l) * (sin t * sin t)) / D t) by (field; lra).
    f_equal. rewrite T. unfold D. ring. }
  assert (Qx : forall t, 0 <= t <= PI / 2 -> q (l / 4) (f t) = (cos t + b t) * (1 + cos t) / D t).
  { intros t Ht. replace (l / 4) with ((0 + l) / 4) by lra. rewrite Q by auto. f_equal. ring. }
  assert (Qy : forall t, 0 <= t <= PI / 2 -> q ((y + l) / 4) (f t) = (cos t + b t) * (b t + 1) / D t).
  { intros t Ht. rewrite Q by auto. rewrite <- Sb. f_equal. ring. }
  assert (Qz : forall t, 0 <= t <= PI / 2 -> q ((1 + l) / 4) (f t) = (b t + 1) * (1 + cos t) / D t).
  { intros t Ht. rewrite Q by auto. f_equal. rewrite T. ring. }
  assert (F0 : f 0 = 0) by (unfold f; rewrite sin_0; lra).
  assert (F1 : f (PI / 2) = 1).
  { unfold f, D, b. rewrite sin_PI2, cos_PI2. replace (0 * 0 + y * (1 * 1)) with y by ring. fold l. replace (1 + (3 - l) * (1 * 1) + (0 * l + l + 0)) with (2 * 2) by ring. rewrite sqrt_square by lra. field. }
  unfold RF. replace (RInt (rfI (l / 4) ((y + l) / 4) ((1 + l) / 4)) 0 1) with (RInt (rfI (l / 4) ((y + l) / 4) ((1 + l) / 4)) (f 0) (f (PI / 2))) by (rewrite F0, F1; reflexivity).
  rewrite <- (RInt_comp (rfI (l / 4) ((y + l) / 4) ((1 + l) / 4)) f df 0 (PI / 2)).
  - apply RInt_ext. intros t Ht. apply in_q' in Ht. unfold scal; cbn; unfold mult; cbn. unfold rfI. rewrite Qx, Qy, Qz by auto. fold (b t).
    pose proof (Pb t). pose proof (Hc t Ht). pose proof (HD t Ht) as He. pose proof (sqrt_lt_R0 _ He).
    assert (W : sqrt ((cos t + b t) * (1 + cos t) / D t) * sqrt ((cos t + b t) * (b t + 1) / D t) * sqrt ((b t + 1) * (1 + cos t) / D t)
                = (cos t + b t) * (b t + 1) * (1 + cos t) / (D t * sqrt (D t))).
    { assert (0 < cos t + b t) by lra. assert (0 < b t + 1) by lra. assert (0 < 1 + cos t) by lra.
      rewrite !sqrt_div by (auto; apply Rmult_le_pos; lra). rewrite !sqrt_mult by lra.
      set (p := sqrt (cos t + b t)). set (r := sqrt (b t + 1)). set (v := sqrt (1 + cos t)).
      replace (cos t + b t) with (p * p) by (apply sqrt_sqrt; lra). replace (b t + 1) with (r * r) by (apply sqrt_sqrt; lra). replace (1 + cos t) with (v * v) by (apply sqrt_sqrt; lra).
      replace (D t) with (sqrt (D t) * sqrt (D t)) at 4 by (apply sqrt_sqrt; lra). field. lra. }
    rewrite W. unfold df. field. repeat split; lra.
  - intros t Ht. apply in_q in Ht. pose proof (Pb t). pose proof (Hc t Ht). pose proof (HD t Ht).
    apply rfI_cont; rewrite ?Qx, ?Qy, ?Qz by auto; (apply Rdiv_lt_0_compat; [apply Rmult_lt_0_compat; lra|auto]).
  - intros t Ht. apply in_q in Ht. pose proof (Pb t) as Hb. pose proof (Hc t Ht). pose proof (HD t Ht) as He. pose proof (sqrt_lt_R0 _ He) as Hs.
    assert (Db : is_derive b t ((y - 1) * (sin t * cos t) / b t)).
    { pose proof (Qb t). unfold b in *. auto_derive; mm; [repeat split; lra|]. field. lra. }
    assert (DD : is_derive D t (2 * (3 - l) * (sin t * cos t) + (- sin t * b t + cos t * ((y - 1) * (sin t * cos t) / b t) + (y - 1) * (sin t * cos t) / b t - sin t))).
    { unfold D. auto_derive.
      - repeat split; try (eexists; eassumption); auto.
      - change (Derive (fun x => b x) t) with (Derive b t). rewrite (is_derive_unique _ _ _ Db). field. lra. }
    split.
    + unfold f. auto_derive.
      * repeat split; try lra. eexists; eassumption.
      * change (Derive (fun x => D x) t) with (Derive D t). rewrite (is_derive_unique _ _ _ DD). unfold df.
        assert (S : sqrt (D t) * sqrt (D t) = D t) by (apply sqrt_sqrt; lra). set (s := sqrt (D t)) in *. rewrite <- S.
        assert (Xb : (y - 1) * (sin t * sin t) = b t * b t - 1) by (rewrite Sb, T; ring).
        assert (K : 2 * cos t * (s * s) - sin t * (2 * (3 - l) * (sin t * cos t) + (- sin t * b t + cos t * ((y - 1) * (sin t * cos t) / b t) + (y - 1) * (sin t * cos t) / b t - sin t))
                    = (cos t + b t) * (b t + 1) * (1 + cos t) / b t).
        { replace (sin t * (2 * (3 - l) * (sin t * cos t) + (- sin t * b t + cos t * ((y - 1) * (sin t * cos t) / b t) + (y - 1) * (sin t * cos t) / b t - sin t)))
            with (2 * (3 - l) * (sin t * sin t) * cos t - (sin t * sin t) * (b t + 1) + (cos t + 1) * cos t * ((y - 1) * (sin t * sin t)) / b t) by (field; lra).
          rewrite Xb, S. unfold D. replace (sin t * sin t) with (1 - cos t * cos t) by (rewrite T; ring). field. lra. }
        replace ((cos t + b t) * (b t + 1) * (1 + cos t) / (b t * (s * s * s))) with ((cos t + b t) * (b t + 1) * (1 + cos t) / b t / (s * s * s)) by (field; lra).
        rewrite <- K. field. repeat split; lra.
    + apply (ex_derive_continuous df). unfold df. auto_derive.
      repeat split; try (eexists; eassumption); try lra. apply Rgt_not_eq. repeat apply Rmult_lt_0_compat; lra.
Qed.

Lemma complete_is_RF k : k * k < 1 ->
  complete_first_kind k = RF (sqrt (1 - k * k) / 4) ((1 - k * k + sqrt (1 - k * k)) / 4) ((1 + sqrt (1 - k * k)) / 4).
Proof.
  intros H. rewrite <- complete_RF by lra. unfold complete_first_kind, first_kind. apply RInt_ext. intros t _. f_equal. f_equal.
  pose proof (sin2_cos2 t) as E. unfold Rsqr in E. nra.
Qed.

(** ** Nearly equal arguments *)
Lemma inv_sqrt_near w : Rabs w <= 1 / 100 -> Rabs (/ sqrt (1 + w) - 1) <= 51 / 100 * Rabs w.
Proof.
  intros H. assert (B := proj1 (Rabs_le_between _ _) H). assert (P : 0 < sqrt (1 + w)) by (apply sqrt_lt_R0; lra). assert (S : sqrt (1 + w) * sqrt (1 + w) = 1 + w) by (apply sqrt_sqrt; lra).
  set (s := sqrt (1 + w)) in *. replace (/ s - 1) with (- w / (s * (1 + s))).
  2:{ replace w with (s * s - 1) by lra. field. lra. }
  assert (L : 99 / 100 <= s) by (apply Rnot_lt_le; intros C; nra).
  unfold Rdiv. rewrite Rabs_mult, Rabs_Ropp. rewrite Rmult_comm. apply Rmult_le_compat_r; [apply Rabs_pos|].
  assert (99 / 100 * (199 / 100) <= s * (1 + s)) by nra.
  rewrite Rabs_pos_eq by (left; apply Rinv_0_lt_compat; nra). apply Rle_trans with (/ (99 / 100 * (199 / 100))); [apply Rinv_le_contravar; nra|lra].
Qed.
Lemma hexagon X Y e : 0 <= e -> - e <= X <= e -> - e <= Y <= e -> - e <= X + Y <= e -> 0 <= X * X + X * Y + Y * Y <= e * e.
Proof.
  intros He HX HY HS. split; [pose proof (Rle_0_sqr (2 * X + Y)); pose proof (Rle_0_sqr Y); unfold Rsqr in *; lra|].
  assert (X2 : X * X <= e * e) by nra. assert (Y2 : Y * Y <= e * e) by nra. assert (S2 : (X + Y) * (X + Y) <= e * e) by nra.
  destruct (Rle_dec 0 (X * Y)); [lra|]. destruct (Rle_dec 0 (Y * (X + Y))); [|lra]. destruct (Rle_dec 0 (X * (X + Y))); [|lra]. 
  assert (0 <= (X * Y) * ((X + Y) * (X + Y))) by (replace (X * Y * ((X + Y) * (X + Y))) with (Y * (X + Y) * (X * (X + Y))) by ring; apply Rmult_le_pos; auto).
  destruct (Req_dec (X + Y) 0) as [E|N]; [replace Y with (- X) in * by lra; lra|].
  assert (0 < (X + Y) * (X + Y)) by (pose proof (Rle_0_sqr (X + Y)); unfold Rsqr in *; assert ((X + Y) * (X + Y) <> 0) by (apply Rmult_integral_contrapositive; auto); lra).
  assert (0 < - (X * Y) * ((X + Y) * (X + Y))) by (apply Rmult_lt_0_compat; lra). lra.
Qed.
Lemma RF_near X Y Z e : 0 <= e <= 1 / 100 -> Rabs X <= e -> Rabs Y <= e -> Rabs Z <= e -> X + Y + Z = 0 -> Rabs (RF (1 - X) (1 - Y) (1 - Z) - 1) <= e * e.
Proof.
  intros He HX HY HZ S. apply Rabs_le_between in HX. apply Rabs_le_between in HY. apply Rabs_le_between in HZ.
  assert (Ex : ex_RInt (rfI (1 - X) (1 - Y) (1 - Z)) 0 1) by (apply rfI_ex; lra).
  assert (E1 : RInt (fun _ : R => 1 - e * e) 0 1 = 1 - e * e) by (rewrite RInt_const; unfold scal; cbn; unfold mult; cbn; ring).
  assert (E2 : RInt (fun _ : R => 1 + e * e) 0 1 = 1 + e * e) by (rewrite RInt_const; unfold scal; cbn; unfold mult; cbn; ring).
  assert (P : forall u, 0 < u < 1 -> 1 - e * e <= rfI (1 - X) (1 - Y) (1 - Z) u <= 1 + e * e).
  { intros u Hu. unfold rfI. assert (Q1 : forall V, - e <= V <= e -> 0 < q (1 - V) u) by (intros V HV; apply q_pos; lra).
    rewrite <- !sqrt_mult by (try apply Rmult_le_pos; left; apply Q1; lra).
    set (w := (X * Y + Y * Z + Z * X) * (u * u * (u * u)) - X * Y * Z * (u * u * (u * u) * (u * u))).
    replace (q (1 - X) u * q (1 - Y) u * q (1 - Z) u) with (1 + w) by (unfold w, q; replace Z with (- X - Y) by lra; ring).
    assert (U : 0 <= u * u <= 1) by nra. set (v := u * u) in *.
    assert (A : - (e * e) <= X * Y + Y * Z + Z * X <= 0) by (replace Z with (- X - Y) by lra; split; [apply Ropp_le_cancel|]; assert (H := hexagon X Y e ltac:(lra) ltac:(lra) ltac:(lra) ltac:(lra)); lra).
    assert (B : - (e * e * e) <= X * Y * Z <= e * e * e).
    { assert (- (e * e) <= X * Y <= e * e) by nra. split; nra. }
    assert (V2 : 0 <= v * v <= 1) by nra. assert (V3 : 0 <= v * v * v <= 1) by nra.
    assert (W : Rabs w <= e * e + e * e * e). { unfold w. apply Rabs_le. split; nra. }
    assert (W' : Rabs w <= 101 / 100 * (e * e)) by nra.
    pose proof (inv_sqrt_near w ltac:(nra)) as N. apply Rabs_le_between in N. nra. }
  unfold RF. apply Rabs_le. split.
  - assert (RInt (fun _ : R => 1 - e * e) 0 1 <= RInt (rfI (1 - X) (1 - Y) (1 - Z)) 0 1) by (apply RInt_le; [lra|apply ex_RInt_const|auto|intros u Hu; apply P; auto]). lra.
  - assert (RInt (rfI (1 - X) (1 - Y) (1 - Z)) 0 1 <= RInt (fun _ : R => 1 + e * e) 0 1) by (apply RInt_le; [lra|auto|apply ex_RInt_const|intros u Hu; apply P; auto]). lra.
Qed.
Lemma RF_mean x y z e : let a := (x + y + z) / 3 in 0 < a -> 0 <= e <= 1 / 100 -> Rabs (x - a) <= e * a -> Rabs (y - a) <= e * a -> Rabs (z - a) <= e * a ->
  Rabs (RF x y z * sqrt a - 1) <= e * e.
Proof.
  intros a Ha He Hx Hy Hz.
  assert (D : forall v, Rabs (v - a) <= e * a -> Rabs (1 - v / a) <= e /\ v = a * (1 - (1 - v / a))).
  { intros v Hv. split; [|field; lra]. replace (1 - v / a) with (- (v - a) * / a) by (field; lra). rewrite Rabs_mult, Rabs_Ropp, (Rabs_pos_eq (/ a)) by (left; apply Rinv_0_lt_compat; auto).
    apply Rmult_le_reg_r with a; [auto|]. rewrite Rmult_assoc, Rinv_l by lra. lra. }
  destruct (D x Hx) as (Dx & Ex). destruct (D y Hy) as (Dy & Ey). destruct (D z Hz) as (Dz & Ez).
  rewrite Ex, Ey, Ez. pose proof (proj1 (Rabs_le_between _ _) Dx). pose proof (proj1 (Rabs_le_between _ _) Dy). pose proof (proj1 (Rabs_le_between _ _) Dz).
  rewrite RF_scale by lra. pose proof (sqrt_lt_R0 a Ha). replace (RF (1 - (1 - x / a)) (1 - (1 - y / a)) (1 - (1 - z / a)) / sqrt a * sqrt a) with (RF (1 - (1 - x / a)) (1 - (1 - y / a)) (1 - (1 - z / a))) by (field; lra).
  apply RF_near; auto. unfold a. field. unfold a in Ha. lra.
Qed.
