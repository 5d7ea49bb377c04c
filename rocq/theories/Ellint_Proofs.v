(** Carlson's symmetric integral of the first kind over the reals: the
    duplication theorem, homogeneity and monotonicity. *)
From Coq Require Import Reals Lra Lia Psatz.
From Coquelicot Require Import Coquelicot.
Open Scope R_scope.

(** [auto_derive] unfolds subtraction *)
Ltac mm := repeat match goal with |- context [?a + - ?b] => change (a + - b) with (a - b) end.

(** With t = ( 1 - u^2 )/u^2 this is Carlson's integral over t from 0 to infinity. *)
Definition q (x u : R) : R := 1 - u * u + x * (u * u).
Definition rfI (x y z u : R) : R := / (sqrt (q x u) * sqrt (q y u) * sqrt (q z u)).
Definition RF (x y z : R) : R := RInt (rfI x y z) 0 1.

Lemma q_pos x u : 0 < x -> 0 <= u <= 1 -> 0 < q x u.
Proof.
  intros Hx Hu. unfold q. assert (0 <= u * u <= 1) by nra. destruct (Req_dec (u * u) 0) as [E|N]; [rewrite E; lra|].
  assert (0 < x * (u * u)) by (apply Rmult_lt_0_compat; lra). lra.
Qed.
Lemma rfI_cont x y z u : 0 < q x u -> 0 < q y u -> 0 < q z u -> continuous (rfI x y z) u.
Proof.
  intros Hx Hy Hz. apply (ex_derive_continuous (rfI x y z)). unfold rfI, q in *. auto_derive. mm. repeat split; try lra.
  apply Rgt_not_eq. repeat apply Rmult_lt_0_compat; apply sqrt_lt_R0; lra.
Qed.
Lemma in01 u : Rmin 0 1 <= u <= Rmax 0 1 -> 0 <= u <= 1.
Proof. rewrite Rmin_left, Rmax_right by lra. auto. Qed.
Lemma in01' u : Rmin 0 1 < u < Rmax 0 1 -> 0 <= u <= 1.
Proof. rewrite Rmin_left, Rmax_right by lra. lra. Qed.
Lemma rfI_ex x y z : 0 < x -> 0 < y -> 0 < z -> ex_RInt (rfI x y z) 0 1.
Proof. intros. apply (ex_RInt_continuous (rfI x y z)). intros u Hu. apply in01 in Hu. apply rfI_cont; apply q_pos; auto. Qed.

(** ** Homogeneity *)
Lemma RF_scale c x y z : 0 < c -> 0 < x -> 0 < y -> 0 < z -> RF (c * x) (c * y) (c * z) = RF x y z / sqrt c.
Proof.
  intros Hc Hx Hy Hz.
  set (E := fun u : R => u * u + c * (1 - u * u)).
  assert (HE : forall u, 0 <= u <= 1 -> 0 < E u).
  { intros u Hu. unfold E. assert (0 <= u * u <= 1) by nra. destruct (Req_dec (u * u) 1) as [Q|N]; [rewrite Q; lra|].
    assert (0 < c * (1 - u * u)) by (apply Rmult_lt_0_compat; lra). lra. }
  set (f := fun u : R => u / sqrt (E u)). set (df := fun u : R => c / (E u * sqrt (E u))).
  assert (Q : forall w u, 0 < w -> 0 <= u <= 1 -> q (c * w) (f u) = c * q w u / E u).
  { intros w u Hw Hu. pose proof (HE u Hu). unfold q, f. pose proof (sqrt_lt_R0 _ H).
    replace (u / sqrt (E u) * (u / sqrt (E u))) with (u * u / (sqrt (E u) * sqrt (E u))) by (field; lra).
    rewrite sqrt_sqrt by lra. unfold E in *. field. lra. }
  assert (Qp : forall w u, 0 < w -> 0 <= u <= 1 -> 0 < q (c * w) (f u)).
  { intros w u Hw Hu. rewrite Q by auto. apply Rdiv_lt_0_compat; [|auto]. apply Rmult_lt_0_compat; [auto|apply q_pos; auto]. }
  assert (F0 : f 0 = 0) by (unfold f; lra).
  assert (F1 : f 1 = 1). { unfold f, E. replace (1 * 1 + c * (1 - 1 * 1)) with 1 by ring. rewrite sqrt_1. field. }
  unfold RF. replace (RInt (rfI (c * x) (c * y) (c * z)) 0 1) with (RInt (rfI (c * x) (c * y) (c * z)) (f 0) (f 1)) by (rewrite F0, F1; reflexivity).
  rewrite <- (RInt_comp (rfI (c * x) (c * y) (c * z)) f df 0 1).
  - transitivity (RInt (fun u => scal (/ sqrt c) (rfI x y z u)) 0 1).
    + apply RInt_ext. intros u Hu. apply in01' in Hu. unfold scal; cbn; unfold mult; cbn. unfold rfI. rewrite !Q by auto.
      pose proof (HE u Hu) as He. pose proof (sqrt_lt_R0 _ He). pose proof (sqrt_lt_R0 _ Hc).
      assert (W : forall w, 0 < w -> sqrt (c * q w u / E u) = sqrt c * sqrt (q w u) / sqrt (E u)).
      { intros w Hw. pose proof (q_pos w u Hw Hu). rewrite sqrt_div by (try lra; apply Rmult_le_pos; lra). rewrite sqrt_mult by lra. reflexivity. }
      rewrite !W by auto. pose proof (sqrt_lt_R0 _ (q_pos x u Hx Hu)). pose proof (sqrt_lt_R0 _ (q_pos y u Hy Hu)). pose proof (sqrt_lt_R0 _ (q_pos z u Hz Hu)).
      unfold df. replace (E u) with (sqrt (E u) * sqrt (E u)) at 1 by (apply sqrt_sqrt; lra). replace c with (sqrt c * sqrt c) at 1 by (apply sqrt_sqrt; lra).
      field. repeat split; lra.
    + etransitivity; [apply (RInt_scal (V := R_CompleteNormedModule) (rfI x y z) 0 1 (/ sqrt c)); apply rfI_ex; auto|]. unfold scal; cbn; unfold mult; cbn. field. apply Rgt_not_eq, sqrt_lt_R0; auto.
  - intros u Hu. apply in01 in Hu. apply rfI_cont; apply Qp; auto.
  - intros u Hu. apply in01 in Hu. pose proof (HE u Hu) as He. pose proof (sqrt_lt_R0 _ He) as Hs. split.
    + unfold f, df. assert (S : sqrt (E u) * sqrt (E u) = E u) by (apply sqrt_sqrt; lra). unfold E in *. auto_derive; mm; [repeat split; lra|].
      set (s := sqrt _) in *. rewrite <- S. replace c with (c + (s * s - (u * u + c * (1 - u * u)))) at 2 by lra. field. lra.
    + apply (ex_derive_continuous df). unfold df, E in *. auto_derive. mm. split; [lra|]. split; [|auto]. apply Rgt_not_eq, Rmult_lt_0_compat; lra.
Qed.

(** ** Monotonicity *)
Lemma q_le x x' u : x <= x' -> q x u <= q x' u.
Proof. intros H. unfold q. apply Rplus_le_compat_l, Rmult_le_compat_r; [nra|auto]. Qed.
Lemma RF_mono x y z x' y' z' : 0 < x <= x' -> 0 < y <= y' -> 0 < z <= z' -> RF x' y' z' <= RF x y z.
Proof.
  intros Hx Hy Hz. unfold RF. apply RInt_le; [lra|apply rfI_ex; lra|apply rfI_ex; lra|].
  intros u Hu. assert (Hu' : 0 <= u <= 1) by lra. unfold rfI.
  pose proof (sqrt_lt_R0 _ (q_pos x u ltac:(lra) Hu')). pose proof (sqrt_lt_R0 _ (q_pos y u ltac:(lra) Hu')). pose proof (sqrt_lt_R0 _ (q_pos z u ltac:(lra) Hu')).
  apply Rinv_le_contravar; [repeat apply Rmult_lt_0_compat; auto|].
  apply Rmult_le_compat; [apply Rmult_le_pos; lra|lra| |apply sqrt_le_1_alt, q_le; lra].
  apply Rmult_le_compat; try lra; apply sqrt_le_1_alt, q_le; lra.
Qed.
Lemma RF_pos x y z : 0 < x -> 0 < y -> 0 < z -> 0 < RF x y z.
Proof.
  intros. apply RInt_gt_0; [lra| |].
  - intros u Hu. assert (Hu' : 0 <= u <= 1) by lra. unfold rfI. apply Rinv_0_lt_compat. repeat apply Rmult_lt_0_compat; apply sqrt_lt_R0, q_pos; auto.
  - intros u Hu. apply rfI_cont; apply q_pos; auto.
Qed.
(** Arguments known up to a factor give the integral up to the root of the factor. *)
Lemma RF_pert x y z x' y' z' d : 0 < x -> 0 < y -> 0 < z -> 0 <= d <= 1 / 2 ->
  Rabs (x' - x) <= d * x -> Rabs (y' - y) <= d * y -> Rabs (z' - z) <= d * z -> Rabs (RF x' y' z' - RF x y z) <= d * RF x y z.
Proof.
  intros Hx Hy Hz Hd Dx Dy Dz. apply Rabs_le_between in Dx. apply Rabs_le_between in Dy. apply Rabs_le_between in Dz.
  pose proof (RF_pos x y z Hx Hy Hz) as P.
  assert (L : RF ((1 + d) * x) ((1 + d) * y) ((1 + d) * z) <= RF x' y' z') by (apply RF_mono; nra).
  assert (U : RF x' y' z' <= RF ((1 - d) * x) ((1 - d) * y) ((1 - d) * z)) by (apply RF_mono; nra).
  rewrite RF_scale in L, U by lra. 
  assert (A : 1 - d <= / sqrt (1 + d)).
  { apply Rmult_le_reg_r with (sqrt (1 + d)); [apply sqrt_lt_R0; lra|]. rewrite Rinv_l by (apply Rgt_not_eq, sqrt_lt_R0; lra).
    apply Rle_trans with ((1 - d) * (1 + d)); [|nra]. apply Rmult_le_compat_l; [lra|]. rewrite <- (sqrt_square (1 + d)) at 2 by lra. apply sqrt_le_1_alt. nra. }
  assert (B : / sqrt (1 - d) <= 1 + d).
  { pose proof (sqrt_lt_R0 (1 - d) ltac:(lra)) as S. apply Rmult_le_reg_r with (sqrt (1 - d)); [auto|]. rewrite Rinv_l by lra.
    assert (T : 1 <= ((1 + d) * sqrt (1 - d)) * ((1 + d) * sqrt (1 - d))).
    { replace ((1 + d) * sqrt (1 - d) * ((1 + d) * sqrt (1 - d))) with ((1 + d) * (1 + d) * (sqrt (1 - d) * sqrt (1 - d))) by ring. rewrite sqrt_sqrt by lra. nra. }
    assert (0 <= (1 + d) * sqrt (1 - d)) by (apply Rmult_le_pos; lra). nra. }
  unfold Rdiv in L, U. apply Rabs_le. split; nra.
Qed.

(** ** Duplication *)
Definition lam (x y z : R) : R := sqrt x * sqrt y + sqrt y * sqrt z + sqrt z * sqrt x.
Lemma lam_pos x y z : 0 < x -> 0 < y -> 0 < z -> 0 < lam x y z.
Proof.
  intros Hx Hy Hz. pose proof (sqrt_lt_R0 _ Hx). pose proof (sqrt_lt_R0 _ Hy). pose proof (sqrt_lt_R0 _ Hz). unfold lam. nra.
Qed.
Lemma sqrt_der x u : 0 < q x u -> is_derive (fun u => sqrt (q x u)) u ((x - 1) * u / sqrt (q x u)).
Proof. intros H. pose proof (sqrt_lt_R0 _ H). unfold q in *. auto_derive; mm; [repeat split; lra|]. field. lra. Qed.

Lemma RF_dup x y z : 0 < x -> 0 < y -> 0 < z ->
  RF x y z = RF ((x + lam x y z) / 4) ((y + lam x y z) / 4) ((z + lam x y z) / 4).
Proof.
  intros Hx Hy Hz. set (l := lam x y z). pose proof (lam_pos x y z Hx Hy Hz) as Hl. fold l in Hl.
  set (a := fun u => sqrt (q x u)). set (b := fun u => sqrt (q y u)). set (c := fun u => sqrt (q z u)).
  set (D := fun u => 1 + (3 - l) * (u * u) + (a u * b u + b u * c u + c u * a u)).
  assert (Pa : forall u, 0 <= u <= 1 -> 0 < a u) by (intros; apply sqrt_lt_R0, q_pos; auto).
  assert (Pb : forall u, 0 <= u <= 1 -> 0 < b u) by (intros; apply sqrt_lt_R0, q_pos; auto).
  assert (Pc : forall u, 0 <= u <= 1 -> 0 < c u) by (intros; apply sqrt_lt_R0, q_pos; auto).
  assert (Sa : forall u, 0 <= u <= 1 -> a u * a u = q x u) by (intros u Hu; apply sqrt_sqrt; left; apply q_pos; auto).
  assert (Sb : forall u, 0 <= u <= 1 -> b u * b u = q y u) by (intros u Hu; apply sqrt_sqrt; left; apply q_pos; auto).
  assert (Sc : forall u, 0 <= u <= 1 -> c u * c u = q z u) by (intros u Hu; apply sqrt_sqrt; left; apply q_pos; auto).
  assert (G : forall w u, 0 < w -> 0 <= u <= 1 -> sqrt w * u <= sqrt (q w u)).
  { intros w u Hw Hu. rewrite <- (sqrt_square u) at 1 by lra. rewrite <- sqrt_mult by nra. apply sqrt_le_1_alt. unfold q. nra. }
  assert (HD : forall u, 0 <= u <= 1 -> 0 < D u).
  { intros u Hu. pose proof (G x u Hx Hu) as Ga. pose proof (G y u Hy Hu) as Gb. pose proof (G z u Hz Hu) as Gc. fold (a u) in Ga. fold (b u) in Gb. fold (c u) in Gc.
    pose proof (sqrt_lt_R0 _ Hx). pose proof (sqrt_lt_R0 _ Hy). pose proof (sqrt_lt_R0 _ Hz).
    assert (M : forall p p' r r', 0 < p -> 0 < p' -> p * u <= r -> p' * u <= r' -> p * p' * (u * u) <= r * r').
    { intros p p' r r' A1 A2 A3 A4. replace (p * p' * (u * u)) with ((p * u) * (p' * u)) by ring. apply Rmult_le_compat; auto; apply Rmult_le_pos; lra. }
    pose proof (M _ _ _ _ H H0 Ga Gb). pose proof (M _ _ _ _ H0 H1 Gb Gc). pose proof (M _ _ _ _ H1 H Gc Ga).
    unfold D, l, lam. nra. }
  set (f := fun u => 2 * u / sqrt (D u)).
  set (df := fun u => (a u + b u) * (b u + c u) * (c u + a u) / (a u * b u * c u * (D u * sqrt (D u)))).
  assert (Q : forall w u, 0 <= u <= 1 -> q ((w + l) / 4) (f u) = (q w u + (a u * b u + b u * c u + c u * a u)) / D u).
  { intros w u Hu. pose proof (HD u Hu) as H. pose proof (sqrt_lt_R0 _ H). unfold q at 1, f.
    replace (2 * u / sqrt (D u) * (2 * u / sqrt (D u))) with (4 * (u * u) / (sqrt (D u) * sqrt (D u))) by (field; lra).
    rewrite sqrt_sqrt by lra. replace (1 - 4 * (u * u) / D u + (w + l) / 4 * (4 * (u * u) / D u)) with ((D u - 4 * (u * u) + (w + l) * (u * u)) / D u) by (field; lra).
    f_equal. unfold D, q. ring. }
  assert (Qx : forall u, 0 <= u <= 1 -> q ((x + l) / 4) (f u) = (a u + b u) * (c u + a u) / D u) by (intros u Hu; rewrite Q by auto; rewrite <- Sa by auto; f_equal; ring).
  assert (Qy : forall u, 0 <= u <= 1 -> q ((y + l) / 4) (f u) = (a u + b u) * (b u + c u) / D u) by (intros u Hu; rewrite Q by auto; rewrite <- Sb by auto; f_equal; ring).
  assert (Qz : forall u, 0 <= u <= 1 -> q ((z + l) / 4) (f u) = (b u + c u) * (c u + a u) / D u) by (intros u Hu; rewrite Q by auto; rewrite <- Sc by auto; f_equal; ring).
  assert (F0 : f 0 = 0) by (unfold f; lra).
  assert (F1 : f 1 = 1).
  { unfold f, D, a, b, c, q. replace (1 - 1 * 1 + x * (1 * 1)) with x by ring. replace (1 - 1 * 1 + y * (1 * 1)) with y by ring. replace (1 - 1 * 1 + z * (1 * 1)) with z by ring.
    fold (lam x y z). fold l. replace (1 + (3 - l) * (1 * 1) + l) with (2 * 2) by ring. rewrite sqrt_square by lra. field. }
  unfold RF at 2. replace (RInt (rfI ((x + l) / 4) ((y + l) / 4) ((z + l) / 4)) 0 1) with (RInt (rfI ((x + l) / 4) ((y + l) / 4) ((z + l) / 4)) (f 0) (f 1)) by (rewrite F0, F1; reflexivity).
  rewrite <- (RInt_comp (rfI ((x + l) / 4) ((y + l) / 4) ((z + l) / 4)) f df 0 1).
  - unfold RF. apply RInt_ext. intros u Hu. apply in01' in Hu. unfold scal; cbn; unfold mult; cbn. unfold rfI. rewrite Qx, Qy, Qz by auto.
    fold (a u) (b u) (c u). pose proof (Pa u Hu). pose proof (Pb u Hu). pose proof (Pc u Hu). pose proof (HD u Hu) as He. pose proof (sqrt_lt_R0 _ He).
    assert (W : sqrt ((a u + b u) * (c u + a u) / D u) * sqrt ((a u + b u) * (b u + c u) / D u) * sqrt ((b u + c u) * (c u + a u) / D u)
                = (a u + b u) * (b u + c u) * (c u + a u) / (D u * sqrt (D u))).
    { assert (0 < a u + b u) by lra. assert (0 < b u + c u) by lra. assert (0 < c u + a u) by lra.
      rewrite !sqrt_div by (auto; apply Rmult_le_pos; lra). rewrite !sqrt_mult by lra.
      set (p := sqrt (a u + b u)). set (r := sqrt (b u + c u)). set (t := sqrt (c u + a u)).
      replace (a u + b u) with (p * p) by (apply sqrt_sqrt; lra). replace (b u + c u) with (r * r) by (apply sqrt_sqrt; lra). replace (c u + a u) with (t * t) by (apply sqrt_sqrt; lra).
      replace (D u) with (sqrt (D u) * sqrt (D u)) at 4 by (apply sqrt_sqrt; lra). field. lra. }
    rewrite W. unfold df. field. repeat split; try lra.
  - intros u Hu. apply in01 in Hu. pose proof (Pa u Hu). pose proof (Pb u Hu). pose proof (Pc u Hu). pose proof (HD u Hu).
    apply rfI_cont; rewrite ?Qx, ?Qy, ?Qz by auto; (apply Rdiv_lt_0_compat; [apply Rmult_lt_0_compat; lra|auto]).
  - intros u Hu. apply in01 in Hu. pose proof (Pa u Hu). pose proof (Pb u Hu). pose proof (Pc u Hu). pose proof (HD u Hu) as He. pose proof (sqrt_lt_R0 _ He) as Hs.
    pose proof (sqrt_der x u (q_pos x u Hx Hu)) as Da. pose proof (sqrt_der y u (q_pos y u Hy Hu)) as Db. pose proof (sqrt_der z u (q_pos z u Hz Hu)) as Dc.
    change (is_derive a u ((x - 1) * u / a u)) in Da. change (is_derive b u ((y - 1) * u / b u)) in Db. change (is_derive c u ((z - 1) * u / c u)) in Dc.
    assert (DD : is_derive D u (2 * (3 - l) * u + ((x - 1) * u / a u * b u + a u * ((y - 1) * u / b u) + ((y - 1) * u / b u * c u + b u * ((z - 1) * u / c u)) + ((z - 1) * u / c u * a u + c u * ((x - 1) * u / a u))))).
    { unfold D. auto_derive.
      - repeat split; try (eexists; eassumption); auto.
      - change (Derive (fun x => a x) u) with (Derive a u). change (Derive (fun x => b x) u) with (Derive b u). change (Derive (fun x => c x) u) with (Derive c u).
        rewrite (is_derive_unique _ _ _ Da), (is_derive_unique _ _ _ Db), (is_derive_unique _ _ _ Dc). field. repeat split; lra. }
    split.
    + unfold f. auto_derive.
      * repeat split; try lra. eexists; eassumption.
      * change (Derive (fun x => D x) u) with (Derive D u). rewrite (is_derive_unique _ _ _ DD). unfold df. 
        assert (S : sqrt (D u) * sqrt (D u) = D u) by (apply sqrt_sqrt; lra). set (s := sqrt (D u)) in *. rewrite <- S.
        assert (Xa : (x - 1) * (u * u) = a u * a u - 1) by (rewrite Sa by auto; unfold q; ring).
        assert (Xb : (y - 1) * (u * u) = b u * b u - 1) by (rewrite Sb by auto; unfold q; ring).
        assert (Xc : (z - 1) * (u * u) = c u * c u - 1) by (rewrite Sc by auto; unfold q; ring).
        assert (K : 2 * (s * s) - u * (2 * (3 - l) * u + ((x - 1) * u / a u * b u + a u * ((y - 1) * u / b u) + ((y - 1) * u / b u * c u + b u * ((z - 1) * u / c u)) + ((z - 1) * u / c u * a u + c u * ((x - 1) * u / a u))))
                    = (a u + b u) * (b u + c u) * (c u + a u) / (a u * b u * c u)).
        { replace (u * (2 * (3 - l) * u + ((x - 1) * u / a u * b u + a u * ((y - 1) * u / b u) + ((y - 1) * u / b u * c u + b u * ((z - 1) * u / c u)) + ((z - 1) * u / c u * a u + c u * ((x - 1) * u / a u)))))
            with (2 * (3 - l) * (u * u) + (((x - 1) * (u * u)) / a u * b u + a u * (((y - 1) * (u * u)) / b u) + (((y - 1) * (u * u)) / b u * c u + b u * (((z - 1) * (u * u)) / c u)) + (((z - 1) * (u * u)) / c u * a u + c u * (((x - 1) * (u * u)) / a u)))) by (field; repeat split; lra).
          rewrite Xa, Xb, Xc, S. unfold D. field. repeat split; lra. }
        replace ((a u + b u) * (b u + c u) * (c u + a u) / (a u * b u * c u * (s * s * s))) with ((a u + b u) * (b u + c u) * (c u + a u) / (a u * b u * c u) / (s * s * s)) by (field; repeat split; lra).
        rewrite <- K. field. repeat split; lra.
    + apply (ex_derive_continuous df). unfold df. auto_derive.
      repeat split; try (eexists; eassumption); try lra. apply Rgt_not_eq. repeat apply Rmult_lt_0_compat; lra.
Qed.
