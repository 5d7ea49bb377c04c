(** Property theorems of the Bessel functions (C116 to C118). *)
From Coq Require Import ZArith Reals Lra Lia Bool.
From Flocq Require Import Core IEEE754.Binary IEEE754.Bits.
From Verif Require Import Base Arith Ext32 Bits32 Ffmath_Model Ffmath2_Model Ffmath3_Model Ffmath5_Model Ffmath_Spec Ffmath_Proofs2 Float32 FloatApp Ffmath_Proofs12 Ffmath_Proofs16 Ellint_Proofs3 Expint_Spec Bessel_Spec Bessel_Proofs Bessel_Proofs4 Bessel_Proofs5.
Open Scope R_scope.

(** ** C116: domain and values at zero.  [ext32] is the value of a float with the
    infinities as plus and minus 2^128 *)
Theorem C116_domain : forall nu x, is_nan 24 128 nu = true \/ is_nan 24 128 x = true \/ ext32 nu < 0 \/ ext32 x < 0 -> forall f, List.In f (cyl_bessel_i :: cyl_bessel_j :: cyl_bessel_k :: cyl_neumann :: nil)%list ->
  exists r, f nu x = Ok r /\ is_nan 24 128 r = true.
Proof.
  intros nu x H f I. exists limNan. split; [|reflexivity]. pose proof (cyl_bad_t nu x H) as B. cbn [List.In] in I. destruct I as [<- | [<- | [<- | [<- | []]]]]; unfold cyl_bessel_i, cyl_bessel_j, cyl_bessel_k, cyl_neumann; rewrite B; reflexivity.
Qed.
Print Assumptions C116_domain.
Theorem C116_spherical_domain : forall n x, is_nan 24 128 x = true \/ ext32 x < 0 -> exists r, sph_bessel n x = Ok r /\ sph_neumann n x = Ok r /\ is_nan 24 128 r = true.
Proof. intros n x H. exists limNan. unfold sph_bessel, sph_neumann. rewrite (sph_bad_t x H). repeat split; reflexivity. Qed.
Print Assumptions C116_spherical_domain.
(** zero, and everything positive up to the smallest normal number, which the code treats as zero *)
Theorem C116_at_zero : forall nu x, is_nan 24 128 nu = false -> 0 <= ext32 nu -> finite x -> 0 <= valR x <= bpow radix2 (-126) ->
  exists y, cyl_bessel_i nu x = Ok y /\ cyl_bessel_j nu x = Ok y /\ finite y /\
    (ext32 nu <= bpow radix2 (-126) -> valR y = 1) /\ (bpow radix2 (-126) < ext32 nu -> valR y = 0) /\
  cyl_bessel_k nu x = Ok (B754_infinity 24 128 false) /\ cyl_neumann nu x = Ok (B754_infinity 24 128 true).
Proof.
  intros nu x Nn Pn Fx Hx. pose proof (fin_nan x Fx) as Nx. assert (Ex : ext32 x = valR x) by (apply ext32_finite; exact Fx). assert (B : cyl_bad nu x = false) by (apply cyl_bad_f; auto; lra).
  assert (E : fisEqual0 (flit 0 1) x = true). { apply eq0_t; [exact Nx|]. rewrite Ex, Rabs_pos_eq; lra. }
  assert (G : b32_lt (flit 1000 1) x = false) by (apply gt1000_tiny; [exact Nx|lra]). destruct lit_1 as (F1 & V1). assert (Z : finite (flit 0 1) /\ valR (flit 0 1) = 0) by cst. destruct Z as (F0 & V0).
  exists (if fisEqual0 (flit 0 1) nu then flit 1 1 else flit 0 1). unfold cyl_bessel_i, cyl_bessel_j, cyl_bessel_k, cyl_neumann, cyl_bessel_ij_series, bessel_ik, bessel_jn. rewrite B, E, G.
  split; [destruct (b32_lt (b32_mult BinarySingleNaN.mode_NE x x) (b32_mult BinarySingleNaN.mode_NE (flit 10 1) (b32_plus BinarySingleNaN.mode_NE nu (flit 1 1)))), (fisEqual0 (flit 0 1) nu), (fisEqual0 (flit 1 1) x); reflexivity|].
  split; [destruct (b32_lt (b32_mult BinarySingleNaN.mode_NE x x) (b32_mult BinarySingleNaN.mode_NE (flit 10 1) (b32_plus BinarySingleNaN.mode_NE nu (flit 1 1)))), (fisEqual0 (flit 0 1) nu), (fisEqual0 (flit 1 1) nu); reflexivity|].
  split; [destruct (fisEqual0 (flit 0 1) nu); assumption|].
  split; [intros H; rewrite eq0_t; [exact V1|exact Nn|rewrite Rabs_pos_eq; lra]|].
  split; [intros H; rewrite eq0_f; [exact V0|exact Nn|rewrite Rabs_pos_eq; lra]|].
  split; [destruct (fisEqual0 (flit 0 1) nu), (fisEqual0 (flit 1 1) x)|destruct (fisEqual0 (flit 0 1) nu), (fisEqual0 (flit 1 1) nu)]; reflexivity.
Qed.
Print Assumptions C116_at_zero.
Theorem C116_spherical_at_zero : forall n x, finite x -> 0 <= valR x <= bpow radix2 (-126) ->
  exists y, sph_bessel n x = Ok y /\ finite y /\ (n = 0%Z -> valR y = 1) /\ (n <> 0%Z -> valR y = 0) /\ sph_neumann n x = Ok (B754_infinity 24 128 true).
Proof.
  intros n x Fx Hx. pose proof (fin_nan x Fx) as Nx. assert (Ex : ext32 x = valR x) by (apply ext32_finite; exact Fx). destruct lit_1 as (F1 & V1). assert (Z : finite (flit 0 1) /\ valR (flit 0 1) = 0) by cst. destruct Z as (F0 & V0).
  assert (E : fisEqual0 (flit 0 1) x = true). { apply eq0_t; [exact Nx|]. rewrite Ex, Rabs_pos_eq; lra. }
  exists (if (n =? 0)%Z then flit 1 1 else flit 0 1). unfold sph_bessel, sph_neumann. rewrite sph_bad_f, E by (auto; lra). split; [reflexivity|]. split; [destruct (n =? 0)%Z; assumption|].
  split; [intros ->; exact V1|]. split; [intros H; rewrite (proj2 (Z.eqb_neq n 0) H); exact V0|]. reflexivity.
Qed.
Print Assumptions C116_spherical_at_zero.
Example C116_nonvacuous : ext32 (flit (-1) 1) < 0 /\ finite (flit 0 1) /\ 0 <= valR (flit 0 1) <= bpow radix2 (-126) /\ 0 <= ext32 (flit 2 1).
Proof. destruct lit_m1 as (F & V). destruct lit_2 as (F2 & V2). assert (Z : finite (flit 0 1) /\ valR (flit 0 1) = 0) by cst. destruct Z as (F0 & V0). rewrite !ext32_finite by assumption. pose proof b126. repeat split; auto; lra. Qed.

(** ** C117: the conversions to an integer are undefined for large arguments *)
Theorem C117_modified_undefined : forall nu x, is_nan 24 128 nu = false -> 2 ^ 31 <= ext32 nu -> is_nan 24 128 x = false -> bpow radix2 (-126) < ext32 x -> cyl_bessel_k nu x = Ub.
Proof.
  intros nu x Nn Hn Nx Hx. pose proof b126 as Hb. unfold cyl_bessel_k. rewrite cyl_bad_f by (auto; lra). rewrite ik_ub by (auto; lra). reflexivity.
Qed.
Print Assumptions C117_modified_undefined.
Theorem C117_neumann_undefined : forall nu x, is_nan 24 128 nu = false -> is_nan 24 128 x = false -> 
  2 ^ 31 <= ext32 nu /\ bpow radix2 (-126) < ext32 x < 2 \/ 2 ^ 32 <= ext32 nu /\ 2 <= ext32 x <= 1000 -> cyl_neumann nu x = Ub.
Proof.
  intros nu x Nn Nx H. pose proof b126 as Hb. unfold cyl_neumann. rewrite cyl_bad_f by (auto; destruct H; lra). rewrite gt1000_f by (auto; destruct H; lra).
  destruct H as [(H1 & H2) | (H1 & H2)]; [rewrite jn_ub_small by (auto; lra)|rewrite jn_ub_mid by (auto; lra)]; reflexivity.
Qed.
Print Assumptions C117_neumann_undefined.
Theorem C117_spherical_undefined : forall n x, is_nan 24 128 x = false ->
  (2 ^ 31 <= n < 2 ^ 64)%Z /\ bpow radix2 (-126) < ext32 x < 2 \/ (0 <= n < 2 ^ 31)%Z /\ 2 ^ 33 <= ext32 x -> sph_bessel n x = Ub /\ sph_neumann n x = Ub.
Proof.
  intros n x Nx H. pose proof b126 as Hb. assert (P : bpow radix2 (-126) < ext32 x) by (destruct H; lra). unfold sph_bessel, sph_neumann. rewrite sph_bad_f by (auto; lra). rewrite eq0_f by (auto; rewrite Rabs_pos_eq; lra). unfold sph_bessel_jn. cbv zeta.
  destruct H as [(H1 & H2) | (H1 & H2)].
  - destruct (sph_nu n ltac:(lia)) as (N & V). rewrite jn_ub_small by (auto; lra). split; reflexivity.
  - destruct (sph_nu_small n ltac:(lia)) as (F & V). rewrite jn_ub_large by (auto; lra). split; reflexivity.
Qed.
Print Assumptions C117_spherical_undefined.
Example C117_nonvacuous : let x := flit 1 1 in is_nan 24 128 x = false /\ bpow radix2 (-126) < ext32 x < 2 /\ is_nan 24 128 (flit 4294967296 1) = false /\ 2 ^ 32 <= ext32 (flit 4294967296 1).
Proof. destruct lit_1 as (F & V). assert (Z : finite (flit 4294967296 1) /\ valR (flit 4294967296 1) = 4294967296) by cst. destruct Z as (F0 & V0). cbv zeta. rewrite !ext32_finite by assumption. pose proof b126. repeat split; try (apply fin_nan; assumption); lra. Qed.

(** ** C118: accuracy of the functions of the first kind of orders 0 and 1 for small arguments *)
Theorem C118_order_zero : forall nu x, finite nu -> valR nu = 0 -> finite x -> bpow radix2 (-125) <= valR x <= 315 / 100 ->
  exists j i, cyl_bessel_j nu x = Ok j /\ finite j /\ Rabs (valR j - bessel_J 0 (valR x)) <= / 32768 /\
              cyl_bessel_i nu x = Ok i /\ finite i /\ Rabs (valR i - bessel_I 0 (valR x)) <= / 32768.
Proof. intros nu x Fn Vn Fx Hx. destruct (J0_ok nu x Fn Vn Fx Hx) as (j & Ej & Fj & Vj). destruct (I0_ok nu x Fn Vn Fx Hx) as (i & Ei & Fi & Vi). exists j, i. auto 10. Qed.
Print Assumptions C118_order_zero.
Theorem C118_order_one : forall nu x, finite nu -> valR nu = 1 -> finite x -> bpow radix2 (-119) <= valR x <= 446 / 100 ->
  let e := valR x / 2 * (/ 20000 + Rabs (ln (valR x / 2)) / 100000) in
  exists j i, cyl_bessel_j nu x = Ok j /\ finite j /\ Rabs (valR j - bessel_J 1 (valR x)) <= e /\
              cyl_bessel_i nu x = Ok i /\ finite i /\ Rabs (valR i - bessel_I 1 (valR x)) <= e.
Proof. intros nu x Fn Vn Fx Hx e. destruct (J1_ok nu x Fn Vn Fx Hx) as (j & Ej & Fj & Vj). destruct (I1_ok nu x Fn Vn Fx Hx) as (i & Ei & Fi & Vi). exists j, i. auto 10. Qed.
Print Assumptions C118_order_one.
(** the functions of the specification are the Bessel functions: these derivatives give
    Bessel's equation, these values choose the solution that is finite at zero *)
Theorem C118_spec_equations : forall x,
  derivable_pt_lim (bessel_J 0) x (- bessel_J 1 x) /\ derivable_pt_lim (fun t => t * bessel_J 1 t) x (x * bessel_J 0 x) /\ bessel_J 0 0 = 1 /\
  derivable_pt_lim (bessel_I 0) x (bessel_I 1 x) /\ derivable_pt_lim (fun t => t * bessel_I 1 t) x (x * bessel_I 0 x) /\ bessel_I 0 0 = 1.
Proof. intros x. destruct at_zero as (A & B & _). split; [apply J0_der|]. split; [apply J1_der|]. split; [exact B|]. split; [apply I0_der|]. split; [apply I1_der|exact A]. Qed.
Print Assumptions C118_spec_equations.
(** the modified functions miss their values when the continued fraction replaces the series:
    2 percent at I_0(5) *)
Theorem C118_modified_first_refuted : exists r, cyl_bessel_i (flit 0 1) (flit 5 1) = Ok r /\ finite r /\ valR (flit 0 1) = 0 /\ valR (flit 5 1) = 5 /\ bessel_I 0 5 * (102 / 100) < valR r.
Proof.
  exists i05. split; [apply ob_ok; [vm_compute; reflexivity|vm_compute; discriminate]|]. destruct i05_R as (F & V). split; [exact F|]. assert (Z : finite (flit 0 1) /\ valR (flit 0 1) = 0) by cst. assert (Z5 : finite (flit 5 1) /\ valR (flit 5 1) = 5) by cst. pose proof I0_5. split; [apply Z|]. split; [apply Z5|]. lra.
Qed.
Print Assumptions C118_modified_first_refuted.
(** and K_0(2) is off by more than half a percent *)
Theorem C118_modified_second_refuted : exists r, cyl_bessel_k (flit 0 1) (flit 2 1) = Ok r /\ finite r /\ valR (flit 2 1) = 2 /\ bessel_K0 euler_gamma 2 * (1005 / 1000) < valR r.
Proof.
  exists (ofU 1038901966). split; [apply ob_ok; [vm_compute; reflexivity|vm_compute; discriminate]|]. assert (Z : finite (ofU 1038901966) /\ valR (ofU 1038901966) = 7745895 / 67108864) by cst. destruct Z as (F & V). split; [exact F|]. pose proof lit_2 as (_ & V2). pose proof K0_2. split; [exact V2|]. rewrite V. lra.
Qed.
Print Assumptions C118_modified_second_refuted.
Example C118_nonvacuous : finite (flit 3 1) /\ bpow radix2 (-125) <= valR (flit 3 1) <= 315 / 100 /\ bpow radix2 (-119) <= valR (flit 3 1) <= 446 / 100.
Proof.
  assert (Z : finite (flit 3 1) /\ valR (flit 3 1) = 3) by cst. destruct Z as (F & V). split; [exact F|]. rewrite V.
  assert (bpow radix2 (-125) <= 1) by (change 1 with (bpow radix2 0); apply bpow_le; lia). assert (bpow radix2 (-119) <= 1) by (change 1 with (bpow radix2 0); apply bpow_le; lia). lra.
Qed.
