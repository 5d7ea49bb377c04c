(** Bounds of PI and of sin, cos by polynomials. *)
From Coq Require Import ZArith Reals Lra Lia List Bool Machin.
From Coquelicot Require Import Coquelicot.
From Verif Require Import PolyBound.
Import ListNotations.
Open Scope R_scope.

Definition PIlo : R := 31415926 / 10000000.
Definition PIhi : R := 31415927 / 10000000.
Lemma PI_bounds : PIlo <= PI <= PIhi.
Proof.
  pose proof (PI_2_3_7_ineq 3) as H. unfold tg_alt, PI_2_3_7_tg, Ratan_seq in H. cbn [sum_f_R0 Nat.mul Nat.add pow] in H.
  rewrite ?INR_IZR_INZ in H. cbn [Z.of_nat Pos.of_succ_nat Pos.succ] in H. unfold PIlo, PIhi. lra.
Qed.

Lemma is_derive_sin x : is_derive sin x (cos x). Proof. auto_derive; auto. ring. Qed.
Lemma is_derive_cos x : is_derive cos x (- sin x). Proof. auto_derive; auto. ring. Qed.
Lemma sin_lip x y : Rabs (sin x - sin y) <= Rabs (x - y).
Proof.
  destruct (MVT_gen sin y x cos) as (c & _ & E); [intros; apply is_derive_sin|intros z _; apply continuity_sin|].
  rewrite E, Rabs_mult. pose proof (COS_bound c). assert (Rabs (cos c) <= 1) by (apply Rabs_le; lra). pose proof (Rabs_pos (x - y)). nra.
Qed.
Lemma cos_lip x y : Rabs (cos x - cos y) <= Rabs (x - y).
Proof. rewrite !cos_sin. eapply Rle_trans; [apply sin_lip|]. right. f_equal. ring. Qed.
Lemma sin_periodZ x k : sin (x + 2 * IZR k * PI) = sin x.
Proof.
  destruct (Z_le_dec 0 k) as [L|L].
  - rewrite <- (Z2Nat.id k) by auto. rewrite <- INR_IZR_INZ. apply sin_period.
  - rewrite <- (sin_period (x + 2 * IZR k * PI) (Z.to_nat (- k))). f_equal. rewrite INR_IZR_INZ, Z2Nat.id, opp_IZR by lia. ring.
Qed.

(** cos on [-2,2], by its Taylor polynomial of degree 12 *)
Lemma cos_taylor z : -2 <= z <= 2 ->
  1 - z^2/2 + z^4/24 - z^6/720 + z^8/40320 - z^10/3628800 <= cos z <= 1 - z^2/2 + z^4/24 - z^6/720 + z^8/40320 - z^10/3628800 + z^12/479001600.
Proof.
  intros H. destruct (pre_cos_bound z 2) as (L & U); [lra|lra|].
  revert L U. cbn [Nat.add Nat.mul]. unfold cos_approx, cos_term. cbn [sum_f_R0 Nat.mul Nat.add]. destruct facts as (E0 & _ & E2 & _ & E4 & _ & E6 & _ & E8 & _ & E10 & _ & E12 & _). rewrite E0, E2, E4, E6, E8, E10, E12. cbn [pow]. lra.
Qed.

(** the quartic of sin on a half turn *)
Definition sinA : R := 15032933 / 4194304.
Definition sinB : R := 13018983 / 4194304.
Definition sin_q (s : R) : R := s * (sinA * s + sinB).
Definition sinP : list Z := [-528059899806976318359375000000000000000000000000000000000000000000; -1373888528260727816162109375000000000000000000000000000000000000000000000; 16817975665391800580659047155362500000000000000000000000000000000000000000; -47318369528298035965288242733647579479129788350000000000000000000000000000; 8339528075287090909475928131674607889604359449432473819322250000000000000; -914531557631343243871062962086475955327466949188263064978064380157257849]%Z.
Lemma sinP_ok v : pe sinP (v * v) = 35437500000000000000000000000000000000000000000000000000000000000000000000 * (1 - (PIlo * v)^2/2 + (PIlo * v)^4/24 - (PIlo * v)^6/720 + (PIlo * v)^8/40320 - (PIlo * v)^10/3628800 - sin_q (/ 4 - v * v)).
Proof. unfold sinP, sin_q, sinA, sinB, PIlo. cbn [pe]. field. Qed.
Lemma sin_quartic r : 0 <= r <= 1 -> Rabs (sin (PI * r) - sin_q (r * (1 - r))) <= 92 / 100000.
Proof.
  intros H. set (v := r - / 2). assert (Hv : - / 2 <= v <= / 2) by (unfold v; lra). pose proof PI_bounds as P. unfold PIhi in P.
  assert (E1 : sin (PI * r) = cos (PI * v)). { rewrite cos_sin. replace (PI / 2 + PI * v) with (PI * r) by (unfold v; field). reflexivity. }
  assert (E2 : Rabs (cos (PI * v) - cos (PIlo * v)) <= 1 / 10000000).
  { eapply Rle_trans; [apply cos_lip|]. apply Rabs_le. unfold PIlo in *. nra. }
  assert (W : 0 <= v * v <= / 4) by nra.
  assert (Bz : -2 <= PIlo * v <= 2) by (unfold PIlo; lra). pose proof (cos_taylor _ Bz) as T.
  assert (R12 : 0 <= (PIlo * v) ^ 12 / 479001600 <= 5 / 10000000).
  { replace ((PIlo * v) ^ 12) with (PIlo ^ 12 * (v * v) ^ 6) by ring. pose proof (pow_incr (v * v) (/ 4) 6 W) as Q. assert (0 <= (v * v) ^ 6) by (apply pow_le; apply W). set (k := (v * v) ^ 6) in *. clearbody k. unfold PIlo. cbn [pow] in Q |- *. lra. }
  pose proof (sinP_ok v) as E3. assert (C : Rabs (pe sinP (v * v)) <= IZR 32577693750000000000000000000000000000000000000000000000000000000000000).
  { apply check_ok with (n := 14%nat) (s := 65536%Z) (a := 0%Z) (b := 16384%Z); [discriminate|vm_compute; reflexivity|lra]. }
  rewrite E3 in C. replace (/ 4 - v * v) with (r * (1 - r)) in C by (unfold v; field). rewrite E1. apply Rabs_le_between in C. apply Rabs_le_between in E2. apply Rabs_le. lra.
Qed.

(** atan on [-1,1], by the odd polynomial whose derivative is (1 - T6(2 w^2 - 1) / 19601) / (1 + w^2) *)
Definition atD : list Z := [19600; -19528; 18688; -15104; 8192; -2048]%Z.
Definition atan_d (w : R) : R := pe atD (w * w) / 19601.
Definition atan_p (w : R) : R := w * ((19600 / 19601) * (w * w) ^ 0 + (- (19528 / 58803)) * (w * w) ^ 1 + (18688 / 98005) * (w * w) ^ 2 + (- (15104 / 137207)) * (w * w) ^ 3 + (8192 / 176409) * (w * w) ^ 4 + (- (2048 / 215611)) * (w * w) ^ 5).
Lemma atan_p_d w : is_derive atan_p w (atan_d w).
Proof. unfold atan_p, atan_d, atD. auto_derive; auto. cbn [pe]. field. Qed.
Lemma atan_d_ok w : -1 <= w <= 1 -> Rabs (/ (1 + w * w) - atan_d w) <= 6 / 100000.
Proof.
  intros H. assert (W : 0 <= w * w <= 1) by nra. assert (C : Rabs (pe [100; -7200; 84000; -358400; 691200; -614400; 204800; 0]%Z (w * w)) <= IZR 101).
  { apply check_ok with (n := 12%nat) (s := 1024%Z) (a := 0%Z) (b := 1024%Z); [discriminate|vm_compute; reflexivity|lra]. }
  assert (E : 1 - (1 + w * w) * atan_d w = pe [100; -7200; 84000; -358400; 691200; -614400; 204800; 0]%Z (w * w) / 1960100) by (unfold atan_d, atD; cbn [pe]; field).
  replace (/ (1 + w * w) - atan_d w) with ((1 - (1 + w * w) * atan_d w) * / (1 + w * w)) by (field; lra). rewrite E, Rabs_mult.
  assert (I1 : 0 < / (1 + w * w) <= 1). { split; [apply Rinv_0_lt_compat; lra|]. rewrite <- Rinv_1. apply Rinv_le_contravar; lra. }
  rewrite (Rabs_pos_eq (/ _)) by lra. unfold Rdiv. rewrite Rabs_mult, (Rabs_pos_eq (/ 1960100)) by lra. pose proof (Rabs_pos (pe [100; -7200; 84000; -358400; 691200; -614400; 204800; 0]%Z (w * w))). nra.
Qed.
Lemma atan_p_ok w : -1 <= w <= 1 -> Rabs (atan w - atan_p w) <= 6 / 100000.
Proof.
  intros H. set (h := fun t => atan t - atan_p t). assert (Dh : forall t, is_derive h t (/ (1 + t * t) - atan_d t)).
  { intros t. unfold h. apply (is_derive_minus (V := R_NormedModule)); [|apply atan_p_d]. auto_derive; auto. replace (t * (t * 1)) with (t * t) by ring. field. nra. }
  destruct (MVT_gen h 0 w (fun t => / (1 + t * t) - atan_d t)) as (c & Hc & E).
  - intros; apply Dh.
  - intros t _. apply continuity_pt_filterlim. apply (ex_derive_continuous (V := R_NormedModule)). eexists. apply Dh.
  - assert (Hc' : -1 <= c <= 1) by (revert Hc; unfold Rmin, Rmax; destruct (Rle_dec 0 w); lra). pose proof (atan_d_ok c Hc') as Q.
    assert (h0 : h 0 = 0) by (unfold h, atan_p; rewrite atan_0; ring). rewrite h0, !Rminus_0_r in E. change (atan w - atan_p w) with (h w). rewrite E, Rabs_mult.
    assert (Rabs w <= 1) by (apply Rabs_le; lra). pose proof (Rabs_pos w). pose proof (Rabs_pos (/ (1 + c * c) - atan_d c)). nra.
Qed.
Definition atA : R := 12219475 / 8388608.
Definition atB : R := 9164607 / 4194304.
Definition atC : R := 7067057 / 8388608.
Definition atan_q (u : R) : R := u * (u * (- atA * u + atB) + atC).
Definition atP : list Z := [3571820234829; -2312145304633828125; 3183631171875; 10683030069857578125; 0; -13579881283584000000; 0; 7839657492480000000; 0; -3307124817920000000; 0; 676457349120000000]%Z.
Lemma atP_ok w : pe atP w = 71216623779840000000 * (atan_q ((1 + w) / 2) - (PIlo / 4 + atan_p w)).
Proof. unfold atP, atan_q, atan_p, atA, atB, atC, PIlo. cbn [pe]. field. Qed.
Lemma atan_shift x : 0 <= x -> atan x = PI / 4 + atan ((x - 1) / (1 + x)).
Proof.
  intros H. pose proof (atan_bound x) as B1. pose proof (atan_bound ((x - 1) / (1 + x * 1))) as B2. pose proof PI_RGT_0.
  rewrite <- atan_1. replace (1 + x) with (1 + x * 1) by ring. apply (atan_sub_correct x 1); [lra| |].
  - rewrite atan_1. destruct H as [H|<-]; [pose proof (atan_increasing 0 x H) as I|]; rewrite atan_0 in *; lra.
  - unfold atan_sub. lra.
Qed.
Lemma atan_cubic x : 0 <= x -> Rabs (atan x - atan_q (x / (1 + x))) <= 622 / 100000.
Proof.
  intros H. set (w := (x - 1) / (1 + x)). assert (Hw : -1 <= w <= 1).
  { unfold w. split; [apply Rmult_le_reg_r with (1 + x)|apply Rmult_le_reg_r with (1 + x)]; try lra; unfold Rdiv; rewrite Rmult_assoc, Rinv_l by lra; lra. }
  assert (E : x / (1 + x) = (1 + w) / 2) by (unfold w; field; lra). rewrite E, (atan_shift x H). fold w.
  pose proof (atan_p_ok w Hw) as Q. pose proof PI_bounds as P. unfold PIlo, PIhi in P.
  assert (C : Rabs (pe atP w) <= IZR 437982236246016000).
  { apply check_ok with (n := 14%nat) (s := 1024%Z) (a := (-1024)%Z) (b := 1024%Z); [discriminate|vm_compute; reflexivity|lra]. }
  rewrite atP_ok in C. unfold PIlo in C. apply Rabs_le_between in C. apply Rabs_le_between in Q. apply Rabs_le. lra.
Qed.

(** asin through half the angle: (sqrt(1 + sin t) - sqrt(1 - sin t)) = 2 sin (t / 2) *)
Definition asA : R := 8841895 / 67108864.
Definition asB : R := 969295 / 1048576.
Definition asin_q (s : R) : R := s * (asA * s + asB).
Definition asP : list Z := [0; 7306536960; -25464657600; 14888371200; 8488219200; -744418560; -1131762560; 0; 70735160; 0; -1768379]%Z.
Definition sin5 (p : R) : R := p - p ^ 3 / 6 + p ^ 5 / 120.
Lemma asP_ok p : pe asP p = 48318382080 * (2 * p - asin_q (2 * sin5 p)).
Proof. unfold asP, asin_q, asA, asB, sin5. cbn [pe]. field. Qed.
Lemma sin5_ok p : 0 <= p <= 79 / 100 -> 0 <= sin5 p - sin p <= 4 / 100000.
Proof.
  intros H. destruct (pre_sin_bound p 1) as (L & _); [lra|lra|]. destruct (pre_sin_bound p 0) as (_ & U); [lra|lra|]. revert L U. unfold sin_approx, sin_term. cbn [sum_f_R0 Nat.mul Nat.add].
  destruct facts as (_ & E1 & _ & E3 & _ & E5 & _ & E7 & _). rewrite E1, E3, E5, E7. unfold sin5.
  assert (P7 : 0 <= p ^ 7 <= 2 / 10). { split; [apply pow_le; lra|]. eapply Rle_trans; [apply (pow_incr p (79 / 100)); lra|]. cbn [pow]. lra. }
  cbn [pow] in *. lra.
Qed.
Lemma asin_quad p : 0 <= p <= 79 / 100 -> Rabs (2 * p - asin_q (2 * sin p)) <= 1231 / 100000.
Proof.
  intros H. pose proof (sin5_ok p H) as S. assert (Sp : 0 <= sin p <= 1). { split; [apply sin_ge_0; [lra|pose proof PI_bounds; unfold PIlo, PIhi in *; lra]|apply SIN_bound]. }
  assert (C : Rabs (pe asP p) <= IZR 589484261).
  { apply check_ok with (n := 14%nat) (s := 1000%Z) (a := 0%Z) (b := 790%Z); [discriminate|vm_compute; reflexivity|lra]. }
  rewrite asP_ok in C. assert (D : Rabs (asin_q (2 * sin5 p) - asin_q (2 * sin p)) <= 11 / 100000).
  { replace (asin_q (2 * sin5 p) - asin_q (2 * sin p)) with (2 * (sin5 p - sin p) * (2 * asA * (sin5 p + sin p) + asB)) by (unfold asin_q; ring). apply Rabs_le. unfold asA, asB. 
     assert (sin p <= p) by (destruct (Req_dec p 0) as [->|]; [rewrite sin_0; lra|left; apply sin_lt_x; lra]). nra. }
  apply Rabs_le_between in C. apply Rabs_le_between in D. apply Rabs_le. lra.
Qed.
Lemma asin_half t : - (PI / 2) <= t <= PI / 2 -> sqrt (1 + sin t) - sqrt (1 - sin t) = 2 * sin (t / 2).
Proof.
  intros H. assert (S : sin t = 2 * sin (t / 2) * cos (t / 2)) by (rewrite <- sin_2a; f_equal; field). pose proof (sin2_cos2 (t / 2)) as Q. unfold Rsqr in Q.
  set (s := sin (t / 2)) in *. set (c := cos (t / 2)) in *. replace (1 + sin t) with ((c + s) * (c + s)) by (rewrite S, <- Q; ring). replace (1 - sin t) with ((c - s) * (c - s)) by (rewrite S, <- Q; ring).
  assert (Cs : 0 <= c + s /\ 0 <= c - s).
  { assert (K : forall z, - (PI / 4) <= z <= PI / 4 -> 0 <= cos z + sin z).
    { intros z Hz. assert (E : sin (z + PI / 4) = (cos z + sin z) * (/ sqrt 2)). { rewrite sin_plus, cos_PI4, sin_PI4. field. apply sqrt2_neq_0. }
      assert (0 <= sin (z + PI / 4)) by (apply sin_ge_0; lra). assert (0 < / sqrt 2) by (apply Rinv_0_lt_compat, Rlt_sqrt2_0). rewrite E in *. nra. }
    split; [apply K; lra|]. pose proof (K (- (t / 2)) ltac:(lra)) as K2. rewrite cos_neg, sin_neg in K2. unfold s, c. lra. }
  rewrite !sqrt_square by apply Cs. ring.
Qed.
Lemma asin_ok x : -1 <= x <= 1 -> let s := sqrt (1 + x) - sqrt (1 - x) in Rabs (asin x - s * (asA * Rabs s + asB)) <= 1231 / 100000 /\ Rabs s <= 142 / 100.
Proof.
  intros H s. set (t := asin x). assert (Ht : - (PI / 2) <= t <= PI / 2) by (pose proof (asin_bound x); unfold t; lra).
  assert (Es : s = 2 * sin (t / 2)). { unfold s. rewrite <- (sin_asin x) by lra. apply asin_half. exact Ht. } pose proof PI_bounds as P. unfold PIlo, PIhi in P.
  assert (Bs : Rabs s <= 142 / 100).
  { unfold s. assert (K : forall z, 0 <= z <= 2 -> 0 <= sqrt z <= 142 / 100).
    { intros z Hz. split; [apply sqrt_pos|]. rewrite <- (sqrt_square (142 / 100)) by lra. apply sqrt_le_1_alt. lra. }
    pose proof (K (1 + x) ltac:(lra)). pose proof (K (1 - x) ltac:(lra)). apply Rabs_le. lra. }
  split; [|exact Bs]. destruct (Rle_dec 0 t) as [L|L].
  - assert (S0 : 0 <= sin (t / 2)) by (apply sin_ge_0; lra). rewrite (Rabs_pos_eq s) by lra. pose proof (asin_quad (t / 2) ltac:(lra)) as Q. replace (2 * (t / 2)) with t in Q by field. rewrite <- Es in Q. exact Q.
  - assert (S0 : 0 <= sin (- (t / 2))) by (apply sin_ge_0; lra). assert (E2 : - s = 2 * sin (- (t / 2))) by (rewrite sin_neg, Es; ring). rewrite (Rabs_left1 s) by (rewrite sin_neg in S0; lra). pose proof (asin_quad (- (t / 2)) ltac:(lra)) as Q. rewrite <- E2 in Q.
    unfold asin_q in Q. replace (t - s * (asA * - s + asB)) with (- (2 * - (t / 2) - - s * (asA * - s + asB))) by (field). rewrite Rabs_Ropp. exact Q.
Qed.
Lemma is_derive_atan t : is_derive atan t (/ (1 + t * t)).
Proof. auto_derive; auto. replace (t * (t * 1)) with (t * t) by ring. field. nra. Qed.
Lemma half_frac a : Rabs a * / (1 + a * a) <= / 2.
Proof.
  apply Rmult_le_reg_r with (1 + a * a); [nra|]. rewrite Rmult_assoc, Rinv_l by nra. pose proof (Rle_0_sqr (Rabs a - 1)) as Q. unfold Rsqr in Q.
  assert (Rabs a * Rabs a = a * a) by (rewrite <- Rabs_mult; apply Rabs_pos_eq; nra). lra.
Qed.
Lemma atan_pert a b : Rabs (b - a) <= / 16777216 * Rabs a + / 1000000000000000 -> Rabs (atan b - atan a) <= 1 / 10000000.
Proof.
  intros H. destruct (MVT_gen atan a b (fun c => / (1 + c * c))) as (c & Hc & E).
  - intros t _. apply is_derive_atan.
  - intros t _. apply derivable_continuous_pt. apply derivable_pt_atan.
  - rewrite E, Rabs_mult. assert (P : 0 < / (1 + c * c) <= 1). { split; [apply Rinv_0_lt_compat; nra|]. rewrite <- Rinv_1. apply Rinv_le_contravar; nra. }
    rewrite (Rabs_pos_eq (/ _)) by lra. assert (Hd : Rabs (c - a) <= Rabs (b - a)).
    { revert Hc. unfold Rmin, Rmax. destruct (Rle_dec a b); intros Hc; [rewrite (Rabs_pos_eq (c - a)), (Rabs_pos_eq (b - a)) by lra|rewrite (Rabs_left1 (c - a)), (Rabs_left1 (b - a)) by lra]; lra. }
    assert (Ha : Rabs a <= Rabs c + Rabs (c - a)). { replace a with (c - (c - a)) at 1 by ring. eapply Rle_trans; [apply Rabs_triang|]. rewrite Rabs_Ropp. lra. }
    pose proof (half_frac c) as Q. pose proof (Rabs_pos c).
    assert (K : Rabs (b - a) <= / 16000000 * Rabs c + / 1000000000000) by lra.
    assert (Rabs (b - a) * / (1 + c * c) <= (/ 16000000 * Rabs c + / 1000000000000) * / (1 + c * c)) by (apply Rmult_le_compat_r; lra). nra.
Qed.
