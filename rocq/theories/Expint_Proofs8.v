(** The exponential integral on (-1, 0). *)
From Coq Require Import ZArith Reals Lra Lia Psatz Bool.
From Flocq Require Import Core IEEE754.BinarySingleNaN IEEE754.Binary IEEE754.Bits.
From Verif Require Import Base BaseLemmas Arith Ext32 Bits32 Ffmath_Model Ffmath2_Model Ffmath4_Model Ffmath_Spec Ffmath_Proofs Ffmath_Proofs2 Ffmath_Proofs3 Float32 Ffmath_Proofs4 Ffmath_Proofs7 Ffmath_Proofs8 Ffmath_Proofs9 FloatApp Ffmath_Proofs12 Ffmath_Proofs13 Ffmath_Proofs14 Ffmath_Proofs15 Ffmath_Proofs16 Ellint_Proofs3 Expint_Spec Expint_Proofs Expint_Proofs2 Expint_Proofs3 Expint_Proofs4 Expint_Proofs5 Expint_Proofs6 Expint_Proofs7.
Open Scope R_scope.

Definition sg (b : bool) : R := if b then -1 else 1.
Lemma sg_negb b : sg (negb b) = - sg b. Proof. destruct b; cbn; lra. Qed.
Lemma rnd_sg b v : rnd (sg b * v) = sg b * rnd v.
Proof. destruct b; cbn [sg]; [|rewrite !Rmult_1_l; reflexivity]. replace (-1 * v) with (- v) by ring. rewrite rnd_opp. ring. Qed.
Lemma sg_sq b : sg b * sg b = 1. Proof. destruct b; cbn [sg]; ring. Qed.
Definition snear (b : bool) (x : float) (v d : R) : Prop := finite x /\ v * (1 - d) <= sg b * valR x <= v * (1 + d).
Lemma flip b x v d : snear b x v d -> exists y, near y v d /\ valR y = sg b * valR x.
Proof. intros (F & H). destruct b; cbn [sg] in H. - exists (- x)%b32. destruct (opp_R x F) as (F2 & V2). unfold near. rewrite V2. repeat split; auto; cbn [sg]; lra. - exists x. unfold near. repeat split; auto; cbn [sg]; lra. Qed.
Lemma near_abs y v d : near y v d -> 0 < v -> 0 <= d <= / 100 -> 0 < valR y <= 101 / 100 * v.
Proof. intros (_ & H) Pv Hd. split; nra. Qed.
Lemma wide_big v : 0 <= v <= 100000000000000000000000000000 -> v * 2 <= big.
Proof. intros H. pose proof huge_ok. unfold huge in *. lra. Qed.
Lemma snear_mul b x q q' v w d e k : snear b x v d -> near q w e -> finite q' -> valR q' = - valR q -> 0 < v -> 0 < w -> 0 <= d <= / 100 -> 0 <= e <= / 100 -> wide (v * w) -> d + e + d * e + u32 * (1 + d + e + d * e) <= k ->
  snear (negb b) (x * q')%b32 (v * w) k.
Proof.
  intros Sx Nq Fq' Vq' Pv Pw Hd He W Hk. destruct (flip _ _ _ _ Sx) as (y & Ny & Vy). destruct (wide_mul y q v w d e k Ny Nq Pv Pw Hd He W Hk) as (F & B).
  pose proof (near_abs _ _ _ Ny Pv Hd) as Ay. pose proof (near_abs _ _ _ Nq Pw He) as Aq. destruct W as (_ & W).
  assert (M : 0 <= valR y * valR q <= big). { split; [nra|]. apply Rle_trans with (101 / 100 * v * (101 / 100 * w)); [apply Rmult_le_compat; lra|]. pose proof (wide_big (v * w)). assert (0 < v * w) by nra. lra. }
  assert (E : valR x * valR q' = - sg b * (valR y * valR q)) by (rewrite Vq', Vy; destruct b; cbn [sg]; ring).
  destruct (mult_R x q' (proj1 Sx) Fq') as (F2 & V2). { rewrite E, Rabs_mult, (Rabs_pos_eq (valR y * _)) by lra. replace (Rabs (- sg b)) with 1 by (destruct b; cbn [sg]; [rewrite Rabs_pos_eq|rewrite Rabs_left]; lra). lra. }
  destruct (mult_R y q (proj1 Ny) (proj1 Nq)) as (_ & V3). { rewrite Rabs_pos_eq; lra. }
  split; [exact F2|]. rewrite V2, E, <- sg_negb, rnd_sg, <- V3, <- Rmult_assoc, sg_sq, Rmult_1_l. exact B.
Qed.
Lemma snear_div b x q v w d k : snear b x v d -> near q w 0 -> 0 < v -> 0 < w -> 0 <= d <= / 100 -> wide (v / w) -> d + u32 * (1 + d) <= k -> snear b (x / q)%b32 (v / w) k.
Proof.
  intros Sx Nq Pv Pw Hd W Hk. destruct (flip _ _ _ _ Sx) as (y & Ny & Vy). destruct (wide_div y q v w d 0 k Ny Nq Pv Pw Hd ltac:(lra) W ltac:(lra)) as (F & B).
  pose proof (near_abs _ _ _ Ny Pv Hd) as Ay. assert (Eq : valR q = w) by (destruct Nq as (_ & ?); lra). destruct W as (_ & W).
  assert (Iw : 0 < / w) by (apply Rinv_0_lt_compat; auto).
  assert (M : 0 <= valR y / valR q <= big). { rewrite Eq. unfold Rdiv in *. split; [nra|]. apply Rle_trans with (101 / 100 * v * / w); [apply Rmult_le_compat_r; lra|]. pose proof (wide_big (v * / w)). assert (0 < v * / w) by nra. lra. }
  assert (E : valR x / valR q = sg b * (valR y / valR q)) by (rewrite Vy; unfold Rdiv; destruct b; cbn [sg]; ring).
  destruct (div_R x q (proj1 Sx) (proj1 Nq) ltac:(lra)) as (F2 & V2). { rewrite E, Rabs_mult, (Rabs_pos_eq (valR y / _)) by lra. replace (Rabs (sg b)) with 1 by (destruct b; cbn [sg]; [rewrite Rabs_left|rewrite Rabs_pos_eq]; lra). lra. }
  destruct (div_R y q (proj1 Ny) (proj1 Nq) ltac:(lra)) as (_ & V3). { rewrite Rabs_pos_eq; lra. }
  split; [exact F2|]. rewrite V2, E, rnd_sg, <- V3, <- Rmult_assoc, sg_sq, Rmult_1_l. exact B.
Qed.
Lemma snear_app b x v d : snear b x v d -> app x (sg b * v) (v * d).
Proof. intros (F & H). split; [exact F|]. apply Rabs_le. destruct b; cbn [sg] in *; lra. Qed.
Fixpoint odd (k : nat) : bool := match k with O => false | S m => negb (odd m) end.
Lemma T_neg t k : T (- t) k = sg (odd k) * T t k.
Proof. induction k as [|k IH]; [rewrite !T_0; cbn; ring|]. rewrite !T_S, IH. cbn [odd]. rewrite sg_negb. unfold Rdiv. ring. Qed.
Lemma T_one t k : 0 < t <= 1 -> T t k <= 1.
Proof.
  intros H. induction k as [|k IH]; [rewrite T_0; lra|]. rewrite T_S. pose proof (T_pos t k ltac:(lra)). pose proof (S_pos k). assert (1 <= INR (S k)) by (change 1 with (INR 1); apply le_INR; lia).
  assert (0 < / INR (S k) <= 1) by (split; [apply Rinv_0_lt_compat; lra|rewrite <- Rinv_1; apply Rinv_le_contravar; lra]).
  assert (0 <= t / INR (S k) <= 1) by (unfold Rdiv; split; nra). nra.
Qed.
Lemma T_11 t : 0 < t <= 1 -> T t 11 <= / 30000000.
Proof.
  intros H. unfold T. rewrite fZ_R. assert (E : fZ 11 = 39916800%Z) by reflexivity. rewrite E. assert (t ^ 11 <= 1) by (rewrite <- (pow1 11); apply pow_incr; lra). lra.
Qed.
Lemma P_two t k : 0 < t <= 1 -> P t k <= 2.
Proof. intros H. pose proof (ei_low t k ltac:(lra)). pose proof (ei_high t 1 ltac:(lra) ltac:(cbn [INR]; lra)) as E. rewrite P_1 in E. replace (T t 1) with t in E by (unfold T; cbn; field). lra. Qed.

Lemma e1_loop t x : / 268435456 <= t < 1 -> finite x -> valR x = t -> forall n k term eSum oSum E O a b, (k <= 10)%nat -> (11 - k <= n)%nat ->
  snear (odd k) term (T t k) (dT k) -> (k = 0%nat \/ 11 / 100000000 <= T t k) ->
  app eSum E a -> app oSum O b -> E + O = P (- t) k -> Rabs E + Rabs O <= P t k -> 0 <= a -> 0 <= b -> a + b <= 55 / 10 * INR k * / 16777216 ->
  exists E' O' a' b', let r := e1_series_loop n (Z.of_nat (S k)) x term eSum oSum in app (fst r) E' a' /\ app (snd r) O' b' /\ Rabs E' + Rabs O' <= 2 /\ 0 <= a' /\ 0 <= b' /\ a' + b' <= 4 / 1000000 /\ Rabs (E' + O' - ei_sum (- t)) <= 1 / 1000000.
Proof.
  intros Ht Fx Vx. induction n as [|n IH]; intros k term eSum oSum E O a b Hk Hn Nt Inv AE AO EO Bd Ha Hb Hab; [lia|].
  pose proof u32_v as Eu.
  assert (m : 1 <= INR (S k) <= 11). { split; [change 1 with (INR 1); apply le_INR; lia|]. replace 11 with (INR 11) by (rewrite INR_IZR_INZ; reflexivity). apply le_INR. lia. }
  assert (k0 : 0 <= INR k <= 10) by (rewrite S_INR in m; pose proof (pos_INR k); lra).
  assert (I : / 11 <= / INR (S k) <= 1) by (split; [apply Rinv_le_contravar; lra|rewrite <- Rinv_1; apply Rinv_le_contravar; lra]).
  pose proof (ofZ_near (S k) ltac:(lia)) as Nj. cbn [e1_series_loop]. set (j := b32_ofZ (Z.of_nat (S k))) in *.
  assert (Vj : valR j = INR (S k)) by (destruct Nj as (_ & ?); lra).
  assert (Xm : / 268435456 * / 11 <= t / INR (S k) <= 1 * 1) by (split; apply Rmult_le_compat; lra).
  assert (N1 : near (x / j)%b32 (t / INR (S k)) (1001 / 1000 * / 16777216)). { apply (wide_div x j t (INR (S k)) 0 0); auto; rewrite ?Eu; try lra. - split; [exact Fx|rewrite Vx; lra]. - unfold wide. lra. }
  destruct (opp_R x Fx) as (Fo & Vo).
  destruct (div_R (- x)%b32 j Fo (proj1 Nj) ltac:(lra)) as (F2 & V2). { apply small_big. rewrite Vo, Vx, Vj. unfold Rdiv. rewrite Ropp_mult_distr_l_reverse, Rabs_Ropp, Rabs_pos_eq; unfold Rdiv in *; lra. }
  destruct (div_R x j Fx (proj1 Nj) ltac:(lra)) as (_ & V3). { apply small_big. rewrite Vx, Vj. rewrite Rabs_pos_eq; lra. }
  assert (V4 : valR ((- x) / j)%b32 = - valR (x / j)%b32). { rewrite V2, V3, Vo, <- rnd_opp. f_equal. unfold Rdiv. ring. }
  assert (Tp : 0 < T t k) by (apply T_pos; lra). assert (T1 : T t (S k) <= 1) by (apply T_one; lra).
  assert (TL : / 1000000000000000000 <= T t (S k)). { rewrite T_S. destruct Inv as [->|Inv]; [rewrite T_0; lra|]. apply Rle_trans with (11 / 100000000 * (/ 268435456 * / 11)); [lra|apply Rmult_le_compat; lra]. }
  assert (N2 : snear (odd (S k)) (term * ((- x) / j))%b32 (T t (S k)) (dT (S k))).
  { rewrite T_S. assert (Dk : 0 <= dT k <= / 10000) by (unfold dT; lra). assert (Ed : dT (S k) = dT k + 21 / 10 * / 16777216) by (unfold dT; rewrite S_INR; lra). rewrite Ed. cbn [odd].
    apply (snear_mul (odd k) term (x / j)%b32 ((- x) / j)%b32 (T t k) (t / INR (S k)) (dT k) (1001 / 1000 * / 16777216)); auto; rewrite ?Eu; try lra. rewrite <- T_S. unfold wide. lra. }
  set (term' := (term * ((- x) / j))%b32) in *. clearbody term'.
  assert (Dk : 0 <= dT (S k) <= / 10000) by (unfold dT; lra).
  pose proof (proj1 N2) as Ft. destruct (abs_R term' Ft) as (Fa & Va). destruct eps_near as (Fe & Ve).
  assert (Ab : T t (S k) * (1 - dT (S k)) <= Rabs (valR term') <= T t (S k) * (1 + dT (S k))).
  { destruct N2 as (_ & N2). replace (Rabs (valR term')) with (sg (odd (S k)) * valR term'); [exact N2|]. assert (0 < T t (S k) * (1 - dT (S k))) by nra. destruct (odd (S k)); cbn [sg] in *; [rewrite Rabs_left|rewrite Rabs_pos_eq]; lra. }
  assert (Ab2 : T t (S k) * (1 - / 10000) <= Rabs (valR term') <= T t (S k) * (1 + / 10000)). { assert (T t (S k) * dT (S k) <= T t (S k) * / 10000) by (apply Rmult_le_compat_l; lra). lra. }
  destruct (Rlt_le_dec (Rabs (valR term')) (/ 8388608)) as [Lt|Ge].
  - rewrite (lt_t (absolute term') limEps Fa Fe) by lra. exists E, O, a, b. cbv zeta. cbn [fst snd]. split; [exact AE|]. split; [exact AO|]. split; [pose proof (P_two t k ltac:(lra)); lra|]. split; [exact Ha|]. split; [exact Hb|]. split; [lra|].
    rewrite EO. pose proof (ei_tail (- t) (S k) ltac:(lra)) as B. rewrite Rabs_Ropp, (Rabs_pos_eq t) in B by lra. specialize (B ltac:(lra)). cbn [P] in B. rewrite T_neg in B. apply Rabs_le_inv in B.
    assert (Q : Rabs (sg (odd (S k)) * T t (S k) / INR (S k)) <= T t (S k)).
    { unfold Rdiv. rewrite !Rabs_mult. replace (Rabs (sg (odd (S k)))) with 1 by (destruct (odd (S k)); cbn [sg]; [rewrite Rabs_left|rewrite Rabs_pos_eq]; lra). rewrite (Rabs_pos_eq (T t (S k))), (Rabs_pos_eq (/ _)) by lra. rewrite Rmult_1_l. rewrite <- (Rmult_1_r (T t (S k))) at 2. apply Rmult_le_compat_l; lra. }
    apply Rabs_le_inv in Q. apply Rabs_le. lra.
  - rewrite (lt_f (absolute term') limEps Fa Fe) by lra.
    assert (S1 : 11 / 100000000 <= T t (S k)) by lra.
    assert (k <> 10)%nat. { intros ->. pose proof (T_11 t ltac:(lra)). lra. }
    assert (N3 : snear (odd (S k)) (term' / j)%b32 (T t (S k) / INR (S k)) (dT (S k) + 105 / 100 * / 16777216)).
    { apply (snear_div (odd (S k)) term' j (T t (S k)) (INR (S k)) (dT (S k))); auto; rewrite ?Eu; try lra. assert (11 / 100000000 * / 11 <= T t (S k) / INR (S k) <= 1 * 1) by (split; apply Rmult_le_compat; lra). unfold wide. lra. }
    apply snear_app in N3. set (c := T t (S k) / INR (S k)) in *.
    assert (Cb : 0 <= c <= 1) by (unfold c, Rdiv; split; nra).
    assert (Ce : c * (dT (S k) + 105 / 100 * / 16777216) <= 32 / 10 * / 16777216). { unfold dT. replace (c * (21 / 10 * INR (S k) * / 16777216 + 105 / 100 * / 16777216)) with (c * INR (S k) * (21 / 10 * / 16777216) + c * (105 / 100 * / 16777216)) by ring. assert (c * INR (S k) = T t (S k)) by (unfold c; field; lra). rewrite H0. lra. }
    apply app_le with (e' := 32 / 10 * / 16777216) in N3; [|exact Ce].
    assert (PS : P (- t) (S k) = P (- t) k + sg (odd (S k)) * c) by (cbn [P]; rewrite T_neg; unfold c, Rdiv; ring). assert (PT : P t (S k) = P t k + c) by reflexivity.
    assert (Sc : Rabs (sg (odd (S k)) * c) = c). { rewrite Rabs_mult, (Rabs_pos_eq c) by lra. replace (Rabs (sg (odd (S k)))) with 1 by (destruct (odd (S k)); cbn [sg]; [rewrite Rabs_left|rewrite Rabs_pos_eq]; lra). ring. }
    pose proof (P_two t (S k) ltac:(lra)) as P2. replace (Z.of_nat (S k) + 1)%Z with (Z.of_nat (S (S k))) by lia. pose proof (Rabs_pos E). pose proof (Rabs_pos O).
    assert (KS : INR (S k) = INR k + 1) by apply S_INR.
    destruct (b32_le (flit 0 1) term').
    + assert (T3 : Rabs (E + sg (odd (S k)) * c) <= Rabs E + c) by (rewrite <- Sc at 2; apply Rabs_triang).
      apply (IH (S k) term' (eSum + term' / j)%b32 oSum (E + sg (odd (S k)) * c) O (a + 54 / 10 * / 16777216) b); auto; try lia; try lra.
      apply (app_add eSum E a (term' / j)%b32 (sg (odd (S k)) * c) (32 / 10 * / 16777216) 2); auto; try lra; unfold huge, tiny in *; rewrite ?Eu; lra.
    + assert (T3 : Rabs (O + sg (odd (S k)) * c) <= Rabs O + c) by (rewrite <- Sc at 2; apply Rabs_triang).
      apply (IH (S k) term' eSum (oSum + term' / j)%b32 E (O + sg (odd (S k)) * c) a (b + 54 / 10 * / 16777216)); auto; try lia; try lra.
      apply (app_add oSum O b (term' / j)%b32 (sg (odd (S k)) * c) (32 / 10 * / 16777216) 2); auto; try lra; unfold huge, tiny in *; rewrite ?Eu; lra.
Qed.
