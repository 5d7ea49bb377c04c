(** The loop of cyl_bessel_ij_series for orders 0 and 1. *)
From Coq Require Import ZArith Reals Lra Lia Psatz Bool Factorial.
From Coquelicot Require Import Coquelicot.
From Flocq Require Import Core IEEE754.BinarySingleNaN IEEE754.Binary IEEE754.Bits.
From Verif Require Import Base BaseLemmas Arith Ext32 Bits32 Ffmath_Model Ffmath2_Model Ffmath5_Model Ffmath_Spec Ffmath_Proofs Ffmath_Proofs2 Ffmath_Proofs3 Float32 Ffmath_Proofs4 Ffmath_Proofs7 Ffmath_Proofs8 Ffmath_Proofs9 FloatApp Ffmath_Proofs12 Ffmath_Proofs14 Ffmath_Proofs16 Ellint_Proofs3 Bessel_Spec Bessel_Proofs Bessel_Proofs2.
Open Scope R_scope.

Lemma rnd_Z m : (Z.abs m < 2 ^ 24)%Z -> rnd (IZR m) = IZR m.
Proof. intros H. destruct (ofZ_R m H) as (F & V). rewrite <- V. apply rnd_val. Qed.
Lemma app_div x v e y D V E : app x v e -> finite y -> valR y = D -> 1 <= D -> Rabs v <= V -> V + e <= huge -> (e + u32 * (V + e)) / D + tiny <= E -> app (x / y)%b32 (v / D) E.
Proof.
  intros Ax Fy Vy HD HV B HE. pose proof (app_abs _ _ _ _ Ax HV) as Bx. destruct Ax as (Fx & Ex). pose proof huge_ok. pose proof tiny_ok. assert (U : 0 <= u32) by apply bpow_ge_0.
  assert (I : 0 < / D <= 1). { split; [apply Rinv_0_lt_compat; lra|]. rewrite <- Rinv_1. apply Rinv_le_contravar; lra. }
  assert (Q : Rabs (valR x / valR y) <= (V + e) / D). { rewrite Vy. unfold Rdiv. rewrite Rabs_mult, (Rabs_pos_eq (/ D)) by lra. apply Rmult_le_compat_r; lra. }
  assert (Q2 : (V + e) / D <= V + e). { unfold Rdiv. pose proof (Rabs_pos (valR x)). rewrite <- (Rmult_1_r (V + e)) at 2. apply Rmult_le_compat_l; lra. }
  destruct (div_R x y Fx Fy) as (F & V1); [lra|lra|]. split; [exact F|]. rewrite V1. pose proof (rnd_err (valR x / valR y)) as R.
  replace (rnd (valR x / valR y) - v / D) with ((rnd (valR x / valR y) - valR x / valR y) + (valR x - v) * / D) by (rewrite Vy; field; lra).
  eapply Rle_trans; [apply Rabs_triang|]. rewrite Rabs_mult, (Rabs_pos_eq (/ D)) by lra. assert (Rabs (valR x - v) * / D <= e * / D) by (apply Rmult_le_compat_r; lra).
  assert (u32 * Rabs (valR x / valR y) <= u32 * ((V + e) / D)) by (apply Rmult_le_compat_l; auto). unfold Rdiv in *. rewrite Rmult_plus_distr_r in HE. rewrite <- Rmult_assoc in H2. lra.
Qed.
(** the rounding error of a sum is at most its second operand *)
Lemma add_near a b : finite a -> finite b -> Rabs (valR a + valR b) <= big -> finite (a + b)%b32 /\ Rabs (valR (a + b)%b32 - (valR a + valR b)) <= Rabs (valR b).
Proof.
  intros Fa Fb B. destruct (plus_R a b Fa Fb B) as (F & V). split; [exact F|]. rewrite V. destruct (round_N_pt radix2 (FLT_exp (-149) 24) (fun x => negb (Z.even x)) (valR a + valR b)) as (_ & N). specialize (N (valR a) (format_val a)).
  replace (valR a - (valR a + valR b)) with (- valR b) in N by ring. rewrite (Rabs_Ropp (valR b)) in N. exact N.
Qed.
(** the stopping test *)
Lemma brk t s : finite t -> finite s -> b32_lt (absolute (t / s)%b32) limEps = true -> Rabs (valR t) <= / 8388608 * Rabs (valR s).
Proof.
  intros Ft Fs H. destruct (Req_dec (valR s) 0) as [Z|NZ].
  - exfalso. destruct s as [ss|ss|ss p Hp|ss m e Hm]; try discriminate Fs.
    + destruct t as [st|st|st p Hp|st m e Hm]; try discriminate Ft; destruct ss, st; discriminate H.
    + exfalso. cbn [B2R] in Z. unfold F2R in Z. cbn [Fnum Fexp] in Z. pose proof (bpow_gt_0 radix2 e). assert (IZR (cond_Zopp ss (Zpos m)) <> 0) by (apply IZR_neq; destruct ss; discriminate). apply Rmult_integral in Z. destruct Z; lra.
  - pose proof (Bdiv_correct 24 128 eq_refl eq_refl binop_nan_pl32 mode_NE t s NZ) as C. rewrite fexp_FLT in C. cbn [round_mode] in C.
    change (Bdiv 24 128 eq_refl eq_refl binop_nan_pl32 mode_NE t s) with (t / s)%b32 in C. set (q := (t / s)%b32) in *. clearbody q. destruct (Rlt_bool _ _) in C.
    + destruct C as (V & F & _). rewrite Ft in F. destruct (abs_R q F) as (Fa & Va). assert (E : finite limEps /\ valR limEps = / 8388608) by cst. destruct E as (Fe & Ve).
      destruct (lt_dec (absolute q) limEps Fa Fe) as [(_ & L)|(L & _)]; [|rewrite H in L; discriminate]. rewrite Va, Ve in L. change (valR q = rnd (valR t / valR s)) in V. rewrite V in L.
      apply Rnot_lt_le. intros K. assert (Ps : 0 < Rabs (valR s)) by (apply Rabs_pos_lt; exact NZ).
      assert (K2 : / 8388608 <= Rabs (valR t / valR s)). { unfold Rdiv. rewrite Rabs_mult, Rabs_inv. apply Rmult_le_reg_r with (Rabs (valR s)); [exact Ps|]. rewrite Rmult_assoc, Rinv_l by lra. lra. }
      rewrite <- Ve in K2. apply rnd_ge_val in K2. rewrite rnd_abs, Ve in K2. lra.
    + exfalso. destruct q as [s0|s0|s0 p Hp|s0 m e Hm]; try discriminate C. destruct s0; discriminate H.
Qed.

(** errors of the terms and of the partial sums *)
Definition eB (n k : nat) : R := 4 * / 16777216 * (INR k * bT n (bZ n) k) + 10 * INR k * tiny.
Definition rB (k : nat) : R := if Nat.leb k 14 then 72 / 10 * / 16777216 else 61 * g4 k + 20 * INR k * tiny.
Fixpoint eSb (n k : nat) : R := match k with O => 0 | S k' => eSb n k' + eB n (S k') + rB (S k') end.

Lemma k_g4 k : (5 <= k)%nat -> INR k * g4 k <= 5 / 1024.
Proof.
  induction k as [|k IH]; intros H; [lia|]. destruct (Nat.eq_dec k 4) as [->|N]; [unfold g4; cbn [pow]; rewrite INR_IZR_INZ; cbn [Z.of_nat Pos.of_succ_nat Pos.succ]; lra|]. specialize (IH ltac:(lia)). rewrite S_INR, g4_S.
  assert (5 <= INR k) by (change 5 with (IZR 5); rewrite INR_IZR_INZ; apply IZR_le; lia). pose proof (g4_pos k). nra.
Qed.
Lemma k_maj n k : (n <= 1)%nat -> 0 <= INR k * bT n (bZ n) k <= 425 / 100.
Proof.
  intros H. destruct (maj_low n H) as (M1 & M2 & M3 & M4 & M5). pose proof (bZ_pos n) as Zp. split; [apply Rmult_le_pos; [apply pos_INR|apply bT_nonneg; lra]|].
  destruct (le_lt_dec 5 k) as [L|L].
  - pose proof (maj_geo n k H). pose proof (k_g4 k L). pose proof (pos_INR k). assert (INR k * bT n (bZ n) k <= INR k * (60 * g4 k)) by (apply Rmult_le_compat_l; auto). lra.
  - destruct k as [|[|[|[|[|k]]]]]; try lia; rewrite INR_IZR_INZ; cbn [Z.of_nat Pos.of_succ_nat Pos.succ]; lra.
Qed.
Lemma tiny_v : 0 < tiny <= / 1000000000000. Proof. unfold tiny. lra. Qed.
Lemma k199 k : (k <= 199)%nat -> 0 <= INR k <= 199.
Proof. intros H. split; [apply pos_INR|]. change 199 with (IZR 199). rewrite INR_IZR_INZ. apply IZR_le. lia. Qed.
Lemma eB_small n k : (n <= 1)%nat -> (k <= 199)%nat -> 0 <= eB n k <= 11 / 10000000.
Proof. intros H K. pose proof (k_maj n k H). pose proof tiny_v. pose proof (k199 k K). unfold eB. assert (0 <= INR k * tiny <= 199 * / 1000000000000) by (split; [apply Rmult_le_pos; lra|apply Rmult_le_compat; lra]). lra. Qed.
Lemma eS_closed n k : (n <= 1)%nat -> (k <= 199)%nat ->
  eSb n k <= 240 * / 16777216 * (4 / 9 - 4 / 9 * g4 k - INR k * g4 k / 3) + 30 * (199 * INR k) * tiny + (if Nat.leb k 14 then 72 / 10 * / 16777216 * INR k else 72 / 10 * / 16777216 * 14 + 61 / 3 * (g4 14 - g4 k)).
Proof.
  intros Hn. pose proof tiny_v as Tv. induction k as [|k IH]; intros Hk; [cbn [eSb Nat.leb INR]; unfold g4; cbn [pow]; lra|]. specialize (IH ltac:(lia)). cbn [eSb]. pose proof (k199 (S k) Hk) as K1. pose proof (k199 k ltac:(lia)) as K0.
  pose proof (maj_geo n (S k) Hn) as M. assert (E : eB n (S k) <= 240 * / 16777216 * (INR (S k) * g4 (S k)) + 10 * 199 * tiny).
  { unfold eB. assert (INR (S k) * bT n (bZ n) (S k) <= INR (S k) * (60 * g4 (S k))) by (apply Rmult_le_compat_l; lra). assert (INR (S k) * tiny <= 199 * tiny) by (apply Rmult_le_compat_r; lra). lra. }
  assert (R : rB (S k) <= (if Nat.leb (S k) 14 then 72 / 10 * / 16777216 else 61 * g4 (S k)) + 20 * 199 * tiny).
  { unfold rB. destruct (Nat.leb (S k) 14); [lra|]. assert (INR (S k) * tiny <= 199 * tiny) by (apply Rmult_le_compat_r; lra). lra. }
  rewrite (S_INR k) in *. rewrite (g4_S k) in *. set (w := g4 k) in *. assert (D : forall a b c, (a + b) * c = a * c + b * c) by (intros; ring).
  replace ((INR k + 1) * (w / 4)) with (INR k * w / 4 + w / 4) in * by field. set (v := INR k * w) in *.
  assert (Q : (if Nat.leb k 14 then 72 / 10 * / 16777216 * INR k else 72 / 10 * / 16777216 * 14 + 61 / 3 * (g4 14 - w)) + (if Nat.leb (S k) 14 then 72 / 10 * / 16777216 else 61 * (w / 4)) <=
    (if Nat.leb (S k) 14 then 72 / 10 * / 16777216 * (INR k + 1) else 72 / 10 * / 16777216 * 14 + 61 / 3 * (g4 14 - w / 4))).
  { destruct (Nat.leb_spec k 14), (Nat.leb_spec (S k) 14); try lia; try lra.
    assert (k = 14%nat) as -> by lia. unfold w. replace (INR 14) with 14 by (rewrite INR_IZR_INZ; reflexivity). lra. }
  match type of Q with ?a + ?b <= ?c => set (qa := a) in *; set (qb := b) in *; set (qc := c) in *; clearbody qa qb qc end. set (rr := rB (S k)) in *. set (ee := eB n (S k)) in *. clearbody rr ee w v. set (ss := eSb n k) in *. clearbody ss.
  replace (30 * (199 * (INR k + 1)) * tiny) with (30 * (199 * INR k) * tiny + 30 * 199 * tiny) by ring. set (tk := 30 * (199 * INR k) * tiny) in *. clearbody tk. lra.
Qed.
Lemma eS_small n k : (n <= 1)%nat -> (k <= 199)%nat -> eSb n k <= 125 / 10000000.
Proof.
  intros H K. pose proof (eS_closed n k H K) as C. pose proof (k199 k K) as K1. pose proof (g4_pos k) as G. assert (0 <= INR k * g4 k) by (apply Rmult_le_pos; lra).
  assert (T : 30 * (199 * INR k) * tiny <= / 1000000000). { apply Rle_trans with (30 * (199 * 199) * tiny); [apply Rmult_le_compat_r; [unfold tiny; lra|lra]|unfold tiny; lra]. }
  assert (G14 : g4 14 <= / 268435456) by (unfold g4; cbn [pow]; lra).
  destruct (Nat.leb_spec k 14) as [L|L]; [|lra]. assert (INR k <= 14) by (replace 14 with (INR 14) by (rewrite INR_IZR_INZ; reflexivity); apply le_INR; exact L). lra.
Qed.
Lemma rB_pos k : 0 <= rB k.
Proof. unfold rB. pose proof tiny_v. pose proof (g4_pos k). pose proof (pos_INR k). destruct (Nat.leb k 14); [lra|]. assert (0 <= INR k * tiny) by (apply Rmult_le_pos; lra). lra. Qed.
Lemma eS_pos n k : (n <= 1)%nat -> (k <= 199)%nat -> 0 <= eSb n k.
Proof. intros H. induction k as [|k IH]; intros K; cbn [eSb]; [lra|]. specialize (IH ltac:(lia)). pose proof (eB_small n (S k) H K). pose proof (rB_pos (S k)). lra. Qed.

(** one turn *)
Lemma ij_turn n z k nu xx4 term sum : (n <= 1)%nat -> Rabs z <= bZ n -> finite nu -> valR nu = INR n -> app xx4 z (11 / 10 * / 16777216 * bZ n) -> (k <= 198)%nat ->
  app term (bT n z k) (eB n k) -> app sum (bS n z k) (eSb n k) ->
  let j := b32_ofZ (Z.of_nat (S k)) in let term' := (term * (xx4 / (j * (nu + j))))%b32 in let sum' := (sum + term')%b32 in
  app term' (bT n z (S k)) (eB n (S k)) /\ app sum' (bS n z (S k)) (eSb n (S k)).
Proof.
  intros Hn Hz Fn Vn Ax Hk At As j term' sum'. pose proof u32_v as Eu. pose proof tiny_v as Tv. pose proof (bZ_pos n) as Zp. assert (Zq : bZ n <= 502 / 100) by (unfold bZ; destruct (Nat.eqb n 0); lra).
  destruct (ofZ_R (Z.of_nat (S k))) as (Fj & Vj); [lia|]. fold j in Fj, Vj. rewrite <- INR_IZR_INZ in Vj.
  destruct (ofZ_R (Z.of_nat (S k + n))) as (Fm & Vm); [lia|]. rewrite <- INR_IZR_INZ in Vm.
  assert (Nj : finite (nu + j)%b32 /\ valR (nu + j)%b32 = INR (S k + n)).
  { destruct (plus_R nu j Fn Fj) as (F & V).
    - rewrite Vn, Vj, <- plus_INR, Rabs_pos_eq by apply pos_INR. apply Rle_trans with 1000; [|apply big1]. change 1000 with (IZR 1000). rewrite INR_IZR_INZ. apply IZR_le. lia.
    - split; [exact F|]. rewrite V, Vn, Vj, <- plus_INR, (Nat.add_comm n), INR_IZR_INZ. apply rnd_Z. lia. }
  destruct Nj as (Fnj & Vnj). set (D := INR (S k) * INR (S k + n)).
  assert (ED : D = IZR (Z.of_nat (S k) * Z.of_nat (S k + n))) by (unfold D; rewrite mult_IZR, <- !INR_IZR_INZ; reflexivity).
  assert (BD : (1 <= Z.of_nat (S k) * Z.of_nat (S k + n) <= 40000)%Z) by nia. assert (HD : 1 <= D <= 40000) by (rewrite ED; split; apply IZR_le; lia).
  assert (Dj : finite (j * (nu + j))%b32 /\ valR (j * (nu + j))%b32 = D).
  { destruct (mult_R j (nu + j)%b32 Fj Fnj) as (F & V).
    - rewrite Vj, Vnj. fold D. rewrite Rabs_pos_eq by lra. apply Rle_trans with (bpow radix2 20); [change (bpow radix2 20) with 1048576; lra|apply bpow_le; lia].
    - split; [exact F|]. rewrite V, Vj, Vnj. fold D. rewrite ED. apply rnd_Z. lia. }
  destruct Dj as (Fd & Vd). set (r := bZ n / D). assert (Rp : 0 < r <= 502 / 100). { unfold r, Rdiv. assert (0 < / D <= 1) by (split; [apply Rinv_0_lt_compat; lra|rewrite <- Rinv_1; apply Rinv_le_contravar; lra]). split; [apply Rmult_lt_0_compat; lra|]. apply Rle_trans with (502 * / 100 * 1); [apply Rmult_le_compat; lra|lra]. }
  assert (Aq : app (xx4 / (j * (nu + j)))%b32 (z / D) (22 / 10 * / 16777216 * r + tiny)).
  { apply (app_div xx4 z (11 / 10 * / 16777216 * bZ n) _ D (bZ n)); auto; try lra; [unfold huge; lra|]. rewrite Eu. unfold r, Rdiv. assert (0 < / D) by (apply Rinv_0_lt_compat; lra).
    assert ((11 * / 10 * / 16777216 * bZ n + / 16777216 * (bZ n + 11 * / 10 * / 16777216 * bZ n)) * / D <= (22 * / 10 * / 16777216 * bZ n) * / D) by (apply Rmult_le_compat_r; lra). lra. }
  assert (Wz : Rabs (z / D) <= r). { unfold r, Rdiv. assert (0 < / D) by (apply Rinv_0_lt_compat; lra). rewrite Rabs_mult, (Rabs_pos_eq (/ D)) by lra. apply Rmult_le_compat_r; lra. }
  pose proof (bT_le n z k Hz) as Tb. set (M0 := bT n (bZ n) k) in *. assert (M0b : 0 <= M0 <= 7). { split; [apply bT_nonneg; lra|]. destruct k as [|k0]; [unfold M0; rewrite bT_0 by auto; lra|]. eapply Rle_trans; [|apply (maj_sum n (S k0) Hn)]. rewrite bS_S. pose proof (cond_pos_sum (bT n (bZ n)) k0 (fun i => bT_nonneg n (bZ n) i ltac:(lra))) as P. change (0 <= bS n (bZ n) k0) in P. unfold M0. lra. }
  assert (ES : bT n (bZ n) (S k) = M0 * r) by (unfold M0, r, D; apply bT_S).
  pose proof (eB_small n k Hn ltac:(lia)) as Eb. assert (Kr : INR k * r <= 84 / 100 * INR k).
  { destruct k as [|k0]; [cbn [INR]; lra|]. rewrite Rmult_comm. apply Rmult_le_compat_r; [apply pos_INR|]. unfold r, D. assert (L : 2 <= INR (S (S k0))) by (change 2 with (IZR 2); rewrite INR_IZR_INZ; apply IZR_le; lia).
    apply Rmult_le_reg_r with D; [lra|]. unfold Rdiv. fold D. rewrite Rmult_assoc, Rinv_l, Rmult_1_r by lra. unfold D. destruct n as [|[|n]]; [| |lia]; unfold bZ; cbn [Nat.eqb]; [rewrite Nat.add_0_r; nra|]. replace (S (S k0) + 1)%nat with (S (S (S k0))) by lia. rewrite (S_INR (S (S k0))). nra. }
  pose proof (k199 k ltac:(lia)) as K1. assert (K2 : INR k <= 198) by (change 198 with (IZR 198); rewrite INR_IZR_INZ; apply IZR_le; lia).
  set (e := eB n k) in *. assert (Er : e * r = 4 * / 16777216 * (INR k * (M0 * r)) + 10 * (INR k * r) * tiny) by (unfold e, eB; fold M0; ring).
  assert (P0 : 0 <= M0 * r) by (apply Rmult_le_pos; lra). assert (P1 : 0 <= INR k * (M0 * r) <= 198 * (M0 * r)) by (split; [apply Rmult_le_pos; lra|apply Rmult_le_compat_r; lra]).
  assert (P2 : INR k * r * tiny <= 84 / 100 * INR k * tiny) by (apply Rmult_le_compat_r; lra). assert (P3 : 0 <= INR k * tiny) by (apply Rmult_le_pos; lra).
  assert (P4 : M0 * tiny <= 7 * tiny) by (apply Rmult_le_compat_r; lra). assert (P5 : e * tiny <= 11 / 10000000 * tiny) by (apply Rmult_le_compat_r; lra). assert (P6 : 0 <= e * r) by (apply Rmult_le_pos; lra).
  assert (P7 : 0 <= M0 * tiny) by (apply Rmult_le_pos; lra). assert (P8 : 0 <= e * tiny) by (apply Rmult_le_pos; lra). assert (P9 : 0 <= INR k * r * tiny) by (apply Rmult_le_pos; [apply Rmult_le_pos; lra|lra]).
  assert (At' : app term' (bT n z (S k)) (eB n (S k))).
  { unfold term'. rewrite bT_S. fold D. apply (app_mul term (bT n z k) e M0 _ (z / D) (22 / 10 * / 16777216 * r + tiny) r); auto.
    - apply Rle_trans with (8 * 8); [apply Rmult_le_compat; lra|unfold huge; lra].
    - rewrite Eu. unfold eB. rewrite ES, S_INR.
      replace (e * r + M0 * (22 / 10 * / 16777216 * r + tiny) + e * (22 / 10 * / 16777216 * r + tiny) + / 16777216 * ((M0 + e) * (r + (22 / 10 * / 16777216 * r + tiny))) + tiny)
        with (e * r + 22 / 10 * / 16777216 * (M0 * r) + M0 * tiny + 22 / 10 * / 16777216 * (e * r) + e * tiny + / 16777216 * ((1 + 22 / 10 * / 16777216) * (M0 * r) + (1 + 22 / 10 * / 16777216) * (e * r) + M0 * tiny + e * tiny) + tiny) by field.
      replace (4 * / 16777216 * ((INR k + 1) * (M0 * r)) + 10 * (INR k + 1) * tiny) with (4 * / 16777216 * (INR k * (M0 * r)) + 4 * / 16777216 * (M0 * r) + 10 * (INR k * tiny) + 10 * tiny) by ring.
      rewrite Er. set (a := INR k * (M0 * r)) in *. set (b := M0 * r) in *. set (c := INR k * r * tiny) in *. replace (10 * (INR k * r) * tiny) with (10 * c) in * by (unfold c; ring). replace (84 / 100 * INR k * tiny) with (84 / 100 * (INR k * tiny)) in P2 by ring. set (dd := INR k * tiny) in *. set (f := M0 * tiny) in *. set (h := e * tiny) in *. lra. }
  split; [exact At'|]. unfold sum'. rewrite bS_S. cbn [eSb].
  pose proof (bS_le n z (S k) Hn Hz) as Sb. rewrite bS_S in Sb. pose proof (eB_small n (S k) Hn ltac:(lia)) as Eb'. pose proof (eS_small n k Hn ltac:(lia)) as Es. pose proof (eS_pos n k Hn ltac:(lia)) as Es0.
  unfold rB. destruct (Nat.leb_spec (S k) 14) as [L|L].
  - apply (app_add sum (bS n z k) (eSb n k) term' (bT n z (S k)) (eB n (S k)) 7); auto; [unfold huge; lra|]. rewrite Eu. lra.
  - assert (Tp : Rabs (valR term') <= 61 * g4 (S k) + 20 * INR (S k) * tiny).
    { pose proof (bT_le n z (S k) Hz) as Tb'. eapply Rle_trans; [apply (app_abs _ _ _ _ At' Tb')|]. pose proof (maj_geo n (S k) Hn) as Mg. unfold eB. pose proof (k199 (S k) ltac:(lia)) as K3. pose proof (bT_nonneg n (bZ n) (S k) ltac:(lra)) as Mn.
      assert (INR (S k) * bT n (bZ n) (S k) <= 199 * bT n (bZ n) (S k)) by (apply Rmult_le_compat_r; lra). assert (0 <= INR (S k) * tiny) by (apply Rmult_le_pos; lra). lra. }
    destruct As as (Fs & Vs). destruct At' as (Ft & Vt). assert (Q : Rabs (valR sum + valR term') <= 8).
    { replace (valR sum + valR term') with ((bS n z k + bT n z (S k)) + ((valR sum - bS n z k) + (valR term' - bT n z (S k)))) by ring. eapply Rle_trans; [apply Rabs_triang|]. eapply Rle_trans; [apply Rplus_le_compat_l, Rabs_triang|]. lra. }
    destruct (add_near sum term' Fs Ft) as (Fq & Vq). { eapply Rle_trans; [exact Q|]. pose proof big1. lra. } split; [exact Fq|].
    replace (valR (sum + term')%b32 - (bS n z k + bT n z (S k))) with ((valR (sum + term')%b32 - (valR sum + valR term')) + ((valR sum - bS n z k) + (valR term' - bT n z (S k)))) by ring.
    eapply Rle_trans; [apply Rabs_triang|]. eapply Rle_trans; [apply Rplus_le_compat_l, Rabs_triang|]. lra.
Qed.
Lemma ij_loop_ok n z nu xx4 : (n <= 1)%nat -> Rabs z <= bZ n -> finite nu -> valR nu = INR n -> app xx4 z (11 / 10 * / 16777216 * bZ n) -> forall m k term sum, (k + m = 199)%nat ->
  app term (bT n z k) (eB n k) -> app sum (bS n z k) (eSb n k) -> app (ij_loop m (Z.of_nat (S k)) nu xx4 term sum) (Series (bT n z)) (/ 32768).
Proof.
  intros Hn Hz Fn Vn Ax. induction m as [|m IH]; intros k term sum Hk At As.
  - cbn [ij_loop]. assert (k = 199)%nat as -> by lia. apply app_le with (eSb n 199 + 21 / 4 * Rabs (bT n z 199)); [apply app_shift with (bS n z 199); [exact As|apply tail_bound; auto; lia]|].
    pose proof (eS_small n 199 Hn ltac:(lia)). pose proof (bT_le n z 199 Hz). pose proof (maj_geo n 199 Hn).
    assert (g4 199 <= g4 20). { unfold g4. change 199%nat with (20 + 179)%nat. rewrite pow_add. rewrite <- (Rmult_1_r ((/ 4) ^ 20)) at 2. apply Rmult_le_compat_l; [apply pow_le; lra|]. rewrite <- (pow1 179). apply pow_incr. lra. }
    assert (g4 20 <= / 1000000000000) by (unfold g4; cbn [pow]; lra). lra.
  - destruct (ij_turn n z k nu xx4 term sum Hn Hz Fn Vn Ax ltac:(lia) At As) as (At' & As'). cbn [ij_loop]. cbv zeta in At', As'. set (j := b32_ofZ (Z.of_nat (S k))) in *. set (term' := (term * (xx4 / (j * (nu + j))))%b32) in *. set (sum' := (sum + term')%b32) in *.
    destruct (b32_lt (absolute (term' / sum')%b32) limEps) eqn:E.
    + assert (Bk := brk term' sum' (proj1 At') (proj1 As') E). pose proof (eS_small n (S k) Hn ltac:(lia)) as Es. pose proof (eB_small n (S k) Hn ltac:(lia)) as Eb.
      pose proof (app_abs _ _ _ _ As' (bS_le n z (S k) Hn Hz)) as Sa. assert (Ta : Rabs (bT n z (S k)) <= Rabs (valR term') + eB n (S k)).
      { destruct At' as (_ & V). replace (bT n z (S k)) with (valR term' - (valR term' - bT n z (S k))) by ring. eapply Rle_trans; [apply Rabs_triang|]. rewrite Rabs_Ropp. lra. }
      apply app_le with (eSb n (S k) + 21 / 4 * Rabs (bT n z (S k))); [apply app_shift with (bS n z (S k)); [exact As'|apply tail_bound; auto; lia]|]. lra.
    + replace (Z.of_nat (S k) + 1)%Z with (Z.of_nat (S (S k))) by lia. apply IH; auto. lia.
Qed.
