(** Linear interpolation in binary32 (C137). *)
From Coq Require Import ZArith Reals Lra Lia Bool List.
From Flocq Require Import Core Relative Plus_error IEEE754.BinarySingleNaN IEEE754.Binary IEEE754.Bits.
From Verif Require Import Base BaseLemmas Arith Ffmath_Spec Float32 Interp1_Model Interp1_Spec Interp1_Proofs Fir32_Spec Fir32_Proofs Mean32_Proofs Smoother_Proofs4.
Import ListNotations.
Open Scope R_scope.

Lemma u_val : u32 = / 16777216. Proof. reflexivity. Qed.

(** Sums of two binary32 numbers carry a relative error only. *)
Lemma sum_rel (x y : R) : generic_format radix2 (FLT_exp (-149) 24) x -> generic_format radix2 (FLT_exp (-149) 24) y -> exists e, Rabs e <= u32 /\ rnd (x + y) = (x + y) * (1 + e).
Proof.
  intros Gx Gy. destruct (FLT_plus_error_N_ex radix2 (-149) 24 (fun x => negb (Z.even x)) x y Gx Gy) as (e & He & H).
  exists e. split; [|exact H]. apply Rle_trans with (1 := He).
  assert (U : u_ro radix2 24 = / 16777216). { unfold u_ro. cbn. lra. } rewrite U, u_val. lra.
Qed.
Lemma plus_rel (x y : binary32) : exists e, Rabs e <= u32 /\ rnd (valR x + valR y) = (valR x + valR y) * (1 + e).
Proof. apply sum_rel; apply format_val. Qed.
Lemma minus_rel (x y : binary32) : exists e, Rabs e <= u32 /\ rnd (valR x - valR y) = (valR x - valR y) * (1 + e).
Proof. apply (sum_rel (valR x) (- valR y)); [apply format_val|]. apply generic_format_opp, format_val. Qed.

Lemma rnd_split x : exists e g, Rabs e <= u32 /\ Rabs g <= eta /\ rnd x = x * (1 + e) + g.
Proof.
  pose proof (rnd_err x) as H. change (bpow radix2 (-150)) with eta in H. pose proof u_pos as U. pose proof eta_pos as E.
  destruct (Req_dec x 0) as [->|N]. { exists 0, (rnd 0). rewrite Rabs_R0 in *. split; [lra|]. split; [|ring]. rewrite Rminus_0_r in H. lra. }
  pose proof (Rabs_pos_lt _ N) as P.
  set (d := rnd x - x) in *. set (w := u32 * Rabs x + eta). assert (W : 0 < w) by (unfold w; nra).
  exists (d / w * u32 * Rabs x / x), (d / w * eta).
  assert (Q : Rabs (d / w) <= 1). { unfold Rdiv. rewrite Rabs_mult, Rabs_inv, (Rabs_pos_eq w) by lra. apply Rmult_le_reg_r with w; auto. rewrite Rmult_assoc, Rinv_l by lra. unfold w in *; lra. }
  split; [|split].
  - replace (d / w * u32 * Rabs x / x) with (d / w * u32 * (Rabs x / x)) by (field; lra). rewrite !Rabs_mult, (Rabs_pos_eq u32) by lra.
    assert (Rabs (Rabs x / x) = 1). { unfold Rdiv. rewrite Rabs_mult, Rabs_Rabsolu, Rabs_inv. field. lra. } rewrite H0. pose proof (Rabs_pos (d / w)). nra.
  - rewrite Rabs_mult, (Rabs_pos_eq eta) by lra. pose proof (Rabs_pos (d / w)). nra.
  - replace (x * (1 + d / w * u32 * Rabs x / x) + d / w * eta) with (x + d / w * w); [|unfold w; field; split; [|exact N]; unfold w in W; lra].
    replace (d / w * w) with d by (field; lra). unfold d. ring.
Qed.

Lemma five a b c f k : Rabs a <= u32 -> Rabs b <= u32 -> Rabs c <= u32 -> Rabs f <= u32 -> Rabs k <= u32 ->
  Rabs ((1 + a) / (1 + b) * (1 + f) * (1 + c) * (1 + k) - 1) <= 6 * u32.
Proof.
  rewrite u_val. intros A B C D K. apply Rabs_le_inv in A, B, C, D, K. set (v := / 16777216) in *. assert (V : v = / 16777216) by reflexivity. 
  assert (B1 : 1 - v <= / (1 + b) <= 1 + v + v * v * 2).
  { split; [apply Rmult_le_reg_r with (1 + b); [lra|]; rewrite Rinv_l by lra; apply Rle_trans with ((1 - v) * (1 + v)); [apply Rmult_le_compat_l; lra|rewrite V; lra]|apply Rmult_le_reg_r with (1 + b); [lra|]; rewrite Rinv_l by lra].
    apply Rle_trans with ((1 + v + v * v * 2) * (1 - v)); [|apply Rmult_le_compat_l; [rewrite V; lra|lra]]. rewrite V. lra. }
  assert (M : forall p q lo hi lo' hi', 0 <= lo -> 0 <= lo' -> lo <= p <= hi -> lo' <= q <= hi' -> lo * lo' <= p * q <= hi * hi').
  { intros p q lo hi lo' hi' H1 H2 H3 H4. split; apply Rmult_le_compat; lra. }
  assert (X1 : 1 - 12 / 5 * v <= (1 + a) * / (1 + b) <= 1 + 12 / 5 * v).
  { destruct (M (1 + a) (/ (1 + b)) (1 - v) (1 + v) (1 - v) (1 + v + v * v * 2)) as (P1 & P2); try lra.
    split; [eapply Rle_trans; [|exact P1]|eapply Rle_trans; [exact P2|]]; rewrite V; lra. }
  assert (X2 : 1 - 18 / 5 * v <= (1 + a) * / (1 + b) * (1 + f) <= 1 + 18 / 5 * v).
  { destruct (M ((1 + a) * / (1 + b)) (1 + f) (1 - 12 / 5 * v) (1 + 12 / 5 * v) (1 - v) (1 + v)) as (P1 & P2); try lra.
    split; [eapply Rle_trans; [|exact P1]|eapply Rle_trans; [exact P2|]]; rewrite V; lra. }
  assert (X3 : 1 - 24 / 5 * v <= (1 + a) * / (1 + b) * (1 + f) * (1 + c) <= 1 + 24 / 5 * v).
  { destruct (M ((1 + a) * / (1 + b) * (1 + f)) (1 + c) (1 - 18 / 5 * v) (1 + 18 / 5 * v) (1 - v) (1 + v)) as (P1 & P2); try lra.
    split; [eapply Rle_trans; [|exact P1]|eapply Rle_trans; [exact P2|]]; rewrite V; lra. }
  assert (X4 : 1 - 30 / 5 * v <= (1 + a) * / (1 + b) * (1 + f) * (1 + c) * (1 + k) <= 1 + 30 / 5 * v).
  { destruct (M ((1 + a) * / (1 + b) * (1 + f) * (1 + c)) (1 + k) (1 - 24 / 5 * v) (1 + 24 / 5 * v) (1 - v) (1 + v)) as (P1 & P2); try lra.
    split; [eapply Rle_trans; [|exact P1]|eapply Rle_trans; [exact P2|]]; rewrite V; lra. }
  unfold Rdiv. apply Rabs_le. lra.
Qed.

Definition fline (x x0 x1 y0 y1 : binary32) : binary32 :=
  b32_plus mode_NE y0 (b32_mult mode_NE (b32_div mode_NE (b32_minus mode_NE y1 y0) (b32_minus mode_NE x1 x0)) (b32_minus mode_NE x x0)).

Lemma line_err (x x0 x1 y0 y1 : binary32) : finite x0 -> finite x1 -> valR x0 < valR x1 -> valR x1 - valR x0 <= big -> valR x0 <= valR x <= valR x1 ->
  finite (fline x x0 x1 y0 y1) ->
  Rabs (valR (fline x x0 x1 y0 y1) - through (valR x0) (valR y0) (valR x1) (valR y1) (valR x)) <=
    u32 * Rabs (valR y0) + 8 * u32 * Rabs (valR y1 - valR y0) + 2 * eta * (1 + (valR x - valR x0)).
Proof.
  intros F0 F1 L B Hx Fi. unfold fline in *. destruct (minus_R x1 x0 F1 F0) as (Fh & Vh); [rewrite Rabs_pos_eq; lra|].
  destruct (minus_rel x1 x0) as (b & Hb & Eb). rewrite Eb in Vh.
  assert (U := u_val). assert (Nh : valR (b32_minus mode_NE x1 x0) <> 0). { rewrite Vh. apply Rabs_le_inv in Hb. apply Rgt_not_eq. apply Rmult_lt_0_compat; lra. }
  destruct (plus_fin _ _ Fi) as (_ & Fp & V). destruct (mult_fin _ _ Fp) as (Fq & Fe & Vp). destruct (div_fin _ _ Fh Nh Fq) as (Fd & Vq).
  destruct (minus_fin _ _ Fd) as (_ & _ & Vd). destruct (minus_fin _ _ Fe) as (_ & _ & Ve).
  destruct (minus_rel y1 y0) as (a & Ha & Ea). destruct (minus_rel x x0) as (c & Hc & Ec). rewrite Ea in Vd. rewrite Ec in Ve.
  destruct (plus_rel y0 (b32_mult mode_NE (b32_div mode_NE (b32_minus mode_NE y1 y0) (b32_minus mode_NE x1 x0)) (b32_minus mode_NE x x0))) as (m & Hm & Em).
  pose proof (eq_trans V Em) as V'. clear V Em. rename V' into V. rewrite Vp, Vq, Vd, Vh, Ve in V. clear Vp Vq Vd Vh Ve Ea Eb Ec Nh.
  set (D := valR y1 - valR y0) in *. set (h := valR x1 - valR x0) in *. set (E := valR x - valR x0) in *.
  destruct (rnd_split (D * (1 + a) / (h * (1 + b)))) as (f & g & Hf & Hg & Eq). rewrite Eq in V. clear Eq.
  destruct (rnd_split ((D * (1 + a) / (h * (1 + b)) * (1 + f) + g) * (E * (1 + c)))) as (k & l & Hk & Hl & Ep). rewrite Ep in V. clear Ep.
  pose proof (five a b c f k Ha Hb Hc Hf Hk) as W. set (w := (1 + a) / (1 + b) * (1 + f) * (1 + c) * (1 + k) - 1) in *.
  assert (Hh : 0 < h) by (unfold h; lra). assert (HE : 0 <= E <= h) by (unfold E, h; lra).
  assert (T : through (valR x0) (valR y0) (valR x1) (valR y1) (valR x) = valR y0 + D * (E / h)) by (unfold through, D, E, h in *; field; lra).
  set (r := E / h) in *. assert (R : 0 <= r <= 1). { unfold r. split; [apply Rmult_le_pos; [lra|apply Rlt_le, Rinv_0_lt_compat; lra]|apply Rmult_le_reg_r with h; auto; unfold Rdiv; rewrite Rmult_assoc, Rinv_l by lra; lra]. }
  set (z := g * E * (1 + c) * (1 + k) + l) in *.
  assert (P : (D * (1 + a) / (h * (1 + b)) * (1 + f) + g) * (E * (1 + c)) * (1 + k) + l = D * r * (1 + w) + z).
  { unfold z, w, r. apply Rabs_le_inv in Hb. field. split; lra. }
  rewrite P in V. clear P.
  assert (Z : Rabs z <= eta * (1 + E * (1 + 3 * u32))).
  { unfold z. apply Rle_trans with (1 := Rabs_triang _ _). rewrite !Rabs_mult, (Rabs_pos_eq E) by lra.
    assert (C1 : Rabs (1 + c) * Rabs (1 + k) <= 1 + 3 * u32).
    { apply Rle_trans with ((1 + u32) * (1 + u32)); [|rewrite U; lra]. apply Rabs_le_inv in Hc, Hk. apply Rmult_le_compat; try apply Rabs_pos; apply Rabs_le; lra. }
    assert (C2 : Rabs g * E * Rabs (1 + c) * Rabs (1 + k) <= eta * E * (1 + 3 * u32)).
    { rewrite !Rmult_assoc. rewrite <- !Rmult_assoc. rewrite (Rmult_assoc (Rabs g * E)). apply Rmult_le_compat; [apply Rmult_le_pos; [apply Rabs_pos|lra]|apply Rmult_le_pos; apply Rabs_pos| |exact C1]. apply Rmult_le_compat_r; lra. }
    lra. }
  match type of V with valR ?t = _ => assert (V' : valR t - (valR y0 + D * r) = (valR y0 + D * r) * m + (D * r * w + z) * (1 + m)) by (rewrite V; ring) end.
  rewrite T. refine (eq_rect_r (fun t => Rabs t <= _) _ V').
  clear - Hm W Z R U HE. pose proof eta_pos as Pe.
  assert (A1 : Rabs (valR y0 + D * r) <= Rabs (valR y0) + Rabs D).
  { apply Rle_trans with (1 := Rabs_triang _ _). rewrite Rabs_mult, (Rabs_pos_eq r) by lra. pose proof (Rabs_pos D). nra. }
  assert (A2 : Rabs (D * r * w + z) <= Rabs D * (6 * u32) + eta * (1 + E * (1 + 3 * u32))).
  { apply Rle_trans with (1 := Rabs_triang _ _). apply Rplus_le_compat; [|exact Z]. rewrite !Rabs_mult, (Rabs_pos_eq r) by lra.
    apply Rmult_le_compat; [apply Rmult_le_pos; [apply Rabs_pos|lra]|apply Rabs_pos| |exact W]. pose proof (Rabs_pos D). nra. }
  assert (A3 : Rabs (1 + m) <= 1 + u32) by (apply Rabs_le_inv in Hm; apply Rabs_le; lra).
  apply Rle_trans with (1 := Rabs_triang _ _). rewrite 2!Rabs_mult.
  apply Rle_trans with ((Rabs (valR y0) + Rabs D) * u32 + (Rabs D * (6 * u32) + eta * (1 + E * (1 + 3 * u32))) * (1 + u32)).
  { apply Rplus_le_compat; apply Rmult_le_compat; auto; apply Rabs_pos. }
  pose proof (Rabs_pos D) as PD. assert (PE : 0 <= eta * E) by (apply Rmult_le_pos; lra). rewrite U. 
  set (EE := eta * E) in *. replace (2 * eta * (1 + E)) with (2 * eta + 2 * EE) by (unfold EE; ring).
  match goal with |- context [ eta * ?t ] => replace (eta * t) with (eta + EE * (1 + 3 * / 16777216)) by (unfold EE; ring) end. lra.
Qed.

(** Equal ordinates are reproduced. *)
Lemma line_flat (x x0 x1 y0 y1 : binary32) : finite x -> finite x0 -> finite x1 -> finite y0 -> finite y1 -> valR y1 = valR y0 -> Rabs (valR y0) <= big ->
  valR x0 < valR x1 -> valR x1 - valR x0 <= big -> valR x0 <= valR x <= valR x1 ->
  finite (fline x x0 x1 y0 y1) /\ valR (fline x x0 x1 y0 y1) = valR y0.
Proof.
  intros Fx F0 F1 G0 G1 E By L B Hx. unfold fline.
  assert (B0 : Rabs 0 <= big) by (rewrite Rabs_R0; apply bpow_ge_0).
  destruct (minus_R x1 x0 F1 F0) as (Fh & Vh); [rewrite Rabs_pos_eq; lra|]. destruct (minus_rel x1 x0) as (b & Hb & Eb). rewrite Eb in Vh. pose proof u_val as U.
  assert (Nh : valR (b32_minus mode_NE x1 x0) <> 0). { rewrite Vh. apply Rabs_le_inv in Hb. apply Rgt_not_eq. apply Rmult_lt_0_compat; lra. }
  destruct (minus_R x x0 Fx F0) as (Fe & _); [rewrite Rabs_pos_eq; lra|].
  assert (Z : valR y1 - valR y0 = 0) by lra. destruct (minus_R y1 y0 G1 G0) as (Fd & Vd); [rewrite Z; exact B0|]. rewrite Z, round_0 in Vd by apply valid_rnd_N.
  assert (Q : valR (b32_minus mode_NE y1 y0) / valR (b32_minus mode_NE x1 x0) = 0) by (rewrite Vd; unfold Rdiv; ring).
  destruct (div_R _ _ Fd Fh Nh) as (Fq & Vq); [rewrite Q; exact B0|]. rewrite Q, round_0 in Vq by apply valid_rnd_N.
  set (q := b32_div mode_NE (b32_minus mode_NE y1 y0) (b32_minus mode_NE x1 x0)) in *. set (e := b32_minus mode_NE x x0) in *.
  assert (P : valR q * valR e = 0) by (rewrite Vq; ring).
  destruct (mult_R q e Fq Fe) as (Fp & Vp); [rewrite P; exact B0|]. rewrite P, round_0 in Vp by apply valid_rnd_N.
  assert (S : valR y0 + valR (b32_mult mode_NE q e) = valR y0) by (rewrite Vp; ring).
  destruct (plus_R y0 (b32_mult mode_NE q e) G0 Fp) as (Fr & Vr); [rewrite S; exact By|]. rewrite S, rnd_val in Vr. split; assumption.
Qed.

Lemma b32_le_R x y : is_finite 24 128 x = true -> is_finite 24 128 y = true -> b32_le x y = true <-> B2R 24 128 x <= B2R 24 128 y.
Proof.
  intros Hx Hy. unfold b32_le, b32_compare. rewrite Bcompare_correct by auto.
  destruct (Rcompare_spec (B2R 24 128 x) (B2R 24 128 y)); split; intros; try discriminate; try lra; auto.
Qed.

Section Search.
Variable o : oracles binary32.
Variables (tx ty : list binary32) (x d : binary32).
Hypothesis Fx : finite x.
Hypothesis Ft : Forall (fun t : binary32 => finite t) tx.
Hypothesis Ll : length ty = length tx.
Let X i := nth i tx d.
Let Y i := nth i ty d.
Lemma fX i : (i < length tx)%nat -> finite (X i).
Proof. intros H. unfold X. rewrite Forall_forall in Ft. apply Ft. apply nth_In. exact H. Qed.
Lemma search_at k : forall i, (i + k < length tx)%nat -> (0 < k)%nat -> valR (X i) <= valR x -> valR x <= valR (X (i + k)) ->
  exists j, (i <= j < i + k)%nat /\ valR (X j) <= valR x <= valR (X (S j)) /\
    linear_search (A := B32 o) k (Z.of_nat i) x tx ty = Ok (fline x (X j) (X (S j)) (Y j) (Y (S j))).
Proof.
  induction k as [|k IH]; intros i Hk Pk Hl Hr; [lia|].
  assert (Gx : get tx (Z.of_nat i) = Ok (X i)). { rewrite (get_ok_nth tx _ d) by (unfold zlen; lia). rewrite Nat2Z.id. reflexivity. }
  assert (Gs : get tx (Z.of_nat i + 1) = Ok (X (S i))). { rewrite (get_ok_nth tx _ d) by (unfold zlen; lia). replace (Z.to_nat (Z.of_nat i + 1)) with (S i) by lia. reflexivity. }
  assert (Hy : get ty (Z.of_nat i) = Ok (Y i)). { rewrite (get_ok_nth ty _ d) by (unfold zlen; lia). rewrite Nat2Z.id. reflexivity. }
  assert (Hs : get ty (Z.of_nat i + 1) = Ok (Y (S i))). { rewrite (get_ok_nth ty _ d) by (unfold zlen; lia). replace (Z.to_nat (Z.of_nat i + 1)) with (S i) by lia. reflexivity. }
  assert (Fi : finite (X i)) by (apply fX; lia). assert (Fs : finite (X (S i))) by (apply fX; lia).
  assert (N0 : forall j, (S i <= j < S i + k)%nat -> (i <= j < i + S k)%nat) by (intros; lia). assert (N1 : (i <= i < i + S k)%nat) by lia. assert (N2 : (S i + k < length tx)%nat) by lia.
  assert (N3 : (i + S k = S i + k)%nat) by lia. assert (N4 : (0 < k)%nat \/ (k = 0)%nat) by lia. assert (N5 : (Z.of_nat i + 1 = Z.of_nat (S i))%Z) by lia. assert (N6 : (i + 1 = S i)%nat) by lia.
  cbn [linear_search]. change (F (B32 o)) with binary32. rewrite Gx, Gs. cbn [bind]. change (fle (a := B32 o)) with b32_le.
  assert (Cl : b32_le (X i) x = true) by (apply b32_le_R; assumption). rewrite Cl. cbn [andb].
  destruct (b32_le x (X (S i))) eqn:Cr.
  - exists i. split; [exact N1|]. apply b32_le_R in Cr; auto. split; [split; assumption|]. rewrite Hy, Hs. reflexivity.
  - assert (Gt : valR (X (S i)) < valR x). { apply Rnot_le_lt. intros C. apply b32_le_R in C; auto. rewrite C in Cr. discriminate. }
    destruct N4 as [Pk'| ->]; [|rewrite N6 in Hr; lra]. rewrite N3 in Hr.
    destruct (IH (S i) N2 Pk' (Rlt_le _ _ Gt) Hr) as (j & Hj & Hx & E). exists j. split; [apply N0; exact Hj|]. split; [exact Hx|]. rewrite N5. exact E.
Qed.
Lemma linear_at n : length tx = n -> (2 <= n)%nat -> (Z.of_nat n < 2147483648)%Z -> valR (X 0) <= valR x <= valR (X (n - 1)) ->
  exists j, (S j < n)%nat /\ valR (X j) <= valR x <= valR (X (S j)) /\
    linear (A := B32 o) x tx ty (Z.of_nat n) = Ok (fline x (X j) (X (S j)) (Y j) (Y (S j))).
Proof.
  intros L Hn Hz Hx.
  assert (G0 : get tx 0 = Ok (X 0)). { rewrite (get_ok_nth tx _ d) by (unfold zlen; lia). reflexivity. }
  assert (Gl : get tx (Z.of_nat n - 1) = Ok (X (n - 1))). { rewrite (get_ok_nth tx _ d) by (unfold zlen; lia). replace (Z.to_nat (Z.of_nat n - 1)) with (n - 1)%nat by lia. reflexivity. }
  assert (K : Z.to_nat (Z.of_nat n - 1) = (n - 1)%nat) by lia.
  destruct (search_at (n - 1) 0) as (j & Hj & Hj2 & E); [lia|lia|lra|exact (proj2 Hx)|].
  exists j. split; [lia|]. split; [exact Hj2|]. unfold linear. rewrite Z.geb_leb. destruct (Z.leb_spec 2 (Z.of_nat n)); [|lia].
  change (F (B32 o)) with binary32. rewrite G0. cbn [bind]. change (flt (a := B32 o)) with b32_lt.
  assert (C1 : b32_lt x (X 0) = false). { apply not_true_is_false. intros C. apply b32_lt_R in C; [lra|exact Fx|apply fX; lia]. }
  assert (C2 : b32_lt (X (n - 1)) x = false). { apply not_true_is_false. intros C. apply b32_lt_R in C; [lra|apply fX; lia|exact Fx]. }
  rewrite C1, Gl. cbn [bind]. rewrite C2. rewrite to_int_small by lia. destruct (Z.eqb_spec (Z.of_nat n) (-2147483648)); [lia|].
  rewrite K. exact E.
Qed.
End Search.
