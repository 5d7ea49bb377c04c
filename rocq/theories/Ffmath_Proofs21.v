(** Accuracy of the cube root and of its reciprocal. *)
From Coq Require Import ZArith Reals Lra Lia Psatz Bool List.
From Flocq Require Import Core IEEE754.BinarySingleNaN IEEE754.Binary IEEE754.Bits.
From Verif Require Import Base Arith Ext32 Bits32 Ffmath_Model Ffmath2_Model Ffmath_Spec Ffmath_Proofs Ffmath_Proofs2 Ffmath_Proofs3 Float32 Ffmath_Proofs4 Ffmath_Proofs5 FloatApp PolyBound Ffmath_Proofs6 Ffmath_Proofs12 Ffmath_Proofs20.
Open Scope R_scope.

Lemma k0_R : finite (ofU 1071664131) /\ valR (ofU 1071664131) = P0. Proof. unfold P0. cst. Qed.
Lemma k1_R : finite (ofU 1067458358) /\ valR (ofU 1067458358) = P1. Proof. unfold P1. cst. Qed.
Lemma k2_R : finite (ofU 1057122009) /\ valR (ofU 1057122009) = P2. Proof. unfold P2. cst. Qed.
Lemma one_app : app (flit 1 1) 1 0. Proof. apply app_const; [reflexivity|vm_compute; lra]. Qed.
Lemma third_app : app (flit 1 3) (/ 3) (/ 50000000). Proof. split; [reflexivity|]. apply Rabs_le. vm_compute. lra. Qed.

Lemma cube_near d : 0 < 1 + d -> Rabs ((1 + d) * (1 + d) * (1 + d) - 1) <= 815 / 10000000 -> Rabs d <= 2718 / 100000000.
Proof.
  intros P H. apply Rabs_le_inv in H. apply Rabs_le. split; apply Rnot_lt_le; intros C.
  - set (a := 2718 / 100000000) in *. assert (L : 1 + d < 1 - a) by lra.
    assert ((1 + d) * (1 + d) * (1 + d) < (1 - a) * (1 - a) * (1 - a)) by (apply Rmult_gt_0_lt_compat; try nra). unfold a in *. lra.
  - assert (0 <= d * d) by nra. assert (0 <= d * (d * d)) by (apply Rmult_le_pos; lra). lra.
Qed.

(** the value after the polynomial step, and its cube *)
Lemma step_real t q e : 0 < t -> 6425 / 10000 <= t * t * t <= 7621 / 10000 -> - u32 <= e <= u32 ->
  let c := t * t * t in Rabs (q - (P0 - c * (P1 - P2 * c))) <= / 2000000 ->
  1 <= P0 - c * (P1 - P2 * c) <= 12 / 10 /\ 86 / 100 <= t <= 92 / 100 /\ Rabs (t * q * (1 + e) - 1) <= 279 / 10000000.
Proof.
  rewrite u32_val. intros Pt Hc He c Hq. set (r := P0 - c * (P1 - P2 * c)) in *.
  assert (Ht : 86 / 100 <= t <= 92 / 100) by (split; apply Rnot_lt_le; intros X; nra).
  assert (Hr : 1 <= r <= 12 / 10) by (unfold r, P0, P1, P2; fold c in Hc; split; nra).
  split; [auto|]. split; [auto|].
  pose proof (refine c Hc) as F. cbv zeta in F. fold r in F.
  assert (N : Rabs (t * r - 1) <= 2718 / 100000000).
  { apply cube_near. - assert (0 < t * r) by (apply Rmult_lt_0_compat; lra). lra.
    - replace ((1 + (t * r - 1)) * (1 + (t * r - 1)) * (1 + (t * r - 1)) - 1) with (c * (r * r * r) - 1) by (unfold c; ring). exact F. }
  replace (t * q * (1 + e) - 1) with ((t * r - 1) + (t * (q - r) + t * q * e)) by ring.
  apply Rabs_le_inv in Hq. apply Rabs_le_inv in N.
  assert (- (92 / 100 / 2000000) <= t * (q - r) <= 92 / 100 / 2000000) by (split; nra).
  assert (0 <= t * q <= 12 / 10) by (split; nra). assert (- (12 / 10 * / 16777216) <= t * q * e <= 12 / 10 * / 16777216) by (split; nra).
  apply Rabs_le. lra.
Qed.

Lemma eps_mul a b n k : - n <= a <= n -> - k <= b <= k -> - (n * k) <= a * b <= n * k.
Proof. intros A B. assert (0 <= n) by lra. assert (0 <= k) by lra. apply Rabs_le_inv. rewrite Rabs_mult. apply Rmult_le_compat; try apply Rabs_pos; apply Rabs_le; lra. Qed.
Lemma eps_comp a b n k : - n <= a - 1 <= n -> - k <= b <= k -> - (n + k + n * k) <= a * (1 + b) - 1 <= n + k + n * k.
Proof. intros A B. pose proof (eps_mul (a - 1) b n k A B). replace (a * (1 + b) - 1) with ((a - 1) + b + (a - 1) * b) by ring. lra. Qed.

(** the correction step *)
Lemma last_real p T V D e1 e2 e3 e : Rabs (p - 1) <= 279 / 10000000 -> - u32 <= e1 <= u32 -> - u32 <= e2 <= u32 -> - u32 <= e3 <= u32 -> - u32 <= e <= u32 ->
  D = p * (1 + e1) * p * (1 + e2) -> T = D * p * (1 + e3) -> Rabs (V - (1 + / 3 * (1 - T))) <= 6 / 100000000 ->
  Rabs (V * p * (1 + e) - 1) <= 2 / 10000000 /\ Rabs (V * D * (1 + e) - 1) <= 3 / 100000.
Proof.
  rewrite u32_val. intros Hp H1 H2 H3 H -> -> HV. apply Rabs_le_inv in Hp. apply Rabs_le_inv in HV.
  set (a := (1 + e1) * (1 + e2)). assert (A : - (2001 / 1000 / 16777216) <= a - 1 <= 2001 / 1000 / 16777216) by (unfold a; pose proof (eps_comp (1 + e1) e2 (/ 16777216) (/ 16777216) ltac:(lra) H2); lra).
  set (b := a * (1 + e3)). assert (B : - (3002 / 1000 / 16777216) <= b - 1 <= 3002 / 1000 / 16777216) by (unfold b; pose proof (eps_comp a e3 _ _ A H3); lra).
  replace (p * (1 + e1) * p * (1 + e2) * p * (1 + e3)) with (p * p * p * b) in HV by (unfold b, a; ring).
  replace (V * (p * (1 + e1) * p * (1 + e2)) * (1 + e)) with (V * p * (1 + e) * (p * a)) by (unfold a; ring).
  clearbody b a. clear H1 H2 H3 e1 e2 e3.
  assert (Q : 0 <= 1 - p * (1 + / 3 * (1 - p * p * p)) <= 2 / 1000000000).
  { replace (1 - p * (1 + / 3 * (1 - p * p * p))) with ((p - 1) * (p - 1) * ((p * p + 2 * p + 3) / 3)) by field.
    assert (0 <= (p - 1) * (p - 1) <= 279 / 10000000 * (279 / 10000000)) by (split; [apply Rle_0_sqr|apply eps_mul; lra]). assert (0 <= (p * p + 2 * p + 3) / 3 <= 21 / 10) by (split; nra).
    split; [apply Rmult_le_pos; lra|]. apply Rle_trans with (279 / 10000000 * (279 / 10000000) * (21 / 10)); [apply Rmult_le_compat; lra|lra]. }
  assert (PP : 9999 / 10000 <= p * p <= 10001 / 10000) by (split; nra). assert (P3 : 9998 / 10000 <= p * p * p <= 10002 / 10000) by (split; nra).
  set (y := p * p * p) in *. assert (Y4 : 9997 / 10000 <= p * y <= 10003 / 10000) by (clearbody y; split; nra).
  assert (G : - (12195 / 100000000000) <= V * p - 1 <= 12195 / 100000000000).
  { replace (V * p - 1) with ((V - (1 + / 3 * (1 - y * b))) * p - / 3 * (p * y) * (b - 1) - (1 - p * (1 + / 3 * (1 - y)))) by ring.
    assert (- (60002 / 1000000000000) <= (V - (1 + / 3 * (1 - y * b))) * p <= 60002 / 1000000000000) by (split; nra).
    assert (- (5968 / 100000000000) <= / 3 * (p * y) * (b - 1) <= 5968 / 100000000000) by (set (py := p * y) in *; clearbody py; split; nra).
    lra. }
  set (g := V * p) in *. clearbody g. assert (G2 : - (19 / 100000000) <= g * (1 + e) - 1 <= 19 / 100000000) by (split; nra).
  split; [apply Rabs_le; lra|]. set (h := g * (1 + e)) in *. clearbody h.
  assert (PA : - (281 / 10000000) <= p * a - 1 <= 281 / 10000000) by (split; nra). set (pa := p * a) in *. clearbody pa. apply Rabs_le. split; nra.
Qed.

Definition core_y (x z : float) : float :=
  let c := (x * z * z * z)%b32 in (z * (ofU 1071664131 - (c * (ofU 1067458358 - (ofU 1057122009 * c)))))%b32.
Definition core_d (x z : float) : float := (x * core_y x z * core_y x z)%b32.
Definition core_v (x z : float) : float := (flit 1 1 + (flit 1 3 * (flit 1 1 - (core_d x z * core_y x z))))%b32.

Lemma core_ok x z s : finite x -> finite z -> 0 < valR z -> 0 < s -> s * s * s = valR x -> bpow radix2 (-126) <= valR x <= bpow radix2 128 ->
  Rabs (valR x * (valR z * valR z * valR z) - 7023 / 10000) <= 598 / 10000 ->
  finite (core_v x z * core_y x z)%b32 /\ Rabs (valR (core_v x z * core_y x z)%b32 * s - 1) <= 2 / 10000000 /\
  finite (core_v x z * core_d x z)%b32 /\ Rabs (valR (core_v x z * core_d x z)%b32 - s) <= 3 / 100000 * s.
Proof.
  intros Fx Fz Pz Ps E Bx G. destruct (root_range s _ Ps E Bx) as (S1 & S2). pose proof u32_val as U.
  set (t := valR z * s). assert (Pt : 0 < t) by (apply Rmult_lt_0_compat; auto).
  assert (Vz : valR z = t * / s) by (unfold t; field; lra).
  assert (Vx : valR x = s * s * s) by auto.
  assert (TC : t * t * t = valR x * (valR z * valR z * valR z)) by (rewrite <- E; unfold t; ring).
  assert (HC : 6425 / 10000 <= t * t * t <= 7621 / 10000) by (rewrite TC; apply Rabs_le_inv in G; lra). clear TC G.
  assert (Ht : 86 / 100 <= t <= 92 / 100) by (split; apply Rnot_lt_le; intros X; nra).
  assert (B1 : bpow radix2 (-100) <= s <= bpow radix2 100) by (split; [apply Rle_trans with (2 := S1)|apply Rle_trans with (1 := S2)]; apply bpow_le; lia).
  assert (B2 : bpow radix2 (-100) <= s * s <= bpow radix2 100).
  { pose proof (bp (-42)). split.
    - apply Rle_trans with (bpow radix2 (-42) * bpow radix2 (-42)); [rewrite <- bpow_plus; apply bpow_le; lia|]. apply Rmult_le_compat; lra.
    - apply Rle_trans with (bpow radix2 43 * bpow radix2 43); [apply Rmult_le_compat; lra|rewrite <- bpow_plus; apply bpow_le; lia]. }
  assert (B0 : bpow radix2 (-100) <= 1 <= bpow radix2 100) by (change 1 with (bpow radix2 0); split; apply bpow_le; lia).
  assert (Bi : bpow radix2 (-100) <= / s <= bpow radix2 100).
  { change (bpow radix2 (-100)) with (/ bpow radix2 100). split; [apply Rinv_le; lra|]. 
    replace (bpow radix2 100) with (/ bpow radix2 (-100)) by (rewrite <- bpow_opp; reflexivity). apply Rinv_le; [apply bp|lra]. }
  (* the seed squared and cubed *)
  destruct (mulS x z t (s * s) Fx Fz) as (e1 & H1 & F1 & W1); [rewrite Vx, Vz; field; lra|lra|auto|].
  assert (T1 : 85 / 100 <= t * (1 + e1) <= 93 / 100) by (rewrite U in *; split; nra).
  destruct (mulS (x * z)%b32 z (t * (1 + e1) * t) s F1 Fz) as (e2 & H2 & F2 & W2); [rewrite W1, Vz; field; lra|set (a := t * (1 + e1)) in *; clearbody a; split; nra|auto|].
  assert (T2 : 7 / 10 <= t * (1 + e1) * t * (1 + e2) <= 9 / 10) by (set (a := t * (1 + e1)) in *; clearbody a; rewrite U in *; assert (73 / 100 <= a * t <= 86 / 100) by (split; nra); split; nra).
  destruct (mulS (x * z * z)%b32 z (t * (1 + e1) * t * (1 + e2) * t) 1 F2 Fz) as (e3 & H3 & F3 & W3); [rewrite W2, Vz; field; lra|set (a := t * (1 + e1) * t * (1 + e2)) in *; clearbody a; split; nra|auto|].
  set (c := (x * z * z * z)%b32) in *. set (C := t * t * t) in *.
  assert (Ac : app c C (14 / 100000000)).
  { split; [auto|]. rewrite W3. replace (t * (1 + e1) * t * (1 + e2) * t * (1 + e3) * 1 - C) with (C * ((1 + e1) * (1 + e2) * (1 + e3) - 1)) by (unfold C; ring).
    rewrite Rabs_mult, (Rabs_pos_eq C) by lra. rewrite U in *.
    assert (K : - (3001 / 1000 / 16777216) <= (1 + e1) * (1 + e2) * (1 + e3) - 1 <= 3001 / 1000 / 16777216).
    { set (a := (1 + e1) * (1 + e2)). assert (- (20001 / 10000 / 16777216) <= a - 1 <= 20001 / 10000 / 16777216) by (unfold a; split; nra). clearbody a. split; nra. }
    apply Rle_trans with (7621 / 10000 * (3001 / 1000 / 16777216)); [apply Rmult_le_compat; try lra; [apply Rabs_pos|apply Rabs_le; exact K]|lra]. }
  assert (HCa : Rabs C <= 7621 / 10000) by (rewrite Rabs_pos_eq; lra).
  destruct k0_R as (Fk0 & Vk0). destruct k1_R as (Fk1 & Vk1). destruct k2_R as (Fk2 & Vk2).
  assert (A1 : app (ofU 1057122009 * c)%b32 (P2 * C) (1 / 10000000)).
  { apply (app_mul _ P2 0 (51 / 100) c C (14 / 100000000) (7621 / 10000)); auto; [apply app_const; auto|unfold P2; rewrite Rabs_pos_eq; lra|num|num]. }
  assert (N1 : 32 / 100 <= P2 * C <= 39 / 100) by (unfold P2; split; nra).
  assert (A2 : app (ofU 1067458358 - (ofU 1057122009 * c))%b32 (P1 - P2 * C) (16 / 100000000)).
  { apply (app_sub _ P1 0 _ (P2 * C) (1 / 10000000) (94 / 100)); auto; [apply app_const; auto|unfold P1; rewrite Rabs_pos_eq; lra|num|num]. }
  assert (N2 : 86 / 100 <= P1 - P2 * C <= 94 / 100) by (unfold P1; lra).
  assert (A3 : app (c * (ofU 1067458358 - (ofU 1057122009 * c)))%b32 (C * (P1 - P2 * C)) (32 / 100000000)).
  { apply (app_mul _ C (14 / 100000000) (7621 / 10000) _ (P1 - P2 * C) (16 / 100000000) (94 / 100)); auto; [rewrite Rabs_pos_eq; lra|num|num]. }
  set (r := P0 - C * (P1 - P2 * C)).
  assert (Hr : 1 <= r <= 12 / 10) by (unfold r, P0, P1, P2; fold C in HC; split; nra).
  assert (A4 : app (ofU 1071664131 - (c * (ofU 1067458358 - (ofU 1057122009 * c))))%b32 r (/ 2000000)).
  { apply (app_sub _ P0 0 _ (C * (P1 - P2 * C)) (32 / 100000000) (12 / 10)); auto; [apply app_const; auto|fold r; rewrite Rabs_pos_eq; lra|num|num]. }
  set (f := (ofU 1071664131 - (c * (ofU 1067458358 - (ofU 1057122009 * c))))%b32) in *. destruct A4 as (Ff & A4). set (q := valR f) in *.
  assert (Hq : 99 / 100 <= q <= 121 / 100) by (apply Rabs_le_inv in A4; lra).
  (* y = seed * f *)
  destruct (mulS z f (t * q) (/ s) Fz Ff) as (e4 & H4 & F4 & W4); [rewrite Vz; fold q; ring|split; nra|auto|].
  assert (YD : core_y x z = (z * f)%b32) by reflexivity. set (y := core_y x z) in *. rewrite <- YD in F4, W4. clear YD.
  destruct (step_real t q e4 Pt HC H4) as (_ & _ & Np); [exact A4|].
  set (p := t * q * (1 + e4)) in *. pose proof (Rabs_le_inv _ _ Np) as Np'. clearbody p.
  (* d = x y y *)
  destruct (mulS x y p (s * s) Fx F4) as (e5 & H5 & F5 & W5); [rewrite Vx, W4; field; lra|lra|auto|].
  assert (T5 : 999 / 1000 <= p * (1 + e5) <= 1001 / 1000) by (rewrite U in *; split; nra).
  destruct (mulS (x * y)%b32 y (p * (1 + e5) * p) s F5 F4) as (e6 & H6 & F6 & W6); [rewrite W5, W4; field; lra|set (a := p * (1 + e5)) in *; clearbody a; split; nra|auto|].
  set (D := p * (1 + e5) * p * (1 + e6)) in *.
  assert (T6 : 998 / 1000 <= D <= 1002 / 1000) by (unfold D; set (a := p * (1 + e5)) in *; clearbody a; rewrite U in *; assert (9989 / 10000 <= a * p <= 10011 / 10000) by (split; nra); split; nra).
  assert (DD : core_d x z = (x * y * y)%b32) by reflexivity. set (d := core_d x z) in *. rewrite <- DD in F6, W6. clear DD.
  destruct (mulS d y (D * p) 1 F6 F4) as (e7 & H7 & F7 & W7); [rewrite W6, W4; field; lra|split; nra|auto|].
  set (T := D * p * (1 + e7)) in *. rewrite Rmult_1_r in W7.
  assert (T7 : Rabs (1 - T) <= 85 / 1000000).
  { rewrite U in *. pose proof (eps_comp p e5 _ _ Np' H5) as Q1. set (a := p * (1 + e5)) in *.
    assert (Q1' : - (280 / 10000000) <= a - 1 <= 280 / 10000000) by lra. pose proof (eps_comp a (p - 1) _ _ Q1' Np') as Q2. replace (a * (1 + (p - 1))) with (a * p) in Q2 by ring.
    assert (Q2' : - (560 / 10000000) <= a * p - 1 <= 560 / 10000000) by lra. pose proof (eps_comp (a * p) e6 _ _ Q2' H6) as Q3. fold D in Q3.
    assert (Q3' : - (561 / 10000000) <= D - 1 <= 561 / 10000000) by lra. pose proof (eps_comp D (p - 1) _ _ Q3' Np') as Q4. replace (D * (1 + (p - 1))) with (D * p) in Q4 by ring.
    assert (Q4' : - (842 / 10000000) <= D * p - 1 <= 842 / 10000000) by lra. pose proof (eps_comp (D * p) e7 _ _ Q4' H7) as Q5. fold T in Q5. apply Rabs_le. lra. }
  assert (At : app (d * y)%b32 T 0) by (rewrite <- W7; apply app_self; auto).
  assert (A5 : app (flit 1 1 - (d * y))%b32 (1 - T) (1 / 100000000000)) by (apply (app_sub _ 1 0 _ T 0 (85 / 1000000)); auto using one_app; num).
  assert (A6 : app (flit 1 3 * (flit 1 1 - (d * y)))%b32 (/ 3 * (1 - T)) (1 / 100000000000)).
  { apply (app_mul _ (/ 3) (/ 50000000) (334 / 1000) _ (1 - T) (1 / 100000000000) (85 / 1000000)); auto using third_app; [rewrite Rabs_pos_eq; lra|num|num]. }
  assert (A7 : app (core_v x z) (1 + / 3 * (1 - T)) (6 / 100000000)).
  { apply (app_add _ 1 0 _ (/ 3 * (1 - T)) (1 / 100000000000) (10001 / 10000)); auto using one_app; [|num|num]. apply Rabs_le_inv in T7. rewrite Rabs_pos_eq; lra. }
  destruct A7 as (Fv & A7). set (v := core_v x z) in *. set (V := valR v) in *.
  assert (HV : 9 / 10 <= V <= 11 / 10) by (apply Rabs_le_inv in T7; apply Rabs_le_inv in A7; lra).
  destruct (mulS v y (V * p) (/ s) Fv F4) as (e8 & H8 & F8 & W8); [fold V; rewrite W4; ring|split; nra|auto|].
  destruct (mulS v d (V * D) s Fv F6) as (e9 & H9 & F9 & W9); [fold V; rewrite W6; ring|split; nra|auto|].
  destruct (last_real p T V D e5 e6 e7 e8 Np H5 H6 H7 H8 eq_refl eq_refl A7) as (R1 & _).
  destruct (last_real p T V D e5 e6 e7 e9 Np H5 H6 H7 H9 eq_refl eq_refl A7) as (_ & R2).
  split; [exact F8|]. split; [rewrite W8; replace (V * p * (1 + e8) * / s * s - 1) with (V * p * (1 + e8) - 1) by (field; lra); exact R1|].
  split; [exact F9|]. rewrite W9. replace (V * D * (1 + e9) * s - s) with ((V * D * (1 + e9) - 1) * s) by ring. rewrite Rabs_mult, (Rabs_pos_eq s) by lra.
  apply Rmult_le_compat_r; lra.
Qed.

Lemma cbrt_pos x s : is_normal x -> 0 < s -> s * s * s = valR x ->
  finite (rCbrt x) /\ Rabs (valR (rCbrt x) * s - 1) <= 2 / 10000000 /\
  finite (cbrt x) /\ Rabs (valR (cbrt x) - s) <= 3 / 100000 * s.
Proof.
  intros N Ps E. assert (P : 0 < valR x) by (rewrite <- E; repeat apply Rmult_lt_0_compat; auto).
  destruct (normal_pat x N) as (sg & Ex & M & -> & HE & HM). rewrite pat_R in P by lia.
  assert (sg = false) as ->. { destruct sg; auto. cbn [sgnR] in P. pose proof (mag_nonneg Ex M ltac:(lia)). lra. }
  unfold rCbrt, cbrt, compute_cbrt.
  assert (b32_lt (pat false Ex M) (flit 0 1) = false) as L0.
  { destruct (b32_lt (pat false Ex M) (flit 0 1)) eqn:L; auto. exfalso. pose proof (b32_lt_nan _ _ L) as (Nn & _). apply gt_0 in L; auto. rewrite ext_pat in L by lia. cbn [sgnR] in *. lra. }
  assert (isZero (pat false Ex M) = false) as ->.
  { destruct (isZero (pat false Ex M)) eqn:Z0; auto. apply isZero_ok in Z0. destruct Z0 as (_ & Z0). rewrite pat_R in Z0 by lia. lra. }
  cbv zeta. change (b32_lt (pat false Ex M) (flit 0 1)) with (pat false Ex M <? flit 0 1)%b32 in L0. rewrite L0. rewrite asU_pat by lia. destruct (cbrt_guess Ex M HE HM) as (z & -> & Fz & Pz & Bg).
  destruct (mag_bounds Ex M ltac:(lia) HM) as (LV & UV).
  set (x := pat false Ex M) in *. assert (VX : valR x = mag Ex M) by (unfold x; rewrite pat_R by lia; cbn [sgnR]; ring).
  assert (FX : finite x) by (unfold x; rewrite pat_finite by lia; destruct (Z.eqb_spec Ex 255); auto; lia).
  rewrite <- VX in *. clearbody x.
  apply (core_ok x z s); auto. split; [apply Rle_trans with (2 := LV); apply bpow_le; lia|].
  apply Rlt_le, Rlt_le_trans with (1 := UV). apply bpow_le. lia.
Qed.
