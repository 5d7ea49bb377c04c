(** The first guess of the cube root and its refinement. *)
From Coq Require Import ZArith Reals Lra Lia Psatz Bool List.
From Flocq Require Import Core IEEE754.BinarySingleNaN IEEE754.Binary IEEE754.Bits.
From Verif Require Import Base Arith Ext32 Bits32 Ffmath_Model Ffmath2_Model Ffmath_Spec Ffmath_Proofs Ffmath_Proofs2 Ffmath_Proofs3 Float32 Ffmath_Proofs4 Ffmath_Proofs5 PolyBound.
Import ListNotations.
Open Scope R_scope.

Definition CK : Z := 797515.
Lemma CK_val : frac CK = 797515 / 8388608. Proof. reflexivity. Qed.

Lemma cbrt_bits j k M : (0 <= j <= 84)%Z -> (0 <= k <= 2)%Z -> (0 <= M < T23)%Z -> let w := ((k * T23 + M) / 3)%Z in
  ofU (w32 (1418472267 - (sbit false + (3 * j + k) * T23 + M) / 3)) =
  if (w <=? CK)%Z then pat false (169 - j) (CK - w) else pat false (168 - j) (T23 + CK - w).
Proof.
  intros HJ Hk HM w. unfold ofU. unfold sbit.
  assert (K : ((0 + (3 * j + k) * T23 + M) / 3 = j * T23 + w)%Z).
  { unfold w. replace (0 + (3 * j + k) * T23 + M)%Z with ((k * T23 + M) + (j * T23) * 3)%Z by ring. rewrite Z.div_add by lia. ring. }
  assert (W : (0 <= w < T23)%Z). { unfold w. split; [apply Z.div_pos; unfold T23 in *; lia|apply Z.div_lt_upper_bound; unfold T23 in *; lia]. }
  rewrite K. change 1418472267%Z with (169 * T23 + CK)%Z. unfold w32. rewrite Z.mod_small by (unfold M32, T23, CK in *; lia).
  destruct (w <=? CK)%Z; f_equal; ring.
Qed.

Lemma seed_piece m g0 g s : 0 <= m <= 1 -> 0 <= g0 <= 21 / 10 -> g0 <= g <= g0 + / 12582912 -> 0 < s <= / 2 ->
  Rabs ((1 + m) * (g0 * g0 * g0) * s - 7023 / 10000) <= 5979 / 100000 -> Rabs ((1 + m) * (g * g * g) * s - 7023 / 10000) <= 598 / 10000.
Proof.
  intros Hm H0 Hg Hs B. set (e := g - g0). assert (He : 0 <= e <= / 12582912) by (unfold e; lra). replace g with (g0 + e) by (unfold e; ring).
  replace ((1 + m) * ((g0 + e) * (g0 + e) * (g0 + e)) * s - 7023 / 10000) with (((1 + m) * (g0 * g0 * g0) * s - 7023 / 10000) + (1 + m) * (e * (3 * (g0 * g0) + 3 * g0 * e + e * e)) * s) by ring.
  eapply Rle_trans; [apply Rabs_triang|].
  assert (Q : 0 <= 3 * (g0 * g0) + 3 * g0 * e + e * e <= 20). { split; [|nra]. assert (0 <= g0 * g0) by nra. assert (0 <= g0 * e) by nra. assert (0 <= e * e) by nra. lra. }
  set (q := 3 * (g0 * g0) + 3 * g0 * e + e * e) in *. clearbody q.
  assert (Q1 : 0 <= e * q <= / 12582912 * 20) by (split; [apply Rmult_le_pos; lra|apply Rmult_le_compat; lra]).
  assert (Q2 : 0 <= (1 + m) * (e * q) <= 2 * (/ 12582912 * 20)) by (split; [apply Rmult_le_pos; lra|apply Rmult_le_compat; lra]).
  assert (Q3 : 0 <= (1 + m) * (e * q) * s <= 2 * (/ 12582912 * 20) * / 2) by (split; [apply Rmult_le_pos; lra|apply Rmult_le_compat; lra]).
  rewrite (Rabs_pos_eq ((1 + m) * (e * q) * s)) by lra. lra.
Qed.

Ltac poly p D B n s a b :=
  match goal with |- Rabs ?v <= _ =>
    match goal with m : R |- _ =>
      let P := fresh in assert (P : pe p m = IZR D * v) by (unfold pe; field);
      let Q := fresh in assert (Q : Rabs (pe p m) <= IZR B) by (apply (check_ok n s p a b B); [discriminate|vm_compute; reflexivity|lra]);
      rewrite P, Rabs_mult, (Rabs_pos_eq (IZR D)) in Q by lra; lra
    end end.

Lemma seed_A m : 0 <= m <= 2853 / 10000 -> Rabs ((1 + m) * ((1 + 797515 / 8388608 - m / 3) * (1 + 797515 / 8388608 - m / 3) * (1 + 797515 / 8388608 - m / 3)) * / 2 - 7023 / 10000) <= 5979 / 100000.
Proof. intros H. poly [(-910572144395407574529519); 1135656926724014062340625; (-8309241501919095029760000); 3267154777490807848960000; (-368934881474191032320000)]%Z 19922483599606315745280000%Z 1191165294420461618410291%Z 12%nat 10000%Z 0%Z 2853%Z. Qed.
Lemma seed_B m : 2852 / 10000 <= m <= 1 -> Rabs ((1 + m) * ((2 + 797515 / 8388608 - m / 3) * (2 + 797515 / 8388608 - m / 3) * (2 + 797515 / 8388608 - m / 3)) * / 16 - 7023 / 10000) <= 5979 / 100000.
Proof. intros H. poly [(-20329451555279586872620527); 47879919386271292439300625; (-36766607322244526899200000); 6587568710758527139840000; (-368934881474191032320000)]%Z 159379868796850525962240000%Z 9529322355363692947282329%Z 12%nat 10000%Z 2852%Z 10000%Z. Qed.
Lemma seed_1 m : 0 <= m <= 1 -> Rabs ((1 + m) * ((5 / 3 + 797515 / 8388608 - m / 3) * (5 / 3 + 797515 / 8388608 - m / 3) * (5 / 3 + 797515 / 8388608 - m / 3)) * / 8 - 7023 / 10000) <= 5979 / 100000.
Proof. intros H. poly [(-1498752830984242612499951); 23550579722595437755140625; (-25067209426624236748800000); 5480764066335954042880000; (-368934881474191032320000)]%Z 79689934398425262981120000%Z 4764661177681846473641164%Z 12%nat 1024%Z 0%Z 1024%Z. Qed.
Lemma seed_2 m : 0 <= m <= 1 -> Rabs ((1 + m) * ((4 / 3 + 797515 / 8388608 - m / 3) * (4 / 3 + 797515 / 8388608 - m / 3) * (4 / 3 + 797515 / 8388608 - m / 3)) * / 4 - 7023 / 10000) <= 5979 / 100000.
Proof. intros H. poly [1048223324924360702200337; 8707028665694727027460625; (-15581420819849092792320000); 4373959421913380945920000; (-368934881474191032320000)]%Z 39844967199212631490560000%Z 2382330588840923236820582%Z 12%nat 1024%Z 0%Z 1024%Z. Qed.

(** the constants as binary32 stores them *)
Definition P0 : R := 14699523 / 8388608.
Definition P1 : R := 5246875 / 4194304.
Definition P2 : R := 8546009 / 16777216.
Lemma refine c : 6425 / 10000 <= c <= 7621 / 10000 ->
  let q := P0 - c * (P1 - P2 * c) in Rabs (c * (q * q * q) - 1) <= 815 / 10000000.
Proof.
  intros H q. unfold q, P0, P1, P2.
  poly [(-4722366482869645213696); 25409710281951362949336; (-54418734663273178650000); 61007695012154220681132; (-40882437478552982950000); 17734327523523214982178; (-4598420214050549962500); 624151527259208678729]%Z 4722366482869645213696%Z 384872868353876084%Z 16%nat 10000%Z 6425%Z 7621%Z.
Qed.

Lemma cbrt_guess E M : (1 <= E < 255)%Z -> (0 <= M < T23)%Z -> exists z, ofU (w32 (1418472267 - (sbit false + E * T23 + M) / 3)) = z /\ finite z /\ 0 < valR z /\
  Rabs (mag E M * (valR z * valR z * valR z) - 7023 / 10000) <= 598 / 10000.
Proof.
  intros HE HM. set (j := (E / 3)%Z). set (k := (E mod 3)%Z). assert (EJ : E = (3 * j + k)%Z) by (apply Z.div_mod; lia).
  assert (Hk : (0 <= k <= 2)%Z) by (pose proof (Z.mod_pos_bound E 3 ltac:(lia)); unfold k; lia).
  assert (HJ : (0 <= j <= 84)%Z) by lia. rewrite EJ. rewrite cbrt_bits by auto. set (w := ((k * T23 + M) / 3)%Z).
  assert (W : (0 <= w < T23)%Z). { unfold w. split; [apply Z.div_pos; unfold T23 in *; lia|apply Z.div_lt_upper_bound; unfold T23 in *; lia]. }
  pose proof (frac_range M HM) as Hm. set (m := frac M) in *. set (h := frac w).
  assert (Hh : (IZR k + m) / 3 - / 12582912 <= h <= (IZR k + m) / 3).
  { pose proof (Z.div_mod (k * T23 + M) 3 ltac:(lia)) as D. pose proof (Z.mod_pos_bound (k * T23 + M) 3 ltac:(lia)) as R3. fold w in D. set (r := ((k * T23 + M) mod 3)%Z) in *.
    apply (f_equal IZR) in D. rewrite !plus_IZR, !mult_IZR in D. assert (0 <= IZR r <= 2) by (split; apply IZR_le; lia).
    unfold h, m, frac. unfold T23 in *. lra. }
  assert (H0 : 0 <= h). { unfold h, frac, T23. assert (0 <= IZR w) by (apply IZR_le; lia). lra. }
  destruct (Z.leb_spec w CK) as [L|L].
  - assert (k = 0%Z) as K0. { unfold w, CK, T23 in *. assert (k <> 1 /\ k <> 2)%Z; [|lia]. split; intros ->; apply Z.div_lt_upper_bound in L || idtac; assert (X : (797516 <= (1 * 8388608 + M) / 3)%Z) by (apply Z.div_le_lower_bound; lia); assert (X2 : (797516 <= (2 * 8388608 + M) / 3)%Z) by (apply Z.div_le_lower_bound; lia); lia. }
    exists (pat false (169 - j) (CK - w)). split; [reflexivity|]. assert (R : (0 <= CK - w < T23)%Z) by (unfold T23, CK in *; lia).
    split; [rewrite pat_finite by lia; destruct (Z.eqb_spec (169 - j) 255); auto; lia|].
    apply frac_le in L. rewrite CK_val in L. fold h in L.
    rewrite pat_R by lia. cbn [sgnR]. rewrite !mag_frac by lia. rewrite frac_sub, CK_val. fold h m. rewrite Rmult_1_l.
    rewrite K0 in *. set (g := 1 + (797515 / 8388608 - h)). pose proof (bp (169 - j - 127)) as PB.
    assert (G : 0 < g) by (unfold g; lra). split; [apply Rmult_lt_0_compat; auto|].
    assert (PQ : bpow radix2 (3 * j + 0 - 127) * (bpow radix2 (169 - j - 127) * bpow radix2 (169 - j - 127) * bpow radix2 (169 - j - 127)) = / 2).
    { rewrite <- !bpow_plus. replace (3 * j + 0 - 127 + (169 - j - 127 + (169 - j - 127) + (169 - j - 127)))%Z with (-1)%Z by ring. reflexivity. }
    match goal with |- Rabs (?v - _) <= _ => replace v with ((1 + m) * (g * g * g) * / 2) by (rewrite <- PQ; ring) end.
    apply seed_piece with (g0 := 1 + 797515 / 8388608 - m / 3); try lra; try (unfold g; lra). apply seed_A. lra.
  - exists (pat false (168 - j) (T23 + CK - w)). split; [reflexivity|]. assert (R : (0 <= T23 + CK - w < T23)%Z) by (unfold T23, CK in *; lia).
    split; [rewrite pat_finite by lia; destruct (Z.eqb_spec (168 - j) 255); auto; lia|].
    assert (L' : frac (CK + 1) <= h) by (apply frac_le; lia). rewrite frac_add, CK_val in L'. assert (F1 : frac 1 = / 8388608) by (unfold frac, T23; field). rewrite F1 in L'.
    rewrite pat_R by lia. cbn [sgnR]. rewrite !mag_frac by lia. rewrite frac_sub, frac_add, frac_T, CK_val. fold h m. rewrite Rmult_1_l.
    set (g := 1 + (1 + 797515 / 8388608 - h)). pose proof (bp (168 - j - 127)) as PB.
    assert (h <= 1) by (assert (k = 0 \/ k = 1 \/ k = 2)%Z as [-> | [-> | ->]] by lia; lra).
    assert (G : 0 < g) by (unfold g; lra). split; [apply Rmult_lt_0_compat; auto|].
    assert (PQ : bpow radix2 (3 * j + k - 127) * (bpow radix2 (168 - j - 127) * bpow radix2 (168 - j - 127) * bpow radix2 (168 - j - 127)) = bpow radix2 (k - 4)).
    { rewrite <- !bpow_plus. f_equal. ring. }
    match goal with |- Rabs (?v - _) <= _ => replace v with ((1 + m) * (g * g * g) * bpow radix2 (k - 4)) by (rewrite <- PQ; ring) end.
    assert (k = 0 \/ k = 1 \/ k = 2)%Z as [K0|[K0|K0]] by lia; rewrite K0 in *.
    + change (bpow radix2 (0 - 4)) with (/ 16). apply seed_piece with (g0 := 2 + 797515 / 8388608 - m / 3); try lra; try (unfold g; lra). apply seed_B. lra.
    + change (bpow radix2 (1 - 4)) with (/ 8). apply seed_piece with (g0 := 5 / 3 + 797515 / 8388608 - m / 3); try lra; try (unfold g; lra). apply seed_1. lra.
    + change (bpow radix2 (2 - 4)) with (/ 4). apply seed_piece with (g0 := 4 / 3 + 797515 / 8388608 - m / 3); try lra; try (unfold g; lra). apply seed_2. lra.
Qed.

(** products of a value near 1 and a power of the root *)
Lemma mulS a b c P : finite a -> finite b -> valR a * valR b = c * P -> / 16 <= c <= 16 -> bpow radix2 (-100) <= P <= bpow radix2 100 ->
  exists e, - u32 <= e <= u32 /\ finite (a * b)%b32 /\ valR (a * b)%b32 = c * (1 + e) * P.
Proof.
  intros Fa Fb V C B. pose proof (bp (-100)) as PB.
  assert (L : bpow radix2 (-126) <= c * P <= big).
  { split.
    - apply Rle_trans with (/ 16 * P); [|apply Rmult_le_compat_r; lra]. apply Rle_trans with (/ 16 * bpow radix2 (-100)); [|lra].
      change (/ 16) with (bpow radix2 (-4)). rewrite <- bpow_plus. apply bpow_le. lia.
    - apply Rle_trans with (16 * P); [apply Rmult_le_compat_r; lra|]. apply Rle_trans with (16 * bpow radix2 100); [lra|].
      change 16 with (bpow radix2 4). rewrite <- bpow_plus. apply bpow_le. lia. }
  pose proof (bp (-126)). destruct (mult_R a b Fa Fb) as (F & W); [rewrite V, Rabs_pos_eq; lra|].
  destruct (rnd_rel (c * P)) as (e & He & Q); [rewrite Rabs_pos_eq; lra|]. apply abs_bound in He. exists e. split; [auto|]. split; [exact F|].
  change (valR (b32_mult mode_NE a b) = c * (1 + e) * P). rewrite W, V, Q. ring.
Qed.

Lemma root_range s v : 0 < s -> s * s * s = v -> bpow radix2 (-126) <= v <= bpow radix2 128 -> bpow radix2 (-42) <= s <= bpow radix2 43.
Proof.
  intros P E (L & U). pose proof (bp (-42)) as B1. pose proof (bp 43) as B2. split; apply Rnot_lt_le; intros C.
  - assert (s * s * s < bpow radix2 (-42) * bpow radix2 (-42) * bpow radix2 (-42)) by (apply Rmult_gt_0_lt_compat; try nra).
    rewrite <- !bpow_plus in H. change (-42 + -42 + -42)%Z with (-126)%Z in H. lra.
  - assert (bpow radix2 43 * bpow radix2 43 * bpow radix2 43 < s * s * s) by (apply Rmult_gt_0_lt_compat; try nra).
    rewrite <- !bpow_plus in H. change (43 + 43 + 43)%Z with 129%Z in H. assert (bpow radix2 128 < bpow radix2 129) by (apply bpow_lt; lia). lra.
Qed.

(** e stays small when a few roundings compound *)
Lemma comp a b n k : - n <= a - 1 <= n -> - u32 <= b <= u32 -> 0 <= n <= / 1000 -> n + u32 + / 500 * u32 <= k -> - k <= a * (1 + b) - 1 <= k.
Proof. rewrite u32_val. intros A B N K. split; nra. Qed.
