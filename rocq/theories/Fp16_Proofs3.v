(** More proofs about Q16.16 numbers: text, sine, special values. *)
From Coq Require Import ZArith List Bool Lia ZifyBool.
From Verif Require Import Base BaseLemmas Fp16_Model Fp16_Spec Fp16_Proofs Fp16_Proofs2.
Import ListNotations.
Open Scope Z_scope.
Ltac Zify.zify_post_hook ::= Z.div_mod_to_equations.

(** ** Text *)

Lemma digits_value_app a b : forall acc, digits_value acc (a ++ b) = digits_value (digits_value acc a) b.
Proof. induction a as [|d a IH]; intros acc; cbn [digits_value app]; auto. Qed.

Lemma pow10_S k : 10 ^ (Z.of_nat (S k)) = 10 * 10 ^ Z.of_nat k.
Proof. rewrite Nat2Z.inj_succ, Z.pow_succ_r by lia. reflexivity. Qed.

Lemma pow10_pos k : 0 < 10 ^ Z.of_nat k.
Proof. apply Z.pow_pos_nonneg; lia. Qed.

Lemma div10 k : 10 ^ Z.of_nat (S k) / 10 = 10 ^ Z.of_nat k.
Proof. rewrite pow10_S, Z.mul_comm. apply Z.div_mul. lia. Qed.

Lemma itoa_fixed : forall k fuel v, (k + 2 <= fuel)%nat -> 0 <= v < 10 * 10 ^ Z.of_nat k ->
  exists ds, itoa fuel (10 ^ Z.of_nat k) v false = ds /\ length ds = S k /\ Forall is_digit ds /\
    forall acc, digits_value acc ds = acc * (10 * 10 ^ Z.of_nat k) + v.
Proof.
  induction k as [|k IH]; intros fuel v Hf Hv.
  - destruct fuel as [|[|fuel]]; try lia. remember (S fuel) as F. cbn [itoa]. change (10 ^ Z.of_nat 0) with 1 in *.
    change (1 =? 0) with false. cbv iota. cbn [negb orb]. rewrite Z.div_1_r. subst F. cbn [itoa].
    change (1 / 10 =? 0) with true. cbv iota. 
    eexists. split; [reflexivity|]. split; [reflexivity|]. split.
    + constructor; [unfold is_digit; lia | constructor].
    + intros acc. cbn [digits_value]. lia.
  - destruct fuel as [|fuel]; [lia|]. cbn [itoa]. pose proof (pow10_pos k) as Hp. 
    rewrite div10, pow10_S in *. set (p := 10 ^ Z.of_nat k) in *.
    replace (10 * p =? 0) with false by lia. cbn [negb orb].
    assert (Hm : 0 <= v mod (10 * p) < 10 * p) by (apply Z.mod_pos_bound; lia).
    destruct (IH fuel (v mod (10 * p)) ltac:(lia) Hm) as (ds & E & Hl & Hd & Hval).
    fold p in E. rewrite E. eexists. split; [reflexivity|]. split; [cbn [length]; lia|].
    assert (Hq : 0 <= v / (10 * p) < 10).
    { split; [apply Z.div_pos; lia | apply Z.div_lt_upper_bound; lia]. }
    split.
    + constructor; [unfold is_digit; lia | exact Hd].
    + intros acc. cbn [digits_value]. rewrite Hval. fold p. 
      pose proof (Z.div_mod v (10 * p) ltac:(lia)) as Hdm.
      set (q := v / (10 * p)) in *. set (m := v mod (10 * p)) in *. clearbody q m. clear - Hdm. subst v. ring.
Qed.

Lemma itoa_skip : forall k fuel v, (k + 2 <= fuel)%nat -> 0 <= v < 10 * 10 ^ Z.of_nat k ->
  exists ds, itoa fuel (10 ^ Z.of_nat k) v true = ds /\ (1 <= length ds <= S k)%nat /\ Forall is_digit ds /\
    digits_value 0 ds = v /\ (ds = [48] \/ hd 0 ds <> 48).
Proof.
  induction k as [|k IH]; intros fuel v Hf Hv.
  - destruct fuel as [|[|fuel]]; try lia. remember (S fuel) as F. cbn [itoa]. change (10 ^ Z.of_nat 0) with 1 in *.
    change (1 =? 0) with false. cbv iota. cbn [negb orb]. change (1 =? 1) with true. rewrite orb_true_r. rewrite Z.div_1_r. subst F. cbn [itoa].
    change (1 / 10 =? 0) with true. cbv iota. 
    eexists. split; [reflexivity|]. split; [cbn; lia|]. split.
    + constructor; [unfold is_digit; lia | constructor].
    + split; [cbn [digits_value]; lia|]. cbn [hd]. destruct (Z.eq_dec v 0) as [->|]; [left; reflexivity | right; lia].
  - destruct fuel as [|fuel]; [lia|]. cbn [itoa]. pose proof (pow10_pos k) as Hp. 
    rewrite div10, pow10_S in *. set (p := 10 ^ Z.of_nat k) in *.
    replace (10 * p =? 0) with false by lia. cbn [negb orb]. replace (10 * p =? 1) with false by lia. rewrite orb_false_r.
    assert (Hm : 0 <= v mod (10 * p) < 10 * p) by (apply Z.mod_pos_bound; lia).
    assert (Hq : 0 <= v / (10 * p) < 10).
    { split; [apply Z.div_pos; lia | apply Z.div_lt_upper_bound; lia]. }
    pose proof (Z.div_mod v (10 * p) ltac:(lia)) as Hdm.
    destruct (Z.eqb_spec (v / (10 * p)) 0) as [E0|E0]; cbn [negb].
    + assert (Hv' : 0 <= v < 10 * p) by lia.
      destruct (IH fuel v ltac:(lia) Hv') as (ds & E & Hl & Hd & Hval & Hh).
      fold p in E. rewrite E. exists ds. split; [reflexivity|]. split; [lia|]. auto.
    + destruct (itoa_fixed k fuel (v mod (10 * p)) ltac:(lia) Hm) as (ds & E & Hl & Hd & Hval).
      fold p in E. rewrite E. eexists. split; [reflexivity|]. split; [cbn [length]; lia|].
      split; [constructor; [unfold is_digit; lia | exact Hd]|]. split.
      * cbn [digits_value]. rewrite Hval. fold p.
        set (q := v / (10 * p)) in *. set (m := v mod (10 * p)) in *. clearbody q m. clear - Hdm. subst v. ring.
      * right. cbn [hd]. lia.
Qed.

(** The number of decimals actually printed. *)
Definition shown (decimals : Z) : Z := Z.max 0 (Z.min 5 decimals).

Lemma shown_ok d : (if (if 5 <? d then 5 else d) <? 0 then 0 else if 5 <? d then 5 else d) = shown d.
Proof.
  unfold shown. destruct (Z.ltb_spec 5 d).
  - change (5 <? 0) with false. cbv iota. lia.
  - destruct (Z.ltb_spec d 0); lia.
Qed.

Lemma nearest_shift A B r : 0 <= A -> 0 <= B -> 0 <= r -> nearest A 65536 r -> nearest (65536 * B + A) 65536 (B + r).
Proof. unfold nearest. lia. Qed.

Lemma scale_ok d : 0 <= d <= 5 -> get iScales d = Ok (10 ^ d).
Proof.
  intros H. assert (d = 0 \/ d = 1 \/ d = 2 \/ d = 3 \/ d = 4 \/ d = 5) as [-> | [-> | [-> | [-> | [-> | ->]]]]] by lia; reflexivity.
Qed.

Lemma land_frac16 v : 0 <= v -> Z.land v fraction_mask = v mod 65536.
Proof. intros H. unfold fraction_mask. change 65535 with (Z.ones 16). now rewrite Z.land_ones by lia. Qed.

Lemma toASCII_ok num decimals : raw num -> num <> sentinel ->
  exists ip fp,
    toASCII num decimals = Ok ((if num <? 0 then [45] else []) ++ ip ++ (if shown decimals =? 0 then [] else 46 :: fp) ++ [0]) /\
    Forall is_digit ip /\ Forall is_digit fp /\ (1 <= length ip <= 5)%nat /\ (ip = [48] \/ hd 0 ip <> 48) /\
    Z.of_nat (length fp) = shown decimals /\
    nearest (Z.abs num * 10 ^ shown decimals) 65536 (digits_value 0 (ip ++ fp)).
Proof.
  unfold raw, sentinel. intros Hn Hs. unfold toASCII, overflow.
  replace (-2147483648 =? num) with false by lia.
  replace (if 0 <=? num then num else - num) with (Z.abs num) by (destruct (Z.leb_spec 0 num); lia).
  rewrite i32_ok by (unfold raw; lia). cbn [bind].
  replace (if (if 5 <? decimals then 5 else decimals) <? 0 then 0 else if 5 <? decimals then 5 else decimals)
    with (shown decimals) by (symmetry; apply shown_ok).
  assert (HD : 0 <= shown decimals <= 5) by (unfold shown; lia). set (D := shown decimals) in *. clearbody D.
  rewrite scale_ok by assumption. cbn [bind].
  set (a := Z.abs num). assert (Ha : 0 <= a < 2 ^ 31) by lia. clearbody a.
  rewrite (u32_id a) by lia. rewrite Z.shiftr_div_pow2 by lia. change (2 ^ 16) with 65536.
  rewrite land_frac16 by lia. 
  assert (Hi : 0 <= a / 65536 < 32768) by lia. assert (Hf : 0 <= a mod 65536 < 65536) by lia.
  assert (Hdm : a = 65536 * (a / 65536) + a mod 65536) by lia.
  rewrite (s32_id (a / 65536)) by (unfold raw; lia).
  rewrite (s32_id (a mod 65536)) by (unfold raw; lia).
  set (i := a / 65536) in *. set (f := a mod 65536) in *. clearbody i f.
  assert (Hsc : 1 <= 10 ^ D <= 100000).
  { split; [change 1 with (10 ^ 0) | change 100000 with (10 ^ 5)]; apply Z.pow_le_mono_r; lia. }
  rewrite (s32_id (10 ^ D)) by (unfold raw; lia).
  assert (HD' : D = 0 \/ 1 <= D /\ 10 ^ D = 10 * 10 ^ (D - 1)).
  { destruct (Z.eq_dec D 0); [auto|]. right. split; [lia|]. rewrite <- Z.pow_succ_r by lia. f_equal. lia. }
  set (r := (f * 10 ^ D + 32768) / 65536).
  assert (Hfs : 0 <= f * 10 ^ D <= 65535 * 10 ^ D) by nia.
  assert (Hr : nearest (f * 10 ^ D) 65536 r).
  { apply nearest_formula. unfold neg_bit. replace (f * 10 ^ D <? 0) with false by lia. unfold r. f_equal. lia. }
  assert (Hrr : 0 <= r <= 10 ^ D).
  { unfold r. split; [apply Z.div_pos; lia|]. 
    assert ((f * 10 ^ D + 32768) / 65536 < 10 ^ D + 1); [apply Z.div_lt_upper_bound|]; lia. }
  rewrite (mul_nonneg f (10 ^ D) r) by (auto; lia). cbn [bind].
  rewrite (u32_id r) by lia.
  assert (Hnear : nearest (a * 10 ^ D) 65536 (i * 10 ^ D + r)).
  { subst a. replace ((65536 * i + f) * 10 ^ D) with (65536 * (i * 10 ^ D) + f * 10 ^ D) by ring.
    apply nearest_shift; auto; try lia. }
  assert (Hfrac : forall fr, 0 <= fr < 10 ^ D -> exists fp,
    (if negb (10 ^ D =? 1) then 46 :: itoa 12 (10 ^ D / 10) fr false else []) = (if D =? 0 then [] else 46 :: fp) /\
    Forall is_digit fp /\ Z.of_nat (length fp) = D /\ forall acc, digits_value acc fp = acc * 10 ^ D + fr).
  { intros fr Hfr. destruct HD' as [-> | [HD1 HD2]].
    - change (10 ^ 0) with 1 in *. exists []. repeat split; auto. intros acc. cbn [digits_value]. lia.
    - replace (10 ^ D =? 1) with false by lia. replace (D =? 0) with false by lia. cbn [negb].
      rewrite HD2. rewrite (Z.mul_comm 10), Z.div_mul by lia.
      destruct (itoa_fixed (Z.to_nat (D - 1)) 12 fr) as (fp & E & L & F & V).
      { lia. } { rewrite Z2Nat.id by lia. lia. }
      rewrite Z2Nat.id in * by lia. exists fp. rewrite E. split; [reflexivity|]. split; [exact F|]. split; [lia|].
      intros acc. rewrite V. ring. }
  assert (Hint : forall iv, 0 <= iv <= 32768 -> exists ip, itoa 12 10000 (u32 iv) true = ip /\ (1 <= length ip <= 5)%nat /\
     Forall is_digit ip /\ digits_value 0 ip = iv /\ (ip = [48] \/ hd 0 ip <> 48)).
  { intros iv Hiv. rewrite u32_id by lia. destruct (itoa_skip 4 12 iv) as (ip & E & A); [lia | change (10 ^ Z.of_nat 4) with 10000; lia|].
    exists ip. split; [exact E | exact A]. }
  destruct (Z.leb_spec (10 ^ D) r).
  - rewrite i32_ok by (unfold raw; lia). cbn [bind].
    destruct (Hint (i + 1) ltac:(lia)) as (ip & E1 & L1 & F1 & V1 & Z1).
    destruct (Hfrac (r - 10 ^ D) ltac:(lia)) as (fp & E2 & F2 & L2 & V2).
    rewrite E1, E2. exists ip, fp. split; [reflexivity|]. repeat (split; [assumption|]).
    rewrite digits_value_app, V1, V2. replace ((i + 1) * 10 ^ D + (r - 10 ^ D)) with (i * 10 ^ D + r) by ring. exact Hnear.
  - cbn [bind]. destruct (Hint i ltac:(lia)) as (ip & E1 & L1 & F1 & V1 & Z1).
    destruct (Hfrac r ltac:(lia)) as (fp & E2 & F2 & L2 & V2).
    rewrite E1, E2. exists ip, fp. split; [reflexivity|]. repeat (split; [assumption|]).
    rewrite digits_value_app, V1, V2. exact Hnear.
Qed.

Lemma toASCII_sentinel decimals : toASCII sentinel decimals = Ok [111; 118; 101; 114; 102; 108; 111; 119; 0].
Proof. reflexivity. Qed.

Lemma last_app0 (l : list Z) d : last (l ++ [0]) d = 0.
Proof. apply last_last. Qed.

Lemma toASCII_length num decimals : raw num ->
  exists bytes, toASCII num decimals = Ok bytes /\ (2 <= length bytes <= 13)%nat /\ last bytes 1 = 0.
Proof.
  intros Hn. destruct (Z.eq_dec num sentinel) as [->|Hs].
  - eexists. split; [apply toASCII_sentinel|]. cbn. lia.
  - destruct (toASCII_ok num decimals Hn Hs) as (ip & fp & E & _ & _ & L1 & _ & L2 & _).
    eexists. split; [exact E|]. assert (shown decimals <= 5) by (unfold shown; lia). split.
    + rewrite !app_length. destruct (num <? 0), (shown decimals =? 0); cbn [length]; lia.
    + rewrite !app_assoc. apply last_app0.
Qed.

(** ** Statements for the final file *)

Lemma add_spec x y : raw x -> raw y ->
  (raw (x + y) -> add x y = x + y) /\ (~ raw (x + y) -> add x y = sentinel).
Proof.
  intros Hx Hy. rewrite add_char by assumption. unfold raw in *.
  destruct (_ && _) eqn:E; split; intros H; auto; exfalso; lia.
Qed.
Lemma sub_spec x y : raw x -> raw y ->
  (raw (x - y) -> sub x y = x - y) /\ (~ raw (x - y) -> sub x y = sentinel).
Proof.
  intros Hx Hy. rewrite sub_char by assumption. unfold raw in *.
  destruct (_ && _) eqn:E; split; intros H; auto; exfalso; lia.
Qed.

Lemma nearest_apart n d r : d <> 0 -> nearest n d r -> nearest n d (r + 1) -> False.
Proof.
  unfold nearest. replace ((r + 1) * d) with (r * d + d) by ring. intros Hd [A B] [A' B'].
  assert (E : 2 * Z.abs (n - r * d) = Z.abs d) by lia. assert (E' : 2 * Z.abs (n - (r * d + d)) = Z.abs d) by lia.
  specialize (B E). specialize (B' E').
  assert (S : (0 <= r * d /\ 0 <= d) \/ (r * d <= 0 /\ d <= 0) \/ (r * d + d <= 0 /\ 0 <= d) \/ (0 <= r * d + d /\ d <= 0)).
  { clear - Hd. destruct (Z_le_gt_dec 0 r), (Z_le_gt_dec 0 d); nia. }
  lia.
Qed.

Lemma nearest_unique n d r r' : d <> 0 -> nearest n d r -> nearest n d r' -> r = r'.
Proof.
  intros Hd H H'. pose proof H as [A _]. pose proof H' as [A' _].
  assert (HH : Z.abs (r - r') * Z.abs d <= 1 * Z.abs d).
  { rewrite <- Z.abs_mul. replace ((r - r') * d) with ((n - r' * d) - (n - r * d)) by ring. lia. }
  apply Z.mul_le_mono_pos_r in HH; [|lia].
  assert (C : r = r' \/ r = r' + 1 \/ r' = r + 1) by (clear - HH; lia). destruct C as [C|[C|C]]; [exact C | exfalso..]; subst.
  - exact (nearest_apart n d r' Hd H' H).
  - exact (nearest_apart n d r Hd H H').
Qed.

Lemma mul_wrong :
  (exists x y r, raw x /\ raw y /\ nearest (x * y) 65536 r /\ 2 ^ 31 <= r /\ mul x y = Ok 2147450877) /\
  (exists x y r, raw x /\ raw y /\ nearest (x * y) 65536 r /\ - 2 ^ 31 < r < 2 ^ 31 /\ mul x y = Ok sentinel) /\
  (exists x y, raw x /\ raw y /\ mul x y = Ub).
Proof.
  split; [|split].
  - exists 2147483647, 196607, 6442418173. unfold raw, nearest. repeat split; try lia; vm_compute; reflexivity.
  - exists (-2147418113), (-1), 32767. unfold raw, nearest. repeat split; try lia; vm_compute; reflexivity.
  - exists (-2147483648), 65536. unfold raw. repeat split; try lia; vm_compute; reflexivity.
Qed.

Lemma int_trip k : -32767 <= k <= 32767 -> toInt (fromInt k) = Ok k /\ fromInt k = k * 65536.
Proof. intros H. split; [now apply int_roundtrip | apply fromInt_ok; lia]. Qed.
Lemma toInt_spec x r : raw x -> nearest x 65536 r ->
  (Z.abs x < 2 ^ 31 - 2 ^ 15 -> toInt x = Ok r) /\
  (2 ^ 31 - 2 ^ 15 <= x \/ x < - 2 ^ 31 + 2 ^ 15 -> toInt x = Ub).
Proof. intros Hx Hr. split; [now apply toInt_correct | now apply toInt_ub]. Qed.
Lemma floor_spec x : raw x -> exists k, floor x = k * 65536 /\ floor x <= x < floor x + 65536.
Proof. intros Hx. exists (x / 65536). rewrite floor_ok by assumption. split; [reflexivity | lia]. Qed.
Lemma ceil_spec x : raw x ->
  (x <= 32767 * 65536 -> exists c k, ceil x = Ok c /\ c = k * 65536 /\ c - 65536 < x <= c) /\
  (32767 * 65536 < x -> ceil x = Ub).
Proof.
  intros Hx. rewrite ceil_ok by assumption. split; intros H.
  - replace (x <=? 32767 * 65536) with true by lia. eexists. eexists. split; [reflexivity|]. split; [reflexivity|]. lia.
  - replace (x <=? 32767 * 65536) with false by lia. reflexivity.
Qed.
Lemma int_trip_low : fromInt (-32768) = -2147483648 /\ toInt (fromInt (-32768)) = Ub.
Proof. split; vm_compute; reflexivity. Qed.
Lemma rounding_wrong : exists x r, raw x /\ nearest x 65536 r /\ rounding x <> Ok (r * 65536).
Proof. exists 65536, 1. unfold raw, nearest. repeat split; try lia. vm_compute. discriminate. Qed.

Lemma abs_neg x : raw x ->
  (- 2 ^ 31 + 1 < x -> absolute x = Ok (Z.abs x)) /\ (x <> sentinel -> neg x = Ok (- x)) /\
  (x = - 2 ^ 31 + 1 -> absolute x = Ok sentinel) /\ (x = sentinel -> absolute x = Ub /\ neg x = Ub).
Proof.
  intros Hx. split; [now apply abs_ok|]. split; [now apply neg_ok|]. split; intros ->; [reflexivity|]. split; reflexivity.
Qed.

Lemma wrapToPi_beyond : exists x, raw x /\ wrapToPi x = Ok 205888.
Proof. exists 205888. unfold raw. split; [lia | vm_compute; reflexivity]. Qed.

Lemma sqrt_spec x s : 1 <= x < 2 ^ 30 -> 0 <= s -> s * s <= x < (s + 1) * (s + 1) ->
  (x - s * s < 2 ^ 15 -> exists r, sqrt x = Ok r /\ nearest_root (x * 65536) r) /\
  (2 ^ 15 <= x - s * s -> sqrt x = Ok (256 * s)).
Proof.
  intros Hx Hs H. destruct (sqrt_correct x Hx) as (s' & H1 & H2 & H3).
  assert (s' = s) by nia. subst s'. exact H3.
Qed.
Lemma sqrt_small x : 1 <= x < 2 ^ 28 -> exists r, sqrt x = Ok r /\ nearest_root (x * 65536) r.
Proof.
  intros Hx. destruct (sqrt_correct x ltac:(lia)) as (s & H1 & H2 & H3 & _). apply H3.
  assert (s < 2 ^ 14) by nia. lia.
Qed.
Lemma sqrt_wrong :
  (exists x r, 2 ^ 28 <= x < 2 ^ 30 /\ sqrt x = Ok r /\ ~ nearest_root (x * 65536) r) /\
  (exists x r, 2 ^ 30 <= x < 2 ^ 31 /\ sqrt x = Ok r /\ r < 0) /\
  (exists x, 2 ^ 30 <= x < 2 ^ 31 /\ sqrt x = Ub).
Proof.
  split; [|split].
  - exists (2 ^ 28 + 32768), 4194304. split; [lia|]. split; [vm_compute; reflexivity|].
    unfold nearest_root. lia.
  - exists (2 ^ 31 - 1), (-4914048). split; [lia|]. split; [vm_compute; reflexivity | lia].
  - exists (2 ^ 30 + 1). split; [lia | vm_compute; reflexivity].
Qed.

Lemma exp_special x : raw x ->
  (681391 <= x -> exp x = Ok 2147483647) /\ (x <= -681391 -> exp x = Ok 0) /\ (x = 0 -> exp x = Ok 65536).
Proof.
  intros _. unfold exp, exp_max, one, fMax. split; [|split]; intros H.
  - replace (x =? 0) with false by lia. replace (x =? 65536) with false by lia. replace (681391 <=? x) with true by lia. reflexivity.
  - replace (x =? 0) with false by lia. replace (x =? 65536) with false by lia. replace (681391 <=? x) with false by lia.
    replace (x <=? - (681391)) with true by lia. reflexivity.
  - subst x. reflexivity.
Qed.
Lemma log_nonpos x : x <= 0 -> log x = Ok sentinel /\ log2 x = Ok sentinel.
Proof. intros H. unfold log, log2. replace (0 <? x) with false by lia. split; reflexivity. Qed.
Lemma hyperbolic_special x : raw x ->
  (425984 < x -> tanh x = Ok 65536) /\ (x < -425984 -> tanh x = Ok (-65536)) /\
  (681391 <= Z.abs x -> cosh x = Ok 2147483647) /\
  (681391 <= x -> sinh x = Ok 2147483647) /\ (x <= -681391 -> sinh x = Ok (-2147483647)).
Proof.
  intros _. unfold tanh, cosh, sinh, exp_max, one, fMax. repeat split; intros H; replace (x =? 0) with false by lia.
  - replace (425984 <? x) with true by lia. reflexivity.
  - replace (425984 <? x) with false by lia. replace (x <? -425984) with true by lia. reflexivity.
  - replace ((681391 <=? x) || (x <=? - (681391))) with true by lia. reflexivity.
  - replace (681391 <=? x) with true by lia. reflexivity.
  - replace (681391 <=? x) with false by lia. replace (x <=? - (681391)) with true by lia. reflexivity.
Qed.
Lemma log2_pow2 k : -16 <= k <= 14 -> k <> -15 -> log2 (2 ^ (k + 16)) = Ok (k * 65536).
Proof.
  intros H H15. assert (Hn : exists n, (n < 31)%nat /\ k = Z.of_nat n - 16) by (exists (Z.to_nat (k + 16)); lia).
  destruct Hn as (n & Hn & ->).
  assert (Hall : forallb (fun n => Nat.eqb n 1 || match log2 (2 ^ (Z.of_nat n - 16 + 16)) with Ok v => v =? (Z.of_nat n - 16) * 65536 | Ub => false end) (seq 0 31) = true)
    by (vm_compute; reflexivity).
  rewrite forallb_forall in Hall. specialize (Hall n). rewrite in_seq in Hall. specialize (Hall ltac:(lia)).
  apply orb_prop in Hall as [Hall|Hall]; [apply Nat.eqb_eq in Hall; lia|].
  destruct (log2 _); [|discriminate]. f_equal. lia.
Qed.
Lemma special_wrong :
  sinh 0 = Ok 65536 /\ asin 65536 = Ok (-1) /\ acos 65536 = Ok 102945 /\ atan2 2147483647 65536 = Ub /\ log2 2 = Ok 0 /\
  exists r, pow (-65536 * 4) 32768 = Ok r /\ r < 0.
Proof.
  repeat split; try (vm_compute; reflexivity).
  exists (match pow (-65536 * 4) 32768 with Ok r => r | Ub => 0 end). split; vm_compute; reflexivity.
Qed.
