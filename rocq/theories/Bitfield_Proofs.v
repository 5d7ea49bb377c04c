(** Proofs about the bit-field model. *)
From Coq Require Import ZArith List Bool Lia ZifyBool.
From Verif Require Import Base BaseLemmas Bitfield_Model Bitfield_Spec.
Import ListNotations.
Open Scope Z_scope.
Ltac Zify.zify_post_hook ::= Z.div_mod_to_equations.

(** ** Words and bytes *)

Lemma testbit_digit a r k :
  0 <= a < 256 -> 0 <= k ->
  Z.testbit (a + 256 * r) k = if k <? 8 then Z.testbit a k else Z.testbit r (k - 8).
Proof.
  intros Ha Hk.
  destruct (Z.ltb_spec k 8) as [H|H].
  - rewrite <- (Z.mod_pow2_bits_low (a + 256 * r) 8 k) by lia.
    replace ((a + 256 * r) mod 2 ^ 8) with a; [reflexivity|].
    change (2 ^ 8) with 256. lia.
  - replace k with ((k - 8) + 8) at 1 by lia.
    rewrite <- Z.div_pow2_bits by lia.
    replace ((a + 256 * r) / 2 ^ 8) with r; [reflexivity|].
    change (2 ^ 8) with 256. lia.
Qed.

Lemma bytes_nth m n : bytes_ok m -> 0 <= nth n m 0 < 256.
Proof.
  intros H. destruct (Nat.ltb_spec n (length m)) as [Hn|Hn].
  - unfold bytes_ok in H. rewrite Forall_forall in H. apply H. now apply nth_In.
  - rewrite nth_overflow by lia. lia.
Qed.

Lemma getw_ok m s :
  bytes_ok m -> 0 <= s -> 4 * s + 3 < zlen m ->
  exists w, getw m s = Ok w /\ 0 <= w < M32 /\
    forall k, 0 <= k < 32 -> Z.testbit w k = mem_bit m (32 * s + k).
Proof.
  intros Hm Hs Hlen. unfold getw.
  rewrite !(get_ok_nth m _ 0) by lia. cbn [bind].
  pose proof (bytes_nth m (Z.to_nat (4 * s)) Hm) as B0.
  pose proof (bytes_nth m (Z.to_nat (4 * s + 1)) Hm) as B1.
  pose proof (bytes_nth m (Z.to_nat (4 * s + 2)) Hm) as B2.
  pose proof (bytes_nth m (Z.to_nat (4 * s + 3)) Hm) as B3.
  eexists; split; [reflexivity|]. split; [unfold M32; lia|].
  intros k Hk.
  replace (nth (Z.to_nat (4 * s)) m 0 + 256 * nth (Z.to_nat (4 * s + 1)) m 0 +
           65536 * nth (Z.to_nat (4 * s + 2)) m 0 + 16777216 * nth (Z.to_nat (4 * s + 3)) m 0)
    with (nth (Z.to_nat (4 * s)) m 0 + 256 * (nth (Z.to_nat (4 * s + 1)) m 0 +
           256 * (nth (Z.to_nat (4 * s + 2)) m 0 + 256 * nth (Z.to_nat (4 * s + 3)) m 0))) by lia.
  unfold mem_bit.
  rewrite testbit_digit by lia. destruct (Z.ltb_spec k 8) as [H0|H0].
  { replace ((32 * s + k) / 8) with (4 * s) by lia.
    replace ((32 * s + k) mod 8) with k by lia. reflexivity. }
  rewrite testbit_digit by lia. destruct (Z.ltb_spec (k - 8) 8) as [H1|H1].
  { replace ((32 * s + k) / 8) with (4 * s + 1) by lia.
    replace ((32 * s + k) mod 8) with (k - 8) by lia. reflexivity. }
  rewrite testbit_digit by lia. destruct (Z.ltb_spec (k - 8 - 8) 8) as [H2|H2].
  { replace ((32 * s + k) / 8) with (4 * s + 2) by lia.
    replace ((32 * s + k) mod 8) with (k - 8 - 8) by lia. reflexivity. }
  replace ((32 * s + k) / 8) with (4 * s + 3) by lia.
  replace ((32 * s + k) mod 8) with (k - 8 - 8 - 8) by lia. reflexivity.
Qed.

Lemma byte_of_word_bit w j b :
  0 <= j -> 0 <= b < 8 -> Z.testbit ((w / 2 ^ (8 * j)) mod 256) b = Z.testbit w (8 * j + b).
Proof.
  intros Hj Hb. change 256 with (2 ^ 8).
  rewrite Z.mod_pow2_bits_low by lia. rewrite Z.div_pow2_bits by lia.
  f_equal; lia.
Qed.

Lemma setw_ok m s w :
  bytes_ok m -> 0 <= s -> 4 * s + 3 < zlen m ->
  exists m', setw m s w = Ok m' /\ zlen m' = zlen m /\ bytes_ok m' /\
    forall i, 0 <= i -> mem_bit m' i =
      if i / 32 =? s then Z.testbit w (i mod 32) else mem_bit m i.
Proof.
  intros Hm Hs Hlen. unfold setw.
  rewrite set_ok by lia. cbn [bind].
  rewrite set_ok by (rewrite zlen_upd; lia). cbn [bind].
  rewrite set_ok by (rewrite !zlen_upd; lia). cbn [bind].
  rewrite set_ok by (rewrite !zlen_upd; lia).
  eexists; split; [reflexivity|].
  split; [now rewrite !zlen_upd|].
  split.
  { unfold bytes_ok. repeat apply Forall_upd; auto; lia. }
  intros i Hi. unfold mem_bit, zlen in *.
  destruct (Z.eqb_spec (i / 32) s) as [E|E].
  - assert (Hq : i / 8 = 4 * s \/ i / 8 = 4 * s + 1 \/ i / 8 = 4 * s + 2 \/ i / 8 = 4 * s + 3) by lia.
    destruct Hq as [Hq|[Hq|[Hq|Hq]]]; rewrite Hq.
    + rewrite !nth_upd_ne by lia. rewrite nth_upd_eq by lia.
      replace (w mod 256) with ((w / 2 ^ (8 * 0)) mod 256) by (f_equal; apply Z.div_1_r).
      rewrite byte_of_word_bit by lia. f_equal; lia.
    + rewrite !nth_upd_ne by lia. rewrite nth_upd_eq by (rewrite !upd_length; lia).
      change ((w / 256) mod 256) with ((w / 2 ^ (8 * 1)) mod 256).
      rewrite byte_of_word_bit by lia. f_equal; lia.
    + rewrite nth_upd_ne by lia. rewrite nth_upd_eq by (rewrite !upd_length; lia).
      change ((w / 65536) mod 256) with ((w / 2 ^ (8 * 2)) mod 256).
      rewrite byte_of_word_bit by lia. f_equal; lia.
    + rewrite nth_upd_eq by (rewrite !upd_length; lia).
      change ((w / 16777216) mod 256) with ((w / 2 ^ (8 * 3)) mod 256).
      rewrite byte_of_word_bit by lia. f_equal; lia.
  - rewrite !nth_upd_ne by lia. reflexivity.
Qed.

(** ** Single bits *)

Lemma mask_ok i : 0 <= i -> exists k, mask i = Ok k /\
  forall j, 0 <= j -> Z.testbit k j = (j =? i mod 32).
Proof.
  intros Hi. unfold mask. rewrite shl32_ok by lia.
  eexists; split; [reflexivity|]. intros j Hj.
  rewrite w32_testbit, Z.shiftl_1_l, Z.pow2_bits_eqb by lia.
  rewrite (Z.eqb_sym (i mod 32) j).
  destruct (Z.ltb_spec j 32) as [H|H]; cbn [andb]; [reflexivity|].
  symmetry; apply Z.eqb_neq; lia.
Qed.

Lemma lnot32_testbit k j : 0 <= j -> Z.testbit (w32 (Z.lnot k)) j = (j <? 32) && negb (Z.testbit k j).
Proof. intros Hj. rewrite w32_testbit, Z.lnot_spec by lia. reflexivity. Qed.

(** The shape of a valid area: a positive whole number of words. *)
Definition area_ok (m : list Z) (slots : Z) : Prop :=
  bytes_ok m /\ 1 <= slots /\ zlen m = 4 * slots.

Section Bits.
  Variables (m : list Z) (slots : Z).
  Hypothesis Hm : area_ok m slots.

  Lemma bit_get_ok i : 0 <= i < 32 * slots ->
    bit_get m i = Ok (if mem_bit m i then 1 else 0).
  Proof.
    intros Hi. destruct Hm as (Hb & Hs & Hl). unfold bit_get, slot.
    destruct (getw_ok m (i / 32) Hb ltac:(lia) ltac:(lia)) as (w & -> & Hw & Hbit).
    cbn [bind]. rewrite shr32_ok by lia. cbn [bind]. f_equal.
    change (Z.land (Z.shiftr w (i mod 32)) 1) with (Z.land (Z.shiftr w (i mod 32)) (Z.ones 1)).
    rewrite Z.land_ones by discriminate.
    change (2 ^ 1) with 2. rewrite <- Z.bit0_mod, Z.shiftr_spec by lia.
    rewrite Z.add_0_l, Hbit by lia.
    replace (32 * (i / 32) + i mod 32) with i by lia.
    destruct (mem_bit m i); reflexivity.
  Qed.

  Lemma bit_upd_ok i (f : Z -> Z -> Z) (g : bool -> bool) :
    0 <= i < 32 * slots ->
    (forall w k j, 0 <= j < 32 -> Z.testbit k j = (j =? i mod 32) ->
       Z.testbit (f w k) j = if j =? i mod 32 then g (Z.testbit w j) else Z.testbit w j) ->
    exists m', (w <- getw m (slot i) ;; k <- mask i ;; setw m (slot i) (f w k)) = Ok m' /\
      area_ok m' slots /\
      forall j, 0 <= j < 32 * slots -> mem_bit m' j = if j =? i then g (mem_bit m i) else mem_bit m j.
  Proof.
    intros Hi Hf. destruct Hm as (Hb & Hs & Hl). unfold slot.
    destruct (getw_ok m (i / 32) Hb ltac:(lia) ltac:(lia)) as (w & -> & Hw & Hbit).
    cbn [bind]. destruct (mask_ok i ltac:(lia)) as (k & -> & Hk). cbn [bind].
    destruct (setw_ok m (i / 32) (f w k) Hb ltac:(lia) ltac:(lia)) as (m' & E & Hl' & Hb' & Hbits).
    exists m'. split; [exact E|]. split; [unfold area_ok; lia || (split; [|split]; auto; lia)|].
    intros j Hj. rewrite Hbits by lia.
    destruct (Z.eqb_spec (j / 32) (i / 32)) as [Ej|Ej].
    - rewrite Hf by (try apply Hk; lia). rewrite Hbit by lia.
      replace (32 * (i / 32) + j mod 32) with j by lia.
      destruct (Z.eqb_spec (j mod 32) (i mod 32)), (Z.eqb_spec j i) as [->|]; try reflexivity; lia.
    - destruct (Z.eqb_spec j i) as [->|]; [lia | reflexivity].
  Qed.

  Lemma bit_set_ok i : 0 <= i < 32 * slots ->
    exists m', bit_set m i = Ok m' /\ area_ok m' slots /\
      forall j, 0 <= j < 32 * slots -> mem_bit m' j = put (mem_bit m) i true j.
  Proof.
    intros Hi. unfold bit_set, put. apply (bit_upd_ok i Z.lor (fun _ => true)); auto.
    intros w k j Hj Hk. rewrite Z.lor_spec, Hk.
    destruct (j =? i mod 32); [apply orb_true_r | apply orb_false_r].
  Qed.

  Lemma bit_clear_ok i : 0 <= i < 32 * slots ->
    exists m', bit_clear m i = Ok m' /\ area_ok m' slots /\
      forall j, 0 <= j < 32 * slots -> mem_bit m' j = put (mem_bit m) i false j.
  Proof.
    intros Hi. unfold bit_clear, put.
    apply (bit_upd_ok i (fun w k => Z.land w (w32 (Z.lnot k))) (fun _ => false)); auto.
    intros w k j Hj Hk. rewrite Z.land_spec, lnot32_testbit, Hk by lia.
    replace (j <? 32) with true by lia.
    destruct (j =? i mod 32); cbn; [apply andb_false_r | apply andb_true_r].
  Qed.

  Lemma bit_toggle_ok i : 0 <= i < 32 * slots ->
    exists m', bit_toggle m i = Ok m' /\ area_ok m' slots /\
      forall j, 0 <= j < 32 * slots -> mem_bit m' j = put (mem_bit m) i (negb (mem_bit m i)) j.
  Proof.
    intros Hi. unfold bit_toggle, put. apply (bit_upd_ok i Z.lxor negb); auto.
    intros w k j Hj Hk. rewrite Z.lxor_spec, Hk.
    destruct (j =? i mod 32); [apply xorb_true_r | apply xorb_false_r].
  Qed.

  (** ** 32-bit windows *)

  Lemma offset_mod i : offset i = i mod 32.
  Proof. unfold offset. change 31 with (Z.ones 5). now rewrite Z.land_ones by lia. Qed.

  Lemma read_uint32_ok i : 0 <= i < 32 * slots ->
    exists r, read_uint32 m (32 * slots) i = Ok r /\ 0 <= r < M32 /\
      forall k, 0 <= k < 32 ->
        Z.testbit r k = (i + k <? 32 * slots) && mem_bit m (i + k).
  Proof.
    intros Hi. destruct Hm as (Hb & Hs & Hl). unfold read_uint32, slot.
    rewrite offset_mod. cbv zeta.
    destruct (getw_ok m (i / 32) Hb ltac:(lia) ltac:(lia)) as (w & -> & Hw & Hbit).
    cbn [bind]. rewrite shr32_ok by lia. cbn [bind].
    assert (Hr : 0 <= Z.shiftr w (i mod 32) < M32).
    { rewrite Z.shiftr_div_pow2 by lia. split.
      - apply Z.div_pos; [lia | apply Z.pow_pos_nonneg; lia].
      - apply Z.le_lt_trans with w; [|lia]. apply Z.div_le_upper_bound; [apply Z.pow_pos_nonneg; lia|].
        assert (1 <= 2 ^ (i mod 32)) by (change 1 with (2 ^ 0); apply Z.pow_le_mono_r; lia). nia. }
    destruct (negb (i mod 32 =? 0) && (i + (32 - i mod 32) <? 32 * slots)) eqn:C.
    - destruct (getw_ok m (i / 32 + 1) Hb ltac:(lia) ltac:(lia)) as (w1 & -> & Hw1 & Hbit1).
      cbn [bind]. rewrite shl32_ok by lia. cbn [bind].
      eexists; split; [reflexivity|]. 
      assert (HB : forall k, 0 <= k ->
        Z.testbit (Z.lor (Z.shiftr w (i mod 32)) (w32 (Z.shiftl w1 (32 - i mod 32)))) k
        = (k <? 32) && mem_bit m (i + k)).
      { intros k Hk. rewrite Z.lor_spec, w32_testbit, Z.shiftr_spec, Z.shiftl_spec by lia.
        destruct (Z.ltb_spec k 32) as [H32|H32]; cbn [andb].
        2:{ rewrite orb_false_r. apply testbit_high32; lia. }
        destruct (Z.ltb_spec (k + i mod 32) 32) as [H|H].
        - rewrite Hbit by lia. rewrite (Z.testbit_neg_r w1) by lia. rewrite orb_false_r.
          f_equal; lia.
        - rewrite (testbit_high32 w) by lia. cbn [orb]. rewrite Hbit1 by lia. f_equal; lia. }
      split.
      + rewrite M32_pow. apply range_of_bits; [lia|]. intros k Hk. rewrite HB by lia.
        replace (k <? 32) with false by lia. reflexivity.
      + intros k Hk. rewrite HB by lia. replace (k <? 32) with true by lia.
        replace (i + k <? 32 * slots) with true by lia. reflexivity.
    - eexists; split; [reflexivity|]. split; [exact Hr|].
      intros k Hk. rewrite Z.shiftr_spec by lia.
      destruct (Z.ltb_spec (k + i mod 32) 32) as [H|H].
      + rewrite Hbit by lia. replace (i + k <? 32 * slots) with true by lia. cbn [andb].
        f_equal; lia.
      + rewrite (testbit_high32 w) by lia.
        replace (i + k <? 32 * slots) with false by lia. reflexivity.
  Qed.

  Lemma safeMask_ok v n : 1 <= n <= 32 -> safeMask v 32 n = Ok (Z.shiftr v (32 - n)).
  Proof.
    intros Hn. unfold safeMask. rewrite w32_id by (unfold M32; lia). apply shr32_ok; lia.
  Qed.

  Lemma write_uint32_ok i v : 0 <= i < 32 * slots -> 0 <= v < M32 ->
    exists m', write_uint32 m slots i v = Ok m' /\ area_ok m' slots /\
      forall j, 0 <= j < 32 * slots -> mem_bit m' j = put_field (mem_bit m) i 32 v j.
  Proof.
    intros Hi Hv. pose proof Hm as (Hb & Hs & Hl). unfold write_uint32, slot, put_field.
    rewrite offset_mod. cbv zeta.
    destruct (Z.eqb_spec (i mod 32) 0) as [E0|E0].
    - destruct (setw_ok m (i / 32) v Hb ltac:(lia) ltac:(lia)) as (m' & E & Hl' & Hb' & Hbits).
      exists m'. split; [exact E|]. split; [unfold area_ok; auto with zarith|].
      intros j Hj. rewrite Hbits by lia.
      destruct (Z.eqb_spec (j / 32) (i / 32)).
      + replace ((i <=? j) && (j <? i + 32)) with true by lia. f_equal; lia.
      + replace ((i <=? j) && (j <? i + 32)) with false by lia. reflexivity.
    - rewrite safeMask_ok by lia. cbn [bind].
      destruct (getw_ok m (i / 32) Hb ltac:(lia) ltac:(lia)) as (w & -> & Hw & Hbit).
      cbn [bind]. rewrite shl32_ok by lia. cbn [bind].
      set (w' := Z.lor (w32 (Z.shiftl v (i mod 32))) (Z.land w (Z.shiftr 4294967295 (32 - i mod 32)))).
      assert (Hw' : forall k, 0 <= k < 32 ->
        Z.testbit w' k = if k <? i mod 32 then mem_bit m (32 * (i / 32) + k) else Z.testbit v (k - i mod 32)).
      { intros k Hk. unfold w'.
        rewrite Z.lor_spec, w32_testbit, Z.land_spec, Z.shiftl_spec, Z.shiftr_spec, ones32_testbit by lia.
        replace (k <? 32) with true by lia. cbn [andb].
        destruct (Z.ltb_spec k (i mod 32)).
        - rewrite (Z.testbit_neg_r v) by lia. rewrite Hbit by lia.
          replace ((0 <=? k + (32 - i mod 32)) && (k + (32 - i mod 32) <? 32)) with true by lia.
          cbn [orb]. apply andb_true_r.
        - replace ((0 <=? k + (32 - i mod 32)) && (k + (32 - i mod 32) <? 32)) with false by lia.
          rewrite andb_false_r, orb_false_r. reflexivity. }
      destruct (setw_ok m (i / 32) w' Hb ltac:(lia) ltac:(lia)) as (m1 & E1 & Hl1 & Hb1 & Hbits1).
      rewrite E1. cbn [bind].
      destruct (Z.ltb_spec (i / 32 + 1) slots) as [Hs1|Hs1].
      + rewrite safeMask_ok by lia. cbn [bind].
        destruct (getw_ok m1 (i / 32 + 1) Hb1 ltac:(lia) ltac:(lia)) as (w1 & -> & Hw1 & Hbit1).
        cbn [bind].
        set (w'' := Z.lor _ _).
        assert (Hw'' : forall k, 0 <= k < 32 ->
          Z.testbit w'' k = if k <? i mod 32 then Z.testbit v (k + (32 - i mod 32))
                            else mem_bit m1 (32 * (i / 32 + 1) + k)).
        { intros k Hk. unfold w''.
          rewrite Z.lor_spec, Z.land_spec, lnot32_testbit, !Z.shiftr_spec, ones32_testbit by lia.
          replace (k <? 32) with true by lia. cbn [andb].
          destruct (Z.ltb_spec k (i mod 32)).
          - replace ((0 <=? k + (32 - i mod 32)) && (k + (32 - i mod 32) <? 32)) with true by lia.
            cbn [negb]. rewrite andb_false_r, orb_false_r. reflexivity.
          - rewrite (testbit_high32 v) by lia.
            replace ((0 <=? k + (32 - i mod 32)) && (k + (32 - i mod 32) <? 32)) with false by lia.
            cbn [negb orb]. rewrite andb_true_r. apply Hbit1; lia. }
        destruct (setw_ok m1 (i / 32 + 1) w'' Hb1 ltac:(lia) ltac:(lia)) as (m2 & E2 & Hl2 & Hb2 & Hbits2).
        exists m2. split; [exact E2|]. split; [unfold area_ok; auto with zarith|].
        intros j Hj. rewrite Hbits2 by lia.
        destruct (Z.eqb_spec (j / 32) (i / 32 + 1)) as [Ej|Ej].
        * rewrite Hw'' by lia. destruct (Z.ltb_spec (j mod 32) (i mod 32)).
          -- replace ((i <=? j) && (j <? i + 32)) with true by lia. f_equal; lia.
          -- replace ((i <=? j) && (j <? i + 32)) with false by lia.
             replace (32 * (i / 32 + 1) + j mod 32) with j by lia.
             rewrite Hbits1 by lia. replace (j / 32 =? i / 32) with false by lia. reflexivity.
        * rewrite Hbits1 by lia. destruct (Z.eqb_spec (j / 32) (i / 32)) as [Ej'|Ej'].
          -- rewrite Hw' by lia. destruct (Z.ltb_spec (j mod 32) (i mod 32)).
             ++ replace ((i <=? j) && (j <? i + 32)) with false by lia. f_equal; lia.
             ++ replace ((i <=? j) && (j <? i + 32)) with true by lia. f_equal; lia.
          -- replace ((i <=? j) && (j <? i + 32)) with false by lia. reflexivity.
      + exists m1. split; [reflexivity|]. split; [unfold area_ok; auto with zarith|].
        intros j Hj. rewrite Hbits1 by lia.
        destruct (Z.eqb_spec (j / 32) (i / 32)) as [Ej'|Ej'].
        * rewrite Hw' by lia. destruct (Z.ltb_spec (j mod 32) (i mod 32)).
          -- replace ((i <=? j) && (j <? i + 32)) with false by lia. f_equal; lia.
          -- replace ((i <=? j) && (j <? i + 32)) with true by lia. f_equal; lia.
        * replace ((i <=? j) && (j <? i + 32)) with false by lia. reflexivity.
  Qed.
End Bits.

(** ** Public interface *)

(** A bit-field set up over a valid area. *)
Definition bf_inv (b : bitfield) (slots : Z) (m : list Z) : Prop :=
  field b = Some m /\ bsize b = 32 * slots /\ nSlots b = slots /\ area_ok m slots.

Ltac inv_tac :=
  unfold bf_inv, with_mem; cbn [field bsize nSlots];
  split; [reflexivity | split; [first [assumption | reflexivity] | split; first [assumption | reflexivity]]].

Lemma readBit_ok b slots m i :
  bf_inv b slots m -> 0 <= i < 32 * slots -> readBit b i = Ok (mem_bit m i).
Proof.
  intros (Hf & Hsz & Hn & Ha) Hi. unfold readBit. rewrite Hf.
  rewrite (bit_get_ok m slots Ha i Hi). cbn [bind]. destruct (mem_bit m i); reflexivity.
Qed.

Lemma maskMerge_bit w v k n j :
  0 <= j < 32 -> Z.testbit k j = negb (j <? n) ->
  Z.testbit (maskMerge w v k) j = if j <? n then Z.testbit v j else Z.testbit w j.
Proof.
  intros Hj Hk. unfold maskMerge. rewrite Z.lxor_spec, Z.land_spec, Z.lxor_spec, Hk.
  destruct (j <? n); cbn [negb];
    destruct (Z.testbit v j), (Z.testbit w j); reflexivity.
Qed.

Lemma writeUINTn_ok b slots m i n v :
  bf_inv b slots m -> 0 <= i < 32 * slots -> 1 <= n <= 32 -> 0 <= v < M32 ->
  exists b' m', writeUINTn b i n v = Ok (true, b') /\ bf_inv b' slots m' /\
    forall j, 0 <= j < 32 * slots ->
      mem_bit m' j = (if n =? 1 then put (mem_bit m) i (negb (v =? 0))
                      else put_field (mem_bit m) i n v) j.
Proof.
  intros (Hf & Hsz & Hn & Ha) Hi Hxn Hv. unfold writeUINTn. rewrite Hf.
  replace (n <=? 32) with true by lia.
  destruct (Z.eqb_spec n 1) as [->|N1].
  { unfold writeBit. rewrite Hf. destruct (Z.eqb_spec v 0) as [->|V0]; cbn [negb].
    - destruct (bit_clear_ok m slots Ha i Hi) as (m' & -> & Ha' & Hb').
      cbn [bind snd]. eexists _, m'. split; [reflexivity|]. split; [inv_tac|]. exact Hb'.
    - destruct (bit_set_ok m slots Ha i Hi) as (m' & -> & Ha' & Hb').
      cbn [bind snd]. eexists _, m'. split; [reflexivity|]. split; [inv_tac|]. exact Hb'. }
  destruct (Z.eqb_spec n 32) as [->|N32].
  { rewrite Hn. destruct (write_uint32_ok m slots Ha i v Hi Hv) as (m' & -> & Ha' & Hb').
    cbn [bind]. eexists _, m'. split; [reflexivity|]. split; [inv_tac|]. exact Hb'. }
  rewrite Hsz. destruct (read_uint32_ok m slots Ha i Hi) as (w & -> & Hw & Hwb). cbn [bind].
  rewrite safeMask_ok by lia. cbn [bind]. cbv zeta. rewrite shl32_ok by lia. cbn [bind].
  set (v' := Z.land v (Z.shiftr 4294967295 (32 - n))).
  set (km := w32 (Z.shiftl 4294967295 n)).
  assert (Hkm : forall j, 0 <= j < 32 -> Z.testbit km j = negb (j <? n)).
  { intros j Hj. unfold km. rewrite w32_testbit, Z.shiftl_spec, ones32_testbit by lia. lia. }
  assert (Hv' : forall j, 0 <= j -> Z.testbit v' j = (j <? n) && Z.testbit v j).
  { intros j Hj. unfold v'. rewrite Z.land_spec, Z.shiftr_spec, ones32_testbit by lia.
    replace ((0 <=? j + (32 - n)) && (j + (32 - n) <? 32)) with (j <? n) by lia.
    apply andb_comm. }
  assert (HM : 0 <= maskMerge w v' km < M32).
  { rewrite M32_pow. apply range_of_bits; [lia|]. intros k Hk. unfold maskMerge.
    rewrite Z.lxor_spec, Z.land_spec, Z.lxor_spec, Hv' by lia.
    rewrite (testbit_high32 w), (testbit_high32 v) by lia.
    unfold km. rewrite (testbit_high32 (w32 _)) by (try apply w32_range; lia).
    rewrite !andb_false_r. reflexivity. }
  rewrite Hn. destruct (write_uint32_ok m slots Ha i _ Hi HM) as (m' & -> & Ha' & Hb').
  cbn [bind]. eexists _, m'. split; [reflexivity|]. split; [inv_tac|].
  intros j Hj. rewrite Hb' by lia. unfold put_field.
  destruct ((i <=? j) && (j <? i + 32)) eqn:C.
  - rewrite (maskMerge_bit _ _ _ n) by (try apply Hkm; lia).
    destruct (Z.ltb_spec (j - i) n) as [H|H].
    + replace ((i <=? j) && (j <? i + n)) with true by lia.
      rewrite Hv' by lia. replace (j - i <? n) with true by lia. reflexivity.
    + replace ((i <=? j) && (j <? i + n)) with false by lia.
      rewrite Hwb by lia. replace (i + (j - i)) with j by lia.
      replace (j <? 32 * slots) with true by lia. reflexivity.
  - replace ((i <=? j) && (j <? i + n)) with false by lia. reflexivity.
Qed.

Lemma memset_ok m byte slots :
  area_ok m slots -> 0 <= byte < 256 ->
  exists m', memset m byte (32 * slots / 8) = Ok m' /\ area_ok m' slots /\
    forall j, 0 <= j < 32 * slots -> mem_bit m' j = Z.testbit byte (j mod 8).
Proof.
  intros (Hb & Hs & Hl) Hby. unfold memset.
  replace (32 * slots / 8) with (zlen m) by lia.
  replace (zlen m <=? zlen m) with true by lia.
  eexists; split; [reflexivity|].
  assert (E : repeat byte (Z.to_nat (zlen m)) ++ skipn (Z.to_nat (zlen m)) m
              = repeat byte (length m)).
  { unfold zlen. rewrite Nat2Z.id, skipn_all, app_nil_r. reflexivity. }
  rewrite E. split.
  - split; [|split; auto].
    + unfold bytes_ok. apply Forall_forall. intros x Hx. apply repeat_spec in Hx. lia.
    + unfold zlen in *. rewrite repeat_length. lia.
  - intros j Hj. unfold mem_bit, zlen in *. f_equal.
    rewrite (nth_indep _ 0 byte) by (rewrite repeat_length; lia). apply nth_repeat.
Qed.

Lemma byte255_bit k : 0 <= k < 8 -> Z.testbit 255 k = true.
Proof. intros Hk. change 255 with (Z.ones 8). apply Z.ones_spec_low; lia. Qed.

Lemma bf_step_ok b slots m o :
  bf_inv b slots m -> op_ok (32 * slots) o ->
  exists b' m', bf_step b o = Ok b' /\ bf_inv b' slots m' /\
    forall j, 0 <= j < 32 * slots -> mem_bit m' j = spec_step (mem_bit m) o j.
Proof.
  intros Hinv Hop. pose proof Hinv as (Hf & Hsz & Hn & Ha).
  unfold bf_step. destruct o as [i|i|i|i v|i n v|i v| |]; cbn [op_ok spec_step] in *.
  - unfold setBit. rewrite Hf.
    destruct (bit_set_ok m slots Ha i Hop) as (m' & -> & Ha' & Hb').
    cbn [bind snd]. eexists _, m'. split; [reflexivity|]. split; [inv_tac|]. exact Hb'.
  - unfold clearBit. rewrite Hf.
    destruct (bit_clear_ok m slots Ha i Hop) as (m' & -> & Ha' & Hb').
    cbn [bind snd]. eexists _, m'. split; [reflexivity|]. split; [inv_tac|]. exact Hb'.
  - unfold toggleBit. rewrite Hf.
    destruct (bit_toggle_ok m slots Ha i Hop) as (m' & -> & Ha' & Hb').
    cbn [bind snd]. eexists _, m'. split; [reflexivity|]. split; [inv_tac|]. exact Hb'.
  - unfold writeBit. rewrite Hf. destruct v.
    + destruct (bit_set_ok m slots Ha i Hop) as (m' & -> & Ha' & Hb').
      cbn [bind snd]. eexists _, m'. split; [reflexivity|]. split; [inv_tac|]. exact Hb'.
    + destruct (bit_clear_ok m slots Ha i Hop) as (m' & -> & Ha' & Hb').
      cbn [bind snd]. eexists _, m'. split; [reflexivity|]. split; [inv_tac|]. exact Hb'.
  - destruct Hop as (Hi & Hw & Hv).
    destruct (writeUINTn_ok b slots m i n v Hinv Hi Hw Hv) as (b' & m' & -> & Hinv' & Hb').
    cbn [bind snd]. exists b', m'. auto.
  - destruct Hop as (Hi & Hv). unfold writeFloat. rewrite Hf, Hn.
    destruct (write_uint32_ok m slots Ha i v Hi Hv) as (m' & -> & Ha' & Hb').
    cbn [bind snd]. eexists _, m'. split; [reflexivity|]. split; [inv_tac|]. exact Hb'.
  - unfold setAll. rewrite Hf, Hsz.
    destruct (memset_ok m 255 slots Ha ltac:(lia)) as (m' & -> & Ha' & Hb').
    cbn [bind snd]. eexists _, m'. split; [reflexivity|]. split; [inv_tac|].
    intros j Hj. rewrite Hb' by lia. apply byte255_bit; lia.
  - unfold clearAll. rewrite Hf, Hsz.
    destruct (memset_ok m 0 slots Ha ltac:(lia)) as (m' & -> & Ha' & Hb').
    cbn [bind snd]. eexists _, m'. split; [reflexivity|]. split; [inv_tac|].
    intros j Hj. rewrite Hb' by lia. apply Z.bits_0.
Qed.

Lemma spec_step_ext sz a a' o :
  op_ok sz o -> (forall j, 0 <= j < sz -> a j = a' j) ->
  forall j, 0 <= j < sz -> spec_step a o j = spec_step a' o j.
Proof.
  intros Hop H j Hj. destruct o as [i|i|i|i v|i n v|i v| |]; cbn [spec_step op_ok] in *;
    unfold put, put_field; auto.
  - destruct (j =? i); auto.
  - destruct (j =? i); auto.
  - destruct (j =? i); auto. f_equal; auto.
  - destruct (j =? i); auto.
  - destruct (n =? 1).
    + destruct (j =? i); auto.
    + destruct ((i <=? j) && (j <? i + n)); auto.
  - destruct ((i <=? j) && (j <? i + 32)); auto.
Qed.

Lemma spec_fold_ext sz ops : Forall (op_ok sz) ops ->
  forall a a', (forall j, 0 <= j < sz -> a j = a' j) ->
  forall j, 0 <= j < sz -> fold_left spec_step ops a j = fold_left spec_step ops a' j.
Proof.
  induction 1 as [|o ops Ho Hops IH]; intros a a' H j Hj; cbn [fold_left]; auto.
  apply IH; auto. intros k Hk. now apply spec_step_ext with sz.
Qed.

Lemma bf_history b slots m ops :
  bf_inv b slots m -> Forall (op_ok (32 * slots)) ops ->
  exists b' m', run bf_step b ops = Ok b' /\ bf_inv b' slots m' /\
    forall j, 0 <= j < 32 * slots -> mem_bit m' j = fold_left spec_step ops (mem_bit m) j.
Proof.
  intros Hinv Hops. revert b m Hinv. induction Hops as [|o ops Ho Hops IH]; intros b m Hinv; cbn [run fold_left].
  - exists b, m. auto.
  - destruct (bf_step_ok b slots m o Hinv Ho) as (b1 & m1 & -> & Hinv1 & Hb1). cbn [bind].
    destruct (IH b1 m1 Hinv1) as (b2 & m2 & E & Hinv2 & Hb2).
    exists b2, m2. split; [exact E|]. split; [exact Hinv2|].
    intros j Hj. rewrite Hb2 by lia. apply (spec_fold_ext (32 * slots)); auto.
Qed.

Lemma setup_inv b m k :
  bytes_ok m -> 1 <= k -> zlen m = 4 * k ->
  exists b', setup b (Some m) (4 * k) = (true, b') /\ bf_inv b' k m.
Proof.
  intros Hb Hk Hl. unfold setup. rewrite (proj2 (Z.ltb_lt 0 (4 * k))) by lia.
  eexists; split; [reflexivity|]. unfold bf_inv, area_ok. cbn [field bsize nSlots].
  split; [reflexivity|]. split; [lia|]. split; [lia|]. split; [assumption|lia].
Qed.

(** Main refinement. *)
Lemma bitfield_refines k m ops :
  1 <= k -> bytes_ok m -> zlen m = 4 * k -> Forall (op_ok (32 * k)) ops ->
  exists b b', setup bf_new (Some m) (4 * k) = (true, b) /\
    run bf_step b ops = Ok b' /\
    forall i, 0 <= i < 32 * k ->
      readBit b' i = Ok (fold_left spec_step ops (mem_bit m) i).
Proof.
  intros Hk Hb Hl Hops.
  destruct (setup_inv bf_new m k Hb Hk Hl) as (b & Es & Hinv).
  destruct (bf_history b k m ops Hinv Hops) as (b' & m' & Er & Hinv' & Hbit).
  exists b, b'. split; [exact Es|]. split; [exact Er|].
  intros i Hi. rewrite (readBit_ok b' k m' i Hinv' Hi). f_equal. auto.
Qed.

(** readUINTn in terms of the bits. *)
Lemma readUINTn_ok b slots m i n :
  bf_inv b slots m -> 0 <= i < 32 * slots -> 1 <= n <= 32 ->
  exists r, readUINTn b i n = Ok r /\ 0 <= r < 2 ^ n /\
    forall k, 0 <= k < n -> Z.testbit r k = (i + k <? 32 * slots) && mem_bit m (i + k).
Proof.
  intros Hinv Hi Hn. pose proof Hinv as (Hf & Hsz & Hns & Ha). unfold readUINTn. rewrite Hf.
  replace (n <=? 32) with true by lia.
  destruct (Z.eqb_spec n 1) as [->|N1].
  { rewrite (readBit_ok b slots m i Hinv Hi). cbn [bind]. eexists; split; [reflexivity|].
    split; [destruct (mem_bit m i); cbn; lia|].
    intros k Hk. replace k with 0 by lia. rewrite Z.add_0_r.
    replace (i <? 32 * slots) with true by lia. destruct (mem_bit m i); reflexivity. }
  rewrite Hsz. destruct (read_uint32_ok m slots Ha i Hi) as (w & Ew & Hw & Hwb).
  destruct (Z.eqb_spec n 32) as [->|N32].
  { exists w. rewrite <- M32_pow. auto. }
  rewrite Ew. cbn [bind]. rewrite safeMask_ok by lia. cbn [bind].
  eexists; split; [reflexivity|].
  assert (HB : forall k, 0 <= k -> Z.testbit (Z.land w (Z.shiftr 4294967295 (32 - n))) k
                         = (k <? n) && Z.testbit w k).
  { intros k Hk. rewrite Z.land_spec, Z.shiftr_spec, ones32_testbit by lia.
    replace ((0 <=? k + (32 - n)) && (k + (32 - n) <? 32)) with (k <? n) by lia. apply andb_comm. }
  split.
  - apply range_of_bits; [lia|]. intros k Hk. rewrite HB by lia.
    replace (k <? n) with false by lia. reflexivity.
  - intros k Hk. rewrite HB by lia. replace (k <? n) with true by lia. cbn [andb]. apply Hwb; lia.
Qed.

Lemma mod_pow2_bit v n k : 0 <= n -> 0 <= k -> Z.testbit (v mod 2 ^ n) k = (k <? n) && Z.testbit v k.
Proof.
  intros Hn Hk. destruct (Z.ltb_spec k n); cbn [andb].
  - apply Z.mod_pow2_bits_low; lia.
  - apply Z.mod_pow2_bits_high; lia.
Qed.

(** Write followed by read of the same field, possibly running past the end. *)
Lemma write_read_ok b slots m i n v :
  bf_inv b slots m -> 0 <= i < 32 * slots -> 2 <= n <= 32 -> 0 <= v < M32 ->
  exists b', writeUINTn b i n v = Ok (true, b') /\
    readUINTn b' i n = Ok (v mod 2 ^ Z.min n (32 * slots - i)).
Proof.
  intros Hinv Hi Hn Hv.
  destruct (writeUINTn_ok b slots m i n v Hinv Hi ltac:(lia) Hv) as (b' & m' & Ew & Hinv' & Hb').
  exists b'. split; [exact Ew|].
  destruct (readUINTn_ok b' slots m' i n Hinv' Hi ltac:(lia)) as (r & -> & Hr & Hrb).
  f_equal. apply Z.bits_inj'. intros k Hk.
  rewrite mod_pow2_bit by lia.
  destruct (Z.ltb_spec k n) as [Hkn|Hkn].
  - rewrite Hrb by lia. destruct (Z.ltb_spec (i + k) (32 * slots)) as [Hs|Hs]; cbn [andb].
    + rewrite Hb' by lia. replace (n =? 1) with false by lia. unfold put_field.
      replace ((i <=? i + k) && (i + k <? i + n)) with true by lia.
      replace (k <? Z.min n (32 * slots - i)) with true by lia. cbn [andb]. f_equal; lia.
    + replace (k <? Z.min n (32 * slots - i)) with false by lia. reflexivity.
  - rewrite (testbit_high r n) by lia. replace (k <? Z.min n (32 * slots - i)) with false by lia.
    reflexivity.
Qed.

Lemma write_read_bit b slots m i v :
  bf_inv b slots m -> 0 <= i < 32 * slots -> 0 <= v < M32 ->
  exists b', writeUINTn b i 1 v = Ok (true, b') /\
    readUINTn b' i 1 = Ok (if v =? 0 then 0 else 1).
Proof.
  intros Hinv Hi Hv.
  destruct (writeUINTn_ok b slots m i 1 v Hinv Hi ltac:(lia) Hv) as (b' & m' & Ew & Hinv' & Hb').
  exists b'. split; [exact Ew|].
  unfold readUINTn. pose proof Hinv' as (Hf & _). rewrite Hf. cbn [Z.leb Z.eqb Z.compare Pos.compare Pos.compare_cont Pos.eqb].
  rewrite (readBit_ok b' slots m' i Hinv' Hi). cbn [bind]. rewrite Hb' by lia.
  cbn [Z.eqb Pos.eqb]. unfold put. rewrite Z.eqb_refl. destruct (v =? 0); reflexivity.
Qed.

Lemma writeFloat_ok b slots m i v :
  bf_inv b slots m -> 0 <= i < 32 * slots -> 0 <= v < M32 ->
  exists b' m', writeFloat b i v = Ok (true, b') /\ bf_inv b' slots m' /\
    forall j, 0 <= j < 32 * slots -> mem_bit m' j = put_field (mem_bit m) i 32 v j.
Proof.
  intros (Hf & Hsz & Hn & Ha) Hi Hv. unfold writeFloat. rewrite Hf, Hn.
  destruct (write_uint32_ok m slots Ha i v Hi Hv) as (m' & -> & Ha' & Hb').
  cbn [bind]. eexists _, m'. split; [reflexivity|]. split; [inv_tac|]. exact Hb'.
Qed.

Lemma float_roundtrip b slots m i v :
  bf_inv b slots m -> 0 <= i -> i + 32 <= 32 * slots -> 0 <= v < M32 ->
  exists b', writeFloat b i v = Ok (true, b') /\ readFloat b' i = Ok v.
Proof.
  intros Hinv Hi Hi' Hv.
  destruct (writeFloat_ok b slots m i v Hinv ltac:(lia) Hv) as (b' & m' & E & Hinv' & Hb').
  exists b'. split; [exact E|].
  pose proof Hinv' as (Hf & Hsz & Hn & Ha). unfold readFloat. rewrite Hf, Hsz.
  destruct (read_uint32_ok m' slots Ha i ltac:(lia)) as (r & -> & Hr & Hrb). f_equal.
  apply word_ext; auto. intros k Hk. rewrite Hrb by lia.
  replace (i + k <? 32 * slots) with true by lia. cbn [andb]. rewrite Hb' by lia.
  unfold put_field. replace ((i <=? i + k) && (i + k <? i + 32)) with true by lia. f_equal; lia.
Qed.

(** ** Statements over reachable bit-fields *)

Lemma started_inv k m ops b : started k m ops b -> exists m', bf_inv b k m'.
Proof.
  intros (Hk & Hb & Hl & Hops & b0 & Es & Er).
  destruct (setup_inv bf_new m k Hb Hk Hl) as (b1 & Es1 & Hinv).
  rewrite Es1 in Es. injection Es as <-.
  destruct (bf_history b1 k m ops Hinv Hops) as (b' & m' & Er' & Hinv' & _).
  rewrite Er in Er'. injection Er' as <-. eauto.
Qed.

Lemma started_history k m ops :
  1 <= k -> bytes_ok m -> zlen m = 4 * k -> Forall (op_ok (32 * k)) ops ->
  exists b, started k m ops b /\
    forall i, 0 <= i < 32 * k -> readBit b i = Ok (fold_left spec_step ops (mem_bit m) i).
Proof.
  intros Hk Hb Hl Hops.
  destruct (bitfield_refines k m ops Hk Hb Hl Hops) as (b & b' & Es & Er & Hr).
  exists b'. split; [|exact Hr]. repeat (split; auto). eauto.
Qed.

Lemma started_write_read k m ops b i n v :
  started k m ops b -> 0 <= i -> i + n <= 32 * k -> 2 <= n <= 32 -> 0 <= v < 2 ^ 32 ->
  exists b', writeUINTn b i n v = Ok (true, b') /\ readUINTn b' i n = Ok (v mod 2 ^ n).
Proof.
  intros Hst Hi Hin Hn Hv. destruct (started_inv _ _ _ _ Hst) as (m' & Hinv).
  destruct (write_read_ok b k m' i n v Hinv ltac:(lia) Hn Hv) as (b' & E1 & E2).
  exists b'. split; [exact E1|]. rewrite Z.min_l in E2 by lia. exact E2.
Qed.

Lemma started_write_read_trunc k m ops b i n v :
  started k m ops b -> 0 <= i < 32 * k -> 2 <= n <= 32 -> 0 <= v < 2 ^ 32 ->
  exists b', writeUINTn b i n v = Ok (true, b') /\
    readUINTn b' i n = Ok (v mod 2 ^ Z.min n (32 * k - i)).
Proof.
  intros Hst Hi Hn Hv. destruct (started_inv _ _ _ _ Hst) as (m' & Hinv).
  exact (write_read_ok b k m' i n v Hinv Hi Hn Hv).
Qed.

Lemma started_write_read_bit k m ops b i v :
  started k m ops b -> 0 <= i < 32 * k -> 0 <= v < 2 ^ 32 ->
  exists b', writeUINTn b i 1 v = Ok (true, b') /\
    readUINTn b' i 1 = Ok (if v =? 0 then 0 else 1).
Proof.
  intros Hst Hi Hv. destruct (started_inv _ _ _ _ Hst) as (m' & Hinv).
  exact (write_read_bit b k m' i v Hinv Hi Hv).
Qed.

Lemma started_write_frame k m ops b i n v :
  started k m ops b -> 0 <= i < 32 * k -> 1 <= n <= 32 -> 0 <= v < 2 ^ 32 ->
  exists b', writeUINTn b i n v = Ok (true, b') /\
    forall j, 0 <= j < 32 * k -> j < i \/ i + n <= j -> readBit b' j = readBit b j.
Proof.
  intros Hst Hi Hn Hv. destruct (started_inv _ _ _ _ Hst) as (m' & Hinv).
  destruct (writeUINTn_ok b k m' i n v Hinv Hi Hn Hv) as (b' & m'' & E & Hinv' & Hb').
  exists b'. split; [exact E|]. intros j Hj Hout.
  rewrite (readBit_ok b' k m'' j Hinv' Hj), (readBit_ok b k m' j Hinv Hj). f_equal.
  rewrite Hb' by lia. destruct (Z.eqb_spec n 1) as [->|N1].
  - unfold put. replace (j =? i) with false by lia. reflexivity.
  - unfold put_field. replace ((i <=? j) && (j <? i + n)) with false by lia. reflexivity.
Qed.

Lemma started_writeFloat_frame k m ops b i v :
  started k m ops b -> 0 <= i < 32 * k -> 0 <= v < 2 ^ 32 ->
  exists b', writeFloat b i v = Ok (true, b') /\
    forall j, 0 <= j < 32 * k -> j < i \/ i + 32 <= j -> readBit b' j = readBit b j.
Proof.
  intros Hst Hi Hv. destruct (started_inv _ _ _ _ Hst) as (m' & Hinv).
  destruct (writeFloat_ok b k m' i v Hinv Hi Hv) as (b' & m'' & E & Hinv' & Hb').
  exists b'. split; [exact E|]. intros j Hj Hout.
  rewrite (readBit_ok b' k m'' j Hinv' Hj), (readBit_ok b k m' j Hinv Hj). f_equal.
  rewrite Hb' by lia. unfold put_field. replace ((i <=? j) && (j <? i + 32)) with false by lia. reflexivity.
Qed.

Lemma started_read_bits k m ops b i n :
  started k m ops b -> 0 <= i < 32 * k -> 1 <= n <= 32 ->
  exists r, readUINTn b i n = Ok r /\ 0 <= r < 2 ^ n /\
    forall j, 0 <= j < n ->
      (i + j < 32 * k -> readBit b (i + j) = Ok (Z.testbit r j)) /\
      (32 * k <= i + j -> Z.testbit r j = false).
Proof.
  intros Hst Hi Hn. destruct (started_inv _ _ _ _ Hst) as (m' & Hinv).
  destruct (readUINTn_ok b k m' i n Hinv Hi Hn) as (r & E & Hr & Hb).
  exists r. split; [exact E|]. split; [exact Hr|]. intros j Hj. rewrite Hb by lia. split; intros H.
  - rewrite (readBit_ok b k m' (i + j) Hinv ltac:(lia)).
    replace (i + j <? 32 * k) with true by lia. reflexivity.
  - replace (i + j <? 32 * k) with false by lia. reflexivity.
Qed.

Lemma started_float k m ops b i v :
  started k m ops b -> 0 <= i -> i + 32 <= 32 * k -> 0 <= v < 2 ^ 32 ->
  exists b', writeFloat b i v = Ok (true, b') /\ readFloat b' i = Ok v.
Proof.
  intros Hst Hi Hi' Hv. destruct (started_inv _ _ _ _ Hst) as (m' & Hinv).
  exact (float_roundtrip b k m' i v Hinv Hi Hi' Hv).
Qed.

Lemma width0_ub k m ops b i v :
  started k m ops b -> 0 <= i < 32 * k ->
  readUINTn b i 0 = Ub /\ writeUINTn b i 0 v = Ub.
Proof.
  intros Hst Hi. destruct (started_inv _ _ _ _ Hst) as (m' & Hf & Hsz & Hn & Ha).
  unfold readUINTn, writeUINTn. rewrite Hf, Hsz. cbn [Z.leb Z.eqb Z.compare].
  destruct (read_uint32_ok m' k Ha i Hi) as (r & -> & _). cbn [bind]. split; reflexivity.
Qed.

Lemma width_gt32 b i n v : 32 < n -> readUINTn b i n = Ok 0 /\ writeUINTn b i n v = Ok (false, b).
Proof.
  intros Hn. unfold readUINTn, writeUINTn. destruct (field b); auto.
  replace (n <=? 32) with false by lia. auto.
Qed.

Lemma getw_oob m s : zlen m <= 4 * s + 3 -> getw m s = Ub.
Proof.
  intros H. unfold getw. rewrite (get_oob m (4 * s + 3)) by lia.
  destruct (get m (4 * s)); cbn [bind]; auto.
  destruct (get m (4 * s + 1)); cbn [bind]; auto.
  destruct (get m (4 * s + 2)); cbn [bind]; auto.
Qed.

Lemma ragged_ub m q r i :
  0 <= q -> 0 < r < 4 -> zlen m = 4 * q + r -> 32 * q <= i < 8 * (4 * q + r) ->
  exists b, setup bf_new (Some m) (4 * q + r) = (true, b) /\
    bsize b = 8 * (4 * q + r) /\
    setBit b i = Ub /\ clearBit b i = Ub /\ toggleBit b i = Ub /\ readBit b i = Ub.
Proof.
  intros Hq Hr Hl Hi. unfold setup. rewrite (proj2 (Z.ltb_lt 0 (4 * q + r))) by lia.
  eexists; split; [reflexivity|]. cbn [bsize].
  split; [lia|].
  assert (G : getw m (slot i) = Ub) by (apply getw_oob; unfold slot; lia).
  unfold setBit, clearBit, toggleBit, readBit, bit_set, bit_clear, bit_toggle, bit_get.
  cbn [field]. rewrite G. auto.
Qed.

Lemma uninit_refuses i n v w x d :
  setBit bf_new i = Ok (false, bf_new) /\ clearBit bf_new i = Ok (false, bf_new) /\
  toggleBit bf_new i = Ok (false, bf_new) /\ writeBit bf_new i x = Ok (false, bf_new) /\
  writeUINTn bf_new i n v = Ok (false, bf_new) /\ writeFloat bf_new i w = Ok (false, bf_new) /\
  setAll bf_new = Ok (false, bf_new) /\ clearAll bf_new = Ok (false, bf_new) /\
  readBit bf_new i = Ok false /\ readUINTn bf_new i n = Ok 0 /\ readFloat bf_new i = Ok 0 /\
  dump bf_new d n = Ok None.
Proof. repeat split. Qed.

Lemma setup_guard b area sz : 
  setup b area sz = (false, b) <-> (area = None \/ sz <= 0).
Proof.
  unfold setup. destruct area as [m|].
  - destruct (Z.ltb_spec 0 sz); split; intros H0; try discriminate; auto; try tauto.
    destruct H0; [discriminate | lia].
  - split; auto.
Qed.

Lemma dump_ok k m ops b d n :
  started k m ops b -> 0 <= n -> n <= zlen d ->
  (n <= 4 * k -> exists out, dump b (Some d) n = Ok (Some out) /\ zlen out = zlen d /\
      (forall i, 0 <= i < 8 * n -> readBit b i = Ok (mem_bit out i)) /\
      (forall q, n <= q < zlen d -> get out q = get d q)) /\
  (4 * k < n -> dump b (Some d) n = Ok None).
Proof.
  intros Hst Hn Hd. destruct (started_inv _ _ _ _ Hst) as (m' & Hinv).
  pose proof Hinv as (Hf & Hsz & Hns & Hb & Hk & Hl).
  unfold dump. rewrite Hf, Hsz. split; intros H.
  - replace (n <=? 32 * k / 8) with true by lia.
    replace ((n <=? zlen m') && (n <=? zlen d)) with true by lia.
    eexists; split; [reflexivity|].
    assert (L : length (firstn (Z.to_nat n) m') = Z.to_nat n)
      by (rewrite firstn_length; unfold zlen in *; lia).
    split; [|split].
    + unfold zlen in *. rewrite app_length, L, skipn_length. lia.
    + intros i Hi. rewrite (readBit_ok b k m' i Hinv ltac:(lia)). f_equal.
      unfold mem_bit. f_equal. rewrite app_nth1 by lia.
      rewrite <- (firstn_skipn (Z.to_nat n) m') at 1. rewrite app_nth1 by lia. reflexivity.
    + intros q Hq. unfold get. replace (q <? 0) with false by lia.
      rewrite nth_error_app2 by lia. rewrite L.
      rewrite <- (firstn_skipn (Z.to_nat n) d) at 2.
      rewrite (nth_error_app2 (firstn (Z.to_nat n) d)) by (rewrite firstn_length; unfold zlen in *; lia).
      rewrite firstn_length. replace (Nat.min (Z.to_nat n) (length d)) with (Z.to_nat n) by (unfold zlen in *; lia).
      reflexivity.
  - replace (n <=? 32 * k / 8) with false by lia. reflexivity.
Qed.

(** Non-vacuity: a two-word area, with contents, and a history that straddles words. *)
Definition ex_area : list Z := [1; 2; 3; 4; 250; 251; 252; 253].
Definition ex_ops : list bf_op :=
  [OpSetAll; OpWriteN 20 24 1193046; OpToggle 63; OpClear 0; OpWriteFloat 40 3; OpWriteN 60 8 165].

Lemma ex_started : exists b, started 2 ex_area ex_ops b /\
  readUINTn b 20 16 = Ok 13398 /\ readUINTn b 60 8 = Ok 5.
Proof.
  unfold started. eexists. split; [|split].
  - split; [lia|]. split; [unfold bytes_ok; repeat constructor; lia|]. split; [reflexivity|].
    split; [repeat constructor; cbn; lia|]. eexists. split; [reflexivity|]. vm_compute. reflexivity.
  - vm_compute. reflexivity.
  - vm_compute. reflexivity.
Qed.
