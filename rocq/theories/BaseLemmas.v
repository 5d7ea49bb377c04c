(** Generic lemmas about [Base]. *)
From Coq Require Import ZArith List Bool Lia.
From Verif Require Import Base.
Import ListNotations.
Open Scope Z_scope.

Lemma bind_ok {A B} (x : res A) (f : A -> res B) b :
  bind x f = Ok b -> exists a, x = Ok a /\ f a = Ok b.
Proof. destruct x as [a|]; simpl; intros H; [eauto | discriminate]. Qed.

Lemma zlen_nonneg {A} (l : list A) : 0 <= zlen l.
Proof. unfold zlen; lia. Qed.

Lemma upd_length {A} (l : list A) n v : length (upd l n v) = length l.
Proof. revert n; induction l as [|h t IH]; intros [|n]; simpl; auto. Qed.

Lemma zlen_upd {A} (l : list A) n v : zlen (upd l n v) = zlen l.
Proof. unfold zlen; now rewrite upd_length. Qed.

Lemma nth_error_upd_eq {A} (l : list A) n v :
  (n < length l)%nat -> nth_error (upd l n v) n = Some v.
Proof. revert n; induction l as [|h t IH]; intros [|n] H; simpl in *; try lia; auto. apply IH; lia. Qed.

Lemma nth_error_upd_ne {A} (l : list A) n m v :
  n <> m -> nth_error (upd l n v) m = nth_error l m.
Proof. revert n m; induction l as [|h t IH]; intros [|n] [|m] H; simpl; auto; try congruence. Qed.

Lemma nth_upd_eq {A} (l : list A) n v d :
  (n < length l)%nat -> nth n (upd l n v) d = v.
Proof. revert n; induction l as [|h t IH]; intros [|n] H; simpl in *; try lia; auto. apply IH; lia. Qed.

Lemma nth_upd_ne {A} (l : list A) n m v d :
  n <> m -> nth m (upd l n v) d = nth m l d.
Proof. revert n m; induction l as [|h t IH]; intros [|n] [|m] H; simpl; auto; try congruence. Qed.

Lemma get_ok_iff {A} (l : list A) i v :
  get l i = Ok v <-> 0 <= i /\ nth_error l (Z.to_nat i) = Some v.
Proof.
  unfold get. destruct (Z.ltb_spec i 0) as [H|H].
  - split; [discriminate | intros [H0 _]; lia].
  - destruct (nth_error l (Z.to_nat i)) as [u|] eqn:E; split; intros H0.
    + injection H0 as <-; auto.
    + destruct H0 as [_ H0]; congruence.
    + discriminate.
    + destruct H0 as [_ H0]; discriminate.
Qed.

Lemma get_ok_nth {A} (l : list A) i d :
  0 <= i < zlen l -> get l i = Ok (nth (Z.to_nat i) l d).
Proof.
  intros H. apply get_ok_iff. split; [lia|].
  apply nth_error_nth'. unfold zlen in H; lia.
Qed.

Lemma get_range {A} (l : list A) i v : get l i = Ok v -> 0 <= i < zlen l.
Proof.
  intros H. apply get_ok_iff in H as [H0 H1].
  split; [lia|]. unfold zlen.
  assert (Z.to_nat i < length l)%nat by (apply nth_error_Some; congruence). lia.
Qed.

Lemma get_oob {A} (l : list A) i : i < 0 \/ zlen l <= i -> get l i = Ub.
Proof.
  intros H. destruct (get l i) as [v|] eqn:E; auto.
  apply get_range in E. lia.
Qed.

Lemma set_ok {A} (l : list A) i v :
  0 <= i < zlen l -> set l i v = Ok (upd l (Z.to_nat i) v).
Proof.
  intros H. unfold set.
  replace (0 <=? i) with true by (symmetry; apply Z.leb_le; lia).
  replace (i <? zlen l) with true by (symmetry; apply Z.ltb_lt; lia). reflexivity.
Qed.

Lemma set_inv {A} (l l' : list A) i v :
  set l i v = Ok l' -> 0 <= i < zlen l /\ l' = upd l (Z.to_nat i) v.
Proof.
  unfold set. destruct (Z.leb_spec 0 i), (Z.ltb_spec i (zlen l)); simpl; intros E;
    try discriminate. injection E as <-. split; [lia | reflexivity].
Qed.

Lemma get_upd {A} (l : list A) i j v :
  0 <= i < zlen l ->
  get (upd l (Z.to_nat i) v) j = if j =? i then Ok v else get l j.
Proof.
  intros H. destruct (Z.eqb_spec j i) as [->|Hne].
  - apply get_ok_iff. split; [lia|]. apply nth_error_upd_eq. unfold zlen in H; lia.
  - unfold get. destruct (Z.ltb_spec j 0); [reflexivity|].
    rewrite nth_error_upd_ne by lia. reflexivity.
Qed.

Lemma Forall_upd {A} (P : A -> Prop) (l : list A) n v :
  Forall P l -> P v -> Forall P (upd l n v).
Proof.
  revert n; induction l as [|h t IH]; intros [|n] Hl Hv; simpl; auto.
  - inversion Hl; subst; auto.
  - inversion Hl; subst. constructor; auto.
Qed.

Lemma run_app {S O} (step : S -> O -> res S) s a b :
  run step s (a ++ b) = (s' <- run step s a ;; run step s' b).
Proof.
  revert s; induction a as [|o a IH]; intros s; simpl; auto.
  destruct (step s o) as [s'|]; simpl; auto.
Qed.

(** Bits of a wrapped word. *)
Lemma M32_pow : M32 = 2 ^ 32. Proof. reflexivity. Qed.

Lemma w32_range x : 0 <= w32 x < M32.
Proof. unfold w32; apply Z.mod_pos_bound; reflexivity. Qed.

Lemma w32_id x : 0 <= x < M32 -> w32 x = x.
Proof. apply Z.mod_small. Qed.

Lemma w32_testbit x k :
  Z.testbit (w32 x) k = (k <? 32) && Z.testbit x k.
Proof.
  unfold w32. rewrite M32_pow.
  destruct (Z.ltb_spec k 32) as [H|H]; cbn [andb].
  - apply Z.mod_pow2_bits_low; lia.
  - apply Z.mod_pow2_bits_high; lia.
Qed.

Lemma testbit_high x n k : 0 <= x < 2 ^ n -> n <= k -> Z.testbit x k = false.
Proof.
  intros Hx Hk.
  destruct (Z.ltb_spec k 0) as [Hn|Hn]; [apply Z.testbit_neg_r; lia|].
  destruct (Z.ltb_spec n 0) as [Hnn|Hnn].
  - rewrite (Z.pow_neg_r 2 n) in Hx by lia. lia.
  - rewrite <- (Z.mod_small x (2 ^ n)) by lia. apply Z.mod_pow2_bits_high; lia.
Qed.

Lemma testbit_high32 x k : 0 <= x < M32 -> 32 <= k -> Z.testbit x k = false.
Proof. rewrite M32_pow; intros; now apply testbit_high with 32. Qed.

Lemma word_ext x y :
  0 <= x < M32 -> 0 <= y < M32 ->
  (forall k, 0 <= k < 32 -> Z.testbit x k = Z.testbit y k) -> x = y.
Proof.
  intros Hx Hy H. apply Z.bits_inj'. intros k Hk.
  destruct (Z.ltb_spec k 32); [apply H; lia|].
  rewrite !testbit_high32 by lia. reflexivity.
Qed.

Lemma range_of_bits x n :
  0 <= n -> (forall k, n <= k -> Z.testbit x k = false) -> 0 <= x < 2 ^ n.
Proof.
  intros Hn H.
  assert (E : x = x mod 2 ^ n).
  { apply Z.bits_inj'. intros k Hk. destruct (Z.ltb_spec k n).
    - symmetry; apply Z.mod_pow2_bits_low; lia.
    - rewrite Z.mod_pow2_bits_high by lia. apply H; lia. }
  rewrite E. apply Z.mod_pos_bound. apply Z.pow_pos_nonneg; lia.
Qed.

Lemma shl32_ok v s : 0 <= s < 32 -> shl32 v s = Ok (w32 (Z.shiftl v s)).
Proof.
  intros H; unfold shl32.
  replace (0 <=? s) with true by (symmetry; apply Z.leb_le; lia).
  replace (s <? 32) with true by (symmetry; apply Z.ltb_lt; lia). reflexivity.
Qed.

Lemma shr32_ok v s : 0 <= s < 32 -> shr32 v s = Ok (Z.shiftr v s).
Proof.
  intros H; unfold shr32.
  replace (0 <=? s) with true by (symmetry; apply Z.leb_le; lia).
  replace (s <? 32) with true by (symmetry; apply Z.ltb_lt; lia). reflexivity.
Qed.

Lemma ones32_testbit k : Z.testbit 4294967295 k = (0 <=? k) && (k <? 32).
Proof.
  change 4294967295 with (Z.ones 32).
  destruct (Z.leb_spec 0 k); cbn [andb].
  - destruct (Z.ltb_spec k 32).
    + apply Z.ones_spec_low; lia.
    + apply Z.ones_spec_high; lia.
  - apply Z.testbit_neg_r; lia.
Qed.
