(** Proofs about the transfer-function systems. *)
From Coq Require Import ZArith Reals Lra Lia List Bool.
From Flocq Require Import IEEE754.Binary IEEE754.Bits.
From Verif Require Import Base BaseLemmas Arith ArithLemmas Numa_Model Tdl_Model Tdl_Spec Tdl_Proofs Algorithm_Proofs Ltisys_Model Ltisys_Spec.
Import ListNotations.
Open Scope Z_scope.

Lemma size_dec_pos n : 1 <= n -> n <= 2 ^ 64 -> size_dec n = n - 1.
Proof. intros. unfold size_dec. apply Z.mod_small. lia. Qed.

Lemma get_nth {A} (d : A) (l : list A) (i : nat) : (i < length l)%nat -> get l (Z.of_nat i) = Ok (nth i l d).
Proof.
  intros H. unfold get. destruct (Z.ltb_spec (Z.of_nat i) 0); [lia|]. rewrite Nat2Z.id.
  rewrite (nth_error_nth' l d H). reflexivity.
Qed.

Lemma set_nth {A} (l : list A) (i : nat) v : (i < length l)%nat -> set l (Z.of_nat i) v = Ok (upd l i v).
Proof.
  intros H. unfold set, zlen. destruct (Z.leb_spec 0 (Z.of_nat i)); [|lia].
  destruct (Z.ltb_spec (Z.of_nat i) (Z.of_nat (length l))); [|lia]. cbn [andb]. rewrite Nat2Z.id. reflexivity.
Qed.

Lemma upd_split {A} (l : list A) i v : (i < length l)%nat -> upd l i v = firstn i l ++ v :: skipn (S i) l.
Proof.
  revert i; induction l as [|h t IH]; intros i H; cbn in H; [lia|].
  destruct i; cbn; [reflexivity|]. f_equal. apply IH. lia.
Qed.

Section Fir.
Context {A : arith}.
Notation X := (F A).
Local Notation z := (lit 0 1 : X).

(** The value updateFIR adds for tap [i] holding [v]. *)
Definition tap (c : option (list X)) (i : nat) (v : X) : X :=
  match c with Some c => if (i =? 0)%nat then fmul (nth i c z) v else fmul v (nth i c z) | None => v end.
Fixpoint fir_acc (c : option (list X)) (k : nat) (w : list X) (y : X) : X :=
  match k with O => y | S k' => fir_acc c k' w (fadd y (tap c k (nth k' w z))) end.
Definition covers (c : option (list X)) (n : nat) : Prop :=
  match c with Some c => (n <= length c)%nat | None => True end.

Lemma fir_acc_ext c k : forall w w' y, (forall i, (i < k)%nat -> nth i w z = nth i w' z) ->
  fir_acc c k w y = fir_acc c k w' y.
Proof.
  induction k; intros w w' y H; cbn; [reflexivity|].
  rewrite (H k) by lia. apply IHk. intros i Hi. apply H. lia.
Qed.

Lemma nth_upd_low (w : list X) i k v : (i < k)%nat -> nth i (upd w k v) z = nth i w z.
Proof.
  revert i k. induction w as [|h t IH]; intros i k H; [destruct k; reflexivity|].
  destruct k; [lia|]. destruct i; cbn; [reflexivity|]. apply IH. lia.
Qed.

Lemma fir_loop_ok c k : forall w y, (k < length w)%nat -> covers c (S k) ->
  fir_loop c k w y = Ok (firstn 1 w ++ firstn k w ++ skipn (S k) w, fir_acc c k w y).
Proof.
  induction k; intros w y Hw Hc.
  - cbn [fir_loop fir_acc]. destruct w; [cbn in Hw; lia|]. reflexivity.
  - cbn [fir_loop].
    replace (Z.of_nat (S k) - 1) with (Z.of_nat k) by lia.
    rewrite (get_nth z) by lia. cbn [bind].
    rewrite set_nth by lia. cbn [bind].
    assert (T : match c with
      | Some c0 => ci <- get c0 (Z.of_nat (S k));; Ok (nth k w z * ci)%fl
      | None => Ok (nth k w z) end = Ok (tap c (S k) (nth k w z))).
    { destruct c as [c|]; [|reflexivity]. cbn in Hc. rewrite (get_nth z) by lia. reflexivity. }
    rewrite T. cbn [bind].
    rewrite IHk; [|rewrite upd_length; lia|destruct c; cbn in *; auto; lia].
    f_equal. f_equal.
    + rewrite upd_split by lia.
      assert (L : length (firstn (S k) w) = S k) by (rewrite firstn_length; lia).
      assert (F1 : firstn 1 (firstn (S k) w ++ nth k w z :: skipn (S (S k)) w) = firstn 1 w).
      { rewrite firstn_app, firstn_firstn. replace (Nat.min 1 (S k)) with 1%nat by lia.
        rewrite L. replace (1 - S k)%nat with O by lia. cbn [firstn]. rewrite app_nil_r. reflexivity. }
      rewrite F1. apply f_equal.
      rewrite firstn_app, firstn_firstn, L. replace (Nat.min k (S k)) with k by lia.
      replace (k - S k)%nat with O by lia. rewrite firstn_O, app_nil_r.
      rewrite skipn_app, L. rewrite (skipn_all2 (firstn (S k) w)) by lia.
      replace (S k - S k)%nat with O by lia. rewrite app_nil_l, skipn_O.
      change (nth k w z :: skipn (S (S k)) w) with ([nth k w z] ++ skipn (S (S k)) w).
      rewrite app_assoc. f_equal.
      clear -Hw. revert k Hw. induction w as [|h t IH]; intros k Hw; [cbn in Hw; lia|].
      destruct k; cbn; [reflexivity|]. f_equal. rewrite IH by (cbn in Hw; lia). reflexivity.
    + cbn [fir_acc]. apply fir_acc_ext. intros i Hi. apply nth_upd_low. lia.
Qed.

Definition fir_value (c : option (list X)) (n : nat) (x : X) (w : list X) : X :=
  fadd (fir_acc c (n - 1) w z) (tap c 0 x).

Lemma updateFIR_ok c w n x : (1 <= n <= length w)%nat -> covers c n -> Z.of_nat n <= 2 ^ 64 ->
  updateFIR w (Z.of_nat n) x c = Ok (x :: firstn (n - 1) w ++ skipn n w, fir_value c n x w).
Proof.
  intros Hn Hc Hb. unfold updateFIR. rewrite size_dec_pos by lia.
  replace (Z.to_nat (Z.of_nat n - 1)) with (n - 1)%nat by lia.
  rewrite fir_loop_ok; [|lia|replace (S (n - 1)) with n by lia; exact Hc]. cbn [bind fst snd].
  replace (S (n - 1)) with n by lia.
  destruct w as [|h t]; [cbn in Hn; lia|].
  assert (T : match c with
    | Some c0 => c1 <- get c0 0;; Ok (fir_acc c (n - 1) (h :: t) z + c1 * x)%fl
    | None => Ok (fir_acc c (n - 1) (h :: t) z + x)%fl end = Ok (fir_value c n x (h :: t))).
  { unfold fir_value. destruct c as [c|]; [|reflexivity]. cbn in Hc.
    change 0%Z with (Z.of_nat 0). rewrite (get_nth z) by lia. reflexivity. }
  rewrite T. cbn [bind].
  change 0%Z with (Z.of_nat 0) at 1. rewrite set_nth by (cbn; lia). cbn [bind firstn app upd]. reflexivity.
Qed.

(** Too small a window, or no window: undefined. *)
Lemma fir_loop_oob (c : option (list X)) k : forall w y, (length w <= k)%nat -> (0 < k)%nat -> fir_loop c k w y = Ub.
Proof.
  intros w y H K. destruct k as [|k]; [lia|]. cbn [fir_loop].
  replace (Z.of_nat (S k) - 1) with (Z.of_nat k) by lia.
  destruct (get w (Z.of_nat k)); cbn [bind]; [|reflexivity].
  unfold set. replace (Z.of_nat (S k) <? zlen w) with false; [rewrite andb_false_r; reflexivity|].
  symmetry. apply Z.ltb_ge. unfold zlen. lia.
Qed.

Lemma updateFIR_zero c w (x : X) : zlen w < 2 ^ 64 -> updateFIR w 0 x c = Ub.
Proof.
  intros H. unfold updateFIR. rewrite fir_loop_oob; [reflexivity| |].
  - unfold size_dec, zlen in *. change ((0 - 1) mod 2 ^ 64) with (2 ^ 64 - 1). lia.
  - change (size_dec 0) with (2 ^ 64 - 1). lia.
Qed.

Lemma updateFIR_oob c w n (x : X) : zlen w < n <= 2 ^ 64 -> updateFIR w n x c = Ub.
Proof.
  intros H. unfold updateFIR.
  pose proof (zlen_nonneg w). rewrite size_dec_pos by lia.
  destruct (Z.eq_dec n 1) as [->|].
  - change (Z.to_nat (1 - 1)) with O. cbn [fir_loop bind fst snd].
    assert (w = []) by (destruct w; auto; unfold zlen in H; cbn in H; lia). subst w.
    destruct c as [c|]; [destruct (get c 0)|]; reflexivity.
  - rewrite fir_loop_oob; [reflexivity| |]; unfold zlen in *; lia.
Qed.

End Fir.

(** ** Element-wise loops *)
Fixpoint gloop {B} (d : B) (k i : nat) (g : nat -> B -> B) (l : list B) : list B :=
  match k with O => l | S k' => gloop d k' (S i) g (upd l i (g i (nth i l d))) end.

Lemma gloop_length {B} (d : B) k : forall i g l, length (gloop d k i g l) = length l.
Proof. induction k; intros; cbn; [reflexivity|]. rewrite IHk, upd_length. reflexivity. Qed.

Lemma nth_upd {B} (d : B) (l : list B) i j v : (i < length l)%nat ->
  nth j (upd l i v) d = if (j =? i)%nat then v else nth j l d.
Proof.
  revert i j. induction l as [|h t IH]; intros i j H; cbn in H; [lia|].
  destruct i, j; cbn; auto. apply IH. lia.
Qed.

Lemma gloop_nth {B} (d : B) k : forall i g l j, (i + k <= length l)%nat ->
  nth j (gloop d k i g l) d = if ((i <=? j) && (j <? i + k))%nat then g j (nth j l d) else nth j l d.
Proof.
  induction k; intros i g l j H; cbn [gloop].
  - replace (i + 0)%nat with i by lia. destruct (Nat.leb_spec i j), (Nat.ltb_spec j i); cbn; auto; lia.
  - rewrite IHk by (rewrite upd_length; lia). rewrite nth_upd by lia.
    destruct (Nat.eqb_spec j i).
    + subst. rewrite (proj2 (Nat.leb_gt (S i) i)) by lia. cbn [andb].
      rewrite Nat.leb_refl, (proj2 (Nat.ltb_lt i (i + S k))) by lia. reflexivity.
    + replace (S i + k)%nat with (i + S k)%nat by lia.
      destruct (Nat.leb_spec (S i) j), (Nat.leb_spec i j); auto; try lia.
Qed.

Lemma gloop_all {B} (d : B) g l : gloop d (length l) 0 (fun _ => g) l = map g l.
Proof.
  apply nth_ext with (d := d) (d' := g d).
  - rewrite gloop_length, map_length. reflexivity.
  - intros n Hn. rewrite gloop_length in Hn. rewrite gloop_nth by lia. rewrite map_nth.
    rewrite (proj2 (Nat.ltb_lt n (0 + length l))) by lia. reflexivity.
Qed.

Lemma div_loop_ok {A : arith} (a0 : F A) k : forall i l, (i + k <= length l)%nat ->
  div_loop k (Z.of_nat i) a0 l = Ok (gloop (lit 0 1) k i (fun _ v => fdiv v a0) l).
Proof.
  induction k; intros i l H; cbn [div_loop gloop]; [reflexivity|].
  rewrite (get_nth (lit 0 1)) by lia. cbn [bind]. rewrite set_nth by lia. cbn [bind].
  replace (Z.of_nat i + 1) with (Z.of_nat (S i)) by lia. apply IHk. rewrite upd_length. lia.
Qed.

Lemma div_loop_oob {A : arith} (a0 : F A) k : forall i l, (length l < i + k)%nat -> (i <= length l)%nat -> div_loop k (Z.of_nat i) a0 l = Ub.
Proof.
  induction k; intros i l H H1; [lia|]. cbn [div_loop].
  destruct (Nat.eq_dec i (length l)) as [->|].
  - rewrite get_oob; [reflexivity|unfold zlen; lia].
  - rewrite (get_nth (lit 0 1)) by lia. cbn [bind]. rewrite set_nth by lia. cbn [bind].
    replace (Z.of_nat i + 1) with (Z.of_nat (S i)) by lia. apply IHk; rewrite upd_length; lia.
Qed.

Lemma init_loop_ok {A : arith} (xi : option (list (F A))) k : forall i x, (i + k <= length x)%nat -> covers xi (i + k) ->
  init_loop k (Z.of_nat i) xi x = Ok (gloop (lit 0 1) k i (fun j _ => match xi with Some l => nth j l (lit 0 1) | None => lit 0 1 end) x).
Proof.
  induction k; intros i x H Hc; cbn [init_loop gloop]; [reflexivity|].
  assert (T : match xi with Some xi0 => get xi0 (Z.of_nat i) | None => Ok (lit 0 1) end
              = Ok (match xi with Some l => nth i l (lit 0 1) | None => lit 0 1 end)).
  { destruct xi; [|reflexivity]. cbn in Hc. apply get_nth. lia. }
  rewrite T. cbn [bind]. rewrite set_nth by lia. cbn [bind].
  replace (Z.of_nat i + 1) with (Z.of_nat (S i)) by lia. apply IHk; [rewrite upd_length; lia|].
  destruct xi; cbn in *; auto; lia.
Qed.

Lemma init_loop_oob {A : arith} (xi : option (list (F A))) k : forall i x, (length x < i + k)%nat -> (i <= length x)%nat ->
  init_loop k (Z.of_nat i) xi x = Ub.
Proof.
  induction k; intros i x H H1; [lia|]. cbn [init_loop].
  destruct (match xi with Some xi0 => get xi0 (Z.of_nat i) | None => Ok (lit 0 1) end); cbn [bind]; [|reflexivity].
  destruct (Nat.eq_dec i (length x)) as [->|].
  - unfold set, zlen. rewrite Z.ltb_irrefl, andb_false_r. reflexivity.
  - rewrite set_nth by lia. cbn [bind]. replace (Z.of_nat i + 1) with (Z.of_nat (S i)) by lia. apply IHk; rewrite upd_length; lia.
Qed.

(** normalizeTransferFunction *)
Lemma normalizeTF_ok {A : arith} (num den : list (F A)) n m : (1 <= n <= length num)%nat -> (m <= length den)%nat -> (1 <= length den)%nat ->
  let a0 := nth 0 den (lit 0 1) in
  normalizeTF num den (Z.of_nat n) (Z.of_nat m) =
    Ok (gloop (lit 0 1) n 0 (fun _ v => fdiv v a0) num, gloop (lit 0 1) m 0 (fun _ v => fdiv v a0) den, fdiv (nth 0 num (lit 0 1)) a0).
Proof.
  intros Hn Hm Hd a0. unfold normalizeTF. change 0 with (Z.of_nat 0).
  rewrite (get_nth (lit 0 1)) by lia. cbn [bind]. rewrite !Nat2Z.id. fold a0.
  rewrite !div_loop_ok by lia. cbn [bind].
  rewrite (get_nth (lit 0 1)) by (rewrite gloop_length; lia). cbn [bind].
  rewrite gloop_nth by lia. cbn [Nat.leb andb]. rewrite (proj2 (Nat.ltb_lt 0 (0 + n))) by lia. reflexivity.
Qed.

Lemma normalizeTF_oob {A : arith} (num den : list (F A)) n m :
  (length num < n)%nat \/ (length den < m)%nat -> normalizeTF num den (Z.of_nat n) (Z.of_nat m) = Ub.
Proof.
  intros H. unfold normalizeTF. destruct (get den 0) as [a0|]; cbn [bind]; [|reflexivity].
  rewrite !Nat2Z.id. change 0 with (Z.of_nat 0).
  destruct (le_lt_dec n (length num)).
  - rewrite div_loop_ok by lia. cbn [bind]. rewrite div_loop_oob; [reflexivity|lia|lia].
  - rewrite div_loop_oob; [reflexivity|lia|lia].
Qed.
