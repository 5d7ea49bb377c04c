(** The interpolators over the reals. *)
From Coq Require Import ZArith List Bool Lia Reals Lra.
From Verif Require Import Base BaseLemmas Arith ArithLemmas Ltisys_Proofs Ltisys_Proofs2 Interp1_Model Interp1_Spec Interp1_Proofs.
Import ListNotations.
Open Scope R_scope.

Lemma lt1 (z : Z) : lit (a := RA) z 1 = IZR z.
Proof. change (IZR z / 1 = IZR z). field. Qed.

Section Table.
Variables (n : nat) (tx ty : list (F RA)).
Hypothesis T : table n tx ty.
Notation X i := (nth i (tx : list R) 0).
Notation Y i := (nth i (ty : list R) 0).

Lemma Ltx : length tx = n. Proof. apply T. Qed.
Lemma Lty : length ty = n. Proof. apply T. Qed.
Lemma Ztx : zlen tx = Z.of_nat n. Proof. unfold zlen. rewrite Ltx. reflexivity. Qed.
Lemma Zty : zlen ty = Z.of_nat n. Proof. unfold zlen. rewrite Lty. reflexivity. Qed.
Lemma gx z i : z = Z.of_nat i -> (i < n)%nat -> get tx z = Ok (X i).
Proof. intros -> H. apply (get_nth (A := R)). change (i < @length (F RA) tx)%nat. rewrite Ltx. exact H. Qed.
Lemma gy z i : z = Z.of_nat i -> (i < n)%nat -> get ty z = Ok (Y i).
Proof. intros -> H. apply (get_nth (A := R)). change (i < @length (F RA) ty)%nat. rewrite Lty. exact H. Qed.
Lemma gx_inv z i v : z = Z.of_nat i -> get tx z = Ok v -> v = X i.
Proof. intros -> H. pose proof (get_range _ _ _ H). rewrite Ztx in H0. rewrite (gx _ i) in H by lia. congruence. Qed.

Lemma step_lt i : (S i < n)%nat -> X i < X (S i).
Proof. intros H. destruct T as (L & _ & I). apply I. rewrite L. exact H. Qed.
Lemma knot_lt i j : (i < j)%nat -> (j < n)%nat -> X i < X j.
Proof.
  intros H. induction H as [|j H IH]; intros Hj; [apply step_lt; auto|]. pose proof (step_lt j Hj).
  assert (X i < X j) by (apply IH; lia). lra.
Qed.
Lemma knot_le i j : (i <= j)%nat -> (j < n)%nat -> X i <= X j.
Proof. intros H Hj. destruct (Nat.eq_dec i j) as [->|]; [lra|]. apply Rlt_le, knot_lt; lia. Qed.
Lemma knot_lt_inv i j : (i < n)%nat -> X i < X j -> (j < n)%nat -> (i < j)%nat.
Proof. intros Hi H Hj. destruct (Nat.lt_ge_cases i j); auto. pose proof (knot_le j i H0 Hi). lra. Qed.

(** ** previous *)
Lemma previous_at (x : R) i : (i < n)%nat -> (2 <= n)%nat -> X i <= x -> ((S i < n)%nat -> x < X (S i)) ->
  previous (A := RA) x tx ty (Z.of_nat n) = Ok (Y i).
Proof.
  intros Hi Hn H1 H2. unfold previous. rewrite Z.geb_leb. destruct (Z.leb_spec 2 (Z.of_nat n)); [|lia].
  rewrite (gx 0 0) by lia. cbn [bind]. change (fle (a := RA)) with Rleb.
  destruct (Rleb_spec x (X 0)) as [H0|H0].
  - assert (i = 0)%nat as ->. { destruct i; auto. pose proof (knot_lt 0 (S i)). assert (X 0 < X (S i)) by (apply H3; lia). lra. }
    apply gy; lia.
  - destruct (previous_search_ok (A := RA) x tx (Z.to_nat (Z.of_nat n - 1)) 1 0) as (r & Er & Hr); [lia|rewrite Ztx; lia|].
    rewrite Er. cbn [bind]. change (flt (a := RA)) with Rltb in Hr.
    destruct Hr as [(-> & [Hk|(v & Ev & Hv)])|(Hr & Hall & Hend)].
    + lia.
    + rewrite (gx 1 1) in Ev by lia. injection Ev as <-. apply Rltb_inv in Hv.
      assert (i = 0)%nat as ->. { destruct i; auto. pose proof (knot_le 1 (S i)). assert (X 1 <= X (S i)) by (apply H3; lia). lra. }
      apply gy; lia.
    + destruct (Z_of_nat_complete r) as [m ->]; [lia|]. destruct (Hall (Z.of_nat m)) as (v & Ev & Hv); [lia|].
      rewrite (gx _ m) in Ev by lia. injection Ev as <-. apply Rltb_inv_false in Hv.
      assert (i = m) as ->; [|apply gy; lia].
      destruct (Nat.lt_trichotomy i m) as [C|[C|C]]; auto; exfalso.
      * assert (x < X (S i)) by (apply H2; lia). assert (X (S i) <= X m) by (apply knot_le; lia). lra.
      * destruct Hend as [Hend|(w & Ew & Hw)]; [lia|]. rewrite (gx _ (S m)) in Ew by lia. injection Ew as <-. apply Rltb_inv in Hw.
        assert (X (S m) <= X i) by (apply knot_le; lia). lra.
Qed.
Lemma previous_below (x : R) : (2 <= n)%nat -> x <= X 0 -> previous (A := RA) x tx ty (Z.of_nat n) = Ok (Y 0).
Proof.
  intros Hn H. unfold previous. rewrite Z.geb_leb. destruct (Z.leb_spec 2 (Z.of_nat n)); [|lia].
  rewrite (gx 0 0) by lia. cbn [bind]. change (fle (a := RA)) with Rleb. rewrite Rleb_true by exact H. apply gy; lia.
Qed.

(** ** next *)
Lemma next_at (x : R) i : (S i < n)%nat -> (i = 0%nat \/ X i <= x) -> x < X (S i) -> next (A := RA) x tx ty (Z.of_nat n) = Ok (Y (S i)).
Proof.
  intros Hi H1 H2. unfold next. rewrite Z.geb_leb. destruct (Z.leb_spec 2 (Z.of_nat n)); [|lia].
  destruct (next_search_ok (A := RA) x tx (Z.to_nat (Z.of_nat n - 1)) 0) as (r & Er & Hr); [lia|rewrite Ztx; lia|].
  rewrite Er. cbn [bind]. rewrite (gx _ (n - 1)) by lia. cbn [bind]. change (fle (a := RA)) with Rleb. change (flt (a := RA)) with Rltb in Hr.
  assert (X (S i) <= X (n - 1)) by (apply knot_le; lia). rewrite Rleb_false by lra.
  destruct r as [j|].
  - destruct Hr as (Hj & Hall & v & Ev & Hv). destruct (Z_of_nat_complete j) as [m ->]; [lia|].
    rewrite (gx _ (S m)) in Ev by lia. injection Ev as <-. apply Rltb_inv in Hv.
    assert (m = i) as ->; [|apply gy; lia].
    destruct (Nat.lt_trichotomy i m) as [C|[C|C]]; auto; exfalso.
    + destruct (Hall (Z.of_nat i)) as (w & Ew & Hw); [lia|]. rewrite (gx _ (S i)) in Ew by lia. injection Ew as <-. apply Rltb_inv_false in Hw. lra.
    + destruct H1 as [->|H1]; [lia|]. assert (X (S m) <= X i) by (apply knot_le; lia). lra.
  - destruct (Hr (Z.of_nat i)) as (w & Ew & Hw); [lia|]. rewrite (gx _ (S i)) in Ew by lia. injection Ew as <-. apply Rltb_inv_false in Hw. lra.
Qed.
Lemma next_above (x : R) : (2 <= n)%nat -> X (n - 1) <= x -> next (A := RA) x tx ty (Z.of_nat n) = Ok (Y (n - 1)).
Proof.
  intros Hn H1. unfold next. rewrite Z.geb_leb. destruct (Z.leb_spec 2 (Z.of_nat n)); [|lia].
  destruct (next_search_ok (A := RA) x tx (Z.to_nat (Z.of_nat n - 1)) 0) as (r & Er & Hr); [lia|rewrite Ztx; lia|].
  rewrite Er. cbn [bind]. rewrite (gx _ (n - 1)) by lia. cbn [bind]. change (fle (a := RA)) with Rleb. rewrite Rleb_true by exact H1. apply gy; lia.
Qed.

(** ** nearest *)
Lemma nearest_search_min (x : R) k : forall i near, (near < i)%nat -> (i + k <= n)%nat ->
  (forall m, (m < i)%nat -> Rabs (x - X near) <= Rabs (x - X m) /\ ((near < m)%nat -> Rabs (x - X near) < Rabs (x - X m))) ->
  exists r, nearest_search (A := RA) k (Z.of_nat i) (Z.of_nat near) (Rabs (x - X near)) x tx = Ok (Z.of_nat r) /\ (r < i + k)%nat /\
    forall m, (m < i + k)%nat -> Rabs (x - X r) <= Rabs (x - X m) /\ ((r < m)%nat -> Rabs (x - X r) < Rabs (x - X m)).
Proof.
  induction k as [|k IH]; intros i near Hne Hk Hmin; cbn [nearest_search].
  - exists near. split; [reflexivity|]. split; [lia|]. intros m Hm. apply Hmin. lia.
  - rewrite (gx _ i) by lia. cbn [bind]. change (fle (a := RA)) with Rleb. change (fabs (a := RA)) with Rabs. change (fsub (a := RA)) with Rminus. cbv zeta.
    replace (Z.of_nat i + 1)%Z with (Z.of_nat (S i)) by lia. destruct (Rleb_spec (Rabs (x - X i)) (Rabs (x - X near))) as [H|H].
    + destruct (IH (S i) i) as (r & Er & Hr & Hm); [lia|lia| |].
      * intros m Hm. destruct (Nat.eq_dec m i) as [->|]; [split; [lra|lia]|]. destruct (Hmin m) as [H1 _]; [lia|]. split; [lra|lia].
      * exists r. split; [exact Er|]. split; [lia|]. intros m Hm'. apply Hm. lia.
    + destruct (IH (S i) near) as (r & Er & Hr & Hm); [lia|lia| |].
      * intros m Hm. destruct (Nat.eq_dec m i) as [->|]; [split; [lra|intros; lra]|]. apply Hmin. lia.
      * exists r. split; [exact Er|]. split; [lia|]. intros m Hm'. apply Hm. lia.
Qed.
Lemma nearest_at (x : R) : (2 <= n)%nat -> exists r, (r < n)%nat /\ nearest (A := RA) x tx ty (Z.of_nat n) = Ok (Y r) /\
  forall m, (m < n)%nat -> Rabs (x - X r) <= Rabs (x - X m) /\ ((r < m)%nat -> Rabs (x - X r) < Rabs (x - X m)).
Proof.
  intros Hn. unfold nearest. rewrite Z.geb_leb. destruct (Z.leb_spec 2 (Z.of_nat n)); [|lia].
  rewrite (gx 0 0) by lia. cbn [bind]. change (fabs (a := RA)) with Rabs. change (fsub (a := RA)) with Rminus.
  destruct (nearest_search_min x (Z.to_nat (Z.of_nat n - 1)) 1 0) as (r & Er & Hr & Hm); [lia|lia| |].
  - intros m Hm. replace m with 0%nat by lia. split; [lra|lia].
  - exists r. split; [lia|]. split; [|intros m Hm'; apply Hm; lia].
    change 1%Z with (Z.of_nat 1) at 2. change 0%Z with (Z.of_nat 0). etransitivity; [apply (f_equal (fun q => bind q _)); exact Er|].
    cbn [bind]. apply gy; lia.
Qed.

(** ** linear *)
Lemma line_through (x x0 x1 y0 y1 : R) : x0 <> x1 -> line (A := RA) x x0 x1 y0 y1 = through x0 y0 x1 y1 x.
Proof. intros H. unfold line, through. ops. field. lra. Qed.
Lemma segment_left i : (S i < n)%nat -> segment tx ty i (X i) = Y i.
Proof. intros H. pose proof (step_lt i H). unfold segment, through. field. lra. Qed.
Lemma segment_right i : (S i < n)%nat -> segment tx ty i (X (S i)) = Y (S i).
Proof. intros H. pose proof (step_lt i H). unfold segment, through. field. lra. Qed.

Lemma linear_search_at (x : R) k : forall i j, (i <= j < i + k)%nat -> (i + k < n)%nat -> X j <= x <= X (S j) ->
  linear_search (A := RA) k (Z.of_nat i) x tx ty = Ok (segment tx ty j x).
Proof.
  induction k as [|k IH]; intros i j Hj Hk Hx; [lia|]. cbn [linear_search].
  rewrite (gx _ i), (gx _ (S i)) by lia. cbn [bind]. change (fle (a := RA)) with Rleb.
  destruct (Nat.eq_dec i j) as [<-|Hne].
  - rewrite !Rleb_true by lra. cbn [andb]. rewrite (gy _ i), (gy _ (S i)) by lia. cbn [bind].
    rewrite line_through; [reflexivity|]. pose proof (step_lt i). assert (X i < X (S i)) by (apply H; lia). lra.
  - assert (X (S i) <= X j) by (apply knot_le; lia). pose proof (step_lt i). assert (X i < X (S i)) by (apply H0; lia). rewrite (Rleb_true (X i)) by lra.
    cbn [andb]. destruct (Rleb_spec x (X (S i))) as [Hl|Hl].
    + assert (j = S i) as ->. { destruct (Nat.eq_dec j (S i)); auto. assert (X (S i) < X j) by (apply knot_lt; lia). lra. }
      assert (x = X (S i)) as -> by lra. rewrite (gy _ i), (gy _ (S i)) by lia. cbn [bind]. rewrite line_through by lra.
      change (Ok (segment tx ty i (X (S i))) = Ok (segment tx ty (S i) (X (S i)))). rewrite segment_right, segment_left by lia. reflexivity.
    + replace (Z.of_nat i + 1)%Z with (Z.of_nat (S i)) by lia. apply IH; auto; lia.
Qed.
Lemma linear_inside (x : R) j : (2 <= n)%nat -> (Z.of_nat n < 2147483648)%Z -> (S j < n)%nat -> X j <= x <= X (S j) ->
  linear (A := RA) x tx ty (Z.of_nat n) = Ok (segment tx ty j x).
Proof.
  intros Hn Hz Hj Hx. unfold linear. rewrite Z.geb_leb. destruct (Z.leb_spec 2 (Z.of_nat n)); [|lia].
  rewrite (gx 0 0) by lia. cbn [bind]. change (flt (a := RA)) with Rltb.
  assert (X 0 <= X j) by (apply knot_le; lia). assert (X (S j) <= X (n - 1)) by (apply knot_le; lia).
  rewrite Rltb_false by lra. rewrite (gx _ (n - 1)) by lia. cbn [bind]. rewrite Rltb_false by lra.
  rewrite to_int_small by lia. destruct (Z.eqb_spec (Z.of_nat n) (-2147483648)); [lia|].
  change 0%Z with (Z.of_nat 0). apply linear_search_at; auto; lia.
Qed.
Lemma first_line_at (x : R) : (2 <= n)%nat -> first_line (A := RA) x tx ty = Ok (segment tx ty 0 x).
Proof.
  intros Hn. unfold first_line. rewrite (gx 0 0), (gx 1 1), (gy 0 0), (gy 1 1) by lia. cbn [bind].
  pose proof (step_lt 0). assert (X 0 < X 1) by (apply H; lia). rewrite line_through by lra. reflexivity.
Qed.
Lemma last_line_at (x : R) : (2 <= n)%nat -> last_line (A := RA) x tx ty (Z.of_nat n) = Ok (segment tx ty (n - 2) x).
Proof.
  intros Hn. unfold last_line. rewrite (gx _ (n - 2)), (gx _ (n - 1)), (gy _ (n - 2)), (gy _ (n - 1)) by lia. cbn [bind].
  pose proof (step_lt (n - 2)). replace (S (n - 2)) with (n - 1)%nat in H by lia. assert (X (n - 2) < X (n - 1)) by (apply H; lia).
  unfold segment. replace (S (n - 2)) with (n - 1)%nat by lia. rewrite line_through by lra.
  apply f_equal. unfold through. change (F RA) with R. field. lra.
Qed.
Lemma linear_below (x : R) : (2 <= n)%nat -> x < X 0 -> linear (A := RA) x tx ty (Z.of_nat n) = Ok (segment tx ty 0 x).
Proof.
  intros Hn H. unfold linear. rewrite Z.geb_leb. destruct (Z.leb_spec 2 (Z.of_nat n)); [|lia].
  rewrite (gx 0 0) by lia. cbn [bind]. change (flt (a := RA)) with Rltb. rewrite Rltb_true by exact H. apply first_line_at. exact Hn.
Qed.
Lemma linear_above (x : R) : (2 <= n)%nat -> X (n - 1) < x -> linear (A := RA) x tx ty (Z.of_nat n) = Ok (segment tx ty (n - 2) x).
Proof.
  intros Hn H. unfold linear. rewrite Z.geb_leb. destruct (Z.leb_spec 2 (Z.of_nat n)); [|lia].
  assert (X 0 <= X (n - 1)) by (apply knot_le; lia).
  rewrite (gx 0 0) by lia. cbn [bind]. change (flt (a := RA)) with Rltb. rewrite Rltb_false by lra.
  rewrite (gx _ (n - 1)) by lia. cbn [bind]. rewrite Rltb_true by exact H. apply last_line_at. exact Hn.
Qed.
Lemma segment_between i (x : R) : (S i < n)%nat -> X i <= x <= X (S i) -> Rmin (Y i) (Y (S i)) <= segment tx ty i x <= Rmax (Y i) (Y (S i)).
Proof.
  intros Hi Hx. pose proof (step_lt i Hi). unfold segment, through.
  set (lo := Rmin _ _). set (hi := Rmax _ _).
  assert (lo <= Y i <= hi) by (split; [apply Rmin_l|apply Rmax_l]). assert (lo <= Y (S i) <= hi) by (split; [apply Rmin_r|apply Rmax_r]).
  assert (P : 0 < X (S i) - X i) by lra.
  split; [apply Rmult_le_reg_r with (X (S i) - X i); auto|apply Rmult_le_reg_r with (X (S i) - X i); auto]; unfold Rdiv; rewrite ?Rmult_assoc, Rinv_l, ?Rmult_1_r by lra; nra.
Qed.

(** ** sine *)
Lemma sine_loop_last (x : R) k : forall i (y : R), (1 <= i)%nat -> (i + S k = n)%nat -> x <= X (n - 1) ->
  sine_loop (A := RA) (S k) (Z.of_nat i) x y tx ty = Ok (sine_blend (A := RA) x (X (n - 2)) (X (n - 1)) (Y (n - 2)) (Y (n - 1))).
Proof.
  induction k as [|k IH]; intros i y Hi Hk Hx.
  - assert (i = n - 1)%nat as -> by lia. cbn [sine_loop]. rewrite (gx _ (n - 1)) by lia. cbn [bind]. change (fle (a := RA)) with Rleb. rewrite Rleb_true by exact Hx.
    rewrite (gx _ (n - 2)), (gy _ (n - 2)), (gy _ (n - 1)) by lia. reflexivity.
  - change (sine_loop (A := RA) (S (S k)) (Z.of_nat i) x y tx ty) with
      (bind (get tx (Z.of_nat i)) (fun x1 => if fle (a := RA) x x1 then bind (get tx (Z.of_nat i - 1)) (fun x0 => bind (get ty (Z.of_nat i - 1)) (fun y0 => bind (get ty (Z.of_nat i)) (fun y1 =>
        sine_loop (A := RA) (S k) (Z.of_nat i + 1) x (sine_blend (A := RA) x x0 x1 y0 y1) tx ty))) else sine_loop (A := RA) (S k) (Z.of_nat i + 1) x y tx ty)).
    rewrite (gx _ i) by lia. cbn [bind]. replace (Z.of_nat i + 1)%Z with (Z.of_nat (S i)) by lia. destruct (fle _ _).
    + rewrite (gx _ (i - 1)), (gy _ (i - 1)), (gy _ i) by lia. cbn [bind]. apply IH; auto; lia.
    + apply IH; auto; lia.
Qed.
Lemma sine_inside (x : R) : (2 <= n)%nat -> X 0 <= x <= X (n - 1) ->
  sine (A := RA) x tx ty (Z.of_nat n) = Ok (sine_blend (A := RA) x (X (n - 2)) (X (n - 1)) (Y (n - 2)) (Y (n - 1))).
Proof.
  intros Hn Hx. unfold sine. rewrite Z.geb_leb. destruct (Z.leb_spec 2 (Z.of_nat n)); [|lia].
  rewrite (gx 0 0) by lia. cbn [bind]. change (flt (a := RA)) with Rltb. rewrite Rltb_false by lra.
  rewrite (gx _ (n - 1)) by lia. cbn [bind]. rewrite Rltb_false by lra.
  replace (Z.to_nat (Z.of_nat n - 1)) with (S (n - 2)) by lia. change 1%Z with (Z.of_nat 1). apply sine_loop_last; [lia|lia|lra].
Qed.
Lemma sine_blend_between (x x0 x1 y0 y1 : R) : Rmin y0 y1 <= sine_blend (A := RA) x x0 x1 y0 y1 <= Rmax y0 y1.
Proof.
  unfold sine_blend. change (o_cos (lib (a := RA))) with cos. change (lit (a := RA) 1 2) with (1 / 2). cbv zeta. ops.
  set (lo := Rmin _ _). set (hi := Rmax _ _).
  assert (lo <= y0 <= hi) by (split; [apply Rmin_l|apply Rmax_l]). assert (lo <= y1 <= hi) by (split; [apply Rmin_r|apply Rmax_r]).
  match goal with |- context [cos ?t] => pose proof (COS_bound t); set (c := cos t) in * end.
  replace (y0 + (1 / 2 - 1 / 2 * c) * (y1 - y0)) with ((1 / 2 + 1 / 2 * c) * y0 + (1 / 2 - 1 / 2 * c) * y1) by field. nra.
Qed.

(** ** cubic *)
Lemma cubic_search_at (x : R) k : forall i j, (2 <= j)%nat -> (i <= j < i + k)%nat -> (i + k <= n)%nat -> (1 <= i)%nat -> X (j - 1) < x <= X j ->
  cubic_search (A := RA) k (Z.of_nat i) x tx ty =
    Ok (let h := X j - X (j - 1) in cubic_form (A := RA) ((x - X (j - 1)) / h) h (Y (j - 1)) (Y j) (Y (j - 1) - Y (j - 2)) (Y j - Y (j - 1))).
Proof.
  induction k as [|k IH]; intros i j H2 Hj Hk Hi Hx; [lia|]. cbn [cubic_search]. rewrite (gx _ i) by lia. cbn [bind]. change (fle (a := RA)) with Rleb.
  destruct (Nat.eq_dec i j) as [->|Hne].
  - rewrite Rleb_true by lra. rewrite (gx _ (j - 1)), (gy _ (j - 1)), (gy _ j), (gy _ (j - 2)) by lia. reflexivity.
  - assert (X i <= X (j - 1)) by (apply knot_le; lia). rewrite Rleb_false by lra.
    replace (Z.of_nat i + 1)%Z with (Z.of_nat (S i)) by lia. apply IH; auto; lia.
Qed.
Lemma cubic_inside (x : R) j : (4 <= n)%nat -> (2 <= j < n)%nat -> X (j - 1) < x <= X j ->
  cubic (A := RA) x tx ty (Z.of_nat n) =
    Ok (let h := X j - X (j - 1) in cubic_form (A := RA) ((x - X (j - 1)) / h) h (Y (j - 1)) (Y j) (Y (j - 1) - Y (j - 2)) (Y j - Y (j - 1))).
Proof.
  intros Hn Hj Hx. unfold cubic. rewrite Z.geb_leb. destruct (Z.leb_spec 4 (Z.of_nat n)); [|lia].
  assert (X 0 <= X (j - 1)) by (apply knot_le; lia). assert (X j <= X (n - 1)) by (apply knot_le; lia).
  rewrite (gx 0 0) by lia. cbn [bind]. change (flt (a := RA)) with Rltb. rewrite Rltb_false by lra.
  rewrite (gx _ (n - 1)) by lia. cbn [bind]. rewrite Rltb_false by lra.
  change 1%Z with (Z.of_nat 1) at 2. apply cubic_search_at; auto; lia.
Qed.
Lemma cubic_knot j : (4 <= n)%nat -> (2 <= j < n)%nat -> cubic (A := RA) (X j) tx ty (Z.of_nat n) = Ok (Y j).
Proof.
  intros Hn Hj. assert (X (j - 1) < X j) by (apply knot_lt; lia). rewrite (cubic_inside _ j) by (auto; lra).
  apply f_equal. cbv zeta. unfold cubic_form. rewrite !lt1. change (fopp (a := RA)) with Ropp. ops. field. lra.
Qed.

(** ** the interval of a point *)
Lemma interval_at (x : R) i : (2 <= n)%nat -> (S i < n)%nat -> (i = 0%nat \/ X i <= x) -> (i = (n - 2)%nat \/ x < X (S i)) ->
  interval (A := RA) x tx (Z.of_nat n) = Ok (Z.of_nat i).
Proof.
  intros Hn Hi H1 H2. unfold interval. rewrite (gx 0 0) by lia. cbn [bind]. change (fle (a := RA)) with Rleb.
  destruct (Rleb_spec x (X 0)) as [H0|H0].
  - apply f_equal. destruct (Nat.eq_dec i 0) as [->|]; [reflexivity|]. exfalso. destruct H1 as [H1|H1]; [lia|].
    assert (X 0 < X i) by (apply knot_lt; lia). lra.
  - rewrite (gx _ (n - 1)) by lia. cbn [bind]. destruct (Rleb_spec (X (n - 1)) x) as [Hl|Hl].
    + apply f_equal. destruct H2 as [->|H2]; [lia|]. assert (X (S i) <= X (n - 1)) by (apply knot_le; lia). lra.
    + assert (Hs : x < X (S i)). { destruct H2 as [->|H2]; auto. replace (S (n - 2)) with (n - 1)%nat by lia. lra. }
      destruct (while_ge_ok (A := RA) x tx (X (n - 1)) (length tx) 0) as (j & Ej & Hj0 & Hj & Hall & v & Ev & Hv).
      * lia.
      * rewrite Ztx. apply gx; lia.
      * change (fle (a := RA)) with Rleb. apply Rleb_false. lra.
      * rewrite Ztx. lia.
      * unfold zlen. lia.
      * rewrite Ej. apply f_equal. change (fle (a := RA)) with Rleb in *. destruct (Z_of_nat_complete j) as [m ->]; [lia|]. rewrite Ztx in Hj. apply f_equal.
        rewrite (gx _ (S m)) in Ev by lia. injection Ev as <-. apply Rleb_inv_false in Hv.
        destruct (Nat.lt_trichotomy m i) as [C|[C|C]]; auto; exfalso.
        -- destruct H1 as [->|H1]; [lia|]. assert (X (S m) <= X i) by (apply knot_le; lia). lra.
        -- destruct (Hall (Z.of_nat m)) as (w & Ew & Hw); [lia|]. rewrite (gx _ m) in Ew by lia. injection Ew as <-. apply Rleb_inv in Hw.
           assert (X (S i) <= X m) by (apply knot_le; lia). lra.
Qed.

(** Knots farther apart than the tolerance of isEqual. *)
Hypothesis G : forall i, (S i < n)%nat -> X i + / 2 ^ 126 < X (S i).
Lemma tolerance : 0 < / 2 ^ 126.
Proof. apply Rinv_0_lt_compat. apply pow_lt. lra. Qed.
Lemma isEqual_false (a b : R) : / 2 ^ 126 < Rabs (a - b) -> isEqual (A := RA) a b = false.
Proof.
  intros H. unfold isEqual. change (fle (a := RA)) with Rleb. change (fabs (a := RA)) with Rabs. change (fsub (a := RA)) with Rminus. change (real_min (a := RA)) with (/ 2 ^ 126).
  pose proof tolerance. apply Rleb_false. rewrite (Rabs_right (/ 2 ^ 126)) by lra. exact H.
Qed.
Lemma isEqual_true (a b : R) : a = b -> isEqual (A := RA) a b = true.
Proof.
  intros ->. unfold isEqual. change (fle (a := RA)) with Rleb. change (fabs (a := RA)) with Rabs. change (fsub (a := RA)) with Rminus. change (real_min (a := RA)) with (/ 2 ^ 126).
  apply Rleb_true. rewrite Rminus_eq_0, Rabs_R0. apply Rabs_pos.
Qed.

Lemma chord_at i j z w : z = Z.of_nat i -> w = Z.of_nat j -> (i < n)%nat -> (j < n)%nat -> chord (A := RA) tx ty z w = Ok (rise tx ty j i).
Proof. intros -> -> Hi Hj. unfold chord. rewrite (gy _ i), (gy _ j), (gx _ i), (gx _ j) by lia. reflexivity. Qed.
Lemma slope_at i : (0 < i < n - 1)%nat -> slope (A := RA) tx ty (Z.of_nat i) = Ok (rise tx ty (i - 1) (i + 1)).
Proof.
  intros Hi. unfold slope. rewrite (gx _ (i + 1)), (gx _ (i - 1)) by lia. cbn [bind]. rewrite isEqual_false.
  - rewrite (gy _ (i + 1)), (gy _ (i - 1)) by lia. reflexivity.
  - pose proof (G (i - 1)). assert (X (S (i - 1)) < X (i + 1)) by (apply knot_lt; lia). pose proof tolerance.
    assert (X (i - 1) + / 2 ^ 126 < X (S (i - 1))) by (apply H; lia). rewrite Rabs_right by lra. lra.
Qed.

Lemma spline_at (x : R) i : (4 <= n)%nat -> (S i < n)%nat -> (i = 0%nat \/ X i <= x) -> (i = (n - 2)%nat \/ x < X (S i)) -> / 2 ^ 126 < Rabs (x - X (S i)) ->
  spline (A := RA) x tx ty (Z.of_nat n) = Ok (cubic_hermite (X i) (X (S i)) (Y i) (Y (S i)) (knot_slope n tx ty i) (knot_slope n tx ty (S i)) x).
Proof.
  intros Hn Hi H1 H2 H3. unfold spline. rewrite Z.geb_leb. destruct (Z.leb_spec 4 (Z.of_nat n)); [|lia].
  rewrite (interval_at x i) by (auto; lia). cbn [bind]. rewrite (gx _ (S i)) by lia. cbn [bind]. rewrite isEqual_false by exact H3.
  rewrite (gx _ i), (gy _ i), (gy _ (S i)) by lia. cbn [bind].
  match goal with |- bind ?p _ = _ => assert (P1 : p = Ok (knot_slope n tx ty i)) end.
  { unfold knot_slope. destruct (Nat.eqb_spec i 0) as [->|]; [cbn [Z.of_nat Z.eqb]; apply chord_at; lia|]. destruct (Z.eqb_spec (Z.of_nat i) 0); [lia|].
    destruct (Nat.eqb_spec i (n - 1)); [lia|]. destruct (Z.eqb_spec (Z.of_nat n - 2) (Z.of_nat i)).
    - replace (i - 1)%nat with (n - 3)%nat by lia. replace (i + 1)%nat with (n - 1)%nat by lia. apply chord_at; lia.
    - apply slope_at. lia. }
  rewrite P1. cbn [bind]. clear P1.
  match goal with |- bind ?p _ = _ => assert (P1 : p = Ok (knot_slope n tx ty (S i))) end.
  { unfold knot_slope. destruct (Nat.eqb_spec (S i) 0); [lia|]. destruct (Z.eqb_spec (Z.of_nat i) 0).
    - destruct (Nat.eqb_spec (S i) (n - 1)); [lia|]. replace (S i - 1)%nat with 0%nat by lia. replace (S i + 1)%nat with 2%nat by lia. apply chord_at; lia.
    - destruct (Z.eqb_spec (Z.of_nat n - 2) (Z.of_nat i)).
      + destruct (Nat.eqb_spec (S i) (n - 1)); [|lia]. apply chord_at; lia.
      + destruct (Nat.eqb_spec (S i) (n - 1)); [lia|]. replace (Z.of_nat i + 1)%Z with (Z.of_nat (S i)) by lia. apply slope_at. lia. }
  rewrite P1. cbn [bind]. apply f_equal. pose proof (step_lt i Hi). unfold spline_form, cubic_hermite. rewrite !lt1. ops. field. lra.
Qed.
Lemma spline_knot i : (4 <= n)%nat -> (i < n)%nat -> spline (A := RA) (X i) tx ty (Z.of_nat n) = Ok (Y i).
Proof.
  intros Hn Hi. pose proof tolerance as Tol. destruct (Nat.eq_dec i (n - 1)) as [->|Hne].
  - unfold spline. rewrite Z.geb_leb. destruct (Z.leb_spec 4 (Z.of_nat n)); [|lia].
    assert (X (n - 2) < X (n - 1)) by (apply knot_lt; lia).
    rewrite (interval_at _ (n - 2)) by (try lia; right; lra). cbn [bind]. rewrite (gx _ (n - 1)) by lia. cbn [bind]. rewrite isEqual_true by reflexivity. apply gy; lia.
  - assert (X i < X (S i)) by (apply step_lt; lia). pose proof (G i) as Gi. assert (Hg : X i + / 2 ^ 126 < X (S i)) by (apply Gi; lia).
    rewrite (spline_at _ i); try lia; [|right; lra|right; auto|rewrite Rabs_left by lra; lra].
    apply f_equal. unfold cubic_hermite. change (F RA) with R. field. lra.
Qed.

Lemma second_exists i : (4 <= n)%nat -> (S i < n)%nat ->
  (exists l, leftSecondDerivate (A := RA) tx ty (Z.of_nat n - 1) (Z.of_nat i + 1) = Ok l) /\ (exists r, rightSecondDerivate (A := RA) tx ty (Z.of_nat n - 1) (Z.of_nat i + 1) = Ok r).
Proof. intros Hn Hi. apply second_total; rewrite ?Ztx, ?Zty; lia. Qed.
Lemma cSpline_at (x : R) i : (4 <= n)%nat -> (S i < n)%nat -> (i = 0%nat \/ X i <= x) -> (i = (n - 2)%nat \/ x < X (S i)) -> / 2 ^ 126 < Rabs (x - X (S i)) ->
  exists l r, leftSecondDerivate (A := RA) tx ty (Z.of_nat n - 1) (Z.of_nat i + 1) = Ok l /\ rightSecondDerivate (A := RA) tx ty (Z.of_nat n - 1) (Z.of_nat i + 1) = Ok r /\
  cSpline (A := RA) x tx ty (Z.of_nat n) = Ok (cspline_form (A := RA) x (X i) (X (S i)) (Y i) (Y (S i)) l r).
Proof.
  intros Hn Hi H1 H2 H3. destruct (second_exists i Hn Hi) as [[l El] [r Er]]. exists l, r. split; [exact El|]. split; [exact Er|].
  unfold cSpline. rewrite Z.geb_leb. destruct (Z.leb_spec 4 (Z.of_nat n)); [|lia].
  rewrite (interval_at x i) by (auto; lia). cbn [bind]. rewrite (gx _ (S i)) by lia. cbn [bind]. rewrite isEqual_false by exact H3.
  rewrite (gx _ i), (gy _ i), (gy _ (S i)) by lia. cbn [bind]. rewrite El, Er. reflexivity.
Qed.
Lemma cSpline_knot i : (4 <= n)%nat -> (i < n)%nat -> cSpline (A := RA) (X i) tx ty (Z.of_nat n) = Ok (Y i).
Proof.
  intros Hn Hi. pose proof tolerance as Tol. destruct (Nat.eq_dec i (n - 1)) as [->|Hne].
  - unfold cSpline. rewrite Z.geb_leb. destruct (Z.leb_spec 4 (Z.of_nat n)); [|lia].
    assert (X (n - 2) < X (n - 1)) by (apply knot_lt; lia).
    rewrite (interval_at _ (n - 2)) by (try lia; right; lra). cbn [bind]. rewrite (gx _ (n - 1)) by lia. cbn [bind]. rewrite isEqual_true by reflexivity. apply gy; lia.
  - assert (X i < X (S i)) by (apply step_lt; lia). pose proof (G i) as Gi. assert (Hg : X i + / 2 ^ 126 < X (S i)) by (apply Gi; lia).
    destruct (cSpline_at (X i) i) as (l & r & _ & _ & E); try lia; [right; lra|right; auto|rewrite Rabs_left by lra; lra|]. rewrite E.
    apply f_equal. unfold cspline_form. generalize (sixth (A := RA)). intros s. change (lit (a := RA) 1 2) with (1 / 2). rewrite !lt1. ops. field. lra.
Qed.
End Table.

(** The cubic takes the prescribed values and slopes. *)
Lemma cubic_hermite_ends x0 x1 y0 y1 d0 d1 : x0 <> x1 ->
  cubic_hermite x0 x1 y0 y1 d0 d1 x0 = y0 /\ cubic_hermite x0 x1 y0 y1 d0 d1 x1 = y1 /\
  derivable_pt_lim (cubic_hermite x0 x1 y0 y1 d0 d1) x0 d0 /\ derivable_pt_lim (cubic_hermite x0 x1 y0 y1 d0 d1) x1 d1.
Proof.
  intros H. split; [unfold cubic_hermite; field; lra|]. split; [unfold cubic_hermite; field; lra|].
  set (h := x1 - x0). assert (Hh : h <> 0) by (unfold h; lra).
  (* as a polynomial in (x - x0) *)
  set (c2 := (3 * (y1 - y0) / h - 2 * d0 - d1) / h). set (c3 := (d0 + d1 - 2 * (y1 - y0) / h) / (h * h)).
  assert (E : forall x, cubic_hermite x0 x1 y0 y1 d0 d1 x = y0 + d0 * (x - x0) + c2 * (x - x0) ^ 2 + c3 * (x - x0) ^ 3).
  { intros x. unfold cubic_hermite, c2, c3. fold h. field. exact Hh. }
  assert (D : forall x, derivable_pt_lim (cubic_hermite x0 x1 y0 y1 d0 d1) x (d0 + 2 * c2 * (x - x0) + 3 * c3 * (x - x0) ^ 2)).
  { intros x. intros eps He.
    assert (D1 : derivable_pt_lim (fun x => y0 + d0 * (x - x0) + c2 * (x - x0) ^ 2 + c3 * (x - x0) ^ 3) x (d0 + 2 * c2 * (x - x0) + 3 * c3 * (x - x0) ^ 2)).
    { replace (d0 + 2 * c2 * (x - x0) + 3 * c3 * (x - x0) ^ 2) with
        (0 + d0 * (1 - 0) + c2 * (INR 2 * (x - x0) ^ Init.Nat.pred 2 * (1 - 0)) + c3 * (INR 3 * (x - x0) ^ Init.Nat.pred 3 * (1 - 0))) by (cbn; ring).
      assert (L : derivable_pt_lim (fun x => x - x0) x (1 - 0)) by (apply derivable_pt_lim_minus; [apply derivable_pt_lim_id|apply derivable_pt_lim_const]).
      apply (derivable_pt_lim_plus (fun x => y0 + d0 * (x - x0) + c2 * (x - x0) ^ 2) (fun x => c3 * (x - x0) ^ 3)).
      - apply (derivable_pt_lim_plus (fun x => y0 + d0 * (x - x0)) (fun x => c2 * (x - x0) ^ 2)).
        + apply (derivable_pt_lim_plus (fun _ => y0) (fun x => d0 * (x - x0))); [apply derivable_pt_lim_const|].
          apply (derivable_pt_lim_scal (fun x => x - x0)). exact L.
        + apply (derivable_pt_lim_scal (fun x => (x - x0) ^ 2)). apply (derivable_pt_lim_comp (fun x => x - x0) (fun y => y ^ 2)); [exact L|apply derivable_pt_lim_pow].
      - apply (derivable_pt_lim_scal (fun x => (x - x0) ^ 3)). apply (derivable_pt_lim_comp (fun x => x - x0) (fun y => y ^ 3)); [exact L|apply derivable_pt_lim_pow]. }
    destruct (D1 eps He) as [dl Hd]. exists dl. intros k Hk Hk2. rewrite !E. apply Hd; auto. }
  split.
  - replace d0 with (d0 + 2 * c2 * (x0 - x0) + 3 * c3 * (x0 - x0) ^ 2) at 2 by ring. apply D.
  - replace d1 with (d0 + 2 * c2 * (x1 - x0) + 3 * c3 * (x1 - x0) ^ 2) at 2; [apply D|]. fold h. unfold c2, c3. field. exact Hh.
Qed.
