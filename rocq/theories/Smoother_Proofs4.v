(** Outlier removal, adaptive filter, and the binary32 facts. *)
From Coq Require Import ZArith List Bool Lia Reals Lra.
From Flocq Require Import Core IEEE754.BinarySingleNaN IEEE754.Binary IEEE754.Bits.
From Verif Require Import Base BaseLemmas Arith ArithLemmas Tdl_Model Tdl_Proofs Ltisys_Model Ltisys_Spec Ltisys_Proofs Ltisys_Proofs2 Smoother_Model Smoother_Spec Smoother_Proofs Smoother_Proofs3.
Import ListNotations.
Open Scope R_scope.

(** ** MOR1 *)

Definition mor1_ok (a : R) (n : nat) (f : mor1 RA) : Prop :=
  exists w : list R, r1_w f = Some w /\ r1_alpha f = a /\ r1_size f = Z.of_nat n /\ (n <= length w)%nat.

Lemma mor1_step (a m x : R) n (w : list R) : (1 <= n)%nat -> (Z.of_nat n < 2 ^ 64)%Z -> (n <= length w)%nat ->
  let y := accept a m x in
  let h := y :: removelast (firstn n w) in
  exists w', mor1_smooth (A := RA) x (mkMOR1 (A := RA) (Some w) m a (Z.of_nat n) false) =
    Ok (y, mkMOR1 (A := RA) (Some w') (mean h) a (Z.of_nat n) false) /\ (n <= length w')%nat /\ firstn n w' = h.
Proof.
  intros Hn Hb Hw y h. destruct (shifted n x w ltac:(lia)) as [S1 S2].
  pose proof (updateFIR_ok (A := RA) None w n x ltac:(change (F RA) with R; lia) Logic.I ltac:(lia)) as U.
  change (F RA) with R in *. rewrite fir_value_plain in U by auto.
  assert (SM : sum n (fun i => nth i (x :: w) 0) - x = total (removelast (firstn n w))).
  { destruct n as [|k]; [lia|]. rewrite sum_first. cbn [nth]. rewrite total_sum, removelast_length, firstn_length.
    replace (Nat.min (S k) (length w) - 1)%nat with k by lia. rewrite (sum_ext k (fun i => nth i w 0) (fun i => nth i (removelast (firstn (S k) w)) 0)); [ring|].
    intros i Hi. rewrite (nth_removelast (firstn (S k) w) i 0) by (rewrite firstn_length; lia).
    rewrite <- (firstn_skipn (S k) w) at 1. apply app_nth1. rewrite firstn_length. lia. }
  set (q := firstn (n - 1) w ++ skipn n w) in *.
  assert (LH : length h = n).
  { unfold h. cbn [length]. rewrite removelast_length, firstn_length. lia. }
  assert (ME : (total (removelast (firstn n w)) + y) / INR n = mean h).
  { unfold mean. rewrite LH. f_equal. unfold h. cbn [fold_right]. unfold total. ring. }
  exists (y :: q). split; [|split].
  - unfold mor1_smooth. cbn [r1_w r1_init r1_size r1_m r1_alpha bind]. change (F RA) with R in *. rewrite U. cbn [bind fst snd].
    unfold ofsize. change (lit (a := RA) (Z.of_nat n) 1) with (IZR (Z.of_nat n) / 1). rewrite <- INR_IZR_INZ.
    change (fabs (a := RA)) with Rabs. ops. rewrite SM. replace (INR n / 1) with (INR n) by field.
    unfold y, accept in *. cbn [flt RA]. destruct (Rltb_spec (a * Rabs m) (Rabs (m - x))) as [C|C].
    + destruct (Rlt_dec (a * Rabs m) (Rabs (m - x))); [|contradiction]. change (set (x :: q) 0 m) with (Ok (m :: q)). cbn [bind].
      change (get (m :: q) 0) with (Ok m). cbn [bind]. rewrite ME. reflexivity.
    + destruct (Rlt_dec (a * Rabs m) (Rabs (m - x))); [contradiction|]. cbn [bind].
      change (get (x :: q) 0) with (Ok x). cbn [bind]. rewrite ME. reflexivity.
  - cbn [length] in *. lia.
  - unfold h. destruct n as [|k]; [lia|]. cbn [firstn] in S1 |- *. f_equal. now injection S1.
Qed.

Lemma mor1_run a n : (1 <= n)%nat -> (Z.of_nat n < 2 ^ 64)%Z -> forall (xs : list (F RA)) (m : R) (w : list R), (n <= length w)%nat ->
  exists f', feed_res (mor1_smooth (A := RA)) xs (mkMOR1 (A := RA) (Some w) m a (Z.of_nat n) false) = Ok (outliers a m (firstn n w) xs, f') /\ mor1_ok a n f'.
Proof.
  intros Hn Hb xs. induction xs as [|x xs IH]; intros m w Hw.
  - eexists. split; [reflexivity|]. exists w. auto.
  - destruct (mor1_step a m x n w Hn Hb Hw) as (w' & E & L & F1). destruct (IH (mean (accept a m x :: removelast (firstn n w))) w' L) as (f' & E' & K).
    exists f'. split; auto. cbn [outliers]. change (F RA) with R in *. rewrite F1 in E'. eapply (feed_res_cons (A := RA)); [exact E|exact E'].
Qed.

Lemma mor1_any a n (xs : list (F RA)) (f : mor1 RA) : (1 <= n)%nat -> (Z.of_nat n < 2 ^ 64)%Z -> mor1_ok a n f ->
  exists ys f', feed_res (mor1_smooth (A := RA)) xs f = Ok (ys, f') /\ mor1_ok a n f' /\
    (r1_init f = true -> ys = outlier_filter a n xs).
Proof.
  intros Hn Hb (w & Ew & Ea & Es & L). destruct xs as [|x xs].
  - exists [], f. repeat split; auto. exists w. auto.
  - destruct (r1_init f) eqn:I.
    + destruct (mor1_run a n Hn Hb (x :: xs) x (repeat x n ++ skipn n w)) as (f' & E & K); [rewrite rep_length; auto|].
      rewrite firstn_rep in E. exists (outliers a x (repeat x n) (x :: xs)), f'. split; [|split; auto].
      etransitivity; [|exact E]. cbn [feed_res]. f_equal. unfold mor1_smooth. rewrite Ew, Ea, Es, I. cbn [r1_w r1_alpha r1_size r1_init r1_m].
      rewrite (windowSet_ok x n w L). reflexivity.
    + destruct (mor1_run a n Hn Hb (x :: xs) (r1_m f) w L) as (f' & E & K).
      exists (outliers a (r1_m f) (firstn n w) (x :: xs)), f'. split; [|split; auto; discriminate].
      etransitivity; [|exact E]. f_equal. destruct f; cbn in *; subst; reflexivity.
Qed.

(** The outputs stay in the hull of the inputs. *)
Lemma total_bounds lo hi l : Forall (fun x => lo <= x <= hi) l -> lo * INR (length l) <= total l <= hi * INR (length l).
Proof.
  induction 1 as [|x l Hx Hl IH]; [cbn; lra|]. cbn [length]. rewrite S_INR. change (total (x :: l)) with (x + total l). lra.
Qed.
Lemma mean_bounds lo hi l : l <> [] -> Forall (fun x => lo <= x <= hi) l -> lo <= mean l <= hi.
Proof.
  intros N H. pose proof (total_bounds lo hi l H) as B. assert (P : 0 < INR (length l)) by (apply lt_0_INR; destruct l; [congruence|cbn; lia]).
  unfold mean. fold (total l). split; apply Rmult_le_reg_r with (INR (length l)); auto; unfold Rdiv; rewrite Rmult_assoc, Rinv_l by lra; lra.
Qed.
Lemma Forall_removelast {B} (P : B -> Prop) l : Forall P l -> Forall P (removelast l).
Proof. intros H. rewrite removelast_firstn_len. apply Forall_forall. intros x Hx. rewrite Forall_forall in H. apply H. eapply In_nth_error in Hx. destruct Hx as [i Hi].
  rewrite <- (firstn_skipn (Init.Nat.pred (length l)) l). apply in_or_app. left. eapply nth_error_In. exact Hi. Qed.

Lemma outliers_hull a lo hi xs : forall m h, lo <= m <= hi -> Forall (fun x => lo <= x <= hi) h -> Forall (fun x => lo <= x <= hi) xs ->
  Forall (fun x => lo <= x <= hi) (outliers a m h xs).
Proof.
  induction xs as [|x xs IH]; intros m h Hm Hh Hx; cbn [outliers]; [constructor|].
  inversion_clear Hx as [|? ? Hx1 Hx2].
  assert (Y : lo <= accept a m x <= hi) by (unfold accept; destruct (Rlt_dec _ _); auto).
  assert (W : Forall (fun x => lo <= x <= hi) (accept a m x :: removelast h)) by (constructor; auto; apply Forall_removelast; auto).
  constructor; auto. apply IH; auto. apply mean_bounds; auto. discriminate.
Qed.
Lemma Forall_repeat {B} (P : B -> Prop) x n : P x -> Forall P (repeat x n).
Proof. intros H. apply Forall_forall. intros y Hy. apply repeat_spec in Hy. subst; auto. Qed.
Lemma outlier_hull a n lo hi xs : Forall (fun x => lo <= x <= hi) xs -> Forall (fun x => lo <= x <= hi) (outlier_filter a n xs).
Proof.
  intros H. destruct xs as [|x xs]; [constructor|]. inversion_clear H as [|? ? H1 H2].
  unfold outlier_filter. apply outliers_hull; auto. apply Forall_repeat; auto.
Qed.

(** ** MOR2 *)

Definition mor2_ok (m : list R) (n : nat) (f : mor2 RA) : Prop := exists t h, r2_line f = Some t /\ tinv (A := R) m (Z.of_nat n) h t.

Lemma mor2_step m n (x : R) (f : mor2 RA) : (1 <= n)%nat -> mor2_ok m n f ->
  exists f', mor2_smooth (A := RA) x f = Ok (x, f') /\ mor2_ok m n f'.
Proof.
  intros Hn (t & h & E & T). unfold mor2_smooth. rewrite E.
  assert (P : exists t1 h1, (if r2_init f then flush t (x : F RA) else Ok t) = Ok t1 /\ tinv (A := R) m (Z.of_nat n) h1 t1).
  { destruct (r2_init f).
    - pose proof T as (H1 & H2 & H3 & _ & _ & _ & _ & _ & H9). destruct (flush_ok m (Z.of_nat n) x t H1 H2 H3 H9) as (t1 & F1 & T1). eauto.
    - eauto. }
  destruct P as (t1 & h1 & E1 & T1). change (F RA) with R in *. rewrite E1. cbn [bind].
  match goal with |- context [insertSample t1 ?v] => destruct (tinv_step m n h1 t1 v Hn T1) as (O & t2 & E2 & T2) end.
  rewrite O. cbn [bind]. rewrite E2. cbn [bind]. eexists. split; [reflexivity|]. eexists _, _. split; [reflexivity|exact T2].
Qed.

Lemma mor2_any m n (xs : list (F RA)) : (1 <= n)%nat -> forall (f : mor2 RA), mor2_ok m n f ->
  exists f', feed_res (mor2_smooth (A := RA)) xs f = Ok (xs, f') /\ mor2_ok m n f'.
Proof.
  intros Hn. induction xs as [|x xs IH]; intros f K; [eexists; split; [reflexivity|auto]|].
  destruct (mor2_step m n x f Hn K) as (f1 & E & K1). destruct (IH f1 K1) as (f2 & E2 & K2).
  exists f2. split; auto. eapply (feed_res_cons (A := RA)); [exact E|exact E2].
Qed.

(** ** ALNF *)

Lemma lms_loop_ok (al x xe : R) (xx : list R) k : forall i (w : list R), (i + k <= length w)%nat -> (i + k <= length xx)%nat ->
  lms_loop (A := RA) k (Z.of_nat i) al x xe xx w = Ok (gloop 0 k i (fun j v => v + al * (x - xe) * nth j xx 0) w).
Proof.
  induction k; intros i w Hw Hx; cbn [lms_loop gloop]; [reflexivity|].
  change (F RA) with R. rewrite (get_nth 0 w) by lia. cbn [bind]. rewrite (get_nth 0 xx) by lia. cbn [bind].
  rewrite set_nth by lia. cbn [bind]. replace (Z.of_nat i + 1)%Z with (Z.of_nat (S i)) by lia. ops. apply IHk; rewrite ?upd_length; lia.
Qed.

Definition alnf_ok (a : R) (n : nat) (f : alnf RA) : Prop :=
  a_alpha f = a /\ a_w1 f = None /\ a_n f = Z.of_nat n /\ (n <= length (a_w f))%nat /\ (n <= length (a_xx f))%nat.

Lemma inner_sum n (w x : list R) : length w = n -> length x = n -> inner w x = sum n (fun i => nth i w 0 * nth i x 0).
Proof.
  revert w x. induction n; intros w x Hw Hx.
  - destruct w; [|discriminate]. reflexivity.
  - destruct w as [|a w]; [discriminate|]. destruct x as [|b x]; [discriminate|]. cbn in Hw, Hx. rewrite sum_first. cbn [nth].
    change (inner (a :: w) (b :: x)) with (a * b + inner w x). rewrite (IHn w x) by lia. reflexivity.
Qed.

Lemma alnf_step (a mu x : R) n (w xx : list R) : (1 <= n)%nat -> (Z.of_nat n < 2 ^ 64)%Z -> (n <= length w)%nat -> (n <= length xx)%nat ->
  let win := x :: removelast (firstn n xx) in
  let y := inner (firstn n w) win in
  exists w' xx', alnf_smooth (A := RA) x (mkALNF (A := RA) a mu w None xx (Z.of_nat n) false) =
    Ok (y, mkALNF (A := RA) a mu w' None xx' (Z.of_nat n) false) /\ (n <= length w')%nat /\ (n <= length xx')%nat /\
    firstn n w' = map (fun p => fst p + a * (x - y) * snd p) (combine (firstn n w) win) /\ firstn n xx' = win.
Proof.
  intros Hn Hb Hw Hx win y. destruct (shifted n x xx ltac:(lia)) as [S1 S2].
  assert (LW : length win = n) by (unfold win; cbn [length]; rewrite removelast_length, firstn_length; lia).
  pose proof (updateFIR_ok (A := RA) (Some w) xx n x ltac:(change (F RA) with R; lia) Hw ltac:(lia)) as U.
  change (F RA) with R in *. rewrite fir_value_R in U by auto.
  assert (Y : dot n w (x :: xx) = y).
  { unfold y. rewrite (inner_sum n) by (rewrite ?firstn_length; lia). rewrite dot_window by lia. apply sum_ext. intros i Hi. f_equal.
    rewrite <- (firstn_skipn n w) at 1. apply app_nth1. rewrite firstn_length. lia. }
  rewrite Y in U. set (q := x :: firstn (n - 1) xx ++ skipn n xx) in *.
  exists (gloop 0 n 0 (fun j v => v + a * (x - y) * nth j q 0) w), q. split; [|split; [|split; [|split]]].
  - unfold alnf_smooth. cbn [a_init a_xx a_w a_w1 a_n a_alpha a_mu bind]. change (F RA) with R in *. rewrite U. cbn [bind fst snd]. rewrite Nat2Z.id.
    pose proof (lms_loop_ok a x y q n 0 w ltac:(lia) ltac:(lia)) as LL. change (Z.of_nat 0) with 0%Z in LL. change (F RA) with R in *. rewrite LL. reflexivity.
  - rewrite gloop_length. auto.
  - lia.
  - set (g := fun p : R * R => fst p + a * (x - y) * snd p). apply nth_ext with (d := 0) (d' := g (0, 0)).
    + rewrite map_length, combine_length, !firstn_length, gloop_length. lia.
    + intros i Hi. rewrite firstn_length, gloop_length in Hi. rewrite (map_nth g).
      assert (P : nth i (firstn n (gloop 0 n 0 (fun j v => v + a * (x - y) * nth j q 0) w)) 0 = nth i (gloop 0 n 0 (fun j v => v + a * (x - y) * nth j q 0) w) 0).
      { rewrite <- (firstn_skipn n (gloop 0 n 0 _ w)) at 2. symmetry. apply app_nth1. rewrite firstn_length, gloop_length. lia. }
      rewrite P, gloop_nth by lia. cbn [Nat.add Nat.leb]. rewrite (proj2 (Nat.ltb_lt i n)) by lia. cbn [andb].
      rewrite combine_nth by (rewrite firstn_length; lia). unfold g. cbn [fst snd]. f_equal.
      * rewrite <- (firstn_skipn n w) at 1. apply app_nth1. rewrite firstn_length. lia.
      * f_equal. transitivity (nth i (firstn n q) 0); [|now rewrite S1].
        rewrite <- (firstn_skipn n q) at 1. apply app_nth1. rewrite firstn_length. lia.
  - exact S1.
Qed.

Lemma alnf_run a mu n : (1 <= n)%nat -> (Z.of_nat n < 2 ^ 64)%Z -> forall (xs : list (F RA)) (w xx : list R), (n <= length w)%nat -> (n <= length xx)%nat ->
  exists f', feed_res (alnf_smooth (A := RA)) xs (mkALNF (A := RA) a mu w None xx (Z.of_nat n) false) = Ok (lms a (firstn n w) (firstn n xx) xs, f') /\ alnf_ok a n f'.
Proof.
  intros Hn Hb xs. induction xs as [|x xs IH]; intros w xx Hw Hx.
  - eexists. split; [reflexivity|]. unfold alnf_ok. cbn. auto.
  - destruct (alnf_step a mu x n w xx Hn Hb Hw Hx) as (w' & xx' & E & L & L' & F1 & F2).
    destruct (IH w' xx' L L') as (f' & E' & K). exists f'. split; auto. change (F RA) with R in *. rewrite F1, F2 in E'. cbn [lms].
    eapply (feed_res_cons (A := RA)); [exact E|exact E'].
Qed.

Lemma alnf_any a n (xs : list (F RA)) (f : alnf RA) : (1 <= n)%nat -> (Z.of_nat n < 2 ^ 64)%Z -> alnf_ok a n f ->
  exists ys f', feed_res (alnf_smooth (A := RA)) xs f = Ok (ys, f') /\ alnf_ok a n f' /\
    (a_init f = true -> ys = lms_filter a n xs).
Proof.
  intros Hn Hb K. destruct xs as [|x xs]; [exists [], f; auto|].
  pose proof K as (Ka & K1 & Kn & Lw & Lx). destruct (a_init f) eqn:I.
  - destruct (alnf_run a (a_mu f) n Hn Hb (x :: xs) (repeat (/ INR n) n ++ skipn n (a_w f)) (repeat x n ++ skipn n (a_xx f))) as (f' & E & K');
      [rewrite rep_length; auto|rewrite rep_length; auto|].
    rewrite !firstn_rep in E. exists (lms a (repeat (/ INR n) n) (repeat x n) (x :: xs)), f'. split; [|split; auto].
    etransitivity; [|exact E]. cbn [feed_res]. f_equal. unfold alnf_smooth. rewrite Ka, K1, Kn, I. cbn [a_init a_xx a_w a_w1 a_n a_alpha a_mu bind].
    rewrite (windowSet_ok x n _ Lx). cbn [bind]. rewrite windowSet_ok by auto. cbn [bind].
    replace (fdiv (a := RA) (lit 1 1) (ofsize (Z.of_nat n))) with (/ INR n); [reflexivity|].
    unfold ofsize. change (lit (a := RA) (Z.of_nat n) 1) with (IZR (Z.of_nat n) / 1). rewrite <- INR_IZR_INZ. change (lit (a := RA) 1 1) with (1 / 1). ops.
    field. apply not_0_INR. lia.
  - destruct (alnf_run a (a_mu f) n Hn Hb (x :: xs) (a_w f) (a_xx f) Lw Lx) as (f' & E & K').
    exists (lms a (firstn n (a_w f)) (firstn n (a_xx f)) (x :: xs)), f'. split; [|split; auto; discriminate].
    etransitivity; [|exact E]. f_equal. destruct f; cbn in *; subst; reflexivity.
Qed.

(** The momentum loop reads past weights that hold exactly n elements. *)
Lemma momentum_oob {A : arith} (al mu x xe : F A) xx w l n : (1 <= n)%nat -> zlen w = Z.of_nat n ->
  momentum_loop n 0 (Z.of_nat n) al mu x xe xx w l = Ub.
Proof.
  intros Hn Hw. destruct n as [|n]; [lia|]. cbn [momentum_loop]. destruct (get w 0) eqn:E; cbn [bind]; [|reflexivity].
  rewrite (get_oob w) by lia. reflexivity.
Qed.

(** ** binary32 *)

Lemma b32_one o : lit (a := B32 o) 1 1 = B754_finite 24 128 false 8388608 (-23) eq_refl.
Proof. apply B2FF_inj. vm_compute. reflexivity. Qed.
Lemma b32_zero o : lit (a := B32 o) 0 1 = B754_zero 24 128 false.
Proof. apply B2FF_inj. vm_compute. reflexivity. Qed.
Lemma b32_one_R o : B2R 24 128 (lit (a := B32 o) 1 1) = 1.
Proof. rewrite b32_one. unfold B2R, F2R. cbn. lra. Qed.

Lemma b32_lt_R x y : is_finite 24 128 x = true -> is_finite 24 128 y = true ->
  b32_lt x y = true <-> B2R 24 128 x < B2R 24 128 y.
Proof.
  intros Hx Hy. unfold b32_lt, b32_compare. rewrite Bcompare_correct by auto.
  destruct (Rcompare_spec (B2R 24 128 x) (B2R 24 128 y)); split; intros; try discriminate; try lra; auto.
Qed.

Lemma unit_open_b32 o (x : binary32) : unit_open (A := B32 o) x = true <-> between 0 1 x.
Proof.
  unfold unit_open, between. change (flt (a := B32 o)) with b32_lt. rewrite andb_true_iff.
  destruct (is_finite 24 128 x) eqn:Fx.
  - rewrite !b32_lt_R; auto.
    rewrite b32_one_R, b32_zero. cbn [B2R]. tauto.
  - split; [|intros [H _]; discriminate]. intros [H1 H2]. exfalso.
    rewrite b32_one in H2. rewrite b32_zero in H1. destruct x as [s|s|s p H|s m e H]; try discriminate Fx; destruct s; cbn in H1, H2; discriminate.
Qed.

Lemma pos_b32 o (x : binary32) : flt (a := B32 o) (lit 0 1) x = true <-> positive_or_inf x.
Proof.
  change (flt (a := B32 o)) with b32_lt. unfold positive_or_inf. destruct (is_finite 24 128 x) eqn:Fx.
  - rewrite b32_lt_R; auto. rewrite b32_zero. cbn [B2R]. split; [auto|].
    intros [->|[_ H]]; [discriminate|auto].
  - rewrite b32_zero. destruct x as [s|s|s p H|s m e H]; try discriminate Fx; destruct s; cbn; split; auto; try discriminate;
      intros [H0|[H0 _]]; discriminate.
Qed.

Definition isnan (x : binary32) : Prop := is_nan 24 128 x = true.
Lemma nan_plus_l x y : isnan x -> isnan (b32_plus mode_NE x y).
Proof. unfold isnan. destruct x; try discriminate. intros _. destruct y; reflexivity. Qed.
Lemma nan_plus_r x y : isnan y -> isnan (b32_plus mode_NE x y).
Proof. unfold isnan. destruct y; try discriminate. intros _. destruct x; reflexivity. Qed.
Lemma nan_minus_l x y : isnan x -> isnan (b32_minus mode_NE x y).
Proof. unfold isnan. destruct x; try discriminate. intros _. destruct y; reflexivity. Qed.
Lemma nan_div_l x y : isnan x -> isnan (b32_div mode_NE x y).
Proof. unfold isnan. destruct x; try discriminate. intros _. destruct y; reflexivity. Qed.

Lemma mwm2_nan_in o (x y : binary32) (f f1 : mwm2 (B32 o)) : isnan x -> mwm2_smooth (A := B32 o) x f = Ok (y, f1) ->
  isnan y /\ isnan (m2_sum f1) /\ m2_init f1 = false.
Proof.
  intros Hx. unfold mwm2_smooth. destruct (m2_line f) as [t|]; [|discriminate].
  destruct (if m2_init f then flush t x else Ok t) as [t1|]; cbn [bind]; [|discriminate].
  destruct (getOldest t1) as [v|]; cbn [bind]; [|discriminate].
  destruct (insertSample t1 x) as [t2|]; cbn [bind]; [|discriminate].
  intros E. injection E as E1 E2. subst f1. cbn [m2_sum m2_init].
  assert (S : isnan (fadd (a := B32 o) (if m2_init f then fmul (a := B32 o) x (ofsize (itemCount t)) else m2_sum f) (fsub (a := B32 o) x v))).
  { apply nan_plus_r. apply nan_minus_l. auto. }
  split; [|split; auto]. rewrite <- E1. apply nan_div_l. exact S.
Qed.
Lemma mwm2_nan_stays o (x y : binary32) (f f1 : mwm2 (B32 o)) : isnan (m2_sum f) -> m2_init f = false -> mwm2_smooth (A := B32 o) x f = Ok (y, f1) ->
  isnan y /\ isnan (m2_sum f1) /\ m2_init f1 = false.
Proof.
  intros Hs Hi. unfold mwm2_smooth. rewrite Hi. destruct (m2_line f) as [t|]; [|discriminate]. cbn [bind].
  destruct (getOldest t) as [v|]; cbn [bind]; [|discriminate].
  destruct (insertSample t x) as [t2|]; cbn [bind]; [|discriminate].
  intros E. injection E as E1 E2. subst f1. cbn [m2_sum m2_init].
  assert (S : isnan (fadd (a := B32 o) (m2_sum f) (fsub (a := B32 o) x v))) by (apply nan_plus_l; auto).
  split; [|split; auto]. rewrite <- E1. apply nan_div_l. exact S.
Qed.
Lemma mwm2_nan_run o (xs : list binary32) : forall (f f1 : mwm2 (B32 o)) ys, isnan (m2_sum f) -> m2_init f = false ->
  feed_res (mwm2_smooth (A := B32 o)) xs f = Ok (ys, f1) -> Forall isnan ys.
Proof.
  induction xs as [|x xs IH]; intros f f1 ys Hs Hi; cbn [feed_res].
  - intros E. injection E as <- _. constructor.
  - destruct (mwm2_smooth (A := B32 o) x f) as [[y f2]|] eqn:E; cbn [bind fst snd]; [|discriminate].
    destruct (mwm2_nan_stays o x y f f2 Hs Hi E) as (H1 & H2 & H3).
    destruct (feed_res (mwm2_smooth (A := B32 o)) xs f2) as [[ys2 f3]|] eqn:E2; cbn [bind fst snd]; [|discriminate].
    intros Q. injection Q as <- _. constructor; auto. eapply IH; eauto.
Qed.
