(** Programs over fp16 objects (C127, C128). *)
From Coq Require Import ZArith Reals Lra Lia Bool List.
From Coquelicot Require Import Coquelicot.
From Verif Require Import Base BaseLemmas Fp16_Model Fp16_Spec Fp16_Proofs Fp16_Proofs2 Fp16_Proofs3 Fp16Fun_Spec Fp16Fun_Proofs Fp16Fun_Proofs2 Fp16Fun_Proofs6 Fp16Expr_Model Fp16Expr_Spec.
Open Scope R_scope.

Lemma fits_raw z : fitsR (fxR z) -> (- 2 ^ 31 < z < 2 ^ 31)%Z.
Proof. unfold fitsR, fxR. intros H. split; apply lt_IZR; [change (IZR (- 2 ^ 31)) with (-2147483648)|change (IZR (2 ^ 31)) with 2147483648]; lra. Qed.
Lemma fits_raw' z : fitsR (fxR z) -> raw z. Proof. intros H. apply fits_raw in H. unfold raw. lia. Qed.
Lemma fits_sent z : fitsR (fxR z) -> z <> sentinel. Proof. intros H. apply fits_raw in H. unfold sentinel. lia. Qed.
Lemma fx_inj a b : fxR a = fxR b -> a = b. Proof. unfold fxR. intros H. apply eq_IZR. lra. Qed.
Lemma abs_fits v : Rabs v <= 32767 -> fitsR v. Proof. intros H. apply Rabs_le_between in H. unfold fitsR. lra. Qed.
Lemma grid_eq r v : Rabs (fxR r - v) <= / 131072 -> on_grid v -> fxR r = v.
Proof.
  intros H (k & ->). apply Rabs_le_between in H. unfold fxR in H. assert (Q : (r - k = 0)%Z).
  { assert ((-1 < r - k < 1)%Z); [|lia]. split; apply lt_IZR; rewrite minus_IZR; lra. }
  replace r with k by lia. reflexivity.
Qed.
Lemma int_fits k : fitsR (IZR k) -> fromInt k = (k * 65536)%Z /\ fxR (fromInt k) = IZR k /\ raw (fromInt k).
Proof.
  intros (H1 & H2). apply (lt_IZR (-32768)) in H1. apply (lt_IZR k 32768) in H2. destruct (int_trip k ltac:(lia)) as (_ & E). split; [exact E|].
  rewrite E. split; [unfold fxR; rewrite mult_IZR; field|unfold raw; lia].
Qed.

Lemma op_exact o x y : raw x -> raw y -> fitsR (fxR x) -> fitsR (fxR y) -> exact_op o (fxR x) (fxR y) ->
  exists r, apply_op o x y = Ok r /\ raw r /\ fxR r = real_op o (fxR x) (fxR y) /\ fitsR (fxR r).
Proof.
  intros Rx Ry Fx Fy H. destruct o; cbn [exact_op real_op apply_op] in *.
  - rewrite <- fx_add in H |- *. pose proof (fits_raw' _ H) as W. exists (x + y)%Z. rewrite (proj1 (add_spec x y Rx Ry) W). auto.
  - rewrite <- fx_sub in H |- *. pose proof (fits_raw' _ H) as W. exists (x - y)%Z. rewrite (proj1 (sub_spec x y Rx Ry) W). auto.
  - destruct H as (H1 & H2 & H3). destruct (mul_fx x y Rx Ry (safe_fx x y H1) H2) as (r & E & B & _). pose proof (grid_eq _ _ B H3) as G. exists r. rewrite <- G in H2.
    pose proof (abs_fits _ H2) as K. pose proof (fits_raw' _ K). auto.
  - destruct H as (H1 & H2 & H3). destruct (div_fx x y Rx Ry) as (r & E & B & _); try (apply fits_sent; assumption); try exact H2.
    { intros ->. apply H1. unfold fxR. field. }
    pose proof (grid_eq _ _ B H3) as G. exists r. rewrite <- G in H2. pose proof (abs_fits _ H2) as K. pose proof (fits_raw' _ K). auto.
Qed.

Lemma eval_exact s p e : holds s p -> exact p e -> exists r, eval s e = Ok r /\ raw r /\ fxR r = reval p e /\ fitsR (fxR r).
Proof.
  intros HS. induction e as [i|k|o a IHa b IHb|a IHa]; cbn [exact eval reval]; intros H.
  - destruct (HS i) as (A & B). exists (s i). rewrite B. auto.
  - destruct (int_fits k H) as (_ & A & B). exists (fromInt k). rewrite A. auto.
  - destruct H as (Ha & Hb & Ho). destruct (IHa Ha) as (x & -> & Rx & Ex & Fx). destruct (IHb Hb) as (y & -> & Ry & Ey & Fy). cbn [bind].
    rewrite <- Ex, <- Ey in *. apply op_exact; assumption.
  - destruct (IHa H) as (x & -> & Rx & Ex & Fx). cbn [bind]. exists (- x)%Z. rewrite neg_ok by (try assumption; apply fits_sent; assumption).
    split; [reflexivity|]. rewrite fx_opp, Ex. assert (K : fitsR (- reval p a)) by (rewrite <- Ex; unfold fitsR in *; lra). split; [|auto]. apply fits_raw'. rewrite fx_opp, Ex. exact K.
Qed.

Lemma cmp_real c x y : apply_cmp c x y = true <-> real_cmp c (fxR x) (fxR y).
Proof.
  assert (A : forall a b, (a < b)%Z <-> fxR a < fxR b) by (intros a b; unfold fxR; split; intros H; [apply IZR_lt in H; lra|apply lt_IZR; lra]).
  assert (B : forall a b, (a <= b)%Z <-> fxR a <= fxR b) by (intros a b; unfold fxR; split; intros H; [apply IZR_le in H; lra|apply le_IZR; lra]).
  assert (E : x = y <-> fxR x = fxR y) by (split; [intros ->; reflexivity|apply fx_inj]).
  destruct c; cbn [apply_cmp real_cmp]; unfold flt, fle, fgt, fge, feq, fne; unfold Rgt, Rge.
  - rewrite Z.ltb_lt. apply A.
  - rewrite Z.leb_le. apply B.
  - rewrite Z.ltb_lt. apply A.
  - rewrite Z.leb_le, B. split; intros H; lra.
  - rewrite Z.eqb_eq. exact E.
  - rewrite negb_true_iff, Z.eqb_neq, E. tauto.
Qed.
Lemma test_exact s p c a b : holds s p -> exact p a -> exact p b -> exists t, test s c a b = Ok t /\ (t = true <-> real_cmp c (reval p a) (reval p b)).
Proof.
  intros HS Ha Hb. destruct (eval_exact s p a HS Ha) as (x & Ex & _ & Vx & _). destruct (eval_exact s p b HS Hb) as (y & Ey & _ & Vy & _).
  exists (apply_cmp c x y). unfold test. rewrite Ex, Ey. cbn [bind]. split; [reflexivity|]. rewrite <- Vx, <- Vy. apply cmp_real.
Qed.

Lemma holds_upd s p i r v : holds s p -> raw r -> fxR r = v -> holds (upd s i r) (upd p i v).
Proof. intros H Rr E j. unfold upd. destruct (Nat.eqb j i); [auto|apply H]. Qed.

Lemma run_more : forall n p s r, run n p s = Some r -> run (S n) p s = Some r.
Proof.
  induction n as [|n IH]; intros p s r H; [discriminate|]. destruct p; try exact H.
  - cbn [run] in H. change (run (S (S n)) (SSeq p1 p2) s) with (match run (S n) p1 s with Some (Ok s1) => run (S n) p2 s1 | r => r end).
    destruct (run n p1 s) as [[s1|]|] eqn:E; try discriminate; rewrite (IH _ _ _ E); [apply IH; exact H|exact H].
  - cbn [run] in H. change (run (S (S n)) (SIf c a b p1 p2) s) with (match test s c a b with Ok true => run (S n) p1 s | Ok false => run (S n) p2 s | Ub => Some Ub end).
    destruct (test s c a b) as [[|]|]; [apply IH; exact H|apply IH; exact H|exact H].
  - cbn [run] in H. change (run (S (S n)) (SWhile c a b p) s) with (match test s c a b with
      | Ok true => match run (S n) p s with Some (Ok s1) => run (S n) (SWhile c a b p) s1 | r => r end | Ok false => Some (Ok s) | Ub => Some Ub end).
    destruct (test s c a b) as [[|]|]; [|exact H|exact H].
    destruct (run n p s) as [[s1|]|] eqn:E; try discriminate; rewrite (IH _ _ _ E); [apply IH; exact H|exact H].
Qed.
Lemma run_le n m p s r : (n <= m)%nat -> run n p s = Some r -> run m p s = Some r.
Proof. intros L H. induction L; [exact H|apply run_more; exact IHL]. Qed.

Lemma one_fx : fxR one = 1. Proof. unfold fxR, one. field. Qed.
Lemma one_raw : raw one. Proof. unfold raw, one. lia. Qed.
Lemma incr_exact x : raw x -> fitsR (fxR x + 1) -> raw (incr x) /\ fxR (incr x) = fxR x + 1.
Proof. intros Rx H. rewrite <- one_fx, <- fx_add in H |- *. pose proof (fits_raw' _ H) as W. unfold incr. rewrite (proj1 (add_spec x one Rx one_raw) W). auto. Qed.
Lemma decr_exact x : raw x -> fitsR (fxR x - 1) -> raw (decr x) /\ fxR (decr x) = fxR x - 1.
Proof. intros Rx H. rewrite <- one_fx, <- fx_sub in H |- *. pose proof (fits_raw' _ H) as W. unfold decr. rewrite (proj1 (sub_spec x one Rx one_raw) W). auto. Qed.

Lemma run_exact c p q : rexec c p q -> forall s, holds s p -> exists n s', run n c s = Some (Ok s') /\ holds s' q.
Proof.
  induction 1 as [p|i e p He|i k p Hk|o i e p Hi He Ho|i p Hi|i p Hi|j i p Hi|j i p Hi|a b p q r _ IH1 _ IH2|c x y a b p q Hx Hy Hc _ IH|c x y a b p q Hx Hy Hc _ IH|c x y a p q r Hx Hy Hc _ IH1 _ IH2|c x y a p Hx Hy Hc]; intros s HS.
  - exists 1%nat, s. auto.
  - destruct (eval_exact s p e HS He) as (r & E & Rr & V & _). exists 1%nat, (upd s i r). cbn [run]. rewrite E. split; [reflexivity|]. apply holds_upd; assumption.
  - destruct (int_fits k Hk) as (_ & V & Rr). exists 1%nat, (upd s i (fromInt k)). split; [reflexivity|]. apply holds_upd; assumption.
  - destruct (eval_exact s p e HS He) as (v & E & Rv & V & Fv). destruct (HS i) as (Ri & Vi). rewrite <- V, <- Vi in *.
    destruct (op_exact o (s i) v Ri Rv Hi Fv Ho) as (r & E2 & Rr & V2 & _). exists 1%nat, (upd s i r). cbn [run]. rewrite E. cbn [bind]. rewrite E2. split; [reflexivity|]. apply holds_upd; assumption.
  - destruct (HS i) as (Ri & Vi). rewrite <- Vi in *. destruct (incr_exact _ Ri Hi). exists 1%nat, (upd s i (incr (s i))). split; [reflexivity|]. apply holds_upd; assumption.
  - destruct (HS i) as (Ri & Vi). rewrite <- Vi in *. destruct (decr_exact _ Ri Hi). exists 1%nat, (upd s i (decr (s i))). split; [reflexivity|]. apply holds_upd; assumption.
  - destruct (HS i) as (Ri & Vi). rewrite <- Vi in *. destruct (incr_exact _ Ri Hi). exists 1%nat, (upd (upd s i (incr (s i))) j (s i)). split; [reflexivity|]. apply holds_upd; auto. apply holds_upd; assumption.
  - destruct (HS i) as (Ri & Vi). rewrite <- Vi in *. destruct (decr_exact _ Ri Hi). exists 1%nat, (upd (upd s i (decr (s i))) j (s i)). split; [reflexivity|]. apply holds_upd; auto. apply holds_upd; assumption.
  - destruct (IH1 s HS) as (n & s1 & E1 & H1). destruct (IH2 s1 H1) as (m & s2 & E2 & H2). exists (S (max n m)), s2. cbn [run].
    rewrite (run_le n (max n m) _ _ _ (Nat.le_max_l n m) E1), (run_le m (max n m) _ _ _ (Nat.le_max_r n m) E2). auto.
  - destruct (test_exact s p c x y HS Hx Hy) as (t & E & T). apply (proj2 T) in Hc. subst t. destruct (IH s HS) as (n & s1 & E1 & H1). exists (S n), s1. cbn [run]. rewrite E. auto.
  - destruct (test_exact s p c x y HS Hx Hy) as (t & E & T). destruct t; [exfalso; apply Hc, T; reflexivity|]. destruct (IH s HS) as (n & s1 & E1 & H1). exists (S n), s1. cbn [run]. rewrite E. auto.
  - destruct (test_exact s p c x y HS Hx Hy) as (t & E & T). apply (proj2 T) in Hc. subst t.
    destruct (IH1 s HS) as (n & s1 & E1 & H1). destruct (IH2 s1 H1) as (m & s2 & E2 & H2). exists (S (max n m)), s2. cbn [run].
    rewrite E, (run_le n (max n m) _ _ _ (Nat.le_max_l n m) E1), (run_le m (max n m) _ _ _ (Nat.le_max_r n m) E2). auto.
  - destruct (test_exact s p c x y HS Hx Hy) as (t & E & T). destruct t; [exfalso; apply Hc, T; reflexivity|]. exists 1%nat, s. cbn [run]. rewrite E. auto.
Qed.

(** ** Forward error *)
Lemma err_nonneg p e : roomy p e -> 0 <= err p e.
Proof.
  induction e as [i|k|o a IHa b IHb|a IHa]; cbn [roomy err]; intros H; try lra.
  - destruct H as (_ & Ha & Hb & Ho). specialize (IHa Ha). specialize (IHb Hb). unfold ulp16. destruct o; try lra.
    + pose proof (Rabs_pos (reval p a)). pose proof (Rabs_pos (reval p b)). pose proof (Rmult_le_pos _ _ H IHb). pose proof (Rmult_le_pos _ _ H0 IHa). pose proof (Rmult_le_pos _ _ IHa IHb). lra.
    + pose proof (Rmult_le_pos _ _ (Rabs_pos (reval p a / reval p b)) IHb) as Q. assert (W : 0 <= (err p a + Rabs (reval p a / reval p b) * err p b) / (Rabs (reval p b) - err p b)); [|lra].
      apply Rmult_le_pos; [lra|]. left. apply Rinv_0_lt_compat. lra.
  - apply IHa, H.
Qed.
Lemma eval_error s p e : holds s p -> roomy p e -> exists r, eval s e = Ok r /\ raw r /\ Rabs (fxR r - reval p e) <= err p e.
Proof.
  intros HS. induction e as [i|k|o a IHa b IHb|a IHa]; intros H.
  - destruct (HS i) as (A & B). exists (s i). cbn. rewrite B, Rminus_eq_0, Rabs_R0. split; [reflexivity|]. split; [exact A|lra].
  - cbn [roomy reval err] in H. destruct H as (H & _). destruct (int_fits k) as (_ & A & B); [apply abs_fits; lra|]. exists (fromInt k). cbn. rewrite A, Rminus_eq_0, Rabs_R0. split; [reflexivity|]. split; [exact B|lra].
  - pose proof (err_nonneg p (EBin o a b) H) as N. destruct H as (H & Ha & Hb & Ho). fold roomy in Ha, Hb. pose proof (err_nonneg p a Ha) as Na. pose proof (err_nonneg p b Hb) as Nb.
    destruct (IHa Ha) as (x & Ex & Rx & Bx). destruct (IHb Hb) as (y & Ey & Ry & By). cbn [eval]. rewrite Ex, Ey. cbn [bind].
    assert (Lx : Rabs (fxR x) <= 32767) by (apply rab in Bx; destruct a; destruct Ha as (Ha & _); lra).
    assert (Ly : Rabs (fxR y) <= 32767) by (apply rab in By; destruct b; destruct Hb as (Hb & _); lra).
    assert (K : forall v, Rabs (v - reval p (EBin o a b)) <= err p (EBin o a b) -> Rabs v <= 32767) by (intros v W; apply rab in W; lra).
    cbn [reval] in *. set (A := reval p a) in *. set (B := reval p b) in *. set (ea := err p a) in *. set (eb := err p b) in *.
    destruct o; cbn [apply_op real_op err] in *; fold A B ea eb in K, N |- *.
    + assert (W : Rabs (fxR (x + y) - (A + B)) <= ea + eb) by (rewrite fx_add; apply Rabs_le_between in Bx, By; apply Rabs_le; lra).
      pose proof (fx_raw _ (K _ W)) as V. exists (x + y)%Z. rewrite (proj1 (add_spec x y Rx Ry) V). auto.
    + assert (W : Rabs (fxR (x - y) - (A - B)) <= ea + eb) by (rewrite fx_sub; apply Rabs_le_between in Bx, By; apply Rabs_le; lra).
      pose proof (fx_raw _ (K _ W)) as V. exists (x - y)%Z. rewrite (proj1 (sub_spec x y Rx Ry) V). auto.
    + assert (W : Rabs (fxR x * fxR y - A * B) <= Rabs A * eb + Rabs B * ea + ea * eb).
      { replace (fxR x * fxR y - A * B) with (A * (fxR y - B) + B * (fxR x - A) + (fxR x - A) * (fxR y - B)) by ring.
        eapply Rle_trans; [apply Rabs_triang|]. apply Rplus_le_compat; [eapply Rle_trans; [apply Rabs_triang|]; apply Rplus_le_compat|]; rewrite Rabs_mult.
        - apply Rmult_le_compat_l; [apply Rabs_pos|exact By].
        - apply Rmult_le_compat_l; [apply Rabs_pos|exact Bx].
        - apply Rmult_le_compat; try apply Rabs_pos; assumption. }
      destruct (mul_fx x y Rx Ry) as (r & E & B1 & _). { apply safe_fx. apply rab in Bx, By. lra. } { apply K. unfold ulp16. lra. }
      assert (V : Rabs (fxR r - A * B) <= Rabs A * eb + Rabs B * ea + ea * eb + ulp16 / 2).
      { replace (fxR r - A * B) with ((fxR r - fxR x * fxR y) + (fxR x * fxR y - A * B)) by ring. eapply Rle_trans; [apply Rabs_triang|]. unfold ulp16. lra. }
      exists r. split; [exact E|]. split; [apply fx_raw, K, V|exact V].
    + assert (B0 : B <> 0) by (intros Z0; rewrite Z0, Rabs_R0 in Ho; lra).
      assert (Y : Rabs B - eb <= Rabs (fxR y)). { rewrite Rabs_minus_sym in By. apply rab in By. lra. }
      assert (Y0 : fxR y <> 0) by (intros Z0; rewrite Z0, Rabs_R0 in Y; lra).
      assert (W : Rabs (fxR x / fxR y - A / B) <= (ea + Rabs (A / B) * eb) / (Rabs B - eb)).
      { replace (fxR x / fxR y - A / B) with (((fxR x - A) - A / B * (fxR y - B)) * / fxR y) by (field; auto). set (q := A / B).
        unfold Rdiv. rewrite Rabs_mult, Rabs_inv. apply Rmult_le_compat; [apply Rabs_pos|left; apply Rinv_0_lt_compat; lra| |apply Rinv_le_contravar; lra].
        unfold Rminus at 1. eapply Rle_trans; [apply Rabs_triang|]. rewrite Rabs_Ropp, Rabs_mult. apply Rplus_le_compat; [exact Bx|]. apply Rmult_le_compat_l; [apply Rabs_pos|exact By]. }
      destruct (div_fx x y Rx Ry) as (r & E & B1 & _); try (apply fits_sent, abs_fits; assumption). { intros Z0. apply Y0. rewrite Z0. unfold fxR. field. } { apply K. unfold ulp16. lra. }
      assert (V : Rabs (fxR r - A / B) <= (ea + Rabs (A / B) * eb) / (Rabs B - eb) + ulp16 / 2).
      { replace (fxR r - A / B) with ((fxR r - fxR x / fxR y) + (fxR x / fxR y - A / B)) by ring. eapply Rle_trans; [apply Rabs_triang|]. unfold ulp16. lra. }
      exists r. split; [exact E|]. split; [apply fx_raw, K, V|exact V].
  - destruct H as (H & Ha). fold roomy in Ha. destruct (IHa Ha) as (x & Ex & Rx & Bx). cbn [reval err] in H. rewrite Rabs_Ropp in H. pose proof (rab _ _ _ Bx) as Lx. cbn [eval reval err]. rewrite Ex. cbn [bind].
    exists (- x)%Z. rewrite neg_ok; [|assumption|apply fits_sent, abs_fits; lra]. split; [reflexivity|]. rewrite fx_opp. split; [apply fx_raw; rewrite fx_opp, Rabs_Ropp; lra|].
    replace (- fxR x - - reval p a) with (- (fxR x - reval p a)) by ring. rewrite Rabs_Ropp. exact Bx.
Qed.
