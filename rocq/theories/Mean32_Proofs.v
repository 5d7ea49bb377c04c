(** The moving mean with a running sum in binary32 (C132). *)
From Coq Require Import ZArith Reals Lra Lia Bool List.
From Flocq Require Import Core IEEE754.BinarySingleNaN IEEE754.Binary IEEE754.Bits.
From Verif Require Import Base BaseLemmas Arith Ffmath_Spec Float32 Ffmath_Proofs14 Tdl_Model Tdl_Proofs Ltisys_Model Ltisys_Spec Ltisys_Proofs Ltisys_Proofs2 Smoother_Model Smoother_Spec Smoother_Proofs Smoother_Proofs3 Fir32_Spec Fir32_Proofs Fir32_Proofs2 Mean32_Spec.
Import ListNotations.
Open Scope R_scope.

Lemma div_fin x y : finite y -> valR y <> 0 -> finite (b32_div mode_NE x y) -> finite x /\ valR (b32_div mode_NE x y) = rnd (valR x / valR y).
Proof.
  intros Fy Ny F. assert (Fx : finite x).
  { destruct x as [sx|sx|sx pl e|sx m e b]; auto; destruct y as [sy|sy|sy pl' e'|sy m' e' b']; cbn in F; try discriminate. }
  split; [exact Fx|]. pose proof (Bdiv_correct 24 128 eq_refl eq_refl binop_nan_pl32 mode_NE x y Ny) as H. rewrite fexp_FLT in H. cbn [round_mode] in H.
  destruct (Rlt_bool _ _); [destruct H as (V & _); exact V|]. destruct (overflow_inf _ _ H F).
Qed.

Lemma map_repeat {B C} (f : B -> C) x n : map f (repeat x n) = repeat (f x) n.
Proof. induction n; cbn; [reflexivity|]. rewrite IHn. reflexivity. Qed.

Section O.
Variable o : oracles binary32.
Local Notation z := (lit (a := B32 o) 0 1 : binary32).

Lemma ofsize_R n : (1 <= n < 2 ^ 24)%Z -> finite (ofsize (A := B32 o) n) /\ valR (ofsize (A := B32 o) n) = IZR n.
Proof.
  intros H. destruct (ofZ_R n) as (F1 & V1); [lia|]. destruct (ofZ_R 1) as (F2 & V2); [lia|].
  change (ofsize (A := B32 o) n) with (b32_div mode_NE (b32_ofZ n) (b32_ofZ 1)).
  assert (Q : valR (b32_ofZ n) / valR (b32_ofZ 1) = valR (b32_ofZ n)) by (rewrite V2; field).
  destruct (div_R _ _ F1 F2) as (F3 & V3).
  - rewrite V2. lra.
  - rewrite Q, V1, Rabs_pos_eq by (apply IZR_le; lia). apply Rle_trans with (IZR (2 ^ 24)); [apply IZR_le; lia|].
    replace (IZR (2 ^ 24)) with (bpow radix2 24) by reflexivity. apply bpow_le. lia.
  - split; [exact F3|]. rewrite V3, Q, rnd_val. exact V1.
Qed.

Lemma tinv_step32 (m : list binary32) n h t x : (1 <= n)%nat -> tinv m (Z.of_nat n) h t ->
  getOldest t = Ok (last h z) /\ exists t', insertSample t x = Ok t' /\ tinv m (Z.of_nat n) (x :: removelast h) t'.
Proof.
  intros Hn T. assert (L : length h = n). { destruct T as (_ & _ & _ & _ & _ & _ & H & _). unfold zlen in H. lia. }
  split.
  - rewrite (getOldest_ok m _ h t T). replace (Z.of_nat n - 1)%Z with (Z.of_nat (n - 1)) by lia.
    rewrite (get_nth z) by lia. f_equal. destruct h as [|y h]; [cbn in L; lia|]. destruct (exists_last (l := y :: h)) as (l & v & E); [discriminate|]. rewrite E in *.
    rewrite last_last. rewrite app_length in L. cbn [length] in L. rewrite app_nth2 by lia. replace (n - 1 - length l)%nat with O by lia. reflexivity.
  - destruct (insertSample_ok m _ h t x T) as (t' & E & T'). exists t'. split; auto.
    rewrite Nat2Z.id, last_firstn_cons in T' by auto. exact T'.
Qed.

Lemma last_val (h : list binary32) : last (map (B2R 24 128) h) 0 = valR (last h z).
Proof. rewrite last_nth, map_length, (nth_val o). f_equal. destruct h as [|x h]; [reflexivity|]. destruct (exists_last (l := x :: h)) as (l & y & E); [discriminate|]. rewrite E.
  rewrite last_last, app_length. cbn [length]. replace (length l + 1 - 1)%nat with (length l) by lia. rewrite app_nth2, Nat.sub_diag by lia. reflexivity. Qed.
Lemma map_removelast (h : list binary32) : map (B2R 24 128) (removelast h) = removelast (map (B2R 24 128) h).
Proof. induction h as [|x h IH]; [reflexivity|]. destruct h; [reflexivity|]. cbn [removelast map] in *. rewrite IH. reflexivity. Qed.

Definition K (n : nat) (M : R) : R := (INR n + 5) * M + 3 * bpow radix2 (-126).
Definition wnd (M : R) (h : list binary32) : Prop := Forall (fun x => finite x /\ Rabs (valR x) <= M) h.

Lemma wnd_total M h : wnd M h -> Rabs (total (map (B2R 24 128) h)) <= INR (length h) * M.
Proof.
  intros H. induction h as [|x h IH].
  - cbn. rewrite Rabs_R0. lra.
  - inversion H as [|? ? (_ & B) H']; subst. cbn [map length]. rewrite S_INR. change (total (valR x :: map (B2R 24 128) h)) with (valR x + total (map (B2R 24 128) h)).
    eapply Rle_trans; [apply Rabs_triang|]. specialize (IH H'). lra.
Qed.
Lemma wnd_removelast M h : wnd M h -> wnd M (removelast h).
Proof. unfold wnd. rewrite !Forall_forall. intros H x Hx. apply H. rewrite removelast_firstn_len in Hx. rewrite <- (firstn_skipn (Nat.pred (length h)) h). apply in_or_app. auto. Qed.
Lemma wnd_last M h : h <> [] -> wnd M h -> finite (last h z) /\ Rabs (valR (last h z)) <= M.
Proof. unfold wnd. rewrite Forall_forall. intros N H. apply H. destruct (exists_last N) as (l & y & ->). rewrite last_last. apply in_or_app. right. left. reflexivity. Qed.

Lemma eta_u : eta = u32 * bpow radix2 (-126). Proof. rewrite <- bpow_plus. reflexivity. Qed.

(** One sample *)
Lemma mean_step m n (x : binary32) (t : tdl binary32) h (s y : binary32) f' (k : nat) M : (1 <= n)%nat -> (Z.of_nat n < 2 ^ 24)%Z -> 0 <= M ->
  tinv m (Z.of_nat n) h t -> wnd M h -> finite x -> Rabs (valR x) <= M ->
  Rabs (valR s - total (map (B2R 24 128) h)) <= ((1 + u32) ^ (k + 1) - 1) * K n M ->
  mwm2_smooth (A := B32 o) x (mkMWM2 (A := B32 o) (Some t) s false) = Ok (y, f') -> finite y ->
  exists t' s', f' = mkMWM2 (A := B32 o) (Some t') s' false /\ tinv m (Z.of_nat n) (x :: removelast h) t' /\ wnd M (x :: removelast h) /\
    Rabs (valR s' - total (map (B2R 24 128) (x :: removelast h))) <= ((1 + u32) ^ (k + 2) - 1) * K n M /\
    Rabs (valR y - total (map (B2R 24 128) (x :: removelast h)) / INR n) <= drift n (k + 1) M.
Proof.
  intros Hn Hb HM T W Fx Bx E R1 Fy. destruct (tinv_step32 m n h t x Hn T) as (O & t' & It & T').
  assert (L : length h = n) by (destruct T as (_ & _ & _ & _ & _ & _ & H & _); unfold zlen in H; lia).
  assert (C : itemCount t = Z.of_nat n) by (destruct T as (_ & _ & H & _); exact H).
  assert (Nh : h <> []) by (destruct h; [cbn in L; lia|discriminate]).
  destruct (wnd_last M h Nh W) as (Fl & Bl).
  assert (W' : wnd M (x :: removelast h)) by (constructor; [auto|apply wnd_removelast; exact W]).
  unfold mwm2_smooth in R1. cbn [m2_line m2_init m2_sum bind] in R1. change (F (B32 o)) with binary32 in *. rewrite O in R1. cbn [bind] in R1. rewrite It in R1. cbn [bind] in R1. rewrite C in R1.
  set (s' := b32_plus mode_NE s (b32_minus mode_NE x (last h z))).
  assert (Ey : b32_div mode_NE s' (ofsize (A := B32 o) (Z.of_nat n)) = y /\ f' = mkMWM2 (A := B32 o) (Some t') s' false) by (change (Ok (b32_div mode_NE s' (ofsize (A := B32 o) (Z.of_nat n)), mkMWM2 (A := B32 o) (Some t') s' false) = Ok (y, f')) in R1; split; congruence). destruct Ey as (Ey & Ef). clear R1.
  destruct (ofsize_R (Z.of_nat n) ltac:(lia)) as (Fn & Vn). rewrite <- INR_IZR_INZ in Vn.
  assert (Nn : 1 <= INR n) by (apply (le_INR 1); exact Hn).
  rewrite <- Ey in Fy. destruct (div_fin s' _ Fn ltac:(rewrite Vn; lra) Fy) as (Fs & Vy). rewrite Vn in Vy. rewrite Ey in Vy. clear Ey Fy.
  destruct (plus_fin _ _ Fs) as (Fs0 & Fd & Vs). fold s' in Vs. destruct (minus_fin _ _ Fd) as (_ & _ & Vd).
  set (TT := total (map (B2R 24 128) (x :: removelast h))).
  assert (ET : TT = total (map (B2R 24 128) h) + (valR x - valR (last h z))).
  { unfold TT. cbn [map]. rewrite map_removelast. rewrite total_slide by (destruct h; [contradiction|discriminate]). rewrite last_val. reflexivity. }
  pose proof (wnd_total M _ W') as BT. fold TT in BT. replace (length (x :: removelast h)) with n in BT by (cbn [length]; rewrite removelast_length; lia).
  set (p := valR x - valR (last h z)) in *. set (T0 := total (map (B2R 24 128) h)) in *.
  assert (Bp : Rabs p <= 2 * M). { unfold p, Rminus. eapply Rle_trans; [apply Rabs_triang|]. rewrite Rabs_Ropp. lra. }
  pose proof (rnd_err p) as Ep. set (q := valR (b32_minus mode_NE x (last h z))) in *. rewrite <- Vd in Ep.
  pose proof (rnd_err (valR s + q)) as Es. rewrite <- Vs in Es.
  pose proof u_pos as U. pose proof eta_pos as Et. pose proof eta_u as EU.
  assert (U1 : u32 <= / 1000) by (change u32 with (/ 16777216); lra).
  pose proof (q_pow k) as Q. rewrite pow_add, pow_1 in E. unfold drift. replace (k + 1 + 2)%nat with (k + 3)%nat by lia. fold (K n M). rewrite !pow_add.
  replace ((1 + u32) ^ 2) with ((1 + u32) * (1 + u32)) by ring. replace ((1 + u32) ^ 3) with ((1 + u32) * (1 + u32) * (1 + u32)) by ring.
  assert (HK : K n M = (INR n + 5) * M + 3 * bpow radix2 (-126)) by reflexivity.
  assert (UK : u32 * K n M = u32 * (INR n * M) + 5 * (u32 * M) + 3 * eta) by (rewrite HK, EU; ring).
  assert (UM : 0 <= u32 * M) by (apply Rmult_le_pos; lra). assert (UUM : u32 * (u32 * M) <= / 1000 * (u32 * M)) by (apply Rmult_le_compat_r; lra).
  assert (K0 : 0 <= K n M) by (rewrite HK; pose proof (bpow_gt_0 radix2 (-126)); assert (0 <= (INR n + 5) * M) by (apply Rmult_le_pos; lra); lra).
  set (E0 := ((1 + u32) ^ k * (1 + u32) - 1) * K n M) in *.
  assert (A1 : Rabs (valR s + q - TT) <= E0 + (u32 * Rabs p + eta)).
  { rewrite ET. replace (valR s + q - (T0 + p)) with ((valR s - T0) + (q - p)) by ring. eapply Rle_trans; [apply Rabs_triang|]. lra. }
  assert (P2 : u32 * Rabs p <= 2 * (u32 * M)). { replace (2 * (u32 * M)) with (u32 * (2 * M)) by ring. apply Rmult_le_compat_l; lra. }
  assert (A2 : Rabs (valR s + q) <= INR n * M + E0 + (2 * (u32 * M) + eta)).
  { replace (valR s + q) with ((valR s + q - TT) + TT) by ring. eapply Rle_trans; [apply Rabs_triang|]. lra. }
  assert (A3 : u32 * Rabs (valR s + q) <= u32 * (INR n * M) + u32 * E0 + (2 * (u32 * (u32 * M)) + u32 * eta)).
  { replace (u32 * (INR n * M) + u32 * E0 + (2 * (u32 * (u32 * M)) + u32 * eta)) with (u32 * (INR n * M + E0 + (2 * (u32 * M) + eta))) by ring. apply Rmult_le_compat_l; lra. }
  assert (UE : u32 * eta <= / 1000 * eta) by (apply Rmult_le_compat_r; lra).
  assert (S1 : Rabs (valR s' - TT) <= ((1 + u32) ^ k * ((1 + u32) * (1 + u32)) - 1) * K n M).
  { replace (((1 + u32) ^ k * ((1 + u32) * (1 + u32)) - 1) * K n M) with ((1 + u32) * E0 + u32 * K n M) by (unfold E0; ring).
    replace (valR s' - TT) with ((valR s' - (valR s + q)) + (valR s + q - TT)) by ring. eapply Rle_trans; [apply Rabs_triang|]. rewrite UK. lra. }
  exists t', s'. split; [exact Ef|]. split; [exact T'|]. split; [exact W'|]. split; [exact S1|].
  set (E1 := ((1 + u32) ^ k * ((1 + u32) * (1 + u32)) - 1) * K n M) in *.
  pose proof (rnd_err (valR s' / INR n)) as Ed. rewrite <- Vy in Ed.
  assert (Iv : 0 < / INR n) by (apply Rinv_0_lt_compat; lra).
  assert (D1 : Rabs (valR s' / INR n - TT / INR n) <= E1 / INR n).
  { replace (valR s' / INR n - TT / INR n) with ((valR s' - TT) * / INR n) by (unfold Rdiv; ring). rewrite Rabs_mult, (Rabs_pos_eq (/ INR n)) by lra. apply Rmult_le_compat_r; lra. }
  assert (D2 : Rabs (valR s' / INR n) <= (INR n * M + E1) / INR n).
  { unfold Rdiv. rewrite Rabs_mult, (Rabs_pos_eq (/ INR n)) by lra. apply Rmult_le_compat_r; [lra|]. replace (valR s') with ((valR s' - TT) + TT) by ring. eapply Rle_trans; [apply Rabs_triang|]. lra. }
  assert (D3 : u32 * Rabs (valR s' / INR n) <= u32 * ((INR n * M + E1) / INR n)) by (apply Rmult_le_compat_l; lra).
  assert (D4 : u32 * (INR n * M) <= u32 * K n M) by (rewrite UK; lra).
  assert (D5 : E1 / INR n + u32 * ((INR n * M + E1) / INR n) <= ((1 + u32) ^ k * ((1 + u32) * (1 + u32) * (1 + u32)) - 1) * K n M / INR n).
  { replace (E1 / INR n + u32 * ((INR n * M + E1) / INR n)) with ((E1 * (1 + u32) + u32 * (INR n * M)) / INR n) by (unfold Rdiv; ring). apply Rmult_le_compat_r; [lra|].
    replace (((1 + u32) ^ k * ((1 + u32) * (1 + u32) * (1 + u32)) - 1) * K n M) with (E1 * (1 + u32) + u32 * K n M) by (unfold E1; ring). lra. }
  replace (valR y - TT / INR n) with ((valR y - valR s' / INR n) + (valR s' / INR n - TT / INR n)) by ring. eapply Rle_trans; [apply Rabs_triang|]. lra.
Qed.

Lemma mean_run m n M : (1 <= n)%nat -> (Z.of_nat n < 2 ^ 24)%Z -> 0 <= M -> forall (xs : list binary32) (t : tdl binary32) h (s : binary32) k ys f',
  tinv m (Z.of_nat n) h t -> wnd M h -> wnd M xs ->
  Rabs (valR s - total (map (B2R 24 128) h)) <= ((1 + u32) ^ (k + 1) - 1) * K n M ->
  feed_res (mwm2_smooth (A := B32 o)) xs (mkMWM2 (A := B32 o) (Some t) s false) = Ok (ys, f') -> Forall (fun y => finite y) ys ->
  length ys = length xs /\ forall j, (j < length xs)%nat -> Rabs (nth j (map (B2R 24 128) ys) 0 - total (nth j (slide (map (B2R 24 128) h) (map (B2R 24 128) xs)) []) / INR n) <= drift n (k + j + 1) M.
Proof.
  intros Hn Hb HM xs. induction xs as [|x xs IH]; intros t h s k ys f' T W WX E R1 Fy.
  - cbn [feed_res] in R1. injection R1 as <- _. split; [reflexivity|]. intros j Hj. cbn in Hj. lia.
  - cbn [feed_res] in R1. destruct (mwm2_smooth (A := B32 o) x (mkMWM2 (A := B32 o) (Some t) s false)) as [(y & f1)|] eqn:E1; cbn [bind fst snd] in R1; [|discriminate].
    destruct (feed_res (mwm2_smooth (A := B32 o)) xs f1) as [(ys' & f2)|] eqn:E2; cbn [bind fst snd] in R1; [|discriminate]. injection R1 as <- _.
    inversion Fy as [|? ? Fy1 Fy2]; subst. inversion WX as [|? ? (Fx & Bx) WX']; subst.
    destruct (mean_step m n x t h s y f1 k M Hn Hb HM T W Fx Bx E E1 Fy1) as (t' & s' & -> & T' & W' & S' & D').
    replace (k + 2)%nat with (k + 1 + 1)%nat in S' by lia. destruct (IH t' _ s' (k + 1)%nat ys' f2 T' W' WX' S' E2 Fy2) as (L & P).
    split; [cbn [length]; f_equal; exact L|]. intros j Hj. cbn [map slide]. destruct j.
    + cbn [nth]. replace (k + 0 + 1)%nat with (k + 1)%nat by lia. rewrite <- map_removelast. exact D'.
    + cbn [nth]. replace (k + S j + 1)%nat with (k + 1 + j + 1)%nat by lia. rewrite <- map_removelast. apply P. cbn [length] in Hj. lia.
Qed.

Lemma mean_from_start (w : list binary32) n M (f0 f f' : mwm2 (B32 o)) (xs ys : list binary32) : (1 <= n <= length w)%nat -> (Z.of_nat n < 2 ^ 24)%Z ->
  mwm2_setup (A := B32 o) (Some w) (Z.of_nat n) f0 = Ok (true, f) -> wnd M xs -> 
  feed_res (mwm2_smooth (A := B32 o)) xs f = Ok (ys, f') -> Forall (fun y => finite y) ys ->
  length ys = length xs /\ forall k, (k < length xs)%nat -> Rabs (nth k (map (B2R 24 128) ys) 0 - moving_mean n (map (B2R 24 128) xs) k) <= drift n (k + 1) M.
Proof.
  intros Hn Hb S WX R1 Fy. destruct xs as [|x xs].
  { cbn [feed_res] in R1. injection R1 as <- _. split; [reflexivity|]. intros k Hk. cbn in Hk. lia. }
  unfold mwm2_setup in S. rewrite (proj2 (Z.gtb_lt _ _)) in S by lia.
  destruct (setup_ok w (Z.of_nat n) z) as (t & E & T); [unfold zlen; lia|]. change (F (B32 o)) with binary32 in S. rewrite E in S. cbn [bind] in S.
  assert (Ef : f = mkMWM2 (A := B32 o) (Some t) (m2_sum f0) true) by congruence. subst f. clear S E.
  pose proof T as (H1 & H2 & H3 & _ & _ & _ & _ & _ & H9).
  destruct (flush_ok w (Z.of_nat n) x t H1 H2 H3 H9) as (t0 & F0 & T0). rewrite Nat2Z.id in T0.
  inversion WX as [|? ? (Fx & Bx) WX']; subst. assert (HM : 0 <= M) by (eapply Rle_trans; [apply Rabs_pos|exact Bx]).
  set (s := b32_mult mode_NE x (ofsize (A := B32 o) (Z.of_nat n))).
  assert (E1 : mwm2_smooth (A := B32 o) x (mkMWM2 (A := B32 o) (Some t) (m2_sum f0) true) = mwm2_smooth (A := B32 o) x (mkMWM2 (A := B32 o) (Some t0) s false)).
  { unfold mwm2_smooth. cbn [m2_line m2_init m2_sum]. change (F (B32 o)) with binary32. rewrite F0. cbn [bind].
    assert (C : itemCount t0 = Z.of_nat n) by (destruct T0 as (_ & _ & H & _); exact H). rewrite H3, C. reflexivity. }
  cbn [feed_res] in R1. rewrite E1 in R1. 
  destruct (mwm2_smooth (A := B32 o) x (mkMWM2 (A := B32 o) (Some t0) s false)) as [(y & f1)|] eqn:E2; cbn [bind fst snd] in R1; [|discriminate].
  destruct (feed_res (mwm2_smooth (A := B32 o)) xs f1) as [(ys' & f2)|] eqn:E3; cbn [bind fst snd] in R1; [|discriminate]. injection R1 as <- _.
  inversion Fy as [|? ? Fy1 Fy2]; subst.
  assert (W0 : wnd M (repeat x n)). { apply Forall_forall. intros v Hv. apply repeat_spec in Hv. subst v. auto. }
  (* the sum is finite, hence the start *)
  assert (Fs : finite s).
  { destruct (tinv_step32 w n _ t0 x ltac:(lia) T0) as (O & t' & It & T').
    unfold mwm2_smooth in E2. cbn [m2_line m2_init m2_sum bind] in E2. change (F (B32 o)) with binary32 in E2. rewrite O in E2. cbn [bind] in E2. rewrite It in E2. cbn [bind] in E2.
    assert (C : itemCount t0 = Z.of_nat n) by (destruct T0 as (_ & _ & H & _); exact H). rewrite C in E2.
    destruct (ofsize_R (Z.of_nat n) ltac:(lia)) as (Fn & Vn).
    assert (Ey : b32_div mode_NE (b32_plus mode_NE s (b32_minus mode_NE x (last (repeat x n) z))) (ofsize (A := B32 o) (Z.of_nat n)) = y).
    { match type of E2 with Ok (_, ?g) = _ => change (Ok (b32_div mode_NE (b32_plus mode_NE s (b32_minus mode_NE x (last (repeat x n) z))) (ofsize (A := B32 o) (Z.of_nat n)), g) = Ok (y, f1)) in E2 end. congruence. }
    rewrite <- Ey in Fy1. apply div_fin in Fy1; auto; [|rewrite Vn; apply not_0_IZR; lia]. destruct Fy1 as (Fp & _). apply plus_fin in Fp. apply Fp. }
  destruct (ofsize_R (Z.of_nat n) ltac:(lia)) as (Fn & Vn). rewrite <- INR_IZR_INZ in Vn.
  destruct (mult_fin _ _ Fs) as (_ & _ & Vs). fold s in Vs. rewrite Vn in Vs.
  assert (S0 : Rabs (valR s - total (map (B2R 24 128) (repeat x n))) <= ((1 + u32) ^ (0 + 1) - 1) * K n M).
  { rewrite map_repeat, total_repeat, Vs. eapply Rle_trans; [apply rnd_err|]. cbn [Nat.add]. rewrite pow_1. rewrite Rabs_mult, (Rabs_pos_eq (INR n)) by apply pos_INR.
    pose proof u_pos. pose proof eta_u as EU. pose proof (pos_INR n). pose proof (bpow_gt_0 radix2 (-126)).
    assert (Rabs (valR x) * INR n <= M * INR n) by (apply Rmult_le_compat_r; lra). unfold K.
    assert (u32 * (Rabs (valR x) * INR n) <= u32 * (M * INR n)) by (apply Rmult_le_compat_l; lra). assert (0 <= u32 * M) by (apply Rmult_le_pos; lra). pose proof eta_pos.
    replace ((1 + u32 - 1) * ((INR n + 5) * M + 3 * bpow radix2 (-126))) with (u32 * (M * INR n) + 5 * (u32 * M) + 3 * eta) by (rewrite EU; ring). lra. }
  destruct (mean_run w n M ltac:(lia) Hb HM (x :: xs) t0 (repeat x n) s 0 (y :: ys') f2 T0 W0 WX S0) as (L & P).
  - cbn [feed_res]. rewrite E2. cbn [bind fst snd]. rewrite E3. reflexivity.
  - constructor; auto.
  - split; [exact L|]. intros k Hk. specialize (P k Hk). cbn [Nat.add] in P. rewrite map_repeat in P. cbn [map] in P.
    rewrite slide_start in P by (try lia; rewrite map_length; exact Hk). rewrite total_tab in P. exact P.
Qed.
End O.
