(** Discrete transfer functions in binary32 (C131). *)
From Coq Require Import ZArith Reals Lra Lia Bool List.
From Flocq Require Import Core IEEE754.BinarySingleNaN IEEE754.Binary IEEE754.Bits.
From Verif Require Import Base Arith Ffmath_Spec Float32 Ltisys_Model Ltisys_Spec Ltisys_Proofs Ltisys_Proofs2 Ltisys_Proofs3 Fir32_Spec Fir32_Proofs.
Import ListNotations.
Open Scope R_scope.

Lemma at_abs s k : at_ (map Rabs s) k = Rabs (at_ s k).
Proof.
  unfold at_. destruct (k <? 0)%Z; [symmetry; apply Rabs_R0|]. rewrite <- Rabs_R0 at 1. apply map_nth.
Qed.
Lemma sum_abs n f : Rabs (sum n f) <= sum n (fun i => Rabs (f i)).
Proof. induction n; cbn [sum]; [rewrite Rabs_R0; lra|]. eapply Rle_trans; [apply Rabs_triang|]. lra. Qed.
Lemma nth_abs l i : nth i (map Rabs l) 0 = Rabs (nth i l 0).
Proof. rewrite <- Rabs_R0 at 1. apply map_nth. Qed.

Section O.
Variable o : oracles binary32.
Local Notation z := (lit (a := B32 o) 0 1 : binary32).
Lemma nth_val (l : list binary32) i : nth i (map (B2R 24 128) l) 0 = valR (nth i l z).
Proof. rewrite <- (z0 o) at 1. apply map_nth. Qed.

(** ** The recursive part *)
Fixpoint fb (k i : nat) (den x : list binary32) (v : binary32) : binary32 :=
  match k with O => v | S k' => fb k' (S i) den x (b32_minus mode_NE v (b32_mult mode_NE (nth (S i) den z) (nth i x z))) end.

Lemma feedback_fb (den x : list binary32) k : forall i v, (i + k < length den)%nat -> (i + k <= length x)%nat ->
  feedback_loop (A := B32 o) k (Z.of_nat i) den x v = Ok (fb k i den x v).
Proof.
  induction k; intros i v Hd Hx; cbn [feedback_loop fb]; [reflexivity|].
  replace (Z.of_nat i + 1)%Z with (Z.of_nat (S i)) by lia.
  rewrite (get_nth (lit (a := B32 o) 0 1)) by (change (F (B32 o)) with binary32; lia). cbn [bind]. rewrite (get_nth (lit (a := B32 o) 0 1)) by (change (F (B32 o)) with binary32; lia). cbn [bind].
  etransitivity; [apply IHk; lia|]. reflexivity.
Qed.

Lemma fb_fin den x k : forall i v, finite (fb k i den x v) -> finite v.
Proof. induction k; intros i v F; cbn [fb] in F; [exact F|]. apply IHk in F. apply minus_fin in F. apply F. Qed.

Lemma fb_err den x k : forall i v m S T, finite (fb k i den x v) -> Rabs T <= S -> Rabs (valR v - T) <= gap m S ->
  Rabs (valR (fb k i den x v) - (T - sum k (fun j => valR (nth (Datatypes.S (i + j)) den z) * valR (nth (i + j) x z)))) <=
    gap (m + k) (S + sum k (fun j => Rabs (valR (nth (Datatypes.S (i + j)) den z) * valR (nth (i + j) x z)))).
Proof.
  induction k; intros i v m S T F HT Hv; cbn [fb] in *.
  - cbn [sum]. rewrite Rplus_0_r, Rminus_0_r, Nat.add_0_r. exact Hv.
  - pose proof (fb_fin _ _ _ _ _ F) as F1. destruct (minus_fin _ _ F1) as (Fv & Ft & V). destruct (mult_fin _ _ Ft) as (Fa & Fx & V2).
    set (p := valR (nth (Datatypes.S i) den z) * valR (nth i x z)) in *.
    assert (Et : Rabs (- valR (b32_mult mode_NE (nth (Datatypes.S i) den z) (nth i x z)) - - p) <= u32 * Rabs (- p) + bpow radix2 (-150)).
    { rewrite V2, Rabs_Ropp. replace (- rnd p - - p) with (- (rnd p - p)) by ring. rewrite Rabs_Ropp. apply rnd_err. }
    destruct (rnd_add m S T _ _ _ HT Et Hv) as (N & _). rewrite Rabs_Ropp in N.
    specialize (IHk (Datatypes.S i) _ (m + 1)%nat (S + Rabs p) (T - p) F).
    assert (H1 : Rabs (T - p) <= S + Rabs p). { unfold Rminus. eapply Rle_trans; [apply Rabs_triang|]. rewrite Rabs_Ropp. lra. }
    specialize (IHk H1). rewrite V in IHk. specialize (IHk N).
    rewrite !sum_first. rewrite Nat.add_0_r. fold p.
    replace (m + Datatypes.S k)%nat with (m + 1 + k)%nat by lia.
    rewrite (sum_ext k (fun j => valR (nth (Datatypes.S (i + Datatypes.S j)) den z) * valR (nth (i + Datatypes.S j) x z)) (fun j => valR (nth (Datatypes.S (Datatypes.S i + j)) den z) * valR (nth (Datatypes.S i + j) x z))).
    2:{ intros j _. replace (i + Datatypes.S j)%nat with (Datatypes.S i + j)%nat by lia. reflexivity. }
    rewrite (sum_ext k (fun j => Rabs (valR (nth (Datatypes.S (i + Datatypes.S j)) den z) * valR (nth (i + Datatypes.S j) x z))) (fun j => Rabs (valR (nth (Datatypes.S (Datatypes.S i + j)) den z) * valR (nth (Datatypes.S i + j) x z)))).
    2:{ intros j _. replace (i + Datatypes.S j)%nat with (Datatypes.S i + j)%nat by lia. reflexivity. }
    rewrite <- Rplus_assoc. match type of IHk with Rabs (_ - (T - p - ?s)) <= _ => replace (T - (p + s)) with (T - p - s) by ring end. exact IHk.
Qed.

(** ** One step *)
Lemma sat_inside (b : lbase (B32 o)) y0 : valR (l_min b) < valR (saturate b y0) < valR (l_max b) -> saturate b y0 = y0.
Proof.
  unfold saturate. destruct (flt (a := B32 o) y0 (l_min b)); [lra|]. destruct (flt (a := B32 o) (l_max b) y0); [lra|reflexivity].
Qed.

Lemma step32 (num den x : list binary32) (vs : list R) (u y : binary32) (N : nat) (d d1 : dsys (B32 o)) :
  (1 <= N)%nat -> (Z.of_nat N < 2 ^ 64)%Z -> length num = N -> length den = N -> holds N vs (map (B2R 24 128) x) -> valR (nth 0 den z) = 1 ->
  d_x d = Some x -> d_num d = num -> d_den d = den -> d_n d = Z.of_nat N -> d_na d = (Z.of_nat N - 1)%Z -> l_delay (d_base d) = None ->
  d_excite (A := B32 o) u d = Ok (y, d1) -> finite y -> valR (l_min (d_base d)) < valR y < valR (l_max (d_base d)) ->
  exists v x1, d1 = mkD (d_num d) (d_den d) (Some x1) (d_n d) (d_na d) (d_nb d) (d_b0 d) (d_base d) /\ finite v /\
    holds N (vs ++ [valR v]) (map (B2R 24 128) x1) /\
    Rabs (filter (map (B2R 24 128) den) (vs ++ [valR v]) (zlen vs) - valR u) <= gap N (Rabs (valR u) + filter (map Rabs (map (B2R 24 128) den)) (map Rabs (vs ++ [valR v])) (zlen vs)) /\
    Rabs (valR y - filter (map (B2R 24 128) num) (vs ++ [valR v]) (zlen vs)) <= gap N (filter (map Rabs (map (B2R 24 128) num)) (map Rabs (vs ++ [valR v])) (zlen vs)).
Proof.
  intros HN HB Ln Ld Hx H1 Ex En Ed En1 Ena Edl E Fy Iy.
  assert (Lx : (N <= length x)%nat). { destruct Hx as (L & _). rewrite map_length in L. exact L. }
  unfold d_excite in E. rewrite Ex in E. unfold delay_input in E. rewrite Edl in E. cbn [bind fst snd] in E.
  unfold d_update in E. rewrite En, Ed, En1, Ena in E. replace (Z.to_nat (Z.of_nat N - 1)) with (N - 1)%nat in E by lia.
  change 0%Z with (Z.of_nat 0) in E. rewrite feedback_fb in E by lia. cbn [bind] in E. set (v := fb (N - 1) 0 den x u) in *.
  rewrite updateFIR_ok in E; [|change (F (B32 o)) with binary32; lia|cbn; change (F (B32 o)) with binary32; lia|lia]. cbn [bind fst snd] in E.
  match type of E with context [fir_value ?c ?n ?a ?b] => remember (fir_value c n a b) as y0 eqn:Y0 end.
  injection E as Ey Ed1. rewrite <- Ey in Iy, Fy. pose proof (sat_inside _ _ Iy) as Si. rewrite Si in Fy, Ey. clear Iy Si. rewrite Y0 in Fy, Ey. clear Y0 y0.
  destruct (fir_value_err o (Some num) N v x HN Fy) as (Fw & Err). change (fir_value (A := B32 o) (Some num) N v x = y) in Ey. unfold F in Ey. cbn [B32] in Ey. rewrite Ey in Err. clear Fy.
  pose proof (Fw 0%nat ltac:(lia)) as Fv. cbn [nth] in Fv.
  exists v, (v :: firstn (N - 1) x ++ skipn N x). split; [rewrite <- Ed1, En, Ed, En1, Ena; reflexivity|]. split; [exact Fv|].
  assert (Hx1 : holds N (vs ++ [valR v]) (map (B2R 24 128) (v :: firstn (N - 1) x ++ skipn N x))).
  { cbn [map]. rewrite map_app, <- firstn_map, <- skipn_map. apply holds_step; auto. }
  split; [exact Hx1|].
  assert (Hn : forall i, (i < N)%nat -> at_ (vs ++ [valR v]) (zlen vs - Z.of_nat i) = valR (nth i (v :: x) z)).
  { intros i Hi. destruct i; cbn [nth].
    - replace (zlen vs - Z.of_nat 0)%Z with (zlen vs) by lia. apply at_last.
    - rewrite at_app1 by lia. rewrite <- nth_val. rewrite (proj2 Hx) by lia. f_equal. lia. }
  split.
  - pose proof (fb_err den x (N - 1) 0 u 0 (Rabs (valR u)) (valR u) Fv (Rle_refl _)) as FE.
    rewrite Rminus_diag_eq, Rabs_R0 in FE by reflexivity. specialize (FE (gap_0 _ (Rabs_pos _))). fold v in FE. cbn [Nat.add] in FE.
    unfold filter. rewrite (map_length Rabs). replace (length (map (B2R 24 128) den)) with N by (rewrite map_length; symmetry; exact Ld). destruct N as [|N]; [lia|]. rewrite !sum_first. replace (S N - 1)%nat with N in * by lia.
    rewrite nth_abs, at_abs, !nth_val, H1, Hn by lia. cbn [nth]. rewrite Rabs_R1, !Rmult_1_l.
    rewrite (sum_ext N (fun i => nth (S i) (map (B2R 24 128) den) 0 * at_ (vs ++ [valR v]) (zlen vs - Z.of_nat (S i))) (fun j => valR (nth (S j) den z) * valR (nth j x z))).
    2:{ intros i Hi. rewrite nth_val, Hn by lia. reflexivity. }
    rewrite (sum_ext N (fun i => nth (S i) (map Rabs (map (B2R 24 128) den)) 0 * at_ (map Rabs (vs ++ [valR v])) (zlen vs - Z.of_nat (S i))) (fun j => Rabs (valR (nth (S j) den z) * valR (nth j x z)))).
    2:{ intros i Hi. rewrite nth_abs, nth_val, at_abs, Hn by lia. rewrite Rabs_mult. reflexivity. }
    match type of FE with Rabs (valR v - (_ - ?s)) <= gap _ (_ + ?t) => replace (valR v + s - valR u) with (valR v - (valR u - s)) by ring; eapply Rle_trans; [exact FE|];
      assert (0 <= t) by (apply sum_nonneg; intros; apply Rabs_pos) end.
    pose proof (Rabs_pos (valR v)). pose proof (Rabs_pos (valR u)). apply gap_mono; [lia|lra].
  - unfold filter. rewrite (map_length Rabs). replace (length (map (B2R 24 128) num)) with N by (rewrite map_length; symmetry; exact Ln).
    rewrite (sum_ext N _ (fun i => rterm o (Some num) i (nth i (v :: x) z))). 2:{ intros i Hi. rewrite nth_val, Hn by lia. reflexivity. }
    rewrite (sum_ext N (fun i => nth i (map Rabs (map (B2R 24 128) num)) 0 * _) (fun i => Rabs (rterm o (Some num) i (nth i (v :: x) z)))).
    2:{ intros i Hi. rewrite nth_abs, nth_val, at_abs, Hn by lia. cbn [rterm]. rewrite Rabs_mult. reflexivity. }
    exact Err.
Qed.

Lemma zlen_abs (l : list R) : zlen (map Rabs l) = zlen l. Proof. unfold zlen. rewrite map_length. reflexivity. Qed.

Lemma stream32 (num den : list binary32) (N : nat) :
  (1 <= N)%nat -> (Z.of_nat N < 2 ^ 64)%Z -> length num = N -> length den = N -> valR (nth 0 den z) = 1 ->
  forall (us : list binary32) (vs : list R) (x : list binary32) (d d2 : dsys (B32 o)) ys, holds N vs (map (B2R 24 128) x) -> d_x d = Some x ->
  d_num d = num -> d_den d = den -> d_n d = Z.of_nat N -> d_na d = (Z.of_nat N - 1)%Z -> l_delay (d_base d) = None ->
  d_stream (A := B32 o) us d = Ok (ys, d2) ->
  Forall (fun y => finite y /\ valR (l_min (d_base d)) < valR y < valR (l_max (d_base d))) ys ->
  exists ws : list R, length ws = length us /\ length ys = length us /\
    forall k, (k < length us)%nat ->
      Rabs (filter (map (B2R 24 128) den) (vs ++ ws) (zlen vs + Z.of_nat k) - valR (nth k us z)) <= gap N (Rabs (valR (nth k us z)) + filter (map Rabs (map (B2R 24 128) den)) (map Rabs (vs ++ ws)) (zlen vs + Z.of_nat k)) /\
      Rabs (valR (nth k ys z) - filter (map (B2R 24 128) num) (vs ++ ws) (zlen vs + Z.of_nat k)) <= gap N (filter (map Rabs (map (B2R 24 128) num)) (map Rabs (vs ++ ws)) (zlen vs + Z.of_nat k)).
Proof.
  intros HN HB Ln Ld H1. induction us as [|u us IH]; intros vs x d d2 ys Hx Ex En Ed En1 Ena Edl E Iy.
  - cbn [d_stream] in E. injection E as <- _. exists []. cbn. repeat split; auto; intros; lia.
  - cbn [d_stream] in E. destruct (d_excite (A := B32 o) u d) as [(y & d1)|] eqn:E1; cbn [bind fst snd] in E; [|discriminate].
    destruct (d_stream (A := B32 o) us d1) as [(ys' & d3)|] eqn:E2; cbn [bind fst snd] in E; [|discriminate].
    injection E as <- <-. inversion Iy as [|? ? (Fy & Jy) Iy' ]; subst.
    destruct (step32 (d_num d) (d_den d) x vs u y _ d d1 HN HB eq_refl Ld Hx H1 Ex eq_refl eq_refl En1 Ena Edl E1 Fy Jy) as (v & x1 & Ed1 & Fv & Hx1 & B1 & B2).
    subst d1.
    match type of E2 with d_stream us ?D = _ => destruct (IH (vs ++ [valR v]) x1 D d3 ys' Hx1 eq_refl eq_refl eq_refl En1 Ena Edl E2 Iy') as (ws & L1 & L2 & P) end.
    exists (valR v :: ws). split; [cbn; rewrite L1; reflexivity|]. split; [exact (f_equal S L2)|].
    intros k Hk. replace (vs ++ valR v :: ws) with ((vs ++ [valR v]) ++ ws) by (rewrite <- app_assoc; reflexivity).
    destruct k.
    + cbn [nth]. replace (zlen vs + Z.of_nat 0)%Z with (zlen vs) by lia. rewrite (map_app _ (vs ++ [valR v]) ws).
      rewrite !(filter_app _ (vs ++ [valR v])) by (rewrite zlen_app1; lia).
      rewrite !(filter_app _ (map Rabs (vs ++ [valR v]))) by (rewrite zlen_abs, zlen_app1; lia). auto.
    + cbn [nth]. cbn [length] in Hk. specialize (P k ltac:(lia)). rewrite zlen_app1 in P.
      replace (zlen vs + Z.of_nat (S k))%Z with (zlen vs + 1 + Z.of_nat k)%Z by lia. exact P.
Qed.

Lemma self_div (a : binary32) : finite a -> valR a <> 0 -> valR (b32_div mode_NE a a) = 1.
Proof.
  intros F H. assert (D : valR a / valR a = 1) by (field; exact H). destruct (div_R a a F F H) as (_ & V).
  - rewrite D. rewrite Rabs_R1. change 1 with (bpow radix2 0). apply bpow_le. lia.
  - rewrite V, D. change 1 with (bpow radix2 0). apply rnd_bpow. lia.
Qed.
End O.

(** The inner signal makes the two filtered streams an exact input and its exact response. *)
Lemma inner_response (num den us ws : list R) n : length ws = n ->
  let ins := map (fun k => filter den ws (Z.of_nat k)) (seq 0 n) in let outs := map (fun k => filter num ws (Z.of_nat k)) (seq 0 n) in
  response num den ins outs.
Proof.
  intros L ins outs. assert (At : forall c k, (k < Z.of_nat n)%Z -> at_ (map (fun k => filter c ws (Z.of_nat k)) (seq 0 n)) k = filter c ws k).
  { intros c k Hk. destruct (Z_lt_le_dec k 0); [rewrite at_neg, filter_neg by lia; reflexivity|]. unfold at_. destruct (Z.ltb_spec k 0); [lia|].
    rewrite (nth_indep _ 0 (filter c ws (Z.of_nat 0))) by (rewrite map_length, seq_length; lia).
    rewrite (map_nth (fun k => filter c ws (Z.of_nat k))), seq_nth by lia. cbn [Nat.add]. f_equal. lia. }
  split; [unfold ins, outs; rewrite !map_length; reflexivity|]. intros k Hk. unfold zlen, ins in Hk. rewrite map_length, seq_length in Hk.
  apply (filters_commute den num ins outs ws (Z.of_nat n)); [| |lia]; intros j Hj; apply At; lia.
Qed.

(** ** From a setup *)
Lemma backward32 (o : oracles binary32) (num den x us ys : list binary32) (d d1 d2 : dsys (B32 o)) :
  let N := length num in let a0 := nth 0 den (lit (a := B32 o) 0 1) in
  (1 <= N)%nat -> (Z.of_nat N < 2 ^ 64)%Z -> length den = N -> (N <= length x)%nat -> finite a0 -> valR a0 <> 0 ->
  l_delay (d_base d) = None ->
  d_setup (A := B32 o) (Some num) (Some den) (Some x) (zlen num) (zlen den) d = Ok (true, d1) ->
  d_stream (A := B32 o) us d1 = Ok (ys, d2) ->
  Forall (fun y => finite y /\ valR (l_min (d_base d)) < valR y < valR (l_max (d_base d))) ys ->
  let b := map (fun v => valR (fdiv (a := B32 o) v a0)) num in let a := map (fun v => valR (fdiv (a := B32 o) v a0)) den in
  nth 0 a 0 = 1 /\ exists ws : list R, length ws = length us /\ length ys = length us /\
    forall k, (k < length us)%nat ->
      Rabs (filter a ws (Z.of_nat k) - nth k (map (B2R 24 128) us) 0) <= gap N (Rabs (nth k (map (B2R 24 128) us) 0) + filter (map Rabs a) (map Rabs ws) (Z.of_nat k)) /\
      Rabs (nth k (map (B2R 24 128) ys) 0 - filter b ws (Z.of_nat k)) <= gap N (filter (map Rabs b) (map Rabs ws) (Z.of_nat k)).
Proof.
  intros N a0 HN HB Ld Lx Fa Na Hdl E1 E2 Iy b a.
  assert (Zd : zlen den = Z.of_nat N) by (unfold zlen; rewrite Ld; reflexivity).
  pose proof (d_setup_ok (A := B32 o) num den x N d HN HB eq_refl Ld Lx) as E0. cbv zeta in E0. fold a0 in E0.
  change (zlen num) with (Z.of_nat N) in E1. rewrite Zd in E1.
  match type of E0 with ?l = ?r => assert (E3 : r = Ok (true, d1)) by (rewrite <- E0; exact E1) end. clear E0 E1. rename E3 into E1.
  pose (b0 := fdiv (a := B32 o) (nth 0 num (lit (a := B32 o) 0 1)) a0).
  pose (nu := map (fun v : binary32 => fdiv (a := B32 o) v a0) num). pose (de := map (fun v : binary32 => fdiv (a := B32 o) v a0) den).
  assert (Ed1 : d1 = mkD (A := B32 o) nu de (Some (zeroed (A := B32 o) N x)) (Z.of_nat N) (Z.of_nat N - 1) (Z.of_nat N) b0 (d_base d)).
  { match type of E1 with Ok (true, ?r) = _ => change (d1 = r) end. congruence. }
  clear E1. subst d1.
  assert (Eb : map (B2R 24 128) nu = b) by (apply map_map).
  assert (Ea : map (B2R 24 128) de = a) by (apply map_map).
  assert (A1 : nth 0 a 0 = 1).
  { rewrite <- Ea, (nth_val o). etransitivity; [|apply (self_div a0 Fa Na)]. apply f_equal. unfold de.
    assert (Hd : forall l : list binary32, (0 < length l)%nat -> nth 0 (map (fun v : binary32 => fdiv (a := B32 o) v a0) l) (lit (a := B32 o) 0 1) = b32_div mode_NE (nth 0 l (lit (a := B32 o) 0 1)) a0).
    { intros [|h t] Hl; [cbn in Hl; lia|reflexivity]. }
    apply (Hd den). lia. }
  split; [exact A1|].
  destruct (stream32 o nu de N HN HB) with (us := us) (vs := @nil R) (x := zeroed (A := B32 o) N x) (d2 := d2) (ys := ys)
    (d := mkD nu de (Some (zeroed (A := B32 o) N x)) (Z.of_nat N) (Z.of_nat N - 1) (Z.of_nat N) b0 (d_base d)) as (ws & L1 & L2 & P); auto.
  - unfold nu. apply map_length.
  - unfold de. rewrite map_length. exact Ld.
  - rewrite <- Ea, (nth_val o) in A1. exact A1.
  - apply holds0; [rewrite map_length; unfold zeroed; etransitivity; [exact Lx|]; apply Nat.eq_le_incl; symmetry; apply gloop_length|].
    intros i Hi. rewrite (nth_val o). etransitivity; [apply f_equal; apply (zeroed_nth (A := B32 o) N x i Lx Hi)|]. apply (z0 o).
  - cbn [app] in P. rewrite Eb, Ea in P. exists ws. split; [exact L1|]. split; [exact L2|].
    intros k Hk. rewrite !(nth_val o). specialize (P k Hk). change (zlen (@nil R)) with 0%Z in P. rewrite Z.add_0_l in P. exact P.
Qed.

