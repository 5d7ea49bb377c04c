(** Proofs about restarting and delaying discrete systems, and about continuous
    systems. *)
From Coq Require Import ZArith Reals Lra Lia List Bool.
From Flocq Require Import IEEE754.Binary IEEE754.Bits.
From Verif Require Import Base BaseLemmas Arith ArithLemmas Numa_Model Tdl_Model Tdl_Spec Tdl_Proofs Algorithm_Proofs Ltisys_Model Ltisys_Spec Ltisys_Proofs Ltisys_Proofs2 Ltisys_Proofs3.
Import ListNotations.
Open Scope R_scope.

Ltac peel := repeat match goal with
  | H : (bind ?e _) = Ok _ |- _ => let E := fresh "E" in let p := fresh "p" in destruct e as [p|] eqn:E; cbn [bind] in H; [|discriminate H]
  | H : Ok _ = Ok _ |- _ => inversion H; subst; clear H
  end.

Section Len.
Context {A : arith}.
Lemma set_length {B} (l l' : list B) i v : set l i v = Ok l' -> length l' = length l.
Proof.
  unfold set. destruct (_ && _)%bool; intros H; inversion H; subst. apply upd_length.
Qed.
Lemma fir_loop_length (c : option (list (F A))) k : forall w y w' y', fir_loop c k w y = Ok (w', y') -> length w' = length w.
Proof.
  induction k; intros w y w' y' H; cbn [fir_loop] in H; peel; auto.
  apply IHk in H. rewrite H. eapply set_length; eauto.
Qed.
Lemma updateFIR_length (c : option (list (F A))) w n x w' y : updateFIR w n x c = Ok (w', y) -> length w' = length w.
Proof.
  unfold updateFIR. intros H. peel. destruct p as [w1 y1]. cbn [fst snd] in *.
  apply set_length in E1. apply fir_loop_length in E. congruence.
Qed.
Definition same_config (d d' : dsys A) : Prop :=
  d_num d' = d_num d /\ d_den d' = d_den d /\ d_n d' = d_n d /\ d_na d' = d_na d /\ d_base d' = d_base d /\
  forall x, d_x d = Some x -> exists x', d_x d' = Some x' /\ length x' = length x.
Lemma d_stream_config us : forall (d d' : dsys A) ys, l_delay (d_base d) = None -> d_stream us d = Ok (ys, d') -> same_config d d'.
Proof.
  induction us as [|u us IH]; intros d d' ys Hd H; cbn [d_stream] in H; peel.
  - unfold same_config. repeat split; auto. intros x Hx. exists x. auto.
  - destruct p as [y d1], p0 as [ys1 d2]. cbn [fst snd] in *.
    unfold d_excite in E. destruct (d_x d) as [x|] eqn:Ex.
    + unfold delay_input in E. rewrite Hd in E. cbn [bind fst snd] in E. peel. destruct p as [x1 y1]. cbn [fst snd] in *.
      apply IH in E0; [|exact Hd]. unfold same_config in *. cbn [d_num d_den d_n d_na d_base d_x] in E0.
      destruct E0 as (-> & -> & -> & -> & -> & H). repeat split; auto. intros x0 Hx0. assert (x0 = x) by congruence. subst x0.
      destruct (H x1 eq_refl) as (x' & Hx' & L). exists x'. split; auto. rewrite L.
      unfold d_update in E1. peel. eapply updateFIR_length; eauto.
    + peel. apply IH in E0; auto.
Qed.
Lemma d_setup_config_inv num den x n m (d d' : dsys A) : d_setup (Some num) (Some den) (Some x) n m d = Ok (true, d') -> d_base d' = d_base d.
Proof.
  unfold d_setup. destruct (n >? 0)%Z; intros H; [|discriminate]. peel. destruct p as [[nu de] b0]. peel.
  unfold d_setInitStates in E0. cbn [d_x] in E0. peel. reflexivity.
Qed.
End Len.

Lemma discrete_restart (num den x us us2 : list R) (d : dsys RA) :
  let N := length num in
  (1 <= N)%nat -> (Z.of_nat N < 2 ^ 64)%Z -> length den = N -> (N <= length x)%nat -> nth 0 den 0 <> 0 ->
  l_delay (d_base d) = None ->
  exists d1 o d2 d3 ys d4,
    d_setup (A := RA) (Some num) (Some den) (Some x) (zlen num) (zlen den) d = Ok (true, d1) /\
    d_stream (A := RA) us d1 = Ok (o, d2) /\
    d_setInitStates None d2 = Ok (true, d3) /\
    d_stream (A := RA) us2 d3 = Ok (map (limit (l_min (d_base d)) (l_max (d_base d))) ys, d4) /\
    response num den us2 ys.
Proof.
  intros N HN HB Ld Lx Ha Hdl.
  destruct (discrete_response num den x us d HN HB Ld Lx Ha Hdl) as (d1 & ys1 & d2 & E1 & E2 & _).
  pose proof E1 as E1'.
  unfold zlen in E1'. rewrite Ld in E1'. fold N in E1'.
  pose proof (d_setup_ok (A := RA) num den x N d HN HB eq_refl Ld Lx) as E. cbv zeta in E.
  pose proof (eq_trans (eq_sym E) E1') as Q. inversion Q as [D]. clear E E1' Q.
  set (a0 := nth 0 den (lit (a := RA) 0 1)) in *.
  assert (A0 : a0 = nth 0 den 0) by (unfold a0; cbn; replace (0 / 1) with 0 by lra; reflexivity).
  assert (C : same_config d1 d2) by (eapply d_stream_config; [rewrite <- D; exact Hdl|exact E2]).
  destruct C as (C1 & C2 & C3 & C4 & C5 & C6).
  destruct (C6 (zeroed (A := RA) N x)) as (x2 & Ex2 & L2); [rewrite <- D; reflexivity|].
  unfold zeroed in L2. rewrite gloop_length in L2.
  set (d3 := mkD (d_num d2) (d_den d2) (Some (zeroed (A := RA) N x2)) (d_n d2) (d_na d2) (d_nb d2) (d_b0 d2) (d_base d2) : dsys RA).
  assert (E3 : d_setInitStates None d2 = Ok (true, d3)).
  { unfold d_setInitStates. rewrite Ex2. replace (Z.to_nat (d_n d2)) with N by (rewrite C3, <- D; cbn [d_n]; lia). change 0%Z with (Z.of_nat 0).
    rewrite init_loop_ok; [|cbn; change (F RA) with R in *; lia|exact I]. cbn [bind]. unfold d3, zeroed. reflexivity. }
  destruct (stream_response (map (fun v => v / nth 0 den 0) num) (map (fun v => v / nth 0 den 0) den) N us2 (zeroed (A := RA) N x2) d3) as (ys & d4 & S & Rp); auto.
  - rewrite map_length. reflexivity.
  - rewrite map_length. exact Ld.
  - rewrite (nth_indep _ 0 (0 / nth 0 den 0)) by (rewrite map_length; lia).
    rewrite (map_nth (fun v => v / nth 0 den 0)). field. exact Ha.
  - assert (Lx2 : (N <= length x2)%nat) by (change (F RA) with R in *; lia).
    apply holds0; [unfold zeroed; rewrite gloop_length; exact Lx2|].
    intros i Hi. pose proof (zeroed_nth (A := RA) N x2 i Lx2 Hi) as Z0. 
    replace (lit (a := RA) 0 1) with 0 in Z0 by (cbn; lra). exact Z0.
  - unfold d3. cbn [d_num]. rewrite C1, <- D. cbn [d_num]. apply map_ext. intros v. replace (0 / 1) with 0 by lra. reflexivity.
  - unfold d3. cbn [d_den]. rewrite C2, <- D. cbn [d_den]. apply map_ext. intros v. replace (0 / 1) with 0 by lra. reflexivity.
  - unfold d3. cbn [d_n]. rewrite C3, <- D. reflexivity.
  - unfold d3. cbn [d_na]. rewrite C4, <- D. reflexivity.
  - unfold d3. cbn [d_base]. rewrite C5, <- D. exact Hdl.
  - exists d1, (map (limit (l_min (d_base d)) (l_max (d_base d))) ys1), d2, d3, ys, d4.
    repeat split; auto.
    + rewrite S. unfold d3. cbn [d_base]. rewrite C5, <- D. reflexivity.
    + apply Rp.
    + apply response_scale in Rp; auto. apply Rp.
Qed.

Lemma discrete_delay (num den x us w : list R) (v : R) (nD : nat) (d : dsys RA) :
  let N := length num in
  (1 <= N)%nat -> (Z.of_nat N < 2 ^ 64)%Z -> length den = N -> (N <= length x)%nat -> nth 0 den 0 <> 0 ->
  l_delay (d_base d) = None -> (1 <= nD <= length w)%nat ->
  exists d1 d2 ys d3,
    d_setup (A := RA) (Some num) (Some den) (Some x) (zlen num) (zlen den) d = Ok (true, d1) /\
    d_setDelay (A := RA) w (Z.of_nat nD) v d1 = Ok (true, d2) /\
    d_stream (A := RA) us d2 = Ok (map (limit (l_min (d_base d)) (l_max (d_base d))) ys, d3) /\
    response num den (delayed (nD - 1) v us) ys.
Proof.
  intros N HN HB Ld Lx Ha Hdl Hw.
  destruct (discrete_response num den x (delayed (nD - 1) v us) d HN HB Ld Lx Ha Hdl) as (d1 & ys & d2 & E1 & E2 & Rp).
  pose proof (line_delay w nD v us Hw) as LD.
  destruct (setup w (Z.of_nat nD) v) as [t|] eqn:Es; cbn [bind] in LD; [|discriminate].
  assert (I1 : d_isInitialized d1 = true).
  { pose proof (d_setup_ok (A := RA) num den x N d HN HB eq_refl Ld Lx) as E. cbv zeta in E.
    unfold zlen in E1. rewrite Ld in E1. fold N in E1. pose proof (eq_trans (eq_sym E) E1) as Q. inversion Q. reflexivity. }
  assert (B1 : d_base d1 = d_base d) by (eapply d_setup_config_inv; exact E1).
  set (dd := d_with_base (mkL (l_min (d_base d1)) (l_max (d_base d1)) (Some t)) d1 : dsys RA).
  destruct (stream_delay (A := RA) us dd t (delayed (nD - 1) v us) (map (limit (l_min (d_base d)) (l_max (d_base d))) ys) d2) as [e' E3]; auto.
  - replace (undelayed dd) with d1; auto. unfold undelayed, dd, d_with_base. cbn.
    destruct d1 as [nu de x1 n1 na1 nb1 b1 bs]. cbn in *. subst bs. destruct (d_base d) as [lo hi dl]. cbn in *. subst dl. reflexivity.
  - exists d1, dd, ys, e'. repeat split; auto; try apply Rp.
    unfold d_setDelay, setDelay. rewrite I1. change (F RA) with R. rewrite Es. reflexivity.
Qed.

(** ** Continuous systems *)
Lemma derivs_length n a u x : (1 <= n)%nat -> length (derivatives n a u x) = Nat.min n (S (length x)).
Proof. intros H. unfold derivatives. cbn [length]. rewrite firstn_length. lia. Qed.

Definition dN : nstate RA := @mkN RA 0 0 0 ITrapezoidal D2Points.
Definition integ (dt s : R) (n : nstate RA) : nstate RA := snd (n_integrate (A := RA) s dt true n).

Lemma c_loop_ok (num den : list R) (b0 dt : R) k : forall x dx0 y,
  (k < length x)%nat -> (S k < length num)%nat -> (S k < length den)%nat ->
  exists x', c_loop (A := RA) num den b0 dt k x dx0 y =
    Ok (x', dx0 + sum k (fun i => nth (S (S i)) den 0 * n_value (nth (S i) x dN)),
            y + sum k (fun i => (nth (S (S i)) num 0 - nth (S (S i)) den 0 * b0) * n_value (nth (S i) x' dN))) /\
    length x' = length x /\
    forall i, nth i x' dN = if ((1 <=? i) && (i <=? k))%nat then integ dt (n_value (nth (i - 1) x dN)) (nth i x dN) else nth i x dN.
Proof.
  induction k; intros x dx0 y Hx Hn Hd.
  - exists x. cbn [c_loop sum]. rewrite !Rplus_0_r. repeat split; auto.
    intros i. destruct i; cbn; auto.
  - cbn [c_loop].
    replace (Z.of_nat (S k) - 1)%Z with (Z.of_nat k) by lia.
    replace (Z.of_nat (S k) + 1)%Z with (Z.of_nat (S (S k))) by lia.
    rewrite (get_nth dN) by lia. cbn [bind]. change (F RA) with R.
    rewrite (get_nth (0 : R)) by lia. cbn [bind].
    rewrite (get_nth dN) by lia. cbn [bind].
    rewrite set_nth by lia. cbn [bind].
    rewrite (get_nth (0 : R)) by lia. cbn [bind].
    set (xi' := snd (n_integrate (n_value (nth k x dN)) dt true (nth (S k) x dN))).
    set (x1 := upd x (S k) xi').
    destruct (IHk x1 (dx0 + nth (S (S k)) den 0 * n_value (nth (S k) x dN))
                     (y + (nth (S (S k)) num 0 - nth (S (S k)) den 0 * b0) * n_value xi'))
      as (x' & E & L & P); [unfold x1; rewrite upd_length; lia|lia|lia|].
    exists x'. split; [|split].
    + etransitivity; [exact E|]. f_equal. f_equal; [f_equal|].
      * cbn [sum]. rewrite Rplus_assoc. f_equal. rewrite Rplus_comm. f_equal.
        apply sum_ext. intros i Hi. unfold x1. rewrite nth_upd by lia.
        destruct (Nat.eqb_spec (S i) (S k)); [lia|]. reflexivity.
      * cbn [sum]. rewrite Rplus_assoc. f_equal. rewrite Rplus_comm. f_equal.
        rewrite (P (S k)). rewrite (proj2 (Nat.leb_gt (S k) k)) by lia. rewrite andb_false_r.
        unfold x1. rewrite nth_upd, Nat.eqb_refl by lia. reflexivity.
    + rewrite L. unfold x1. apply upd_length.
    + intros i. rewrite P. unfold x1.
      destruct (Nat.leb_spec 1 i); cbn [andb].
      * destruct (Nat.leb_spec i k).
        -- rewrite (proj2 (Nat.leb_le i (S k))) by lia.
           rewrite !nth_upd by lia. destruct (Nat.eqb_spec (i - 1) (S k)); [lia|]. destruct (Nat.eqb_spec i (S k)); [lia|]. reflexivity.
        -- rewrite nth_upd by lia. destruct (Nat.eqb_spec i (S k)).
           ++ subst i. rewrite Nat.leb_refl. replace (S k - 1)%nat with k by lia. reflexivity.
           ++ rewrite (proj2 (Nat.leb_gt i (S k))) by lia. reflexivity.
      * rewrite nth_upd by lia. destruct (Nat.eqb_spec i (S k)); [lia|]. reflexivity.
Qed.

Lemma nth_firstn {B} (l : list B) n i d : (i < n)%nat -> nth i (firstn n l) d = nth i l d.
Proof.
  revert n i. induction l as [|h t IH]; intros n i H; [rewrite firstn_nil; reflexivity|].
  destruct n; [lia|]. destruct i; cbn; auto. apply IH. lia.
Qed.

Lemma derivs_nth n a u x i : (i < n)%nat -> (n <= length x)%nat ->
  nth i (derivatives n a u x) 0 = match i with O => u - sum n (fun j => a (S j) * nth j x 0) | S j => nth j x 0 end.
Proof.
  intros Hi Hx. unfold derivatives. destruct i; cbn [nth]; [reflexivity|]. rewrite nth_firstn by lia. reflexivity.
Qed.

Lemma values_nth x i : (i < length x)%nat -> nth i (values x) 0 = n_value (nth i x dN).
Proof.
  intros H. unfold values. rewrite (nth_indep _ 0 (n_value dN)) by (rewrite map_length; lia). apply map_nth.
Qed.
Lemma values_length x : length (values x) = length x.
Proof. apply map_length. Qed.

Lemma ccf_states_nth n a b dt u x i : length x = n -> (1 <= n)%nat -> (i < n)%nat ->
  nth i (fst (ccf_step n a b dt u x)) dN = integ dt (nth i (derivatives n a u (values x)) 0) (nth i x dN).
Proof.
  intros L H Hi. unfold ccf_step. cbn [fst].
  set (f := fun p : R * nstate RA => snd (n_integrate (A := RA) (fst p) dt true (snd p))).
  set (l := combine (derivatives n a u (values x)) x).
  assert (Ll : length l = n).
  { unfold l. rewrite combine_length, derivs_length, values_length by lia. lia. }
  rewrite (nth_indep _ dN (f (0, dN))) by (eapply Nat.lt_le_trans; [exact Hi|]; rewrite map_length; apply Nat.eq_le_incl; symmetry; exact Ll).
  rewrite map_nth. unfold l. rewrite combine_nth by (rewrite derivs_length, values_length by lia; lia). reflexivity.
Qed.
Lemma ccf_states_length n a b dt u x : length x = n -> (1 <= n)%nat -> length (fst (ccf_step n a b dt u x)) = n.
Proof. intros L H. unfold ccf_step. cbn [fst]. rewrite map_length, combine_length, derivs_length, values_length by lia. lia. Qed.

Lemma get_nth0 {B} (d : B) l : (0 < length l)%nat -> get l 0 = Ok (nth 0 l d).
Proof. apply (get_nth d l 0). Qed.
Lemma get_nth1 {B} (d : B) l : (1 < length l)%nat -> get l 1 = Ok (nth 1 l d).
Proof. apply (get_nth d l 1). Qed.
Lemma set_nth0 {B} (l : list B) v : (0 < length l)%nat -> set l 0 v = Ok (upd l 0 v).
Proof. apply (set_nth l 0). Qed.

Lemma c_update_ok (c : csys RA) (n : nat) (x : list (nstate RA)) (u : R) :
  (1 <= n)%nat -> (Z.of_nat n < 2 ^ 64)%Z -> c_n c = Z.of_nat n -> length x = n -> length (c_num c) = S n -> length (c_den c) = S n ->
  c_b0 c = nth 0 (c_num c) 0 ->
  c_update (A := RA) u c x = Ok (ccf_step n (fun i => nth i (c_den c) 0) (fun i => nth i (c_num c) 0) (c_dt c) u x).
Proof.
  intros Hn HB En Lx Ln Ld Eb.
  set (a := fun i => nth i (c_den c) 0). set (b := fun i => nth i (c_num c) 0).
  change (F RA) with R in *.
  assert (Step : exists x1 dx0 y, (if (c_n c =? 1)%Z
           then x0 <- get x 0;; a0 <- get (c_den c) 1;; Ok (x, fsub (a := RA) u (fmul (n_value x0) a0), lit (a := RA) 0 1)
           else q <- c_loop (c_num c) (c_den c) (c_b0 c) (c_dt c) (Z.to_nat (size_dec (c_n c))) x (lit 0 1) (lit 0 1);;
                (let '(x1, dx0, y) := q in x0 <- get x1 0;; a0 <- get (c_den c) 1;; Ok (x1, fsub (a := RA) u (fadd dx0 (fmul a0 (n_value x0))), y)))
         = Ok (x1, dx0, y) /\ length x1 = n /\
           dx0 = u - sum n (fun i => a (S i) * nth i (values x) 0) /\
           y = sum (n - 1) (fun i => (b (S (S i)) - a (S (S i)) * b 0%nat) * n_value (nth (S i) x1 dN)) /\
           nth 0 x1 dN = nth 0 x dN /\
           (forall i, (1 <= i < n)%nat -> nth i x1 dN = integ (c_dt c) (n_value (nth (i - 1) x dN)) (nth i x dN))).
  { rewrite En. destruct (Z.eqb_spec (Z.of_nat n) 1).
    - assert (n = 1)%nat by lia. clear En HB. subst n. rewrite H in *. exists x, (u - sum 1 (fun i => a (S i) * nth i (values x) 0)), 0.
      rewrite (get_nth0 dN) by (change (F RA) with R in *; lia). cbn [bind]. rewrite (get_nth1 (0 : R)) by (change (F RA) with R in *; lia). cbn [bind].
      repeat split; auto; [|intros; lia].
      f_equal. f_equal; [f_equal|cbn; lra]. cbn [sum]. rewrite values_nth by lia. unfold a. cbn. ring.
    - rewrite size_dec_pos by lia. replace (Z.to_nat (Z.of_nat n - 1)) with (n - 1)%nat by lia.
      destruct (c_loop_ok (c_num c) (c_den c) (c_b0 c) (c_dt c) (n - 1) x (lit (a := RA) 0 1) (lit (a := RA) 0 1)) as (x1 & E & L & P); [lia|lia|lia|].
      rewrite E. cbn [bind].
      rewrite (get_nth0 dN) by (change (F RA) with R in *; lia). cbn [bind]. rewrite (get_nth1 (0 : R)) by (change (F RA) with R in *; lia). cbn [bind].
      eexists. eexists. eexists. split; [reflexivity|]. 
      assert (P0 : nth 0 x1 dN = nth 0 x dN) by (rewrite P; reflexivity).
      split; [lia|]. split; [|split; [|split; [exact P0|]]].
      + rewrite P0. replace n with (S (n - 1)) at 2 by lia. rewrite sum_first.
        rewrite values_nth by lia. 
        rewrite (sum_ext (n - 1) (fun i => a (S (S i)) * nth (S i) (values x) 0) (fun i => nth (S (S i)) (c_den c) 0 * n_value (nth (S i) x dN))).
        2:{ intros i Hi. rewrite values_nth by lia. reflexivity. }
        unfold a. cbn. lra.
      + rewrite Eb. unfold a, b. cbn. lra.
      + intros i Hi. rewrite P. rewrite (proj2 (Nat.leb_le 1 i)), (proj2 (Nat.leb_le i (n - 1))) by lia. reflexivity. }
  destruct Step as (x1 & dx0 & y & E & L1 & Edx & Ey & P0 & P).
  unfold c_update. change (F RA) with R.
  match goal with |- bind ?e _ = _ => replace e with (Ok (x1, dx0, y)) by (symmetry; exact E) end.
  cbn [bind].
  rewrite (get_nth0 dN) by (change (F RA) with R in *; lia). cbn [bind]. rewrite set_nth0 by lia. cbn [bind].
  rewrite (get_nth1 (0 : R)) by (change (F RA) with R in *; lia). cbn [bind]. rewrite (get_nth1 (0 : R)) by (change (F RA) with R in *; lia). cbn [bind].
  set (x0' := snd (n_integrate dx0 (c_dt c) true (nth 0 x1 dN))).
  assert (EX : upd x1 0 x0' = fst (ccf_step n a b (c_dt c) u x)).
  { apply nth_ext with (d := dN) (d' := dN); [rewrite upd_length, ccf_states_length; lia|].
    intros i Hi. rewrite upd_length in Hi. rewrite ccf_states_nth by lia.
    rewrite derivs_nth by (try rewrite values_length; lia).
    rewrite nth_upd by lia. destruct i; cbn [Nat.eqb].
    - unfold x0'. rewrite P0, Edx. reflexivity.
    - rewrite P by lia. replace (S i - 1)%nat with i by lia. rewrite values_nth by lia. reflexivity. }
  f_equal. rewrite (surjective_pairing (ccf_step n a b (c_dt c) u x)). rewrite <- EX. apply f_equal.
  replace (snd (ccf_step n a b (c_dt c) u x)) with (strictly_proper n a b (values (upd x1 0 x0'))).
  2:{ rewrite EX. unfold ccf_step. reflexivity. }
  unfold strictly_proper. replace n with (S (n - 1)) by lia. rewrite sum_first.
  rewrite values_nth by (rewrite upd_length; lia). rewrite nth_upd by lia. cbn [Nat.eqb].
  rewrite (sum_ext (n - 1) (fun i => (b (S (S i)) - a (S (S i)) * b 0%nat) * nth (S i) (values (upd x1 0 x0')) 0)
             (fun i => (b (S (S i)) - a (S (S i)) * b 0%nat) * n_value (nth (S i) x1 dN))).
  2:{ intros i Hi. rewrite values_nth by (rewrite upd_length; lia). rewrite nth_upd by lia. reflexivity. }
  rewrite <- Ey, Eb. unfold a, b. apply Rplus_comm.
Qed.

(** ** setup(), initial states and integration method of a continuous system *)
Section CInit.
Context {A : arith}.
Notation X := (F A).
Definition dNA : nstate A := n_make (lit 0 1) (lit 0 1) (lit 0 1).
Lemma cinit_loop_ok (xi : option (list X)) k : forall i (x : list (nstate A)), (i + k <= length x)%nat -> covers xi 1 ->
  let v := match xi with Some l => nth 0 l (lit 0 1) | None => lit 0 1 end in
  cinit_loop k (Z.of_nat i) xi x = Ok (gloop dNA k i (fun _ s => n_init v v v s) x).
Proof.
  intros i x H Hc v. revert i x H. induction k; intros i x H; cbn [cinit_loop gloop]; [reflexivity|].
  rewrite (get_nth dNA) by lia. cbn [bind].
  assert (T : match xi with Some xi0 => get xi0 0 | None => Ok (lit 0 1) end = Ok v).
  { unfold v. destruct xi; [|reflexivity]. cbn in Hc. apply get_nth0. lia. }
  rewrite T. cbn [bind]. rewrite set_nth by lia. cbn [bind].
  replace (Z.of_nat i + 1)%Z with (Z.of_nat (S i)) by lia. apply IHk; rewrite upd_length; lia.
Qed.
Lemma method_loop_ok m k : forall i (x : list (nstate A)), (i + k <= length x)%nat ->
  method_loop k (Z.of_nat i) m x = Ok (gloop dNA k i (fun _ s => n_set_imethod m s) x).
Proof.
  induction k; intros i x H; cbn [method_loop gloop]; [reflexivity|].
  rewrite (get_nth dNA) by lia. cbn [bind]. rewrite set_nth by lia. cbn [bind].
  replace (Z.of_nat i + 1)%Z with (Z.of_nat (S i)) by lia. apply IHk; rewrite upd_length; lia.
Qed.

Lemma c_setInitStates_ok (xi : option (list X)) (c : csys A) x : c_x c = Some x -> c_n c = zlen x -> covers xi 1 ->
  let v := match xi with Some l => nth 0 l (lit 0 1) | None => lit 0 1 end in
  c_setInitStates xi c = Ok (true, mkC (c_num c) (c_den c) (Some (map (n_init v v v) x)) (c_n c) (c_dt c) (c_b0 c) (c_base c)).
Proof.
  intros Ex En Hc v. unfold c_setInitStates. rewrite Ex, En. unfold zlen. rewrite Nat2Z.id.
  change (cinit_loop (length x) 0 xi x) with (cinit_loop (length x) (Z.of_nat 0) xi x).
  rewrite cinit_loop_ok by auto. cbn [bind]. fold v. rewrite gloop_all. reflexivity.
Qed.

Lemma c_setMethod_ok m (c : csys A) x : c_x c = Some x -> c_n c = zlen x ->
  c_setIntegrationMethod m c =
  match m with
  | IRectangular | ITrapezoidal | ISimpson =>
      Ok (true, mkC (c_num c) (c_den c) (Some (map (n_set_imethod m) x)) (c_n c) (c_dt c) (c_b0 c) (c_base c))
  | _ => Ok (false, c)
  end.
Proof.
  intros Ex En. unfold c_setIntegrationMethod. rewrite Ex, En. unfold zlen. rewrite Nat2Z.id.
  change (method_loop (length x) 0 m x) with (method_loop (length x) (Z.of_nat 0) m x).
  destruct m; auto; rewrite method_loop_ok by auto; cbn [bind]; rewrite gloop_all; reflexivity.
Qed.

Lemma c_setup_ok (num den : list X) (x : list (nstate A)) (dT : X) (c : csys A) :
  let n := length x in (1 <= n)%nat -> length num = S n -> length den = S n ->
  let a0 := nth 0 den (lit 0 1) in
  c_setup (Some num) (Some den) (Some x) (zlen x) dT c =
    Ok (true, mkC (map (fun v => fdiv v a0) num) (map (fun v => fdiv v a0) den) (Some (map n_init0 x))
                  (zlen x) dT (fdiv (nth 0 num (lit 0 1)) a0) (c_base c)).
Proof.
  intros n Hn Ln Ld a0. unfold c_setup. destruct (Z.geb_spec (zlen x) 1); [|unfold zlen in *; lia].
  replace (zlen x + 1)%Z with (Z.of_nat (S n)) by (unfold zlen, n; lia).
  rewrite normalizeTF_ok by lia. cbn [bind]. fold a0.
  replace (gloop (lit 0 1) (S n) 0 (fun _ v => fdiv v a0) num) with (map (fun v => fdiv v a0) num)
    by (rewrite <- Ln; symmetry; apply gloop_all).
  replace (gloop (lit 0 1) (S n) 0 (fun _ v => fdiv v a0) den) with (map (fun v => fdiv v a0) den)
    by (rewrite <- Ld; symmetry; apply gloop_all).
  rewrite (c_setInitStates_ok None _ x) by (try exact I; reflexivity). reflexivity.
Qed.
End CInit.

Lemma c_stream_ok (n : nat) (us : list R) : (1 <= n)%nat -> (Z.of_nat n < 2 ^ 64)%Z ->
  forall (c : csys RA) (x : list (nstate RA)), c_x c = Some x -> length x = n -> c_n c = Z.of_nat n ->
  length (c_num c) = S n -> length (c_den c) = S n -> c_b0 c = nth 0 (c_num c) 0 -> l_delay (c_base c) = None ->
  exists c', c_stream (A := RA) us c =
    Ok (map (limit (l_min (c_base c)) (l_max (c_base c)))
          (ccf_run n (fun i => nth i (c_den c) 0) (fun i => nth i (c_num c) 0) (c_dt c) us x), c').
Proof.
  intros Hn HB. induction us as [|u us IH]; intros c x Ex Lx En Ln Ld Eb Edl.
  - exists c. reflexivity.
  - cbn [c_stream ccf_run].
    set (q := ccf_step n (fun i => nth i (c_den c) 0) (fun i => nth i (c_num c) 0) (c_dt c) u x).
    set (c1 := mkC (c_num c) (c_den c) (Some (fst q)) (c_n c) (c_dt c) (c_b0 c) (c_base c) : csys RA).
    assert (Ee : c_excite (A := RA) u c = Ok (limit (l_min (c_base c)) (l_max (c_base c)) (snd q), c1)).
    { unfold c_excite. rewrite Ex. unfold delay_input. rewrite Edl. cbn [bind fst snd].
      rewrite (c_update_ok c n x u) by auto. cbn [bind]. fold q. rewrite sat_limit. reflexivity. }
    rewrite Ee. cbn [bind fst snd].
    destruct (IH c1 (fst q)) as [c' E]; auto.
    { apply ccf_states_length; auto. }
    rewrite E. cbn [bind fst snd]. exists c'. destruct q. reflexivity.
Qed.

Lemma continuous_run (num den : list R) (x : list (nstate RA)) (dT : R) (us : list R) (c : csys RA) :
  let n := length x in (1 <= n)%nat -> (Z.of_nat n < 2 ^ 64)%Z -> length num = S n -> length den = S n -> nth 0 den 0 <> 0 ->
  l_delay (c_base c) = None ->
  exists c1 c2, c_setup (A := RA) (Some num) (Some den) (Some x) (zlen x) dT c = Ok (true, c1) /\
    c_stream (A := RA) us c1 =
    Ok (map (limit (l_min (c_base c)) (l_max (c_base c)))
         (ccf_run n (fun i => nth i den 0 / nth 0 den 0) (fun i => nth i num 0 / nth 0 den 0) dT us (map n_init0 x)), c2).
Proof.
  intros n Hn HB Ln Ld Ha Edl.
  pose proof (c_setup_ok (A := RA) num den x dT c Hn Ln Ld) as E. cbv zeta in E.
  match type of E with _ = Ok (true, ?q) => set (c1 := q) in * end.
  destruct (c_stream_ok n us Hn HB c1 (map n_init0 x)) as [c2 S]; auto.
  - apply map_length.
  - unfold c1. cbn [c_num]. rewrite map_length. exact Ln.
  - unfold c1. cbn [c_den]. rewrite map_length. exact Ld.
  - unfold c1. cbn [c_num c_b0]. destruct num as [|b0 num]; [discriminate|]. reflexivity.
  - exists c1, c2. split; [exact E|]. rewrite S. f_equal. f_equal.
    unfold c1. cbn [c_base c_den c_num c_dt].
    assert (Z0 : lit (a := RA) 0 1 = 0) by (cbn; lra). rewrite Z0.
    assert (Q : forall l i, nth i (map (fun v : F RA => fdiv (a := RA) v (nth 0 den 0)) l) 0 = nth i l 0 / nth 0 den 0).
    { induction l as [|h t IHl]; intros [|i]; [| | reflexivity | exact (IHl i)];
      change ((0 : R) = 0 / nth 0 den 0); unfold Rdiv; ring. }
    assert (Ext : forall us a a' b b' dt s, (forall i, a i = a' i) -> (forall i, b i = b' i) -> ccf_run n a b dt us s = ccf_run n a' b' dt us s).
    { clear. intros us a a' b b' dt s Ha Hb. revert s. induction us as [|u us IH]; intros s; [reflexivity|].
      cbn [ccf_run].
      assert (D : forall u x, derivatives n a u x = derivatives n a' u x).
      { intros. unfold derivatives. f_equal. f_equal. apply sum_ext. intros. rewrite Ha. reflexivity. }
      assert (SP : forall x, strictly_proper n a b x = strictly_proper n a' b' x).
      { intros. apply sum_ext. intros. rewrite Ha, !Hb. reflexivity. }
      assert (E : ccf_step n a b dt u s = ccf_step n a' b' dt u s).
      { unfold ccf_step. rewrite D, SP. reflexivity. }
      rewrite E. destruct (ccf_step n a' b' dt u s). f_equal. apply IH. }
    f_equal. apply Ext; intros i; apply Q.
Qed.

(** The equilibrium of the simulated system and the output it reads there. *)
Lemma equilibrium (n : nat) (a b : nat -> R) (dt u : R) (x : list (nstate RA)) :
  (1 <= n)%nat -> length x = n -> a n <> 0 ->
  (forall i, (i < n)%nat -> nx0 (nth i x dN) = (if (i =? n - 1)%nat then u / a n else 0) /\ nx1 (nth i x dN) = 0 /\ nx2 (nth i x dN) = 0) ->
  (forall i, (i < n)%nat -> nim (nth i x dN) <> IOther) ->
  values (fst (ccf_step n a b dt u x)) = values x /\
  snd (ccf_step n a b dt u x) = (b n / a n - b 0%nat) * u.
Proof.
  intros Hn Lx Ha Hx Hm.
  assert (Hv : forall i, (i < n)%nat -> nth i (values x) 0 = if (i =? n - 1)%nat then u / a n else 0).
  { intros i Hi. rewrite values_nth by lia. apply Hx. auto. }
  assert (Sum1 : forall f, sum n (fun i => f i * nth i (values x) 0) = f (n - 1)%nat * (u / a n)).
  { intros f. replace n with (S (n - 1)) at 1 by lia. cbn [sum]. rewrite (sum_ext _ _ (fun _ => 0)).
    - rewrite sum_0, Hv, Nat.eqb_refl by lia. ring.
    - intros i Hi. rewrite Hv by lia. destruct (Nat.eqb_spec i (n - 1)); [lia|ring]. }
  assert (V : values (fst (ccf_step n a b dt u x)) = values x).
  { apply nth_ext with (d := 0) (d' := 0); [rewrite !values_length, ccf_states_length; auto|].
    intros i Hi. rewrite values_length, ccf_states_length in Hi by auto.
    rewrite values_nth by (rewrite ccf_states_length; auto). rewrite ccf_states_nth by auto.
    rewrite derivs_nth by (rewrite ?values_length; lia).
    rewrite values_nth by lia.
    assert (D0 : match i with O => u - sum n (fun j => a (S j) * nth j (values x) 0) | S j => nth j (values x) 0 end = 0).
    { destruct i.
      - rewrite (Sum1 (fun j => a (S j))). replace (S (n - 1)) with n by lia. field. exact Ha.
      - rewrite Hv by lia. destruct (Nat.eqb_spec i (n - 1)); [lia|reflexivity]. }
    rewrite D0. destruct (Hx i Hi) as (X0 & X1 & X2). pose proof (Hm i Hi) as M.
    destruct (nth i x dN) as [y0 y1 y2 im dm]. cbn [nx0 nx1 nx2 nim] in *. subst y1 y2. clear.
    unfold integ, n_integrate, n_increment, n_value. destruct im; cbn; lra. }
  split; [exact V|].
  change (snd (ccf_step n a b dt u x)) with (strictly_proper n a b (values (fst (ccf_step n a b dt u x)))).
  rewrite V. unfold strictly_proper. rewrite (Sum1 (fun i => b (S i) - a (S i) * b 0%nat)).
  replace (S (n - 1)) with n by lia. field. exact Ha.
Qed.

Lemma euler_step (n : nat) (a b : nat -> R) (dt u : R) (x : list (nstate RA)) i :
  length x = n -> (i < n)%nat -> nim (nth i x dN) = IRectangular ->
  nth i (values (fst (ccf_step n a b dt u x))) 0 = nth i (values x) 0 + nth i (derivatives n a u (values x)) 0 * dt.
Proof.
  intros Lx Hi M. rewrite values_nth by (rewrite ccf_states_length; lia). rewrite ccf_states_nth by lia.
  rewrite (values_nth x) by lia. unfold integ, n_integrate, n_increment. rewrite M. reflexivity.
Qed.
Lemma trapezoid_step (n : nat) (a b : nat -> R) (dt u : R) (x : list (nstate RA)) i :
  length x = n -> (i < n)%nat -> nim (nth i x dN) = ITrapezoidal ->
  nth i (values (fst (ccf_step n a b dt u x))) 0 =
    nth i (values x) 0 + (nth i (derivatives n a u (values x)) 0 + nx1 (nth i x dN)) / 2 * dt /\
  nx1 (nth i (fst (ccf_step n a b dt u x)) dN) = nth i (derivatives n a u (values x)) 0.
Proof.
  intros Lx Hi M. rewrite values_nth by (rewrite ccf_states_length; lia). rewrite !ccf_states_nth by lia.
  rewrite (values_nth x) by lia. unfold integ, n_integrate, n_increment. rewrite M. split; [|reflexivity]. 
  set (D := nth i (derivatives n a u (values x)) 0). destruct (nth i x dN) as [y0 y1 y2 im dm]. cbn.
  change (F RA) with R in *. lra.
Qed.

(** ** Limits, instances *)
Lemma b32_le_refl o x : fisnan (A := B32 o) x = false -> fle (a := B32 o) x x = true.
Proof.
  intros H. unfold fisnan in H. apply negb_false_iff in H. cbn in *. unfold b32_eq, b32_le in *.
  destruct (b32_compare x x) as [[]|]; auto; discriminate.
Qed.
Lemma RA_le_refl (x : R) : fisnan (A := RA) x = false -> fle (a := RA) x x = true.
Proof. intros _. cbn. apply Rleb_true. lra. Qed.

Lemma b32_below_min o y : fle (a := B32 o) y (lit 0 1) = true -> flt (a := B32 o) y real_min = true.
Proof.
  cbn [fle flt lit real_min B32].
  replace (b32_div BinarySingleNaN.mode_NE (b32_ofZ 0) (b32_ofZ 1)) with (B754_zero 24 128 false) by (vm_compute; reflexivity).
  unfold b32_le, b32_lt, b32_compare.
  destruct y as [s|s|s p H|s m e H].
  - intros _. destruct s; vm_compute; reflexivity.
  - destruct s; [intros _; vm_compute; reflexivity|intros K; vm_compute in K; discriminate].
  - intros K. vm_compute in K. discriminate.
  - destruct s; [intros _; vm_compute; reflexivity|intros K; vm_compute in K; discriminate].
Qed.
