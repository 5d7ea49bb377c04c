(** Defuzzification. *)
From Coq Require Import ZArith List Bool Lia.
From Verif Require Import Base BaseLemmas Arith Interp1_Model FisCore_Model FisRules_Spec Fis_Model Fis_Proofs Fis_Proofs3.
Import ListNotations.
Open Scope Z_scope.

Lemma mapn_ok {B} (g : B -> res B) (h : B -> B) n : forall l, (forall x, In x l -> g x = Ok (h x)) -> (n <= length l)%nat ->
  mapn n g l = Ok (map h (firstn n l) ++ skipn n l).
Proof.
  induction n as [|n IH]; intros l H L; [reflexivity|]. destruct l as [|x l]; [cbn in L; lia|]. cbn [mapn firstn skipn map app].
  rewrite H by now left. cbn [bind]. rewrite IH; [reflexivity| |cbn in L; lia]. intros; apply H; now right.
Qed.
Lemma mapn_all {B} (g : B -> res B) (h : B -> B) n l : (forall x, In x l -> g x = Ok (h x)) -> zlen l = n -> mapn (Z.to_nat n) g l = Ok (map h l).
Proof.
  intros H L. unfold zlen in L. replace (Z.to_nat n) with (length l) by lia. rewrite (mapn_ok g h) by auto. rewrite firstn_all, skipn_all, app_nil_r. reflexivity.
Qed.
Lemma mapn_inv {B} (g : B -> res B) n : forall l l', mapn n g l = Ok l' ->
  length l' = length l /\ (n <= length l)%nat /\ forall k d, if (k <? n)%nat then g (nth k l d) = Ok (nth k l' d) else nth k l' d = nth k l d.
Proof.
  induction n as [|n IH]; intros l l' H.
  - injection H as <-. split; [reflexivity|]. split; [lia|]. intros. reflexivity.
  - destruct l as [|x l]; [discriminate|]. cbn [mapn] in H. apply bind_ok in H. destruct H as (y & G & H). apply bind_ok in H. destruct H as (t & M & H). injection H as <-.
    apply IH in M. destruct M as (M1 & M2 & M3). cbn [length]. split; [lia|]. split; [lia|]. intros [|k] d; [exact G|]. cbn [nth]. change (S k <? S n)%nat with (k <? n)%nat. apply M3.
Qed.

(** ** What an aggregation leaves alone *)
Section Frame.
Context {A : arith}.
Notation X := (F A).
Definition frame (o : out A) := (o_min o, o_max o, o_value o, o_res o, o_x o).
Definition framed (l l' : list (out A)) : Prop := map frame l' = map frame l.
Lemma map_upd {B C} (h : B -> C) l k v d : (k < length l)%nat -> h v = h (nth k l d) -> map h (upd l k v) = map h l.
Proof. revert k. induction l as [|x l IH]; intros [|k] L H; cbn in *; try lia; f_equal; auto. apply IH; [lia|auto]. Qed.

Lemma consequent_frame (f : fis A) w i m lo lm p : consequent f w i m lo lm = Ok p -> framed lo (fst p).
Proof.
  unfold consequent. intros H. destruct (w >? lit 0 1)%fl; [|injection H as <-; reflexivity].
  apply bind_ok in H. destruct H as (o & Go & H). apply bind_ok in H. destruct H as (mm & Gm & H).
  assert (K : forall o', frame o' = frame o -> forall lo', set lo i o' = Ok lo' -> framed lo lo').
  { intros o' Fo lo' S. apply set_inv in S. destruct S as [S1 ->]. unfold framed. apply (map_upd _ _ _ _ out_new); [unfold zlen in S1; lia|].
    rewrite (get_ok_nth lo i out_new) in Go by lia. injection Go as ->. exact Fo. }
  destruct (c_type (f_cfg f)); apply bind_ok in H; destruct H as (q & _ & H); apply bind_ok in H; destruct H as (lo' & S & H);
    apply bind_ok in H; destruct H as (lm' & _ & H); injection H as <-; (eapply K; [|exact S]; reflexivity).
Qed.
Lemma agg_loop_frame k : forall (f : fis A) t t', aggregate_loop k f t = Ok (Some t') -> framed (a_out t) (a_out t').
Proof.
  induction k as [|k IH]; intros f t t' H; [discriminate|]. cbn [aggregate_loop] in H. apply bind_ok in H. destruct H as (z & _ & H).
  destruct (_ && _); [|injection H as <-; reflexivity]. apply bind_ok in H. destruct H as (u & S & H). apply IH in H. cbn [a_out] in H.
  unfold framed in *. rewrite H. destruct (a_find t).
  - unfold aggregationFindConsequent in S. apply bind_ok in S. destruct S as (i & _ & S). injection S as <-. reflexivity.
  - unfold inferenceConsequent in S. apply bind_ok in S. destruct S as (oi & _ & S). apply bind_ok in S. destruct S as (mi & _ & S). apply bind_ok in S. destruct S as (cn & _ & S).
    destruct (f_wi f) as [wi|]; [|discriminate]. apply bind_ok in S. destruct S as (w & _ & S). apply bind_ok in S. destruct S as (p & C & S). apply consequent_frame in C. unfold framed in C. rewrite <- C.
    destruct (_ =? _); injection S as <-; reflexivity.
Qed.
Lemma aggregate_frame (f f' : fis A) : fuzzyAggregate f = Ok f' -> framed (f_out f) (f_out f') /\ f_cfg f' = f_cfg f /\ f_in f' = f_in f.
Proof.
  unfold fuzzyAggregate. intros H. apply bind_ok in H. destruct H as (c0 & _ & H). destruct (c0 =? _); [|injection H as <-; repeat split].
  apply bind_ok in H. destruct H as (t & L & H). destruct t as [t|]; [|discriminate]. injection H as <-. apply agg_loop_frame in L. split; [exact L|split; reflexivity].
Qed.
Lemma framed_nth l l' k : framed l l' -> frame (nth k l' out_new) = frame (nth k l out_new).
Proof. intros H. apply (f_equal (fun l => nth k l (frame out_new))) in H. now rewrite !(map_nth frame) in H. Qed.
Lemma framed_len l l' : framed l l' -> length l' = length l.
Proof. intros H. apply (f_equal (@length _)) in H. now rewrite !map_length in H. Qed.

(** Range and value of the outputs. *)
Definition rng (o : out A) := (o_min o, o_max o).
Lemma frame_rng o o' : frame o = frame o' -> rng o = rng o' /\ o_value o = o_value o'.
Proof. unfold frame, rng. intros H. injection H as -> -> -> _ _. auto. Qed.

Lemma bisect_frame n : forall k j (f f' : fis A), bisect n k j f = Ok f' ->
  f_cfg f' = f_cfg f /\ length (f_out f') = length (f_out f) /\ forall i, rng (nth i (f_out f') out_new) = rng (nth i (f_out f) out_new) /\
    (Z.of_nat i <> j -> o_value (nth i (f_out f') out_new) = o_value (nth i (f_out f) out_new)).
Proof.
  induction n as [|n IH]; intros k j f f' H; [injection H as <-; repeat split|]. cbn [bisect] in H.
  apply bind_ok in H. destruct H as (o & Go & H). apply bind_ok in H. destruct H as (lo & S & H). apply bind_ok in H. destruct H as (f1 & Ag & H).
  apply bind_ok in H. destruct H as (o1 & Go1 & H). apply bind_ok in H. destruct H as (lo2 & S2 & H).
  apply aggregate_frame in Ag. destruct Ag as (Fr & Ec & _). cbn [with_out f_cfg f_out] in Fr, Ec.
  apply set_inv in S. destruct S as [S1 ->]. apply set_inv in S2. destruct S2 as [S2 ->].
  rewrite (get_ok_nth _ _ out_new) in Go by lia. injection Go as Go. rewrite (get_ok_nth _ _ out_new) in Go1 by lia. injection Go1 as Go1.
  unfold zlen in *.
  assert (G : forall i, rng (nth i (upd (f_out f1) (Z.to_nat j) (out_v o1 (o_v0 o1) (o_v1 o1) (o_v2 o1) (o_v3 o1 + o_y o1)%fl)) out_new) = rng (nth i (f_out f) out_new) /\
     (Z.of_nat i <> j -> o_value (nth i (upd (f_out f1) (Z.to_nat j) (out_v o1 (o_v0 o1) (o_v1 o1) (o_v2 o1) (o_v3 o1 + o_y o1)%fl)) out_new) = o_value (nth i (f_out f) out_new))).
  { intros i. pose proof (framed_nth _ _ i Fr) as E. apply frame_rng in E. destruct E as [E1 E2].
    destruct (Nat.eq_dec (Z.to_nat j) i) as [<-|N].
    - split; [|intros; lia]. rewrite nth_upd_eq by lia. transitivity (rng (nth (Z.to_nat j) (f_out f1) out_new)); [rewrite Go1; reflexivity|]. rewrite E1, nth_upd_eq by lia. rewrite <- Go. reflexivity.
    - rewrite nth_upd_ne by auto. rewrite E1, E2, nth_upd_ne by auto. auto. }
  assert (L : length (upd (f_out f1) (Z.to_nat j) (out_v o1 (o_v0 o1) (o_v1 o1) (o_v2 o1) (o_v3 o1 + o_y o1)%fl)) = length (f_out f)).
  { rewrite upd_length. apply framed_len in Fr. rewrite upd_length in Fr. exact Fr. }
  destruct (_ >=? _)%fl.
  - injection H as <-. cbn [with_out f_cfg f_out]. auto.
  - apply IH in H. cbn [with_out f_cfg f_out] in H. destruct H as (H1 & H2 & H3). split; [congruence|]. split; [congruence|].
    intros i. destruct (H3 i) as [R1 R2]. destruct (G i) as [R3 R4]. split; [congruence|]. intros N. rewrite R2, R4; auto.
Qed.
Lemma END_frame j (f : fis A) p : deFuzz_END j f = Ok p ->
  f_cfg (snd p) = f_cfg f /\ length (f_out (snd p)) = length (f_out f) /\ forall i, rng (nth i (f_out (snd p)) out_new) = rng (nth i (f_out f) out_new) /\
    (Z.of_nat i <> j -> o_value (nth i (f_out (snd p)) out_new) = o_value (nth i (f_out f) out_new)).
Proof.
  unfold deFuzz_END. intros H. apply bind_ok in H. destruct H as (o & Go & H).
  destruct (c_defuzz (f_cfg f)); try (injection H as <-; repeat split; fail).
  apply bind_ok in H. destruct H as (lo & S & H). apply bind_ok in H. destruct H as (f1 & B & H). apply bind_ok in H. destruct H as (o1 & _ & H). injection H as <-. cbn [snd].
  apply set_inv in S. destruct S as [S1 ->]. unfold zlen in S1. rewrite (get_ok_nth _ _ out_new) in Go by (unfold zlen; lia). injection Go as Go.
  apply bisect_frame in B. cbn [with_out f_cfg f_out] in B. destruct B as (B1 & B2 & B3). split; auto. split; [now rewrite B2, upd_length|].
  intros i. destruct (B3 i) as [R1 R2]. destruct (Nat.eq_dec (Z.to_nat j) i) as [<-|N].
  - split; [|intros; lia]. rewrite R1, nth_upd_eq by lia. rewrite <- Go. reflexivity.
  - rewrite nth_upd_ne in R1, R2 by auto. auto.
Qed.

Definition bounded (o : out A) : Prop := exists v, o_value o = bound v (o_min o) (o_max o).
Lemma finish_frame n : forall j (f f' : fis A), 0 <= j -> finish_loop n j f = Ok f' ->
  f_cfg f' = f_cfg f /\ length (f_out f') = length (f_out f) /\ forall i, rng (nth i (f_out f') out_new) = rng (nth i (f_out f) out_new) /\
    (Z.of_nat i < j -> o_value (nth i (f_out f') out_new) = o_value (nth i (f_out f) out_new)) /\
    (j <= Z.of_nat i < j + Z.of_nat n -> bounded (nth i (f_out f') out_new)).
Proof.
  induction n as [|n IH]; intros j f f' Hj H; [injection H as <-; repeat split; intros; lia|]. cbn [finish_loop] in H.
  apply bind_ok in H. destruct H as (p & E & H). apply bind_ok in H. destruct H as (o & Go & H). apply bind_ok in H. destruct H as (lo & S & H).
  apply END_frame in E. destruct E as (E1 & E2 & E3). apply set_inv in S. destruct S as [S1 ->]. rewrite (get_ok_nth _ _ out_new) in Go by lia. injection Go as Go. unfold zlen in S1.
  apply IH in H; [|lia]. cbn [with_out f_cfg f_out] in H. destruct H as (H1 & H2 & H3). split; [congruence|]. split; [rewrite H2, upd_length; exact E2|].
  intros i. destruct (H3 i) as (R1 & R2 & R3). destruct (E3 i) as (R4 & R5).
  destruct (Nat.eq_dec (Z.to_nat j) i) as [<-|N].
  - rewrite nth_upd_eq in R1, R2 by lia. split; [|split].
    + rewrite R1, <- R4, Go. reflexivity.
    + intros. lia.
    + intros _. exists (fst p). rewrite R2 by lia. cbn [out_value o_value]. unfold rng in R1. cbn [out_value o_min o_max] in R1. injection R1 as -> ->. reflexivity.
  - rewrite nth_upd_ne in R1, R2 by auto. split; [congruence|]. split.
    + intros L. rewrite R2, R5 by lia. reflexivity.
    + intros L. apply R3. lia.
Qed.

(** Outputs agree in range. *)
Definition ranged (l l' : list (out A)) : Prop := length l' = length l /\ forall i, rng (nth i l' out_new) = rng (nth i l out_new).
Lemma ranged_refl l : ranged l l. Proof. split; auto. Qed.
Lemma ranged_trans l1 l2 l3 : ranged l1 l2 -> ranged l2 l3 -> ranged l1 l3.
Proof. intros [A1 A2] [B1 B2]. split; [congruence|]. intros i. rewrite B2. apply A2. Qed.
Lemma mapn_ranged n (g : out A -> res (out A)) l l' : (forall o o', g o = Ok o' -> rng o' = rng o) -> mapn n g l = Ok l' -> ranged l l'.
Proof.
  intros H M. apply mapn_inv in M. destruct M as (M1 & _ & M2). split; auto. intros i. specialize (M2 i out_new). destruct (i <? n)%nat; [now apply H in M2|now rewrite M2].
Qed.
Lemma framed_ranged l l' : framed l l' -> ranged l l'.
Proof. intros H. split; [now apply framed_len|]. intros i. apply (framed_nth _ _ i) in H. now apply frame_rng in H. Qed.
Lemma compute_rng m (o : out A) : rng (deFuzz_compute m o) = rng o.
Proof. destruct m; cbn [deFuzz_compute]; try reflexivity; [destruct (_ >? _)%fl; [reflexivity|]; destruct (_ && _); [reflexivity|]; destruct (_ <? _)%fl; reflexivity|destruct (_ >=? _)%fl; reflexivity|destruct (_ >=? _)%fl; reflexivity]. Qed.
Lemma point_end_rng m k (o o' : out A) : point_end m k o = Ok o' -> rng o' = rng o.
Proof.
  unfold point_end. pose proof (compute_rng m o) as C. destruct (o_ag (deFuzz_compute m o)) as [[xs ys]|]; [|intros H; injection H as <-; auto].
  intros H. apply bind_ok in H. destruct H as (x & _ & H). apply bind_ok in H. destruct H as (y & _ & H). injection H as <-. exact C.
Qed.
Lemma points_frame n : forall k (f f' : fis A), points_loop n k f = Ok f' -> f_cfg f' = f_cfg f /\ ranged (f_out f) (f_out f').
Proof.
  induction n as [|n IH]; intros k f f' H; [injection H as <-; split; [auto|apply ranged_refl]|]. cbn [points_loop] in H.
  apply bind_ok in H. destruct H as (lo & M & H). apply bind_ok in H. destruct H as (f1 & Ag & H). apply bind_ok in H. destruct H as (lo1 & M1 & H).
  apply IH in H. cbn [with_out f_cfg f_out] in H. destruct H as [H1 H2].
  apply aggregate_frame in Ag. destruct Ag as (Fr & Ec & _). cbn [with_out f_cfg f_out] in Fr, Ec.
  split; [congruence|]. eapply ranged_trans; [|exact H2].
  eapply ranged_trans; [eapply mapn_ranged; [|exact M]; intros o o' K; injection K as <-; reflexivity|].
  eapply ranged_trans; [apply framed_ranged, Fr|]. eapply mapn_ranged; [|exact M1]. apply point_end_rng.
Qed.
Lemma deFuzzify_frame (f f' : fis A) b : deFuzzify f = Ok (b, f') -> c_ready (f_cfg f) = b /\
  ranged (f_out f) (f_out f') /\ (b = true -> forall i, Z.of_nat i < c_nOut (f_cfg f) -> bounded (nth i (f_out f') out_new)).
Proof.
  unfold deFuzzify. destruct (c_ready (f_cfg f)); intros H; [|injection H as <- <-; split; [auto|split; [apply ranged_refl|discriminate]]].
  apply bind_ok in H. destruct H as (lo & M & H). cbn [with_out f_cfg] in H. apply bind_ok in H. destruct H as (f1 & P & H). apply bind_ok in H. destruct H as (f2 & Fi & H). injection H as <- <-.
  assert (R0 : ranged (f_out f) lo) by (eapply mapn_ranged; [|exact M]; intros o o' K; injection K as <-; destruct (c_defuzz (f_cfg f)); reflexivity).
  assert (R1 : f_cfg f1 = f_cfg f /\ ranged (f_out f) (f_out f1)).
  { destruct (c_type (f_cfg f)).
    - apply points_frame in P. cbn [with_out f_cfg f_out] in P. destruct P as [P1 P2]. split; [congruence|eapply ranged_trans; eauto].
    - apply bind_ok in P. destruct P as (l1 & M1 & P). apply bind_ok in P. destruct P as (g & Ag & P). apply bind_ok in P. destruct P as (l2 & M2 & P). injection P as <-. cbn [with_out f_cfg f_out] in *.
      apply aggregate_frame in Ag. destruct Ag as (Fr & Ec & _). cbn [with_out f_cfg f_out] in Fr, Ec. split; [congruence|].
      eapply ranged_trans; [exact R0|]. eapply ranged_trans; [eapply mapn_ranged; [|exact M1]; intros o o' K; injection K as <-; reflexivity|].
      eapply ranged_trans; [apply framed_ranged, Fr|]. eapply mapn_ranged; [|exact M2]. intros o o' K; injection K as <-; apply compute_rng.
    - apply bind_ok in P. destruct P as (l1 & M1 & P). apply bind_ok in P. destruct P as (g & Ag & P). apply bind_ok in P. destruct P as (l2 & M2 & P). injection P as <-. cbn [with_out f_cfg f_out] in *.
      apply aggregate_frame in Ag. destruct Ag as (Fr & Ec & _). cbn [with_out f_cfg f_out] in Fr, Ec. split; [congruence|].
      eapply ranged_trans; [exact R0|]. eapply ranged_trans; [eapply mapn_ranged; [|exact M1]; intros o o' K; injection K as <-; reflexivity|].
      eapply ranged_trans; [apply framed_ranged, Fr|]. eapply mapn_ranged; [|exact M2]. intros o o' K; injection K as <-; apply compute_rng. }
  destruct R1 as [Ec R1]. apply finish_frame in Fi; [|lia]. destruct Fi as (F1 & F2 & F3).
  split; [reflexivity|]. split.
  - eapply ranged_trans; [exact R1|]. split; [exact F2|]. intros i. apply F3.
  - intros _ i Hi. apply F3. lia.
Qed.
End Frame.

(** ** The value of an output *)
Section Value.
Context {A : arith}.
Notation X := (F A).
Variables (c : config A) (inputs : list (io A)) (base : list (mf A)) (D : Z -> X -> X) (Zv : Z -> X) (rs : list rule) (tail : list Z) (ws : list X).

Definition well : Prop :=
  c_rules c = text rs ++ tail /\ Forall (ok_con c base (c_nOut c)) rs /\ c_nRules c = zlen rs /\ zlen rs <= zlen ws /\ shapes_ok c inputs base D Zv.
Definition inv (f : fis A) : Prop :=
  f_cfg f = c /\ f_in f = inputs /\ f_wi f = Some ws /\ same_mf (f_outMF f) base /\ zlen (f_out f) = c_nOut c.
Notation hrd := (heard c D Zv rs ws).

Lemma agg_inv f : well -> inv f -> exists f', fuzzyAggregate f = Ok f' /\ inv f' /\ f_inMF f' = f_inMF f /\
  forall j, 0 <= j -> nth (Z.to_nat j) (f_out f') out_new = hrd j (nth (Z.to_nat j) (f_out f) out_new).
Proof.
  intros (W1 & W2 & W3 & W4 & W5) (I1 & I2 & I3 & I4 & I5).
  destruct (aggregate_nth c inputs base D Zv f rs tail ws) as (lo' & lm' & E & S & L & N); auto; [split; auto|rewrite I5; exact W2|].
  eexists. split; [exact E|]. split; [split; [reflexivity|split; [reflexivity|split; [reflexivity|split; [exact S|cbn [f_out]; congruence]]]]|]. split; [reflexivity|exact N].
Qed.

(** The Mamdani surface of output [j], from the value [y]. *)
Definition mu_from (j : Z) (x y : X) : X :=
  fold_left (fun y (p : X * item) => if (fst p >? lit 0 1)%fl then apply_op (c_aggr c) y (apply_op (c_impl c) (fst p) (degree_at D (snd p) x)) else y) (said j rs ws) y.
Lemma out_xy_id (o : out A) : out_xy o (o_x o) (o_y o) = o. Proof. destruct o; reflexivity. Qed.
Lemma heard_mamdani j o : c_type c = Mamdani -> hrd j o = out_xy o (o_x o) (mu_from j (o_value o) (o_y o)).
Proof.
  intros T. unfold heard, mu_from. generalize (said j rs ws). intros l. revert o. induction l as [|p l IH]; intros o; cbn [fold_left]; [now rewrite out_xy_id|].
  rewrite IH. unfold effect. destruct (fst p >? lit 0 1)%fl; [|reflexivity]. rewrite T. reflexivity.
Qed.
Definition sugeno (l : list (X * item)) (v : X * X) : X * X :=
  fold_left (fun v (p : X * item) => if (fst p >? lit 0 1)%fl then (fst v + Zv (it_set (snd p)) * fst p, snd v + fst p)%fl else v) l v.
Lemma heard_sugeno j o : c_type c <> Mamdani -> let v := sugeno (said j rs ws) (o_v0 o, o_v1 o) in hrd j o = out_v o (fst v) (snd v) (o_v2 o) (o_v3 o).
Proof.
  intros T. unfold heard, sugeno. cbv zeta. generalize (said j rs ws). intros l. revert o. induction l as [|p l IH]; intros o; cbn [fold_left]; [destruct o; reflexivity|].
  rewrite IH. unfold effect. destruct (fst p >? lit 0 1)%fl; [|reflexivity]. destruct (c_type c); [contradiction|reflexivity|reflexivity].
Qed.

Definition mu (j : Z) (x : X) : X := mu_from j x (lit 0 1).
Definition seen (j k : Z) (o : out A) : out A := out_value (out_xy o (nextX o k) (mu j (nextX o k))) (nextX o k).
Definition ag_ok (o : out A) : Prop := match o_ag o with None => True | Some (xs, ys) => nPoints <= zlen xs /\ nPoints <= zlen ys end.
Definition pend (m : method) (k : Z) (o : out A) : out A :=
  let o := deFuzz_compute m o in
  match o_ag o with None => o | Some (xs, ys) => out_ag o (Some (upd xs (Z.to_nat k) (o_x o), upd ys (Z.to_nat k) (o_y o))) end.
Fixpoint sweep (n : nat) (j k : Z) (o : out A) : out A :=
  match n with O => o | S n' => sweep n' j (k + 1) (pend (c_defuzz c) k (seen j k o)) end.

Lemma compute_keeps m (o : out A) : o_ag (deFuzz_compute m o) = o_ag o /\ o_min (deFuzz_compute m o) = o_min o /\ o_max (deFuzz_compute m o) = o_max o /\
  o_res (deFuzz_compute m o) = o_res o /\ o_x (deFuzz_compute m o) = o_x o /\ o_y (deFuzz_compute m o) = o_y o.
Proof. destruct m; cbn [deFuzz_compute]; try (repeat split; fail); [destruct (_ >? _)%fl; [repeat split|]; destruct (_ && _); [repeat split|]; destruct (_ <? _)%fl; repeat split|destruct (_ >=? _)%fl; repeat split|destruct (_ >=? _)%fl; repeat split]. Qed.
Lemma pend_ok m k o : ag_ok o -> 0 <= k < nPoints -> point_end m k o = Ok (pend m k o) /\ ag_ok (pend m k o).
Proof.
  unfold point_end, pend, ag_ok. intros H K. destruct (compute_keeps m o) as (E & _). rewrite E. destruct (o_ag o) as [[xs ys]|].
  - destruct H as [H1 H2]. rewrite !set_ok by lia. cbn [bind out_ag o_ag]. rewrite !zlen_upd. auto.
  - split; [reflexivity|]. rewrite E. trivial.
Qed.

Lemma points_ok n : c_type c = Mamdani -> well -> forall k f, inv f -> (forall j, ag_ok (nth j (f_out f) out_new)) -> 0 <= k -> k + Z.of_nat n <= nPoints ->
  exists f', points_loop n k f = Ok f' /\ inv f' /\ f_inMF f' = f_inMF f /\
    forall j, 0 <= j < c_nOut c -> nth (Z.to_nat j) (f_out f') out_new = sweep n j k (nth (Z.to_nat j) (f_out f) out_new).
Proof.
  intros T W. induction n as [|n IH]; intros k f I Ag Hk Hn.
  - exists f. repeat split; auto; apply I.
  - cbn [points_loop sweep]. pose proof I as (I1 & I2 & I3 & I4 & I5). rewrite I1.
    rewrite (mapn_all _ (point_init k)) by auto. cbn [bind].
    set (g := with_out f (map (point_init k) (f_out f))).
    assert (Ig : inv g) by (unfold inv, g; cbn [with_out f_cfg f_in f_wi f_outMF f_out]; repeat split; auto; unfold zlen in *; rewrite map_length; auto).
    destruct (agg_inv g W Ig) as (f1 & E1 & J1 & M1 & N1). rewrite E1. cbn [bind].
    assert (Nth : forall j, nth j (f_out f1) out_new = seen (Z.of_nat j) k (nth j (f_out f) out_new) \/ ag_ok (nth j (f_out f1) out_new) /\ (length (f_out f) <= j)%nat).
    { intros j. specialize (N1 (Z.of_nat j) ltac:(lia)). rewrite Nat2Z.id in N1. destruct (Nat.lt_ge_cases j (length (f_out f))) as [L|L].
      - left. rewrite N1. unfold g. cbn [with_out f_out]. rewrite (nth_indep _ out_new (point_init k out_new)) by (rewrite map_length; auto). rewrite map_nth.
        rewrite heard_mamdani by auto. reflexivity.
      - right. split; auto. rewrite nth_overflow; [exact Logic.I|]. destruct J1 as (_ & _ & _ & _ & J). unfold zlen in *. lia. }
    assert (Ag1 : forall j, ag_ok (nth j (f_out f1) out_new)).
    { intros j. destruct (Nth j) as [->|[Q _]]; auto. exact (Ag j). }
    rewrite (mapn_all _ (pend (c_defuzz c) k)).
    2:{ intros x Hx. destruct (In_nth _ _ out_new Hx) as (i & _ & <-). apply pend_ok; [apply Ag1|lia]. }
    2:{ apply J1. }
    cbn [bind].
    set (h := with_out f1 (map (pend (c_defuzz c) k) (f_out f1))).
    assert (Ih : inv h) by (destruct J1 as (J1 & J2 & J3 & J4 & J5); unfold inv, h; cbn [with_out f_cfg f_in f_wi f_outMF f_out]; repeat split; auto; unfold zlen in *; rewrite map_length; auto).
    assert (L1 : length (f_out f1) = length (f_out f)) by (destruct J1 as (_ & _ & _ & _ & J); unfold zlen in *; lia).
    assert (Nh : forall j, (j < length (f_out f))%nat -> nth j (f_out h) out_new = pend (c_defuzz c) k (seen (Z.of_nat j) k (nth j (f_out f) out_new))).
    { intros j L. unfold h. cbn [with_out f_out]. rewrite (nth_indep _ out_new (pend (c_defuzz c) k out_new)) by (rewrite map_length; lia). rewrite map_nth.
      destruct (Nth j) as [->|[_ Q]]; [reflexivity|lia]. }
    destruct (IH (k + 1) h Ih) as (f' & E' & I' & M' & N'); try lia.
    { intros j. destruct (Nat.lt_ge_cases j (length (f_out f))) as [L|L].
      - rewrite Nh by auto. apply pend_ok; [exact (Ag j)|lia].
      - rewrite nth_overflow; [exact Logic.I|]. unfold h. cbn [with_out f_out]. rewrite map_length. lia. }
    exists f'. split; [exact E'|]. split; auto. split; [rewrite M'; unfold h, g in *; cbn [with_out f_inMF] in *; congruence|].
    intros j Hj. rewrite N' by auto. unfold zlen in I5. rewrite Nh by lia. rewrite Z2Nat.id by lia. reflexivity.
Qed.

(** The search of the bisector. *)
Fixpoint bis (n : nat) (j k : Z) (o : out A) : out A :=
  match n with
  | O => o
  | S n' =>
      let o1 := seen j k o in
      let o2 := out_v o1 (o_v0 o1) (o_v1 o1) (o_v2 o1) (o_v3 o1 + o_y o1)%fl in
      if (o_v3 o2 >=? o_v2 o2)%fl then o2 else bis n' j (k + 1) o2
  end.
(** Equal but for y. *)
Definition like (o o' : out A) : Prop := out_xy o (o_x o) (lit 0 1) = out_xy o' (o_x o') (lit 0 1).
Lemma like_refl o : like o o. Proof. reflexivity. Qed.
Lemma like_heard j o : c_type c = Mamdani -> like (hrd j o) o.
Proof. intros T. rewrite heard_mamdani by auto. reflexivity. Qed.
Lemma like_trans a b d : like a b -> like b d -> like a d. Proof. unfold like. congruence. Qed.

Lemma bisect_ok n : c_type c = Mamdani -> well -> forall k j f, inv f -> 0 <= j < c_nOut c ->
  exists f', bisect n k j f = Ok f' /\ inv f' /\ f_inMF f' = f_inMF f /\ nth (Z.to_nat j) (f_out f') out_new = bis n j k (nth (Z.to_nat j) (f_out f) out_new) /\
    forall i, i <> Z.to_nat j -> like (nth i (f_out f') out_new) (nth i (f_out f) out_new).
Proof.
  intros T W. induction n as [|n IH]; intros k j f I Hj.
  - exists f. split; [reflexivity|]. repeat split; auto; apply I.
  - cbn [bisect bis]. pose proof I as (I1 & I2 & I3 & I4 & I5). rewrite (get_ok_nth _ _ out_new) by lia. cbn [bind].
    set (o := nth (Z.to_nat j) (f_out f) out_new). rewrite set_ok by lia. cbn [bind].
    set (g := with_out f _).
    assert (Ig : inv g) by (unfold inv, g; cbn [with_out f_cfg f_in f_wi f_outMF f_out]; repeat split; auto; rewrite zlen_upd; auto).
    destruct (agg_inv g W Ig) as (f1 & E1 & J1 & M1 & N1). rewrite E1. cbn [bind].
    pose proof J1 as (J11 & J12 & J13 & J14 & J15).
    rewrite (get_ok_nth _ _ out_new) by lia. cbn [bind].
    assert (No : nth (Z.to_nat j) (f_out f1) out_new = seen j k o).
    { rewrite N1 by lia. unfold g. cbn [with_out f_out]. rewrite nth_upd_eq by (unfold zlen in *; lia). rewrite heard_mamdani by auto. reflexivity. }
    rewrite No. rewrite set_ok by lia. cbn [bind]. set (o2 := out_v _ _ _ _ _).
    set (h := with_out f1 _).
    assert (Ih : inv h) by (unfold inv, h; cbn [with_out f_cfg f_in f_wi f_outMF f_out]; repeat split; auto; rewrite zlen_upd; auto).
    assert (Nh : nth (Z.to_nat j) (f_out h) out_new = o2) by (unfold h; cbn [with_out f_out]; apply nth_upd_eq; unfold zlen in *; lia).
    assert (Lh : forall i, i <> Z.to_nat j -> like (nth i (f_out h) out_new) (nth i (f_out f) out_new)).
    { intros i Hi. unfold h. cbn [with_out f_out]. rewrite nth_upd_ne by auto. specialize (N1 (Z.of_nat i) ltac:(lia)). rewrite Nat2Z.id in N1. rewrite N1.
      eapply like_trans; [apply like_heard; auto|]. unfold g. cbn [with_out f_out]. rewrite nth_upd_ne by auto. apply like_refl. }
    assert (Mh : f_inMF h = f_inMF f) by (unfold h, g in *; cbn [with_out f_inMF] in *; congruence).
    destruct (o_v3 o2 >=? o_v2 o2)%fl.
    + exists h. repeat split; auto; apply Ih.
    + destruct (IH (k + 1) j h Ih Hj) as (f' & E' & I' & M' & N' & L'). exists f'. split; [exact E'|]. split; auto. split; [congruence|]. rewrite N', Nh. split; auto.
      intros i Hi. eapply like_trans; [apply L'; auto|apply Lh; auto].
Qed.

(** The crisp value before it is clipped. *)
Definition crisp (j : Z) (o : out A) : X :=
  match c_defuzz c with
  | bisector => o_x (bis (Z.to_nat nPoints) j 0 (out_v o (o_v0 o) (o_v1 o) (lit 1 2 * o_v1 o)%fl (lit 0 1)))
  | m => deFuzz_end m o
  end.
Lemma bis_like n : forall j k o o', like o o' -> like (bis n j k o) (bis n j k o') /\ (n <> O -> bis n j k o = bis n j k o').
Proof.
  induction n as [|n IH]; intros j k o o' L; [split; [exact L|congruence]|]. cbn [bis].
  assert (E : seen j k o = seen j k o').
  { unfold like in L. destruct o, o'. cbn in L. injection L. intros; subst. reflexivity. }
  rewrite E. split; reflexivity.
Qed.
Lemma crisp_like j o o' : like o o' -> crisp j o = crisp j o'.
Proof.
  intros L. unfold crisp. assert (K : like (out_v o (o_v0 o) (o_v1 o) (lit 1 2 * o_v1 o)%fl (lit 0 1)) (out_v o' (o_v0 o') (o_v1 o') (lit 1 2 * o_v1 o')%fl (lit 0 1)) /\ forall m, deFuzz_end m o = deFuzz_end m o').
  { unfold like in L. destruct o, o'. cbn in L. injection L. intros; subst. split; [reflexivity|intros []; reflexivity]. }
  destruct K as [K1 K2]. destruct (c_defuzz c); try apply K2. apply (f_equal (@o_x A)). assert (NZ : Z.to_nat nPoints <> O) by discriminate. revert NZ. generalize (Z.to_nat nPoints). intros n NZ. apply bis_like; auto.
Qed.

Lemma finish_ok n : (c_defuzz c = bisector -> c_type c = Mamdani) -> well -> forall j f, inv f -> 0 <= j -> j + Z.of_nat n <= c_nOut c ->
  exists f', finish_loop n j f = Ok f' /\ inv f' /\ f_inMF f' = f_inMF f /\
    (forall i, (i < Z.to_nat j \/ Z.to_nat j + n <= i)%nat -> like (nth i (f_out f') out_new) (nth i (f_out f) out_new)) /\
    (forall i, j <= i < j + Z.of_nat n -> let o := nth (Z.to_nat i) (f_out f) out_new in o_value (nth (Z.to_nat i) (f_out f') out_new) = bound (crisp i o) (o_min o) (o_max o)) /\
    (forall i, o_ag (nth i (f_out f') out_new) = o_ag (nth i (f_out f) out_new)).
Proof.
  intros T W. induction n as [|n IH]; intros j f I Hj Hn.
  - exists f. repeat split; auto; try (apply I); intros; lia.
  - cbn [finish_loop].
    assert (E : exists v g, deFuzz_END j f = Ok (v, g) /\ inv g /\ f_inMF g = f_inMF f /\ v = crisp j (nth (Z.to_nat j) (f_out f) out_new) /\
      rng (nth (Z.to_nat j) (f_out g) out_new) = rng (nth (Z.to_nat j) (f_out f) out_new) /\
      (forall i, i <> Z.to_nat j -> like (nth i (f_out g) out_new) (nth i (f_out f) out_new)) /\ o_ag (nth (Z.to_nat j) (f_out g) out_new) = o_ag (nth (Z.to_nat j) (f_out f) out_new)).
    { pose proof I as (I1 & I2 & I3 & I4 & I5). unfold deFuzz_END, crisp. rewrite (get_ok_nth _ _ out_new) by lia. cbn [bind]. rewrite I1.
      set (o := nth (Z.to_nat j) (f_out f) out_new).
      destruct (c_defuzz c) eqn:Em; try (eexists; exists f; split; [reflexivity|]; repeat split; auto; fail).
      rewrite set_ok by lia. cbn [bind]. set (g0 := with_out f _).
      assert (Ig : inv g0) by (unfold inv, g0; cbn [with_out f_cfg f_in f_wi f_outMF f_out]; repeat split; auto; rewrite zlen_upd; auto).
      destruct (bisect_ok (Z.to_nat nPoints) (T eq_refl) W 0 j g0 Ig ltac:(lia)) as (f1 & E1 & J1 & M1 & N1 & L1). rewrite E1. cbn [bind].
      pose proof J1 as (_ & _ & _ & _ & J15). rewrite (get_ok_nth _ _ out_new) by lia. cbn [bind].
      assert (N0 : nth (Z.to_nat j) (f_out g0) out_new = out_v o (o_v0 o) (o_v1 o) (lit 1 2 * o_v1 o)%fl (lit 0 1)) by (unfold g0; cbn [with_out f_out]; apply nth_upd_eq; unfold zlen in *; lia).
      rewrite N0 in N1.
      eexists; exists f1; split; [reflexivity|]. split; auto. split; [exact M1|]. split; [rewrite N1; reflexivity|].
      assert (Bk : forall n k o, rng (bis n j k o) = rng o /\ o_ag (bis n j k o) = o_ag o).
      { clear. induction n as [|n IH]; intros k o; [split; reflexivity|]. cbn [bis]. destruct (_ >=? _)%fl; [split; reflexivity|]. destruct (IH (k + 1) (out_v (seen j k o) (o_v0 (seen j k o)) (o_v1 (seen j k o)) (o_v2 (seen j k o)) (o_v3 (seen j k o) + o_y (seen j k o))%fl)) as [-> ->]. split; reflexivity. }
      destruct (Bk (Z.to_nat nPoints) 0 (out_v o (o_v0 o) (o_v1 o) (lit 1 2 * o_v1 o)%fl (lit 0 1))) as [B1 B2].
      split; [rewrite N1; exact B1|]. split; [|rewrite N1; exact B2].
      intros i Hi. eapply like_trans; [apply L1; auto|]. unfold g0. cbn [with_out f_out]. rewrite nth_upd_ne by auto. apply like_refl. }
    destruct E as (v & g & E & Ig & Mg & Ev & Er & El & Ea). rewrite E. cbn [bind fst snd].
    pose proof Ig as (_ & _ & _ & _ & I5). rewrite (get_ok_nth _ _ out_new) by lia. cbn [bind]. rewrite set_ok by lia. cbn [bind].
    set (og := nth (Z.to_nat j) (f_out g) out_new) in *. set (h := with_out g _).
    assert (Ih : inv h) by (destruct Ig as (K1 & K2 & K3 & K4 & K5); unfold inv, h; cbn [with_out f_cfg f_in f_wi f_outMF f_out]; repeat split; auto; rewrite zlen_upd; auto).
    destruct (IH (j + 1) h Ih ltac:(lia) ltac:(lia)) as (f' & E' & I' & M' & L' & V' & A').
    assert (Nh : nth (Z.to_nat j) (f_out h) out_new = out_value og (bound v (o_min og) (o_max og))) by (unfold h; cbn [with_out f_out]; apply nth_upd_eq; unfold zlen in *; lia).
    assert (Oh : forall i, i <> Z.to_nat j -> nth i (f_out h) out_new = nth i (f_out g) out_new) by (intros; unfold h; cbn [with_out f_out]; apply nth_upd_ne; auto).
    exists f'. split; [exact E'|]. split; auto. split; [rewrite M'; unfold h; cbn [with_out f_inMF]; exact Mg|]. split; [|split].
    + intros i Hi. eapply like_trans; [apply L'; lia|]. rewrite Oh by lia. apply El. lia.
    + intros i Hi. cbv zeta. destruct (Z.eq_dec i j) as [->|N].
      * specialize (L' (Z.to_nat j) ltac:(lia)). rewrite Nh in L'.
        assert (Q : o_value (nth (Z.to_nat j) (f_out f') out_new) = bound v (o_min og) (o_max og)).
        { unfold like in L'. apply (f_equal (@o_value A)) in L'. exact L'. }
        rewrite Q, Ev. unfold rng in Er. injection Er as -> ->. reflexivity.
      * rewrite V' by lia. rewrite Oh by lia. specialize (El (Z.to_nat i) ltac:(lia)). cbv zeta. rewrite (crisp_like i _ _ El).
        unfold like in El. pose proof (f_equal (@o_min A) El) as Q1. pose proof (f_equal (@o_max A) El) as Q2. cbn [out_xy o_min o_max] in Q1, Q2. rewrite Q1, Q2. reflexivity.
    + intros i. rewrite A'. destruct (Nat.eq_dec i (Z.to_nat j)) as [->|N].
      * rewrite Nh. cbn [out_value o_ag]. exact Ea.
      * rewrite Oh by auto. specialize (El i N). exact (f_equal (@o_ag A) El).
Qed.

(** deFuzzify of a Mamdani system. *)
Lemma mamdani_ok f : c_type c = Mamdani -> c_ready c = true -> well -> inv f -> (forall j, ag_ok (nth j (f_out f) out_new)) -> 0 <= c_nOut c ->
  exists f', deFuzzify f = Ok (true, f') /\ inv f' /\
    forall j, 0 <= j < c_nOut c -> let o := sweep (Z.to_nat nPoints) j 0 (deFuzz_init (c_defuzz c) (nth (Z.to_nat j) (f_out f) out_new)) in
      o_value (nth (Z.to_nat j) (f_out f') out_new) = bound (crisp j o) (o_min o) (o_max o) /\ o_ag (nth (Z.to_nat j) (f_out f') out_new) = o_ag o.
Proof.
  intros T R W I Ag Hn. unfold deFuzzify. pose proof I as (I1 & I2 & I3 & I4 & I5). rewrite I1, R.
  rewrite (mapn_all _ (deFuzz_init (c_defuzz c))) by auto. cbn [bind with_out f_cfg]. rewrite I1, T.
  set (g := with_out f _).
  assert (Ig : inv g) by (unfold inv, g; cbn [with_out f_cfg f_in f_wi f_outMF f_out]; repeat split; auto; unfold zlen in *; rewrite map_length; auto).
  assert (Ng : forall j, (j < length (f_out f))%nat -> nth j (f_out g) out_new = deFuzz_init (c_defuzz c) (nth j (f_out f) out_new)).
  { intros j L. unfold g. cbn [with_out f_out]. rewrite (nth_indep _ out_new (deFuzz_init (c_defuzz c) out_new)) by (rewrite map_length; lia). apply map_nth. }
  assert (Agg : forall j, ag_ok (nth j (f_out g) out_new)).
  { intros j. destruct (Nat.lt_ge_cases j (length (f_out f))) as [L|L].
    - rewrite Ng by auto. specialize (Ag j). unfold ag_ok in *. destruct (c_defuzz c); exact Ag.
    - rewrite nth_overflow; [exact Logic.I|]. unfold g. cbn [with_out f_out]. rewrite map_length. lia. }
  destruct (points_ok (Z.to_nat nPoints) T W 0 g Ig Agg ltac:(lia) ltac:(unfold nPoints; lia)) as (f1 & E1 & J1 & M1 & N1). rewrite E1. cbn [bind].
  destruct (finish_ok (Z.to_nat (c_nOut c)) (fun _ => T) W 0 f1 J1 ltac:(lia) ltac:(lia)) as (f2 & E2 & J2 & M2 & L2 & V2 & A2). rewrite E2. cbn [bind].
  exists f2. split; [reflexivity|]. split; auto. intros j Hj. specialize (V2 j ltac:(lia)). cbv zeta in *. rewrite V2, A2. unfold zlen in I5. rewrite N1, Ng by lia. split; reflexivity.
Qed.

(** deFuzzify of a Sugeno or Tsukamoto system. *)
Lemma sugeno_ok f : c_type c <> Mamdani -> c_defuzz c = wtaver \/ c_defuzz c = wtsum -> c_ready c = true -> well -> inv f -> 0 <= c_nOut c ->
  exists f', deFuzzify f = Ok (true, f') /\ inv f' /\
    forall j, 0 <= j < c_nOut c -> let o := nth (Z.to_nat j) (f_out f) out_new in let v := sugeno (said j rs ws) (lit 0 1, lit 0 1) in
      o_value (nth (Z.to_nat j) (f_out f') out_new) = bound (match c_defuzz c with wtsum => fst v | _ => (fst v / snd v)%fl end) (o_min o) (o_max o).
Proof.
  intros T Hm R W I Hn. unfold deFuzzify. pose proof I as (I1 & I2 & I3 & I4 & I5). rewrite I1, R.
  rewrite (mapn_all _ (fun o => o)); [|intros x _; destruct Hm as [-> | ->]; reflexivity|auto]. rewrite map_id. cbn [bind].
  change (f_cfg (with_out f (f_out f))) with (f_cfg f). rewrite I1.
  assert (Z0 : forall l : list (out A), zlen l = c_nOut c -> mapn (Z.to_nat (c_nOut c)) (fun o => Ok (out_v o (lit 0 1) (lit 0 1) (o_v2 o) (o_v3 o))) l = Ok (map (fun o => out_v o (lit 0 1) (lit 0 1) (o_v2 o) (o_v3 o)) l)) by (intros; apply mapn_all; auto).
  assert (Z1 : forall l : list (out A), zlen l = c_nOut c -> mapn (Z.to_nat (c_nOut c)) (fun o => Ok (deFuzz_compute (c_defuzz c) o)) l = Ok l).
  { intros l L. rewrite (mapn_all _ (fun o => o)); [now rewrite map_id|intros x _; destruct Hm as [-> | ->]; reflexivity|auto]. }
  set (g := with_out f (map (fun o => out_v o (lit 0 1) (lit 0 1) (o_v2 o) (o_v3 o)) (f_out f))).
  assert (Ig : inv g) by (unfold inv, g; cbn [with_out f_cfg f_in f_wi f_outMF f_out]; repeat split; auto; unfold zlen in *; rewrite map_length; auto).
  destruct (agg_inv g W Ig) as (f1 & E1 & J1 & M1 & N1).
  assert (P : forall k : fis A -> res (bool * fis A), (f3 <- match c_type c with
     | Mamdani => points_loop (Z.to_nat nPoints) 0 (with_out f (f_out f))
     | _ => lo <- mapn (Z.to_nat (c_nOut c)) (fun o => Ok (out_v o (lit 0 1) (lit 0 1) (o_v2 o) (o_v3 o))) (f_out (with_out f (f_out f))) ;;
            f1 <- fuzzyAggregate (with_out (with_out f (f_out f)) lo) ;;
            lo0 <- mapn (Z.to_nat (c_nOut c)) (fun o => Ok (deFuzz_compute (c_defuzz c) o)) (f_out f1) ;; Ok (with_out f1 lo0)
     end ;; k f3) = k (with_out f1 (f_out f1))).
  { intros k. change (f_out (with_out f (f_out f))) with (f_out f). destruct (c_type c); [contradiction| |];
      rewrite Z0 by auto; cbn [bind]; (match goal with |- context [fuzzyAggregate ?x] => change x with g end); rewrite E1; cbn [bind]; rewrite Z1 by apply J1; reflexivity. }
  rewrite P. assert (F1 : with_out f1 (f_out f1) = f1) by (destruct f1; reflexivity). rewrite F1.
  destruct (finish_ok (Z.to_nat (c_nOut c)) (fun H => match Hm with or_introl H' => ltac:(congruence) | or_intror H' => ltac:(congruence) end) W 0 f1 J1 ltac:(lia) ltac:(lia)) as (f2 & E2 & J2 & M2 & L2 & V2 & A2). rewrite E2. cbn [bind].
  exists f2. split; [reflexivity|]. split; auto. intros j Hj. specialize (V2 j ltac:(lia)). cbv zeta in *. rewrite V2. rewrite N1 by lia.
  unfold g. cbn [with_out f_out].
  set (z := fun o : out A => out_v o (lit 0 1) (lit 0 1) (o_v2 o) (o_v3 o)).
  rewrite (nth_indep _ out_new (z out_new)) by (rewrite map_length; unfold zlen in *; lia). rewrite (map_nth z).
  set (o := nth (Z.to_nat j) (f_out f) out_new). rewrite heard_sugeno by auto. cbv zeta. unfold z. cbn [out_v o_v0 o_v1 o_v2 o_v3 o_min o_max].
  f_equal. unfold crisp. destruct Hm as [-> | ->]; reflexivity.
Qed.
End Value.
