(** The defuzzification methods over the sample points, in exact arithmetic. *)
From Coq Require Import ZArith List Bool Lia Reals Lra Psatz.
From Verif Require Import Base BaseLemmas Arith ArithLemmas Ltisys_Proofs2 Interp1_Model FisCore_Model FisRules_Spec Fis_Spec FisCore_Proofs Fis_Model FisSys_Spec Fis_Proofs Fis_Proofs3 Fis_Proofs4.
Import ListNotations.
Open Scope R_scope.

Section Gen.
Context {A : arith}.
Notation X := (F A).
Definition vs (o : out A) : X * X * X * X := (o_v0 o, o_v1 o, o_v2 o, o_v3 o).
Definition put (v : X * X * X * X) (x y : X) : out A := match v with (a, b, d, e) => out_v (out_xy out_new x y) a b d e end.
Definition cv (m : method) (v : X * X * X * X) (x y : X) : X * X * X * X := vs (deFuzz_compute m (put v x y)).
Lemma cv_ok m (o : out A) : vs (deFuzz_compute m o) = cv m (vs o) (o_x o) (o_y o).
Proof.
  destruct o; unfold cv, vs, put; cbn. destruct m; cbn; try reflexivity.
  - destruct (_ >? _)%fl; [reflexivity|]. destruct (_ && _); [reflexivity|]. destruct (_ <? _)%fl; reflexivity.
  - destruct (_ >=? _)%fl; reflexivity.
  - destruct (_ >=? _)%fl; reflexivity.
Qed.
Lemma pend_vs m k (o : out A) : vs (pend m k o) = cv m (vs o) (o_x o) (o_y o) /\ o_min (pend m k o) = o_min o /\ o_max (pend m k o) = o_max o /\ o_res (pend m k o) = o_res o.
Proof.
  unfold pend. rewrite <- cv_ok. destruct (compute_keeps m o) as (E & E1 & E2 & E3 & _). destruct (o_ag (deFuzz_compute m o)) as [[xs ys]|]; cbn [out_ag o_min o_max o_res]; rewrite ?E1, ?E2, ?E3; repeat split.
Qed.
Variables (c : config A) (D : Z -> X -> X) (rs : list rule) (ws : list X).
Lemma nextX_same (o o' : out A) k : o_min o = o_min o' -> o_res o = o_res o' -> nextX o k = nextX o' k.
Proof. unfold nextX. intros -> ->. reflexivity. Qed.
Lemma sweep_vs n : forall j k (o : out A),
  vs (sweep c D rs ws n j k o) = fold_left (fun v x => cv (c_defuzz c) v x (mu c D rs ws j x)) (map (fun i => nextX o (k + Z.of_nat i)) (seq 0 n)) (vs o) /\
  o_min (sweep c D rs ws n j k o) = o_min o /\ o_max (sweep c D rs ws n j k o) = o_max o /\ o_res (sweep c D rs ws n j k o) = o_res o.
Proof.
  induction n as [|n IH]; intros j k o; [repeat split|]. cbn [sweep seq map fold_left].
  destruct (pend_vs (c_defuzz c) k (seen c D rs ws j k o)) as (P0 & P1 & P2 & P3).
  destruct (IH j (k + 1)%Z (pend (c_defuzz c) k (seen c D rs ws j k o))) as (I0 & I1 & I2 & I3). rewrite I0, I1, I2, I3, P0, P1, P2, P3.
  split; [|repeat split]. cbn [seen out_value out_xy o_x o_y]. replace (k + Z.of_nat 0)%Z with k by lia.
  rewrite <- seq_shift, map_map. f_equal. apply map_ext. intros i. replace (k + Z.of_nat (S i))%Z with (k + 1 + Z.of_nat i)%Z by lia. apply nextX_same; assumption.
Qed.
(** The bisector search as a walk over the points. *)
Fixpoint walk (half acc : X) (last : X) (pts : list X) (g : X -> X) : X :=
  match pts with
  | [] => last
  | x :: t => let acc := (acc + g x)%fl in if (acc >=? half)%fl then x else walk half acc x t g
  end.
Lemma bis_walk n : forall j k (o : out A),
  o_x (bis c D rs ws n j k o) = walk (o_v2 o) (o_v3 o) (o_x o) (map (fun i => nextX o (k + Z.of_nat i)) (seq 0 n)) (mu c D rs ws j).
Proof.
  induction n as [|n IH]; intros j k o; [reflexivity|]. cbn [bis seq map walk]. replace (k + Z.of_nat 0)%Z with k by lia.
  cbn [out_v o_v2 o_v3 seen out_value out_xy o_x o_y o_v0 o_v1]. destruct (_ >=? _)%fl; [reflexivity|].
  rewrite IH. cbn [out_v o_v2 o_v3 seen out_value out_xy o_x o_y]. rewrite <- seq_shift, map_map. f_equal. apply map_ext. intros i.
  replace (k + Z.of_nat (S i))%Z with (k + 1 + Z.of_nat i)%Z by lia. apply nextX_same; reflexivity.
Qed.
(** The stored region. *)
Lemma sweep_ag n : forall j k (o : out A) xs ys, (0 <= k)%Z -> o_ag o = Some (xs, ys) -> (k + Z.of_nat n <= zlen xs)%Z -> (k + Z.of_nat n <= zlen ys)%Z ->
  exists xs' ys', o_ag (sweep c D rs ws n j k o) = Some (xs', ys') /\ zlen xs' = zlen xs /\ zlen ys' = zlen ys /\
    forall i, (i < n)%nat -> nth (Z.to_nat k + i) xs' (lit 0 1) = nextX o (k + Z.of_nat i) /\ nth (Z.to_nat k + i) ys' (lit 0 1) = mu c D rs ws j (nextX o (k + Z.of_nat i)).
Proof.
  assert (K : forall n j k (o : out A) xs ys p, o_ag o = Some (xs, ys) -> (Z.of_nat p < k)%Z -> (0 <= k)%Z ->
     exists xs' ys', o_ag (sweep c D rs ws n j k o) = Some (xs', ys') /\ nth p xs' (lit 0 1) = nth p xs (lit 0 1) /\ nth p ys' (lit 0 1) = nth p ys (lit 0 1)).
  { clear. induction n as [|n IH]; intros j k o xs ys p E Hp Hk; [exists xs, ys; auto|]. cbn [sweep].
    edestruct (IH j (k + 1)%Z (pend (c_defuzz c) k (seen c D rs ws j k o))) as (xs' & ys' & E' & X1 & X2); [|instantiate (1 := p); lia|lia|].
    - unfold pend. destruct (compute_keeps (c_defuzz c) (seen c D rs ws j k o)) as (E0 & _). rewrite E0. cbn [seen out_value out_xy o_ag]. rewrite E. reflexivity.
    - exists xs', ys'. split; auto. rewrite X1, X2. rewrite !nth_upd_ne by lia. auto. }
  induction n as [|n IH]; intros j k o xs ys Hk E L1 L2; [exists xs, ys; repeat split; auto; lia|]. cbn [sweep].
  set (o1 := pend (c_defuzz c) k (seen c D rs ws j k o)).
  assert (E1 : o_ag o1 = Some (upd xs (Z.to_nat k) (nextX o k), upd ys (Z.to_nat k) (mu c D rs ws j (nextX o k)))).
  { unfold o1, pend. destruct (compute_keeps (c_defuzz c) (seen c D rs ws j k o)) as (E0 & _ & _ & _ & Ex & Ey). rewrite E0, Ex, Ey. cbn [seen out_value out_xy o_ag o_x o_y]. rewrite E. reflexivity. }
  edestruct (IH j (k + 1)%Z o1) as (xs' & ys' & E' & Lx & Ly & N'); [lia|exact E1|rewrite zlen_upd; lia|rewrite zlen_upd; lia|].
  rewrite !zlen_upd in Lx, Ly. exists xs', ys'. split; auto. split; auto. split; auto.
  destruct (pend_vs (c_defuzz c) k (seen c D rs ws j k o)) as (_ & P1 & _ & P3). fold o1 in P1, P3.
  intros [|i] Hi.
  - edestruct (K n j (k + 1)%Z o1) as (xs2 & ys2 & E2 & X1 & X2); [exact E1|instantiate (1 := Z.to_nat k); lia|lia|].
    assert (Some (xs', ys') = Some (xs2, ys2)) by congruence. injection H as -> ->. rewrite Nat.add_0_r. replace (k + Z.of_nat 0)%Z with k by lia. rewrite X1, X2. unfold zlen in *. rewrite !nth_upd_eq by lia. auto.
  - specialize (N' i ltac:(lia)). replace (Z.to_nat k + S i)%nat with (Z.to_nat (k + 1) + i)%nat by lia. replace (k + Z.of_nat (S i))%Z with (k + 1 + Z.of_nat i)%Z by lia.
    rewrite (nextX_same o o1) by (symmetry; assumption). exact N'.
Qed.
End Gen.

(** ** Exact arithmetic *)

Lemma centroid_fold (g : R -> R) pts : forall v0 v1 v2 v3 : R,
  fold_left (fun v x => cv (A := RA) centroid v x (g x)) pts (v0, v1, v2, v3) = (v0 + lsum (fun x => x * g x) pts, v1 + lsum g pts, v2, v3).
Proof.
  induction pts as [|x pts IH]; intros; cbn [fold_left lsum]; [rewrite !Rplus_0_r; reflexivity|].
  change (cv (A := RA) centroid (v0, v1, v2, v3) x (g x)) with (v0 + x * g x, v1 + g x, v2, v3). rewrite IH, !Rplus_assoc. reflexivity.
Qed.
Lemma bisector_fold (g : R -> R) pts : forall v0 v1 v2 v3 : R,
  fold_left (fun v x => cv (A := RA) bisector v x (g x)) pts (v0, v1, v2, v3) = (v0, v1 + lsum g pts, v2, v3).
Proof.
  induction pts as [|x pts IH]; intros; cbn [fold_left lsum]; [rewrite !Rplus_0_r; reflexivity|].
  change (cv (A := RA) bisector (v0, v1, v2, v3) x (g x)) with (v0, v1 + g x, v2, v3). rewrite IH, !Rplus_assoc. reflexivity.
Qed.

(** The largest of the maxima: [v0] the height so far, [v2] where. *)
Lemma lom_step (m : method) (v0 v1 v2 v3 x y : R) : m = lom \/ m = som ->
  cv (A := RA) m (v0, v1, v2, v3) x y = if Rle_dec v0 y then (y, v1, x, v3) else (v0, v1, v2, v3).
Proof.
  intros [-> | ->]; unfold cv, put, vs; cbn; unfold Rleb; destruct (Rle_dec v0 y); reflexivity.
Qed.
Lemma lom_fold (g : R -> R) m pts : m = lom \/ m = som -> forall v0 v1 v2 v3 : R,
  (forall x, In x pts -> 0 <= g x) -> v0 = -1 \/ v0 = g v2 ->
  pts <> [] \/ v0 = g v2 ->
  exists x, fold_left (fun v x => cv (A := RA) m v x (g x)) pts (v0, v1, v2, v3) = (g x, v1, x, v3) /\
    v0 <= g x /\ (forall z, In z pts -> g z <= g x) /\
    ((exists l1 l2, pts = l1 ++ x :: l2 /\ forall z, In z l2 -> g z < g x) \/ (x = v2 /\ v0 = g v2 /\ forall z, In z pts -> g z < g x)).
Proof.
  intros Hm. induction pts as [|y pts IH]; intros v0 v1 v2 v3 Hp Hv Hn.
  - destruct Hn as [Hn|Hn]; [congruence|]. exists v2. cbn [fold_left]. rewrite <- Hn. split; [reflexivity|]. split; [lra|]. split; [intros z []|]. right. repeat split; auto. intros z [].
  - cbn [fold_left]. rewrite lom_step by auto.
    assert (Gy : 0 <= g y) by (apply Hp; now left).
    destruct (Rle_dec v0 (g y)) as [L|L].
    + destruct (IH (g y) v1 y v3) as (x & E & B1 & B2 & B3); auto; [intros; apply Hp; now right|].
      exists x. split; auto. split; [lra|]. split; [intros z [<-|Hz]; auto|].
      destruct B3 as [(l1 & l2 & -> & B3)|(-> & _ & B3)].
      * left. exists (y :: l1), l2. auto.
      * left. exists [], pts. auto.
    + assert (Hv2 : v0 = g v2) by (destruct Hv; [lra|auto]).
      destruct (IH v0 v1 v2 v3) as (x & E & B1 & B2 & B3); auto; [intros; apply Hp; now right|].
      exists x. split; auto. split; auto. split; [intros z [<-|Hz]; auto; lra|].
      destruct B3 as [(l1 & l2 & -> & B3)|(-> & _ & B3)].
      * left. exists (y :: l1), l2. auto.
      * right. repeat split; auto. intros z [<-|Hz]; auto. lra.
Qed.

(** The bisector: the first point where half the area is reached. *)
Lemma walk_ok (g : R -> R) half pts : forall acc last, acc + lsum g pts >= half -> pts <> [] ->
  exists l1 x l2, pts = l1 ++ x :: l2 /\ walk (A := RA) half acc last pts g = x /\ acc + lsum g (l1 ++ [x]) >= half /\
    forall p q, l1 = p ++ q -> p <> [] -> acc + lsum g p < half.
Proof.
  induction pts as [|x pts IH]; intros acc last H Hn; [congruence|]. cbn [walk lsum] in *.
  change (fle (a := RA)) with Rleb. change (fadd (a := RA)) with Rplus. cbv zeta. unfold Rleb.
  destruct (Rle_dec half (acc + g x)) as [L|L].
  - exists [], x, pts. split; [reflexivity|]. split; [reflexivity|]. split; [cbn [app lsum]; lra|]. intros p q E. destruct p; [congruence|discriminate].
  - destruct pts as [|y pts']; [cbn [lsum] in H; lra|]. destruct (IH (acc + g x) x) as (l1 & z & l2 & E & W & B & P); [lra|discriminate|].
    exists (x :: l1), z, l2. split; [rewrite E; reflexivity|]. split; [exact W|]. split; [cbn [app lsum]; lra|].
    intros p q Ep Np. destruct p as [|p0 p]; [congruence|]. cbn [app] in Ep. injection Ep as <- Ep. cbn [lsum].
    destruct p as [|p1 p]; [cbn [lsum]; lra|]. specialize (P (p1 :: p) q Ep ltac:(discriminate)). lra.
Qed.

Definition mom_inv (g : R -> R) (pts : list R) (v : R * R * R * R) : Prop :=
  exists l1 a mid rest s, v = (g a, a, last mid a, s) /\ pts = l1 ++ (a :: mid) ++ rest /\ (forall z, In z l1 -> g z < g a) /\ (forall z, In z pts -> g z <= g a) /\
    (forall z, In z (a :: mid) -> g a - / 2 ^ 126 <= g z) /\ (forall z t, rest = z :: t -> g z < g a - / 2 ^ 126) /\ (s = 1 /\ rest = [] \/ s = -1 /\ rest <> []).
Lemma eps_pos : 0 < / 2 ^ 126. Proof. apply Rinv_0_lt_compat, pow_lt. lra. Qed.
Lemma last_snoc {B} (l : list B) x d : last (l ++ [x]) d = x.
Proof. induction l as [|y l IH]; [reflexivity|]. cbn [app last]. destruct (l ++ [x]) eqn:E; [destruct l; discriminate|exact IH]. Qed.
Lemma isEqual_R (u v : R) : isEqual (A := RA) u v = if Rle_dec (Rabs (u - v)) (/ 2 ^ 126) then true else false.
Proof. 
  unfold isEqual. change (fabs (a := RA)) with Rabs. change (fsub (a := RA)) with Rminus. change (fle (a := RA)) with Rleb. unfold Rleb.
  change (real_min (a := RA)) with (/ 2 ^ 126). rewrite (Rabs_pos_eq (/ 2 ^ 126)) by (apply Rlt_le, eps_pos). reflexivity.
Qed.
Lemma mom_step (v0 v1 v2 v3 x y : R) :
  cv (A := RA) mom (v0, v1, v2, v3) x y =
  if Rlt_dec v0 y then (y, x, x, 1) else if Rle_dec (Rabs (y - v0)) (/ 2 ^ 126) then if Rlt_dec 0 v3 then (v0, v1, x, v3) else if Rlt_dec y v0 then (v0, v1, v2, -1) else (v0, v1, v2, v3)
  else if Rlt_dec y v0 then (v0, v1, v2, -1) else (v0, v1, v2, v3).
Proof.
  unfold cv, put, vs. cbn [deFuzz_compute out_v out_xy out_new o_y o_x o_v0 o_v1 o_v2 o_v3]. rewrite isEqual_R.
  change (flt (a := RA)) with Rltb. unfold Rltb.
  change (lit (a := RA) 0 1) with (0 / 1). change (lit (a := RA) 1 1) with (1 / 1). change (lit (a := RA) (-1) 1) with (-1 / 1).
  replace (0 / 1) with 0 by field. replace (1 / 1) with 1 by field. replace (-1 / 1) with (-1) by field.
  destruct (Rlt_dec v0 y); [reflexivity|]. destruct (Rle_dec (Rabs (y - v0)) (/ 2 ^ 126)); cbn [andb]; [destruct (Rlt_dec 0 v3); cbn [andb]; [reflexivity|]|]; destruct (Rlt_dec y v0); reflexivity.
Qed.
Lemma mom_inv_step g pts v x : mom_inv g pts v -> mom_inv g (pts ++ [x]) (cv (A := RA) mom v x (g x)).
Proof.
  intros (l1 & a & mid & rest & s & -> & E & H1 & H2 & H3 & H4 & H5). pose proof eps_pos as EP. rewrite mom_step.
  destruct (Rlt_dec (g a) (g x)) as [L|L].
  - exists pts, x, [], [], 1. repeat split; auto.
    + intros z Hz. specialize (H2 z Hz). lra.
    + intros z Hz. apply in_app_or in Hz. destruct Hz as [Hz|[<-|[]]]; [specialize (H2 z Hz); lra|lra].
    + intros z [<-|[]]. lra.
    + intros z t K. discriminate.
  - assert (H2' : forall z, In z (pts ++ [x]) -> g z <= g a) by (intros z Hz; apply in_app_or in Hz; destruct Hz as [Hz|[<-|[]]]; [auto|lra]).
    assert (Drop : g x < g a - / 2 ^ 126 \/ rest <> [] -> mom_inv g (pts ++ [x]) (g a, a, last mid a, -1)).
    { intros Hd. exists l1, a, mid, (rest ++ [x]), (-1). split; [reflexivity|]. split; [rewrite E, <- !app_assoc; reflexivity|]. repeat split; auto.
      - intros z t K. destruct rest as [|r0 rest]; cbn [app] in K; injection K as <- _; [destruct Hd as [Hd|Hd]; [exact Hd|congruence]|apply (H4 r0 rest eq_refl)].
      - right. split; auto. destruct rest; discriminate. }
    destruct (Rle_dec (Rabs (g x - g a)) (/ 2 ^ 126)) as [Q|Q].
    + destruct H5 as [[-> ->]|[-> Hr]].
      * destruct (Rlt_dec 0 1) as [_|]; [|lra]. exists l1, a, (mid ++ [x]), [], 1. split; [rewrite last_snoc; reflexivity|]. split; [rewrite E, !app_nil_r, <- app_assoc; reflexivity|]. repeat split; auto.
        -- intros z [<-|Hz]; [lra|]. apply in_app_or in Hz. destruct Hz as [Hz|[<-|[]]]; [apply H3; now right|]. (unfold Rabs in Q; destruct Rcase_abs in Q; lra).
      * destruct (Rlt_dec 0 (-1)); [lra|]. destruct (Rlt_dec (g x) (g a)); apply Drop; auto.
    + assert (B : g x < g a - / 2 ^ 126) by (unfold Rabs in Q; destruct Rcase_abs in Q; lra).
      destruct (Rlt_dec (g x) (g a)); [apply Drop; auto|lra].
Qed.
Lemma mom_run (g : R -> R) pts : forall P (v : R * R * R * R), mom_inv g P v ->
  exists a b h s, fold_left (fun v x => cv (A := RA) mom v x (g x)) pts v = (h, a, b, s) /\ plateau g (P ++ pts) a b.
Proof.
  induction pts as [|y pts IH]; intros P v I0.
  - destruct I0 as (l1 & a & mid & rest & s & -> & E & H1 & H2 & H3 & H4 & H5). exists a, (last mid a), (g a), s. split; [reflexivity|]. rewrite app_nil_r. exists l1, mid, rest. auto 12.
  - cbn [fold_left]. apply (mom_inv_step g P v y) in I0. apply IH in I0. destruct I0 as (a & b & h & s & E & Pl). exists a, b, h, s. split; auto. rewrite <- app_assoc in Pl. exact Pl.
Qed.
Lemma mom_fold (g : R -> R) pts v1 v2 : (forall x, In x pts -> 0 <= g x) -> pts <> [] ->
  exists a b h s, fold_left (fun v x => cv (A := RA) mom v x (g x)) pts (-1, v1, v2, -1) = (h, a, b, s) /\ plateau g pts a b.
Proof.
  intros Hp Hn. destruct pts as [|x pts]; [congruence|]. cbn [fold_left]. rewrite mom_step. destruct (Rlt_dec (-1) (g x)) as [_|N]; [|specialize (Hp x (or_introl eq_refl)); lra].
  apply (mom_run g pts [x]). exists [], x, [], [], 1. pose proof eps_pos. split; [reflexivity|]. split; [reflexivity|]. split; [intros z []|]. split; [intros z [<-|[]]; lra|]. split; [intros z [<-|[]]; lra|]. split; [discriminate|auto].
Qed.

(** The mean of points of an interval lies in it. *)
Lemma mean_in (g : R -> R) lo hi pts : (forall x, In x pts -> lo <= x <= hi /\ 0 <= g x) -> 0 < lsum g pts -> lo <= lsum (fun x => x * g x) pts / lsum g pts <= hi.
Proof.
  intros H P.
  assert (K : lo * lsum g pts <= lsum (fun x => x * g x) pts <= hi * lsum g pts).
  { clear P. induction pts as [|x pts IH]; cbn [lsum]; [lra|]. specialize (IH (fun y Hy => H y (or_intror Hy))). destruct (H x (or_introl eq_refl)) as [[B1 B2] G].
    assert (lo * g x <= x * g x) by (apply Rmult_le_compat_r; auto). assert (x * g x <= hi * g x) by (apply Rmult_le_compat_r; auto). lra. }
  split; apply Rmult_le_reg_r with (lsum g pts); auto; unfold Rdiv; rewrite Rmult_assoc, Rinv_l by lra; lra.
Qed.
Lemma lsum_nonneg g pts : (forall x, In x pts -> 0 <= g x) -> 0 <= lsum g pts.
Proof. induction pts as [|x pts IH]; intros H; cbn [lsum]; [lra|]. specialize (H x (or_introl eq_refl)) as G. specialize (IH (fun y Hy => H y (or_intror Hy))). lra. Qed.
