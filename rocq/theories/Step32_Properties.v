(** Property theorems of the step methods of the interpolation in single precision (C138). *)
From Coq Require Import ZArith Reals Lra Lia Bool List.
From Flocq Require Import Core IEEE754.BinarySingleNaN IEEE754.Binary IEEE754.Bits.
From Verif Require Import Base Arith Ffmath_Spec Bits32 Ffmath_Proofs Ffmath_Proofs16 Float32 Interp1_Model Interp1_Spec Interp1_Proofs Interp1_Proofs2 Interp1_Properties Interp32_Proofs Interp32_Properties Step32_Proofs.
Import ListNotations.
Open Scope R_scope.

(** ** C138: previous, next and nearest in binary32 *)
Lemma api_previous (o : oracles binary32) n (tx ty : list binary32) (x : binary32) i : let X := map (B2R 24 128) tx in let Y := map (B2R 24 128) ty in
  table n X Y -> (2 <= n)%nat -> Forall (fun t : binary32 => finite t) tx -> finite x -> (i < n)%nat ->
  interpolate (A := RA) PREVIOUS X (indices n) (valR x) = Ok (nth i (indices n) 0) -> interpolate (A := B32 o) PREVIOUS tx ty x = Ok (nth i ty x).
Proof.
  intros X Y T Hn Ft Fx Hi H. pose proof (proj1 T) as Lx. unfold X in Lx. rewrite map_length in Lx. pose proof (proj1 (proj2 T)) as Ly. unfold Y in Ly. rewrite map_length in Ly.
  unfold interpolate in *. cbn [interp_get setMethod method_at interp_new snd i_x i_y i_n i_m PREVIOUS] in *.
  assert (ZX : zlen X = Z.of_nat n) by (unfold zlen; f_equal; exact (proj1 T)). assert (Zx : zlen tx = Z.of_nat n) by (unfold zlen; f_equal; exact Lx).
  change (F RA) with R in H. rewrite ZX in H. change (F (B32 o)) with binary32. rewrite Zx. assert (Z2 : (2 <= Z.of_nat n)%Z) by lia.
  rewrite (previous_pidx (A := RA)) in H by exact Z2. rewrite nth_indices in H by exact Hi.
  etransitivity; [exact (previous_pidx (A := B32 o) x tx ty (Z.of_nat n) Z2)|].
  etransitivity; [apply (f_equal (fun q => bind q _)); exact (pidx_same o tx x Fx Ft (Z.of_nat n))|].
  exact (read_index _ n i (B := binary32) ty x Hi Ly H).
Qed.
Lemma api_next (o : oracles binary32) n (tx ty : list binary32) (x : binary32) i : let X := map (B2R 24 128) tx in let Y := map (B2R 24 128) ty in
  table n X Y -> (2 <= n)%nat -> Forall (fun t : binary32 => finite t) tx -> finite x -> (i < n)%nat ->
  interpolate (A := RA) NEXT X (indices n) (valR x) = Ok (nth i (indices n) 0) -> interpolate (A := B32 o) NEXT tx ty x = Ok (nth i ty x).
Proof.
  intros X Y T Hn Ft Fx Hi H. pose proof (proj1 T) as Lx. unfold X in Lx. rewrite map_length in Lx. pose proof (proj1 (proj2 T)) as Ly. unfold Y in Ly. rewrite map_length in Ly.
  unfold interpolate in *. cbn [interp_get setMethod method_at interp_new snd i_x i_y i_n i_m NEXT] in *.
  assert (ZX : zlen X = Z.of_nat n) by (unfold zlen; f_equal; exact (proj1 T)). assert (Zx : zlen tx = Z.of_nat n) by (unfold zlen; f_equal; exact Lx).
  change (F RA) with R in H. rewrite ZX in H. change (F (B32 o)) with binary32. rewrite Zx. assert (Z2 : (2 <= Z.of_nat n)%Z) by lia.
  rewrite (next_nidx (A := RA)) in H by exact Z2. rewrite nth_indices in H by exact Hi.
  etransitivity; [exact (next_nidx (A := B32 o) x tx ty (Z.of_nat n) Z2)|].
  etransitivity; [apply (f_equal (fun q => bind q _)); exact (nidx_same o tx x Fx Ft (Z.of_nat n))|].
  exact (read_index _ n i (B := binary32) ty x Hi Ly H).
Qed.

(** The previous method returns, bit for bit, the ordinate of the greatest abscissa not above x (the first ordinate left of the table);
    the next method that of the least abscissa above x (the last ordinate right of the table), for x not left of the table.
    The ordinates may be anything, even NaN. *)
Theorem C138_previous_next : forall (o : oracles binary32) (n : nat) (tx ty : list binary32) (x d : binary32),
  let X := map (B2R 24 128) tx in let Y := map (B2R 24 128) ty in
  table n X Y -> (2 <= n)%nat -> Forall (fun t : binary32 => finite t) tx -> finite x ->
  (forall i, greatest_not_above n X (valR x) i -> interpolate (A := B32 o) PREVIOUS tx ty x = Ok (nth i ty d)) /\
  (valR x < nth 0 X 0 -> interpolate (A := B32 o) PREVIOUS tx ty x = Ok (nth 0 ty d)) /\
  (nth 0 X 0 <= valR x -> forall i, least_above n X (valR x) i -> interpolate (A := B32 o) NEXT tx ty x = Ok (nth i ty d)) /\
  (nth (n - 1) X 0 <= valR x -> interpolate (A := B32 o) NEXT tx ty x = Ok (nth (n - 1) ty d)).
Proof.
  intros o n tx ty x d X Y T Hn Ft Fx. pose proof (table_indices _ _ _ T) as TI.
  assert (Ly : length ty = n). { pose proof (proj1 (proj2 T)) as Ly. unfold Y in Ly. rewrite map_length in Ly. exact Ly. }
  assert (Dd : forall i, (i < n)%nat -> nth i ty x = nth i ty d). { intros i Hi. apply nth_indep. refine (eq_ind_r (fun k => (i < k)%nat) Hi Ly). }
  destruct (C53_previous n X (indices n) (valR x) TI Hn) as (P1 & P2). destruct (C53_next n X (indices n) (valR x) TI Hn) as (N1 & N2 & _).
  split; [|split; [|split]].
  - intros i H. rewrite <- Dd by apply H. apply (api_previous o n); auto. apply H.
  - intros H. assert (H0 : (0 < n)%nat) by lia. rewrite <- Dd by exact H0. apply (api_previous o n); auto.
  - intros H0 i H. rewrite <- Dd by apply H. apply (api_next o n); auto. apply H.
  - intros H. assert (H0 : (n - 1 < n)%nat) by lia. rewrite <- Dd by exact H0. apply (api_next o n); auto.
Qed.
Print Assumptions C138_previous_next.

(** The nearest method returns the ordinate of an abscissa whose distance from x is least up to a factor (1 + 2^-24)/(1 - 2^-24). *)
Theorem C138_nearest : forall (o : oracles binary32) (n : nat) (tx ty : list binary32) (x d : binary32),
  let X := map (B2R 24 128) tx in let Y := map (B2R 24 128) ty in
  table n X Y -> (2 <= n)%nat -> Forall (fun t : binary32 => finite t) tx -> finite x ->
  (forall i, (i < n)%nat -> Rabs (valR x - nth i X 0) <= bpow radix2 127) ->
  exists i, (i < n)%nat /\ interpolate (A := B32 o) NEAREST tx ty x = Ok (nth i ty d) /\
    forall j, (j < n)%nat -> (1 - bpow radix2 (-24)) * Rabs (valR x - nth i X 0) <= (1 + bpow radix2 (-24)) * Rabs (valR x - nth j X 0).
Proof.
  intros o n tx ty x d X Y T Hn Ft Fx Sp.
  assert (Lx : length tx = n). { pose proof (proj1 T) as L. unfold X in L. rewrite map_length in L. exact L. }
  assert (Ly : length ty = n). { pose proof (proj1 (proj2 T)) as L. unfold Y in L. rewrite map_length in L. exact L. }
  assert (VX : forall i, (i < n)%nat -> valR (nth i tx d) = nth i X 0). { intros i Hi. apply nth_val. refine (eq_ind_r (fun k => (i < k)%nat) Hi Lx). }
  destruct (nearest_32 o tx x d Fx Ft) with (ty := ty) (n := n) as (r & Hr & E & Hm); auto.
  { intros i Hi. assert (Hi' : (i < n)%nat) by exact (eq_ind _ (fun k => (i < k)%nat) Hi _ Lx). rewrite (VX i Hi'). apply Sp. exact Hi'. }
  exists r. split; [exact Hr|]. split.
  - unfold interpolate. cbn [interp_get setMethod method_at interp_new snd i_x i_y i_n i_m NEAREST]. assert (Zx : zlen tx = Z.of_nat n) by (unfold zlen; f_equal; exact Lx).
    change (F (B32 o)) with binary32. rewrite Zx. exact E.
  - intros j Hj. pose proof (Hm j Hj) as H. assert (A : Rabs (valR x - valR (nth r tx d)) * (1 - u32) <= dist tx x d r) by exact (proj1 (dist_rel tx x d r)). assert (B : dist tx x d j <= Rabs (valR x - valR (nth j tx d)) * (1 + u32)) by exact (proj2 (dist_rel tx x d j)).
    rewrite (VX r Hr) in A. rewrite (VX j Hj) in B. clear - H A B. lra.
Qed.
Print Assumptions C138_nearest.

(** In particular the previous and the nearest method reproduce every data point bit for bit. *)
Theorem C138_knots : forall (o : oracles binary32) (n : nat) (tx ty : list binary32) (x d : binary32) (i : nat),
  let X := map (B2R 24 128) tx in let Y := map (B2R 24 128) ty in
  table n X Y -> (2 <= n)%nat -> Forall (fun t : binary32 => finite t) tx -> finite x -> (i < n)%nat -> valR x = nth i X 0 ->
  (forall j, (j < n)%nat -> Rabs (valR x - nth j X 0) <= bpow radix2 127) ->
  interpolate (A := B32 o) PREVIOUS tx ty x = Ok (nth i ty d) /\ interpolate (A := B32 o) NEAREST tx ty x = Ok (nth i ty d).
Proof.
  intros o n tx ty x d i X Y T Hn Ft Fx Hi Vx Sp. split.
  - apply (proj1 (C138_previous_next o n tx ty x d T Hn Ft Fx)). fold X. split; [exact Hi|]. split; [rewrite Vx; apply Rle_refl|]. intros j Hj H. rewrite Vx in H. exact H.
  - destruct (C138_nearest o n tx ty x d T Hn Ft Fx Sp) as (r & Hr & E & H). rewrite E. specialize (H i Hi). fold X in H.
    assert (Eq : nth r X 0 = nth i X 0).
    { rewrite Vx in H. rewrite Rminus_eq_0, Rabs_R0, Rmult_0_r in H. destruct (Req_dec (nth i X 0 - nth r X 0) 0) as [Z|N]; [lra|]. exfalso. apply Rabs_pos_lt in N.
      change (bpow radix2 (-24)) with (/ 16777216) in H. assert (0 < (1 - / 16777216) * Rabs (nth i X 0 - nth r X 0)) by (apply Rmult_lt_0_compat; lra). lra. }
    replace r with i; [reflexivity|]. destruct (Nat.lt_trichotomy r i) as [C|[C|C]]; [exfalso|auto|exfalso].
    + pose proof (knot_lt n X Y T r i C Hi) as L. change (F RA) with R in L. lra.
    + pose proof (knot_lt n X Y T i r C Hr) as L. change (F RA) with R in L. lra.
Qed.
Print Assumptions C138_knots.

(** Deviation: the abscissa chosen need not be the nearest.  From 1 the abscissa -16777215 is at the distance 16777216 and
    16777218 at 16777217, which rounds to the same number: the farther, later one wins. *)
Theorem C138_nearest_refuted : forall o, exists x0 x1 x : binary32, finite x0 /\ finite x1 /\ finite x /\ valR x0 = -16777215 /\ valR x1 = 16777218 /\ valR x = 1 /\
  forall y0 y1 : binary32, interpolate (A := B32 o) NEAREST [x0; x1] [y0; y1] x = Ok y1.
Proof.
  intros o. exists (lit (a := B32 o) (-16777215) 1), (lit (a := B32 o) 16777218 1), (lit (a := B32 o) 1 1).
  do 3 (split; [reflexivity|]). do 3 (split; [vm_compute; lra|]). intros y0 y1.
  assert (E : b32_le (b32_abs (b32_minus mode_NE (lit (a := B32 o) 1 1) (lit (a := B32 o) 16777218 1))) (b32_abs (b32_minus mode_NE (lit (a := B32 o) 1 1) (lit (a := B32 o) (-16777215) 1))) = true)
    by (vm_compute; reflexivity).
  remember (lit (a := B32 o) (-16777215) 1) as x0 eqn:Q0. remember (lit (a := B32 o) 16777218 1) as x1 eqn:Q1. remember (lit (a := B32 o) 1 1) as x eqn:Q. clear Q0 Q1 Q.
  assert (E' : nearest_search (A := B32 o) 1 1 0 (b32_abs (b32_minus mode_NE x x0)) x [x0; x1] = Ok 1%Z).
  { cbn [nearest_search]. change (get [x0; x1] 1) with (Ok x1). cbn [bind]. change (fle (a := B32 o)) with b32_le. change (fabs (a := B32 o)) with b32_abs. change (fsub (a := B32 o)) with (b32_minus mode_NE). cbv zeta. rewrite E. reflexivity. }
  change ((i <- nearest_search (A := B32 o) 1 1 0 (b32_abs (b32_minus mode_NE x x0)) x [x0; x1] ;; get [y0; y1] i) = Ok y1). rewrite E'. reflexivity.
Qed.
Print Assumptions C138_nearest_refuted.

Example C138_case : forall o, let l := fun n => lit (a := B32 o) n 1 : binary32 in let tx := [l 0%Z; l 1%Z; l 3%Z] in let X := map (B2R 24 128) tx in
  finite (l 2%Z) /\ Forall (fun t : binary32 => finite t) tx /\ increasing X /\ greatest_not_above 3 X (valR (l 2%Z)) 1 /\ least_above 3 X (valR (l 2%Z)) 2 /\
  (forall i, (i < 3)%nat -> Rabs (valR (l 2%Z) - nth i X 0) <= bpow radix2 127).
Proof.
  intros o l tx X. assert (V0 : valR (l 0%Z) = 0) by (vm_compute; lra). assert (V1 : valR (l 1%Z) = 1) by (vm_compute; lra).
  assert (V2 : valR (l 2%Z) = 2) by (vm_compute; lra). assert (V3 : valR (l 3%Z) = 3) by (vm_compute; lra).
  assert (B : 2 <= bpow radix2 127). { apply Rle_trans with (bpow radix2 1); [cbn; lra|apply bpow_le; lia]. }
  unfold X, tx. cbn [map]. split; [vm_compute; reflexivity|]. split; [repeat apply Forall_cons; try apply Forall_nil; vm_compute; reflexivity|].
  split; [intros i Hi; cbn [length] in Hi; destruct i as [|[|i]]; cbn [nth]; [lra|lra|lia]|].
  split; [|split].
  - split; [lia|]. split; [cbn [nth]; lra|]. intros j Hj. destruct j as [|[|[|j]]]; cbn [nth]; [lra|lra|lra|lia].
  - split; [lia|]. split; [cbn [nth]; lra|]. intros j Hj. destruct j as [|[|[|j]]]; cbn [nth]; [lra|lra|lra|lia].
  - intros i Hi. destruct i as [|[|[|i]]]; cbn [nth]; [apply Rabs_le; lra|apply Rabs_le; lra|apply Rabs_le; lra|lia].
Qed.
