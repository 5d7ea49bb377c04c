(** Property theorems of linear interpolation in single precision (C137). *)
From Coq Require Import ZArith Reals Lra Lia Bool List.
From Flocq Require Import Core IEEE754.BinarySingleNaN IEEE754.Binary IEEE754.Bits.
From Verif Require Import Base Arith Ffmath_Spec Bits32 Ffmath_Proofs Ffmath_Proofs16 Float32 Interp1_Model Interp1_Spec Interp1_Properties Interp32_Proofs.
Import ListNotations.
Open Scope R_scope.

(** ** C137: linear interpolation in binary32 *)
Lemma nth_val (l : list binary32) (d : binary32) i : (i < length l)%nat -> valR (nth i l d) = nth i (map (B2R 24 128) l) 0.
Proof. intros H. rewrite (nth_indep (map (B2R 24 128) l) 0 (B2R 24 128 d)) by (rewrite map_length; exact H). rewrite map_nth. reflexivity. Qed.

(** For every table of finite, strictly increasing abscissas whose neighbours are at most 2^127 apart, any ordinates, and every
    abscissa inside the table, the result belongs to an interval [i] of the table that contains the abscissa; if it is finite it is off
    the exact line through the two ends of that interval by at most 2^-24 |y_i| + 2^-21 |y_i+1 - y_i| + 2^-149 (1 + (x - x_i)). *)
Theorem C137_accuracy : forall (o : oracles binary32) (n : nat) (tx ty : list binary32) (x : binary32),
  let X := map (B2R 24 128) tx in let Y := map (B2R 24 128) ty in
  table n X Y -> (2 <= n)%nat -> (Z.of_nat n < 2147483648)%Z -> Forall (fun t : binary32 => finite t) tx ->
  (forall i, (S i < n)%nat -> nth (S i) X 0 - nth i X 0 <= bpow radix2 127) ->
  finite x -> nth 0 X 0 <= valR x <= nth (n - 1) X 0 ->
  exists (y : binary32) (i : nat), interpolate (A := B32 o) LINEAR tx ty x = Ok y /\ (S i < n)%nat /\ nth i X 0 <= valR x <= nth (S i) X 0 /\
    (finite y -> Rabs (valR y - segment X Y i (valR x)) <=
      bpow radix2 (-24) * Rabs (nth i Y 0) + bpow radix2 (-21) * Rabs (nth (S i) Y 0 - nth i Y 0) + bpow radix2 (-149) * (1 + (valR x - nth i X 0))).
Proof.
  intros o n tx ty x X Y (Lx & Ly & Inc) Hn Hz Ft Hg Fx Hx. unfold X in Lx. unfold Y in Ly. rewrite map_length in Lx, Ly. change (length tx = n) in Lx. change (length ty = n) in Ly. assert (Ll : length ty = length tx) by exact (eq_trans Ly (eq_sym Lx)).
  assert (VX : forall i, (i < n)%nat -> valR (nth i tx x) = nth i X 0) by (intros; apply nth_val; lia).
  assert (VY : forall i, (i < n)%nat -> valR (nth i ty x) = nth i Y 0) by (intros; apply nth_val; lia).
  destruct (linear_at o tx ty x x Fx Ft Ll n Lx Hn Hz) as (i & Hi & Hxi & E). { rewrite !VX by lia. exact Hx. }
  exists (fline x (nth i tx x) (nth (S i) tx x) (nth i ty x) (nth (S i) ty x)), i.
  assert (Hi' : (i < n)%nat) by lia. assert (Hl : (S i < length X)%nat) by (unfold X; rewrite map_length; refine (eq_ind_r (fun k => (S i < k)%nat) Hi Lx)). pose proof (Inc i Hl) as St. pose proof (Hg i Hi) as Sg.
  assert (Fi : finite (nth i tx x)) by (apply fX; [exact Ft|lia]). assert (Fs : finite (nth (S i) tx x)) by (apply fX; [exact Ft|lia]).
  assert (Zl : zlen tx = Z.of_nat n) by (unfold zlen; f_equal; exact Lx).
  split. { unfold interpolate. cbn [interp_get setMethod method_at interp_new snd i_x i_y i_n i_m LINEAR]. change (F (B32 o)) with binary32. rewrite Zl. exact E. }
  split; [exact Hi|]. rewrite <- (VX i Hi'), <- (VX (S i) Hi) in *. split; [exact Hxi|]. intros Fy.
  pose proof (line_err x (nth i tx x) (nth (S i) tx x) (nth i ty x) (nth (S i) ty x) Fi Fs St Sg Hxi Fy) as H.
  unfold segment. rewrite <- (VX i Hi'), <- (VX (S i) Hi), <- (VY i Hi'), <- (VY (S i) Hi).
  change (bpow radix2 (-21)) with (bpow radix2 (3 + -24)). change (bpow radix2 (-149)) with (bpow radix2 (1 + -150)). rewrite !bpow_plus. change (bpow radix2 3) with 8. change (bpow radix2 1) with 2. exact H.
Qed.
Print Assumptions C137_accuracy.

(** Equal ordinates are reproduced exactly everywhere inside the table: no rounding error, no overflow. *)
Theorem C137_constant : forall (o : oracles binary32) (n : nat) (tx ty : list binary32) (x : binary32) (c : R),
  let X := map (B2R 24 128) tx in let Y := map (B2R 24 128) ty in
  table n X Y -> (2 <= n)%nat -> (Z.of_nat n < 2147483648)%Z -> Forall (fun t : binary32 => finite t) tx ->
  (forall i, (S i < n)%nat -> nth (S i) X 0 - nth i X 0 <= bpow radix2 127) ->
  Forall (fun t : binary32 => finite t /\ valR t = c) ty -> Rabs c <= bpow radix2 127 ->
  finite x -> nth 0 X 0 <= valR x <= nth (n - 1) X 0 ->
  exists y : binary32, interpolate (A := B32 o) LINEAR tx ty x = Ok y /\ finite y /\ valR y = c.
Proof.
  intros o n tx ty x c X Y (Lx & Ly & Inc) Hn Hz Ft Hg Fc Bc Fx Hx. unfold X in Lx. unfold Y in Ly. rewrite map_length in Lx, Ly. change (length tx = n) in Lx. change (length ty = n) in Ly. assert (Ll : length ty = length tx) by exact (eq_trans Ly (eq_sym Lx)).
  assert (VX : forall i, (i < n)%nat -> valR (nth i tx x) = nth i X 0) by (intros; apply nth_val; lia).
  assert (VY : forall i, (i < n)%nat -> finite (nth i ty x) /\ valR (nth i ty x) = c). { intros i H. rewrite Forall_forall in Fc. apply Fc. apply nth_In. lia. }
  destruct (linear_at o tx ty x x Fx Ft Ll n Lx Hn Hz) as (i & Hi & Hxi & E). { rewrite !VX by lia. exact Hx. }
  exists (fline x (nth i tx x) (nth (S i) tx x) (nth i ty x) (nth (S i) ty x)).
  assert (Hi' : (i < n)%nat) by lia. assert (Hl : (S i < length X)%nat) by (unfold X; rewrite map_length; refine (eq_ind_r (fun k => (S i < k)%nat) Hi Lx)). pose proof (Inc i Hl) as St. pose proof (Hg i Hi) as Sg.
  assert (Fi : finite (nth i tx x)) by (apply fX; [exact Ft|lia]). assert (Fs : finite (nth (S i) tx x)) by (apply fX; [exact Ft|lia]).
  assert (Zl : zlen tx = Z.of_nat n) by (unfold zlen; f_equal; exact Lx).
  split. { unfold interpolate. cbn [interp_get setMethod method_at interp_new snd i_x i_y i_n i_m LINEAR]. change (F (B32 o)) with binary32. rewrite Zl. exact E. }
  rewrite <- (VX i Hi'), <- (VX (S i) Hi) in *. destruct (VY i Hi') as (Fy & Vy). destruct (VY (S i) Hi) as (Fz & Vz).
  assert (Eyz : valR (nth (S i) ty x) = valR (nth i ty x)) by (rewrite Vy, Vz; reflexivity). rewrite <- Vy in Bc |- *.
  exact (line_flat x (nth i tx x) (nth (S i) tx x) (nth i ty x) (nth (S i) ty x) Fx Fi Fs Fy Fz Eyz Bc St Sg Hxi).
Qed.
Print Assumptions C137_constant.

(** Deviation: a data point need not be reproduced.  On the points (0, -1) and (1, 16777218) the result at 1 is 16777220. *)
Theorem C137_knots_refuted : forall o, exists x0 x1 y0 y1 y : binary32, finite x0 /\ finite x1 /\ finite y0 /\ finite y1 /\ finite y /\
  valR x0 = 0 /\ valR x1 = 1 /\ valR y0 = -1 /\ valR y1 = 16777218 /\ valR y = 16777220 /\
  interpolate (A := B32 o) LINEAR [x0; x1] [y0; y1] x1 = Ok y.
Proof.
  intros o. exists (lit (a := B32 o) 0 1), (lit (a := B32 o) 1 1), (lit (a := B32 o) (-1) 1), (lit (a := B32 o) 16777218 1), (lit (a := B32 o) 16777220 1).
  do 5 (split; [reflexivity|]). do 5 (split; [vm_compute; lra|]).
  assert (E : fline (lit (a := B32 o) 1 1) (lit (a := B32 o) 0 1) (lit (a := B32 o) 1 1) (lit (a := B32 o) (-1) 1) (lit (a := B32 o) 16777218 1) = lit (a := B32 o) 16777220 1)
    by (apply bits_inj; vm_compute; reflexivity).
  rewrite <- E. reflexivity.
Qed.
Print Assumptions C137_knots_refuted.

Example C137_case : forall o, let l := fun n => lit (a := B32 o) n 1 : binary32 in let tx := [l 0%Z; l 1%Z; l 3%Z] in let ty := [l 2%Z; l 5%Z; l 4%Z] in let X := map (B2R 24 128) tx in let Y := map (B2R 24 128) ty in
  table 3 X Y /\ Forall (fun t : binary32 => finite t) tx /\ (forall i, (S i < 3)%nat -> nth (S i) X 0 - nth i X 0 <= bpow radix2 127) /\
  finite (l 2%Z) /\ nth 0 X 0 <= valR (l 2%Z) <= nth (3 - 1) X 0.
Proof.
  intros o l tx ty X Y. assert (V0 : valR (l 0%Z) = 0) by (vm_compute; lra). assert (V1 : valR (l 1%Z) = 1) by (vm_compute; lra).
  assert (V2 : valR (l 2%Z) = 2) by (vm_compute; lra). assert (V3 : valR (l 3%Z) = 3) by (vm_compute; lra).
  assert (B : 2 <= bpow radix2 127). { apply Rle_trans with (bpow radix2 1); [cbn; lra|apply bpow_le; lia]. }
  unfold X, tx. cbn [map nth Nat.sub]. split; [|split; [|split; [|split]]].
  - split; [reflexivity|]. split; [reflexivity|]. intros i Hi. cbn [length] in Hi. destruct i as [|[|i]]; cbn [nth]; [lra|lra|lia].
  - repeat apply Forall_cons; try apply Forall_nil; vm_compute; reflexivity.
  - intros i Hi. destruct i as [|[|i]]; cbn [nth]; [lra|lra|lia].
  - vm_compute; reflexivity.
  - lra.
Qed.
