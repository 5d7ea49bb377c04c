(** The step methods of the interpolation in binary32 (C138). *)
From Coq Require Import ZArith Reals Lra Lia Bool List.
From Flocq Require Import Core IEEE754.BinarySingleNaN IEEE754.Binary IEEE754.Bits.
From Verif Require Import Base BaseLemmas Arith ArithLemmas Ffmath_Spec Float32 Interp1_Model Interp1_Spec Interp1_Proofs Fir32_Proofs Smoother_Proofs4 Interp32_Proofs.
Import ListNotations.
Open Scope R_scope.

(** The index chosen by previous and next, apart from the ordinates. *)
Definition pidx {A : arith} (x : F A) (tx : list (F A)) (n : Z) : res Z :=
  t0 <- get tx 0 ;; if fle x t0 then Ok 0%Z else previous_search (Z.to_nat (n - 1)) 1 0 x tx.
Definition nidx {A : arith} (x : F A) (tx : list (F A)) (n : Z) : res Z :=
  r <- next_search (Z.to_nat (n - 1)) 0 x tx ;;
  l <- get tx (n - 1) ;; if fle l x then Ok (n - 1)%Z else Ok (match r with Some i => i | None => n - 1 end + 1)%Z.
Lemma previous_pidx {A : arith} (x : F A) tx ty n : (2 <= n)%Z -> previous x tx ty n = (i <- pidx x tx n ;; get ty i).
Proof.
  intros H. unfold previous, pidx. rewrite Z.geb_leb. destruct (Z.leb_spec 2 n); [|lia].
  destruct (get tx 0) as [t0|]; [|reflexivity]. cbn [bind]. destruct (fle x t0); reflexivity.
Qed.
Lemma next_nidx {A : arith} (x : F A) tx ty n : (2 <= n)%Z -> next x tx ty n = (i <- nidx x tx n ;; get ty i).
Proof.
  intros H. unfold next, nidx. rewrite Z.geb_leb. destruct (Z.leb_spec 2 n); [|lia].
  destruct (next_search (Z.to_nat (n - 1)) 0 x tx) as [r|]; [|reflexivity]. cbn [bind]. destruct (get tx (n - 1)) as [l|]; [|reflexivity]. cbn [bind].
  destruct (fle l x); reflexivity.
Qed.

Lemma get_map0 {A B} (f : A -> B) (l : list A) i : get (map f l) i = (v <- get l i ;; Ok (f v)).
Proof. unfold get. destruct (i <? 0)%Z; [reflexivity|]. rewrite nth_error_map. destruct (nth_error l (Z.to_nat i)); reflexivity. Qed.
Lemma get_map (l : list binary32) i : get (map (B2R 24 128) l) i = (v <- get l i ;; Ok (B2R 24 128 v)).
Proof. exact (get_map0 (B2R 24 128) l i). Qed.

Section Transfer.
Variable o : oracles binary32.
Variables (tx : list binary32) (x : binary32).
Hypothesis Fx : finite x.
Hypothesis Ft : Forall (fun t : binary32 => finite t) tx.
Lemma get_finite i v : get tx i = Ok v -> finite v.
Proof. intros H. rewrite Forall_forall in Ft. apply Ft. apply get_ok_iff in H. destruct H as (_ & H). exact (nth_error_In _ _ H). Qed.
Lemma lt_same v : finite v -> b32_lt x v = Rltb (valR x) (valR v).
Proof.
  intros Fv. destruct (b32_lt x v) eqn:E.
  - apply b32_lt_R in E; auto. symmetry. apply Rltb_true. exact E.
  - symmetry. apply Rltb_false. apply Rnot_lt_le. intros C. apply b32_lt_R in C; auto. rewrite C in E. discriminate.
Qed.
Lemma le_same u v : finite u -> finite v -> b32_le u v = Rleb (valR u) (valR v).
Proof.
  intros Fu Fv. destruct (b32_le u v) eqn:E.
  - apply b32_le_R in E; auto. symmetry. apply Rleb_true. exact E.
  - symmetry. apply Rleb_false. apply Rnot_le_lt. intros C. apply b32_le_R in C; auto. rewrite C in E. discriminate.
Qed.
Notation X := (map (B2R 24 128) tx).
Lemma previous_same k : forall i m, previous_search (A := B32 o) k i m x tx = previous_search (A := RA) k i m (valR x) X.
Proof.
  induction k as [|k IH]; intros i m; cbn [previous_search]; [reflexivity|]. change (F (B32 o)) with binary32. change (F RA) with R. rewrite get_map.
  destruct (get tx i) as [v|] eqn:E; [|reflexivity]. cbn [bind]. change (flt (a := B32 o)) with b32_lt. change (flt (a := RA)) with Rltb.
  rewrite (lt_same v (get_finite _ _ E)). destruct (Rltb (valR x) (valR v)); [reflexivity|apply IH].
Qed.
Lemma next_same k : forall i, next_search (A := B32 o) k i x tx = next_search (A := RA) k i (valR x) X.
Proof.
  induction k as [|k IH]; intros i; cbn [next_search]; [reflexivity|]. change (F (B32 o)) with binary32. change (F RA) with R. rewrite get_map.
  destruct (get tx (i + 1)) as [v|] eqn:E; [|reflexivity]. cbn [bind]. change (flt (a := B32 o)) with b32_lt. change (flt (a := RA)) with Rltb.
  rewrite (lt_same v (get_finite _ _ E)). destruct (Rltb (valR x) (valR v)); [reflexivity|apply IH].
Qed.
Lemma pidx_same n : pidx (A := B32 o) x tx n = pidx (A := RA) (valR x) X n.
Proof.
  unfold pidx. rewrite previous_same. change (F (B32 o)) with binary32. change (F RA) with R. rewrite get_map.
  destruct (get tx 0) as [v|] eqn:E; [|reflexivity]. cbn [bind]. change (fle (a := B32 o)) with b32_le. change (fle (a := RA)) with Rleb.
  rewrite (le_same x v Fx (get_finite _ _ E)). reflexivity.
Qed.
Lemma nidx_same n : nidx (A := B32 o) x tx n = nidx (A := RA) (valR x) X n.
Proof.
  unfold nidx. rewrite next_same. destruct (next_search (A := RA) (Z.to_nat (n - 1)) 0 (valR x) X) as [r|]; [|reflexivity]. cbn [bind].
  change (F (B32 o)) with binary32. change (F RA) with R. rewrite get_map.
  destruct (get tx (n - 1)) as [v|] eqn:E; [|reflexivity]. cbn [bind]. change (fle (a := B32 o)) with b32_le. change (fle (a := RA)) with Rleb.
  rewrite (le_same v x (get_finite _ _ E) Fx). reflexivity.
Qed.
End Transfer.

(** A table whose ordinates are the indices reads off the index. *)
Definition indices (n : nat) : list R := map INR (seq 0 n).
Lemma nth_indices n i : (i < n)%nat -> nth i (indices n) 0 = INR i.
Proof. intros H. unfold indices. change 0 with (INR 0). rewrite map_nth. f_equal. apply seq_nth. exact H. Qed.
Lemma get_indices n z i : get (indices n) z = Ok (INR i) -> z = Z.of_nat i.
Proof.
  intros H. pose proof (get_range _ _ _ H) as R. unfold zlen, indices in R. rewrite map_length, seq_length in R.
  rewrite (get_ok_nth _ _ 0) in H by (unfold zlen, indices; rewrite map_length, seq_length; exact R).
  rewrite nth_indices in H by lia. injection H as H. apply INR_eq in H. lia.
Qed.
Lemma read_index (r : res Z) n i {B} (l : list B) d : (i < n)%nat -> length l = n -> (z <- r ;; get (indices n) z) = Ok (INR i) -> (z <- r ;; get l z) = Ok (nth i l d).
Proof.
  intros Hi Hl. destruct r as [z|]; [|discriminate]. cbn [bind]. intros H. apply get_indices in H. subst z.
  rewrite (get_ok_nth l _ d) by (unfold zlen; lia). rewrite Nat2Z.id. reflexivity.
Qed.
Lemma table_indices n X Y : table n X Y -> table n X (indices n).
Proof. intros (H1 & _ & H3). split; [exact H1|]. split; [unfold indices; rewrite map_length, seq_length; reflexivity|exact H3]. Qed.

(** ** nearest *)
Section Nearest.
Variable o : oracles binary32.
Variables (tx : list binary32) (x d : binary32).
Hypothesis Fx : finite x.
Hypothesis Ft : Forall (fun t : binary32 => finite t) tx.
Let X i := nth i tx d.
Hypothesis Sp : forall i, (i < length tx)%nat -> Rabs (valR x - valR (X i)) <= big.
Let D i : binary32 := b32_abs (b32_minus mode_NE x (X i)).
Lemma D_fin i : (i < length tx)%nat -> finite (D i) /\ valR (D i) = Rabs (rnd (valR x - valR (X i))).
Proof.
  intros H. assert (Fi : finite (X i)) by (unfold X; rewrite Forall_forall in Ft; apply Ft, nth_In; exact H).
  destruct (minus_R x (X i) Fx Fi (Sp i H)) as (Fd & Vd). unfold D, b32_abs. split; [rewrite is_finite_Babs; exact Fd|]. rewrite B2R_Babs. f_equal. exact Vd.
Qed.
Definition dist i : R := Rabs (rnd (valR x - valR (X i))).
Lemma search_min k : forall i near, (near < i)%nat -> (i + k <= length tx)%nat ->
  (forall m, (m < i)%nat -> dist near <= dist m) ->
  exists r, nearest_search (A := B32 o) k (Z.of_nat i) (Z.of_nat near) (D near) x tx = Ok (Z.of_nat r) /\ (r < i + k)%nat /\ forall m, (m < i + k)%nat -> dist r <= dist m.
Proof.
  induction k as [|k IH]; intros i near Hne Hk Hmin; cbn [nearest_search].
  - exists near. split; [reflexivity|]. split; [lia|]. intros m Hm. apply Hmin. lia.
  - assert (G : get tx (Z.of_nat i) = Ok (X i)). { rewrite (get_ok_nth tx _ d) by (unfold zlen; lia). rewrite Nat2Z.id. reflexivity. }
    assert (N1 : (Z.of_nat i + 1)%Z = Z.of_nat (S i)) by lia. assert (N2 : (i < length tx)%nat) by lia. assert (N3 : (near < length tx)%nat) by lia.
    destruct (D_fin i N2) as (Fi & Vi). destruct (D_fin near N3) as (Fn & Vn). fold (dist i) in Vi. fold (dist near) in Vn.
    change (F (B32 o)) with binary32. rewrite G. cbn [bind]. rewrite N1. change (fle (a := B32 o)) with b32_le. change (fabs (a := B32 o)) with b32_abs. change (fsub (a := B32 o)) with (b32_minus mode_NE). cbv zeta. fold (D i).
    destruct (b32_le (D i) (D near)) eqn:E.
    + apply b32_le_R in E; auto. rewrite Vi, Vn in E. destruct (IH (S i) i) as (r & Er & Hr & Hm); [lia|lia| |].
      * intros m Hm. destruct (Nat.eq_dec m i) as [->|]; [apply Rle_refl|]. apply Rle_trans with (1 := E). apply Hmin. lia.
      * exists r. split; [exact Er|]. split; [lia|]. intros m Hm'. apply Hm. lia.
    + assert (C : dist near <= dist i). { apply Rnot_lt_le. intros C. assert (C' : valR (D i) <= valR (D near)) by (rewrite Vi, Vn; lra). apply b32_le_R in C'; auto. rewrite C' in E. discriminate. }
      destruct (IH (S i) near) as (r & Er & Hr & Hm); [lia|lia| |].
      * intros m Hm. destruct (Nat.eq_dec m i) as [->|]; [exact C|]. apply Hmin. lia.
      * exists r. split; [exact Er|]. split; [lia|]. intros m Hm'. apply Hm. lia.
Qed.
Lemma nearest_32 (ty : list binary32) n : length tx = n -> length ty = n -> (2 <= n)%nat -> exists r, (r < n)%nat /\ nearest (A := B32 o) x tx ty (Z.of_nat n) = Ok (nth r ty d) /\
  forall m, (m < n)%nat -> dist r <= dist m.
Proof.
  intros L Ly Hn. destruct (search_min (n - 1) 1 0) as (r & Er & Hr & Hm); [lia|lia| |].
  { intros m Hm. replace m with 0%nat by lia. apply Rle_refl. }
  exists r. split; [lia|]. split; [|intros m Hm'; apply Hm; lia].
  assert (G : get tx 0 = Ok (X 0)). { rewrite (get_ok_nth tx _ d) by (unfold zlen; lia). reflexivity. }
  assert (Gy : get ty (Z.of_nat r) = Ok (nth r ty d)). { rewrite (get_ok_nth ty _ d) by (unfold zlen; lia). rewrite Nat2Z.id. reflexivity. }
  assert (K : Z.to_nat (Z.of_nat n - 1) = (n - 1)%nat) by lia.
  unfold nearest. rewrite Z.geb_leb. destruct (Z.leb_spec 2 (Z.of_nat n)); [|lia]. change (F (B32 o)) with binary32. rewrite G. cbn [bind]. rewrite K.
  etransitivity; [apply (f_equal (fun q => bind q _)); exact Er|]. exact Gy.
Qed.
(** A relative error of 2^-24 in each distance. *)
Lemma dist_rel i : Rabs (valR x - valR (X i)) * (1 - u32) <= dist i <= Rabs (valR x - valR (X i)) * (1 + u32).
Proof.
  unfold dist. destruct (minus_rel x (X i)) as (e & He & ->). rewrite Rabs_mult. apply Rabs_le_inv in He. pose proof u_val as U.
  rewrite (Rabs_pos_eq (1 + e)) by lra. split; apply Rmult_le_compat_l; try apply Rabs_pos; lra.
Qed.
End Nearest.
