(** Matrices over the real numbers; the norm. *)
From Coq Require Import ZArith List Bool Lia Reals Lra.
From Verif Require Import Base BaseLemmas Arith ArithLemmas Ltisys_Spec Ltisys_Proofs Ltisys_Proofs2 Mat_Model Mat_Spec Mat_Proofs.
Import ListNotations.
Open Scope R_scope.

Lemma acc_R k (f : nat -> R) : acc (A := RA) k f = sum k f.
Proof. induction k as [|k IH]; cbn [acc sum]; [cbn; lra|]. rewrite IH. reflexivity. Qed.
Lemma sum_minus n f g : sum n (fun i => f i - g i) = sum n f - sum n g.
Proof. induction n; cbn; [lra|]. rewrite IHn. lra. Qed.
Lemma sum_delta n f m : (m < n)%nat -> sum n (fun k => delta m k * f k) = f m.
Proof.
  unfold delta. induction n as [|n IH]; intros H; [lia|]. cbn [sum]. destruct (Nat.eqb_spec m n) as [->|].
  - rewrite (sum_ext n _ (fun _ => 0)); [rewrite sum_0; lra|]. intros i Hi. destruct (Nat.eqb_spec n i); [lia|lra].
  - rewrite IH by lia. lra.
Qed.
Lemma delta_sym i j : delta i j = delta j i.
Proof. unfold delta. rewrite Nat.eqb_sym. reflexivity. Qed.

(** ** The inverse *)
Section Inverse.
Variables (n : nat) (a : list (list R)).
Hypothesis Wa : shaped n n a.
Hypothesis Lead : forall k, (k <= n)%nat -> nonsingular k a.

Definition stage (i : nat) (s : list (list R) * list (list R)) : Prop :=
  let (x, y) := s in shaped n n x /\ shaped n n y /\
  (forall r c, (r < n)%nat -> (c < i)%nat -> x$r,c = delta r c) /\
  (forall r c, (r < n)%nat -> (c < n)%nat -> x$r,c = sum n (fun j => y$r,j * a$j,c)) /\
  (forall r c, (r < n)%nat -> (c < n)%nat -> a$r,c = sum i (fun j => a$r,j * x$j,c) + (if (i <=? r)%nat then x$r,c else 0)) /\
  (forall r c, (r < n)%nat -> (c < n)%nat -> delta r c = sum i (fun j => a$r,j * y$j,c) + (if (i <=? r)%nat then y$r,c else 0)).

Lemma stage_pivot i x y : (i < n)%nat -> stage i (x, y) -> x$i,i <> 0.
Proof.
  intros Hi (Wx & Wy & H2 & H3 & H4 & H5) E.
  set (v := fun j => if (j =? i)%nat then 1 else - (x$j,i)).
  assert (Z : v i = 0).
  { apply (Lead (S i) Hi); [|lia]. intros r Hr. cbn [sum]. unfold v at 2. rewrite Nat.eqb_refl.
    rewrite (sum_ext i _ (fun j => (-1) * (a$r,j * x$j,i))), sum_scal.
    - rewrite (H4 r i) by lia. destruct (Nat.leb_spec i r); [replace r with i by lia; rewrite E|]; lra.
    - intros j Hj. unfold v. destruct (Nat.eqb_spec j i); [lia|lra]. }
  unfold v in Z. rewrite Nat.eqb_refl in Z. lra.
Qed.
Lemma stage_next i x y : (i < n)%nat -> stage i (x, y) -> exists x' y', inv_step (A := RA) n (Z.of_nat i) (x, y) = Ok (x', y') /\ stage (S i) (x', y').
Proof.
  intros Hi S0. pose proof (stage_pivot i x y Hi S0) as P. destruct S0 as (Wx & Wy & H2 & H3 & H4 & H5).
  destruct (inv_step_ok (A := RA) 0 n i x y Hi Wx Wy) as (x' & y' & E & Wx' & Wy' & H). exists x', y'. split; [exact E|].
  assert (HX : forall r c, (r < n)%nat -> (c < n)%nat -> x'$r,c = if (r =? i)%nat then x$i,c / x$i,i else x$r,c - x$r,i * (x$i,c / x$i,i)) by (intros; apply H; auto).
  assert (HY : forall r c, (r < n)%nat -> (c < n)%nat -> y'$r,c = if (r =? i)%nat then y$i,c / x$i,i else y$r,c - x$r,i * (y$i,c / x$i,i)) by (intros; apply H; auto).
  clear E H. split; [exact Wx'|]. split; [exact Wy'|]. split; [|split; [|split]].
  - intros r c Hr Hc. rewrite HX by lia. destruct (Nat.eq_dec c i) as [->|].
    + unfold delta. destruct (Nat.eqb_spec r i); field; exact P.
    + rewrite (H2 i c), (H2 r c) by lia. unfold delta. destruct (Nat.eqb_spec i c); [lia|]. destruct (Nat.eqb_spec r i) as [->|].
      * destruct (Nat.eqb_spec i c); [lia|]. field. exact P.
      * field. exact P.
  - intros r c Hr Hc. rewrite HX by auto. rewrite (H3 i c), (H3 r c) by auto. destruct (Nat.eqb_spec r i) as [->|Hne].
    + unfold Rdiv. rewrite Rmult_comm, <- sum_scal. apply sum_ext. intros j Hj. rewrite HY, Nat.eqb_refl by auto. unfold Rdiv. ring.
    + unfold Rdiv. rewrite (Rmult_comm _ (/ _)), <- sum_scal, <- sum_scal, <- sum_minus. apply sum_ext. intros j Hj. rewrite HY by auto.
      destruct (Nat.eqb_spec r i); [lia|]. unfold Rdiv. ring.
  - intros r c Hr Hc. cbn [sum]. rewrite (sum_ext i _ (fun j => a$r,j * x$j,c - (x$i,c / x$i,i) * (a$r,j * x$j,i))).
    + rewrite sum_minus, sum_scal. pose proof (H4 r c Hr Hc) as E1. pose proof (H4 r i Hr Hi) as E2.
      rewrite (HX i c), (HX r c), Nat.eqb_refl by auto.
      set (s1 := sum i (fun j => a$r,j * x$j,c)) in *. set (s2 := sum i (fun j => a$r,j * x$j,i)) in *. clearbody s1 s2. rewrite E2.
      destruct (Nat.leb_spec i r), (Nat.leb_spec (S i) r), (Nat.eqb_spec r i); try lia; subst; rewrite E1; field; exact P.
    + intros j Hj. rewrite HX by lia. destruct (Nat.eqb_spec j i); [lia|]. ring.
  - intros r c Hr Hc. cbn [sum]. rewrite (sum_ext i _ (fun j => a$r,j * y$j,c - (y$i,c / x$i,i) * (a$r,j * x$j,i))).
    + rewrite sum_minus, sum_scal. pose proof (H5 r c Hr Hc) as E1. pose proof (H4 r i Hr Hi) as E2.
      rewrite (HY i c), (HY r c), Nat.eqb_refl by auto.
      set (s1 := sum i (fun j => a$r,j * y$j,c)) in *. set (s2 := sum i (fun j => a$r,j * x$j,i)) in *. clearbody s1 s2. rewrite E1, E2.
      destruct (Nat.leb_spec i r), (Nat.leb_spec (S i) r), (Nat.eqb_spec r i); try lia; subst; field; exact P.
    + intros j Hj. rewrite HY by lia. destruct (Nat.eqb_spec j i); [lia|]. ring.
Qed.
Lemma inverse_ok : exists b, mat_inv (A := RA) n a = Ok b /\ shaped n n b /\
  forall i j, (i < n)%nat -> (j < n)%nat -> times n a b i j = delta i j /\ times n b a i j = delta i j.
Proof.
  unfold mat_inv. rewrite (mat_copy_ok (A := RA) 0 n n) by exact Wa. cbn [bind].
  destruct (mat_special_ok (A := RA) 0 n n MAT_IDENTITY (lit 1 1)) as (e & -> & We & He); [discriminate|]. cbn [bind].
  assert (He' : forall i j, (i < n)%nat -> (j < n)%nat -> e$i,j = delta i j).
  { intros i j Hi Hj. unfold delta. change (entry 0 e i j) with (entry (T := F RA) 0 e i j). rewrite He by auto. destruct (i =? j)%nat; cbn; lra. }
  assert (S0 : stage 0 (a, e)).
  { split; [exact Wa|]. split; [exact We|]. split; [lia|]. split; [|split].
    - intros r c Hr Hc. rewrite (sum_ext n _ (fun j => delta r j * a$j,c)); [rewrite (sum_delta n (fun j => a$j,c)) by auto; reflexivity|].
      intros j Hj. rewrite He' by auto. reflexivity.
    - intros r c Hr Hc. cbn [sum]. destruct (Nat.leb_spec 0 r); [lra|lia].
    - intros r c Hr Hc. cbn [sum]. destruct (Nat.leb_spec 0 r); [|lia]. rewrite He' by auto. lra. }
  destruct (floop_inv0 stage (inv_step (A := RA) n) n (a, e)) as ([x y] & E & Wx & Wy & H2 & H3 & H4 & H5); [|exact S0|].
  - intros j [u v] Hj Sj. destruct (stage_next j u v Hj Sj) as (u' & v' & E & S'). exists (u', v'). auto.
  - exists y. split; [change (matrix RA) with (list (list R)); change (matrix RA) with (list (list R)) in E; rewrite E; reflexivity|]. split; [exact Wy|].
    intros i j Hi Hj. split.
    + unfold times. rewrite (H5 i j) by auto. destruct (Nat.leb_spec n i); [lia|]. lra.
    + unfold times. rewrite <- H3 by auto. apply H2; auto.
Qed.
End Inverse.

(** ** The infinity norm *)
Section Norm.
Context {A : arith}.
Notation X := (F A).
Lemma floop_ub {S} (body : Z -> S -> res S) k : forall i s j, (i <= j < i + Z.of_nat k)%Z -> (forall t, body j t = Ub) -> floop k i body s = Ub.
Proof.
  induction k as [|k IH]; intros i s j Hj H; [lia|]. cbn [floop]. destruct (Z.eq_dec i j) as [->|]; [rewrite H; reflexivity|].
  destruct (body i s); [|reflexivity]. cbn [bind]. apply (IH (i + 1)%Z) with (j := j); auto; lia.
Qed.
Lemma normInf_oob Rn C (m : matrix A) : shaped Rn C m -> (1 <= Rn)%nat -> (1 <= C)%nat -> Rn <> C -> normInf Rn C m = Ub.
Proof.
  intros W HR HC Hne. unfold normInf. destruct (Nat.lt_ge_cases Rn C) as [L|L].
  - apply floop_ub with (j := Z.of_nat Rn); [lia|]. intros t. unfold norm_sum.
    rewrite (floop_ub _ Rn 0 _ 0); [reflexivity|lia|]. intros s. unfold mget. rewrite get_oob; [reflexivity|]. destruct W as [W _]. unfold zlen. rewrite W. lia.
  - apply floop_ub with (j := 0%Z); [lia|]. intros t. unfold norm_sum.
    rewrite (floop_ub _ Rn 0 _ (Z.of_nat C)); [reflexivity|lia|]. intros s. unfold mget. change 0%Z with (Z.of_nat 0).
    pose proof W as [W1 _]. rewrite (get_nth []) by (rewrite W1; lia). cbn [bind]. rewrite get_oob; [reflexivity|].
    unfold zlen. rewrite (shaped_row Rn C m 0 W) by lia. lia.
Qed.
End Norm.
Lemma normInf_square n (m : list (list R)) : shaped n n m -> (1 <= n)%nat -> exists r, normInf (A := RA) n n m = Ok r /\
  (forall i, (i < n)%nat -> sum n (fun j => Rabs (m$i,j)) <= r) /\ exists i, (i < n)%nat /\ r = sum n (fun j => Rabs (m$i,j)).
Proof.
  intros W Hn. unfold normInf.
  assert (NS : forall i, (i < n)%nat -> norm_sum (A := RA) n m (Z.of_nat i) = Ok (sum n (fun j => Rabs (m$i,j)))).
  { intros i Hi. rewrite (norm_sum_ok (A := RA) 0 n n) by auto. apply f_equal. rewrite acc_R. apply sum_ext. intros j Hj. unfold mag.
    change (flt (a := RA)) with Rltb. change (fopp (a := RA)) with Ropp. replace (lit (a := RA) 0 1) with 0 by (cbn; lra).
    change (F RA) with R. unfold Rltb. destruct (Rlt_dec (m$i,j) 0); [rewrite Rabs_left; auto|rewrite Rabs_right; [reflexivity|lra]]. }
  destruct (floop_inv0 (fun k (r : R) => (forall i, (i < k)%nat -> sum n (fun j => Rabs (m$i,j)) <= r) /\ (k = 0%nat \/ exists i, (i < k)%nat /\ r = sum n (fun j => Rabs (m$i,j))))
    (fun i mx => s <- norm_sum (A := RA) n m i ;; let mx' := if (i =? 0)%Z then s else mx in Ok (if flt (a := RA) mx' s then s else mx')) n (lit (a := RA) 0 1)) as (r & E & H1 & H2).
  - intros i mx Hi [H1 H2]. rewrite NS by auto. cbn [bind]. cbv zeta. eexists. split; [reflexivity|]. set (s := sum n (fun j => Rabs (m$i,j))).
    change (flt (a := RA)) with Rltb. unfold Rltb. change (F RA) with R.
    destruct (Z.eqb_spec (Z.of_nat i) 0).
    + assert (i = 0%nat) by lia. subst i. destruct (Rlt_dec s s); (split; [intros q Hq; replace q with 0%nat by lia; fold s; lra|right; exists 0%nat; auto]).
    + destruct H2 as [->|(w & Hw & Ew)]; [lia|]. destruct (Rlt_dec mx s).
      * split; [|right; exists i; auto]. intros q Hq. destruct (Nat.eq_dec q i) as [->|]; [fold s; lra|]. specialize (H1 q). apply Rle_trans with mx; [apply H1; lia|lra].
      * split; [|right; exists w; auto]. intros q Hq. destruct (Nat.eq_dec q i) as [->|]; [fold s; lra|]. apply H1. lia.
  - split; [lia|auto].
  - exists r. split; [exact E|]. split; auto. destruct H2 as [|H2]; [lia|exact H2].
Qed.
