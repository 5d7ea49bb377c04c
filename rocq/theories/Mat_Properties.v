(** The matrix properties C56-C58 and C76. *)
From Coq Require Import ZArith List Bool Lia Reals Lra.
From Flocq Require Import IEEE754.Binary IEEE754.Bits.
From Verif Require Import Base BaseLemmas Arith ArithLemmas Ltisys_Spec Ltisys_Proofs Ltisys_Proofs2 Mat_Model Mat_Spec Mat_Proofs Mat_Proofs2.
Import ListNotations.
Open Scope R_scope.

(** ** C56: element access, construction and the algebra *)
Theorem C56_construction : forall {A : arith} (d : F A) R C,
  gives d R C (mat_zero R C) (fun _ _ => lit 0 1) /\
  (forall l, length l = (R * C)%nat -> gives d R C (mat_list R C l) (fun i j => nth (i * C + j) l d)) /\
  (forall v, exists m, mat_special R C MAT_ALL v = Ok (Some m) /\ gives d R C (Ok m) (fun _ _ => v)) /\
  (forall v, exists m, mat_special R C MAT_IDENTITY v = Ok (Some m) /\ gives d R C (Ok m) (fun i j => if (i =? j)%nat then v else lit 0 1)) /\
  (forall v, exists m, mat_special R C MAT_ZERO v = Ok (Some m) /\ gives d R C (Ok m) (fun _ _ => lit 0 1)) /\
  (forall v, mat_special (A := A) R C MAT_MAGIC v = Ok None).
Proof.
  intros A d R C. split; [apply (mat_zero_ok d)|]. split; [apply (mat_list_ok d)|].
  repeat split; intros v; try (edestruct (mat_special_ok d R C) as (m & E & W & H); [|exists m; split; [exact E|exists m; split; [reflexivity|split; [exact W|exact H]]]]; discriminate).
Qed.
Print Assumptions C56_construction.

(** operator[], operator() with two and with one index agree, inside exactly. *)
Theorem C56_access : forall {A : arith} (d : F A) R C (m : matrix A) i j, shaped R C m -> (1 <= C)%nat ->
  ((i < R)%nat -> (j < C)%nat -> mget m (Z.of_nat i) (Z.of_nat j) = Ok (entry d m i j) /\ at_index C m (Z.of_nat (i * C + j)) = Ok (entry d m i j)) /\
  ((R * C <= i)%nat -> at_index C m (Z.of_nat i) = Ub) /\ mat_copy R C m = Ok m.
Proof.
  intros A d R C m i j W HC. repeat split; intros.
  - apply (mget_ok d R C); auto.
  - apply (at_index_ok d R C); auto.
  - unfold at_index, mget. rewrite get_oob; [reflexivity|]. right. destruct W as [W _]. unfold zlen. rewrite W. apply Z.div_le_lower_bound; lia.
  - apply (mat_copy_ok d); auto.
Qed.
Print Assumptions C56_access.

Theorem C56_elementwise : forall {A : arith} (d : F A) R C (m o : matrix A) (s : F A), shaped R C m -> shaped R C o ->
  gives d R C (mat_add R C m o) (fun i j => entry d m i j + entry d o i j)%fl /\
  gives d R C (mat_sub R C m o) (fun i j => entry d m i j - entry d o i j)%fl /\
  gives d R C (mat_neg R C m) (fun i j => - entry d m i j)%fl /\
  gives d R C (mat_mul_scalar R C m s) (fun i j => entry d m i j * s)%fl /\
  gives d R C (scalar_mul_mat R C s m) (fun i j => s * entry d m i j)%fl /\
  gives d R C (mat_div_scalar R C m s) (fun i j => entry d m i j / s)%fl /\
  gives d R C (mat_add_scalar R C m s) (fun i j => entry d m i j + s)%fl /\
  gives d R C (scalar_add_mat R C s m) (fun i j => s + entry d m i j)%fl /\
  gives d R C (mat_sub_scalar R C m s) (fun i j => entry d m i j - s)%fl /\
  gives d R C (scalar_sub_mat R C s m) (fun i j => s - entry d m i j)%fl /\
  gives d C R (mat_transpose R C m) (fun i j => entry d m j i).
Proof.
  intros A d R C m o s W V. repeat split; try (apply (build1 d R C m); exact W); try (apply (build2 d R C m o); assumption).
  apply (transpose_ok d); exact W.
Qed.
Print Assumptions C56_elementwise.

Theorem C56_product : forall R C N m o, shaped R C m -> shaped C N o -> gives 0 R N (mat_mul (A := RA) R C N m o) (fun i j => sum C (fun k => m$i,k * o$k,j)).
Proof.
  intros R C N m o W V. destruct (mul_ok (A := RA) 0 R C N m o W V) as (r & E & Wr & H). exists r. split; [exact E|]. split; [exact Wr|].
  intros i j Hi Hj. etransitivity; [apply H; auto|]. rewrite acc_R. reflexivity.
Qed.
Print Assumptions C56_product.

Lemma gives_eq R C r r' g g' : gives 0 R C r g -> gives 0 R C r' g' -> (forall i j, (i < R)%nat -> (j < C)%nat -> g i j = g' i j) -> r = r'.
Proof.
  intros (m & -> & W & H) (m' & -> & W' & H') E. apply f_equal. apply (matrix_ext (A := RA) 0 R C); auto. intros i j Hi Hj.
  etransitivity; [apply H; auto|]. etransitivity; [apply E; auto|]. symmetry. apply H'; auto.
Qed.
Lemma gives_bind (n m n' m' : nat) r g (f : list (list R) -> res (list (list R))) h : gives 0 n m r g ->
  (forall x, shaped n m x -> (forall i j, (i < n)%nat -> (j < m)%nat -> x$i,j = g i j) -> gives 0 n' m' (f x) h) -> gives 0 n' m' (bind r f) h.
Proof. intros (x & -> & W & H) Hf. cbn [bind]. apply Hf; auto. Qed.
Definition unit_matrix (n : nat) : res (list (list R)) := x <- mat_special (A := RA) n n MAT_IDENTITY (lit 1 1) ;; match x with Some m => Ok m | None => Ub end.
Lemma unit_gives n : gives 0 n n (unit_matrix n) delta.
Proof.
  unfold unit_matrix. destruct (mat_special_ok (A := RA) 0 n n MAT_IDENTITY (lit 1 1)) as (e & -> & W & H); [discriminate|]. cbn [bind].
  exists e. split; [reflexivity|]. split; [exact W|]. intros i j Hi Hj. etransitivity; [apply H; auto|]. unfold delta. destruct (i =? j)%nat; cbn; lra.
Qed.

Theorem C56_algebra : forall R C N P a a' b b' c s t,
  shaped R C a -> shaped R C a' -> shaped C N b -> shaped C N b' -> shaped N P c ->
  mat_add (A := RA) R C a a' = mat_add (A := RA) R C a' a /\
  (x <- mat_add (A := RA) R C a a' ;; mat_sub (A := RA) R C x a') = Ok a /\
  (x <- mat_mul (A := RA) R C N a b ;; mat_mul (A := RA) R N P x c) = (x <- mat_mul (A := RA) C N P b c ;; mat_mul (A := RA) R C P a x) /\
  (x <- mat_add (A := RA) R C a a' ;; mat_mul (A := RA) R C N x b) = (x <- mat_mul (A := RA) R C N a b ;; y <- mat_mul (A := RA) R C N a' b ;; mat_add (A := RA) R N x y) /\
  (x <- mat_add (A := RA) C N b b' ;; mat_mul (A := RA) R C N a x) = (x <- mat_mul (A := RA) R C N a b ;; y <- mat_mul (A := RA) R C N a b' ;; mat_add (A := RA) R N x y) /\
  (x <- mat_mul (A := RA) R C N a b ;; mat_transpose (A := RA) R N x) =
    (x <- mat_transpose (A := RA) C N b ;; y <- mat_transpose (A := RA) R C a ;; mat_mul (A := RA) N C R x y) /\
  (x <- mat_transpose (A := RA) R C a ;; mat_transpose (A := RA) C R x) = Ok a /\
  (e <- unit_matrix R ;; mat_mul (A := RA) R R C e a) = Ok a /\
  (e <- unit_matrix C ;; mat_mul (A := RA) R C C a e) = Ok a /\
  (x <- scalar_mul_mat (A := RA) R C s a ;; mat_mul (A := RA) R C N x b) = (x <- mat_mul (A := RA) R C N a b ;; scalar_mul_mat (A := RA) R N s x) /\
  mat_mul_scalar (A := RA) R C a (s + t) = (x <- mat_mul_scalar (A := RA) R C a s ;; y <- mat_mul_scalar (A := RA) R C a t ;; mat_add (A := RA) R C x y) /\
  (s <> 0 -> (x <- mat_mul_scalar (A := RA) R C a s ;; mat_div_scalar (A := RA) R C x s) = Ok a).
Proof.
  intros R C N P a a' b b' c s t Wa Wa' Wb Wb' Wc.
  assert (ADD : forall R C m o, shaped R C m -> shaped R C o -> gives 0 R C (mat_add (A := RA) R C m o) (fun i j => m$i,j + o$i,j)) by (intros; apply (build2 (A := RA) 0); auto).
  assert (SUB : forall R C m o, shaped R C m -> shaped R C o -> gives 0 R C (mat_sub (A := RA) R C m o) (fun i j => m$i,j - o$i,j)) by (intros; apply (build2 (A := RA) 0); auto).
  assert (SC : forall R C m s, shaped R C m -> gives 0 R C (mat_mul_scalar (A := RA) R C m s) (fun i j => m$i,j * s)) by (intros R0 C0 m s0 W; apply (build1 (A := RA) 0 R0 C0 m (fun v => Rmult v s0)); auto).
  assert (CS : forall R C m s, shaped R C m -> gives 0 R C (scalar_mul_mat (A := RA) R C s m) (fun i j => s * m$i,j)) by (intros R0 C0 m s0 W; apply (build1 (A := RA) 0 R0 C0 m (Rmult s0)); auto).
  assert (DV : forall R C m s, shaped R C m -> gives 0 R C (mat_div_scalar (A := RA) R C m s) (fun i j => m$i,j / s)) by (intros R0 C0 m s0 W; apply (build1 (A := RA) 0 R0 C0 m (fun v => Rdiv v s0)); auto).
  assert (TR : forall R C m, shaped R C m -> gives 0 C R (mat_transpose (A := RA) R C m) (fun i j => m$j,i)) by (intros; apply (transpose_ok (A := RA) 0); auto).
  assert (OK : forall R C m, shaped R C m -> gives 0 R C (Ok m) (fun i j => m$i,j)) by (intros R0 C0 m W; exists m; auto).
  assert (MUL := C56_product).
  repeat split.
  - eapply gives_eq; [apply ADD; auto|apply ADD; auto|]. intros; cbn beta; apply Rplus_comm.
  - eapply gives_eq; [eapply gives_bind; [apply ADD; auto|]|apply OK; eauto|].
    + intros x Wx Hx. assert (G := SUB R C x a' Wx Wa'). destruct G as (q & E & Wq & Hq). exists q. split; [exact E|]. split; [exact Wq|]. intros i j Hi Hj. rewrite Hq, Hx by auto. instantiate (1 := fun i j => a$i,j + a'$i,j - a'$i,j). reflexivity.
    + intros; cbn beta; ring.
  - eapply gives_eq with (g := fun i j => sum N (fun k => sum C (fun l => a$i,l * b$l,k) * c$k,j)) (g' := fun i j => sum C (fun l => a$i,l * sum N (fun k => b$l,k * c$k,j))).
    + eapply gives_bind; [apply MUL; eauto|]. intros x Wx Hx. destruct (MUL R N P x c Wx Wc) as (q & E & Wq & Hq). exists q. split; [exact E|]. split; [exact Wq|].
      intros i j Hi Hj. rewrite Hq by auto. apply sum_ext. intros k Hk. rewrite Hx by auto. reflexivity.
    + eapply gives_bind; [apply MUL; eauto|]. intros x Wx Hx. destruct (MUL R C P a x Wa Wx) as (q & E & Wq & Hq). exists q. split; [exact E|]. split; [exact Wq|].
      intros i j Hi Hj. rewrite Hq by auto. apply sum_ext. intros k Hk. rewrite Hx by auto. reflexivity.
    + intros i j Hi Hj.
      rewrite (sum_ext N _ (fun k => sum C (fun l => a$i,l * b$l,k * c$k,j))); [|intros k Hk; rewrite Rmult_comm, <- sum_scal; apply sum_ext; intros; ring].
      rewrite sum_swap. apply sum_ext. intros l Hl. rewrite <- sum_scal. apply sum_ext. intros. ring.
  - eapply gives_eq with (g := fun i j => sum C (fun k => (a$i,k + a'$i,k) * b$k,j)) (g' := fun i j => sum C (fun k => a$i,k * b$k,j) + sum C (fun k => a'$i,k * b$k,j)).
    + eapply gives_bind; [apply ADD; eauto|]. intros x Wx Hx. destruct (MUL R C N x b Wx Wb) as (q & E & Wq & Hq). exists q. split; [exact E|]. split; [exact Wq|].
      intros i j Hi Hj. rewrite Hq by auto. apply sum_ext. intros k Hk. rewrite Hx by auto. reflexivity.
    + eapply gives_bind; [apply MUL; eauto|]. intros x Wx Hx. eapply gives_bind; [apply MUL; eauto|]. intros y Wy Hy.
      destruct (ADD R N x y Wx Wy) as (q & E & Wq & Hq). exists q. split; [exact E|]. split; [exact Wq|]. intros i j Hi Hj. rewrite Hq, Hx, Hy by auto. reflexivity.
    + intros i j Hi Hj. rewrite <- sum_plus. apply sum_ext. intros. ring.
  - eapply gives_eq with (g := fun i j => sum C (fun k => a$i,k * (b$k,j + b'$k,j))) (g' := fun i j => sum C (fun k => a$i,k * b$k,j) + sum C (fun k => a$i,k * b'$k,j)).
    + eapply gives_bind; [apply ADD; eauto|]. intros x Wx Hx. destruct (MUL R C N a x Wa Wx) as (q & E & Wq & Hq). exists q. split; [exact E|]. split; [exact Wq|].
      intros i j Hi Hj. rewrite Hq by auto. apply sum_ext. intros k Hk. rewrite Hx by auto. reflexivity.
    + eapply gives_bind; [apply MUL; eauto|]. intros x Wx Hx. eapply gives_bind; [apply MUL; eauto|]. intros y Wy Hy.
      destruct (ADD R N x y Wx Wy) as (q & E & Wq & Hq). exists q. split; [exact E|]. split; [exact Wq|]. intros i j Hi Hj. rewrite Hq, Hx, Hy by auto. reflexivity.
    + intros i j Hi Hj. rewrite <- sum_plus. apply sum_ext. intros. ring.
  - eapply gives_eq with (g := fun i j => sum C (fun k => a$j,k * b$k,i)) (g' := fun i j => sum C (fun k => b$k,i * a$j,k)).
    + eapply gives_bind; [apply MUL; eauto|]. intros x Wx Hx. destruct (TR R N x Wx) as (q & E & Wq & Hq). exists q. split; [exact E|]. split; [exact Wq|].
      intros i j Hi Hj. rewrite Hq, Hx by auto. reflexivity.
    + eapply gives_bind; [apply TR; eauto|]. intros x Wx Hx. eapply gives_bind; [apply TR; eauto|]. intros y Wy Hy.
      destruct (MUL N C R x y Wx Wy) as (q & E & Wq & Hq). exists q. split; [exact E|]. split; [exact Wq|]. intros i j Hi Hj. rewrite Hq by auto.
      apply sum_ext. intros k Hk. rewrite Hx, Hy by auto. reflexivity.
    + intros i j Hi Hj. apply sum_ext. intros. ring.
  - eapply gives_eq; [eapply gives_bind; [apply TR; eauto|]|apply OK; eauto|].
    + intros x Wx Hx. destruct (TR C R x Wx) as (q & E & Wq & Hq). exists q. split; [exact E|]. split; [exact Wq|]. intros i j Hi Hj. rewrite Hq, Hx by auto. instantiate (1 := fun i j => a$i,j). reflexivity.
    + intros; reflexivity.
  - eapply gives_eq; [eapply gives_bind; [apply unit_gives|]|apply OK; eauto|].
    + intros x Wx Hx. destruct (MUL R R C x a Wx Wa) as (q & E & Wq & Hq). exists q. split; [exact E|]. split; [exact Wq|]. intros i j Hi Hj. rewrite Hq by auto.
      rewrite (sum_ext R _ (fun k => delta i k * a$k,j)); [|intros k Hk; rewrite Hx by auto; reflexivity]. rewrite (sum_delta R (fun k => a$k,j)) by auto. instantiate (1 := fun i j => a$i,j). reflexivity.
    + intros; reflexivity.
  - eapply gives_eq; [eapply gives_bind; [apply unit_gives|]|apply OK; eauto|].
    + intros x Wx Hx. destruct (MUL R C C a x Wa Wx) as (q & E & Wq & Hq). exists q. split; [exact E|]. split; [exact Wq|]. intros i j Hi Hj. rewrite Hq by auto.
      rewrite (sum_ext C _ (fun k => delta j k * a$i,k)); [|intros k Hk; rewrite Hx, delta_sym by auto; ring]. rewrite (sum_delta C (fun k => a$i,k)) by auto. instantiate (1 := fun i j => a$i,j). reflexivity.
    + intros; reflexivity.
  - eapply gives_eq with (g := fun i j => sum C (fun k => s * a$i,k * b$k,j)) (g' := fun i j => s * sum C (fun k => a$i,k * b$k,j)).
    + eapply gives_bind; [apply CS; eauto|]. intros x Wx Hx. destruct (MUL R C N x b Wx Wb) as (q & E & Wq & Hq). exists q. split; [exact E|]. split; [exact Wq|].
      intros i j Hi Hj. rewrite Hq by auto. apply sum_ext. intros k Hk. rewrite Hx by auto. reflexivity.
    + eapply gives_bind; [apply MUL; eauto|]. intros x Wx Hx. destruct (CS R N x s Wx) as (q & E & Wq & Hq). exists q. split; [exact E|]. split; [exact Wq|]. intros i j Hi Hj. rewrite Hq, Hx by auto. reflexivity.
    + intros i j Hi Hj. rewrite <- sum_scal. apply sum_ext. intros. ring.
  - eapply gives_eq with (g := fun i j => a$i,j * (s + t)) (g' := fun i j => a$i,j * s + a$i,j * t); [apply SC; auto| |intros; ring].
    eapply gives_bind; [apply SC; eauto|]. intros x Wx Hx. eapply gives_bind; [apply SC; eauto|]. intros y Wy Hy.
    destruct (ADD R C x y Wx Wy) as (q & E & Wq & Hq). exists q. split; [exact E|]. split; [exact Wq|]. intros i j Hi Hj. rewrite Hq, Hx, Hy by auto. reflexivity.
  - intros Hs. eapply gives_eq with (g := fun i j => a$i,j * s / s) (g' := fun i j => a$i,j); [|apply OK; auto|intros; field; auto].
    eapply gives_bind; [apply SC; eauto|]. intros x Wx Hx. destruct (DV R C x s Wx) as (q & E & Wq & Hq). exists q. split; [exact E|]. split; [exact Wq|]. intros i j Hi Hj. rewrite Hq, Hx by auto. reflexivity.
  all: first [exact Wa|exact Wa'|exact Wb|exact Wb'|exact Wc].
Qed.
Print Assumptions C56_algebra.
Lemma shaped22 {T} (a b c e : T) : shaped 2 2 [[a; b]; [c; e]].
Proof. split; [reflexivity|]. intros r [<-|[<-|[]]]; reflexivity. Qed.
Example C56_nonvacuous : mat_mul (A := RA) 2 2 2 [[1; 2]; [3; 4]] [[0; 1]; [1; 0]] = Ok [[2; 1]; [4; 3]] /\
  shaped 2 3 [[1; 2; 3]; [4; 5; 6]] /\ mat_transpose (A := RA) 2 3 [[1; 2; 3]; [4; 5; 6]] = Ok [[1; 4]; [2; 5]; [3; 6]].
Proof.
  split; [|split].
  - eapply gives_eq; [apply C56_product; apply shaped22|exists [[2; 1]; [4; 3]]; split; [reflexivity|split; [apply shaped22|intros; reflexivity]]|].
    intros i j Hi Hj. destruct i as [|[|i]], j as [|[|j]]; try lia; unfold entry; cbn; ring.
  - split; [reflexivity|]. intros r [<-|[<-|[]]]; reflexivity.
  - reflexivity.
Qed.

(** ** C57: the inverse *)
Theorem C57_inverse : forall n a, shaped n n a -> (forall k, (k <= n)%nat -> nonsingular k a) -> exists b, mat_inv (A := RA) n a = Ok b /\
  mat_mul (A := RA) n n n a b = unit_matrix n /\ mat_mul (A := RA) n n n b a = unit_matrix n.
Proof.
  intros n a W L. destruct (inverse_ok n a W L) as (b & E & Wb & H). exists b. split; [exact E|].
  split; (eapply gives_eq; [apply C56_product; auto|apply unit_gives|]; intros i j Hi Hj; apply (H i j Hi Hj)).
Qed.
Print Assumptions C57_inverse.
(** inv() is defined for every matrix, singular ones included, in any arithmetic. *)
Theorem C57_defined : forall {A : arith} n (a : matrix A), shaped n n a -> exists b, mat_inv n a = Ok b /\ shaped n n b.
Proof. intros A n a W. exact (inv_total (lit 0 1) n a W). Qed.
Print Assumptions C57_defined.
Lemma map_inj {S T} (f : S -> T) : (forall u v, f u = f v -> u = v) -> forall l l', map f l = map f l' -> l = l'.
Proof. intros H. induction l as [|u l IH]; intros [|v l'] E; try discriminate; auto. injection E as E1 E2. f_equal; auto. Qed.
(** A zero pivot is not detected and rows are not exchanged: the matrix below is
    its own inverse, and inv() returns NaN in every element, in binary32. *)
Theorem C57_pivot_refuted : forall o, exists a b : matrix (B32 o), mat_mul (A := B32 o) 2 2 2 a a = Ok [[b32_ofZ 1; b32_ofZ 0]; [b32_ofZ 0; b32_ofZ 1]] /\
  mat_inv (A := B32 o) 2 a = Ok b /\ forall r, In r b -> Forall (fun v => is_nan 24 128 v = true) r.
Proof.
  intros o. exists [[b32_ofZ 0; b32_ofZ 1]; [b32_ofZ 1; b32_ofZ 0]].
  assert (E : exists b, mat_inv (A := B32 o) 2 [[b32_ofZ 0; b32_ofZ 1]; [b32_ofZ 1; b32_ofZ 0]] = Ok b /\ forallb (fun r => forallb (is_nan 24 128) r) b = true).
  { eexists. split; [vm_compute; reflexivity|vm_compute; reflexivity]. }
  destruct E as (b & E & N). exists b. split.
  - assert (M : match mat_mul (A := B32 o) 2 2 2 [[b32_ofZ 0; b32_ofZ 1]; [b32_ofZ 1; b32_ofZ 0]] [[b32_ofZ 0; b32_ofZ 1]; [b32_ofZ 1; b32_ofZ 0]] with
      | Ok r => map (map (B2FF 24 128)) r = map (map (B2FF 24 128)) [[b32_ofZ 1; b32_ofZ 0]; [b32_ofZ 0; b32_ofZ 1]] | Ub => False end) by (vm_compute; reflexivity).
    destruct (mat_mul (A := B32 o) 2 2 2 _ _) as [r|]; [|contradiction]. apply f_equal.
    assert (I : forall l l' : list (list binary32), map (map (B2FF 24 128)) l = map (map (B2FF 24 128)) l' -> l = l').
    { intros l l'. apply map_inj. intros u v. apply map_inj. apply B2FF_inj. }
    apply I. exact M.
  - split; [exact E|]. intros r Hr. rewrite forallb_forall in N. specialize (N r Hr). rewrite forallb_forall in N. apply Forall_forall. exact N.
Qed.
Print Assumptions C57_pivot_refuted.
Example C57_nonvacuous : shaped 2 2 [[2; 1]; [1; 1]] /\ forall k, (k <= 2)%nat -> nonsingular k [[2; 1]; [1; 1]].
Proof.
  split; [apply shaped22|]. intros k Hk v H j Hj. destruct k as [|[|[|k]]]; try lia.
  - specialize (H 0%nat ltac:(lia)). unfold entry in H. cbn in H. replace j with 0%nat by lia. lra.
  - pose proof (H 0%nat ltac:(lia)) as H0. pose proof (H 1%nat ltac:(lia)) as H1. unfold entry in H0, H1. cbn in H0, H1. destruct j as [|[|j]]; [lra|lra|lia].
Qed.

(** ** C58: increment, decrement, norm *)
Theorem C58_increment : forall {A : arith} (d : F A) R C (m : matrix A), shaped R C m ->
  gives d R C (pre_inc R C m) (fun i j => entry d m i j + lit 1 1)%fl /\
  (exists r, post_inc R C m = Ok (m, r) /\ gives d R C (Ok r) (fun i j => entry d m i j + lit 1 1)%fl) /\
  (exists r, post_dec R C m = Ok (m, r) /\ gives d R C (Ok r) (fun i j => entry d m i j - lit 1 1)%fl).
Proof.
  intros A d R C m W. repeat split.
  - apply (inplace_ok d R C m _ (fun _ _ v => v + lit 1 1)%fl); auto.
  - unfold post_inc. rewrite (mat_copy_ok d) by auto. cbn [bind]. destruct (inplace_ok d R C m (fun _ _ _ a => Ok (a + lit 1 1)%fl) (fun _ _ v => v + lit 1 1)%fl W) as (r & -> & Wr & H); auto.
    exists r. split; auto. exists r. auto.
  - unfold post_dec. rewrite (mat_copy_ok d) by auto. cbn [bind]. destruct (inplace_ok d R C m (fun _ _ _ a => Ok (a - lit 1 1)%fl) (fun _ _ v => v - lit 1 1)%fl W) as (r & -> & Wr & H); auto.
    exists r. split; auto. exists r. auto.
Qed.
Print Assumptions C58_increment.
(** --m adds one to every element. *)
Theorem C58_decrement_refuted : forall R C m, shaped R C m -> gives 0 R C (pre_dec (A := RA) R C m) (fun i j => m$i,j + 1).
Proof.
  intros R C m W. destruct (inplace_ok (A := RA) 0 R C m (fun _ _ _ a => Ok (a + lit 1 1)%fl) (fun _ _ v => v + lit 1 1)%fl W) as (r & E & Wr & H); auto.
  exists r. split; [exact E|]. split; [exact Wr|]. intros i j Hi Hj. etransitivity; [apply H; auto|]. cbn. lra.
Qed.
Print Assumptions C58_decrement_refuted.
Theorem C58_norm_square : forall n m, shaped n n m -> (1 <= n)%nat -> exists r, normInf (A := RA) n n m = Ok r /\
  (forall i, (i < n)%nat -> sum n (fun j => Rabs (m$i,j)) <= r) /\ exists i, (i < n)%nat /\ r = sum n (fun j => Rabs (m$i,j)).
Proof. exact normInf_square. Qed.
Print Assumptions C58_norm_square.
(** The loops of normInf() run over columns and rows the wrong way round. *)
Theorem C58_norm_undefined : forall {A : arith} R C (m : matrix A), shaped R C m -> (1 <= R)%nat -> (1 <= C)%nat -> R <> C -> normInf R C m = Ub.
Proof. intros A R C m W HR HC Hne. apply normInf_oob; auto. Qed.
Print Assumptions C58_norm_undefined.
Example C58_nonvacuous : shaped 2 3 [[1; 2; 3]; [4; 5; 6]] /\ normInf (A := RA) 2 3 [[1; 2; 3]; [4; 5; 6]] = Ub /\ pre_dec (A := RA) 1 1 [[5]] = Ok [[5 + lit (a := RA) 1 1]].
Proof.
  assert (W : shaped 2 3 [[1; 2; 3]; [4; 5; 6]]) by (split; [reflexivity|]; intros r [<-|[<-|[]]]; reflexivity).
  split; [exact W|]. split; [apply (C58_norm_undefined (A := RA)); auto; lia|reflexivity].
Qed.

(** ** C76: compound assignment *)
Theorem C76_matrix_operands : forall {A : arith} (d : F A) R C (m o : matrix A), shaped R C m -> shaped R C o ->
  gives d R C (add_assign R C (Other o) m) (fun i j => entry d m i j + entry d o i j)%fl /\
  gives d R C (sub_assign R C (Other o) m) (fun i j => entry d m i j - entry d o i j)%fl /\
  gives d R C (add_assign R C Self m) (fun i j => entry d m i j + entry d m i j)%fl /\
  gives d R C (sub_assign R C Self m) (fun i j => entry d m i j - entry d m i j)%fl /\
  (R = C -> mul_assign R C (Other o) m = mat_mul R C C m o /\ mul_assign R C Self m = mat_mul R C C m m).
Proof.
  intros A d R C m o W V. unfold add_assign, sub_assign. repeat split.
  - apply (inplace_ok d R C m _ (fun i j v => v + entry d o i j)%fl W). intros i j k Hi Hj Wk. cbn [operand_at]. rewrite (mget_ok d R C) by auto. reflexivity.
  - apply (inplace_ok d R C m _ (fun i j v => v - entry d o i j)%fl W). intros i j k Hi Hj Wk. cbn [operand_at]. rewrite (mget_ok d R C) by auto. reflexivity.
  - apply (inplace_ok d R C m _ (fun i j v => v + v)%fl W). intros i j k Hi Hj Wk. cbn [operand_at]. rewrite (mget_ok d R C) by auto. reflexivity.
  - apply (inplace_ok d R C m _ (fun i j v => v - v)%fl W). intros i j k Hi Hj Wk. cbn [operand_at]. rewrite (mget_ok d R C) by auto. reflexivity.
  - subst C. unfold mul_assign. destruct (mul_ok d R R R m o W V) as (r & -> & Wr & _). cbn [bind]. apply (mat_copy_ok d); auto.
  - subst C. unfold mul_assign. destruct (mul_ok d R R R m m W W) as (r & -> & Wr & _). cbn [bind]. apply (mat_copy_ok d); auto.
Qed.
Print Assumptions C76_matrix_operands.
Theorem C76_scalar_operands : forall {A : arith} (d : F A) R C (m : matrix A) s, shaped R C m ->
  gives d R C (mul_assign_scalar R C (Out s) m) (fun i j => entry d m i j * s)%fl /\
  gives d R C (div_assign_scalar R C (Out s) m) (fun i j => entry d m i j / s)%fl /\
  gives d R C (add_assign_scalar R C (Out s) m) (fun i j => entry d m i j + s)%fl /\
  gives d R C (sub_assign_scalar R C (Out s) m) (fun i j => entry d m i j - s)%fl.
Proof.
  intros A d R C m s W. repeat split.
  - apply (inplace_ok d R C m _ (fun i j v => v * s)%fl W); auto.
  - apply (inplace_ok d R C m _ (fun i j v => v / s)%fl W); auto.
  - apply (inplace_ok d R C m _ (fun i j v => v + s)%fl W); auto.
  - apply (inplace_ok d R C m _ (fun i j v => v - s)%fl W); auto.
Qed.
Print Assumptions C76_scalar_operands.
(** m /= m(p,q) and the like: the scalar is passed by reference and changes when
    its own turn comes, so the later elements are combined with the new value. *)
Theorem C76_own_element : forall {A : arith} (d : F A) R C (m : matrix A) p q, shaped R C m -> (p < R)%nat -> (q < C)%nat ->
  let own op := fun i j => op (entry d m i j) (if after p q i j then op (entry d m p q) (entry d m p q) else entry d m p q) in
  gives d R C (mul_assign_scalar R C (At (Z.of_nat p) (Z.of_nat q)) m) (own fmul) /\
  gives d R C (div_assign_scalar R C (At (Z.of_nat p) (Z.of_nat q)) m) (own fdiv) /\
  gives d R C (add_assign_scalar R C (At (Z.of_nat p) (Z.of_nat q)) m) (own fadd) /\
  gives d R C (sub_assign_scalar R C (At (Z.of_nat p) (Z.of_nat q)) m) (own fsub).
Proof.
  intros A d R C m p q W Hp Hq own. repeat split; apply (alias_ok d R C m p q); auto.
Qed.
Print Assumptions C76_own_element.
Theorem C76_own_element_refuted : exists m : list (list R), shaped 1 2 m /\ ~ gives 0 1 2 (div_assign_scalar (A := RA) 1 2 (At 0 0) m) (fun i j => m$i,j / m$0,0).
Proof.
  exists [[2; 4]]. assert (W : shaped 1 2 [[2; 4]]) by (split; [reflexivity|]; intros r [<-|[]]; reflexivity). split; [exact W|].
  intros (r & E & _ & H). destruct (C76_own_element (A := RA) 0 1 2 [[2; 4]] 0 0 W ltac:(lia) ltac:(lia)) as (_ & (r' & E' & _ & H') & _).
  change (Z.of_nat 0) with 0%Z in E'. rewrite E in E'. injection E' as <-. specialize (H 0%nat 1%nat ltac:(lia) ltac:(lia)). specialize (H' 0%nat 1%nat ltac:(lia) ltac:(lia)).
  unfold after, entry in *. cbn in H, H'. change (F RA) with R in H'. rewrite H in H'. lra.
Qed.
Print Assumptions C76_own_element_refuted.
Example C76_nonvacuous : shaped 2 2 [[2; 4]; [6; 8]] /\ after 0 0 0 1 = true /\ after 1 1 0 1 = false.
Proof. split; [apply shaped22|]. split; reflexivity. Qed.
