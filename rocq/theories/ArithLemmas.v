(** Facts about the arithmetics of Arith.v. *)
From Coq Require Import ZArith Reals Lra Lia Bool.
From Flocq Require Import IEEE754.Binary IEEE754.Bits Core.
From Verif Require Import Arith.

Lemma Rltb_spec x y : reflect (x < y)%R (Rltb x y).
Proof. unfold Rltb. destruct (Rlt_dec x y); constructor; auto. Qed.
Lemma Rleb_spec x y : reflect (x <= y)%R (Rleb x y).
Proof. unfold Rleb. destruct (Rle_dec x y); constructor; auto. Qed.
Lemma Reqb_spec x y : reflect (x = y) (Reqb x y).
Proof. unfold Reqb. destruct (Req_EM_T x y); constructor; auto. Qed.

Lemma Rltb_true x y : (x < y)%R -> Rltb x y = true.
Proof. destruct (Rltb_spec x y); auto; lra. Qed.
Lemma Rltb_false x y : (y <= x)%R -> Rltb x y = false.
Proof. destruct (Rltb_spec x y); auto; lra. Qed.
Lemma Rleb_true x y : (x <= y)%R -> Rleb x y = true.
Proof. destruct (Rleb_spec x y); auto; lra. Qed.
Lemma Rleb_false x y : (y < x)%R -> Rleb x y = false.
Proof. destruct (Rleb_spec x y); auto; lra. Qed.
Lemma Reqb_true x y : x = y -> Reqb x y = true.
Proof. destruct (Reqb_spec x y); auto; lra. Qed.
Lemma Reqb_false x y : x <> y -> Reqb x y = false.
Proof. destruct (Reqb_spec x y); auto; lra. Qed.
Lemma Rltb_inv x y : Rltb x y = true -> (x < y)%R.
Proof. destruct (Rltb_spec x y); auto; discriminate. Qed.
Lemma Rltb_inv_false x y : Rltb x y = false -> (y <= x)%R.
Proof. destruct (Rltb_spec x y); try discriminate; intros; lra. Qed.
Lemma Rleb_inv x y : Rleb x y = true -> (x <= y)%R.
Proof. destruct (Rleb_spec x y); auto; discriminate. Qed.
Lemma Rleb_inv_false x y : Rleb x y = false -> (y < x)%R.
Proof. destruct (Rleb_spec x y); try discriminate; intros; lra. Qed.

(** Turn the boolean comparisons of [RA] into case distinctions. *)
Ltac Rcases :=
  repeat match goal with
  | |- context [Rltb ?x ?y] => destruct (Rltb_spec x y)
  | |- context [Rleb ?x ?y] => destruct (Rleb_spec x y)
  | |- context [Reqb ?x ?y] => destruct (Reqb_spec x y)
  | H : context [Rltb ?x ?y] |- _ => destruct (Rltb_spec x y)
  | H : context [Rleb ?x ?y] |- _ => destruct (Rleb_spec x y)
  | H : context [Reqb ?x ?y] |- _ => destruct (Reqb_spec x y)
  end.

(** ** binary32 comparisons *)

Lemma b32_compare_nan x y : b32_compare x y = None <-> is_nan 24 128 x = true \/ is_nan 24 128 y = true.
Proof.
  unfold b32_compare. split.
  - destruct x as [sx|sx|sx px Hx|sx mx ex Hx], y as [sy|sy|sy py Hy|sy my ey Hy]; cbn; auto; try discriminate.
    all: try (destruct sx); try (destruct sy); try discriminate.
    all: try (destruct (Z.compare ex ey); discriminate).
  - intros [H|H]; [destruct x | destruct y]; try discriminate H; try reflexivity.
    destruct x; reflexivity.
Qed.

(** In any arithmetic of interest the order is total on numbers. *)
Definition ordered (A : arith) : Prop := forall x y : F A,
  fisnan x = false -> fisnan y = false -> flt x y = false -> fle y x = true.

Lemma b32_isnan o x : @fisnan (B32 o) x = is_nan 24 128 x.
Proof.
  unfold fisnan, feq, B32, b32_eq. 
  destruct (is_nan 24 128 x) eqn:E.
  - destruct x; try discriminate E. reflexivity.
  - destruct (b32_compare x x) as [c|] eqn:C.
    + unfold b32_compare in C. destruct c; [reflexivity | |]; exfalso;
      pose proof (Bcompare_swap 24 128 x x) as S; rewrite C in S; discriminate S.
    + apply b32_compare_nan in C. rewrite E in C. destruct C; discriminate.
Qed.

Lemma B32_ordered o : ordered (B32 o).
Proof.
  intros x y Hx Hy. rewrite !b32_isnan in *. unfold flt, fle, B32, b32_lt, b32_le, b32_compare.
  pose proof (Bcompare_swap 24 128 x y) as S. rewrite S.
  destruct (Bcompare 24 128 x y) as [c|] eqn:C.
  - destruct c; intros; auto; discriminate.
  - exfalso. change (b32_compare x y = None) in C. apply b32_compare_nan in C. rewrite Hx, Hy in C. destruct C; discriminate.
Qed.

Lemma RA_isnan x : @fisnan RA x = false.
Proof. unfold fisnan. cbn. destruct (Reqb_spec x x); auto. contradiction. Qed.

Lemma RA_ordered : ordered RA.
Proof. intros x y _ _. cbn. Rcases; auto; intros; lra. Qed.

(** The operands of a successful comparison are numbers. *)
Definition lt_numbers (A : arith) : Prop := forall x y : F A,
  flt x y = true -> fisnan x = false /\ fisnan y = false /\ fle x y = true.

Lemma B32_lt_numbers o : lt_numbers (B32 o).
Proof.
  intros x y H. rewrite !b32_isnan. unfold flt, fle, B32, b32_lt, b32_le in *.
  destruct (b32_compare x y) as [c|] eqn:C; [|discriminate].
  assert (N : b32_compare x y <> None) by congruence. rewrite b32_compare_nan in N.
  destruct c; try discriminate. 
  destruct (is_nan 24 128 x), (is_nan 24 128 y); auto; exfalso; auto.
Qed.
Lemma RA_lt_numbers : lt_numbers RA.
Proof. intros x y H. rewrite !RA_isnan. cbn in *. Rcases; auto; try discriminate; lra. Qed.

(** Replace the operations of [RA] by those of the reals. *)
Ltac toR := cbn [fadd fsub fmul fdiv fopp fabs flt fle feq lit lib o_exp o_log o_sqrt o_cos o_pow RA F] in *;
            change (F RA) with R in *; unfold Rdiv; rewrite ?Rinv_1, ?Rmult_1_r in *.
