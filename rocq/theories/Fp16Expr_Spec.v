(** Specification for programs over fp16 objects (C127, C128): the same programs over the real numbers. *)
From Coq Require Import ZArith Reals.
From Verif Require Import Base Fp16_Spec Fp16Fun_Spec Fp16Expr_Model.
Open Scope R_scope.

(** The objects [s] hold the real numbers [p]. *)
Definition holds (s : nat -> Z) (p : nat -> R) : Prop := forall i, raw (s i) /\ fxR (s i) = p i.
(** within the range, the reserved overflow value excluded *)
Definition fitsR (v : R) : Prop := - 32768 < v < 32768.
(** a multiple of 2^-16 *)
Definition on_grid (v : R) : Prop := exists k : Z, v = IZR k / 65536.

Definition real_op (o : bop) (x y : R) : R :=
  match o with OAdd => x + y | OSub => x - y | OMul => x * y | ODiv => x / y end.
Fixpoint reval (p : nat -> R) (e : expr) : R :=
  match e with EVar i => p i | EInt k => IZR k | EBin o a b => real_op o (reval p a) (reval p b) | ENeg a => - reval p a end.
Definition real_cmp (c : cmp) (x y : R) : Prop :=
  match c with CLt => x < y | CLe => x <= y | CGt => x > y | CGe => x >= y | CEq => x = y | CNe => x <> y end.

(** The result of one operation on reals is representable.  A product or quotient has to be a multiple of 2^-16;
    the product function needs its factors' magnitudes to add up to at most 32766 and the divisor must not be 0. *)
Definition exact_op (o : bop) (x y : R) : Prop :=
  match o with
  | OAdd | OSub => fitsR (real_op o x y)
  | OMul => Rabs x + Rabs y <= 32766 /\ Rabs (x * y) <= 32767 /\ on_grid (x * y)
  | ODiv => y <> 0 /\ Rabs (x / y) <= 32767 /\ on_grid (x / y)
  end.
(** Every object, constant and intermediate result of the expression is representable. *)
Fixpoint exact (p : nat -> R) (e : expr) : Prop :=
  match e with
  | EVar i => fitsR (p i)
  | EInt k => fitsR (IZR k)
  | EBin o a b => exact p a /\ exact p b /\ exact_op o (reval p a) (reval p b)
  | ENeg a => exact p a
  end.

(** Runs over the reals in which every value that occurs is representable. *)
Inductive rexec : stmt -> (nat -> R) -> (nat -> R) -> Prop :=
  | RSkip p : rexec SSkip p p
  | RAssign i e p : exact p e -> rexec (SAssign i e) p (upd p i (reval p e))
  | RAssignInt i k p : fitsR (IZR k) -> rexec (SAssignInt i k) p (upd p i (IZR k))
  | RCompound o i e p : fitsR (p i) -> exact p e -> exact_op o (p i) (reval p e) ->
      rexec (SCompound o i e) p (upd p i (real_op o (p i) (reval p e)))
  | RPreInc i p : fitsR (p i + 1) -> rexec (SPreInc i) p (upd p i (p i + 1))
  | RPreDec i p : fitsR (p i - 1) -> rexec (SPreDec i) p (upd p i (p i - 1))
  | RPostInc j i p : fitsR (p i + 1) -> rexec (SPostInc j i) p (upd (upd p i (p i + 1)) j (p i))
  | RPostDec j i p : fitsR (p i - 1) -> rexec (SPostDec j i) p (upd (upd p i (p i - 1)) j (p i))
  | RSeq a b p q r : rexec a p q -> rexec b q r -> rexec (SSeq a b) p r
  | RIfTrue c x y a b p q : exact p x -> exact p y -> real_cmp c (reval p x) (reval p y) -> rexec a p q -> rexec (SIf c x y a b) p q
  | RIfFalse c x y a b p q : exact p x -> exact p y -> ~ real_cmp c (reval p x) (reval p y) -> rexec b p q -> rexec (SIf c x y a b) p q
  | RWhileTrue c x y a p q r : exact p x -> exact p y -> real_cmp c (reval p x) (reval p y) -> rexec a p q -> rexec (SWhile c x y a) q r ->
      rexec (SWhile c x y a) p r
  | RWhileFalse c x y a p : exact p x -> exact p y -> ~ real_cmp c (reval p x) (reval p y) -> rexec (SWhile c x y a) p p.

(** Forward error of an expression: what half a unit in the last place per product and quotient amounts to. *)
Fixpoint err (p : nat -> R) (e : expr) : R :=
  match e with
  | EVar _ | EInt _ => 0
  | ENeg a => err p a
  | EBin OAdd a b | EBin OSub a b => err p a + err p b
  | EBin OMul a b => Rabs (reval p a) * err p b + Rabs (reval p b) * err p a + err p a * err p b + ulp16 / 2
  | EBin ODiv a b => (err p a + Rabs (reval p a / reval p b) * err p b) / (Rabs (reval p b) - err p b) + ulp16 / 2
  end.
(** Value and error together stay in range at every node. *)
Fixpoint roomy (p : nat -> R) (e : expr) : Prop :=
  Rabs (reval p e) + err p e <= 32767 /\
  match e with
  | EVar _ | EInt _ => True
  | ENeg a => roomy p a
  | EBin o a b => roomy p a /\ roomy p b /\
      match o with
      | OAdd | OSub => True
      | OMul => Rabs (reval p a) + err p a + (Rabs (reval p b) + err p b) <= 32766
      | ODiv => err p b < Rabs (reval p b)
      end
  end.

(** Inner product of objects and Horner scheme, as a user would write them. *)
Fixpoint dot (l : list (nat * nat)) : expr :=
  match l with nil => EInt 0 | cons (i, j) t => EBin OAdd (EBin OMul (EVar i) (EVar j)) (dot t) end.
Fixpoint dotR (p : nat -> R) (l : list (nat * nat)) : R :=
  match l with nil => 0 | cons (i, j) t => p i * p j + dotR p t end.
Fixpoint dot_abs (p : nat -> R) (l : list (nat * nat)) : R :=
  match l with nil => 0 | cons (i, j) t => Rabs (p i * p j) + dot_abs p t end.
(** c0 + x * (c1 + x * (...)) with the coefficients in the objects of [l] *)
Fixpoint horner (x : nat) (l : list nat) : expr :=
  match l with nil => EInt 0 | cons c t => EBin OAdd (EVar c) (EBin OMul (EVar x) (horner x t)) end.
Fixpoint hornerR (p : nat -> R) (x : R) (l : list nat) (k : nat) : R :=
  match l with nil => 0 | cons c t => p c * x ^ k + hornerR p x t (S k) end.
Fixpoint coef_abs (p : nat -> R) (l : list nat) : R :=
  match l with nil => 0 | cons c t => Rabs (p c) + coef_abs p t end.
