(** Model of the operator interface of src/include/fp16.hpp (lines 141-246): programs over fp16 objects.
    An object is its 32-bit raw value; the state gives the raw value of every named object.
    Simplification: the operands of an expression have no side effects ([++] and [--] are statements of
    their own), so the unspecified evaluation order of C++ operands plays no role.  Operands are taken by
    reference and may be the assigned object itself. *)
From Coq Require Import ZArith Bool.
From Verif Require Import Base Fp16_Model.
Open Scope Z_scope.

Definition upd {A} (s : nat -> A) (i : nat) (v : A) : nat -> A := fun j => if Nat.eqb j i then v else s j.

(** fp16 expressions: an object, fp16::from(int) (fp16.hpp:269-272), the binary operators + - * /
    (fp16.hpp:142, 160, 164, 173) and unary minus (fp16.hpp:151) *)
Inductive bop : Type := OAdd | OSub | OMul | ODiv.
Inductive expr : Type :=
  | EVar (i : nat)
  | EInt (k : Z)
  | EBin (o : bop) (a b : expr)
  | ENeg (a : expr).

(** The member functions the binary operators forward to: fp16.hpp:142-180. *)
Definition apply_op (o : bop) (x y : Z) : res Z :=
  match o with OAdd => Ok (add x y) | OSub => Ok (sub x y) | OMul => mul x y | ODiv => div x y end.
Fixpoint eval (s : nat -> Z) (e : expr) : res Z :=
  match e with
  | EVar i => Ok (s i)
  | EInt k => Ok (fromInt k)
  | EBin o a b => x <- eval s a ;; y <- eval s b ;; apply_op o x y
  | ENeg a => x <- eval s a ;; neg x
  end.

(** Comparisons: fp16.hpp:203-226. *)
Inductive cmp : Type := CLt | CLe | CGt | CGe | CEq | CNe.
Definition apply_cmp (c : cmp) (x y : Z) : bool :=
  match c with CLt => flt x y | CLe => fle x y | CGt => fgt x y | CGe => fge x y | CEq => feq x y | CNe => fne x y end.

(** Statements: assignment (fp16.hpp:242-246), assignment of an int (fp16.hpp:227-231), compound assignment
    (fp16.hpp:146, 155, 168, 177), ++x, --x (fp16.hpp:182, 193), y = x++ and y = x-- (fp16.hpp:187, 198), and
    the control flow of C++. *)
Inductive stmt : Type :=
  | SSkip
  | SAssign (i : nat) (e : expr)
  | SAssignInt (i : nat) (k : Z)
  | SCompound (o : bop) (i : nat) (e : expr)
  | SPreInc (i : nat)
  | SPreDec (i : nat)
  | SPostInc (j i : nat)
  | SPostDec (j i : nat)
  | SSeq (p q : stmt)
  | SIf (c : cmp) (a b : expr) (p q : stmt)
  | SWhile (c : cmp) (a b : expr) (p : stmt).

Definition test (s : nat -> Z) (c : cmp) (a b : expr) : res bool :=
  x <- eval s a ;; y <- eval s b ;; Ok (apply_cmp c x y).

(** Execution: [None] if the program has not ended after [n] levels of nesting and iteration, [Some Ub] if it
    ran into undefined behaviour. *)
Fixpoint run (n : nat) (p : stmt) (s : nat -> Z) : option (res (nat -> Z)) :=
  match n with
  | O => None
  | S n =>
    match p with
    | SSkip => Some (Ok s)
    | SAssign i e => Some (v <- eval s e ;; Ok (upd s i v))
    | SAssignInt i k => Some (Ok (upd s i (fromInt k)))
    | SCompound o i e => Some (v <- eval s e ;; r <- apply_op o (s i) v ;; Ok (upd s i r))
    | SPreInc i => Some (Ok (upd s i (incr (s i))))
    | SPreDec i => Some (Ok (upd s i (decr (s i))))
    | SPostInc j i => Some (Ok (upd (upd s i (incr (s i))) j (s i)))
    | SPostDec j i => Some (Ok (upd (upd s i (decr (s i))) j (s i)))
    | SSeq p q => match run n p s with Some (Ok s1) => run n q s1 | r => r end
    | SIf c a b p q =>
      match test s c a b with Ok true => run n p s | Ok false => run n q s | Ub => Some Ub end
    | SWhile c a b p =>
      match test s c a b with
      | Ok true => match run n p s with Some (Ok s1) => run n (SWhile c a b p) s1 | r => r end
      | Ok false => Some (Ok s)
      | Ub => Some Ub
      end
    end
  end.
