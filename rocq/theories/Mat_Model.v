(** Model of the fixed-size matrix class: src/include/mat.hpp. *)
From Coq Require Import ZArith List Bool.
From Verif Require Import Base Arith.
Import ListNotations.
Open Scope Z_scope.

(** for( i = i0; i < i0 + k; ++i ) *)
Fixpoint floop {S} (k : nat) (i : Z) (body : Z -> S -> res S) (s : S) : res S :=
  match k with O => Ok s | S k' => s' <- body i s ;; floop k' (i + 1) body s' end.
(** The double loop over rows and columns, e.g. mat.hpp:40-44. *)
Definition each {S} (R C : nat) (body : Z -> Z -> S -> res S) (s : S) : res S :=
  floop R 0 (fun i => floop C 0 (fun j => body i j)) s.

Section Mat.
Context {A : arith}.
Notation X := (F A).

(** mat.hpp:35: real_t m[Rows][Cols], a list of rows. *)
Definition matrix := list (list X).
(** m[i][j], and m[i][j] = v; an index outside its dimension is undefined.
    Also operator[] and operator()(row,col), mat.hpp:100-103, 431-439. *)
Definition mget (m : matrix) (i j : Z) : res X := r <- get m i ;; get r j.
Definition mset (m : matrix) (i j : Z) (v : X) : res matrix := r <- get m i ;; r' <- set r j v ;; set m i r'.

(** mat.hpp:38-45; the array before the loop holds anything, here zeros. *)
Definition blank (R C : nat) : matrix := repeat (repeat (lit 0 1) C) R.
Definition mat_zero (R C : nat) : res matrix := each R C (fun i j m => mset m i j (lit 0 1)) (blank R C).

(** mat.hpp:20-25 *)
Inductive matSpecial := MAT_ZERO | MAT_IDENTITY | MAT_ALL | MAT_MAGIC.
(** mat.hpp:47-81; [None] is the uninitialised matrix of MAT_MAGIC.  The
    assertion on line 51 makes the constructor unusable for Rows <> Cols,
    whatever the type asked for: not modelled. *)
Definition mat_special (R C : nat) (t : matSpecial) (value : X) : res (option matrix) :=
  match t with
  | MAT_IDENTITY => m <- each R C (fun i j m => mset m i j (if i =? j then value else lit 0 1)) (blank R C) ;; Ok (Some m)
  | MAT_ALL => m <- each R C (fun i j m => mset m i j value) (blank R C) ;; Ok (Some m)
  | MAT_MAGIC => Ok None
  | MAT_ZERO => m <- mat_zero R C ;; Ok (Some m)
  end.
(** mat.hpp:83-93: one argument per element. *)
Definition mat_list (R C : nat) (elements : list X) : res matrix :=
  each R C (fun i j m => v <- get elements (i * Z.of_nat C + j) ;; mset m i j v) (blank R C).
(** mat.hpp:105-113: operator()(index) *)
Definition at_index (C : nat) (m : matrix) (index : Z) : res X := mget m (index / Z.of_nat C) (index mod Z.of_nat C).
(** mat.hpp:116-123; operator=, 382-392, copies the same way. *)
Definition mat_copy (R C : nat) (o : matrix) : res matrix :=
  each R C (fun i j m => v <- mget o i j ;; mset m i j v) (blank R C).

(** The operators that build a new matrix from this one element by element. *)
Definition build (R C : nat) (f : Z -> Z -> res X) : res matrix :=
  z <- mat_zero R C ;; each R C (fun i j r => v <- f i j ;; mset r i j v) z.
(** mat.hpp:126-135 *)
Definition mat_add (R C : nat) (m o : matrix) : res matrix := build R C (fun i j => a <- mget m i j ;; b <- mget o i j ;; Ok (a + b)%fl).
(** mat.hpp:137-146 *)
Definition mat_sub (R C : nat) (m o : matrix) : res matrix := build R C (fun i j => a <- mget m i j ;; b <- mget o i j ;; Ok (a - b)%fl).
(** mat.hpp:149-161; the body of the loop over j. *)
Definition mul_cell (C : nat) (m o : matrix) (i j : Z) (r : matrix) : res matrix :=
  r0 <- mset r i j (lit 0 1) ;;
  floop C 0 (fun k r => v <- mget r i j ;; a <- mget m i k ;; b <- mget o k j ;; mset r i j (v + a * b)%fl) r0.
Definition mat_mul (R C N : nat) (m o : matrix) : res matrix := z <- mat_zero R N ;; each R N (mul_cell C m o) z.
(** mat.hpp:164-173, 176-185, 188-197, 211-220, 244-253, 358-367, 370-379 *)
Definition mat_mul_scalar (R C : nat) (m : matrix) (s : X) : res matrix := build R C (fun i j => a <- mget m i j ;; Ok (a * s)%fl).
Definition mat_div_scalar (R C : nat) (m : matrix) (s : X) : res matrix := build R C (fun i j => a <- mget m i j ;; Ok (a / s)%fl).
Definition scalar_mul_mat (R C : nat) (s : X) (m : matrix) : res matrix := build R C (fun i j => a <- mget m i j ;; Ok (s * a)%fl).
Definition mat_add_scalar (R C : nat) (m : matrix) (s : X) : res matrix := build R C (fun i j => a <- mget m i j ;; Ok (a + s)%fl).
Definition mat_sub_scalar (R C : nat) (m : matrix) (s : X) : res matrix := build R C (fun i j => a <- mget m i j ;; Ok (a - s)%fl).
Definition scalar_add_mat (R C : nat) (s : X) (m : matrix) : res matrix := build R C (fun i j => a <- mget m i j ;; Ok (s + a)%fl).
Definition scalar_sub_mat (R C : nat) (s : X) (m : matrix) : res matrix := build R C (fun i j => a <- mget m i j ;; Ok (s - a)%fl).
(** mat.hpp:395-404 *)
Definition mat_neg (R C : nat) (m : matrix) : res matrix := build R C (fun i j => a <- mget m i j ;; Ok (- a)%fl).
(** mat.hpp:418-428 *)
Definition mat_transpose (R C : nat) (m : matrix) : res matrix :=
  z <- mat_zero C R ;; each R C (fun i j r => v <- mget m i j ;; mset r j i v) z.

(** The operators that work in place. *)
Definition inplace (R C : nat) (f : Z -> Z -> matrix -> X -> res X) (m : matrix) : res matrix :=
  each R C (fun i j m => a <- mget m i j ;; v <- f i j m a ;; mset m i j v) m.
(** mat.hpp:223-231, 256-264: both add one. *)
Definition pre_inc (R C : nat) (m : matrix) : res matrix := inplace R C (fun _ _ _ a => Ok (a + lit 1 1)%fl) m.
Definition pre_dec (R C : nat) (m : matrix) : res matrix := inplace R C (fun _ _ _ a => Ok (a + lit 1 1)%fl) m.
(** mat.hpp:233-242, 266-275: (returned value, new value of the matrix) *)
Definition post_inc (R C : nat) (m : matrix) : res (matrix * matrix) :=
  t <- mat_copy R C m ;; m' <- inplace R C (fun _ _ _ a => Ok (a + lit 1 1)%fl) m ;; Ok (t, m').
Definition post_dec (R C : nat) (m : matrix) : res (matrix * matrix) :=
  t <- mat_copy R C m ;; m' <- inplace R C (fun _ _ _ a => Ok (a - lit 1 1)%fl) m ;; Ok (t, m').

(** A matrix operand of a compound assignment: another matrix or *this. *)
Inductive operand := Other (o : matrix) | Self.
Definition operand_at (o : operand) (m : matrix) (i j : Z) : res X := match o with Other o => mget o i j | Self => mget m i j end.
(** mat.hpp:278-286, 288-296 *)
Definition add_assign (R C : nat) (o : operand) (m : matrix) : res matrix := inplace R C (fun i j m a => b <- operand_at o m i j ;; Ok (a + b)%fl) m.
Definition sub_assign (R C : nat) (o : operand) (m : matrix) : res matrix := inplace R C (fun i j m a => b <- operand_at o m i j ;; Ok (a - b)%fl) m.
(** mat.hpp:298-314; compiles for a square right operand only. *)
Definition mul_assign (R C : nat) (o : operand) (m : matrix) : res matrix :=
  r <- mat_mul R C C m (match o with Other o => o | Self => m end) ;; mat_copy R C r.
(** A scalar operand is taken by reference: a variable elsewhere, or an element
    of the matrix being assigned, which is read again for every element. *)
Inductive scalar := Out (v : X) | At (p q : Z).
Definition scalar_now (s : scalar) (m : matrix) : res X := match s with Out v => Ok v | At p q => mget m p q end.
(** mat.hpp:316-324, 326-334, 336-345, 347-356 *)
Definition mul_assign_scalar (R C : nat) (s : scalar) (m : matrix) : res matrix := inplace R C (fun _ _ m a => v <- scalar_now s m ;; Ok (a * v)%fl) m.
Definition div_assign_scalar (R C : nat) (s : scalar) (m : matrix) : res matrix := inplace R C (fun _ _ m a => v <- scalar_now s m ;; Ok (a / v)%fl) m.
Definition add_assign_scalar (R C : nat) (s : scalar) (m : matrix) : res matrix := inplace R C (fun _ _ m a => v <- scalar_now s m ;; Ok (a + v)%fl) m.
Definition sub_assign_scalar (R C : nat) (s : scalar) (m : matrix) : res matrix := inplace R C (fun _ _ m a => v <- scalar_now s m ;; Ok (a - v)%fl) m.

(** mat.hpp:449-453: row [i] of both matrices divided by the pivot. *)
Definition scale_row (n : nat) (i : Z) (pivot : X) (s : matrix * matrix) : res (matrix * matrix) :=
  floop n 0 (fun j '(x, y) =>
    a <- mget x i j ;; x' <- mset x i j (a / pivot)%fl ;; b <- mget y i j ;; y' <- mset y i j (b / pivot)%fl ;; Ok (x', y')) s.
(** mat.hpp:456-460: row [j] minus a multiple of row [i]. *)
Definition sub_row (n : nat) (i j : Z) (factor : X) (s : matrix * matrix) : res (matrix * matrix) :=
  floop n 0 (fun k '(x, y) =>
    a <- mget x j k ;; b <- mget x i k ;; x' <- mset x j k (a - factor * b)%fl ;;
    c <- mget y j k ;; d <- mget y i k ;; y' <- mset y j k (c - factor * d)%fl ;; Ok (x', y')) s.
(** mat.hpp:447-463: the body of the outer loop. *)
Definition inv_step (n : nat) (i : Z) (s : matrix * matrix) : res (matrix * matrix) :=
  pivot <- mget (fst s) i i ;;
  s1 <- scale_row n i pivot s ;;
  floop n 0 (fun j s => if j =? i then Ok s else factor <- mget (fst s) j i ;; sub_row n i j factor s) s1.
(** mat.hpp:441-466 *)
Definition mat_inv (n : nat) (m : matrix) : res matrix :=
  x <- mat_copy n n m ;;
  y <- mat_special n n MAT_IDENTITY (lit 1 1) ;;
  match y with None => Ub | Some y => s <- floop n 0 (inv_step n) (x, y) ;; Ok (snd s) end.

(** mat.hpp:468-485; the outer loop runs to Cols, the inner one to Rows. *)
Definition norm_sum (R : nat) (m : matrix) (i : Z) : res X :=
  floop R 0 (fun j s => a <- mget m i j ;; Ok (s + (if a <? lit 0 1 then - a else a))%fl) (lit 0 1).
Definition normInf (R C : nat) (m : matrix) : res X :=
  floop C 0 (fun i mx => s <- norm_sum R m i ;; let mx' := if i =? 0 then s else mx in Ok (if (s >? mx')%fl then s else mx')) (lit 0 1).

End Mat.
Arguments matrix : clear implicits.
Arguments operand : clear implicits.
Arguments scalar : clear implicits.
