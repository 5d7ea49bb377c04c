(** Model of src/include/algorithm.hpp.  The element type [T] and its
    operators < and == are parameters, as in the C++ templates.  Indices of
    type int / size_t are integers; array sizes are assumed to fit an int (the
    code casts size_t to int at algorithm.hpp:107-108,466-467), and size_t
    subtraction wraps where the code can go below zero. *)
From Coq Require Import ZArith List Bool.
From Verif Require Import Base.
Import ListNotations.
Open Scope Z_scope.

(** size_t subtraction (64-bit). *)
Definition szsub (a b : Z) : Z := (a - b) mod 2 ^ 64.

Section Algorithms.
Context {T : Type}.

(** algorithm.hpp:36-42, applied to two array elements. *)
Definition swap (a : list T) (i j : Z) : res (list T) :=
  x <- get a i ;;
  y <- get a j ;;
  a1 <- set a i y ;;
  set a1 j x.

(** algorithm.hpp:50-77, the fixed-capacity stack; the list's head is the top.
    A push on a full stack is silently dropped (line 63). *)
Definition push (cap : Z) (st : list (Z * Z)) (p : Z * Z) : list (Z * Z) :=
  if zlen st <? cap then p :: st else st.

(** algorithm.hpp:119-130, [k] iterations left. *)
Fixpoint partition_loop (lt : T -> T -> bool) (comp : option (T -> T -> bool)) (pivotValue : T)
    (k : nat) (i pivotIndex : Z) (a : list T) : res (Z * list T) :=
  match k with
  | O => Ok (pivotIndex, a)
  | S k' =>
      x <- get a i ;;
      c <- match comp with
           | Some cmp => y <- get a pivotIndex ;; Ok (cmp x y)
           | None => Ok (lt x pivotValue)
           end ;;
      if c : bool then
        a' <- swap a i pivotIndex ;;
        partition_loop lt comp pivotValue k' (i + 1) (pivotIndex + 1) a'
      else partition_loop lt comp pivotValue k' (i + 1) pivotIndex a
  end.

(** algorithm.hpp:111-138.  [None] means the loop did not finish within [fuel]
    iterations. *)
Fixpoint sort_loop (lt : T -> T -> bool) (comp : option (T -> T -> bool)) (cap : Z)
    (fuel : nat) (st : list (Z * Z)) (a : list T) : res (option (list T)) :=
  match st with
  | [] => Ok (Some a)
  | (start, end_) :: st =>
    match fuel with
    | O => Ok None
    | S fuel' =>
      pivotValue <- get a end_ ;;
      pa <- partition_loop lt comp pivotValue (Z.to_nat (end_ - start)) start start a ;;
      let pivotIndex := fst pa in
      a <- swap (snd pa) pivotIndex end_ ;;
      let st := if start <? pivotIndex - 1 then push cap st (start, pivotIndex - 1) else st in
      let st := if pivotIndex + 1 <? end_ then push cap st (pivotIndex + 1, end_) else st in
      sort_loop lt comp cap fuel' st a
    end
  end.

(** algorithm.hpp:99-140, with the stack capacity as a parameter; the code
    uses capacity n.  [comp = None] is the default nullptr. *)
Definition sort_cap (lt : T -> T -> bool) (comp : option (T -> T -> bool)) (cap : Z)
    (a : list T) (first last : Z) : res (option (list T)) :=
  if 1 <? zlen a then
    sort_loop lt comp cap (length a) (push cap [] (first, last)) a
  else Ok (Some a).

Definition sort lt comp (a : list T) (first last : Z) : res (option (list T)) :=
  sort_cap lt comp (zlen a) a first last.

(** algorithm.hpp:157-161; the interval shrinks, [fuel] bounds the iterations. *)
Fixpoint reverse_loop (fuel : nat) (s e : Z) (a : list T) : res (list T) :=
  match fuel with
  | O => Ok a
  | S fuel' => if s <? e then a' <- swap a s e ;; reverse_loop fuel' (s + 1) (e - 1) a' else Ok a
  end.

(** algorithm.hpp:149-163.  A range running past the array is caught by the
    first swap, so at most length-many iterations are relevant. *)
Definition reverse (a : list T) (first last : Z) : res (list T) :=
  if first <? last then reverse_loop (S (length a)) first last a else Ok a.

(** algorithm.hpp:173-196; [k] is an int, negating INT_MIN is undefined. *)
Definition rotate (a : list T) (k : Z) : res (list T) :=
  let n := zlen a in
  if k =? 0 then Ok a
  else if 0 <? k then
    let r := k mod n in
    a <- reverse a (szsub n r) (szsub n 1) ;;
    a <- reverse a 0 (szsub (szsub n r) 1) ;;
    reverse a 0 (szsub n 1)
  else if k =? - 2 ^ 31 then Ub
  else
    let r := (- k) mod n in
    a <- reverse a 0 (szsub r 1) ;;
    a <- reverse a r (szsub n 1) ;;
    reverse a 0 (szsub n 1).

(** Number of iterations of [for (i = first; i <= last; ++i)]. *)
Definition range_count (first last : Z) : nat := Z.to_nat (last - first + 1).

(** algorithm.hpp:207-216 *)
Fixpoint fill_loop (k : nat) (i : Z) (v : T) (a : list T) : res (list T) :=
  match k with O => Ok a | S k' => a' <- set a i v ;; fill_loop k' (i + 1) v a' end.
Definition fill (a : list T) (v : T) (first last : Z) : res (list T) :=
  fill_loop (range_count first last) first v a.

(** algorithm.hpp:232-247; a pointer into the array is its index. *)
Fixpoint find_loop (p : T -> bool) (k : nat) (i : Z) (a : list T) : res (option Z) :=
  match k with
  | O => Ok None
  | S k' => x <- get a i ;; if p x then Ok (Some i) else find_loop p k' (i + 1) a
  end.
Definition find (eqb : T -> T -> bool) (a : list T) (key : T) (first last : Z) : res (option Z) :=
  find_loop (fun x => eqb x key) (range_count first last) first a.

(** algorithm.hpp:262-277 *)
Fixpoint any_loop (p : T -> bool) (k : nat) (i : Z) (a : list T) : res bool :=
  match k with
  | O => Ok false
  | S k' => x <- get a i ;; if p x then Ok true else any_loop p k' (i + 1) a
  end.
Definition any_of (a : list T) (p : T -> bool) (first last : Z) : res bool :=
  any_loop p (range_count first last) first a.

(** algorithm.hpp:292-307 *)
Fixpoint all_loop (p : T -> bool) (k : nat) (i : Z) (a : list T) : res bool :=
  match k with
  | O => Ok true
  | S k' => x <- get a i ;; if negb (p x) then Ok false else all_loop p k' (i + 1) a
  end.
Definition all_of (a : list T) (p : T -> bool) (first last : Z) : res bool :=
  all_loop p (range_count first last) first a.

(** algorithm.hpp:347-360 *)
Fixpoint replace_loop (p : T -> bool) (v : T) (k : nat) (i : Z) (a : list T) : res (list T) :=
  match k with
  | O => Ok a
  | S k' => x <- get a i ;; if p x then set a i v else replace_loop p v k' (i + 1) a
  end.
Definition replace_if (a : list T) (p : T -> bool) (v : T) (first last : Z) : res (list T) :=
  replace_loop p v (range_count first last) first a.

(** algorithm.hpp:320-333 *)
Definition replace (eqb : T -> T -> bool) (a : list T) (old v : T) (first last : Z) : res (list T) :=
  replace_loop (fun x => eqb old x) v (range_count first last) first a.

(** algorithm.hpp:374-388 *)
Fixpoint count_loop (p : T -> bool) (k : nat) (i count : Z) (a : list T) : res Z :=
  match k with
  | O => Ok count
  | S k' => x <- get a i ;; count_loop p k' (i + 1) (if p x then count + 1 else count) a
  end.
Definition count_if (a : list T) (p : T -> bool) (first last : Z) : res Z :=
  count_loop p (range_count first last) first 0 a.

(** algorithm.hpp:405-419; there is no break. *)
Fixpoint find_if_loop (p : T -> bool) (k : nat) (i : Z) (found : option Z) (a : list T) : res (option Z) :=
  match k with
  | O => Ok found
  | S k' => x <- get a i ;; find_if_loop p k' (i + 1) (if p x then Some i else found) a
  end.
Definition find_if (a : list T) (p : T -> bool) (first last : Z) : res (option Z) :=
  find_if_loop p (range_count first last) first None a.

(** algorithm.hpp:431-440; [fn] may change the element and has effects on some
    external state [S]. *)
Fixpoint for_each_loop {S : Type} (fn : S -> T -> S * T) (k : nat) (i : Z) (s : S) (a : list T) : res (S * list T) :=
  match k with
  | O => Ok (s, a)
  | Datatypes.S k' =>
      x <- get a i ;;
      let '(s', y) := fn s x in
      a' <- set a i y ;;
      for_each_loop fn k' (i + 1) s' a'
  end.
Definition for_each {S : Type} (a : list T) (fn : S -> T -> S * T) (s : S) (first last : Z) : res (S * list T) :=
  for_each_loop fn (range_count first last) first s a.

(** algorithm.hpp:469-482; the interval shrinks at each iteration; the result
    [Ok None] of an exhausted [fuel] is excluded by taking one iteration per
    element of the interval. *)
Fixpoint bsearch_loop (lt eqb : T -> T -> bool) (key : T) (fuel : nat) (left right : Z) (a : list T) : res (option Z) :=
  match fuel with
  | O => Ok None
  | S fuel' =>
    if left <=? right then
      let mid := left + Z.quot (right - left) 2 in
      x <- get a mid ;;
      if eqb x key then Ok (Some mid)
      else if lt x key then bsearch_loop lt eqb key fuel' (mid + 1) right a
      else bsearch_loop lt eqb key fuel' left (mid - 1) a
    else Ok None
  end.

(** algorithm.hpp:459-484 *)
Definition binary_search (lt eqb : T -> T -> bool) (a : list T) (key : T) (first last : Z) : res (option Z) :=
  bsearch_loop lt eqb key (S (range_count first last)) first last a.

End Algorithms.
