(** Model of src/tdl.cpp, src/include/tdl.hpp and of transportDelay in
    src/include/ltisys.hpp.  The code never computes with samples, so the
    sample type (real_t in the code) is an arbitrary type [A] and the constant
    [undefined] (0.0/0.0, tdl.hpp:40) is a parameter [nanv]. *)
From Coq Require Import ZArith List Bool.
From Verif Require Import Base.
Import ListNotations.
Open Scope Z_scope.

(** tdl.hpp:35-39.  [area] is the whole array behind [head]; the pointers
    [rd], [wr], [tail] are offsets from [head]. *)
Record tdl (A : Type) := mktdl {
  area : list A; itemCount : Z; tail : Z; rd : Z; wr : Z }.
Arguments mktdl {A}.
Arguments area {A}. Arguments itemCount {A}. Arguments tail {A}. Arguments rd {A}. Arguments wr {A}.

(** Forming the pointer [head + k]: only defined from the first element to one
    past the last. *)
Definition ptr {A} (t : list A) (k : Z) : res Z :=
  if (0 <=? k) && (k <=? zlen t) then Ok k else Ub.

(** tdl.cpp:28-35 *)
Definition insertNewest {A} (t : tdl A) (x : A) : res (tdl A) :=
  m <- set (area t) (wr t) x ;;
  w <- ptr m (wr t + 1) ;;
  let w := if tail t <=? w then 0 else w in
  Ok (mktdl m (itemCount t) (tail t) (rd t) w).

(** tdl.cpp:37-42 *)
Definition removeOldest {A} (t : tdl A) : res (tdl A) :=
  r <- ptr (area t) (rd t + 1) ;;
  let r := if tail t <=? r then 0 else r in
  Ok (mktdl (area t) (itemCount t) (tail t) r (wr t)).

(** tdl.cpp:23-25, the loop of flush(). *)
Fixpoint fill_loop {A} (k : nat) (t : tdl A) (x : A) : res (tdl A) :=
  match k with O => Ok t | S k' => t' <- insertNewest t x ;; fill_loop k' t' x end.

(** tdl.cpp:16-26 *)
Definition flush {A} (t : tdl A) (x : A) : res (tdl A) :=
  tl <- ptr (area t) (itemCount t) ;;
  r <- ptr (area t) (itemCount t - 1) ;;
  fill_loop (Z.to_nat (itemCount t)) (mktdl (area t) (itemCount t) tl r 0) x.

(** tdl.cpp:7-14 *)
Definition setup {A} (m : list A) (n : Z) (x : A) : res (tdl A) :=
  flush (mktdl m n 0 0 0) x.

(** tdl.cpp:44-47 *)
Definition getOldest {A} (t : tdl A) : res A :=
  r <- ptr (area t) (rd t + 1) ;;
  if tail t <=? r then get (area t) 0 else get (area t) (rd t + 1).

(** tdl.cpp:49-52 *)
Definition getRecent {A} (t : tdl A) : res A := get (area t) (rd t).

(** tdl.cpp:54-60; [i] is a size_t, hence non-negative.  [head + i] is only
    formed when [wr >= rd]. *)
Definition getAtIndex {A} (t : tdl A) (i : Z) : res A :=
  c <- (if rd t <=? wr t then h <- ptr (area t) i ;; Ok (wr t <=? h) else Ok false) ;;
  if c then get (area t) (rd t + (itemCount t - i)) else get (area t) (rd t - i).

(** tdl.cpp:62-66 *)
Definition insertSample {A} (t : tdl A) (x : A) : res (tdl A) :=
  t' <- removeOldest t ;; insertNewest t' x.

(** tdl.cpp:68-85 *)
Definition index_op {A} (nanv : A) (t : tdl A) (index : Z) : res A :=
  if (0 <=? index) && (index <? itemCount t) then getAtIndex t index
  else if index =? -1 then getOldest t
  else Ok nanv.

(** The calls that change a delay line. *)
Inductive tdl_op (A : Type) := Insert (x : A) | Flush (x : A).
Arguments Insert {A}. Arguments Flush {A}.
Definition tdl_step {A} (t : tdl A) (o : tdl_op A) : res (tdl A) :=
  match o with Insert x => insertSample t x | Flush x => flush t x end.

(** ltisys.hpp:111-126, the constructor of transportDelay<N>; [buf] is its
    (uninitialised) array of N+1 elements. *)
Definition transportDelay_new {A} (buf : list A) (x : A) : res (tdl A) := setup buf (zlen buf) x.

(** ltisys.hpp:132-136 *)
Definition transportDelay_call {A} (t : tdl A) (x : A) : res (A * tdl A) :=
  t' <- insertSample t x ;; y <- getOldest t' ;; Ok (y, t').

(** Feeding a stream to a delay, collecting the outputs. *)
Fixpoint delay_stream {A} (t : tdl A) (xs : list A) : res (list A) :=
  match xs with
  | [] => Ok []
  | x :: xs' =>
      yt <- transportDelay_call t x ;;
      ys <- delay_stream (snd yt) xs' ;; Ok (fst yt :: ys)
  end.
