(** The core of the fuzzy inference systems: src/fisCore.cpp and the operators,
    membership functions and defuzzifiers it defines.  ffmath::exp, log, sqrt,
    cos and pow are the oracles of the arithmetic. *)
From Coq Require Import ZArith List Bool.
From Verif Require Import Base Arith Interp1_Model.
Import ListNotations.
Open Scope Z_scope.

Section FisCore.
Context {A : arith}.
Notation X := (F A).

(** ffmath.cpp:755-777: what is returned and what is left in [x].  isNan is
    [fisnan]: classify() on the bits is modelled in Ffmath_Model.v. *)
Definition inRangeCoerce (x lowerL upperL : X) : bool * X :=
  if fisnan x then (false, lowerL)
  else if (x <? lowerL)%fl then (false, lowerL)
  else if (x >? upperL)%fl then (false, upperL)
  else (true, x).
(** fisCore.cpp:491-498 *)
Definition bound (y minValue maxValue : X) : X := snd (inRangeCoerce y minValue maxValue).
(** bound() with the default limits 0 and 1, fis.hpp (class core) *)
Definition bound01 (y : X) : X := bound y (lit 0 1) (lit 1 1).

(** fisCore.cpp:500-528 *)
Definition Min (a b : X) : X := bound01 (if (a <? b)%fl then a else b).
Definition Prod (a b : X) : X := bound01 (a * b)%fl.
Definition Max (a b : X) : X := bound01 (if (a >? b)%fl then a else b).
Definition ProbOr (a b : X) : X := bound01 (a + b - a * b)%fl.
Definition Sum (a b : X) : X := bound01 (a + b)%fl.

(** fis.hpp:129-145 (class ioBase) *)
Record io := mkIO { io_min : X; io_max : X; io_value : X }.
Definition io_new : io := mkIO (lit (-1) 1) (lit 1 1) (lit 0 1).

(** A membership function of the library or of the user: the io objects from
    the one pointed at on, the parameters, and n.  User functions are pure. *)
Definition mfFunction : Type := list io -> list X -> Z -> res X.

(** in[ 0 ].value *)
Definition in0 (l : list io) : res X := v <- get l 0 ;; Ok (io_value v).

(** fisCore.cpp:10-24 *)
Definition TriMF : mfFunction := fun inp p n =>
  x <- in0 inp ;; a <- get p 0 ;; b <- get p 1 ;; c <- get p 2 ;;
  Ok (Max (Min ((x - a) / (b - a))%fl ((c - x) / (c - b))%fl) (lit 0 1)).
(** fisCore.cpp:26-42 *)
Definition TrapMF : mfFunction := fun inp p n =>
  x <- in0 inp ;; a <- get p 0 ;; b <- get p 1 ;; c <- get p 2 ;; d <- get p 3 ;;
  let tmp := Min ((x - a) / (b - a))%fl (lit 1 1) in
  Ok (Max (Min tmp ((d - x) / (d - c))%fl) (lit 0 1)).
(** fisCore.cpp:44-57 *)
Definition GBellMF : mfFunction := fun inp p n =>
  x <- in0 inp ;; a <- get p 0 ;; b <- get p 1 ;; c <- get p 2 ;;
  Ok (lit 1 1 / (lit 1 1 + o_pow lib (fabs ((x - c) / a)) (lit 2 1 * b)))%fl.
(** fisCore.cpp:59-72 *)
Definition GaussMF : mfFunction := fun inp p n =>
  x <- in0 inp ;; a <- get p 0 ;; c <- get p 1 ;;
  let tmp := ((x - c) / a)%fl in
  Ok (o_exp lib (lit (-1) 2 * tmp * tmp)%fl).
(** fisCore.cpp:74-87 *)
Definition Gauss2MF : mfFunction := fun inp p n =>
  x <- in0 inp ;; c1 <- get p 1 ;; c2 <- get p 3 ;;
  f1 <- (if (x <=? c1)%fl then GaussMF inp p n else Ok (lit 1 1)) ;;
  f2 <- (if (x <=? c2)%fl then GaussMF inp (skipn 2 p) n else Ok (lit 1 1)) ;;
  Ok (f1 * f2)%fl.
(** fisCore.cpp:89-101 *)
Definition SigMF : mfFunction := fun inp p n =>
  x <- in0 inp ;; a <- get p 0 ;; b <- get p 1 ;;
  Ok (lit 1 1 / (lit 1 1 + o_exp lib (- a * (x - b))))%fl.
(** fisCore.cpp:103-136 *)
Definition TSigMF : mfFunction := fun inp p n =>
  i <- get inp 0 ;; a <- get p 0 ;; b <- get p 1 ;;
  let x := io_value i in
  if isEqual x (lit 1 1) then Ok (if (a >=? lit 0 1)%fl then io_max i else io_min i)
  else if isEqual x (lit 0 1) then Ok (if (a >=? lit 0 1)%fl then io_min i else io_max i)
  else Ok (b - o_log lib (lit 1 1 / x - lit 1 1) / a)%fl.
(** fisCore.cpp:138-143 *)
Definition DSigMF : mfFunction := fun inp p n =>
  u <- SigMF inp p n ;; v <- SigMF inp (skipn 2 p) n ;; Ok (fabs (u - v))%fl.
(** fisCore.cpp:145-150 *)
Definition PSigMF : mfFunction := fun inp p n =>
  u <- SigMF inp p n ;; v <- SigMF inp (skipn 2 p) n ;; Ok (fabs (u * v))%fl.
(** fisCore.cpp:152-183 *)
Definition SMF : mfFunction := fun inp p n =>
  x <- in0 inp ;; a <- get p 0 ;; b <- get p 1 ;;
  if (x <=? a)%fl then Ok (lit 0 1)
  else if (x >=? b)%fl then Ok (lit 1 1)
  else if (x >=? a)%fl && (x <=? (a + b) * lit 1 2)%fl then
    let tmp := ((x - a) / (b - a))%fl in Ok (lit 2 1 * tmp * tmp)%fl
  else if (x <=? b)%fl && (x >=? (a + b) * lit 1 2)%fl then
    let tmp := ((x - b) / (b - a))%fl in Ok (lit 1 1 - lit 2 1 * tmp * tmp)%fl
  else Ok (lit 0 1).
(** fisCore.cpp:185-205; the local ioBase has the default range. *)
Definition TSMF : mfFunction := fun inp p n =>
  x <- in0 inp ;; a <- get p 0 ;; b <- get p 1 ;;
  let diff := (b - a)%fl in
  let diff := (lit 1 2 * diff * diff)%fl in
  let ta := (a + o_sqrt lib (x * diff))%fl in
  ma <- SMF [mkIO (lit (-1) 1) (lit 1 1) ta] p n ;;
  let tb := (b + o_sqrt lib (- (x - lit 1 1) * diff))%fl in
  mb <- SMF [mkIO (lit (-1) 1) (lit 1 1) tb] p n ;;
  Ok (if (fabs (x - ma) <? fabs (x - mb))%fl then ta else tb).
(** fisCore.cpp:207-238 *)
Definition ZMF : mfFunction := fun inp p n =>
  x <- in0 inp ;; a <- get p 0 ;; b <- get p 1 ;;
  if (x <=? a)%fl then Ok (lit 1 1)
  else if (x >=? b)%fl then Ok (lit 0 1)
  else if (x >=? a)%fl && (x <=? (a + b) * lit 1 2)%fl then
    let tmp := ((x - a) / (b - a))%fl in Ok (lit 1 1 - lit 2 1 * tmp * tmp)%fl
  else if (x <=? b)%fl && (x >=? (a + b) * lit 1 2)%fl then
    let tmp := ((x - b) / (b - a))%fl in Ok (lit 2 1 * tmp * tmp)%fl
  else Ok (lit 0 1).
(** fisCore.cpp:240-269 *)
Definition LinSMF : mfFunction := fun inp p n =>
  x <- in0 inp ;; a <- get p 0 ;; b <- get p 1 ;;
  if (a <? b)%fl then
    if (x <? a)%fl then Ok (lit 0 1)
    else if (x >? b)%fl then Ok (lit 1 1)
    else Ok ((x - a) / (b - a))%fl
  else if isEqual a b then Ok (if (x <? a)%fl then lit 0 1 else lit 1 1)
  else Ok (lit 0 1).
(** fisCore.cpp:271-300 *)
Definition LinZMF : mfFunction := fun inp p n =>
  x <- in0 inp ;; a <- get p 0 ;; b <- get p 1 ;;
  if (a <? b)%fl then
    if (x <? a)%fl then Ok (lit 1 1)
    else if (x >? b)%fl then Ok (lit 0 1)
    else Ok ((a - x) / (a - b))%fl
  else if isEqual a b then Ok (if (x <? a)%fl then lit 1 1 else lit 0 1)
  else Ok (lit 0 1).
(** fisCore.cpp:302-322 *)
Definition TZMF : mfFunction := fun inp p n =>
  x <- in0 inp ;; a <- get p 0 ;; b <- get p 1 ;;
  let diff := (b - a)%fl in
  let diff := (lit 1 2 * diff * diff)%fl in
  let ta := (a + o_sqrt lib (- (x - lit 1 1) * diff))%fl in
  ma <- SMF [mkIO (lit (-1) 1) (lit 1 1) ta] p n ;;
  let tb := (b + o_sqrt lib (x * diff))%fl in
  mb <- SMF [mkIO (lit (-1) 1) (lit 1 1) tb] p n ;;
  Ok (if (fabs (x - ma) <? fabs (x - mb))%fl then ta else tb).
(** fisCore.cpp:324-329 *)
Definition PiMF : mfFunction := fun inp p n =>
  u <- SMF inp p n ;; v <- ZMF inp (skipn 2 p) n ;; Ok (fabs (u * v))%fl.
(** fisCore.cpp:331-339 *)
Definition SingletonMF : mfFunction := fun inp p n =>
  x <- in0 inp ;; a <- get p 0 ;; Ok (if isEqual x a then lit 1 1 else lit 0 1).
(** fisCore.cpp:341-362 *)
Definition ConcaveMF : mfFunction := fun inp p n =>
  x <- in0 inp ;; i <- get p 0 ;; e <- get p 1 ;;
  if (i <=? e)%fl && (x <? e)%fl then Ok ((e - i) / (lit 2 1 * e - i - x))%fl
  else if (i >? e)%fl && (x >? e)%fl then Ok ((i - e) / (- (lit 2 1 * e) + i + x))%fl
  else Ok (lit 1 1).
(** fisCore.cpp:364-374 *)
Definition TConcaveMF : mfFunction := fun inp p n =>
  i <- get p 0 ;; e <- get p 1 ;; c <- ConcaveMF inp p n ;;
  Ok ((i - e) / c + lit 2 1 * e - i)%fl.
(** fisCore.cpp:376-388 *)
Definition SpikeMF : mfFunction := fun inp p n =>
  x <- in0 inp ;; w <- get p 0 ;; c <- get p 1 ;;
  Ok (o_exp lib (- fabs (lit 10 1 * (x - c) / w)))%fl.
(** fisCore.cpp:390-402 *)
Definition TLinSMF : mfFunction := fun inp p n =>
  x <- in0 inp ;; a <- get p 0 ;; b <- get p 1 ;; Ok ((b - a) * x + a)%fl.
(** fisCore.cpp:404-416 *)
Definition TLinZMF : mfFunction := fun inp p n =>
  x <- in0 inp ;; a <- get p 0 ;; b <- get p 1 ;; Ok (a - (a - b) * x)%fl.
(** fisCore.cpp:418-430 *)
Definition TRampMF : mfFunction := fun inp p n =>
  x <- in0 inp ;; a <- get p 0 ;; b <- get p 1 ;; Ok ((b - a) * x + a)%fl.
(** fisCore.cpp:432-444 *)
Definition RectangleMF : mfFunction := fun inp p n =>
  x <- in0 inp ;; s <- get p 0 ;; e <- get p 1 ;;
  Ok (if (x >=? s)%fl && (x <=? e)%fl then lit 1 1 else lit 0 1).
(** fisCore.cpp:446-465; the constant is the float nearest to pi. *)
Definition CosineMF : mfFunction := fun inp p n =>
  x <- in0 inp ;; c <- get p 0 ;; w <- get p 1 ;;
  if (x <? c - lit 1 2 * w)%fl || (x >? c + lit 1 2 * w)%fl then Ok (lit 0 1)
  else Ok (lit 1 2 * (lit 1 1 + o_cos lib (lit 2 1 / w * ffp_pi * (x - c))))%fl.
(** fisCore.cpp:467-474 *)
Definition ConstantMF : mfFunction := fun inp p n => get p 0.
(** fisCore.cpp:476-489, from index [i]. *)
Fixpoint LinearMF_loop (k : nat) (i : Z) (inp : list io) (p : list X) (px : X) : res X :=
  match k with
  | O => q <- get p i ;; Ok (px + q)%fl
  | S k' => v <- get inp i ;; q <- get p i ;; LinearMF_loop k' (i + 1) inp p (px + io_value v * q)%fl
  end.
Definition LinearMF : mfFunction := fun inp p n => LinearMF_loop (Z.to_nat n) 0 inp p (lit 0 1).

(** fis.cpp:209-218 *)
Definition fShape : list mfFunction :=
  [ConstantMF; TriMF; TrapMF; GBellMF; GaussMF; Gauss2MF; SigMF; DSigMF; PSigMF;
   PiMF; SMF; ZMF; SingletonMF; ConcaveMF; SpikeMF; LinSMF; LinZMF; RectangleMF; CosineMF;
   ConstantMF; LinearMF; TLinSMF; TLinZMF; TConcaveMF; TSigMF; TSMF; TZMF; TRampMF].

(** fis.hpp:335-356 (class mf); [None] is the null shape. *)
Record mf := mkMF { mf_shape : option mfFunction; mf_points : list X; mf_fx : X; mf_h : X; mf_index : Z }.
Definition mf_new : mf := mkMF None [] (lit 0 1) (lit 0 1) 0.
(** fis.hpp:346-351: the value, also stored in fx. *)
Definition membership (m : mf) (inp : list io) (n : Z) : res (X * mf) :=
  fx <- match mf_shape m with Some s => v <- s inp (mf_points m) n ;; Ok (mf_h m * v)%fl | None => Ok (lit 0 1) end ;;
  Ok (fx, mkMF (mf_shape m) (mf_points m) fx (mf_h m) (mf_index m)).

(** fis.hpp:163-193 (class output); [o_v0]..[o_v3] are v[0]..v[3], [o_ag] the
    two arrays of storeAggregatedRegion(), [o_owned] owner != nullptr. *)
Record out := mkOut { o_min : X; o_max : X; o_value : X; o_res : X; o_x : X; o_y : X;
  o_v0 : X; o_v1 : X; o_v2 : X; o_v3 : X; o_ag : option (list X * list X); o_owned : bool }.
Definition out_new : out :=
  mkOut (lit (-1) 1) (lit 1 1) (lit 0 1) (lit 1 100) (lit 0 1) (lit 0 1) (lit 0 1) (lit 0 1) (lit 0 1) (lit 0 1) None false.
(** The ioBase part of an output. *)
Definition out_io (o : out) : io := mkIO (o_min o) (o_max o) (o_value o).

Definition out_value (o : out) (value : X) : out :=
  mkOut (o_min o) (o_max o) value (o_res o) (o_x o) (o_y o) (o_v0 o) (o_v1 o) (o_v2 o) (o_v3 o) (o_ag o) (o_owned o).
Definition out_xy (o : out) (x y : X) : out :=
  mkOut (o_min o) (o_max o) (o_value o) (o_res o) x y (o_v0 o) (o_v1 o) (o_v2 o) (o_v3 o) (o_ag o) (o_owned o).
Definition out_v (o : out) (v0 v1 v2 v3 : X) : out :=
  mkOut (o_min o) (o_max o) (o_value o) (o_res o) (o_x o) (o_y o) v0 v1 v2 v3 (o_ag o) (o_owned o).
Definition out_ag (o : out) (ag : option (list X * list X)) : out :=
  mkOut (o_min o) (o_max o) (o_value o) (o_res o) (o_x o) (o_y o) (o_v0 o) (o_v1 o) (o_v2 o) (o_v3 o) ag (o_owned o).

(** fis.hpp:172-175 *)
Definition nextX (o : out) (i : Z) : X := (o_min o + (lit i 1 + lit 1 2) * o_res o)%fl.

(** fis.hpp:70-82, in the order of the enumeration. *)
Inductive method := centroid | bisector | mom | lom | som | wtaver | wtsum.

(** The stage FIS_DEFUZZ_INIT of the seven functions, fisCore.cpp:530-704. *)
Definition deFuzz_init (m : method) (o : out) : out :=
  match m with
  | centroid => out_v o (lit 0 1) (lit 0 1) (o_v2 o) (o_v3 o)
  | bisector => out_v o (o_v0 o) (lit 0 1) (o_v2 o) (o_v3 o)
  | lom => out_v o (lit (-1) 1) (o_v1 o) (o_max o) (o_v3 o)
  | som => out_v o (lit (-1) 1) (o_v1 o) (o_min o) (o_v3 o)
  | mom => out_v o (lit (-1) 1) (o_min o) (o_max o) (lit (-1) 1)
  | wtaver | wtsum => o
  end.
(** The stage FIS_DEFUZZ_COMPUTE. *)
Definition deFuzz_compute (m : method) (o : out) : out :=
  match m with
  | centroid => out_v o (o_v0 o + o_x o * o_y o)%fl (o_v1 o + o_y o)%fl (o_v2 o) (o_v3 o)
  | bisector => out_v o (o_v0 o) (o_v1 o + o_y o)%fl (o_v2 o) (o_v3 o)
  | lom | som => if (o_y o >=? o_v0 o)%fl then out_v o (o_y o) (o_v1 o) (o_x o) (o_v3 o) else o
  | mom =>
      if (o_y o >? o_v0 o)%fl then out_v o (o_y o) (o_x o) (o_x o) (lit 1 1)
      else if isEqual (o_y o) (o_v0 o) && (o_v3 o >? lit 0 1)%fl then out_v o (o_v0 o) (o_v1 o) (o_x o) (o_v3 o)
      else if (o_y o <? o_v0 o)%fl then out_v o (o_v0 o) (o_v1 o) (o_v2 o) (lit (-1) 1)
      else o
  | wtaver | wtsum => o
  end.
(** The stage FIS_DEFUZZ_END, the bisector excepted. *)
Definition deFuzz_end (m : method) (o : out) : X :=
  match m with
  | centroid => (o_v0 o / o_v1 o)%fl
  | lom | som => o_v2 o
  | mom => (lit 1 2 * (o_v1 o + o_v2 o))%fl
  | wtaver => (o_v0 o / o_v1 o)%fl
  | wtsum => o_v0 o
  | bisector => lit 0 1
  end.

End FisCore.
Arguments io : clear implicits.
Arguments mf : clear implicits.
Arguments out : clear implicits.
Arguments mfFunction : clear implicits.
