(** Model of the one-dimensional interpolator: src/interp1.cpp,
    src/include/interp1.hpp.  The tables are the arrays behind the pointers; a
    read outside them is undefined behaviour ([get]).  size_t arithmetic is
    over Z; a negative index stands for the wrapped one (both are outside). *)
From Coq Require Import ZArith List Bool.
From Verif Require Import Base Arith.
Import ListNotations.
Open Scope Z_scope.

Section Interp1.
Context {A : arith}.
Notation X := (F A).

(** ffmath.cpp:113-118 with the default tolerance, ffmath.hpp:48-50; the
    decimal 1.175494351e-38F is the float REAL_MIN. *)
Definition isEqual (a b : X) : bool := (fabs (a - b) <=? fabs real_min)%fl.
(** FFP_PI, ffmath.hpp:1067: the float nearest to pi. *)
Definition ffp_pi : X := lit 13176795 4194304.
(** 0.166666667_re, interp1.cpp:384: the float nearest to it. *)
Definition sixth : X := lit 11184811 67108864.

(** y0 + ( ( y1 - y0 )/( x1 - x0 ) )*( x - x0 ) *)
Definition line (x x0 x1 y0 y1 : X) : X := (y0 + (y1 - y0) / (x1 - x0) * (x - x0))%fl.

(** interp1.cpp:41-46: the first [i] with x < tx[ i + 1 ], at most [k] tries. *)
Fixpoint next_search (k : nat) (i : Z) (x : X) (tx : list X) : res (option Z) :=
  match k with
  | O => Ok None
  | S k' => v <- get tx (i + 1) ;; if (x <? v)%fl then Ok (Some i) else next_search k' (i + 1) x tx
  end.
(** interp1.cpp:31-57 *)
Definition next (x : X) (tx ty : list X) (n : Z) : res X :=
  if n >=? 2 then
    r <- next_search (Z.to_nat (n - 1)) 0 x tx ;;
    let i := match r with Some i => i | None => n - 1 end in
    l <- get tx (n - 1) ;;
    if (x >=? l)%fl then get ty (n - 1) else get ty (i + 1)
  else Ok fnan.

(** interp1.cpp:73-78 *)
Fixpoint previous_search (k : nat) (i near : Z) (x : X) (tx : list X) : res Z :=
  match k with
  | O => Ok near
  | S k' => v <- get tx i ;; if (x <? v)%fl then Ok near else previous_search k' (i + 1) i x tx
  end.
(** interp1.cpp:59-83 *)
Definition previous (x : X) (tx ty : list X) (n : Z) : res X :=
  if n >=? 2 then
    t0 <- get tx 0 ;;
    if (x <=? t0)%fl then get ty 0
    else i <- previous_search (Z.to_nat (n - 1)) 1 0 x tx ;; get ty i
  else Ok fnan.

(** interp1.cpp:96-103 *)
Fixpoint nearest_search (k : nat) (i near : Z) (best : X) (x : X) (tx : list X) : res Z :=
  match k with
  | O => Ok near
  | S k' =>
      v <- get tx i ;;
      let d := fabs (x - v)%fl in
      if (d <=? best)%fl then nearest_search k' (i + 1) i d x tx else nearest_search k' (i + 1) near best x tx
  end.
(** interp1.cpp:85-107 *)
Definition nearest (x : X) (tx ty : list X) (n : Z) : res X :=
  if n >=? 2 then
    t0 <- get tx 0 ;;
    i <- nearest_search (Z.to_nat (n - 1)) 1 0 (fabs (x - t0)%fl) x tx ;; get ty i
  else Ok fnan.

(** The chord of the first, interp1.cpp:117-123, 255-261, and of the last
    interval, 124-130, 262-268. *)
Definition first_line (x : X) (tx ty : list X) : res X :=
  x0 <- get tx 0 ;; x1 <- get tx 1 ;; y0 <- get ty 0 ;; y1 <- get ty 1 ;; Ok (line x x0 x1 y0 y1).
Definition last_line (x : X) (tx ty : list X) (n : Z) : res X :=
  x0 <- get tx (n - 2) ;; x1 <- get tx (n - 1) ;; y0 <- get ty (n - 2) ;; y1 <- get ty (n - 1) ;; Ok (line x x1 x0 y1 y0).

(** static_cast<int>( n ) of a 64-bit size: modulo 2^32 (all compilers). *)
Definition to_int (n : Z) : Z := (n + 2147483648) mod 4294967296 - 2147483648.
(** interp1.cpp:133-143 *)
Fixpoint linear_search (k : nat) (i : Z) (x : X) (tx ty : list X) : res X :=
  match k with
  | O => Ok fnan
  | S k' =>
      x0 <- get tx i ;; x1 <- get tx (i + 1) ;;
      if (x >=? x0)%fl && (x <=? x1)%fl then y0 <- get ty i ;; y1 <- get ty (i + 1) ;; Ok (line x x0 x1 y0 y1)
      else linear_search k' (i + 1) x tx ty
  end.
(** interp1.cpp:109-146; the comparison with tx[ i + 1 ] is skipped by the code
    when the first fails: that read is inside the table whenever the loop runs. *)
Definition linear (x : X) (tx ty : list X) (n : Z) : res X :=
  if n >=? 2 then
    t0 <- get tx 0 ;;
    if (x <? t0)%fl then first_line x tx ty
    else l <- get tx (n - 1) ;;
         if (x >? l)%fl then last_line x tx ty n
         else if to_int n =? - 2147483648 then Ub else linear_search (Z.to_nat (to_int n - 1)) 0 x tx ty
  else Ok fnan.

(** w = 0.5 - 0.5*cos( pi*( x - x0 )/( x1 - x0 ) ); y0 + w*( y1 - y0 ) *)
Definition sine_blend (x x0 x1 y0 y1 : X) : X :=
  let w := (lit 1 2 - lit 1 2 * o_cos lib (ffp_pi * (x - x0) / (x1 - x0)))%fl in (y0 + w * (y1 - y0))%fl.
(** interp1.cpp:172-182: no break, [y] is overwritten. *)
Fixpoint sine_loop (k : nat) (i : Z) (x y : X) (tx ty : list X) : res X :=
  match k with
  | O => Ok y
  | S k' =>
      x1 <- get tx i ;;
      if (x <=? x1)%fl then
        x0 <- get tx (i - 1) ;; y0 <- get ty (i - 1) ;; y1 <- get ty i ;;
        sine_loop k' (i + 1) x (sine_blend x x0 x1 y0 y1) tx ty
      else sine_loop k' (i + 1) x y tx ty
  end.
(** interp1.cpp:148-185 *)
Definition sine (x : X) (tx ty : list X) (n : Z) : res X :=
  if n >=? 2 then
    t0 <- get tx 0 ;;
    if (x <? t0)%fl then x1 <- get tx 1 ;; y0 <- get ty 0 ;; y1 <- get ty 1 ;; Ok (sine_blend x t0 x1 y0 y1)
    else l <- get tx (n - 1) ;;
         if (x >? l)%fl then
           x0 <- get tx (n - 2) ;; y0 <- get ty (n - 2) ;; y1 <- get ty (n - 1) ;; Ok (sine_blend x l x0 y1 y0)
         else sine_loop (Z.to_nat (n - 1)) 1 x fnan tx ty
  else Ok fnan.

(** The cubic form of interp1.cpp:204-207, 219-222 and 235-238: [ya] at t = 0,
    [yb] at t = 1, [da] and [db] the factors of the other two terms. *)
Definition cubic_form (t h ya yb da db : X) : X :=
  let t2 := (t * t)%fl in let t3 := (t2 * t)%fl in
  ((lit 2 1 * t3 - lit 3 1 * t2 + lit 1 1) * ya + (t3 - lit 2 1 * t2 + t) * h * da
   + (- lit 2 1 * t3 + lit 3 1 * t2) * yb + (t3 - t2) * h * db)%fl.
(** interp1.cpp:225-242 *)
Fixpoint cubic_search (k : nat) (i : Z) (x : X) (tx ty : list X) : res X :=
  match k with
  | O => Ok fnan
  | S k' =>
      x1 <- get tx i ;;
      if (x <=? x1)%fl then
        x0 <- get tx (i - 1) ;; y0 <- get ty (i - 1) ;; y1 <- get ty i ;; p <- get ty (i - 2) ;;
        let h := (x1 - x0)%fl in Ok (cubic_form ((x - x0) / h)%fl h y0 y1 (y0 - p)%fl (y1 - y0)%fl)
      else cubic_search k' (i + 1) x tx ty
  end.
(** interp1.cpp:187-245 *)
Definition cubic (x : X) (tx ty : list X) (n : Z) : res X :=
  if n >=? 4 then
    t0 <- get tx 0 ;;
    if (x <? t0)%fl then
      x1 <- get tx 1 ;; y0 <- get ty 0 ;; y1 <- get ty 1 ;;
      let h := (x1 - t0)%fl in Ok (cubic_form ((x - t0) / h)%fl h y0 y1 (y0 - y1)%fl (y1 - y0)%fl)
    else l <- get tx (n - 1) ;;
         if (x >? l)%fl then
           x0 <- get tx (n - 2) ;; y0 <- get ty (n - 2) ;; y1 <- get ty (n - 1) ;; p <- get ty (n - 3) ;;
           let h := (l - x0)%fl in Ok (cubic_form ((x - l) / h)%fl h y1 y0 (y0 - p)%fl (y1 - y0)%fl)
         else cubic_search (Z.to_nat (n - 1)) 1 x tx ty
  else Ok fnan.

(** interp1.cpp:274-278, the factors for j from [j] *)
Fixpoint lagrange_term (k : nat) (i j : Z) (x xi term : X) (tx : list X) : res X :=
  match k with
  | O => Ok term
  | S k' =>
      if i =? j then lagrange_term k' i (j + 1) x xi term tx
      else xj <- get tx j ;; lagrange_term k' i (j + 1) x xi (term * ((x - xj) / (xi - xj)))%fl tx
  end.
(** interp1.cpp:271-281, the terms from [i] *)
Fixpoint lagrange_sum (k : nat) (n : nat) (i : Z) (x y : X) (tx ty : list X) : res X :=
  match k with
  | O => Ok y
  | S k' =>
      yi <- get ty i ;; xi <- get tx i ;;
      t <- lagrange_term n i 0 x xi yi tx ;; lagrange_sum k' n (i + 1) x (y + t)%fl tx ty
  end.
(** interp1.cpp:247-285 *)
Definition hermite (x : X) (tx ty : list X) (n : Z) : res X :=
  if n >=? 2 then
    t0 <- get tx 0 ;;
    if (x <? t0)%fl then first_line x tx ty
    else l <- get tx (n - 1) ;;
         if (x >? l)%fl then last_line x tx ty n
         else lagrange_sum (Z.to_nat n) (Z.to_nat n) 0 x (lit 0 1) tx ty
  else Ok fnan.

(** interp1.cpp:295-307, 354-366: the interval of [x].  The while loop is given
    enough fuel to leave the table, which is undefined. *)
Fixpoint while_ge (k : nat) (i : Z) (x : X) (tx : list X) : res Z :=
  match k with O => Ub | S k' => v <- get tx (i + 1) ;; if (x >=? v)%fl then while_ge k' (i + 1) x tx else Ok i end.
Definition interval (x : X) (tx : list X) (n : Z) : res Z :=
  t0 <- get tx 0 ;;
  if (x <=? t0)%fl then Ok 0
  else l <- get tx (n - 1) ;; if (x >=? l)%fl then Ok (n - 2) else while_ge (length tx) 0 x tx.

(** interp1.cpp:395-409 *)
Definition slope (tx ty : list X) (i : Z) : res X :=
  b <- get tx (i + 1) ;; a <- get tx (i - 1) ;;
  if isEqual b a then Ok (lit 0 1)
  else yb <- get ty (i + 1) ;; ya <- get ty (i - 1) ;; Ok ((yb - ya) / (b - a))%fl.
(** ( ty[ i ] - ty[ j ] )/( tx[ i ] - tx[ j ] ) *)
Definition chord (tx ty : list X) (i j : Z) : res X :=
  yi <- get ty i ;; yj <- get ty j ;; xi <- get tx i ;; xj <- get tx j ;; Ok ((yi - yj) / (xi - xj))%fl.
(** interp1.cpp:313-341 *)
Definition spline_form (t h y0 y1 m0 m1 : X) : X :=
  let t2 := (t * t)%fl in let t3 := (t2 * t)%fl in
  let h01 := (lit 3 1 * t2 - lit 2 1 * t3)%fl in
  let h00 := (lit 1 1 - h01)%fl in
  let h10 := (t3 - lit 2 1 * t2 + t)%fl in
  let h11 := (t3 - t2)%fl in
  (h00 * y0 + h01 * y1 + h10 * h * m0 + h11 * h * m1)%fl.
(** interp1.cpp:287-344 *)
Definition spline (x : X) (tx ty : list X) (n : Z) : res X :=
  if n >=? 4 then
    i <- interval x tx n ;;
    x1 <- get tx (i + 1) ;;
    if isEqual x x1 then get ty (i + 1)
    else
      x0 <- get tx i ;; y0 <- get ty i ;; y1 <- get ty (i + 1) ;;
      m0 <- (if i =? 0 then chord tx ty 1 0 else if n - 2 =? i then chord tx ty (n - 1) (n - 3) else slope tx ty i) ;;
      m1 <- (if i =? 0 then chord tx ty 2 0 else if n - 2 =? i then chord tx ty (n - 1) (n - 2) else slope tx ty (i + 1)) ;;
      Ok (spline_form ((x - x0) / (x1 - x0))%fl (x1 - x0)%fl y0 y1 m0 m1)
  else Ok fnan.

(** interp1.cpp:411-442 *)
Definition firstDerivate (tx ty : list X) (n i : Z) : res X :=
  if i =? 0 then
    x0 <- get tx 0 ;; x1 <- get tx 1 ;; x2 <- get tx 2 ;; y0 <- get ty 0 ;; y1 <- get ty 1 ;; y2 <- get ty 2 ;;
    let dx := (x1 - x0)%fl in let dy := (y1 - y0)%fl in
    Ok (lit 3 2 * (dy / dx) - lit 1 1 / ((x2 - x0) / (y2 - y0) + dx / dy))%fl
  else if n =? i then
    x0 <- get tx n ;; x1 <- get tx (n - 1) ;; x2 <- get tx (n - 2) ;; y0 <- get ty n ;; y1 <- get ty (n - 1) ;; y2 <- get ty (n - 2) ;;
    let dx := (x0 - x1)%fl in let dy := (y0 - y1)%fl in
    Ok (lit 3 2 * (dy / dx) - lit 1 1 / ((x0 - x2) / (y0 - y2) + dx / dy))%fl
  else
    x0 <- get tx (i - 1) ;; x1 <- get tx i ;; x2 <- get tx (i + 1) ;; y0 <- get ty (i - 1) ;; y1 <- get ty i ;; y2 <- get ty (i + 1) ;;
    let tmp1 := ((x2 - x1) / (y2 - y1))%fl in
    let tmp2 := ((x1 - x0) / (y1 - y0))%fl in
    Ok (if (tmp1 * tmp2 <? lit 0 1)%fl then lit 0 1 else lit 2 1 / (tmp1 + tmp2))%fl.
(** interp1.cpp:444-456 *)
Definition leftSecondDerivate (tx ty : list X) (n i : Z) : res X :=
  d <- firstDerivate tx ty n i ;; e <- firstDerivate tx ty n (i - 1) ;;
  x1 <- get tx i ;; x0 <- get tx (i - 1) ;; y1 <- get ty i ;; y0 <- get ty (i - 1) ;;
  let h := (x1 - x0)%fl in
  Ok (- lit 2 1 * (d + lit 2 1 * e) / h + lit 6 1 * (y1 - y0) / (h * h))%fl.
(** interp1.cpp:458-470 *)
Definition rightSecondDerivate (tx ty : list X) (n i : Z) : res X :=
  d <- firstDerivate tx ty n i ;; e <- firstDerivate tx ty n (i - 1) ;;
  x1 <- get tx i ;; x0 <- get tx (i - 1) ;; y1 <- get ty i ;; y0 <- get ty (i - 1) ;;
  let h := (x1 - x0)%fl in
  Ok (lit 2 1 * (lit 2 1 * d + e) / h - lit 6 1 * (y1 - y0) / (h * h))%fl.
(** interp1.cpp:378-387 *)
Definition cspline_form (x x0 x1 y0 y1 l r : X) : X :=
  let x1_2 := (x1 * x1)%fl in let x1_3 := (x1_2 * x1)%fl in
  let x0_2 := (x0 * x0)%fl in let x0_3 := (x0_2 * x0)%fl in
  let inv := (lit 1 1 / (x0 - x1))%fl in
  let d := ((r - l) * (sixth * inv))%fl in
  let c := ((x0 * l - x1 * r) * (lit 1 2 * inv))%fl in
  let b := ((y0 - y1 - c * (x0_2 - x1_2) - d * (x0_3 - x1_3)) * inv)%fl in
  let a := (y1 - b * x1 - c * x1_2 - d * x1_3)%fl in
  (a + x * (b + x * (c + x * d)))%fl.
(** interp1.cpp:346-393 *)
Definition cSpline (x : X) (tx ty : list X) (n : Z) : res X :=
  if n >=? 4 then
    i <- interval x tx n ;;
    x1 <- get tx (i + 1) ;;
    if isEqual x x1 then get ty (i + 1)
    else
      x0 <- get tx i ;; y0 <- get ty i ;; y1 <- get ty (i + 1) ;;
      l <- leftSecondDerivate tx ty (n - 1) (i + 1) ;;
      r <- rightSecondDerivate tx ty (n - 1) (i + 1) ;;
      Ok (cspline_form x x0 x1 y0 y1 l r)
  else Ok fnan.

(** ** The object *)

(** interp1.hpp:26-40; methods by number, interp1.cpp:11-21. *)
Definition method_at (m : Z) : option (X -> list X -> list X -> Z -> res X) :=
  match m with
  | 0 => Some next | 1 => Some previous | 2 => Some nearest | 3 => Some linear | 4 => Some sine
  | 5 => Some cubic | 6 => Some hermite | 7 => Some spline | 8 => Some cSpline | _ => None
  end.
(** interp1.hpp:50-53; null tables are [None]. *)
Record interp := mkInterp { i_x : option (list X); i_y : option (list X); i_n : Z; i_m : X -> list X -> list X -> Z -> res X }.
(** interp1.hpp:113-115 *)
Definition interp_new (x y : option (list X)) (n : Z) : interp := mkInterp x y n linear.
(** interp1.cpp:8-29; a value outside the enumeration is refused (for one below
    0 the comparison depends on the enumeration's underlying type: refused). *)
Definition setMethod (m : Z) (o : interp) : bool * interp :=
  match method_at m with Some f => (true, mkInterp (i_x o) (i_y o) (i_n o) f) | None => (false, o) end.
(** interp1.hpp:132-146 *)
Definition setData (x y : option (list X)) (n : Z) (o : interp) : bool * interp :=
  match x, y with
  | Some _, Some _ => if n >=? 4 then (true, mkInterp x y n (i_m o)) else (false, o)
  | _, _ => (false, o)
  end.
(** interp1.hpp:174-177; every method returns NaN on a null table. *)
Definition interp_get (x : X) (o : interp) : res X :=
  match i_x o, i_y o with Some tx, Some ty => i_m o x tx ty (i_n o) | _, _ => Ok fnan end.

End Interp1.
Arguments interp : clear implicits.
