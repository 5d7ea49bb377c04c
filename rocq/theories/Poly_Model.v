(** Orthogonal polynomials, factorial, extrema and the polygon test of
    src/ffmath.cpp and src/include/ffmath.hpp. *)
From Coq Require Import ZArith List Bool.
From Verif Require Import Base Arith Interp1_Model.
Import ListNotations.
Open Scope Z_scope.

Section Poly.
Context {A : arith}.
Notation X := (F A).

(** static_cast<float>( size_t ) *)
Definition ofN (n : nat) : X := lit (Z.of_nat n) 1.

(** ffmath.cpp:2111-2120: [k] turns of the loop from index [i]. *)
Fixpoint hermite_loop (k i : nat) (x h1 h2 y : X) : X :=
  match k with
  | O => y
  | S k' => let y := (lit 2 1 * (x * h1 - ofN (i - 1) * h2))%fl in hermite_loop k' (S i) x y h1 y
  end.
(** ffmath.cpp:2088-2125 *)
Definition hermite (n : nat) (x : X) : X :=
  if fisnan x then fnan
  else match n with
       | O => lit 1 1
       | S O => (lit 2 1 * x)%fl
       | S (S k) => hermite_loop (S k) 2 x (lit 2 1 * x)%fl (lit 1 1) (lit 0 1)
       end.

(** ffmath.cpp:2160-2168 and 1447-1456: [k] turns of the loop from index [i]. *)
Fixpoint legendre_loop (k i : nat) (x p1 p2 y : X) : X :=
  match k with
  | O => y
  | S k' => let y := (lit 2 1 * x * p1 - p2 - (x * p1 - p2) / ofN i)%fl in legendre_loop k' (S i) x y p1 y
  end.
(** The common part of legendre and poly_legendre_p. *)
Definition legendre_rec (n : nat) (x : X) : X :=
  match n with
  | O => lit 1 1
  | S O => x
  | S (S k) => legendre_loop (S k) 2 x x (lit 1 1) (lit 0 1)
  end.
(** ( n % 2 == 1 ) ? -1.0F : 1.0F *)
Definition parity (n : nat) : X := if Nat.odd n then (- lit 1 1)%fl else lit 1 1.
(** ffmath.cpp:2133-2173 *)
Definition legendre (n : nat) (x : X) : X :=
  if fisnan x then fnan
  else if isEqual (lit 1 1) x then lit 1 1
  else if isEqual (- lit 1 1)%fl x then parity n
  else legendre_rec n x.
(** ffmath.cpp:1423-1463 *)
Definition poly_legendre_p (n : nat) (x : X) : X :=
  if fisnan x then fnan
  else if isEqual (- lit 1 1)%fl x then parity n
  else legendre_rec n x.

(** ffmath.cpp:1485-1488; phase is 1 *)
Fixpoint assoc_start (k : nat) (root fact p : X) : X :=
  match k with
  | O => p
  | S k' => assoc_start k' root (fact + lit 2 1)%fl (p * (lit 1 1 * fact * root))%fl
  end.
(** ffmath.cpp:1507-1514 *)
Fixpoint assoc_loop (k i m : nat) (x p1 p2 y : X) : X :=
  match k with
  | O => y
  | S k' =>
      let j := ofN i in let M := ofN m in
      let y := ((lit 2 1 * j - lit 1 1) * x * p1 - (j + M - lit 1 1) * p2 / (j - M))%fl in
      assoc_loop k' (S i) m x y p1 y
  end.
(** ffmath.cpp:1465-1520; the square root is the oracle of the arithmetic *)
Definition assoc_legendre (n m : nat) (x : X) : X :=
  if (n <? m)%nat then lit 0 1
  else if fisnan x then fnan
  else match m with
       | O => poly_legendre_p n x
       | _ =>
           let root := (o_sqrt lib (lit 1 1 - x) * o_sqrt lib (lit 1 1 + x))%fl in
           let p_mm := assoc_start m root (lit 1 1) (lit 1 1) in
           let p_mp1m := ((lit 2 1 * ofN m + lit 1 1) * x * p_mm)%fl in
           match (n - m)%nat with
           | O => p_mm
           | S O => p_mp1m
           | S (S k) => assoc_loop (S k) (m + 2) m x p_mp1m p_mm (lit 0 1)
           end
       end.

(** ffmath.cpp:1304-1313 *)
Fixpoint laguerre_loop (k i : nat) (alpha x l1 l2 y : X) : X :=
  match k with
  | O => y
  | S k' =>
      let nn := ofN i in
      let y := ((lit 2 1 * nn - lit 1 1 + alpha - x) * (l1 / nn) - (nn - lit 1 1 + alpha) * (l2 / nn))%fl in
      laguerre_loop k' (S i) alpha x y l1 y
  end.
(** ffmath.cpp:1286-1319 *)
Definition poly_laguerre_recursion (n : nat) (alpha x : X) : X :=
  let l1 := (- x + lit 1 1 + alpha)%fl in
  match n with
  | O => lit 1 1
  | S O => l1
  | S (S k) => laguerre_loop (S k) 2 alpha x l1 (lit 1 1) (lit 0 1)
  end.
(** ffmath.cpp:1361-1366 *)
Fixpoint hyperg_start (k i : nat) (ax tc : X) : X :=
  match k with
  | O => tc
  | S k' => hyperg_start k' (S i) ax (tc * (ax / ofN i))%fl
  end.
(** ffmath.cpp:1371-1377: i counts down from [k] - 1; int N = n, so n below 2^31 *)
Fixpoint hyperg_loop (k n : nat) (b mx term sum : X) : X :=
  match k with
  | O => sum
  | S i =>
      let term := (term * ((b + ofN i) / ofN (n - i) * (ofN i + lit 1 1) / mx))%fl in
      hyperg_loop i n b mx term (sum + term)%fl
  end.
(** ffmath.cpp:1349-1380 *)
Definition poly_laguerre_hyperg (n : nat) (alpha x : X) : X :=
  let sgn := if (x <? lit 0 1)%fl then lit 1 1 else parity n in
  let term := (hyperg_start n 1 (fabs x) (lit 1 1) * sgn)%fl in
  hyperg_loop n n (alpha + lit 1 1)%fl (- x)%fl term term.
(** ffmath.cpp:1398-1404 *)
Fixpoint laguerre0_loop (k i : nat) (alpha prod : X) : X :=
  match k with
  | O => prod
  | S k' => laguerre0_loop k' (S i) alpha (prod * ((alpha + ofN i) / ofN i))%fl
  end.
(** ffmath.cpp:1382-1421; [large] is poly_laguerre_large_n (1321-1347), an
    asymptotic formula that is not modelled *)
Definition assoc_laguerre (large : nat -> X -> X -> X) (n m : nat) (x : X) : X :=
  let alpha := ofN m in let N := ofN n in
  if (x <? lit 0 1)%fl || fisnan x then fnan
  else match n with
       | O => lit 1 1
       | S O => (lit 1 1 + alpha - x)%fl
       | S (S k) =>
           if isEqual (lit 0 1) x then laguerre0_loop k 2 alpha (alpha + lit 1 1)%fl
           else if (alpha >? - lit 1 1)%fl && (x <? lit 2 1 * (alpha + lit 1 1) + lit 4 1 * N)%fl then large n alpha x
           else if (x >? lit 0 1)%fl && (alpha <? - (N + lit 1 1))%fl then poly_laguerre_recursion n alpha x
           else poly_laguerre_hyperg n alpha x
       end.
(** ffmath.cpp:2127-2131 *)
Definition laguerre (large : nat -> X -> X -> X) (n : nat) (x : X) : X := assoc_laguerre large n 0 x.

(** Max, Min: ffmath.hpp:85-126, the arguments as a non-empty list *)
Fixpoint Max (first : X) (args : list X) : X :=
  match args with
  | [] => first
  | a :: t => let restMax := Max a t in if (first >? restMax)%fl then first else restMax
  end.
Fixpoint Min (first : X) (args : list X) : X :=
  match args with
  | [] => first
  | a :: t => let restMin := Min a t in if (first <? restMin)%fl then first else restMin
  end.

(** ffmath.cpp:787-794: the bounding box *)
Fixpoint box_loop (k : nat) (i : Z) (px py : list X) (maxy maxx miny minx : X) : res (X * X * X * X) :=
  match k with
  | O => Ok (maxy, maxx, miny, minx)
  | S k' =>
      yi <- get py i ;; xi <- get px i ;;
      box_loop k' (i + 1) px py (if yi >? maxy then yi else maxy)%fl (if xi >? maxx then xi else maxx)%fl
        (if yi <? miny then yi else miny)%fl (if xi <? minx then xi else minx)%fl
  end.
(** ffmath.cpp:799-808 *)
Fixpoint cross_loop (k : nat) (i j : Z) (x y : X) (px py : list X) (r : bool) : res bool :=
  match k with
  | O => Ok r
  | S k' =>
      xi <- get px i ;; xj <- get px j ;;
      r' <- (if Bool.eqb (xi >? x)%fl (xj >? x)%fl then Ok r
             else yi <- get py i ;; yj <- get py j ;;
                  let dx := (xj - xi)%fl in let dy := (yj - yi)%fl in
                  Ok (if (y <? dy * (x - xi) / (dx + yi))%fl then negb r else r)) ;;
      cross_loop k' (i + 1) i x y px py r'
  end.
(** ffmath.cpp:779-812; [p] is the number of points *)
Definition inPolygon (x y : X) (px py : list X) (p : nat) : res bool :=
  y0 <- get py 0 ;; x0 <- get px 0 ;;
  b <- box_loop p 0 px py y0 x0 y0 x0 ;;
  let '(maxy, maxx, miny, minx) := b in
  if (y >=? miny)%fl && (y <=? maxy)%fl && (x >=? minx)%fl && (x <=? maxx)%fl
  then cross_loop p 0 (Z.of_nat p - 1) x y px py false
  else Ok false.
End Poly.
