(** Model of src/fp16.cpp and src/include/fp16.hpp: Q16.16 fixed point.
    A raw value (fp16Raw_t = int32_t) is an integer; every signed operation that
    can leave the 32-bit range is checked and yields [Ub].  Conversions
    uint32_t -> int32_t wrap (two's complement), and so does a signed left shift
    (as in C++20; earlier standards leave the shift of a negative value
    undefined, every supported compiler wraps).  Right shifts of negative values
    are arithmetic.  [flag_rounding], [saturation], [Min] and [Max] are private
    statics without setters, so they keep their initial values for ever. *)
From Coq Require Import ZArith List Bool.
From Verif Require Import Base.
Import ListNotations.
Open Scope Z_scope.

(** Result of a signed 32-bit operation. *)
Definition i32 (z : Z) : res Z :=
  if (- 2147483648 <=? z) && (z <=? 2147483647) then Ok z else Ub.
(** Conversion to int32_t / uint32_t. *)
Definition s32 (z : Z) : Z := (z + 2147483648) mod 4294967296 - 2147483648.
Definition u32 (z : Z) : Z := z mod 4294967296.

(** fp16.cpp:23-35 *)
Definition fMin : Z := -2147483647.
Definition fMax : Z := 2147483647.
Definition flag_rounding : bool := true.
Definition saturation : bool := false.
Definition exp_max : Z := 681391.
Definition f2 : Z := 131072.
Definition overflow_mask : Z := 2147483648.
Definition fraction_mask : Z := 65535.
Definition integer_mask : Z := 4294901760.
Definition f_pi_2 : Z := 102944.
Definition overflow : Z := -2147483648.
Definition one : Z := 65536.
Definition one_half : Z := 32768.

(** fp16.cpp:39-56 *)
Definition toInt (x : Z) : res Z :=
  if flag_rounding then
    if 0 <=? x then t <- i32 (x + Z.shiftr one 1) ;; Ok (Z.quot t one)
    else t <- i32 (x - Z.shiftr one 1) ;; Ok (Z.quot t one)
  else Ok (Z.shiftr (u32 x) 16).

(** fp16.cpp:72-75 *)
Definition fromInt (x : Z) : Z := s32 (u32 (Z.shiftl (u32 x) 16)).

(** fp16.cpp:101-114 *)
Definition saturate (nsInput x y : Z) : Z :=
  if saturation then
    if overflow =? nsInput then (if Bool.eqb (0 <=? x) (0 <=? y) then fMax else fMin) else nsInput
  else nsInput.

(** fp16.cpp:116-129 *)
Definition add (X Y : Z) : Z :=
  let x := u32 X in let y := u32 Y in
  let r := u32 (x + y) in
  let r := if (0 =? Z.land (Z.lxor x y) overflow_mask) && negb (0 =? Z.land (Z.lxor x r) overflow_mask)
           then u32 overflow else r in
  saturate (s32 r) X X.

(** fp16.cpp:131-144 *)
Definition sub (X Y : Z) : Z :=
  let x := u32 X in let y := u32 Y in
  let r := u32 (x - y) in
  let r := if negb (0 =? Z.land (Z.lxor x y) overflow_mask) && negb (0 =? Z.land (Z.lxor x r) overflow_mask)
           then u32 overflow else r in
  saturate (s32 r) X X.

(** fp16.cpp:146-188 *)
Definition mul (x y : Z) : res Z :=
  let a := Z.shiftr x 16 in
  let c := Z.shiftr y 16 in
  let b := Z.land x 65535 in
  let d := Z.land y 65535 in
  ac <- i32 (a * c) ;;
  let ad_cb := s32 (u32 (u32 (u32 a * d) + u32 (u32 c * b))) in
  let bd := u32 (b * d) in
  mulH <- i32 (ac + Z.shiftr ad_cb 16) ;;
  let tmp := u32 (Z.shiftl (u32 ad_cb) 16) in
  let mulL := u32 (bd + tmp) in
  mulH <- (if mulL <? bd then i32 (mulH + 1) else Ok mulH) ;;
  let a := if mulH <? 0 then -1 else 0 in
  r <- (if a =? Z.shiftr mulH 15 then
          if flag_rounding then
            let tmp2 := mulL in
            let mulL := u32 (mulL - one_half) in
            let mulL := u32 (mulL - Z.shiftr (u32 mulH) 31) in
            mulH <- (if tmp2 <? mulL then i32 (mulH - 1) else Ok mulH) ;;
            let r := Z.lor (s32 (Z.shiftl mulH 16)) (Z.shiftr mulL 16) in
            i32 (r + 1)
          else Ok (Z.lor (s32 (Z.shiftl mulH 16)) (Z.shiftr mulL 16))
        else Ok overflow) ;;
  Ok (saturate r x y).

(** fp16.cpp:201-204; [None]: more than [fuel] iterations. *)
Fixpoint div_norm (fuel : nat) (xDiv xRem bit : Z) : option (Z * Z) :=
  match fuel with
  | O => None
  | S fuel' =>
    if xDiv <? xRem then div_norm fuel' (u32 (Z.shiftl xDiv 1)) xRem (u32 (Z.shiftl bit 1))
    else Some (xDiv, bit)
  end.

(** fp16.cpp:220-227; [None]: more than [fuel] iterations. *)
Fixpoint div_loop (fuel : nat) (xDiv xRem bit quotient : Z) : option (Z * Z) :=
  match fuel with
  | O => None
  | S fuel' =>
    if negb (bit =? 0) && negb (xRem =? 0) then
      let '(q, r) := if xDiv <=? xRem then (Z.lor quotient bit, xRem - xDiv) else (quotient, xRem) in
      div_loop fuel' xDiv (u32 (Z.shiftl r 1)) (Z.shiftr bit 1) q
    else Some (xRem, quotient)
  end.

(** fp16.cpp:190-247.  Both loops run at most 33 times on 32-bit words, so the
    fuel is never exhausted (and exhaustion would show up as [Ub]). *)
Definition div (x y : Z) : res Z :=
  r <- (if y =? 0 then Ok fMin else
    nx <- i32 (if 0 <=? x then x else - x) ;;
    ny <- i32 (if 0 <=? y then y else - y) ;;
    let xRem := u32 nx in
    match div_norm 40 (u32 ny) xRem 65536 with
    | None => Ub
    | Some (xDiv, bit) =>
      if bit =? 0 then Ok overflow else
      let '(quotient, xRem, xDiv, bit) :=
        if negb (Z.land xDiv overflow_mask =? 0) then
          let '(q, r) := if xDiv <=? xRem then (Z.lor 0 bit, xRem - xDiv) else (0, xRem) in
          (q, r, Z.shiftr xDiv 1, Z.shiftr bit 1)
        else (0, xRem, xDiv, bit) in
      match div_loop 40 xDiv xRem bit quotient with
      | None => Ub
      | Some (xRem, quotient) =>
        let quotient := if flag_rounding then (if xDiv <=? xRem then u32 (quotient + 1) else quotient) else quotient in
        let r := s32 quotient in
        if negb (Z.land (u32 (Z.lxor x y)) overflow_mask =? 0) then
          if quotient =? u32 fMin then Ok overflow else i32 (- r)
        else Ok r
      end
    end) ;;
  Ok (saturate r x y).

(** fp16.cpp:249-261 *)
Definition absolute (x : Z) : res Z :=
  if x =? fMin then Ok overflow else if 0 <=? x then Ok x else i32 (- x).

(** fp16.hpp:306-311 *)
Definition floor (x : Z) : Z := s32 (Z.land (u32 x) integer_mask).

(** fp16.cpp:263-269 *)
Definition ceil (x : Z) : res Z :=
  let i := Z.land x (s32 integer_mask) in
  let f := Z.land x fraction_mask in
  if negb (f =? 0) then i32 (i + one) else Ok i.

(** fp16.hpp:323-326 *)
Definition rounding (x : Z) : res Z := i32 (x + one).

(** fp16.hpp:150-153 *)
Definition neg (x : Z) : res Z := i32 (- x).

(** fp16.hpp:181-202, operators ++ and -- *)
Definition incr (x : Z) : Z := add x one.
Definition decr (x : Z) : Z := sub x one.

(** fp16.hpp:203-226, comparisons *)
Definition fgt (x y : Z) : bool := y <? x.
Definition fge (x y : Z) : bool := y <=? x.
Definition flt (x y : Z) : bool := x <? y.
Definition fle (x y : Z) : bool := x <=? y.
Definition feq (x y : Z) : bool := x =? y.
Definition fne (x y : Z) : bool := negb (x =? y).

(** fp16.hpp:115-129 *)
Definition isOverflow (x : Z) : bool := overflow =? x.
Definition isExpMax (x : Z) : bool := (exp_max =? x) || (- exp_max =? x).

(** fp16.cpp:283-285; at most 16 iterations. *)
Fixpoint sqrt_bit (fuel : nat) (bit x : Z) : Z :=
  match fuel with
  | O => bit
  | S fuel' => if x <? bit then sqrt_bit fuel' (Z.shiftr bit 2) x else bit
  end.

(** fp16.cpp:288-297; the loop ends when [bit] reaches 0, at most 16 iterations. *)
Fixpoint sqrt_loop (fuel : nat) (bit x r : Z) : res (Z * Z) :=
  match fuel with
  | O => Ub
  | S fuel' =>
    if bit =? 0 then Ok (x, r) else
    let t := s32 (u32 (u32 r + bit)) in
    if t <=? x then
      x <- i32 (x - t) ;;
      sqrt_loop fuel' (Z.shiftr bit 2) x (s32 (u32 (Z.shiftr (u32 r) 1 + bit)))
    else sqrt_loop fuel' (Z.shiftr bit 2) x (Z.shiftr r 1)
  end.

(** fp16.cpp:271-320 *)
Definition sqrt (x : Z) : res Z :=
  xr <- (if 0 <? x then
           let bit := if negb (Z.land x (s32 4293918720) =? 0) then 1073741824 else 262144 in
           let bit := sqrt_bit 20 bit (u32 x) in
           p1 <- sqrt_loop 20 bit x 0 ;;
           let '(x, r) := p1 in
           p2 <- (if 65535 <? x then
                    x <- i32 (x - r) ;;
                    x <- i32 (s32 (Z.shiftl x 16) - one_half) ;;
                    r <- i32 (s32 (Z.shiftl r 16) + one_half) ;;
                    Ok (x, r)
                  else Ok (s32 (Z.shiftl x 16), s32 (Z.shiftl r 16))) ;;
           let '(x, r) := p2 in
           sqrt_loop 20 16384 x r
         else Ok (x, overflow)) ;;
  let '(x, r) := xr in
  if flag_rounding && (r <? x) then i32 (r + 1) else Ok r.

(** fp16.cpp:350-357, iterations i..29 *)
Fixpoint exp_loop (k : nat) (i x retValue term : Z) : res Z :=
  match k with
  | O => Ok retValue
  | S k' =>
    q <- div x (fromInt i) ;;
    term <- mul term q ;;
    retValue <- i32 (retValue + term) ;;
    if (term <? 500) && ((15 <? i) || (term <? 20)) then Ok retValue
    else exp_loop k' (i + 1) x retValue term
  end.

(** fp16.cpp:322-365 *)
Definition exp (x : Z) : res Z :=
  if x =? 0 then Ok one
  else if x =? one then Ok 178145
  else if exp_max <=? x then Ok fMax
  else if x <=? - exp_max then Ok 0
  else
    let isNegative := x <? 0 in
    x <- (if isNegative then i32 (- x) else Ok x) ;;
    r0 <- i32 (x + one) ;;
    r <- exp_loop 28 2 x r0 x ;;
    if isNegative then div one r else Ok r.

(** fp16.cpp:378-381; [Ub] on exhausted fuel. *)
Fixpoint log_down (fuel : nat) (x scaling : Z) : res (Z * Z) :=
  match fuel with
  | O => Ub
  | S fuel' => if 6553600 <? x then x <- div x 3578144 ;; log_down fuel' x (scaling + 4) else Ok (x, scaling)
  end.
(** fp16.cpp:383-386 *)
Fixpoint log_up (fuel : nat) (x scaling : Z) : res (Z * Z) :=
  match fuel with
  | O => Ub
  | S fuel' => if x <? one then x <- mul x 3578144 ;; log_up fuel' x (scaling - 4) else Ok (x, scaling)
  end.
(** fp16.cpp:388-397, at most 11 rounds *)
Fixpoint log_newton (k : nat) (x guess : Z) : res Z :=
  match k with
  | O => Ok guess
  | S k' =>
    e <- exp guess ;;
    n <- i32 (x - e) ;;
    delta <- div n e ;;
    let delta := if 196608 <? delta then 196608 else delta in
    guess <- i32 (guess + delta) ;;
    if (1 <? delta) || (delta <? -1) then log_newton k' x guess else Ok guess
  end.
(** fp16.cpp:367-403 *)
Definition log (x : Z) : res Z :=
  if 0 <? x then
    xs <- log_down 20 x 0 ;;
    xs <- log_up 20 (fst xs) (snd xs) ;;
    guess <- log_newton 11 (fst xs) f2 ;;
    i32 (guess + fromInt (snd xs))
  else Ok overflow.

(** fp16.cpp:405-417 *)
Definition rs (x : Z) : Z :=
  if flag_rounding then Z.shiftr x 1 + Z.land x 1 else Z.shiftr x 1.

(** fp16.cpp:423-426; [Ub] on exhausted fuel. *)
Fixpoint log2_norm (fuel : nat) (x r : Z) : res (Z * Z) :=
  match fuel with
  | O => Ub
  | S fuel' => if f2 <=? x then log2_norm fuel' (rs x) (r + 1) else Ok (x, r)
  end.
(** fp16.cpp:433-440 *)
Fixpoint log2_bits (k : nat) (x r : Z) : res (Z * Z) :=
  match k with
  | O => Ok (x, r)
  | S k' =>
    x <- mul x x ;;
    let r := s32 (Z.shiftl r 1) in
    if f2 <=? x then log2_bits k' (rs x) (Z.lor r 1) else log2_bits k' x r
  end.
(** fp16.cpp:419-450 *)
Definition log2i (x : Z) : res Z :=
  xr <- log2_norm 40 x 0 ;;
  let '(x, r) := xr in
  if x =? 0 then Ok (s32 (Z.shiftl r 16)) else
  xr <- log2_bits 16 x r ;;
  let '(x, r) := xr in
  if flag_rounding then
    x <- mul x x ;; if f2 <=? x then i32 (r + 1) else Ok r
  else Ok r.
(** fp16.cpp:452-479 *)
Definition log2 (x : Z) : res Z :=
  r <- (if 0 <? x then
          if x <? one then
            if x =? 1 then Ok (-1048576)
            else inv <- div one x ;; l <- log2i inv ;; i32 (- l)
          else log2i x
        else Ok overflow) ;;
  if saturation then (if overflow =? r then Ok fMin else Ok r) else Ok r.

(** fp16.cpp:499-501 / 517-519 *)
Fixpoint wrap_down (fuel : nat) (half full x : Z) : res Z :=
  match fuel with
  | O => Ub
  | S fuel' => if half <? x then x <- i32 (x - full) ;; wrap_down fuel' half full x else Ok x
  end.
(** fp16.cpp:502-504 / 520-522 *)
Fixpoint wrap_up (fuel : nat) (half full x : Z) : res Z :=
  match fuel with
  | O => Ub
  | S fuel' => if x <=? - half then x <- i32 (x + full) ;; wrap_up fuel' half full x else Ok x
  end.
Definition wrap (fuel : nat) (half full x : Z) : res Z :=
  if (x <? - half) || (half <? x) then
    x <- wrap_down fuel half full x ;; wrap_up fuel half full x
  else Ok x.
(** fp16.cpp:493-508; at most 2^31/411775 < 6000 iterations. *)
Definition wrapToPi (x : Z) : res Z := wrap (Z.to_nat 6000) 205887 411775 x.
(** fp16.cpp:510-526; at most 2^31/23592960 < 100 iterations. *)
Definition wrapTo180 (x : Z) : res Z := wrap 100 11796480 23592960 x.

(** fp16.cpp:481-485 *)
Definition radToDeg (x : Z) : res Z := w <- wrapToPi x ;; mul w 3754936.
(** fp16.cpp:487-491 *)
Definition degToRad (x : Z) : res Z := w <- wrapTo180 x ;; mul w 1144.

(** fp16.cpp:533-546, sin of a wrapped angle *)
Definition sin_poly (x : Z) : res Z :=
  x2 <- mul x x ;;
  let r := x in
  x <- mul x x2 ;; r <- i32 (r - Z.quot x 6) ;;
  x <- mul x x2 ;; r <- i32 (r + Z.quot x 120) ;;
  x <- mul x x2 ;; r <- i32 (r - Z.quot x 5040) ;;
  x <- mul x x2 ;; r <- i32 (r + Z.quot x 362880) ;;
  x <- mul x x2 ;; i32 (r - Z.quot x 39916800).
(** fp16.cpp:528-547 *)
Definition sin (x : Z) : res Z := x <- wrapToPi x ;; sin_poly x.
(** fp16.cpp:549-552 *)
Definition cos (x : Z) : res Z := t <- i32 (x + f_pi_2) ;; sin t.
(** fp16.cpp:554-562 *)
Definition tan (x : Z) : res Z := a <- sin x ;; b <- cos x ;; div a b.

(** fp16.cpp:564-591; sizeof(fp16Raw_t)*7 = 28 *)
Definition atan2 (y x : Z) : res Z :=
  let mask := Z.shiftr y 28 in
  t <- i32 (y + mask) ;;
  let absY := Z.lxor t mask in
  ra <- (if 0 <=? x then
           n <- i32 (x - absY) ;; d <- i32 (x + absY) ;; r <- div n d ;; Ok (r, 51471)
         else
           n <- i32 (x + absY) ;; d <- i32 (absY - x) ;; r <- div n d ;; Ok (r, 154415)) ;;
  let '(r, angle) := ra in
  rr <- mul r r ;;
  r_3 <- mul rr r ;;
  p <- mul 12864 r_3 ;;
  q <- mul 64336 r ;;
  t <- i32 (p - q) ;;
  angle <- i32 (angle + t) ;;
  if y <? 0 then i32 (- angle) else Ok angle.

(** fp16.cpp:593-596 *)
Definition atan (x : Z) : res Z := atan2 x one.
(** fp16.cpp:598-609 *)
Definition asin (x : Z) : res Z :=
  if (x <=? one) && (- one <=? x) then
    xx <- mul x x ;;
    r <- i32 (one - xx) ;;
    s <- sqrt r ;;
    q <- div x s ;;
    atan q
  else Ok 0.
(** fp16.cpp:611-614 *)
Definition acos (x : Z) : res Z := a <- asin x ;; i32 (f_pi_2 - a).

(** fp16.cpp:616-637 *)
Definition cosh (x : Z) : res Z :=
  if x =? 0 then Ok one
  else if (exp_max <=? x) || (x <=? - exp_max) then Ok fMax
  else
    epx <- exp x ;; nx <- i32 (- x) ;; enx <- exp nx ;;
    if negb (overflow =? epx) && negb (overflow =? enx) then s <- i32 (epx + enx) ;; Ok (Z.shiftr s 1)
    else Ok overflow.
(** fp16.cpp:639-663 *)
Definition sinh (x : Z) : res Z :=
  if x =? 0 then Ok one
  else if exp_max <=? x then Ok fMax
  else if x <=? - exp_max then Ok (- fMax)
  else
    epx <- exp x ;; nx <- i32 (- x) ;; enx <- exp nx ;;
    if negb (overflow =? epx) && negb (overflow =? enx) then s <- i32 (epx - enx) ;; Ok (Z.shiftr s 1)
    else Ok overflow.
(** fp16.cpp:665-688 *)
Definition tanh (x : Z) : res Z :=
  if x =? 0 then Ok 0
  else if 425984 <? x then Ok one
  else if x <? -425984 then Ok (- one)
  else
    ax <- absolute x ;;
    epx <- exp ax ;; nax <- i32 (- ax) ;; enx <- exp nax ;;
    n <- i32 (epx - enx) ;; d <- i32 (epx + enx) ;;
    r <- div n d ;;
    if 0 <? x then Ok r else i32 (- r).

(** fp16.cpp:706-711 *)
Fixpoint powi_loop (k : nat) (x r : Z) : res Z :=
  match k with
  | O => Ok r
  | S k' => r <- mul x r ;; if overflow =? r then Ok r else powi_loop k' x r
  end.
(** fp16.cpp:690-715 *)
Definition powi (x y : Z) : res Z :=
  let n := Z.shiftr y 16 in
  if n =? 0 then Ok one
  else if one =? n then Ok x
  else powi_loop (Z.to_nat n) x one.
(** fp16.cpp:717-737 *)
Definition pow (x y : Z) : res Z :=
  if (Z.land (u32 y) fraction_mask =? 0) && (0 <? y) then powi x y
  else
    ax <- absolute x ;;
    l <- log ax ;;
    tmp <- mul y l ;;
    if negb (overflow =? tmp) then
      r <- exp tmp ;; if x <? 0 then i32 (- r) else Ok r
    else Ok overflow.

(** fp16.cpp:739-757: the characters written, as byte codes.  The digit is
    added to '0' as char arithmetic; [fuel] bounds the number of divisions of
    [scale] by 10 (at most 10 for a 32-bit scale). *)
Fixpoint itoa (fuel : nat) (scale val : Z) (skip : bool) : list Z :=
  match fuel with
  | O => []
  | S fuel' =>
    if scale =? 0 then [] else
    let digit := val / scale in
    if negb skip || negb (digit =? 0) || (scale =? 1) then
      (48 + digit) :: itoa fuel' (scale / 10) (val mod scale) false
    else itoa fuel' (scale / 10) val skip
  end.

(** fp16.cpp:777 *)
Definition iScales : list Z := [1; 10; 100; 1000; 10000; 100000].

(** fp16.cpp:759-811: the bytes written from [str] on, terminator included. *)
Definition toASCII (num decimals : Z) : res (list Z) :=
  if overflow =? num then Ok [111; 118; 101; 114; 102; 108; 111; 119; 0]
  else
    uValue <- i32 (if 0 <=? num then num else - num) ;;
    let sign := if num <? 0 then [45] else [] in
    let iPart := s32 (Z.shiftr (u32 uValue) 16) in
    let fPart := Z.land (u32 uValue) fraction_mask in
    let decimals := if 5 <? decimals then 5 else decimals in
    let decimals := if decimals <? 0 then 0 else decimals in
    scale <- get iScales decimals ;;
    m <- mul (s32 fPart) (s32 scale) ;;
    let fPart := u32 m in
    ip <- (if scale <=? fPart then t <- i32 (iPart + 1) ;; Ok (t, fPart - scale) else Ok (iPart, fPart)) ;;
    let '(iPart, fPart) := ip in
    let int_digits := itoa 12 10000 (u32 iPart) true in
    let frac := if negb (scale =? 1) then 46 :: itoa 12 (scale / 10) fPart false else [] in
    Ok (sign ++ int_digits ++ frac ++ [0]).
