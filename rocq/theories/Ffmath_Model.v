(** Model of src/ffmath.cpp, first part: the functions working on the
    representation of a float.  A float is a Flocq [binary32]; [bit_cast]
    (ffmath.cpp:31-37) is Flocq's bijection between binary32 and the integers of
    [0, 2^32), NaN payloads included.  uint32_t is kept in [0, 2^32) by [w32];
    int32_t is a signed integer, whose additions are checked: signed overflow is
    undefined behaviour.  [>>] on a negative int32_t is the arithmetic shift (what
    every compiler does before C++20 and the standard requires since), and the
    operators & | ~ on int32_t are those of two's complement. *)
From Coq Require Import ZArith Bool.
From Flocq Require Import IEEE754.BinarySingleNaN IEEE754.Binary IEEE754.Bits.
From Verif Require Import Base Arith.
Open Scope Z_scope.

Notation float := binary32.

(** bit_cast<uint32_t>, bit_cast<float> of a uint32_t, bit_cast<int32_t>,
    bit_cast<float> of an int32_t: ffmath.cpp:31-37 *)
Definition asU (x : float) : Z := bits_of_b32 x.
Definition ofU (u : Z) : float := b32_of_bits u.
Definition asI (x : float) : Z := let u := asU x in if u <? 2147483648 then u else u - M32.
Definition ofI (i : Z) : float := b32_of_bits (w32 i).

(** int32_t result of a signed addition *)
Definition i32 (z : Z) : res Z := if (-2147483648 <=? z) && (z <? 2147483648) then Ok z else Ub.

(** F32_NO_SIGN_MASK, F32_SIGN_MASK: ffmath.cpp:22-23 *)
Definition NO_SIGN_MASK : Z := 2147483647.
Definition SIGN_MASK : Z := 2147483648.

(** The binary32 operations: no contraction, round to nearest even (the NaN
    payload of an invalid operation is Flocq's; no theorem depends on it). *)
Declare Scope b32_scope.
Delimit Scope b32_scope with b32.
Infix "+" := (b32_plus mode_NE) : b32_scope.
Infix "-" := (b32_minus mode_NE) : b32_scope.
Infix "*" := (b32_mult mode_NE) : b32_scope.
Infix "/" := (b32_div mode_NE) : b32_scope.
Notation "- x" := (b32_opp x) : b32_scope.
Infix "<?" := b32_lt : b32_scope.
Infix "<=?" := b32_le : b32_scope.
Notation "x >? y" := (b32_lt y x) (only parsing) : b32_scope.
Notation "x >=? y" := (b32_le y x) (only parsing) : b32_scope.

(** A float literal n/d. The compiler rounds the decimal literal once; so does
    the division when n and d are floats, which is so wherever [flit] is used. *)
Definition flit (n : Z) (d : positive) : float := (b32_ofZ n / b32_ofZ (Zpos d))%b32.
(** limits::Min() (FLT_MIN), Max() (FLT_MAX), epsilon() (FLT_EPSILON), infinity(), nan(): ffmath.cpp:15-19 *)
Definition limMin : float := ofU 8388608.
Definition limMax : float := ofU 2139095039.
Definition limEps : float := ofU 872415232.
Definition limInf : float := ofU 2139095040.
Definition limNan : float := ofU 2143289343.

(** absolute: ffmath.cpp:108-111; absf: 185-188 *)
Definition absolute (x : float) : float := ofU (Z.land NO_SIGN_MASK (asU x)).
Definition absf (x : float) : float := absolute x.

(** isEqual: ffmath.cpp:113-118 *)
Definition fisEqual (a b tol : float) : bool := (absolute (a - b) <=? absolute tol)%b32.

(** enum classification, in the order of its values: ffmath.hpp:29-35 *)
Inductive classification := FFP_ZERO | FFP_SUBNORMAL | FFP_NORMAL | FFP_INFINITE | FFP_NAN.

(** classify: ffmath.cpp:130-152 *)
Definition classify (f : float) : classification :=
  let u := Z.land (asU f) NO_SIGN_MASK in
  if u =? 0 then FFP_ZERO
  else if u <? 8388608 then FFP_SUBNORMAL
  else if u <? 2139095040 then FFP_NORMAL
  else if u =? 2139095040 then FFP_INFINITE
  else FFP_NAN.

(** isNan, isInf, isFinite, isNormal: ffmath.hpp:134-169 *)
Definition isNan (x : float) : bool := match classify x with FFP_NAN => true | _ => false end.
Definition isInf (x : float) : bool := match classify x with FFP_INFINITE => true | _ => false end.
Definition isFinite (x : float) : bool := match classify x with FFP_ZERO | FFP_SUBNORMAL | FFP_NORMAL => true | _ => false end.
Definition isNormal (x : float) : bool := match classify x with FFP_NORMAL => true | _ => false end.
(** FFP_ZERO == classify( x ) *)
Definition isZero (x : float) : bool := match classify x with FFP_ZERO => true | _ => false end.

(** copysign: ffmath.cpp:154-163 *)
Definition copysign (mag sgn : float) : float :=
  let u_mag := Z.land (asU mag) NO_SIGN_MASK in
  ofU (Z.lor u_mag (Z.land (asU sgn) SIGN_MASK)).

(** sign: ffmath.cpp:165-183 *)
Definition sign (x : float) : float :=
  if (x >? flit 0 1)%b32 then flit 1 1
  else if (x <? flit 0 1)%b32 then flit (-1) 1
  else if isZero x then flit 0 1
  else limNan.

(** recip: ffmath.cpp:190-199 *)
Definition recip (x : float) : float :=
  let z := ofU (w32 (2129859015 - asU x)) in
  (z * (flit 2 1 - (x * z)))%b32.

(** sqrt: ffmath.cpp:201-222 *)
Definition sqrt (x : float) : float :=
  if (x <? flit 0 1)%b32 then limNan
  else if isZero x then flit 0 1
  else
    let y := w32 (Z.shiftr (w32 (asU x - 8388608)) 1 + 536870912) in
    let z := ofU y in
    let z := (flit 1 2 * ((x / z) + z))%b32 in
    (flit 1 2 * ((x / z) + z))%b32.

(** rSqrt: ffmath.cpp:224-244 *)
Definition rSqrt (x : float) : float :=
  if (x <? flit 0 1)%b32 then limNan
  else if isZero x then limInf
  else
    let z := (flit 1 2 * x)%b32 in
    let x := ofU (w32 (1597463174 - Z.shiftr (asU x) 1)) in
    (x * (flit 3 2 - (z * x * x)))%b32.

(** The exponent field less its bias, ( ( i0 >> 23 ) & 0xFF ) - 0x7F: ffmath.cpp:288, 318, 354, 390 *)
Definition expo (i0 : Z) : Z := Z.land (Z.shiftr i0 23) 255 - 127.

(** rounding: ffmath.cpp:281-309 *)
Definition rounding (x : float) : res float :=
  let i0 := asI x in
  let j0 := expo i0 in
  if j0 <? 23 then
    if j0 <? 0 then
      let i0 := Z.land i0 (- SIGN_MASK) in
      Ok (ofI (if j0 =? -1 then Z.lor i0 1065353216 else i0))
    else
      let i := Z.shiftr 8388607 j0 in
      if Z.land i0 i =? 0 then Ok x
      else
        i0 <- i32 (i0 + Z.shiftr 4194304 j0) ;;
        Ok (ofI (Z.land i0 (Z.lnot i)))
  else Ok x.

(** floor: ffmath.cpp:311-345 *)
Definition floor (x : float) : res float :=
  let i0 := asI x in
  let j0 := expo i0 in
  if j0 <? 23 then
    if j0 <? 0 then
      Ok (ofI (if 0 <=? i0 then 0 else if Z.land i0 NO_SIGN_MASK =? 0 then i0 else 3212836864 - M32))
    else
      let i := Z.shiftr 8388607 j0 in
      if Z.land i0 i =? 0 then Ok x
      else
        i0 <- (if i0 <? 0 then i32 (i0 + Z.shiftr 8388608 j0) else Ok i0) ;;
        Ok (ofI (Z.land i0 (Z.lnot i)))
  else Ok x.

(** ceil: ffmath.cpp:347-381 *)
Definition ceil (x : float) : res float :=
  let i0 := asI x in
  let j0 := expo i0 in
  if j0 <? 23 then
    if j0 <? 0 then
      Ok (ofI (if i0 <? 0 then - SIGN_MASK else if i0 =? 0 then i0 else 1065353216))
    else
      let i := Z.shiftr 8388607 j0 in
      if Z.land i0 i =? 0 then Ok x
      else
        i0 <- (if 0 <? i0 then i32 (i0 + Z.shiftr 8388608 j0) else Ok i0) ;;
        Ok (ofI (Z.land i0 (Z.lnot i)))
  else Ok x.

(** trunc: ffmath.cpp:383-397 *)
Definition trunc (x : float) : float :=
  let i0 := asI x in
  let sx := Z.land i0 (- SIGN_MASK) in
  let j0 := expo i0 in
  if j0 <? 23 then
    ofI (if j0 <? 0 then sx else Z.lor sx (Z.land i0 (Z.lnot (Z.shiftr 8388607 j0))))
  else x.

(** frac: ffmath.cpp:399-402 *)
Definition ffrac (x : float) : float := (x - trunc x)%b32.

(** rem: ffmath.cpp:404-409 *)
Definition frem (x y : float) : float :=
  if isZero x then limNan else (x - (y * trunc (x / y)))%b32.

(** mod: ffmath.cpp:411-448 *)
Definition fmod (x y : float) : res float :=
  if isZero y then Ok x
  else
    f <- floor (x / y)%b32 ;;
    let m := (x - (y * f))%b32 in
    Ok (if (y >? flit 0 1)%b32 then
          if (m >=? y)%b32 then flit 0 1
          else if (m <? flit 0 1)%b32 then
            let tmp := (y + m)%b32 in
            if (absolute (tmp - y) <=? limMin)%b32 then flit 0 1 else tmp
          else m
        else
          if (m <=? y)%b32 then flit 0 1
          else if (m >? flit 0 1)%b32 then
            let tmp := (y + m)%b32 in
            if (absolute (tmp - y) <=? limMin)%b32 then flit 0 1 else tmp
          else m).

(** rexp: ffmath.cpp:844-859 *)
Definition rexp (x : float) : float * Z :=
  let lu := asU x in
  let pw2 := Z.land (Z.shiftr lu 23) 255 - 126 in
  (ofU (Z.lor (Z.land lu 2155872255) 1056964608), pw2).

(** ldexp: ffmath.cpp:861-875 *)
Definition ldexp (x : float) (pw2 : Z) : res float :=
  let lu := asU x in
  e <- i32 (Z.land (Z.shiftr lu 23) 255 + pw2) ;;
  Ok (ofU (Z.lor (Z.shiftl (Z.land (w32 e) 255) 23) (Z.land lu 2155872255))).

(** nextAfter: ffmath.cpp:911-941 *)
Definition nextAfter (x y : float) : float :=
  let uxi := asU x in
  let uyi := asU y in
  if isNan x || isNan y then limNan
  else if uxi =? uyi then y
  else
    let ax := Z.land uxi NO_SIGN_MASK in
    let ay := Z.land uyi NO_SIGN_MASK in
    ofU (if ax =? 0 then (if ay =? 0 then uyi else Z.lor (Z.land uyi SIGN_MASK) 1)
         else if (ay <? ax) || negb (Z.land (Z.lxor uxi uyi) SIGN_MASK =? 0) then w32 (uxi - 1)
         else w32 (uxi + 1)).

(** isEqual( a, b ) with its default tolerance: ffmath.hpp:50-52 *)
Definition fisEqual0 (a b : float) : bool := fisEqual a b limMin.

(** hypot: ffmath.cpp:877-909; [xClass < FFP_INFINITE] is [isFinite] *)
Definition hypot (x y : float) : res float :=
  if isFinite x && isFinite y then
    let '(a, b) := if (x >=? y)%b32 then (x, y) else (y, x) in
    let '(an, e) := rexp a in
    bn <- ldexp b (- e) ;;
    ldexp (sqrt ((an * an) + (bn * bn))%b32) e
  else Ok (if isInf x || isInf y then limInf else limNan).

(** midpoint: ffmath.cpp:693-716; lo = 2*Min and hi = Max/2 are exact *)
Definition midpoint (a b : float) : float :=
  let lo := (flit 2 1 * limMin)%b32 in
  let hi := (flit 1 2 * limMax)%b32 in
  let abs_a := absolute a in
  let abs_b := absolute b in
  if (abs_a <=? hi)%b32 && (abs_b <=? hi)%b32 then (flit 1 2 * (a + b))%b32
  else if (abs_a <? lo)%b32 then (a + (flit 1 2 * b))%b32
  else if (abs_b <? lo)%b32 then ((flit 1 2 * a) + b)%b32
  else ((flit 1 2 * a) + (flit 1 2 * b))%b32.

(** lerp: ffmath.cpp:718-736 *)
Definition lerp (a b t : float) : float :=
  if ((a <=? flit 0 1)%b32 && (b >=? flit 0 1)%b32) || ((a >=? flit 0 1)%b32 && (b <=? flit 0 1)%b32) then
    ((t * b) + (a * (flit 1 1 - t)))%b32
  else if fisEqual0 t (flit 1 1) then b
  else
    let x := (a + t * (b - a))%b32 in
    if Bool.eqb (t >? flit 1 1)%b32 (b >? a)%b32 then (if (b <? x)%b32 then x else b)
    else (if (b >? x)%b32 then x else b).

(** FFP_PI, FFP_2PI: ffmath.hpp:1067-1069, as the floats nearest to the literals *)
Definition fPI : float := ofU 1078530011.
Definition f2PI : float := ofU 1086918619.
(** wrapToPi, wrapTo2Pi, wrapTo180, wrapTo360: ffmath.cpp:673-691 *)
Definition wrapToPi (x : float) : res float := m <- fmod (x + fPI)%b32 f2PI ;; Ok (m - fPI)%b32.
Definition wrapTo2Pi (x : float) : res float := fmod x f2PI.
Definition wrapTo180 (x : float) : res float := m <- fmod (x + flit 180 1)%b32 (flit 360 1) ;; Ok (m - flit 180 1)%b32.
Definition wrapTo360 (x : float) : res float := fmod x (flit 360 1).
