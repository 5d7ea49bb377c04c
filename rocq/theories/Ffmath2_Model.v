(** More functions of src/ffmath.cpp, in binary32. *)
From Coq Require Import ZArith Bool.
From Flocq Require Import IEEE754.Binary IEEE754.Bits.
From Verif Require Import Base Arith Bits32 Ffmath_Model.
Open Scope Z_scope.

(** normalize: ffmath.cpp:738-743 *)
Definition normalize (x xMin xMax : float) : float := ((x - xMin) / (xMax - xMin))%b32.

(** map: ffmath.cpp:745-753 *)
Definition fmap (x xMin xMax yMin yMax : float) : float := (((yMax - yMin) * normalize x xMin xMax) + yMin)%b32.

(** inCircle: ffmath.cpp:814-822 *)
Definition inCircle (x y cx cy r : float) : bool :=
  let d := (((x - cx) * (x - cx)) + ((y - cy) * (y - cy)))%b32 in
  (d <=? (r * r))%b32.

(** ** Elementary functions.  Constants and coefficients are given as the bit
    patterns of the floats nearest to the decimal literals of the source; the
    literal is quoted beside each. *)

(** static_cast<int32_t>( float ): truncation, undefined unless the truncated value fits *)
Definition toI32 (x : float) : res Z :=
  match x with
  | B754_zero _ _ _ => Ok 0
  | B754_finite _ _ s m e _ => let a := if 0 <=? e then Zpos m * 2 ^ e else Zpos m / 2 ^ (- e) in i32 (if s then - a else a)
  | _ => Ub
  end.

(** constants: ffmath.hpp:1057-1101 *)
Definition fLOG2E : float := ofU 1069066811.   (* 1.442695040888963407359924681001892137F *)
Definition fLN2 : float := ofU 1060205080.     (* 0.693147180559945309417232121458176568F *)
Definition fLOG10_2 : float := ofU 1050288283. (* 0.301029995663981198017467022509663366F *)
Definition fPI_2 : float := ofU 1070141403.    (* 1.570796326794896557998981734272092580F *)
Definition f1_PI : float := ofU 1050868099.    (* 0.318309886183790671537767526745028724F *)
Definition fSQRT2 : float := ofU 1068827891.   (* 1.414213562373095048801688724209698079F *)

(** compute_cbrt: ffmath.cpp:246-268; unsigned arithmetic wraps *)
Definition compute_cbrt (x : float) (r : bool) : float :=
  let i := asU x in
  let '(x, neg) := if (x <? flit 0 1)%b32 then ((- x)%b32, true) else (x, false) in
  let y := ofU (w32 (1418472267 - i / 3)) in
  let c := (x * y * y * y)%b32 in
  let y := (y * (ofU 1071664131 - (c * (ofU 1067458358 - (ofU 1057122009 * c)))))%b32 in (* 1.752319676F, 1.2509524245F, 0.5093818292F *)
  let d := (x * y * y)%b32 in
  let c := (flit 1 1 - (d * y))%b32 in
  let v := (flit 1 1 + (flit 1 3 * c))%b32 in
  let v := (v * (if r then y else d))%b32 in
  if neg then (- v)%b32 else v.
(** cbrt, rCbrt: ffmath.cpp:270-279 *)
Definition cbrt (x : float) : float := compute_cbrt x false.
Definition rCbrt (x : float) : float := if isZero x then limInf else compute_cbrt x true.

(** sin: ffmath.cpp:450-465 *)
Definition fsin (x : float) : float :=
  if (absolute x <=? ofU 1004029136)%b32 then x (* 0.0066F *)
  else
    let x := (x * (- f1_PI))%b32 in
    let y := (x + flit 25165824 1)%b32 in
    let x := (x - (y - flit 25165824 1))%b32 in
    let x := (x * (absolute x - flit 1 1))%b32 in
    (x * ((ofU 1080386149 * absolute x) + ofU 1078372199))%b32. (* 3.5841304553896F, 3.1039673861526F *)
(** cos: ffmath.cpp:467-480; tan: 482-485 *)
Definition fcos (x : float) : float :=
  if fisEqual0 (absolute x) fPI_2 then ofU 730643660 (* 1.0e-12F *)
  else fsin (x + fPI_2)%b32.
Definition ftan (x : float) : float := (fsin x / fcos x)%b32.

(** asin, acos: ffmath.cpp:487-496 *)
Definition fasin (x : float) : float :=
  let x := (sqrt (flit 1 1 + x) - sqrt (flit 1 1 - x))%b32 in
  (x * ((ofU 1040640679 * absolute x) + ofU 1064084720))%b32. (* 0.131754508171F, 0.924391722181F *)
Definition facos (x : float) : float := (fPI_2 - fasin x)%b32.

(** atan, atan2: ffmath.cpp:498-518 *)
Definition fatan (x : float) : float :=
  let x := (x / (absolute x + flit 1 1))%b32 in
  let abs_x := absolute x in
  (x * ((abs_x * ((- ofU 1069184083 * abs_x) + ofU 1074517823)) + ofU 1062710114))%b32. (* 1.45667498914F, 2.18501248371F, 0.842458832225F *)
Definition fatan2 (y x : float) : float :=
  let t := (fPI - (if (y <? flit 0 1)%b32 then f2PI else flit 0 1))%b32 in
  let f := if (absolute x <=? limMin)%b32 then flit 1 1 else flit 0 1 in
  let y := (fatan (y / (x + f)) + (if (x <? flit 0 1)%b32 then t else flit 0 1))%b32 in
  (y + (f * ((flit 1 2 * t) - y)))%b32.

(** exp2: ffmath.cpp:520-550; the shift of a negative integer cannot occur *)
Definition exp2 (x : float) : res float :=
  if (x <=? flit (-126) 1)%b32 then Ok (flit 0 1)
  else if (x >? flit 128 1)%b32 then Ok limInf
  else
    ip <- floor (x + flit 1 2)%b32 ;;
    let fp := (x - ip)%b32 in
    ii <- toI32 ip ;;
    s <- i32 (ii + 127) ;;
    ep_i <- i32 (Z.shiftl s 23) ;;
    let x := ofU 958463454 in                        (* 1.535336188319500e-4F *)
    let x := ((x * fp) + ofU 984588073)%b32 in       (* 1.339887440266574e-3F *)
    let x := ((x * fp) + ofU 1008572070)%b32 in      (* 9.618437357674640e-3F *)
    let x := ((x * fp) + ofU 1029920628)%b32 in      (* 5.550332471162809e-2F *)
    let x := ((x * fp) + ofU 1047920110)%b32 in      (* 2.402264791363012e-1F *)
    let x := ((x * fp) + ofU 1060205080)%b32 in      (* 6.931472028550421e-1F *)
    let x := ((x * fp) + flit 1 1)%b32 in
    Ok (x * ofI ep_i)%b32.

(** log2: ffmath.cpp:552-597 *)
Definition log2 (x : float) : float :=
  if (x <? flit 0 1)%b32 then limNan
  else if isZero x then (- limInf)%b32
  else
    let val_i := asI x in
    let fp := Z.lor (Z.land val_i 8388607) 1065353216 in
    let ip := Z.shiftr (Z.land val_i 2139095040) 23 - 127 in
    let x := ofI fp in
    let '(x, ip) := if (x >? fSQRT2)%b32 then ((x * flit 1 2)%b32, ip + 1) else (x, ip) in
    let x := (x - flit 1 1)%b32 in
    let px := ofU 1032855995 in                      (* 7.0376836292e-2F *)
    let px := ((px * x) - ofU 1038864824)%b32 in     (* 1.1514610310e-1F *)
    let px := ((px * x) + ofU 1039082778)%b32 in     (* 1.1676998740e-1F *)
    let px := ((px * x) - ofU 1040080207)%b32 in     (* 1.2420140846e-1F *)
    let px := ((px * x) + ofU 1041361343)%b32 in     (* 1.4249322787e-1F *)
    let px := ((px * x) - ofU 1042984528)%b32 in     (* 1.6668057665e-1F *)
    let px := ((px * x) + ofU 1045221036)%b32 in     (* 2.0000714765e-1F *)
    let px := ((px * x) - ofU 1048575996)%b32 in     (* 2.4999993993e-1F *)
    let px := ((px * x) + ofU 1051372202)%b32 in     (* 3.3333331174e-1F *)
    let z := (x * x)%b32 in
    let z := ((x * z * px) - (flit 1 2 * z) + x)%b32 in
    let z := (z * fLOG2E)%b32 in
    (b32_ofZ ip + z)%b32.

(** exp, expm1, exp10, log, log1p, log10, pow: ffmath.cpp:599-636 *)
Definition fexp (x : float) : res float := exp2 (fLOG2E * x)%b32.
Definition expm1 (x : float) : res float := y <- exp2 (fLOG2E * x)%b32 ;; Ok (y - flit 1 1)%b32.
Definition exp10 (x : float) : res float := exp2 (ofU 1079286392 * x)%b32. (* 3.32192809F *)
Definition flog (x : float) : float := (fLN2 * log2 x)%b32.
Definition log1p (x : float) : float := (fLN2 * log2 (flit 1 1 + x))%b32.
Definition log10 (x : float) : float := (fLOG10_2 * log2 x)%b32.
Definition fpow (b e : float) : res float := exp2 (e * log2 b)%b32.

(** sinh, cosh, tanh, asinh, acosh, atanh: ffmath.cpp:637-671 *)
Definition fsinh (x : float) : res float := epx <- fexp x ;; let enx := (flit 1 1 / epx)%b32 in Ok (flit 1 2 * (epx - enx))%b32.
Definition fcosh (x : float) : res float := epx <- fexp x ;; let enx := (flit 1 1 / epx)%b32 in Ok (flit 1 2 * (epx + enx))%b32.
Definition ftanh (x : float) : res float := x <- fexp (flit (-2) 1 * x)%b32 ;; Ok ((flit 1 1 - x) / (flit 1 1 + x))%b32.
Definition asinh (x : float) : float := flog (x + sqrt ((x * x) + flit 1 1))%b32.
Definition acosh (x : float) : float := if (x <? flit 1 1)%b32 then limNan else flog (x + sqrt ((x * x) - flit 1 1))%b32.
Definition atanh (x : float) : float := (flog ((flit 1 1 + x) / (flit 1 1 - x)) * flit 1 2)%b32.

(** erf, erfc: ffmath.cpp:824-843 *)
Definition erf (x : float) : res float :=
  if (x >=? ofU 1088237339)%b32 then Ok (flit 1 1) (* 6.912F *)
  else
    x <- fexp (ofU 1079915983 * x)%b32 ;; (* 3.472034176F *)
    Ok ((x / ((absolute x + flit 1 1) * flit 2 1)) - flit 1 1)%b32.
Definition erfc (x : float) : res float := y <- erf x ;; Ok (flit 1 1 - y)%b32.
