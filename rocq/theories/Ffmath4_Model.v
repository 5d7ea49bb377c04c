(** The elliptic integrals and the exponential integral of src/ffmath.cpp, in
    binary32.  Decimal literals that are not small fractions are given as the bit
    patterns of the nearest floats, with the literal beside them. *)
From Coq Require Import ZArith Bool.
From Flocq Require Import IEEE754.Binary IEEE754.Bits.
From Verif Require Import Base Arith Bits32 Ffmath_Model Ffmath2_Model.
Open Scope Z_scope.

(** ( a > b ) ? a : b, ffmath.cpp:1578, 1579, 1638, 1639, 1750, 1751, 1752 *)
Definition larger (a b : float) : float := if (a >? b)%b32 then a else b.

(** The values the loop of ellint_rf leaves behind: mu, xnDev, ynDev, znDev *)
Record rf_state := mkRf { rf_mu : float; rf_x : float; rf_y : float; rf_z : float }.
(** ffmath.cpp:1571-1574: one evaluation of the mean and the deviations *)
Definition rf_dev (xn yn zn : float) : rf_state :=
  let mu := ((xn + yn + zn) * flit 1 3)%b32 in
  mkRf mu (flit 2 1 - (mu + xn) / mu)%b32 (flit 2 1 - (mu + yn) / mu)%b32 (flit 2 1 - (mu + zn) / mu)%b32.
(** ffmath.cpp:1567-1590: at most [n] further turns; the loop body runs at least once because maxIter is 100 *)
Fixpoint rf_loop (n : nat) (xn yn zn : float) (st : rf_state) : rf_state :=
  match n with
  | O => st
  | S k =>
      let st := rf_dev xn yn zn in
      let epsilon := larger (absolute (rf_x st)) (absolute (rf_y st)) in
      let epsilon := larger (absolute (rf_z st)) epsilon in
      if (epsilon <? ofU 992036120)%b32 then st (* 0.0024607833005759250678823324F *)
      else
        let xRoot := sqrt xn in let yRoot := sqrt yn in let zRoot := sqrt zn in
        let lambda := (xRoot * (yRoot + zRoot) + (yRoot * zRoot))%b32 in
        rf_loop k (flit 1 4 * (xn + lambda))%b32 (flit 1 4 * (yn + lambda))%b32 (flit 1 4 * (zn + lambda))%b32 st
  end.
(** ffmath.cpp:1591-1595 *)
Definition rf_end (st : rf_state) : float :=
  let e2 := (rf_x st * rf_y st)%b32 in
  let e3 := (e2 * rf_z st)%b32 in
  let e2 := (e2 - (rf_z st * rf_z st))%b32 in
  let s := (flit 1 1 + ((flit 1 24 * e2) - flit 1 10 - (flit 3 44 * e3)) * e2 + (flit 1 14 * e3))%b32 in
  (s / sqrt (rf_mu st))%b32.
(** ellint_rf: ffmath.cpp:1538-1599 *)
Definition ellint_rf (x y z : float) : float :=
  let loLim := (flit 5 1 * limMin)%b32 in
  if (x <? flit 0 1)%b32 || (y <? flit 0 1)%b32 || (z <? flit 0 1)%b32 ||
     (x + y <? loLim)%b32 || (x + z <? loLim)%b32 || (y + z <? loLim)%b32 then limNan
  else rf_end (rf_loop 100 x y z (rf_dev x y z)).

(** mu, xnDev, ynDev, znDev, sigma, power4 *)
Record rd_state := mkRd { rd_mu : float; rd_x : float; rd_y : float; rd_z : float; rd_sigma : float; rd_pow : float }.
(** ffmath.cpp:1631-1634 *)
Definition rd_dev (xn yn zn sigma power4 : float) : rd_state :=
  let mu := ((xn + yn + (flit 3 1 * zn)) * flit 1 5)%b32 in
  mkRd mu ((mu - xn) / mu)%b32 ((mu - yn) / mu)%b32 ((mu - zn) / mu)%b32 sigma power4.
(** ffmath.cpp:1627-1652 *)
Fixpoint rd_loop (n : nat) (xn yn zn sigma power4 : float) (st : rd_state) : rd_state :=
  match n with
  | O => mkRd (rd_mu st) (rd_x st) (rd_y st) (rd_z st) sigma power4
  | S k =>
      let st := rd_dev xn yn zn sigma power4 in
      let epsilon := larger (absolute (rd_x st)) (absolute (rd_y st)) in
      let epsilon := larger (absolute (rd_z st)) epsilon in
      if (epsilon <? ofU 988025328)%b32 then st (* 0.0017400365588678507952624663346341549F *)
      else
        let xRoot := sqrt xn in let yRoot := sqrt yn in let zRoot := sqrt zn in
        let lambda := (xRoot * (yRoot + zRoot) + (yRoot * zRoot))%b32 in
        rd_loop k (flit 1 4 * (xn + lambda))%b32 (flit 1 4 * (yn + lambda))%b32 (flit 1 4 * (zn + lambda))%b32
          (sigma + power4 / (zRoot * (zn + lambda)))%b32 (power4 * flit 1 4)%b32 st
  end.
(** ffmath.cpp:1653-1660 *)
Definition rd_end (st : rd_state) : float :=
  let ea := (rd_x st * rd_y st)%b32 in
  let eb := (rd_z st * rd_z st)%b32 in
  let ec := (ea - eb)%b32 in
  let ed := (ea - (flit 6 1 * eb))%b32 in
  let ef := (ed + ec + ec)%b32 in
  let s1 := (ed * (- flit 3 14 + (flit 9 22 * ed / flit 3 1) - (flit 3 2 * flit 3 26 * rd_z st * ef)))%b32 in
  let s2 := (rd_z st * ((flit 1 6 * ef) + rd_z st * (- (flit 9 22 * ec) - (rd_z st * flit 3 26) - ea)))%b32 in
  ((flit 3 1 * rd_sigma st) + rd_pow st * rSqrt (rd_mu st) * (flit 1 1 + s1 + s2) / rd_mu st)%b32.
(** 4.103335708781587555782386855921935e-26F, ffmath.cpp:1606, 1714 *)
Definition rdLim : float := ofU 357249014.
(** ellint_rd: ffmath.cpp:1601-1664 *)
Definition ellint_rd (x y z : float) : float :=
  if (x <? flit 0 1)%b32 || (y <? flit 0 1)%b32 || (x + y <? rdLim)%b32 || (z <? rdLim)%b32 then limNan
  else rd_end (rd_loop 100 x y z (flit 0 1) (flit 1 1) (rd_dev x y z (flit 0 1) (flit 1 1))).

(** ffmath.cpp:1688-1700: mu and sn *)
Fixpoint rc_loop (n : nat) (xn yn mu sn : float) : float * float :=
  match n with
  | O => (mu, sn)
  | S k =>
      let mu := ((xn + flit 2 1 * yn) * flit 1 3)%b32 in
      let sn := ((yn + mu) / mu - flit 2 1)%b32 in
      if (absolute sn <? ofU 1028337653)%b32 then (mu, sn) (* 0.049606282877419791144113503378321F *)
      else
        let lambda := ((flit 2 1 * sqrt xn * sqrt yn) + yn)%b32 in
        rc_loop k (flit 1 4 * (xn + lambda))%b32 (flit 1 4 * (yn + lambda))%b32 mu sn
  end.
(** ellint_rc: ffmath.cpp:1666-1706 *)
Definition ellint_rc (x y : float) : float :=
  if (x <? flit 0 1)%b32 || (y <? flit 0 1)%b32 || (y <? ofU 27262976)%b32 then limNan (* 5.8774717550000002558112628881984982848919e-38F *)
  else
    let '(mu, sn) := rc_loop 100 x y (flit 0 1) (flit 0 1) in
    let s := (sn * sn * (flit 3 10 + sn * (flit 1 7 + sn * (flit 3 8 + (sn * flit 9 22)))))%b32 in
    ((flit 1 1 + s) * rSqrt mu)%b32.

(** mu, xnDev, ynDev, znDev, pnDev, sigma, power4 *)
Record rj_state := mkRj { rj_mu : float; rj_x : float; rj_y : float; rj_z : float; rj_p : float; rj_sigma : float; rj_pow : float }.
(** ffmath.cpp:1741-1745 *)
Definition rj_dev (xn yn zn pn sigma power4 : float) : rj_state :=
  let mu := (flit 1 5 * (xn + yn + zn + (flit 2 1 * pn)))%b32 in
  mkRj mu ((mu - xn) / mu)%b32 ((mu - yn) / mu)%b32 ((mu - zn) / mu)%b32 ((mu - pn) / mu)%b32 sigma power4.
(** ffmath.cpp:1737-1769 *)
Fixpoint rj_loop (n : nat) (xn yn zn pn sigma power4 : float) (st : rj_state) : rj_state :=
  match n with
  | O => mkRj (rj_mu st) (rj_x st) (rj_y st) (rj_z st) (rj_p st) sigma power4
  | S k =>
      let st := rj_dev xn yn zn pn sigma power4 in
      let epsilon := larger (absolute (rj_x st)) (absolute (rj_y st)) in
      let epsilon := larger (absolute (rj_z st)) epsilon in
      let epsilon := larger (absolute (rj_p st)) epsilon in
      if (epsilon <? ofU 1028337653)%b32 then st (* 0.049606282877419791144113503378321F *)
      else
        let xRoot := sqrt xn in let yRoot := sqrt yn in let zRoot := sqrt zn in
        let lambda := (xRoot * (yRoot + zRoot) + (yRoot * zRoot))%b32 in
        let alpha1 := (pn * (xRoot + yRoot + zRoot) + xRoot * yRoot * zRoot)%b32 in
        let alpha2 := (alpha1 * alpha1)%b32 in
        let beta := (pn * (pn + lambda) * (pn + lambda))%b32 in
        rj_loop k (flit 1 4 * (xn + lambda))%b32 (flit 1 4 * (yn + lambda))%b32 (flit 1 4 * (zn + lambda))%b32 (flit 1 4 * (pn + lambda))%b32
          (sigma + power4 * ellint_rc alpha2 beta)%b32 (power4 * flit 1 4)%b32 st
  end.
(** ffmath.cpp:1770-1778 *)
Definition rj_end (st : rj_state) : float :=
  let c1 := flit 3 14 in let c2 := flit 1 3 in let c3 := flit 3 22 in let c4 := flit 3 26 in
  let x := rj_x st in let y := rj_y st in let z := rj_z st in let p := rj_p st in
  let ea := (x * (y + z) + y * z)%b32 in
  let eb := (x * y * z)%b32 in
  let ec := (p * p)%b32 in
  let e2 := (ea - flit 3 1 * ec)%b32 in
  let e3 := (eb + flit 2 1 * p * (ea - ec))%b32 in
  let s1 := (flit 1 1 + e2 * (- c1 + flit 3 4 * c3 * e2 - flit 3 2 * c4 * e3))%b32 in
  let s2 := (eb * (flit 1 2 * c2 + p * (- c3 - c3 + p * c4)))%b32 in
  let s3 := (p * ea * (c2 - (p * c3)) - (c2 * p * ec))%b32 in
  (flit 3 1 * rj_sigma st + rj_pow st * (s1 + s2 + s3) / (rj_mu st * sqrt (rj_mu st)))%b32.
(** ellint_rj: ffmath.cpp:1708-1782 *)
Definition ellint_rj (x y z p : float) : float :=
  if (x <? flit 0 1)%b32 || (y <? flit 0 1)%b32 || (z <? flit 0 1)%b32 || (x + y <? rdLim)%b32 ||
     (x + z <? rdLim)%b32 || (y + z <? rdLim)%b32 || (p <? rdLim)%b32 then limNan
  else rj_end (rj_loop 100 x y z p (flit 0 1) (flit 1 1) (rj_dev x y z p (flit 0 1) (flit 1 1))).

(** comp_ellint_1: ffmath.cpp:1784-1796 *)
Definition comp_ellint_1 (k : float) : float :=
  if isNan k || (absolute k >=? flit 1 1)%b32 then limNan
  else ellint_rf (flit 0 1) (flit 1 1 - (k * k))%b32 (flit 1 1).
(** comp_ellint_2: ffmath.cpp:1798-1818 *)
Definition comp_ellint_2 (k : float) : float :=
  let abs_k := absolute k in
  if isNan k || (abs_k >? flit 1 1)%b32 then limNan
  else if fisEqual0 (flit 1 1) abs_k then flit 1 1
  else
    let kk := (k * k)%b32 in
    let one_m_kk := (flit 1 1 - kk)%b32 in
    (ellint_rf (flit 0 1) one_m_kk (flit 1 1) - flit 1 3 * kk * ellint_rd (flit 0 1) one_m_kk (flit 1 1))%b32.
(** comp_ellint_3: ffmath.cpp:1820-1841 *)
Definition comp_ellint_3 (k nu : float) : float :=
  let abs_k := absolute k in
  if isNan k || isNan nu || (abs_k >? flit 1 1)%b32 then limNan
  else if fisEqual0 (flit 1 1) nu then limInf
  else
    let kk := (k * k)%b32 in
    let one_m_kk := (flit 1 1 - kk)%b32 in
    (ellint_rf (flit 0 1) one_m_kk (flit 1 1) + flit 1 3 * nu * ellint_rj (flit 0 1) one_m_kk (flit 1 1) (flit 1 1 - nu))%b32.
(** ellint_1: ffmath.cpp:1843-1866 *)
Definition ellint_1 (k phi : float) : res float :=
  if isNan k || isNan phi || (absolute k >? flit 1 1)%b32 then Ok limNan
  else
    n <- floor (phi / fPI + flit 1 2)%b32 ;;
    let phi_red := (phi - n * fPI)%b32 in
    let s := fsin phi_red in
    let c := fcos phi_red in
    let f := (s * ellint_rf (c * c) (flit 1 1 - k * k * s * s) (flit 1 1))%b32 in
    Ok (if isZero n then f else (f + (flit 2 1 * n * comp_ellint_1 k))%b32).
(** ellint_2: ffmath.cpp:1868-1899 *)
Definition ellint_2 (k phi : float) : res float :=
  if isNan k || isNan phi || (absolute k >? flit 1 1)%b32 then Ok limNan
  else
    n <- floor (phi / fPI + flit 1 2)%b32 ;;
    let phi_red := (phi - n * fPI)%b32 in
    let kk := (k * k)%b32 in
    let s := fsin phi_red in
    let ss := (s * s)%b32 in
    let sss := (ss * s)%b32 in
    let c := fcos phi_red in
    let cc := (c * c)%b32 in
    let tmp := (flit 1 1 - kk * ss)%b32 in
    let e := (s * ellint_rf cc tmp (flit 1 1) - flit 1 3 * kk * sss * ellint_rd cc tmp (flit 1 1))%b32 in
    Ok (if isZero n then e else (e + (flit 2 1 * n * comp_ellint_2 k))%b32).
(** ellint_3: ffmath.cpp:1901-1932 *)
Definition ellint_3 (k nu phi : float) : res float :=
  if isNan k || isNan nu || isNan phi || (absolute k >? flit 1 1)%b32 then Ok limNan
  else
    n <- floor (phi / fPI + flit 1 2)%b32 ;;
    let phi_red := (phi - n * fPI)%b32 in
    let kk := (k * k)%b32 in
    let s := fsin phi_red in
    let ss := (s * s)%b32 in
    let sss := (ss * s)%b32 in
    let c := fcos phi_red in
    let cc := (c * c)%b32 in
    let tmp := (flit 1 1 - kk * ss)%b32 in
    let pi := (s * ellint_rf cc tmp (flit 1 1) + flit 1 3 * nu * sss * ellint_rj cc tmp (flit 1 1) (flit 1 1 - nu * ss))%b32 in
    Ok (if isZero n then pi else (pi + (flit 2 1 * n * comp_ellint_3 k nu))%b32).

(** FFP_GAMMA_E: ffmath.hpp:1093 *)
Definition fGAMMA_E : float := ofU 1058260072. (* 0.577215664901532860606512090082402431F *)
(** ffmath.cpp:1941-1955: [n] turns from index [i]; eSum and oSum *)
Fixpoint e1_series_loop (n : nat) (i : Z) (x term eSum oSum : float) : float * float :=
  match n with
  | O => (eSum, oSum)
  | S k =>
      let j := b32_ofZ i in
      let term := (term * ((- x) / j))%b32 in
      if (absolute term <? limEps)%b32 then (eSum, oSum)
      else if (term >=? flit 0 1)%b32 then e1_series_loop k (i + 1) x term (eSum + term / j)%b32 oSum
      else e1_series_loop k (i + 1) x term eSum (oSum + term / j)%b32
  end.
(** expint_E1_series: ffmath.cpp:1934-1957 *)
Definition expint_E1_series (x : float) : float :=
  let '(eSum, oSum) := e1_series_loop 999 1 x (flit 1 1) (flit 0 1) (flit 0 1) in
  (- eSum - oSum - fGAMMA_E - flog x)%b32.
(** ffmath.cpp:1966-1980 *)
Fixpoint e1_asymp_loop (n : nat) (i : Z) (x term eSum oSum : float) : float * float :=
  match n with
  | O => (eSum, oSum)
  | S k =>
      let prev := term in
      let term := (term * ((- b32_ofZ i) / x))%b32 in
      if (absolute term >? absolute prev)%b32 then (eSum, oSum)
      else if (term >=? flit 0 1)%b32 then e1_asymp_loop k (i + 1) x term (eSum + term)%b32 oSum
      else e1_asymp_loop k (i + 1) x term eSum (oSum + term)%b32
  end.
(** expint_E1_asymp: ffmath.cpp:1959-1982 *)
Definition expint_E1_asymp (x : float) : res float :=
  let '(eSum, oSum) := e1_asymp_loop 999 1 x (flit 1 1) (flit 1 1) (flit 0 1) in
  e <- fexp (- x)%b32 ;; Ok (e * (eSum + oSum) / x)%b32.
(** ffmath.cpp:1990-1999 *)
Fixpoint ei_asymp_loop (n : nat) (i : Z) (x term sum : float) : float :=
  match n with
  | O => sum
  | S k =>
      let prev := term in
      let term := (term * ((- b32_ofZ i) / x))%b32 in
      if (term <? limEps)%b32 || (term >=? prev)%b32 then sum
      else ei_asymp_loop k (i + 1) x term (sum + term)%b32
  end.
(** expint_Ei_asymp: ffmath.cpp:1984-2002 *)
Definition expint_Ei_asymp (x : float) : res float :=
  let sum := ei_asymp_loop 999 1 x (flit 1 1) (flit 1 1) in
  e <- fexp x ;; Ok (e * sum / x)%b32.
(** ffmath.cpp:2017-2030: [n] turns from index [i]; the final h, or nothing when the limit is reached.
    The product i*( nm1 + i ) stays below 2^31 for the only argument the callers use, n = 1. *)
Fixpoint en_loop (n : nat) (i nm1 : Z) (b c d h : float) : option float :=
  match n with
  | O => None
  | S k =>
      let a := (- b32_ofZ (i * (nm1 + i)))%b32 in
      let b := (b + flit 2 1)%b32 in
      let d := (flit 1 1 / ((a * d) + b))%b32 in
      let c := (b + (a / c))%b32 in
      let del := (c * d)%b32 in
      let h := (h * del)%b32 in
      if (absolute (del - flit 1 1) <? limEps)%b32 then Some h
      else en_loop k (i + 1) nm1 b c d h
  end.
(** expint_En_cont_frac: ffmath.cpp:2004-2033 *)
Definition expint_En_cont_frac (n : Z) (x : float) : res float :=
  let b := (x + b32_ofZ n)%b32 in
  let c := (flit 1 1 / limMin)%b32 in
  let d := (flit 1 1 / b)%b32 in
  match en_loop 1000 1 (n - 1) b c d d with
  | Some h => e <- fexp (- x)%b32 ;; Ok (h * e)%b32
  | None => Ok limNan
  end.
(** ffmath.cpp:2041-2050 *)
Fixpoint ei_series_loop (n : nat) (i : Z) (x term sum : float) : float :=
  match n with
  | O => sum
  | S k =>
      let j := b32_ofZ i in
      let term := (term * (x / j))%b32 in
      let sum := (sum + term / j)%b32 in
      if (term <? (limEps * sum))%b32 then sum
      else ei_series_loop k (i + 1) x term sum
  end.
(** expint_Ei_series: ffmath.cpp:2035-2052 *)
Definition expint_Ei_series (x : float) : float :=
  (fGAMMA_E + ei_series_loop 999 1 x (flit 1 1) (flit 0 1) + flog x)%b32.
(** expint_Ei: ffmath.cpp:2054-2081 *)
Definition expint_Ei (x : float) : res float :=
  if (x <? flit 0 1)%b32 then
    let x := (- x)%b32 in
    if (x <? flit 1 1)%b32 then Ok (expint_E1_series x)
    else if (x <? flit 100 1)%b32 then y <- expint_En_cont_frac 1 x ;; Ok (- y)%b32
    else y <- expint_E1_asymp x ;; Ok (- y)%b32
  else if (x <? ofU 1108356366)%b32 then Ok (expint_Ei_series x) (* 36.044F *)
  else expint_Ei_asymp x.
(** expint: ffmath.cpp:2083-2086 *)
Definition expint (num : float) : res float := if isNan num then Ok limNan else expint_Ei num.
