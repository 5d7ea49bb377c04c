(** The zeta, Bessel, Neumann and spherical Legendre functions of src/ffmath.cpp,
    in binary32.  Decimal literals that are not small fractions are given as the bit
    patterns of the nearest floats, with the literal beside them.  A conversion of a
    float to int outside the range of int is [Ub]. *)
From Coq Require Import ZArith List Bool.
From Flocq Require Import IEEE754.Binary IEEE754.Bits.
From Verif Require Import Base Arith Bits32 Ffmath_Model Ffmath2_Model Ffmath3_Model Ffmath4_Model Poly_Model.
Import ListNotations.
Open Scope Z_scope.


(** * The Riemann zeta function *)

(** The inner loop of riemann_zeta_glob, ffmath.cpp:2193-2209: [k] turns from [j];
    [None] is punt.  maxBinCoeff is 86.4982335337F *)
Definition maxBinCoeff : float := ofU 1118633752.
Fixpoint glob_inner (k : nat) (i j : Z) (s sgn term : float) : res (option float) :=
  match k with
  | O => Ok (Some term)
  | S k' =>
      let ii := b32_ofZ i in
      let jj := b32_ofZ j in
      let bc := (lgamma (flit 1 1 + ii) - lgamma (flit 1 1 + jj) - lgamma (flit 1 1 + ii - jj))%b32 in
      if (bc >? maxBinCoeff)%b32 then Ok None
      else
        bc <- fexp bc ;;
        pw <- fpow (flit 1 1 + jj)%b32 (- s)%b32 ;;
        glob_inner k' i (j + 1) s (sgn * flit (-1) 1)%b32 (term + sgn * bc * pw)%b32
  end.
(** The outer loop, ffmath.cpp:2189-2219: [n] turns from [i] *)
Fixpoint glob_outer (n : nat) (i : Z) (s num zeta : float) : res float :=
  match n with
  | O => Ok zeta
  | S n' =>
      t <- glob_inner (Z.to_nat (i + 1)) i 0 s (flit 1 1) (flit 0 1) ;;
      match t with
      | None => Ok zeta
      | Some term =>
          let term := (term * num)%b32 in
          let zeta := (zeta + term)%b32 in
          if (absolute (term / zeta) <? limEps)%b32 then Ok zeta
          else glob_outer n' (i + 1) s (num * flit 1 2)%b32 zeta
      end
  end.
(** riemann_zeta_glob: ffmath.cpp:2175-2229 *)
Definition riemann_zeta_glob (s : float) : res float :=
  let ss := s in
  let neg := (s <? flit 0 1)%b32 in
  let s := if neg then (flit 1 1 - s)%b32 else s in
  zeta <- glob_outer (Z.to_nat 10000) 0 s (flit 1 2) (flit 0 1) ;;
  pw <- fpow (flit 2 1) (flit 1 1 - s)%b32 ;;
  let zeta := (zeta / (flit 1 1 - pw))%b32 in
  if neg then
    pw <- fpow (flit 2 1 * fPI)%b32 ss ;;
    ex <- fexp (lgamma s) ;;
    Ok (zeta * (pw * fsin (fPI_2 * ss) * ex / fPI))%b32
  else Ok zeta.

(** prime: ffmath.cpp:2233-2236 *)
Definition primes29 : list Z :=
  [2; 3; 5; 7; 11; 13; 17; 19; 23; 29; 31; 37; 41; 43; 47; 53; 59; 61; 67;
   71; 73; 79; 83; 89; 97; 101; 103; 107; 109].
(** The loop of riemann_zeta_product, ffmath.cpp:2239-2246 *)
Fixpoint prod_loop (ps : list Z) (s zeta : float) : res float :=
  match ps with
  | [] => Ok zeta
  | p :: ps' =>
      pw <- fpow (b32_ofZ p) (- s)%b32 ;;
      let f := (flit 1 1 - pw)%b32 in
      let zeta := (zeta * f)%b32 in
      if ((flit 1 1 - f) <? limEps)%b32 then Ok zeta else prod_loop ps' s zeta
  end.
(** riemann_zeta_product: ffmath.cpp:2231-2250 *)
Definition riemann_zeta_product (s : float) : res float :=
  zeta <- prod_loop primes29 s (flit 1 1) ;; Ok (flit 1 1 / zeta)%b32.

(** riemann_zeta: ffmath.cpp:2252-2277 *)
Definition riemann_zeta (s : float) : res float :=
  if isNan s then Ok limNan
  else if fisEqual0 (flit 1 1) s then Ok limInf
  else if (s <? flit (-19) 1)%b32 then
    z <- riemann_zeta_product (flit 1 1 - s)%b32 ;;
    pw <- fpow (flit 2 1 * fPI)%b32 s ;;
    ex <- fexp (lgamma (flit 1 1 - s)%b32) ;;
    Ok (z * (pw * fsin (fPI_2 * s) * ex / fPI))%b32
  else if (s <? flit 20 1)%b32 then riemann_zeta_glob s
  else riemann_zeta_product s.

(** * The Bessel functions of the first and second kind *)

(** gamma_temme, ffmath.cpp:2279-2296: gam1, gam2, gam_pl, gam_mi *)
Definition gamma_temme (mu : float) : res (float * float * float * float) :=
  tp <- tgamma (flit 1 1 + mu)%b32 ;;
  tm <- tgamma (flit 1 1 - mu)%b32 ;;
  let gam_pl := (flit 1 1 / tp)%b32 in
  let gam_mi := (flit 1 1 / tm)%b32 in
  let gam1 := if (absolute mu <? limEps)%b32 then (- fGAMMA_E)%b32
              else ((gam_mi - gam_pl) / (flit 2 1 * mu))%b32 in
  Ok (gam1, (flit 1 2 * (gam_mi + gam_pl))%b32, gam_pl, gam_mi).

(** fp_min of bessel_jn, 1.08420217256745973463717809E-19F: ffmath.cpp:2323 *)
Definition jn_min : float := ofU 536870912.
(** Small magnitudes replaced by [m]: ffmath.cpp:2347-2349, 2351-2353 *)
Definition away (m d : float) : float := if (absolute d <? m)%b32 then m else d.

(** The continued fraction of bessel_jn, ffmath.cpp:2344-2364: the last [h] and iSign *)
Fixpoint jn_cf (n : nat) (xi2 b d c h sg : float) : float * float :=
  match n with
  | O => (h, sg)
  | S n' =>
      let b := (b + xi2)%b32 in
      let d := away jn_min (b - d)%b32 in
      let c := away jn_min (b - flit 1 1 / c)%b32 in
      let d := (flit 1 1 / d)%b32 in
      let del := (c * d)%b32 in
      let h := (h * del)%b32 in
      let sg := if (d <? flit 0 1)%b32 then (- sg)%b32 else sg in
      if (absolute (del - flit 1 1) <? limEps)%b32 then (h, sg)
      else jn_cf n' xi2 b d c h sg
  end.
(** The downward recurrence, ffmath.cpp:2371-2377: [k] turns; j_nul and j_pnu_l *)
Fixpoint jn_down (k : nat) (xi fact jl jpl : float) : float * float :=
  match k with
  | O => (jl, jpl)
  | S k' =>
      let t := (fact * jl + jpl)%b32 in
      let fact := (fact - xi)%b32 in
      jn_down k' xi fact t (fact * t - jl)%b32
  end.
(** The series for small arguments, ffmath.cpp:2404-2419: [n] turns from [i]; sum and sum1 *)
Fixpoint jn_series (n : nat) (i : Z) (mu mu2 r dd ff c p q sum sum1 : float) : float * float :=
  match n with
  | O => (sum, sum1)
  | S n' =>
      let j := b32_ofZ i in
      let ff := ((j * ff + p + q) / (j * j - mu2))%b32 in
      let c := (c * (dd / j))%b32 in
      let p := (p / (j - mu))%b32 in
      let q := (q / (j + mu))%b32 in
      let del := (c * (ff + r * q))%b32 in
      let sum := (sum + del)%b32 in
      let sum1 := (sum1 + (c * p - j * del))%b32 in
      if (absolute del <? limEps * (flit 1 1 + absolute sum))%b32 then (sum, sum1)
      else jn_series n' (i + 1) mu mu2 r dd ff c p q sum sum1
  end.
(** The second continued fraction, ffmath.cpp:2444-2471: [n] turns from [i]; p and q *)
Fixpoint jn_cf2 (n : nat) (i : Z) (br a bi dr di cr ci p q : float) : float * float :=
  match n with
  | O => (p, q)
  | S n' =>
      let a := (a + b32_ofZ (2 * (i - 1)))%b32 in
      let bi := (bi + flit 2 1)%b32 in
      let dr := (a * dr + br)%b32 in
      let di := (a * di + bi)%b32 in
      let dr := if (absolute dr + absolute di <? jn_min)%b32 then jn_min else dr in
      let fg := (a / (cr * cr + ci * ci))%b32 in
      let cr := (br + cr * fg)%b32 in
      let ci := (bi - ci * fg)%b32 in
      let cr := if (absolute cr + absolute ci <? jn_min)%b32 then jn_min else cr in
      let den := (dr * dr + di * di)%b32 in
      let dr := (dr / den)%b32 in
      let di := (di / (- den))%b32 in
      let dlr := (cr * dr - ci * di)%b32 in
      let dli := (cr * di + ci * dr)%b32 in
      let temp := (p * dlr - q * dli)%b32 in
      let q := (p * dli + q * dlr)%b32 in
      let p := temp in
      if (absolute (dlr - flit 1 1) + absolute dli <? limEps)%b32 then (p, q)
      else jn_cf2 n' (i + 1) br a bi dr di cr ci p q
  end.
(** The upward recurrence, ffmath.cpp:2485-2491: [k] turns from [i]; n_mu and n_nu1 *)
Fixpoint jn_up (k : nat) (i : Z) (mu xi2 nm n1 : float) : float * float :=
  match k with
  | O => (nm, n1)
  | S k' => jn_up k' (i + 1) mu xi2 n1 ((mu + b32_ofZ i) * xi2 * n1 - nm)%b32
  end.
(** sin( v )/v, v/sin( v ) and sinh( v )/v with their value 1 near zero:
    ffmath.cpp:2386, 2389, 2398, 2634, 2637 *)
Definition sinc (v : float) : float := if (absolute v <? limEps)%b32 then flit 1 1 else (fsin v / v)%b32.
Definition rsinc (v : float) : float := if (absolute v <? limEps)%b32 then flit 1 1 else (v / fsin v)%b32.
Definition sinhc (v : float) : res float :=
  if (absolute v <? limEps)%b32 then Ok (flit 1 1) else (y <- fsinh v ;; Ok (y / v)%b32).

(** bessel_jn, ffmath.cpp:2298-2495: j_nu, n_nu, j_pnu, n_pnu *)
Definition bessel_jn (nu x : float) : res (float * float * float * float) :=
  if fisEqual0 (flit 0 1) x then
    let '(j, jp) := if fisEqual0 (flit 0 1) nu then (flit 1 1, flit 0 1)
                    else if fisEqual0 (flit 1 1) nu then (flit 0 1, flit 1 2)
                    else (flit 0 1, flit 0 1) in
    Ok (j, (- limInf)%b32, jp, limInf)
  else
    nl <- (if (x <? flit 2 1)%b32 then toI32 (nu + flit 1 2)%b32
           else (k <- toI32 (nu - x + flit 3 2)%b32 ;; Ok (Z.max 0 k))) ;;
    let mu := (nu - b32_ofZ nl)%b32 in
    let mu2 := (mu * mu)%b32 in
    let xi := (flit 1 1 / x)%b32 in
    let xi2 := (flit 2 1 * xi)%b32 in
    let w := (xi2 / fPI)%b32 in
    let h := (nu * xi)%b32 in
    let h := if (h <? jn_min)%b32 then jn_min else h in
    let '(h, sg) := jn_cf (Z.to_nat 15000) xi2 (xi2 * nu)%b32 (flit 0 1) h h (flit 1 1) in
    let jl1 := (sg * jn_min)%b32 in
    let jp1 := (h * jl1)%b32 in
    let '(jl, jpl) := jn_down (Z.to_nat nl) xi (nu * xi)%b32 jl1 jp1 in
    let jl := if fisEqual0 (flit 0 1) jl then limEps else jl in
    let f := (jpl / jl)%b32 in
    r <- (if (x <? flit 2 1)%b32 then
            let x2 := (flit 1 2 * x)%b32 in
            let pi_mu := (fPI * mu)%b32 in
            let fact_l := rsinc pi_mu in
            let d := (- flog x2)%b32 in
            let e := (mu * d)%b32 in
            fact2 <- sinhc e ;;
            g <- gamma_temme mu ;;
            let '(gam1, gam2, gam_pl, gam_mi) := g in
            ch <- fcosh e ;;
            let ff := (flit 2 1 / fPI * fact_l * (gam1 * ch + gam2 * fact2 * d))%b32 in
            e <- fexp e ;;
            let p := (e / (fPI * gam_pl))%b32 in
            let q := (flit 1 1 / (e * fPI * gam_mi))%b32 in
            let pi_mu2 := (pi_mu / flit 2 1)%b32 in
            let fact3 := sinc pi_mu2 in
            let r := (fPI * pi_mu2 * fact3 * fact3)%b32 in
            let '(sum, sum1) := jn_series (Z.to_nat 15000) 1 mu mu2 r (- x2 * x2)%b32 ff (flit 1 1) p q (ff + r * q)%b32 p in
            let nm := (- sum)%b32 in
            let n1 := (- sum1 * xi2)%b32 in
            let npm := (mu * xi * nm - n1)%b32 in
            Ok (nm, n1, (w / (npm - f * nm))%b32)
          else
            let a := (flit 1 4 - mu2)%b32 in
            let q := flit 1 1 in
            let p := (- xi * flit 1 2)%b32 in
            let br := (flit 2 1 * x)%b32 in
            let bi := flit 2 1 in
            let fg := (a * xi / (p * p + q * q))%b32 in
            let cr := (br + q * fg)%b32 in
            let ci := (bi + p * fg)%b32 in
            let den := (br * br + bi * bi)%b32 in
            let dr := (br / den)%b32 in
            let di := (- bi / den)%b32 in
            let dlr := (cr * dr - ci * di)%b32 in
            let dli := (cr * di + ci * dr)%b32 in
            let '(p, q) := jn_cf2 (Z.to_nat 14999) 2 br a bi dr di cr ci (p * dlr - q * dli)%b32 (p * dli + q * dlr)%b32 in
            let gam := ((p - f) / q)%b32 in
            let Jmu := sqrt (w / ((p - f) * gam + q))%b32 in
            let Jmu := if (Jmu * jl <? flit 0 1)%b32 then (- Jmu)%b32 else Jmu in
            let nm := (gam * Jmu)%b32 in
            let npm := ((p + q / gam) * nm)%b32 in
            Ok (nm, (mu * xi * nm - npm)%b32, Jmu)) ;;
    let '(nm, n1, Jmu) := r in
    let fact := (Jmu / jl)%b32 in
    let '(nm, n1) := jn_up (Z.to_nat nl) 1 mu xi2 nm n1 in
    Ok ((fact * jl1)%b32, nm, (fact * jp1)%b32, (nu * xi * nm - n1)%b32).

(** sph_bessel_jn, ffmath.cpp:2497-2517: j_n and n_n (the derivatives it also
    computes are not used by its callers).  1.2533141…F is sqrtpi2 *)
Definition fSQRTPI2 : float := ofU 1067478169.
Definition sph_bessel_jn (n : Z) (x : float) : res (float * float) :=
  let nu := (b32_ofZ n + flit 1 2)%b32 in
  let factor := (fSQRTPI2 * rSqrt x)%b32 in
  r <- bessel_jn nu x ;;
  let '(j, nn, _, _) := r in
  Ok ((factor * j)%b32, (factor * nn)%b32).
(** sph_bessel: ffmath.cpp:2519-2538; [n] is the value of the size_t argument *)
Definition sph_bessel (n : Z) (x : float) : res float :=
  if (x <? flit 0 1)%b32 || isNan x then Ok limNan
  else if fisEqual0 (flit 0 1) x then Ok (if n =? 0 then flit 1 1 else flit 0 1)
  else r <- sph_bessel_jn n x ;; Ok (fst r).
(** sph_neumann: ffmath.cpp:2540-2558 *)
Definition sph_neumann (n : Z) (x : float) : res float :=
  if (x <? flit 0 1)%b32 || isNan x then Ok limNan
  else if fisEqual0 (flit 0 1) x then Ok (- limInf)%b32
  else r <- sph_bessel_jn n x ;; Ok (snd r).

(** * The modified Bessel functions *)

(** The continued fraction of bessel_ik, ffmath.cpp:2604-2613: the last h and d *)
Fixpoint ik_cf (n : nat) (xi2 b d c h : float) : float * float :=
  match n with
  | O => (h, d)
  | S n' =>
      let b := (b + xi2)%b32 in
      let d := (flit 1 1 / (b + d))%b32 in
      let c := (b + flit 1 1 / c)%b32 in
      let del := (c * d)%b32 in
      let h := (h * del)%b32 in
      if (absolute (del - flit 1 1) <? limEps)%b32 then (h, d)
      else ik_cf n' xi2 b d c h
  end.
(** ffmath.cpp:2621-2627: i_nul and i_pnu_l *)
Fixpoint ik_down (k : nat) (xi fact il ipl : float) : float * float :=
  match k with
  | O => (il, ipl)
  | S k' =>
      let t := (fact * il + ipl)%b32 in
      let fact := (fact - xi)%b32 in
      ik_down k' xi fact t (fact * t + il)%b32
  end.
(** ffmath.cpp:2649-2663: sum and sum1 *)
Fixpoint ik_series (n : nat) (i : Z) (mu mu2 dd ff c p q sum sum1 : float) : float * float :=
  match n with
  | O => (sum, sum1)
  | S n' =>
      let j := b32_ofZ i in
      let ff := ((j * ff + p + q) / (j * j - mu2))%b32 in
      let c := (c * (dd / j))%b32 in
      let p := (p / (j - mu))%b32 in
      let q := (q / (j + mu))%b32 in
      let del := (c * ff)%b32 in
      let sum := (sum + del)%b32 in
      let sum1 := (sum1 + c * (p - j * ff))%b32 in
      if (absolute del <? limEps * absolute sum)%b32 then (sum, sum1)
      else ik_series n' (i + 1) mu mu2 dd ff c p q sum sum1
  end.
(** ffmath.cpp:2681-2699: h and s *)
Fixpoint ik_cf2 (n : nat) (i : Z) (a c q1 q2 q b d del_h h s : float) : float * float :=
  match n with
  | O => (h, s)
  | S n' =>
      let a := (a - b32_ofZ (2 * (i - 1)))%b32 in
      let c := (- a * c / b32_ofZ i)%b32 in
      let qn := ((q1 - b * q2) / a)%b32 in
      let q1 := q2 in
      let q2 := qn in
      let q := (q + c * qn)%b32 in
      let b := (b + flit 2 1)%b32 in
      let d := (flit 1 1 / (b + a * d))%b32 in
      let del_h := ((b * d - flit 1 1) * del_h)%b32 in
      let h := (h + del_h)%b32 in
      let del_s := (q * del_h)%b32 in
      let s := (s + del_s)%b32 in
      if (absolute (del_s / s) <? limEps)%b32 then (h, s)
      else ik_cf2 n' (i + 1) a c q1 q2 q b d del_h h s
  end.
(** ffmath.cpp:2709-2715: Kmu and k_nu1 *)
Fixpoint ik_up (k : nat) (i : Z) (mu xi2 km k1 : float) : float * float :=
  match k with
  | O => (km, k1)
  | S k' => ik_up k' (i + 1) mu xi2 k1 ((mu + b32_ofZ i) * xi2 * k1 + km)%b32
  end.
(** bessel_ik, ffmath.cpp:2560-2719: i_nu, k_nu, i_pnu, k_pnu.  [del_h] starts from the
    value [d] has after the first continued fraction, as at line 2669 *)
Definition bessel_ik (nu x : float) : res (float * float * float * float) :=
  if fisEqual0 (flit 0 1) x then
    let '(i, ip) := if fisEqual0 (flit 0 1) nu then (flit 1 1, flit 0 1)
                    else if fisEqual0 (flit 1 1) x then (flit 0 1, flit 1 2)
                    else (flit 0 1, flit 0 1) in
    Ok (i, limInf, ip, (- limInf)%b32)
  else
    let fp_min := (flit 10 1 * limEps)%b32 in
    nl <- toI32 (nu + flit 1 2)%b32 ;;
    let mu := (nu - b32_ofZ nl)%b32 in
    let mu2 := (mu * mu)%b32 in
    let xi := (flit 1 1 / x)%b32 in
    let xi2 := (flit 2 1 * xi)%b32 in
    let h := (nu * xi)%b32 in
    let h := if (h <? fp_min)%b32 then fp_min else h in
    let '(h, d) := ik_cf (Z.to_nat 15000) xi2 (xi2 * nu)%b32 (flit 0 1) h h in
    let il1 := fp_min in
    let ip1 := (h * il1)%b32 in
    let '(il, ipl) := ik_down (Z.to_nat nl) xi (nu * xi)%b32 il1 ip1 in
    let f := (ipl / il)%b32 in
    r <- (if (x <? flit 2 1)%b32 then
            let x2 := (flit 1 2 * x)%b32 in
            let pi_mu := (fPI * mu)%b32 in
            let fact := rsinc pi_mu in
            let d := (- flog x2)%b32 in
            let e := (mu * d)%b32 in
            fact2 <- sinhc e ;;
            g <- gamma_temme mu ;;
            let '(gam1, gam2, gam_pl, gam_mi) := g in
            ch <- fcosh e ;;
            let ff := (fact * (gam1 * ch + gam2 * fact2 * d))%b32 in
            e <- fexp e ;;
            let p := (e / (flit 2 1 * gam_pl))%b32 in
            let q := (flit 1 1 / (flit 2 1 * e * gam_mi))%b32 in
            let '(sum, sum1) := ik_series (Z.to_nat 15000) 1 mu mu2 (x2 * x2)%b32 ff (flit 1 1) p q ff p in
            Ok (sum, (sum1 * xi2)%b32)
          else
            let a1 := (flit 1 4 - mu2)%b32 in
            let b := (flit 2 1 * (flit 1 1 + x))%b32 in
            let s := (flit 1 1 + a1 * d)%b32 in
            let '(h, s) := ik_cf2 (Z.to_nat 14999) 2 (- a1)%b32 a1 (flit 0 1) (flit 1 1) a1 b (flit 1 1 / b)%b32 d (flit 1 1 / b)%b32 s in
            let h := (a1 * h)%b32 in
            ex <- fexp (- x)%b32 ;;
            let km := (sqrt (fPI / (flit 2 1 * x)) * ex / s)%b32 in
            Ok (km, (km * (mu + x + flit 1 2 - h) * xi)%b32)) ;;
    let '(km, k1) := r in
    let kpm := (mu * xi * km - k1)%b32 in
    let inum := (xi / (f * km - kpm))%b32 in
    let '(km, k1) := ik_up (Z.to_nat nl) 1 mu xi2 km k1 in
    Ok ((inum * il1 / il)%b32, km, (inum * ip1 / il)%b32, (nu * xi * km - k1)%b32).

(** The loop of cyl_bessel_ij_series, ffmath.cpp:2740-2749: [n] turns from [i] *)
Fixpoint ij_loop (n : nat) (i : Z) (nu xx4 term Jn : float) : float :=
  match n with
  | O => Jn
  | S n' =>
      let j := b32_ofZ i in
      let term := (term * (xx4 / (j * (nu + j))))%b32 in
      let Jn := (Jn + term)%b32 in
      if (absolute (term / Jn) <? limEps)%b32 then Jn
      else ij_loop n' (i + 1) nu xx4 term Jn
  end.
(** cyl_bessel_ij_series, ffmath.cpp:2721-2754 *)
Definition cyl_bessel_ij_series (nu x sgn : float) (max_iter : Z) : res float :=
  if fisEqual0 (flit 0 1) x then Ok (if fisEqual0 (flit 0 1) nu then flit 1 1 else flit 0 1)
  else
    let x2 := (flit 1 2 * x)%b32 in
    let xx4 := (sgn * x2 * x2)%b32 in
    fact <- fexp (nu * flog x2 - lgamma (nu + flit 1 1))%b32 ;;
    Ok (fact * ij_loop (Z.to_nat (max_iter - 1)) 1 nu xx4 (flit 1 1) (flit 1 1))%b32.

(** The domain test the four cylindrical functions share, ffmath.cpp:2761, 2825, 2851, 2868 *)
Definition cyl_bad (nu x : float) : bool := (nu <? flit 0 1)%b32 || (x <? flit 0 1)%b32 || isNan nu || isNan x.

(** cyl_bessel_i: ffmath.cpp:2756-2774 *)
Definition cyl_bessel_i (nu x : float) : res float :=
  if cyl_bad nu x then Ok limNan
  else if (x * x <? flit 10 1 * (nu + flit 1 1))%b32 then cyl_bessel_ij_series nu x (flit 1 1) 200
  else r <- bessel_ik nu x ;; let '(i, _, _, _) := r in Ok i.

(** The loop of cyl_bessel_jn_asymp, ffmath.cpp:2789-2811: [n] rounds from [i]; P and Q *)
Fixpoint asymp_loop (n : nat) (i : Z) (nu mu x8 term P Q : float) : float * float :=
  match n with
  | O => (P, Q)
  | S n' =>
      let k := b32_ofZ i in
      let k2 := (flit 2 1 * k - flit 1 1)%b32 in
      let term := (term * (if i =? 0 then flit 1 1 else - (mu - k2 * k2) / (k * x8)))%b32 in
      let epsP := (absolute term <? limEps * absolute P)%b32 in
      let P := (P + term)%b32 in
      let k := b32_ofZ (i + 1) in
      let k2 := (flit 2 1 * k - flit 1 1)%b32 in
      let term := (term * ((mu - k2 * k2) / (k * x8)))%b32 in
      let epsQ := (absolute term <? limEps * absolute Q)%b32 in
      let Q := (Q + term)%b32 in
      if epsP && epsQ && (k >? flit 1 2 * nu)%b32 then (P, Q)
      else asymp_loop n' (i + 2) nu mu x8 term P Q
  end.
(** cyl_bessel_jn_asymp, ffmath.cpp:2776-2818: Jnu and Nnu *)
Definition cyl_bessel_jn_asymp (nu x : float) : float * float :=
  let '(P, Q) := asymp_loop 500 0 nu (flit 4 1 * nu * nu)%b32 (flit 8 1 * x)%b32 (flit 1 1) (flit 0 1) (flit 0 1) in
  let chi := (x - (nu + flit 1 2) * fPI_2)%b32 in
  let c := fcos chi in
  let s := fsin chi in
  let coeff := sqrt (flit 2 1 / (fPI * x))%b32 in
  ((coeff * (c * P - s * Q))%b32, (coeff * (s * P + c * Q))%b32).

(** cyl_bessel_j: ffmath.cpp:2820-2844 *)
Definition cyl_bessel_j (nu x : float) : res float :=
  if cyl_bad nu x then Ok limNan
  else if (x * x <? flit 10 1 * (nu + flit 1 1))%b32 then cyl_bessel_ij_series nu x (flit (-1) 1) 200
  else if (x >? flit 1000 1)%b32 then Ok (fst (cyl_bessel_jn_asymp nu x))
  else r <- bessel_jn nu x ;; let '(j, _, _, _) := r in Ok j.
(** cyl_bessel_k: ffmath.cpp:2846-2861 *)
Definition cyl_bessel_k (nu x : float) : res float :=
  if cyl_bad nu x then Ok limNan
  else r <- bessel_ik nu x ;; let '(_, k, _, _) := r in Ok k.
(** cyl_neumann: ffmath.cpp:2863-2883 *)
Definition cyl_neumann (nu x : float) : res float :=
  if cyl_bad nu x then Ok limNan
  else if (x >? flit 1000 1)%b32 then Ok (snd (cyl_bessel_jn_asymp nu x))
  else r <- bessel_jn nu x ;; let '(_, n, _, _) := r in Ok n.
