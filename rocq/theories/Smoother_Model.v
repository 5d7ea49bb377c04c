(** Model of the smoothing filters: src/smoother.cpp, src/include/smoother.hpp.
    Windows and kernels are kept inside the filter that owns them: the arrays
    handed to setup() are assumed distinct and not written by anyone else.  A
    null pointer is [None].  [reset()] (smoother.hpp:57-61) sets [init]. *)
From Coq Require Import ZArith List Bool.
From Verif Require Import Base Arith Tdl_Model Ltisys_Model.
Import ListNotations.
Open Scope Z_scope.

Section Smoother.
Context {A : arith}.
Notation X := (F A).

(** static_cast<real_t>( n ) of a size_t. *)
Definition ofsize (n : Z) : X := lit n 1.

(** 0 < a && a < 1 *)
Definition unit_open (a : X) : bool := (a >? lit 0 1)%fl && (a <? lit 1 1)%fl.

(** smoother.cpp:8-15, from index [i]. *)
Fixpoint windowSet_loop (k : nat) (i : Z) (x : X) (w : list X) : res (list X) :=
  match k with O => Ok w | S k' => w' <- set w i x ;; windowSet_loop k' (i + 1) x w' end.
Definition windowSet (w : list X) (n : Z) (x : X) : res (list X) := windowSet_loop (Z.to_nat n) 0 x w.

(** ** First-order low-pass *)

(** smoother.hpp:30, 70-71 *)
Record lpf1 := mkLPF1 { f1_alpha : X; f1_y1 : X; f1_init : bool }.
Definition lpf1_new : lpf1 := mkLPF1 (lit 9 10) (lit 0 1) true.
(** smoother.cpp:18-28 *)
Definition lpf1_setup (a : X) (f : lpf1) : bool * lpf1 :=
  if unit_open a then (true, mkLPF1 a (f1_y1 f) true) else (false, f).
(** smoother.cpp:30-42 *)
Definition lpf1_smooth (x : X) (f : lpf1) : X * lpf1 :=
  let y1 := if f1_init f then x else f1_y1 f in
  let y := (x + f1_alpha f * (y1 - x))%fl in
  (y, mkLPF1 (f1_alpha f) y false).
Definition lpf1_reset (f : lpf1) : lpf1 := mkLPF1 (f1_alpha f) (f1_y1 f) true.

(** ** Second-order low-pass *)

(** smoother.hpp:99-106 *)
Record lpf2 := mkLPF2 { f2_y1 : X; f2_y2 : X; f2_x1 : X; f2_x2 : X; f2_k : X; f2_a1 : X; f2_a2 : X; f2_b1 : X; f2_init : bool }.
Definition lpf2_new : lpf2 :=
  mkLPF2 (lit 0 1) (lit 0 1) (lit 0 1) (lit 0 1) (lit 0 1) (lit 0 1) (lit 0 1) (lit 0 1) true.
(** smoother.cpp:44-63 *)
Definition lpf2_setup (a : X) (f : lpf2) : bool * lpf2 :=
  if unit_open a then
    let aa := (a * a)%fl in
    let p1 := o_sqrt lib (lit 2 1 * a)%fl in
    let r := (lit 1 1 + p1 + aa)%fl in
    let k := (aa / r)%fl in
    (true, mkLPF2 (f2_y1 f) (f2_y2 f) (f2_x1 f) (f2_x2 f)
             k (lit 2 1 * (aa - lit 1 1) / r)%fl ((lit 1 1 - p1 + aa) / r)%fl (lit 2 1 * k)%fl true)
  else (false, f).
(** smoother.cpp:65-83 *)
Definition lpf2_smooth (x : X) (f : lpf2) : X * lpf2 :=
  let f := if f2_init f then mkLPF2 x x x x (f2_k f) (f2_a1 f) (f2_a2 f) (f2_b1 f) false else f in
  let y := (f2_k f * x + f2_b1 f * f2_x1 f + f2_k f * f2_x2 f - f2_a1 f * f2_y1 f - f2_a2 f * f2_y2 f)%fl in
  (y, mkLPF2 y (f2_y1 f) x (f2_x1 f) (f2_k f) (f2_a1 f) (f2_a2 f) (f2_b1 f) false).

(** ** Moving window, O(n) *)

(** smoother.hpp:135-136 *)
Record mwm1 := mkMWM1 { m1_w : option (list X); m1_size : Z; m1_init : bool }.
Definition mwm1_new : mwm1 := mkMWM1 None 0 true.
(** smoother.cpp:85-97: the size tested is the one of the member. *)
Definition mwm1_setup (window : option (list X)) (w_size : Z) (f : mwm1) : bool * mwm1 :=
  match window with
  | Some w => if m1_size f >? 0 then (true, mkMWM1 (Some w) w_size true) else (false, f)
  | None => (false, f)
  end.
(** smoother.cpp:99-108; a null window is the empty array. *)
Definition mwm1_smooth (x : X) (f : mwm1) : res (X * mwm1) :=
  let w := match m1_w f with Some w => w | None => [] end in
  w <- (if m1_init f then windowSet w (m1_size f) x else Ok w) ;;
  r <- updateFIR w (m1_size f) x None ;;
  Ok ((snd r / ofsize (m1_size f))%fl, mkMWM1 (Some (fst r)) (m1_size f) false).

(** ** Moving window, O(1) *)

(** smoother.hpp:177; [m2_line] is the inherited delay line, [None] before
    setup. *)
Record mwm2 := mkMWM2 { m2_line : option (tdl X); m2_sum : X; m2_init : bool }.
Definition mwm2_new : mwm2 := mkMWM2 None (lit 0 1) true.
(** smoother.cpp:110-121; the default initial value of tdl::setup is 0
    (tdl.hpp:82-84). *)
Definition mwm2_setup (window : option (list X)) (w_size : Z) (f : mwm2) : res (bool * mwm2) :=
  match window with
  | Some w => if w_size >? 0 then t <- setup w w_size (lit 0 1) ;; Ok (true, mkMWM2 (Some t) (m2_sum f) true) else Ok (false, f)
  | None => Ok (false, f)
  end.
(** smoother.cpp:123-137; using the line before setup() dereferences null. *)
Definition mwm2_smooth (x : X) (f : mwm2) : res (X * mwm2) :=
  match m2_line f with
  | None => Ub
  | Some t =>
      let wsize := ofsize (itemCount t) in
      t <- (if m2_init f then flush t x else Ok t) ;;
      let s := if m2_init f then (x * wsize)%fl else m2_sum f in
      o <- getOldest t ;;
      let s := (s + (x - o))%fl in
      t <- insertSample t x ;;
      Ok ((s / wsize)%fl, mkMWM2 (Some t) s false)
  end.

(** ** Outlier removal, O(n) *)

(** smoother.hpp:218-221 *)
Record mor1 := mkMOR1 { r1_w : option (list X); r1_m : X; r1_alpha : X; r1_size : Z; r1_init : bool }.
Definition mor1_new : mor1 := mkMOR1 None (lit 0 1) (lit 8 10) 0 true.
(** smoother.cpp:139-153 *)
Definition mor1_setup (window : option (list X)) (w_size : Z) (a : X) (f : mor1) : bool * mor1 :=
  match window with
  | Some w => if (w_size >? 0) && unit_open a then (true, mkMOR1 (Some w) (r1_m f) a w_size true) else (false, f)
  | None => (false, f)
  end.
(** smoother.cpp:155-174 *)
Definition mor1_smooth (x : X) (f : mor1) : res (X * mor1) :=
  let w := match r1_w f with Some w => w | None => [] end in
  w <- (if r1_init f then windowSet w (r1_size f) x else Ok w) ;;
  let m := if r1_init f then x else r1_m f in
  r <- updateFIR w (r1_size f) x None ;;
  let mc := (snd r - x)%fl in
  w <- (if (fabs (m - x) >? r1_alpha f * fabs m)%fl then set (fst r) 0 m else Ok (fst r)) ;;
  w0 <- get w 0 ;;
  Ok (w0, mkMOR1 (Some w) ((mc + w0) / ofsize (r1_size f))%fl (r1_alpha f) (r1_size f) false).

(** ** Outlier removal, O(1) *)

(** smoother.hpp:266-268 *)
Record mor2 := mkMOR2 { r2_line : option (tdl X); r2_sum : X; r2_m : X; r2_alpha : X; r2_init : bool }.
Definition mor2_new : mor2 := mkMOR2 None (lit 0 1) (lit 0 1) (lit 8 10) true.
(** smoother.cpp:176-191 *)
Definition mor2_setup (window : option (list X)) (w_size : Z) (a : X) (f : mor2) : res (bool * mor2) :=
  match window with
  | Some w =>
      if (w_size >? 0) && unit_open a then
        t <- setup w w_size (lit 0 1) ;; Ok (true, mkMOR2 (Some t) (lit 0 1) (lit 0 1) a true)
      else Ok (false, f)
  | None => Ok (false, f)
  end.
(** smoother.cpp:193-214 *)
Definition mor2_smooth (x : X) (f : mor2) : res (X * mor2) :=
  match r2_line f with
  | None => Ub
  | Some t =>
      let wsize := ofsize (itemCount t) in
      t <- (if r2_init f then flush t x else Ok t) ;;
      let s := if r2_init f then (wsize * x)%fl else r2_sum f in
      let m := if r2_init f then x else r2_m f in
      let xx := if (fabs (m - x) >? r2_alpha f * fabs m)%fl then m else x in
      o <- getOldest t ;;
      let s := (s + (xx - o))%fl in
      t <- insertSample t xx ;;
      Ok (x, mkMOR2 (Some t) s (s / wsize)%fl (r2_alpha f) false)
  end.

(** ** Gaussian window *)

(** smoother.hpp:312-314; wsize has no initialiser. *)
Record gmwf := mkGMWF { g_w : option (list X); g_k : option (list X); g_size : Z; g_init : bool }.
Definition gmwf_new (junk : Z) : gmwf := mkGMWF None None junk true.
(** smoother.cpp:234-243: kernel[j] for j from [i]; returns kernel and sum. *)
Fixpoint gauss_loop (k : nat) (i : Z) (l center r : X) (kern : list X) (s : X) : res (list X * X) :=
  match k with
  | O => Ok (kern, s)
  | S k' =>
      let d := (ofsize i - l)%fl in
      let d := (d - center)%fl in
      let v := o_exp lib (- (d * d) / r)%fl in
      kern' <- set kern i v ;;
      gauss_loop k' (i + 1) l center r kern' (s + v)%fl
  end.
(** smoother.cpp:216-254; the kernel pointer is not tested: a null kernel is the
    empty array. *)
Definition gmwf_setup (sg c : X) (window : option (list X)) (kernel : list X) (wk : Z) (f : gmwf) : res (bool * gmwf) :=
  match window with
  | Some w =>
      if (wk >? 0) && (c <? ofsize wk)%fl && (sg >? lit 0 1)%fl then
        let l := ofsize (wk - 1) in
        let center := (c - l)%fl in
        let r := (lit 2 1 * sg * sg)%fl in
        q <- gauss_loop (Z.to_nat wk) 0 l center r kernel (lit 0 1) ;;
        kern <- div_loop (Z.to_nat wk) 0 (snd q) (fst q) ;;
        Ok (true, mkGMWF (Some w) (Some kern) wk true)
      else Ok (false, f)
  | None => Ok (false, f)
  end.
(** smoother.cpp:256-263 *)
Definition gmwf_smooth (x : X) (f : gmwf) : res (X * gmwf) :=
  let w := match g_w f with Some w => w | None => [] end in
  w <- (if g_init f then windowSet w (g_size f) x else Ok w) ;;
  r <- updateFIR w (g_size f) x (g_k f) ;;
  Ok (snd r, mkGMWF (Some (fst r)) (g_k f) (g_size f) false).

(** ** Exponential weighting *)

(** smoother.hpp:368-370 *)
Record expw := mkEXPW { e_lambda : X; e_m : X; e_w : X; e_init : bool }.
Definition expw_new : expw := mkEXPW (lit 8 10) (lit 0 1) (lit 1 1) true.
(** smoother.cpp:265-277 *)
Definition expw_setup (lam : X) (f : expw) : bool * expw :=
  if unit_open lam then (true, mkEXPW lam (lit 0 1) (lit 1 1) true) else (false, f).
(** smoother.cpp:279-293 *)
Definition expw_smooth (x : X) (f : expw) : X * expw :=
  let m := if e_init f then x else e_m f in
  let w := if e_init f then lit 1 1 else e_w f in
  let w := (e_lambda f * w + lit 1 1)%fl in
  let iw := (lit 1 1 / w)%fl in
  let m := (m * (lit 1 1 - iw) + iw * x)%fl in
  (m, mkEXPW (e_lambda f) m w false).

(** ** Scalar Kalman filter *)

(** smoother.hpp:397-403; [A] and [H] of the code are [k_A], [k_H]; the gain has
    no initialiser and is not read before it is written. *)
Record klmn := mkKLMN { k_x : X; k_A : X; k_H : X; k_q : X; k_r : X; k_p : X; k_gain : X; k_init : bool }.
Definition klmn_new (junk : X) : klmn := mkKLMN (lit 0 1) (lit 1 1) (lit 1 1) (lit 100 1) (lit 9 10) (lit 100 1) junk true.
(** smoother.cpp:295-311 *)
Definition klmn_setup (q r p : X) (f : klmn) : bool * klmn :=
  if (q >? lit 0 1)%fl && (r >? lit 0 1)%fl && (p >? lit 0 1)%fl
  then (true, mkKLMN (k_x f) (lit 1 1) (lit 1 1) q r p (k_gain f) true) else (false, f).
(** smoother.cpp:313-331 *)
Definition klmn_smooth (x : X) (f : klmn) : X * klmn :=
  let s := if k_init f then x else k_x f in
  let s := (k_A f * s)%fl in
  let p := (k_A f * k_A f * k_p f + k_q f)%fl in
  let pH := (p * k_H f)%fl in
  let g := (pH / (k_r f + k_H f * pH))%fl in
  let s := (s + g * (x - k_H f * s))%fl in
  let p := ((lit 1 1 - g * k_H f) * p)%fl in
  (s, mkKLMN s (k_A f) (k_H f) (k_q f) (k_r f) p g false).

(** ** Double exponential smoothing *)

(** smoother.hpp:434-438; none of them has an initialiser. *)
Record desf := mkDESF { s_alpha : X; s_beta : X; s_lt : X; s_bt : X; s_n : X; s_init : bool }.
(** smoother.cpp:333-349 *)
Definition desf_setup (a b : X) (nS : Z) (f : desf) : bool * desf :=
  if unit_open a && unit_open b then (true, mkDESF a b (s_lt f) (s_bt f) (ofsize nS) true) else (false, f).
(** smoother.cpp:351-365 *)
Definition desf_smooth (x : X) (f : desf) : X * desf :=
  let lt1 := if s_init f then x else s_lt f in
  let bt := if s_init f then x else s_bt f in
  let lt := ((lit 1 1 - s_alpha f) * lt1 + s_alpha f * x)%fl in
  let bt := ((lit 1 1 - s_beta f) * bt + s_beta f * (lt - lt1))%fl in
  ((lt + s_n f * bt)%fl, mkDESF (s_alpha f) (s_beta f) lt bt (s_n f) false).

(** ** Adaptive linear filter *)

(** smoother.hpp:469-474; [a_w] is the whole array behind the weights pointer. *)
Record alnf := mkALNF { a_alpha : X; a_mu : X; a_w : list X; a_w1 : option (list X); a_xx : list X; a_n : Z; a_init : bool }.
(** smoother.cpp:367-387; the weights pointer is not tested: null is []. *)
Definition alnf_setup (a m : X) (wsize : Z) (window : option (list X)) (weights : list X) (w1 : option (list X)) (f : alnf) : bool * alnf :=
  match window with
  | Some w =>
      if (wsize >? 0) && unit_open a && unit_open m
      then (true, mkALNF a m weights (if (m >? lit 0 1)%fl then w1 else None) w wsize true)
      else (false, f)
  | None => (false, f)
  end.
(** smoother.hpp:523-529, the overload without momentum. *)
Definition alnf_setup_plain (a : X) (wsize : Z) (window weights : list X) (f : alnf) : bool * alnf :=
  alnf_setup a (lit 0 1) wsize (Some window) weights None f.
(** smoother.cpp:407-416: the momentum loop; the previous weights are read from
    &w[ n ], past the weights, and written to w_1. *)
Fixpoint momentum_loop (k : nat) (i n : Z) (alpha mu x xe : X) (xx w w1 : list X) : res (list X * list X) :=
  match k with
  | O => Ok (w, w1)
  | S k' =>
      w0 <- get w i ;; p <- get w (n + i) ;; xi <- get xx i ;;
      w' <- set w i (w0 + (alpha * (x - xe) * xi + mu * (w0 - p)))%fl ;;
      w1' <- set w1 i w0 ;;
      momentum_loop k' (i + 1) n alpha mu x xe xx w' w1'
  end.
(** smoother.cpp:419-421 *)
Fixpoint lms_loop (k : nat) (i : Z) (alpha x xe : X) (xx w : list X) : res (list X) :=
  match k with
  | O => Ok w
  | S k' => w0 <- get w i ;; xi <- get xx i ;; w' <- set w i (w0 + alpha * (x - xe) * xi)%fl ;; lms_loop k' (i + 1) alpha x xe xx w'
  end.
(** smoother.cpp:389-425 *)
Definition alnf_smooth (x : X) (f : alnf) : res (X * alnf) :=
  let np := (lit 1 1 / ofsize (a_n f))%fl in
  xx <- (if a_init f then windowSet (a_xx f) (a_n f) x else Ok (a_xx f)) ;;
  w <- (if a_init f then windowSet (a_w f) (a_n f) np else Ok (a_w f)) ;;
  w1 <- match a_w1 f with
        | Some l => if a_init f then l' <- windowSet l (a_n f) np ;; Ok (Some l') else Ok (Some l)
        | None => Ok None
        end ;;
  r <- updateFIR xx (a_n f) x (Some w) ;;
  let xe := snd r in
  let xx := fst r in
  match w1 with
  | Some l =>
      q <- momentum_loop (Z.to_nat (a_n f)) 0 (a_n f) (a_alpha f) (a_mu f) x xe xx w l ;;
      Ok (xe, mkALNF (a_alpha f) (a_mu f) (fst q) (Some (snd q)) xx (a_n f) false)
  | None =>
      w' <- lms_loop (Z.to_nat (a_n f)) 0 (a_alpha f) x xe xx w ;;
      Ok (xe, mkALNF (a_alpha f) (a_mu f) w' None xx (a_n f) false)
  end.

(** ** reset(), smoother.hpp:57-61, on each class *)
Definition lpf2_reset (f : lpf2) : lpf2 := mkLPF2 (f2_y1 f) (f2_y2 f) (f2_x1 f) (f2_x2 f) (f2_k f) (f2_a1 f) (f2_a2 f) (f2_b1 f) true.
Definition mwm2_reset (f : mwm2) : mwm2 := mkMWM2 (m2_line f) (m2_sum f) true.
Definition mor1_reset (f : mor1) : mor1 := mkMOR1 (r1_w f) (r1_m f) (r1_alpha f) (r1_size f) true.
Definition mor2_reset (f : mor2) : mor2 := mkMOR2 (r2_line f) (r2_sum f) (r2_m f) (r2_alpha f) true.
Definition gmwf_reset (f : gmwf) : gmwf := mkGMWF (g_w f) (g_k f) (g_size f) true.
Definition expw_reset (f : expw) : expw := mkEXPW (e_lambda f) (e_m f) (e_w f) true.
Definition klmn_reset (f : klmn) : klmn := mkKLMN (k_x f) (k_A f) (k_H f) (k_q f) (k_r f) (k_p f) (k_gain f) true.
Definition desf_reset (f : desf) : desf := mkDESF (s_alpha f) (s_beta f) (s_lt f) (s_bt f) (s_n f) true.
Definition alnf_reset (f : alnf) : alnf := mkALNF (a_alpha f) (a_mu f) (a_w f) (a_w1 f) (a_xx f) (a_n f) true.

(** ** Histories *)

(** Feed samples to a filter and collect what smooth() returns. *)
Fixpoint feed {S} (step : X -> S -> X * S) (xs : list X) (f : S) : list X * S :=
  match xs with
  | [] => ([], f)
  | x :: r => let '(y, f1) := step x f in let '(ys, f2) := feed step r f1 in (y :: ys, f2)
  end.
Fixpoint feed_res {S} (step : X -> S -> res (X * S)) (xs : list X) (f : S) : res (list X * S) :=
  match xs with
  | [] => Ok ([], f)
  | x :: r => q <- step x f ;; p <- feed_res step r (snd q) ;; Ok (fst q :: fst p, snd p)
  end.

End Smoother.
Arguments lpf1 : clear implicits.
Arguments lpf2 : clear implicits.
Arguments mwm1 : clear implicits.
Arguments mwm2 : clear implicits.
Arguments mor1 : clear implicits.
Arguments mor2 : clear implicits.
Arguments gmwf : clear implicits.
Arguments expw : clear implicits.
Arguments klmn : clear implicits.
Arguments desf : clear implicits.
Arguments alnf : clear implicits.
