(** The moving root-mean-square estimator, /repo/src/rms.cpp and
    /repo/src/include/rms.hpp.  ffmath::sqrt is the arithmetic's square-root
    oracle: the exact square root over the reals, any function over binary32
    (the code of ffmath::sqrt itself is modelled in Ffmath_Model.v). *)
From Coq Require Import ZArith List Bool.
From Verif Require Import Base Arith Tdl_Model Smoother_Model.
Import ListNotations.

Section Rms.
Context {A : arith}.
Notation X := (F A).

(** rms.hpp:32: the object is its three base-class smoothers. *)
Record rms := mkRMS { r_expw : expw A; r_mwm2 : mwm2 A; r_lpf1 : lpf1 A }.
(** rms.hpp:35 *)
Definition rms_new : rms := mkRMS expw_new mwm2_new lpf1_new.

(** rms.cpp:7-20; 0.99f and 0.75f are the nearest floats. *)
Definition rms_setup (window : option (list X)) (wsize : Z) (s : rms) : res (bool * rms) :=
  match window with
  | Some w =>
      if (wsize >? 0)%Z then
        p <- mwm2_setup (Some w) wsize (r_mwm2 s) ;;
        Ok (true, mkRMS (snd (expw_setup (lit 99 100) (r_expw s))) (snd p) (snd (lpf1_setup (lit 75 100) (r_lpf1 s))))
      else Ok (false, s)
  | None => Ok (false, s)
  end.

(** rms.cpp:22-31 *)
Definition rms_update (x : X) (s : rms) : res (X * rms) :=
  let '(q, e) := expw_smooth (x * x)%fl (r_expw s) in
  p <- mwm2_smooth (o_sqrt lib q) (r_mwm2 s) ;;
  let '(y, l) := lpf1_smooth (fst p) (r_lpf1 s) in
  Ok (y, mkRMS e (snd p) l).

(** rms.cpp:33-45 *)
Definition rms_setParams (l al : X) (s : rms) : bool * rms :=
  if flt (lit 0 1) l && fle l (lit 1 1) && flt (lit 0 1) al && fle al (lit 1 1) then
    (true, mkRMS (mkEXPW l (e_m (r_expw s)) (e_w (r_expw s)) (e_init (r_expw s))) (r_mwm2 s)
                 (mkLPF1 al (f1_y1 (r_lpf1 s)) (f1_init (r_lpf1 s))))
  else (false, s).

(** A history of calls on one object; the result lists what update() returned. *)
Inductive rms_call := Update (x : X) | SetParams (l al : X).
Fixpoint rms_run (h : list rms_call) (s : rms) : res (list X * rms) :=
  match h with
  | [] => Ok ([], s)
  | Update x :: r => p <- rms_update x s ;; q <- rms_run r (snd p) ;; Ok (fst p :: fst q, snd q)
  | SetParams l al :: r => rms_run r (snd (rms_setParams l al s))
  end.

End Rms.
Arguments rms : clear implicits.
Arguments rms_call : clear implicits.
