(** Model of the PID controller and its auto-tuner: src/pid.cpp,
    src/include/pid.hpp.  Simplifications: the reference model read through the
    pointer [yr] is an argument of [control] (the value stored there at the time
    of the call); the auto-tuner reached through the pointer [adapt] is part of
    the controller (one tuner is not shared by two controllers). *)
From Coq Require Import ZArith List Bool.
From Verif Require Import Arith Numa_Model.
Import ListNotations.
Open Scope fl_scope.

(** pid.hpp:28-31, 36-41, 46-49. *)
Inductive pmode := Automatic | Manual.
Inductive ptype := TypeP | TypePI | TypePD | TypePID.
Inductive pdir := Forward | Backward.

(** pid.cpp:7 *)
Definition UNDEFINED : Z := 4294967294.

Section Pid.
Context {A : arith}.
Notation X := (F A).

(** pid.hpp:58-62 *)
Record gains := mkG { gc_ : X; gi_ : X; gd_ : X }.

(** pid.hpp:78-93; [t_it] is a uint32_t. *)
Record tuner := mkT {
  t_p00 : X; t_p01 : X; t_p10 : X; t_p11 : X; t_b1 : X; t_a1 : X; t_uk : X; t_yk : X;
  t_l : X; t_k : X; t_tao : X; t_mu : X; t_speed : X; t_it : Z; t_type : ptype }.

(** pid.hpp:137-149, with the gains inherited from pidGains and the numerical
    state inherited from nState. *)
Record pid := mkP {
  p_gains : gains; p_n : nstate A;
  p_b : X; p_c : X; p_smin : X; p_smax : X; p_eps : X; p_kw : X; p_kt : X;
  p_D : X; p_u1 : X; p_beta : X; p_usat : X; p_dt : X; p_m : X; p_minput : X;
  p_mrac : bool; p_alpha : X; p_gamma : X; p_mstate : nstate A; p_bstate : nstate A;
  p_adapt : option tuner; p_mode : pmode; p_dir : pdir; p_init : bool }.

(** pid.hpp:140, 142, 144-149: what the constructor sets; every other member is
    indeterminate. *)
Definition fresh (p : pid) : Prop :=
  p_dt p = lit 1 1 /\ p_mrac p = false /\ p_adapt p = None /\ p_mode p = Automatic /\ p_dir p = Forward /\
  p_init p = false /\ p_n p = n_make (lit 0 1) (lit 0 1) (lit 0 1) /\
  p_mstate p = n_make (lit 0 1) (lit 0 1) (lit 0 1) /\ p_bstate p = n_make (lit 0 1) (lit 0 1) (lit 0 1).

(** Updates of single members. *)
Definition set_gains g p := mkP g (p_n p) (p_b p) (p_c p) (p_smin p) (p_smax p) (p_eps p) (p_kw p) (p_kt p) (p_D p) (p_u1 p) (p_beta p) (p_usat p) (p_dt p) (p_m p) (p_minput p) (p_mrac p) (p_alpha p) (p_gamma p) (p_mstate p) (p_bstate p) (p_adapt p) (p_mode p) (p_dir p) (p_init p).
Definition set_n n p := mkP (p_gains p) n (p_b p) (p_c p) (p_smin p) (p_smax p) (p_eps p) (p_kw p) (p_kt p) (p_D p) (p_u1 p) (p_beta p) (p_usat p) (p_dt p) (p_m p) (p_minput p) (p_mrac p) (p_alpha p) (p_gamma p) (p_mstate p) (p_bstate p) (p_adapt p) (p_mode p) (p_dir p) (p_init p).
Definition set_bc b c p := mkP (p_gains p) (p_n p) b c (p_smin p) (p_smax p) (p_eps p) (p_kw p) (p_kt p) (p_D p) (p_u1 p) (p_beta p) (p_usat p) (p_dt p) (p_m p) (p_minput p) (p_mrac p) (p_alpha p) (p_gamma p) (p_mstate p) (p_bstate p) (p_adapt p) (p_mode p) (p_dir p) (p_init p).
Definition set_sat lo hi p := mkP (p_gains p) (p_n p) (p_b p) (p_c p) lo hi (p_eps p) (p_kw p) (p_kt p) (p_D p) (p_u1 p) (p_beta p) (p_usat p) (p_dt p) (p_m p) (p_minput p) (p_mrac p) (p_alpha p) (p_gamma p) (p_mstate p) (p_bstate p) (p_adapt p) (p_mode p) (p_dir p) (p_init p).
Definition set_eps e p := mkP (p_gains p) (p_n p) (p_b p) (p_c p) (p_smin p) (p_smax p) e (p_kw p) (p_kt p) (p_D p) (p_u1 p) (p_beta p) (p_usat p) (p_dt p) (p_m p) (p_minput p) (p_mrac p) (p_alpha p) (p_gamma p) (p_mstate p) (p_bstate p) (p_adapt p) (p_mode p) (p_dir p) (p_init p).
Definition set_kwt kw kt p := mkP (p_gains p) (p_n p) (p_b p) (p_c p) (p_smin p) (p_smax p) (p_eps p) kw kt (p_D p) (p_u1 p) (p_beta p) (p_usat p) (p_dt p) (p_m p) (p_minput p) (p_mrac p) (p_alpha p) (p_gamma p) (p_mstate p) (p_bstate p) (p_adapt p) (p_mode p) (p_dir p) (p_init p).
Definition set_beta be p := mkP (p_gains p) (p_n p) (p_b p) (p_c p) (p_smin p) (p_smax p) (p_eps p) (p_kw p) (p_kt p) (p_D p) (p_u1 p) be (p_usat p) (p_dt p) (p_m p) (p_minput p) (p_mrac p) (p_alpha p) (p_gamma p) (p_mstate p) (p_bstate p) (p_adapt p) (p_mode p) (p_dir p) (p_init p).
Definition set_dt_init dt p := mkP (p_gains p) (p_n p) (p_b p) (p_c p) (p_smin p) (p_smax p) (p_eps p) (p_kw p) (p_kt p) (p_D p) (p_u1 p) (p_beta p) (p_usat p) dt (p_m p) (p_minput p) (p_mrac p) (p_alpha p) (p_gamma p) (p_mstate p) (p_bstate p) (p_adapt p) (p_mode p) (p_dir p) true.
Definition set_minput mi p := mkP (p_gains p) (p_n p) (p_b p) (p_c p) (p_smin p) (p_smax p) (p_eps p) (p_kw p) (p_kt p) (p_D p) (p_u1 p) (p_beta p) (p_usat p) (p_dt p) (p_m p) mi (p_mrac p) (p_alpha p) (p_gamma p) (p_mstate p) (p_bstate p) (p_adapt p) (p_mode p) (p_dir p) (p_init p).
Definition set_mrac on al ga ms p := mkP (p_gains p) (p_n p) (p_b p) (p_c p) (p_smin p) (p_smax p) (p_eps p) (p_kw p) (p_kt p) (p_D p) (p_u1 p) (p_beta p) (p_usat p) (p_dt p) (p_m p) (p_minput p) on al ga ms (p_bstate p) (p_adapt p) (p_mode p) (p_dir p) (p_init p).
Definition set_adapt ad p := mkP (p_gains p) (p_n p) (p_b p) (p_c p) (p_smin p) (p_smax p) (p_eps p) (p_kw p) (p_kt p) (p_D p) (p_u1 p) (p_beta p) (p_usat p) (p_dt p) (p_m p) (p_minput p) (p_mrac p) (p_alpha p) (p_gamma p) (p_mstate p) (p_bstate p) ad (p_mode p) (p_dir p) (p_init p).
Definition set_mode mo p := mkP (p_gains p) (p_n p) (p_b p) (p_c p) (p_smin p) (p_smax p) (p_eps p) (p_kw p) (p_kt p) (p_D p) (p_u1 p) (p_beta p) (p_usat p) (p_dt p) (p_m p) (p_minput p) (p_mrac p) (p_alpha p) (p_gamma p) (p_mstate p) (p_bstate p) (p_adapt p) mo (p_dir p) (p_init p).
Definition set_dir d p := mkP (p_gains p) (p_n p) (p_b p) (p_c p) (p_smin p) (p_smax p) (p_eps p) (p_kw p) (p_kt p) (p_D p) (p_u1 p) (p_beta p) (p_usat p) (p_dt p) (p_m p) (p_minput p) (p_mrac p) (p_alpha p) (p_gamma p) (p_mstate p) (p_bstate p) (p_adapt p) (p_mode p) d (p_init p).
(** The members written by reset() and control(). *)
Definition set_memory n D u1 usat m ms bs p := mkP (p_gains p) n (p_b p) (p_c p) (p_smin p) (p_smax p) (p_eps p) (p_kw p) (p_kt p) D u1 (p_beta p) usat (p_dt p) m (p_minput p) (p_mrac p) (p_alpha p) (p_gamma p) ms bs (p_adapt p) (p_mode p) (p_dir p) (p_init p).

(** pid.cpp:507-522 *)
Definition saturate (x lo hi : X) : X := if x >? hi then hi else if x <? lo then lo else x.

(** A setter guarded by isInitialized and a further condition. *)
Definition guarded (ok : bool) (f : pid -> pid) (p : pid) : bool * pid :=
  if p_init p && ok then (true, f p) else (false, p).

(** pid.cpp:35-45 *)
Definition setDirection d := guarded true (set_dir d).
(** pid.cpp:47-61 *)
Definition setParams (kc ti td : X) := guarded true (set_gains (mkG kc (kc / ti) (kc * td))).
(** pid.cpp:63-77, 79-91 *)
Definition setGains (kc ki kd : X) := guarded true (set_gains (mkG kc ki kd)).
(** pid.cpp:93-105 *)
Definition setExtraGains (kw kt : X) := guarded true (set_kwt kw kt).
(** pid.cpp:107-119 *)
Definition setSaturation (lo hi : X) := guarded (hi >? lo) (set_sat lo hi).
(** pid.cpp:121-138 *)
Definition setSeries := guarded true (fun p =>
  let kc := gc_ (p_gains p) in let ki := gi_ (p_gains p) in let kd := gd_ (p_gains p) in
  let ti := kc / ki in
  let td := kd / kc in
  let tmp := lit 1 1 + (td / ti) in
  let kc' := kc * tmp in
  set_gains (mkG kc' (kc' / (ti * tmp)) (kc' * (td / tmp))) p).
(** pid.cpp:140-150 *)
Definition setEpsilon (e : X) := guarded true (set_eps e).
(** pid.cpp:152-162 *)
Definition setDerivativeFilter (be : X) := guarded ((be >=? lit 0 1) && (be <? lit 1 1)) (set_beta be).
(** pid.cpp:164-174 *)
Definition setDerivativeFilterTimeConstant (tf : X) :=
  guarded (tf >=? lit 0 1) (fun p => set_beta (o_exp lib ((- p_dt p) / tf)) p).
(** pid.cpp:176-186 *)
Definition setMode mo := guarded true (set_mode mo).
(** pid.cpp:188-200 *)
Definition setReferenceWeighting (gb gc : X) :=
  guarded true (set_bc (saturate gb (lit 0 1) (lit 1 1)) (saturate gc (lit 0 1) (lit 1 1))).
(** pid.cpp:202-212 *)
Definition setManualInput (mi : X) := guarded true (set_minput mi).
(** pid.cpp:214-230 *)
Definition reset := guarded true (fun p =>
  set_memory (n_init0 (p_n p)) (lit 0 1) (lit 0 1) (lit 0 1) (lit 0 1) (n_init0 (p_mstate p)) (n_init0 (p_bstate p)) p).
(** pid.cpp:232-247; the reference's address is not modelled. *)
Definition setModelReferenceControl (gamma alpha : X) :=
  guarded ((gamma >? lit 0 1) && (alpha >? lit 0 1)) (fun p => set_mrac true alpha gamma (n_init0 (p_mstate p)) p).
(** pid.cpp:249-259 *)
Definition removeModelReferenceControl :=
  guarded true (fun p => set_mrac false (p_alpha p) (p_gamma p) (p_mstate p) p).

(** pid.cpp:10-33 (and the overload pid.hpp:179-183) *)
Definition setup (kc ki kd dT : X) (p : pid) : bool * pid :=
  if p_dt p >? lit 0 1 then
    let p := set_dt_init dT p in
    let p := snd (setDerivativeFilter (lit 98 100) p) in
    let p := snd (setEpsilon real_min p) in
    let p := snd (setGains kc ki kd p) in
    let p := snd (setSaturation (lit 0 1) (lit 100 1) p) in
    let p := snd (setMode Automatic p) in
    let p := snd (setManualInput (lit 0 1) p) in
    let p := snd (setExtraGains (lit 1 1) (lit 1 1) p) in
    let p := snd (setDirection Forward p) in
    let p := snd (setReferenceWeighting (lit 1 1) (lit 0 1) p) in
    reset p
  else (false, p).

(** pid.cpp:500-505 *)
Definition isValidValue (x : X) : bool := negb (fisnan x) && (x >? lit 0 1) && negb (finf x).
(** pid.hpp:120-123 *)
Definition isValidParam (x : X) : bool := (x >? lit 0 1) && (x <=? lit 1 1).

(** pid.cpp:317-365.  Returns (ready, tuner). *)
Definition t_step (u y dt : X) (t : tuner) : bool * tuner :=
  let il := lit 1 1 / t_l t in
  let uk := t_uk t in let yk := t_yk t in
  let tmp1 := t_p00 t * uk in
  let tmp2 := t_p11 t * yk in
  let r := t_l t + (uk * (tmp1 - (t_p10 t * yk))) - (yk * ((t_p01 t * uk) - tmp2)) in
  let l0 := (tmp1 - (t_p01 t * yk)) / r in
  let l1 := ((t_p10 t * uk) - tmp2) / r in
  let error := y - ((t_b1 t * uk) - (t_a1 t * yk)) in
  let b1 := t_b1 t + l0 * error in
  let a1 := t_a1 t + l1 * error in
  let lp00 := il * t_p00 t in
  let lp01 := il * t_p01 t in
  let lp10 := il * t_p10 t in
  let lp11 := il * t_p11 t in
  let tmp1 := (l0 * uk) - lit 1 1 in
  let tmp2 := (l1 * yk) + lit 1 1 in
  let p00 := (l0 * lp10 * yk) - (lp00 * tmp1) + lit 1 10000000000 in
  let p01 := (l0 * lp11 * yk) - (lp01 * tmp1) in
  let p10 := (lp10 * tmp2) - (l1 * lp00 * uk) in
  let p11 := (lp11 * tmp2) - (l1 * lp01 * uk) + lit 1 10000000000 in
  let gain := b1 / (lit 1 1 + a1) in
  let tc := (- dt) / o_log lib (fabs a1) in
  if isValidValue tc && isValidValue gain && (0 <? t_it t)%Z then
    let it := (t_it t - 1)%Z in
    ((it =? 0)%Z && negb (UNDEFINED =? it)%Z,
     mkT p00 p01 p10 p11 b1 a1 u y (t_l t) (gain + (t_mu t * (t_k t - gain))) (tc + (t_mu t * (t_tao t - tc)))
         (t_mu t) (t_speed t) it (t_type t))
  else
    (false, mkT p00 p01 p10 p11 b1 a1 u y (t_l t) (t_k t) (t_tao t) (t_mu t) (t_speed t) (t_it t) (t_type t)).

(** pid.cpp:367-394 *)
Definition getEstimates (t : tuner) : gains :=
  let k := t_k t in let tao := t_tao t in let speed := t_speed t in
  let td := tao * lit 1 10 in
  match t_type t with
  | TypeP => mkG (speed * (lit 103 100 / k) * ((tao / td) + lit 34 100)) (lit 0 1) (lit 0 1)
  | TypePD =>
      let kc := speed * (lit 124 100 / k) * ((tao / td) + lit 129 1000) in
      mkG kc (lit 0 1) (kc * (lit 27 100 * td) * (tao - lit 324 1000 * td) / (tao + lit 129 1000 * td))
  | TypePI =>
      let kc := speed * (lit 9 10 / k) * ((tao / td) + lit 92 1000) in
      mkG kc (kc * (tao + lit 222 100 * td) / (lit 333 100 * td * (tao + lit 92 1000 * td))) (lit 0 1)
  | TypePID =>
      let kc := speed * (lit 135 100 / k) * ((tao / td) + lit 185 1000) in
      mkG kc (kc * (tao + lit 611 1000 * td) / (lit 25 10 * td * (tao + lit 185 1000 * td)))
          ((lit 37 100 * kc * td * tao) / (tao + lit 185 1000 * td))
  end.

(** pid.cpp:396-420; [t_type] is the one the tuner had. *)
Definition t_initialize (g : gains) (dt : X) (ty : ptype) : tuner :=
  let k_i := gc_ g / lit 9 10 in
  let T_i := (lit 27 100 * k_i) / gi_ g in
  let a1 := - (o_exp lib ((- dt) / T_i)) in
  let b1 := k_i * (lit 1 1 + a1) in
  mkT (lit 1000 1) (lit 0 1) (lit 0 1) (lit 1000 1) b1 a1 (lit 0 1) (lit 0 1) (lit 9898 10000) (lit 0 1) (lit 0 1)
      (lit 95 100) (lit 25 100) UNDEFINED ty.

(** pid.hpp:96-99 *)
Definition t_enable (n : Z) (t : tuner) : tuner :=
  mkT (t_p00 t) (t_p01 t) (t_p10 t) (t_p11 t) (t_b1 t) (t_a1 t) (t_uk t) (t_yk t) (t_l t) (t_k t) (t_tao t) (t_mu t) (t_speed t)
      (if (n =? 0)%Z then UNDEFINED else n) (t_type t).
(** pid.hpp:100-103 *)
Definition t_complete (t : tuner) : bool := (t_it t =? 0)%Z && negb (t_it t =? UNDEFINED)%Z.
(** pid.hpp:104-119 *)
Definition t_params (lambda mu speed : X) (t : tuner) : tuner :=
  mkT (t_p00 t) (t_p01 t) (t_p10 t) (t_p11 t) (t_b1 t) (t_a1 t) (t_uk t) (t_yk t) lambda (t_k t) (t_tao t) mu speed (t_it t) (t_type t).
Definition t_settype (ty : ptype) (t : tuner) : tuner :=
  mkT (t_p00 t) (t_p01 t) (t_p10 t) (t_p11 t) (t_b1 t) (t_a1 t) (t_uk t) (t_yk t) (t_l t) (t_k t) (t_tao t) (t_mu t) (t_speed t) (t_it t) ty.

(** pid.cpp:433-444; [ty] is the type stored in the tuner object passed in
    (PID_TYPE_PI in a new one, pid.hpp:93). *)
Definition bindAutoTuning (ty : ptype) := guarded true (fun p => set_adapt (Some (t_initialize (p_gains p) (p_dt p) ty)) p).
(** pid.hpp:348-353 *)
Definition unbindAutoTuning (p : pid) : bool * pid :=
  (match p_adapt p with Some _ => true | None => false end, set_adapt None p).

(** An operation guarded by adapt != nullptr and a further condition. *)
Definition with_tuner (ok : bool) (f : tuner -> tuner) (p : pid) : bool * pid :=
  match p_adapt p with
  | Some t => if ok then (true, set_adapt (Some (f t)) p) else (false, p)
  | None => (false, p)
  end.
(** pid.cpp:446-456 *)
Definition enableAutoTuning (n : Z) := with_tuner true (t_enable n).
(** pid.cpp:458-467 *)
Definition isAutoTuningComplete (p : pid) : bool :=
  match p_adapt p with Some t => t_complete t | None => false end.
(** pid.cpp:469-485 *)
Definition setAutoTuningParameters (mu alpha lambda : X) :=
  with_tuner (isValidParam mu && isValidParam alpha && isValidParam lambda) (t_params lambda mu alpha).
(** pid.cpp:487-498 *)
Definition setAutoTuningControllerType (ty : ptype) := with_tuner true (t_settype ty).

(** pid.cpp:261-270 *)
Definition error (eps w y k : X) : X := let e := (k * w) - y in if fabs e <=? eps then lit 0 1 else e.

(** pid.cpp:282-284 *)
Definition reverse (k : X) : X := if k >? lit 0 1 then - k else k.

(** pid.cpp:422-431 *)
Definition adaptGains (u y : X) (p : pid) : pid :=
  match p_adapt p with
  | None => p
  | Some t => let '(ready, t') := t_step u y (p_dt p) t in
              let p' := set_adapt (Some t') p in
              if ready then set_gains (getEstimates t') p' else p'
  end.

(** pid.cpp:272-315; [yr] is the value of the reference model. *)
Definition control (w y yr : X) (p : pid) : X * pid :=
  if p_init p then
    let dir k := match p_dir p with Backward => reverse k | Forward => k end in
    let kc := dir (gc_ (p_gains p)) in
    let ki := dir (gi_ (p_gains p)) in
    let kd := dir (gd_ (p_gains p)) in
    let e := error (p_eps p) w y (lit 1 1) in
    let '(de, n1) := n_derive (error (p_eps p) w y (p_c p)) (p_dt p) false (p_n p) in
    let '(ie, n2) := n_integrate (e + p_u1 p) (p_dt p) true n1 in
    let D := de + p_beta p * (p_D p - de) in
    let v := (kc * error (p_eps p) w y (p_b p)) + (ki * ie) + (kd * D) in
    let '(v, ms) :=
      if p_mrac p then
        let '(theta, ms) :=
          if fabs (p_u1 p) <=? p_eps p then
            let em := y - yr in
            let delta := (- p_gamma p) * em * yr / (p_alpha p + (yr * yr)) in
            n_integrate delta (p_dt p) true (p_mstate p)
          else (lit 0 1, p_mstate p) in
        (v + w * theta, ms)
      else (v, p_mstate p) in
    let bt := (p_kt p * p_minput p) + (p_kw p * (p_usat p - p_m p)) in
    let '(m, bs) := n_integrate bt (p_dt p) true (p_bstate p) in
    let sw := match p_mode p with Automatic => v | Manual => m end in
    let u := saturate sw (p_smin p) (p_smax p) in
    let u1 := p_kw p * (u - v) in
    (u, adaptGains u y (set_memory n2 D u1 u m ms bs p))
  else (w, p).

(** One call of the public interface and what it returns.  [CBase] is a call of
    an operation inherited from nState. *)
Inductive pcall :=
| CSetup (kc ki kd dT : X) | CDirection (d : pdir) | CParams (kc ti td : X) | CGains (kc ki kd : X)
| CExtraGains (kw kt : X) | CSaturation (lo hi : X) | CSeries | CEpsilon (e : X) | CFilter (be : X)
| CFilterTime (tf : X) | CMode (mo : pmode) | CWeighting (gb gc : X) | CManualInput (mi : X) | CReset
| CModelRef (gamma alpha : X) | CRemoveModelRef | CBind (ty : ptype) | CUnbind | CEnable (n : Z)
| CTuneParams (mu alpha lambda : X) | CTuneType (ty : ptype) | CControl (w y yr : X) | CBase (c : ncall A).

Inductive preturn := RBool (b : bool) | RReal (x : X) | RNone.
Definition rb (r : bool * pid) : preturn * pid := (RBool (fst r), snd r).

Definition p_do (c : pcall) (p : pid) : preturn * pid :=
  match c with
  | CSetup kc ki kd dT => rb (setup kc ki kd dT p)
  | CDirection d => rb (setDirection d p)
  | CParams kc ti td => rb (setParams kc ti td p)
  | CGains kc ki kd => rb (setGains kc ki kd p)
  | CExtraGains kw kt => rb (setExtraGains kw kt p)
  | CSaturation lo hi => rb (setSaturation lo hi p)
  | CSeries => rb (setSeries p)
  | CEpsilon e => rb (setEpsilon e p)
  | CFilter be => rb (setDerivativeFilter be p)
  | CFilterTime tf => rb (setDerivativeFilterTimeConstant tf p)
  | CMode mo => rb (setMode mo p)
  | CWeighting gb gc => rb (setReferenceWeighting gb gc p)
  | CManualInput mi => rb (setManualInput mi p)
  | CReset => rb (reset p)
  | CModelRef ga al => rb (setModelReferenceControl ga al p)
  | CRemoveModelRef => rb (removeModelReferenceControl p)
  | CBind ty => rb (bindAutoTuning ty p)
  | CUnbind => rb (unbindAutoTuning p)
  | CEnable n => rb (enableAutoTuning n p)
  | CTuneParams mu al la => rb (setAutoTuningParameters mu al la p)
  | CTuneType ty => rb (setAutoTuningControllerType ty p)
  | CControl w y yr => let '(u, p') := control w y yr p in (RReal u, p')
  | CBase c => (RNone, set_n (n_do c (p_n p)) p)
  end.

Definition p_run (cs : list pcall) (p : pid) : pid := fold_left (fun p c => snd (p_do c p)) cs p.

(** Successive calls of control() and what they return. *)
Fixpoint p_controls (ins : list (X * X * X)) (p : pid) : list X * pid :=
  match ins with
  | [] => ([], p)
  | (w, y, yr) :: r => let '(u, p1) := control w y yr p in
                       let '(us, p2) := p_controls r p1 in (u :: us, p2)
  end.

End Pid.
Arguments gains : clear implicits.
Arguments tuner : clear implicits.
Arguments pid : clear implicits.
Arguments pcall : clear implicits.
Arguments preturn : clear implicits.
