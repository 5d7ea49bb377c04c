(** What a user of the PID controller relies on. *)
From Coq Require Import ZArith Reals List Bool.
From Verif Require Import Arith Numa_Model Pid_Model.
Import ListNotations.

Section Histories.
Context {A : arith}.
Notation X := (F A).

(** The output limits configured by a history of calls: those of the last
    accepted setSaturation(), or the defaults 0 and 100 of an accepted setup(). *)
Fixpoint limits (cs : list (pcall A)) (p : pid A) (l : option (X * X)) : option (X * X) :=
  match cs with
  | [] => l
  | c :: r => let '(ret, p') := p_do c p in
      limits r p' match c, ret with
                  | CSetup _ _ _ _, RBool true => Some (lit 0 1, lit 100 1)
                  | CSaturation lo hi, RBool true => Some (lo, hi)
                  | _, _ => l
                  end
  end.

(** Whether the history contains an accepted setup(), and the time step of the
    last one (1 before any). *)
Fixpoint was_setup (cs : list (pcall A)) (p : pid A) : bool :=
  match cs with
  | [] => false
  | c :: r => let '(ret, p') := p_do c p in
      match c, ret with CSetup _ _ _ _, RBool true => true | _, _ => was_setup r p' end
  end.
Fixpoint last_step (cs : list (pcall A)) (p : pid A) (d : X) : X :=
  match cs with
  | [] => d
  | c :: r => let '(ret, p') := p_do c p in
      last_step r p' match c, ret with CSetup _ _ _ dT, RBool true => dT | _, _ => d end
  end.

(** When a call is accepted: [ini] tells whether the controller has been set
    up, [dt] is its time step, [tun] whether a tuner is bound.  Calls that do
    not return a bool are not listed. *)
Definition accepts (c : pcall A) (ini : bool) (dt : X) (tun : bool) : option bool :=
  match c with
  | CSetup _ _ _ _ => Some (flt (lit 0 1) dt)
  | CSaturation lo hi => Some (ini && flt lo hi)
  | CFilter be => Some (ini && (fle (lit 0 1) be && flt be (lit 1 1)))
  | CFilterTime tf => Some (ini && fle (lit 0 1) tf)
  | CModelRef ga al => Some (ini && (flt (lit 0 1) ga && flt (lit 0 1) al))
  | CUnbind | CEnable _ | CTuneType _ => Some tun
  | CTuneParams mu al la => Some (tun && (flt (lit 0 1) mu && fle mu (lit 1 1) && (flt (lit 0 1) al && fle al (lit 1 1)) &&
                                          (flt (lit 0 1) la && fle la (lit 1 1))))
  | CControl _ _ _ | CBase _ => None
  | _ => Some ini
  end.

Definition tuning (p : pid A) : bool := match p_adapt p with Some _ => true | None => false end.

(** A history without calls of the operations inherited from nState. *)
Definition is_base (c : pcall A) : bool := match c with CBase _ => true | _ => false end.

(** Same configuration: everything a setter stores. *)
Definition same_config (p q : pid A) : Prop :=
  p_gains p = p_gains q /\ p_b p = p_b q /\ p_c p = p_c q /\ p_smin p = p_smin q /\ p_smax p = p_smax q /\
  p_eps p = p_eps q /\ p_kw p = p_kw q /\ p_kt p = p_kt q /\ p_beta p = p_beta q /\ p_dt p = p_dt q /\
  p_minput p = p_minput q /\ p_mrac p = p_mrac q /\ p_alpha p = p_alpha q /\ p_gamma p = p_gamma q /\
  p_adapt p = p_adapt q /\ p_mode p = p_mode q /\ p_dir p = p_dir q /\ p_init p = p_init q /\
  nim (p_n p) = nim (p_n q) /\ ndm (p_n p) = ndm (p_n q) /\
  nim (p_mstate p) = nim (p_mstate q) /\ ndm (p_mstate p) = ndm (p_mstate q) /\
  nim (p_bstate p) = nim (p_bstate q) /\ ndm (p_bstate p) = ndm (p_bstate q).

(** The estimates of the auto-tuner are usable: gain b1/(1+a1) and time constant
    -dt/log|a1| are positive numbers, not infinite. *)
Definition usable (x : X) : bool := negb (fisnan x) && flt (lit 0 1) x && negb (finf x).
Definition estimates_ok (dt : X) (t : tuner A) : bool :=
  usable (fdiv (fopp dt) (o_log lib (fabs (t_a1 t)))) && usable (fdiv (t_b1 t) (fadd (lit 1 1) (t_a1 t))).
Definition tuner_ok (p : pid A) : bool :=
  match p_adapt p with Some t => estimates_ok (p_dt p) t | None => false end.

(** The number of calls of control() after which the estimates are usable. *)
Fixpoint count_ok (ins : list (X * X * X)) (p : pid A) : Z :=
  match ins with
  | [] => 0
  | (w, y, yr) :: r => let p' := snd (control w y yr p) in
                       ((if tuner_ok p' then 1 else 0) + count_ok r p')%Z
  end.
Definition remaining (p : pid A) : Z := match p_adapt p with Some t => t_it t | None => 0%Z end.
End Histories.

(** ** The control law of doc/qpid.dox:42-66, 91-95 and 180-193, in discrete
    time: integrals by the trapezoidal rule, derivatives by differences. *)
Open Scope R_scope.

Record config := mkConfig {
  f_kc : R; f_ki : R; f_kd : R;          (** the gains in the configured direction *)
  f_b : R; f_c : R;                      (** set-point weights *)
  f_lo : R; f_hi : R; f_eps : R;
  f_kw : R; f_kt : R; f_beta : R; f_dt : R; f_manual : R;
  f_mrac : bool; f_alpha : R; f_gamma : R; f_auto : bool }.

Definition directed (d : pdir) (k : R) : R := match d with Forward => k | Backward => - Rabs k end.

Definition config_of (p : pid RA) : config :=
  mkConfig (directed (p_dir p) (gc_ (p_gains p))) (directed (p_dir p) (gi_ (p_gains p))) (directed (p_dir p) (gd_ (p_gains p)))
    (p_b p) (p_c p) (p_smin p) (p_smax p) (p_eps p) (p_kw p) (p_kt p) (p_beta p) (p_dt p) (p_minput p)
    (p_mrac p) (p_alpha p) (p_gamma p) (match p_mode p with Automatic => true | Manual => false end).

(** All signals of the loop at one instant: output u, unsaturated output v,
    saturation feedback c, integrand and integral, weighted error e_c, filtered
    derivative, adaptation rate and gain, manual command rate and value. *)
Record signals := mkSig {
  s_u : R; s_v : R; s_c : R; s_j : R; s_i : R; s_ec : R; s_d : R;
  s_delta : R; s_psi : R; s_mt : R; s_m : R }.
Definition at_rest := mkSig 0 0 0 0 0 0 0 0 0 0 0.

Definition deadband (eps e : R) : R := if Rle_dec (Rabs e) eps then 0 else e.
Definition clamp (lo hi x : R) : R := if Rlt_dec hi x then hi else if Rlt_dec x lo then lo else x.

(** [doc] selects what the derivative is taken against: the previous weighted
    error e_c, as documented, or the previous integrand, as implemented. *)
Definition law_step (f : config) (doc : bool) (s : signals) (w y ym : R) : signals :=
  let err k := deadband (f_eps f) (k * w - y) in
  let j := err 1 + s_c s in
  let i := s_i s + f_dt f / 2 * (j + s_j s) in
  let de := (err (f_c f) - (if doc then s_ec s else s_j s)) / f_dt f in
  let d := de + f_beta f * (s_d s - de) in
  let adapting := Rle_dec (Rabs (s_c s)) (f_eps f) in
  let delta := - f_gamma f * ((y - ym) * ym) / (f_alpha f + ym * ym) in
  let psi := s_psi s + f_dt f / 2 * (delta + s_delta s) in
  let ff := if f_mrac f then (if adapting then psi else 0) * w else 0 in
  let v := ff + (f_kc f * err (f_b f) + f_ki f * i + f_kd f * d) in
  let mt := f_kt f * f_manual f + f_kw f * (s_u s - s_m s) in
  let m := s_m s + f_dt f / 2 * (mt + s_mt s) in
  let u := clamp (f_lo f) (f_hi f) (if f_auto f then v else m) in
  {| s_u := u; s_v := v; s_c := f_kw f * (u - v); s_j := j; s_i := i; s_ec := err (f_c f); s_d := d;
     s_delta := if f_mrac f then (if adapting then delta else s_delta s) else s_delta s;
     s_psi := if f_mrac f then (if adapting then psi else s_psi s) else s_psi s;
     s_mt := mt; s_m := m |}.

(** The signals after n calls. *)
Fixpoint law (f : config) (doc : bool) (w y ym : nat -> R) (n : nat) : signals :=
  match n with
  | O => at_rest
  | S k => law_step f doc (law f doc w y ym k) (w k) (y k) (ym k)
  end.

Definition inputs (w y ym : nat -> R) (n : nat) : list (R * R * R) := map (fun k => (w k, y k, ym k)) (seq 0 n).

(** ** Recursive least squares (textbook form, forgetting factor [la]) for the
    model y(k) = b1 u(k-1) - a1 y(k-1). *)
Record vec2 := mkV { v0 : R; v1 : R }.
Record mat2 := mkM { m00 : R; m01 : R; m10 : R; m11 : R }.
Definition dot (a b : vec2) : R := v0 a * v0 b + v1 a * v1 b.
Definition mv (m : mat2) (a : vec2) : vec2 := mkV (m00 m * v0 a + m01 m * v1 a) (m10 m * v0 a + m11 m * v1 a).
Definition outer (a b : vec2) : mat2 := mkM (v0 a * v0 b) (v0 a * v1 b) (v1 a * v0 b) (v1 a * v1 b).
Definition mm (a b : mat2) : mat2 := mkM (m00 a * m00 b + m01 a * m10 b) (m00 a * m01 b + m01 a * m11 b)
                                        (m10 a * m00 b + m11 a * m10 b) (m10 a * m01 b + m11 a * m11 b).
Definition msub (a b : mat2) : mat2 := mkM (m00 a - m00 b) (m01 a - m01 b) (m10 a - m10 b) (m11 a - m11 b).
Definition mscale (k : R) (a : mat2) : mat2 := mkM (k * m00 a) (k * m01 a) (k * m10 a) (k * m11 a).
Definition mdiag (k : R) (a : mat2) : mat2 := mkM (m00 a + k) (m01 a) (m10 a) (m11 a + k).
Definition vadd (a b : vec2) : vec2 := mkV (v0 a + v0 b) (v1 a + v1 b).
Definition vscale (k : R) (a : vec2) : vec2 := mkV (k * v0 a) (k * v1 a).

Definition rls (la ridge : R) (phi : vec2) (y : R) (P : mat2) (th : vec2) : mat2 * vec2 :=
  let L := vscale (/ (la + dot phi (mv P phi))) (mv P phi) in
  (mdiag ridge (mscale (/ la) (msub P (mm (outer L phi) P))), vadd th (vscale (y - dot phi th) L)).

Definition t_theta (t : tuner RA) : vec2 := mkV (t_b1 t) (t_a1 t).
Definition t_phi (t : tuner RA) : vec2 := mkV (t_uk t) (- t_yk t).
Definition t_cov (t : tuner RA) : mat2 := mkM (t_p00 t) (t_p01 t) (t_p10 t) (t_p11 t).

(** ** What an accepted call configures, member by member *)
Record settings := mkSettings {
  c_gains : R * R * R; c_dir : pdir; c_weights : R * R; c_limits : R * R; c_eps : R; c_extra : R * R;
  c_beta : R; c_dt : R; c_manual : R; c_adaptive : option (R * R); c_mode : pmode;
  c_tuning : option (R * R * R * ptype * Z) }.   (** lambda, mu, alpha, type, iterations left *)
Definition settings_of (p : pid RA) : settings :=
  mkSettings (gc_ (p_gains p), gi_ (p_gains p), gd_ (p_gains p)) (p_dir p) (p_b p, p_c p) (p_smin p, p_smax p) (p_eps p) (p_kw p, p_kt p)
    (p_beta p) (p_dt p) (p_minput p) (if p_mrac p then Some (p_gamma p, p_alpha p) else None) (p_mode p)
    (match p_adapt p with Some t => Some (t_l t, t_mu t, t_speed t, t_type t, t_it t) | None => None end).
Definition unit_clamp (x : R) : R := clamp 0 1 x.
(** setParams takes the controller in standard form (gain, integral time,
    derivative time); setSeries reads the present gains as those of the series
    form kc(1+1/(ti s))(1+td s), whose parallel form has the proportional gain
    kc(1+td/ti) and the same integral and derivative gains. *)
Definition configure (c : pcall RA) (s : settings) : settings :=
  let g := c_gains s in let kc := fst (fst g) in let ki := snd (fst g) in let kd := snd g in
  let with_gains g := mkSettings g (c_dir s) (c_weights s) (c_limits s) (c_eps s) (c_extra s) (c_beta s) (c_dt s) (c_manual s) (c_adaptive s) (c_mode s) (c_tuning s) in
  let with_beta be := mkSettings g (c_dir s) (c_weights s) (c_limits s) (c_eps s) (c_extra s) be (c_dt s) (c_manual s) (c_adaptive s) (c_mode s) (c_tuning s) in
  let with_adaptive a := mkSettings g (c_dir s) (c_weights s) (c_limits s) (c_eps s) (c_extra s) (c_beta s) (c_dt s) (c_manual s) a (c_mode s) (c_tuning s) in
  let with_tuning t := mkSettings g (c_dir s) (c_weights s) (c_limits s) (c_eps s) (c_extra s) (c_beta s) (c_dt s) (c_manual s) (c_adaptive s) (c_mode s) t in
  let tune f := with_tuning (match c_tuning s with Some (la, mu, al, ty, it) => Some (f la mu al ty it) | None => None end) in
  match c with
  | CSetup kc ki kd dT => mkSettings (kc, ki, kd) Forward (1, 0) (0, 100) (/ 2 ^ 126) (1, 1) (98 / 100) dT 0 (c_adaptive s) Automatic (c_tuning s)
  | CDirection d => mkSettings g d (c_weights s) (c_limits s) (c_eps s) (c_extra s) (c_beta s) (c_dt s) (c_manual s) (c_adaptive s) (c_mode s) (c_tuning s)
  | CParams kc ti td => with_gains (kc, kc / ti, kc * td)
  | CGains kc ki kd => with_gains (kc, ki, kd)
  | CSeries => with_gains (kc + kd * ki / kc, ki, kd)
  | CExtraGains kw kt => mkSettings g (c_dir s) (c_weights s) (c_limits s) (c_eps s) (kw, kt) (c_beta s) (c_dt s) (c_manual s) (c_adaptive s) (c_mode s) (c_tuning s)
  | CSaturation lo hi => mkSettings g (c_dir s) (c_weights s) (lo, hi) (c_eps s) (c_extra s) (c_beta s) (c_dt s) (c_manual s) (c_adaptive s) (c_mode s) (c_tuning s)
  | CEpsilon e => mkSettings g (c_dir s) (c_weights s) (c_limits s) e (c_extra s) (c_beta s) (c_dt s) (c_manual s) (c_adaptive s) (c_mode s) (c_tuning s)
  | CFilter be => with_beta be
  | CFilterTime tf => with_beta (exp (- c_dt s / tf))
  | CMode m => mkSettings g (c_dir s) (c_weights s) (c_limits s) (c_eps s) (c_extra s) (c_beta s) (c_dt s) (c_manual s) (c_adaptive s) m (c_tuning s)
  | CWeighting gb gc => mkSettings g (c_dir s) (unit_clamp gb, unit_clamp gc) (c_limits s) (c_eps s) (c_extra s) (c_beta s) (c_dt s) (c_manual s) (c_adaptive s) (c_mode s) (c_tuning s)
  | CManualInput mi => mkSettings g (c_dir s) (c_weights s) (c_limits s) (c_eps s) (c_extra s) (c_beta s) (c_dt s) mi (c_adaptive s) (c_mode s) (c_tuning s)
  | CModelRef ga al => with_adaptive (Some (ga, al))
  | CRemoveModelRef => with_adaptive None
  | CBind ty => with_tuning (Some (9898 / 10000, 95 / 100, 25 / 100, ty, 4294967294%Z))
  | CUnbind => with_tuning None
  | CEnable n => tune (fun la mu al ty _ => (la, mu, al, ty, if (n =? 0)%Z then 4294967294%Z else n))
  | CTuneParams mu al la => tune (fun _ _ _ ty it => (la, mu, al, ty, it))
  | CTuneType ty => tune (fun la mu al _ it => (la, mu, al, ty, it))
  | CReset | CControl _ _ _ | CBase _ => s
  end.
