(** The spherical associated Legendre function of src/ffmath.cpp, over an abstract arithmetic. *)
From Coq Require Import ZArith List Bool.
From Verif Require Import Base Arith Interp1_Model Poly_Model.
Open Scope Z_scope.

Section SphLegendre.
Context {A : arith}.
Notation X := (F A).
(** ffmath::lgamma, and the constants FFP_PI and FFP_LN_PI (ffmath.hpp:1065, 1101) *)
Variables (lg : X -> X) (pi lnpi : X).

(** ffmath.cpp:2933-2951: [k] turns of the loop from [ll]; the sums of size_t values are
    taken not to wrap around *)
Fixpoint sph_loop (k ll m : nat) (x y_mm y_mp1m y_lm : X) : X :=
  match k with
  | O => y_lm
  | S k' =>
      let ll_m_m := ofN (ll - m) in
      let ll_p_m := ofN (ll + m) in
      let ll2_p_1 := ofN (2 * ll + 1) in
      let ll2_m_1 := ofN (2 * ll - 1) in
      let ll_pm_m1 := ofN (ll + m - 1) in
      let ll_mm_m1 := ofN (ll - m - 1) in
      let rat1 := (ll_m_m / ll_p_m)%fl in
      let fact1 := o_sqrt lib (rat1 * ll2_p_1 * ll2_m_1)%fl in
      let fact2 := o_sqrt lib (rat1 * (ll_mm_m1 / ll_pm_m1) * ll2_p_1 / ofN (2 * ll - 3))%fl in
      let y_lm := ((x * y_mp1m * fact1 - ll_pm_m1 * y_mm * fact2) / ll_m_m)%fl in
      sph_loop k' (S ll) m x y_mp1m y_lm y_lm
  end.
(** sph_legendre: ffmath.cpp:2885-2957; cos, sqrt, log and exp are the oracles of the
    arithmetic *)
Definition sph_legendre (l m : nat) (theta : X) : X :=
  if fisnan theta then fnan
  else
    let x := o_cos lib theta in
    let pi4 := (lit 4 1 * pi)%fl in
    if (l <? m)%nat then lit 0 1
    else match m with
         | O => (legendre l x * o_sqrt lib (ofN (2 * l + 1) / pi4))%fl
         | _ =>
             if isEqual (lit 1 1) x || isEqual (- lit 1 1)%fl x then lit 0 1
             else
               let mf := ofN m in
               let y_mp1m_factor := (x * o_sqrt lib (ofN (2 * m + 3)))%fl in
               let sgn := parity m in
               let ln_circ := o_log lib (lit 1 1 - x * x)%fl in
               let ln_poc_h := (lg (mf + lit 1 2) - lg mf)%fl in
               let ln_pre_val := (- lit 1 4 * lnpi + lit 1 2 * (ln_poc_h + mf * ln_circ))%fl in
               let sr := o_sqrt lib ((lit 2 1 + lit 1 1 / mf) / pi4)%fl in
               let y_mm := (sgn * sr * o_exp lib ln_pre_val)%fl in
               let y_mp1m := (y_mp1m_factor * y_mm)%fl in
               match (l - m)%nat with
               | O => y_mm
               | S O => y_mp1m
               | S (S k) => sph_loop (S k) (m + 2) m x y_mm y_mp1m (lit 0 1)
               end
         end.
End SphLegendre.
