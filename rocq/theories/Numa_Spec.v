(** What numerical integration and differentiation mean, over the reals. *)
From Coq Require Import Reals List ZArith.
From Verif Require Import Arith Numa_Model.
Import ListNotations.
Open Scope R_scope.

(** [P] is an antiderivative of [f]. *)
Definition antiderivative_of (P f : R -> R) : Prop := forall t, derivable_pt_lim P t (f t).

(** The time of sample k (k = 0 is the sample fed last before the run). *)
Definition tk (t0 h : R) (k : Z) : R := t0 + IZR k * h.

(** The samples at times 1, 2, ..., n steps after [t0]. *)
Definition samples (f : R -> R) (t0 h : R) (n : nat) : list R :=
  map (fun k => f (tk t0 h (Z.of_nat k))) (seq 1 n).

(** An object that has integrated or differentiated up to [t0]: value [x], last
    two samples f(t0) and f(t0-h). *)
Definition primed (f : R -> R) (t0 h x : R) (im : imethod) (dm : dmethod) : nstate RA :=
  @mkN RA x (f t0) (f (tk t0 h (-1))) im dm.

(** Polynomial inputs. *)
Definition poly0 (a : R) (t : R) : R := a.
Definition poly1 (a b : R) (t : R) : R := a + b * t.
Definition poly2 (a b c : R) (t : R) : R := a + b * t + c * t * t.
Definition poly3 (a b c d : R) (t : R) : R := a + b * t + c * t * t + d * t * t * t.

(** The outputs of an exact integrator: at the k-th step, x plus the integral
    of f from t0 to the current time. *)
Definition exact_integrals (P : R -> R) (t0 h x : R) (n : nat) : list R :=
  map (fun k => x + (P (tk t0 h (Z.of_nat k)) - P t0)) (seq 1 n).

(** The last three samples seen, newest first, given those seen before. *)
Definition last3 (ss : list R) (s1 s2 : R) : R * R * R :=
  let l := rev ss ++ [s1; s2] in (nth 0 l 0, nth 1 l 0, nth 2 l 0).

(** The weights a rule of the header (numa.hpp:28-33) gives to the newest,
    previous and second previous sample: rectangle; trapezoid; a parabola
    through the last three samples integrated over both steps and halved
    (Simpson's 1/3 rule averaged over its two steps); the same parabola
    integrated over the last step only. *)
Definition weights (m : imethod) : R * R * R :=
  match m with
  | IRectangular => (1, 0, 0)
  | ITrapezoidal => (1/2, 1/2, 0)
  | ISimpson => (1/6, 4/6, 1/6)
  | IQuadratic => (5/12, 8/12, -1/12)
  | IOther => (0, 0, 0)
  end.
