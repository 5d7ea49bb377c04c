(** What interpolation means, in terms of the table only. *)
From Coq Require Import ZArith Reals List.
Import ListNotations.
Open Scope R_scope.

(** A table: as many ordinates as abscissas, abscissas strictly increasing. *)
Definition increasing (tx : list R) : Prop := forall i, (S i < length tx)%nat -> nth i tx 0 < nth (S i) tx 0.
Definition table (n : nat) (tx ty : list R) : Prop := length tx = n /\ length ty = n /\ increasing tx.

(** The line through two points. *)
Definition through (x0 y0 x1 y1 x : R) : R := ((x1 - x) * y0 + (x - x0) * y1) / (x1 - x0).
(** The line through the points [i] and [i+1] of the table. *)
Definition segment (tx ty : list R) (i : nat) (x : R) : R := through (nth i tx 0) (nth i ty 0) (nth (S i) tx 0) (nth (S i) ty 0) x.

(** The polynomial with the coefficients [c], constant term first. *)
Definition poly (c : list R) (x : R) : R := fold_right (fun a r => a + x * r) 0 c.

(** The cubic with values [y0], [y1] and slopes [d0], [d1] at [x0], [x1]. *)
Definition cubic_hermite (x0 x1 y0 y1 d0 d1 x : R) : R :=
  let h := x1 - x0 in let t := (x - x0) / h in
  (1 + 2 * t) * (1 - t) ^ 2 * y0 + t * (1 - t) ^ 2 * h * d0 + t ^ 2 * (3 - 2 * t) * y1 + t ^ 2 * (t - 1) * h * d1.
(** Slopes by differences: one-sided at the ends of the table. *)
Definition rise (tx ty : list R) (i j : nat) : R := (nth j ty 0 - nth i ty 0) / (nth j tx 0 - nth i tx 0).
Definition knot_slope (n : nat) (tx ty : list R) (i : nat) : R :=
  if (i =? 0)%nat then rise tx ty 0 1 else if (i =? n - 1)%nat then rise tx ty (n - 2) (n - 1) else rise tx ty (i - 1) (i + 1).

(** The constrained spline's slope at an inner knot: the harmonic mean of the two
    chord slopes when they have the same sign, and zero at a turning point. *)
Definition harmonic (a b : R) : R := if Rle_dec (a * b) 0 then 0 else 2 * a * b / (a + b).
Definition constrained_slope (tx ty : list R) (i : nat) : R := harmonic (rise tx ty (i - 1) i) (rise tx ty i (i + 1)).
