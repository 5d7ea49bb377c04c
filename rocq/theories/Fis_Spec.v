(** Fuzzy sets and fuzzy operators, independent of the code. *)
From Coq Require Import ZArith Reals List Bool.
From Flocq Require Import IEEE754.BinarySingleNaN IEEE754.Binary IEEE754.Bits.
Import ListNotations.
Open Scope R_scope.

(** A degree. *)
Definition unit (x : R) : Prop := 0 <= x <= 1.
(** A binary32 degree: a number, neither NaN nor infinite. *)
Definition unit32 (x : binary32) : Prop := is_finite 24 128 x = true /\ unit (B2R 24 128 x).

(** A triangular norm with neutral element [e]: 1 for a conjunction, 0 for a
    disjunction. *)
Record norm (e : R) (T : R -> R -> R) : Prop := {
  norm_closed : forall a b, unit a -> unit b -> unit (T a b);
  norm_comm : forall a b, unit a -> unit b -> T a b = T b a;
  norm_assoc : forall a b c, unit a -> unit b -> unit c -> T a (T b c) = T (T a b) c;
  norm_mono : forall a b c, unit a -> unit b -> unit c -> b <= c -> T a b <= T a c;
  norm_unit : forall a, unit a -> T a e = a }.

(** ** Shapes of fuzzy sets *)

(** 0 up to [a], 1 from [b] on, a straight line between. *)
Definition ramp_up (a b x : R) : R := if Rle_dec x a then 0 else if Rle_dec b x then 1 else (x - a) / (b - a).
Definition ramp_down (a b x : R) : R := 1 - ramp_up a b x.
(** 0 up to [a], 1 from [b] on, two parabolas meeting at the middle between. *)
Definition curve_up (a b x : R) : R :=
  if Rle_dec x a then 0 else if Rle_dec b x then 1
  else if Rle_dec x ((a + b) / 2) then 2 * ((x - a) / (b - a)) ^ 2 else 1 - 2 * ((b - x) / (b - a)) ^ 2.
Definition curve_down (a b x : R) : R := 1 - curve_up a b x.

Definition triangle (a b c x : R) : R := Rmin (ramp_up a b x) (ramp_down b c x).
Definition trapezium (a b c d x : R) : R := Rmin (ramp_up a b x) (ramp_down c d x).
Definition pi_shape (a b c d x : R) : R := curve_up a b x * curve_down c d x.
Definition step_up (a x : R) : R := if Rlt_dec x a then 0 else 1.
Definition rectangle (s e x : R) : R := if Rle_dec s x then if Rle_dec x e then 1 else 0 else 0.
Definition logistic (a b x : R) : R := / (1 + exp (- (a * (x - b)))).
Definition normal (s c x : R) : R := exp (- (x - c) ^ 2 / (2 * s ^ 2)).
(** The two-sided normal: 1 between the two centres, each tail its own spread. *)
Definition normal2 (s1 c1 s2 c2 x : R) : R :=
  (if Rle_dec x c1 then normal s1 c1 x else 1) * (if Rle_dec c2 x then normal s2 c2 x else 1).
Definition concave_up (i e x : R) : R := if Rlt_dec x e then (e - i) / (2 * e - i - x) else 1.
Definition spike (w c x : R) : R := exp (- (10 * Rabs (x - c) / Rabs w)).
