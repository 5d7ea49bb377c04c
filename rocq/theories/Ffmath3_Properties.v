(** Properties C84 to C87 of src/ffmath.cpp: midpoint, linear interpolation,
    normalisation and mapping, hypotenuse and circle test in binary32. *)
From Coq Require Import ZArith Reals Lra Lia Bool.
From Flocq Require Import Core IEEE754.BinarySingleNaN IEEE754.Binary IEEE754.Bits.
From Verif Require Import Base Arith Ext32 Bits32 Ffmath_Model Ffmath2_Model Ffmath_Spec Ffmath_Proofs Ffmath_Proofs2 Ffmath_Proofs3 Float32 Ffmath_Proofs4 Ffmath_Proofs7 Ffmath_Proofs8 Ffmath_Proofs9 Ffmath_Proofs10 Ffmath_Proofs11.
Open Scope R_scope.

(** ** C84: midpoint *)

(** For all finite a and b, up to the largest, the midpoint is finite, lies between
    them, and is within one rounding of (a+b)/2. *)
Theorem C84_midpoint : forall a b, finite a -> finite b ->
  finite (midpoint a b) /\
  (valR a <= valR b -> valR a <= valR (midpoint a b) <= valR b) /\ (valR b <= valR a -> valR b <= valR (midpoint a b) <= valR a) /\
  Rabs (valR (midpoint a b) - (valR a + valR b) / 2) <= bpow radix2 (-24) * Rabs (valR a + valR b) + bpow radix2 (-150).
Proof. intros a b Fa Fb. destruct (midpoint_ok a b Fa Fb) as (H1 & (H2 & H3) & H4). auto. Qed.
Print Assumptions C84_midpoint.

(** midpoint(3,4) = 3.5; midpoint(Max,Max) = Max, where a+b would overflow; the
    midpoint of the two smallest subnormals is the second. *)
Example C84_case : asU (midpoint (flit 3 1) (flit 4 1)) = 1080033280%Z /\ asU (midpoint limMax limMax) = asU limMax /\ asU (midpoint (ofU 1) (ofU 2)) = 2%Z /\
  finite limMax /\ finite (ofU 1).
Proof. vm_compute. repeat split. Qed.

(** ** C85: lerp *)

(** For all finite a, b and every t in [0,1] the result is finite, between a and b,
    and within four units in the last place of the larger of them. *)
Theorem C85_lerp : forall a b t, finite a -> finite b -> finite t -> 0 <= valR t <= 1 ->
  finite (lerp a b t) /\
  (valR a <= valR b -> valR a <= valR (lerp a b t) <= valR b) /\ (valR b <= valR a -> valR b <= valR (lerp a b t) <= valR a) /\
  Rabs (valR (lerp a b t) - (valR a + valR t * (valR b - valR a))) <= 4 * bpow radix2 (-24) * Rmax (Rabs (valR a)) (Rabs (valR b)) + bpow radix2 (-148).
Proof.
  intros a b t Fa Fb Ft Ht. destruct (lerp_cases a b t Fa Fb Ft Ht) as (H & _). destruct (lerp_btw a b t Fa Fb Ft Ht) as (H1 & H2). pose proof (lerp_err a b t Fa Fb Ft Ht). auto.
Qed.
Print Assumptions C85_lerp.

(** The ends are exact. *)
Theorem C85_lerp_ends : forall a b, finite a -> finite b -> valR (lerp a b (flit 0 1)) = valR a /\ valR (lerp a b (flit 1 1)) = valR b.
Proof. exact lerp_ends. Qed.
Print Assumptions C85_lerp_ends.

(** The result moves from a towards b, never back, as t grows. *)
Theorem C85_lerp_monotone : forall a b t t', finite a -> finite b -> finite t -> finite t' -> 0 <= valR t <= valR t' -> valR t' <= 1 ->
  (valR a <= valR b -> valR (lerp a b t) <= valR (lerp a b t')) /\ (valR b <= valR a -> valR (lerp a b t') <= valR (lerp a b t)).
Proof. exact lerp_mono. Qed.
Print Assumptions C85_lerp_monotone.

(** lerp(3,4,0.5) = 3.5, lerp(-3,4,0.5) = 0.5, lerp(3,4,2) = 5 *)
Example C85_case : asU (lerp (flit 3 1) (flit 4 1) (flit 1 2)) = 1080033280%Z /\ asU (lerp (flit (-3) 1) (flit 4 1) (flit 1 2)) = 1056964608%Z /\
  asU (lerp (flit 3 1) (flit 4 1) (flit 2 1)) = 1084227584%Z /\ finite (flit 1 2) /\ 0 <= valR (flit 1 2) <= 1.
Proof. do 4 (split; [vm_compute; reflexivity|]). vm_compute. lra. Qed.

(** ** C86: normalize and map *)

(** For x in a range whose width does not overflow, normalize gives a number of
    [0,1], exactly 0 and 1 at the ends, nondecreasing in x, to relative accuracy. *)
Theorem C86_normalize : forall x l h, finite x -> finite l -> finite h -> valR l <= valR x <= valR h -> valR l < valR h -> valR h - valR l <= valR limMax ->
  finite (normalize x l h) /\ 0 <= valR (normalize x l h) <= 1 /\
  Rabs (valR (normalize x l h) - (valR x - valR l) / (valR h - valR l)) <= 4 * bpow radix2 (-24) * ((valR x - valR l) / (valR h - valR l)) + bpow radix2 (-150).
Proof.
  intros x l h Fx Fl Fh H L B. destruct (normalize_R x l h Fx Fl Fh H L B) as (H1 & _ & H2). pose proof (normalize_err x l h Fx Fl Fh H L B). auto.
Qed.
Print Assumptions C86_normalize.

Theorem C86_normalize_ends : forall l h, finite l -> finite h -> valR l < valR h -> valR h - valR l <= valR limMax ->
  valR (normalize l l h) = 0 /\ valR (normalize h l h) = 1.
Proof. exact normalize_ends. Qed.
Print Assumptions C86_normalize_ends.

Theorem C86_normalize_monotone : forall x x' l h, finite x -> finite x' -> finite l -> finite h -> valR l <= valR x <= valR x' -> valR x' <= valR h ->
  valR l < valR h -> valR h - valR l <= valR limMax -> valR (normalize x l h) <= valR (normalize x' l h).
Proof. exact normalize_mono. Qed.
Print Assumptions C86_normalize_monotone.

(** map sends the range [xl,xh] affinely to [yl,yh], or [yh,yl], within 16 units in
    the last place of the larger end. *)
Theorem C86_map : forall x xl xh yl yh M, finite x -> finite xl -> finite xh -> finite yl -> finite yh ->
  valR xl <= valR x <= valR xh -> valR xl < valR xh -> valR xh - valR xl <= valR limMax ->
  M <= bpow radix2 126 -> Rabs (valR yl) <= M -> Rabs (valR yh) <= M ->
  finite (fmap x xl xh yl yh) /\
  Rabs (valR (fmap x xl xh yl yh) - (valR yl + (valR x - valR xl) / (valR xh - valR xl) * (valR yh - valR yl))) <= 16 * bpow radix2 (-24) * M + bpow radix2 (-149).
Proof.
  intros x xl xh yl yh M Fx Fxl Fxh Fyl Fyh H L B BM Bl Bh. split; [|apply fmap_err; auto]. apply fmap_R; auto; lra.
Qed.
Print Assumptions C86_map.

(** It is monotone, and sends the first end exactly to the first end. *)
Theorem C86_map_monotone : forall x x' xl xh yl yh, finite x -> finite x' -> finite xl -> finite xh -> finite yl -> finite yh ->
  valR xl <= valR x <= valR x' -> valR x' <= valR xh -> valR xl < valR xh -> valR xh - valR xl <= valR limMax ->
  Rabs (valR yl) <= bpow radix2 126 -> Rabs (valR yh) <= bpow radix2 126 ->
  (valR yl <= valR yh -> valR (fmap x xl xh yl yh) <= valR (fmap x' xl xh yl yh)) /\ (valR yh <= valR yl -> valR (fmap x' xl xh yl yh) <= valR (fmap x xl xh yl yh)).
Proof. exact fmap_mono. Qed.
Print Assumptions C86_map_monotone.

Theorem C86_map_first : forall xl xh yl yh, finite xl -> finite xh -> finite yl -> finite yh -> valR xl < valR xh -> valR xh - valR xl <= valR limMax ->
  Rabs (valR yl) <= bpow radix2 126 -> Rabs (valR yh) <= bpow radix2 126 -> valR (fmap xl xl xh yl yh) = valR yl.
Proof. exact fmap_first. Qed.
Print Assumptions C86_map_first.

(** The other end need not be met: map(1,0,1,2^24-1,0.1) is 0. *)
Theorem C86_map_last_refuted : exists yl yh, finite yl /\ finite yh /\ asU (fmap (flit 1 1) (flit 0 1) (flit 1 1) yl yh) <> asU yh.
Proof. exists (flit 16777215 1), (flit 1 10). vm_compute. repeat split. discriminate. Qed.
Print Assumptions C86_map_last_refuted.

(** normalize(1,0,4) = 0.25, map(1,0,4,10,20) = 12.5 *)
Example C86_case : asU (normalize (flit 1 1) (flit 0 1) (flit 4 1)) = 1048576000%Z /\ asU (fmap (flit 1 1) (flit 0 1) (flit 4 1) (flit 10 1) (flit 20 1)) = 1095237632%Z /\
  valR (flit 0 1) <= valR (flit 1 1) <= valR (flit 4 1).
Proof. split; [reflexivity|]. split; [reflexivity|]. vm_compute. lra. Qed.

(** ** C87: hypot and inCircle *)

(** For normal operands of comparable magnitude the hypotenuse is accurate. *)
Theorem C87_hypot : forall x y, is_normal x -> is_normal y -> Rabs (valR x) <= bpow radix2 127 -> Rabs (valR y) <= bpow radix2 127 ->
  bpow radix2 (-60) * Rabs (valR x) <= Rabs (valR y) -> bpow radix2 (-60) * Rabs (valR y) <= Rabs (valR x) ->
  exists r, hypot x y = Ok r /\ finite r /\
    Rabs (valR r - R_sqrt.sqrt (valR x * valR x + valR y * valR y)) <= bpow radix2 (-18) * R_sqrt.sqrt (valR x * valR x + valR y * valR y).
Proof. exact hypot_ok. Qed.
Print Assumptions C87_hypot.

(** An infinite operand gives +inf, even beside a NaN; a NaN beside a number gives NaN. *)
Theorem C87_hypot_special : forall x y,
  (is_infinity x \/ is_infinity y -> hypot x y = Ok limInf) /\
  (is_nan 24 128 x = true -> ~ is_infinity y -> hypot x y = Ok limNan) /\ (is_nan 24 128 y = true -> ~ is_infinity x -> hypot x y = Ok limNan).
Proof.
  intros x y. destruct (classify_ok x) as (_ & _ & _ & X4 & X5). destruct (classify_ok y) as (_ & _ & _ & Y4 & Y5). rewrite <- X4, <- X5, <- Y4, <- Y5.
  unfold hypot, isFinite, isInf. destruct (classify x), (classify y); intuition (try discriminate; auto).
Qed.
Print Assumptions C87_hypot_special.

(** hypot(3,0) is below 1, and so is hypot(0,3), since 0 cannot be scaled by its
    exponent field. *)
Theorem C87_hypot_refuted : exists r, hypot (flit 3 1) (flit 0 1) = Ok r /\ (r <? flit 1 1)%b32 = true.
Proof.
  assert (H : match hypot (flit 3 1) (flit 0 1) with Ok v => (v <? flit 1 1)%b32 | Ub => false end = true) by (vm_compute; reflexivity).
  destruct (hypot (flit 3 1) (flit 0 1)) as [r|]; [exists r; auto|discriminate].
Qed.
Print Assumptions C87_hypot_refuted.

(** inCircle decides x,y within r of cx,cy up to rounding of the two squares. *)
Theorem C87_inCircle : forall x y cx cy r D Q, finite x -> finite y -> finite cx -> finite cy -> finite r ->
  Rabs (valR x) <= bpow radix2 60 -> Rabs (valR y) <= bpow radix2 60 -> Rabs (valR cx) <= bpow radix2 60 -> Rabs (valR cy) <= bpow radix2 60 -> Rabs (valR r) <= bpow radix2 60 ->
  D = (valR x - valR cx) * (valR x - valR cx) + (valR y - valR cy) * (valR y - valR cy) -> Q = valR r * valR r ->
  (inCircle x y cx cy r = true -> D <= Q * (1 + 8 * bpow radix2 (-24)) + bpow radix2 (-147)) /\
  (inCircle x y cx cy r = false -> Q <= D * (1 + 8 * bpow radix2 (-24)) + bpow radix2 (-147)).
Proof. exact inCircle_ok. Qed.
Print Assumptions C87_inCircle.

(** hypot(-3,4) = 5; (3,4) is in the circle of radius 5 about 0 and not in that of radius 4.9. *)
Example C87_case : match hypot (flit (-3) 1) (flit 4 1) with Ok r => asU r = asU (flit 5 1) | Ub => False end /\
  inCircle (flit 3 1) (flit 4 1) (flit 0 1) (flit 0 1) (flit 5 1) = true /\ inCircle (flit 3 1) (flit 4 1) (flit 0 1) (flit 0 1) (flit 49 10) = false /\
  classify (flit (-3) 1) = FFP_NORMAL.
Proof. vm_compute. repeat split. Qed.
