(** What a transfer function computes, in terms of its coefficients and of the
    input and output streams only. *)
From Coq Require Import ZArith Reals List Bool.
From Verif Require Import Base.
Import ListNotations.
Open Scope R_scope.

(** f 0 + f 1 + ... + f (n-1) *)
Fixpoint sum (n : nat) (f : nat -> R) : R :=
  match n with O => 0 | S k => sum k f + f k end.

(** The k-th sample of a stream that is 0 before its start. *)
Definition at_ (l : list R) (k : Z) : R := if (k <? 0)%Z then 0 else nth (Z.to_nat k) l 0.

(** c0 s(k) + c1 s(k-1) + c2 s(k-2) + ... *)
Definition filter (c : list R) (s : list R) (k : Z) : R :=
  sum (length c) (fun i => nth i c 0 * at_ s (k - Z.of_nat i)).

(** [ys] is the response of num(z)/den(z) to [us] from rest:
    a0 y(k) + a1 y(k-1) + ... = b0 u(k) + b1 u(k-1) + ... at every step. *)
Definition response (num den us ys : list R) : Prop :=
  length ys = length us /\
  forall k, (0 <= k < zlen us)%Z -> filter den ys k = filter num us k.

(** y limited to [lo, hi]; [lo] wins when lo > hi. *)
Definition limit (lo hi y : R) : R := if Rlt_dec y lo then lo else if Rlt_dec hi y then hi else y.

(** Dot product of the first [n] coefficients and samples. *)
Definition dot (n : nat) (c w : list R) : R := sum n (fun i => nth i c 0 * nth i w 0).

(** One step of the controllable canonical form of
    (b0 s^n + b1 s^(n-1) + ... + bn) / (s^n + a1 s^(n-1) + ... + an) :
    the derivatives of the states [x] under the input [u] ... *)
Definition derivatives (n : nat) (a : nat -> R) (u : R) (x : list R) : list R :=
  (u - sum n (fun i => a (S i) * nth i x 0)) :: firstn (n - 1) x.
(** ... and the part of the output that depends on the states; the complete
    output is [strictly_proper x + b0 u]. *)
Definition strictly_proper (n : nat) (a b : nat -> R) (x : list R) : R :=
  sum n (fun i => (b (S i) - a (S i) * b 0%nat) * nth i x 0).

(** ** Simulation of a continuous system *)
From Verif Require Import Arith Numa_Model.

(** The values held by the integrators. *)
Definition values (x : list (nstate RA)) : list R := map n_value x.

(** One time step: every state integrates its derivative, all derivatives being
    taken before the step; what comes out is read after the step. *)
Definition ccf_step (n : nat) (a b : nat -> R) (dt u : R) (x : list (nstate RA)) : list (nstate RA) * R :=
  let x' := map (fun p => snd (n_integrate (A := RA) (fst p) dt true (snd p))) (combine (derivatives n a u (values x)) x) in
  (x', strictly_proper n a b (values x')).
Fixpoint ccf_run (n : nat) (a b : nat -> R) (dt : R) (us : list R) (x : list (nstate RA)) : list R :=
  match us with
  | [] => []
  | u :: r => let '(x', y) := ccf_step n a b dt u x in y :: ccf_run n a b dt r x'
  end.
