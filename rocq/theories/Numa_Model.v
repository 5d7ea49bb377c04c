(** Model of the numerical state [nState]: src/numa.cpp, src/include/numa.hpp. *)
From Coq Require Import ZArith List.
From Verif Require Import Arith.
Import ListNotations.
Open Scope fl_scope.

(** numa.hpp:28-33; [IOther] stands for any other value of the enumeration. *)
Inductive imethod := IRectangular | ITrapezoidal | ISimpson | IQuadratic | IOther.
(** numa.hpp:38-42; [DOther] stands for any other value of the enumeration. *)
Inductive dmethod := D2Points | DBackward | DForward | DOther.

Section Numa.
Context {A : arith}.
Notation X := (F A).

(** numa.hpp:52-59: x[0], x[1], x[2], iMethod, dMethod. *)
Record nstate := mkN { nx0 : X; nx1 : X; nx2 : X; nim : imethod; ndm : dmethod }.

(** numa.hpp:58-59 and the constructor 70-75. *)
Definition n_make (x0 s1 s2 : X) : nstate := mkN x0 s1 s2 ITrapezoidal D2Points.

(** numa.cpp:6-13; the default arguments are zeros, numa.hpp:84-86. *)
Definition n_init (x0 s1 s2 : X) (n : nstate) : nstate := mkN x0 s1 s2 (nim n) (ndm n).
Definition n_init0 : nstate -> nstate := n_init (lit 0 1) (lit 0 1) (lit 0 1).

(** numa.hpp:53-57, update. *)
Definition n_update (s : X) (n : nstate) : nstate := mkN (nx0 n) s (nx1 n) (nim n) (ndm n).

(** The value added to x[0] by the switch in numa.cpp:19-34. *)
Definition n_increment (s dt : X) (n : nstate) : X :=
  match nim n with
  | IRectangular => s * dt
  | ITrapezoidal => lit 1 2 * (s + nx1 n) * dt
  | ISimpson => (lit 1 1 / lit 6 1) * (s + (lit 4 1 * nx1 n) + nx2 n) * dt
  | IQuadratic => (lit 1 1 / lit 12 1) * ((lit 5 1 * s) + (lit 8 1 * nx1 n) - nx2 n) * dt
  | IOther => lit 0 1
  end.

(** numa.cpp:15-40.  Returns the value of x[0] and the new object. *)
Definition n_integrate (s dt : X) (upd : bool) (n : nstate) : X * nstate :=
  let n1 := match nim n with
            | IOther => n
            | _ => mkN (nx0 n + n_increment s dt n) (nx1 n) (nx2 n) (nim n) (ndm n)
            end in
  let n2 := if upd then n_update s n1 else n1 in
  (nx0 n2, n2).

(** numa.cpp:42-66. *)
Definition n_derive (s dt : X) (upd : bool) (n : nstate) : X * nstate :=
  let ds := match ndm n with
            | D2Points => (s - nx1 n) / dt
            | DBackward => ((lit 3 1 * s) - (lit 4 1 * nx1 n) + nx2 n) / (lit 2 1 * dt)
            | DForward => ((lit 4 1 * nx1 n) - (lit 3 1 * nx2 n) - s) / (lit 2 1 * dt)
            | DOther => lit 0 1
            end in
  (ds, if upd then n_update s n else n).

(** numa.hpp:124-127, 141-144. *)
Definition n_set_imethod (m : imethod) (n : nstate) : nstate := mkN (nx0 n) (nx1 n) (nx2 n) m (ndm n).
Definition n_set_dmethod (m : dmethod) (n : nstate) : nstate := mkN (nx0 n) (nx1 n) (nx2 n) (nim n) m.

(** numa.hpp:150-153, operator(). *)
Definition n_value (n : nstate) : X := nx0 n.

(** A history of calls on one object (all public mutators). *)
Inductive ncall :=
| NInit (x0 s1 s2 : X)
| NIntegrate (s dt : X) (u : bool)
| NDerive (s dt : X) (u : bool)
| NSetI (m : imethod)
| NSetD (m : dmethod).

Definition n_do (c : ncall) (n : nstate) : nstate :=
  match c with
  | NInit x0 s1 s2 => n_init x0 s1 s2 n
  | NIntegrate s dt u => snd (n_integrate s dt u n)
  | NDerive s dt u => snd (n_derive s dt u n)
  | NSetI m => n_set_imethod m n
  | NSetD m => n_set_dmethod m n
  end.
Definition n_run (cs : list ncall) (n : nstate) : nstate := fold_left (fun n c => n_do c n) cs n.

(** Feed successive samples to integrate( s, dt ) and collect what it returns. *)
Fixpoint n_feed (dt : X) (ss : list X) (n : nstate) : list X * nstate :=
  match ss with
  | [] => ([], n)
  | s :: r => let '(y, n1) := n_integrate s dt true n in
              let '(ys, n2) := n_feed dt r n1 in (y :: ys, n2)
  end.
Fixpoint n_feedd (dt : X) (ss : list X) (n : nstate) : list X * nstate :=
  match ss with
  | [] => ([], n)
  | s :: r => let '(y, n1) := n_derive s dt true n in
              let '(ys, n2) := n_feedd dt r n1 in (y :: ys, n2)
  end.

End Numa.
Arguments nstate : clear implicits.
Arguments ncall : clear implicits.
