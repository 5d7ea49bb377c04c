(** Model of the transfer-function systems: src/ltisys.cpp,
    src/include/ltisys.hpp.  The coefficient, state and delay arrays handed to
    the objects are kept inside the objects: the model assumes that they are
    pairwise distinct arrays nobody else writes to.  A null pointer is [None]. *)
From Coq Require Import ZArith List Bool.
From Verif Require Import Base Arith Numa_Model Tdl_Model.
Import ListNotations.
Open Scope Z_scope.

(** size_t arithmetic on a 64-bit target: only [n - 1U] can wrap. *)
Definition size_dec (n : Z) : Z := (n - 1) mod (2 ^ 64).

Section Lti.
Context {A : arith}.
Notation X := (F A).

(** ltisys.cpp:89-92 and 96-99: the loop of updateFIR from index [k] down to
    1; [c] is the coefficient array ([None] when it is nullptr). *)
Fixpoint fir_loop (c : option (list X)) (k : nat) (w : list X) (y : X) : res (list X * X) :=
  match k with
  | O => Ok (w, y)
  | S k' =>
      let i := Z.of_nat k in
      v <- get w (i - 1) ;;
      w' <- set w i v ;;
      t <- match c with Some c => ci <- get c i ;; Ok (v * ci)%fl | None => Ok v end ;;
      fir_loop c k' w' (y + t)%fl
  end.

(** ltisys.cpp:80-105.  Returns the shifted window and the result. *)
Definition updateFIR (w : list X) (wsize : Z) (x : X) (c : option (list X)) : res (list X * X) :=
  r <- fir_loop c (Z.to_nat (size_dec wsize)) w (lit 0 1) ;;
  y <- match c with Some c => c0 <- get c 0 ;; Ok (snd r + c0 * x)%fl | None => Ok (snd r + x)%fl end ;;
  w' <- set (fst r) 0 x ;; Ok (w', y).

(** ltisys.cpp:14-19: divide the elements [i .. i+k-1]. *)
Fixpoint div_loop (k : nat) (i : Z) (a0 : X) (l : list X) : res (list X) :=
  match k with
  | O => Ok l
  | S k' => v <- get l i ;; l' <- set l i (v / a0)%fl ;; div_loop k' (i + 1) a0 l'
  end.

(** ltisys.cpp:6-21.  Returns the two arrays and b0. *)
Definition normalizeTF (num den : list X) (n_num n_den : Z) : res (list X * list X * X) :=
  a0 <- get den 0 ;;
  num' <- div_loop (Z.to_nat n_num) 0 a0 num ;;
  den' <- div_loop (Z.to_nat n_den) 0 a0 den ;;
  b0 <- get num' 0 ;; Ok (num', den', b0).

(** ltisys.hpp:192-193 and the delay line the class inherits from tdl;
    [None] when its head is null. *)
Record lbase := mkL { l_min : X; l_max : X; l_delay : option (tdl X) }.
Definition l_blank : lbase := mkL real_min real_max None.

(** ltisys.cpp:23-35 *)
Definition saturate (b : lbase) (y : X) : X :=
  if (y <? l_min b)%fl then l_min b else if (y >? l_max b)%fl then l_max b else y.

(** ltisys.cpp:37-49; [init] is what isInitialized() returns.  [w] is the array
    of the line, [] when the pointer is null. *)
Definition setDelay (init : bool) (w : list X) (nD : Z) (v : X) (b : lbase) : res (bool * lbase) :=
  if init then t <- setup w nD v ;; Ok (true, mkL (l_min b) (l_max b) (Some t)) else Ok (false, b).

(** ltisys.cpp:51-63 *)
Definition setSaturation (init : bool) (minV maxV : X) (b : lbase) : bool * lbase :=
  if init && (maxV >? minV)%fl then (true, mkL minV maxV (l_delay b)) else (false, b).

(** ltisys.cpp:70-73: the delayed input. *)
Definition delay_input (u : X) (b : lbase) : res (X * lbase) :=
  match l_delay b with
  | None => Ok (u, b)
  | Some t => t' <- insertSample t u ;; v <- getOldest t' ;; Ok (v, mkL (l_min b) (l_max b) (Some t'))
  end.

(** ** Discrete systems *)

(** ltisys.hpp:185-191, 274: [d_num] is what b points to, [d_den] the array a
    points into (at its element 1), [d_x] is xd.  setup() sets the type and xd
    together, so [d_x = None] exactly when the type is not LTISYS_TYPE_DISCRETE. *)
Record dsys := mkD { d_num : list X; d_den : list X; d_x : option (list X); d_n : Z; d_na : Z; d_nb : Z; d_b0 : X; d_base : lbase }.
Definition d_blank : dsys := mkD [] [] None 0 0 0 (lit 0 1) l_blank.

(** ltisys.hpp:425-428 *)
Definition d_isInitialized (d : dsys) : bool := match d_x d with Some _ => true | None => false end.

(** ltisys.cpp:113-120: xd[j] = xi[j] (or 0) for j in [i .. i+k-1]. *)
Fixpoint init_loop (k : nat) (i : Z) (xi : option (list X)) (x : list X) : res (list X) :=
  match k with
  | O => Ok x
  | S k' =>
      v <- match xi with Some xi => get xi i | None => Ok (lit 0 1) end ;;
      x' <- set x i v ;; init_loop k' (i + 1) xi x'
  end.

(** ltisys.cpp:107-126 *)
Definition d_setInitStates (xi : option (list X)) (d : dsys) : res (bool * dsys) :=
  match d_x d with
  | None => Ok (false, d)
  | Some x =>
      x' <- init_loop (Z.to_nat (d_n d)) 0 xi x ;;
      Ok (true, mkD (d_num d) (d_den d) (Some x') (d_n d) (d_na d) (d_nb d) (d_b0 d) (d_base d))
  end.

(** ltisys.cpp:128-150 *)
Definition d_setup (num den x : option (list X)) (n_b n_a : Z) (d : dsys) : res (bool * dsys) :=
  match num, den, x with
  | Some num, Some den, Some x =>
      if n_b >? 0 then
        let na := size_dec n_a in
        let n := if na >? n_b then na else n_b in
        r <- normalizeTF num den n_a n_b ;;
        let '(num', den', b0) := r in
        s <- d_setInitStates None (mkD num' den' (Some x) n na n_b b0 (d_base d)) ;;
        Ok (true, snd s)
      else Ok (false, d)
  | _, _, _ => Ok (false, d)
  end.

(** ltisys.cpp:156-159: v -= a[j]*xd[j] for j in [i .. i+k-1]. *)
Fixpoint feedback_loop (k : nat) (i : Z) (den x : list X) (v : X) : res X :=
  match k with
  | O => Ok v
  | S k' => ai <- get den (i + 1) ;; xi <- get x i ;; feedback_loop k' (i + 1) den x (v - ai * xi)%fl
  end.

(** ltisys.cpp:152-161 *)
Definition d_update (u : X) (d : dsys) (x : list X) : res (list X * X) :=
  v <- feedback_loop (Z.to_nat (d_na d)) 0 (d_den d) x u ;;
  updateFIR x (d_n d) v (Some (d_num d)).

(** ltisys.cpp:65-78 with the discrete update. *)
Definition d_excite (u : X) (d : dsys) : res (X * dsys) :=
  match d_x d with
  | None => Ok (lit 0 1, d)
  | Some x =>
      i <- delay_input u (d_base d) ;;
      r <- d_update (fst i) d x ;;
      Ok (saturate (snd i) (snd r),
          mkD (d_num d) (d_den d) (Some (fst r)) (d_n d) (d_na d) (d_nb d) (d_b0 d) (snd i))
  end.

Definition d_with_base (b : lbase) (d : dsys) : dsys :=
  mkD (d_num d) (d_den d) (d_x d) (d_n d) (d_na d) (d_nb d) (d_b0 d) b.
(** ltisys.cpp:37-63 on a discrete system. *)
Definition d_setDelay (w : list X) (nD : Z) (v : X) (d : dsys) : res (bool * dsys) :=
  r <- setDelay (d_isInitialized d) w nD v (d_base d) ;; Ok (fst r, d_with_base (snd r) d).
Definition d_setSaturation (minV maxV : X) (d : dsys) : bool * dsys :=
  let r := setSaturation (d_isInitialized d) minV maxV (d_base d) in (fst r, d_with_base (snd r) d).

(** The public calls on a discrete system; the outputs of excite() are collected. *)
Inductive dcall :=
| DSetup (num den x : option (list X)) (n_b n_a : Z)
| DInit (xi : option (list X))
| DDelay (w : list X) (nD : Z) (v : X)
| DSat (minV maxV : X)
| DExcite (u : X).
Definition d_do (c : dcall) (d : dsys) : res (list X * dsys) :=
  match c with
  | DSetup num den x nb na => r <- d_setup num den x nb na d ;; Ok ([], snd r)
  | DInit xi => r <- d_setInitStates xi d ;; Ok ([], snd r)
  | DDelay w nD v => r <- d_setDelay w nD v d ;; Ok ([], snd r)
  | DSat lo hi => Ok ([], snd (d_setSaturation lo hi d))
  | DExcite u => r <- d_excite u d ;; Ok ([fst r], snd r)
  end.
Fixpoint d_run (cs : list dcall) (d : dsys) : res (list X * dsys) :=
  match cs with
  | [] => Ok ([], d)
  | c :: r => a <- d_do c d ;; b <- d_run r (snd a) ;; Ok (fst a ++ fst b, snd b)
  end.

(** Feed an input stream to excite() and collect the outputs. *)
Fixpoint d_stream (us : list X) (d : dsys) : res (list X * dsys) :=
  match us with
  | [] => Ok ([], d)
  | u :: r => a <- d_excite u d ;; b <- d_stream r (snd a) ;; Ok (fst a :: fst b, snd b)
  end.

(** ** Continuous systems *)

(** ltisys.hpp:185-191, 469-470: [c_num], [c_den] are the arrays b and a point
    into (at their elements 1); [c_x] is xc. *)
Record csys := mkC { c_num : list X; c_den : list X; c_x : option (list (nstate A)); c_n : Z; c_dt : X; c_b0 : X; c_base : lbase }.
Definition c_blank : csys := mkC [] [] None 0 (lit 1 1) (lit 0 1) l_blank.

(** ltisys.hpp:625-628 *)
Definition c_isInitialized (c : csys) : bool := match c_x c with Some _ => true | None => false end.

(** ltisys.cpp:193-203: xc[j].init( xi[0], xi[0], xi[0] ) or xc[j].init(). *)
Fixpoint cinit_loop (k : nat) (i : Z) (xi : option (list X)) (x : list (nstate A)) : res (list (nstate A)) :=
  match k with
  | O => Ok x
  | S k' =>
      s <- get x i ;;
      v <- match xi with Some xi => get xi 0 | None => Ok (lit 0 1) end ;;
      x' <- set x i (n_init v v v s) ;; cinit_loop k' (i + 1) xi x'
  end.

(** ltisys.cpp:188-208 *)
Definition c_setInitStates (xi : option (list X)) (c : csys) : res (bool * csys) :=
  match c_x c with
  | None => Ok (false, c)
  | Some x =>
      x' <- cinit_loop (Z.to_nat (c_n c)) 0 xi x ;;
      Ok (true, mkC (c_num c) (c_den c) (Some x') (c_n c) (c_dt c) (c_b0 c) (c_base c))
  end.

(** ltisys.cpp:163-186 *)
Definition c_setup (num den : option (list X)) (x : option (list (nstate A))) (nD : Z) (dT : X) (c : csys) : res (bool * csys) :=
  match num, den, x with
  | Some num, Some den, Some x =>
      if nD >=? 1 then
        r <- normalizeTF num den (nD + 1) (nD + 1) ;;
        let '(num', den', b0) := r in
        s <- c_setInitStates None (mkC num' den' (Some x) nD dT b0 (c_base c)) ;;
        Ok (true, snd s)
      else Ok (false, c)
  | _, _, _ => Ok (false, c)
  end.

(** ltisys.cpp:221-227: the loop from state [k] down to state 1. *)
Fixpoint c_loop (num den : list X) (b0 dt : X) (k : nat) (x : list (nstate A)) (dx0 y : X) : res (list (nstate A) * X * X) :=
  match k with
  | O => Ok (x, dx0, y)
  | S k' =>
      let i := Z.of_nat k in
      xi <- get x i ;;
      ai <- get den (i + 1) ;;
      xp <- get x (i - 1) ;;
      let xi' := snd (n_integrate (n_value xp) dt true xi) in
      x' <- set x i xi' ;;
      bi <- get num (i + 1) ;;
      c_loop num den b0 dt k' x' (dx0 + ai * n_value xi)%fl (y + (bi - ai * b0) * n_value xi')%fl
  end.

(** ltisys.cpp:210-237, the controllable form.  (The observable form, lines
    240-265, cannot be selected: ltisys.hpp:24-26 defines the macro of the
    controllable form whenever at most one of the two is defined, and the
    controllable branch of the #if comes first.) *)
Definition c_update (u : X) (c : csys) (x : list (nstate A)) : res (list (nstate A) * X) :=
  r <- (if c_n c =? 1 then
          x0 <- get x 0 ;; a0 <- get (c_den c) 1 ;;
          Ok (x, (u - n_value x0 * a0)%fl, lit 0 1)
        else
          q <- c_loop (c_num c) (c_den c) (c_b0 c) (c_dt c) (Z.to_nat (size_dec (c_n c))) x (lit 0 1) (lit 0 1) ;;
          let '(x1, dx0, y) := q in
          x0 <- get x1 0 ;; a0 <- get (c_den c) 1 ;;
          Ok (x1, (u - (dx0 + a0 * n_value x0))%fl, y)) ;;
  let '(x1, dx0, y) := r in
  x0 <- get x1 0 ;;
  let x0' := snd (n_integrate dx0 (c_dt c) true x0) in
  x2 <- set x1 0 x0' ;;
  b <- get (c_num c) 1 ;; a0 <- get (c_den c) 1 ;;
  Ok (x2, (y + (b - a0 * c_b0 c) * n_value x0')%fl).

(** ltisys.cpp:65-78 with the continuous update. *)
Definition c_excite (u : X) (c : csys) : res (X * csys) :=
  match c_x c with
  | None => Ok (lit 0 1, c)
  | Some x =>
      i <- delay_input u (c_base c) ;;
      r <- c_update (fst i) c x ;;
      Ok (saturate (snd i) (snd r),
          mkC (c_num c) (c_den c) (Some (fst r)) (c_n c) (c_dt c) (c_b0 c) (snd i))
  end.

(** ltisys.cpp:276-278: xc[j].setIntegrationMethod( m ). *)
Fixpoint method_loop (k : nat) (i : Z) (m : imethod) (x : list (nstate A)) : res (list (nstate A)) :=
  match k with
  | O => Ok x
  | S k' => s <- get x i ;; x' <- set x i (n_set_imethod m s) ;; method_loop k' (i + 1) m x'
  end.

(** ltisys.cpp:269-284 *)
Definition c_setIntegrationMethod (m : imethod) (c : csys) : res (bool * csys) :=
  match c_x c, m with
  | None, _ => Ok (false, c)
  | Some x, (IRectangular | ITrapezoidal | ISimpson) =>
      x' <- method_loop (Z.to_nat (c_n c)) 0 m x ;;
      Ok (true, mkC (c_num c) (c_den c) (Some x') (c_n c) (c_dt c) (c_b0 c) (c_base c))
  | _, _ => Ok (false, c)
  end.

Definition c_with_base (b : lbase) (c : csys) : csys :=
  mkC (c_num c) (c_den c) (c_x c) (c_n c) (c_dt c) (c_b0 c) b.
(** ltisys.cpp:37-63 on a continuous system. *)
Definition c_setDelay (w : list X) (nD : Z) (v : X) (c : csys) : res (bool * csys) :=
  r <- setDelay (c_isInitialized c) w nD v (c_base c) ;; Ok (fst r, c_with_base (snd r) c).
Definition c_setSaturation (minV maxV : X) (c : csys) : bool * csys :=
  let r := setSaturation (c_isInitialized c) minV maxV (c_base c) in (fst r, c_with_base (snd r) c).

(** The public calls on a continuous system. *)
Inductive ccall :=
| CSetup (num den : option (list X)) (x : option (list (nstate A))) (nD : Z) (dT : X)
| CInit (xi : option (list X))
| CDelay (w : list X) (nD : Z) (v : X)
| CSat (minV maxV : X)
| CMethod (m : imethod)
| CExcite (u : X).
Definition c_do (k : ccall) (c : csys) : res (list X * csys) :=
  match k with
  | CSetup num den x nD dT => r <- c_setup num den x nD dT c ;; Ok ([], snd r)
  | CInit xi => r <- c_setInitStates xi c ;; Ok ([], snd r)
  | CDelay w nD v => r <- c_setDelay w nD v c ;; Ok ([], snd r)
  | CSat lo hi => Ok ([], snd (c_setSaturation lo hi c))
  | CMethod m => r <- c_setIntegrationMethod m c ;; Ok ([], snd r)
  | CExcite u => r <- c_excite u c ;; Ok ([fst r], snd r)
  end.
Fixpoint c_run (ks : list ccall) (c : csys) : res (list X * csys) :=
  match ks with
  | [] => Ok ([], c)
  | k :: r => a <- c_do k c ;; b <- c_run r (snd a) ;; Ok (fst a ++ fst b, snd b)
  end.

(** Feed an input stream to excite() and collect the outputs. *)
Fixpoint c_stream (us : list X) (c : csys) : res (list X * csys) :=
  match us with
  | [] => Ok ([], c)
  | u :: r => a <- c_excite u c ;; b <- c_stream r (snd a) ;; Ok (fst a :: fst b, snd b)
  end.

End Lti.
Arguments lbase : clear implicits.
Arguments dsys : clear implicits.
Arguments csys : clear implicits.
Arguments dcall : clear implicits.
Arguments ccall : clear implicits.
