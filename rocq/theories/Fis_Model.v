(** The fuzzy inference engine: src/fis.cpp, src/include/fis.hpp (class
    instance).  class system only forwards to an instance over its own arrays
    (fis.hpp:892-1210).

    Arrays are lists: an access outside them is undefined behaviour.  The
    pointers xInput, xOutput, inMF, outMF and xRules are null exactly until the
    first accepted setup() ([c_ready]).  rules and tag are int8_t. *)
From Coq Require Import ZArith List Bool.
From Verif Require Import Base Arith Interp1_Model FisCore_Model.
Import ListNotations.
Open Scope Z_scope.

(** Conversion to int8_t. *)
Definition s8 (x : Z) : Z := (x + 128) mod 256 - 128.

(** fis.hpp:377-395 *)
Definition RULES_BEGIN : Z := -128.
Definition RULES_END : Z := -127.
Definition R_AND : Z := -126.
Definition R_OR : Z := -125.
Definition R_THEN : Z := -124.

(** fis.hpp:86-92 and 108-112 *)
Inductive oper := FIS_MIN | FIS_PROD | FIS_MAX | FIS_PROBOR | FIS_SUM.
Inductive parameter := FIS_Implication | FIS_Aggregation | FIS_AND | FIS_OR | FIS_EvalPoints.
Inductive fistype := Mamdani | Sugeno | Tsukamoto.

(** The numbers of the enumerators. *)
Definition oper_code (x : oper) : Z := match x with FIS_MIN => 0 | FIS_PROD => 1 | FIS_MAX => 2 | FIS_PROBOR => 3 | FIS_SUM => 4 end.
Definition method_code (m : method) : Z :=
  match m with centroid => 0 | bisector => 1 | mom => 2 | lom => 3 | som => 4 | wtaver => 5 | wtsum => 6 end.

(** nPoints, fis.hpp (class instance); never changed. *)
Definition nPoints : Z := 100.

Section Fis.
Context {A : arith}.
Notation X := (F A).

(** fis.cpp:11-13 *)
Definition apply_op (o : oper) : X -> X -> X :=
  match o with FIS_MIN => Min | FIS_PROD => Prod | FIS_MAX => Max | FIS_PROBOR => ProbOr | FIS_SUM => Sum end.

(** What the inference only reads. *)
Record config := mkConfig {
  c_ready : bool; c_type : fistype; c_nIn : Z; c_nOut : Z; c_nMFIn : Z; c_nMFOut : Z;
  c_rules : list Z; c_nRules : Z; c_and : oper; c_or : oper; c_impl : oper; c_aggr : oper;
  c_defuzz : method; c_weights : option (list X); c_last : Z }.
(** inferenceState, aggregationState, rStrength and lastConnector are set anew
    before every use and are the loop states below; ruleCount is not. *)
Record fis := mkFis { f_cfg : config; f_in : list (io A); f_out : list (out A);
  f_inMF : list (mf A); f_outMF : list (mf A); f_wi : option (list X); f_count : Z }.

Definition config_new : config :=
  mkConfig false Mamdani 0 0 0 0 [] 0 FIS_MIN FIS_MAX FIS_MIN FIS_MAX centroid None (-1).
Definition fis_new : fis := mkFis config_new [] [] [] [] None 0.

Definition with_ops (c : config) (andOp orOp impl aggr : oper) : config :=
  mkConfig (c_ready c) (c_type c) (c_nIn c) (c_nOut c) (c_nMFIn c) (c_nMFOut c) (c_rules c) (c_nRules c)
    andOp orOp impl aggr (c_defuzz c) (c_weights c) (c_last c).
Definition with_defuzz (c : config) (m : method) : config :=
  mkConfig (c_ready c) (c_type c) (c_nIn c) (c_nOut c) (c_nMFIn c) (c_nMFOut c) (c_rules c) (c_nRules c)
    (c_and c) (c_or c) (c_impl c) (c_aggr c) m (c_weights c) (c_last c).
Definition with_weights (c : config) (w : option (list X)) : config :=
  mkConfig (c_ready c) (c_type c) (c_nIn c) (c_nOut c) (c_nMFIn c) (c_nMFOut c) (c_rules c) (c_nRules c)
    (c_and c) (c_or c) (c_impl c) (c_aggr c) (c_defuzz c) w (c_last c).
Definition with_last (c : config) (t : Z) : config :=
  mkConfig (c_ready c) (c_type c) (c_nIn c) (c_nOut c) (c_nMFIn c) (c_nMFOut c) (c_rules c) (c_nRules c)
    (c_and c) (c_or c) (c_impl c) (c_aggr c) (c_defuzz c) (c_weights c) t.
Definition with_cfg (f : fis) (c : config) : fis := mkFis c (f_in f) (f_out f) (f_inMF f) (f_outMF f) (f_wi f) (f_count f).
Definition with_in (f : fis) (l : list (io A)) : fis := mkFis (f_cfg f) l (f_out f) (f_inMF f) (f_outMF f) (f_wi f) (f_count f).
Definition with_out (f : fis) (l : list (out A)) : fis := mkFis (f_cfg f) (f_in f) l (f_inMF f) (f_outMF f) (f_wi f) (f_count f).
Definition with_inMF (f : fis) (l : list (mf A)) : fis := mkFis (f_cfg f) (f_in f) (f_out f) l (f_outMF f) (f_wi f) (f_count f).
Definition with_outMF (f : fis) (l : list (mf A)) : fis := mkFis (f_cfg f) (f_in f) (f_out f) (f_inMF f) l (f_wi f) (f_count f).

(** fis.cpp:7-44 *)
Definition setParameter (p : parameter) (x : oper) (f : fis) : bool * fis :=
  let c := f_cfg f in
  match p with
  | FIS_Aggregation =>
      if (oper_code x >=? oper_code FIS_MAX) && (oper_code x <=? oper_code FIS_SUM)
      then (true, with_cfg f (with_ops c (c_and c) (c_or c) (c_impl c) x)) else (false, f)
  | FIS_Implication =>
      if oper_code x <=? oper_code FIS_PROBOR
      then (true, with_cfg f (with_ops c (c_and c) (c_or c) x (c_aggr c))) else (false, f)
  | FIS_AND =>
      if oper_code x <=? oper_code FIS_PROD
      then (true, with_cfg f (with_ops c x (c_or c) (c_impl c) (c_aggr c))) else (false, f)
  | FIS_OR =>
      if (oper_code x >=? oper_code FIS_MAX) && (oper_code x <=? oper_code FIS_PROBOR)
      then (true, with_cfg f (with_ops c (c_and c) x (c_impl c) (c_aggr c))) else (false, f)
  | FIS_EvalPoints => (false, f)
  end.

(** fis.cpp:46-69 *)
Definition setDeFuzzMethod (m : method) (f : fis) : bool * fis :=
  let ok := match c_type (f_cfg f) with
    | Mamdani => method_code m <=? method_code som
    | Sugeno => (method_code m >=? method_code wtaver) && (method_code m <=? method_code wtsum)
    | Tsukamoto => method_code m =? method_code wtaver
    end in
  if ok then (true, with_cfg f (with_defuzz (f_cfg f) m)) else (false, f).

(** Apply [g] to the first [n] elements: the loops "for ( i = 0 ; i < n ; ++i )"
    over an array whose iterations are independent. *)
Fixpoint mapn {B} (n : nat) (g : B -> res B) (l : list B) : res (list B) :=
  match n with
  | O => Ok l
  | S n' => match l with [] => Ub | x :: t => y <- g x ;; t' <- mapn n' g t ;; Ok (y :: t') end
  end.

(** fis.cpp:71-117; None is a null pointer.  The test t <= Tsukamoto holds for
    every enumerator. *)
Definition fis_setup (t : fistype) (inputs : option (list (io A))) (ni : Z) (outputs : option (list (out A))) (no : Z)
    (mf_inputs : option (list (mf A))) (nmi : Z) (mf_outputs : option (list (mf A))) (nmo : Z)
    (r : option (list Z)) (n : Z) (rWeights : option (list X)) (f : fis) : res (bool * fis) :=
  match inputs, outputs, mf_inputs, mf_outputs, r with
  | Some li, Some lo, Some lmi, Some lmo, Some lr =>
      if (ni >? 0) && (no >? 0) && (nmi >? 0) && (nmo >? 0) && (n >? 0) then
        lo' <- mapn (Z.to_nat no) (fun o => Ok (mkOut (o_min o) (o_max o) (o_value o) (o_res o) (o_x o) (o_y o)
                                               (o_v0 o) (o_v1 o) (o_v2 o) (o_v3 o) (o_ag o) true)) lo ;;
        let c := f_cfg f in
        Ok (true, mkFis (mkConfig true t ni no nmi nmo lr n FIS_MIN FIS_MAX FIS_MIN FIS_MAX
                           (match t with Mamdani => centroid | _ => wtaver end) (c_weights c) (c_last c))
                        li lo' lmi lmo rWeights (f_count f))
      else Ok (false, f)
  | _, _, _, _, _ => Ok (false, f)
  end.

(** fis.cpp:119-134 *)
Definition setupInput (t : Z) (mn mx : X) (f : fis) : res (bool * fis) :=
  if c_ready (f_cfg f) && (t >=? 0) then
    i <- get (f_in f) t ;; l <- set (f_in f) t (mkIO mn mx (io_value i)) ;; Ok (true, with_in f l)
  else Ok (false, f).
(** fis.cpp:136-153 *)
Definition setupOutput (t : Z) (mn mx : X) (f : fis) : res (bool * fis) :=
  if c_ready (f_cfg f) && (t >=? 0) then
    o <- get (f_out f) t ;;
    l <- set (f_out f) t (mkOut mn mx (o_value o) ((mx - mn) / lit nPoints 1)%fl (o_x o) (o_y o)
                                (o_v0 o) (o_v1 o) (o_v2 o) (o_v3 o) (o_ag o) (o_owned o)) ;;
    Ok (true, with_out f l)
  else Ok (false, f).
(** fis.cpp:155-168 *)
Definition storeAggregatedRegion (xData yData : option (list X)) (n : Z) (o : out A) : bool * out A :=
  if o_owned o then
    match xData, yData with
    | Some x, Some y => if n >=? nPoints then (true, out_ag o (Some (x, y))) else (false, o)
    | _, _ => (false, o)
    end
  else (false, o).
(** fis.cpp:170-183 *)
Definition setInput (t : Z) (value : X) (f : fis) : res (bool * fis) :=
  if c_ready (f_cfg f) && (t >=? 0) then
    i <- get (f_in f) t ;; l <- set (f_in f) t (mkIO (io_min i) (io_max i) value) ;; Ok (true, with_in f l)
  else Ok (false, f).
(** fis.cpp:185-198; [None]: value is left unchanged. *)
Definition getOutput (t : Z) (f : fis) : res (option X) :=
  if c_ready (f_cfg f) && (t >=? 0) then o <- get (f_out f) t ;; Ok (Some (o_value o)) else Ok None.

(** fis.cpp:200-232 *)
Definition setMF (l : list (mf A)) (tio tmf s : Z) (customMf : option (mfFunction A)) (cp : list X) (h : X) : res (bool * list (mf A)) :=
  if (tio >=? 0) && (tmf >=? 0) && (s <? 28) then
    sh <- match customMf with Some g => Ok g | None => get fShape s end ;;
    l' <- set l tmf (mkMF (Some sh) cp (lit 0 1) (bound01 h) tio) ;;
    Ok (true, l')
  else Ok (false, l).
(** fis.hpp:659-690: a null inMF has nMFInputs = 0. *)
Definition setupInputMF (tio tmf s : Z) (customMf : option (mfFunction A)) (cp : list X) (h : X) (f : fis) : res (bool * fis) :=
  if c_ready (f_cfg f) && (c_nMFIn (f_cfg f) >? 0) then
    p <- setMF (f_inMF f) tio tmf s customMf cp h ;; Ok (fst p, with_inMF f (snd p))
  else Ok (false, f).
(** fis.hpp:710-741 *)
Definition setupOutputMF (tio tmf s : Z) (customMf : option (mfFunction A)) (cp : list X) (h : X) (f : fis) : res (bool * fis) :=
  if c_ready (f_cfg f) && (c_nMFOut (f_cfg f) >? 0) then
    p <- setMF (f_outMF f) tio tmf s customMf cp (match c_type (f_cfg f) with Mamdani => h | _ => lit 1 1 end) ;;
    Ok (fst p, with_outMF f (snd p))
  else Ok (false, f).

(** fis.cpp:467-476 *)
Definition setRuleWeights (w : option (list X)) (f : fis) : bool * fis :=
  match w with Some l => (true, with_cfg f (with_weights (f_cfg f) (Some l))) | None => (false, f) end.

(** fis.hpp:833-838; a negative tag converts to a huge size_t. *)
Definition at_output (t : Z) (f : fis) : res X :=
  if (0 <=? t) && (t <? c_nOut (f_cfg f)) then o <- get (f_out f) t ;; Ok (o_value o)
  else i <- get (f_in f) (c_nOut (f_cfg f) - 1) ;; Ok (io_value i).
(** fis.hpp:845-850 *)
Definition stream_tag (t : Z) (f : fis) : fis :=
  if (0 <=? t) && (t <? c_nIn (f_cfg f)) then with_cfg f (with_last (f_cfg f) t) else f.
(** fis.hpp:857-875 *)
Definition stream_value (v : X) (f : fis) : res fis :=
  let t := c_last (f_cfg f) in
  if t >=? 0 then
    i <- get (f_in f) t ;; l <- set (f_in f) t (mkIO (io_min i) (io_max i) v) ;; Ok (with_in f l)
  else Ok f.

(** fis.cpp:234-252 *)
Definition fuzzify (f : fis) : res (bool * fis) :=
  if c_ready (f_cfg f) then
    li <- mapn (Z.to_nat (c_nIn (f_cfg f))) (fun i => Ok (mkIO (io_min i) (io_max i) (bound (io_value i) (io_min i) (io_max i)))) (f_in f) ;;
    lm <- mapn (Z.to_nat (c_nMFIn (f_cfg f))) (fun m =>
            p <- membership m (skipn (Z.to_nat (mf_index m)) li) 1 ;; Ok (snd p)) (f_inMF f) ;;
    Ok (true, with_inMF (with_in f li) lm)
  else Ok (false, f).

(** fis.cpp:254-269 *)
Definition parseFuzzValue (l : list (mf A)) (index : Z) : res X :=
  let neg := index <? 0 in
  let index := if neg then s8 (- index) else index in
  m <- get l (index - 1) ;;
  let y := bound01 (mf_fx m) in
  Ok (if neg then (lit 1 1 - y)%fl else y).
(** fis.cpp:271-288 *)
Definition getFuzzOperator (c : config) (lastConnector : Z) : X -> X -> X :=
  if lastConnector =? R_AND then apply_op (c_and c)
  else if lastConnector =? R_OR then apply_op (c_or c)
  else Sum.

(** The state of the loop of inference(): which function runs next, rStrength,
    lastConnector, wi and ruleCount. *)
Record istate := mkI { i_i : Z; i_ante : bool; i_str : X; i_conn : Z; i_wi : option (list X); i_count : Z }.

(** fis.cpp:290-322; index 0 is INFERENCE_ERROR. *)
Definition inferenceAntecedent (f : fis) (t : istate) : res istate :=
  let r := c_rules (f_cfg f) in
  let i := i_i t in
  inIndex <- get r i ;; MFInIndex <- get r (i + 1) ;; connector <- get r (i + 2) ;;
  y <- parseFuzzValue (f_inMF f) MFInIndex ;;
  let s := getFuzzOperator (f_cfg f) (i_conn t) (i_str t) y in
  if (inIndex <? 0) || (inIndex >? c_nIn (f_cfg f)) then Ok (mkI 0 (i_ante t) s (i_conn t) (i_wi t) (i_count t))
  else if (connector =? R_AND) || (connector =? R_OR) then Ok (mkI (i + 2) true s connector (i_wi t) (i_count t))
  else if connector =? R_THEN then Ok (mkI (i + 2) false s (i_conn t) (i_wi t) (i_count t))
  else Ok (mkI 0 (i_ante t) s (i_conn t) (i_wi t) (i_count t)).
(** fis.cpp:324-344; a null wi is written through. *)
Definition inferenceReachEnd (f : fis) (t : istate) : res istate :=
  let r := c_rules (f_cfg f) in
  let i := i_i t in
  connector <- (if c_nOut (f_cfg f) >? 1 then get r (i + 2) else Ok (-1)) ;;
  if connector =? R_AND then Ok (mkI (i + 2) (i_ante t) (i_str t) (i_conn t) (i_wi t) (i_count t))
  else
    match i_wi t with
    | None => Ub
    | Some w =>
        s <- match c_weights (f_cfg f) with
             | None => Ok (i_str t)
             | Some rw => v <- get rw (i_count t) ;; Ok (i_str t * bound01 v)%fl
             end ;;
        w' <- set w (i_count t) s ;;
        Ok (mkI (i + 1) true (lit 0 1) (-1) (Some w') (i_count t + 1))
    end.
(** fis.cpp:490-497: the loop, at most [k] more iterations; [None] when they
    do not suffice. *)
Fixpoint inference_loop (k : nat) (f : fis) (t : istate) : res (option istate) :=
  match k with
  | O => Ok None
  | S k' =>
      c <- get (c_rules (f_cfg f)) (i_i t) ;;
      if negb (c =? RULES_END) && (i_count t <? c_nRules (f_cfg f)) then
        t' <- (if i_ante t then inferenceAntecedent f t else inferenceReachEnd f t) ;;
        if i_i t' =? 0 then Ok (Some t')
        else inference_loop k' f (mkI (i_i t' + 1) (i_ante t') (i_str t') (i_conn t') (i_wi t') (i_count t'))
      else Ok (Some t)
  end.
(** fis.cpp:478-505.  The loop never needs more iterations than there are rule
    cells (C62_terminates), so the [None] below is never met. *)
Definition inference (f : fis) : res (bool * fis) :=
  if c_ready (f_cfg f) then
    let r := c_rules (f_cfg f) in
    c0 <- get r 0 ;;
    t <- (if c0 =? RULES_BEGIN then inference_loop (S (length r)) f (mkI 1 true (lit 0 1) (-1) (f_wi f) 0)
          else Ok (Some (mkI 0 true (lit 0 1) (-1) (f_wi f) (f_count f)))) ;;
    match t with
    | None => Ub
    | Some t =>
        c <- get r (i_i t) ;;
        Ok ((c =? RULES_END) && (i_count t =? c_nRules (f_cfg f)),
            mkFis (f_cfg f) (f_in f) (f_out f) (f_inMF f) (f_outMF f) (i_wi t) (i_count t))
    end
  else Ok (false, f).

(** The state of the loop of fuzzyAggregate(). *)
Record astate := mkA { a_i : Z; a_find : bool; a_count : Z; a_out : list (out A); a_outMF : list (mf A) }.

(** fis.cpp:346-353: the position of the next THEN, at most [k] cells ahead. *)
Fixpoint find_then (k : nat) (r : list Z) (i : Z) : res Z :=
  match k with
  | O => Ub
  | S k' => c <- get r i ;; if c =? R_THEN then Ok i else find_then k' r (i + 1)
  end.
Definition aggregationFindConsequent (f : fis) (t : astate) : res astate :=
  let r := c_rules (f_cfg f) in
  i <- find_then (S (length r)) r (a_i t) ;;
  Ok (mkA i false (a_count t) (a_out t) (a_outMF t)).

(** fis.cpp:370-391: the effect of one consequent of a rule of strength [w]. *)
Definition consequent (f : fis) (w : X) (outIndex MFOutIndex : Z) (lo : list (out A)) (lm : list (mf A)) :
    res (list (out A) * list (mf A)) :=
  let neg := MFOutIndex <? 0 in
  let MFOutIndex := s8 ((if neg then s8 (- MFOutIndex) else MFOutIndex) - 1) in
  if (w >? lit 0 1)%fl then
    o <- get lo outIndex ;;
    m <- get lm MFOutIndex ;;
    match c_type (f_cfg f) with
    | Mamdani =>
        p <- membership m [out_io o] 1 ;;
        let v := if neg then (lit 1 1 - fst p)%fl else fst p in
        let o' := out_xy o (o_x o) (apply_op (c_aggr (f_cfg f)) (o_y o) (apply_op (c_impl (f_cfg f)) w v)) in
        lo' <- set lo outIndex o' ;; lm' <- set lm MFOutIndex (snd p) ;; Ok (lo', lm')
    | _ =>
        p <- membership m (f_in f) (c_nIn (f_cfg f)) ;;
        let o' := out_v o (o_v0 o + fst p * w)%fl (o_v1 o + w)%fl (o_v2 o) (o_v3 o) in
        lo' <- set lo outIndex o' ;; lm' <- set lm MFOutIndex (snd p) ;; Ok (lo', lm')
    end
  else Ok (lo, lm).
(** fis.cpp:355-399 *)
Definition inferenceConsequent (f : fis) (t : astate) : res astate :=
  let r := c_rules (f_cfg f) in
  let i := a_i t in
  outIndex <- get r i ;; MFOutIndex <- get r (i + 1) ;;
  connector <- (if c_nOut (f_cfg f) >? 1 then get r (i + 2) else Ok (-1)) ;;
  match f_wi f with
  | None => Ub
  | Some wi =>
      w <- get wi (a_count t) ;;
      p <- consequent f w outIndex MFOutIndex (a_out t) (a_outMF t) ;;
      if connector =? R_AND then Ok (mkA (i + 2) (a_find t) (a_count t) (fst p) (snd p))
      else Ok (mkA (i + 1) true (a_count t + 1) (fst p) (snd p))
  end.
(** fis.cpp:408-414; an index never is INFERENCE_ERROR here. *)
Fixpoint aggregate_loop (k : nat) (f : fis) (t : astate) : res (option astate) :=
  match k with
  | O => Ok None
  | S k' =>
      c <- get (c_rules (f_cfg f)) (a_i t) ;;
      if negb (c =? RULES_END) && (a_count t <? c_nRules (f_cfg f)) then
        t' <- (if a_find t then aggregationFindConsequent f t else inferenceConsequent f t) ;;
        aggregate_loop k' f (mkA (a_i t' + 1) (a_find t') (a_count t') (a_out t') (a_outMF t'))
      else Ok (Some t)
  end.
(** fis.cpp:401-416; as in [inference] the bound is never reached. *)
Definition fuzzyAggregate (f : fis) : res fis :=
  let r := c_rules (f_cfg f) in
  c0 <- get r 0 ;;
  if c0 =? RULES_BEGIN then
    t <- aggregate_loop (S (length r)) f (mkA 1 true 0 (f_out f) (f_outMF f)) ;;
    match t with
    | None => Ub
    | Some t => Ok (mkFis (f_cfg f) (f_in f) (a_out t) (f_inMF f) (a_outMF t) (f_wi f) (a_count t))
    end
  else Ok f.

(** fisCore.cpp:572-582: the search of the bisector of output [j], from point
    [k], [n] points left. *)
Fixpoint bisect (n : nat) (k j : Z) (f : fis) : res fis :=
  match n with
  | O => Ok f
  | S n' =>
      o <- get (f_out f) j ;;
      lo <- set (f_out f) j (out_value (out_xy o (nextX o k) (lit 0 1)) (nextX o k)) ;;
      f1 <- fuzzyAggregate (with_out f lo) ;;
      o1 <- get (f_out f1) j ;;
      let o2 := out_v o1 (o_v0 o1) (o_v1 o1) (o_v2 o1) (o_v3 o1 + o_y o1)%fl in
      lo2 <- set (f_out f1) j o2 ;;
      if (o_v3 o2 >=? o_v2 o2)%fl then Ok (with_out f1 lo2) else bisect n' (k + 1) j (with_out f1 lo2)
  end.
(** The stage FIS_DEFUZZ_END for output [j]: fisCore.cpp:568-584 and
    [deFuzz_end]. *)
Definition deFuzz_END (j : Z) (f : fis) : res (X * fis) :=
  o <- get (f_out f) j ;;
  match c_defuzz (f_cfg f) with
  | bisector =>
      lo <- set (f_out f) j (out_v o (o_v0 o) (o_v1 o) (lit 1 2 * o_v1 o)%fl (lit 0 1)) ;;
      f1 <- bisect (Z.to_nat nPoints) 0 j (with_out f lo) ;;
      o1 <- get (f_out f1) j ;;
      Ok (o_x o1, f1)
  | m => Ok (deFuzz_end m o, f)
  end.

(** fis.cpp:432-436 *)
Definition point_init (k : Z) (o : out A) : out A := out_value (out_xy o (nextX o k) (lit 0 1)) (nextX o k).
(** fis.cpp:438-444 *)
Definition point_end (m : method) (k : Z) (o : out A) : res (out A) :=
  let o := deFuzz_compute m o in
  match o_ag o with
  | None => Ok o
  | Some (xs, ys) => xs' <- set xs k (o_x o) ;; ys' <- set ys k (o_y o) ;; Ok (out_ag o (Some (xs', ys')))
  end.
(** fis.cpp:431-446, from point [k]. *)
Fixpoint points_loop (n : nat) (k : Z) (f : fis) : res fis :=
  match n with
  | O => Ok f
  | S n' =>
      let no := Z.to_nat (c_nOut (f_cfg f)) in
      lo <- mapn no (fun o => Ok (point_init k o)) (f_out f) ;;
      f1 <- fuzzyAggregate (with_out f lo) ;;
      lo1 <- mapn no (point_end (c_defuzz (f_cfg f)) k) (f_out f1) ;;
      points_loop n' (k + 1) (with_out f1 lo1)
  end.
(** fis.cpp:457-460, from output [j]. *)
Fixpoint finish_loop (n : nat) (j : Z) (f : fis) : res fis :=
  match n with
  | O => Ok f
  | S n' =>
      p <- deFuzz_END j f ;;
      o <- get (f_out (snd p)) j ;;
      lo <- set (f_out (snd p)) j (out_value o (bound (fst p) (o_min o) (o_max o))) ;;
      finish_loop n' (j + 1) (with_out (snd p) lo)
  end.
(** fis.cpp:418-465 *)
Definition deFuzzify (f : fis) : res (bool * fis) :=
  if c_ready (f_cfg f) then
    let no := Z.to_nat (c_nOut (f_cfg f)) in
    let m := c_defuzz (f_cfg f) in
    lo <- mapn no (fun o => Ok (deFuzz_init m o)) (f_out f) ;;
    let f := with_out f lo in
    f1 <- match c_type (f_cfg f) with
          | Mamdani => points_loop (Z.to_nat nPoints) 0 f
          | _ =>
              lo <- mapn no (fun o => Ok (out_v o (lit 0 1) (lit 0 1) (o_v2 o) (o_v3 o))) (f_out f) ;;
              f1 <- fuzzyAggregate (with_out f lo) ;;
              lo <- mapn no (fun o => Ok (deFuzz_compute m o)) (f_out f1) ;;
              Ok (with_out f1 lo)
          end ;;
    f2 <- finish_loop no 0 f1 ;;
    Ok (true, f2)
  else Ok (false, f).

End Fis.
Arguments config : clear implicits.
Arguments fis : clear implicits.
Arguments istate : clear implicits.
Arguments astate : clear implicits.
