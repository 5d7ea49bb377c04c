(** The rule language of the fuzzy engine as its documentation gives it, and
    what the rules of such a text mean.  fis.hpp:370-490 (the macros IF, IS,
    IS_NOT, AND, OR, THEN, END, FIS_RULES_BEGIN and FIS_RULES_END).

    This file is independent of the model of the engine. *)
From Coq Require Import ZArith List Bool.
Import ListNotations.
Open Scope Z_scope.

(** "variable IS set" or "variable IS_NOT set"; both are named by tags. *)
Record item := mkItem { it_var : Z; it_not : bool; it_set : Z }.
Inductive connector := And | Or.
(** IF first (AND|OR item)* THEN item (AND item)* *)
Record rule := mkRule { r_first : item; r_more : list (connector * item); r_then : item; r_also : list item }.

Definition consequents (r : rule) : list item := r_then r :: r_also r.

(** The cells the macros expand to. *)
Definition cell_BEGIN : Z := -128.
Definition cell_END : Z := -127.
Definition cell_AND : Z := -126.
Definition cell_OR : Z := -125.
Definition cell_THEN : Z := -124.
Definition set_cell (i : item) : Z := if it_not i then - (it_set i + 1) else it_set i + 1.
Definition item_cells (i : item) : list Z := [it_var i; set_cell i].
Definition conn_cell (c : connector) : Z := match c with And => cell_AND | Or => cell_OR end.
Fixpoint more_cells (l : list (connector * item)) : list Z :=
  match l with [] => [] | (c, i) :: t => conn_cell c :: item_cells i ++ more_cells t end.
Fixpoint also_cells (l : list item) : list Z :=
  match l with [] => [] | i :: t => cell_AND :: item_cells i ++ also_cells t end.
Definition rule_cells (r : rule) : list Z :=
  item_cells (r_first r) ++ more_cells (r_more r) ++ [cell_THEN] ++ item_cells (r_then r) ++ also_cells (r_also r).
Fixpoint rules_cells (l : list rule) : list Z := match l with [] => [] | r :: t => rule_cells r ++ rules_cells t end.
Definition text (l : list rule) : list Z := cell_BEGIN :: rules_cells l ++ [cell_END].

(** The tags of a text for a system with the given numbers of inputs, input
    sets, outputs and output sets; a cell is an int8_t.  Only systems with
    several outputs have rules with several consequents. *)
Definition antecedents (r : rule) : list item := r_first r :: map snd (r_more r).
Definition item_ok (nvar nset : Z) (i : item) : Prop := 0 <= it_var i < nvar /\ 0 <= it_set i < nset /\ it_set i < 127.
Definition rule_ok (nIn nMFIn nOut nMFOut : Z) (r : rule) : Prop :=
  Forall (item_ok nIn nMFIn) (antecedents r) /\ Forall (item_ok nOut nMFOut) (consequents r) /\ (r_also r = [] \/ 1 < nOut).

Section Meaning.
Context {X : Type}.
(** The strength of a rule: from left to right, AND does not bind tighter. *)
Definition strength (opAnd opOr : X -> X -> X) (degree : item -> X) (r : rule) : X :=
  fold_left (fun y (p : connector * item) => match fst p with And => opAnd | Or => opOr end y (degree (snd p))) (r_more r) (degree (r_first r)).

(** What the rules with their strengths [ws] say about output [j]: the strength
    and the conclusion, in the order of the text. *)
Definition said_by (j : Z) (r : rule) (w : X) : list (X * item) :=
  map (fun i => (w, i)) (filter (fun i => it_var i =? j) (consequents r)).
Fixpoint said (j : Z) (rs : list rule) (ws : list X) : list (X * item) :=
  match rs, ws with r :: rt, w :: wt => said_by j r w ++ said j rt wt | _, _ => [] end.
End Meaning.
