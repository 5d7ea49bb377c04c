(** What a fuzzy system computes, in exact arithmetic: the operators by their
    formulas, the surface of a Mamdani output, its sample points, and the crisp
    values taken from them.  Independent of the model but for the names of the
    operators (fis.hpp:86-92). *)
From Coq Require Import ZArith List Bool Reals.
From Verif Require Import Base Arith FisCore_Model Fis_Spec FisRules_Spec Fis_Model.
Import ListNotations.
Open Scope R_scope.

Definition op_R (o : oper) (a b : R) : R :=
  match o with
  | FIS_MIN => Rmin a b | FIS_PROD => a * b
  | FIS_MAX => Rmax a b | FIS_PROBOR => a + b - a * b | FIS_SUM => Rmin (a + b) 1
  end.
Definition clip (lo hi x : R) : R := Rmax lo (Rmin x hi).

(** The degree of "IS set" or "IS_NOT set". *)
Definition degree_R (set : Z -> R) (i : item) : R := if it_not i then 1 - set (it_set i) else set (it_set i).

(** The conclusions of the rules that fired. *)
Definition fired (l : list (R * item)) : list (R * item) := filter (fun p => if Rlt_dec 0 (fst p) then true else false) l.
(** The surface of an output whose sets have the degrees [deg set x]. *)
Definition surface (impl aggr : oper) (deg : Z -> R -> R) (l : list (R * item)) (x : R) : R :=
  fold_left (fun y p => op_R aggr y (op_R impl (fst p) (degree_R (fun s => deg s x) (snd p)))) (fired l) 0.
(** The centres of a hundred equal slices of [lo, hi]. *)
Definition grid (lo hi : R) : list R := map (fun k => lo + (INR k + 1 / 2) * ((hi - lo) / 100)) (seq 0 100).

Fixpoint lsum (g : R -> R) (l : list R) : R := match l with [] => 0 | x :: t => g x + lsum g t end.

(** The middle of the first maximal plateau; degrees closer than [/ 2 ^ 126] count
    as equal. *)
Definition plateau (g : R -> R) (pts : list R) (a b : R) : Prop :=
  exists l1 mid rest, pts = l1 ++ (a :: mid) ++ rest /\ b = last mid a /\ (forall z, In z l1 -> g z < g a) /\ (forall z, In z pts -> g z <= g a) /\
    (forall z, In z (a :: mid) -> g a - / 2 ^ 126 <= g z) /\ (forall z t, rest = z :: t -> g z < g a - / 2 ^ 126).

(** What the documentation says each method takes from the surface [g] over the
    points [pts]; nothing for the two methods that need no surface. *)
Definition taken (m : method) (g : R -> R) (pts : list R) (v : R) : Prop :=
  match m with
  | centroid => 0 < lsum g pts -> v = lsum (fun x => x * g x) pts / lsum g pts
  | bisector => 0 < lsum g pts -> exists l1 l2, pts = l1 ++ v :: l2 /\ lsum g (l1 ++ [v]) >= lsum g pts / 2 /\
      forall p q, l1 = p ++ q -> lsum g p < lsum g pts / 2
  | mom => exists a b, plateau g pts a b /\ v = (a + b) / 2
  | lom => exists l1 l2, pts = l1 ++ v :: l2 /\ (forall z, In z pts -> g z <= g v) /\ forall z, In z l2 -> g z < g v
  | som => exists l1 l2, pts = l1 ++ v :: l2 /\ (forall z, In z pts -> g z <= g v) /\ forall z, In z l1 -> g z < g v
  | _ => False
  end.
(** The weighted sum and the sum of the weights of the conclusions that fired;
    [z s] is the value of the consequent function [s]. *)
Definition weight_sum (l : list (R * item)) : R := fold_right (fun p s => fst p + s) 0 (fired l).
Definition value_sum (z : Z -> R) (l : list (R * item)) : R := fold_right (fun p s => z (it_set (snd p)) * fst p + s) 0 (fired l).

(** A system with the rules [rs] and the strengths [ws] left by the inference:
    the text is the array of rules, the tags are within the tables, there is a
    strength per rule, and a region to be stored has room for the points.
    [s_then] excludes the one antecedent whose cell reads as THEN. *)
Record system {A : arith} (f : fis A) (rs : list rule) (ws : list (F A)) : Prop := {
  s_ready : c_ready (f_cfg f) = true;
  s_text : exists tail, c_rules (f_cfg f) = text rs ++ tail;
  s_count : c_nRules (f_cfg f) = zlen rs;
  s_rules : Forall (rule_ok (c_nIn (f_cfg f)) (zlen (f_inMF f)) (c_nOut (f_cfg f)) (zlen (f_outMF f))) rs;
  s_then : forall q i, In q rs -> In i (antecedents q) -> it_not i = true -> it_set i <> 123%Z;
  s_wi : f_wi f = Some ws;
  s_room : (zlen rs <= zlen ws)%Z;
  s_outs : zlen (f_out f) = c_nOut (f_cfg f);
  s_region : Forall (fun o : out A => match o_ag o with None => True | Some (xs, ys) => (100 <= zlen xs)%Z /\ (100 <= zlen ys)%Z end) (f_out f) }.
(** The output sets of a Mamdani system have the degrees [deg]. *)
Definition sets_are {A : arith} (f : fis A) (deg : Z -> F A -> F A) : Prop :=
  forall s, (0 <= s < zlen (f_outMF f))%Z -> forall mn mx x : F A, exists m', membership (nth (Z.to_nat s) (f_outMF f) mf_new) [mkIO mn mx x] 1 = Ok (deg s x, m').
(** In exact arithmetic: degrees and strengths in [0,1], and the range and the
    resolution setupOutput() gives an output. *)
Record mamdani (f : fis RA) (rs : list rule) (ws : list R) (deg : Z -> R -> R) : Prop := {
  m_sys : system f rs ws;
  m_type : c_type (f_cfg f) = Mamdani;
  m_sets : sets_are f deg;
  m_degrees : forall s x, (0 <= s < zlen (f_outMF f))%Z -> unit (deg s x);
  m_strengths : Forall unit ws;
  m_span : Forall (fun o : out RA => o_min o <= o_max o /\ o_res o = (o_max o - o_min o) / 100) (f_out f) }.
(** A Sugeno or Tsukamoto system whose consequent functions have the values
    [zv] at the inputs. *)
Record takagi (f : fis RA) (rs : list rule) (ws : list R) (zv : Z -> R) : Prop := {
  t_sys : system f rs ws;
  t_type : c_type (f_cfg f) <> Mamdani;
  t_sets : forall s, (0 <= s < zlen (f_outMF f))%Z -> exists m', membership (A := RA) (nth (Z.to_nat s) (f_outMF f) mf_new) (f_in f) (c_nIn (f_cfg f)) = Ok (zv s, m');
  t_span : Forall (fun o : out RA => o_min o <= o_max o) (f_out f) }.
