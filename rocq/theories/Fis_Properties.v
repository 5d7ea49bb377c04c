(** The fuzzy inference engine: C61-C64 and C78-C81. *)
From Coq Require Import ZArith List Bool Lia Reals Lra Psatz.
From Flocq Require Import Core IEEE754.BinarySingleNaN IEEE754.Binary IEEE754.Bits.
From Verif Require Ltisys_Proofs.
From Verif Require Import Base BaseLemmas Arith ArithLemmas Ltisys_Proofs2 Smoother_Proofs Smoother_Proofs4 Rms_Proofs Interp1_Model Ext32 FisCore_Model FisRules_Spec Fis_Spec
  FisCore_Proofs FisCore_Properties Fis_Model FisSys_Spec Fis_Proofs Fis_Proofs2 Fis_Proofs3 Fis_Proofs4 Fis_Proofs5 Fis_Proofs6 Fis_Proofs7.
Import ListNotations.
Open Scope Z_scope.

(** ** C61: the strengths of the rules *)
(** A system ready for inference: the rules are a text over its tables, there
    is room for the strengths [w], and a weight per rule if there are weights. *)
Record ruled {A : arith} (f : fis A) (rs : list rule) (w : list (F A)) : Prop := {
  q_ready : c_ready (f_cfg f) = true;
  q_text : exists tail, c_rules (f_cfg f) = text rs ++ tail;
  q_count : c_nRules (f_cfg f) = zlen rs;
  q_rules : Forall (rule_ok (c_nIn (f_cfg f)) (zlen (f_inMF f)) (c_nOut (f_cfg f)) (zlen (f_outMF f))) rs;
  q_wi : f_wi f = Some w;
  q_room : zlen rs <= zlen w;
  q_weights : forall l, c_weights (f_cfg f) = Some l -> zlen rs <= zlen l }.

Lemma ruled_ok {A : arith} (f : fis A) rs w : ruled f rs w ->
  inference f = Ok (true, mkFis (f_cfg f) (f_in f) (f_out f) (f_inMF f) (f_outMF f) (Some (store f 0 w rs)) (zlen rs)).
Proof.
  intros [Q1 [tail Q2] Q3 Q4 Q5 Q6 Q7]. apply (inference_ok f rs tail w); auto.
  - eapply Forall_impl; [|exact Q4]. intros q (H1 & H2 & H3). split; [|split; auto].
    + eapply Forall_impl; [|exact H1]. intros i (K1 & K2 & K3). split; [lia|auto].
    + eapply Forall_impl; [|exact H2]. intros i (K1 & K2 & K3). lia.
  - unfold weights_ok. destruct (c_weights (f_cfg f)) eqn:E; auto.
Qed.

Open Scope R_scope.
(** In exact arithmetic, for degrees in [0,1]: inference() accepts the text and
    leaves for every rule the left-to-right combination of its antecedents by
    the chosen AND and OR, IS_NOT complementing, times the weight of the rule
    (1 without weights) clipped to [0,1]; nothing else changes. *)
Theorem C61_strengths : forall (f : fis RA) rs w, ruled f rs w -> Forall (fun m : mf RA => unit (mf_fx m)) (f_inMF f) ->
  exists f' w', inference f = Ok (true, f') /\
  f_cfg f' = f_cfg f /\ f_in f' = f_in f /\ f_out f' = f_out f /\ f_inMF f' = f_inMF f /\ f_outMF f' = f_outMF f /\
  f_wi f' = Some w' /\ length w' = length w /\
  (forall k q, nth_error rs k = Some q -> nth k w' 0 =
     strength (op_R (c_and (f_cfg f))) (op_R (c_or (f_cfg f))) (degree_R (fun s => mf_fx (A := RA) (nth (Z.to_nat s) (f_inMF f) mf_new))) q *
     match c_weights (f_cfg f) with None => 1 | Some l => clip 0 1 (nth k l 0) end /\ unit (nth k w' 0)) /\
  (forall k, (length rs <= k)%nat -> nth k w' 0 = nth k w 0).
Proof.
  intros f rs w Q U. pose proof (ruled_ok f rs w Q) as E. eexists _, _. split; [exact E|]. cbn [f_cfg f_in f_out f_inMF f_outMF f_wi]. do 5 (split; [reflexivity|]).
  split; [reflexivity|]. split. { pose proof (store_len f rs 0 w) as L. unfold zlen in L. lia. }
  pose proof (q_room _ _ _ Q) as Rm. pose proof (store_nth f rs 0 w) as N. rewrite zero_R in N. split.
  - intros k q Hk. specialize (N k ltac:(lia) ltac:(lia)).
    assert (Hl : (k < length rs)%nat) by (apply nth_error_Some; congruence).
    replace ((0 <=? Z.of_nat k)%Z && (Z.of_nat k <? 0 + zlen rs)%Z) with true in N by (symmetry; apply andb_true_intro; unfold zlen; split; [apply Z.leb_le|apply Z.ltb_lt]; lia).
    replace (k - Z.to_nat 0)%nat with k in N by (cbn; lia). rewrite (nth_error_nth _ _ _ Hk) in N.
    rewrite N. clear N.
    destruct (fires_R f q) as [E1 U1]; auto.
    { pose proof (q_rules _ _ _ Q) as Hr. rewrite Forall_forall in Hr. destruct (Hr q (nth_error_In _ _ Hk)) as (H1 & _). eapply Forall_impl; [|exact H1]. intros i (_ & K & _). exact K. }
    unfold weighted. rewrite E1 in *. destruct (c_weights (f_cfg f)) as [l|]; [|rewrite Rmult_1_r; auto].
    rewrite bound01_R. rewrite zero_R, Nat2Z.id. fold (clip 0 1 (nth k l 0)). change (fmul (a := RA)) with Rmult. split; auto. apply mul_unit; auto. apply clip_unit.
  - intros k Hk. specialize (N k ltac:(lia) ltac:(lia)).
    replace ((0 <=? Z.of_nat k)%Z && (Z.of_nat k <? 0 + zlen rs)%Z) with false in N by (symmetry; apply andb_false_iff; right; apply Z.ltb_ge; unfold zlen; lia).
    exact N.
Qed.
Print Assumptions C61_strengths.

(** In binary32, whatever the stored degrees and weights are, NaN included:
    every strength of a rule is a number of [0,1]. *)
Theorem C61_strengths_binary32 : forall o (f : fis (B32 o)) rs w, ruled f rs w ->
  exists f' w', inference f = Ok (true, f') /\ f_wi f' = Some w' /\ length w' = length w /\
  forall k, (k < length rs)%nat -> unit32 (nth k w' (lit (a := B32 o) 0 1)).
Proof.
  intros o f rs w Q. pose proof (ruled_ok f rs w Q) as E. eexists _, _. split; [exact E|]. cbn [f_wi]. split; [reflexivity|].
  split. { pose proof (store_len f rs 0 w) as L. unfold zlen in L. lia. }
  pose proof (q_room _ _ _ Q) as Rm. intros k Hk. rewrite (store_nth f rs 0 w k ltac:(lia) ltac:(lia)).
  replace ((0 <=? Z.of_nat k)%Z && (Z.of_nat k <? 0 + zlen rs)%Z) with true by (symmetry; apply andb_true_intro; unfold zlen; split; [apply Z.leb_le|apply Z.ltb_lt]; lia).
  set (q := nth _ rs _).
  assert (U : unit32 (fires f q)).
  { unfold fires. assert (B : unit32 (Sum (A := B32 o) (lit 0 1) (degree_of (f_inMF f) (r_first q)))) by apply bound01_unit32. revert B.
    generalize (Sum (A := B32 o) (lit 0 1) (degree_of (f_inMF f) (r_first q))).
    induction (r_more q) as [|[p i] t IH]; intros y B; cbn [fold_left]; auto. apply IH. cbn [fst snd].
    destruct p; unfold op_of; [destruct (c_and (f_cfg f))|destruct (c_or (f_cfg f))]; apply bound01_unit32. }
  unfold weighted. destruct (c_weights (f_cfg f)); auto. apply mul_unit32; auto. apply bound01_unit32.
Qed.
Print Assumptions C61_strengths_binary32.

(** A system of two inputs and one output: IF x IS s0 AND y IS_NOT s1 THEN z IS s0;
    IF x IS s0 OR y IS s1 THEN z IS_NOT s1; the degrees of s0 and s1 are 1/4 and 2/3. *)
Definition demo_rules : list rule :=
  [mkRule (mkItem 0 false 0) [(And, mkItem 1 true 1)] (mkItem 0 false 0) [];
   mkRule (mkItem 0 false 0) [(Or, mkItem 1 false 1)] (mkItem 0 true 1) []].
Definition demo_set (a b d : R) : mf RA := mkMF (Some (RectangleMF (A := RA))) [a; b] d 1 0.
Definition demo (m : method) (t : fistype) (l : option (list R)) (w : option (list R)) : fis RA :=
  mkFis (mkConfig (A := RA) true t 2 1 2 2 (text demo_rules) 2 FIS_MIN FIS_MAX FIS_MIN FIS_MAX m l (-1))
    [mkIO (A := RA) 0 10 4; mkIO (A := RA) 0 10 5] [mkOut (A := RA) 0 10 0 (1/10) 0 0 0 0 0 0 None true]
    [demo_set 0 4 (1/4); demo_set 4 9 (2/3)] [demo_set 0 10 0; demo_set 0 5 0] w 0.

Ltac in_tables := repeat (first [apply Forall_cons|apply Forall_nil|split]); cbn; try lia; auto.
Example C61_example : ruled (demo centroid Mamdani (Some [1; 1/2]) (Some [0; 0])) demo_rules [0; 0] /\
  Forall (fun m : mf RA => unit (mf_fx m)) (f_inMF (demo centroid Mamdani (Some [1; 1/2]) (Some [0; 0]))) /\
  map (strength (op_R FIS_MIN) (op_R FIS_MAX) (degree_R (fun s => if (s =? 0)%Z then 1/4 else 2/3))) demo_rules = [1/4; 2/3].
Proof.
  split; [|split].
  - split; try reflexivity; try (cbn; lia).
    + exists []. rewrite app_nil_r. reflexivity.
    + unfold demo_rules, demo, rule_ok, item_ok. in_tables.
    + intros l E. injection E as <-. cbn. lia.
  - repeat constructor; cbn [mf_fx demo_set]; unfold unit; lra.
  - cbn. unfold Rmin, Rmax; repeat destruct Rle_dec; try lra; reflexivity.
Qed.

(** ** C62: no rule array makes the inference run away *)
(** The two loops over the rules stop by themselves within as many iterations
    as there are cells, whatever the cells are: more allowance changes nothing. *)
Theorem C62_terminates : forall (A : arith) (f : fis A) n,
  let k := S (length (c_rules (f_cfg f))) in
  let t := mkI 1 true (lit 0 1) (-1) (f_wi f) 0 in
  inference_loop k f t <> Ok None /\ inference_loop (n + k) f t = inference_loop k f t /\
  (forall lo lm, aggregate_loop k f (mkA 1 true 0 lo lm) <> Ok None) /\
  (forall i, (0 <= i)%Z -> find_then (n + k) (c_rules (f_cfg f)) i = find_then k (c_rules (f_cfg f)) i).
Proof.
  intros A f n k t. assert (H : inference_loop k f t <> Ok None).
  { apply loop_ends; unfold k, zlen, t; cbn [i_i]; lia. }
  split; [exact H|]. split; [apply inference_fuel; exact H|]. split.
  - intros lo lm. apply agg_ends; unfold k, zlen; cbn [a_i]; lia.
  - intros i P. apply find_end; unfold k, zlen; lia.
Qed.
Print Assumptions C62_terminates.

(** true is only ever answered for an array that reads BEGIN, as many rules as
    announced, END - each with input tags of at most the number of inputs and
    several consequents only where there are several outputs - or for an array
    that starts with END. *)
Theorem C62_accepts : forall (A : arith) (f f' : fis A), inference f = Ok (true, f') -> (0 <= c_nRules (f_cfg f))%Z ->
  get (c_rules (f_cfg f)) 0 <> Ok cell_END ->
  c_ready (f_cfg f) = true /\ exists rs tail, c_rules (f_cfg f) = text rs ++ tail /\ zlen rs = c_nRules (f_cfg f) /\
    Forall (fun q => Forall (fun i => (0 <= it_var i <= c_nIn (f_cfg f))%Z) (antecedents q) /\ (r_also q = [] \/ (1 < c_nOut (f_cfg f))%Z)) rs.
Proof.
  intros A f f' E P N. split.
  - unfold inference in E. destruct (c_ready (f_cfg f)); auto; discriminate.
  - exact (accept_shape f f' N P E).
Qed.
Print Assumptions C62_accepts.

(** An array that starts with neither BEGIN nor END, and a system not set up,
    are refused without any effect on the strengths. *)
Theorem C62_refuses : forall (A : arith) (f : fis A),
  (c_ready (f_cfg f) = false -> inference f = Ok (false, f)) /\
  (forall c, c_ready (f_cfg f) = true -> get (c_rules (f_cfg f)) 0 = Ok c -> c <> cell_BEGIN -> c <> cell_END -> inference f = Ok (false, f)).
Proof.
  intros A f. unfold inference. split.
  - intros ->. reflexivity.
  - intros c -> G N1 N2. rewrite G. cbn [bind i_i]. destruct (Z.eqb_spec c RULES_BEGIN) as [E|_]; [contradiction|]. cbn [bind i_i i_count i_wi]. rewrite G. cbn [bind].
    destruct (Z.eqb_spec c RULES_END) as [E|_]; [contradiction|]. destruct f; reflexivity.
Qed.
Print Assumptions C62_refuses.

(** A small system with the given rule cells in any arithmetic. *)
Definition small {A : arith} (r : list Z) (w : option (list (F A))) (count : Z) : fis A :=
  let s := mkMF (Some ConstantMF) [lit 1 1] (lit 1 1) (lit 1 1) 0 in
  mkFis (mkConfig true Mamdani 1 1 1 1 r 1 FIS_MIN FIS_MAX FIS_MIN FIS_MAX centroid None (-1)) [io_new] [out_new] [s] [s] w count.
(** What is not refused although it should be (deviations): rules cut off
    before their end are read past the array; so is a set tag of zero; an input
    tag equal to the number of inputs passes; an array starting with END passes
    once ruleCount was left at the number of rules by an earlier run; and
    without an array for the strengths the null pointer is written through. *)
Theorem C62_refuted : forall A : arith,
  let w := Some [lit (a := A) 0 1] in
  inference (A := A) (small [cell_BEGIN; 0; 1]%Z w 0) = Ub /\
  inference (A := A) (small [cell_BEGIN; 0; 0; cell_THEN; 0; 1; cell_END]%Z w 0) = Ub /\
  (exists f', inference (A := A) (small (text [mkRule (mkItem 1 false 0) [] (mkItem 0 false 0) []]) w 0) = Ok (true, f')) /\
  inference (A := A) (small [cell_END] w 1) = Ok (true, small [cell_END] w 1) /\
  inference (A := A) (small [cell_END] w 0) = Ok (false, small [cell_END] w 0) /\
  inference (A := A) (small (text [mkRule (mkItem 0 false 0) [] (mkItem 0 false 0) []]) None 0) = Ub.
Proof. intros A w. repeat split; try reflexivity. eexists. reflexivity. Qed.
Print Assumptions C62_refuted.
Example C62_example : forall A : arith, exists f', inference (A := A) (small (text [mkRule (mkItem 0 false 0) [] (mkItem 0 false 0) []]) (Some [lit 0 1]) 0) = Ok (true, f').
Proof. intros A. eexists. reflexivity. Qed.

(** ** C63: the crisp outputs *)
(** In binary32, for any rules, sets and method: whenever deFuzzify() answers
    true, every output with a numeric ordered range lies in it - also when
    nothing fired and the quotient is 0/0. *)
Theorem C63_range : forall o (f f' : fis (B32 o)) b, deFuzzify f = Ok (b, f') ->
  b = c_ready (f_cfg f) /\ length (f_out f') = length (f_out f) /\
  forall j, (j < length (f_out f))%nat -> o_min (nth j (f_out f') out_new) = o_min (nth j (f_out f) out_new) /\ o_max (nth j (f_out f') out_new) = o_max (nth j (f_out f) out_new) /\
    (b = true -> (Z.of_nat j < c_nOut (f_cfg f))%Z ->
     b32_le (o_min (nth j (f_out f) out_new)) (o_max (nth j (f_out f) out_new)) = true ->
     b32_le (o_min (nth j (f_out f) out_new)) (o_value (nth j (f_out f') out_new)) = true /\
     b32_le (o_value (nth j (f_out f') out_new)) (o_max (nth j (f_out f) out_new)) = true).
Proof.
  intros o f f' b E. apply deFuzzify_frame in E. destruct E as (E1 & (E2 & E3) & E4). split; auto. split; auto. intros j Hj.
  specialize (E3 j). unfold rng in E3. injection E3 as Em EM. split; auto. split; auto. intros Eb Hn L. destruct (E4 Eb j Hn) as [v V].
  rewrite V, Em, EM. pose proof (C69_coerce o v _ _ L) as C. cbv zeta in C. unfold bound. tauto.
Qed.
Print Assumptions C63_range.

(** In exact arithmetic: the value of an output of a Mamdani system is what its
    method takes from the surface of the fired rules over the hundred points;
    the surface has degrees in [0,1], and a region to be stored is stored. *)
Theorem C63_mamdani : forall f rs ws deg, mamdani f rs ws deg -> c_defuzz (f_cfg f) <> som -> (method_code (c_defuzz (f_cfg f)) <= method_code som)%Z ->
  exists f', deFuzzify f = Ok (true, f') /\
  forall j, (0 <= j < c_nOut (f_cfg f))%Z ->
    let o := nth (Z.to_nat j) (f_out f) out_new in
    let o' := nth (Z.to_nat j) (f_out f') out_new in
    let g := surface (c_impl (f_cfg f)) (c_aggr (f_cfg f)) deg (said j rs ws) in
    let pts := grid (o_min o) (o_max o) in
    (forall x, unit (g x)) /\ taken (c_defuzz (f_cfg f)) g pts (o_value o') /\
    (forall xs ys, o_ag o = Some (xs, ys) -> exists xs' ys', o_ag o' = Some (xs', ys') /\ length xs' = length xs /\ length ys' = length ys /\
       forall k, (k < 100)%nat -> nth k xs' 0 = nth k pts 0 /\ nth k ys' 0 = g (nth k pts 0)).
Proof.
  intros f rs ws deg M N C. destruct (mamdani_value _ _ _ _ M) as (f' & E & _ & V). exists f'. split; auto. intros j Hj o o' g pts.
  destruct (V j Hj) as (V1 & V2 & V3). split; [exact V1|]. split.
  - destruct (c_defuzz (f_cfg f)); auto; try (exfalso; apply N; reflexivity); cbn in C; lia.
  - intros xs ys Ea. destruct (V3 xs ys Ea) as (xs' & ys' & A1 & A2 & A3 & A4). exists xs', ys'. unfold zlen in A2, A3. repeat split; auto; try lia; apply A4; auto.
Qed.
Print Assumptions C63_mamdani.

Lemma okR (u v : R) : u = v -> @Ok (F RA) u = @Ok (F RA) v. Proof. intros H. f_equal. exact H. Qed.
Lemma rect_set a b d mn mx x : exists m', membership (A := RA) (demo_set a b d) [mkIO (A := RA) mn mx x] 1 = Ok (rectangle a b x, m').
Proof.
  rewrite membership_val.
  assert (E : mf_val (A := RA) (demo_set a b d) [mkIO (A := RA) mn mx x] 1 = Ok (rectangle a b x)).
  { cbn. unfold rectangle, Rleb. apply okR. repeat destruct Rle_dec; cbn; lra. }
  rewrite E. eexists. reflexivity.
Qed.
Definition demo_deg (s : Z) (x : R) : R := if (s =? 0)%Z then rectangle 0 10 x else rectangle 0 5 x.
Lemma demo_mamdani m : mamdani (demo m Mamdani None (Some [1/4; 2/3])) demo_rules [1/4; 2/3] demo_deg.
Proof.
  split.
  - split; try reflexivity; try (cbn; lia).
    + exists []. rewrite app_nil_r. reflexivity.
    + unfold demo_rules, demo, rule_ok, item_ok. in_tables.
    + intros q i [<-|[<-|[]]]; cbn [antecedents r_first r_more map snd]; intros [<-|[<-|[]]]; cbn; lia.
    + repeat constructor.
  - reflexivity.
  - intros s Hs mn mx x. cbn in Hs. assert (E : s = 0%Z \/ s = 1%Z) by lia. destruct E as [-> | ->]; apply rect_set.
  - intros s x _. unfold demo_deg, unit, rectangle. destruct (s =? 0)%Z; repeat destruct Rle_dec; lra.
  - repeat constructor; unfold unit; lra.
  - repeat constructor; cbn; lra.
Qed.
Example C63_example : forall m, mamdani (demo m Mamdani None (Some [1/4; 2/3])) demo_rules [1/4; 2/3] demo_deg /\
  surface FIS_MIN FIS_MAX demo_deg (said 0 demo_rules [1/4; 2/3]) 7 = 2/3 /\ surface FIS_MIN FIS_MAX demo_deg (said 0 demo_rules [1/4; 2/3]) 3 = 1/4.
Proof.
  intros m. split; [apply demo_mamdani|]. unfold surface, said, said_by, demo_rules, fired. cbn [consequents r_then r_also filter it_var Z.eqb map app fst snd].
  repeat (destruct Rlt_dec; [|exfalso; lra]). cbn [fold_left fst snd op_R]. unfold degree_R, demo_deg, rectangle. cbn [it_not it_set Z.eqb].
  split; repeat (destruct Rle_dec; try lra); unfold Rmin, Rmax; repeat (destruct Rle_dec; try lra).
Qed.

(** Smallest of maximum is the largest (deviation): for every Mamdani system
    the answer is the last maximiser, and there is a system with a hundred. *)
Theorem C63_som_refuted :
  (forall f rs ws deg, mamdani f rs ws deg -> c_defuzz (f_cfg f) = som ->
     exists f', deFuzzify f = Ok (true, f') /\ forall j, (0 <= j < c_nOut (f_cfg f))%Z ->
       let o := nth (Z.to_nat j) (f_out f) out_new in
       taken lom (surface (c_impl (f_cfg f)) (c_aggr (f_cfg f)) deg (said j rs ws)) (grid (o_min o) (o_max o)) (o_value (nth (Z.to_nat j) (f_out f') out_new))) /\
  exists f rs ws deg, mamdani f rs ws deg /\ c_defuzz (f_cfg f) = som /\ exists f', deFuzzify f = Ok (true, f') /\
    ~ taken som (surface (c_impl (f_cfg f)) (c_aggr (f_cfg f)) deg (said 0 rs ws)) (grid 0 10) (o_value (nth 0 (f_out f') out_new)).
Proof.
  assert (G : forall f rs ws deg, mamdani f rs ws deg -> c_defuzz (f_cfg f) = som ->
     exists f', deFuzzify f = Ok (true, f') /\ forall j, (0 <= j < c_nOut (f_cfg f))%Z ->
       let o := nth (Z.to_nat j) (f_out f) out_new in
       taken lom (surface (c_impl (f_cfg f)) (c_aggr (f_cfg f)) deg (said j rs ws)) (grid (o_min o) (o_max o)) (o_value (nth (Z.to_nat j) (f_out f') out_new))).
  { intros f rs ws deg M S. destruct (mamdani_value _ _ _ _ M) as (f' & E & _ & V). exists f'. split; auto. intros j Hj o. destruct (V j Hj) as (_ & V2 & _). rewrite S in V2. exact V2. }
  split; [exact G|].
  assert (M : mamdani (demo som Mamdani None (Some [1/2; 0])) demo_rules [1/2; 0] demo_deg).
  { destruct (demo_mamdani som) as [S1 S2 S3 S4 S5 S6]. destruct S1. split; auto; [split; auto; reflexivity|]. repeat constructor; unfold unit; lra. }
  exists (demo som Mamdani None (Some [1/2; 0])), demo_rules, [1/2; 0], demo_deg. split; [exact M|]. split; [reflexivity|].
  destruct (G _ _ _ _ M eq_refl) as (f' & E & V). exists f'. split; [exact E|]. specialize (V 0%Z ltac:(cbn; lia)). cbv zeta in V.
  change (o_min (nth (Z.to_nat 0) (f_out (demo som Mamdani None (Some [1/2; 0]))) out_new)) with 0 in V.
  change (o_max (nth (Z.to_nat 0) (f_out (demo som Mamdani None (Some [1/2; 0]))) out_new)) with 10 in V.
  change (Z.to_nat 0) with 0%nat in V. set (v := o_value (nth 0 (f_out f') out_new)) in *. clearbody v.
  change (c_impl (f_cfg (demo som Mamdani None (Some [1/2; 0])))) with FIS_MIN in *. change (c_aggr (f_cfg (demo som Mamdani None (Some [1/2; 0])))) with FIS_MAX in *.
  set (g := surface FIS_MIN FIS_MAX demo_deg (said 0 demo_rules [1/2; 0])) in *.
  assert (K : forall x, In x (grid 0 10) -> g x = 1/2).
  { intros x Hx. apply grid_in in Hx; [|lra]. unfold g, surface, said, said_by, demo_rules, fired. cbn [consequents r_then r_also filter it_var Z.eqb map app fst snd].
    destruct (Rlt_dec 0 (1/2)); [|lra]. destruct (Rlt_dec 0 0); [lra|]. cbn [fold_left fst snd op_R]. unfold degree_R, demo_deg, rectangle. cbn [it_not it_set Z.eqb].
    repeat (destruct Rle_dec; try lra); unfold Rmin, Rmax; repeat (destruct Rle_dec; try lra). }
  clearbody g. clear - V K. intros T. destruct V as (l1 & l2 & P1 & P2 & P3). destruct T as (k1 & k2 & Q1 & Q2 & Q3).
  assert (Iv : In v (grid 0 10)) by (rewrite P1; apply in_app_iff; right; left; auto).
  assert (L2 : l2 = []).
  { destruct l2 as [|z t]; auto. specialize (P3 z ltac:(left; auto)). rewrite (K v Iv), (K z) in P3; [lra|]. rewrite P1. apply in_app_iff. right. right. left. auto. }
  assert (K1 : k1 = []).
  { destruct k1 as [|z t]; auto. specialize (Q3 z ltac:(left; auto)). rewrite (K v Iv), (K z) in Q3; [lra|]. rewrite Q1. left. auto. }
  subst l2 k1. cbn [app] in Q1.
  assert (E1 : hd 0 (grid 0 10) = v) by (rewrite Q1; reflexivity).
  assert (E2 : last (grid 0 10) 0 = v) by (rewrite P1; apply last_snoc).
  assert (E3 : last (grid 0 10) 0 = 0 + (INR 99 + 1/2) * ((10 - 0) / 100)).
  { unfold grid. change 100%nat with (99 + 1)%nat. rewrite seq_app, map_app. cbn [seq map]. apply last_snoc. }
  unfold grid in E1. cbn [seq map hd] in E1. change (INR 0) with 0 in E1. rewrite E2 in E3. replace (INR 99) with 99 in E3 by (rewrite INR_IZR_INZ; reflexivity). lra.
Qed.
Print Assumptions C63_som_refuted.

(** In exact arithmetic the value of an output of a Sugeno or Tsukamoto system is
    the weighted average (or sum) of the values of the consequents that fired,
    clipped to the range. *)
Theorem C63_weighted : forall f rs ws zv, takagi f rs ws zv -> c_defuzz (f_cfg f) = wtaver \/ c_defuzz (f_cfg f) = wtsum ->
  exists f', deFuzzify f = Ok (true, f') /\
  forall j, (0 <= j < c_nOut (f_cfg f))%Z ->
    let o := nth (Z.to_nat j) (f_out f) out_new in
    let l := said j rs ws in
    o_value (nth (Z.to_nat j) (f_out f') out_new) = clip (o_min o) (o_max o)
      (match c_defuzz (f_cfg f) with wtsum => value_sum zv l | _ => value_sum zv l / weight_sum l end) /\
    (c_defuzz (f_cfg f) = wtaver -> forall lo hi, 0 < weight_sum l -> (forall p, In p l -> lo <= zv (it_set (snd p)) <= hi) ->
       lo <= value_sum zv l / weight_sum l <= hi).
Proof.
  intros f rs ws zv M Dz. destruct (takagi_value _ _ _ _ M Dz) as (f' & E & _ & V). exists f'. split; auto. intros j Hj o l. split; [exact (V j Hj)|].
  intros _ lo hi P B. assert (H : lo * weight_sum l <= value_sum zv l <= hi * weight_sum l).
  { clear P V. unfold weight_sum, value_sum, fired. revert B. induction l as [|[w it] t IH]; intros B; cbn [filter fold_right fst snd]; [lra|].
    assert (Bt : forall p, In p t -> lo <= zv (it_set (snd p)) <= hi) by (intros; apply B; right; auto). specialize (IH Bt).
    destruct (Rlt_dec 0 w); [|exact IH]. cbn [fold_right fst snd]. specialize (B (w, it) ltac:(left; auto)). cbn [snd] in B.
    assert (lo * w <= zv (it_set it) * w <= hi * w) by (split; apply Rmult_le_compat_r; lra). lra. }
  split; apply Rmult_le_reg_r with (weight_sum l); auto; unfold Rdiv; rewrite Rmult_assoc, Rinv_l, Rmult_1_r by lra; lra.
Qed.
Print Assumptions C63_weighted.
(** A linear consequent is the affine function of the inputs with the given
    coefficients, the last one being the constant term. *)
Theorem C63_linear_consequent : forall (inp : list (io RA)) (p : list R), length p = S (length inp) ->
  LinearMF (A := RA) inp p (zlen inp) = Ok (fold_right Rplus 0 (map (fun k => nth k (map io_value inp) 0 * nth k p 0) (seq 0 (length inp))) + nth (length inp) p 0).
Proof.
  intros inp p L. unfold LinearMF, zlen. rewrite Nat2Z.id. change (lit (a := RA) 0 1) with (0 / 1).
  assert (G : forall k i px, (i + k)%nat = length inp ->
    LinearMF_loop (A := RA) k (Z.of_nat i) inp p px = Ok (px + fold_right Rplus 0 (map (fun k => nth k (map io_value inp) 0 * nth k p 0) (seq i k)) + nth (length inp) p 0)).
  { induction k as [|k IH]; intros i px E; cbn [LinearMF_loop seq map fold_right].
    - rewrite (Ltisys_Proofs.get_nth (A := F RA) 0 p i) by (change (F RA) with R; lia). cbn [bind]. apply okR. rewrite <- E, Nat.add_0_r. change (fadd (a := RA)) with Rplus. change (F RA) with R. ring.
    - rewrite (Ltisys_Proofs.get_nth io_new inp i) by lia. cbn [bind].
      rewrite (Ltisys_Proofs.get_nth (A := F RA) 0 p i) by (change (F RA) with R; lia). cbn [bind].
      replace (Z.of_nat i + 1)%Z with (Z.of_nat (S i)) by lia. rewrite IH by lia. apply okR.
      rewrite (nth_indep (map io_value inp) 0 (io_value io_new)) by (rewrite map_length; lia). rewrite map_nth.
      change (fadd (a := RA)) with Rplus. change (fmul (a := RA)) with Rmult. change (F RA) with R. ring. }
  etransitivity; [exact (G (length inp) 0%nat (0 / 1) eq_refl)|]. apply okR. replace (0 / 1) with 0 by field. ring.
Qed.
Print Assumptions C63_linear_consequent.
Example C63_linear_example : LinearMF (A := RA) [mkIO (A := RA) 0 10 3; mkIO (A := RA) 0 10 5] [2; 7; 1] 2%Z = Ok 42.
Proof. etransitivity; [exact (C63_linear_consequent [mkIO (A := RA) 0 10 3; mkIO (A := RA) 0 10 5] [2; 7; 1] eq_refl)|]. apply okR. cbn. lra. Qed.
Definition demo_const (z : R) : mf RA := mkMF (Some (ConstantMF (A := RA))) [z] 0 1 0.
Lemma const_set z l n : exists m', membership (A := RA) (demo_const z) l n = Ok (z, m').
Proof.
  rewrite membership_val. assert (E : mf_val (A := RA) (demo_const z) l n = Ok z) by (cbn; apply okR; lra). rewrite E. eexists. reflexivity.
Qed.
Definition demo_sugeno : fis RA :=
  let f := demo wtaver Sugeno None (Some [1/4; 3/4]) in
  mkFis (f_cfg f) (f_in f) (f_out f) (f_inMF f) [demo_const 2; demo_const 6] (f_wi f) 0.
Example C63_weighted_example : takagi demo_sugeno demo_rules [1/4; 3/4] (fun s => if (s =? 0)%Z then 2 else 6) /\
  value_sum (fun s => if (s =? 0)%Z then 2 else 6) (said 0 demo_rules [1/4; 3/4]) / weight_sum (said 0 demo_rules [1/4; 3/4]) = 5.
Proof.
  split.
  - split.
    + split; try reflexivity; try (cbn; lia).
      * exists []. rewrite app_nil_r. reflexivity.
      * unfold demo_rules, demo_sugeno, demo, rule_ok, item_ok. in_tables.
      * intros q i [<-|[<-|[]]]; cbn [antecedents r_first r_more map snd]; intros [<-|[<-|[]]]; cbn; lia.
      * repeat constructor.
    + discriminate.
    + intros s Hs. cbn in Hs. assert (E : s = 0%Z \/ s = 1%Z) by lia. destruct E as [-> | ->]; apply const_set.
    + repeat constructor; cbn; lra.
  - unfold value_sum, weight_sum, said, said_by, demo_rules, fired. cbn [consequents r_then r_also filter it_var Z.eqb map app fst snd].
    repeat (destruct Rlt_dec; [|exfalso; lra]). cbn [fold_right fst snd it_set Z.eqb]. field.
Qed.

(** In binary32, when no rule that speaks of an output has fired, the centroid
    is 0/0 and the output becomes its minimum. *)
Theorem C63_nothing_fired : forall o (f : fis (B32 o)) rs ws deg, system f rs ws -> c_type (f_cfg f) = Mamdani -> sets_are f deg -> c_defuzz (f_cfg f) = centroid ->
  exists f', deFuzzify f = Ok (true, f') /\
  forall j, (0 <= j < c_nOut (f_cfg f))%Z -> Forall (fun p : F (B32 o) * item => flt (a := B32 o) (lit 0 1) (fst p) = false) (said j rs ws) ->
    o_value (nth (Z.to_nat j) (f_out f') out_new) = o_min (nth (Z.to_nat j) (f_out f) out_new).
Proof.
  intros o f rs ws deg M Ty St Dz. destruct (mamdani_well f rs ws deg M Ty St) as (tail & W & Inv).
  assert (P : (0 <= c_nOut (f_cfg f))%Z) by (rewrite <- (s_outs _ _ _ M); unfold zlen; lia).
  assert (AG : forall j, ag_ok (nth j (f_out f) out_new)).
  { intros j. destruct (Nat.lt_ge_cases j (length (f_out f))) as [L|L].
    - pose proof (s_region _ _ _ M) as Hr. rewrite Forall_forall in Hr. specialize (Hr _ (nth_In _ out_new L)). unfold ag_ok. destruct (o_ag _) as [[xs ys]|]; auto.
    - rewrite nth_overflow by auto. exact Logic.I. }
  destruct (mamdani_ok _ _ _ _ _ _ _ _ f Ty (s_ready _ _ _ M) W Inv AG P) as (f' & E & _ & V).
  exists f'. split; [exact E|]. intros j Hj H. specialize (V j Hj). cbv zeta in V. destruct V as [V _]. rewrite V. clear V. rewrite Dz.
  set (o0 := nth (Z.to_nat j) (f_out f) out_new).
  destruct (sweep_vs (f_cfg f) deg rs ws (Z.to_nat nPoints) j 0 (deFuzz_init centroid o0)) as (S1 & S2 & S3 & _).
  rewrite S2, S3. unfold crisp. rewrite Dz in *. cbn [deFuzz_end].
  revert S1. generalize (sweep (f_cfg f) deg rs ws (Z.to_nat nPoints) j 0 (deFuzz_init centroid o0)) as s. intros s.
  generalize (map (fun i => nextX (deFuzz_init centroid o0) (0 + Z.of_nat i)) (seq 0 (Z.to_nat nPoints))) as pts. intros pts S1.
  cbn [deFuzz_init] in S1. unfold vs in S1 at 2. cbn [out_v o_v0 o_v1 o_v2 o_v3] in S1.
  destruct (nothing o deg (f_cfg f) rs ws j pts H (lit (a := B32 o) 0 1) (lit (a := B32 o) 0 1) (o_v2 o0) (o_v3 o0)) as [N1 N2]; [rewrite b32_zero; exact Logic.I|reflexivity|].
  assert (N3 : znan (o_v0 s)) by (change (o_v0 s) with (fst (fst (fst (vs s)))); rewrite S1; exact N1).
  assert (N4 : o_v1 s = lit (a := B32 o) 0 1) by (change (o_v1 s) with (snd (fst (fst (vs s)))); rewrite S1; exact N2).
  clear N1 N2. rename N3 into N1. rewrite N4. rewrite b32_zero.
  assert (Nn : fisnan (A := B32 o) (fdiv (a := B32 o) (o_v0 s) (B754_zero 24 128 false)) = true).
  { rewrite b32_isnan. revert N1. generalize (o_v0 s). intros v. change (F (B32 o)) with binary32 in v. intros N1.
    change (fdiv (a := B32 o)) with (b32_div mode_NE). destruct v as [sg|sg|sg p Hp|sg m e He]; try destruct N1; destruct sg; reflexivity. }
  unfold bound, inRangeCoerce. rewrite Nn. reflexivity.
Qed.
Print Assumptions C63_nothing_fired.

(** ** C64: which settings are accepted *)
(** The documentation's tables (fis.hpp:94-103 and 770-779). *)
Definition documented (p : parameter) (x : oper) : Prop :=
  match p with
  | FIS_Implication => x = FIS_MIN \/ x = FIS_PROD
  | FIS_Aggregation => x = FIS_MAX \/ x = FIS_PROBOR \/ x = FIS_SUM
  | FIS_AND => x = FIS_MIN \/ x = FIS_PROD
  | FIS_OR => x = FIS_MAX \/ x = FIS_PROBOR
  | FIS_EvalPoints => False
  end.
Definition documented_method (t : fistype) (m : method) : Prop :=
  match t with
  | Mamdani => m = centroid \/ m = bisector \/ m = mom \/ m = lom \/ m = som
  | Sugeno => m = wtaver \/ m = wtsum
  | Tsukamoto => m = wtaver
  end.
(** A refused setting changes nothing; an accepted one changes that setting
    only; and except for the implication acceptance is as documented. *)
Theorem C64_settings : forall (A : arith) (f : fis A) p x m,
  (p <> FIS_Implication -> (fst (setParameter p x f) = true <-> documented p x)) /\
  (documented p x -> fst (setParameter p x f) = true) /\
  (fst (setParameter p x f) = false -> snd (setParameter p x f) = f) /\
  (fst (setParameter p x f) = true -> let c := f_cfg f in snd (setParameter p x f) = with_cfg f (match p with
     | FIS_Implication => with_ops c (c_and c) (c_or c) x (c_aggr c)
     | FIS_Aggregation => with_ops c (c_and c) (c_or c) (c_impl c) x
     | FIS_AND => with_ops c x (c_or c) (c_impl c) (c_aggr c)
     | FIS_OR => with_ops c (c_and c) x (c_impl c) (c_aggr c)
     | FIS_EvalPoints => c end)) /\
  (fst (setDeFuzzMethod m f) = true <-> documented_method (c_type (f_cfg f)) m) /\
  (fst (setDeFuzzMethod m f) = false -> snd (setDeFuzzMethod m f) = f) /\
  (fst (setDeFuzzMethod m f) = true -> snd (setDeFuzzMethod m f) = with_cfg f (with_defuzz (f_cfg f) m)).
Proof.
  intros A f p x m. unfold setDeFuzzMethod.
  split; [destruct p, x; cbn; intuition congruence|].
  split; [destruct p, x; cbn; intuition congruence|].
  split; [destruct p, x; cbn; intuition congruence|].
  split; [destruct p, x; cbn; intuition congruence|].
  split; [destruct (c_type (f_cfg f)), m; cbn; intuition congruence|].
  split; destruct (c_type (f_cfg f)), m; cbn; intuition congruence.
Qed.
Print Assumptions C64_settings.
(** The implication also accepts MAX and PROBOR, against "Only FIS_MIN and
    FIS_PROD supported"; the number of points can never be set. *)
Theorem C64_implication_refuted : forall (A : arith) (f : fis A) x,
  fst (setParameter FIS_Implication FIS_MAX f) = true /\ fst (setParameter FIS_Implication FIS_PROBOR f) = true /\
  ~ documented FIS_Implication FIS_MAX /\ ~ documented FIS_Implication FIS_PROBOR /\ setParameter FIS_EvalPoints x f = (false, f).
Proof. intros A f x. repeat split; cbn; intuition congruence. Qed.
Print Assumptions C64_implication_refuted.

(** ** C78: fuzzification *)
(** In exact arithmetic: every input is clipped to its range and every input set
    gets its height times its shape at the clipped value of its input. *)
Theorem C78_fuzzify : forall (f : fis RA) (v : Z -> R -> R), c_ready (f_cfg f) = true ->
  zlen (f_in f) = c_nIn (f_cfg f) -> zlen (f_inMF f) = c_nMFIn (f_cfg f) -> Forall (fun i : io RA => io_min i <= io_max i) (f_in f) ->
  (forall s, (0 <= s < c_nMFIn (f_cfg f))%Z -> let m := nth (Z.to_nat s) (f_inMF f) mf_new in
     (0 <= mf_index m < c_nIn (f_cfg f))%Z /\ exists sh, mf_shape m = Some sh /\ forall i rest, sh (i :: rest) (mf_points m) 1%Z = Ok (v s (io_value i))) ->
  exists f', fuzzify f = Ok (true, f') /\ f_cfg f' = f_cfg f /\ f_out f' = f_out f /\ f_outMF f' = f_outMF f /\ f_wi f' = f_wi f /\
    zlen (f_in f') = zlen (f_in f) /\ zlen (f_inMF f') = zlen (f_inMF f) /\
    (forall t, (0 <= t < c_nIn (f_cfg f))%Z -> let i := nth (Z.to_nat t) (f_in f) io_new in
       nth (Z.to_nat t) (f_in f') io_new = mkIO (io_min i) (io_max i) (clip (io_min i) (io_max i) (io_value i))) /\
    (forall s, (0 <= s < c_nMFIn (f_cfg f))%Z -> let m := nth (Z.to_nat s) (f_inMF f) mf_new in let i := nth (Z.to_nat (mf_index m)) (f_in f) io_new in
       nth (Z.to_nat s) (f_inMF f') mf_new = mkMF (mf_shape m) (mf_points m) (mf_h m * v s (clip (io_min i) (io_max i) (io_value i))) (mf_h m) (mf_index m)).
Proof.
  intros f v Hr Hi Hm Hs Hv. unfold fuzzify. rewrite Hr.
  set (h := fun i : io RA => mkIO (A := RA) (io_min i) (io_max i) (bound (A := RA) (io_value i) (io_min i) (io_max i))).
  rewrite (mapn_all _ h) by auto. cbn [bind]. set (li := map h (f_in f)).
  assert (Li : forall t, (0 <= t < c_nIn (f_cfg f))%Z -> let i := nth (Z.to_nat t) (f_in f) io_new in
       nth (Z.to_nat t) li io_new = mkIO (A := RA) (io_min i) (io_max i) (clip (io_min i) (io_max i) (io_value i))).
  { intros t Ht i. unfold li. rewrite (nth_indep _ io_new (h io_new)) by (rewrite map_length; unfold zlen in Hi; lia). rewrite map_nth. fold i. unfold h.
    rewrite bound_R; [reflexivity|]. rewrite Forall_forall in Hs. apply Hs, nth_In. unfold zlen in Hi. lia. }
  set (val := fun m : mf RA => match membership (A := RA) m (skipn (Z.to_nat (mf_index m)) li) 1 with Ok p => snd p | Ub => m end).
  assert (Sk : forall t, (0 <= t < c_nIn (f_cfg f))%Z -> skipn (Z.to_nat t) li = nth (Z.to_nat t) li io_new :: skipn (S (Z.to_nat t)) li).
  { intros t Ht. assert (L : (Z.to_nat t < length li)%nat) by (unfold li; rewrite map_length; unfold zlen in Hi; lia). revert L. generalize (Z.to_nat t). clear.
    induction li as [|a l IH]; intros n L; cbn in L; [lia|]. destruct n; [reflexivity|]. cbn [skipn nth]. apply IH. lia. }
  assert (Vl : forall s, (0 <= s < c_nMFIn (f_cfg f))%Z -> let m := nth (Z.to_nat s) (f_inMF f) mf_new in let i := nth (Z.to_nat (mf_index m)) (f_in f) io_new in
     membership (A := RA) m (skipn (Z.to_nat (mf_index m)) li) 1 = Ok (mf_h m * v s (clip (io_min i) (io_max i) (io_value i)),
       mkMF (mf_shape m) (mf_points m) (mf_h m * v s (clip (io_min i) (io_max i) (io_value i))) (mf_h m) (mf_index m))).
  { intros s Hs' m i. destruct (Hv s Hs') as (I1 & sh & S1 & S2). fold m in I1, S1, S2. rewrite Sk by auto. unfold membership. rewrite S1, S2. cbn [bind]. rewrite Li by auto. reflexivity. }
  rewrite (mapn_all _ val); [| |exact Hm].
  2:{ intros m Im. unfold val. destruct (In_nth _ _ (mf_new) Im) as (n & Hn & E). assert (Hs' : (0 <= Z.of_nat n < c_nMFIn (f_cfg f))%Z) by (unfold zlen in Hm; lia).
      specialize (Vl _ Hs'). cbv zeta in Vl. rewrite Nat2Z.id, E in Vl. rewrite Vl. reflexivity. }
  cbn [bind]. eexists. split; [reflexivity|]. cbn [with_inMF with_in f_cfg f_in f_out f_inMF f_outMF f_wi]. do 4 (split; [reflexivity|]).
  split; [unfold li, zlen; rewrite map_length; reflexivity|]. split; [unfold zlen; rewrite map_length; reflexivity|]. split; [exact Li|].
  intros s Hs'. rewrite (nth_indep _ mf_new (val mf_new)) by (rewrite map_length; unfold zlen in Hm; lia). rewrite map_nth. unfold val.
  specialize (Vl s Hs'). cbv zeta in Vl. rewrite Vl. reflexivity.
Qed.
Print Assumptions C78_fuzzify.
Example C78_example : let f := demo centroid Mamdani None (Some [0; 0]) in
  forall s, (0 <= s < c_nMFIn (f_cfg f))%Z -> let m := nth (Z.to_nat s) (f_inMF f) mf_new in
     (0 <= mf_index m < c_nIn (f_cfg f))%Z /\ exists sh, mf_shape m = Some sh /\
     forall i rest, sh (i :: rest) (mf_points m) 1%Z = Ok ((fun s x => if (s =? 0)%Z then rectangle 0 4 x else rectangle 4 9 x) s (io_value i)).
Proof.
  intros f s Hs m. change (0 <= s < 2)%Z in Hs. assert (E : s = 0%Z \/ s = 1%Z) by lia. unfold m, f.
  destruct E as [-> | ->]; (split; [split; [apply Z.le_refl|reflexivity]|]; eexists; split; [reflexivity|]; intros i rest; cbn; unfold rectangle, Rleb; apply okR; repeat destruct Rle_dec; cbn; lra).
Qed.

(** In binary32 the clipped inputs lie in their range, NaN inputs included. *)
Theorem C78_inputs_binary32 : forall o (f f' : fis (B32 o)), fuzzify f = Ok (true, f') ->
  forall t, (Z.of_nat t < c_nIn (f_cfg f))%Z -> let i := nth t (f_in f) io_new in let i' := nth t (f_in f') io_new in
    io_min i' = io_min i /\ io_max i' = io_max i /\
    (b32_le (io_min i) (io_max i) = true -> b32_le (io_min i) (io_value i') = true /\ b32_le (io_value i') (io_max i) = true).
Proof.
  intros o f f' E t Ht i i'. unfold fuzzify in E. destruct (c_ready (f_cfg f)); [|discriminate].
  apply bind_ok in E. destruct E as (li & E1 & E). apply bind_ok in E. destruct E as (lm & E2 & E). injection E as <-. cbn [f_in with_in with_inMF] in i'.
  apply mapn_inv in E1. destruct E1 as (_ & _ & E1). specialize (E1 t io_new).
  replace (t <? Z.to_nat (c_nIn (f_cfg f)))%nat with true in E1 by (symmetry; apply Nat.ltb_lt; lia). cbv beta in E1. injection E1 as E1. fold i i' in E1. rewrite <- E1.
  cbn [io_min io_max io_value]. split; auto. split; auto. intros L. pose proof (C69_coerce o (io_value i) _ _ L) as C. cbv zeta in C. unfold bound. tauto.
Qed.
Print Assumptions C78_inputs_binary32.

(** ** C79: aggregation reads the rules as they were written *)
(** The one exception (deviation): IS_NOT of input set 123 is the cell -124,
    which aggregation takes for THEN, and it then reads the rest of the
    antecedents as consequents although the inference has read them rightly.
    Here the rule IF x IS_NOT s123 AND ... is aggregated at an output tag that
    is a connector cell: an access before the array of outputs. *)
Definition then_rule : rule := mkRule (mkItem 0 true 123) [(And, mkItem 0 false 0)] (mkItem 0 false 0) [].
Definition many {A : arith} (w : option (list (F A))) : fis A :=
  let s := mkMF (Some ConstantMF) [lit 1 1] (lit 0 1) (lit 1 1) 0 in
  mkFis (mkConfig true Mamdani 1 1 124 1 (text [then_rule]) 1 FIS_MIN FIS_MAX FIS_MIN FIS_MAX centroid None (-1)) [io_new] [out_new] (repeat s 124) [s] w 0.
Theorem C79_then_refuted : forall A : arith, (lit (a := A) 1 1 >? lit 0 1)%fl = true ->
  set_cell (mkItem 0 true 123) = cell_THEN /\ rule_ok 1 124 1 1 then_rule /\
  (exists w f', inference (A := A) (many (Some [lit 0 1])) = Ok (true, f') /\ f_wi f' = Some w) /\
  fuzzyAggregate (A := A) (many (Some [lit 1 1])) = Ub.
Proof.
  intros A H. split; [reflexivity|]. split; [unfold rule_ok, item_ok; in_tables|]. split.
  - eexists _, _. split; reflexivity.
  - lazy -[lit flt]. rewrite H. reflexivity.
Qed.
Print Assumptions C79_then_refuted.

(** Otherwise every output hears exactly the consequents that name it, in the
    order of the text, each with the strength of its rule: for a Mamdani system
    y becomes the surface at the output's current value. *)
Theorem C79_follows_text : forall f rs ws deg, mamdani f rs ws deg ->
  exists f', fuzzyAggregate f = Ok f' /\ f_cfg f' = f_cfg f /\ f_wi f' = Some ws /\ zlen (f_out f') = zlen (f_out f) /\
  forall j, (0 <= j < c_nOut (f_cfg f))%Z ->
    let o := nth (Z.to_nat j) (f_out f) out_new in
    o_y o = 0 -> nth (Z.to_nat j) (f_out f') out_new =
      out_xy o (o_x o) (surface (c_impl (f_cfg f)) (c_aggr (f_cfg f)) deg (said j rs ws) (o_value o)).
Proof.
  intros f rs ws deg M. destruct (mamdani_well _ _ _ _ (m_sys _ _ _ _ M) (m_type _ _ _ _ M) (m_sets _ _ _ _ M)) as (tail & W & Inv).
  destruct (agg_inv _ _ _ _ _ _ _ _ f W Inv) as (f' & E & (I1 & _ & I3 & _ & I5) & _ & V). exists f'. split; auto. split; auto. split; auto.
  split; [rewrite I5; symmetry; apply (s_outs _ _ _ (m_sys _ _ _ _ M))|]. intros j Hj o Hy. rewrite V by lia. fold o. rewrite heard_mamdani by apply (m_type _ _ _ _ M).
  f_equal. rewrite Hy. destruct (surface_R (f_cfg f) deg rs ws j (o_value o)) as [S _]; [eapply mamdani_said; eauto|]. rewrite <- S. unfold mu. rewrite zero_R. reflexivity.
Qed.
Print Assumptions C79_follows_text.
Example C79_example : mamdani (demo centroid Mamdani None (Some [1/4; 2/3])) demo_rules [1/4; 2/3] demo_deg /\
  o_y (nth 0 (f_out (demo centroid Mamdani None (Some [1/4; 2/3]))) out_new) = 0.
Proof. split; [apply demo_mamdani|reflexivity]. Qed.

(** ** C80: set-up and access *)
Open Scope Z_scope.
(** Until an accepted set-up every operation answers false and has no effect. *)
Theorem C80_before_setup : forall (A : arith) (f : fis A) t mn mx x tm s g cp, c_ready (f_cfg f) = false ->
  setupInput t mn mx f = Ok (false, f) /\ setupOutput t mn mx f = Ok (false, f) /\ setInput t x f = Ok (false, f) /\ getOutput t f = Ok None /\
  setupInputMF t tm s g cp x f = Ok (false, f) /\ setupOutputMF t tm s g cp x f = Ok (false, f) /\
  fuzzify f = Ok (false, f) /\ inference f = Ok (false, f) /\ deFuzzify f = Ok (false, f).
Proof.
  intros A f t mn mx x tm s g cp H. unfold setupInput, setupOutput, setInput, getOutput, setupInputMF, setupOutputMF, fuzzify, inference, deFuzzify. rewrite H. repeat split.
Qed.
Print Assumptions C80_before_setup.
Example C80_before_setup_example : forall A : arith, c_ready (f_cfg (fis_new (A := A))) = false. Proof. reflexivity. Qed.

(** Set-up is refused, without effect, for a missing array or an empty one; an
    accepted one installs the arrays, the documented defaults and the method of
    the type, but keeps the weights and the rule count of the system's past
    (deviation: weights of an earlier system go on being applied). *)
Theorem C80_setup : forall (A : arith) (f : fis A) t li ni lo no lmi nmi lmo nmo r n w,
  (li = None \/ lo = None \/ lmi = None \/ lmo = None \/ r = None \/ ni <= 0 \/ no <= 0 \/ nmi <= 0 \/ nmo <= 0 \/ n <= 0 ->
     fis_setup t li ni lo no lmi nmi lmo nmo r n w f = Ok (false, f)) /\
  (forall i o mi mo rr, li = Some i -> lo = Some o -> lmi = Some mi -> lmo = Some mo -> r = Some rr ->
     0 < ni -> 0 < no <= zlen o -> 0 < nmi -> 0 < nmo -> 0 < n ->
     exists f', fis_setup t li ni lo no lmi nmi lmo nmo r n w f = Ok (true, f') /\
       f_in f' = i /\ f_inMF f' = mi /\ f_outMF f' = mo /\ f_wi f' = w /\ length (f_out f') = length o /\
       let c := f_cfg f' in c_ready c = true /\ c_type c = t /\ c_nIn c = ni /\ c_nOut c = no /\ c_nMFIn c = nmi /\ c_nMFOut c = nmo /\ c_rules c = rr /\ c_nRules c = n /\
       c_and c = FIS_MIN /\ c_or c = FIS_MAX /\ c_impl c = FIS_MIN /\ c_aggr c = FIS_MAX /\ documented_method t (c_defuzz c) /\
       c_weights c = c_weights (f_cfg f) /\ f_count f' = f_count f).
Proof.
  intros A f t li ni lo no lmi nmi lmo nmo r n w. split.
  - intros H. unfold fis_setup. destruct li, lo, lmi, lmo, r; try reflexivity.
    assert (K : (ni >? 0) && (no >? 0) && (nmi >? 0) && (nmo >? 0) && (n >? 0) = false).
    { rewrite !andb_false_iff, !Z.gtb_ltb, !Z.ltb_ge. repeat (destruct H as [H|H]; try discriminate); lia. }
    rewrite K. reflexivity.
  - intros i o mi mo rr -> -> -> -> -> H1 H2 H3 H4 H5. unfold fis_setup.
    assert (K : (ni >? 0) && (no >? 0) && (nmi >? 0) && (nmo >? 0) && (n >? 0) = true).
    { rewrite !andb_true_iff, !Z.gtb_ltb, !Z.ltb_lt. lia. }
    rewrite K. rewrite (mapn_ok _ (fun o => mkOut (o_min o) (o_max o) (o_value o) (o_res o) (o_x o) (o_y o) (o_v0 o) (o_v1 o) (o_v2 o) (o_v3 o) (o_ag o) true)) by (auto; unfold zlen in H2; lia).
    cbn [bind]. eexists. split; [reflexivity|]. cbn [f_cfg f_in f_inMF f_outMF f_wi f_out f_count c_ready c_type c_nIn c_nOut c_nMFIn c_nMFOut c_rules c_nRules c_and c_or c_impl c_aggr c_defuzz c_weights].
    repeat split; auto. { rewrite app_length, map_length, firstn_length, skipn_length. lia. } { destruct t; cbn; auto. }
Qed.
Print Assumptions C80_setup.

(** A tag within the tables selects the object, the others are left alone. *)
Theorem C80_access : forall (A : arith) (f : fis A) t mn mx x, c_ready (f_cfg f) = true ->
  (t < 0 -> setupInput t mn mx f = Ok (false, f) /\ setupOutput t mn mx f = Ok (false, f) /\ setInput t x f = Ok (false, f) /\ getOutput t f = Ok None) /\
  (0 <= t < zlen (f_in f) ->
     let i := nth (Z.to_nat t) (f_in f) io_new in
     setupInput t mn mx f = Ok (true, with_in f (upd (f_in f) (Z.to_nat t) (mkIO mn mx (io_value i)))) /\
     setInput t x f = Ok (true, with_in f (upd (f_in f) (Z.to_nat t) (mkIO (io_min i) (io_max i) x)))) /\
  (0 <= t < zlen (f_out f) ->
     let o := nth (Z.to_nat t) (f_out f) out_new in
     getOutput t f = Ok (Some (o_value o)) /\
     exists o', setupOutput t mn mx f = Ok (true, with_out f (upd (f_out f) (Z.to_nat t) o')) /\
       o_min o' = mn /\ o_max o' = mx /\ o_res o' = ((mx - mn) / lit 100 1)%fl /\ o_value o' = o_value o) /\
  (0 <= t < c_nOut (f_cfg f) -> t < zlen (f_out f) -> at_output t f = Ok (o_value (nth (Z.to_nat t) (f_out f) out_new))).
Proof.
  intros A f t mn mx x H. unfold setupInput, setupOutput, setInput, getOutput, at_output. rewrite H. split; [|split; [|split]].
  - intros L. replace (t >=? 0) with false by (symmetry; rewrite Z.geb_leb; apply Z.leb_gt; lia). repeat split.
  - intros L. replace (t >=? 0) with true by (symmetry; rewrite Z.geb_leb; apply Z.leb_le; lia). cbn [andb].
    rewrite (get_ok_nth _ _ io_new) by auto. cbn [bind]. rewrite !set_ok by auto. split; reflexivity.
  - intros L. replace (t >=? 0) with true by (symmetry; rewrite Z.geb_leb; apply Z.leb_le; lia). cbn [andb].
    rewrite (get_ok_nth _ _ out_new) by auto. cbn [bind]. rewrite !set_ok by auto. split; [reflexivity|]. eexists. split; [reflexivity|]. repeat split.
  - intros L1 L2. replace ((0 <=? t) && (t <? c_nOut (f_cfg f))) with true by (symmetry; apply andb_true_intro; split; [apply Z.leb_le|apply Z.ltb_lt]; lia).
    rewrite (get_ok_nth _ _ out_new) by lia. reflexivity.
Qed.
Print Assumptions C80_access.
Example C80_access_example : c_ready (f_cfg (demo centroid Mamdani None None)) = true /\ zlen (f_in (demo centroid Mamdani None None)) = 2 /\ zlen (f_out (demo centroid Mamdani None None)) = 1.
Proof. repeat split. Qed.

(** Deviations: a tag beyond the tables is not refused but accessed; the index
    operator with a tag that is no output's returns the value of an input. *)
Theorem C80_access_refuted : forall (A : arith) x,
  let f := small (A := A) [cell_BEGIN] None 0 in
  setInput 1 x f = Ub /\ setupInput 1 x x f = Ub /\ getOutput 1 f = Ub /\ setupInputMF 0 1 0 None [x] x f = Ub /\
  at_output 5 f = Ok (io_value (io_new (A := A))) /\ at_output (-1) f = Ok (io_value (io_new (A := A))).
Proof. intros A x f. repeat split; reflexivity. Qed.
Print Assumptions C80_access_refuted.

(** A set takes its shape from the table of the header (or the user's own
    function), its height clipped to [0,1], 1 for the consequents of Sugeno and
    Tsukamoto systems; the code of a custom set selects the constant shape. *)
(** The enumeration shapeMF, fis.hpp:33-61, with the shape each name stands for. *)
Definition named_shapes {A : arith} : list (Z * mfFunction A) :=
  [(0, ConstantMF) (* custommf *); (1, TriMF) (* trimf *); (2, TrapMF) (* trapmf *); (3, GBellMF) (* gbellmf *); (4, GaussMF) (* gaussmf *);
   (5, Gauss2MF) (* gauss2mf *); (6, SigMF) (* sigmf *); (7, DSigMF) (* dsigmf *); (8, PSigMF) (* psigmf *); (9, PiMF) (* pimf *);
   (10, SMF) (* smf *); (11, ZMF) (* zmf *); (12, SingletonMF) (* singletonmf *); (13, ConcaveMF) (* concavemf *); (14, SpikeMF) (* spikemf *);
   (15, LinSMF) (* linsmf *); (16, LinZMF) (* linzmf *); (17, RectangleMF) (* rectmf *); (18, CosineMF) (* cosmf *); (19, ConstantMF) (* constantmf *);
   (20, LinearMF) (* linearmf *); (21, TLinSMF) (* tlinsmf *); (22, TLinZMF) (* tlinzmf *); (23, TConcaveMF) (* tconcavemf *); (24, TSigMF) (* tsigmf *);
   (25, TSMF) (* tsmf *); (26, TZMF) (* tzmf *); (27, TRampMF) (* trampmf *)].
Theorem C80_sets : forall (A : arith) (f : fis A) tio tmf s cp h sh, c_ready (f_cfg f) = true -> 0 <= tio -> 0 <= s < 28 -> nth_error fShape (Z.to_nat s) = Some sh ->
  (0 <= tmf < zlen (f_inMF f) -> 0 < c_nMFIn (f_cfg f) -> forall g,
     setupInputMF tio tmf s g cp h f = Ok (true, with_inMF f (upd (f_inMF f) (Z.to_nat tmf)
       (mkMF (Some (match g with Some u => u | None => sh end)) cp (lit 0 1) (bound01 h) tio)))) /\
  (0 <= tmf < zlen (f_outMF f) -> 0 < c_nMFOut (f_cfg f) -> forall g,
     setupOutputMF tio tmf s g cp h f = Ok (true, with_outMF f (upd (f_outMF f) (Z.to_nat tmf)
       (mkMF (Some (match g with Some u => u | None => sh end)) cp (lit 0 1) (bound01 (match c_type (f_cfg f) with Mamdani => h | _ => lit 1 1 end)) tio)))) /\
  (tio < 0 \/ tmf < 0 -> forall g, setMF (f_inMF f) tio tmf s g cp h = Ok (false, f_inMF f)) /\
  (forall c u, In (c, u) (named_shapes (A := A)) -> nth_error fShape (Z.to_nat c) = Some u) /\ length (fShape (A := A)) = 28%nat.
Proof.
  intros A f tio tmf s cp h sh H T Sb E.
  assert (G : get fShape s = Ok sh) by (unfold get; replace (s <? 0) with false by (symmetry; apply Z.ltb_ge; lia); rewrite E; reflexivity).
  assert (B : (tio >=? 0) && (s <? 28) = true) by (apply andb_true_intro; rewrite Z.geb_leb; split; [apply Z.leb_le|apply Z.ltb_lt]; lia).
  apply andb_prop in B. destruct B as [B1 B2].
  unfold setupInputMF, setupOutputMF, setMF. rewrite H, B1, B2. split; [|split; [|split; [|split; [|reflexivity]]]].
  4:{ unfold named_shapes. cbn [In]. intros c u I. repeat (destruct I as [I|I]; [injection I as <- <-; reflexivity|]). destruct I. }
  - intros L N g. replace (c_nMFIn (f_cfg f) >? 0) with true by (symmetry; rewrite Z.gtb_ltb; apply Z.ltb_lt; lia).
    replace (tmf >=? 0) with true by (symmetry; rewrite Z.geb_leb; apply Z.leb_le; lia). cbn [andb].
    destruct g as [u|]; [|rewrite G]; cbn [bind]; rewrite set_ok by auto; reflexivity.
  - intros L N g. replace (c_nMFOut (f_cfg f) >? 0) with true by (symmetry; rewrite Z.gtb_ltb; apply Z.ltb_lt; lia).
    replace (tmf >=? 0) with true by (symmetry; rewrite Z.geb_leb; apply Z.leb_le; lia). cbn [andb].
    destruct g as [u|]; [|rewrite G]; cbn [bind]; rewrite set_ok by auto; reflexivity.
  - intros [L|L] g; [lia|]. replace (tmf >=? 0) with false by (symmetry; rewrite Z.geb_leb; apply Z.leb_gt; lia). reflexivity.
Qed.
Print Assumptions C80_sets.

(** A region is stored only by an output of a set-up system with both arrays of
    at least as many cells as there are points. *)
Theorem C80_region : forall (A : arith) (o : out A) x y n,
  let r := storeAggregatedRegion x y n o in
  (fst r = true <-> o_owned o = true /\ x <> None /\ y <> None /\ 100 <= n) /\ (fst r = false -> snd r = o) /\
  (forall xs ys, x = Some xs -> y = Some ys -> fst r = true -> o_ag (snd r) = Some (xs, ys)).
Proof.
  intros A o x y n r. unfold r, storeAggregatedRegion, nPoints. destruct (o_owned o), x as [xs|], y as [ys|]; cbn [fst snd];
    try (split; [split; [discriminate|intros (H1 & H2 & H3 & H4); congruence]|split; [reflexivity|intros; discriminate]]).
  destruct (Z.geb_spec n 100); cbn [fst snd]; (split; [split; [try discriminate|intros (H1 & H2 & H3 & H4); try lia; reflexivity]|split; [try discriminate; reflexivity|intros; try discriminate]]).
  - intros _. repeat split; congruence.
  - cbn. congruence.
Qed.
Print Assumptions C80_region.

(** ** C81: a whole evaluation *)
Open Scope R_scope.
(** In exact arithmetic fuzzify(), inference() and deFuzzify() of a Mamdani
    system succeed, and every output is what its method takes from the surface
    that the rules span over the clipped inputs: a function of the inputs alone,
    whatever was computed before. *)
Theorem C81_evaluation : forall (f : fis RA) rs w ws (v deg : Z -> R -> R),
  ruled f rs w -> length w = length rs -> c_type (f_cfg f) = Mamdani ->
  c_defuzz (f_cfg f) <> som -> (method_code (c_defuzz (f_cfg f)) <= method_code som)%Z ->
  (forall q i, In q rs -> In i (antecedents q) -> it_not i = true -> it_set i <> 123%Z) ->
  (* the inputs and their sets *)
  zlen (f_in f) = c_nIn (f_cfg f) -> zlen (f_inMF f) = c_nMFIn (f_cfg f) -> Forall (fun i : io RA => io_min i <= io_max i) (f_in f) ->
  (forall s, (0 <= s < c_nMFIn (f_cfg f))%Z -> let m := nth (Z.to_nat s) (f_inMF f) mf_new in
     (0 <= mf_index m < c_nIn (f_cfg f))%Z /\ unit (mf_h m) /\ (forall x, unit (v s x)) /\
     exists sh, mf_shape m = Some sh /\ forall i rest, sh (i :: rest) (mf_points m) 1%Z = Ok (v s (io_value i))) ->
  (* the outputs and their sets *)
  zlen (f_out f) = c_nOut (f_cfg f) -> sets_are f deg -> (forall s x, (0 <= s < zlen (f_outMF f))%Z -> unit (deg s x)) ->
  Forall (fun o : out RA => o_min o <= o_max o /\ o_res o = (o_max o - o_min o) / 100 /\ o_ag o = None) (f_out f) ->
  (* the strengths of the rules at the clipped inputs *)
  length ws = length rs ->
  (forall k q, nth_error rs k = Some q -> nth k ws 0 =
     strength (op_R (c_and (f_cfg f))) (op_R (c_or (f_cfg f)))
       (degree_R (fun s => let m := nth (Z.to_nat s) (f_inMF f) mf_new in let i := nth (Z.to_nat (mf_index m)) (f_in f) io_new in
                           mf_h m * v s (clip (io_min i) (io_max i) (io_value i)))) q *
     match c_weights (f_cfg f) with None => 1 | Some l => clip 0 1 (nth k l 0) end) ->
  exists f1 f2 f3, fuzzify f = Ok (true, f1) /\ inference f1 = Ok (true, f2) /\ deFuzzify f2 = Ok (true, f3) /\
  forall j, (0 <= j < c_nOut (f_cfg f))%Z -> let o := nth (Z.to_nat j) (f_out f) out_new in
    taken (c_defuzz (f_cfg f)) (surface (c_impl (f_cfg f)) (c_aggr (f_cfg f)) deg (said j rs ws)) (grid (o_min o) (o_max o))
      (o_value (nth (Z.to_nat j) (f_out f3) out_new)).
Proof.
  intros f rs w ws v deg Q Lw Ty Ns Nm Th Hi Hm Hs Hv Ho So Sd Sp Lws Hws.
  assert (Hv' : forall s, (0 <= s < c_nMFIn (f_cfg f))%Z -> let m := nth (Z.to_nat s) (f_inMF f) mf_new in
     (0 <= mf_index m < c_nIn (f_cfg f))%Z /\ exists sh, mf_shape m = Some sh /\ forall i rest, sh (i :: rest) (mf_points m) 1%Z = Ok (v s (io_value i))).
  { intros s Hs' m. destruct (Hv s Hs') as (H1 & _ & _ & H2). auto. }
  destruct (C78_fuzzify f v (q_ready _ _ _ Q) Hi Hm Hs Hv') as (f1 & E1 & C1 & O1 & M1 & W1 & Z1 & Z2 & _ & F1).
  set (d := fun s => let m := nth (Z.to_nat s) (f_inMF f) mf_new in let i := nth (Z.to_nat (mf_index m)) (f_in f) io_new in
                           mf_h m * v s (clip (io_min i) (io_max i) (io_value i))) in *.
  assert (Q1 : ruled f1 rs w).
  { destruct Q. split; rewrite ?C1, ?M1, ?Z2, ?W1; auto. }
  assert (D1 : forall s, (0 <= s < c_nMFIn (f_cfg f))%Z -> mf_fx (A := RA) (nth (Z.to_nat s) (f_inMF f1) mf_new) = d s /\ unit (d s)).
  { intros s Hs'. destruct (Hv s Hs') as (H1 & H2 & H3 & _). split; [rewrite (F1 s Hs'); reflexivity|]. unfold d. apply mul_unit; auto. }
  assert (U1 : Forall (fun m : mf RA => unit (mf_fx m)) (f_inMF f1)).
  { apply Forall_forall. intros m Im. destruct (In_nth _ _ mf_new Im) as (n & Hn & E).
    assert (Hs' : (0 <= Z.of_nat n < c_nMFIn (f_cfg f))%Z) by (unfold zlen in *; lia). destruct (D1 _ Hs') as [D2 D3]. rewrite Nat2Z.id, E in D2. rewrite D2. exact D3. }
  destruct (C61_strengths f1 rs w Q1 U1) as (f2 & w2 & E2 & C2 & _ & O2 & _ & M2 & W2 & L2 & S2 & _).
  change (F RA) with R in L2, Lw.
  assert (L3 : @length R w2 = length rs) by (etransitivity; [exact L2|exact Lw]).
  assert (Ew : w2 = ws).
  { apply nth_ext with (d := 0) (d' := 0); [etransitivity; [exact L3|symmetry; exact Lws]|]. intros k Hk. assert (Hk' : (k < length rs)%nat) by (change (k < @length R w2)%nat in Hk; lia).
    destruct (nth_error rs k) as [q|] eqn:Eq; [|apply nth_error_None in Eq; lia]. destruct (S2 k q Eq) as [S3 _]. etransitivity; [exact S3|]. etransitivity; [|symmetry; exact (Hws k q Eq)]. rewrite C1. f_equal.
    assert (Hq : Forall (fun i => (0 <= it_set i < c_nMFIn (f_cfg f))%Z) (antecedents q)).
    { pose proof (q_rules _ _ _ Q) as Hr. rewrite Forall_forall in Hr. destruct (Hr q (nth_error_In _ _ Eq)) as (H1 & _). eapply Forall_impl; [|exact H1].
      intros i (_ & K & _). rewrite <- Hm. exact K. }
    assert (Dg : forall i, (0 <= it_set i < c_nMFIn (f_cfg f))%Z ->
      degree_R (fun s => mf_fx (A := RA) (nth (Z.to_nat s) (f_inMF f1) mf_new)) i = degree_R d i).
    { intros i Hi'. unfold degree_R. rewrite (proj1 (D1 _ Hi')). reflexivity. }
    clear - Hq Dg. unfold strength, antecedents in *. apply Forall_cons_iff in Hq. destruct Hq as [Hq0 Hq]. rewrite Dg by exact Hq0. generalize (degree_R d (r_first q)) as y.
    induction (r_more q) as [|[p i] t IH]; intros y; cbn [fold_left map snd fst] in *; [reflexivity|]. apply Forall_cons_iff in Hq. destruct Hq as [Hq1 Hq].
    rewrite Dg by exact Hq1. apply IH. exact Hq. }
  subst w2.
  assert (M : mamdani f2 rs ws deg).
  { destruct Q1. split.
    - split; rewrite ?C2, ?M2, ?O2, ?C1, ?M1, ?O1 in *; auto.
      + eapply Forall_impl; [|exact q_rules0]. intros q. pose proof (ruled_ok f1 rs w) as X. revert X. intros _.
        assert (Zi : zlen (f_inMF f2) = zlen (f_inMF f1)).
        { destruct (C61_strengths f1 rs w ltac:(split; rewrite ?C1, ?M1; auto) U1) as (g & u & G1 & _ & _ & _ & G2 & _). rewrite E2 in G1. injection G1 as <-. rewrite G2. reflexivity. }
        rewrite Zi. auto.
      + unfold zlen. change (F RA) with R. rewrite Lws. apply Z.le_refl.
      + eapply Forall_impl; [|exact Sp]. cbv beta. intros a (_ & _ & K). rewrite K. exact Logic.I.
    - rewrite C2, C1. exact Ty.
    - unfold sets_are. rewrite M2, M1. exact So.
    - rewrite M2, M1. exact Sd.
    - apply Forall_forall. intros x Ix. destruct (In_nth _ _ 0 Ix) as (n & Hn & E). assert (Hn' : (n < length rs)%nat) by congruence.
      destruct (nth_error rs n) as [q|] eqn:Eq; [|apply nth_error_None in Eq; lia]. destruct (S2 n q Eq) as [_ S3]. change (F RA) with R in *. rewrite E in S3. exact S3.
    - rewrite O2, O1. eapply Forall_impl; [|exact Sp]. cbv beta. intros a (K1 & K2 & _). auto. }
  destruct (C63_mamdani f2 rs ws deg M) as (f3 & E3 & V); [rewrite C2, C1; exact Ns|rewrite C2, C1; exact Nm|].
  exists f1, f2, f3. split; [exact E1|]. split; [exact E2|]. split; [exact E3|]. rewrite C2, C1, O2, O1 in V. intros j Hj o. destruct (V j Hj) as (_ & V2 & _). exact V2.
Qed.
Print Assumptions C81_evaluation.
Example C81_example : let f := demo centroid Mamdani None (Some [0; 0]) in
  exists f1 f2 f3, fuzzify f = Ok (true, f1) /\ inference f1 = Ok (true, f2) /\ deFuzzify f2 = Ok (true, f3) /\
    taken centroid (surface FIS_MIN FIS_MAX demo_deg (said 0 demo_rules [0; 1])) (grid 0 10) (o_value (nth 0 (f_out f3) out_new)).
Proof.
  intros f.
  destruct (C81_evaluation f demo_rules [0; 0] [0; 1] (fun s x => if (s =? 0)%Z then rectangle 0 4 x else rectangle 4 9 x) demo_deg) as (f1 & f2 & f3 & E1 & E2 & E3 & V);
    try reflexivity; try discriminate.
  - split; try reflexivity; try (cbn; lia); try discriminate.
    + exists []. rewrite app_nil_r. reflexivity.
    + unfold demo_rules, f, demo, rule_ok, item_ok. in_tables.
  - intros q i [<-|[<-|[]]]; cbn [antecedents r_first r_more map snd]; intros [<-|[<-|[]]]; cbn; lia.
  - repeat constructor; cbn; lra.
  - intros s Hs m. change (0 <= s < 2)%Z in Hs. destruct (C78_example s Hs) as (X1 & X2). split; [exact X1|]. split; [|split; [|exact X2]].
    + assert (E : s = 0%Z \/ s = 1%Z) by lia. unfold m, unit. destruct E as [-> | ->]; change (0 <= 1 <= 1); lra.
    + intros x. unfold unit, rectangle. destruct (s =? 0)%Z; repeat destruct Rle_dec; lra.
  - exact (m_sets _ _ _ _ (demo_mamdani centroid)).
  - exact (m_degrees _ _ _ _ (demo_mamdani centroid)).
  - repeat constructor; cbn; lra.
  - intros k q Hk.
    assert (C4 : clip 0 10 4 = 4) by (apply clip_id; lra).
    assert (A0 : rectangle 0 4 4 = 1) by (unfold rectangle; repeat destruct Rle_dec; lra).
    assert (A1 : rectangle 4 9 4 = 1) by (unfold rectangle; repeat destruct Rle_dec; lra).
    destruct k as [|[|k]]; [| |destruct k; discriminate]; injection Hk as <-; cbn -[rectangle clip]; change (Pos.to_nat 1) with 1%nat; cbn -[rectangle clip]; rewrite ?C4, ?A0, ?A1; unfold Rmin, Rmax; repeat destruct Rle_dec; lra.
  - exists f1, f2, f3. split; auto. split; auto. split; auto. exact (V 0%Z ltac:(cbn; lia)).
Qed.
