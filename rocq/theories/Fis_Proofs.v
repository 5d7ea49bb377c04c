(** The inference loop. *)
From Coq Require Import ZArith List Bool Lia.
From Verif Require Import Base BaseLemmas Arith Interp1_Model FisCore_Model FisRules_Spec Fis_Model.
Import ListNotations.
Open Scope Z_scope.

Lemma zlen_app {B} (l m : list B) : zlen (l ++ m) = zlen l + zlen m.
Proof. unfold zlen. rewrite app_length. lia. Qed.
Lemma zlen_cons {B} (x : B) l : zlen (x :: l) = 1 + zlen l.
Proof. unfold zlen. cbn [length]. lia. Qed.
Lemma get_app {B} (l m : list B) j : 0 <= j -> get (l ++ m) (zlen l + j) = get m j.
Proof.
  intros H. unfold get, zlen. rewrite !(proj2 (Z.ltb_ge _ _)) by lia. rewrite nth_error_app2 by lia.
  replace (Z.to_nat (Z.of_nat (length l) + j) - length l)%nat with (Z.to_nat j) by lia. reflexivity.
Qed.
Lemma get_app0 {B} (l m : list B) : get (l ++ m) (zlen l) = get m 0.
Proof. rewrite <- (get_app l m 0) by lia. f_equal. lia. Qed.

Lemma parse_ok {A} (l : list (mf A)) i m : 0 <= it_set i < 127 -> get l (it_set i) = Ok m ->
  parseFuzzValue l (set_cell i) = Ok (let y := bound01 (mf_fx m) in if it_not i then (lit 1 1 - y)%fl else y).
Proof.
  intros H G. unfold parseFuzzValue, set_cell. destruct (it_not i).
  - rewrite (proj2 (Z.ltb_lt _ _)) by lia. unfold s8. rewrite Z.mod_small by lia.
    replace (- - (it_set i + 1) + 128 - 128 - 1) with (it_set i) by lia. rewrite G. reflexivity.
  - rewrite (proj2 (Z.ltb_ge _ _)) by lia. replace (it_set i + 1 - 1) with (it_set i) by lia. rewrite G. reflexivity.
Qed.

Section Inference.
Context {A : arith}.
Notation X := (F A).
Variable f : fis A.
Let c := f_cfg f.
Let r := c_rules c.

Definition degree_of (l : list (mf A)) (i : item) : X :=
  let y := bound01 (mf_fx (nth (Z.to_nat (it_set i)) l mf_new)) in if it_not i then (lit 1 1 - y)%fl else y.
Definition op_of (p : connector) : X -> X -> X := match p with And => apply_op (c_and c) | Or => apply_op (c_or c) end.

Lemma parse_item i : 0 <= it_set i < zlen (f_inMF f) -> it_set i < 127 ->
  parseFuzzValue (f_inMF f) (set_cell i) = Ok (degree_of (f_inMF f) i).
Proof.
  intros H L. rewrite (parse_ok _ _ (nth (Z.to_nat (it_set i)) (f_inMF f) mf_new)); [reflexivity|lia|]. apply get_ok_nth. exact H.
Qed.

Lemma conn_cell_cases p : conn_cell p = R_AND /\ p = And \/ conn_cell p = R_OR /\ p = Or.
Proof. destruct p; [left|right]; split; reflexivity. Qed.
Lemma getop p : getFuzzOperator c (conn_cell p) = op_of p.
Proof. destruct p; reflexivity. Qed.

Definition ok_in (i : item) : Prop := 0 <= it_var i <= c_nIn c /\ 0 <= it_set i < zlen (f_inMF f) /\ it_set i < 127.

(** The antecedents of a rule. *)
Lemma ante_loop more : forall it pre post lc s w n k,
  r = pre ++ item_cells it ++ more_cells more ++ R_THEN :: post ->
  ok_in it -> Forall ok_in (map snd more) -> 0 < zlen pre -> n < c_nRules c ->
  exists lc' : Z, inference_loop (S (length more) + k) f (mkI (zlen pre) true s lc w n) =
  inference_loop k f (mkI (zlen pre + zlen (item_cells it ++ more_cells more) + 1) false
    (fold_left (fun y (p : connector * item) => op_of (fst p) y (degree_of (f_inMF f) (snd p))) more
       (getFuzzOperator c lc s (degree_of (f_inMF f) it))) lc' w n).
Proof.
  induction more as [|[p it'] more IH]; intros it pre post lc s w n k Er Hit Hm Hp Hn.
  - exists lc. cbn [length Nat.add inference_loop i_i i_ante i_count]. fold c r.
    assert (G0 : get r (zlen pre) = Ok (it_var it)) by (rewrite Er, get_app0; reflexivity).
    assert (G1 : get r (zlen pre + 1) = Ok (set_cell it)) by (rewrite Er, get_app by lia; reflexivity).
    assert (G2 : get r (zlen pre + 2) = Ok R_THEN) by (rewrite Er, get_app by lia; reflexivity).
    destruct Hit as (V & T & L). rewrite G0. cbn [bind]. rewrite (proj2 (Z.eqb_neq _ _)) by (unfold RULES_END; lia). rewrite (proj2 (Z.ltb_lt n _)) by lia. cbn [negb andb].
    unfold inferenceAntecedent. cbn [i_i i_ante i_str i_conn i_wi i_count]. fold c r. rewrite G0, G1, G2. cbn [bind]. rewrite parse_item by auto. cbn [bind].
    rewrite (proj2 (Z.ltb_ge (it_var it) 0)) by lia. rewrite Z.gtb_ltb, (proj2 (Z.ltb_ge _ (it_var it))) by lia. cbn [orb].
    change (R_THEN =? R_AND) with false. change (R_THEN =? R_OR) with false. change (R_THEN =? R_THEN) with true. cbn [orb bind i_i i_ante i_str i_conn i_wi i_count].
    rewrite (proj2 (Z.eqb_neq _ 0)) by lia. cbn [fold_left more_cells]. rewrite app_nil_r. unfold item_cells. rewrite !zlen_cons.
    change (zlen (@nil Z)) with 0. replace (zlen pre + 2 + 1) with (zlen pre + (1 + (1 + 0)) + 1) by lia. reflexivity.
  - inversion Hm as [|? ? H1 H2]; subst.
    cbn [more_cells] in Er.
    destruct (IH it' (pre ++ item_cells it ++ [conn_cell p]) post (conn_cell p) (getFuzzOperator c lc s (degree_of (f_inMF f) it)) w n k) as [lc' E]; auto.
    { rewrite Er. rewrite <- !app_assoc. cbn [app]. rewrite <- !app_assoc. reflexivity. }
    { rewrite !zlen_app. pose proof (zlen_nonneg (item_cells it)). pose proof (zlen_nonneg [conn_cell p]). lia. }
    exists lc'. rewrite getop in E. cbn [fold_left fst snd].
    transitivity (inference_loop (S (length more) + k) f (mkI (zlen (pre ++ item_cells it ++ [conn_cell p])) true (getFuzzOperator c lc s (degree_of (f_inMF f) it)) (conn_cell p) w n)).
    + cbn [length Nat.add]. remember (S (length more + k)) as k'. cbn [inference_loop i_i i_ante i_count]. fold c r.
      assert (G0 : get r (zlen pre) = Ok (it_var it)) by (rewrite Er, get_app0; reflexivity).
      assert (G1 : get r (zlen pre + 1) = Ok (set_cell it)) by (rewrite Er, get_app by lia; reflexivity).
      assert (G2 : get r (zlen pre + 2) = Ok (conn_cell p)) by (rewrite Er, get_app by lia; reflexivity).
      destruct Hit as (V & T & L). rewrite G0. cbn [bind]. rewrite (proj2 (Z.eqb_neq _ _)) by (unfold RULES_END; lia). rewrite (proj2 (Z.ltb_lt n _)) by lia. cbn [negb andb].
      unfold inferenceAntecedent. cbn [i_i i_ante i_str i_conn i_wi i_count]. fold c r. rewrite G0, G1, G2. cbn [bind]. rewrite parse_item by auto. cbn [bind].
      rewrite (proj2 (Z.ltb_ge (it_var it) 0)) by lia. rewrite Z.gtb_ltb, (proj2 (Z.ltb_ge _ (it_var it))) by lia. cbn [orb].
      assert (K : (conn_cell p =? R_AND) || (conn_cell p =? R_OR) = true) by (destruct p; reflexivity). rewrite K. cbn [bind i_i i_ante i_str i_conn i_wi i_count].
      rewrite (proj2 (Z.eqb_neq _ 0)) by lia. rewrite !zlen_app. unfold item_cells. rewrite !zlen_cons. change (zlen (@nil Z)) with 0.
      replace (zlen pre + (1 + (1 + 0) + (1 + 0))) with (zlen pre + 2 + 1) by lia. reflexivity.
    + rewrite E. f_equal. f_equal. cbn [more_cells]. unfold item_cells. rewrite !zlen_app, !zlen_cons, !zlen_app, !zlen_cons. change (zlen (@nil Z)) with 0. lia.
Qed.

(** The consequents: they are only skipped. *)
Lemma end_loop also : forall it pre post s lc w n k v,
  r = pre ++ item_cells it ++ also_cells also ++ post ->
  (1 < c_nOut c -> exists z t, post = z :: t /\ z <> R_AND) -> (also = [] \/ 1 < c_nOut c) ->
  it_var it <> RULES_END -> Forall (fun i => it_var i <> RULES_END) also -> 0 < zlen pre -> 0 <= n < c_nRules c -> n < zlen w ->
  (match c_weights c with None => v = s | Some rw => n < zlen rw /\ v = (s * bound01 (nth (Z.to_nat n) rw (lit 0 1)))%fl end) ->
  inference_loop (S (length also) + k) f (mkI (zlen pre) false s lc (Some w) n) =
  inference_loop k f (mkI (zlen pre + zlen (item_cells it ++ also_cells also)) true (lit 0 1) (-1) (Some (upd w (Z.to_nat n) v)) (n + 1)).
Proof.
  induction also as [|it' also IH]; intros it pre post s lc w n k v Er Hpost Hal Hv Hvs Hp Hn Hw Hwt.
  - cbn [length Nat.add inference_loop i_i i_ante i_count]. fold c r. cbn [also_cells app] in Er.
    assert (G0 : get r (zlen pre) = Ok (it_var it)) by (rewrite Er, get_app0; reflexivity).
    rewrite G0. cbn [bind]. rewrite (proj2 (Z.eqb_neq _ _)) by auto. rewrite (proj2 (Z.ltb_lt n _)) by lia. cbn [negb andb].
    unfold inferenceReachEnd. cbn [i_i i_ante i_str i_conn i_wi i_count]. fold c r.
    assert (K : exists z, (if c_nOut c >? 1 then get r (zlen pre + 2) else Ok (-1)) = Ok z /\ z <> R_AND).
    { destruct (c_nOut c >? 1) eqn:Q; [|exists (-1); split; [reflexivity|discriminate]].
      rewrite Z.gtb_ltb in Q. apply Z.ltb_lt in Q. destruct (Hpost Q) as (z & t & -> & Z0). exists z. split; auto. rewrite Er, get_app by lia. reflexivity. }
    destruct K as (z & -> & Z0). cbn [bind]. rewrite (proj2 (Z.eqb_neq _ _)) by auto.
    assert (W : match c_weights c with None => Ok s | Some rw => v <- get rw n ;; Ok (s * bound01 v)%fl end = Ok v).
    { destruct (c_weights c) as [rw|]; [|subst; reflexivity]. destruct Hwt as [L ->]. rewrite (get_ok_nth rw n (lit 0 1)) by lia. reflexivity. }
    rewrite W. cbn [bind]. rewrite set_ok by lia. cbn [bind i_i i_ante i_str i_conn i_wi i_count].
    rewrite (proj2 (Z.eqb_neq _ 0)) by lia. cbn [also_cells]. rewrite app_nil_r. unfold item_cells. rewrite !zlen_cons.
    change (zlen (@nil Z)) with 0. replace (zlen pre + 1 + 1) with (zlen pre + (1 + (1 + 0))) by lia. reflexivity.
  - destruct Hal as [?|Hal]; [discriminate|]. inversion Hvs as [|? ? V1 V2]; subst.
    cbn [also_cells] in Er.
    assert (LP : zlen (pre ++ item_cells it ++ [cell_AND]) = zlen pre + 2 + 1) by (rewrite !zlen_app; unfold item_cells; rewrite !zlen_cons; change (zlen (@nil Z)) with 0; lia).
    assert (E := fun H => IH it' (pre ++ item_cells it ++ [cell_AND]) post s lc w n k v H Hpost (or_intror Hal) V1 V2 ltac:(lia) Hn Hw Hwt).
    specialize (E ltac:(rewrite Er; rewrite <- !app_assoc; cbn [app]; rewrite <- !app_assoc; reflexivity)). rewrite LP in E.
    transitivity (inference_loop (S (length also) + k) f (mkI (zlen pre + 2 + 1) false s lc (Some w) n)).
    + clear E IH. cbn [length Nat.add]. remember (S (length also + k)) as k'. cbn [inference_loop i_i i_ante i_count]. fold c r.
      assert (G0 : get r (zlen pre) = Ok (it_var it)) by (rewrite Er, get_app0; reflexivity).
      assert (G2 : get r (zlen pre + 2) = Ok R_AND) by (rewrite Er, get_app by lia; reflexivity).
      rewrite G0. cbn [bind]. rewrite (proj2 (Z.eqb_neq _ _)) by auto. rewrite (proj2 (Z.ltb_lt n _)) by lia. cbn [negb andb].
      unfold inferenceReachEnd. cbn [i_i i_ante i_str i_conn i_wi i_count]. fold c r.
      rewrite Z.gtb_ltb, (proj2 (Z.ltb_lt 1 _)) by lia. rewrite G2. cbn [bind]. change (R_AND =? R_AND) with true. cbv iota. cbn [bind i_i i_ante i_str i_conn i_wi i_count].
      rewrite (proj2 (Z.eqb_neq _ 0)) by lia. reflexivity.
    + rewrite E. f_equal. f_equal. cbn [also_cells]. unfold item_cells. rewrite !zlen_app, !zlen_cons, !zlen_app, !zlen_cons. change (zlen (@nil Z)) with 0. lia.
Qed.

(** The value stored for the rule number [n]. *)
Definition weighted (n : Z) (s : X) : X :=
  match c_weights c with None => s | Some rw => (s * bound01 (nth (Z.to_nat n) rw (lit 0 1)))%fl end.
Definition fires (q : rule) : X :=
  fold_left (fun y (p : connector * item) => op_of (fst p) y (degree_of (f_inMF f) (snd p))) (r_more q) (Sum (lit 0 1) (degree_of (f_inMF f) (r_first q))).
Definition weights_ok (n : Z) : Prop := match c_weights c with None => True | Some rw => n <= zlen rw end.
Definition ok_rule (q : rule) : Prop :=
  Forall ok_in (antecedents q) /\ Forall (fun i => 0 <= it_var i) (consequents q) /\ (r_also q = [] \/ 1 < c_nOut c).

Fixpoint store (n : Z) (w : list X) (rs : list rule) : list X :=
  match rs with [] => w | q :: t => store (n + 1) (upd w (Z.to_nat n) (weighted n (fires q))) t end.
Definition steps (q : rule) : nat := S (length (r_more q)) + S (length (r_also q)).
Fixpoint all_steps (rs : list rule) : nat := match rs with [] => O | q :: t => (steps q + all_steps t)%nat end.

Lemma rules_loop rs : forall pre tail w n k,
  r = pre ++ rules_cells rs ++ cell_END :: tail -> Forall ok_rule rs -> 0 < zlen pre -> 0 <= n -> n + zlen rs = c_nRules c -> c_nRules c <= zlen w ->
  weights_ok (c_nRules c) -> (k > 0)%nat ->
  inference_loop (all_steps rs + k) f (mkI (zlen pre) true (lit 0 1) (-1) (Some w) n) =
  Ok (Some (mkI (zlen pre + zlen (rules_cells rs)) true (lit 0 1) (-1) (Some (store n w rs)) (c_nRules c))).
Proof.
  induction rs as [|q rs IH]; intros pre tail w n k Er Hok Hp Hn Hc Hw Hwt Hk.
  - cbn [all_steps Nat.add]. destruct k as [|k]; [lia|]. cbn [inference_loop i_i i_count]. fold c r.
    assert (G0 : get r (zlen pre) = Ok cell_END) by (rewrite Er, get_app0; reflexivity).
    rewrite G0. cbn [bind]. change (cell_END =? RULES_END) with true. cbn [negb andb]. cbn [rules_cells store]. change (zlen (@nil Z)) with 0.
    change (zlen (@nil rule)) with 0 in Hc. rewrite Z.add_0_r in *. rewrite Hc. reflexivity.
  - inversion Hok as [|? ? [HA [HC Hal]] Hok']; subst. inversion HA as [|? ? HA1 HA2]; subst. inversion HC as [|? ? HC1 HC2]; subst.
    cbn [all_steps]. unfold steps. cbn [rules_cells] in Er. unfold rule_cells in Er.
    rewrite zlen_cons in Hc. pose proof (zlen_nonneg rs).
    set (rest := rules_cells rs ++ cell_END :: tail) in *.
    assert (Er1 : r = pre ++ item_cells (r_first q) ++ more_cells (r_more q) ++ R_THEN :: (item_cells (r_then q) ++ also_cells (r_also q) ++ rest)).
    { rewrite Er. rewrite <- !app_assoc. reflexivity. }
    replace (S (length (r_more q)) + S (length (r_also q)) + all_steps rs + k)%nat with (S (length (r_more q)) + (S (length (r_also q)) + (all_steps rs + k)))%nat by lia.
    destruct (ante_loop (r_more q) (r_first q) pre _ (-1) (lit 0 1) (Some w) n (S (length (r_also q)) + (all_steps rs + k)) Er1 HA1 HA2 Hp ltac:(lia)) as [lc' E]. rewrite E. clear E.
    set (pre2 := pre ++ item_cells (r_first q) ++ more_cells (r_more q) ++ [R_THEN]).
    assert (L2 : zlen pre + zlen (item_cells (r_first q) ++ more_cells (r_more q)) + 1 = zlen pre2).
    { unfold pre2. rewrite !zlen_app, zlen_cons. change (zlen (@nil Z)) with 0. lia. }
    rewrite L2.
    assert (Er2 : r = pre2 ++ item_cells (r_then q) ++ also_cells (r_also q) ++ rest).
    { rewrite Er1. unfold pre2. rewrite <- !app_assoc. cbn [app]. reflexivity. }
    change (getFuzzOperator c (-1) (lit 0 1)) with (Sum (lit (a := A) 0 1)). fold (fires q).
    rewrite (end_loop (r_also q) (r_then q) pre2 rest (fires q) lc' w n (all_steps rs + k) (weighted n (fires q)) Er2); auto.
    + set (pre3 := pre2 ++ item_cells (r_then q) ++ also_cells (r_also q)).
      assert (L3 : zlen pre2 + zlen (item_cells (r_then q) ++ also_cells (r_also q)) = zlen pre3) by (unfold pre3; rewrite !zlen_app; reflexivity).
      rewrite L3. rewrite (IH pre3 tail).
      * cbn [store rules_cells]. do 3 f_equal. rewrite <- L3, <- L2. unfold rule_cells. rewrite !zlen_app, zlen_cons. change (zlen (@nil Z)) with 0. lia.
      * rewrite Er2. unfold pre3, rest. rewrite <- !app_assoc. reflexivity.
      * exact Hok'.
      * rewrite <- L3, <- L2. pose proof (zlen_nonneg (item_cells (r_first q) ++ more_cells (r_more q))). pose proof (zlen_nonneg (item_cells (r_then q) ++ also_cells (r_also q))). lia.
      * lia.
      * lia.
      * rewrite zlen_upd. lia.
      * exact Hwt.
      * exact Hk.
    + intros _. unfold rest. destruct rs as [|q' rs'].
      * exists cell_END, tail. split; [reflexivity|discriminate].
      * inversion Hok' as [|? ? [HA' _] _]; subst. inversion HA' as [|? ? [HV _] _]; subst.
        cbn [rules_cells]. unfold rule_cells, item_cells. cbn [app]. eexists. eexists. split; [reflexivity|]. unfold R_AND. lia.
    + unfold RULES_END. lia.
    + eapply Forall_impl; [|exact HC2]. cbn beta. intros a Ha. unfold RULES_END. lia.
    + rewrite <- L2. pose proof (zlen_nonneg (item_cells (r_first q) ++ more_cells (r_more q))). lia.
    + lia.
    + lia.
    + unfold weighted, weights_ok in *. destruct (c_weights c); [split; [lia|reflexivity]|reflexivity].
Qed.

Lemma steps_len rs : (all_steps rs <= length (rules_cells rs))%nat.
Proof.
  induction rs as [|q rs IH]; cbn [all_steps rules_cells]; [cbn; lia|]. rewrite app_length. unfold steps, rule_cells, item_cells. rewrite !app_length. cbn [length].
  assert (M : forall l, (length l <= length (more_cells l))%nat) by (induction l as [|[p i] l IHl]; cbn [more_cells length app]; [lia|unfold item_cells; cbn [app length]; lia]).
  assert (M' : forall l, (length l <= length (also_cells l))%nat) by (induction l as [|i l IHl]; cbn [also_cells length app]; [lia|unfold item_cells; cbn [app length]; lia]).
  specialize (M (r_more q)). specialize (M' (r_also q)). lia.
Qed.

Lemma inference_ok rs tail w : c_ready c = true -> r = text rs ++ tail -> Forall ok_rule rs -> c_nRules c = zlen rs -> f_wi f = Some w -> zlen rs <= zlen w -> weights_ok (zlen rs) ->
  inference f = Ok (true, mkFis c (f_in f) (f_out f) (f_inMF f) (f_outMF f) (Some (store 0 w rs)) (zlen rs)).
Proof.
  intros Hr Et Hok Hn Hwi Hw Hwt. unfold inference. fold c r. rewrite Hr.
  assert (Er : r = [cell_BEGIN] ++ rules_cells rs ++ cell_END :: tail).
  { rewrite Et. unfold text. cbn [app]. rewrite <- app_assoc. reflexivity. }
  assert (G0 : get r 0 = Ok cell_BEGIN) by (rewrite Er; reflexivity). rewrite G0. cbn [bind]. change (cell_BEGIN =? RULES_BEGIN) with true. cbv iota.
  rewrite Hwi. pose proof (steps_len rs) as SL.
  assert (LR : (length r = 1 + length (rules_cells rs) + S (length tail))%nat) by (rewrite Er, !app_length; cbn [length]; lia).
  replace (S (length r)) with (all_steps rs + (S (length r) - all_steps rs))%nat by lia.
  change (mkI 1 true (lit 0 1) (-1) (Some w) 0) with (mkI (zlen [cell_BEGIN]) true (lit (a := A) 0 1) (-1) (Some w) 0).
  rewrite (rules_loop rs [cell_BEGIN] tail w 0 (S (length r) - all_steps rs) Er Hok); try lia.
  - cbn [bind i_i i_wi i_count].
    assert (G1 : get r (zlen [cell_BEGIN] + zlen (rules_cells rs)) = Ok cell_END).
    { rewrite Er, app_assoc. rewrite <- zlen_app. rewrite get_app0. reflexivity. }
    rewrite G1. cbn [bind]. change (cell_END =? RULES_END) with true. rewrite Z.eqb_refl. rewrite Hn. reflexivity.
  - reflexivity.
  - rewrite Hn. exact Hwt.
Qed.

Lemma store_nth rs : forall n w k, 0 <= n -> n + zlen rs <= zlen w -> 
  nth k (store n w rs) (lit 0 1) =
  if (n <=? Z.of_nat k) && (Z.of_nat k <? n + zlen rs) then weighted (Z.of_nat k) (fires (nth (k - Z.to_nat n) rs (mkRule (mkItem 0 false 0) [] (mkItem 0 false 0) []))) else nth k w (lit 0 1).
Proof.
  induction rs as [|q rs IH]; intros n w k Hn Hl; cbn [store].
  - change (zlen (@nil rule)) with 0. destruct (n <=? Z.of_nat k) eqn:E1; [|reflexivity]. apply Z.leb_le in E1. rewrite (proj2 (Z.ltb_ge _ _)) by lia. reflexivity.
  - rewrite zlen_cons in *. pose proof (zlen_nonneg rs). rewrite IH by (rewrite ?zlen_upd; lia).
    destruct (Z.eq_dec (Z.of_nat k) n) as [E|E].
    + rewrite (proj2 (Z.leb_gt (n + 1) _)) by lia. cbn [andb]. rewrite (proj2 (Z.leb_le n _)) by lia. rewrite (proj2 (Z.ltb_lt _ _)) by lia. cbn [andb].
      replace (Z.to_nat n) with k by lia. rewrite nth_upd_eq by (unfold zlen in *; lia). rewrite Nat.sub_diag. rewrite E. reflexivity.
    + replace (n + 1 <=? Z.of_nat k) with (n <=? Z.of_nat k) by (destruct (Z.leb_spec n (Z.of_nat k)), (Z.leb_spec (n + 1) (Z.of_nat k)); auto; lia).
      replace (n + (1 + zlen rs)) with (n + 1 + zlen rs) by lia.
      destruct ((n <=? Z.of_nat k) && (Z.of_nat k <? n + 1 + zlen rs)) eqn:B.
      * apply andb_prop in B. destruct B as [B1 B2]. apply Z.leb_le in B1. apply Z.ltb_lt in B2.
        replace (k - Z.to_nat n)%nat with (S (k - Z.to_nat (n + 1))) by lia. reflexivity.
      * apply nth_upd_ne. lia.
Qed.
Lemma store_len rs : forall n w, zlen (store n w rs) = zlen w.
Proof. induction rs as [|q rs IH]; intros n w; cbn [store]; [reflexivity|]. rewrite IH. apply zlen_upd. Qed.
End Inference.
