(** The aggregation loop: every output collects, in the order of the text, what
    the fired rules say about it. *)
From Coq Require Import ZArith List Bool Lia.
From Verif Require Import Base BaseLemmas Arith Interp1_Model FisCore_Model FisRules_Spec Fis_Model Fis_Proofs.
Import ListNotations.
Open Scope Z_scope.

Section Same.
Context {A : arith}.
Notation X := (F A).
(** The value of a membership function, without the memory of the last one. *)
Definition mf_val (m : mf A) (inp : list (io A)) (n : Z) : res X :=
  match mf_shape m with Some s => v <- s inp (mf_points m) n ;; Ok (mf_h m * v)%fl | None => Ok (lit 0 1) end.
Definition with_fx (m : mf A) (v : X) : mf A := mkMF (mf_shape m) (mf_points m) v (mf_h m) (mf_index m).
Lemma membership_val m inp n : membership m inp n = v <- mf_val m inp n ;; Ok (v, with_fx m v).
Proof. unfold membership, mf_val, with_fx. destruct (mf_shape m) as [g|]; [destruct (g inp (mf_points m) n); reflexivity|reflexivity]. Qed.
(** Equal but for the last values. *)
Definition same_mf (l l' : list (mf A)) : Prop := map (fun m => with_fx m (lit 0 1)) l = map (fun m => with_fx m (lit 0 1)) l'.
Lemma same_refl l : same_mf l l. Proof. reflexivity. Qed.
Lemma same_len l l' : same_mf l l' -> zlen l = zlen l'.
Proof. intros H. apply (f_equal (@length _)) in H. rewrite !map_length in H. unfold zlen. lia. Qed.
Lemma with_fx_val m v inp n : mf_val (with_fx m v) inp n = mf_val m inp n.
Proof. reflexivity. Qed.
Lemma same_val l l' k inp n : same_mf l l' -> mf_val (nth k l mf_new) inp n = mf_val (nth k l' mf_new) inp n.
Proof.
  intros H. apply (f_equal (fun l => nth k l (with_fx mf_new (lit 0 1)))) in H. rewrite !(map_nth (fun m => with_fx m (lit 0 1))) in H.
  rewrite <- (with_fx_val (nth k l mf_new) (lit 0 1)), H. reflexivity.
Qed.
Lemma same_upd l l' k v : same_mf l l' -> same_mf (upd l k (with_fx (nth k l mf_new) v)) l'.
Proof.
  unfold same_mf. intros <-. revert k. induction l as [|m l IH]; intros k; [reflexivity|]. destruct k; [reflexivity|]. cbn [upd nth map]. f_equal. apply IH.
Qed.
End Same.

Section Agg.
Context {A : arith}.
Notation X := (F A).
Variables (c : config A) (inputs : list (io A)) (base : list (mf A)) (D : Z -> X -> X) (Zv : Z -> X).
Let r := c_rules c.

(** [D s x]: the degree of output set [s] at [x]; [Zv s]: the value of the
    consequent function [s]. *)
Definition shapes_ok : Prop :=
  forall s, 0 <= s < zlen base ->
    match c_type c with
    | Mamdani => forall mn mx x, mf_val (nth (Z.to_nat s) base mf_new) [mkIO mn mx x] 1 = Ok (D s x)
    | _ => mf_val (nth (Z.to_nat s) base mf_new) inputs (c_nIn c) = Ok (Zv s)
    end.
Definition degree_at (it : item) (x : X) : X := if it_not it then (lit 1 1 - D (it_set it) x)%fl else D (it_set it) x.
Definition effect (o : out A) (p : X * item) : out A :=
  if (fst p >? lit 0 1)%fl then
    match c_type c with
    | Mamdani => out_xy o (o_x o) (apply_op (c_aggr c) (o_y o) (apply_op (c_impl c) (fst p) (degree_at (snd p) (o_value o))))
    | _ => out_v o (o_v0 o + Zv (it_set (snd p)) * fst p)%fl (o_v1 o + fst p)%fl (o_v2 o) (o_v3 o)
    end
  else o.
Definition ok_out (n : Z) (it : item) : Prop := 0 <= it_var it < n /\ 0 <= it_set it < zlen base /\ it_set it < 127.

Definition good (f : fis A) : Prop := f_cfg f = c /\ f_in f = inputs.

Lemma consequent_ok f w it lo lm : good f -> shapes_ok -> ok_out (zlen lo) it -> same_mf lm base ->
  exists lm', consequent f w (it_var it) (set_cell it) lo lm = Ok (upd lo (Z.to_nat (it_var it)) (effect (nth (Z.to_nat (it_var it)) lo out_new) (w, it)), lm') /\ same_mf lm' base.
Proof.
  intros [Hc Hi] Hs (V & T & L) Sm. unfold consequent. rewrite Hc, Hi.
  assert (E1 : s8 ((if set_cell it <? 0 then s8 (- set_cell it) else set_cell it) - 1) = it_set it /\ (set_cell it <? 0) = it_not it).
  { unfold set_cell, s8. destruct (it_not it).
    - rewrite (proj2 (Z.ltb_lt _ 0)) by lia. rewrite !Z.mod_small by (rewrite ?Z.mod_small; lia). split; [lia|reflexivity].
    - rewrite (proj2 (Z.ltb_ge _ 0)) by lia. rewrite Z.mod_small by lia. split; [lia|reflexivity]. }
  destruct E1 as [E1 E2]. rewrite E1, E2.
  unfold effect. cbn [fst snd]. destruct (w >? lit 0 1)%fl.
  2:{ exists lm. split; auto. f_equal. f_equal. clear. revert lo. induction (Z.to_nat (it_var it)) as [|n IH]; intros [|x l]; cbn [upd nth]; f_equal; auto. }
  rewrite (get_ok_nth lo _ out_new) by lia. rewrite (get_ok_nth lm _ mf_new) by (rewrite (same_len _ _ Sm); lia). cbn [bind].
  specialize (Hs (it_set it) T).
  destruct (c_type c).
  - unfold out_io. rewrite membership_val, (same_val _ _ _ _ _ Sm), Hs. cbn [bind fst snd]. rewrite set_ok by lia. rewrite set_ok by (rewrite (same_len _ _ Sm); lia). cbn [bind].
    eexists. split; [reflexivity|]. apply same_upd, Sm.
  - rewrite membership_val, (same_val _ _ _ _ _ Sm), Hs. cbn [bind fst snd]. rewrite set_ok by lia. rewrite set_ok by (rewrite (same_len _ _ Sm); lia). cbn [bind].
    eexists. split; [reflexivity|]. apply same_upd, Sm.
  - rewrite membership_val, (same_val _ _ _ _ _ Sm), Hs. cbn [bind fst snd]. rewrite set_ok by lia. rewrite set_ok by (rewrite (same_len _ _ Sm); lia). cbn [bind].
    eexists. split; [reflexivity|]. apply same_upd, Sm.
Qed.

(** One conclusion after the other. *)
Definition hear (lo : list (out A)) (p : X * item) : list (out A) :=
  upd lo (Z.to_nat (it_var (snd p))) (effect (nth (Z.to_nat (it_var (snd p))) lo out_new) p).
Lemma hear_len l lo : zlen (fold_left hear l lo) = zlen lo.
Proof. revert lo. induction l as [|p l IH]; intros lo; cbn [fold_left]; [reflexivity|]. rewrite IH. apply zlen_upd. Qed.
Lemma hear_nth l : forall lo j, 0 <= j -> Forall (fun p => 0 <= it_var (snd p) < zlen lo) l ->
  nth (Z.to_nat j) (fold_left hear l lo) out_new = fold_left effect (filter (fun p => it_var (snd p) =? j) l) (nth (Z.to_nat j) lo out_new).
Proof.
  induction l as [|p l IH]; intros lo j Hj Hl; cbn [fold_left filter]; [reflexivity|]. inversion Hl as [|? ? H1 H2]; subst.
  rewrite IH; [|auto|eapply Forall_impl; [|exact H2]; unfold hear; cbn beta; intros; rewrite zlen_upd; auto].
  unfold hear. destruct (Z.eqb_spec (it_var (snd p)) j) as [E|N].
  - rewrite E in *. rewrite nth_upd_eq by (unfold zlen in H1; lia). reflexivity.
  - rewrite nth_upd_ne; [reflexivity|]. intros K. apply N. apply Z2Nat.inj; try lia.
Qed.

Definition no_then (it : item) : Prop := 0 <= it_var it /\ 0 <= it_set it < 127 /\ (it_not it = true -> it_set it <> 123).
Lemma cells_no_then it : no_then it -> Forall (fun z => z <> R_THEN) (item_cells it).
Proof.
  intros (V & T & N). unfold item_cells, set_cell, R_THEN. repeat constructor; [lia|]. destruct (it_not it); [specialize (N eq_refl); lia|lia].
Qed.
Lemma find_ok l : forall pre post k, Forall (fun z => z <> R_THEN) l -> r = pre ++ l ++ R_THEN :: post -> (length l < k)%nat ->
  find_then k r (zlen pre) = Ok (zlen pre + zlen l).
Proof.
  induction l as [|z l IH]; intros pre post k Hl Er Hk; (destruct k as [|k]; [lia|]); cbn [find_then].
  - rewrite Er, get_app0. cbn [app]. change (get (R_THEN :: post) 0) with (Ok R_THEN). cbn [bind]. rewrite Z.eqb_refl. change (zlen (@nil Z)) with 0. f_equal. lia.
  - inversion Hl as [|? ? H1 H2]; subst. assert (G : get r (zlen pre) = Ok z) by (rewrite Er, get_app0; reflexivity). rewrite G. cbn [bind]. rewrite (proj2 (Z.eqb_neq _ _)) by auto.
    specialize (IH (pre ++ [z]) post k H2). rewrite zlen_app, zlen_cons in IH. change (zlen (@nil Z)) with 0 in IH. rewrite Z.add_0_r in IH. rewrite IH; [rewrite zlen_cons; f_equal; lia| |cbn [length] in Hk; lia].
    rewrite Er, <- app_assoc. reflexivity.
Qed.

Definition step (t : astate A) : astate A := mkA (a_i t + 1) (a_find t) (a_count t) (a_out t) (a_outMF t).

Lemma con_loop also : forall f it pre post n k lo lm w ws,
  good f -> shapes_ok -> r = pre ++ item_cells it ++ also_cells also ++ post ->
  (1 < c_nOut c -> exists z t, post = z :: t /\ z <> R_AND) -> (also = [] \/ 1 < c_nOut c) ->
  ok_out (zlen lo) it -> Forall (ok_out (zlen lo)) also -> 0 < zlen pre -> 0 <= n < c_nRules c -> f_wi f = Some ws -> get ws n = Ok w -> same_mf lm base ->
  exists lm', same_mf lm' base /\
  aggregate_loop (S (length also) + k) f (mkA (zlen pre) false n lo lm) =
  aggregate_loop k f (mkA (zlen pre + zlen (item_cells it ++ also_cells also)) true (n + 1) (fold_left hear (map (fun i => (w, i)) (it :: also)) lo) lm').
Proof.
  induction also as [|it' also IH]; intros f it pre post n k lo lm w ws Hg Hs Er Hpost Hal Ho Hos Hp Hn Hwi Hw Sm.
  - pose proof Hg as [Hc Hi]. cbn [length Nat.add aggregate_loop a_i a_find a_count]. rewrite Hc. fold r. cbn [also_cells app] in Er.
    assert (G0 : get r (zlen pre) = Ok (it_var it)) by (rewrite Er, get_app0; reflexivity).
    assert (G1 : get r (zlen pre + 1) = Ok (set_cell it)) by (rewrite Er, get_app by lia; reflexivity).
    pose proof Ho as (V & T & L).
    rewrite G0. cbn [bind]. rewrite (proj2 (Z.eqb_neq _ _)) by (unfold RULES_END; lia). rewrite (proj2 (Z.ltb_lt n _)) by lia. cbn [negb andb].
    unfold inferenceConsequent. cbn [a_i a_find a_count a_out a_outMF]. rewrite Hc. fold r. rewrite G0, G1. cbn [bind].
    assert (K : exists z, (if c_nOut c >? 1 then get r (zlen pre + 2) else Ok (-1)) = Ok z /\ z <> R_AND).
    { destruct (c_nOut c >? 1) eqn:Q; [|exists (-1); split; [reflexivity|discriminate]].
      rewrite Z.gtb_ltb in Q. apply Z.ltb_lt in Q. destruct (Hpost Q) as (z & t & -> & Z0). exists z. split; auto. rewrite Er, get_app by lia. reflexivity. }
    destruct K as (z & -> & Z0). cbn [bind]. rewrite Hwi, Hw. cbn [bind].
    destruct (consequent_ok f w it lo lm Hg Hs Ho Sm) as (lm' & E & Sm'). rewrite E. cbn [bind fst snd]. rewrite (proj2 (Z.eqb_neq _ _)) by auto. cbn [bind a_i a_find a_count a_out a_outMF].
    exists lm'. split; auto. cbn [map fold_left also_cells]. rewrite app_nil_r. unfold item_cells. rewrite !zlen_cons. change (zlen (@nil Z)) with 0.
    replace (zlen pre + 1 + 1) with (zlen pre + (1 + (1 + 0))) by lia. reflexivity.
  - pose proof Hg as [Hc Hi]. destruct Hal as [?|Hal]; [discriminate|]. inversion Hos as [|? ? O1 O2]; subst. pose proof Ho as (V & T & L).
    cbn [also_cells] in Er.
    destruct (consequent_ok f w it lo lm Hg Hs Ho Sm) as (lm1 & E1 & Sm1).
    set (lo1 := hear lo (w, it)). assert (L1 : zlen lo1 = zlen lo) by apply zlen_upd.
    assert (LP : zlen (pre ++ item_cells it ++ [cell_AND]) = zlen pre + 2 + 1) by (rewrite !zlen_app; unfold item_cells; rewrite !zlen_cons; change (zlen (@nil Z)) with 0; lia).
    destruct (fun H => IH f it' (pre ++ item_cells it ++ [cell_AND]) post n k lo1 lm1 w ws Hg Hs H Hpost (or_intror Hal)) as (lm' & Sm' & E).
    { rewrite Er; rewrite <- !app_assoc; cbn [app]; rewrite <- !app_assoc; reflexivity. }
    { rewrite L1. exact O1. } { rewrite L1. exact O2. } { lia. } { exact Hn. } { exact Hwi. } { exact Hw. } { exact Sm1. }
    exists lm'. split; auto. rewrite LP in E.
    transitivity (aggregate_loop (S (length also) + k) f (mkA (zlen pre + 2 + 1) false n lo1 lm1)).
    + clear E IH. cbn [length Nat.add]. remember (S (length also + k)) as k'. cbn [aggregate_loop a_i a_find a_count]. rewrite Hc. fold r.
      assert (G0 : get r (zlen pre) = Ok (it_var it)) by (rewrite Er, get_app0; reflexivity).
      assert (G1 : get r (zlen pre + 1) = Ok (set_cell it)) by (rewrite Er, get_app by lia; reflexivity).
      assert (G2 : get r (zlen pre + 2) = Ok R_AND) by (rewrite Er, get_app by lia; reflexivity).
      rewrite G0. cbn [bind]. rewrite (proj2 (Z.eqb_neq _ _)) by (unfold RULES_END; lia). rewrite (proj2 (Z.ltb_lt n _)) by lia. cbn [negb andb].
      unfold inferenceConsequent. cbn [a_i a_find a_count a_out a_outMF]. rewrite Hc. fold r. rewrite G0, G1. cbn [bind].
      rewrite Z.gtb_ltb, (proj2 (Z.ltb_lt 1 _)) by lia. rewrite G2. cbn [bind]. rewrite Hwi, Hw. cbn [bind]. rewrite E1. cbn [bind fst snd].
      change (R_AND =? R_AND) with true. cbv iota. cbn [bind a_i a_find a_count a_out a_outMF]. reflexivity.
    + rewrite E. f_equal. cbn [map fold_left]. fold lo1. f_equal. cbn [also_cells]. unfold item_cells. rewrite !zlen_app, !zlen_cons, !zlen_app, !zlen_cons. change (zlen (@nil Z)) with 0. lia.
Qed.

Definition ok_con (n : Z) (q : rule) : Prop :=
  Forall no_then (antecedents q) /\ Forall (ok_out n) (consequents q) /\ (r_also q = [] \/ 1 < c_nOut c).
Definition con_steps (q : rule) : nat := S (S (length (r_also q))).
Fixpoint all_con_steps (rs : list rule) : nat := match rs with [] => O | q :: t => (con_steps q + all_con_steps t)%nat end.
(** Everything the rules say, in order. *)
Fixpoint speech (rs : list rule) (ws : list X) : list (X * item) :=
  match rs, ws with q :: rt, w :: wt => map (fun i => (w, i)) (consequents q) ++ speech rt wt | _, _ => [] end.

Lemma ante_cells_no_then q : Forall no_then (antecedents q) -> Forall (fun z => z <> R_THEN) (item_cells (r_first q) ++ more_cells (r_more q)).
Proof.
  intros H. inversion H as [|? ? H1 H2]; subst. apply Forall_app. split; [now apply cells_no_then|]. clear H H1.
  induction (r_more q) as [|[p i] l IH]; cbn [more_cells]; [constructor|]. cbn [map snd] in H2. inversion H2; subst.
  constructor; [destruct p; discriminate|]. apply Forall_app. split; [now apply cells_no_then|auto].
Qed.

Lemma skipn_cons_get (ws : list X) n wt w : skipn (Z.to_nat n) ws = w :: wt -> 0 <= n -> get ws n = Ok w /\ skipn (Z.to_nat (n + 1)) ws = wt.
Proof.
  intros H Hn. replace (Z.to_nat (n + 1)) with (S (Z.to_nat n)) by lia. unfold get. rewrite (proj2 (Z.ltb_ge n 0)) by lia.
  generalize (Z.to_nat n) ws H. clear. induction n as [|n IH]; intros [|x l] H; cbn in *; try discriminate; [injection H as -> ->; auto|]. now apply IH.
Qed.

Lemma agg_loop rs : forall f pre tail n k lo lm ws wt,
  good f -> shapes_ok -> r = pre ++ rules_cells rs ++ cell_END :: tail -> Forall (ok_con (zlen lo)) rs ->
  0 < zlen pre -> 0 <= n -> n + zlen rs = c_nRules c -> f_wi f = Some ws -> skipn (Z.to_nat n) ws = wt -> zlen rs <= zlen wt -> same_mf lm base -> (k > 0)%nat ->
  exists lm', same_mf lm' base /\
  aggregate_loop (all_con_steps rs + k) f (mkA (zlen pre) true n lo lm) =
  Ok (Some (mkA (zlen pre + zlen (rules_cells rs)) true (c_nRules c) (fold_left hear (speech rs wt) lo) lm')).
Proof.
  induction rs as [|q rs IH]; intros f pre tail n k lo lm ws wt Hg Hs Er Hok Hp Hn Hc Hwi Hsk Hw Sm Hk; pose proof Hg as [Ec Ei].
  - exists lm. split; auto. cbn [all_con_steps Nat.add]. destruct k as [|k]; [lia|]. cbn [aggregate_loop a_i a_count]. rewrite Ec. fold r.
    assert (G0 : get r (zlen pre) = Ok cell_END) by (rewrite Er, get_app0; reflexivity).
    rewrite G0. cbn [bind]. change (cell_END =? RULES_END) with true. cbn [negb andb]. cbn [rules_cells speech fold_left]. change (zlen (@nil Z)) with 0.
    change (zlen (@nil rule)) with 0 in Hc. rewrite Z.add_0_r in *. rewrite Hc. reflexivity.
  - inversion Hok as [|? ? [HA [HC Hal]] Hok']; subst. inversion HC as [|? ? HC1 HC2]; subst.
    cbn [rules_cells] in Er. unfold rule_cells in Er. rewrite zlen_cons in Hc, Hw. pose proof (zlen_nonneg rs).
    destruct (skipn (Z.to_nat n) ws) as [|w wt] eqn:Esk; [change (zlen (@nil X)) with 0 in Hw; lia|].
    apply skipn_cons_get in Esk; [|auto]. destruct Esk as [Gw Esk]. rewrite zlen_cons in Hw.
    set (rest := rules_cells rs ++ cell_END :: tail) in *.
    set (ante := item_cells (r_first q) ++ more_cells (r_more q)).
    assert (Er1 : r = pre ++ ante ++ R_THEN :: (item_cells (r_then q) ++ also_cells (r_also q) ++ rest)).
    { rewrite Er. unfold ante. rewrite <- !app_assoc. reflexivity. }
    set (pre2 := pre ++ ante ++ [R_THEN]).
    assert (L2 : zlen pre2 = zlen pre + zlen ante + 1).
    { unfold pre2. rewrite !zlen_app, zlen_cons. change (zlen (@nil Z)) with 0. lia. }
    assert (Er2 : r = pre2 ++ item_cells (r_then q) ++ also_cells (r_also q) ++ rest).
    { rewrite Er1. unfold pre2. rewrite <- !app_assoc. reflexivity. }
    pose proof (zlen_nonneg ante) as ZA.
    destruct (con_loop (r_also q) f (r_then q) pre2 rest n (all_con_steps rs + k) lo lm w ws Hg Hs Er2) as (lm1 & Sm1 & E1); auto.
    { intros _. unfold rest. destruct rs as [|q' rs'].
      * exists cell_END, tail. split; [reflexivity|discriminate].
      * inversion Hok' as [|? ? [HA' _] _]; subst. inversion HA' as [|? ? [HV _] _]; subst.
        cbn [rules_cells]. unfold rule_cells, item_cells. cbn [app]. eexists. eexists. split; [reflexivity|]. unfold R_AND. lia. }
    { lia. } { lia. }
    set (pre3 := pre2 ++ item_cells (r_then q) ++ also_cells (r_also q)) in *.
    assert (L3 : zlen pre2 + zlen (item_cells (r_then q) ++ also_cells (r_also q)) = zlen pre3) by (unfold pre3; rewrite !zlen_app; reflexivity).
    rewrite L3 in E1.
    set (lo1 := fold_left hear (map (fun i => (w, i)) (r_then q :: r_also q)) lo) in *.
    assert (LL : zlen lo1 = zlen lo) by apply hear_len.
    pose proof (zlen_nonneg (item_cells (r_then q) ++ also_cells (r_also q))) as ZC.
    destruct (IH f pre3 tail (n + 1) k lo1 lm1 ws wt Hg Hs) as (lm' & Sm' & E2); auto; try lia.
    { rewrite Er2. unfold pre3, rest. rewrite <- !app_assoc. reflexivity. }
    { rewrite LL. exact Hok'. }
    exists lm'. split; auto. cbn [all_con_steps]. unfold con_steps.
    transitivity (aggregate_loop (S (length (r_also q)) + (all_con_steps rs + k)) f (mkA (zlen pre2) false n lo lm)).
    + replace (S (S (length (r_also q))) + all_con_steps rs + k)%nat with (S (S (length (r_also q)) + (all_con_steps rs + k)))%nat by lia.
      remember (S (length (r_also q)) + (all_con_steps rs + k))%nat as k'. cbn [aggregate_loop a_i a_find a_count]. rewrite Ec. fold r.
      inversion HA as [|? ? [HV _] _]; subst.
      assert (G0 : get r (zlen pre) = Ok (it_var (r_first q))) by (rewrite Er1, get_app0; reflexivity).
      rewrite G0. cbn [bind]. rewrite (proj2 (Z.eqb_neq _ _)) by (unfold RULES_END; lia). rewrite (proj2 (Z.ltb_lt n _)) by lia. cbn [negb andb].
      unfold aggregationFindConsequent. cbn [a_i a_find a_count a_out a_outMF]. rewrite Ec. fold r.
      rewrite (find_ok ante pre _ _ (ante_cells_no_then q HA) Er1).
      2:{ rewrite Er1, !app_length. lia. }
      cbn [bind a_i a_find a_count a_out a_outMF]. rewrite L2. reflexivity.
    + rewrite E1, E2. do 3 f_equal.
      * cbn [rules_cells]. rewrite <- L3, L2. unfold rule_cells, ante. rewrite !zlen_app, zlen_cons. change (zlen (@nil Z)) with 0. lia.
      * cbn [speech]. rewrite fold_left_app. reflexivity.
Qed.

Lemma con_steps_len rs : (all_con_steps rs <= length (rules_cells rs))%nat.
Proof.
  induction rs as [|q rs IH]; cbn [all_con_steps rules_cells]; [cbn; lia|]. rewrite app_length. unfold con_steps, rule_cells, item_cells. rewrite !app_length. cbn [length].
  assert (M' : forall l, (length l <= length (also_cells l))%nat) by (induction l as [|i l IHl]; cbn [also_cells length app]; [lia|unfold item_cells; cbn [app length]; lia]).
  specialize (M' (r_also q)). lia.
Qed.

Lemma aggregate_ok f rs tail ws : good f -> shapes_ok -> r = text rs ++ tail -> Forall (ok_con (zlen (f_out f))) rs -> c_nRules c = zlen rs ->
  f_wi f = Some ws -> zlen rs <= zlen ws -> same_mf (f_outMF f) base ->
  exists lm', same_mf lm' base /\ fuzzyAggregate f = Ok (mkFis c inputs (fold_left hear (speech rs ws) (f_out f)) (f_inMF f) lm' (Some ws) (zlen rs)).
Proof.
  intros Hg Hs Et Hok Hn Hwi Hw Sm. pose proof Hg as [Ec Ei].
  assert (Er : r = [cell_BEGIN] ++ rules_cells rs ++ cell_END :: tail).
  { rewrite Et. unfold text. cbn [app]. rewrite <- app_assoc. reflexivity. }
  pose proof (con_steps_len rs) as SL.
  assert (LR : (length r = 1 + length (rules_cells rs) + S (length tail))%nat) by (rewrite Er, !app_length; cbn [length]; lia).
  destruct (agg_loop rs f [cell_BEGIN] tail 0 (S (length r) - all_con_steps rs) (f_out f) (f_outMF f) ws ws Hg Hs Er Hok) as (lm' & Sm' & E); auto; try lia.
  { reflexivity. }
  exists lm'. split; auto. unfold fuzzyAggregate. rewrite Ec. fold r.
  assert (G0 : get r 0 = Ok cell_BEGIN) by (rewrite Er; reflexivity). rewrite G0. cbn [bind]. change (cell_BEGIN =? RULES_BEGIN) with true. cbv iota.
  replace (S (length r)) with (all_con_steps rs + (S (length r) - all_con_steps rs))%nat by lia.
  change (mkA 1 true 0 (f_out f) (f_outMF f)) with (mkA (zlen [cell_BEGIN]) true 0 (f_out f) (f_outMF f)).
  rewrite E. cbn [bind a_out a_outMF a_count]. rewrite Ei, Hwi, Hn. reflexivity.
Qed.

Lemma speech_said rs : forall ws j, filter (fun p : X * item => it_var (snd p) =? j) (speech rs ws) = said j rs ws.
Proof.
  induction rs as [|q rs IH]; intros [|w ws] j; cbn [speech said]; auto. rewrite filter_app, IH. f_equal. unfold said_by.
  induction (consequents q) as [|i l IHl]; cbn [map filter snd]; [reflexivity|]. destruct (it_var i =? j); cbn [map]; rewrite IHl; reflexivity.
Qed.
Lemma speech_range rs n : Forall (ok_con n) rs -> forall ws, Forall (fun p : X * item => 0 <= it_var (snd p) < n) (speech rs ws).
Proof.
  intros H. induction H as [|q rs [_ [HC _]] Hr IH]; intros [|w ws]; cbn [speech]; [constructor|constructor|constructor|]. apply Forall_app. split; [|apply IH].
  apply Forall_map. eapply Forall_impl; [|exact HC]. intros i (V & _). exact V.
Qed.

(** What output [j] is after an aggregation. *)
Definition heard (rs : list rule) (ws : list X) (j : Z) (o : out A) : out A := fold_left effect (said j rs ws) o.
Lemma aggregate_nth f rs tail ws : good f -> shapes_ok -> r = text rs ++ tail -> Forall (ok_con (zlen (f_out f))) rs -> c_nRules c = zlen rs ->
  f_wi f = Some ws -> zlen rs <= zlen ws -> same_mf (f_outMF f) base ->
  exists lo' lm', fuzzyAggregate f = Ok (mkFis c inputs lo' (f_inMF f) lm' (Some ws) (zlen rs)) /\ same_mf lm' base /\ zlen lo' = zlen (f_out f) /\
    forall j, 0 <= j -> nth (Z.to_nat j) lo' out_new = heard rs ws j (nth (Z.to_nat j) (f_out f) out_new).
Proof.
  intros Hg Hs Et Hok Hn Hwi Hw Sm. destruct (aggregate_ok f rs tail ws Hg Hs Et Hok Hn Hwi Hw Sm) as (lm' & Sm' & E).
  exists (fold_left hear (speech rs ws) (f_out f)), lm'. split; [exact E|]. split; auto. split; [apply hear_len|].
  intros j Hj. rewrite hear_nth; auto; [|now apply speech_range]. rewrite speech_said. reflexivity.
Qed.
End Agg.
