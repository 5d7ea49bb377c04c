(** What inference() accepts: it ends on every array, and answers true only for
    the text of exactly nRules rules. *)
From Coq Require Import ZArith List Bool Lia.
From Verif Require Import Base BaseLemmas Arith Interp1_Model FisCore_Model FisRules_Spec Fis_Model Fis_Proofs.
Import ListNotations.
Open Scope Z_scope.

Lemma skipn_get {B} (l : list B) i v : get l i = Ok v -> skipn (Z.to_nat i) l = v :: skipn (Z.to_nat (i + 1)) l.
Proof.
  intros H. apply get_ok_iff in H. destruct H as [H0 H]. replace (Z.to_nat (i + 1)) with (S (Z.to_nat i)) by lia.
  generalize (Z.to_nat i), H. clear. intros n. revert l. induction n as [|n IH]; intros [|x l] H; try discriminate; cbn in *; [congruence|]. now apply IH.
Qed.

Lemma nth_error_skipn {B} (l : list B) n m : nth_error (skipn n l) m = nth_error l (n + m).
Proof. revert l. induction n as [|n IH]; intros [|x l]; cbn; auto. now destruct m. Qed.

Section Accept.
Context {A : arith}.
Notation X := (F A).
Variable f : fis A.
Let c := f_cfg f.
Let r := c_rules c.

Lemma ante_step t t' : inferenceAntecedent f t = Ok t' -> i_i t' = 0 \/ i_i t' = i_i t + 2.
Proof.
  unfold inferenceAntecedent. intros H.
  apply bind_ok in H. destruct H as (v & _ & H). apply bind_ok in H. destruct H as (m & _ & H). apply bind_ok in H. destruct H as (k & _ & H). apply bind_ok in H. destruct H as (y & _ & H).
  destruct (_ || _); [injection H as <-; auto|]. destruct (_ || _); [injection H as <-; auto|]. destruct (_ =? _); injection H as <-; auto.
Qed.
Lemma end_step t t' : inferenceReachEnd f t = Ok t' -> i_i t' = i_i t + 2 \/ i_i t' = i_i t + 1.
Proof.
  unfold inferenceReachEnd. intros H.
  apply bind_ok in H. destruct H as (v & _ & H). destruct (_ =? _); [injection H as <-; auto|]. destruct (i_wi t); [|discriminate].
  apply bind_ok in H. destruct H as (m & _ & H). apply bind_ok in H. destruct H as (w & _ & H). injection H as <-. auto.
Qed.

Lemma loop_ends k : forall t, 0 <= i_i t -> zlen r - i_i t < Z.of_nat k -> (k > 0)%nat -> inference_loop k f t <> Ok None.
Proof.
  induction k as [|k IH]; intros t Hi Hk K0; [lia|]. cbn [inference_loop]. fold c r. intros E.
  apply bind_ok in E. destruct E as (x & G & E). apply get_range in G.
  destruct (_ && _); [|discriminate]. apply bind_ok in E. destruct E as (t' & S & E).
  assert (N : i_i t' = 0 \/ i_i t' >= i_i t + 1).
  { destruct (i_ante t); [apply ante_step in S|apply end_step in S]; lia. }
  destruct (Z.eqb_spec (i_i t') 0) as [Z0|Z0]; [discriminate|].
  eapply IH; [..|exact E]; cbn [i_i]; try lia.
Qed.

Lemma inference_total : c_ready c = true -> get r 0 = Ok RULES_BEGIN -> inference_loop (S (length r)) f (mkI 1 true (lit 0 1) (-1) (f_wi f) 0) <> Ok None.
Proof. intros _ _. apply loop_ends; cbn [i_i]; unfold zlen; lia. Qed.

(** Any cell is the cell of an item. *)
Definition item_of (v m : Z) : item := if m <? 0 then mkItem v true (- m - 1) else mkItem v false (m - 1).
Lemma item_of_cells v m : item_cells (item_of v m) = [v; m].
Proof. unfold item_of, item_cells, set_cell. destruct (m <? 0); cbn [it_var it_not it_set]; do 2 f_equal; lia. Qed.

Definition in_tag (i : item) : Prop := 0 <= it_var i <= c_nIn c.
Definition loose (q : rule) : Prop := Forall in_tag (antecedents q) /\ (r_also q = [] \/ 1 < c_nOut c).

Lemma get_lt (l : list Z) i j v : get l j = Ok v -> 0 <= i <= j -> exists u, get l i = Ok u.
Proof. intros H B. apply get_range in H. exists (nth (Z.to_nat i) l 0). apply get_ok_nth. lia. Qed.

Lemma loop_shape k : get r 0 = Ok RULES_BEGIN -> forall t t', 0 < i_i t -> inference_loop k f t = Ok (Some t') -> get r (i_i t') = Ok RULES_END -> i_count t' = c_nRules c ->
  (i_count t < c_nRules c ->
     if i_ante t then exists q rs tail, skipn (Z.to_nat (i_i t)) r = rules_cells (q :: rs) ++ cell_END :: tail /\ Forall loose (q :: rs) /\ i_count t + zlen (q :: rs) = c_nRules c
     else exists i also rs tail, skipn (Z.to_nat (i_i t)) r = item_cells i ++ also_cells also ++ rules_cells rs ++ cell_END :: tail /\
            (also = [] \/ 1 < c_nOut c) /\ Forall loose rs /\ i_count t + 1 + zlen rs = c_nRules c) /\
  (i_count t = c_nRules c -> i_ante t = true -> exists tail, skipn (Z.to_nat (i_i t)) r = cell_END :: tail) /\ (i_count t <= c_nRules c).
Proof.
  intros HB. induction k as [|k IH]; intros t t' Hi E Ge Gc; [discriminate|].
  cbn [inference_loop] in E. fold c r in E. apply bind_ok in E. destruct E as (x & G & E).
  destruct (negb (x =? RULES_END) && (i_count t <? c_nRules c)) eqn:Q.
  2:{ injection E as <-. split; [intros; lia|]. split; [|lia]. intros _ _. exists (skipn (Z.to_nat (i_i t + 1)) r). apply skipn_get. rewrite Ge. reflexivity. }
  apply andb_prop in Q. destruct Q as [Q1 Q2]. apply Z.ltb_lt in Q2. apply negb_true_iff, Z.eqb_neq in Q1.
  split; [intros _|split; lia].
  apply bind_ok in E. destruct E as (u & S & E). destruct (Z.eqb_spec (i_i u) 0) as [Z0|Z0].
  { injection E as <-. exfalso. rewrite Z0, HB in Ge. discriminate. }
  destruct (i_ante t) eqn:An.
  - unfold inferenceAntecedent in S. fold c r in S. rewrite G in S. cbn [bind] in S.
    apply bind_ok in S. destruct S as (m & G1 & S). apply bind_ok in S. destruct S as (z & G2 & S). apply bind_ok in S. destruct S as (y & P & S).
    destruct ((x <? 0) || (x >? c_nIn c)) eqn:T; [injection S as <-; cbn [i_i] in Z0; lia|].
    apply orb_false_iff in T. destruct T as [T1 T2]. apply Z.ltb_ge in T1. rewrite Z.gtb_ltb in T2. apply Z.ltb_ge in T2.
    assert (Sk : skipn (Z.to_nat (i_i t)) r = item_cells (item_of x m) ++ z :: skipn (Z.to_nat (i_i t + 2 + 1)) r).
    { rewrite item_of_cells. rewrite (skipn_get _ _ _ G), (skipn_get _ _ _ G1). replace (i_i t + 1 + 1) with (i_i t + 2) by lia. rewrite (skipn_get _ _ _ G2). reflexivity. }
    assert (Tg : in_tag (item_of x m)) by (unfold in_tag, item_of; destruct (m <? 0); cbn [it_var]; lia).
    destruct ((z =? R_AND) || (z =? R_OR)) eqn:C1.
    + injection S as <-. cbn [i_i i_ante i_str i_conn i_wi i_count] in *.
      pose proof (fun H => IH _ _ H E Ge Gc) as I0; cbn [i_i i_ante i_count] in I0; destruct (I0 ltac:(lia)) as [I1 _]. specialize (I1 Q2). cbn [i_ante i_i i_count] in I1. destruct I1 as (q & rs & tail & I1 & I2 & I3).
      assert (exists p, z = conn_cell p) as [p ->].
      { apply orb_prop in C1. destruct C1 as [C1|C1]; apply Z.eqb_eq in C1; subst; [exists And|exists Or]; reflexivity. }
      inversion I2 as [|? ? L1 L2]; subst. destruct L1 as [L1 L3].
      exists (mkRule (item_of x m) ((p, r_first q) :: r_more q) (r_then q) (r_also q)), rs, tail. split; [|split].
      * rewrite Sk, I1. cbn [rules_cells]. unfold rule_cells. cbn [r_first r_more r_then r_also more_cells]. repeat (rewrite <- !app_assoc; cbn [app]). reflexivity.
      * constructor; auto. split; [|exact L3]. unfold antecedents in *. cbn [r_first r_more map snd]. constructor; auto.
      * rewrite zlen_cons in *. lia.
    + destruct (z =? R_THEN) eqn:C2; [|injection S as <-; cbn [i_i] in Z0; lia]. apply Z.eqb_eq in C2. subst z.
      injection S as <-. cbn [i_i i_ante i_str i_conn i_wi i_count] in *.
      pose proof (fun H => IH _ _ H E Ge Gc) as I0; cbn [i_i i_ante i_count] in I0; destruct (I0 ltac:(lia)) as [I1 _]. specialize (I1 Q2). cbn [i_ante i_i i_count] in I1. destruct I1 as (it & also & rs & tail & I1 & I2 & I3 & I4).
      exists (mkRule (item_of x m) [] it also), rs, tail. split; [|split].
      * rewrite Sk, I1. cbn [rules_cells]. unfold rule_cells. cbn [r_first r_more r_then r_also more_cells]. repeat (rewrite <- !app_assoc; cbn [app]). reflexivity.
      * constructor; auto. split; [|exact I2]. unfold antecedents. cbn [r_first r_more map]. constructor; auto.
      * rewrite zlen_cons in *. lia.
  - unfold inferenceReachEnd in S. fold c r in S. apply bind_ok in S. destruct S as (z & G2 & S).
    destruct (Z.eqb_spec z R_AND) as [->|NA].
    + assert (NO : 1 < c_nOut c) by (destruct (c_nOut c >? 1) eqn:NO; [rewrite Z.gtb_ltb in NO; now apply Z.ltb_lt in NO|discriminate]).
      rewrite Z.gtb_ltb, (proj2 (Z.ltb_lt _ _) NO) in G2.
      injection S as <-. cbn [i_i i_ante i_str i_conn i_wi i_count] in *.
      pose proof (fun H => IH _ _ H E Ge Gc) as I0; cbn [i_i i_ante i_count] in I0; destruct (I0 ltac:(lia)) as [I1 _]. specialize (I1 Q2). cbn [i_ante i_i i_count] in I1. rewrite An in I1. destruct I1 as (it & also & rs & tail & I1 & I2 & I3 & I4).
      destruct (get_lt r (i_i t + 1) (i_i t + 2) _ G2 ltac:(lia)) as [m G1].
      exists (item_of x m), (it :: also), rs, tail. split; [|split; [auto|split; auto]].
      rewrite item_of_cells. rewrite (skipn_get _ _ _ G), (skipn_get _ _ _ G1). replace (i_i t + 1 + 1) with (i_i t + 2) by lia. rewrite (skipn_get _ _ _ G2), I1.
      cbn [also_cells app]. rewrite <- !app_assoc. reflexivity.
    + clear G2. destruct (i_wi t) as [w|]; [|discriminate]. apply bind_ok in S. destruct S as (s & _ & S). apply bind_ok in S. destruct S as (w' & _ & S). injection S as <-.
      cbn [i_i i_ante i_str i_conn i_wi i_count] in *.
      pose proof (fun H => IH _ _ H E Ge Gc) as I0; cbn [i_i i_ante i_count] in I0; destruct (I0 ltac:(lia)) as [I1 [I2 I3]]. cbn [i_ante i_i i_count] in I1, I2, I3.
      destruct (Z.eq_dec (i_count t + 1) (c_nRules c)) as [Lst|Nl].
      * destruct (I2 Lst eq_refl) as [tail I4]. destruct (get_lt r (i_i t + 1) (i_i t + 1 + 1) cell_END) as [m G1]; [|lia|].
        { apply get_ok_iff. split; [lia|]. rewrite <- (Nat.add_0_r (Z.to_nat (i_i t + 1 + 1))). rewrite <- nth_error_skipn, I4. reflexivity. }
        exists (item_of x m), [], [], tail. split; [|split; [auto|split; [constructor|change (zlen (@nil rule)) with 0; lia]]].
        rewrite item_of_cells. rewrite (skipn_get _ _ _ G), (skipn_get _ _ _ G1), I4. reflexivity.
      * destruct (I1 ltac:(lia)) as (q & rs & tail & I4 & I5 & I6).
        destruct (get_lt r (i_i t + 1) (i_i t + 1 + 1) (it_var (r_first q))) as [m G1]; [|lia|].
        { apply get_ok_iff. split; [lia|]. rewrite <- (Nat.add_0_r (Z.to_nat (i_i t + 1 + 1))). rewrite <- nth_error_skipn, I4. reflexivity. }
        exists (item_of x m), [], (q :: rs), tail. split; [|split; [auto|split; [auto|lia]]].
        rewrite item_of_cells. rewrite (skipn_get _ _ _ G), (skipn_get _ _ _ G1), I4. reflexivity.
Qed.

Lemma accept_shape f' : get r 0 <> Ok RULES_END -> 0 <= c_nRules c -> inference f = Ok (true, f') ->
  exists rs tail, r = text rs ++ tail /\ zlen rs = c_nRules c /\ Forall loose rs.
Proof.
  intros HE HN H. unfold inference in H. fold c r in H. destruct (c_ready c); [|discriminate].
  apply bind_ok in H. destruct H as (c0 & G0 & H). apply bind_ok in H. destruct H as (ot & L & H). destruct ot as [t|]; [|discriminate].
  apply bind_ok in H. destruct H as (z & Gz & H). injection H as H _. apply andb_prop in H. destruct H as [H1 H2]. apply Z.eqb_eq in H1, H2. subst z.
  destruct (Z.eqb_spec c0 RULES_BEGIN) as [->|NB].
  - destruct (loop_shape _ G0 (mkI 1 true (lit 0 1) (-1) (f_wi f) 0) t ltac:(cbn [i_i]; lia) L Gz H2) as (S1 & S2 & _).
    cbn [i_i i_ante i_count] in S1, S2. change (Z.to_nat 1) with 1%nat in S1, S2.
    assert (Er : r = cell_BEGIN :: skipn 1 r) by (apply skipn_get in G0; exact G0).
    destruct (Z.eq_dec 0 (c_nRules c)) as [N0|N0].
    + destruct (S2 N0 eq_refl) as [tail E]. exists [], tail. split; [rewrite Er, E; reflexivity|]. split; [exact N0|constructor].
    + destruct (S1 ltac:(lia)) as (q & rs & tail & E & Lo & Ct). exists (q :: rs), tail. split; [|split; auto].
      rewrite Er, E. unfold text. cbn [app]. rewrite <- app_assoc. reflexivity.
  - injection L as <-. cbn [i_i] in Gz. contradiction.
Qed.
End Accept.
