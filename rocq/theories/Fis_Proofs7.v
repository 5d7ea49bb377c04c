(** Termination of the rule loops, and what binary32 makes of strengths and of a
    surface nothing contributed to. *)
From Coq Require Import ZArith List Bool Lia Reals Lra Psatz.
From Flocq Require Import Core IEEE754.BinarySingleNaN IEEE754.Binary IEEE754.Bits.
From Verif Require Import Base BaseLemmas Arith ArithLemmas Smoother_Proofs4 Rms_Proofs Interp1_Model FisCore_Model FisRules_Spec Fis_Spec FisCore_Proofs Fis_Model FisSys_Spec Fis_Proofs Fis_Proofs2 Fis_Proofs3 Fis_Proofs4 Fis_Proofs5.
Import ListNotations.
Open Scope Z_scope.

Section Fuel.
Context {A : arith}.
Variable f : fis A.
Lemma inference_more k : forall t, inference_loop k f t <> Ok None -> inference_loop (S k) f t = inference_loop k f t.
Proof.
  induction k as [|k IH]; intros t H; [cbn in H; congruence|].
  change (inference_loop (S (S k)) f t) with
    (c <- get (c_rules (f_cfg f)) (i_i t) ;;
      if negb (c =? RULES_END) && (i_count t <? c_nRules (f_cfg f)) then
        t' <- (if i_ante t then inferenceAntecedent f t else inferenceReachEnd f t) ;;
        if i_i t' =? 0 then Ok (Some t')
        else inference_loop (S k) f (mkI (i_i t' + 1) (i_ante t') (i_str t') (i_conn t') (i_wi t') (i_count t'))
      else Ok (Some t)).
  cbn [inference_loop] in H |- *. fold (inference_loop (A := A)) in *.
  destruct (get _ _) as [v|]; [|reflexivity]. cbn [bind] in *. destruct (_ && _); [|reflexivity].
  destruct (if i_ante t then _ else _) as [t'|]; [|reflexivity]. cbn [bind] in *. destruct (i_i t' =? 0); [reflexivity|].
  apply IH. exact H.
Qed.
Lemma inference_fuel k n t : inference_loop k f t <> Ok None -> inference_loop (n + k) f t = inference_loop k f t.
Proof. intros H. induction n; cbn [Nat.add]; [reflexivity|]. rewrite inference_more; rewrite IHn; auto. Qed.

Lemma find_more k : forall i z, find_then k (c_rules (f_cfg f)) i = Ok z -> i <= z.
Proof.
  induction k; intros i z; cbn [find_then]; [discriminate|]. intros H. apply bind_ok in H. destruct H as (v & _ & H).
  destruct (v =? R_THEN); [injection H; lia|]. apply IHk in H. lia.
Qed.
Lemma agg_step t t' : 0 <= a_i t -> (if a_find t then aggregationFindConsequent f t else inferenceConsequent f t) = Ok t' -> a_i t <= a_i t'.
Proof.
  intros P. destruct (a_find t).
  - unfold aggregationFindConsequent. intros H. apply bind_ok in H. destruct H as (z & H & E). injection E as <-. cbn [a_i]. eapply find_more; eauto.
  - unfold inferenceConsequent. intros H. apply bind_ok in H. destruct H as (v & _ & H). apply bind_ok in H. destruct H as (u & _ & H).
    apply bind_ok in H. destruct H as (w & _ & H). destruct (f_wi f); [|discriminate].
    apply bind_ok in H. destruct H as (x & _ & H). apply bind_ok in H. destruct H as (p & _ & H). destruct (w =? R_AND); injection H as <-; cbn [a_i]; lia.
Qed.
Lemma agg_ends k : forall t, 0 <= a_i t -> zlen (c_rules (f_cfg f)) - a_i t < Z.of_nat k -> (k > 0)%nat -> aggregate_loop k f t <> Ok None.
Proof.
  induction k as [|k IH]; intros t P L K; [lia|]. cbn [aggregate_loop].
  destruct (get _ _) as [v|] eqn:G; [|discriminate]. cbn [bind]. apply get_range in G. destruct (_ && _); [|discriminate].
  destruct (if a_find t then _ else _) as [t'|] eqn:E; [|discriminate]. cbn [bind]. apply agg_step in E; [|exact P]. apply IH; cbn [a_i]; lia.
Qed.
Lemma find_end k n : forall i, 0 <= i -> zlen (c_rules (f_cfg f)) - i < Z.of_nat k -> (k > 0)%nat -> find_then (n + k) (c_rules (f_cfg f)) i = find_then k (c_rules (f_cfg f)) i.
Proof.
  induction k as [|k IH]; intros i P L K; [lia|]. rewrite Nat.add_succ_r. cbn [find_then].
  destruct (get _ _) as [v|] eqn:G; [|reflexivity]. cbn [bind]. apply get_range in G. destruct (v =? R_THEN); [reflexivity|]. apply IH; lia.
Qed.
End Fuel.

(** ** binary32 *)
Open Scope R_scope.
Lemma mul_unit32 o (x y : binary32) : unit32 x -> unit32 y -> unit32 (fmul (a := B32 o) x y).
Proof.
  change (fmul (a := B32 o) x y) with (b32_mult mode_NE x y).
  intros [Fx [X0 X1]] [Fy [Y0 Y1]].
  pose proof (Bmult_correct 24 128 eq_refl eq_refl binop_nan_pl32 mode_NE x y) as H.
  change (Bmult 24 128 eq_refl eq_refl binop_nan_pl32 mode_NE x y) with (b32_mult mode_NE x y) in H.
  set (r := round radix2 (SpecFloat.fexp 24 128) (round_mode mode_NE) (B2R 24 128 x * B2R 24 128 y)) in *.
  assert (Hr : 0 <= r <= 1).
  { assert (Fm1 : generic_format radix2 (SpecFloat.fexp 24 128) 1).
    { rewrite <- (b32_one_R o). apply generic_format_B2R. }
    unfold r. split.
    - apply round_ge_generic; [apply fexp_correct; reflexivity|apply valid_rnd_round_mode|apply generic_format_0|]. nra.
    - apply round_le_generic; [apply fexp_correct; reflexivity|apply valid_rnd_round_mode|exact Fm1|]. nra. }
  rewrite Rlt_bool_true in H.
  - destruct H as (E & Ef & _). rewrite Fx, Fy in Ef. split; [exact Ef|]. unfold unit. rewrite E. exact Hr.
  - rewrite Rabs_pos_eq by lra. apply Rle_lt_trans with (bpow radix2 0); [cbn; lra|]. apply bpow_lt. lia.
Qed.

(** Zero or NaN: what sums of products with zero can be. *)
Definition znan (x : binary32) : Prop := match x with B754_zero _ _ _ => True | B754_nan _ _ _ _ _ => True | _ => False end.
Lemma nothing o (D : Z -> binary32 -> binary32) (c : config (B32 o)) rs (ws : list (F (B32 o))) j pts :
  Forall (fun p : F (B32 o) * item => flt (a := B32 o) (lit 0 1) (fst p) = false) (said j rs ws) ->
  forall v0 v1 v2 v3 : binary32, znan v0 -> v1 = lit (a := B32 o) 0 1 ->
  let v := fold_left (fun v x => cv (A := B32 o) centroid v x (mu (A := B32 o) c D rs ws j x)) pts (v0, v1, v2, v3) in
  znan (fst (fst (fst v))) /\ snd (fst (fst v)) = lit (a := B32 o) 0 1.
Proof.
  intros H.
  assert (M : forall x, mu (A := B32 o) c D rs ws j x = lit (a := B32 o) 0 1).
  { intros x. unfold mu, mu_from. induction (said j rs ws) as [|p t IH]; cbn [fold_left]; [reflexivity|]. apply Forall_cons_iff in H. destruct H as [Hp Ht].
    rewrite Hp. apply IH. exact Ht. }
  induction pts as [|x t IH]; intros v0 v1 v2 v3 Z0 E1; cbn [fold_left]; [auto|]. rewrite M. unfold cv at 2. cbn [vs deFuzz_compute put out_v out_xy o_v0 o_v1 o_v2 o_v3 o_x o_y].
  apply IH.
  - rewrite b32_zero. change (znan (b32_plus mode_NE v0 (b32_mult mode_NE x (B754_zero 24 128 false)))).
    destruct x as [s|s|s p Hp|s m e He], v0 as [s'|s'|s' p' Hp'|s' m' e' He']; try destruct Z0; destruct s, s'; exact Logic.I.
  - rewrite E1, b32_zero. reflexivity.
Qed.
