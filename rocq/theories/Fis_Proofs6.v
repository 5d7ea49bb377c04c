(** The engine in exact arithmetic, in the words of FisSys_Spec.v. *)
From Coq Require Import ZArith List Bool Lia Reals Lra Psatz.
From Verif Require Import Base BaseLemmas Arith ArithLemmas Ltisys_Proofs2 Smoother_Proofs Interp1_Model FisCore_Model FisRules_Spec Fis_Spec FisCore_Proofs Fis_Model FisSys_Spec Fis_Proofs Fis_Proofs3 Fis_Proofs4 Fis_Proofs5.
Import ListNotations.
Open Scope R_scope.

Lemma one_R : lit (a := RA) 1 1 = 1. Proof. cbn. lra. Qed.
Lemma zero_R : lit (a := RA) 0 1 = 0. Proof. cbn. lra. Qed.
Lemma apply_R o (a b : R) : unit a -> unit b -> apply_op (A := RA) o a b = op_R o a b.
Proof. intros Ha Hb. destruct o; cbn [apply_op op_R]; [apply Min_unit|apply Prod_unit|apply Max_unit|apply ProbOr_unit|apply Sum_unit]; auto. Qed.
Lemma op_unit o a b : unit a -> unit b -> unit (op_R o a b).
Proof. intros Ha Hb. rewrite <- apply_R by auto. destruct o; apply bound01_unit. Qed.
Lemma not_unit d : unit d -> unit (1 - d). Proof. unfold unit. lra. Qed.
Lemma clip_unit x : unit (clip 0 1 x).
Proof. unfold clip, unit, Rmax, Rmin; repeat destruct Rle_dec; lra. Qed.
Lemma mul_unit a b : unit a -> unit b -> unit (a * b). Proof. unfold unit. intros. nra. Qed.

(** ** Strengths *)
Lemma degree_of_R (l : list (mf RA)) i : (0 <= it_set i < zlen l)%Z -> Forall (fun m : mf RA => unit (mf_fx m)) l ->
  degree_of (A := RA) l i = degree_R (fun s => mf_fx (A := RA) (nth (Z.to_nat s) l mf_new)) i /\ unit (degree_of (A := RA) l i).
Proof.
  intros Hi Hl. unfold degree_of, degree_R.
  assert (U : unit (mf_fx (A := RA) (nth (Z.to_nat (it_set i)) l mf_new))).
  { rewrite Forall_forall in Hl. apply Hl, nth_In. unfold zlen in Hi. lia. }
  rewrite bound01_id by auto. destruct (it_not i); [|auto]. rewrite one_R. change (fsub (a := RA)) with Rminus. split; auto. apply not_unit; auto.
Qed.
Lemma fires_R (f : fis RA) q : Forall (fun m : mf RA => unit (mf_fx m)) (f_inMF f) -> Forall (fun i => (0 <= it_set i < zlen (f_inMF f))%Z) (antecedents q) ->
  fires f q = strength (op_R (c_and (f_cfg f))) (op_R (c_or (f_cfg f))) (degree_R (fun s => mf_fx (A := RA) (nth (Z.to_nat s) (f_inMF f) mf_new))) q /\ unit (fires f q).
Proof.
  intros Hl Hq. unfold fires, strength. unfold antecedents in Hq. apply Forall_cons_iff in Hq. destruct Hq as [H0 Hm].
  destruct (degree_of_R _ _ H0 Hl) as [E0 U0].
  assert (S0 : Sum (A := RA) (lit 0 1) (degree_of (A := RA) (f_inMF f) (r_first q)) = degree_of (A := RA) (f_inMF f) (r_first q)).
  { rewrite zero_R, Sum_unit; [|unfold unit; lra|auto]. unfold unit in U0. rewrite Rmin_left; lra. }
  rewrite S0, E0. rewrite E0 in U0. clear S0 E0 H0. revert U0. generalize (degree_R (fun s => mf_fx (A := RA) (nth (Z.to_nat s) (f_inMF f) mf_new)) (r_first q)).
  induction (r_more q) as [|[p i] t IH]; intros y U; cbn [fold_left]; [auto|]. cbn [map snd] in Hm. apply Forall_cons_iff in Hm. destruct Hm as [Hi Hm].
  destruct (degree_of_R _ _ Hi Hl) as [Ei Ui]. cbn [fst snd].
  assert (E : op_of f p y (degree_of (A := RA) (f_inMF f) i) = match p with And => op_R (c_and (f_cfg f)) | Or => op_R (c_or (f_cfg f)) end y (degree_R (fun s => mf_fx (A := RA) (nth (Z.to_nat s) (f_inMF f) mf_new)) i)).
  { rewrite <- Ei. destruct p; apply apply_R; auto. }
  rewrite E. apply IH; auto. rewrite Ei in Ui. destruct p; apply op_unit; auto.
Qed.

(** ** The surface *)
Lemma surface_from (c : config RA) D x l : Forall (fun p : R * item => unit (fst p) /\ unit (D (it_set (snd p)) x)) l -> forall y : R, unit y ->
  let z := fold_left (fun y p => op_R (c_aggr c) y (op_R (c_impl c) (fst p) (degree_R (fun s => D s x) (snd p)))) (fired l) y in
  fold_left (fun y (p : R * item) => if flt (a := RA) (lit 0 1) (fst p) then apply_op (A := RA) (c_aggr c) y (apply_op (A := RA) (c_impl c) (fst p) (degree_at (A := RA) D (snd p) x)) else y) l y = z /\ unit z.
Proof.
  unfold fired. induction l as [|[w it] t IH]; intros H y U; cbn [fold_left filter]; [auto|]. apply Forall_cons_iff in H. destruct H as [[Hw Hd] Ht]. cbn [fst snd] in *.
  change (flt (a := RA)) with Rltb in *. rewrite zero_R in *.
  destruct (Rltb_spec 0 w) as [L|L]; destruct (Rlt_dec 0 w) as [L'|L']; try lra; cbn [fold_left fst snd]; [|apply IH; auto].
  assert (Hg : unit (degree_R (fun s => D s x) it)) by (unfold degree_R; destruct (it_not it); auto using not_unit).
  assert (E : degree_at (A := RA) D it x = degree_R (fun s => D s x) it).
  { unfold degree_at, degree_R. rewrite one_R. reflexivity. }
  rewrite E, (apply_R (c_impl c)) by auto. rewrite apply_R by (auto using op_unit). apply IH; auto using op_unit.
Qed.
Lemma surface_R (c : config RA) D rs ws j x : Forall (fun p : R * item => unit (fst p) /\ unit (D (it_set (snd p)) x)) (said j rs ws) ->
  mu (A := RA) c D rs ws j x = surface (c_impl c) (c_aggr c) D (said j rs ws) x /\ unit (surface (c_impl c) (c_aggr c) D (said j rs ws) x).
Proof.
  intros H. assert (U : unit 0) by (unfold unit; lra). pose proof (surface_from c D x _ H 0 U) as K. cbv zeta in K. rewrite <- zero_R in K at 1. exact K.
Qed.

Lemma grid_R (o : out RA) : o_res o = (o_max o - o_min o) / 100 ->
  map (fun i => nextX o (0 + Z.of_nat i)) (seq 0 (Z.to_nat nPoints)) = grid (o_min o) (o_max o).
Proof.
  intros H. unfold grid. change (Z.to_nat nPoints) with 100%nat. apply map_ext. intros k. unfold nextX. rewrite H. ra. rewrite Z.add_0_l, INR_IZR_INZ. lra.
Qed.
Lemma grid_in lo hi x : lo <= hi -> In x (grid lo hi) -> lo <= x <= hi.
Proof.
  intros H I0. apply in_map_iff in I0. destruct I0 as (k & <- & K). apply in_seq in K.
  assert (0 <= INR k <= 99). { split; [apply pos_INR|]. replace 99 with (INR 99) by (cbn; lra). apply le_INR. lia. }
  assert (0 <= (INR k + 1 / 2) * ((hi - lo) / 100)) by (apply Rmult_le_pos; lra).
  assert ((INR k + 1 / 2) * ((hi - lo) / 100) <= 100 * ((hi - lo) / 100)) by (apply Rmult_le_compat_r; lra). lra.
Qed.
Lemma grid_nonempty lo hi : grid lo hi <> []. Proof. discriminate. Qed.
Lemma lsum_ext (g h : R -> R) pts : (forall x, In x pts -> g x = h x) -> lsum g pts = lsum h pts.
Proof. induction pts; intros H; cbn [lsum]; [auto|]. rewrite H by (left; auto). rewrite IHpts; auto. intros; apply H; right; auto. Qed.
Lemma fold_ext {S} (h k : S -> R -> S) pts : forall s, (forall s x, In x pts -> h s x = k s x) -> fold_left h pts s = fold_left k pts s.
Proof. induction pts; intros s H; cbn [fold_left]; auto. rewrite H by (left; auto). apply IHpts. intros; apply H; right; auto. Qed.
Lemma walk_ext half g h pts : (forall x, In x pts -> g x = h x) -> forall acc last, walk (A := RA) half acc last pts g = walk (A := RA) half acc last pts h.
Proof.
  induction pts; intros H acc lst; cbn [walk]; auto. rewrite H by (left; auto). rewrite IHpts by (intros; apply H; right; auto). reflexivity.
Qed.
Lemma clip_id lo hi x : lo <= x <= hi -> clip lo hi x = x.
Proof. intros H. unfold clip. rewrite Rmin_left by lra. rewrite Rmax_right; lra. Qed.

(** ** Mamdani *)

Lemma said_in {X} (p : X * item) j rs : forall ws : list X, In p (said j rs ws) -> In (fst p) ws /\ exists q, In q rs /\ In (snd p) (consequents q).
Proof.
  induction rs as [|q t IH]; intros [|w wt]; cbn [said]; try solve [intros []]. intros H. apply in_app_iff in H. destruct H as [H|H].
  - unfold said_by in H. apply in_map_iff in H. destruct H as (i & <- & H). apply filter_In in H. cbn [fst snd]. split; [left; auto|]. exists q. split; [left; auto|tauto].
  - apply IH in H. destruct H as (H1 & q' & H2 & H3). split; [right; auto|]. exists q'. split; auto. right; auto.
Qed.

Lemma mamdani_well {A : arith} (f : fis A) rs ws deg : system f rs ws -> c_type (f_cfg f) = Mamdani -> sets_are f deg ->
  exists tail, well (f_cfg f) (f_in f) (f_outMF f) deg (fun _ => lit 0 1) rs tail ws /\ inv (f_cfg f) (f_in f) (f_outMF f) ws f.
Proof.
  intros M Ty St. destruct (s_text _ _ _ M) as [tail T]. exists tail. split.
  - split; [exact T|]. split; [|split; [apply (s_count _ _ _ M)|split; [apply (s_room _ _ _ M)|]]].
    + apply Forall_forall. intros q Hq. pose proof (s_rules _ _ _ M) as Hr. rewrite Forall_forall in Hr. destruct (Hr q Hq) as (H1 & H2 & H3).
      split; [|split; [|exact H3]].
      * apply Forall_forall. intros i Hi. rewrite Forall_forall in H1. destruct (H1 i Hi) as (K1 & K2 & K3). split; [lia|]. split; [lia|].
        apply (s_then _ _ _ M q i Hq Hi).
      * eapply Forall_impl; [|exact H2]. intros i (K1 & K2 & K3). split; auto.
    + intros s Hs. rewrite Ty. intros mn mx x. destruct (St s Hs mn mx x) as [m' E].
      rewrite membership_val in E. destruct (mf_val _ _ _) as [v|]; [|discriminate]. cbn [bind] in E. congruence.
  - repeat split; auto; [apply (s_wi _ _ _ M)|apply (s_outs _ _ _ M)].
Qed.
Lemma mamdani_said f rs ws deg j x : mamdani f rs ws deg -> Forall (fun p : R * item => unit (fst p) /\ unit (deg (it_set (snd p)) x)) (said j rs ws).
Proof.
  intros M. apply Forall_forall. intros p Hp. apply said_in in Hp. destruct Hp as (H1 & q & H2 & H3). split.
  - pose proof (m_strengths _ _ _ _ M) as U. rewrite Forall_forall in U. auto.
  - pose proof (s_rules _ _ _ (m_sys _ _ _ _ M)) as Hr. rewrite Forall_forall in Hr. destruct (Hr q H2) as (_ & K & _). rewrite Forall_forall in K.
    destruct (K _ H3) as (_ & K2 & _). apply (m_degrees _ _ _ _ M); exact K2.
Qed.

Lemma vs_inv (s : out RA) (a b c d : R) : vs s = (a, b, c, d) -> o_v0 s = a /\ o_v1 s = b /\ o_v2 s = c /\ o_v3 s = d.
Proof. unfold vs. intros H. injection H. auto. Qed.
Lemma mamdani_value f rs ws deg : mamdani f rs ws deg ->
  exists f', deFuzzify f = Ok (true, f') /\ f_wi f' = Some ws /\
  forall j, (0 <= j < c_nOut (f_cfg f))%Z ->
    let o := nth (Z.to_nat j) (f_out f) out_new in
    let o' := nth (Z.to_nat j) (f_out f') out_new in
    let g := surface (c_impl (f_cfg f)) (c_aggr (f_cfg f)) deg (said j rs ws) in
    let pts := grid (o_min o) (o_max o) in
    (forall x, unit (g x)) /\
    match c_defuzz (f_cfg f) with
    | wtaver | wtsum => True
    | som => taken lom g pts (o_value o')
    | m => taken m g pts (o_value o')
    end /\
    (forall xs ys, o_ag o = Some (xs, ys) -> exists xs' ys', o_ag o' = Some (xs', ys') /\ zlen xs' = zlen xs /\ zlen ys' = zlen ys /\
       forall k, (k < 100)%nat -> nth k xs' 0 = nth k pts 0 /\ nth k ys' 0 = g (nth k pts 0)).
Proof.
  intros M. destruct (mamdani_well _ _ _ _ (m_sys _ _ _ _ M) (m_type _ _ _ _ M) (m_sets _ _ _ _ M)) as (tail & W & Inv).
  assert (P : (0 <= c_nOut (f_cfg f))%Z) by (rewrite <- (s_outs _ _ _ (m_sys _ _ _ _ M)); unfold zlen; lia).
  assert (AG : forall j, ag_ok (nth j (f_out f) out_new)).
  { intros j. destruct (Nat.lt_ge_cases j (length (f_out f))) as [L|L].
    - pose proof (s_region _ _ _ (m_sys _ _ _ _ M)) as Hr. rewrite Forall_forall in Hr. specialize (Hr _ (nth_In _ out_new L)). unfold ag_ok. destruct (o_ag _) as [[xs ys]|]; auto.
    - rewrite nth_overflow by auto. exact Logic.I. }
  destruct (mamdani_ok _ _ _ _ _ _ _ _ f (m_type _ _ _ _ M) (s_ready _ _ _ (m_sys _ _ _ _ M)) W Inv AG P) as (f' & E & (Inv1 & _ & Inv3 & _) & V).
  exists f'. split; [exact E|]. split; [exact Inv3|]. intros j Hj o o' g pts.
  assert (G : forall x, mu (A := RA) (f_cfg f) deg rs ws j x = g x /\ unit (g x)).
  { intros x. apply surface_R. eapply mamdani_said; eauto. }
  specialize (V j Hj). cbv zeta in V. fold o o' in V. destruct V as [V VA].
  set (d := c_defuzz (f_cfg f)) in *. set (s := sweep (f_cfg f) deg rs ws (Z.to_nat nPoints) j 0 (deFuzz_init d o)) in *.
  assert (Sp : o_min o <= o_max o /\ o_res o = (o_max o - o_min o) / 100).
  { pose proof (m_span _ _ _ _ M) as Hs. rewrite Forall_forall in Hs. apply Hs, nth_In. pose proof (s_outs _ _ _ (m_sys _ _ _ _ M)). unfold zlen in *. lia. }
  destruct Sp as [Sp Rs].
  assert (K : o_min (deFuzz_init d o) = o_min o /\ o_max (deFuzz_init d o) = o_max o /\ o_res (deFuzz_init d o) = o_res o /\ o_ag (deFuzz_init d o) = o_ag o) by (destruct d; repeat split; reflexivity).
  destruct K as (K1 & K2 & K3 & K4).
  destruct (sweep_vs (f_cfg f) deg rs ws (Z.to_nat nPoints) j 0 (deFuzz_init d o)) as (S1 & S2 & S3 & S4). fold s in S1, S2, S3, S4.
  rewrite grid_R in S1 by (rewrite K1, K2, K3; exact Rs). rewrite K1, K2 in S1. fold pts in S1.
  rewrite S2, S3, K1, K2 in V. rewrite bound_R in V by exact Sp. fold (clip (o_min o) (o_max o) (crisp (f_cfg f) deg rs ws j s)) in V.
  assert (Gin : forall x, In x pts -> o_min o <= x <= o_max o) by (intros x; apply grid_in; auto).
  assert (G0 : forall x, In x pts -> 0 <= g x) by (intros x _; apply (proj2 (G x))).
  split; [intros x; apply G|]. split.
  - assert (F1 : vs s = fold_left (fun v x => cv (A := RA) d v x (g x)) pts (vs (deFuzz_init d o))).
    { rewrite S1. apply fold_ext. intros v x _. fold d. f_equal. apply G. }
    clear S1. unfold crisp in V. fold d in V. unfold taken.
    destruct d eqn:D; auto; cbn [deFuzz_end deFuzz_init] in *.
    + intros L. unfold vs in F1 at 2. cbn [out_v o_v0 o_v1 o_v2 o_v3] in F1. rewrite !zero_R in F1.
      rewrite centroid_fold in F1. apply vs_inv in F1. destruct F1 as (E0 & E1 & E2 & E3). rewrite E0, E1 in V. change (fdiv (a := RA)) with Rdiv in V. rewrite !Rplus_0_l in V.
      rewrite clip_id in V; auto. apply mean_in; auto.
    + intros L. unfold vs in F1 at 2. cbn [out_v o_v0 o_v1 o_v2 o_v3] in F1. rewrite !zero_R in F1.
      rewrite bisector_fold in F1. apply vs_inv in F1. destruct F1 as (E0 & E1 & E2 & E3).
      rewrite bis_walk in V. cbn [o_v2 o_v3 o_x out_v] in V.
      rewrite (map_ext _ (fun i => nextX s (0 + Z.of_nat i))) in V by (intros; apply nextX_same; reflexivity).
      rewrite grid_R in V by (rewrite S2, S3, S4; exact Rs). rewrite S2, S3 in V. cbn [out_v o_min o_max] in V. fold pts in V.
      rewrite E1, zero_R, Rplus_0_l in V. replace (fmul (a := RA) (lit 1 2) (lsum g pts)) with (lsum g pts / 2) in V by (ra; lra).
      rewrite (walk_ext _ _ g) in V by (intros; apply G).
      destruct (walk_ok g (lsum g pts / 2) pts 0 (o_x s)) as (l1 & x & l2 & P1 & P2 & P3 & P4).
      { lra. } { apply grid_nonempty. }
      rewrite P2 in V. rewrite clip_id in V. 2:{ apply Gin. rewrite P1. apply in_app_iff. right; left; auto. }
      exists l1, l2. rewrite V. split; [exact P1|]. split; [lra|]. intros p q Epq. destruct p as [|p0 p].
      * cbn [lsum]. lra.
      * specialize (P4 _ _ Epq ltac:(discriminate)). lra.
    + unfold vs in F1 at 2. cbn [out_v o_v0 o_v1 o_v2 o_v3] in F1.
      replace (lit (a := RA) (-1) 1) with (-1) in F1 by (cbn; lra).
      destruct (mom_fold g pts (o_min o) (o_max o) G0 (grid_nonempty _ _)) as (a & b & h & sg & F2 & PL).
      pose proof (vs_inv _ _ _ _ _ (eq_trans F1 F2)) as F3. destruct F3 as (E0 & E1 & E2 & E3). exists a, b. split; [exact PL|].
      rewrite E1, E2 in V. replace (fmul (a := RA) (lit 1 2) (fadd (a := RA) a b)) with ((a + b) / 2) in V by (ra; lra).
      rewrite V. apply clip_id. destruct PL as (l1 & mid & rest & P1 & P2 & _).
      assert (Ia : In a pts) by (rewrite P1; apply in_app_iff; right; left; auto).
      assert (Ib : In b pts).
      { rewrite P1, P2. apply in_app_iff; right. apply in_app_iff; left. clear. destruct mid as [|m0 mid]; [left; auto|]. right.
        revert m0. induction mid as [|m1 mid IH]; intros m0; [left; auto|]. change (In (last (m1 :: mid) a) (m0 :: m1 :: mid)). right. apply IH. }
      apply Gin in Ia. apply Gin in Ib. lra.
    + unfold vs in F1 at 2. cbn [out_v o_v0 o_v1 o_v2 o_v3] in F1.
      replace (lit (a := RA) (-1) 1) with (-1) in F1 by (cbn; lra).
      destruct (lom_fold g lom pts (or_introl eq_refl) (-1) (o_v1 o) (o_max o) (o_v3 o) G0 (or_introl eq_refl) (or_introl (grid_nonempty _ _))) as (x & F2 & P1 & P2 & P3).
      pose proof (vs_inv _ _ _ _ _ (eq_trans F1 F2)) as F3. destruct F3 as (E0 & E1 & E2 & E3).
      destruct P3 as [(l1 & l2 & P3 & P4)|(P3 & P4 & P5)].
      * rewrite E2 in V. rewrite clip_id in V. 2:{ apply Gin. rewrite P3. apply in_app_iff. right; left; auto. }
        exists l1, l2. rewrite V. auto.
      * exfalso. specialize (proj2 (G x)). unfold unit. rewrite P3, <- P4. lra.
    + unfold vs in F1 at 2. cbn [out_v o_v0 o_v1 o_v2 o_v3] in F1.
      replace (lit (a := RA) (-1) 1) with (-1) in F1 by (cbn; lra).
      destruct (lom_fold g som pts (or_intror eq_refl) (-1) (o_v1 o) (o_min o) (o_v3 o) G0 (or_introl eq_refl) (or_introl (grid_nonempty _ _))) as (x & F2 & P1 & P2 & P3).
      pose proof (vs_inv _ _ _ _ _ (eq_trans F1 F2)) as F3. destruct F3 as (E0 & E1 & E2 & E3).
      destruct P3 as [(l1 & l2 & P3 & P4)|(P3 & P4 & P5)].
      * rewrite E2 in V. rewrite clip_id in V. 2:{ apply Gin. rewrite P3. apply in_app_iff. right; left; auto. }
        exists l1, l2. rewrite V. auto.
      * exfalso. specialize (proj2 (G x)). unfold unit. rewrite P3, <- P4. lra.
  - intros xs ys Ea. assert (Hr : (100 <= zlen xs)%Z /\ (100 <= zlen ys)%Z).
    { specialize (AG (Z.to_nat j)). fold o in AG. unfold ag_ok in AG. rewrite Ea in AG. exact AG. }
    destruct (sweep_ag (f_cfg f) deg rs ws (Z.to_nat nPoints) j 0 (deFuzz_init d o) xs ys) as (xs' & ys' & A1 & A2 & A3 & A4);
      [lia|rewrite K4; exact Ea|change (Z.of_nat (Z.to_nat nPoints)) with 100%Z; lia|change (Z.of_nat (Z.to_nat nPoints)) with 100%Z; lia|].
    fold s in A1. exists xs', ys'. split; [rewrite VA; exact A1|]. split; auto. split; auto. intros k Hk.
    specialize (A4 k ltac:(change (Z.to_nat nPoints) with 100%nat; lia)). change (Z.to_nat 0 + k)%nat with k in A4.
    rewrite zero_R in A4. destruct A4 as [A4 A5].
    assert (N : nth k pts 0 = nextX (deFuzz_init d o) (0 + Z.of_nat k)).
    { unfold pts. rewrite <- K1, <- K2, <- grid_R by (rewrite K1, K2, K3; exact Rs).
      rewrite (nth_indep _ 0 (nextX (deFuzz_init d o) (0 + Z.of_nat 0))) by (rewrite map_length, seq_length; exact Hk).
      rewrite (map_nth (fun i => nextX (deFuzz_init d o) (0 + Z.of_nat i))). rewrite seq_nth by (exact Hk). reflexivity. }
    rewrite N. split; [exact A4|]. rewrite A5. apply G.
Qed.

(** ** Sugeno and Tsukamoto *)
Lemma sugeno_R zv (l : list (R * item)) : forall v0 v1 : R, sugeno (A := RA) zv l (v0, v1) = (v0 + value_sum zv l, v1 + weight_sum l).
Proof.
  unfold sugeno, value_sum, weight_sum, fired. induction l as [|p t IH]; intros v0 v1; cbn [fold_left filter fold_right]; [rewrite !Rplus_0_r; reflexivity|].
  change (flt (a := RA)) with Rltb in *. rewrite zero_R in *. destruct p as [w it]; cbn [fst snd] in *. change (F RA) with R in *.
  destruct (Rltb_spec 0 w) as [L|L]; destruct (Rlt_dec 0 w) as [L'|L']; try lra; cbn [fold_right fst snd].
  - rewrite IH. cbn [fst snd]. change (fadd (a := RA)) with Rplus. change (fmul (a := RA)) with Rmult. f_equal; lra.
  - apply IH.
Qed.


Lemma takagi_value f rs ws zv : takagi f rs ws zv -> c_defuzz (f_cfg f) = wtaver \/ c_defuzz (f_cfg f) = wtsum ->
  exists f', deFuzzify f = Ok (true, f') /\ f_wi f' = Some ws /\
  forall j, (0 <= j < c_nOut (f_cfg f))%Z ->
    let o := nth (Z.to_nat j) (f_out f) out_new in
    o_value (nth (Z.to_nat j) (f_out f') out_new) = clip (o_min o) (o_max o)
      (match c_defuzz (f_cfg f) with wtsum => value_sum zv (said j rs ws) | _ => value_sum zv (said j rs ws) / weight_sum (said j rs ws) end).
Proof.
  intros M Dz. destruct (s_text _ _ _ (t_sys _ _ _ _ M)) as [tail T].
  assert (W : well (f_cfg f) (f_in f) (f_outMF f) (fun _ _ => 0) zv rs tail ws).
  { split; [exact T|]. split; [|split; [apply (s_count _ _ _ (t_sys _ _ _ _ M))|split; [apply (s_room _ _ _ (t_sys _ _ _ _ M))|]]].
    + apply Forall_forall. intros q Hq. pose proof (s_rules _ _ _ (t_sys _ _ _ _ M)) as Hr. rewrite Forall_forall in Hr. destruct (Hr q Hq) as (H1 & H2 & H3).
      split; [|split; [|exact H3]].
      * apply Forall_forall. intros i Hi. rewrite Forall_forall in H1. destruct (H1 i Hi) as (K1 & K2 & K3). split; [lia|]. split; [lia|].
        apply (s_then _ _ _ (t_sys _ _ _ _ M) q i Hq Hi).
      * eapply Forall_impl; [|exact H2]. intros i (K1 & K2 & K3). split; auto.
    + intros s Hs. destruct (t_sets _ _ _ _ M s Hs) as [m' E]. rewrite membership_val in E.
      destruct (c_type (f_cfg f)) eqn:Ty; [destruct (t_type _ _ _ _ M Ty)| |]; (destruct (mf_val _ _ _) as [v|]; [|discriminate]; cbn [bind] in E; congruence). }
  assert (Inv : inv (f_cfg f) (f_in f) (f_outMF f) ws f) by (repeat split; auto; [apply (s_wi _ _ _ (t_sys _ _ _ _ M))|apply (s_outs _ _ _ (t_sys _ _ _ _ M))]).
  assert (P : (0 <= c_nOut (f_cfg f))%Z) by (rewrite <- (s_outs _ _ _ (t_sys _ _ _ _ M)); unfold zlen; lia).
  destruct (sugeno_ok _ _ _ _ _ _ _ _ f (t_type _ _ _ _ M) Dz (s_ready _ _ _ (t_sys _ _ _ _ M)) W Inv P) as (f' & E & (_ & _ & Inv3 & _) & V).
  exists f'. split; auto. split; auto. intros j Hj o. specialize (V j Hj). cbv zeta in V. fold o in V. rewrite V.
  rewrite !zero_R, sugeno_R. cbn [fst snd]. rewrite !Rplus_0_l.
  assert (Sp : o_min o <= o_max o).
  { pose proof (t_span _ _ _ _ M) as Hs. rewrite Forall_forall in Hs. apply Hs, nth_In. pose proof (s_outs _ _ _ (t_sys _ _ _ _ M)). unfold zlen in *. lia. }
  rewrite bound_R by exact Sp. unfold clip. destruct Dz as [-> | ->]; reflexivity.
Qed.
