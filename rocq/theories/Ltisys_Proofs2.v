(** Proofs about discrete transfer functions. *)
From Coq Require Import ZArith Reals Lra Lia List Bool.
From Flocq Require Import IEEE754.Binary IEEE754.Bits.
From Verif Require Import Base BaseLemmas Arith ArithLemmas Numa_Model Tdl_Model Tdl_Spec Tdl_Proofs Algorithm_Proofs Ltisys_Model Ltisys_Spec Ltisys_Proofs.
Import ListNotations.
Open Scope R_scope.

(** ** Finite sums *)
Lemma sum_ext n f g : (forall i, (i < n)%nat -> f i = g i) -> sum n f = sum n g.
Proof. induction n; intros H; cbn; [reflexivity|]. rewrite IHn by (intros; apply H; lia). rewrite H by lia. reflexivity. Qed.
Lemma sum_0 n : sum n (fun _ => 0) = 0.
Proof. induction n; cbn; lra. Qed.
Lemma sum_plus n f g : sum n (fun i => f i + g i) = sum n f + sum n g.
Proof. induction n; cbn; [lra|]. rewrite IHn. lra. Qed.
Lemma sum_scal n c f : sum n (fun i => c * f i) = c * sum n f.
Proof. induction n; cbn; [lra|]. rewrite IHn. lra. Qed.
Lemma sum_swap n m f : sum n (fun i => sum m (fun j => f i j)) = sum m (fun j => sum n (fun i => f i j)).
Proof.
  induction n; cbn; [rewrite sum_0; reflexivity|]. rewrite IHn, <- sum_plus. reflexivity.
Qed.
Lemma sum_first n f : sum (S n) f = f O + sum n (fun i => f (S i)).
Proof. induction n; [cbn; lra|]. change (sum (S (S n)) f) with (sum (S n) f + f (S n)). rewrite IHn. cbn. lra. Qed.

(** ** Streams *)
Lemma at_neg l k : (k < 0)%Z -> at_ l k = 0.
Proof. intros. unfold at_. destruct (Z.ltb_spec k 0); auto; lia. Qed.
Lemma at_app1 l r k : (k < zlen l)%Z -> at_ (l ++ r) k = at_ l k.
Proof.
  intros H. unfold at_. destruct (Z.ltb_spec k 0); auto. rewrite app_nth1; auto. unfold zlen in H. lia.
Qed.
Lemma at_last l v : at_ (l ++ [v]) (zlen l) = v.
Proof.
  unfold at_, zlen. destruct (Z.ltb_spec (Z.of_nat (length l)) 0); [lia|].
  rewrite Nat2Z.id, app_nth2, Nat.sub_diag by lia. reflexivity.
Qed.
Lemma filter_app c l r k : (k < zlen l)%Z -> filter c (l ++ r) k = filter c l k.
Proof. intros H. apply sum_ext. intros i _. rewrite at_app1 by lia. reflexivity. Qed.
Lemma filter_neg c l k : (k < 0)%Z -> filter c l k = 0.
Proof.
  intros H. unfold filter. rewrite (sum_ext _ _ (fun _ => 0)); [apply sum_0|].
  intros i _. rewrite at_neg by lia. lra.
Qed.
Lemma filter_scale c q s k : filter (map (fun v => q * v) c) s k = q * filter c s k.
Proof.
  unfold filter. rewrite map_length, <- sum_scal. apply sum_ext. intros i Hi.
  rewrite (nth_indep _ 0 (q * 0)) by (rewrite map_length; lia).
  rewrite (map_nth (fun v => q * v)). lra.
Qed.

(** Filters commute: what direct form 2 rests on. *)
Lemma filters_commute a b us ys vs L :
  (forall k, (k < L)%Z -> at_ ys k = filter b vs k) ->
  (forall k, (k < L)%Z -> at_ us k = filter a vs k) ->
  forall k, (k < L)%Z -> filter a ys k = filter b us k.
Proof.
  intros Hy Hu k Hk. unfold filter at 1 2.
  rewrite (sum_ext _ _ (fun i => sum (length b) (fun j => nth i a 0 * nth j b 0 * at_ vs (k - Z.of_nat i - Z.of_nat j)))).
  2:{ intros i Hi. rewrite Hy by lia. unfold filter. rewrite <- sum_scal. apply sum_ext. intros. lra. }
  rewrite sum_swap. apply sum_ext. intros j Hj. rewrite Hu by lia. unfold filter. rewrite <- sum_scal.
  apply sum_ext. intros i Hi. replace (k - Z.of_nat j - Z.of_nat i)%Z with (k - Z.of_nat i - Z.of_nat j)%Z by lia. lra.
Qed.

(** A response is determined by its input. *)
Lemma response_unique num den us ys ys' : nth 0 den 0 <> 0 ->
  response num den us ys -> response num den us ys' -> ys = ys'.
Proof.
  intros Ha [L E] [L' E'].
  assert (P : forall n, (n <= length us)%nat -> forall k, (k < Z.of_nat n)%Z -> at_ ys k = at_ ys' k).
  { induction n; intros Hn k Hk; [rewrite !at_neg by lia; reflexivity|].
    destruct (Z.eq_dec k (Z.of_nat n)) as [->|]; [|apply IHn; lia].
    assert (K : (0 <= Z.of_nat n < zlen us)%Z) by (unfold zlen; lia).
    pose proof (E _ K) as E1. rewrite <- (E' _ K) in E1. unfold filter in E1.
    destruct den as [|a0 den]; [cbn in Ha; lra|]. cbn [length] in E1. rewrite !sum_first in E1. cbn [nth] in E1, Ha.
    rewrite (sum_ext (length den) (fun i => nth i den 0 * at_ ys (Z.of_nat n - Z.of_nat (S i)))
              (fun i => nth i den 0 * at_ ys' (Z.of_nat n - Z.of_nat (S i)))) in E1.
    2:{ intros i _. rewrite IHn by lia. reflexivity. }
    replace (Z.of_nat n - Z.of_nat 0)%Z with (Z.of_nat n) in E1 by lia.
    apply Rmult_eq_reg_l with a0; auto. lra. }
  apply nth_ext with (d := 0) (d' := 0); [congruence|].
  intros n Hn. pose proof (P (length us) (le_n _) (Z.of_nat n) ltac:(lia)) as Q.
  unfold at_ in Q. destruct (Z.ltb_spec (Z.of_nat n) 0); [lia|]. rewrite !Nat2Z.id in Q. exact Q.
Qed.

(** ** The model over the reals *)
Local Notation z := (lit (a := RA) 0 1).
Ltac ops := change (fadd (a := RA)) with Rplus in *; change (fsub (a := RA)) with Rminus in *; change (fmul (a := RA)) with Rmult in *;
  change (fdiv (a := RA)) with Rdiv in *; change (F RA) with R in *; replace (lit (a := RA) 0 1) with 0 in * by (cbn; lra).
Lemma lit0 : z = 0.
Proof. cbn. lra. Qed.

Lemma fir_acc_R (c : list R) k : forall (w : list R) (y : R),
  fir_acc (A := RA) (Some c) k w y = y + sum k (fun i => nth (S i) c 0 * nth i w 0).
Proof.
  induction k; intros w y; cbn [fir_acc sum]; [lra|].
  etransitivity; [apply IHk|]. cbn [tap Nat.eqb]. ops. lra.
Qed.

Lemma fir_value_R (c : list R) n (x : R) (w : list R) : (1 <= n)%nat ->
  fir_value (A := RA) (Some c) n x w = dot n c (x :: w).
Proof.
  intros H. unfold fir_value, dot. rewrite fir_acc_R. destruct n; [lia|]. replace (S n - 1)%nat with n by lia.
  rewrite sum_first. cbn [nth tap Nat.eqb]. ops. lra.
Qed.

Lemma fir_acc_plain k : forall (w : list R) (y : R),
  fir_acc (A := RA) None k w y = y + sum k (fun i => nth i w 0).
Proof.
  induction k; intros w y; cbn [fir_acc sum]; [lra|].
  etransitivity; [apply IHk|]. cbn [tap]. ops. lra.
Qed.

Lemma fir_value_plain n (x : R) (w : list R) : (1 <= n)%nat ->
  fir_value (A := RA) None n x w = sum n (fun i => nth i (x :: w) 0).
Proof.
  intros H. unfold fir_value. rewrite fir_acc_plain. destruct n; [lia|]. replace (S n - 1)%nat with n by lia.
  rewrite sum_first. cbn [nth tap]. ops. lra.
Qed.

Lemma feedback_ok (den x : list R) k : forall i (v : R), (i + k < length den)%nat -> (i + k <= length x)%nat ->
  feedback_loop (A := RA) k (Z.of_nat i) den x v = Ok (v - sum k (fun j => nth (S (i + j)) den 0 * nth (i + j) x 0)).
Proof.
  induction k; intros i v Hd Hx; cbn [feedback_loop].
  - cbn. f_equal. lra.
  - replace (Z.of_nat i + 1)%Z with (Z.of_nat (S i)) by lia.
    rewrite (get_nth (0 : R)) by lia. cbn [bind]. rewrite (get_nth (0 : R)) by lia. cbn [bind].
    etransitivity; [apply IHk; lia|]. f_equal. rewrite sum_first.
    replace (i + 0)%nat with i by lia.
    ops.
    rewrite (sum_ext k (fun j => nth (S (S i + j)) den 0 * nth (S i + j) x 0) (fun j => nth (S (i + S j)) den 0 * nth (i + S j) x 0)).
    2:{ intros j _. replace (S i + j)%nat with (i + S j)%nat by lia. reflexivity. }
    lra.
Qed.

(** A system in the state left by setup(), with N coefficients on each side;
    [vs] are the inner values computed so far, all zero before. *)
Definition holds (N : nat) (vs x : list R) : Prop :=
  (N <= length x)%nat /\ forall i, (i < N)%nat -> nth i x 0 = at_ vs (zlen vs - 1 - Z.of_nat i).

Lemma zlen_app1 {B} (l : list B) v : zlen (l ++ [v]) = (zlen l + 1)%Z.
Proof. unfold zlen. rewrite app_length. cbn. lia. Qed.

Lemma holds_step N vs x v : (1 <= N)%nat -> holds N vs x ->
  holds N (vs ++ [v]) (v :: firstn (N - 1) x ++ skipn N x).
Proof.
  intros HN [L H]. split.
  - cbn [length]. rewrite app_length, firstn_length, skipn_length. lia.
  - intros i Hi. rewrite zlen_app1. destruct i.
    + cbn [nth]. replace (zlen vs + 1 - 1 - Z.of_nat 0)%Z with (zlen vs) by lia. rewrite at_last. reflexivity.
    + cbn [nth]. rewrite app_nth1 by (rewrite firstn_length; lia).
      replace (nth i (firstn (N - 1) x) 0) with (nth i x 0).
      2:{ clear -Hi L HN. revert x N Hi L HN. induction i; intros x N Hi L HN; destruct x; cbn in L; try lia;
          destruct N as [|[|N]]; cbn; try lia; auto.
          replace N with (S N - 1)%nat by lia. apply (IHi x (S N)); lia. }
      rewrite H by lia. rewrite at_app1 by lia. f_equal. lia.
Qed.

Lemma update_ok (num den x vs : list R) (u : R) (N : nat) (d : dsys RA) :
  (1 <= N)%nat -> (Z.of_nat N < 2 ^ 64)%Z -> length num = N -> length den = N -> holds N vs x -> nth 0 den 0 = 1 ->
  d_num d = num -> d_den d = den -> d_n d = Z.of_nat N -> d_na d = (Z.of_nat N - 1)%Z ->
  exists v y : R, d_update (A := RA) u d x = Ok (v :: firstn (N - 1) x ++ skipn N x, y) /\
    filter den (vs ++ [v]) (zlen vs) = u /\ filter num (vs ++ [v]) (zlen vs) = y.
Proof.
  intros HN HB Ln Ld Hx H1 E1 E2 En Ena.
  assert (Lx : (N <= length x)%nat) by apply Hx.
  set (v := u - sum (N - 1) (fun j => nth (S (0 + j)) den 0 * nth (0 + j) x 0)).
  exists v, (dot N num (v :: x)). split; [|split].
  - unfold d_update. rewrite En, Ena, E1, E2. replace (Z.to_nat (Z.of_nat N - 1)) with (N - 1)%nat by lia.
    change 0%Z with (Z.of_nat 0). rewrite feedback_ok by lia. cbn [bind]. fold v.
    rewrite updateFIR_ok; [|change (F RA) with R; lia|cbn; change (F RA) with R; lia|lia].
    rewrite fir_value_R by lia. reflexivity.
  - unfold filter. rewrite Ld. destruct N as [|N]; [lia|]. rewrite sum_first.
    replace (zlen vs - Z.of_nat 0)%Z with (zlen vs) by lia. rewrite at_last, H1.
    unfold v. replace (S N - 1)%nat with N by lia.
    rewrite (sum_ext N (fun i => nth (S i) den 0 * at_ (vs ++ _) (zlen vs - Z.of_nat (S i))) (fun j => nth (S (0 + j)) den 0 * nth (0 + j) x 0)); [lra|].
    intros i Hi. cbn [Nat.add]. rewrite (proj2 Hx) by lia. rewrite at_app1 by lia. f_equal. f_equal. lia.
  - unfold filter, dot. rewrite Ln. apply sum_ext. intros i Hi. destruct i.
    + cbn [nth]. replace (zlen vs - Z.of_nat 0)%Z with (zlen vs) by lia. rewrite at_last. reflexivity.
    + cbn [nth]. rewrite (proj2 Hx) by lia. rewrite at_app1 by lia. f_equal. f_equal. lia.
Qed.

Lemma sat_limit (b : lbase RA) (y : R) : saturate b y = limit (l_min b) (l_max b) y.
Proof.
  unfold saturate, limit. cbn [flt RA]. unfold Rltb. destruct (Rlt_dec y (l_min b)), (Rlt_dec (l_max b) y); reflexivity.
Qed.

Lemma stream_ok (num den : list R) (N : nat) :
  (1 <= N)%nat -> (Z.of_nat N < 2 ^ 64)%Z -> length num = N -> length den = N -> nth 0 den 0 = 1 ->
  forall (us vs x : list R) (d : dsys RA), holds N vs x -> d_x d = Some x ->
  d_num d = num -> d_den d = den -> d_n d = Z.of_nat N -> d_na d = (Z.of_nat N - 1)%Z -> l_delay (d_base d) = None ->
  exists (ws ys : list R) d', d_stream (A := RA) us d = Ok (map (limit (l_min (d_base d)) (l_max (d_base d))) ys, d') /\
    length ys = length us /\ length ws = length us /\
    (forall k, (k < length us)%nat -> filter den (vs ++ ws) (zlen vs + Z.of_nat k) = nth k us 0 /\
                                      filter num (vs ++ ws) (zlen vs + Z.of_nat k) = nth k ys 0).
Proof.
  intros HN HB Ln Ld H1. induction us as [|u us IH]; intros vs x d Hx Ex En Ed En1 Ena Edl.
  - exists [], [], d. cbn. repeat split; auto; intros; lia.
  - destruct (update_ok num den x vs u N d HN HB Ln Ld Hx H1 En Ed En1 Ena) as (v & y & Eu & Fv & Fy).
    set (x1 := v :: firstn (N - 1) x ++ skipn N x) in *.
    set (d1 := mkD (d_num d) (d_den d) (Some x1) (d_n d) (d_na d) (d_nb d) (d_b0 d) (d_base d) : dsys RA).
    destruct (IH (vs ++ [v]) x1 d1 (holds_step N vs x v HN Hx) eq_refl En Ed En1 Ena Edl) as (ws & ys & d' & Es & L1 & L2 & P).
    exists (v :: ws), (y :: ys), d'. split; [|split; [|split]].
    + assert (Ee : d_excite (A := RA) u d = Ok (limit (l_min (d_base d)) (l_max (d_base d)) y, d1)).
      { unfold d_excite. rewrite Ex. unfold delay_input. rewrite Edl. cbn [bind fst snd].
        rewrite Eu. cbn [bind fst snd]. rewrite sat_limit. reflexivity. }
      cbn [d_stream]. rewrite Ee. cbn [bind fst snd]. rewrite Es. cbn [bind fst snd map]. reflexivity.
    + cbn. rewrite L1. reflexivity.
    + cbn. rewrite L2. reflexivity.
    + intros k Hk. replace (vs ++ v :: ws) with ((vs ++ [v]) ++ ws) by (rewrite <- app_assoc; reflexivity).
      destruct k.
      * cbn [nth]. replace (zlen vs + Z.of_nat 0)%Z with (zlen vs) by lia.
        rewrite !(filter_app _ (vs ++ [v])) by (rewrite zlen_app1; lia). auto.
      * cbn [nth]. change (length (u :: us)) with (S (length us)) in Hk. specialize (P k ltac:(lia)). rewrite zlen_app1 in P.
        replace (zlen vs + Z.of_nat (S k))%Z with (zlen vs + 1 + Z.of_nat k)%Z by lia. exact P.
Qed.

Lemma holds0 N x : (N <= length x)%nat -> (forall i, (i < N)%nat -> nth i x 0 = 0) -> holds N [] x.
Proof. intros L H. split; auto. intros i Hi. rewrite H by auto. rewrite at_neg; auto. change (zlen (@nil R)) with 0%Z. lia. Qed.

(** From rest the stream is the response. *)
Lemma stream_response (num den : list R) (N : nat) (us x : list R) (d : dsys RA) :
  (1 <= N)%nat -> (Z.of_nat N < 2 ^ 64)%Z -> length num = N -> length den = N -> nth 0 den 0 = 1 ->
  holds N [] x -> d_x d = Some x ->
  d_num d = num -> d_den d = den -> d_n d = Z.of_nat N -> d_na d = (Z.of_nat N - 1)%Z -> l_delay (d_base d) = None ->
  exists (ys : list R) d', d_stream (A := RA) us d = Ok (map (limit (l_min (d_base d)) (l_max (d_base d))) ys, d') /\ response num den us ys.
Proof.
  intros HN HB Ln Ld H1 Hx Ex En Ed En1 Ena Edl.
  destruct (stream_ok num den N HN HB Ln Ld H1 us [] x d Hx Ex En Ed En1 Ena Edl) as (ws & ys & d' & Es & L1 & L2 & P).
  exists ys, d'. split; [exact Es|]. split; [exact L1|].
  cbn [app] in P. 
  intros k Hk. apply (filters_commute den num us ys ws (zlen us)); [| |lia].
  - intros j Hj. destruct (Z_lt_le_dec j 0); [rewrite at_neg, filter_neg by lia; reflexivity|].
    unfold zlen in Hj. destruct (P (Z.to_nat j) ltac:(lia)) as [_ Q].
    replace (zlen (@nil R) + Z.of_nat (Z.to_nat j))%Z with j in Q by (change (zlen (@nil R)) with 0%Z; lia). rewrite Q.
    unfold at_. destruct (Z.ltb_spec j 0); [lia|reflexivity].
  - intros j Hj. destruct (Z_lt_le_dec j 0); [rewrite at_neg, filter_neg by lia; reflexivity|].
    unfold zlen in Hj. destruct (P (Z.to_nat j) ltac:(lia)) as [Q _].
    replace (zlen (@nil R) + Z.of_nat (Z.to_nat j))%Z with j in Q by (change (zlen (@nil R)) with 0%Z; lia). rewrite Q.
    unfold at_. destruct (Z.ltb_spec j 0); [lia|reflexivity].
Qed.
