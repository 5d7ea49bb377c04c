(** Property theorems of the moving mean in single precision (C132). *)
From Coq Require Import ZArith Reals Lra Lia Bool List.
From Flocq Require Import Core IEEE754.BinarySingleNaN IEEE754.Binary IEEE754.Bits.
From Verif Require Import Base Arith Ffmath_Spec Bits32 Ffmath_Proofs Ffmath_Proofs16 Float32 Tdl_Model Smoother_Model Smoother_Spec Smoother_Proofs3 Mean32_Spec Mean32_Proofs.
Import ListNotations.
Open Scope R_scope.

(** ** C132: the moving mean with a running sum (MWM2) in binary32 *)
(** For every window size below 2^24, every stream of finite samples of magnitude at most M and every k: as long as the outputs
    are finite numbers, the k-th output is off the mean of the last n samples by at most
    ((1 + 2^-24)^(k+3) - 1) ((n + 5) M + 3 2^-126)/n + 2^-150, with M the largest magnitude ever seen, not that of the window. *)
Theorem C132_drift_bound : forall (o : oracles binary32) (w : list binary32) (n : nat) (M : R) (f0 f f' : mwm2 (B32 o)) (xs ys : list binary32),
  (1 <= n <= length w)%nat -> (Z.of_nat n < 2 ^ 24)%Z -> mwm2_setup (A := B32 o) (Some w) (Z.of_nat n) f0 = Ok (true, f) ->
  Forall (fun x => finite x /\ Rabs (valR x) <= M) xs ->
  feed_res (mwm2_smooth (A := B32 o)) xs f = Ok (ys, f') -> Forall (fun y => finite y) ys ->
  length ys = length xs /\
  forall k, (k < length xs)%nat -> Rabs (nth k (map (B2R 24 128) ys) 0 - moving_mean n (map (B2R 24 128) xs) k) <= drift n (k + 1) M.
Proof. intros o w n M f0 f f' xs ys Hn Hb S W R1 Fy. exact (mean_from_start o w n M f0 f f' xs ys Hn Hb S W R1 Fy). Qed.
Print Assumptions C132_drift_bound.

(** Deviation: rounding errors never leave the running sum.  With a window of two, after the samples 0, 2^30, 1 and then nothing
    but zeros, the output is -1/2 at every later step, for ever, although the mean of the window is 0. *)
Lemma zeros_run (o : oracles binary32) (s m z : binary32) :
  b32_minus mode_NE z z = z -> b32_plus mode_NE s z = s -> b32_div mode_NE s (ofsize (A := B32 o) 2) = m ->
  forall n, (exists f', feed_res (mwm2_smooth (A := B32 o)) (repeat z n) (mkMWM2 (A := B32 o) (Some (mktdl [z; z] 2 2 1 0)) s false) = Ok (repeat m n, f')) /\
            (exists f', feed_res (mwm2_smooth (A := B32 o)) (repeat z n) (mkMWM2 (A := B32 o) (Some (mktdl [z; z] 2 2 0 1)) s false) = Ok (repeat m n, f')).
Proof.
  intros Hz Hs Hm. induction n as [|n ((fa & IA) & (fb & IB))]; [split; eexists; reflexivity|].
  assert (E1 : mwm2_smooth (A := B32 o) z (mkMWM2 (A := B32 o) (Some (mktdl [z; z] 2 2 1 0)) s false) = Ok (m, mkMWM2 (A := B32 o) (Some (mktdl [z; z] 2 2 0 1)) s false)).
  { change (Ok (b32_div mode_NE (b32_plus mode_NE s (b32_minus mode_NE z z)) (ofsize (A := B32 o) 2), mkMWM2 (A := B32 o) (Some (mktdl [z; z] 2 2 0 1)) (b32_plus mode_NE s (b32_minus mode_NE z z)) false) = Ok (m, mkMWM2 (A := B32 o) (Some (mktdl [z; z] 2 2 0 1)) s false)).
    rewrite Hz, Hs, Hm. reflexivity. }
  assert (E2 : mwm2_smooth (A := B32 o) z (mkMWM2 (A := B32 o) (Some (mktdl [z; z] 2 2 0 1)) s false) = Ok (m, mkMWM2 (A := B32 o) (Some (mktdl [z; z] 2 2 1 0)) s false)).
  { change (Ok (b32_div mode_NE (b32_plus mode_NE s (b32_minus mode_NE z z)) (ofsize (A := B32 o) 2), mkMWM2 (A := B32 o) (Some (mktdl [z; z] 2 2 1 0)) (b32_plus mode_NE s (b32_minus mode_NE z z)) false) = Ok (m, mkMWM2 (A := B32 o) (Some (mktdl [z; z] 2 2 1 0)) s false)).
    rewrite Hz, Hs, Hm. reflexivity. }
  cbn [repeat]. split.
  - exists fb. eapply (feed_res_cons (A := B32 o)); [exact E1|exact IB].
  - exists fa. eapply (feed_res_cons (A := B32 o)); [exact E2|exact IA].
Qed.

Lemma five_steps (o : oracles binary32) (v z G one : binary32) rest ys f' :
  let two := ofsize (A := B32 o) 2 in
  let s1 := b32_plus mode_NE (b32_mult mode_NE z two) (b32_minus mode_NE z z) in
  let s2 := b32_plus mode_NE s1 (b32_minus mode_NE G z) in
  let s3 := b32_plus mode_NE s2 (b32_minus mode_NE one z) in
  let s4 := b32_plus mode_NE s3 (b32_minus mode_NE z G) in
  let s5 := b32_plus mode_NE s4 (b32_minus mode_NE z one) in
  feed_res (mwm2_smooth (A := B32 o)) rest (mkMWM2 (A := B32 o) (Some (mktdl [z; z] 2 2 0 1)) s5 false) = Ok (ys, f') ->
  feed_res (mwm2_smooth (A := B32 o)) (z :: G :: one :: z :: z :: rest) (mkMWM2 (A := B32 o) (Some (mktdl [v; v] 2 2 1 0)) v true) =
    Ok (b32_div mode_NE s1 two :: b32_div mode_NE s2 two :: b32_div mode_NE s3 two :: b32_div mode_NE s4 two :: b32_div mode_NE s5 two :: ys, f').
Proof.
  intros two s1 s2 s3 s4 s5 H.
  apply (feed_res_cons (A := B32 o)) with (f1 := mkMWM2 (A := B32 o) (Some (mktdl [z; z] 2 2 0 1)) s1 false); [reflexivity|].
  apply (feed_res_cons (A := B32 o)) with (f1 := mkMWM2 (A := B32 o) (Some (mktdl [z; G] 2 2 1 0)) s2 false); [reflexivity|].
  apply (feed_res_cons (A := B32 o)) with (f1 := mkMWM2 (A := B32 o) (Some (mktdl [one; G] 2 2 0 1)) s3 false); [reflexivity|].
  apply (feed_res_cons (A := B32 o)) with (f1 := mkMWM2 (A := B32 o) (Some (mktdl [one; z] 2 2 1 0)) s4 false); [reflexivity|].
  apply (feed_res_cons (A := B32 o)) with (f1 := mkMWM2 (A := B32 o) (Some (mktdl [z; z] 2 2 0 1)) s5 false); [reflexivity|].
  exact H.
Qed.
Lemma setup_two (o : oracles binary32) (v z : binary32) : mwm2_setup (A := B32 o) (Some [v; z]) 2 mwm2_new =
  Ok (true, mkMWM2 (A := B32 o) (Some (mktdl [lit (a := B32 o) 0 1; lit (a := B32 o) 0 1] 2 2 1 0)) (lit (a := B32 o) 0 1) true).
Proof. reflexivity. Qed.

Theorem C132_recovery_refuted : forall o, exists (f : mwm2 (B32 o)) (z big one half : binary32) (ys : list binary32),
  mwm2_setup (A := B32 o) (Some [z; z]) 2 mwm2_new = Ok (true, f) /\ valR z = 0 /\ valR big = 1073741824 /\ valR one = 1 /\ valR half = - (1 / 2) /\ length ys = 5%nat /\
  forall n, (exists f', feed_res (mwm2_smooth (A := B32 o)) ([z; big; one; z; z] ++ repeat z n) f = Ok (ys ++ repeat half n, f')) /\
    (forall k, (4 <= k < 5 + n)%nat -> moving_mean 2 (map (B2R 24 128) ([z; big; one; z; z] ++ repeat z n)) k = 0).
Proof.
  intros o.
  assert (H : exists z G one m1 half : binary32, (valR z = 0 /\ valR G = 1073741824 /\ valR one = 1 /\ valR half = - (1 / 2)) /\
    (b32_minus mode_NE z z = z /\ b32_plus mode_NE m1 z = m1 /\ b32_div mode_NE m1 (ofsize (A := B32 o) 2) = half) /\
    b32_plus mode_NE (b32_plus mode_NE (b32_plus mode_NE (b32_plus mode_NE (b32_plus mode_NE (b32_mult mode_NE z (ofsize (A := B32 o) 2)) (b32_minus mode_NE z z)) (b32_minus mode_NE G z)) (b32_minus mode_NE one z)) (b32_minus mode_NE z G)) (b32_minus mode_NE z one) = m1).
  { exists (b32_of_bits 0), (b32_of_bits 1317011456), (b32_of_bits 1065353216), (b32_of_bits 3212836864), (b32_of_bits 3204448256).
    split; [split; [vm_compute; reflexivity|split; [vm_compute; lra|split; vm_compute; lra]]|].
    split; [split; [|split]|]; apply bits_inj; vm_compute; reflexivity. }
  destruct H as (z & G & one & m1 & half & (V0 & VG & V1 & Vh) & (Hz & Hm & Hh) & H5).
  eexists. exists z, G, one, half. eexists. split; [apply setup_two|]. repeat (split; [assumption|]). 
  match goal with |- length ?ys = _ /\ _ => assert (Lys : length ys = 5%nat /\ forall n, exists f', feed_res (mwm2_smooth (A := B32 o)) ([z; G; one; z; z] ++ repeat z n) (mkMWM2 (A := B32 o) (Some (mktdl [lit (a := B32 o) 0 1; lit (a := B32 o) 0 1] 2 2 1 0)) (lit (a := B32 o) 0 1) true) = Ok (ys ++ repeat half n, f')) end.
  { match goal with |- length ?e = _ /\ _ => instantiate (1 := [_; _; _; _; _]) end. split; [reflexivity|]. intros n.
    destruct (zeros_run o m1 half z Hz Hm Hh n) as (_ & f' & Z2). exists f'. cbn [app]. apply five_steps. rewrite H5. exact Z2. }
  destruct Lys as (Ly & Run). split; [exact Ly|]. intros n. split; [apply Run|].
  intros k Hk.
  assert (Q : forall j, (3 <= j)%nat -> nth j (map (B2R 24 128) ([z; G; one; z; z] ++ repeat z n)) 0 = 0).
  { intros j Hj. rewrite map_app, map_repeat, V0. cbn [map app]. destruct j as [|[|[|[|[|j]]]]]; try lia; cbn [nth]; auto.
    destruct (Nat.lt_ge_cases j n); [rewrite nth_rep by auto; reflexivity|apply nth_overflow; rewrite repeat_length; auto]. }
  unfold moving_mean, ago. cbn [Ltisys_Spec.sum]. rewrite !Q by lia. unfold Rdiv. rewrite !Rplus_0_l. apply Rmult_0_l.
Qed.
Print Assumptions C132_recovery_refuted.

Example C132_case : forall o, exists f ys f', let z := lit (a := B32 o) 0 1 in let one := lit (a := B32 o) 1 1 in let third := lit (a := B32 o) 1 3 in
  mwm2_setup (A := B32 o) (Some [z; z]) 2 mwm2_new = Ok (true, f) /\ feed_res (mwm2_smooth (A := B32 o)) [z; third; one; z; z] f = Ok (ys, f') /\
  Forall (fun y => finite y) ys /\ Forall (fun x => finite x /\ Rabs (valR x) <= 1) [z; third; one; z; z].
Proof.
  intros o. do 3 eexists. cbv zeta. split; [apply setup_two|]. split; [apply five_steps; cbn [feed_res]; reflexivity|]. split; [repeat apply Forall_cons; try apply Forall_nil; vm_compute; reflexivity|].
  repeat apply Forall_cons; try apply Forall_nil; (split; [reflexivity|]); apply Rabs_le; split; vm_compute; lra.
Qed.
