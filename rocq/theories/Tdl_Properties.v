(** Final theorems about the tapped delay line (C14..C16). *)
From Coq Require Import ZArith List Bool Lia.
From Verif Require Import Base Tdl_Model Tdl_Spec Tdl_Proofs.
Import ListNotations.
Open Scope Z_scope.

(** C14 *)
Theorem C14_delay_line_holds_last_n : forall A (nanv : A) m n v ops,
  (2 <= n <= length m)%nat ->
  exists t, reached m n v ops t /\ length (line n v ops) = n /\
    (forall i, (i < n)%nat ->
       getAtIndex t (Z.of_nat i) = Ok (nth i (line n v ops) nanv) /\
       index_op nanv t (Z.of_nat i) = Ok (nth i (line n v ops) nanv)) /\
    getRecent t = Ok (nth 0 (line n v ops) nanv) /\
    getOldest t = Ok (nth (n - 1) (line n v ops) nanv) /\
    index_op nanv t (-1) = Ok (nth (n - 1) (line n v ops) nanv) /\
    length (area t) = length m /\ (forall j, Z.of_nat n <= j -> get (area t) j = get m j).
Proof. exact @tdl_history. Qed.
Print Assumptions C14_delay_line_holds_last_n.

(** For histories of insertions the line is literally the last n samples. *)
Theorem C14_line_is_last_samples : forall A n (v : A) xs,
  line n v (map Insert xs) = firstn n (rev xs ++ repeat v n).
Proof. exact @line_inserts. Qed.
Print Assumptions C14_line_is_last_samples.

Example C14_example : exists t, reached [9; 9; 9; 9; 7] 4 0 [Insert 1; Insert 2; Insert 3; Insert 4; Insert 5; Insert 6] t /\
  map (fun i => index_op (-1) t i) [0; 1; 2; 3] = [Ok 6; Ok 5; Ok 4; Ok 3] /\ area t = [5; 6; 3; 4; 7].
Proof. exists (mktdl [5; 6; 3; 4; 7] 4 4 1 2). split; [vm_compute; reflexivity|]. split; vm_compute; reflexivity. Qed.

(** C15 *)
Theorem C15_bad_index_is_nan : forall A (nanv : A) t i,
  i < -1 \/ (0 <= i /\ itemCount t <= i) -> index_op nanv t i = Ok nanv.
Proof. exact @index_undefined. Qed.
Print Assumptions C15_bad_index_is_nan.

Theorem C15_one_element_line_reads_out_of_bounds : forall A (m : list A) v ops,
  length m = 1%nat ->
  exists t, reached m 1 v ops t /\ getAtIndex t 0 = Ub /\
    (forall nanv, index_op nanv t 0 = Ub) /\
    (exists y, getRecent t = Ok y /\ getOldest t = Ok y /\ line 1 v ops = [y]).
Proof. exact @tdl_single. Qed.
Print Assumptions C15_one_element_line_reads_out_of_bounds.

Theorem C15_bad_size_undefined : forall A (m : list A) n v,
  n <= 0 \/ zlen m < n -> setup m n v = Ub.
Proof. exact @setup_bad. Qed.
Print Assumptions C15_bad_size_undefined.

Example C15_example : exists t, reached [9; 9; 9] 3 0 [Insert 1; Insert 2] t /\
  index_op (-7) t 3 = Ok (-7) /\ index_op (-7) t (-2) = Ok (-7) /\ index_op (-7) t 2 = Ok 0.
Proof. exists (mktdl [1; 2; 0] 3 3 1 2). repeat split; vm_compute; reflexivity. Qed.

(** C16 *)
Theorem C16_transport_delay : forall A (buf : list A) N v xs,
  length buf = (N + 1)%nat -> (1 <= N)%nat ->
  (t <- transportDelay_new buf v ;; delay_stream t xs) = Ok (delayed N v xs).
Proof. exact @transportDelay_ok. Qed.
Print Assumptions C16_transport_delay.

Theorem C16_delayed_is_pure_delay : forall A N (v d : A) xs k,
  (k < length xs)%nat ->
  nth k (delayed N v xs) d = if (k <? N)%nat then v else nth (k - N) xs d.
Proof. exact @delayed_nth. Qed.
Print Assumptions C16_delayed_is_pure_delay.

(** A line of [n] taps used the same way (as ltisys::setDelay does) delays by
    [n-1] samples only. *)
Theorem C16_n_tap_line_delays_n_minus_1 : forall A (m : list A) n v xs,
  (1 <= n <= length m)%nat ->
  (t <- setup m (Z.of_nat n) v ;; delay_stream t xs) = Ok (delayed (n - 1) v xs).
Proof. exact @line_delay. Qed.
Print Assumptions C16_n_tap_line_delays_n_minus_1.

Example C16_example :
  (t <- transportDelay_new [8; 8; 8] 0 ;; delay_stream t [1; 2; 3; 4; 5]) = Ok [0; 0; 1; 2; 3].
Proof. vm_compute; reflexivity. Qed.
