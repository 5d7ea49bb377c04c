(** Final theorems about the raw-array algorithms (C17..C22). *)
From Coq Require Import ZArith List Bool Lia Permutation.
From Verif Require Import Base Algorithm_Model Algorithm_Spec Algorithm_Proofs.
Import ListNotations.
Open Scope Z_scope.

(** C17 *)
Theorem C17_sort_sorts : forall T (lt : T -> T -> bool) a first last,
  weak_order lt -> 0 <= first <= last -> last < zlen a ->
  exists a', sort lt None a first last = Ok (Some a') /\
    sorted_range lt a' first last /\ rearranges a a' first last.
Proof. exact @sort_correct. Qed.
Print Assumptions C17_sort_sorts.

(** The explicit stack of n pairs is large enough: any larger one, which could
    only differ by not dropping a push, gives the same result. *)
Theorem C17_sort_stack_never_overflows : forall T (lt : T -> T -> bool) comp a first last cap,
  0 <= first <= last -> last < zlen a -> zlen a <= cap ->
  sort_cap lt comp cap a first last = sort lt comp a first last.
Proof. exact @sort_stack_ok. Qed.
Print Assumptions C17_sort_stack_never_overflows.

(** A reversed range is not ignored: its end points are exchanged. *)
Theorem C17_reversed_range_swaps_ends : forall T (lt : T -> T -> bool) comp a first last,
  0 <= last < first -> first < zlen a ->
  exists a', sort lt comp a first last = Ok (Some a') /\ swap a first last = Ok a'.
Proof. exact @sort_reversed_range. Qed.
Print Assumptions C17_reversed_range_swaps_ends.

Example C17_example : weak_order Z.ltb /\
  sort Z.ltb None [5; 2; 9; 2; 7; 1] 0 5 = Ok (Some [1; 2; 2; 5; 7; 9]) /\
  sort Z.ltb None [5; 2; 9; 2; 7; 1] 1 4 = Ok (Some [5; 2; 2; 7; 9; 1]) /\
  sort Z.ltb None [1; 2; 3; 4] 3 0 = Ok (Some [4; 2; 3; 1]).
Proof. split; [split; intros *; rewrite ?Z.ltb_lt, ?Z.ltb_ge; lia|]. repeat split; vm_compute; reflexivity. Qed.

(** C18 *)
Theorem C18_comparator_sort_is_a_rearrangement : forall T (lt : T -> T -> bool) comp a first last,
  0 <= first <= last -> last < zlen a ->
  exists a', sort lt comp a first last = Ok (Some a') /\ rearranges a a' first last.
Proof. exact @sort_comp_correct. Qed.
Print Assumptions C18_comparator_sort_is_a_rearrangement.

Theorem C18_comparator_sorts_refuted : exists (comp : Z -> Z -> bool) a a',
  weak_order comp /\ sort Z.ltb (Some comp) a 0 (zlen a - 1) = Ok (Some a') /\
  ~ sorted_range comp a' 0 (zlen a - 1).
Proof. exact comparator_witness. Qed.
Print Assumptions C18_comparator_sorts_refuted.

Example C18_example : sort Z.ltb (Some Z.ltb) [9; 4; 1; 3; 2; 0] 1 4 = Ok (Some [9; 3; 1; 2; 4; 0]).
Proof. vm_compute. reflexivity. Qed.

(** C19 *)
Theorem C19_reverse : forall T (a : list T) first last,
  0 <= first <= last -> last < zlen a ->
  exists a', reverse a first last = Ok a' /\ length a' = length a /\
    (forall i, first <= i <= last -> get a' i = get a (first + last - i)) /\
    (forall i, i < first \/ last < i -> get a' i = get a i).
Proof. exact @reverse_spec. Qed.
Print Assumptions C19_reverse.

Theorem C19_rotate : forall T (a : list T) k,
  0 < zlen a < 2 ^ 31 -> - 2 ^ 31 < k < 2 ^ 31 -> (0 <= k \/ k mod zlen a <> 0) ->
  exists a', rotate a k = Ok a' /\ zlen a' = zlen a /\
    forall i, 0 <= i < zlen a -> get a' ((i + k) mod zlen a) = get a i.
Proof. exact @rotate_ok. Qed.
Print Assumptions C19_rotate.

Theorem C19_rotate_negative_multiple_undefined : forall T (a : list T) k,
  0 < zlen a < 2 ^ 31 -> - 2 ^ 31 <= k < 0 -> (k mod zlen a = 0 \/ k = - 2 ^ 31) ->
  rotate a k = Ub.
Proof. exact @rotate_ub. Qed.
Print Assumptions C19_rotate_negative_multiple_undefined.

Example C19_example :
  reverse [1; 2; 3; 4; 5] 1 3 = Ok [1; 4; 3; 2; 5] /\
  rotate [1; 2; 3; 4; 5] 2 = Ok [4; 5; 1; 2; 3] /\ rotate [1; 2; 3; 4; 5] (-8) = Ok [4; 5; 1; 2; 3] /\
  rotate [1; 2; 3; 4; 5] 15 = Ok [1; 2; 3; 4; 5].
Proof. repeat split; vm_compute; reflexivity. Qed.

(** C20 *)
Theorem C20_fill : forall T (a : list T) v first last,
  0 <= first -> last < zlen a ->
  exists a', fill a v first last = Ok a' /\ zlen a' = zlen a /\
    forall j, get a' j = if (first <=? j) && (j <=? last) then Ok v else get a j.
Proof. exact @fill_ok. Qed.
Print Assumptions C20_fill.

Theorem C20_find : forall T (eqb : T -> T -> bool) a key first last,
  0 <= first <= last -> last < zlen a ->
  exists r, find eqb a key first last = Ok r /\
    match r with
    | Some j => first_match (fun x => eqb x key) a first last j
    | None => no_match (fun x => eqb x key) a first last
    end.
Proof. exact @find_spec. Qed.
Print Assumptions C20_find.

Theorem C20_any_of : forall T (p : T -> bool) a first last,
  0 <= first <= last -> last < zlen a ->
  exists r, any_of a p first last = Ok r /\
    (r = true <-> exists j x, first <= j <= last /\ get a j = Ok x /\ p x = true).
Proof. exact @any_of_ok. Qed.
Print Assumptions C20_any_of.

Theorem C20_all_of : forall T (p : T -> bool) a first last,
  0 <= first <= last -> last < zlen a ->
  exists r, all_of a p first last = Ok r /\
    (r = true <-> forall j x, first <= j <= last -> get a j = Ok x -> p x = true).
Proof. exact @all_of_ok. Qed.
Print Assumptions C20_all_of.

Theorem C20_count_if : forall T (p : T -> bool) a first last,
  0 <= first <= last -> last < zlen a ->
  count_if a p first last = Ok (zlen (filter p (segment a first last))).
Proof. exact @count_spec. Qed.
Print Assumptions C20_count_if.

Theorem C20_for_each : forall S T (fn : S -> T -> S * T) a s first last,
  0 <= first <= last -> last < zlen a ->
  for_each a fn s first last =
  Ok (fst (thread fn s (segment a first last)),
      firstn (Z.to_nat first) a ++ snd (thread fn s (segment a first last)) ++ skipn (Z.to_nat (last + 1)) a).
Proof. exact @for_each_spec. Qed.
Print Assumptions C20_for_each.

Example C20_example : let a := [3; 1; 4; 1; 5; 9] in
  find Z.eqb a 1 0 5 = Ok (Some 1) /\ find Z.eqb a 1 2 5 = Ok (Some 3) /\ find Z.eqb a 7 0 5 = Ok None /\
  any_of a (Z.ltb 8) 0 5 = Ok true /\ any_of a (Z.ltb 8) 0 4 = Ok false /\
  all_of a (Z.ltb 0) 0 5 = Ok true /\ count_if a (Z.ltb 3) 1 5 = Ok 3 /\
  for_each a (fun s x => (s + x, 2 * x)) 0 1 3 = Ok (6, [3; 2; 8; 2; 5; 9]) /\
  fill a 0 2 4 = Ok [3; 1; 0; 0; 0; 9].
Proof. repeat split; vm_compute; reflexivity. Qed.

(** C21 *)
Theorem C21_find_if_returns_last : forall T (p : T -> bool) a first last,
  0 <= first <= last -> last < zlen a ->
  exists r, find_if a p first last = Ok r /\
    match r with
    | Some j => last_match p a first last j
    | None => no_match p a first last
    end.
Proof. exact @find_if_spec. Qed.
Print Assumptions C21_find_if_returns_last.

Theorem C21_find_if_first_refuted : exists (p : Z -> bool) a j,
  find_if a p 0 (zlen a - 1) = Ok (Some j) /\ ~ first_match p a 0 (zlen a - 1) j.
Proof. exact find_if_witness. Qed.
Print Assumptions C21_find_if_first_refuted.

Theorem C21_replace_changes_first_only : forall T (eqb : T -> T -> bool) old v a first last,
  0 <= first <= last -> last < zlen a ->
  exists a', replace eqb a old v first last = Ok a' /\ length a' = length a /\
    ((no_match (eqb old) a first last /\ a' = a) \/
     (exists j, first_match (eqb old) a first last j /\ forall i, get a' i = if i =? j then Ok v else get a i)).
Proof. exact @replace_spec. Qed.
Print Assumptions C21_replace_changes_first_only.

Theorem C21_replace_if_changes_first_only : forall T (p : T -> bool) v a first last,
  0 <= first <= last -> last < zlen a ->
  exists a', replace_if a p v first last = Ok a' /\ length a' = length a /\
    ((no_match p a first last /\ a' = a) \/
     (exists j, first_match p a first last j /\ forall i, get a' i = if i =? j then Ok v else get a i)).
Proof. exact @replace_if_spec. Qed.
Print Assumptions C21_replace_if_changes_first_only.

Theorem C21_replace_all_refuted : exists (a a' : list Z) old v,
  old <> v /\ replace Z.eqb a old v 0 (zlen a - 1) = Ok a' /\
  exists j, 0 <= j <= zlen a - 1 /\ get a' j = Ok old.
Proof. exact replace_witness. Qed.
Print Assumptions C21_replace_all_refuted.

Example C21_example : find_if [1; 8; 2; 9; 3] (Z.ltb 5) 0 4 = Ok (Some 3) /\
  replace_if [1; 8; 2; 9; 3] (Z.ltb 5) 0 0 4 = Ok [1; 0; 2; 9; 3].
Proof. split; vm_compute; reflexivity. Qed.

(** C22 *)
Theorem C22_binary_search : forall T (lt eqb : T -> T -> bool) a key first last,
  0 <= first -> last < zlen a ->
  exists r, binary_search lt eqb a key first last = Ok r /\
    (forall j, r = Some j -> first <= j <= last /\ exists x, get a j = Ok x /\ eqb x key = true) /\
    (weak_order lt -> order_eq lt eqb -> sorted_range lt a first last ->
       (r <> None <-> exists j x, first <= j <= last /\ get a j = Ok x /\ eqb x key = true)).
Proof. exact @binary_search_spec. Qed.
Print Assumptions C22_binary_search.

Example C22_example : order_eq Z.ltb Z.eqb /\
  binary_search Z.ltb Z.eqb [1; 3; 5; 7; 9; 11] 9 0 5 = Ok (Some 4) /\
  binary_search Z.ltb Z.eqb [1; 3; 5; 7; 9; 11] 4 0 5 = Ok None.
Proof. split; [intros x y; rewrite Z.eqb_eq, !Z.ltb_ge; lia|]. split; vm_compute; reflexivity. Qed.
