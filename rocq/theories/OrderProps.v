(** Theorems C12-C19 about the order-based algorithms. *)
From Coq Require Import List Arith Bool ZArith Permutation.
From Verif Require Import Base SearchModel SearchSpec SearchProof OrderModel OrderSpec
  OrderProof OrderProof2 OrderProof3 OrderProof4 OrderProof5.
Import ListNotations.

(** ** C12 *)
(** lower_bound: whenever "less than v" holds exactly on a prefix, the end of that
    prefix is returned, with at most log2 N + 2 nested calls. *)
Theorem lower_bound_correct : forall A B (comp : A -> B -> bool) d l first last v k,
  valid l first last ->
  splits (sat (fun x => comp x v) l) first last k -> Nat.log2 (last - first) + 2 <= d ->
  lower_bound d l first last v comp = Ok k.
Proof. intros A B comp d l first last v k V. exact (lower_bound_correct_lemma l first last v V comp d k). Qed.
Print Assumptions lower_bound_correct.

Theorem upper_bound_correct : forall A B (comp : B -> A -> bool) d l first last v k,
  valid l first last ->
  splits (fun i => ~ sat (comp v) l i) first last k -> Nat.log2 (last - first) + 2 <= d ->
  upper_bound d l first last v comp = Ok k.
Proof. intros A B comp d l first last v k V. exact (upper_bound_correct_lemma l first last v V comp d k). Qed.
Print Assumptions upper_bound_correct.

Theorem equal_range_correct : forall A B (lt_av : A -> B -> bool) (lt_va : B -> A -> bool)
    d l first last v k1 k2,
  valid l first last ->
  (forall i, first <= i < last -> sat (fun x => lt_av x v) l i -> ~ sat (lt_va v) l i) ->
  splits (sat (fun x => lt_av x v) l) first last k1 ->
  splits (fun i => ~ sat (lt_va v) l i) first last k2 ->
  Nat.log2 (last - first) + 2 <= d ->
  equal_range d l first last v lt_av lt_va = Ok (k1, k2) /\
  binary_search d l first last v lt_av lt_va = Ok (negb (k1 =? k2)).
Proof.
  intros A B lt_av lt_va d l first last v k1 k2 V HC H1 H2 Hd.
  exact (conj (equal_range_correct_lemma l first last v V lt_av lt_va d k1 k2 HC H1 H2 Hd)
              (binary_search_correct_lemma l first last v V lt_av lt_va d k1 k2 HC H1 H2 Hd)).
Qed.
Print Assumptions equal_range_correct.

(** On every range sorted by a strict weak order all four apply: first position not
    less than v, first position greater than v, the pair, and whether an equivalent
    element exists. *)
Theorem sorted_bounds_correct : forall A (comp : A -> A -> bool) d l first last v,
  strict_weak_order comp -> valid l first last -> sorted_range comp l first last ->
  Nat.log2 (last - first) + 2 <= d ->
  exists k1 k2,
    lower_bound d l first last v comp = Ok k1 /\
    upper_bound d l first last v comp = Ok k2 /\
    equal_range d l first last v comp comp = Ok (k1, k2) /\
    binary_search d l first last v comp comp = Ok (negb (k1 =? k2)) /\
    is_first (fun i => ~ sat (fun x => comp x v) l i) first last k1 /\
    is_first (sat (comp v) l) first last k2 /\
    (k1 <> k2 <-> exists i x, first <= i < last /\ nth_error l i = Some x /\ equivalent comp x v).
Proof. intros A comp d l first last v W V HS. exact (sorted_bounds_lemma comp W l first last v V HS d). Qed.
Print Assumptions sorted_bounds_correct.

(** The hypotheses are met by a concrete sorted range with repeated elements. *)
Example sorted_bounds_example :
  sorted_range Nat.ltb [9;1;3;3;3;7;0] 1 6 /\ valid [9;1;3;3;3;7;0] 1 6 /\
  Nat.log2 (6 - 1) + 2 <= 4 /\
  lower_bound 4 [9;1;3;3;3;7;0] 1 6 3 Nat.ltb = Ok 2 /\
  upper_bound 4 [9;1;3;3;3;7;0] 1 6 3 Nat.ltb = Ok 5 /\
  equal_range 4 [9;1;3;3;3;7;0] 1 6 3 Nat.ltb Nat.ltb = Ok (2, 5) /\
  binary_search 4 [9;1;3;3;3;7;0] 1 6 4 Nat.ltb Nat.ltb = Ok false /\
  splits (sat (fun x => Nat.ltb x 3) [9;1;3;3;3;7;0]) 1 6 2.
Proof.
  assert (HS : sorted_range Nat.ltb [9;1;3;3;3;7;0] 1 6).
  { intros i H1 H2 (x&y&Hx&Hy&Hr).
    do 5 (destruct i as [|i]; [cbn in *; try (apply Nat.nle_succ_0 in H1; easy);
      injection Hx as <-; injection Hy as <-; discriminate|]).
    apply Nat.lt_nge in H2. apply H2. do 6 apply le_n_S. apply Nat.le_0_l. }
  split; [exact HS|]. split; [split; cbn; repeat constructor|]. split; [cbn; repeat constructor|].
  split; [reflexivity|]. split; [reflexivity|]. split; [reflexivity|]. split; [reflexivity|].
  split; [split; repeat constructor|]. split.
  - intros i [H1 H2]. assert (i = 1) by (apply Nat.le_antisymm; [now apply le_S_n|exact H1]).
    subst i. exists 1. split; reflexivity.
  - intros i [H1 H2] (x&Hx&Hr).
    do 6 (destruct i as [|i]; [cbn in *; try (apply le_S_n in H1; apply Nat.nle_succ_0 in H1; easy);
      try (apply Nat.nle_succ_0 in H1; easy);
      injection Hx as <-; discriminate|]).
    apply Nat.lt_nge in H2. apply H2. do 6 apply le_n_S. apply Nat.le_0_l.
Qed.

(** ** C13 *)
Theorem is_partitioned_correct : forall A c d d2 (l : list A) first last p,
  valid l first last -> depth_bound (last - first) <= d -> depth_bound (last - first) <= d2 ->
  exists b, is_partitioned c d d2 l first last p = Ok b /\
    (b = true <-> partitioned (sat p l) first last).
Proof. exact @is_partitioned_correct_lemma. Qed.
Print Assumptions is_partitioned_correct.

(** Both implementations (C++11 recursion, C++14 loop). *)
Theorem partition_point_correct : forall A d (l : list A) first last p,
  valid l first last -> partitioned (sat p l) first last -> Nat.log2 (last - first) + 2 <= d ->
  exists k, partition_point_11 d l first last p = Ok k /\
    partition_point_14 d l first last p = Ok k /\
    is_first (fun i => ~ sat p l i) first last k.
Proof. exact @partition_point_correct_lemma. Qed.
Print Assumptions partition_point_correct.

Example partition_example :
  is_partitioned true 8 8 [2;4;6;1;3] 0 5 Nat.even = Ok true /\
  is_partitioned false 8 8 [2;4;6;1;3] 0 5 Nat.even = Ok true /\
  is_partitioned false 8 8 [2;1;6] 0 3 Nat.even = Ok false /\
  partition_point_11 4 [2;4;6;1;3] 0 5 Nat.even = Ok 3 /\
  partition_point_14 4 [2;4;6;1;3] 0 5 Nat.even = Ok 3.
Proof. repeat split; reflexivity. Qed.

(** ** C14 *)
Theorem is_sorted_correct : forall A (comp : A -> A -> bool) c d l first last,
  valid l first last -> depth_bound (last - first) <= d ->
  exists b, is_sorted comp c d l first last = Ok b /\
    (b = true <-> sorted_range comp l first last).
Proof. exact @is_sorted_correct_lemma. Qed.
Print Assumptions is_sorted_correct.

Theorem is_sorted_until_correct : forall A (comp : A -> A -> bool) c d l first last,
  valid l first last -> depth_bound (last - first) <= d ->
  exists r, is_sorted_until comp c d l first last = Ok r /\
    first <= r <= last /\ sorted_range comp l first r /\
    (forall j, first <= j <= last -> sorted_range comp l first j -> j <= r).
Proof. exact @is_sorted_until_correct_lemma. Qed.
Print Assumptions is_sorted_until_correct.

Example is_sorted_example :
  is_sorted Nat.ltb true 8 [1;2;2;5] 0 4 = Ok true /\
  is_sorted Nat.ltb false 8 [1;2;2;5] 0 4 = Ok true /\
  is_sorted_until Nat.ltb true 8 [1;2;2;1;9] 0 5 = Ok 3 /\
  is_sorted_until Nat.ltb false 8 [1;2;2;1;9] 0 5 = Ok 3.
Proof. repeat split; reflexivity. Qed.

(** ** C15 *)
Theorem is_permutation_correct : forall A (eqb : A -> A -> bool),
  (forall x y, eqb x y = true <-> x = y) ->
  forall c c2 d d2 l1 l2 first1 last1 first2,
  valid l1 first1 last1 -> first2 + (last1 - first1) <= length l2 ->
  depth_bound (last1 - first1) <= d -> depth_bound (last1 - first1) <= d2 ->
  exists b, is_permutation eqb c c2 d d2 l1 l2 first1 last1 first2 = Ok b /\
    (b = true <-> Permutation (slice l1 first1 last1) (slice l2 first2 (first2 + (last1 - first1)))).
Proof. exact @is_permutation_correct_lemma. Qed.
Print Assumptions is_permutation_correct.

Theorem is_permutation2_correct : forall A (eqb : A -> A -> bool),
  (forall x y, eqb x y = true <-> x = y) ->
  forall c c2 d d2 l1 l2 first1 last1 first2 last2,
  valid l1 first1 last1 -> valid l2 first2 last2 ->
  depth_bound (last1 - first1) <= d -> depth_bound (last1 - first1) <= d2 ->
  exists b, is_permutation2 eqb c c2 d d2 l1 l2 first1 last1 first2 last2 = Ok b /\
    (b = true <-> Permutation (slice l1 first1 last1) (slice l2 first2 last2)).
Proof. exact @is_permutation2_correct_lemma. Qed.
Print Assumptions is_permutation2_correct.

Example is_permutation_example :
  (forall x y, Nat.eqb x y = true <-> x = y) /\
  is_permutation Nat.eqb true true 8 8 [1;2;2;3] [2;3;1;2] 0 4 0 = Ok true /\
  is_permutation Nat.eqb false false 8 8 [1;2;2;3] [2;3;1;2] 0 4 0 = Ok true /\
  is_permutation2 Nat.eqb true true 8 8 [1;2;2;3] [2;3;1;3] 0 4 0 4 = Ok false /\
  is_permutation2 Nat.eqb false true 8 8 [1;2;2;3] [2;3;1] 0 4 0 3 = Ok false.
Proof. split; [exact Nat.eqb_eq|]. repeat split; reflexivity. Qed.

(** ** C16 *)
Theorem lexicographical_compare_correct : forall A B (lt_ab : A -> B -> bool) (lt_ba : B -> A -> bool)
    c d la lb first1 last1 first2 last2,
  valid la first1 last1 -> valid lb first2 last2 -> depth_bound (last1 - first1) <= d ->
  exists b, lexicographical_compare lt_ab lt_ba c d la lb first1 last1 first2 last2 = Ok b /\
    (b = true <-> lex_less lt_ab lt_ba la first1 last1 lb first2 last2).
Proof. exact @lexicographical_compare_correct_lemma. Qed.
Print Assumptions lexicographical_compare_correct.

Theorem tristate_lexicographical_compare_correct : forall A B (lt_ab : A -> B -> bool) (lt_ba : B -> A -> bool)
    c d la lb first1 last1 first2 last2,
  valid la first1 last1 -> valid lb first2 last2 -> depth_bound (last1 - first1) <= d ->
  (forall x y, lt_ab x y = true -> lt_ba y x = false) ->
  exists z, tristate_lexicographical_compare lt_ab lt_ba c d la lb first1 last1 first2 last2 = Ok z /\
    ((z < 0)%Z <-> lex_less lt_ab lt_ba la first1 last1 lb first2 last2) /\
    (z = 0%Z <-> lex_equal lt_ab lt_ba la first1 last1 lb first2 last2) /\
    ((0 < z)%Z <-> lex_less lt_ba lt_ab lb first2 last2 la first1 last1).
Proof. exact @tristate_correct_lemma. Qed.
Print Assumptions tristate_lexicographical_compare_correct.

(** The comparison of whole sequences is again a strict weak order. *)
Theorem lexicographical_compare_strict_weak_order : forall A (comp : A -> A -> bool),
  strict_weak_order comp -> forall c,
  strict_weak_order (fun xs ys =>
    match lexicographical_compare comp comp c (depth_bound (length xs)) xs ys
            0 (length xs) 0 (length ys) with
    | Ok b => b
    | _ => false
    end).
Proof. exact @lexicographical_compare_swo_lemma. Qed.
Print Assumptions lexicographical_compare_strict_weak_order.

Example lex_example :
  strict_weak_order Nat.ltb /\
  lexicographical_compare Nat.ltb Nat.ltb true 8 [1;2;3] [1;2;4] 0 3 0 3 = Ok true /\
  lexicographical_compare Nat.ltb Nat.ltb false 8 [1;2] [1;2;0] 0 2 0 3 = Ok true /\
  tristate_lexicographical_compare Nat.ltb Nat.ltb true 8 [1;3] [1;2;0] 0 2 0 3 = Ok 1%Z /\
  tristate_lexicographical_compare Nat.ltb Nat.ltb false 8 [1;3] [1;3] 0 2 0 2 = Ok 0%Z.
Proof. split; [exact ltb_swo|]. repeat split; reflexivity. Qed.

(** ** C17 *)
Theorem min_element_correct : forall A (comp : A -> A -> bool), strict_weak_order comp ->
  forall c d l first last, valid l first last -> depth_bound (last - first) <= d ->
  exists r, min_element comp c d l first last = Ok r /\
    (first = last -> r = last) /\ (first < last -> is_first_min comp l first last r).
Proof. exact @min_element_correct_lemma. Qed.
Print Assumptions min_element_correct.

Theorem max_element_correct : forall A (comp : A -> A -> bool), strict_weak_order comp ->
  forall c d l first last, valid l first last -> depth_bound (last - first) <= d ->
  exists r, max_element comp c d l first last = Ok r /\
    (first = last -> r = last) /\ (first < last -> is_first_max comp l first last r).
Proof. exact @max_element_correct_lemma. Qed.
Print Assumptions max_element_correct.

Theorem minmax_element_correct : forall A (comp : A -> A -> bool), strict_weak_order comp ->
  forall c d l first last, valid l first last -> depth_bound (last - first) <= d ->
  exists r, minmax_element comp c d l first last = Ok r /\
    (first = last -> r = (last, last)) /\
    (first < last ->
       is_first_min comp l first last (fst r) /\ is_last_max comp l first last (snd r)).
Proof. exact @minmax_element_correct_lemma. Qed.
Print Assumptions minmax_element_correct.

Example extrema_example :
  min_element Nat.ltb true 8 [3;1;4;1;5;5;2] 0 7 = Ok 1 /\
  min_element Nat.ltb false 8 [3;1;4;1;5;5;2] 0 7 = Ok 1 /\
  max_element Nat.ltb true 8 [3;1;4;1;5;5;2] 0 7 = Ok 4 /\
  minmax_element Nat.ltb true 8 [3;1;4;1;5;5;2] 0 7 = Ok (1, 5) /\
  minmax_element Nat.ltb false 8 [3;1;4;1;5;5;2] 0 7 = Ok (1, 5).
Proof. repeat split; reflexivity. Qed.

(** ** C18 *)
Theorem includes_correct : forall A (comp : A -> A -> bool), strict_weak_order comp ->
  forall c d la lb first1 last1 first2 last2,
  valid la first1 last1 -> valid lb first2 last2 -> depth_bound (last1 - first1) <= d ->
  sorted_range comp la first1 last1 -> sorted_range comp lb first2 last2 ->
  exists b, includes comp comp c d la lb first1 last1 first2 last2 = Ok b /\
    (b = true <-> forall z, occurrences (equiv_to comp z) (slice lb first2 last2)
                            <= occurrences (equiv_to comp z) (slice la first1 last1)).
Proof. exact @includes_correct_lemma. Qed.
Print Assumptions includes_correct.

Example includes_example :
  includes Nat.ltb Nat.ltb true 8 [1;2;2;3;5] [2;2;5] 0 5 0 3 = Ok true /\
  includes Nat.ltb Nat.ltb false 8 [1;2;2;3;5] [2;2;5] 0 5 0 3 = Ok true /\
  includes Nat.ltb Nat.ltb true 8 [1;2;3;5] [2;2;5] 0 4 0 3 = Ok false /\
  includes Nat.ltb Nat.ltb false 8 [1;2;3;5] [2;2;5] 0 4 0 3 = Ok false.
Proof. repeat split; reflexivity. Qed.

(** ** C19 *)
(** The full statement would be: for every strict weak order, [is_heap] returns true
    exactly on heaps.  It is false: two equal elements form a heap, is_heap says no. *)
Theorem is_heap_refuted :
  strict_weak_order Nat.ltb /\ heap Nat.ltb [5;5] 0 2 /\ valid [5;5] 0 2 /\
  is_heap Nat.ltb (depth_bound 2) [5;5] 0 2 = Ok false /\
  is_heap_until Nat.ltb (depth_bound 2) [5;5] 0 2 = Ok 1.
Proof. exact is_heap_refuted_lemma. Qed.
Print Assumptions is_heap_refuted.

(** What does hold: true is only returned for heaps, and when no element is
    equivalent to its parent the answer is exact.  Missing: heaps with ties. *)
Theorem is_heap_partial : forall A (comp : A -> A -> bool) d l first last,
  strict_weak_order comp -> valid l first last -> depth_bound (last - first) <= d ->
  exists b, is_heap comp d l first last = Ok b /\
    (b = true -> heap comp l first last) /\
    ((forall i, 0 < i -> first + i < last ->
        ~ same comp comp l (first + (i - 1) / 2) l (first + i)) ->
     heap comp l first last -> b = true).
Proof. exact @is_heap_sound_lemma. Qed.
Print Assumptions is_heap_partial.

Theorem is_heap_until_partial : forall A (comp : A -> A -> bool) d l first last,
  strict_weak_order comp -> valid l first last ->
  (forall i, 0 < i -> first + i < last ->
        ~ same comp comp l (first + (i - 1) / 2) l (first + i)) ->
  depth_bound (last - first) <= d ->
  exists r, is_heap_until comp d l first last = Ok r /\ first <= r <= last /\
    heap comp l first r /\
    (forall j, first <= j <= last -> heap comp l first j -> j <= r).
Proof. exact @is_heap_until_no_ties_lemma. Qed.
Print Assumptions is_heap_until_partial.

(** Exact description of what is computed, ties included: the first position whose
    element is not strictly less than its parent. *)
Theorem is_heap_until_strict_partial : forall A (comp : A -> A -> bool) d l first last,
  valid l first last -> depth_bound (last - first) <= d ->
  exists r, is_heap_until comp d l first last = Ok r /\ first <= r <= last /\
    (forall i, 0 < i -> first + i < r -> rel comp l (first + i) l (first + (i - 1) / 2)) /\
    (r < last -> 0 < r - first /\ ~ rel comp l r l (first + (r - first - 1) / 2)).
Proof. exact @is_heap_until_partial_lemma. Qed.
Print Assumptions is_heap_until_strict_partial.

Example is_heap_example :
  is_heap Nat.ltb 8 [9;5;8;1;4;7] 0 6 = Ok true /\
  is_heap Nat.ltb 8 [9;5;8;6;4;7] 0 6 = Ok false /\
  is_heap_until Nat.ltb 8 [9;5;8;6;4;7] 0 6 = Ok 3.
Proof. repeat split; reflexivity. Qed.
