(** Property theorems C01-C11.  [c] is the iterator category (true: random access,
    false: input/forward), [d], [d2] call depths; [depth_bound n = 2*log2 n + 4]. *)
From Coq Require Import List Arith Bool ZArith.
From Verif Require Import Base SearchModel SearchSpec SearchProof SearchProof2.
Import ListNotations.

(** C01 *)
Theorem find_if_correct : forall A c d (l : list A) first last p,
  valid l first last -> depth_bound (last - first) <= d ->
  exists r, find_if c d l first last p = Ok r /\ is_first (sat p l) first last r.
Proof. exact @find_if_correct_lemma. Qed.
Print Assumptions find_if_correct.
Example find_if_correct_ex : valid [1;3;4;5;6] 1 5 /\ depth_bound (5 - 1) <= 8 /\
  find_if true 8 [1;3;4;5;6] 1 5 Nat.even = Ok 2 /\ find_if false 8 [1;3;4;5;6] 1 5 Nat.even = Ok 2.
Proof. unfold valid. cbn. repeat split; repeat constructor. Qed.

Theorem find_if_not_correct : forall A c d (l : list A) first last p,
  valid l first last -> depth_bound (last - first) <= d ->
  exists r, find_if_not c d l first last p = Ok r /\ is_first (fun i => ~ sat p l i) first last r.
Proof. exact @find_if_not_correct_lemma. Qed.
Print Assumptions find_if_not_correct.
Example find_if_not_correct_ex : valid [2;2;4;5;6] 0 5 /\ depth_bound 5 <= 8 /\
  find_if_not true 8 [2;2;4;5;6] 0 5 Nat.even = Ok 3 /\ find_if_not false 8 [2;2;4;5;6] 0 5 Nat.even = Ok 3.
Proof. unfold valid. cbn. repeat split; repeat constructor. Qed.

Theorem find_correct : forall A B (eqb : A -> B -> bool) c d (l : list A) first last v,
  valid l first last -> depth_bound (last - first) <= d ->
  exists r, find eqb c d l first last v = Ok r /\ is_first (sat (fun x => eqb x v) l) first last r.
Proof. exact @find_correct_lemma. Qed.
Print Assumptions find_correct.
Example find_correct_ex : valid [2;7;4;7;6] 0 5 /\ depth_bound 5 <= 8 /\
  find Nat.eqb true 8 [2;7;4;7;6] 0 5 7 = Ok 1 /\ find Nat.eqb false 8 [2;7;4;7;6] 0 5 9 = Ok 5.
Proof. unfold valid. cbn. repeat split; repeat constructor. Qed.

(** C02: completion within depth [2*log2 n + 4], hence within 130 for every range of
    fewer than 2^64 elements. *)
Theorem linear_search_depth : forall A B c d (l : list A) first last (p : A -> bool) (q : A -> A -> bool)
    (eqb : A -> B -> bool) (v : B) n (l2 : list B) first2,
  valid l first last -> depth_bound (last - first) <= d ->
  total (find_if c d l first last p) /\ total (find_if_not c d l first last p) /\
  total (find eqb c d l first last v) /\ total (all_of c d l first last p) /\
  total (any_of c d l first last p) /\ total (none_of c d l first last p) /\
  total (one_of c d l first last p) /\ total (count_if c d l first last p) /\
  total (count eqb c d l first last v) /\ total (adjacent_find c d l first last q) /\
  (1 <= n -> total (search_n eqb c d l first last n v)) /\
  (first2 + (last - first) <= length l2 ->
    total (mismatch eqb c d l l2 first last first2) /\ total (equal eqb c d l l2 first last first2)).
Proof. exact @depth_correct_lemma. Qed.
Print Assumptions linear_search_depth.

Theorem linear_search_depth_64bit : forall A B c (l : list A) first last (p : A -> bool) (q : A -> A -> bool)
    (eqb : A -> B -> bool) (v : B) n (l2 : list B) first2,
  valid l first last -> (Z.of_nat (last - first) < 2 ^ 64)%Z ->
  let d := 130 in
  total (find_if c d l first last p) /\ total (find_if_not c d l first last p) /\
  total (find eqb c d l first last v) /\ total (all_of c d l first last p) /\
  total (any_of c d l first last p) /\ total (none_of c d l first last p) /\
  total (one_of c d l first last p) /\ total (count_if c d l first last p) /\
  total (count eqb c d l first last v) /\ total (adjacent_find c d l first last q) /\
  (1 <= n -> total (search_n eqb c d l first last n v)) /\
  (first2 + (last - first) <= length l2 ->
    total (mismatch eqb c d l l2 first last first2) /\ total (equal eqb c d l l2 first last first2)).
Proof. exact @depth_512_lemma. Qed.
Print Assumptions linear_search_depth_64bit.
Example linear_search_depth_ex :
  valid (repeat 1 100) 0 100 /\ depth_bound 100 <= 16 /\
  find_if false 15 (repeat 1 100) 0 100 Nat.even = Ok 100 /\
  find_if false 7 (repeat 1 100) 0 100 Nat.even = Fuel.
Proof. unfold valid. rewrite repeat_length. split; [split; repeat constructor|]. split; [vm_compute; repeat constructor|]. split; vm_compute; reflexivity. Qed.

(** C03 *)
Theorem all_of_correct : forall A c d (l : list A) first last p,
  valid l first last -> depth_bound (last - first) <= d ->
  exists b, all_of c d l first last p = Ok b /\
    (b = true <-> forall i, first <= i < last -> sat p l i).
Proof. exact @all_of_correct_lemma. Qed.
Print Assumptions all_of_correct.

Theorem any_of_correct : forall A c d (l : list A) first last p,
  valid l first last -> depth_bound (last - first) <= d ->
  exists b, any_of c d l first last p = Ok b /\
    (b = true <-> exists i, first <= i < last /\ sat p l i).
Proof. exact @any_of_correct_lemma. Qed.
Print Assumptions any_of_correct.

Theorem none_of_correct : forall A c d (l : list A) first last p,
  valid l first last -> depth_bound (last - first) <= d ->
  exists b, none_of c d l first last p = Ok b /\
    (b = true <-> forall i, first <= i < last -> ~ sat p l i).
Proof. exact @none_of_correct_lemma. Qed.
Print Assumptions none_of_correct.

Theorem all_any_none_of_equal_correct : forall A B (eqb : A -> B -> bool) c d (l : list A) first last v,
  valid l first last -> depth_bound (last - first) <= d ->
  (exists b, all_of_equal eqb c d l first last v = Ok b /\
    (b = true <-> forall i, first <= i < last -> sat (fun x => eqb x v) l i)) /\
  (exists b, any_of_equal eqb c d l first last v = Ok b /\
    (b = true <-> exists i, first <= i < last /\ sat (fun x => eqb x v) l i)) /\
  (exists b, none_of_equal eqb c d l first last v = Ok b /\
    (b = true <-> forall i, first <= i < last -> ~ sat (fun x => eqb x v) l i)).
Proof. exact (fun A B eqb c d l first last v V D => conj (all_of_correct_lemma c d l first last _ V D)
  (conj (any_of_correct_lemma c d l first last _ V D) (none_of_correct_lemma c d l first last _ V D))). Qed.
Print Assumptions all_any_none_of_equal_correct.
Example all_any_none_of_ex : valid [2;4;6;7] 0 4 /\ depth_bound 4 <= 8 /\
  all_of true 8 [2;4;6;7] 0 4 Nat.even = Ok false /\ all_of false 8 [2;4;6;7] 0 3 Nat.even = Ok true /\
  any_of true 8 [2;4;6;7] 0 4 Nat.odd = Ok true /\ any_of false 8 [2;4;6;7] 0 3 Nat.odd = Ok false /\
  none_of true 8 [2;4;6;7] 0 4 Nat.odd = Ok false /\ none_of false 8 [2;4;6;7] 0 3 Nat.odd = Ok true.
Proof. unfold valid. cbn. repeat split; repeat constructor. Qed.

(** C04: the full statement is false of the random-access version ... *)
Theorem one_of_refuted : exists (l : list bool) d,
  valid l 0 4 /\ depth_bound 4 <= d /\
  one_of true d l 0 4 (fun b => b) = Ok true /\
  one_of false d l 0 4 (fun b => b) = Ok false /\
  sat (fun b => b) l 0 /\ sat (fun b => b) l 1 /\ sat (fun b => b) l 2.
Proof. exact one_of_refuted_lemma. Qed.
Print Assumptions one_of_refuted.

(** ... and holds for the input-iterator version, and for random access whenever at
    most one element satisfies the predicate.  Missing: correctness of the
    random-access version when several elements do. *)
Theorem one_of_partial : forall A c d (l : list A) first last p,
  valid l first last -> depth_bound (last - first) <= d ->
  exists b, one_of c d l first last p = Ok b /\
    (c = false -> (b = true <-> has_count (sat p l) first last 1)) /\
    (has_count (sat p l) first last 1 -> b = true) /\
    (has_count (sat p l) first last 0 -> b = false).
Proof. exact @one_of_partial_lemma. Qed.
Print Assumptions one_of_partial.
Example one_of_partial_ex : valid [1;3;4;5] 0 4 /\ depth_bound 4 <= 8 /\
  one_of true 8 [1;3;4;5] 0 4 Nat.even = Ok true /\ one_of false 8 [2;3;4;5] 0 4 Nat.even = Ok false.
Proof. unfold valid. cbn. repeat split; repeat constructor. Qed.

(** C05 *)
Theorem count_if_correct : forall A c d (l : list A) first last p,
  valid l first last -> depth_bound (last - first) <= d ->
  exists n, count_if c d l first last p = Ok n /\ has_count (sat p l) first last n.
Proof. exact @count_if_correct_lemma. Qed.
Print Assumptions count_if_correct.

Theorem count_correct : forall A B (eqb : A -> B -> bool) c d (l : list A) first last v,
  valid l first last -> depth_bound (last - first) <= d ->
  exists n, count eqb c d l first last v = Ok n /\ has_count (sat (fun x => eqb x v) l) first last n.
Proof. exact (fun A B eqb c d l first last v => count_if_correct_lemma c d l first last _). Qed.
Print Assumptions count_correct.

Theorem count_if_split : forall A c d (l : list A) first mid last p,
  valid l first last -> first <= mid <= last -> depth_bound (last - first) <= d ->
  exists a b, count_if c d l first mid p = Ok a /\ count_if c d l mid last p = Ok b /\
    count_if c d l first last p = Ok (a + b) /\ a + b <= last - first.
Proof. exact @count_if_split_lemma. Qed.
Print Assumptions count_if_split.
Example count_if_correct_ex : valid [1;2;4;5;6] 0 5 /\ depth_bound 5 <= 8 /\
  count_if true 8 [1;2;4;5;6] 0 5 Nat.even = Ok 3 /\ count_if false 8 [1;2;4;5;6] 0 5 Nat.even = Ok 3.
Proof. unfold valid. cbn. repeat split; repeat constructor. Qed.

(** C06 *)
Theorem mismatch_correct : forall A B (p : A -> B -> bool) c d l1 l2 first1 last1 first2,
  valid l1 first1 last1 -> first2 + (last1 - first1) <= length l2 ->
  depth_bound (last1 - first1) <= d ->
  exists r, mismatch p c d l1 l2 first1 last1 first2 = Ok (r, first2 + (r - first1)) /\
    is_first (fun i => ~ rel p l1 i l2 (first2 + (i - first1))) first1 last1 r.
Proof. exact @mismatch_correct_lemma. Qed.
Print Assumptions mismatch_correct.

Theorem mismatch2_correct : forall A B (p : A -> B -> bool) c d l1 l2 first1 last1 first2 last2,
  valid l1 first1 last1 -> valid l2 first2 last2 -> depth_bound (last1 - first1) <= d ->
  exists r, mismatch2 p c d l1 l2 first1 last1 first2 last2 = Ok (r, first2 + (r - first1)) /\
    is_first (fun i => ~ rel p l1 i l2 (first2 + (i - first1))) first1
      (Nat.min last1 (first1 + (last2 - first2))) r.
Proof. exact @mismatch2_correct_lemma. Qed.
Print Assumptions mismatch2_correct.

Theorem equal_correct : forall A B (p : A -> B -> bool) c d l1 l2 first1 last1 first2,
  valid l1 first1 last1 -> first2 + (last1 - first1) <= length l2 ->
  depth_bound (last1 - first1) <= d ->
  exists b, equal p c d l1 l2 first1 last1 first2 = Ok b /\
    (b = true <-> forall k, k < last1 - first1 -> rel p l1 (first1 + k) l2 (first2 + k)).
Proof. exact @equal_correct_lemma. Qed.
Print Assumptions equal_correct.

Theorem equal2_correct : forall A B (p : A -> B -> bool) c d l1 l2 first1 last1 first2 last2,
  valid l1 first1 last1 -> valid l2 first2 last2 -> depth_bound (last1 - first1) <= d ->
  exists b, equal2 p c d l1 l2 first1 last1 first2 last2 = Ok b /\
    (b = true <-> last1 - first1 = last2 - first2 /\
                  forall k, k < last1 - first1 -> rel p l1 (first1 + k) l2 (first2 + k)).
Proof. exact @equal2_correct_lemma. Qed.
Print Assumptions equal2_correct.
Example mismatch_equal_ex : valid [1;2;3;4;9] 0 5 /\ valid [1;2;3;5] 0 4 /\ depth_bound 5 <= 8 /\
  mismatch2 Nat.eqb true 8 [1;2;3;4;9] [1;2;3;5] 0 5 0 4 = Ok (3, 3) /\
  mismatch2 Nat.eqb false 8 [1;2;3;4;9] [1;2;3;5] 0 5 0 4 = Ok (3, 3) /\
  mismatch Nat.eqb true 8 [1;2;3;4;9] [1;2;3;5] 0 4 0 = Ok (3, 3) /\
  equal Nat.eqb true 8 [1;2;3;4;9] [1;2;3;5] 0 3 0 = Ok true /\
  equal2 Nat.eqb true 8 [1;2;3;4;9] [1;2;3;5] 0 3 0 4 = Ok false /\
  equal2 Nat.eqb false 8 [1;2;3;4;9] [1;2;3;5] 0 3 0 3 = Ok true.
Proof. unfold valid. cbn. repeat split; repeat constructor. Qed.

(** C07 *)
Theorem adjacent_find_correct : forall A c d (l : list A) first last (p : A -> A -> bool),
  valid l first last -> depth_bound (last - first) <= d ->
  exists r, adjacent_find c d l first last p = Ok r /\
    is_first (fun i => S i < last /\ rel p l i l (S i)) first last r.
Proof. exact @adjacent_find_scan. Qed.
Print Assumptions adjacent_find_correct.
Example adjacent_find_correct_ex : valid [1;2;1;5;5] 0 5 /\ depth_bound 5 <= 8 /\
  adjacent_find true 8 [1;2;1;5;5] 0 5 Nat.eqb = Ok 3 /\ adjacent_find false 8 [1;2;1;5;5] 0 5 Nat.eqb = Ok 3 /\
  adjacent_find true 8 [1;2;1;5;5] 0 4 Nat.eqb = Ok 4.
Proof. unfold valid. cbn. repeat split; repeat constructor. Qed.

(** C08 *)
Theorem find_first_of_correct : forall A B (p : A -> B -> bool) c c2 d d2 l1 l2 first1 last1 first2 last2,
  valid l1 first1 last1 -> valid l2 first2 last2 ->
  depth_bound (last1 - first1) <= d -> depth_bound (last2 - first2) <= d2 ->
  exists r, find_first_of p c c2 d d2 l1 l2 first1 last1 first2 last2 = Ok r /\
    is_first (fun i => exists j, first2 <= j < last2 /\ rel p l1 i l2 j) first1 last1 r.
Proof. exact @find_first_of_correct_lemma. Qed.
Print Assumptions find_first_of_correct.
Example find_first_of_correct_ex : valid [1;2;3;4] 0 4 /\ valid [8;4;3] 0 3 /\ depth_bound 4 <= 8 /\ depth_bound 3 <= 8 /\
  find_first_of Nat.eqb true false 8 8 [1;2;3;4] [8;4;3] 0 4 0 3 = Ok 2 /\
  find_first_of Nat.eqb false true 8 8 [1;2;3;4] [8;4;3] 0 4 0 3 = Ok 2.
Proof. unfold valid. cbn. repeat split; repeat constructor. Qed.

(** C09 *)
Theorem search_correct : forall A B (p : A -> B -> bool) l1 l2 last1 first2 last2,
  last1 <= length l1 -> valid l2 first2 last2 ->
  forall c c2 d d2 first1,
  first1 <= last1 -> depth_bound (last1 - first1) <= d -> depth_bound (last2 - first2) <= d2 ->
  exists r, search p c c2 d d2 l1 l2 first1 last1 first2 last2 = Ok r /\
    is_first (occurs_at p l1 last1 l2 first2 last2) first1 last1 r.
Proof. exact @search_correct_lemma. Qed.
Print Assumptions search_correct.
Example search_correct_ex : 7 <= length [1;1;2;1;1;3;1] /\ valid [1;1;3] 0 3 /\ depth_bound 7 <= 8 /\ depth_bound 3 <= 8 /\
  search Nat.eqb true true 8 8 [1;1;2;1;1;3;1] [1;1;3] 0 7 0 3 = Ok 3 /\
  search Nat.eqb false false 8 8 [1;1;2;1;1;3;1] [1;1;3] 0 7 0 3 = Ok 3 /\
  search Nat.eqb true true 8 8 [1;1;2;1;1;3;1] [] 2 7 0 0 = Ok 2.
Proof. unfold valid. cbn. repeat split; repeat constructor. Qed.

(** C10 *)
Theorem find_end_correct : forall A B (p : A -> B -> bool) l1 l2 last1 first2 last2,
  last1 <= length l1 -> valid l2 first2 last2 -> 1 <= last2 - first2 ->
  forall c c2 d d2 first1,
  first1 <= last1 -> depth_bound (last1 - first1) <= d -> depth_bound (last2 - first2) <= d2 ->
  exists r, find_end p c c2 d d2 l1 l2 first1 last1 first2 last2 = Ok r /\
    is_last (occurs_at p l1 last1 l2 first2 last2) first1 last1 r.
Proof. exact @find_end_correct_lemma. Qed.
Print Assumptions find_end_correct.

Theorem find_end_empty_pattern : forall A B (p : A -> B -> bool) l1 l2 c c2 d d2 first1 last1 first2,
  find_end p c c2 d d2 l1 l2 first1 last1 first2 first2 = Ok last1.
Proof. exact @find_end_empty_lemma. Qed.
Print Assumptions find_end_empty_pattern.
Example find_end_correct_ex : 7 <= length [1;1;2;1;1;2;1] /\ valid [1;1;2] 0 3 /\ depth_bound 7 <= 8 /\ depth_bound 3 <= 8 /\
  find_end Nat.eqb CRandom true 8 8 [1;1;2;1;1;2;1] [1;1;2] 0 7 0 3 = Ok 3 /\
  find_end Nat.eqb CBidirectional true 8 8 [1;1;2;1;1;2;1] [1;1;2] 0 7 0 3 = Ok 3 /\
  find_end Nat.eqb CForward false 8 8 [1;1;2;1;1;2;1] [1;1;2] 0 7 0 3 = Ok 3.
Proof. unfold valid. cbn. repeat split; repeat constructor. Qed.

(** C11: for n >= 1 ... *)
Theorem search_n_partial : forall A B (p : A -> B -> bool) l first last n v,
  last <= length l -> 1 <= n ->
  forall c d, first <= last -> depth_bound (last - first) <= d ->
  exists r, search_n p c d l first last n v = Ok r /\
    is_first (run_at p l last n v) first last r.
Proof. exact @search_n_correct_lemma. Qed.
Print Assumptions search_n_partial.

(** ... but for n = 0 the code answers [last] although the empty run occurs at
    [first] (std::search_n answers [first]). *)
Theorem search_n_refuted : exists (l : list nat) d,
  depth_bound 2 <= d /\ search_n Nat.eqb true d l 0 2 0 7 = Ok 2 /\
  search_n Nat.eqb false d l 0 2 0 7 = Ok 2 /\ 2 <= length l /\ run_at Nat.eqb l 2 0 7 0.
Proof. exact search_n_refuted_lemma. Qed.
Print Assumptions search_n_refuted.
Example search_n_partial_ex : 6 <= length [7;1;7;7;7;1] /\ depth_bound 6 <= 8 /\
  search_n Nat.eqb true 8 [7;1;7;7;7;1] 0 6 3 7 = Ok 2 /\ search_n Nat.eqb false 8 [7;1;7;7;7;1] 0 6 3 7 = Ok 2.
Proof. unfold valid. cbn. repeat split; repeat constructor. Qed.
