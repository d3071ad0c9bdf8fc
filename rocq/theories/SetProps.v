(** Properties C28-C30 and C41: merging, the set operations, the searches over two sorted
    ranges and the lazy iterators.  The specifications (SetSpec.v) determine their output
    ([merge_set_unique]), so they say which of two equivalent elements is written and in
    which order. *)
From Coq Require Import List Arith Bool Permutation.
From Verif Require Import Base SearchSpec OrderModel OrderSpec MutSpec SetModel SetSpec SetProof2 SetProof4.
Import ListNotations.

Theorem merge_set_unique : forall A (comp : A -> A -> bool), strict_weak_order comp -> forall xs ys out1 out2,
  (merge_of comp xs ys out1 -> merge_of comp xs ys out2 -> out1 = out2) /\
  (union_of comp xs ys out1 -> union_of comp xs ys out2 -> out1 = out2) /\
  (intersection_of comp xs ys out1 -> intersection_of comp xs ys out2 -> out1 = out2) /\
  (difference_of comp xs ys out1 -> difference_of comp xs ys out2 -> out1 = out2) /\
  (symmetric_difference_of comp xs ys out1 -> symmetric_difference_of comp xs ys out2 -> out1 = out2).
Proof. exact @spec_unique_lemma. Qed.
Print Assumptions merge_set_unique.

(** ** C28 *)
Theorem merge_correct : forall A (comp : A -> A -> bool), strict_weak_order comp ->
  forall k m first1 last1 first2 last2 result,
  valid m first1 last1 -> valid m first2 last2 ->
  sorted_range comp m first1 last1 -> sorted_range comp m first2 last2 ->
  (last1 - first1) + (last2 - first2) < k ->
  exists out, merge_of comp (slice m first1 last1) (slice m first2 last2) out /\
    (room m first1 last1 first2 last2 result out ->
     merge comp k m first1 last1 first2 last2 result = Ok (paste m result out, result + length out)).
Proof. exact @merge_correct_lemma. Qed.
Print Assumptions merge_correct.

Theorem merge_of_perm : forall A (comp : A -> A -> bool), strict_weak_order comp -> forall xs ys out,
  sorted_list comp xs -> sorted_list comp ys -> merge_of comp xs ys out -> Permutation (xs ++ ys) out.
Proof. exact @merge_of_perm_lemma. Qed.
Print Assumptions merge_of_perm.

Example merge_example :
  merge by_key 9 [(1,0);(3,0);(3,1);(3,2);(4,2);(0,0);(0,0);(0,0);(0,0);(0,0);(7,7)] 0 3 3 5 5 =
  Ok ([(1,0);(3,0);(3,1);(3,2);(4,2);(1,0);(3,0);(3,1);(3,2);(4,2);(7,7)], 10).
Proof. reflexivity. Qed.

(** ** C29 *)
Theorem set_union_correct : forall A (comp : A -> A -> bool), strict_weak_order comp ->
  forall k m first1 last1 first2 last2 result,
  valid m first1 last1 -> valid m first2 last2 ->
  sorted_range comp m first1 last1 -> sorted_range comp m first2 last2 ->
  (last1 - first1) + (last2 - first2) < k ->
  exists out, union_of comp (slice m first1 last1) (slice m first2 last2) out /\
    (room m first1 last1 first2 last2 result out ->
     set_union comp k m first1 last1 first2 last2 result = Ok (paste m result out, result + length out)).
Proof. exact @set_union_correct_lemma. Qed.
Print Assumptions set_union_correct.

Theorem set_intersection_correct : forall A (comp : A -> A -> bool), strict_weak_order comp ->
  forall k m first1 last1 first2 last2 result,
  valid m first1 last1 -> valid m first2 last2 ->
  sorted_range comp m first1 last1 -> sorted_range comp m first2 last2 ->
  (last1 - first1) + (last2 - first2) < k ->
  exists out, intersection_of comp (slice m first1 last1) (slice m first2 last2) out /\
    (room m first1 last1 first2 last2 result out ->
     set_intersection comp k m first1 last1 first2 last2 result = Ok (paste m result out, result + length out)).
Proof. exact @set_intersection_correct_lemma. Qed.
Print Assumptions set_intersection_correct.

Theorem set_difference_correct : forall A (comp : A -> A -> bool), strict_weak_order comp ->
  forall k m first1 last1 first2 last2 result,
  valid m first1 last1 -> valid m first2 last2 ->
  sorted_range comp m first1 last1 -> sorted_range comp m first2 last2 ->
  (last1 - first1) + (last2 - first2) < k ->
  exists out, difference_of comp (slice m first1 last1) (slice m first2 last2) out /\
    (room m first1 last1 first2 last2 result out ->
     set_difference comp k m first1 last1 first2 last2 result = Ok (paste m result out, result + length out)).
Proof. exact @set_difference_correct_lemma. Qed.
Print Assumptions set_difference_correct.

Theorem set_symmetric_difference_correct : forall A (comp : A -> A -> bool), strict_weak_order comp ->
  forall k m first1 last1 first2 last2 result,
  valid m first1 last1 -> valid m first2 last2 ->
  sorted_range comp m first1 last1 -> sorted_range comp m first2 last2 ->
  (last1 - first1) + (last2 - first2) < k ->
  exists out, symmetric_difference_of comp (slice m first1 last1) (slice m first2 last2) out /\
    (room m first1 last1 first2 last2 result out ->
     set_symmetric_difference comp k m first1 last1 first2 last2 result = Ok (paste m result out, result + length out)).
Proof. exact @set_symmetric_difference_correct_lemma. Qed.
Print Assumptions set_symmetric_difference_correct.

Theorem set_counts : forall A (comp : A -> A -> bool) xs ys out z,
  let n l := length (class comp z l) in
  (union_of comp xs ys out -> n out = Nat.max (n xs) (n ys)) /\
  (intersection_of comp xs ys out -> n out = Nat.min (n xs) (n ys)) /\
  (difference_of comp xs ys out -> n out = n xs - n ys) /\
  (symmetric_difference_of comp xs ys out -> n out = (n xs - n ys) + (n ys - n xs)).
Proof. exact @set_counts_lemma. Qed.
Print Assumptions set_counts.

Example set_example :
  let m := [(1,0);(3,0);(3,1);(5,0);(2,9);(3,9);(5,8);(5,9);(0,0);(0,0);(0,0);(0,0);(0,0);(0,0);(7,7)] in
  let ins := firstn 8 m in
  set_union by_key 9 m 0 4 4 8 8 = Ok (ins ++ [(1,0);(2,9);(3,0);(3,1);(5,0);(5,9);(7,7)], 14) /\
  set_intersection by_key 9 m 0 4 4 8 8 = Ok (ins ++ [(3,0);(5,0);(0,0);(0,0);(0,0);(0,0);(7,7)], 10) /\
  set_difference by_key 9 m 0 4 4 8 8 = Ok (ins ++ [(1,0);(3,1);(0,0);(0,0);(0,0);(0,0);(7,7)], 10) /\
  set_symmetric_difference by_key 9 m 0 4 4 8 8 = Ok (ins ++ [(1,0);(2,9);(3,1);(5,9);(0,0);(0,0);(7,7)], 12).
Proof. repeat split; reflexivity. Qed.

(** ** C30 *)
Theorem inplace_merge_correct : forall A (comp : A -> A -> bool), strict_weak_order comp ->
  forall r d k m first middle last,
  valid m first last -> first <= middle <= last ->
  sorted_range comp m first middle -> sorted_range comp m middle last ->
  last - first < r -> Nat.log2 (last - first) + 2 <= d -> last - first < k ->
  exists out, merge_of comp (slice m first middle) (slice m middle last) out /\
    inplace_merge comp r d k m first middle last = Ok (paste m first out).
Proof. exact @inplace_merge_correct_lemma. Qed.
Print Assumptions inplace_merge_correct.

Example inplace_merge_example :
  inplace_merge by_key 9 9 9 [(9,9);(1,0);(3,0);(3,1);(5,0);(2,9);(3,9);(5,8);(5,9);(0,0)] 1 5 9 =
  Ok [(9,9);(1,0);(2,9);(3,0);(3,1);(3,9);(5,0);(5,8);(5,9);(0,0)].
Proof. reflexivity. Qed.

(** ** C41 *)
Theorem find_intersection_correct : forall A (comp : A -> A -> bool), strict_weak_order comp ->
  forall la lb first1 last1 first2 last2, valid la first1 last1 -> valid lb first2 last2 ->
  sorted_range comp la first1 last1 -> sorted_range comp lb first2 last2 ->
  forall d, depth_bound ((last1 - first1) + (last2 - first2) + 1) <= d ->
  exists i j, find_intersection comp d la lb first1 last1 first2 last2 = Ok (i, j) /\
    is_first (has_partner comp la lb first2 last2) first1 last1 i /\
    (i < last1 -> j < last2 /\ is_first (equivalent_at comp la i lb) first2 last2 j) /\
    (i = last1 -> j = last2).
Proof. exact @find_intersection_correct_lemma. Qed.
Print Assumptions find_intersection_correct.

Theorem find_difference_correct : forall A (comp : A -> A -> bool), strict_weak_order comp ->
  forall la lb first1 last1 first2 last2, valid la first1 last1 -> valid lb first2 last2 ->
  sorted_range comp la first1 last1 -> sorted_range comp lb first2 last2 ->
  forall d, depth_bound ((last1 - first1) + (last2 - first2) + 1) <= d ->
  exists i j, find_difference comp d la lb first1 last1 first2 last2 = Ok (i, j) /\
    is_first (unpaired comp la lb first1 first2 last2) first1 last1 i /\
    (i < last1 -> is_first (fun j => rel comp la i lb j) first2 last2 j) /\
    (i = last1 -> j = last2).
Proof. exact @find_difference_correct_lemma. Qed.
Print Assumptions find_difference_correct.

Theorem find_symmetric_difference_correct : forall A (comp : A -> A -> bool) la lb first1 last1 first2 last2,
  valid la first1 last1 -> valid lb first2 last2 ->
  forall d, depth_bound ((last1 - first1) + (last2 - first2) + 1) <= d ->
  exists n, find_symmetric_difference comp d la lb first1 last1 first2 last2 = Ok (first1 + n, first2 + n) /\
    first1 + n <= last1 /\ first2 + n <= last2 /\
    (forall t, t < n -> equivalent_at comp la (first1 + t) lb (first2 + t)) /\
    (first1 + n < last1 -> first2 + n < last2 -> ~ equivalent_at comp la (first1 + n) lb (first2 + n)).
Proof. exact @find_symmetric_difference_correct_lemma. Qed.
Print Assumptions find_symmetric_difference_correct.

Example find_set_example :
  find_intersection Nat.ltb 9 [1;3;3;5] [2;3;5] 0 4 0 3 = Ok (1, 1) /\
  find_intersection Nat.ltb 9 [1;4] [2;3;5] 0 2 0 3 = Ok (2, 3) /\
  find_difference Nat.ltb 9 [2;3;3;5] [2;3;5] 0 4 0 3 = Ok (2, 2) /\
  find_symmetric_difference Nat.ltb 9 [2;3;3;5] [2;3;5] 0 4 0 3 = Ok (2, 2).
Proof. repeat split; reflexivity. Qed.

Theorem merge_range_correct : forall A (comp : A -> A -> bool) k la lb first1 last1 first2 last2,
  strict_weak_order comp -> valid la first1 last1 -> valid lb first2 last2 ->
  sorted_range comp la first1 last1 -> sorted_range comp lb first2 last2 ->
  (last1 - first1) + (last2 - first2) < k ->
  exists out, merge_range comp k la lb first1 last1 first2 last2 = Ok out /\
    merge_of comp (slice la first1 last1) (slice lb first2 last2) out.
Proof. exact @merge_range_correct_lemma. Qed.
Print Assumptions merge_range_correct.

Theorem set_union_range_correct : forall A (comp : A -> A -> bool) k la lb first1 last1 first2 last2,
  strict_weak_order comp -> valid la first1 last1 -> valid lb first2 last2 ->
  sorted_range comp la first1 last1 -> sorted_range comp lb first2 last2 ->
  (last1 - first1) + (last2 - first2) < k ->
  exists out, set_union_range comp k la lb first1 last1 first2 last2 = Ok out /\
    union_of comp (slice la first1 last1) (slice lb first2 last2) out.
Proof. exact @set_union_range_correct_lemma. Qed.
Print Assumptions set_union_range_correct.

Theorem set_intersection_range_correct : forall A (comp : A -> A -> bool) k d la lb first1 last1 first2 last2,
  strict_weak_order comp -> valid la first1 last1 -> valid lb first2 last2 ->
  sorted_range comp la first1 last1 -> sorted_range comp lb first2 last2 ->
  (last1 - first1) + (last2 - first2) < k -> depth_bound ((last1 - first1) + (last2 - first2) + 1) <= d ->
  exists out, set_intersection_range comp k d la lb first1 last1 first2 last2 = Ok out /\
    intersection_of comp (slice la first1 last1) (slice lb first2 last2) out.
Proof. exact @set_intersection_range_correct_lemma. Qed.
Print Assumptions set_intersection_range_correct.

Theorem set_difference_range_correct : forall A (comp : A -> A -> bool) k d la lb first1 last1 first2 last2,
  strict_weak_order comp -> valid la first1 last1 -> valid lb first2 last2 ->
  sorted_range comp la first1 last1 -> sorted_range comp lb first2 last2 ->
  (last1 - first1) + (last2 - first2) < k -> depth_bound ((last1 - first1) + (last2 - first2) + 1) <= d ->
  exists out, set_difference_range comp k d la lb first1 last1 first2 last2 = Ok out /\
    difference_of comp (slice la first1 last1) (slice lb first2 last2) out.
Proof. exact @set_difference_range_correct_lemma. Qed.
Print Assumptions set_difference_range_correct.

Theorem set_symmetric_difference_range_correct : forall A (comp : A -> A -> bool) k d la lb first1 last1 first2 last2,
  strict_weak_order comp -> valid la first1 last1 -> valid lb first2 last2 ->
  sorted_range comp la first1 last1 -> sorted_range comp lb first2 last2 ->
  (last1 - first1) + (last2 - first2) < k -> depth_bound ((last1 - first1) + (last2 - first2) + 1) <= d ->
  exists out, set_symmetric_difference_range comp k d la lb first1 last1 first2 last2 = Ok out /\
    symmetric_difference_of comp (slice la first1 last1) (slice lb first2 last2) out.
Proof. exact @set_symmetric_difference_range_correct_lemma. Qed.
Print Assumptions set_symmetric_difference_range_correct.

Example range_example :
  let la := [(1,0);(3,0);(3,1);(5,0)] in let lb := [(2,9);(3,9);(5,8);(5,9)] in
  merge_range by_key 9 la lb 0 4 0 4 = Ok [(1,0);(2,9);(3,0);(3,1);(3,9);(5,0);(5,8);(5,9)] /\
  set_union_range by_key 9 la lb 0 4 0 4 = Ok [(1,0);(2,9);(3,0);(3,1);(5,0);(5,9)] /\
  set_intersection_range by_key 9 9 la lb 0 4 0 4 = Ok [(3,0);(5,0)] /\
  set_difference_range by_key 9 9 la lb 0 4 0 4 = Ok [(1,0);(3,1)] /\
  set_symmetric_difference_range by_key 9 9 la lb 0 4 0 4 = Ok [(1,0);(2,9);(3,1);(5,9)].
Proof. repeat split; reflexivity. Qed.
