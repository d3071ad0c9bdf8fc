(** Theorems about sorting and the permutation generators (C34-C37). *)
From Coq Require Import List Arith NArith Bool Lia Permutation.
From Verif Require Import Base SearchSpec OrderSpec MutSpec SetSpec SortModel SortSpec SortProof3 SortProof4 SortProof6.
Import ListNotations.

(** ** C34.  [limit] is the out-of-range constant of the original; it does not matter.  The
    recursion is at most logarithmic in the length. *)
Theorem sort_correct : forall A (comp : A -> A -> bool), strict_weak_order comp ->
  forall limit r k m first last, valid m first last ->
  last - first < k -> Nat.log2 (last - first) < r ->
  exists m', sort comp limit r k m first last = Ok m' /\
    rearranged m first last m' /\ sorted_range comp m' first last.
Proof. exact @sort_correct_lemma. Qed.
Print Assumptions sort_correct.

Example sort_example :
  sort Nat.ltb 30 5 12 [0;7;3;9;1;8;3;2;6;5;4;0] 1 12 = Ok [0;0;1;2;3;3;4;5;6;7;8;9].
Proof. reflexivity. Qed.

(** ** C35 *)
Theorem nth_element_correct : forall A (comp : A -> A -> bool), strict_weak_order comp ->
  forall d k m first nth last, valid m first last -> first <= nth <= last ->
  last - first < k -> depth_bound (last - first) <= d ->
  exists m', nth_element comp d k m first nth last = Ok m' /\ rearranged m first last m' /\
    (nth = last -> m' = m) /\
    (nth < last ->
      (forall i, first <= i < nth -> ~ rel comp m' nth m' i) /\
      (forall j, nth < j < last -> ~ rel comp m' j m' nth) /\
      (forall s, rearranged m first last s -> sorted_range comp s first last ->
         exists x y, nth_error m' nth = Some x /\ nth_error s nth = Some y /\ equivalent comp x y)).
Proof. exact @nth_element_correct_lemma. Qed.
Print Assumptions nth_element_correct.

Example nth_element_example :
  exists m', nth_element Nat.ltb 9 12 [0;7;3;9;1;8;3;2;6;5;4;0] 1 6 12 = Ok m' /\ nth_error m' 6 = Some 4.
Proof. eexists. split; [vm_compute; reflexivity|reflexivity]. Qed.

(** ** C36: false of the code *)
Theorem stable_sort_refuted :
  stable_sort Nat.ltb 9 9 9 [2;1] 0 2 = UB.
Proof. exact @stable_sort_refuted_lemma. Qed.
Print Assumptions stable_sort_refuted.

(** Whenever the call does not leave the range, the result is the stable sort; sorted ranges are
    left as they are; ranges of fewer than fifteen elements are handled without leaving the
    range exactly if nothing is less than the first element.  Missing: that the call never leaves
    the range. *)
Theorem stable_sort_partial : forall A (comp : A -> A -> bool), strict_weak_order comp ->
  forall r d k m first last, valid m first last ->
  last - first < r -> Nat.log2 (last - first) + 2 <= d -> last - first < k ->
  (forall m', stable_sort comp r d k m first last = Ok m' ->
     exists out, stable_sort_of comp (slice m first last) out /\
       rearranged m first last m' /\ m' = paste m first out) /\
  (sorted_range comp m first last -> stable_sort comp r d k m first last = Ok m) /\
  (last - first < 15 ->
    ((exists m', stable_sort comp r d k m first last = Ok m') <->
     forall i, first <= i < last -> ~ rel comp m i m first)).
Proof. exact @stable_sort_partial_lemma. Qed.
Print Assumptions stable_sort_partial.

Example stable_sort_example :
  stable_sort (fun x y => x / 2 <? y / 2) 9 9 9 [0;5;3;2;4;1] 0 6 = Ok [0;1;3;2;5;4].
Proof. reflexivity. Qed.

(** ** C37 *)
Theorem next_permutation_correct : forall A (comp : A -> A -> bool), strict_weak_order comp ->
  forall k m first last, valid m first last -> last - first < k ->
  exists ys b, next_permutation comp k m first last = Ok (paste m first ys, b) /\
    Permutation (slice m first last) ys /\
    (b = true -> next_of comp (slice m first last) ys) /\
    (b = false -> is_last_perm comp (slice m first last) /\ is_first_perm comp ys /\ sorted_list comp ys).
Proof. exact @next_permutation_correct_lemma. Qed.
Print Assumptions next_permutation_correct.

Example next_permutation_example :
  next_permutation Nat.ltb 9 [9;1;3;3;2;0] 1 5 = Ok ([9;2;1;3;3;0], true).
Proof. reflexivity. Qed.

Theorem prev_permutation_correct : forall A (comp : A -> A -> bool), strict_weak_order comp ->
  forall k m first last, valid m first last -> last - first < k ->
  exists ys b, prev_permutation comp k m first last = Ok (paste m first ys, b) /\
    Permutation (slice m first last) ys /\
    (b = true -> next_of comp ys (slice m first last)) /\
    (b = false -> is_first_perm comp (slice m first last) /\ is_last_perm comp ys).
Proof. exact @prev_permutation_correct_lemma. Qed.
Print Assumptions prev_permutation_correct.

Example prev_permutation_example :
  prev_permutation Nat.ltb 9 [9;2;1;3;3;0] 1 5 = Ok ([9;1;3;3;2;0], true).
Proof. reflexivity. Qed.

Theorem next_then_prev : forall A (comp : A -> A -> bool), strict_weak_order comp ->
  forall k m first last m', valid m first last -> last - first < k ->
  next_permutation comp k m first last = Ok (m', true) ->
  exists m'', prev_permutation comp k m' first last = Ok (m'', true) /\
    rearranged m first last m'' /\ alike comp (slice m'' first last) (slice m first last).
Proof. exact @next_prev_lemma. Qed.
Print Assumptions next_then_prev.

Theorem prev_then_next : forall A (comp : A -> A -> bool), strict_weak_order comp ->
  forall k m first last m', valid m first last -> last - first < k ->
  prev_permutation comp k m first last = Ok (m', true) ->
  exists m'', next_permutation comp k m' first last = Ok (m'', true) /\
    rearranged m first last m'' /\ alike comp (slice m'' first last) (slice m first last).
Proof. exact @prev_next_lemma. Qed.
Print Assumptions prev_then_next.

(** Starting from a sorted range, calls that return true lead to every rearrangement (up to
    equivalence of elements)... *)
Theorem next_permutation_visits_all : forall A (comp : A -> A -> bool), strict_weak_order comp ->
  forall k m first last zs, valid m first last -> last - first < k ->
  sorted_list comp (slice m first last) -> Permutation (slice m first last) zs ->
  exists n ys,
    reaches (fun a b => next_permutation comp k a first last = Ok (b, true)) n m (paste m first ys) /\
    Permutation (slice m first last) ys /\ alike comp ys zs.
Proof. exact @enumerates_lemma. Qed.
Print Assumptions next_permutation_visits_all.

(** ...and to none of them twice. *)
Theorem next_permutation_visits_once : forall A (comp : A -> A -> bool), strict_weak_order comp ->
  forall k m first last n n' a b, valid m first last -> last - first < k ->
  reaches (fun a b => next_permutation comp k a first last = Ok (b, true)) n m a ->
  reaches (fun a b => next_permutation comp k a first last = Ok (b, true)) n' m b ->
  alike comp (slice a first last) (slice b first last) -> n = n'.
Proof. exact @visited_once_lemma. Qed.
Print Assumptions next_permutation_visits_once.

Example visits_example :
  reaches (fun a b => next_permutation Nat.ltb 9 a 0 3 = Ok (b, true)) 2 [1;2;2] [2;2;1] /\
  next_permutation Nat.ltb 9 [2;2;1] 0 3 = Ok ([1;2;2], false).
Proof. split; [|reflexivity]. exists [2;1;2]. split; [reflexivity|]. exists [2;2;1]. split; reflexivity. Qed.
