(** Theorems about the heap algorithms and partial sorting (C31-C33). *)
From Coq Require Import List Arith Bool Lia.
From Verif Require Import Base SearchSpec OrderSpec MutSpec HeapModel HeapProof2.
Import ListNotations.

(** ** C31 *)
Theorem push_heap_correct : forall A (comp : A -> A -> bool), strict_weak_order comp ->
  forall k m first last, valid m first last -> first < last ->
  heap comp m first (last - 1) -> last - first <= k ->
  exists m', push_heap comp k m first last = Ok m' /\
    rearranged m first last m' /\ heap comp m' first last.
Proof. exact @push_heap_correct_lemma. Qed.
Print Assumptions push_heap_correct.

Example push_heap_example :
  push_heap Nat.ltb 5 [5;3;4;1;9] 0 5 = Ok [9;5;4;1;3].
Proof. reflexivity. Qed.

Theorem pop_heap_correct : forall A (comp : A -> A -> bool), strict_weak_order comp ->
  forall k m first last, valid m first last -> first < last ->
  heap comp m first last -> last - first <= k ->
  exists m', pop_heap comp k m first last = Ok m' /\
    rearranged m first last m' /\ heap comp m' first (last - 1) /\
    nth_error m' (last - 1) = nth_error m first /\
    forall i, first <= i < last -> ~ rel comp m' (last - 1) m' i.
Proof. exact @pop_heap_correct_lemma. Qed.
Print Assumptions pop_heap_correct.

Example pop_heap_example :
  pop_heap Nat.ltb 5 [9;5;4;1;3] 0 5 = Ok [5;3;4;1;9].
Proof. reflexivity. Qed.

Theorem sort_heap_correct : forall A (comp : A -> A -> bool), strict_weak_order comp ->
  forall k m first last, valid m first last ->
  heap comp m first last -> last - first < k ->
  exists m', sort_heap comp k m first last = Ok m' /\
    rearranged m first last m' /\ sorted_range comp m' first last.
Proof. exact @sort_heap_correct_lemma. Qed.
Print Assumptions sort_heap_correct.

Example sort_heap_example :
  sort_heap Nat.ltb 6 [9;5;4;1;3] 0 5 = Ok [1;3;4;5;9].
Proof. reflexivity. Qed.

(** ** C32: false of the code *)
Theorem make_heap_refuted :
  make_heap Nat.ltb 9 [1;2] 0 2 = Ok [1;2] /\ ~ heap Nat.ltb [1;2] 0 2.
Proof. exact @make_heap_refuted_lemma. Qed.
Print Assumptions make_heap_refuted.

(** The range is always rearranged; it is a heap if it was in descending order.  Missing: that
    every range becomes a heap. *)
Theorem make_heap_partial : forall A (comp : A -> A -> bool), strict_weak_order comp ->
  forall k m first last, valid m first last -> last - first < k ->
  exists m', make_heap comp k m first last = Ok m' /\ rearranged m first last m' /\
    (sorted_range (fun x y => comp y x) m first last -> m' = m /\ heap comp m' first last).
Proof. exact @make_heap_partial_lemma. Qed.
Print Assumptions make_heap_partial.

Example make_heap_example :
  make_heap Nat.ltb 9 [5;4;4;1] 0 4 = Ok [5;4;4;1].
Proof. reflexivity. Qed.

(** ** C33: false of the code *)
Theorem partial_sort_refuted :
  partial_sort Nat.ltb 9 [1;2] 0 2 2 = Ok [2;1] /\ ~ sorted_range Nat.ltb [2;1] 0 2.
Proof. exact @partial_sort_refuted_lemma. Qed.
Print Assumptions partial_sort_refuted.

(** Correct whenever make_heap happens to make a heap.  Missing: the other cases. *)
Theorem partial_sort_partial : forall A (comp : A -> A -> bool), strict_weak_order comp ->
  forall k m first middle last, valid m first last -> first <= middle <= last -> last - first < k ->
  exists m', partial_sort comp k m first middle last = Ok m' /\ rearranged m first last m' /\
    ((exists h, make_heap comp k m first middle = Ok h /\ heap comp h first middle) ->
     sorted_range comp m' first middle /\
     forall i j, first <= i < middle -> middle <= j < last -> ~ rel comp m' j m' i).
Proof. exact @partial_sort_partial_lemma. Qed.
Print Assumptions partial_sort_partial.

Example partial_sort_example :
  (exists h, make_heap Nat.ltb 9 [6;4;5;1;9;2] 0 3 = Ok h /\ heap Nat.ltb h 0 3) /\
  partial_sort Nat.ltb 9 [6;4;5;1;9;2] 0 3 6 = Ok [1;2;4;6;9;5].
Proof.
  split; [|reflexivity]. exists [6;4;5;1;9;2]. split; [reflexivity|].
  intros [|[|[|i]]] H1 H2 (x & y & E1 & E2 & E3); try lia; cbn in E1, E2; injection E1 as <-; injection E2 as <-; discriminate.
Qed.
