(** The algorithms of sprout::fit give exactly the elements produced. *)
From Coq Require Import List Arith Bool Permutation Lia.
From Verif Require Import Base SearchModel SearchSpec OrderSpec MutSpec NumSpec SetSpec FixModel FixSpec FitModel FitSpec FitProof.
Import ListNotations.

(** ** C235 *)
(** copy: the window holds the elements copied, all or as many as fit. *)
Theorem fit_copy_correct : forall (A : Type) (ra : bool) (d : nat) (xs : list A) (first last : nat) (c : cont A),
  wf c -> valid xs first last -> last - first < d ->
  exists r, fit_copy ra d xs first last c = Ok r /\ fitted c (slice xs first last) (slice xs first last) r.
Proof. exact @fit_copy_correct_lemma. Qed.
Print Assumptions fit_copy_correct.

Example fit_copy_correct_ex : fit_copy false 5 [4;5] 0 2 (Cont [9;1;2;3;9] 1 3) = Ok (Cont [9;4;5;3;9] 1 2) /\
  fit_copy true 9 [4;5;6;7] 0 4 (Cont [9;1;2;3;9] 1 3) = Ok (Cont [9;4;5;6;9] 1 3).
Proof. repeat split; vm_compute; reflexivity. Qed.

(** copy_n. *)
Theorem fit_copy_n_correct : forall (A : Type) (ra : bool) (d : nat) (xs : list A) (first n : nat) (c : cont A),
  wf c -> valid xs first (first + n) -> n < d ->
  exists r, fit_copy_n ra d xs first n c = Ok r /\ fitted c (slice xs first (first + n)) (slice xs first (first + n)) r.
Proof. exact @fit_copy_n_correct_lemma. Qed.
Print Assumptions fit_copy_n_correct.

Example fit_copy_n_correct_ex : fit_copy_n false 5 [4;5;6] 1 2 (Cont [9;1;2;3;9] 1 3) = Ok (Cont [9;5;6;3;9] 1 2).
Proof. repeat split; vm_compute; reflexivity. Qed.

(** copy_if. *)
Theorem fit_copy_if_correct : forall (A : Type) (ra : bool) (d : nat) (xs : list A) (first last : nat) (c : cont A) (p : A -> bool),
  wf c -> valid xs first last -> last - first < d -> depth_bound (last - first) <= d ->
  exists r, fit_copy_if ra d xs first last c p = Ok r /\
    fitted c (filter p (slice xs first last)) (filter p (slice xs first last)) r.
Proof. exact @fit_copy_if_correct_lemma. Qed.
Print Assumptions fit_copy_if_correct.

Example fit_copy_if_correct_ex : fit_copy_if true 20 [4;5;6;7] 0 4 (Cont [9;1;2;3;9] 1 3) Nat.even = Ok (Cont [9;4;6;3;9] 1 2).
Proof. repeat split; vm_compute; reflexivity. Qed.

(** copy_while. *)
Theorem fit_copy_while_correct : forall (A : Type) (ra : bool) (d : nat) (xs : list A) (first last : nat) (c : cont A) (p : A -> bool),
  wf c -> valid xs first last -> last - first < d -> depth_bound (last - first) <= d ->
  exists r, fit_copy_while ra d xs first last c p = Ok r /\
    fitted c (prefix_while p (slice xs first last)) (prefix_while p (slice xs first last)) r.
Proof. exact @fit_copy_while_correct_lemma. Qed.
Print Assumptions fit_copy_while_correct.

Example fit_copy_while_correct_ex : fit_copy_while true 20 [4;6;5;8] 0 4 (Cont [9;1;2;3;9] 1 3) Nat.even = Ok (Cont [9;4;6;3;9] 1 2).
Proof. repeat split; vm_compute; reflexivity. Qed.

(** copy_until. *)
Theorem fit_copy_until_correct : forall (A : Type) (ra : bool) (d : nat) (xs : list A) (first last : nat) (c : cont A) (p : A -> bool),
  wf c -> valid xs first last -> last - first < d -> depth_bound (last - first) <= d ->
  exists r, fit_copy_until ra d xs first last c p = Ok r /\
    fitted c (prefix_while (fun x => negb (p x)) (slice xs first last))
      (prefix_while (fun x => negb (p x)) (slice xs first last)) r.
Proof. exact @fit_copy_until_correct_lemma. Qed.
Print Assumptions fit_copy_until_correct.

Example fit_copy_until_correct_ex : fit_copy_until false 20 [5;6;7;8] 0 4 (Cont [9;1;2;3;9] 1 3) Nat.even = Ok (Cont [9;5;2;3;9] 1 1).
Proof. repeat split; vm_compute; reflexivity. Qed.

(** copy_backward: the window is at the end of the container. *)
Theorem fit_copy_backward_correct : forall (A : Type) (ra : bool) (d : nat) (xs : list A) (first last : nat) (c : cont A),
  wf c -> valid xs first last -> last - first < d ->
  exists r, fit_copy_backward ra d xs first last c = Ok r /\ fitted_back c (slice xs first last) r.
Proof. exact @fit_copy_backward_correct_lemma. Qed.
Print Assumptions fit_copy_backward_correct.

Example fit_copy_backward_correct_ex : fit_copy_backward false 5 [4;5] 0 2 (Cont [9;1;2;3;9] 1 3) = Ok (Cont [9;1;4;5;9] 2 2) /\
  fit_copy_backward true 5 [4;5;6;7] 0 4 (Cont [9;1;2;3;9] 1 3) = Ok (Cont [9;5;6;7;9] 1 3).
Proof. repeat split; vm_compute; reflexivity. Qed.

(** remove_copy_if. *)
Theorem fit_remove_copy_if_correct : forall (A : Type) (ra : bool) (d : nat) (xs : list A) (first last : nat) (c : cont A) (p : A -> bool),
  wf c -> valid xs first last -> last - first < d -> depth_bound (last - first) <= d ->
  exists r, fit_remove_copy_if ra d xs first last c p = Ok r /\
    fitted c (filter (fun x => negb (p x)) (slice xs first last)) (filter (fun x => negb (p x)) (slice xs first last)) r.
Proof. exact @fit_remove_copy_if_correct_lemma. Qed.
Print Assumptions fit_remove_copy_if_correct.

Example fit_remove_copy_if_correct_ex : fit_remove_copy_if true 20 [4;5;6;8] 0 4 (Cont [9;1;2;3;9] 1 3) Nat.even = Ok (Cont [9;5;2;3;9] 1 1).
Proof. repeat split; vm_compute; reflexivity. Qed.

(** remove_if: the window holds exactly the elements that stay. *)
Theorem fit_remove_if_correct : forall (A : Type) (ra : bool) (d : nat) (c : cont A) (p : A -> bool),
  wf c -> csize c < d -> depth_bound (csize c) <= d ->
  exists r, fit_remove_if ra d c p = Ok r /\
    fitted c (filter (fun x => negb (p x)) (elems c)) (filter (fun x => negb (p x)) (elems c)) r /\
    elems r = filter (fun x => negb (p x)) (elems c).
Proof. exact @fit_remove_if_correct_lemma. Qed.
Print Assumptions fit_remove_if_correct.

Example fit_remove_if_correct_ex : fit_remove_if true 20 (Cont [9;1;2;3;9] 1 3) Nat.even = Ok (Cont [9;1;3;3;9] 1 2).
Proof. repeat split; vm_compute; reflexivity. Qed.

(** ** C236 *)
(** merge. *)
Theorem fit_merge_correct : forall (A : Type) (comp : A -> A -> bool), strict_weak_order comp ->
  forall (xs ys : list A) (first1 last1 first2 last2 d : nat) (c : cont A),
  wf c -> valid xs first1 last1 -> valid ys first2 last2 ->
  sorted_range comp xs first1 last1 -> sorted_range comp ys first2 last2 ->
  last1 - first1 + (last2 - first2) < d ->
  exists out r, merge_of comp (slice xs first1 last1) (slice ys first2 last2) out /\
    fit_merge comp d xs first1 last1 ys first2 last2 c = Ok r /\ fitted c out out r.
Proof. exact @fit_merge_correct_s. Qed.
Print Assumptions fit_merge_correct.

Example fit_merge_correct_ex : fit_merge Nat.ltb 20 [1;5] 0 2 [2] 0 1 (Cont [9;1;2;3;0;9] 1 4) = Ok (Cont [9;1;2;5;0;9] 1 3).
Proof. repeat split; vm_compute; reflexivity. Qed.

(** set_union. *)
Theorem fit_set_union_correct : forall (A : Type) (comp : A -> A -> bool), strict_weak_order comp ->
  forall (xs ys : list A) (first1 last1 first2 last2 d : nat) (c : cont A),
  wf c -> valid xs first1 last1 -> valid ys first2 last2 ->
  sorted_range comp xs first1 last1 -> sorted_range comp ys first2 last2 ->
  last1 - first1 + (last2 - first2) < d -> depth_bound (last1 - first1 + (last2 - first2)) <= d ->
  exists out r, union_of comp (slice xs first1 last1) (slice ys first2 last2) out /\
    fit_set_union comp d xs first1 last1 ys first2 last2 c = Ok r /\ fitted c out out r.
Proof. exact @fit_set_union_correct_s. Qed.
Print Assumptions fit_set_union_correct.

Example fit_set_union_correct_ex : fit_set_union Nat.ltb 20 [1;5] 0 2 [1;6] 0 2 (Cont [9;1;2;3;0;9] 1 4) = Ok (Cont [9;1;5;6;0;9] 1 3).
Proof. repeat split; vm_compute; reflexivity. Qed.

(** set_intersection. *)
Theorem fit_set_intersection_correct : forall (A : Type) (comp : A -> A -> bool), strict_weak_order comp ->
  forall (xs ys : list A) (first1 last1 first2 last2 d : nat) (c : cont A),
  wf c -> valid xs first1 last1 -> valid ys first2 last2 ->
  sorted_range comp xs first1 last1 -> sorted_range comp ys first2 last2 ->
  last1 - first1 + (last2 - first2) < d -> depth_bound (last1 - first1 + (last2 - first2)) <= d ->
  exists out r, intersection_of comp (slice xs first1 last1) (slice ys first2 last2) out /\
    fit_set_intersection comp d xs first1 last1 ys first2 last2 c = Ok r /\ fitted c out out r.
Proof. exact @fit_set_intersection_correct_s. Qed.
Print Assumptions fit_set_intersection_correct.

Example fit_set_intersection_correct_ex : fit_set_intersection Nat.ltb 20 [4;4;5] 0 3 [4;5;6] 0 3 (Cont [9;1;2;3;9] 1 3) = Ok (Cont [9;4;5;3;9] 1 2).
Proof. repeat split; vm_compute; reflexivity. Qed.

(** set_difference. *)
Theorem fit_set_difference_correct : forall (A : Type) (comp : A -> A -> bool), strict_weak_order comp ->
  forall (xs ys : list A) (first1 last1 first2 last2 d : nat) (c : cont A),
  wf c -> valid xs first1 last1 -> valid ys first2 last2 ->
  sorted_range comp xs first1 last1 -> sorted_range comp ys first2 last2 ->
  last1 - first1 + (last2 - first2) < d -> depth_bound (last1 - first1 + (last2 - first2)) <= d ->
  exists out r, difference_of comp (slice xs first1 last1) (slice ys first2 last2) out /\
    fit_set_difference comp d xs first1 last1 ys first2 last2 c = Ok r /\ fitted c out out r.
Proof. exact @fit_set_difference_correct_s. Qed.
Print Assumptions fit_set_difference_correct.

Example fit_set_difference_correct_ex : fit_set_difference Nat.ltb 20 [4;4;5] 0 3 [4;5;6] 0 3 (Cont [9;1;2;3;9] 1 3) = Ok (Cont [9;4;2;3;9] 1 1).
Proof. repeat split; vm_compute; reflexivity. Qed.

(** set_symmetric_difference. *)
Theorem fit_set_symmetric_difference_correct : forall (A : Type) (comp : A -> A -> bool), strict_weak_order comp ->
  forall (xs ys : list A) (first1 last1 first2 last2 d : nat) (c : cont A),
  wf c -> valid xs first1 last1 -> valid ys first2 last2 ->
  sorted_range comp xs first1 last1 -> sorted_range comp ys first2 last2 ->
  last1 - first1 + (last2 - first2) < d -> depth_bound (last1 - first1 + (last2 - first2)) <= d ->
  exists out r, symmetric_difference_of comp (slice xs first1 last1) (slice ys first2 last2) out /\
    fit_set_symmetric_difference comp d xs first1 last1 ys first2 last2 c = Ok r /\ fitted c out out r.
Proof. exact @fit_set_symmetric_difference_correct_s. Qed.
Print Assumptions fit_set_symmetric_difference_correct.

Example fit_set_symmetric_difference_correct_ex : fit_set_symmetric_difference Nat.ltb 20 [4;4;5] 0 3 [4;5;6] 0 3 (Cont [9;1;2;3;9] 1 3) = Ok (Cont [9;4;6;3;9] 1 2).
Proof. repeat split; vm_compute; reflexivity. Qed.

(** ** C237 *)
(** stable_partition_copy: the window holds the elements that satisfy the predicate, in order. *)
Theorem fit_stable_partition_copy_correct : forall (A : Type) (ra : bool) (d : nat) (xs : list A) (first last : nat) (c : cont A) (p : A -> bool),
  wf c -> valid xs first last -> last - first < d -> depth_bound (last - first) <= d ->
  exists r, fit_stable_partition_copy ra d xs first last c p = Ok r /\
    fitted c (filter p (slice xs first last) ++ filter (fun x => negb (p x)) (slice xs first last))
      (filter p (slice xs first last)) r.
Proof. exact @fit_stable_partition_copy_correct_lemma. Qed.
Print Assumptions fit_stable_partition_copy_correct.

Example fit_stable_partition_copy_correct_ex : fit_stable_partition_copy true 20 [2;5;4;6] 0 4 (Cont [0;0;0;0] 0 4) Nat.even = Ok (Cont [2;4;6;5] 0 3).
Proof. repeat split; vm_compute; reflexivity. Qed.

(** partition_copy: the elements that satisfy the predicate, of as many as fit in the container. *)
Theorem fit_partition_copy_correct : forall (A : Type) (d : nat) (xs : list A) (first last : nat) (c : cont A) (p : A -> bool),
  wf c -> valid xs first last -> last - first < d ->
  exists r ts fs, fit_partition_copy d xs first last c p = Ok r /\
    Permutation (firstn (csize c) (slice xs first last)) (ts ++ fs) /\
    Forall (fun x => p x = true) ts /\ Forall (fun x => p x = false) fs /\
    fitted c (ts ++ fs) ts r /\ elems r = ts.
Proof. exact @fit_partition_copy_correct_lemma. Qed.
Print Assumptions fit_partition_copy_correct.

Example fit_partition_copy_correct_ex : fit_partition_copy 20 [2;5;4;6] 0 4 (Cont [9;0;0;0;9] 1 3) Nat.even = Ok (Cont [9;4;2;5;9] 1 2).
Proof. vm_compute; reflexivity. Qed.

(** partition: the window is as long as there are elements that do not satisfy the predicate; right only if as many do. *)
Theorem fit_partition_partial : forall (A : Type) (ra : bool) (d : nat) (c : cont A) (p : A -> bool),
  wf c -> csize c < d -> depth_bound (csize c) <= d ->
  exists r ts fs, fit_partition ra d c p = Ok r /\ Permutation (elems c) (ts ++ fs) /\
    Forall (fun x => p x = true) ts /\ Forall (fun x => p x = false) fs /\
    wf r /\ cbase r = cbase (with_front c (ts ++ fs)) /\ coff r = coff c /\
    elems r = firstn (length fs) (ts ++ fs) /\
    (length ts = length fs -> elems r = ts).
Proof. exact @fit_partition_partial_lemma. Qed.
Print Assumptions fit_partition_partial.

Example fit_partition_partial_ex : fit_partition true 20 (Cont [2;5;4;7] 0 4) Nat.even = Ok (Cont [4;2;5;7] 0 2).
Proof. repeat split; vm_compute; reflexivity. Qed.

(** stable_partition: likewise. *)
Theorem fit_stable_partition_partial : forall (A : Type) (ra : bool) (d : nat) (c : cont A) (p : A -> bool),
  wf c -> csize c < d -> depth_bound (csize c) <= d ->
  let ts := filter p (elems c) in
  let fs := filter (fun x => negb (p x)) (elems c) in
  exists r, fit_stable_partition ra d c p = Ok r /\
    wf r /\ cbase r = cbase (with_front c (ts ++ fs)) /\ coff r = coff c /\
    elems r = firstn (length fs) (ts ++ fs) /\
    (length ts = length fs -> elems r = ts).
Proof. exact @fit_stable_partition_partial_lemma. Qed.
Print Assumptions fit_stable_partition_partial.

Example fit_stable_partition_partial_ex : fit_stable_partition true 20 (Cont [2;5;4;7] 0 4) Nat.even = Ok (Cont [2;4;5;7] 0 2).
Proof. repeat split; vm_compute; reflexivity. Qed.

(** partition: the window misses an element that satisfies the predicate, or holds one that does not. *)
Theorem fit_partition_refuted :
  (exists c r x, wf c /\ fit_partition true 20 c Nat.even = Ok r /\ In x (elems c) /\ Nat.even x = true /\ ~ In x (elems r)) /\
  (exists c r x, wf c /\ fit_partition true 20 c Nat.even = Ok r /\ In x (elems r) /\ Nat.even x = false).
Proof. exact fit_partition_refuted_lemma. Qed.
Print Assumptions fit_partition_refuted.

(** stable_partition: the window misses an element that satisfies the predicate, or holds one that does not. *)
Theorem fit_stable_partition_refuted :
  (exists c r x, wf c /\ fit_stable_partition true 20 c Nat.even = Ok r /\ In x (elems c) /\ Nat.even x = true /\ ~ In x (elems r)) /\
  (exists c r x, wf c /\ fit_stable_partition true 20 c Nat.even = Ok r /\ In x (elems r) /\ Nat.even x = false).
Proof. exact fit_stable_partition_refuted_lemma. Qed.
Print Assumptions fit_stable_partition_refuted.

(** ** C238 *)
(** unique: the window holds the first element of each group of equal neighbours. *)
Theorem fit_unique_correct : forall (A : Type) (pred : A -> A -> bool) (ra : bool) (d : nat) (c : cont A),
  groups pred -> wf c -> csize c < d -> depth_bound (csize c) <= d ->
  exists r, fit_unique pred ra d c = Ok r /\
    fitted c (keep_distinct pred (elems c)) (keep_distinct pred (elems c)) r /\
    elems r = keep_distinct pred (elems c).
Proof. exact @fit_unique_correct_lemma. Qed.
Print Assumptions fit_unique_correct.

Example fit_unique_correct_ex : fit_unique Nat.eqb true 20 (Cont [9;4;4;5;4;4;9] 1 5) = Ok (Cont [9;4;5;4;4;4;9] 1 3) /\
  fit_unique Nat.eqb false 20 (Cont [9;4;4;5;4;4;9] 1 5) = Ok (Cont [9;4;5;4;4;4;9] 1 3) /\ groups Nat.eqb.
Proof.
  split; [vm_compute; reflexivity|]. split; [vm_compute; reflexivity|].
  split; intros *; rewrite !Nat.eqb_eq; congruence.
Qed.

(** unique_copy: likewise, unless the container is empty and the range is not. *)
Theorem fit_unique_copy_partial : forall (A : Type) (pred : A -> A -> bool) (ra : bool) (d : nat) (xs : list A) (first last : nat) (c : cont A),
  groups pred -> wf c -> valid xs first last ->
  last - first < d -> depth_bound (last - first) <= d -> 0 < csize c \/ first = last ->
  exists r, fit_unique_copy pred ra d xs first last c = Ok r /\
    fitted c (keep_distinct pred (slice xs first last)) (keep_distinct pred (slice xs first last)) r.
Proof. exact @fit_unique_copy_partial_lemma. Qed.
Print Assumptions fit_unique_copy_partial.

Example fit_unique_copy_partial_ex : fit_unique_copy Nat.eqb true 20 [4;4;5;5;5] 0 5 (Cont [9;1;2;3;9] 1 3) = Ok (Cont [9;4;5;3;9] 1 2).
Proof. vm_compute; reflexivity. Qed.

(** ** C239 *)
(** fill_n: the window holds the filled elements of the container, however great n is; nothing outside of the n
    elements is changed. *)
Theorem fit_fill_n_partial : forall (A : Type) (c : cont A) (n : nat) (x : A), wf c ->
  exists r, fit_fill_n c n x = Ok r /\ wf r /\ coff r = coff c /\ elems r = repeat x (Nat.min n (csize c)) /\
    length (cbase r) = length (cbase c) /\
    forall i, ~ (coff c <= i < coff c + n) -> nth_error (cbase r) i = nth_error (cbase c) i.
Proof. exact @fit_fill_n_partial_lemma. Qed.
Print Assumptions fit_fill_n_partial.

Example fit_fill_n_partial_ex : fit_fill_n (Cont [9;1;2;3;9] 1 3) 2 7 = Ok (Cont [9;7;7;3;9] 1 2).
Proof. vm_compute; reflexivity. Qed.

(** fill_n: with n greater than the size, elements behind the container are filled. *)
Theorem fit_fill_n_refuted : exists (c r : cont nat) n x i,
  wf c /\ fit_fill_n c n x = Ok r /\ coff c + csize c <= i /\ nth_error (cbase r) i <> nth_error (cbase c) i.
Proof. exact fit_fill_n_refuted_lemma. Qed.
Print Assumptions fit_fill_n_refuted.
