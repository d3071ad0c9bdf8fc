(** Theorems of the algorithms that return fixed containers. *)
From Coq Require Import List Arith Permutation.
From Verif Require Import Base SearchSpec OrderSpec MutSpec NumSpec SetSpec SortSpec.
From Verif Require Import FixModel FixSpec FixProof FixProof2 FixProof3 FixProof4 FixProof5 FixProof6.
Import ListNotations.

Theorem fx_copy_correct :
  forall (A : Type) (ra : bool) (d : nat) (xs : list A) (first last : nat) (c : cont A),
  wf c ->
  valid xs first last ->
  last - first < d -> fx_copy ra d xs first last c = Ok (with_front c (slice xs first last)).
Proof. exact @fx_copy_correct_lemma. Qed.
Print Assumptions fx_copy_correct.

Example fx_copy_example : fx_copy false 5 [4;5] 0 2 (Cont [9;1;2;3;9] 1 3) =
  Ok (Cont [9;4;5;3;9] 1 3) /\
  fx_copy true 0 [4;5;6;7] 0 4 (Cont [9;1;2;3;9] 1 3) =
  Ok (Cont [9;4;5;6;9] 1 3).
Proof. split; vm_compute; reflexivity. Qed.

Theorem fx_copy_n_correct :
  forall (A : Type) (ra : bool) (d : nat) (xs : list A) (first n : nat) (c : cont A),
  wf c ->
  first + n <= length xs ->
  n < d -> fx_copy_n ra d xs first n c = Ok (with_front c (slice xs first (first + n))).
Proof. exact @fx_copy_n_correct_lemma. Qed.
Print Assumptions fx_copy_n_correct.

Example fx_copy_n_example : fx_copy_n false 5 [4;5;6] 1 2 (Cont [9;1;2;3;9] 1 3) =
  Ok (Cont [9;5;6;3;9] 1 3).
Proof. vm_compute; reflexivity. Qed.

Theorem fx_copy_if_correct :
  forall (A : Type) (d : nat) (xs : list A) (first last : nat) (c : cont A) (p : A -> bool),
  wf c ->
  valid xs first last ->
  last - first < d ->
  fx_copy_if d xs first last c p = Ok (with_front c (filter p (slice xs first last))).
Proof. exact @fx_copy_if_correct_lemma. Qed.
Print Assumptions fx_copy_if_correct.

Example fx_copy_if_example : fx_copy_if 5 [4;5;6;7] 0 4 (Cont [9;1;2;3;9] 1 3) Nat.even =
  Ok (Cont [9;4;6;3;9]
  1 3).
Proof. vm_compute; reflexivity. Qed.

Theorem fx_copy_while_correct :
  forall (A : Type) (ra : bool) (d : nat) (xs : list A) (first last : nat) (c : cont A) (p : A -> bool),
  wf c ->
  valid xs first last ->
  last - first < d ->
  depth_bound (last - first) <= d ->
  fx_copy_while ra d xs first last c p = Ok (with_front c (prefix_while p (slice xs first last))).
Proof. exact @fx_copy_while_correct_lemma. Qed.
Print Assumptions fx_copy_while_correct.

Example fx_copy_while_example : fx_copy_while false 5 [4;6;7;8] 0 4 (Cont [9;1;2;3;9] 1 3) Nat.even =
  Ok (Cont
  [9;4;6;3;9] 1 3).
Proof. vm_compute; reflexivity. Qed.

Theorem fx_copy_until_correct :
  forall (A : Type) (ra : bool) (d : nat) (xs : list A) (first last : nat) (c : cont A) (p : A -> bool),
  wf c ->
  valid xs first last ->
  last - first < d ->
  depth_bound (last - first) <= d ->
  fx_copy_until ra d xs first last c p =
  Ok (with_front c (prefix_while (fun x : A => negb (p x)) (slice xs first last))).
Proof. exact @fx_copy_until_correct_lemma. Qed.
Print Assumptions fx_copy_until_correct.

Example fx_copy_until_example : fx_copy_until true 5 [5;7;8;9] 0 4 (Cont [9;1;2;3;9] 1 3) Nat.even =
  Ok (Cont
  [9;5;7;3;9] 1 3).
Proof. vm_compute; reflexivity. Qed.

Theorem fx_copy_backward_correct :
  forall (A : Type) (ra : bool) (d : nat) (xs : list A) (first last : nat) (c : cont A),
  wf c ->
  valid xs first last ->
  last - first < d -> fx_copy_backward ra d xs first last c = Ok (with_back c (slice xs first last)).
Proof. exact @fx_copy_backward_correct_lemma. Qed.
Print Assumptions fx_copy_backward_correct.

Example fx_copy_backward_example : fx_copy_backward false 5 [4;5] 0 2 (Cont [9;1;2;3;9] 1 3) =
  Ok (Cont
  [9;1;4;5;9] 1 3).
Proof. vm_compute; reflexivity. Qed.

Theorem fx_fill_n_correct :
  forall (A : Type) (c : cont A) (n : nat) (x : A),
  wf c -> n <= csize c -> fx_fill_n c n x = Ok (with_front c (repeat x n)).
Proof. exact @fx_fill_n_correct_lemma. Qed.
Print Assumptions fx_fill_n_correct.

Example fx_fill_n_example : fx_fill_n (Cont [9;1;2;3;9] 1 3) 2 7 = Ok (Cont [9;7;7;3;9] 1 3).
Proof. vm_compute; reflexivity. Qed.

Theorem fx_fill_correct :
  forall (A : Type) (c : cont A) (x : A), wf c -> fx_fill c x = Ok (with_front c (repeat x (csize c))).
Proof. exact @fx_fill_correct_lemma. Qed.
Print Assumptions fx_fill_correct.

Example fx_fill_example : fx_fill (Cont [9;1;2;3;9] 1 3) 7 = Ok (Cont [9;7;7;7;9] 1 3).
Proof. vm_compute; reflexivity. Qed.

Theorem fx_iota_correct :
  forall (c : cont nat) (v : nat), wf c -> fx_iota c v = Ok (with_front c (counting S v (csize c))).
Proof. exact @fx_iota_correct_lemma. Qed.
Print Assumptions fx_iota_correct.

Example fx_iota_example : fx_iota (Cont [9;1;2;3;9] 1 3) 7 = Ok (Cont [9;7;8;9;9] 1 3).
Proof. vm_compute; reflexivity. Qed.

Theorem fx_generate_n_correct :
  forall (A G : Type) (d : nat) (c : cont A) (n : nat) (gen : G -> A * G) (g : G),
  wf c -> n <= csize c -> n <= d -> fx_generate_n d c n gen g = Ok (with_front c (fst (draws gen n g))).
Proof. exact @fx_generate_n_correct_lemma. Qed.
Print Assumptions fx_generate_n_correct.

Example fx_generate_n_example : fx_generate_n 5 (Cont [9;1;2;3;9] 1 3) 2 (fun g => (g * g, S g)) 2 =
  Ok (Cont
  [9;4;9;3;9] 1 3).
Proof. vm_compute; reflexivity. Qed.

Theorem fx_generate_correct :
  forall (A G : Type) (d : nat) (c : cont A) (gen : G -> A * G) (g : G),
  wf c -> csize c <= d -> fx_generate d c gen g = Ok (with_front c (fst (draws gen (csize c) g))).
Proof. exact @fx_generate_correct_lemma. Qed.
Print Assumptions fx_generate_correct.

Example fx_generate_example : fx_generate 5 (Cont [9;1;2;3;9] 1 3) (fun g => (g * g, S g)) 2 =
  Ok (Cont
  [9;4;9;16;9] 1 3).
Proof. vm_compute; reflexivity. Qed.

Theorem fx_unfold_correct :
  forall (A G : Type) (d : nat) (c : cont A) (gen : G -> A * G) (g : G),
  wf c -> csize c <= d -> fx_unfold d c gen g = Ok (with_front c (fst (draws gen (csize c) g))).
Proof. exact @fx_unfold_correct_lemma. Qed.
Print Assumptions fx_unfold_correct.

Example fx_unfold_example : fx_unfold 5 (Cont [9;1;2;3;9] 1 3) (fun g => (g * g, S g)) 2 =
  Ok (Cont
  [9;4;9;16;9] 1 3).
Proof. vm_compute; reflexivity. Qed.

(** Missing: more initial values than elements, see [fx_recurrence_refuted]. *)
Theorem fx_recurrence_partial :
  forall (A : Type) (d : nat) (c : cont A) (gen : list A -> A) (inits : list A),
  wf c ->
  length inits <= csize c ->
  csize c < d ->
  exists out : list A,
    length out = csize c /\ follows gen inits out /\ fx_recurrence d c gen inits = Ok (with_front c out).
Proof. exact @fx_recurrence_partial_lemma. Qed.
Print Assumptions fx_recurrence_partial.

Example fx_recurrence_example : fx_recurrence 9 (Cont [0;0;0;0;0;0] 0 6) (fun l => list_sum l) [0;1] =
  Ok
  (Cont [0;1;1;2;3;5] 0 6).
Proof. vm_compute; reflexivity. Qed.

(** Missing: an empty container, see [fx_partial_sum_refuted]. *)
Theorem fx_partial_sum_partial :
  forall (A : Type) (op : A -> A -> A) (d : nat) (xs : list A) (first last : nat) (c : cont A),
  wf c ->
  valid xs first last ->
  last - first < d ->
  0 < csize c \/ first = last ->
  fx_partial_sum op d xs first last c = Ok (with_front c (inclusive op (slice xs first last))).
Proof. exact @fx_partial_sum_partial_lemma. Qed.
Print Assumptions fx_partial_sum_partial.

Example fx_partial_sum_example : fx_partial_sum Nat.add 9 [1;2;3;4] 0 4 (Cont [9;1;2;3;9] 1 3) =
  Ok (Cont
  [9;1;3;6;9] 1 3).
Proof. vm_compute; reflexivity. Qed.

Theorem fx_transform_correct :
  forall (A B : Type) (ra : bool) (d : nat) (xs : list B) (first last : nat) (c : cont A) (op : B -> A),
  wf c ->
  valid xs first last ->
  last - first < d ->
  fx_transform ra d xs first last c op = Ok (with_front c (map op (slice xs first last))).
Proof. exact @fx_transform_correct_lemma. Qed.
Print Assumptions fx_transform_correct.

Example fx_transform_example : fx_transform false 5 [4;5] 0 2 (Cont [9;1;2;3;9] 1 3) S =
  Ok (Cont [9;5;6;3;9]
  1 3).
Proof. vm_compute; reflexivity. Qed.

Theorem fx_transform2_correct :
  forall (A B C : Type) (ra : bool) (d : nat) (xs : list B) (first1 last1 : nat)
    (ys : list C) (first2 : nat) (c : cont A) (op : B -> C -> A),
  wf c ->
  valid xs first1 last1 ->
  first2 + (last1 - first1) <= length ys ->
  last1 - first1 < d ->
  fx_transform2 ra d xs first1 last1 ys first2 c op =
  Ok
    (with_front c
       (map (fun p : B * C => op (fst p) (snd p))
          (combine (slice xs first1 last1) (slice ys first2 (first2 + (last1 - first1)))))).
Proof. exact @fx_transform2_correct_lemma. Qed.
Print Assumptions fx_transform2_correct.

Example fx_transform2_example : fx_transform2 true 5 [4;5] 0 2 [1;2;3] 1 (Cont [9;1;2;3;9] 1 3) Nat.add =
  Ok
  (Cont [9;6;8;3;9] 1 3).
Proof. vm_compute; reflexivity. Qed.

Theorem fx_replace_copy_if_correct :
  forall (A : Type) (ra : bool) (d : nat) (xs : list A) (first last : nat) (c : cont A)
    (p : A -> bool) (v : A),
  wf c ->
  valid xs first last ->
  last - first < d ->
  fx_replace_copy_if ra d xs first last c p v =
  Ok (with_front c (map (fun x : A => if p x then v else x) (slice xs first last))).
Proof. exact @fx_replace_copy_if_correct_lemma. Qed.
Print Assumptions fx_replace_copy_if_correct.

Example fx_replace_copy_if_example : fx_replace_copy_if false 5 [4;5;6] 0 3 (Cont [9;1;2;3;9] 1 3) Nat.even 0
  =
  Ok (Cont [9;0;5;0;9] 1 3).
Proof. vm_compute; reflexivity. Qed.

Theorem fx_replace_copy_correct :
  forall (A : Type) (eqb : A -> A -> bool) (ra : bool) (d : nat) (xs : list A)
    (first last : nat) (c : cont A) (old v : A),
  wf c ->
  valid xs first last ->
  last - first < d ->
  fx_replace_copy eqb ra d xs first last c old v =
  Ok (with_front c (map (fun x : A => if eqb x old then v else x) (slice xs first last))).
Proof. exact @fx_replace_copy_correct_lemma. Qed.
Print Assumptions fx_replace_copy_correct.

Example fx_replace_copy_example : fx_replace_copy Nat.eqb true 5 [4;5;4] 0 3 (Cont [9;1;2;3;9] 1 3) 4 0 =
  Ok
  (Cont [9;0;5;0;9] 1 3).
Proof. vm_compute; reflexivity. Qed.

Theorem fx_clamp_range_copy_correct :
  forall (A : Type) (comp : A -> A -> bool) (ra : bool) (d : nat) (xs : list A)
    (first last : nat) (c : cont A) (low high : A),
  wf c ->
  valid xs first last ->
  last - first < d ->
  fx_clamp_range_copy comp ra d xs first last c low high =
  Ok
    (with_front c
       (map (fun x : A => if comp x low then low else if comp high x then high else x)
          (slice xs first last))).
Proof. exact @fx_clamp_range_copy_correct_lemma. Qed.
Print Assumptions fx_clamp_range_copy_correct.

Example fx_clamp_range_copy_example : fx_clamp_range_copy Nat.ltb true 5 [1;5;9] 0 3 (Cont [9;1;2;3;9] 1 3) 3
  7 =
  Ok (Cont [9;3;5;7;9] 1 3).
Proof. vm_compute; reflexivity. Qed.

Theorem fx_remove_copy_if_correct :
  forall (A : Type) (d : nat) (xs : list A) (first last : nat) (c : cont A) (p : A -> bool),
  wf c ->
  valid xs first last ->
  last - first < d ->
  fx_remove_copy_if d xs first last c p =
  Ok (with_front c (filter (fun x : A => negb (p x)) (slice xs first last))).
Proof. exact @fx_remove_copy_if_correct_lemma. Qed.
Print Assumptions fx_remove_copy_if_correct.

Example fx_remove_copy_if_example : fx_remove_copy_if 5 [4;5;6;7] 0 4 (Cont [9;1;2;3;9] 1 3) Nat.even =
  Ok
  (Cont [9;5;7;3;9] 1 3).
Proof. vm_compute; reflexivity. Qed.

Theorem fx_remove_copy_correct :
  forall (A : Type) (eqb : A -> A -> bool) (d : nat) (xs : list A) (first last : nat)
    (c : cont A) (v : A),
  wf c ->
  valid xs first last ->
  last - first < d ->
  fx_remove_copy eqb d xs first last c v =
  Ok (with_front c (filter (fun x : A => negb (eqb x v)) (slice xs first last))).
Proof. exact @fx_remove_copy_correct_lemma. Qed.
Print Assumptions fx_remove_copy_correct.

Example fx_remove_copy_example : fx_remove_copy Nat.eqb 5 [4;5;4;7] 0 4 (Cont [9;1;2;3;9] 1 3) 4 =
  Ok (Cont
  [9;5;7;3;9] 1 3).
Proof. vm_compute; reflexivity. Qed.

Theorem fx_remove_if_correct :
  forall (A : Type) (d : nat) (c : cont A) (p : A -> bool),
  wf c ->
  csize c < d -> fx_remove_if d c p = Ok (with_front c (filter (fun x : A => negb (p x)) (elems c))).
Proof. exact @fx_remove_if_correct_lemma. Qed.
Print Assumptions fx_remove_if_correct.

Example fx_remove_if_example : fx_remove_if 5 (Cont [9;1;2;3;9] 1 3) Nat.odd = Ok (Cont [9;2;2;3;9] 1 3).
Proof. vm_compute; reflexivity. Qed.

Theorem fx_remove_correct :
  forall (A : Type) (eqb : A -> A -> bool) (d : nat) (c : cont A) (v : A),
  wf c ->
  csize c < d ->
  fx_remove eqb d c v = Ok (with_front c (filter (fun x : A => negb (eqb x v)) (elems c))).
Proof. exact @fx_remove_correct_lemma. Qed.
Print Assumptions fx_remove_correct.

Example fx_remove_example : fx_remove Nat.eqb 5 (Cont [9;1;2;3;9] 1 3) 1 = Ok (Cont [9;2;3;3;9] 1 3).
Proof. vm_compute; reflexivity. Qed.

(** Missing: an empty container, see [fx_unique_copy_refuted]. *)
Theorem fx_unique_copy_partial :
  forall (A : Type) (pred : A -> A -> bool) (d : nat) (xs : list A) (first last : nat) (c : cont A),
  wf c ->
  valid xs first last ->
  last - first < d ->
  0 < csize c \/ first = last ->
  fx_unique_copy pred d xs first last c = Ok (with_front c (keep_distinct pred (slice xs first last))).
Proof. exact @fx_unique_copy_partial_lemma. Qed.
Print Assumptions fx_unique_copy_partial.

Example fx_unique_copy_example : fx_unique_copy Nat.eqb 9 [4;4;5;5;4] 0 5 (Cont [9;1;2;3;9] 1 3) =
  Ok (Cont
  [9;4;5;4;9] 1 3).
Proof. vm_compute; reflexivity. Qed.

Theorem fx_unique_correct :
  forall (A : Type) (pred : A -> A -> bool) (d : nat) (c : cont A),
  wf c -> csize c < d -> fx_unique pred d c = Ok (with_front c (keep_distinct pred (elems c))).
Proof. exact @fx_unique_correct_lemma. Qed.
Print Assumptions fx_unique_correct.

Example fx_unique_example : fx_unique Nat.eqb 9 (Cont [9;1;1;2;9] 1 3) = Ok (Cont [9;1;2;2;9] 1 3).
Proof. vm_compute; reflexivity. Qed.

Theorem fx_reverse_copy_correct :
  forall (A : Type) (ra : bool) (d : nat) (xs : list A) (first last : nat) (c : cont A),
  wf c ->
  valid xs first last ->
  last - first < d ->
  fx_reverse_copy ra d xs first last c = Ok (with_front c (rev (slice xs first last))).
Proof. exact @fx_reverse_copy_correct_lemma. Qed.
Print Assumptions fx_reverse_copy_correct.

Example fx_reverse_copy_example : fx_reverse_copy false 5 [4;5] 0 2 (Cont [9;1;2;3;9] 1 3) =
  Ok (Cont
  [9;5;4;3;9] 1 3).
Proof. vm_compute; reflexivity. Qed.

Theorem fx_reverse_correct :
  forall (A : Type) (d : nat) (c : cont A),
  wf c -> csize c < d -> fx_reverse d c = Ok (with_front c (rev (elems c))).
Proof. exact @fx_reverse_correct_lemma. Qed.
Print Assumptions fx_reverse_correct.

Example fx_reverse_example : fx_reverse 5 (Cont [9;1;2;3;9] 1 3) = Ok (Cont [9;3;2;1;9] 1 3).
Proof. vm_compute; reflexivity. Qed.

Theorem fx_rotate_copy_correct :
  forall (A : Type) (ra : bool) (d : nat) (xs : list A) (first middle last : nat) (c : cont A),
  wf c ->
  valid xs first last ->
  first <= middle <= last ->
  last - first < d ->
  fx_rotate_copy ra d xs first middle last c =
  Ok (with_front c (slice xs middle last ++ slice xs first middle)).
Proof. exact @fx_rotate_copy_correct_lemma. Qed.
Print Assumptions fx_rotate_copy_correct.

Example fx_rotate_copy_example : fx_rotate_copy false 5 [4;5;6] 0 1 3 (Cont [9;1;2;3;9] 1 3) =
  Ok (Cont
  [9;5;6;4;9] 1 3).
Proof. vm_compute; reflexivity. Qed.

Theorem fx_rotate_correct :
  forall (A : Type) (d : nat) (c : cont A) (middle : nat),
  wf c ->
  coff c <= middle <= coff c + csize c ->
  csize c < d ->
  fx_rotate d c middle =
  Ok (with_front c (slice (cbase c) middle (coff c + csize c) ++ slice (cbase c) (coff c) middle)).
Proof. exact @fx_rotate_correct_lemma. Qed.
Print Assumptions fx_rotate_correct.

Example fx_rotate_example : fx_rotate 5 (Cont [9;1;2;3;9] 1 3) 3 = Ok (Cont [9;3;1;2;9] 1 3).
Proof. vm_compute; reflexivity. Qed.

Theorem fx_swap_element_copy_correct :
  forall (A : Type) (ra : bool) (d : nat) (xs : list A) (first last : nat) (c : cont A)
    (pos1 pos2 : nat),
  wf c ->
  valid xs first last ->
  first <= pos1 < last ->
  first <= pos2 < last ->
  last - first < d \/ ra = true ->
  exists out : list A,
    exchanged (slice xs first last) (pos1 - first) (pos2 - first) out /\
    fx_swap_element_copy ra d xs first last c pos1 pos2 = Ok (with_front c out).
Proof. exact @fx_swap_element_copy_correct_lemma. Qed.
Print Assumptions fx_swap_element_copy_correct.

Example fx_swap_element_copy_example : fx_swap_element_copy false 5 [4;5;6] 0 3 (Cont [9;1;2;3;9] 1 3) 0 2 =
  Ok (Cont [9;6;5;4;9] 1 3).
Proof. vm_compute; reflexivity. Qed.

Theorem fx_swap_element_correct :
  forall (A : Type) (c : cont A) (pos1 pos2 : nat),
  wf c ->
  coff c <= pos1 < coff c + csize c ->
  coff c <= pos2 < coff c + csize c ->
  exists out : list A,
    exchanged (elems c) (pos1 - coff c) (pos2 - coff c) out /\
    fx_swap_element c pos1 pos2 = Ok (with_front c out).
Proof. exact @fx_swap_element_correct_lemma. Qed.
Print Assumptions fx_swap_element_correct.

Example fx_swap_element_example : fx_swap_element (Cont [9;1;2;3;9] 1 3) 1 3 = Ok (Cont [9;3;2;1;9] 1 3).
Proof. vm_compute; reflexivity. Qed.

Theorem fx_partition_copy_correct :
  forall (A : Type) (d : nat) (xs : list A) (first last : nat) (c : cont A) (p : A -> bool),
  wf c ->
  valid xs first last ->
  last - first < d ->
  exists ts fs : list A,
    Permutation (firstn (csize c) (slice xs first last)) (ts ++ fs) /\
    Forall (fun x : A => p x = true) ts /\
    Forall (fun x : A => p x = false) fs /\
    fx_partition_copy d xs first last c p nil = Ok (with_front c (ts ++ fs)).
Proof. exact @fx_partition_copy_correct_lemma. Qed.
Print Assumptions fx_partition_copy_correct.

Example fx_partition_copy_example : fx_partition_copy 5 [4;5;6] 0 3 (Cont [9;1;2;3;9] 1 3) Nat.odd [] =
  Ok
  (Cont [9;5;4;6;9] 1 3).
Proof. vm_compute; reflexivity. Qed.

Theorem fx_partition_correct :
  forall (A : Type) (d : nat) (c : cont A) (p : A -> bool),
  wf c ->
  csize c < d ->
  exists ts fs : list A,
    Permutation (elems c) (ts ++ fs) /\
    Forall (fun x : A => p x = true) ts /\
    Forall (fun x : A => p x = false) fs /\ fx_partition d c p = Ok (with_front c (ts ++ fs)).
Proof. exact @fx_partition_correct_lemma. Qed.
Print Assumptions fx_partition_correct.

Example fx_partition_example : fx_partition 5 (Cont [9;1;2;3;9] 1 3) Nat.even =
  Ok (Cont [9;2;1;3;9] 1 3).
Proof. vm_compute; reflexivity. Qed.

Theorem fx_stable_partition_copy_correct :
  forall (A : Type) (d : nat) (xs : list A) (first last : nat) (c : cont A) (p : A -> bool),
  wf c ->
  valid xs first last ->
  last - first < d ->
  fx_stable_partition_copy d xs first last c p =
  Ok
    (with_front c
       (filter p (slice xs first last) ++ filter (fun x : A => negb (p x)) (slice xs first last))).
Proof. exact @fx_stable_partition_copy_correct_lemma. Qed.
Print Assumptions fx_stable_partition_copy_correct.

Example fx_stable_partition_copy_example : fx_stable_partition_copy 5 [4;5;6] 0 3 (Cont [9;1;2;3;9] 1 3)
  Nat.odd =
  Ok (Cont [9;5;4;6;9] 1 3).
Proof. vm_compute; reflexivity. Qed.

Theorem fx_stable_partition_correct :
  forall (A : Type) (d : nat) (c : cont A) (p : A -> bool),
  wf c ->
  csize c < d ->
  fx_stable_partition d c p =
  Ok (with_front c (filter p (elems c) ++ filter (fun x : A => negb (p x)) (elems c))).
Proof. exact @fx_stable_partition_correct_lemma. Qed.
Print Assumptions fx_stable_partition_correct.

Example fx_stable_partition_example : fx_stable_partition 5 (Cont [9;1;2;3;9] 1 3) Nat.even =
  Ok (Cont
  [9;2;1;3;9] 1 3).
Proof. vm_compute; reflexivity. Qed.

Theorem fx_merge_correct :
  forall (A : Type) (comp : A -> A -> bool),
  strict_weak_order comp ->
  forall (xs ys : list A) (first1 last1 first2 last2 d : nat) (c : cont A),
  wf c ->
  valid xs first1 last1 ->
  valid ys first2 last2 ->
  sorted_range comp xs first1 last1 ->
  sorted_range comp ys first2 last2 ->
  last1 - first1 + (last2 - first2) < d ->
  exists out : list A,
    merge_of comp (slice xs first1 last1) (slice ys first2 last2) out /\
    fx_merge comp d xs first1 last1 ys first2 last2 c = Ok (with_front c out).
Proof. exact @fx_merge_correct_s. Qed.
Print Assumptions fx_merge_correct.

Example fx_merge_example : fx_merge Nat.ltb 9 [1;5] 0 2 [2;6] 0 2 (Cont [9;1;2;3;9] 1 3) =
  Ok (Cont
  [9;1;2;5;9] 1 3).
Proof. vm_compute; reflexivity. Qed.

Theorem fx_set_union_correct :
  forall (A : Type) (comp : A -> A -> bool),
  strict_weak_order comp ->
  forall (xs ys : list A) (first1 last1 first2 last2 d : nat) (c : cont A),
  wf c ->
  valid xs first1 last1 ->
  valid ys first2 last2 ->
  sorted_range comp xs first1 last1 ->
  sorted_range comp ys first2 last2 ->
  last1 - first1 + (last2 - first2) < d ->
  exists out : list A,
    union_of comp (slice xs first1 last1) (slice ys first2 last2) out /\
    fx_set_union comp d xs first1 last1 ys first2 last2 c = Ok (with_front c out).
Proof. exact @fx_set_union_correct_s. Qed.
Print Assumptions fx_set_union_correct.

Example fx_set_union_example : fx_set_union Nat.ltb 9 [1;5] 0 2 [1;6] 0 2 (Cont [9;1;2;3;9] 1 3) =
  Ok (Cont
  [9;1;5;6;9] 1 3).
Proof. vm_compute; reflexivity. Qed.

Theorem fx_set_intersection_correct :
  forall (A : Type) (comp : A -> A -> bool),
  strict_weak_order comp ->
  forall (xs ys : list A) (first1 last1 first2 last2 d : nat) (c : cont A),
  wf c ->
  valid xs first1 last1 ->
  valid ys first2 last2 ->
  sorted_range comp xs first1 last1 ->
  sorted_range comp ys first2 last2 ->
  last1 - first1 + (last2 - first2) < d ->
  exists out : list A,
    intersection_of comp (slice xs first1 last1) (slice ys first2 last2) out /\
    fx_set_intersection comp d xs first1 last1 ys first2 last2 c = Ok (with_front c out).
Proof. exact @fx_set_intersection_correct_s. Qed.
Print Assumptions fx_set_intersection_correct.

Example fx_set_intersection_example : fx_set_intersection Nat.ltb 9 [4;5] 0 2 [4;6] 0 2 (Cont [9;1;2;3;9] 1 3)
  =
  Ok (Cont [9;4;2;3;9] 1 3).
Proof. vm_compute; reflexivity. Qed.

Theorem fx_set_difference_correct :
  forall (A : Type) (comp : A -> A -> bool),
  strict_weak_order comp ->
  forall (xs ys : list A) (first1 last1 first2 last2 d : nat) (c : cont A),
  wf c ->
  valid xs first1 last1 ->
  valid ys first2 last2 ->
  sorted_range comp xs first1 last1 ->
  sorted_range comp ys first2 last2 ->
  last1 - first1 + (last2 - first2) < d ->
  exists out : list A,
    difference_of comp (slice xs first1 last1) (slice ys first2 last2) out /\
    fx_set_difference comp d xs first1 last1 ys first2 last2 c = Ok (with_front c out).
Proof. exact @fx_set_difference_correct_s. Qed.
Print Assumptions fx_set_difference_correct.

Example fx_set_difference_example : fx_set_difference Nat.ltb 9 [4;5] 0 2 [4;6] 0 2 (Cont [9;1;2;3;9] 1 3) =
  Ok (Cont [9;5;2;3;9] 1 3).
Proof. vm_compute; reflexivity. Qed.

Theorem fx_set_symmetric_difference_correct :
  forall (A : Type) (comp : A -> A -> bool),
  strict_weak_order comp ->
  forall (xs ys : list A) (first1 last1 first2 last2 d : nat) (c : cont A),
  wf c ->
  valid xs first1 last1 ->
  valid ys first2 last2 ->
  sorted_range comp xs first1 last1 ->
  sorted_range comp ys first2 last2 ->
  last1 - first1 + (last2 - first2) < d ->
  exists out : list A,
    symmetric_difference_of comp (slice xs first1 last1) (slice ys first2 last2) out /\
    fx_set_symmetric_difference comp d xs first1 last1 ys first2 last2 c = Ok (with_front c out).
Proof. exact @fx_set_symmetric_difference_correct_s. Qed.
Print Assumptions fx_set_symmetric_difference_correct.

Example fx_set_symmetric_difference_example : fx_set_symmetric_difference Nat.ltb 9 [4;5] 0 2 [4;6] 0 2 (Cont
  [9;1;2;3;9] 1 3) =
  Ok (Cont [9;5;6;3;9] 1 3).
Proof. vm_compute; reflexivity. Qed.

Theorem fx_inplace_merge_correct :
  forall (A : Type) (comp : A -> A -> bool) (d : nat) (c : cont A) (middle : nat),
  strict_weak_order comp ->
  wf c ->
  coff c <= middle <= coff c + csize c ->
  sorted_range comp (cbase c) (coff c) middle ->
  sorted_range comp (cbase c) middle (coff c + csize c) ->
  csize c < d ->
  exists out : list A,
    merge_of comp (slice (cbase c) (coff c) middle) (slice (cbase c) middle (coff c + csize c)) out /\
    fx_inplace_merge comp d c middle = Ok (with_front c out).
Proof. exact @fx_inplace_merge_correct_lemma. Qed.
Print Assumptions fx_inplace_merge_correct.

Example fx_inplace_merge_example : fx_inplace_merge Nat.ltb 9 (Cont [9;2;4;1;9] 1 3) 3 =
  Ok (Cont [9;1;2;4;9]
  1 3).
Proof. vm_compute; reflexivity. Qed.

Theorem fx_push_heap_correct :
  forall (A : Type) (comp : A -> A -> bool),
  strict_weak_order comp ->
  forall (d : nat) (c : cont A),
  wf c ->
  0 < csize c ->
  csize c <= d ->
  heap comp (cbase c) (coff c) (coff c + csize c - 1) ->
  exists c' : cont A,
    fx_push_heap comp d c = Ok c' /\
    reordered c c' /\ heap comp (cbase c') (coff c') (coff c' + csize c').
Proof. exact @fx_push_heap_correct_lemma. Qed.
Print Assumptions fx_push_heap_correct.

Example fx_push_heap_example : fx_push_heap Nat.ltb 9 (Cont [9;5;3;4;1;9] 1 5) =
  Ok (Cont [9;9;5;4;1;3] 1 5).
Proof. vm_compute; reflexivity. Qed.

Theorem fx_pop_heap_correct :
  forall (A : Type) (comp : A -> A -> bool),
  strict_weak_order comp ->
  forall (d : nat) (c : cont A),
  wf c ->
  0 < csize c ->
  csize c <= d ->
  heap comp (cbase c) (coff c) (coff c + csize c) ->
  exists c' : cont A,
    fx_pop_heap comp d c = Ok c' /\
    reordered c c' /\
    heap comp (cbase c') (coff c') (coff c' + csize c' - 1) /\
    nth_error (cbase c') (coff c' + csize c' - 1) = nth_error (cbase c) (coff c) /\
    (forall i : nat,
     coff c' <= i < coff c' + csize c' -> ~ rel comp (cbase c') (coff c' + csize c' - 1) (cbase c') i).
Proof. exact @fx_pop_heap_correct_lemma. Qed.
Print Assumptions fx_pop_heap_correct.

Example fx_pop_heap_example : fx_pop_heap Nat.ltb 9 (Cont [0;9;5;4;1;3] 1 5) =
  Ok (Cont [0;5;3;4;1;9] 1 5).
Proof. vm_compute; reflexivity. Qed.

Theorem fx_sort_heap_correct :
  forall (A : Type) (comp : A -> A -> bool),
  strict_weak_order comp ->
  forall (d : nat) (c : cont A),
  wf c ->
  csize c < d ->
  heap comp (cbase c) (coff c) (coff c + csize c) ->
  exists c' : cont A,
    fx_sort_heap comp d c = Ok c' /\
    reordered c c' /\ sorted_range comp (cbase c') (coff c') (coff c' + csize c').
Proof. exact @fx_sort_heap_correct_lemma. Qed.
Print Assumptions fx_sort_heap_correct.

Example fx_sort_heap_example : fx_sort_heap Nat.ltb 9 (Cont [0;9;5;4;1;3] 1 5) =
  Ok (Cont [0;1;3;4;5;9] 1 5).
Proof. vm_compute; reflexivity. Qed.

Theorem fx_make_heap_correct :
  forall (A : Type) (comp : A -> A -> bool),
  strict_weak_order comp ->
  forall (d : nat) (c : cont A),
  wf c ->
  2 * Nat.log2 (csize c) + 3 <= d ->
  exists c' : cont A,
    fx_make_heap comp d c = Ok c' /\
    reordered c c' /\ heap comp (cbase c') (coff c') (coff c' + csize c').
Proof. exact @fx_make_heap_correct_lemma. Qed.
Print Assumptions fx_make_heap_correct.

Example fx_make_heap_example : fx_make_heap Nat.ltb 9 (Cont [0;1;2;3;4;5] 1 5) =
  Ok (Cont [0;5;4;3;1;2] 1 5).
Proof. vm_compute; reflexivity. Qed.

Theorem fx_make_partial_heap_correct :
  forall (A : Type) (comp : A -> A -> bool),
  strict_weak_order comp ->
  forall (d : nat) (c : cont A) (middle : nat),
  wf c ->
  coff c <= middle <= coff c + csize c ->
  csize c + 3 <= d ->
  exists c' : cont A,
    fx_make_partial_heap comp d c middle = Ok c' /\
    reordered c c' /\
    heap comp (cbase c') (coff c') middle /\
    (forall i j : nat,
     coff c' <= i < middle -> middle <= j < coff c' + csize c' -> ~ rel comp (cbase c') j (cbase c') i).
Proof. exact @fx_make_partial_heap_correct_lemma. Qed.
Print Assumptions fx_make_partial_heap_correct.

Example fx_make_partial_heap_example : fx_make_partial_heap Nat.ltb 9 (Cont [0;5;4;3;2;1] 1 5) 3 =
  Ok (Cont
  [0;2;1;5;4;3] 1 5).
Proof. vm_compute; reflexivity. Qed.

Theorem fx_partial_sort_correct :
  forall (A : Type) (comp : A -> A -> bool),
  strict_weak_order comp ->
  forall (d : nat) (c : cont A) (middle : nat),
  wf c ->
  coff c <= middle <= coff c + csize c ->
  csize c + 3 <= d ->
  exists c' : cont A,
    fx_partial_sort comp d c middle = Ok c' /\
    reordered c c' /\
    sorted_range comp (cbase c') (coff c') middle /\
    (forall i j : nat,
     coff c' <= i < middle -> middle <= j < coff c' + csize c' -> ~ rel comp (cbase c') j (cbase c') i).
Proof. exact @fx_partial_sort_correct_lemma. Qed.
Print Assumptions fx_partial_sort_correct.

Example fx_partial_sort_example : fx_partial_sort Nat.ltb 9 (Cont [0;5;4;3;2;1] 1 5) 3 =
  Ok (Cont
  [0;1;2;5;4;3] 1 5).
Proof. vm_compute; reflexivity. Qed.

(** Missing: nth at the end, see [fx_nth_element_refuted]. *)
Theorem fx_nth_element_partial :
  forall (A : Type) (comp : A -> A -> bool),
  strict_weak_order comp ->
  forall (d : nat) (c : cont A) (nth : nat),
  wf c ->
  coff c <= nth < coff c + csize c ->
  csize c + 3 <= d ->
  exists c' : cont A,
    fx_nth_element comp d c nth = Ok c' /\
    reordered c c' /\
    (forall i : nat, coff c' <= i < nth -> ~ rel comp (cbase c') nth (cbase c') i) /\
    (forall j : nat, nth < j < coff c' + csize c' -> ~ rel comp (cbase c') j (cbase c') nth) /\
    (forall s : cont A,
     reordered c s ->
     sorted_range comp (cbase s) (coff s) (coff s + csize s) ->
     exists x y : A,
       nth_error (cbase c') nth = Some x /\ nth_error (cbase s) nth = Some y /\ equivalent comp x y).
Proof. exact @fx_nth_element_partial_lemma. Qed.
Print Assumptions fx_nth_element_partial.

Example fx_nth_element_example : fx_nth_element Nat.ltb 9 (Cont [0;5;4;3;2;1] 1 5) 3 =
  Ok (Cont [0;1;2;3;5;4]
  1 5).
Proof. vm_compute; reflexivity. Qed.

Theorem fx_next_permutation_correct :
  forall (A : Type) (comp : A -> A -> bool),
  strict_weak_order comp ->
  forall (d : nat) (c : cont A),
  wf c ->
  2 * csize c + 1 <= d ->
  exists (ys : list A) (b : bool),
    fx_next_permutation comp d c = Ok (with_front c ys, b) /\
    Permutation (elems c) ys /\
    (b = true -> next_of comp (elems c) ys) /\
    (b = false -> is_last_perm comp (elems c) /\ is_first_perm comp ys /\ sorted_list comp ys).
Proof. exact @fx_next_permutation_correct_lemma. Qed.
Print Assumptions fx_next_permutation_correct.

Example fx_next_permutation_example : fx_next_permutation Nat.ltb 9 (Cont [0;1;3;2;0] 1 3) =
  Ok (Cont
  [0;2;1;3;0] 1 3, true).
Proof. vm_compute; reflexivity. Qed.

Theorem fx_prev_permutation_correct :
  forall (A : Type) (comp : A -> A -> bool),
  strict_weak_order comp ->
  forall (d : nat) (c : cont A),
  wf c ->
  2 * csize c + 1 <= d ->
  exists (ys : list A) (b : bool),
    fx_prev_permutation comp d c = Ok (with_front c ys, b) /\
    Permutation (elems c) ys /\
    (b = true -> next_of comp ys (elems c)) /\
    (b = false -> is_first_perm comp (elems c) /\ is_last_perm comp ys).
Proof. exact @fx_prev_permutation_correct_lemma. Qed.
Print Assumptions fx_prev_permutation_correct.

Example fx_prev_permutation_example : fx_prev_permutation Nat.ltb 9 (Cont [0;2;1;3;0] 1 3) =
  Ok (Cont
  [0;1;3;2;0] 1 3, true).
Proof. vm_compute; reflexivity. Qed.

(** Missing: an empty container over an array of several elements, see [fx_stable_sort_refuted]. *)
Theorem fx_stable_sort_partial :
  forall (A : Type) (comp : A -> A -> bool),
  strict_weak_order comp ->
  forall (d : nat) (c : cont A),
  wf c ->
  0 < csize c \/ static_size c <= 1 ->
  2 * (csize c + 2) * (csize c + 2) <= d ->
  exists out : list A,
    fx_stable_sort comp d c = Ok (with_front c out) /\ stable_sort_of comp (elems c) out.
Proof. exact @fx_stable_sort_partial_lemma. Qed.
Print Assumptions fx_stable_sort_partial.

Example fx_stable_sort_example : fx_stable_sort (fun x y => x / 10 <? y / 10) 99 (Cont [0;31;12;32;11;0] 1 4)
  =
  Ok (Cont [0;12;11;31;32;0] 1 4).
Proof. vm_compute; reflexivity. Qed.

(** Missing: that all arrangements are equally likely, see [fx_shuffle_refuted]. *)
Theorem fx_shuffle_partial :
  forall (A G : Type) (dist : G -> nat -> nat -> nat * G),
  in_interval dist ->
  forall (d : nat) (c : cont A) (g0 : G),
  wf c ->
  csize c <= d ->
  (csize c <= 1 -> fx_shuffle_result dist d c g0 = Ok (c, g0)) /\
  (1 < csize c ->
   forall (rs : list nat) (g' : G),
   draws (fun g : G => dist g 0 (csize c - 1)) (csize c) g0 = (rs, g') ->
   exists out : list A,
     fx_shuffle_result dist d c g0 = Ok (with_front c out, g') /\
     exchanges (elems c) (combine (seq 0 (csize c)) rs) out /\ Permutation (elems c) out).
Proof. exact @fx_shuffle_partial_lemma. Qed.
Print Assumptions fx_shuffle_partial.

Example fx_shuffle_example : fx_shuffle_result scripted 3 (Cont [0;1;2;3;0] 1 3) [2;2;1] =
  Ok (Cont
  [0;3;2;1;0] 1 3, []).
Proof. vm_compute; reflexivity. Qed.

Theorem fx_random_swap_correct :
  forall (A G : Type) (dist : G -> nat -> nat -> nat * G),
  in_interval dist ->
  forall (c : cont A) (g0 : G),
  wf c ->
  (csize c <= 1 -> fx_random_swap_result dist c g0 = Ok (c, g0)) /\
  (1 < csize c ->
   forall (i : nat) (g1 : G) (j : nat) (g2 : G),
   dist g0 0 (csize c - 1) = (i, g1) ->
   dist g1 0 (csize c - 1) = (j, g2) ->
   exists out : list A,
     fx_random_swap_result dist c g0 = Ok (with_front c out, g2) /\
     exchanged (elems c) i j out /\ Permutation (elems c) out).
Proof. exact @fx_random_swap_correct_lemma. Qed.
Print Assumptions fx_random_swap_correct.

Example fx_random_swap_example : fx_random_swap_result scripted (Cont [0;1;2;3;0] 1 3) [0;2;7] =
  Ok (Cont
  [0;3;2;1;0] 1 3, [7]).
Proof. vm_compute; reflexivity. Qed.

(** Of three elements the 27 equally likely scripts of draws keep the order 4 times, and exchange the
    first two 5 times. *)
Theorem fx_shuffle_refuted :
  let times p := length (filter (fun s => match fx_shuffle_result scripted 3 (Cont [1;2;3] 0 3) s with
                           | Ok (c, _) => if list_eq_dec Nat.eq_dec (cbase c) p then true else false
                           | _ => false end) (scripts 3 3)) in
  in_interval scripted /\ length (scripts 3 3) = 27 /\ NoDup (scripts 3 3) /\ times [1;2;3] = 4 /\ times [2;1;3] = 5.
Proof. exact fx_shuffle_refuted_lemma. Qed.
Print Assumptions fx_shuffle_refuted.

Theorem fx_nth_element_refuted : fx_nth_element Nat.ltb 20 (Cont [1;2] 0 2) 2 = UB.
Proof. exact fx_nth_element_refuted_lemma. Qed.
Print Assumptions fx_nth_element_refuted.

(** Sorting no elements of an array of two reads past the array. *)
Theorem fx_stable_sort_refuted : fx_stable_sort Nat.ltb 30 (Cont [1;2] 0 0) = UB.
Proof. exact fx_stable_sort_refuted_lemma. Qed.
Print Assumptions fx_stable_sort_refuted.

(** An element outside of the container is overwritten. *)
Theorem fx_unique_copy_refuted :
  fx_unique_copy Nat.eqb 9 [7;8] 0 2 (Cont [1;2;3] 1 0) = Ok (Cont [1;7;3] 1 0).
Proof. exact fx_unique_copy_refuted_lemma. Qed.
Print Assumptions fx_unique_copy_refuted.

Theorem fx_partial_sum_refuted :
  fx_partial_sum Nat.add 9 [7;8] 0 2 (Cont [1;2;3] 1 0) = Ok (Cont [1;7;3] 1 0).
Proof. exact fx_partial_sum_refuted_lemma. Qed.
Print Assumptions fx_partial_sum_refuted.

(** The first Fibonacci number comes out as 1. *)
Theorem fx_recurrence_refuted :
  fx_recurrence 9 (Cont [9] 0 1) (fun l => list_sum l) [0;1] = Ok (Cont [1] 0 1).
Proof. exact fx_recurrence_refuted_lemma. Qed.
Print Assumptions fx_recurrence_refuted.
