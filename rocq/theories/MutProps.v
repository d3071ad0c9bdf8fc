(** Properties C20-C27 and C38-C40: the mutating algorithms.
    [k] is the number of loop turns allowed; every theorem holds for all large enough
    [k], so it includes termination.  [paste m i xs] is the memory [m] with [xs] stored
    from position [i] on and nothing else changed (MutSpec.v). *)
From Coq Require Import List Arith Bool Permutation.
From Verif Require Import Base SearchSpec OrderModel OrderSpec MutModel MutSpec MutProof2 MutProof3 MutProof4.
Import ListNotations.

(** ** C20 *)
Theorem rotate_correct : forall A k (m : list A) first middle last,
  valid m first last -> first <= middle <= last -> last - first < k ->
  rotate k m first middle last =
    Ok (paste m first (slice m middle last ++ slice m first middle), first + (last - middle)).
Proof. exact @rotate_correct_lemma. Qed.
Print Assumptions rotate_correct.

Theorem rotate_copy_correct : forall A k (m : list A) first middle last result,
  valid m first last -> first <= middle <= last ->
  last <= result \/ result + (last - first) <= first ->
  result + (last - first) <= length m -> last - first < k ->
  rotate_copy k m first middle last result =
    Ok (paste m result (slice m middle last ++ slice m first middle), result + (last - first)).
Proof. exact @rotate_copy_correct_lemma. Qed.
Print Assumptions rotate_copy_correct.

Example rotate_example :
  rotate 9 [0;1;2;3;4;5;6;9] 1 3 7 = Ok ([0;3;4;5;6;1;2;9], 5) /\
  rotate 9 [0;1;2;3;4;5;6;9] 1 5 7 = Ok ([0;5;6;1;2;3;4;9], 3) /\
  rotate_copy 9 [1;2;3;0;0;0;9] 0 1 3 3 = Ok ([1;2;3;2;3;1;9], 6).
Proof. repeat split; reflexivity. Qed.

(** ** C21 *)
Theorem reverse_correct : forall A k (m : list A) first last,
  valid m first last -> last - first < k ->
  reverse k m first last = Ok (paste m first (rev (slice m first last))).
Proof. exact @reverse_correct_lemma. Qed.
Print Assumptions reverse_correct.

Theorem reverse_copy_correct : forall A k (m : list A) first last result,
  valid m first last -> last <= result \/ result + (last - first) <= first ->
  result + (last - first) <= length m -> last - first < k ->
  reverse_copy k m first last result = Ok (paste m result (rev (slice m first last)), result + (last - first)).
Proof. exact @reverse_copy_correct_lemma. Qed.
Print Assumptions reverse_copy_correct.

Theorem copy_correct : forall A k (m : list A) first last result,
  valid m first last -> forward_safe first last result ->
  result + (last - first) <= length m -> last - first < k ->
  copy k m first last result = Ok (paste m result (slice m first last), result + (last - first)).
Proof. exact @copy_correct_lemma. Qed.
Print Assumptions copy_correct.

Theorem move_correct : forall A k (m : list A) first last result,
  valid m first last -> forward_safe first last result ->
  result + (last - first) <= length m -> last - first < k ->
  move k m first last result = Ok (paste m result (slice m first last), result + (last - first)).
Proof. exact @move_correct_lemma. Qed.
Print Assumptions move_correct.

Theorem copy_n_correct : forall A k (m : list A) first n result,
  first + n <= length m -> forward_safe first (first + n) result ->
  result + n <= length m -> n < k ->
  copy_n k m first n result = Ok (paste m result (slice m first (first + n)), result + n).
Proof. exact @copy_n_correct_lemma. Qed.
Print Assumptions copy_n_correct.

Theorem copy_if_correct : forall A p k (m : list A) first last result,
  valid m first last -> forward_safe first last result ->
  result + length (filter p (slice m first last)) <= length m -> last - first < k ->
  copy_if k m first last result p =
    Ok (paste m result (filter p (slice m first last)), result + length (filter p (slice m first last))).
Proof. exact @copy_if_correct_lemma. Qed.
Print Assumptions copy_if_correct.

Theorem copy_while_correct : forall A p k (m : list A) first last result,
  valid m first last -> forward_safe first last result ->
  result + length (prefix_while p (slice m first last)) <= length m -> last - first < k ->
  copy_while k m first last result p =
    Ok (paste m result (prefix_while p (slice m first last)),
        first + length (prefix_while p (slice m first last)),
        result + length (prefix_while p (slice m first last))).
Proof. exact @copy_while_correct_lemma. Qed.
Print Assumptions copy_while_correct.

Theorem copy_until_correct : forall A p k (m : list A) first last result,
  valid m first last -> forward_safe first last result ->
  result + length (prefix_while (fun x => negb (p x)) (slice m first last)) <= length m -> last - first < k ->
  copy_until k m first last result p =
    Ok (paste m result (prefix_while (fun x => negb (p x)) (slice m first last)),
        first + length (prefix_while (fun x => negb (p x)) (slice m first last)),
        result + length (prefix_while (fun x => negb (p x)) (slice m first last))).
Proof. exact @copy_until_correct_lemma. Qed.
Print Assumptions copy_until_correct.

Theorem copy_backward_correct : forall A k (m : list A) first last result,
  valid m first last -> backward_safe first last result ->
  last - first <= result <= length m -> last - first < k ->
  copy_backward k m first last result =
    Ok (paste m (result - (last - first)) (slice m first last), result - (last - first)).
Proof. exact @copy_backward_correct_lemma. Qed.
Print Assumptions copy_backward_correct.

Theorem fill_correct : forall A k (m : list A) first last v,
  valid m first last -> last - first < k ->
  fill k m first last v = Ok (paste m first (repeat v (last - first))).
Proof. exact @fill_correct_lemma. Qed.
Print Assumptions fill_correct.

Theorem fill_n_correct : forall A k (m : list A) first n v,
  first + n <= length m -> n < k ->
  fill_n k m first n v = Ok (paste m first (repeat v n), first + n).
Proof. exact @fill_n_correct_lemma. Qed.
Print Assumptions fill_n_correct.

Theorem generate_correct : forall A G (gen : G -> A * G) g k m first last,
  valid m first last -> last - first < k ->
  generate k m first last gen g =
    Ok (paste m first (fst (draws gen (last - first) g)), snd (draws gen (last - first) g)).
Proof. exact @generate_correct_lemma. Qed.
Print Assumptions generate_correct.

Theorem generate_n_correct : forall A G (gen : G -> A * G) g k m first n,
  first + n <= length m -> n < k ->
  generate_n k m first n gen g =
    Ok (paste m first (fst (draws gen n g)), first + n, snd (draws gen n g)).
Proof. exact @generate_n_correct_lemma. Qed.
Print Assumptions generate_n_correct.

Theorem transform_correct : forall A (op : A -> A) k m first last result,
  valid m first last -> forward_safe first last result ->
  result + (last - first) <= length m -> last - first < k ->
  transform k m first last result op =
    Ok (paste m result (map op (slice m first last)), result + (last - first)).
Proof. exact @transform_correct_lemma. Qed.
Print Assumptions transform_correct.

Theorem transform2_correct : forall A (op : A -> A -> A) k m first1 last1 first2 result,
  valid m first1 last1 -> first2 + (last1 - first1) <= length m ->
  forward_safe first1 last1 result -> forward_safe first2 (first2 + (last1 - first1)) result ->
  result + (last1 - first1) <= length m -> last1 - first1 < k ->
  transform2 k m first1 last1 first2 result op =
    Ok (paste m result (map2 op (slice m first1 last1) (slice m first2 (first2 + (last1 - first1)))),
        result + (last1 - first1)).
Proof. exact @transform2_correct_lemma. Qed.
Print Assumptions transform2_correct.

Theorem replace_correct : forall A B (eqb : A -> B -> bool) old new k m first last,
  valid m first last -> last - first < k ->
  replace eqb k m first last old new =
    Ok (paste m first (map (fun x => if eqb x old then new else x) (slice m first last))).
Proof. exact @replace_correct_lemma. Qed.
Print Assumptions replace_correct.

Theorem replace_if_correct : forall A (p : A -> bool) new k m first last,
  valid m first last -> last - first < k ->
  replace_if k m first last p new =
    Ok (paste m first (map (fun x => if p x then new else x) (slice m first last))).
Proof. exact @replace_if_correct_lemma. Qed.
Print Assumptions replace_if_correct.

Theorem replace_copy_if_correct : forall A (p : A -> bool) new k m first last result,
  valid m first last -> forward_safe first last result ->
  result + (last - first) <= length m -> last - first < k ->
  replace_copy_if k m first last result p new =
    Ok (paste m result (map (fun x => if p x then new else x) (slice m first last)), result + (last - first)).
Proof. exact @replace_copy_if_correct_lemma. Qed.
Print Assumptions replace_copy_if_correct.

Theorem swap_ranges_correct : forall A k (m : list A) first1 last1 first2,
  valid m first1 last1 -> first2 + (last1 - first1) <= length m ->
  last1 <= first2 \/ first2 + (last1 - first1) <= first1 -> last1 - first1 < k ->
  swap_ranges k m first1 last1 first2 =
    Ok (paste (paste m first1 (slice m first2 (first2 + (last1 - first1)))) first2 (slice m first1 last1),
        first2 + (last1 - first1)).
Proof. exact @swap_ranges_correct_lemma. Qed.
Print Assumptions swap_ranges_correct.

Theorem for_each_correct : forall A F (f : F -> A -> F * A) st k m first last,
  valid m first last -> last - first < k ->
  for_each k m first last f st =
    Ok (paste m first (fst (map_state f st (slice m first last))), snd (map_state f st (slice m first last))).
Proof. exact @for_each_correct_lemma. Qed.
Print Assumptions for_each_correct.

Example mutating_example :
  reverse 9 [0;1;2;3;4;9] 1 5 = Ok [0;4;3;2;1;9] /\
  reverse_copy 9 [1;2;3;0;0;0;9] 0 3 3 = Ok ([1;2;3;3;2;1;9], 6) /\
  copy 9 [0;1;2;3;9] 1 4 0 = Ok ([1;2;3;3;9], 3) /\
  copy_backward 9 [0;1;2;3;9] 1 4 5 = Ok ([0;1;1;2;3], 2) /\
  copy_n 9 [1;2;3;0;0] 0 2 3 = Ok ([1;2;3;1;2], 5) /\
  copy_if 9 [1;2;3;4;0;0;9] 0 4 4 Nat.even = Ok ([1;2;3;4;2;4;9], 6) /\
  copy_while 9 [2;4;3;6;0;0;9] 0 4 4 Nat.even = Ok ([2;4;3;6;2;4;9], 2, 6) /\
  copy_until 9 [1;3;4;5;0;0;9] 0 4 4 Nat.even = Ok ([1;3;4;5;1;3;9], 2, 6) /\
  fill 9 [0;1;2;3] 1 3 7 = Ok [0;7;7;3] /\ fill_n 9 [0;1;2;3] 1 2 7 = Ok ([0;7;7;3], 3) /\
  generate 9 [0;1;2;3] 1 3 (fun g => (10 + g, S g)) 5 = Ok ([0;15;16;3], 7) /\
  generate_n 9 [0;1;2;3] 1 2 (fun g => (10 + g, S g)) 5 = Ok ([0;15;16;3], 3, 7) /\
  transform 9 [0;1;2;3] 1 3 1 S = Ok ([0;2;3;3], 3) /\
  transform2 9 [1;2;10;20;0;0] 0 2 2 4 Nat.add = Ok ([1;2;10;20;11;22], 6) /\
  replace Nat.eqb 9 [1;2;1;2] 0 3 1 7 = Ok [7;2;7;2] /\
  replace_if 9 [1;2;1;2] 0 3 Nat.even 7 = Ok [1;7;1;2] /\
  replace_copy_if 9 [1;2;0;0] 0 2 2 Nat.even 7 = Ok ([1;2;1;7], 4) /\
  swap_ranges 9 [1;2;3;4;5] 0 2 3 = Ok ([4;5;3;1;2], 5) /\
  for_each 9 [1;2;3] 0 3 (fun s x => (s + x, x + 10)) 0 = Ok ([11;12;13], 6).
Proof. repeat split; reflexivity. Qed.

(** ** C22 *)
(** The full statement: the elements of [first, last) are moved to the range ending at
    [result].  It is false: on every non-empty range the call leaves the sequence. *)
Theorem move_backward_refuted : forall A k (m : list A) first last result,
  first < last -> first < k -> move_backward k m first last result = UB.
Proof. exact @move_backward_ub_lemma. Qed.
Print Assumptions move_backward_refuted.

(** What does hold: moving nothing.  Missing: everything else. *)
Theorem move_backward_partial : forall A k (m : list A) first result,
  0 < k -> move_backward k m first first result = Ok (m, result).
Proof. exact @move_backward_partial_lemma. Qed.
Print Assumptions move_backward_partial.

Example move_backward_example :
  move_backward 9 [0;1;2;3;0] 1 3 5 = UB /\ copy_backward 9 [0;1;2;3;0] 1 3 5 = Ok ([0;1;2;1;2], 3).
Proof. split; reflexivity. Qed.

(** ** C23 *)
(** The full statement: f is applied to the first n elements.  It is false: for n > 0
    the loop never ends inside the sequence. *)
Theorem for_each_n_refuted : forall A F (f : F -> A -> F * A) st k m first n,
  0 < n -> length m - first < k -> for_each_n k m first n f st = UB.
Proof. exact @for_each_n_ub_lemma. Qed.
Print Assumptions for_each_n_refuted.

Theorem for_each_n_partial : forall A F (f : F -> A -> F * A) st k m first,
  0 < k -> for_each_n k m first 0 f st = Ok (m, first, st).
Proof. exact @for_each_n_partial_lemma. Qed.
Print Assumptions for_each_n_partial.

Example for_each_n_example :
  for_each_n 9 [1;2;3] 0 1 (fun s x => (s + x, x)) 0 = UB /\
  for_each_n 9 [1;2;3] 0 0 (fun s x => (s + x, x)) 0 = Ok ([1;2;3], 0, 0).
Proof. split; reflexivity. Qed.

(** ** C24 *)
Theorem remove_if_correct : forall A (p : A -> bool) k m first last,
  valid m first last -> last - first < k ->
  remove_if k m first last p =
    Ok (paste m first (filter (fun x => negb (p x)) (slice m first last)),
        first + length (filter (fun x => negb (p x)) (slice m first last))).
Proof. exact @remove_if_correct_lemma. Qed.
Print Assumptions remove_if_correct.

Theorem remove_correct : forall A B (eqb : A -> B -> bool) v k m first last,
  valid m first last -> last - first < k ->
  remove eqb k m first last v =
    Ok (paste m first (filter (fun x => negb (eqb x v)) (slice m first last)),
        first + length (filter (fun x => negb (eqb x v)) (slice m first last))).
Proof. exact @remove_correct_lemma. Qed.
Print Assumptions remove_correct.

Theorem remove_copy_if_correct : forall A (p : A -> bool) k m first last result,
  valid m first last -> forward_safe first last result ->
  result + length (filter (fun x => negb (p x)) (slice m first last)) <= length m -> last - first < k ->
  remove_copy_if k m first last result p =
    Ok (paste m result (filter (fun x => negb (p x)) (slice m first last)),
        result + length (filter (fun x => negb (p x)) (slice m first last))).
Proof. exact @remove_copy_if_correct_lemma. Qed.
Print Assumptions remove_copy_if_correct.

Example remove_example :
  remove Nat.eqb 9 [7;1;7;2;7;3] 0 5 7 = Ok ([1;2;7;2;7;3], 2) /\
  remove_if 9 [1;2;3;4;5] 1 5 Nat.even = Ok ([1;3;5;4;5], 3) /\
  remove_copy_if 9 [1;2;3;0;0] 0 3 3 Nat.even = Ok ([1;2;3;1;3], 5).
Proof. repeat split; reflexivity. Qed.

(** ** C25 *)
Theorem unique_correct : forall A (pred : A -> A -> bool) k m first last,
  valid m first last -> last - first < k ->
  unique pred k m first last =
    Ok (paste m first (keep_distinct pred (slice m first last)),
        first + length (keep_distinct pred (slice m first last))).
Proof. exact @unique_correct_lemma. Qed.
Print Assumptions unique_correct.

Theorem unique_copy_correct : forall A (pred : A -> A -> bool) k m first last result,
  valid m first last -> forward_safe first last result ->
  result + length (keep_distinct pred (slice m first last)) <= length m -> last - first < k ->
  unique_copy pred k m first last result =
    Ok (paste m result (keep_distinct pred (slice m first last)),
        result + length (keep_distinct pred (slice m first last))).
Proof. exact @unique_copy_correct_lemma. Qed.
Print Assumptions unique_copy_correct.

Example unique_example :
  unique Nat.eqb 9 [1;1;2;2;2;1;9] 0 6 = Ok ([1;2;1;2;2;1;9], 3) /\
  unique_copy Nat.ltb 9 [3;4;5;2;1;0;0;0] 0 5 5 = Ok ([3;4;5;2;1;3;2;1], 8).
Proof. repeat split; reflexivity. Qed.

(** ** C26 *)
Theorem partition_correct : forall A c d (p : A -> bool) k m first last,
  valid m first last -> depth_bound (last - first) <= d -> last - first < k ->
  exists m' r, partition c d k m first last p = Ok (m', r) /\
    rearranged m first last m' /\ splits (sat p m') first last r.
Proof. exact @partition_correct_lemma. Qed.
Print Assumptions partition_correct.

Theorem partition_copy_correct : forall A (p : A -> bool) k m first last out_true out_false,
  let ts := filter p (slice m first last) in
  let fs := filter (fun x => negb (p x)) (slice m first last) in
  valid m first last -> forward_safe first last out_true -> forward_safe first last out_false ->
  out_true + length ts <= length m -> out_false + length fs <= length m ->
  out_true + length ts <= out_false \/ out_false + length fs <= out_true ->
  last - first < k ->
  partition_copy k m first last out_true out_false p =
    Ok (paste (paste m out_true ts) out_false fs, out_true + length ts, out_false + length fs).
Proof. exact @partition_copy_correct_lemma. Qed.
Print Assumptions partition_copy_correct.

Example partition_example :
  partition true 9 9 [9;1;2;3;4;6;9] 1 6 Nat.even = Ok ([9;2;4;6;1;3;9], 4) /\
  partition false 9 9 [9;1;2;3;4;6;9] 1 6 Nat.even = Ok ([9;2;4;6;1;3;9], 4) /\
  partition_copy 9 [1;2;3;0;0;0] 0 3 3 4 Nat.even = Ok ([1;2;3;2;1;3], 4, 6).
Proof. repeat split; reflexivity. Qed.

(** ** C27 *)
(** The full statement: the range becomes [filter p old ++ filter (not p) old].  It is
    false of the code. *)
Theorem stable_partition_refuted :
  exists m : list nat, valid m 0 (length m) /\
    filter Nat.even (slice m 0 (length m)) ++ filter (fun x => negb (Nat.even x)) (slice m 0 (length m)) <> m /\
    forall r c d k, depth_bound (length m) <= d -> depth_bound (length m) <= r ->
      stable_partition r c d k m 0 (length m) Nat.even = Ok (m, 0).
Proof. exact stable_partition_refuted_lemma. Qed.
Print Assumptions stable_partition_refuted.

(** It holds on ranges that are partitioned already.  Missing: all others. *)
Theorem stable_partition_partial : forall A c d (p : A -> bool) k r m first last,
  valid m first last -> depth_bound (last - first) <= d -> depth_bound (last - first) <= r ->
  partitioned (sat p m) first last ->
  stable_partition r c d k m first last p =
    Ok (paste m first (filter p (slice m first last) ++ filter (fun x => negb (p x)) (slice m first last)),
        first + length (filter p (slice m first last))).
Proof. exact @stable_partition_partial_lemma. Qed.
Print Assumptions stable_partition_partial.

(** What is computed on every range: nothing is moved, the result is the first element
    not satisfying [p]. *)
Theorem stable_partition_moves_nothing : forall A c d (p : A -> bool) k r m first last,
  valid m first last -> depth_bound (last - first) <= d -> depth_bound (last - first) <= r ->
  exists q, stable_partition r c d k m first last p = Ok (m, q) /\
    is_first (fun i => ~ sat p m i) first last q.
Proof. exact @stable_partition_char. Qed.
Print Assumptions stable_partition_moves_nothing.

Theorem gather_partial : forall A c d (p : A -> bool) k r m first last pivot,
  valid m first last -> first <= pivot <= last ->
  depth_bound (last - first) <= d -> depth_bound (last - first) <= r ->
  partitioned (fun i => ~ sat p m i) first pivot -> partitioned (sat p m) pivot last ->
  exists a b, gather r c d k m first last pivot p = Ok (m, a, b) /\
    splits (fun i => ~ sat p m i) first pivot a /\ splits (sat p m) pivot last b.
Proof. exact @gather_partial_lemma. Qed.
Print Assumptions gather_partial.

Example stable_partition_example :
  stable_partition 9 true 9 9 [2;4;1;3] 0 4 Nat.even = Ok ([2;4;1;3], 2) /\
  stable_partition 9 true 9 9 [2;1;4;3] 0 4 Nat.even = Ok ([2;1;4;3], 1) /\
  gather 9 false 9 9 [1;3;2;4;5;7] 0 6 3 Nat.even = Ok ([1;3;2;4;5;7], 2, 4).
Proof. repeat split; reflexivity. Qed.

(** ** C38 *)
Theorem shuffle_correct : forall A G (dist : G -> nat -> nat -> nat * G) g k (m : list A) first last,
  (forall g lo hi, lo <= hi -> lo <= fst (dist g lo hi) <= hi) ->
  valid m first last -> last - first < k ->
  exists m' g', shuffle dist k m first last g = Ok (m', g') /\ rearranged m first last m'.
Proof. exact @shuffle_correct_lemma. Qed.
Print Assumptions shuffle_correct.

Theorem random_shuffle_correct : forall A G (rand : G -> nat -> nat * G) g k (m : list A) first last,
  (forall g n, 0 < n -> fst (rand g n) < n) ->
  valid m first last -> last - first < k ->
  exists m' g', random_shuffle rand k m first last g = Ok (m', g') /\ rearranged m first last m'.
Proof. exact @random_shuffle_correct_lemma. Qed.
Print Assumptions random_shuffle_correct.

Example shuffle_example :
  shuffle (fun g lo hi => (hi, g)) 9 [0;1;2;3;4;9] 1 5 tt = Ok ([0;4;1;2;3;9], tt) /\
  random_shuffle (fun g n => (g mod n, S g)) 9 [0;1;2;3;4;9] 1 5 2 = Ok ([0;4;1;2;3;9], 5).
Proof. repeat split; reflexivity. Qed.

(** ** C39 *)
(** The full statement: for every generator staying within the bounds requested, no
    position outside the range is accessed.  False: the bounds requested include the
    position one past the end. *)
Theorem random_swap_refuted :
  exists dist : nat -> nat -> nat -> nat * nat,
    (forall g lo hi, lo <= hi -> lo <= fst (dist g lo hi) <= hi) /\
    valid [10; 20] 0 2 /\ random_swap dist [10; 20] 0 2 1 = UB.
Proof. exact random_swap_refuted_lemma. Qed.
Print Assumptions random_swap_refuted.

(** It holds when the generator happens never to draw the upper bound. *)
Theorem random_swap_partial : forall A G (dist : G -> nat -> nat -> nat * G) g (m : list A) first last,
  (forall g, fst (dist g 0 (last - first)) < last - first) ->
  valid m first last ->
  exists m' g', random_swap dist m first last g = Ok (m', g') /\ rearranged m first last m'.
Proof. exact @random_swap_partial_lemma. Qed.
Print Assumptions random_swap_partial.

Example random_swap_example :
  random_swap (fun g lo hi => (g, S g)) [0;1;2;3;9] 1 4 1 = Ok ([0;1;3;2;9], 3).
Proof. reflexivity. Qed.

(** ** C40 *)
Theorem clamp_correct : forall A (comp : A -> A -> bool) v low high,
  strict_weak_order comp -> comp high low = false ->
  comp (clamp comp v low high) low = false /\ comp high (clamp comp v low high) = false /\
  (comp v low = true -> clamp comp v low high = low) /\
  (comp high v = true -> clamp comp v low high = high) /\
  (comp v low = false -> comp high v = false -> clamp comp v low high = v).
Proof. exact @clamp_correct_lemma. Qed.
Print Assumptions clamp_correct.

Theorem clamp_range_correct : forall A (comp : A -> A -> bool) k m first last result low high,
  valid m first last -> forward_safe first last result ->
  result + (last - first) <= length m -> last - first < k ->
  clamp_range comp k m first last result low high =
    Ok (paste m result (map (fun v => if comp v low then low else if comp high v then high else v)
          (slice m first last)), result + (last - first)).
Proof. exact @clamp_range_correct_lemma. Qed.
Print Assumptions clamp_range_correct.

Example clamp_example :
  clamp Nat.ltb 1 3 5 = 3 /\ clamp Nat.ltb 4 3 5 = 4 /\ clamp Nat.ltb 9 3 5 = 5 /\
  clamp_range Nat.ltb 9 [1;4;9;0;0;0] 0 3 3 3 5 = Ok ([1;4;9;3;4;5], 6).
Proof. repeat split; reflexivity. Qed.
