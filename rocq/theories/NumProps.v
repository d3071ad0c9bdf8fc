(** Properties C63-C65: sprout/numeric. *)
From Coq Require Import List Arith Bool.
From Verif Require Import Base SearchSpec OrderSpec MutSpec NumModel NumSpec NumProof.
Import ListNotations.

(** ** C63 *)
Theorem accumulate_correct : forall A B c d (l : list A) first last (init : B) op,
  valid l first last -> depth_bound (last - first) <= d ->
  accumulate c d l first last init op = Ok (fold_left op (slice l first last) init).
Proof. exact @accumulate_correct_lemma. Qed.
Print Assumptions accumulate_correct.

Theorem reduce_correct : forall A B c d (l : list A) first last (init : B) op,
  valid l first last -> depth_bound (last - first) <= d ->
  reduce c d l first last init op = Ok (fold_left op (slice l first last) init).
Proof. exact @reduce_correct_lemma. Qed.
Print Assumptions reduce_correct.

Theorem transform_reduce_correct : forall A B C c d (l : list A) first last (init : B) (op : B -> C -> B) u,
  valid l first last -> depth_bound (last - first) <= d ->
  transform_reduce c d l first last init op u = Ok (fold_left op (map u (slice l first last)) init).
Proof. exact @transform_reduce_correct_lemma. Qed.
Print Assumptions transform_reduce_correct.

Theorem transform_reduce2_correct : forall A1 A2 B C (op1 : B -> C -> B) (op2 : A1 -> A2 -> C)
    c d l1 l2 first1 last1 first2 init,
  valid l1 first1 last1 -> first2 + (last1 - first1) <= length l2 -> depth_bound (last1 - first1) <= d ->
  transform_reduce2 c d l1 l2 first1 last1 first2 init op1 op2 =
    Ok (fold_left op1 (map (fun p => op2 (fst p) (snd p))
          (combine (slice l1 first1 last1) (slice l2 first2 (first2 + (last1 - first1))))) init).
Proof. exact @transform_reduce2_correct_lemma. Qed.
Print Assumptions transform_reduce2_correct.

(** Subtraction is not associative, so the order is visible. *)
Example accumulate_example :
  accumulate true 9 [9;1;2;3;9] 1 4 20 Nat.sub = Ok 14 /\
  accumulate false 9 [9;1;2;3;9] 1 4 [] (fun a x => a ++ [x]) = Ok [1;2;3] /\
  accumulate true 9 [9;1;2;3;9] 1 4 [] (fun a x => a ++ [x]) = Ok [1;2;3] /\
  transform_reduce2 true 9 [1;2;3] [0;4;5;6] 0 3 1 100 Nat.add Nat.mul = Ok 132 /\
  transform_reduce2 false 9 [1;2;3] [0;4;5;6] 0 3 1 100 Nat.add Nat.mul = Ok 132.
Proof. repeat split; reflexivity. Qed.

(** ** C64 *)
Theorem partial_sum_correct : forall A k (m : list A) first last result op,
  valid m first last -> forward_safe first last result ->
  result + (last - first) <= length m -> last - first < k ->
  partial_sum k m first last result op =
    Ok (paste m result (inclusive op (slice m first last)), result + (last - first)).
Proof. exact @partial_sum_correct_lemma. Qed.
Print Assumptions partial_sum_correct.

Theorem adjacent_difference_correct : forall A k (m : list A) first last result op,
  valid m first last -> forward_safe first last result ->
  result + (last - first) <= length m -> last - first < k ->
  adjacent_difference k m first last result op =
    Ok (paste m result (adjacent op (slice m first last)), result + (last - first)).
Proof. exact @adjacent_difference_correct_lemma. Qed.
Print Assumptions adjacent_difference_correct.

Theorem sum_difference_inverse : forall A k (m : list A) first last result plus minus,
  valid m first last -> forward_safe first last result ->
  result + (last - first) <= length m -> last - first < k ->
  ((forall a x, minus (plus a x) a = x) ->
   (r <- partial_sum k m first last result plus ;;
    adjacent_difference k (fst r) result (snd r) result minus)
   = Ok (paste m result (slice m first last), result + (last - first))) /\
  ((forall a x, plus a (minus x a) = x) ->
   (r <- adjacent_difference k m first last result minus ;;
    partial_sum k (fst r) result (snd r) result plus)
   = Ok (paste m result (slice m first last), result + (last - first))).
Proof. exact @sum_difference_inverse_lemma. Qed.
Print Assumptions sum_difference_inverse.

Theorem iota_correct : forall A k (m : list A) first last (succ : A -> A) value,
  valid m first last -> last - first < k ->
  iota k m first last succ value = Ok (paste m first (counting succ value (last - first))).
Proof. exact @iota_correct_lemma. Qed.
Print Assumptions iota_correct.

Example partial_sum_example :
  partial_sum 9 [7;1;2;3;7] 1 4 1 Nat.add = Ok ([7;1;3;6;7], 4) /\
  partial_sum 9 [7;1;2;3;7] 1 4 0 Nat.add = Ok ([1;3;6;3;7], 3) /\
  adjacent_difference 9 [7;1;3;6;7] 1 4 1 Nat.sub = Ok ([7;1;2;3;7], 4) /\
  iota 9 [0;0;0;0;0] 1 4 S 5 = Ok [0;5;6;7;0].
Proof. repeat split; reflexivity. Qed.

(** ** C65: the scans without an initial value *)
Theorem inclusive_scan_correct : forall A k (m : list A) first last result op,
  valid m first last -> forward_safe first last result ->
  result + (last - first) <= length m -> last - first < k ->
  inclusive_scan k m first last result op =
    Ok (paste m result (inclusive op (slice m first last)), result + (last - first)).
Proof. exact @partial_sum_correct_lemma. Qed.
Print Assumptions inclusive_scan_correct.

Theorem transform_inclusive_scan_correct : forall A k (m : list A) first last result op u,
  valid m first last -> forward_safe first last result ->
  result + (last - first) <= length m -> last - first < k ->
  transform_inclusive_scan k m first last result op u =
    Ok (paste m result (inclusive op (map u (slice m first last))), result + (last - first)).
Proof. exact @transform_inclusive_scan_correct_lemma. Qed.
Print Assumptions transform_inclusive_scan_correct.

(** The exclusive scan is wrong in place (and for an empty range, see below). *)
Theorem exclusive_scan_refuted :
  ~ (forall A k (m : list A) first last result init op,
       valid m first last -> forward_safe first last result ->
       result + (last - first) <= length m -> last - first < k ->
       exclusive_scan k m first last result init op =
         Ok (paste m result (exclusive op init (slice m first last)), result + (last - first))).
Proof. exact exclusive_scan_refuted_lemma. Qed.
Print Assumptions exclusive_scan_refuted.

Theorem exclusive_scan_empty : forall A k (m : list A) first result init op,
  (result < length m -> exclusive_scan k m first first result init op = Ok (upd m result init, S result)) /\
  (length m <= result -> exclusive_scan k m first first result init op = UB).
Proof. exact @exclusive_scan_empty_lemma. Qed.
Print Assumptions exclusive_scan_empty.

Theorem exclusive_scan_partial : forall A k (m : list A) first last result init op,
  valid m first last -> first < last -> result < first \/ last <= result ->
  result + (last - first) <= length m -> last - first < k ->
  exclusive_scan k m first last result init op =
    Ok (paste m result (exclusive op init (slice m first last)), result + (last - first)).
Proof. exact @exclusive_scan_partial_lemma. Qed.
Print Assumptions exclusive_scan_partial.

Theorem transform_exclusive_scan_partial : forall A k (m : list A) first last result init op u,
  valid m first last -> first < last -> result < first \/ last <= result ->
  result + (last - first) <= length m -> last - first < k ->
  transform_exclusive_scan k m first last result init op u =
    Ok (paste m result (exclusive op init (map u (slice m first last))), result + (last - first)).
Proof. exact @transform_exclusive_scan_partial_lemma. Qed.
Print Assumptions transform_exclusive_scan_partial.

(** With an initial value the inclusive scan writes the initial value first, and so one
    element too many. *)
Theorem inclusive_scan_init_refuted :
  ~ (forall A k (m : list A) first last result op init,
       valid m first last -> last <= result ->
       result + (last - first) <= length m -> last - first < k ->
       inclusive_scan_init k m first last result op init =
         Ok (paste m result (prefix_folds op init (slice m first last)), result + (last - first))).
Proof. exact inclusive_scan_init_refuted_lemma. Qed.
Print Assumptions inclusive_scan_init_refuted.

Theorem inclusive_scan_init_partial : forall A k (m : list A) first last result op init,
  valid m first last -> result < first \/ last <= result ->
  S result + (last - first) <= length m -> last - first < k ->
  inclusive_scan_init k m first last result op init =
    Ok (paste m result (init :: prefix_folds op init (slice m first last)), S result + (last - first)).
Proof. exact @inclusive_scan_init_partial_lemma. Qed.
Print Assumptions inclusive_scan_init_partial.

Theorem transform_inclusive_scan_init_partial : forall A k (m : list A) first last result op u init,
  valid m first last -> result < first \/ last <= result ->
  S result + (last - first) <= length m -> last - first < k ->
  transform_inclusive_scan_init k m first last result op u init =
    Ok (paste m result (init :: prefix_folds op init (map u (slice m first last))), S result + (last - first)).
Proof. exact @transform_inclusive_scan_init_partial_lemma. Qed.
Print Assumptions transform_inclusive_scan_init_partial.

Example scan_example :
  exclusive_scan 9 [1;2;3;0;0;0;9] 0 3 3 10 Nat.add = Ok ([1;2;3;10;11;13;9], 6) /\
  exclusive_scan 9 [1;2;3] 0 3 0 10 Nat.add = Ok ([10;20;40], 3) /\
  exclusive_scan 9 [1;2;3] 0 3 0 10 Nat.add <> Ok ([10;11;13], 3) /\
  inclusive_scan_init 9 [1;2;3;0;0;0;9] 0 3 3 Nat.add 10 = Ok ([1;2;3;10;11;13;16], 7) /\
  inclusive_scan_init 9 [1;2;3;0;0;0] 0 3 3 Nat.add 10 = UB /\
  transform_inclusive_scan 9 [1;2;3] 0 3 0 Nat.add (Nat.mul 2) = Ok ([2;6;12], 3).
Proof. repeat split; try reflexivity. discriminate. Qed.
