(** The index sequences are the arithmetic progressions they are named for. *)
From Coq Require Import List Arith Bool ZArith Lia.
From Verif Require Import Base IdxModel IdxSpec IdxProof.
Import ListNotations.
Local Open Scope Z_scope.

(** ** C223 *)
Theorem idx_integer_range_partial : forall M sgn, 1 < M -> forall first step last, range_args first last step ->
  value_of M sgn first -> value_of M sgn last -> Z.abs (last - first) + Z.abs step <= M ->
  exists n, counts first last step n
    /\ forall k d, (n <= 2 ^ k)%nat -> (k < d)%nat ->
       integer_range M sgn d first last step = Ok (progression first step n).
Proof. exact integer_range_lemma. Qed.
Print Assumptions idx_integer_range_partial.
Theorem idx_integer_range_refuted : forall h, 2 <= h ->
  range_count (2 * h) false 0 (2 * h) h = Ok (4 * h - 1) /\ counts 0 (2 * h) h 2.
Proof. exact wide_unsigned_lemma. Qed.
Print Assumptions idx_integer_range_refuted.
Theorem idx_integer_range_wide : forall M d first last step, M <= Z.abs (last - first) - 1 ->
  integer_range M true d first last step = UB.
Proof. exact wide_signed_lemma. Qed.
Print Assumptions idx_integer_range_wide.
Example idx_integer_range_case : range_args 7 (-4) (-3) /\ value_of 128 true 7 /\ value_of 128 true (-4)
  /\ Z.abs (-4 - 7) + Z.abs (-3) <= 128 /\ integer_range 128 true 4 7 (-4) (-3) = Ok [7; 4; 1; -2]
  /\ integer_range 128 false 4 200 250 20 = Ok [200; 220; 240].
Proof. unfold range_args, value_of. repeat split; try reflexivity; lia. Qed.

(** ** C224 *)
Theorem idx_make_integer_sequence : forall M sgn n, 1 < M -> Z.of_nat n < M ->
  forall k d, (n <= 2 ^ k)%nat -> (k < d)%nat ->
  make_integer_sequence M sgn d (Z.of_nat n) = Ok (map Z.of_nat (seq 0 n)).
Proof. exact make_sequence_lemma. Qed.
Print Assumptions idx_make_integer_sequence.
Theorem idx_integer_n : forall A (i : A) k d n, (n <= 2 ^ k)%nat -> (k < d)%nat ->
  integer_n d i n = Ok (repeat i n).
Proof. exact @integer_n_lemma. Qed.
Print Assumptions idx_integer_n.
Example idx_make_integer_sequence_case : make_integer_sequence 128 true 4 5 = Ok [0; 1; 2; 3; 4]
  /\ integer_n 4 7 5 = Ok [7; 7; 7; 7; 7].
Proof. split; reflexivity. Qed.
