(** What a bitset is: a function from positions below N to bits. *)
From Coq Require Import List Arith ZArith Bool.
From Verif Require Import Base BitModel BitSpec.
Import ListNotations.
Open Scope Z_scope.

(** bit [i] of a list of words of type [t], the lowest first *)
Definition bit_at (t : ity) (w : list Z) (i : nat) : bool :=
  let W := Z.to_nat (wid t) in Z.testbit (nth (i / W) w 0) (Z.of_nat (i mod W)).
(** the object [w] of type bitset<N> has the bits [f 0], ..., [f (N - 1)]: it has as few words as
    possible, and the unused bits are 0 *)
Definition bits_are (t : ity) (N : nat) (w : list Z) (f : nat -> bool) : Prop :=
  let W := Z.to_nat (wid t) in
  (N <= length w * W < N + W)%nat /\ Forall (is_val t) w /\
  forall i, (i < length w * W)%nat -> bit_at t w i = (Nat.ltb i N && f i)%bool.

(** the number with the bits f 0, ..., f (n - 1) *)
Fixpoint number_of (f : nat -> bool) (n : nat) : Z :=
  match n with
  | O => 0
  | S n => number_of f n + (if f n then 2 ^ Z.of_nat n else 0)
  end.
(** how many of f 0, ..., f (n - 1) are true *)
Fixpoint how_many (f : nat -> bool) (n : nat) : Z :=
  match n with
  | O => 0
  | S n => how_many f n + (if f n then 1 else 0)
  end.
