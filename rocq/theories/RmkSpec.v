(** Vocabulary of the statements about remake_iterator. *)
From Coq Require Import List Arith ZArith.
From Verif Require Import Base MutSpec RmkModel.
Import ListNotations.

(** The internal range with [b, e) replaced by the elements of [src], as many as there are and fit. *)
Definition remade {A} (dst src : list A) (b e : nat) : list A := paste dst b (firstn (e - b) src).

(** The iterator that [i] increments lead to. *)
Fixpoint stepped {A} (dst src : list A) (b e i : nat) : res remake_it :=
  match i with
  | 0 => Ok (rmk_begin b e)
  | S i => it <- stepped dst src b e i ;; rmk_next dst src it
  end.
