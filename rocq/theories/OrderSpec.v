(** Specification vocabulary of the order-based algorithms.  Independent of the
    models. *)
From Coq Require Import List Arith Bool Permutation.
From Verif Require Import SearchSpec.
Import ListNotations.

(** Neither is less than the other. *)
Definition equivalent {A} (comp : A -> A -> bool) (x y : A) : Prop :=
  comp x y = false /\ comp y x = false.

(** Strict weak order, C++11 25.4 [alg.sorting] 4. *)
Definition strict_weak_order {A} (comp : A -> A -> bool) : Prop :=
  (forall x, comp x x = false) /\
  (forall x y z, comp x y = true -> comp y z = true -> comp x z = true) /\
  (forall x y z, equivalent comp x y -> equivalent comp y z -> equivalent comp x z).

(** The elements of [first, last), as a list. *)
Definition slice {A} (l : list A) (first last : nat) : list A :=
  firstn (last - first) (skipn first l).

(** [P] holds on [first, k) and fails on [k, last). *)
Definition splits (P : nat -> Prop) (first last k : nat) : Prop :=
  first <= k <= last /\
  (forall i, first <= i < k -> P i) /\ (forall i, k <= i < last -> ~ P i).

(** Every position with [P] precedes every position without. *)
Definition partitioned (P : nat -> Prop) (first last : nat) : Prop :=
  forall i j, first <= i < last -> first <= j < last -> P i -> ~ P j -> i < j.

(** No element of [first, last) is less than its predecessor. *)
Definition sorted_range {A} (comp : A -> A -> bool) (l : list A) (first last : nat) : Prop :=
  forall i, first <= i -> S i < last -> ~ rel comp l (S i) l i.

(** No element of [first, last) is less than one of its children in the implicit
    binary tree (the parent of position first+i is at first+(i-1)/2). *)
Definition heap {A} (comp : A -> A -> bool) (l : list A) (first last : nat) : Prop :=
  forall i, 0 < i -> first + i < last -> ~ rel comp l (first + (i - 1) / 2) l (first + i).

(** The element at [i] of [l1] and the one at [j] of [l2] are equivalent. *)
Definition same {A B} (lt_ab : A -> B -> bool) (lt_ba : B -> A -> bool)
    (l1 : list A) (i : nat) (l2 : list B) (j : nat) : Prop :=
  ~ rel lt_ab l1 i l2 j /\ ~ rel lt_ba l2 j l1 i.

(** The range of [l1] precedes that of [l2]: after [k] equivalent elements the first
    range ends while the second does not, or has the smaller element. *)
Definition lex_less {A B} (lt_ab : A -> B -> bool) (lt_ba : B -> A -> bool)
    (l1 : list A) (first1 last1 : nat) (l2 : list B) (first2 last2 : nat) : Prop :=
  exists k, first1 + k <= last1 /\ first2 + k < last2 /\
    (forall j, j < k -> same lt_ab lt_ba l1 (first1 + j) l2 (first2 + j)) /\
    (first1 + k = last1 \/ rel lt_ab l1 (first1 + k) l2 (first2 + k)).

(** Both ranges have the same length and are equivalent element by element. *)
Definition lex_equal {A B} (lt_ab : A -> B -> bool) (lt_ba : B -> A -> bool)
    (l1 : list A) (first1 last1 : nat) (l2 : list B) (first2 last2 : nat) : Prop :=
  last1 - first1 = last2 - first2 /\
  forall j, j < last1 - first1 -> same lt_ab lt_ba l1 (first1 + j) l2 (first2 + j).

(** The number of elements of [xs] satisfying [f]. *)
Definition occurrences {A} (f : A -> bool) (xs : list A) : nat := length (filter f xs).

(** [f] of elements equivalent to [z]. *)
Definition equiv_to {A} (comp : A -> A -> bool) (z x : A) : bool :=
  negb (comp z x) && negb (comp x z).

(** [r] is the first position in [first, last) whose element no element is less than. *)
Definition is_first_min {A} (comp : A -> A -> bool) (l : list A) (first last r : nat) : Prop :=
  first <= r < last /\
  (forall j, first <= j < last -> ~ rel comp l j l r) /\
  (forall j, first <= j < r -> rel comp l r l j).

(** [r] is the first position in [first, last) whose element is less than none. *)
Definition is_first_max {A} (comp : A -> A -> bool) (l : list A) (first last r : nat) : Prop :=
  first <= r < last /\
  (forall j, first <= j < last -> ~ rel comp l r l j) /\
  (forall j, first <= j < r -> rel comp l j l r).

(** [r] is the last position in [first, last) whose element is less than none. *)
Definition is_last_max {A} (comp : A -> A -> bool) (l : list A) (first last r : nat) : Prop :=
  first <= r < last /\
  (forall j, first <= j < last -> ~ rel comp l r l j) /\
  (forall j, r < j < last -> rel comp l j l r).
