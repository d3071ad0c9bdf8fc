(** What merging and the set operations compute.  Independent of the models. *)
From Coq Require Import List Arith Bool.
From Verif Require Import SearchSpec OrderSpec.
Import ListNotations.

(** The elements of [xs] equivalent to [z], in order. *)
Definition class {A} (comp : A -> A -> bool) (z : A) (xs : list A) : list A :=
  filter (equiv_to comp z) xs.

(** [xs] is sorted. *)
Definition sorted_list {A} (comp : A -> A -> bool) (xs : list A) : Prop :=
  sorted_range comp xs 0 (length xs).

(** The two ranges have no position in common. *)
Definition apart (first1 last1 first2 last2 : nat) : Prop :=
  last1 <= first2 \/ last2 <= first1.

(** C++11 25.4.4 [alg.merge]: sorted, and of equivalent elements those of [xs] come
    first, then those of [ys], both in their order. *)
Definition merge_of {A} (comp : A -> A -> bool) (xs ys out : list A) : Prop :=
  sorted_list comp out /\
  forall z, class comp z out = class comp z xs ++ class comp z ys.

(** C++11 25.4.5.2 [set.union]: of m elements equivalent to z in [xs] and n in [ys], all
    m, then the last max(n - m, 0) of the n. *)
Definition union_of {A} (comp : A -> A -> bool) (xs ys out : list A) : Prop :=
  sorted_list comp out /\
  forall z, class comp z out = class comp z xs ++ skipn (length (class comp z xs)) (class comp z ys).

(** 25.4.5.3 [set.intersection]: the first min(m, n) of the m. *)
Definition intersection_of {A} (comp : A -> A -> bool) (xs ys out : list A) : Prop :=
  sorted_list comp out /\
  forall z, class comp z out = firstn (length (class comp z ys)) (class comp z xs).

(** 25.4.5.4 [set.difference]: the last max(m - n, 0) of the m. *)
Definition difference_of {A} (comp : A -> A -> bool) (xs ys out : list A) : Prop :=
  sorted_list comp out /\
  forall z, class comp z out = skipn (length (class comp z ys)) (class comp z xs).

(** 25.4.5.5 [set.symmetric.difference]: the last m - n of the m if m > n, the last
    n - m of the n if m < n. *)
Definition symmetric_difference_of {A} (comp : A -> A -> bool) (xs ys out : list A) : Prop :=
  sorted_list comp out /\
  forall z, class comp z out =
    skipn (length (class comp z ys)) (class comp z xs) ++
    skipn (length (class comp z xs)) (class comp z ys).

(** [out] fits into [m] from [result] on and overlaps neither input. *)
Definition room {A} (m : list A) (first1 last1 first2 last2 result : nat) (out : list A) : Prop :=
  result + length out <= length m /\
  apart first1 last1 result (result + length out) /\
  apart first2 last2 result (result + length out).

(** Equivalent elements at position [i] of [la] and [j] of [lb]. *)
Definition equivalent_at {A} (comp : A -> A -> bool) (la : list A) (i : nat) (lb : list A) (j : nat) : Prop :=
  exists x y, nth_error la i = Some x /\ nth_error lb j = Some y /\ equivalent comp x y.

(** Position [i] has an equivalent in [first2, last2). *)
Definition has_partner {A} (comp : A -> A -> bool) (la lb : list A) (first2 last2 i : nat) : Prop :=
  exists j, first2 <= j < last2 /\ equivalent_at comp la i lb j.

(** Up to and including position [i], [la] from [first1] on has more elements equivalent to
    the one at [i] than [first2, last2) of [lb] has: when the elements of the two ranges
    are paired off, the one at [i] goes without partner. *)
Definition unpaired {A} (comp : A -> A -> bool) (la lb : list A) (first1 first2 last2 i : nat) : Prop :=
  exists x, nth_error la i = Some x /\
    length (class comp x (slice lb first2 last2)) < length (class comp x (slice la first1 (S i))).

(** Elements with a key and a tag; the order sees the key only. *)
Definition by_key (a b : nat * nat) : bool := fst a <? fst b.
