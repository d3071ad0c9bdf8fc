(** sprout/algorithm/fit/: the fixed algorithms, whose result is cut to a window (sub_array) that
    holds the elements produced. *)
From Coq Require Import List Arith Bool.
From Verif Require Import Base SearchModel FixModel.
Import ListNotations.

(** container/container_fitness_traits.hpp 23-30, container/fit_size.hpp 21-26. *)
Definition fit_size {A} (c : cont A) (size : nat) : nat := Nat.min size (csize c).

(** sub_array/sub.hpp 257-264: a copy of the internal array (get_internal of the result of the fixed
    algorithm) with the window from [to_first] to [to_last]. Simplification: the positions are
    naturals, and a window that does not lie in the array is undefined at once. *)
Definition sub_copy {A} (r : cont A) (to_first to_last : nat) : res (cont A) :=
  if (to_first <=? to_last) && (to_last <=? length (cbase r)) then Ok (Cont (cbase r) to_first (to_last - to_first)) else UB.

Section Copying.
  Context {A : Type}.
  Implicit Types (xs : list A) (c : cont A).

  (** fit/copy.hpp 26-51; the offset is internal_begin_offset(result) *)
  Definition fit_copy (ra : bool) d xs first last c : res (cont A) :=
    r <- fx_copy ra d xs first last c ;;
    sub_copy r (coff c) (coff c + fit_size c (last - first)).

  (** fit/copy_n.hpp 24-47 *)
  Definition fit_copy_n (ra : bool) d xs first n c : res (cont A) :=
    r <- fx_copy_n ra d xs first n c ;;
    sub_copy r (coff c) (coff c + fit_size c n).

  (** fit/copy_if.hpp 26-47 *)
  Definition fit_copy_if (ra : bool) d xs first last c (pred : A -> bool) : res (cont A) :=
    r <- fx_copy_if d xs first last c pred ;;
    n <- count_if ra d xs first last pred ;;
    sub_copy r (coff c) (coff c + fit_size c n).

  (** fit/copy_while.hpp 27-48 *)
  Definition fit_copy_while (ra : bool) d xs first last c (pred : A -> bool) : res (cont A) :=
    r <- fx_copy_while ra d xs first last c pred ;;
    e <- find_if_not ra d xs first last pred ;;
    sub_copy r (coff c) (coff c + fit_size c (e - first)).

  (** fit/copy_until.hpp 27-48 *)
  Definition fit_copy_until (ra : bool) d xs first last c (pred : A -> bool) : res (cont A) :=
    r <- fx_copy_until ra d xs first last c pred ;;
    e <- find_if ra d xs first last pred ;;
    sub_copy r (coff c) (coff c + fit_size c (e - first)).

  (** fit/copy_backward.hpp 25-46; the offset is internal_end_offset(result) *)
  Definition fit_copy_backward (ra : bool) d xs first last c : res (cont A) :=
    r <- fx_copy_backward ra d xs first last c ;;
    let offset := coff c + csize c in
    sub_copy r (offset - fit_size c (last - first)) offset.

  (** fit/remove_copy_if.hpp 27-48 *)
  Definition fit_remove_copy_if (ra : bool) d xs first last c (pred : A -> bool) : res (cont A) :=
    r <- fx_remove_copy_if d xs first last c pred ;;
    n <- count_if ra d xs first last pred ;;
    sub_copy r (coff c) (coff c + fit_size c (last - first - n)).

  (** fit/remove_if.hpp 25-46 *)
  Definition fit_remove_if (ra : bool) d c (pred : A -> bool) : res (cont A) :=
    r <- fx_remove_if d c pred ;;
    n <- count_if ra d (cbase c) (coff c) (coff c + csize c) pred ;;
    sub_copy r (coff c) (coff c + csize c - n).

  (** fit/stable_partition_copy.hpp 25-46 *)
  Definition fit_stable_partition_copy (ra : bool) d xs first last c (pred : A -> bool) : res (cont A) :=
    r <- fx_stable_partition_copy d xs first last c pred ;;
    n <- count_if ra d xs first last pred ;;
    sub_copy r (coff c) (coff c + fit_size c n).

  (** fit/stable_partition.hpp 25-46: the size is the number of elements that do not satisfy pred *)
  Definition fit_stable_partition (ra : bool) d c (pred : A -> bool) : res (cont A) :=
    r <- fx_stable_partition d c pred ;;
    n <- count_if ra d (cbase c) (coff c) (coff c + csize c) pred ;;
    sub_copy r (coff c) (coff c + csize c - n).

  (** fit/partition.hpp 25-46: likewise *)
  Definition fit_partition (ra : bool) d c (pred : A -> bool) : res (cont A) :=
    r <- fx_partition d c pred ;;
    n <- count_if ra d (cbase c) (coff c) (coff c + csize c) pred ;;
    sub_copy r (coff c) (coff c + csize c - n).
  (** detail/algorithm/count_n_if.hpp 35-51: n elements from the position on, by halving *)
  Fixpoint count_n_if_impl (d : nat) xs (pred : A -> bool) (current : nat * nat) (n : nat) : res (nat * nat) :=
    match d with
    | 0 => Fuel
    | S d =>
        if n =? 1 then x <- rd xs (fst current) ;; Ok (S (fst current), snd current + (if pred x then 1 else 0))
        else current <- count_n_if_impl d xs pred current (n / 2) ;; count_n_if_impl d xs pred current (n - n / 2)
    end.
  (** 52-64, 72-76. The version for random access iterators (22-33) asks for a member [pred] of
      is_constant_distance_iterator, which does not exist, so it is never chosen. *)
  Definition count_n_if (d : nat) xs first n (pred : A -> bool) : res nat :=
    if n =? 0 then Ok 0 else r <- count_n_if_impl d xs pred (first, 0) n ;; Ok (snd r).

  (** fit/partition_copy.hpp 27-55 *)
  Definition fit_partition_copy d xs first last c (pred : A -> bool) : res (cont A) :=
    r <- fx_partition_copy d xs first last c pred [] ;;
    n <- count_n_if d xs first (Nat.min (last - first) (csize c)) pred ;;
    sub_copy r (coff c) (coff c + fit_size c n).

  (** detail/algorithm/overlap_count.hpp 21-38; [last] is the last element, not the end *)
  Fixpoint overlap_count_impl_ra (pred : A -> A -> bool) (d : nat) xs first last pivot : res nat :=
    match d with
    | 0 => Fuel
    | S d =>
        if pivot =? 0 then x <- rd xs first ;; y <- rd xs last ;; Ok (if pred x y then 1 else 0)
        else a <- overlap_count_impl_ra pred d xs first (first + pivot) (pivot / 2) ;;
             b <- overlap_count_impl_ra pred d xs (first + pivot) last ((last - first - pivot) / 2) ;;
             Ok (a + b)
    end.
  (** 39-55, and 57-110 for the other iterators *)
  Definition overlap_count (pred : A -> A -> bool) (ra : bool) (d : nat) xs first last : res nat :=
    if ra then
      if (first =? last) || (last - first =? 1) then Ok 0
      else overlap_count_impl_ra pred d xs first (first + (last - first - 1)) ((last - first - 1) / 2)
    else if first =? last then Ok 0
    else
      v <- rd xs first ;;
      s <- dbl (stop (fun '((i, _, _) : nat * A * nat) => i =? last))
        (fun '((i, v, n) : nat * A * nat) => x <- rd xs i ;; Ok (S i, x, n + (if pred x v then 1 else 0)))
        d (S first, v, 0) 1 ;;
      let '(_, _, n) := s in Ok n.

  (** fit/unique_copy.hpp 50-78 (25-48 with == for pred) *)
  Definition fit_unique_copy (pred : A -> A -> bool) (ra : bool) d xs first last c : res (cont A) :=
    r <- fx_unique_copy pred d xs first last c ;;
    n <- overlap_count pred ra d xs first last ;;
    sub_copy r (coff c) (coff c + fit_size c (last - first - n)).

  (** fit/unique.hpp 48-70 (25-46 with == for pred) *)
  Definition fit_unique (pred : A -> A -> bool) (ra : bool) d c : res (cont A) :=
    r <- fx_unique pred d c ;;
    n <- overlap_count pred ra d (cbase c) (coff c) (coff c + csize c) ;;
    sub_copy r (coff c) (coff c + csize c - n).
  (** fit/fill_n.hpp 24-45 *)
  Definition fit_fill_n c n (value : A) : res (cont A) :=
    r <- fx_fill_n c n value ;;
    sub_copy r (coff c) (coff c + Nat.min n (csize c)).
End Copying.

Section Merging.
  Context {A : Type}.
  Variable comp : A -> A -> bool.
  Implicit Types (xs ys : list A) (c : cont A).

  (** detail/algorithm/set_overlap_count.hpp 22-90 *)
  Definition set_overlap_count d xs first1 last1 ys first2 last2 : res nat :=
    s <- dbl (stop (fun '((i, j, _) : nat * nat * nat) => (i =? last1) || (j =? last2)))
      (fun '((i, j, n) : nat * nat * nat) =>
        x <- rd xs i ;; y <- rd ys j ;;
        Ok (if comp x y then (S i, j, n) else if comp y x then (i, S j, n) else (S i, S j, n + 1)))
      d (first1, first2, 0) 1 ;;
    let '(_, _, n) := s in Ok n.

  (** fit/merge.hpp 26-61 *)
  Definition fit_merge d xs first1 last1 ys first2 last2 c : res (cont A) :=
    r <- fx_merge comp d xs first1 last1 ys first2 last2 c ;;
    sub_copy r (coff c) (coff c + fit_size c ((last1 - first1) + (last2 - first2))).

  (** fit/set_union.hpp 26-61 *)
  Definition fit_set_union d xs first1 last1 ys first2 last2 c : res (cont A) :=
    r <- fx_set_union comp d xs first1 last1 ys first2 last2 c ;;
    n <- set_overlap_count d xs first1 last1 ys first2 last2 ;;
    sub_copy r (coff c) (coff c + fit_size c ((last1 - first1) + (last2 - first2) - n)).

  (** fit/set_intersection.hpp 25-60 *)
  Definition fit_set_intersection d xs first1 last1 ys first2 last2 c : res (cont A) :=
    r <- fx_set_intersection comp d xs first1 last1 ys first2 last2 c ;;
    n <- set_overlap_count d xs first1 last1 ys first2 last2 ;;
    sub_copy r (coff c) (coff c + fit_size c n).

  (** fit/set_difference.hpp 26-61 *)
  Definition fit_set_difference d xs first1 last1 ys first2 last2 c : res (cont A) :=
    r <- fx_set_difference comp d xs first1 last1 ys first2 last2 c ;;
    n <- set_overlap_count d xs first1 last1 ys first2 last2 ;;
    sub_copy r (coff c) (coff c + fit_size c (last1 - first1 - n)).

  (** fit/set_symmetric_difference.hpp 26-61 *)
  Definition fit_set_symmetric_difference d xs first1 last1 ys first2 last2 c : res (cont A) :=
    r <- fx_set_symmetric_difference comp d xs first1 last1 ys first2 last2 c ;;
    n <- set_overlap_count d xs first1 last1 ys first2 last2 ;;
    sub_copy r (coff c) (coff c + fit_size c ((last1 - first1) + (last2 - first2) - 2 * n)).
End Merging.
